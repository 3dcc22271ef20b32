(** * Specification vocabulary for the client *)
From Coq Require Import ZArith List Bool.
From Verif Require Import Words ClientOps.
Import ListNotations.
Open Scope Z_scope.

(** What is assumed of [emp::PRG]: blocks of 16 bytes, and the blocks for the 2^64
    values of its counter are different (AES under one key is a permutation). *)
Definition prg_ok (g : prg) : Prop :=
  (forall i, length (g i) = 16%nat /\ Forall is_byte (g i)) /\
  (forall i j, Z.of_nat i < two64 -> Z.of_nat j < two64 -> g i = g j -> i = j).

(** Characters 0-9 and a-f. *)
Definition is_hex (c : Z) : Prop := 48 <= c <= 57 \/ 97 <= c <= 102.

(** Value of a string of hexadecimal digits. *)
Definition hex_val (c : Z) : Z := if c <? 58 then c - 48 else c - 87.
Definition unhex (s : list Z) : Z := fold_left (fun a c => 16 * a + hex_val c) s 0.

(** [one] makes an identity from the block following the ones it uses. *)
Definition fresh_pk {V W} (g : prg) (one : nat -> crec V W * nat) : Prop :=
  forall pos, (pos < snd (one pos))%nat /\ c_pk (fst (one pos)) = make_pk g (snd (one pos)).

(** The extremal value of a non-empty batch. *)
Definition extremum (is_max : bool) (l : list (crec (list Z) nat)) (m : nat) : Prop :=
  (exists r, In r l /\ c_real r = m) /\
  forall r, In r l -> if is_max then (c_real r <= m)%nat else (m <= c_real r)%nat.
