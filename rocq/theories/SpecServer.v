(** * Specification vocabulary for the aggregate operations *)
From Coq Require Import ZArith List Bool Permutation.
From Verif Require Import Words Constants Proc Net ServerOps.
Import ListNotations.
Open Scope Z_scope.

(** The order in which a hash table is traversed is some permutation. *)
Definition fair (order : iteration) : Prop := forall V (m : table V), Permutation (order V m) m.

(** A submission: identity and contents.  Identities have 32 characters. *)
Definition pks_ok {V} (subs : list (list Z * V)) : Prop := Forall (fun s => length (fst s) = 32%nat) subs.

(** What counts for an identity at one server: the first acceptable submission
    under it. *)
Fixpoint first_sub {V} (ok : V -> bool) (subs : list (list Z * V)) (pk : list Z) : option V :=
  match subs with
  | [] => None
  | (k, v) :: subs' =>
      if key_eqb k pk && ok v then Some v else first_sub ok subs' pk
  end.
Definition any {V} (_ : V) : bool := true.

(** [L] lists, in some order and without repetition, the identities with an
    acceptable submission at both servers. *)
Definition accepted {V} (ok : V -> bool) (subs0 subs1 : list (list Z * V)) (L : list (list Z)) : Prop :=
  NoDup L /\ forall pk, In pk L <-> first_sub ok subs0 pk <> None /\ first_sub ok subs1 pk <> None.

(** The two servers' values for an identity combined by [f]; [d] if not accepted. *)
Definition combined {V W} (ok : V -> bool) (f : V -> V -> W) (d : W) (subs0 subs1 : list (list Z * V))
  (pk : list Z) : W :=
  match first_sub ok subs0 pk, first_sub ok subs1 pk with
  | Some a, Some b => f a b
  | _, _ => d
  end.

(** What a server can rely on when it expects [total] records: they all arrive, or
    the client goes away after at least one complete record ([rest]: what follows
    the records in the stream). *)
Definition delivered {V} (total : nat) (subs : list (list Z * V)) (rest : list Z) : Prop :=
  total = length subs \/ (subs <> [] /\ rest = [] /\ (length subs <= total)%nat).

(** The bit shared between the servers. *)
Definition bit_val (a b : bool) : Z := b2z (xorb a b).

(** The result of an operation: failure iff fewer than half of the announced
    submissions were accepted. *)
Definition outcome {A} (num_valid total : nat) (ans : A) : result A :=
  if (2 * num_valid <? total)%nat then RET_INVALID else RET_ANS ans.

(** Wire formats of the records (/repo/types.h and the send functions of the
    clients). *)
Definition bit_wire (s : list Z * bool) : list Z := fst s ++ [b2z (snd s)].
Definition int_wire (s : list Z * Z) : list Z := fst s ++ le_bytes 8 (snd s).
Definition max_wire (s : list Z * list Z) : list Z := fst s ++ concat (map (le_bytes 8) (snd s)).
Definition freq_wire (s : list Z * list bool) : list Z := fst s ++ pack_bools (snd s).
Definition wire {V} (enc : list Z * V -> list Z) (subs : list (list Z * V)) : list Z :=
  concat (map enc subs).


(** A server that expects [total] records gets the submissions [subs] from the
    byte stream [stream]. *)
Definition arrives {V} (enc : list Z * V -> list Z) (total : nat) (stream : list Z)
  (subs : list (list Z * V)) : Prop :=
  exists rest, stream = wire enc subs ++ rest /\ delivered total subs rest /\
    pks_ok subs /\ Z.of_nat (length subs) < two32.

Definition word (z : Z) : Prop := 0 <= z < two64.

(** The values admitted by INT_SUM. *)
Definition fits (num_bits : nat) (v : Z) : bool := v <? 2 ^ Z.of_nat num_bits.

(** [j] is the largest index up to [B] at which [X] is not zero. *)
Definition highest (B : nat) (X : nat -> Z) (j : nat) : Prop :=
  (j <= B)%nat /\ X j <> 0 /\ forall k, (j < k <= B)%nat -> X k = 0.

(** Xor of two rows at a position. *)
Definition xor_at (j : nat) (r0 r1 : list Z) : Z := Z.lxor (nth j r0 0) (nth j r1 0).

(** Every schedule of [p] against [q] ends in the configuration [c] (which need not
    be a proper end as in [always]), provided the socket buffers hold [k] bytes. *)
Definition ends {A B} (k : nat) (p : proc A) (q : proc B) (c : config A B) : Prop :=
  forall cap, (1 <= cap)%nat -> (k <= cap)%nat ->
  exists n,
    (forall m d, steps cap m (start p q) d -> (m <= n)%nat) /\
    (forall m d, steps cap m (start p q) d -> (exists d', step cap d d') \/ d = c).


(** [repeats ok subs subs']: [subs'] is [subs] with further records inserted, each
    somewhere after an acceptable record under the same identity. *)
Inductive repeats {V} (ok : V -> bool) (subs : list (list Z * V)) : list (list Z * V) -> Prop :=
| rep_refl : repeats ok subs subs
| rep_add a k v b v' c :
    repeats ok subs (a ++ (k, v) :: b ++ c) -> ok v = true ->
    repeats ok subs (a ++ (k, v) :: b ++ (k, v') :: c).

(** The submissions of everybody else. *)
Definition without {V} (pk : list Z) (subs : list (list Z * V)) : list (list Z * V) :=
  filter (fun s => negb (key_eqb (fst s) pk)) subs.
