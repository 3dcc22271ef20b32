(** * Specification vocabulary for FREQ *)
From Coq Require Import ZArith List Bool.
From Verif Require Import Words Constants Proc Net ServerOps SpecServer.
Import ListNotations.
Open Scope Z_scope.

(** The row shared under an identity; a server that does not know the identity
    counts as holding zeros. *)
Definition freq_bits (width : nat) (subs0 subs1 : list (list Z * list bool)) (pk : list Z) : list bool :=
  map2 xorb (get (repeat false width) (first_sub any subs0 pk))
            (get (repeat false width) (first_sub any subs1 pk)).

(** How many bits of a row are set.  A proper submission has weight one. *)
Fixpoint weight (row : list bool) : nat :=
  match row with
  | [] => 0
  | b :: row' => (if b then 1 else 0) + weight row'
  end.

(** [L] lists, in some order and without repetition, the identities with a
    submission at a server. *)
Definition heard {V} (subs : list (list Z * V)) (L : list (list Z)) : Prop :=
  NoDup L /\ forall pk, In pk L <-> first_sub any subs pk <> None.

(** The weight of all rows together. *)
Definition total_weight (width : nat) (subs0 subs1 : list (list Z * list bool)) (L : list (list Z)) : nat :=
  list_sum (map (fun pk => weight (freq_bits width subs0 subs1 pk)) L).

(** The check of the batch as a whole: the weight agrees with the announced number
    of submissions, modulo the field and modulo two. *)
Definition balanced (total_weight total : nat) : Prop :=
  Z.of_nat total_weight mod Int_Modulus = Z.of_nat total /\
  Nat.odd total_weight = Nat.odd total.

(** How many of the rows of the identities in [L] have bit [j] set. *)
Definition votes (width : nat) (subs0 subs1 : list (list Z * list bool)) (L : list (list Z)) (j : nat) : nat :=
  length (filter (fun pk => nth j (freq_bits width subs0 subs1 pk) false) L).
Definition tally (width : nat) (subs0 subs1 : list (list Z * list bool)) (L : list (list Z)) : list Z :=
  map (fun j => Z.of_nat (votes width subs0 subs1 L j)) (seq 0 width).

(** [G] lists the identities known to both servers whose row has weight one. *)
Definition one_hot (width : nat) (subs0 subs1 : list (list Z * list bool)) (G : list (list Z)) : Prop :=
  NoDup G /\ forall pk, In pk G <->
    first_sub any subs0 pk <> None /\ first_sub any subs1 pk <> None /\
    weight (freq_bits width subs0 subs1 pk) = 1%nat.

(** Rows have the width of the histogram. *)
Definition freq_rows (width : nat) (subs : list (list Z * list bool)) : Prop :=
  Forall (fun s => length (snd s) = width) subs.

(** The histogram of some values. *)
Definition histogram (width : nat) (vals : list nat) : list Z :=
  map (fun j => Z.of_nat (count_occ PeanoNat.Nat.eq_dec vals j)) (seq 0 width).

(** Server 0 never gives an answer: no schedule makes it return. *)
Definition never_returns {A B} (cap : nat) (p : proc A) (q : proc B) : Prop :=
  forall n d r, steps cap n (start p q) d -> proc0 d <> Ret r.

(** The number of possible values. *)
Definition freq_width (num_bits : nat) : nat := Z.to_nat (2 ^ Z.of_nat num_bits).
(** One server's input: the byte stream carries the submissions [subs]; [pk0] and
    [junk] are the previous contents of the receive buffers. *)
Definition freq_input (num_bits total : nat) (stream : list Z) (subs : list (list Z * list bool))
  (pk0 : list Z) (junk : nat -> list Z) : Prop :=
  arrives freq_wire total stream subs /\ freq_rows (freq_width num_bits) subs /\
  length pk0 = 32%nat /\ forall i, length (junk i) = bool_bytes (freq_width num_bits).
