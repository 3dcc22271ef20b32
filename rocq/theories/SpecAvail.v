(** * Vocabulary for arbitrary input (C57) *)
From Coq Require Import ZArith List.
From Verif Require Import Words ServerOps.
Import ListNotations.

Definition bytes (l : list Z) : Prop := Forall is_byte l.
(** A local variable of [n] bytes. *)
Definition buffer (n : nat) (l : list Z) : Prop := bytes l /\ length l = n.
(** Server 0's operation has come to an end. *)
Definition ended {A} (r : result A) : Prop := r = RET_INVALID \/ exists a, r = RET_ANS a.
(** The byte at [at] of every record of [size] bytes is 0 or 1. *)
Definition is_bool (z : Z) : Prop := z = 0%Z \/ z = 1%Z.
Definition bools_at (size at_ : nat) (s : list Z) : Prop :=
  forall k, (size * k + at_ < length s)%nat -> is_bool (nth (size * k + at_) s 0%Z).
