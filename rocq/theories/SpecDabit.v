(** * Specification of what a conversion takes from the store *)
From Coq Require Import ZArith List Bool.
From Verif Require Import Words Share Correlated SpecStore.
Import ListNotations.

(** [k] daBits were taken, in order, from the front of the queue, after it was at most refilled. *)
Definition used (k : nat) (s s' : store) : Prop := exists ds, length ds = k /\ took_d ds s s'.
