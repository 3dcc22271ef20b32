(** * Vocabulary for the properties of servers that do not fork *)
From Coq Require Import ZArith List Bool.
From Verif Require Import Words Proc.
Import ListNotations.

(** With socket buffers of [cap] bytes, every schedule of [p] against [q] ends, and the
    configuration it ends in satisfies [E]. *)
Definition ends_in {A B} (cap : nat) (p : proc A) (q : proc B) (E : config A B -> Prop) : Prop :=
  exists n,
    (forall m d, steps cap m (start p q) d -> (m <= n)%nat) /\
    (forall m d, steps cap m (start p q) d -> (exists d', step cap d d') \/ E d).

(** Both have returned, with results [a] and [b], and nothing is left in the buffers. *)
Definition done {A B} (a : A) (b : B) (c : config A B) : Prop := c = finished a b.

(** Deadlock: both servers have bytes left to send, and both buffers are full. *)
Definition both_sending {A B} (cap : nat) (c : config A B) : Prop :=
  exists b0 m0 k0 b1 m1 k1,
    proc0 c = Send (b0 :: m0) k0 /\ proc1 c = Send (b1 :: m1) k1 /\
    length (ch01 c) = cap /\ length (ch10 c) = cap.

(** What a build without [fork] makes of a run: with buffers of at least [need] bytes it
    gives the results [a], [b]; with smaller ones it deadlocks, whatever the schedule. *)
Definition threshold {A B} (need : nat) (p : proc A) (q : proc B) (a : A) (b : B) : Prop :=
  forall cap, (1 <= cap)%nat ->
    ((need <= cap)%nat -> ends_in cap p q (done a b)) /\
    ((cap < need)%nat -> ends_in cap p q (both_sending cap)).
