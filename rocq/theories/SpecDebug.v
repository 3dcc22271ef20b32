(** * What a debugging run is to show (C56) *)
From Coq Require Import ZArith List Bool.
From Verif Require Import Words ServerOps ClientOps DebugOps.
Import ListNotations.
Open Scope Z_scope.

(** What is needed of the bytes read from the released buffers: at server 0's record
    [i0] and server 1's record [i1] they are the previous identity (the buffer is as
    it was) or an identity nobody else uses.  [iq]: the request whose identity at
    server 0 begins with 'q'. *)
Definition released_ok (g : prg) (stale : nat -> list Z) (n iq i0 i1 : nat) : Prop :=
  let pk := fun i => pub_key_to_hex (g i) in
  length (stale i0) = 32%nat /\ length (stale i1) = 32%nat /\
  (stale i0 = pk (i0 - 1)%nat \/ forall j, (j < n)%nat -> stale i0 <> pk j) /\
  (stale i1 = pk (i1 - 1)%nat \/
   (forall j, (j < n)%nat -> stale i1 <> pk j) /\ stale i1 <> with_q (pk iq) /\ stale i1 <> stale i0).

(** The two draws that request 0's value and request 1's first share are taken from,
    unreduced, do not fit in the bound (both are uniform 64-bit words). *)
Definition too_big (M : Z) (l : list (drec Z Z)) : Prop :=
  (forall r, nth_error l 0 = Some r -> M <= d_real r) /\ (forall r, nth_error l 1 = Some r -> M <= d_0 r).
