(** * Specification of message passing (used by the statements in P_Net.v) *)
From Coq Require Import ZArith List Bool.
From Verif Require Import Words Constants Share Proc Net.
Import ListNotations.
Open Scope Z_scope.

(** "[s] sends a message of [n] bytes which [r] receives as [x]":
    - the bytes sent by [s], followed by any further traffic [rest], are decoded
      by [r] to [x], and [r] leaves exactly [rest] unread;
    - between two running servers, in either direction, for every schedule and
      every socket buffer size, prefixing the conversation ([k] against [k' x])
      by the message does not change its outcome. *)
Definition message {A} (s : proc unit) (r : proc A) (n : nat) (x : A) : Prop :=
  (exists bs, length bs = n /\ emits s bs tt /\
              forall rest, feed r (bs ++ rest) = Some (x, rest)) /\
  (forall B C (k : proc B) (k' : A -> proc C) b c,
     (always k (k' x) b c -> always (s ;;; k) (y <- r ;; k' y) b c) /\
     (always (k' x) k c b -> always (y <- r ;; k' y) (s ;;; k) c b)).

(** [n] bits need [ceil (n / 8)] bytes. *)
Definition is_ceil8 (n m : nat) : Prop := (8 * m >= n /\ 8 * m < n + 8)%nat.

(** The kernel does not fail in this event. *)
Definition no_err (e : kevent) : Prop := match e with KChunk _ => True | KErr => False end.

(** Contents that fit the wire format: every number is in [0, 2^64) (in
    particular every field element), arrays have the announced lengths. *)
Definition limbs_ok (x : Z) : Prop := 0 <= x < two64.
Definition corshare_ok (x : CorShare) : Prop := limbs_ok (shareD x) /\ limbs_ok (shareE x).
Definition triple_ok (x : BeaverTripleShare) : Prop :=
  limbs_ok (shareA x) /\ limbs_ok (shareB x) /\ limbs_ok (shareC x).
Definition packet_ok (NMul : nat) (x : ClientPacket) : Prop :=
  length (MulShares x) = NMul /\
  NextPowerOfTwo (Z.of_nat NMul) = Some (Z.of_nat (length (h_points x))) /\
  Forall limbs_ok (MulShares x) /\ limbs_ok (f0_s x) /\ limbs_ok (g0_s x) /\ limbs_ok (h0_s x) /\
  Forall limbs_ok (h_points x) /\ triple_ok (triple_share x).
Definition dabit_ok (x : DaBit) : Prop := limbs_ok (bp x).
Definition edabit_ok (nbits : nat) (x : EdaBit) : Prop := limbs_ok (er x) /\ length (eb x) = nbits.
