(** * Vocabulary for what a server learns when it runs a program of its own (C69)

    [leads server q p q'] (SpecPeer.v): server [server], running any program [q] against the
    other server running [p], can arrive at [q'].  All that [q] receives, and everything it
    makes of it, shows in [q']. *)
From Coq Require Import ZArith List Bool.
From Verif Require Import Words Proc Net OT ServerOps SpecServer SpecPeer.
Import ListNotations.
Open Scope Z_scope.

(** The program [q] at server [server] fares the same against [p] and against [p']. *)
Definition same_to (server : bool) {B A A'} (q : proc B) (p : proc A) (p' : proc A') : Prop :=
  forall q', leads server q p q' <-> leads server q p' q'.

(** The masks [rnd], each increased by a fixed number.  (Masks are used modulo 2^64;
    uniformly distributed ones stay so.) *)
Definition moved (rnd d : nat -> Z) : nat -> Z := fun i => rnd i + d i.

(** The share of the submission under [pk], as this server has it. *)
Definition own {V} (ok : V -> bool) (subs : list (list Z * V)) (d : V) (pk : list Z) : V :=
  match first_sub ok subs pk with Some v => v | None => d end.

(** The [nb] low bits of a number, the lowest first. *)
Definition low_bits (nb : nat) (x : Z) : list bool := map (fun j => Z.testbit x (Z.of_nat j)) (seq 0 nb).

(** ** Programs that server 0 may run in place of its code *)
(** Its own part in the operation is not needed: these programs neither read its clients'
    submissions nor draw masks. *)

(** The number whose digits in base [b] are 1 at the positions at which [want] has [pk]. *)
Fixpoint weight (b : Z) (want : list (list Z)) (pk : list Z) : Z :=
  match want with
  | [] => 0
  | k :: want' => (if key_eqb k pk then 1 else 0) + b * weight b want' pk
  end.
(** The [n] lowest digits of [x] in base [b]. *)
Fixpoint digits (b : Z) (n : nat) (x : Z) : list Z :=
  match n with
  | O => []
  | S n' => x mod b :: digits b n' (x / b)
  end.
(** BIT_SUM: offer 0 and a power of two of its own for every client in [want]. *)
Definition spy_bits (want : list (list Z)) : proc (list Z) :=
  pks <- learn ;;
  OTSend false (map (fun pk => (0, weight 2 want pk)) pks)
    (b <- recv_uint64 ;; Ret (digits 2 (length want) b)).
(** INT_SUM: the same for every bit. *)
Definition spy_ints (nb : nat) (want : list (list Z)) : proc (list Z) :=
  pks <- learn ;;
  OTSend false
    (flat_map (fun pk => map (fun j => (0, weight (2 ^ Z.of_nat nb) want pk * 2 ^ Z.of_nat j)) (seq 0 nb)) pks)
    (b <- recv_uint64 ;; Ret (digits (2 ^ Z.of_nat nb) (length want) b)).
(** AND, OR: call every submission invalid except the one under [pk]. *)
Definition spy_xor (pk : list Z) : proc Z :=
  pks <- learn ;;
  send_bool_batch (map (fun k => key_eqb k pk) pks) ;;;
  b <- recv_uint64 ;; Ret b.
(** MAX, MIN: the same. *)
Definition spy_max (B : nat) (pk : list Z) : proc (list Z) :=
  pks <- learn ;;
  send_bool_batch (map (fun k => key_eqb k pk) pks) ;;;
  b <- recv_uint64_batch (B + 1) ;; Ret b.
