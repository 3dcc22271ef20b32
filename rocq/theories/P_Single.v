(** * Whom an answer is about (C68)

    The servers answer only if at least half of the announced records are accepted, so
    that nobody is singled out.  Server 0 cannot rely on it: server 1 tells it whom to
    aggregate.  [replay pks] (SpecPeer.v): server 1 runs its own code on its own data, but
    its loop visits the identities [pks] instead of every entry of its table once. *)
From Coq Require Import ZArith List Bool Lia.
From Verif Require Import Words WordsFacts Constants Proc ProcFacts Net SpecNet RelFacts
  ServerOps SpecServer ServerFacts ServerProps SpecPeer PeerSingle P_Server.
Import ListNotations.
Open Scope Z_scope.

(** ** What holds: with every answer, server 0 has counted at least [total / 2] announced
    identities it knows.  (Missing for the full claim: that they are different.) *)
Theorem bit_sum_half_partial i w order total stream subs junk rnd x :
  arrives bit_wire total stream subs -> length junk = 33%nat ->
  against (bit_sum false order total stream junk rnd) i w = Returns (RET_ANS x) ->
  exists pks rest, announced i pks rest /\ (total <= 2 * length (filter (knows any subs) pks))%nat.
Proof. exact (bit_half i w order total stream subs junk rnd x). Qed.
Print Assumptions bit_sum_half_partial.
Theorem int_sum_half_partial i w nb order total stream subs junk rnd x : (nb <= 63)%nat ->
  arrives int_wire total stream subs -> Forall (fun s => word (snd s)) subs -> length junk = 40%nat ->
  against (int_sum false order nb total stream junk rnd) i w = Returns (RET_ANS x) ->
  exists pks rest, announced i pks rest /\ (total <= 2 * length (filter (knows (fits nb) subs) pks))%nat.
Proof. exact (int_half i w nb order total stream subs junk rnd x). Qed.
Print Assumptions int_sum_half_partial.
Theorem and_or_half_partial i w is_and order total stream subs junk x :
  arrives int_wire total stream subs -> Forall (fun s => word (snd s)) subs -> length junk = 40%nat ->
  against (xor_op false order is_and total stream junk) i w = Returns (RET_ANS x) ->
  exists pks rest, announced i pks rest /\ (total <= 2 * length (filter (knows any subs) pks))%nat.
Proof. exact (xor_half i w is_and order total stream subs junk x). Qed.
Print Assumptions and_or_half_partial.
Theorem max_min_half_partial i w is_max B order total stream subs pk0 junk x :
  arrives max_wire total stream subs -> rows_ok B subs -> Z.of_nat total * (Z.of_nat B + 1) < two32 ->
  length pk0 = 32%nat -> (forall i, length (junk i) = (8 * (B + 1))%nat) ->
  against (max_op false order is_max B total stream pk0 junk) i w = Returns (RET_ANS x) ->
  exists pks rest, announced i pks rest /\ (total <= 2 * length (filter (knows any subs) pks))%nat.
Proof. exact (max_half i w is_max B order total stream subs pk0 junk x). Qed.
Print Assumptions max_min_half_partial.

(** ** Server 1 chooses: for any list [pks] of accepted identities the answer is the
    aggregate over [pks], each counted as often as it occurs. *)
Theorem bit_sum_chosen order0 pks total0 total1 stream0 stream1 subs0 subs1 junk0 junk1 rnd0 rnd1 :
  arrives bit_wire total0 stream0 subs0 -> arrives bit_wire total1 stream1 subs1 ->
  length junk0 = 33%nat -> length junk1 = 33%nat ->
  Forall (fun pk => knows any subs0 pk = true /\ knows any subs1 pk = true) pks -> Z.of_nat (length pks) < two32 ->
  both (bit_sum false order0 total0 stream0 junk0 rnd0) (bit_sum true (replay pks) total1 stream1 junk1 rnd1)
    (fun r0 r1 => r1 = RET_NO_ANS /\
       r0 = outcome (length pks) total0 (zsum (map (combined any bit_val 0 subs0 subs1) pks))).
Proof. exact (bit_chosen order0 pks total0 total1 stream0 stream1 subs0 subs1 junk0 junk1 rnd0 rnd1). Qed.
Print Assumptions bit_sum_chosen.
Theorem int_sum_chosen nb order0 pks total0 total1 stream0 stream1 subs0 subs1 junk0 junk1 rnd0 rnd1 :
  (nb <= 63)%nat ->
  arrives int_wire total0 stream0 subs0 -> arrives int_wire total1 stream1 subs1 ->
  Forall (fun s => word (snd s)) subs0 -> Forall (fun s => word (snd s)) subs1 ->
  length junk0 = 40%nat -> length junk1 = 40%nat ->
  Forall (fun pk => knows (fits nb) subs0 pk = true /\ knows (fits nb) subs1 pk = true) pks -> Z.of_nat (length pks) < two32 ->
  both (int_sum false order0 nb total0 stream0 junk0 rnd0) (int_sum true (replay pks) nb total1 stream1 junk1 rnd1)
    (fun r0 r1 => r1 = RET_NO_ANS /\
       r0 = outcome (length pks) total0 (zsum (map (combined (fits nb) Z.lxor 0 subs0 subs1) pks) mod two64)).
Proof. exact (int_chosen nb order0 pks total0 total1 stream0 stream1 subs0 subs1 junk0 junk1 rnd0 rnd1). Qed.
Print Assumptions int_sum_chosen.
Theorem and_or_chosen is_and order0 pks total0 total1 stream0 stream1 subs0 subs1 junk0 junk1 :
  arrives int_wire total0 stream0 subs0 -> arrives int_wire total1 stream1 subs1 ->
  Forall (fun s => word (snd s)) subs0 -> Forall (fun s => word (snd s)) subs1 ->
  length junk0 = 40%nat -> length junk1 = 40%nat ->
  Forall (fun pk => knows any subs0 pk = true /\ knows any subs1 pk = true) pks -> Z.of_nat (length pks) < two32 ->
  both (xor_op false order0 is_and total0 stream0 junk0) (xor_op true (replay pks) is_and total1 stream1 junk1)
    (fun r0 r1 => r1 = RET_NO_ANS /\
       r0 = outcome (length pks) total0
              (let z := zxors (map (combined any Z.lxor 0 subs0 subs1) pks) =? 0 in
               if is_and then z else negb z)).
Proof. exact (xor_chosen is_and order0 pks total0 total1 stream0 stream1 subs0 subs1 junk0 junk1). Qed.
Print Assumptions and_or_chosen.
Theorem max_min_chosen is_max B order0 pks total0 total1 stream0 stream1 subs0 subs1 pk0 pk1 junk0 junk1 j :
  arrives max_wire total0 stream0 subs0 -> arrives max_wire total1 stream1 subs1 ->
  rows_ok B subs0 -> rows_ok B subs1 ->
  Z.of_nat total0 * (Z.of_nat B + 1) < two32 -> Z.of_nat total1 * (Z.of_nat B + 1) < two32 ->
  length pk0 = 32%nat -> length pk1 = 32%nat ->
  (forall i, length (junk0 i) = (8 * (B + 1))%nat) -> (forall i, length (junk1 i) = (8 * (B + 1))%nat) ->
  Forall (fun pk => knows any subs0 pk = true /\ knows any subs1 pk = true) pks -> Z.of_nat (length pks) < two32 ->
  highest B (fun j => zxors (map (combined any (xor_at j) 0 subs0 subs1) pks)) j ->
  both (max_op false order0 is_max B total0 stream0 pk0 junk0)
       (max_op true (replay pks) is_max B total1 stream1 pk1 junk1)
    (fun r0 r1 => r1 = RET_NO_ANS /\
       r0 = outcome (length pks) total0 (Z.of_nat (if is_max then j else B - j))).
Proof. exact (max_chosen is_max B order0 pks total0 total1 stream0 stream1 subs0 subs1 pk0 pk1 junk0 junk1 j). Qed.
Print Assumptions max_min_chosen.

(** ** Finding: one client is singled out.  Server 1 announces the same identity [k] times
    ([total0 <= 2 * k]); server 0 prints [k] times this client's value (for AND, OR, MAX and
    MIN with [k] odd: the client's value), whatever the others sent. *)
Theorem bit_sum_singled_refuted order0 pk k a b total0 total1 stream0 stream1 subs0 subs1 junk0 junk1 rnd0 rnd1 :
  arrives bit_wire total0 stream0 subs0 -> arrives bit_wire total1 stream1 subs1 ->
  length junk0 = 33%nat -> length junk1 = 33%nat ->
  first_sub any subs0 pk = Some a -> first_sub any subs1 pk = Some b ->
  (total0 <= 2 * k)%nat -> Z.of_nat k < two32 ->
  both (bit_sum false order0 total0 stream0 junk0 rnd0) (bit_sum true (replay (repeat pk k)) total1 stream1 junk1 rnd1)
    (fun r0 r1 => r1 = RET_NO_ANS /\ r0 = RET_ANS (Z.of_nat k * b2z (xorb a b))).
Proof. exact (bit_singled order0 pk k a b total0 total1 stream0 stream1 subs0 subs1 junk0 junk1 rnd0 rnd1). Qed.
Print Assumptions bit_sum_singled_refuted.
Theorem int_sum_singled_refuted nb order0 pk k a b total0 total1 stream0 stream1 subs0 subs1 junk0 junk1 rnd0 rnd1 :
  (nb <= 63)%nat ->
  arrives int_wire total0 stream0 subs0 -> arrives int_wire total1 stream1 subs1 ->
  Forall (fun s => word (snd s)) subs0 -> Forall (fun s => word (snd s)) subs1 ->
  length junk0 = 40%nat -> length junk1 = 40%nat ->
  first_sub (fits nb) subs0 pk = Some a -> first_sub (fits nb) subs1 pk = Some b ->
  (total0 <= 2 * k)%nat -> Z.of_nat k < two32 ->
  both (int_sum false order0 nb total0 stream0 junk0 rnd0) (int_sum true (replay (repeat pk k)) nb total1 stream1 junk1 rnd1)
    (fun r0 r1 => r1 = RET_NO_ANS /\ r0 = RET_ANS ((Z.of_nat k * Z.lxor a b) mod two64)).
Proof. exact (int_singled nb order0 pk k a b total0 total1 stream0 stream1 subs0 subs1 junk0 junk1 rnd0 rnd1). Qed.
Print Assumptions int_sum_singled_refuted.
Theorem and_or_singled_refuted is_and order0 pk k a b total0 total1 stream0 stream1 subs0 subs1 junk0 junk1 :
  arrives int_wire total0 stream0 subs0 -> arrives int_wire total1 stream1 subs1 ->
  Forall (fun s => word (snd s)) subs0 -> Forall (fun s => word (snd s)) subs1 ->
  length junk0 = 40%nat -> length junk1 = 40%nat ->
  first_sub any subs0 pk = Some a -> first_sub any subs1 pk = Some b ->
  (total0 <= 2 * k)%nat -> Nat.odd k = true -> Z.of_nat k < two32 ->
  both (xor_op false order0 is_and total0 stream0 junk0) (xor_op true (replay (repeat pk k)) is_and total1 stream1 junk1)
    (fun r0 r1 => r1 = RET_NO_ANS /\
       r0 = RET_ANS (if is_and then Z.lxor a b =? 0 else negb (Z.lxor a b =? 0))).
Proof. exact (xor_singled is_and order0 pk k a b total0 total1 stream0 stream1 subs0 subs1 junk0 junk1). Qed.
Print Assumptions and_or_singled_refuted.
Theorem max_min_singled_refuted is_max B order0 pk k a b total0 total1 stream0 stream1 subs0 subs1 pk0 pk1 junk0 junk1 j :
  arrives max_wire total0 stream0 subs0 -> arrives max_wire total1 stream1 subs1 ->
  rows_ok B subs0 -> rows_ok B subs1 ->
  Z.of_nat total0 * (Z.of_nat B + 1) < two32 -> Z.of_nat total1 * (Z.of_nat B + 1) < two32 ->
  length pk0 = 32%nat -> length pk1 = 32%nat ->
  (forall i, length (junk0 i) = (8 * (B + 1))%nat) -> (forall i, length (junk1 i) = (8 * (B + 1))%nat) ->
  first_sub any subs0 pk = Some a -> first_sub any subs1 pk = Some b ->
  (total0 <= 2 * k)%nat -> Nat.odd k = true -> Z.of_nat k < two32 ->
  highest B (fun j => xor_at j a b) j ->
  both (max_op false order0 is_max B total0 stream0 pk0 junk0)
       (max_op true (replay (repeat pk k)) is_max B total1 stream1 pk1 junk1)
    (fun r0 r1 => r1 = RET_NO_ANS /\ r0 = RET_ANS (Z.of_nat (if is_max then j else B - j))).
Proof.
  exact (max_singled is_max B order0 pk k a b total0 total1 stream0 stream1 subs0 subs1 pk0 pk1 junk0 junk1 j).
Qed.
Print Assumptions max_min_singled_refuted.

(** ** Examples: client 97 is picked out of the submissions of P_Server.v. *)
Example bit_single_ex : both
  (bit_sum false id_order 4 (wire bit_wire ex_bits0) (repeat 5 33) (fun i => Z.of_nat i + 7))
  (bit_sum true (replay (repeat (ex_pk 97) 2)) 3 (wire bit_wire ex_bits1) (repeat 6 33) (fun i => Z.of_nat i))
  (fun r0 r1 => r1 = RET_NO_ANS /\ r0 = RET_ANS 2).
Proof.
  exact (bit_sum_singled_refuted id_order (ex_pk 97) 2 true false 4 3 _ _ _ _ (repeat 5 33) (repeat 6 33) _ _
    ex_arrives0 ex_arrives1 eq_refl eq_refl eq_refl eq_refl (le_n 4) eq_refl).
Qed.
Example int_single_ex : both
  (int_sum false id_order 4 2 (wire int_wire ex_ints0) (repeat 5 40) (fun i => Z.of_nat i + 7))
  (int_sum true (replay (repeat (ex_pk 97) 5)) 4 2 (wire int_wire ex_ints1) (repeat 6 40) (fun i => Z.of_nat i))
  (fun r0 r1 => r1 = RET_NO_ANS /\ r0 = RET_ANS 30).
Proof.
  apply (int_sum_singled_refuted 4 id_order (ex_pk 97) 5 5 3 2 2 _ _ ex_ints0 ex_ints1 (repeat 5 40) (repeat 6 40) _ _);
    auto using ex_int_arrives0, ex_int_arrives1; try lia; try reflexivity; repeat constructor; cbn; lia.
Qed.
Example max_single_ex : exists x, both
  (max_op false id_order true 3 2 (wire max_wire ex_rows0) (ex_pk 0) (fun _ => repeat 1 32))
  (max_op true (replay [ex_pk 97]) true 3 2 (wire max_wire ex_rows1) (ex_pk 0) (fun _ => repeat 1 32))
  (fun r0 r1 => r0 = RET_ANS x) /\ x = 1.
Proof.
  exists 1. split; [|reflexivity].
  assert (R0 : rows_ok 3 ex_rows0) by (repeat constructor; cbn; lia).
  assert (R1 : rows_ok 3 ex_rows1) by (repeat constructor; cbn; lia).
  assert (H : highest 3 (fun j => xor_at j [10; 20; 0; 0] [11; 22; 0; 0]) 1).
  { split; [lia|]. split; [discriminate|]. intros k Hk. assert (D : (k = 2 \/ k = 3)%nat) by lia. destruct D as [->| ->]; reflexivity. }
  destruct (max_min_singled_refuted true 3 id_order (ex_pk 97) 1 [10; 20; 0; 0] [11; 22; 0; 0] 2 2 _ _ ex_rows0 ex_rows1 (ex_pk 0) (ex_pk 0)
    (fun _ => repeat 1 32) (fun _ => repeat 1 32) 1 ex_rows_arrive0 ex_rows_arrive1 R0 R1 eq_refl eq_refl eq_refl eq_refl
    (fun _ => eq_refl) (fun _ => eq_refl) eq_refl eq_refl (le_n 2) eq_refl eq_refl H) as (a & b & E & _ & E0).
  exists a, b. split; [exact E|exact E0].
Qed.
