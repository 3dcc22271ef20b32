(** Lemmas on repeated submissions in MAX and MIN, see P_Order.v. *)
From Coq Require Import ZArith List Bool Lia Arith.
From Verif Require Import Words Share Proc ProcFacts Net SpecShare RelFacts ServerOps SpecServer SpecNet TableFacts ServerFacts ServerProps ServerCor.
Import ListNotations.
Open Scope Z_scope.

Lemma highest_dec B X : (exists j, highest B X j) \/ (forall j, (j <= B)%nat -> X j = 0).
Proof.
  assert (G : forall n, (n <= S B)%nat -> (exists j, highest B X j) \/ (forall j, (j <= B < j + n)%nat -> X j = 0)).
  { induction n as [|n IH]; intros Hn.
    - right. intros j Hj. lia.
    - destruct IH as [IH|IH]; [lia|now left|].
      destruct (Z.eq_dec (X (B - n)%nat) 0) as [E|N].
      + right. intros j Hj. destruct (PeanoNat.Nat.eq_dec j (B - n)) as [->|Q]; [exact E|]. apply IH. lia.
      + left. exists (B - n)%nat. split; [lia|]. split; [exact N|]. intros k Hk. apply IH. lia. }
  destruct (G (S B) (le_n _)) as [G1|G1]; [now left|]. right. intros j Hj. apply G1. lia.
Qed.

Lemma combined_ext {V} ok (f : V -> V -> Z) d s0 s0' s1 s1' L :
  repeats ok s0 s0' -> repeats ok s1 s1' ->
  map (combined ok f d s0' s1') L = map (combined ok f d s0 s1) L.
Proof. intros H0 H1. symmetry. rewrite (repeats_combined ok f d s0 s0' s1 s1'); auto. Qed.

Lemma max_op_once is_max B order0 order1 total0 total1 total0' total1' stream0 stream1 stream0' stream1'
    subs0 subs1 subs0' subs1' pk0 pk1 pk0' pk1' junk0 junk1 junk0' junk1' :
  fair order1 -> repeats any subs0 subs0' -> repeats any subs1 subs1' ->
  arrives max_wire total0 stream0 subs0 -> arrives max_wire total1 stream1 subs1 ->
  arrives max_wire total0' stream0' subs0' -> arrives max_wire total1' stream1' subs1' ->
  rows_ok B subs0 -> rows_ok B subs1 -> rows_ok B subs0' -> rows_ok B subs1' ->
  Z.of_nat total0 * (Z.of_nat B + 1) < two32 -> Z.of_nat total1 * (Z.of_nat B + 1) < two32 ->
  Z.of_nat total0' * (Z.of_nat B + 1) < two32 -> Z.of_nat total1' * (Z.of_nat B + 1) < two32 ->
  length pk0 = 32%nat -> length pk1 = 32%nat -> length pk0' = 32%nat -> length pk1' = 32%nat ->
  (forall i, length (junk0 i) = (8 * (B + 1))%nat) -> (forall i, length (junk1 i) = (8 * (B + 1))%nat) ->
  (forall i, length (junk0' i) = (8 * (B + 1))%nat) -> (forall i, length (junk1' i) = (8 * (B + 1))%nat) ->
  let run := max_op false order0 is_max B total0 stream0 pk0 junk0 in
  let peer := max_op true order1 is_max B total1 stream1 pk1 junk1 in
  let run' := max_op false order0 is_max B total0' stream0' pk0' junk0' in
  let peer' := max_op true order1 is_max B total1' stream1' pk1' junk1' in
  exists n,
  (exists ans, both run peer (fun r0 _ => r0 = outcome n total0 ans) /\
               both run' peer' (fun r0 _ => r0 = outcome n total0' ans)) \/
  ((if (2 * n <? total0)%nat then both run peer (fun r0 _ => r0 = RET_INVALID)
    else ends 0 run peer (Cfg Undef (Ret RET_NO_ANS) [] [])) /\
   (if (2 * n <? total0')%nat then both run' peer' (fun r0 _ => r0 = RET_INVALID)
    else ends 0 run' peer' (Cfg Undef (Ret RET_NO_ANS) [] []))).
Proof.
  intros HF R0 R1 A0 A1 A0' A1' W0 W1 W0' W1' T0 T1 T0' T1' P0 P1 P0' P1' J0 J1 J0' J1'. cbv zeta.
  destruct (accepted_exists any subs0 subs1) as [L HL]. exists (length L).
  pose proof (repeats_accepted any subs0 subs0' subs1 subs1' L R0 R1 HL) as HL'.
  set (X := fun j => zxors (map (combined any (xor_at j) 0 subs0 subs1) L)).
  assert (EX : forall j, zxors (map (combined any (xor_at j) 0 subs0' subs1') L) = X j).
  { intros j. unfold X. now rewrite (combined_ext any (xor_at j) 0 subs0 subs0' subs1 subs1'). }
  assert (HI : forall B j, highest B X j -> highest B (fun j => zxors (map (combined any (xor_at j) 0 subs0' subs1') L)) j).
  { intros B' j (H1 & H2 & H3). split; [exact H1|]. split; [now rewrite EX|]. intros k Hk. rewrite EX. now apply H3. }
  destruct (highest_dec B X) as [[j H]|H].
  - left. exists (Z.of_nat (if is_max then j else B - j)). split.
    + destruct (max_op_result is_max B order0 order1 total0 total1 stream0 stream1 subs0 subs1 pk0 pk1 junk0 junk1 L j)
        as (a & b & HA & _ & E); auto. exists a, b. auto.
    + destruct (max_op_result is_max B order0 order1 total0' total1' stream0' stream1' subs0' subs1' pk0' pk1' junk0' junk1' L j)
        as (a & b & HA & _ & E); auto. exists a, b. auto.
  - right. split.
    + destruct (Nat.ltb_spec (2 * length L) total0) as [Q|Q].
      * destruct (max_op_result is_max B order0 order1 total0 total1 stream0 stream1 subs0 subs1 pk0 pk1 junk0 junk1 L 0)
          as (a & b & HA & _ & E); auto; exists a, b. split; auto. rewrite E. unfold outcome.
        destruct (Nat.ltb_spec (2 * length L) total0); [reflexivity|lia].
      * apply max_op_undefined with (subs0 := subs0) (subs1 := subs1) (L := L); auto.
    + destruct (Nat.ltb_spec (2 * length L) total0') as [Q|Q].
      * destruct (max_op_result is_max B order0 order1 total0' total1' stream0' stream1' subs0' subs1' pk0' pk1' junk0' junk1' L 0)
          as (a & b & HA & _ & E); auto; exists a, b. split; auto. rewrite E. unfold outcome.
        destruct (Nat.ltb_spec (2 * length L) total0'); [reflexivity|lia].
      * apply max_op_undefined with (subs0 := subs0') (subs1 := subs1') (L := L); auto.
        intros k Hk. rewrite EX. now apply H.
Qed.
