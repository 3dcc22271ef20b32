(** * The operations without proofs of validity, as seen by clients *)
From Coq Require Import ZArith List Bool Lia Permutation.
From Verif Require Import Words WordsFacts Constants Proc ProcFacts Net NetFacts SpecNet RelFacts
  ServerOps SpecServer TableFacts ServerFacts.
Import ListNotations.
Open Scope Z_scope.

Lemma map_combined {V X} ok (f : V -> V -> X) d s0 s1 L :
  map (at_both f d (table_of ok s0) (table_of ok s1)) L = map (combined ok f d s0 s1) L.
Proof. apply map_ext. intros. apply at_both_combined. Qed.

Lemma table_size {V} ok (subs : list (list Z * V)) : Z.of_nat (length subs) < two32 ->
  Z.of_nat (length (table_of ok subs)) < two32.
Proof. intros. pose proof (table_length ok subs). lia. Qed.

(** ** BIT_SUM *)
Lemma bit_sum_eq sv order total stream subs junk rnd :
  arrives bit_wire total stream subs -> length junk = 33%nat ->
  bit_sum sv order total stream junk rnd
  = if sv then bit_sum1 order (table_of any subs) else bit_sum0 (table_of any subs) total rnd.
Proof.
  intros (rest & -> & HD & HP & HS) HJ. unfold bit_sum. now rewrite bit_receive.
Qed.

Lemma bit_sum_result order0 order1 total0 total1 stream0 stream1 subs0 subs1 junk0 junk1 rnd0 rnd1 L :
  fair order1 -> arrives bit_wire total0 stream0 subs0 -> arrives bit_wire total1 stream1 subs1 ->
  length junk0 = 33%nat -> length junk1 = 33%nat -> accepted any subs0 subs1 L ->
  both (bit_sum false order0 total0 stream0 junk0 rnd0) (bit_sum true order1 total1 stream1 junk1 rnd1)
    (fun r0 r1 => r1 = RET_NO_ANS /\
       r0 = outcome (length L) total0 (zsum (map (combined any bit_val 0 subs0 subs1) L))).
Proof.
  intros HF A0 A1 J0 J1 HL. rewrite (bit_sum_eq _ _ _ _ subs0), (bit_sum_eq _ _ _ _ subs1) by auto.
  destruct A0 as (r0 & _ & _ & P0 & S0). destruct A1 as (r1 & _ & _ & P1 & S1).
  rewrite <- map_combined. apply rel_both, bit_sum_tables; auto using table_keys, table_size, both_in_accepted.
Qed.

(** ** INT_SUM *)
Lemma int_sum_eq sv order nb total stream subs junk rnd :
  (nb <= 63)%nat -> arrives int_wire total stream subs -> Forall (fun s => word (snd s)) subs ->
  length junk = 40%nat ->
  int_sum sv order nb total stream junk rnd
  = if sv then int_sum1 order nb (table_of (fits nb) subs) else int_sum0 nb (table_of (fits nb) subs) total rnd.
Proof.
  intros HB (rest & -> & HD & HP & HS) HW HJ. unfold int_sum.
  replace (64 <=? nb)%nat with false by (symmetry; apply Nat.leb_gt; lia).
  rewrite int_receive by auto. reflexivity.
Qed.

Lemma fits_table nb subs : Forall (fun s => word (snd s)) subs ->
  Forall (fun e => 0 <= snd e < 2 ^ Z.of_nat nb) (table_of (fits nb) subs).
Proof.
  intros H. apply table_forall. intros [k v] Hin E. rewrite Forall_forall in H. specialize (H _ Hin).
  cbn [snd] in *. unfold fits in E. apply Z.ltb_lt in E. unfold word in H. lia.
Qed.

Lemma int_sum_result nb order0 order1 total0 total1 stream0 stream1 subs0 subs1 junk0 junk1 rnd0 rnd1 L :
  (nb <= 63)%nat ->
  fair order1 -> arrives int_wire total0 stream0 subs0 -> arrives int_wire total1 stream1 subs1 ->
  Forall (fun s => word (snd s)) subs0 -> Forall (fun s => word (snd s)) subs1 ->
  length junk0 = 40%nat -> length junk1 = 40%nat -> accepted (fits nb) subs0 subs1 L ->
  both (int_sum false order0 nb total0 stream0 junk0 rnd0) (int_sum true order1 nb total1 stream1 junk1 rnd1)
    (fun r0 r1 => r1 = RET_NO_ANS /\
       r0 = outcome (length L) total0 (zsum (map (combined (fits nb) Z.lxor 0 subs0 subs1) L) mod two64)).
Proof.
  intros HB HF A0 A1 W0 W1 J0 J1 HL.
  rewrite (int_sum_eq _ _ _ _ _ subs0), (int_sum_eq _ _ _ _ _ subs1) by auto.
  destruct A0 as (r0 & _ & _ & P0 & S0). destruct A1 as (r1 & _ & _ & P1 & S1).
  rewrite <- map_combined.
  apply rel_both, int_sum_tables; auto using table_keys, table_size, both_in_accepted, fits_table.
Qed.

(** ** AND, OR *)
Lemma xor_op_eq sv order is_and total stream subs junk :
  arrives int_wire total stream subs -> Forall (fun s => word (snd s)) subs ->
  length junk = 40%nat ->
  xor_op sv order is_and total stream junk
  = if sv then xor_op1 order (table_of any subs) else xor_op0 is_and (table_of any subs) total.
Proof.
  intros (rest & -> & HD & HP & HS) HW HJ. unfold xor_op.
  rewrite int_receive by auto. reflexivity.
Qed.

Lemma word_table ok subs : Forall (fun s => word (snd s)) subs ->
  Forall (fun e => word (snd e)) (table_of ok subs).
Proof. intros H. apply table_forall. intros s Hin _. rewrite Forall_forall in H. auto. Qed.

Lemma xor_op_result is_and order0 order1 total0 total1 stream0 stream1 subs0 subs1 junk0 junk1 L :
  fair order1 -> arrives int_wire total0 stream0 subs0 -> arrives int_wire total1 stream1 subs1 ->
  Forall (fun s => word (snd s)) subs0 -> Forall (fun s => word (snd s)) subs1 ->
  length junk0 = 40%nat -> length junk1 = 40%nat -> accepted any subs0 subs1 L ->
  both (xor_op false order0 is_and total0 stream0 junk0) (xor_op true order1 is_and total1 stream1 junk1)
    (fun r0 r1 => r1 = RET_NO_ANS /\
       r0 = outcome (length L) total0
              (let z := zxors (map (combined any Z.lxor 0 subs0 subs1) L) =? 0 in
               if is_and then z else negb z)).
Proof.
  intros HF A0 A1 W0 W1 J0 J1 HL.
  rewrite (xor_op_eq _ _ _ _ _ subs0), (xor_op_eq _ _ _ _ _ subs1) by auto.
  destruct A0 as (r0 & _ & _ & P0 & S0). destruct A1 as (r1 & _ & _ & P1 & S1).
  rewrite <- map_combined.
  apply rel_both, xor_op_tables; auto using table_keys, table_size, both_in_accepted, word_table.
Qed.

(** ** MAX, MIN *)
Definition rows_ok (B : nat) (subs : list (list Z * list Z)) : Prop :=
  Forall (fun s => length (snd s) = (B + 1)%nat /\ Forall word (snd s)) subs.

Lemma max_op_eq sv order is_max B total stream subs pk0 junk :
  arrives max_wire total stream subs -> rows_ok B subs -> Z.of_nat total * (Z.of_nat B + 1) < two32 ->
  length pk0 = 32%nat -> (forall i, length (junk i) = (8 * (B + 1))%nat) ->
  max_op sv order is_max B total stream pk0 junk
  = if sv then max_op1 order B (table_of any subs) else max_op0 is_max B (table_of any subs) total.
Proof.
  intros (rest & -> & HD & HP & HS) HW HT HK HJ. unfold max_op.
  destruct (Z.leb_spec two32 (Z.of_nat total * (Z.of_nat B + 1))) as [H|_]; [lia|].
  rewrite max_receive by auto. reflexivity.
Qed.

Lemma rows_table B subs : rows_ok B subs ->
  Forall (fun e => length (snd e) = (B + 1)%nat /\ Forall word (snd e)) (table_of any subs).
Proof. intros H. apply table_forall. intros s Hin _. unfold rows_ok in H. rewrite Forall_forall in H. auto. Qed.

Lemma max_op_runs is_max B order0 order1 total0 total1 stream0 stream1 subs0 subs1 pk0 pk1 junk0 junk1 L :
  fair order1 -> arrives max_wire total0 stream0 subs0 -> arrives max_wire total1 stream1 subs1 ->
  rows_ok B subs0 -> rows_ok B subs1 ->
  Z.of_nat total0 * (Z.of_nat B + 1) < two32 -> Z.of_nat total1 * (Z.of_nat B + 1) < two32 ->
  length pk0 = 32%nat -> length pk1 = 32%nat ->
  (forall i, length (junk0 i) = (8 * (B + 1))%nat) -> (forall i, length (junk1 i) = (8 * (B + 1))%nat) ->
  accepted any subs0 subs1 L ->
  exists a b,
    (forall j, xor_at j a b = zxors (map (combined any (xor_at j) 0 subs0 subs1) L)) /\
    runs (max_op false order0 is_max B total0 stream0 pk0 junk0)
         (max_op true order1 is_max B total1 stream1 pk1 junk1)
      (if too_few (length L) total0 then Ret RET_INVALID
       else match scan_down a b B with
       | None => Undef
       | Some j => Ret (RET_ANS (Z.of_nat (if is_max then j else B - j)))
       end) (Ret RET_NO_ANS).
Proof.
  intros HF A0 A1 W0 W1 T0 T1 K0 K1 J0 J1 HL.
  rewrite (max_op_eq _ _ _ _ _ _ subs0), (max_op_eq _ _ _ _ _ _ subs1) by auto.
  destruct A0 as (r0 & _ & _ & P0 & S0). destruct A1 as (r1 & _ & _ & P1 & S1).
  destruct (max_op_tables order1 is_max B (table_of any subs0) (table_of any subs1) total0 L)
    as (a & b & HX & HR); auto using table_keys, table_size, both_in_accepted, rows_table.
  - eapply Forall_impl; [|apply rows_table; eassumption]. now intros ? [].
  - exists a, b. split; auto. intros j. rewrite HX. now rewrite map_combined.
Qed.

Lemma max_op_result is_max B order0 order1 total0 total1 stream0 stream1 subs0 subs1 pk0 pk1 junk0 junk1 L j :
  fair order1 -> arrives max_wire total0 stream0 subs0 -> arrives max_wire total1 stream1 subs1 ->
  rows_ok B subs0 -> rows_ok B subs1 ->
  Z.of_nat total0 * (Z.of_nat B + 1) < two32 -> Z.of_nat total1 * (Z.of_nat B + 1) < two32 ->
  length pk0 = 32%nat -> length pk1 = 32%nat ->
  (forall i, length (junk0 i) = (8 * (B + 1))%nat) -> (forall i, length (junk1 i) = (8 * (B + 1))%nat) ->
  accepted any subs0 subs1 L ->
  (2 * length L < total0)%nat \/
  highest B (fun j => zxors (map (combined any (xor_at j) 0 subs0 subs1) L)) j ->
  both (max_op false order0 is_max B total0 stream0 pk0 junk0)
       (max_op true order1 is_max B total1 stream1 pk1 junk1)
    (fun r0 r1 => r1 = RET_NO_ANS /\
       r0 = outcome (length L) total0 (Z.of_nat (if is_max then j else B - j))).
Proof.
  intros HF A0 A1 W0 W1 T0 T1 K0 K1 J0 J1 HL HH.
  destruct (max_op_runs is_max B order0 order1 total0 total1 stream0 stream1 subs0 subs1 pk0 pk1 junk0 junk1 L)
    as (a & b & HX & HR); auto.
  apply rel_both. eapply rel_runs; [exact HR|]. unfold too_few, outcome.
  destruct (Nat.ltb_spec (2 * length L) total0) as [H|H].
  - now apply rel_ret.
  - destruct HH as [HH|(H1 & H2 & H3)]; [lia|].
    rewrite (scan_down_highest a b B j); [now apply rel_ret|].
    split; auto. split; [now rewrite HX|]. intros k Hk. rewrite HX. now apply H3.
Qed.

Lemma max_op_undefined is_max B order0 order1 total0 total1 stream0 stream1 subs0 subs1 pk0 pk1 junk0 junk1 L :
  fair order1 -> arrives max_wire total0 stream0 subs0 -> arrives max_wire total1 stream1 subs1 ->
  rows_ok B subs0 -> rows_ok B subs1 ->
  Z.of_nat total0 * (Z.of_nat B + 1) < two32 -> Z.of_nat total1 * (Z.of_nat B + 1) < two32 ->
  length pk0 = 32%nat -> length pk1 = 32%nat ->
  (forall i, length (junk0 i) = (8 * (B + 1))%nat) -> (forall i, length (junk1 i) = (8 * (B + 1))%nat) ->
  accepted any subs0 subs1 L ->
  (total0 <= 2 * length L)%nat ->
  (forall j, (j <= B)%nat -> zxors (map (combined any (xor_at j) 0 subs0 subs1) L) = 0) ->
  ends 0 (max_op false order0 is_max B total0 stream0 pk0 junk0)
         (max_op true order1 is_max B total1 stream1 pk1 junk1)
         (Cfg Undef (Ret RET_NO_ANS) [] []).
Proof.
  intros HF A0 A1 W0 W1 T0 T1 K0 K1 J0 J1 HL HN HH.
  destruct (max_op_runs is_max B order0 order1 total0 total1 stream0 stream1 subs0 subs1 pk0 pk1 junk0 junk1 L)
    as (a & b & HX & HR); auto.
  apply reach_ends. eapply runs_reach; [exact HR|]. unfold too_few.
  destruct (Nat.ltb_spec (2 * length L) total0) as [H|H]; [lia|].
  rewrite scan_down_none; [apply reach_undef|]. intros j Hj. rewrite HX. now apply HH.
Qed.
