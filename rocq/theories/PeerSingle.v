(** * Server 1 chooses whom the answer is about *)
From Coq Require Import ZArith List Bool Lia Permutation.
From Verif Require Import Words WordsFacts Constants Proc ProcFacts Net NetFacts SpecNet SpecShare RelFacts OT OTFacts
  ServerOps SpecServer TableFacts ServerFacts ServerProps SpecStat SpecAvail Correlated SpecPeer PeerFacts PeerProps PeerStat PeerLin PeerFreq.
Import ListNotations.
Open Scope Z_scope.

Section Replay.
Context {V W : Type}.
Variables (m0 : table V) (m1 : table W) (pks : list (list Z)).
Hypothesis K0 : forall pk, In pk pks -> find pk m0 <> None.
Hypothesis K1 : forall pk, In pk pks -> find pk m1 <> None.

Lemma replay_cons pk l (m : table W) : replay (pk :: l) W m = match find pk m with Some v => [(pk, v)] | None => [] end ++ replay l W m.
Proof. reflexivity. Qed.
Lemma replay_fst : map fst (replay pks W m1) = pks.
Proof.
  induction pks as [|pk l IH]; [reflexivity|]. rewrite replay_cons.
  destruct (find pk m1) eqn:E; [|now elim (K1 pk (or_introl eq_refl))]. cbn [app map fst]. f_equal.
  apply IH; first [intros; apply K0; now right|intros; apply K1; now right].
Qed.
Lemma replay_length : length (replay pks W m1) = length pks.
Proof. rewrite <- replay_fst at 2. now rewrite map_length. Qed.
Lemma replay_with0 {X} (f : V -> W -> X) d : map (with0 m0 f d) (replay pks W m1) = map (at_both f d m0 m1) pks.
Proof.
  induction pks as [|pk l IH]; [reflexivity|]. rewrite replay_cons. cbn [map]. rewrite map_app, IH by first [intros; apply K0; now right|intros; apply K1; now right].
  unfold at_both at 2. destruct (find pk m1) eqn:E; [|now elim (K1 pk (or_introl eq_refl))]. cbn [map app]. f_equal. 
Qed.
Lemma replay_forall (P : list Z * W -> Prop) : Forall P m1 -> Forall P (replay pks W m1).
Proof.
  intros H. apply Forall_forall. intros e He. apply in_flat_map in He. destruct He as (pk & _ & He).
  destruct (find pk m1) eqn:E; [|easy]. destruct He as [<-|[]]. apply find_in in E. rewrite Forall_forall in H. now apply H.
Qed.
Lemma replay_count : count (map is_some (map (fun pk => find pk m0) (map fst (replay pks W m1)))) = length pks.
Proof.
  rewrite replay_fst. clear K1. induction pks as [|pk l IH]; [reflexivity|]. cbn [map length].
  destruct (find pk m0) eqn:E; [|now elim (K0 pk (or_introl eq_refl))]. unfold count in *. cbn [is_some filter length]. f_equal.
  apply IH. intros; apply K0; now right.
Qed.
End Replay.

Lemma bit_replay m0 m1 pks total rnd :
  (forall pk, In pk pks -> find pk m0 <> None) -> (forall pk, In pk pks -> find pk m1 <> None) ->
  keys_ok m1 -> Z.of_nat (length pks) < two32 ->
  rel (bit_sum0 m0 total rnd) (bit_sum1 (replay pks) m1)
    (fun r0 r1 => r1 = RET_NO_ANS /\ r0 = outcome (length pks) total (zsum (map (at_both bit_val 0 m0 m1) pks))).
Proof.
  intros K0 K1 [_ HK] HS. unfold bit_sum0, bit_sum1. cbv zeta.
  pose proof (replay_with0 m0 m1 pks K0 K1 bit_val 0) as RW. pose proof (replay_count m0 m1 pks K0 K1) as RC.
  pose proof (replay_length m0 m1 pks K0 K1) as RL. pose proof (replay_forall m1 pks _ HK) as RK.
  set (l := replay pks bool m1) in *.
  eapply rel_deliver'. { apply delivers_announce; auto. now rewrite RL. }
  eapply rel_bind. { apply bitsum_rel; now rewrite !map_length. }
  intros a b (Ha & Hb & E).
  eapply rel_deliver'; [now apply delivers_uint64|].
  rewrite RC, too_few_outcome. apply rel_ret. split; auto. f_equal. unfold u64. rewrite E, map3_with0.
  transitivity (zsum (map (with0 m0 bit_val 0) l) mod two64).
  { do 2 f_equal. apply map_ext. intros e. unfold with0, bit_spec. now destruct (find (fst e) m0). }
  rewrite RW. apply Z.mod_small.
  assert (R : 0 <= zsum (map (at_both bit_val 0 m0 m1) pks) <= Z.of_nat (length pks)).
  { apply bit_sum_range. intros x. unfold at_both, bit_val.
    destruct (find x m0), (find x m1); try lia. destruct (xorb b0 b1); cbn; lia. }
  unfold two32, two64 in *. lia.
Qed.

Lemma int_replay num_bits m0 m1 pks total rnd :
  (forall pk, In pk pks -> find pk m0 <> None) -> (forall pk, In pk pks -> find pk m1 <> None) ->
  keys_ok m1 -> Z.of_nat (length pks) < two32 -> (num_bits <= 63)%nat ->
  Forall (fun e => 0 <= snd e < 2 ^ Z.of_nat num_bits) m0 ->
  Forall (fun e => 0 <= snd e < 2 ^ Z.of_nat num_bits) m1 ->
  rel (int_sum0 num_bits m0 total rnd) (int_sum1 (replay pks) num_bits m1)
    (fun r0 r1 => r1 = RET_NO_ANS /\
      r0 = outcome (length pks) total (zsum (map (at_both Z.lxor 0 m0 m1) pks) mod two64)).
Proof.
  intros K0 K1 [_ HK] HS HB V0 V1. unfold int_sum0, int_sum1. cbv zeta.
  pose proof (replay_with0 m0 m1 pks K0 K1 Z.lxor 0) as RW. pose proof (replay_count m0 m1 pks K0 K1) as RC.
  pose proof (replay_length m0 m1 pks K0 K1) as RL. pose proof (replay_forall m1 pks _ HK) as RK.
  pose proof (replay_forall m1 pks _ V1) as Vl.
  set (l := replay pks Z m1) in *.
  eapply rel_deliver'. { apply delivers_announce; auto. now rewrite RL. }
  eapply rel_bind.
  { apply (intsum_rel false rnd 0 [num_bits]).
    - now left.
    - constructor; [|constructor]. split; [lia|]. intros H. now elim H.
    - now rewrite !map_length.
    - now rewrite !map_length.
    - apply Forall_map, Forall_forall. reflexivity.
    - apply Forall_map, Forall_forall. reflexivity. }
  intros o0 o1 (L0 & L1 & F0 & F1 & _ & _ & E). change (ot_modulus 0) with two64 in E.
  cbn [length] in F0, F1.
  eapply rel_deliver'.
  { apply delivers_uint64. rewrite sum_col0_zsum. apply Z.mod_pos_bound. reflexivity. }
  rewrite RC, too_few_outcome.
  apply rel_ret. split; auto. f_equal. unfold u64. rewrite !sum_col0_zsum.
  rewrite <- Zplus_mod, sums_cols by (auto; congruence).
  rewrite E, int_rows by auto. now rewrite RW.
Qed.

Lemma xor_replay is_and m0 m1 pks total :
  (forall pk, In pk pks -> find pk m0 <> None) -> (forall pk, In pk pks -> find pk m1 <> None) ->
  keys_ok m1 -> Z.of_nat (length pks) < two32 -> Forall (fun e => word (snd e)) m1 ->
  rel (xor_op0 is_and m0 total) (xor_op1 (replay pks) m1)
    (fun r0 r1 => r1 = RET_NO_ANS /\
      r0 = outcome (length pks) total
             (let z := zxors (map (at_both Z.lxor 0 m0 m1) pks) =? 0 in if is_and then z else negb z)).
Proof.
  intros K0 K1 [_ HK] HS V1. unfold xor_op0, xor_op1. cbv zeta.
  pose proof (replay_with0 m0 m1 pks K0 K1 Z.lxor 0) as RW. pose proof (replay_count m0 m1 pks K0 K1) as RC.
  pose proof (replay_length m0 m1 pks K0 K1) as RL. pose proof (replay_forall m1 pks _ HK) as RK.
  pose proof (replay_forall m1 pks _ V1) as Vl.
  set (l := replay pks Z m1) in *.
  eapply rel_deliver'. { apply delivers_announce; auto. now rewrite RL. }
  eapply rel_deliver.
  { eapply delivers_eq; [|reflexivity].
    match goal with |- delivers (send_bool_batch ?v) (recv_bool_batch ?n) _ =>
      replace n with (length v) by now rewrite !map_length end.
    apply delivers_bool_batch. }
  rewrite fold_lxor_valid, Z.lxor_0_l.
  eapply rel_deliver'.
  { apply delivers_uint64. apply word_zxors. eapply Forall_impl; [|exact Vl]. intros [k b] Hb.
    unfold with0. cbn [fst snd] in *. destruct (find k m0); [exact Hb|apply word_0]. }
  rewrite RC, too_few_outcome.
  apply rel_ret. split; auto. f_equal.
  rewrite fold_lxor_found, Z.lxor_0_l, <- RW.
  replace (Z.lxor _ _) with (zxors (map (with0 m0 Z.lxor 0) l)); [reflexivity|].
  rewrite !map_map, zxors_lxor. f_equal. apply map_ext. intros [k b]. unfold with0. cbn [fst snd].
  destruct (find k m0); reflexivity.
Qed.

Lemma max_replay is_max B m0 m1 pks total :
  (forall pk, In pk pks -> find pk m0 <> None) -> (forall pk, In pk pks -> find pk m1 <> None) ->
  keys_ok m1 -> Z.of_nat (length pks) < two32 ->
  Forall (fun e => length (snd e) = (B + 1)%nat) m0 ->
  Forall (fun e => length (snd e) = (B + 1)%nat /\ Forall word (snd e)) m1 ->
  exists a b,
    (forall j, xor_at j a b = zxors (map (at_both (xor_at j) 0 m0 m1) pks)) /\
    runs (max_op0 is_max B m0 total) (max_op1 (replay pks) B m1)
      (if too_few (length pks) total then Ret RET_INVALID
       else match scan_down a b B with
       | None => Undef
       | Some j => Ret (RET_ANS (Z.of_nat (if is_max then j else B - j)))
       end) (Ret RET_NO_ANS).
Proof.
  intros K0 K1 [_ HK] HS V0 V1. unfold max_op0, max_op1. cbv zeta.
  pose proof (fun j => replay_with0 m0 m1 pks K0 K1 (xor_at j) 0) as RW. pose proof (replay_count m0 m1 pks K0 K1) as RC.
  pose proof (replay_length m0 m1 pks K0 K1) as RL. pose proof (replay_forall m1 pks _ HK) as RK.
  pose proof (replay_forall m1 pks _ V1) as Vl.
  set (l := replay pks (list Z) m1) in *.
  set (found := map (fun pk => find pk m0) (map fst l)).
  destruct (fold_xor_found (B + 1) found (repeat 0 (B + 1))) as [A1 A2].
  { apply repeat_length. }
  { unfold found. apply Forall_map, Forall_forall. intros k _. destruct (find k m0) eqn:F; auto.
    exact (find_forall (fun v => length v = (B + 1)%nat) m0 k l0 V0 F). }
  destruct (fold_xor_valid (B + 1) m0 l (repeat 0 (B + 1))) as [B1 B2].
  { apply repeat_length. }
  { eapply Forall_impl; [|exact Vl]. now intros ? []. }
  pose proof (fold_xor_word (B + 1) m0 l (repeat 0 (B + 1)) (repeat_length _ _)) as BW.
  fold found in B1, B2, BW.
  set (a := fold_left (fun a f => match f with Some v => xor_row a v | None => a end) found _) in *.
  set (b := fold_left (fun b ev => if snd ev : bool then xor_row b (snd (fst ev)) else b) _ _) in *.
  exists a, b. split.
  - intros j. unfold xor_at at 1. rewrite A2, B2.
    assert (R : nth j (repeat 0 (B + 1)) 0 = 0).
    { destruct (nth_in_or_default j (repeat 0 (B + 1)) 0) as [H|H]; auto. now apply repeat_spec in H. }
    rewrite R, !Z.lxor_0_l. rewrite <- RW. unfold found. rewrite !map_map.
    rewrite zxors_lxor. f_equal. apply map_ext. intros [k w]. unfold with0. cbn [fst snd].
    destruct (find k m0); cbn [get]; auto. now destruct j.
  - eapply runs_trans.
    { eapply delivers_runs'. apply delivers_announce; auto. now rewrite RL. }
    fold found.
    eapply runs_trans.
    { eapply delivers_runs. replace (length l) with (length (map is_some found))
        by (unfold found; now rewrite !map_length).
      apply delivers_bool_batch. }
    fold a b. eapply runs_trans.
    { eapply delivers_runs'. rewrite <- B1. apply delivers_uint64_batch. apply BW; auto.
      apply Forall_forall. intros x Hx. apply repeat_spec in Hx as ->. apply word_0. }
    unfold found. rewrite RC. apply runs_refl.
Qed.

(** ** The operations *)
Lemma known_tables {V} ok (subs0 subs1 : list (list Z * V)) pks :
  Forall (fun pk => knows ok subs0 pk = true /\ knows ok subs1 pk = true) pks ->
  (forall pk, In pk pks -> find pk (table_of ok subs0) <> None) /\
  (forall pk, In pk pks -> find pk (table_of ok subs1) <> None).
Proof.
  rewrite Forall_forall. intros H. split; intros pk Hp; apply H in Hp; destruct Hp as [H0 H1]; rewrite table_find; unfold knows in *;
    [destruct (first_sub ok subs0 pk)|destruct (first_sub ok subs1 pk)]; congruence.
Qed.

Lemma bit_chosen order0 pks total0 total1 stream0 stream1 subs0 subs1 junk0 junk1 rnd0 rnd1 :
  arrives bit_wire total0 stream0 subs0 -> arrives bit_wire total1 stream1 subs1 ->
  length junk0 = 33%nat -> length junk1 = 33%nat ->
  Forall (fun pk => knows any subs0 pk = true /\ knows any subs1 pk = true) pks -> Z.of_nat (length pks) < two32 ->
  both (bit_sum false order0 total0 stream0 junk0 rnd0) (bit_sum true (replay pks) total1 stream1 junk1 rnd1)
    (fun r0 r1 => r1 = RET_NO_ANS /\
       r0 = outcome (length pks) total0 (zsum (map (combined any bit_val 0 subs0 subs1) pks))).
Proof.
  intros A0 A1 J0 J1 HL HS. rewrite (bit_sum_eq _ _ _ _ subs0), (bit_sum_eq _ _ _ _ subs1) by auto.
  destruct A1 as (r1 & _ & _ & P1 & S1). destruct (known_tables _ _ _ _ HL) as [K0 K1].
  rewrite <- map_combined. apply rel_both, bit_replay; auto using table_keys.
Qed.
Lemma int_chosen nb order0 pks total0 total1 stream0 stream1 subs0 subs1 junk0 junk1 rnd0 rnd1 :
  (nb <= 63)%nat ->
  arrives int_wire total0 stream0 subs0 -> arrives int_wire total1 stream1 subs1 ->
  Forall (fun s => word (snd s)) subs0 -> Forall (fun s => word (snd s)) subs1 ->
  length junk0 = 40%nat -> length junk1 = 40%nat ->
  Forall (fun pk => knows (fits nb) subs0 pk = true /\ knows (fits nb) subs1 pk = true) pks -> Z.of_nat (length pks) < two32 ->
  both (int_sum false order0 nb total0 stream0 junk0 rnd0) (int_sum true (replay pks) nb total1 stream1 junk1 rnd1)
    (fun r0 r1 => r1 = RET_NO_ANS /\
       r0 = outcome (length pks) total0 (zsum (map (combined (fits nb) Z.lxor 0 subs0 subs1) pks) mod two64)).
Proof.
  intros HB A0 A1 W0 W1 J0 J1 HL HS.
  rewrite (int_sum_eq _ _ _ _ _ subs0), (int_sum_eq _ _ _ _ _ subs1) by auto.
  destruct A1 as (r1 & _ & _ & P1 & S1). destruct (known_tables _ _ _ _ HL) as [K0 K1].
  rewrite <- map_combined. apply rel_both, int_replay; auto using table_keys, fits_table.
Qed.
Lemma xor_chosen is_and order0 pks total0 total1 stream0 stream1 subs0 subs1 junk0 junk1 :
  arrives int_wire total0 stream0 subs0 -> arrives int_wire total1 stream1 subs1 ->
  Forall (fun s => word (snd s)) subs0 -> Forall (fun s => word (snd s)) subs1 ->
  length junk0 = 40%nat -> length junk1 = 40%nat ->
  Forall (fun pk => knows any subs0 pk = true /\ knows any subs1 pk = true) pks -> Z.of_nat (length pks) < two32 ->
  both (xor_op false order0 is_and total0 stream0 junk0) (xor_op true (replay pks) is_and total1 stream1 junk1)
    (fun r0 r1 => r1 = RET_NO_ANS /\
       r0 = outcome (length pks) total0
              (let z := zxors (map (combined any Z.lxor 0 subs0 subs1) pks) =? 0 in
               if is_and then z else negb z)).
Proof.
  intros A0 A1 W0 W1 J0 J1 HL HS.
  rewrite (xor_op_eq _ _ _ _ _ subs0), (xor_op_eq _ _ _ _ _ subs1) by auto.
  destruct A1 as (r1 & _ & _ & P1 & S1). destruct (known_tables _ _ _ _ HL) as [K0 K1].
  rewrite <- map_combined. apply rel_both, xor_replay; auto using table_keys, word_table.
Qed.
Lemma max_chosen is_max B order0 pks total0 total1 stream0 stream1 subs0 subs1 pk0 pk1 junk0 junk1 j :
  arrives max_wire total0 stream0 subs0 -> arrives max_wire total1 stream1 subs1 ->
  rows_ok B subs0 -> rows_ok B subs1 ->
  Z.of_nat total0 * (Z.of_nat B + 1) < two32 -> Z.of_nat total1 * (Z.of_nat B + 1) < two32 ->
  length pk0 = 32%nat -> length pk1 = 32%nat ->
  (forall i, length (junk0 i) = (8 * (B + 1))%nat) -> (forall i, length (junk1 i) = (8 * (B + 1))%nat) ->
  Forall (fun pk => knows any subs0 pk = true /\ knows any subs1 pk = true) pks -> Z.of_nat (length pks) < two32 ->
  highest B (fun j => zxors (map (combined any (xor_at j) 0 subs0 subs1) pks)) j ->
  both (max_op false order0 is_max B total0 stream0 pk0 junk0)
       (max_op true (replay pks) is_max B total1 stream1 pk1 junk1)
    (fun r0 r1 => r1 = RET_NO_ANS /\
       r0 = outcome (length pks) total0 (Z.of_nat (if is_max then j else B - j))).
Proof.
  intros A0 A1 W0 W1 T0 T1 E0 E1 J0 J1 HL HS HH.
  rewrite (max_op_eq _ _ _ _ _ _ subs0), (max_op_eq _ _ _ _ _ _ subs1) by auto.
  destruct A1 as (r1 & _ & _ & P1 & S1). destruct (known_tables _ _ _ _ HL) as [K0 K1].
  destruct (max_replay is_max B (table_of any subs0) (table_of any subs1) pks total0) as (a & b & HX & HR);
    auto using table_keys, rows_table.
  { eapply Forall_impl; [|apply rows_table; eassumption]. now intros ? []. }
  apply rel_both. eapply rel_runs; [exact HR|]. unfold too_few, outcome.
  destruct (Nat.ltb_spec (2 * length pks) total0) as [H|H]; [now apply rel_ret|].
  destruct HH as (H1 & H2 & H3). rewrite (scan_down_highest a b B j); [now apply rel_ret|].
  split; auto. split; [now rewrite HX, map_combined|]. intros k Hk. rewrite HX, map_combined. now apply H3.
Qed.

(** ** One client only *)
Lemma zsum_repeat {A} (f : A -> Z) x k : zsum (map f (repeat x k)) = Z.of_nat k * f x.
Proof. induction k as [|k IH]; [reflexivity|]. cbn [repeat map zsum fold_right]. fold (zsum (map f (repeat x k))). rewrite IH. lia. Qed.
Lemma zxors_repeat {A} (f : A -> Z) x k : zxors (map f (repeat x k)) = if Nat.odd k then f x else 0.
Proof.
  induction k as [|k IH]; [reflexivity|]. cbn [repeat map zxors fold_right]. fold (zxors (map f (repeat x k))).
  rewrite IH, Nat.odd_succ, <- Nat.negb_odd. destruct (Nat.odd k); cbn [negb]; [apply Z.lxor_nilpotent|apply Z.lxor_0_r].
Qed.
Lemma knows_repeat {V} ok (subs0 subs1 : list (list Z * V)) pk a b k : first_sub ok subs0 pk = Some a -> first_sub ok subs1 pk = Some b ->
  Forall (fun pk => knows ok subs0 pk = true /\ knows ok subs1 pk = true) (repeat pk k).
Proof. intros E0 E1. apply Forall_forall. intros q Hq. apply repeat_spec in Hq as ->. unfold knows. now rewrite E0, E1. Qed.
Lemma combined_some {V X} ok (f : V -> V -> X) d s0 s1 pk a b : first_sub ok s0 pk = Some a -> first_sub ok s1 pk = Some b ->
  combined ok f d s0 s1 pk = f a b.
Proof. intros E0 E1. unfold combined. now rewrite E0, E1. Qed.
Lemma outcome_ans {A} n total (x : A) : (total <= 2 * n)%nat -> outcome n total x = RET_ANS x.
Proof. intros H. unfold outcome. destruct (Nat.ltb_spec (2 * n) total); [lia|reflexivity]. Qed.
Lemma both_imp' {A B} (p : proc A) (q : proc B) (R S : A -> B -> Prop) : both p q R -> (forall a b, R a b -> S a b) -> both p q S.
Proof. intros (a & b & H & HR) HS. exists a, b. auto. Qed.

Lemma bit_singled order0 pk k a b total0 total1 stream0 stream1 subs0 subs1 junk0 junk1 rnd0 rnd1 :
  arrives bit_wire total0 stream0 subs0 -> arrives bit_wire total1 stream1 subs1 ->
  length junk0 = 33%nat -> length junk1 = 33%nat ->
  first_sub any subs0 pk = Some a -> first_sub any subs1 pk = Some b ->
  (total0 <= 2 * k)%nat -> Z.of_nat k < two32 ->
  both (bit_sum false order0 total0 stream0 junk0 rnd0) (bit_sum true (replay (repeat pk k)) total1 stream1 junk1 rnd1)
    (fun r0 r1 => r1 = RET_NO_ANS /\ r0 = RET_ANS (Z.of_nat k * b2z (xorb a b))).
Proof.
  intros A0 A1 J0 J1 E0 E1 HT HS.
  pose proof (bit_chosen order0 (repeat pk k) total0 total1 stream0 stream1 subs0 subs1 junk0 junk1 rnd0 rnd1 A0 A1 J0 J1
    (knows_repeat any _ _ _ _ _ k E0 E1)) as H. rewrite repeat_length, outcome_ans, zsum_repeat in H by auto.
  rewrite (combined_some any _ _ _ _ _ _ _ E0 E1) in H. now apply H.
Qed.
Lemma int_singled nb order0 pk k a b total0 total1 stream0 stream1 subs0 subs1 junk0 junk1 rnd0 rnd1 :
  (nb <= 63)%nat ->
  arrives int_wire total0 stream0 subs0 -> arrives int_wire total1 stream1 subs1 ->
  Forall (fun s => word (snd s)) subs0 -> Forall (fun s => word (snd s)) subs1 ->
  length junk0 = 40%nat -> length junk1 = 40%nat ->
  first_sub (fits nb) subs0 pk = Some a -> first_sub (fits nb) subs1 pk = Some b ->
  (total0 <= 2 * k)%nat -> Z.of_nat k < two32 ->
  both (int_sum false order0 nb total0 stream0 junk0 rnd0) (int_sum true (replay (repeat pk k)) nb total1 stream1 junk1 rnd1)
    (fun r0 r1 => r1 = RET_NO_ANS /\ r0 = RET_ANS ((Z.of_nat k * Z.lxor a b) mod two64)).
Proof.
  intros HB A0 A1 W0 W1 J0 J1 E0 E1 HT HS.
  pose proof (int_chosen nb order0 (repeat pk k) total0 total1 stream0 stream1 subs0 subs1 junk0 junk1 rnd0 rnd1 HB A0 A1 W0 W1 J0 J1
    (knows_repeat (fits nb) _ _ _ _ _ k E0 E1)) as H. rewrite repeat_length, outcome_ans, zsum_repeat in H by auto.
  rewrite (combined_some (fits nb) _ _ _ _ _ _ _ E0 E1) in H. now apply H.
Qed.
Lemma xor_singled is_and order0 pk k a b total0 total1 stream0 stream1 subs0 subs1 junk0 junk1 :
  arrives int_wire total0 stream0 subs0 -> arrives int_wire total1 stream1 subs1 ->
  Forall (fun s => word (snd s)) subs0 -> Forall (fun s => word (snd s)) subs1 ->
  length junk0 = 40%nat -> length junk1 = 40%nat ->
  first_sub any subs0 pk = Some a -> first_sub any subs1 pk = Some b ->
  (total0 <= 2 * k)%nat -> Nat.odd k = true -> Z.of_nat k < two32 ->
  both (xor_op false order0 is_and total0 stream0 junk0) (xor_op true (replay (repeat pk k)) is_and total1 stream1 junk1)
    (fun r0 r1 => r1 = RET_NO_ANS /\
       r0 = RET_ANS (if is_and then Z.lxor a b =? 0 else negb (Z.lxor a b =? 0))).
Proof.
  intros A0 A1 W0 W1 J0 J1 E0 E1 HT HO HS.
  pose proof (xor_chosen is_and order0 (repeat pk k) total0 total1 stream0 stream1 subs0 subs1 junk0 junk1 A0 A1 W0 W1 J0 J1
    (knows_repeat any _ _ _ _ _ k E0 E1)) as H. rewrite repeat_length, outcome_ans, zxors_repeat, HO in H by auto.
  rewrite (combined_some any _ _ _ _ _ _ _ E0 E1) in H. now apply H.
Qed.
Lemma max_singled is_max B order0 pk k a b total0 total1 stream0 stream1 subs0 subs1 pk0 pk1 junk0 junk1 j :
  arrives max_wire total0 stream0 subs0 -> arrives max_wire total1 stream1 subs1 ->
  rows_ok B subs0 -> rows_ok B subs1 ->
  Z.of_nat total0 * (Z.of_nat B + 1) < two32 -> Z.of_nat total1 * (Z.of_nat B + 1) < two32 ->
  length pk0 = 32%nat -> length pk1 = 32%nat ->
  (forall i, length (junk0 i) = (8 * (B + 1))%nat) -> (forall i, length (junk1 i) = (8 * (B + 1))%nat) ->
  first_sub any subs0 pk = Some a -> first_sub any subs1 pk = Some b ->
  (total0 <= 2 * k)%nat -> Nat.odd k = true -> Z.of_nat k < two32 ->
  highest B (fun j => xor_at j a b) j ->
  both (max_op false order0 is_max B total0 stream0 pk0 junk0)
       (max_op true (replay (repeat pk k)) is_max B total1 stream1 pk1 junk1)
    (fun r0 r1 => r1 = RET_NO_ANS /\ r0 = RET_ANS (Z.of_nat (if is_max then j else B - j))).
Proof.
  intros A0 A1 W0 W1 T0 T1 Q0 Q1 J0 J1 E0 E1 HT HO HS HH.
  pose proof (max_chosen is_max B order0 (repeat pk k) total0 total1 stream0 stream1 subs0 subs1 pk0 pk1 junk0 junk1 j A0 A1 W0 W1 T0 T1 Q0 Q1 J0 J1
    (knows_repeat any _ _ _ _ _ k E0 E1)) as H. rewrite repeat_length, outcome_ans in H by auto.
  apply H; auto. destruct HH as (H1 & H2 & H3).
  split; auto. split; [rewrite zxors_repeat, HO, (combined_some any _ _ _ _ _ _ _ E0 E1); exact H2|].
  intros i Hi. rewrite zxors_repeat, HO, (combined_some any _ _ _ _ _ _ _ E0 E1). now apply H3.
Qed.

(** ** What remains of the threshold *)
Lemma count_knows {V} ok (subs : list (list Z * V)) pks :
  count (map is_some (map (fun pk => find pk (table_of ok subs)) pks)) = length (filter (knows ok subs) pks).
Proof.
  unfold count. induction pks as [|pk l IH]; [reflexivity|]. cbn [map filter]. rewrite table_find. unfold knows at 1.
  destruct (first_sub ok subs pk); cbn [is_some filter length]; auto.
Qed.
Section Half.
Variables (i : list Z) (w : list (list Z)).
Lemma bit_half order total stream subs junk rnd x :
  arrives bit_wire total stream subs -> length junk = 33%nat ->
  against (bit_sum false order total stream junk rnd) i w = Returns (RET_ANS x) ->
  exists pks rest, announced i pks rest /\ (total <= 2 * length (filter (knows any subs) pks))%nat.
Proof.
  intros A J. rewrite (bit_sum_eq _ _ _ _ subs) by auto. unfold bit_sum0.
  match goal with |- against (bind learn ?f) i w = _ -> _ => destruct (learn_against f i w) as [(pks & rest & HA & ->)|[N ->]] end; [|discriminate].
  cbv zeta. unfold bitsum_ot_sender. destruct (bitsum_send_loop _ _ _ _ _). cbn [bind against recv_uint64].
  destruct (_ <=? _)%nat; [|discriminate]. rewrite count_knows. unfold too_few.
  destruct (Nat.ltb_spec (2 * length (filter (knows any subs) pks)) total); [discriminate|]. intros _. eauto.
Qed.
Lemma int_half nb order total stream subs junk rnd x : (nb <= 63)%nat ->
  arrives int_wire total stream subs -> Forall (fun s => word (snd s)) subs -> length junk = 40%nat ->
  against (int_sum false order nb total stream junk rnd) i w = Returns (RET_ANS x) ->
  exists pks rest, announced i pks rest /\ (total <= 2 * length (filter (knows (fits nb) subs) pks))%nat.
Proof.
  intros HB A W J. rewrite (int_sum_eq _ _ _ _ _ subs) by auto. unfold int_sum0.
  match goal with |- against (bind learn ?f) i w = _ -> _ => destruct (learn_against f i w) as [(pks & rest & HA & ->)|[N ->]] end; [|discriminate].
  cbv zeta. unfold intsum_ot_sender, widths_ok. cbn [forallb]. destruct (Nat.leb_spec nb 64); [cbn [andb]|lia].
  destruct (intsum_send_rows _ _ _ _ _). cbn [bind against recv_uint64].
  destruct (_ <=? _)%nat; [|discriminate]. rewrite count_knows. unfold too_few.
  destruct (Nat.ltb_spec (2 * length (filter (knows (fits nb) subs) pks)) total); [discriminate|]. intros _. eauto.
Qed.
Lemma xor_half is_and order total stream subs junk x :
  arrives int_wire total stream subs -> Forall (fun s => word (snd s)) subs -> length junk = 40%nat ->
  against (xor_op false order is_and total stream junk) i w = Returns (RET_ANS x) ->
  exists pks rest, announced i pks rest /\ (total <= 2 * length (filter (knows any subs) pks))%nat.
Proof.
  intros A W J. rewrite (xor_op_eq _ _ _ _ _ subs) by auto. unfold xor_op0.
  match goal with |- against (bind learn ?f) i w = _ -> _ => destruct (learn_against f i w) as [(pks & rest & HA & ->)|[N ->]] end; [|discriminate].
  cbv zeta. cbn [bind against recv_uint64 send_bool_batch].
  destruct (_ <=? _)%nat; [|discriminate]. rewrite count_knows. unfold too_few.
  destruct (Nat.ltb_spec (2 * length (filter (knows any subs) pks)) total); [discriminate|]. intros _. eauto.
Qed.
Lemma max_half is_max B order total stream subs pk0 junk x :
  arrives max_wire total stream subs -> rows_ok B subs -> Z.of_nat total * (Z.of_nat B + 1) < two32 ->
  length pk0 = 32%nat -> (forall i, length (junk i) = (8 * (B + 1))%nat) ->
  against (max_op false order is_max B total stream pk0 junk) i w = Returns (RET_ANS x) ->
  exists pks rest, announced i pks rest /\ (total <= 2 * length (filter (knows any subs) pks))%nat.
Proof.
  intros A W T K J. rewrite (max_op_eq _ _ _ _ _ _ subs) by auto. unfold max_op0.
  match goal with |- against (bind learn ?f) i w = _ -> _ => destruct (learn_against f i w) as [(pks & rest & HA & ->)|[N ->]] end; [|discriminate].
  cbv zeta. cbn [bind against recv_uint64_batch send_bool_batch].
  destruct (_ <=? _)%nat; [|discriminate]. rewrite count_knows. unfold too_few.
  destruct (Nat.ltb_spec (2 * length (filter (knows any subs) pks)) total); [discriminate|]. intros _. eauto.
Qed.

(** ** MAX, MIN: which programs break server 0 *)
Lemma max_peer0 is_max B order total stream subs pk0 junk :
  arrives max_wire total stream subs -> rows_ok B subs -> Z.of_nat total * (Z.of_nat B + 1) < two32 ->
  length pk0 = 32%nat -> (forall i, length (junk i) = (8 * (B + 1))%nat) ->
  against (max_op false order is_max B total stream pk0 junk) i w = Breaks <->
  exists pks rest, announced i pks rest /\ (8 * (B + 1) <= length rest)%nat /\
    (total <= 2 * length (filter (knows any subs) pks))%nat /\
    forall j, (j <= B)%nat -> le_val (firstn 8 (skipn (8 * j) rest)) = zxors (map (own_word j subs) pks).
Proof.
  intros A W T K J. rewrite (max_op_eq _ _ _ _ _ _ subs) by auto. rewrite max0_breaks.
  assert (G : forall pks j, nth j (fold_left (fun a f => match f with Some v => xor_row a v | None => a end)
                       (map (fun pk => find pk (table_of any subs)) pks) (repeat 0 (B + 1))) 0 = zxors (map (own_word j subs) pks)).
  { intros pks j. destruct (fold_xor_found (B + 1) (map (fun pk => find pk (table_of any subs)) pks) (repeat 0 (B + 1))) as [_ E].
    { apply repeat_length. }
    { apply Forall_map, Forall_forall. intros k _. destruct (find k (table_of any subs)) as [v|] eqn:F; auto.
      pose proof (rows_table B subs W) as HW.
      exact (proj1 (find_forall (fun v => length v = (B + 1)%nat /\ Forall word v) _ k v HW F)). }
    rewrite E. assert (R : nth j (repeat 0 (B + 1)) 0 = 0).
    { destruct (nth_in_or_default j (repeat 0 (B + 1)) 0) as [H|H]; auto. now apply repeat_spec in H. }
    rewrite R, Z.lxor_0_l, map_map. f_equal. apply map_ext. intros pk. rewrite table_find. unfold own_word.
    destruct (first_sub any subs pk); cbn [get]; auto. now destruct j. }
  split; intros (pks & rest & H1 & H2 & H3 & H4); exists pks, rest; rewrite count_knows in *; repeat split; auto;
    try (intros j Hj; rewrite <- G || rewrite G; now apply H4); apply H1.
Qed.
End Half.

(** ** Programs that break a server *)
Lemma max_breakable is_max B order total stream subs pk0 junk pk :
  arrives max_wire total stream subs -> rows_ok B subs -> Z.of_nat total * (Z.of_nat B + 1) < two32 ->
  length pk0 = 32%nat -> (forall i, length (junk i) = (8 * (B + 1))%nat) ->
  knows any subs pk = true ->
  breakable false (max_op false order is_max B total stream pk0 junk).
Proof.
  intros A W T K J HK. apply breakable_against.
  rewrite (max_op_eq _ _ _ _ _ _ subs) by auto. unfold knows in HK. rewrite <- table_find in HK.
  destruct (find pk (table_of any subs)) as [v|] eqn:E; [|discriminate].
  assert (HT : Z.of_nat total < two32) by (unfold two32 in *; nia).
  set (k := ((total + 3) / 4)%nat).
  assert (HK4 : (total <= 4 * k)%nat) by (unfold k; pose proof (Nat.div_mod (total + 3) 4 ltac:(lia)); pose proof (Nat.mod_upper_bound (total + 3) 4 ltac:(lia)); lia).
  assert (HKB : (4 * k <= total + 3)%nat) by (unfold k; apply Nat.mul_div_le; lia).
  eexists _, []. apply (max_peer0_crash is_max B _ total pk v k).
  - exact E.
  - exact (proj1 (find_forall (fun v => length v = (B + 1)%nat /\ Forall word v) _ pk v (rows_table B subs W) E)).
  - destruct A as (r & _ & _ & HP & _). destruct (table_keys any subs HP) as [_ HKs].
    apply find_in in E. rewrite Forall_forall in HKs. exact (HKs _ E).
  - exact HK4.
  - clear - HKB HT. unfold two32 in *. lia.
Qed.
Lemma zero_announced : announced (le_bytes 8 0) [] [].
Proof. unfold announced. cbn. repeat split; auto. Qed.
Lemma var_breakable order nb total stream junk K rnd st :
  (nb < 32)%nat -> bytes stream -> length junk = 48%nat -> Z.of_nat total < two32 ->
  breakable false (var_op false order nb total stream junk K rnd st).
Proof.
  intros HB HS HJ HT. apply breakable_against. exists (le_bytes 8 0), [].
  destruct (var_peer0 order nb total stream junk K rnd st HB HS HJ HT) as (subs & _ & H).
  apply H. exists [], []. split; [apply zero_announced|now left].
Qed.
Lemma var_safe1 order nb total stream junk K rnd st :
  (nb < 32)%nat -> fair order -> bytes stream -> length junk = 48%nat -> Z.of_nat total < two32 ->
  exists subs, arrives_cut var_wire var_size total stream subs /\
    ((exists pk, first_sub (var_fits nb) subs pk <> None) ->
     safe true (var_op true order nb total stream junk K rnd st) (fun r => fst r = RET_NO_ANS)).
Proof.
  intros HB HF HS HJ HT. destruct (var_peer1 order nb total stream junk K rnd st HB HF HS HJ HT) as (subs & A & H).
  exists subs. split; auto. intros E. apply safe_against. auto.
Qed.
Lemma linreg_breakable degree order nb total stream d0 junk garbage K rnd st :
  (nb < 32)%nat -> (1 <= degree)%nat -> (num_quad degree + num_x degree < 2 ^ 18)%nat -> bytes stream ->
  length junk = 32%nat -> length d0 = 8%nat -> Z.of_nat total < two32 ->
  (forall i, let '(x, x2, xy) := garbage i in linreg_shape degree (x, 0, x2, xy)) ->
  breakable false (linreg_op false order nb total (degree_wire degree ++ stream) d0 junk garbage K rnd st).
Proof.
  intros HB HD HQ HS HJ H0 HT HG. apply breakable_against. exists (le_bytes 8 0), [].
  destruct (linreg_peer0 degree order nb total stream d0 junk garbage K rnd st HB HD HQ HS HJ H0 HT HG) as (subs & _ & H).
  apply H. exists [], []. split; [apply zero_announced|now left].
Qed.
Lemma linreg_safe1 degree order nb total stream d0 junk garbage K rnd st :
  (nb < 32)%nat -> (1 <= degree)%nat -> (num_quad degree + num_x degree < 2 ^ 18)%nat -> fair order -> bytes stream ->
  length junk = 32%nat -> length d0 = 8%nat -> Z.of_nat total < two32 ->
  exists subs, arrives_cut linreg_wire (linreg_size degree) total stream subs /\
    ((exists pk, first_sub (linreg_fits nb) subs pk <> None) ->
     safe true (linreg_op true order nb total (degree_wire degree ++ stream) d0 junk garbage K rnd st)
       (fun r => fst r = RET_NO_ANS)).
Proof.
  intros HB HD HQ HF HS HJ H0 HT.
  destruct (linreg_peer1 degree order nb total stream d0 junk garbage K rnd st HB HD HQ HF HS HJ H0 HT) as (subs & A & H).
  exists subs. split; auto. intros E. apply safe_against. auto.
Qed.
Lemma freq_breakable server order nb total stream pk0 junk c T s :
  server_num c = server -> lazy c = true -> (nb <= 30)%nat -> Z.of_nat total + 1 < two32 ->
  breakable server (freq_op server order nb total stream pk0 junk c T s).
Proof.
  intros HS HL HB HT. apply breakable_against. destruct server.
  - destruct (freq_peer1 order nb total stream pk0 junk c T s HS HL HB) as (k & H).
    exists (repeat 0 k ++ [2]), []. apply (H (repeat 0 k ++ [2]) []). rewrite app_length, repeat_length. cbn [length]. split; [lia|].
    rewrite app_nth2; rewrite repeat_length; [|lia]. rewrite Nat.sub_diag. cbn. intros [X|X]; discriminate X.
  - set (pks := repeat (repeat 0 32) (S total)).
    exists (le_bytes 8 (bswap32 (Z.of_nat (length pks))) ++ concat pks ++ []), [].
    apply (freq_peer0 order nb total stream pk0 junk c T s _ [] HS HB). exists pks, [].
    assert (LP : length pks = S total) by apply repeat_length. split; [|left; lia].
    apply announce_bytes; [lia|]. apply Forall_forall. intros q Hq. apply repeat_spec in Hq as ->. apply repeat_length.
Qed.
