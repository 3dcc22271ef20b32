(** * Whole runs of VAR and LINREG with the conversion by daBits *)
From Coq Require Import ZArith List Bool Lia Permutation.
From Verif Require Import Words WordsFacts Constants Cong Share ShareFacts Proc ProcFacts Net NetFacts SpecNet NetMsg RelFacts
  Correlated SpecStore Poly SpecPoly Circuit SpecCircuit CircuitFacts Snip SpecSnip SnipFacts SnipBatch
  ServerOps SpecServer TableFacts ServerFacts ServerProps ServerCor ClientOps SpecClient ClientFacts
  SnipSums SpecStat StatReads StatProps StatClient StatSound DabitOps SpecDabit DabitFacts.
Import ListNotations.
Open Scope Z_scope.
Local Notation P := Int_Modulus.
Opaque Nat.pow.

Lemma honest_accepted_own {V W} (ok : V -> bool) (l : list (crec V W)) :
  NoDup (map c_pk l) -> Forall (fun r => ok (c_0 r) = true /\ ok (c_1 r) = true) l ->
  accepted ok (subs1 l) (subs1 l) (map c_pk l).
Proof.
  intros ND OK. destruct (honest_accepted_list ok l ND OK) as [_ HA]. split; [exact ND|].
  intros pk. split; [intros H; apply HA in H as [_ H]; auto|]. intros [H _].
  destruct (first_sub ok (subs1 l) pk) as [v|] eqn:E; [|easy]. apply first_sub_in in E as [E _].
  unfold subs1 in E. apply in_map_iff in E as (r & E & Hr). injection E as <- _. now apply in_map.
Qed.

Lemma var_honest_d c0 c1 nb g T s n order0 order1 junk0 junk1 T0 T1 K st0 st1 s0 s1 :
  params_ok c0 c1 -> stores_paired s0 s1 -> (nb <= 15)%nat -> prg_ok g -> (0 < n)%nat -> Z.of_nat n < two32 -> fair order1 ->
  length junk0 = 48%nat -> length junk1 = 48%nat -> synced st0 st1 ->
  exists l st' stream0 stream1,
    requests_opt (var_request (2 ^ Z.of_nat nb) g T) n (0%nat, s, None) = Some (l, st') /\ length l = n /\
    wire_opt VarShare_bytes (subs0 l) = Some stream0 /\ wire_opt VarShare_bytes (subs1 l) = Some stream1 /\
    (let sum := zsum (map c_real l) in let sumsq := zsum (map (fun r => c_real r * c_real r) l) in
     both (var_op_d c0 order0 nb n stream0 junk0 T0 K st0 s0) (var_op_d c1 order1 nb n stream1 junk1 T1 K st1 s1)
       (fun a b => fst (fst b) = RET_NO_ANS /\ fst (fst a) = RET_ANS (n, sum mod p, sumsq mod p) /\
          synced (snd (fst a)) (snd (fst b)) /\ stores_paired (snd a) (snd b) /\
          used (n * (3 * nb)) s0 (snd a) /\ used (n * (3 * nb)) s1 (snd b)) /\
     var_ans l = (sum mod two64, sumsq mod two64)).
Proof.
  intros HPA HSP Hn HG Hn0 HN HF J0 J1 SY.
  destruct (requests_opt_facts g CheckVar (var_request (2 ^ Z.of_nat nb) g T) (var_good nb) 3
    (var_request_good nb g T ltac:(lia)) n 0%nat s None (or_introl eq_refl))
    as (l & pos' & s' & tabs' & E & HP & L & GD & PK & ND).
  assert (ND' : NoDup (map c_pk l)) by (apply ND; auto; unfold two32, two64 in *; lia). clear ND.
  assert (K32 : Forall (fun r => length (c_pk r) = 32%nat) l).
  { eapply Forall_impl; [|exact PK]. intros r (q & _ & EQ). rewrite EQ. now apply make_pk_length. }
  assert (C0 : Forall (fun s => var_content (snd s)) (subs0 l)).
  { apply Forall_map. eapply Forall_impl; [|exact GD]. intros r H. apply H. }
  assert (C1 : Forall (fun s => var_content (snd s)) (subs1 l)).
  { apply Forall_map. eapply Forall_impl; [|exact GD]. intros r H. apply H. }
  assert (W : forall subs, Forall (fun s => var_content (snd s)) subs ->
    Forall (fun s => VarShare_bytes s = Some (var_wire s)) subs).
  { intros subs. apply Forall_impl. intros [pk [[v v2] pkt]] (W1 & W2 & PO). unfold VarShare_bytes. cbn [fst snd].
    rewrite (sent_packet _ _ PO). cbn [option_map]. unfold var_wire, words. cbn [map concat].
    now rewrite app_nil_r, <- !app_assoc. }
  assert (OK : Forall (fun r => var_fits nb (c_0 r) = true /\ var_fits nb (c_1 r) = true) l).
  { eapply Forall_impl; [|exact GD]. intros r H. split; apply H. }
  pose proof (honest_accepted_list (var_fits nb) l ND' OK) as HA.
  pose proof (honest_accepted_own (var_fits nb) l ND' OK) as HA1.
  exists l, (pos', s', tabs'), (wire var_wire (subs0 l)), (wire var_wire (subs1 l)).
  split; [exact E|]. split; [exact L|]. split; [apply wire_opt_all; auto|]. split; [apply wire_opt_all; auto|].
  cbv zeta. split; [|unfold var_ans; change (0, 0) with (u64 0, u64 0); apply fold_var].
  assert (Hr : in_field P (randomX st0)) by apply SY.
  destruct l as [|r0 l'] eqn:El; [cbn in L; lia|]. rewrite <- El in *.
  eapply both_impl; [|apply (var_op_dabit_result c0 c1 nb order0 order1 n n _ _ (subs0 l) (subs1 l) junk0 junk1 T0 T1 K st0 st1 s0 s1
    (map c_pk l) (map c_pk l));
    auto].
  - intros a b (good & pos & HV & -> & -> & SY' & _ & SP' & U0 & U1).
    rewrite map_length, L in U0, U1.
    assert (FL : filter good (map c_pk l) = map c_pk l).
    { eapply all_ok; [exact Hr|exact HV|exact HA|]. intros pk x y po E0 E1.
      assert (Hin : In pk (map c_pk l)) by (apply HA; split; congruence).
      apply in_map_iff in Hin as (r & <- & Hin).
      rewrite (honest_first0 _ l ND' OK r Hin) in E0. rewrite (honest_first1 _ l ND' OK r Hin) in E1.
      injection E0 as <-. injection E1 as <-.
      rewrite Forall_forall in GD. destruct (GD r Hin) as (_ & _ & _ & _ & _ & -> & HH).
      apply judged_honest; auto; [apply check_var_wf|apply PeanoNat.Nat.ltb_lt; reflexivity|].
      now apply check_var_lemma. }
    rewrite FL, map_length, L, outcome_all. split; [reflexivity|]. split; [|auto].
    assert (S : forall j, field_sum (var_fits nb) var_opened (subs0 l) (subs1 l) (map c_pk l) j =
      zsum (map (fun r => nth j [c_real r; c_real r * c_real r] 0) l)).
    { intros j. unfold field_sum.
      rewrite <- (map_map (combined (var_fits nb) var_opened [] (subs0 l) (subs1 l)) (fun r => nth j r 0)).
      rewrite (honest_map_combined _ l ND' OK), map_map. apply f_equal. apply map_ext_in. intros r Hin.
      rewrite Forall_forall in GD. destruct (GD r Hin) as (_ & _ & _ & _ & _ & -> & _). reflexivity. }
    rewrite !S. reflexivity.
  - apply honest_arrives_cut; auto; [unfold subs0; now rewrite map_length|apply Forall_map; exact K32].
  - apply honest_arrives_cut; auto; [unfold subs1; now rewrite map_length|apply Forall_map; exact K32].
  - exists (c_pk r0). rewrite (honest_first1 _ l ND' OK r0) by (rewrite El; now left). discriminate.
Qed.

Lemma linreg_honest_d c0 c1 nb degree g T s n order0 order1 d0 d1 junk0 junk1 garbage0 garbage1 T0 T1 K st0 st1 s0 s1 :
  params_ok c0 c1 -> stores_paired s0 s1 -> (nb <= 15)%nat -> (1 <= degree)%nat -> (num_quad degree + num_x degree < 2 ^ 18)%nat ->
  prg_ok g -> (0 < n)%nat -> Z.of_nat n < two32 -> fair order1 ->
  length d0 = 8%nat -> length d1 = 8%nat -> length junk0 = 32%nat -> length junk1 = 32%nat ->
  (forall i, let '(x, x2, xy) := garbage0 i in linreg_shape degree (x, 0, x2, xy)) -> synced st0 st1 ->
  exists l st' deg stream0 stream1,
    requests_opt (linreg_request degree (2 ^ Z.of_nat nb) g T) n (0%nat, s, None) = Some (l, st') /\ length l = n /\
    sent_bytes (send_size (Z.of_nat degree)) = Some deg /\
    wire_opt (linregshare_bytes degree) (subs0 l) = Some stream0 /\
    wire_opt (linregshare_bytes degree) (subs1 l) = Some stream1 /\
    (forall r, In r l -> length (fst (c_real r)) = num_x degree /\
       Forall (fun v => 0 <= v < 2 ^ Z.of_nat nb) (fst (c_real r)) /\ 0 <= snd (c_real r) < 2 ^ Z.of_nat nb) /\
    both (linreg_op_d c0 order0 nb n (deg ++ stream0) d0 junk0 garbage0 T0 K st0 s0)
         (linreg_op_d c1 order1 nb n (deg ++ stream1) d1 junk1 garbage1 T1 K st1 s1)
       (fun a b => fst (fst b) = RET_NO_ANS /\
          fst (fst a) = RET_ANS (moments degree n (fun j => zsum (map (fun r => nth j (linreg_fields (c_real r)) 0) l) mod p)) /\
          synced (snd (fst a)) (snd (fst b)) /\ stores_paired (snd a) (snd b)).
Proof.
  intros HPA HSP Hn Hd HQ HG Hn0 HN HF LD0 LD1 J0 J1 HGB SY.
  destruct (linreg_gates degree Hd) as [GM GI].
  assert (HM : (NumMulGates (CheckLinReg degree) < 2 ^ 18)%nat) by (rewrite GM; exact HQ).
  destruct (requests_opt_facts g (CheckLinReg degree) (linreg_request degree (2 ^ Z.of_nat nb) g T) (linreg_good nb degree) _
    (linreg_request_good nb degree g T ltac:(lia) Hd (fun q k => proj1 (random_words_ok g q k HG)) HM) n 0%nat s None (or_introl eq_refl))
    as (l & pos' & s' & tabs' & E & HP & L & GD & PK & ND).
  assert (ND' : NoDup (map c_pk l)) by (apply ND; auto; exact (linreg_draws degree n pos' HQ HN (proj2 HP))). clear ND.
  assert (K32 : Forall (fun r => length (c_pk r) = 32%nat) l).
  { eapply Forall_impl; [|exact PK]. intros r (q & _ & EQ). rewrite EQ. now apply make_pk_length. }
  assert (C0 : Forall (fun s => linreg_content degree (snd s)) (subs0 l)).
  { apply Forall_map. eapply Forall_impl; [|exact GD]. intros r H. apply H. }
  assert (C1 : Forall (fun s => linreg_content degree (snd s)) (subs1 l)).
  { apply Forall_map. eapply Forall_impl; [|exact GD]. intros r H. apply H. }
  assert (W : forall subs, Forall (fun s => linreg_content degree (snd s)) subs ->
    Forall (fun s => linregshare_bytes degree s = Some (linreg_wire s)) subs).
  { intros subs. apply Forall_impl. intros [pk [[[[x y] x2] xy] pkt]] [HS PO]. unfold linregshare_bytes.
    cbn [fst snd] in PO |- *. destruct HS as (_ & _ & _ & _ & Wy & _). rewrite !sent_bytes_seq, !sent_uint64_batch.
    rewrite (sent_packet _ _ PO). cbn [send_uint64 sent_bytes option_map]. rewrite app_nil_r, be_bytes64 by exact Wy.
    unfold linreg_wire. reflexivity. }
  assert (OK : Forall (fun r => linreg_fits nb (c_0 r) = true /\ linreg_fits nb (c_1 r) = true) l).
  { eapply Forall_impl; [|exact GD]. intros r H. split; apply H. }
  pose proof (honest_accepted_list (linreg_fits nb) l ND' OK) as HA.
  pose proof (honest_accepted_own (linreg_fits nb) l ND' OK) as HA1.
  exists l, (pos', s', tabs'), (degree_wire degree), (wire linreg_wire (subs0 l)), (wire linreg_wire (subs1 l)).
  split; [exact E|]. split; [exact L|]. split; [apply sent_degree, degree_small, HQ|].
  split; [apply wire_opt_all; auto|]. split; [apply wire_opt_all; auto|].
  split.
  { intros r Hr. rewrite Forall_forall in GD. destruct (GD r Hr) as (A & B & C & _). auto. }
  assert (Hr : in_field P (randomX st0)) by apply SY.
  destruct l as [|r0 l'] eqn:El; [cbn in L; lia|]. rewrite <- El in *.
  eapply both_impl; [|apply (linreg_op_dabit_result c0 c1 nb degree order0 order1 n n _ _ (subs0 l) (subs1 l) d0 d1 junk0 junk1
    garbage0 garbage1 T0 T1 K st0 st1 s0 s1 (map c_pk l) (map c_pk l)); auto].
  - intros a b (good & pos & HV & -> & -> & SY' & _ & SP' & _).
    assert (FL : filter good (map c_pk l) = map c_pk l).
    { eapply all_ok; [exact Hr|exact HV|exact HA|]. intros pk x y po E0 E1.
      assert (Hin : In pk (map c_pk l)) by (apply HA; split; congruence).
      apply in_map_iff in Hin as (r & <- & Hin).
      rewrite (honest_first0 _ l ND' OK r Hin) in E0. rewrite (honest_first1 _ l ND' OK r Hin) in E1.
      injection E0 as <-. injection E1 as <-.
      rewrite Forall_forall in GD. destruct (GD r Hin) as (Lr & _ & _ & _ & _ & _ & _ & -> & HH).
      apply judged_honest; auto; [apply check_linreg_wf; exact Hd|]. now apply linreg_true. }
    rewrite FL, map_length, L, outcome_all. split; [reflexivity|]. split; [|auto].
    assert (S : forall j, field_sum (linreg_fits nb) linreg_opened (subs0 l) (subs1 l) (map c_pk l) j =
      zsum (map (fun r => nth j (linreg_fields (c_real r)) 0) l)).
    { intros j. unfold field_sum.
      rewrite <- (map_map (combined (linreg_fits nb) linreg_opened [] (subs0 l) (subs1 l)) (fun r => nth j r 0)).
      rewrite (honest_map_combined _ l ND' OK), map_map. apply f_equal. apply map_ext_in. intros r Hin.
      rewrite Forall_forall in GD. destruct (GD r Hin) as (_ & _ & _ & _ & _ & _ & _ & -> & _). reflexivity. }
    apply f_equal. unfold moments.
    assert (S' : forall A (f : Z -> A) k, map (fun j => f (field_sum (linreg_fits nb) linreg_opened (subs0 l) (subs1 l) (map c_pk l) j)) k
       = map (fun j => f (zsum (map (fun r => nth j (linreg_fields (c_real r)) 0) l))) k)
      by (intros; apply map_ext; intros; now rewrite S).
    rewrite !(S' _ (fun z => z mod p)), S. reflexivity.
  - apply honest_arrives_cut; auto; [unfold subs0; now rewrite map_length|apply Forall_map; exact K32].
  - apply honest_arrives_cut; auto; [unfold subs1; now rewrite map_length|apply Forall_map; exact K32].
  - exists (c_pk r0). rewrite (honest_first1 _ l ND' OK r0) by (rewrite El; now left). discriminate.
Qed.

(** ** Widths for which an [int] is shifted by 32 or more *)
Lemma share_convert_wide c T nbs x s : (exists nb, In nb nbs /\ 32 < nb)%nat -> x <> [] ->
  share_convert_d c T nbs x s = Undef.
Proof.
  intros (nb & Hi & Hw) Hx. unfold share_convert_d, b2a_daBit_multi.
  destruct x as [|r x]; [easy|]. cbn [map concat].
  replace (forallb _ _) with false; [reflexivity|]. symmetry. rewrite forallb_app.
  apply andb_false_iff. left. destruct (forallb _ nbs) eqn:E; [|reflexivity].
  rewrite forallb_forall in E. specialize (E nb Hi). apply Nat.leb_le in E. lia.
Qed.

Lemma var_wide c0 c1 nb order0 order1 total0 total1 stream0 stream1 subs0 subs1 junk0 junk1 T0 T1 K st0 st1 s0 s1 :
  server_num c0 = false -> server_num c1 = true -> (17 <= nb <= 24)%nat -> fair order1 ->
  arrives_cut var_wire var_size total0 stream0 subs0 -> arrives_cut var_wire var_size total1 stream1 subs1 ->
  Forall (fun s => var_content (snd s)) subs0 -> Forall (fun s => var_content (snd s)) subs1 ->
  length junk0 = 48%nat -> length junk1 = 48%nat ->
  (exists pk, first_sub (var_fits nb) subs1 pk <> None) ->
  ends 0 (var_op_d c0 order0 nb total0 stream0 junk0 T0 K st0 s0) (var_op_d c1 order1 nb total1 stream1 junk1 T1 K st1 s1)
    (Cfg Undef Undef [] []).
Proof.
  intros P0 P1 Hn HF (rest0 & -> & HT0 & HP0 & HL0) (rest1 & -> & HT1 & HP1 & HL1) C0 C1 J0 J1 NE.
  unfold var_op_d. destruct (Nat.leb_spec 64 nb); [lia|].
  rewrite !var_receive by (auto; lia). rewrite P0, P1.
  set (m0 := table_of (var_fits nb) subs0). set (m1 := table_of (var_fits nb) subs1).
  pose proof (table_keys (var_fits nb) subs1 HP1) as HK. fold m1 in HK.
  pose proof (table_nonempty _ _ NE) as NE1. fold m1 in NE1.
  assert (LM : Z.of_nat (length m1) < two32).
  { pose proof (table_length (var_fits nb) subs1) as Q. fold m1 in Q. lia. }
  unfold var_op0_d, var_op1_d. cbv zeta.
  assert (LO : length (order1 _ m1) = length m1) by now apply fair_length.
  assert (NO : order1 _ m1 <> []) by (intros E; rewrite E in LO; destruct m1; [easy|discriminate]).
  apply reach_ends. eapply runs_reach; [|apply reach_undef2].
  eapply runs_trans.
  { apply delivers_runs', (delivers_announce (order1 _ m1)); [apply fair_forall; [exact HF|apply HK]|now rewrite LO]. }
  unfold snip_sums0_d, snip_sums1_d.
  assert (W : (exists k, In k [nb; 2 * nb] /\ 32 < k)%nat) by (exists (2 * nb)%nat; split; [right; now left|lia]).
  rewrite !share_convert_wide; auto; try (destruct (order1 _ m1); [easy|discriminate]).
  apply runs_refl.
Qed.

Lemma linreg_wide c0 c1 nb degree order0 order1 total0 total1 stream0 stream1 subs0 subs1 d0 d1 junk0 junk1
  garbage0 garbage1 T0 T1 K st0 st1 s0 s1 :
  server_num c0 = false -> server_num c1 = true -> (17 <= nb <= 24)%nat -> (2 <= degree)%nat ->
  (num_quad degree + num_x degree < 2 ^ 18)%nat -> fair order1 ->
  arrives_cut linreg_wire (linreg_size degree) total0 stream0 subs0 ->
  arrives_cut linreg_wire (linreg_size degree) total1 stream1 subs1 ->
  Forall (fun s => linreg_content degree (snd s)) subs0 -> Forall (fun s => linreg_content degree (snd s)) subs1 ->
  length d0 = 8%nat -> length d1 = 8%nat -> length junk0 = 32%nat -> length junk1 = 32%nat ->
  (exists pk, first_sub (linreg_fits nb) subs1 pk <> None) ->
  ends 0 (linreg_op_d c0 order0 nb total0 (degree_wire degree ++ stream0) d0 junk0 garbage0 T0 K st0 s0)
         (linreg_op_d c1 order1 nb total1 (degree_wire degree ++ stream1) d1 junk1 garbage1 T1 K st1 s1)
    (Cfg Undef Undef [] []).
Proof.
  intros P0 P1 Hn Hd2 HQ HF (rest0 & -> & HT0 & HP0 & HL0) (rest1 & -> & HT1 & HP1 & HL1) C0 C1 LD0 LD1 J0 J1 NE.
  assert (Hd : (1 <= degree)%nat) by lia.
  destruct (linreg_gates degree Hd) as [GM GI].
  assert (HM : (NumMulGates (CheckLinReg degree) < 2 ^ 18)%nat) by (rewrite GM; exact HQ).
  destruct (npo2_nat _ HM) as (kk & _ & _ & HN).
  pose proof (degree_small degree HQ) as D32.
  destruct (degree_read degree (wire linreg_wire subs0 ++ rest0) d0 D32 LD0) as (e0 & R0 & E0).
  destruct (degree_read degree (wire linreg_wire subs1 ++ rest1) d1 D32 LD1) as (e1 & R1 & E1).
  unfold linreg_op_d.
  destruct (Nat.leb_spec 64 nb) as [B|B]; [lia|]. rewrite R0, R1, E0, E1. clear R0 R1 E0 E1.
  destruct (Nat.eqb_spec degree 0) as [Z0|_]; [lia|].
  rewrite !(linreg_receive nb degree _ _ _ _ _ (ltac:(lia) : (nb < 32)%nat) HN) by auto.
  rewrite P0, P1.
  set (m0 := table_of (linreg_fits nb) subs0). set (m1 := table_of (linreg_fits nb) subs1).
  pose proof (table_keys (linreg_fits nb) subs1 HP1) as HK. fold m1 in HK.
  pose proof (table_nonempty _ _ NE) as NE1. fold m1 in NE1.
  assert (LM : Z.of_nat (length m1) < two32).
  { pose proof (table_length (linreg_fits nb) subs1) as Q. fold m1 in Q. lia. }
  unfold linreg_op0_d, linreg_op1_d. cbv zeta.
  assert (LO : length (order1 _ m1) = length m1) by now apply fair_length.
  assert (NO : order1 _ m1 <> []) by (intros E; rewrite E in LO; destruct m1; [easy|discriminate]).
  apply reach_ends. eapply runs_reach; [|apply reach_undef2].
  eapply runs_trans.
  { apply delivers_runs', (delivers_announce (order1 _ m1)); [apply fair_forall; [exact HF|apply HK]|now rewrite LO]. }
  rewrite (reused_order m0 m1 order1 HF (proj1 HK)).
  unfold snip_sums0_d, snip_sums1_d.
  assert (W : (exists k, In k (linreg_bits nb degree) /\ 32 < k)%nat).
  { exists (2 * nb)%nat. split; [|lia]. rewrite linreg_bits_eq by exact Hd. apply in_or_app. right. right.
    apply in_or_app. right. unfold num_x. destruct (degree - 1)%nat eqn:Ex; [lia|now left]. }
  rewrite !share_convert_wide; auto; try (destruct (order1 _ m1); [easy|discriminate]).
  apply runs_refl.
Qed.
