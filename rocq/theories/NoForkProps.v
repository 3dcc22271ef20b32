(** VAR, LINREG and FREQ without fork, from the byte streams on. *)
From Coq Require Import ZArith List Bool Lia Arith Permutation.
From Verif Require Import Words WordsFacts Constants Share Proc ProcFacts Net NetFacts SpecNet NetMsg RelFacts OT
  Correlated SpecStore CorrelatedFacts MpcFacts HeTriples HeFacts Poly SpecPoly Circuit SpecCircuit Snip SpecSnip SnipFacts SnipBatch
  ServerOps SpecServer TableFacts ServerFacts
  ClientOps SpecClient SpecFreq FreqFacts FreqProps SpecStat StatReads StatProps NoFork SpecNoFork NoForkFacts NoForkRun.
Import ListNotations.
Open Scope Z_scope.
Opaque Int_Modulus Nat.pow.

Lemma listed_length {V} (ok : V -> bool) subs L : accepted ok subs subs L -> length (table_of ok subs) = length L.
Proof.
  intros [ND H]. rewrite <- (map_length fst). apply Permutation_length, NoDup_Permutation; [apply table_nodup|exact ND|].
  intros pk. rewrite H. rewrite <- find_some_iff, table_find. tauto.
Qed.

Lemma var_nofork nb order0 order1 total0 total1 stream0 stream1 subs0 subs1 junk0 junk1 K rnd0 rnd1 st0 st1 L1 a b :
  (nb < 32)%nat -> fair order1 ->
  arrives_cut var_wire var_size total0 stream0 subs0 -> arrives_cut var_wire var_size total1 stream1 subs1 ->
  Forall (fun s => var_content (snd s)) subs0 -> Forall (fun s => var_content (snd s)) subs1 ->
  length junk0 = 48%nat -> length junk1 = 48%nat ->
  accepted (var_fits nb) subs1 subs1 L1 ->
  let p0 := var_op false order0 nb total0 stream0 junk0 K rnd0 st0 in
  let p1 := var_op true order1 nb total1 stream1 junk1 K rnd1 st1 in
  always p0 p1 a b -> threshold (16 * length L1) (nofork p0) (nofork p1) a b.
Proof.
  intros Hn HF (rest0 & -> & HT0 & HP0 & HL0) (rest1 & -> & HT1 & HP1 & HL1) C0 C1 J0 J1 HA. cbv zeta. unfold var_op.
  destruct (Nat.leb_spec 64 nb); [lia|].
  rewrite !var_receive by auto. intros H'%always_conv. apply thr_threshold.
  rewrite <- (listed_length _ _ _ HA). apply var_thr; auto.
  - apply table_keys. exact HP1.
  - pose proof (table_length (var_fits nb) subs1). lia.
Qed.

Lemma linreg_nofork nb degree order0 order1 total0 total1 stream0 stream1 subs0 subs1 d0 d1 junk0 junk1
  garbage0 garbage1 K rnd0 rnd1 st0 st1 L1 a b :
  (nb < 32)%nat -> (1 <= degree)%nat -> (num_quad degree + num_x degree < 2 ^ 18)%nat -> fair order1 ->
  arrives_cut linreg_wire (linreg_size degree) total0 stream0 subs0 ->
  arrives_cut linreg_wire (linreg_size degree) total1 stream1 subs1 ->
  Forall (fun s => linreg_content degree (snd s)) subs0 -> Forall (fun s => linreg_content degree (snd s)) subs1 ->
  length d0 = 8%nat -> length d1 = 8%nat -> length junk0 = 32%nat -> length junk1 = 32%nat ->
  accepted (linreg_fits nb) subs1 subs1 L1 ->
  let p0 := linreg_op false order0 nb total0 (degree_wire degree ++ stream0) d0 junk0 garbage0 K rnd0 st0 in
  let p1 := linreg_op true order1 nb total1 (degree_wire degree ++ stream1) d1 junk1 garbage1 K rnd1 st1 in
  always p0 p1 a b -> threshold (16 * length L1) (nofork p0) (nofork p1) a b.
Proof.
  intros Hn Hd HQ HF (rest0 & -> & HT0 & HP0 & HL0) (rest1 & -> & HT1 & HP1 & HL1) C0 C1 LD0 LD1 J0 J1 HA. cbv zeta.
  destruct (linreg_gates degree Hd) as [GM GI].
  assert (HM : (NumMulGates (CheckLinReg degree) < 2 ^ 18)%nat) by (rewrite GM; exact HQ).
  destruct (npo2_nat _ HM) as (kk & _ & _ & HN).
  pose proof (degree_small degree HQ) as D32.
  destruct (degree_read degree (wire linreg_wire subs0 ++ rest0) d0 D32 LD0) as (e0 & R0 & E0).
  destruct (degree_read degree (wire linreg_wire subs1 ++ rest1) d1 D32 LD1) as (e1 & R1 & E1).
  unfold linreg_op.
  destruct (Nat.leb_spec 64 nb) as [B|B]; [lia|]. rewrite R0, R1, E0, E1. clear R0 R1 E0 E1.
  destruct (Nat.eqb_spec degree 0) as [Z0|_]; [lia|].
  rewrite !(linreg_receive nb degree _ _ _ _ _ Hn HN) by auto.
  intros H'%always_conv. apply thr_threshold.
  rewrite <- (listed_length _ _ _ HA). apply linreg_thr; auto.
  - apply table_keys. exact HP1.
  - pose proof (table_length (linreg_fits nb) subs1). lia.
Qed.

Lemma freq_nofork num_bits order0 order1 total0 total1 stream0 stream1 subs0 subs1 pk0 pk1 junk0 junk1
    c0 c1 T0 T1 s0 s1 L cap :
  (num_bits <= 30)%nat -> fair order1 ->
  freq_input num_bits total0 stream0 subs0 pk0 junk0 -> freq_input num_bits total1 stream1 subs1 pk1 junk1 ->
  params_ok c0 c1 -> stores_paired s0 s1 -> heard subs1 L -> (length L <= total0)%nat ->
  (1 <= cap)%nat -> (cap < bool_bytes (length L * freq_width num_bits))%nat ->
  ends_in cap (nofork (freq_op false order0 num_bits total0 stream0 pk0 junk0 c0 T0 s0))
              (nofork (freq_op true order1 num_bits total1 stream1 pk1 junk1 c1 T1 s1)) (both_sending cap).
Proof.
  intros HB HF (A0 & W0 & K0 & J0) (A1 & W1 & K1 & J1) HP HS HL HT.
  apply dead_ends. set (w := freq_width num_bits) in *.
  rewrite (freq_op_eq num_bits HB false order0 total0 stream0 subs0) by auto.
  rewrite (freq_op_eq num_bits HB true order1 total1 stream1 subs1) by auto.
  fold (freq_width num_bits). fold w.
  pose proof (heard_length order1 subs1 L HF HL) as LO.
  pose proof (heard_small order1 total1 stream1 subs1 L HF A1 HL) as LS.
  set (m0 := table_of any subs0). set (m1 := table_of any subs1) in *.
  assert (HK : Forall (fun e => length (fst e) = PK_LENGTH) m1).
  { destruct A1 as (r1 & _ & _ & P1 & S1). now apply table_keys. }
  assert (R0 : Forall (fun e => length (snd e) = w) m0) by (now apply freq_table).
  assert (R1 : Forall (fun e => length (snd e) = w) m1) by (now apply freq_table).
  unfold freq_op0, freq_op1. cbv zeta. set (l := order1 _ m1) in *.
  assert (FL : Forall (fun e => length (snd e) = w) l) by (now apply fair_forall).
  assert (DV : delivers (announce l) learn (map fst l)).
  { apply delivers_announce; [unfold l; now apply fair_forall|now rewrite LO]. }
  assert (CL : conv learn (announce l) (map fst l) tt).
  { destruct DV as (bs & E & F). specialize (F []). rewrite app_nil_r in F. eapply conv_feed_emit; eauto. }
  eapply dead_runs; [apply (runs_noX _ _ _ _ _ _ CL); [apply noX_learn|apply noX_announce]|]. cbn beta.
  rewrite !map_length, LO. destruct (Nat.ltb_spec total0 (length L)) as [X|_]; [lia|].
  assert (CC : forall rows, Forall (fun r : list bool => length r = w) rows -> length (concat rows) = (length rows * w)%nat).
  { clear. induction 1 as [|r rows H F IH]; [reflexivity|]. cbn [concat length]. rewrite app_length, IH, H. lia. }
  assert (G0 : length (concat (map (get (repeat false w)) (map (fun pk => find pk m0) (map fst l)))) = (length L * w)%nat).
  { rewrite CC; [now rewrite !map_length, LO|]. apply Forall_forall. intros r Hr. apply in_map_iff in Hr as (o & <- & Ho).
    apply in_map_iff in Ho as (pk & <- & _). destruct (find pk m0) as [v|] eqn:E; cbn [get]; [|apply repeat_length].
    apply find_in in E. rewrite Forall_forall in R0. exact (R0 _ E). }
  assert (G1 : length (concat (map snd l)) = (length L * w)%nat).
  { rewrite CC; [now rewrite !map_length, LO|]. apply Forall_map. exact FL. }
  rewrite <- G0. apply b2a_single_dead; auto. now rewrite G0.
Qed.

Lemma swap_thr len m0 m1 : (0 < len)%nat -> Z.of_nat len < 2 ^ 32 -> length m1 = length m0 ->
  Forall (fun x => length x = len) m0 -> Forall (fun x => length x = len) m1 ->
  threshold (length m0 * (8 + len)) (nofork (serializedSwap len m0)) (nofork (serializedSwap len m1)) m1 m0.
Proof.
  intros L B E F0 F1. apply thr_threshold. pose proof (swap_runs len m0 m1 L B E F0 F1) as CV. revert CV.
  destruct (strings_wire len m0 L B F0) as [W0 N0]. destruct (strings_wire len m1 L B F1) as [W1 N1].
  unfold serializedSwap. rewrite E in *. intros CV.
  eapply thr_xchg with (need := 0%nat); [exact N0|exact N1|lia|].
  pose proof (conv_after _ _ _ _ _ _ CV (runs_xchg _ _ _ _ _ _ N0 N1)) as CV1.
  apply thr_noX; [exact CV1| | |reflexivity].
  - rewrite W1. cbn. auto.
  - rewrite W0. cbn. auto.
Qed.
