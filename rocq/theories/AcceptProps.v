(** * Exactly the submissions with a right proof are counted *)
From Coq Require Import ZArith Znumtheory List Bool Lia Permutation.
From Verif Require Import Words WordsFacts Constants Cong Share SpecShare ShareFacts Proc ProcFacts Net SpecNet NetFacts RelFacts
  Poly SpecPoly FieldFacts PolyFacts FftFacts Circuit SpecCircuit CircuitFacts Snip SpecSnip SnipFacts SnipBatch
  MpcFacts ServerOps SpecServer TableFacts ServerFacts ServerCor ClientOps SpecClient ClientFacts ClientProps
  SnipSums SpecStat StatReads StatProps StatClient StatSound SpecCount CountFacts CountProps SpecAccept AcceptFacts.
From Verif Require DabitFacts.
Import ListNotations.
Open Scope Z_scope.
Opaque Int_Modulus Int_Gen init_roots.
Local Notation P := Int_Modulus.

Section Sub.
  Variables (c : circuit) (vals : list Z) (p0 p1 : ClientPacket).
  Hypothesis WF : wf c.
  Hypothesis HM : (NumMulGates c < 2 ^ 18)%nat.
  Hypothesis O0 : packet_ok (NumMulGates c) p0.
  Hypothesis O1 : packet_ok (NumMulGates c) p1.
  Hypothesis HL : length vals = NumInputs c.
  Let x0 : submission := (p0, vals).
  Let x1 : submission := (p1, map (fun _ => 0) vals).

  Lemma right_iff k f g h : polys c x0 x1 k f g h -> (right c x0 x1 f g h <-> well_proved c vals p0 p1).
  Proof.
    intros HP. destruct (shaped_plain c vals p0 p1 O0 O1 HL) as [S0 S1]. fold x0 in S0. fold x1 in S1.
    pose proof HP as (Hk & Hn & HN & _).
    assert (EO : opened x0 x1 = map (fun v => v mod p) vals) by apply opened_plain.
    split.
    - intros HR. destruct (right_opened c x0 x1 k f g h WF S0 S1 HP HR) as [HE HO]. rewrite EO in *. split; [exact HE|].
      cbn [fst x0 x1] in HO.
      set (f0 := (f0_s p0 + f0_s p1) mod p) in *. set (g0 := (g0_s p0 + g0_s p1) mod p) in *.
      set (A := (shareA (triple_share p0) + shareA (triple_share p1)) mod p) in *.
      set (B := (shareB (triple_share p0) + shareB (triple_share p1)) mod p) in *.
      set (u := (5 + 2 ^ k + NumMulGates c)%nat).
      set (T := fun i => if (i =? 0)%nat then f0 else if (i =? 1)%nat then g0 else if (i =? u)%nat then A
                         else if (i =? u + 1)%nat then B else 0).
      destruct (share_polynomials (init_roots (2 ^ k)) c (eval_wires c (map (fun v => v mod p) vals)) T 0) as [[[r0 r1] s']|] eqn:E.
      2: { rewrite (SecretProof.packets_form _ _ _ _ _ _ HN) in E. discriminate. }
      exists r0, r1. split; [exists (2 ^ k)%nat, T, 0%nat, s'; split; [exact HN|exact E]|].
      destruct (made_opened c k _ T 0 r0 r1 s' HN E) as (f1 & g1 & A1 & B1 & _ & _ & _ & _ & E1 & E2 & E3 & E4 & ->).
      rewrite HO. change (0 + 5 + 2 ^ k + NumMulGates c)%nat with u in E3, E4. change (0 + 1)%nat with 1%nat in E2.
      assert (T0 : T 0%nat = f0) by reflexivity. assert (T1 : T 1%nat = g0) by reflexivity.
      assert (T2 : T u = A) by (unfold T; rewrite Nat.eqb_refl; reflexivity).
      assert (T3 : T (u + 1)%nat = B).
      { unfold T. rewrite Nat.eqb_refl. replace (u + 1 =? u)%nat with false by (symmetry; apply Nat.eqb_neq; clear; lia). reflexivity. }
      rewrite T0 in E1. rewrite T1 in E2. rewrite T2 in E3. rewrite T3 in E4.
      assert (M : forall x, (x mod p) mod p = x mod p) by (intros; apply Zmod_mod).
      rewrite E1, E2, E3, E4. unfold f0, g0, A, B. rewrite !M. reflexivity.
    - intros (HE & r0 & r1 & (N & T & s & s' & HN' & E) & HO).
      assert (N = 2 ^ k)%nat by (exact (npo2_fun _ _ _ HN' HN)). subst N. cbn [client_roots] in E.
      destruct (made_opened c k _ T s r0 r1 s' HN E) as (f1 & g1 & A1 & B1 & _ & _ & _ & _ & _ & _ & _ & _ & EQ).
      rewrite <- EO in *.
      apply (opened_right c x0 x1 k f g h WF S0 S1 HP f1 g1 A1 B1 HE). cbn [fst x0 x1]. now rewrite HO.
  Qed.

  Lemma proved_judged r K pos : well_proved c vals p0 p1 -> in_field P r -> judged c r K pos vals p0 p1 true.
  Proof.
    intros HW Hr. destruct (shaped_plain c vals p0 p1 O0 O1 HL) as [S0 S1].
    destruct (polys_exist c x0 x1 HM S0 S1) as (k & f & g & h & HP).
    unfold judged. apply (right_true c x0 x1 k f g h r K pos HP Hr). now apply (right_iff k f g h HP).
  Qed.

  Lemma proved_or_shaky N : NextPowerOfTwo (Z.of_nat (NumMulGates c)) = Some (Z.of_nat N) ->
    well_proved c vals p0 p1 \/ shaky c vals p0 p1 N.
  Proof.
    intros HN'. destruct (shaped_plain c vals p0 p1 O0 O1 HL) as [S0 S1].
    destruct (polys_exist c x0 x1 HM S0 S1) as (k & f & g & h & HP).
    pose proof HP as (Hk & Hn & HN & _). assert (N = 2 ^ k)%nat by (exact (npo2_fun _ _ _ HN' HN)). subst N.
    destruct (right_or_shaky c x0 x1 k f g h HP) as [HR|HS]; [left; now apply (right_iff k f g h HP)|right; exact HS].
  Qed.

  Lemma proved_passes e : well_proved c vals p0 p1 -> challenges (coefficients c) e -> passes c vals p0 p1 e.
  Proof.
    intros HW (Hr & _). exists (fun i => nth i (snd e) 0), 0%nat. split; [intros i Hi; reflexivity|]. now apply proved_judged.
  Qed.

  Lemma few_not_all N : NextPowerOfTwo (Z.of_nat (NumMulGates c)) = Some (Z.of_nat N) ->
    at_most ((2 * Z.of_nat N + 1) * p ^ Z.of_nat (coefficients c)) (fun e => challenges (coefficients c) e /\ passes c vals p0 p1 e) ->
    ~ forall e, challenges (coefficients c) e -> passes c vals p0 p1 e.
  Proof.
    intros HN HA HF. destruct (challenges_exactly (coefficients c)) as (E & ND & HE & LE).
    assert (Z.of_nat (length E) <= (2 * Z.of_nat N + 1) * p ^ Z.of_nat (coefficients c)) as B.
    { apply HA; auto. apply Forall_forall. intros e He. apply HE in He. auto. }
    rewrite LE, Nat2Z.inj_succ, Z.pow_succ_r in B by lia.
    assert (0 < p ^ Z.of_nat (coefficients c)) as Pp by (apply Z.pow_pos_nonneg; [apply p_pos|lia]).
    destruct (npo2_nat _ HM) as (k & Hk & _ & HN'). assert (N = 2 ^ k)%nat by (exact (npo2_fun _ _ _ HN HN')). subst N.
    apply Z.mul_le_mono_pos_r in B; [|exact Pp].
    assert (2 ^ Z.of_nat k <= 2 ^ 18) by (apply Z.pow_le_mono_r; lia).
    rewrite Nat2Z.inj_pow in B. change (Z.of_nat 2) with 2 in B.
    assert (2 * 2 ^ 18 + 1 < P) by reflexivity. lia.
  Qed.

  Lemma shaky_few N : shaky c vals p0 p1 N ->
    at_most ((2 * Z.of_nat N + 1) * p ^ Z.of_nat (coefficients c)) (fun e => challenges (coefficients c) e /\ passes c vals p0 p1 e).
  Proof.
    intros HS. eapply at_most_incl; [apply Z.le_refl| |exact (shaky_count c vals p0 p1 N 0 (coefficients c) HM O0 O1 HL HS (le_n _))].
    intros [r ks] [He Hp]. split; auto. cbn [fst snd]. destruct He as (_ & Lk & _). cbn [snd] in Lk.
    unfold window. cbn [skipn]. now rewrite <- Lk, firstn_all.
  Qed.

  Lemma all_iff : (forall e, challenges (coefficients c) e -> passes c vals p0 p1 e) <-> well_proved c vals p0 p1.
  Proof.
    split; [|intros HW e; now apply proved_passes].
    intros HF. destruct (npo2_nat _ HM) as (k & Hk & _ & HN).
    destruct (proved_or_shaky _ HN) as [|HS]; auto. exfalso. exact (few_not_all _ HN (shaky_few _ HS) HF).
  Qed.

  Lemma all_or_few N : NextPowerOfTwo (Z.of_nat (NumMulGates c)) = Some (Z.of_nat N) ->
    (forall e, challenges (coefficients c) e -> passes c vals p0 p1 e) \/
    at_most ((2 * Z.of_nat N + 1) * p ^ Z.of_nat (coefficients c)) (fun e => challenges (coefficients c) e /\ passes c vals p0 p1 e).
  Proof.
    intros HN. destruct (proved_or_shaky N HN) as [HW|HS]; [left; now apply all_iff|right; now apply shaky_few].
  Qed.

  Lemma proved_decided : well_proved c vals p0 p1 \/ ~ well_proved c vals p0 p1.
  Proof.
    destruct (npo2_nat _ HM) as (k & Hk & _ & HN). destruct (proved_or_shaky _ HN) as [|HS]; auto. right. intros HW.
    exact (few_not_all _ HN (shaky_few _ HS) (fun e => proved_passes e HW)).
  Qed.

  (** What the packets share is determined by the values and four numbers. *)
  Lemma proved_form : well_proved c vals p0 p1 ->
    exists k, NextPowerOfTwo (Z.of_nat (NumMulGates c)) = Some (Z.of_nat (2 ^ k)) /\
    opened_packet p0 p1 = proof_of c k (eval_wires c (map (fun v => v mod p) vals))
      (f0_s (opened_packet p0 p1)) (g0_s (opened_packet p0 p1))
      (shareA (triple_share (opened_packet p0 p1))) (shareB (triple_share (opened_packet p0 p1))).
  Proof.
    intros (HE & r0 & r1 & (N & T & s & s' & HN' & E) & HO). destruct (npo2_nat _ HM) as (k & Hk & _ & HN).
    assert (N = 2 ^ k)%nat by (exact (npo2_fun _ _ _ HN' HN)). subst N. cbn [client_roots] in E.
    destruct (made_opened c k _ T s r0 r1 s' HN E) as (f1 & g1 & A1 & B1 & _ & _ & _ & _ & _ & _ & _ & _ & EQ).
    exists k. split; [exact HN|]. rewrite HO, EQ. reflexivity.
  Qed.
End Sub.

Lemma proved_unique c vals p0 p1 q0 q1 : (NumMulGates c < 2 ^ 18)%nat ->
  well_proved c vals p0 p1 -> well_proved c vals q0 q1 ->
  let o := opened_packet p0 p1 in let o' := opened_packet q0 q1 in
  f0_s o = f0_s o' -> g0_s o = g0_s o' -> shareA (triple_share o) = shareA (triple_share o') ->
  shareB (triple_share o) = shareB (triple_share o') -> o = o'.
Proof.
  intros HM W W' o o' E1 E2 E3 E4. unfold o, o' in *.
  destruct (proved_form c vals p0 p1 HM W) as (k & HN & E). destruct (proved_form c vals q0 q1 HM W') as (k' & HN' & E').
  assert (2 ^ k = 2 ^ k')%nat by (exact (npo2_fun _ _ _ HN HN')).
  assert (k = k') by (apply Nat.pow_inj_r with (a := 2%nat); auto with arith). subst k'.
  rewrite E, E', E1, E2, E3, E4. reflexivity.
Qed.

Lemma cancel a b m : in_field P a -> in_field P b -> in_field P m -> m <> 0 -> (a * m) mod p = (b * m) mod p -> a = b.
Proof.
  intros Ha Hb Hm Nm E. apply cong_iff in E. apply (cong_small P); auto.
  destruct E as [u Hu]. assert (D : (P | (a - b) * m)) by (exists u; lia).
  destruct (prime_mult _ modulus_prime _ _ D) as [[v Hv]|[v Hv]].
  - exists v. lia.
  - exfalso. unfold in_field in Hm. assert (v = 0) by nia. subst v. lia.
Qed.

Lemma spoiled_wrong c vals p0 p1 q0 q1 : (NumMulGates c < 2 ^ 18)%nat -> well_proved c vals p0 p1 ->
  spoiled (opened_packet p0 p1) (opened_packet q0 q1) -> ~ well_proved c vals q0 q1.
Proof.
  intros HM W HS W'.
  assert (M : forall x, in_field P (x mod p)) by (intros; apply Z.mod_pos_bound, p_pos).
  destruct (proved_form c vals p0 p1 HM W) as (k & HN & E). destruct (proved_form c vals q0 q1 HM W') as (k' & HN' & E').
  destruct HS as [(NE & E1 & E2 & E3 & E4)|[(NE & E1 & E2 & NZ)|(NE & E1 & E2 & NZ)]].
  - exact (NE (proved_unique c vals p0 p1 q0 q1 HM W W' E1 E2 E3 E4)).
  - apply (f_equal h0_s) in E, E'. cbn [proof_of h0_s] in E, E'. apply NE. rewrite E1 in NZ.
    apply (cancel _ _ (g0_s (opened_packet q0 q1))); try apply M; [exact NZ|].
    rewrite <- E', <- E2, E, E1. reflexivity.
  - apply (f_equal (fun o => shareC (triple_share o))) in E, E'. cbn [proof_of triple_share shareC] in E, E'. apply NE. rewrite E1 in NZ.
    apply (cancel _ _ (shareB (triple_share (opened_packet q0 q1)))); try apply M; [exact NZ|].
    rewrite <- E', <- E2, E, E1. reflexivity.
Qed.

Lemma spoiled_few c vals p0 p1 q0 q1 N : wf c -> (NumMulGates c < 2 ^ 18)%nat ->
  packet_ok (NumMulGates c) q0 -> packet_ok (NumMulGates c) q1 -> length vals = NumInputs c ->
  NextPowerOfTwo (Z.of_nat (NumMulGates c)) = Some (Z.of_nat N) ->
  well_proved c vals p0 p1 -> spoiled (opened_packet p0 p1) (opened_packet q0 q1) ->
  at_most ((2 * Z.of_nat N + 1) * p ^ Z.of_nat (coefficients c)) (fun e => challenges (coefficients c) e /\ passes c vals q0 q1 e).
Proof.
  intros WF HM O0 O1 HL HN W HS.
  destruct (proved_or_shaky c vals q0 q1 WF HM O0 O1 HL N HN) as [W'|Sh].
  - exfalso. exact (spoiled_wrong c vals p0 p1 q0 q1 HM W HS W').
  - exact (shaky_few c vals q0 q1 HM O0 O1 HL N Sh).
Qed.

(** ** Whole operations *)
Lemma nodup_both {A} (a b : list A) : NoDup a -> NoDup b -> (forall x, In x a -> In x b -> False) -> NoDup (a ++ b).
Proof.
  intros Na Nb H. induction Na as [|x a Hx Na IH]; cbn [app]; auto. constructor.
  - rewrite in_app_iff. intros [|I]; [contradiction|]. apply (H x); [now left|exact I].
  - apply IH. intros y Hy. apply H. now right.
Qed.

Section Whole.
  Context {V : Type}.
  Variables (c : circuit) (fits : V -> bool) (opened : V -> V -> list Z) (packet : V -> ClientPacket)
    (subs0 subs1 : list (list Z * V)) (L L1 T : list (list Z)) (order1 : iteration) (N : nat).
  Hypothesis WF : wf c.
  Hypothesis HM : (NumMulGates c < 2 ^ 18)%nat.
  Hypothesis HN : NextPowerOfTwo (Z.of_nat (NumMulGates c)) = Some (Z.of_nat N).
  Hypothesis HF : fair order1.
  Hypothesis HA : accepted fits subs0 subs1 L.
  Hypothesis HL1 : length (table_of fits subs1) = length L1.
  Hypothesis HS : forall pk a b, first_sub fits subs0 pk = Some a -> first_sub fits subs1 pk = Some b ->
    packet_ok (NumMulGates c) (packet a) /\ packet_ok (NumMulGates c) (packet b) /\ length (opened a b) = NumInputs c.
  Let good := proved_at c fits opened packet subs0 subs1.

  Lemma good_decided pk : good pk \/ ~ good pk.
  Proof.
    unfold good, proved_at. destruct (first_sub fits subs0 pk) as [a|] eqn:E0; [|tauto].
    destruct (first_sub fits subs1 pk) as [b|] eqn:E1; [|tauto]. destruct (HS pk a b E0 E1) as (A & B & Q).
    now apply proved_decided.
  Qed.
  Lemma good_listed : exists T', NoDup T' /\ forall pk, In pk T' <-> In pk L /\ good pk.
  Proof. apply decided_list; [apply HA|]. intros pk _. apply good_decided. Qed.

  Hypothesis NT : NoDup T.
  Hypothesis HT : forall pk, In pk T <-> In pk L /\ good pk.
  Let w := coefficients c.
  Let n := (w * length L1)%nat.
  Let place pk := (index_of pk (map fst (order1 _ (table_of fits subs1))) * w)%nat.

  Definition slip (pk : list Z) (e : challenge) : Prop :=
    match first_sub fits subs0 pk, first_sub fits subs1 pk with
    | Some a, Some b => ~ good pk /\ passes c (opened a b) (packet a) (packet b) (fst e, window (place pk) w (snd e))
    | _, _ => False
    end.

  Lemma place_fits pk b : first_sub fits subs1 pk = Some b -> (place pk + w <= n)%nat.
  Proof.
    intros E. assert (I : In pk (map fst (order1 _ (table_of fits subs1)))).
    { apply fair_keys; auto. apply find_some_iff. rewrite table_find. congruence. }
    apply index_lt in I. rewrite map_length, (fair_length order1 _ HF), HL1 in I.
    unfold place, n. nia.
  Qed.

  Lemma slip_few pk : at_most ((2 * Z.of_nat N + 1) * p ^ Z.of_nat n) (fun e => challenges n e /\ slip pk e).
  Proof.
    assert (NO : forall A : challenge -> Prop, (forall e, ~ A e) -> at_most ((2 * Z.of_nat N + 1) * p ^ Z.of_nat n) A).
    { intros A HN0. eapply at_most_incl; [| |apply at_most_none]; [apply Z.mul_nonneg_nonneg; [lia|apply Z.pow_nonneg; pose proof P_pos; lia]|exact (fun d H => H)|exact HN0]. }
    unfold slip. destruct (first_sub fits subs0 pk) as [a|] eqn:E0; [|apply NO; tauto].
    destruct (first_sub fits subs1 pk) as [b|] eqn:E1; [|apply NO; tauto].
    destruct (HS pk a b E0 E1) as (A & B & Q).
    destruct (proved_or_shaky c (opened a b) (packet a) (packet b) WF HM A B Q N HN) as [W|Sh].
    - apply NO. intros e (_ & NG & _). apply NG. unfold good, proved_at. now rewrite E0, E1.
    - eapply at_most_incl; [apply Z.le_refl| |apply (shaky_count c (opened a b) (packet a) (packet b) N (place pk) n HM A B Q Sh (place_fits pk b E1))].
      intros e (He & _ & H). auto.
  Qed.

  Lemma slip_decided pk e : challenges n e -> slip pk e \/ ~ slip pk e.
  Proof.
    intros (Hr & Le & Fe). unfold slip. destruct (first_sub fits subs0 pk) as [a|] eqn:E0; [|tauto].
    destruct (first_sub fits subs1 pk) as [b|] eqn:E1; [|tauto].
    destruct (HS pk a b E0 E1) as (A & B & Q). pose proof (place_fits pk b E1) as PO.
    destruct (good_decided pk); [tauto|].
    destruct (passes_decided c (opened a b) (packet a) (packet b) (fst e) (window (place pk) w (snd e)) HM A B Q Hr); [|tauto|tauto].
    apply length_window. rewrite Le. exact PO.
  Qed.

  Lemma rest_length : exists C, Z.of_nat (length C) = Z.of_nat (length L) - Z.of_nat (length T) /\
    forall pk, In pk L -> ~ good pk -> In pk C.
  Proof.
    destruct (decided_list (fun pk => ~ good pk) L (proj1 HA)) as (C & NC & HC).
    { intros pk _. destruct (good_decided pk); tauto. }
    exists C. split; [|intros pk H1 H2; apply HC; split; assumption].
    assert (PE : Permutation L (T ++ C)).
    { apply NoDup_Permutation; [apply HA| |].
      - apply nodup_both; auto. intros pk H1 H2. apply HT in H1. apply HC in H2. tauto.
      - intros pk. rewrite in_app_iff, HT, HC. destruct (good_decided pk); tauto. }
    apply Permutation_length in PE. rewrite app_length in PE. lia.
  Qed.

  Lemma exact_count (A : challenge -> Prop) :
    (forall e, challenges n e -> (forall ok K start pos, uses start (snd e) K -> in_field P (fst e) ->
        validated c (fst e) K start fits opened packet subs0 subs1 L ok pos ->
        (forall pk, pos pk = (start + index_of pk (map fst (order1 _ (table_of fits subs1))) * S (length (result_zero c)))%nat) ->
        Permutation (filter ok L) T) -> A e) ->
    all_but ((Z.of_nat (length L) - Z.of_nat (length T)) * ((2 * Z.of_nat N + 1) * p ^ Z.of_nat n)) n A.
  Proof.
    intros H. destruct rest_length as (C & LC & HC). rewrite <- LC.
    apply all_but_intro with (R := fun e => exists pk, In pk C /\ slip pk e).
    - intros e He. apply exists_decided. intros pk _. now apply slip_decided.
    - eapply at_most_incl; [apply Z.le_refl| |apply (at_most_exists ((2 * Z.of_nat N + 1) * p ^ Z.of_nat n) C (fun pk e => challenges n e /\ slip pk e))].
      + intros e (He & pk & Hp & Hs). eauto.
      + intros pk _. apply slip_few.
    - intros e He NS. apply H; auto. intros ok K start pos HU Hr (HJ & _) HP.
      apply NoDup_Permutation; [apply NoDup_filter, HA|exact NT|]. intros pk. rewrite filter_In, HT.
      split; intros [Hin Hok]; (split; [exact Hin|]).
      + destruct (good_decided pk) as [|NG]; auto. exfalso. apply NS. exists pk. split; [exact (HC pk Hin NG)|]. unfold slip.
        destruct (proj1 (proj2 HA pk) Hin) as [F0 F1].
        destruct (first_sub fits subs0 pk) as [a|] eqn:E0; [|congruence]. destruct (first_sub fits subs1 pk) as [b|] eqn:E1; [|congruence].
        split; [exact NG|]. specialize (HJ pk a b E0 E1). rewrite Hok in HJ. exists K, (pos pk). split; [|exact HJ]. cbn [snd].
        rewrite HP. apply uses_window; auto. destruct He as (_ & -> & _). eapply place_fits; eauto.
      + unfold good, proved_at in Hok.
        destruct (first_sub fits subs0 pk) as [a|] eqn:E0; [|contradiction]. destruct (first_sub fits subs1 pk) as [b|] eqn:E1; [|contradiction].
        destruct (HS pk a b E0 E1) as (A0 & B0 & Q). specialize (HJ pk a b E0 E1).
        symmetry. exact (verdict_unique _ _ _ _ _ _ _ _ Hr (proved_judged c _ _ _ WF HM A0 B0 Q _ K (pos pk) Hok Hr) HJ).
  Qed.
End Whole.

Lemma field_sum_perm {V} (fits : V -> bool) opened subs0 subs1 L L' j : Permutation L L' ->
  field_sum fits opened subs0 subs1 L j = field_sum fits opened subs0 subs1 L' j.
Proof. intros HP. unfold field_sum. now apply zsum_permutation, Permutation_map. Qed.

Lemma var_subs_ok nb subs0 subs1 : Forall (fun s => var_content (snd s)) subs0 -> Forall (fun s => var_content (snd s)) subs1 ->
  forall pk a b, first_sub (var_fits nb) subs0 pk = Some a -> first_sub (var_fits nb) subs1 pk = Some b ->
    packet_ok (NumMulGates CheckVar) (snd a) /\ packet_ok (NumMulGates CheckVar) (snd b) /\ length (var_opened a b) = NumInputs CheckVar.
Proof.
  intros C0 C1 pk [[v v2] p0] [[v' v2'] p1] [k0 I0]%first_sub_in [k1 I1]%first_sub_in. rewrite Forall_forall in C0, C1.
  apply C0 in I0. apply C1 in I1. cbn in I0, I1. cbn [snd]. split; [apply I0|]. split; [apply I1|reflexivity].
Qed.
Lemma linreg_subs_ok nb degree subs0 subs1 : (1 <= degree)%nat ->
  Forall (fun s => linreg_content degree (snd s)) subs0 -> Forall (fun s => linreg_content degree (snd s)) subs1 ->
  forall pk a b, first_sub (linreg_fits nb) subs0 pk = Some a -> first_sub (linreg_fits nb) subs1 pk = Some b ->
    packet_ok (NumMulGates (CheckLinReg degree)) (snd a) /\ packet_ok (NumMulGates (CheckLinReg degree)) (snd b) /\
    length (linreg_opened a b) = NumInputs (CheckLinReg degree).
Proof.
  intros Hd C0 C1 pk [[[[x y] x2] xy] p0] [[[[x' y'] x2'] xy'] p1] [k0 I0]%first_sub_in [k1 I1]%first_sub_in. rewrite Forall_forall in C0, C1.
  destruct (linreg_gates degree Hd) as [GM GI]. rewrite GI.
  apply C0 in I0. apply C1 in I1. destruct I0 as [(a1 & a2 & a3 & _) I0], I1 as [(b1 & b2 & b3 & _) I1]. cbn [fst snd] in *.
  split; [exact I0|]. split; [exact I1|]. unfold linreg_opened, linreg_row. cbn [fst]. rewrite map2_length, !app_length. cbn [length].
  rewrite !app_length. unfold num_fields. clear - a1 a2 a3 b1 b2 b3. lia.
Qed.
Lemma var_small : (NumMulGates CheckVar < 2 ^ 18)%nat.
Proof. apply PeanoNat.Nat.ltb_lt. reflexivity. Qed.

Lemma var_exact_count nb order0 order1 total0 total1 stream0 stream1 subs0 subs1 junk0 junk1 L L1 T :
  (nb <= 24)%nat -> fair order1 ->
  arrives_cut var_wire var_size total0 stream0 subs0 -> arrives_cut var_wire var_size total1 stream1 subs1 ->
  Forall (fun s => var_content (snd s)) subs0 -> Forall (fun s => var_content (snd s)) subs1 ->
  length junk0 = 48%nat -> length junk1 = 48%nat ->
  (exists pk, first_sub (var_fits nb) subs1 pk <> None) ->
  accepted (var_fits nb) subs0 subs1 L -> accepted (var_fits nb) subs1 subs1 L1 ->
  NoDup T -> (forall pk, In pk T <-> In pk L /\ proved_at CheckVar (var_fits nb) var_opened snd subs0 subs1 pk) ->
  let n := (coefficients CheckVar * length L1)%nat in
  all_but ((Z.of_nat (length L) - Z.of_nat (length T)) * (5 * p ^ Z.of_nat n)) n
    (var_exact nb order0 order1 total0 total1 stream0 stream1 subs0 subs1 junk0 junk1 T).
Proof.
  intros Hn HF A0 A1 C0 C1 J0 J1 NE HA HA1 NT HT n.
  assert (HK : keys_ok (table_of (var_fits nb) subs1)) by (apply table_keys; destruct A1 as (? & _ & _ & HP & _); exact HP).
  change 5 with (2 * Z.of_nat 2 + 1).
  apply (exact_count CheckVar (var_fits nb) var_opened snd subs0 subs1 L L1 T order1 2).
  - apply check_var_wf.
  - exact var_small.
  - reflexivity.
  - exact HF.
  - exact HA.
  - now apply DabitFacts.accepted_table.
  - now apply var_subs_ok.
  - exact NT.
  - exact HT.
  - intros e He H K rnd0 rnd1 st0 st1 SY ER HU.
    eapply both_impl; [|apply (var_op_result nb order0 order1 total0 total1 stream0 stream1 subs0 subs1 junk0 junk1 K rnd0 rnd1 st0 st1 L); auto].
    cbv beta. intros a b (ok & pos & HV & EB & EA & _ & _ & _ & EP). split; auto.
    rewrite ER in HV. pose proof (H ok K (seed_pos st0) pos HU (proj1 He) HV EP) as PE.
    rewrite EA, (Permutation_length PE), !(field_sum_perm _ _ _ _ _ _ _ PE). reflexivity.
Qed.

Lemma linreg_exact_count nb degree order0 order1 total0 total1 stream0 stream1 subs0 subs1 d0 d1 junk0 junk1 garbage0 garbage1 L L1 T N :
  (nb <= 24)%nat -> (1 <= degree)%nat -> (num_quad degree + num_x degree < 2 ^ 18)%nat -> fair order1 ->
  arrives_cut linreg_wire (linreg_size degree) total0 stream0 subs0 ->
  arrives_cut linreg_wire (linreg_size degree) total1 stream1 subs1 ->
  Forall (fun s => linreg_content degree (snd s)) subs0 -> Forall (fun s => linreg_content degree (snd s)) subs1 ->
  length d0 = 8%nat -> length d1 = 8%nat -> length junk0 = 32%nat -> length junk1 = 32%nat ->
  (forall i, let '(x, x2, xy) := garbage0 i in linreg_shape degree (x, 0, x2, xy)) ->
  (exists pk, first_sub (linreg_fits nb) subs1 pk <> None) ->
  accepted (linreg_fits nb) subs0 subs1 L -> accepted (linreg_fits nb) subs1 subs1 L1 ->
  NextPowerOfTwo (Z.of_nat (num_quad degree + num_x degree)) = Some (Z.of_nat N) ->
  NoDup T -> (forall pk, In pk T <-> In pk L /\ proved_at (CheckLinReg degree) (linreg_fits nb) linreg_opened snd subs0 subs1 pk) ->
  let n := (coefficients (CheckLinReg degree) * length L1)%nat in
  all_but ((Z.of_nat (length L) - Z.of_nat (length T)) * ((2 * Z.of_nat N + 1) * p ^ Z.of_nat n)) n
    (linreg_exact nb degree order0 order1 total0 total1 stream0 stream1 subs0 subs1 d0 d1 junk0 junk1 garbage0 garbage1 T).
Proof.
  intros Hn Hd HQ HF A0 A1 C0 C1 D0 D1 J0 J1 HG NE HA HA1 HN NT HT n.
  assert (HK : keys_ok (table_of (linreg_fits nb) subs1)) by (apply table_keys; destruct A1 as (? & _ & _ & HP & _); exact HP).
  destruct (linreg_gates degree Hd) as [GM GI].
  apply (exact_count (CheckLinReg degree) (linreg_fits nb) linreg_opened snd subs0 subs1 L L1 T order1 N).
  - apply check_linreg_wf; auto.
  - rewrite GM. exact HQ.
  - rewrite GM. exact HN.
  - exact HF.
  - exact HA.
  - now apply DabitFacts.accepted_table.
  - now apply linreg_subs_ok.
  - exact NT.
  - exact HT.
  - intros e He H K rnd0 rnd1 st0 st1 SY ER HU.
    eapply both_impl; [|exact (linreg_op_result nb degree order0 order1 total0 total1 stream0 stream1 subs0 subs1 d0 d1 junk0 junk1
       garbage0 garbage1 K rnd0 rnd1 st0 st1 L Hn Hd HQ HF A0 A1 C0 C1 D0 D1 J0 J1 HG NE HA SY)].
    cbv beta. intros a b (ok & pos & HV & EB & EA & _ & _ & _ & EP). split; auto.
    rewrite ER in HV. pose proof (H ok K (seed_pos st0) pos HU (proj1 He) HV EP) as PE.
    rewrite EA, (Permutation_length PE). f_equal. unfold moments. rewrite ?(field_sum_perm _ _ _ _ _ _ _ PE).
    f_equal; repeat (f_equal; try (apply map_ext; intros; now rewrite (field_sum_perm _ _ _ _ _ _ _ PE))).
Qed.

Lemma var_listed nb subs0 subs1 L :
  Forall (fun s => var_content (snd s)) subs0 -> Forall (fun s => var_content (snd s)) subs1 ->
  accepted (var_fits nb) subs0 subs1 L ->
  exists T, NoDup T /\ forall pk, In pk T <-> In pk L /\ proved_at CheckVar (var_fits nb) var_opened snd subs0 subs1 pk.
Proof.
  intros C0 C1 HA. apply good_listed; auto.
  - apply check_var_wf.
  - exact var_small.
  - now apply var_subs_ok.
Qed.
Lemma linreg_listed nb degree subs0 subs1 L : (1 <= degree)%nat -> (num_quad degree + num_x degree < 2 ^ 18)%nat ->
  Forall (fun s => linreg_content degree (snd s)) subs0 -> Forall (fun s => linreg_content degree (snd s)) subs1 ->
  accepted (linreg_fits nb) subs0 subs1 L ->
  exists T, NoDup T /\ forall pk, In pk T <-> In pk L /\ proved_at (CheckLinReg degree) (linreg_fits nb) linreg_opened snd subs0 subs1 pk.
Proof.
  intros Hd HQ C0 C1 HA. destruct (linreg_gates degree Hd) as [GM GI]. apply good_listed.
  - apply check_linreg_wf; auto.
  - rewrite GM. exact HQ.
  - exact HA.
  - now apply linreg_subs_ok.
Qed.
