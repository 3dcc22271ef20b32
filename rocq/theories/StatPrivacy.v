(** What a server sees in VAR, STDDEV and LINREG goes with any private values (server 1), or
    with any that have the same sums (server 0). *)
From Coq Require Import ZArith List Bool Lia Permutation.
From Verif Require Import Words WordsFacts Cong Constants Share SpecShare Proc ProcFacts Net NetFacts SpecNet NetMsg RelFacts OT OTFacts
  SpecHide HideFacts Correlated MpcFacts Poly SpecPoly FieldFacts Circuit SpecCircuit CircuitFacts Snip SpecSnip SnipFacts SnipBatch
  ServerOps SpecServer TableFacts ServerFacts ClientOps SpecClient ClientFacts SnipSums SpecStat StatReads StatProps StatClient SpecSecret SecretFacts
  SecretProof SpecPrivacy ViewFacts PrivacyFacts PrivacyProof SpecStatPrivacy StatView.
Import ListNotations.
Open Scope Z_scope.
Local Notation P := Int_Modulus.
Opaque Int_Modulus Int_Gen init_roots.
Arguments Z.mul : simpl never.
Arguments Z.add : simpl never.
Arguments Z.modulo : simpl never.

(** ** Shares that occur *)
Lemma half_field side r v : 0 <= half side r v < P.
Proof. unfold half, SplitShare. destruct side; cbn [fst snd]; apply Z.mod_pos_bound; reflexivity. Qed.
Lemma packet_possible side t c wires N T s : possible_packet (NumMulGates c) N (packet_half side t c wires N T s).
Proof.
  unfold packet_half, possible_packet. cbv zeta.
  cbn [MulShares f0_s g0_s h0_s h_points triple_share shareA shareB shareC].
  split; [rewrite map2_length, seq_length; unfold NumMulGates; apply Nat.min_id|].
  split. { generalize (seq 0 (NumMulGates c)) as a. generalize (mul_gates c) as b. intros b a. revert b.
    induction a as [|x a IH]; intros [|y b]; cbn [map2]; constructor; auto using half_field. }
  split; [apply half_field|]. split; [apply half_field|]. split; [apply half_field|].
  split; [now rewrite map_length, seq_length|].
  split; [apply Forall_map, Forall_forall; intros; apply half_field|].
  split; [apply half_field|]. split; apply half_field.
Qed.
Lemma make_packets_possible T s tabs c inp p0 p1 s' tabs' : make_packets T s tabs c inp = Some (p0, p1, s', tabs') ->
  possible_packet (NumMulGates c) (points_of c) p0 /\ possible_packet (NumMulGates c) (points_of c) p1.
Proof.
  unfold make_packets, points_of. destruct (NextPowerOfTwo (Z.of_nat (NumMulGates c))) as [Nz|] eqn:EQ; [|discriminate].
  set (N := Z.to_nat Nz). 
  assert (EN : NextPowerOfTwo (Z.of_nat (NumMulGates c)) = Some (Z.of_nat N)).
  { rewrite EQ. f_equal. unfold N. symmetry. apply Z2Nat.id. apply next_nonneg in EQ. lia. }
  rewrite (packets_form _ c _ T s N EN). intros E. injection E as <- <- _ _. split; apply packet_possible.
Qed.

(** ** Shares of (D, E) exist *)
Lemma opens_exists c r side x : (NumMulGates c < 2 ^ 18)%nat -> in_field P r -> shaped c x ->
  exists cor, opens c r side x cor /\ 0 <= shareD cor < P /\ 0 <= shareE cor < P.
Proof.
  intros HM Hr Sx. destruct (npo2_nat _ HM) as (k & Hk & _ & HN).
  destruct (jobs_exist c k r [x] [x] HM HN Hk Hr eq_refl (Forall_cons _ Sx (Forall_nil _)) (Forall_cons _ Sx (Forall_nil _)))
    as ([|j [|]] & J0 & J1 & G); try discriminate.
  injection J0 as J0. injection J1 as J1. apply Forall_inv in G. destruct G as (C0 & C1 & _). rewrite J0 in C0. rewrite J1 in C1.
  exists (CorShareFn (if side then jc1 j else jc0 j)). split.
  - exists (2 ^ k)%nat. destruct side; eexists; (split; [exact HN|split; [eassumption|reflexivity]]).
  - unfold CorShareFn. cbn [shareD shareE]. split; apply Z.mod_pos_bound; reflexivity.
Qed.
Lemma opens_all c r side xs : (NumMulGates c < 2 ^ 18)%nat -> in_field P r -> Forall (shaped c) xs ->
  exists cors, Forall2 (opens c r side) xs cors /\ length cors = length xs /\ Forall (fun cor => 0 <= shareD cor < P /\ 0 <= shareE cor < P) cors.
Proof.
  intros HM Hr. induction 1 as [|x xs Sx F (cors & O & L & B)]; [exists []; repeat constructor|].
  destruct (opens_exists c r side x HM Hr Sx) as (cor & Oc & Bc). exists (cor :: cors). split; [now constructor|]. split; [cbn [length]; congruence|now constructor].
Qed.

(** ** Tables of honest clients *)
Lemma build_distinct {V} (ok : V -> bool) : forall subs (m : table V), NoDup (map fst (m ++ subs)) -> Forall (fun s => ok (snd s) = true) subs ->
  build (recs_of ok subs) m = m ++ subs.
Proof.
  induction subs as [|[k v] subs IH]; intros m ND F; cbn [recs_of map build fst snd].
  - now rewrite app_nil_r.
  - pose proof (Forall_inv F) as Fv. cbn [snd] in Fv. rewrite Fv.
    assert (X : find k m = None).
    { destruct (find k m) as [w|] eqn:E; [|reflexivity]. apply find_in in E. apply (in_map fst) in E. cbn [fst] in E.
      rewrite map_app in ND. cbn [map fst] in ND. apply NoDup_remove_2 in ND. elim ND. apply in_or_app. now left. }
    rewrite X. fold (recs_of ok subs). rewrite IH; [now rewrite <- app_assoc| |now inversion F].
    now rewrite <- app_assoc.
Qed.
Lemma table_distinct {V} (ok : V -> bool) subs : NoDup (map fst subs) -> Forall (fun s => ok (snd s) = true) subs -> table_of ok subs = subs.
Proof. intros ND F. unfold table_of. now rewrite build_distinct. Qed.

Lemma find_record {V W} (f : crec V W -> V) l r : NoDup (map c_pk l) -> In r l -> find (c_pk r) (map (fun r => (c_pk r, f r)) l) = Some (f r).
Proof.
  intros ND Hr. apply in_find; [rewrite map_map; exact ND|]. now apply (in_map (fun r => (c_pk r, f r))).
Qed.

(** Records in the order of traversal. *)
Lemma in_order {V W} (order : iteration) (l : list (crec V W)) : fair order ->
  exists rs, Permutation l rs /\ order V (subs1 l) = subs1 rs.
Proof.
  intros HF. pose proof (HF V (subs1 l)) as HP. unfold subs1 in HP at 2. apply Permutation_map_inv in HP as (rs & E & HP).
  exists rs. split; [exact HP|exact E].
Qed.
Lemma same_order {V W} (l l' rs rs' : list (crec V W)) (f : crec V W -> V) : NoDup (map c_pk l) ->
  map (fun r => (c_pk r, f r)) l' = map (fun r => (c_pk r, f r)) l -> Permutation l rs -> Permutation l' rs' ->
  map c_pk rs' = map c_pk rs -> map f rs' = map f rs.
Proof.
  intros ND S HP HP' E.
  assert (ND' : NoDup (map c_pk l')).
  { apply (f_equal (map fst)) in S. rewrite !map_map in S. cbn [fst] in S. change (map c_pk l' = map c_pk l) in S. now rewrite S. }
  assert (A : forall q qs, NoDup (map c_pk q) -> Permutation q qs ->
    map (fun r => Some (f r)) qs = map (fun pk => find pk (map (fun r => (c_pk r, f r)) q)) (map c_pk qs)).
  { intros q qs NDq Hq. rewrite map_map. apply map_ext_in. intros r Hr. symmetry. apply find_record; [exact NDq|].
    eapply Permutation_in; [symmetry; exact Hq|exact Hr]. }
  pose proof (A l rs ND HP) as E1. pose proof (A l' rs' ND' HP') as E2. rewrite S, E, <- E1 in E2.
  clear -E2. revert rs E2. induction rs' as [|r rs' IH]; intros [|q rs] E2; cbn [map] in *; try discriminate; [reflexivity|].
  injection E2 as E2 E3. f_equal; auto.
Qed.

(** ** Choice of the other world *)
Section Worlds.
  Context {V W : Type}.
  Variables (c : circuit) (nbs : list nat) (row : V * ClientPacket -> list Z) (vals : W -> list Z)
    (one : prg -> (nat -> Z) -> cstate -> option (crec (V * ClientPacket) W * cstate))
    (legal : W -> Prop) (possible : V * ClientPacket -> Prop).
  Hypothesis WF : wf c.
  Hypothesis HM : (NumMulGates c < 2 ^ 18)%nat.
  Hypothesis HW : Forall (width_ok P) nbs.
  Hypothesis HI : length nbs = NumInputs c.
  Hypothesis IND : independent_with_opening c one legal possible.
  Definition request_ok : Prop := forall g T r st', is_blocks g -> one g T (0%nat, 0%nat, None) = Some (r, st') ->
    clean c nbs row vals r /\ possible (c_0 r) /\ possible (c_1 r).
  Hypothesis REQ : request_ok.
  Hypothesis LEN : forall v, legal v -> length (vals v) = length nbs.

  Lemma choose_openings (side : bool) x (rowf : W -> list Z -> list Z) (corf : list Z -> CorShare) :
    (forall v pk, legal v -> length (rowf v pk) = NumInputs c) ->
    (forall pk, 0 <= shareD (corf pk) < P /\ 0 <= shareE (corf pk) < P) ->
    forall gs l vs, Forall (fun gT : tapes => is_blocks (fst gT)) gs -> separate_with_proofs one gs = Some l -> length vs = length gs -> Forall legal vs ->
    exists gs' l', Forall (fun gT : tapes => is_blocks (fst gT)) gs' /\ separate_with_proofs one gs' = Some l' /\ map c_real l' = vs /\
      seen side l' = seen side l /\
      Forall (fun r' => opens c x (negb side) (snd (share_of (negb side) r'), rowf (c_real r') (c_pk r')) (corf (c_pk r'))) l'.
  Proof.
    intros HR HC. induction gs as [|[g T] gs IH]; intros l [|v vs] G E L Lv; cbn in L; try lia.
    - exists [], []. cbn in E. injection E as <-. repeat split; constructor.
    - unfold separate_with_proofs in E. cbn [map all_some fst snd] in E.
      destruct (one g T (0%nat, 0%nat, None)) as [[r [[pos' s'] tabs']]|] eqn:E1; [|discriminate]. cbn [option_map fst] in E.
      destruct (all_some _) as [l0|] eqn:E0; [|discriminate]. cbn [option_map] in E. injection E as <-.
      inversion G as [|? ? G1 G2]. inversion Lv as [|? ? V1 V2]. subst. cbn [fst] in G1.
      destruct (IH l0 vs G2 E0 ltac:(lia) V2) as (gs' & l' & A & B & C & D & F).
      destruct (REQ g T r _ G1 E1) as (_ & P0 & P1).
      assert (PS : possible (share_of side r)) by (destruct side; assumption).
      destruct (HC (c_pk r)) as [HD HE].
      destruct (IND g T 0%nat 0%nat None side v (share_of side r) r pos' s' tabs' x (rowf v (c_pk r)) (shareD (corf (c_pk r))) (shareE (corf (c_pk r)))
        G1 V1 PS (HR v (c_pk r) V1) HD HE E1) as (g' & T' & r' & E' & G' & _ & _ & R' & S' & K' & O').
      exists ((g', T') :: gs'), (r' :: l'). split; [constructor; [exact G'|exact A]|]. split.
      { unfold separate_with_proofs in *. cbn [map all_some fst snd]. rewrite E'. cbn [option_map fst]. now rewrite B. }
      split; [cbn [map]; congruence|]. split.
      { unfold seen in *. cbn [map]. rewrite S', K', D. reflexivity. }
      constructor; [|exact F]. rewrite R', K'. destruct (corf (c_pk r)) as [D0 E2]. exact O'.
  Qed.

  Lemma separate_clean gs l : Forall (fun gT : tapes => is_blocks (fst gT)) gs -> separate_with_proofs one gs = Some l -> Forall (clean c nbs row vals) l.
  Proof.
    revert l. induction gs as [|[g T] gs IH]; intros l G E; unfold separate_with_proofs in E; cbn [map all_some fst snd] in E.
    - injection E as <-. constructor.
    - destruct (one g T (0%nat, 0%nat, None)) as [[r st']|] eqn:E1; [|discriminate]. cbn [option_map fst] in E.
      destruct (all_some _) as [l0|] eqn:E0; [|discriminate]. cbn [option_map] in E. injection E as <-.
      inversion G as [|? ? G1 G2]. subst. constructor; [|now apply IH]. apply (REQ g T r st' G1 E1).
  Qed.
  Lemma separate_count gs l : separate_with_proofs one gs = Some l -> length l = length gs.
  Proof.
    revert l. induction gs as [|[g T] gs IH]; intros l E; unfold separate_with_proofs in E; cbn [map all_some fst snd] in E.
    - now injection E as <-.
    - destruct (one g T (0%nat, 0%nat, None)) as [[r st']|]; [|discriminate]. cbn [option_map fst] in E.
      destruct (all_some _) as [l0|] eqn:E0; [|discriminate]. cbn [option_map] in E. injection E as <-. cbn [length]. f_equal. now apply IH.
  Qed.

  (** Choices made by identity, in the order of traversal. *)
  Lemma opens_order x (side : bool) (cors : list CorShare) (own : list (list Z)) :
    forall rs' : list (crec (V * ClientPacket) W), NoDup (map c_pk rs') -> length cors = length rs' -> length own = length rs' ->
    Forall (fun r' => opens c x side (snd (share_of side r'), subrow (vals (c_real r')) (nth (index_of (c_pk r') (map c_pk rs')) own []))
                        (nth (index_of (c_pk r') (map c_pk rs')) cors (mkCorShare 0 0))) rs' ->
    Forall2 (opens c x side) (packets side rs' (map2 (fun r o => subrow (vals (c_real r)) o) rs' own)) cors.
  Proof.
    intros rs' ND LC LO F.
    assert (H : forall pre suf, rs' = pre ++ suf ->
      Forall2 (opens c x side) (packets side suf (map2 (fun r o => subrow (vals (c_real r)) o) suf (skipn (length pre) own))) (skipn (length pre) cors)).
    { intros pre suf. revert pre. induction suf as [|r suf IH]; intros pre E.
      - rewrite app_nil_r in E. subst pre. rewrite <- LC, skipn_all. constructor.
      - assert (Lp : (length pre < length rs')%nat) by (rewrite E, app_length; cbn; lia).
        assert (SK : forall A (d : A) (a : list A), length a = length rs' -> skipn (length pre) a = nth (length pre) a d :: skipn (S (length pre)) a).
        { intros A d a La. rewrite <- La in Lp. clear -Lp. revert a Lp. induction (length pre) as [|n IHn]; intros [|y a] Lp; cbn in *; try lia; [reflexivity|].
          apply IHn. lia. }
        rewrite (SK _ [] own LO), (SK _ (mkCorShare 0 0) cors LC). unfold packets. cbn [map2].
        assert (IX : index_of (c_pk r) (map c_pk rs') = length pre).
        { assert (I : In (c_pk r) (map c_pk rs')) by (rewrite E, map_app; apply in_or_app; right; now left).
          apply index_in in I. apply (NoDup_nth_error (map c_pk rs')); [exact ND| |].
          - apply nth_error_Some. rewrite I. discriminate.
          - rewrite I, E, map_app, nth_error_app2 by (rewrite map_length; lia). rewrite map_length, Nat.sub_diag. reflexivity. }
        constructor.
        + rewrite Forall_forall in F. specialize (F r). rewrite IX in F. apply F. rewrite E. apply in_or_app. right. now left.
        + specialize (IH (pre ++ [r])). rewrite app_length, Nat.add_1_r in IH. apply IH. now rewrite <- app_assoc. }
    exact (H [] rs' eq_refl).
  Qed.

  Lemma totals_real (j : nat) (l : list (crec (V * ClientPacket) W)) : totals vals j l = zsum (map (fun v => nth j (vals v) 0) (map c_real l)).
  Proof. unfold totals. now rewrite map_map. Qed.

  Variables (order1 : iteration) (K rnd0 rnd1 : nat -> Z) (st0 st1 : snip_state) (gs : list tapes) (l : list (crec (V * ClientPacket) W)) (vs : list W).
  Hypothesis HF : fair order1.
  Hypothesis HK : by_keys order1.
  Hypothesis SY : synced st0 st1.
  Hypothesis NE : gs <> [].
  Hypothesis G : Forall (fun gT : tapes => is_blocks (fst gT)) gs.
  Hypothesis EL : separate_with_proofs one gs = Some l.
  Hypothesis ND : NoDup (map c_pk l).
  Hypothesis LV : length vs = length gs.
  Hypothesis HV : Forall legal vs.

  Let s0 (rnd0 : nat -> Z) (rs : list (crec (V * ClientPacket) W)) := snip_sums0 K rnd0 c nbs (repeat true (length rs)) (map (fun r => entry row (share_of false r)) rs) st0.
  Let s1 (rs : list (crec (V * ClientPacket) W)) := snip_sums1 K rnd1 c nbs (map (fun r => entry row (share_of true r)) rs) st1.

  Lemma by_order (l' rs : list (crec (V * ClientPacket) W)) : map c_pk l' = map c_pk l -> Permutation l rs -> order1 _ (subs1 l) = subs1 rs ->
    exists rs', Permutation l' rs' /\ order1 _ (subs1 l') = subs1 rs' /\ map c_pk rs' = map c_pk rs.
  Proof.
    intros E HP EO. destruct (in_order order1 l' HF) as (rs' & HP' & EO'). exists rs'. split; [exact HP'|]. split; [exact EO'|].
    assert (A : forall q : list (crec (V * ClientPacket) W), map fst (subs1 q) = map c_pk q) by (intros q; unfold subs1; now rewrite map_map).
    rewrite <- !A, <- EO, <- EO'. apply HK. now rewrite !A.
  Qed.

  Lemma other_world0 : (forall j, (j < length nbs)%nat -> zsum (map (fun v => nth j (vals v) 0) vs) mod P = totals vals j l mod P) ->
    exists gs' l', Forall (fun gT : tapes => is_blocks (fst gT)) gs' /\ separate_with_proofs one gs' = Some l' /\ map c_real l' = vs /\
      seen false l' = seen false l /\
    exists rs rs', Permutation l rs /\ Permutation l' rs' /\ order1 _ (subs1 l) = subs1 rs /\ order1 _ (subs1 l') = subs1 rs' /\
      map c_pk rs' = map c_pk rs /\ map c_0 rs' = map c_0 rs /\
    exists bytes a0 b st1', length b = length nbs /\ Forall (in_field P) b /\
      forall log, conv (logged log (s0 rnd0 rs)) (s1 rs) (log ++ bytes, a0) (b, st1') /\
                  conv (logged log (s0 rnd0 rs')) (s1 rs') (log ++ bytes, a0) (b, st1').
  Proof.
    intros ES. pose proof (separate_clean gs l G EL) as CL. pose proof (separate_count gs l EL) as CN.
    destruct (in_order order1 l HF) as (rs & HP & EO).
    assert (CR : Forall (clean c nbs row vals) rs) by (eapply Permutation_Forall; eassumption).
    assert (LR : length rs = length l) by (symmetry; now apply Permutation_length).
    assert (NR : rs <> []) by (intros ->; apply NE, length_zero_iff_nil; rewrite <- CN, <- LR; reflexivity).
    assert (NDR : NoDup (map c_pk rs)) by (eapply Permutation_NoDup; [apply Permutation_map, HP|exact ND]).
    destruct (sums_views c nbs row vals WF HM HW HI K rnd0 rnd1 rs st0 st1 NR CR SY) as (L0 & L1 & F0 & F1 & S1 & S0 & V0 & _).
    set (o0 := own_rows nbs rnd0 (map fst (map (fun r => entry row (share_of false r)) rs))) in *.
    set (o1 := read_rows nbs _ _) in *.
    pose proof (proj1 (proj1 SY)) as Hr. change p with P in Hr.
    destruct (opens_all c (randomX st0) true (packets true rs o1) HM Hr) as (cors & OC & LC & BC).
    { eapply shaped_packets; eassumption. }
    rewrite packets_length in LC by exact L1.
    set (corf := fun pk => nth (index_of pk (map c_pk rs)) cors (mkCorShare 0 0)).
    set (rowf := fun v pk => subrow (vals v) (nth (index_of pk (map c_pk rs)) o0 (repeat 0 (length nbs)))).
    destruct (choose_openings false (randomX st0) rowf corf) with (gs := gs) (l := l) (vs := vs) as (gs' & l' & G' & EL' & RV & SN & OP); auto.
    { intros v pk Hv. unfold rowf, subrow. rewrite map2_length, (LEN v Hv).
      assert (X : length (nth (index_of pk (map c_pk rs)) o0 (repeat 0 (length nbs))) = length nbs).
      { destruct (Nat.lt_ge_cases (index_of pk (map c_pk rs)) (length o0)) as [H|H].
        - rewrite Forall_forall in F0. apply F0, nth_In, H.
        - rewrite nth_overflow by exact H. apply repeat_length. }
      rewrite X, Nat.min_id. exact HI. }
    { intros pk. unfold corf. destruct (Nat.lt_ge_cases (index_of pk (map c_pk rs)) (length cors)) as [H|H].
      - rewrite Forall_forall in BC. apply BC, nth_In, H.
      - rewrite nth_overflow by exact H. cbn [shareD shareE]. split; split; reflexivity || lia. }
    exists gs', l'. split; [exact G'|]. split; [exact EL'|]. split; [exact RV|]. split; [exact SN|].
    assert (EP := seen_pks false l' l SN).
    destruct (by_order l' rs EP HP EO) as (rs' & HP' & EO' & EK).
    assert (E0 : map c_0 rs' = map c_0 rs) by (exact (same_order l l' rs rs' c_0 ND SN HP HP' EK)).
    exists rs, rs'. do 6 (split; [assumption|]).
    pose proof (separate_clean gs' l' G' EL') as CL'.
    assert (CR' : Forall (clean c nbs row vals) rs') by (eapply Permutation_Forall; eassumption).
    assert (LR' : length rs' = length rs) by (rewrite <- (map_length c_pk rs'), EK; apply map_length).
    assert (NR' : rs' <> []) by (intros ->; destruct rs; [now apply NR|discriminate]).
    assert (EN : map (fun r => entry row (share_of false r)) rs' = map (fun r => entry row (share_of false r)) rs).
    { change (fun r : crec (V * ClientPacket) W => entry row (share_of false r)) with (fun r : crec (V * ClientPacket) W => entry row (c_0 r)).
      now rewrite <- (map_map c_0 (entry row) rs'), <- (map_map c_0 (entry row) rs), E0. }
    destruct (sums_views c nbs row vals WF HM HW HI K rnd0 rnd1 rs' st0 st1 NR' CR' SY) as (L0' & L1' & F0' & F1' & S1' & S0' & V0' & _).
    rewrite EN in L0', L1', F0', F1', S1', S0', V0'. fold o0 in L0', F0', S1', S0', V0'.
    set (o1' := read_rows nbs _ _) in L1', F1', S1', S0', V0'.
    assert (PK : packets false rs' o0 = packets false rs o0).
    { clearbody o0. clear -E0. unfold packets. cbn [share_of]. revert rs E0. generalize o0.
      intros o. revert o. induction rs' as [|r rs' IH]; intros o [|q rs] E; cbn [map] in E; try discriminate; [reflexivity|].
      injection E as E1 E2. destruct o as [|x o]; [reflexivity|]. cbn [map2]. rewrite E1, (IH o rs E2). reflexivity. }
    assert (NDR' : NoDup (map c_pk rs')) by now rewrite EK.
    assert (OC' : Forall2 (opens c (randomX st0) true) (packets true rs' o1') cors).
    { rewrite S1'. apply opens_order; try congruence.
      eapply Permutation_Forall; [exact HP'|]. rewrite Forall_forall in OP |- *. intros r' Hr'. specialize (OP r' Hr').
      cbn [negb] in OP. unfold rowf, corf in OP. rewrite EK. rewrite (nth_indep o0 [] (repeat 0 (length nbs))); [exact OP|].
      assert (I : In (c_pk r') (map c_pk rs)).
      { rewrite <- EK. apply in_map. eapply Permutation_in; eassumption. }
      apply index_in in I. rewrite L0, <- (map_length c_pk rs). apply nth_error_Some. rewrite I. discriminate. }
    exists (sent_by (send_CorShare_batch cors) ++ sent_by (send_fmpz_batch (reply K c st0 false (packets false rs o0) cors))).
    eexists _, _, _.
    assert (AC : accumulate (length nbs) o1' (repeat true (length rs')) = accumulate (length nbs) o1 (repeat true (length rs))).
    { rewrite S1, S1'. rewrite (accumulate_all c nbs row vals HM HI rs' CR' o0), (accumulate_all c nbs row vals HM HI rs CR o0) by (congruence || assumption).
      apply map_ext_in. intros j Hj. apply in_seq in Hj. rewrite LR'.
      assert (T1 : totals vals j rs = totals vals j l) by (unfold totals; symmetry; apply zsum_permutation, Permutation_map; exact HP).
      assert (T2 : totals vals j rs' = totals vals j l') by (unfold totals; symmetry; apply zsum_permutation, Permutation_map; exact HP').
      rewrite T1, T2, (totals_real j l'), RV. rewrite Zminus_mod, (ES j) by lia. now rewrite <- Zminus_mod. }
    destruct (accumulate_spec (length nbs) o1 (repeat true (length rs))) as (AL & AF & _).
    split; [exact AL|]. split; [exact AF|]. intros log. split.
    - rewrite app_assoc. exact (V0 cors log OC).
    - specialize (V0' cors log OC'). rewrite PK, AC, LR' in V0'. rewrite app_assoc. unfold s0, s1. rewrite EN, LR'. exact V0'.
  Qed.

  (** The messages of the transfer can be the same. *)
  Lemma same_transfer rows0 rows0' rows1 : rows_ok nbs rows0 -> rows_ok nbs rows0' -> rows_ok nbs rows1 ->
    length rows0 = length rows1 -> length rows0' = length rows1 ->
    exists rnd0', transfer nbs rnd0' rows0' rows1 = transfer nbs rnd0 rows0 rows1.
  Proof.
    intros [A0 _] [A0' _] [A1 _] E0 E0'.
    assert (U : forall x, Forall (fun r => length r = length nbs) x -> Forall (fun r => length r = length nbs) (map (map u64) x)).
    { intros x H. apply Forall_map. eapply Forall_impl; [|exact H]. intros r. now rewrite map_length. }
    assert (R : forall rows : list (list Z), map (fun _ => true) rows = repeat true (length rows)).
    { induction rows as [|r rows IH]; [reflexivity|]. cbn [map length repeat]. now rewrite IH. }
    destruct (intsum_same_view false P nbs rnd0 (map (map u64) rows0) (map (map u64) rows0') (repeat true (length rows1))
      (intsum_choices nbs (map (map u64) rows1)) P_mod_ok HW) as (rnd0' & E); auto; try (rewrite map_length, repeat_length; assumption).
    { rewrite choices_length by auto. now rewrite map_length, repeat_length. }
    exists rnd0'. unfold transfer, seen_of. rewrite !R, E0, E0', E. reflexivity.
  Qed.

  Lemma other_world1 :
    exists gs' l' rnd0', Forall (fun gT : tapes => is_blocks (fst gT)) gs' /\ separate_with_proofs one gs' = Some l' /\ map c_real l' = vs /\
      seen true l' = seen true l /\
    exists rs rs', Permutation l rs /\ Permutation l' rs' /\ order1 _ (subs1 l) = subs1 rs /\ order1 _ (subs1 l') = subs1 rs' /\
      map c_pk rs' = map c_pk rs /\ map c_1 rs' = map c_1 rs /\
    exists bytes b st1' a0 a0', length b = length nbs /\ Forall (in_field P) b /\
      forall log, conv (logged log (s1 rs)) (s0 rnd0 rs) (log ++ bytes, (b, st1')) a0 /\
                  conv (logged log (s1 rs')) (s0 rnd0' rs') (log ++ bytes, (b, st1')) a0'.
  Proof.
    pose proof (separate_clean gs l G EL) as CL. pose proof (separate_count gs l EL) as CN.
    destruct (in_order order1 l HF) as (rs & HP & EO).
    assert (CR : Forall (clean c nbs row vals) rs) by (eapply Permutation_Forall; eassumption).
    assert (LR : length rs = length l) by (symmetry; now apply Permutation_length).
    assert (NR : rs <> []) by (intros ->; apply NE, length_zero_iff_nil; rewrite <- CN, <- LR; reflexivity).
    assert (NDR : NoDup (map c_pk rs)) by (eapply Permutation_NoDup; [apply Permutation_map, HP|exact ND]).
    destruct (sums_views c nbs row vals WF HM HW HI K rnd0 rnd1 rs st0 st1 NR CR SY) as (L0 & L1 & F0 & F1 & S1 & S0 & _ & V1).
    set (o0 := own_rows nbs rnd0 (map fst (map (fun r => entry row (share_of false r)) rs))) in *.
    set (M := transfer nbs rnd0 (map fst (map (fun r => entry row (share_of false r)) rs)) (map fst (map (fun r => entry row (share_of true r)) rs))) in *.
    set (o1 := read_rows nbs (length rs) M) in *.
    assert (EX : randomX st1 = randomX st0) by (symmetry; apply SY).
    pose proof (proj1 (proj1 SY)) as Hr. change p with P in Hr. rewrite <- EX in Hr.
    destruct (opens_all c (randomX st1) false (packets false rs o0) HM Hr) as (cors & OC & LC & BC).
    { eapply shaped_packets; eassumption. }
    rewrite packets_length in LC by exact L0.
    set (corf := fun pk => nth (index_of pk (map c_pk rs)) cors (mkCorShare 0 0)).
    set (rowf := fun v pk => subrow (vals v) (nth (index_of pk (map c_pk rs)) o1 (repeat 0 (length nbs)))).
    destruct (choose_openings true (randomX st1) rowf corf) with (gs := gs) (l := l) (vs := vs) as (gs' & l' & G' & EL' & RV & SN & OP); auto.
    { intros v pk Hv. unfold rowf, subrow. rewrite map2_length, (LEN v Hv).
      assert (X : length (nth (index_of pk (map c_pk rs)) o1 (repeat 0 (length nbs))) = length nbs).
      { destruct (Nat.lt_ge_cases (index_of pk (map c_pk rs)) (length o1)) as [H|H].
        - rewrite Forall_forall in F1. apply F1, nth_In, H.
        - rewrite nth_overflow by exact H. apply repeat_length. }
      rewrite X, Nat.min_id. exact HI. }
    { intros pk. unfold corf. destruct (Nat.lt_ge_cases (index_of pk (map c_pk rs)) (length cors)) as [H|H].
      - rewrite Forall_forall in BC. apply BC, nth_In, H.
      - rewrite nth_overflow by exact H. cbn [shareD shareE]. split; split; reflexivity || lia. }
    assert (EP := seen_pks true l' l SN).
    destruct (by_order l' rs EP HP EO) as (rs' & HP' & EO' & EK).
    assert (E1 : map c_1 rs' = map c_1 rs) by (exact (same_order l l' rs rs' c_1 ND SN HP HP' EK)).
    pose proof (separate_clean gs' l' G' EL') as CL'.
    assert (CR' : Forall (clean c nbs row vals) rs') by (eapply Permutation_Forall; eassumption).
    assert (LR' : length rs' = length rs) by (rewrite <- (map_length c_pk rs'), EK; apply map_length).
    assert (NR' : rs' <> []) by (intros ->; destruct rs; [now apply NR|discriminate]).
    assert (EN : map (fun r => entry row (share_of true r)) rs' = map (fun r => entry row (share_of true r)) rs).
    { change (fun r : crec (V * ClientPacket) W => entry row (share_of true r)) with (fun r : crec (V * ClientPacket) W => entry row (c_1 r)).
      now rewrite <- (map_map c_1 (entry row) rs'), <- (map_map c_1 (entry row) rs), E1. }
    destruct (same_transfer (map fst (map (fun r => entry row (share_of false r)) rs)) (map fst (map (fun r => entry row (share_of false r)) rs'))
      (map fst (map (fun r => entry row (share_of true r)) rs))) as (rnd0' & ET).
    { eapply clean_rows; eassumption. } { eapply clean_rows; eassumption. } { eapply clean_rows; eassumption. }
    { now rewrite !map_length. } { now rewrite !map_length. }
    fold M in ET.
    exists gs', l', rnd0'. split; [exact G'|]. split; [exact EL'|]. split; [exact RV|]. split; [exact SN|].
    exists rs, rs'. do 6 (split; [assumption|]).
    destruct (sums_views c nbs row vals WF HM HW HI K rnd0' rnd1 rs' st0 st1 NR' CR' SY) as (L0' & L1' & F0' & F1' & S1' & S0' & _ & V1').
    rewrite EN, ET, LR' in L1', F1', S1', S0', V1'. fold o1 in L1', F1', S1', S0', V1'.
    set (o0' := own_rows nbs rnd0' (map fst (map (fun r => entry row (share_of false r)) rs'))) in *.
    assert (PK : packets true rs' o1 = packets true rs o1).
    { clearbody o1. clear -E1. unfold packets. cbn [share_of]. revert rs E1. generalize o1.
      intros o. revert o. induction rs' as [|r rs' IH]; intros o [|q rs] E; cbn [map] in E; try discriminate; [reflexivity|].
      injection E as E1 E2. destruct o as [|x o]; [reflexivity|]. cbn [map2]. rewrite E1, (IH o rs E2). reflexivity. }
    assert (NDR' : NoDup (map c_pk rs')) by now rewrite EK.
    assert (OC' : Forall2 (opens c (randomX st1) false) (packets false rs' o0') cors).
    { rewrite S0'. apply opens_order; try congruence.
      eapply Permutation_Forall; [exact HP'|]. rewrite Forall_forall in OP |- *. intros r' Hr'. specialize (OP r' Hr').
      cbn [negb] in OP. unfold rowf, corf in OP. rewrite EK. rewrite (nth_indep o1 [] (repeat 0 (length nbs))); [exact OP|].
      assert (I : In (c_pk r') (map c_pk rs)).
      { rewrite <- EK. apply in_map. eapply Permutation_in; eassumption. }
      apply index_in in I. rewrite L1, <- (map_length c_pk rs). apply nth_error_Some. rewrite I. discriminate. }
    exists (((M ++ sent_by (send_CorShare_batch cors)) ++ sent_by (send_fmpz_batch (reply K c st1 true (packets true rs o1) cors))) ++
      sent_by (send_bool_batch (repeat true (length rs)))).
    eexists _, _, _, _.
    destruct (accumulate_spec (length nbs) o1 (repeat true (length rs))) as (AL & AF & _).
    split; [exact AL|]. split; [exact AF|]. intros log. split.
    - rewrite !app_assoc. exact (V1 cors log OC).
    - specialize (V1' cors log OC'). rewrite PK in V1'. rewrite !app_assoc. unfold s0, s1. rewrite EN, LR'. exact V1'.
  Qed.
End Worlds.
