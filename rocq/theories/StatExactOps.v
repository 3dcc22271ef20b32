(** Whole operations: VAR, STDDEV and LINREG. *)
From Coq Require Import ZArith List Bool Lia Permutation.
From Verif Require Import Words WordsFacts Constants Share SpecShare Proc ProcFacts Net SpecNet OT OTFacts SpecHide HideFacts Poly SpecPoly Circuit SpecCircuit CircuitFacts Snip SpecSnip SnipFacts SnipBatch
  ServerOps SpecServer TableFacts ServerFacts ClientOps ClientFacts SnipSums SpecStat StatReads StatProps StatClient SpecSecret SecretFacts SecretProof SpecPrivacy PrivacyExact SpecExact ExactFacts
  ExactServer ViewFacts PrivacyFacts PrivacyProof SpecStatPrivacy StatView StatPrivacy StatOps SpecStatExact StatExact StatPair StatPairs StatDraws.
Import ListNotations.
Open Scope Z_scope.
Local Notation P := Int_Modulus.
Opaque Int_Modulus Int_Gen init_roots Nat.pow.
Arguments Z.mul : simpl never.
Arguments Z.add : simpl never.
Arguments Z.modulo : simpl never.

Lemma counted {D V} (dom dom' : D -> Prop) (S : D -> V -> Prop) F : pairs_off dom dom' F ->
  (forall a v w, S a v -> S a w -> v = w) -> (forall a, dom a -> exists v, S a v /\ S (F a) v) ->
  forall v, equally_many dom dom' (fun a => S a v).
Proof.
  intros PO FU HS v E E' N N' HE HE'. eapply (pairs_off_count dom dom' F (fun a => S a v) (fun a => S a v)); eauto.
  intros a Ha. destruct (HS a Ha) as (w & S1 & S2). split; intros H.
  - now rewrite (FU _ _ _ H S1).
  - now rewrite (FU _ _ _ H S2).
Qed.
Lemma sees0_fun {A B} (p : proc A) (q : proc B) v w : sees0 p q v -> sees0 p q w -> v = w.
Proof. intros (b & H) (b' & H'). now destruct (always_functional _ _ _ _ _ _ H H'). Qed.
Lemma sees1_fun {A B} (p : proc A) (q : proc B) v w : sees1 p q v -> sees1 p q w -> v = w.
Proof. intros (b & H) (b' & H'). now destruct (always_functional _ _ _ _ _ _ H H'). Qed.
Lemma pair_eq {A B} (v w : A * B) : fst v = fst w -> snd v = snd w -> v = w.
Proof. destruct v, w; cbn; congruence. Qed.

Lemma var_sees0_fun nb o0 o1 j0 j1 K r0 r1 s0 s1 ds v w :
  var_sees0 nb o0 o1 j0 j1 K r0 r1 s0 s1 ds v -> var_sees0 nb o0 o1 j0 j1 K r0 r1 s0 s1 ds w -> v = w.
Proof.
  intros (l & t0 & t1 & E & E0 & E1 & S & V) (l' & t0' & t1' & E' & E0' & E1' & S' & V').
  rewrite E in E'. injection E' as <-. rewrite E0 in E0'. injection E0' as <-. rewrite E1 in E1'. injection E1' as <-.
  apply pair_eq; [congruence|]. exact (sees0_fun _ _ _ _ V V').
Qed.
Lemma var_sees1_fun nb o0 o1 j0 j1 K r1 s0 s1 ds v w :
  var_sees1 nb o0 o1 j0 j1 K r1 s0 s1 ds v -> var_sees1 nb o0 o1 j0 j1 K r1 s0 s1 ds w -> v = w.
Proof.
  intros (l & t0 & t1 & E & E0 & E1 & S & V) (l' & t0' & t1' & E' & E0' & E1' & S' & V').
  rewrite E in E'. injection E' as <-. rewrite E0 in E0'. injection E0' as <-. rewrite E1 in E1'. injection E1' as <-.
  apply pair_eq; [congruence|]. exact (sees1_fun _ _ _ _ V V').
Qed.
Lemma linreg_sees0_fun nb dg o0 o1 d0 d1 j0 j1 g0 g1 K r0 r1 s0 s1 ds v w :
  linreg_sees0 nb dg o0 o1 d0 d1 j0 j1 g0 g1 K r0 r1 s0 s1 ds v -> linreg_sees0 nb dg o0 o1 d0 d1 j0 j1 g0 g1 K r0 r1 s0 s1 ds w -> v = w.
Proof.
  intros (l & t & t0 & t1 & E & ET & E0 & E1 & S & V) (l' & t' & t0' & t1' & E' & ET' & E0' & E1' & S' & V').
  rewrite E in E'. injection E' as <-. rewrite E0 in E0'. injection E0' as <-. rewrite E1 in E1'. injection E1' as <-. rewrite ET in ET'. injection ET' as <-.
  apply pair_eq; [congruence|]. exact (sees0_fun _ _ _ _ V V').
Qed.
Lemma linreg_sees1_fun nb dg o0 o1 d0 d1 j0 j1 g0 g1 K r1 s0 s1 ds v w :
  linreg_sees1 nb dg o0 o1 d0 d1 j0 j1 g0 g1 K r1 s0 s1 ds v -> linreg_sees1 nb dg o0 o1 d0 d1 j0 j1 g0 g1 K r1 s0 s1 ds w -> v = w.
Proof.
  intros (l & t & t0 & t1 & E & ET & E0 & E1 & S & V) (l' & t' & t0' & t1' & E' & ET' & E0' & E1' & S' & V').
  rewrite E in E'. injection E' as <-. rewrite E0 in E0'. injection E0' as <-. rewrite E1 in E1'. injection E1' as <-. rewrite ET in ET'. injection ET' as <-.
  apply pair_eq; [congruence|]. exact (sees1_fun _ _ _ _ V V').
Qed.

Section Var.
  Variables (nb : nat) (order0 order1 : iteration) (junk0 junk1 : list Z) (K rnd1 : nat -> Z) (st0 st1 : snip_state) (vs vs' : list Z).
  Let one := var_request (2 ^ Z.of_nat nb).
  Let k := proof_draws CheckVar.
  Hypothesis Hn : (nb <= 24)%nat.
  Hypothesis HF : fair order1.
  Hypothesis HK : by_keys order1.
  Hypothesis J0 : length junk0 = 48%nat.
  Hypothesis J1 : length junk1 = 48%nat.
  Hypothesis SY : synced st0 st1.
  Hypothesis NE : vs <> [].
  Hypothesis LV : length vs' = length vs.
  Hypothesis HN : Z.of_nat (length vs) < two32.
  Hypothesis HV : Forall (fun v => 0 <= v < 2 ^ Z.of_nat nb) vs.
  Hypothesis HV' : Forall (fun v => 0 <= v < 2 ^ Z.of_nat nb) vs'.
  Let made := made CheckVar var_inp (var_val nb) var_key (var_sh nb).

  Lemma var_records us ds : gives one var_blocks k us ds -> let l := map made ds in
    separate_with_proofs one (map draw_tapes ds) = Some l /\ NoDup (map c_pk l) /\ length l = length us /\
    Forall (var_good nb) l /\ Forall (fun r => length (c_pk r) = 32%nat) l.
  Proof.
    intros G l. destruct G as ((D1 & D2) & l0 & E & R & ND).
    pose proof (made_list CheckVar var_blocks var_inp one (var_val nb) var_key (var_sh nb) 3 var_gates (var_form nb) ds D2) as E2. fold made in E2. fold l in E2.
    rewrite E in E2. injection E2 as ->. split; [exact E|]. split; [exact ND|]. split; [unfold l; now rewrite map_length|].
    apply (var_requests nb (map draw_tapes ds) l ltac:(lia)); [|exact E].
    apply Forall_map. eapply Forall_impl; [|exact D2]. intros d Hd. exact (gen_blocks CheckVar var_blocks d Hd).
  Qed.
  Lemma var_pairs0 rnd0 : zsum vs' mod p = zsum vs mod p -> zsum (map (fun v => v * v) vs') mod p = zsum (map (fun v => v * v) vs) mod p ->
    exists F, pairs_off (gives one var_blocks k vs) (gives one var_blocks k vs') F /\
      forall ds, gives one var_blocks k vs ds -> exists v,
        var_sees0 nb order0 order1 junk0 junk1 K rnd0 rnd1 st0 st1 ds v /\ var_sees0 nb order0 order1 junk0 junk1 K rnd0 rnd1 st0 st1 (F ds) v.
  Proof.
    intros HS1 HS2.
    destruct (exact0 CheckVar (var_nbs nb) var_row squares var_inp (var_legal nb) (possible_var nb) var_blocks one (var_val nb) var_key (var_sh nb) 3 var_mask Z.eq_dec
      (proj1 check_var_wf) var_gates (var_widths nb Hn) eq_refl (var_form nb) (var_request_ok nb ltac:(lia)) (fun _ _ => eq_refl) (var_val_legal nb ltac:(lia))
      (var_mask_ok nb ltac:(lia)) order1 K rnd1 st0 st1 HF HK SY rnd0 vs vs' NE LV HV HV') as (F & PO & HR).
    exists F. split; [exact PO|]. intros ds G. specialize (HR ds G).
    assert (G' : gives one var_blocks k vs' (F ds)) by (destruct PO as (? & H & _); now apply H).
    destruct (views0 CheckVar (var_nbs nb) var_row squares var_inp (possible_var nb) var_blocks one (var_val nb) var_key (var_sh nb) 3 var_mask
      (proj1 check_var_wf) var_gates (var_widths nb Hn) eq_refl (var_form nb) (var_request_ok nb ltac:(lia))
      order1 K rnd1 st0 st1 HF HK SY rnd0 ds (F ds) vs vs' NE G G' HR) as (SN & EP & bytes & a0 & b & st1' & LB & FB & CV).
    { intros [|[|j]] Hj; [..|cbn in Hj; lia]; unfold squares; cbn [nth].
      - rewrite !map_id. exact HS1.
      - exact HS2. }
    destruct (var_records vs ds G) as (E & ND & L & GD & K32). destruct (var_records vs' (F ds) G') as (E' & ND' & L' & GD' & K32').
    fold made in SN, EP. fold made in CV. set (l := map made ds) in *. set (l' := map made (F ds)) in *.
    destruct (rs_of_ok order1 l HF ND) as [HP EO]. destruct (rs_of_ok order1 l' HF ND') as [HP' EO'].
    destruct (var_tables_read nb l (length l) order0 order1 junk0 junk1 Hn GD K32 ND eq_refl J0 J1) as (t0 & t1 & E0 & E1 & X).
    destruct (var_tables_read nb l' (length l') order0 order1 junk0 junk1 Hn GD' K32' ND' eq_refl J0 J1) as (t0' & t1' & E0' & E1' & X').
    pose proof (var_view0 nb l (rs_of order1 l) order1 K rnd0 rnd1 st0 st1 (length l) HF ND K32 ltac:(rewrite L; exact HN) HP EO bytes a0 b st1' LB FB (fun log => proj1 (CV log))) as V.
    pose proof (var_view0 nb l' (rs_of order1 l') order1 K rnd0 rnd1 st0 st1 (length l') HF ND' K32' ltac:(rewrite L', LV; exact HN) HP' EO' bytes a0 b st1' LB FB (fun log => proj2 (CV log))) as V'.
    assert (LL : length l' = length l) by congruence. rewrite EP in V'. rewrite LL in V' at 2.
    eexists (seen false l, _). split.
    - exists l, t0, t1. do 3 (split; [assumption|]). split; [reflexivity|]. cbn [snd].
      rewrite (proj1 (X K rnd0 rnd1 st0 st1)), (proj2 (X K rnd0 rnd1 st0 st1)). eexists. apply conv_always. exact V.
    - exists l', t0', t1'. do 3 (split; [assumption|]). split; [exact SN|]. cbn [snd].
      rewrite (proj1 (X' K rnd0 rnd1 st0 st1)), (proj2 (X' K rnd0 rnd1 st0 st1)). eexists. apply conv_always. exact V'.
  Qed.
  Lemma var_pairs1 : let dom us (d : list client_draws * list Z) := gives one var_blocks k us (fst d) /\ masks (length us) (var_nbs nb) (snd d) in
    exists F, pairs_off (dom vs) (dom vs') F /\
      forall d, dom vs d -> exists v,
        var_sees1 nb order0 order1 junk0 junk1 K rnd1 st0 st1 d v /\ var_sees1 nb order0 order1 junk0 junk1 K rnd1 st0 st1 (F d) v.
  Proof.
    intros dom.
    destruct (exact1 CheckVar (var_nbs nb) var_row squares var_inp (var_legal nb) (possible_var nb) var_blocks one (var_val nb) var_key (var_sh nb) 3 var_mask Z.eq_dec
      (proj1 check_var_wf) var_gates (var_widths nb Hn) eq_refl (var_form nb) (var_request_ok nb ltac:(lia)) (fun _ _ => eq_refl) (var_val_legal nb ltac:(lia))
      (var_mask_ok nb ltac:(lia)) order1 K rnd1 st0 st1 HF HK SY vs vs' NE LV HV HV') as (F & PO & HR).
    exists F. split; [exact PO|]. intros [ds ms] G. specialize (HR (ds, ms) G).
    assert (G' : dom vs' (F (ds, ms))) by (destruct PO as (? & H & _); now apply H).
    destruct (F (ds, ms)) as [ds' ms'].
    destruct (views1 CheckVar (var_nbs nb) var_row squares var_inp (possible_var nb) var_blocks one (var_val nb) var_key (var_sh nb) 3 var_mask
      (proj1 check_var_wf) var_gates (var_widths nb Hn) eq_refl (var_form nb) (var_request_ok nb ltac:(lia))
      order1 K rnd1 st0 st1 HF HK SY vs vs' ds ms ds' ms' NE G G' HR) as (SN & EP & bytes & [b st1'] & a0 & a0' & LB & FB & CV). cbn [fst] in LB, FB.
    destruct (var_records vs ds (proj1 G)) as (E & ND & L & GD & K32). destruct (var_records vs' ds' (proj1 G')) as (E' & ND' & L' & GD' & K32').
    fold made in SN, EP. fold made in CV. set (l := map made ds) in *. set (l' := map made ds') in *.
    destruct (rs_of_ok order1 l HF ND) as [HP EO]. destruct (rs_of_ok order1 l' HF ND') as [HP' EO'].
    destruct (var_tables_read nb l (length l) order0 order1 junk0 junk1 Hn GD K32 ND eq_refl J0 J1) as (t0 & t1 & E0 & E1 & X).
    destruct (var_tables_read nb l' (length l') order0 order1 junk0 junk1 Hn GD' K32' ND' eq_refl J0 J1) as (t0' & t1' & E0' & E1' & X').
    pose proof (var_view1 nb l (rs_of order1 l) order1 K (tp ms) rnd1 st0 st1 (length l) HF ND K32 ltac:(rewrite L; exact HN) HP EO bytes a0 b st1' LB FB (fun log => proj1 (CV log))) as V.
    pose proof (var_view1 nb l' (rs_of order1 l') order1 K (tp ms') rnd1 st0 st1 (length l') HF ND' K32' ltac:(rewrite L', LV; exact HN) HP' EO' bytes a0' b st1' LB FB (fun log => proj2 (CV log))) as V'.
    eexists (seen true l, _). split.
    - exists l, t0, t1. do 3 (split; [assumption|]). split; [reflexivity|]. cbn [snd].
      rewrite (proj1 (X K _ rnd1 st0 st1)), (proj2 (X K (tp ms) rnd1 st0 st1)). eexists. apply conv_always, conv_swap. exact V.
    - exists l', t0', t1'. do 3 (split; [assumption|]). split; [exact SN|]. cbn [snd].
      rewrite (proj1 (X' K _ rnd1 st0 st1)), (proj2 (X' K (tp ms') rnd1 st0 st1)). eexists. apply conv_always, conv_swap. exact V'.
  Qed.
End Var.

Section Linreg.
  Variables (nb degree : nat) (order0 order1 : iteration) (d0 d1 junk0 junk1 : list Z) (garbage0 garbage1 : nat -> list Z * list Z * list Z)
    (K rnd1 : nat -> Z) (st0 st1 : snip_state) (vs vs' : list (list Z * Z)).
  Let one := linreg_request degree (2 ^ Z.of_nat nb).
  Let c := CheckLinReg degree.
  Let k := proof_draws c.
  Hypothesis Hn : (nb <= 24)%nat.
  Hypothesis Hd : (1 <= degree)%nat.
  Hypothesis HQ : (num_quad degree + num_x degree < 2 ^ 18)%nat.
  Hypothesis HF : fair order1.
  Hypothesis HK : by_keys order1.
  Hypothesis D0 : length d0 = 8%nat.
  Hypothesis D1 : length d1 = 8%nat.
  Hypothesis J0 : length junk0 = 32%nat.
  Hypothesis J1 : length junk1 = 32%nat.
  Hypothesis SY : synced st0 st1.
  Hypothesis NE : vs <> [].
  Hypothesis LV : length vs' = length vs.
  Hypothesis HN : Z.of_nat (length vs) < two32.
  Hypothesis HV : Forall (legal_linreg nb degree) vs.
  Hypothesis HV' : Forall (legal_linreg nb degree) vs'.
  Let made := made c (lin_inp degree) (lin_val nb degree) (lin_key degree) (lin_sh nb degree).
  Let last := (3 * blocks (8 * num_x degree) + blocks (8 * num_quad degree) + 2)%nat.

  Lemma lin_gates : (NumMulGates c < 2 ^ 18)%nat.
  Proof. unfold c. rewrite (proj1 (linreg_gates degree Hd)). exact HQ. Qed.
  Lemma lin_width : length (linreg_bits nb degree) = NumInputs c.
  Proof. rewrite linreg_bits_length. symmetry. apply linreg_gates. exact Hd. Qed.
  Lemma lin_dec : forall a b : list Z * Z, {a = b} + {a <> b}.
  Proof. intros [a b] [a' b']. destruct (list_eq_dec Z.eq_dec a a') as [->|]; [|right; congruence]. destruct (Z.eq_dec b b') as [->|]; [now left|right; congruence]. Qed.

  Lemma lin_records us ds : gives one (linreg_blocks degree) k us ds -> let l := map made ds in
    separate_with_proofs one (map draw_tapes ds) = Some l /\ NoDup (map c_pk l) /\ length l = length us /\
    Forall (linreg_good nb degree) l /\ Forall (fun r => length (c_pk r) = 32%nat) l.
  Proof.
    intros G l. destruct G as ((E1 & E2) & l0 & E & R & ND).
    pose proof (made_list c (linreg_blocks degree) (lin_inp degree) one (lin_val nb degree) (lin_key degree) (lin_sh nb degree) last lin_gates (lin_form nb degree) ds E2) as E3. fold made in E3. fold l in E3.
    rewrite E in E3. injection E3 as ->. split; [exact E|]. split; [exact ND|]. split; [unfold l; now rewrite map_length|].
    apply (linreg_requests nb degree (map draw_tapes ds) l ltac:(lia) Hd lin_gates); [|exact E].
    apply Forall_map. eapply Forall_impl; [|exact E2]. intros d Hd'. exact (gen_blocks c (linreg_blocks degree) d Hd').
  Qed.
  Lemma linreg_pairs0 rnd0 : (forall j, zsum (map (fun u => nth j (linreg_fields u) 0) vs') mod p = zsum (map (fun u => nth j (linreg_fields u) 0) vs) mod p) ->
    exists F, pairs_off (gives one (linreg_blocks degree) k vs) (gives one (linreg_blocks degree) k vs') F /\
      forall ds, gives one (linreg_blocks degree) k vs ds -> exists v,
        linreg_sees0 nb degree order0 order1 d0 d1 junk0 junk1 garbage0 garbage1 K rnd0 rnd1 st0 st1 ds v /\
        linreg_sees0 nb degree order0 order1 d0 d1 junk0 junk1 garbage0 garbage1 K rnd0 rnd1 st0 st1 (F ds) v.
  Proof.
    intros HS.
    destruct (exact0 c (linreg_bits nb degree) linreg_row' linreg_fields (lin_inp degree) (legal_linreg nb degree) (possible_linreg nb degree) (linreg_blocks degree) one
      (lin_val nb degree) (lin_key degree) (lin_sh nb degree) last (lin_mask degree) lin_dec
      (proj1 (check_linreg_wf degree Hd)) lin_gates (linreg_widths nb degree Hn Hd) lin_width (lin_form nb degree) (linreg_request_ok nb degree ltac:(lia) Hd lin_gates)
      (fun v => legal_fields nb degree v Hd) (lin_val_legal nb degree ltac:(clear -Hn; lia) Hd)
      (lin_mask_ok nb degree ltac:(clear -Hn; lia) Hd) order1 K rnd1 st0 st1 HF HK SY rnd0 vs vs' NE LV HV HV') as (F & PO & HR).
    exists F. split; [exact PO|]. intros ds G. specialize (HR ds G).
    assert (G' : gives one (linreg_blocks degree) k vs' (F ds)) by (destruct PO as (? & H & _); now apply H).
    destruct (views0 c (linreg_bits nb degree) linreg_row' linreg_fields (lin_inp degree) (possible_linreg nb degree) (linreg_blocks degree) one
      (lin_val nb degree) (lin_key degree) (lin_sh nb degree) last (lin_mask degree)
      (proj1 (check_linreg_wf degree Hd)) lin_gates (linreg_widths nb degree Hn Hd) lin_width (lin_form nb degree) (linreg_request_ok nb degree ltac:(lia) Hd lin_gates)
      order1 K rnd1 st0 st1 HF HK SY rnd0 ds (F ds) vs vs' NE G G' HR (fun j _ => HS j)) as (SN & EP & bytes & a0 & b & st1' & LB & FB & CV).
    destruct (lin_records vs ds G) as (E & ND & L & GD & K32). destruct (lin_records vs' (F ds) G') as (E' & ND' & L' & GD' & K32').
    fold made in SN, EP. fold made in CV. set (l := map made ds) in *. set (l' := map made (F ds)) in *.
    destruct (rs_of_ok order1 l HF ND) as [HP EO]. destruct (rs_of_ok order1 l' HF ND') as [HP' EO'].
    destruct (linreg_tables_read nb degree l (length l) order0 order1 d0 d1 junk0 junk1 garbage0 garbage1 Hn Hd HQ GD K32 ND eq_refl D0 D1 J0 J1)
      as (deg & t0 & t1 & ED & E0 & E1 & X).
    destruct (linreg_tables_read nb degree l' (length l') order0 order1 d0 d1 junk0 junk1 garbage0 garbage1 Hn Hd HQ GD' K32' ND' eq_refl D0 D1 J0 J1)
      as (deg' & t0' & t1' & ED' & E0' & E1' & X').
    pose proof (linreg_view0 nb degree l (rs_of order1 l) order1 K rnd0 rnd1 st0 st1 (length l) garbage0 HF ND K32 ltac:(rewrite L; exact HN) HP EO bytes a0 b st1' LB FB (fun log => proj1 (CV log))) as V.
    pose proof (linreg_view0 nb degree l' (rs_of order1 l') order1 K rnd0 rnd1 st0 st1 (length l') garbage0 HF ND' K32' ltac:(rewrite L', LV; exact HN) HP' EO' bytes a0 b st1' LB FB (fun log => proj2 (CV log))) as V'.
    assert (LL : length l' = length l) by congruence. rewrite EP in V'. rewrite LL in V' at 2.
    eexists (seen false l, _). split.
    - exists l, deg, t0, t1. do 4 (split; [assumption|]). split; [reflexivity|]. cbn [snd].
      rewrite (proj1 (X K rnd0 rnd1 st0 st1)), (proj2 (X K rnd0 rnd1 st0 st1)). eexists. apply conv_always. exact V.
    - exists l', deg', t0', t1'. do 4 (split; [assumption|]). split; [exact SN|]. cbn [snd].
      rewrite (proj1 (X' K rnd0 rnd1 st0 st1)), (proj2 (X' K rnd0 rnd1 st0 st1)). eexists. apply conv_always. exact V'.
  Qed.
  Lemma linreg_pairs1 : let dom us (d : list client_draws * list Z) := gives one (linreg_blocks degree) k us (fst d) /\ masks (length us) (linreg_bits nb degree) (snd d) in
    exists F, pairs_off (dom vs) (dom vs') F /\
      forall d, dom vs d -> exists v,
        linreg_sees1 nb degree order0 order1 d0 d1 junk0 junk1 garbage0 garbage1 K rnd1 st0 st1 d v /\
        linreg_sees1 nb degree order0 order1 d0 d1 junk0 junk1 garbage0 garbage1 K rnd1 st0 st1 (F d) v.
  Proof.
    intros dom.
    destruct (exact1 c (linreg_bits nb degree) linreg_row' linreg_fields (lin_inp degree) (legal_linreg nb degree) (possible_linreg nb degree) (linreg_blocks degree) one
      (lin_val nb degree) (lin_key degree) (lin_sh nb degree) last (lin_mask degree) lin_dec
      (proj1 (check_linreg_wf degree Hd)) lin_gates (linreg_widths nb degree Hn Hd) lin_width (lin_form nb degree) (linreg_request_ok nb degree ltac:(lia) Hd lin_gates)
      (fun v => legal_fields nb degree v Hd) (lin_val_legal nb degree ltac:(clear -Hn; lia) Hd)
      (lin_mask_ok nb degree ltac:(clear -Hn; lia) Hd) order1 K rnd1 st0 st1 HF HK SY vs vs' NE LV HV HV') as (F & PO & HR).
    exists F. split; [exact PO|]. intros [ds ms] G. specialize (HR (ds, ms) G).
    assert (G' : dom vs' (F (ds, ms))) by (destruct PO as (? & H & _); now apply H).
    destruct (F (ds, ms)) as [ds' ms'].
    destruct (views1 c (linreg_bits nb degree) linreg_row' linreg_fields (lin_inp degree) (possible_linreg nb degree) (linreg_blocks degree) one
      (lin_val nb degree) (lin_key degree) (lin_sh nb degree) last (lin_mask degree)
      (proj1 (check_linreg_wf degree Hd)) lin_gates (linreg_widths nb degree Hn Hd) lin_width (lin_form nb degree) (linreg_request_ok nb degree ltac:(lia) Hd lin_gates)
      order1 K rnd1 st0 st1 HF HK SY vs vs' ds ms ds' ms' NE G G' HR) as (SN & EP & bytes & [b st1'] & a0 & a0' & LB & FB & CV). cbn [fst] in LB, FB.
    destruct (lin_records vs ds (proj1 G)) as (E & ND & L & GD & K32). destruct (lin_records vs' ds' (proj1 G')) as (E' & ND' & L' & GD' & K32').
    fold made in SN, EP. fold made in CV. set (l := map made ds) in *. set (l' := map made ds') in *.
    destruct (rs_of_ok order1 l HF ND) as [HP EO]. destruct (rs_of_ok order1 l' HF ND') as [HP' EO'].
    destruct (linreg_tables_read nb degree l (length l) order0 order1 d0 d1 junk0 junk1 garbage0 garbage1 Hn Hd HQ GD K32 ND eq_refl D0 D1 J0 J1)
      as (deg & t0 & t1 & ED & E0 & E1 & X).
    destruct (linreg_tables_read nb degree l' (length l') order0 order1 d0 d1 junk0 junk1 garbage0 garbage1 Hn Hd HQ GD' K32' ND' eq_refl D0 D1 J0 J1)
      as (deg' & t0' & t1' & ED' & E0' & E1' & X').
    pose proof (linreg_view1 nb degree l (rs_of order1 l) order1 K (tp ms) rnd1 st0 st1 (length l) garbage0 HF ND K32 ltac:(rewrite L; exact HN) HP EO bytes a0 b st1' LB FB (fun log => proj1 (CV log))) as V.
    pose proof (linreg_view1 nb degree l' (rs_of order1 l') order1 K (tp ms') rnd1 st0 st1 (length l') garbage0 HF ND' K32' ltac:(rewrite L', LV; exact HN) HP' EO' bytes a0' b st1' LB FB (fun log => proj2 (CV log))) as V'.
    eexists (seen true l, _). split.
    - exists l, deg, t0, t1. do 4 (split; [assumption|]). split; [reflexivity|]. cbn [snd].
      rewrite (proj1 (X K _ rnd1 st0 st1)), (proj2 (X K (tp ms) rnd1 st0 st1)). eexists. apply conv_always, conv_swap. exact V.
    - exists l', deg', t0', t1'. do 4 (split; [assumption|]). split; [exact SN|]. cbn [snd].
      rewrite (proj1 (X' K _ rnd1 st0 st1)), (proj2 (X' K (tp ms') rnd1 st0 st1)). eexists. apply conv_always, conv_swap. exact V'.
  Qed.
End Linreg.

Lemma var_exact0_proof : forall nb order0 order1 junk0 junk1 K rnd0 rnd1 st0 st1 vs vs',
  let dom := gives (var_request (2 ^ Z.of_nat nb)) var_blocks (proof_draws CheckVar) in
  let view := var_sees0 nb order0 order1 junk0 junk1 K rnd0 rnd1 st0 st1 in
  (nb <= 24)%nat -> fair order1 -> by_keys order1 -> length junk0 = 48%nat -> length junk1 = 48%nat -> synced st0 st1 ->
  vs <> [] -> length vs' = length vs -> Z.of_nat (length vs) < two32 ->
  Forall (fun v => 0 <= v < 2 ^ Z.of_nat nb) vs -> Forall (fun v => 0 <= v < 2 ^ Z.of_nat nb) vs' ->
  zsum vs' mod p = zsum vs mod p -> zsum (map (fun v => v * v) vs') mod p = zsum (map (fun v => v * v) vs) mod p ->
  (exists F, pairs_off (dom vs) (dom vs') F /\ forall ds, dom vs ds -> exists v, view ds v /\ view (F ds) v) /\
  (forall v, equally_many (dom vs) (dom vs') (fun ds => view ds v)).
Proof.
  intros nb order0 order1 junk0 junk1 K rnd0 rnd1 st0 st1 vs vs' dom view Hn HF HK J0 J1 SY NE LV HN HV HV' S1 S2.
  destruct (var_pairs0 nb order0 order1 junk0 junk1 K rnd1 st0 st1 vs vs' Hn HF HK J0 J1 SY NE LV HN HV HV' rnd0 S1 S2) as (F & PO & H).
  split; [exists F; now split|]. apply (counted _ _ view F PO); [|exact H]. intros a v w. apply var_sees0_fun.
Qed.
Lemma var_exact1_proof : forall nb order0 order1 junk0 junk1 K rnd1 st0 st1 vs vs',
  let dom us (d : list client_draws * list Z) :=
    gives (var_request (2 ^ Z.of_nat nb)) var_blocks (proof_draws CheckVar) us (fst d) /\ masks (length us) [nb; (2 * nb)%nat] (snd d) in
  let view := var_sees1 nb order0 order1 junk0 junk1 K rnd1 st0 st1 in
  (nb <= 24)%nat -> fair order1 -> by_keys order1 -> length junk0 = 48%nat -> length junk1 = 48%nat -> synced st0 st1 ->
  vs <> [] -> length vs' = length vs -> Z.of_nat (length vs) < two32 ->
  Forall (fun v => 0 <= v < 2 ^ Z.of_nat nb) vs -> Forall (fun v => 0 <= v < 2 ^ Z.of_nat nb) vs' ->
  (exists F, pairs_off (dom vs) (dom vs') F /\ forall d, dom vs d -> exists v, view d v /\ view (F d) v) /\
  (forall v, equally_many (dom vs) (dom vs') (fun d => view d v)).
Proof.
  intros nb order0 order1 junk0 junk1 K rnd1 st0 st1 vs vs' dom view Hn HF HK J0 J1 SY NE LV HN HV HV'.
  destruct (var_pairs1 nb order0 order1 junk0 junk1 K rnd1 st0 st1 vs vs' Hn HF HK J0 J1 SY NE LV HN HV HV') as (F & PO & H).
  split; [exists F; now split|]. apply (counted _ _ view F PO); [|exact H]. intros a v w. apply var_sees1_fun.
Qed.
Lemma linreg_exact0_proof : forall nb degree order0 order1 d0 d1 junk0 junk1 garbage0 garbage1 K rnd0 rnd1 st0 st1 vs vs',
  let dom := gives (linreg_request degree (2 ^ Z.of_nat nb)) (linreg_blocks degree) (proof_draws (CheckLinReg degree)) in
  let view := linreg_sees0 nb degree order0 order1 d0 d1 junk0 junk1 garbage0 garbage1 K rnd0 rnd1 st0 st1 in
  let sum us j := zsum (map (fun u => nth j (linreg_fields u) 0) us) mod p in
  (nb <= 24)%nat -> (1 <= degree)%nat -> (num_quad degree + num_x degree < 2 ^ 18)%nat ->
  fair order1 -> by_keys order1 -> length d0 = 8%nat -> length d1 = 8%nat ->
  length junk0 = 32%nat -> length junk1 = 32%nat -> synced st0 st1 ->
  vs <> [] -> length vs' = length vs -> Z.of_nat (length vs) < two32 ->
  Forall (legal_linreg nb degree) vs -> Forall (legal_linreg nb degree) vs' -> (forall j, sum vs' j = sum vs j) ->
  (exists F, pairs_off (dom vs) (dom vs') F /\ forall ds, dom vs ds -> exists v, view ds v /\ view (F ds) v) /\
  (forall v, equally_many (dom vs) (dom vs') (fun ds => view ds v)).
Proof.
  intros nb degree order0 order1 d0 d1 junk0 junk1 garbage0 garbage1 K rnd0 rnd1 st0 st1 vs vs' dom view sum Hn Hd HQ HF HK D0 D1 J0 J1 SY NE LV HN HV HV' HS.
  destruct (linreg_pairs0 nb degree order0 order1 d0 d1 junk0 junk1 garbage0 garbage1 K rnd1 st0 st1 vs vs' Hn Hd HQ HF HK D0 D1 J0 J1 SY NE LV HN HV HV' rnd0 HS) as (F & PO & H).
  split; [exists F; split; [exact PO|exact H]|]. apply (counted _ _ view F PO); [|exact H]. intros a v w. apply linreg_sees0_fun.
Qed.
Lemma linreg_exact1_proof : forall nb degree order0 order1 d0 d1 junk0 junk1 garbage0 garbage1 K rnd1 st0 st1 vs vs',
  let dom us (d : list client_draws * list Z) :=
    gives (linreg_request degree (2 ^ Z.of_nat nb)) (linreg_blocks degree) (proof_draws (CheckLinReg degree)) us (fst d) /\
    masks (length us) (linreg_bits nb degree) (snd d) in
  let view := linreg_sees1 nb degree order0 order1 d0 d1 junk0 junk1 garbage0 garbage1 K rnd1 st0 st1 in
  (nb <= 24)%nat -> (1 <= degree)%nat -> (num_quad degree + num_x degree < 2 ^ 18)%nat ->
  fair order1 -> by_keys order1 -> length d0 = 8%nat -> length d1 = 8%nat ->
  length junk0 = 32%nat -> length junk1 = 32%nat -> synced st0 st1 ->
  vs <> [] -> length vs' = length vs -> Z.of_nat (length vs) < two32 ->
  Forall (legal_linreg nb degree) vs -> Forall (legal_linreg nb degree) vs' ->
  (exists F, pairs_off (dom vs) (dom vs') F /\ forall d, dom vs d -> exists v, view d v /\ view (F d) v) /\
  (forall v, equally_many (dom vs) (dom vs') (fun d => view d v)).
Proof.
  intros nb degree order0 order1 d0 d1 junk0 junk1 garbage0 garbage1 K rnd1 st0 st1 vs vs' dom view Hn Hd HQ HF HK D0 D1 J0 J1 SY NE LV HN HV HV'.
  destruct (linreg_pairs1 nb degree order0 order1 d0 d1 junk0 junk1 garbage0 garbage1 K rnd1 st0 st1 vs vs' Hn Hd HQ HF HK D0 D1 J0 J1 SY NE LV HN HV HV') as (F & PO & H).
  split; [exists F; split; [exact PO|exact H]|]. apply (counted _ _ view F PO); [|exact H]. intros a v w. apply linreg_sees1_fun.
Qed.
