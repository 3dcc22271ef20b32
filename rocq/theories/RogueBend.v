(** * Proofs about a server 1 that departs from VAR *)
From Coq Require Import ZArith Znumtheory List Bool Lia Arith Permutation.
From Verif Require Import Words WordsFacts Constants Cong Share ShareFacts SpecShare Proc ProcFacts Net NetFacts SpecNet NetMsg RelFacts
  OT OTFacts Correlated MpcFacts Poly SpecPoly FieldFacts PolyFacts FftFacts TreeFacts PolyProps
  Circuit SpecCircuit CircuitFacts Snip SpecSnip SnipFacts SnipBatch ServerOps SpecServer TableFacts ServerFacts
  SnipSums SpecStat StatReads StatProps SpecCount CountFacts CountProps SpecAccept AcceptFacts AcceptProps SpecRogueStat RogueStat.
Import ListNotations.
Open Scope Z_scope.
Arguments Z.mul : simpl never.
Arguments Z.add : simpl never.
Arguments Z.sub : simpl never.
Arguments Z.pow : simpl never.
Arguments Z.modulo : simpl never.
Opaque Int_Modulus Int_Gen init_roots.
Local Notation P := Int_Modulus.

(** ** The polynomial part of the check depends on the wires at the gates only *)
Lemma sigma_gates c (x0 x1 y0 y1 : submission) k f g h k' f' g' h' :
  polys c x0 x1 k f g h -> polys c y0 y1 k' f' g' h' -> fst x0 = fst y0 -> fst x1 = fst y1 ->
  (forall m, In m (mul_gates c) ->
     cong P (nth (fst (fst m)) (vwires c x0 x1) 0) (nth (fst (fst m)) (vwires c y0 y1) 0) /\
     cong P (nth (snd (fst m)) (vwires c x0 x1) 0) (nth (snd (fst m)) (vwires c y0 y1) 0) /\
     cong P (nth (snd m) (vwires c x0 x1) 0) (nth (snd m) (vwires c y0 y1) 0)) ->
  forall r, cong P (sigma x0 x1 f g h r) (sigma y0 y1 f' g' h' r).
Proof.
  intros (Hk & Hn & HN & Lf & Lg & Lh & Hp & _) (_ & _ & HN' & Lf' & Lg' & Lh' & Hp' & _) X0 X1 HW r.
  assert (2 ^ k = 2 ^ k')%nat by (exact (npo2_fun _ _ _ HN HN')).
  assert (k = k') by (apply Nat.pow_inj_r with (a := 2%nat); auto with arith). subst k'. clear HN' H.
  destruct (tables_lemma k Hk) as (ND1 & ND2 & L1 & _ & L2 & FF & _). cbv zeta in *.
  apply Forall_app in FF as [F1 FF]. apply Forall_app in FF as [_ F2].
  set (R := roots (init_roots (2 ^ k))) in *. set (R2 := roots2 (init_roots (2 ^ k))) in *.
  pose proof (nodup_distinct P R ND1 F1) as D1. pose proof (nodup_distinct P R2 ND2 F2) as D2.
  assert (NIn : forall (l : list Z) x n, length l = n -> In x l -> exists i, (i < n)%nat /\ x = nth i l 0).
  { intros l x n <- Hx. apply (In_nth _ _ 0) in Hx as (i & Hi & <-). eauto. }
  assert (AG : forall d phi phi' i, (forall m, In m (mul_gates c) -> cong P (phi m) (phi' m)) -> cong P (at_gate c d phi i) (at_gate c d phi' i)).
  { intros d phi phi' [|i] E; cbn; [reflexivity|]. destruct (nth_error (mul_gates c) i) eqn:Em; [apply E; eapply nth_error_In; eauto|reflexivity]. }
  rewrite <- X0, <- X1 in Hp'.
  assert (EF : forall x, cong P (peval f x) (peval f' x)).
  { apply (poly_unique P modulus_prime R); auto; try lia.
    intros x Hx. destruct (NIn _ _ _ L1 Hx) as (i & Hi & ->).
    destruct (Hp i Hi) as (-> & _), (Hp' i Hi) as (-> & _). apply AG. intros. now apply HW. }
  assert (EG : forall x, cong P (peval g x) (peval g' x)).
  { apply (poly_unique P modulus_prime R); auto; try lia.
    intros x Hx. destruct (NIn _ _ _ L1 Hx) as (i & Hi & ->).
    destruct (Hp i Hi) as (_ & -> & _), (Hp' i Hi) as (_ & -> & _). apply AG. intros. now apply HW. }
  assert (EH : forall x, cong P (peval h x) (peval h' x)).
  { apply (poly_unique P modulus_prime R2); auto; try lia.
    intros x Hx. destruct (NIn _ _ _ L2 Hx) as (i & Hi & ->).
    destruct (Nat.Even_or_Odd i) as [[j Hj]|[j Hj]]; subst i.
    - assert (Hj : (j < 2 ^ k)%nat) by lia. unfold R2. rewrite roots2_even by auto. fold R.
      destruct (Hp j Hj) as (_ & _ & -> & _), (Hp' j Hj) as (_ & _ & -> & _). apply AG. intros. now apply HW.
    - assert (Hj : (j < 2 ^ k)%nat) by lia. destruct (Hp j Hj) as (_ & _ & _ & ->), (Hp' j Hj) as (_ & _ & _ & ->).
      reflexivity. }
  unfold sigma. rewrite X0, X1, EF, EG, EH. reflexivity.
Qed.

(** ** Right packets for (v, v2), judged with another second value *)
Lemma bent_verdict r K pos v v2 t p0 p1 b : packet_ok (NumMulGates CheckVar) p0 -> packet_ok (NumMulGates CheckVar) p1 ->
  in_field P r -> well_proved CheckVar [v; v2] p0 p1 -> K (S pos) mod P <> 0 ->
  verdict CheckVar r K pos (p0, [v; t]) (p1, [0; 0]) b -> b = ((v2 - t) mod P =? 0).
Proof.
  intros O0 O1 Hr HW HK V.
  assert (HM : (NumMulGates CheckVar < 2 ^ 18)%nat) by (apply PeanoNat.Nat.ltb_lt; reflexivity).
  destruct (shaped_plain CheckVar [v; v2] p0 p1 O0 O1 eq_refl) as [Y0 Y1].
  destruct (shaped_plain CheckVar [v; t] p0 p1 O0 O1 eq_refl) as [S0 S1].
  destruct (polys_exist _ _ _ HM Y0 Y1) as (k' & f' & g' & h' & HP').
  destruct (polys_exist _ _ _ HM S0 S1) as (k & f & g & h & HP). cbn [map] in *.
  pose proof (proj2 (right_iff CheckVar [v; v2] p0 p1 (proj1 check_var_wf) O0 O1 eq_refl k' f' g' h' HP') HW) as HR.
  cbn [map] in HR. destruct O0 as (M0 & _), O1 as (M1 & _). change (NumMulGates CheckVar) with 1%nat in M0, M1.
  destruct (MulShares p0) as [|a0 [|? ?]] eqn:E0; try discriminate. destruct (MulShares p1) as [|a1 [|? ?]] eqn:E1; try discriminate.
  assert (W : forall u, vwires CheckVar (p0, [v; u]) (p1, [0; 0]) =
    [v + 0; u + 0; a0 + a1; ((u + 0) * (-1 mod P)) mod P; (a0 + a1 + ((u + 0) * (-1 mod P)) mod P) mod P]).
  { intros u. unfold vwires. cbn [fst snd]. rewrite E0, E1. reflexivity. }
  assert (N : forall u, cong P (nth 4 (vwires CheckVar (p0, [v; u]) (p1, [0; 0])) 0) (a0 + a1 - u)).
  { intros u. rewrite W. cbn [nth]. demod. ring_simplify (u + 0). apply cong_eq. ring. }
  assert (SG : cong P (sigma (p0, [v; t]) (p1, [0; 0]) f g h r) 0).
  { rewrite (sigma_gates CheckVar _ _ (p0, [v; v2]) (p1, [0; 0]) k f g h k' f' g' h' HP HP' eq_refl eq_refl).
    - pose proof (right_entries CheckVar _ _ f' g' h' r HR) as RE. exact (Forall_inv RE).
    - intros m Hm. change (mul_gates CheckVar) with [(2%nat, 0%nat, 0%nat)] in Hm. destruct Hm as [<-|[]]. rewrite !W. cbn [fst snd nth]. repeat split; reflexivity. }
  destruct HR as [HZ _]. change (result_zero CheckVar) with [4%nat] in HZ. apply Forall_inv in HZ. rewrite N in HZ.
  destruct HP as (Hk & Hn & HN & _ & _ & _ & _ & HG). destruct (HG r Hr) as (ck0 & ck1 & G).
  pose proof (good_verdict CheckVar k r K pos _ Hk HN G) as V'. cbn [jx0 jx1 jent] in V'.
  rewrite (verdict_unique _ _ _ _ _ _ _ _ Hr V V').
  change (result_zero CheckVar) with [4%nat]. cbn [map dotK]. 
  assert (E : cong P (K pos * sigma (p0, [v; t]) (p1, [0; 0]) f g h r +
     (K (S pos) * nth 4 (vwires CheckVar (p0, [v; t]) (p1, [0; 0])) 0 + 0)) (K (S pos) * (v2 - t))).
  { rewrite SG, N. assert (X : cong P (a0 + a1 - t) (v2 - t)).
    { transitivity ((a0 + a1 - v2) + (v2 - t)); [apply cong_eq; ring|]. rewrite HZ. apply cong_eq. ring. }
    rewrite X. apply cong_eq. ring. }
  apply cong_iff in E. rewrite E. clear -HK.
  destruct (Z.eqb_spec ((v2 - t) mod P) 0) as [D|D].
  - apply Z.eqb_eq. rewrite Zmult_mod, D, Z.mul_0_r. reflexivity.
  - apply Z.eqb_neq. intros F. apply Z.mod_divide in F; [|pose proof p_pos; lia].
    apply (prime_mult P modulus_prime) in F as [F|F]; apply Z.mod_divide in F; auto; pose proof p_pos; lia.
Qed.

(** ** After the conversion: server 1 keeps what server 0 says of each submission *)
Lemma bent_tail K c n kn l0 (l1 : list (list Z * ClientPacket)) st0 st1 sh0 sh1 rows :
  (NumMulGates c < 2 ^ 18)%nat -> synced st0 st1 -> n = NumInputs c ->
  length l0 = length l1 -> length kn = length l1 -> l1 <> [] ->
  Forall (fun e => length (MulShares (snd e)) = NumMulGates c /\
     NextPowerOfTwo (Z.of_nat (NumMulGates c)) = Some (Z.of_nat (length (h_points (snd e))))) (l0 ++ l1) ->
  length sh0 = length l1 -> length sh1 = length l1 ->
  Forall (fun r => length r = n) sh0 -> Forall (fun r => length r = n) sh1 ->
  map2 (map2 (fun a b => (a + b) mod P)) sh0 sh1 = rows ->
  let w := S (length (result_zero c)) in
  rel (sv <- validate_snips false K st0 (map2 (fun e row => (c, snd e, row)) l0 sh0) ;;
       let valid := map2 andb kn (fst sv) in
       send_bool_batch valid ;;;
       Ret (count valid, accumulate n sh0 valid, snd sv))
      (sv <- validate_snips true K st1 (map2 (fun e row => (c, snd e, row)) l1 sh1) ;;
       valid <- recv_bool_batch (length l1) ;;
       Ret (accumulate n sh1 (map2 andb valid (fst sv)), valid))
    (fun a b => exists vs, length vs = length l1 /\
      (forall i (e0 e1 : list Z * ClientPacket) row, nth_error l0 i = Some e0 -> nth_error l1 i = Some e1 -> nth_error rows i = Some row ->
         verdict c (randomX st0) K (seed_pos st0 + i * w) (snd e0, row) (snd e1, repeat 0 n) (nth i vs false)) /\
      fst (fst a) = count (map2 andb kn vs) /\ snd b = map2 andb kn vs /\
      length (snd (fst a)) = n /\ length (fst b) = n /\ Forall (in_field P) (fst b) /\
      (forall j, (j < n)%nat ->
         (nth j (fst b) 0 + nth j (snd (fst a)) 0) mod P = col_sum j rows (map2 andb kn vs) mod P)).
Proof.
  intros HM SY HI L LK NE RO LS0 LS1 F0 F1 ES w. apply Forall_app in RO as [R0 R1].
  rewrite !items_map2 by congruence.
  set (xs0 := map2 (fun (e : list Z * ClientPacket) row => (snd e, row)) l0 sh0).
  set (xs1 := map2 (fun (e : list Z * ClientPacket) row => (snd e, row)) l1 sh1).
  assert (LX0 : length xs0 = length l1) by (unfold xs0; rewrite map2_length; lia).
  assert (LX1 : length xs1 = length l1) by (unfold xs1; rewrite map2_length; lia).
  assert (SH : forall l sh, Forall (fun e : list Z * ClientPacket => length (MulShares (snd e)) = NumMulGates c /\
     NextPowerOfTwo (Z.of_nat (NumMulGates c)) = Some (Z.of_nat (length (h_points (snd e))))) l ->
     Forall (fun r => length r = n) sh -> Forall (shaped c) (map2 (fun (e : list Z * ClientPacket) row => (snd e, row)) l sh)).
  { clear -HI. intros l sh F. revert sh. induction F as [|e l [A B] F IH]; intros [|r sh] G; cbn [map2]; try constructor.
    - inversion G; subst. repeat split; cbn [fst snd]; auto.
    - inversion G; subst. apply IH; auto. }
  assert (SH0 : Forall (shaped c) xs0) by (apply SH; auto).
  assert (SH1 : Forall (shaped c) xs1) by (apply SH; auto). clear SH.
  set (d := (mkPacket [] 0 0 0 [] (mkBTS 0 0 0), []) : submission).
  eapply rel_bind.
  { assert (NX : xs0 <> []) by (intros E; rewrite E in LX0; destruct l1; [easy|discriminate]).
    assert (LL : length xs0 = length xs1) by congruence.
    exact (batch_verdicts c K st0 st1 xs0 xs1 d d HM SY NX LL SH0 SH1). }
  cbv beta zeta. intros sv0 sv1 (EV & LV & _ & _ & _ & _ & HV). fold w in HV.
  set (vs := fst sv0) in *.
  assert (LV' : length vs = length l1) by (rewrite <- LX0; exact LV).
  assert (HV' : forall i, (i < length l1)%nat ->
    verdict c (randomX st0) K (seed_pos st0 + i * w) (nth i xs0 d) (nth i xs1 d) (nth i vs false))
    by (rewrite <- LX0; exact HV). clear LV HV.
  assert (LA : length (map2 andb kn vs) = length l1) by (rewrite map2_length, LK, LV'; apply Nat.min_id).
  eapply rel_deliver.
  { rewrite <- LA. apply delivers_bool_batch. }
  apply rel_ret. cbn [fst snd]. exists vs. rewrite <- EV. fold vs.
  rewrite andb_again.
  destruct (accumulate_spec n sh0 (map2 andb kn vs)) as (A1 & A2 & A3).
  destruct (accumulate_spec n sh1 (map2 andb kn vs)) as (C1 & C2 & C3).
  split; [exact LV'|]. split.
  { intros i e0 e1 row E0 E1 ER0.
    assert (Hi : (i < length l1)%nat) by (apply nth_error_Some; congruence).
    assert (X0 : nth_error sh0 i <> None) by (apply nth_error_Some; lia).
    assert (X1 : nth_error sh1 i <> None) by (apply nth_error_Some; lia).
    destruct (nth_error sh0 i) as [s0|] eqn:N0; [clear X0|easy].
    destruct (nth_error sh1 i) as [s1|] eqn:N1; [clear X1|easy].
    specialize (HV' i Hi). unfold xs0, xs1 in HV'.
    rewrite (nth_error_nth _ _ _ (nth_error_map2 _ _ _ _ _ _ E0 N0)) in HV'.
    rewrite (nth_error_nth _ _ _ (nth_error_map2 _ _ _ _ _ _ E1 N1)) in HV'.
    pose proof (nth_error_In _ _ E0) as I0. pose proof (nth_error_In _ _ E1) as I1.
    pose proof (nth_error_In _ _ N0) as J0. pose proof (nth_error_In _ _ N1) as J1.
    rewrite Forall_forall in R0, R1, F0, F1.
    destruct (R0 e0 I0) as (a3 & a4). destruct (R1 e1 I1) as (b3 & b4).
    pose proof (F0 s0 J0) as c0. pose proof (F1 s1 J1) as c1. cbv beta in c0, c1.
    assert (ER : map2 (fun a b => (a + b) mod P) s0 s1 = row).
    { assert (nth_error (map2 (map2 (fun a b => (a + b) mod P)) sh0 sh1) i = Some (map2 (fun a b => (a + b) mod P) s0 s1))
        by (apply nth_error_map2; auto). congruence. }
    assert (LO : length row = n) by (rewrite <- ER, map2_length, c0, c1; apply Nat.min_id).
    destruct SY as ((HF & _) & _).
    apply (verdict_reshare c (snd e0) (snd e1) row s0 s1); auto.
    - repeat split; cbn [fst snd]; auto. congruence.
    - repeat split; cbn [fst snd]; auto. congruence.
    - split; [congruence|]. split; [congruence|]. intros j Hj. rewrite <- ER.
      rewrite nth_map2' by lia. now rewrite Zmod_mod.
    - split; auto. split; [now rewrite repeat_length|]. intros j Hj. now rewrite nth_repeat, Z.add_0_r. }
  split; [reflexivity|]. split; [reflexivity|]. split; auto. split; auto. split; auto.
  intros j Hj. rewrite A3, C3 by auto. rewrite <- Zplus_mod. rewrite <- ES.
  apply cong_iff. apply (col_sum_add j sh0 sh1 _ n); auto; congruence.
Qed.

(** ** The turned bit *)
Lemma turned_sum x j : 0 <= x -> turned j x - 2 ^ Z.of_nat j = x - (if Z.testbit x (Z.of_nat j) then 2 ^ Z.of_nat (S j) else 0).
Proof.
  intros Hx. unfold turned.
  assert (E2 : 2 ^ Z.of_nat (S j) = 2 * 2 ^ Z.of_nat j) by (rewrite Nat2Z.inj_succ, Z.pow_succ_r by lia; reflexivity).
  destruct (Z.testbit x (Z.of_nat j)) eqn:T.
  - assert (L : Z.lxor x (2 ^ Z.of_nat j) + 2 ^ Z.of_nat j = x).
    { rewrite Z.add_nocarry_lxor.
      - now rewrite Z.lxor_assoc, Z.lxor_nilpotent, Z.lxor_0_r.
      - apply Z.bits_inj'. intros i Hi. rewrite Z.land_spec, Z.lxor_spec, Z.bits_0, Z.pow2_bits_eqb by lia.
        destruct (Z.eqb_spec (Z.of_nat j) i) as [<-|]; [now rewrite T|apply andb_false_r]. }
    lia.
  - assert (L : Z.lxor x (2 ^ Z.of_nat j) = x + 2 ^ Z.of_nat j).
    { symmetry. apply Z.add_nocarry_lxor. apply Z.bits_inj'. intros i Hi. rewrite Z.land_spec, Z.bits_0, Z.pow2_bits_eqb by lia.
      destruct (Z.eqb_spec (Z.of_nat j) i) as [<-|]; [now rewrite T|apply andb_false_r]. }
    lia.
Qed.
Transparent Int_Modulus.
Lemma power_not_zero i : (i <= 48)%nat -> (2 ^ Z.of_nat i) mod P <> 0.
Proof.
  intros H. assert (A : forallb (fun i => negb ((2 ^ Z.of_nat i) mod P =? 0)) (seq 0 49) = true) by (vm_compute; reflexivity).
  rewrite forallb_forall in A. specialize (A i ltac:(apply in_seq; lia)). apply negb_true_iff, Z.eqb_neq in A. exact A.
Qed.
Opaque Int_Modulus.

Definition bend (j : nat) (want : list Z -> bool) (e : list Z * (Z * Z * ClientPacket)) : list Z :=
  [fst (fst (snd e)); if want (fst e) then turned j (snd (fst (snd e))) else snd (fst (snd e))].

Lemma small_power nb j : (j < 2 * nb)%nat -> 0 <= 2 ^ Z.of_nat j < 2 ^ Z.of_nat (2 * nb).
Proof. intros H. split; [apply Z.pow_nonneg; lia|apply Z.pow_lt_mono_r; lia]. Qed.
Lemma small_field nb x : (nb <= 24)%nat -> 0 <= x < 2 ^ Z.of_nat nb -> x mod P = x.
Proof.
  intros Hn HL. apply Z.mod_small.
  split; [apply HL|]. eapply Z.lt_le_trans; [apply HL|]. transitivity (2 ^ 24); [apply Z.pow_le_mono_r; lia|].
  Transparent Int_Modulus. vm_compute. discriminate.
Qed.
Opaque Int_Modulus.

Lemma small_limbs nb x : (nb <= 24)%nat -> 0 <= x < 2 ^ Z.of_nat (2 * nb) -> limbs_ok x.
Proof.
  intros Hn HL. unfold limbs_ok. split; [apply HL|]. eapply Z.lt_trans; [apply HL|].
  replace two64 with (2 ^ 64) by reflexivity. apply Z.pow_lt_mono_r; lia.
Qed.

Lemma row_bent nb j (w : bool) s0 s1 a a2 b b2 : (nb <= 24)%nat -> (j < 2 * nb)%nat ->
  0 <= a < 2 ^ Z.of_nat nb -> 0 <= b < 2 ^ Z.of_nat nb ->
  0 <= a2 < 2 ^ Z.of_nat (2 * nb) -> 0 <= b2 < 2 ^ Z.of_nat (2 * nb) ->
  length s0 = 2%nat -> length s1 = 2%nat ->
  map2 (fun x y => (x + y) mod P) s0 s1 = map3 (col_spec P) [nb; 2 * nb]%nat [a; a2] [b; if w then turned j b2 else b2] ->
  map2 (fun x y => (x + y) mod P) s0 (if w then taken j s1 else s1)
  = [Z.lxor a b; (Z.lxor a2 b2 - (if w && Z.testbit (Z.lxor a2 b2) (Z.of_nat j) then 2 ^ Z.of_nat (S j) else 0)) mod P].
Proof.
  intros Hn Hj Ha Hb Ha2 Hb2 L0 L1 E.
  destruct s0 as [|x [|y [|? ?]]]; try discriminate. destruct s1 as [|x' [|y' [|? ?]]]; try discriminate. clear L0 L1.
  cbn [map2 map3] in E. unfold col_spec in E. change (ot_modulus P) with P in E.
  assert (E1 : (x + x') mod P = Z.lxor a b).
  { transitivity ((Z.lxor a b mod 2 ^ Z.of_nat nb) mod P); [congruence|].
    pose proof (lxor_lt _ _ _ Ha Hb) as HL. rewrite (Z.mod_small _ (2 ^ Z.of_nat nb)) by exact HL. now apply (small_field nb). }
  assert (E2 : (y + y') mod P = Z.lxor a2 (if w then turned j b2 else b2) mod P).
  { transitivity ((Z.lxor a2 (if w then turned j b2 else b2) mod 2 ^ Z.of_nat (2 * nb)) mod P); [congruence|].
    f_equal. apply Z.mod_small. apply lxor_lt; auto. destruct w; auto. unfold turned. apply lxor_lt; auto.
    now apply small_power. }
  clear E. destruct w; unfold taken; cbn [map2 nth andb]; (apply f_equal2; [exact E1|apply (f_equal (fun z => [z]))]).
  - pose proof (lxor_lt _ _ _ Ha2 Hb2) as HL.
    pose proof (turned_sum (Z.lxor a2 b2) j ltac:(apply HL)) as TS. unfold turned in *. rewrite <- TS.
    rewrite <- Z.lxor_assoc in E2. clear -E2. rewrite Zplus_mod_idemp_r.
    rewrite Z.add_sub_assoc, Zminus_mod, E2, <- Zminus_mod. reflexivity.
  - now rewrite Z.sub_0_r.
Qed.

Lemma col_sum_cong i : forall rows rows' valid, length rows = length rows' ->
  (forall k r r', nth_error rows k = Some r -> nth_error rows' k = Some r' -> nth_error valid k = Some true ->
     cong P (nth i r 0) (nth i r' 0)) ->
  cong P (col_sum i rows valid) (col_sum i rows' valid).
Proof.
  induction rows as [|r rows IH]; intros [|r' rows'] [|v valid] L H; try discriminate; try reflexivity.
  unfold col_sum in *. cbn [map2]. unfold zsum in *. cbn [fold_right].
  rewrite (IH rows' valid); [|cbn in L; lia|intros k; exact (H (S k))].
  destruct v; [|reflexivity]. now rewrite (H 0%nat r r' eq_refl eq_refl eq_refl).
Qed.

Lemma map2_map_r {A B C D} (f : A -> C -> D) (g : A -> B) (h : B -> C -> D) : forall l r,
  (forall a c, f a c = h (g a) c) -> map2 f l r = map2 h (map g l) r.
Proof. intros l r E. revert r. induction l as [|a l IH]; intros [|c r]; cbn; auto. now rewrite E, IH. Qed.

Lemma bent_tables nb j want order m0 m1 L K rnd0 rnd1 st0 st1 :
  (nb <= 24)%nat -> (j < 2 * nb)%nat -> fair order -> keys_ok m1 -> both_in m0 m1 L -> m1 <> [] -> synced st0 st1 ->
  Forall (fun e => narrow CheckVar (var_nbs nb) var_row snd (snd e)) m0 ->
  Forall (fun e => narrow CheckVar (var_nbs nb) var_row snd (snd e)) m1 ->
  (forall n, (seed_pos st0 <= n < seed_pos st0 + 2 * length m1)%nat -> K n mod P <> 0) ->
  (forall pk v v', find pk m0 = Some v -> find pk m1 = Some v' ->
     packet_ok (NumMulGates CheckVar) (snd v) /\ packet_ok (NumMulGates CheckVar) (snd v') /\
     well_proved CheckVar (map2 Z.lxor (var_row v) (var_row v')) (snd v) (snd v')) ->
  let l := order _ m1 in
  let ks := map fst l in
  let found := map (fun pk => find pk m0) ks in
  rel (snip_sums0 K rnd0 CheckVar (var_nbs nb) (map is_some found)
         (map2 (fun f (i : nat) => match f with Some v => (var_row v, snd v)
                | None => ([0; 0], mock_packet (NumMulGates CheckVar)) end) found (seq 0 (length found))) st0)
      (bent_sums K rnd1 j nb want l st1)
    (fun a b => exists vs, length vs = length l /\
       (forall pk v v', find pk m0 = Some v -> find pk m1 = Some v' ->
          verdict_of ks vs pk = negb (want pk && Z.testbit (Z.lxor (snd (fst v)) (snd (fst v'))) (Z.of_nat j))) /\
       snd b = map2 andb (map is_some found) vs /\
       fst (fst a) = length (filter (verdict_of ks vs) L) /\
       length (snd (fst a)) = 2%nat /\ length (fst b) = 2%nat /\ Forall (in_field P) (fst b) /\
       (forall i, (i < 2)%nat ->
          (nth i (fst b) 0 + nth i (snd (fst a)) 0) mod P
          = zsum (map (fun pk => nth i (at_both (fun a b => map2 Z.lxor (var_row a) (var_row b)) [] m0 m1 pk) 0)
                      (filter (verdict_of ks vs) L)) mod P)).
Proof.
  intros Hn Hj HF HK HL NE SY N0 N1 HKn HWP l ks found. destruct HK as [HN HK].
  assert (LL : length l = length m1) by (apply fair_length; auto).
  assert (FL : Forall (fun e => narrow CheckVar (var_nbs nb) var_row snd (snd e)) l) by (apply fair_forall; auto).
  assert (LFd : length found = length l) by (unfold found, ks; now rewrite !map_length).
  assert (NK : NoDup ks) by (apply ks_nodup; auto).
  set (l0 := map2 (fun f (i : nat) => match f with Some v => (var_row v, snd v)
                | None => ([0; 0], mock_packet (NumMulGates CheckVar)) end) found (seq 0 (length found))).
  assert (LL0 : length l0 = length l) by (unfold l0; rewrite map2_length, seq_length, LFd; lia).
  assert (R0 : Forall (row_ok CheckVar (var_nbs nb)) l0).
  { apply Forall_forall. intros e He. unfold l0 in He. apply (In_nth_error) in He as (i & He).
    assert (Hi : (i < length found)%nat).
    { assert (i < length l0)%nat by (apply nth_error_Some; unfold l0; congruence). lia. }
    destruct (nth_error found i) as [f|] eqn:Ef; [|apply nth_error_None in Ef; lia].
    rewrite (nth_error_map2 _ _ _ _ f i Ef) in He by (rewrite nth_error_nth' with (d := 0%nat) by (rewrite seq_length; lia); now rewrite seq_nth).
    injection He as <-. destruct f as [v|].
    - apply nth_error_In in Ef. unfold found in Ef. apply in_map_iff in Ef as (pk & Ef & _). apply find_in in Ef.
      rewrite Forall_forall in N0. apply (N0 _ Ef).
    - apply (mock_ok CheckVar (var_nbs nb) 2); [reflexivity|lia|reflexivity|]. repeat constructor; unfold limbs_ok, two64; lia. }
  unfold snip_sums0, bent_sums, share_convert. change p with P.
  rewrite (map_ext (fun e : list Z * (Z * Z * ClientPacket) => let '(v, v2, _) := snd e in [v; if want (fst e) then turned j v2 else v2])
     (bend j want)) by (intros [k [[v v2] pkt]]; reflexivity).
  assert (HW : Forall (width_ok P) (var_nbs nb)) by (constructor; [apply width_small; lia|constructor; [apply width_small; lia|constructor]]).
  assert (NB : forall e, In e l -> 0 <= fst (fst (snd e)) < 2 ^ Z.of_nat nb /\ 0 <= snd (fst (snd e)) < 2 ^ Z.of_nat (2 * nb)).
  { intros e He. rewrite Forall_forall in FL. destruct (FL e He) as [_ F]. unfold var_row, var_nbs in F.
    inversion F as [|? ? ? ? Q1 F']; subst. inversion F' as [|? ? ? ? Q2 _]; subst. auto. }
  assert (LT : forall x, 0 <= x < 2 ^ Z.of_nat (2 * nb) -> limbs_ok x).
  { intros x Hx. now apply (small_limbs nb). }
  assert (MO : mod_ok P) by (right; vm_compute; split; reflexivity).
  eapply rel_bind.
  { apply (b2a_ot_rel rnd0 rnd1 (var_nbs nb) (map fst l0) (map (bend j want) l) P MO HW).
    - rewrite !map_length. exact LL0.
    - apply Forall_map. eapply Forall_impl; [|exact R0]. intros e He. apply He.
    - apply Forall_map, Forall_forall. intros e _. reflexivity.
    - apply Forall_map. eapply Forall_impl; [|exact R0]. intros e He. apply He.
    - apply Forall_map, Forall_forall. intros e He. destruct (NB e He) as [A B]. unfold bend. constructor; [|constructor; [|constructor]].
      + apply LT. split; [apply A|]. eapply Z.lt_le_trans; [apply A|apply Z.pow_le_mono_r; lia].
      + apply LT. destruct (want (fst e)); auto. unfold turned. apply lxor_lt; auto.
        now apply small_power. }
  cbv beta. intros sh0 sh1 (LS0 & LS1 & F0 & F1 & _ & _ & ES). rewrite map_length in LS0, LS1.
  change (ot_modulus P) with P in ES. cbv zeta.
  set (sh1' := map2 (fun (e : list Z * (Z * Z * ClientPacket)) row => if want (fst e) then taken j row else row) l sh1).
  rewrite (map2_map_r (fun (e : list Z * (Z * Z * ClientPacket)) row => (CheckVar, snd (snd e), row))
    (fun e => (var_row (snd e), snd (snd e))) (fun e row => (CheckVar, snd e, row)) l sh1') by reflexivity.
  set (l1 := map (fun e : list Z * (Z * Z * ClientPacket) => (var_row (snd e), snd (snd e))) l).
  assert (LL1 : length l1 = length l) by (unfold l1; now rewrite map_length).
  rewrite <- LL1.
  set (rows := map2 (map2 (fun a b => (a + b) mod P)) sh0 sh1').
  assert (LS1' : length sh1' = length l) by (unfold sh1'; rewrite map2_length; lia).
  assert (AT : forall i pk v v', nth_error l i = Some (pk, v') -> find pk m0 = Some v ->
    nth_error l0 i = Some (var_row v, snd v) /\ nth_error l1 i = Some (var_row v', snd v') /\
    nth_error rows i = Some [Z.lxor (fst (fst v)) (fst (fst v'));
      (Z.lxor (snd (fst v)) (snd (fst v')) - (if want pk && Z.testbit (Z.lxor (snd (fst v)) (snd (fst v'))) (Z.of_nat j)
         then 2 ^ Z.of_nat (S j) else 0)) mod P]).
  { intros i pk v v' El Ev.
    assert (Hi : (i < length l)%nat) by (apply nth_error_Some; congruence).
    assert (E0 : nth_error l0 i = Some (var_row v, snd v)).
    { unfold l0. erewrite nth_error_map2 with (x := Some v) (y := i); [reflexivity| |].
      - unfold found, ks. rewrite map_map. rewrite (map_nth_error _ _ _ El). cbn [fst]. now rewrite Ev.
      - rewrite nth_error_nth' with (d := 0%nat) by (rewrite seq_length; lia). now rewrite seq_nth by lia. }
    split; [exact E0|]. split; [unfold l1; now rewrite (map_nth_error _ _ _ El)|].
    destruct (nth_error sh0 i) as [s0|] eqn:N0'; [|apply nth_error_None in N0'; lia].
    destruct (nth_error sh1 i) as [s1|] eqn:N1'; [|apply nth_error_None in N1'; lia].
    rewrite Forall_forall in N0. pose proof (N0 _ (find_in _ _ _ Ev)) as [_ A0]. cbn [snd] in A0. unfold var_row, var_nbs in A0.
    inversion A0 as [|? ? ? ? Q1 A0']; subst. inversion A0' as [|? ? ? ? Q2 _]; subst.
    destruct (NB (pk, v') (nth_error_In _ _ El)) as [B1 B2]. cbn [snd] in B1, B2.
    rewrite Forall_forall in F0, F1.
    pose proof (F0 s0 (nth_error_In _ _ N0')) as c0. pose proof (F1 s1 (nth_error_In _ _ N1')) as c1.
    assert (ER : map2 (fun x y => (x + y) mod P) s0 s1
      = map3 (col_spec P) (var_nbs nb) (var_row v) (bend j want (pk, v'))).
    { assert (Q : nth_error (map2 (map2 (fun a b => (a + b) mod P)) sh0 sh1) i = Some (map2 (fun a b => (a + b) mod P) s0 s1))
        by (apply nth_error_map2; auto).
      rewrite ES in Q. erewrite nth_error_map2 in Q; [|rewrite (map_nth_error _ _ _ E0); reflexivity|rewrite (map_nth_error _ _ _ El); reflexivity].
      cbn [fst] in Q. congruence. }
    unfold rows. erewrite nth_error_map2; [|exact N0'|unfold sh1'; apply nth_error_map2; [exact El|exact N1']].
    apply f_equal. cbn [fst]. apply (row_bent nb); auto. }
  assert (NE1 : l1 <> []) by (intros E; apply (f_equal (@length _)) in E; rewrite LL1, LL in E; clear -E NE; destruct m1; [contradiction|discriminate]).
  assert (LKn : length (map is_some found) = length l1) by (rewrite map_length; lia).
  assert (PK : Forall (fun e : list Z * ClientPacket => length (MulShares (snd e)) = NumMulGates CheckVar /\
     NextPowerOfTwo (Z.of_nat (NumMulGates CheckVar)) = Some (Z.of_nat (length (h_points (snd e))))) (l0 ++ l1)).
  { apply Forall_app. split.
    - eapply Forall_impl; [|exact R0]. intros e He. split; apply He.
    - apply Forall_map. eapply Forall_impl; [|exact FL]. intros e [He _]. split; apply He. }
  assert (F1' : Forall (fun r => length r = 2%nat) sh1').
  { apply Forall_forall. intros r Hr. apply In_nth_error in Hr as (i & Hr).
    assert (Hi : (i < length l)%nat) by (rewrite <- LS1'; apply nth_error_Some; congruence).
    destruct (nth_error l i) as [e|] eqn:El; [|apply nth_error_None in El; lia].
    destruct (nth_error sh1 i) as [s1|] eqn:N1'; [|apply nth_error_None in N1'; lia].
    unfold sh1' in Hr. rewrite (nth_error_map2 _ _ _ _ _ _ El N1') in Hr. injection Hr as <-.
    destruct (want (fst e)); [reflexivity|]. rewrite Forall_forall in F1. apply (F1 s1). eapply nth_error_In; eauto. }
  eapply rel_imp.
  { apply (bent_tail K CheckVar 2 (map is_some found) l0 l1 st0 st1 sh0 sh1' rows); auto; try lia.
    apply PeanoNat.Nat.ltb_lt; reflexivity. }
  cbv beta. intros a b (vs & LV & HV & HC & HB & La & Lb & Fb & HS). rewrite LL1 in LV.
  assert (Hr : in_field P (randomX st0)) by (destruct SY as ((HF' & _) & _); exact HF').
  assert (VD : forall pk v v', find pk m0 = Some v -> find pk m1 = Some v' ->
          verdict_of ks vs pk = negb (want pk && Z.testbit (Z.lxor (snd (fst v)) (snd (fst v'))) (Z.of_nat j))).
  { intros pk v v' E0 E1.
    assert (IL : In (pk, v') l) by (eapply Permutation_in; [symmetry; apply HF|apply find_in; exact E1]).
    assert (I : In pk ks) by (apply (in_map fst) in IL; exact IL).
    pose proof (index_in ks pk I) as EI.
    assert (EL : nth_error l (index_of pk ks) = Some (pk, v')).
    { unfold ks in EI at 1. rewrite nth_error_map in EI. destruct (nth_error l (index_of pk ks)) as [[k v'']|] eqn:E; [|discriminate].
      cbn in EI. injection EI as ->. apply nth_error_In in E. apply (l_find order m1 HF HN) in E. cbn in E. congruence. }
    destruct (AT _ _ _ _ EL E0) as (X0 & X1 & X2).
    specialize (HV _ _ _ _ X0 X1 X2). cbn [snd] in HV. destruct (HWP _ _ _ E0 E1) as (O0 & O1 & WP).
    assert (HKi : K (S (seed_pos st0 + index_of pk ks * S (length (result_zero CheckVar)))) mod P <> 0).
    { apply HKn. change (length (result_zero CheckVar)) with 1%nat.
      assert (IB : (index_of pk ks < length l)%nat) by (apply nth_error_Some; congruence).
      clear -IB LL. rewrite LL in IB. lia. }
    unfold verdict_of. rewrite (bent_verdict _ _ _ _ _ _ _ _ _ O0 O1 Hr WP HKi HV).
    set (sq := Z.lxor (snd (fst v)) (snd (fst v'))). rewrite Zminus_mod_idemp_r.
    replace (sq - (sq - (if want pk && Z.testbit sq (Z.of_nat j) then 2 ^ Z.of_nat (S j) else 0)))
      with (if want pk && Z.testbit sq (Z.of_nat j) then 2 ^ Z.of_nat (S j) else 0) by lia.
    destruct (want pk && Z.testbit sq (Z.of_nat j)); [|reflexivity].
    apply Z.eqb_neq, power_not_zero. clear -Hj Hn. lia. }
  exists vs. split; [now rewrite LL1|]. split; [exact VD|]. split; [exact HB|]. split.
  { rewrite HC. apply (count_ok order m0 m1 L HF HN HL vs LV). }
  split; auto. split; auto. split; auto.
  intros i Hi. rewrite (HS i Hi).
  pose proof (col_ok order m0 m1 L HF HN HL (var_nbs nb) var_row (fun _ => [0; 0]) i vs LV) as CO.
  fold l in CO. fold ks in CO. fold found in CO.
  transitivity (zsum (map (fun pk => nth i (at_both (fun a b => opened_row (var_nbs nb) (var_row a) (var_row b)) [] m0 m1 pk) 0)
                (filter (verdict_of ks vs) L)) mod P).
  - rewrite <- CO. apply cong_iff. apply col_sum_cong.
    + unfold rows. rewrite !map2_length, !map_length, seq_length.
      unfold ks. rewrite !map_length. clear -LFd LL0 LS0 LS1'. lia.
    + intros k r r' Er Er' Ev.
      assert (Hk : (k < length l)%nat).
      { assert (k < length rows)%nat by (apply nth_error_Some; congruence). unfold rows in H. rewrite map2_length in H. lia. }
      destruct (nth_error l k) as [[pk v']|] eqn:El; [|apply nth_error_None in El; lia].
      assert (Ek : nth_error ks k = Some pk) by (unfold ks; now rewrite (map_nth_error _ _ _ El)).
      assert (Ef : nth_error found k = Some (find pk m0)) by (unfold found; now rewrite (map_nth_error _ _ _ Ek)).
      destruct (nth_error vs k) as [vk|] eqn:Evk; [|apply nth_error_None in Evk; clear -Evk LV Hk; lia].
      rewrite (nth_error_map2 _ _ _ _ (is_some (find pk m0)) vk) in Ev; [|now rewrite (map_nth_error _ _ _ Ef)|exact Evk].
      injection Ev as Ev. apply andb_prop in Ev as [Eo ->].
      destruct (find pk m0) as [v|] eqn:E0; [|discriminate].
      assert (E1 : find pk m1 = Some v') by (apply nth_error_In in El; apply (l_find order m1 HF HN) in El; exact El).
      destruct (AT _ _ _ _ El E0) as (_ & _ & X2). rewrite Er in X2. injection X2 as ->.
      assert (VK : verdict_of ks vs pk = true).
      { unfold verdict_of. rewrite (index_nth ks NK k pk Ek). eapply nth_error_nth; eauto. }
      rewrite (VD pk v v' E0 E1) in VK. apply negb_true_iff in VK. rewrite VK, Z.sub_0_r.
      erewrite nth_error_map2 in Er'.
      2:{ erewrite nth_error_map2 with (x := Some v) (y := k); [reflexivity|exact Ef|].
          rewrite nth_error_nth' with (d := 0%nat) by (rewrite seq_length; unfold ks; rewrite map_length; lia).
          rewrite seq_nth; auto. unfold ks; rewrite map_length; lia. }
      2:{ rewrite (map_nth_error _ _ _ El). reflexivity. }
      injection Er' as <-. cbn [snd]. rewrite Forall_forall in N0, N1.
      rewrite (opened_narrow CheckVar (var_nbs nb) var_row snd) by (first [exact (N0 _ (find_in _ _ _ E0))|exact (N1 _ (find_in _ _ _ E1))]).
      unfold var_row. cbn [map2 map]. destruct i as [|[|i]]; [| |lia]; cbn [nth]; demod; reflexivity.
  - rewrite Forall_forall in N0, N1. apply cong_iff.
    assert (forall pk, cong P (nth i (at_both (fun a b => opened_row (var_nbs nb) (var_row a) (var_row b)) [] m0 m1 pk) 0)
       (nth i (at_both (fun a b => map2 Z.lxor (var_row a) (var_row b)) [] m0 m1 pk) 0)) as HCc.
    { intros pk. unfold at_both. destruct (find pk m0) eqn:E0; [|reflexivity]. destruct (find pk m1) eqn:E1; [|reflexivity].
      rewrite (opened_narrow CheckVar (var_nbs nb) var_row snd) by (first [exact (N0 _ (find_in _ _ _ E0))|exact (N1 _ (find_in _ _ _ E1))]).
      unfold var_row. cbn [map2 map]. destruct i as [|[|i]]; [| |lia]; cbn [nth]; demod; reflexivity. }
    clear -HCc. induction (filter (verdict_of ks vs) L) as [|pk S IH]; [reflexivity|].
    unfold zsum in *. cbn [map fold_right]. now rewrite IH, HCc.
Qed.

Lemma var_bent want j nb order0 order1 total0 total1 stream0 stream1 subs0 subs1 junk0 junk1 K rnd0 rnd1 st0 st1 L :
  (nb <= 24)%nat -> (j < 2 * nb)%nat -> fair order1 ->
  arrives_cut var_wire var_size total0 stream0 subs0 -> arrives_cut var_wire var_size total1 stream1 subs1 ->
  Forall (fun s => var_content (snd s)) subs0 -> Forall (fun s => var_content (snd s)) subs1 ->
  length junk0 = 48%nat -> length junk1 = 48%nat ->
  (exists pk, first_sub (var_fits nb) subs1 pk <> None) ->
  accepted (var_fits nb) subs0 subs1 L -> synced st0 st1 ->
  (forall n, (seed_pos st0 <= n < seed_pos st0 + 2 * length subs1)%nat -> K n mod p <> 0) ->
  (forall pk, In pk L -> proved_at CheckVar (var_fits nb) var_opened snd subs0 subs1 pk) ->
  both (var_op false order0 nb total0 stream0 junk0 K rnd0 st0) (bend_var order1 want j nb total1 stream1 junk1 K rnd1 st1)
    (fun a r =>
       NoDup (map fst r) /\
       (forall pk, In pk L -> In (pk, negb (want pk && square_bit nb subs0 subs1 j pk)) r) /\
       let T := filter (fun pk => negb (want pk && square_bit nb subs0 subs1 j pk)) L in
       fst a = outcome (length T) total0
         (length T, field_sum (var_fits nb) var_opened subs0 subs1 T 0 mod p,
                    field_sum (var_fits nb) var_opened subs0 subs1 T 1 mod p)).
Proof.
  intros Hn Hj HF (rest0 & -> & HT0 & HP0 & HL0) (rest1 & -> & HT1 & HP1 & HL1) C0 C1 J0 J1 NE HA SY HKn HPr.
  apply rel_both. unfold var_op, bend_var. destruct (Nat.leb_spec 64 nb); [lia|].
  rewrite !var_receive by (auto; lia).
  set (m0 := table_of (var_fits nb) subs0). set (m1 := table_of (var_fits nb) subs1).
  pose proof (table_keys (var_fits nb) subs1 HP1) as HK. fold m1 in HK.
  pose proof (both_in_accepted _ _ _ _ HA) as HB. fold m0 m1 in HB.
  pose proof (table_nonempty _ _ NE) as NE1. fold m1 in NE1.
  assert (N0 : Forall (fun e => narrow CheckVar (var_nbs nb) var_row snd (snd e)) m0)
    by (apply table_narrow with (content := var_content); auto using var_narrow).
  assert (N1 : Forall (fun e => narrow CheckVar (var_nbs nb) var_row snd (snd e)) m1)
    by (apply table_narrow with (content := var_content); auto using var_narrow).
  assert (P0 : Forall (fun e => packet_ok (NumMulGates CheckVar) (snd (snd e))) m0).
  { apply (table_narrow (var_fits nb) var_content (fun v : Z * Z * ClientPacket => packet_ok (NumMulGates CheckVar) (snd v))); auto.
    intros [[v v2] pkt] (_ & _ & X) _. exact X. }
  assert (P1 : Forall (fun e => packet_ok (NumMulGates CheckVar) (snd (snd e))) m1).
  { apply (table_narrow (var_fits nb) var_content (fun v : Z * Z * ClientPacket => packet_ok (NumMulGates CheckVar) (snd v))); auto.
    intros [[v v2] pkt] (_ & _ & X) _. exact X. }
  assert (WP : forall pk v v', find pk m0 = Some v -> find pk m1 = Some v' ->
     packet_ok (NumMulGates CheckVar) (snd v) /\ packet_ok (NumMulGates CheckVar) (snd v') /\
     well_proved CheckVar (map2 Z.lxor (var_row v) (var_row v')) (snd v) (snd v')).
  { intros pk v v' E0 E1. rewrite Forall_forall in P0, P1.
    split; [exact (P0 _ (find_in _ _ _ E0))|]. split; [exact (P1 _ (find_in _ _ _ E1))|].
    assert (IP : In pk L) by (apply HB; rewrite E0, E1; split; discriminate).
    specialize (HPr pk IP). unfold proved_at in HPr. unfold m0, m1 in E0, E1. rewrite table_find in E0, E1. rewrite E0, E1 in HPr.
    destruct v as [[v v2] pv], v' as [[v' v2'] pv']. exact HPr. }
  assert (SB : forall pk v v', find pk m0 = Some v -> find pk m1 = Some v' ->
    square_bit nb subs0 subs1 j pk = Z.testbit (Z.lxor (snd (fst v)) (snd (fst v'))) (Z.of_nat j)).
  { intros pk v v' E0 E1. unfold square_bit. unfold m0, m1 in E0, E1. rewrite table_find in E0, E1. rewrite E0, E1.
    destruct v as [[v v2] pv], v' as [[v' v2'] pv']. reflexivity. }
  assert (LM : Z.of_nat (length m1) < two32).
  { pose proof (table_length (var_fits nb) subs1). fold m1 in H0. lia. }
  assert (HKn' : forall n, (seed_pos st0 <= n < seed_pos st0 + 2 * length m1)%nat -> K n mod P <> 0).
  { intros n Hk. apply HKn. pose proof (table_length (var_fits nb) subs1) as TL. fold m1 in TL. lia. }
  unfold var_op0. cbv zeta.
  pose proof (bent_tables nb j want order1 m0 m1 L K rnd0 rnd1 st0 st1 Hn Hj HF HK HB NE1 SY N0 N1 HKn' WP) as BT. cbv zeta in BT.
  assert (NK : NoDup (map fst (order1 _ m1))) by (apply ks_nodup; [exact HF|apply HK]).
  assert (RU : reused m0 (map fst (order1 _ m1)) = false) by (apply reused_order; [exact HF|apply HK]).
  assert (IN : forall pk, In pk L -> exists v v', find pk m0 = Some v /\ find pk m1 = Some v' /\ In (pk, v') (order1 _ m1)).
  { intros pk Hp. apply HB in Hp as [A B]. destruct (find pk m0) as [v|]; [|easy]. destruct (find pk m1) as [v'|] eqn:E1; [|easy].
    exists v, v'. split; auto. split; auto. eapply Permutation_in; [symmetry; apply HF|apply find_in; exact E1]. }
  eapply rel_deliver'.
  { apply delivers_announce; [apply fair_forall; [exact HF|apply HK]|]. now rewrite fair_length. }
  set (l := order1 _ m1) in *.
  set (found := map (fun pk => find pk m0) (map fst l)) in *.
  rewrite (map_as_map2 _ found (fun f (_ : nat) => match f with Some v => (var_row v, snd v)
    | None => ([0; 0], mock_packet (NumMulGates CheckVar)) end) 0).
  2:{ intros [[[v v2] pkt]|] k; reflexivity. }
  eapply rel_bind; [exact BT|]. cbv beta. intros [[nv a] st'] [b valid] (vs & LV & VD & EV & EC & La & Lb & Fb & HS).
  cbn [fst snd] in *. rewrite RU.
  assert (Q : forall j, (j < 2)%nat -> limbs_ok (nth j b 0)).
  { intros i Hi. apply field_limbs. rewrite Forall_forall in Fb. apply Fb, nth_In. rewrite Lb. exact Hi. }
  eapply rel_deliver'; [apply delivers_fmpz, Q; lia|].
  eapply rel_deliver'; [apply delivers_fmpz, Q; lia|].
  assert (TT : filter (verdict_of (map fst l) vs) L = filter (fun pk => negb (want pk && square_bit nb subs0 subs1 j pk)) L).
  { apply filter_ext_in. intros pk Hp. destruct (IN pk Hp) as (v & v' & E0 & E1 & _).
    rewrite (VD pk v v' E0 E1), (SB pk v v' E0 E1). reflexivity. }
  assert (LVa : length valid = length (map fst l)).
  { rewrite EV, map2_length, map_length. unfold found. rewrite !map_length. lia. }
  assert (R1 : NoDup (map fst (combine (map fst l) valid))).
  { replace (map fst (combine (map fst l) valid)) with (map fst l); [exact NK|].
    clear -LVa. revert valid LVa. induction (map fst l) as [|k r IH]; intros [|v valid] E; cbn in *; try discriminate; auto.
    f_equal. apply IH. lia. }
  assert (R2 : forall pk, In pk L -> In (pk, negb (want pk && square_bit nb subs0 subs1 j pk)) (combine (map fst l) valid)).
  { intros pk Hp. destruct (IN pk Hp) as (v & v' & E0 & E1 & I). apply (in_map fst) in I. cbn [fst] in I.
    pose proof (index_in _ _ I) as EI. rewrite combine_map2.
    apply nth_error_In with (n := index_of pk (map fst l)).
    assert (Hi : (index_of pk (map fst l) < length vs)%nat).
    { rewrite LV. rewrite <- (map_length fst l). apply nth_error_Some. congruence. }
    apply nth_error_map2; auto. rewrite EV.
    rewrite (nth_error_map2 _ _ _ _ true (verdict_of (map fst l) vs pk)).
    - cbn [andb]. rewrite (VD pk v v' E0 E1), (SB pk v v' E0 E1). reflexivity.
    - unfold found. rewrite map_map. rewrite (map_nth_error _ _ _ EI). now rewrite E0.
    - unfold verdict_of. apply nth_error_nth'. exact Hi. }
  rewrite TT in EC, HS.
  assert (FS : forall i, (i < 2)%nat -> (nth i b 0 + nth i a 0) mod p
    = field_sum (var_fits nb) var_opened subs0 subs1 (filter (fun pk => negb (want pk && square_bit nb subs0 subs1 j pk)) L) i mod p).
  { intros i Hi. rewrite var_field_sum. change p with P. exact (HS i Hi). }
  rewrite EC, !FS by lia. unfold too_few, outcome.
  destruct (2 * length (filter (fun pk => negb (want pk && square_bit nb subs0 subs1 j pk)) L) <? total0)%nat; apply rel_ret; cbn [fst]; auto.
Qed.
