(** * The verdict does not depend on how the inputs are split, and sums over the
    submissions found valid *)
From Coq Require Import ZArith List Bool Lia Arith Permutation Setoid Morphisms.
From Verif Require Import Words WordsFacts Cong Constants Share ShareFacts Proc ProcFacts
  Net NetFacts SpecNet NetMsg SpecShare RelFacts OT OTFacts Correlated MpcFacts
  Poly SpecPoly FieldFacts PolyFacts FftFacts TreeFacts PolyProps
  Circuit SpecCircuit CircuitFacts Snip SpecSnip SnipFacts SnipBatch ServerOps.
Import ListNotations.
Open Scope Z_scope.

Arguments Z.mul : simpl never.
Arguments Z.add : simpl never.
Arguments Z.sub : simpl never.
Arguments Z.pow : simpl never.
Arguments Z.modulo : simpl never.
Opaque Int_Modulus Int_Gen init_roots.
Local Notation P := Int_Modulus.

Lemma shares_cong vals a b : shares_of vals a b -> forall i, cong P (nth i a 0 + nth i b 0) (nth i vals 0).
Proof.
  intros (La & Lb & H) i. destruct (Nat.lt_ge_cases i (length vals)) as [Hi|Hi].
  - apply cong_iff. exact (H i Hi).
  - rewrite !nth_overflow by lia. reflexivity.
Qed.

Lemma vwires_reshare c p0 p1 vals a b a' b' :
  shaped c (p0, a) -> shaped c (p1, b) -> shaped c (p0, a') -> shaped c (p1, b') ->
  shares_of vals a b -> shares_of vals a' b' ->
  forall i, cong P (nth i (vwires c (p0, a) (p1, b)) 0) (nth i (vwires c (p0, a') (p1, b')) 0).
Proof.
  intros S0 S1 S0' S1' H H' i. rewrite <- (vwires_sum c _ _ S0 S1 i).
  destruct S0 as (A1 & A2 & A3), S1 as (B1 & B2 & B3), S0' as (_ & _ & A3'), S1' as (_ & _ & B3').
  cbn [fst snd] in *. unfold vwires, ImportWires. cbn [fst snd].
  revert i. apply import_linear.
  - intros i. rewrite nth_map2_add by congruence. rewrite (shares_cong _ _ _ H), (shares_cong _ _ _ H'). reflexivity.
  - intros i. rewrite nth_map2_add by congruence. reflexivity.
  - repeat split; auto. intros [|i]; reflexivity.
Qed.

Lemma dotK_cong K l l' : Forall2 (cong P) l l' -> forall pos, cong P (dotK K pos l) (dotK K pos l').
Proof.
  induction 1; intros pos; cbn [dotK]; [reflexivity|]. rewrite H, IHForall2. reflexivity.
Qed.

Lemma verdict_reshare c p0 p1 vals a b a' b' r K pos v : (NumMulGates c < 2 ^ 18)%nat ->
  shaped c (p0, a) -> shaped c (p1, b) -> in_field P r ->
  shares_of vals a b -> shares_of vals a' b' ->
  verdict c r K pos (p0, a) (p1, b) v -> verdict c r K pos (p0, a') (p1, b') v.
Proof.
  intros HM S0 S1 Hr H H' V.
  assert (S0' : shaped c (p0, a')).
  { destruct S0 as (? & ? & E). repeat split; auto. cbn [snd] in *. destruct H as (? & ? & _), H' as (? & ? & _). congruence. }
  assert (S1' : shaped c (p1, b')).
  { destruct S1 as (? & ? & E). repeat split; auto. cbn [snd] in *. destruct H as (? & ? & _), H' as (? & ? & _). congruence. }
  pose proof (vwires_reshare c p0 p1 vals a b a' b' S0 S1 S0' S1' H H') as HW.
  destruct (item_good c _ _ HM S0 S1) as (k & f & g & h & Hk & Hn & HN & Lf & Lg & Lh & Hp & HG).
  destruct (item_good c _ _ HM S0' S1') as (k' & f' & g' & h' & _ & _ & HN' & Lf' & Lg' & Lh' & Hp' & HG').
  assert (2 ^ k = 2 ^ k')%nat by (exact (npo2_fun _ _ _ HN HN')).
  assert (k = k') by (apply Nat.pow_inj_r with (a := 2%nat); auto with arith). subst k'. clear HN'.
  destruct (tables_lemma k Hk) as (ND1 & ND2 & L1 & _ & L2 & FF & _). cbv zeta in *.
  apply Forall_app in FF as [F1 FF]. apply Forall_app in FF as [_ F2].
  set (R := roots (init_roots (2 ^ k))) in *. set (R2 := roots2 (init_roots (2 ^ k))) in *.
  pose proof (nodup_distinct P R ND1 F1) as D1. pose proof (nodup_distinct P R2 ND2 F2) as D2.
  assert (NIn : forall (l : list Z) x n, length l = n -> In x l -> exists i, (i < n)%nat /\ x = nth i l 0).
  { intros l x n <- Hx. apply (In_nth _ _ 0) in Hx as (i & Hi & <-). eauto. }
  assert (AG : forall d phi phi' i, (forall m, cong P (phi m) (phi' m)) -> cong P (at_gate c d phi i) (at_gate c d phi' i)).
  { intros d phi phi' [|i] E; cbn; [reflexivity|]. destruct (nth_error (mul_gates c) i); [apply E|reflexivity]. }
  assert (EF : forall x, cong P (peval f x) (peval f' x)).
  { apply (poly_unique P modulus_prime R); auto; try lia.
    intros x Hx. destruct (NIn _ _ _ L1 Hx) as (i & Hi & ->).
    destruct (Hp i Hi) as (-> & _), (Hp' i Hi) as (-> & _). apply AG. intros. apply HW. }
  assert (EG : forall x, cong P (peval g x) (peval g' x)).
  { apply (poly_unique P modulus_prime R); auto; try lia.
    intros x Hx. destruct (NIn _ _ _ L1 Hx) as (i & Hi & ->).
    destruct (Hp i Hi) as (_ & -> & _), (Hp' i Hi) as (_ & -> & _). apply AG. intros. apply HW. }
  assert (EH : forall x, cong P (peval h x) (peval h' x)).
  { apply (poly_unique P modulus_prime R2); auto; try lia.
    intros x Hx. destruct (NIn _ _ _ L2 Hx) as (i & Hi & ->).
    destruct (Nat.Even_or_Odd i) as [[j Hj]|[j Hj]]; subst i.
    - assert (Hj : (j < 2 ^ k)%nat) by lia. unfold R2. rewrite roots2_even by auto. fold R.
      destruct (Hp j Hj) as (_ & _ & -> & _), (Hp' j Hj) as (_ & _ & -> & _). apply AG. intros. apply HW.
    - assert (Hj : (j < 2 ^ k)%nat) by lia. destruct (Hp j Hj) as (_ & _ & _ & ->), (Hp' j Hj) as (_ & _ & _ & ->).
      reflexivity. }
  destruct (HG r Hr) as (ck0 & ck1 & G). destruct (HG' r Hr) as (ck0' & ck1' & G').
  pose proof (good_verdict c k r K pos _ Hk HN G) as W.
  pose proof (good_verdict c k r K pos _ Hk HN G') as W'. cbn [jx0 jx1 jent] in W, W'.
  rewrite (verdict_unique _ _ _ _ _ _ _ _ Hr V W).
  match type of W' with verdict _ _ _ _ _ _ ?b => match goal with |- verdict _ _ _ _ _ _ ?b' => replace b' with b; [exact W'|] end end.
  f_equal. apply cong_iff. apply dotK_cong. constructor.
  - unfold sigma. cbn [fst]. rewrite EF, EG, EH. reflexivity.
  - clear - HW. induction (result_zero c); cbn [map]; constructor; auto. symmetry. apply HW.
Qed.

(** ** Accumulation *)
Definition col_sum (j : nat) (rows : list (list Z)) (valid : list bool) : Z :=
  zsum (map2 (fun row (v : bool) => if v then nth j row 0 else 0) rows valid).

Lemma nth_map_seq' {A} (f : nat -> A) n j d : (j < n)%nat -> nth j (map f (seq 0 n)) d = f j.
Proof.
  intros H. rewrite nth_indep with (d' := f 0%nat) by now rewrite map_length, seq_length.
  rewrite map_nth, seq_nth by auto. reflexivity.
Qed.

Lemma acc_loop n : forall rows valid acc, length acc = n -> Forall (in_field P) acc ->
  let r := fold_left (fun ans rv =>
      if snd rv : bool
      then map (fun j => (nth j ans 0 + nth j (fst rv) 0) mod p) (seq 0 n)
      else ans) (combine rows valid) acc in
  length r = n /\ Forall (in_field P) r /\
  forall j, (j < n)%nat -> nth j r 0 = (nth j acc 0 + col_sum j rows valid) mod P.
Proof.
  induction rows as [|row rows IH]; intros valid acc L F.
  - cbn. split; auto. split; auto. intros j Hj. unfold col_sum. cbn. rewrite Z.add_0_r.
    rewrite Z.mod_small; auto. rewrite Forall_forall in F. apply F, nth_In. lia.
  - destruct valid as [|v valid].
    { cbn. split; auto. split; auto. intros j Hj. unfold col_sum. cbn. rewrite Z.add_0_r.
      rewrite Z.mod_small; auto. rewrite Forall_forall in F. apply F, nth_In. lia. }
    cbn [combine fold_left fst snd]. unfold col_sum. cbn [map2]. unfold zsum. cbn [fold_right].
    destruct v.
    + set (acc' := map _ (seq 0 n)).
      assert (L' : length acc' = n) by (unfold acc'; now rewrite map_length, seq_length).
      assert (F' : Forall (in_field P) acc').
      { unfold acc'. apply Forall_map, Forall_forall. intros j _. apply Z.mod_pos_bound, p_pos. }
      destruct (IH valid acc' L' F') as (A & B & C). cbv zeta in *. split; auto. split; auto.
      intros j Hj. rewrite (C j Hj). unfold acc'.
      rewrite nth_map_seq' by auto. change p with P. rewrite Zplus_mod_idemp_l.
      f_equal. unfold col_sum, zsum. ring.
    + destruct (IH valid acc L F) as (A & B & C). cbv zeta in *. split; auto.
Qed.

Lemma accumulate_spec n rows valid :
  length (accumulate n rows valid) = n /\ Forall (in_field P) (accumulate n rows valid) /\
  forall j, (j < n)%nat -> nth j (accumulate n rows valid) 0 = col_sum j rows valid mod P.
Proof.
  unfold accumulate. destruct (acc_loop n rows valid (repeat 0 n)) as (A & B & C).
  - apply repeat_length.
  - apply Forall_forall. intros x Hx. apply repeat_spec in Hx as ->. pose proof p_pos. unfold in_field. lia.
  - split; auto. split; auto. intros j Hj. rewrite (C j Hj), nth_repeat. reflexivity.
Qed.

Lemma col_sum_add j : forall rows0 rows1 valid n, length rows0 = length rows1 ->
  Forall (fun r => length r = n) rows0 -> Forall (fun r => length r = n) rows1 -> (j < n)%nat ->
  cong P (col_sum j rows1 valid + col_sum j rows0 valid)
         (col_sum j (map2 (map2 (fun a b => (a + b) mod P)) rows0 rows1) valid).
Proof.
  unfold col_sum, zsum.
  induction rows0 as [|r0 rows0 IH]; intros [|r1 rows1] valid n L F0 F1 Hj; try discriminate; [reflexivity|].
  destruct valid as [|v valid]; [reflexivity|]. cbn [map2 fold_right].
  pose proof (Forall_inv F0) as E0. pose proof (Forall_inv F1) as E1. cbv beta in E0, E1.
  specialize (IH rows1 valid n ltac:(cbn in L; congruence) (Forall_inv_tail F0) (Forall_inv_tail F1) Hj).
  rewrite <- IH. destruct v; [|cong_ring].
  rewrite nth_map2' by lia. demod. cong_ring.
Qed.

(** ** The common part of VAR and LINREG *)
Definition row_ok (c : circuit) (nbs : list nat) (e : list Z * ClientPacket) : Prop :=
  length (fst e) = length nbs /\ Forall limbs_ok (fst e) /\
  length (MulShares (snd e)) = NumMulGates c /\
  NextPowerOfTwo (Z.of_nat (NumMulGates c)) = Some (Z.of_nat (length (h_points (snd e)))).

Definition opened_row (nbs : list nat) (r0 r1 : list Z) : list Z := map3 (col_spec P) nbs r0 r1.

Lemma combine_map2 {A B} (a : list A) (b : list B) : combine a b = map2 pair a b.
Proof. revert b. induction a; intros [|y b]; cbn; auto. now rewrite IHa. Qed.

Lemma items_map2 {A} c (l : list (A * ClientPacket)) sh : length sh = length l ->
  map2 (fun e row => (c, snd e, row)) l sh = items c (map2 (fun e row => (snd e, row)) l sh).
Proof.
  revert sh. unfold items. induction l as [|e l IH]; intros [|r sh] L; cbn in *; try discriminate; auto.
  rewrite IH by congruence. reflexivity.
Qed.

Lemma nth_error_map2 {A B C} (f : A -> B -> C) : forall a b i x y,
  nth_error a i = Some x -> nth_error b i = Some y -> nth_error (map2 f a b) i = Some (f x y).
Proof.
  induction a as [|a0 a IH]; intros [|b0 b] [|i] x y; cbn; try discriminate.
  - now intros [= ->] [= ->].
  - apply IH.
Qed.

Lemma map3_length {A B C D} (f : A -> B -> C -> D) : forall a b c, length b = length a -> length c = length a ->
  length (map3 f a b c) = length a.
Proof. induction a as [|x a IH]; intros [|y b] [|z c]; cbn; intros; try discriminate; auto. Qed.

Lemma nth_map3 {A B C D} (f : A -> B -> C -> D) da db dc dd : forall i a b c,
  (i < length a)%nat -> length b = length a -> length c = length a ->
  nth i (map3 f a b c) dd = f (nth i a da) (nth i b db) (nth i c dc).
Proof.
  induction i as [|i IH]; intros [|x a] [|y b] [|z c]; cbn; intros; try discriminate; try lia; auto.
  apply IH; auto; lia.
Qed.

Lemma map2_row_ok c nbs l sh : length nbs = NumInputs c -> length sh = length l -> Forall (row_ok c nbs) l ->
  Forall (fun r => length r = length nbs) sh ->
  Forall (shaped c) (map2 (fun (e : list Z * ClientPacket) row => (snd e, row)) l sh).
Proof.
  intros HI L H. revert sh L. induction H as [|e l He Hl IH]; intros [|r sh] L F; cbn in *; try discriminate; constructor.
  - inversion F; subst. destruct He as (_ & _ & A & B). repeat split; cbn; auto; congruence.
  - inversion F; subst. apply IH; auto.
Qed.

Lemma andb_again : forall kn vs, map2 andb (map2 andb kn vs) vs = map2 andb kn vs.
Proof. induction kn as [|a kn IH]; intros [|b vs]; cbn; auto. rewrite IH. f_equal. now destruct a, b. Qed.

(** What follows the conversion; [rows]: the values shared. *)
Lemma snip_tail_rel K c nbs kn l0 l1 st0 st1 sh0 sh1 rows :
  (NumMulGates c < 2 ^ 18)%nat -> synced st0 st1 -> length nbs = NumInputs c ->
  length l0 = length l1 -> length kn = length l1 -> l1 <> [] ->
  Forall (row_ok c nbs) l0 -> Forall (row_ok c nbs) l1 ->
  length sh0 = length l1 -> length sh1 = length l1 ->
  Forall (fun r => length r = length nbs) sh0 -> Forall (fun r => length r = length nbs) sh1 ->
  map2 (map2 (fun a b => (a + b) mod P)) sh0 sh1 = rows ->
  let w := S (length (result_zero c)) in
  rel (sv <- validate_snips false K st0 (map2 (fun e row => (c, snd e, row)) l0 sh0) ;;
       let valid := map2 andb kn (fst sv) in
       send_bool_batch valid ;;;
       Ret (count valid, accumulate (length nbs) sh0 valid, snd sv))
      (sv <- validate_snips true K st1 (map2 (fun e row => (c, snd e, row)) l1 sh1) ;;
       valid <- recv_bool_batch (length l1) ;;
       Ret (accumulate (length nbs) sh1 (map2 andb valid (fst sv)), snd sv))
    (fun a b => exists vs, length vs = length l1 /\
      (forall i e0 e1 row, nth_error l0 i = Some e0 -> nth_error l1 i = Some e1 -> nth_error rows i = Some row ->
         verdict c (randomX st0) K (seed_pos st0 + i * w)
           (snd e0, row) (snd e1, repeat 0 (length nbs)) (nth i vs false)) /\
      fst (fst a) = count (map2 andb kn vs) /\
      length (snd (fst a)) = length nbs /\ length (fst b) = length nbs /\
      Forall (in_field P) (fst b) /\
      (forall j, (j < length nbs)%nat ->
         (nth j (fst b) 0 + nth j (snd (fst a)) 0) mod P = col_sum j rows (map2 andb kn vs) mod P) /\
      synced (snd a) (snd b) /\ randomX (snd a) = randomX st0 /\
      seed_pos (snd a) = (seed_pos st0 + length l1 * w)%nat /\
      randx_uses (snd a) = u64 (randx_uses st0 + Z.of_nat (length l1))).
Proof.
  intros HM SY HI L LK NE R0 R1 LS0 LS1 F0 F1 ES w.
  rewrite !items_map2 by congruence.
  set (xs0 := map2 (fun (e : list Z * ClientPacket) row => (snd e, row)) l0 sh0).
  set (xs1 := map2 (fun (e : list Z * ClientPacket) row => (snd e, row)) l1 sh1).
  assert (LX0 : length xs0 = length l1) by (unfold xs0; rewrite map2_length; lia).
  assert (LX1 : length xs1 = length l1) by (unfold xs1; rewrite map2_length; lia).
  assert (SH0 : Forall (shaped c) xs0) by (apply (map2_row_ok c nbs); auto; congruence).
  assert (SH1 : Forall (shaped c) xs1) by (apply (map2_row_ok c nbs); auto; lia).
  set (d := (mkPacket [] 0 0 0 [] (mkBTS 0 0 0), []) : submission).
  eapply rel_bind.
  { assert (NX : xs0 <> []) by (intros E; rewrite E in LX0; destruct l1; [easy|discriminate]).
    assert (LL : length xs0 = length xs1) by congruence.
    exact (batch_verdicts c K st0 st1 xs0 xs1 d d HM SY NX LL SH0 SH1). }
  cbv beta zeta. intros sv0 sv1 (EV & LV & SY' & EX & EP & EU & HV). fold w in EP, HV.
  set (vs := fst sv0) in *.
  assert (LV' : length vs = length l1) by (rewrite <- LX0; exact LV).
  assert (HV' : forall i, (i < length l1)%nat ->
    verdict c (randomX st0) K (seed_pos st0 + i * w) (nth i xs0 d) (nth i xs1 d) (nth i vs false))
    by (rewrite <- LX0; exact HV).
  assert (EP' : seed_pos (snd sv0) = (seed_pos st0 + length l1 * w)%nat) by (rewrite <- LX0; exact EP).
  assert (EU' : randx_uses (snd sv0) = u64 (randx_uses st0 + Z.of_nat (length l1))) by (rewrite <- LX0; exact EU).
  clear LV HV EP EU.
  assert (LA : length (map2 andb kn vs) = length l1) by (rewrite map2_length, LK, LV'; apply Nat.min_id).
  eapply rel_deliver.
  { rewrite <- LA. apply delivers_bool_batch. }
  apply rel_ret. cbn [fst snd]. exists vs. rewrite <- EV. fold vs.
  rewrite andb_again.
  destruct (accumulate_spec (length nbs) sh0 (map2 andb kn vs)) as (A1 & A2 & A3).
  destruct (accumulate_spec (length nbs) sh1 (map2 andb kn vs)) as (C1 & C2 & C3).
  split; [exact LV'|]. split.
  { intros i e0 e1 row E0 E1 ER0.
    assert (Hi : (i < length l1)%nat) by (apply nth_error_Some; congruence).
    assert (X0 : nth_error sh0 i <> None) by (apply nth_error_Some; lia).
    assert (X1 : nth_error sh1 i <> None) by (apply nth_error_Some; lia).
    destruct (nth_error sh0 i) as [s0|] eqn:N0; [clear X0|easy].
    destruct (nth_error sh1 i) as [s1|] eqn:N1; [clear X1|easy].
    specialize (HV' i Hi). unfold xs0, xs1 in HV'.
    rewrite (nth_error_nth _ _ _ (nth_error_map2 _ _ _ _ _ _ E0 N0)) in HV'.
    rewrite (nth_error_nth _ _ _ (nth_error_map2 _ _ _ _ _ _ E1 N1)) in HV'.
    pose proof (nth_error_In _ _ E0) as I0. pose proof (nth_error_In _ _ E1) as I1.
    pose proof (nth_error_In _ _ N0) as J0. pose proof (nth_error_In _ _ N1) as J1.
    rewrite Forall_forall in R0, R1, F0, F1.
    destruct (R0 e0 I0) as (a1 & a2 & a3 & a4). destruct (R1 e1 I1) as (b1 & b2 & b3 & b4).
    pose proof (F0 s0 J0) as c0. pose proof (F1 s1 J1) as c1. cbv beta in c0, c1.
    assert (ER : map2 (fun a b => (a + b) mod P) s0 s1 = row).
    { assert (nth_error (map2 (map2 (fun a b => (a + b) mod P)) sh0 sh1) i = Some (map2 (fun a b => (a + b) mod P) s0 s1))
        by (apply nth_error_map2; auto). congruence. }
    assert (LO : length row = length nbs) by (rewrite <- ER, map2_length, c0, c1; apply Nat.min_id).
    destruct SY as ((HF & _) & _).
    apply (verdict_reshare c (snd e0) (snd e1) row s0 s1); auto.
    - repeat split; cbn [fst snd]; auto. congruence.
    - repeat split; cbn [fst snd]; auto. congruence.
    - split; [congruence|]. split; [congruence|]. intros j Hj. rewrite <- ER.
      rewrite nth_map2' by lia. now rewrite Zmod_mod.
    - split; auto. split; [now rewrite repeat_length|]. intros j Hj. now rewrite nth_repeat, Z.add_0_r. }
  split; [reflexivity|]. split; auto. split; auto. split; auto. split.
  { intros j Hj. rewrite A3, C3 by auto. rewrite <- Zplus_mod. 
    rewrite <- ES.
    apply cong_iff. apply (col_sum_add j sh0 sh1 _ (length nbs)); auto; congruence. }
  split; auto.
Qed.

Lemma snip_sums_rel K rnd0 rnd1 c nbs kn l0 l1 st0 st1 :
  (NumMulGates c < 2 ^ 18)%nat -> synced st0 st1 ->
  Forall (width_ok P) nbs -> length nbs = NumInputs c ->
  length l0 = length l1 -> length kn = length l1 -> l1 <> [] ->
  Forall (row_ok c nbs) l0 -> Forall (row_ok c nbs) l1 ->
  let w := S (length (result_zero c)) in
  rel (snip_sums0 K rnd0 c nbs kn l0 st0) (snip_sums1 K rnd1 c nbs l1 st1)
    (fun a b => exists vs, length vs = length l1 /\
      (forall i e0 e1, nth_error l0 i = Some e0 -> nth_error l1 i = Some e1 ->
         verdict c (randomX st0) K (seed_pos st0 + i * w)
           (snd e0, opened_row nbs (fst e0) (fst e1)) (snd e1, repeat 0 (length nbs)) (nth i vs false)) /\
      fst (fst a) = count (map2 andb kn vs) /\
      length (snd (fst a)) = length nbs /\ length (fst b) = length nbs /\
      Forall (in_field P) (fst b) /\
      (forall j, (j < length nbs)%nat ->
         (nth j (fst b) 0 + nth j (snd (fst a)) 0) mod P
         = col_sum j (map2 (opened_row nbs) (map fst l0) (map fst l1)) (map2 andb kn vs) mod P) /\
      synced (snd a) (snd b) /\ randomX (snd a) = randomX st0 /\
      seed_pos (snd a) = (seed_pos st0 + length l1 * w)%nat /\
      randx_uses (snd a) = u64 (randx_uses st0 + Z.of_nat (length l1))).
Proof.
  intros HM SY HW HI L LK NE R0 R1 w. unfold snip_sums0, snip_sums1, share_convert.
  assert (Q : forall l : list (list Z * ClientPacket), Forall (row_ok c nbs) l ->
    Forall (fun r => length r = length nbs) (map fst l) /\ Forall (Forall limbs_ok) (map fst l)).
  { intros l H. rewrite !Forall_map. split; (eapply Forall_impl; [|exact H]); intros e (A & B & _); auto. }
  destruct (Q _ R0) as [Q0 Q0']. destruct (Q _ R1) as [Q1 Q1']. clear Q.
  assert (MO : mod_ok P) by (right; vm_compute; split; reflexivity).
  eapply rel_bind.
  { apply (b2a_ot_rel rnd0 rnd1 nbs (map fst l0) (map fst l1) P MO HW); auto. now rewrite !map_length. }
  cbv beta. intros sh0 sh1 (LS0 & LS1 & F0 & F1 & B0 & B1 & ES). rewrite map_length in LS0, LS1.
  assert (EM : ot_modulus P = P) by reflexivity. rewrite EM in *.
  set (rows := map2 (map3 (col_spec P) nbs) (map fst l0) (map fst l1)) in *.
  eapply rel_imp.
  { apply (snip_tail_rel K c nbs kn l0 l1 st0 st1 sh0 sh1 rows); auto; congruence. }
  cbv beta. intros a b (vs & LV & HV & H). exists vs. split; [exact LV|]. split; [|exact H].
  intros i e0 e1 E0 E1. apply HV; auto. apply nth_error_map2; apply map_nth_error; auto.
Qed.
