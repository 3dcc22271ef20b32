(** The system assembled by SolveLinReg is that of the normal equations, and its solution
    minimises the squared error. *)
From Coq Require Import ZArith List Bool QArith Qcanon Lia Arith.
From Verif Require Import Words Share Circuit CircuitFacts ServerOps SpecServer SpecStat StatClient
  LinSolve SpecLinReg LinSolveFacts.
Import ListNotations.
Open Scope nat_scope.
Open Scope Qc_scope.

(** ** Integers as rationals *)
Lemma rat_add a b : rat (a + b) = rat a + rat b.
Proof.
  unfold rat. apply Qc_is_canon. unfold Qcplus, Q2Qc. cbn [this]. rewrite !Qred_correct. rewrite inject_Z_plus. reflexivity.
Qed.
Lemma rat_mul a b : rat (a * b) = rat a * rat b.
Proof.
  unfold rat. apply Qc_is_canon. unfold Qcmult, Q2Qc. cbn [this]. rewrite !Qred_correct. rewrite inject_Z_mult. reflexivity.
Qed.
Lemma rat_0 : rat 0 = 0. Proof. reflexivity. Qed.
Lemma rat_1 : rat 1 = 1. Proof. reflexivity. Qed.
Lemma of_ui_rat x : of_ui x = rat x. Proof. reflexivity. Qed.

Lemma sum_over_cons {A} (f : A -> Qc) a l : sum_over f (a :: l) = f a + sum_over f l.
Proof. reflexivity. Qed.
Lemma sum_over_nil {A} (f : A -> Qc) : sum_over f [] = 0.
Proof. reflexivity. Qed.
Lemma sum_over_ext {A} (f g : A -> Qc) l : (forall a, In a l -> f a = g a) -> sum_over f l = sum_over g l.
Proof. induction l as [|a l IH]; intros H; [reflexivity|]. rewrite !sum_over_cons, (H a (or_introl eq_refl)), IH; [reflexivity|]. intros b Hb. apply H. now right. Qed.
Lemma sum_over_add {A} (f g : A -> Qc) l : sum_over (fun a => f a + g a) l = sum_over f l + sum_over g l.
Proof. induction l as [|a l IH]; [rewrite !sum_over_nil; ring|]. rewrite !sum_over_cons, IH. ring. Qed.
Lemma sum_over_mul {A} c (f : A -> Qc) l : sum_over (fun a => c * f a) l = c * sum_over f l.
Proof. induction l as [|a l IH]; [rewrite !sum_over_nil; ring|]. rewrite !sum_over_cons, IH. ring. Qed.
Lemma sum_over_zero {A} (f : A -> Qc) l : (forall a, In a l -> f a = 0) -> sum_over f l = 0.
Proof. induction l as [|a l IH]; intros H; [reflexivity|]. rewrite !sum_over_cons, (H a (or_introl eq_refl)), IH; [ring|]. intros b Hb. apply H. now right. Qed.
Lemma sum_over_qsum {A} n (f : A -> nat -> Qc) l :
  sum_over (fun a => qsum n (f a)) l = qsum n (fun i => sum_over (fun a => f a i) l).
Proof.
  induction l as [|a l IH].
  - symmetry. apply qsum_zero. reflexivity.
  - rewrite sum_over_cons, IH, <- qsum_add. reflexivity.
Qed.
Lemma sum_over_rat {A} (f : A -> Z) l : sum_over (fun a => rat (f a)) l = rat (zsum (map f l)).
Proof.
  induction l as [|a l IH]; [reflexivity|]. rewrite sum_over_cons, IH. cbn [map].
  rewrite <- rat_add. reflexivity.
Qed.
Lemma square_nonneg (q : Qc) : 0 <= q * q.
Proof.
  unfold Qcle, Qcmult, Q2Qc. cbn [this]. rewrite !Qred_correct. unfold Qle, Qmult. cbn.
  destruct (this q) as [a b]. cbn. nia.
Qed.
Lemma squares_nonneg {A} (f : A -> Qc) l : 0 <= sum_over (fun a => f a * f a) l.
Proof.
  induction l as [|a l IH]; [apply Qcle_refl|]. rewrite sum_over_cons.
  change 0 with (0 + 0). apply Qcplus_le_compat; [apply square_nonneg|exact IH].
Qed.
Lemma squares_zero {A} (f : A -> Qc) l : sum_over (fun a => f a * f a) l = 0 -> forall a, In a l -> f a = 0.
Proof.
  induction l as [|x l IH]; intros H; [easy|]. rewrite sum_over_cons in H.
  pose proof (square_nonneg (f x)) as P1. pose proof (squares_nonneg f l) as P2.
  assert (E1 : f x * f x = 0).
  { apply Qcle_antisym; [|exact P1]. rewrite <- H. 
    rewrite <- (Qcplus_0_r (f x * f x)) at 1. apply Qcplus_le_compat; [apply Qcle_refl|exact P2]. }
  assert (E2 : sum_over (fun a => f a * f a) l = 0).
  { rewrite E1 in H. rewrite <- H. ring. }
  intros a [<-|Ha].
  - destruct (Qcmult_integral _ _ E1); assumption.
  - exact (IH E2 a Ha).
Qed.

Lemma qsum_front n f : qsum (S n) f = f O + qsum n (fun i => f (S i)).
Proof. induction n as [|n IH]; [cbn [qsum]; ring|]. cbn [qsum] in *. rewrite IH. ring. Qed.
Lemma sum_over_combine (a b : list Qc) n : length a = n -> length b = n ->
  sum_over (fun ab => fst ab * snd ab) (combine a b) = qsum n (fun i => nth i a zero * nth i b zero).
Proof.
  revert b n. induction a as [|x a IH]; intros [|y b] n La Lb; cbn in La, Lb; subst n; try lia; [reflexivity|].
  rewrite qsum_front. cbn [combine nth]. rewrite sum_over_cons. cbn [fst snd].
  rewrite <- (IH b (length a)) by (auto; congruence). reflexivity.
Qed.

(** ** The entries *)
Section Entries.
  Context (degree : nat) (data : list (list Z * Z)) (D1 : (1 <= degree)%nat)
          (SH : forall v, In v data -> length (fst v) = num_x degree).

  Definition zc (v : list Z * Z) (i : nat) : Z := nth i (1%Z :: fst v) 0%Z.
  Definition mom (i j : nat) : Z := zsum (map (fun v => zc v i * zc v j)%Z data).
  Definition momy (i : nat) : Z := zsum (map (fun v => zc v i * snd v)%Z data).
  Definition sums := moments degree (length data) (field_totals data).

  Lemma zsum_ext {A} (f g : A -> Z) l : (forall a, In a l -> f a = g a) -> zsum (map f l) = zsum (map g l).
  Proof. intros H. f_equal. now apply map_ext_in. Qed.
  Lemma mom_sym i j : mom i j = mom j i.
  Proof. apply zsum_ext. intros. apply Z.mul_comm. Qed.

  Lemma fields_x v i : (i < length (fst v))%nat -> nth i (linreg_fields v) 0%Z = nth i (fst v) 0%Z.
  Proof. intros H. unfold linreg_fields, linreg_inputs. now rewrite app_nth1. Qed.
  Lemma fields_y v : nth (length (fst v)) (linreg_fields v) 0%Z = snd v.
  Proof. unfold linreg_fields, linreg_inputs. rewrite app_nth2, Nat.sub_diag; auto. Qed.
  Lemma fields_quad v t : (t < length (pairwise (fst v)))%nat ->
    nth (S (length (fst v)) + t) (linreg_fields v) 0%Z = nth t (pairwise (fst v)) 0%Z.
  Proof.
    intros H. unfold linreg_fields, linreg_inputs. rewrite app_nth2 by lia.
    replace (S (length (fst v)) + t - length (fst v))%nat with (S t) by lia. cbn [nth]. now rewrite app_nth1.
  Qed.
  Lemma fields_xy v i : (i < length (fst v))%nat ->
    nth (S (length (fst v)) + length (pairwise (fst v)) + i) (linreg_fields v) 0%Z = (nth i (fst v) 0 * snd v)%Z.
  Proof.
    intros H. unfold linreg_fields, linreg_inputs. rewrite app_nth2 by lia.
    replace (S (length (fst v)) + length (pairwise (fst v)) + i - length (fst v))%nat
      with (S (length (pairwise (fst v)) + i)) by lia.
    cbn [nth]. rewrite app_nth2 by lia. replace (length (pairwise (fst v)) + i - length (pairwise (fst v)))%nat with i by lia.
    now rewrite nth_map_any with (d0 := 0%Z).
  Qed.

  Lemma nth_sum_map (s : nat -> Z) a n i : (i < n)%nat -> nth i (map s (seq a n)) 0%Z = s (a + i)%nat.
  Proof. intros H. rewrite nth_map_any with (d0 := O) by now rewrite seq_length. now rewrite seq_nth. Qed.

  Lemma x_border i : (i < degree)%nat -> nth i (fst sums) 0%Z = mom i 0.
  Proof.
    intros H. unfold sums, moments. cbn [fst]. destruct i as [|i]; cbn [nth].
    - unfold mom. transitivity (zsum (map (fun _ : list Z * Z => 1%Z) data)).
      + clear. induction data as [|a l IH]; [reflexivity|]. cbn [length map]. rewrite Nat2Z.inj_succ.
        change (zsum (1%Z :: map (fun _ => 1%Z) l)) with (1 + zsum (map (fun _ : list Z * Z => 1%Z) l))%Z.
        rewrite <- IH. lia.
      + apply zsum_ext. reflexivity.
    - unfold num_x in *. rewrite app_nth1 by (rewrite map_length, seq_length; lia).
      rewrite nth_sum_map by lia. cbn [Nat.add]. apply zsum_ext. intros v Hv.
      rewrite fields_x by (rewrite SH by exact Hv; lia). unfold zc. cbn [nth]. lia.
  Qed.
  Lemma x_quad t : (t < num_quad degree)%nat ->
    let ij := nth t (linreg_pairs (num_x degree)) (O, O) in
    nth (degree + t) (fst sums) 0%Z = mom (S (fst ij)) (S (snd ij)).
  Proof.
    intros H ij. unfold sums, moments. cbn [fst].
    replace (degree + t)%nat with (S (num_x degree + t)) by (unfold num_x; lia). cbn [nth].
    rewrite app_nth2 by (rewrite map_length, seq_length; lia). rewrite map_length, seq_length.
    replace (num_x degree + t - num_x degree)%nat with t by lia.
    rewrite nth_sum_map by lia. apply zsum_ext. intros v Hv.
    assert (LP : length (pairwise (fst v)) = num_quad degree) by (rewrite pairwise_length, SH by exact Hv; reflexivity).
    replace (degree + t)%nat with (S (length (fst v)) + t)%nat by (rewrite SH by exact Hv; unfold num_x; lia).
    rewrite fields_quad by lia. rewrite pairwise_pairs, SH by exact Hv.
    rewrite nth_map_any with (d0 := (O, O)); [reflexivity|]. rewrite linreg_pairs_length. exact H.
  Qed.
  Lemma y_entry i : (i < degree)%nat -> nth i (snd sums) 0%Z = momy i.
  Proof.
    intros H. unfold sums, moments. cbn [snd]. destruct i as [|i]; cbn [nth].
    - apply zsum_ext. intros v Hv. rewrite <- (SH v Hv), fields_y. unfold zc. cbn [nth]. lia.
    - unfold num_x in *. rewrite nth_sum_map by lia. apply zsum_ext. intros v Hv.
      assert (LP : length (pairwise (fst v)) = num_quad degree) by (rewrite pairwise_length, SH by exact Hv; reflexivity).
      replace (degree + num_quad degree + i)%nat with (S (length (fst v)) + length (pairwise (fst v)) + i)%nat
        by (rewrite LP, SH by exact Hv; lia).
      rewrite fields_xy by (rewrite SH by exact Hv; lia). reflexivity.
  Qed.

  (** *** The loops that fill the matrix *)
  Lemma border_spec x : forall m X,
    let X' := fold_left (fun X i =>
      let X1 := set_entry X i 0 (of_ui (nth i x 0%Z)) in
      if (0 <? i)%nat then set_entry X1 0 i (of_ui (nth i x 0%Z)) else X1) (seq 0 m) X in
    forall i, (i < m)%nat -> X' i O = of_ui (nth i x 0%Z) /\ X' O i = of_ui (nth i x 0%Z).
  Proof.
    induction m as [|m IH]; intros X X' i Hi; [lia|].
    subst X'. rewrite seq_S, fold_left_app. cbn [fold_left Nat.add].
    specialize (IH X). cbv zeta in IH. set (X' := fold_left _ (seq 0 m) X) in *. clearbody X'.
    destruct (Nat.eq_dec i m) as [->|N].
    - destruct m as [|m]; cbn [Nat.ltb Nat.leb]; unfold set_entry; cbn; rewrite ?Nat.eqb_refl; auto.
    - destruct (IH i) as [A B]; [lia|].
      assert (M0 : (0 =? m)%nat = false) by (apply Nat.eqb_neq; lia).
      assert (MI : (i =? m)%nat = false) by (apply Nat.eqb_neq; lia).
      destruct (Nat.ltb_spec 0 m); [|lia]. unfold set_entry. rewrite M0, MI, !andb_false_r. cbn [andb]. auto.
  Qed.

  Lemma fold_flat x (f : nat -> list nat) : forall l s,
    fold_left (fun s i => fold_left (fill_cell x i) (f i) s) l s =
    fold_left (fun s ij => fill_cell x (fst ij) s (snd ij)) (flat_map (fun i => map (pair i) (f i)) l) s.
  Proof.
    induction l as [|i l IH]; intros s; [reflexivity|]. cbn [fold_left flat_map]. rewrite fold_left_app, IH.
    f_equal. generalize (f i) s. intros m. induction m as [|j m IHm]; intros s'; [reflexivity|]. cbn. apply IHm.
  Qed.

  Lemma cells_spec x (g : nat -> nat -> Z) (GS : forall i j, g i j = g j i) : forall ps X idx,
    (forall t, (t < length ps)%nat ->
      nth (idx + t) x 0%Z = g (fst (nth t ps (O, O))) (snd (nth t ps (O, O)))) ->
    let X' := fst (fold_left (fun s ij => fill_cell x (fst ij) s (snd ij)) ps (X, idx)) in
    forall a b, (In (a, b) ps \/ In (b, a) ps -> X' a b = of_ui (g a b)) /\
                (~ In (a, b) ps -> ~ In (b, a) ps -> X' a b = X a b).
  Proof.
    induction ps as [|[i j] ps IH]; intros X idx H X' a b; subst X'; cbn [fold_left fst snd].
    - split; [intros [[]|[]]|reflexivity].
    - assert (E : nth idx x 0%Z = g i j).
      { specialize (H O). rewrite Nat.add_0_r in H. apply H. cbn. lia. }
      unfold fill_cell at 2 4. rewrite E.
      set (X1 := if negb (j =? i)%nat then _ else _).
      specialize (IH X1 (S idx)). cbv zeta in IH.
      assert (IH' := IH ltac:(intros t Ht; specialize (H (S t)); cbn in H; rewrite Nat.add_succ_r in H; apply H; lia) a b).
      clear IH. destruct IH' as [I1 I2].
      assert (X1a : (a = i /\ b = j) \/ (a = j /\ b = i) -> X1 a b = of_ui (g a b)).
      { intros W. subst X1. destruct (Nat.eqb_spec j i) as [->|N]; cbn [negb]; unfold set_entry.
        - assert (a = i /\ b = i) as [-> ->] by (destruct W as [[]|[]]; subst; auto).
          now rewrite Nat.eqb_refl.
        - destruct W as [[-> ->]|[-> ->]].
          + destruct (Nat.eqb_spec i j); [congruence|]. cbn [andb]. now rewrite !Nat.eqb_refl.
          + now rewrite !Nat.eqb_refl, GS. }
      assert (X1b : ~ (a = i /\ b = j) -> ~ (a = j /\ b = i) -> X1 a b = X a b).
      { intros W1 W2. subst X1. destruct (Nat.eqb_spec j i) as [->|N]; cbn [negb]; unfold set_entry.
        - destruct (Nat.eqb_spec a i), (Nat.eqb_spec b i); cbn [andb]; auto; tauto.
        - destruct (Nat.eqb_spec a j), (Nat.eqb_spec b i), (Nat.eqb_spec a i), (Nat.eqb_spec b j); cbn [andb]; auto; tauto. }
      assert (DEC : (In (a, b) ps \/ In (b, a) ps) \/ (~ In (a, b) ps /\ ~ In (b, a) ps)).
      { assert (D : forall x y : nat * nat, {x = y} + {x <> y}) by (decide equality; apply Nat.eq_dec).
        destruct (in_dec D (a, b) ps), (in_dec D (b, a) ps); auto. }
      split.
      + intros W. destruct DEC as [Y|[N1 N2]]; [now apply I1|]. rewrite (I2 N1 N2). apply X1a.
        destruct W as [[W|W]|[W|W]]; try contradiction; inversion W; auto.
      + intros W1 W2. rewrite I2; [|intros W; apply W1; now right|intros W; apply W2; now right].
        apply X1b; intros [-> ->]; [apply W1|apply W2]; now left.
  Qed.

  Lemma shifted_pairs :
    flat_map (fun i => map (pair i) (seq i (degree - i))) (seq 1 (degree - 1)) =
    map (fun ij => (S (fst ij), S (snd ij))) (linreg_pairs (num_x degree)).
  Proof.
    unfold linreg_pairs, num_x. rewrite <- seq_shift. rewrite flat_map_concat_map, map_map.
    rewrite flat_map_concat_map, concat_map, map_map. f_equal. apply map_ext_in. intros i Hi.
    rewrite map_map. replace (degree - S i)%nat with (degree - 1 - i)%nat by lia.
    rewrite <- (seq_shift _ i), map_map. apply map_ext. reflexivity.
  Qed.

  Lemma matrix_entries i j : (i < degree)%nat -> (j < degree)%nat ->
    matrix_X degree (fst sums) i j = rat (mom i j).
  Proof.
    intros Hi Hj. unfold matrix_X, fill_rest. rewrite fold_flat, shifted_pairs.
    set (ps := map _ (linreg_pairs (num_x degree))).
    set (X0 := fill_border degree (fst sums) _).
    assert (LP : length ps = num_quad degree) by (unfold ps; rewrite map_length; apply linreg_pairs_length).
    destruct (cells_spec (fst sums) mom mom_sym ps X0 degree) with (a := i) (b := j) as [A B].
    { intros t Ht. rewrite LP in Ht. rewrite x_quad by exact Ht.
      unfold ps. rewrite nth_map_any with (d0 := (O, O)); [reflexivity|].
      rewrite linreg_pairs_length. exact Ht. }
    assert (IN : forall a b, In (a, b) ps <-> (1 <= a <= b)%nat /\ (b < degree)%nat).
    { intros a b. unfold ps. rewrite <- shifted_pairs. rewrite in_flat_map. split.
      - intros (x & Hx & H). apply in_map_iff in H as (y & E & Hy). inversion E; subst.
        apply in_seq in Hx, Hy. lia.
      - intros H. exists a. rewrite in_seq. split; [lia|]. apply in_map, in_seq. lia. }
    destruct i as [|i], j as [|j].
    1-3: rewrite B by (rewrite IN; lia); unfold X0, fill_border;
      match goal with |- fold_left _ _ _ ?a ?b = _ =>
        pose proof (border_spec (fst sums) degree (fun _ _ => of_ui 0)) as BS; cbv zeta in BS end.
    - rewrite (proj1 (BS O Hi)), of_ui_rat, x_border by exact Hi. reflexivity.
    - rewrite (proj2 (BS (S j) Hj)), of_ui_rat, x_border by exact Hj. now rewrite mom_sym.
    - rewrite (proj1 (BS (S i) Hi)), of_ui_rat, x_border by exact Hi. reflexivity.
    - apply A. rewrite !IN. lia.
  Qed.
  Lemma vector_entries i : (i < degree)%nat -> nth i (vector_Y degree (snd sums)) zero = rat (momy i).
  Proof. intros H. unfold vector_Y. rewrite nth_map_seq by exact H. now rewrite y_entry, of_ui_rat. Qed.

  (** ** Normal equations *)
  Definition zq (v : list Z * Z) (i : nat) : Qc := rat (zc v i).
  Definition lin (c : nat -> Qc) (v : list Z * Z) : Qc := qsum degree (fun i => c i * zq v i).
  Definition fn (c : list Qc) (i : nat) : Qc := nth i c zero.

  Lemma predicted_lin c v : In v data -> length c = degree -> predicted c v = lin (fn c) v.
  Proof.
    intros Hv Hc. unfold predicted. rewrite (sum_over_combine _ _ degree); [|exact Hc|].
    - apply qsum_ext. intros i Hi. unfold fn, zq, zc, coordinates.
      rewrite nth_map_any with (d0 := 0%Z); [reflexivity|]. cbn. rewrite SH by exact Hv. unfold num_x. lia.
    - unfold coordinates. rewrite map_length. cbn. rewrite SH by exact Hv. unfold num_x. lia.
  Qed.

  Lemma mom_rat i j : rat (mom i j) = sum_over (fun v => zq v i * zq v j) data.
  Proof.
    unfold mom. rewrite <- sum_over_rat. apply sum_over_ext. intros v _. unfold zq. apply rat_mul.
  Qed.
  Lemma momy_rat i : rat (momy i) = sum_over (fun v => zq v i * rat (snd v)) data.
  Proof.
    unfold momy. rewrite <- sum_over_rat. apply sum_over_ext. intros v _. unfold zq. apply rat_mul.
  Qed.
  Lemma matrix_times c i :
    qsum degree (fun j => rat (mom i j) * c j) = sum_over (fun v => zq v i * lin c v) data.
  Proof.
    transitivity (qsum degree (fun j => sum_over (fun v => zq v i * (c j * zq v j)) data)).
    - apply qsum_ext. intros j Hj. rewrite mom_rat, Qcmult_comm, <- sum_over_mul.
      apply sum_over_ext. intros v _. ring.
    - rewrite <- sum_over_qsum. apply sum_over_ext. intros v _. unfold lin. now rewrite qsum_mul.
  Qed.

  (** c^T X c is the sum of the squares of the predictions. *)
  Lemma quadratic c d :
    qsum degree (fun i => c i * qsum degree (fun j => rat (mom i j) * d j)) = sum_over (fun v => lin c v * lin d v) data.
  Proof.
    transitivity (qsum degree (fun i => sum_over (fun v => c i * zq v i * lin d v) data)).
    - apply qsum_ext. intros i _. rewrite matrix_times, <- sum_over_mul. apply sum_over_ext. intros; ring.
    - rewrite <- sum_over_qsum. apply sum_over_ext. intros v _. unfold lin at 2. now rewrite qsum_mul_r.
  Qed.

  Context (M : list (list Qc)) (E : fmpq_mat_inv degree (matrix_X degree (fst sums)) = Some M).

  Lemma matrix_sym i j : (i < degree)%nat -> (j < degree)%nat ->
    matrix_X degree (fst sums) i j = matrix_X degree (fst sums) j i.
  Proof. intros Hi Hj. rewrite !matrix_entries by auto. now rewrite mom_sym. Qed.

  Lemma null_zero d : (forall v, In v data -> lin d v = 0) -> forall i, (i < degree)%nat -> d i = zero.
  Proof.
    intros H i Hi. pose proof (inverse_spec degree (matrix_X degree (fst sums))) as IS. rewrite E in IS.
    destruct IS as (_ & _ & L).
    transitivity (qsum degree (fun j => delta j i * d j)); [now rewrite qsum_delta|].
    transitivity (qsum degree (fun k => nth k (nth i M []) zero * qsum degree (fun j => rat (mom k j) * d j))).
    - transitivity (qsum degree (fun k => qsum degree (fun j => nth k (nth i M []) zero * matrix_X degree (fst sums) k j * d j))).
      + rewrite qsum_swap. apply qsum_ext. intros j Hj. rewrite qsum_mul_r. f_equal. rewrite delta_sym. symmetry. now apply L.
      + apply qsum_ext. intros k Hk. rewrite <- qsum_mul. apply qsum_ext. intros j Hj.
        rewrite matrix_entries by auto. ring.
    - apply qsum_zero. intros k Hk. rewrite matrix_times, sum_over_zero; [qring|].
      intros v Hv. rewrite H by exact Hv. ring.
  Qed.

  Context (c : list Qc) (EC : SolveLinReg degree (fst sums) (snd sums) = Some c).
  Lemma solution_length : length c = degree.
  Proof. unfold SolveLinReg in EC. rewrite E in EC. injection EC as <-. now rewrite map_length, seq_length. Qed.
  Lemma normal i : (i < degree)%nat -> sum_over (fun v => zq v i * lin (fn c) v) data = sum_over (fun v => zq v i * rat (snd v)) data.
  Proof.
    intros Hi. rewrite <- matrix_times, <- momy_rat, <- vector_entries by exact Hi.
    pose proof (inverse_solves degree _ matrix_sym M (fun k => nth k (vector_Y degree (snd sums)) zero) E i Hi) as S.
    etransitivity; [|exact S]. apply qsum_ext. intros j Hj. rewrite matrix_entries by auto. f_equal.
    unfold SolveLinReg in EC. rewrite E in EC. injection EC as <-. unfold fn. now rewrite nth_map_seq by exact Hj.
  Qed.

  Lemma error_split c' : length c' = degree ->
    total_error c' data = total_error c data +
      sum_over (fun v => (lin (fn c') v - lin (fn c) v) * (lin (fn c') v - lin (fn c) v)) data.
  Proof.
    intros L'. pose proof solution_length as L.
    assert (CR : forall d, sum_over (fun v => (rat (snd v) - lin (fn c) v) * lin d v) data = 0).
    { intros d. transitivity (qsum degree (fun i => sum_over (fun v => (rat (snd v) - lin (fn c) v) * (d i * zq v i)) data)).
      - rewrite <- sum_over_qsum. apply sum_over_ext. intros v _. now rewrite qsum_mul.
      - apply qsum_zero. intros i Hi.
        transitivity (d i * (sum_over (fun v => zq v i * rat (snd v)) data + - (1) * sum_over (fun v => zq v i * lin (fn c) v) data)).
        + rewrite <- sum_over_mul, <- sum_over_add, <- sum_over_mul. apply sum_over_ext. intros; ring.
        + rewrite normal by exact Hi. qring. }
    unfold total_error.
    transitivity (sum_over (fun v => squared_error c v
       + (lin (fn c') v - lin (fn c) v) * (lin (fn c') v - lin (fn c) v)
       + (- (1 + 1) * ((rat (snd v) - lin (fn c) v) * lin (fn c') v)
       + (1 + 1) * ((rat (snd v) - lin (fn c) v) * lin (fn c) v))) data).
    - apply sum_over_ext. intros v Hv. unfold squared_error. rewrite !predicted_lin by auto. ring.
    - rewrite !sum_over_add, !sum_over_mul, !CR. ring.
  Qed.

  Lemma solution_least : least_squares degree c data.
  Proof.
    split; [exact solution_length|]. intros c' L'. rewrite (error_split c' L'). split.
    - rewrite <- (Qcplus_0_r (total_error c data)) at 1. apply Qcplus_le_compat; [apply Qcle_refl|apply squares_nonneg].
    - intros H.
      assert (Z0 : sum_over (fun v => (lin (fn c') v - lin (fn c) v) * (lin (fn c') v - lin (fn c) v)) data = 0).
      { set (s := sum_over _ data) in *. transitivity (total_error c data + s - total_error c data); [ring|]. rewrite H. ring. }
      pose proof (squares_zero _ _ Z0) as SZ. cbv beta in SZ.
      apply (nth_ext _ _ zero zero); [rewrite solution_length; exact L'|]. intros i Hi. rewrite L' in Hi.
      assert (N : fn c' i + - (1) * fn c i = zero).
      { apply (null_zero (fun i => fn c' i + - (1) * fn c i)); [|exact Hi]. intros v Hv.
        rewrite <- (SZ v Hv). unfold lin.
        transitivity (qsum degree (fun i => fn c' i * zq v i) + - (1) * qsum degree (fun i => fn c i * zq v i)); [|ring].
        rewrite <- qsum_mul, <- qsum_add. apply qsum_ext. intros; ring. }
      unfold fn, zero in N. transitivity (nth i c' zero + - (1) * nth i c zero + nth i c zero); [ring|].
      unfold zero. rewrite N. ring.
  Qed.
End Entries.

Lemma solution_is_least degree data c :
  (1 <= degree)%nat -> (forall v, In v data -> length (fst v) = num_x degree) ->
  SolveLinReg degree (fst (sums degree data)) (snd (sums degree data)) = Some c -> least_squares degree c data.
Proof.
  intros D1 SH EC. destruct (fmpq_mat_inv degree (matrix_X degree (fst (sums degree data)))) as [M|] eqn:E.
  - now apply (solution_least degree data D1 SH M E).
  - unfold SolveLinReg in EC. rewrite E in EC. discriminate.
Qed.

Lemma no_solution_iff degree data :
  (1 <= degree)%nat -> (forall v, In v data -> length (fst v) = num_x degree) ->
  SolveLinReg degree (fst (sums degree data)) (snd (sums degree data)) = None <-> degenerate degree data.
Proof.
  intros D1 SH. unfold SolveLinReg.
  destruct (fmpq_mat_inv degree (matrix_X degree (fst (sums degree data)))) as [M|] eqn:E.
  - split; [discriminate|]. intros (d & Ld & (q & Hq & Nq) & H). exfalso. apply Nq.
    destruct (In_nth _ _ zero Hq) as (i & Hi & <-). rewrite Ld in Hi.
    apply (null_zero degree data D1 SH M E (fn d)); [|exact Hi].
    intros v Hv. rewrite <- (predicted_lin degree data D1 SH) by auto. now apply H.
  - split; [intros _|reflexivity].
    pose proof (inverse_spec degree (matrix_X degree (fst (sums degree data)))) as IS. rewrite E in IS.
    destruct IS as (v & k & Hk & NV & H).
    exists (map v (seq 0 degree)). split; [now rewrite map_length, seq_length|]. split.
    + exists (v k). split; [apply in_map, in_seq; lia|exact NV].
    + intros w Hw. rewrite (predicted_lin degree data D1 SH) by (auto; now rewrite map_length, seq_length).
      apply (squares_zero (lin degree (fn (map v (seq 0 degree))))  data); [|exact Hw].
      rewrite <- (quadratic degree data). apply qsum_zero. intros i Hi.
      transitivity (fn (map v (seq 0 degree)) i * zero); [|qring]. f_equal. rewrite <- (H i Hi).
      apply qsum_ext. intros j Hj. rewrite matrix_entries by auto. unfold fn. now rewrite nth_map_seq.
Qed.

Lemma moments_ext degree n s s' : (forall j, s j = s' j) -> moments degree n s = moments degree n s'.
Proof. intros H. unfold moments. rewrite H. now rewrite !(map_ext s s' H). Qed.

Lemma inverse_both n (X : mat) :
  match fmpq_mat_inv n X with
  | Some M => length M = n /\ (forall i, (i < n)%nat -> length (nth i M []) = n) /\
      forall i j, (i < n)%nat -> (j < n)%nat ->
        qsum n (fun k => nth k (nth i M []) zero * X k j) = delta i j /\
        qsum n (fun k => X i k * nth j (nth k M []) zero) = delta i j
  | None => exists v k, (k < n)%nat /\ v k <> zero /\
      forall i, (i < n)%nat -> qsum n (fun j => X i j * v j) = zero
  end.
Proof.
  pose proof (inverse_spec n X) as H. pose proof (inverse_right n X) as R.
  destruct (fmpq_mat_inv n X) as [M|]; [|exact H]. destruct H as (A & B & C). split; [exact A|]. split; [exact B|].
  intros i j Hi Hj. split; [now apply C|now apply R].
Qed.

Lemma inverse_unique n (X : mat) M (N : mat) :
  fmpq_mat_inv n X = Some M ->
  (forall i j, (i < n)%nat -> (j < n)%nat -> qsum n (fun k => X i k * N k j) = delta i j) ->
  forall i j, (i < n)%nat -> (j < n)%nat -> nth j (nth i M []) zero = N i j.
Proof.
  intros E R i j Hi Hj. pose proof (inverse_spec n X) as IS. rewrite E in IS. destruct IS as (_ & _ & L).
  set (m := fun i j => nth j (nth i M []) zero). change (m i j = N i j).
  transitivity (qsum n (fun l => m i l * qsum n (fun k => X l k * N k j))).
  - rewrite (qsum_ext n _ (fun l => delta l j * m i l)). { now rewrite qsum_delta. }
    intros l Hl. rewrite R by auto. ring.
  - transitivity (qsum n (fun l => qsum n (fun k => m i l * X l k * N k j))).
    { apply qsum_ext. intros l Hl. rewrite <- qsum_mul. apply qsum_ext. intros; ring. }
    rewrite qsum_swap. transitivity (qsum n (fun k => delta k i * N k j)); [|now rewrite qsum_delta].
    apply qsum_ext. intros k Hk. rewrite qsum_mul_r. f_equal. rewrite delta_sym. apply L; auto.
Qed.

(** Fewer vectors than dimensions: something is orthogonal to all of them. *)
Lemma few_data_degenerate degree data :
  (forall v, In v data -> length (fst v) = num_x degree) -> (1 <= degree)%nat ->
  (length data < degree)%nat -> degenerate degree data.
Proof.
  intros SH D1 L.
  (* rows: the coordinates of the clients, filled up with zero rows *)
  set (X := fun i j => match nth_error data i with Some v => zq v j | None => zero end).
  pose proof (inverse_spec degree X) as IS. destruct (fmpq_mat_inv degree X) as [M|] eqn:EM.
  - exfalso. assert (H := inverse_right degree X M EM (degree - 1) (degree - 1) ltac:(lia) ltac:(lia)).
    rewrite qsum_zero in H.
    + unfold delta in H. rewrite Nat.eqb_refl in H. discriminate.
    + intros k _. unfold X. rewrite (proj2 (nth_error_None _ _)) by lia. qring.
  - destruct IS as (v & k & Hk & NV & H).
    exists (map v (seq 0 degree)). split; [now rewrite map_length, seq_length|]. split.
    + exists (v k). split; [apply in_map, in_seq; lia|exact NV].
    + intros w Hw. rewrite (predicted_lin degree data D1 SH) by (auto; now rewrite map_length, seq_length).
      destruct (In_nth_error _ _ Hw) as (i & Hi).
      assert (Li : (i < length data)%nat) by (apply nth_error_Some; congruence).
      etransitivity; [|apply (H i); lia]. unfold lin. apply qsum_ext. intros j Hj.
      unfold fn, X. rewrite nth_map_seq by exact Hj. rewrite Hi. ring.
Qed.
