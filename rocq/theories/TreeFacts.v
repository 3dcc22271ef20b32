(** * The product tree and evaluation from point values *)
From Coq Require Import ZArith List Bool Lia Znumtheory.
From Verif Require Import Words WordsFacts Constants Share Cong Poly SpecPoly FieldFacts PolyFacts FftFacts.
Import ListNotations.
Open Scope Z_scope.
Arguments Z.mul : simpl never.
Arguments Z.add : simpl never.
Arguments Z.sub : simpl never.
Arguments Z.pow : simpl never.
Arguments Nat.div : simpl never.

(** Derivative, Horner style. *)
Fixpoint hderiv (c : list Z) (x : Z) : Z :=
  match c with [] => 0 | _ :: c' => peval c' x + x * hderiv c' x end.

Lemma hderiv_sum c x :
  hderiv c x = zsum (map (fun i => Z.of_nat (S i) * nth (S i) c 0 * x ^ Z.of_nat i) (seq 0 (length c - 1))).
Proof.
  induction c as [|a c IH]; [reflexivity|]. cbn [hderiv length]. rewrite IH.
  replace (S (length c) - 1)%nat with (length c) by lia. cbn [nth].
  rewrite peval_sum. destruct c as [|b c]; [cbn; ring|].
  cbn [length]. replace (S (length c) - 1)%nat with (length c) by lia.
  cbn [seq map]. rewrite <- seq_shift, !map_map, !zsum_cons. rewrite <- zsum_map_scale.
  rewrite <- Z.add_assoc, <- zsum_map_add. cbn [nth]. f_equal.
  - rewrite Z.pow_0_r. cbn [Z.of_nat Pos.of_succ_nat]. ring.
  - apply zsum_map_ext. intros i _. cbn [nth]. rewrite nat_pow_succ.
    rewrite (Nat2Z.inj_succ (S i)). ring.
Qed.

Lemma pderiv_spec m c x : cong m (peval (pderiv m c) x) (hderiv c x).
Proof.
  unfold pderiv. rewrite peval_map_seq, hderiv_sum. apply zsum_map_ext_cong. intros. demod. reflexivity.
Qed.
Lemma pderiv_length m c : length (pderiv m c) = (length c - 1)%nat.
Proof. unfold pderiv. now rewrite map_length, seq_length. Qed.

Lemma hderiv_padd m a b x : cong m (hderiv (padd m a b) x) (hderiv a x + hderiv b x).
Proof.
  revert b. induction a as [|y a IH]; intros [|z b]; cbn [padd hderiv]; try cong_ring.
  rewrite IH, peval_padd. cong_ring.
Qed.
Lemma hderiv_pscale m k a x : cong m (hderiv (pscale m k a) x) (k * hderiv a x).
Proof.
  induction a as [|y a IH]; cbn [pscale map hderiv]; [cong_ring|].
  change (map (fun x0 => (k * x0) mod m) a) with (pscale m k a).
  rewrite IH, peval_pscale. cong_ring.
Qed.
Lemma hderiv_pmul m a b x :
  cong m (hderiv (pmul m a b) x) (hderiv a x * peval b x + peval a x * hderiv b x).
Proof.
  induction a as [|y a IH]; cbn [pmul hderiv]; [cbn; cong_ring|].
  rewrite hderiv_padd, hderiv_pscale. cbn [hderiv]. rewrite IH, peval_pmul, peval_cons. cong_ring.
Qed.

(** Leading coefficients. *)
Lemma nth_padd m a b n : cong m (nth n (padd m a b) 0) (nth n a 0 + nth n b 0).
Proof.
  revert b n. induction a as [|y a IH]; intros [|z b] [|n]; cbn [padd nth]; try cong_ring.
  - demod. reflexivity.
  - apply IH.
Qed.
Lemma nth_pscale m k a n : cong m (nth n (pscale m k a) 0) (k * nth n a 0).
Proof.
  unfold pscale. revert n. induction a as [|y a IH]; intros [|n]; cbn [map nth]; try cong_ring.
  - demod. reflexivity.
  - apply IH.
Qed.
Lemma lead_pmul m a b da db : length a = S da -> length b = S db ->
  cong m (nth (da + db) (pmul m a b) 0) (nth da a 0 * nth db b 0).
Proof.
  revert da. induction a as [|y a IH]; intros da Ha Hb; [discriminate|].
  cbn [pmul]. rewrite nth_padd, nth_pscale. destruct da as [|da].
  - destruct a; [|discriminate]. cbn [pmul nth Nat.add]. destruct db; cbn [nth]; [|destruct db]; cong_ring.
  - cbn [Nat.add nth]. rewrite (nth_overflow b) by lia. rewrite IH by (cbn in Ha; lia). cong_ring.
Qed.

(** Remainder. *)
Lemma prem_step_length m b c r : length (prem_step m b c r) = (length b - 1)%nat.
Proof. unfold prem_step. now rewrite map_length, seq_length. Qed.
Lemma prem_length m a b : length (prem m a b) = (length b - 1)%nat.
Proof. destruct a; cbn; [apply repeat_length|apply prem_step_length]. Qed.

Lemma prem_step_eval m b c r d x : length b = S d -> cong m (nth d b 0) 1 -> length r = d ->
  cong m (peval b x) 0 -> cong m (peval (prem_step m b c r) x) (c + x * peval r x).
Proof.
  intros Hb Hl Hr H0. unfold prem_step. rewrite Hb. replace (S d - 1)%nat with d by lia. cbv zeta.
  set (s := c :: r). set (t := nth d s 0). rewrite peval_map_seq.
  transitivity (zsum (map (fun j => nth j s 0 * x ^ Z.of_nat j) (seq 0 d))
     + (- t) * zsum (map (fun j => nth j b 0 * x ^ Z.of_nat j) (seq 0 d))).
  { rewrite <- zsum_map_scale, <- zsum_map_add. apply zsum_map_ext_cong. intros. demod. cong_ring. }
  assert (Es : peval s x = zsum (map (fun j => nth j s 0 * x ^ Z.of_nat j) (seq 0 d)) + t * x ^ Z.of_nat d).
  { rewrite peval_sum. replace (length s) with (S d) by (unfold s; cbn; lia).
    rewrite seq_S, map_app, zsum_app. cbn [map]. rewrite zsum_cons, zsum_nil. unfold t. cbn [Nat.add]. ring. }
  assert (Eb : cong m (zsum (map (fun j => nth j b 0 * x ^ Z.of_nat j) (seq 0 d))) (- x ^ Z.of_nat d)).
  { rewrite peval_sum, Hb, seq_S, map_app, zsum_app in H0. cbn [map] in H0. rewrite zsum_cons, zsum_nil in H0.
    cbn [Nat.add] in H0. rewrite Hl in H0.
    transitivity (zsum (map (fun j => nth j b 0 * x ^ Z.of_nat j) (seq 0 d)) + (1 * x ^ Z.of_nat d + 0) - x ^ Z.of_nat d); [cong_ring|].
    rewrite H0. cong_ring. }
  rewrite Eb. change (c + x * peval r x) with (peval s x). rewrite Es. cong_ring.
Qed.

Lemma prem_eval m a b d x : length b = S d -> cong m (nth d b 0) 1 ->
  cong m (peval b x) 0 -> cong m (peval (prem m a b) x) (peval a x).
Proof.
  intros Hb Hl H0. induction a as [|c a IH].
  - cbn. rewrite peval_repeat0. reflexivity.
  - change (prem m (c :: a) b) with (prem_step m b c (prem m a b)).
    rewrite (prem_step_eval m b c _ d) by (auto; rewrite prem_length; lia).
    rewrite IH. reflexivity.
Qed.

(** Trees. *)
Inductive tree_ok (m : Z) : list Z -> tree -> Prop :=
| tok_leaf x : tree_ok m [x] (Leaf [(- x) mod m; 1])
| tok_node xs ys l r : tree_ok m xs l -> tree_ok m ys r ->
    tree_ok m (xs ++ ys) (Node (pmul m (tpoly l) (tpoly r)) l r).

Lemma tree_init_ok m : forall fuel n xs, (1 <= n)%nat -> (n <= fuel)%nat -> (n <= length xs)%nat ->
  tree_ok m (firstn n xs) (tree_init fuel m n xs).
Proof.
  induction fuel as [|f IH]; intros n xs H1 Hf Hl; [lia|]. cbn [tree_init].
  destruct (Nat.eqb_spec n 1) as [->|Hn].
  - destruct xs as [|x xs]; [cbn in Hl; lia|]. cbn. constructor.
  - assert (Hk : (1 <= Nat.div n 2 < n)%nat).
    { split; [apply Nat.div_le_lower_bound; lia|apply Nat.div_lt; lia]. }
    set (k := Nat.div n 2) in *. cbv zeta.
    replace (firstn n xs) with (firstn k xs ++ firstn (n - k) (skipn k xs)).
    2:{ rewrite <- (firstn_skipn k (firstn n xs)). rewrite firstn_firstn, Nat.min_l by lia.
        now rewrite skipn_firstn_comm. }
    constructor; apply IH; try lia. rewrite skipn_length. lia.
Qed.

Lemma tree_ok_ne m xs t : tree_ok m xs t -> xs <> [].
Proof. induction 1; [discriminate|]. destruct xs; [congruence|discriminate]. Qed.

Lemma tpoly_length m xs t : tree_ok m xs t -> length (tpoly t) = S (length xs).
Proof.
  induction 1; [reflexivity|]. cbn [tpoly]. rewrite pmul_length.
  - rewrite IHtree_ok1, IHtree_ok2, app_length. lia.
  - intros E. rewrite E in IHtree_ok1. discriminate.
  - intros E. rewrite E in IHtree_ok2. discriminate.
Qed.

Lemma tpoly_monic m xs t : tree_ok m xs t -> cong m (nth (length xs) (tpoly t) 0) 1.
Proof.
  induction 1; [reflexivity|]. cbn [tpoly]. rewrite app_length.
  rewrite lead_pmul by (eapply tpoly_length; eauto). rewrite IHtree_ok1, IHtree_ok2. cong_ring.
Qed.

Lemma tpoly_eval m xs t x : tree_ok m xs t ->
  cong m (peval (tpoly t) x) (zprod (map (fun xi => x - xi) xs)).
Proof.
  induction 1; cbn [tpoly].
  - rewrite !peval_cons, peval_nil. cbn [map]. rewrite zprod_cons. cbn [zprod fold_right]. demod. cong_ring.
  - rewrite peval_pmul, IHtree_ok1, IHtree_ok2, map_app, zprod_app. reflexivity.
Qed.

(** Derivative of a product of linear factors. *)
Fixpoint dprod (xs : list Z) (x : Z) : Z :=
  match xs with
  | [] => 0
  | y :: xs' => zprod (map (fun xi => x - xi) xs') + (x - y) * dprod xs' x
  end.
Lemma dprod_app xs ys x : dprod (xs ++ ys) x =
  dprod xs x * zprod (map (fun xi => x - xi) ys) + zprod (map (fun xi => x - xi) xs) * dprod ys x.
Proof.
  induction xs as [|y xs IH]; cbn [app dprod map]; rewrite ?zprod_cons.
  - cbn [zprod fold_right]. ring.
  - rewrite IH, map_app, zprod_app. ring.
Qed.
Lemma tpoly_deriv m xs t x : tree_ok m xs t -> cong m (hderiv (tpoly t) x) (dprod xs x).
Proof.
  induction 1; cbn [tpoly].
  - cbn. cong_ring.
  - rewrite hderiv_pmul, IHtree_ok1, IHtree_ok2, (tpoly_eval m xs l), (tpoly_eval m ys r), dprod_app by assumption. reflexivity.
Qed.

Lemma zprod_root xs x : In x xs -> zprod (map (fun xi => x - xi) xs) = 0.
Proof.
  induction xs as [|y xs IH]; [intros []|]. intros [->|H]; cbn [map]; rewrite zprod_cons; [ring|].
  rewrite IH by auto. ring.
Qed.

Definition others (i : nat) (xs : list Z) : list Z := firstn i xs ++ skipn (S i) xs.
Lemma others_length i xs : (i < length xs)%nat -> length (others i xs) = (length xs - 1)%nat.
Proof. intros. unfold others. rewrite app_length, firstn_length, skipn_length. lia. Qed.
Lemma others_in i k xs : (i < length xs)%nat -> (k < length xs)%nat -> k <> i -> In (nth k xs 0) (others i xs).
Proof.
  intros Hi Hk Hne. unfold others. apply in_app_iff. destruct (Nat.lt_ge_cases k i) as [L|L]; [left|right].
  - rewrite <- (firstn_skipn i xs) at 1. rewrite app_nth1 by (rewrite firstn_length; lia). apply nth_In. rewrite firstn_length. lia.
  - rewrite <- (firstn_skipn (S i) xs) at 1. rewrite app_nth2 by (rewrite firstn_length; lia). apply nth_In.
    rewrite firstn_length, skipn_length. lia.
Qed.
Lemma zprod_others xs i x : (i < length xs)%nat ->
  zprod (map (fun xi => x - xi) xs) = (x - nth i xs 0) * zprod (map (fun xi => x - xi) (others i xs)).
Proof.
  revert i. induction xs as [|y xs IH]; intros [|i] H; cbn [length] in H; try lia.
  - reflexivity.
  - cbn [map nth]. rewrite zprod_cons, (IH i) by lia.
    change (others (S i) (y :: xs)) with (y :: others i xs). cbn [map]. rewrite zprod_cons. ring.
Qed.
Lemma dprod_at xs i : (i < length xs)%nat ->
  dprod xs (nth i xs 0) = zprod (map (fun xi => nth i xs 0 - xi) (others i xs)).
Proof.
  revert i. induction xs as [|y xs IH]; intros [|i] H; cbn [length] in H; try lia.
  - cbn [dprod nth]. change (others 0 (y :: xs)) with xs. ring.
  - cbn [dprod nth]. change (others (S i) (y :: xs)) with (y :: others i xs).
    rewrite IH by lia. cbn [map]. rewrite zprod_cons.
    rewrite zprod_root by (apply nth_In; lia). ring.
Qed.

(** Fast multi-point evaluation. *)
Lemma fast_evaluate_spec m xs t : tree_ok m xs t -> forall f, length f = length xs ->
  length (fast_evaluate m f t) = length xs /\
  forall i, (i < length xs)%nat -> cong m (nth i (fast_evaluate m f t) 0) (peval f (nth i xs 0)).
Proof.
  induction 1 as [x|xs ys l r Hl IHl Hr IHr]; intros f Hf.
  - destruct f as [|a [|]]; try discriminate. split; [reflexivity|]. intros i Hi. cbn in Hi.
    replace i with 0%nat by lia. cbn. cong_ring.
  - cbn [fast_evaluate].
    destruct (IHl (prem m f (tpoly l))) as [A1 B1]. { rewrite prem_length, (tpoly_length m xs l) by auto. lia. }
    destruct (IHr (prem m f (tpoly r))) as [A2 B2]. { rewrite prem_length, (tpoly_length m ys r) by auto. lia. }
    split; [rewrite !app_length; lia|]. intros i Hi. rewrite app_length in Hi.
    destruct (Nat.lt_ge_cases i (length xs)) as [L|L].
    + rewrite !app_nth1 by lia. rewrite B1 by lia.
      apply (prem_eval m f _ (length xs)); [eapply tpoly_length; eauto|eapply tpoly_monic; eauto|].
      rewrite (tpoly_eval m xs l) by auto. rewrite zprod_root by (apply nth_In; lia). reflexivity.
    + rewrite !app_nth2 by lia. rewrite A1, B2 by lia.
      apply (prem_eval m f _ (length ys)); [eapply tpoly_length; eauto|eapply tpoly_monic; eauto|].
      rewrite (tpoly_eval m ys r) by auto. rewrite zprod_root by (apply nth_In; lia). reflexivity.
Qed.

Section Prime.
Variable q : Z.
Hypothesis Hq : prime q.

Lemma precomp_init_spec n xs : (1 <= n)%nat -> length xs = n ->
  let pre := poly_batch_precomp_init q n xs in
  pre_mod pre = q /\ x_points pre = xs /\ length (s_points pre) = n /\
  forall i, (i < n)%nat ->
    cong q (nth i (s_points pre) 0) (invmod q (zprod (map (fun xi => nth i xs 0 - xi) (others i xs)))).
Proof.
  intros H1 Hl. cbv zeta. unfold poly_batch_precomp_init. cbn [pre_mod x_points s_points].
  pose proof (tree_init_ok q n n xs H1 (le_n _) ltac:(lia)) as T.
  rewrite <- Hl in T at 1. rewrite firstn_all in T.
  set (t := tree_init n q n xs) in *.
  destruct (fast_evaluate_spec q xs t T (pderiv q (tpoly t))) as [A B].
  { rewrite pderiv_length, (tpoly_length q xs t T). lia. }
  do 3 (split; [auto; rewrite <- Hl; try apply firstn_all; now rewrite map_length|]).
  intros i Hi. rewrite nth_indep with (d' := invmod q 0) by (rewrite map_length; lia).
  rewrite map_nth. apply cong_eq. apply invmod_cong; auto.
  rewrite B by lia. rewrite pderiv_spec, (tpoly_deriv q xs t _ T), dprod_at by lia. reflexivity.
Qed.

(** Lagrange basis sum as a polynomial. *)
Definition lag_coeff xs i : Z := invmod q (zprod (map (fun xi => nth i xs 0 - xi) (others i xs))).
Definition lagrange (xs ys : list Z) (is : list nat) : list Z :=
  fold_right (fun i acc => zpadd (map (Z.mul (nth i ys 0 * lag_coeff xs i)) (zmonic (others i xs))) acc) [] is.
Lemma lagrange_eval xs ys is x : peval (lagrange xs ys is) x =
  zsum (map (fun i => nth i ys 0 * (lag_coeff xs i * zprod (map (fun xi => x - xi) (others i xs)))) is).
Proof.
  induction is as [|i is IH]; [reflexivity|]. cbn [lagrange fold_right map].
  fold (lagrange xs ys is). rewrite peval_zpadd, peval_map_scale, zmonic_eval, IH, zsum_cons. ring.
Qed.
Lemma lagrange_length xs ys is : Forall (fun i => (i < length xs)%nat) is ->
  (length (lagrange xs ys is) <= length xs)%nat.
Proof.
  induction 1; cbn [lagrange fold_right]; [cbn; lia|]. fold (lagrange xs ys l).
  rewrite zpadd_length, map_length, zmonic_length, others_length by auto. lia.
Qed.

Lemma distinct_nth xs i j : distinct q xs -> (i < length xs)%nat -> (j < length xs)%nat -> i <> j ->
  ~ cong q (nth i xs 0) (nth j xs 0).
Proof.
  revert i j. induction xs as [|x xs IH]; intros i j H Hi Hj Hne; cbn [length] in *; [lia|]. destruct H as [H1 H2].
  rewrite Forall_forall in H1.
  destruct i as [|i], j as [|j]; cbn [nth]; try lia.
  - intros K. apply (H1 (nth j xs 0)); [apply nth_In; lia|]. now symmetry.
  - apply H1. apply nth_In; lia.
  - apply IH; auto; lia.
Qed.

Lemma others_nonzero xs i x : distinct q xs -> (i < length xs)%nat ->
  (forall k, (k < length xs)%nat -> k <> i -> ~ cong q x (nth k xs 0)) ->
  ~ cong q (zprod (map (fun xi => x - xi) (others i xs))) 0.
Proof.
  intros Hd Hi H. apply (zprod_nonzero q Hq). apply Forall_forall. intros z Hz.
  apply in_map_iff in Hz. destruct Hz as (xi & <- & Hz).
  unfold others in Hz. apply in_app_iff in Hz.
  assert (E : exists k, (k < length xs)%nat /\ k <> i /\ xi = nth k xs 0).
  { destruct Hz as [Hz|Hz]; apply (In_nth _ _ 0) in Hz; destruct Hz as (k & Hk & E).
    - rewrite firstn_length in Hk. exists k. do 2 (split; [lia|]). rewrite <- E.
      rewrite <- (firstn_skipn i xs) at 2. rewrite app_nth1; auto. rewrite firstn_length; lia.
    - rewrite skipn_length in Hk. exists (S i + k)%nat. do 2 (split; [lia|]). rewrite <- E.
      rewrite <- (firstn_skipn (S i) xs) at 2. rewrite app_nth2 by (rewrite firstn_length; lia).
      rewrite firstn_length, Nat.min_l by lia. f_equal. lia. }
  destruct E as (k & Hk & Hne & ->). intros K. apply (H k Hk Hne).
  unfold cong in *. now rewrite Z.sub_0_r in K.
Qed.

Lemma lagrange_at xs ys k : distinct q xs -> (k < length xs)%nat ->
  cong q (peval (lagrange xs ys (seq 0 (length xs))) (nth k xs 0)) (nth k ys 0).
Proof.
  intros Hd Hk. rewrite lagrange_eval.
  transitivity (zsum (map (fun i => if Nat.eqb i k then nth i ys 0 else 0) (seq 0 (length xs)))).
  - apply zsum_map_ext_cong. intros i Hi. apply in_seq in Hi. destruct (Nat.eqb_spec i k) as [->|Hne].
    + unfold lag_coeff. rewrite (Z.mul_comm (invmod _ _)), (invmod_spec q Hq); [cong_ring|].
      apply others_nonzero; auto. intros j Hj Hne. apply distinct_nth; auto.
    + rewrite zprod_root; [cong_ring|]. apply others_in; auto; lia.
  - rewrite zsum_pick_seq by auto. reflexivity.
Qed.

Lemma index_of_some x l i : index_of x l = Some i -> (i < length l)%nat /\ nth i l 0 = x.
Proof.
  revert i. induction l as [|y l IH]; intros i; cbn [index_of]; [discriminate|].
  destruct (Z.eqb_spec x y) as [->|Hne].
  - injection 1 as <-. cbn. split; auto; lia.
  - destruct (index_of x l) as [j|]; [|discriminate]. injection 1 as <-.
    destruct (IH j eq_refl). cbn. split; auto; lia.
Qed.
Lemma index_of_none x l : index_of x l = None -> ~ In x l.
Proof.
  induction l as [|y l IH]; cbn [index_of]; [auto|]. destruct (Z.eqb_spec x y) as [->|Hne]; [discriminate|].
  destruct (index_of x l); [discriminate|]. intros _ [->|K]; [congruence|]. now apply IH.
Qed.

Lemma fold_left_sum m : forall ys cs acc, (length cs <= length ys)%nat ->
  cong m (fold_left (fun out yc => (out + (fst yc * snd yc) mod m) mod m) (combine ys cs) acc)
         (acc + zsum (map (fun i => nth i ys 0 * nth i cs 0) (seq 0 (length cs)))).
Proof.
  induction ys as [|y ys IH]; intros [|c cs] acc H; cbn [length] in H; try lia;
    cbn [combine fold_left length seq map]; rewrite ?zsum_nil; try cong_ring.
  rewrite IH by lia. rewrite zsum_cons, <- seq_shift, map_map. cbn [fst snd nth]. demod. cong_ring.
Qed.

Lemma fold_left_prod m x : forall xs acc,
  cong m (fold_left (fun acc xi => (acc * (x - xi)) mod m) xs acc) (acc * zprod (map (fun xi => x - xi) xs)).
Proof.
  induction xs as [|y xs IH]; intros acc; cbn [fold_left map]; [cbn; cong_ring|].
  rewrite IH, zprod_cons. demod. cong_ring.
Qed.

Lemma nth_map2' (f : Z -> Z -> Z) l l' i : (i < length l)%nat -> (i < length l')%nat ->
  nth i (map2 f l l') 0 = f (nth i l 0) (nth i l' 0).
Proof.
  revert l' i. induction l as [|x l IH]; intros [|y l'] [|i] H H'; cbn [length map2 nth] in *; try lia; auto.
  apply IH; lia.
Qed.

Lemma precomp_x_eval_spec n xs r ys c : (1 <= n)%nat -> length xs = n ->
  NoDup xs -> Forall (in_field q) xs -> in_field q r -> (n <= length ys)%nat ->
  (length c <= n)%nat -> (forall i, (i < n)%nat -> cong q (peval c (nth i xs 0)) (nth i ys 0)) ->
  cong q (precomp_x_eval (precomp_x_init (poly_batch_precomp_init q n xs) r) ys) (peval c r).
Proof.
  intros H1 Hl Hn Hf Hr Hy Hc H.
  destruct (precomp_init_spec n xs H1 Hl) as (E1 & E2 & E3 & E4). cbv zeta in *.
  set (pre := poly_batch_precomp_init q n xs) in *.
  pose proof (nodup_distinct q xs Hn Hf) as Hd.
  unfold precomp_x_eval, precomp_x_init. cbn [short_x px_mod coeffs]. rewrite E1, E2.
  destruct (index_of r xs) as [i|] eqn:Ei.
  - apply index_of_some in Ei. destruct Ei as [Hi <-]. symmetry. apply H. lia.
  - apply index_of_none in Ei.
    assert (Hne : forall k, (k < n)%nat -> ~ cong q r (nth k xs 0)).
    { intros k Hk K. apply Ei. rewrite (cong_small q r (nth k xs 0)); auto; [apply nth_In; lia|].
      rewrite Forall_forall in Hf. apply Hf, nth_In. lia. }
    assert (L : length (map2 (fun xi si => (invmod q ((r - xi) mod q) * fold_left (fun acc xi0 => (acc * (r - xi0)) mod q) xs 1 * si) mod q) xs (s_points pre)) = n).
    { rewrite map2_length, E3, Hl. lia. }
    rewrite fold_left_sum by lia. rewrite L, Z.add_0_l.
    transitivity (peval (lagrange xs ys (seq 0 (length xs))) r).
    + rewrite lagrange_eval, Hl. apply zsum_map_ext_cong. intros i Hi. apply in_seq in Hi.
      rewrite nth_map2' by lia. demod.
      rewrite fold_left_prod, Z.mul_1_l, E4 by lia. fold (lag_coeff xs i).
      rewrite (zprod_others xs i) by lia.
      rewrite (invmod_cong q Hq _ (r - nth i xs 0)) by apply cong_mod.
      assert (I : cong q ((r - nth i xs 0) * invmod q (r - nth i xs 0)) 1).
      { apply (invmod_spec q Hq). intros K. apply (Hne i); [lia|]. unfold cong in *. now rewrite Z.sub_0_r in K. }
      set (u := r - nth i xs 0) in *. set (P := zprod _).
      transitivity (nth i ys 0 * ((u * invmod q u) * P * lag_coeff xs i)); [cong_ring|]. rewrite I. cong_ring.
    + apply (poly_unique q Hq xs); auto; [|lia|].
      * apply lagrange_length. apply Forall_forall. intros i Hi. apply in_seq in Hi. lia.
      * intros x Hx. apply (In_nth _ _ 0) in Hx. destruct Hx as (k & Hk & <-).
        rewrite lagrange_at by auto. symmetry. apply H. lia.
Qed.

Lemma precomp_x_eval_range n xs r ys : (1 <= n)%nat -> length xs = n -> (n <= length ys)%nat -> Forall (in_field q) ys ->
  in_field q (precomp_x_eval (precomp_x_init (poly_batch_precomp_init q n xs) r) ys).
Proof.
  intros H1 Hl Hy Hf. pose proof (prime_gt1 q Hq).
  destruct (precomp_init_spec n xs H1 Hl) as (E1 & E2 & E3 & E4). cbv zeta in *.
  unfold precomp_x_eval, precomp_x_init. cbn [short_x px_mod coeffs]. rewrite E1, E2.
  destruct (index_of r xs) as [i|] eqn:Ei.
  - apply index_of_some in Ei. rewrite Forall_forall in Hf. apply Hf, nth_In. lia.
  - generalize (combine ys (map2 (fun xi si => (invmod q ((r - xi) mod q) * fold_left (fun acc xi0 => (acc * (r - xi0)) mod q) xs 1 * si) mod q) xs (s_points (poly_batch_precomp_init q n xs)))) as l.
    assert (G : forall l acc, in_field q acc -> in_field q (fold_left (fun out (yc : Z * Z) => (out + (fst yc * snd yc) mod q) mod q) l acc)).
    { induction l as [|a l IH]; intros acc Ha; cbn [fold_left]; auto. apply IH. apply Z.mod_pos_bound. lia. }
    intros l. apply G. unfold in_field. lia.
Qed.
End Prime.
