(** Rounding errors in the final computation of VAR and STDDEV. *)
From Coq Require Import ZArith Reals List Lia Lra Psatz.
From Flocq Require Import Core.Core Relative Plus_error Div_sqrt_error BinarySingleNaN.
From Verif Require Import Words Constants SpecServer Variance SpecVariance.
Import ListNotations.
Open Scope R_scope.

Local Instance prec53 : Prec_gt_0 53 := eq_refl.
Notation fexp := (FLT_exp (3 - 1024 - 53) 53).
Notation rnd := (round radix2 fexp ZnearestE).
Definition u : R := / 2 * bpow radix2 (-53 + 1).
Lemma u_val : u = / 9007199254740992.
Proof. unfold u. cbn [bpow Z.add Z.opp Z.pos_sub]. cbn. lra. Qed.

(** ** Integers *)
Lemma int_format z : (Z.abs z <= 2 ^ 53)%Z -> generic_format radix2 fexp (IZR z).
Proof.
  intros H. destruct (Z.eq_dec (Z.abs z) (2 ^ 53)) as [E|N].
  - assert (G : generic_format radix2 fexp (bpow radix2 53)) by (apply generic_format_bpow; cbn; lia).
    assert (V : bpow radix2 53 = IZR (2 ^ 53)) by reflexivity.
    destruct (Z.abs_eq_or_opp z) as [Hz|Hz]; rewrite Hz in E.
    + rewrite E, <- V. exact G.
    + replace z with (- (2 ^ 53))%Z by lia. rewrite opp_IZR, <- V. now apply generic_format_opp.
  - apply generic_format_FLT. exists (Float radix2 z 0).
    + unfold F2R. cbn [Fnum Fexp bpow]. ring.
    + cbn [Fnum]. change (radix2 ^ 53)%Z with (2 ^ 53)%Z. lia.
    + cbn. lia.
Qed.

Lemma big x : Rabs x <= IZR (2 ^ 60) -> Rlt_bool (Rabs x) (bpow radix2 1024) = true.
Proof.
  intros H. apply Rlt_bool_true. eapply Rle_lt_trans; [exact H|].
  change (IZR (2 ^ 60)) with (bpow radix2 60). apply bpow_lt. lia.
Qed.
Lemma rnd_bound x z : (Z.abs z <= 2 ^ 53)%Z -> Rabs x <= IZR z -> Rabs (rnd x) <= IZR z.
Proof. intros Hz H. apply abs_round_le_generic; auto with typeclass_instances. apply int_format; auto. Qed.

Lemma of_int_spec z : (Z.abs z <= 2 ^ 53)%Z -> B2R (of_int z) = IZR z /\ is_finite (of_int z) = true.
Proof.
  intros H. pose proof (binary_normalize_correct 53 1024 eq_refl eq_refl mode_NE z 0 false) as C.
  cbv zeta in C. fold (of_int z) in C.
  assert (E : F2R (Float radix2 z 0) = IZR z) by (unfold F2R; cbn [Fnum Fexp bpow]; ring).
  rewrite E in C. change (round_mode mode_NE) with ZnearestE in C.
  change (SpecFloat.fexp 53 1024) with fexp in C.
  rewrite round_generic in C; [|auto with typeclass_instances|now apply int_format].
  rewrite big in C.
  - destruct C as (A & B & _). auto.
  - rewrite <- abs_IZR. apply IZR_le. lia.
Qed.

Lemma rel x : / IZR (2 ^ 200) <= Rabs x -> exists e, Rabs e <= u /\ rnd x = x * (1 + e).
Proof.
  intros H. apply (relative_error_N_FLT_ex radix2 (3 - 1024 - 53) 53 eq_refl).
  eapply Rle_trans; [|exact H]. change (IZR (2 ^ 200)) with (bpow radix2 200). rewrite <- bpow_opp. apply bpow_le. lia.
Qed.
Lemma rel_minus x y : generic_format radix2 fexp x -> generic_format radix2 fexp y ->
  exists e, Rabs e <= u /\ rnd (x - y) = (x - y) * (1 + e).
Proof.
  intros Fx Fy. destruct (FLT_plus_error_N_ex radix2 (3 - 1024 - 53) 53 (fun x => negb (Z.even x)) x (- y) Fx)
    as (e & He & E); [now apply generic_format_opp|].
  exists e. split; [|exact E]. eapply Rle_trans; [exact He|].
  change (u_ro radix2 53) with u. pose proof u_val. apply Rle_trans with (u / 1).
  - unfold Rdiv. apply Rmult_le_compat_l; [lra|]. apply Rinv_le_contravar; lra.
  - lra.
Qed.

(** ** Operations *)
Lemma div_spec x y : is_finite x = true -> B2R y <> 0 -> Rabs (B2R x / B2R y) <= IZR (2 ^ 50) ->
  B2R (ddiv x y) = rnd (B2R x / B2R y) /\ is_finite (ddiv x y) = true.
Proof.
  intros Fx Ny H. pose proof (Bdiv_correct 53 1024 eq_refl eq_refl mode_NE x y Ny) as C.
  change (round radix2 (SpecFloat.fexp 53 1024) (round_mode mode_NE)) with rnd in C.
  rewrite big in C.
  - destruct C as (A & B & _). rewrite Fx in B. auto.
  - eapply Rle_trans; [apply (rnd_bound _ (2 ^ 50)); [lia|exact H]|]. apply IZR_le. lia.
Qed.
Lemma mul_spec x y : is_finite x = true -> is_finite y = true -> Rabs (B2R x * B2R y) <= IZR (2 ^ 50) ->
  B2R (dmul x y) = rnd (B2R x * B2R y) /\ is_finite (dmul x y) = true.
Proof.
  intros Fx Fy H. pose proof (Bmult_correct 53 1024 eq_refl eq_refl mode_NE x y) as C.
  change (round radix2 (SpecFloat.fexp 53 1024) (round_mode mode_NE)) with rnd in C.
  rewrite big in C.
  - destruct C as (A & B & _). rewrite Fx, Fy in B. auto.
  - eapply Rle_trans; [apply (rnd_bound _ (2 ^ 50)); [lia|exact H]|]. apply IZR_le. lia.
Qed.
Lemma sub_spec x y : is_finite x = true -> is_finite y = true -> Rabs (B2R x - B2R y) <= IZR (2 ^ 50) ->
  B2R (dsub x y) = rnd (B2R x - B2R y) /\ is_finite (dsub x y) = true.
Proof.
  intros Fx Fy H. pose proof (Bminus_correct 53 1024 eq_refl eq_refl mode_NE x y Fx Fy) as C.
  change (round radix2 (SpecFloat.fexp 53 1024) (round_mode mode_NE)) with rnd in C.
  rewrite big in C.
  - destruct C as (A & B & _). auto.
  - eapply Rle_trans; [apply (rnd_bound _ (2 ^ 50)); [lia|exact H]|]. apply IZR_le. lia.
Qed.
Lemma format_B2R (x : double) : generic_format radix2 fexp (B2R x).
Proof. apply (generic_format_B2R 53 1024 x). Qed.

Lemma sqrt_spec x : is_finite x = true -> 0 <= B2R x ->
  is_finite (dsqrt x) = true /\ Rabs (B2R (dsqrt x) - sqrt (B2R x)) <= u * sqrt (B2R x).
Proof.
  intros Fx Px. destruct (Bsqrt_correct 53 1024 eq_refl eq_refl mode_NE x) as (A & B & _).
  fold (dsqrt x) in A, B.
  change (round radix2 (SpecFloat.fexp 53 1024) (round_mode mode_NE)) with rnd in A.
  split.
  - rewrite B. destruct x as [s|s| |[] m e H]; try discriminate; [reflexivity| |reflexivity].
    exfalso. cbn [B2R] in Px. pose proof (F2R_lt_0 radix2 (Float radix2 (Zneg m) e) ltac:(cbn; lia)) as L.
    cbn [cond_Zopp Z.opp] in Px. lra.
  - rewrite A. destruct (Req_dec (B2R x) 0) as [->|N].
    + rewrite sqrt_0, round_0 by auto with typeclass_instances. rewrite Rminus_0_r, Rabs_R0. lra.
    + destruct (sqrt_error_N_FLT_ex radix2 53 (fun x => negb (Z.even x)) eq_refl (3 - 1024 - 53) ltac:(cbn; lia) (B2R x) (format_B2R x))
        as (d & Hd & E).
      rewrite E. replace (sqrt (B2R x) * (1 + d) - sqrt (B2R x)) with (d * sqrt (B2R x)) by ring.
      rewrite Rabs_mult, (Rabs_pos_eq (sqrt _)) by apply sqrt_pos.
      apply Rmult_le_compat_r; [apply sqrt_pos|]. eapply Rle_trans; [exact Hd|].
      change (u_ro radix2 53) with u. pose proof u_val as U.
      assert (S1 : sqrt (1 + 2 * u) <= 1 + u).
      { rewrite <- (sqrt_Rsqr (1 + u)) by lra. apply sqrt_le_1; unfold Rsqr; nra. }
      assert (S0 : 1 <= sqrt (1 + 2 * u)).
      { rewrite <- sqrt_1 at 1. apply sqrt_le_1; lra. }
      assert (S2 : / (1 + u) <= / sqrt (1 + 2 * u)) by (apply Rinv_le_contravar; lra).
      assert (S3 : 1 - u <= / (1 + u)).
      { apply (Rmult_le_reg_r (1 + u)); [lra|]. rewrite Rinv_l by lra. nra. }
      unfold Rdiv. lra.
Qed.

(** ** The list *)
Fact zsum_cons x l : zsum (x :: l) = (x + zsum l)%Z. Proof. reflexivity. Qed.
Lemma total_cons x xs : total (x :: xs) = (x + total xs)%Z. Proof. reflexivity. Qed.
Lemma squares_cons x xs : total_squares (x :: xs) = (x * x + total_squares xs)%Z. Proof. reflexivity. Qed.
Definition spread (xs : list Z) : Z := (Z.of_nat (length xs) * total_squares xs - total xs * total xs)%Z.
Definition dist (x : Z) (xs : list Z) : Z := zsum (map (fun y => (x - y) * (x - y))%Z xs).
Lemma dist_val x xs : dist x xs = (Z.of_nat (length xs) * (x * x) - 2 * x * total xs + total_squares xs)%Z.
Proof.
  induction xs as [|y xs IH]; [unfold dist, total, total_squares; cbn; lia|]. unfold dist in *. cbn [map length]. rewrite zsum_cons, IH.
  rewrite total_cons, squares_cons. lia.
Qed.
Lemma spread_cons x xs : spread (x :: xs) = (spread xs + dist x xs)%Z.
Proof. unfold spread. rewrite dist_val, total_cons, squares_cons. cbn [length]. lia. Qed.
Lemma dist_nonneg x xs : (0 <= dist x xs)%Z.
Proof.
  induction xs as [|y xs IH]; unfold dist in *; cbn [map]; [cbn; lia|]. rewrite zsum_cons.
  pose proof (Z.square_nonneg (x - y)). lia.
Qed.
Lemma dist_pos x y xs : In y xs -> x <> y -> (1 <= dist x xs)%Z.
Proof.
  induction xs as [|z xs IH]; intros H N; [destruct H|]. unfold dist. cbn [map]. rewrite zsum_cons. fold (dist x xs).
  pose proof (Z.square_nonneg (x - z)).
  destruct H as [->|H]; [pose proof (dist_nonneg x xs); nia|]. specialize (IH H N). lia.
Qed.
Lemma equal_dec xs : all_equal xs \/ exists x y, In x xs /\ In y xs /\ x <> y.
Proof.
  induction xs as [|x xs IH]; [left; intros ? ? []|].
  destruct (Forall_dec (fun y => y = x) (fun y => Z.eq_dec y x) xs) as [F|N].
  - left. rewrite Forall_forall in F. intros a b [<-|Ha] [<-|Hb]; auto; try now rewrite (F _ Ha), ?(F _ Hb).
    symmetry; auto.
  - right. assert (E : Exists (fun y => y <> x) xs).
    { apply neg_Forall_Exists_neg in N; [exact N|]. intros y. destruct (Z.eq_dec y x); [left|right]; auto. }
    apply Exists_exists in E as (y & Hy & Ny). exists x, y. cbn. auto.
Qed.
Lemma equal_spread xs : all_equal xs -> spread xs = 0%Z /\ forall x, In x xs ->
  total xs = (Z.of_nat (length xs) * x)%Z /\ total_squares xs = (Z.of_nat (length xs) * (x * x))%Z.
Proof.
  intros H. enough (E : forall x, (forall y, In y xs -> y = x) ->
     total xs = (Z.of_nat (length xs) * x)%Z /\ total_squares xs = (Z.of_nat (length xs) * (x * x))%Z).
  { split.
    - destruct xs as [|x xs]; [reflexivity|]. destruct (E x) as [A B].
      + intros y Hy. apply H; [exact Hy|now left].
      + unfold spread. rewrite A, B. ring.
    - intros x Hx. apply E. intros y Hy. apply H; auto. }
  clear H. intros x. induction xs as [|y xs IH]; intros H; [split; reflexivity|].
  destruct IH as [A B]; [intros z Hz; apply H; now right|]. rewrite (H y) by now left.
  rewrite total_cons, squares_cons, A, B. cbn [length]. lia.
Qed.
Lemma spread_bound xs : ~ all_equal xs -> (Z.of_nat (length xs) - 1 <= spread xs)%Z /\ (2 <= length xs)%nat.
Proof.
  induction xs as [|x xs IH]; intros N; [exfalso; apply N; intros ? ? []|].
  rewrite spread_cons. cbn [length]. destruct (equal_dec xs) as [E|(a & b & Ha & Hb & Nab)].
  - destruct xs as [|y xs].
    + exfalso. apply N. intros a b [<-|[]] [<-|[]]. reflexivity.
    + assert (x <> y).
      { intros ->. apply N. intros a b Ha Hb. apply E; [destruct Ha as [<-|]; [now left|assumption]|].
        destruct Hb as [<-|]; [now left|assumption]. }
      destruct (equal_spread _ E) as [E0 ET]. destruct (ET y (or_introl eq_refl)) as [A B].
      rewrite E0, dist_val, A, B. cbn [length]. split; [|lia].
      rewrite (Nat2Z.inj_succ (S (length xs))). set (k := Z.of_nat (S (length xs))).
      assert (K : (1 <= k)%Z) by (unfold k; lia).
      assert (Q : (1 <= (x - y) * (x - y))%Z) by nia.
      replace (0 + (k * (x * x) - 2 * x * (k * y) + k * (y * y)))%Z with (k * ((x - y) * (x - y)))%Z by ring. nia.
  - destruct IH as [I1 I2]; [intros E; apply Nab, E; auto|].
    assert (D : (1 <= dist x xs)%Z).
    { destruct (Z.eq_dec x a) as [->|Nx]; [now apply (dist_pos a b)|now apply (dist_pos x a)]. }
    split; lia.
Qed.
Lemma spread_nonneg xs : (0 <= spread xs)%Z.
Proof.
  induction xs as [|x xs IH]; [reflexivity|]. rewrite spread_cons. pose proof (dist_nonneg x xs). lia.
Qed.

(** ** The variance in terms of the sums *)
Lemma rsum_cons x l : rsum (x :: l) = x + rsum l. Proof. reflexivity. Qed.
Lemma rsum_IZR {A} (f : A -> Z) l : rsum (map (fun a => IZR (f a)) l) = IZR (zsum (map f l)).
Proof. induction l as [|a l IH]; [reflexivity|]. cbn [map]. rewrite rsum_cons, IH, zsum_cons, plus_IZR. reflexivity. Qed.
Lemma mean_square_val xs : mean_square xs = IZR (total_squares xs) / IZR (Z.of_nat (length xs)).
Proof.
  unfold mean_square, mean. rewrite map_length, INR_IZR_INZ. f_equal. unfold total_squares.
  rewrite <- rsum_IZR. f_equal. apply map_ext. intros. now rewrite mult_IZR.
Qed.
Lemma variance_val xs : xs <> [] ->
  variance xs = mean_square xs - (IZR (total xs) / IZR (Z.of_nat (length xs))) * (IZR (total xs) / IZR (Z.of_nat (length xs))).
Proof.
  intros N. set (m := IZR (total xs) / IZR (Z.of_nat (length xs))).
  assert (EM : mean (map IZR xs) = m).
  { unfold mean, m. rewrite map_length, INR_IZR_INZ. f_equal. unfold total.
    rewrite <- (map_id xs) at 2. now rewrite <- rsum_IZR. }
  assert (L : forall l, rsum (map (fun x => (IZR x - m) * (IZR x - m)) l) =
     IZR (total_squares l) - 2 * m * IZR (total l) + m * m * IZR (Z.of_nat (length l))).
  { induction l as [|x l IH].
    - cbn [map length]. change (rsum []) with 0. change (total_squares []) with 0%Z. change (total []) with 0%Z.
      change (Z.of_nat 0) with 0%Z. ring.
    - cbn [map length]. rewrite rsum_cons, IH, total_cons, squares_cons, !plus_IZR, mult_IZR.
      rewrite Nat2Z.inj_succ, succ_IZR. ring. }
  unfold variance. rewrite EM. unfold mean. rewrite map_length, L, INR_IZR_INZ, mean_square_val.
  assert (P : IZR (Z.of_nat (length xs)) <> 0).
  { apply not_0_IZR. destruct xs; [congruence|cbn; lia]. }
  unfold m. field. exact P.
Qed.

(** ** Error analysis *)
Lemma rounding A B e1 e2 e3 e4 :
  0 <= B <= A -> Rabs e1 <= u -> Rabs e2 <= u -> Rabs e3 <= u -> Rabs e4 <= u ->
  Rabs ((A * (1 + e2) - B * ((1 + e1) * (1 + e1)) * (1 + e3)) * (1 + e4) - (A - B)) <= 6 * u * A.
Proof.
  intros HB H1 H2 H3 H4. pose proof u_val as U.
  apply Rabs_le_inv in H1, H2, H3, H4.
  set (s := (1 + e1) * (1 + e1)).
  assert (Hs : 1 - 2 * u <= s <= 1 + 2 * u + u * u) by (unfold s; split; nra).
  set (t := s * (1 + e3)).
  assert (Ht : 1 - 3 * u <= t <= 1 + 3 * u + u / 8).
  { unfold t. split.
    - apply Rle_trans with ((1 - 2 * u) * (1 - u)); [nra|]. apply Rmult_le_compat; lra.
    - apply Rle_trans with ((1 + 2 * u + u * u) * (1 + u)); [apply Rmult_le_compat; lra|]. rewrite U. lra. }
  replace (A * (1 + e2) - B * s * (1 + e3)) with (A * (1 + e2) - B * t) by (unfold t; ring).
  clearbody s t. set (D := A * (1 + e2) - B * t).
  assert (HD : - (4 * u + u / 8) * A <= D - (A - B) <= (4 * u + u / 8) * A).
  { replace (D - (A - B)) with (A * e2 - B * (t - 1)) by (unfold D; ring).
    assert (- u * A <= A * e2 <= u * A) by (split; nra).
    assert (- (3 * u + u / 8) * A <= B * (t - 1) <= (3 * u + u / 8) * A).
    { split.
      - apply Rle_trans with (B * (- (3 * u + u / 8))); [nra|apply Rmult_le_compat_l; lra].
      - apply Rle_trans with (B * (3 * u + u / 8)); [apply Rmult_le_compat_l; lra|nra]. }
    lra. }
  assert (HD2 : - (3 / 2) * A <= D <= 3 / 2 * A) by (rewrite U in HD; lra).
  assert (H5 : - (3 / 2) * u * A <= D * e4 <= 3 / 2 * u * A).
  { clear - HD2 H4 U HB. rewrite U in *. clear U. split; nra. }
  replace (D * (1 + e4) - (A - B)) with (D - (A - B) + D * e4) by ring.
  apply Rabs_le. lra.
Qed.

Lemma some_in (l : list Z) : l <> [] -> exists x, In x l.
Proof. destruct l as [|x l]; [congruence|]. exists x. now left. Qed.

Section Main.
  Context (xs : list Z) (NE : xs <> []) (POS : Forall (fun x => (0 <= x)%Z) xs)
          (SQ : (total_squares xs < Int_Modulus)%Z) (LEN : (Z.of_nat (length xs) < two32)%Z).
  Let n := Z.of_nat (length xs).
  Let b := total xs.
  Let b2 := total_squares xs.

  Lemma n_pos : (1 <= n)%Z. Proof. unfold n. destruct xs; [congruence|cbn [length]; lia]. Qed.
  Lemma b_range : (0 <= b <= b2)%Z.
  Proof.
    unfold b, b2. clear - POS. induction POS as [|x l H Hl IH]; [cbn; lia|]. specialize (IH Hl). cbv beta in H. rewrite total_cons, squares_cons. nia.
  Qed.
  Lemma b2_small : (b2 <= 2 ^ 48)%Z.
  Proof. assert (Int_Modulus < 2 ^ 48)%Z by reflexivity. fold b2 in SQ. lia. Qed.
  Lemma cauchy : (b * b <= n * b2)%Z.
  Proof. pose proof (spread_nonneg xs) as H. unfold spread in H. fold n b b2 in H. lia. Qed.

  Let N := IZR n.
  Lemma N_pos : 1 <= N. Proof. apply IZR_le, n_pos. Qed.
  Lemma mean_sq : mean_square xs = IZR b2 / N. Proof. apply mean_square_val. Qed.
  Lemma var_val : variance xs = IZR b2 / N - IZR b / N * (IZR b / N).
  Proof. rewrite variance_val by exact NE. now rewrite mean_sq. Qed.

  Lemma A_bound : 0 <= IZR b2 / N <= IZR (2 ^ 48).
  Proof.
    pose proof N_pos. pose proof b_range. pose proof b2_small.
    assert (0 <= IZR b2 <= IZR (2 ^ 48)) by (split; apply IZR_le; lia). split.
    - apply Rmult_le_pos; [lra|]. left. apply Rinv_0_lt_compat. lra.
    - apply (Rmult_le_reg_r N); [lra|]. unfold Rdiv. rewrite Rmult_assoc, Rinv_l, Rmult_1_r by lra. nra.
  Qed.
  Lemma B_bound : 0 <= IZR b / N * (IZR b / N) <= IZR b2 / N.
  Proof.
    pose proof N_pos. pose proof cauchy as C. apply IZR_le in C. rewrite !mult_IZR in C. fold N in C.
    split; [apply Rle_0_sqr|].
    replace (IZR b / N * (IZR b / N)) with (IZR b * IZR b * (/ N * / N)) by (field; lra).
    replace (IZR b2 / N) with (N * IZR b2 * (/ N * / N)) by (field; lra).
    apply Rmult_le_compat_r; [|exact C]. apply Rlt_le, Rmult_lt_0_compat; apply Rinv_0_lt_compat; lra.
  Qed.
  Lemma m_bound : 0 <= IZR b / N <= IZR (2 ^ 48).
  Proof.
    pose proof N_pos. pose proof b_range. pose proof b2_small.
    assert (0 <= IZR b <= IZR (2 ^ 48)) by (split; apply IZR_le; lia). split.
    - apply Rmult_le_pos; [lra|]. left. apply Rinv_0_lt_compat. lra.
    - apply (Rmult_le_reg_r N); [lra|]. unfold Rdiv. rewrite Rmult_assoc, Rinv_l, Rmult_1_r by lra. nra.
  Qed.

  Lemma ints : B2R (of_int b) = IZR b /\ is_finite (of_int b) = true /\
    B2R (of_int b2) = IZR b2 /\ is_finite (of_int b2) = true /\ B2R (of_int n) = N.
  Proof.
    pose proof b_range. pose proof b2_small. pose proof n_pos. assert (two32 = 2 ^ 32)%Z by reflexivity.
    destruct (of_int_spec b) as [A1 A2]; [lia|]. destruct (of_int_spec b2) as [B1 B2]; [lia|].
    destruct (of_int_spec n) as [C1 C2]; [lia|]. auto.
  Qed.

  Lemma quotients :
    B2R (ddiv (of_int b) (of_int n)) = rnd (IZR b / N) /\ is_finite (ddiv (of_int b) (of_int n)) = true /\
    B2R (ddiv (of_int b2) (of_int n)) = rnd (IZR b2 / N) /\ is_finite (ddiv (of_int b2) (of_int n)) = true.
  Proof.
    destruct ints as (A1 & A2 & B1 & B2 & C). pose proof N_pos. pose proof A_bound. pose proof m_bound.
    assert (IZR (2 ^ 48) <= IZR (2 ^ 50)) by (apply IZR_le; lia).
    destruct (div_spec (of_int b) (of_int n)) as [D1 D2]; rewrite ?A1, ?C; auto; [lra|rewrite Rabs_pos_eq; lra|].
    destruct (div_spec (of_int b2) (of_int n)) as [E1 E2]; rewrite ?B1, ?C; auto; [lra|rewrite Rabs_pos_eq; lra|].
    rewrite A1, C in D1. rewrite B1, C in E1. auto.
  Qed.

  Lemma equal_case : all_equal xs ->
    B2R (var_double n b b2) = 0 /\ is_finite (var_double n b b2) = true /\ variance xs = 0.
  Proof.
    intros EQ. destruct (some_in xs NE) as (x & Hx).
    destruct (equal_spread xs EQ) as [_ ET]. destruct (ET x Hx) as [E1 E2].
    fold n b in E1. fold n b2 in E2. pose proof N_pos as NP. pose proof n_pos as NP'. pose proof b2_small as BS. pose proof b_range as BR.
    assert (Px : (0 <= x)%Z) by nia.
    assert (Q1 : IZR b / N = IZR x) by (rewrite E1, mult_IZR; fold N; field; lra).
    assert (Q2 : IZR b2 / N = IZR (x * x)) by (rewrite E2, !mult_IZR; fold N; field; lra).
    assert (XX : (x * x <= 2 ^ 48)%Z) by nia.
    assert (X1 : (x <= 2 ^ 48)%Z) by nia.
    destruct quotients as (D1 & D2 & F1 & F2). rewrite Q1 in D1. rewrite Q2 in F1.
    rewrite round_generic in D1; [|auto with typeclass_instances|apply int_format; lia].
    rewrite round_generic in F1; [|auto with typeclass_instances|apply int_format; nia].
    unfold var_double. set (ex := ddiv (of_int b) (of_int n)) in *. set (ex2 := ddiv (of_int b2) (of_int n)) in *.
    destruct (mul_spec ex ex D2 D2) as [M1 M2].
    { rewrite D1, <- mult_IZR, <- abs_IZR. apply IZR_le. nia. }
    rewrite D1, <- mult_IZR in M1. rewrite round_generic in M1; [|auto with typeclass_instances|apply int_format; nia].
    destruct (sub_spec ex2 (dmul ex ex) F2 M2) as [S1 S2].
    { rewrite F1, M1, Rminus_diag_eq, Rabs_R0 by reflexivity. apply IZR_le. lia. }
    rewrite F1, M1, Rminus_diag_eq, round_0 in S1 by auto with typeclass_instances.
    split; [exact S1|]. split; [exact S2|]. rewrite var_val, Q1, Q2, mult_IZR. ring.
  Qed.

  Lemma unequal_case : ~ all_equal xs ->
    is_finite (var_double n b b2) = true /\ 0 < B2R (var_double n b b2) /\
    Rabs (B2R (var_double n b b2) - variance xs) <= 6 * u * (IZR b2 / N) /\
    6 * u * (IZR b2 / N) <= variance xs / 2.
  Proof.
    intros NQ. destruct (spread_bound xs NQ) as [SB L2]. unfold spread in SB. fold n b b2 in SB.
    pose proof N_pos as NP. pose proof n_pos as NP'. pose proof b2_small as BS. pose proof b_range as BR.
    pose proof cauchy as C. pose proof A_bound as AB. pose proof B_bound as BB. pose proof m_bound as MB. pose proof u_val as U.
    assert (B1 : (1 <= b)%Z).
    { assert (b <> 0)%Z; [|lia]. intros E. rewrite E in *.
      assert (Z0 : forall x, In x xs -> x = 0%Z).
      { clear - E POS b. unfold b in E. clear b. induction POS as [|x l H Hl IH]; [intros ? []|]. specialize (IH Hl). cbv beta in H.
        rewrite total_cons in E.
        assert (0 <= total l)%Z by (clear - Hl; induction Hl as [|y l' Hy _ IHl]; [cbn; lia|cbv beta in Hy; rewrite total_cons; lia]).
        intros y [<-|Hy]; [lia|]. apply IH; [lia|exact Hy]. }
      apply NQ. intros x y Hx Hy. rewrite (Z0 x Hx), (Z0 y Hy). reflexivity. }
    assert (T32 : N <= IZR (2 ^ 32)) by (apply IZR_le; assert (two32 = 2 ^ 32)%Z by reflexivity; unfold n; lia).
    assert (ML : / IZR (2 ^ 32) <= IZR b / N).
    { apply IZR_le in B1. apply Rle_trans with (/ N); [apply Rinv_le_contravar; lra|].
      unfold Rdiv. rewrite <- (Rmult_1_l (/ N)) at 1. apply Rmult_le_compat_r; [|exact B1].
      left. apply Rinv_0_lt_compat. lra. }
    assert (AL : / IZR (2 ^ 32) <= IZR b2 / N).
    { eapply Rle_trans; [exact ML|]. unfold Rdiv. apply Rmult_le_compat_r; [left; apply Rinv_0_lt_compat; lra|].
      apply IZR_le. lia. }
    assert (K0 : 0 < / IZR (2 ^ 32)) by (apply Rinv_0_lt_compat, IZR_lt; lia).
    assert (K1 : / IZR (2 ^ 200) <= / IZR (2 ^ 32)).
    { apply Rinv_le_contravar; [apply IZR_lt; lia|apply IZR_le; lia]. }
    destruct quotients as (D1 & D2 & F1 & F2).
    destruct (rel (IZR b / N)) as (e1 & H1 & R1); [rewrite Rabs_pos_eq by lra; lra|]. rewrite R1 in D1.
    destruct (rel (IZR b2 / N)) as (e2 & H2 & R2); [rewrite Rabs_pos_eq by lra; lra|]. rewrite R2 in F1.
    unfold var_double. set (ex := ddiv (of_int b) (of_int n)) in *. set (ex2 := ddiv (of_int b2) (of_int n)) in *.
    set (A := IZR b2 / N) in *. set (m := IZR b / N) in *.
    pose proof (Rabs_le_inv _ _ H1) as H1'. pose proof (Rabs_le_inv _ _ H2) as H2'.
    assert (P48 : IZR (2 ^ 48) = 281474976710656) by reflexivity.
    assert (P50 : IZR (2 ^ 50) = 1125899906842624) by reflexivity.
    assert (P32 : IZR (2 ^ 32) = 4294967296) by reflexivity.
    assert (EX : 1 / 2 * m <= B2R ex <= 3 / 2 * m) by (rewrite D1; clear - H1' MB U; rewrite U in *; split; nra).
    assert (EE : 1 / 4 * (m * m) <= B2R ex * B2R ex <= 9 / 4 * (m * m)).
    { clear - EX MB. split; [replace (1 / 4 * (m * m)) with (1 / 2 * m * (1 / 2 * m)) by field|
        replace (9 / 4 * (m * m)) with (3 / 2 * m * (3 / 2 * m)) by field]; apply Rmult_le_compat; lra. }
    destruct (mul_spec ex ex D2 D2) as [M1 M2]. { rewrite Rabs_pos_eq; nra. }
    destruct (rel (B2R ex * B2R ex)) as (e3 & H3 & R3).
    { rewrite Rabs_pos_eq by nra. apply Rle_trans with (1 / 4 * (/ IZR (2 ^ 32) * / IZR (2 ^ 32))).
      - rewrite <- Rinv_mult. rewrite <- mult_IZR. change (2 ^ 32 * 2 ^ 32)%Z with (2 ^ 64)%Z.
        replace (1 / 4) with (/ IZR (2 ^ 2)) by (cbn; lra). rewrite <- Rinv_mult, <- mult_IZR.
        apply Rinv_le_contravar; [apply IZR_lt|apply IZR_le]; lia.
      - eapply Rle_trans; [|apply EE]. apply Rmult_le_compat_l; [lra|]. apply Rmult_le_compat; lra. }
    rewrite R3 in M1. pose proof (Rabs_le_inv _ _ H3) as H3'.
    assert (MM : 0 <= B2R (dmul ex ex) <= 4 * (m * m)).
    { rewrite M1. clear - EE H3' U. set (w := B2R ex * B2R ex) in *. assert (0 <= m * m) by (apply Rle_0_sqr).
      rewrite U in *. split; nra. }
    assert (X2 : 0 <= B2R ex2 <= 2 * A) by (rewrite F1; clear - H2' AB U; rewrite U in *; split; nra).
    destruct (sub_spec ex2 (dmul ex ex) F2 M2) as [S1 S2]. { apply Rabs_le. lra. }
    destruct (rel_minus (B2R ex2) (B2R (dmul ex ex)) (format_B2R _) (format_B2R _)) as (e4 & H4 & R4).
    rewrite R4, F1, M1, D1 in S1.
    assert (CL : Rabs (B2R (dsub ex2 (dmul ex ex)) - variance xs) <= 6 * u * A).
    { rewrite S1, var_val. fold A m.
      replace (m * (1 + e1) * (m * (1 + e1)) * (1 + e3)) with (m * m * ((1 + e1) * (1 + e1)) * (1 + e3)) by ring.
      apply rounding; auto. }
    assert (VL : 6 * u * A <= variance xs / 2 /\ 0 < variance xs).
    { rewrite var_val. fold A m.
      assert (NS : 2 <= N) by (apply IZR_le; unfold n; lia).
      apply IZR_le in SB. rewrite !minus_IZR, !mult_IZR in SB. fold N in SB.
      replace (A - m * m) with ((N * IZR b2 - IZR b * IZR b) * (/ N * / N)) by (unfold A, m; field; lra).
      assert (IN : 0 < / N * / N) by (apply Rmult_lt_0_compat; apply Rinv_0_lt_compat; lra).
      assert (G : N / 2 * (/ N * / N) <= (N * IZR b2 - IZR b * IZR b) * (/ N * / N)).
      { apply Rmult_le_compat_r; lra. }
      assert (G2 : N / 2 * (/ N * / N) = / N / 2) by (field; lra). rewrite G2 in G.
      assert (IP : 0 < / N) by (apply Rinv_0_lt_compat; lra).
      assert (BB2 : IZR b2 <= IZR (2 ^ 48)) by (apply IZR_le; exact BS).
      assert (6 * u * A <= / N / 4); [|split; lra].
      unfold A, Rdiv. rewrite U. clear - BB2 IP P48. rewrite P48 in BB2. nra. }
    split; [exact S2|]. split; [|split; [exact CL|apply VL]].
    apply Rabs_le_inv in CL. lra.
  Qed.

  Lemma var_close :
    is_finite (var_double n b b2) = true /\ 0 <= B2R (var_double n b b2) /\
    (B2R (var_double n b b2) = 0 <-> all_equal xs) /\
    Rabs (B2R (var_double n b b2) - variance xs) <= 6 * / 9007199254740992 * mean_square xs.
  Proof.
    rewrite mean_sq, <- u_val. destruct (equal_dec xs) as [E|(x & y & Hx & Hy & Nxy)].
    - destruct (equal_case E) as (A & B & C). split; [exact B|]. split; [lra|]. split; [tauto|].
      rewrite A, C, Rminus_diag_eq, Rabs_R0 by reflexivity. pose proof A_bound. pose proof u_val. nra.
    - assert (NQ : ~ all_equal xs) by (intros E; apply Nxy, E; auto).
      destruct (unequal_case NQ) as (A & B & C & D). split; [exact A|]. split; [lra|]. split; [|exact C].
      split; [lra|contradiction].
  Qed.

  Lemma stddev_close :
    let sd := dsqrt (var_double n b b2) in
    is_finite sd = true /\ 0 <= B2R sd /\ (B2R sd = 0 <-> all_equal xs) /\
    Rabs (B2R sd - sqrt (variance xs)) * sqrt (variance xs) <= 8 * / 9007199254740992 * mean_square xs.
  Proof.
    intros sd. rewrite <- u_val, mean_sq. destruct var_close as (F & P & Z & _).
    destruct (sqrt_spec _ F P) as [F' E]. fold sd in F', E. split; [exact F'|].
    set (a := B2R (var_double n b b2)) in *. pose proof u_val as U. pose proof (sqrt_pos a) as SA.
    apply Rabs_le_inv in E.
    assert (SP : (1 - u) * sqrt a <= B2R sd) by lra.
    split; [rewrite U in SP; lra|]. split.
    - rewrite <- Z. split; intros H.
      + rewrite H in SP. assert (sqrt a = 0) by (rewrite U in SP; lra). now apply sqrt_eq_0.
      + rewrite H, sqrt_0 in E. lra.
    - destruct (equal_dec xs) as [EQ|(x & y & Hx & Hy & Nxy)].
      + destruct (equal_case EQ) as (_ & _ & ->). rewrite sqrt_0, Rmult_0_r. pose proof A_bound. nra.
      + assert (NQ : ~ all_equal xs) by (intros EQ; apply Nxy, EQ; auto).
        destruct (unequal_case NQ) as (_ & PA & CL & VL). fold a in PA, CL.
        set (v := variance xs) in *. pose proof A_bound as AB. set (A := IZR b2 / N) in *.
        assert (VA : v <= A) by (unfold v; rewrite var_val; fold A; pose proof B_bound; lra).
        apply Rabs_le_inv in CL.
        assert (PV : 0 < v) by lra.
        assert (SV : 0 < sqrt v) by now apply sqrt_lt_R0.
        assert (S1 : sqrt a * sqrt a = a) by (apply sqrt_sqrt; lra).
        assert (S2 : sqrt v * sqrt v = v) by (apply sqrt_sqrt; lra).
        assert (SS : sqrt a <= 5 / 4 * sqrt v).
        { apply Rnot_lt_le. intros L. assert (25 / 16 * v < a) by nra. lra. }
        assert (DIFF : Rabs (sqrt a - sqrt v) * sqrt v <= 6 * u * A).
        { apply Rle_trans with (Rabs (sqrt a - sqrt v) * Rabs (sqrt a + sqrt v)).
          - apply Rmult_le_compat_l; [apply Rabs_pos|]. rewrite Rabs_pos_eq; lra.
          - rewrite <- Rabs_mult. replace ((sqrt a - sqrt v) * (sqrt a + sqrt v)) with (a - v) by lra.
            apply Rabs_le. lra. }
        apply Rle_trans with ((u * sqrt a + Rabs (sqrt a - sqrt v)) * sqrt v).
        * apply Rmult_le_compat_r; [lra|].
          replace (B2R sd - sqrt v) with ((B2R sd - sqrt a) + (sqrt a - sqrt v)) by ring.
          eapply Rle_trans; [apply Rabs_triang|]. apply Rplus_le_compat_r. apply Rabs_le. lra.
        * rewrite Rmult_plus_distr_r. assert (u * sqrt a * sqrt v <= 5 / 4 * u * A); [|rewrite U in *; lra].
          replace (u * sqrt a * sqrt v) with (u * (sqrt a * sqrt v)) by ring.
          replace (5 / 4 * u * A) with (u * (5 / 4 * A)) by ring. apply Rmult_le_compat_l; [rewrite U; lra|].
          apply Rle_trans with (5 / 4 * sqrt v * sqrt v); [apply Rmult_le_compat_r; lra|]. rewrite Rmult_assoc, S2. lra.
  Qed.
End Main.
