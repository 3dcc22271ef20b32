(** * Roots of unity and the FFT *)
From Coq Require Import ZArith List Bool Lia Znumtheory.
From Verif Require Import Words WordsFacts Constants Share Cong Poly SpecPoly FieldFacts PolyFacts.
Import ListNotations.
Open Scope Z_scope.
Arguments Z.mul : simpl never.
Arguments Z.add : simpl never.
Arguments Z.sub : simpl never.
Arguments Z.pow : simpl never.
Arguments Nat.div : simpl never.

(** ** Root tables *)
Lemma root_table_length m g cur n : length (root_table m g cur n) = n.
Proof. revert cur. induction n; intros; cbn [root_table length]; auto. Qed.

Lemma root_table_nth m g : forall n cur i, (i < n)%nat ->
  cong m (nth i (root_table m g cur n) 0) (cur * g ^ Z.of_nat i).
Proof.
  induction n as [|n IH]; intros cur i Hi; [lia|]. cbn [root_table]. destruct i as [|i]; cbn [nth].
  - rewrite Z.pow_0_r. cong_ring.
  - rewrite IH by lia. demod. rewrite nat_pow_succ. cong_ring.
Qed.

Lemma root_table_field m g : 0 < m -> forall n cur, in_field m cur -> Forall (in_field m) (root_table m g cur n).
Proof.
  intros Hm. induction n as [|n IH]; intros cur Hc; cbn [root_table]; constructor; auto.
  apply IH. apply Z.mod_pos_bound. lia.
Qed.

(** ** FFT = evaluation *)
Lemma interleave_length {A} (l m : list A) : length l = length m ->
  length (interleave l m) = (2 * length l)%nat.
Proof. revert m. induction l; intros [|]; cbn [interleave length]; intros; auto; try discriminate.
  rewrite IHl by lia. lia. Qed.
Lemma interleave_even {A} (d : A) l m i : length l = length m ->
  nth (2 * i) (interleave l m) d = nth i l d.
Proof.
  revert m i. induction l as [|x l IH]; intros [|y m] i H; try discriminate.
  - destruct i; reflexivity || (cbn; now destruct (i + _)%nat).
  - destruct i as [|i]; [reflexivity|]. replace (2 * S i)%nat with (S (S (2 * i))) by lia.
    cbn [interleave nth]. apply IH. cbn in H. lia.
Qed.
Lemma interleave_odd {A} (d : A) l m i : length l = length m ->
  nth (2 * i + 1) (interleave l m) d = nth i m d.
Proof.
  revert m i. induction l as [|x l IH]; intros [|y m] i H; try discriminate.
  - destruct i; [reflexivity|]. cbn [interleave]. now rewrite !nth_overflow by (cbn; lia).
  - destruct i as [|i]; [reflexivity|]. replace (2 * S i + 1)%nat with (S (S (2 * i + 1))) by lia.
    cbn [interleave nth]. apply IH. cbn in H. lia.
Qed.

Lemma nth_map_seq (f : nat -> Z) n i : (i < n)%nat -> nth i (map f (seq 0 n)) 0 = f i.
Proof.
  intros H. rewrite nth_indep with (d' := f 0%nat) by (rewrite map_length, seq_length; lia).
  rewrite map_nth. f_equal. now rewrite seq_nth.
Qed.

Lemma peval_map_seq (f : nat -> Z) n x :
  peval (map f (seq 0 n)) x = zsum (map (fun j => f j * x ^ Z.of_nat j) (seq 0 n)).
Proof.
  rewrite peval_sum, map_length, seq_length. apply zsum_map_ext. intros j Hj. apply in_seq in Hj.
  rewrite nth_map_seq by lia. reflexivity.
Qed.

Lemma seq_shift_add h n : seq h n = map (fun j => (j + h)%nat) (seq 0 n).
Proof.
  revert h. induction n as [|n IH]; intros h; [reflexivity|]. cbn [seq map]. f_equal.
  rewrite (IH (S h)), (IH 1%nat), map_map. apply map_ext. intros. lia.
Qed.

Lemma peval_halves ys h x : length ys = (2 * h)%nat ->
  peval ys x = zsum (map (fun j => (nth j ys 0 + x ^ Z.of_nat h * nth (j + h) ys 0) * x ^ Z.of_nat j) (seq 0 h)).
Proof.
  intros H. rewrite peval_sum, H. replace (2 * h)%nat with (h + h)%nat by lia.
  rewrite seq_app, map_app, zsum_app, Nat.add_0_l.
  rewrite (seq_shift_add h h), map_map, <- zsum_map_add. apply zsum_map_ext. intros j _.
  rewrite Nat2Z.inj_add, Z.pow_add_r by lia. ring.
Qed.

Lemma pow2_div k : Nat.div (2 ^ S k) 2 = (2 ^ k)%nat.
Proof. replace (2 ^ S k)%nat with (2 ^ k * 2)%nat by (cbn; lia). now apply Nat.div_mul. Qed.

Lemma fft_recurse_spec m : forall k fuel w rts ys, (k < fuel)%nat ->
  length ys = (2 ^ k)%nat ->
  (forall i, (i < 2 ^ k)%nat -> cong m (nth i rts 0) (w ^ Z.of_nat i)) ->
  (k = 0%nat \/ cong m (w ^ Z.of_nat (2 ^ (k - 1))) (-1)) ->
  length (fft_recurse fuel m (2 ^ k) rts ys) = (2 ^ k)%nat /\
  forall j, (j < 2 ^ k)%nat ->
    cong m (nth j (fft_recurse fuel m (2 ^ k) rts ys) 0) (peval ys (w ^ Z.of_nat j)).
Proof.
  induction k as [|k IH]; intros fuel w rts ys Hf Hl Hr Hw; destruct fuel as [|fuel]; try lia.
  - cbn [fft_recurse Nat.pow Nat.eqb]. split; [reflexivity|]. intros j Hj.
    cbn in Hl. destruct ys as [|y [|]]; try discriminate. replace j with 0%nat by lia.
    cbn. cong_ring.
  - cbn [fft_recurse]. assert (H2k : (0 < 2 ^ k)%nat) by (apply Nat.neq_0_lt_0, Nat.pow_nonzero; lia).
    assert (ES : (2 ^ S k = 2 * 2 ^ k)%nat) by reflexivity.
    destruct (Nat.eqb_spec (2 ^ S k) 1) as [E1|_]; [lia|].
    rewrite pow2_div. set (h := (2 ^ k)%nat) in *. cbv zeta.
    set (rs := map (fun i : nat => nth (2 * i) rts 0) (seq 0 h)).
    set (y0 := map (fun i => (nth i ys 0 + nth (i + h) ys 0) mod m) (seq 0 h)).
    set (y1 := map (fun i => (((nth i ys 0 - nth (i + h) ys 0) mod m) * nth i rts 0) mod m) (seq 0 h)).
    destruct Hw as [Hw|Hw]; [discriminate|]. replace (S k - 1)%nat with k in Hw by lia. fold h in Hw.
    assert (Hrs : forall i, (i < h)%nat -> cong m (nth i rs 0) ((w * w) ^ Z.of_nat i)).
    { intros i Hi. unfold rs. rewrite nth_map_seq by auto. rewrite Hr by lia.
      rewrite <- Z.pow_2_r, <- Z.pow_mul_r by lia. apply cong_eq. f_equal. lia. }
    assert (Hw2 : k = 0%nat \/ cong m ((w * w) ^ Z.of_nat (2 ^ (k - 1))) (-1)).
    { destruct k as [|k']; [now left|right]. replace (S k' - 1)%nat with k' by lia.
      rewrite <- Z.pow_2_r, <- Z.pow_mul_r by lia. rewrite <- Hw. apply cong_eq. f_equal.
      unfold h. cbn [Nat.pow]. lia. }
    assert (L0 : length y0 = h) by (unfold y0; now rewrite map_length, seq_length).
    assert (L1 : length y1 = h) by (unfold y1; now rewrite map_length, seq_length).
    destruct (IH fuel (w * w) rs y0) as [A0 B0]; auto; [lia|].
    destruct (IH fuel (w * w) rs y1) as [A1 B1]; auto; [lia|].
    fold h in A0, B0, A1, B1.
    split; [rewrite interleave_length by congruence; lia|].
    intros j Hj.
    destruct (Nat.Even_or_Odd j) as [[i Hi]|[i Hi]]; subst j.
    + rewrite interleave_even by congruence. rewrite B0 by lia.
      unfold y0. rewrite peval_map_seq, (peval_halves ys h) by lia.
      apply zsum_map_ext_cong. intros j Hj'. demod.
      replace (w ^ Z.of_nat (2 * i)) with ((w * w) ^ Z.of_nat i)
        by (rewrite <- Z.pow_2_r, <- Z.pow_mul_r by lia; f_equal; lia).
      assert (E : cong m (((w * w) ^ Z.of_nat i) ^ Z.of_nat h) 1).
      { transitivity ((w ^ Z.of_nat h) ^ (2 * Z.of_nat i)).
        - apply cong_eq. rewrite <- Z.pow_2_r, <- !Z.pow_mul_r by lia. f_equal. lia.
        - rewrite (cong_pow _ _ _ _ Hw), Z.pow_mul_r by lia. change ((-1) ^ 2) with 1.
          now rewrite Z.pow_1_l by lia. }
      rewrite E. cong_ring.
    + rewrite interleave_odd by congruence. rewrite B1 by lia.
      unfold y1. rewrite peval_map_seq, (peval_halves ys h) by lia.
      apply zsum_map_ext_cong. intros j Hj'. apply in_seq in Hj'. demod. rewrite Hr by lia.
      assert (EW : w ^ Z.of_nat (2 * i + 1) = (w * w) ^ Z.of_nat i * w).
      { rewrite <- Z.pow_2_r, <- Z.pow_mul_r by lia. rewrite <- (Z.pow_1_r w) at 3.
        rewrite <- Z.pow_add_r by lia. f_equal. lia. }
      rewrite EW.
      assert (E : cong m (((w * w) ^ Z.of_nat i * w) ^ Z.of_nat h) (-1)).
      { transitivity ((w ^ Z.of_nat h) ^ (2 * Z.of_nat i + 1)).
        - apply cong_eq. rewrite <- EW. rewrite <- (Z.pow_mul_r w (Z.of_nat (2 * i + 1))) by (clear; lia).
          rewrite <- (Z.pow_mul_r w (Z.of_nat h)) by (clear; lia). f_equal. clear. lia.
        - rewrite (cong_pow _ _ _ _ Hw), Z.pow_add_r, Z.pow_mul_r by lia. change ((-1) ^ 2) with 1.
          rewrite Z.pow_1_l by lia. reflexivity. }
      rewrite E. generalize ((w * w) ^ Z.of_nat i). intros u. rewrite Z.pow_mul_l.
      generalize (u ^ Z.of_nat j) (w ^ Z.of_nat j). intros. cong_ring.
Qed.

(** ** Inversion of the transform *)
Section Inverse.
Variable q : Z.
Hypothesis Hq : prime q.

(** [w] a root of unity of order [n], [v] its inverse. *)
Lemma dft_inverse (n : nat) w v ys c :
  cong q (w * v) 1 -> cong q (w ^ Z.of_nat n) 1 ->
  (forall e, (0 < e < n)%nat -> ~ cong q (w ^ Z.of_nat e) 1) ->
  ~ cong q (Z.of_nat n) 0 ->
  length ys = n -> length c = n ->
  (forall j, (j < n)%nat -> cong q (nth j c 0) (peval ys (v ^ Z.of_nat j) * invmod q (Z.of_nat n))) ->
  forall i, (i < n)%nat -> cong q (peval c (w ^ Z.of_nat i)) (nth i ys 0).
Proof.
  intros Hwv Hwn Hord Hn Hy Hc H i Hi.
  assert (Hvn : cong q (v ^ Z.of_nat n) 1).
  { transitivity ((w * v) ^ Z.of_nat n).
    - rewrite Z.pow_mul_l, Hwn. cong_ring.
    - rewrite (cong_pow _ _ _ _ Hwv), Z.pow_1_l by lia. reflexivity. }
  assert (Hwpow : forall e, cong q (w ^ Z.of_nat e * v ^ Z.of_nat e) 1).
  { intros e. rewrite <- Z.pow_mul_l, (cong_pow _ _ _ _ Hwv), Z.pow_1_l by lia. reflexivity. }
  (* orthogonality *)
  assert (Orth : forall l, (l < n)%nat ->
    cong q (zsum (map (fun j => (w ^ Z.of_nat i * v ^ Z.of_nat l) ^ Z.of_nat j) (seq 0 n)))
           (if Nat.eqb l i then Z.of_nat n else 0)).
  { intros l Hl. destruct (Nat.eqb_spec l i) as [->|Hne].
    - transitivity (zsum (map (fun _ : nat => 1) (seq 0 n))).
      + apply zsum_map_ext_cong. intros j _. rewrite (cong_pow _ _ _ _ (Hwpow i)), Z.pow_1_l by lia. reflexivity.
      + apply cong_eq. clear. rewrite <- (seq_length n 0) at 2. induction (seq 0 n); cbn [map length]; rewrite ?zsum_cons, ?zsum_nil; lia.
    - set (x := w ^ Z.of_nat i * v ^ Z.of_nat l).
      assert (Hx : ~ cong q (x - 1) 0).
      { intros K. assert (Kx : cong q x 1).
        { transitivity (x - 1 + 1); [cong_ring|]. rewrite K. cong_ring. }
        unfold x in Kx. destruct (Nat.lt_ge_cases l i) as [L|L].
        - apply (Hord (i - l)%nat); [lia|].
          transitivity (w ^ Z.of_nat (i - l) * (w ^ Z.of_nat l * v ^ Z.of_nat l)).
          + rewrite Hwpow. cong_ring.
          + rewrite Z.mul_assoc, <- Z.pow_add_r by lia.
            replace (Z.of_nat (i - l) + Z.of_nat l) with (Z.of_nat i) by lia. exact Kx.
        - apply (Hord (l - i)%nat); [lia|].
          transitivity (w ^ Z.of_nat (l - i) * (w ^ Z.of_nat i * v ^ Z.of_nat l)).
          + rewrite Kx. cong_ring.
          + rewrite Z.mul_assoc, <- Z.pow_add_r by lia.
            replace (Z.of_nat (l - i) + Z.of_nat i) with (Z.of_nat l) by lia. apply Hwpow. }
      apply (cong_cancel q Hq (x - 1)); auto. rewrite geom_sum, Z.mul_0_r.
      unfold x. rewrite Z.pow_mul_l, <- !Z.pow_mul_r by lia.
      rewrite (Z.mul_comm (Z.of_nat i)), (Z.mul_comm (Z.of_nat l)), !Z.pow_mul_r by lia.
      rewrite (cong_pow _ _ _ _ Hwn), (cong_pow _ _ _ _ Hvn), !Z.pow_1_l by lia. cong_ring. }
  set (ni := invmod q (Z.of_nat n)) in *.
  rewrite peval_sum, Hc.
  transitivity (zsum (map (fun j => zsum (map (fun l =>
     ni * (nth l ys 0 * (w ^ Z.of_nat i * v ^ Z.of_nat l) ^ Z.of_nat j)) (seq 0 n))) (seq 0 n))).
  { apply zsum_map_ext_cong. intros j Hj. apply in_seq in Hj. rewrite H by lia.
    rewrite peval_sum, Hy. rewrite zsum_map_scale.
    transitivity (ni * ((w ^ Z.of_nat i) ^ Z.of_nat j * zsum (map (fun l => nth l ys 0 * (v ^ Z.of_nat j) ^ Z.of_nat l) (seq 0 n)))); [cong_ring|].
    rewrite <- zsum_map_scale. apply cong_eq. f_equal. apply zsum_map_ext. intros l _.
    rewrite Z.pow_mul_l, <- !Z.pow_mul_r by lia. rewrite (Z.mul_comm (Z.of_nat j)). ring. }
  rewrite zsum_exchange.
  transitivity (zsum (map (fun l => if Nat.eqb l i then ni * nth l ys 0 * Z.of_nat n else 0) (seq 0 n))).
  { apply zsum_map_ext_cong. intros l Hl. apply in_seq in Hl. rewrite zsum_map_scale.
    rewrite zsum_map_scale, Orth by lia. destruct (Nat.eqb l i); cong_ring. }
  rewrite zsum_pick_seq by auto.
  transitivity (nth i ys 0 * (Z.of_nat n * ni)); [cong_ring|]. unfold ni. rewrite (invmod_spec q Hq _ Hn). cong_ring.
Qed.
End Inverse.

(** ** Roots computed from a generator of order 2^(K+1) *)
Lemma of_nat_pow2 k : Z.of_nat (2 ^ k) = 2 ^ Z.of_nat k.
Proof.
  induction k as [|k IH]; [reflexivity|]. rewrite nat_pow_succ, <- IH. cbn [Nat.pow]. lia.
Qed.

Section Roots.
Variables (q g : Z) (K : nat).
Hypothesis Hq : prime q.
Hypothesis H2 : 2 < q.
Hypothesis Hg : cong q (g ^ 2 ^ Z.of_nat K) (-1).

Lemma half_nontrivial : ~ cong q (-1) 1.
Proof.
  intros [k Hk]. assert (q <= 2). { apply Z.divide_pos_le; [lia|]. exists (-k). lia. } lia.
Qed.

Lemma gen_nonzero : ~ cong q g 0.
Proof.
  intros C. pose proof Hg as G. rewrite (cong_pow _ _ _ _ C) in G.
  rewrite Z.pow_0_l in G by (apply Z.pow_pos_nonneg; lia).
  destruct G as [k Hk]. assert (q <= 1). { apply Z.divide_pos_le; [lia|]. exists k. lia. } lia.
Qed.

Definition step_of (k : nat) : Z := 2 ^ Z.of_nat (S K) / Z.of_nat (2 ^ k).
Definition wroot (k : nat) : Z := powm q g (step_of k).
Definition vroot (k : nat) : Z := powm q (invmod q g) (step_of k).

Lemma step_val k : (k <= S K)%nat -> step_of k = 2 ^ Z.of_nat (S K - k).
Proof.
  clear Hg Hq H2.
  intros H. unfold step_of. rewrite of_nat_pow2.
  replace (Z.of_nat (S K)) with (Z.of_nat (S K - k) + Z.of_nat k) by lia.
  rewrite Z.pow_add_r by lia. apply Z.div_mul. apply Z.pow_nonzero; lia.
Qed.
Lemma step_half k : step_of k / 2 = step_of (S k).
Proof.
  clear Hg Hq H2.
  unfold step_of. rewrite Z.div_div by (rewrite ?of_nat_pow2; try apply Z.pow_pos_nonneg; lia || (apply Z.pow_nonzero; lia)).
  f_equal. cbn [Nat.pow]. lia.
Qed.

Lemma step_nonneg k : 0 <= step_of k.
Proof.
  clear Hg Hq H2.
  unfold step_of. apply Z.div_pos; [apply Z.pow_nonneg; lia|].
  rewrite of_nat_pow2. apply Z.pow_pos_nonneg; lia.
Qed.

Lemma wroot_cong k : cong q (wroot k) (g ^ step_of k).
Proof. unfold wroot. rewrite powm_spec by apply step_nonneg. apply cong_mod. Qed.
Lemma wroot_pow k e : 0 <= e -> cong q (wroot k ^ e) (g ^ (step_of k * e)).
Proof.
  intros. rewrite (cong_pow _ _ _ _ (wroot_cong k)). rewrite Z.pow_mul_r; [reflexivity|apply step_nonneg|lia].
Qed.

Lemma wroot_half k : (k <= K)%nat -> cong q (wroot (S k) ^ Z.of_nat (2 ^ k)) (-1).
Proof.
  intros H. rewrite wroot_pow by lia. rewrite <- Hg. apply cong_eq. f_equal.
  rewrite step_val, of_nat_pow2 by lia. rewrite <- Z.pow_add_r by lia. f_equal. lia.
Qed.

Lemma wroot_one k : (k <= S K)%nat -> cong q (wroot k ^ Z.of_nat (2 ^ k)) 1.
Proof.
  intros H. destruct k as [|k].
  - rewrite wroot_pow by lia. rewrite step_val, Nat.sub_0_r by lia.
    rewrite nat_pow_succ. cbn [Nat.pow Z.of_nat]. change (Z.of_nat 1) with 1.
    rewrite Z.mul_1_r, Z.mul_comm, Z.pow_mul_r by (try apply Z.pow_nonneg; lia).
    rewrite (cong_pow _ _ _ _ Hg). reflexivity.
  - pose proof (wroot_half k ltac:(lia)) as W.
    replace (Z.of_nat (2 ^ S k)) with (Z.of_nat (2 ^ k) * 2) by (cbn [Nat.pow]; lia).
    rewrite Z.pow_mul_r by lia. rewrite (cong_pow _ _ _ _ W). reflexivity.
Qed.

Lemma wroot_order k e : (k <= S K)%nat -> (0 < e < 2 ^ k)%nat -> ~ cong q (wroot k ^ Z.of_nat e) 1.
Proof.
  intros H He C. rewrite wroot_pow in C by lia. rewrite step_val in C by auto.
  destruct (order_gen q g K) as [_ O]; [lia|apply half_nontrivial|exact Hg|].
  specialize (O (2 ^ Z.of_nat (S K - k) * Z.of_nat e)). destruct O as [O _].
  { apply Z.mul_nonneg_nonneg; [apply Z.pow_nonneg|]; lia. }
  destruct O as [t Ht].
  { rewrite (proj1 (cong_iff _ _ _) C). apply Z.mod_small. lia. }
  assert (E0 : 2 ^ Z.of_nat (S K) = 2 ^ Z.of_nat (S K - k) * 2 ^ Z.of_nat k).
  { rewrite <- Z.pow_add_r by lia. f_equal. lia. }
  rewrite E0 in Ht.
  assert (P : 0 < 2 ^ Z.of_nat (S K - k)) by (apply Z.pow_pos_nonneg; lia).
  assert (E : Z.of_nat e = t * 2 ^ Z.of_nat k) by nia.
  rewrite <- of_nat_pow2 in E. assert (0 < t) by nia. nia.
Qed.

Lemma wroot_inverse k : cong q (wroot k * vroot k) 1.
Proof.
  unfold wroot, vroot. rewrite !powm_spec by apply step_nonneg. demod.
  rewrite <- Z.pow_mul_l. rewrite (cong_pow _ _ _ _ (invmod_spec q Hq g gen_nonzero)).
  rewrite Z.pow_1_l by apply step_nonneg. reflexivity.
Qed.

Lemma vroot_half k : (k <= K)%nat -> cong q (vroot (S k) ^ Z.of_nat (2 ^ k)) (-1).
Proof.
  intros H. pose proof (wroot_half k H) as W. pose proof (wroot_inverse (S k)) as I.
  transitivity (- ((-1) * vroot (S k) ^ Z.of_nat (2 ^ k))); [cong_ring|].
  rewrite <- W at 1. rewrite <- Z.pow_mul_l, (cong_pow _ _ _ _ I), Z.pow_1_l by lia. reflexivity.
Qed.

Lemma size_nonzero k : (k <= S K)%nat -> ~ cong q (Z.of_nat (2 ^ k)) 0.
Proof.
  intros H. rewrite of_nat_pow2. apply (cong_pow_nonzero q Hq); [lia|].
  intros C. apply (cong_small q) in C; lia.
Qed.

Lemma wroot_distinct k : (k <= S K)%nat -> NoDup (root_table q (wroot k) 1 (2 ^ k)).
Proof.
  intros H. apply (NoDup_nth _ 0). rewrite root_table_length. intros i j Hi Hj E.
  assert (C : cong q (wroot k ^ Z.of_nat i) (wroot k ^ Z.of_nat j)).
  { rewrite <- (Z.mul_1_l (_ ^ Z.of_nat i)), <- (Z.mul_1_l (_ ^ Z.of_nat j)).
    rewrite <- !root_table_nth by eauto. now rewrite E. }
  assert (Hw0 : forall e, ~ cong q (wroot k ^ Z.of_nat e) 0).
  { intros e. apply (cong_pow_nonzero q Hq); [lia|]. intros Z0. pose proof (wroot_inverse k) as I.
    rewrite Z0 in I. apply (cong_1_0 q Hq). rewrite <- I. cong_ring. }
  destruct (Nat.lt_trichotomy i j) as [L|[L|L]]; auto; exfalso.
  - apply (wroot_order k (j - i) H); [lia|]. apply (cong_cancel q Hq (wroot k ^ Z.of_nat i)); auto.
    rewrite <- Z.pow_add_r by lia. replace (Z.of_nat i + Z.of_nat (j - i)) with (Z.of_nat j) by lia.
    rewrite <- C. cong_ring.
  - apply (wroot_order k (i - j) H); [lia|]. apply (cong_cancel q Hq (wroot k ^ Z.of_nat j)); auto.
    rewrite <- Z.pow_add_r by lia. replace (Z.of_nat j + Z.of_nat (i - j)) with (Z.of_nat i) by lia.
    rewrite C. cong_ring.
Qed.

Lemma fft_forward k ys : (k <= S K)%nat -> length ys = (2 ^ k)%nat ->
  length (fft_interpolate q (2 ^ k) (root_table q (wroot k) 1 (2 ^ k)) ys false) = (2 ^ k)%nat /\
  forall j, (j < 2 ^ k)%nat ->
  cong q (nth j (fft_interpolate q (2 ^ k) (root_table q (wroot k) 1 (2 ^ k)) ys false) 0)
         (peval ys (wroot k ^ Z.of_nat j)).
Proof.
  intros H Hl. unfold fft_interpolate. apply fft_recurse_spec; auto.
  - apply Nat.pow_gt_lin_r. lia.
  - intros i Hi. rewrite root_table_nth by auto. cong_ring.
  - destruct k as [|k]; [now left|right]. replace (S k - 1)%nat with k by lia. apply wroot_half. lia.
Qed.

Lemma fft_inverse k ys : (k <= S K)%nat -> length ys = (2 ^ k)%nat ->
  let c := fft_interpolate q (2 ^ k) (root_table q (vroot k) 1 (2 ^ k)) ys true in
  length c = (2 ^ k)%nat /\ Forall (in_field q) c /\
  forall i, (i < 2 ^ k)%nat -> cong q (peval c (wroot k ^ Z.of_nat i)) (nth i ys 0).
Proof.
  intros H Hl. cbv zeta. unfold fft_interpolate.
  destruct (fft_recurse_spec q k (2 ^ k) (vroot k) (root_table q (vroot k) 1 (2 ^ k)) ys) as [A B]; auto.
  - apply Nat.pow_gt_lin_r. lia.
  - intros i Hi. rewrite root_table_nth by auto. cong_ring.
  - destruct k as [|k]; [now left|right]. replace (S k - 1)%nat with k by lia. apply vroot_half. lia.
  - split; [now rewrite map_length|]. split.
    + apply Forall_forall. intros x Hx. apply in_map_iff in Hx. destruct Hx as (y & <- & _).
      apply Z.mod_pos_bound. lia.
    + apply (dft_inverse q Hq _ (wroot k) (vroot k)); auto.
      * apply wroot_inverse.
      * now apply wroot_one.
      * intros e He. now apply wroot_order.
      * now apply size_nonzero.
      * now rewrite map_length.
      * intros j Hj.
        rewrite nth_indep with (d' := (0 * invmod q (Z.of_nat (2 ^ k))) mod q) by (rewrite map_length; lia).
        rewrite (map_nth (fun x => (x * invmod q (Z.of_nat (2 ^ k))) mod q)). demod.
        rewrite B by auto. reflexivity.
Qed.
End Roots.
