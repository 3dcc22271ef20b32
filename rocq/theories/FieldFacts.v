(** * Arithmetic modulo a prime *)
From Coq Require Import ZArith List Bool Lia Znumtheory Permutation.
From Verif Require Import Words WordsFacts Constants Share Cong Poly SpecPoly.
Import ListNotations.
Open Scope Z_scope.
Arguments Z.mul : simpl never.
Arguments Z.add : simpl never.
Arguments Z.sub : simpl never.
Arguments Z.pow : simpl never.

(** ** powm *)
Lemma powm_pos_spec m a e : powm_pos m a e = a ^ Zpos e mod m.
Proof.
  induction e as [e IH|e IH|]; cbn [powm_pos].
  - rewrite IH. apply cong_iff. demod. rewrite Pos2Z.inj_xI, Z.pow_add_r, Z.pow_mul_r by lia.
    apply cong_eq. rewrite <- Z.pow_2_r. rewrite <- !Z.pow_mul_r by lia.
    rewrite Z.pow_1_r. f_equal. f_equal. lia.
  - rewrite IH. apply cong_iff. demod. rewrite Pos2Z.inj_xO.
    apply cong_eq. rewrite <- Z.pow_add_r by lia. f_equal. lia.
  - now rewrite Z.pow_1_r.
Qed.

Lemma powm_spec m a e : 0 <= e -> powm m a e = a ^ e mod m.
Proof.
  intros. destruct e; cbn [powm]; [now rewrite Z.pow_0_r|apply powm_pos_spec|lia].
Qed.

(** ** Products of lists *)
Definition zprod (l : list Z) : Z := fold_right Z.mul 1 l.

Lemma zprod_cons x l : zprod (x :: l) = x * zprod l.
Proof. reflexivity. Qed.
Lemma zprod_app l l' : zprod (l ++ l') = zprod l * zprod l'.
Proof. induction l; cbn [app]; rewrite ?zprod_cons; [cbn; ring|rewrite IHl; ring]. Qed.

Lemma zprod_perm l l' : Permutation l l' -> zprod l = zprod l'.
Proof. induction 1; rewrite ?zprod_cons in *; try congruence. ring. Qed.

Lemma zprod_map_scale a l : zprod (map (fun x => a * x) l) = a ^ Z.of_nat (length l) * zprod l.
Proof.
  induction l as [|x l IH]; cbn [map]; rewrite ?zprod_cons.
  - cbn. ring.
  - rewrite IH. cbn [length]. rewrite Nat2Z.inj_succ, Z.pow_succ_r by lia. ring.
Qed.

Lemma zprod_cong m l l' : Forall2 (cong m) l l' -> cong m (zprod l) (zprod l').
Proof. induction 1; rewrite ?zprod_cons; [reflexivity|]. now rewrite H, IHForall2. Qed.

Section Prime.
Variable q : Z.
Hypothesis Hq : prime q.

Let Hq1 : 1 < q.
Proof. destruct Hq; auto. Qed.

Lemma prime_gt1 : 1 < q. Proof. exact Hq1. Qed.

Lemma cong0_iff a : cong q a 0 <-> (q | a).
Proof. unfold cong. now rewrite Z.sub_0_r. Qed.

Lemma cong_mul_0 a b : cong q (a * b) 0 -> cong q a 0 \/ cong q b 0.
Proof. rewrite !cong0_iff. apply prime_mult; auto. Qed.

Lemma cong_cancel a b c : ~ cong q a 0 -> cong q (a * b) (a * c) -> cong q b c.
Proof.
  intros Ha H. assert (K : cong q (a * (b - c)) 0).
  { rewrite Z.mul_sub_distr_l, H. cong_ring. }
  apply cong_mul_0 in K. destruct K as [K|K]; [tauto|].
  unfold cong in *. now rewrite Z.sub_0_r in K.
Qed.

Lemma cong_dec a b : cong q a b \/ ~ cong q a b.
Proof. rewrite cong_iff. destruct (Z.eq_dec (a mod q) (b mod q)); auto. Qed.

Lemma cong_1_0 : ~ cong q 1 0.
Proof. rewrite cong_iff, Z.mod_small, Zmod_0_l by lia. lia. Qed.

Lemma zprod_nonzero l : Forall (fun x => ~ cong q x 0) l -> ~ cong q (zprod l) 0.
Proof.
  induction 1; cbn; [apply cong_1_0|]. intros K. apply cong_mul_0 in K. tauto.
Qed.

Definition residues : list Z := map Z.of_nat (seq 1 (Z.to_nat (q - 1))).

Lemma in_residues x : In x residues <-> 1 <= x < q.
Proof.
  unfold residues. rewrite in_map_iff. split.
  - intros (n & <- & H). apply in_seq in H. lia.
  - intros H. exists (Z.to_nat x). rewrite in_seq. lia.
Qed.

Lemma residues_nodup : NoDup residues.
Proof.
  unfold residues. apply FinFun.Injective_map_NoDup; [|apply seq_NoDup].
  intros a b. lia.
Qed.

Lemma residues_length : length residues = Z.to_nat (q - 1).
Proof. unfold residues. now rewrite map_length, seq_length. Qed.

Lemma scaled_perm a : ~ cong q a 0 ->
  Permutation (map (fun x => (a * x) mod q) residues) residues.
Proof.
  intros Ha. apply NoDup_Permutation_bis.
  - assert (G : forall l, NoDup l -> (forall x, In x l -> 1 <= x < q) ->
        NoDup (map (fun x => (a * x) mod q) l)).
    { induction 1 as [|x l Hx Hl IH]; cbn [map]; intros Hr; constructor.
      - rewrite in_map_iff. intros (y & E & Hy). apply Hx.
        assert (cong q y x). { apply (cong_cancel a); auto. now apply cong_iff. }
        replace x with y; auto.
        pose proof (Hr y (or_intror Hy)). pose proof (Hr x (or_introl eq_refl)).
        apply (cong_small q); auto; lia.
      - apply IH. intros. apply Hr. now right. }
    apply G; [apply residues_nodup|]. intros x. apply in_residues.
  - rewrite map_length. lia.
  - intros y. rewrite in_map_iff. intros (x & <- & H). apply in_residues in H.
    apply in_residues. pose proof (Z.mod_pos_bound (a * x) q). split; [|lia].
    enough ((a * x) mod q <> 0) by lia. intros K.
    assert (C : cong q (a * x) 0). { apply cong_iff. rewrite K. now rewrite Zmod_0_l. }
    apply cong_mul_0 in C. destruct C as [C|C]; [tauto|].
    apply (cong_small q) in C; lia.
Qed.

Theorem fermat a : ~ cong q a 0 -> cong q (a ^ (q - 1)) 1.
Proof.
  intros Ha.
  assert (H : cong q (a ^ (q - 1) * zprod residues) (1 * zprod residues)).
  { rewrite <- (zprod_perm _ _ (scaled_perm a Ha)) at 2.
    transitivity (zprod (map (fun x => a * x) residues)).
    - apply cong_eq. rewrite zprod_map_scale, residues_length. now rewrite Z2Nat.id by lia.
    - rewrite Z.mul_1_l. apply zprod_cong. clear Ha. induction residues; constructor; auto.
      symmetry. apply cong_mod. }
  apply (cong_cancel (zprod residues)).
  - apply zprod_nonzero, Forall_forall. intros x Hx K. apply in_residues in Hx.
    apply (cong_small q) in K; lia.
  - rewrite Z.mul_comm, H. cong_ring.
Qed.

Lemma invmod_spec a : ~ cong q a 0 -> cong q (a * invmod q a) 1.
Proof.
  intros Ha. unfold invmod. destruct (a mod q =? 0) eqn:E.
  - exfalso. apply Ha. apply cong_iff. rewrite Zmod_0_l. lia.
  - rewrite powm_spec by lia. demod. transitivity (a ^ (q - 1)); [|now apply fermat].
    replace (q - 1) with (Z.succ (q - 2)) by lia. rewrite Z.pow_succ_r by lia. reflexivity.
Qed.

Lemma invmod_range a : 0 <= invmod q a < q.
Proof.
  unfold invmod. destruct (a mod q =? 0); [lia|].
  rewrite powm_spec by lia. apply Z.mod_pos_bound; lia.
Qed.

Lemma invmod_cong a b : cong q a b -> invmod q a = invmod q b.
Proof.
  intros H. unfold invmod. rewrite (proj1 (cong_iff q a b) H).
  destruct (b mod q =? 0); auto. rewrite !powm_spec by lia.
  apply cong_iff. now apply cong_pow.
Qed.

Lemma invmod_unique a b : cong q (a * b) 1 -> cong q b (invmod q a).
Proof.
  intros H. assert (Ha : ~ cong q a 0).
  { intros K. rewrite K in H. apply cong_1_0. rewrite <- H. cong_ring. }
  apply (cong_cancel a); auto. rewrite H. symmetry. now apply invmod_spec.
Qed.

Lemma cong_pow_nonzero a n : 0 <= n -> ~ cong q a 0 -> ~ cong q (a ^ n) 0.
Proof.
  intros Hn Ha. pattern n. apply natlike_ind; auto; [apply cong_1_0|].
  intros x Hx IH. rewrite Z.pow_succ_r by lia. intros K. apply cong_mul_0 in K. tauto.
Qed.

End Prime.

(** ** Prime factors *)
Lemma prime_factor_aux : forall n, 0 <= n -> forall z, 1 < z -> z <= n -> exists q, prime q /\ (q | z).
Proof.
  intros n Hn. pattern n. apply natlike_ind; auto; [lia|]. clear n Hn.
  intros n Hn IH z Hz Hzn.
  destruct (prime_dec z) as [P|P]; [exists z; split; auto; apply Z.divide_refl|].
  destruct (not_prime_divide z Hz P) as (d & Hd & Hdz).
  destruct (IH d) as (q & Hq & Hqd); [lia|lia|]. exists q. split; auto. eapply Z.divide_trans; eauto.
Qed.
Lemma prime_factor z : 1 < z -> exists q, prime q /\ (q | z).
Proof. intros. apply (prime_factor_aux z); lia. Qed.

Lemma small_prime_factor n : 1 < n -> ~ prime n -> exists q, prime q /\ (q | n) /\ q * q <= n.
Proof.
  intros Hn Hp. destruct (not_prime_divide n Hn Hp) as (d & Hd & (e & He)).
  assert (He1 : 1 < e) by nia.
  destruct (Z.le_gt_cases d e) as [L|L].
  - destruct (prime_factor d) as (q & Hq & Hqd); [lia|]. exists q. split; auto.
    assert (q <= d) by (apply Z.divide_pos_le; [lia|auto]). pose proof (prime_gt1 q Hq).
    split; [|nia]. eapply Z.divide_trans; eauto. exists e. lia.
  - destruct (prime_factor e) as (q & Hq & Hqd); [lia|]. exists q. split; auto.
    assert (q <= e) by (apply Z.divide_pos_le; [lia|auto]). pose proof (prime_gt1 q Hq).
    split; [|nia]. eapply Z.divide_trans; eauto. exists d. lia.
Qed.

(** ** The modulus *)
Lemma gen_half : powm Int_Modulus Int_Gen (2 ^ 18) = Int_Modulus - 1.
Proof. vm_compute. reflexivity. Qed.

Lemma gen_half' : Int_Gen ^ 2 ^ 18 mod Int_Modulus = Int_Modulus - 1.
Proof. rewrite <- gen_half. symmetry. apply powm_spec. lia. Qed.

Lemma mod_minus_one q M X : 0 < M -> (q | M) -> X mod M = M - 1 -> cong q X (-1).
Proof.
  intros HM [k Hk] E. pose proof (Z.div_mod X M) as D. rewrite E in D.
  exists (k * (X / M) + k). rewrite D at 1 by lia. rewrite Hk. ring.
Qed.

Lemma two_adic q g K e : 0 <= e ->
  ~ cong q (-1) 1 -> cong q (g ^ 2 ^ Z.of_nat K) (-1) -> cong q (g ^ e) 1 ->
  forall s, (s <= S K)%nat -> (2 ^ Z.of_nat s | e).
Proof.
  intros He Hm1 Hg F. induction s as [|s IH]; intros Hs.
  - exists e. cbn. lia.
  - destruct IH as [t Ht]; [lia|].
    destruct (Z.Even_or_Odd t) as [[u Hu]|[u Hu]].
    + exists u. rewrite Ht, Hu, Nat2Z.inj_succ, Z.pow_succ_r by lia. ring.
    + exfalso. apply Hm1.
      pose (d := (K - s)%nat).
      assert (Ht0 : 0 <= t). { pose proof (Z.pow_pos_nonneg 2 (Z.of_nat s)). nia. }
      assert (E1 : cong q ((g ^ 2 ^ Z.of_nat K) ^ t) 1).
      { assert (Z1 : (g ^ 2 ^ Z.of_nat K) ^ t = (g ^ e) ^ (2 ^ Z.of_nat d)).
        { rewrite <- !Z.pow_mul_r by (try apply Z.pow_nonneg; lia). f_equal. rewrite Ht.
          replace K with (s + d)%nat by (unfold d; lia).
          rewrite Nat2Z.inj_add, Z.pow_add_r by lia. ring. }
        rewrite Z1, (cong_pow _ _ _ _ F). rewrite Z.pow_1_l by (apply Z.pow_nonneg; lia). reflexivity. }
      rewrite (cong_pow _ _ _ _ Hg) in E1. rewrite Hu in E1.
      rewrite Z.pow_add_r, Z.pow_mul_r in E1 by lia.
      change ((-1) ^ 2) with 1 in E1. rewrite Z.pow_1_l in E1 by lia. exact E1.
Qed.

Lemma modulus_factor_gen q g K : prime q -> q <> 2 ->
  cong q (g ^ 2 ^ Z.of_nat K) (-1) -> (2 ^ Z.of_nat (S K) | q - 1).
Proof.
  intros Hq H2 Hg. pose proof (prime_gt1 q Hq) as Hq1.
  assert (Hm1 : ~ cong q (-1) 1).
  { intros [k Hk]. assert (q <= 2). { apply Z.divide_pos_le; [lia|]. exists (-k). lia. } lia. }
  assert (Hg0 : ~ cong q g 0).
  { intros C. rewrite (cong_pow _ _ _ _ C) in Hg. rewrite Z.pow_0_l in Hg by (apply Z.pow_pos_nonneg; lia).
    destruct Hg as [k Hk]. assert (q <= 1). { apply Z.divide_pos_le; [lia|]. exists k. lia. } lia. }
  apply (two_adic q g K); auto; [lia|]. now apply fermat.
Qed.

Lemma gen_minus_one q : (q | Int_Modulus) -> cong q (Int_Gen ^ 2 ^ Z.of_nat 18) (-1).
Proof. intros Hd. refine (mod_minus_one q Int_Modulus _ _ Hd gen_half'). reflexivity. Qed.

Lemma modulus_factor q : prime q -> (q | Int_Modulus) -> (2 ^ 19 | q - 1).
Proof.
  intros Hq Hd. refine (modulus_factor_gen q Int_Gen 18 Hq _ (gen_minus_one q Hd)).
  intros ->. destruct Hd as [k Hk]. unfold Int_Modulus in Hk. lia.
Qed.

Lemma candidates_fail :
  forallb (fun k => negb (Int_Modulus mod (1 + 524288 * Z.of_nat k) =? 0)) (seq 1 23) = true.
Proof. vm_compute. reflexivity. Qed.

Theorem modulus_prime : prime Int_Modulus.
Proof.
  destruct (prime_dec Int_Modulus) as [H|H]; auto. exfalso.
  destruct (small_prime_factor Int_Modulus) as (q & Hq & Hd & Hs); [reflexivity|auto|].
  destruct (modulus_factor q Hq Hd) as [k Hk]. pose proof (prime_gt1 q Hq).
  change (2 ^ 19) with 524288 in Hk.
  assert (Hkr : 1 <= k <= 23). { unfold Int_Modulus in Hs. nia. }
  pose proof candidates_fail as C. rewrite forallb_forall in C.
  specialize (C (Z.to_nat k)). rewrite in_seq, Z2Nat.id in C by lia.
  rewrite negb_true_iff, Z.eqb_neq in C. apply C; [lia|].
  replace (1 + 524288 * k) with q by lia. now apply Z.mod_divide; [lia|].
Qed.

Lemma order_gen m g K : 1 < m -> ~ cong m (-1) 1 -> cong m (g ^ 2 ^ Z.of_nat K) (-1) ->
  has_order m g (2 ^ Z.of_nat (S K)).
Proof.
  intros H1 Hm1 Hg. split; [apply Z.pow_pos_nonneg; lia|]. intros e He.
  assert (C1 : g ^ e mod m = 1 <-> cong m (g ^ e) 1).
  { rewrite cong_iff. rewrite (Z.mod_small 1) by lia. reflexivity. }
  rewrite C1. split.
  - intros C. now apply (two_adic m g K).
  - intros [t Ht]. assert (P : 0 < 2 ^ Z.of_nat (S K)) by (apply Z.pow_pos_nonneg; lia).
    assert (0 <= t) by nia.
    rewrite Ht, Z.mul_comm, Z.pow_mul_r by lia.
    assert (F : cong m (g ^ 2 ^ Z.of_nat (S K)) 1).
    { rewrite Nat2Z.inj_succ, Z.pow_succ_r by lia. rewrite Z.mul_comm, Z.pow_mul_r by (try apply Z.pow_nonneg; lia).
      rewrite (cong_pow _ _ _ 2 Hg). reflexivity. }
    rewrite (cong_pow _ _ _ _ F). now rewrite Z.pow_1_l by lia.
Qed.

Lemma gen_order : has_order Int_Modulus Int_Gen (2 ^ 19).
Proof.
  refine (order_gen Int_Modulus Int_Gen 18 _ _ (gen_minus_one _ (Z.divide_refl _))).
  - reflexivity.
  - rewrite cong_iff. vm_compute. discriminate.
Qed.
