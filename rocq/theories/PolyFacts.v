(** * Polynomials as coefficient lists: evaluation, root bound, interpolation *)
From Coq Require Import ZArith List Bool Lia Znumtheory.
From Verif Require Import Words WordsFacts Constants Share Cong Poly SpecPoly FieldFacts.
Import ListNotations.
Open Scope Z_scope.
Arguments Z.mul : simpl never.
Arguments Z.add : simpl never.
Arguments Z.sub : simpl never.
Arguments Z.pow : simpl never.
Arguments Nat.div : simpl never.

(** ** Sums *)
Lemma zsum_app l l' : zsum (l ++ l') = zsum l + zsum l'.
Proof. induction l; cbn [app]; rewrite ?zsum_cons, ?zsum_nil; lia. Qed.
Lemma zsum_map_scale {A} k (f : A -> Z) l :
  zsum (map (fun x => k * f x) l) = k * zsum (map f l).
Proof. induction l; cbn [map]; rewrite ?zsum_cons, ?zsum_nil; [ring|]. rewrite IHl. ring. Qed.
Lemma zsum_map_0 {A} (l : list A) : zsum (map (fun _ => 0) l) = 0.
Proof. induction l; cbn [map]; rewrite ?zsum_cons, ?zsum_nil; lia. Qed.
Lemma zsum_exchange {A B} (f : A -> B -> Z) la lb :
  zsum (map (fun a => zsum (map (fun b => f a b) lb)) la)
  = zsum (map (fun b => zsum (map (fun a => f a b) la)) lb).
Proof.
  induction la; cbn [map].
  - rewrite zsum_nil. symmetry. erewrite map_ext; [apply zsum_map_0|]. reflexivity.
  - rewrite zsum_cons, IHla, <- zsum_map_add. f_equal. 
Qed.
Lemma zsum_map_ext {A} (f g : A -> Z) l :
  (forall x, In x l -> f x = g x) -> zsum (map f l) = zsum (map g l).
Proof. intros H. f_equal. now apply map_ext_in. Qed.

Lemma zsum_pick_seq i n (f : nat -> Z) : (i < n)%nat ->
  zsum (map (fun l => if Nat.eqb l i then f l else 0) (seq 0 n)) = f i.
Proof.
  intros H. replace n with (i + (1 + (n - i - 1)))%nat by lia.
  rewrite !seq_app, !map_app, !zsum_app. cbn [seq map]. rewrite Nat.add_0_l, Nat.eqb_refl, zsum_cons, zsum_nil.
  erewrite zsum_map_ext with (g := fun _ => 0); [|intros x Hx; apply in_seq in Hx; destruct (Nat.eqb_spec x i); lia].
  rewrite zsum_map_0.
  erewrite zsum_map_ext with (g := fun _ => 0); [|intros x Hx; apply in_seq in Hx; destruct (Nat.eqb_spec x i); lia].
  rewrite zsum_map_0. lia.
Qed.

Lemma nat_pow_succ (x : Z) n : x ^ Z.of_nat (S n) = x * x ^ Z.of_nat n.
Proof. rewrite Nat2Z.inj_succ, Z.pow_succ_r by lia. reflexivity. Qed.

Lemma geom_sum x n :
  (x - 1) * zsum (map (fun j => x ^ Z.of_nat j) (seq 0 n)) = x ^ Z.of_nat n - 1.
Proof.
  induction n as [|n IH].
  - cbn. ring.
  - rewrite seq_S, map_app, zsum_app. cbn [map]. rewrite zsum_cons, zsum_nil, Nat.add_0_l.
    rewrite nat_pow_succ. rewrite Z.mul_add_distr_l, IH. ring.
Qed.

(** ** Evaluation *)
Lemma peval_nil x : peval [] x = 0. Proof. reflexivity. Qed.
Lemma peval_cons a c x : peval (a :: c) x = a + x * peval c x. Proof. reflexivity. Qed.

Lemma peval_app a b x : peval (a ++ b) x = peval a x + x ^ Z.of_nat (length a) * peval b x.
Proof.
  induction a as [|y a IH]; cbn [app length]; rewrite ?peval_cons, ?peval_nil.
  - rewrite Z.pow_0_r. ring.
  - rewrite IH, nat_pow_succ. ring.
Qed.

Lemma peval_sum c x :
  peval c x = zsum (map (fun j => nth j c 0 * x ^ Z.of_nat j) (seq 0 (length c))).
Proof.
  induction c as [|a c IH]; [reflexivity|]. rewrite peval_cons. cbn [length seq map].
  rewrite zsum_cons. cbn [nth]. rewrite Z.pow_0_r, Z.mul_1_r. f_equal. rewrite IH.
  rewrite <- zsum_map_scale, <- seq_shift, map_map. f_equal. apply map_ext. intros j.
  cbn [nth]. rewrite nat_pow_succ. ring.
Qed.

Lemma peval_cong m c c' x x' : Forall2 (cong m) c c' -> cong m x x' -> cong m (peval c x) (peval c' x').
Proof.
  intros H Hx. induction H; rewrite ?peval_cons; [reflexivity|]. now rewrite H, IHForall2, Hx.
Qed.
Lemma Forall2_cong_refl m c : Forall2 (cong m) c c.
Proof. induction c; constructor; auto. reflexivity. Qed.
Lemma peval_cong_r m c x x' : cong m x x' -> cong m (peval c x) (peval c x').
Proof. apply peval_cong, Forall2_cong_refl. Qed.
Lemma peval_cong_l m c c' x : Forall2 (cong m) c c' -> cong m (peval c x) (peval c' x).
Proof. intros. now apply peval_cong; [|reflexivity]. Qed.

Lemma peval_repeat0 n x : peval (repeat 0 n) x = 0.
Proof. induction n; cbn [repeat]; rewrite ?peval_cons; [reflexivity|lia]. Qed.

Lemma peval_zero m c x : Forall (fun a => cong m a 0) c -> cong m (peval c x) 0.
Proof. induction 1; rewrite ?peval_cons; [reflexivity|]. rewrite H, IHForall. cong_ring. Qed.

(** Coefficientwise sum and difference, without reduction. *)
Fixpoint zpadd (a b : list Z) : list Z :=
  match a, b with
  | [], _ => b
  | _, [] => a
  | x :: a', y :: b' => x + y :: zpadd a' b'
  end.
Lemma peval_zpadd a b x : peval (zpadd a b) x = peval a x + peval b x.
Proof.
  revert b. induction a as [|y a IH]; intros [|z b]; cbn [zpadd]; rewrite ?peval_cons, ?peval_nil, ?IH; ring.
Qed.
Lemma zpadd_length a b : length (zpadd a b) = Nat.max (length a) (length b).
Proof. revert b. induction a; intros [|]; cbn; auto. Qed.
Lemma peval_map_scale k c x : peval (map (Z.mul k) c) x = k * peval c x.
Proof. induction c; cbn [map]; rewrite ?peval_cons, ?peval_nil; [ring|]. rewrite IHc. ring. Qed.
Definition zpsub a b := zpadd a (map (Z.mul (-1)) b).
Lemma peval_zpsub a b x : peval (zpsub a b) x = peval a x - peval b x.
Proof. unfold zpsub. rewrite peval_zpadd, peval_map_scale. ring. Qed.
Lemma zpsub_length a b : length (zpsub a b) = Nat.max (length a) (length b).
Proof. unfold zpsub. now rewrite zpadd_length, map_length. Qed.

Fixpoint zpmul (a b : list Z) : list Z :=
  match a with
  | [] => []
  | x :: a' => zpadd (map (Z.mul x) b) (0 :: zpmul a' b)
  end.
Lemma peval_zpmul a b x : peval (zpmul a b) x = peval a x * peval b x.
Proof.
  induction a as [|y a IH]; cbn [zpmul]; rewrite ?peval_nil; [ring|].
  rewrite peval_zpadd, peval_map_scale, !peval_cons, IH. ring.
Qed.
Lemma zpmul_length a b : a <> [] -> b <> [] -> length (zpmul a b) = (length a + length b - 1)%nat.
Proof.
  intros Ha Hb. destruct b as [|z b]; [congruence|]. clear Hb.
  induction a as [|y a IH]; [congruence|]. clear Ha. cbn [zpmul].
  rewrite zpadd_length, map_length. cbn [length]. destruct a as [|y' a].
  - cbn. lia.
  - rewrite IH by discriminate. cbn [length]. lia.
Qed.

(** ** Reduced operations of the model *)
Lemma peval_padd m a b x : cong m (peval (padd m a b) x) (peval a x + peval b x).
Proof.
  revert b. induction a as [|y a IH]; intros [|z b]; cbn [padd]; rewrite ?peval_cons, ?peval_nil; try cong_ring.
  rewrite IH. demod. cong_ring.
Qed.
Lemma padd_length m a b : length (padd m a b) = Nat.max (length a) (length b).
Proof. revert b. induction a; intros [|]; cbn; auto. Qed.
Lemma peval_pscale m k a x : cong m (peval (pscale m k a) x) (k * peval a x).
Proof.
  unfold pscale. induction a; cbn [map]; rewrite ?peval_cons, ?peval_nil; [cong_ring|].
  rewrite IHa. demod. cong_ring.
Qed.
Lemma peval_pmul m a b x : cong m (peval (pmul m a b) x) (peval a x * peval b x).
Proof.
  induction a as [|y a IH]; cbn [pmul]; rewrite ?peval_nil; [cong_ring|].
  rewrite peval_padd, peval_pscale, !peval_cons, IH. cong_ring.
Qed.
Lemma pmul_length m a b : a <> [] -> b <> [] -> length (pmul m a b) = (length a + length b - 1)%nat.
Proof.
  intros Ha Hb. destruct b as [|z b]; [congruence|]. clear Hb.
  induction a as [|y a IH]; [congruence|]. clear Ha. cbn [pmul].
  rewrite padd_length. unfold pscale. rewrite map_length. cbn [length]. destruct a as [|y' a].
  - cbn. lia.
  - rewrite IH by discriminate. cbn [length]. lia.
Qed.

(** ** Division by a linear factor and the root bound *)
Fixpoint pquot (c : list Z) (r : Z) : list Z :=
  match c with
  | [] => []
  | a :: c' => match c' with [] => [] | _ => peval c' r :: pquot c' r end
  end.

Lemma pquot_spec c r x : peval c x = (x - r) * peval (pquot c r) x + peval c r.
Proof.
  induction c as [|a c IH]; [cbn; ring|].
  destruct c as [|b c].
  - cbn. ring.
  - remember (b :: c) as c'. assert (E : pquot (a :: c') r = peval c' r :: pquot c' r).
    { subst c'. reflexivity. }
    rewrite E, !peval_cons. rewrite IH at 1. ring.
Qed.
Lemma pquot_length c r : length (pquot c r) = (length c - 1)%nat.
Proof.
  induction c as [|a c IH]; [reflexivity|]. destruct c as [|b c]; [reflexivity|].
  remember (b :: c) as c'. assert (E : pquot (a :: c') r = peval c' r :: pquot c' r).
  { subst c'. reflexivity. }
  rewrite E. cbn [length]. rewrite IH. subst c'. cbn [length]. lia.
Qed.
Lemma pquot_zero m c r :
  Forall (fun a => cong m a 0) (pquot c r) -> cong m (peval c r) 0 -> Forall (fun a => cong m a 0) c.
Proof.
  induction c as [|a c IH]; [constructor|]. destruct c as [|b c].
  - intros _ H. cbn in H. constructor; auto. rewrite <- H. cong_ring.
  - remember (b :: c) as c'. assert (E : pquot (a :: c') r = peval c' r :: pquot c' r).
    { subst c'. reflexivity. }
    rewrite E. intros H H0. inversion H as [|? ? H1 H2]; subst x l.
    constructor; auto. rewrite peval_cons, H1 in H0. rewrite <- H0. cong_ring.
Qed.

(** Pairwise different modulo m. *)
Fixpoint distinct (m : Z) (l : list Z) : Prop :=
  match l with
  | [] => True
  | x :: l' => Forall (fun y => ~ cong m y x) l' /\ distinct m l'
  end.

Lemma distinct_app m l l' : distinct m (l ++ l') -> distinct m l /\ distinct m l'.
Proof.
  induction l as [|x l IH]; cbn; [auto|]. intros [H1 H2]. apply IH in H2. apply Forall_app in H1. tauto.
Qed.

Lemma nodup_distinct m l : NoDup l -> Forall (in_field m) l -> distinct m l.
Proof.
  induction 1 as [|x l Hx Hl IH]; cbn; auto. intros H. inversion H; subst. split; auto.
  apply Forall_forall. intros y Hy K. apply Hx. rewrite Forall_forall in H3.
  replace x with y; auto. apply (cong_small m); auto. apply H3; auto.
Qed.

Section Prime.
Variable q : Z.
Hypothesis Hq : prime q.

Lemma root_bound : forall rs c, distinct q rs -> (length c <= length rs)%nat ->
  Forall (fun r => cong q (peval c r) 0) rs -> Forall (fun a => cong q a 0) c.
Proof.
  induction rs as [|r rs IH]; intros c Hd Hl Hr.
  - destruct c; [constructor|cbn in Hl; lia].
  - cbn in Hd. destruct Hd as [Hd1 Hd2]. inversion Hr as [|? ? H1 H2]; subst.
    apply (pquot_zero q c r); auto. apply IH; auto.
    + rewrite pquot_length. cbn in Hl. lia.
    + rewrite Forall_forall in *. intros x Hx. specialize (H2 x Hx). specialize (Hd1 x Hx).
      rewrite (pquot_spec c r x), H1, Z.add_0_r in H2. apply (cong_mul_0 q Hq) in H2.
      destruct H2 as [H2|H2]; auto. exfalso. apply Hd1. unfold cong in *. now rewrite Z.sub_0_r in H2.
Qed.

(** Two polynomials with fewer coefficients than common points agree everywhere. *)
Lemma poly_unique rs c c' : distinct q rs ->
  (length c <= length rs)%nat -> (length c' <= length rs)%nat ->
  (forall r, In r rs -> cong q (peval c r) (peval c' r)) ->
  forall x, cong q (peval c x) (peval c' x).
Proof.
  intros Hd Hl Hl' H x.
  assert (K : Forall (fun a => cong q a 0) (zpsub c c')).
  { apply (root_bound rs); auto.
    - rewrite zpsub_length. lia.
    - apply Forall_forall. intros r Hr. rewrite peval_zpsub, (H r Hr). cong_ring. }
  pose proof (peval_zero q _ x K) as E. rewrite peval_zpsub in E.
  unfold cong in *. now rewrite Z.sub_0_r in E.
Qed.

(** The non-zero values of a polynomial: at most [length c - 1] roots. *)
Lemma few_roots c : ~ Forall (fun a => cong q a 0) c ->
  forall rs, NoDup rs -> Forall (in_field q) rs ->
  Forall (fun r => cong q (peval c r) 0) rs -> (length rs < length c)%nat.
Proof.
  intros Hc rs Hn Hf Hr. destruct (Nat.lt_ge_cases (length rs) (length c)) as [|L]; auto.
  exfalso. apply Hc. apply (root_bound rs); auto. now apply nodup_distinct.
Qed.

(** ** Interpolation exists *)
Fixpoint zmonic (xs : list Z) : list Z :=
  match xs with
  | [] => [1]
  | x :: xs' => zpmul [- x; 1] (zmonic xs')
  end.
Lemma zmonic_eval xs x : peval (zmonic xs) x = zprod (map (fun xi => x - xi) xs).
Proof.
  induction xs as [|y xs IH]; cbn [zmonic map]; rewrite ?zprod_cons.
  - cbn. ring.
  - rewrite peval_zpmul, IH. rewrite !peval_cons, peval_nil. ring.
Qed.
Lemma zmonic_length xs : length (zmonic xs) = S (length xs).
Proof.
  induction xs as [|y xs IH]; [reflexivity|]. cbn [zmonic].
  rewrite zpmul_length; [rewrite IH; cbn [length]; lia|discriminate|].
  intros E. rewrite E in IH. discriminate.
Qed.

Lemma interpolation_exists : forall xs ys, distinct q xs -> length ys = length xs ->
  exists c, length c = length xs /\
    forall i, (i < length xs)%nat -> cong q (peval c (nth i xs 0)) (nth i ys 0).
Proof.
  induction xs as [|x xs IH]; intros ys Hd Hl.
  - exists []. split; auto. cbn. lia.
  - destruct ys as [|y ys]; [discriminate|]. cbn in Hd. destruct Hd as [Hd1 Hd2].
    destruct (IH ys Hd2) as (c & Hc & H); [cbn in Hl; lia|].
    set (M := zmonic xs).
    assert (HM : ~ cong q (peval M x) 0).
    { unfold M. rewrite zmonic_eval. apply (zprod_nonzero q Hq). apply Forall_forall. intros z Hz.
      apply in_map_iff in Hz. destruct Hz as (xi & <- & Hz). rewrite Forall_forall in Hd1.
      intros K. apply (Hd1 xi Hz). unfold cong in *. rewrite Z.sub_0_r in K.
      destruct K as [k Hk]. exists (-k). lia. }
    exists (zpadd c (map (Z.mul ((y - peval c x) * invmod q (peval M x))) M)). split.
    + rewrite zpadd_length, map_length. unfold M. rewrite zmonic_length. cbn [length]. lia.
    + intros i Hi. rewrite peval_zpadd, peval_map_scale. destruct i as [|i]; cbn [nth].
      * transitivity (peval c x + (y - peval c x) * (peval M x * invmod q (peval M x))); [cong_ring|].
        rewrite (invmod_spec q Hq _ HM). cong_ring.
      * assert (E : peval M (nth i xs 0) = 0).
        { unfold M. rewrite zmonic_eval. cbn [length] in Hi.
          assert (Hin : In (nth i xs 0) xs) by (apply nth_In; lia). clear - Hin.
          revert Hin. generalize (nth i xs 0) as z. intros z Hin.
          induction xs as [|a xs IH]; [destruct Hin|]. cbn [map]. rewrite zprod_cons.
          destruct Hin as [->|Hin]; [ring|]. rewrite IH by auto. ring. }
        rewrite E. rewrite Z.mul_0_r, Z.add_0_r. apply H. cbn in Hi. lia.
Qed.
End Prime.
