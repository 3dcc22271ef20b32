(** * The polynomial layer for the modulus and generator of the code *)
From Coq Require Import ZArith List Bool Lia Znumtheory.
From Verif Require Import Words WordsFacts Constants Share Cong Poly SpecPoly FieldFacts PolyFacts FftFacts TreeFacts.
Import ListNotations.
Open Scope Z_scope.
Arguments Z.mul : simpl never.
Arguments Z.add : simpl never.
Arguments Z.sub : simpl never.
Arguments Z.pow : simpl never.
Arguments Nat.div : simpl never.

Notation P := Int_Modulus.
Lemma P_gt2 : 2 < P. Proof. reflexivity. Qed.
Lemma P_pos : 0 < P. Proof. reflexivity. Qed.
Lemma P_half : cong P (Int_Gen ^ 2 ^ Z.of_nat 18) (-1).
Proof. exact (gen_minus_one _ (Z.divide_refl _)). Qed.
Opaque Int_Modulus Int_Gen.

Definition wN (k : nat) : Z := wroot P Int_Gen 18 k.
Definition vN (k : nat) : Z := vroot P Int_Gen 18 k.

Lemma init_roots_eq k : init_roots (2 ^ k) =
  mkRoots (root_table P (wN k) 1 (2 ^ k)) (root_table P (vN k) 1 (2 ^ k)) (root_table P (wN (S k)) 1 (2 ^ S k)).
Proof.
  unfold init_roots. change (2 ^ twoOrder / Z.of_nat (2 ^ k)) with (step_of 18 k). rewrite step_half. reflexivity.
Qed.

Lemma peval_field c x : in_field P (peval c x mod P).
Proof. apply Z.mod_pos_bound, P_pos. Qed.

Lemma fft_field m : 0 < m -> forall fuel n rts ys, Forall (in_field m) ys ->
  Forall (in_field m) (fft_recurse fuel m n rts ys).
Proof.
  intros Hm. induction fuel as [|f IH]; intros n rts ys H; cbn [fft_recurse]; [constructor|].
  destruct (Nat.eqb n 1).
  - constructor; [|constructor]. destruct ys; cbn; [unfold in_field; lia|now inversion H].
  - cbv zeta. assert (G : forall A B : list Z, Forall (in_field m) A -> Forall (in_field m) B -> Forall (in_field m) (interleave A B)).
    { clear. induction A; intros [|] H1 H2; cbn [interleave]; try constructor; inversion H1; inversion H2; subst; auto. }
    apply G; apply IH; apply Forall_forall; intros x Hx; apply in_map_iff in Hx; destruct Hx as (i & <- & _);
      apply Z.mod_pos_bound; lia.
Qed.

Lemma list_eq_nth (l l' : list Z) : length l = length l' ->
  (forall i, (i < length l)%nat -> nth i l 0 = nth i l' 0) -> l = l'.
Proof. intros. eapply nth_ext; eauto. Qed.

Lemma nth_map0 (f : Z -> Z) l i : (i < length l)%nat -> nth i (map f l) 0 = f (nth i l 0).
Proof.
  intros H. rewrite nth_indep with (d' := f 0) by (rewrite map_length; lia). apply map_nth.
Qed.

Lemma Forall_nth0 (Q : Z -> Prop) l i : Forall Q l -> (i < length l)%nat -> Q (nth i l 0).
Proof. intros H Hi. rewrite Forall_forall in H. now apply H, nth_In. Qed.

Lemma fft_forward_eq k ys : (k <= 19)%nat -> length ys = (2 ^ k)%nat -> Forall (in_field P) ys ->
  fft_interpolate P (2 ^ k) (root_table P (wN k) 1 (2 ^ k)) ys false
  = map (fun x => peval ys x mod P) (root_table P (wN k) 1 (2 ^ k)).
Proof.
  intros Hk Hl Hf.
  destruct (fft_forward P Int_Gen 18 P_half k ys Hk Hl) as [A B]. fold (wN k) in A, B.
  apply list_eq_nth; [now rewrite map_length, root_table_length|].
  intros i Hi. rewrite A in Hi. rewrite nth_map0 by (now rewrite root_table_length).
  apply (cong_small P).
  - apply Forall_nth0; [|lia]. unfold fft_interpolate. apply fft_field; auto. apply P_pos.
  - apply peval_field.
  - rewrite B by auto. demod. apply peval_cong_r. rewrite root_table_nth by auto. cong_ring.
Qed.

Lemma wN_table k i : (i < 2 ^ k)%nat -> cong P (nth i (root_table P (wN k) 1 (2 ^ k)) 0) (wN k ^ Z.of_nat i).
Proof. intros. rewrite root_table_nth by auto. cong_ring. Qed.

Lemma interp_unique k c c' : (k <= 19)%nat -> length c = (2 ^ k)%nat -> length c' = (2 ^ k)%nat ->
  Forall (in_field P) c -> Forall (in_field P) c' ->
  map (fun x => peval c x mod P) (root_table P (wN k) 1 (2 ^ k))
  = map (fun x => peval c' x mod P) (root_table P (wN k) 1 (2 ^ k)) -> c = c'.
Proof.
  intros Hk Hl Hl' Hf Hf' E.
  set (T := root_table P (wN k) 1 (2 ^ k)) in *.
  assert (LT : length T = (2 ^ k)%nat) by apply root_table_length.
  assert (K : Forall (fun a => cong P a 0) (zpsub c c')).
  { apply (root_bound P modulus_prime T).
    - apply nodup_distinct.
      + apply (wroot_distinct P Int_Gen 18 modulus_prime P_gt2 P_half); auto.
      + apply root_table_field; [apply P_pos|]. unfold in_field. pose proof P_gt2. lia.
    - rewrite zpsub_length. lia.
    - apply Forall_forall. intros r Hr. rewrite peval_zpsub.
      assert (G : peval c r mod P = peval c' r mod P).
      { apply (In_nth _ _ 0) in Hr. destruct Hr as (i & Hi & <-).
        pose proof (f_equal (fun l => nth i l 0) E) as G. cbv beta in G. rewrite !nth_map0 in G by auto. exact G. }
      apply cong_iff in G. rewrite G. cong_ring. }
  apply list_eq_nth; [congruence|]. intros i Hi.
  apply (cong_small P); try (apply Forall_nth0; auto; lia).
  assert (N1 : nth i (zpsub c c') 0 = nth i c 0 - nth i c' 0).
  { unfold zpsub. clear -Hl Hl' Hi. rewrite <- Hl in Hl'. clear Hl. revert c' i Hl' Hi.
    induction c as [|a c IH]; intros [|b c'] [|i] Hl Hi; cbn [length] in *; try lia; cbn [map zpadd nth].
    - ring.
    - apply IH; lia. }
  pose proof (Forall_nth0 _ _ i K) as N2. rewrite N1 in N2. specialize (N2 ltac:(rewrite zpsub_length; lia)).
  unfold cong in *. now rewrite Z.sub_0_r in N2.
Qed.

Lemma fft_inverse_eq k ys : (k <= 19)%nat -> length ys = (2 ^ k)%nat ->
  let c := fft_interpolate P (2 ^ k) (root_table P (vN k) 1 (2 ^ k)) ys true in
  length c = (2 ^ k)%nat /\ Forall (in_field P) c /\
  map (fun x => peval c x mod P) (root_table P (wN k) 1 (2 ^ k)) = map (fun y => y mod P) ys /\
  forall c', length c' = (2 ^ k)%nat -> Forall (in_field P) c' ->
    map (fun x => peval c' x mod P) (root_table P (wN k) 1 (2 ^ k)) = map (fun y => y mod P) ys -> c' = c.
Proof.
  intros Hk Hl. cbv zeta.
  destruct (fft_inverse P Int_Gen 18 modulus_prime P_gt2 P_half k ys Hk Hl) as (A & B & C). cbv zeta in *.
  fold (vN k) in A, B, C. fold (wN k) in C. set (c := fft_interpolate _ _ _ _ _) in *.
  assert (E : map (fun x => peval c x mod P) (root_table P (wN k) 1 (2 ^ k)) = map (fun y => y mod P) ys).
  { apply list_eq_nth; rewrite !map_length, root_table_length; [auto|]. intros i Hi.
    rewrite !nth_map0 by (rewrite ?root_table_length; lia). apply cong_iff. rewrite <- C by auto.
    apply peval_cong_r. now apply wN_table. }
  do 3 (split; [assumption|]). intros c' Hl' Hf' E'. apply (interp_unique k); auto. congruence.
Qed.

Lemma poly_reduce q c : 0 < q -> exists c', length c' = length c /\ Forall (in_field q) c' /\
  forall x, cong q (peval c' x) (peval c x).
Proof.
  intros Hq. exists (map (fun a => a mod q) c). split; [apply map_length|]. split.
  - apply Forall_forall. intros x Hx. apply in_map_iff in Hx. destruct Hx as (a & <- & _). apply Z.mod_pos_bound. lia.
  - intros x. apply peval_cong_l. induction c; constructor; auto. apply cong_mod.
Qed.

Lemma poly_coeffs_unique q xs c c' : prime q -> distinct q xs -> length c = length xs -> length c' = length xs ->
  Forall (in_field q) c -> Forall (in_field q) c' ->
  (forall x, In x xs -> cong q (peval c x) (peval c' x)) -> c = c'.
Proof.
  intros Hq Hd Hl Hl' Hf Hf' E.
  assert (K : Forall (fun a => cong q a 0) (zpsub c c')).
  { apply (root_bound q Hq xs); auto; [rewrite zpsub_length; lia|].
    apply Forall_forall. intros r Hr. rewrite peval_zpsub, (E r Hr). cong_ring. }
  apply list_eq_nth; [congruence|]. intros i Hi.
  apply (cong_small q); try (apply Forall_nth0; auto; lia).
  assert (N1 : nth i (zpsub c c') 0 = nth i c 0 - nth i c' 0).
  { unfold zpsub. assert (Hll : length c' = length c) by congruence. clear -Hll Hi. revert c' i Hll Hi.
    induction c as [|a c IH]; intros [|b c'] [|i] Hl Hi; cbn [length] in *; try lia; cbn [map zpadd nth].
    - ring.
    - apply IH; lia. }
  pose proof (Forall_nth0 _ _ i K) as N2. rewrite N1 in N2. specialize (N2 ltac:(rewrite zpsub_length; lia)).
  unfold cong in *. now rewrite Z.sub_0_r in N2.
Qed.

Lemma eval_from_points_lemma q n xs ys r : prime q -> (1 <= n)%nat -> length xs = n -> length ys = n ->
  NoDup xs -> Forall (in_field q) xs -> Forall (in_field q) ys -> in_field q r ->
  exists c, length c = n /\ Forall (in_field q) c /\
    map (fun x => peval c x mod q) xs = ys /\
    (forall c', length c' = n -> Forall (in_field q) c' -> map (fun x => peval c' x mod q) xs = ys -> c' = c) /\
    precomp_x_eval (precomp_x_init (poly_batch_precomp_init q n xs) r) ys = peval c r mod q.
Proof.
  intros Hq H1 Hx Hy Hn Hfx Hfy Hr. pose proof (prime_gt1 q Hq) as Q1.
  pose proof (nodup_distinct q xs Hn Hfx) as Hd.
  destruct (interpolation_exists q Hq xs ys Hd) as (c0 & L0 & E0); [congruence|].
  destruct (poly_reduce q c0) as (c & L & F & E); [lia|]. rewrite L0 in L.
  exists c. split; [congruence|]. split; auto.
  assert (EQ : map (fun x => peval c x mod q) xs = ys).
  { apply list_eq_nth; rewrite map_length; [congruence|]. intros i Hi. rewrite nth_map0 by auto.
    apply cong_mod_eq; [apply Forall_nth0; auto; lia|]. rewrite E. now apply E0. }
  split; auto. split.
  - intros c' L' F' E'. apply (poly_coeffs_unique q xs); auto; try congruence.
    intros x Hxi. apply (In_nth _ _ 0) in Hxi. destruct Hxi as (i & Hi & <-).
    apply cong_iff. rewrite <- EQ in E'. pose proof (f_equal (fun l => nth i l 0) E') as G. cbv beta in G.
    rewrite !nth_map0 in G by auto. exact G.
  - symmetry. apply cong_mod_eq.
    + apply precomp_x_eval_range; auto. lia.
    + symmetry. apply (precomp_x_eval_spec q Hq); auto; try lia.
      intros i Hi. rewrite E. apply E0. lia.
Qed.

Lemma root_table_ones m n : 1 < m -> root_table m (1 mod m) 1 n = repeat 1 n.
Proof.
  intros Hm. induction n as [|n IH]; [reflexivity|]. cbn [root_table repeat]. f_equal.
  rewrite Z.mod_small by lia. rewrite Z.mul_1_l, Z.mod_small in * by lia. exact IH.
Qed.

Lemma tables_lemma k : (k <= 18)%nat ->
  let t := init_roots (2 ^ k) in
  NoDup (roots t) /\ NoDup (roots2 t) /\
  length (roots t) = (2 ^ k)%nat /\ length (invroots t) = (2 ^ k)%nat /\ length (roots2 t) = (2 * 2 ^ k)%nat /\
  Forall (in_field P) (roots t ++ invroots t ++ roots2 t) /\
  (forall i, (i < 2 ^ k)%nat -> nth i (roots t) 0 = Int_Gen ^ (2 ^ Z.of_nat (19 - k) * Z.of_nat i) mod P) /\
  (forall i, (i < 2 ^ k)%nat -> (nth i (roots t) 0 * nth i (invroots t) 0) mod P = 1) /\
  (forall i, (i < 2 * 2 ^ k)%nat -> nth i (roots2 t) 0 = Int_Gen ^ (2 ^ Z.of_nat (18 - k) * Z.of_nat i) mod P).
Proof.
  intros Hk. cbv zeta. rewrite init_roots_eq. cbn [roots invroots roots2].
  pose proof P_gt2 as P2.
  assert (F1 : in_field P 1) by (unfold in_field; lia).
  split; [apply (wroot_distinct P Int_Gen 18 modulus_prime P_gt2 P_half); lia|].
  split; [apply (wroot_distinct P Int_Gen 18 modulus_prime P_gt2 P_half); lia|].
  rewrite !root_table_length. do 3 (split; [reflexivity|]).
  split. { rewrite !Forall_app. repeat split; apply root_table_field; auto; lia. }
  assert (G : forall k, (k <= 19)%nat -> forall i, (i < 2 ^ k)%nat ->
    nth i (root_table P (wN k) 1 (2 ^ k)) 0 = Int_Gen ^ (2 ^ Z.of_nat (19 - k) * Z.of_nat i) mod P).
  { intros k0 Hk0 i Hi. symmetry. apply cong_mod_eq.
    - apply Forall_nth0; [apply root_table_field; auto; lia|now rewrite root_table_length].
    - rewrite wN_table by auto. unfold wN. rewrite (wroot_pow P Int_Gen 18) by lia.
      rewrite step_val by lia. reflexivity. }
  split; [intros i Hi; apply G; auto; lia|]. split.
  - intros i Hi. apply cong_mod_eq; [lia|]. rewrite !root_table_nth by auto. rewrite !Z.mul_1_l.
    rewrite <- Z.pow_mul_l. pose proof (wroot_inverse P Int_Gen 18 modulus_prime P_gt2 P_half k) as I.
    fold (wN k) (vN k) in I.
    rewrite (cong_pow _ _ _ _ I), Z.pow_1_l by lia. reflexivity.
  - intros i Hi. rewrite (G (S k)); [f_equal; f_equal; f_equal; lia|lia|cbn [Nat.pow]; lia].
Qed.
