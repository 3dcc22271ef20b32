(** * Corollaries and counterexamples for the polynomial layer *)
From Coq Require Import ZArith List Bool Lia Znumtheory.
From Verif Require Import Words WordsFacts Constants Share Cong Poly SpecPoly FieldFacts PolyFacts FftFacts TreeFacts PolyProps.
Import ListNotations.
Open Scope Z_scope.
Arguments Z.pow : simpl never.

Lemma fft_evaluates_lemma k ys : (k <= 18)%nat ->
  length ys = (2 ^ k)%nat -> Forall (in_field Int_Modulus) ys ->
  fft_interpolate Int_Modulus (2 ^ k) (roots (init_roots (2 ^ k))) ys false
  = map (fun x => peval ys x mod Int_Modulus) (roots (init_roots (2 ^ k))).
Proof. intros. rewrite init_roots_eq. cbn [roots]. apply fft_forward_eq; auto. Qed.

Lemma fft_evaluates2_lemma k ys : (k <= 18)%nat ->
  length ys = (2 * 2 ^ k)%nat -> Forall (in_field Int_Modulus) ys ->
  fft_interpolate Int_Modulus (2 * 2 ^ k) (roots2 (init_roots (2 ^ k))) ys false
  = map (fun x => peval ys x mod Int_Modulus) (roots2 (init_roots (2 ^ k))).
Proof.
  intros. rewrite init_roots_eq. cbn [roots2]. change (2 * 2 ^ k)%nat with (2 ^ S k)%nat.
  apply fft_forward_eq; auto; lia.
Qed.

Lemma fft_interpolates_lemma k ys : (k <= 18)%nat ->
  length ys = (2 ^ k)%nat -> Forall (in_field Int_Modulus) ys ->
  let c := fft_interpolate Int_Modulus (2 ^ k) (invroots (init_roots (2 ^ k))) ys true in
  length c = (2 ^ k)%nat /\ Forall (in_field Int_Modulus) c /\
  map (fun x => peval c x mod Int_Modulus) (roots (init_roots (2 ^ k))) = ys /\
  forall c', length c' = (2 ^ k)%nat -> Forall (in_field Int_Modulus) c' ->
    map (fun x => peval c' x mod Int_Modulus) (roots (init_roots (2 ^ k))) = ys -> c' = c.
Proof.
  intros Hk Hl Hf. rewrite init_roots_eq. cbn [roots invroots].
  assert (E : map (fun y => y mod Int_Modulus) ys = ys).
  { clear Hl. induction Hf; cbn [map]; [reflexivity|]. rewrite IHHf. f_equal. now apply Z.mod_small. }
  pose proof (fft_inverse_eq k ys ltac:(lia) Hl) as G. rewrite E in G. exact G.
Qed.

Lemma tables_too_large : ~ NoDup (roots2 (init_roots (2 ^ 19))).
Proof.
  unfold init_roots. cbn [roots2].
  replace (2 ^ twoOrder / Z.of_nat (2 ^ 19)) with 1.
  2:{ rewrite of_nat_pow2. reflexivity. }
  change (1 / 2) with 0. cbn [powm]. rewrite root_table_ones by reflexivity.
  intros H. assert (E : repeat 1 (2 * 2 ^ 19) = 1 :: 1 :: repeat 1 (2 * 2 ^ 19 - 2)).
  { generalize (Nat.pow_nonzero 2 19 ltac:(lia)). generalize (2 ^ 19)%nat. intros n Hn.
    destruct n as [|n]; [lia|]. replace (2 * S n)%nat with (S (S (2 * n))) by lia.
    replace (S (S (2 * n)) - 2)%nat with (2 * n)%nat by lia. reflexivity. }
  rewrite E in H. revert H. generalize (repeat 1 (2 * 2 ^ 19 - 2)). intros l H.
  inversion H as [|? ? K _]. apply K. now left.
Qed.

Lemma repeated_points : exists xs ys r,
  length xs = length ys /\ Forall (in_field Int_Modulus) xs /\
  (forall i j, nth i xs 0 = nth j xs 0 -> nth i ys 0 = nth j ys 0) /\
  exists c, (length c <= length xs)%nat /\
    map (fun x => peval c x mod Int_Modulus) xs = ys /\
    precomp_x_eval (precomp_x_init (poly_batch_precomp_init Int_Modulus 2 xs) r) ys
      <> peval c r mod Int_Modulus.
Proof.
  exists [5; 5], [7; 7], 9. split; [reflexivity|]. split.
  - repeat constructor; cbv; congruence.
  - split.
    + intros [|[|[|i]]] [|[|[|j]]]; cbn; congruence.
    + exists [7]. split; [cbn; lia|]. split; [vm_compute; reflexivity|]. vm_compute. discriminate.
Qed.
