(** * C22, C23, C44: field, roots of unity, FFT, evaluation from point values *)
From Coq Require Import ZArith List Bool Znumtheory.
From Verif Require Import Words Constants Share Poly SpecPoly PolyFacts FieldFacts PolyProps PolyExamples.
Import ListNotations.
Open Scope Z_scope.

(** ** C44 *)

(** The modulus of all share arithmetic is prime. *)
Theorem modulus_is_prime : prime Int_Modulus.
Proof. exact modulus_prime. Qed.
Print Assumptions modulus_is_prime.

(** The generator has multiplicative order exactly 2^19. *)
Theorem generator_order : has_order Int_Modulus Int_Gen (2 ^ twoOrder).
Proof. exact gen_order. Qed.
Print Assumptions generator_order.

(** The tables built by [init_roots] for N = 2^k, k <= 18: pairwise distinct field
    elements, the powers of a primitive N-th (2N-th) root of unity, and
    [invroots] the inverses of [roots]. *)
Theorem root_tables_correct : forall k, (k <= 18)%nat ->
  let t := init_roots (2 ^ k) in
  NoDup (roots t) /\ NoDup (roots2 t) /\
  length (roots t) = (2 ^ k)%nat /\ length (invroots t) = (2 ^ k)%nat /\
  length (roots2 t) = (2 * 2 ^ k)%nat /\
  Forall (in_field Int_Modulus) (roots t ++ invroots t ++ roots2 t) /\
  (forall i, (i < 2 ^ k)%nat ->
     nth i (roots t) 0 = Int_Gen ^ (2 ^ Z.of_nat (19 - k) * Z.of_nat i) mod Int_Modulus) /\
  (forall i, (i < 2 ^ k)%nat -> (nth i (roots t) 0 * nth i (invroots t) 0) mod Int_Modulus = 1) /\
  (forall i, (i < 2 * 2 ^ k)%nat ->
     nth i (roots2 t) 0 = Int_Gen ^ (2 ^ Z.of_nat (18 - k) * Z.of_nat i) mod Int_Modulus).
Proof. exact tables_lemma. Qed.
Print Assumptions root_tables_correct.

(** The bound is sharp: for N = 2^19 the 2N-th roots are not distinct (the step
    becomes 0 and the table is constantly 1). *)
Theorem root_tables_size_refuted : ~ NoDup (roots2 (init_roots (2 ^ 19))).
Proof. exact tables_too_large. Qed.
Print Assumptions root_tables_size_refuted.

Example root_tables_nontrivial :
  roots (init_roots 4) = [1; 100885390266092; 140737597931520; 39852207665429].
Proof. vm_compute. reflexivity. Qed.

(** ** C22 *)

(** The forward transform evaluates the polynomial with coefficients [ys] at the
    N-th roots of unity, in order. *)
Theorem fft_evaluates : forall k ys, (k <= 18)%nat ->
  length ys = (2 ^ k)%nat -> Forall (in_field Int_Modulus) ys ->
  fft_interpolate Int_Modulus (2 ^ k) (roots (init_roots (2 ^ k))) ys false
  = map (fun x => peval ys x mod Int_Modulus) (roots (init_roots (2 ^ k))).
Proof. exact fft_evaluates_lemma. Qed.
Print Assumptions fft_evaluates.

(** The same for the 2N-th roots used by the client. *)
Theorem fft_evaluates2 : forall k ys, (k <= 18)%nat ->
  length ys = (2 * 2 ^ k)%nat -> Forall (in_field Int_Modulus) ys ->
  fft_interpolate Int_Modulus (2 * 2 ^ k) (roots2 (init_roots (2 ^ k))) ys false
  = map (fun x => peval ys x mod Int_Modulus) (roots2 (init_roots (2 ^ k))).
Proof. exact fft_evaluates2_lemma. Qed.
Print Assumptions fft_evaluates2.

(** The inverse transform returns the coefficients of the one polynomial with N
    coefficients that takes the given values at the N-th roots of unity. *)
Theorem fft_interpolates : forall k ys, (k <= 18)%nat ->
  length ys = (2 ^ k)%nat -> Forall (in_field Int_Modulus) ys ->
  let c := fft_interpolate Int_Modulus (2 ^ k) (invroots (init_roots (2 ^ k))) ys true in
  length c = (2 ^ k)%nat /\ Forall (in_field Int_Modulus) c /\
  map (fun x => peval c x mod Int_Modulus) (roots (init_roots (2 ^ k))) = ys /\
  forall c', length c' = (2 ^ k)%nat -> Forall (in_field Int_Modulus) c' ->
    map (fun x => peval c' x mod Int_Modulus) (roots (init_roots (2 ^ k))) = ys -> c' = c.
Proof. exact fft_interpolates_lemma. Qed.
Print Assumptions fft_interpolates.

Example fft_nontrivial :
  fft_interpolate Int_Modulus 4 (roots (init_roots 4)) [1; 2; 3; 4] false
    = [10; 79704415330856; 140737597931519; 61033182600661] /\
  fft_interpolate Int_Modulus 4 (invroots (init_roots 4))
    [10; 79704415330856; 140737597931519; 61033182600661] true = [1; 2; 3; 4].
Proof. vm_compute. auto. Qed.

(** ** C23 *)

(** Evaluation at [r] from the values [ys] at distinct points [xs] gives the value
    at [r] of the one polynomial with [n] coefficients through the points; also
    when [r] is one of the points.  For every prime modulus. *)
Theorem eval_from_points : forall q n xs ys r, prime q -> (1 <= n)%nat ->
  length xs = n -> length ys = n -> NoDup xs ->
  Forall (in_field q) xs -> Forall (in_field q) ys -> in_field q r ->
  exists c, length c = n /\ Forall (in_field q) c /\
    map (fun x => peval c x mod q) xs = ys /\
    (forall c', length c' = n -> Forall (in_field q) c' ->
       map (fun x => peval c' x mod q) xs = ys -> c' = c) /\
    precomp_x_eval (precomp_x_init (poly_batch_precomp_init q n xs) r) ys = peval c r mod q.
Proof. exact eval_from_points_lemma. Qed.
Print Assumptions eval_from_points.

(** Values 1, 4, 9 at 1, 2, 3: the polynomial is x^2; at 10 and at the point 3. *)
Example eval_from_points_nontrivial :
  precomp_x_eval (precomp_x_init (poly_batch_precomp_init Int_Modulus 3 [1; 2; 3]) 10) [1; 4; 9] = 100 /\
  precomp_x_eval (precomp_x_init (poly_batch_precomp_init Int_Modulus 3 [1; 2; 3]) 3) [1; 4; 9] = 9.
Proof. vm_compute. auto. Qed.

(** With a repeated point the result need not fit the values. *)
Theorem eval_from_repeated_points_refuted : exists xs ys r,
  length xs = length ys /\ Forall (in_field Int_Modulus) xs /\
  (forall i j, nth i xs 0 = nth j xs 0 -> nth i ys 0 = nth j ys 0) /\
  exists c, (length c <= length xs)%nat /\
    map (fun x => peval c x mod Int_Modulus) xs = ys /\
    precomp_x_eval (precomp_x_init (poly_batch_precomp_init Int_Modulus 2 xs) r) ys
      <> peval c r mod Int_Modulus.
Proof. exact repeated_points. Qed.
Print Assumptions eval_from_repeated_points_refuted.
