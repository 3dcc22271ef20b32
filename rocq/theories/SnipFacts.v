(** * Proofs about SNIPs *)
From Coq Require Import ZArith List Bool Lia Arith Znumtheory ZifyBool ZifyNat Setoid Morphisms.
From Verif Require Import Words WordsFacts Cong Constants Share ShareFacts Proc ProcFacts
  Net NetFacts SpecNet NetMsg RelFacts Poly SpecPoly FieldFacts PolyFacts FftFacts TreeFacts PolyProps
  Circuit SpecCircuit CircuitFacts Snip SpecSnip.
Import ListNotations.
Open Scope Z_scope.

Arguments Z.mul : simpl never.
Arguments Z.add : simpl never.
Arguments Z.sub : simpl never.
Arguments Z.pow : simpl never.
Arguments Z.modulo : simpl never.
Arguments Nat.div : simpl never.
Arguments Nat.modulo : simpl never.
Opaque Int_Modulus Int_Gen init_roots.
Local Notation P := Int_Modulus.

(** ** The forked exchange *)

Lemma emits_sent {A} (s : proc A) bs a : emits s bs a -> sent_bytes s = Some bs.
Proof. induction 1; cbn; auto. now rewrite IHemits. Qed.

Lemma rel_fork {A B A' B'} s0 s1 n0 n1 (r0 : proc A) (r1 : proc B) x0 x1
  (k : A -> proc A') (k' : B -> proc B') R :
  delivers s0 r1 x0 -> sends_len s0 n1 -> delivers s1 r0 x1 -> sends_len s1 n0 ->
  rel (k x1) (k' x0) R ->
  rel (bind (fork_xchg s0 n0 r0) k) (bind (fork_xchg s1 n1 r1) k') R.
Proof.
  intros (b0 & E0 & F0) (c0 & G0 & L0) (b1 & E1 & F1) (c1 & G1 & L1) H.
  unfold fork_xchg. rewrite (emits_sent _ _ _ E0), (emits_sent _ _ _ E1). cbn [bind].
  destruct (emits_det _ _ _ _ _ E0 G0) as [<- _]. destruct (emits_det _ _ _ _ _ E1 G1) as [<- _].
  apply rel_xchg; auto.
  specialize (F0 []). specialize (F1 []). rewrite app_nil_r in F0, F1. rewrite F0, F1. exact H.
Qed.

(** ** Root tables *)

Lemma roots2_even k i : (k <= 18)%nat -> (i < 2 ^ k)%nat ->
  nth (2 * i) (roots2 (init_roots (2 ^ k))) 0 = nth i (roots (init_roots (2 ^ k))) 0.
Proof.
  intros Hk Hi. destruct (tables_lemma k Hk) as (_ & _ & _ & _ & _ & _ & R1 & _ & R2). cbv zeta in *.
  rewrite R1 by exact Hi. rewrite R2 by (apply Nat.mul_lt_mono_pos_l; auto; repeat constructor).
  clear R1 R2. f_equal. f_equal.
  rewrite Nat2Z.inj_mul, Z.mul_assoc. f_equal. clear Hi.
  replace (Z.of_nat (19 - k)) with (Z.succ (Z.of_nat (18 - k))) by lia.
  rewrite Z.pow_succ_r by apply Nat2Z.is_nonneg. change (Z.of_nat 2) with 2. apply Z.mul_comm.
Qed.

(** ** Lists of points *)

Lemma nth_points {A} (x : Z) (phi : A -> Z) ms k i :
  nth i (x :: map phi ms ++ repeat 0 k) 0 =
  match i with O => x | S j => match nth_error ms j with Some m => phi m | None => 0 end end.
Proof.
  destruct i; [reflexivity|]. cbn [nth]. destruct (nth_error ms i) as [m|] eqn:E.
  - assert (i < length ms)%nat by (apply nth_error_Some; congruence).
    rewrite app_nth1 by (rewrite map_length; auto). rewrite (nth_map_in _ _ _ m) by auto.
    f_equal. now apply nth_error_nth.
  - apply nth_error_None in E. rewrite app_nth2 by (rewrite map_length; lia). apply nth_repeat.
Qed.

Lemma nth_map2_add a b i : length a = length b -> nth i (map2 Z.add a b) 0 = nth i a 0 + nth i b 0.
Proof.
  revert b i. induction a as [|x a IH]; intros [|y b] i H; try discriminate; [now destruct i|].
  destruct i; cbn; auto.
Qed.

(** ** Sums of evaluations *)

Lemma eval_two k (xs : list Z) n (ys0 ys1 : list Z) : n = (2 ^ k)%nat -> length xs = n ->
  NoDup xs -> Forall (in_field P) xs -> (n <= length ys0)%nat -> (n <= length ys1)%nat ->
  exists f, length f = n /\
    (forall i, (i < n)%nat -> cong P (peval f (nth i xs 0)) (nth i ys0 0 + nth i ys1 0)) /\
    forall r, in_field P r ->
      let ev := precomp_x_eval (precomp_x_init (poly_batch_precomp_init P n xs) r) in
      cong P (ev ys0 + ev ys1) (peval f r).
Proof.
  intros -> Lx ND FX L0 L1. pose proof (nodup_distinct P xs ND FX) as D.
  assert (1 <= 2 ^ k)%nat by (clear; induction k; cbn; lia).
  destruct (interpolation_exists P modulus_prime xs (firstn (2 ^ k) ys0) D) as (c0 & C0 & E0).
  { rewrite firstn_length. lia. }
  destruct (interpolation_exists P modulus_prime xs (firstn (2 ^ k) ys1) D) as (c1 & C1 & E1).
  { rewrite firstn_length. lia. }
  assert (FN : forall ys i, (i < 2 ^ k)%nat -> nth i (firstn (2 ^ k) ys) 0 = nth i ys 0).
  { intros ys i Hi. rewrite <- (firstn_skipn (2 ^ k) ys) at 2.
    destruct (Nat.lt_ge_cases i (length (firstn (2 ^ k) ys))).
    - now rewrite app_nth1.
    - rewrite firstn_length in *. rewrite app_nth2 by (rewrite firstn_length; lia).
      rewrite !nth_overflow; auto; rewrite ?skipn_length, ?firstn_length; lia. }
  exists (zpadd c0 c1). split; [rewrite zpadd_length; lia|]. split.
  - intros i Hi. rewrite peval_zpadd. rewrite E0, E1 by lia. rewrite !FN by auto. reflexivity.
  - intros r Hr. cbv zeta. rewrite peval_zpadd.
    rewrite (precomp_x_eval_spec P modulus_prime (2 ^ k) xs r ys0 c0); auto; try lia.
    2:{ intros i Hi. rewrite E0 by lia. now rewrite FN. }
    rewrite (precomp_x_eval_spec P modulus_prime (2 ^ k) xs r ys1 c1); auto; try lia.
    { reflexivity. }
    intros i Hi. rewrite E1 by lia. now rewrite FN.
Qed.

(** ** [NextPowerOfTwo] of the number of multiplications *)

Lemma npo2_nat n : (n < 2 ^ 18)%nat -> exists k, (k <= 18)%nat /\ (n < 2 ^ k)%nat /\
  NextPowerOfTwo (Z.of_nat n) = Some (Z.of_nat (2 ^ k)).
Proof.
  intros H. assert (Hz : Z.of_nat n < 2 ^ Z.of_nat 18).
  { rewrite <- of_nat_pow2. lia. }
  change (2 ^ Z.of_nat 18) with 262144 in Hz.
  destruct (next_pow2_least (Z.of_nat n)) as (k & E & L & M); [lia|].
  exists k. rewrite <- of_nat_pow2 in E, L. split; [|split; [lia|exact E]].
  apply M. change (2 ^ Z.of_nat 18) with 262144. lia.
Qed.

(** ** Random linear combination *)

Fixpoint dotK (K : nat -> Z) (pos : nat) (l : list Z) : Z :=
  match l with [] => 0 | a :: l' => K pos * a + dotK K (S pos) l' end.

Lemma randSum_cong K : forall arr pos out, cong P (randSum_loop K pos arr out) (out + dotK K pos arr).
Proof.
  induction arr as [|a arr IH]; intros pos out; cbn [randSum_loop dotK].
  - demod. cong_ring.
  - rewrite IH. unfold fmpz_randm. demod. cong_ring.
Qed.
Lemma randSum_field K : forall arr pos out, in_field P (randSum_loop K pos arr out).
Proof.
  induction arr as [|a arr IH]; intros; cbn [randSum_loop]; auto. apply Z.mod_pos_bound, p_pos.
Qed.

Lemma dotK_sum K {A} (f g h : A -> Z) l : (forall a, cong P (f a + g a) (h a)) -> forall pos,
  cong P (dotK K pos (map f l) + dotK K pos (map g l)) (dotK K pos (map h l)).
Proof.
  intros H. induction l as [|a l IH]; intros pos; cbn [map dotK]; [reflexivity|].
  rewrite <- IH, <- H. cong_ring.
Qed.

Lemma dotK_zero K l : Forall (fun a => cong P a 0) l -> forall pos, cong P (dotK K pos l) 0.
Proof.
  induction 1 as [|a l Ha Hl IH]; intros pos; cbn [dotK]; [reflexivity|].
  rewrite Ha, IH. cong_ring.
Qed.

Lemma dotK_ext K K' l : forall pos, (forall j, (pos <= j)%nat -> K j = K' j) -> dotK K pos l = dotK K' pos l.
Proof.
  induction l as [|a l IH]; intros pos H; cbn [dotK]; auto. rewrite H by lia. f_equal. apply IH.
  intros. apply H. lia.
Qed.

(** If entry [i] is nonzero, changing only that coefficient changes the sum. *)
Lemma dotK_differ K K' l i : (i < length l)%nat -> ~ cong P (nth i l 0) 0 -> forall pos,
  differ_only_at (pos + i) K K' ->
  cong P (dotK K pos l) 0 -> cong P (dotK K' pos l) 0 -> False.
Proof.
  intros Hi Hn pos [HK HD] H0 H1. apply HD, cong_iff.
  enough (E : forall l i pos, (i < length l)%nat -> (forall j, j <> (pos + i)%nat -> K j = K' j) ->
    dotK K pos l - dotK K' pos l = (K (pos + i)%nat - K' (pos + i)%nat) * nth i l 0).
  { assert (Z0 : cong P ((K (pos + i)%nat - K' (pos + i)%nat) * nth i l 0) 0).
    { rewrite <- (E l i pos Hi HK). rewrite H0, H1. cong_ring. }
    apply (cong_mul_0 P modulus_prime) in Z0. destruct Z0 as [Z0|Z0]; [|contradiction].
    destruct Z0 as [t Ht]. exists t. lia. }
  clear. induction l as [|a l IH]; intros i pos Hi HK; cbn in Hi; [lia|]. cbn [dotK].
  destruct i as [|i]; cbn [nth].
  - rewrite Nat.add_0_r in *. rewrite (dotK_ext K K' l (S pos)) by (intros; apply HK; lia). ring.
  - replace (pos + S i)%nat with (S pos + i)%nat in * by lia.
    rewrite (HK pos) by lia. specialize (IH i (S pos) ltac:(lia) HK).
    rewrite <- IH. ring.
Qed.

(** ** The multiplication check *)

Lemma mulcheck_algebra F0 F1 G0 G1 H0 H1 A0 A1 B0 B1 C0 C1 r f g h :
  cong P (F0 + F1) f -> cong P (G0 + G1) (r * g) -> cong P (H0 + H1) (r * h) ->
  let D := ((F0 - A0) mod P + (F1 - A1) mod P) mod P in
  let E := ((G0 mod P - B0) mod P + (G1 mod P - B1) mod P) mod P in
  cong P
    (((((((D * E) mod P + (D * B0) mod P) mod P + (E * A0) mod P) mod P + C0) mod P - H0 mod P) mod P) +
     (((((0 + (D * B1) mod P) mod P + (E * A1) mod P) mod P + C1) mod P - H1 mod P) mod P))
    (r * (f * g - h) + ((C0 + C1) - (A0 + A1) * (B0 + B1))).
Proof.
  intros Hf Hg Hh D E.
  assert (DD : cong P D (f - (A0 + A1))) by (unfold D; rewrite <- Hf; demod; cong_ring).
  assert (EE : cong P E (r * g - (B0 + B1))) by (unfold E; rewrite <- Hg; demod; cong_ring).
  clearbody D E.
  transitivity (D * E + D * (B0 + B1) + E * (A0 + A1) + (C0 + C1) - (H0 + H1)).
  { demod. cong_ring. }
  rewrite DD, EE, Hh. cong_ring.
Qed.

(** ** The two checkers of one submission *)

Section Core.
Variable c : circuit.
Variables x0 x1 : submission.
Variable k : nat.
Hypothesis Hk : (k <= 18)%nat.
Hypothesis Hn : (NumMulGates c < 2 ^ k)%nat.
Hypothesis HN : NextPowerOfTwo (Z.of_nat (NumMulGates c)) = Some (Z.of_nat (2 ^ k)).
Hypothesis S0 : shaped c x0.
Hypothesis S1 : shaped c x1.
Let q0 := fst x0. Let q1 := fst x1.
Let t0 := triple_share q0. Let t1 := triple_share q1.
Let T := init_roots (2 ^ k).
Let rt i := nth i (roots T) 0.
Let rt2 i := nth i (roots2 T) 0.

(** wires of the virtual shared circuit *)
Definition vwires : list Z :=
  ImportWires false c (map2 Z.add (snd x0) (snd x1)) (map2 Z.add (MulShares (fst x0)) (MulShares (fst x1))).
Let w0 := ImportWires false c (snd x0) (MulShares q0).
Let w1 := ImportWires true c (snd x1) (MulShares q1).

Lemma vwires_sum : forall i, cong P (nth i w0 0 + nth i w1 0) (nth i vwires 0).
Proof.
  destruct S0 as (A1 & A2 & A3), S1 as (B1 & B2 & B3).
  unfold vwires, w0, w1, ImportWires, q0, q1.
  apply import_linear.
  - intros i. rewrite nth_map2_add by congruence. reflexivity.
  - intros i. rewrite nth_map2_add by congruence. reflexivity.
  - repeat split; auto. intros [|i]; reflexivity.
Qed.

Definition at_gate (d : Z) (phi : nat * nat * nat -> Z) (i : nat) : Z :=
  match i with O => d | S j => match nth_error (mul_gates c) j with Some m => phi m | None => 0 end end.

Definition sigma (f g h : list Z) (r : Z) : Z :=
  r * (peval f r * peval g r - peval h r) +
  ((shareC t0 + shareC t1) - (shareA t0 + shareA t1) * (shareB t0 + shareB t1)).

Definition checkers (r : Z) (f g h : list Z) : Prop :=
  let pre := new_CheckerPreComp T (2 ^ k) r in
  exists ck0 ck1,
    new_Checker c false q0 pre (snd x0) = Some ck0 /\
    new_Checker c true q1 pre (snd x1) = Some ck1 /\
    corshare_ok (CorShareFn ck0) /\ corshare_ok (CorShareFn ck1) /\
    draws_of ck0 = S (length (result_zero c)) /\ draws_of ck1 = S (length (result_zero c)) /\
    cong P (evalF ck0 + evalF ck1) (peval f r) /\
    cong P (evalG ck0 + evalG ck1) (r * peval g r) /\
    forall K pos,
      let cor := Cor_of (CorShareFn ck0) (CorShareFn ck1) in
      let v0 := OutShare K pos ck0 cor in
      let v1 := OutShare K pos ck1 cor in
      in_field P v0 /\ in_field P v1 /\
      cong P (v0 + v1) (dotK K pos (sigma f g h r :: map (fun z => nth z vwires 0) (result_zero c))).

Lemma pow2_pos : (1 <= 2 ^ k)%nat.
Proof. clear. induction k; cbn; lia. Qed.

Lemma field_limbs x : in_field P x -> limbs_ok x.
Proof. apply in_field_limbs. Qed.

Lemma core_checkers : exists f g h,
  length f = (2 ^ k)%nat /\ length g = (2 ^ k)%nat /\ length h = (2 * 2 ^ k)%nat /\
  (forall i, (i < 2 ^ k)%nat ->
     cong P (peval f (rt i)) (at_gate (f0_s q0 + f0_s q1) (fun m => nth (snd (fst m)) vwires 0) i) /\
     cong P (peval g (rt i)) (at_gate (g0_s q0 + g0_s q1) (fun m => nth (snd m) vwires 0) i) /\
     cong P (peval h (rt i)) (at_gate (h0_s q0 + h0_s q1) (fun m => nth (fst (fst m)) vwires 0) i) /\
     cong P (peval h (rt2 (2 * i + 1))) (nth i (h_points q0) 0 + nth i (h_points q1) 0)) /\
  forall r, in_field P r -> checkers r f g h.
Proof.
  destruct (tables_lemma k Hk) as (ND1 & ND2 & L1 & _ & L2 & FF & _). cbv zeta in *. fold T in ND1, ND2, L1, L2, FF.
  apply Forall_app in FF as [F1 FF]. apply Forall_app in FF as [_ F2].
  pose proof pow2_pos as P1.
  pose proof vwires_sum as VS.
  destruct S0 as (A1 & A2 & A3), S1 as (B1 & B2 & B3). fold q0 in A1, A2. fold q1 in B1, B2.
  assert (H0 : length (h_points q0) = (2 ^ k)%nat) by (rewrite HN in A2; injection A2; lia).
  assert (H1 : length (h_points q1) = (2 ^ k)%nat) by (rewrite HN in B2; injection B2; lia).
  assert (LP : forall d (phi : nat * nat * nat -> Z),
    length (d :: map phi (mul_gates c) ++ repeat 0 (2 ^ k - NumMulGates c)) = S (2 ^ k)).
  { intros. cbn. rewrite app_length, map_length, repeat_length. unfold NumMulGates in *. lia. }
  assert (LH : forall q w, length (pointsH (2 ^ k) c q w) = (2 * S (2 ^ k))%nat).
  { intros. unfold pointsH. rewrite interleave_length; rewrite LP; [lia|].
    rewrite app_length, map_length, seq_length. cbn. lia. }
  destruct (eval_two k (roots T) (2 ^ k) (pointsF (2 ^ k) c q0 w0) (pointsF (2 ^ k) c q1 w1))
    as (f & Lf & Ef & Vf); auto; try (unfold pointsF; rewrite LP; lia).
  destruct (eval_two k (roots T) (2 ^ k) (pointsG (2 ^ k) c q0 w0) (pointsG (2 ^ k) c q1 w1))
    as (g & Lg & Eg & Vg); auto; try (unfold pointsG; rewrite LP; lia).
  destruct (eval_two (S k) (roots2 T) (2 * 2 ^ k) (pointsH (2 ^ k) c q0 w0) (pointsH (2 ^ k) c q1 w1))
    as (h & Lh & Eh & Vh); auto; try (rewrite LH; lia).
  exists f, g, h. repeat (split; [assumption|]). split.
  - intros i Hi.
    assert (AG : forall d0 d1 (phi : list Z -> nat * nat * nat -> Z),
      (forall m, cong P (phi w0 m + phi w1 m) (phi vwires m)) ->
      cong P (at_gate d0 (phi w0) i + at_gate d1 (phi w1) i) (at_gate (d0 + d1) (phi vwires) i)).
    { intros d0 d1 phi H. unfold at_gate. destruct i; [reflexivity|].
      destruct (nth_error (mul_gates c) i); [apply H|reflexivity]. }
    split; [|split; [|split]].
    + unfold rt. rewrite Ef by auto. unfold pointsF. rewrite !nth_points.
      apply (AG _ _ (fun w m => nth (snd (fst m)) w 0)). intros; apply VS.
    + unfold rt. rewrite Eg by auto. unfold pointsG. rewrite !nth_points.
      apply (AG _ _ (fun w m => nth (snd m) w 0)). intros; apply VS.
    + unfold rt, T. rewrite <- (roots2_even k i Hk Hi). fold T. rewrite Eh by lia.
      unfold pointsH. rewrite !interleave_even by (rewrite LP, app_length, map_length, seq_length; cbn; lia).
      rewrite !nth_points.
      apply (AG _ _ (fun w m => nth (fst (fst m)) w 0)). intros; apply VS.
    + unfold rt2. rewrite Eh by lia.
      unfold pointsH. rewrite !interleave_odd by (rewrite LP, app_length, map_length, seq_length; cbn; lia).
      rewrite !app_nth1 by (rewrite map_length, seq_length; lia).
      rewrite !nth_map_seq by auto. reflexivity.
  - intros r Hr. unfold checkers. cbv zeta.
    unfold new_Checker. rewrite HN, Nat2Z.id, A1, B1, H0, H1, A3, B3, !Nat.ltb_irrefl. cbn [orb].
    eexists _, _. split; [reflexivity|]. split; [reflexivity|].
    fold w0 w1. unfold new_CheckerPreComp, setCheckerPrecomp. cbn [xN x2N cx].
    specialize (Vf r Hr). specialize (Vg r Hr). specialize (Vh r Hr). cbv zeta in Vf, Vg, Vh.
    set (F0 := precomp_x_eval _ (pointsF (2 ^ k) c q0 w0)) in *.
    set (F1' := precomp_x_eval _ (pointsF (2 ^ k) c q1 w1)) in *.
    set (G0 := precomp_x_eval _ (pointsG (2 ^ k) c q0 w0)) in *.
    set (G1 := precomp_x_eval _ (pointsG (2 ^ k) c q1 w1)) in *.
    set (E0 := precomp_x_eval _ (pointsH (2 ^ k) c q0 w0)) in *.
    set (E1 := precomp_x_eval _ (pointsH (2 ^ k) c q1 w1)) in *.
    assert (FM : forall z, in_field P (z mod P)) by (intros; apply Z.mod_pos_bound, p_pos).
    unfold CorShareFn, Cor_of, draws_of, OutShare.
    cbn [ck_req ck_ckt ck_server ck_wires evalF evalG evalH shareD shareE cor_D cor_E corshare_ok].
    split; [split; apply field_limbs, FM|]. split; [split; apply field_limbs, FM|].
    split; [reflexivity|]. split; [reflexivity|]. split; [exact Vf|]. split.
    { demod. rewrite <- Vg. cong_ring. }
    intros K pos.
    split; [apply randSum_field|]. split; [apply randSum_field|].
    rewrite !randSum_cong. cbn [dotK].
    assert (D : cong P
      (dotK K (S pos) (map (fun z => nth z w0 0) (result_zero c)) +
       dotK K (S pos) (map (fun z => nth z w1 0) (result_zero c)))
      (dotK K (S pos) (map (fun z => nth z vwires 0) (result_zero c)))).
    { apply (dotK_sum K (fun z => nth z w0 0) (fun z => nth z w1 0) (fun z => nth z vwires 0)).
      intros; apply VS. }
    rewrite <- D. clear D.
    generalize (dotK K (S pos) (map (fun z => nth z w0 0) (result_zero c))) as d0.
    generalize (dotK K (S pos) (map (fun z => nth z w1 0) (result_zero c))) as d1. intros d1 d0.
    clearbody F0 F1' G0 G1 E0 E1. 
    assert (SP : forall a m0 m1 s, cong P (m0 + m1) s ->
      cong P (0 + (a * m0 + d0) + (0 + (a * m1 + d1))) (a * s + (d0 + d1))).
    { intros a m0 m1 s H. rewrite <- H. cong_ring. }
    apply SP. clear SP.
    fold t0 t1. unfold sigma.
    apply (mulcheck_algebra F0 F1' (G0 * r) (G1 * r) (E0 * r) (E1 * r)); auto.
    + rewrite <- Vg. cong_ring.
    + rewrite <- Vh. cong_ring.
Qed.
End Core.

(** ** Soundness *)

Lemma import_eval_products gs inps inps' muls : (forall i, cong P (nth i inps 0) (nth i inps' 0)) ->
  forall k m w v, wcong w v ->
  (forall i g, nth_error gs i = Some g -> gate_wf (length w + i) g) ->
  let final := import_loop false gs inps k muls m w in
  (forall t a l r, nth_error (mul_gates_from (length w) gs) t = Some (a, l, r) ->
     cong P (nth a final 0) (nth l final 0 * nth r final 0)) ->
  wcong final (eval_loop gs inps' k v).
Proof.
  intros HI. induction gs as [|g gs IH]; intros k m w v W WF final HM; cbn [import_loop eval_loop] in *; auto.
  pose proof W as (LW & HW).
  assert (L : forall x : Z, length (w ++ [x]) = S (length w)) by (intros; rewrite app_length; cbn; lia).
  assert (WF' : forall x : Z, forall i g, nth_error gs i = Some g -> gate_wf (length (w ++ [x]) + i) g).
  { intros x i g' H. rewrite L. replace (S (length w) + i)%nat with (length w + S i)%nat by lia.
    apply WF. exact H. }
  unfold final in *. clear final.
  destruct g; apply IH; auto;
    try (apply wcong_snoc; auto; demod; rewrite ?HW; reflexivity);
    try (intros t a l' r' H; rewrite L in H; apply (HM t a l' r'); exact H).
  - specialize (HM 0%nat (length w) l r eq_refl).
    specialize (WF 0%nat _ eq_refl). cbn in WF.
    destruct (import_loop_prefix false gs inps muls k (S m) (w ++ [nth m muls 0])) as (u & E & _).
    rewrite E in HM. rewrite <- app_assoc in HM.
    rewrite (app_nth1 w _ 0 (n := l)), (app_nth1 w _ 0 (n := r)) in HM by lia.
    rewrite app_nth2, Nat.sub_diag in HM by lia. cbn [nth app] in HM.
    apply wcong_snoc; auto. rewrite HM. demod. rewrite !HW. reflexivity.
  - intros t a l' r' H. rewrite L in H. apply (HM (S t) a l' r' H).
Qed.

Lemma eval_field c inps : Forall (in_field P) inps -> Forall (in_field P) (eval_wires c inps).
Proof.
  intros HI. unfold eval_wires.
  assert (M : forall x, in_field P (x mod P)) by (intros; apply Z.mod_pos_bound, p_pos).
  assert (I : forall i, in_field P (nth i inps 0)).
  { intros i. destruct (Nat.lt_ge_cases i (length inps)).
    - rewrite Forall_forall in HI. now apply HI, nth_In.
    - rewrite nth_overflow by auto. split; [lia|apply p_pos]. }
  enough (H : forall gs k w, Forall (in_field P) w -> Forall (in_field P) (eval_loop gs inps k w))
    by (apply H; constructor).
  induction gs as [|g gs IH]; intros k w Hw; cbn [eval_loop]; auto.
  destruct g; apply IH, Forall_app; split; auto.
Qed.

Lemma opened_field x0 x1 : Forall (in_field P) (opened x0 x1).
Proof.
  unfold opened. generalize (snd x0) (snd x1).
  induction l as [|a l IH]; intros [|b l']; cbn; constructor; auto. apply Z.mod_pos_bound, p_pos.
Qed.

Lemma eval_zero_cong c inps : Forall (in_field P) inps -> wf c ->
  (Eval c inps = true <-> Forall (fun z => cong P (nth z (eval_wires c inps) 0) 0) (result_zero c)).
Proof.
  intros HI [_ WZ]. rewrite eval_true_iff. pose proof (eval_field c inps HI) as F.
  rewrite !Forall_forall in *. split; intros H z Hz; specialize (H z Hz).
  - rewrite H. reflexivity.
  - apply (cong_small P); auto; [|split; [lia|apply p_pos]].
    apply F, nth_In. rewrite eval_wires_length. auto.
Qed.

Lemma not_forall_nth {A} (Q : A -> Prop) (d : A) l : (forall x, {Q x} + {~ Q x}) ->
  {i | (i < length l)%nat /\ ~ Q (nth i l d)} + {Forall Q l}.
Proof.
  intros D. induction l as [|x l IH]; [right; constructor|].
  destruct (D x) as [H|H].
  - destruct IH as [[i [Hi Hn]]|F]; [left; exists (S i); cbn; split; [lia|auto]|right; constructor; auto].
  - left. exists 0%nat. cbn. split; [lia|auto].
Qed.

Lemma cong_dec m a b : {cong m a b} + {~ cong m a b}.
Proof.
  destruct (Z.eq_dec (a mod m) (b mod m)) as [H|H]; [left|right]; now rewrite cong_iff.
Qed.

(** All roots of a nonzero polynomial, as a list. *)
Lemma roots_list q f : prime q -> ~ Forall (fun a => cong q a 0) f ->
  exists bad, (length bad < length f)%nat /\ forall r, in_field q r -> cong q (peval f r) 0 -> In r bad.
Proof.
  intros Hq Hf. pose proof (prime_gt1 q Hq).
  set (all := map Z.of_nat (seq 0 (Z.to_nat q))).
  set (bad := filter (fun r => peval f r mod q =? 0) all). exists bad. split.
  - apply (few_roots q Hq f Hf).
    + apply NoDup_filter. apply FinFun.Injective_map_NoDup; [intros a b; lia|apply seq_NoDup].
    + apply Forall_forall. intros r Hr. apply filter_In in Hr as [Hr _].
      apply in_map_iff in Hr as (i & <- & Hi). apply in_seq in Hi. unfold in_field. lia.
    + apply Forall_forall. intros r Hr. apply filter_In in Hr as [_ Hr].
      apply Z.eqb_eq in Hr. apply cong_iff. rewrite Hr. symmetry. apply Z.mod_small. lia.
  - intros r Hr H0. apply filter_In. split.
    + apply in_map_iff. exists (Z.to_nat r). unfold in_field in Hr. split; [lia|].
      apply in_seq. lia.
    + apply Z.eqb_eq. apply cong_mod_eq; [lia|exact H0].
Qed.

Lemma vwires_eval c x0 x1 : wf c -> shaped c x0 -> shaped c x1 ->
  (forall t a l r, nth_error (mul_gates c) t = Some (a, l, r) ->
     cong P (nth a (vwires c x0 x1) 0) (nth l (vwires c x0 x1) 0 * nth r (vwires c x0 x1) 0)) ->
  forall i, cong P (nth i (vwires c x0 x1) 0) (nth i (eval_wires c (opened x0 x1)) 0).
Proof.
  intros [WF _] (_ & _ & A) (_ & _ & B) H. unfold vwires, ImportWires, eval_wires in *.
  apply import_eval_products.
  - intros i. rewrite nth_map2_add by congruence. unfold opened.
    destruct (Nat.lt_ge_cases i (length (snd x0))).
    + rewrite (nth_map2 (fun a b => (a + b) mod P) _ _ _ 0 0 0) by congruence. demod. reflexivity.
    + rewrite !nth_overflow; try reflexivity; rewrite ?map2_length; lia.
  - split; auto. intros i; reflexivity.
  - exact WF.
  - exact H.
Qed.

Lemma sound_core c x0 x1 k f g h : wf c -> (k <= 18)%nat -> (NumMulGates c < 2 ^ k)%nat ->
  shaped c x0 -> shaped c x1 ->
  Eval c (opened x0 x1) = false ->
  length f = (2 ^ k)%nat -> length g = (2 ^ k)%nat -> length h = (2 * 2 ^ k)%nat ->
  (forall i, (i < 2 ^ k)%nat ->
     cong P (peval f (nth i (roots (init_roots (2 ^ k))) 0)) (at_gate c (f0_s (fst x0) + f0_s (fst x1)) (fun m => nth (snd (fst m)) (vwires c x0 x1) 0) i) /\
     cong P (peval g (nth i (roots (init_roots (2 ^ k))) 0)) (at_gate c (g0_s (fst x0) + g0_s (fst x1)) (fun m => nth (snd m) (vwires c x0 x1) 0) i) /\
     cong P (peval h (nth i (roots (init_roots (2 ^ k))) 0)) (at_gate c (h0_s (fst x0) + h0_s (fst x1)) (fun m => nth (fst (fst m)) (vwires c x0 x1) 0) i)) ->
  exists bad, (length bad <= 2 * 2 ^ k)%nat /\ forall r, in_field P r -> ~ In r bad ->
    exists j, (j <= length (result_zero c))%nat /\
      ~ cong P (nth j (sigma x0 x1 f g h r :: map (fun z => nth z (vwires c x0 x1) 0) (result_zero c)) 0) 0.
Proof.
  intros WF Hk Hn S0 S1 HE Lf Lg Lh Hpts. pose proof (pow2_pos k) as P1.
  set (W := vwires c x0 x1) in *.
  destruct (not_forall_nth (fun z => cong P (nth z W 0) 0) 0%nat (result_zero c)
             ltac:(intros; apply cong_dec)) as [[t [Ht Hz]]|HZ].
  { exists []. split; [cbn; lia|]. intros r _ _. exists (S t). split; [lia|].
    cbn [nth]. now rewrite (nth_map_in _ _ _ 0%nat). }
  destruct (not_forall_nth (fun m => cong P (nth (fst (fst m)) W 0) (nth (snd (fst m)) W 0 * nth (snd m) W 0))
             (0, 0, 0)%nat (mul_gates c) ltac:(intros; apply cong_dec)) as [[t [Ht Hm]]|HM].
  2:{ exfalso. rewrite <- Bool.not_true_iff_false in HE. apply HE.
      apply eval_zero_cong; auto; [apply opened_field|].
      pose proof (vwires_eval c x0 x1 WF S0 S1) as VE. fold W in VE.
      rewrite Forall_forall in HZ, HM |- *. intros z Hz. rewrite <- VE; auto.
      intros t a l r E. apply nth_error_In in E. exact (HM _ E). }
  set (s := ((shareC (triple_share (fst x0)) + shareC (triple_share (fst x1))) -
    (shareA (triple_share (fst x0)) + shareA (triple_share (fst x1))) *
    (shareB (triple_share (fst x0)) + shareB (triple_share (fst x1)))) :: zpsub (zpmul f g) h).
  destruct (roots_list P s modulus_prime) as (bad & Lb & Hb).
  { intros HF. unfold s in HF. inversion HF as [|? ? _ HF']; subst. clear HF.
    unfold NumMulGates in Hn. destruct (Hpts (S t) ltac:(lia)) as (Hf & Hg & Hh).
    apply Hm. clear Hm. unfold at_gate in *.
    rewrite (nth_error_nth' _ (0, 0, 0)%nat Ht) in *.
    rewrite <- Hf, <- Hg, <- Hh.
    pose proof (peval_zero P _ (nth (S t) (roots (init_roots (2 ^ k))) 0) HF') as Z0.
    rewrite peval_zpsub, peval_zpmul in Z0. destruct Z0 as [u Hu]. exists (- u). lia. }
  exists bad. split.
  { assert (Ls : length s = S (2 * 2 ^ k)).
    { unfold s. cbn [length]. rewrite zpsub_length, zpmul_length, Lf, Lg, Lh; [lia| |];
        intros E; rewrite E in *; cbn in *; lia. }
    lia. }
  intros r Hr Hnb. exists 0%nat. split; [lia|]. cbn [nth]. intros H0. apply Hnb, Hb; auto.
  unfold s. cbn [peval]. rewrite peval_zpsub, peval_zpmul.
  unfold sigma in H0. rewrite Z.add_comm. exact H0.
Qed.

(** ** Completeness *)

Lemma split_sum r v : cong P (fst (SplitShare r v) + snd (SplitShare r v)) v.
Proof.
  pose proof (split_share_sum r v) as H. destruct (SplitShare r v) as [a b]. now apply cong_iff.
Qed.

Opaque SplitShare.

Section Honest.
Variable c : circuit.
Variable inps : list Z.
Variables x0 x1 : submission.
Variable k : nat.
Hypothesis Hk : (k <= 18)%nat.
Hypothesis Hn : (NumMulGates c < 2 ^ k)%nat.
Hypothesis HN : NextPowerOfTwo (Z.of_nat (NumMulGates c)) = Some (Z.of_nat (2 ^ k)).
Hypothesis LI : length inps = NumInputs c.
Hypothesis HS : shares_of inps (snd x0) (snd x1).
Variable T : nat -> Z.
Variables s s' : nat.
Let V := eval_wires c inps.
Hypothesis HP : share_polynomials (init_roots (2 ^ k)) c V T s = Some (fst x0, fst x1, s').

Let f0 := fmpz_randm (T s) P.
Let g0 := fmpz_randm (T (s + 1)%nat) P.
Let pad := repeat 0 (2 ^ k - 1 - NumMulGates c).
Let ptsF := f0 :: map (fun m => nth (snd (fst m)) V 0) (mul_gates c) ++ pad.
Let ptsG := g0 :: map (fun m => nth (snd m) V 0) (mul_gates c) ++ pad.
Let fC := fft_interpolate P (2 ^ k) (invroots (init_roots (2 ^ k))) ptsF true.
Let gC := fft_interpolate P (2 ^ k) (invroots (init_roots (2 ^ k))) ptsG true.

Lemma client_poly pts : length pts = (2 ^ k)%nat ->
  let fp := fft_interpolate P (2 ^ k) (invroots (init_roots (2 ^ k))) pts true in
  length fp = (2 ^ k)%nat /\ Forall (in_field P) fp /\
  (forall i, (i < 2 ^ k)%nat -> cong P (peval fp (nth i (roots (init_roots (2 ^ k))) 0)) (nth i pts 0)) /\
  forall j, (j < 2 * 2 ^ k)%nat ->
    cong P (nth j (fft_interpolate P (2 * 2 ^ k) (roots2 (init_roots (2 ^ k))) (fp ++ repeat 0 (2 ^ k)) false) 0)
           (peval fp (nth j (roots2 (init_roots (2 ^ k))) 0)).
Proof.
  clear HP HS LI HN Hn. intros Lp. rewrite init_roots_eq. cbn [invroots roots roots2].
  destruct (fft_inverse_eq k pts ltac:(lia) Lp) as (L & F & E & _). cbv zeta in *.
  set (fp := fft_interpolate P (2 ^ k) _ pts true) in *.
  split; [exact L|]. split; [exact F|]. split.
  - intros i Hi.
    assert (Q : nth i (map (fun x => peval fp x mod P) (root_table P (wN k) 1 (2 ^ k))) 0 =
                nth i (map (fun y => y mod P) pts) 0) by now rewrite E.
    rewrite (nth_map_in _ _ _ 0) in Q by (now rewrite root_table_length).
    rewrite (nth_map_in _ _ _ 0) in Q by lia. now apply cong_iff.
  - intros j Hj. change (2 * 2 ^ k)%nat with (2 ^ S k)%nat in *.
    rewrite fft_forward_eq.
    + rewrite (nth_map_in _ _ _ 0) by (now rewrite root_table_length). demod.
      rewrite peval_app, peval_repeat0. cong_ring.
    + lia.
    + rewrite app_length, repeat_length, L. cbn. lia.
    + apply Forall_app. split; auto. apply Forall_forall. intros z Hz. apply repeat_spec in Hz. subst.
      split; [lia|apply p_pos].
Qed.

Lemma ptsF_length : length ptsF = (2 ^ k)%nat.
Proof.
  unfold ptsF, pad. cbn. rewrite app_length, map_length, repeat_length. unfold NumMulGates in *. lia.
Qed.
Lemma ptsG_length : length ptsG = (2 ^ k)%nat.
Proof.
  unfold ptsG, pad. cbn. rewrite app_length, map_length, repeat_length. unfold NumMulGates in *. lia.
Qed.

(** what the packets share *)
Lemma honest_packet :
  let q0 := fst x0 in let q1 := fst x1 in
  length (MulShares q0) = NumMulGates c /\ length (MulShares q1) = NumMulGates c /\
  length (h_points q0) = (2 ^ k)%nat /\ length (h_points q1) = (2 ^ k)%nat /\
  shares_of (mul_wires c V) (MulShares q0) (MulShares q1) /\
  cong P (f0_s q0 + f0_s q1) f0 /\ cong P (g0_s q0 + g0_s q1) g0 /\ cong P (h0_s q0 + h0_s q1) (f0 * g0) /\
  (forall j, (j < 2 ^ k)%nat ->
     cong P (nth j (h_points q0) 0 + nth j (h_points q1) 0)
            (peval fC (nth (2 * j + 1) (roots2 (init_roots (2 ^ k))) 0) *
             peval gC (nth (2 * j + 1) (roots2 (init_roots (2 ^ k))) 0))) /\
  cong P (shareC (triple_share q0) + shareC (triple_share q1))
    ((shareA (triple_share q0) + shareA (triple_share q1)) * (shareB (triple_share q0) + shareB (triple_share q1))).
Proof.
  cbv zeta. unfold share_polynomials in HP. rewrite HN, Nat2Z.id in HP. cbv zeta in HP.
  fold f0 g0 pad in HP. fold ptsF ptsG in HP. fold fC gC in HP.
  injection HP as E0 E1 _. rewrite <- E0, <- E1. cbn [MulShares f0_s g0_s h0_s h_points triple_share].
  match goal with |- context [GetMulShares c V ?d] => set (draws := d) in * end.
  assert (LD : length draws = NumMulGates c) by (unfold draws; now rewrite map_length, seq_length).
  pose proof (get_mul_shares_lemma c V draws LD) as GM.
  destruct (GetMulShares c V draws) as [m0 m1]. cbn [fst snd].
  pose proof GM as (G0 & G1 & _). unfold mul_wires in G0, G1. rewrite map_length in G0, G1.
  fold (NumMulGates c) in G0, G1.
  repeat (split; [first [assumption|now rewrite !map_length, seq_length]|]).
  split; [apply split_sum|]. split; [apply split_sum|].
  split; [rewrite split_sum; demod; reflexivity|]. split.
  - intros j Hj. rewrite !map_map.
    rewrite !(nth_map_in _ _ _ 0%nat) by (now rewrite seq_length). rewrite seq_nth by auto.
    cbn [Nat.add]. cbv beta. rewrite split_sum. demod.
    destruct (client_poly ptsF ptsF_length) as (_ & _ & _ & EF).
    destruct (client_poly ptsG ptsG_length) as (_ & _ & _ & EG). cbv zeta in EF, EG.
    fold fC in EF. fold gC in EG. rewrite EF, EG by lia. reflexivity.
  - unfold BeaverTripleShares, NewBeaverTriple. cbn [bt_A bt_B bt_C].
    match goal with |- context [SplitShare ?a ?b] => pose proof (split_sum a b); destruct (SplitShare a b) end.
    match goal with |- context [SplitShare ?a ?b] => pose proof (split_sum a b); destruct (SplitShare a b) end.
    match goal with |- context [SplitShare ?a ?b] => pose proof (split_sum a b); destruct (SplitShare a b) end.
    cbn [fst snd shareA shareB shareC] in *. rewrite H, H0, H1. demod. reflexivity.
Qed.

Lemma honest_shaped : shaped c x0 /\ shaped c x1.
Proof.
  destruct honest_packet as (A & B & C & D & _). destruct HS as (E & F & _).
  split; (split; [auto|split; [rewrite HN; f_equal; f_equal; lia|lia]]).
Qed.

Lemma honest_wires : forall i, cong P (nth i (vwires c x0 x1) 0) (nth i V 0).
Proof.
  destruct honest_packet as (A & B & C & D & GM & _).
  unfold vwires, V, eval_wires, ImportWires.
  apply import_eval.
  - intros i. destruct HS as (E & F & G). rewrite nth_map2_add by lia. apply shares_of_cong; auto.
  - split; auto. intros i; reflexivity.
  - intros t a l r H. cbn [Nat.add length] in *.
    destruct GM as (E & F & G). rewrite nth_map2_add by lia.
    rewrite (shares_of_cong (mul_wires c V)) by (split; auto).
    rewrite nth_map_mul. unfold mul_gates. rewrite H. reflexivity.
Qed.

Lemma honest_core f g h : wf c -> Eval c inps = true ->
  length f = (2 ^ k)%nat -> length g = (2 ^ k)%nat -> length h = (2 * 2 ^ k)%nat ->
  (forall i, (i < 2 ^ k)%nat ->
     cong P (peval f (nth i (roots (init_roots (2 ^ k))) 0)) (at_gate c (f0_s (fst x0) + f0_s (fst x1)) (fun m => nth (snd (fst m)) (vwires c x0 x1) 0) i) /\
     cong P (peval g (nth i (roots (init_roots (2 ^ k))) 0)) (at_gate c (g0_s (fst x0) + g0_s (fst x1)) (fun m => nth (snd m) (vwires c x0 x1) 0) i) /\
     cong P (peval h (nth i (roots (init_roots (2 ^ k))) 0)) (at_gate c (h0_s (fst x0) + h0_s (fst x1)) (fun m => nth (fst (fst m)) (vwires c x0 x1) 0) i) /\
     cong P (peval h (nth (2 * i + 1) (roots2 (init_roots (2 ^ k))) 0)) (nth i (h_points (fst x0)) 0 + nth i (h_points (fst x1)) 0)) ->
  forall r, Forall (fun a => cong P a 0)
    (sigma x0 x1 f g h r :: map (fun z => nth z (vwires c x0 x1) 0) (result_zero c)).
Proof.
  intros WF HE Lf Lg Lh Hp r.
  pose proof honest_packet as (_ & _ & _ & _ & _ & Q1 & Q2 & Q3 & Q4 & Q5).
  pose proof honest_wires as HW.
  destruct (tables_lemma k Hk) as (ND1 & ND2 & L1 & _ & L2 & FF & _). cbv zeta in *.
  apply Forall_app in FF as [F1 FF]. apply Forall_app in FF as [_ F2].
  set (R := roots (init_roots (2 ^ k))) in *. set (R2 := roots2 (init_roots (2 ^ k))) in *.
  pose proof (nodup_distinct P R ND1 F1) as D1. pose proof (nodup_distinct P R2 ND2 F2) as D2.
  destruct (client_poly ptsF ptsF_length) as (LF & _ & PF & _).
  destruct (client_poly ptsG ptsG_length) as (LG & _ & PG & _). cbv zeta in *.
  fold fC in LF, PF. fold gC in LG, PG. fold R in PF, PG.
  assert (NIn : forall (l : list Z) x n, length l = n -> In x l -> exists i, (i < n)%nat /\ x = nth i l 0).
  { intros l x n <- Hx. apply (In_nth _ _ 0) in Hx as (i & Hi & <-). eauto. }
  assert (AF : forall x, cong P (peval f x) (peval fC x)).
  { apply (poly_unique P modulus_prime R); auto; try lia.
    intros x Hx. destruct (NIn _ _ _ L1 Hx) as (i & Hi & ->). rewrite PF by auto.
    destruct (Hp i Hi) as (-> & _). unfold ptsF. unfold pad. rewrite nth_points. unfold at_gate.
    destruct i; [exact Q1|]. destruct (nth_error (mul_gates c) i); [apply HW|reflexivity]. }
  assert (AG : forall x, cong P (peval g x) (peval gC x)).
  { apply (poly_unique P modulus_prime R); auto; try lia.
    intros x Hx. destruct (NIn _ _ _ L1 Hx) as (i & Hi & ->). rewrite PG by auto.
    destruct (Hp i Hi) as (_ & -> & _). unfold ptsG. unfold pad. rewrite nth_points. unfold at_gate.
    destruct i; [exact Q2|]. destruct (nth_error (mul_gates c) i); [apply HW|reflexivity]. }
  pose proof (pow2_pos k) as P1.
  assert (AH : forall x, cong P (peval h x) (peval (zpmul f g) x)).
  { apply (poly_unique P modulus_prime R2); auto; try lia.
    { rewrite zpmul_length; [lia| |]; intros E; rewrite E in *; cbn in *; lia. }
    intros x Hx. destruct (NIn _ _ _ L2 Hx) as (i & Hi & ->). rewrite peval_zpmul.
    destruct (Nat.Even_or_Odd i) as [[j Hj]|[j Hj]]; subst i.
    - assert (Hj : (j < 2 ^ k)%nat) by lia. unfold R2. rewrite roots2_even by auto. fold R.
      destruct (Hp j Hj) as (-> & -> & -> & _). unfold at_gate. destruct j.
      + rewrite Q1, Q2, Q3. reflexivity.
      + destruct (nth_error (mul_gates c) j) as [[[a l] r']|] eqn:E; [|cong_ring].
        cbn [fst snd]. rewrite !HW.
        apply mul_gates_from_spec in E as [_ E]. rewrite Nat.sub_0_r in E.
        destruct (eval_computes c inps WF) as [_ CO]. specialize (CO a _ E). cbn in CO.
        unfold V. rewrite CO. demod. reflexivity.
    - assert (Hj : (j < 2 ^ k)%nat) by lia. destruct (Hp j Hj) as (_ & _ & _ & ->).
      rewrite (Q4 j Hj). rewrite AF, AG. reflexivity. }
  constructor.
  - unfold sigma. rewrite AH, peval_zpmul, Q5. cong_ring.
  - apply Forall_forall. intros y Hy. apply in_map_iff in Hy as (z & <- & Hz). rewrite HW.
    apply eval_true_iff in HE. rewrite Forall_forall in HE. unfold V. rewrite HE by auto. reflexivity.
Qed.
End Honest.
