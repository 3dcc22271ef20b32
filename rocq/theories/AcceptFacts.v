(** * Which submissions are accepted *)
From Coq Require Import ZArith List Bool Lia Permutation.
From Verif Require Import Words WordsFacts Constants Cong Share SpecShare ShareFacts Proc ProcFacts Net SpecNet NetFacts RelFacts
  Poly SpecPoly FieldFacts PolyFacts FftFacts TreeFacts PolyProps Circuit SpecCircuit CircuitFacts Snip SpecSnip SnipFacts SnipBatch
  MpcFacts ServerOps SpecServer SnipSums SpecStat StatSound SecretProof SpecCount CountFacts CountProps SpecAccept.
Import ListNotations.
Open Scope Z_scope.
Arguments Z.mul : simpl never.
Arguments Z.add : simpl never.
Arguments Z.sub : simpl never.
Arguments Z.pow : simpl never.
Arguments Z.modulo : simpl never.
Opaque Int_Modulus Int_Gen init_roots.
Local Notation P := Int_Modulus.

(** ** Few points, or none *)
Section One.
  Variables (c : circuit) (x0 x1 : submission) (k : nat) (f g h : list Z).
  Hypothesis Lf : length f = (2 ^ k)%nat.
  Hypothesis Lg : length g = (2 ^ k)%nat.
  Hypothesis Lh : length h = (2 * 2 ^ k)%nat.
  Let q0 := fst x0. Let q1 := fst x1.

  Definition gap : list Z :=
    ((shareC (triple_share q0) + shareC (triple_share q1)) -
     (shareA (triple_share q0) + shareA (triple_share q1)) * (shareB (triple_share q0) + shareB (triple_share q1)))
    :: zpsub (zpmul f g) h.
  (** Everything the check looks at is right. *)
  Definition right : Prop :=
    Forall (fun z => cong P (nth z (vwires c x0 x1) 0) 0) (result_zero c) /\ Forall (fun a => cong P a 0) gap.

  Lemma gap_sigma r : peval gap r = sigma x0 x1 f g h r.
  Proof.
    unfold gap. cbn [peval]. rewrite peval_zpsub, peval_zpmul. unfold sigma. rewrite Z.add_comm. reflexivity.
  Qed.

  Lemma right_entries r : right ->
    Forall (fun a => cong P a 0) (sigma x0 x1 f g h r :: map (fun z => nth z (vwires c x0 x1) 0) (result_zero c)).
  Proof.
    intros [HZ HG]. constructor.
    - rewrite <- gap_sigma. now apply peval_zero.
    - apply Forall_forall. intros y (z & <- & Hz)%in_map_iff. rewrite Forall_forall in HZ. now apply HZ.
  Qed.

  Lemma right_or_few : right \/
    exists bad, (length bad <= 2 * 2 ^ k)%nat /\ forall r, in_field P r -> ~ In r bad ->
    exists j, (j <= length (result_zero c))%nat /\
      ~ cong P (nth j (sigma x0 x1 f g h r :: map (fun z => nth z (vwires c x0 x1) 0) (result_zero c)) 0) 0.
  Proof.
    pose proof (pow2_pos k) as P1.
    destruct (not_forall_nth (fun z => cong P (nth z (vwires c x0 x1) 0) 0) 0%nat (result_zero c)
               ltac:(intros; apply cong_dec)) as [[t [Ht Hz]]|HZ].
    { right. exists []. split; [cbn; lia|]. intros r _ _. exists (S t). split; [lia|].
      cbn [nth]. now rewrite (nth_map_in _ _ _ 0%nat). }
    destruct (not_forall_nth (fun a => cong P a 0) 0 gap ltac:(intros; apply cong_dec)) as [[t [Ht Hg]]|HG].
    2: { left. split; auto. }
    right. destruct (roots_list P gap modulus_prime) as (bad & Lb & Hb).
    { intros HF. apply Hg. rewrite Forall_forall in HF. apply HF, nth_In, Ht. }
    exists bad. split.
    { assert (Ls : length gap = S (2 * 2 ^ k)).
      { unfold gap. cbn [length]. rewrite zpsub_length, zpmul_length, Lf, Lg, Lh; [lia| |];
          intros E; rewrite E in *; cbn in *; lia. }
      lia. }
    intros r Hr Hnb. exists 0%nat. split; [lia|]. cbn [nth]. intros H0. apply Hnb, Hb; auto. now rewrite gap_sigma.
  Qed.
End One.

Lemma dotK_zero K l : Forall (fun a => cong P a 0) l -> forall pos, cong P (dotK K pos l) 0.
Proof.
  induction 1 as [|a l Ha _ IH]; intros pos; cbn [dotK]; [reflexivity|]. rewrite Ha, IH. cong_ring.
Qed.

(** *** The data of a submission *)
Definition polys c x0 x1 k f g h : Prop :=
  (k <= 18)%nat /\ (NumMulGates c < 2 ^ k)%nat /\
  NextPowerOfTwo (Z.of_nat (NumMulGates c)) = Some (Z.of_nat (2 ^ k)) /\
  length f = (2 ^ k)%nat /\ length g = (2 ^ k)%nat /\ length h = (2 * 2 ^ k)%nat /\
  (forall i, (i < 2 ^ k)%nat ->
     cong P (peval f (nth i (roots (init_roots (2 ^ k))) 0)) (at_gate c (f0_s (fst x0) + f0_s (fst x1)) (fun m => nth (snd (fst m)) (vwires c x0 x1) 0) i) /\
     cong P (peval g (nth i (roots (init_roots (2 ^ k))) 0)) (at_gate c (g0_s (fst x0) + g0_s (fst x1)) (fun m => nth (snd m) (vwires c x0 x1) 0) i) /\
     cong P (peval h (nth i (roots (init_roots (2 ^ k))) 0)) (at_gate c (h0_s (fst x0) + h0_s (fst x1)) (fun m => nth (fst (fst m)) (vwires c x0 x1) 0) i) /\
     cong P (peval h (nth (2 * i + 1) (roots2 (init_roots (2 ^ k))) 0)) (nth i (h_points (fst x0)) 0 + nth i (h_points (fst x1)) 0)) /\
  forall r, in_field P r -> exists ck0 ck1, good c (pre_of k r)
    (mkJob x0 x1 ck0 ck1 (sigma x0 x1 f g h r :: map (fun z => nth z (vwires c x0 x1) 0) (result_zero c))).

Lemma polys_exist c x0 x1 : (NumMulGates c < 2 ^ 18)%nat -> shaped c x0 -> shaped c x1 -> exists k f g h, polys c x0 x1 k f g h.
Proof. exact (item_good c x0 x1). Qed.

Lemma right_true c x0 x1 k f g h r K pos : polys c x0 x1 k f g h -> in_field P r -> right c x0 x1 f g h ->
  verdict c r K pos x0 x1 true.
Proof.
  intros (Hk & Hn & HN & Lf & Lg & Lh & Hp & HG) Hr HR. destruct (HG r Hr) as (ck0 & ck1 & G).
  pose proof (good_verdict c k r K pos _ Hk HN G) as W. cbn [jx0 jx1 jent] in W.
  assert (Z0 := dotK_zero K _ (right_entries c x0 x1 f g h r HR) pos). apply zero_test in Z0.
  rewrite Z0 in W. exact W.
Qed.

Lemma right_or_shaky c x0 x1 k f g h : polys c x0 x1 k f g h -> right c x0 x1 f g h \/
  exists bad, (length bad <= 2 * 2 ^ k)%nat /\ forall r, in_field P r -> ~ In r bad ->
    exists j, (j <= length (result_zero c))%nat /\
      forall K K' pos, differ_only_at (pos + j) K K' ->
        ~ (verdict c r K pos x0 x1 true /\ verdict c r K' pos x0 x1 true).
Proof.
  intros (Hk & Hn & HN & Lf & Lg & Lh & Hp & HG).
  destruct (right_or_few c x0 x1 k f g h Lf Lg Lh) as [|(bad & LB & HB)]; [now left|right].
  exists bad. split; auto. intros r Hr Hnb. destruct (HB r Hr Hnb) as (j & Hj & Nz).
  exists j. split; auto. intros K K' pos HD [V V'].
  destruct (HG r Hr) as (ck0 & ck1 & G).
  pose proof (good_verdict c k r K pos _ Hk HN G) as W. pose proof (good_verdict c k r K' pos _ Hk HN G) as W'.
  cbn [jx0 jx1 jent] in W, W'.
  pose proof (verdict_unique _ _ _ _ _ _ _ _ Hr V W) as E. pose proof (verdict_unique _ _ _ _ _ _ _ _ Hr V' W') as E'.
  symmetry in E, E'. apply zero_test in E, E'.
  refine (dotK_differ K K' _ j _ Nz pos HD E E').
  cbn [length]. rewrite map_length. lia.
Qed.

(** ** What a right submission shares *)
Lemma peval_zero_all l : (forall a, In a l -> cong P a 0) -> forall x, cong P (peval l x) 0.
Proof. intros H x. apply peval_zero. now apply Forall_forall. Qed.

(** The opened packet of the client's code for the wires [V] and the draws f0, g0, A, B. *)
Definition proof_of (c : circuit) (k : nat) (V : list Z) (f0 g0 A B : Z) : ClientPacket :=
  mkPacket (map (fun v => v mod p) (mul_wires c V)) f0 g0 ((f0 * g0) mod p)
    (map (h_value (init_roots (2 ^ k)) c V (2 ^ k) f0 g0) (seq 0 (2 ^ k))) (mkBTS A B ((A * B) mod p)).

Lemma half_sum r v : (half false r v + half true r v) mod p = v mod p.
Proof. unfold half. apply cong_iff. apply split_sum. Qed.

Lemma sums_length a b : length (sums a b) = Nat.min (length a) (length b).
Proof. unfold sums. apply map2_length. Qed.
Lemma nth_sums a b i : length a = length b -> (i < length a)%nat -> nth i (sums a b) 0 = (nth i a 0 + nth i b 0) mod p.
Proof. intros L Hi. unfold sums. now rewrite (nth_map2 _ _ _ _ 0 0 0). Qed.

Lemma nth_of_sums a b l : sums a b = l -> length a = length b ->
  forall i, (i < length a)%nat -> (nth i a 0 + nth i b 0) mod p = nth i l 0.
Proof. intros <- L i Hi. symmetry. now apply nth_sums. Qed.

Lemma made_opened c k V T s r0 r1 s' : NextPowerOfTwo (Z.of_nat (NumMulGates c)) = Some (Z.of_nat (2 ^ k)) ->
  share_polynomials (init_roots (2 ^ k)) c V T s = Some (r0, r1, s') ->
  exists f0 g0 A B, in_field P f0 /\ in_field P g0 /\ in_field P A /\ in_field P B /\
    f0 = T s mod p /\ g0 = T (s + 1)%nat mod p /\
    A = T (s + 5 + 2 ^ k + NumMulGates c)%nat mod p /\ B = T (s + 5 + 2 ^ k + NumMulGates c + 1)%nat mod p /\
    opened_packet r0 r1 = proof_of c k V f0 g0 A B.
Proof.
  intros HN HP. rewrite (packets_form _ _ _ _ _ _ HN) in HP.
  assert (E0 := f_equal (fun o => match o with Some x => fst (fst x) | None => r0 end) HP).
  assert (E1 := f_equal (fun o => match o with Some x => snd (fst x) | None => r0 end) HP).
  cbn [fst snd] in E0, E1. clear HP. subst r0 r1.
  assert (M : forall x, in_field P (x mod p)) by (intros; apply Z.mod_pos_bound, p_pos).
  do 4 eexists. split; [apply M|]. split; [apply M|]. split; [apply M|]. split; [apply M|].
  do 4 (split; [reflexivity|]).
  unfold opened_packet, packet_half, proof_of. cbn [MulShares f0_s g0_s h0_s h_points triple_share shareA shareB shareC].
  unfold fmpz_randm, NewBeaverTriple, fmpz_randm. cbn [bt_A bt_B bt_C].
  rewrite !half_sum. rewrite !Zmod_mod. f_equal.
  - unfold mul_wires. apply nth_ext with (d := 0) (d' := 0).
    + rewrite sums_length, !map2_length, !map_length, seq_length. unfold NumMulGates. lia.
    + intros i Hi. rewrite sums_length, !map2_length, seq_length in Hi. unfold NumMulGates in Hi.
      rewrite nth_sums by (rewrite !map2_length, ?seq_length; unfold NumMulGates; lia).
      rewrite !(nth_map2 _ _ _ i 0%nat (0, 0, 0)%nat 0) by (rewrite ?seq_length; unfold NumMulGates; lia).
      rewrite half_sum. rewrite map_map. rewrite (nth_map_in _ _ _ (0, 0, 0)%nat) by lia. reflexivity.
  - apply nth_ext with (d := 0) (d' := 0).
    + rewrite sums_length, !map_length, seq_length. lia.
    + intros i Hi. rewrite sums_length, !map_length, seq_length in Hi.
      rewrite nth_sums by (rewrite !map_length, ?seq_length; lia).
      rewrite !(nth_map_in _ _ _ 0%nat) by (rewrite ?seq_length; lia). rewrite seq_nth by lia. cbn [Nat.add].
      rewrite half_sum. unfold h_value. apply Zmod_mod.
Qed.

Section Right.
  Variables (c : circuit) (x0 x1 : submission) (k : nat) (f g h : list Z).
  Hypothesis WF : wf c.
  Hypothesis S0 : shaped c x0.
  Hypothesis S1 : shaped c x1.
  Hypothesis HP : polys c x0 x1 k f g h.
  Let V := eval_wires c (opened x0 x1).
  Let W := vwires c x0 x1.
  Let q0 := fst x0. Let q1 := fst x1.
  Let rt i := nth i (roots (init_roots (2 ^ k))) 0.
  Let rt2 i := nth i (roots2 (init_roots (2 ^ k))) 0.

  Lemma lengths : length (h_points q0) = (2 ^ k)%nat /\ length (h_points q1) = (2 ^ k)%nat /\
    length (MulShares q0) = NumMulGates c /\ length (MulShares q1) = NumMulGates c.
  Proof.
    destruct S0 as (A1 & A2 & _), S1 as (B1 & B2 & _), HP as (_ & _ & HN & _).
    split; [|split; [|split; assumption]].
    - exact (npo2_fun _ _ _ A2 HN).
    - exact (npo2_fun _ _ _ B2 HN).
  Qed.

  (** The values at the odd roots, when the wires are those of the evaluation. *)
  Lemma h_value_cong f0 g0 j : (forall i, cong P (nth i W 0) (nth i V 0)) ->
    cong P (f0_s q0 + f0_s q1) f0 -> cong P (g0_s q0 + g0_s q1) g0 -> (j < 2 ^ k)%nat ->
    cong P (h_value (init_roots (2 ^ k)) c V (2 ^ k) f0 g0 j) (peval f (rt2 (2 * j + 1)) * peval g (rt2 (2 * j + 1))).
  Proof.
    intros HW HF HG Hj. destruct HP as (Hk & Hn & HN & Lf & Lg & Lh & Hp & _).
    destruct (tables_lemma k Hk) as (ND1 & _ & L1 & _ & _ & FF & _). cbv zeta in *.
    apply Forall_app in FF as [F1 _].
    pose proof (nodup_distinct P _ ND1 F1) as D1.
    unfold h_value. cbv zeta.
    set (ptsF := f0 :: _). set (ptsG := g0 :: _).
    assert (LF : length ptsF = (2 ^ k)%nat).
    { unfold ptsF. cbn [length]. rewrite app_length, map_length, repeat_length. unfold NumMulGates in *. lia. }
    assert (LG : length ptsG = (2 ^ k)%nat).
    { unfold ptsG. cbn [length]. rewrite app_length, map_length, repeat_length. unfold NumMulGates in *. lia. }
    destruct (client_poly k Hk (fun _ => 0) 0%nat ptsF LF) as (LF' & _ & PF & EF).
    destruct (client_poly k Hk (fun _ => 0) 0%nat ptsG LG) as (LG' & _ & PG & EG). cbv zeta in *.
    set (fC := fft_interpolate P (2 ^ k) _ ptsF true) in *. set (gC := fft_interpolate P (2 ^ k) _ ptsG true) in *.
    assert (NIn : forall x, In x (roots (init_roots (2 ^ k))) -> exists i, (i < 2 ^ k)%nat /\ x = rt i).
    { intros x Hx. apply (In_nth _ _ 0) in Hx as (i & Hi & <-). exists i. split; [lia|reflexivity]. }
    assert (AF : forall x, cong P (peval f x) (peval fC x)).
    { apply (poly_unique P modulus_prime (roots (init_roots (2 ^ k)))); auto; try lia.
      intros x Hx. destruct (NIn _ Hx) as (i & Hi & ->). unfold rt. rewrite PF by auto.
      destruct (Hp i Hi) as (-> & _). unfold ptsF. rewrite nth_points. unfold at_gate.
      destruct i; [exact HF|]. destruct (nth_error (mul_gates c) i); [apply HW|reflexivity]. }
    assert (AG : forall x, cong P (peval g x) (peval gC x)).
    { apply (poly_unique P modulus_prime (roots (init_roots (2 ^ k)))); auto; try lia.
      intros x Hx. destruct (NIn _ Hx) as (i & Hi & ->). unfold rt. rewrite PG by auto.
      destruct (Hp i Hi) as (_ & -> & _). unfold ptsG. rewrite nth_points. unfold at_gate.
      destruct i; [exact HG|]. destruct (nth_error (mul_gates c) i); [apply HW|reflexivity]. }
    demod. rewrite EF, EG by lia. unfold rt2. rewrite AF, AG. reflexivity.
  Qed.

  Lemma mul_wire t a l r : nth_error (mul_gates c) t = Some (a, l, r) ->
    nth a W 0 = nth t (MulShares q0) 0 + nth t (MulShares q1) 0.
  Proof.
    intros E. destruct lengths as (_ & _ & M0 & M1).
    pose proof (import_mul_wires false (gates c) (map2 Z.add (snd x0) (snd x1)) (map2 Z.add (MulShares q0) (MulShares q1)) 0 0 []) as IM.
    cbn [length] in IM. fold (mul_gates c) in IM.
    assert (Ht : (t < length (mul_gates c))%nat) by (apply nth_error_Some; congruence).
    apply (f_equal (fun l => nth t l 0)) in IM. rewrite (nth_map_in _ _ _ (a, l, r)) in IM by exact Ht.
    rewrite (nth_error_nth _ _ _ E) in IM. cbn [fst] in IM.
    rewrite (nth_map_in _ _ _ 0%nat) in IM by (rewrite seq_length; exact Ht). rewrite seq_nth in IM by exact Ht.
    cbn [Nat.add] in IM. rewrite nth_map2_add in IM by congruence. exact IM.
  Qed.

  Let f0 := (f0_s q0 + f0_s q1) mod p.
  Let g0 := (g0_s q0 + g0_s q1) mod p.
  Let A := (shareA (triple_share q0) + shareA (triple_share q1)) mod p.
  Let B := (shareB (triple_share q0) + shareB (triple_share q1)) mod p.

  Lemma right_product : right c x0 x1 f g h -> forall x, cong P (peval h x) (peval f x * peval g x).
  Proof.
    intros [_ HG] x. unfold gap in HG. inversion HG as [|? ? _ HF]; subst.
    pose proof (peval_zero P _ x HF) as Z0. rewrite peval_zpsub, peval_zpmul in Z0.
    destruct Z0 as [u Hu]. exists (- u). lia.
  Qed.

  Lemma right_opened : right c x0 x1 f g h ->
    Eval c (opened x0 x1) = true /\ opened_packet q0 q1 = proof_of c k V f0 g0 A B.
  Proof.
    intros HR. pose proof (right_product HR) as HH. destruct lengths as (H0 & H1 & M0 & M1).
    destruct HP as (Hk & Hn & HN & Lf & Lg & Lh & Hp & _).
    assert (HW : forall i, cong P (nth i W 0) (nth i V 0)).
    { apply vwires_eval; auto. intros t a l r E.
      assert (Ht : (S t < 2 ^ k)%nat).
      { assert (t < length (mul_gates c))%nat by (apply nth_error_Some; congruence). unfold NumMulGates in Hn. lia. }
      destruct (Hp (S t) Ht) as (Ef & Eg & Eh & _). unfold at_gate in Ef, Eg, Eh. rewrite E in Ef, Eg, Eh. cbn [fst snd] in *.
      rewrite <- Ef, <- Eg, <- Eh. apply HH. }
    split.
    { apply eval_zero_cong; auto; [apply opened_field|]. destruct HR as [HZ _].
      rewrite Forall_forall in HZ |- *. intros z Hz. fold V. rewrite <- HW. now apply HZ. }
    assert (Cf : cong P (f0_s q0 + f0_s q1) f0) by (unfold f0; demod; reflexivity).
    assert (Cg : cong P (g0_s q0 + g0_s q1) g0) by (unfold g0; demod; reflexivity).
    unfold opened_packet, proof_of. fold f0 g0 A B. f_equal.
    - apply nth_ext with (d := 0) (d' := 0).
      + rewrite sums_length, map_length. unfold mul_wires. rewrite map_length. unfold NumMulGates in *. lia.
      + intros i Hi. rewrite sums_length in Hi. rewrite nth_sums by lia.
        assert (Hi' : (i < length (mul_gates c))%nat) by (unfold NumMulGates in *; lia).
        destruct (nth_error (mul_gates c) i) as [[[a l] r]|] eqn:E; [|apply nth_error_None in E; lia].
        rewrite (nth_map_in _ _ _ 0) by (unfold mul_wires; now rewrite map_length).
        rewrite nth_map_mul, E. cbn [fst]. rewrite <- (mul_wire i a l r E). apply cong_iff, HW.
    - apply cong_iff. destruct (Hp 0%nat ltac:(lia)) as (Ef & Eg & Eh & _). unfold at_gate in Ef, Eg, Eh.
      rewrite <- Cf, <- Cg. unfold q0, q1. rewrite <- Ef, <- Eg, <- Eh. apply HH.
    - apply nth_ext with (d := 0) (d' := 0).
      + rewrite sums_length, map_length, seq_length. lia.
      + intros i Hi. rewrite sums_length in Hi. rewrite nth_sums by lia.
        rewrite (nth_map_in _ _ _ 0%nat) by (rewrite seq_length; lia). rewrite seq_nth by lia. cbn [Nat.add].
        rewrite <- (Z.mod_small (h_value _ _ _ _ _ _ _) p) by (unfold h_value; apply Z.mod_pos_bound, p_pos).
        apply cong_iff. rewrite (h_value_cong f0 g0 i HW Cf Cg) by lia.
        destruct (Hp i ltac:(lia)) as (_ & _ & _ & E). unfold q0, q1. rewrite <- E. apply HH.
    - f_equal. apply cong_iff. destruct HR as [_ HG]. unfold gap in HG. inversion HG as [|? ? HC _]; subst.
      unfold A, B. demod. destruct HC as [u Hu]. exists u. unfold q0, q1. lia.
  Qed.

  Lemma opened_right f1 g1 A1 B1 : Eval c (opened x0 x1) = true -> opened_packet q0 q1 = proof_of c k V f1 g1 A1 B1 ->
    right c x0 x1 f g h.
  Proof.
    intros HE HO. destruct lengths as (H0 & H1 & M0 & M1). pose proof HP as (Hk & Hn & HN & Lf & Lg & Lh & Hp & _).
    assert (EM := f_equal MulShares HO). assert (Ef := f_equal f0_s HO). assert (Eg := f_equal g0_s HO). assert (Eh := f_equal h0_s HO).
    assert (Ep := f_equal h_points HO). assert (EA := f_equal (fun q => shareA (triple_share q)) HO).
    assert (EB := f_equal (fun q => shareB (triple_share q)) HO). assert (EC := f_equal (fun q => shareC (triple_share q)) HO).
    clear HO. unfold opened_packet, proof_of in EM, Ef, Eg, Eh, Ep, EA, EB, EC.
    cbn [MulShares f0_s g0_s h0_s h_points triple_share shareA shareB shareC] in EM, Ef, Eg, Eh, Ep, EA, EB, EC.
    assert (Cf : cong P (f0_s q0 + f0_s q1) f1) by (rewrite <- Ef; demod; reflexivity).
    assert (Cg : cong P (g0_s q0 + g0_s q1) g1) by (rewrite <- Eg; demod; reflexivity).
    assert (Ch : cong P (h0_s q0 + h0_s q1) (f1 * g1)) by (apply cong_iff; exact Eh).
    assert (CA : cong P (shareA (triple_share q0) + shareA (triple_share q1)) A1) by (rewrite <- EA; demod; reflexivity).
    assert (CB : cong P (shareB (triple_share q0) + shareB (triple_share q1)) B1) by (rewrite <- EB; demod; reflexivity).
    assert (CC : cong P (shareC (triple_share q0) + shareC (triple_share q1)) (A1 * B1)) by (apply cong_iff; exact EC).
    clear Ef Eg Eh EA EB EC.
    assert (LM : length (MulShares q0) = length (MulShares q1)) by congruence. assert (LP : length (h_points q0) = length (h_points q1)) by congruence.
    pose proof (nth_of_sums _ _ _ EM LM) as EM'. pose proof (nth_of_sums _ _ _ Ep LP) as Ep'. clear EM Ep LM LP.
    rename EM' into EM, Ep' into Ep. rewrite M0 in EM. rewrite H0 in Ep.
    assert (HW : forall i, cong P (nth i W 0) (nth i V 0)).
    { unfold W, V, vwires, eval_wires, ImportWires. apply import_eval.
      - destruct S0 as (_ & _ & A3), S1 as (_ & _ & B3). intros i. rewrite nth_map2_add by congruence. unfold opened.
        clear - A3 B3. destruct (Nat.lt_ge_cases i (length (snd x0))).
        + rewrite (nth_map2 (fun a b => (a + b) mod P) _ _ _ 0 0 0) by congruence. demod. reflexivity.
        + rewrite !nth_overflow; try reflexivity; rewrite ?map2_length; lia.
      - split; auto. intros i; reflexivity.
      - intros t a l r E. cbn [Nat.add length] in *. change (mul_gates_from 0 (gates c)) with (mul_gates c) in E.
        fold q0 q1. rewrite nth_map2_add by congruence.
        assert (Ht : (t < length (mul_gates c))%nat) by (apply nth_error_Some; congruence).
        specialize (EM t Ht).
        rewrite (nth_map_in _ _ _ 0) in EM by (unfold mul_wires; now rewrite map_length).
        rewrite nth_map_mul, E in EM. cbn [fst] in EM. apply cong_iff. exact EM. }
    assert (HZ : Forall (fun z => cong P (nth z W 0) 0) (result_zero c)).
    { apply eval_zero_cong in HE; auto; [|apply opened_field]. rewrite Forall_forall in HE |- *. intros z Hz.
      rewrite HW. now apply HE. }
    split; [exact HZ|]. unfold gap. constructor.
    - fold q0 q1. rewrite CA, CB. clear - CC. destruct CC as [u Hu]. exists u. lia.
    - destruct (tables_lemma k Hk) as (ND1 & ND2 & L1 & _ & L2 & FF & _). cbv zeta in *.
      apply Forall_app in FF as [F1 FF]. apply Forall_app in FF as [_ F2].
      pose proof (nodup_distinct P _ ND2 F2) as D2. pose proof (pow2_pos k) as P1.
      apply (root_bound P modulus_prime (roots2 (init_roots (2 ^ k)))); auto.
      { clear - Lf Lg Lh L2 P1. rewrite zpsub_length, zpmul_length, Lf, Lg, Lh, L2; [lia| |]; intros E; rewrite E in *; cbn in *; lia. }
      apply Forall_forall. intros x Hx. apply (In_nth _ _ 0) in Hx as (i & Hi & <-). rewrite L2 in Hi.
      rewrite peval_zpsub, peval_zpmul.
      enough (E : cong P (peval h (rt2 i)) (peval f (rt2 i) * peval g (rt2 i))).
      { unfold rt2 in E. clear - E. destruct E as [u Hu]. exists (- u). lia. }
      destruct (Nat.Even_or_Odd i) as [[j Hj]|[j Hj]]; subst i.
      + assert (Hj : (j < 2 ^ k)%nat) by (clear - Hi; lia). unfold rt2. rewrite roots2_even by auto.
        destruct (Hp j Hj) as (-> & -> & -> & _). unfold at_gate. destruct j.
        * fold q0 q1. rewrite Cf, Cg, Ch. reflexivity.
        * destruct (nth_error (mul_gates c) j) as [[[a l] r']|] eqn:E; [|cong_ring].
          cbn [fst snd]. fold W. rewrite !HW.
          apply mul_gates_from_spec in E as [_ E]. rewrite Nat.sub_0_r in E.
          destruct (eval_computes c (opened x0 x1) WF) as [_ CO]. specialize (CO a _ E). cbn in CO.
          unfold V. rewrite CO. demod. reflexivity.
      + assert (Hj : (j < 2 ^ k)%nat) by (clear - Hi; lia). rewrite <- (h_value_cong f1 g1 j HW Cf Cg Hj).
        destruct (Hp j Hj) as (_ & _ & _ & E). unfold rt2. rewrite E. fold q0 q1.
        specialize (Ep j Hj).
        rewrite (nth_map_in _ _ _ 0%nat) in Ep by (rewrite seq_length; exact Hj). rewrite seq_nth in Ep by exact Hj. cbn [Nat.add] in Ep.
        rewrite <- Ep. demod. reflexivity.
  Qed.
End Right.
