(** * Proofs about the validation of a batch of submissions *)
From Coq Require Import ZArith List Bool Lia Arith ZifyBool ZifyNat Setoid Morphisms.
From Verif Require Import Words WordsFacts Cong Constants Share ShareFacts Proc ProcFacts
  Net NetFacts SpecNet NetMsg RelFacts Poly SpecPoly FieldFacts PolyFacts FftFacts TreeFacts PolyProps
  Circuit SpecCircuit CircuitFacts Snip SpecSnip SnipFacts.
Import ListNotations.
Open Scope Z_scope.

Arguments Z.mul : simpl never.
Arguments Z.add : simpl never.
Arguments Z.sub : simpl never.
Arguments Z.pow : simpl never.
Arguments Z.modulo : simpl never.
Opaque Int_Modulus Int_Gen init_roots.
Local Notation P := Int_Modulus.

Lemma npo2_fun n a b : NextPowerOfTwo n = Some (Z.of_nat a) -> NextPowerOfTwo n = Some (Z.of_nat b) -> a = b.
Proof. intros -> H. injection H. lia. Qed.

(** ** State *)

Lemma find_pre_In N l x : find_pre N l = Some x -> In (N, x) l.
Proof.
  induction l as [|[M y] l IH]; cbn; [discriminate|]. destruct (Nat.eqb_spec N M) as [->|].
  - intros [= ->]. auto.
  - auto.
Qed.

Lemma prep_ok N st : N <> 0%nat -> snip_ok st ->
  exists st2, getPrecomp N (init_roots_if N st) = (new_CheckerPreComp (init_roots N) N (randomX st), st2) /\
    snip_ok st2 /\ randomX st2 = randomX st /\ randx_uses st2 = randx_uses st /\ seed_pos st2 = seed_pos st.
Proof.
  intros HN (Fx & Fp & Ft).
  set (st1 := init_roots_if N st).
  assert (E : randomX st1 = randomX st /\ randx_uses st1 = randx_uses st /\ precomp_store st1 = precomp_store st /\
    seed_pos st1 = seed_pos st /\ num_roots st1 = N /\ tables st1 = init_roots N).
  { unfold st1, init_roots_if. destruct (Nat.eqb_spec (num_roots st) N) as [<-|]; cbn; repeat split; auto. }
  clearbody st1. destruct E as (E1 & E2 & E3 & E4 & E5 & E6).
  assert (OK : snip_ok st1) by (unfold snip_ok; rewrite E1, E3, E5, E6; auto).
  unfold getPrecomp. rewrite E3. destruct (find_pre N (precomp_store st)) as [x|] eqn:E.
  - exists st1. apply find_pre_In in E. rewrite Forall_forall in Fp. pose proof (Fp _ E) as Q.
    unfold pre_current in Q. cbn [fst snd] in Q. rewrite Q. auto.
  - eexists. rewrite E6, E1. split; [reflexivity|]. cbn [randomX randx_uses seed_pos].
    split; [|auto]. unfold snip_ok. cbn [randomX precomp_store num_roots tables]. rewrite E5.
    split; [exact Fx|]. split; [|auto]. constructor; auto. reflexivity.
Qed.

(** ** One submission and its two checkers *)

Record job := mkJob { jx0 : submission; jx1 : submission; jc0 : Checker; jc1 : Checker; jent : list Z }.

Definition good (c : circuit) (pre : CheckerPreComp) (j : job) : Prop :=
  new_Checker c false (fst (jx0 j)) pre (snd (jx0 j)) = Some (jc0 j) /\
  new_Checker c true (fst (jx1 j)) pre (snd (jx1 j)) = Some (jc1 j) /\
  corshare_ok (CorShareFn (jc0 j)) /\ corshare_ok (CorShareFn (jc1 j)) /\
  draws_of (jc0 j) = S (length (result_zero c)) /\ draws_of (jc1 j) = S (length (result_zero c)) /\
  forall K pos,
    let cor := Cor_of (CorShareFn (jc0 j)) (CorShareFn (jc1 j)) in
    let v0 := OutShare K pos (jc0 j) cor in
    let v1 := OutShare K pos (jc1 j) cor in
    in_field P v0 /\ in_field P v1 /\ cong P (v0 + v1) (dotK K pos (jent j)).

Lemma Cor_of_comm a b : Cor_of a b = Cor_of b a.
Proof. unfold Cor_of. f_equal; f_equal; lia. Qed.

Lemma map2_Cor_comm : forall a b, map2 Cor_of a b = map2 Cor_of b a.
Proof.
  induction a as [|x a IH]; intros [|y b]; cbn; auto. rewrite Cor_of_comm. f_equal. auto.
Qed.

Lemma all_some_map {A B} (f : A -> option B) (g : A -> B) l :
  (forall a, In a l -> f a = Some (g a)) -> all_some (map f l) = Some (map g l).
Proof.
  induction l as [|a l IH]; intros H; cbn; auto. rewrite (H a) by (cbn; auto).
  rewrite IH by (intros; apply H; cbn; auto). reflexivity.
Qed.

Definition jv0 K pos j := OutShare K pos (jc0 j) (Cor_of (CorShareFn (jc0 j)) (CorShareFn (jc1 j))).
Definition jv1 K pos j := OutShare K pos (jc1 j) (Cor_of (CorShareFn (jc0 j)) (CorShareFn (jc1 j))).
Fixpoint outs (v : (nat -> Z) -> nat -> job -> Z) (K : nat -> Z) (d pos : nat) (js : list job) : list Z :=
  match js with [] => [] | j :: js' => v K pos j :: outs v K d (pos + d) js' end.
Fixpoint answers (K : nat -> Z) (d pos : nat) (js : list job) : list bool :=
  match js with [] => [] | j :: js' => (dotK K pos (jent j) mod P =? 0) :: answers K d (pos + d) js' end.

Lemma outs_length v K d js : forall pos, length (outs v K d pos js) = length js.
Proof. induction js; intros; cbn; auto. Qed.
Lemma answers_length K d js : forall pos, length (answers K d pos js) = length js.
Proof. induction js; intros; cbn; auto. Qed.

Lemma answers_nth K d js i b : forall pos, (i < length js)%nat ->
  exists j, nth_error js i = Some j /\ nth i (answers K d pos js) b = (dotK K (pos + i * d) (jent j) mod P =? 0).
Proof.
  revert i. induction js as [|j js IH]; intros i pos Hi; cbn in Hi; [lia|]. destruct i.
  - exists j. split; auto. cbn. now rewrite Nat.add_0_r.
  - destruct (IH i (pos + d)%nat ltac:(lia)) as (j' & E & A). exists j'. split; auto. cbn. rewrite A.
    do 3 f_equal. lia.
Qed.

Lemma out_shares_jobs c pre js : Forall (good c pre) js -> forall K pos,
  let d := S (length (result_zero c)) in
  let cors := map2 Cor_of (map CorShareFn (map jc0 js)) (map CorShareFn (map jc1 js)) in
  out_shares K pos (map jc0 js) cors = (outs jv0 K d pos js, (pos + length js * d)%nat) /\
  out_shares K pos (map jc1 js) cors = (outs jv1 K d pos js, (pos + length js * d)%nat) /\
  Forall (in_field P) (outs jv0 K d pos js) /\ Forall (in_field P) (outs jv1 K d pos js) /\
  map2 AddToZero (outs jv0 K d pos js) (outs jv1 K d pos js) = answers K d pos js /\
  map2 AddToZero (outs jv1 K d pos js) (outs jv0 K d pos js) = answers K d pos js.
Proof.
  intros H K. induction H as [|j js Hj Hjs IH]; intros pos d cors.
  - cbn. rewrite Nat.add_0_r. repeat split; constructor.
  - destruct Hj as (_ & _ & _ & _ & D0 & D1 & HV). specialize (HV K pos). cbv zeta in HV.
    destruct HV as (V0 & V1 & VS). specialize (IH (pos + d)%nat). cbv zeta in IH. fold d in IH.
    destruct IH as (I0 & I1 & I2 & I3 & I4 & I5).
    unfold cors. cbn [map map2 out_shares outs answers length].
    rewrite D0, D1. fold d. rewrite I0, I1.
    replace (pos + d + length js * d)%nat with (pos + S (length js) * d)%nat by lia.
    split; [reflexivity|]. split; [reflexivity|].
    split; [constructor; [exact V0|exact I2]|]. split; [constructor; [exact V1|exact I3]|].
    pose proof p_pos.
    assert (Q : (jv0 K pos j + jv1 K pos j) mod P = dotK K pos (jent j) mod P).
    { apply cong_iff. exact VS. }
    split; f_equal; auto; unfold AddToZero; change p with P.
    + now rewrite Q.
    + rewrite Z.add_comm. now rewrite Q.
Qed.

Lemma len_CorShare_batch x : Forall corshare_ok x -> sends_len (send_CorShare_batch x) (16 * length x).
Proof.
  intros H. unfold send_CorShare_batch.
  eapply len_eq; [eapply len_seq; apply len_fmpz_batch; apply Forall_map;
    (eapply Forall_impl; [|exact H]); intros ? [? ?]; auto|].
  rewrite !map_length. lia.
Qed.

Lemma validate_jobs c k K st0 st1 js : js <> [] -> (k <= 18)%nat ->
  NextPowerOfTwo (Z.of_nat (NumMulGates c)) = Some (Z.of_nat (2 ^ k)) ->
  synced st0 st1 ->
  Forall (good c (new_CheckerPreComp (init_roots (2 ^ k)) (2 ^ k) (randomX st0))) js ->
  rel (validate_snips false K st0 (items c (map jx0 js))) (validate_snips true K st1 (items c (map jx1 js)))
    (fun a b => fst a = answers K (S (length (result_zero c))) (seed_pos st0) js /\ fst b = fst a /\
       synced (snd a) (snd b) /\ randomX (snd a) = randomX st0 /\
       seed_pos (snd a) = (seed_pos st0 + length js * S (length (result_zero c)))%nat /\
       randx_uses (snd a) = u64 (randx_uses st0 + Z.of_nat (length js))).
Proof.
  intros NE Hk HN (OK0 & OK1 & EX & EP & EU) G.
  pose proof (pow2_pos k) as P1.
  destruct (prep_ok (2 ^ k) st0 ltac:(lia) OK0) as (u0 & G0 & U0 & X0 & C0 & S0).
  destruct (prep_ok (2 ^ k) st1 ltac:(lia) OK1) as (u1 & G1 & U1 & X1 & C1 & S1).
  rewrite <- EX in G1. set (pre := new_CheckerPreComp (init_roots (2 ^ k)) (2 ^ k) (randomX st0)) in *.
  assert (A0 : all_some (map (fun it => let '(c, req, inp) := it in new_Checker c false req pre inp)
     (items c (map jx0 js))) = Some (map jc0 js)).
  { unfold items. rewrite !map_map. apply all_some_map. intros j Hj.
    rewrite Forall_forall in G. apply (G j Hj). }
  assert (A1 : all_some (map (fun it => let '(c, req, inp) := it in new_Checker c true req pre inp)
     (items c (map jx1 js))) = Some (map jc1 js)).
  { unfold items. rewrite !map_map. apply all_some_map. intros j Hj.
    rewrite Forall_forall in G. apply (G j Hj). }
  assert (L0 : length (items c (map jx0 js)) = length js) by (unfold items; now rewrite !map_length).
  assert (L1 : length (items c (map jx1 js)) = length js) by (unfold items; now rewrite !map_length).
  unfold validate_snips.
  destruct js as [|j0 js0] eqn:Ejs; [contradiction|].
  destruct (items c (map jx0 (j0 :: js0))) as [|[[c0 ra] ia] it0] eqn:I0; [discriminate|].
  destruct (items c (map jx1 (j0 :: js0))) as [|[[c1 rb] ib] it1] eqn:I1; [discriminate|].
  assert (c0 = c) by (unfold items in I0; cbn in I0; congruence).
  assert (c1 = c) by (unfold items in I1; cbn in I1; congruence). subst c0 c1.
  rewrite <- Ejs in *. clear I0 I1 Ejs NE.
  rewrite HN, Nat2Z.id, G0, G1, A0, A1, L0, L1. cbv zeta.
  set (d := S (length (result_zero c))).
  assert (OKs : Forall corshare_ok (map CorShareFn (map jc0 js)) /\ Forall corshare_ok (map CorShareFn (map jc1 js))).
  { rewrite !map_map, !Forall_map. rewrite !Forall_forall in *. split; intros j Hj; apply (G j Hj). }
  destruct OKs as [K0 K1].
  pose proof (delivers_CorShare_batch _ K0) as M0. pose proof (len_CorShare_batch _ K0) as M0'.
  pose proof (delivers_CorShare_batch _ K1) as M1. pose proof (len_CorShare_batch _ K1) as M1'.
  assert (LC0 : length (map CorShareFn (map jc0 js)) = length js) by (now rewrite !map_length).
  assert (LC1 : length (map CorShareFn (map jc1 js)) = length js) by (now rewrite !map_length).
  rewrite LC0 in M0, M0'. rewrite LC1 in M1, M1'.
  eapply rel_fork; [exact M0|exact M0'|exact M1|exact M1'|].
  rewrite (map2_Cor_comm (map CorShareFn (map jc1 js)) (map CorShareFn (map jc0 js))).
  rewrite S0, S1, <- EP.
  destruct (out_shares_jobs c pre js G K (seed_pos st0)) as (O0 & O1 & F0 & F1 & B0 & B1). cbv zeta in *.
  rewrite O0, O1. fold d in F0, F1, B0, B1.
  fold d.
  assert (FL : forall l, Forall (in_field P) l -> Forall (fun z => 0 <= z < two64) l).
  { intros l. apply Forall_impl. intros; now apply in_field_limbs. }
  pose proof (delivers_fmpz_batch _ (FL _ F0)) as N0. pose proof (len_fmpz_batch _ (FL _ F0)) as N0'.
  pose proof (delivers_fmpz_batch _ (FL _ F1)) as N1. pose proof (len_fmpz_batch _ (FL _ F1)) as N1'.
  rewrite outs_length in N0, N0', N1, N1'.
  eapply rel_fork; [exact N0|exact N0'|exact N1|exact N1'|].
  apply rel_ret. cbn [fst snd randomX randx_uses seed_pos].
  rewrite B0, B1. split; [reflexivity|]. split; [reflexivity|]. split; [|repeat split; congruence].
  assert (OKT : forall u uses pos, snip_ok u -> snip_ok (mkSnip (randomX u) uses (precomp_store u) (num_roots u) (tables u) pos)).
  { intros u uses pos Hu. exact Hu. }
  unfold synced. cbn [randomX randx_uses seed_pos].
  repeat split; auto; try (apply OKT; auto); try congruence.
Qed.

(** ** Verdicts *)

Definition pre_of (k : nat) (r : Z) := new_CheckerPreComp (init_roots (2 ^ k)) (2 ^ k) r.

Lemma good_verdict c k r K pos j : (k <= 18)%nat ->
  NextPowerOfTwo (Z.of_nat (NumMulGates c)) = Some (Z.of_nat (2 ^ k)) ->
  good c (pre_of k r) j -> verdict c r K pos (jx0 j) (jx1 j) (dotK K pos (jent j) mod P =? 0).
Proof.
  intros Hk HN G st0 st1 HS Hr Hp. apply rel_both.
  eapply rel_imp; [apply (validate_jobs c k K st0 st1 [j]); auto; [discriminate|]|].
  - constructor; [|constructor]. rewrite Hr. exact G.
  - cbn [answers]. rewrite Hp. intros a b (E1 & E2 & _). split; congruence.
Qed.

Lemma verdict_unique c r K pos x0 x1 b b' : in_field P r ->
  verdict c r K pos x0 x1 b -> verdict c r K pos x0 x1 b' -> b = b'.
Proof.
  intros Hr H H'.
  set (st := mkSnip r 0 [] 0 (init_roots 0) pos).
  assert (OK : snip_ok st) by (unfold snip_ok; cbn; repeat split; auto; try apply Hr; contradiction).
  assert (SY : synced st st) by (unfold synced; auto).
  destruct (H st st SY eq_refl eq_refl) as (a & a' & A & E & _).
  pose proof (both_functional _ _ _ _ _ (H' st st SY eq_refl eq_refl) A) as [E' _].
  congruence.
Qed.

Lemma item_good c x0 x1 : (NumMulGates c < 2 ^ 18)%nat -> shaped c x0 -> shaped c x1 ->
  exists k f g h, (k <= 18)%nat /\ (NumMulGates c < 2 ^ k)%nat /\
  NextPowerOfTwo (Z.of_nat (NumMulGates c)) = Some (Z.of_nat (2 ^ k)) /\
  length f = (2 ^ k)%nat /\ length g = (2 ^ k)%nat /\ length h = (2 * 2 ^ k)%nat /\
  (forall i, (i < 2 ^ k)%nat ->
     cong P (peval f (nth i (roots (init_roots (2 ^ k))) 0)) (at_gate c (f0_s (fst x0) + f0_s (fst x1)) (fun m => nth (snd (fst m)) (vwires c x0 x1) 0) i) /\
     cong P (peval g (nth i (roots (init_roots (2 ^ k))) 0)) (at_gate c (g0_s (fst x0) + g0_s (fst x1)) (fun m => nth (snd m) (vwires c x0 x1) 0) i) /\
     cong P (peval h (nth i (roots (init_roots (2 ^ k))) 0)) (at_gate c (h0_s (fst x0) + h0_s (fst x1)) (fun m => nth (fst (fst m)) (vwires c x0 x1) 0) i) /\
     cong P (peval h (nth (2 * i + 1) (roots2 (init_roots (2 ^ k))) 0)) (nth i (h_points (fst x0)) 0 + nth i (h_points (fst x1)) 0)) /\
  forall r, in_field P r -> exists ck0 ck1, good c (pre_of k r)
    (mkJob x0 x1 ck0 ck1 (sigma x0 x1 f g h r :: map (fun z => nth z (vwires c x0 x1) 0) (result_zero c))).
Proof.
  intros HM S0 S1. destruct (npo2_nat _ HM) as (k & Hk & Hn & HN).
  destruct (core_checkers c x0 x1 k Hk Hn HN S0 S1) as (f & g & h & Lf & Lg & Lh & Hp & HC).
  exists k, f, g, h. repeat (split; [assumption|]). intros r Hr.
  destruct (HC r Hr) as (ck0 & ck1 & N0 & N1 & C0 & C1 & D0 & D1 & _ & _ & HV).
  exists ck0, ck1. unfold good. cbn [jx0 jx1 jc0 jc1 jent].
  repeat (split; [assumption|]). exact HV.
Qed.

Lemma zero_test x : cong P x 0 <-> (x mod P =? 0) = true.
Proof.
  rewrite cong_iff, Z.eqb_eq. now rewrite (Z.mod_small 0) by (pose proof p_pos; lia).
Qed.

Lemma verdict_exists c x0 x1 r K pos : (NumMulGates c < 2 ^ 18)%nat -> shaped c x0 -> shaped c x1 ->
  in_field P r -> exists b, verdict c r K pos x0 x1 b.
Proof.
  intros HM S0 S1 Hr.
  destruct (item_good c x0 x1 HM S0 S1) as (k & f & g & h & Hk & Hn & HN & _ & _ & _ & _ & HG).
  destruct (HG r Hr) as (ck0 & ck1 & G). eexists. exact (good_verdict c k r K pos _ Hk HN G).
Qed.

(** *** Completeness *)
Lemma honest_verdict c inps x0 x1 r K pos : wf c -> (NumMulGates c < 2 ^ 18)%nat ->
  honest c inps x0 x1 -> Eval c inps = true -> in_field P r ->
  verdict c r K pos x0 x1 true.
Proof.
  intros WF HM (LI & HS & N & T & s & s' & HN & HP) HE Hr.
  destruct (npo2_nat _ HM) as (k & Hk & Hn & HN').
  assert (N = 2 ^ k)%nat by (eapply npo2_fun; eauto). subst N. clear HN'.
  cbn [client_roots] in HP.
  destruct (honest_shaped c inps x0 x1 k Hk Hn HN LI HS T s s' HP) as [S0 S1].
  destruct (item_good c x0 x1 HM S0 S1) as (k' & f & g & h & Hk' & _ & HN' & Lf & Lg & Lh & Hp & HG).
  assert (2 ^ k = 2 ^ k')%nat by (exact (npo2_fun _ _ _ HN HN')).
  assert (k = k') by (apply Nat.pow_inj_r with (a := 2%nat); auto with arith). subst k'. clear HN' Hk' H.
  pose proof (honest_core c inps x0 x1 k Hk Hn HN LI HS T s s' HP f g h WF HE Lf Lg Lh Hp r) as F.
  destruct (HG r Hr) as (ck0 & ck1 & G).
  pose proof (good_verdict c k r K pos _ Hk HN G) as V. cbn [jx0 jx1 jent] in V.
  rewrite (proj1 (zero_test _) (dotK_zero K _ F pos)) in V. exact V.
Qed.

Lemma honest_shape c inps x0 x1 : (NumMulGates c < 2 ^ 18)%nat -> honest c inps x0 x1 -> shaped c x0 /\ shaped c x1.
Proof.
  intros HM (LI & HS & N & T & s & s' & HN & HP).
  destruct (npo2_nat _ HM) as (k & Hk & Hn & HN').
  assert (N = 2 ^ k)%nat by (eapply npo2_fun; eauto). subst N.
  exact (honest_shaped c inps x0 x1 k Hk Hn HN LI HS T s s' HP).
Qed.

(** *** Soundness *)
Lemma sound_verdict c x0 x1 N : wf c -> (NumMulGates c < 2 ^ 18)%nat -> shaped c x0 -> shaped c x1 ->
  NextPowerOfTwo (Z.of_nat (NumMulGates c)) = Some (Z.of_nat N) ->
  Eval c (opened x0 x1) = false ->
  exists bad, (length bad <= 2 * N)%nat /\ forall r, in_field P r -> ~ In r bad ->
    exists j, (j <= length (result_zero c))%nat /\
      forall K K' pos, differ_only_at (pos + j) K K' ->
        ~ (verdict c r K pos x0 x1 true /\ verdict c r K' pos x0 x1 true).
Proof.
  intros WF HM S0 S1 HN' HE.
  destruct (item_good c x0 x1 HM S0 S1) as (k & f & g & h & Hk & Hn & HN & Lf & Lg & Lh & Hp & HG).
  assert (N = 2 ^ k)%nat by (eapply npo2_fun; eauto). subst N. clear HN'.
  destruct (sound_core c x0 x1 k f g h WF Hk Hn S0 S1 HE Lf Lg Lh) as (bad & LB & HB).
  { intros i Hi. destruct (Hp i Hi) as (A & B & C & _). auto. }
  exists bad. split; auto. intros r Hr Hnb. destruct (HB r Hr Hnb) as (j & Hj & Nz).
  exists j. split; auto. intros K K' pos HD [V V'].
  destruct (HG r Hr) as (ck0 & ck1 & G).
  pose proof (good_verdict c k r K pos _ Hk HN G) as W. pose proof (good_verdict c k r K' pos _ Hk HN G) as W'.
  cbn [jx0 jx1 jent] in W, W'.
  pose proof (verdict_unique _ _ _ _ _ _ _ _ Hr V W) as E. pose proof (verdict_unique _ _ _ _ _ _ _ _ Hr V' W') as E'.
  symmetry in E, E'. apply zero_test in E, E'.
  refine (dotK_differ K K' _ j _ Nz pos HD E E').
  cbn [length]. rewrite map_length. lia.
Qed.

(** *** Batches *)
Lemma jobs_exist c k r : forall xs0 xs1, (NumMulGates c < 2 ^ 18)%nat ->
  NextPowerOfTwo (Z.of_nat (NumMulGates c)) = Some (Z.of_nat (2 ^ k)) -> (k <= 18)%nat ->
  in_field P r -> length xs0 = length xs1 -> Forall (shaped c) xs0 -> Forall (shaped c) xs1 ->
  exists js, map jx0 js = xs0 /\ map jx1 js = xs1 /\ Forall (good c (pre_of k r)) js.
Proof.
  induction xs0 as [|x0 xs0 IH]; intros [|x1 xs1] HM HN Hk Hr L F0 F1; try discriminate.
  - exists []. repeat split; auto.
  - inversion F0 as [|? ? A0 B0]; inversion F1 as [|? ? A1 B1]; subst.
    destruct (IH xs1 HM HN Hk Hr ltac:(cbn in L; congruence) B0 B1) as (js & E0 & E1 & G).
    destruct (item_good c x0 x1 HM A0 A1) as (k' & f & g & h & Hk' & _ & HN' & _ & _ & _ & _ & HG).
    assert (2 ^ k = 2 ^ k')%nat by (exact (npo2_fun _ _ _ HN HN')).
    assert (k = k') by (apply Nat.pow_inj_r with (a := 2%nat); auto with arith). subst k'.
    destruct (HG r Hr) as (ck0 & ck1 & GG). eexists (_ :: js). cbn [map jx0 jx1].
    split; [|split; [|constructor; [exact GG|exact G]]]; cbn [jx0 jx1]; congruence.
Qed.

Lemma batch_verdicts c K st0 st1 xs0 xs1 d0 d1 : (NumMulGates c < 2 ^ 18)%nat -> synced st0 st1 ->
  xs0 <> [] -> length xs0 = length xs1 -> Forall (shaped c) xs0 -> Forall (shaped c) xs1 ->
  let w := S (length (result_zero c)) in
  rel (validate_snips false K st0 (items c xs0)) (validate_snips true K st1 (items c xs1))
    (fun a b => fst a = fst b /\ length (fst a) = length xs0 /\
       synced (snd a) (snd b) /\ randomX (snd a) = randomX st0 /\
       seed_pos (snd a) = (seed_pos st0 + length xs0 * w)%nat /\
       randx_uses (snd a) = u64 (randx_uses st0 + Z.of_nat (length xs0)) /\
       forall i, (i < length xs0)%nat ->
         verdict c (randomX st0) K (seed_pos st0 + i * w) (nth i xs0 d0) (nth i xs1 d1) (nth i (fst a) false)).
Proof.
  intros HM SY NE L F0 F1 w. pose proof SY as ((Hr & _) & _).
  destruct (npo2_nat _ HM) as (k & Hk & Hn & HN).
  destruct (jobs_exist c k (randomX st0) xs0 xs1 HM HN Hk Hr L F0 F1) as (js & <- & <- & G).
  assert (js <> []) by (intros ->; auto). rewrite map_length in *.
  eapply rel_imp; [apply (validate_jobs c k K st0 st1 js); auto|]. cbv beta.
  intros a b (E1 & E2 & Y & X & Q & U). rewrite E2. repeat (split; [first [assumption|now rewrite E1, answers_length|reflexivity]|]).
  intros i Hi. rewrite E1.
  destruct (answers_nth K w js i false (seed_pos st0) Hi) as (j & Ej & Ea). fold w. rewrite Ea.
  rewrite !(nth_error_nth (map _ js) i _ (map_nth_error _ _ _ Ej)).
  apply (good_verdict c k); auto. rewrite Forall_forall in G. apply G. eapply nth_error_In; eauto.
Qed.

(** ** Refreshing the challenge point *)

Lemma degN_current x e : pre_current x e ->
  degN (snd e) = poly_batch_precomp_init P (fst e) (roots (init_roots (fst e))) /\
  deg2N (snd e) = poly_batch_precomp_init P (2 * fst e) (roots2 (init_roots (fst e))).
Proof. intros H. unfold pre_current in H. rewrite H. split; reflexivity. Qed.

Lemma refresh_ok st x : snip_ok st -> in_field P x ->
  snip_ok (mkSnip x 0
     (map (fun e => (fst e, setCheckerPrecomp (degN (snd e)) (deg2N (snd e)) x)) (precomp_store st))
     (num_roots st) (tables st) (seed_pos st)).
Proof.
  intros (_ & Fp & Ft) Hx. unfold snip_ok. cbn [randomX precomp_store num_roots tables].
  split; [exact Hx|]. split; [|exact Ft].
  rewrite Forall_map. eapply Forall_impl; [|exact Fp]. intros e He. unfold pre_current. cbn [fst snd].
  destruct (degN_current _ _ He) as [-> ->]. reflexivity.
Qed.

Lemma rel_deliver_end' {A B} s (r : proc A) x (b : B) (R : A -> B -> Prop) :
  delivers s r x -> R x b -> rel r (s ;;; Ret b) R.
Proof.
  intros (bs & E & F) H. exists x, b. split; auto.
  eapply conv_feed_emit; [apply emits_bind_ret; exact E|].
  specialize (F []). rewrite app_nil_r in F. exact F.
Qed.

Lemma sync_rel r0 r : rel (sync_randomX false r0) (sync_randomX true r) (fun a b => a = b /\ b = r mod P).
Proof.
  unfold sync_randomX. cbv zeta. eapply rel_deliver_end'.
  - apply delivers_fmpz, field_limbs, Z.mod_pos_bound, p_pos.
  - split; reflexivity.
Qed.

Lemma refresh_rel r0 r st0 st1 : synced st0 st1 ->
  rel (refresh_randomX false r0 st0) (refresh_randomX true r st1)
    (fun a b => synced a b /\ seed_pos a = seed_pos st0 /\
       if 1000000 <? randx_uses st0 then randomX a = r mod P /\ randx_uses a = 0
       else a = st0 /\ b = st1).
Proof.
  intros SY. pose proof SY as (OK0 & OK1 & EX & EP & EU). unfold refresh_randomX. rewrite <- EU.
  destruct (1000000 <? randx_uses st0).
  - eapply rel_bind; [apply sync_rel|]. cbv beta. intros a b [-> ->].
    assert (in_field P (r mod P)) by (apply Z.mod_pos_bound, p_pos).
    apply rel_ret. split; [|split; [reflexivity|split; reflexivity]].
    unfold synced. cbn [randomX randx_uses seed_pos].
    split; [now apply refresh_ok|]. split; [now apply refresh_ok|]. auto.
  - apply rel_ret. auto.
Qed.

(** ** Masking *)

Lemma sub_solve a x y : in_field P a -> in_field P y -> ((x - a) mod P = y <-> a = (x - y) mod P).
Proof.
  intros Ha Hy. pose proof p_pos. split; intros E.
  - rewrite <- E. apply (cong_small P); auto; [apply Z.mod_pos_bound; lia|]. demod. cong_ring.
  - rewrite E. apply (cong_small P); auto; [apply Z.mod_pos_bound; lia|]. demod. cong_ring.
Qed.

Lemma sub_mod_mod a x y : ((x mod a) - y) mod a = (x - y) mod a.
Proof. apply Zminus_mod_idemp_l. Qed.

Lemma triple_of_eq q : draws_in_field q ->
  triple_of q = (mkBTS (drA q) (drB q) (drC q),
    mkBTS ((dA q - drA q) mod P) ((dB q - drB q) mod P) ((dA q * dB q - drC q) mod P)).
Proof.
  intros (A & B & C & D & E). unfold triple_of, BeaverTripleShares, NewBeaverTriple, SplitShare, fmpz_randm.
  cbn [bt_A bt_B bt_C]. change p with P in *.
  rewrite (Z.mod_small (dA q)), (Z.mod_small (dB q)), (Z.mod_small (drA q)), (Z.mod_small (drB q)),
    (Z.mod_small (drC q)) by auto. now rewrite sub_mod_mod.
Qed.

Lemma checker_triple c s x t pre ck : new_Checker c s (fst x) pre (snd x) = Some ck ->
  new_Checker c s (fst (with_triple x t)) pre (snd (with_triple x t)) =
    Some (mkChecker s (fst (with_triple x t)) c (ck_wires ck) (evalF ck) (evalG ck) (evalH ck)).
Proof.
  unfold new_Checker, with_triple. cbn [fst snd MulShares h_points].
  destruct (NextPowerOfTwo _); [|discriminate].
  destruct (_ || _); [discriminate|].
  intros E. injection E as <-. reflexivity.
Qed.

Lemma opening_masked c x0 x1 r : (NumMulGates c < 2 ^ 18)%nat -> shaped c x0 -> shaped c x1 -> in_field P r ->
  exists F G, forall q cor, draws_in_field q ->
    (opening c r (with_triple x0 (fst (triple_of q))) (with_triple x1 (snd (triple_of q))) cor <->
     cor = mkCor ((F - dA q) mod P) ((G - dB q) mod P)).
Proof.
  intros HM S0 S1 Hr. destruct (npo2_nat _ HM) as (k & Hk & Hn & HN).
  destruct (core_checkers c x0 x1 k Hk Hn HN S0 S1) as (f & g & h & _ & _ & _ & _ & HC).
  destruct (HC r Hr) as (ck0 & ck1 & N0 & N1 & _).
  exists (evalF ck0 + evalF ck1), (evalG ck0 + evalG ck1). intros q cor Hq.
  rewrite (triple_of_eq q Hq). cbn [fst snd].
  assert (EQ : Cor_of (CorShareFn (mkChecker false (fst (with_triple x0 (mkBTS (drA q) (drB q) (drC q)))) c (ck_wires ck0) (evalF ck0) (evalG ck0) (evalH ck0)))
     (CorShareFn (mkChecker true (fst (with_triple x1 (mkBTS ((dA q - drA q) mod P) ((dB q - drB q) mod P) ((dA q * dB q - drC q) mod P)))) c (ck_wires ck1) (evalF ck1) (evalG ck1) (evalH ck1))) =
     mkCor ((evalF ck0 + evalF ck1 - dA q) mod P) ((evalG ck0 + evalG ck1 - dB q) mod P)).
  { unfold CorShareFn, Cor_of, with_triple. cbn [fst ck_req triple_share shareA shareB shareD shareE evalF evalG].
    change p with P. generalize (evalF ck0) (evalF ck1) (evalG ck0) (evalG ck1). intros. pose proof p_pos.
    f_equal; apply cong_mod_eq; try lia; demod; cong_ring. }
  split.
  - intros (N & c0 & c1 & HN' & C0 & C1 & ->). cbv zeta in *.
    assert (N = 2 ^ k)%nat by (eapply npo2_fun; eauto). subst N.
    rewrite (checker_triple _ _ _ _ _ _ N0) in C0. rewrite (checker_triple _ _ _ _ _ _ N1) in C1.
    injection C0 as <-. injection C1 as <-. exact EQ.
  - intros ->. exists (2 ^ k)%nat. do 2 eexists. split; [exact HN|]. cbv zeta.
    split; [apply (checker_triple _ _ _ _ _ _ N0)|]. split; [apply (checker_triple _ _ _ _ _ _ N1)|].
    now rewrite EQ.
Qed.

Lemma opening_uniform c x0 x1 r (server : bool) t D E : (NumMulGates c < 2 ^ 18)%nat -> shaped c x0 -> shaped c x1 ->
  in_field P r -> in_field P (shareA t) -> in_field P (shareB t) -> in_field P (shareC t) ->
  in_field P D -> in_field P E ->
  exists q, draws_in_field q /\
    forall q', draws_in_field q' ->
      ((if server then snd (triple_of q') else fst (triple_of q')) = t /\
       opening c r (with_triple x0 (fst (triple_of q'))) (with_triple x1 (snd (triple_of q'))) (mkCor D E)
       <-> q' = q).
Proof.
  intros HM S0 S1 Hr Ha Hb Hc HD HE.
  destruct (opening_masked c x0 x1 r HM S0 S1 Hr) as (F & G & HO).
  assert (FM : forall z, in_field P (z mod P)) by (intros; apply Z.mod_pos_bound, p_pos).
  set (A := (F - D) mod P). set (B := (G - E) mod P).
  exists (if server then mkDraws A B ((A - shareA t) mod P) ((B - shareB t) mod P) ((A * B - shareC t) mod P)
          else mkDraws A B (shareA t) (shareB t) (shareC t)).
  split; [unfold draws_in_field; destruct server; cbn; unfold A, B; auto 10|].
  intros q' Hq'. rewrite (HO q' _ Hq'), (triple_of_eq q' Hq'). cbn [fst snd].
  pose proof Hq' as (QA & QB & QC & QD & QE).
  transitivity ((if server then mkBTS ((dA q' - drA q') mod P) ((dB q' - drB q') mod P) ((dA q' * dB q' - drC q') mod P)
                 else mkBTS (drA q') (drB q') (drC q')) = t /\ dA q' = A /\ dB q' = B).
  { apply and_iff_compat_l. split.
    - intros H. injection H as H1 H2. symmetry in H1, H2.
      apply sub_solve in H1; auto. apply sub_solve in H2; auto.
    - intros [H1 H2]. f_equal; symmetry; apply sub_solve; auto. }
  destruct t as [ta tb tc], q' as [a b ra rb rc]. cbn [dA dB drA drB drC shareA shareB shareC] in *.
  clearbody A B. destruct server; split.
  - intros (H & -> & ->). injection H as H1 H2 H3.
    apply sub_solve in H1; auto. apply sub_solve in H2; auto. apply sub_solve in H3; auto. congruence.
  - intros H. injection H as -> -> H1 H2 H3. apply sub_solve in H1; auto. apply sub_solve in H2; auto.
    apply sub_solve in H3; auto. split; auto. congruence.
  - intros (H & -> & ->). congruence.
  - intros H. injection H as -> -> -> -> ->. auto.
Qed.

(** ** Histories *)

Lemma session_rel K : forall bs st0 st1, Forall batch_ok bs -> synced st0 st1 ->
  0 <= randx_uses st0 < 2 ^ 63 ->
  rel (session false K bs st0) (session true K bs st1)
    (fun a b => fst a = fst b /\ synced (snd a) (snd b) /\
       points_ok K (randomX st0) (randx_uses st0) (seed_pos st0) bs (fst a)).
Proof.
  induction bs as [|b bs IH]; intros st0 st1 HB SY HU; cbn [session].
  - apply rel_ret. cbn. auto.
  - inversion HB as [|? ? (HM & NE & L & LB & F0 & F1) HB']; subst.
    eapply rel_bind; [apply (refresh_rel (h_draw b) (h_draw b) st0 st1 SY)|].
    cbv beta. intros u0 u1 (SY' & EP & HR).
    eapply rel_bind.
    { refine (batch_verdicts (h_ckt b) K u0 u1 (h_xs0 b) (h_xs1 b) (nth 0 (h_xs0 b) (mkPacket [] 0 0 0 [] (mkBTS 0 0 0), []))
       (nth 0 (h_xs1 b) (mkPacket [] 0 0 0 [] (mkBTS 0 0 0), [])) HM SY' NE L F0 F1). }
    cbv beta zeta. intros v0 v1 (EV & LV & SY2 & EX & EP2 & EU & HV).
    assert (HU' : 0 <= randx_uses u0 <= 1000000).
    { destruct (Z.ltb_spec 1000000 (randx_uses st0)); destruct HR as [R1 R2]; [lia|subst; lia]. }
    assert (EU' : randx_uses (snd v0) = randx_uses u0 + Z.of_nat (length (h_xs0 b))).
    { rewrite EU. unfold u64. apply Z.mod_small. change (2 ^ 64) with 18446744073709551616. change (2 ^ 32) with 4294967296 in LB. unfold two64. lia. }
    eapply rel_bind.
    { apply (IH (snd v0) (snd v1) HB' SY2). rewrite EU'. change (2 ^ 63) with 9223372036854775808.
      change (2 ^ 32) with 4294967296 in LB. lia. }
    cbv beta. intros w0 w1 (EW & SY3 & PO). apply rel_ret. cbn [fst snd].
    pose proof SY' as (_ & _ & EX' & _).
    split; [congruence|]. split; [exact SY3|]. cbn [points_ok].
    exists (randx_uses u0). split.
    { destruct (Z.ltb_spec 1000000 (randx_uses st0)); destruct HR as [R1 R2]; [left|right]; subst; auto. }
    split; [lia|]. split; [exact LV|]. split.
    + intros i x0 x1 E0 E1. specialize (HV i). rewrite EP in HV.
      rewrite (nth_error_nth _ _ _ E0), (nth_error_nth _ _ _ E1) in HV. apply HV.
      apply nth_error_Some. congruence.
    + rewrite <- EP, <- EU', <- EX, <- EP2. exact PO.
Qed.

(** ** Forging a proof for a known challenge point *)

Lemma forge c x0 x1 r : (NumMulGates c < 2 ^ 18)%nat -> shaped c x0 -> shaped c x1 ->
  Forall (fun z => cong P (nth z (vwires c x0 x1) 0) 0) (result_zero c) -> in_field P r ->
  exists C, in_field P C /\ forall K pos,
    verdict c r K pos (with_triple x0 (mkBTS 0 0 C)) (with_triple x1 (mkBTS 0 0 0)) true.
Proof.
  intros HM S0 S1 HZ Hr.
  destruct (item_good c x0 x1 HM S0 S1) as (k & f & g & h & Hk & Hn & HN & Lf & Lg & Lh & Hp & _).
  set (C := (- (r * (peval f r * peval g r - peval h r))) mod P). exists C.
  split; [apply Z.mod_pos_bound, p_pos|]. intros K pos.
  set (y0 := with_triple x0 (mkBTS 0 0 C)). set (y1 := with_triple x1 (mkBTS 0 0 0)).
  assert (T0 : shaped c y0) by exact S0. assert (T1 : shaped c y1) by exact S1.
  destruct (item_good c y0 y1 HM T0 T1) as (k' & f' & g' & h' & Hk' & _ & HN' & Lf' & Lg' & Lh' & Hp' & HG).
  assert (2 ^ k = 2 ^ k')%nat by (exact (npo2_fun _ _ _ HN HN')).
  assert (k = k') by (apply Nat.pow_inj_r with (a := 2%nat); auto with arith). subst k'. clear HN' Hk' H.
  change (vwires c y0 y1) with (vwires c x0 x1) in *.
  change (f0_s (fst y0)) with (f0_s (fst x0)) in *. change (f0_s (fst y1)) with (f0_s (fst x1)) in *.
  change (g0_s (fst y0)) with (g0_s (fst x0)) in *. change (g0_s (fst y1)) with (g0_s (fst x1)) in *.
  change (h0_s (fst y0)) with (h0_s (fst x0)) in *. change (h0_s (fst y1)) with (h0_s (fst x1)) in *.
  change (h_points (fst y0)) with (h_points (fst x0)) in *. change (h_points (fst y1)) with (h_points (fst x1)) in *.
  destruct (tables_lemma k Hk) as (ND1 & ND2 & L1 & _ & L2 & FF & _). cbv zeta in *.
  apply Forall_app in FF as [F1 FF]. apply Forall_app in FF as [_ F2].
  pose proof (roots2_even k) as RE.
  set (R := roots (init_roots (2 ^ k))) in *. set (R2 := roots2 (init_roots (2 ^ k))) in *.
  pose proof (nodup_distinct P R ND1 F1) as D1. pose proof (nodup_distinct P R2 ND2 F2) as D2.
  assert (NIn : forall (l : list Z) x n, length l = n -> In x l -> exists i, (i < n)%nat /\ x = nth i l 0).
  { intros l x n <- Hx. apply (In_nth _ _ 0) in Hx as (i & Hi & <-). eauto. }
  pose proof (pow2_pos k) as P1.
  assert (EF : cong P (peval f' r) (peval f r)).
  { apply (poly_unique P modulus_prime R); auto; try lia.
    intros x Hx. destruct (NIn _ _ _ L1 Hx) as (i & Hi & ->).
    destruct (Hp i Hi) as (-> & _). destruct (Hp' i Hi) as (-> & _). reflexivity. }
  assert (EG : cong P (peval g' r) (peval g r)).
  { apply (poly_unique P modulus_prime R); auto; try lia.
    intros x Hx. destruct (NIn _ _ _ L1 Hx) as (i & Hi & ->).
    destruct (Hp i Hi) as (_ & -> & _). destruct (Hp' i Hi) as (_ & -> & _). reflexivity. }
  assert (EH : cong P (peval h' r) (peval h r)).
  { apply (poly_unique P modulus_prime R2); auto; try lia.
    intros x Hx. destruct (NIn _ _ _ L2 Hx) as (i & Hi & ->).
    destruct (Nat.Even_or_Odd i) as [[j Hj]|[j Hj]]; subst i; assert (Hj : (j < 2 ^ k)%nat) by lia.
    - rewrite RE by auto. destruct (Hp j Hj) as (_ & _ & -> & _). destruct (Hp' j Hj) as (_ & _ & -> & _).
      reflexivity.
    - destruct (Hp j Hj) as (_ & _ & _ & ->). destruct (Hp' j Hj) as (_ & _ & _ & ->). reflexivity. }
  destruct (HG r Hr) as (ck0 & ck1 & G).
  pose proof (good_verdict c k r K pos _ Hk HN G) as V. cbn [jx0 jx1 jent] in V.
  assert (Z : cong P (dotK K pos (sigma y0 y1 f' g' h' r :: map (fun z => nth z (vwires c x0 x1) 0) (result_zero c))) 0).
  { apply dotK_zero. constructor.
    - unfold sigma, y0, y1, with_triple. cbn [fst triple_share shareA shareB shareC].
      rewrite EF, EG, EH. unfold C. demod. cong_ring.
    - now apply Forall_map. }
  apply zero_test in Z. rewrite Z in V. exact V.
Qed.
