(** What a server receives while converting shares and checking proofs of validity. *)
From Coq Require Import ZArith List Bool Lia Permutation.
From Verif Require Import Words WordsFacts Cong Constants Share SpecShare Proc ProcFacts Net NetFacts SpecNet NetMsg RelFacts OT OTFacts
  SpecHide HideFacts Correlated MpcFacts Poly SpecPoly FieldFacts Circuit SpecCircuit CircuitFacts Snip SpecSnip SnipFacts SnipBatch
  ServerOps SpecServer ServerFacts ClientOps ClientFacts SnipSums StatProps SpecSecret SecretProof SpecPrivacy ViewFacts PrivacyFacts.
Import ListNotations.
Open Scope Z_scope.
Local Notation P := Int_Modulus.
Opaque Int_Modulus Int_Gen init_roots.
Arguments Z.mul : simpl never.
Arguments Z.add : simpl never.
Arguments Z.modulo : simpl never.

(** ** Exchanges *)
Lemma log_fork {A B A' B'} s0 s1 n0 n1 (r0 : proc A) (r1 : proc B) x0 x1 (k : A -> proc A') (k' : B -> proc B') log u w :
  delivers s0 r1 x0 -> sends_len s0 n1 -> delivers s1 r0 x1 -> sends_len s1 n0 ->
  conv (logged (log ++ sent_by s1) (k x1)) (k' x0) u w ->
  conv (logged log (bind (fork_xchg s0 n0 r0) k)) (bind (fork_xchg s1 n1 r1) k') u w.
Proof.
  intros (b0 & E0 & F0) (c0 & G0 & L0) (b1 & E1 & F1) (c1 & G1 & L1) H.
  unfold fork_xchg. rewrite (SnipFacts.emits_sent _ _ _ E0), (SnipFacts.emits_sent _ _ _ E1). cbn [bind logged].
  rewrite (ViewFacts.emits_sent _ _ _ E1) in H.
  destruct (emits_det _ _ _ _ _ E0 G0) as [<- _]. destruct (emits_det _ _ _ _ _ E1 G1) as [<- _].
  eapply runs_trans; [apply runs_xchg; eassumption|]. cbv beta.
  specialize (F0 []). specialize (F1 []). rewrite app_nil_r in F0, F1. rewrite F0, F1. exact H.
Qed.

(** ** Conversion of the shares *)
Definition own_rows (nbs : list nat) (rnd : nat -> Z) (rows : list (list Z)) : list (list Z) :=
  snd (intsum_send_rows P rnd nbs (combine (map (map u64) rows) (map (fun _ => true) rows)) 0).
Definition read_rows (nbs : list nat) (n : nat) (M : list Z) : list (list Z) :=
  map (fun rr => map (intsum_recv_acc P) (pieces nbs rr)) (chunks n (OT.total nbs) M).
(** The messages of the transfer. *)
Definition transfer (nbs : list nat) (rnd : nat -> Z) (rows0 rows1 : list (list Z)) : list Z :=
  seen_of (intsum_choices nbs (map (map u64) rows1))
    (intsum_ot_sender false rnd (map (map u64) rows0) (map (fun _ => true) rows0) nbs P).

Definition rows_ok (nbs : list nat) (rows : list (list Z)) : Prop :=
  Forall (fun r => length r = length nbs) rows /\ Forall (Forall limbs_ok) rows.
Transparent Int_Modulus.
Lemma P_mod_ok : mod_ok P. Proof. right. vm_compute. split; reflexivity. Qed.
Lemma P_ot_modulus : ot_modulus P = P. Proof. reflexivity. Qed.
Opaque Int_Modulus.

Lemma recv_bits_length : forall n z, length (intsum_recv_bits n z) = n.
Proof. induction n; intros; cbn; auto. Qed.
Lemma choices_length nbs rows : Forall (fun r => length r = length nbs) rows ->
  length (intsum_choices nbs rows) = (length rows * OT.total nbs)%nat.
Proof.
  intros F. unfold intsum_choices. induction F as [|r rows Hr F IH]; [reflexivity|].
  cbn [map concat length]. rewrite app_length, IH. rewrite Nat.mul_succ_l, Nat.add_comm. f_equal.
  clear -Hr. revert r Hr. unfold OT.total. induction nbs as [|nb nbs IH]; intros [|z r] L; cbn in *; try lia.
  rewrite app_length, recv_bits_length, IH by lia. reflexivity.
Qed.

Section Convert.
  Variables (nbs : list nat) (rnd0 rnd1 : nat -> Z) (x0 x1 : list (list Z)).
  Hypothesis HW : Forall (width_ok P) nbs.
  Hypothesis HL : length x0 = length x1.
  Hypothesis H0 : rows_ok nbs x0.
  Hypothesis H1 : rows_ok nbs x1.
  Let M := transfer nbs rnd0 x0 x1.
  Let o0 := own_rows nbs rnd0 x0.
  Let o1 := read_rows nbs (length x1) M.

  Lemma convert_views :
    (forall log, conv (logged log (b2a_ot false rnd0 nbs x0 P)) (b2a_ot true rnd1 nbs x1 P) (log, o0) o1) /\
    (forall log, conv (logged log (b2a_ot true rnd1 nbs x1 P)) (b2a_ot false rnd0 nbs x0 P) (log ++ M, o1) o0) /\
    length o0 = length x0 /\ length o1 = length x0 /\
    Forall (fun r => length r = length nbs) o0 /\ Forall (fun r => length r = length nbs) o1 /\
    Forall (Forall (in_field P)) o0 /\ Forall (Forall (in_field P)) o1 /\
    map2 (map2 (fun a b => (a + b) mod P)) o0 o1 = map2 (opened_row nbs) x0 x1.
  Proof.
    destruct H0 as [F0 B0], H1 as [F1 B1].
    destruct (b2a_ot_rel rnd0 rnd1 nbs x0 x1 P P_mod_ok HW HL F0 F1 B0 B1)
      as (a & b & C & Q).
    rewrite P_ot_modulus in Q.
    enough (E : (forall log, conv (logged log (b2a_ot false rnd0 nbs x0 P)) (b2a_ot true rnd1 nbs x1 P) (log, o0) o1) /\
      (forall log, conv (logged log (b2a_ot true rnd1 nbs x1 P)) (b2a_ot false rnd0 nbs x0 P) (log ++ M, o1) o0)).
    { split; [apply E|]. split; [apply E|]. destruct E as [E _].
      pose proof (conv_unlog _ _ _ _ (E [])) as C'. cbn [snd] in C'.
      destruct (always_functional _ _ _ _ _ _ (conv_always _ _ _ _ C) (conv_always _ _ _ _ C')) as [-> ->]. exact Q. }
    clear C Q a b.
    assert (U : forall x, Forall (fun r => length r = length nbs) x -> Forall (fun r => length r = length nbs) (map (map u64) x)).
    { intros x H. apply Forall_map. eapply Forall_impl; [|exact H]. intros r. now rewrite map_length. }
    set (rows := combine (map (map u64) x0) (map (fun _ => true) x0)).
    destruct (rows_form P rnd0 nbs P_mod_ok HW rows 0) as (BF & LF & _).
    { apply Forall_forall. intros [r v] Hr. apply in_combine_l in Hr. apply U in F0. rewrite Forall_forall in F0. now apply F0. }
    assert (LR : length rows = length x0) by (unfold rows; rewrite combine_length, !map_length; apply Nat.min_id).
    set (cs := intsum_choices nbs (map (map u64) x1)).
    assert (LC : length cs = (length x1 * OT.total nbs)%nat) by (unfold cs; rewrite choices_length by auto; now rewrite map_length).
    assert (LM : length (fst (intsum_send_rows P rnd0 nbs rows 0)) = length cs).
    { rewrite BF, map2_length, seq_length, LF, LR, LC, HL. apply Nat.min_id. }
    assert (EMs : M = map2 ot_select cs (fst (intsum_send_rows P rnd0 nbs rows 0))).
    { unfold M, transfer, seen_of, intsum_ot_sender. rewrite (width_ok_64 _ _ HW). fold rows.
      destruct (intsum_send_rows P rnd0 nbs rows 0). reflexivity. }
    unfold b2a_ot, intsum_ot_sender, intsum_ot_receiver. rewrite (width_ok_64 _ _ HW). fold rows cs.
    assert (Eo : o0 = snd (intsum_send_rows P rnd0 nbs rows 0)) by reflexivity.
    destruct (intsum_send_rows P rnd0 nbs rows 0) as [msgs ret]. cbn [fst snd] in *. rewrite Eo.
    set (f := fun r => map (fun rr => map (intsum_recv_acc P) (pieces nbs rr)) (chunks (length (map (map u64) x1)) (OT.total nbs) r)).
    assert (Eo1 : o1 = f (map2 ot_select cs msgs)) by (unfold o1, f, read_rows; now rewrite map_length, <- EMs).
    assert (X : forall log, conv (logged log (OTRecv false cs (fun r => Ret (f r)))) (OTSend false msgs (Ret ret)) (log ++ M, o1) ret).
    { intros log. rewrite EMs, Eo1. now apply log_ot_recv. }
    split; [|exact X]. intros log.
    pose proof (conv_swap _ _ _ _ (conv_unlog _ _ _ _ (X []))) as K. cbn [snd] in K.
    now destruct (log_ot_send _ _ _ _ _ _ log K) as [_ K'].
  Qed.
End Convert.

(** ** Checking a batch *)
Definition after (c : circuit) (n : nat) (st : snip_state) : snip_state :=
  let N := points_of c in let u := snd (getPrecomp N (init_roots_if N st)) in
  mkSnip (randomX u) (u64 (randx_uses u + Z.of_nat n)) (precomp_store u) (num_roots u) (tables u)
    (seed_pos st + n * S (length (result_zero c)))%nat.

Lemma validate_views c k K st0 st1 js : js <> [] -> (k <= 18)%nat ->
  NextPowerOfTwo (Z.of_nat (NumMulGates c)) = Some (Z.of_nat (2 ^ k)) -> synced st0 st1 ->
  Forall (good c (new_CheckerPreComp (init_roots (2 ^ k)) (2 ^ k) (randomX st0))) js ->
  let d := S (length (result_zero c)) in let pos := seed_pos st0 in
  let p0 := validate_snips false K st0 (items c (map jx0 js)) in
  let p1 := validate_snips true K st1 (items c (map jx1 js)) in
  (forall log, conv (logged log p0) p1
    ((log ++ sent_by (send_CorShare_batch (map CorShareFn (map jc1 js)))) ++ sent_by (send_fmpz_batch (outs jv1 K d pos js)),
     (answers K d pos js, after c (length js) st0)) (answers K d pos js, after c (length js) st1)) /\
  (forall log, conv (logged log p1) p0
    ((log ++ sent_by (send_CorShare_batch (map CorShareFn (map jc0 js)))) ++ sent_by (send_fmpz_batch (outs jv0 K d pos js)),
     (answers K d pos js, after c (length js) st1)) (answers K d pos js, after c (length js) st0)).
Proof.
  intros NE Hk HN (OK0 & OK1 & EX & EP & EU) G d pos p0 p1.
  pose proof (pow2_pos k) as P1.
  destruct (prep_ok (2 ^ k) st0 ltac:(lia) OK0) as (u0 & G0 & U0 & X0 & C0 & S0).
  destruct (prep_ok (2 ^ k) st1 ltac:(lia) OK1) as (u1 & G1 & U1 & X1 & C1 & S1).
  assert (PO : points_of c = (2 ^ k)%nat) by (unfold points_of; now rewrite HN, Nat2Z.id).
  assert (AF0 : after c (length js) st0 = mkSnip (randomX u0) (u64 (randx_uses u0 + Z.of_nat (length js))) (precomp_store u0) (num_roots u0) (tables u0) (pos + length js * d)%nat).
  { unfold after. rewrite PO, G0. reflexivity. }
  assert (AF1 : after c (length js) st1 = mkSnip (randomX u1) (u64 (randx_uses u1 + Z.of_nat (length js))) (precomp_store u1) (num_roots u1) (tables u1) (pos + length js * d)%nat).
  { unfold after, pos. rewrite PO, G1, EP. reflexivity. }
  rewrite AF0, AF1.
  rewrite <- EX in G1. set (pre := new_CheckerPreComp (init_roots (2 ^ k)) (2 ^ k) (randomX st0)) in *.
  assert (A0 : all_some (map (fun it => let '(c, req, inp) := it in new_Checker c false req pre inp)
     (items c (map jx0 js))) = Some (map jc0 js)).
  { unfold items. rewrite !map_map. apply all_some_map. intros j Hj.
    rewrite Forall_forall in G. apply (G j Hj). }
  assert (A1 : all_some (map (fun it => let '(c, req, inp) := it in new_Checker c true req pre inp)
     (items c (map jx1 js))) = Some (map jc1 js)).
  { unfold items. rewrite !map_map. apply all_some_map. intros j Hj.
    rewrite Forall_forall in G. apply (G j Hj). }
  assert (L0 : length (items c (map jx0 js)) = length js) by (unfold items; now rewrite !map_length).
  assert (L1 : length (items c (map jx1 js)) = length js) by (unfold items; now rewrite !map_length).
  unfold p0, p1, validate_snips. clear p0 p1 AF0 AF1.
  destruct js as [|j0 js0] eqn:Ejs; [contradiction|].
  destruct (items c (map jx0 (j0 :: js0))) as [|[[c0 ra] ia] it0] eqn:I0; [discriminate|].
  destruct (items c (map jx1 (j0 :: js0))) as [|[[c1 rb] ib] it1] eqn:I1; [discriminate|].
  assert (c0 = c) by (unfold items in I0; cbn in I0; congruence).
  assert (c1 = c) by (unfold items in I1; cbn in I1; congruence). subst c0 c1.
  rewrite <- Ejs in *. clear I0 I1 Ejs NE.
  rewrite HN, Nat2Z.id, G0, G1, A0, A1, L0, L1. cbv zeta.
  assert (OKs : Forall corshare_ok (map CorShareFn (map jc0 js)) /\ Forall corshare_ok (map CorShareFn (map jc1 js))).
  { rewrite !map_map, !Forall_map. rewrite !Forall_forall in *. split; intros j Hj; apply (G j Hj). }
  destruct OKs as [K0 K1].
  pose proof (delivers_CorShare_batch _ K0) as M0. pose proof (len_CorShare_batch _ K0) as M0'.
  pose proof (delivers_CorShare_batch _ K1) as M1. pose proof (len_CorShare_batch _ K1) as M1'.
  assert (LC0 : length (map CorShareFn (map jc0 js)) = length js) by (now rewrite !map_length).
  assert (LC1 : length (map CorShareFn (map jc1 js)) = length js) by (now rewrite !map_length).
  rewrite LC0 in M0, M0'. rewrite LC1 in M1, M1'.
  destruct (out_shares_jobs c pre js G K (seed_pos st0)) as (O0 & O1 & F0 & F1 & B0 & B1). cbv zeta in *.
  fold d pos in O0, O1, F0, F1, B0, B1.
  assert (FL : forall l, Forall (in_field P) l -> Forall (fun z => 0 <= z < two64) l).
  { intros l. apply Forall_impl. intros; now apply in_field_limbs. }
  pose proof (delivers_fmpz_batch _ (FL _ F0)) as N0. pose proof (len_fmpz_batch _ (FL _ F0)) as N0'.
  pose proof (delivers_fmpz_batch _ (FL _ F1)) as N1. pose proof (len_fmpz_batch _ (FL _ F1)) as N1'.
  rewrite outs_length in N0, N0', N1, N1'.
  rewrite S0, S1, <- EP. fold pos.
  split; intros log.
  - eapply log_fork; [exact M0|exact M0'|exact M1|exact M1'|].
    rewrite (map2_Cor_comm (map CorShareFn (map jc1 js)) (map CorShareFn (map jc0 js))), O0, O1.
    eapply log_fork; [exact N0|exact N0'|exact N1|exact N1'|]. rewrite B0, B1. cbn [logged]. apply conv_ret.
  - eapply log_fork; [exact M1|exact M1'|exact M0|exact M0'|].
    rewrite (map2_Cor_comm (map CorShareFn (map jc1 js)) (map CorShareFn (map jc0 js))), O0, O1.
    eapply log_fork; [exact N1|exact N1'|exact N0|exact N0'|]. rewrite B0, B1. cbn [logged]. apply conv_ret.
Qed.

(** ** Conversion, check and sums, for honest records *)
Definition subrow (v a : list Z) : list Z := map2 (fun v a => (v - a) mod P) v a.
Lemma subrow_of : forall a b v, length a = length v -> length b = length v -> Forall (in_field P) b ->
  map2 (fun a b => (a + b) mod P) a b = map (fun x => x mod P) v -> b = subrow v a.
Proof.
  induction a as [|x a IH]; intros [|y b] [|z v] La Lb F E; cbn in *; try discriminate; [reflexivity|].
  injection E as E1 E2. inversion F as [|? ? F1 F2]. subst. unfold subrow. cbn [map2]. f_equal.
  - apply (cong_small P); auto; [apply Z.mod_pos_bound; reflexivity|]. demod. 
    assert (C : cong P (x + y) z) by (now apply cong_iff). rewrite <- C. cong_ring.
  - apply IH; auto.
Qed.
Lemma map2_comm_add : forall a b, map2 (fun a b => (a + b) mod P) a b = map2 (fun a b => (a + b) mod P) b a.
Proof. induction a as [|x a IH]; intros [|y b]; cbn; auto. rewrite IH. f_equal. f_equal. lia. Qed.

Definition checkers (c : circuit) (r : Z) (side : bool) (xs : list (ClientPacket * list Z)) : list Checker :=
  let N := points_of c in
  match all_some (map (fun x => new_Checker c side (fst x) (new_CheckerPreComp (init_roots N) N r) (snd x)) xs) with Some l => l | None => [] end.
(** What the other server replies when all records are valid. *)
Definition reply (K : nat -> Z) (c : circuit) (st : snip_state) (side : bool) (xs : list (ClientPacket * list Z)) (cors : list CorShare) : list Z :=
  let cks := checkers c (randomX st) side xs in
  map (fun z => (- z) mod P) (fst (out_shares K (seed_pos st) cks (map2 Cor_of (map CorShareFn cks) cors))).

Lemma opens_fun c r side x cor cor' : opens c r side x cor -> opens c r side x cor' -> cor = cor'.
Proof.
  intros (N & ck & E & C & <-) (N' & ck' & E' & C' & <-).
  rewrite E in E'. injection E' as E'. apply Nat2Z.inj in E'. subst N'. rewrite C in C'. now injection C' as ->.
Qed.

Section Sums.
  Context {V W : Type}.
  Variables (c : circuit) (nbs : list nat) (row : V * ClientPacket -> list Z) (vals : W -> list Z).
  Hypothesis WF : wf c.
  Hypothesis HM : (NumMulGates c < 2 ^ 18)%nat.
  Hypothesis HW : Forall (width_ok P) nbs.
  Hypothesis HI : length nbs = NumInputs c.

  Definition clean (r : crec (V * ClientPacket) W) : Prop :=
    narrow c nbs row snd (c_0 r) /\ narrow c nbs row snd (c_1 r) /\
    map2 Z.lxor (row (c_0 r)) (row (c_1 r)) = vals (c_real r) /\ Eval c (vals (c_real r)) = true /\
    forall a b, shares_of (vals (c_real r)) a b -> honest c (vals (c_real r)) (snd (c_0 r), a) (snd (c_1 r), b).
  Definition entry (v : V * ClientPacket) : list Z * ClientPacket := (row v, snd v).
  Definition packets (side : bool) (rs : list (crec (V * ClientPacket) W)) (rows : list (list Z)) : list (ClientPacket * list Z) :=
    map2 (fun r o => (snd (share_of side r), o)) rs rows.

  Lemma clean_rows (side : bool) rs : Forall clean rs -> rows_ok nbs (map fst (map (fun r => entry (share_of side r)) rs)).
  Proof.
    intros F. rewrite map_map. split; apply Forall_map; (eapply Forall_impl; [|exact F]); intros r (A & B & _);
      destruct side; cbn [share_of]; first [apply A|apply B].
  Qed.
  Lemma clean_vals r : clean r -> length (vals (c_real r)) = length nbs.
  Proof.
    intros (A & B & E & _). rewrite <- E, map2_length. destruct A as [(a & _) _], B as [(b & _) _].
    unfold entry in *. cbn [fst] in *. rewrite a, b. apply Nat.min_id.
  Qed.

  Lemma opened_clean rs : Forall clean rs ->
    map2 (opened_row nbs) (map fst (map (fun r => entry (c_0 r)) rs)) (map fst (map (fun r => entry (c_1 r)) rs)) =
    map (fun r => map (fun x => x mod P) (vals (c_real r))) rs.
  Proof.
    induction 1 as [|r rs (A & B & E & _) F IH]; [reflexivity|]. cbn [map map2]. rewrite IH. f_equal. cbn [entry fst].
    rewrite (opened_narrow c nbs row snd) by assumption. now rewrite E.
  Qed.
  Lemma subrows rs : Forall clean rs -> forall o0 o1, length o0 = length rs -> length o1 = length rs ->
    Forall (fun r => length r = length nbs) o0 -> Forall (fun r => length r = length nbs) o1 ->
    Forall (Forall (in_field P)) o1 ->
    map2 (map2 (fun a b => (a + b) mod P)) o0 o1 = map (fun r => map (fun x => x mod P) (vals (c_real r))) rs ->
    o1 = map2 (fun r o => subrow (vals (c_real r)) o) rs o0.
  Proof.
    induction 1 as [|r rs Hr F IH]; intros [|a o0] [|b o1] L0 L1 F0 F1 B E; cbn in L0, L1; try discriminate; [reflexivity|].
    cbn [map map2] in *. injection E as E1 E2.
    pose proof (Forall_inv F0) as e0. pose proof (Forall_inv F1) as e1. cbv beta in e0, e1.
    f_equal.
    - apply subrow_of; auto; rewrite ?(clean_vals r Hr); auto. exact (Forall_inv B).
    - apply IH; auto; try (eapply Forall_inv_tail; eassumption).
  Qed.

  Lemma shaped_packets (side : bool) rs : Forall clean rs -> forall o, length o = length rs -> Forall (fun r => length r = length nbs) o ->
    Forall (shaped c) (packets side rs o).
  Proof.
    induction 1 as [|r rs Hr F IH]; intros [|a o] L B; cbn in L; try discriminate; [constructor|].
    unfold packets. cbn [map2]. constructor; [|apply IH; [lia|eapply Forall_inv_tail; eassumption]].
    pose proof (Forall_inv B) as e. cbv beta in e. destruct Hr as ([(a1 & a2 & a3 & a4) _] & [(b1 & b2 & b3 & b4) _] & _).
    cbn [fst snd] in *. destruct side; cbn [share_of]; repeat split; cbn [fst snd]; auto; congruence.
  Qed.
  Lemma packets_length side rs o : length o = length rs -> length (packets side rs o) = length rs.
  Proof. intros L. unfold packets. rewrite map2_length, L. apply Nat.min_id. Qed.

  Lemma items_packets side rs o : length o = length rs ->
    map2 (fun e r => (c, snd e, r)) (map (fun r => entry (share_of side r)) rs) o = items c (packets side rs o).
  Proof.
    clear HM. revert o. unfold items, packets. induction rs as [|r rs IH]; intros [|a o] L; cbn in L; try discriminate; [reflexivity|].
    cbn [map map2]. rewrite IH by congruence. reflexivity.
  Qed.

  (** Honest records are valid. *)
  Lemma jobs_valid k r K : (k <= 18)%nat -> NextPowerOfTwo (Z.of_nat (NumMulGates c)) = Some (Z.of_nat (2 ^ k)) -> in_field P r ->
    forall rs, Forall clean rs -> forall o0 js, length o0 = length rs -> Forall (fun o => length o = length nbs) o0 ->
    map jx0 js = packets false rs o0 -> map jx1 js = packets true rs (map2 (fun r o => subrow (vals (c_real r)) o) rs o0) ->
    Forall (good c (pre_of k r)) js -> Forall (fun j => forall pos, dotK K pos (jent j) mod P = 0) js.
  Proof.
    intros Hk HN Hr. induction 1 as [|q rs Hq F IH]; intros [|a o0] [|j js] L0 B E0 E1 G; cbn in L0, E0; try discriminate; [constructor|].
    unfold packets in E0, E1. cbn [map map2] in E0, E1. injection E0 as e0 E0. injection E1 as e1 E1.
    pose proof (Forall_inv G) as Gj. pose proof (Forall_inv B) as Ba. cbv beta in Ba.
    constructor; [|apply (IH o0 js); auto; try (eapply Forall_inv_tail; eassumption)].
    intros pos. pose proof (clean_vals q Hq) as Lv. destruct Hq as (_ & _ & _ & EV & HH).
    pose proof (good_verdict c k r K pos j Hk HN Gj) as V1. rewrite e0, e1 in V1.
    assert (V2 : verdict c r K pos (snd (share_of false q), a) (snd (share_of true q), subrow (vals (c_real q)) a) true).
    { apply (honest_verdict c (vals (c_real q))); auto. apply HH. clear -Ba Lv HI. split; [congruence|].
      split; [unfold subrow; rewrite map2_length, Ba, Lv; apply Nat.min_id|].
      intros i Hi. unfold subrow. rewrite (nth_map2 _ _ _ _ 0 0) by (rewrite ?Lv in *; congruence || lia).
      change p with P. apply cong_iff. demod. cong_ring. }
    pose proof (verdict_unique _ _ _ _ _ _ _ _ Hr V1 V2) as E. now apply Z.eqb_eq in E.
  Qed.
  Lemma answers_valid K d js : Forall (fun j => forall pos, dotK K pos (jent j) mod P = 0) js ->
    forall pos, answers K d pos js = repeat true (length js).
  Proof. induction 1 as [|j js Hj F IH]; intros pos; cbn; [reflexivity|]. rewrite Hj, IH. reflexivity. Qed.

  Lemma outs_neg K pre js : Forall (good c pre) js -> Forall (fun j => forall pos, dotK K pos (jent j) mod P = 0) js ->
    forall d pos, outs jv1 K d pos js = map (fun z => (- z) mod P) (outs jv0 K d pos js) /\
                  outs jv0 K d pos js = map (fun z => (- z) mod P) (outs jv1 K d pos js).
  Proof.
    induction 1 as [|j js Hj F IH]; intros D d pos; [now split|]. cbn [outs map].
    pose proof (Forall_inv D) as D1. specialize (D1 pos). cbv beta in D1.
    destruct (IH (Forall_inv_tail D) d (pos + d)%nat) as [I1 I2].
    destruct Hj as (_ & _ & _ & _ & _ & _ & HV). destruct (HV K pos) as (V0 & V1 & VS). fold (jv0 K pos j) (jv1 K pos j) in *.
    change (OutShare K pos (jc0 j) _) with (jv0 K pos j) in *. change (OutShare K pos (jc1 j) _) with (jv1 K pos j) in *.
    assert (C : cong P (jv0 K pos j + jv1 K pos j) 0). { rewrite VS. apply cong_iff. rewrite D1. reflexivity. }
    split; (apply (f_equal2 (@cons Z)); [|assumption]).
    - apply (cong_small P); auto; [apply Z.mod_pos_bound; reflexivity|]. demod. rewrite <- (Z.add_0_l (- jv0 K pos j)), <- C. cong_ring.
    - apply (cong_small P); auto; [apply Z.mod_pos_bound; reflexivity|]. demod. rewrite <- (Z.add_0_l (- jv1 K pos j)), <- C. cong_ring.
  Qed.

  Lemma opens_jobs k r side js : NextPowerOfTwo (Z.of_nat (NumMulGates c)) = Some (Z.of_nat (2 ^ k)) -> Forall (good c (pre_of k r)) js ->
    forall cors, Forall2 (opens c r side) (map (if side then jx1 else jx0) js) cors -> cors = map CorShareFn (map (if side then jc1 else jc0) js).
  Proof.
    intros HN. induction 1 as [|j js Hj F IH]; intros cors O; cbn [map] in O; inversion O as [|? ? ? ? O1 O2]; subst; [reflexivity|].
    cbn [map]. f_equal; [|now apply IH]. eapply opens_fun; [exact O1|].
    destruct Hj as (C0 & C1 & _). exists (2 ^ k)%nat. destruct side; eexists; (split; [exact HN|split; [eassumption|reflexivity]]).
  Qed.
  Lemma checkers_jobs k r side js : NextPowerOfTwo (Z.of_nat (NumMulGates c)) = Some (Z.of_nat (2 ^ k)) -> Forall (good c (pre_of k r)) js ->
    checkers c r side (map (if side then jx1 else jx0) js) = map (if side then jc1 else jc0) js.
  Proof.
    intros HN G. unfold checkers. assert (PO : points_of c = (2 ^ k)%nat) by (unfold points_of; now rewrite HN, Nat2Z.id). rewrite PO, map_map.
    rewrite (all_some_map _ (if side then jc1 else jc0)); [reflexivity|]. intros j Hj. rewrite Forall_forall in G. destruct (G j Hj) as (A & B & _).
    destruct side; assumption.
  Qed.

  Lemma repeat_andb n : map2 andb (repeat true n) (repeat true n) = repeat true n.
  Proof. induction n; cbn; congruence. Qed.
  Lemma count_all n : count (repeat true n) = n.
  Proof. unfold count. induction n; cbn; congruence. Qed.

  Lemma sums_views K rnd0 rnd1 rs st0 st1 : rs <> [] -> Forall clean rs -> synced st0 st1 ->
    let n := length rs in
    let l0 := map (fun r => entry (share_of false r)) rs in let l1 := map (fun r => entry (share_of true r)) rs in
    let o0 := own_rows nbs rnd0 (map fst l0) in
    let M := transfer nbs rnd0 (map fst l0) (map fst l1) in
    let o1 := read_rows nbs n M in
    let s0 := snip_sums0 K rnd0 c nbs (repeat true n) l0 st0 in let s1 := snip_sums1 K rnd1 c nbs l1 st1 in
    let a0 := (n, accumulate (length nbs) o0 (repeat true n), after c n st0) in
    let a1 := (accumulate (length nbs) o1 (repeat true n), after c n st1) in
    length o0 = n /\ length o1 = n /\
    Forall (fun o => length o = length nbs) o0 /\ Forall (fun o => length o = length nbs) o1 /\
    o1 = map2 (fun r o => subrow (vals (c_real r)) o) rs o0 /\ o0 = map2 (fun r o => subrow (vals (c_real r)) o) rs o1 /\
    (forall cors log, Forall2 (opens c (randomX st0) true) (packets true rs o1) cors ->
       conv (logged log s0) s1
         ((log ++ sent_by (send_CorShare_batch cors)) ++ sent_by (send_fmpz_batch (reply K c st0 false (packets false rs o0) cors)), a0) a1) /\
    (forall cors log, Forall2 (opens c (randomX st1) false) (packets false rs o0) cors ->
       conv (logged log s1) s0
         ((((log ++ M) ++ sent_by (send_CorShare_batch cors)) ++ sent_by (send_fmpz_batch (reply K c st1 true (packets true rs o1) cors)))
          ++ sent_by (send_bool_batch (repeat true n)), a1) a0).
  Proof.
    intros NE CL SY n l0 l1 o0 M o1 s0 s1 a0 a1.
    pose proof (clean_rows false rs CL) as R0. pose proof (clean_rows true rs CL) as R1. fold l0 in R0. fold l1 in R1.
    assert (LL0 : length (map fst l0) = n) by (unfold l0; now rewrite !map_length).
    assert (LL1 : length (map fst l1) = n) by (unfold l1; now rewrite !map_length).
    destruct (convert_views nbs rnd0 rnd1 (map fst l0) (map fst l1) HW ltac:(congruence) R0 R1)
      as (CV0 & CV1 & L0 & L1 & F0 & F1 & B0 & B1 & ES).
    fold M in CV0, CV1, L1, F1, B1, ES. rewrite LL1 in CV0, CV1, L1, F1, B1, ES. fold o0 o1 in CV0, CV1, L0, L1, F0, F1, B0, B1, ES.
    rewrite LL0 in L0, L1.
    change (map fst l0) with (map fst (map (fun r => entry (c_0 r)) rs)) in ES. change (map fst l1) with (map fst (map (fun r => entry (c_1 r)) rs)) in ES.
    rewrite (opened_clean rs CL) in ES.
    assert (S1 : o1 = map2 (fun r o => subrow (vals (c_real r)) o) rs o0) by (apply subrows; auto).
    assert (S0 : o0 = map2 (fun r o => subrow (vals (c_real r)) o) rs o1).
    { apply subrows; auto. rewrite <- ES. clear. generalize o0 o1. intros a. induction a as [|x a IH]; intros [|y b]; cbn; auto.
      rewrite IH. f_equal. apply map2_comm_add. }
    clearbody o1. clearbody o0.
    split; [exact L0|]. split; [exact L1|]. split; [exact F0|]. split; [exact F1|]. split; [exact S1|]. split; [exact S0|].
    destruct (npo2_nat _ HM) as (k & Hk & _ & HN). pose proof (proj1 (proj1 SY)) as Hr. change p with P in Hr.
    destruct (jobs_exist c k (randomX st0) (packets false rs o0) (packets true rs o1) HM HN Hk Hr) as (js & J0 & J1 & G).
    { rewrite !packets_length by auto. reflexivity. }
    { now apply shaped_packets. }
    { now apply shaped_packets. }
    assert (LJ : length js = n) by (apply (f_equal (@length _)) in J0; rewrite map_length, packets_length in J0; auto).
    assert (NJ : js <> []) by (intros ->; apply NE; destruct rs; [reflexivity|discriminate]).
    assert (VJ : Forall (fun j => forall pos, dotK K pos (jent j) mod P = 0) js).
    { apply (jobs_valid k (randomX st0) K Hk HN Hr rs CL o0 js); auto. rewrite <- S1. exact J1. }
    destruct (validate_views c k K st0 st1 js NJ Hk HN SY G) as [VV0 VV1]. cbv zeta in VV0, VV1.
    rewrite !(answers_valid K _ js VJ), LJ in VV0, VV1. rewrite J0, J1 in VV0, VV1.
    pose proof (fun d pos => outs_neg K _ js G VJ d pos) as ON.
    destruct (out_shares_jobs c _ js G K (seed_pos st0)) as (O0 & O1 & _). cbv zeta in O0, O1.
    destruct SY as (_ & _ & EX & EP & _).
    assert (DB := delivers_bool_batch (repeat true n)). rewrite repeat_length in DB.
    split; intros cors log HC.
    - rewrite <- J1 in HC. apply (opens_jobs k (randomX st0) true js HN G) in HC. cbn in HC. rewrite HC. clear HC.
      replace (reply _ _ _ _ _ _) with (outs jv1 K (S (length (result_zero c))) (seed_pos st0) js).
      2:{ unfold reply. rewrite <- J0. pose proof (checkers_jobs k (randomX st0) false js HN G) as CJ. cbn in CJ. rewrite CJ, O0. apply ON. }
      unfold s0, s1, snip_sums0, snip_sums1, share_convert. change p with P.
      eapply conv_logged_bind; [apply CV0|]. cbn [fst snd].
      unfold l0, l1. rewrite !items_packets by assumption.
      eapply conv_logged_bind; [apply VV0|]. cbn [fst snd]. cbv zeta. rewrite repeat_andb.
      rewrite !map_length. fold n. eapply log_send; [exact DB|]. rewrite repeat_andb, count_all. cbn [logged]. apply conv_ret.
    - rewrite <- EX in HC. rewrite <- J0 in HC. apply (opens_jobs k (randomX st0) false js HN G) in HC. cbn in HC. rewrite HC. clear HC.
      replace (reply _ _ _ _ _ _) with (outs jv0 K (S (length (result_zero c))) (seed_pos st0) js).
      2:{ unfold reply. rewrite <- J1, <- EX, <- EP. pose proof (checkers_jobs k (randomX st0) true js HN G) as CJ. cbn in CJ.
          rewrite CJ, map2_Cor_comm, O1. apply ON. }
      unfold s0, s1, snip_sums0, snip_sums1, share_convert. change p with P.
      eapply conv_logged_bind; [apply CV1|]. cbn [fst snd].
      unfold l0, l1. rewrite !items_packets by assumption.
      eapply conv_logged_bind; [apply VV1|]. cbn [fst snd]. cbv zeta. rewrite repeat_andb.
      rewrite !map_length. fold n. eapply log_receive; [exact DB|]. rewrite repeat_andb, count_all. cbn [logged]. apply conv_ret.
  Qed.

  (** The sums at the other server, from one's own and the totals. *)
  Definition totals (j : nat) (rs : list (crec (V * ClientPacket) W)) : Z := zsum (map (fun r => nth j (vals (c_real r)) 0) rs).
  Lemma accumulate_all rs : Forall clean rs -> forall o0, length o0 = length rs -> Forall (fun o => length o = length nbs) o0 ->
    accumulate (length nbs) (map2 (fun r o => subrow (vals (c_real r)) o) rs o0) (repeat true (length rs)) =
    map (fun j => (totals j rs - nth j (accumulate (length nbs) o0 (repeat true (length rs))) 0) mod P) (seq 0 (length nbs)).
  Proof.
    intros CL o0 L B.
    destruct (accumulate_spec (length nbs) o0 (repeat true (length rs))) as (_ & _ & A0).
    destruct (accumulate_spec (length nbs) (map2 (fun r o => subrow (vals (c_real r)) o) rs o0) (repeat true (length rs))) as (L1 & F1 & A1).
    apply nth_ext with 0 0; [now rewrite map_length, seq_length|]. rewrite L1. intros j Hj.
    rewrite nth_map_seq' by exact Hj. rewrite A0, A1 by exact Hj.
    apply cong_iff. demod. clear A0 A1 L1 F1. revert o0 L B.
    induction CL as [|r rs Hr CL IH]; intros [|o o0] L B; cbn in L; try discriminate.
    - unfold col_sum, totals, zsum. cbn. reflexivity.
    - pose proof (Forall_inv B) as Bo. cbv beta in Bo. specialize (IH o0 ltac:(lia) (Forall_inv_tail B)).
      unfold col_sum, totals, zsum in *. cbn [map2 map length repeat fold_right] in *. rewrite IH.
      unfold subrow. rewrite (nth_map2 _ _ _ _ 0 0) by (rewrite ?(clean_vals r Hr); lia). demod. cong_ring.
  Qed.
End Sums.
