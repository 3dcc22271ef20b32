(** * Debugging runs of VAR, STDDEV and LINREG: proofs for C66 *)
From Coq Require Import ZArith Znumtheory List Bool Lia Permutation.
From Verif Require Import Words WordsFacts Constants Cong Share SpecShare ShareFacts Proc ProcFacts Net SpecNet NetFacts RelFacts
  Poly SpecPoly FieldFacts PolyFacts FftFacts Circuit SpecCircuit CircuitFacts Snip SpecSnip SnipFacts SnipBatch
  MpcFacts ServerOps SpecServer TableFacts ServerFacts ServerProps ServerCor ClientOps SpecClient ClientFacts ClientProps
  SnipSums SpecStat StatReads StatProps StatClient StatSound SpecCount CountFacts CountProps SpecAccept AcceptFacts AcceptProps
  DebugOps SpecDebug DebugFacts DebugProps DebugStat SpecDebugStat.
From Verif Require DabitFacts SecretProof.
Import ListNotations.
Open Scope Z_scope.
Opaque Int_Modulus Int_Gen init_roots.
Local Notation P := Int_Modulus.

(** ** Packets *)
Definition small (q : ClientPacket) : Prop :=
  Forall (in_field P) (MulShares q) /\ in_field P (f0_s q) /\ in_field P (g0_s q) /\ in_field P (h0_s q) /\
  Forall (in_field P) (h_points q) /\ in_field P (shareA (triple_share q)) /\ in_field P (shareB (triple_share q)) /\
  in_field P (shareC (triple_share q)).
Lemma half_field side r v : in_field P (SecretProof.half side r v).
Proof. unfold SecretProof.half, SplitShare. destruct side; cbn [fst snd]; apply Z.mod_pos_bound, p_pos. Qed.
Lemma map2_all {A B C} (Q : C -> Prop) (f : A -> B -> C) a : (forall x y, Q (f x y)) -> forall b, Forall Q (map2 f a b).
Proof. intros H. induction a as [|x a IH]; intros [|y b]; cbn [map2]; constructor; auto. Qed.
Lemma packet_small side t c w N T s : small (SecretProof.packet_half side t c w N T s).
Proof.
  unfold SecretProof.packet_half. cbv zeta.
  split; [apply map2_all; intros; apply half_field|]. split; [apply half_field|]. split; [apply half_field|]. split; [apply half_field|].
  split; [apply Forall_map, Forall_forall; intros; apply half_field|].
  split; [apply half_field|]. split; apply half_field.
Qed.

Lemma packets_made T s tabs c inps : wf c -> (NumMulGates c < 2 ^ 18)%nat -> tabs_ok c tabs ->
  length inps = NumInputs c ->
  exists p0 p1 s' tabs', make_packets T s tabs c inps = Some (p0, p1, s', tabs') /\ tabs_ok c tabs' /\
    packet_ok (NumMulGates c) p0 /\ packet_ok (NumMulGates c) p1 /\ small p0 /\ small p1 /\
    (Eval c inps = true -> well_proved c inps p0 p1).
Proof.
  intros WF HM HT LI. destruct (make_packets_ok T s tabs c inps HM HT LI) as (p0 & p1 & s' & tabs' & E & HT' & O0 & O1 & HH).
  exists p0, p1, s', tabs'. split; [exact E|]. split; [exact HT'|]. split; [exact O0|]. split; [exact O1|].
  assert (S01 : small p0 /\ small p1).
  { unfold make_packets in E. destruct (npo2_nat _ HM) as (k & _ & _ & HN). rewrite HN in E.
    rewrite (SecretProof.packets_form _ _ _ _ _ _ HN) in E.
    assert (X : forall a b c d a' b' c' d', Some (a : ClientPacket, b : ClientPacket, c : nat, d : option root_tables) = Some (a', b', c', d') -> a = a' /\ b = b')
      by (intros * Q; split; congruence).
    apply X in E as [<- <-]. split; apply packet_small. }
  split; [apply S01|]. split; [apply S01|]. intros HE.
  apply (all_iff c inps p0 p1 WF HM O0 O1 LI). intros e (Hr & _).
  exists (fun i => nth i (snd e) 0), 0%nat. split; [intros i Hi; reflexivity|].
  now apply judged_honest.
Qed.

Lemma succ_limbs x : in_field P x -> limbs_ok (x + 1).
Proof. unfold in_field, limbs_ok. assert (P < two64 - 1) by reflexivity. lia. Qed.
Lemma upd_forall {A} (Q : A -> Prop) i x l : Q x -> Forall Q l -> Forall Q (upd i x l).
Proof.
  intros Hx. revert i. induction l as [|y l IH]; intros i H; [destruct i; constructor|].
  apply Forall_cons_iff in H as [Hy H]. destruct i; cbn [upd]; constructor; auto.
Qed.
Lemma nth_small i l : Forall (in_field P) l -> in_field P (nth i l 0).
Proof.
  intros F. destruct (Nat.lt_ge_cases i (length l)) as [H|H].
  - rewrite Forall_forall in F. apply F, nth_In, H.
  - rewrite nth_overflow by auto. unfold in_field. assert (0 < P) by apply p_pos. lia.
Qed.
Lemma spoil0_ok n i q : packet_ok n q -> small q -> packet_ok n (spoil0 i q).
Proof.
  intros (A & B & C & D & E & F & G & H) S. unfold spoil0, add_h, add_mul.
  destruct (i =? 5)%nat; [|destruct (i =? 7)%nat]; unfold packet_ok; cbn [MulShares f0_s g0_s h0_s h_points triple_share];
    rewrite ?upd_length; repeat (split; [first [assumption|apply upd_forall; [apply succ_limbs, nth_small, S|assumption]]|]); exact H.
Qed.
Lemma spoil1_ok n i q : packet_ok n q -> small q -> packet_ok n (spoil1 i q).
Proof.
  intros (A & B & C & D & E & F & G & H) S. unfold spoil1, add_f0, add_A.
  destruct (i =? 6)%nat; [|destruct (i =? 8)%nat].
  - split; [exact A|]. split; [exact B|]. split; [exact C|]. split; [apply succ_limbs, S|]. repeat (split; [assumption|]); exact H.
  - repeat (split; [assumption|]). destruct H as (H1 & H2 & H3). split; [apply succ_limbs, S|]. split; assumption.
  - repeat (split; [assumption|]); exact H.
Qed.

Lemma succ_mod x y : (x + y) mod p <> (x + 1 + y) mod p.
Proof.
  intros E. apply cong_iff in E. destruct E as [u Hu]. assert (HP : 1 < P) by reflexivity.
  assert (X : u * P = -1) by (change p with P in Hu; lia). clear - X HP.
  assert (u = 0 \/ u <= -1 \/ 1 <= u) as [->|[H|H]] by lia; [discriminate|nia|nia].
Qed.
Lemma upd_sums a b : (0 < length a)%nat -> length a = length b -> sums (upd 0 (nth 0 a 0 + 1) a) b <> sums a b.
Proof.
  intros H L E. apply (f_equal (fun l => nth 0 l 0)) in E.
  rewrite nth_sums, nth_sums, nth_upd_eq in E by (rewrite ?upd_length; auto). symmetry in E. exact (succ_mod _ _ E).
Qed.
Lemma succ_mod' x y : (x + y) mod p <> (x + (y + 1)) mod p.
Proof. rewrite (Z.add_comm x y). replace (x + (y + 1)) with (y + 1 + x) by ring. apply succ_mod. Qed.

Lemma spoiled_row i n q0 q1 : packet_ok n q0 -> packet_ok n q1 -> (0 < n < 2 ^ 18)%nat -> (5 <= i <= 8)%nat ->
  (i = 6%nat -> (g0_s (spoil0 i q0) + g0_s (spoil1 i q1)) mod p <> 0) ->
  (i = 8%nat -> (shareB (triple_share (spoil0 i q0)) + shareB (triple_share (spoil1 i q1))) mod p <> 0) ->
  spoiled (opened_packet q0 q1) (opened_packet (spoil0 i q0) (spoil1 i q1)).
Proof.
  intros O0 O1 Hn Hi H6 H8.
  destruct O0 as (A0 & B0 & _). destruct O1 as (A1 & B1 & _).
  assert (LH : length (h_points q0) = length (h_points q1)) by exact (npo2_fun _ _ _ B0 B1).
  assert (PH : (0 < length (h_points q0))%nat).
  { destruct (npo2_nat _ (proj2 Hn)) as (k & _ & _ & HN). rewrite (npo2_fun _ _ _ B0 HN).
    apply Nat.neq_0_lt_0, Nat.pow_nonzero. discriminate. }
  apply proj1 in Hn.
  assert (i = 5 \/ i = 6 \/ i = 7 \/ i = 8)%nat as [->|[->|[->| ->]]] by lia; cbn [spoil0 spoil1 Nat.eqb] in *.
  - left. split; [|repeat split; reflexivity]. intros E. apply (f_equal h_points) in E. cbn [opened_packet h_points add_h] in E.
    symmetry in E. revert E. now apply upd_sums.
  - right; left. split; [|split; [reflexivity|split; [reflexivity|exact (H6 eq_refl)]]]. apply succ_mod'.
  - left. split; [|repeat split; reflexivity]. intros E. apply (f_equal MulShares) in E. cbn [opened_packet MulShares add_mul] in E.
    symmetry in E. revert E. apply upd_sums; lia.
  - right; right. split; [|split; [reflexivity|split; [reflexivity|exact (H8 eq_refl)]]]. apply succ_mod'.
Qed.
