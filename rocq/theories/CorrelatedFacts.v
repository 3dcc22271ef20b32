(** * Proofs about /repo/correlated.cpp (model Correlated.v) *)
From Coq Require Import ZArith List Bool Lia ZifyBool ZifyNat Setoid Morphisms.
From Verif Require Import Words WordsFacts Cong Constants Share SpecShare ShareFacts Proc ProcFacts
  Net NetFacts SpecNet NetMsg RelFacts OT OTFacts Correlated SpecStore.
Import ListNotations.
Open Scope Z_scope.

Arguments Z.mul : simpl never.
Arguments Z.add : simpl never.
Arguments Z.sub : simpl never.
Arguments Z.pow : simpl never.
Arguments Nat.div : simpl never.
Arguments Nat.modulo : simpl never.

(** Only appended to. *)
Definition grew (s s' : store) : Prop :=
  (exists l, dabit_store s' = dabit_store s ++ l) /\
  (exists l, btriple_store s' = btriple_store s ++ l) /\ (ctr s <= ctr s')%nat.

Lemma grew_refl s : grew s s.
Proof. repeat split; try exists []; rewrite ?app_nil_r; auto. Qed.
Lemma grew_trans a b c : grew a b -> grew b c -> grew a c.
Proof.
  intros ((l1 & H1) & (l2 & H2) & H3) ((l1' & H1') & (l2' & H2') & H3').
  repeat split; [exists (l1 ++ l1')|exists (l2 ++ l2')|lia]; rewrite ?H1', ?H2', ?H1, ?H2, app_assoc; auto.
Qed.

Lemma draw_bits_length T from n : length (draw_bits T from n) = n.
Proof. unfold draw_bits. now rewrite map_length, seq_length. Qed.
Lemma draw_words_length T from n : length (draw_words T from n) = n.
Proof. unfold draw_words. now rewrite map_length, seq_length. Qed.

Lemma Forall2_len {A B} (R : A -> B -> Prop) l m : Forall2 R l m -> length l = length m.
Proof. induction 1; cbn; auto. Qed.

Lemma addBoolTriples_rel c0 c1 T0 T1 n s0 s1 : params_ok c0 c1 -> stores_paired s0 s1 ->
  rel (addBoolTriples c0 T0 n s0) (addBoolTriples c1 T1 n s1)
    (fun s0' s1' => stores_paired s0' s1' /\ grew s0 s0' /\ grew s1 s1' /\
       dabit_store s0' = dabit_store s0 /\ dabit_store s1' = dabit_store s1 /\
       (length (btriple_store s0) + n <= length (btriple_store s0'))%nat).
Proof.
  intros (P0 & P1 & Pb & Pn & Pl) (HD & HB). unfold addBoolTriples.
  rewrite P0, P1. unfold bool_batch_size. rewrite Pb, Pn.
  set (m := if (_ <? _)%nat then n else _).
  assert (Hm : (n <= m)%nat) by (subst m; destruct (Nat.ltb_spec (batch_size c1 * nbits c1) n); lia).
  eapply rel_bind.
  - eapply (gen_btriples_rel _ _ _ _ _ _ m); apply draw_bits_length.
  - intros t0 t1 (HF & L0 & L1 & _). apply rel_ret.
    unfold grew, stores_paired; cbn [dabit_store btriple_store ctr advance with_btriples].
    split; [split; [auto|now apply Forall2_app]|].
    repeat split; eauto; try lia; try (exists []; now rewrite app_nil_r).
    rewrite app_length. lia.
Qed.

Lemma dabit_out_spec : forall b0 b1 w, length b0 = length w -> length b1 = length w ->
  Forall (fun x => 0 <= x < two64) w ->
  let d0 := dabit_out b0 (map (fun wi => Int_Modulus - wi mod Int_Modulus) w) in
  let d1 := dabit_out b1 (map2 ot_select b1 (dabit_msgs b0 w)) in
  Forall2 dabit_pair d0 d1 /\ length d0 = length w /\ map b2 d0 = b0 /\ map b2 d1 = b1.
Proof.
  cbv zeta. intros b0 b1 w. revert b0 b1. pose proof p_ge as Hp.
  change (2 ^ 48) with 281474976710656 in Hp. change (2 ^ 47) with 140737488355328 in Hp.
  induction w as [|x w IH]; intros [|a0 b0] [|a1 b1] L0 L1 Hw; try discriminate.
  - cbn. auto.
  - inversion Hw; subst. destruct (IH b0 b1) as (A1 & A2 & A3 & A4); auto.
    unfold dabit_out, dabit_msgs in *. cbn [map map2 length b2].
    split; [|repeat split; try f_equal; auto].
    constructor; auto.
    pose proof (modp_range x) as Hx. set (w0 := x mod Int_Modulus) in *.
    pose proof (modp_range (w0 + b2z a0)) as Hy. set (w1 := (w0 + b2z a0) mod Int_Modulus) in *.
    assert (Hs : 0 <= ot_select a1 (w0, w1) < Int_Modulus) by (destruct a1; cbn [ot_select fst snd]; auto).
    assert (Cs : cong Int_Modulus (ot_select a1 (w0, w1)) (w0 + b2z a1 * b2z a0)).
    { destruct a1; cbn [ot_select fst snd b2z]; unfold w1; demod; cong_ring. }
    set (sel := ot_select a1 (w0, w1)) in *.
    unfold dabit_pair. cbn [bp b2]. split; [apply modp_range|]. split; [apply modp_range|].
    replace (Int_Modulus - (Int_Modulus - w0)) with w0 by lia.
    rewrite (u64_small w0), (u64_small (Int_Modulus - sel)) by (unfold two64; lia).
    rewrite !u64_small by (unfold two64; destruct a0, a1; cbn [b2z]; lia).
    apply cong_mod_eq; [destruct a0, a1; cbn [xorb b2z]; lia|].
    demod. rewrite (cong_self_sub _ sel), Cs.
    destruct a0, a1; cbn [xorb b2z]; cong_ring.
Qed.

Lemma generateDaBit_rel b0 b1 w0 w1 : length b0 = length w0 -> length b1 = length w0 ->
  Forall (fun x => 0 <= x < two64) w0 ->
  rel (generateDaBit false b0 w0) (generateDaBit true b1 w1)
    (fun d0 d1 => Forall2 dabit_pair d0 d1 /\ length d0 = length w0 /\ map b2 d0 = b0 /\ map b2 d1 = b1).
Proof.
  intros L0 L1 Hw. unfold generateDaBit. apply rel_ot.
  - unfold dabit_msgs. rewrite map2_length. lia.
  - apply rel_ret. now apply dabit_out_spec.
Qed.

Lemma local_dabit_pair r1 r2 : dabit_pair (fst (makeLocalDaBit r1 r2)) (snd (makeLocalDaBit r1 r2)).
Proof.
  pose proof (dabit_local r1 r2) as H. destruct (makeLocalDaBit r1 r2) as [d0 d1].
  destruct H as (H0 & H1 & Hs & Hx). cbn [fst snd]. unfold dabit_pair. rewrite Hx. repeat split; try lia; auto.
Qed.

Lemma addDaBits_rel c0 c1 T0 T1 n s0 s1 : params_ok c0 c1 -> stores_paired s0 s1 ->
  rel (addDaBits c0 T0 n s0) (addDaBits c1 T1 n s1)
    (fun s0' s1' => stores_paired s0' s1' /\ grew s0 s0' /\ grew s1 s1' /\
       btriple_store s0' = btriple_store s0 /\ btriple_store s1' = btriple_store s1 /\
       (length (dabit_store s0) + n <= length (dabit_store s0'))%nat).
Proof.
  intros (P0 & P1 & Pb & Pn & Pl) (HD & HB). unfold addDaBits.
  rewrite P0, P1, Pb, Pl.
  set (m := if (_ <? _)%nat then n else _).
  assert (Hm : (n <= m)%nat) by (subst m; destruct (Nat.ltb_spec (batch_size c1) n); lia).
  assert (K : forall d0 d1 a b, Forall2 dabit_pair d0 d1 -> length d0 = m ->
     let s0' := advance (with_dabits s0 (dabit_store s0 ++ d0)) a in
     let s1' := advance (with_dabits s1 (dabit_store s1 ++ d1)) b in
     stores_paired s0' s1' /\ grew s0 s0' /\ grew s1 s1' /\
       btriple_store s0' = btriple_store s0 /\ btriple_store s1' = btriple_store s1 /\
       (length (dabit_store s0) + n <= length (dabit_store s0'))%nat).
  { intros d0 d1 a b HF L. cbv zeta. unfold grew, stores_paired.
    cbn [dabit_store btriple_store ctr advance with_dabits].
    split; [split; [now apply Forall2_app|auto]|].
    repeat split; eauto; try lia; try (exists []; now rewrite app_nil_r).
    rewrite app_length. lia. }
  destruct (lazy c1).
  - set (pairs := map _ (seq 0 m)).
    assert (Lp : length (map snd pairs) = m) by (subst pairs; now rewrite !map_length, seq_length).
    eapply rel_deliver.
    + rewrite <- Lp. apply delivers_DaBit_batch. apply Forall_forall. intros d Hd.
      apply in_map_iff in Hd. destruct Hd as (pr & <- & Hd).
      apply in_map_iff in Hd. destruct Hd as (i & <- & _).
      apply range_limbs. apply local_dabit_pair.
    + apply rel_ret.
      assert (HF : Forall2 dabit_pair (map fst pairs) (map snd pairs)).
      { subst pairs. clear. induction (seq 0 m); cbn [map]; constructor; auto. apply local_dabit_pair. }
      specialize (K (map fst pairs) (map snd pairs) (2 * m)%nat 0%nat HF).
      rewrite map_length in *. specialize (K Lp). cbv zeta in K.
      destruct K as (K1 & K2 & (K3a & K3b & K3c) & K4 & K5 & K6).
      split; [exact K1|]. split; [exact K2|]. split; [|auto].
      split; [exact K3a|]. split; [exact K3b|]. cbn. lia.
  - eapply rel_bind.
    + apply generateDaBit_rel; rewrite ?draw_words_length; try apply draw_bits_length.
      apply Forall_forall. intros x Hx. apply in_map_iff in Hx. destruct Hx as (i & <- & _).
      apply u64_range.
    + intros d0 d1 (HF & L & _). rewrite draw_words_length in L. apply rel_ret. now apply K.
Qed.

Lemma checkBoolTriples_rel c0 c1 T0 T1 n s0 s1 : params_ok c0 c1 -> stores_paired s0 s1 ->
  rel (checkBoolTriples c0 T0 n s0) (checkBoolTriples c1 T1 n s1)
    (fun s0' s1' => stores_paired s0' s1' /\ grew s0 s0' /\ grew s1 s1' /\
       dabit_store s0' = dabit_store s0 /\ dabit_store s1' = dabit_store s1 /\
       (n <= length (btriple_store s0'))%nat).
Proof.
  intros HP HS. unfold checkBoolTriples.
  rewrite <- (Forall2_len _ _ _ (proj2 HS)).
  destruct (Nat.ltb_spec (length (btriple_store s0)) n).
  - eapply rel_imp; [apply addBoolTriples_rel; auto|].
    cbn beta. intros a b (A & B & C & D & E & F). repeat (split; [assumption|]). lia.
  - apply rel_ret. split; [auto|]. split; [apply grew_refl|]. split; [apply grew_refl|]. auto.
Qed.

Lemma checkDaBits_rel c0 c1 T0 T1 n s0 s1 : params_ok c0 c1 -> stores_paired s0 s1 ->
  rel (checkDaBits c0 T0 n s0) (checkDaBits c1 T1 n s1)
    (fun s0' s1' => stores_paired s0' s1' /\ grew s0 s0' /\ grew s1 s1' /\
       btriple_store s0' = btriple_store s0 /\ btriple_store s1' = btriple_store s1 /\
       (n <= length (dabit_store s0'))%nat).
Proof.
  intros HP HS. unfold checkDaBits.
  rewrite <- (Forall2_len _ _ _ (proj1 HS)).
  destruct (Nat.ltb_spec (length (dabit_store s0)) n).
  - eapply rel_imp; [apply addDaBits_rel; auto|].
    cbn beta. intros a b (A & B & C & D & E & F). repeat (split; [assumption|]). lia.
  - apply rel_ret. split; [auto|]. split; [apply grew_refl|]. split; [apply grew_refl|]. auto.
Qed.

(** ** Taking items *)

Lemma took_nil {A} (q : list A) : took [] q q.
Proof. exists []. now rewrite app_nil_r. Qed.
Lemma took_trans {A} (a b q q' q'' : list A) : took a q q' -> took b q' q'' -> took (a ++ b) q q''.
Proof.
  intros (g & H) (g' & H'). exists (g ++ g'). now rewrite app_assoc, H, <- !app_assoc, H'.
Qed.
Lemma took_grew {A} (l q q' : list A) : q' = q ++ l -> took [] q q'.
Proof. intros ->. now exists l. Qed.

Lemma grew_took_b s s' : grew s s' -> took_b [] s s'.
Proof. intros ((l1 & H1) & (l2 & H2) & H3). repeat split; auto; eapply took_grew; eauto. Qed.
Lemma grew_took_d s s' : grew s s' -> took_d [] s s'.
Proof. intros ((l1 & H1) & (l2 & H2) & H3). repeat split; auto; eapply took_grew; eauto. Qed.
Lemma took_b_trans a b s s' s'' : took_b a s s' -> took_b b s' s'' -> took_b (a ++ b) s s''.
Proof.
  intros (A1 & A2 & A3) (B1 & B2 & B3). split; [eapply took_trans; eauto|].
  split; [|lia]. change (@nil DaBit) with ((@nil DaBit) ++ []). eapply took_trans; eauto.
Qed.
Lemma took_d_trans a b s s' s'' : took_d a s s' -> took_d b s' s'' -> took_d (a ++ b) s s''.
Proof.
  intros (A1 & A2 & A3) (B1 & B2 & B3). split; [eapply took_trans; eauto|].
  split; [|lia]. change (@nil BoolTriple) with ((@nil BoolTriple) ++ []). eapply took_trans; eauto.
Qed.

Lemma getBoolTriple_rel c0 c1 T0 T1 s0 s1 : params_ok c0 c1 -> stores_paired s0 s1 ->
  rel (getBoolTriple c0 T0 s0) (getBoolTriple c1 T1 s1)
    (fun r0 r1 => btriple_pair (fst r0) (fst r1) /\ stores_paired (snd r0) (snd r1) /\
       took_b [fst r0] s0 (snd r0) /\ took_b [fst r1] s1 (snd r1)).
Proof.
  intros HP HS. unfold getBoolTriple. eapply rel_bind; [apply checkBoolTriples_rel; auto|].
  cbn beta. intros a b (A & B & C & D & E & F). destruct A as [A1 A2].
  destruct (btriple_store a) as [|t0 l0] eqn:E0; [cbn in F; lia|].
  inversion A2 as [|? t1 ? l1 Ht Hl]; subst. apply rel_ret. cbn [fst snd].
  split; [auto|]. split; [split; auto|].
  destruct B as ((x1 & B1) & (x2 & B2) & B3). destruct C as ((y1 & C1) & (y2 & C2) & C3).
  split; (split; [|split; [|auto]]); cbn [btriple_store dabit_store with_btriples].
  - exists x2. now rewrite <- B2, E0.
  - now apply took_grew with x1.
  - exists y2. now rewrite <- C2.
  - now apply took_grew with y1.
Qed.

Lemma getDaBit_rel c0 c1 T0 T1 s0 s1 : params_ok c0 c1 -> stores_paired s0 s1 ->
  rel (getDaBit c0 T0 s0) (getDaBit c1 T1 s1)
    (fun r0 r1 => dabit_pair (fst r0) (fst r1) /\ stores_paired (snd r0) (snd r1) /\
       took_d [fst r0] s0 (snd r0) /\ took_d [fst r1] s1 (snd r1)).
Proof.
  intros HP HS. unfold getDaBit. eapply rel_bind; [apply checkDaBits_rel; auto|].
  cbn beta. intros a b (A & B & C & D & E & F). destruct A as [A1 A2].
  destruct (dabit_store a) as [|t0 l0] eqn:E0; [cbn in F; lia|].
  inversion A1 as [|? t1 ? l1 Ht Hl]; subst. apply rel_ret. cbn [fst snd].
  split; [auto|]. split; [split; auto|].
  destruct B as ((x1 & B1) & (x2 & B2) & B3). destruct C as ((y1 & C1) & (y2 & C2) & C3).
  split; (split; [|split; [|auto]]); cbn [btriple_store dabit_store with_dabits].
  - exists x1. now rewrite <- B1, E0.
  - now apply took_grew with x2.
  - exists y1. now rewrite <- C1.
  - now apply took_grew with y2.
Qed.

Lemma getBoolTriples_rel c0 c1 T0 T1 n : params_ok c0 c1 -> forall s0 s1, stores_paired s0 s1 ->
  rel (getBoolTriples c0 T0 n s0) (getBoolTriples c1 T1 n s1)
    (fun r0 r1 => Forall2 btriple_pair (fst r0) (fst r1) /\ length (fst r0) = n /\
       stores_paired (snd r0) (snd r1) /\
       took_b (fst r0) s0 (snd r0) /\ took_b (fst r1) s1 (snd r1)).
Proof.
  intros HP. induction n as [|n IH]; intros s0 s1 HS; cbn [getBoolTriples].
  - apply rel_ret. cbn [fst snd]. repeat split; auto; try apply HS; apply took_nil.
  - eapply rel_bind; [apply getBoolTriple_rel; auto|]. cbn beta.
    intros [t0 a] [t1 b] (A & B & C & D). cbn [fst snd] in *.
    eapply rel_bind; [apply IH; auto|]. cbn beta.
    intros [l0 a'] [l1 b'] (A' & L & B' & C' & D'). cbn [fst snd] in *.
    apply rel_ret. cbn [fst snd]. split; [constructor; auto|]. split; [cbn; auto|]. split; [auto|].
    split; [exact (took_b_trans [t0] l0 _ _ _ C C')|exact (took_b_trans [t1] l1 _ _ _ D D')].
Qed.

Lemma getDaBits_rel c0 c1 T0 T1 n : params_ok c0 c1 -> forall s0 s1, stores_paired s0 s1 ->
  rel (getDaBits c0 T0 n s0) (getDaBits c1 T1 n s1)
    (fun r0 r1 => Forall2 dabit_pair (fst r0) (fst r1) /\ length (fst r0) = n /\
       stores_paired (snd r0) (snd r1) /\
       took_d (fst r0) s0 (snd r0) /\ took_d (fst r1) s1 (snd r1)).
Proof.
  intros HP. induction n as [|n IH]; intros s0 s1 HS; cbn [getDaBits].
  - apply rel_ret. cbn [fst snd]. repeat split; auto; try apply HS; apply took_nil.
  - eapply rel_bind; [apply getDaBit_rel; auto|]. cbn beta.
    intros [t0 a] [t1 b] (A & B & C & D). cbn [fst snd] in *.
    eapply rel_bind; [apply IH; auto|]. cbn beta.
    intros [l0 a'] [l1 b'] (A' & L & B' & C' & D'). cbn [fst snd] in *.
    apply rel_ret. cbn [fst snd]. split; [constructor; auto|]. split; [cbn; auto|]. split; [auto|].
    split; [exact (took_d_trans [t0] l0 _ _ _ C C')|exact (took_d_trans [t1] l1 _ _ _ D D')].
Qed.

Lemma maybeUpdate_rel c0 c1 T0 T1 s0 s1 : params_ok c0 c1 -> stores_paired s0 s1 ->
  rel (maybeUpdate c0 T0 s0) (maybeUpdate c1 T1 s1)
    (fun s0' s1' => stores_paired s0' s1' /\ grew s0 s0' /\ grew s1 s1' /\
       btriple_store s0' = btriple_store s0 /\ btriple_store s1' = btriple_store s1).
Proof.
  intros HP HS. unfold maybeUpdate. destruct HP as (P0 & P1 & Pb & Pn & Pl) eqn:EP. clear EP.
  rewrite <- (Forall2_len _ _ _ (proj1 HS)), <- (Forall2_len _ _ _ (proj2 HS)), Pb, Pn.
  rewrite !Nat.mul_0_l. change (length (btriple_store s0) <? 0)%nat with false. cbn [bind].
  rewrite <- (Forall2_len _ _ _ (proj1 HS)).
  match goal with |- rel (if ?b then _ else _) _ _ => destruct b end.
  - eapply rel_imp; [apply addDaBits_rel; [repeat split; auto|auto]|]. cbn beta. tauto.
  - apply rel_ret. split; [auto|]. split; [apply grew_refl|]. split; [apply grew_refl|]. auto.
Qed.
