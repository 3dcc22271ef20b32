(** Thresholds of the exchanges in the code when the servers do not fork. *)
From Coq Require Import ZArith List Bool Lia Arith.
From Verif Require Import Words WordsFacts Constants Share Proc ProcFacts Net NetFacts SpecNet NetMsg RelFacts OT OTFacts
  Correlated SpecStore CorrelatedFacts MpcFacts Circuit Snip SpecSnip SnipFacts ServerOps SpecServer TableFacts ServerFacts
  HeTriples HeFacts NoFork SpecNoFork NoForkFacts.
Import ListNotations.
Open Scope Z_scope.

Arguments Z.mul : simpl never.
Arguments Z.add : simpl never.
Arguments Z.modulo : simpl never.
Arguments Nat.mul : simpl never.
Opaque Int_Modulus.

(** ** Which programs do not exchange *)
Lemma noX_emits {A} (p : proc A) bs a : emits p bs a -> noX p.
Proof. induction 1; cbn; auto. Qed.

Lemma noX_chunk x : noX (send_fmpz_chunk x).
Proof. unfold send_fmpz_chunk. destruct (forallb fits_limbs x); cbn; auto. Qed.
Lemma noX_send_fmpz_batch x : noX (send_fmpz_batch x).
Proof.
  unfold send_fmpz_batch. generalize (length x) as fuel. intros fuel. revert x. induction fuel as [|f IH]; intros x; cbn;
  destruct (MAX_FMPZ_BATCH <? Z.of_nat (length x)); cbn; auto using noX_chunk.
  apply noX_bind; auto using noX_chunk.
Qed.
Lemma noX_recv_fmpz_batch n : noX (recv_fmpz_batch n).
Proof.
  unfold recv_fmpz_batch. generalize n at 1 as fuel. intros fuel. revert n. induction fuel as [|f IH]; intros n; cbn [recv_fmpz_batch_loop];
  destruct (MAX_FMPZ_BATCH <? Z.of_nat n); cbn; auto.
  intros l. apply noX_bind; auto. intros; cbn; auto.
Qed.
Lemma noX_send_fmpz x : noX (send_fmpz x).
Proof. unfold send_fmpz. destruct (fits_limbs x); cbn; auto. Qed.
Lemma noX_recv_fmpz : noX recv_fmpz.
Proof. cbn. auto. Qed.
Lemma noX_recv_each n : noX (recv_fmpz_each n).
Proof. induction n as [|n IH]; cbn; auto. intros l. apply noX_bind; auto. intros; cbn; auto. Qed.
Lemma noX_send_pks pks : noX (send_pks pks).
Proof. induction pks; cbn; auto. Qed.
Lemma noX_recv_pks n : noX (recv_pks n).
Proof. induction n as [|n IH]; cbn; auto. intros k. apply noX_bind; auto. intros; cbn; auto. Qed.
Lemma noX_announce {V} (l : table V) : noX (announce l).
Proof. unfold announce. apply noX_bind; cbn; auto using noX_send_pks. Qed.
Lemma noX_learn : noX learn.
Proof. unfold learn. apply noX_bind; cbn; auto using noX_recv_pks. Qed.

Lemma noX_addBool c T n s : noX (addBoolTriples c T n s).
Proof.
  unfold addBoolTriples. apply noX_bind; [|intros; cbn; auto]. unfold gen_boolean_beaver_triples.
  destruct (Correlated.server_num c); cbn; auto.
Qed.
Lemma noX_checkBool c T n s : noX (checkBoolTriples c T n s).
Proof. unfold checkBoolTriples. destruct (_ <? _)%nat; [apply noX_addBool|cbn; auto]. Qed.
Lemma noX_getBool c T n : forall s, noX (getBoolTriples c T n s).
Proof.
  induction n as [|n IH]; intros s; cbn [getBoolTriples]; [cbn; auto|].
  apply noX_bind.
  - unfold getBoolTriple. apply noX_bind; [apply noX_checkBool|]. intros s'. destruct (btriple_store s'); cbn; auto.
  - intros ts. apply noX_bind; auto. intros; cbn; auto.
Qed.

Lemma noX_send_da_chunk x : noX (send_DaBit_chunk x).
Proof. unfold send_DaBit_chunk. apply noX_bind; [apply noX_send_fmpz_batch|intros; cbn; auto]. Qed.
Lemma noX_send_da x : noX (send_DaBit_batch x).
Proof.
  unfold send_DaBit_batch. generalize (length x) as fuel. intros fuel. revert x. induction fuel as [|f IH]; intros x;
  cbn [send_DaBit_batch_loop]; destruct (MAX_DABIT_BATCH <? Z.of_nat (length x)); cbn [noX]; auto using noX_send_da_chunk.
  apply noX_bind; auto using noX_send_da_chunk.
Qed.
Lemma noX_recv_da_chunk n : noX (recv_DaBit_chunk n).
Proof. unfold recv_DaBit_chunk. apply noX_bind; [apply noX_recv_fmpz_batch|intros; cbn; auto]. Qed.
Lemma noX_recv_da n : noX (recv_DaBit_batch n).
Proof.
  unfold recv_DaBit_batch. generalize n at 1 as fuel. intros fuel. revert n. induction fuel as [|f IH]; intros n;
  cbn [recv_DaBit_batch_loop]; destruct (MAX_DABIT_BATCH <? Z.of_nat n); cbn [noX]; auto using noX_recv_da_chunk.
  apply noX_bind; auto using noX_recv_da_chunk. intros l. apply noX_bind; auto. intros; cbn; auto.
Qed.
Lemma noX_addDa c T n s : noX (addDaBits c T n s).
Proof.
  unfold addDaBits. destruct (lazy c), (Correlated.server_num c).
  - apply noX_bind; [apply noX_recv_da|intros; cbn; auto].
  - apply noX_bind; [apply noX_send_da|intros; cbn; auto].
  - cbn. auto.
  - cbn. auto.
Qed.
Lemma noX_checkDa c T n s : noX (checkDaBits c T n s).
Proof. unfold checkDaBits. destruct (_ <? _)%nat; [apply noX_addDa|cbn; auto]. Qed.
Lemma noX_getDa c T n : forall s, noX (getDaBits c T n s).
Proof.
  induction n as [|n IH]; intros s; cbn [getDaBits]; [cbn; auto|].
  apply noX_bind.
  - unfold getDaBit. apply noX_bind; [apply noX_checkDa|]. intros s'. destruct (dabit_store s'); cbn; auto.
  - intros ts. apply noX_bind; auto. intros; cbn; auto.
Qed.

(** ** The store's exchanges *)
Lemma multiply_thr c0 c1 T0 T1 x0 y0 x1 y1 s0 s1 a b :
  params_ok c0 c1 -> stores_paired s0 s1 ->
  length x1 = length x0 -> length y0 = length x0 -> length y1 = length x0 ->
  conv (multiplyBoolShares c0 T0 x0 y0 s0) (multiplyBoolShares c1 T1 x1 y1 s1) a b ->
  thr (2 * bool_bytes (length x0)) (nofork (multiplyBoolShares c0 T0 x0 y0 s0)) (nofork (multiplyBoolShares c1 T1 x1 y1 s1)) a b.
Proof.
  intros HP HS L1 L2 L3. unfold multiplyBoolShares. rewrite L1. intros CV.
  destruct (checkBoolTriples_rel c0 c1 T0 T1 (length x0) s0 s1 HP HS) as (a0 & a1 & C1 & A & B & C & _).
  pose proof (conv_after _ _ _ _ _ _ CV (conv_bind_runs _ _ _ _ _ _ _ _ C1 (runs_refl _ _))) as CV1. clear CV. cbn beta in CV1.
  eapply thr_runs; [apply (runs_noX _ _ _ _ _ _ C1); apply noX_checkBool|]. cbn beta.
  destruct (getBoolTriples_rel c0 c1 T0 T1 (length x0) HP a0 a1 A) as ([t0 b0] & [t1 b1] & C2 & D & L & E & F & G).
  pose proof (conv_after _ _ _ _ _ _ CV1 (conv_bind_runs _ _ _ _ _ _ _ _ C2 (runs_refl _ _))) as CV2. clear CV1. cbn beta in CV2.
  eapply thr_runs; [apply (runs_noX _ _ _ _ _ _ C2); apply noX_getBool|]. cbn beta. cbn [fst snd] in *.
  pose proof (Forall2_len _ _ _ D) as L'.
  set (d0 := map2 _ x0 t0) in *. set (e0 := map2 _ y0 t0) in *. set (d1 := map2 _ x1 t1) in *. set (e1 := map2 _ y1 t1) in *.
  set (N := length x0) in *.
  assert (Ld0 : length d0 = N) by (subst d0; rewrite map2_length; lia).
  assert (Le0 : length e0 = N) by (subst e0; rewrite map2_length; lia).
  assert (Ld1 : length d1 = N) by (subst d1; rewrite map2_length; lia).
  assert (Le1 : length e1 = N) by (subst e1; rewrite map2_length; lia).
  replace (2 * bool_bytes N)%nat with (bool_bytes N + bool_bytes N)%nat by lia.
  eapply thr_xchg with (need := 0%nat);
    [rewrite app_length, !(bool_bytes_pack _ N) by auto; auto..|lia|].
  assert (K0 : length (pack_bools d0 ++ pack_bools e0) = (bool_bytes N + bool_bytes N)%nat)
    by (rewrite app_length, !(bool_bytes_pack _ N) by auto; auto).
  assert (K1 : length (pack_bools d1 ++ pack_bools e1) = (bool_bytes N + bool_bytes N)%nat)
    by (rewrite app_length, !(bool_bytes_pack _ N) by auto; auto).
  apply thr_noX; [|cbn; auto..].
  exact (conv_after _ _ _ _ _ _ CV2 (runs_xchg _ _ _ _ _ _ K0 K1)).
Qed.

Lemma b2a_single_thr c0 c1 T0 T1 x0 x1 s0 s1 a b :
  params_ok c0 c1 -> stores_paired s0 s1 -> length x1 = length x0 ->
  conv (b2a_daBit_single c0 T0 x0 s0) (b2a_daBit_single c1 T1 x1 s1) a b ->
  thr (bool_bytes (length x0)) (nofork (b2a_daBit_single c0 T0 x0 s0)) (nofork (b2a_daBit_single c1 T1 x1 s1)) a b.
Proof.
  intros HP HS L1. unfold b2a_daBit_single. rewrite L1. intros CV.
  destruct (checkDaBits_rel c0 c1 T0 T1 (length x0) s0 s1 HP HS) as (a0 & a1 & C1 & A & B & C & _).
  pose proof (conv_after _ _ _ _ _ _ CV (conv_bind_runs _ _ _ _ _ _ _ _ C1 (runs_refl _ _))) as CV1. clear CV. cbn beta in CV1.
  eapply thr_runs; [apply (runs_noX _ _ _ _ _ _ C1); apply noX_checkDa|]. cbn beta.
  destruct (getDaBits_rel c0 c1 T0 T1 (length x0) HP a0 a1 A) as ([t0 b0] & [t1 b1] & C2 & D & L & E & F & G).
  pose proof (conv_after _ _ _ _ _ _ CV1 (conv_bind_runs _ _ _ _ _ _ _ _ C2 (runs_refl _ _))) as CV2. clear CV1. cbn beta in CV2.
  eapply thr_runs; [apply (runs_noX _ _ _ _ _ _ C2); apply noX_getDa|]. cbn beta. cbn [fst snd] in *.
  pose proof (Forall2_len _ _ _ D) as L'.
  set (v0 := map2 _ x0 t0) in *. set (v1 := map2 _ x1 t1) in *. set (N := length x0) in *.
  assert (Lv0 : length v0 = N) by (subst v0; rewrite map2_length; lia).
  assert (Lv1 : length v1 = N) by (subst v1; rewrite map2_length; lia).
  pose proof (bool_bytes_pack v0 N Lv0) as K0. pose proof (bool_bytes_pack v1 N Lv1) as K1.
  eapply thr_xchg with (need := 0%nat); [exact K0|exact K1|lia|].
  apply thr_noX; [|cbn; auto..].
  exact (conv_after _ _ _ _ _ _ CV2 (runs_xchg _ _ _ _ _ _ K0 K1)).
Qed.

(** ** The SNIP exchange *)

(** Bytes of a send-only program. *)
Lemma sent_bytes_bind {A B} (s : proc A) (f : A -> proc B) bs : sent_bytes (bind s f) = Some bs ->
  exists x a y, emits s x a /\ sent_bytes (f a) = Some y /\ bs = x ++ y.
Proof.
  revert bs. induction s; intros bs0 E; cbn in E; try discriminate.
  - exists [], a, bs0. repeat split; auto. constructor.
  - destruct (sent_bytes (bind s f)) as [l|] eqn:E1; [|discriminate]. injection E as <-.
    destruct (IHs _ eq_refl) as (x & a & y & Hx & Hy & ->). exists (bs ++ x), a, y. split; [now constructor|].
    split; auto. now rewrite app_assoc.
Qed.

Lemma chunk_sent x bs : sent_bytes (send_fmpz_chunk x) = Some bs -> length bs = (8 * length x)%nat.
Proof.
  unfold send_fmpz_chunk. destruct (forallb fits_limbs x); [|discriminate]. cbn. intros [= <-]. rewrite app_nil_r.
  clear. induction x as [|a x IH]; [reflexivity|]. cbn [map concat length]. rewrite app_length, IH, le_bytes_length.
  change FMPZ_BYTES with 8%nat. lia.
Qed.
Lemma emits_sent_any {A} (s : proc A) bs a : emits s bs a -> sent_bytes s = Some bs.
Proof. induction 1; cbn; auto. now rewrite IHemits. Qed.

Lemma batch_sent x bs : sent_bytes (send_fmpz_batch x) = Some bs -> length bs = (8 * length x)%nat.
Proof.
  unfold send_fmpz_batch. generalize (length x) at 1 as fuel. intros fuel. revert x bs.
  induction fuel as [|f IH]; intros x bs; cbn [send_fmpz_batch_loop];
  destruct (MAX_FMPZ_BATCH <? Z.of_nat (length x)) eqn:E; try discriminate; try apply chunk_sent.
  intros H. apply sent_bytes_bind in H as (y & [] & z & Hy & Hz & ->).
  apply emits_sent_any, chunk_sent in Hy. apply IH in Hz. rewrite app_length, Hy, Hz.
  rewrite firstn_length, skipn_length. apply Z.ltb_lt in E. lia.
Qed.
Lemma cor_sent l bs : sent_bytes (send_CorShare_batch l) = Some bs -> length bs = (16 * length l)%nat.
Proof.
  unfold send_CorShare_batch. intros H. apply sent_bytes_bind in H as (y & [] & z & Hy & Hz & ->).
  apply emits_sent_any, batch_sent in Hy. apply batch_sent in Hz. rewrite app_length, Hy, Hz, !map_length. lia.
Qed.

(** Lengths of what is received. *)
Lemma feed_bind_inv {A B} (r : proc A) (f : A -> proc B) : forall s y rest, feed (bind r f) s = Some (y, rest) ->
  exists x mid, feed r s = Some (x, mid) /\ feed (f x) mid = Some (y, rest).
Proof.
  induction r; intros s y rest E; cbn in E; try discriminate.
  - exists a, s. auto.
  - destruct (n <=? length s)%nat eqn:L; [|discriminate]. apply H in E as (x & mid & E1 & E2).
    exists x, mid. cbn. rewrite L. auto.
Qed.
Lemma batch_recv_len n : forall s l rest, feed (recv_fmpz_batch n) s = Some (l, rest) -> length l = n.
Proof.
  unfold recv_fmpz_batch. generalize n at 1 as fuel. intros fuel. revert n.
  assert (CH : forall n s l rest, feed (recv_fmpz_chunk n) s = Some (l, rest) -> length l = n).
  { intros n s l rest. cbn [recv_fmpz_chunk feed]. unfold recv_fmpz_chunk. cbn [feed].
    destruct (_ <=? _)%nat; [|discriminate]. intros [= <- _]. rewrite map_length, chunks_length. reflexivity. }
  induction fuel as [|f IH]; intros n s l rest; cbn [recv_fmpz_batch_loop];
  destruct (MAX_FMPZ_BATCH <? Z.of_nat n) eqn:E; try discriminate; try apply CH.
  intros H. apply feed_bind_inv in H as (x & mid & H1 & H2). apply feed_bind_inv in H2 as (y & mid' & H2 & H3).
  apply CH in H1. apply IH in H2. cbn [feed] in H3. injection H3 as <- _. rewrite app_length, H1, H2.
  apply Z.ltb_lt in E. lia.
Qed.
Lemma cor_recv_len n s l rest : feed (recv_CorShare_batch n) s = Some (l, rest) -> length l = n.
Proof.
  unfold recv_CorShare_batch. intros H. apply feed_bind_inv in H as (x & mid & H1 & H2).
  apply feed_bind_inv in H2 as (y & mid' & H2 & H3). apply batch_recv_len in H1, H2. cbn [feed] in H3.
  injection H3 as <- _. rewrite map2_length. lia.
Qed.

Lemma all_some_len {A} (l : list (option A)) r : all_some l = Some r -> length r = length l.
Proof.
  revert r. induction l as [|[x|] l IH]; intros r H; cbn in H; try discriminate; [now injection H as <-|].
  destruct (all_some l) as [r'|]; [|discriminate]. injection H as <-. cbn. f_equal. now apply IH.
Qed.
Lemma out_shares_len K : forall cks cors pos, length cors = length cks -> length (fst (out_shares K pos cks cors)) = length cks.
Proof.
  induction cks as [|ck cks IH]; intros [|cor cors] pos L; try discriminate; [reflexivity|]. cbn [out_shares].
  specialize (IH cors (pos + draws_of ck)%nat ltac:(cbn in L; congruence)).
  destruct (out_shares K (pos + draws_of ck) cks cors). cbn in *. congruence.
Qed.

(** An exchange of [16 N] bytes, then one of [8 N], then none. *)
Definition paced {A} (N : nat) (p : proc A) : Prop :=
  p = Undef \/ exists bs k, p = Xchg bs (16 * N) k /\ length bs = (16 * N)%nat /\
    forall l, k l = Undef \/ exists bs2 k2, k l = Xchg bs2 (8 * N) k2 /\ length bs2 = (8 * N)%nat /\ forall l2, noX (k2 l2).

Lemma paced_bind {A B} N (p : proc A) (f : A -> proc B) : paced N p -> (forall a, noX (f a)) -> paced N (bind p f).
Proof.
  intros [->|(bs & k & -> & L & H)] Hf; [now left|]. right. exists bs, (fun l => bind (k l) f).
  split; [reflexivity|]. split; auto. intros l. destruct (H l) as [->|(bs2 & k2 & -> & L2 & N2)]; [now left|].
  right. exists bs2, (fun l => bind (k2 l) f). repeat split; auto. intros l2. apply noX_bind; auto.
Qed.

Lemma validate_paced s K st items : paced (length items) (validate_snips s K st items).
Proof.
  unfold validate_snips. destruct items as [|[[c0 pk] row] items']; [now left|].
  set (items := (c0, pk, row) :: items'). clearbody items. clear items'.
  destruct (NextPowerOfTwo (Z.of_nat (NumMulGates c0))) as [NR|]; [|now left].
  destruct (getPrecomp (Z.to_nat NR) (init_roots_if (Z.to_nat NR) st)) as [pre st2].
  destruct (all_some _) as [cks|] eqn:EC; [|now left]. apply all_some_len in EC. rewrite map_length in EC.
  unfold fork_xchg at 1. destruct (sent_bytes (send_CorShare_batch (map CorShareFn cks))) as [bs|] eqn:E1; [|now left].
  apply cor_sent in E1. rewrite map_length, EC in E1. cbn [bind].
  right. eexists bs, _. split; [reflexivity|]. split; [exact E1|]. intros l.
  destruct (feed (recv_CorShare_batch (length items)) l) as [[other [|z rest]]|] eqn:E2; [|now left..].
  apply cor_recv_len in E2. cbn [bind].
  pose proof (out_shares_len K cks (map2 Cor_of (map CorShareFn cks) other) (seed_pos st2)) as LO.
  rewrite map2_length, map_length in LO. specialize (LO ltac:(lia)).
  destruct (out_shares K (seed_pos st2) cks (map2 Cor_of (map CorShareFn cks) other)) as [valid pos'].
  cbn [fst] in LO. unfold fork_xchg.
  destruct (sent_bytes (send_fmpz_batch valid)) as [bs2|] eqn:E3; [|now left]. apply batch_sent in E3. rewrite LO, EC in E3.
  right. cbn [bind]. eexists bs2, _. split; [reflexivity|]. split; [exact E3|]. intros l2.
  destruct (feed (recv_fmpz_batch (length items)) l2) as [[vo [|z rest]]|]; cbn; auto.
Qed.

Lemma paced_thr {A B} N (p : proc A) (q : proc B) a b : paced N p -> paced N q -> conv p q a b ->
  thr (16 * N) (nofork p) (nofork q) a b.
Proof.
  intros [->|(m0 & k0 & -> & L0 & H0)] [->|(m1 & k1 & -> & L1 & H1)] CV;
    try (now destruct (conv_not_undef0 _ _ _ CV)); try (now destruct (conv_not_undef1 _ _ _ CV)).
  pose proof (conv_after _ _ _ _ _ _ CV (runs_xchg _ _ _ _ k0 k1 L0 L1)) as CV1.
  eapply thr_xchg with (need := (8 * N)%nat); [exact L0|exact L1|lia|].
  destruct (H0 m1) as [E|(r0 & h0 & E0 & R0 & N0)]; [rewrite E in CV1; now destruct (conv_not_undef0 _ _ _ CV1)|].
  destruct (H1 m0) as [E|(r1 & h1 & E1 & R1 & N1)]; [rewrite E in CV1; now destruct (conv_not_undef1 _ _ _ CV1)|].
  rewrite E0, E1 in *.
  eapply thr_xchg with (need := 0%nat); [exact R0|exact R1|lia|].
  apply thr_noX; auto. exact (conv_after _ _ _ _ _ _ CV1 (runs_xchg _ _ _ _ h0 h1 R0 R1)).
Qed.

(** ** The conversion in front of it *)
Lemma conv_ot_len {A B} i ps cs (k : proc A) (k' : list Z -> proc B) a b :
  conv (OTSend i ps k) (OTRecv i cs k') a b -> length ps = length cs.
Proof.
  intros C. destruct (C 1%nat ltac:(lia)) as (n & Hn). inversion Hn; subst.
  inversion H; subst; auto; match goal with L : lstep _ _ _ |- _ => inversion L end.
Qed.

Lemma send_rows_len mod_ rnd nbs : forall rows i, length (snd (intsum_send_rows mod_ rnd nbs rows i)) = length rows.
Proof.
  induction rows as [|[row v] rows IH]; intros i; cbn [intsum_send_rows]; [reflexivity|].
  repeat match goal with |- context [let (_, _) := ?e in _] => destruct e eqn:? end; cbn [snd length].
  f_equal. match goal with E : intsum_send_rows _ _ _ rows ?j = (_, ?x) |- length ?x = _ => rewrite <- (IH j), E end. reflexivity.
Qed.

Lemma snip_thr {A B} K rnd0 rnd1 c nbs kn l0 l1 st0 st1 f g (a : A) (b : B) :
  length l0 = length l1 -> (forall x, noX (f x)) -> (forall x, noX (g x)) ->
  conv (bind (snip_sums0 K rnd0 c nbs kn l0 st0) f) (bind (snip_sums1 K rnd1 c nbs l1 st1) g) a b ->
  thr (16 * length l1) (nofork (bind (snip_sums0 K rnd0 c nbs kn l0 st0) f))
                       (nofork (bind (snip_sums1 K rnd1 c nbs l1 st1) g)) a b.
Proof.
  intros L Hf Hg. unfold snip_sums0, snip_sums1, share_convert, b2a_ot, intsum_ot_sender, intsum_ot_receiver.
  destruct (widths_ok nbs); [|intros CV; now destruct (conv_not_undef0 _ _ _ CV)].
  match goal with |- context [intsum_send_rows ?m ?r ?n ?rows ?i] => pose proof (send_rows_len m r n rows i) as LR;
    destruct (intsum_send_rows m r n rows i) as [msgs ret] end.
  cbn [snd] in LR. rewrite combine_length, !map_length, Nat.min_id in LR.
  cbn [bind]. intros CV. pose proof (conv_ot_len _ _ _ _ _ _ _ CV) as LM.
  pose proof (conv_after _ _ _ _ _ _ CV (runs_ot _ _ _ _ _ LM)) as CV1. clear CV.
  cbn [nofork]. eapply thr_runs; [exact (runs_ot _ _ _ _ (fun l => nofork _) LM)|].
  cbn beta in *. set (sh := map _ (chunks _ _ _)) in *.
  assert (LS : length sh = length l1) by (unfold sh; rewrite map_length, chunks_length, !map_length; reflexivity).
  apply paced_thr; auto; (apply paced_bind; [|first [exact Hf|exact Hg]]).
  - rewrite <- L. match goal with |- paced _ (bind (validate_snips _ _ _ ?it) _) => replace (length l0) with (length it)
      by (rewrite map2_length; lia) end.
    apply paced_bind; [apply validate_paced|]. intros sv. apply noX_bind; cbn; auto.
  - match goal with |- paced _ (bind (validate_snips _ _ _ ?it) _) => replace (length l1) with (length it)
      by (rewrite map2_length; lia) end.
    apply paced_bind; [apply validate_paced|]. intros sv. apply noX_bind; cbn; auto.
Qed.

(** ** VAR and LINREG, from the tables on *)
Lemma var_thr order1 K rnd0 rnd1 nb (m0 m1 : table (Z * Z * ClientPacket)) total0 st0 st1 a b :
  fair order1 -> Forall (fun e => length (fst e) = PK_LENGTH) m1 -> Z.of_nat (length m1) < two32 ->
  conv (var_op0 K rnd0 nb m0 total0 st0) (var_op1 order1 K rnd1 nb m1 st1) a b ->
  thr (16 * length m1) (nofork (var_op0 K rnd0 nb m0 total0 st0)) (nofork (var_op1 order1 K rnd1 nb m1 st1)) a b.
Proof.
  intros HF HK LM. unfold var_op0, var_op1. cbv zeta.
  assert (LO : length (order1 _ m1) = length m1) by (apply fair_length; auto).
  set (l := order1 _ m1) in *.
  assert (DV : delivers (announce l) learn (map fst l)).
  { apply delivers_announce; [unfold l; now apply fair_forall|now rewrite LO]. }
  assert (CL : conv learn (announce l) (map fst l) tt).
  { destruct DV as (bs & E & F). specialize (F []). rewrite app_nil_r in F. eapply conv_feed_emit; eauto. }
  intros CV. pose proof (conv_after _ _ _ _ _ _ CV (conv_bind_runs _ _ _ _ _ _ _ _ CL (runs_refl _ _))) as CV1.
  eapply thr_runs; [apply (runs_noX _ _ _ _ _ _ CL); [apply noX_learn|apply noX_announce]|]. cbn beta in *.
  match goal with |- context [snip_sums1 _ _ _ _ ?l1 _] => replace (length m1) with (length l1) by now rewrite map_length end.
  apply snip_thr; [now rewrite !map_length| | |exact CV1].
  - intros [[nv s] st']. unfold recv_fmpz. cbn [bind noX]. destruct (reused _ _); [exact I|]. cbn [bind noX]. intros. destruct (too_few nv total0); cbn; auto.
  - intros r. apply noX_bind; [apply noX_send_fmpz|]. intros _. apply noX_bind; [apply noX_send_fmpz|]. intros; cbn; auto.
Qed.

Lemma linreg_thr order1 K rnd0 rnd1 nb degree garbage m0 m1 total0 st0 st1 a b :
  fair order1 -> Forall (fun e => length (fst e) = PK_LENGTH) m1 -> Z.of_nat (length m1) < two32 ->
  conv (linreg_op0 K rnd0 nb degree garbage m0 total0 st0) (linreg_op1 order1 K rnd1 nb degree m1 st1) a b ->
  thr (16 * length m1) (nofork (linreg_op0 K rnd0 nb degree garbage m0 total0 st0))
                       (nofork (linreg_op1 order1 K rnd1 nb degree m1 st1)) a b.
Proof.
  intros HF HK LM. unfold linreg_op0, linreg_op1. cbv zeta.
  assert (LO : length (order1 _ m1) = length m1) by (apply fair_length; auto).
  set (l := order1 _ m1) in *.
  assert (DV : delivers (announce l) learn (map fst l)).
  { apply delivers_announce; [unfold l; now apply fair_forall|now rewrite LO]. }
  assert (CL : conv learn (announce l) (map fst l) tt).
  { destruct DV as (bs & E & F). specialize (F []). rewrite app_nil_r in F. eapply conv_feed_emit; eauto. }
  intros CV. pose proof (conv_after _ _ _ _ _ _ CV (conv_bind_runs _ _ _ _ _ _ _ _ CL (runs_refl _ _))) as CV1.
  eapply thr_runs; [apply (runs_noX _ _ _ _ _ _ CL); [apply noX_learn|apply noX_announce]|]. cbn beta in *.
  destruct (reused m0 (map fst l)); [now destruct (conv_not_undef0 _ _ _ CV1)|].
  match goal with |- context [snip_sums1 _ _ _ _ ?l1 _] => replace (length m1) with (length l1) by now rewrite map_length end.
  apply snip_thr; [| | |exact CV1].
  - rewrite map2_length, seq_length, Nat.min_id, !map_length. reflexivity.
  - intros [[nv s] st']. apply noX_bind; [apply noX_recv_each|]. intros. cbv zeta. destruct (too_few nv total0); cbn; auto.
  - intros r. apply noX_bind; [apply noX_send_fmpz_batch|]. intros; cbn; auto.
Qed.

(** ** FREQ *)
Lemma b2a_single_dead {A B} c0 c1 T0 T1 x0 x1 s0 s1 (f : _ -> proc A) (g : _ -> proc B) :
  params_ok c0 c1 -> stores_paired s0 s1 -> length x1 = length x0 ->
  dead (bool_bytes (length x0)) (nofork (bind (b2a_daBit_single c0 T0 x0 s0) f)) (nofork (bind (b2a_daBit_single c1 T1 x1 s1) g)).
Proof.
  intros HP HS L1. unfold b2a_daBit_single. rewrite L1.
  destruct (checkDaBits_rel c0 c1 T0 T1 (length x0) s0 s1 HP HS) as (a0 & a1 & C1 & A' & _ & _ & _).
  eapply dead_runs; [apply (runs_noX2 _ _ _ _ _ _ _ _ C1); apply noX_checkDa|]. cbn beta.
  destruct (getDaBits_rel c0 c1 T0 T1 (length x0) HP a0 a1 A') as ([t0 b0] & [t1 b1] & C2 & D & L & _ & _ & _).
  eapply dead_runs; [apply (runs_noX2 _ _ _ _ _ _ _ _ C2); apply noX_getDa|]. cbn beta. cbn [fst snd] in *.
  pose proof (Forall2_len _ _ _ D) as L'.
  intros cap Hc Hd. cbn [bind]. apply xchg_deadlock; rewrite (bool_bytes_pack _ (length x0)); auto; rewrite map2_length; lia.
Qed.
