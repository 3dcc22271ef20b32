(** * A server facing an arbitrary program: LINREG *)
From Coq Require Import ZArith List Bool Lia Permutation.
From Verif Require Import Words WordsFacts Constants Share Proc ProcFacts Net NetFacts SpecNet RelFacts OT Correlated Circuit Snip SpecSnip
  ServerOps SpecServer TableFacts ServerFacts SpecStat SpecAvail SnipFacts SnipBatch StatReads StatProps StatSound AvailFacts NoForkRun
  SpecPeer PeerFacts PeerProps PeerStat.
Import ListNotations.
Open Scope Z_scope.

Lemma linreg_row_len degree v : (1 <= degree)%nat -> linreg_shape degree v -> length (linreg_row v) = num_fields degree.
Proof.
  destruct v as [[[x y] x2] xy]. intros HD (L1 & L2 & L3 & _). unfold linreg_row, num_fields.
  rewrite app_length. cbn [length]. rewrite app_length. lia.
Qed.
Lemma linreg_bits_len nb degree : length (linreg_bits nb degree) = num_fields degree.
Proof. unfold linreg_bits. now rewrite map_length, seq_length. Qed.
Lemma linreg_widths nb degree : (nb <= 32)%nat -> widths_ok (linreg_bits nb degree) = true.
Proof.
  intros H. unfold widths_ok, linreg_bits. apply forallb_forall. intros x Hx. apply in_map_iff in Hx as (j & <- & _).
  apply Nat.leb_le. destruct (degree <=? j)%nat; lia.
Qed.

Lemma listens_each n : listens (recv_fmpz_each n).
Proof.
  induction n as [|n IH]; cbn [recv_fmpz_each]; [exact I|]. apply listens_bind; [cbn; auto|]. intros x.
  apply listens_bind; auto. cbn. auto.
Qed.

Section Lin.
Variables (degree N : nat).
Hypothesis HD : (1 <= degree)%nat.
Hypothesis HN : NextPowerOfTwo (Z.of_nat (NumMulGates (CheckLinReg degree))) = Some (Z.of_nat N).

Lemma linreg0_breaks K rnd nb garbage subs total st i w : (nb <= 32)%nat ->
  Forall (fun s => linreg_content degree (snd s)) subs ->
  (forall i, let '(x, x2, xy) := garbage i in linreg_shape degree (x, 0, x2, xy)) ->
  let m := table_of (linreg_fits nb) subs in
  (against (linreg_op0 K rnd nb degree garbage m total st) i w = Breaks <->
   exists pks rest, announced i pks rest /\ (pks = [] \/ known_twice (linreg_fits nb) subs pks)) /\
  (forall r, against (linreg_op0 K rnd nb degree garbage m total st) i w = Returns r -> ended1 r).
Proof.
  intros HB HC HG m. destruct (linreg_gates degree HD) as [_ GI].
  pose proof (linreg_widths nb degree HB) as HW.
  assert (HM : forall k v, find k m = Some v -> linreg_content degree v).
  { intros k v Hk. refine (find_forall (linreg_content degree) m k v _ Hk). apply table_forall. intros s Hs _.
    rewrite Forall_forall in HC. now apply HC. }
  pose proof (reused_twice (linreg_fits nb) subs) as RT. fold m in RT.
  clearbody m. unfold linreg_op0. cbv zeta.
  match goal with |- (against (bind learn ?f) i w = _ <-> _) /\ _ =>
    destruct (learn_against f i w) as [(pks & rest & A & ->)|[NA ->]] end.
  2:{ split; [|discriminate]. split; [discriminate|]. intros (pks & rest & A' & _). elim NA. eauto. }
  destruct (reused m pks) eqn:ER.
  { cbn [against]. split; [|discriminate]. split; [|reflexivity]. intros _. exists pks, rest. split; auto. right. now apply RT. }
  destruct (list_eq_dec (list_eq_dec Z.eq_dec) pks []) as [->|NP].
  { cbn [map map2]. rewrite sums0_nothing by exact HW. split; [|discriminate]. split; eauto. }
  set (found := map (fun pk => find pk m) pks).
  match goal with |- (against (bind ?p ?f) rest w = _ <-> _) /\ _ =>
    assert (FF : fine anyb ended1 (bind p f)) end.
  { eapply fine_bind with (Q := yes).
    - apply sums0_fine; auto.
      + now rewrite linreg_bits_len.
      + unfold found. destruct pks; [easy|discriminate].
      + rewrite linreg_bits_len.
        assert (HFD : Forall (fun f => forall v, f = Some v -> linreg_content degree v) found).
        { unfold found. apply Forall_map, Forall_forall. intros k _ v. apply HM. }
        clearbody found. generalize (seq 0 (length found)).
        induction HFD as [|f fs Hf _ IH]; intros [|j js]; cbn [map2]; try constructor; [|apply IH].
        destruct f as [[v pkt]|].
        * destruct (Hf _ eq_refl) as [S E]. cbn [fst snd] in *.
          destruct (packet_sizes _ _ _ HN E) as [P1 P2]. split; [now apply linreg_row_len|]. auto.
        * specialize (HG j). destruct (garbage j) as [[x x2] xy].
          destruct (mock_sizes _ _ HN) as [P1 P2]. split; [now apply linreg_row_len|]. auto.
    - intros [[nv a] st'] _.
      eapply fine_bind; [exact (fine_listens anyb _ (listens_each _))|]. intros b _.
      unfold ended1, ended. destruct (too_few _ _); cbn [fine fst]; eauto. }
  pose proof (fine_against anyb _ _ FF rest w (all_any rest)) as FA.
  assert (NB : ~ exists pks rest, announced i pks rest /\ (pks = [] \/ known_twice (linreg_fits nb) subs pks)).
  { intros (pks' & rest' & A' & HX). destruct (announced_unique _ _ _ _ _ A A') as [<- <-].
    destruct HX as [->|HX]; [easy|]. apply RT in HX. congruence. }
  destruct (against _ rest w) as [r| |]; [|easy|].
  - split; [|now intros r' [= <-]]. split; [discriminate|]. intros HX. now elim NB.
  - split; [|discriminate]. split; [discriminate|]. intros HX. now elim NB.
Qed.

Lemma linreg1_fine order K rnd nb subs st : fair order -> Forall (fun s => linreg_content degree (snd s)) subs ->
  (exists pk, first_sub (linreg_fits nb) subs pk <> None) ->
  fine anyb (fun r => fst r = RET_NO_ANS) (linreg_op1 order K rnd nb degree (table_of (linreg_fits nb) subs) st).
Proof.
  intros HF HC [pk NE]. destruct (linreg_gates degree HD) as [_ GI].
  assert (HM : Forall (fun e => linreg_content degree (snd e)) (order _ (table_of (linreg_fits nb) subs))).
  { apply fair_forall; auto. apply table_forall. intros s Hs _. rewrite Forall_forall in HC. now apply HC. }
  assert (NN : order _ (table_of (linreg_fits nb) subs) <> []).
  { intros E. pose proof (fair_length order (table_of (linreg_fits nb) subs) HF) as L. rewrite E in L.
    rewrite <- table_find in NE. destruct (table_of _ subs); [now elim NE|discriminate]. }
  unfold linreg_op1. cbv zeta. set (l := order _ _) in *. clearbody l. apply fine_announce.
  eapply fine_bind.
  - apply sums1_fine.
    + now rewrite linreg_bits_len.
    + destruct l; [easy|discriminate].
    + rewrite linreg_bits_len. apply Forall_map. eapply Forall_impl; [|exact HM]. intros [k [v pkt]] [S E]. cbn [fst snd] in *.
      destruct (packet_sizes _ _ _ HN E) as [P1 P2]. split; [now apply linreg_row_len|]. auto.
  - intros [a st'] HA. cbn [fst snd] in *.
    pose proof (delivers_fmpz_batch _ HA) as (b0 & E0 & _).
    eapply fine_bind; [exact (fine_emits anyb _ _ _ E0)|]. intros _ _. reflexivity.
Qed.
End Lin.

Lemma linreg_setup degree nb total stream d0 junk : (nb < 32)%nat -> (1 <= degree)%nat ->
  (num_quad degree + num_x degree < 2 ^ 18)%nat -> bytes stream -> length junk = 32%nat -> length d0 = 8%nat ->
  Z.of_nat total < two32 ->
  exists N subs, NextPowerOfTwo (Z.of_nat (NumMulGates (CheckLinReg degree))) = Some (Z.of_nat N) /\
    arrives_cut linreg_wire (linreg_size degree) total stream subs /\
    Forall (fun s => linreg_content degree (snd s)) subs /\
    forall (server : bool) order garbage K rnd st,
      linreg_op server order nb total (degree_wire degree ++ stream) d0 junk garbage K rnd st =
      if server then linreg_op1 order K rnd nb degree (table_of (linreg_fits nb) subs) st
      else linreg_op0 K rnd nb degree garbage (table_of (linreg_fits nb) subs) total st.
Proof.
  intros HB HD HQ HS HJ H0 HT. destruct (linreg_gates degree HD) as [GM _].
  assert (HM : (NumMulGates (CheckLinReg degree) < 2 ^ 18)%nat) by (rewrite GM; exact HQ).
  destruct (SnipFacts.npo2_nat _ HM) as (kk & _ & _ & HN). clear HM GM.
  pose proof (fun b => linreg_decode degree _ b HN) as dec.
  destruct (decode_arrives linreg_wire _ (linreg_content degree) dec total stream HS HT) as (subs & A & C).
  exists (2 ^ kk)%nat, subs. split; auto. split; auto. split; auto. intros server order garbage K rnd st.
  pose proof (degree_small degree HQ) as D32.
  destruct A as (rest & -> & HT' & HP & HL).
  destruct (degree_read degree (wire linreg_wire subs ++ rest) d0 D32 H0) as (e & R & E).
  unfold linreg_op. destruct (Nat.leb_spec 64 nb) as [B|B]; [lia|]. rewrite R, E. clear R E.
  destruct (Nat.eqb_spec degree 0) as [Z0|_]; [lia|].
  rewrite (linreg_receive nb degree _ _ _ _ _ HB HN) by auto. reflexivity.
Qed.

Lemma linreg_peer0 degree order nb total stream d0 junk garbage K rnd st :
  (nb < 32)%nat -> (1 <= degree)%nat -> (num_quad degree + num_x degree < 2 ^ 18)%nat -> bytes stream ->
  length junk = 32%nat -> length d0 = 8%nat -> Z.of_nat total < two32 ->
  (forall i, let '(x, x2, xy) := garbage i in linreg_shape degree (x, 0, x2, xy)) ->
  let run := linreg_op false order nb total (degree_wire degree ++ stream) d0 junk garbage K rnd st in
  exists subs, arrives_cut linreg_wire (linreg_size degree) total stream subs /\ forall i w,
  (against run i w = Breaks <->
   exists pks rest, announced i pks rest /\ (pks = [] \/ known_twice (linreg_fits nb) subs pks)) /\
  (forall r, against run i w = Returns r -> ended (fst r)).
Proof.
  intros HB HD HQ HS HJ H0 HT HG. cbv zeta.
  destruct (linreg_setup degree nb total stream d0 junk) as (N & subs & HN & AC & C & E); auto.
  exists subs. split; auto. intros i w.
  rewrite E. apply (linreg0_breaks degree N); auto. lia.
Qed.
Lemma linreg_peer1 degree order nb total stream d0 junk garbage K rnd st :
  (nb < 32)%nat -> (1 <= degree)%nat -> (num_quad degree + num_x degree < 2 ^ 18)%nat -> fair order -> bytes stream ->
  length junk = 32%nat -> length d0 = 8%nat -> Z.of_nat total < two32 ->
  exists subs, arrives_cut linreg_wire (linreg_size degree) total stream subs /\
    ((exists pk, first_sub (linreg_fits nb) subs pk <> None) ->
     survives (linreg_op true order nb total (degree_wire degree ++ stream) d0 junk garbage K rnd st) (fun r => fst r = RET_NO_ANS)).
Proof.
  intros HB HD HQ HF HS HJ H0 HT.
  destruct (linreg_setup degree nb total stream d0 junk) as (N & subs & HN & A & C & E); auto.
  exists subs. split; auto. intros NE. rewrite E. apply fine_survives. now apply (linreg1_fine degree N).
Qed.
