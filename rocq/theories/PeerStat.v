(** * A server facing an arbitrary program: VAR, STDDEV and LINREG *)
From Coq Require Import ZArith List Bool Lia Permutation.
From Verif Require Import Words WordsFacts Constants Share Proc ProcFacts Net NetFacts SpecNet RelFacts OT Correlated Circuit Snip SpecSnip
  ServerOps SpecServer TableFacts ServerFacts SpecStat SpecAvail SnipFacts SnipBatch StatReads StatProps StatSound AvailFacts NoForkRun
  SpecPeer PeerFacts PeerProps.
Import ListNotations.
Open Scope Z_scope.

Lemma mod_limbs x : limbs_ok (x mod p).
Proof.
  unfold limbs_ok. pose proof (Z.mod_pos_bound x p ltac:(reflexivity)) as H.
  assert (p < two64) by reflexivity. lia.
Qed.
Lemma zero_limbs : limbs_ok 0.
Proof. unfold limbs_ok, two64. lia. Qed.

Lemma delivers_sent {A} s (r : proc A) x : delivers s r x -> exists bs, sent_bytes s = Some bs.
Proof. intros (bs & E & _). exists bs. exact (emits_sent_any _ _ _ E). Qed.

(** ** Receiving field elements *)
Lemma feed_chunk n l r : length l = (n * 8)%nat -> exists x, feed (recv_fmpz_chunk n) (l ++ r) = Some (x, r) /\ length x = n.
Proof.
  intros L. eexists. unfold recv_fmpz_chunk. change FMPZ_BYTES with 8%nat. split.
  - apply (feed_recv (n * 8) (fun bs => Ret (map le_val (chunks n 8 bs)))). exact L.
  - now rewrite map_length, chunks_length.
Qed.
Lemma feed_batch n l r : length l = (8 * n)%nat -> exists x, feed (recv_fmpz_batch n) (l ++ r) = Some (x, r) /\ length x = n.
Proof.
  unfold recv_fmpz_batch. assert (G : forall fuel n l, (n <= fuel)%nat -> length l = (8 * n)%nat ->
    exists x, feed (recv_fmpz_batch_loop MAX_FMPZ_BATCH fuel n) (l ++ r) = Some (x, r) /\ length x = n).
  { clear. assert (MP : (1 <= Z.to_nat MAX_FMPZ_BATCH)%nat) by (unfold MAX_FMPZ_BATCH; lia).
    induction fuel as [|f IH]; intros n l F L; cbn [recv_fmpz_batch_loop];
      destruct (Z.ltb_spec MAX_FMPZ_BATCH (Z.of_nat n)) as [B|B].
    - unfold MAX_FMPZ_BATCH in B. lia.
    - apply feed_chunk. lia.
    - set (mb := Z.to_nat MAX_FMPZ_BATCH) in *.
      assert (Hm : (mb <= n)%nat) by (unfold mb; lia).
      rewrite <- (firstn_skipn (mb * 8) l), <- app_assoc.
      assert (L1 : length (firstn (mb * 8) l) = (mb * 8)%nat) by (apply firstn_length_le; lia).
      destruct (feed_chunk mb _ (skipn (mb * 8) l ++ r) L1) as (x & E1 & X1).
      destruct (IH (n - mb)%nat (skipn (mb * 8) l)) as (y & E2 & Y2); [lia|rewrite skipn_length; lia|].
      exists (x ++ y). split; [|rewrite app_length; lia].
      rewrite (feed_bind _ _ _ _ _ E1), (feed_bind _ _ _ _ _ E2). reflexivity.
    - apply feed_chunk. lia. }
  intros L. apply G; auto.
Qed.
Lemma feed_cors n l : length l = (16 * n)%nat -> exists x, feed (recv_CorShare_batch n) l = Some (x, []) /\ length x = n.
Proof.
  intros L. rewrite <- (firstn_skipn (8 * n) l).
  destruct (feed_batch n (firstn (8 * n) l) (skipn (8 * n) l)) as (x & E1 & X1); [rewrite firstn_length_le; lia|].
  destruct (feed_batch n (skipn (8 * n) l) []) as (y & E2 & Y2); [rewrite skipn_length; lia|]. rewrite app_nil_r in E2.
  exists (map2 mkCorShare x y). unfold recv_CorShare_batch. rewrite (feed_bind _ _ _ _ _ E1), (feed_bind _ _ _ _ _ E2).
  split; [reflexivity|]. rewrite map2_length. lia.
Qed.

(** ** The proofs *)
Definition well_sized (c : circuit) (it : circuit * ClientPacket * list Z) : Prop :=
  let '(d, req, inp) := it in
  d = c /\ length (MulShares req) = NumMulGates c /\
  NextPowerOfTwo (Z.of_nat (NumMulGates c)) = Some (Z.of_nat (length (h_points req))) /\ length inp = NumInputs c.

Lemma randSum_limbs K : forall arr pos out, limbs_ok (randSum_loop K pos arr out).
Proof. induction arr as [|a arr IH]; intros pos out; cbn [randSum_loop]; [apply mod_limbs|apply IH]. Qed.
Lemma out_limbs K : forall cks cors pos, Forall limbs_ok (fst (out_shares K pos cks cors)).
Proof.
  induction cks as [|ck cks IH]; intros [|cor cors] pos; cbn [out_shares fst]; try constructor.
  specialize (IH cors (pos + draws_of ck)%nat). destruct (out_shares _ _ cks cors). cbn [fst] in *.
  constructor; auto. apply randSum_limbs.
Qed.
Lemma all_some_checkers c s pre (items : list (circuit * ClientPacket * list Z)) : Forall (well_sized c) items ->
  exists cks, all_some (map (fun it => let '(c, req, inp) := it in new_Checker c s req pre inp) items) = Some cks.
Proof.
  induction 1 as [|[[d req] inp] items (-> & L1 & L2 & L3) _ [cks IH]]; [now exists []|].
  cbn [map]. unfold new_Checker at 1. rewrite L2, L1, L3, Nat2Z.id, !Nat.ltb_irrefl. cbn [orb all_some].
  rewrite IH. cbn. eauto.
Qed.

Lemma validate_fine Pb s K st c items : items <> [] -> Forall (well_sized c) items ->
  fine Pb (fun r => length (fst r) = length items) (validate_snips s K st items).
Proof.
  intros NE W. unfold validate_snips. destruct items as [|[[c0 req0] inp0] items']; [easy|].
  pose proof (Forall_inv W) as (-> & L1 & L2 & L3).
  set (items := (c, req0, inp0) :: items') in *. clearbody items. clear items' NE. rewrite L2.
  destruct (getPrecomp _ _) as [pre st2].
  destruct (all_some_checkers c s pre items W) as [cks EC]. rewrite EC.
  apply all_some_len in EC. rewrite map_length in EC. unfold fork_xchg at 1.
  destruct (delivers_sent _ _ _ (delivers_CorShare_batch (map CorShareFn cks) ltac:(apply Forall_map, Forall_forall; intros ck _; split; apply mod_limbs)))
    as [bs ->].
  cbn [bind fine]. intros l LL _. destruct (feed_cors (length items) l LL) as (x & -> & LX). cbn [bind].
  pose proof (out_shares_len K cks (map2 Cor_of (map CorShareFn cks) x) (seed_pos st2)) as LO.
  rewrite map2_length, map_length in LO. specialize (LO ltac:(lia)).
  pose proof (out_limbs K cks (map2 Cor_of (map CorShareFn cks) x) (seed_pos st2)) as OL.
  destruct (out_shares _ _ _ _) as [vs pos']. cbn [fst] in *. unfold fork_xchg.
  destruct (delivers_sent _ _ _ (delivers_fmpz_batch vs OL)) as [bs2 ->]. cbn [bind fine]. intros l2 L2' _.
  destruct (feed_batch (length items) l2 []) as (y & E2 & LY); [lia|]. rewrite app_nil_r in E2. rewrite E2. cbn [bind fine fst].
  rewrite map2_length. lia.
Qed.

Lemma against_assoc {A B C} (q : proc A) (f : A -> proc B) (g : B -> proc C) : forall i w,
  against (bind (bind q f) g) i w = against (bind q (fun x => bind (f x) g)) i w.
Proof.
  induction q as [a| |bs q IH|n k IH|bs n k IH|n ms q IH|n cs k IH]; intros i w; cbn [bind against]; auto.
  - destruct (n <=? length i)%nat; auto.
  - destruct (n <=? length i)%nat; auto.
  - destruct w as [|m w]; auto. destruct (length m =? length cs)%nat; auto.
Qed.

(** A program that reads exactly [n] bytes. *)
Definition takes {A} (n : nat) (Q : A -> Prop) (p : proc A) : Prop :=
  forall B (f : A -> proc B) i w,
    ((n <= length i)%nat /\ exists r, Q r /\ against (bind p f) i w = against (f r) (skipn n i) w) \/
    ((length i < n)%nat /\ against (bind p f) i w = Waits).

Lemma validate_takes s K st c items : items <> [] -> Forall (well_sized c) items ->
  takes (24 * length items) (fun r => length (fst r) = length items) (validate_snips s K st items).
Proof.
  intros NE W B f i w. unfold validate_snips. destruct items as [|[[c0 req0] inp0] items']; [easy|].
  pose proof (Forall_inv W) as (-> & L1 & L2 & L3).
  set (items := (c, req0, inp0) :: items') in *. clearbody items. clear items' NE. rewrite L2.
  destruct (getPrecomp _ _) as [pre st2].
  destruct (all_some_checkers c s pre items W) as [cks EC]. rewrite EC.
  apply all_some_len in EC. rewrite map_length in EC. unfold fork_xchg.
  destruct (delivers_sent _ _ _ (delivers_CorShare_batch (map CorShareFn cks) ltac:(apply Forall_map, Forall_forall; intros ck _; split; apply mod_limbs)))
    as [bs ->].
  cbn [bind against]. set (n := length items) in *.
  match goal with |- context [(?k <=? length i)%nat] => replace k with (16 * n)%nat by lia end.
  destruct (Nat.leb_spec (16 * n) (length i)) as [H1|H1]; [|right; split; [lia|reflexivity]].
  destruct (feed_cors n (firstn (16 * n) i)) as (x & -> & LX); [rewrite firstn_length; lia|]. cbn [bind].
  pose proof (out_shares_len K cks (map2 Cor_of (map CorShareFn cks) x) (seed_pos st2)) as LO.
  rewrite map2_length, map_length in LO. specialize (LO ltac:(lia)).
  pose proof (out_limbs K cks (map2 Cor_of (map CorShareFn cks) x) (seed_pos st2)) as OL.
  destruct (out_shares _ _ _ _) as [vs pos']. cbn [fst] in *.
  destruct (delivers_sent _ _ _ (delivers_fmpz_batch vs OL)) as [bs2 ->]. cbn [bind against].
  match goal with |- context [(?k <=? length (skipn _ _))%nat] => replace k with (8 * n)%nat by lia end.
  rewrite skipn_length. destruct (Nat.leb_spec (8 * n) (length i - 16 * n)) as [H2|H2]; [|right; split; [lia|reflexivity]].
  left. split; [lia|].
  destruct (feed_batch n (firstn (8 * n) (skipn (16 * n) i)) []) as (y & E2 & LY);
    [rewrite firstn_length, skipn_length; lia|]. rewrite app_nil_r in E2. rewrite E2. cbn [bind].
  eexists. split; [|rewrite skipn_skipn'; replace (16 * n + 8 * n)%nat with (24 * n)%nat by lia; reflexivity].
  cbn [fst]. rewrite map2_length. lia.
Qed.

(** ** The conversion *)
Lemma send_row_len mod_ rnd : forall cols i, length (snd (intsum_send_row mod_ rnd cols i)) = length cols.
Proof.
  induction cols as [|[num nb] cols IH]; intros i; cbn [intsum_send_row]; [reflexivity|].
  destruct (intsum_send_bits mod_ rnd nb 0 i num 0) as [l a]. specialize (IH (i + nb)%nat).
  destruct (intsum_send_row mod_ rnd cols (i + nb)). cbn [snd length] in *. congruence.
Qed.
Lemma send_rows_shape mod_ rnd nbs : forall rows i, Forall (fun r => length (fst r) = length nbs) rows ->
  Forall (fun r => length r = length nbs) (snd (intsum_send_rows mod_ rnd nbs rows i)).
Proof.
  induction rows as [|[row v] rows IH]; intros i F; cbn [intsum_send_rows]; [constructor|].
  pose proof (Forall_inv F) as H. pose proof (IH (i + total nbs)%nat (Forall_inv_tail F)) as IH'. cbn [fst] in H.
  destruct (intsum_send_rows mod_ rnd nbs rows (i + total nbs)) as [l' rets]. cbn [snd] in IH'.
  destruct v.
  - pose proof (send_row_len mod_ rnd (combine row nbs) i) as LR. rewrite combine_length, H, Nat.min_id in LR.
    destruct (intsum_send_row mod_ rnd (combine row nbs) i). cbn [snd] in *. constructor; auto.
  - cbn [snd]. constructor; auto. apply repeat_length.
Qed.

(** Rows and packets of the right sizes. *)
Definition sized_entry (c : circuit) (n : nat) (e : list Z * ClientPacket) : Prop :=
  length (fst e) = n /\ length (MulShares (snd e)) = NumMulGates c /\
  NextPowerOfTwo (Z.of_nat (NumMulGates c)) = Some (Z.of_nat (length (h_points (snd e)))).

Lemma items_sized c (nbs : list nat) l (rows : list (list Z)) : NumInputs c = length nbs -> Forall (sized_entry c (length nbs)) l ->
  length rows = length l -> Forall (fun r : list Z => length r = length nbs) rows ->
  Forall (well_sized c) (map2 (fun e row => (c, snd e, row)) l rows).
Proof.
  intros HI F. revert rows. induction F as [|e l (E1 & E2 & E3) F IH]; intros [|row rows] L R; try discriminate; [constructor|].
  cbn [map2]. apply Forall_cons_iff in R as [R1 R2]. constructor; [|apply IH; auto; cbn in L; congruence].
  repeat split; auto. congruence.
Qed.

Lemma sums0_fine Pb K rnd c nbs known l st : widths_ok nbs = true -> NumInputs c = length nbs ->
  l <> [] -> Forall (sized_entry c (length nbs)) l -> fine Pb yes (snip_sums0 K rnd c nbs known l st).
Proof.
  intros HW HI NE F. unfold snip_sums0, share_convert, b2a_ot, intsum_ot_sender. rewrite HW.
  match goal with |- context [intsum_send_rows ?m ?r ?n ?rows ?i] =>
    pose proof (send_rows_len m r n rows i) as LR; pose proof (send_rows_shape m r n rows i) as SR;
    destruct (intsum_send_rows m r n rows i) as [msgs ret] end.
  cbn [snd] in *. rewrite combine_length, !map_length, Nat.min_id in LR.
  cbn [bind fine]. eapply fine_bind.
  - apply (validate_fine Pb false K st c).
    + destruct l; [easy|]. destruct ret; [discriminate|]. discriminate.
    + apply items_sized with (nbs := nbs); auto. apply SR.
      assert (G : forall l0 : list (list Z * ClientPacket), Forall (sized_entry c (length nbs)) l0 ->
        Forall (fun r : list Z * bool => length (fst r) = length nbs) (combine (map (map u64) (map fst l0)) (map (fun _ => true) (map fst l0)))).
      { clear. induction 1 as [|e l0 [E _] _ IH]; cbn; constructor; auto. cbn. now rewrite map_length. }
      apply G, F.
  - intros sv _. cbn. exact I.
Qed.

Lemma sums0_takes K rnd c nbs known l st : widths_ok nbs = true -> NumInputs c = length nbs ->
  l <> [] -> Forall (sized_entry c (length nbs)) l -> takes (24 * length l) yes (snip_sums0 K rnd c nbs known l st).
Proof.
  intros HW HI NE F B f i w. unfold snip_sums0, share_convert, b2a_ot, intsum_ot_sender. rewrite HW.
  match goal with |- context [intsum_send_rows ?m ?r ?n ?rows ?i] =>
    pose proof (send_rows_len m r n rows i) as LR; pose proof (send_rows_shape m r n rows i) as SR;
    destruct (intsum_send_rows m r n rows i) as [msgs ret] end.
  cbn [snd] in *. rewrite combine_length, !map_length, Nat.min_id in LR.
  cbn [bind against].
  match goal with |- context [validate_snips false K st ?its] => set (items := its) end.
  assert (LI : length items = length l) by (unfold items; rewrite map2_length; lia).
  assert (V : takes (24 * length items) (fun r => length (fst r) = length items) (validate_snips false K st items)).
  { apply (validate_takes false K st c).
    + intros E. rewrite E in LI. destruct l; [easy|discriminate].
    + apply items_sized with (nbs := nbs); auto. apply SR.
      assert (G : forall l0 : list (list Z * ClientPacket), Forall (sized_entry c (length nbs)) l0 ->
        Forall (fun r : list Z * bool => length (fst r) = length nbs) (combine (map (map u64) (map fst l0)) (map (fun _ => true) (map fst l0)))).
      { clear. induction 1 as [|e l0 [E _] _ IH]; cbn; constructor; auto. cbn. now rewrite map_length. }
      apply G, F. }
  rewrite LI in V. rewrite against_assoc.
  edestruct (V B) as [(H & r & _ & E)|[H E]]; [left|right]; (split; [exact H|]); rewrite E; [|reflexivity].
  cbn. eexists. split; [exact I|reflexivity].
Qed.

Lemma accumulate_limbs n rows valid : Forall limbs_ok (accumulate n rows valid).
Proof.
  unfold accumulate. assert (G : forall l acc, Forall limbs_ok acc -> Forall limbs_ok (fold_left (fun ans rv =>
      if snd rv : bool then map (fun j => (nth j ans 0 + nth j (fst rv) 0) mod p) (seq 0 n) else ans) l acc)).
  { induction l as [|rv l IH]; intros acc H; cbn [fold_left]; auto. apply IH. destruct (snd rv); auto.
    apply Forall_map, Forall_forall. intros; apply mod_limbs. }
  apply G. apply Forall_forall. intros x Hx. apply repeat_spec in Hx as ->. apply zero_limbs.
Qed.

Lemma pieces_len {A} : forall lens (l : list A), length (pieces lens l) = length lens.
Proof. induction lens as [|n lens IH]; intros l; cbn; auto. Qed.

Lemma sums1_fine Pb K rnd c nbs l st : NumInputs c = length nbs ->
  l <> [] -> Forall (sized_entry c (length nbs)) l ->
  fine Pb (fun r => Forall limbs_ok (fst r)) (snip_sums1 K rnd c nbs l st).
Proof.
  intros HI NE F. unfold snip_sums1, share_convert, b2a_ot, intsum_ot_receiver. cbn [bind fine]. intros r LR.
  set (rows := map _ (chunks _ _ r)).
  assert (R1 : length rows = length l) by (unfold rows; now rewrite map_length, chunks_length, !map_length).
  assert (R2 : Forall (fun r => length r = length nbs) rows).
  { unfold rows. apply Forall_map, Forall_forall. intros x _. now rewrite map_length, pieces_len. }
  clearbody rows. eapply fine_bind.
  - apply (validate_fine Pb true K st c).
    + destruct l; [easy|]. destruct rows; [discriminate|]. discriminate.
    + now apply items_sized with (nbs := nbs).
  - intros sv _. cbn [recv_bool_batch bind fine fst]. intros b _ _. apply accumulate_limbs.
Qed.

(** ** VAR *)
Lemma packet_sizes NMul N x : NextPowerOfTwo (Z.of_nat NMul) = Some N -> packet_ok NMul x ->
  length (MulShares x) = NMul /\ NextPowerOfTwo (Z.of_nat NMul) = Some (Z.of_nat (length (h_points x))).
Proof. intros HN H. unfold packet_ok in H. rewrite HN in *. intuition congruence. Qed.
Lemma mock_sizes NMul N : NextPowerOfTwo (Z.of_nat NMul) = Some (Z.of_nat N) ->
  length (MulShares (mock_packet NMul)) = NMul /\
  NextPowerOfTwo (Z.of_nat NMul) = Some (Z.of_nat (length (h_points (mock_packet NMul)))).
Proof. intros HN. unfold mock_packet. cbn [MulShares h_points]. rewrite HN, !repeat_length, Nat2Z.id. auto. Qed.

Lemma sums0_nothing K rnd c nbs st {B} (f : _ -> proc B) i w : widths_ok nbs = true ->
  against (bind (snip_sums0 K rnd c nbs [] [] st) f) i w = Breaks.
Proof. intros HW. unfold snip_sums0, share_convert, b2a_ot, intsum_ot_sender. rewrite HW. reflexivity. Qed.

Definition ended1 {A S} (r : result A * S) : Prop := ended (fst r).

Lemma reused_twice {V} (ok : V -> bool) subs pks : reused (table_of ok subs) pks = true <-> known_twice ok subs pks.
Proof.
  induction pks as [|k pks IH]; cbn [reused].
  - split; [discriminate|]. intros (pk & a & b & c & E & _). destruct a; discriminate.
  - rewrite orb_true_iff, andb_true_iff, IH. split.
    + intros [[HK HE]|(pk & a & b & c & -> & HK)]; [|exists pk, (k :: a), b, c; auto].
      apply existsb_exists in HE as (k' & Hk & E). destruct (key_eqb_spec k k'); [subst k'|discriminate].
      apply in_split in Hk as (b & c & ->). exists k, [], b, c. split; auto.
      unfold knows. rewrite table_find in HK. now destruct (first_sub ok subs k).
    + intros (pk & [|k' a] & b & c & E & HK); injection E as -> ->.
      * left. split; [unfold knows in HK; rewrite table_find; now destruct (first_sub ok subs pk)|].
        apply existsb_exists. exists pk. split; [apply in_or_app; right; now left|]. now destruct (key_eqb_spec pk pk).
      * right. exists pk, a, b, c. auto.
Qed.

Lemma var0_breaks K rnd nb subs total st i w : (nb <= 32)%nat -> Forall (fun s => var_content (snd s)) subs ->
  let m := table_of (var_fits nb) subs in
  (against (var_op0 K rnd nb m total st) i w = Breaks <->
   exists pks rest, announced i pks rest /\
     (pks = [] \/ known_twice (var_fits nb) subs pks /\ (24 * length pks <= length rest)%nat)) /\
  (forall r, against (var_op0 K rnd nb m total st) i w = Returns r -> ended1 r).
Proof.
  intros HB HC m.
  assert (HW : widths_ok [nb; 2 * nb]%nat = true).
  { unfold widths_ok. cbn [forallb]. rewrite !(proj2 (Nat.leb_le _ 64)) by lia. reflexivity. }
  assert (HM : forall k v, find k m = Some v -> var_content v).
  { intros k v Hk. refine (find_forall var_content m k v _ Hk). apply table_forall. intros s Hs _.
    rewrite Forall_forall in HC. now apply HC. }
  pose proof (reused_twice (var_fits nb) subs) as RT. fold m in RT.
  clearbody m. unfold var_op0. cbv zeta.
  match goal with |- (against (bind learn ?f) i w = _ <-> _) /\ _ =>
    destruct (learn_against f i w) as [(pks & rest & A & ->)|[N ->]] end.
  2:{ split; [|discriminate]. split; [discriminate|]. intros (pks & rest & A' & _). elim N. eauto. }
  destruct (list_eq_dec (list_eq_dec Z.eq_dec) pks []) as [->|NP].
  { cbn [map]. rewrite sums0_nothing by exact HW. split; [|discriminate]. split; eauto. }
  set (found := map (fun pk => find pk m) pks).
  match goal with |- (against (bind ?p ?f) rest w = _ <-> _) /\ _ =>
    assert (T : takes (24 * length pks) yes p); [|destruct (T _ f rest w) as [(H & [[nv a] st'] & _ & ->)|[H ->]]] end.
  { unfold found. match goal with |- takes _ _ (snip_sums0 _ _ _ _ _ ?l _) => replace (length pks) with (length l) by now rewrite !map_length end.
    apply sums0_takes; auto.
    - destruct pks; [easy|discriminate].
    - apply Forall_map, Forall_map, Forall_forall. intros k _.
      destruct (find k m) as [[[v v2] pkt]|] eqn:E.
      + apply HM in E as (_ & _ & E). destruct (packet_sizes _ _ _ npo2_var E). repeat split; auto.
      + destruct (mock_sizes (NumMulGates CheckVar) 2 npo2_var). repeat split; auto. }
  - destruct (reused m pks) eqn:ER.
    + cbn [against]. split; [|discriminate]. split; [|reflexivity]. intros _. exists pks, rest. split; auto. right.
      split; auto. now apply RT.
    + match goal with |- (against ?q ?j w = _ <-> _) /\ _ => assert (FF : fine anyb ended1 q);
        [|pose proof (fine_against anyb _ _ FF j w (all_any j)) as FA] end.
      { cbn [bind fine recv_fmpz]. intros b _ _ b2 _ _.
        unfold ended1, ended. destruct (too_few _ _); cbn [fine fst]; eauto. }
      assert (NB : ~ exists pks rest, announced i pks rest /\
        (pks = [] \/ known_twice (var_fits nb) subs pks /\ (24 * length pks <= length rest)%nat)).
      { intros (pks' & rest' & A' & HX). destruct (announced_unique _ _ _ _ _ A A') as [<- <-].
        destruct HX as [->|[HX _]]; [easy|]. apply RT in HX. congruence. }
      destruct (against _ _ w) as [r| |]; [|easy|].
      * split; [|now intros r' [= <-]]. split; [discriminate|]. intros HX. now elim NB.
      * split; [|discriminate]. split; [discriminate|]. intros HX. now elim NB.
  - split; [|discriminate]. split; [discriminate|].
    intros (pks' & rest' & A' & HX). destruct (announced_unique _ _ _ _ _ A A') as [<- <-].
    destruct HX as [->|[_ HX]]; [easy|lia].
Qed.

Lemma var1_fine order K rnd nb subs st : fair order -> Forall (fun s => var_content (snd s)) subs ->
  (exists pk, first_sub (var_fits nb) subs pk <> None) ->
  fine anyb (fun r => fst r = RET_NO_ANS) (var_op1 order K rnd nb (table_of (var_fits nb) subs) st).
Proof.
  intros HF HC [pk NE].
  assert (HM : Forall (fun e => var_content (snd e)) (order _ (table_of (var_fits nb) subs))).
  { apply fair_forall; auto. apply table_forall. intros s Hs _. rewrite Forall_forall in HC. now apply HC. }
  assert (HN : order _ (table_of (var_fits nb) subs) <> []).
  { intros E. pose proof (fair_length order (table_of (var_fits nb) subs) HF) as L. rewrite E in L.
    rewrite <- table_find in NE. destruct (table_of _ subs); [now elim NE|discriminate]. }
  unfold var_op1. cbv zeta. set (l := order _ _) in *. clearbody l. apply fine_announce.
  eapply fine_bind.
  - apply sums1_fine.
    + reflexivity.
    + destruct l; [easy|discriminate].
    + apply Forall_map. eapply Forall_impl; [|exact HM]. intros [k [[v v2] pkt]] (_ & _ & E). cbn [snd] in *.
      destruct (packet_sizes _ _ _ npo2_var E). repeat split; auto.
  - intros [a st'] HA. cbn [fst snd] in *.
    assert (HL : forall j, limbs_ok (nth j a 0)).
    { intros j. destruct (nth_in_or_default j a 0) as [H| ->]; [|apply zero_limbs]. rewrite Forall_forall in HA. now apply HA. }
    pose proof (delivers_fmpz _ (HL 0%nat)) as (b0 & E0 & _). pose proof (delivers_fmpz _ (HL 1%nat)) as (b1 & E1 & _).
    eapply fine_bind; [exact (fine_emits anyb _ _ _ E0)|]. intros _ _.
    eapply fine_bind; [exact (fine_emits anyb _ _ _ E1)|]. intros _ _. reflexivity.
Qed.

Lemma var_table nb total stream junk : (nb < 32)%nat -> bytes stream -> length junk = 48%nat -> Z.of_nat total < two32 ->
  exists subs, arrives_cut var_wire var_size total stream subs /\ Forall (fun s => var_content (snd s)) subs /\
    receive (var_one nb (NumMulGates CheckVar)) total (stream, junk) [] = Some (table_of (var_fits nb) subs).
Proof.
  intros HB HS HJ HT. destruct (decode_arrives var_wire var_size var_content var_decode total stream HS HT) as (subs & A & C).
  exists subs. split; auto. split; auto. destruct A as (rest & -> & HT' & HP & HL). now apply var_receive.
Qed.

Lemma var_peer0 order nb total stream junk K rnd st :
  (nb < 32)%nat -> bytes stream -> length junk = 48%nat -> Z.of_nat total < two32 ->
  exists subs, arrives_cut var_wire var_size total stream subs /\ forall i w,
  (against (var_op false order nb total stream junk K rnd st) i w = Breaks <->
   exists pks rest, announced i pks rest /\
     (pks = [] \/ known_twice (var_fits nb) subs pks /\ (24 * length pks <= length rest)%nat)) /\
  (forall r, against (var_op false order nb total stream junk K rnd st) i w = Returns r -> ended (fst r)).
Proof.
  intros HB HS HJ HT. destruct (var_table nb total stream junk HB HS HJ HT) as (subs & A & C & E).
  exists subs. split; auto. intros i w.
  unfold var_op. destruct (Nat.leb_spec 64 nb); [lia|]. rewrite E. apply var0_breaks; auto. lia.
Qed.
Lemma var_peer1 order nb total stream junk K rnd st :
  (nb < 32)%nat -> fair order -> bytes stream -> length junk = 48%nat -> Z.of_nat total < two32 ->
  exists subs, arrives_cut var_wire var_size total stream subs /\
    ((exists pk, first_sub (var_fits nb) subs pk <> None) ->
     survives (var_op true order nb total stream junk K rnd st) (fun r => fst r = RET_NO_ANS)).
Proof.
  intros HB HF HS HJ HT. destruct (var_table nb total stream junk HB HS HJ HT) as (subs & A & C & E).
  exists subs. split; auto. intros NE. unfold var_op. destruct (Nat.leb_spec 64 nb); [lia|]. rewrite E.
  apply fine_survives. now apply var1_fine.
Qed.
