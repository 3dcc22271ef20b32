(** * A server facing an arbitrary program: FREQ *)
From Coq Require Import ZArith List Bool Lia Permutation.
From Verif Require Import Words WordsFacts Constants Share Proc ProcFacts Net NetFacts SpecNet RelFacts OT OTFacts Correlated CorrelatedFacts Circuit Snip SpecSnip
  ServerOps SpecServer TableFacts ServerFacts SpecStat SpecAvail AvailFacts FreqFacts
  SpecPeer PeerFacts PeerProps PeerStat.
Import ListNotations.
Open Scope Z_scope.

(** Programs that do not wait for anything. *)
Inductive quiet {A} : proc A -> A -> Prop :=
| q_ret a : quiet (Ret a) a
| q_send bs k a : quiet k a -> quiet (Send bs k) a
| q_ot x ps k a : quiet k a -> quiet (OTSend x ps k) a.
Lemma quiet_bind {A B} (p : proc A) a (f : A -> proc B) b : quiet p a -> quiet (f a) b -> quiet (bind p f) b.
Proof. induction 1; cbn; intros; auto; constructor; auto. Qed.
Lemma quiet_emits {A} (p : proc A) bs a : emits p bs a -> quiet p a.
Proof. induction 1; constructor; auto. Qed.
Lemma quiet_against {A B} (p : proc A) a (f : A -> proc B) i w : quiet p a -> against (bind p f) i w = against (f a) i w.
Proof. induction 1; cbn [bind against]; auto. Qed.

(** ** The daBits on server 0 *)
Section Dealer.
Variables (c : store_params) (T : nat -> Z).
Hypothesis S0 : server_num c = false.

Lemma add0_quiet n s : exists s', quiet (addDaBits c T n s) s' /\ (length (dabit_store s) + n <= length (dabit_store s'))%nat.
Proof.
  unfold addDaBits. rewrite S0. set (m := if (_ <? _)%nat then n else _).
  assert (Hm : (n <= m)%nat) by (subst m; destruct (Nat.ltb_spec (batch_size c) n); lia).
  destruct (lazy c).
  - set (pairs := map _ (seq 0 m)).
    assert (Lp : length (map fst pairs) = m) by (subst pairs; now rewrite !map_length, seq_length).
    destruct (delivers_DaBit_batch (map snd pairs)) as (bs & E & _).
    { apply Forall_forall. intros d Hd. apply in_map_iff in Hd. destruct Hd as (pr & <- & Hd).
      apply in_map_iff in Hd. destruct Hd as (i & <- & _). apply range_limbs. apply local_dabit_pair. }
    eexists. split; [eapply quiet_bind; [exact (quiet_emits _ _ _ E)|constructor]|].
    cbn [advance with_dabits dabit_store]. rewrite app_length. lia.
  - unfold generateDaBit. cbn [bind]. eexists. split; [constructor; constructor|].
    cbn [advance with_dabits dabit_store]. rewrite app_length. unfold dabit_out.
    rewrite map2_length, map_length. unfold draw_bits, draw_words. rewrite !map_length, !seq_length. lia.
Qed.
Lemma check0_quiet n s : exists s', quiet (checkDaBits c T n s) s' /\ (n <= length (dabit_store s'))%nat.
Proof.
  unfold checkDaBits. destruct (Nat.ltb_spec (length (dabit_store s)) n).
  - destruct (add0_quiet (n - length (dabit_store s)) s) as (s' & Q & L). exists s'. split; auto. lia.
  - exists s. split; [constructor|auto].
Qed.
Lemma get0_quiet n : forall s, exists r, quiet (getDaBits c T n s) r /\ length (fst r) = n.
Proof.
  induction n as [|n IH]; intros s; cbn [getDaBits]; [eexists; split; [constructor|reflexivity]|].
  destruct (check0_quiet 1 s) as (s' & Q & L). unfold getDaBit.
  destruct (dabit_store s') as [|t l] eqn:E; [cbn in L; lia|].
  destruct (IH (with_dabits s' l)) as (r & Q' & L').
  eexists. split.
  - eapply quiet_bind; [eapply quiet_bind; [exact Q|]|].
    + cbn beta. rewrite E. constructor.
    + eapply quiet_bind; [exact Q'|]. constructor.
  - cbn [fst length]. now rewrite L'.
Qed.

Lemma single0_against {B} x s (f : _ -> proc B) i w : forall bs, length bs = bool_bytes (length x) ->
  exists v, against (bind (b2a_daBit_single c T x s) f) (bs ++ i) w = against (f v) i w.
Proof.
  unfold b2a_daBit_single. destruct (check0_quiet (length x) s) as (s1 & Q1 & _).
  destruct (get0_quiet (length x) s1) as (r & Q2 & L2). intros bs LB.
  eexists. cbv zeta.
  assert (E : forall {A C} (p : proc A) a (g : A -> proc C) (h : C -> proc B) j, quiet p a ->
    against (bind (bind p g) h) j w = against (bind (g a) h) j w).
  { intros A C p a g h j Q. induction Q; cbn [bind against]; auto. }
  rewrite (E _ _ _ _ _ _ _ Q1). cbv beta. rewrite (E _ _ _ _ _ _ _ Q2). cbv beta. cbn [bind against].
  rewrite app_length, LB. destruct (Nat.leb_spec (bool_bytes (length x)) (bool_bytes (length x) + length i)); [|lia].
  rewrite <- LB. rewrite firstn_app, Nat.sub_diag, firstn_O, firstn_all, app_nil_r.
  rewrite skipn_app, skipn_all, Nat.sub_diag. cbn [app skipn]. reflexivity.
Qed.
Lemma single0_short {B} x s (f : _ -> proc B) i w : (length i < bool_bytes (length x))%nat ->
  against (bind (b2a_daBit_single c T x s) f) i w = Waits.
Proof.
  intros H. unfold b2a_daBit_single. destruct (check0_quiet (length x) s) as (s1 & Q1 & _).
  destruct (get0_quiet (length x) s1) as (r & Q2 & L2). cbv zeta.
  assert (E : forall {A C} (p : proc A) a (g : A -> proc C) (h : C -> proc B) j, quiet p a ->
    against (bind (bind p g) h) j w = against (bind (g a) h) j w).
  { intros A C p a g h j Q. induction Q; cbn [bind against]; auto. }
  rewrite (E _ _ _ _ _ _ _ Q1). cbv beta. rewrite (E _ _ _ _ _ _ _ Q2). cbv beta. cbn [bind against].
  destruct (Nat.leb_spec (bool_bytes (length x)) (length i)); [lia|reflexivity].
Qed.

(** ** Server 0 *)
Lemma listens_batch n : listens (recv_fmpz_batch n).
Proof.
  unfold recv_fmpz_batch. assert (G : forall fuel n, (n <= fuel)%nat -> listens (recv_fmpz_batch_loop MAX_FMPZ_BATCH fuel n)).
  { assert (MP : (1 <= Z.to_nat MAX_FMPZ_BATCH)%nat) by (unfold MAX_FMPZ_BATCH; lia). 
    induction fuel as [|f IH]; intros k F; cbn [recv_fmpz_batch_loop];
      destruct (Z.ltb_spec MAX_FMPZ_BATCH (Z.of_nat k)) as [B|B]; try (cbn; auto; fail).
    - unfold MAX_FMPZ_BATCH in B. lia.
    - apply listens_bind; [cbn; auto|]. intros x. apply listens_bind; [apply IH; lia|]. intros y. cbn. auto. }
  apply G; auto.
Qed.

Lemma freq0_breaks w0 m total s i w : Forall (fun e => length (snd e) = w0) m ->
  let run := freq_op0 c T w0 m total s in
  (against run i w = Breaks <->
   exists pks rest, announced i pks rest /\
     ((total < length pks)%nat \/
      let at_ := bool_bytes (length pks * w0) in (at_ < length rest)%nat /\ ~ is_bool (nth at_ rest 0))) /\
  (forall r, against run i w = Returns r -> ended (fst r)).
Proof.
  intros HM. cbv zeta. unfold freq_op0.
  match goal with |- (against (bind learn ?f) i w = _ <-> _) /\ _ =>
    destruct (learn_against f i w) as [(pks & rest & A & ->)|[NA ->]] end.
  2:{ split; [|discriminate]. split; [discriminate|]. intros (pks & rest & A & _). elim NA. eauto. }
  cbv zeta. destruct (Nat.ltb_spec total (length pks)) as [LT|LT].
  { split; [|discriminate]. split; [|reflexivity]. intros _. exists pks, rest. auto. }
  set (found := map (fun pk => find pk m) pks). set (shares := map (get (repeat false w0)) found).
  assert (LS : length (concat shares) = (length pks * w0)%nat).
  { rewrite (concat_width w0).
    - unfold shares, found. rewrite !map_length. lia.
    - unfold shares, found. apply Forall_map, Forall_map, Forall_forall. intros k _.
      destruct (find k m) as [v|] eqn:E; cbn [get]; [|apply repeat_length].
      exact (find_forall (fun v => length v = w0) m k v HM E). }
  set (x := concat shares) in *.
  assert (IFF : forall X : Prop, (X <-> (bool_bytes (length x) < length rest)%nat /\ ~ is_bool (nth (bool_bytes (length x)) rest 0)) ->
    (X <-> exists pks rest, announced i pks rest /\
     ((total < length pks)%nat \/ (bool_bytes (length pks * w0) < length rest)%nat /\ ~ is_bool (nth (bool_bytes (length pks * w0)) rest 0)))).
  { intros X H. rewrite H, LS. split.
    - intros H'. exists pks, rest. split; auto.
    - intros (pks' & rest' & A' & H'). destruct (announced_unique _ _ _ _ _ A A') as [<- <-]. destruct H' as [H'|H']; [lia|auto]. }
  match goal with |- context [bind (b2a_daBit_single c T x s) ?f] => set (k := f) end.
  destruct (Nat.ltb_spec (length rest) (bool_bytes (length x))) as [SH|SH].
  { rewrite single0_short by auto. split; [|discriminate]. apply IFF. split; [discriminate|]. lia. }
  set (bs := firstn (bool_bytes (length x)) rest). set (rest2 := skipn (bool_bytes (length x)) rest).
  assert (ER : rest = bs ++ rest2) by (symmetry; apply firstn_skipn).
  assert (LB : length bs = bool_bytes (length x)) by (apply firstn_length_le; lia).
  destruct (single0_against x s k rest2 w bs LB) as (v & EA).
  rewrite <- ER in EA. rewrite EA. clear EA. unfold k. cbv zeta. clear k.
  assert (EN : (bool_bytes (length x) < length rest)%nat <-> rest2 <> []).
  { rewrite ER, app_length, LB. destruct rest2; cbn; split; intros; try lia; easy. }
  assert (EV : nth (bool_bytes (length x)) rest 0 = nth 0 rest2 0).
  { rewrite ER at 1. rewrite app_nth2 by lia. f_equal. lia. }
  match type of IFF with forall X, _ -> (X <-> ?S) =>
    assert (IFF' : forall X : Prop, (X <-> rest2 <> [] /\ ~ is_bool (nth 0 rest2 0)) -> (X <-> S))
      by (intros X H; apply IFF; now rewrite EV, EN) end.
  clear IFF. rename IFF' into IFF. clearbody rest2. clear ER EV EN SH bs LB.
  destruct rest2 as [|b rest2].
  { cbn [bind recv_bool against length Nat.leb]. unfold recv_bool. cbn [bind against length Nat.leb].
    split; [|discriminate]. apply IFF. split; [discriminate|]. now intros [? _]. }
  unfold recv_bool. cbn [bind against length Nat.leb firstn skipn].
  assert (FF : forall pr : bool, fine anyb (fun r => ended (fst r))
    (sum_other <- recv_fmpz ;;
     send_bool (Bool.eqb (xorb (parity_of (map parity_of shares)) pr) (Nat.odd total) &&
                ((sum_of (map sum_of (chunks (length pks) w0 (fst v))) + sum_other) mod p =? Z.of_nat total)) ;;;
     valid <- (if Bool.eqb (xorb (parity_of (map parity_of shares)) pr) (Nat.odd total) &&
                  ((sum_of (map sum_of (chunks (length pks) w0 (fst v))) + sum_other) mod p =? Z.of_nat total)
               then Ret (repeat true (length pks))
               else parity_other <- recv_bool_batch (length pks) ;;
                    sums_other <- recv_fmpz_batch (length pks) ;;
                    Ret (map3 (fun v pp ss => freq_valid v (fst pp) (snd pp) (fst ss) (snd ss))
                              (map is_some found) (combine (map parity_of shares) parity_other)
                              (combine (map sum_of (chunks (length pks) w0 (fst v))) sums_other))) ;;
     send_bool_batch valid ;;;
     accum_other <- recv_fmpz_batch w0 ;;
     if too_few (count valid) total then Ret (RET_INVALID, snd v)
     else Ret (RET_ANS (map2 (fun a b => (a + b) mod p) (accumulate w0 (chunks (length pks) w0 (fst v)) valid) accum_other), snd v))).
  { intros pr. eapply fine_bind with (Q := yes); [cbn; intros; exact I|]. intros so _.
    cbn [send_bool bind fine]. eapply fine_bind with (Q := yes).
    - destruct (_ && _); [exact I|]. eapply fine_bind with (Q := yes); [cbn; intros; exact I|]. intros po _.
      eapply fine_bind; [exact (fine_listens anyb _ (listens_batch _))|]. intros so' _. exact I.
    - intros valid _. cbn [send_bool_batch bind fine].
      eapply fine_bind; [exact (fine_listens anyb _ (listens_batch _))|]. intros ao _.
      unfold ended. destruct (too_few _ _); cbn [fine fst]; eauto. }
  cbn [nth] in IFF.
  assert (FA : forall pr, let X := against _ rest2 w in (X = Breaks <-> False) /\ forall r, X = Returns r -> ended (fst r))
    by (intros pr; pose proof (fine_against anyb _ _ (FF pr) rest2 w (all_any rest2)) as Q;
        cbv zeta; split; [split; [|easy]; intros E'; rewrite E' in Q; exact Q|intros r E'; rewrite E' in Q; exact Q]).
  clear FF. cbv zeta in FA. unfold is_bool in IFF.
  destruct (Z.eqb_spec b 0) as [->|B0]; [|destruct (Z.eqb_spec b 1) as [->|B1]].
  - cbn [bind]. destruct (FA false) as [F1 F2]. split; [|exact F2]. apply IFF. split; [intros X; apply F1 in X; easy|]. intros [_ X]; elim X; auto.
  - cbn [bind]. destruct (FA true) as [F1 F2]. split; [|exact F2]. apply IFF. split; [intros X; apply F1 in X; easy|]. intros [_ X]; elim X; auto.
  - cbn [bind against]. split; [|discriminate]. apply IFF. split; auto. intros _. split; [discriminate|]. intros [?|?]; auto.
Qed.
End Dealer.

(** ** Server 1 *)

(** Programs that read exactly [k] bytes, whatever these are. *)
Inductive reads {A} (Q : A -> Prop) : proc A -> nat -> Prop :=
| r_ret a : Q a -> reads Q (Ret a) 0
| r_send bs p k : reads Q p k -> reads Q (Send bs p) k
| r_recv n f k : (forall l, length l = n -> reads Q (f l) k) -> reads Q (Recv n f) (n + k)
| r_xchg bs n f k : (forall l, length l = n -> reads Q (f l) k) -> reads Q (Xchg bs n f) (n + k).
Lemma reads_bind {A B} Q R (p : proc A) (f : A -> proc B) k k' : reads Q p k -> (forall a, Q a -> reads R (f a) k') ->
  reads R (bind p f) (k + k').
Proof.
  intros H F. induction H; cbn [bind].
  - now apply F.
  - constructor; auto.
  - rewrite <- Nat.add_assoc. constructor. auto.
  - rewrite <- Nat.add_assoc. constructor. auto.
Qed.
Lemma reads_imp {A} (Q R : A -> Prop) p k : reads Q p k -> (forall a, Q a -> R a) -> reads R p k.
Proof. intros H F. induction H; constructor; auto. Qed.
Lemma reads_emits {A} (p : proc A) bs a : emits p bs a -> reads (fun x => x = a) p 0.
Proof. induction 1; constructor; auto. Qed.
Lemma skipn_add {A} a : forall b (l : list A), skipn (a + b) l = skipn b (skipn a l).
Proof. induction a as [|a IH]; intros b l; cbn [Nat.add skipn]; auto. destruct l; [now rewrite skipn_nil|]. apply IH. Qed.
Lemma reads_against {A B} Q (p : proc A) k (f : A -> proc B) : reads Q p k -> forall i w,
  ((length i < k)%nat -> against (bind p f) i w = Waits) /\
  ((k <= length i)%nat -> exists a, Q a /\ against (bind p f) i w = against (f a) (skipn k i) w).
Proof.
  induction 1 as [a Ha|bs p k H IH|n g k H IH|bs n g k H IH]; intros i w; cbn [bind against].
  - split; [lia|]. intros _. exists a. auto.
  - apply IH.
  - rewrite skipn_add. destruct (Nat.leb_spec n (length i)) as [L|L]; [|split; [reflexivity|lia]].
    destruct (IH (firstn n i) ltac:(now apply firstn_length_le) (skipn n i) w) as [H1 H2]. rewrite skipn_length in H1, H2.
    split; intros X; [apply H1; lia|apply H2; lia].
  - rewrite skipn_add. destruct (Nat.leb_spec n (length i)) as [L|L]; [|split; [reflexivity|lia]].
    destruct (IH (firstn n i) ltac:(now apply firstn_length_le) (skipn n i) w) as [H1 H2]. rewrite skipn_length in H1, H2.
    split; intros X; [apply H1; lia|apply H2; lia].
Qed.

Section Second.
Variables (c : store_params) (T : nat -> Z).
Hypotheses (S1 : server_num c = true) (LZ : lazy c = true).

Lemma reads_chunk n : reads (fun l => length l = n) (recv_fmpz_chunk n) (n * FMPZ_BYTES + 0).
Proof. unfold recv_fmpz_chunk. apply r_recv. intros l _. constructor. now rewrite map_length, chunks_length. Qed.
Lemma reads_batch n : exists k, reads (fun l => length l = n) (recv_fmpz_batch n) k.
Proof.
  unfold recv_fmpz_batch.
  assert (G : forall fuel n, (n <= fuel)%nat -> exists k, reads (fun l => length l = n) (recv_fmpz_batch_loop MAX_FMPZ_BATCH fuel n) k).
  { assert (MP : (1 <= Z.to_nat MAX_FMPZ_BATCH)%nat) by (unfold MAX_FMPZ_BATCH; lia).
    induction fuel as [|f IH]; intros k F; cbn [recv_fmpz_batch_loop];
      destruct (Z.ltb_spec MAX_FMPZ_BATCH (Z.of_nat k)) as [B|B]; [|eexists; apply reads_chunk| |eexists; apply reads_chunk].
    - unfold MAX_FMPZ_BATCH in B. lia.
    - set (mb := Z.to_nat MAX_FMPZ_BATCH) in *. assert (Hm : (mb <= k)%nat) by (unfold mb; lia).
      destruct (IH (k - mb)%nat ltac:(lia)) as [k2 R2].
      eexists. eapply reads_bind; [apply reads_chunk|]. cbn beta. intros x X.
      eapply reads_bind; [exact R2|]. cbn beta. intros y Y. constructor. rewrite app_length. lia. }
  apply G; auto.
Qed.
Lemma reads_dabit_chunk n : exists k, reads (fun l => length l = n) (recv_DaBit_chunk n) k.
Proof.
  unfold recv_DaBit_chunk. destruct (reads_batch n) as [k R]. eexists. eapply reads_bind; [exact R|]. cbn beta. intros x X.
  eapply reads_bind with (Q := fun l => length l = n).
  - unfold recv_bool_batch. apply r_recv. intros l _. constructor. unfold unpack_bools. now rewrite map_length, seq_length.
  - intros y Y. constructor. rewrite map2_length, X, Y. lia.
Qed.
Lemma reads_dabits n : exists k, reads (fun l => length l = n) (recv_DaBit_batch n) k.
Proof.
  unfold recv_DaBit_batch.
  assert (G : forall fuel n, (n <= fuel)%nat -> exists k, reads (fun l => length l = n) (recv_DaBit_batch_loop MAX_DABIT_BATCH fuel n) k).
  { assert (MP : (1 <= Z.to_nat MAX_DABIT_BATCH)%nat) by (unfold MAX_DABIT_BATCH; lia).
    induction fuel as [|f IH]; intros k F; cbn [recv_DaBit_batch_loop];
      destruct (Z.ltb_spec MAX_DABIT_BATCH (Z.of_nat k)) as [B|B]; [|apply reads_dabit_chunk| |apply reads_dabit_chunk].
    - unfold MAX_DABIT_BATCH in B. lia.
    - set (mb := Z.to_nat MAX_DABIT_BATCH) in *. assert (Hm : (mb <= k)%nat) by (unfold mb; lia).
      destruct (IH (k - mb)%nat ltac:(lia)) as [k2 R2]. destruct (reads_dabit_chunk mb) as [k1 R1].
      eexists. eapply reads_bind; [exact R1|]. cbn beta. intros x X.
      eapply reads_bind; [exact R2|]. cbn beta. intros y Y. constructor. rewrite app_length. lia. }
  apply G; auto.
Qed.
Lemma check1_reads n s : exists k, reads (fun s' => (n <= length (dabit_store s'))%nat) (checkDaBits c T n s) k.
Proof.
  unfold checkDaBits. destruct (Nat.ltb_spec (length (dabit_store s)) n); [|exists 0%nat; now constructor].
  unfold addDaBits. rewrite S1, LZ. set (d := (n - _)%nat). set (m := if (_ <? _)%nat then d else _).
  assert (Hm : (d <= m)%nat) by (subst m; destruct (Nat.ltb_spec (batch_size c) d); lia).
  destruct (reads_dabits m) as [k R]. eexists. eapply reads_bind; [exact R|]. cbn beta. intros l L. constructor.
  cbn [with_dabits dabit_store]. rewrite app_length. lia.
Qed.
Lemma get1_reads n : forall s, (n <= length (dabit_store s))%nat -> reads yes (getDaBits c T n s) 0.
Proof.
  induction n as [|n IH]; intros s L; cbn [getDaBits]; [constructor; exact I|]. unfold getDaBit, checkDaBits.
  destruct (Nat.ltb_spec (length (dabit_store s)) 1); [lia|]. cbn [bind].
  destruct (dabit_store s) as [|t l] eqn:E; [cbn in L; lia|]. cbn [bind fst snd].
  apply (reads_bind yes yes _ _ 0 0); [|intros; constructor; exact I]. apply IH. cbn in L |- *. lia.
Qed.
Lemma freq1_breaks order w0 m s : exists k, forall i w,
  let run := freq_op1 order c T w0 m s in
  (against run i w = Breaks <-> (k < length i)%nat /\ ~ is_bool (nth k i 0)) /\
  (forall r, against run i w = Returns r -> fst r = RET_NO_ANS).
Proof.
  set (x := concat (map snd (order (list bool) m))). destruct (check1_reads (length x) s) as [k R].
  assert (RB : reads yes (b2a_daBit_single c T x s) (k + (0 + (bool_bytes (length x) + 0)))).
  { unfold b2a_daBit_single. cbv zeta. eapply reads_bind; [exact R|]. cbn beta. intros s1 L1.
    eapply reads_bind; [now apply get1_reads|]. intros r _. apply r_xchg. intros; constructor; exact I. }
  set (K := (k + (0 + (bool_bytes (length x) + 0)))%nat) in *. clearbody K. clear R k.
  exists K. intros i w. cbv zeta. unfold freq_op1. cbv zeta.
  destruct (emits_announce (order (list bool) m)) as [ba EA]. rewrite (against_emits _ _ _ _ i w EA). clear EA ba.
  fold x.
  match goal with |- context [bind (b2a_daBit_single c T x s) ?f] => destruct (reads_against _ _ _ f RB i w) as [H1 H2] end.
  destruct (Nat.ltb_spec (length i) K) as [L|L].
  { rewrite H1 by auto. split; [|discriminate]. split; [discriminate|lia]. }
  destruct (H2 L) as (r & _ & ->). clear H1 H2 RB.
  assert (EN : (K < length i)%nat <-> skipn K i <> []).
  { destruct (skipn K i) eqn:E; pose proof (f_equal (@length Z) E) as E'; rewrite skipn_length in E'; cbn in E'; split; intros; try lia; easy. }
  assert (EV : nth K i 0 = nth 0 (skipn K i) 0).
  { rewrite <- (firstn_skipn K i) at 1. rewrite app_nth2; rewrite firstn_length_le by lia; [f_equal; lia|lia]. }
  rewrite EV, EN. clear EV EN L. destruct (skipn K i) as [|b rest].
  all: cbn [send_bool bind against]; set (sh := chunks _ _ _);
    destruct (delivers_fmpz (sum_of (map sum_of sh)) (in_field_limbs _ (sum_of_field _))) as (b1 & E1 & _);
    rewrite !(against_emits _ _ _ _ _ w E1).
  { unfold recv_bool. cbn [bind against length Nat.leb]. split; [|discriminate]. split; [discriminate|]. now intros [? _]. }
  unfold recv_bool. cbn [bind against length Nat.leb firstn skipn nth].
  assert (FF : forall av : bool, fine anyb (fun r => fst r = RET_NO_ANS)
      (valid <- (if av then Ret (repeat true (length (order (list bool) m)))
            else send_bool_batch (map (fun e => parity_of (snd e)) (order (list bool) m)) ;;;
                 send_fmpz_batch (map sum_of sh) ;;; recv_bool_batch (length (order (list bool) m))) ;;
       send_fmpz_batch (accumulate w0 sh valid) ;;; Ret (@RET_NO_ANS (list Z), snd r))).
  { intros av. eapply fine_bind with (Q := yes).
    - destruct av; [exact I|]. cbn [send_bool_batch bind fine].
      destruct (delivers_fmpz_batch _ (sums_limbs sh)) as (b2 & E2 & _).
      eapply fine_bind; [exact (fine_emits anyb _ _ _ E2)|]. intros ? _. cbn. intros; exact I.
    - intros valid _. destruct (delivers_fmpz_batch _ (accumulate_limbs w0 sh valid)) as (b3 & E3 & _).
      eapply fine_bind; [exact (fine_emits anyb _ _ _ E3)|]. intros ? _. reflexivity. }
  assert (FA : forall pr, let X := against _ rest w in (X = Breaks <-> False) /\ forall r, X = Returns r -> fst r = RET_NO_ANS)
    by (intros pr; pose proof (fine_against anyb _ _ (FF pr) rest w (all_any rest)) as Q;
        cbv zeta; split; [split; [|easy]; intros E'; rewrite E' in Q; exact Q|intros r' E'; rewrite E' in Q; exact Q]).
  clear FF. cbv zeta in FA. unfold is_bool.
  destruct (Z.eqb_spec b 0) as [->|B0]; [|destruct (Z.eqb_spec b 1) as [->|B1]].
  - destruct (FA false) as [F1 F2]. split; [|exact F2]. split; [intros X; apply F1 in X; easy|]. intros [_ X]; elim X; auto.
  - destruct (FA true) as [F1 F2]. split; [|exact F2]. split; [intros X; apply F1 in X; easy|]. intros [_ X]; elim X; auto.
  - cbn [bind against]. split; [|discriminate]. split; auto. intros _. split; [discriminate|]. intros [?|?]; auto.
Qed.
End Second.

(** ** The operation *)
Lemma freq_table w0 junk total str pk0 : exists m, receive (freq_one w0 junk) total (str, pk0, 0%nat) [] = Some m /\
  Forall (fun e => length (snd e) = w0) m.
Proof.
  apply (receive_some (freq_one w0 junk) (fun v => length v = w0)); [|constructor].
  intros [[s1 s2] k]. unfold freq_one. destruct (crecv 32 s1 s2) as [pk s3]. destruct (crecv _ s3 _) as [row s4].
  split; [discriminate|]. intros v E. injection E as <-. unfold unpack_bools. now rewrite map_length, seq_length.
Qed.
Lemma freq_peer0 order nb total stream pk0 junk c T s i w : server_num c = false -> (nb <= 30)%nat ->
  let run := freq_op false order nb total stream pk0 junk c T s in
  let at_ (pks : list (list Z)) := bool_bytes (length pks * Z.to_nat (2 ^ Z.of_nat nb)) in
  (against run i w = Breaks <->
   exists pks rest, announced i pks rest /\
     ((total < length pks)%nat \/ (at_ pks < length rest)%nat /\ ~ is_bool (nth (at_ pks) rest 0))) /\
  (forall r, against run i w = Returns r -> ended (fst r)).
Proof.
  intros S0 HB. cbv zeta. unfold freq_op. destruct (Nat.leb_spec 31 nb); [lia|].
  destruct (freq_table (Z.to_nat (2 ^ Z.of_nat nb)) junk total stream pk0) as (m & -> & HM).
  exact (freq0_breaks c T S0 _ m total s i w HM).
Qed.
Lemma freq_peer1 order nb total stream pk0 junk c T s : server_num c = true -> lazy c = true -> (nb <= 30)%nat ->
  let run := freq_op true order nb total stream pk0 junk c T s in
  exists k, forall i w,
  (against run i w = Breaks <-> (k < length i)%nat /\ ~ is_bool (nth k i 0)) /\
  (forall r, against run i w = Returns r -> fst r = RET_NO_ANS).
Proof.
  intros S1 LZ HB. cbv zeta. unfold freq_op. destruct (Nat.leb_spec 31 nb); [lia|].
  destruct (freq_table (Z.to_nat (2 ^ Z.of_nat nb)) junk total stream pk0) as (m & -> & HM).
  exact (freq1_breaks c T S1 LZ order _ m s).
Qed.

(** ** MAX, MIN *)
Lemma max_table B junk total str pk0 : exists m, receive (max_one B junk) total (str, pk0, 0%nat) [] = Some m /\
  Forall (fun e => length (snd e) = (B + 1)%nat) m.
Proof.
  apply (receive_some (max_one B junk) (fun v => length v = (B + 1)%nat)); [|constructor].
  intros [[s1 s2] k]. unfold max_one. destruct (crecv 32 s1 s2) as [pk s3]. destruct (crecv _ s3 _) as [row s4].
  split; [discriminate|]. intros v E. injection E as <-. now rewrite map_length, chunks_length.
Qed.
Lemma max_peer1 order is_max B total stream pk0 junk : Z.of_nat total * (Z.of_nat B + 1) < two32 ->
  survives (max_op true order is_max B total stream pk0 junk) (proper true).
Proof.
  intros H. unfold max_op. destruct (Z.leb_spec two32 (Z.of_nat total * (Z.of_nat B + 1))); [lia|].
  destruct (max_table B junk total stream pk0) as (m & -> & _). apply fine_survives, max1_fine.
Qed.
Lemma max0_ends is_max B m total i w r : against (max_op0 is_max B m total) i w = Returns r -> ended r.
Proof.
  unfold max_op0.
  match goal with |- against (bind learn ?f) i w = _ -> _ => destruct (learn_against f i w) as [(pks & rest & A & ->)|[N ->]] end; [|discriminate].
  cbv zeta. cbn [bind against send_bool_batch recv_uint64_batch]. destruct (_ <=? _)%nat; [|discriminate].
  unfold ended. destruct (too_few _ _); cbn [against]; [intros E; injection E as <-; auto|].
  destruct (scan_down _ _ _); cbn [against]; [intros E; injection E as <-; eauto|discriminate].
Qed.
Lemma announce_bytes pks rest : Z.of_nat (length pks) < two32 -> Forall (fun pk => length pk = 32%nat) pks ->
  announced (le_bytes 8 (bswap32 (Z.of_nat (length pks))) ++ concat pks ++ rest) pks rest.
Proof.
  intros H F. set (h := le_bytes 8 _). assert (LH : length h = 8%nat) by (unfold h; apply le_bytes_length).
  assert (EF : firstn 8 (h ++ concat pks ++ rest) = h) by (rewrite <- LH; rewrite firstn_app, Nat.sub_diag, firstn_O, firstn_all, app_nil_r; reflexivity).
  assert (ES : skipn 8 (h ++ concat pks ++ rest) = concat pks ++ rest) by (rewrite <- LH; rewrite skipn_app, Nat.sub_diag, skipn_all; reflexivity).
  unfold announced. rewrite EF, ES.
  split; [rewrite app_length; lia|]. split; [|auto].
  unfold h. rewrite le_val_bytes_size, bswap32_involutive, u32_small by lia. lia.
Qed.
Lemma xor_row_zero v : forall n, length v = n -> xor_row (xor_row (repeat 0 n) v) v = repeat 0 n.
Proof.
  unfold xor_row. induction v as [|x v IH]; intros [|n] L; try discriminate; cbn; auto. f_equal; [|apply IH; cbn in L; lia].
  apply Z.lxor_nilpotent.
Qed.
(** An identity server 0 knows, announced an even number of times. *)
Lemma max_peer0_crash is_max B m total pk v k w :
  find pk m = Some v -> length v = (B + 1)%nat -> length pk = 32%nat -> (total <= 4 * k)%nat -> Z.of_nat (2 * k) < two32 ->
  against (max_op0 is_max B m total)
    (le_bytes 8 (bswap32 (Z.of_nat (2 * k))) ++ concat (repeat pk (2 * k)) ++ repeat 0 (8 * (B + 1))) w = Breaks.
Proof.
  intros F L LP T K. apply max0_breaks. exists (repeat pk (2 * k)), (repeat 0 (8 * (B + 1))).
  split. { pose proof (announce_bytes (repeat pk (2 * k)) (repeat 0 (8 * (B + 1)))) as A. rewrite repeat_length in A. apply A; auto.
    apply Forall_forall. intros q Hq. apply repeat_spec in Hq. now subst. }
  assert (EM : forall n, map (fun pk => find pk m) (repeat pk n) = repeat (Some v) n).
  { induction n; cbn; [auto|]. rewrite F. now f_equal. }
  split; [now rewrite repeat_length|]. rewrite EM. split.
  { assert (C : forall n, count (map is_some (repeat (Some v) n)) = n) by (induction n; cbn; unfold count in *; cbn; auto).
    rewrite C. lia. }
  intros j Hj.
  assert (Z0 : forall a n, le_val (firstn a (skipn n (repeat 0 (8 * (B + 1))))) = 0).
  { assert (G : forall l, Forall (eq 0) l -> le_val l = 0) by (induction 1 as [|z l <- H IH]; cbn; [auto|rewrite IH; auto]).
    intros a n. apply G. apply Forall_firstn. apply Forall_forall. intros z Hz.
    assert (In z (repeat 0 (8 * (B + 1)))) by (rewrite <- (firstn_skipn n); apply in_or_app; auto).
    symmetry. eapply repeat_spec; eauto. }
  rewrite Z0. 
  assert (E : fold_left (fun a f => match f with Some v => xor_row a v | None => a end) (repeat (Some v) (2 * k)) (repeat 0 (B + 1)) = repeat 0 (B + 1)).
  { clear - L. induction k as [|k IH]; [reflexivity|]. replace (2 * S k)%nat with (S (S (2 * k))) by lia. cbn [repeat fold_left].
    rewrite xor_row_zero by auto. exact IH. }
  rewrite E. symmetry. rewrite nth_repeat. reflexivity.
Qed.
