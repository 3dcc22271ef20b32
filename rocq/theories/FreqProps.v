(** * FREQ: byte streams in, answers out *)
From Coq Require Import ZArith List Bool Lia Arith Permutation Setoid Morphisms.
From Verif Require Import Words WordsFacts Cong Constants Share ShareFacts Proc ProcFacts
  Net NetFacts SpecNet NetMsg SpecShare RelFacts OT OTFacts Correlated SpecStore CorrelatedFacts MpcFacts
  Circuit Snip ServerOps SpecServer TableFacts ServerFacts ServerProps ServerCor
  ClientOps SpecClient SpecFreq ClientFacts ClientProps FreqFacts.
Import ListNotations.
Open Scope Z_scope.

Arguments Z.mul : simpl never.
Arguments Z.add : simpl never.
Arguments Z.sub : simpl never.
Arguments Z.pow : simpl never.
Arguments Z.modulo : simpl never.
Opaque Int_Modulus.
Local Notation P := Int_Modulus.

(** ** Confluence without termination *)
Lemma confluence1 {A B} cap n : forall (c d e : config A B), step cap c d -> steps cap n c e ->
  exists f m k, steps cap m d f /\ steps cap k e f.
Proof.
  induction n as [|n IH]; intros c d e H1 H2; inversion H2; subst.
  - exists d, 0%nat, 1%nat. split; [constructor|econstructor; [exact H1|constructor]].
  - match goal with H : step cap c ?x |- _ => rename H into Hx; set (x' := x) in * end.
    destruct (diamond cap _ _ _ H1 Hx) as [->|(f & Hf & Hf')].
    + exists e, n, 0%nat. split; auto. constructor.
    + destruct (IH _ f e Hf') as (g & m & k & Hm & Hk); auto.
      exists g, (S m), k. split; auto. econstructor; eauto.
Qed.
Lemma confluence {A B} cap m : forall n (c d e : config A B), steps cap m c d -> steps cap n c e ->
  exists f j k, steps cap j d f /\ steps cap k e f.
Proof.
  induction m as [|m IH]; intros n c d e H1 H2; inversion H1; subst.
  - exists e, n, 0%nat. split; auto. constructor.
  - match goal with H : step cap c ?x, H' : steps cap m ?x d |- _ => rename H into Hx, H' into Hxd end.
    destruct (confluence1 cap n _ _ _ Hx H2) as (f & j & k & Hj & Hk).
    destruct (IH j _ _ _ Hxd Hj) as (g & j' & k' & Hj' & Hk').
    exists g, j', (k + k')%nat. split; auto. eapply steps_trans; eauto.
Qed.

Lemma ret_stays {A B} cap n : forall (c d : config A B) r, steps cap n c d -> proc0 c = Ret r -> proc0 d = Ret r.
Proof.
  induction n as [|n IH]; intros c d r H Hr; inversion H; subst; auto.
  eapply IH; [eassumption|].
  match goal with H : step cap c _ |- _ => inversion H; subst; cbn [proc0] in *; subst end; auto.
  - match goal with L : lstep (Ret _) _ _ |- _ => inversion L end.
  - discriminate.
  - discriminate.
Qed.

(** Server 0 never returns if some schedule gets it into a state of a set [I] that
    is never left and contains no return. *)
Lemma never_by {A B} cap n (p : proc A) (q : proc B) (I : config A B -> Prop) c :
  steps cap n (start p q) c -> I c -> (forall c d, I c -> step cap c d -> I d) ->
  (forall c r, I c -> proc0 c <> Ret r) -> never_returns cap p q.
Proof.
  intros H HI Hs Hn m d r Hd Hr.
  destruct (confluence cap n m _ _ _ H Hd) as (f & j & k & Hj & Hk).
  assert (If : I f).
  { clear - HI Hs Hj. induction Hj; auto. apply IHHj. eapply Hs; eauto. }
  exact (Hn f r If (ret_stays cap k d f r Hk Hr)).
Qed.

Lemma undef_never {A B} (p : proc A) (q q' : proc B) cap : (1 <= cap)%nat -> runs p q Undef q' -> never_returns cap p q.
Proof.
  intros Hc H. destruct (H cap Hc) as (n & Hn).
  apply (never_by cap n p q (fun c => proc0 c = Undef) _ Hn); auto.
  - intros c d E Hd. inversion Hd; subst; cbn [proc0] in *; subst; auto; try discriminate.
    match goal with L : lstep Undef _ _ |- _ => inversion L end.
  - intros c r E E'. congruence.
Qed.

(** A process that only sends does not receive. *)
Lemma emits_step {A} (q q' : proc A) l a act : emits q l a -> lstep q act q' ->
  (exists l', emits q' l' a) /\ forall b, act <> ARecv b.
Proof.
  intros H L. destruct H; inversion L; subst.
  - split; [eauto|discriminate].
  - split; [|discriminate]. eexists. econstructor. eassumption.
Qed.

Lemma fill_stuck {A B} cap (q : proc B) lq bq (k : proc A) i : emits q lq bq -> forall bs o, (length o <= cap)%nat ->
  (cap < length o + length bs)%nat ->
  exists n b bs' o', steps cap n (Cfg (Send bs k) q o i) (Cfg (Send (b :: bs') k) q o' i) /\ length o' = cap.
Proof.
  intros E. induction bs as [|b bs IH]; intros o H H'.
  - cbn in H'. lia.
  - destruct (Nat.eq_dec (length o) cap) as [<-|N].
    + exists 0%nat, b, bs, o. split; [constructor|auto].
    + destruct (IH (o ++ [b])) as (n & b' & bs' & o' & Hn & Ho); [rewrite app_length; cbn; lia| |].
      { cbn in H'. rewrite app_length. cbn. lia. }
      exists (S n), b', bs', o'. split; auto.
      econstructor; [eapply st_0; [constructor|constructor; lia]|]. exact Hn.
Qed.

(** ** From streams to tables *)
Section Streams.
  Variables (num_bits : nat).
  Hypothesis HB : (num_bits <= 30)%nat.
  Let w := Z.to_nat (2 ^ Z.of_nat num_bits).

  Lemma width_small : Z.of_nat w < P.
  Proof.
    unfold w. rewrite Z2Nat.id by (apply Z.pow_nonneg; lia).
    apply Z.le_lt_trans with (2 ^ 30); [apply Z.pow_le_mono_r; lia|reflexivity].
  Qed.

  Lemma freq_op_eq sv order total stream subs pk0 junk c T s :
    arrives freq_wire total stream subs -> freq_rows w subs ->
    length pk0 = 32%nat -> (forall i, length (junk i) = bool_bytes w) ->
    freq_op sv order num_bits total stream pk0 junk c T s
    = if sv then freq_op1 order c T w (table_of any subs) s else freq_op0 c T w (table_of any subs) total s.
  Proof.
    intros (rest & -> & HD & HP & HS) HW HK HJ. unfold freq_op.
    destruct (Nat.leb_spec 31 num_bits); [lia|]. fold w.
    rewrite freq_receive by auto. reflexivity.
  Qed.

  Lemma freq_table subs : freq_rows w subs -> Forall (fun e => length (snd e) = w) (table_of any subs).
  Proof. intros H. apply table_forall. intros s Hin _. unfold freq_rows in H. rewrite Forall_forall in H. auto. Qed.
End Streams.

Lemma heard_keys {V} (order : iteration) (subs : list (list Z * V)) L :
  fair order -> heard subs L -> Permutation (map fst (order V (table_of any subs))) L.
Proof.
  intros HF (NL & HL). pose proof (HF V (table_of any subs)) as HP.
  apply NoDup_Permutation; auto.
  - eapply Permutation_NoDup; [apply Permutation_map; symmetry; exact HP|apply table_nodup].
  - intros pk. rewrite HL, <- table_find, find_some_iff.
    split; apply Permutation_in, Permutation_map; [exact HP|now symmetry].
Qed.

Lemma bits_freq w order subs0 subs1 e : fair order -> In e (order _ (table_of any subs1)) ->
  bits w (table_of any subs0) e = freq_bits w subs0 subs1 (fst e).
Proof.
  intros HF He. unfold bits, row0, freq_bits. rewrite table_find.
  assert (E : first_sub any subs1 (fst e) = Some (snd e)).
  { rewrite <- table_find. apply in_find; [apply table_nodup|].
    rewrite <- surjective_pairing. eapply Permutation_in; [apply HF|exact He]. }
  now rewrite E.
Qed.

Lemma list_sum_perm l l' : Permutation l l' -> list_sum l = list_sum l'.
Proof. induction 1; cbn [list_sum fold_right] in *; unfold list_sum in *; lia. Qed.

Lemma total_weight_tables w order subs0 subs1 L : fair order -> heard subs1 L ->
  list_sum (map (fun e => weight (bits w (table_of any subs0) e)) (order _ (table_of any subs1))) =
  total_weight w subs0 subs1 L.
Proof.
  intros HF HL. unfold total_weight.
  rewrite <- (list_sum_perm _ _ (Permutation_map (fun pk => weight (freq_bits w subs0 subs1 pk)) (heard_keys order subs1 L HF HL))).
  rewrite map_map. apply f_equal, map_ext_in. intros e He. now rewrite (bits_freq w order subs0 subs1).
Qed.

Lemma filter_len_perm {A} (f : A -> bool) l l' : Permutation l l' -> length (filter f l) = length (filter f l').
Proof.
  induction 1; cbn [filter]; auto.
  - destruct (f x); cbn [length]; congruence.
  - destruct (f x), (f y); reflexivity.
  - congruence.
Qed.
Lemma filter_len_map {A B} (f : A -> bool) (g : B -> bool) (h : A -> B) l :
  (forall x, In x l -> f x = g (h x)) -> length (filter f l) = length (filter g (map h l)).
Proof.
  induction l as [|x l IH]; intros H; cbn [filter map]; auto.
  rewrite (H x) by (now left). destruct (g (h x)); cbn [length]; rewrite IH; auto; intros; apply H; now right.
Qed.

Lemma counts_all w order subs0 subs1 L : fair order -> heard subs1 L ->
  counts w (table_of any subs0) (order _ (table_of any subs1)) (fun _ => true) = tally w subs0 subs1 L.
Proof.
  intros HF HL. unfold counts, tally, votes. apply map_ext. intros j. apply f_equal.
  rewrite <- (filter_len_perm _ _ _ (heard_keys order subs1 L HF HL)).
  apply filter_len_map. intros e He. now rewrite (bits_freq w order subs0 subs1).
Qed.

Lemma fine_keys w order subs0 subs1 G : fair order -> one_hot w subs0 subs1 G ->
  Permutation (map fst (filter (fine w (table_of any subs0)) (order _ (table_of any subs1)))) G.
Proof.
  intros HF (NG & HG). pose proof (HF _ (table_of any subs1)) as HP.
  assert (NK : NoDup (map fst (order _ (table_of any subs1)))).
  { eapply Permutation_NoDup; [apply Permutation_map; symmetry; exact HP|apply table_nodup]. }
  apply NoDup_Permutation; auto.
  - revert NK. generalize (order _ (table_of any subs1)) as l. clear. induction l as [|e l IH]; intros H; cbn; [constructor|].
    inversion H; subst. destruct (fine _ _ e); auto. cbn. constructor; auto.
    intros (e' & E & Hin)%in_map_iff. apply filter_In in Hin as [Hin _]. apply H2. rewrite <- E. now apply in_map.
  - intros pk. rewrite HG. split.
    + intros (e & <- & He)%in_map_iff. apply filter_In in He as [He Hf].
      unfold fine in Hf. apply andb_true_iff in Hf as [Hk Hw]. apply Nat.eqb_eq in Hw.
      rewrite known_iff, table_find in Hk. rewrite (bits_freq w order subs0 subs1) in Hw by auto.
      split; auto. split; auto. rewrite <- table_find, find_some_iff.
      eapply Permutation_in; [apply Permutation_map; exact HP|]. now apply in_map.
    + intros (H0 & H1 & Hw). rewrite <- table_find in H1. destruct (find pk (table_of any subs1)) as [v|] eqn:E; [|easy].
      apply find_in in E. apply in_map_iff. exists (pk, v). split; auto. 
      assert (He : In (pk, v) (order _ (table_of any subs1))) by (eapply Permutation_in; [symmetry; exact HP|exact E]).
      apply filter_In. split; auto. unfold fine. rewrite (bits_freq w order subs0 subs1) by auto. cbn [fst].
      apply andb_true_iff. split; [now rewrite known_iff, table_find|now apply Nat.eqb_eq].
Qed.

Lemma filter_filter {A} (f g : A -> bool) l : filter (fun x => f x && g x) l = filter g (filter f l).
Proof. induction l as [|x l IH]; cbn [filter]; auto. destruct (f x); cbn [andb filter]; rewrite IH; reflexivity. Qed.

Lemma counts_fine w order subs0 subs1 G : fair order -> one_hot w subs0 subs1 G ->
  counts w (table_of any subs0) (order _ (table_of any subs1)) (fine w (table_of any subs0)) = tally w subs0 subs1 G.
Proof.
  intros HF HG. unfold counts, tally, votes. apply map_ext. intros j. apply f_equal.
  rewrite <- (filter_len_perm _ _ _ (fine_keys w order subs0 subs1 G HF HG)), filter_filter.
  apply filter_len_map. intros e He. apply filter_In in He as [He _]. now rewrite (bits_freq w order subs0 subs1).
Qed.

Section Results.
  Variables (num_bits : nat) (order0 order1 : iteration) (total0 total1 : nat)
    (stream0 stream1 : list Z) (subs0 subs1 : list (list Z * list bool)) (pk0 pk1 : list Z)
    (junk0 junk1 : nat -> list Z) (c0 c1 : store_params) (T0 T1 : nat -> Z) (s0 s1 : store) (L : list (list Z)).
  Let w := Z.to_nat (2 ^ Z.of_nat num_bits).
  Hypothesis HB : (num_bits <= 30)%nat.
  Hypothesis HF : fair order1.
  Hypothesis A0 : arrives freq_wire total0 stream0 subs0.
  Hypothesis A1 : arrives freq_wire total1 stream1 subs1.
  Hypothesis W0 : freq_rows w subs0.
  Hypothesis W1 : freq_rows w subs1.
  Hypothesis K0 : length pk0 = 32%nat.
  Hypothesis K1 : length pk1 = 32%nat.
  Hypothesis J0 : forall i, length (junk0 i) = bool_bytes w.
  Hypothesis J1 : forall i, length (junk1 i) = bool_bytes w.
  Hypothesis HP : params_ok c0 c1.
  Hypothesis HS : stores_paired s0 s1.
  Hypothesis HL : heard subs1 L.
  Let p := freq_op false order0 num_bits total0 stream0 pk0 junk0 c0 T0 s0.
  Let q := freq_op true order1 num_bits total1 stream1 pk1 junk1 c1 T1 s1.

  Lemma heard_length : length (order1 _ (table_of any subs1)) = length L.
  Proof. rewrite <- (map_length fst). apply Permutation_length. now apply heard_keys. Qed.
  Lemma heard_table : length (table_of any subs1) = length L.
  Proof. rewrite <- heard_length. symmetry. now apply fair_length. Qed.
  Lemma heard_small : Z.of_nat (length L) < two32.
  Proof. rewrite <- heard_table. destruct A1 as (r1 & _ & _ & P1 & S1). now apply table_size. Qed.

  Lemma freq_enter : (length L <= total0)%nat ->
    exists sh0 sh1 s0' s1', stores_paired s0' s1' /\
      converted w (table_of any subs0) (order1 _ (table_of any subs1)) sh0 sh1 /\
      let av := balancedb (total_weight w subs0 subs1 L) total0 in
      let l := order1 _ (table_of any subs1) in
      runs p q (tail0 w (map (fun e => known (table_of any subs0) (fst e)) l)
                  (map (row0 w (table_of any subs0)) l) sh0 total0 s0' av)
               (tail1 w (map snd l) sh1 s1' av).
  Proof.
    intros HT.
    destruct (freq_start order1 c0 c1 T0 T1 w (table_of any subs0) (table_of any subs1) total0 s0 s1)
      as (sh0 & sh1 & s0' & s1' & HS' & HC & HR); auto.
    - destruct A1 as (r1 & _ & _ & P1 & S1). now apply table_keys.
    - rewrite heard_table. apply heard_small.
    - now apply freq_table.
    - now apply freq_table.
    - now rewrite heard_table.
    - exists sh0, sh1, s0', s1'. split; auto. split; auto. cbv zeta in *.
      rewrite (total_weight_tables w order1 subs0 subs1 L) in HR by auto.
      unfold p, q. rewrite (freq_op_eq num_bits HB false order0 total0 stream0 subs0) by auto.
      rewrite (freq_op_eq num_bits HB true order1 total1 stream1 subs1) by auto. exact HR.
  Qed.

  Lemma freq_passed : (length L <= total0)%nat -> balanced (total_weight w subs0 subs1 L) total0 ->
    exists s0' s1', stores_paired s0' s1' /\
    ends (bool_bytes (length L)) p q
      (Cfg (Ret (outcome (length L) total0 (tally w subs0 subs1 L), s0')) (Ret (RET_NO_ANS, s1'))
         (pack_bools (repeat true (length L))) []).
  Proof.
    intros HT HW. destruct (freq_enter HT) as (sh0 & sh1 & s0' & s1' & HS' & HC & HR). cbv zeta in HR.
    destruct (balancedb_spec (total_weight w subs0 subs1 L) total0) as [_|N]; [|easy].
    exists s0', s1'. split; auto. apply reach_ends.
    eapply runs_reach; [exact HR|].
    rewrite <- (counts_all w order1 subs0 subs1 L) by auto. rewrite <- !heard_length.
    apply freq_balanced; auto. rewrite heard_length. apply heard_small.
  Qed.

  Lemma freq_failed G : (length L <= total0)%nat -> ~ balanced (total_weight w subs0 subs1 L) total0 ->
    one_hot w subs0 subs1 G ->
    both p q (fun r0 r1 => fst r1 = RET_NO_ANS /\
      fst r0 = outcome (length G) total0 (tally w subs0 subs1 G) /\ stores_paired (snd r0) (snd r1)).
  Proof.
    intros HT HW HG. destruct (freq_enter HT) as (sh0 & sh1 & s0' & s1' & HS' & HC & HR). cbv zeta in HR.
    destruct (balancedb_spec (total_weight w subs0 subs1 L) total0) as [Y|_]; [easy|].
    apply rel_both.
    exists (outcome (length G) total0 (tally w subs0 subs1 G), s0'), (RET_NO_ANS, s1'). split; [|cbn; auto].
    eapply runs_trans; [exact HR|].
    rewrite <- (counts_fine w order1 subs0 subs1 G) by auto.
    rewrite <- (Permutation_length (fine_keys w order1 subs0 subs1 G HF HG)), map_length.
    apply freq_unbalanced; auto.
    - unfold w. now apply width_small.
    - rewrite heard_length. apply heard_small.
    - now apply freq_table.
    - apply fair_forall; auto. now apply freq_table.
  Qed.

  (** Buffers too small for the flags nobody reads: server 0 waits for ever. *)
  Lemma freq_waits cap : (length L <= total0)%nat -> balanced (total_weight w subs0 subs1 L) total0 ->
    (1 <= cap)%nat -> (cap < bool_bytes (length L))%nat -> never_returns cap p q.
  Proof.
    intros HT HW Hc HC'. destruct (freq_enter HT) as (sh0 & sh1 & s0' & s1' & HS' & HC & HR). cbv zeta in HR.
    destruct (balancedb_spec (total_weight w subs0 subs1 L) total0) as [_|N]; [|easy].
    unfold tail0, tail1 in HR. rewrite !map_length, heard_length in HR. cbn [bind] in HR.
    unfold send_bool_batch in HR. cbn [bind] in HR.
    destruct (SnipSums.accumulate_spec w sh1 (repeat true (length L))) as (_ & B & _).
    destruct (delivers_fmpz_batch _ (fields_limbs _ B)) as (bs & E & _).
    pose proof (emits_bind_ret _ _ (@RET_NO_ANS (list Z), s1') E) as E'.
    destruct (HR cap Hc) as (n & Hn).
    match type of Hn with steps _ _ _ (start (Send ?b ?k) ?q) =>
      destruct (fill_stuck cap q bs (RET_NO_ANS, s1') k [] E' b []) as (m & b' & bs' & o' & Hm & Ho) end.
    { cbn. lia. } { rewrite pack_bools_length, repeat_length. exact HC'. }
    apply (never_by cap (n + m) p q
      (fun c => (exists b bs k, proc0 c = Send (b :: bs) k) /\ length (ch01 c) = cap /\
                exists l, emits (proc1 c) l (@RET_NO_ANS (list Z), s1')) _ (steps_trans _ _ _ _ _ _ Hn Hm)).
    - cbn [proc0 proc1 ch01]. split; [eauto|]. split; auto. eauto.
    - intros c d ((b & bs0 & k & E0) & E1 & (l & E2)) Hs.
      inversion Hs; subst; cbn [proc0 proc1 ch01] in *; subst; try discriminate.
      + exfalso. match goal with H : lstep (Send _ _) _ _ |- _ => inversion H; subst end.
        match goal with H : chan _ _ _ _ _ _ |- _ => inversion H; subst end. lia.
      + match goal with H : lstep _ _ _ |- _ => destruct (emits_step _ _ _ _ _ E2 H) as ((l' & E3) & NR) end.
        split; [eauto|]. split; [|eauto].
        match goal with H : chan _ _ _ _ _ _ |- _ => inversion H; subst end; auto. exfalso. eapply NR. reflexivity.
    - intros c r ((b & bs0 & k & E0) & _) E3. congruence.
  Qed.

  (** More identities at server 1 than server 0 has room for. *)
  Lemma freq_overrun cap : (total0 < length L)%nat -> (1 <= cap)%nat -> never_returns cap p q.
  Proof.
    intros HT Hc. unfold p, q.
    rewrite (freq_op_eq num_bits HB false order0 total0 stream0 subs0) by auto.
    rewrite (freq_op_eq num_bits HB true order1 total1 stream1 subs1) by auto.
    eapply undef_never; [exact Hc|]. unfold freq_op0, freq_op1.
    eapply runs_trans.
    - apply delivers_runs', delivers_announce.
      + apply fair_forall; auto. destruct A1 as (r1 & _ & _ & P1 & S1). apply (table_keys any subs1 P1).
      + rewrite heard_length. apply heard_small.
    - rewrite map_length, heard_length. destruct (Nat.ltb_spec total0 (length L)); [|lia]. apply runs_refl.
  Qed.
End Results.

(** ** Honest clients *)
Lemma flip_length v l : length (flip v l) = length l.
Proof. apply upd_length. Qed.
Lemma nth_flip v l j : (v < length l)%nat -> nth j (flip v l) false = if (j =? v)%nat then negb (nth j l false) else nth j l false.
Proof.
  intros H. unfold flip. destruct (Nat.eqb_spec j v) as [->|N].
  - now rewrite nth_upd_eq.
  - now rewrite nth_upd_neq by auto.
Qed.
Lemma xor_flip v l : (v < length l)%nat -> map2 xorb l (flip v l) = map (fun j => (j =? v)%nat) (seq 0 (length l)).
Proof.
  intros H. apply nth_ext with (d := false) (d' := false).
  { now rewrite map2_length, flip_length, map_length, seq_length, Nat.min_id. }
  intros j Hj. rewrite map2_length, flip_length, Nat.min_id in Hj.
  rewrite SnipSums.nth_map_seq' by auto.
  assert (E : forall (a b : list bool) j, length a = length b -> (j < length a)%nat ->
    nth j (map2 xorb a b) false = xorb (nth j a false) (nth j b false)).
  { clear. induction a as [|x a IH]; intros [|y b] [|j] L Hj; cbn [length map2 nth] in *; try lia; auto. apply IH; lia. }
  rewrite E by (rewrite ?flip_length; auto). rewrite nth_flip by auto.
  destruct (Nat.eqb_spec j v); destruct (nth j l false); reflexivity.
Qed.
Lemma weight_unit n v : forall s, (s <= v < s + n)%nat -> weight (map (fun j => (j =? v)%nat) (seq s n)) = 1%nat.
Proof.
  assert (Z0 : forall n s v, (v < s \/ s + n <= v)%nat -> weight (map (fun j => (j =? v)%nat) (seq s n)) = 0%nat).
  { clear. induction n as [|n IH]; intros s v H; cbn [seq map weight]; auto.
    rewrite IH by lia. destruct (Nat.eqb_spec s v); lia. }
  induction n as [|n IH]; intros s H; [lia|]. cbn [seq map weight].
  destruct (Nat.eqb_spec s v) as [->|N]; [rewrite Z0 by lia; reflexivity|]. rewrite IH by lia. reflexivity.
Qed.

Lemma freq_fresh w g : fresh_pk g (freq_request w g).
Proof. intros pos. unfold freq_request. cbn [fst snd c_pk]. split; [lia|reflexivity]. Qed.
Lemma freq_end w g n : (snd (requests (freq_request w g) n 0) <= n * (1 + blocks w))%nat.
Proof. apply (requests_end (freq_request w g) n 0). intros pos. unfold freq_request. cbn [snd]. lia. Qed.

Lemma freq_request_ok w g pos : prg_ok g -> (0 < w)%nat ->
  let r := fst (freq_request w g pos) in
  (c_real r < w)%nat /\ length (c_0 r) = w /\ length (c_1 r) = w /\
  map2 xorb (c_0 r) (c_1 r) = map (fun j => (j =? c_real r)%nat) (seq 0 w).
Proof.
  intros HG Hw r. unfold r, freq_request. cbn [fst c_real c_0 c_1].
  set (v := Z.to_nat (random_u64 g pos mod Z.of_nat w)).
  assert (Hv : (v < w)%nat).
  { unfold v. pose proof (Z.mod_pos_bound (random_u64 g pos) (Z.of_nat w)). lia. }
  pose proof (random_bool_length g (pos + 1) w HG) as L.
  rewrite flip_length. split; auto. split; auto. split; auto. rewrite xor_flip by lia. now rewrite L.
Qed.

Lemma freq_counts_hist w (l : list (crec (list bool) nat)) : Z.of_nat (length l) < two32 ->
  Forall (fun r => (c_real r < w)%nat) l ->
  freq_counts w l = histogram w (map c_real l).
Proof.
  intros HN HL. unfold freq_counts.
  assert (G : forall l cs k, length cs = w -> Z.of_nat k + Z.of_nat (length l) < two32 ->
    Forall (fun r : crec (list bool) nat => (c_real r < w)%nat) l ->
    (forall j, (j < w)%nat -> 0 <= nth j cs 0 <= Z.of_nat k) ->
    let r := fold_left (fun cs r => upd (c_real r) (u64 (nth (c_real r) cs 0 + 1)) cs) l cs in
    length r = w /\ forall j, (j < w)%nat -> nth j r 0 = nth j cs 0 + Z.of_nat (count_occ Nat.eq_dec (map c_real l) j)).
  { clear. induction l as [|x l IH]; intros cs k L HN HL HC; cbn [fold_left map count_occ].
    - split; auto. intros j Hj. cbn. lia.
    - pose proof (Forall_inv HL) as Hx. cbv beta in Hx.
      destruct (IH (upd (c_real x) (u64 (nth (c_real x) cs 0 + 1)) cs) (S k)) as (A & B).
      + now rewrite upd_length.
      + cbn [length] in HN. lia.
      + now inversion HL.
      + intros j Hj. destruct (Nat.eq_dec j (c_real x)) as [->|N].
        * rewrite nth_upd_eq by lia. specialize (HC (c_real x) Hx).
          unfold u64. rewrite Z.mod_small by (cbn [length] in HN; unfold two32, two64 in *; lia). lia.
        * rewrite nth_upd_neq by auto. specialize (HC j Hj). lia.
      + cbv zeta in *. split; auto. intros j Hj. rewrite (B j Hj).
        destruct (Nat.eq_dec (c_real x) j) as [<-|N].
        * rewrite nth_upd_eq by lia. specialize (HC (c_real x) Hx).
          unfold u64. rewrite Z.mod_small by (cbn [length] in HN; unfold two32, two64 in *; lia). lia.
        * rewrite nth_upd_neq by auto. reflexivity. }
  destruct (G l (repeat 0 w) 0%nat) as (A & B); auto.
  - apply repeat_length.
  - intros j Hj. rewrite nth_repeat. lia.
  - apply nth_ext with (d := 0) (d' := 0).
    + rewrite A. unfold histogram. now rewrite map_length, seq_length.
    + intros j Hj. rewrite A in Hj. rewrite (B j Hj), nth_repeat. unfold histogram.
      now rewrite SnipSums.nth_map_seq' by auto.
Qed.

Lemma freq_honest num_bits g n order0 order1 pk0 pk1 junk0 junk1 c0 c1 T0 T1 s0 s1 :
  (num_bits <= 30)%nat -> prg_ok g -> Z.of_nat n < two32 -> fair order1 ->
  let w := Z.to_nat (2 ^ Z.of_nat num_bits) in
  length pk0 = 32%nat -> length pk1 = 32%nat ->
  (forall i, length (junk0 i) = bool_bytes w) -> (forall i, length (junk1 i) = bool_bytes w) ->
  params_ok c0 c1 -> stores_paired s0 s1 ->
  let l := fst (requests (freq_request w g) n 0) in
  (exists s0' s1', stores_paired s0' s1' /\
   ends (bool_bytes n)
     (freq_op false order0 num_bits n (wire freqshare_bytes (subs0 l)) pk0 junk0 c0 T0 s0)
     (freq_op true order1 num_bits n (wire freqshare_bytes (subs1 l)) pk1 junk1 c1 T1 s1)
     (Cfg (Ret (RET_ANS (histogram w (map c_real l)), s0')) (Ret (RET_NO_ANS, s1'))
          (pack_bools (repeat true n)) [])) /\
  freq_counts w l = histogram w (map c_real l).
Proof.
  intros HB HG HN HF w K0 K1 J0 J1 HP HS l.
  assert (Hw : (0 < w)%nat).
  { unfold w. assert (0 < 2 ^ Z.of_nat num_bits) by (apply Z.pow_pos_nonneg; lia). lia. }
  assert (Hw30 : Z.of_nat w <= 2 ^ 30).
  { unfold w. rewrite Z2Nat.id by (apply Z.pow_nonneg; lia). apply Z.pow_le_mono_r; lia. }
  assert (L : length l = n) by apply requests_length.
  pose proof (requests_pks g (freq_request w g) n 0 HG (freq_fresh w g)) as PK. fold l in PK.
  assert (ND : NoDup (map c_pk l)).
  { apply requests_nodup with (g := g); auto using freq_fresh. pose proof (freq_end w g n) as HE.
    assert (HBl : (blocks w <= w + 15)%nat) by (unfold blocks; apply Nat.div_le_upper_bound; lia).
    change (2 ^ 30) with 1073741824 in Hw30. unfold two32, two64 in *.
    assert (Z.of_nat (snd (requests (freq_request w g) n 0)) <= 4294967296 * 1073741840); [|lia].
    etransitivity; [apply inj_le; exact HE|]. rewrite Nat2Z.inj_mul. apply Z.mul_le_mono_nonneg; lia. }
  assert (F : Forall (fun r => (c_real r < w)%nat /\ length (c_0 r) = w /\ length (c_1 r) = w /\
     map2 xorb (c_0 r) (c_1 r) = map (fun j => (j =? c_real r)%nat) (seq 0 w)) l).
  { apply requests_forall. intros pos. now apply freq_request_ok. }
  assert (OK : Forall (fun r : crec (list bool) nat => any (c_0 r) = true /\ any (c_1 r) = true) l)
    by (apply Forall_forall; intros; split; reflexivity).
  split.
  2:{ apply freq_counts_hist; [now rewrite L|]. eapply Forall_impl; [|exact F]. now intros r []. }
  assert (HH : heard (subs1 l) (map c_pk l)).
  { split; auto. intros pk. split.
    - intros (r & <- & H)%in_map_iff. rewrite (honest_first1 any l ND OK r H). discriminate.
    - intros H. destruct (in_dec (list_eq_dec Z.eq_dec) pk (map c_pk l)) as [|N]; auto.
      elim H. apply first_sub_none. now rewrite subs1_keys. }
  assert (FB : forall r, In r l -> freq_bits w (subs0 l) (subs1 l) (c_pk r) = map (fun j => (j =? c_real r)%nat) (seq 0 w)).
  { intros r Hr. unfold freq_bits. rewrite (honest_first0 any l ND OK r Hr), (honest_first1 any l ND OK r Hr). cbn [get].
    rewrite Forall_forall in F. now apply F. }
  assert (TW : total_weight w (subs0 l) (subs1 l) (map c_pk l) = n).
  { unfold total_weight. rewrite map_map.
    assert (HW1 : forall r, In r l -> weight (freq_bits w (subs0 l) (subs1 l) (c_pk r)) = 1%nat).
    { intros r Hr. rewrite FB by auto. apply weight_unit. rewrite Forall_forall in F. pose proof (proj1 (F r Hr)). lia. }
    rewrite <- L. clear - HW1. revert HW1. generalize (subs0 l) (subs1 l). intros a b HW1.
    induction l as [|r l' IH]; auto. cbn [map list_sum fold_right length].
    rewrite HW1 by (now left). change (fold_right Nat.add 0%nat) with list_sum. rewrite IH; auto.
    intros r' Hr'. apply HW1. now right. }
  assert (TL : tally w (subs0 l) (subs1 l) (map c_pk l) = histogram w (map c_real l)).
  { unfold tally, histogram, votes. apply map_ext_in. intros j Hj. apply in_seq in Hj. apply f_equal.
    clear - FB Hj. revert FB. generalize (subs0 l) (subs1 l). intros a b FB.
    induction l as [|r l' IH]; auto. cbn [map filter count_occ]. rewrite FB by (now left).
    rewrite SnipSums.nth_map_seq' by lia.
    destruct (Nat.eqb_spec j (c_real r)) as [->|N]; destruct (Nat.eq_dec (c_real r) _) as [E|E]; try congruence;
      cbn [length]; rewrite IH; auto; intros r' Hr'; apply FB; now right. }
  destruct (freq_passed num_bits order0 order1 n n (wire freqshare_bytes (subs0 l)) (wire freqshare_bytes (subs1 l))
    (subs0 l) (subs1 l) pk0 pk1 junk0 junk1 c0 c1 T0 T1 s0 s1 (map c_pk l)) as (s0' & s1' & H1 & H2); auto.
  - apply (honest_arrives0 freq_wire); auto.
  - apply (honest_arrives1 freq_wire); auto.
  - apply Forall_map. eapply Forall_impl; [|exact F]. intros r (_ & A & _). exact A.
  - apply Forall_map. eapply Forall_impl; [|exact F]. intros r (_ & _ & A & _). exact A.
  - rewrite map_length. lia.
  - fold w. rewrite TW. split; [|reflexivity]. apply Z.mod_small. pose proof two32_field. lia.
  - exists s0', s1'. split; auto. rewrite map_length, L, outcome_all in H2. fold w in H2. rewrite TL in H2. exact H2.
Qed.

(** ** The answer never exceeds the number of submissions counted *)
Lemma seq_nth_weight row : forall n, length row = n -> 
  list_sum (map (fun j => if nth j row false then 1 else 0)%nat (seq 0 n)) = weight row.
Proof.
  induction row as [|b row IH]; intros [|n] L; try discriminate; auto.
  cbn [seq map list_sum fold_right nth weight]. rewrite <- seq_shift, map_map. cbn [nth].
  change (fold_right Nat.add 0%nat) with list_sum. rewrite IH by (now injection L). now destruct b.
Qed.

Lemma tally_sum w subs0 subs1 L : (forall pk, In pk L -> length (freq_bits w subs0 subs1 pk) = w) ->
  zsum (tally w subs0 subs1 L) = Z.of_nat (total_weight w subs0 subs1 L).
Proof.
  intros H. unfold tally, total_weight, votes.
  assert (E : forall l, zsum (map (fun j => Z.of_nat (l j)) (seq 0 w)) = Z.of_nat (list_sum (map l (seq 0 w)))).
  { intros l. generalize (seq 0 w). induction l0 as [|x l0 IH]; auto. cbn [map list_sum fold_right].
    rewrite zsum_cons, IH. unfold list_sum. lia. }
  rewrite E. apply f_equal. clear E. induction L as [|pk L IH].
  - cbn [map filter length list_sum fold_right]. induction (seq 0 w); cbn; auto.
  - cbn [map list_sum fold_right]. change (fold_right Nat.add 0%nat) with list_sum.
    rewrite <- IH by (intros; apply H; now right). rewrite <- (seq_nth_weight _ w) by (apply H; now left).
    clear. induction (seq 0 w) as [|j s IH]; auto. cbn [map list_sum fold_right filter] in *.
    change (fold_right Nat.add 0%nat) with list_sum in *. rewrite IH.
    destruct (nth j (freq_bits w subs0 subs1 pk) false); cbn [length]; lia.
Qed.

(** ** Repeated identities *)
Lemma repeats_heard {V} (subs subs' : list (list Z * V)) L : repeats any subs subs' -> heard subs L -> heard subs' L.
Proof. intros HR (A & B). split; auto. intros pk. rewrite (repeats_first any _ _ HR). apply B. Qed.
Lemma repeats_bits w subs0 subs0' subs1 subs1' pk : repeats any subs0 subs0' -> repeats any subs1 subs1' ->
  freq_bits w subs0' subs1' pk = freq_bits w subs0 subs1 pk.
Proof. intros H0 H1. unfold freq_bits. now rewrite (repeats_first any _ _ H0), (repeats_first any _ _ H1). Qed.
Lemma repeats_one_hot w subs0 subs0' subs1 subs1' G : repeats any subs0 subs0' -> repeats any subs1 subs1' ->
  one_hot w subs0 subs1 G -> one_hot w subs0' subs1' G.
Proof.
  intros H0 H1 (A & B). split; auto. intros pk.
  rewrite (repeats_first any _ _ H0), (repeats_first any _ _ H1), (repeats_bits w subs0 subs0' subs1 subs1') by auto. apply B.
Qed.
Lemma repeats_tally w subs0 subs0' subs1 subs1' L : repeats any subs0 subs0' -> repeats any subs1 subs1' ->
  tally w subs0' subs1' L = tally w subs0 subs1 L /\ total_weight w subs0' subs1' L = total_weight w subs0 subs1 L.
Proof.
  intros H0 H1. split.
  - unfold tally, votes. apply map_ext. intros j. apply f_equal, f_equal, filter_ext. intros pk.
    now rewrite (repeats_bits w subs0 subs0' subs1 subs1').
  - unfold total_weight. apply f_equal, map_ext. intros pk. now rewrite (repeats_bits w subs0 subs0' subs1 subs1').
Qed.
