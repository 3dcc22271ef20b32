(** What the servers see during FREQ. *)
From Coq Require Import ZArith List Bool Lia Permutation.
From Verif Require Import Words WordsFacts Cong Constants Share SpecShare ShareFacts Proc ProcFacts Net NetFacts SpecNet NetMsg RelFacts OT OTFacts
  Correlated SpecStore CorrelatedFacts MpcFacts Circuit Snip SnipFacts SnipBatch SnipSums ServerOps SpecServer TableFacts ServerFacts SpecPrivacy ViewFacts PrivacyFacts SpecFreq FreqFacts.
Import ListNotations.
Open Scope Z_scope.
Local Notation P := Int_Modulus.
Opaque Int_Modulus.

(** ** Runs of a server that logs, ending with bytes nobody reads *)
Lemma reach_corr {A B} k (p p' : proc A) (q : proc B) a b o i : corr eq p p' ->
  reach k p' q (Cfg (Ret a) (Ret b) o i) -> reach k p q (Cfg (Ret a) (Ret b) o i).
Proof.
  intros C H cap H1 Hk. destruct (H cap H1 Hk) as [(n & S) F]. split; [|exact F]. exists n.
  destruct (corr_steps eq _ _ _ _ S p (corr_sym _ _ C)) as (p2 & S2 & C2). cbn [start proc0 proc1 ch01 ch10] in *.
  inversion C2; subst. exact S2.
Qed.
Lemma conv_reach {A B} k (p : proc A) (q : proc B) a b : conv p q a b -> reach k p q (Cfg (Ret a) (Ret b) [] []).
Proof. intros H cap H1 _. split; [exact (H cap H1)|]. intros e. apply ret_stuck. Qed.
Lemma reach_swap {A B} k (p : proc A) (q : proc B) a b o i : reach k p q (Cfg (Ret a) (Ret b) o i) ->
  reach k q p (Cfg (Ret b) (Ret a) i o).
Proof.
  intros H cap H1 Hk. destruct (H cap H1 Hk) as [(n & S) _]. split; [|intros e; apply ret_stuck]. exists n.
  exact (steps_swap _ _ _ _ S).
Qed.

Lemma runs_corr {A B} (p p' : proc A) (q q' : proc B) a : corr eq p p' -> runs p' q (Ret a) q' -> runs p q (Ret a) q'.
Proof.
  intros C H cap H1. destruct (H cap H1) as (n & S). exists n.
  destruct (corr_steps eq _ _ _ _ S p (corr_sym _ _ C)) as (p2 & S2 & C2). cbn [start proc0 proc1 ch01 ch10] in *.
  inversion C2; subst. exact S2.
Qed.
Lemma log_receive_runs {A B D} s (r : proc A) x (k' : A -> proc B) (k k2 : proc D) log v :
  delivers s r x -> runs (logged (log ++ sent_by s) (k' x)) k (Ret v) k2 ->
  runs (logged log (bind r k')) (s ;;; k) (Ret v) k2.
Proof.
  intros DL H. destruct (delivers_feed _ _ _ DL) as [E F]. eapply runs_corr; [apply corr_logged_bind|].
  eapply runs_trans; [|exact H]. eapply (delivers_runs' s (logged log r) (log ++ sent_by s, x)).
  exists (sent_by s). split; [exact E|]. intros rest. apply F.
Qed.

Section Logging.
  Context {A B C D : Type}.
  Variables (kk : nat) (fin : config (list Z * B) D).
  Hypothesis HF : exists u v o i, fin = Cfg (Ret u) (Ret v) o i.

  Lemma log_bind_r (p : proc A) (k : A -> proc B) (q : proc C) (k' : C -> proc D) log v c :
    conv (logged log p) q v c -> reach kk (logged (fst v) (k (snd v))) (k' c) fin ->
    reach kk (logged log (bind p k)) (bind q k') fin.
  Proof.
    destruct HF as (u & w & o & i & ->). intros H1 H2. eapply reach_corr; [apply corr_logged_bind|].
    eapply runs_reach; [|exact H2].
    exact (conv_bind_runs _ _ _ _ _ _ _ _ H1 (runs_refl _ _)).
  Qed.
  Lemma log_receive_r s (r : proc A) x (k' : A -> proc B) (k : proc D) log :
    delivers s r x -> reach kk (logged (log ++ sent_by s) (k' x)) k fin ->
    reach kk (logged log (bind r k')) (s ;;; k) fin.
  Proof.
    destruct HF as (u & w & o & i & ->). intros DL H. destruct (delivers_feed _ _ _ DL) as [E F].
    eapply reach_corr; [apply corr_logged_bind|].
    eapply runs_reach; [|exact H]. eapply (delivers_runs' s (logged log r) (log ++ sent_by s, x)).
    exists (sent_by s). split; [exact E|]. intros rest. apply F.
  Qed.
End Logging.
Section Logging'.
  Context {A B D : Type}.
  Variables (kk : nat) (fin : config (list Z * B) D).
  Hypothesis HF : exists u v o i, fin = Cfg (Ret u) (Ret v) o i.
  Lemma log_send_r s (r : proc A) x (k : proc B) (k' : A -> proc D) log :
    delivers s r x -> reach kk (logged log k) (k' x) fin ->
    reach kk (logged log (s ;;; k)) (bind r k') fin.
  Proof.
    destruct HF as (u & w & o & i & ->). intros (bs & E & F) H.
    eapply reach_corr; [apply corr_logged_bind|]. eapply runs_reach; [|exact H].
    apply (conv_bind_runs (logged log s) r (log, tt) x (fun v => logged (fst v) k)); [|apply runs_refl].
    eapply conv_emit_feed; [apply emits_logged; exact E|]. specialize (F []). rewrite app_nil_r in F. exact F.
  Qed.
End Logging'.

(** ** The conversion of the shares *)

(** The daBits made when the store is empty: dealt by server 0, or by oblivious transfer. *)
Definition local_pairs (T : nat -> Z) (from m : nat) : list (DaBit * DaBit) :=
  map (fun i => makeLocalDaBit (T (from + 2 * i)%nat) (T (from + 2 * i + 1)%nat)) (seq 0 m).
Definition ot_sent (T0 : nat -> Z) (from m : nat) : list (Z * Z) :=
  dabit_msgs (draw_bits T0 from m) (draw_words T0 (from + m) m).
Definition ot_got (T0 T1 : nat -> Z) (f0 f1 m : nat) : list Z :=
  map2 ot_select (draw_bits T1 f1 m) (ot_sent T0 f0 m).
Definition made0 (lz : bool) (T0 : nat -> Z) (f0 m : nat) : list DaBit :=
  if lz then map fst (local_pairs T0 f0 m)
  else dabit_out (draw_bits T0 f0 m) (map (fun wi => P - wi mod P) (draw_words T0 (f0 + m) m)).
Definition made1 (lz : bool) (T0 T1 : nat -> Z) (f0 f1 m : nat) : list DaBit :=
  if lz then map snd (local_pairs T0 f0 m)
  else dabit_out (draw_bits T1 f1 m) (ot_got T0 T1 f0 f1 m).
(** What server 1 receives for them. *)
Definition dealt (lz : bool) (T0 T1 : nat -> Z) (f0 f1 m : nat) : list Z :=
  if lz then sent_by (send_DaBit_batch (map snd (local_pairs T0 f0 m))) else ot_got T0 T1 f0 f1 m.
(** How many are made when [n] are wanted. *)
Definition batch_of (c : store_params) (n : nat) : nat := if (batch_size c <? n)%nat then n else batch_size c.

Lemma local_pairs_length T f m : length (local_pairs T f m) = m.
Proof. unfold local_pairs. now rewrite map_length, seq_length. Qed.
Lemma batch_enough c n : (n <= batch_of c n)%nat.
Proof. unfold batch_of. destruct (Nat.ltb_spec (batch_size c) n); lia. Qed.

Lemma made_pairs lz T0 T1 f0 f1 m : Forall2 dabit_pair (made0 lz T0 f0 m) (made1 lz T0 T1 f0 f1 m) /\
  length (made0 lz T0 f0 m) = m.
Proof.
  unfold made0, made1. destruct lz.
  - split; [|now rewrite map_length, local_pairs_length].
    unfold local_pairs. induction (seq 0 m) as [|i l IH]; cbn [map]; constructor; [|exact IH]. apply local_dabit_pair.
  - pose proof (dabit_out_spec (draw_bits T0 f0 m) (draw_bits T1 f1 m) (draw_words T0 (f0 + m) m)) as H.
    cbv zeta in H. destruct H as (A & B & _); rewrite ?draw_bits_length, ?draw_words_length; auto.
    { apply Forall_forall. intros x (i & <- & _)%in_map_iff. apply u64_range. }
    split; [exact A|]. now rewrite B, draw_words_length.
Qed.

Lemma get_first_da c T n : forall ds s, dabit_store s = ds -> (n <= length ds)%nat ->
  getDaBits c T n s = Ret (firstn n ds, with_dabits s (skipn n ds)).
Proof.
  induction n as [|n IH]; intros [|d ds] [D Bt k] E L; cbn [dabit_store length] in *; subst; try lia; cbn [getDaBits firstn skipn]; try reflexivity.
  unfold getDaBit, checkDaBits. cbn [dabit_store length]. change (S (length ds) <? 1)%nat with false. cbn [bind dabit_store].
  cbn [snd fst]. rewrite (IH ds) by (cbn; auto; lia). cbn [bind fst snd]. reflexivity.
Qed.

Lemma pairs_firstn {A B} (R : A -> B -> Prop) n : forall l k, Forall2 R l k -> Forall2 R (firstn n l) (firstn n k).
Proof. induction n as [|n IH]; intros l k H; [constructor|]. destruct H; cbn [firstn]; constructor; auto. Qed.

Section Conversion.
  Variables (c0 c1 : store_params) (T0 T1 : nat -> Z) (s0 s1 : store).
  Hypothesis HP : params_ok c0 c1.
  Hypothesis E0 : dabit_store s0 = [].
  Hypothesis E1 : dabit_store s1 = [].
  Variable N : nat.
  Hypothesis HN : (0 < N)%nat.
  Let lz := lazy c0.
  Let m := batch_of c0 N.
  Let d0 := made0 lz T0 (ctr s0) m.
  Let d1 := made1 lz T0 T1 (ctr s0) (ctr s1) m.
  Let got := dealt lz T0 T1 (ctr s0) (ctr s1) m.

  Lemma halves_ok : Forall dabit_ok (map snd (local_pairs T0 (ctr s0) m)).
  Proof.
    apply Forall_forall. intros d (pr & <- & Hd)%in_map_iff. apply in_map_iff in Hd as (i & <- & _).
    apply range_limbs. apply local_dabit_pair.
  Qed.

  Let left0 (ds : list DaBit) := mkStore ds (btriple_store s0) (ctr s0 + 2 * m).
  Let left1 (ds : list DaBit) := mkStore ds (btriple_store s1) (if lz then ctr s1 else ctr s1 + 2 * m).
  Lemma check_view : let s0' := left0 d0 in let s1' := left1 d1 in
    (forall log, conv (logged log (checkDaBits c0 T0 N s0)) (checkDaBits c1 T1 N s1) (log, s0') s1') /\
    (forall log, conv (logged log (checkDaBits c1 T1 N s1)) (checkDaBits c0 T0 N s0) (log ++ got, s1') s0').
  Proof.
    destruct HP as (P0 & P1 & Pb & Pn & Pl). unfold checkDaBits. rewrite E0, E1. cbn [length]. rewrite !Nat.sub_0_r.
    destruct (Nat.ltb_spec 0 N) as [_|X]; [|lia].
    unfold addDaBits. rewrite P0, P1, <- Pb, <- Pl. fold (batch_of c0 N). fold m lz. rewrite E0, E1. cbn [app].
    unfold left0, left1, d0, d1, got, made0, made1, dealt. destruct lz; cbv zeta.
    - fold (local_pairs T0 (ctr s0) m). set (hs := map snd (local_pairs T0 (ctr s0) m)).
      assert (D : delivers (send_DaBit_batch hs) (recv_DaBit_batch m) hs).
      { assert (L : length hs = m) by (unfold hs; now rewrite map_length, local_pairs_length).
        rewrite <- L at 1. apply delivers_DaBit_batch. apply halves_ok. }
      split; intros log.
      + eapply log_send; [exact D|]. apply conv_ret.
      + eapply log_receive; [exact D|]. apply conv_ret.
    - unfold generateDaBit. fold (ot_sent T0 (ctr s0) m).
      assert (L : length (ot_sent T0 (ctr s0) m) = length (draw_bits T1 (ctr s1) m)).
      { unfold ot_sent, dabit_msgs. rewrite map2_length, !draw_bits_length, draw_words_length. lia. }
      split; intros log.
      + cbn [bind logged]. unfold ot_got.
        exact (conv_ot_ret false (ot_sent T0 (ctr s0) m) (draw_bits T1 (ctr s1) m) (log, advance (with_dabits s0 _) (2 * m))
          (fun r => advance (with_dabits s1 (dabit_out (draw_bits T1 (ctr s1) m) r)) (2 * m)) L).
      + cbn [bind]. unfold ot_got.
        exact (log_ot_recv false (ot_sent T0 (ctr s0) m) (draw_bits T1 (ctr s1) m) (advance (with_dabits s0 _) (2 * m))
          (fun r => advance (with_dabits s1 (dabit_out (draw_bits T1 (ctr s1) m) r)) (2 * m)) log L).
  Qed.

  Definition masked (x : list bool) (ds : list DaBit) : list bool := map2 (fun xi d => xorb xi (b2 d)) x ds.
  Let f0 := firstn N d0.
  Let f1 := firstn N d1.

  Lemma first_pairs : Forall2 dabit_pair f0 f1 /\ length f0 = N /\ length f1 = N.
  Proof.
    destruct (made_pairs lz T0 T1 (ctr s0) (ctr s1) m) as [A B]. fold d0 d1 in A, B.
    pose proof (batch_enough c0 N) as Q. fold m in Q.
    assert (B1 : length d1 = m) by now rewrite <- (Forall2_len _ _ _ A).
    unfold f0, f1. rewrite !firstn_length, B, B1. split; [|lia].
    now apply pairs_firstn.
  Qed.

  Variables (x0 x1 : list bool).
  Hypothesis L0 : length x0 = N.
  Hypothesis L1 : length x1 = N.
  Lemma b2a_view : let s0' := left0 (skipn N d0) in let s1' := left1 (skipn N d1) in
    let o0 := b2a_out false x0 f0 (masked x1 f1) in let o1 := b2a_out true x1 f1 (masked x0 f0) in
    (forall log, conv (logged log (b2a_daBit_single c0 T0 x0 s0)) (b2a_daBit_single c1 T1 x1 s1)
       (log ++ pack_bools (masked x1 f1), (o0, s0')) (o1, s1')) /\
    (forall log, conv (logged log (b2a_daBit_single c1 T1 x1 s1)) (b2a_daBit_single c0 T0 x0 s0)
       ((log ++ got) ++ pack_bools (masked x0 f0), (o1, s1')) (o0, s0')).
  Proof.
    destruct check_view as (C0 & C1).
    set (t0 := left0 d0) in *. set (t1 := left1 d1) in *.
    assert (S0 : dabit_store t0 = d0) by reflexivity. assert (S1 : dabit_store t1 = d1) by reflexivity. destruct first_pairs as (FP & F0 & F1).
    destruct HP as (P0 & P1 & _).
    assert (B0 : (N <= length d0)%nat).
    { destruct (Nat.le_gt_cases N (length d0)) as [|X]; auto. unfold f0 in F0. rewrite firstn_all2 in F0 by lia. lia. }
    assert (B1 : (N <= length d1)%nat).
    { destruct (Nat.le_gt_cases N (length d1)) as [|X]; auto. unfold f1 in F1. rewrite firstn_all2 in F1 by lia. lia. }
    change (left0 (skipn N d0)) with (with_dabits t0 (skipn N d0)). change (left1 (skipn N d1)) with (with_dabits t1 (skipn N d1)). cbv zeta.
    assert (M0 : length (masked x0 f0) = N) by (unfold masked; rewrite map2_length; lia).
    assert (M1 : length (masked x1 f1) = N) by (unfold masked; rewrite map2_length; lia).
    pose proof (unpack_pack (masked x0 f0)) as U0. rewrite M0 in U0. pose proof (unpack_pack (masked x1 f1)) as U1. rewrite M1 in U1.
    unfold b2a_daBit_single. rewrite L0, L1. split; intros log.
    - eapply conv_logged_bind; [apply C0|]. cbn [fst snd].
      rewrite (get_first_da c0 T0 N d0 t0 S0 B0), (get_first_da c1 T1 N d1 t1 S1 B1). cbn [bind fst snd logged].
      rewrite P0, P1.
      pose proof (conv_xchg_ret (pack_bools (masked x0 f0)) (pack_bools (masked x1 f1)) (bool_bytes N) (bool_bytes N)
        (fun l => (log ++ l, (b2a_out false x0 f0 (unpack_bools N l), with_dabits t0 (skipn N d0))))
        (fun l => (b2a_out true x1 f1 (unpack_bools N l), with_dabits t1 (skipn N d1)))
        (bool_bytes_pack _ _ M0) (bool_bytes_pack _ _ M1)) as H. cbv beta in H. rewrite U0, U1 in H. exact H.
    - eapply conv_logged_bind; [apply C1|]. cbn [fst snd].
      rewrite (get_first_da c0 T0 N d0 t0 S0 B0), (get_first_da c1 T1 N d1 t1 S1 B1). cbn [bind fst snd logged].
      rewrite P0, P1.
      pose proof (conv_xchg_ret (pack_bools (masked x1 f1)) (pack_bools (masked x0 f0)) (bool_bytes N) (bool_bytes N)
        (fun l => ((log ++ got) ++ l, (b2a_out true x1 f1 (unpack_bools N l), with_dabits t1 (skipn N d1))))
        (fun l => (b2a_out false x0 f0 (unpack_bools N l), with_dabits t0 (skipn N d0)))
        (bool_bytes_pack _ _ M1) (bool_bytes_pack _ _ M0)) as H. cbv beta in H. rewrite U0, U1 in H. exact H.
  Qed.
End Conversion.

(** ** Whole operations *)
Section Operation.
  Variables (order : iteration) (c0 c1 : store_params) (T0 T1 : nat -> Z) (w : nat) (m0 m1 : table (list bool)) (total : nat)
    (s0 s1 s0' s1' : store) (o0 o1 : list Z).
  Hypothesis HF : fair order.
  Hypothesis HK : keys_ok m1.
  Hypothesis HN : Z.of_nat (length m1) < two32.
  Hypothesis W0 : Forall (fun e => length (snd e) = w) m0.
  Hypothesis W1 : Forall (fun e => length (snd e) = w) m1.
  Hypothesis HT : (length m1 <= total)%nat.
  Let l := order _ m1.
  Let n := length l.
  Let sh0 := chunks n w o0.
  Let sh1 := chunks n w o1.
  Hypothesis HC : converted w m0 l sh0 sh1.
  Let x0 := concat (map (row0 w m0) l).
  Let x1 := concat (map snd l).
  Let av := balancedb (list_sum (map (fun e => weight (bits w m0 e)) l)) total.
  Let par1 := map parity_of (map snd l).
  Let sums1 := map sum_of sh1.

  Lemma av_eq : Bool.eqb (xorb (parity_of (map parity_of (map (row0 w m0) l))) (parity_of par1)) (Nat.odd total) &&
    ((sum_of (map sum_of sh0) + sum_of sums1) mod p =? Z.of_nat total) = av.
  Proof.
    assert (WL : Forall (fun e => length (snd e) = w) l) by now apply fair_forall.
    assert (R1 : Forall (fun r => length r = w) (map snd l)) by now apply Forall_map.
    assert (R0 : Forall (fun r => length r = w) (map (row0 w m0) l)).
    { apply Forall_map, Forall_forall. intros e _. now apply row0_width. }
    assert (LR : length (map (row0 w m0) l) = length (map snd l)) by now rewrite !map_length.
    unfold av, balancedb, par1, sums1. rewrite parities.
    2:{ apply Forall2_widths with (w := w); auto. }
    rewrite map2_maps. rewrite !map_map. apply f_equal2.
    - reflexivity.
    - apply (f_equal (fun z => z =? Z.of_nat total)). change p with P. apply cong_iff.
      destruct HC as (L0 & L1 & F0 & F1 & HH).
      rewrite (sums_shares sh0 sh1 (map (bits w m0) l)); auto.
      + rewrite map_map. reflexivity.
      + apply Forall2_widths with (w := w); auto. congruence.
  Qed.
  Lemma keys_go : delivers (announce l) learn (map fst l).
  Proof.
    apply delivers_announce.
    - apply fair_forall; [exact HF|apply HK].
    - unfold l. now rewrite fair_length.
  Qed.
  Lemma length_l : length l = length m1.
  Proof. now apply fair_length. Qed.
  Lemma sums_field : limbs_ok (sum_of sums1).
  Proof. apply in_field_limbs, sum_of_field. Qed.

  (** Server 0's log of the whole run begins like this. *)
  Section View0.
    Variable sn : list Z.
    Hypothesis CV : forall log, conv (logged log (b2a_daBit_single c0 T0 x0 s0)) (b2a_daBit_single c1 T1 x1 s1) (log ++ sn, (o0, s0')) (o1, s1').
    Let log := ((([] ++ sent_by (announce l)) ++ sn) ++ sent_by (send_bool (parity_of par1))) ++ sent_by (send_fmpz (sum_of sums1)).

    Lemma enter0 kk u v o i :
      reach kk (logged log (tail0 w (map (fun e => known m0 (fst e)) l) (map (row0 w m0) l) sh0 total s0' av))
        (tail1 w (map snd l) sh1 s1' av) (Cfg (Ret u) (Ret v) o i) ->
      reach kk (logged [] (freq_op0 c0 T0 w m0 total s0)) (freq_op1 order c1 T1 w m1 s1) (Cfg (Ret u) (Ret v) o i).
    Proof.
      intros H. unfold freq_op0, freq_op1. fold l.
      assert (X : exists u0 v0 o0 i0, Cfg (Ret u) (Ret v) o i = Cfg (Ret u0) (Ret v0) o0 i0) by eauto.
      eapply log_receive_r; [exact X|apply keys_go|].
      rewrite !map_length, length_l. destruct (Nat.ltb_spec total (length m1)) as [?|_]; [lia|].
      assert (E0 : map (get (repeat false w)) (map (fun pk => find pk m0) (map fst l)) = map (row0 w m0) l) by (rewrite !map_map; reflexivity).
      assert (E1 : map is_some (map (fun pk => find pk m0) (map fst l)) = map (fun e => known m0 (fst e)) l) by (rewrite !map_map; reflexivity).
      rewrite E0, E1, <- length_l. fold x0 x1 n.
      eapply log_bind_r; [exact X|apply CV|]. cbn [fst snd]. fold sh0 sh1.
      rewrite <- (map_map snd parity_of l). fold par1 sums1.
      eapply log_receive_r; [exact X|apply delivers_bool|].
      eapply log_receive_r; [exact X|apply delivers_fmpz, sums_field|].
      rewrite av_eq. eapply log_send_r; [exact X|apply delivers_bool|].
      unfold tail0, tail1 in H. rewrite !map_length in H. exact H.
    Qed.

    Let accum1 := accumulate w sh1 (repeat true n).
    Lemma freq_log0_balanced : av = true ->
      reach (bool_bytes n) (logged [] (freq_op0 c0 T0 w m0 total s0)) (freq_op1 order c1 T1 w m1 s1)
        (Cfg (Ret (log ++ sent_by (send_fmpz_batch accum1), (outcome n total (counts w m0 l (fun _ => true)), s0')))
             (Ret (RET_NO_ANS, s1')) (pack_bools (repeat true n)) []).
    Proof.
      intros HA. apply enter0. rewrite HA. intros cap H1 Hk. split; [|intros e; apply ret_stuck].
      unfold tail0, tail1. rewrite !map_length. fold n. cbn [bind]. unfold send_bool_batch at 1. cbn [bind logged].
      match goal with |- exists n, steps _ _ (start (Send ?b ?k) ?q) _ =>
        destruct (steps_fill cap q k [] b []) as (k1 & Hn) end.
      { rewrite pack_bools_length, repeat_length. cbn. exact Hk. }
      cbn [app] in Hn.
      destruct (accumulate_spec w sh1 (repeat true n)) as (A & B & _). fold accum1 in A, B.
      pose proof (delivers_fmpz_batch _ (fields_limbs _ B)) as D. rewrite A in D.
      destruct (delivers_feed _ _ _ D) as [E _]. destruct D as (bs & E' & F). rewrite (ViewFacts.emits_sent _ _ _ E') in *.
      match type of Hn with steps _ _ _ ?c => match goal with |- exists n, steps _ _ _ ?f =>
        assert (HM : exists m, steps cap m c f) end end.
      2:{ destruct HM as (k2 & Hm). exists (k1 + k2)%nat. eapply steps_trans; [exact Hn|exact Hm]. }
      eapply steps_under; [exact H1|apply emits_bind_ret; exact E'|].
      specialize (F []). rewrite app_nil_r in F.
      match goal with |- feed (logged ?lg (bind ?r ?k)) _ = _ => assert (FB : feed (bind r k) bs = Some ((outcome n total (counts w m0 l (fun _ => true)), s0'), [])) end.
      { erewrite feed_bind by exact F. rewrite count_all. unfold accum1, n. rewrite map_const_true.
        rewrite (counts_spec w m0 l) by (auto; pose proof two32_field; rewrite length_l; lia).
        unfold too_few, outcome. destruct (2 * _ <? _)%nat; reflexivity. }
      destruct (feed_logged _ _ _ _ FB) as (cc & Ec & K). rewrite app_nil_r in Ec. subst cc. apply K.
    Qed.

    Lemma freq_log0_any : Z.of_nat w < P -> exists more left a,
      reach (bool_bytes n) (logged [] (freq_op0 c0 T0 w m0 total s0)) (freq_op1 order c1 T1 w m1 s1)
        (Cfg (Ret (sent_by (announce l) ++ sn ++ more, a)) (Ret (RET_NO_ANS, s1')) left []).
    Proof.
      intros HW. destruct av eqn:HA.
      - pose proof (freq_log0_balanced HA) as H. unfold log in H. rewrite <- !app_assoc in H. cbn [app] in H. eauto.
      - enough (H : exists more a, conv (logged log (tail0 w (map (fun e => known m0 (fst e)) l) (map (row0 w m0) l) sh0 total s0' av))
            (tail1 w (map snd l) sh1 s1' av) (log ++ more, a) (RET_NO_ANS, s1')).
        { destruct H as (more & a & H). exists ((sent_by (send_bool (parity_of par1)) ++ sent_by (send_fmpz (sum_of sums1))) ++ more), [], a.
          pose proof (enter0 (bool_bytes n) _ _ _ _ (conv_reach _ _ _ _ _ H)) as X. unfold log in X. rewrite <- !app_assoc in X.
          rewrite <- !app_assoc. exact X. }
        rewrite HA. unfold tail0, tail1. rewrite !map_length.
        assert (WL : Forall (fun e => length (snd e) = w) l) by now apply fair_forall.
        pose proof HC as (L0 & L1 & F0 & F1 & _).
        assert (HB : delivers (send_bool_batch (map parity_of (map snd l))) (recv_bool_batch (length l)) (map parity_of (map snd l))).
        { pose proof (delivers_bool_batch (map parity_of (map snd l))) as H. rewrite !map_length in H. exact H. }
        assert (HS : delivers (send_fmpz_batch (map sum_of sh1)) (recv_fmpz_batch (length l)) (map sum_of sh1)).
        { pose proof (delivers_fmpz_batch (map sum_of sh1) (sums_limbs sh1)) as H. rewrite map_length, L1 in H. exact H. }
        destruct (accumulate_spec w sh1 (map (fine w m0) l)) as (A & B & _).
        pose proof (delivers_fmpz_batch _ (fields_limbs _ B)) as HA'. rewrite A in HA'.
        assert (HV : delivers (send_bool_batch (map (fine w m0) l)) (recv_bool_batch (length l)) (map (fine w m0) l)).
        { pose proof (delivers_bool_batch (map (fine w m0) l)) as H. rewrite map_length in H. exact H. }
        eexists ((sent_by (send_bool_batch (map parity_of (map snd l))) ++ sent_by (send_fmpz_batch (map sum_of sh1))) ++
          sent_by (send_fmpz_batch (accumulate w sh1 (map (fine w m0) l)))), _.
        rewrite !app_assoc. eapply conv_corr; [apply corr_logged_bind|].
        eapply runs_trans.
        { apply runs_bind. eapply log_receive_runs; [exact HB|]. eapply log_receive_runs; [exact HS|].
          rewrite (valid_spec w m0 l sh0 sh1) by auto. apply runs_refl. }
        cbn [bind fst snd]. eapply log_send; [exact HV|]. eapply log_receive; [exact HA'|].
        match goal with |- conv (logged ?lg (if ?b then ?x else ?y)) _ _ _ =>
          replace (if b then x else y) with (Ret (outcome (count (map (fine w m0) l)) total (map2 addp (accumulate w sh0 (map (fine w m0) l)) (accumulate w sh1 (map (fine w m0) l))), s0')) end.
        { apply conv_ret. }
        unfold too_few, outcome. destruct (2 * _ <? _)%nat; reflexivity.
    Qed.
  End View0.

  Section View1.
    Variable sn : list Z.
    Hypothesis CV : forall log, conv (logged log (b2a_daBit_single c1 T1 x1 s1)) (b2a_daBit_single c0 T0 x0 s0) (log ++ sn, (o1, s1')) (o0, s0').
    Let log := ([] ++ sn) ++ sent_by (send_bool av).

    Lemma enter1 kk u v o i :
      reach kk (logged log (tail1 w (map snd l) sh1 s1' av))
        (tail0 w (map (fun e => known m0 (fst e)) l) (map (row0 w m0) l) sh0 total s0' av) (Cfg (Ret v) (Ret u) i o) ->
      reach kk (logged [] (freq_op1 order c1 T1 w m1 s1)) (freq_op0 c0 T0 w m0 total s0) (Cfg (Ret v) (Ret u) i o).
    Proof.
      intros H. unfold freq_op0, freq_op1. fold l.
      assert (X : exists u0 v0 o0 i0, Cfg (Ret v) (Ret u) i o = Cfg (Ret u0) (Ret v0) o0 i0) by eauto.
      eapply log_send_r; [exact X|apply keys_go|].
      rewrite !map_length, length_l. destruct (Nat.ltb_spec total (length m1)) as [?|_]; [lia|].
      assert (E0 : map (get (repeat false w)) (map (fun pk => find pk m0) (map fst l)) = map (row0 w m0) l) by (rewrite !map_map; reflexivity).
      assert (E1 : map is_some (map (fun pk => find pk m0) (map fst l)) = map (fun e => known m0 (fst e)) l) by (rewrite !map_map; reflexivity).
      rewrite E0, E1, <- length_l. fold x0 x1 n.
      eapply log_bind_r; [exact X|apply CV|]. cbn [fst snd]. fold sh0 sh1.
      rewrite <- (map_map snd parity_of l). fold par1 sums1.
      eapply log_send_r; [exact X|apply delivers_bool|].
      eapply log_send_r; [exact X|apply delivers_fmpz, sums_field|].
      rewrite av_eq. eapply log_receive_r; [exact X|apply delivers_bool|].
      unfold tail0, tail1 in H. rewrite !map_length in H. exact H.
    Qed.

    Lemma freq_log1_balanced : av = true -> exists a,
      reach (bool_bytes n) (freq_op0 c0 T0 w m0 total s0) (logged [] (freq_op1 order c1 T1 w m1 s1))
        (Cfg (Ret a) (Ret (log, (RET_NO_ANS, s1'))) (pack_bools (repeat true n)) []).
    Proof.
      intros HA. exists (outcome n total (counts w m0 l (fun _ => true)), s0'). apply reach_swap, enter1. rewrite HA.
      apply reach_swap. intros cap H1 Hk. split; [|intros e; apply ret_stuck].
      unfold tail0, tail1. rewrite !map_length. fold n. cbn [bind]. unfold send_bool_batch at 1. cbn [bind].
      match goal with |- exists n, steps _ _ (start (Send ?b ?k) ?q) _ =>
        destruct (steps_fill cap q k [] b []) as (k1 & Hn) end.
      { rewrite pack_bools_length, repeat_length. cbn. exact Hk. }
      cbn [app] in Hn.
      destruct (accumulate_spec w sh1 (repeat true n)) as (A & B & _).
      pose proof (delivers_fmpz_batch _ (fields_limbs _ B)) as D. rewrite A in D.
      destruct D as (bs & E' & F).
      match type of Hn with steps _ _ _ ?c => match goal with |- exists n, steps _ _ _ ?f =>
        assert (HM : exists m, steps cap m c f) end end.
      2:{ destruct HM as (k2 & Hm). exists (k1 + k2)%nat. eapply steps_trans; [exact Hn|exact Hm]. }
      eapply steps_under; [exact H1|apply emits_logged, emits_bind_ret; exact E'|].
      specialize (F []). rewrite app_nil_r in F. erewrite feed_bind by exact F.
      rewrite count_all. unfold n. rewrite map_const_true.
      rewrite (counts_spec w m0 l) by (auto; pose proof two32_field; rewrite length_l; lia).
      unfold too_few, outcome. destruct (2 * _ <? _)%nat; reflexivity.
    Qed.
  End View1.
End Operation.
