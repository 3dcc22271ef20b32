(** The views of whole FREQ operations. *)
From Coq Require Import ZArith List Bool Lia Permutation.
From Verif Require Import Words WordsFacts Cong Constants Share SpecShare ShareFacts Proc ProcFacts Net NetFacts SpecNet NetMsg RelFacts OT OTFacts
  Correlated SpecStore CorrelatedFacts MpcFacts Circuit Snip SnipFacts SnipBatch SnipSums ServerOps SpecServer TableFacts ServerFacts ClientOps SpecClient
  ClientFacts SpecPoly SpecSecret SecretFacts SpecPrivacy ViewFacts PrivacyFacts PrivacyProof StatPrivacy SpecFreq FreqFacts ServerProps FreqProps SpecFreqPrivacy FreqView.
Import ListNotations.
Open Scope Z_scope.
Local Notation P := Int_Modulus.
Opaque Int_Modulus.

Lemma dabits_converted w m0 (l : table (list bool)) ds0 ds1 :
  Forall (fun e => length (snd e) = w) m0 -> Forall (fun e => length (snd e) = w) l ->
  Forall2 dabit_pair ds0 ds1 -> length ds0 = (length l * w)%nat ->
  let x0 := concat (map (row0 w m0) l) in let x1 := concat (map snd l) in
  let o0 := b2a_out false x0 ds0 (masked x1 ds1) in let o1 := b2a_out true x1 ds1 (masked x0 ds0) in
  length x0 = (length l * w)%nat /\ length x1 = (length l * w)%nat /\
  converted w m0 l (chunks (length l) w o0) (chunks (length l) w o1).
Proof.
  intros W0 W1 FP LD x0 x1 o0 o1.
  assert (R1 : Forall (fun r => length r = w) (map snd l)) by now apply Forall_map.
  assert (R0 : Forall (fun r => length r = w) (map (row0 w m0) l)).
  { apply Forall_map, Forall_forall. intros e _. now apply row0_width. }
  assert (L0 : length x0 = (length l * w)%nat) by (unfold x0; rewrite (concat_width w) by auto; now rewrite map_length).
  assert (L1 : length x1 = (length l * w)%nat) by (unfold x1; rewrite (concat_width w) by auto; now rewrite map_length).
  split; [exact L0|]. split; [exact L1|].
  destruct (b2a_out_spec x0 x1 ds0 ds1) as (M1 & M2 & M3 & M4 & M5); [congruence|congruence|exact FP|].
  change (map2 (fun xi d => xorb xi (b2 d)) x1 ds1) with (masked x1 ds1) in M1, M2, M3, M4, M5.
  change (map2 (fun xi d => xorb xi (b2 d)) x0 ds0) with (masked x0 ds0) in M1, M2, M3, M4, M5.
  fold o0 in M1, M3, M5. fold o1 in M2, M4, M5.
  unfold converted. rewrite !chunks_length. split; [reflexivity|]. split; [reflexivity|].
  split; [apply chunks_each; lia|]. split; [apply chunks_each; lia|].
  rewrite <- (map_length (row0 w m0) l) at 1 2.
  rewrite (opened_rows w (map (row0 w m0) l) (map snd l)); auto; [|now rewrite !map_length].
  rewrite map2_maps. reflexivity.
Qed.

Lemma unmask : forall x0 x1 ds, length x1 = length x0 -> length ds = length x0 ->
  map2 xorb x0 (map2 xorb (masked x1 ds) (map b2 ds)) = map2 xorb x0 x1.
Proof.
  induction x0 as [|a x0 IH]; intros [|b x1] [|d ds] L1 L2; try discriminate; [reflexivity|].
  unfold masked in *. cbn [map2 map length] in *. rewrite IH by lia. f_equal. destruct a, b, (b2 d); reflexivity.
Qed.
Lemma seq_firstn a n m : (n <= m)%nat -> firstn n (seq a m) = seq a n.
Proof.
  revert a m. induction n as [|n IH]; intros a [|m] H; cbn [firstn seq]; try reflexivity; [lia|]. now rewrite IH by lia.
Qed.
Lemma combine_maps {A B C} (f : A -> B) (g : A -> C) l : combine (map f l) (map g l) = map (fun x => (f x, g x)) l.
Proof. induction l; cbn; congruence. Qed.

Section Overheard.
  Variables (num_bits : nat) (order0 order1 : iteration) (total0 total1 : nat) (stream0 stream1 : list Z)
    (subs0 subs1 : list (list Z * list bool)) (pk0 pk1 : list Z) (junk0 junk1 : nat -> list Z)
    (c0 c1 : store_params) (T0 T1 : nat -> Z) (s0 s1 : store) (L : list (list Z)).
  Lemma freq_rows_heard : (num_bits <= 30)%nat -> fair order1 ->
    freq_input num_bits total0 stream0 subs0 pk0 junk0 -> freq_input num_bits total1 stream1 subs1 pk1 junk1 ->
    params_ok c0 c1 -> lazy c0 = true -> dabit_store s0 = [] -> dabit_store s1 = [] ->
    heard subs1 L -> L <> [] -> (length L <= total0)%nat ->
    exists view left L', Permutation L' L /\
      ends0 (bool_bytes (length L))
        (freq_op false order0 num_bits total0 stream0 pk0 junk0 c0 T0 s0)
        (freq_op true order1 num_bits total1 stream1 pk1 junk1 c1 T1 s1) view left /\
      overheard (freq_width num_bits) T0 (ctr s0) subs0 (fst view)
        = map (fun pk => (pk, freq_bits (freq_width num_bits) subs0 subs1 pk)) L'.
  Proof.
    intros HB HF (A0 & W0 & K0 & J0) (A1 & W1 & K1 & J1) HP HL E0 E1 HH HNE HT.
    set (w := freq_width num_bits) in *.
    assert (Hw : (0 < w)%nat).
    { unfold w, freq_width. assert (0 < 2 ^ Z.of_nat num_bits) by (apply Z.pow_pos_nonneg; lia). lia. }
    assert (HwP : Z.of_nat w < P).
    { unfold w, freq_width. rewrite Z2Nat.id by (apply Z.pow_nonneg; lia).
      apply Z.le_lt_trans with (2 ^ 30); [apply Z.pow_le_mono_r; lia|reflexivity]. }
    set (m0 := table_of any subs0). set (m1 := table_of any subs1). set (l := order1 _ m1).
    pose proof (heard_keys order1 subs1 L HF HH) as HPL. fold m1 l in HPL.
    assert (HLl : length l = length L) by (rewrite <- (Permutation_length HPL); now rewrite map_length).
    pose proof (freq_table num_bits subs0 W0) as V0. pose proof (freq_table num_bits subs1 W1) as V1.
    fold m0 in V0. fold m1 in V1. fold w in V0, V1.
    assert (VL : Forall (fun e => length (snd e) = w) l) by now apply fair_forall.
    assert (LM : length m1 = length l) by (symmetry; now apply fair_length).
    assert (LN : (0 < length l)%nat) by (rewrite HLl; destruct L; [congruence|cbn; lia]).
    set (N := (length l * w)%nat).
    assert (HN : (0 < N)%nat) by (unfold N; nia).
    destruct (first_pairs c0 T0 T1 s0 s1 N HN) as (FP & F0 & F1).
    set (f0 := firstn N (made0 (lazy c0) T0 (ctr s0) (batch_of c0 N))) in *.
    set (f1 := firstn N (made1 (lazy c0) T0 T1 (ctr s0) (ctr s1) (batch_of c0 N))) in *.
    destruct (dabits_converted w m0 l f0 f1 V0 VL FP F0) as (L0 & L1 & HC).
    set (x0 := concat (map (row0 w m0) l)) in *. set (x1 := concat (map snd l)) in *.
    destruct (b2a_view c0 c1 T0 T1 s0 s1 HP E0 E1 N HN x0 x1 L0 L1) as (CV & _). fold f0 f1 in CV.
    set (s0' := mkStore _ (btriple_store s0) _) in *. set (s1' := mkStore _ (btriple_store s1) _) in *.
    destruct (freq_log0_any order1 c0 c1 T0 T1 w m0 m1 total0 s0 s1 s0' s1'
      (b2a_out false x0 f0 (masked x1 f1)) (b2a_out true x1 f1 (masked x0 f0))) with (sn := pack_bools (masked x1 f1)) as (more & left & a & H); auto.
    all: try (fold l; exact HC).
    all: try (rewrite LM, HLl; exact HT).
    { destruct A1 as (r1 & _ & _ & P1 & S1). now apply table_keys. }
    { destruct A1 as (r1 & _ & _ & P1 & S1). now apply table_size. }
    fold l in H.
    exists (sent_by (announce l) ++ pack_bools (masked x1 f1) ++ more, a), left, (map fst l).
    split; [exact HPL|]. split.
    { exists (RET_NO_ANS, s1'). rewrite (freq_op_eq num_bits HB false order0 total0 stream0 subs0) by auto.
      rewrite (freq_op_eq num_bits HB true order1 total1 stream1 subs1) by auto. fold w m0 m1.
      apply reach_ends. rewrite <- HLl. exact H. }
    cbn [fst]. unfold overheard.
    destruct (keys_go order1 m1 HF) as (bs & Eb & Fb).
    { destruct A1 as (r1 & _ & _ & P1 & S1). now apply table_keys. }
    { destruct A1 as (r1 & _ & _ & P1 & S1). now apply table_size. }
    fold l in Eb, Fb. rewrite (ViewFacts.emits_sent _ _ _ Eb), Fb. cbv zeta. rewrite map_length. fold N.
    assert (LM1 : length (masked x1 f1) = N) by (unfold masked; rewrite map2_length; lia).
    rewrite <- (bool_bytes_pack _ _ LM1), firstn_app, Nat.sub_diag, firstn_O, app_nil_r, firstn_all.
    rewrite <- LM1, unpack_pack, LM1.
    assert (EM : map (fun i => b2 (snd (makeLocalDaBit (T0 (ctr s0 + 2 * i)%nat) (T0 (ctr s0 + 2 * i + 1)%nat)))) (seq 0 N) = map b2 f1).
    { unfold f1, made1. rewrite HL. unfold local_pairs. rewrite map_map, firstn_map, seq_firstn by apply batch_enough.
      rewrite map_map. reflexivity. }
    rewrite EM.
    assert (EX : concat (map (fun pk => get (repeat false w) (first_sub any subs0 pk)) (map fst l)) = x0).
    { unfold x0. f_equal. rewrite map_map. apply map_ext. intros e. unfold row0, m0. now rewrite table_find. }
    rewrite EX, unmask by (rewrite L0; first [exact L1|exact F1]). unfold x0, x1. rewrite chunks_map2.
    rewrite <- (map_length (row0 w m0) l) at 1. rewrite concat_chunks.
    2:{ apply Forall_map, Forall_forall. intros e _. now apply row0_width. }
    rewrite <- (map_length snd l). rewrite concat_chunks by now apply Forall_map.
    rewrite map2_maps, combine_maps, map_map. apply map_ext_in. intros e He. f_equal.
    exact (bits_freq w order1 subs0 subs1 e HF He).
  Qed.
End Overheard.

(** ** Honest clients *)
Definition row_good (w : nat) (r : crec (list bool) nat) : Prop :=
  (c_real r < w)%nat /\ length (c_0 r) = w /\ length (c_1 r) = w /\
  map2 xorb (c_0 r) (c_1 r) = map (fun j => (j =? c_real r)%nat) (seq 0 w).
Lemma request_row w g : is_blocks g -> (0 < w)%nat -> row_good w (fst (freq_request w g 0)).
Proof.
  intros HG Hw. unfold row_good, freq_request. cbn [fst c_real c_0 c_1].
  set (v := Z.to_nat (random_u64 g 0 mod Z.of_nat w)).
  assert (Hv : (v < w)%nat).
  { unfold v. pose proof (Z.mod_pos_bound (random_u64 g 0) (Z.of_nat w)). lia. }
  pose proof (bools_ok g (0 + 1) w HG) as L.
  rewrite flip_length. split; auto. split; auto. split; auto. rewrite xor_flip by lia. now rewrite L.
Qed.
Lemma histogram_perm w a b : Permutation a b -> histogram w a = histogram w b.
Proof.
  intros H. unfold histogram. apply map_ext. intros j. f_equal. now apply Permutation_count_occ.
Qed.
Lemma addp_inj a b b' : in_field P b -> in_field P b' -> addp a b = addp a b' -> b = b'.
Proof.
  unfold addp, in_field. intros Hb Hb' H.
  assert (X : (b - b') mod P = 0).
  { replace (b - b') with ((a + b) - (a + b')) by lia. rewrite Zminus_mod, H, Z.sub_diag. reflexivity. }
  pose proof p_pos as Hp. apply Z.mod_divide in X; [|lia]. destruct X as [k X]. assert (k = 0) by nia. lia.
Qed.
Lemma addp_all_inj : forall a b b', Forall (in_field P) b -> Forall (in_field P) b' -> length b = length a -> length b' = length a ->
  map2 addp a b = map2 addp a b' -> b = b'.
Proof.
  induction a as [|x a IH]; intros [|y b] [|y' b'] F F' L L' H; try discriminate; [reflexivity|].
  cbn [map2] in H. injection H as H1 H2. apply Forall_cons_iff in F as [? ?]. apply Forall_cons_iff in F' as [? ?].
  cbn in L, L'. f_equal; [eapply addp_inj; eauto|apply IH; auto; lia].
Qed.

Section Honest.
  Variables (order1 : iteration) (w : nat) (l rs : list (crec (list bool) nat)) (c0 c1 : store_params) (T0 T1 : nat -> Z) (s0 s1 : store).
  Hypothesis HF : fair order1.
  Hypothesis ND : NoDup (map c_pk l).
  Hypothesis K32 : Forall (fun r => length (c_pk r) = 32%nat) l.
  Hypothesis HN32 : Z.of_nat (length l) < two32.
  Hypothesis HPm : Permutation l rs.
  Hypothesis EO : order1 _ (subs1 l) = subs1 rs.
  Hypothesis RG : Forall (row_good w) l.
  Hypothesis Hw : (0 < w)%nat.
  Hypothesis NE : l <> [].
  Hypothesis HP : params_ok c0 c1.
  Hypothesis E0 : dabit_store s0 = [].
  Hypothesis E1 : dabit_store s1 = [].
  Let n := length rs.
  Let N := (n * w)%nat.
  Let m := batch_of c0 N.
  Let lz := lazy c0.
  Let d0 := made0 lz T0 (ctr s0) m.
  Let d1 := made1 lz T0 T1 (ctr s0) (ctr s1) m.
  Let x0 := concat (map c_0 rs).
  Let x1 := concat (map c_1 rs).
  Let v0 := masked x0 (firstn N d0).
  Let v1 := masked x1 (firstn N d1).
  Let sh0 := chunks n w (b2a_out false x0 (firstn N d0) v1).
  Let sh1 := chunks n w (b2a_out true x1 (firstn N d1) v0).
  Let s0' := mkStore (skipn N d0) (btriple_store s0) (ctr s0 + 2 * m).
  Let s1' := mkStore (skipn N d1) (btriple_store s1) (if lz then ctr s1 else ctr s1 + 2 * m).
  Let all1 := accumulate w sh1 (repeat true n).

  Lemma rows0_eq : map (row0 w (subs0 l)) (subs1 rs) = map c_0 rs.
  Proof.
    unfold subs1. rewrite map_map. apply map_ext_in. intros r Hr. unfold row0. cbn [fst]. unfold subs0.
    rewrite (find_record c_0); [reflexivity|exact ND|]. eapply Permutation_in; [symmetry; exact HPm|exact Hr].
  Qed.
  Lemma rows1_eq : map snd (subs1 rs) = map c_1 rs.
  Proof. unfold subs1. now rewrite map_map. Qed.
  Lemma bits_eq : map (bits w (subs0 l)) (subs1 rs) = map (fun r => map (fun j => (j =? c_real r)%nat) (seq 0 w)) rs.
  Proof.
    unfold bits. rewrite <- (map2_maps (map2 xorb) (row0 w (subs0 l)) snd), rows0_eq, rows1_eq, map2_maps.
    apply map_ext_in. intros r Hr. rewrite Forall_forall in RG. apply RG. eapply Permutation_in; [symmetry; exact HPm|exact Hr].
  Qed.
  Lemma good_rs : Forall (row_good w) rs.
  Proof. eapply Permutation_Forall; [exact HPm|exact RG]. Qed.
  Lemma n_eq : n = length l.
  Proof. symmetry. now apply Permutation_length. Qed.
  Lemma weights_eq : list_sum (map (fun e => weight (bits w (subs0 l) e)) (subs1 rs)) = n.
  Proof.
    rewrite <- (map_map (bits w (subs0 l)) weight), bits_eq, map_map. unfold n. pose proof good_rs as G. clear -G.
    induction G as [|r rs Hr G IH]; [reflexivity|]. cbn [map list_sum fold_right length]. change (fold_right Nat.add 0%nat) with list_sum.
    rewrite IH, weight_unit; [lia|]. destruct Hr. lia.
  Qed.
  Lemma counts_eq : counts w (subs0 l) (subs1 rs) (fun _ => true) = histogram w (map c_real rs).
  Proof.
    unfold counts, histogram. apply map_ext_in. intros j Hj. apply in_seq in Hj. f_equal.
    rewrite <- (count_true (fun e => true && nth j (bits w (subs0 l) e) false)).
    rewrite <- (map_map (bits w (subs0 l)) (fun row => true && nth j row false)), bits_eq, map_map, count_true. cbn [andb]. clear -Hj.
    induction rs as [|r q IH]; [reflexivity|]. cbn [filter map count_occ].
    rewrite nth_map_seq' by lia. destruct (Nat.eqb_spec j (c_real r)) as [->|X]; destruct (Nat.eq_dec (c_real r) _) as [E|E]; try congruence;
      cbn [length]; now rewrite IH.
  Qed.
  Lemma balanced_eq : balancedb (list_sum (map (fun e => weight (bits w (subs0 l) e)) (subs1 rs))) (length l) = true.
  Proof.
    rewrite weights_eq, n_eq. destruct (balancedb_spec (length l) (length l)) as [_|X]; [reflexivity|]. elim X.
    split; [|reflexivity]. apply Z.mod_small. pose proof two32_field. lia.
  Qed.
  Lemma widths0 : Forall (fun e : list Z * list bool => length (snd e) = w) (subs0 l).
  Proof. apply Forall_map. eapply Forall_impl; [|exact RG]. intros r H. apply H. Qed.
  Lemma widths1 : Forall (fun e : list Z * list bool => length (snd e) = w) (subs1 l).
  Proof. apply Forall_map. eapply Forall_impl; [|exact RG]. intros r H. apply H. Qed.
  Lemma N_pos : (0 < N)%nat.
  Proof. unfold N. rewrite n_eq. destruct l; [congruence|]. cbn [length]. nia. Qed.
  Lemma conv_ready : length x0 = N /\ length x1 = N /\ converted w (subs0 l) (subs1 rs) sh0 sh1.
  Proof.
    destruct (first_pairs c0 T0 T1 s0 s1 N N_pos) as (FP & F0 & F1). fold lz m d0 d1 in FP, F0, F1.
    assert (LL : length (subs1 rs) = n) by (unfold subs1; now rewrite map_length).
    destruct (dabits_converted w (subs0 l) (subs1 rs) (firstn N d0) (firstn N d1) widths0) as (A & B & C).
    - rewrite <- EO. apply fair_forall; [exact HF|exact widths1].
    - exact FP.
    - rewrite F0, LL. reflexivity.
    - rewrite rows0_eq, rows1_eq in *. rewrite LL in *. fold x0 in A, C. fold x1 in B, C. split; [exact A|]. split; [exact B|]. exact C.
  Qed.
  Lemma keys_fine : keys_ok (subs1 l).
  Proof. split; [unfold subs1; rewrite map_map; exact ND|apply Forall_map; exact K32]. Qed.

  Let log0 := (((([] ++ sent_by (announce (subs1 rs))) ++ pack_bools v1) ++ sent_by (send_bool (parity_of (map parity_of (map c_1 rs))))) ++
    sent_by (send_fmpz (sum_of (map sum_of sh1)))) ++ sent_by (send_fmpz_batch all1).
  Lemma honest_log0 : reach (bool_bytes n)
    (logged [] (freq_op0 c0 T0 w (subs0 l) (length l) s0)) (freq_op1 order1 c1 T1 w (subs1 l) s1)
    (Cfg (Ret (log0, (RET_ANS (histogram w (map c_real rs)), s0'))) (Ret (RET_NO_ANS, s1')) (pack_bools (repeat true n)) []).
  Proof.
    destruct conv_ready as (L0 & L1 & HC).
    destruct (b2a_view c0 c1 T0 T1 s0 s1 HP E0 E1 N N_pos x0 x1 L0 L1) as (CV & _). fold lz m d0 d1 v0 v1 s0' s1' in CV.
    assert (LL : length (subs1 rs) = n) by (unfold subs1; now rewrite map_length).
    pose proof (freq_log0_balanced order1 c0 c1 T0 T1 w (subs0 l) (subs1 l) (length l) s0 s1 s0' s1'
      (b2a_out false x0 (firstn N d0) v1) (b2a_out true x1 (firstn N d1) v0) HF keys_fine) as H.
    rewrite EO, LL in H. specialize (H ltac:(unfold subs1; now rewrite map_length) widths0 widths1 ltac:(unfold subs1; now rewrite map_length)).
    specialize (H HC (pack_bools v1)). rewrite rows0_eq, rows1_eq in H. specialize (H CV balanced_eq).
    rewrite counts_eq, <- n_eq, outcome_all in H. rewrite <- n_eq. exact H.
  Qed.
  Lemma honest_log1 : exists a, reach (bool_bytes n)
    (freq_op0 c0 T0 w (subs0 l) (length l) s0) (logged [] (freq_op1 order1 c1 T1 w (subs1 l) s1))
    (Cfg (Ret a) (Ret (([] ++ dealt lz T0 T1 (ctr s0) (ctr s1) m ++ pack_bools v0) ++ sent_by (send_bool true), (RET_NO_ANS, s1')))
         (pack_bools (repeat true n)) []).
  Proof.
    destruct conv_ready as (L0 & L1 & HC).
    destruct (b2a_view c0 c1 T0 T1 s0 s1 HP E0 E1 N N_pos x0 x1 L0 L1) as (_ & CV). fold lz m d0 d1 v0 v1 s0' s1' in CV.
    assert (LL : length (subs1 rs) = n) by (unfold subs1; now rewrite map_length).
    pose proof (freq_log1_balanced order1 c0 c1 T0 T1 w (subs0 l) (subs1 l) (length l) s0 s1 s0' s1'
      (b2a_out false x0 (firstn N d0) v1) (b2a_out true x1 (firstn N d1) v0) HF keys_fine) as H.
    rewrite EO, LL in H. specialize (H ltac:(unfold subs1; now rewrite map_length) widths0 widths1 ltac:(unfold subs1; now rewrite map_length)).
    specialize (H HC (dealt lz T0 T1 (ctr s0) (ctr s1) m ++ pack_bools v0)). rewrite rows0_eq, rows1_eq, balanced_eq in H.
    apply H; [|reflexivity]. intros lg. rewrite app_assoc. apply CV.
  Qed.

  (** What the bytes sent by server 1 satisfy. *)
  Lemma honest_closing :
    parity_of (map parity_of (map c_1 rs)) = xorb (parity_of (map parity_of (map c_0 rs))) (Nat.odd n) /\
    addp (sum_of (map sum_of sh0)) (sum_of (map sum_of sh1)) = Z.of_nat n /\
    map2 addp (accumulate w sh0 (repeat true n)) all1 = histogram w (map c_real rs).
  Proof.
    destruct conv_ready as (L0 & L1 & HC).
    assert (LL : length (subs1 rs) = n) by (unfold subs1; now rewrite map_length).
    pose proof (av_eq order1 w (subs0 l) (subs1 l) (length l) 
      (b2a_out false x0 (firstn N d0) v1) (b2a_out true x1 (firstn N d1) v0) HF) as H.
    rewrite EO, LL in H. specialize (H widths0 widths1 HC). rewrite balanced_eq, rows0_eq, rows1_eq in H.
    apply andb_prop in H as [H1 H2]. apply eqb_prop in H1. apply Z.eqb_eq in H2. rewrite <- n_eq in H1, H2.
    split; [rewrite <- H1; destruct (parity_of (map parity_of (map c_0 rs))), (parity_of (map parity_of (map c_1 rs))); reflexivity|].
    split; [exact H2|].
    rewrite <- counts_eq. unfold all1. rewrite <- LL, map_const_true. apply counts_spec; [exact HC|].
    rewrite LL, n_eq. pose proof two32_field. lia.
  Qed.
  Lemma all1_field : Forall (in_field P) all1 /\ length all1 = w.
  Proof. destruct (accumulate_spec w sh1 (repeat true n)) as (A & B & _). split; assumption. Qed.
End Honest.
