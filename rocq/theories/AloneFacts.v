From Coq Require Import ZArith List Bool Lia Permutation.
From Verif Require Import Words WordsFacts Constants Proc ProcFacts Net NetFacts SpecNet RelFacts
  OT OTFacts ServerOps SpecServer TableFacts ServerFacts ServerProps Alone.
Import ListNotations.
Open Scope Z_scope.

(** ** Receives at the end of the stream *)
Lemma alone_uint64 {A} (f : Z -> proc A) x a : word x -> alone (f x) [] a -> alone (bind recv_uint64 f) [] a.
Proof.
  intros Hx H. unfold recv_uint64. cbn [bind].
  eapply al_eof with (old := le_bytes 8 (bswap64 x)); [cbn; lia|apply le_bytes_length|].
  cbn [length skipn app].
  rewrite le_val_bytes_small by (rewrite pow256_8; apply bswap64_range).
  now rewrite bswap64_involutive by exact Hx.
Qed.

Lemma concat_words_length (x : list Z) : length (concat (map (le_bytes 8) x)) = (length x * 8)%nat.
Proof. induction x; cbn [map concat]; auto. rewrite app_length, le_bytes_length, IHx. cbn. lia. Qed.

Lemma alone_uint64_batch {A} (f : list Z -> proc A) n x a : length x = S n -> Forall word x ->
  alone (f x) [] a -> alone (bind (recv_uint64_batch (S n)) f) [] a.
Proof.
  intros L Hx H. unfold recv_uint64_batch. cbn [bind].
  eapply al_eof with (old := concat (map (le_bytes 8) x)).
  - cbn. lia.
  - rewrite concat_words_length, L. lia.
  - cbn [length skipn app]. rewrite <- L, chunks_map_le; auto.
Qed.

(** ** The point before server 1's last message *)
Lemma bit_sum_stop order m0 m1 total rnd L :
  fair order -> keys_ok m1 -> Z.of_nat (length m1) < two32 -> both_in m0 m1 L ->
  exists a b, word a /\
  runs (bit_sum0 m0 total rnd) (bit_sum1 order m1)
    (b <- recv_uint64 ;; if too_few (length L) total then Ret RET_INVALID else Ret (RET_ANS (u64 (a + b))))
    (send_uint64 b ;;; Ret RET_NO_ANS).
Proof.
  intros HF [HN HK] HS HL. unfold bit_sum0, bit_sum1.
  pose proof (HF _ m1) as HP. set (l := order bool m1) in *.
  destruct (bitsum_rel false rnd (map (get false) (map (fun pk => find pk m0) (map fst l))) (map snd l)
    (map is_some (map (fun pk => find pk m0) (map fst l)))) as (a & b & C & Ha & _); [now rewrite !map_length..|].
  exists a, b. split; auto.
  eapply runs_trans.
  { eapply delivers_runs'. apply delivers_announce; [now apply fair_forall|]. unfold l. now rewrite fair_length. }
  cbv zeta. eapply conv_bind_runs; [exact C|].
  rewrite (count_accepted m0 m1 l L HP HN HL). apply runs_refl.
Qed.

Lemma int_sum_stop order num_bits m0 m1 total rnd L :
  fair order -> keys_ok m1 -> Z.of_nat (length m1) < two32 -> both_in m0 m1 L -> (num_bits <= 63)%nat ->
  Forall (fun e => 0 <= snd e < 2 ^ Z.of_nat num_bits) m0 ->
  Forall (fun e => 0 <= snd e < 2 ^ Z.of_nat num_bits) m1 ->
  exists a b, 
  runs (int_sum0 num_bits m0 total rnd) (int_sum1 order num_bits m1)
    (b <- recv_uint64 ;; if too_few (length L) total then Ret RET_INVALID else Ret (RET_ANS (u64 (a + b))))
    (send_uint64 b ;;; Ret RET_NO_ANS).
Proof.
  intros HF [HN HK] HS HL HB V0 V1. unfold int_sum0, int_sum1.
  pose proof (HF _ m1) as HP. set (l := order Z m1) in *.
  set (found := map (fun pk => find pk m0) (map fst l)).
  destruct (intsum_rel false rnd 0 [num_bits] (map (fun f => [get 0 f]) found) (map (fun e => [snd e]) l)
    (map is_some found)) as (a & b & C & _).
  { left; reflexivity. }
  { constructor; [|constructor]. split; [lia|]. intros H. now elim H. }
  { now rewrite !map_length. }
  { unfold found. now rewrite !map_length. }
  { apply Forall_map, Forall_forall. reflexivity. }
  { apply Forall_map, Forall_forall. reflexivity. }
  exists (sum_col0 a), (sum_col0 b).
  eapply runs_trans.
  { eapply delivers_runs'. apply delivers_announce; [now apply fair_forall|]. unfold l. now rewrite fair_length. }
  cbv zeta. fold found. eapply conv_bind_runs; [exact C|].
  unfold found. rewrite (count_accepted m0 m1 l L HP HN HL). apply runs_refl.
Qed.

Lemma xor_op_stop order is_and m0 m1 total L :
  fair order -> keys_ok m1 -> Z.of_nat (length m1) < two32 -> both_in m0 m1 L ->
  Forall (fun e => word (snd e)) m0 ->
  exists a b, word a /\
  runs (xor_op0 is_and m0 total) (xor_op1 order m1)
    (b <- recv_uint64 ;; if too_few (length L) total then Ret RET_INVALID
     else Ret (RET_ANS (if is_and then Z.lxor a b =? 0 else negb (Z.lxor a b =? 0))))
    (send_uint64 b ;;; Ret RET_NO_ANS).
Proof.
  intros HF [HN HK] HS HL V0. unfold xor_op0, xor_op1.
  pose proof (HF _ m1) as HP. set (l := order Z m1) in *.
  set (found := map (fun pk => find pk m0) (map fst l)).
  eexists _, _. split; cycle 1.
  - eapply runs_trans.
    { eapply delivers_runs'. apply delivers_announce; [now apply fair_forall|]. unfold l. now rewrite fair_length. }
    cbv zeta. fold found. eapply runs_trans.
    { eapply delivers_runs. replace (length l) with (length (map is_some found))
        by (unfold found; now rewrite !map_length).
      apply delivers_bool_batch. }
    unfold found. rewrite (count_accepted m0 m1 l L HP HN HL). apply runs_refl.
  - fold found. rewrite fold_lxor_found, Z.lxor_0_l. apply word_zxors.
    apply Forall_map, Forall_forall. intros k _. destruct (find k m0) as [z|] eqn:F; [|apply word_0].
    exact (find_forall word m0 k z V0 F).
Qed.

Lemma max_op_stop order is_max B m0 m1 total L :
  fair order -> keys_ok m1 -> Z.of_nat (length m1) < two32 -> both_in m0 m1 L ->
  Forall (fun e => length (snd e) = (B + 1)%nat /\ Forall word (snd e)) m0 ->
  exists a b, length a = (B + 1)%nat /\ Forall word a /\
  runs (max_op0 is_max B m0 total) (max_op1 order B m1)
    (b <- recv_uint64_batch (B + 1) ;; if too_few (length L) total then Ret RET_INVALID
     else match scan_down a b B with
          | None => Undef
          | Some j => Ret (RET_ANS (Z.of_nat (if is_max then j else B - j)))
          end)
    (send_uint64_batch b ;;; Ret RET_NO_ANS).
Proof.
  intros HF [HN HK] HS HL V0. unfold max_op0, max_op1.
  pose proof (HF _ m1) as HP. set (l := order _ m1) in *.
  set (found := map (fun pk => find pk m0) (map fst l)).
  assert (V : Forall (fun f : option (list Z) => match f with
    Some v => length v = (B + 1)%nat /\ Forall word v | None => True end) found).
  { unfold found. apply Forall_map, Forall_forall. intros k _. destruct (find k m0) eqn:F; auto.
    exact (find_forall (fun v => length v = (B + 1)%nat /\ Forall word v) m0 k l0 V0 F). }
  eexists _, _. split; [|split]; cycle 2.
  - eapply runs_trans.
    { eapply delivers_runs'. apply delivers_announce; [now apply fair_forall|]. unfold l. now rewrite fair_length. }
    cbv zeta. fold found. eapply runs_trans.
    { eapply delivers_runs. replace (length l) with (length (map is_some found))
        by (unfold found; now rewrite !map_length).
      apply delivers_bool_batch. }
    unfold found. rewrite (count_accepted m0 m1 l L HP HN HL). apply runs_refl.
  - fold found. apply fold_xor_found; [apply repeat_length|].
    eapply Forall_impl; [|exact V]. intros [v|]; tauto.
  - fold found. clear -V. generalize (repeat_length 0 (B + 1)).
    assert (W : Forall word (repeat 0 (B + 1))).
    { apply Forall_forall. intros x Hx. apply repeat_spec in Hx as ->. apply word_0. }
    revert W. generalize (repeat 0 (B + 1)) as acc.
    induction V as [|[v|] fs Hv V IH]; intros acc W La; cbn [fold_left]; auto.
    destruct Hv as [Lv Wv]. apply IH.
    + unfold xor_row. clear -W Wv. revert v Wv. induction W; intros [|y v] Wv; cbn [map2]; constructor.
      * inversion Wv; subst. change (0 <= Z.lxor x y < 2 ^ Z.of_nat 64). now apply lxor_lt.
      * inversion Wv; subst. now apply IHW.
    + unfold xor_row. rewrite map2_length. lia.
Qed.

(** ** The answers *)
Lemma too_few_no n t : (t <= 2 * n)%nat -> too_few n t = false.
Proof. intros. unfold too_few. apply Nat.ltb_ge. lia. Qed.

Lemma stop_answers {A} (p : proc (result A)) q p' (b : proc unit) r :
  runs p q p' (b ;;; Ret RET_NO_ANS) -> (exists bs k, b = Send bs k) -> alone p' [] r ->
  answers_alone (B := result A) p q r.
Proof.
  intros H (bs & k & ->) Ha. eexists _, _. split; [exact H|]. split; [|exact Ha]. discriminate.
Qed.

Lemma bit_sum_alone order0 order1 total0 total1 stream0 stream1 subs0 subs1 junk0 junk1 rnd0 rnd1 L x :
  fair order1 -> arrives bit_wire total0 stream0 subs0 -> arrives bit_wire total1 stream1 subs1 ->
  length junk0 = 33%nat -> length junk1 = 33%nat -> accepted any subs0 subs1 L ->
  (total0 <= 2 * length L)%nat -> word x ->
  answers_alone (bit_sum false order0 total0 stream0 junk0 rnd0) (bit_sum true order1 total1 stream1 junk1 rnd1)
    (RET_ANS x).
Proof.
  intros HF A0 A1 J0 J1 HL HT Hx. rewrite (bit_sum_eq _ _ _ _ subs0), (bit_sum_eq _ _ _ _ subs1) by auto.
  destruct A0 as (r0 & _ & _ & P0 & S0). destruct A1 as (r1 & _ & _ & P1 & S1).
  destruct (bit_sum_stop order1 (table_of any subs0) (table_of any subs1) total0 rnd0 L) as (a & b & Ha & R);
    auto using table_keys, table_size, both_in_accepted.
  eapply stop_answers; [exact R|unfold send_uint64; eauto|].
  apply (alone_uint64 _ (u64 (x - a))).
  { apply Z.mod_pos_bound. reflexivity. }
  rewrite too_few_no by auto.
  replace (u64 (a + u64 (x - a))) with x; [constructor|].
  unfold u64. rewrite Zplus_mod_idemp_r. replace (a + (x - a)) with x by ring. symmetry. now apply Z.mod_small.
Qed.

Lemma int_sum_alone num_bits order0 order1 total0 total1 stream0 stream1 subs0 subs1 junk0 junk1 rnd0 rnd1 L x :
  (num_bits <= 63)%nat ->
  fair order1 -> arrives int_wire total0 stream0 subs0 -> arrives int_wire total1 stream1 subs1 ->
  Forall (fun s => word (snd s)) subs0 -> Forall (fun s => word (snd s)) subs1 ->
  length junk0 = 40%nat -> length junk1 = 40%nat -> accepted (fits num_bits) subs0 subs1 L ->
  (total0 <= 2 * length L)%nat -> word x ->
  answers_alone (int_sum false order0 num_bits total0 stream0 junk0 rnd0)
    (int_sum true order1 num_bits total1 stream1 junk1 rnd1) (RET_ANS x).
Proof.
  intros HB HF A0 A1 W0 W1 J0 J1 HL HT Hx.
  rewrite (int_sum_eq _ _ _ _ _ subs0), (int_sum_eq _ _ _ _ _ subs1) by auto.
  destruct A0 as (r0 & _ & _ & P0 & S0). destruct A1 as (r1 & _ & _ & P1 & S1).
  destruct (int_sum_stop order1 num_bits (table_of (fits num_bits) subs0) (table_of (fits num_bits) subs1)
    total0 rnd0 L) as (a & b & R); auto using table_keys, table_size, both_in_accepted, fits_table.
  eapply stop_answers; [exact R|unfold send_uint64; eauto|].
  apply (alone_uint64 _ (u64 (x - a))).
  { apply Z.mod_pos_bound. reflexivity. }
  rewrite too_few_no by auto.
  replace (u64 (a + u64 (x - a))) with x; [constructor|].
  unfold u64. rewrite Zplus_mod_idemp_r. replace (a + (x - a)) with x by ring. symmetry. now apply Z.mod_small.
Qed.

Lemma xor_op_alone is_and order0 order1 total0 total1 stream0 stream1 subs0 subs1 junk0 junk1 L x :
  fair order1 -> arrives int_wire total0 stream0 subs0 -> arrives int_wire total1 stream1 subs1 ->
  Forall (fun s => word (snd s)) subs0 -> Forall (fun s => word (snd s)) subs1 ->
  length junk0 = 40%nat -> length junk1 = 40%nat -> accepted any subs0 subs1 L ->
  (total0 <= 2 * length L)%nat ->
  answers_alone (xor_op false order0 is_and total0 stream0 junk0) (xor_op true order1 is_and total1 stream1 junk1)
    (RET_ANS x).
Proof.
  intros HF A0 A1 W0 W1 J0 J1 HL HT.
  rewrite (xor_op_eq _ _ _ _ _ subs0), (xor_op_eq _ _ _ _ _ subs1) by auto.
  destruct A0 as (r0 & _ & _ & P0 & S0). destruct A1 as (r1 & _ & _ & P1 & S1).
  destruct (xor_op_stop order1 is_and (table_of any subs0) (table_of any subs1) total0 L) as (a & b & Ha & R);
    auto using table_keys, table_size, both_in_accepted, word_table.
  eapply stop_answers; [exact R|unfold send_uint64; eauto|].
  apply (alone_uint64 _ (if xorb is_and x then Z.lxor a 1 else a)).
  { destruct (xorb is_and x); auto. change (0 <= Z.lxor a 1 < 2 ^ Z.of_nat 64). apply lxor_lt; [exact Ha|now cbn]. }
  rewrite too_few_no by auto.
  assert (E : (Z.lxor a (if xorb is_and x then Z.lxor a 1 else a) =? 0) = negb (xorb is_and x)).
  { destruct (xorb is_and x); [rewrite <- Z.lxor_assoc|]; rewrite Z.lxor_nilpotent; reflexivity. }
  rewrite E. destruct is_and, x; constructor.
Qed.

Lemma scan_down_at a j B : Forall word a -> length a = (B + 1)%nat -> (j <= B)%nat ->
  exists b, length b = (B + 1)%nat /\ Forall word b /\ scan_down a b B = Some j.
Proof.
  intros W La Hj. exists (upd j (Z.lxor (nth j a 0) 1) a).
  assert (N : 0 <= nth j a 0 < 2 ^ Z.of_nat 64).
  { rewrite Forall_forall in W. apply W, nth_In. lia. }
  split; [now rewrite upd_length|]. split.
  - apply Forall_forall. intros z Hz. apply (In_nth _ _ 0) in Hz as (k & Hk & <-). rewrite upd_length in Hk.
    destruct (Nat.eq_dec k j) as [->|Ne].
    + rewrite nth_upd_eq by lia. change (0 <= Z.lxor (nth j a 0) 1 < 2 ^ Z.of_nat 64).
      apply lxor_lt; [exact N|now cbn].
    + rewrite nth_upd_neq by auto. rewrite Forall_forall in W. apply W, nth_In. lia.
  - assert (G : forall k, (j <= k)%nat -> scan_down a (upd j (Z.lxor (nth j a 0) 1) a) k = Some j).
    { induction k as [|k IH]; intros Hk; cbn [scan_down].
      - replace j with 0%nat in * by lia. rewrite nth_upd_eq by lia.
        destruct (Z.eqb_spec (nth 0 a 0) (Z.lxor (nth 0 a 0) 1)) as [E|]; auto. exfalso.
        apply (f_equal (Z.lxor (nth 0 a 0))) in E. rewrite <- Z.lxor_assoc, Z.lxor_nilpotent in E. discriminate.
      - destruct (Nat.eq_dec (S k) j) as [<-|Ne].
        + rewrite nth_upd_eq by lia.
          destruct (Z.eqb_spec (nth (S k) a 0) (Z.lxor (nth (S k) a 0) 1)) as [E|]; auto. exfalso.
          apply (f_equal (Z.lxor (nth (S k) a 0))) in E. rewrite <- Z.lxor_assoc, Z.lxor_nilpotent in E. discriminate.
        + rewrite nth_upd_neq by auto. rewrite Z.eqb_refl. cbn [negb]. apply IH. lia. }
    now apply G.
Qed.

Lemma max_op_alone is_max B order0 order1 total0 total1 stream0 stream1 subs0 subs1 pk0 pk1 junk0 junk1 L x :
  fair order1 -> arrives max_wire total0 stream0 subs0 -> arrives max_wire total1 stream1 subs1 ->
  rows_ok B subs0 -> rows_ok B subs1 ->
  Z.of_nat total0 * (Z.of_nat B + 1) < two32 -> Z.of_nat total1 * (Z.of_nat B + 1) < two32 ->
  length pk0 = 32%nat -> length pk1 = 32%nat ->
  (forall i, length (junk0 i) = (8 * (B + 1))%nat) -> (forall i, length (junk1 i) = (8 * (B + 1))%nat) ->
  accepted any subs0 subs1 L -> (total0 <= 2 * length L)%nat -> (x <= B)%nat ->
  answers_alone (max_op false order0 is_max B total0 stream0 pk0 junk0)
       (max_op true order1 is_max B total1 stream1 pk1 junk1) (RET_ANS (Z.of_nat x)).
Proof.
  intros HF A0 A1 W0 W1 T0 T1 K0 K1 J0 J1 HL HT Hx.
  rewrite (max_op_eq _ _ _ _ _ _ subs0), (max_op_eq _ _ _ _ _ _ subs1) by auto.
  destruct A0 as (r0 & _ & _ & P0 & S0). destruct A1 as (r1 & _ & _ & P1 & S1).
  destruct (max_op_stop order1 is_max B (table_of any subs0) (table_of any subs1) total0 L) as (a & b & La & Wa & R);
    auto using table_keys, table_size, both_in_accepted.
  { apply table_forall. intros s Hin _. unfold rows_ok in W0. rewrite Forall_forall in W0. now apply W0. }
  eapply stop_answers; [exact R|unfold send_uint64_batch; eauto|].
  destruct (scan_down_at a (if is_max then x else B - x)%nat B Wa La) as (b' & Lb & Wb & E).
  { destruct is_max; lia. }
  replace (B + 1)%nat with (S B) by lia.
  apply (alone_uint64_batch _ B b'); auto. { lia. }
  rewrite too_few_no, E by auto.
  replace (if is_max then if is_max then x else B - x else B - (if is_max then x else B - x))%nat with x
    by (destruct is_max; lia). constructor.
Qed.

(** ** Before the oblivious transfer *)
Lemma alone_bind {A C} (p : proc A) (f : A -> proc C) : forall i c, alone (bind p f) i c ->
  exists a i', alone p i a /\ alone (f a) i' c.
Proof.
  induction p as [a| |bs k IH|n k IH|bs n k IH|j ps k IH|j cs k IH]; intros i c H; cbn [bind] in H.
  - exists a, i. split; [constructor|exact H].
  - inversion H.
  - inversion H as [| | |? ? ? ? K| |]; subst. destruct (IH _ _ K) as (a & i' & Ha & Hf). exists a, i'. split; auto. now constructor.
  - inversion H as [|? ? ? ? Q K|? ? ? old ? Q O K| | |]; subst.
    + destruct (IH _ _ _ K) as (a & i' & Ha & Hf). exists a, i'. split; auto. now apply al_recv.
    + destruct (IH _ _ _ K) as (a & i' & Ha & Hf). exists a, i'. split; auto. eapply al_eof; eauto.
  - inversion H.
  - inversion H as [| | | |? ? ? ? K|]; subst. destruct (IH _ _ K) as (a & i' & Ha & Hf). exists a, i'. split; auto. now constructor.
  - inversion H as [| | | | |? ? ? ? K]; subst. destruct (IH _ _ _ K) as (a & i' & Ha & Hf). exists a, i'. split; auto. now constructor.
Qed.

Lemma bit_sum_early order total stream junk rnd i x :
  (1 <= total)%nat -> ~ alone (bit_sum false order total stream junk rnd) i (RET_ANS x).
Proof.
  intros HT H. unfold bit_sum in H. destruct (receive _ _ _ _) as [m|]; [|inversion H].
  unfold bit_sum0 in H. apply alone_bind in H as (pks & i1 & _ & H). cbv zeta in H.
  apply alone_bind in H as (a & i2 & K & H). unfold bitsum_ot_sender in K.
  destruct (bitsum_send_loop _ _ _ _ _) as [msgs s] eqn:E.
  apply bitsum_send_loop_spec with (cs := map (fun _ => false) pks) in E as [E _];
    [|now rewrite combine_length, !map_length, Nat.min_id].
  assert (msgs = []) as -> by (inversion K; auto).
  apply alone_bind in H as (b & i3 & _ & H).
  destruct pks; [|discriminate]. cbn [map count filter length] in H.
  replace (too_few _ total) with true in H; [inversion H|]. symmetry. apply Nat.ltb_lt. cbn. lia.
Qed.

Lemma int_sum_early num_bits order total stream junk rnd i x :
  (1 <= total)%nat -> (1 <= num_bits)%nat ->
  ~ alone (int_sum false order num_bits total stream junk rnd) i (RET_ANS x).
Proof.
  intros HT HB H. unfold int_sum in H. destruct (Nat.leb_spec 64 num_bits) as [G|G]; [inversion H|].
  destruct (receive _ _ _ _) as [m|]; [|inversion H].
  unfold int_sum0 in H. apply alone_bind in H as (pks & i1 & _ & H). cbv zeta in H.
  apply alone_bind in H as (a & i2 & K & H). unfold intsum_ot_sender in K.
  destruct (widths_ok _); [|inversion K].
  destruct (intsum_send_rows _ _ _ _ _) as [msgs s] eqn:E.
  apply intsum_send_rows_spec with (s1 := map (fun _ => [0]) pks) in E as [E _]; cycle 1.
  { now left. }
  { constructor; [|constructor]. split; [lia|]. intros Q. now elim Q. }
  { now rewrite !map_length. }
  { now rewrite !map_length. }
  { apply Forall_map, Forall_forall. reflexivity. }
  { apply Forall_map, Forall_forall. reflexivity. }
  assert (msgs = []) as -> by (inversion K; auto).
  apply alone_bind in H as (b & i3 & _ & H).
  cbn [length OT.total fold_right] in E. rewrite !map_length in E.
  destruct pks; [|cbn [length] in E; nia]. cbn [map count filter length] in H.
  replace (too_few _ total) with true in H; [inversion H|]. symmetry. apply Nat.ltb_lt. cbn. lia.
Qed.
