(** * Cheating clients of VAR and LINREG; identities and private values *)
From Coq Require Import ZArith List Bool Lia Permutation.
From Verif Require Import Words WordsFacts Constants Cong Share SpecShare ShareFacts Proc ProcFacts Net SpecNet NetFacts RelFacts
  Poly SpecPoly Circuit SpecCircuit CircuitFacts Snip SpecSnip SnipFacts SnipBatch
  MpcFacts ServerOps SpecServer TableFacts ServerFacts ServerCor ClientOps SpecClient ClientFacts ClientProps
  SnipSums SpecStat StatReads StatProps StatClient.
Import ListNotations.
Open Scope Z_scope.
Local Notation P := Int_Modulus.
Opaque Int_Modulus.

Lemma opened_plain vals p0 p1 : opened (p0, vals) (p1, map (fun _ => 0) vals) = map (fun v => v mod p) vals.
Proof.
  unfold opened. cbn [snd]. induction vals as [|v l IH]; auto. cbn [map map2]. now rewrite Z.add_0_r, IH.
Qed.

Lemma judged_sound c vals p0 p1 N : wf c -> (NumMulGates c < 2 ^ 18)%nat ->
  packet_ok (NumMulGates c) p0 -> packet_ok (NumMulGates c) p1 -> length vals = NumInputs c ->
  NextPowerOfTwo (Z.of_nat (NumMulGates c)) = Some (Z.of_nat N) ->
  Eval c (map (fun v => v mod p) vals) = false ->
  exists bad, (length bad <= 2 * N)%nat /\ forall r, in_field P r -> ~ In r bad ->
    exists j, (j <= length (result_zero c))%nat /\
      forall K K' pos, differ_only_at (pos + j) K K' ->
        ~ (judged c r K pos vals p0 p1 true /\ judged c r K' pos vals p0 p1 true).
Proof.
  intros WF HM O0 O1 HL HN HE. apply sound_verdict; auto.
  - destruct O0 as (A & B & _). repeat split; auto.
  - destruct O1 as (A & B & _). repeat split; auto. cbn [snd]. now rewrite map_length.
  - now rewrite opened_plain.
Qed.

Lemma check_var_mod x y : Eval CheckVar (map (fun v => v mod p) [x; y]) = true <-> y mod p = (x * x) mod p.
Proof.
  cbn [map]. rewrite check_var_lemma, Zmod_mod, <- Zmult_mod. reflexivity.
Qed.

Lemma var_cheat v v2 p0 p1 : packet_ok (NumMulGates CheckVar) p0 -> packet_ok (NumMulGates CheckVar) p1 ->
  v2 mod p <> (v * v) mod p ->
  exists bad, (length bad <= 4)%nat /\ forall r, in_field P r -> ~ In r bad ->
    exists j, (j <= 1)%nat /\
      forall K K' pos, differ_only_at (pos + j) K K' ->
        ~ (judged CheckVar r K pos [v; v2] p0 p1 true /\ judged CheckVar r K' pos [v; v2] p0 p1 true).
Proof.
  intros O0 O1 NE. apply (judged_sound CheckVar [v; v2] p0 p1 2); auto using check_var_wf.
  - apply check_var_wf.
  - apply PeanoNat.Nat.ltb_lt. reflexivity.
  - destruct (Eval CheckVar (map (fun v => v mod p) [v; v2])) eqn:E; auto.
    exfalso. apply NE. exact (proj1 (check_var_mod v v2) E).
Qed.

Lemma pairwise_map_mod xs : map (fun q => q mod p) (pairwise (map (fun v => v mod p) xs)) = map (fun q => q mod p) (pairwise xs).
Proof.
  induction xs as [|x l IH]; auto.
  change (pairwise (map (fun v => v mod p) (x :: l)))
    with (map (fun z => (x mod p) * z) (map (fun v => v mod p) (x :: l)) ++ pairwise (map (fun v => v mod p) l)).
  change (pairwise (x :: l)) with (map (fun z => x * z) (x :: l) ++ pairwise l).
  rewrite !map_app, IH, !map_map. apply (f_equal2 (@app Z)); auto. apply map_ext. intros z.
  now rewrite <- Zmult_mod.
Qed.

Lemma linreg_cheat degree x y x2 xy p0 p1 N :
  (1 <= degree)%nat -> (num_quad degree + num_x degree < 2 ^ 18)%nat ->
  packet_ok (NumMulGates (CheckLinReg degree)) p0 -> packet_ok (NumMulGates (CheckLinReg degree)) p1 ->
  length x = num_x degree -> length x2 = num_quad degree -> length xy = num_x degree ->
  NextPowerOfTwo (Z.of_nat (num_quad degree + num_x degree)) = Some (Z.of_nat N) ->
  ~ (map (fun q => q mod p) x2 = map (fun q => q mod p) (pairwise x) /\
     map (fun q => q mod p) xy = map (fun z => (z * y) mod p) x) ->
  let c := CheckLinReg degree in
  exists bad, (length bad <= 2 * N)%nat /\ forall r, in_field P r -> ~ In r bad ->
    exists j, (j <= length (result_zero c))%nat /\
      forall K K' pos, differ_only_at (pos + j) K K' ->
        ~ (judged c r K pos (linreg_inputs x y x2 xy) p0 p1 true /\
           judged c r K' pos (linreg_inputs x y x2 xy) p0 p1 true).
Proof.
  intros Hd HQ O0 O1 Lx Lx2 Lxy HN NE c. destruct (linreg_gates degree Hd) as [GM GI].
  apply (judged_sound c _ p0 p1 N); auto.
  - apply check_linreg_wf; auto.
  - unfold c. rewrite GM. exact HQ.
  - unfold c. rewrite GI. unfold linreg_inputs, num_fields. rewrite app_length. cbn [length]. rewrite app_length. lia.
  - unfold c. rewrite GM. exact HN.
  - destruct (Eval c _) eqn:E; auto. exfalso. apply NE. clear NE. unfold c in E.
    replace degree with (S (length (map (fun v => v mod p) x))) in E by (rewrite map_length, Lx; unfold num_x; lia).
    unfold linreg_inputs in E. rewrite map_app in E. cbn [map] in E. rewrite map_app in E.
    refine (_ (proj1 (check_linreg_lemma _ _ _ _ _ _) E)).
    + intros [E2 Exy]. rewrite <- pairwise_mod, pairwise_map_mod in E2. rewrite !map_map in E2. rewrite (map_map _ _ xy), (map_map _ _ x) in Exy.
      split.
      * rewrite <- E2. apply map_ext. intros z. now rewrite Zmod_mod.
      * transitivity (map (fun z => (y mod p * (z mod p)) mod p) x).
        -- rewrite <- Exy. apply map_ext. intros z. now rewrite Zmod_mod.
        -- apply map_ext. intros z. now rewrite <- Zmult_mod, Z.mul_comm.
    + rewrite !map_length, Lx2, Lx. reflexivity.
    + now rewrite !map_length, Lxy, Lx.
Qed.

(** With at most 23 bits nothing is lost by the reduction modulo p. *)
Lemma square_exact nb v v2 : (nb <= 23)%nat -> 0 <= v < 2 ^ Z.of_nat nb -> 0 <= v2 < 2 ^ Z.of_nat (2 * nb) ->
  v2 mod p = (v * v) mod p -> v2 = v * v.
Proof.
  intros Hn Hv Hv2. pose proof (sq_small nb v ltac:(lia) Hv) as H2.
  assert (B : 2 ^ Z.of_nat (2 * nb) < P).
  { apply Z.le_lt_trans with (2 ^ 46); [apply Z.pow_le_mono_r; lia|]. Transparent Int_Modulus. reflexivity. }
  Opaque Int_Modulus. rewrite !Z.mod_small by lia. auto.
Qed.

(** ** Identities *)
Lemma requests_opt_next {S R} (one : S -> option (R * S)) d : forall n s l s' i,
  requests_opt one n s = Some (l, s') -> (Datatypes.S i < n)%nat ->
  exists s1 s2 s3, one s1 = Some (nth i l d, s2) /\ one s2 = Some (nth (Datatypes.S i) l d, s3).
Proof.
  induction n as [|n IH]; intros s l s' i E Hi; [lia|]. cbn [requests_opt] in E.
  destruct (one s) as [[r s1]|] eqn:E1; [|discriminate].
  destruct (requests_opt one n s1) as [[l' s2]|] eqn:E2; [|discriminate]. injection E as <- <-.
  destruct i as [|i].
  - destruct n as [|n]; [lia|]. cbn [requests_opt] in E2.
    destruct (one s1) as [[r' s3]|] eqn:E3; [|discriminate].
    destruct (requests_opt one n s3) as [[l'' s4]|] eqn:E4; [|discriminate]. injection E2 as <- <-.
    exists s, s1, s3. auto.
  - destruct (IH s1 l' s2 i E2 ltac:(lia)) as (a & b & c & A & B). exists a, b, c. auto.
Qed.

Lemma var_next M g T n s l st' i d : prg_ok g ->
  requests_opt (var_request M g T) n (0%nat, s, None) = Some (l, st') -> (S i < n)%nat ->
  c_real (nth (S i) l d) = unhex (firstn 16 (c_pk (nth i l d))) mod M.
Proof.
  intros HG E Hi. destruct (requests_opt_next _ d _ _ _ _ i E Hi) as ([[q1 t1] b1] & [[q2 t2] b2] & s3 & A & B).
  unfold var_request in A, B. 
  destruct (make_packets T t1 b1 _ _) as [[[[? ?] ?] ?]|]; [|discriminate]. injection A as A1 A2 _ _.
  destruct (make_packets T t2 b2 _ _) as [[[[? ?] ?] ?]|]; [|discriminate]. injection B as B1 _.
  rewrite <- A1, <- B1. cbn [c_real c_pk]. rewrite random_u64_block by auto. rewrite A2.
  destruct HG as [HB _]. destruct (HB q2) as [HL HY]. destruct (pk_spec (g q2) HL HY) as (_ & _ & U & _).
  unfold make_pk. now rewrite U.
Qed.

Lemma random_words_block g pos n j : prg_ok g -> (j < n)%nat -> (j < 2)%nat ->
  nth j (random_words g pos n) 0 = le_val (firstn 8 (skipn (8 * j) (g pos))).
Proof.
  intros HG Hj H2. unfold random_words. 
  assert (Q : forall m k l i, (i < m)%nat -> nth i (map le_val (chunks m k l)) 0 = le_val (firstn k (skipn (k * i) l))).
  { induction m as [|m IH]; intros k l i Hi; [lia|]. cbn [chunks map]. destruct i as [|i].
    - now rewrite Nat.mul_0_r.
    - cbn [nth]. rewrite IH by lia. rewrite skipn_skipn'. do 3 f_equal. lia. }
  rewrite Q by auto. f_equal. unfold random_data.
  assert (B : (1 <= blocks (8 * n))%nat).
  { unfold blocks. apply (Nat.div_le_lower_bound); lia. }
  destruct (blocks (8 * n)) as [|bl]; [lia|]. cbn [seq map concat].
  destruct (proj1 HG pos) as [L _].
  rewrite skipn_firstn_comm, firstn_firstn, Nat.min_l by lia.
  rewrite skipn_app, L. replace (8 * j - 16)%nat with 0%nat by lia.
  rewrite firstn_app, skipn_length, L. replace (8 - (16 - 8 * j))%nat with 0%nat by lia.
  now rewrite app_nil_r.
Qed.

Lemma linreg_next degree M g T n s l st' i d : prg_ok g ->
  requests_opt (linreg_request degree M g T) n (0%nat, s, None) = Some (l, st') -> (S i < n)%nat ->
  let x := fst (c_real (nth (S i) l d)) in
  ((1 <= num_x degree)%nat -> nth 0 x 0 = unhex (firstn 16 (c_pk (nth i l d))) mod M) /\
  ((2 <= num_x degree)%nat -> nth 1 x 0 = unhex (skipn 16 (c_pk (nth i l d))) mod M).
Proof.
  intros HG E Hi x. unfold x. clear x.
  destruct (requests_opt_next _ d _ _ _ _ i E Hi) as ([[q1 t1] b1] & [[q2 t2] b2] & s3 & A & B).
  unfold linreg_request in A, B. cbv zeta in A, B.
  destruct (make_packets T t1 b1 _ _) as [[[[? ?] ?] ?]|]; [|discriminate]. injection A as A1 A2 _ _.
  destruct (make_packets T t2 b2 _ _) as [[[[? ?] ?] ?]|]; [|discriminate]. injection B as B1 _.
  rewrite <- A1, <- B1. cbn [c_real c_pk fst]. rewrite A2.
  destruct (proj1 HG q2) as [HL HY]. destruct (pk_spec (g q2) HL HY) as (_ & _ & U & V).
  assert (LW : length (random_words g q2 (num_x degree)) = num_x degree) by (now apply random_words_ok).
  unfold make_pk. split; intros H.
  - rewrite (nth_map_in _ _ 0 0 0) by lia. rewrite random_words_block, U by (auto; lia). reflexivity.
  - rewrite (nth_map_in _ _ 1 0 0) by lia. rewrite random_words_block, V by (auto; lia).
    change (8 * 1)%nat with 8%nat. f_equal. f_equal. apply firstn_all2. rewrite skipn_length, HL. apply PeanoNat.Nat.leb_le. reflexivity.
Qed.

(** ** Nothing acceptable arrives at server 1 *)
Lemma snip_sums_empty K rnd0 rnd1 c nbs st0 st1 : Forall (width_ok P) nbs ->
  runs (snip_sums0 K rnd0 c nbs [] [] st0) (snip_sums1 K rnd1 c nbs [] st1) Undef Undef.
Proof.
  intros HW. unfold snip_sums0, snip_sums1, share_convert. cbn [map].
  assert (MO : mod_ok P) by (right; vm_compute; split; reflexivity).
  destruct (b2a_ot_rel rnd0 rnd1 nbs [] [] P MO HW eq_refl) as (a & b & CV & La & Lb & _); try constructor.
  eapply conv_bind_runs; [exact CV|]. destruct a; [|discriminate]. destruct b; [|discriminate].
  cbn [map2]. apply runs_refl.
Qed.

Lemma reach_undef2 {A B} : reach 0 (@Undef A) (@Undef B) (Cfg Undef Undef [] []).
Proof.
  intros cap _ _. split; [exists 0%nat; constructor|].
  intros e H. inversion H; subst; match goal with L : lstep _ _ _ |- _ => inversion L end.
Qed.

Lemma table_empty {V} (ok : V -> bool) (subs : list (list Z * V)) :
  (forall pk, first_sub ok subs pk = None) -> table_of ok subs = [].
Proof.
  intros H. destruct (table_of ok subs) as [|[k v] m] eqn:E; auto. exfalso.
  specialize (H k). rewrite <- table_find, E in H. cbn [find] in H. rewrite key_eqb_refl in H. discriminate.
Qed.

Lemma fair_nil order {V} : fair order -> order V [] = [].
Proof. intros H. apply Permutation_nil, Permutation_sym, (H V []). Qed.

Lemma var_nothing nb order0 order1 total0 total1 stream0 stream1 subs0 subs1 junk0 junk1 K rnd0 rnd1 st0 st1 :
  (nb <= 24)%nat -> fair order1 ->
  arrives_cut var_wire var_size total0 stream0 subs0 -> arrives_cut var_wire var_size total1 stream1 subs1 ->
  Forall (fun s => var_content (snd s)) subs0 -> Forall (fun s => var_content (snd s)) subs1 ->
  length junk0 = 48%nat -> length junk1 = 48%nat ->
  (forall pk, first_sub (var_fits nb) subs1 pk = None) ->
  ends 0 (var_op false order0 nb total0 stream0 junk0 K rnd0 st0) (var_op true order1 nb total1 stream1 junk1 K rnd1 st1)
    (Cfg Undef Undef [] []).
Proof.
  intros Hn HF (rest0 & -> & HT0 & HP0 & HL0) (rest1 & -> & HT1 & HP1 & HL1) C0 C1 J0 J1 NE.
  unfold var_op. destruct (Nat.leb_spec 64 nb); [lia|].
  rewrite !var_receive by (auto; lia). rewrite (table_empty _ subs1 NE).
  unfold var_op0, var_op1. cbv zeta. rewrite (fair_nil order1 HF).
  apply reach_ends. eapply runs_reach; [|apply reach_undef2].
  eapply runs_trans.
  { apply delivers_runs', (delivers_announce (@nil (list Z * (Z * Z * ClientPacket)))); [constructor|reflexivity]. }
  cbn [map]. cbv beta. cbn [map].
  eapply runs_trans.
  { apply runs_bind, snip_sums_empty. constructor; [apply width_small; lia|constructor; [apply width_small; lia|constructor]]. }
  apply runs_refl.
Qed.

Lemma linreg_nothing nb degree order0 order1 total0 total1 stream0 stream1 subs0 subs1 d0 d1 junk0 junk1
  garbage0 garbage1 K rnd0 rnd1 st0 st1 :
  (nb <= 24)%nat -> (1 <= degree)%nat -> (num_quad degree + num_x degree < 2 ^ 18)%nat -> fair order1 ->
  arrives_cut linreg_wire (linreg_size degree) total0 stream0 subs0 ->
  arrives_cut linreg_wire (linreg_size degree) total1 stream1 subs1 ->
  Forall (fun s => linreg_content degree (snd s)) subs0 -> Forall (fun s => linreg_content degree (snd s)) subs1 ->
  length d0 = 8%nat -> length d1 = 8%nat -> length junk0 = 32%nat -> length junk1 = 32%nat ->
  (forall pk, first_sub (linreg_fits nb) subs1 pk = None) ->
  ends 0 (linreg_op false order0 nb total0 (degree_wire degree ++ stream0) d0 junk0 garbage0 K rnd0 st0)
         (linreg_op true order1 nb total1 (degree_wire degree ++ stream1) d1 junk1 garbage1 K rnd1 st1)
    (Cfg Undef Undef [] []).
Proof.
  intros Hn Hd HQ HF (rest0 & -> & HT0 & HP0 & HL0) (rest1 & -> & HT1 & HP1 & HL1) C0 C1 LD0 LD1 J0 J1 NE.
  destruct (linreg_gates degree Hd) as [GM GI].
  assert (HM : (NumMulGates (CheckLinReg degree) < 2 ^ 18)%nat) by (rewrite GM; exact HQ).
  destruct (npo2_nat _ HM) as (kk & _ & _ & HN).
  pose proof (degree_small degree HQ) as D32.
  destruct (degree_read degree (wire linreg_wire subs0 ++ rest0) d0 D32 LD0) as (e0 & R0 & E0).
  destruct (degree_read degree (wire linreg_wire subs1 ++ rest1) d1 D32 LD1) as (e1 & R1 & E1).
  unfold linreg_op.
  destruct (Nat.leb_spec 64 nb) as [B|B]; [lia|]. rewrite R0, R1, E0, E1. clear R0 R1 E0 E1.
  destruct (Nat.eqb_spec degree 0) as [Z0|_]; [lia|].
  rewrite !(linreg_receive nb degree _ _ _ _ _ (ltac:(lia) : (nb < 32)%nat) HN) by auto.
  rewrite (table_empty _ subs1 NE).
  unfold linreg_op0, linreg_op1. cbv zeta. rewrite (fair_nil order1 HF).
  apply reach_ends. eapply runs_reach; [|apply reach_undef2].
  eapply runs_trans.
  { apply delivers_runs', (delivers_announce (@nil (list Z * (linreg_vals * ClientPacket)))); [constructor|reflexivity]. }
  cbn [map]. cbv beta. cbn [map map2 length seq].
  eapply runs_trans; [|apply runs_refl].
  apply (runs_bind _ Undef _ Undef), snip_sums_empty. rewrite linreg_bits_eq by auto.
  assert (W : forall w n, (w <= 48)%nat -> Forall (width_ok P) (repeat w n)).
  { intros w n Hw. apply Forall_forall. intros z Hz. apply repeat_spec in Hz. subst z. now apply width_small. }
  apply Forall_app. split; [apply W; lia|]. constructor; [apply width_small; lia|].
  apply Forall_app. split; apply W; lia.
Qed.
