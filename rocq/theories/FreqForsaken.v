From Coq Require Import ZArith List Bool Lia Permutation.
From Verif Require PeerStat ClientFacts TreeFacts.
From Verif Require Import Words WordsFacts Constants Cong Share ShareFacts SpecShare Proc ProcFacts Net NetFacts SpecNet NetMsg RelFacts
  OT OTFacts Correlated SpecStore CorrelatedFacts MpcFacts ServerOps SpecServer TableFacts ServerFacts ServerProps
  Circuit Snip SpecPoly SnipSums SpecFreq FreqFacts FreqProps Alone AloneFacts SpecForsaken ForsakenFacts.
Import ListNotations.
Open Scope Z_scope.
Local Notation P := Int_Modulus.
Opaque Int_Modulus.

Lemma forsaken_assoc {A B C} (r : proc A) (g : A -> proc B) (f : B -> proc C) : forall old i c,
  forsaken old (bind (bind r g) f) i c <-> forsaken old (bind r (fun x => bind (g x) f)) i c.
Proof.
  induction r as [l| |bs k IH|n k IH|bs n k IH|j ps k IH|j cs k IH]; intros old i c; cbn [bind]; [tauto|tauto|..].
  - split; intros H; inversion H; subst; constructor; now apply IH.
  - split; intros H; inversion H; subst; [apply fs_recv|apply fs_eof|apply fs_recv|apply fs_eof]; auto; now apply IH.
  - split; intros H; inversion H; subst; [apply fs_xchg|apply fs_xeof|apply fs_xchg|apply fs_xeof]; auto; now apply IH.
  - split; intros H; inversion H; subst; constructor; now apply IH.
  - split; intros H; inversion H; subst; constructor; now apply IH.
Qed.

Lemma zero_bytes : forall bs, Forall (eq 0) bs -> le_val bs = 0.
Proof. induction bs as [|b bs IH]; intros H; [reflexivity|]. inversion H; subst. cbn [le_val]. rewrite IH by auto. reflexivity. Qed.
Lemma zero_firstn n : forall bs : list Z, Forall (eq 0) bs -> Forall (eq 0) (firstn n bs).
Proof. induction n; intros [|b bs] H; cbn; constructor; inversion H; subst; auto. Qed.
Lemma zero_skipn n : forall bs : list Z, Forall (eq 0) bs -> Forall (eq 0) (skipn n bs).
Proof. induction n; intros [|b bs] H; cbn; auto. inversion H; auto. Qed.
Lemma zero_chunks k n : forall bs, Forall (eq 0) bs -> map le_val (chunks n k bs) = repeat 0 n.
Proof.
  induction n as [|n IH]; intros bs H; cbn [chunks map repeat]; [reflexivity|].
  f_equal; [apply zero_bytes; now apply zero_firstn|]. apply IH. now apply zero_skipn.
Qed.
Lemma zeros n : Forall (eq 0) (repeat 0 n).
Proof. apply Forall_forall. intros x H. now apply repeat_spec in H. Qed.

Lemma fmpz_bytes : FMPZ_BYTES = 8%nat.
Proof. vm_compute. reflexivity. Qed.
Lemma chunk_blank {A} n (f : list Z -> proc A) a old : blank old -> forsaken old (f (repeat 0 n)) [] a ->
  exists old', blank old' /\ forsaken old' (bind (recv_fmpz_chunk n) f) [] a.
Proof.
  intros HB H. unfold recv_fmpz_chunk. cbn [bind].
  destruct n as [|n].
  - exists old. split; [exact HB|]. apply fs_recv; [apply Nat.le_0_l|]. exact H.
  - exists (repeat 0 (S n * FMPZ_BYTES) :: old). split; [constructor; [apply zeros|exact HB]|].
    apply fs_eof; [rewrite fmpz_bytes; cbn [length]; lia|apply repeat_length|]. rewrite zero_chunks by apply zeros. exact H.
Qed.
Lemma batch_blank {A} n (f : list Z -> proc A) a old : blank old -> forsaken old (f (repeat 0 n)) [] a ->
  exists old', blank old' /\ forsaken old' (bind (recv_fmpz_batch n) f) [] a.
Proof.
  unfold recv_fmpz_batch. assert (MB : 0 < MAX_FMPZ_BATCH) by reflexivity. revert MB. generalize MAX_FMPZ_BATCH as maxb. intros maxb MB.
  assert (G : forall fuel n (f : list Z -> proc A), (n <= fuel)%nat -> blank old -> forsaken old (f (repeat 0 n)) [] a ->
    exists old', blank old' /\ forsaken old' (bind (recv_fmpz_batch_loop maxb fuel n) f) [] a).
  { induction fuel as [|fuel IH]; intros m h Hm HB H; cbn [recv_fmpz_batch_loop]; destruct (Z.ltb_spec maxb (Z.of_nat m)) as [Q|Q].
    - lia.
    - now apply chunk_blank with old.
    - destruct (IH (m - Z.to_nat maxb)%nat (fun l' => h (repeat 0 (Z.to_nat maxb) ++ l'))) as (old1 & B1 & H1); [lia|auto| |].
      { rewrite <- repeat_app. replace (Z.to_nat maxb + (m - Z.to_nat maxb))%nat with m by lia. exact H. }
      destruct (chunk_blank (Z.to_nat maxb) (fun l => bind (recv_fmpz_batch_loop maxb fuel (m - Z.to_nat maxb)) (fun l' => h (l ++ l'))) a old1 B1 H1)
        as (old2 & B2 & H2).
      exists old2. split; [exact B2|]. apply forsaken_assoc. unfold recv_fmpz_chunk in *. cbn [bind] in *.
      inversion H2; subst; [apply fs_recv|apply fs_eof]; auto; apply forsaken_assoc; cbn [bind]; auto.
    - now apply chunk_blank with old. }
  intros. now apply G.
Qed.

(** The converse: with blank destinations the numbers read are zeros. *)
Lemma batch_read {A} n (f : list Z -> proc A) a old : forsaken old (bind (recv_fmpz_batch n) f) [] a ->
  exists old1 old2 l, old = old1 ++ old2 /\ forsaken old2 (f l) [] a /\ (blank old1 -> l = repeat 0 n).
Proof.
  unfold recv_fmpz_batch. generalize MAX_FMPZ_BATCH as maxb. intros maxb.
  assert (C : forall n (f : list Z -> proc A) old, forsaken old (bind (recv_fmpz_chunk n) f) [] a ->
    exists old1 old2 l, old = old1 ++ old2 /\ forsaken old2 (f l) [] a /\ (blank old1 -> l = repeat 0 n)).
  { intros m h o H. unfold recv_fmpz_chunk in H. cbn [bind] in H. inversion H; subst.
    - cbn [length] in *. assert (m = 0%nat) by (pose proof fmpz_bytes; destruct m; [reflexivity|cbn in *; lia]). subst m.
      exists [], o, []. split; [reflexivity|]. split; [|reflexivity]. assumption.
    - eexists [_], _, _. split; [reflexivity|]. split; [eassumption|]. intros HB. apply zero_chunks. exact (Forall_inv HB). }
  assert (G : forall fuel n (f : list Z -> proc A) old, 
    forsaken old (bind (recv_fmpz_batch_loop maxb fuel n) f) [] a ->
    exists old1 old2 l, old = old1 ++ old2 /\ forsaken old2 (f l) [] a /\ (blank old1 -> l = repeat 0 n)).
  { induction fuel as [|fuel IH]; intros m h o H; cbn [recv_fmpz_batch_loop] in H; destruct (Z.ltb_spec maxb (Z.of_nat m)) as [Q|Q].
    - inversion H.
    - now apply C.
    - apply forsaken_assoc in H. apply C in H as (o1 & o2 & l & -> & H & E). apply forsaken_assoc in H.
      apply IH in H as (o3 & o4 & l' & -> & H & E'). cbn [bind] in H.
      exists (o1 ++ o3), o4, (l ++ l'). split; [apply app_assoc|]. split; [exact H|].
      intros HB. apply Forall_app in HB as [H1 H3]. rewrite E, E' by assumption. rewrite <- repeat_app. f_equal. lia.
    - now apply C. }
  intros H. now apply G in H.
Qed.

(** ** Before server 1's last message *)
Lemma freq_left num_bits order0 order1 total0 total1 stream0 stream1 subs0 subs1 pk0 pk1 junk0 junk1
    c0 c1 T0 T1 s0 s1 L G :
  let w := freq_width num_bits in
  (num_bits <= 30)%nat -> fair order1 ->
  freq_input num_bits total0 stream0 subs0 pk0 junk0 -> freq_input num_bits total1 stream1 subs1 pk1 junk1 ->
  params_ok c0 c1 -> stores_paired s0 s1 -> heard subs1 L -> (length L <= total0)%nat ->
  (balanced (total_weight w subs0 subs1 L) total0 /\ G = L \/
   ~ balanced (total_weight w subs0 subs1 L) total0 /\ one_hot w subs0 subs1 G) ->
  exists a b s0' s1',
    length a = w /\ length b = w /\ Forall (in_field P) a /\ Forall (in_field P) b /\
    map2 addp a b = tally w subs0 subs1 G /\
    ((total0 <= 2 * length G)%nat -> exists old, blank old /\
     stops_before (freq_op false order0 num_bits total0 stream0 pk0 junk0 c0 T0 s0)
       (freq_op true order1 num_bits total1 stream1 pk1 junk1 c1 T1 s1)
       (send_fmpz_batch b ;;; Ret (RET_NO_ANS, s1')) old (RET_ANS a, s0')).
Proof.
  intros w HB HF (A0 & W0 & K0 & J0) (A1 & W1 & K1 & J1) HP HS HL HT HG.
  destruct (freq_enter num_bits order0 order1 total0 total1 stream0 stream1 subs0 subs1 pk0 pk1 junk0 junk1
    c0 c1 T0 T1 s0 s1 L HB HF A0 A1 W0 W1 K0 K1 J0 J1 HP HS HL HT) as (sh0 & sh1 & s0' & s1' & HS' & HC & HR).
  cbv zeta in HR. change (Z.to_nat (2 ^ Z.of_nat num_bits)) with w in *.
  set (m0 := table_of any subs0) in *. set (l := order1 _ (table_of any subs1)) in *.
  assert (LL : length l = length L) by exact (heard_length order1 subs1 L HF HL).
  assert (SM : Z.of_nat (length l) < two32).
  { rewrite LL. eapply heard_small; eauto. }
  assert (SP : Z.of_nat (length l) < P) by (pose proof two32_field; lia).
  pose proof HC as (L0 & L1 & F0 & F1 & _).
  assert (AZ : forall valid, map2 addp (accumulate w sh0 valid) (repeat 0 w) = accumulate w sh0 valid).
  { intros valid. destruct (accumulate_spec w sh0 valid) as (A & B & _). revert A B.
    generalize (accumulate w sh0 valid) as a. generalize w as n. clear. induction n as [|n IH]; intros [|x a] A B; try discriminate; [reflexivity|].
    cbn [repeat map2]. inversion B; subst. rewrite IH by auto. unfold addp. rewrite Z.add_0_r, Z.mod_small by assumption. reflexivity. }
  destruct (balancedb_spec (total_weight w subs0 subs1 L) total0) as [Y|N].
  - destruct HG as [[_ ->]|[N _]]; [|easy].
    set (valid := repeat true (length l)).
    destruct (accumulate_spec w sh0 valid) as (X1 & X2 & _). destruct (accumulate_spec w sh1 valid) as (Y1 & Y2 & _).
    exists (accumulate w sh0 valid), (accumulate w sh1 valid), s0', s1'.
    split; [exact X1|]. split; [exact Y1|]. split; [exact X2|]. split; [exact Y2|]. split.
    { unfold valid. rewrite map_const_true, (counts_spec w m0 l) by auto. now apply counts_all. }
    intros H2. unfold tail0, tail1 in HR. rewrite !map_length in HR. cbn [bind] in HR. fold valid in HR.
    unfold send_bool_batch in HR. cbn [bind] in HR.
    match type of HR with runs _ _ (Send ?bs ?k) _ => assert (HX : exists old, blank old /\ forsaken old (Send bs k) [] (RET_ANS (accumulate w sh0 valid), s0')) end.
    { edestruct (batch_blank (A := result (list Z) * store) w) as (old & B & H); [constructor| |exists old; split; [exact B|constructor; exact H]].
      cbv beta. unfold valid at 1. rewrite count_all, too_few_no by lia. rewrite AZ. constructor. }
    destruct HX as (old & B & H). exists old. split; [exact B|]. eexists. split; [exact HR|exact H].
  - destruct HG as [[Y _]|[_ HG]]; [easy|].
    set (valid := map (fine w m0) l).
    destruct (accumulate_spec w sh0 valid) as (X1 & X2 & _). destruct (accumulate_spec w sh1 valid) as (Y1 & Y2 & _).
    exists (accumulate w sh0 valid), (accumulate w sh1 valid), s0', s1'.
    split; [exact X1|]. split; [exact Y1|]. split; [exact X2|]. split; [exact Y2|]. split.
    { unfold valid. rewrite (counts_spec w m0 l) by auto. now apply counts_fine. }
    intros H2.
    assert (CV : count valid = length G).
    { unfold valid. rewrite count_true, <- (Permutation_length (fine_keys w order1 subs0 subs1 G HF HG)), map_length. reflexivity. }
    assert (R2 : runs (tail0 w (map (fun e => known m0 (fst e)) l) (map (row0 w m0) l) sh0 total0 s0' false) (tail1 w (map snd l) sh1 s1' false)
      (accum_other <- recv_fmpz_batch w ;;
       if too_few (count valid) total0 then Ret (RET_INVALID, s0')
       else Ret (RET_ANS (map2 addp (accumulate w sh0 valid) accum_other), s0'))
      (send_fmpz_batch (accumulate w sh1 valid) ;;; Ret (RET_NO_ANS, s1'))).
    { unfold tail0, tail1. rewrite !map_length.
      assert (HBt : delivers (send_bool_batch (map parity_of (map snd l))) (recv_bool_batch (length l))
                 (map parity_of (map snd l))).
      { pose proof (delivers_bool_batch (map parity_of (map snd l))) as H. rewrite !map_length in H. exact H. }
      assert (HSm : delivers (send_fmpz_batch (map sum_of sh1)) (recv_fmpz_batch (length l)) (map sum_of sh1)).
      { pose proof (delivers_fmpz_batch (map sum_of sh1) (sums_limbs sh1)) as H. rewrite map_length, L1 in H. exact H. }
      eapply runs_trans.
      { apply runs_bind. eapply runs_trans; [apply delivers_runs'; exact HBt|].
        eapply runs_trans; [apply delivers_runs'; exact HSm|]. apply runs_refl. }
      cbn [bind]. rewrite (valid_spec w m0 l sh0 sh1); auto.
      - fold valid.
        assert (HV : delivers (send_bool_batch valid) (recv_bool_batch (length l)) valid).
        { pose proof (delivers_bool_batch valid) as H. unfold valid in H at 2. rewrite map_length in H. exact H. }
        eapply runs_trans; [apply delivers_runs; exact HV|]. apply runs_refl.
      - unfold w. now apply width_small.
      - now apply freq_table.
      - apply fair_forall; auto. now apply freq_table. }
    match type of R2 with runs _ _ ?pp _ => assert (HX : exists old, blank old /\ forsaken old pp [] (RET_ANS (accumulate w sh0 valid), s0')) end.
    { apply batch_blank with (old := []); [constructor|]. cbv beta. rewrite CV, too_few_no by lia. rewrite AZ. constructor. }
    destruct HX as (old & B & H). exists old. split; [exact B|]. eexists. split; [|exact H].
    eapply runs_trans; [exact HR|exact R2].
Qed.

(** ** Before server 1's part of the check *)
Definition head0 (w : nat) (known0 : list bool) (rows0 : list (list bool)) (sh0 : list (list Z)) (total : nat)
  (s0 : store) : proc (result (list Z) * store) :=
  total_parity_other <- recv_bool ;;
  sum_other <- recv_fmpz ;;
  let all_valid := Bool.eqb (xorb (parity_of (map parity_of rows0)) total_parity_other) (Nat.odd total) &&
    ((sum_of (map sum_of sh0) + sum_other) mod p =? Z.of_nat total) in
  send_bool all_valid ;;; tail0 w known0 rows0 sh0 total s0 all_valid.

Lemma few_valid n : forall sums ks ps po, Forall (in_field P) sums ->
  (count (map3 (fun v pp ss => freq_valid v (fst pp) (snd pp) (fst ss) (snd ss)) ks (combine ps po) (combine sums (repeat 0%Z n)))
   <= length (filter (fun s => s =? 1)%Z%Z sums))%nat.
Proof.
  induction n as [|n IH]; intros [|s sums] [|k ks] [|pa ps] [|pb po] F; cbn [map3 combine repeat filter length]; unfold count in *;
    cbn [filter length]; try lia.
  inversion F as [|? ? Hs Hss]; subst. specialize (IH sums ks ps po Hss). cbn [fst snd].
  unfold freq_valid at 1. rewrite Z.add_0_r. change p with P. rewrite Z.mod_small by exact Hs.
  destruct (s =? 1); cbn [length]; [|rewrite andb_false_r; lia].
  destruct (k && xorb pa pb && true); cbn [length]; lia.
Qed.

Lemma batch_read_valid {A} w (g : list Z -> A) total (s0 : store) (valid : list bool) old a st :
  forsaken (A := result A * store) old (send_bool_batch valid ;;; accum_other <- recv_fmpz_batch w ;;
    if too_few (count valid) total then Ret (RET_INVALID, s0)
    else Ret (RET_ANS (g accum_other), s0)) [] (RET_ANS a, st) -> (total <= 2 * count valid)%nat.
Proof.
  intros H. unfold send_bool_batch in H. cbn [bind] in H. inversion H; subst.
  match goal with K : forsaken _ (bind (recv_fmpz_batch _) _) _ _ |- _ => apply batch_read in K as (o1 & o2 & l & -> & KK & _) end.
  unfold too_few in KK. destruct (Nat.ltb_spec (2 * count valid) total); [inversion KK|lia].
Qed.

Lemma head_left w known0 rows0 sh0 total s0 v old a st :
  blank old \/ (exists flags old', old = flags :: old' /\ blank old') ->
  forsaken ([v] :: holding 0 :: old) (head0 w known0 rows0 sh0 total s0) [] (RET_ANS a, st) ->
  sum_of (map sum_of sh0) = Z.of_nat total \/
  (total <= 2 * length (filter (fun row => sum_of row =? 1)%Z sh0))%nat.
Proof.
  intros HB H. unfold head0, recv_bool in H. cbn [bind] in H.
  inversion H as [|? ? ? ? ? Q|? ? ? ? ? ? Q1 Q2 K| | | | |]; subst; [cbn in Q; lia|]. clear H Q1 Q2.
  assert (V : exists tp, forsaken (holding 0 :: old)
     (bind recv_fmpz (fun sum_other => let all_valid := Bool.eqb (xorb (parity_of (map parity_of rows0)) tp) (Nat.odd total) &&
    ((sum_of (map sum_of sh0) + sum_other) mod p =? Z.of_nat total) in
  send_bool all_valid ;;; tail0 w known0 rows0 sh0 total s0 all_valid)) [] (RET_ANS a, st)).
  { destruct (v =? 0); [exists false; exact K|]. destruct (v =? 1); [exists true; exact K|]. inversion K. }
  clear K. destruct V as (tp & H). unfold recv_fmpz in H. cbn [bind] in H.
  inversion H as [|? ? ? ? ? Q|? ? ? ? ? ? Q1 Q2 K| | | | |]; subst; [rewrite fmpz_bytes in Q; cbn in Q; lia|]. clear H Q1 Q2.
  rewrite (proj2 (le_8 0 PeerStat.zero_limbs)) in K. cbv zeta in K.
  rewrite Z.add_0_r in K. change p with P in K. rewrite Z.mod_small in K by apply sum_of_field.
  destruct (Z.eqb_spec (sum_of (map sum_of sh0)) (Z.of_nat total)) as [E|E]; [now left|]. right.
  rewrite andb_false_r in K. unfold send_bool, tail0, recv_bool_batch in K. cbn [bind] in K.
  inversion K as [| | |? ? ? ? ? H| | | |]; subst. clear K.
  assert (FL : (length (filter (fun s => s =? 1)%Z (map sum_of sh0)) = length (filter (fun row => sum_of row =? 1)%Z sh0))%nat).
  { clear. induction sh0 as [|r sh0 IH]; cbn [map filter]; auto. destruct (sum_of r =? 1); cbn [length]; now rewrite IH. }
  rewrite <- FL.
  assert (SF : Forall (in_field P) (map sum_of sh0)) by (apply Forall_map, Forall_forall; intros; apply sum_of_field).
  assert (Z0 : rows0 = [] -> forall ks pp ss, count (map3 (fun v pp ss => freq_valid v (fst pp) (snd pp) (fst ss) (snd ss)) ks (combine (map parity_of rows0) pp) ss) = 0%nat).
  { intros -> ks pp ss. destruct ks; reflexivity. }
  assert (W : forall po o, (rows0 <> [] -> blank o) -> forsaken o
     (bind (bind (recv_fmpz_batch (length rows0)) (fun sums_other =>
        Ret (map3 (fun v pp ss => freq_valid v (fst pp) (snd pp) (fst ss) (snd ss)) known0
               (combine (map parity_of rows0) po) (combine (map sum_of sh0) sums_other))))
      (fun valid => send_bool_batch valid ;;; accum_other <- recv_fmpz_batch w ;;
         if too_few (count valid) total then Ret (RET_INVALID, s0)
         else Ret (RET_ANS (map2 addp (accumulate w sh0 valid) accum_other), s0))) [] (RET_ANS a, st) ->
     (total <= 2 * length (filter (fun s => s =? 1)%Z (map sum_of sh0)))%nat).
  { intros po o Ho H'. apply forsaken_assoc in H'. apply batch_read in H' as (o1 & o2 & l & -> & H' & E'). cbn [bind] in H'.
    apply batch_read_valid in H'.
    destruct rows0 as [|r0 rows0]; [rewrite Z0 in H' by reflexivity; lia|].
    specialize (Ho ltac:(discriminate)). apply Forall_app in Ho as [Ho _]. rewrite E' in H' by exact Ho.
    pose proof (few_valid (length (r0 :: rows0)) (map sum_of sh0) known0 (map parity_of (r0 :: rows0)) po SF). lia. }
  inversion H as [|? ? ? ? ? Q K|? ? ? ? ? ? Q1 Q2 K| | | | |]; subst.
  - rewrite skipn_nil in K. refine (W _ old _ K). intros N. exfalso. destruct rows0 as [|r0 rows0]; [easy|].
    cbn [length] in Q. unfold bool_bytes in Q. pose proof (PeanoNat.Nat.div_str_pos (S (length rows0) + 7) 8). lia.
  - refine (W _ _ _ K). intros _. destruct HB as [HB|(fl & o & E' & HB)]; [inversion HB; assumption|].
    injection E' as -> ->. exact HB.
Qed.

Lemma freq_before order c0 c1 T0 T1 w m0 m1 total s0 s1 :
  params_ok c0 c1 -> stores_paired s0 s1 -> fair order -> keys_ok m1 ->
  Z.of_nat (length m1) < two32 ->
  Forall (fun e => length (snd e) = w) m0 -> Forall (fun e => length (snd e) = w) m1 ->
  (length m1 <= total)%nat ->
  let l := order _ m1 in
  exists sh0 sh1 s0' x y rest, converted w m0 l sh0 sh1 /\
    runs (freq_op0 c0 T0 w m0 total s0) (freq_op1 order c1 T1 w m1 s1)
      (head0 w (map (fun e => known m0 (fst e)) l) (map (row0 w m0) l) sh0 total s0')
      (send_bool x ;;; send_fmpz y ;;; rest).
Proof.
  intros HP HS HF HK HN W0 W1 HT l.
  assert (HK' : Forall (fun e => length (fst e) = 32%nat) l) by (apply fair_forall; [auto|apply HK]).
  assert (Hl : length l = length m1) by now apply fair_length.
  assert (WL : Forall (fun e => length (snd e) = w) l) by now apply fair_forall.
  assert (R1 : Forall (fun r => length r = w) (map snd l)) by now apply Forall_map.
  assert (R0 : Forall (fun r => length r = w) (map (row0 w m0) l)).
  { apply Forall_map, Forall_forall. intros e _. now apply row0_width. }
  assert (E0 : map (get (repeat false w)) (map (fun pk => find pk m0) (map fst l)) = map (row0 w m0) l).
  { rewrite !map_map. reflexivity. }
  assert (E1 : map is_some (map (fun pk => find pk m0) (map fst l)) = map (fun e => known m0 (fst e)) l).
  { rewrite !map_map. reflexivity. }
  destruct (b2a_single_rel c0 c1 T0 T1 (concat (map (row0 w m0) l)) (concat (map snd l)) s0 s1 HP HS)
    as (r0 & r1 & HC & A1 & A2 & A3 & A4 & A5 & A6 & _).
  { rewrite !(concat_width w) by auto. now rewrite !map_length. }
  assert (LC : length (concat (map (row0 w m0) l)) = (length l * w)%nat).
  { rewrite (concat_width w) by auto. now rewrite map_length. }
  rewrite LC in A1, A2.
  set (sh0 := chunks (length l) w (fst r0)). set (sh1 := chunks (length l) w (fst r1)).
  assert (HO : map2 (map2 addp) sh0 sh1 = map (map b2z) (map (bits w m0) l)).
  { unfold sh0, sh1. rewrite <- (map_length (row0 w m0) l) at 1 2.
    rewrite (opened_rows w (map (row0 w m0) l) (map snd l)) by (auto; now rewrite !map_length).
    rewrite map2_maps. reflexivity. }
  assert (HV : converted w m0 l sh0 sh1).
  { unfold converted, sh0, sh1. rewrite !chunks_length. split; auto. split; auto.
    split; [apply ClientFacts.chunks_each; lia|]. split; [apply ClientFacts.chunks_each; lia|]. exact HO. }
  exists sh0, sh1, (snd r0). do 3 eexists. split; [exact HV|].
  unfold freq_op0, freq_op1. fold l.
  eapply runs_trans; [apply delivers_runs'; apply delivers_announce; [auto|now rewrite Hl]|].
  rewrite !map_length, Hl. destruct (Nat.ltb_spec total (length m1)) as [?|_]; [lia|].
  rewrite E0, E1, <- Hl.
  eapply conv_bind_runs; [exact HC|]. fold sh0 sh1. unfold head0, tail0. rewrite !map_length. apply runs_refl.
Qed.

Lemma freq_guess num_bits order0 order1 total0 total1 stream0 stream1 subs0 subs1 pk0 pk1 junk0 junk1
    c0 c1 T0 T1 s0 s1 L :
  let w := freq_width num_bits in
  (num_bits <= 30)%nat -> fair order1 ->
  freq_input num_bits total0 stream0 subs0 pk0 junk0 -> freq_input num_bits total1 stream1 subs1 pk1 junk1 ->
  params_ok c0 c1 -> stores_paired s0 s1 -> heard subs1 L -> (length L <= total0)%nat ->
  exists ids sh0 sh1 x y rest p', Permutation ids L /\
    length sh0 = length ids /\ length sh1 = length ids /\
    Forall (fun row => length row = w) sh0 /\ Forall (fun row => length row = w) sh1 /\
    map2 (map2 addp) sh0 sh1 = map (fun pk => map b2z (freq_bits w subs0 subs1 pk)) ids /\
    peer_can_stop_at (freq_op false order0 num_bits total0 stream0 pk0 junk0 c0 T0 s0)
      (freq_op true order1 num_bits total1 stream1 pk1 junk1 c1 T1 s1) p' (send_bool x ;;; send_fmpz y ;;; rest) /\
    forall v old a st, blank old \/ (exists flags old', old = flags :: old' /\ blank old') ->
      forsaken ([v] :: holding 0 :: old) p' [] (RET_ANS a, st) ->
      zsum (map zsum sh0) mod p = Z.of_nat total0 \/
      (total0 <= 2 * length (filter (fun row => zsum row mod p =? 1)%Z sh0))%nat.
Proof.
  intros w HB HF (A0 & W0 & K0 & J0) (A1 & W1 & K1 & J1) HP HS HL HT.
  set (m0 := table_of any subs0). set (m1 := table_of any subs1).
  assert (LT : length m1 = length L) by exact (heard_table order1 subs1 L HF HL).
  assert (SM : Z.of_nat (length L) < two32) by (eapply heard_small; eauto).
  destruct (freq_before order1 c0 c1 T0 T1 w m0 m1 total0 s0 s1) as (sh0 & sh1 & s0' & x & y & rest & HC & HR); auto.
  - destruct A1 as (r1 & _ & _ & P1 & S1). now apply table_keys.
  - now rewrite LT.
  - now apply freq_table.
  - now apply freq_table.
  - now rewrite LT.
  - set (l := order1 _ m1) in *.
    exists (map fst l), sh0, sh1, x, y, rest. eexists. split; [exact (heard_keys order1 subs1 L HF HL)|].
    destruct HC as (L0 & L1 & F0 & F1 & HO). rewrite map_length.
    split; [exact L0|]. split; [exact L1|]. split; [exact F0|]. split; [exact F1|]. split.
    { rewrite HO, !map_map. apply map_ext_in. intros e He. f_equal. now apply bits_freq with (order := order1). }
    split.
    { rewrite (freq_op_eq num_bits HB false order0 total0 stream0 subs0) by auto.
      rewrite (freq_op_eq num_bits HB true order1 total1 stream1 subs1) by auto. exact HR. }
    intros v old a st HBl H. apply head_left in H; [|exact HBl].
    assert (SS : sum_of (map sum_of sh0) = zsum (map zsum sh0) mod p).
    { rewrite sum_of_zsum. change p with P. clear. induction sh0 as [|r sh0 IH]; [reflexivity|].
      cbn [map zsum fold_right]. unfold zsum in *. cbn [map fold_right] in *. rewrite Zplus_mod, IH, <- Zplus_mod.
      rewrite sum_of_zsum. unfold zsum. now rewrite Zplus_mod_idemp_l. }
    rewrite <- SS. destruct H as [H|H]; [now left|right].
    rewrite (filter_ext (fun row => zsum row mod p =? 1)%Z (fun row => sum_of row =? 1)%Z); [exact H|].
    intros r. now rewrite sum_of_zsum.
Qed.

Lemma freq_wrong num_bits order0 order1 total0 total1 stream0 stream1 subs0 subs1 pk0 pk1 junk0 junk1
    c0 c1 T0 T1 s0 s1 L G :
  let w := freq_width num_bits in
  (num_bits <= 30)%nat -> fair order1 ->
  freq_input num_bits total0 stream0 subs0 pk0 junk0 -> freq_input num_bits total1 stream1 subs1 pk1 junk1 ->
  params_ok c0 c1 -> stores_paired s0 s1 -> heard subs1 L -> (length L <= total0)%nat ->
  (balanced (total_weight w subs0 subs1 L) total0 /\ G = L \/
   ~ balanced (total_weight w subs0 subs1 L) total0 /\ one_hot w subs0 subs1 G) ->
  exists a b s0' s1',
    length a = w /\ length b = w /\ Forall (in_field P) a /\ Forall (in_field P) b /\
    map2 (fun x y => (x + y) mod p) a b = tally w subs0 subs1 G /\
    (forall j, (j < w)%nat -> nth j b 0 <> 0 -> nth j a 0 <> nth j (tally w subs0 subs1 G) 0) /\
    ((total0 <= 2 * length G)%nat -> exists old, blank old /\
     stops_before (freq_op false order0 num_bits total0 stream0 pk0 junk0 c0 T0 s0)
       (freq_op true order1 num_bits total1 stream1 pk1 junk1 c1 T1 s1)
       (send_fmpz_batch b ;;; Ret (RET_NO_ANS, s1')) old (RET_ANS a, s0')).
Proof.
  intros w HB HF I0 I1 HP HS HL HT HG.
  destruct (freq_left num_bits order0 order1 total0 total1 stream0 stream1 subs0 subs1 pk0 pk1 junk0 junk1
    c0 c1 T0 T1 s0 s1 L G HB HF I0 I1 HP HS HL HT HG) as (a & b & s0' & s1' & La & Lb & Fa & Fb & E & H).
  exists a, b, s0', s1'. split; [exact La|]. split; [exact Lb|]. split; [exact Fa|]. split; [exact Fb|].
  split; [exact E|]. split; [|exact H]. intros j Hj Nb Ea. fold w in E. rewrite <- E in Ea.
  rewrite TreeFacts.nth_map2' in Ea by (fold w in La, Lb; lia). unfold addp in Ea.
  assert (Ia : in_field P (nth j a 0)) by (rewrite Forall_forall in Fa; apply Fa, nth_In; fold w in La; lia).
  assert (Ib : in_field P (nth j b 0)) by (rewrite Forall_forall in Fb; apply Fb, nth_In; fold w in Lb; lia).
  apply (shifted (nth j b 0) (nth j a 0) Ib Nb). change p with P in *. rewrite Z.mod_small by exact Ia.
  rewrite (Z.add_comm (nth j b 0)). exact Ea.
Qed.

(** ** For examples *)
Fixpoint go_on {A} (p : proc A) (old : list (list Z)) (i : list Z) : option A :=
  match p with
  | Ret a => match old with [] => Some a | _ => None end
  | Undef => None
  | Send _ k => go_on k old i
  | Recv n k => if (n <=? length i)%nat then go_on (k (firstn n i)) old (skipn n i)
      else match old with bs :: old' => if (length bs =? n)%nat then go_on (k bs) old' [] else None | [] => None end
  | Xchg _ n k => if (n <=? length i)%nat then go_on (k (firstn n i)) old (skipn n i)
      else match old with bs :: old' => if (length bs =? n)%nat then go_on (k bs) old' [] else None | [] => None end
  | OTSend _ ps k => match ps with [] => go_on k old i | _ => None end
  | OTRecv _ cs k => match cs with [] => go_on (k []) old i | _ => None end
  end.
Lemma go_on_forsaken {A} (p : proc A) : forall old i a, go_on p old i = Some a -> forsaken old p i a.
Proof.
  induction p as [l| |bs k IH|n k IH|bs n k IH|j ps k IH|j cs k IH]; intros old i a H; cbn [go_on] in H; try discriminate.
  - destruct old; [injection H as ->; constructor|discriminate].
  - constructor. now apply IH.
  - destruct (Nat.leb_spec n (length i)); [apply fs_recv; auto|]. destruct old as [|o old]; [discriminate|].
    destruct (Nat.eqb_spec (length o) n); [apply fs_eof; auto|discriminate].
  - destruct (Nat.leb_spec n (length i)); [apply fs_xchg; auto|]. destruct old as [|o old]; [discriminate|].
    destruct (Nat.eqb_spec (length o) n); [apply fs_xeof; auto|discriminate].
  - destruct ps; [constructor; auto|discriminate].
  - destruct cs; [constructor; auto|discriminate].
Qed.
