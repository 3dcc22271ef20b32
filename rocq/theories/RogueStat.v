(** * Proofs about a server 0 that departs from VAR and LINREG *)
From Coq Require Import ZArith List Bool Lia Arith Permutation.
From Verif Require Import Words WordsFacts Constants Cong Share ShareFacts SpecShare Proc ProcFacts Net NetFacts SpecNet NetMsg RelFacts
  OT OTFacts Correlated MpcFacts Poly SpecPoly Circuit SpecCircuit CircuitFacts Snip SpecSnip SnipFacts SnipBatch ServerOps SpecServer TableFacts ServerFacts
  SnipSums SpecStat StatReads StatProps NoForkRun PeerFacts PeerStat SpecRogueStat.
Import ListNotations.
Open Scope Z_scope.
Local Notation P := Int_Modulus.
Opaque Int_Modulus.

(** ** Reading first, then answering an exchange *)
Lemma taus_bind {A B} n (p q : proc A) (f : A -> proc B) : taus n p q -> taus n (bind p f) (bind q f).
Proof. induction 1; econstructor; eauto using lstep_bind. Qed.

Lemma drain {A B C} (x : A) (f : A -> proc B) n (k : list Z -> proc C) : forall m r, feed r m = Some (x, []) ->
  runs (bind r f) (Xchg m n k) (f x) (Xchg [] n k).
Proof.
  intros m r F cap Hc. revert r F. induction m as [|b m IH]; intros r F.
  - destruct (feed_nil _ _ F) as (j & T). exists j. exact (taus_steps0 cap j _ _ _ [] [] (taus_bind j r (Ret x) f T)).
  - destruct (feed_cons _ _ _ _ F) as (j & q1 & q2 & T & L & F'). destruct (IH _ F') as (i & Hi).
    exists (j + S (S i))%nat. eapply steps_trans; [exact (taus_steps0 cap j _ _ _ [] [] (taus_bind j r q1 f T))|].
    econstructor; [eapply st_1; [apply ls_xsend|constructor; simpl; lia]|].
    econstructor; [eapply st_0; [apply lstep_bind; eassumption|constructor]|]. exact Hi.
Qed.
Lemma fill {B C} (f : proc B) : forall m s (k : list Z -> proc C), emits s m tt ->
  runs (s ;;; f) (Xchg [] (length m) k) f (k m).
Proof.
  intros m s k E cap Hc. revert s k E. induction m as [|b m IH]; intros s k E; cbn [length].
  - destruct (emits_nil _ _ E) as (j & T). exists (j + 1)%nat.
    eapply steps_trans; [exact (taus_steps0 cap j _ _ _ [] [] (taus_bind j s (Ret tt) _ T))|].
    econstructor; [eapply st_1; [apply ls_xchg0|constructor]|]. constructor.
  - destruct (emits_cons _ _ _ _ E) as (j & p1 & p2 & T & L & E'). destruct (IH _ (fun l => k (b :: l)) E') as (i & Hi).
    exists (j + S (S i))%nat. eapply steps_trans; [exact (taus_steps0 cap j _ _ _ [] [] (taus_bind j s p1 _ T))|].
    econstructor; [eapply st_0; [apply lstep_bind; eassumption|constructor; simpl; lia]|].
    econstructor; [eapply st_1; [apply ls_xrecv|constructor]|]. exact Hi.
Qed.

(** An exchange with a partner that reads [x] and then answers with [h x]. *)
Lemma rel_answer {A B C D} s s' n (r : proc A) (r' : proc D) x y (f : proc B) (k : D -> proc C) R :
  delivers s r x -> delivers s' r' y -> sends_len s' n -> rel f (k y) R ->
  forall g, g x = s' -> rel (z <- r ;; g z ;;; f) (bind (fork_xchg s n r') k) R.
Proof.
  intros (b & E & F) (b' & E' & F') (c & G & L) H g Hg. unfold fork_xchg. rewrite (SnipFacts.emits_sent _ _ _ E). cbn [bind].
  destruct (emits_det _ _ _ _ _ E' G) as [<- _].
  specialize (F []). specialize (F' []). rewrite app_nil_r in F, F'.
  eapply rel_runs; [exact (drain x (fun z => g z ;;; f) n _ b r F)|]. rewrite Hg. rewrite <- L.
  eapply rel_runs; [exact (fill f b' s' _ E')|]. rewrite F'. exact H.
Qed.

(** ** The check forced by server 0 *)
Lemma forced_zero v : AddToZero v ((- v) mod p) = true.
Proof.
  unfold AddToZero. apply Z.eqb_eq. rewrite Zplus_mod_idemp_r, Z.add_opp_diag_r. reflexivity.
Qed.
Lemma forced_all vs : map2 AddToZero vs (map (fun v => (- v) mod p) vs) = repeat true (length vs).
Proof. induction vs as [|v vs IH]; cbn [map map2 length repeat]; [reflexivity|]. now rewrite IH, forced_zero. Qed.
Lemma neg_limbs vs : Forall limbs_ok (map (fun v => (- v) mod p) vs).
Proof. apply Forall_map, Forall_forall. intros; apply mod_limbs. Qed.

Lemma validate_forced K st c items : items <> [] -> Forall (well_sized c) items ->
  rel (force (length items)) (validate_snips true K st items) (fun _ sv => fst sv = repeat true (length items)).
Proof.
  intros NE W. unfold force, validate_snips. destruct items as [|[[c0 req0] inp0] items']; [easy|].
  pose proof (Forall_inv W) as (-> & L1 & L2 & L3).
  set (items := (c, req0, inp0) :: items') in *. clearbody items. clear items' NE. rewrite L2.
  destruct (getPrecomp _ _) as [pre st2].
  destruct (all_some_checkers c true pre items W) as [cks EC]. rewrite EC.
  apply all_some_len in EC. rewrite map_length in EC. cbv zeta.
  set (n := length items) in *.
  assert (C0 : Forall corshare_ok (repeat (mkCorShare 0 0) n)).
  { apply Forall_forall. intros x Hx. apply repeat_spec in Hx as ->. split; apply zero_limbs. }
  assert (C1 : Forall corshare_ok (map CorShareFn cks)).
  { apply Forall_map, Forall_forall; intros ck _; split; apply mod_limbs. }
  pose proof (delivers_CorShare_batch _ C0) as D0. pose proof (len_CorShare_batch _ C0) as D0'.
  pose proof (delivers_CorShare_batch _ C1) as D1. pose proof (len_CorShare_batch _ C1) as D1'.
  rewrite repeat_length in D0, D0'. rewrite map_length in D1, D1'. rewrite EC in D1, D1'.
  eapply rel_fork; [exact D0|exact D0'|exact D1|exact D1'|].
  pose proof (out_shares_len K cks (map2 Cor_of (map CorShareFn cks) (repeat (mkCorShare 0 0) n)) (seed_pos st2)) as LO.
  rewrite map2_length, map_length, repeat_length in LO. specialize (LO ltac:(lia)).
  pose proof (out_limbs K cks (map2 Cor_of (map CorShareFn cks) (repeat (mkCorShare 0 0) n)) (seed_pos st2)) as OL.
  destruct (out_shares _ _ _ _) as [vs pos']. cbn [fst] in *. rewrite EC in LO.
  pose proof (delivers_fmpz_batch vs OL) as V. rewrite LO in V.
  pose proof (delivers_fmpz_batch _ (neg_limbs vs)) as V'. pose proof (len_fmpz_batch _ (neg_limbs vs)) as V''.
  rewrite map_length, LO in V', V''.
  eapply (rel_answer _ _ _ _ _ _ _ (Ret tt) _ _ V V' V'').
  - apply rel_ret. cbn [fst]. rewrite forced_all. now rewrite LO.
  - reflexivity.
Qed.

Lemma andb_trues : forall mask n, length mask = n -> map2 andb mask (repeat true n) = mask.
Proof. induction mask as [|a mask IH]; intros [|n] L; cbn in *; auto; try discriminate. rewrite IH by congruence. now rewrite andb_true_r. Qed.

(** ** The sums chosen by server 0 *)
Lemma sums_chosen K rnd0 rnd1 c nbs rows l st mask : Forall (width_ok P) nbs -> length nbs = NumInputs c ->
  length rows = length l -> length mask = length l -> l <> [] ->
  Forall (fun r => length r = length nbs) rows -> Forall (Forall limbs_ok) rows -> Forall (row_ok c nbs) l ->
  rel (choose_sums rnd0 nbs rows mask) (snip_sums1 K rnd1 c nbs l st)
    (fun a b => length a = length nbs /\ length (fst b) = length nbs /\ Forall (in_field P) (fst b) /\
      forall j, (j < length nbs)%nat ->
        (nth j (fst b) 0 + nth j a 0) mod P = col_sum j (map2 (opened_row nbs) rows (map fst l)) mask mod P).
Proof.
  intros HW HI L LM NE R0 W0 R1. unfold choose_sums, snip_sums1, share_convert.
  assert (Q1 : Forall (fun r => length r = length nbs) (map fst l)).
  { rewrite Forall_map. eapply Forall_impl; [|exact R1]. intros e (A & _). exact A. }
  assert (Q1' : Forall (Forall limbs_ok) (map fst l)).
  { rewrite Forall_map. eapply Forall_impl; [|exact R1]. intros e (_ & A & _). exact A. }
  assert (MO : mod_ok P) by (right; vm_compute; split; reflexivity).
  eapply rel_bind.
  { apply (b2a_ot_rel rnd0 rnd1 nbs rows (map fst l) P MO HW); auto. now rewrite map_length. }
  cbv beta. intros sh0 sh1 (LS0 & LS1 & F0 & F1 & B0 & B1 & ES).
  assert (EM : ot_modulus P = P) by reflexivity. rewrite EM in *.
  assert (LI : length (map2 (fun (e : list Z * ClientPacket) row => (c, snd e, row)) l sh1) = length rows).
  { rewrite map2_length. lia. }
  eapply rel_bind.
  { rewrite <- LI. apply (validate_forced K st c).
    - intros E. apply (f_equal (@length _)) in E. rewrite LI, L in E. destruct l; [easy|discriminate].
    - apply (items_sized c nbs); auto; [|lia]. eapply Forall_impl; [|exact R1]. intros e (A & _ & B & C). repeat split; auto. }
  cbv beta. intros _ sv EV. rewrite LI in EV.
  eapply rel_deliver. { rewrite <- LM. apply delivers_bool_batch. }
  apply rel_ret. cbn [fst]. rewrite EV, andb_trues by lia.
  destruct (accumulate_spec (length nbs) sh0 mask) as (A1 & A2 & A3).
  destruct (accumulate_spec (length nbs) sh1 mask) as (C1 & C2 & C3).
  split; auto. split; auto. split; auto. intros j Hj. rewrite A3, C3 by auto. rewrite <- Zplus_mod.
  change (map2 (opened_row nbs) rows (map fst l)) with (map2 (map3 (col_spec P) nbs) rows (map fst l)). rewrite <- ES.
  apply cong_iff. apply (col_sum_add j sh0 sh1 _ (length nbs)); auto. congruence.
Qed.

Section Chosen.
  Context {V : Type}.
  Variables (c : circuit) (nbs : list nat) (row : V -> list Z) (packet : V -> ClientPacket) (dflt : list Z).
  Hypothesis HW : Forall (width_ok P) nbs.
  Hypothesis HI : length nbs = NumInputs c.
  Hypothesis HD : length dflt = length nbs /\ Forall limbs_ok dflt.

  Lemma opened_sum (m0 m1 : table V) j S : (j < length nbs)%nat ->
    Forall (fun e => narrow c nbs row packet (snd e)) m0 -> Forall (fun e => narrow c nbs row packet (snd e)) m1 ->
    cong P (zsum (map (fun pk => nth j (at_both (fun a b => opened_row nbs (row a) (row b)) [] m0 m1 pk) 0) S))
      (zsum (map (fun pk => nth j (at_both (fun a b => map2 Z.lxor (row a) (row b)) [] m0 m1 pk) 0) S)).
  Proof.
    intros Hj N0 N1. rewrite Forall_forall in N0, N1.
    assert (forall pk, cong P (nth j (at_both (fun a b => opened_row nbs (row a) (row b)) [] m0 m1 pk) 0)
       (nth j (at_both (fun a b => map2 Z.lxor (row a) (row b)) [] m0 m1 pk) 0)) as HC.
    { intros pk. unfold at_both. destruct (find pk m0) eqn:E0; [|reflexivity]. destruct (find pk m1) eqn:E1; [|reflexivity].
      pose proof (N0 _ (find_in _ _ _ E0)) as A0. pose proof (N1 _ (find_in _ _ _ E1)) as A1. cbn [snd] in A0, A1.
      rewrite (opened_narrow c nbs row packet) by assumption. destruct A0 as [(a1 & _) _], A1 as [(b1 & _) _]. cbn [fst] in *.
      rewrite (nth_map_in _ _ j 0 0) by (rewrite map2_length; lia). demod. reflexivity. }
    induction S as [|pk S IH]; [reflexivity|]. unfold zsum in *. cbn [map fold_right]. now rewrite IH, HC.
  Qed.

  Lemma chosen_rel order (m0 m1 : table V) L K rnd0 rnd1 st want :
    fair order -> keys_ok m1 -> both_in m0 m1 L -> m1 <> [] ->
    Forall (fun e => narrow c nbs row packet (snd e)) m0 -> Forall (fun e => narrow c nbs row packet (snd e)) m1 ->
    let l := order V m1 in
    let found := map (fun pk => find pk m0) (map fst l) in
    rel (choose_sums rnd0 nbs (map (fun f => match f with Some v => row v | None => dflt end) found)
           (map2 andb (map is_some found) (map want (map fst l))))
        (snip_sums1 K rnd1 c nbs (map (fun e => (row (snd e), packet (snd e))) l) st)
      (fun a b => length a = length nbs /\ length (fst b) = length nbs /\ Forall (in_field P) (fst b) /\
         forall j, (j < length nbs)%nat -> (nth j (fst b) 0 + nth j a 0) mod P =
           zsum (map (fun pk => nth j (at_both (fun a b => map2 Z.lxor (row a) (row b)) [] m0 m1 pk) 0) (filter want L)) mod P).
  Proof.
    intros HF [HN HK] HL NE N0 N1 l found.
    assert (LL : length l = length m1) by (apply fair_length; auto).
    assert (FL : Forall (fun e => narrow c nbs row packet (snd e)) l) by (apply fair_forall; auto).
    assert (LFd : length found = length l) by (unfold found; now rewrite !map_length).
    assert (RR : Forall (fun r => length r = length nbs /\ Forall limbs_ok r)
      (map (fun f => match f with Some v => row v | None => dflt end) found)).
    { unfold found. rewrite map_map. apply Forall_map, Forall_forall. intros pk _. destruct (find pk m0) as [v|] eqn:E; [|exact HD].
      rewrite Forall_forall in N0. destruct (N0 _ (find_in _ _ _ E)) as [(A & B & _) _]. cbn [fst snd] in *. auto. }
    eapply rel_imp.
    { apply (sums_chosen K rnd0 rnd1 c nbs); auto.
      - rewrite !map_length. exact LFd.
      - rewrite map2_length, !map_length, LFd. apply Nat.min_id.
      - intros E. apply (f_equal (@length _)) in E. rewrite map_length, LL in E. destruct m1; [easy|discriminate].
      - eapply Forall_impl; [|exact RR]. cbv beta. tauto.
      - eapply Forall_impl; [|exact RR]. cbv beta. tauto.
      - apply Forall_map. eapply Forall_impl; [|exact FL]. intros e He. apply He. }
    cbv beta. intros a b (A & B & C & H). repeat (split; [assumption|]). intros j Hj. rewrite (H j Hj).
    rewrite (map_as_map2 _ found (fun f (_ : nat) => match f with Some v => row v | None => dflt end) 0) by reflexivity.
    rewrite LFd, map_map. cbn [fst].
    set (ks := map fst l) in *. assert (NK : NoDup ks) by (apply ks_nodup; auto).
    assert (LK : length ks = length l) by (unfold ks; apply map_length).
    assert (LW : length (map want ks) = length l) by now rewrite map_length.
    pose proof (col_ok order m0 m1 L HF HN HL nbs row (fun _ => dflt) j (map want ks) LW) as CO.
    fold l in CO. fold ks in CO. rewrite LK in CO. fold found in CO.
    etransitivity; [apply (f_equal (fun z => z mod P)); exact CO|].
    rewrite (filter_ext_in (verdict_of ks (map want ks)) want L).
    - apply cong_iff. apply opened_sum; auto.
    - intros pk Hp. eapply Permutation_in in Hp; [|symmetry; apply (ks_perm order m0 m1 L HF HN HL)].
      apply filter_In in Hp as [Hp _]. fold l in Hp. fold ks in Hp. unfold verdict_of. apply index_in in Hp.
      erewrite nth_error_nth; [reflexivity|]. now apply map_nth_error.
  Qed.
End Chosen.

(** ** VAR *)
Lemma var_chosen want nb order total0 total1 stream0 stream1 subs0 subs1 junk0 junk1 K rnd0 rnd1 st L :
  (nb <= 24)%nat -> fair order ->
  arrives_cut var_wire var_size total0 stream0 subs0 -> arrives_cut var_wire var_size total1 stream1 subs1 ->
  Forall (fun s => var_content (snd s)) subs0 -> Forall (fun s => var_content (snd s)) subs1 ->
  length junk0 = 48%nat -> length junk1 = 48%nat ->
  (exists pk, first_sub (var_fits nb) subs1 pk <> None) ->
  accepted (var_fits nb) subs0 subs1 L ->
  both (spy_var want nb total0 stream0 junk0 rnd0) (var_op true order nb total1 stream1 junk1 K rnd1 st)
    (fun r _ => r = (field_sum (var_fits nb) var_opened subs0 subs1 (filter want L) 0 mod p,
                     field_sum (var_fits nb) var_opened subs0 subs1 (filter want L) 1 mod p)).
Proof.
  intros Hn HF (rest0 & -> & HT0 & HP0 & HL0) (rest1 & -> & HT1 & HP1 & HL1) C0 C1 J0 J1 NE HA.
  apply rel_both. unfold spy_var, var_op. destruct (Nat.leb_spec 64 nb); [lia|].
  rewrite !var_receive by (auto; lia). rewrite !(var_field_sum nb subs0 subs1).
  set (m0 := table_of (var_fits nb) subs0). set (m1 := table_of (var_fits nb) subs1).
  pose proof (table_keys (var_fits nb) subs1 HP1) as HK. fold m1 in HK.
  pose proof (both_in_accepted _ _ _ _ HA) as HB. fold m0 m1 in HB.
  pose proof (table_nonempty _ _ NE) as NE1. fold m1 in NE1.
  assert (N0 : Forall (fun e => narrow CheckVar (var_nbs nb) var_row snd (snd e)) m0)
    by (apply table_narrow with (content := var_content); auto using var_narrow).
  assert (N1 : Forall (fun e => narrow CheckVar (var_nbs nb) var_row snd (snd e)) m1)
    by (apply table_narrow with (content := var_content); auto using var_narrow).
  assert (LM : Z.of_nat (length m1) < two32).
  { pose proof (table_length (var_fits nb) subs1). fold m1 in H0. lia. }
  unfold var_op1. cbv zeta.
  pose proof (chosen_rel CheckVar (var_nbs nb) var_row snd [0; 0]) as CR.
  specialize (CR ltac:(constructor; [apply width_small; lia|constructor; [apply width_small; lia|constructor]]) eq_refl).
  specialize (CR (conj eq_refl (Forall_cons _ zero_limbs (Forall_cons _ zero_limbs (Forall_nil _))))).
  specialize (CR order m0 m1 L K rnd0 rnd1 st want HF HK HB NE1 N0 N1). cbv zeta in CR.
  set (l := order _ m1) in *.
  eapply rel_deliver'.
  { apply delivers_announce; [apply fair_forall; [exact HF|apply HK]|]. unfold l. now rewrite fair_length. }
  set (found := map (fun pk => find pk m0) (map fst l)) in *.
  rewrite (map_ext (fun f : option (Z * Z * ClientPacket) => match f with Some (v, v2, _) => [v; v2] | None => [0; 0] end)
    (fun f => match f with Some v => var_row v | None => [0; 0] end)).
  2:{ intros [[[v v2] pkt]|]; reflexivity. }
  rewrite (map_ext (fun e : list Z * (Z * Z * ClientPacket) => let '(v, v2, pkt) := snd e in ([v; v2], pkt))
     (fun e => (var_row (snd e), snd (snd e)))).
  2:{ intros [k [[v v2] pkt]]. reflexivity. }
  eapply rel_bind; [exact CR|]. cbv beta. intros a b (LA & LB & FB & HS).
  assert (Q : forall j, (j < 2)%nat -> limbs_ok (nth j (fst b) 0)).
  { intros j Hj. apply field_limbs. rewrite Forall_forall in FB. apply FB, nth_In. rewrite LB. exact Hj. }
  eapply rel_deliver'; [apply delivers_fmpz, Q; lia|].
  eapply rel_deliver'; [apply delivers_fmpz, Q; lia|].
  assert (B2 : (length (var_nbs nb) = 2)%nat) by reflexivity.
  apply rel_ret. rewrite B2 in HS. f_equal; [apply (HS 0%nat)|apply (HS 1%nat)]; lia.
Qed.

(** ** LINREG *)
Lemma linreg_chosen want nb degree order total0 total1 stream0 stream1 subs0 subs1 d1 junk0 junk1 garbage K rnd0 rnd1 st L :
  (nb <= 24)%nat -> (1 <= degree)%nat -> (num_quad degree + num_x degree < 2 ^ 18)%nat -> fair order ->
  arrives_cut linreg_wire (linreg_size degree) total0 stream0 subs0 ->
  arrives_cut linreg_wire (linreg_size degree) total1 stream1 subs1 ->
  Forall (fun s => linreg_content degree (snd s)) subs0 -> Forall (fun s => linreg_content degree (snd s)) subs1 ->
  length d1 = 8%nat -> length junk0 = 32%nat -> length junk1 = 32%nat ->
  (exists pk, first_sub (linreg_fits nb) subs1 pk <> None) ->
  accepted (linreg_fits nb) subs0 subs1 L ->
  both (spy_linreg want nb degree total0 stream0 junk0 rnd0)
       (linreg_op true order nb total1 (degree_wire degree ++ stream1) d1 junk1 garbage K rnd1 st)
    (fun r _ => r = map (fun j => field_sum (linreg_fits nb) linreg_opened subs0 subs1 (filter want L) j mod p) (seq 0 (num_fields degree))).
Proof.
  intros Hn Hd HQ HF (rest0 & -> & HT0 & HP0 & HL0) (rest1 & -> & HT1 & HP1 & HL1) C0 C1 LD1 J0 J1 NE HA.
  destruct (linreg_gates degree Hd) as [GM GI].
  assert (HM : (NumMulGates (CheckLinReg degree) < 2 ^ 18)%nat) by (rewrite GM; exact HQ).
  destruct (npo2_nat _ HM) as (kk & _ & _ & HN).
  pose proof (degree_small degree HQ) as D32.
  destruct (degree_read degree (wire linreg_wire subs1 ++ rest1) d1 D32 LD1) as (e1 & R1 & E1).
  apply rel_both. unfold spy_linreg, linreg_op.
  destruct (Nat.leb_spec 64 nb) as [B|B]; [lia|]. rewrite R1, E1. clear R1 E1.
  destruct (Nat.eqb_spec degree 0) as [Z0|_]; [lia|].
  rewrite !(linreg_receive nb degree _ _ _ _ _ (ltac:(lia) : (nb < 32)%nat) HN) by auto.
  rewrite (map_ext _ _ (fun j => f_equal (fun z => z mod p) (linreg_field_sum nb subs0 subs1 (filter want L) j))).
  set (m0 := table_of (linreg_fits nb) subs0). set (m1 := table_of (linreg_fits nb) subs1).
  pose proof (table_keys (linreg_fits nb) subs1 HP1) as HK. fold m1 in HK.
  pose proof (both_in_accepted _ _ _ _ HA) as HB. fold m0 m1 in HB.
  pose proof (table_nonempty _ _ NE) as NE1. fold m1 in NE1.
  assert (NW : forall v, linreg_content degree v -> linreg_fits nb v = true ->
     narrow (CheckLinReg degree) (linreg_bits nb degree) linreg_row' snd v) by (intros; now apply linreg_narrow).
  assert (N0 : Forall (fun e => narrow (CheckLinReg degree) (linreg_bits nb degree) linreg_row' snd (snd e)) m0)
    by exact (table_narrow _ (linreg_content degree) _ _ NW C0).
  assert (N1 : Forall (fun e => narrow (CheckLinReg degree) (linreg_bits nb degree) linreg_row' snd (snd e)) m1)
    by exact (table_narrow _ (linreg_content degree) _ _ NW C1).
  assert (LM : Z.of_nat (length m1) < two32).
  { pose proof (table_length (linreg_fits nb) subs1) as Q. fold m1 in Q. lia. }
  assert (HW : Forall (width_ok P) (linreg_bits nb degree)).
  { rewrite linreg_bits_eq by auto.
    assert (W : forall w n, (w <= 48)%nat -> Forall (width_ok P) (repeat w n)).
    { intros w n Hw. apply Forall_forall. intros z Hz. apply repeat_spec in Hz. subst z. now apply width_small. }
    apply Forall_app. split; [apply W; lia|]. constructor; [apply width_small; lia|].
    apply Forall_app. split; apply W; lia. }
  assert (HI : length (linreg_bits nb degree) = NumInputs (CheckLinReg degree)) by now rewrite linreg_bits_length.
  unfold linreg_op1. cbv zeta.
  pose proof (chosen_rel (CheckLinReg degree) (linreg_bits nb degree) linreg_row' snd (repeat 0 (num_fields degree)) HW HI) as CR.
  assert (ZR : Forall limbs_ok (repeat 0 (num_fields degree))).
  { apply Forall_forall. intros z Hz. apply repeat_spec in Hz as ->. apply zero_limbs. }
  specialize (CR (conj (eq_trans (repeat_length _ _) (eq_sym (linreg_bits_length nb degree))) ZR)).
  specialize (CR order m0 m1 L K rnd0 rnd1 st want HF HK HB NE1 N0 N1). cbv zeta in CR.
  set (l := order _ m1) in *.
  eapply rel_deliver'.
  { apply delivers_announce; [apply fair_forall; [exact HF|apply HK]|]. unfold l. now rewrite fair_length. }
  set (found := map (fun pk => find pk m0) (map fst l)) in *.
  rewrite (map_ext (fun f : option (linreg_vals * ClientPacket) => match f with Some (v, _) => linreg_row v | None => repeat 0 (num_fields degree) end)
    (fun f => match f with Some v => linreg_row' v | None => repeat 0 (num_fields degree) end)).
  2:{ intros [[v pkt]|]; reflexivity. }
  change (map (fun e : list Z * (linreg_vals * ClientPacket) => (linreg_row (fst (snd e)), snd (snd e))) l)
    with (map (fun e : list Z * (linreg_vals * ClientPacket) => (linreg_row' (snd e), snd (snd e))) l).
  eapply rel_bind; [exact CR|]. cbv beta. intros a b (LA & LB & FB & HS). rewrite linreg_bits_length in LA, LB, HS.
  eapply rel_deliver'.
  { rewrite <- LB. apply delivers_batch_each. apply Forall_forall. intros z Hz. apply field_limbs.
    rewrite Forall_forall in FB. auto. }
  apply rel_ret. rewrite (nth_map2_seq _ (fst b) a (num_fields degree)) by assumption.
  apply map_ext_in. intros j Hj. apply in_seq in Hj. change p with P. apply HS. lia.
Qed.

(** ** One client *)
Lemma filter_one {A} (f : A -> bool) x : (forall y, f y = true <-> y = x) -> forall l, NoDup l -> In x l -> filter f l = [x].
Proof.
  intros H. induction 1 as [|y l N ND IH]; intros I; [easy|]. cbn [filter].
  assert (E : forall z, z <> x -> f z = false) by (intros z Hz; destruct (f z) eqn:F; auto; apply H in F; congruence).
  destruct I as [->|I].
  - rewrite (proj2 (H x) eq_refl). f_equal. clear -N E. induction l as [|z l IH]; cbn; auto.
    rewrite E by (intros ->; apply N; now left). apply IH. intros X. apply N. now right.
  - rewrite E by (intros ->; contradiction). auto.
Qed.
Lemma only_key pk l : NoDup l -> In pk l -> filter (key_eqb pk) l = [pk].
Proof. apply filter_one. intros y. destruct (key_eqb_spec pk y); split; congruence. Qed.

Lemma field_sum_one {V} (ok : V -> bool) opened subs0 subs1 pk v v' j :
  first_sub ok subs0 pk = Some v -> first_sub ok subs1 pk = Some v' ->
  field_sum ok opened subs0 subs1 [pk] j = nth j (opened v v') 0.
Proof.
  intros E0 E1. unfold field_sum. cbn [map]. unfold combined. rewrite E0, E1. apply Z.add_0_r.
Qed.

Lemma var_one_client pk v v' nb order total0 total1 stream0 stream1 subs0 subs1 junk0 junk1 K rnd0 rnd1 st :
  (nb <= 24)%nat -> fair order ->
  arrives_cut var_wire var_size total0 stream0 subs0 -> arrives_cut var_wire var_size total1 stream1 subs1 ->
  Forall (fun s => var_content (snd s)) subs0 -> Forall (fun s => var_content (snd s)) subs1 ->
  length junk0 = 48%nat -> length junk1 = 48%nat ->
  first_sub (var_fits nb) subs0 pk = Some v -> first_sub (var_fits nb) subs1 pk = Some v' ->
  both (spy_var (key_eqb pk) nb total0 stream0 junk0 rnd0) (var_op true order nb total1 stream1 junk1 K rnd1 st)
    (fun r _ => r = (nth 0 (var_opened v v') 0 mod p, nth 1 (var_opened v v') 0 mod p)).
Proof.
  intros Hn HF A0 A1 C0 C1 J0 J1 E0 E1. destruct (accepted_exists (var_fits nb) subs0 subs1) as (L & HL).
  assert (IP : In pk L) by (apply HL; rewrite E0, E1; split; discriminate).
  pose proof (var_chosen (key_eqb pk) nb order total0 total1 stream0 stream1 subs0 subs1 junk0 junk1 K rnd0 rnd1 st L
    Hn HF A0 A1 C0 C1 J0 J1 ltac:(exists pk; congruence) HL) as H.
  rewrite (only_key pk L (proj1 HL) IP) in H.
  rewrite !(field_sum_one (var_fits nb) var_opened subs0 subs1 pk v v') in H by assumption. exact H.
Qed.
Lemma linreg_one_client pk v v' nb degree order total0 total1 stream0 stream1 subs0 subs1 d1 junk0 junk1 garbage K rnd0 rnd1 st :
  (nb <= 24)%nat -> (1 <= degree)%nat -> (num_quad degree + num_x degree < 2 ^ 18)%nat -> fair order ->
  arrives_cut linreg_wire (linreg_size degree) total0 stream0 subs0 ->
  arrives_cut linreg_wire (linreg_size degree) total1 stream1 subs1 ->
  Forall (fun s => linreg_content degree (snd s)) subs0 -> Forall (fun s => linreg_content degree (snd s)) subs1 ->
  length d1 = 8%nat -> length junk0 = 32%nat -> length junk1 = 32%nat ->
  first_sub (linreg_fits nb) subs0 pk = Some v -> first_sub (linreg_fits nb) subs1 pk = Some v' ->
  both (spy_linreg (key_eqb pk) nb degree total0 stream0 junk0 rnd0)
       (linreg_op true order nb total1 (degree_wire degree ++ stream1) d1 junk1 garbage K rnd1 st)
    (fun r _ => r = map (fun j => nth j (linreg_opened v v') 0 mod p) (seq 0 (num_fields degree))).
Proof.
  intros Hn Hd Hq HF A0 A1 C0 C1 D1 J0 J1 E0 E1. destruct (accepted_exists (linreg_fits nb) subs0 subs1) as (L & HL).
  assert (IP : In pk L) by (apply HL; rewrite E0, E1; split; discriminate).
  pose proof (linreg_chosen (key_eqb pk) nb degree order total0 total1 stream0 stream1 subs0 subs1 d1 junk0 junk1 garbage K rnd0 rnd1 st L
    Hn Hd Hq HF A0 A1 C0 C1 D1 J0 J1 ltac:(exists pk; congruence) HL) as H.
  rewrite (only_key pk L (proj1 HL) IP) in H.
  replace (map (fun j => nth j (linreg_opened v v') 0 mod p) (seq 0 (num_fields degree)))
    with (map (fun j => field_sum (linreg_fits nb) linreg_opened subs0 subs1 [pk] j mod p) (seq 0 (num_fields degree))); [exact H|].
  apply map_ext. intros j. now rewrite (field_sum_one (linreg_fits nb) linreg_opened subs0 subs1 pk v v').
Qed.
