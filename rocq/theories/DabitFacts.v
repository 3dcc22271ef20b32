(** * VAR and LINREG with the conversion by daBits *)
From Coq Require Import ZArith List Bool Lia Arith Permutation.
From Verif Require Import Words WordsFacts Constants Cong Share Proc ProcFacts Net NetFacts SpecNet SpecShare ShareFacts RelFacts
  OT OTFacts Correlated SpecStore CorrelatedFacts MpcFacts Poly SpecPoly Circuit SpecCircuit CircuitFacts Snip SpecSnip SnipFacts
  SnipBatch ServerOps SpecServer TableFacts ServerFacts SnipSums SpecStat StatReads StatProps FreqFacts ClientFacts DabitOps SpecDabit.
Import ListNotations.
Open Scope Z_scope.
Local Notation P := Int_Modulus.
Opaque Int_Modulus.

Lemma map3_cons_app {A B C D} (g : A -> B -> C -> D) a b c a' b' c' :
  length b = length a -> length c = length a ->
  map3 g (a ++ a') (b ++ b') (c ++ c') = map3 g a b c ++ map3 g a' b' c'.
Proof.
  revert b c. induction a as [|x a IH]; intros [|y b] [|z c] Hb Hc; try discriminate; auto.
  cbn [app map3]. cbn in Hb, Hc. f_equal. apply IH; congruence.
Qed.
Lemma map3_len {A B C D} (g : A -> B -> C -> D) a b c :
  length b = length a -> length c = length a -> length (map3 g a b c) = length a.
Proof.
  revert b c. induction a as [|x a IH]; intros [|y b] [|z c] Hb Hc; try discriminate; auto.
  cbn in *. f_equal. apply IH; congruence.
Qed.

(** The flat array, cut into rows. *)
Lemma flat_rows {A D} (g : nat -> A -> A -> D) nbs (x0 x1 : list (list A)) :
  length x0 = length x1 ->
  Forall (fun r => length r = length nbs) x0 -> Forall (fun r => length r = length nbs) x1 ->
  map3 g (concat (map (fun _ => nbs) x0)) (concat x0) (concat x1) = concat (map2 (map3 g nbs) x0 x1).
Proof.
  revert x1. induction x0 as [|r x0 IH]; intros [|r' x1] L F0 F1; try discriminate; auto.
  inversion F0; inversion F1; subst. cbn [map concat map2]. cbn in L.
  rewrite map3_cons_app by assumption. f_equal. apply IH; auto.
Qed.
Lemma rows_total {A} (nbs : list nat) (x : list A) : total (concat (map (fun _ => nbs) x)) = (length x * total nbs)%nat.
Proof.
  induction x as [|r x IH]; cbn [map concat length]; auto.
  assert (T : forall a b, total (a ++ b) = (total a + total b)%nat).
  { induction a as [|y a IHa]; intros b; cbn [app total fold_right]; auto.
    fold (total (a ++ b)) (total a). rewrite IHa. lia. }
  rewrite T, IH. lia.
Qed.
Lemma concat_len {A} n (x : list (list A)) : Forall (fun r => length r = n) x -> length (concat x) = (length x * n)%nat.
Proof. induction 1 as [|r x H F IH]; cbn [concat length]; auto. rewrite app_length, IH. lia. Qed.
Lemma widths_len {A} (nbs : list nat) (x : list A) : length (concat (map (fun _ => nbs) x)) = (length x * length nbs)%nat.
Proof.
  rewrite (concat_len (length nbs)) by (apply Forall_map, Forall_forall; auto). now rewrite map_length.
Qed.

Lemma lxor_small nb a b : (nb <= 31)%nat -> Z.lxor a b mod 2 ^ Z.of_nat nb = col_spec P nb a b.
Proof.
  intros H. unfold col_spec. change (ot_modulus P) with P. symmetry. apply Z.mod_small.
  pose proof p_ge. assert (0 < 2 ^ Z.of_nat nb <= 2 ^ 31)
    by (split; [apply Z.pow_pos_nonneg; lia|apply Z.pow_le_mono_r; lia]).
  pose proof (Z.mod_pos_bound (Z.lxor a b) (2 ^ Z.of_nat nb)).
  change (2 ^ 31) with 2147483648 in *. change (2 ^ 47) with 140737488355328 in *. lia.
Qed.

Lemma map3_ext_in {A B C D} (g h : A -> B -> C -> D) a b c :
  (forall x y z, In x a -> g x y z = h x y z) -> map3 g a b c = map3 h a b c.
Proof.
  revert b c. induction a as [|x a IH]; intros [|y b] [|z c] H; auto. cbn [map3].
  rewrite H by now left. f_equal. apply IH. intros. apply H. now right.
Qed.

Lemma share_convert_d_rel c0 c1 T0 T1 nbs x0 x1 s0 s1 :
  params_ok c0 c1 -> stores_paired s0 s1 -> (forall nb, In nb nbs -> nb <= 31)%nat ->
  length x0 = length x1 ->
  Forall (fun r => length r = length nbs) x0 -> Forall (fun r => length r = length nbs) x1 ->
  rel (share_convert_d c0 T0 nbs x0 s0) (share_convert_d c1 T1 nbs x1 s1)
    (fun r0 r1 =>
      length (fst r0) = length x0 /\ length (fst r1) = length x0 /\
      Forall (fun r => length r = length nbs) (fst r0) /\ Forall (fun r => length r = length nbs) (fst r1) /\
      map2 (map2 (fun a b => (a + b) mod P)) (fst r0) (fst r1) = map2 (map3 (col_spec P) nbs) x0 x1 /\
      stores_paired (snd r0) (snd r1) /\
      used (length x0 * total nbs) s0 (snd r0) /\ used (length x0 * total nbs) s1 (snd r1)).
Proof.
  intros HP HS HN L F0 F1. unfold share_convert_d.
  assert (W : concat (map (fun _ : list Z => nbs) x1) = concat (map (fun _ : list Z => nbs) x0)).
  { clear -L. revert x1 L. induction x0 as [|r x0 IH]; intros [|r' x1] L; try discriminate; auto.
    cbn [map concat]. rewrite (IH x1) by (cbn in L; lia). reflexivity. }
  rewrite W. eapply rel_bind.
  { apply (b2a_multi_rel c0 c1 T0 T1 (concat (map (fun _ => nbs) x0)) (concat x0) (concat x1) s0 s1); auto.
    - now rewrite (concat_len (length nbs)), widths_len by assumption.
    - rewrite (concat_len (length nbs)), widths_len by assumption. now rewrite L.
    - intros nb Hi. apply in_concat in Hi as (l & Hl & Hi). apply in_map_iff in Hl as (r & <- & _). auto. }
  cbv beta. intros r0 r1 (L0 & L1 & _ & _ & HO & HS' & ds0 & ds1 & D0 & D1 & K0 & K1).
  rewrite rows_total in D0, D1. rewrite widths_len in L0, L1.
  apply rel_ret. cbn [fst snd]. rewrite !chunks_length, L.
  split; [reflexivity|]. split; [reflexivity|].
  split; [apply chunks_each; lia|]. split; [apply chunks_each; lia|].
  split; [|split; [exact HS'|rewrite <- L; split; [exists ds0|exists ds1]; auto]].
  rewrite <- chunks_map2, HO, flat_rows by assumption.
  assert (LM : length (map2 (map3 (fun nb a b => Z.lxor a b mod 2 ^ Z.of_nat nb) nbs) x0 x1) = length x1)
    by (rewrite map2_length, L; apply Nat.min_id).
  assert (FM : Forall (fun r => length r = length nbs) (map2 (map3 (fun nb a b => Z.lxor a b mod 2 ^ Z.of_nat nb) nbs) x0 x1)).
  { clear -F0 F1. revert x1 F1. induction F0 as [|r x0 H F0 IH]; intros [|r' x1] F1; cbn [map2]; auto.
    inversion F1; subst. constructor; auto. now apply map3_len. }
  rewrite <- LM, (FreqFacts.concat_chunks (length nbs) _ FM).
  clear -HN L. revert x1 L. induction x0 as [|r x0 IH]; intros [|r' x1] L; cbn [map2]; auto.
  f_equal; [|apply IH; cbn in L; lia].
  apply map3_ext_in. intros nb a b Hi. apply lxor_small. auto.
Qed.

Lemma snip_sums_d_rel c0 c1 T0 T1 K c nbs kn l0 l1 st0 st1 s0 s1 :
  params_ok c0 c1 -> stores_paired s0 s1 ->
  (NumMulGates c < 2 ^ 18)%nat -> synced st0 st1 ->
  (forall nb, In nb nbs -> nb <= 31)%nat -> length nbs = NumInputs c ->
  length l0 = length l1 -> length kn = length l1 -> l1 <> [] ->
  Forall (row_ok c nbs) l0 -> Forall (row_ok c nbs) l1 ->
  let w := S (length (result_zero c)) in
  rel (snip_sums0_d c0 T0 K c nbs kn l0 st0 s0) (snip_sums1_d c1 T1 K c nbs l1 st1 s1)
    (fun a b => (exists vs, length vs = length l1 /\
      (forall i e0 e1, nth_error l0 i = Some e0 -> nth_error l1 i = Some e1 ->
         verdict c (randomX st0) K (seed_pos st0 + i * w)
           (snd e0, opened_row nbs (fst e0) (fst e1)) (snd e1, repeat 0 (length nbs)) (nth i vs false)) /\
      fst (fst (fst a)) = count (map2 andb kn vs) /\
      length (snd (fst (fst a))) = length nbs /\ length (fst (fst b)) = length nbs /\
      Forall (in_field P) (fst (fst b)) /\
      (forall j, (j < length nbs)%nat ->
         (nth j (fst (fst b)) 0 + nth j (snd (fst (fst a))) 0) mod P
         = col_sum j (map2 (opened_row nbs) (map fst l0) (map fst l1)) (map2 andb kn vs) mod P) /\
      synced (snd (fst a)) (snd (fst b)) /\ randomX (snd (fst a)) = randomX st0 /\
      seed_pos (snd (fst a)) = (seed_pos st0 + length l1 * w)%nat /\
      randx_uses (snd (fst a)) = u64 (randx_uses st0 + Z.of_nat (length l1))) /\
      stores_paired (snd a) (snd b) /\
      used (length l1 * total nbs) s0 (snd a) /\ used (length l1 * total nbs) s1 (snd b)).
Proof.
  intros HP HS HM SY HW HI L LK NE R0 R1 w. unfold snip_sums0_d, snip_sums1_d.
  assert (Q : forall l : list (list Z * ClientPacket), Forall (row_ok c nbs) l ->
    Forall (fun r => length r = length nbs) (map fst l)).
  { intros l H. rewrite !Forall_map. eapply Forall_impl; [|exact H]. intros e (A & _). auto. }
  pose proof (Q _ R0) as Q0. pose proof (Q _ R1) as Q1. clear Q.
  eapply rel_bind.
  { apply (share_convert_d_rel c0 c1 T0 T1 nbs (map fst l0) (map fst l1) s0 s1); auto. now rewrite !map_length. }
  cbv beta. intros r0 r1 (LS0 & LS1 & F0 & F1 & ES & HS' & U0 & U1). rewrite map_length in LS0, LS1, U0, U1.
  rewrite L in U0, U1.
  eapply rel_bind.
  { apply (snip_tail_rel K c nbs kn l0 l1 st0 st1 (fst r0) (fst r1)
      (map2 (map3 (col_spec P) nbs) (map fst l0) (map fst l1)) HM SY HI L LK NE R0 R1); auto; congruence. }
  cbv beta. intros a b (vs & LV & HV & H). apply rel_ret. cbn [fst snd].
  split; [|auto]. exists vs. split; [exact LV|]. split; [|exact H].
  intros i e0 e1 E0 E1. apply HV; auto. apply nth_error_map2; apply map_nth_error; auto.
Qed.

(** As [op_tables]. *)
Section OpD.
  Context {V : Type} (c : circuit) (nbs : list nat) (row : V -> list Z) (packet : V -> ClientPacket)
    (dflt : nat -> list Z) (dpkt : ClientPacket).
  Hypothesis HM : (NumMulGates c < 2 ^ 18)%nat.
  Hypothesis HW : (forall nb, In nb nbs -> nb <= 31)%nat.
  Hypothesis HI : length nbs = NumInputs c.
  Hypothesis HD : forall i, row_ok c nbs (dflt i, dpkt).

  Lemma op_tables_d order (m0 m1 : table V) L c0 c1 T0 T1 K st0 st1 s0 s1 :
    params_ok c0 c1 -> stores_paired s0 s1 ->
    fair order -> keys_ok m1 -> both_in m0 m1 L -> m1 <> [] -> synced st0 st1 ->
    Forall (fun e => narrow c nbs row packet (snd e)) m0 -> Forall (fun e => narrow c nbs row packet (snd e)) m1 ->
    let l := order V m1 in
    let found := map (fun pk => find pk m0) (map fst l) in
    let w := S (length (result_zero c)) in
    rel (snip_sums0_d c0 T0 K c nbs (map is_some found)
           (map2 (fun f i => match f with Some v => (row v, packet v) | None => (dflt i, dpkt) end) found (seq 0 (length found))) st0 s0)
        (snip_sums1_d c1 T1 K c nbs (map (fun e => (row (snd e), packet (snd e))) l) st1 s1)
      (fun a b => (exists good pos,
         fst (fst (fst a)) = length (filter good L) /\
         length (snd (fst (fst a))) = length nbs /\ length (fst (fst b)) = length nbs /\ Forall (in_field P) (fst (fst b)) /\
         (forall j, (j < length nbs)%nat ->
            (nth j (fst (fst b)) 0 + nth j (snd (fst (fst a))) 0) mod P
            = zsum (map (fun pk => nth j (at_both (fun a b => map2 Z.lxor (row a) (row b)) [] m0 m1 pk) 0) (filter good L)) mod P) /\
         (forall pk v v', find pk m0 = Some v -> find pk m1 = Some v' ->
            judged c (randomX st0) K (pos pk) (map2 Z.lxor (row v) (row v')) (packet v) (packet v') (good pk)) /\
         (forall pk pk', In pk L -> In pk' L -> pk <> pk' -> (pos pk + w <= pos pk' \/ pos pk' + w <= pos pk)%nat) /\
         (forall pk, In pk L -> (seed_pos st0 <= pos pk)%nat) /\
         synced (snd (fst a)) (snd (fst b)) /\ randomX (snd (fst a)) = randomX st0 /\
         seed_pos (snd (fst a)) = (seed_pos st0 + length m1 * w)%nat /\
         randx_uses (snd (fst a)) = u64 (randx_uses st0 + Z.of_nat (length m1))) /\
         stores_paired (snd a) (snd b) /\
         used (length m1 * total nbs) s0 (snd a) /\ used (length m1 * total nbs) s1 (snd b)).
  Proof.
    intros HP HS HF [HN HK] HL NE SY N0 N1 l found w.
    assert (NE' : length m1 <> 0%nat) by (clear -NE; destruct m1; [contradiction|discriminate]).
    assert (LL : length l = length m1) by (apply fair_length; auto).
    assert (FL : Forall (fun e => narrow c nbs row packet (snd e)) l) by (apply fair_forall; auto).
    assert (LFd : length found = length l) by (unfold found; now rewrite !map_length).
    eapply rel_imp.
    { apply (snip_sums_d_rel c0 c1 T0 T1 K c nbs); auto.
      - rewrite map2_length, seq_length, map_length, LFd. apply Nat.min_id.
      - rewrite !map_length. lia.
      - intros E. apply (f_equal (@length _)) in E. rewrite map_length in E. apply NE'. rewrite <- LL. exact E.
      - apply Forall_forall. intros e He. apply (In_nth _ _ (dflt 0%nat, dpkt)) in He as (i & Hi & <-).
        rewrite map2_length, seq_length, Nat.min_id in Hi.
        rewrite (WordsFacts.nth_map2 _ _ _ _ None 0%nat) by (rewrite ?seq_length; auto).
        destruct (nth i found None) as [v|] eqn:E; [|apply HD].
        unfold found in E. rewrite map_map in E.
        rewrite (nth_map_in _ l i None ([], v)) in E by lia. rewrite Forall_forall in N0. apply find_in in E. apply (N0 _ E).
      - apply Forall_map. eapply Forall_impl; [|exact FL]. intros e He. apply He. }
    cbv beta. intros a b (H & HS' & U0 & U1). rewrite map_length, LL in U0, U1.
    split; [|auto].
    apply (op_post c nbs row packet dflt dpkt HM HI HD order m0 m1 L K st0 (fst a) (fst b)) in H; auto; [|now split|apply SY].
    destruct H as (good & pos & a1 & a2 & a3 & a4 & a5 & a6 & a7 & a8 & a9 & a10 & a11 & a12 & _).
    exists good, pos. auto 13.
  Qed.
End OpD.

Lemma accepted_table {V} (ok : V -> bool) subs L : accepted ok subs subs L -> keys_ok (table_of ok subs) ->
  length (table_of ok subs) = length L.
Proof.
  intros HA [HN _]. pose proof (both_in_accepted _ _ _ _ HA) as [ND HB].
  rewrite <- (map_length fst). apply Nat.le_antisymm; apply NoDup_incl_length; auto; intros pk Hin.
  - apply HB. split; now apply find_some_iff.
  - apply HB in Hin as [Hf _]. now apply find_some_iff.
Qed.

Lemma var_op_dabit_result c0 c1 nb order0 order1 total0 total1 stream0 stream1 subs0 subs1 junk0 junk1 T0 T1 K st0 st1 s0 s1 L L1 :
  params_ok c0 c1 -> stores_paired s0 s1 -> (nb <= 15)%nat -> fair order1 ->
  arrives_cut var_wire var_size total0 stream0 subs0 -> arrives_cut var_wire var_size total1 stream1 subs1 ->
  Forall (fun s => var_content (snd s)) subs0 -> Forall (fun s => var_content (snd s)) subs1 ->
  length junk0 = 48%nat -> length junk1 = 48%nat ->
  (exists pk, first_sub (var_fits nb) subs1 pk <> None) ->
  accepted (var_fits nb) subs0 subs1 L -> accepted (var_fits nb) subs1 subs1 L1 -> synced st0 st1 ->
  both (var_op_d c0 order0 nb total0 stream0 junk0 T0 K st0 s0) (var_op_d c1 order1 nb total1 stream1 junk1 T1 K st1 s1)
    (fun a b => exists ok pos,
       validated CheckVar (randomX st0) K (seed_pos st0) (var_fits nb) var_opened snd subs0 subs1 L ok pos /\
       fst (fst b) = RET_NO_ANS /\
       fst (fst a) = outcome (length (filter ok L)) total0
         (length (filter ok L),
          field_sum (var_fits nb) var_opened subs0 subs1 (filter ok L) 0 mod p,
          field_sum (var_fits nb) var_opened subs0 subs1 (filter ok L) 1 mod p) /\
       synced (snd (fst a)) (snd (fst b)) /\ randomX (snd (fst a)) = randomX st0 /\
       stores_paired (snd a) (snd b) /\
       used (length L1 * (3 * nb)) s0 (snd a) /\ used (length L1 * (3 * nb)) s1 (snd b)).
Proof.
  intros HP HS Hn HF (rest0 & -> & HT0 & HP0 & HL0) (rest1 & -> & HT1 & HP1 & HL1) C0 C1 J0 J1 NE HA HA1 SY.
  apply rel_both. unfold var_op_d.
  destruct (Nat.leb_spec 64 nb) as [B|B]; [lia|].
  rewrite !var_receive by (auto; lia).
  destruct HP as (P0 & P1 & PR). rewrite P0, P1. pose proof (conj P0 (conj P1 PR) : params_ok c0 c1) as HP. clear P0 P1 PR.
  set (m0 := table_of (var_fits nb) subs0). set (m1 := table_of (var_fits nb) subs1).
  pose proof (table_keys (var_fits nb) subs1 HP1) as HK. fold m1 in HK.
  pose proof (accepted_table _ _ _ HA1 HK) as LL1. fold m1 in LL1.
  pose proof (both_in_accepted _ _ _ _ HA) as HB. fold m0 m1 in HB.
  pose proof (table_nonempty _ _ NE) as NE1. fold m1 in NE1.
  assert (N0 : Forall (fun e => narrow CheckVar (var_nbs nb) var_row snd (snd e)) m0)
    by (apply table_narrow with (content := var_content); auto using var_narrow).
  assert (N1 : Forall (fun e => narrow CheckVar (var_nbs nb) var_row snd (snd e)) m1)
    by (apply table_narrow with (content := var_content); auto using var_narrow).
  assert (LM : Z.of_nat (length m1) < two32).
  { pose proof (table_length (var_fits nb) subs1) as Q. fold m1 in Q. lia. }
  pose proof (op_tables_d CheckVar (var_nbs nb) var_row snd (fun _ => [0; 0]) (mock_packet (NumMulGates CheckVar))) as OT.
  specialize (OT ltac:(apply PeanoNat.Nat.ltb_lt; reflexivity)
    ltac:(intros k [<-|[<-|[]]]; lia) eq_refl).
  specialize (OT ltac:(intros i; apply (mock_ok CheckVar (var_nbs nb) 2); [reflexivity|lia|reflexivity|];
      repeat constructor; unfold limbs_ok, two64; lia)).
  specialize (OT order1 m0 m1 L c0 c1 T0 T1 K st0 st1 s0 s1 HP HS HF HK HB NE1 SY N0 N1). cbv zeta in OT.
  destruct OT as (a & b & CV & (good & pos & EC & La & Lb & Fb & HSm & HJ & HD & HG & SY' & EX & EP & EU) & HS' & U0 & U1).
  destruct a as [[[nv a] st0'] s0']. destruct b as [[b st1'] s1']. cbn [fst snd] in *.
  unfold var_op0_d, var_op1_d. cbv zeta. set (l := order1 _ m1) in *.
  eapply rel_deliver'.
  { apply delivers_announce; [apply fair_forall; [exact HF|apply HK]|]. unfold l. now rewrite fair_length. }
  assert (RU : reused m0 (map fst l) = false) by (apply reused_order; [exact HF|apply HK]).
  set (found := map (fun pk => find pk m0) (map fst l)) in *.
  rewrite (map_as_map2 _ found (fun f (_ : nat) => match f with Some v => (var_row v, snd v)
    | None => ([0; 0], mock_packet (NumMulGates CheckVar)) end) 0).
  2:{ intros [[[v v2] pkt]|] k; reflexivity. }
  rewrite (map_ext (fun e : list Z * (Z * Z * ClientPacket) => let '(v, v2, pkt) := snd e in ([v; v2], pkt))
     (fun e => (var_row (snd e), snd (snd e)))).
  2:{ intros [k [[v v2] pkt]]. reflexivity. }
  eapply rel_bind.
  { exists (nv, a, st0', s0'), (b, st1', s1'). split; [exact CV|].
    exact (conj eq_refl eq_refl : (fun x y => x = (nv, a, st0', s0') /\ y = (b, st1', s1')) _ _). }
  intros ? ? [-> ->]. cbn [fst snd]. rewrite RU.
  assert (Q : forall j, (j < 2)%nat -> limbs_ok (nth j b 0)).
  { intros j Hj. apply field_limbs. rewrite Forall_forall in Fb. apply Fb, nth_In. rewrite Lb. exact Hj. }
  eapply rel_deliver'; [apply delivers_fmpz, Q; lia|].
  eapply rel_deliver'; [apply delivers_fmpz, Q; lia|].
  set (F := fun j => zsum (map (fun pk => nth j (at_both (fun a b => map2 Z.lxor (var_row a) (var_row b)) [] m0 m1 pk) 0) (filter good L))).
  assert (FS : forall j, (j < 2)%nat -> (nth j b 0 + nth j a 0) mod p = F j mod p).
  { intros j Hj. change p with P. exact (HSm j Hj). }
  assert (TN : total (var_nbs nb) = (3 * nb)%nat) by (unfold var_nbs, total; cbn [fold_right]; lia).
  rewrite LL1, TN in U0, U1. rewrite EC, !FS by lia.
  assert (E : forall r0 : result (nat * Z * Z) * snip_state * store,
    r0 = (outcome (length (filter good L)) total0 (length (filter good L), F 0%nat mod p, F 1%nat mod p), st0', s0') ->
    rel (Ret r0) (Ret (@RET_NO_ANS (nat * Z * Z), st1', s1'))
    (fun a b => exists ok pos,
       validated CheckVar (randomX st0) K (seed_pos st0) (var_fits nb) var_opened snd subs0 subs1 L ok pos /\
       fst (fst b) = RET_NO_ANS /\
       fst (fst a) = outcome (length (filter ok L)) total0
         (length (filter ok L),
          field_sum (var_fits nb) var_opened subs0 subs1 (filter ok L) 0 mod p,
          field_sum (var_fits nb) var_opened subs0 subs1 (filter ok L) 1 mod p) /\
       synced (snd (fst a)) (snd (fst b)) /\ randomX (snd (fst a)) = randomX st0 /\
       stores_paired (snd a) (snd b) /\
       used (length L1 * (3 * nb)) s0 (snd a) /\ used (length L1 * (3 * nb)) s1 (snd b))).
  { intros r0 ->. apply rel_ret. cbn [fst snd]. exists good, pos. split; [|split; [reflexivity|split; [|auto 6]]].
    - unfold validated. split; [|split; auto].
      intros pk v v' E0 E1. specialize (HJ pk v v').
      unfold m0, m1 in HJ. rewrite !table_find in HJ. specialize (HJ E0 E1).
      destruct v as [[v v2] p0], v' as [[v' v2'] p1]. exact HJ.
    - rewrite !(var_field_sum nb subs0 subs1). reflexivity. }
  unfold too_few. unfold outcome in E.
  destruct (2 * length (filter good L) <? total0)%nat; apply E; reflexivity.
Qed.

Lemma linreg_total nb degree : (1 <= degree)%nat -> 
  total (linreg_bits nb degree) = (nb * (degree + 2 * (num_quad degree + num_x degree)))%nat.
Proof.
  intros Hd. rewrite linreg_bits_eq by auto.
  assert (TA : forall a b, total (a ++ b) = (total a + total b)%nat).
  { induction a as [|y a IHa]; intros b; cbn [app total fold_right]; auto.
    fold (total (a ++ b)) (total a). rewrite IHa. lia. }
  assert (TR : forall v n, total (repeat v n) = (n * v)%nat).
  { intros v. induction n as [|n IH]; cbn [repeat total fold_right]; auto. fold (total (repeat v n)). rewrite IH. lia. }
  rewrite TA. change (total (?a :: ?l)) with (a + total l)%nat. cbn [total fold_right].
  fold (total (repeat (2 * nb)%nat (num_quad degree) ++ repeat (2 * nb)%nat (num_x degree))).
  rewrite TA, !TR. unfold num_x. nia.
Qed.

Lemma linreg_op_dabit_result c0 c1 nb degree order0 order1 total0 total1 stream0 stream1 subs0 subs1 d0 d1 junk0 junk1
  garbage0 garbage1 T0 T1 K st0 st1 s0 s1 L L1 :
  params_ok c0 c1 -> stores_paired s0 s1 ->
  (nb <= 15)%nat -> (1 <= degree)%nat -> (num_quad degree + num_x degree < 2 ^ 18)%nat -> fair order1 ->
  arrives_cut linreg_wire (linreg_size degree) total0 stream0 subs0 ->
  arrives_cut linreg_wire (linreg_size degree) total1 stream1 subs1 ->
  Forall (fun s => linreg_content degree (snd s)) subs0 -> Forall (fun s => linreg_content degree (snd s)) subs1 ->
  length d0 = 8%nat -> length d1 = 8%nat -> length junk0 = 32%nat -> length junk1 = 32%nat ->
  (forall i, let '(x, x2, xy) := garbage0 i in linreg_shape degree (x, 0, x2, xy)) ->
  (exists pk, first_sub (linreg_fits nb) subs1 pk <> None) ->
  accepted (linreg_fits nb) subs0 subs1 L -> accepted (linreg_fits nb) subs1 subs1 L1 -> synced st0 st1 ->
  both (linreg_op_d c0 order0 nb total0 (degree_wire degree ++ stream0) d0 junk0 garbage0 T0 K st0 s0)
       (linreg_op_d c1 order1 nb total1 (degree_wire degree ++ stream1) d1 junk1 garbage1 T1 K st1 s1)
    (fun a b => exists ok pos,
       validated (CheckLinReg degree) (randomX st0) K (seed_pos st0) (linreg_fits nb) linreg_opened snd subs0 subs1 L ok pos /\
       fst (fst b) = RET_NO_ANS /\
       fst (fst a) = outcome (length (filter ok L)) total0
         (moments degree (length (filter ok L))
            (fun j => field_sum (linreg_fits nb) linreg_opened subs0 subs1 (filter ok L) j mod p)) /\
       synced (snd (fst a)) (snd (fst b)) /\ randomX (snd (fst a)) = randomX st0 /\
       stores_paired (snd a) (snd b) /\
       (let k := (length L1 * (nb * (degree + 2 * (num_quad degree + num_x degree))))%nat in
        used k s0 (snd a) /\ used k s1 (snd b))).
Proof.
  intros HP HS Hn Hd HQ HF (rest0 & -> & HT0 & HP0 & HL0) (rest1 & -> & HT1 & HP1 & HL1) C0 C1 LD0 LD1 J0 J1 HG NE HA HA1 SY.
  destruct (linreg_gates degree Hd) as [GM GI].
  assert (HM : (NumMulGates (CheckLinReg degree) < 2 ^ 18)%nat) by (rewrite GM; exact HQ).
  destruct (npo2_nat _ HM) as (kk & _ & _ & HN).
  pose proof (degree_small degree HQ) as D32.
  destruct (degree_read degree (wire linreg_wire subs0 ++ rest0) d0 D32 LD0) as (e0 & R0 & E0).
  destruct (degree_read degree (wire linreg_wire subs1 ++ rest1) d1 D32 LD1) as (e1 & R1 & E1).
  apply rel_both. unfold linreg_op_d.
  destruct (Nat.leb_spec 64 nb) as [B|B]; [lia|]. rewrite R0, R1, E0, E1. clear R0 R1 E0 E1.
  destruct (Nat.eqb_spec degree 0) as [Z0|_]; [lia|].
  rewrite !(linreg_receive nb degree _ _ _ _ _ (ltac:(lia) : (nb < 32)%nat) HN) by auto.
  destruct HP as (P0 & P1 & PR). rewrite P0, P1. pose proof (conj P0 (conj P1 PR) : params_ok c0 c1) as HP. clear P0 P1 PR.
  set (m0 := table_of (linreg_fits nb) subs0). set (m1 := table_of (linreg_fits nb) subs1).
  pose proof (table_keys (linreg_fits nb) subs1 HP1) as HK. fold m1 in HK.
  pose proof (accepted_table _ _ _ HA1 HK) as LL1. fold m1 in LL1.
  pose proof (both_in_accepted _ _ _ _ HA) as HB. fold m0 m1 in HB.
  pose proof (table_nonempty _ _ NE) as NE1. fold m1 in NE1.
  assert (NW : forall v, linreg_content degree v -> linreg_fits nb v = true ->
     narrow (CheckLinReg degree) (linreg_bits nb degree) linreg_row' snd v) by (intros; now apply linreg_narrow).
  assert (N0 : Forall (fun e => narrow (CheckLinReg degree) (linreg_bits nb degree) linreg_row' snd (snd e)) m0)
    by exact (table_narrow _ (linreg_content degree) _ _ NW C0).
  assert (N1 : Forall (fun e => narrow (CheckLinReg degree) (linreg_bits nb degree) linreg_row' snd (snd e)) m1)
    by exact (table_narrow _ (linreg_content degree) _ _ NW C1).
  assert (LM : Z.of_nat (length m1) < two32).
  { pose proof (table_length (linreg_fits nb) subs1) as Q. fold m1 in Q. lia. }
  set (dflt := fun i => let '(x, x2, xy) := garbage0 i in linreg_row (x, 0, x2, xy)).
  set (dpkt := mock_packet (NumMulGates (CheckLinReg degree))).
  assert (HW : forall k, In k (linreg_bits nb degree) -> (k <= 31)%nat).
  { unfold linreg_bits. intros k Hk. apply in_map_iff in Hk as (i & <- & _). destruct (degree <=? i)%nat; lia. }
  assert (HI : length (linreg_bits nb degree) = NumInputs (CheckLinReg degree)) by now rewrite linreg_bits_length.
  assert (HDf : forall i, row_ok (CheckLinReg degree) (linreg_bits nb degree) (dflt i, dpkt)).
  { intros i. specialize (HG i). unfold dflt. destruct (garbage0 i) as [[x x2] xy]. unfold dpkt.
    eapply mock_ok; [exact HN|lia| |].
    + destruct HG as (L1' & L2 & L3 & _). rewrite linreg_bits_length. unfold linreg_row. rewrite app_length.
      cbn [length]. rewrite app_length. unfold num_fields. lia.
    + destruct HG as (_ & _ & _ & W1 & W2 & W3 & W4). unfold linreg_row.
      apply Forall_app. split; [exact W1|]. constructor; [exact W2|]. apply Forall_app. split; assumption. }
  pose proof (op_tables_d (CheckLinReg degree) (linreg_bits nb degree) linreg_row' snd dflt dpkt HM HW HI HDf
    order1 m0 m1 L c0 c1 T0 T1 K st0 st1 s0 s1 HP HS HF HK HB NE1 SY N0 N1) as OT. cbv zeta in OT.
  destruct OT as (a & b & CV & (good & pos & EC & La & Lb & Fb & HSm & HJ & HD & HGE & SY' & EX & EP & EU) & HS' & U0 & U1).
  destruct a as [[[nv a] st0'] s0']. destruct b as [[b st1'] s1']. cbn [fst snd] in *. rewrite linreg_bits_length in La, Lb, HSm.
  unfold linreg_op0_d, linreg_op1_d. cbv zeta. set (l := order1 _ m1) in *.
  eapply rel_deliver'.
  { apply delivers_announce; [apply fair_forall; [exact HF|apply HK]|]. unfold l. now rewrite fair_length. }
  assert (RU : reused m0 (map fst l) = false) by (apply reused_order; [exact HF|apply HK]). rewrite RU.
  set (found := map (fun pk => find pk m0) (map fst l)) in *.
  match goal with |- rel (bind (snip_sums0_d _ _ _ _ _ _ ?l0 _ _) _) _ _ =>
    replace l0 with (map2 (fun f i => match f with Some v => (linreg_row' v, snd v) | None => (dflt i, dpkt) end)
      found (seq 0 (length found))) end.
  2:{ generalize (seq 0 (length found)) as s. generalize found as fs.
      induction fs as [|f fs IHf]; intros [|i s]; cbn [map2]; auto. f_equal; [|apply IHf].
      destruct f as [[v pkt]|]; [reflexivity|]. unfold dflt. now destruct (garbage0 i) as [[? ?] ?]. }
  change (map (fun e : list Z * (linreg_vals * ClientPacket) => (linreg_row (fst (snd e)), snd (snd e))) l)
    with (map (fun e : list Z * (linreg_vals * ClientPacket) => (linreg_row' (snd e), snd (snd e))) l).
  eapply rel_bind.
  { exists (nv, a, st0', s0'), (b, st1', s1'). split; [exact CV|].
    exact (conj eq_refl eq_refl : (fun x y => x = (nv, a, st0', s0') /\ y = (b, st1', s1')) _ _). }
  intros ? ? [-> ->]. cbn [fst snd].
  eapply rel_deliver'.
  { rewrite <- Lb. apply delivers_batch_each. apply Forall_forall. intros z Hz. apply field_limbs.
    rewrite Forall_forall in Fb. auto. }
  set (F := fun j => zsum (map (fun pk => nth j (at_both (fun a b => map2 Z.lxor (linreg_row' a) (linreg_row' b)) [] m0 m1 pk) 0) (filter good L)) mod p).
  assert (FS : map2 (fun b a => (b + a) mod p) b a = map F (seq 0 (num_fields degree))).
  { rewrite (nth_map2_seq _ b a (num_fields degree)) by assumption.
    apply map_ext_in. intros j Hj. apply in_seq in Hj. change p with P. apply HSm. lia. }
  rewrite LL1, (linreg_total nb degree Hd) in U0, U1.
  rewrite EC, FS.
  assert (E : forall r0 : result (list Z * list Z) * snip_state * store,
    r0 = (outcome (length (filter good L)) total0 (moments degree (length (filter good L)) F), st0', s0') ->
    rel (Ret r0) (Ret (@RET_NO_ANS (list Z * list Z), st1', s1'))
    (fun a b => exists ok pos,
       validated (CheckLinReg degree) (randomX st0) K (seed_pos st0) (linreg_fits nb) linreg_opened snd subs0 subs1 L ok pos /\
       fst (fst b) = RET_NO_ANS /\
       fst (fst a) = outcome (length (filter ok L)) total0
         (moments degree (length (filter ok L))
            (fun j => field_sum (linreg_fits nb) linreg_opened subs0 subs1 (filter ok L) j mod p)) /\
       synced (snd (fst a)) (snd (fst b)) /\ randomX (snd (fst a)) = randomX st0 /\
       stores_paired (snd a) (snd b) /\
       (let k := (length L1 * (nb * (degree + 2 * (num_quad degree + num_x degree))))%nat in
        used k s0 (snd a) /\ used k s1 (snd b)))).
  { intros r0 ->. apply rel_ret. cbn [fst snd]. exists good, pos. split; [|split; [reflexivity|split; [|cbv zeta; auto 7]]].
    - unfold validated. split; [|split; auto].
      intros pk v v' E0 E1. specialize (HJ pk v v').
      unfold m0, m1 in HJ. rewrite !table_find in HJ. exact (HJ E0 E1).
    - apply f_equal. apply moments_ext. intros j. rewrite linreg_field_sum. reflexivity. }
  rewrite <- (moments_layout degree _ F _ Hd eq_refl) in E. unfold too_few. unfold outcome in E.
  destruct (2 * length (filter good L) <? total0)%nat; apply E; reflexivity.
Qed.
