(** * VAR and LINREG for arbitrary submissions *)
From Coq Require Import ZArith List Bool Lia Arith Permutation.
From Verif Require Import Words WordsFacts Constants Cong Share Proc ProcFacts Net NetFacts SpecNet SpecShare RelFacts
  OT OTFacts Poly SpecPoly Circuit SpecCircuit CircuitFacts Snip SpecSnip SnipFacts SnipBatch ServerOps SpecServer TableFacts ServerFacts
  SnipSums SpecStat StatReads.
Import ListNotations.
Open Scope Z_scope.
Local Notation P := Int_Modulus.
Opaque Int_Modulus.

Lemma nth_map_in {A B} (f : A -> B) l i d d0 : (i < length l)%nat -> nth i (map f l) d = f (nth i l d0).
Proof.
  intros H. rewrite nth_indep with (d' := f d0) by now rewrite map_length. apply map_nth.
Qed.

(** ** Position in the list of announced identities *)
Fixpoint index_of (pk : list Z) (ks : list (list Z)) : nat :=
  match ks with [] => O | k :: ks' => if key_eqb k pk then O else S (index_of pk ks') end.

Lemma index_nth ks : NoDup ks -> forall i pk, nth_error ks i = Some pk -> index_of pk ks = i.
Proof.
  induction 1 as [|k ks Hk N IH]; intros [|i] pk E; cbn in *; try discriminate.
  - injection E as ->. now rewrite key_eqb_refl.
  - destruct (key_eqb_spec k pk) as [->|].
    + exfalso. apply Hk. eapply nth_error_In; eauto.
    + f_equal. auto.
Qed.
Lemma index_in ks pk : In pk ks -> nth_error ks (index_of pk ks) = Some pk.
Proof.
  induction ks as [|k ks IH]; cbn; [easy|]. intros H. destruct (key_eqb_spec k pk) as [->|]; auto.
  cbn. apply IH. destruct H; [contradiction|auto].
Qed.

Definition verdict_of (ks : list (list Z)) (vs : list bool) (pk : list Z) : bool := nth (index_of pk ks) vs false.

Lemma map_verdict_of ks : NoDup ks -> forall vs, length vs = length ks -> map (verdict_of ks vs) ks = vs.
Proof.
  intros N vs L. apply nth_ext with (d := false) (d' := false); [now rewrite map_length|].
  rewrite map_length. intros i Hi. destruct (nth_error ks i) as [pk|] eqn:E; [|apply nth_error_None in E; lia].
  erewrite nth_error_nth by (apply map_nth_error; exact E). unfold verdict_of. now rewrite (index_nth ks N i pk E).
Qed.

(** ** From the list of announced identities to the accepted ones *)
Section Tables.
  Context {V : Type}.
  Variables (order : iteration) (m0 m1 : table V) (L : list (list Z)).
  Hypothesis HF : fair order.
  Hypothesis HN : NoDup (map fst m1).
  Hypothesis HL : both_in m0 m1 L.
  Let l := order V m1.
  Let ks := map fst l.

  Lemma ks_nodup : NoDup ks.
  Proof. eapply Permutation_NoDup; [|exact HN]. apply Permutation_map. symmetry. apply HF. Qed.
  Lemma ks_perm : Permutation (filter (known m0) ks) L.
  Proof. apply (perm_known m0 m1 l L); auto. apply HF. Qed.
  Lemma l_find e : In e l -> find (fst e) m1 = Some (snd e).
  Proof. intros H. destruct e. apply in_find; auto. eapply Permutation_in; [apply HF|exact H]. Qed.

  Lemma count_ok vs : length vs = length l ->
    count (map2 andb (map is_some (map (fun pk => find pk m0) ks)) vs) = length (filter (verdict_of ks vs) L).
  Proof.
    intros LV. rewrite <- (map_verdict_of ks ks_nodup vs) at 1 by (unfold ks; now rewrite map_length).
    generalize (verdict_of ks vs) as ok. intros ok.
    transitivity (length (filter ok (filter (known m0) ks))).
    - clear. unfold count, known. induction ks as [|k r IH]; cbn [map map2 filter length]; auto.
      destruct (is_some (find k m0)); cbn [andb filter length]; [|exact IH].
      destruct (ok k); cbn [length]; now rewrite IH.
    - apply Permutation_length. assert (H := ks_perm). clear -H.
      induction H; cbn; auto; repeat match goal with |- context [ok ?x] => destruct (ok x) end; auto; try constructor; eauto using Permutation_trans.
  Qed.

  (** [row]: the circuit inputs of an entry; [dflt i]: what server 0 uses for an
      identity it does not know. *)
  Variables (nbs : list nat) (row : V -> list Z) (dflt : nat -> list Z).

  Lemma col_ok j vs : length vs = length l ->
    col_sum j (map2 (opened_row nbs)
                 (map2 (fun f i => match f with Some v => row v | None => dflt i end)
                       (map (fun pk => find pk m0) ks) (seq 0 (length ks)))
                 (map (fun e => row (snd e)) l))
              (map2 andb (map is_some (map (fun pk => find pk m0) ks)) vs)
    = zsum (map (fun pk => nth j (at_both (fun a b => opened_row nbs (row a) (row b)) [] m0 m1 pk) 0)
                (filter (verdict_of ks vs) L)).
  Proof.
    intros LV. rewrite <- (map_verdict_of ks ks_nodup vs) at 1 by (unfold ks; now rewrite map_length).
    set (ok := verdict_of ks vs).
    set (F := fun pk => if ok pk then nth j (at_both (fun a b => opened_row nbs (row a) (row b)) [] m0 m1 pk) 0 else 0).
    transitivity (zsum (map F ks)).
    - unfold col_sum. assert (FI : forall e, In e l -> find (fst e) m1 = Some (snd e)) by exact l_find.
      unfold ks. clearbody ok. subst F. clear -FI.
      generalize 0%nat as i0. revert FI. clearbody l. induction l as [|e r IH]; intros FI i0; [reflexivity|].
      unfold zsum. cbn [map map2 length seq fold_right]. f_equal.
      2:{ apply IH. intros x Hx. apply FI. now right. }
      unfold at_both. rewrite (FI e (or_introl eq_refl)).
      destruct (find (fst e) m0); cbn [is_some andb]; destruct (ok (fst e)); auto. now destruct j.
    - rewrite (zsum_filter (known m0) F).
      2:{ intros x Hx. unfold F, at_both, known in *. destruct (find x m0); [discriminate|]. destruct (ok x); auto. now destruct j. }
      transitivity (zsum (map F L)); [apply zsum_permutation, Permutation_map, ks_perm|].
      rewrite (zsum_filter ok F) by (intros x Hx; unfold F; now rewrite Hx).
      f_equal. apply map_ext_in. intros x Hx. apply filter_In in Hx as [_ Hx]. unfold F. now rewrite Hx.
  Qed.
End Tables.

(** ** Both operations *)
Section Op.
  Context {V : Type}.
  Variables (c : circuit) (nbs : list nat) (row : V -> list Z) (packet : V -> ClientPacket)
    (dflt : nat -> list Z) (dpkt : ClientPacket).
  Hypothesis HM : (NumMulGates c < 2 ^ 18)%nat.
  Hypothesis HW : Forall (width_ok P) nbs.
  Hypothesis HI : length nbs = NumInputs c.
  Let entry v := (row v, packet v).
  Hypothesis HD : forall i, row_ok c nbs (dflt i, dpkt).
  (** values admitted have the right widths *)
  Definition narrow (v : V) : Prop :=
    row_ok c nbs (entry v) /\ Forall2 (fun nb x => 0 <= x < 2 ^ Z.of_nat nb) nbs (row v).

  Lemma opened_narrow v v' : narrow v -> narrow v' ->
    opened_row nbs (row v) (row v') = map (fun x => x mod P) (map2 Z.lxor (row v) (row v')).
  Proof.
    intros [_ H] [_ H']. unfold opened_row. revert H'. generalize (row v') as r'.
    clear HM HW HI HD.
    induction H as [|nb x nbs' r Hx H IH]; intros r' H'; inversion H'; subst; cbn [map3 map2 map]; auto.
    apply (f_equal2 (@cons Z)); [|apply IH; assumption]. unfold col_spec. change (ot_modulus P) with P.
    apply (f_equal (fun z => z mod P)). apply Z.mod_small. apply lxor_lt; assumption.
  Qed.

  Lemma judged_mod r K pos vals p0 p1 b : in_field P r -> length vals = NumInputs c ->
    length (MulShares p0) = NumMulGates c -> length (MulShares p1) = NumMulGates c ->
    NextPowerOfTwo (Z.of_nat (NumMulGates c)) = Some (Z.of_nat (length (h_points p0))) ->
    NextPowerOfTwo (Z.of_nat (NumMulGates c)) = Some (Z.of_nat (length (h_points p1))) ->
    verdict c r K pos (p0, map (fun x => x mod P) vals) (p1, repeat 0 (length nbs)) b ->
    judged c r K pos vals p0 p1 b.
  Proof.
    intros Hr LV A0 A1 B0 B1 H. unfold judged.
    refine (verdict_reshare c p0 p1 vals _ _ _ _ r K pos b HM _ _ Hr _ _ H).
    - repeat split; cbn [fst snd]; auto. now rewrite map_length.
    - repeat split; cbn [fst snd]; auto. rewrite repeat_length. auto.
    - split; [now rewrite map_length|]. split; [rewrite repeat_length; congruence|].
      intros i Hi. rewrite nth_repeat, Z.add_0_r.
      rewrite (nth_map_in _ vals i 0 0) by auto. now rewrite Zmod_mod.
    - split; auto. split; [now rewrite map_length|]. intros i Hi.
      rewrite (nth_map_in _ vals i 0 0) by auto. now rewrite Z.add_0_r.
  Qed.

  (** From what is known of the checks of all records to what is known of each identity. *)
  Lemma op_post order m0 m1 L K st0 (a : nat * list Z * snip_state) (b : list Z * snip_state) :
    fair order -> keys_ok m1 -> both_in m0 m1 L -> m1 <> [] -> in_field P (randomX st0) ->
    Forall (fun e => narrow (snd e)) m0 -> Forall (fun e => narrow (snd e)) m1 ->
    let l := order V m1 in
    let found := map (fun pk => find pk m0) (map fst l) in
    let w := S (length (result_zero c)) in
    let l0 := map2 (fun f i => match f with Some v => entry v | None => (dflt i, dpkt) end) found (seq 0 (length found)) in
    let l1 := map (fun e => entry (snd e)) l in
    (exists vs, length vs = length l1 /\
      (forall i e0 e1, nth_error l0 i = Some e0 -> nth_error l1 i = Some e1 ->
         verdict c (randomX st0) K (seed_pos st0 + i * w)
           (snd e0, opened_row nbs (fst e0) (fst e1)) (snd e1, repeat 0 (length nbs)) (nth i vs false)) /\
      fst (fst a) = count (map2 andb (map is_some found) vs) /\
      length (snd (fst a)) = length nbs /\ length (fst b) = length nbs /\
      Forall (in_field P) (fst b) /\
      (forall j, (j < length nbs)%nat ->
         (nth j (fst b) 0 + nth j (snd (fst a)) 0) mod P
         = col_sum j (map2 (opened_row nbs) (map fst l0) (map fst l1)) (map2 andb (map is_some found) vs) mod P) /\
      synced (snd a) (snd b) /\ randomX (snd a) = randomX st0 /\
      seed_pos (snd a) = (seed_pos st0 + length l1 * w)%nat /\
      randx_uses (snd a) = u64 (randx_uses st0 + Z.of_nat (length l1))) ->
    (exists good pos,
         fst (fst a) = length (filter good L) /\
         length (snd (fst a)) = length nbs /\ length (fst b) = length nbs /\ Forall (in_field P) (fst b) /\
         (forall j, (j < length nbs)%nat ->
            (nth j (fst b) 0 + nth j (snd (fst a)) 0) mod P
            = zsum (map (fun pk => nth j (at_both (fun a b => map2 Z.lxor (row a) (row b)) [] m0 m1 pk) 0) (filter good L)) mod P) /\
         (forall pk v v', find pk m0 = Some v -> find pk m1 = Some v' ->
            judged c (randomX st0) K (pos pk) (map2 Z.lxor (row v) (row v')) (packet v) (packet v') (good pk)) /\
         (forall pk pk', In pk L -> In pk' L -> pk <> pk' -> (pos pk + w <= pos pk' \/ pos pk' + w <= pos pk)%nat) /\
         (forall pk, In pk L -> (seed_pos st0 <= pos pk)%nat) /\
         synced (snd a) (snd b) /\ randomX (snd a) = randomX st0 /\
         seed_pos (snd a) = (seed_pos st0 + length m1 * w)%nat /\
         randx_uses (snd a) = u64 (randx_uses st0 + Z.of_nat (length m1)) /\
         (forall pk, pos pk = (seed_pos st0 + index_of pk (map fst (order V m1)) * w)%nat)).
  Proof.
    intros HF [HN HK] HL NE Hr N0 N1 l found w l0 l1.
    assert (NE' : length m1 <> 0%nat) by (clear -NE; destruct m1; [contradiction|discriminate]).
    assert (LL : length l = length m1) by (apply fair_length; auto).
    assert (FL : Forall (fun e => narrow (snd e)) l) by (apply fair_forall; auto).
    assert (LFd : length found = length l) by (unfold found; now rewrite !map_length).
    unfold l0, l1. clear l0 l1.
    intros (vs & LV & HV & HC & La & Lb & Fb & HS & SY' & EX & EP & EU).
    rewrite map_length in LV. rewrite map_length in EP, EU. rewrite LL in EP, EU.
    set (ks := map fst l) in *. set (good := verdict_of ks vs). set (pos := fun pk => (seed_pos st0 + index_of pk ks * w)%nat).
    assert (NK : NoDup ks) by (apply ks_nodup; auto).
    assert (IK : forall pk, In pk L -> In pk ks).
    { intros pk Hp. eapply Permutation_in in Hp; [|symmetry; apply (ks_perm order m0 m1 L HF HN HL)].
      apply filter_In in Hp. apply Hp. }
    assert (JG : forall pk v v', find pk m0 = Some v -> find pk m1 = Some v' ->
      judged c (randomX st0) K (pos pk) (map2 Z.lxor (row v) (row v')) (packet v) (packet v') (good pk)).
    { intros pk v v' E0 E1. pose proof (find_in _ _ _ E1) as I1. rewrite Forall_forall in N0, N1.
      pose proof (N0 _ (find_in _ _ _ E0)) as A0. pose proof (N1 _ I1) as A1. cbn [snd] in A0, A1.
      assert (IL : In (pk, v') l) by (eapply Permutation_in; [symmetry; apply HF|exact I1]).
      assert (I : In pk ks) by (apply (in_map fst) in IL; exact IL).
      pose proof (index_in ks pk I) as EI.
      assert (EL : nth_error l (index_of pk ks) = Some (pk, v')).
      { unfold ks in EI at 1. rewrite nth_error_map in EI. destruct (nth_error l (index_of pk ks)) as [[k v'']|] eqn:E; [|discriminate].
        cbn in EI. injection EI as ->. apply nth_error_In in E. apply (l_find order m1 HF HN) in E. cbn in E. congruence. }
      pose proof A0 as [(a1 & a2 & a3 & a4) _]. pose proof A1 as [(b1 & b2 & b3 & b4) _]. unfold entry in *. cbn [fst snd] in *.
      apply judged_mod; auto.
      { rewrite map2_length. rewrite a1, b1, Nat.min_id. exact HI. }
      rewrite <- opened_narrow by auto.
      refine (HV (index_of pk ks) (row v, packet v) (row v', packet v') _ _).
      - erewrite nth_error_map2 with (x := Some v) (y := index_of pk ks); [reflexivity| |].
        + unfold found. rewrite (map_nth_error _ _ _ EI). now rewrite E0.
        + rewrite nth_error_nth' with (d := 0%nat) by (rewrite seq_length, LFd; apply nth_error_Some; congruence).
          rewrite seq_nth; auto. rewrite LFd. apply nth_error_Some. congruence.
      - rewrite (map_nth_error _ _ _ EL). reflexivity. }
    exists good, pos. split.
    { rewrite HC. apply (count_ok order m0 m1 L HF HN HL vs LV). }
    split; auto. split; auto. split; auto. split.
    { intros j Hj. rewrite (HS j Hj).
      assert (E0 : map fst (map2 (fun f i => match f with Some v => entry v | None => (dflt i, dpkt) end) found (seq 0 (length found)))
        = map2 (fun f i => match f with Some v => row v | None => dflt i end) found (seq 0 (length ks))).
      { unfold ks. rewrite map_length, <- LFd. clear. generalize (seq 0 (length found)). induction found as [|f r IH]; intros [|i s]; cbn; auto.
        rewrite IH. now destruct f. }
      rewrite E0, map_map.
      etransitivity; [apply (f_equal (fun z => z mod P)); exact (col_ok order m0 m1 L HF HN HL nbs row dflt j vs LV)|].
      assert (forall S, incl S L ->
        zsum (map (fun pk => nth j (at_both (fun a b => opened_row nbs (row a) (row b)) [] m0 m1 pk) 0) S) mod P
        = zsum (map (fun pk => nth j (at_both (fun a b => map2 Z.lxor (row a) (row b)) [] m0 m1 pk) 0) S) mod P) as HS'.
      { intros S _. clear -N0 N1 Hj HI. rewrite Forall_forall in N0, N1.
        assert (forall pk, cong P (nth j (at_both (fun a b => opened_row nbs (row a) (row b)) [] m0 m1 pk) 0)
           (nth j (at_both (fun a b => map2 Z.lxor (row a) (row b)) [] m0 m1 pk) 0)) as HC.
        { intros pk. unfold at_both. destruct (find pk m0) eqn:E0; [|reflexivity]. destruct (find pk m1) eqn:E1; [|reflexivity].
          pose proof (N0 _ (find_in _ _ _ E0)) as A0. pose proof (N1 _ (find_in _ _ _ E1)) as A1. cbn [snd] in A0, A1.
          rewrite opened_narrow by auto. destruct A0 as [(a1 & _) _], A1 as [(b1 & _) _]. unfold entry in *. cbn [fst] in *.
          rewrite (nth_map_in _ _ j 0 0) by (rewrite map2_length; lia). demod. reflexivity. }
        apply cong_iff. induction S as [|pk S IH]; [reflexivity|]. unfold zsum in *. cbn [map fold_right]. now rewrite IH, HC. }
      apply (HS' (filter good L)). intros x Hx. apply filter_In in Hx. apply Hx. }
    split; auto. split.
    { intros pk pk' H H' NP. unfold pos. apply IK in H, H'. apply index_in in H, H'.
      assert (index_of pk ks <> index_of pk' ks) by (intros E; rewrite E in H; congruence).
      clear -H0. nia. }
    split; [intros pk _; unfold pos; lia|]. repeat (split; [assumption|]). intros pk. reflexivity.
  Qed.

  Lemma op_tables order m0 m1 L K rnd0 rnd1 st0 st1 :
    fair order -> keys_ok m1 -> both_in m0 m1 L -> m1 <> [] -> synced st0 st1 ->
    Forall (fun e => narrow (snd e)) m0 -> Forall (fun e => narrow (snd e)) m1 ->
    let l := order V m1 in
    let found := map (fun pk => find pk m0) (map fst l) in
    let w := S (length (result_zero c)) in
    rel (snip_sums0 K rnd0 c nbs (map is_some found)
           (map2 (fun f i => match f with Some v => entry v | None => (dflt i, dpkt) end) found (seq 0 (length found))) st0)
        (snip_sums1 K rnd1 c nbs (map (fun e => entry (snd e)) l) st1)
      (fun a b => exists good pos,
         fst (fst a) = length (filter good L) /\
         length (snd (fst a)) = length nbs /\ length (fst b) = length nbs /\ Forall (in_field P) (fst b) /\
         (forall j, (j < length nbs)%nat ->
            (nth j (fst b) 0 + nth j (snd (fst a)) 0) mod P
            = zsum (map (fun pk => nth j (at_both (fun a b => map2 Z.lxor (row a) (row b)) [] m0 m1 pk) 0) (filter good L)) mod P) /\
         (forall pk v v', find pk m0 = Some v -> find pk m1 = Some v' ->
            judged c (randomX st0) K (pos pk) (map2 Z.lxor (row v) (row v')) (packet v) (packet v') (good pk)) /\
         (forall pk pk', In pk L -> In pk' L -> pk <> pk' -> (pos pk + w <= pos pk' \/ pos pk' + w <= pos pk)%nat) /\
         (forall pk, In pk L -> (seed_pos st0 <= pos pk)%nat) /\
         synced (snd a) (snd b) /\ randomX (snd a) = randomX st0 /\
         seed_pos (snd a) = (seed_pos st0 + length m1 * w)%nat /\
         randx_uses (snd a) = u64 (randx_uses st0 + Z.of_nat (length m1)) /\
         (forall pk, pos pk = (seed_pos st0 + index_of pk (map fst (order V m1)) * w)%nat)).
  Proof.
    intros HF [HN HK] HL NE SY N0 N1 l found w.
    assert (NE' : length m1 <> 0%nat) by (clear -NE; destruct m1; [contradiction|discriminate]).
    assert (LL : length l = length m1) by (apply fair_length; auto).
    assert (FL : Forall (fun e => narrow (snd e)) l) by (apply fair_forall; auto).
    assert (LFd : length found = length l) by (unfold found; now rewrite !map_length).
    eapply rel_imp.
    { apply (snip_sums_rel K rnd0 rnd1 c nbs); auto.
      - rewrite map2_length, seq_length, map_length, LFd. apply Nat.min_id.
      - rewrite !map_length. lia.
      - intros E. apply (f_equal (@length _)) in E. rewrite map_length in E. apply NE'. rewrite <- LL. exact E.
      - apply Forall_forall. intros e He. apply (In_nth _ _ (dflt 0%nat, dpkt)) in He as (i & Hi & <-).
        rewrite map2_length, seq_length, Nat.min_id in Hi.
        rewrite (WordsFacts.nth_map2 _ _ _ _ None 0%nat) by (rewrite ?seq_length; auto).
        destruct (nth i found None) as [v|] eqn:E; [|apply HD].
        unfold found in E. rewrite map_map in E.
        rewrite (nth_map_in _ l i None ([], v)) in E by lia. rewrite Forall_forall in N0. apply find_in in E. apply (N0 _ E).
      - apply Forall_map. eapply Forall_impl; [|exact FL]. intros e He. apply He. }
    cbv beta. intros a b H. apply (op_post order m0 m1 L K st0 a b); auto. { now split. } apply SY.
  Qed.
End Op.

(** ** VAR *)
Definition var_row (v : Z * Z * ClientPacket) : list Z := [fst (fst v); snd (fst v)].

Lemma width_small nb : (nb <= 48)%nat -> width_ok P nb.
Proof.
  intros H. split; [lia|]. intros _ _. transitivity (2 ^ 47); [apply Z.pow_le_mono_r; lia|].
  Transparent Int_Modulus. vm_compute. discriminate.
Qed.
Opaque Int_Modulus.

Lemma map_as_map2 {A B} (f : A -> B) l : forall (g : A -> nat -> B) i, (forall a k, g a k = f a) ->
  map f l = map2 g l (seq i (length l)).
Proof. induction l as [|a l IH]; intros g i H; cbn; auto. rewrite H. f_equal. now apply IH. Qed.

Lemma mock_ok c nbs N rw : NextPowerOfTwo (Z.of_nat (NumMulGates c)) = Some N -> 0 <= N ->
  length rw = length nbs -> Forall limbs_ok rw -> row_ok c nbs (rw, mock_packet (NumMulGates c)).
Proof.
  intros HN PN L W. unfold row_ok, mock_packet. rewrite HN. cbn [fst snd MulShares h_points].
  rewrite !repeat_length, Z2Nat.id by auto. auto.
Qed.

Lemma fits_range nb v : word v -> fits nb v = true -> 0 <= v < 2 ^ Z.of_nat nb.
Proof. unfold fits, word. intros H F%Z.ltb_lt. lia. Qed.

Definition var_nbs (nb : nat) : list nat := [nb; (2 * nb)%nat].
Lemma var_narrow nb v : var_content v -> var_fits nb v = true -> narrow CheckVar (var_nbs nb) var_row snd v.
Proof.
  destruct v as [[v v2] pkt]. intros (W & W2 & HP) F. cbn in F. apply andb_prop in F as [F F2].
  destruct HP as (HM & HN & _). split.
  - repeat split; cbn [fst snd]; auto. unfold var_row. cbn. repeat constructor; try apply W; try apply W2.
  - unfold var_row, var_nbs. repeat constructor; cbn [fst snd]; first [now apply fits_range|eapply fits_range; eauto].
Qed.

Lemma table_narrow {V} (ok : V -> bool) (content Q : V -> Prop) subs :
  (forall v, content v -> ok v = true -> Q v) -> Forall (fun s : list Z * V => content (snd s)) subs ->
  Forall (fun e => Q (snd e)) (table_of ok subs).
Proof.
  intros H F. apply table_forall. intros s Hs Ho. rewrite Forall_forall in F. apply H; auto.
Qed.

Lemma table_nonempty {V} (ok : V -> bool) (subs : list (list Z * V)) :
  (exists pk, first_sub ok subs pk <> None) -> table_of ok subs <> [].
Proof. intros (pk & H) E. apply H. rewrite <- table_find, E. reflexivity. Qed.

Lemma filter_length_le {A} (f : A -> bool) l : (length (filter f l) <= length l)%nat.
Proof. induction l as [|a l IH]; cbn; [lia|]. destruct (f a); cbn; lia. Qed.

(** The operation on the tables; only the threshold depends on the number expected. *)
Lemma var_tables nb order1 (m0 m1 : table (Z * Z * ClientPacket)) L K rnd0 rnd1 st0 st1 :
  (nb <= 24)%nat -> fair order1 -> keys_ok m1 -> both_in m0 m1 L -> m1 <> [] -> synced st0 st1 ->
  Forall (fun e => narrow CheckVar (var_nbs nb) var_row snd (snd e)) m0 ->
  Forall (fun e => narrow CheckVar (var_nbs nb) var_row snd (snd e)) m1 ->
  Z.of_nat (length m1) < two32 ->
  exists good pos st0' st1',
    (let F j := zsum (map (fun pk => nth j (at_both (fun a b => map2 Z.lxor (var_row a) (var_row b)) [] m0 m1 pk) 0) (filter good L)) in
     forall total0, rel (var_op0 K rnd0 nb m0 total0 st0) (var_op1 order1 K rnd1 nb m1 st1)
       (fun a b => a = (outcome (length (filter good L)) total0 (length (filter good L), F 0%nat mod p, F 1%nat mod p), st0') /\
                   b = (RET_NO_ANS, st1'))) /\
    (forall pk v v', find pk m0 = Some v -> find pk m1 = Some v' ->
       judged CheckVar (randomX st0) K (pos pk) (map2 Z.lxor (var_row v) (var_row v')) (snd v) (snd v') (good pk)) /\
    (let w := S (length (result_zero CheckVar)) in
     forall pk pk', In pk L -> In pk' L -> pk <> pk' -> (pos pk + w <= pos pk' \/ pos pk' + w <= pos pk)%nat) /\
    (forall pk, In pk L -> (seed_pos st0 <= pos pk)%nat) /\
    synced st0' st1' /\ randomX st0' = randomX st0 /\
    randx_uses st0' = u64 (randx_uses st0 + Z.of_nat (length m1)) /\
    (forall pk, pos pk = (seed_pos st0 + index_of pk (map fst (order1 _ m1)) * S (length (result_zero CheckVar)))%nat).
Proof.
  intros Hn HF HK HB NE1 SY N0 N1 LM.
  pose proof (op_tables CheckVar (var_nbs nb) var_row snd (fun _ => [0; 0]) (mock_packet (NumMulGates CheckVar))) as OT.
  specialize (OT ltac:(apply PeanoNat.Nat.ltb_lt; reflexivity)
    ltac:(constructor; [apply width_small; lia|constructor; [apply width_small; lia|constructor]]) eq_refl).
  specialize (OT ltac:(intros i; apply (mock_ok CheckVar (var_nbs nb) 2); [reflexivity|lia|reflexivity|];
      repeat constructor; unfold limbs_ok, two64; lia)).
  specialize (OT order1 m0 m1 L K rnd0 rnd1 st0 st1 HF HK HB NE1 SY N0 N1). cbv zeta in OT.
  destruct OT as (a & b & CV & good & pos & EC & La & Lb & Fb & HS & HJ & HD & HG & SY' & EX & EP & EU & EI).
  destruct a as [[nv a] st0']. destruct b as [b st1']. cbn [fst snd] in *.
  exists good, pos, st0', st1'. split; [|auto 9]. cbv zeta. intros total0.
  unfold var_op0, var_op1. cbv zeta. set (l := order1 _ m1) in *.
  eapply rel_deliver'.
  { apply delivers_announce; [apply fair_forall; [exact HF|apply HK]|]. unfold l. now rewrite fair_length. }
  assert (RU : reused m0 (map fst l) = false) by (apply reused_order; [exact HF|apply HK]).
  set (found := map (fun pk => find pk m0) (map fst l)) in *.
  rewrite (map_as_map2 _ found (fun f (_ : nat) => match f with Some v => (var_row v, snd v)
    | None => ([0; 0], mock_packet (NumMulGates CheckVar)) end) 0).
  2:{ intros [[[v v2] pkt]|] k; reflexivity. }
  rewrite (map_ext (fun e : list Z * (Z * Z * ClientPacket) => let '(v, v2, pkt) := snd e in ([v; v2], pkt))
     (fun e => (var_row (snd e), snd (snd e)))).
  2:{ intros [k [[v v2] pkt]]. reflexivity. }
  eapply rel_bind.
  { exists (nv, a, st0'), (b, st1'). split; [exact CV|].
    exact (conj eq_refl eq_refl : (fun x y => x = (nv, a, st0') /\ y = (b, st1')) _ _). }
  intros ? ? [-> ->]. cbn [fst snd]. rewrite RU.
  assert (Q : forall j, (j < 2)%nat -> limbs_ok (nth j b 0)).
  { intros j Hj. apply field_limbs. rewrite Forall_forall in Fb. apply Fb, nth_In. rewrite Lb. exact Hj. }
  eapply rel_deliver'; [apply delivers_fmpz, Q; lia|].
  eapply rel_deliver'; [apply delivers_fmpz, Q; lia|].
  set (F := fun j => zsum (map (fun pk => nth j (at_both (fun a b => map2 Z.lxor (var_row a) (var_row b)) [] m0 m1 pk) 0) (filter good L))).
  assert (FS : forall j, (j < 2)%nat -> (nth j b 0 + nth j a 0) mod p = F j mod p).
  { intros j Hj. change p with P. exact (HS j Hj). }
  rewrite EC, !FS by lia. unfold too_few, outcome.
  destruct (2 * length (filter good L) <? total0)%nat; apply rel_ret; auto.
Qed.

Lemma var_field_sum nb subs0 subs1 L j :
  field_sum (var_fits nb) var_opened subs0 subs1 L j =
  zsum (map (fun pk => nth j (at_both (fun a b => map2 Z.lxor (var_row a) (var_row b)) []
    (table_of (var_fits nb) subs0) (table_of (var_fits nb) subs1) pk) 0) L).
Proof.
  unfold field_sum. apply (f_equal zsum). apply map_ext. intros pk.
  apply (f_equal (fun r => nth j r 0)). rewrite at_both_combined. unfold combined.
  destruct (first_sub (var_fits nb) subs0 pk) as [[[? ?] ?]|]; auto.
  destruct (first_sub (var_fits nb) subs1 pk) as [[[? ?] ?]|]; auto.
Qed.

Lemma var_op_result nb order0 order1 total0 total1 stream0 stream1 subs0 subs1 junk0 junk1 K rnd0 rnd1 st0 st1 L :
  (nb <= 24)%nat -> fair order1 ->
  arrives_cut var_wire var_size total0 stream0 subs0 -> arrives_cut var_wire var_size total1 stream1 subs1 ->
  Forall (fun s => var_content (snd s)) subs0 -> Forall (fun s => var_content (snd s)) subs1 ->
  length junk0 = 48%nat -> length junk1 = 48%nat ->
  (exists pk, first_sub (var_fits nb) subs1 pk <> None) ->
  accepted (var_fits nb) subs0 subs1 L -> synced st0 st1 ->
  both (var_op false order0 nb total0 stream0 junk0 K rnd0 st0) (var_op true order1 nb total1 stream1 junk1 K rnd1 st1)
    (fun a b => exists ok pos,
       validated CheckVar (randomX st0) K (seed_pos st0) (var_fits nb) var_opened snd subs0 subs1 L ok pos /\
       fst b = RET_NO_ANS /\
       fst a = outcome (length (filter ok L)) total0
         (length (filter ok L),
          field_sum (var_fits nb) var_opened subs0 subs1 (filter ok L) 0 mod p,
          field_sum (var_fits nb) var_opened subs0 subs1 (filter ok L) 1 mod p) /\
       synced (snd a) (snd b) /\ randomX (snd a) = randomX st0 /\
       randx_uses (snd a) = u64 (randx_uses st0 + Z.of_nat (length (table_of (var_fits nb) subs1))) /\
       (forall pk, pos pk = (seed_pos st0 + index_of pk (map fst (order1 _ (table_of (var_fits nb) subs1))) * S (length (result_zero CheckVar)))%nat)).
Proof.
  intros Hn HF (rest0 & -> & HT0 & HP0 & HL0) (rest1 & -> & HT1 & HP1 & HL1) C0 C1 J0 J1 NE HA SY.
  apply rel_both. unfold var_op.
  destruct (Nat.leb_spec 64 nb); [lia|].
  rewrite !var_receive by (auto; lia).
  set (m0 := table_of (var_fits nb) subs0). set (m1 := table_of (var_fits nb) subs1).
  pose proof (table_keys (var_fits nb) subs1 HP1) as HK. fold m1 in HK.
  pose proof (both_in_accepted _ _ _ _ HA) as HB. fold m0 m1 in HB.
  pose proof (table_nonempty _ _ NE) as NE1. fold m1 in NE1.
  assert (N0 : Forall (fun e => narrow CheckVar (var_nbs nb) var_row snd (snd e)) m0)
    by (apply table_narrow with (content := var_content); auto using var_narrow).
  assert (N1 : Forall (fun e => narrow CheckVar (var_nbs nb) var_row snd (snd e)) m1)
    by (apply table_narrow with (content := var_content); auto using var_narrow).
  assert (LM : Z.of_nat (length m1) < two32).
  { pose proof (table_length (var_fits nb) subs1). fold m1 in H0. lia. }
  destruct (var_tables nb order1 m0 m1 L K rnd0 rnd1 st0 st1 Hn HF HK HB NE1 SY N0 N1 LM)
    as (good & pos & st0' & st1' & HR & HJ & HD & HG & SY' & EX & EU & EI).
  eapply rel_imp; [apply HR|]. cbv beta. intros a b [-> ->]. cbn [fst snd].
  exists good, pos. split; [|split; [reflexivity|split; [|auto]]].
  - unfold validated. split; [|split; auto].
    intros pk v v' E0 E1. specialize (HJ pk v v').
    unfold m0, m1 in HJ. rewrite !table_find in HJ. specialize (HJ E0 E1).
    destruct v as [[v v2] p0], v' as [[v' v2'] p1]. exact HJ.
  - rewrite !(var_field_sum nb subs0 subs1). reflexivity.
Qed.

(** Further records of an identity already in the table are not looked at. *)
Lemma build_app {V} (a b : list (list Z * option V)) : forall m, build (a ++ b) m = build b (build a m).
Proof.
  induction a as [|[k o] a IH]; intros m; cbn [app build]; auto.
  destruct (find k m), o; apply IH.
Qed.
Lemma repeats_table {V} (ok : V -> bool) subs subs' : repeats ok subs subs' -> table_of ok subs' = table_of ok subs.
Proof.
  induction 1 as [|a k v b v' c H IH E]; [reflexivity|]. rewrite <- IH. unfold table_of, recs_of.
  rewrite !map_app. cbn [map fst snd]. rewrite !map_app. cbn [map fst snd]. rewrite E.
  fold (recs_of ok a) (recs_of ok b) (recs_of ok c). rewrite !build_app.
  cbn [build]. set (m := build (recs_of ok a) []).
  assert (X : forall m', find k m' <> None ->
    build (recs_of ok b ++ (k, if ok v' then Some v' else None) :: recs_of ok c) m' = build (recs_of ok b ++ recs_of ok c) m').
  { intros m' Hm. rewrite !build_app. cbn [build]. rewrite (build_find ok b m' k).
    destruct (find k m'); [reflexivity|contradiction]. }
  destruct (find k m) eqn:F.
  - apply X. rewrite F. discriminate.
  - apply X. rewrite find_app. rewrite F. cbn [find]. rewrite key_eqb_refl. discriminate.
Qed.

Lemma var_op_once nb order0 order1 total0 total1 total0' total1' stream0 stream1 stream0' stream1'
    subs0 subs1 subs0' subs1' junk0 junk1 junk0' junk1' K rnd0 rnd1 st0 st1 :
  (nb <= 24)%nat -> fair order1 -> repeats (var_fits nb) subs0 subs0' -> repeats (var_fits nb) subs1 subs1' ->
  arrives_cut var_wire var_size total0 stream0 subs0 -> arrives_cut var_wire var_size total1 stream1 subs1 ->
  arrives_cut var_wire var_size total0' stream0' subs0' -> arrives_cut var_wire var_size total1' stream1' subs1' ->
  Forall (fun s => var_content (snd s)) subs0 -> Forall (fun s => var_content (snd s)) subs1 ->
  Forall (fun s => var_content (snd s)) subs0' -> Forall (fun s => var_content (snd s)) subs1' ->
  length junk0 = 48%nat -> length junk1 = 48%nat -> length junk0' = 48%nat -> length junk1' = 48%nat ->
  (exists pk, first_sub (var_fits nb) subs1 pk <> None) -> synced st0 st1 ->
  exists n ans,
  both (var_op false order0 nb total0 stream0 junk0 K rnd0 st0) (var_op true order1 nb total1 stream1 junk1 K rnd1 st1)
    (fun a _ => fst a = outcome n total0 ans) /\
  both (var_op false order0 nb total0' stream0' junk0' K rnd0 st0) (var_op true order1 nb total1' stream1' junk1' K rnd1 st1)
    (fun a _ => fst a = outcome n total0' ans).
Proof.
  intros Hn HF R0 R1 (rest0 & -> & HT0 & HP0 & HL0) (rest1 & -> & HT1 & HP1 & HL1)
    (rest0' & -> & HT0' & HP0' & HL0') (rest1' & -> & HT1' & HP1' & HL1') C0 C1 C0' C1' J0 J1 J0' J1' NE SY.
  unfold var_op. destruct (Nat.leb_spec 64 nb); [lia|].
  rewrite !var_receive by (auto; lia).
  rewrite (repeats_table _ _ _ R0), (repeats_table _ _ _ R1).
  destruct (accepted_exists (var_fits nb) subs0 subs1) as [L HA].
  set (m0 := table_of (var_fits nb) subs0). set (m1 := table_of (var_fits nb) subs1).
  destruct (var_tables nb order1 m0 m1 L K rnd0 rnd1 st0 st1 Hn HF) as (good & pos & st0' & st1' & HR & _).
  - exact (table_keys (var_fits nb) subs1 HP1).
  - exact (both_in_accepted _ _ _ _ HA).
  - exact (table_nonempty _ _ NE).
  - exact SY.
  - apply table_narrow with (content := var_content); auto using var_narrow.
  - apply table_narrow with (content := var_content); auto using var_narrow.
  - pose proof (table_length (var_fits nb) subs1) as Q. fold m1 in Q. lia.
  - eexists _, _. split; apply rel_both; (eapply rel_imp; [apply HR|]; intros a b [-> _]; reflexivity).
Qed.

(** ** LINREG *)
Lemma delivers_batch_each x : Forall limbs_ok x -> delivers (send_fmpz_batch x) (recv_fmpz_each (length x)) x.
Proof.
  intros H. destruct (delivers_fmpz_each x H) as (bs & E & F).
  destruct (delivers_fmpz_batch x H) as (bs' & E' & F').
  assert (bs' = bs); [|subst; exists bs; auto].
  assert (S : forall maxb fuel y, 0 < maxb -> (length y <= fuel)%nat -> Forall limbs_ok y ->
    sent_bytes (send_fmpz_batch_loop maxb fuel y) = Some (words y)).
  { intros maxb fuel y Hm. revert y. 
    assert (C : forall y, Forall limbs_ok y -> sent_bytes (send_fmpz_chunk y) = Some (words y)).
    { intros y Hy. unfold send_fmpz_chunk. rewrite (proj2 (forallb_forall _ _)).
      - cbn. now rewrite app_nil_r.
      - intros z Hz. apply fits_limbs_ok. rewrite Forall_forall in Hy; auto. }
    induction fuel as [|f IH]; intros y Hl Hy.
    - destruct y; [|cbn in Hl; lia]. cbn [send_fmpz_batch_loop length].
      destruct (Z.ltb_spec maxb (Z.of_nat 0)); [cbn in *; lia|]. now apply C.
    - cbn [send_fmpz_batch_loop]. destruct (Z.ltb_spec maxb (Z.of_nat (length y))); [|now apply C].
      rewrite sent_bytes_seq, C by now apply Forall_firstn. rewrite IH.
      + cbn [option_map]. rewrite <- words_app, firstn_skipn. reflexivity.
      + rewrite skipn_length. lia.
      + now apply Forall_skipn. }
  apply emits_sent in E, E'. rewrite (sent_fmpz_each x H) in E. unfold send_fmpz_batch in E'.
  rewrite S in E' by (auto; reflexivity). congruence.
Qed.

Lemma linreg_bits_eq nb degree : (1 <= degree)%nat -> linreg_bits nb degree =
  repeat nb (num_x degree) ++ nb :: repeat (2 * nb)%nat (num_quad degree) ++ repeat (2 * nb)%nat (num_x degree).
Proof.
  intros Hd. unfold linreg_bits.
  replace (num_fields degree) with (num_x degree + (1 + (num_quad degree + num_x degree)))%nat by (unfold num_fields; lia).
  rewrite !seq_app, !map_app.
  assert (R : forall i n v, (forall k, (i <= k < i + n)%nat -> (if (degree <=? k)%nat then 2 * nb else nb)%nat = v) ->
    map (fun i => if (degree <=? i)%nat then 2 * nb else nb)%nat (seq i n) = repeat v n).
  { intros i n. revert i. induction n as [|n IH]; intros i v H; cbn [seq map repeat]; auto.
    f_equal; [apply H; lia|]. apply IH. intros k Hk. apply H. lia. }
  rewrite (R 0%nat (num_x degree) nb), (R (0 + num_x degree)%nat 1%nat nb), !(R _ _ (2 * nb)%nat); auto.
  all: intros k Hk; destruct (Nat.leb_spec degree k); auto; unfold num_x in *; lia.
Qed.

Lemma linreg_bits_length nb degree : length (linreg_bits nb degree) = num_fields degree.
Proof. unfold linreg_bits. now rewrite map_length, seq_length. Qed.

Lemma Forall2_repeat {A B} (R : A -> B -> Prop) a n l : length l = n -> Forall (R a) l -> Forall2 R (repeat a n) l.
Proof. intros <- H. induction H; cbn; constructor; auto. Qed.

Lemma fits_list nb l : Forall word l -> forallb (fits nb) l = true -> Forall (fun v => 0 <= v < 2 ^ Z.of_nat nb) l.
Proof.
  intros H F. rewrite forallb_forall in F. rewrite Forall_forall in *. intros v Hv. apply fits_range; auto.
Qed.

Definition linreg_row' (v : linreg_vals * ClientPacket) : list Z := linreg_row (fst v).
Lemma linreg_row_ok nb degree v pkt : (1 <= degree)%nat -> linreg_shape degree v ->
  packet_ok (NumMulGates (CheckLinReg degree)) pkt ->
  row_ok (CheckLinReg degree) (linreg_bits nb degree) (linreg_row v, pkt).
Proof.
  destruct v as [[[x y] x2] xy]. intros Hd (L1 & L2 & L3 & W1 & W2 & W3 & W4) (HM & HN & _).
  repeat split; cbn [fst snd]; auto.
  - rewrite linreg_bits_length. unfold linreg_row. rewrite app_length. cbn [length]. rewrite app_length.
    unfold num_fields. lia.
  - assert (Q : forall l, Forall word l -> Forall limbs_ok l).
    { intros l. apply Forall_impl. intros z Hz. exact Hz. }
    unfold linreg_row. apply Forall_app. split; [auto|]. constructor; [apply W2|]. apply Forall_app; auto.
Qed.
Lemma linreg_narrow nb degree v : (1 <= degree)%nat -> linreg_content degree v -> linreg_fits nb v = true ->
  narrow (CheckLinReg degree) (linreg_bits nb degree) linreg_row' snd v.
Proof.
  destruct v as [v pkt]. intros Hd [HS HP] F. split; [now apply linreg_row_ok|].
  destruct v as [[[x y] x2] xy]. destruct HS as (L1 & L2 & L3 & W1 & W2 & W3 & W4). cbn [linreg_fits] in F.
  apply andb_prop in F as [F F4]. apply andb_prop in F as [F F3]. apply andb_prop in F as [F1 F2].
  rewrite linreg_bits_eq by auto. unfold linreg_row', linreg_row. cbn [fst].
  apply Forall2_app; [apply Forall2_repeat; auto using fits_list|].
  constructor; [now apply fits_range|].
  apply Forall2_app; apply Forall2_repeat; auto using fits_list.
Qed.

Lemma degree_read degree rest d0 : Z.of_nat degree < two32 -> length d0 = 8%nat ->
  exists d, crecv 8 (degree_wire degree ++ rest) d0 = (d, rest) /\ Z.to_nat (bswap32 (le_val d)) = degree.
Proof.
  intros Hd L0. exists (degree_wire degree). split.
  - apply crecv_app; [|lia]. unfold degree_wire. now rewrite app_length, rev_length, le_bytes_length.
  - unfold degree_wire. rewrite le_val_app, rev_length, le_bytes_length.
    change (le_val [0; 0; 0; 0]) with 0. rewrite Z.mul_0_r, Z.add_0_r.
    assert (E : le_val (rev (le_bytes 4 (Z.of_nat degree))) = bswap32 (Z.of_nat degree))
      by (unfold bswap32; rewrite u32_small by lia; reflexivity).
    rewrite E, bswap32_involutive, u32_small by lia. apply Nat2Z.id.
Qed.

Lemma linreg_gates degree : (1 <= degree)%nat ->
  NumMulGates (CheckLinReg degree) = (num_quad degree + num_x degree)%nat /\
  NumInputs (CheckLinReg degree) = num_fields degree.
Proof. intros H. destruct (check_linreg_wf degree H) as (_ & A & B). split; auto. Qed.

Lemma nth_map2_seq (f : Z -> Z -> Z) b a n : length b = n -> length a = n ->
  map2 f b a = map (fun j => f (nth j b 0) (nth j a 0)) (seq 0 n).
Proof.
  revert a n. induction b as [|x b IH]; intros [|y a] n Hb Ha; cbn in *; subst; try discriminate; auto.
  cbn. f_equal. rewrite (IH a (length b)) by congruence. rewrite <- seq_shift, map_map. reflexivity.
Qed.

Lemma moments_layout degree count F s : (1 <= degree)%nat ->
  s = map F (seq 0 (num_fields degree)) ->
  (Z.of_nat count :: firstn (num_x degree) s ++ firstn (num_quad degree) (skipn degree s),
   nth (num_x degree) s 0 :: skipn (degree + num_quad degree) s) = moments degree count F.
Proof.
  intros Hd ->. unfold moments.
  assert (E : num_fields degree = (num_x degree + (1 + (num_quad degree + num_x degree)))%nat) by (unfold num_fields; lia).
  assert (D : degree = (num_x degree + 1)%nat) by (unfold num_x; lia).
  assert (S1 : skipn degree (map F (seq 0 (num_fields degree))) =
    map F (seq degree (num_quad degree)) ++ map F (seq (degree + num_quad degree) (num_x degree))).
  { rewrite E. replace (num_x degree + (1 + (num_quad degree + num_x degree)))%nat with
      (degree + (num_quad degree + num_x degree))%nat by lia.
    rewrite seq_app, map_app, skipn_app, map_length, seq_length, Nat.sub_diag, skipn_all2
      by (rewrite map_length, seq_length; lia).
    rewrite seq_app, map_app. reflexivity. }
  assert (S0 : firstn (num_x degree) (map F (seq 0 (num_fields degree))) = map F (seq 0 (num_x degree))).
  { rewrite E, seq_app, map_app, firstn_app, map_length, seq_length, Nat.sub_diag, firstn_all2
      by (rewrite map_length, seq_length; lia). apply app_nil_r. }
  assert (S2 : skipn (degree + num_quad degree) (map F (seq 0 (num_fields degree)))
    = map F (seq (degree + num_quad degree) (num_x degree))).
  { rewrite <- skipn_skipn', S1. 
    rewrite skipn_app, map_length, seq_length, Nat.sub_diag, skipn_all2 by (rewrite map_length, seq_length; lia).
    reflexivity. }
  rewrite S0, S1, S2. rewrite firstn_app, map_length, seq_length, Nat.sub_diag, firstn_all2
    by (rewrite map_length, seq_length; lia). cbn [firstn]. rewrite app_nil_r.
  rewrite (nth_map_seq' F (num_fields degree) (num_x degree) 0) by (rewrite E; lia). reflexivity.
Qed.

Lemma linreg_tables nb degree order1 (m0 m1 : table (linreg_vals * ClientPacket)) garbage0 L K rnd0 rnd1 st0 st1 :
  (nb <= 24)%nat -> (1 <= degree)%nat -> (num_quad degree + num_x degree < 2 ^ 18)%nat ->
  fair order1 -> keys_ok m1 -> both_in m0 m1 L -> m1 <> [] -> synced st0 st1 ->
  Forall (fun e => narrow (CheckLinReg degree) (linreg_bits nb degree) linreg_row' snd (snd e)) m0 ->
  Forall (fun e => narrow (CheckLinReg degree) (linreg_bits nb degree) linreg_row' snd (snd e)) m1 ->
  (forall i, let '(x, x2, xy) := garbage0 i in linreg_shape degree (x, 0, x2, xy)) ->
  Z.of_nat (length m1) < two32 ->
  exists good pos st0' st1',
    (let F j := zsum (map (fun pk => nth j (at_both (fun a b => map2 Z.lxor (linreg_row' a) (linreg_row' b)) [] m0 m1 pk) 0) (filter good L)) mod p in
     forall total0, rel (linreg_op0 K rnd0 nb degree garbage0 m0 total0 st0) (linreg_op1 order1 K rnd1 nb degree m1 st1)
       (fun a b => a = (outcome (length (filter good L)) total0 (moments degree (length (filter good L)) F), st0') /\
                   b = (RET_NO_ANS, st1'))) /\
    (forall pk v v', find pk m0 = Some v -> find pk m1 = Some v' ->
       judged (CheckLinReg degree) (randomX st0) K (pos pk) (map2 Z.lxor (linreg_row' v) (linreg_row' v')) (snd v) (snd v') (good pk)) /\
    (let w := S (length (result_zero (CheckLinReg degree))) in
     forall pk pk', In pk L -> In pk' L -> pk <> pk' -> (pos pk + w <= pos pk' \/ pos pk' + w <= pos pk)%nat) /\
    (forall pk, In pk L -> (seed_pos st0 <= pos pk)%nat) /\
    synced st0' st1' /\ randomX st0' = randomX st0 /\
    randx_uses st0' = u64 (randx_uses st0 + Z.of_nat (length m1)) /\
    (forall pk, pos pk = (seed_pos st0 + index_of pk (map fst (order1 _ m1)) * S (length (result_zero (CheckLinReg degree))))%nat).
Proof.
  intros Hn Hd HQ HF HK HB NE1 SY N0 N1 HG LM.
  destruct (linreg_gates degree Hd) as [GM GI].
  assert (HM : (NumMulGates (CheckLinReg degree) < 2 ^ 18)%nat) by (rewrite GM; exact HQ).
  destruct (npo2_nat _ HM) as (kk & _ & _ & HN).
  set (dflt := fun i => let '(x, x2, xy) := garbage0 i in linreg_row (x, 0, x2, xy)).
  set (dpkt := mock_packet (NumMulGates (CheckLinReg degree))).
  assert (HW : Forall (width_ok P) (linreg_bits nb degree)).
  { rewrite linreg_bits_eq by auto.
    assert (W : forall w n, (w <= 48)%nat -> Forall (width_ok P) (repeat w n)).
    { intros w n Hw. apply Forall_forall. intros z Hz. apply repeat_spec in Hz. subst z. now apply width_small. }
    apply Forall_app. split; [apply W; lia|]. constructor; [apply width_small; lia|].
    apply Forall_app. split; apply W; lia. }
  assert (HI : length (linreg_bits nb degree) = NumInputs (CheckLinReg degree)) by now rewrite linreg_bits_length.
  assert (HDf : forall i, row_ok (CheckLinReg degree) (linreg_bits nb degree) (dflt i, dpkt)).
  { intros i. specialize (HG i). unfold dflt. destruct (garbage0 i) as [[x x2] xy]. unfold dpkt.
    eapply mock_ok; [exact HN|lia| |].
    + destruct HG as (L1 & L2 & L3 & _). rewrite linreg_bits_length. unfold linreg_row. rewrite app_length.
      cbn [length]. rewrite app_length. unfold num_fields. lia.
    + destruct HG as (_ & _ & _ & W1 & W2 & W3 & W4). unfold linreg_row.
      apply Forall_app. split; [exact W1|]. constructor; [exact W2|]. apply Forall_app. split; assumption. }
  pose proof (op_tables (CheckLinReg degree) (linreg_bits nb degree) linreg_row' snd dflt dpkt HM HW HI HDf
    order1 m0 m1 L K rnd0 rnd1 st0 st1 HF HK HB NE1 SY N0 N1) as OT. cbv zeta in OT.
  destruct OT as (a & b & CV & good & pos & EC & La & Lb & Fb & HS & HJ & HD & HGE & SY' & EX & EP & EU & EI).
  destruct a as [[nv a] st0']. destruct b as [b st1']. cbn [fst snd] in *. rewrite linreg_bits_length in La, Lb, HS.
  exists good, pos, st0', st1'. split; [|auto 9]. cbv zeta. intros total0.
  unfold linreg_op0, linreg_op1. cbv zeta. set (l := order1 _ m1) in *.
  eapply rel_deliver'.
  { apply delivers_announce; [apply fair_forall; [exact HF|apply HK]|]. unfold l. now rewrite fair_length. }
  assert (RU : reused m0 (map fst l) = false) by (apply reused_order; [exact HF|apply HK]). rewrite RU.
  set (found := map (fun pk => find pk m0) (map fst l)) in *.
  match goal with |- rel (bind (snip_sums0 _ _ _ _ _ ?l0 _) _) _ _ =>
    replace l0 with (map2 (fun f i => match f with Some v => (linreg_row' v, snd v) | None => (dflt i, dpkt) end)
      found (seq 0 (length found))) end.
  2:{ generalize (seq 0 (length found)) as s. generalize found as fs.
      induction fs as [|f fs IHf]; intros [|i s]; cbn [map2]; auto. f_equal; [|apply IHf].
      destruct f as [[v pkt]|]; [reflexivity|]. unfold dflt. now destruct (garbage0 i) as [[? ?] ?]. }
  change (map (fun e : list Z * (linreg_vals * ClientPacket) => (linreg_row (fst (snd e)), snd (snd e))) l)
    with (map (fun e : list Z * (linreg_vals * ClientPacket) => (linreg_row' (snd e), snd (snd e))) l).
  eapply rel_bind.
  { exists (nv, a, st0'), (b, st1'). split; [exact CV|].
    exact (conj eq_refl eq_refl : (fun x y => x = (nv, a, st0') /\ y = (b, st1')) _ _). }
  intros ? ? [-> ->]. cbn [fst snd].
  eapply rel_deliver'.
  { rewrite <- Lb. apply delivers_batch_each. apply Forall_forall. intros z Hz. apply field_limbs.
    rewrite Forall_forall in Fb. auto. }
  set (F := fun j => zsum (map (fun pk => nth j (at_both (fun a b => map2 Z.lxor (linreg_row' a) (linreg_row' b)) [] m0 m1 pk) 0) (filter good L)) mod p).
  assert (FS : map2 (fun b a => (b + a) mod p) b a = map F (seq 0 (num_fields degree))).
  { rewrite (nth_map2_seq _ b a (num_fields degree)) by assumption.
    apply map_ext_in. intros j Hj. apply in_seq in Hj. change p with P. apply HS. lia. }
  rewrite EC, FS. rewrite <- (moments_layout degree _ F _ Hd eq_refl). unfold too_few, outcome.
  destruct (2 * length (filter good L) <? total0)%nat; apply rel_ret; auto.
Qed.

Lemma linreg_field_sum nb subs0 subs1 L j :
  field_sum (linreg_fits nb) linreg_opened subs0 subs1 L j =
  zsum (map (fun pk => nth j (at_both (fun a b => map2 Z.lxor (linreg_row' a) (linreg_row' b)) []
    (table_of (linreg_fits nb) subs0) (table_of (linreg_fits nb) subs1) pk) 0) L).
Proof.
  unfold field_sum. apply (f_equal zsum). apply map_ext. intros pk.
  apply (f_equal (fun r => nth j r 0)). rewrite at_both_combined. reflexivity.
Qed.
Lemma moments_ext degree n f g : (forall j, f j = g j) -> moments degree n f = moments degree n g.
Proof. intros H. unfold moments. now rewrite H, !(map_ext f g). Qed.
Lemma degree_small degree : (num_quad degree + num_x degree < 2 ^ 18)%nat -> Z.of_nat degree < two32.
Proof.
  intros HQ. assert (degree < 2 ^ 19)%nat.
  { assert (2 ^ 19 = 2 * 2 ^ 18)%nat by (apply PeanoNat.Nat.pow_succ_r').
    assert (1 <= 2 ^ 18)%nat by (apply PeanoNat.Nat.neq_0_lt_0, PeanoNat.Nat.pow_nonzero; lia).
    unfold num_x in HQ. clear -HQ H H0. lia. }
  apply Nat2Z.inj_lt in H. rewrite Nat2Z.inj_pow in H. change (Z.of_nat 2 ^ Z.of_nat 19) with 524288 in H.
  unfold two32. clear -H. lia.
Qed.

Lemma linreg_op_result nb degree order0 order1 total0 total1 stream0 stream1 subs0 subs1 d0 d1 junk0 junk1
  garbage0 garbage1 K rnd0 rnd1 st0 st1 L :
  (nb <= 24)%nat -> (1 <= degree)%nat -> (num_quad degree + num_x degree < 2 ^ 18)%nat -> fair order1 ->
  arrives_cut linreg_wire (linreg_size degree) total0 stream0 subs0 ->
  arrives_cut linreg_wire (linreg_size degree) total1 stream1 subs1 ->
  Forall (fun s => linreg_content degree (snd s)) subs0 -> Forall (fun s => linreg_content degree (snd s)) subs1 ->
  length d0 = 8%nat -> length d1 = 8%nat -> length junk0 = 32%nat -> length junk1 = 32%nat ->
  (forall i, let '(x, x2, xy) := garbage0 i in linreg_shape degree (x, 0, x2, xy)) ->
  (exists pk, first_sub (linreg_fits nb) subs1 pk <> None) ->
  accepted (linreg_fits nb) subs0 subs1 L -> synced st0 st1 ->
  both (linreg_op false order0 nb total0 (degree_wire degree ++ stream0) d0 junk0 garbage0 K rnd0 st0)
       (linreg_op true order1 nb total1 (degree_wire degree ++ stream1) d1 junk1 garbage1 K rnd1 st1)
    (fun a b => exists ok pos,
       validated (CheckLinReg degree) (randomX st0) K (seed_pos st0) (linreg_fits nb) linreg_opened snd subs0 subs1 L ok pos /\
       fst b = RET_NO_ANS /\
       fst a = outcome (length (filter ok L)) total0
         (moments degree (length (filter ok L))
            (fun j => field_sum (linreg_fits nb) linreg_opened subs0 subs1 (filter ok L) j mod p)) /\
       synced (snd a) (snd b) /\ randomX (snd a) = randomX st0 /\
       randx_uses (snd a) = u64 (randx_uses st0 + Z.of_nat (length (table_of (linreg_fits nb) subs1))) /\
       (forall pk, pos pk = (seed_pos st0 + index_of pk (map fst (order1 _ (table_of (linreg_fits nb) subs1))) * S (length (result_zero (CheckLinReg degree))))%nat)).
Proof.
  intros Hn Hd HQ HF (rest0 & -> & HT0 & HP0 & HL0) (rest1 & -> & HT1 & HP1 & HL1) C0 C1 LD0 LD1 J0 J1 HG NE HA SY.
  destruct (linreg_gates degree Hd) as [GM GI].
  assert (HM : (NumMulGates (CheckLinReg degree) < 2 ^ 18)%nat) by (rewrite GM; exact HQ).
  destruct (npo2_nat _ HM) as (kk & _ & _ & HN).
  pose proof (degree_small degree HQ) as D32.
  destruct (degree_read degree (wire linreg_wire subs0 ++ rest0) d0 D32 LD0) as (e0 & R0 & E0).
  destruct (degree_read degree (wire linreg_wire subs1 ++ rest1) d1 D32 LD1) as (e1 & R1 & E1).
  apply rel_both. unfold linreg_op.
  destruct (Nat.leb_spec 64 nb) as [B|B]; [lia|]. rewrite R0, R1, E0, E1. clear R0 R1 E0 E1.
  destruct (Nat.eqb_spec degree 0) as [Z0|_]; [lia|].
  rewrite !(linreg_receive nb degree _ _ _ _ _ (ltac:(lia) : (nb < 32)%nat) HN) by auto.
  set (m0 := table_of (linreg_fits nb) subs0). set (m1 := table_of (linreg_fits nb) subs1).
  pose proof (table_keys (linreg_fits nb) subs1 HP1) as HK. fold m1 in HK.
  pose proof (both_in_accepted _ _ _ _ HA) as HB. fold m0 m1 in HB.
  pose proof (table_nonempty _ _ NE) as NE1. fold m1 in NE1.
  assert (NW : forall v, linreg_content degree v -> linreg_fits nb v = true ->
     narrow (CheckLinReg degree) (linreg_bits nb degree) linreg_row' snd v) by (intros; now apply linreg_narrow).
  assert (N0 : Forall (fun e => narrow (CheckLinReg degree) (linreg_bits nb degree) linreg_row' snd (snd e)) m0)
    by exact (table_narrow _ (linreg_content degree) _ _ NW C0).
  assert (N1 : Forall (fun e => narrow (CheckLinReg degree) (linreg_bits nb degree) linreg_row' snd (snd e)) m1)
    by exact (table_narrow _ (linreg_content degree) _ _ NW C1).
  assert (LM : Z.of_nat (length m1) < two32).
  { pose proof (table_length (linreg_fits nb) subs1) as Q. fold m1 in Q. lia. }
  destruct (linreg_tables nb degree order1 m0 m1 garbage0 L K rnd0 rnd1 st0 st1 Hn Hd HQ HF HK HB NE1 SY N0 N1 HG LM)
    as (good & pos & st0' & st1' & HR & HJ & HD & HGE & SY' & EX & EU & EI).
  eapply rel_imp; [apply HR|]. cbv beta. intros a b [-> ->]. cbn [fst snd].
  exists good, pos. split; [|split; [reflexivity|split; [|auto]]].
  - unfold validated. split; [|split; auto].
    intros pk v v' E0 E1. specialize (HJ pk v v').
    unfold m0, m1 in HJ. rewrite !table_find in HJ. exact (HJ E0 E1).
  - apply f_equal. apply moments_ext. intros j. rewrite linreg_field_sum. reflexivity.
Qed.

Lemma linreg_op_once nb degree order0 order1 total0 total1 total0' total1' stream0 stream1 stream0' stream1'
    subs0 subs1 subs0' subs1' d0 d1 d0' d1' junk0 junk1 junk0' junk1' garbage0 garbage1 K rnd0 rnd1 st0 st1 :
  (nb <= 24)%nat -> (1 <= degree)%nat -> (num_quad degree + num_x degree < 2 ^ 18)%nat -> fair order1 ->
  repeats (linreg_fits nb) subs0 subs0' -> repeats (linreg_fits nb) subs1 subs1' ->
  arrives_cut linreg_wire (linreg_size degree) total0 stream0 subs0 ->
  arrives_cut linreg_wire (linreg_size degree) total1 stream1 subs1 ->
  arrives_cut linreg_wire (linreg_size degree) total0' stream0' subs0' ->
  arrives_cut linreg_wire (linreg_size degree) total1' stream1' subs1' ->
  Forall (fun s => linreg_content degree (snd s)) subs0 -> Forall (fun s => linreg_content degree (snd s)) subs1 ->
  Forall (fun s => linreg_content degree (snd s)) subs0' -> Forall (fun s => linreg_content degree (snd s)) subs1' ->
  length d0 = 8%nat -> length d1 = 8%nat -> length d0' = 8%nat -> length d1' = 8%nat ->
  length junk0 = 32%nat -> length junk1 = 32%nat -> length junk0' = 32%nat -> length junk1' = 32%nat ->
  (forall i, let '(x, x2, xy) := garbage0 i in linreg_shape degree (x, 0, x2, xy)) ->
  (exists pk, first_sub (linreg_fits nb) subs1 pk <> None) -> synced st0 st1 ->
  exists n ans,
  both (linreg_op false order0 nb total0 (degree_wire degree ++ stream0) d0 junk0 garbage0 K rnd0 st0)
       (linreg_op true order1 nb total1 (degree_wire degree ++ stream1) d1 junk1 garbage1 K rnd1 st1)
    (fun a _ => fst a = outcome n total0 ans) /\
  both (linreg_op false order0 nb total0' (degree_wire degree ++ stream0') d0' junk0' garbage0 K rnd0 st0)
       (linreg_op true order1 nb total1' (degree_wire degree ++ stream1') d1' junk1' garbage1 K rnd1 st1)
    (fun a _ => fst a = outcome n total0' ans).
Proof.
  intros Hn Hd HQ HF R0 R1 (rest0 & -> & HT0 & HP0 & HL0) (rest1 & -> & HT1 & HP1 & HL1)
    (rest0' & -> & HT0' & HP0' & HL0') (rest1' & -> & HT1' & HP1' & HL1') C0 C1 C0' C1' D0 D1 D0' D1' J0 J1 J0' J1' HG NE SY.
  destruct (linreg_gates degree Hd) as [GM GI].
  assert (HM : (NumMulGates (CheckLinReg degree) < 2 ^ 18)%nat) by (rewrite GM; exact HQ).
  destruct (npo2_nat _ HM) as (kk & _ & _ & HN).
  pose proof (degree_small degree HQ) as D32.
  destruct (degree_read degree (wire linreg_wire subs0 ++ rest0) d0 D32 D0) as (e0 & Q0 & E0).
  destruct (degree_read degree (wire linreg_wire subs1 ++ rest1) d1 D32 D1) as (e1 & Q1 & E1).
  destruct (degree_read degree (wire linreg_wire subs0' ++ rest0') d0' D32 D0') as (e0' & Q0' & E0').
  destruct (degree_read degree (wire linreg_wire subs1' ++ rest1') d1' D32 D1') as (e1' & Q1' & E1').
  unfold linreg_op. destruct (Nat.leb_spec 64 nb) as [B|B]; [lia|].
  rewrite Q0, Q1, Q0', Q1', E0, E1, E0', E1'. clear Q0 Q1 Q0' Q1' E0 E1 E0' E1'.
  destruct (Nat.eqb_spec degree 0) as [Z0|_]; [lia|].
  rewrite !(linreg_receive nb degree _ _ _ _ _ (ltac:(lia) : (nb < 32)%nat) HN) by auto.
  rewrite (repeats_table _ _ _ R0), (repeats_table _ _ _ R1).
  destruct (accepted_exists (linreg_fits nb) subs0 subs1) as [L HA].
  set (m0 := table_of (linreg_fits nb) subs0). set (m1 := table_of (linreg_fits nb) subs1).
  assert (NW : forall v, linreg_content degree v -> linreg_fits nb v = true ->
     narrow (CheckLinReg degree) (linreg_bits nb degree) linreg_row' snd v) by (intros; now apply linreg_narrow).
  destruct (linreg_tables nb degree order1 m0 m1 garbage0 L K rnd0 rnd1 st0 st1 Hn Hd HQ HF)
    as (good & pos & st0' & st1' & HR & _).
  - exact (table_keys (linreg_fits nb) subs1 HP1).
  - exact (both_in_accepted _ _ _ _ HA).
  - exact (table_nonempty _ _ NE).
  - exact SY.
  - exact (table_narrow _ (linreg_content degree) _ _ NW C0).
  - exact (table_narrow _ (linreg_content degree) _ _ NW C1).
  - exact HG.
  - pose proof (table_length (linreg_fits nb) subs1) as Q. fold m1 in Q. lia.
  - eexists _, _. split; apply rel_both; (eapply rel_imp; [apply HR|]; intros a b [-> _]; reflexivity).
Qed.
