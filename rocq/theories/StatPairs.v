(** The correspondence of draws and the views of the servers. *)
From Coq Require Import ZArith List Bool Lia Permutation ListDec.
From Verif Require Import Words WordsFacts Constants Share SpecShare Proc ProcFacts Net SpecNet OT OTFacts SpecHide HideFacts Poly SpecPoly Circuit SpecCircuit CircuitFacts Snip SpecSnip SnipFacts SnipBatch
  ServerOps SpecServer TableFacts ServerFacts ClientOps ClientFacts SnipSums SpecStat StatReads StatProps StatClient SpecSecret SecretFacts SecretProof SpecPrivacy PrivacyExact SpecExact ExactFacts
  ExactServer ViewFacts PrivacyFacts PrivacyProof SpecStatPrivacy StatView StatPrivacy SpecStatExact StatExact StatPair.
Import ListNotations.
Open Scope Z_scope.
Local Notation P := Int_Modulus.
Opaque Int_Modulus Int_Gen init_roots Nat.pow.
Arguments Z.mul : simpl never.
Arguments Z.add : simpl never.
Arguments Z.modulo : simpl never.

(** ** Records in the order of traversal, as a function *)
Section Order.
  Context {V W : Type}.
  Variable order1 : iteration.
  Definition rs_of (l : list (crec V W)) : list (crec V W) :=
    flat_map (fun pk => match find pk (map (fun r => (c_pk r, r)) l) with Some r => [r] | None => [] end) (map fst (order1 _ (subs1 l))).
  Lemma rs_of_ok l : fair order1 -> NoDup (map c_pk l) -> Permutation l (rs_of l) /\ order1 _ (subs1 l) = subs1 (rs_of l).
  Proof.
    intros HF ND. destruct (in_order order1 l HF) as (rs & HP & EO).
    enough (E : rs_of l = rs) by (now rewrite E). unfold rs_of. rewrite EO. unfold subs1 at 1. rewrite map_map. cbn [fst].
    assert (I : forall r, In r rs -> In r l) by (intros r; apply Permutation_in; now symmetry).
    clear -ND I. induction rs as [|r rs IH]; [reflexivity|]. cbn [map flat_map].
    assert (X : find (c_pk r) (map (fun r => (c_pk r, r)) l) = Some r).
    { apply in_find; [rewrite map_map; exact ND|]. apply (in_map (fun r => (c_pk r, r))). apply I. now left. }
    rewrite X. cbn [app]. f_equal. apply IH. intros q Hq. apply I. now right.
  Qed.
  Lemma rs_of_same side l l' : fair order1 -> by_keys order1 -> NoDup (map c_pk l) -> seen side l' = seen side l ->
    map c_pk (rs_of l') = map c_pk (rs_of l) /\ map (share_of side) (rs_of l') = map (share_of side) (rs_of l).
  Proof.
    intros HF HK ND SN. pose proof (seen_pks side l' l SN) as EP.
    assert (ND' : NoDup (map c_pk l')) by now rewrite EP.
    destruct (rs_of_ok l HF ND) as [HP EO]. destruct (rs_of_ok l' HF ND') as [HP' EO'].
    assert (EK : map c_pk (rs_of l') = map c_pk (rs_of l)).
    { assert (A : forall q : list (crec V W), map fst (subs1 q) = map c_pk q) by (intros q; unfold subs1; now rewrite map_map).
      rewrite <- !A, <- EO, <- EO'. apply HK. now rewrite !A. }
    split; [exact EK|]. exact (same_order l l' (rs_of l) (rs_of l') (share_of side) ND SN HP HP' EK).
  Qed.
End Order.

(** ** The masks of the conversion *)
Lemma transfer_eq nbs rnd rows0 rows1 : Forall (width_ok P) nbs -> rows_ok nbs rows0 -> 
  transfer nbs rnd rows0 rows1 =
  map2 ot_select (intsum_choices nbs (map (map u64) rows1))
    (map2 (HideFacts.entry P rnd) (seq 0 (length rows0 * OT.total nbs))
       (rows_deltas nbs (combine (map (map u64) rows0) (map (fun _ => true) rows0)))).
Proof.
  intros HW [F _]. unfold transfer, seen_of, intsum_ot_sender. rewrite (width_ok_64 _ _ HW).
  destruct (rows_form P rnd nbs P_mod_ok HW (combine (map (map u64) rows0) (map (fun _ => true) rows0)) 0) as (R & LD & _).
  { apply Forall_forall. intros [r v] Hr. apply in_combine_l in Hr. apply in_map_iff in Hr as (q & <- & Hq). cbn [fst]. rewrite map_length.
    rewrite Forall_forall in F. now apply F. }
  destruct (intsum_send_rows _ _ _ _ _) as [msgs ret]. cbn [fst] in R. cbn [ot_view Bool.eqb get]. rewrite R, LD.
  rewrite combine_length, !map_length, Nat.min_id. reflexivity.
Qed.
Lemma transfer_mask nbs rnd rnd' rows0 rows1 : Forall (width_ok P) nbs -> rows_ok nbs rows0 ->
  (forall i, (i < length rows0 * OT.total nbs)%nat -> SpecHide.mask P rnd i = SpecHide.mask P rnd' i) ->
  transfer nbs rnd rows0 rows1 = transfer nbs rnd' rows0 rows1.
Proof.
  intros HW R H. rewrite !transfer_eq by assumption. f_equal. apply map2_ext_in'. intros i Hi y. apply in_seq in Hi.
  unfold HideFacts.entry. destruct y; [|reflexivity]. now rewrite (H i) by lia.
Qed.
Lemma tp_mask k t i : residues k t -> SpecHide.mask P (tp t) i = tp t i.
Proof.
  intros R. pose proof (tp_range k t i R) as H. unfold SpecHide.mask. rewrite P_ot_modulus.
  assert (P < two64) by reflexivity. rewrite (Z.mod_small (tp t i) two64) by lia. now apply Z.mod_small.
Qed.
Lemma true_repeat (rows : list (list Z)) : map (fun _ => true) rows = repeat true (length rows).
Proof. induction rows as [|r rows IH]; [reflexivity|]. cbn [map length repeat]. now rewrite IH. Qed.
Lemma rows_u64 nbs rows : rows_ok nbs rows -> Forall (fun r => length r = length nbs) (map (map u64) rows).
Proof. intros [F _]. apply Forall_map. eapply Forall_impl; [|exact F]. intros r. now rewrite map_length. Qed.
Lemma transfer_exists nbs rnd rows0 rows0' rows1 : Forall (width_ok P) nbs -> rows_ok nbs rows0 -> rows_ok nbs rows0' -> rows_ok nbs rows1 ->
  length rows0 = length rows1 -> length rows0' = length rows1 ->
  exists ms, residues (length rows1 * OT.total nbs) ms /\ transfer nbs (tp ms) rows0' rows1 = transfer nbs rnd rows0 rows1.
Proof.
  intros HW A0 A0' A1 E0 E0'.
  destruct (intsum_same_view false P nbs rnd (map (map u64) rows0) (map (map u64) rows0') (repeat true (length rows1))
    (intsum_choices nbs (map (map u64) rows1)) P_mod_ok HW) as (rnd' & E); try (now apply rows_u64); try (rewrite map_length, repeat_length; assumption).
  { rewrite choices_length by now apply rows_u64. now rewrite map_length, repeat_length. }
  set (L := (length rows1 * OT.total nbs)%nat). set (f := SpecHide.mask P rnd'). exists (map f (seq 0 L)).
  assert (RS : residues L (map f (seq 0 L))).
  { split; [now rewrite map_length, seq_length|]. apply Forall_map, Forall_forall. intros i _. unfold f, SpecHide.mask. rewrite P_ot_modulus.
    apply Z.mod_pos_bound, P_pos. }
  split; [exact RS|]. rewrite (transfer_mask nbs _ rnd') by (auto; rewrite E0'; intros i Hi; rewrite (tp_mask L) by exact RS;
    unfold tp; rewrite (nth_indep _ 0 (f 0%nat)) by (rewrite map_length, seq_length; exact Hi); rewrite map_nth, seq_nth by exact Hi; reflexivity).
  unfold transfer, seen_of. rewrite !true_repeat, E0, E0', E. reflexivity.
Qed.
Lemma transfer_unique nbs ms ms' rows0 rows1 : Forall (width_ok P) nbs -> rows_ok nbs rows0 -> rows_ok nbs rows1 -> length rows0 = length rows1 ->
  residues (length rows1 * OT.total nbs) ms -> residues (length rows1 * OT.total nbs) ms' ->
  transfer nbs (tp ms) rows0 rows1 = transfer nbs (tp ms') rows0 rows1 -> ms = ms'.
Proof.
  intros HW A0 A1 E0 R R' E. set (cs := intsum_choices nbs (map (map u64) rows1)).
  assert (LC : length cs = (length (repeat true (length rows1)) * OT.total nbs)%nat).
  { unfold cs. rewrite choices_length by now apply rows_u64. now rewrite map_length, repeat_length. }
  assert (L0 : length (map (map u64) rows0) = length (repeat true (length rows1))) by (rewrite map_length, repeat_length; exact E0).
  destruct (intsum_view_possible false P nbs (tp ms) (map (map u64) rows0) (repeat true (length rows1)) cs P_mod_ok HW L0 (rows_u64 _ _ A0) LC) as (v & Ev & PV).
  destruct (intsum_view_possible false P nbs (tp ms') (map (map u64) rows0) (repeat true (length rows1)) cs P_mod_ok HW L0 (rows_u64 _ _ A0) LC) as (v' & Ev' & _).
  assert (v' = v).
  { unfold transfer, seen_of in E. rewrite !true_repeat, E0 in E. fold cs in E. rewrite Ev, Ev' in E. symmetry. exact E. }
  subst v'. destruct (intsum_hides false P nbs (map (map u64) rows0) (repeat true (length rows1)) cs v P_mod_ok HW L0 (rows_u64 _ _ A0) LC PV) as (rnd & _ & U).
  pose proof (U _ Ev) as U1. pose proof (U _ Ev') as U2.
  pose proof (proj1 R) as LR. pose proof (proj1 R') as LR'. apply nth_ext with 0 0; [congruence|]. intros i Hi.
  rewrite spread_repeat in U1, U2. rewrite LR in Hi. specialize (U1 i (nth_repeat_true _ _ Hi)). specialize (U2 i (nth_repeat_true _ _ Hi)).
  rewrite (tp_mask _ _ _ R) in U1. rewrite (tp_mask _ _ _ R') in U2. unfold tp in U1, U2. congruence.
Qed.

Section Pairs.
  Context {V W : Type}.
  Variables (c : circuit) (nbs : list nat) (row : V * ClientPacket -> list Z) (vals inp : W -> list Z) (legal : W -> Prop)
    (possible : V * ClientPacket -> Prop) (m : nat)
    (one : prg -> (nat -> Z) -> cstate -> option (crec (V * ClientPacket) W * cstate))
    (val : prg -> W) (key : prg -> list Z) (sh : bool -> prg -> V) (last : nat)
    (mask : bool -> W -> W -> list (list Z)) (Wdec : forall a b : W, {a = b} + {a <> b}).
  Hypothesis WF : wf c.
  Hypothesis HM : (NumMulGates c < 2 ^ 18)%nat.
  Hypothesis HW : Forall (width_ok P) nbs.
  Hypothesis HI : length nbs = NumInputs c.
  Hypothesis FORM : one_form c inp one val key sh last.
  Hypothesis REQ : request_ok c nbs row vals one possible.
  Hypothesis LEN : forall v, legal v -> length (vals v) = length nbs.
  Hypothesis VAL : forall g, is_blocks g -> legal (val g).
  Hypothesis MASK : mask_ok m legal val key sh mask.
  Variables (order1 : iteration) (K rnd1 : nat -> Z) (st0 st1 : snip_state).
  Hypothesis HF : fair order1.
  Hypothesis HK : by_keys order1.
  Hypothesis SY : synced st0 st1.
  Let k := proof_draws c.
  Let made := made c inp val key sh.
  Let linked := linked c vals inp val key sh mask.
  Let s0 (rnd0 : nat -> Z) (rs : list (crec (V * ClientPacket) W)) := snip_sums0 K rnd0 c nbs (repeat true (length rs)) (map (fun r => entry row (share_of false r)) rs) st0.
  Let s1 (rs : list (crec (V * ClientPacket) W)) := snip_sums1 K rnd1 c nbs (map (fun r => entry row (share_of true r)) rs) st1.
  Let x := randomX st0.

  Lemma VALS' v : legal v -> length (vals v) = NumInputs c.
  Proof. intros H. rewrite (LEN v H). exact HI. Qed.
  Lemma Hx : in_field P x.
  Proof. exact (proj1 (proj1 SY)). Qed.

  Definition rows_of (side : bool) (l : list (crec (V * ClientPacket) W)) : list (list Z) :=
    map fst (map (fun r => entry row (share_of side r)) (rs_of order1 l)).
  Lemma rows_of_same side l l' : NoDup (map c_pk l) -> seen side l' = seen side l -> rows_of side l' = rows_of side l.
  Proof.
    intros ND SN. destruct (rs_of_same order1 side l l' HF HK ND SN) as [_ E]. unfold rows_of.
    rewrite !map_map. rewrite <- !(map_map (share_of side) (fun v => fst (entry row v))). now rewrite E.
  Qed.
  Definition own_of (l : list (crec (V * ClientPacket) W)) (rows : list (list Z)) (pk : list Z) : list Z :=
    nth (index_of pk (map c_pk (rs_of order1 l))) rows (repeat 0 (length nbs)).
  Definition own0 (rnd0 : nat -> Z) (l : list (crec (V * ClientPacket) W)) : list Z -> list Z := own_of l (own_rows nbs rnd0 (rows_of false l)).
  Definition M_of (l : list (crec (V * ClientPacket) W)) (rnd0 : nat -> Z) : list Z := transfer nbs rnd0 (rows_of false l) (rows_of true l).
  Definition own1 (l : list (crec (V * ClientPacket) W)) (M : list Z) : list Z -> list Z := own_of l (read_rows nbs (length (rs_of order1 l)) M).

  Lemma made_clean ds : Forall (one_client m k) ds -> Forall (clean c nbs row vals) (map made ds).
  Proof.
    intros D. apply Forall_map. eapply Forall_impl; [|exact D]. intros d Hd.
    pose proof (made_eq c m inp one val key sh last HM FORM d Hd) as E.
    destruct (one (fst (draw_tapes d)) (snd (draw_tapes d)) (0%nat, 0%nat, None)) as [[r st']|] eqn:E1; [|discriminate].
    cbn [option_map fst] in E. injection E as E2. unfold made. rewrite <- E2. apply (REQ _ _ _ _ (gen_blocks c m d Hd) E1).
  Qed.

  (** The common part: what [sums_views] gives for the records in order. *)
  Lemma views rnd0 l : l <> [] -> Forall (clean c nbs row vals) l -> NoDup (map c_pk l) ->
    let rs := rs_of order1 l in let n := length rs in
    let o0 := own_rows nbs rnd0 (rows_of false l) in
    let M := M_of l rnd0 in
    let o1 := read_rows nbs n M in
    let a0 := (n, accumulate (length nbs) o0 (repeat true n), after c n st0) in
    let a1 := (accumulate (length nbs) o1 (repeat true n), after c n st1) in
    length o0 = n /\ length o1 = n /\
    Forall (fun o => length o = length nbs) o0 /\ Forall (fun o => length o = length nbs) o1 /\
    o1 = map2 (fun r o => subrow (vals (c_real r)) o) rs o0 /\ o0 = map2 (fun r o => subrow (vals (c_real r)) o) rs o1 /\
    (forall cors log, Forall2 (opens c x true) (packets true rs o1) cors ->
       conv (logged log (s0 rnd0 rs)) (s1 rs)
         ((log ++ sent_by (send_CorShare_batch cors)) ++ sent_by (send_fmpz_batch (reply K c st0 false (packets false rs o0) cors)), a0) a1) /\
    (forall cors log, Forall2 (opens c x false) (packets false rs o0) cors ->
       conv (logged log (s1 rs)) (s0 rnd0 rs)
         ((((log ++ M) ++ sent_by (send_CorShare_batch cors)) ++ sent_by (send_fmpz_batch (reply K c st1 true (packets true rs o1) cors)))
          ++ sent_by (send_bool_batch (repeat true n)), a1) a0).
  Proof.
    intros NE CL ND rs n o0 M o1 a0 a1. destruct (rs_of_ok order1 l HF ND) as [HP _].
    assert (CR : Forall (clean c nbs row vals) rs) by (eapply Permutation_Forall; eassumption).
    assert (NR : rs <> []) by (intros E; apply NE; unfold rs in E; rewrite E in HP; now apply Permutation_nil, Permutation_sym).
    assert (EX : randomX st1 = x) by (symmetry; apply SY).
    pose proof (sums_views c nbs row vals WF HM HW HI K rnd0 rnd1 rs st0 st1 NR CR SY) as H. cbv zeta in H. rewrite EX in H. exact H.
  Qed.

  Lemma own_length l rows pk : Forall (fun o => length o = length nbs) rows -> length (own_of l rows pk) = NumInputs c.
  Proof.
    intros F. unfold own_of. rewrite <- HI. destruct (Nat.lt_ge_cases (index_of pk (map c_pk (rs_of order1 l))) (length rows)) as [H|H].
    - rewrite Forall_forall in F. apply F, nth_In, H.
    - rewrite nth_overflow by exact H. apply repeat_length.
  Qed.

  (** Openings by identity, in the order of traversal. *)
  Lemma openings_order side l rows corf : NoDup (map c_pk l) -> length rows = length (rs_of order1 l) ->
    Forall (fun r => opens c x side (snd (share_of side r), subrow (vals (c_real r)) (own_of l rows (c_pk r))) (corf (c_pk r))) l ->
    Forall2 (opens c x side) (packets side (rs_of order1 l) (map2 (fun r o => subrow (vals (c_real r)) o) (rs_of order1 l) rows))
      (map corf (map c_pk (rs_of order1 l))).
  Proof.
    intros ND LR F. destruct (rs_of_ok order1 l HF ND) as [HP _].
    assert (NDR : NoDup (map c_pk (rs_of order1 l))) by (eapply Permutation_NoDup; [apply Permutation_map, HP|exact ND]).
    apply (opens_order c nbs vals HM HI); auto.
    { now rewrite !map_length. }
    eapply Permutation_Forall; [exact HP|]. rewrite Forall_forall in F |- *. intros r Hr. specialize (F r Hr).
    assert (I : In (c_pk r) (map c_pk (rs_of order1 l))).
    { apply in_map. eapply Permutation_in; eassumption. }
    pose proof (index_in _ _ I) as IX.
    assert (LT : (index_of (c_pk r) (map c_pk (rs_of order1 l)) < length (map c_pk (rs_of order1 l)))%nat) by (apply nth_error_Some; rewrite IX; discriminate).
    unfold own_of in F. rewrite (nth_indep _ _ []) in F by (rewrite LR, <- (map_length c_pk); exact LT).
    rewrite (nth_indep _ _ (corf [])) by (rewrite map_length; exact LT). rewrite map_nth.
    rewrite (nth_error_nth _ _ _ IX). exact F.
  Qed.

  Lemma packets_same side (rs rs' : list (crec (V * ClientPacket) W)) (o : list (list Z)) : map (share_of side) rs' = map (share_of side) rs -> packets side rs' o = packets side rs o.
  Proof.
    unfold packets. revert rs o. induction rs' as [|r rs' IH]; intros [|q rs] o E; cbn [map] in E; try discriminate; [reflexivity|].
    injection E as E1 E2. destruct o as [|y o]; [reflexivity|]. cbn [map2]. rewrite E1, (IH rs o E2). reflexivity.
  Qed.
  Lemma entries_same side (rs rs' : list (crec (V * ClientPacket) W)) : map (share_of side) rs' = map (share_of side) rs ->
    map (fun r => entry row (share_of side r)) rs' = map (fun r => entry row (share_of side r)) rs.
  Proof.
    intros E. now rewrite <- (map_map (share_of side) (entry row) rs'), <- (map_map (share_of side) (entry row) rs), E.
  Qed.

  Definition dom0 (vs : list W) := gives one m k vs.
  Lemma gives_made vs ds : gives one m k vs ds <->
    all_draws (length vs) m k ds /\ map c_real (map made ds) = vs /\ NoDup (map c_pk (map made ds)).
  Proof.
    unfold gives. split.
    - intros (D & l & E & R & ND). rewrite (made_list c m inp one val key sh last HM FORM ds (proj2 D)) in E. injection E as <-. auto.
    - intros (D & R & ND). split; [exact D|]. exists (map made ds). split; [|auto]. exact (made_list c m inp one val key sh last HM FORM ds (proj2 D)).
  Qed.
  Lemma all_draws_dec n : forall ds, {all_draws n m k ds} + {~ all_draws n m k ds}.
  Proof.
    intros ds.
    assert (B : forall z q : Z, {0 <= z < q} + {~ 0 <= z < q}).
    { intros z q. destruct (Z_le_dec 0 z); [|right; lia]. destruct (Z_lt_dec z q); [left; lia|right; lia]. }
    unfold all_draws. destruct (Nat.eq_dec (length ds) n) as [->|]; [|right; now intros []].
    destruct (Forall_dec (one_client m k)) with (l := ds) as [H|H]; [|left; now split|right; now intros []].
    intros d. unfold one_client.
    destruct (Nat.eq_dec (length (fst d)) m) as [L1|]; [|right; now intros []].
    destruct (Nat.eq_dec (length (snd d)) k) as [L2|]; [|right; now intros (_ & _ & ? & _)].
    destruct (Forall_dec block) with (l := fst d) as [H1|H1]; [|destruct (Forall_dec (fun z => 0 <= z < P)) with (l := snd d) as [H2|H2]|].
    - intros b. unfold block. destruct (Nat.eq_dec (length b) 16) as [L3|]; [|right; now intros []].
      destruct (Forall_dec is_byte) with (l := b) as [H3|H3]; [intros z; apply B|left; now split|right; now intros []].
    - intros z. apply B.
    - left. auto.
    - right. now intros (_ & _ & _ & ?).
    - right. now intros (_ & ? & _).
  Qed.
  Lemma gives_dec vs ds : {gives one m k vs ds} + {~ gives one m k vs ds}.
  Proof.
    destruct (all_draws_dec (length vs) ds) as [D|D]; [|right; intros []; contradiction].
    destruct (list_eq_dec Wdec (map c_real (map made ds)) vs) as [R|R]; [|right; intros H; apply gives_made in H; now destruct H as (_ & ? & _)].
    destruct (NoDup_dec (list_eq_dec Z.eq_dec) (map c_pk (map made ds))) as [ND|ND]; [|right; intros H; apply gives_made in H; now destruct H as (_ & _ & ?)].
    left. apply gives_made. split; [exact D|]. split; [exact R|exact ND].
  Qed.

  (** ** Server 0 *)
  Definition R0 (rnd0 : nat -> Z) (ds ds' : list client_draws) : Prop := linked false x (own0 rnd0 (map made ds)) ds ds'.
  Lemma R0_own rnd0 ds ds' : NoDup (map c_pk (map made ds)) -> R0 rnd0 ds ds' -> forall pk, own0 rnd0 (map made ds') pk = own0 rnd0 (map made ds) pk.
  Proof.
    intros ND H pk. pose proof (linked_seen _ _ _ _ _ _ _ _ _ _ _ _ H) as SN. fold made in SN.
    unfold own0, own_of. rewrite (rows_of_same false _ _ ND SN). destruct (rs_of_same order1 false _ _ HF HK ND SN) as [E _]. now rewrite E.
  Qed.
  Lemma R0_sym rnd0 ds ds' : Forall (one_client m k) ds -> Forall (one_client m k) ds' -> NoDup (map c_pk (map made ds)) -> R0 rnd0 ds ds' -> R0 rnd0 ds' ds.
  Proof.
    intros D D' ND H. refine (linked_sym c m vals inp legal val key sh mask VAL MASK false x _ _ ds ds' D D' _ H). exact (R0_own rnd0 ds ds' ND H).
  Qed.
  Lemma R0_total rnd0 vs vs' ds : vs <> [] -> length vs' = length vs -> Forall legal vs' -> gives one m k vs ds ->
    exists ds', gives one m k vs' ds' /\ R0 rnd0 ds ds'.
  Proof.
    intros NE LV HV G. apply gives_made in G as (D & R & ND).
    assert (NL : map made ds <> []) by (intros E; apply NE; now rewrite <- R, E).
    destruct (views rnd0 (map made ds) NL (made_clean ds (proj2 D)) ND) as (L0 & _ & F0 & _).
    destruct (linked_exists c m vals inp legal val key sh mask HM VALS' VAL MASK false x (own0 rnd0 (map made ds)) Hx
      (fun pk => own_length _ _ pk F0) ds vs' (proj2 D) HV) as (ds' & D' & Ld & RV & LK).
    { rewrite LV. symmetry. apply D. }
    exists ds'. split; [|exact LK]. apply gives_made. split; [split; [rewrite Ld, LV; apply D|exact D']|]. split; [exact RV|].
    pose proof (linked_seen _ _ _ _ _ _ _ _ _ _ _ _ LK) as SN. apply seen_pks in SN. fold made in SN. now rewrite SN.
  Qed.
  Lemma exact0 rnd0 vs vs' : vs <> [] -> length vs' = length vs -> Forall legal vs -> Forall legal vs' ->
    exists F, pairs_off (gives one m k vs) (gives one m k vs') F /\ forall ds, gives one m k vs ds -> R0 rnd0 ds (F ds).
  Proof.
    intros NE LV HV HV'. destruct (all_draws_finite (length vs) m k) as (E & _ & HE).
    assert (NE' : vs' <> []) by (intros ->; destruct vs; [now apply NE|discriminate]).
    apply (pairing draws_dec _ _ (all_draws (length vs) m k) (R0 rnd0) E []).
    - intros a. symmetry. apply HE.
    - intros a G. apply G.
    - intros a G. rewrite <- LV. apply G.
    - apply gives_dec.
    - apply gives_dec.
    - intros a G. now apply (R0_total rnd0 vs vs').
    - intros b G. destruct (R0_total rnd0 vs' vs b NE' ltac:(congruence) HV G) as (a & Ga & H). exists a. split; [exact Ga|].
      apply gives_made in G as (D & _ & ND). apply gives_made in Ga as (D' & _). apply R0_sym; auto; [apply D|apply D'].
    - intros a b b' G Gb Gb' H H'. apply gives_made in Gb as (D & R & _), Gb' as (D' & R' & _).
      eapply linked_unique; [exact HM|exact (proj2 D)|exact (proj2 D')| |exact H|exact H']. fold made. congruence.
    - intros a a' b G G' Gb H H'. apply gives_made in G as (D & R & ND), G' as (D' & R' & ND'), Gb as (Db & _ & NDb).
      apply R0_sym in H; [|apply D|apply Db|exact ND]. apply R0_sym in H'; [|apply D'|apply Db|exact ND'].
      eapply linked_unique; [exact HM|exact (proj2 D)|exact (proj2 D')| |exact H|exact H']. fold made. congruence.
  Qed.
  Lemma views0 rnd0 ds ds' vs vs' : vs <> [] -> gives one m k vs ds -> gives one m k vs' ds' -> R0 rnd0 ds ds' ->
    (forall j, (j < length nbs)%nat -> zsum (map (fun v => nth j (vals v) 0) vs') mod P = zsum (map (fun v => nth j (vals v) 0) vs) mod P) ->
    let l := map made ds in let l' := map made ds' in let rs := rs_of order1 l in let rs' := rs_of order1 l' in
    seen false l' = seen false l /\ map c_pk rs' = map c_pk rs /\
    exists bytes a0 b st1', length b = length nbs /\ Forall (in_field P) b /\
      forall log, conv (logged log (s0 rnd0 rs)) (s1 rs) (log ++ bytes, a0) (b, st1') /\
                  conv (logged log (s0 rnd0 rs')) (s1 rs') (log ++ bytes, a0) (b, st1').
  Proof.
    intros NE G G' H ES l l' rs rs'. apply gives_made in G as (D & R & ND), G' as (D' & R' & ND').
    pose proof (linked_seen _ _ _ _ _ _ _ _ _ _ _ _ H) as SN. fold made in SN. change (map made ds') with l' in SN. change (map made ds) with l in SN.
    split; [exact SN|]. destruct (rs_of_same order1 false l l' HF HK ND SN) as [EK EC]. change (rs_of order1 l) with rs in EK, EC. change (rs_of order1 l') with rs' in EK, EC. split; [exact EK|].
    assert (NL : l <> []) by (intros E; apply NE; rewrite <- R; unfold l in E; now rewrite E).
    assert (NL' : l' <> []) by (intros E; apply NL; apply (f_equal (@length _)) in SN; unfold seen in SN; rewrite !map_length, E in SN; now destruct l).
    pose proof (made_clean ds (proj2 D)) as CL. pose proof (made_clean ds' (proj2 D')) as CL'.
    destruct (views rnd0 l NL CL ND) as (L0 & L1 & F0 & F1 & S1 & _ & V0 & _).
    destruct (views rnd0 l' NL' CL' ND') as (L0' & L1' & F0' & F1' & S1' & _ & V0' & _).
    destruct (rs_of_ok order1 l HF ND) as [HP _]. destruct (rs_of_ok order1 l' HF ND') as [HP' _].
    fold rs in L0, L1, S1, V0, HP. fold rs' in L0', L1', S1', V0', HP'.
    rewrite (rows_of_same false l l' ND SN) in L0', F0', S1', V0'.
    set (o0 := own_rows nbs rnd0 (rows_of false l)) in *.
    set (o1 := read_rows nbs (length rs) (M_of l rnd0)) in *. set (o1' := read_rows nbs (length rs') (M_of l' rnd0)) in *.
    destruct (linked_openings _ _ _ _ _ _ _ _ _ _ _ _ H ND) as (corf & O1 & O2). fold made in O1, O2. cbn [negb] in O1, O2.
    fold l in O1. fold l' in O2.
    assert (OC : Forall2 (opens c x true) (packets true rs o1) (map corf (map c_pk rs))).
    { rewrite S1. apply openings_order; [exact ND|exact L0|exact O1]. }
    assert (OC' : Forall2 (opens c x true) (packets true rs' o1') (map corf (map c_pk rs))).
    { rewrite S1', <- EK. apply openings_order; [exact ND'|exact L0'|]. eapply Forall_impl; [|exact O2]. intros r Hr.
      unfold own0 in Hr. fold l in Hr. fold o0 in Hr. unfold own_of in *. fold rs' rs in Hr |- *. rewrite EK. exact Hr. }
    assert (LR' : length rs' = length rs) by (rewrite <- (map_length c_pk rs'), EK; apply map_length).
    assert (CR : Forall (clean c nbs row vals) rs) by (eapply Permutation_Forall; eassumption).
    assert (CR' : Forall (clean c nbs row vals) rs') by (eapply Permutation_Forall; eassumption).
    set (cors := map corf (map c_pk rs)) in *.
    exists (sent_by (send_CorShare_batch cors) ++ sent_by (send_fmpz_batch (reply K c st0 false (packets false rs o0) cors))).
    eexists _, _, _.
    assert (AC : accumulate (length nbs) o1' (repeat true (length rs')) = accumulate (length nbs) o1 (repeat true (length rs))).
    { rewrite S1, S1'. rewrite (accumulate_all c nbs row vals HM HI rs' CR' o0), (accumulate_all c nbs row vals HM HI rs CR o0) by (congruence || assumption).
      apply map_ext_in. intros j Hj. apply in_seq in Hj. rewrite LR'.
      assert (T1 : totals vals j rs = totals vals j l) by (unfold totals; symmetry; apply zsum_permutation, Permutation_map; exact HP).
      assert (T2 : totals vals j rs' = totals vals j l') by (unfold totals; symmetry; apply zsum_permutation, Permutation_map; exact HP').
      rewrite T1, T2, !totals_real. fold l in R. fold l' in R'. rewrite R, R'. rewrite Zminus_mod, (ES j) by lia. now rewrite <- Zminus_mod. }
    destruct (accumulate_spec (length nbs) o1 (repeat true (length rs))) as (AL & AF & _).
    split; [exact AL|]. split; [exact AF|]. intros log. split.
    - rewrite app_assoc. exact (V0 cors log OC).
    - specialize (V0' cors log OC'). rewrite (packets_same false rs rs' o0 EC), AC, LR' in V0'. rewrite app_assoc. exact V0'.
  Qed.

  (** ** Server 1: server 0's masks vary as well *)
  Definition draws1 := (list client_draws * list Z)%type.
  Definition dom1 (vs : list W) (a : draws1) : Prop := gives one m k vs (fst a) /\ masks (length vs) nbs (snd a).
  Definition M1 (a : draws1) : list Z := M_of (map made (fst a)) (tp (snd a)).
  Definition R1 (a a' : draws1) : Prop :=
    linked true x (own1 (map made (fst a)) (M1 a)) (fst a) (fst a') /\ M1 a' = M1 a.

  Lemma rows_clean side l : Forall (clean c nbs row vals) l -> NoDup (map c_pk l) -> rows_ok nbs (rows_of side l) /\ length (rows_of side l) = length l.
  Proof.
    intros CL ND. destruct (rs_of_ok order1 l HF ND) as [HP _]. split.
    - unfold rows_of. eapply clean_rows. eapply Permutation_Forall; eassumption.
    - unfold rows_of. rewrite !map_length. symmetry. now apply Permutation_length.
  Qed.
  Lemma R1_own a a' : NoDup (map c_pk (map made (fst a))) -> R1 a a' ->
    forall pk, own1 (map made (fst a')) (M1 a') pk = own1 (map made (fst a)) (M1 a) pk.
  Proof.
    intros ND [H E] pk. pose proof (linked_seen _ _ _ _ _ _ _ _ _ _ _ _ H) as SN. fold made in SN.
    unfold own1, own_of. destruct (rs_of_same order1 true _ _ HF HK ND SN) as [EK _]. rewrite E, EK.
    assert (EL : length (rs_of order1 (map made (fst a'))) = length (rs_of order1 (map made (fst a)))) by (rewrite <- (map_length c_pk), EK; apply map_length).
    now rewrite EL.
  Qed.
  Lemma R1_sym a a' : Forall (one_client m k) (fst a) -> Forall (one_client m k) (fst a') -> NoDup (map c_pk (map made (fst a))) -> R1 a a' -> R1 a' a.
  Proof.
    intros D D' ND H. split; [|symmetry; apply H].
    refine (linked_sym c m vals inp legal val key sh mask VAL MASK true x _ _ (fst a) (fst a') D D' _ (proj1 H)). exact (R1_own a a' ND H).
  Qed.
  Lemma R1_total vs vs' a : vs <> [] -> length vs' = length vs -> Forall legal vs' -> dom1 vs a -> exists a', dom1 vs' a' /\ R1 a a'.
  Proof.
    intros NE LV HV [G HM1]. destruct a as [ds ms]. cbn [fst snd] in *. apply gives_made in G as (D & R & ND).
    assert (NL : map made ds <> []) by (intros E; apply NE; now rewrite <- R, E).
    destruct (views (tp ms) (map made ds) NL (made_clean ds (proj2 D)) ND) as (_ & L1 & _ & F1 & _).
    destruct (linked_exists c m vals inp legal val key sh mask HM VALS' VAL MASK true x (own1 (map made ds) (M1 (ds, ms))) Hx
      (fun pk => own_length _ _ pk F1) ds vs' (proj2 D) HV) as (ds' & D' & Ld & RV & LK).
    { rewrite LV. symmetry. apply D. }
    pose proof (linked_seen _ _ _ _ _ _ _ _ _ _ _ _ LK) as SN. fold made in SN.
    assert (ND' : NoDup (map c_pk (map made ds'))) by (pose proof (seen_pks _ _ _ SN) as EP; rewrite EP; exact ND).
    destruct (rows_clean false _ (made_clean ds (proj2 D)) ND) as [A0 E0]. destruct (rows_clean true _ (made_clean ds (proj2 D)) ND) as [A1 E1].
    destruct (rows_clean false _ (made_clean ds' D') ND') as [A0' E0']. rewrite map_length in E0, E1, E0'.
    destruct (transfer_exists nbs (tp ms) (rows_of false (map made ds)) (rows_of false (map made ds')) (rows_of true (map made ds)) HW A0 A0' A1) as (ms' & RS & ET);
      [congruence|congruence|].
    exists (ds', ms'). split.
    - split; cbn [fst snd].
      + apply gives_made. split; [split; [rewrite Ld, LV; apply D|exact D']|]. split; [exact RV|exact ND'].
      + rewrite E1, (proj1 D) in RS. rewrite LV. exact RS.
    - split; [exact LK|]. unfold M1, M_of. cbn [fst snd]. rewrite (rows_of_same true _ _ ND SN). exact ET.
  Qed.
  Lemma R1_unique vs' a a1 a2 : NoDup (map c_pk (map made (fst a))) -> dom1 vs' a1 -> dom1 vs' a2 -> R1 a a1 -> R1 a a2 -> a1 = a2.
  Proof.
    intros ND [G1 H1] [G2 H2] [L1 E1] [L2 E2]. apply gives_made in G1 as (D1 & V1 & ND1), G2 as (D2 & V2 & ND2).
    destruct a1 as [ds1 ms1], a2 as [ds2 ms2]. cbn [fst snd] in *.
    assert (ds1 = ds2).
    { eapply linked_unique; [exact HM|exact (proj2 D1)|exact (proj2 D2)| |exact L1|exact L2]. fold made. congruence. }
    subst ds2. f_equal.
    destruct (rows_clean false _ (made_clean ds1 (proj2 D1)) ND1) as [A0 E0]. destruct (rows_clean true _ (made_clean ds1 (proj2 D1)) ND1) as [A1 E1'].
    rewrite map_length, (proj1 D1) in E0, E1'. unfold M1, M_of in E1, E2. cbn [fst snd] in E1, E2.
    apply (transfer_unique nbs ms1 ms2 (rows_of false (map made ds1)) (rows_of true (map made ds1))); auto; try congruence; rewrite E1'; assumption.
  Qed.
  Lemma masks_finite n : exists E, forall ms, In ms E <-> masks n nbs ms.
  Proof.
    destruct (below_finite P) as (E & HE). exists (lists_of E (n * OT.total nbs)). intros ms. now apply in_lists_of.
  Qed.
  Lemma masks_dec n ms : {masks n nbs ms} + {~ masks n nbs ms}.
  Proof.
    unfold masks. destruct (Nat.eq_dec (length ms) (n * OT.total nbs)) as [L|]; [|right; now intros []].
    destruct (Forall_dec (fun z => 0 <= z < P)) with (l := ms) as [H|H]; [|left; now split|right; now intros []].
    intros z. destruct (Z_le_dec 0 z); [|right; lia]. destruct (Z_lt_dec z P); [left; lia|right; lia].
  Qed.
  Lemma draws1_dec : forall a b : draws1, {a = b} + {a <> b}.
  Proof. intros [a b] [a' b']. destruct (draws_dec a a') as [->|]; [|right; congruence]. destruct (list_eq_dec Z.eq_dec b b') as [->|]; [now left|right; congruence]. Qed.
  Lemma exact1 vs vs' : vs <> [] -> length vs' = length vs -> Forall legal vs -> Forall legal vs' ->
    exists F, pairs_off (dom1 vs) (dom1 vs') F /\ forall a, dom1 vs a -> R1 a (F a).
  Proof.
    intros NE LV HV HV'. destruct (all_draws_finite (length vs) m k) as (E & _ & HE). destruct (masks_finite (length vs)) as (E2 & HE2).
    assert (NE' : vs' <> []) by (intros ->; destruct vs; [now apply NE|discriminate]).
    assert (DD : forall v a, {dom1 v a} + {~ dom1 v a}).
    { intros v a. unfold dom1. destruct (gives_dec v (fst a)) as [G|G]; [|right; now intros []].
      destruct (masks_dec (length v) (snd a)) as [Q|Q]; [left; now split|right; now intros []]. }
    assert (NDa : forall v a, dom1 v a -> NoDup (map c_pk (map made (fst a))) /\ Forall (one_client m k) (fst a)).
    { intros v a [G _]. apply gives_made in G as (D & _ & ND). split; [exact ND|exact (proj2 D)]. }
    apply (pairing draws1_dec _ _ (fun a => all_draws (length vs) m k (fst a) /\ masks (length vs) nbs (snd a)) R1 (list_prod E E2) ([], [])).
    - intros [a b]. cbn [fst snd]. etransitivity; [|symmetry; apply in_prod_iff]. rewrite HE, HE2. reflexivity.
    - intros a [G Q]. split; [apply G|exact Q].
    - intros a [G Q]. rewrite <- LV. split; [apply G|exact Q].
    - apply DD.
    - apply DD.
    - intros a G. now apply (R1_total vs vs').
    - intros b G. destruct (R1_total vs' vs b NE' ltac:(congruence) HV G) as (a & Ga & H). exists a. split; [exact Ga|].
      destruct (NDa _ _ G) as [N1 D1]. destruct (NDa _ _ Ga) as [N2 D2]. now apply R1_sym.
    - intros a b b' G Gb Gb' H H'. eapply R1_unique; [apply (NDa _ _ G)|exact Gb|exact Gb'|exact H|exact H'].
    - intros a a' b G G' Gb H H'. destruct (NDa _ _ G) as [N1 D1], (NDa _ _ G') as [N2 D2], (NDa _ _ Gb) as [N3 D3].
      eapply R1_unique; [exact N3|exact G|exact G'| |]; apply R1_sym; assumption.
  Qed.
  Lemma views1 vs vs' ds ms ds' ms' : vs <> [] -> dom1 vs (ds, ms) -> dom1 vs' (ds', ms') -> R1 (ds, ms) (ds', ms') ->
    let l := map made ds in let l' := map made ds' in let rs := rs_of order1 l in let rs' := rs_of order1 l' in
    seen true l' = seen true l /\ map c_pk rs' = map c_pk rs /\
    exists bytes a1 a0 a0', length (fst a1) = length nbs /\ Forall (in_field P) (fst a1) /\
      forall log, conv (logged log (s1 rs)) (s0 (tp ms) rs) (log ++ bytes, a1) a0 /\
                  conv (logged log (s1 rs')) (s0 (tp ms') rs') (log ++ bytes, a1) a0'.
  Proof.
    intros NE [G _] [G' _] [H EM] l l' rs rs'. cbn [fst snd] in *. apply gives_made in G as (D & R & ND), G' as (D' & R' & ND').
    pose proof (linked_seen _ _ _ _ _ _ _ _ _ _ _ _ H) as SN. fold made in SN. change (map made ds') with l' in SN. change (map made ds) with l in SN.
    split; [exact SN|]. destruct (rs_of_same order1 true l l' HF HK ND SN) as [EK EC]. change (rs_of order1 l) with rs in EK, EC. change (rs_of order1 l') with rs' in EK, EC. split; [exact EK|].
    assert (NL : l <> []) by (intros E; apply NE; rewrite <- R; unfold l in E; now rewrite E).
    assert (NL' : l' <> []) by (intros E; apply NL; apply (f_equal (@length _)) in SN; unfold seen in SN; rewrite !map_length, E in SN; now destruct l).
    pose proof (made_clean ds (proj2 D)) as CL. pose proof (made_clean ds' (proj2 D')) as CL'.
    destruct (views (tp ms) l NL CL ND) as (L0 & L1 & F0 & F1 & _ & S0 & _ & V1).
    destruct (views (tp ms') l' NL' CL' ND') as (L0' & L1' & F0' & F1' & _ & S0' & _ & V1').
    fold rs in L0, L1, S0, V1. fold rs' in L0', L1', S0', V1'.
    assert (LR' : length rs' = length rs) by (rewrite <- (map_length c_pk rs'), EK; apply map_length).
    unfold M1 in EM. cbn [fst snd] in EM. change (map made ds') with l' in EM. change (map made ds) with l in EM.
    fold rs in F1. fold rs' in F1'. rewrite EM, LR' in L1', F1', S0', V1'.
    set (o1 := read_rows nbs (length rs) (M_of l (tp ms))) in *.
    set (o0 := own_rows nbs (tp ms) (rows_of false l)) in *. set (o0' := own_rows nbs (tp ms') (rows_of false l')) in *.
    destruct (linked_openings _ _ _ _ _ _ _ _ _ _ _ _ H ND) as (corf & O1 & O2). fold made in O1, O2. cbn [negb] in O1, O2.
    fold l in O1. fold l' in O2.
    assert (OC : Forall2 (opens c x false) (packets false rs o0) (map corf (map c_pk rs))).
    { rewrite S0. apply openings_order; [exact ND|exact L1|exact O1]. }
    assert (OC' : Forall2 (opens c x false) (packets false rs' o0') (map corf (map c_pk rs))).
    { rewrite S0', <- EK. apply openings_order; [exact ND'|fold rs'; congruence|]. eapply Forall_impl; [|exact O2]. intros r Hr.
      unfold own1 in Hr. unfold M1 in Hr. cbn [fst snd] in Hr. fold l in Hr. fold rs in Hr. fold o1 in Hr. unfold own_of in *. fold rs' rs in Hr |- *. rewrite EK. exact Hr. }
    set (cors := map corf (map c_pk rs)) in *.
    exists (((M_of l (tp ms) ++ sent_by (send_CorShare_batch cors)) ++ sent_by (send_fmpz_batch (reply K c st1 true (packets true rs o1) cors))) ++
      sent_by (send_bool_batch (repeat true (length rs)))).
    eexists (_, _), _, _.
    destruct (accumulate_spec (length nbs) o1 (repeat true (length rs))) as (AL & AF & _).
    split; [exact AL|]. split; [exact AF|]. intros log. split.
    - rewrite !app_assoc. exact (V1 cors log OC).
    - specialize (V1' cors log OC'). rewrite (packets_same true rs rs' o1 EC) in V1'. rewrite !app_assoc. exact V1'.
  Qed.
End Pairs.
