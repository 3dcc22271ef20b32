(** The views of whole VAR, STDDEV and LINREG operations. *)
From Coq Require Import ZArith List Bool Lia Permutation.
From Verif Require Import Words WordsFacts Cong Constants Share SpecShare ShareFacts Proc ProcFacts Net NetFacts SpecNet NetMsg RelFacts OT OTFacts
  SpecHide HideFacts Correlated MpcFacts Poly SpecPoly FieldFacts Circuit SpecCircuit CircuitFacts Snip SpecSnip SnipFacts SnipBatch
  ServerOps SpecServer TableFacts ServerFacts ClientOps SpecClient ClientFacts SnipSums SpecStat StatReads StatProps StatClient SpecSecret SecretFacts
  SecretProof SpecPrivacy ViewFacts PrivacyFacts PrivacyProof SpecStatPrivacy StatView StatPrivacy.
Import ListNotations.
Open Scope Z_scope.
Local Notation P := Int_Modulus.
Opaque Int_Modulus Int_Gen init_roots.
Arguments Z.mul : simpl never.
Arguments Z.add : simpl never.
Arguments Z.modulo : simpl never.

(** ** The clients' requests *)
Lemma honest_possible c inps p0 p1 : length inps = NumInputs c ->
  (forall a b, shares_of inps a b -> honest c inps (p0, a) (p1, b)) ->
  possible_packet (NumMulGates c) (points_of c) p0 /\ possible_packet (NumMulGates c) (points_of c) p1.
Proof.
  intros LI H. destruct (H inps (map (fun _ => 0) inps)) as (_ & _ & N & T & s & s' & EN & E).
  { split; [reflexivity|]. split; [apply map_length|]. intros i Hi. rewrite (nth_map_in _ inps i 0 0) by exact Hi.
    now rewrite Z.add_0_r. }
  cbn [fst snd] in E. rewrite (packets_form _ c _ T s N EN) in E. injection E as <- <- _.
  unfold points_of. rewrite EN, Nat2Z.id. split; apply packet_possible.
Qed.

Lemma fits_in nb v : word v -> fits nb v = true -> 0 <= v < 2 ^ Z.of_nat nb.
Proof. intros [H _] F. apply Z.ltb_lt in F. lia. Qed.
Lemma fits_in_all nb l : Forall word l -> forallb (fits nb) l = true -> below (2 ^ Z.of_nat nb) l.
Proof.
  intros W F. rewrite forallb_forall in F. rewrite Forall_forall in W. unfold below. apply Forall_forall. intros v Hv.
  apply fits_in; auto.
Qed.
Lemma twice n : 2 * Z.of_nat n = Z.of_nat (2 * n).
Proof. lia. Qed.

Definition squares (v : Z) : list Z := [v; v * v].

Lemma var_clean nb r : (nb <= 31)%nat -> var_good nb r ->
  clean CheckVar (var_nbs nb) var_row squares r /\ possible_var nb (c_0 r) /\ possible_var nb (c_1 r).
Proof.
  intros Hn (Hv & C0 & C1 & F0 & F1 & EO & HH).
  split; [|].
  - split; [now apply var_narrow|]. split; [now apply var_narrow|].
    split; [clear -EO; destruct (c_0 r) as [[? ?] ?], (c_1 r) as [[? ?] ?]; exact EO|].
    split; [now apply check_var_lemma|exact HH].
  - destruct (honest_possible CheckVar [c_real r; c_real r * c_real r] (snd (c_0 r)) (snd (c_1 r)) eq_refl HH) as [P0 P1].
    destruct (c_0 r) as [[v v2] p0]. destruct (c_1 r) as [[w w2] p1]. cbn [snd] in P0, P1.
    destruct C0 as (A0 & B0 & _). destruct C1 as (A1 & B1 & _).
    cbn [var_fits] in F0, F1. apply andb_prop in F0 as [X0 Y0]. apply andb_prop in F1 as [X1 Y1].
    unfold possible_var. rewrite twice.
    split; (split; [now apply fits_in|]; split; [now apply fits_in|assumption]).
Qed.
Lemma var_request_ok nb : (nb <= 31)%nat ->
  request_ok CheckVar (var_nbs nb) var_row squares (var_request (2 ^ Z.of_nat nb)) (possible_var nb).
Proof.
  intros Hn g T r st' G E.
  destruct (var_request_good nb g T Hn 0%nat 0%nat None (or_introl eq_refl)) as (r' & pos' & s' & tabs' & E' & _ & _ & _ & GD).
  rewrite E in E'. injection E' as <- _. now apply var_clean.
Qed.

Lemma linreg_clean nb degree r : (nb <= 31)%nat -> (1 <= degree)%nat -> linreg_good nb degree r ->
  clean (CheckLinReg degree) (linreg_bits nb degree) linreg_row' linreg_fields r /\
  possible_linreg nb degree (c_0 r) /\ possible_linreg nb degree (c_1 r).
Proof.
  intros Hn Hd (Lx & Bx & Hy & C0 & C1 & F0 & F1 & EO & HH).
  split; [|].
  - split; [now apply linreg_narrow|]. split; [now apply linreg_narrow|]. split; [exact EO|].
    split; [now apply linreg_true|exact HH].
  - destruct (honest_possible (CheckLinReg degree) (linreg_fields (c_real r)) (snd (c_0 r)) (snd (c_1 r))) as [P0 P1]; auto.
    { now apply linreg_fields_length. }
    assert (X : forall v, linreg_content degree v -> linreg_fits nb v = true ->
      possible_packet (NumMulGates (CheckLinReg degree)) (points_of (CheckLinReg degree)) (snd v) -> possible_linreg nb degree v).
    { intros [[[[x y] x2] xy] pkt] [(L1 & L2 & L3 & W1 & W2 & W3 & W4) _] F HP. cbn [linreg_fits] in F.
      apply andb_prop in F as [F F4]. apply andb_prop in F as [F F3]. apply andb_prop in F as [F1' F2].
      unfold possible_linreg. rewrite twice. cbn [snd] in HP.
      repeat (split; [first [assumption|now apply fits_in_all|now apply fits_in]|]). exact HP. }
    split; apply X; assumption.
Qed.
Lemma linreg_request_ok nb degree : (nb <= 31)%nat -> (1 <= degree)%nat -> (NumMulGates (CheckLinReg degree) < 2 ^ 18)%nat ->
  request_ok (CheckLinReg degree) (linreg_bits nb degree) linreg_row' linreg_fields
    (linreg_request degree (2 ^ Z.of_nat nb)) (possible_linreg nb degree).
Proof.
  intros Hn Hd HM g T r st' G E.
  destruct (linreg_request_good nb degree g T Hn Hd (fun q k => proj1 (words_ok g q k G)) HM 0%nat 0%nat None (or_introl eq_refl))
    as (r' & pos' & s' & tabs' & E' & _ & _ & _ & GD).
  rewrite E in E'. injection E' as <- _. now apply linreg_clean.
Qed.

Lemma separate_each {V W} (one : prg -> (nat -> Z) -> cstate -> option (crec (V * ClientPacket) W * cstate)) (Q : crec (V * ClientPacket) W -> Prop) :
  (forall g T r st', is_blocks g -> one g T (0%nat, 0%nat, None) = Some (r, st') -> Q r) ->
  forall gs l, Forall (fun gT : tapes => is_blocks (fst gT)) gs -> separate_with_proofs one gs = Some l -> Forall Q l.
Proof.
  intros H. unfold separate_with_proofs. induction gs as [|[g T] gs IH]; intros l G E; cbn [map all_some] in E.
  - injection E as <-. constructor.
  - cbn [fst snd] in E. destruct (one g T (0%nat, 0%nat, None)) as [[r st']|] eqn:E1; [|discriminate]. cbn [option_map fst] in E.
    destruct (all_some _) as [l'|] eqn:E2; [|discriminate]. injection E as <-.
    apply Forall_cons_iff in G as [G1 G2]. constructor; [exact (H g T r st' G1 E1)|apply IH; auto].
Qed.

(** ** One exchange, given what the servers' sums exchange *)
Section Ops.
  Context {V W : Type}.
  Variables (l rs : list (crec V W)) (order1 : iteration).
  Hypothesis HF : fair order1.
  Hypothesis ND : NoDup (map c_pk l).
  Hypothesis K32 : Forall (fun r => length (c_pk r) = 32%nat) l.
  Hypothesis HN : Z.of_nat (length l) < two32.
  Hypothesis HP : Permutation l rs.
  Hypothesis EO : order1 _ (subs1 l) = subs1 rs.

  Lemma keys_delivered : delivers (announce (subs1 rs)) learn (map c_pk rs).
  Proof.
    rewrite announce_keys_eq, <- EO. replace (map c_pk rs) with (map fst (order1 _ (subs1 l))).
    - apply delivers_keys; [exact HF| |unfold subs1; now rewrite map_length].
      split; [unfold subs1; rewrite map_map; exact ND|apply Forall_map; exact K32].
    - rewrite EO. unfold subs1. now rewrite map_map.
  Qed.
  Lemma keys_sent : announce (subs1 rs) = announce_keys (map c_pk rs).
  Proof. rewrite announce_keys_eq. unfold subs1. now rewrite map_map. Qed.
  Lemma all_found : map (fun pk => find pk (subs0 l)) (map c_pk rs) = map (fun r => Some (c_0 r)) rs.
  Proof.
    rewrite map_map. apply map_ext_in. intros r Hr. apply (find_record c_0); [exact ND|].
    eapply Permutation_in; [symmetry; exact HP|exact Hr].
  Qed.
  Lemma not_reused : reused (subs0 l) (map c_pk rs) = false.
  Proof. apply reused_nodup. eapply Permutation_NoDup; [apply Permutation_map; exact HP|exact ND]. Qed.
  Lemma all_known : map is_some (map (fun r : crec V W => Some (c_0 r)) rs) = repeat true (length rs).
  Proof. clear. induction rs as [|r q IH]; cbn; [reflexivity|now rewrite IH]. Qed.
End Ops.

Definition var_answer (r : nat * list Z * snip_state) (b : list Z) (total : nat) : result (nat * Z * Z) * snip_state :=
  let '(num_valid, a, st') := r in
  if too_few num_valid total then (RET_INVALID, st')
  else (RET_ANS (num_valid, (nth 0 b 0 + nth 0 a 0) mod p, (nth 1 b 0 + nth 1 a 0) mod p), st').

Section VarOps.
  Variables (nb : nat) (l rs : list (crec (Z * Z * ClientPacket) Z)) (order1 : iteration) (K rnd0 rnd1 : nat -> Z)
    (st0 st1 : snip_state) (total : nat).
  Hypothesis HF : fair order1.
  Hypothesis ND : NoDup (map c_pk l).
  Hypothesis K32 : Forall (fun r => length (c_pk r) = 32%nat) l.
  Hypothesis HN : Z.of_nat (length l) < two32.
  Hypothesis HP : Permutation l rs.
  Hypothesis EO : order1 _ (subs1 l) = subs1 rs.
  Let s0 := snip_sums0 K rnd0 CheckVar (var_nbs nb) (repeat true (length rs)) (map (fun r => entry var_row (share_of false r)) rs) st0.
  Let s1 := snip_sums1 K rnd1 CheckVar (var_nbs nb) (map (fun r => entry var_row (share_of true r)) rs) st1.

  Lemma var_entries0 : map (fun f : option (Z * Z * ClientPacket) => match f with
      | Some (v, v2, pkt) => ([v; v2], pkt) | None => ([0; 0], mock_packet (NumMulGates CheckVar)) end) (map (fun r => Some (c_0 r)) rs)
    = map (fun r => entry var_row (share_of false r)) rs.
  Proof. rewrite map_map. apply map_ext. intros r. unfold entry, var_row, share_of. now destruct (c_0 r) as [[v v2] pkt]. Qed.
  Lemma var_entries1 : map (fun e : list Z * (Z * Z * ClientPacket) => let '(v, v2, pkt) := snd e in ([v; v2], pkt)) (subs1 rs)
    = map (fun r => entry var_row (share_of true r)) rs.
  Proof.
    unfold subs1. rewrite map_map. apply map_ext. intros r. unfold entry, var_row, share_of. cbn [snd]. now destruct (c_1 r) as [[v v2] pkt].
  Qed.
  Lemma limbs_each b : length b = 2%nat -> Forall (in_field P) b -> limbs_ok (nth 0 b 0) /\ limbs_ok (nth 1 b 0).
  Proof.
    intros L F. rewrite Forall_forall in F. split; apply field_limbs, F, nth_In; lia.
  Qed.

  Lemma var_view0 bytes a0 b st1' : length b = 2%nat -> Forall (in_field P) b ->
    (forall log, conv (logged log s0) s1 (log ++ bytes, a0) (b, st1')) ->
    conv (logged [] (var_op0 K rnd0 nb (subs0 l) total st0)) (var_op1 order1 K rnd1 nb (subs1 l) st1)
      (((([] ++ sent_by (announce_keys (map c_pk rs))) ++ bytes) ++ sent_by (send_fmpz (nth 0 b 0))) ++ sent_by (send_fmpz (nth 1 b 0)),
       var_answer a0 b total) (RET_NO_ANS, st1').
  Proof.
    intros LB FB CV. destruct (limbs_each b LB FB) as [Q0 Q1].
    unfold var_op0, var_op1. cbv zeta. rewrite EO.
    eapply log_receive; [apply (keys_delivered l rs order1); assumption|].
    rewrite (keys_sent rs), (all_found l rs ND HP), all_known, var_entries0, var_entries1.
    fold (var_nbs nb). fold s0 s1.
    eapply conv_logged_bind; [apply CV|]. cbn [fst snd]. destruct a0 as [[nv a] st']. rewrite (not_reused l rs ND HP).
    eapply log_receive; [apply delivers_fmpz, Q0|].
    eapply log_receive; [apply delivers_fmpz, Q1|].
    unfold var_answer. destruct (too_few nv total); apply conv_ret.
  Qed.

  Lemma var_view1 bytes a0 b st1' : length b = 2%nat -> Forall (in_field P) b ->
    (forall log, conv (logged log s1) s0 (log ++ bytes, (b, st1')) a0) ->
    conv (logged [] (var_op1 order1 K rnd1 nb (subs1 l) st1)) (var_op0 K rnd0 nb (subs0 l) total st0)
      ([] ++ bytes, (RET_NO_ANS, st1')) (var_answer a0 b total).
  Proof.
    intros LB FB CV. destruct (limbs_each b LB FB) as [Q0 Q1].
    unfold var_op0, var_op1. cbv zeta. rewrite EO.
    eapply log_send; [apply (keys_delivered l rs order1); assumption|].
    rewrite (all_found l rs ND HP), all_known, var_entries0, var_entries1.
    fold (var_nbs nb). fold s0 s1.
    eapply conv_logged_bind; [apply CV|]. cbn [fst snd]. destruct a0 as [[nv a] st']. rewrite (not_reused l rs ND HP).
    eapply log_send; [apply delivers_fmpz, Q0|].
    eapply log_send; [apply delivers_fmpz, Q1|].
    unfold var_answer. destruct (too_few nv total); apply conv_ret.
  Qed.
End VarOps.

Definition linreg_answer (degree : nat) (r : nat * list Z * snip_state) (b : list Z) (total : nat) : result (list Z * list Z) * snip_state :=
  let '(num_valid, a, st') := r in
  let s := map2 (fun b a => (b + a) mod p) b a in
  if too_few num_valid total then (RET_INVALID, st')
  else (RET_ANS (Z.of_nat num_valid :: firstn (num_x degree) s ++ firstn (num_quad degree) (skipn degree s),
                 nth (num_x degree) s 0 :: skipn (degree + num_quad degree) s), st').

Section LinregOps.
  Variables (nb degree : nat) (l rs : list (crec (linreg_vals * ClientPacket) (list Z * Z))) (order1 : iteration) (K rnd0 rnd1 : nat -> Z)
    (st0 st1 : snip_state) (total : nat) (garbage0 : nat -> list Z * list Z * list Z).
  Hypothesis HF : fair order1.
  Hypothesis ND : NoDup (map c_pk l).
  Hypothesis K32 : Forall (fun r => length (c_pk r) = 32%nat) l.
  Hypothesis HN : Z.of_nat (length l) < two32.
  Hypothesis HP : Permutation l rs.
  Hypothesis EO : order1 _ (subs1 l) = subs1 rs.
  Let s0 := snip_sums0 K rnd0 (CheckLinReg degree) (linreg_bits nb degree) (repeat true (length rs)) (map (fun r => entry linreg_row' (share_of false r)) rs) st0.
  Let s1 := snip_sums1 K rnd1 (CheckLinReg degree) (linreg_bits nb degree) (map (fun r => entry linreg_row' (share_of true r)) rs) st1.

  Lemma linreg_entries0 : map2 (fun (f : option (linreg_vals * ClientPacket)) (i : nat) => match f with
        | Some (v, pkt) => (linreg_row v, pkt)
        | None => let '(x, x2, xy) := garbage0 i in (linreg_row (x, 0, x2, xy), mock_packet (NumMulGates (CheckLinReg degree))) end)
      (map (fun r => Some (c_0 r)) rs) (seq 0 (length (map (fun r => Some (c_0 r)) rs)))
    = map (fun r => entry linreg_row' (share_of false r)) rs.
  Proof.
    rewrite map_length. generalize 0%nat. clear. induction rs as [|r q IH]; intros k; cbn [map length seq map2]; [reflexivity|].
    f_equal; [|apply IH]. unfold entry, linreg_row', share_of. now destruct (c_0 r) as [v pkt].
  Qed.
  Lemma linreg_entries1 : map (fun e : list Z * (linreg_vals * ClientPacket) => (linreg_row (fst (snd e)), snd (snd e))) (subs1 rs)
    = map (fun r => entry linreg_row' (share_of true r)) rs.
  Proof. unfold subs1. rewrite map_map. apply map_ext. intros r. reflexivity. Qed.
  Lemma batch_delivered b : length b = length (linreg_bits nb degree) -> Forall (in_field P) b ->
    delivers (send_fmpz_batch b) (recv_fmpz_each (num_fields degree)) b.
  Proof.
    intros L F. rewrite linreg_bits_length in L. rewrite <- L. apply delivers_batch_each. eapply Forall_impl; [|exact F].
    intros z. apply field_limbs.
  Qed.

  Lemma linreg_view0 bytes a0 b st1' : length b = length (linreg_bits nb degree) -> Forall (in_field P) b ->
    (forall log, conv (logged log s0) s1 (log ++ bytes, a0) (b, st1')) ->
    conv (logged [] (linreg_op0 K rnd0 nb degree garbage0 (subs0 l) total st0)) (linreg_op1 order1 K rnd1 nb degree (subs1 l) st1)
      ((([] ++ sent_by (announce_keys (map c_pk rs))) ++ bytes) ++ sent_by (send_fmpz_batch b),
       linreg_answer degree a0 b total) (RET_NO_ANS, st1').
  Proof.
    intros LB FB CV. pose proof (batch_delivered b LB FB) as QB.
    unfold linreg_op0, linreg_op1. cbv zeta. rewrite EO.
    eapply log_receive; [apply (keys_delivered l rs order1); assumption|].
    rewrite (keys_sent rs), (not_reused l rs ND HP), (all_found l rs ND HP), all_known, linreg_entries0, linreg_entries1.
    fold s0 s1.
    eapply conv_logged_bind; [apply CV|]. cbn [fst snd]. destruct a0 as [[nv a] st'].
    eapply log_receive; [apply QB|].
    unfold linreg_answer. destruct (too_few nv total); apply conv_ret.
  Qed.

  Lemma linreg_view1 bytes a0 b st1' : length b = length (linreg_bits nb degree) -> Forall (in_field P) b ->
    (forall log, conv (logged log s1) s0 (log ++ bytes, (b, st1')) a0) ->
    conv (logged [] (linreg_op1 order1 K rnd1 nb degree (subs1 l) st1)) (linreg_op0 K rnd0 nb degree garbage0 (subs0 l) total st0)
      ([] ++ bytes, (RET_NO_ANS, st1')) (linreg_answer degree a0 b total).
  Proof.
    intros LB FB CV. pose proof (batch_delivered b LB FB) as QB.
    unfold linreg_op0, linreg_op1. cbv zeta. rewrite EO.
    eapply log_send; [apply (keys_delivered l rs order1); assumption|].
    rewrite (not_reused l rs ND HP), (all_found l rs ND HP), all_known, linreg_entries0, linreg_entries1.
    fold s0 s1.
    eapply conv_logged_bind; [apply CV|]. cbn [fst snd]. destruct a0 as [[nv a] st'].
    eapply log_send; [apply QB|].
    unfold linreg_answer. destruct (too_few nv total); apply conv_ret.
  Qed.
End LinregOps.

(** ** Whole operations *)
Lemma var_requests nb gs l : (nb <= 31)%nat -> Forall (fun gT : tapes => is_blocks (fst gT)) gs ->
  separate_with_proofs (var_request (2 ^ Z.of_nat nb)) gs = Some l ->
  Forall (var_good nb) l /\ Forall (fun r => length (c_pk r) = 32%nat) l.
Proof.
  intros Hn G E.
  assert (H : Forall (fun r => var_good nb r /\ length (c_pk r) = 32%nat) l).
  { eapply separate_each; [|exact G|exact E]. intros g T r st' Hg E1.
    destruct (var_request_good nb g T Hn 0%nat 0%nat None (or_introl eq_refl)) as (r' & pos' & s' & tabs' & E' & _ & _ & PK & GD).
    rewrite E1 in E'. injection E' as <- _. split; [exact GD|]. rewrite PK. now apply pk_length32. }
  split; (eapply Forall_impl; [|exact H]); now intros r [].
Qed.

Lemma var_tables_read nb (l : list (crec (Z * Z * ClientPacket) Z)) n order0 order1 junk0 junk1 : (nb <= 24)%nat ->
  Forall (var_good nb) l -> Forall (fun r => length (c_pk r) = 32%nat) l -> NoDup (map c_pk l) -> length l = n ->
  length junk0 = 48%nat -> length junk1 = 48%nat ->
  exists stream0 stream1, wire_opt VarShare_bytes (subs0 l) = Some stream0 /\ wire_opt VarShare_bytes (subs1 l) = Some stream1 /\
    forall K rnd0 rnd1 st0 st1,
      var_op false order0 nb n stream0 junk0 K rnd0 st0 = var_op0 K rnd0 nb (subs0 l) n st0 /\
      var_op true order1 nb n stream1 junk1 K rnd1 st1 = var_op1 order1 K rnd1 nb (subs1 l) st1.
Proof.
  intros Hn GD K32 ND L J0 J1.
  assert (C0 : Forall (fun s => var_content (snd s)) (subs0 l)).
  { apply Forall_map. eapply Forall_impl; [|exact GD]. intros r H. apply H. }
  assert (C1 : Forall (fun s => var_content (snd s)) (subs1 l)).
  { apply Forall_map. eapply Forall_impl; [|exact GD]. intros r H. apply H. }
  assert (F0 : Forall (fun s => var_fits nb (snd s) = true) (subs0 l)).
  { apply Forall_map. eapply Forall_impl; [|exact GD]. intros r H. apply H. }
  assert (F1 : Forall (fun s => var_fits nb (snd s) = true) (subs1 l)).
  { apply Forall_map. eapply Forall_impl; [|exact GD]. intros r H. apply H. }
  assert (W : forall subs, Forall (fun s => var_content (snd s)) subs ->
    Forall (fun s => VarShare_bytes s = Some (var_wire s)) subs).
  { intros subs. apply Forall_impl. intros [pk [[v v2] pkt]] (W1 & W2 & PO). unfold VarShare_bytes. cbn [fst snd].
    rewrite (sent_packet _ _ PO). cbn [option_map]. unfold var_wire, words. cbn [map concat].
    now rewrite app_nil_r, <- !app_assoc. }
  exists (wire var_wire (subs0 l)), (wire var_wire (subs1 l)).
  split; [apply wire_opt_all; auto|]. split; [apply wire_opt_all; auto|]. intros K rnd0 rnd1 st0 st1.
  assert (H63 : (64 <=? nb)%nat = false) by (apply Nat.leb_gt; lia).
  unfold var_op. rewrite H63.
  rewrite <- (app_nil_r (wire var_wire (subs0 l))), <- (app_nil_r (wire var_wire (subs1 l))).
  rewrite !var_receive; auto; try lia; try (left; unfold subs0, subs1; now rewrite map_length);
    try (apply Forall_map; exact K32).
  rewrite !table_distinct; auto; unfold subs0, subs1; rewrite map_map; exact ND.
Qed.

Lemma var_widths nb : (nb <= 24)%nat -> Forall (width_ok P) (var_nbs nb).
Proof. intros H. constructor; [apply StatProps.width_small; lia|]. constructor; [apply StatProps.width_small; lia|constructor]. Qed.
Lemma var_gates : (NumMulGates CheckVar < 2 ^ 18)%nat.
Proof. apply Nat.ltb_lt. reflexivity. Qed.

Lemma var_hides0 nb gs l vs order0 order1 junk0 junk1 K rnd0 rnd1 st0 st1 :
  let one := var_request (2 ^ Z.of_nat nb) in let n := length gs in
  (nb <= 24)%nat -> fair order1 -> by_keys order1 -> length junk0 = 48%nat -> length junk1 = 48%nat -> synced st0 st1 ->
  gs <> [] -> Z.of_nat n < two32 -> Forall (fun gT => is_blocks (fst gT)) gs ->
  separate_with_proofs one gs = Some l -> NoDup (map c_pk l) ->
  length vs = n -> Forall (fun v => 0 <= v < 2 ^ Z.of_nat nb) vs ->
  zsum vs mod p = zsum (map c_real l) mod p ->
  zsum (map (fun v => v * v) vs) mod p = zsum (map (fun r => c_real r * c_real r) l) mod p ->
  exists gs' l' stream0 stream1 stream1' view,
    Forall (fun gT => is_blocks (fst gT)) gs' /\ separate_with_proofs one gs' = Some l' /\ map c_real l' = vs /\
    seen false l' = seen false l /\
    wire_opt VarShare_bytes (subs0 l) = Some stream0 /\ wire_opt VarShare_bytes (subs1 l) = Some stream1 /\
    wire_opt VarShare_bytes (subs1 l') = Some stream1' /\
    sees0 (var_op false order0 nb n stream0 junk0 K rnd0 st0) (var_op true order1 nb n stream1 junk1 K rnd1 st1) view /\
    sees0 (var_op false order0 nb n stream0 junk0 K rnd0 st0) (var_op true order1 nb n stream1' junk1 K rnd1 st1) view.
Proof.
  intros one n Hn HF HK J0 J1 SY NE HN G EL ND LV HV HS1 HS2.
  destruct (var_requests nb gs l ltac:(lia) G EL) as [GD K32].
  destruct (other_world0 CheckVar (var_nbs nb) var_row squares one (fun v => 0 <= v < 2 ^ Z.of_nat nb) (possible_var nb)
    (proj1 check_var_wf) var_gates (var_widths nb Hn) eq_refl (var_opens nb ltac:(lia)) (var_request_ok nb ltac:(lia)) (fun _ _ => eq_refl)
    order1 K rnd0 rnd1 st0 st1 gs l vs HF HK SY NE G EL ND LV HV)
    as (gs' & l' & G' & EL' & R & S & rs & rs' & HP & HP' & EO & EO' & EP & _ & bytes & a0 & b & st1' & LB & FB & CV).
  { intros [|[|j]] Hj; [..|cbn in Hj; lia]; rewrite totals_real; unfold squares; cbn [nth].
    - rewrite !map_id. exact HS1.
    - rewrite map_map. exact HS2. }
  destruct (var_requests nb gs' l' ltac:(lia) G' EL') as [GD' K32'].
  assert (Ll : length l = n) by (exact (separate_count _ gs l EL)).
  assert (EPK := seen_pks false l' l S). assert (S0 : subs0 l' = subs0 l) by exact S.
  assert (ND' : NoDup (map c_pk l')) by now rewrite EPK.
  assert (Ll' : length l' = n) by (apply (f_equal (@length _)) in EPK; rewrite !map_length in EPK; congruence).
  destruct (var_tables_read nb l n order0 order1 junk0 junk1 Hn GD K32 ND Ll J0 J1) as (t0 & t1 & E0 & E1 & X).
  destruct (var_tables_read nb l' n order0 order1 junk0 junk1 Hn GD' K32' ND' Ll' J0 J1) as (t0' & t1' & E0' & E1' & X').
  rewrite S0, E0 in E0'. injection E0' as <-.
  pose proof (var_view0 nb l rs order1 K rnd0 rnd1 st0 st1 n HF ND K32 ltac:(rewrite Ll; exact HN) HP EO bytes a0 b st1' LB FB (fun log => proj1 (CV log))) as V.
  pose proof (var_view0 nb l' rs' order1 K rnd0 rnd1 st0 st1 n HF ND' K32' ltac:(rewrite Ll'; exact HN) HP' EO' bytes a0 b st1' LB FB (fun log => proj2 (CV log))) as V'.
  rewrite EP in V'.
  eexists gs', l', t0, t1, t1', _. do 7 (split; [eassumption|]). split.
  - rewrite (proj1 (X K rnd0 rnd1 st0 st1)), (proj2 (X K rnd0 rnd1 st0 st1)). eexists. apply conv_always. exact V.
  - rewrite (proj1 (X' K rnd0 rnd1 st0 st1)), (proj2 (X' K rnd0 rnd1 st0 st1)). eexists. apply conv_always. exact V'.
Qed.

Lemma var_hides1 nb gs l vs order0 order1 junk0 junk1 K rnd0 rnd1 st0 st1 :
  let one := var_request (2 ^ Z.of_nat nb) in let n := length gs in
  (nb <= 24)%nat -> fair order1 -> by_keys order1 -> length junk0 = 48%nat -> length junk1 = 48%nat -> synced st0 st1 ->
  gs <> [] -> Z.of_nat n < two32 -> Forall (fun gT => is_blocks (fst gT)) gs ->
  separate_with_proofs one gs = Some l -> NoDup (map c_pk l) ->
  length vs = n -> Forall (fun v => 0 <= v < 2 ^ Z.of_nat nb) vs ->
  exists gs' l' rnd0' stream0 stream0' stream1 view,
    Forall (fun gT => is_blocks (fst gT)) gs' /\ separate_with_proofs one gs' = Some l' /\ map c_real l' = vs /\
    seen true l' = seen true l /\
    wire_opt VarShare_bytes (subs0 l) = Some stream0 /\ wire_opt VarShare_bytes (subs0 l') = Some stream0' /\
    wire_opt VarShare_bytes (subs1 l) = Some stream1 /\
    sees1 (var_op false order0 nb n stream0 junk0 K rnd0 st0) (var_op true order1 nb n stream1 junk1 K rnd1 st1) view /\
    sees1 (var_op false order0 nb n stream0' junk0 K rnd0' st0) (var_op true order1 nb n stream1 junk1 K rnd1 st1) view.
Proof.
  intros one n Hn HF HK J0 J1 SY NE HN G EL ND LV HV.
  destruct (var_requests nb gs l ltac:(lia) G EL) as [GD K32].
  destruct (other_world1 CheckVar (var_nbs nb) var_row squares one (fun v => 0 <= v < 2 ^ Z.of_nat nb) (possible_var nb)
    (proj1 check_var_wf) var_gates (var_widths nb Hn) eq_refl (var_opens nb ltac:(lia)) (var_request_ok nb ltac:(lia)) (fun _ _ => eq_refl)
    order1 K rnd0 rnd1 st0 st1 gs l vs HF HK SY NE G EL ND LV HV)
    as (gs' & l' & rnd0' & G' & EL' & R & S & rs & rs' & HP & HP' & EO & EO' & EP & _ & bytes & b & st1' & a0 & a0' & LB & FB & CV).
  destruct (var_requests nb gs' l' ltac:(lia) G' EL') as [GD' K32'].
  assert (Ll : length l = n) by (exact (separate_count _ gs l EL)).
  assert (EPK := seen_pks true l' l S). assert (S0 : subs1 l' = subs1 l) by exact S.
  assert (ND' : NoDup (map c_pk l')) by now rewrite EPK.
  assert (Ll' : length l' = n) by (apply (f_equal (@length _)) in EPK; rewrite !map_length in EPK; congruence).
  destruct (var_tables_read nb l n order0 order1 junk0 junk1 Hn GD K32 ND Ll J0 J1) as (t0 & t1 & E0 & E1 & X).
  destruct (var_tables_read nb l' n order0 order1 junk0 junk1 Hn GD' K32' ND' Ll' J0 J1) as (t0' & t1' & E0' & E1' & X').
  rewrite S0, E1 in E1'. injection E1' as <-.
  pose proof (var_view1 nb l rs order1 K rnd0 rnd1 st0 st1 n HF ND K32 ltac:(rewrite Ll; exact HN) HP EO bytes a0 b st1' LB FB (fun log => proj1 (CV log))) as V.
  pose proof (var_view1 nb l' rs' order1 K rnd0' rnd1 st0 st1 n HF ND' K32' ltac:(rewrite Ll'; exact HN) HP' EO' bytes a0' b st1' LB FB (fun log => proj2 (CV log))) as V'.
  eexists gs', l', rnd0', t0, t0', t1, _. do 7 (split; [eassumption|]). split.
  - rewrite (proj1 (X K rnd0 rnd1 st0 st1)), (proj2 (X K rnd0 rnd1 st0 st1)). eexists. apply conv_always, conv_swap. exact V.
  - rewrite (proj1 (X' K rnd0' rnd1 st0 st1)), (proj2 (X' K rnd0' rnd1 st0 st1)). eexists. apply conv_always, conv_swap. exact V'.
Qed.

Lemma linreg_requests nb degree gs l : (nb <= 31)%nat -> (1 <= degree)%nat -> (NumMulGates (CheckLinReg degree) < 2 ^ 18)%nat ->
  Forall (fun gT : tapes => is_blocks (fst gT)) gs ->
  separate_with_proofs (linreg_request degree (2 ^ Z.of_nat nb)) gs = Some l ->
  Forall (linreg_good nb degree) l /\ Forall (fun r => length (c_pk r) = 32%nat) l.
Proof.
  intros Hn Hd HM G E.
  assert (H : Forall (fun r => linreg_good nb degree r /\ length (c_pk r) = 32%nat) l).
  { eapply separate_each; [|exact G|exact E]. intros g T r st' Hg E1.
    destruct (linreg_request_good nb degree g T Hn Hd (fun q k => proj1 (words_ok g q k Hg)) HM 0%nat 0%nat None (or_introl eq_refl))
      as (r' & pos' & s' & tabs' & E' & _ & _ & PK & GD).
    rewrite E1 in E'. injection E' as <- _. split; [exact GD|]. rewrite PK. now apply pk_length32. }
  split; (eapply Forall_impl; [|exact H]); now intros r [].
Qed.

Lemma linreg_tables_read nb degree (l : list (crec (linreg_vals * ClientPacket) (list Z * Z))) n order0 order1 d0 d1 junk0 junk1 garbage0 garbage1 :
  (nb <= 24)%nat -> (1 <= degree)%nat -> (num_quad degree + num_x degree < 2 ^ 18)%nat ->
  Forall (linreg_good nb degree) l -> Forall (fun r => length (c_pk r) = 32%nat) l -> NoDup (map c_pk l) -> length l = n ->
  length d0 = 8%nat -> length d1 = 8%nat -> length junk0 = 32%nat -> length junk1 = 32%nat ->
  exists deg stream0 stream1, sent_bytes (send_size (Z.of_nat degree)) = Some deg /\
    wire_opt (linregshare_bytes degree) (subs0 l) = Some stream0 /\ wire_opt (linregshare_bytes degree) (subs1 l) = Some stream1 /\
    forall K rnd0 rnd1 st0 st1,
      linreg_op false order0 nb n (deg ++ stream0) d0 junk0 garbage0 K rnd0 st0 = linreg_op0 K rnd0 nb degree garbage0 (subs0 l) n st0 /\
      linreg_op true order1 nb n (deg ++ stream1) d1 junk1 garbage1 K rnd1 st1 = linreg_op1 order1 K rnd1 nb degree (subs1 l) st1.
Proof.
  intros Hn Hd HQ GD K32 ND L D0 D1 J0 J1.
  assert (HM : (NumMulGates (CheckLinReg degree) < 2 ^ 18)%nat) by (rewrite (proj1 (linreg_gates degree Hd)); exact HQ).
  destruct (npo2_nat _ HM) as (k & _ & _ & HN2).
  assert (C0 : Forall (fun s => linreg_content degree (snd s)) (subs0 l)).
  { apply Forall_map. eapply Forall_impl; [|exact GD]. intros r H. apply H. }
  assert (C1 : Forall (fun s => linreg_content degree (snd s)) (subs1 l)).
  { apply Forall_map. eapply Forall_impl; [|exact GD]. intros r H. apply H. }
  assert (F0 : Forall (fun s => linreg_fits nb (snd s) = true) (subs0 l)).
  { apply Forall_map. eapply Forall_impl; [|exact GD]. intros r H. apply H. }
  assert (F1 : Forall (fun s => linreg_fits nb (snd s) = true) (subs1 l)).
  { apply Forall_map. eapply Forall_impl; [|exact GD]. intros r H. apply H. }
  assert (W : forall subs, Forall (fun s => linreg_content degree (snd s)) subs ->
    Forall (fun s => linregshare_bytes degree s = Some (linreg_wire s)) subs).
  { intros subs. apply Forall_impl. intros [pk [[[[x y] x2] xy] pkt]] [HS PO]. unfold linregshare_bytes.
    cbn [fst snd] in PO |- *. destruct HS as (_ & _ & _ & _ & Wy & _). rewrite !sent_bytes_seq, !sent_uint64_batch.
    rewrite (sent_packet _ _ PO). cbn [send_uint64 sent_bytes option_map]. rewrite app_nil_r, be_bytes64 by exact Wy.
    unfold linreg_wire. reflexivity. }
  exists (degree_wire degree), (wire linreg_wire (subs0 l)), (wire linreg_wire (subs1 l)).
  split; [apply sent_degree, degree_small, HQ|].
  split; [apply wire_opt_all; auto|]. split; [apply wire_opt_all; auto|]. intros K rnd0 rnd1 st0 st1.
  assert (H63 : (64 <=? nb)%nat = false) by (apply Nat.leb_gt; lia).
  assert (DZ : (degree =? 0)%nat = false) by (apply Nat.eqb_neq; lia).
  unfold linreg_op. rewrite H63.
  pose proof (degree_small degree HQ) as DS.
  destruct (degree_read degree (wire linreg_wire (subs0 l)) d0 DS D0) as (b0 & R0 & X0).
  destruct (degree_read degree (wire linreg_wire (subs1 l)) d1 DS D1) as (b1 & R1 & X1).
  rewrite R0, R1, X0, X1, DZ.
  rewrite <- (app_nil_r (wire linreg_wire (subs0 l))), <- (app_nil_r (wire linreg_wire (subs1 l))).
  erewrite !linreg_receive by (eauto; try lia; try (left; unfold subs0, subs1; now rewrite map_length);
    try (apply Forall_map; exact K32)).
  rewrite !table_distinct; auto; unfold subs0, subs1; rewrite map_map; exact ND.
Qed.

Lemma linreg_widths nb degree : (nb <= 24)%nat -> (1 <= degree)%nat -> Forall (width_ok P) (linreg_bits nb degree).
Proof.
  intros Hn Hd. rewrite linreg_bits_eq by auto.
  assert (W : forall w n, (w <= 48)%nat -> Forall (width_ok P) (repeat w n)).
  { intros w n Hw. apply Forall_forall. intros z Hz. apply repeat_spec in Hz. subst z. now apply StatProps.width_small. }
  apply Forall_app. split; [apply W; lia|]. constructor; [apply StatProps.width_small; lia|].
  apply Forall_app. split; apply W; lia.
Qed.
Lemma legal_fields nb degree v : (1 <= degree)%nat -> legal_linreg nb degree v -> length (linreg_fields v) = length (linreg_bits nb degree).
Proof.
  intros Hd (L & _). rewrite linreg_bits_length, linreg_fields_length with (degree := degree) by auto.
  apply linreg_gates. exact Hd.
Qed.

Lemma linreg_hides0 nb degree gs l vs order0 order1 d0 d1 junk0 junk1 garbage0 garbage1 K rnd0 rnd1 st0 st1 :
  let one := linreg_request degree (2 ^ Z.of_nat nb) in let n := length gs in
  let sum us j := zsum (map (fun u => nth j (linreg_fields u) 0) us) mod p in
  (nb <= 24)%nat -> (1 <= degree)%nat -> (num_quad degree + num_x degree < 2 ^ 18)%nat ->
  fair order1 -> by_keys order1 -> length d0 = 8%nat -> length d1 = 8%nat ->
  length junk0 = 32%nat -> length junk1 = 32%nat -> synced st0 st1 ->
  gs <> [] -> Z.of_nat n < two32 -> Forall (fun gT => is_blocks (fst gT)) gs ->
  separate_with_proofs one gs = Some l -> NoDup (map c_pk l) ->
  length vs = n -> Forall (legal_linreg nb degree) vs ->
  (forall j, sum vs j = sum (map c_real l) j) ->
  exists gs' l' deg stream0 stream1 stream1' view,
    Forall (fun gT => is_blocks (fst gT)) gs' /\ separate_with_proofs one gs' = Some l' /\ map c_real l' = vs /\
    seen false l' = seen false l /\ sent_bytes (send_size (Z.of_nat degree)) = Some deg /\
    wire_opt (linregshare_bytes degree) (subs0 l) = Some stream0 /\ wire_opt (linregshare_bytes degree) (subs1 l) = Some stream1 /\
    wire_opt (linregshare_bytes degree) (subs1 l') = Some stream1' /\
    sees0 (linreg_op false order0 nb n (deg ++ stream0) d0 junk0 garbage0 K rnd0 st0)
          (linreg_op true order1 nb n (deg ++ stream1) d1 junk1 garbage1 K rnd1 st1) view /\
    sees0 (linreg_op false order0 nb n (deg ++ stream0) d0 junk0 garbage0 K rnd0 st0)
          (linreg_op true order1 nb n (deg ++ stream1') d1 junk1 garbage1 K rnd1 st1) view.
Proof.
  intros one n sum Hn Hd HQ HF HK D0 D1 J0 J1 SY NE HN G EL ND LV HV HS.
  assert (HM : (NumMulGates (CheckLinReg degree) < 2 ^ 18)%nat) by (rewrite (proj1 (linreg_gates degree Hd)); exact HQ).
  destruct (linreg_requests nb degree gs l ltac:(lia) Hd HM G EL) as [GD K32].
  assert (HI : length (linreg_bits nb degree) = NumInputs (CheckLinReg degree)).
  { rewrite linreg_bits_length. symmetry. apply linreg_gates. exact Hd. }
  destruct (other_world0 (CheckLinReg degree) (linreg_bits nb degree) linreg_row' linreg_fields one (legal_linreg nb degree) (possible_linreg nb degree)
    (proj1 (check_linreg_wf degree Hd)) HM (linreg_widths nb degree Hn Hd) HI (linreg_opens nb degree ltac:(lia) Hd)
    (linreg_request_ok nb degree ltac:(lia) Hd HM) (fun v => legal_fields nb degree v Hd)
    order1 K rnd0 rnd1 st0 st1 gs l vs HF HK SY NE G EL ND LV HV)
    as (gs' & l' & G' & EL' & R & S & rs & rs' & HP & HP' & EO & EO' & EP & _ & bytes & a0 & b & st1' & LB & FB & CV).
  { intros j _. rewrite totals_real. exact (HS j). }
  destruct (linreg_requests nb degree gs' l' ltac:(lia) Hd HM G' EL') as [GD' K32'].
  assert (Ll : length l = n) by (exact (separate_count _ gs l EL)).
  assert (EPK := seen_pks false l' l S). assert (S0 : subs0 l' = subs0 l) by exact S.
  assert (ND' : NoDup (map c_pk l')) by now rewrite EPK.
  assert (Ll' : length l' = n) by (apply (f_equal (@length _)) in EPK; rewrite !map_length in EPK; congruence).
  destruct (linreg_tables_read nb degree l n order0 order1 d0 d1 junk0 junk1 garbage0 garbage1 Hn Hd HQ GD K32 ND Ll D0 D1 J0 J1)
    as (deg & t0 & t1 & ED & E0 & E1 & X).
  destruct (linreg_tables_read nb degree l' n order0 order1 d0 d1 junk0 junk1 garbage0 garbage1 Hn Hd HQ GD' K32' ND' Ll' D0 D1 J0 J1)
    as (deg' & t0' & t1' & ED' & E0' & E1' & X').
  rewrite ED in ED'. injection ED' as <-. rewrite S0, E0 in E0'. injection E0' as <-.
  pose proof (linreg_view0 nb degree l rs order1 K rnd0 rnd1 st0 st1 n garbage0 HF ND K32 ltac:(rewrite Ll; exact HN) HP EO bytes a0 b st1' LB FB (fun log => proj1 (CV log))) as V.
  pose proof (linreg_view0 nb degree l' rs' order1 K rnd0 rnd1 st0 st1 n garbage0 HF ND' K32' ltac:(rewrite Ll'; exact HN) HP' EO' bytes a0 b st1' LB FB (fun log => proj2 (CV log))) as V'.
  rewrite EP in V'.
  eexists gs', l', deg, t0, t1, t1', _. do 8 (split; [eassumption|]). split.
  - rewrite (proj1 (X K rnd0 rnd1 st0 st1)), (proj2 (X K rnd0 rnd1 st0 st1)). eexists. apply conv_always. exact V.
  - rewrite (proj1 (X' K rnd0 rnd1 st0 st1)), (proj2 (X' K rnd0 rnd1 st0 st1)). eexists. apply conv_always. exact V'.
Qed.

Lemma linreg_hides1 nb degree gs l vs order0 order1 d0 d1 junk0 junk1 garbage0 garbage1 K rnd0 rnd1 st0 st1 :
  let one := linreg_request degree (2 ^ Z.of_nat nb) in let n := length gs in
  (nb <= 24)%nat -> (1 <= degree)%nat -> (num_quad degree + num_x degree < 2 ^ 18)%nat ->
  fair order1 -> by_keys order1 -> length d0 = 8%nat -> length d1 = 8%nat ->
  length junk0 = 32%nat -> length junk1 = 32%nat -> synced st0 st1 ->
  gs <> [] -> Z.of_nat n < two32 -> Forall (fun gT => is_blocks (fst gT)) gs ->
  separate_with_proofs one gs = Some l -> NoDup (map c_pk l) ->
  length vs = n -> Forall (legal_linreg nb degree) vs ->
  exists gs' l' rnd0' deg stream0 stream0' stream1 view,
    Forall (fun gT => is_blocks (fst gT)) gs' /\ separate_with_proofs one gs' = Some l' /\ map c_real l' = vs /\
    seen true l' = seen true l /\ sent_bytes (send_size (Z.of_nat degree)) = Some deg /\
    wire_opt (linregshare_bytes degree) (subs0 l) = Some stream0 /\ wire_opt (linregshare_bytes degree) (subs0 l') = Some stream0' /\
    wire_opt (linregshare_bytes degree) (subs1 l) = Some stream1 /\
    sees1 (linreg_op false order0 nb n (deg ++ stream0) d0 junk0 garbage0 K rnd0 st0)
          (linreg_op true order1 nb n (deg ++ stream1) d1 junk1 garbage1 K rnd1 st1) view /\
    sees1 (linreg_op false order0 nb n (deg ++ stream0') d0 junk0 garbage0 K rnd0' st0)
          (linreg_op true order1 nb n (deg ++ stream1) d1 junk1 garbage1 K rnd1 st1) view.
Proof.
  intros one n Hn Hd HQ HF HK D0 D1 J0 J1 SY NE HN G EL ND LV HV.
  assert (HM : (NumMulGates (CheckLinReg degree) < 2 ^ 18)%nat) by (rewrite (proj1 (linreg_gates degree Hd)); exact HQ).
  destruct (linreg_requests nb degree gs l ltac:(lia) Hd HM G EL) as [GD K32].
  assert (HI : length (linreg_bits nb degree) = NumInputs (CheckLinReg degree)).
  { rewrite linreg_bits_length. symmetry. apply linreg_gates. exact Hd. }
  destruct (other_world1 (CheckLinReg degree) (linreg_bits nb degree) linreg_row' linreg_fields one (legal_linreg nb degree) (possible_linreg nb degree)
    (proj1 (check_linreg_wf degree Hd)) HM (linreg_widths nb degree Hn Hd) HI (linreg_opens nb degree ltac:(lia) Hd)
    (linreg_request_ok nb degree ltac:(lia) Hd HM) (fun v => legal_fields nb degree v Hd)
    order1 K rnd0 rnd1 st0 st1 gs l vs HF HK SY NE G EL ND LV HV)
    as (gs' & l' & rnd0' & G' & EL' & R & S & rs & rs' & HP & HP' & EO & EO' & EP & _ & bytes & b & st1' & a0 & a0' & LB & FB & CV).
  destruct (linreg_requests nb degree gs' l' ltac:(lia) Hd HM G' EL') as [GD' K32'].
  assert (Ll : length l = n) by (exact (separate_count _ gs l EL)).
  assert (EPK := seen_pks true l' l S). assert (S0 : subs1 l' = subs1 l) by exact S.
  assert (ND' : NoDup (map c_pk l')) by now rewrite EPK.
  assert (Ll' : length l' = n) by (apply (f_equal (@length _)) in EPK; rewrite !map_length in EPK; congruence).
  destruct (linreg_tables_read nb degree l n order0 order1 d0 d1 junk0 junk1 garbage0 garbage1 Hn Hd HQ GD K32 ND Ll D0 D1 J0 J1)
    as (deg & t0 & t1 & ED & E0 & E1 & X).
  destruct (linreg_tables_read nb degree l' n order0 order1 d0 d1 junk0 junk1 garbage0 garbage1 Hn Hd HQ GD' K32' ND' Ll' D0 D1 J0 J1)
    as (deg' & t0' & t1' & ED' & E0' & E1' & X').
  rewrite ED in ED'. injection ED' as <-. rewrite S0, E1 in E1'. injection E1' as <-.
  pose proof (linreg_view1 nb degree l rs order1 K rnd0 rnd1 st0 st1 n garbage0 HF ND K32 ltac:(rewrite Ll; exact HN) HP EO bytes a0 b st1' LB FB (fun log => proj1 (CV log))) as V.
  pose proof (linreg_view1 nb degree l' rs' order1 K rnd0' rnd1 st0 st1 n garbage0 HF ND' K32' ltac:(rewrite Ll'; exact HN) HP' EO' bytes a0' b st1' LB FB (fun log => proj2 (CV log))) as V'.
  eexists gs', l', rnd0', deg, t0, t0', t1, _. do 8 (split; [eassumption|]). split.
  - rewrite (proj1 (X K rnd0 rnd1 st0 st1)), (proj2 (X K rnd0 rnd1 st0 st1)). eexists. apply conv_always, conv_swap. exact V.
  - rewrite (proj1 (X' K rnd0' rnd1 st0 st1)), (proj2 (X' K rnd0' rnd1 st0 st1)). eexists. apply conv_always, conv_swap. exact V'.
Qed.
