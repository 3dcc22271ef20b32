From Coq Require Import ZArith List Bool Lia Permutation.
From Verif Require TreeFacts.
From Verif Require Import Words WordsFacts Constants Cong Share ShareFacts SpecShare Proc ProcFacts Net NetFacts SpecNet NetMsg RelFacts
  OT OTFacts Correlated MpcFacts Poly SpecPoly Circuit SpecCircuit CircuitFacts Snip SpecSnip SnipFacts SnipBatch ServerOps SpecServer TableFacts ServerFacts
  SnipSums SpecStat StatReads StatProps PeerStat Alone AloneFacts SpecForsaken.
Import ListNotations.
Open Scope Z_scope.
Local Notation P := Int_Modulus.
Opaque Int_Modulus.

Lemma forsaken_bind {A C} (p : proc A) (f : A -> proc C) : forall old i c, forsaken old (bind p f) i c ->
  exists old1 old2 a i', forsaken old1 p i a /\ forsaken old2 (f a) i' c.
Proof.
  induction p as [a| |bs k IH|n k IH|bs n k IH|j ps k IH|j cs k IH]; intros old i c H; cbn [bind] in H.
  - exists [], old, a, i. split; [constructor|exact H].
  - inversion H.
  - inversion H; subst. match goal with K : forsaken _ (bind _ _) _ _ |- _ => destruct (IH _ _ _ K) as (o1 & o2 & a & i' & Ha & Hf) end.
    exists o1, o2, a, i'. split; auto. now constructor.
  - inversion H; subst; match goal with K : forsaken _ (bind _ _) _ _ |- _ => destruct (IH _ _ _ _ K) as (o1 & o2 & a & i' & Ha & Hf) end.
    + exists o1, o2, a, i'. split; auto. now apply fs_recv.
    + eexists (_ :: o1), o2, a, i'. split; [|exact Hf]. eapply fs_eof; eauto.
  - inversion H; subst; match goal with K : forsaken _ (bind _ _) _ _ |- _ => destruct (IH _ _ _ _ K) as (o1 & o2 & a & i' & Ha & Hf) end.
    + exists o1, o2, a, i'. split; auto. now apply fs_xchg.
    + eexists (_ :: o1), o2, a, i'. split; [|exact Hf]. eapply fs_xeof; eauto.
  - inversion H; subst. match goal with K : forsaken _ (bind _ _) _ _ |- _ => destruct (IH _ _ _ K) as (o1 & o2 & a & i' & Ha & Hf) end.
    exists o1, o2, a, i'. split; auto. now constructor.
  - inversion H; subst. match goal with K : forsaken _ (bind _ _) _ _ |- _ => destruct (IH _ _ _ _ K) as (o1 & o2 & a & i' & Ha & Hf) end.
    exists o1, o2, a, i'. split; auto. now constructor.
Qed.

(** ** Before the oblivious transfers *)
Lemma send_bits_some mod_ rnd nb k idx num acc : (1 <= nb)%nat -> fst (intsum_send_bits mod_ rnd nb k idx num acc) <> [].
Proof.
  destruct nb as [|nb]; intros H; [lia|]. cbn [intsum_send_bits]. cbv zeta.
  destruct (intsum_send_bits mod_ rnd nb _ _ _ _). discriminate.
Qed.
Lemma send_row_some mod_ rnd row nbs idx : row <> [] -> nbs <> [] -> Forall (fun nb => 1 <= nb)%nat nbs ->
  fst (intsum_send_row mod_ rnd (combine row nbs) idx) <> [].
Proof.
  destruct row as [|x row]; [easy|]. destruct nbs as [|nb nbs]; [easy|]. intros _ _ H.
  pose proof (send_bits_some mod_ rnd nb 0 idx x 0 (Forall_inv H)) as S. cbn [combine intsum_send_row].
  destruct (intsum_send_bits _ _ _ _ _ _ _) as [l a]. destruct (intsum_send_row _ _ _ _) as [l' as']. cbn [fst] in *.
  destruct l; [easy|discriminate].
Qed.

Lemma sums_forsaken old K rnd c nbs known l st i r : nbs <> [] -> Forall (fun nb => 1 <= nb)%nat nbs ->
  Forall (fun e : list Z * ClientPacket => fst e <> []) l ->
  ~ forsaken old (snip_sums0 K rnd c nbs known l st) i r.
Proof.
  intros NN HN HL H. unfold snip_sums0, share_convert, b2a_ot in H.
  apply forsaken_bind in H as (o1 & o2 & sh & i1 & K1 & H). unfold intsum_ot_sender in K1.
  destruct (widths_ok nbs); [|inversion K1].
  destruct l as [|e l].
  - cbn [map combine intsum_send_rows] in K1.
    apply forsaken_bind in H as (o3 & o4 & sv & i2 & K2 & _). cbn [map2 validate_snips] in K2. inversion K2.
  - cbn [map combine intsum_send_rows] in K1.
    pose proof (send_row_some p rnd (map u64 (fst e)) nbs 0) as S.
    destruct (intsum_send_row _ _ _ _) as [ms ret]. destruct (intsum_send_rows _ _ _ _ _) as [ms' rets].
    cbn [fst] in S. assert (S' : map u64 (fst e) <> []).
    { intros Q. apply (Forall_inv HL). destruct (fst e); [reflexivity|discriminate]. }
    specialize (S S' NN HN).
    destruct ms; [easy|]. inversion K1.
Qed.

Lemma var_early nb order total stream junk K rnd st old i r : (1 <= nb)%nat ->
  ~ forsaken old (var_op false order nb total stream junk K rnd st) i r.
Proof.
  intros HB H. unfold var_op in H. destruct (Nat.leb_spec 64 nb) as [G|G]; [inversion H|].
  destruct (receive _ _ _ _) as [m|]; [|inversion H]. unfold var_op0 in H.
  apply forsaken_bind in H as (o1 & o2 & pks & i1 & _ & H). cbv zeta in H.
  apply forsaken_bind in H as (o3 & o4 & s & i2 & K1 & _).
  eapply sums_forsaken in K1; auto; [easy| |].
  - repeat constructor; lia.
  - apply Forall_map, Forall_forall. intros [[[v v2] pkt]|] _; cbn; discriminate.
Qed.

Lemma linreg_early nb order total stream d0 pk0 garbage K rnd st old i r : (1 <= nb)%nat ->
  ~ forsaken old (linreg_op false order nb total stream d0 pk0 garbage K rnd st) i r.
Proof.
  intros HB H. unfold linreg_op in H. destruct (Nat.leb_spec 64 nb) as [G|G]; [inversion H|].
  destruct (crecv _ _ _) as [dg rest]. cbv zeta in H. set (degree := Z.to_nat _) in H.
  destruct (degree =? 0)%nat eqn:D; [inversion H|].
  destruct (receive _ _ _ _) as [m|]; [|inversion H]. unfold linreg_op0 in H.
  apply forsaken_bind in H as (o1 & o2 & pks & i1 & _ & H). cbv zeta in H.
  destruct (reused _ _); [inversion H|].
  apply forsaken_bind in H as (o3 & o4 & s & i2 & K1 & _).
  eapply sums_forsaken in K1; auto.
  - intros E. apply (f_equal (@length _)) in E. unfold linreg_bits, num_fields in E. rewrite map_length, seq_length in E. cbn in E. lia.
  - unfold linreg_bits. apply Forall_map, Forall_forall. intros j _. destruct (degree <=? j)%nat; lia.
  - apply Forall_forall. intros e He.
    assert (G2 : forall fs js, In e (map2 (fun (f : option (linreg_vals * ClientPacket)) (i : nat) =>
        match f with
        | Some (v, pkt) => (linreg_row v, pkt)
        | None => let '(x, x2, xy) := garbage i in (linreg_row (x, 0, x2, xy), mock_packet (NumMulGates (CheckLinReg degree)))
        end) fs js) -> fst e <> []).
    { induction fs as [|f fs IH]; intros [|j js] Hin; cbn [map2] in Hin; try easy.
      destruct Hin as [<-|Hin]; [|now apply (IH js)].
      destruct f as [[[[[x y] x2] xy] pkt]|]; [|destruct (garbage j) as [[x x2] xy]];
        cbn [fst linreg_row]; destruct x; discriminate. }
    exact (G2 _ _ He).
Qed.

(** ** The point before server 1's last message *)
Lemma le_8 x : limbs_ok x -> length (holding x) = 8%nat /\ le_val (holding x) = x.
Proof. intros H. split; [apply le_bytes_length|]. apply le_val_bytes_small. rewrite pow256_8. exact H. Qed.

Lemma forsaken_fmpz {A} (f : Z -> proc A) x old a : limbs_ok x -> forsaken old (f x) [] a ->
  forsaken (holding x :: old) (bind recv_fmpz f) [] a.
Proof.
  intros Hx H. destruct (le_8 x Hx) as [L V]. unfold recv_fmpz. cbn [bind].
  apply fs_eof; [apply PeanoNat.Nat.ltb_lt; reflexivity|exact L|]. now rewrite V.
Qed.

Lemma forsaken_each {A} : forall xs (f : list Z -> proc A) a, Forall limbs_ok xs -> forsaken [] (f xs) [] a ->
  forsaken (map holding xs) (bind (recv_fmpz_each (length xs)) f) [] a.
Proof.
  induction xs as [|x xs IH]; intros f a H K; cbn [length recv_fmpz_each map]; [exact K|].
  inversion H as [|? ? Hx Hxs]; subst. destruct (le_8 x Hx) as [L V]. unfold recv_fmpz. cbn [bind].
  apply fs_eof; [apply PeanoNat.Nat.ltb_lt; reflexivity|exact L|]. rewrite V.
  specialize (IH (fun l => f (x :: l)) a Hxs K). clear -IH.
  assert (Q : forall (r : proc (list Z)) old i, forsaken old (bind r (fun l => f (x :: l))) i a ->
     forsaken old (bind (bind r (fun l => Ret (x :: l))) f) i a).
  { induction r as [l| |bs k IHr|n k IHr|bs n k IHr|j ps k IHr|j cs k IHr]; intros old i H; cbn [bind] in *; auto.
    - inversion H; subst. constructor. auto.
    - inversion H; subst; [apply fs_recv|apply fs_eof]; auto.
    - inversion H; subst; [apply fs_xchg|apply fs_xeof]; auto.
    - inversion H; subst. constructor. auto.
    - inversion H; subst. constructor. auto. }
  apply Q. exact IH.
Qed.

Lemma before_limbs : forall a b, limbs_ok b -> Forall limbs_ok (b_before b a).
Proof. induction a as [|x a IH]; intros b Hb; cbn [b_before]; constructor; auto. apply IH. apply mod_limbs. Qed.
Lemma before_length : forall a b, length (b_before b a) = length a.
Proof. induction a; intros; cbn [b_before length]; auto. Qed.
Lemma after_length : forall a b, length (b_after b a) = length a.
Proof. induction a; intros; cbn [b_after length]; auto. Qed.
Lemma after_before : forall a b, map2 (fun b a => (b + a) mod p) (b_before b a) a = b_after b a.
Proof. induction a; intros; cbn [b_before b_after map2]; [reflexivity|]. now rewrite IHa. Qed.

Lemma var_stop nb order1 (m0 m1 : table (Z * Z * ClientPacket)) L K rnd0 rnd1 st0 st1 :
  (nb <= 24)%nat -> fair order1 -> keys_ok m1 -> both_in m0 m1 L -> m1 <> [] -> synced st0 st1 ->
  Forall (fun e => narrow CheckVar (var_nbs nb) var_row snd (snd e)) m0 ->
  Forall (fun e => narrow CheckVar (var_nbs nb) var_row snd (snd e)) m1 ->
  Z.of_nat (length m1) < two32 ->
  exists good pos a a2 b b2 st0' st1',
    in_field P b /\ in_field P b2 /\
    (let F j := zsum (map (fun pk => nth j (at_both (fun a b => map2 Z.lxor (var_row a) (var_row b)) [] m0 m1 pk) 0) (filter good L)) in
     (b + a) mod p = F 0%nat mod p /\ (b2 + a2) mod p = F 1%nat mod p) /\
    (forall total0, runs (var_op0 K rnd0 nb m0 total0 st0) (var_op1 order1 K rnd1 nb m1 st1)
       (x <- recv_fmpz ;; x2 <- recv_fmpz ;;
        if too_few (length (filter good L)) total0 then Ret (RET_INVALID, st0')
        else Ret (RET_ANS (length (filter good L), (x + a) mod p, (x2 + a2) mod p), st0'))
       (send_fmpz b ;;; send_fmpz b2 ;;; Ret (RET_NO_ANS, st1'))) /\
    (forall pk v v', find pk m0 = Some v -> find pk m1 = Some v' ->
       judged CheckVar (randomX st0) K (pos pk) (map2 Z.lxor (var_row v) (var_row v')) (snd v) (snd v') (good pk)) /\
    (let w := S (length (result_zero CheckVar)) in
     forall pk pk', In pk L -> In pk' L -> pk <> pk' -> (pos pk + w <= pos pk' \/ pos pk' + w <= pos pk)%nat) /\
    (forall pk, In pk L -> (seed_pos st0 <= pos pk)%nat).
Proof.
  intros Hn HF HK HB NE1 SY N0 N1 LM.
  pose proof (op_tables CheckVar (var_nbs nb) var_row snd (fun _ => [0; 0]) (mock_packet (NumMulGates CheckVar))) as OT.
  specialize (OT ltac:(apply PeanoNat.Nat.ltb_lt; reflexivity)
    ltac:(constructor; [apply StatProps.width_small; lia|constructor; [apply StatProps.width_small; lia|constructor]]) eq_refl).
  specialize (OT ltac:(intros i; apply (mock_ok CheckVar (var_nbs nb) 2); [reflexivity|lia|reflexivity|];
      repeat constructor; unfold limbs_ok, two64; lia)).
  specialize (OT order1 m0 m1 L K rnd0 rnd1 st0 st1 HF HK HB NE1 SY N0 N1). cbv zeta in OT.
  destruct OT as (a & b & CV & good & pos & EC & La & Lb & Fb & HS & HJ & HD & HG & SY' & EX & EP & EU & EI).
  destruct a as [[nv a] st0']. destruct b as [b st1']. cbn [fst snd] in *.
  exists good, pos, (nth 0 a 0), (nth 1 a 0), (nth 0 b 0), (nth 1 b 0), st0', st1'.
  assert (Q : forall j, (j < 2)%nat -> in_field P (nth j b 0)).
  { intros j Hj. rewrite Forall_forall in Fb. apply Fb, nth_In. rewrite Lb. exact Hj. }
  split; [apply Q; lia|]. split; [apply Q; lia|]. split.
  { cbv zeta. change p with P. split; [exact (HS 0%nat ltac:(cbn; lia))|exact (HS 1%nat ltac:(cbn; lia))]. }
  split; [|auto]. intros total0.
  unfold var_op0, var_op1. cbv zeta. set (l := order1 _ m1) in *.
  eapply runs_trans.
  { eapply delivers_runs'. apply delivers_announce; [apply fair_forall; [exact HF|apply HK]|]. unfold l. now rewrite fair_length. }
  assert (RU : reused m0 (map fst l) = false) by (apply reused_order; [exact HF|apply HK]).
  set (found := map (fun pk => find pk m0) (map fst l)) in *.
  rewrite (map_as_map2 _ found (fun f (_ : nat) => match f with Some v => (var_row v, snd v)
    | None => ([0; 0], mock_packet (NumMulGates CheckVar)) end) 0).
  2:{ intros [[[v v2] pkt]|] k; reflexivity. }
  rewrite (map_ext (fun e : list Z * (Z * Z * ClientPacket) => let '(v, v2, pkt) := snd e in ([v; v2], pkt))
     (fun e => (var_row (snd e), snd (snd e)))).
  2:{ intros [k [[v v2] pkt]]. reflexivity. }
  eapply conv_bind_runs; [exact CV|]. cbn [fst snd]. rewrite RU, EC. apply runs_refl.
Qed.

Lemma linreg_stop nb degree order1 (m0 m1 : table (linreg_vals * ClientPacket)) garbage0 L K rnd0 rnd1 st0 st1 :
  (nb <= 24)%nat -> (1 <= degree)%nat -> (num_quad degree + num_x degree < 2 ^ 18)%nat ->
  fair order1 -> keys_ok m1 -> both_in m0 m1 L -> m1 <> [] -> synced st0 st1 ->
  Forall (fun e => narrow (CheckLinReg degree) (linreg_bits nb degree) linreg_row' snd (snd e)) m0 ->
  Forall (fun e => narrow (CheckLinReg degree) (linreg_bits nb degree) linreg_row' snd (snd e)) m1 ->
  (forall i, let '(x, x2, xy) := garbage0 i in linreg_shape degree (x, 0, x2, xy)) ->
  Z.of_nat (length m1) < two32 ->
  exists good pos a b st0' st1',
    length a = num_fields degree /\ length b = num_fields degree /\ Forall (in_field P) b /\
    (let F j := zsum (map (fun pk => nth j (at_both (fun a b => map2 Z.lxor (linreg_row' a) (linreg_row' b)) [] m0 m1 pk) 0) (filter good L)) mod p in
     forall j, (j < num_fields degree)%nat -> (nth j b 0 + nth j a 0) mod p = F j) /\
    (forall total0, runs (linreg_op0 K rnd0 nb degree garbage0 m0 total0 st0) (linreg_op1 order1 K rnd1 nb degree m1 st1)
       (x <- recv_fmpz_each (num_fields degree) ;;
        let s := map2 (fun b a => (b + a) mod p) x a in
        let nx := num_x degree in
        let x_accum := Z.of_nat (length (filter good L)) :: firstn nx s ++ firstn (num_quad degree) (skipn degree s) in
        let y_accum := nth nx s 0 :: skipn (degree + num_quad degree) s in
        if too_few (length (filter good L)) total0 then Ret (RET_INVALID, st0')
        else Ret (RET_ANS (x_accum, y_accum), st0'))
       (send_fmpz_batch b ;;; Ret (RET_NO_ANS, st1'))) /\
    (forall pk v v', find pk m0 = Some v -> find pk m1 = Some v' ->
       judged (CheckLinReg degree) (randomX st0) K (pos pk) (map2 Z.lxor (linreg_row' v) (linreg_row' v')) (snd v) (snd v') (good pk)) /\
    (let w := S (length (result_zero (CheckLinReg degree))) in
     forall pk pk', In pk L -> In pk' L -> pk <> pk' -> (pos pk + w <= pos pk' \/ pos pk' + w <= pos pk)%nat) /\
    (forall pk, In pk L -> (seed_pos st0 <= pos pk)%nat).
Proof.
  intros Hn Hd HQ HF HK HB NE1 SY N0 N1 HG LM.
  destruct (linreg_gates degree Hd) as [GM GI].
  assert (HM : (NumMulGates (CheckLinReg degree) < 2 ^ 18)%nat) by (rewrite GM; exact HQ).
  destruct (npo2_nat _ HM) as (kk & _ & _ & HN).
  set (dflt := fun i => let '(x, x2, xy) := garbage0 i in linreg_row (x, 0, x2, xy)).
  set (dpkt := mock_packet (NumMulGates (CheckLinReg degree))).
  assert (HW : Forall (width_ok P) (linreg_bits nb degree)).
  { rewrite linreg_bits_eq by auto.
    assert (W : forall w n, (w <= 48)%nat -> Forall (width_ok P) (repeat w n)).
    { intros w n Hw. apply Forall_forall. intros z Hz. apply repeat_spec in Hz. subst z. now apply StatProps.width_small. }
    apply Forall_app. split; [apply W; lia|]. constructor; [apply StatProps.width_small; lia|].
    apply Forall_app. split; apply W; lia. }
  assert (HI : length (linreg_bits nb degree) = NumInputs (CheckLinReg degree)) by now rewrite linreg_bits_length.
  assert (HDf : forall i, row_ok (CheckLinReg degree) (linreg_bits nb degree) (dflt i, dpkt)).
  { intros i. specialize (HG i). unfold dflt. destruct (garbage0 i) as [[x x2] xy]. unfold dpkt.
    eapply mock_ok; [exact HN|lia| |].
    + destruct HG as (L1 & L2 & L3 & _). rewrite linreg_bits_length. unfold linreg_row. rewrite app_length.
      cbn [length]. rewrite app_length. unfold num_fields. lia.
    + destruct HG as (_ & _ & _ & W1 & W2 & W3 & W4). unfold linreg_row.
      apply Forall_app. split; [exact W1|]. constructor; [exact W2|]. apply Forall_app. split; assumption. }
  pose proof (op_tables (CheckLinReg degree) (linreg_bits nb degree) linreg_row' snd dflt dpkt HM HW HI HDf
    order1 m0 m1 L K rnd0 rnd1 st0 st1 HF HK HB NE1 SY N0 N1) as OT. cbv zeta in OT.
  destruct OT as (a & b & CV & good & pos & EC & La & Lb & Fb & HS & HJ & HD & HGE & SY' & EX & EP & EU & EI).
  destruct a as [[nv a] st0']. destruct b as [b st1']. cbn [fst snd] in *. rewrite linreg_bits_length in La, Lb, HS.
  exists good, pos, a, b, st0', st1'. split; [exact La|]. split; [exact Lb|]. split; [exact Fb|]. split.
  { cbv zeta. change p with P. exact HS. }
  split; [|auto]. intros total0.
  unfold linreg_op0, linreg_op1. cbv zeta. set (l := order1 _ m1) in *.
  eapply runs_trans.
  { eapply delivers_runs'. apply delivers_announce; [apply fair_forall; [exact HF|apply HK]|]. unfold l. now rewrite fair_length. }
  assert (RU : reused m0 (map fst l) = false) by (apply reused_order; [exact HF|apply HK]). rewrite RU.
  set (found := map (fun pk => find pk m0) (map fst l)) in *.
  match goal with |- runs (bind (snip_sums0 _ _ _ _ _ ?l0 _) _) _ _ _ =>
    replace l0 with (map2 (fun f i => match f with Some v => (linreg_row' v, snd v) | None => (dflt i, dpkt) end)
      found (seq 0 (length found))) end.
  2:{ generalize (seq 0 (length found)) as s. generalize found as fs.
      induction fs as [|f fs IHf]; intros [|i s]; cbn [map2]; auto. f_equal; [|apply IHf].
      destruct f as [[v pkt]|]; [reflexivity|]. unfold dflt. now destruct (garbage0 i) as [[? ?] ?]. }
  change (map (fun e : list Z * (linreg_vals * ClientPacket) => (linreg_row (fst (snd e)), snd (snd e))) l)
    with (map (fun e : list Z * (linreg_vals * ClientPacket) => (linreg_row' (snd e), snd (snd e))) l).
  eapply conv_bind_runs; [exact CV|]. cbn [fst snd]. rewrite EC. apply runs_refl.
Qed.

(** ** A stop inside server 1's last message of LINREG *)
Lemma runs_recv_more {A B} (k' : proc B) : forall n bs (k : list Z -> proc A), (n <= length bs)%nat ->
  runs (Recv n k) (Send bs k') (k (firstn n bs)) (Send (skipn n bs) k').
Proof.
  induction n as [|n IH]; intros bs k Hn cap Hc.
  - exists 1%nat. eapply steps_S; [eapply st_0; [apply ls_recv0|constructor]|]. constructor.
  - destruct bs as [|b bs]; [inversion Hn|]. cbn in Hn. apply le_S_n in Hn.
    destruct (IH bs (fun l => k (b :: l)) Hn cap Hc) as (m & Hm). exists (S (S m)).
    eapply steps_S; [eapply st_1; [apply ls_send|constructor; exact Hc]|].
    eapply steps_S; [eapply st_0; [apply ls_recv|constructor]|]. exact Hm.
Qed.
Lemma runs_bind_left {A B C} (p p' : proc A) (q q' : proc B) (f : A -> proc C) :
  runs p q p' q' -> runs (bind p f) q (bind p' f) q'.
Proof.
  intros H cap Hc. destruct (H cap Hc) as (n & Hn). exists n. clear H.
  assert (S1 : forall c d : config A B, step cap c d ->
    step cap (Cfg (bind (proc0 c) f) (proc1 c) (ch01 c) (ch10 c)) (Cfg (bind (proc0 d) f) (proc1 d) (ch01 d) (ch10 d))).
  { intros c d. destruct 1; cbn [proc0 proc1 ch01 ch10 bind].
    - eapply st_0; eauto using lstep_bind.
    - eapply st_1; eauto.
    - apply (st_ot01 cap x ps cs (bind k f) k'); assumption.
    - apply (st_ot10 cap x ps cs k (fun l => bind (k' l) f)); assumption. }
  assert (S2 : forall (c d : config A B), steps cap n c d ->
    steps cap n (Cfg (bind (proc0 c) f) (proc1 c) (ch01 c) (ch10 c)) (Cfg (bind (proc0 d) f) (proc1 d) (ch01 d) (ch10 d))).
  { clear Hn. intros c d Hs. induction Hs; [constructor|]. eapply steps_S; [apply S1; eassumption|exact IHHs]. }
  exact (S2 _ _ Hn).
Qed.

Lemma each_cut {B} (K : proc B) : forall k b, (k <= length b)%nat -> Forall limbs_ok b ->
  exists r', runs (recv_fmpz_each (length b)) (Send (concat (map holding b)) K) r' (Send (concat (map holding (skipn k b))) K) /\
    forall A (f : list Z -> proc A) old a, forsaken old (bind (recv_fmpz_each (length b - k)) (fun l => f (firstn k b ++ l))) [] a ->
      forsaken old (bind r' f) [] a.
Proof.
  induction k as [|k IH]; intros b Hk Hb.
  - exists (recv_fmpz_each (length b)). split; [apply runs_refl|]. intros A f old a H. now rewrite PeanoNat.Nat.sub_0_r in H.
  - destruct b as [|x b]; [cbn in Hk; lia|]. inversion Hb as [|? ? Hx Hb']; subst. destruct (le_8 x Hx) as [L8 V].
    destruct (IH b ltac:(cbn in Hk; lia) Hb') as (r & R & F).
    exists (bind r (fun l => Ret (x :: l))). split.
    + cbn [length recv_fmpz_each map concat skipn]. unfold recv_fmpz. cbn [bind].
      eapply runs_trans.
      { apply runs_recv_more. rewrite app_length, L8. apply Nat.leb_le. reflexivity. }
      change FMPZ_BYTES with 8%nat. rewrite firstn_app, skipn_app, L8, PeanoNat.Nat.sub_diag, firstn_O, skipn_O, app_nil_r.
      rewrite firstn_all2, (skipn_all2 (holding x)) by (rewrite L8; apply le_n). cbn [app]. rewrite V.
      apply runs_bind_left. exact R.
    + intros A f old a H. cbn [length Nat.sub firstn app] in H.
      specialize (F A (fun l => f (x :: l)) old a H). revert F. clear.
      revert old. generalize (@nil Z) as i. induction r as [l| |bs k IHr|n k IHr|bs n k IHr|j ps k IHr|j cs k IHr]; intros i old H; cbn [bind] in *; auto.
      * inversion H; subst. constructor. auto.
      * inversion H; subst; [apply fs_recv|apply fs_eof]; auto.
      * inversion H; subst; [apply fs_xchg|apply fs_xeof]; auto.
      * inversion H; subst. constructor. auto.
      * inversion H; subst. constructor. auto.
Qed.

Lemma nth_firstn_lt {A} (d : A) : forall k j (l : list A), (j < k)%nat -> nth j (firstn k l) d = nth j l d.
Proof. induction k as [|k IH]; intros [|j] [|x l] H; cbn; auto; try lia. apply IH. lia. Qed.
Lemma small_batch l : Z.of_nat (length l) <= MAX_FMPZ_BATCH -> Forall limbs_ok l ->
  send_fmpz_batch l = Send (concat (map holding l)) (Ret tt).
Proof.
  intros HL HF. unfold send_fmpz_batch. 
  assert (E : (MAX_FMPZ_BATCH <? Z.of_nat (length l)) = false) by (now apply Z.ltb_ge).
  assert (F : forallb fits_limbs l = true).
  { apply forallb_forall. intros x Hx. rewrite Forall_forall in HF. specialize (HF x Hx). now apply fits_limbs_ok. }
  generalize (length l) at 1 as fuel. intros [|fuel]; cbn [send_fmpz_batch_loop]; rewrite E; unfold send_fmpz_chunk; rewrite F; reflexivity.
Qed.

(** ** The answers *)
Lemma shifted b a : in_field P b -> b <> 0 -> a mod p <> (b + a) mod p.
Proof.
  intros [B0 B1] Hb E. apply Hb.
  assert (Q : (b + a - a) mod p = 0) by (rewrite Zminus_mod, <- E, Z.sub_diag; reflexivity).
  replace (b + a - a) with b in Q by ring. rewrite Z.mod_small in Q; [exact Q|]. split; [exact B0|exact B1].
Qed.

Lemma var_left nb order0 order1 total0 total1 stream0 stream1 subs0 subs1 junk0 junk1 K rnd0 rnd1 st0 st1 L :
  (nb <= 24)%nat -> fair order1 ->
  arrives_cut var_wire var_size total0 stream0 subs0 -> arrives_cut var_wire var_size total1 stream1 subs1 ->
  Forall (fun s => var_content (snd s)) subs0 -> Forall (fun s => var_content (snd s)) subs1 ->
  length junk0 = 48%nat -> length junk1 = 48%nat ->
  (exists pk, first_sub (var_fits nb) subs1 pk <> None) ->
  accepted (var_fits nb) subs0 subs1 L -> synced st0 st1 ->
  exists ok pos a a2 b b2 st0' st1',
    validated CheckVar (randomX st0) K (seed_pos st0) (var_fits nb) var_opened snd subs0 subs1 L ok pos /\
    in_field p a /\ in_field p a2 /\ in_field p b /\ in_field p b2 /\
    (let n := length (filter ok L) in
     let sum j := field_sum (var_fits nb) var_opened subs0 subs1 (filter ok L) j mod p in
     let s0 := var_op false order0 nb total0 stream0 junk0 K rnd0 st0 in
     let s1 := var_op true order1 nb total1 stream1 junk1 K rnd1 st1 in
     (a + b) mod p = sum 0%nat /\ (a2 + b2) mod p = sum 1%nat /\
     (b <> 0 -> a <> sum 0%nat) /\ (b2 <> 0 -> a2 <> sum 1%nat) /\
     ((total0 <= 2 * n)%nat ->
      stops_before s0 s1 (send_fmpz b ;;; send_fmpz b2 ;;; Ret (RET_NO_ANS, st1')) [holding 0; holding 0]
        (RET_ANS (n, a, a2), st0') /\
      stops_before s0 s1 (send_fmpz b2 ;;; Ret (RET_NO_ANS, st1')) [holding 0]
        (RET_ANS (n, sum 0%nat, a2), st0'))).
Proof.
  intros Hn HF (rest0 & -> & HT0 & HP0 & HL0) (rest1 & -> & HT1 & HP1 & HL1) C0 C1 J0 J1 NE HA SY.
  unfold var_op. destruct (Nat.leb_spec 64 nb) as [G|G]; [lia|].
  rewrite !var_receive by (auto; lia).
  set (m0 := table_of (var_fits nb) subs0). set (m1 := table_of (var_fits nb) subs1).
  pose proof (table_keys (var_fits nb) subs1 HP1) as HK. fold m1 in HK.
  pose proof (both_in_accepted _ _ _ _ HA) as HB. fold m0 m1 in HB.
  pose proof (table_nonempty _ _ NE) as NE1. fold m1 in NE1.
  assert (N0 : Forall (fun e => narrow CheckVar (var_nbs nb) var_row snd (snd e)) m0)
    by (apply table_narrow with (content := var_content); auto using var_narrow).
  assert (N1 : Forall (fun e => narrow CheckVar (var_nbs nb) var_row snd (snd e)) m1)
    by (apply table_narrow with (content := var_content); auto using var_narrow).
  assert (LM : Z.of_nat (length m1) < two32).
  { pose proof (table_length (var_fits nb) subs1) as Q. fold m1 in Q. lia. }
  destruct (var_stop nb order1 m0 m1 L K rnd0 rnd1 st0 st1 Hn HF HK HB NE1 SY N0 N1 LM)
    as (good & pos & a & a2 & b & b2 & st0' & st1' & Fb & Fb2 & [S1 S2] & HR & HJ & HD & HGE).
  exists good, pos, (a mod p), (a2 mod p), b, b2, st0', st1'.
  split. { unfold validated. split; [|split; auto].
    intros pk v v' E0 E1. specialize (HJ pk v v').
    unfold m0, m1 in HJ. rewrite !table_find in HJ. specialize (HJ E0 E1).
    destruct v as [[v v2] p0], v' as [[v' v2'] p1]. exact HJ. }
  split; [apply Z.mod_pos_bound; exact p_pos|]. split; [apply Z.mod_pos_bound; exact p_pos|].
  split; [exact Fb|]. split; [exact Fb2|]. cbv zeta. rewrite !(var_field_sum nb subs0 subs1). fold m0 m1.
  cbv zeta in S1, S2. rewrite <- S1, <- S2.
  split; [rewrite Zplus_mod_idemp_l; f_equal; apply Z.add_comm|].
  split; [rewrite Zplus_mod_idemp_l; f_equal; apply Z.add_comm|].
  split; [now apply shifted|]. split; [now apply shifted|].
  intros HT. specialize (HR total0). split.
  - eexists. split; [exact HR|].
    apply forsaken_fmpz; [apply zero_limbs|]. cbv beta. apply forsaken_fmpz; [apply zero_limbs|]. cbv beta.
    rewrite too_few_no by exact HT. rewrite !Z.add_0_l. constructor.
  - eexists. split.
    + eapply runs_trans; [exact HR|]. eapply delivers_runs'. apply delivers_fmpz, field_limbs, Fb.
    + cbv beta. apply forsaken_fmpz; [apply zero_limbs|]. cbv beta.
      rewrite too_few_no by exact HT. rewrite Z.add_0_l. constructor.
Qed.

Lemma linreg_left nb degree order0 order1 total0 total1 stream0 stream1 subs0 subs1 d0 d1 junk0 junk1
  garbage0 garbage1 K rnd0 rnd1 st0 st1 L :
  (nb <= 24)%nat -> (1 <= degree)%nat -> (num_quad degree + num_x degree < 2 ^ 18)%nat -> fair order1 ->
  arrives_cut linreg_wire (linreg_size degree) total0 stream0 subs0 ->
  arrives_cut linreg_wire (linreg_size degree) total1 stream1 subs1 ->
  Forall (fun s => linreg_content degree (snd s)) subs0 -> Forall (fun s => linreg_content degree (snd s)) subs1 ->
  length d0 = 8%nat -> length d1 = 8%nat -> length junk0 = 32%nat -> length junk1 = 32%nat ->
  (forall i, let '(x, x2, xy) := garbage0 i in linreg_shape degree (x, 0, x2, xy)) ->
  (exists pk, first_sub (linreg_fits nb) subs1 pk <> None) ->
  accepted (linreg_fits nb) subs0 subs1 L -> synced st0 st1 ->
  exists ok pos a b st0' st1',
    validated (CheckLinReg degree) (randomX st0) K (seed_pos st0) (linreg_fits nb) linreg_opened snd subs0 subs1 L ok pos /\
    length a = num_fields degree /\ length b = num_fields degree /\ Forall (in_field p) b /\
    (forall j, (j < num_fields degree)%nat -> (nth j a 0 + nth j b 0) mod p =
       field_sum (linreg_fits nb) linreg_opened subs0 subs1 (filter ok L) j mod p) /\
    (let n := length (filter ok L) in
     let sum j := field_sum (linreg_fits nb) linreg_opened subs0 subs1 (filter ok L) j mod p in
     let s0 := linreg_op false order0 nb total0 (degree_wire degree ++ stream0) d0 junk0 garbage0 K rnd0 st0 in
     let s1 := linreg_op true order1 nb total1 (degree_wire degree ++ stream1) d1 junk1 garbage1 K rnd1 st1 in
     (total0 <= 2 * n)%nat ->
     stops_before s0 s1 (send_fmpz_batch b ;;; Ret (RET_NO_ANS, st1')) (map holding (b_before 0 a))
       (RET_ANS (moments degree n (fun j => nth j (b_after 0 a) 0)), st0') /\
     forall k, (1 <= k < num_fields degree)%nat ->
       stops_before s0 s1 (Send (concat (map holding (skipn k b))) (Ret (RET_NO_ANS, st1')))
         (map holding (b_before (sum (k - 1)%nat) (skipn k a)))
         (RET_ANS (moments degree n (fun j => if (j <? k)%nat then sum j else nth (j - k) (b_after (sum (k - 1)%nat) (skipn k a)) 0)), st0')).
Proof.
  intros Hn Hd HQ HF (rest0 & -> & HT0 & HP0 & HL0) (rest1 & -> & HT1 & HP1 & HL1) C0 C1 LD0 LD1 J0 J1 HG NE HA SY.
  destruct (linreg_gates degree Hd) as [GM GI].
  assert (HM : (NumMulGates (CheckLinReg degree) < 2 ^ 18)%nat) by (rewrite GM; exact HQ).
  destruct (npo2_nat _ HM) as (kk & _ & _ & HN).
  pose proof (degree_small degree HQ) as D32.
  destruct (degree_read degree (wire linreg_wire subs0 ++ rest0) d0 D32 LD0) as (e0 & R0 & E0).
  destruct (degree_read degree (wire linreg_wire subs1 ++ rest1) d1 D32 LD1) as (e1 & R1 & E1).
  unfold linreg_op.
  destruct (Nat.leb_spec 64 nb) as [B|B]; [lia|]. rewrite R0, R1, E0, E1. clear R0 R1 E0 E1.
  destruct (Nat.eqb_spec degree 0) as [Z0|_]; [lia|].
  rewrite !(linreg_receive nb degree _ _ _ _ _ (ltac:(lia) : (nb < 32)%nat) HN) by auto.
  set (m0 := table_of (linreg_fits nb) subs0). set (m1 := table_of (linreg_fits nb) subs1).
  pose proof (table_keys (linreg_fits nb) subs1 HP1) as HK. fold m1 in HK.
  pose proof (both_in_accepted _ _ _ _ HA) as HB. fold m0 m1 in HB.
  pose proof (table_nonempty _ _ NE) as NE1. fold m1 in NE1.
  assert (NW : forall v, linreg_content degree v -> linreg_fits nb v = true ->
     narrow (CheckLinReg degree) (linreg_bits nb degree) linreg_row' snd v) by (intros; now apply linreg_narrow).
  assert (N0 : Forall (fun e => narrow (CheckLinReg degree) (linreg_bits nb degree) linreg_row' snd (snd e)) m0)
    by exact (table_narrow _ (linreg_content degree) _ _ NW C0).
  assert (N1 : Forall (fun e => narrow (CheckLinReg degree) (linreg_bits nb degree) linreg_row' snd (snd e)) m1)
    by exact (table_narrow _ (linreg_content degree) _ _ NW C1).
  assert (LM : Z.of_nat (length m1) < two32).
  { pose proof (table_length (linreg_fits nb) subs1) as Q. fold m1 in Q. lia. }
  destruct (linreg_stop nb degree order1 m0 m1 garbage0 L K rnd0 rnd1 st0 st1 Hn Hd HQ HF HK HB NE1 SY N0 N1 HG LM)
    as (good & pos & a & b & st0' & st1' & La & Lb & Fb & HS & HR & HJ & HD & HGE).
  exists good, pos, a, b, st0', st1'.
  split. { unfold validated. split; [|split; auto].
    intros pk v v' E0 E1. specialize (HJ pk v v').
    unfold m0, m1 in HJ. rewrite !table_find in HJ. exact (HJ E0 E1). }
  split; [exact La|]. split; [exact Lb|]. split; [exact Fb|]. split.
  { intros j Hj. rewrite linreg_field_sum. fold m0 m1. cbv zeta in HS. rewrite <- (HS j Hj). f_equal. apply Z.add_comm. }
  assert (SUMJ : forall j, (j < num_fields degree)%nat -> (nth j b 0 + nth j a 0) mod p =
     field_sum (linreg_fits nb) linreg_opened subs0 subs1 (filter good L) j mod p).
  { intros j Hj. rewrite linreg_field_sum. fold m0 m1. cbv zeta in HS. exact (HS j Hj). }
  cbv zeta. intros HT.
  assert (LAY : forall s, length s = num_fields degree -> forall F, (forall j, (j < num_fields degree)%nat -> F j = nth j s 0) ->
     forsaken [] (let nx := num_x degree in
        let x_accum := Z.of_nat (length (filter good L)) :: firstn nx s ++ firstn (num_quad degree) (skipn degree s) in
        let y_accum := nth nx s 0 :: skipn (degree + num_quad degree) s in
        if too_few (length (filter good L)) total0 then Ret (RET_INVALID, st0')
        else Ret (RET_ANS (x_accum, y_accum), st0')) [] (RET_ANS (moments degree (length (filter good L)) F), st0')).
  { intros s Ls F HFj. cbv zeta. rewrite too_few_no by exact HT.
    assert (FS : s = map F (seq 0 (num_fields degree))).
    { apply nth_ext with (d := 0) (d' := 0); rewrite ?map_length, ?seq_length; [exact Ls|].
      intros j Hj. rewrite Ls in Hj. rewrite (nth_map_in _ _ j 0 0%nat) by now rewrite seq_length.
      rewrite seq_nth by exact Hj. symmetry. now apply HFj. }
    rewrite FS at 1 2 3 4. rewrite <- (moments_layout degree _ F _ Hd eq_refl). constructor. }
  split.
  - eexists. split; [exact (HR total0)|].
    pose proof (before_length a 0) as LB. rewrite La in LB. rewrite <- LB at 1.
    apply forsaken_each; [apply before_limbs, zero_limbs|]. cbv beta. rewrite after_before.
    apply LAY; [rewrite after_length; exact La|]. reflexivity.
  - intros k Hk. set (S := fun j => field_sum (linreg_fits nb) linreg_opened subs0 subs1 (filter good L) j mod p) in *.
    assert (BL : Forall limbs_ok b) by (eapply Forall_impl; [|exact Fb]; intros z Hz; now apply field_limbs).
    assert (SB : Z.of_nat (length b) <= MAX_FMPZ_BATCH).
    { rewrite Lb. unfold num_fields. clear - HQ. change MAX_FMPZ_BATCH with 1000000. change (2 ^ 18)%nat with (Nat.pow 2 18) in HQ.
      apply Znat.inj_lt in HQ. rewrite Znat.Nat2Z.inj_add in HQ. rewrite Nat2Z.inj_pow in HQ. change (Z.of_nat 2 ^ Z.of_nat 18) with 262144 in HQ. lia. }
    destruct (each_cut (Ret (@RET_NO_ANS (list Z * list Z), st1')) k b ltac:(rewrite Lb; lia) BL) as (r' & R & F).
    specialize (HR total0). rewrite (small_batch b SB BL) in HR. cbn [bind] in HR. rewrite Lb in R, F.
    eexists. split.
    + eapply runs_trans; [exact HR|]. apply runs_bind_left. exact R.
    + apply F.
      pose proof (before_length (skipn k a) (S (k - 1)%nat)) as LB. rewrite skipn_length, La in LB. rewrite <- LB at 1.
      apply forsaken_each; [apply before_limbs, mod_limbs|].
      assert (M2 : forall x1 y1 x2 y2 : list Z, length x1 = length y1 ->
         map2 (fun b a => (b + a) mod p) (x1 ++ x2) (y1 ++ y2) = map2 (fun b a => (b + a) mod p) x1 y1 ++ map2 (fun b a => (b + a) mod p) x2 y2).
      { induction x1 as [|x x1 IHx]; intros [|y y1] x2 y2 E; try discriminate; cbn [map2 app]; [reflexivity|]. rewrite IHx; auto. }
      assert (MS : map2 (fun b a => (b + a) mod p) (firstn k b ++ b_before (S (k - 1)%nat) (skipn k a)) a =
         map2 (fun b a => (b + a) mod p) (firstn k b) (firstn k a) ++ b_after (S (k - 1)%nat) (skipn k a)).
      { rewrite <- (firstn_skipn k a) at 2. rewrite M2 by (rewrite !firstn_length, La, Lb; reflexivity). now rewrite after_before. }
      cbv beta. rewrite MS.
      assert (LH : length (map2 (fun b a => (b + a) mod p) (firstn k b) (firstn k a)) = k).
      { rewrite map2_length, !firstn_length, La, Lb. lia. }
      apply LAY.
      { rewrite app_length, LH, after_length, skipn_length, La. lia. }
      intros j Hj. destruct (Nat.ltb_spec j k) as [J|J].
      * rewrite app_nth1 by (rewrite LH; exact J). rewrite TreeFacts.nth_map2' by (rewrite ?firstn_length, ?La, ?Lb; lia).
        rewrite !nth_firstn_lt by exact J. unfold S. symmetry. now apply SUMJ.
      * rewrite app_nth2 by (rewrite LH; exact J). now rewrite LH.
Qed.
