(** Proofs about sessions that end with FREQ. *)
From Coq Require Import String ZArith List Bool Lia Arith.
From Verif Require Import Words WordsFacts Constants Share Proc ProcFacts Net NetFacts ShareFacts RelFacts Correlated SpecStore CorrelatedFacts
  Circuit Snip SpecSnip SnipBatch ServerOps SpecServer ServerFacts ClientOps SpecClient ClientFacts
  Main SpecMain MainFacts SpecFreq ClientMain SpecSession SpecPoly SpecStat P_Server P_Stat P_Freq SessionFacts.
Import ListNotations.
Open Scope Z_scope.
Opaque Int_Modulus.

Lemma ends_reach {A B} k (p : proc A) (q : proc B) a b o i :
  ends k p q (Cfg (Ret a) (Ret b) o i) -> reach k p q (Cfg (Ret a) (Ret b) o i).
Proof.
  intros H cap H1 Hk. destruct (H cap H1 Hk) as (n & Hn & Hc). split.
  - assert (X : forall j m d, (n - m < j)%nat -> steps cap m (start p q) d ->
      exists m', steps cap m' (start p q) (Cfg (Ret a) (Ret b) o i)).
    { induction j as [|j IH]; intros m d Hj Hm; [lia|].
      destruct (Hc m d Hm) as [(d' & Hd)|EQ]; [|subst d; eauto].
      assert (Hm' : steps cap (m + 1) (start p q) d') by (eapply steps_trans; [exact Hm|]; econstructor; [exact Hd|constructor]).
      apply (IH (m + 1)%nat d'); [|exact Hm']. assert (L := Hn _ _ Hm'). lia. }
    apply (X (S n) 0%nat (start p q)); [lia|constructor].
  - intros e Hs. inversion Hs; subst; match goal with L : lstep _ _ _ |- _ => inversion L end.
Qed.

Lemma reach_bind {A B A' B'} k (p : proc A) (q : proc B) a b o i (f : A -> proc A') (g : B -> proc B') a' b' :
  reach k p q (Cfg (Ret a) (Ret b) o i) -> f a = Ret a' -> g b = Ret b' ->
  reach k (bind p f) (bind q g) (Cfg (Ret a') (Ret b') o i).
Proof.
  intros H Ef Eg cap H1 Hk. destruct (H cap H1 Hk) as [(n & Hn) _]. split.
  - exists n. apply (steps_bind _ _ _ _ f g) in Hn. cbn [proc0 proc1 ch01 ch10 bind start] in Hn. rewrite Ef, Eg in Hn. exact Hn.
  - intros e Hs. inversion Hs; subst; match goal with L : lstep _ _ _ |- _ => inversion L end.
Qed.

Lemma reach_after {A B A' B'} k (p : proc A) (q : proc B) R (f : A -> proc A') (g : B -> proc B') (Q : config A' B' -> Prop) :
  rel p q R -> (forall a b, R a b -> exists c, reach k (f a) (g b) c /\ Q c) ->
  exists c, reach k (bind p f) (bind q g) c /\ Q c.
Proof.
  intros (a & b & HC & HR) H. destruct (H a b HR) as (c & Hc & HQ). exists c. split; [|exact HQ].
  eapply runs_reach; [|exact Hc]. exact (runs_bind _ _ _ _ f g HC).
Qed.

(** Properties of the last configuration. *)
Definition last_ok (k : nat) (Rs : list (output -> Prop)) (R : output -> Prop) (left : list Z)
    (c : config (list output * server_state) (list output * server_state)) : Prop :=
  exists outs0 out outs1 s0 s1, c = Cfg (Ret (outs0 ++ [out], s0)) (Ret (outs1, s1)) left [] /\
    Forall2 (fun (R : output -> Prop) out => R out) Rs outs0 /\ R out /\ Forall silent outs1 /\ length outs1 = S k.

Lemma serve_last h0 h1 ks Rs kf0 kf1 (R : output -> Prop) cap left :
  hosts_ok h0 h1 -> Forall2 (fun k R => alone h0 h1 (fst k) (snd k) R) ks Rs ->
  (forall st0 st1, states_ok st0 st1 ->
     exists out out' st0' st1', reach cap (handle false h0 kf0 st0) (handle true h1 kf1 st1)
       (Cfg (Ret (out, st0')) (Ret (out', st1')) left []) /\ R out /\ silent out') ->
  forall st0 st1, states_ok st0 st1 ->
  exists c, reach cap (serve false h0 (map fst ks ++ [kf0]) st0) (serve true h1 (map snd ks ++ [kf1]) st1) c /\
    last_ok (length ks) Rs R left c.
Proof.
  intros (_ & _ & HP) HA HF. induction HA as [|k R1 ks Rs HA _ IH]; intros st0 st1 HS; cbn [map serve app].
  - eapply reach_after; [apply refresh_rel, HS|]. cbn beta. intros v0 v1 (SV & _).
    eapply reach_after; [apply maybeUpdate_rel; [exact HP|apply HS]|]. cbn beta. intros s0 s1 (SS & _).
    destruct (HF (v0, s0) (v1, s1)) as (out & out' & st0' & st1' & HR & HO & HO'); [split; assumption|].
    eexists. split; [eapply reach_bind; [exact HR|reflexivity|reflexivity]|].
    cbn [fst snd]. exists [], out, [out'], st0', st1'. repeat split; auto.
  - eapply reach_after; [apply refresh_rel, HS|]. cbn beta. intros v0 v1 (SV & _).
    eapply reach_after; [apply maybeUpdate_rel; [exact HP|apply HS]|]. cbn beta. intros s0 s1 (SS & _).
    eapply reach_after; [apply both_rel, HA; split; assumption|]. cbn beta. intros r0 r1 (HR & HQ & HS').
    destruct (IH _ _ HS') as (c & HC & outs0 & out & outs1 & t0 & t1 & -> & F1 & F2 & F3 & F4).
    eexists. split; [eapply reach_bind; [exact HC|reflexivity|reflexivity]|].
    cbn [fst snd length]. exists (fst r0 :: outs0), out, (fst r1 :: outs1), t0, t1. repeat split; auto. cbn. now rewrite F4.
Qed.

Lemma main_last nb c0 c1 T0 T1 r0 r1 gen seed0 seed1 ks Rs kf0 kf1 (R : output -> Prop) cap left :
  let h0 := mkHost nb c0 T0 (gen seed0) in let h1 := mkHost nb c1 T1 (gen seed0) in
  params_ok c0 c1 -> length seed0 = length seed1 ->
  Forall2 (fun k R => alone h0 h1 (fst k) (snd k) R) ks Rs ->
  (forall st0 st1, states_ok st0 st1 ->
     exists out out' st0' st1', reach cap (handle false h0 kf0 st0) (handle true h1 kf1 st1)
       (Cfg (Ret (out, st0')) (Ret (out', st1')) left []) /\ R out /\ silent out') ->
  exists c, reach cap (server_main false nb c0 T0 r0 gen seed0 (map fst ks ++ [kf0]))
                      (server_main true nb c1 T1 r1 gen seed1 (map snd ks ++ [kf1])) c /\
    last_ok (length ks) Rs R left c.
Proof.
  intros h0 h1 HP HL HA HF. unfold server_main.
  eapply reach_after; [apply sync_rel|]. cbn beta. intros x y [-> ->].
  eapply reach_after; [apply seeds_rel, HL|]. cbn beta. intros ? ? [-> ->].
  apply (serve_last h0 h1); [repeat split; apply HP|exact HA|exact HF|]. split; cbn [fst snd].
  - apply fresh_synced, Z.mod_pos_bound, ShareFacts.p_pos.
  - split; constructor.
Qed.

Lemma freq_visit nb h0 h1 v : hosts_ok h0 h1 -> h_num_bits h0 = nb -> freq_visit_ok nb v ->
  forall st0 st1, states_ok st0 st1 ->
  exists out out' st0' st1',
    reach (bool_bytes (a_numreqs (v_args v))) (handle false h0 (v_0 v) st0) (handle true h1 (v_1 v) st1)
      (Cfg (Ret (out, st0')) (Ret (out', st1')) (pack_bools (repeat true (a_numreqs (v_args v)))) []) /\
    same_answer out (v_ans v) /\ silent out'.
Proof.
  intros HH HB. destruct v as [[n pr bits dg] e k0 k1 ans]. unfold freq_visit_ok, protocol.
  cbn [v_args v_env v_0 v_1 v_ans a_numreqs a_bits a_protocol].
  intros (EP & H & -> & HNB & HN2 & HG & HK) st0 st1 (_ & SS).
  rewrite !Forall_cons_iff in HK. destruct HK as ((M0 & _ & V0 & J0) & (M1 & F1 & V1 & J1) & _). subst pr nb.
  unfold client_main in H. cbn [a_numreqs a_protocol a_bits a_degree] in H.
  destruct (Nat.ltb_spec 63 (h_num_bits h0)) as [?|_]; [lia|]. destruct (_ <? 2)%nat; [discriminate|].
  cbn [String.eqb Ascii.eqb Bool.eqb] in H. unfold client_freq_op in H.
  set (nb := h_num_bits h0) in *.
  assert (T0 : 0 < 2 ^ Z.of_nat nb) by (apply Z.pow_pos_nonneg; lia).
  assert (T : (2 ^ Z.of_nat nb =? 0) = false) by (apply Z.eqb_neq; lia).
  rewrite T in H. cbn [andb] in H. fold (top nb) in H. injection H as E0 E1 <-.
  assert (TB : Z.of_nat (top nb) < two32).
  { unfold top. rewrite Z2Nat.id by lia. apply Z.le_lt_trans with (2 ^ 30); [|reflexivity]. apply Z.pow_le_mono_r; lia. }
  assert (O0 : opens k0 FREQ_OP n (top nb) (all_bytes freqshare_bytes (subs0 (fst (requests (freq_request (top nb) (e_prg e)) n 0))))).
  { split; [symmetry; exact E0|]. repeat split; auto. discriminate. }
  assert (O1 : opens k1 FREQ_OP n (top nb) (all_bytes freqshare_bytes (subs1 (fst (requests (freq_request (top nb) (e_prg e)) n 0))))).
  { split; [symmetry; exact E1|]. repeat split; auto. discriminate. }
  destruct (freq_run nb (e_prg e) n (k_order k0) (k_order k1) (k_pk k0) (k_pk k1) (k_rows k0) (k_rows k1)
    (h_params h0) (h_params h1) (h_tape h0) (h_tape h1) (snd st0) (snd st1) HNB HG HN2 F1 V0 V1 J0 J1 (proj2 (proj2 HH)) SS)
    as [(s0' & s1' & _ & HE) HC].
  apply ends_reach in HE.
  assert (D0 : handle false h0 k0 st0 = (r <- freq_op false (k_order k0) nb n
     (all_bytes freqshare_bytes (subs0 (fst (requests (freq_request (top nb) (e_prg e)) n 0)))) (k_pk k0) (k_rows k0) (h_params h0) (h_tape h0) (snd st0) ;;
     Ret (OutFreq (fst r), (fst st0, snd r)))).
  { revert st0 SS HE. dispatch O0. }
  assert (D1 : handle true h1 k1 st1 = (r <- freq_op true (k_order k1) nb n
     (all_bytes freqshare_bytes (subs1 (fst (requests (freq_request (top nb) (e_prg e)) n 0)))) (k_pk k1) (k_rows k1) (h_params h1) (h_tape h1) (snd st1) ;;
     Ret (OutFreq (fst r), (fst st1, snd r)))).
  { assert (EN : h_num_bits h1 = nb) by (symmetry; apply HH). clear - O1 EN. revert st1. generalize dependent nb. intros nb O1 <-. dispatch O1. }
  rewrite D0, D1. do 4 eexists. split; [eapply reach_bind; [exact HE|reflexivity|reflexivity]|].
  cbn [fst snd same_answer silent]. split; [|reflexivity]. do 2 f_equal. symmetry. exact HC.
Qed.

Lemma session_freq nb c0 c1 T0 T1 r0 r1 gen seed0 seed1 vs f :
  params_ok c0 c1 -> length seed0 = length seed1 -> Forall (visit_ok nb) vs -> freq_visit_ok nb f ->
  exists outs0 out outs1 s0 s1,
    ends (bool_bytes (a_numreqs (v_args f)))
      (server_main false nb c0 T0 r0 gen seed0 (map v_0 (vs ++ [f]))) (server_main true nb c1 T1 r1 gen seed1 (map v_1 (vs ++ [f])))
      (Cfg (Ret (outs0 ++ [out], s0)) (Ret (outs1, s1)) (pack_bools (repeat true (a_numreqs (v_args f)))) []) /\
    Forall2 (fun v out => one_sided v out /\ (sure nb v -> same_answer out (v_ans v))) vs outs0 /\
    same_answer out (v_ans f) /\ Forall silent outs1 /\ length outs1 = S (length vs).
Proof.
  intros HP HL HV HF.
  assert (E0 : map v_0 (vs ++ [f]) = map fst (map (fun v => (v_0 v, v_1 v)) vs) ++ [v_0 f]) by (rewrite map_app, map_map; reflexivity).
  assert (E1 : map v_1 (vs ++ [f]) = map snd (map (fun v => (v_0 v, v_1 v)) vs) ++ [v_1 f]) by (rewrite map_app, map_map; reflexivity).
  rewrite E0, E1.
  assert (HH : hosts_ok (mkHost nb c0 T0 (gen seed0)) (mkHost nb c1 T1 (gen seed0))) by (repeat split; apply HP).
  destruct (main_last nb c0 c1 T0 T1 r0 r1 gen seed0 seed1 _ (map (answer_ok nb) vs) (v_0 f) (v_1 f)
    (fun out => same_answer out (v_ans f)) (bool_bytes (a_numreqs (v_args f))) (pack_bools (repeat true (a_numreqs (v_args f)))) HP HL
    (visits_alone nb _ _ vs HH eq_refl HV) (freq_visit nb _ _ f HH eq_refl HF))
    as (c & HC & outs0 & out & outs1 & s0 & s1 & -> & F1 & F2 & F3 & F4).
  exists outs0, out, outs1, s0, s1. split; [apply reach_ends, HC|]. split; [apply answers_split, F1|].
  rewrite map_length in F4. auto.
Qed.

(** ** The client's arguments *)
Lemma client_sends_something a e nb :
  a_bits a = Some nb -> (nb <= 63)%nat -> (0 < a_numreqs a)%nat -> Z.of_nat (a_numreqs a) < two32 -> prg_ok (e_prg e) ->
  (2 <= run_degree a)%nat ->
  (In (a_protocol a) ["VAROP"; "STDDEVOP"; "LINREGOP"]%string -> (nb <= 24)%nat) ->
  (a_protocol a = "LINREGOP"%string -> (num_quad (run_degree a) + num_x (run_degree a) < 2 ^ 18)%nat) ->
  exists to0 to1 ans, client_main a e = Sent to0 to1 ans.
Proof.
  destruct a as [n pr bits dg]. cbn [a_bits a_numreqs a_protocol]. intros -> HNB HN HN2 HG HD HV HQ.
  assert (T0 : 0 < 2 ^ Z.of_nat nb) by (apply Z.pow_pos_nonneg; lia).
  assert (T : (2 ^ Z.of_nat nb =? 0) = false) by (apply Z.eqb_neq; lia).
  unfold client_main. cbn [a_bits a_numreqs a_protocol a_degree].
  unfold run_degree in *. cbn [a_degree] in *.
  destruct (Nat.ltb_spec 63 nb) as [?|_]; [lia|].
  destruct (Nat.ltb_spec match dg with Some d => d | None => 2%nat end 2) as [?|_]; [lia|].
  unfold client_int_sum, client_freq_op. rewrite T. cbn [andb].
  assert (SY := fresh_synced 0 (conj (Z.le_refl 0) p_pos)).
  assert (VS : forall stddev, (nb <= 24)%nat -> exists to0 to1 ans, client_var_op stddev nb (2 ^ Z.of_nat nb) n e = Sent to0 to1 ans).
  { intros stddev HB. unfold client_var_op. destruct (Nat.ltb_spec 31 nb) as [?|_]; [lia|]. rewrite T. cbn [andb].
    destruct (var_run nb (e_prg e) (e_tape e) (e_pos e) n id_order id_order (repeat 0 48) (repeat 0 48) (fun _ => 0) (fun _ => 0) (fun _ => 0)
      _ _ HB HG HN HN2 id_fair eq_refl eq_refl SY) as (l & st' & w0 & w1 & -> & _ & -> & -> & _).
    destruct (var_ans l). eauto. }
  destruct (String.eqb pr "BITSUM"); [unfold client_bit_sum; eauto|].
  destruct (String.eqb pr "INTSUM"); [eauto|].
  destruct (String.eqb pr "ANDOP"); [unfold client_xor_op; eauto|].
  destruct (String.eqb pr "OROP"); [unfold client_xor_op; eauto|].
  destruct (String.eqb pr "MAXOP"); [unfold client_max_op; eauto|].
  destruct (String.eqb pr "MINOP"); [unfold client_max_op; eauto|].
  destruct (String.eqb_spec pr "VAROP") as [E|_]; [apply VS, HV; rewrite E; cbn; auto|].
  destruct (String.eqb_spec pr "STDDEVOP") as [E|_]; [apply VS, HV; rewrite E; cbn; auto|].
  destruct (String.eqb_spec pr "LINREGOP") as [E|_].
  { assert (HB : (nb <= 24)%nat) by (apply HV; rewrite E; cbn; auto). specialize (HQ E).
    set (degree := match dg with Some d => d | None => 2%nat end) in *.
    unfold client_lin_reg. destruct (Nat.ltb_spec 31 nb) as [?|_]; [lia|]. rewrite T. cbn [andb].
    assert (HD1 : (1 <= degree)%nat) by lia.
    assert (W0 : word 0) by (split; [lia|reflexivity]).
    assert (HZ : forall m, Forall word (repeat 0 m)) by (intros m; apply Forall_forall; intros y Hy; apply repeat_spec in Hy; rewrite Hy; exact W0).
    assert (HS : forall i : nat, let '(x, x2, xy) := (fun _ : nat => (repeat 0 (num_x degree), repeat 0 (num_quad degree), repeat 0 (num_x degree))) i in
      linreg_shape degree (x, 0, x2, xy)) by (intros _; unfold linreg_shape; rewrite !repeat_length; split; [reflexivity|split; [reflexivity|split; [reflexivity|split; [apply HZ|split; [exact W0|split; apply HZ]]]]]).
    destruct (linreg_run nb degree (e_prg e) (e_tape e) (e_pos e) n id_order id_order (repeat 0 8) (repeat 0 8) (repeat 0 32) (repeat 0 32)
      (fun _ => (repeat 0 (num_x degree), repeat 0 (num_quad degree), repeat 0 (num_x degree)))
      (fun _ => (repeat 0 (num_x degree), repeat 0 (num_quad degree), repeat 0 (num_x degree)))
      (fun _ => 0) (fun _ => 0) (fun _ => 0) _ _ HB HD1 HQ HG HN HN2 id_fair eq_refl eq_refl eq_refl eq_refl HS SY)
      as (l & st' & deg & w0 & w1 & -> & _ & -> & -> & -> & _).
    destruct (linreg_accum degree l). eauto. }
  destruct (String.eqb pr "FREQOP"); eauto.
Qed.
