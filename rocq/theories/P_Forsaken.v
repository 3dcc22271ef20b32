(** * VAR, STDDEV and LINREG when the other server stops (C71)

    Setting as in P_Stat.v: arbitrary submissions [subs0] and [subs1] arrive, [L] lists the
    identities acceptable at both servers.  Server 1 stops in the middle of the run; what
    server 0 then does is [forsaken] (SpecForsaken.v).  A user would expect no answer. *)
From Coq Require Import ZArith List Bool Lia.
From Verif Require WordsFacts TreeFacts.
From Verif Require Import Words Constants Share Proc ProcFacts Net SpecNet RelFacts SpecPoly Circuit SpecCircuit CircuitFacts
  Snip SpecSnip ServerOps SpecServer TableFacts ServerFacts ClientOps SpecClient SpecStat StatProps SpecAccept AcceptProps
  SpecForsaken ForsakenFacts P_Snip P_Server P_Client P_Stat P_Accept P_RogueStat.
Import ListNotations.
Open Scope Z_scope.

(** Server 1 stops before the oblivious transfers, having sent any bytes [i] at all: server
    0 never comes to the end of the operation, whatever its variables hold. *)
Theorem var_no_answer_partial nb order total stream junk K rnd st old i r : (1 <= nb)%nat ->
  ~ forsaken old (var_op false order nb total stream junk K rnd st) i r.
Proof. exact (var_early nb order total stream junk K rnd st old i r). Qed.
Print Assumptions var_no_answer_partial.

Theorem linreg_no_answer_partial nb order total stream d0 pk0 garbage K rnd st old i r : (1 <= nb)%nat ->
  ~ forsaken old (linreg_op false order nb total stream d0 pk0 garbage K rnd st) i r.
Proof. exact (linreg_early nb order total stream d0 pk0 garbage K rnd st old i r). Qed.
Print Assumptions linreg_no_answer_partial.

(** The full statement, that server 0 gives no answer when server 1 stops at any point
    before the end of its last message, is false.  Let [b] and [b2] be the sums that server
    1 sends at the end.

    - If server 1 stops before these, server 0 reports its own shares [a] and [a2] of the
      two sums as if they were the sums: wrong unless [b] and [b2] are 0.
    - If server 1 stops between these, server 0 reports the right sum of the values, and its
      own share as the sum of the squares. *)
Theorem var_alone_refuted nb order0 order1 total0 total1 stream0 stream1 subs0 subs1 junk0 junk1 K rnd0 rnd1 st0 st1 L :
  (nb <= 24)%nat -> fair order1 ->
  arrives_cut var_wire var_size total0 stream0 subs0 -> arrives_cut var_wire var_size total1 stream1 subs1 ->
  Forall (fun s => var_content (snd s)) subs0 -> Forall (fun s => var_content (snd s)) subs1 ->
  length junk0 = 48%nat -> length junk1 = 48%nat ->
  (exists pk, first_sub (var_fits nb) subs1 pk <> None) ->
  accepted (var_fits nb) subs0 subs1 L -> synced st0 st1 ->
  exists ok pos a a2 b b2 st0' st1',
    validated CheckVar (randomX st0) K (seed_pos st0) (var_fits nb) var_opened snd subs0 subs1 L ok pos /\
    in_field p a /\ in_field p a2 /\ in_field p b /\ in_field p b2 /\
    (let n := length (filter ok L) in
     let sum j := field_sum (var_fits nb) var_opened subs0 subs1 (filter ok L) j mod p in
     let s0 := var_op false order0 nb total0 stream0 junk0 K rnd0 st0 in
     let s1 := var_op true order1 nb total1 stream1 junk1 K rnd1 st1 in
     (a + b) mod p = sum 0%nat /\ (a2 + b2) mod p = sum 1%nat /\
     (b <> 0 -> a <> sum 0%nat) /\ (b2 <> 0 -> a2 <> sum 1%nat) /\
     ((total0 <= 2 * n)%nat ->
      stops_before s0 s1 (send_fmpz b ;;; send_fmpz b2 ;;; Ret (RET_NO_ANS, st1')) [holding 0; holding 0]
        (RET_ANS (n, a, a2), st0') /\
      stops_before s0 s1 (send_fmpz b2 ;;; Ret (RET_NO_ANS, st1')) [holding 0]
        (RET_ANS (n, sum 0%nat, a2), st0'))).
Proof.
  exact (var_left nb order0 order1 total0 total1 stream0 stream1 subs0 subs1 junk0 junk1 K rnd0 rnd1 st0 st1 L).
Qed.
Print Assumptions var_alone_refuted.

(** LINREG: with [a] server 0's own shares of the sums, it solves the normal equations for
    the running sums of [a]: [a_0], [a_0 + a_1], [a_0 + a_1 + a_2], ...  If server 1 stops
    inside its last message, after [k] of its sums [b], the first [k] sums are right and the
    running sums go on from the last of these. *)
Theorem linreg_alone_refuted nb degree order0 order1 total0 total1 stream0 stream1 subs0 subs1 d0 d1 junk0 junk1
  garbage0 garbage1 K rnd0 rnd1 st0 st1 L :
  (nb <= 24)%nat -> (1 <= degree)%nat -> (num_quad degree + num_x degree < 2 ^ 18)%nat -> fair order1 ->
  arrives_cut linreg_wire (linreg_size degree) total0 stream0 subs0 ->
  arrives_cut linreg_wire (linreg_size degree) total1 stream1 subs1 ->
  Forall (fun s => linreg_content degree (snd s)) subs0 -> Forall (fun s => linreg_content degree (snd s)) subs1 ->
  length d0 = 8%nat -> length d1 = 8%nat -> length junk0 = 32%nat -> length junk1 = 32%nat ->
  (forall i, let '(x, x2, xy) := garbage0 i in linreg_shape degree (x, 0, x2, xy)) ->
  (exists pk, first_sub (linreg_fits nb) subs1 pk <> None) ->
  accepted (linreg_fits nb) subs0 subs1 L -> synced st0 st1 ->
  exists ok pos a b st0' st1',
    validated (CheckLinReg degree) (randomX st0) K (seed_pos st0) (linreg_fits nb) linreg_opened snd subs0 subs1 L ok pos /\
    length a = num_fields degree /\ length b = num_fields degree /\ Forall (in_field p) b /\
    (forall j, (j < num_fields degree)%nat -> (nth j a 0 + nth j b 0) mod p =
       field_sum (linreg_fits nb) linreg_opened subs0 subs1 (filter ok L) j mod p) /\
    (let n := length (filter ok L) in
     let sum j := field_sum (linreg_fits nb) linreg_opened subs0 subs1 (filter ok L) j mod p in
     let s0 := linreg_op false order0 nb total0 (degree_wire degree ++ stream0) d0 junk0 garbage0 K rnd0 st0 in
     let s1 := linreg_op true order1 nb total1 (degree_wire degree ++ stream1) d1 junk1 garbage1 K rnd1 st1 in
     (total0 <= 2 * n)%nat ->
     stops_before s0 s1 (send_fmpz_batch b ;;; Ret (RET_NO_ANS, st1')) (map holding (b_before 0 a))
       (RET_ANS (moments degree n (fun j => nth j (b_after 0 a) 0)), st0') /\
     forall k, (1 <= k < num_fields degree)%nat ->
       stops_before s0 s1 (Send (concat (map holding (skipn k b))) (Ret (RET_NO_ANS, st1')))
         (map holding (b_before (sum (k - 1)%nat) (skipn k a)))
         (RET_ANS (moments degree n (fun j => if (j <? k)%nat then sum j else nth (j - k) (b_after (sum (k - 1)%nat) (skipn k a)) 0)), st0')).
Proof.
  exact (linreg_left nb degree order0 order1 total0 total1 stream0 stream1 subs0 subs1 d0 d1 junk0 junk1
    garbage0 garbage1 K rnd0 rnd1 st0 st1 L).
Qed.
Print Assumptions linreg_alone_refuted.

(** ** Examples *)

(** [b_after] for the shares 5, 7 and p - 2. *)
Example after_ex : b_after 0 [5; 7; p - 2] = [5; 12; 10] /\ b_before 0 [5; 7; p - 2] = [0; 5; 12].
Proof. split; vm_compute; reflexivity. Qed.

(** What is excluded before the transfers is not excluded after them: with the bytes of
    server 1's sums there, server 0 finishes. *)
Example forsaken_ex : forsaken [holding 9] (x <- recv_fmpz ;; y <- recv_fmpz ;; Ret (x, y)) (holding 4 ++ [1; 2]) (4, 9).
Proof.
  unfold recv_fmpz. cbn [bind]. apply fs_recv; [apply PeanoNat.Nat.leb_le; reflexivity|].
  replace (le_val (firstn FMPZ_BYTES (holding 4 ++ [1; 2]))) with 4 by (vm_compute; reflexivity).
  replace (skipn FMPZ_BYTES (holding 4 ++ [1; 2])) with [1; 2] by (vm_compute; reflexivity). cbn [bind].
  apply fs_eof; [apply PeanoNat.Nat.ltb_lt; reflexivity|reflexivity|].
  replace (le_val (holding 9)) with 9 by (vm_compute; reflexivity). constructor.
Qed.

(** Two honest clients with the values 1 and 2. *)
Example var_alone_ex : exists a a2 b b2 st0' st1',
  (a + b) mod p = 3 /\ (a2 + b2) mod p = 5 /\
  stops_before
    (var_op false id_order 3 2 (wire var_wire (subs0 ex_vars)) (repeat 7 48) (fun _ => 3) ex_tape (ex_state 5))
    (var_op true id_order 3 2 (wire var_wire (subs1 ex_vars)) (repeat 7 48) (fun _ => 3) ex_tape (ex_state 5))
    (send_fmpz b ;;; send_fmpz b2 ;;; Ret (RET_NO_ANS, st1')) [holding 0; holding 0] (RET_ANS (2%nat, a, a2), st0') /\
  stops_before
    (var_op false id_order 3 2 (wire var_wire (subs0 ex_vars)) (repeat 7 48) (fun _ => 3) ex_tape (ex_state 5))
    (var_op true id_order 3 2 (wire var_wire (subs1 ex_vars)) (repeat 7 48) (fun _ => 3) ex_tape (ex_state 5))
    (send_fmpz b2 ;;; Ret (RET_NO_ANS, st1')) [holding 0] (RET_ANS (2%nat, 3, a2), st0').
Proof.
  assert (C : Forall (fun s => var_content (snd s)) (subs0 ex_vars) /\ Forall (fun s => var_content (snd s)) (subs1 ex_vars)).
  { split; [exact (proj1 (proj1 (Forall_app _ _ _) (proj1 ex_vars_content)))|exact (proj1 (proj1 (Forall_app _ _ _) (proj2 ex_vars_content)))]. }
  pose proof (var_alone_refuted 3 id_order id_order 2 2 _ _ (subs0 ex_vars) (subs1 ex_vars) (repeat 7 48) (repeat 7 48)
    (fun _ => 3) ex_tape ex_tape (ex_state 5) (ex_state 5) (map c_pk ex_vars) ltac:(lia) id_fair
    (proj1 ex_two_arrive) (proj2 ex_two_arrive) (proj1 C) (proj2 C) eq_refl eq_refl) as H.
  specialize (H ltac:(exists (nth 1 (map c_pk ex_vars) []); vm_compute; discriminate)).
  specialize (H ltac:(apply accepted_computed; vm_compute; reflexivity) ex_synced).
  destruct H as (ok & pos & a & a2 & b & b2 & st0' & st1' & (HJ & _) & _ & _ & _ & _ & S1 & S2 & _ & _ & HS).
  assert (OK : forall pk, In pk (map c_pk ex_vars) -> ok pk = true).
  { intros pk Hin. pose proof (ex_two_proved pk Hin) as W. unfold proved_at in W.
    destruct (first_sub (var_fits 3) (subs0 ex_vars) pk) as [u|] eqn:E0; [|contradiction].
    destruct (first_sub (var_fits 3) (subs1 ex_vars) pk) as [v|] eqn:E1; [|contradiction].
    assert (R : in_field p (randomX (ex_state 5))) by (vm_compute; split; [discriminate|reflexivity]).
    eapply judged_once; [exact R|exact (HJ pk u v E0 E1)|].
    assert (Q : forall subs w, Forall (fun s => var_content (snd s)) subs -> first_sub (var_fits 3) subs pk = Some w ->
      packet_ok (NumMulGates CheckVar) (snd w)).
    { intros subs w F E. rewrite <- table_find in E. apply find_in in E.
      assert (V : Forall (fun e => var_content (snd e)) (table_of (var_fits 3) subs)).
      { apply table_forall. intros s Hs _. rewrite Forall_forall in F. now apply F. }
      rewrite Forall_forall in V. specialize (V _ E). cbn [snd] in V. destruct w as [[w w2] pkt]. exact (proj2 (proj2 V)). }
    apply (proved_judged CheckVar (var_opened u v) (snd u) (snd v) (proj1 check_var_wf) ltac:(apply PeanoNat.Nat.ltb_lt; reflexivity)
      (Q _ u (proj1 C) E0) (Q _ v (proj2 C) E1)); [|exact W|exact R].
    destruct u as [[? ?] ?], v as [[? ?] ?]. reflexivity. }
  assert (FL : filter ok (map c_pk ex_vars) = map c_pk ex_vars).
  { clear -OK. revert OK. generalize (map c_pk ex_vars) as l. induction l as [|k l IH]; intros OK; cbn [filter]; [reflexivity|].
    rewrite OK by now left. f_equal. apply IH. intros; apply OK. now right. }
  rewrite FL in S1, S2, HS.
  assert (V1 : field_sum (var_fits 3) var_opened (subs0 ex_vars) (subs1 ex_vars) (map c_pk ex_vars) 0 mod p = 3) by (vm_compute; reflexivity).
  assert (V2 : field_sum (var_fits 3) var_opened (subs0 ex_vars) (subs1 ex_vars) (map c_pk ex_vars) 1 mod p = 5) by (vm_compute; reflexivity).
  assert (V3 : length (map c_pk ex_vars) = 2%nat) by (vm_compute; reflexivity).
  rewrite V1 in S1, HS. rewrite V2 in S2. rewrite V3 in HS. destruct (HS ltac:(lia)) as [H1 H2].
  exists a, a2, b, b2, st0', st1'. auto.
Qed.

(** Two honest clients with the points (5, 1; 0) and (6, 6; 1). *)
Lemma ex_lin_proved pk : In pk (map c_pk ex_lin) ->
  proved_at (CheckLinReg 3) (linreg_fits 3) linreg_opened snd (subs0 ex_lin) (subs1 ex_lin) pk.
Proof.
  intros Hin. apply (In_nth _ _ []) in Hin as (i & Hi & <-).
  assert (W : exists a b, first_sub (linreg_fits 3) (subs0 ex_lin) (nth i (map c_pk ex_lin) []) = Some a /\
    first_sub (linreg_fits 3) (subs1 ex_lin) (nth i (map c_pk ex_lin) []) = Some b /\
    well_proved (CheckLinReg 3) (linreg_opened a b) (snd a) (snd b)).
  { change (length (map c_pk ex_lin)) with 2%nat in Hi. destruct i as [|[|i]]; [| |lia].
    - do 2 eexists. split; [vm_compute; reflexivity|]. split; [vm_compute; reflexivity|]. cbn [snd].
      split; [vm_compute; reflexivity|]. do 2 eexists. split; [|reflexivity].
      exists 8%nat, ex_tape, 0%nat, 23%nat. split; [reflexivity|]. vm_compute. reflexivity.
    - do 2 eexists. split; [vm_compute; reflexivity|]. split; [vm_compute; reflexivity|]. cbn [snd].
      split; [vm_compute; reflexivity|]. do 2 eexists. split; [|reflexivity].
      exists 8%nat, ex_tape, 23%nat, 46%nat. split; [reflexivity|]. vm_compute. reflexivity. }
  destruct W as (a & b & E0 & E1 & W). unfold proved_at. rewrite E0, E1. exact W.
Qed.
Example linreg_alone_ex : exists a b st0' st1',
  length a = 8%nat /\ length b = 8%nat /\
  map2 (fun x y => (x + y) mod p) a b = [11; 7; 1; 61; 41; 37; 6; 6] /\
  stops_before
    (linreg_op false id_order 3 2 (degree_wire 3 ++ wire linreg_wire (subs0 ex_lin)) (repeat 0 8) (repeat 7 32) ex_garbage
       (fun _ => 3) ex_tape (ex_state 5))
    (linreg_op true id_order 3 2 (degree_wire 3 ++ wire linreg_wire (subs1 ex_lin)) (repeat 0 8) (repeat 7 32) ex_garbage
       (fun _ => 3) ex_tape (ex_state 5))
    (send_fmpz_batch b ;;; Ret (RET_NO_ANS, st1')) (map holding (b_before 0 a))
    (RET_ANS (moments 3 2 (fun j => nth j (b_after 0 a) 0)), st0') /\
  stops_before
    (linreg_op false id_order 3 2 (degree_wire 3 ++ wire linreg_wire (subs0 ex_lin)) (repeat 0 8) (repeat 7 32) ex_garbage
       (fun _ => 3) ex_tape (ex_state 5))
    (linreg_op true id_order 3 2 (degree_wire 3 ++ wire linreg_wire (subs1 ex_lin)) (repeat 0 8) (repeat 7 32) ex_garbage
       (fun _ => 3) ex_tape (ex_state 5))
    (Send (concat (map holding (skipn 7 b))) (Ret (RET_NO_ANS, st1'))) [holding 6]
    (RET_ANS (moments 3 2 (fun j => nth j [11; 7; 1; 61; 41; 37; 6; (6 + nth 7 a 0) mod p] 0)), st0').
Proof.
  pose proof (linreg_alone_refuted 3 3 id_order id_order 2 2 _ _ (subs0 ex_lin) (subs1 ex_lin) (repeat 0 8) (repeat 0 8) (repeat 7 32) (repeat 7 32)
    ex_garbage ex_garbage (fun _ => 3) ex_tape ex_tape (ex_state 5) (ex_state 5) (map c_pk ex_lin) ltac:(lia) ltac:(lia)
    ltac:(apply PeanoNat.Nat.ltb_lt; vm_compute; reflexivity) id_fair
    (proj1 ex_lin_arrive) (proj2 ex_lin_arrive) (proj1 ex_lin_content) (proj2 ex_lin_content) eq_refl eq_refl eq_refl eq_refl ex_garbage_ok) as H.
  specialize (H ltac:(exists (nth 1 (map c_pk ex_lin) []); vm_compute; discriminate)).
  specialize (H ltac:(apply accepted_computed; vm_compute; reflexivity) ex_synced).
  destruct H as (ok & pos & a & b & st0' & st1' & (HJ & _) & La & Lb & _ & SM & HS).
  assert (OK : forall pk, In pk (map c_pk ex_lin) -> ok pk = true).
  { intros pk Hin. pose proof (ex_lin_proved pk Hin) as W. unfold proved_at in W.
    destruct (first_sub (linreg_fits 3) (subs0 ex_lin) pk) as [u|] eqn:E0; [|contradiction].
    destruct (first_sub (linreg_fits 3) (subs1 ex_lin) pk) as [v|] eqn:E1; [|contradiction].
    assert (R : in_field p (randomX (ex_state 5))) by (vm_compute; split; [discriminate|reflexivity]).
    eapply judged_once; [exact R|exact (HJ pk u v E0 E1)|].
    assert (Q : forall subs w, Forall (fun s => linreg_content 3 (snd s)) subs -> first_sub (linreg_fits 3) subs pk = Some w ->
      linreg_content 3 w).
    { intros subs w F E. rewrite <- table_find in E. apply find_in in E.
      assert (V : Forall (fun e => linreg_content 3 (snd e)) (table_of (linreg_fits 3) subs)).
      { apply table_forall. intros s Hs _. rewrite Forall_forall in F. now apply F. }
      rewrite Forall_forall in V. exact (V _ E). }
    pose proof (Q _ u (proj1 ex_lin_content) E0) as [U1 U2]. pose proof (Q _ v (proj2 ex_lin_content) E1) as [V1 V2].
    apply (proved_judged (CheckLinReg 3) (linreg_opened u v) (snd u) (snd v) (proj1 (check_linreg_wf 3 ltac:(lia)))
      ltac:(apply PeanoNat.Nat.ltb_lt; vm_compute; reflexivity) U2 V2); [|exact W|exact R].
    destruct u as [[[[x y] x2] xy] pk0], v as [[[[x' y'] x2'] xy'] pk1]. cbn [fst] in *.
    destruct U1 as (A1 & A2 & A3 & _), V1 as (B1 & B2 & B3 & _).
    unfold linreg_opened. cbn [fst]. rewrite WordsFacts.map2_length. unfold linreg_row. rewrite !app_length. cbn [length]. rewrite !app_length.
    rewrite A1, A2, A3, B1, B2, B3. reflexivity. }
  assert (FL : filter ok (map c_pk ex_lin) = map c_pk ex_lin).
  { clear -OK. revert OK. generalize (map c_pk ex_lin) as l. induction l as [|k l IH]; intros OK; cbn [filter]; [reflexivity|].
    rewrite OK by now left. f_equal. apply IH. intros; apply OK. now right. }
  rewrite FL in SM, HS. assert (V3 : length (map c_pk ex_lin) = 2%nat) by (vm_compute; reflexivity). rewrite V3 in HS.
  exists a, b, st0', st1'. split; [exact La|]. split; [exact Lb|]. 
  assert (SV : forall j, (j < 7)%nat -> field_sum (linreg_fits 3) linreg_opened (subs0 ex_lin) (subs1 ex_lin) (map c_pk ex_lin) j mod p
     = nth j [11; 7; 1; 61; 41; 37; 6] 0).
  { intros j Hj. do 7 (destruct j as [|j]; [vm_compute; reflexivity|]). lia. }
  destruct (HS ltac:(lia)) as [H1 H2]. split; [|split; [exact H1|]].
  2:{ specialize (H2 7%nat ltac:(change (num_fields 3) with 8%nat; lia)).
      change (7 - 1)%nat with 6%nat in H2. rewrite (SV 6%nat ltac:(lia)) in H2.
      destruct a as [|x0 [|x1 [|x2 [|x3 [|x4 [|x5 [|x6 [|x7 [|? ?]]]]]]]]]; try (exfalso; cbn in La; discriminate La).
      cbn [skipn] in H2. unfold moments in *. cbn [map nth] in *. exact H2. }
  assert (LM : length (map2 (fun x y => (x + y) mod p) a b) = 8%nat) by (rewrite WordsFacts.map2_length, La, Lb; reflexivity).
  apply nth_ext with (d := 0) (d' := 0); [exact LM|]. intros j Hj. rewrite LM in Hj.
  transitivity (field_sum (linreg_fits 3) linreg_opened (subs0 ex_lin) (subs1 ex_lin) (map c_pk ex_lin) j mod p).
  - rewrite <- SM by exact Hj. rewrite TreeFacts.nth_map2' by (change (num_fields 3) with 8%nat in *; lia). reflexivity.
  - do 8 (destruct j as [|j]; [vm_compute; reflexivity|]). lia.
Qed.
