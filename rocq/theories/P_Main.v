(** * Sequences of operations (C38)

    [alone h0 h1 k0 k1 R] (SpecMain.v): the operation requested on the connections [k0],
    [k1] ends in every schedule with an output of server 0 satisfying [R], with nothing
    left in the channel between the servers.  It is proved below for each operation,
    for arbitrary streams of submissions.  [sequence_of_operations] and
    [servers_from_start] say that any sequence of such requests gives each the result
    it has alone.  The exception is FREQ when its batch check passes, which leaves
    bytes in the channel: see [freq_batch_passed] and [freq_after_freq_refuted] in
    P_Freq.v. *)
From Coq Require Import ZArith List Bool Lia.
From Verif Require Import Words Constants Share SpecShare Proc ProcFacts Net SpecNet RelFacts Exec Correlated SpecStore
  SpecPoly Circuit SpecCircuit Snip SpecSnip ServerOps SpecServer ServerProps ClientOps SpecClient SpecStat SpecFreq
  Main SpecMain MainFacts P_Snip P_Server P_Client P_Stat P_Freq.
Import ListNotations.
Open Scope Z_scope.

(** ** Composition *)
Theorem sequence_of_operations h0 h1 ks Rs st0 st1 :
  hosts_ok h0 h1 -> states_ok st0 st1 ->
  Forall2 (fun k R => alone h0 h1 (fst k) (snd k) R) ks Rs ->
  both (serve false h0 (map fst ks) st0) (serve true h1 (map snd ks) st1)
    (fun a b => Forall2 (fun (R : output -> Prop) out => R out) Rs (fst a) /\
                Forall silent (fst b) /\ length (fst b) = length ks /\ states_ok (snd a) (snd b)).
Proof. intros HH HS HA. apply rel_both. exact (serve_rel h0 h1 ks Rs HH HA st0 st1 HS). Qed.
Print Assumptions sequence_of_operations.

(** From the start of the servers: the challenge point and the seed of the
    coefficients are agreed on first. *)
Theorem servers_from_start nb c0 c1 T0 T1 r0 r1 gen seed0 seed1 ks Rs :
  params_ok c0 c1 -> length seed0 = length seed1 ->
  Forall2 (fun k R => alone (mkHost nb c0 T0 (gen seed0)) (mkHost nb c1 T1 (gen seed0)) (fst k) (snd k) R) ks Rs ->
  both (server_main false nb c0 T0 r0 gen seed0 (map fst ks)) (server_main true nb c1 T1 r1 gen seed1 (map snd ks))
    (fun a b => Forall2 (fun (R : output -> Prop) out => R out) Rs (fst a) /\
                Forall silent (fst b) /\ length (fst b) = length ks /\ states_ok (snd a) (snd b)).
Proof. intros HP HL HA. apply rel_both. exact (main_rel nb c0 c1 T0 T1 r0 r1 gen seed0 seed1 ks Rs HP HL HA). Qed.
Print Assumptions servers_from_start.

(** ** The operations *)
Theorem bit_sum_alone h0 h1 k0 k1 total0 total1 B0 B1 stream0 stream1 subs0 subs1 L :
  opens k0 BIT_SUM total0 B0 stream0 -> opens k1 BIT_SUM total1 B1 stream1 -> locals_ok k0 -> locals_ok k1 ->
  fair (k_order k1) -> arrives bit_wire total0 stream0 subs0 -> arrives bit_wire total1 stream1 subs1 ->
  accepted any subs0 subs1 L ->
  alone h0 h1 k0 k1 (fun out =>
    out = OutInt (outcome (length L) total0 (zsum (map (combined any bit_val 0 subs0 subs1) L)))).
Proof.
  intros O0 O1 V0 V1 HF A0 A1 HL.
  eapply handle_plain; [dispatch O0|dispatch O1|reflexivity|].
  eapply bit_sum_correct; eauto; [apply V0|apply V1].
Qed.
Print Assumptions bit_sum_alone.

Theorem int_sum_alone h0 h1 k0 k1 total0 total1 B0 B1 stream0 stream1 subs0 subs1 L :
  hosts_ok h0 h1 -> (h_num_bits h0 <= 63)%nat ->
  opens k0 INT_SUM total0 B0 stream0 -> opens k1 INT_SUM total1 B1 stream1 -> locals_ok k0 -> locals_ok k1 ->
  fair (k_order k1) -> arrives int_wire total0 stream0 subs0 -> arrives int_wire total1 stream1 subs1 ->
  Forall (fun s => word (snd s)) subs0 -> Forall (fun s => word (snd s)) subs1 ->
  accepted (fits (h_num_bits h0)) subs0 subs1 L ->
  alone h0 h1 k0 k1 (fun out =>
    out = OutInt (outcome (length L) total0
            (zsum (map (combined (fits (h_num_bits h0)) Z.lxor 0 subs0 subs1) L) mod two64))).
Proof.
  intros (HN & _) HB O0 O1 V0 V1 HF A0 A1 W0 W1 HL.
  eapply handle_plain; [dispatch O0|dispatch O1|reflexivity|]. rewrite <- HN.
  eapply int_sum_correct; eauto; [apply V0|apply V1].
Qed.
Print Assumptions int_sum_alone.

Theorem and_or_alone (is_and : bool) h0 h1 k0 k1 total0 total1 B0 B1 stream0 stream1 subs0 subs1 L :
  let type := if is_and then AND_OP else OR_OP in
  opens k0 type total0 B0 stream0 -> opens k1 type total1 B1 stream1 -> locals_ok k0 -> locals_ok k1 ->
  fair (k_order k1) -> arrives int_wire total0 stream0 subs0 -> arrives int_wire total1 stream1 subs1 ->
  Forall (fun s => word (snd s)) subs0 -> Forall (fun s => word (snd s)) subs1 ->
  accepted any subs0 subs1 L ->
  alone h0 h1 k0 k1 (fun out =>
    out = OutBool (outcome (length L) total0
            (let z := zxors (map (combined any Z.lxor 0 subs0 subs1) L) =? 0 in
             if is_and then z else negb z))).
Proof.
  intros type O0 O1 V0 V1 HF A0 A1 W0 W1 HL. destruct is_and; unfold type in *;
  (eapply handle_plain; [dispatch O0|dispatch O1|reflexivity|]).
  - eapply (and_or_correct true); eauto; [apply V0|apply V1].
  - eapply (and_or_correct false); eauto; [apply V0|apply V1].
Qed.
Print Assumptions and_or_alone.

(** With enough inputs there must be a position at which the rows do not cancel (else
    server 0's behaviour is undefined, [max_min_undefined] in P_Server.v). *)
Theorem max_min_alone (is_max : bool) h0 h1 k0 k1 total0 total1 B stream0 stream1 subs0 subs1 L j :
  let type := if is_max then MAX_OP else MIN_OP in
  opens k0 type total0 B stream0 -> opens k1 type total1 B stream1 -> locals_ok k0 -> locals_ok k1 ->
  fair (k_order k1) -> arrives max_wire total0 stream0 subs0 -> arrives max_wire total1 stream1 subs1 ->
  rows_ok B subs0 -> rows_ok B subs1 ->
  Z.of_nat total0 * (Z.of_nat B + 1) < two32 -> Z.of_nat total1 * (Z.of_nat B + 1) < two32 ->
  (forall i, length (k_rows k0 i) = (8 * (B + 1))%nat) -> (forall i, length (k_rows k1 i) = (8 * (B + 1))%nat) ->
  accepted any subs0 subs1 L ->
  (2 * length L < total0)%nat \/
  highest B (fun j => zxors (map (combined any (xor_at j) 0 subs0 subs1) L)) j ->
  alone h0 h1 k0 k1 (fun out =>
    out = OutInt (outcome (length L) total0 (Z.of_nat (if is_max then j else B - j)))).
Proof.
  intros type O0 O1 V0 V1 HF A0 A1 W0 W1 T0 T1 J0 J1 HL HH. destruct is_max; unfold type in *;
  (eapply handle_plain; [dispatch O0|dispatch O1|reflexivity|]).
  - eapply (max_min_correct true); eauto; [apply V0|apply V1].
  - eapply (max_min_correct false); eauto; [apply V0|apply V1].
Qed.
Print Assumptions max_min_alone.

(** The challenge point [r] and the position [pos0] in the coefficients are those at the
    time of the request. *)
Theorem var_alone (stddev : bool) h0 h1 k0 k1 total0 total1 B0 B1 stream0 stream1 subs0 subs1 L :
  hosts_ok h0 h1 -> (h_num_bits h0 <= 24)%nat ->
  let type := if stddev then STDDEV_OP else VAR_OP in
  let nb := h_num_bits h0 in
  opens k0 type total0 B0 stream0 -> opens k1 type total1 B1 stream1 -> locals_ok k0 -> locals_ok k1 ->
  fair (k_order k1) ->
  arrives_cut var_wire var_size total0 stream0 subs0 -> arrives_cut var_wire var_size total1 stream1 subs1 ->
  Forall (fun s => var_content (snd s)) subs0 -> Forall (fun s => var_content (snd s)) subs1 ->
  (exists pk, first_sub (var_fits nb) subs1 pk <> None) -> accepted (var_fits nb) subs0 subs1 L ->
  alone h0 h1 k0 k1 (fun out => exists ans, out = OutVar stddev ans /\
    exists r pos0 ok pos, in_field p r /\
      validated CheckVar r (h_K h0) pos0 (var_fits nb) var_opened snd subs0 subs1 L ok pos /\
      ans = outcome (length (filter ok L)) total0
         (length (filter ok L),
          field_sum (var_fits nb) var_opened subs0 subs1 (filter ok L) 0 mod p,
          field_sum (var_fits nb) var_opened subs0 subs1 (filter ok L) 1 mod p)).
Proof.
  intros (HN & HK & _) HB type nb O0 O1 V0 V1 HF A0 A1 W0 W1 NE HL. unfold type in *.
  destruct stddev;
  (eapply handle_snip; [dispatch O0|dispatch O1|reflexivity|]; intros st0 st1 SY; rewrite <- HN, <- HK;
   eapply ClientFacts.both_impl;
     [|eapply var_op_correct with (subs0 := subs0) (subs1 := subs1); eauto; [apply V0|apply V1]]; cbn beta;
   intros a b (ok & pos & HV & -> & HA & SY' & _); split; [reflexivity|]; split; [|exact SY'];
   exists (randomX st0), (seed_pos st0), ok, pos; split; [apply SY|]; split; [exact HV|exact HA]).
Qed.
Print Assumptions var_alone.

Theorem linreg_alone degree h0 h1 k0 k1 total0 total1 B0 B1 stream0 stream1 subs0 subs1 L :
  hosts_ok h0 h1 -> (h_num_bits h0 <= 24)%nat -> (1 <= degree)%nat -> (num_quad degree + num_x degree < 2 ^ 18)%nat ->
  let nb := h_num_bits h0 in
  opens k0 LINREG_OP total0 B0 (degree_wire degree ++ stream0) ->
  opens k1 LINREG_OP total1 B1 (degree_wire degree ++ stream1) -> locals_ok k0 -> locals_ok k1 ->
  (forall i, let '(x, x2, xy) := k_garbage k0 i in linreg_shape degree (x, 0, x2, xy)) ->
  fair (k_order k1) ->
  arrives_cut linreg_wire (linreg_size degree) total0 stream0 subs0 ->
  arrives_cut linreg_wire (linreg_size degree) total1 stream1 subs1 ->
  Forall (fun s => linreg_content degree (snd s)) subs0 -> Forall (fun s => linreg_content degree (snd s)) subs1 ->
  (exists pk, first_sub (linreg_fits nb) subs1 pk <> None) -> accepted (linreg_fits nb) subs0 subs1 L ->
  alone h0 h1 k0 k1 (fun out => exists ans, out = OutReg ans /\
    exists r pos0 ok pos, in_field p r /\
      validated (CheckLinReg degree) r (h_K h0) pos0 (linreg_fits nb) linreg_opened snd subs0 subs1 L ok pos /\
      ans = outcome (length (filter ok L)) total0
         (moments degree (length (filter ok L))
            (fun j => field_sum (linreg_fits nb) linreg_opened subs0 subs1 (filter ok L) j mod p))).
Proof.
  intros (HN & HK & _) HB HD HQ nb O0 O1 V0 V1 HG HF A0 A1 W0 W1 NE HL.
  eapply handle_snip; [dispatch O0|dispatch O1|reflexivity|]. intros st0 st1 SY. rewrite <- HN, <- HK.
  eapply ClientFacts.both_impl;
    [|eapply (linreg_op_correct nb degree) with (subs0 := subs0) (subs1 := subs1); eauto;
      [apply V0|apply V1|apply V0|apply V1]]. cbn beta.
  intros a b (ok & pos & HV & -> & HA & SY' & _). split; [reflexivity|]. split; [|exact SY'].
  exists (randomX st0), (seed_pos st0), ok, pos. split; [apply SY|]. split; [exact HV|exact HA].
Qed.
Print Assumptions linreg_alone.

(** FREQ, when the weights of the rows do not add up to the announced number. *)
Theorem freq_alone h0 h1 k0 k1 total0 total1 B0 B1 stream0 stream1 subs0 subs1 L G :
  hosts_ok h0 h1 -> (h_num_bits h0 <= 30)%nat ->
  let nb := h_num_bits h0 in let w := freq_width nb in
  opens k0 FREQ_OP total0 B0 stream0 -> opens k1 FREQ_OP total1 B1 stream1 -> fair (k_order k1) ->
  freq_input nb total0 stream0 subs0 (k_pk k0) (k_rows k0) -> freq_input nb total1 stream1 subs1 (k_pk k1) (k_rows k1) ->
  heard subs1 L -> (length L <= total0)%nat ->
  ~ balanced (total_weight w subs0 subs1 L) total0 -> one_hot w subs0 subs1 G ->
  alone h0 h1 k0 k1 (fun out => exists ans, out = OutFreq ans /\ ans = outcome (length G) total0 (tally w subs0 subs1 G)).
Proof.
  intros (HN & HK & HP) HB nb w O0 O1 HF I0 I1 HL HT NB HG.
  eapply handle_store; [dispatch O0|dispatch O1|reflexivity|]. intros st0 st1 SP. rewrite <- HN.
  eapply freq_checked_one_by_one; eauto.
Qed.
Print Assumptions freq_alone.

(** Requests of no kind, or of none the servers know. *)
Theorem unknown_alone type h0 h1 k0 k1 total0 total1 B0 B1 stream0 stream1 :
  opens k0 type total0 B0 stream0 -> opens k1 type total1 B1 stream1 -> type = NONE_OP \/ FREQ_OP < type ->
  alone h0 h1 k0 k1 (fun out => out = OutNothing).
Proof.
  intros O0 O1 HT st0 st1 OK.
  assert (E : forall sv h k total B stream st, opens k type total B stream -> handle sv h k st = Ret (OutNothing, st)).
  { intros sv h k total B stream st O. destruct (opens_read _ _ _ _ _ O) as (E & E0 & E1 & E2).
    unfold handle. rewrite E. cbv zeta. rewrite E0.
    assert (N : forall t, 1 <= t <= 10 -> (type =? t) = false).
    { intros t Ht. apply Z.eqb_neq. unfold NONE_OP, FREQ_OP in HT. lia. }
    unfold BIT_SUM, INT_SUM, AND_OP, OR_OP, MAX_OP, MIN_OP, VAR_OP, STDDEV_OP, LINREG_OP, FREQ_OP.
    rewrite !N by lia. reflexivity. }
  rewrite (E false h0 k0 total0 B0 stream0 st0 O0), (E true h1 k1 total1 B1 stream1 st1 O1).
  apply rel_both, rel_ret. cbn [fst snd silent]. auto.
Qed.
Print Assumptions unknown_alone.

(** ** Requests without records (C48)

    The local variable [share] of the operations is not initialised and the results of
    [recv_in] are not looked at.  A client that announces one input and then closes
    the connection is answered with the value in that variable.  The activation
    records of successive calls of [bit_sum] lie at the same place, where the last
    record of the previous operation was: then the private value of that client is
    printed. *)
Theorem empty_request_refuted h0 h1 k0 k1 B0 B1 pk (b0 b1 : bool) :
  opens k0 BIT_SUM 1 B0 [] -> opens k1 BIT_SUM 1 B1 [] -> fair (k_order k1) -> length pk = 32%nat ->
  k_bit k0 = bit_wire (pk, b0) -> k_bit k1 = bit_wire (pk, b1) ->
  alone h0 h1 k0 k1 (fun out => out = OutInt (RET_ANS (b2z (xorb b0 b1)))).
Proof.
  intros O0 O1 HF HL E0 E1.
  eapply handle_plain; [dispatch O0|dispatch O1|reflexivity|].
  assert (R : forall b, receive bit_one 1 ([], bit_wire (pk, b)) [] = receive bit_one 1 (bit_wire (pk, b), repeat 0 33) []).
  { intros b. unfold receive, bit_one. cbn [fst snd].
    assert (X : crecv 33 [] (bit_wire (pk, b)) = (bit_wire (pk, b), [])) by reflexivity.
    assert (Y : crecv 33 (bit_wire (pk, b)) (repeat 0 33) = (bit_wire (pk, b), [])).
    { rewrite <- (app_nil_r (bit_wire (pk, b))) at 1. apply TableFacts.crecv_app; [|reflexivity].
      unfold bit_wire. cbn [fst]. rewrite app_length, HL. reflexivity. }
    rewrite X, Y. reflexivity. }
  assert (Q : forall sv o b rnd, bit_sum sv o 1 [] (bit_wire (pk, b)) rnd = bit_sum sv o 1 (bit_wire (pk, b)) (repeat 0 33) rnd).
  { intros sv o b rnd. unfold bit_sum. rewrite R. reflexivity. }
  rewrite E0, E1, !Q.
  assert (A : forall b, arrives bit_wire 1 (bit_wire (pk, b)) [(pk, b)]).
  { intros b. exists []. split; [unfold wire; cbn [map concat]; now rewrite !app_nil_r|]. split; [now left|]. split; [repeat constructor; exact HL|reflexivity]. }
  assert (HA : accepted any [(pk, b0)] [(pk, b1)] [pk]).
  { split; [constructor; [easy|constructor]|]. intros q. cbn. destruct (TableFacts.key_eqb_spec pk q) as [<-|N].
    - cbn. split; [split; discriminate|auto].
    - cbn. split; [intros [H|[]]; easy|]. intros [H _]. now elim H. }
  eapply ClientFacts.both_impl; [|apply (bit_sum_correct _ _ 1 1 _ _ [(pk, b0)] [(pk, b1)]
    (repeat 0 33) (repeat 0 33) _ _ [pk] HF (A b0) (A b1) eq_refl eq_refl HA)].
  cbn beta. intros r0 r1 [-> ->]. split; [reflexivity|]. unfold outcome. cbn [length Nat.mul Nat.add Nat.ltb Nat.leb].
  apply f_equal. cbn [map]. unfold combined, first_sub. cbn.
  destruct (TableFacts.key_eqb_spec pk pk) as [_|N]; [|easy]. cbn. unfold bit_val. destruct b0, b1; reflexivity.
Qed.
Print Assumptions empty_request_refuted.

(** ** Example: two servers started with 3 bits serve five connections *)
Definition ex_conn (order : iteration) (s : list Z) : conn :=
  mkConn s order 11 ex_tape (repeat 1 12) (repeat 2 33) (repeat 3 40) (repeat 7 48) (ex_pk 0)
    (fun _ => repeat 1 32) (repeat 4 8) (fun _ => ([], [], [])).
Definition ex_session : list (conn * conn) :=
  [(ex_conn id_order (init_msg 77 3 0), ex_conn id_order (init_msg 77 3 0));
   (ex_conn id_order (init_msg BIT_SUM 4 0 ++ wire bit_wire ex_bits0), ex_conn id_order (init_msg BIT_SUM 4 0 ++ wire bit_wire ex_bits1));
   (ex_conn id_order (init_msg VAR_OP 4 0 ++ wire var_wire ex_vars0), ex_conn id_order (init_msg VAR_OP 4 0 ++ wire var_wire ex_vars1));
   (ex_conn id_order (init_msg MAX_OP 2 3 ++ wire max_wire P_Server.ex_rows0), ex_conn id_order (init_msg MAX_OP 2 3 ++ wire max_wire P_Server.ex_rows1));
   (ex_conn id_order (init_msg VAR_OP 4 0 ++ wire var_wire ex_vars0), ex_conn id_order (init_msg VAR_OP 4 0 ++ wire var_wire ex_vars1))].
Definition ex_gen (seed : list Z) (n : nat) : Z := Z.of_nat n + 3 + nth 0 seed 0.
Example session_ex : exists a b, always
  (server_main false 3 ex_c0 ex_tape 8 ex_gen (repeat 9 56) (map fst ex_session))
  (server_main true 3 ex_c1 ex_tape 5 ex_gen (repeat 6 56) (map snd ex_session)) a b /\
  (fst a, fst b) = ([OutNothing; OutInt (RET_ANS 2); OutVar false (RET_ANS (2%nat, 3, 5)); OutInt (RET_ANS 2);
                     OutVar false (RET_ANS (2%nat, 3, 5))],
                    [OutNothing; OutInt RET_NO_ANS; OutVar false RET_NO_ANS; OutInt RET_NO_ANS; OutVar false RET_NO_ANS]).
Proof. apply (exec_obs_always 400 _ _ (fun a b => (fst a, fst b))). vm_compute. reflexivity. Qed.
Example ex_opens : opens (fst (nth 1 ex_session (ex_conn id_order [], ex_conn id_order []))) BIT_SUM 4 0 (wire bit_wire ex_bits0).
Proof. split; [reflexivity|]. repeat split; vm_compute; congruence. Qed.
