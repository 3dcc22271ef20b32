(** * What a server can learn in VAR, STDDEV and LINREG by running a program of its own (C70)

    One server departs from the code and runs a program of SpecRogueStat.v; the other runs
    the code as it is.  The submissions are arbitrary and the clients may go away anywhere.
    STDDEV is VAR with another final computation.  Nothing in the runs below shows the
    other server that anything is amiss: it always comes to the end of the operation. *)
From Coq Require Import ZArith List Bool Lia.
From Verif Require Import Words Constants Share Proc ProcFacts Net SpecNet RelFacts SpecPoly Circuit SpecCircuit
  Snip SpecSnip ServerOps SpecServer TableFacts ServerFacts ClientOps SpecClient SpecStat StatProps SpecAccept
  SpecRogueStat RogueStat RogueBend P_Snip P_Server P_Client P_Stat P_Accept.
Import ListNotations.
Open Scope Z_scope.

(** ** Server 0 departs from the code: the sums over clients of its choice

    [L]: the identities acceptable at both servers.  The checks do not matter: server 0
    answers them after reading what server 1 sent, so that they come out right. *)
Theorem var_rogue0_refuted want nb order total0 total1 stream0 stream1 subs0 subs1 junk0 junk1 K rnd0 rnd1 st L :
  (nb <= 24)%nat -> fair order ->
  arrives_cut var_wire var_size total0 stream0 subs0 -> arrives_cut var_wire var_size total1 stream1 subs1 ->
  Forall (fun s => var_content (snd s)) subs0 -> Forall (fun s => var_content (snd s)) subs1 ->
  length junk0 = 48%nat -> length junk1 = 48%nat ->
  (exists pk, first_sub (var_fits nb) subs1 pk <> None) ->
  accepted (var_fits nb) subs0 subs1 L ->
  both (spy_var want nb total0 stream0 junk0 rnd0) (var_op true order nb total1 stream1 junk1 K rnd1 st)
    (fun r _ => r = (field_sum (var_fits nb) var_opened subs0 subs1 (filter want L) 0 mod p,
                     field_sum (var_fits nb) var_opened subs0 subs1 (filter want L) 1 mod p)).
Proof. exact (var_chosen want nb order total0 total1 stream0 stream1 subs0 subs1 junk0 junk1 K rnd0 rnd1 st L). Qed.
Print Assumptions var_rogue0_refuted.
Theorem linreg_rogue0_refuted want nb degree order total0 total1 stream0 stream1 subs0 subs1 d1 junk0 junk1 garbage K rnd0 rnd1 st L :
  (nb <= 24)%nat -> (1 <= degree)%nat -> (num_quad degree + num_x degree < 2 ^ 18)%nat -> fair order ->
  arrives_cut linreg_wire (linreg_size degree) total0 stream0 subs0 ->
  arrives_cut linreg_wire (linreg_size degree) total1 stream1 subs1 ->
  Forall (fun s => linreg_content degree (snd s)) subs0 -> Forall (fun s => linreg_content degree (snd s)) subs1 ->
  length d1 = 8%nat -> length junk0 = 32%nat -> length junk1 = 32%nat ->
  (exists pk, first_sub (linreg_fits nb) subs1 pk <> None) ->
  accepted (linreg_fits nb) subs0 subs1 L ->
  both (spy_linreg want nb degree total0 stream0 junk0 rnd0)
       (linreg_op true order nb total1 (degree_wire degree ++ stream1) d1 junk1 garbage K rnd1 st)
    (fun r _ => r = map (fun j => field_sum (linreg_fits nb) linreg_opened subs0 subs1 (filter want L) j mod p) (seq 0 (num_fields degree))).
Proof. exact (linreg_chosen want nb degree order total0 total1 stream0 stream1 subs0 subs1 d1 junk0 junk1 garbage K rnd0 rnd1 st L). Qed.
Print Assumptions linreg_rogue0_refuted.

(** In particular the private values of any one client. *)
Theorem var_rogue0_one_refuted pk v v' nb order total0 total1 stream0 stream1 subs0 subs1 junk0 junk1 K rnd0 rnd1 st :
  (nb <= 24)%nat -> fair order ->
  arrives_cut var_wire var_size total0 stream0 subs0 -> arrives_cut var_wire var_size total1 stream1 subs1 ->
  Forall (fun s => var_content (snd s)) subs0 -> Forall (fun s => var_content (snd s)) subs1 ->
  length junk0 = 48%nat -> length junk1 = 48%nat ->
  first_sub (var_fits nb) subs0 pk = Some v -> first_sub (var_fits nb) subs1 pk = Some v' ->
  both (spy_var (key_eqb pk) nb total0 stream0 junk0 rnd0) (var_op true order nb total1 stream1 junk1 K rnd1 st)
    (fun r _ => r = (nth 0 (var_opened v v') 0 mod p, nth 1 (var_opened v v') 0 mod p)).
Proof. exact (var_one_client pk v v' nb order total0 total1 stream0 stream1 subs0 subs1 junk0 junk1 K rnd0 rnd1 st). Qed.
Print Assumptions var_rogue0_one_refuted.
Theorem linreg_rogue0_one_refuted pk v v' nb degree order total0 total1 stream0 stream1 subs0 subs1 d1 junk0 junk1 garbage K rnd0 rnd1 st :
  (nb <= 24)%nat -> (1 <= degree)%nat -> (num_quad degree + num_x degree < 2 ^ 18)%nat -> fair order ->
  arrives_cut linreg_wire (linreg_size degree) total0 stream0 subs0 ->
  arrives_cut linreg_wire (linreg_size degree) total1 stream1 subs1 ->
  Forall (fun s => linreg_content degree (snd s)) subs0 -> Forall (fun s => linreg_content degree (snd s)) subs1 ->
  length d1 = 8%nat -> length junk0 = 32%nat -> length junk1 = 32%nat ->
  first_sub (linreg_fits nb) subs0 pk = Some v -> first_sub (linreg_fits nb) subs1 pk = Some v' ->
  both (spy_linreg (key_eqb pk) nb degree total0 stream0 junk0 rnd0)
       (linreg_op true order nb total1 (degree_wire degree ++ stream1) d1 junk1 garbage K rnd1 st)
    (fun r _ => r = map (fun j => nth j (linreg_opened v v') 0 mod p) (seq 0 (num_fields degree))).
Proof. exact (linreg_one_client pk v v' nb degree order total0 total1 stream0 stream1 subs0 subs1 d1 junk0 junk1 garbage K rnd0 rnd1 st). Qed.
Print Assumptions linreg_rogue0_one_refuted.

(** ** Server 1 departs from the code: one bit of the square of every client of its choice

    Server 1 cannot have the sums, but server 0 tells it which submissions passed the check,
    and by what it does to its shares it makes that depend on bit [j] of the client's
    square.  The answer leaves out the clients with the bit set.  [L] as before; all of [L]
    have valid proofs; the coefficients [K] used in the check are not zero. *)
Theorem var_rogue1_refuted want j nb order0 order1 total0 total1 stream0 stream1 subs0 subs1 junk0 junk1 K rnd0 rnd1 st0 st1 L :
  (nb <= 24)%nat -> (j < 2 * nb)%nat -> fair order1 ->
  arrives_cut var_wire var_size total0 stream0 subs0 -> arrives_cut var_wire var_size total1 stream1 subs1 ->
  Forall (fun s => var_content (snd s)) subs0 -> Forall (fun s => var_content (snd s)) subs1 ->
  length junk0 = 48%nat -> length junk1 = 48%nat ->
  (exists pk, first_sub (var_fits nb) subs1 pk <> None) ->
  accepted (var_fits nb) subs0 subs1 L -> synced st0 st1 ->
  (forall n, (seed_pos st0 <= n < seed_pos st0 + 2 * length subs1)%nat -> K n mod p <> 0) ->
  (forall pk, In pk L -> proved_at CheckVar (var_fits nb) var_opened snd subs0 subs1 pk) ->
  both (var_op false order0 nb total0 stream0 junk0 K rnd0 st0) (bend_var order1 want j nb total1 stream1 junk1 K rnd1 st1)
    (fun a r =>
       NoDup (map fst r) /\
       (forall pk, In pk L -> In (pk, negb (want pk && square_bit nb subs0 subs1 j pk)) r) /\
       let T := filter (fun pk => negb (want pk && square_bit nb subs0 subs1 j pk)) L in
       fst a = outcome (length T) total0
         (length T, field_sum (var_fits nb) var_opened subs0 subs1 T 0 mod p,
                    field_sum (var_fits nb) var_opened subs0 subs1 T 1 mod p)).
Proof. exact (var_bent want j nb order0 order1 total0 total1 stream0 stream1 subs0 subs1 junk0 junk1 K rnd0 rnd1 st0 st1 L). Qed.
Print Assumptions var_rogue1_refuted.

(** ** Examples *)

Lemma both_same {A B} (a : proc A) (b : proc B) x y : both a b (fun r _ => r = x) -> x = y -> both a b (fun r _ => r = y).
Proof. now intros H <-. Qed.
(** The clients of [var_op_ex]: the second has the value 2. *)
Example var_spy_ex : both
  (spy_var (key_eqb (nth 1 (map c_pk ex_vars) [])) 3 5 (wire var_wire ex_vars0 ++ ex_cut) (repeat 7 48) ex_tape)
  (var_op true id_order 3 5 (wire var_wire ex_vars1 ++ ex_cut) (repeat 7 48) (fun n => Z.of_nat n + 3) ex_tape (ex_state 5))
  (fun r _ => r = (2, 4)).
Proof.
  eapply both_same.
  - eapply (var_rogue0_one_refuted (nth 1 (map c_pk ex_vars) [])).
    + lia.
    + exact id_fair.
    + exact ex_vars_arrive0.
    + exact ex_vars_arrive1.
    + exact (proj1 ex_vars_content).
    + exact (proj2 ex_vars_content).
    + reflexivity.
    + reflexivity.
    + vm_compute. reflexivity.
    + vm_compute. reflexivity.
  - vm_compute. reflexivity.
Qed.
(** The sums over all three clients, although the check of the third fails: its values are 3 and 10. *)
Example var_spy_all_ex : both
  (spy_var (fun _ => true) 3 5 (wire var_wire ex_vars0 ++ ex_cut) (repeat 7 48) ex_tape)
  (var_op true id_order 3 5 (wire var_wire ex_vars1 ++ ex_cut) (repeat 7 48) (fun n => Z.of_nat n + 3) ex_tape (ex_state 5))
  (fun r _ => r = (1 + 2 + 3, 1 + 4 + 10)).
Proof.
  eapply both_same.
  - apply (var_rogue0_refuted (fun _ => true) 3 id_order 5 5 _ _ ex_vars0 ex_vars1 (repeat 7 48) (repeat 7 48)
      (fun n => Z.of_nat n + 3) ex_tape ex_tape (ex_state 5) (map c_pk ex_vars ++ [ex_pk 99])).
    + lia.
    + exact id_fair.
    + exact ex_vars_arrive0.
    + exact ex_vars_arrive1.
    + exact (proj1 ex_vars_content).
    + exact (proj2 ex_vars_content).
    + reflexivity.
    + reflexivity.
    + exact ex_vars_first.
    + exact ex_vars_accepted.
  - vm_compute. reflexivity.
Qed.

(** The clients of [linreg_op_ex4]: the second has the features 6 and 6 and the label 1. *)
Lemma ex_lin_arrive : arrives_cut linreg_wire (linreg_size 3) 2 (wire linreg_wire (subs0 ex_lin)) (subs0 ex_lin) /\
  arrives_cut linreg_wire (linreg_size 3) 2 (wire linreg_wire (subs1 ex_lin)) (subs1 ex_lin).
Proof.
  split; (exists []; split; [now rewrite app_nil_r|]; split; [left; vm_compute; reflexivity|]; split; [vm_compute; repeat constructor|vm_compute; reflexivity]).
Qed.
Lemma ex_lin_content : Forall (fun s => linreg_content 3 (snd s)) (subs0 ex_lin) /\ Forall (fun s => linreg_content 3 (snd s)) (subs1 ex_lin).
Proof.
  split; [let l := eval vm_compute in (subs0 ex_lin) in change (subs0 ex_lin) with l|let l := eval vm_compute in (subs1 ex_lin) in change (subs1 ex_lin) with l];
    repeat (apply Forall_cons;
      [cbn [snd]; split; cbn [fst snd];
        [split; [reflexivity|]; split; [reflexivity|]; split; [reflexivity|]; split; [words_ok|]; split; [word_ok|]; split; words_ok
        |split; [reflexivity|]; split; [reflexivity|];
         split; [words_ok|]; split; [word_ok|]; split; [word_ok|]; split; [word_ok|]; split; [words_ok|]; split; [word_ok|]; split; word_ok]|]);
    apply Forall_nil.
Qed.
Example linreg_spy_ex : both
  (spy_linreg (key_eqb (nth 1 (map c_pk ex_lin) [])) 3 3 2 (wire linreg_wire (subs0 ex_lin)) (repeat 7 32) ex_tape)
  (linreg_op true id_order 3 2 (degree_wire 3 ++ wire linreg_wire (subs1 ex_lin)) (repeat 0 8) (repeat 7 32) ex_garbage
     (fun n => Z.of_nat n + 3) ex_tape (ex_state 5))
  (fun r _ => r = linreg_fields ([6; 6], 1)).
Proof.
  eapply both_same.
  - eapply (linreg_rogue0_one_refuted (nth 1 (map c_pk ex_lin) [])).
    + lia.
    + lia.
    + apply PeanoNat.Nat.ltb_lt. vm_compute. reflexivity.
    + exact id_fair.
    + exact (proj1 ex_lin_arrive).
    + exact (proj2 ex_lin_arrive).
    + exact (proj1 ex_lin_content).
    + exact (proj2 ex_lin_content).
    + reflexivity.
    + reflexivity.
    + reflexivity.
    + vm_compute. reflexivity.
    + vm_compute. reflexivity.
  - vm_compute. reflexivity.
Qed.
Example linreg_spy_both_ex : both
  (spy_linreg (fun _ => true) 3 3 2 (wire linreg_wire (subs0 ex_lin)) (repeat 7 32) ex_tape)
  (linreg_op true id_order 3 2 (degree_wire 3 ++ wire linreg_wire (subs1 ex_lin)) (repeat 0 8) (repeat 7 32) ex_garbage
     (fun n => Z.of_nat n + 3) ex_tape (ex_state 5))
  (fun r _ => r = map2 Z.add (linreg_fields ([5; 1], 0)) (linreg_fields ([6; 6], 1))).
Proof.
  eapply both_same.
  - apply (linreg_rogue0_refuted (fun _ => true) 3 3 id_order 2 2 _ _ (subs0 ex_lin) (subs1 ex_lin) (repeat 0 8) (repeat 7 32) (repeat 7 32) ex_garbage
      (fun n => Z.of_nat n + 3) ex_tape ex_tape (ex_state 5) (map c_pk ex_lin)).
    + lia.
    + lia.
    + apply PeanoNat.Nat.ltb_lt. vm_compute. reflexivity.
    + exact id_fair.
    + exact (proj1 ex_lin_arrive).
    + exact (proj2 ex_lin_arrive).
    + exact (proj1 ex_lin_content).
    + exact (proj2 ex_lin_content).
    + reflexivity.
    + reflexivity.
    + reflexivity.
    + exists (nth 1 (map c_pk ex_lin) []). vm_compute. discriminate.
    + apply accepted_computed. vm_compute. reflexivity.
  - vm_compute. reflexivity.
Qed.

(** Two honest clients with the values 1 and 2: server 1 asks for bit 2 of the squares 1 and 4. *)
Lemma ex_two_arrive : arrives_cut var_wire var_size 2 (wire var_wire (subs0 ex_vars)) (subs0 ex_vars) /\
  arrives_cut var_wire var_size 2 (wire var_wire (subs1 ex_vars)) (subs1 ex_vars).
Proof.
  split; (exists []; split; [now rewrite app_nil_r|]; split; [left; vm_compute; reflexivity|]; split; [vm_compute; repeat constructor|vm_compute; reflexivity]).
Qed.
Lemma ex_two_proved pk : In pk (map c_pk ex_vars) -> proved_at CheckVar (var_fits 3) var_opened snd (subs0 ex_vars) (subs1 ex_vars) pk.
Proof.
  intros Hin. apply (In_nth _ _ []) in Hin as (i & Hi & <-).
  assert (W : exists a b, first_sub (var_fits 3) (subs0 ex_vars) (nth i (map c_pk ex_vars) []) = Some a /\
    first_sub (var_fits 3) (subs1 ex_vars) (nth i (map c_pk ex_vars) []) = Some b /\ well_proved CheckVar (var_opened a b) (snd a) (snd b)).
  { change (length (map c_pk ex_vars)) with 2%nat in Hi. destruct i as [|[|i]]; [| |lia].
    - do 2 eexists. split; [vm_compute; reflexivity|]. split; [vm_compute; reflexivity|]. cbn [snd].
      split; [vm_compute; reflexivity|]. do 2 eexists. split; [|reflexivity].
      exists 2%nat, ex_tape, 0%nat, 13%nat. split; [reflexivity|]. vm_compute. reflexivity.
    - do 2 eexists. split; [vm_compute; reflexivity|]. split; [vm_compute; reflexivity|]. cbn [snd].
      split; [vm_compute; reflexivity|]. do 2 eexists. split; [|reflexivity].
      exists 2%nat, ex_tape, 13%nat, 26%nat. split; [reflexivity|]. vm_compute. reflexivity. }
  destruct W as (a & b & E0 & E1 & W). unfold proved_at. rewrite E0, E1. exact W.
Qed.
Example var_bend_ex : both
  (var_op false id_order 3 2 (wire var_wire (subs0 ex_vars)) (repeat 7 48) (fun _ => 3) ex_tape (ex_state 5))
  (bend_var id_order (fun _ => true) 2 3 2 (wire var_wire (subs1 ex_vars)) (repeat 7 48) (fun _ => 3) ex_tape (ex_state 5))
  (fun a r => In (nth 0 (map c_pk ex_vars) [], true) r /\ In (nth 1 (map c_pk ex_vars) [], false) r /\
              fst a = RET_ANS (1%nat, 1, 1)).
Proof.
  pose proof (var_rogue1_refuted (fun _ => true) 2 3 id_order id_order 2 2 _ _ (subs0 ex_vars) (subs1 ex_vars) (repeat 7 48) (repeat 7 48)
    (fun _ => 3) ex_tape ex_tape (ex_state 5) (ex_state 5) (map c_pk ex_vars) ltac:(lia) ltac:(lia) id_fair
    (proj1 ex_two_arrive) (proj2 ex_two_arrive)) as H.
  assert (C : Forall (fun s => var_content (snd s)) (subs0 ex_vars) /\ Forall (fun s => var_content (snd s)) (subs1 ex_vars)).
  { split; [exact (proj1 (proj1 (Forall_app _ _ _) (proj1 ex_vars_content)))|exact (proj1 (proj1 (Forall_app _ _ _) (proj2 ex_vars_content)))]. }
  specialize (H (proj1 C) (proj2 C) eq_refl eq_refl).
  specialize (H ltac:(exists (nth 1 (map c_pk ex_vars) []); vm_compute; discriminate)).
  specialize (H ltac:(apply accepted_computed; vm_compute; reflexivity) ex_synced).
  specialize (H ltac:(intros n _; vm_compute; discriminate) ex_two_proved).
  destruct H as (a & r & AL & ND & HR & HA). exists a, r. split; [exact AL|].
  assert (R0 := HR (nth 0 (map c_pk ex_vars) []) (nth_In (n := 0) (map c_pk ex_vars) [] (proj1 (PeanoNat.Nat.ltb_lt _ _) (eq_refl : (0 <? length (map c_pk ex_vars))%nat = true)))).
  assert (R1 := HR (nth 1 (map c_pk ex_vars) []) (nth_In (n := 1) (map c_pk ex_vars) [] (proj1 (PeanoNat.Nat.ltb_lt _ _) (eq_refl : (1 <? length (map c_pk ex_vars))%nat = true)))).
  split; [|split].
  - replace true with (negb (true && square_bit 3 (subs0 ex_vars) (subs1 ex_vars) 2 (nth 0 (map c_pk ex_vars) []))) by (vm_compute; reflexivity). exact R0.
  - replace false with (negb (true && square_bit 3 (subs0 ex_vars) (subs1 ex_vars) 2 (nth 1 (map c_pk ex_vars) []))) by (vm_compute; reflexivity). exact R1.
  - rewrite HA. vm_compute. reflexivity.
Qed.
