(** * C65: exactly the submissions with a right proof are accepted

    [well_proved] (SpecAccept.v): the values satisfy the circuit, and the two packets
    share what the client's code would share for these values with some random numbers.
    Such submissions pass with every challenge; all others with a negligible part of the
    challenges (see P_Count.v for what a challenge is), although the check looks at one
    point and one linear combination only. *)
From Coq Require Import ZArith List Bool Lia.
From Verif Require Import Words Constants Share Net SpecNet SpecPoly Poly RelFacts Circuit SpecCircuit Snip SpecSnip ServerOps SpecServer ClientOps SpecClient SpecStat
  SpecCount SpecAccept AcceptProps P_Snip P_Server P_Client P_Stat P_Count.
Import ListNotations.
Open Scope Z_scope.
Transparent Int_Modulus.

(** Accepted whatever the challenge, if and only if well proved. *)
Theorem always_accepted c vals p0 p1 : wf c -> (NumMulGates c < 2 ^ 18)%nat ->
  packet_ok (NumMulGates c) p0 -> packet_ok (NumMulGates c) p1 -> length vals = NumInputs c ->
  (forall e, challenges (coefficients c) e -> passes c vals p0 p1 e) <-> well_proved c vals p0 p1.
Proof. exact (all_iff c vals p0 p1). Qed.
Print Assumptions always_accepted.

(** Nothing in between: with N the number of multiplication gates rounded up, a submission
    passes with all challenges or with at most (2N + 1) / p of them. *)
Theorem all_or_few_challenges c vals p0 p1 N : wf c -> (NumMulGates c < 2 ^ 18)%nat ->
  packet_ok (NumMulGates c) p0 -> packet_ok (NumMulGates c) p1 -> length vals = NumInputs c ->
  NextPowerOfTwo (Z.of_nat (NumMulGates c)) = Some (Z.of_nat N) ->
  (forall e, challenges (coefficients c) e -> passes c vals p0 p1 e) \/
  at_most ((2 * Z.of_nat N + 1) * p ^ Z.of_nat (coefficients c)) (fun e => challenges (coefficients c) e /\ passes c vals p0 p1 e).
Proof. exact (fun WF HM O0 O1 HL => all_or_few c vals p0 p1 WF HM O0 O1 HL N). Qed.
Print Assumptions all_or_few_challenges.

(** Given the values, all that right packets share follows from four numbers, the client's
    draws f0, g0, A and B. *)
Theorem right_packets_unique c vals p0 p1 q0 q1 : (NumMulGates c < 2 ^ 18)%nat ->
  well_proved c vals p0 p1 -> well_proved c vals q0 q1 ->
  let o := opened_packet p0 p1 in let o' := opened_packet q0 q1 in
  f0_s o = f0_s o' -> g0_s o = g0_s o' -> shareA (triple_share o) = shareA (triple_share o') ->
  shareB (triple_share o) = shareB (triple_share o') -> o = o'.
Proof. exact (proved_unique c vals p0 p1 q0 q1). Qed.
Print Assumptions right_packets_unique.

(** Right packets spoiled in one place (as the client's debugging runs do) are found out,
    although the values are right: they pass with at most (2N + 1) / p of the challenges. *)
Theorem spoiled_count c vals p0 p1 q0 q1 N : wf c -> (NumMulGates c < 2 ^ 18)%nat ->
  packet_ok (NumMulGates c) q0 -> packet_ok (NumMulGates c) q1 -> length vals = NumInputs c ->
  NextPowerOfTwo (Z.of_nat (NumMulGates c)) = Some (Z.of_nat N) ->
  well_proved c vals p0 p1 -> spoiled (opened_packet p0 p1) (opened_packet q0 q1) ->
  at_most ((2 * Z.of_nat N + 1) * p ^ Z.of_nat (coefficients c)) (fun e => challenges (coefficients c) e /\ passes c vals q0 q1 e).
Proof. exact (spoiled_few c vals p0 p1 q0 q1 N). Qed.
Print Assumptions spoiled_count.

(** Whole operations, with any clients: [L] the identities acceptable at both servers, [L1]
    those at server 1, [T] the well-proved ones of [L].  But for (|L| - |T|) * 5 / p of the
    challenges, the answer counts exactly [T]. *)
Theorem var_exact_answer nb order0 order1 total0 total1 stream0 stream1 subs0 subs1 junk0 junk1 L L1 T :
  (nb <= 24)%nat -> fair order1 ->
  arrives_cut var_wire var_size total0 stream0 subs0 -> arrives_cut var_wire var_size total1 stream1 subs1 ->
  Forall (fun s => var_content (snd s)) subs0 -> Forall (fun s => var_content (snd s)) subs1 ->
  length junk0 = 48%nat -> length junk1 = 48%nat ->
  (exists pk, first_sub (var_fits nb) subs1 pk <> None) ->
  accepted (var_fits nb) subs0 subs1 L -> accepted (var_fits nb) subs1 subs1 L1 ->
  NoDup T -> (forall pk, In pk T <-> In pk L /\ proved_at CheckVar (var_fits nb) var_opened snd subs0 subs1 pk) ->
  let n := (coefficients CheckVar * length L1)%nat in
  all_but ((Z.of_nat (length L) - Z.of_nat (length T)) * (5 * p ^ Z.of_nat n)) n
    (var_exact nb order0 order1 total0 total1 stream0 stream1 subs0 subs1 junk0 junk1 T).
Proof. exact (var_exact_count nb order0 order1 total0 total1 stream0 stream1 subs0 subs1 junk0 junk1 L L1 T). Qed.
Print Assumptions var_exact_answer.

Theorem linreg_exact_answer nb degree order0 order1 total0 total1 stream0 stream1 subs0 subs1 d0 d1 junk0 junk1
  garbage0 garbage1 L L1 T N :
  (nb <= 24)%nat -> (1 <= degree)%nat -> (num_quad degree + num_x degree < 2 ^ 18)%nat -> fair order1 ->
  arrives_cut linreg_wire (linreg_size degree) total0 stream0 subs0 ->
  arrives_cut linreg_wire (linreg_size degree) total1 stream1 subs1 ->
  Forall (fun s => linreg_content degree (snd s)) subs0 -> Forall (fun s => linreg_content degree (snd s)) subs1 ->
  length d0 = 8%nat -> length d1 = 8%nat -> length junk0 = 32%nat -> length junk1 = 32%nat ->
  (forall i, let '(x, x2, xy) := garbage0 i in linreg_shape degree (x, 0, x2, xy)) ->
  (exists pk, first_sub (linreg_fits nb) subs1 pk <> None) ->
  accepted (linreg_fits nb) subs0 subs1 L -> accepted (linreg_fits nb) subs1 subs1 L1 ->
  NextPowerOfTwo (Z.of_nat (num_quad degree + num_x degree)) = Some (Z.of_nat N) ->
  NoDup T -> (forall pk, In pk T <-> In pk L /\ proved_at (CheckLinReg degree) (linreg_fits nb) linreg_opened snd subs0 subs1 pk) ->
  let n := (coefficients (CheckLinReg degree) * length L1)%nat in
  all_but ((Z.of_nat (length L) - Z.of_nat (length T)) * ((2 * Z.of_nat N + 1) * p ^ Z.of_nat n)) n
    (linreg_exact nb degree order0 order1 total0 total1 stream0 stream1 subs0 subs1 d0 d1 junk0 junk1 garbage0 garbage1 T).
Proof.
  exact (linreg_exact_count nb degree order0 order1 total0 total1 stream0 stream1 subs0 subs1 d0 d1 junk0 junk1
    garbage0 garbage1 L L1 T N).
Qed.
Print Assumptions linreg_exact_answer.

(** Such a list [T] always exists. *)
Theorem well_proved_listed :
  (forall nb subs0 subs1 L,
     Forall (fun s => var_content (snd s)) subs0 -> Forall (fun s => var_content (snd s)) subs1 ->
     accepted (var_fits nb) subs0 subs1 L ->
     exists T, NoDup T /\ forall pk, In pk T <-> In pk L /\ proved_at CheckVar (var_fits nb) var_opened snd subs0 subs1 pk) /\
  (forall nb degree subs0 subs1 L, (1 <= degree)%nat -> (num_quad degree + num_x degree < 2 ^ 18)%nat ->
     Forall (fun s => linreg_content degree (snd s)) subs0 -> Forall (fun s => linreg_content degree (snd s)) subs1 ->
     accepted (linreg_fits nb) subs0 subs1 L ->
     exists T, NoDup T /\ forall pk, In pk T <-> In pk L /\ proved_at (CheckLinReg degree) (linreg_fits nb) linreg_opened snd subs0 subs1 pk).
Proof. exact (conj var_listed linreg_listed). Qed.
Print Assumptions well_proved_listed.

(** ** Examples *)

(** 3 and its square 9, with the packets of an honest client. *)
Example ex_well_proved : well_proved CheckVar [3; 9] (fst ex_packets) (snd ex_packets).
Proof.
  split; [vm_compute; reflexivity|]. exists (fst ex_packets), (snd ex_packets). split; [|reflexivity].
  exists 2%nat, ex_tape, 0%nat, 13%nat. split; [reflexivity|]. vm_compute. reflexivity.
Qed.
Ltac packet q := let l := eval vm_compute in q in change q with l;
  split; [reflexivity|]; split; [reflexivity|];
  split; [words_ok|]; split; [word_ok|]; split; [word_ok|]; split; [word_ok|]; split; [words_ok|]; split; [word_ok|]; split; word_ok.
Lemma ex_small : (NumMulGates CheckVar < 2 ^ 18)%nat.
Proof. apply PeanoNat.Nat.ltb_lt. vm_compute. reflexivity. Qed.
Example always_accepted_ex : forall e, challenges 2 e -> passes CheckVar [3; 9] (fst ex_packets) (snd ex_packets) e.
Proof.
  refine (proj2 (always_accepted CheckVar [3; 9] _ _ (proj1 CircuitFacts.check_var_wf) ex_small _ _ eq_refl) ex_well_proved).
  - packet (fst ex_packets).
  - packet (snd ex_packets).
Qed.

(** The same with 1 added to the first of server 0's points; to server 1's f0; to its A. *)
Definition bump_h (q : ClientPacket) : ClientPacket :=
  mkPacket (MulShares q) (f0_s q) (g0_s q) (h0_s q) (map2 Z.add (h_points q) [1; 0]) (triple_share q).
Definition bump_f (q : ClientPacket) : ClientPacket :=
  mkPacket (MulShares q) (f0_s q + 1) (g0_s q) (h0_s q) (h_points q) (triple_share q).
Definition bump_A (q : ClientPacket) : ClientPacket :=
  mkPacket (MulShares q) (f0_s q) (g0_s q) (h0_s q) (h_points q)
    (mkBTS (shareA (triple_share q) + 1) (shareB (triple_share q)) (shareC (triple_share q))).
Lemma ex_spoiled :
  spoiled (opened_packet (fst ex_packets) (snd ex_packets)) (opened_packet (bump_h (fst ex_packets)) (snd ex_packets)) /\
  spoiled (opened_packet (fst ex_packets) (snd ex_packets)) (opened_packet (fst ex_packets) (bump_f (snd ex_packets))) /\
  spoiled (opened_packet (fst ex_packets) (snd ex_packets)) (opened_packet (fst ex_packets) (bump_A (snd ex_packets))).
Proof.
  split; [left|split; [right; left|right; right]]; vm_compute; repeat (split; [discriminate || reflexivity|]); discriminate || reflexivity.
Qed.
Example spoiled_count_ex : at_most (5 * p ^ 2)
  (fun e => challenges 2 e /\ passes CheckVar [3; 9] (fst ex_packets) (bump_A (snd ex_packets)) e).
Proof.
  refine (spoiled_count CheckVar [3; 9] (fst ex_packets) (snd ex_packets) _ _ 2 (proj1 CircuitFacts.check_var_wf) ex_small _ _ eq_refl eq_refl
    ex_well_proved (proj2 (proj2 ex_spoiled))).
  - packet (fst ex_packets).
  - packet (bump_A (snd ex_packets)).
Qed.

(** The run of [var_op_ex]: two honest clients and a cheater; the honest ones are counted. *)
Example var_exact_ex : all_but (5 * p ^ 6) 6
  (var_exact 3 id_order id_order 5 5 (wire var_wire ex_vars0 ++ ex_cut) (wire var_wire ex_vars1 ++ ex_cut) ex_vars0 ex_vars1
     (repeat 7 48) (repeat 7 48) (map c_pk ex_vars)).
Proof.
  set (L := map c_pk ex_vars ++ [ex_pk 99]).
  assert (H : all_but ((Z.of_nat (length L) - Z.of_nat (length (map c_pk ex_vars))) * (5 * p ^ Z.of_nat (coefficients CheckVar * length L)))
    (coefficients CheckVar * length L)
    (var_exact 3 id_order id_order 5 5 (wire var_wire ex_vars0 ++ ex_cut) (wire var_wire ex_vars1 ++ ex_cut) ex_vars0 ex_vars1
       (repeat 7 48) (repeat 7 48) (map c_pk ex_vars))).
  { apply var_exact_answer; try reflexivity.
  - lia.
  - exact id_fair.
  - exact ex_vars_arrive0.
  - exact ex_vars_arrive1.
  - exact (proj1 ex_vars_content).
  - exact (proj2 ex_vars_content).
  - exact ex_vars_first.
  - exact ex_vars_accepted.
  - apply accepted_computed. vm_compute. reflexivity.
  - apply distinct_nodup. vm_compute. reflexivity.
  - assert (G : forall i, (i < 2)%nat -> proved_at CheckVar (var_fits 3) var_opened snd ex_vars0 ex_vars1 (nth i (map c_pk ex_vars) [])).
    { intros i Hi.
      assert (W : exists a b, first_sub (var_fits 3) ex_vars0 (nth i (map c_pk ex_vars) []) = Some a /\
        first_sub (var_fits 3) ex_vars1 (nth i (map c_pk ex_vars) []) = Some b /\ well_proved CheckVar (var_opened a b) (snd a) (snd b)).
      { destruct i as [|[|i]]; [| |lia].
        - do 2 eexists. split; [vm_compute; reflexivity|]. split; [vm_compute; reflexivity|]. cbn [snd].
          split; [vm_compute; reflexivity|]. do 2 eexists. split; [|reflexivity].
          exists 2%nat, ex_tape, 0%nat, 13%nat. split; [reflexivity|]. vm_compute. reflexivity.
        - do 2 eexists. split; [vm_compute; reflexivity|]. split; [vm_compute; reflexivity|]. cbn [snd].
          split; [vm_compute; reflexivity|]. do 2 eexists. split; [|reflexivity].
          exists 2%nat, ex_tape, 13%nat, 26%nat. split; [reflexivity|]. vm_compute. reflexivity. }
      destruct W as (a & b & E0 & E1 & W). unfold proved_at. rewrite E0, E1. exact W. }
    intros pk. unfold L. rewrite in_app_iff. split.
    + intros Hin. split; [now left|]. apply (In_nth _ _ []) in Hin as (i & Hi & <-). apply G. exact Hi.
    + intros [[Hin|[<-|[]]] HP]; [exact Hin|]. exfalso.
      assert (E : match first_sub (var_fits 3) ex_vars0 (ex_pk 99), first_sub (var_fits 3) ex_vars1 (ex_pk 99) with
        | Some a, Some b => Eval CheckVar (map (fun v => v mod p) (var_opened a b)) | _, _ => false end = false) by (vm_compute; reflexivity).
      unfold proved_at in HP. destruct (first_sub (var_fits 3) ex_vars0 (ex_pk 99)); [|exact HP].
      destruct (first_sub (var_fits 3) ex_vars1 (ex_pk 99)); [|exact HP]. destruct HP as [HP _]. rewrite E in HP. discriminate HP. }
  replace (coefficients CheckVar * length L)%nat with 6%nat in H by (vm_compute; reflexivity).
  replace (Z.of_nat (length L) - Z.of_nat (length (map c_pk ex_vars))) with 1 in H by (vm_compute; reflexivity).
  change (Z.of_nat 6) with 6 in H. rewrite Z.mul_1_l in H. exact H.
Qed.
