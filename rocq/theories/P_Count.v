(** * C64: how many challenges let a cheating client of VAR, STDDEV or LINREG through

    A challenge is what the servers draw in common: the point of comparison (kept for
    many operations) and, per submission, the coefficients of one linear combination.
    The theorems count challenges; a probability is the quotient by their number
    (first theorem).  They are about challenges chosen independently of the packets;
    that the servers' draws come from a fixed public seed is another matter (see the
    findings in DESIGN.md). *)
From Coq Require Import ZArith List Bool Lia.
From Verif Require Import Words Constants Share Net SpecNet SpecPoly Poly RelFacts Circuit SpecCircuit Snip SpecSnip ServerOps SpecServer ClientOps SpecClient SpecStat
  SpecCount CountFacts CountProps P_Snip P_Server P_Client P_Stat.
Import ListNotations.
Open Scope Z_scope.
Transparent Int_Modulus.

Theorem challenges_number n : exactly (p ^ Z.of_nat (S n)) (challenges n).
Proof. exact (challenges_exactly n). Qed.
Print Assumptions challenges_number.

(** Whatever the packets, values not satisfying the circuit pass with at most (2N + 1) / p
    of the challenges; N: the number of multiplication gates rounded up. *)
Theorem cheat_count c vals p0 p1 N : wf c -> (NumMulGates c < 2 ^ 18)%nat ->
  packet_ok (NumMulGates c) p0 -> packet_ok (NumMulGates c) p1 -> length vals = NumInputs c ->
  NextPowerOfTwo (Z.of_nat (NumMulGates c)) = Some (Z.of_nat N) ->
  Eval c (map (fun v => v mod p) vals) = false ->
  at_most ((2 * Z.of_nat N + 1) * p ^ Z.of_nat (coefficients c))
    (fun e => challenges (coefficients c) e /\ passes c vals p0 p1 e).
Proof. exact (one_count c vals p0 p1 N). Qed.
Print Assumptions cheat_count.

(** The bound cannot be 0: coefficients that are all zero let everything through. *)
Theorem zero_coefficients_pass c vals p0 p1 r : (NumMulGates c < 2 ^ 18)%nat ->
  packet_ok (NumMulGates c) p0 -> packet_ok (NumMulGates c) p1 -> length vals = NumInputs c -> in_field p r ->
  passes c vals p0 p1 (r, repeat 0 (coefficients c)).
Proof. exact (zero_passes c vals p0 p1 r). Qed.
Print Assumptions zero_coefficients_pass.

(** Whole operations, with any clients: [L] the identities acceptable at both servers,
    [L1] those at server 1 (for each of which coefficients are drawn), [C] the
    untruthful ones of [L].  But for |C| * 5 / p of the challenges the answer counts
    none of the untruthful. *)
Theorem var_sound_count nb order0 order1 total0 total1 stream0 stream1 subs0 subs1 junk0 junk1 L L1 C :
  (nb <= 24)%nat -> fair order1 ->
  arrives_cut var_wire var_size total0 stream0 subs0 -> arrives_cut var_wire var_size total1 stream1 subs1 ->
  Forall (fun s => var_content (snd s)) subs0 -> Forall (fun s => var_content (snd s)) subs1 ->
  length junk0 = 48%nat -> length junk1 = 48%nat ->
  (exists pk, first_sub (var_fits nb) subs1 pk <> None) ->
  accepted (var_fits nb) subs0 subs1 L -> accepted (var_fits nb) subs1 subs1 L1 ->
  (forall pk, In pk L -> ~ var_truthful (combined (var_fits nb) var_opened [] subs0 subs1 pk) -> In pk C) ->
  let n := (coefficients CheckVar * length L1)%nat in
  all_but (Z.of_nat (length C) * (5 * p ^ Z.of_nat n)) n
    (var_clean nb order0 order1 total0 total1 stream0 stream1 subs0 subs1 junk0 junk1 L).
Proof. exact (var_count nb order0 order1 total0 total1 stream0 stream1 subs0 subs1 junk0 junk1 L L1 C). Qed.
Print Assumptions var_sound_count.

Theorem linreg_sound_count nb degree order0 order1 total0 total1 stream0 stream1 subs0 subs1 d0 d1 junk0 junk1
  garbage0 garbage1 L L1 C N :
  (nb <= 24)%nat -> (1 <= degree)%nat -> (num_quad degree + num_x degree < 2 ^ 18)%nat -> fair order1 ->
  arrives_cut linreg_wire (linreg_size degree) total0 stream0 subs0 ->
  arrives_cut linreg_wire (linreg_size degree) total1 stream1 subs1 ->
  Forall (fun s => linreg_content degree (snd s)) subs0 -> Forall (fun s => linreg_content degree (snd s)) subs1 ->
  length d0 = 8%nat -> length d1 = 8%nat -> length junk0 = 32%nat -> length junk1 = 32%nat ->
  (forall i, let '(x, x2, xy) := garbage0 i in linreg_shape degree (x, 0, x2, xy)) ->
  (exists pk, first_sub (linreg_fits nb) subs1 pk <> None) ->
  accepted (linreg_fits nb) subs0 subs1 L -> accepted (linreg_fits nb) subs1 subs1 L1 ->
  NextPowerOfTwo (Z.of_nat (num_quad degree + num_x degree)) = Some (Z.of_nat N) ->
  (forall pk, In pk L -> ~ linreg_truthful degree (combined (linreg_fits nb) linreg_opened [] subs0 subs1 pk) -> In pk C) ->
  let n := (coefficients (CheckLinReg degree) * length L1)%nat in
  all_but (Z.of_nat (length C) * ((2 * Z.of_nat N + 1) * p ^ Z.of_nat n)) n
    (linreg_clean nb degree order0 order1 total0 total1 stream0 stream1 subs0 subs1 d0 d1 junk0 junk1 garbage0 garbage1 L).
Proof.
  exact (linreg_count nb degree order0 order1 total0 total1 stream0 stream1 subs0 subs1 d0 d1 junk0 junk1
    garbage0 garbage1 L L1 C N).
Qed.
Print Assumptions linreg_sound_count.

(** ** Examples *)

(** 10 claimed as the square of 3. *)
Example cheat_count_ex : at_most (5 * p ^ 2)
  (fun e => challenges (coefficients CheckVar) e /\ passes CheckVar [3; 10] (fst ex_packets) (snd ex_packets) e).
Proof.
  apply (cheat_count CheckVar [3; 10] (fst ex_packets) (snd ex_packets) 2).
  - apply CircuitFacts.check_var_wf.
  - apply PeanoNat.Nat.ltb_lt. vm_compute. reflexivity.
  - let l := eval vm_compute in (fst ex_packets) in change (fst ex_packets) with l.
    split; [reflexivity|]; split; [reflexivity|];
    split; [words_ok|]; split; [word_ok|]; split; [word_ok|]; split; [word_ok|]; split; [words_ok|];
    split; [word_ok|]; split; word_ok.
  - let l := eval vm_compute in (snd ex_packets) in change (snd ex_packets) with l.
    split; [reflexivity|]; split; [reflexivity|];
    split; [words_ok|]; split; [word_ok|]; split; [word_ok|]; split; [word_ok|]; split; [words_ok|];
    split; [word_ok|]; split; word_ok.
  - reflexivity.
  - reflexivity.
  - vm_compute. reflexivity.
Qed.

(** The run of [var_op_ex]: two honest clients and a cheater. *)
Example var_sound_ex : all_but (5 * p ^ 6) 6
  (var_clean 3 id_order id_order 5 5 (wire var_wire ex_vars0 ++ ex_cut) (wire var_wire ex_vars1 ++ ex_cut) ex_vars0 ex_vars1
     (repeat 7 48) (repeat 7 48) (map c_pk ex_vars ++ [ex_pk 99])).
Proof.
  set (L := map c_pk ex_vars ++ [ex_pk 99]).
  assert (H : all_but (Z.of_nat (length [ex_pk 99]) * (5 * p ^ Z.of_nat (coefficients CheckVar * length L))) (coefficients CheckVar * length L)
    (var_clean 3 id_order id_order 5 5 (wire var_wire ex_vars0 ++ ex_cut) (wire var_wire ex_vars1 ++ ex_cut) ex_vars0 ex_vars1
       (repeat 7 48) (repeat 7 48) L)).
  { apply var_sound_count; try reflexivity.
    - lia.
    - exact id_fair.
    - exact ex_vars_arrive0.
    - exact ex_vars_arrive1.
    - exact (proj1 ex_vars_content).
    - exact (proj2 ex_vars_content).
    - exact ex_vars_first.
    - exact ex_vars_accepted.
    - apply accepted_computed. vm_compute. reflexivity.
    - intros pk Hin HT. vm_compute in Hin. destruct Hin as [<-|[<-|[<-|[]]]].
      + exfalso. apply HT. vm_compute. reflexivity.
      + exfalso. apply HT. vm_compute. reflexivity.
      + left. vm_compute. reflexivity. }
  replace (coefficients CheckVar * length L)%nat with 6%nat in H by (vm_compute; reflexivity).
  change (Z.of_nat (length [ex_pk 99])) with 1 in H. change (Z.of_nat 6) with 6 in H. rewrite Z.mul_1_l in H. exact H.
Qed.
Example var_sound_ex_cheater :
  ~ var_truthful (combined (var_fits 3) var_opened [] ex_vars0 ex_vars1 (ex_pk 99)).
Proof. vm_compute. discriminate. Qed.

(** The two LINREG requests of P_Stat.v, the second with another y: the products of y with
    the x's are then wrong. *)
Definition ex_lies0 : list (list Z * (linreg_vals * ClientPacket)) :=
  match subs0 ex_lin with
  | [a; (pk, ((x, y, x2, xy), pkt))] => [a; (pk, ((x, Z.lxor y 2, x2, xy), pkt))]
  | l => l
  end.
Lemma ex_lies_content : Forall (fun s => linreg_content 3 (snd s)) ex_lies0 /\ Forall (fun s => linreg_content 3 (snd s)) (subs1 ex_lin).
Proof.
  split; [let l := eval vm_compute in ex_lies0 in change ex_lies0 with l|let l := eval vm_compute in (subs1 ex_lin) in change (subs1 ex_lin) with l];
    repeat (apply Forall_cons;
      [cbn [snd]; split; cbn [fst snd];
        [split; [reflexivity|]; split; [reflexivity|]; split; [reflexivity|]; split; [words_ok|]; split; [word_ok|]; split; words_ok
        |split; [reflexivity|]; split; [reflexivity|];
         split; [words_ok|]; split; [word_ok|]; split; [word_ok|]; split; [word_ok|]; split; [words_ok|]; split; [word_ok|]; split; word_ok]|]);
    apply Forall_nil.
Qed.
Example linreg_sound_ex : let liar := nth 1 (map c_pk ex_lin) [] in
  ~ linreg_truthful 3 (combined (linreg_fits 3) linreg_opened [] ex_lies0 (subs1 ex_lin) liar) /\
  all_but (17 * p ^ Z.of_nat (coefficients (CheckLinReg 3) * 2)) (coefficients (CheckLinReg 3) * 2)
  (linreg_clean 3 3 id_order id_order 2 2 (wire linreg_wire ex_lies0) (wire linreg_wire (subs1 ex_lin)) ex_lies0 (subs1 ex_lin)
     (repeat 0 8) (repeat 0 8) (repeat 7 32) (repeat 7 32) ex_garbage ex_garbage (map c_pk ex_lin)).
Proof.
  intros liar. split; [vm_compute; intros [_ H]; discriminate|].
  assert (AR : arrives_cut linreg_wire (linreg_size 3) 2 (wire linreg_wire ex_lies0) ex_lies0 /\
               arrives_cut linreg_wire (linreg_size 3) 2 (wire linreg_wire (subs1 ex_lin)) (subs1 ex_lin)).
  { split; (exists []; split; [now rewrite app_nil_r|]; split; [left; vm_compute; reflexivity|]; split; [vm_compute; repeat constructor|vm_compute; reflexivity]). }
  set (L := map c_pk ex_lin). set (n := (coefficients (CheckLinReg 3) * 2)%nat).
  assert (LL : length L = 2%nat) by (vm_compute; reflexivity).
  assert (H : all_but (Z.of_nat (length [liar]) * ((2 * Z.of_nat 8 + 1) * p ^ Z.of_nat (coefficients (CheckLinReg 3) * length L)))
    (coefficients (CheckLinReg 3) * length L)
    (linreg_clean 3 3 id_order id_order 2 2 (wire linreg_wire ex_lies0) (wire linreg_wire (subs1 ex_lin)) ex_lies0 (subs1 ex_lin)
       (repeat 0 8) (repeat 0 8) (repeat 7 32) (repeat 7 32) ex_garbage ex_garbage L)).
  { apply linreg_sound_count; try reflexivity.
    - lia.
    - lia.
    - apply PeanoNat.Nat.ltb_lt. vm_compute. reflexivity.
    - exact id_fair.
    - exact (proj1 AR).
    - exact (proj2 AR).
    - exact (proj1 ex_lies_content).
    - exact (proj2 ex_lies_content).
    - exact ex_garbage_ok.
    - exists liar. vm_compute. discriminate.
    - apply accepted_computed. vm_compute. reflexivity.
    - apply accepted_computed. vm_compute. reflexivity.
    - intros pk Hin HT. vm_compute in Hin. destruct Hin as [<-|[<-|[]]].
      + exfalso. apply HT. vm_compute. split; reflexivity.
      + left. vm_compute. reflexivity. }
  rewrite LL in H. fold n in H. change (Z.of_nat (length [liar])) with 1 in H. change (2 * Z.of_nat 8 + 1) with 17 in H.
  rewrite Z.mul_1_l in H. exact H.
Qed.
