(** * Honest submissions count, whatever the other clients send (C58)

    [l] are submissions made by the client program, in any number of runs with any
    generators ([made], [made_proof], SpecRobust.v); they reach both servers
    ([reach_servers]: their identities differ, and nobody got a submission in first
    under one of them).  Everything else that arrives is arbitrary: [subs0], [subs1]
    may hold any other submissions in any order, different at the two servers.

    Then the answer is that of the honest submissions plus that of [k] other clients,
    each of which moves the sum by no more than a single value of the announced range
    can; [outcome]: server 0 gives an answer if at least half of the announced number
    of submissions counted (SpecServer.v).  [both run peer R]: in every schedule both
    servers come to an end, with outcomes in [R]. *)
From Coq Require Import ZArith List Bool Lia.
From Verif Require Import Words WordsFacts Constants Share Proc Net NetFacts SpecNet RelFacts Exec SpecPoly Circuit Snip SpecSnip
  Correlated SpecStore ServerOps SpecServer ClientOps SpecClient ClientFacts SpecStat SpecFreq SpecRobust RobustFacts
  P_Snip P_Server P_Client P_Stat P_Freq.
Import ListNotations.
Open Scope Z_scope.

Theorem bit_sum_robust order0 order1 total0 total1 stream0 stream1 subs0 subs1 junk0 junk1 rnd0 rnd1 l :
  fair order1 -> arrives bit_wire total0 stream0 subs0 -> arrives bit_wire total1 stream1 subs1 ->
  length junk0 = 33%nat -> length junk1 = 33%nat ->
  made bit_request l -> reach_servers any l subs0 subs1 ->
  exists k e, others (length l) k subs0 subs1 /\ 0 <= e <= Z.of_nat k /\
  both (bit_sum false order0 total0 stream0 junk0 rnd0) (bit_sum true order1 total1 stream1 junk1 rnd1)
    (fun r0 r1 => r1 = RET_NO_ANS /\
       r0 = outcome (length l + k) total0 (zsum (map (fun r => b2z (c_real r)) l) + e)).
Proof. exact (bit_robust order0 order1 total0 total1 stream0 stream1 subs0 subs1 junk0 junk1 rnd0 rnd1 l). Qed.
Print Assumptions bit_sum_robust.

Theorem int_sum_robust nb order0 order1 total0 total1 stream0 stream1 subs0 subs1 junk0 junk1 rnd0 rnd1 l :
  (nb <= 63)%nat ->
  fair order1 -> arrives int_wire total0 stream0 subs0 -> arrives int_wire total1 stream1 subs1 ->
  Forall (fun s => word (snd s)) subs0 -> Forall (fun s => word (snd s)) subs1 ->
  length junk0 = 40%nat -> length junk1 = 40%nat ->
  made (int_request (2 ^ Z.of_nat nb)) l -> reach_servers (fits nb) l subs0 subs1 ->
  exists k e, others (length l) k subs0 subs1 /\ 0 <= e <= Z.of_nat k * (2 ^ Z.of_nat nb - 1) /\
  both (int_sum false order0 nb total0 stream0 junk0 rnd0) (int_sum true order1 nb total1 stream1 junk1 rnd1)
    (fun r0 r1 => r1 = RET_NO_ANS /\
       r0 = outcome (length l + k) total0 ((zsum (map c_real l) + e) mod two64)).
Proof. exact (int_robust nb order0 order1 total0 total1 stream0 stream1 subs0 subs1 junk0 junk1 rnd0 rnd1 l). Qed.
Print Assumptions int_sum_robust.

(** A record of VAR or STDDEV counts only if its proof holds; those of honest clients
    do, whatever else is in the batch. *)
Theorem var_stddev_robust nb order0 order1 total0 total1 stream0 stream1 subs0 subs1 junk0 junk1 K rnd0 rnd1 st0 st1 l :
  (nb <= 24)%nat -> fair order1 ->
  arrives_cut var_wire var_size total0 stream0 subs0 -> arrives_cut var_wire var_size total1 stream1 subs1 ->
  Forall (fun s => var_content (snd s)) subs0 -> Forall (fun s => var_content (snd s)) subs1 ->
  length junk0 = 48%nat -> length junk1 = 48%nat -> synced st0 st1 ->
  l <> [] -> made_proof (var_request (2 ^ Z.of_nat nb)) l -> reach_servers (var_fits nb) l subs0 subs1 ->
  exists k e e2, others (length l) k subs0 subs1 /\
    0 <= e <= Z.of_nat k * (2 ^ Z.of_nat nb - 1) /\ 0 <= e2 <= Z.of_nat k * (2 ^ Z.of_nat (2 * nb) - 1) /\
  both (var_op false order0 nb total0 stream0 junk0 K rnd0 st0) (var_op true order1 nb total1 stream1 junk1 K rnd1 st1)
    (fun a b => fst b = RET_NO_ANS /\
       fst a = outcome (length l + k) total0
         ((length l + k)%nat, (zsum (map c_real l) + e) mod p, (zsum (map (fun r => c_real r * c_real r) l) + e2) mod p) /\
       synced (snd a) (snd b)).
Proof. exact (var_robust nb order0 order1 total0 total1 stream0 stream1 subs0 subs1 junk0 junk1 K rnd0 rnd1 st0 st1 l). Qed.
Print Assumptions var_stddev_robust.

Theorem linreg_op_robust nb degree order0 order1 total0 total1 stream0 stream1 subs0 subs1 d0 d1 junk0 junk1
  garbage0 garbage1 K rnd0 rnd1 st0 st1 l :
  (nb <= 24)%nat -> (1 <= degree)%nat -> (num_quad degree + num_x degree < 2 ^ 18)%nat -> fair order1 ->
  arrives_cut linreg_wire (linreg_size degree) total0 stream0 subs0 ->
  arrives_cut linreg_wire (linreg_size degree) total1 stream1 subs1 ->
  Forall (fun s => linreg_content degree (snd s)) subs0 -> Forall (fun s => linreg_content degree (snd s)) subs1 ->
  length d0 = 8%nat -> length d1 = 8%nat -> length junk0 = 32%nat -> length junk1 = 32%nat ->
  (forall i, let '(x, x2, xy) := garbage0 i in linreg_shape degree (x, 0, x2, xy)) -> synced st0 st1 ->
  l <> [] -> made_proof (linreg_request degree (2 ^ Z.of_nat nb)) l -> reach_servers (linreg_fits nb) l subs0 subs1 ->
  exists k e, others (length l) k subs0 subs1 /\
    (forall j, 0 <= e j <= Z.of_nat k * (2 ^ Z.of_nat (if (j <? degree)%nat then nb else 2 * nb) - 1)) /\
  both (linreg_op false order0 nb total0 (degree_wire degree ++ stream0) d0 junk0 garbage0 K rnd0 st0)
       (linreg_op true order1 nb total1 (degree_wire degree ++ stream1) d1 junk1 garbage1 K rnd1 st1)
    (fun a b => fst b = RET_NO_ANS /\
       fst a = outcome (length l + k) total0
         (moments degree (length l + k) (fun j => (zsum (map (fun r => nth j (linreg_fields (c_real r)) 0) l) + e j) mod p)) /\
       synced (snd a) (snd b)).
Proof. exact (linreg_robust nb degree order0 order1 total0 total1 stream0 stream1 subs0 subs1 d0 d1 junk0 junk1 garbage0 garbage1 K rnd0 rnd1 st0 st1 l). Qed.
Print Assumptions linreg_op_robust.

(** FREQ, when the batch does not balance: every other client counted adds exactly one
    to one place. *)
Theorem freq_robust_checked num_bits order0 order1 total0 total1 stream0 stream1 subs0 subs1 pk0 pk1 junk0 junk1
    c0 c1 T0 T1 s0 s1 L l :
  (num_bits <= 30)%nat -> fair order1 ->
  freq_input num_bits total0 stream0 subs0 pk0 junk0 -> freq_input num_bits total1 stream1 subs1 pk1 junk1 ->
  params_ok c0 c1 -> stores_paired s0 s1 -> heard subs1 L -> (length L <= total0)%nat ->
  let w := freq_width num_bits in
  ~ balanced (total_weight w subs0 subs1 L) total0 ->
  made (freq_request w) l -> reach_servers any l subs0 subs1 ->
  exists k e, others (length l) k subs0 subs1 /\ list_sum (map e (seq 0 w)) = k /\
  both (freq_op false order0 num_bits total0 stream0 pk0 junk0 c0 T0 s0)
       (freq_op true order1 num_bits total1 stream1 pk1 junk1 c1 T1 s1)
    (fun r0 r1 => fst r1 = RET_NO_ANS /\
       fst r0 = outcome (length l + k) total0 (with_extra (histogram w (map c_real l)) e) /\
       stores_paired (snd r0) (snd r1)).
Proof. exact (freq_robust_one_by_one num_bits order0 order1 total0 total1 stream0 stream1 subs0 subs1 pk0 pk1 junk0 junk1 c0 c1 T0 T1 s0 s1 L l). Qed.
Print Assumptions freq_robust_checked.

(** FREQ, when the weights of all rows happen to add up to the announced number: each
    of the others can add one in as many places as it likes. *)
Theorem freq_robust_unchecked num_bits order0 order1 total0 total1 stream0 stream1 subs0 subs1 pk0 pk1 junk0 junk1
    c0 c1 T0 T1 s0 s1 L l :
  (num_bits <= 30)%nat -> fair order1 ->
  freq_input num_bits total0 stream0 subs0 pk0 junk0 -> freq_input num_bits total1 stream1 subs1 pk1 junk1 ->
  params_ok c0 c1 -> stores_paired s0 s1 -> heard subs1 L -> (length L <= total0)%nat ->
  let w := freq_width num_bits in
  balanced (total_weight w subs0 subs1 L) total0 ->
  made (freq_request w) l -> reach_servers any l subs0 subs1 ->
  exists k e, length L = (length l + k)%nat /\ (forall j, (e j <= k)%nat) /\
  exists s0' s1', stores_paired s0' s1' /\
  ends (bool_bytes (length L))
    (freq_op false order0 num_bits total0 stream0 pk0 junk0 c0 T0 s0)
    (freq_op true order1 num_bits total1 stream1 pk1 junk1 c1 T1 s1)
    (Cfg (Ret (outcome (length L) total0 (with_extra (histogram w (map c_real l)) e), s0')) (Ret (RET_NO_ANS, s1'))
         (pack_bools (repeat true (length L))) []).
Proof. exact (freq_robust_passed num_bits order0 order1 total0 total1 stream0 stream1 subs0 subs1 pk0 pk1 junk0 junk1 c0 c1 T0 T1 s0 s1 L l). Qed.
Print Assumptions freq_robust_unchecked.

(** ** Examples *)

(** Three honest submissions of three bits; another client sends a value that is too
    large, a third one of its own, and to server 0 first something under the identity
    of the first honest client, but too large. *)
Definition ex_honest : list (crec Z Z) := fst (requests (int_request (2 ^ Z.of_nat 3) ex_prg) 3 0).
Definition ex_mixed0 : list (list Z * Z) :=
  (nth 0 (map c_pk ex_honest) [], 77) :: (ex_pk 97, 8) :: subs0 ex_honest ++ [(ex_pk 98, 5)].
Definition ex_mixed1 : list (list Z * Z) := (ex_pk 98, 3) :: (ex_pk 97, 1) :: (ex_pk 99, 1) :: subs1 ex_honest.
Example int_sum_robust_ex : made (int_request (2 ^ Z.of_nat 3)) ex_honest /\ reach_servers (fits 3) ex_honest ex_mixed0 ex_mixed1.
Proof.
  split.
  - intros r Hr. exists ex_prg, 3%nat. split; [apply ex_prg_ok|exact Hr].
  - split.
    + vm_compute. repeat (constructor; [cbn [In]; intuition discriminate|]). constructor.
    + intros r Hr. repeat (destruct Hr as [<-|Hr]; [split; vm_compute; reflexivity|]). destruct Hr.
Qed.
(** The honest values are 1, 7 and 5, the other's 6. *)
Example int_sum_robust_run : both
  (int_sum false id_order 3 6 (wire int_wire ex_mixed0) (repeat 7 40) ex_tape)
  (int_sum true id_order 3 6 (wire int_wire ex_mixed1) (repeat 7 40) ex_tape)
  (fun r0 r1 => r1 = RET_NO_ANS /\ r0 = RET_ANS (1 + 7 + 5 + 6)).
Proof.
  exists (RET_ANS 19), RET_NO_ANS. split; [|split; reflexivity].
  refine (exec_always 60 _ _ (RET_ANS 19, RET_NO_ANS) _). vm_compute. reflexivity.
Qed.

(** The two honest requests of P_Stat.v beside the cheater. *)
Example var_robust_ex : made_proof (var_request (2 ^ Z.of_nat 3)) ex_vars /\
  reach_servers (var_fits 3) ex_vars ex_vars0 ex_vars1 /\ ex_vars <> [].
Proof.
  split; [|split].
  - intros r Hr. exists ex_prg, ex_tape, 0%nat, 2%nat.
    unfold ex_vars in Hr. change (2 ^ Z.of_nat 3) with 8.
    destruct (requests_opt (var_request 8 ex_prg ex_tape) 2 (0%nat, 0%nat, None)) as [[l st]|]; [|destruct Hr].
    exists l, st. split; [apply ex_prg_ok|]. split; auto.
  - split.
    + vm_compute. repeat (constructor; [cbn [In]; intuition discriminate|]). constructor.
    + assert (F : Forall (fun r => first_sub (var_fits 3) ex_vars0 (c_pk r) = Some (c_0 r) /\
        first_sub (var_fits 3) ex_vars1 (c_pk r) = Some (c_1 r)) ex_vars).
      { let l := eval vm_compute in ex_vars in change ex_vars with l.
        repeat (apply Forall_cons; [split; vm_compute; reflexivity|]). apply Forall_nil. }
      rewrite Forall_forall in F. exact F.
  - vm_compute. discriminate.
Qed.
