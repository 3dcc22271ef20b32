(** * C62: VAR, STDDEV and LINREG built with USE_OT_B2A false

    The conversion of the shares then uses daBits from the store instead of oblivious
    transfers.  Setting as in P_Stat.v; [c0], [c1]: the parameters of the stores;
    [s0], [s1]: the stores, paired as after any history of operations; [T0], [T1]: the
    servers' random tapes. *)
From Coq Require Import ZArith List Bool Lia.
From Verif Require Import Words WordsFacts Constants Share Proc ProcFacts Net SpecNet RelFacts Exec Correlated SpecStore
  SpecPoly Circuit SpecCircuit Snip SpecSnip ServerOps SpecServer ServerFacts ClientOps SpecClient SpecStat StatReads
  DabitOps SpecDabit DabitFacts DabitRun P_Correlated P_Snip P_Server P_Client P_Stat.
Import ListNotations.
Open Scope Z_scope.
Transparent Int_Modulus.

(** ** Up to 15 bits the answers are those of the other build *)

(** [L]: identities acceptable at both servers, [L1]: at server 1; three times the width
    in daBits is used for each of the latter. *)
Theorem var_op_dabit_correct c0 c1 nb order0 order1 total0 total1 stream0 stream1 subs0 subs1 junk0 junk1 T0 T1 K st0 st1 s0 s1 L L1 :
  params_ok c0 c1 -> stores_paired s0 s1 -> (nb <= 15)%nat -> fair order1 ->
  arrives_cut var_wire var_size total0 stream0 subs0 -> arrives_cut var_wire var_size total1 stream1 subs1 ->
  Forall (fun s => var_content (snd s)) subs0 -> Forall (fun s => var_content (snd s)) subs1 ->
  length junk0 = 48%nat -> length junk1 = 48%nat ->
  (exists pk, first_sub (var_fits nb) subs1 pk <> None) ->
  accepted (var_fits nb) subs0 subs1 L -> accepted (var_fits nb) subs1 subs1 L1 -> synced st0 st1 ->
  both (var_op_d c0 order0 nb total0 stream0 junk0 T0 K st0 s0) (var_op_d c1 order1 nb total1 stream1 junk1 T1 K st1 s1)
    (fun a b => exists ok pos,
       validated CheckVar (randomX st0) K (seed_pos st0) (var_fits nb) var_opened snd subs0 subs1 L ok pos /\
       fst (fst b) = RET_NO_ANS /\
       fst (fst a) = outcome (length (filter ok L)) total0
         (length (filter ok L),
          field_sum (var_fits nb) var_opened subs0 subs1 (filter ok L) 0 mod p,
          field_sum (var_fits nb) var_opened subs0 subs1 (filter ok L) 1 mod p) /\
       synced (snd (fst a)) (snd (fst b)) /\ randomX (snd (fst a)) = randomX st0 /\
       stores_paired (snd a) (snd b) /\
       used (length L1 * (3 * nb)) s0 (snd a) /\ used (length L1 * (3 * nb)) s1 (snd b)).
Proof.
  exact (var_op_dabit_result c0 c1 nb order0 order1 total0 total1 stream0 stream1 subs0 subs1 junk0 junk1 T0 T1 K st0 st1 s0 s1 L L1).
Qed.
Print Assumptions var_op_dabit_correct.

Theorem linreg_op_dabit_correct c0 c1 nb degree order0 order1 total0 total1 stream0 stream1 subs0 subs1 d0 d1 junk0 junk1
  garbage0 garbage1 T0 T1 K st0 st1 s0 s1 L L1 :
  params_ok c0 c1 -> stores_paired s0 s1 ->
  (nb <= 15)%nat -> (1 <= degree)%nat -> (num_quad degree + num_x degree < 2 ^ 18)%nat -> fair order1 ->
  arrives_cut linreg_wire (linreg_size degree) total0 stream0 subs0 ->
  arrives_cut linreg_wire (linreg_size degree) total1 stream1 subs1 ->
  Forall (fun s => linreg_content degree (snd s)) subs0 -> Forall (fun s => linreg_content degree (snd s)) subs1 ->
  length d0 = 8%nat -> length d1 = 8%nat -> length junk0 = 32%nat -> length junk1 = 32%nat ->
  (forall i, let '(x, x2, xy) := garbage0 i in linreg_shape degree (x, 0, x2, xy)) ->
  (exists pk, first_sub (linreg_fits nb) subs1 pk <> None) ->
  accepted (linreg_fits nb) subs0 subs1 L -> accepted (linreg_fits nb) subs1 subs1 L1 -> synced st0 st1 ->
  both (linreg_op_d c0 order0 nb total0 (degree_wire degree ++ stream0) d0 junk0 garbage0 T0 K st0 s0)
       (linreg_op_d c1 order1 nb total1 (degree_wire degree ++ stream1) d1 junk1 garbage1 T1 K st1 s1)
    (fun a b => exists ok pos,
       validated (CheckLinReg degree) (randomX st0) K (seed_pos st0) (linreg_fits nb) linreg_opened snd subs0 subs1 L ok pos /\
       fst (fst b) = RET_NO_ANS /\
       fst (fst a) = outcome (length (filter ok L)) total0
         (moments degree (length (filter ok L))
            (fun j => field_sum (linreg_fits nb) linreg_opened subs0 subs1 (filter ok L) j mod p)) /\
       synced (snd (fst a)) (snd (fst b)) /\ randomX (snd (fst a)) = randomX st0 /\
       stores_paired (snd a) (snd b) /\
       (let k := (length L1 * (nb * (degree + 2 * (num_quad degree + num_x degree))))%nat in
        used k s0 (snd a) /\ used k s1 (snd b))).
Proof.
  exact (linreg_op_dabit_result c0 c1 nb degree order0 order1 total0 total1 stream0 stream1 subs0 subs1 d0 d1 junk0 junk1
    garbage0 garbage1 T0 T1 K st0 st1 s0 s1 L L1).
Qed.
Print Assumptions linreg_op_dabit_correct.

(** ** Whole runs with an honest client process *)

Definition var_dabit_runs (nb : nat) : Prop :=
  forall c0 c1 g T s n order0 order1 junk0 junk1 T0 T1 K st0 st1 s0 s1,
  params_ok c0 c1 -> stores_paired s0 s1 ->
  prg_ok g -> (0 < n)%nat -> Z.of_nat n < two32 -> fair order1 ->
  length junk0 = 48%nat -> length junk1 = 48%nat -> synced st0 st1 ->
  exists l st' stream0 stream1,
    requests_opt (var_request (2 ^ Z.of_nat nb) g T) n (0%nat, s, None) = Some (l, st') /\ length l = n /\
    wire_opt VarShare_bytes (subs0 l) = Some stream0 /\ wire_opt VarShare_bytes (subs1 l) = Some stream1 /\
    (let sum := zsum (map c_real l) in let sumsq := zsum (map (fun r => c_real r * c_real r) l) in
     both (var_op_d c0 order0 nb n stream0 junk0 T0 K st0 s0) (var_op_d c1 order1 nb n stream1 junk1 T1 K st1 s1)
       (fun a b => fst (fst b) = RET_NO_ANS /\ fst (fst a) = RET_ANS (n, sum mod p, sumsq mod p) /\
          synced (snd (fst a)) (snd (fst b)) /\ stores_paired (snd a) (snd b) /\
          used (n * (3 * nb)) s0 (snd a) /\ used (n * (3 * nb)) s1 (snd b)) /\
     var_ans l = (sum mod two64, sumsq mod two64)).

Theorem var_run_dabit nb : (nb <= 15)%nat -> var_dabit_runs nb.
Proof.
  intros H c0 c1 g T s n order0 order1 junk0 junk1 T0 T1 K st0 st1 s0 s1 HP HS.
  exact (var_honest_d c0 c1 nb g T s n order0 order1 junk0 junk1 T0 T1 K st0 st1 s0 s1 HP HS H).
Qed.
Print Assumptions var_run_dabit.

Definition linreg_dabit_runs (nb degree : nat) : Prop :=
  forall c0 c1 g T s n order0 order1 d0 d1 junk0 junk1 garbage0 garbage1 T0 T1 K st0 st1 s0 s1,
  params_ok c0 c1 -> stores_paired s0 s1 ->
  prg_ok g -> (0 < n)%nat -> Z.of_nat n < two32 -> fair order1 ->
  length d0 = 8%nat -> length d1 = 8%nat -> length junk0 = 32%nat -> length junk1 = 32%nat ->
  (forall i, let '(x, x2, xy) := garbage0 i in linreg_shape degree (x, 0, x2, xy)) -> synced st0 st1 ->
  exists l st' deg stream0 stream1,
    requests_opt (linreg_request degree (2 ^ Z.of_nat nb) g T) n (0%nat, s, None) = Some (l, st') /\ length l = n /\
    sent_bytes (send_size (Z.of_nat degree)) = Some deg /\
    wire_opt (linregshare_bytes degree) (subs0 l) = Some stream0 /\
    wire_opt (linregshare_bytes degree) (subs1 l) = Some stream1 /\
    (forall r, In r l -> length (fst (c_real r)) = num_x degree /\
       Forall (fun v => 0 <= v < 2 ^ Z.of_nat nb) (fst (c_real r)) /\ 0 <= snd (c_real r) < 2 ^ Z.of_nat nb) /\
    both (linreg_op_d c0 order0 nb n (deg ++ stream0) d0 junk0 garbage0 T0 K st0 s0)
         (linreg_op_d c1 order1 nb n (deg ++ stream1) d1 junk1 garbage1 T1 K st1 s1)
       (fun a b => fst (fst b) = RET_NO_ANS /\
          fst (fst a) = RET_ANS (moments degree n (fun j => zsum (map (fun r => nth j (linreg_fields (c_real r)) 0) l) mod p)) /\
          synced (snd (fst a)) (snd (fst b)) /\ stores_paired (snd a) (snd b)).

Theorem linreg_run_dabit nb degree : (nb <= 15)%nat -> (1 <= degree)%nat -> (num_quad degree + num_x degree < 2 ^ 18)%nat ->
  linreg_dabit_runs nb degree.
Proof.
  intros H1 H2 H3 c0 c1 g T s n order0 order1 d0 d1 junk0 junk1 garbage0 garbage1 T0 T1 K st0 st1 s0 s1 HP HS.
  exact (linreg_honest_d c0 c1 nb degree g T s n order0 order1 d0 d1 junk0 junk1 garbage0 garbage1 T0 T1 K st0 st1 s0 s1 HP HS H1 H2 H3).
Qed.
Print Assumptions linreg_run_dabit.

(** ** 16 bits

    Finding: squares then have 32 bits and the top one is weighted by [(1 << 31)], a
    negative [int], that is by 2^64 - 2^31.  A single honest client with the value 50000
    is turned away. *)
Definition prg_50000 : prg := fun i => le_bytes 16 (65536 * Z.of_nat i + 50000).
Lemma prg_50000_ok : prg_ok prg_50000.
Proof.
  split.
  - intros i. split; [apply le_bytes_length|apply le_bytes_bytes].
  - intros i j Hi Hj E. apply (f_equal le_val) in E. unfold prg_50000 in E.
    rewrite !le_val_bytes_small in E; [lia| |];
      change (256 ^ Z.of_nat 16) with (two64 * two64); unfold two64 in *; lia.
Qed.
Definition ex_50000 : list (crec (Z * Z * ClientPacket) Z) :=
  match requests_opt (var_request (2 ^ Z.of_nat 16) prg_50000 ex_tape) 1 (0%nat, 0%nat, None) with Some (l, _) => l | None => [] end.
Definition bytes_of (o : option (list Z)) : list Z := match o with Some b => b | None => [] end.
Theorem var_dabit_16_rejected : map c_real ex_50000 = [50000] /\
  exists a b, always
    (var_op_d ex_c0 id_order 16 1 (bytes_of (wire_opt VarShare_bytes (subs0 ex_50000))) (repeat 7 48) ex_T (fun n => Z.of_nat n + 3) (ex_state 5) empty_store)
    (var_op_d ex_c1 id_order 16 1 (bytes_of (wire_opt VarShare_bytes (subs1 ex_50000))) (repeat 7 48) ex_T (fun n => Z.of_nat n + 3) (ex_state 5) empty_store) a b /\
    (fst (fst a), fst (fst b)) = (RET_INVALID, RET_NO_ANS).
Proof.
  split; [vm_compute; reflexivity|].
  apply (exec_obs_always 2000 _ _ (fun a b => (fst (fst a), fst (fst b)))). vm_compute. reflexivity.
Qed.
Print Assumptions var_dabit_16_rejected.
Theorem var_run_dabit_16_refuted : ~ var_dabit_runs 16.
Proof.
  intros H.
  destruct (H ex_c0 ex_c1 prg_50000 ex_tape 0%nat 1%nat id_order id_order (repeat 7 48) (repeat 7 48) ex_T ex_T
    (fun n => Z.of_nat n + 3) (ex_state 5) (ex_state 5) empty_store empty_store ex_params empty_paired prg_50000_ok
    ltac:(lia) ltac:(reflexivity) id_fair eq_refl eq_refl ex_synced)
    as (l & st' & stream0 & stream1 & E & _ & W0 & W1 & B & _). clear H.
  destruct var_dabit_16_rejected as (_ & a & b & A & EQ).
  assert (EL : l = ex_50000) by (unfold ex_50000; rewrite E; reflexivity). subst l. clear E.
  rewrite W0, W1 in A. cbn [bytes_of] in A.
  destruct (both_functional _ _ _ _ _ B A) as (_ & E & _). apply (f_equal fst) in EQ. cbn [fst] in EQ.
  rewrite E in EQ. discriminate.
Qed.
Print Assumptions var_run_dabit_16_refuted.

(** LINREG: a single honest client with the point (50000; 50000). *)
Definition ex_lin_50000 : list (crec (linreg_vals * ClientPacket) (list Z * Z)) :=
  match requests_opt (linreg_request 2 (2 ^ Z.of_nat 16) prg_50000 ex_tape) 1 (0%nat, 0%nat, None) with Some (l, _) => l | None => [] end.
Definition ex_garbage2 : nat -> list Z * list Z * list Z := fun _ => ([0], [0], [0]).
Theorem linreg_dabit_16_rejected : map c_real ex_lin_50000 = [([50000], 50000)] /\
  exists a b, always
    (linreg_op_d ex_c0 id_order 16 1 (bytes_of (sent_bytes (send_size 2)) ++ bytes_of (wire_opt (linregshare_bytes 2) (subs0 ex_lin_50000)))
       (repeat 0 8) (repeat 7 32) ex_garbage2 ex_T (fun n => Z.of_nat n + 3) (ex_state 5) empty_store)
    (linreg_op_d ex_c1 id_order 16 1 (bytes_of (sent_bytes (send_size 2)) ++ bytes_of (wire_opt (linregshare_bytes 2) (subs1 ex_lin_50000)))
       (repeat 0 8) (repeat 7 32) ex_garbage2 ex_T (fun n => Z.of_nat n + 3) (ex_state 5) empty_store) a b /\
    (fst (fst a), fst (fst b)) = (RET_INVALID, RET_NO_ANS).
Proof.
  split; [vm_compute; reflexivity|].
  apply (exec_obs_always 4000 _ _ (fun a b => (fst (fst a), fst (fst b)))). vm_compute. reflexivity.
Qed.
Print Assumptions linreg_dabit_16_rejected.
Theorem linreg_run_dabit_16_refuted : ~ linreg_dabit_runs 16 2.
Proof.
  intros H.
  destruct (H ex_c0 ex_c1 prg_50000 ex_tape 0%nat 1%nat id_order id_order (repeat 0 8) (repeat 0 8) (repeat 7 32) (repeat 7 32)
    ex_garbage2 ex_garbage2 ex_T ex_T
    (fun n => Z.of_nat n + 3) (ex_state 5) (ex_state 5) empty_store empty_store ex_params empty_paired prg_50000_ok
    ltac:(lia) ltac:(reflexivity) id_fair eq_refl eq_refl eq_refl eq_refl) as (l & st' & deg & stream0 & stream1 & E & _ & D & W0 & W1 & _ & B).
  { intros i. unfold ex_garbage2. assert (W : word 0) by (unfold word, two64; lia). repeat split; repeat constructor; apply W. }
  { exact ex_synced. }
  destruct linreg_dabit_16_rejected as (_ & a & b & A & EQ).
  assert (EL : l = ex_lin_50000) by (unfold ex_lin_50000; rewrite E; reflexivity). subst l. clear E.
  change (Z.of_nat 2) with 2 in D. rewrite D, W0, W1 in A. cbn [bytes_of] in A.
  destruct (both_functional _ _ _ _ _ B A) as (_ & E & _). apply (f_equal fst) in EQ. cbn [fst] in EQ.
  rewrite E in EQ. discriminate.
Qed.
Print Assumptions linreg_run_dabit_16_refuted.

(** ** From 17 bits on the shift is undefined *)
Theorem var_dabit_17_undefined c0 c1 nb order0 order1 total0 total1 stream0 stream1 subs0 subs1 junk0 junk1 T0 T1 K st0 st1 s0 s1 :
  server_num c0 = false -> server_num c1 = true -> (17 <= nb <= 24)%nat -> fair order1 ->
  arrives_cut var_wire var_size total0 stream0 subs0 -> arrives_cut var_wire var_size total1 stream1 subs1 ->
  Forall (fun s => var_content (snd s)) subs0 -> Forall (fun s => var_content (snd s)) subs1 ->
  length junk0 = 48%nat -> length junk1 = 48%nat ->
  (exists pk, first_sub (var_fits nb) subs1 pk <> None) ->
  ends 0 (var_op_d c0 order0 nb total0 stream0 junk0 T0 K st0 s0) (var_op_d c1 order1 nb total1 stream1 junk1 T1 K st1 s1)
    (Cfg Undef Undef [] []).
Proof.
  exact (var_wide c0 c1 nb order0 order1 total0 total1 stream0 stream1 subs0 subs1 junk0 junk1 T0 T1 K st0 st1 s0 s1).
Qed.
Print Assumptions var_dabit_17_undefined.
Theorem linreg_dabit_17_undefined c0 c1 nb degree order0 order1 total0 total1 stream0 stream1 subs0 subs1 d0 d1 junk0 junk1
  garbage0 garbage1 T0 T1 K st0 st1 s0 s1 :
  server_num c0 = false -> server_num c1 = true -> (17 <= nb <= 24)%nat -> (2 <= degree)%nat ->
  (num_quad degree + num_x degree < 2 ^ 18)%nat -> fair order1 ->
  arrives_cut linreg_wire (linreg_size degree) total0 stream0 subs0 ->
  arrives_cut linreg_wire (linreg_size degree) total1 stream1 subs1 ->
  Forall (fun s => linreg_content degree (snd s)) subs0 -> Forall (fun s => linreg_content degree (snd s)) subs1 ->
  length d0 = 8%nat -> length d1 = 8%nat -> length junk0 = 32%nat -> length junk1 = 32%nat ->
  (exists pk, first_sub (linreg_fits nb) subs1 pk <> None) ->
  ends 0 (linreg_op_d c0 order0 nb total0 (degree_wire degree ++ stream0) d0 junk0 garbage0 T0 K st0 s0)
         (linreg_op_d c1 order1 nb total1 (degree_wire degree ++ stream1) d1 junk1 garbage1 T1 K st1 s1)
    (Cfg Undef Undef [] []).
Proof.
  exact (linreg_wide c0 c1 nb degree order0 order1 total0 total1 stream0 stream1 subs0 subs1 d0 d1 junk0 junk1
    garbage0 garbage1 T0 T1 K st0 st1 s0 s1).
Qed.
Print Assumptions linreg_dabit_17_undefined.

(** ** Examples: the submissions of P_Stat.v *)
Example var_op_dabit_ex : exists a b, always
  (var_op_d ex_c0 id_order 3 4 (wire var_wire ex_vars0 ++ ex_cut) (repeat 7 48) ex_T (fun n => Z.of_nat n + 3) (ex_state 5) empty_store)
  (var_op_d ex_c1 id_order 3 4 (wire var_wire ex_vars1 ++ ex_cut) (repeat 7 48) ex_T (fun n => Z.of_nat n + 3) (ex_state 5) empty_store) a b /\
  (fst (fst a), fst (fst b)) = (RET_ANS (2%nat, 1 + 2, 1 * 1 + 2 * 2), RET_NO_ANS).
Proof. apply (exec_obs_always 2000 _ _ (fun a b => (fst (fst a), fst (fst b)))). vm_compute. reflexivity. Qed.
Example linreg_op_dabit_ex :
  exec_obs 4000
  (linreg_op_d ex_c0 id_order 3 4 (degree_wire 3 ++ wire linreg_wire (subs0 ex_lin)) (repeat 0 8) (repeat 7 32) ex_garbage
     ex_T (fun n => Z.of_nat n + 3) (ex_state 5) empty_store)
  (linreg_op_d ex_c1 id_order 3 4 (degree_wire 3 ++ wire linreg_wire (subs1 ex_lin)) (repeat 0 8) (repeat 7 32) ex_garbage
     ex_T (fun n => Z.of_nat n + 3) (ex_state 5) empty_store) (fun a b => (fst (fst a), fst (fst b)))
  = Some (RET_ANS (moments 3 2 (fun j =>
   nth j (linreg_fields ([5; 1], 0)) 0 + nth j (linreg_fields ([6; 6], 1)) 0)), RET_NO_ANS).
Proof. vm_compute. reflexivity. Qed.
(** The streams of [var_dabit_17_undefined] may be those of the example: *)
Example var_dabit_17_ex : arrives_cut var_wire var_size 5 (wire var_wire ex_vars0 ++ ex_cut) ex_vars0 /\
  exists pk, first_sub (var_fits 17) ex_vars1 pk <> None.
Proof. split; [exact ex_vars_arrive0|]. exists (ex_pk 99). vm_compute. discriminate. Qed.
