(** * Servers that do not fork (C63)

    [nofork p] is the program [p] built with [do_fork = false] (NoFork.v): each exchange
    sends first and receives afterwards.  The vocabulary is in SpecNoFork.v. *)
From Coq Require Import ZArith List Bool Lia.
From Verif Require Import Words Constants Share Proc ProcFacts Net SpecNet RelFacts Exec OT Correlated SpecStore SpecPoly Circuit SpecCircuit
  HeTriples Snip SpecSnip ServerOps SpecServer TableFacts ServerFacts ClientOps SpecClient SpecFreq SpecStat
  NoFork SpecNoFork NoForkFacts NoForkRun NoForkProps P_Snip P_Server P_Client P_Stat P_Freq.
Import ListNotations.
Open Scope Z_scope.

(** ** Large buffers *)

(** Whatever two programs do: if with forks every schedule ends with both returning, then
    from some buffer size on the same is true without forks, with the same results and the
    same bytes left over. *)
Theorem nofork_large_buffers {A B} k (p : proc A) (q : proc B) a b left01 left10 :
  ends k p q (Cfg (Ret a) (Ret b) left01 left10) ->
  exists k', ends k' (nofork p) (nofork q) (Cfg (Ret a) (Ret b) left01 left10).
Proof. exact (nofork_ends k p q a b left01 left10). Qed.
Print Assumptions nofork_large_buffers.

Theorem nofork_large_buffers_always {A B} (p : proc A) (q : proc B) a b : always p q a b ->
  exists k', ends k' (nofork p) (nofork q) (finished a b).
Proof.
  intros H. apply (nofork_ends 0 p q a b [] []). intros cap Hc _. exact (H cap Hc).
Qed.
Print Assumptions nofork_large_buffers_always.

(** ** One exchange: it is enough, and necessary, that one of the messages fits *)
Theorem nofork_exchange m0 m1 :
  threshold (Nat.min (length m0) (length m1))
    (nofork (Xchg m0 (length m1) Ret)) (nofork (Xchg m1 (length m0) Ret)) m1 m0.
Proof.
  apply thr_threshold. intros cap Hc. split; intros H.
  - destruct (xchg_fits cap m0 m1 (length m1) (length m0) Ret Ret Hc eq_refl eq_refl ltac:(lia)) as (n & E). exists n. exact E.
  - apply xchg_deadlock; lia.
Qed.
Print Assumptions nofork_exchange.

(** With forks any buffer will do. *)
Theorem fork_exchange m0 m1 : always (Xchg m0 (length m1) Ret) (Xchg m1 (length m0) Ret) m1 m0.
Proof. apply conv_always. apply (runs_xchg m0 m1 _ _ Ret Ret); reflexivity. Qed.
Print Assumptions fork_exchange.

(** ** The exchanges of the code *)

(** [n] ANDs of shared bits: [2 * ceil (n / 8)] bytes. *)
Theorem nofork_multiply c0 c1 T0 T1 x0 y0 x1 y1 s0 s1 a b :
  params_ok c0 c1 -> stores_paired s0 s1 ->
  length x1 = length x0 -> length y0 = length x0 -> length y1 = length x0 ->
  always (multiplyBoolShares c0 T0 x0 y0 s0) (multiplyBoolShares c1 T1 x1 y1 s1) a b ->
  threshold (2 * ((length x0 + 7) / 8))
    (nofork (multiplyBoolShares c0 T0 x0 y0 s0)) (nofork (multiplyBoolShares c1 T1 x1 y1 s1)) a b.
Proof. intros. apply thr_threshold. apply multiply_thr; auto. now apply always_conv. Qed.
Print Assumptions nofork_multiply.

(** Conversion of [n] shared bits with daBits: [ceil (n / 8)] bytes. *)
Theorem nofork_b2a c0 c1 T0 T1 x0 x1 s0 s1 a b :
  params_ok c0 c1 -> stores_paired s0 s1 -> length x1 = length x0 ->
  always (b2a_daBit_single c0 T0 x0 s0) (b2a_daBit_single c1 T1 x1 s1) a b ->
  threshold ((length x0 + 7) / 8)
    (nofork (b2a_daBit_single c0 T0 x0 s0)) (nofork (b2a_daBit_single c1 T1 x1 s1)) a b.
Proof. intros. apply thr_threshold. apply b2a_single_thr; auto. now apply always_conv. Qed.
Print Assumptions nofork_b2a.

(** Swapping serialised keys or ciphertexts. *)
Theorem nofork_swap len m0 m1 : (0 < len)%nat -> Z.of_nat len < 2 ^ 32 -> length m1 = length m0 ->
  Forall (fun x => length x = len) m0 -> Forall (fun x => length x = len) m1 ->
  threshold (length m0 * (8 + len)) (nofork (serializedSwap len m0)) (nofork (serializedSwap len m1)) m1 m0.
Proof. exact (swap_thr len m0 m1). Qed.
Print Assumptions nofork_swap.

(** ** Whole operations *)

(** VAR and STDDEV: 16 bytes for every identity accepted at server 1 ([L1]).  The results
    [a], [b] are those of the forking servers (they exist by [var_op_correct]). *)
Theorem nofork_var nb order0 order1 total0 total1 stream0 stream1 subs0 subs1 junk0 junk1 K rnd0 rnd1 st0 st1 L1 a b :
  (nb < 32)%nat -> fair order1 ->
  arrives_cut var_wire var_size total0 stream0 subs0 -> arrives_cut var_wire var_size total1 stream1 subs1 ->
  Forall (fun s => var_content (snd s)) subs0 -> Forall (fun s => var_content (snd s)) subs1 ->
  length junk0 = 48%nat -> length junk1 = 48%nat ->
  accepted (var_fits nb) subs1 subs1 L1 ->
  let p0 := var_op false order0 nb total0 stream0 junk0 K rnd0 st0 in
  let p1 := var_op true order1 nb total1 stream1 junk1 K rnd1 st1 in
  always p0 p1 a b -> threshold (16 * length L1) (nofork p0) (nofork p1) a b.
Proof. exact (var_nofork nb order0 order1 total0 total1 stream0 stream1 subs0 subs1 junk0 junk1 K rnd0 rnd1 st0 st1 L1 a b). Qed.
Print Assumptions nofork_var.

Theorem nofork_linreg nb degree order0 order1 total0 total1 stream0 stream1 subs0 subs1 d0 d1 junk0 junk1
  garbage0 garbage1 K rnd0 rnd1 st0 st1 L1 a b :
  (nb < 32)%nat -> (1 <= degree)%nat -> (num_quad degree + num_x degree < 2 ^ 18)%nat -> fair order1 ->
  arrives_cut linreg_wire (linreg_size degree) total0 stream0 subs0 ->
  arrives_cut linreg_wire (linreg_size degree) total1 stream1 subs1 ->
  Forall (fun s => linreg_content degree (snd s)) subs0 -> Forall (fun s => linreg_content degree (snd s)) subs1 ->
  length d0 = 8%nat -> length d1 = 8%nat -> length junk0 = 32%nat -> length junk1 = 32%nat ->
  accepted (linreg_fits nb) subs1 subs1 L1 ->
  let p0 := linreg_op false order0 nb total0 (degree_wire degree ++ stream0) d0 junk0 garbage0 K rnd0 st0 in
  let p1 := linreg_op true order1 nb total1 (degree_wire degree ++ stream1) d1 junk1 garbage1 K rnd1 st1 in
  always p0 p1 a b -> threshold (16 * length L1) (nofork p0) (nofork p1) a b.
Proof.
  exact (linreg_nofork nb degree order0 order1 total0 total1 stream0 stream1 subs0 subs1 d0 d1 junk0 junk1
    garbage0 garbage1 K rnd0 rnd1 st0 st1 L1 a b).
Qed.
Print Assumptions nofork_linreg.

(** FREQ: one bit for each of the [2 ^ num_bits] entries of each row server 1 has. *)
Theorem nofork_freq_deadlock num_bits order0 order1 total0 total1 stream0 stream1 subs0 subs1 pk0 pk1 junk0 junk1
    c0 c1 T0 T1 s0 s1 L cap :
  (num_bits <= 30)%nat -> fair order1 ->
  freq_input num_bits total0 stream0 subs0 pk0 junk0 -> freq_input num_bits total1 stream1 subs1 pk1 junk1 ->
  params_ok c0 c1 -> stores_paired s0 s1 -> heard subs1 L -> (length L <= total0)%nat ->
  (1 <= cap)%nat -> (cap < (length L * freq_width num_bits + 7) / 8)%nat ->
  ends_in cap (nofork (freq_op false order0 num_bits total0 stream0 pk0 junk0 c0 T0 s0))
              (nofork (freq_op true order1 num_bits total1 stream1 pk1 junk1 c1 T1 s1)) (both_sending cap).
Proof.
  exact (freq_nofork num_bits order0 order1 total0 total1 stream0 stream1 subs0 subs1 pk0 pk1 junk0 junk1
    c0 c1 T0 T1 s0 s1 L cap).
Qed.
Print Assumptions nofork_freq_deadlock.

(** ** Examples *)

(** 17 ANDs and the conversion of 17 bits. *)
Example nofork_multiply_ex : exists a b,
  threshold 6 (nofork (multiplyBoolShares ex_c0 ex_tape (repeat true 17) (repeat false 17) ex_store0))
              (nofork (multiplyBoolShares ex_c1 ex_tape (repeat true 17) (repeat true 17) ex_store1)) a b /\
  map2 xorb (fst a) (fst b) = repeat false 17.
Proof.
  destruct (exec_obs_always 400
    (multiplyBoolShares ex_c0 ex_tape (repeat true 17) (repeat false 17) ex_store0)
    (multiplyBoolShares ex_c1 ex_tape (repeat true 17) (repeat true 17) ex_store1)
    (fun a b => map2 xorb (fst a) (fst b)) (repeat false 17)) as (a & b & H & E). { vm_compute. reflexivity. }
  exists a, b. split; [|exact E].
  exact (nofork_multiply ex_c0 ex_c1 ex_tape ex_tape (repeat true 17) (repeat false 17) (repeat true 17) (repeat true 17)
    ex_store0 ex_store1 a b ex_params_ok ex_stores_paired eq_refl eq_refl eq_refl H).
Qed.
Example nofork_b2a_ex : exists a b,
  threshold 3 (nofork (b2a_daBit_single ex_c0 ex_tape (repeat true 17) ex_store0))
              (nofork (b2a_daBit_single ex_c1 ex_tape (repeat false 17) ex_store1)) a b /\
  map2 (fun x y => (x + y) mod p) (fst a) (fst b) = repeat 1 17.
Proof.
  destruct (exec_obs_always 400
    (b2a_daBit_single ex_c0 ex_tape (repeat true 17) ex_store0)
    (b2a_daBit_single ex_c1 ex_tape (repeat false 17) ex_store1)
    (fun a b => map2 (fun x y => (x + y) mod p) (fst a) (fst b)) (repeat 1 17)) as (a & b & H & E). { vm_compute. reflexivity. }
  exists a, b. split; [|exact E].
  exact (nofork_b2a ex_c0 ex_c1 ex_tape ex_tape (repeat true 17) (repeat false 17)
    ex_store0 ex_store1 a b ex_params_ok ex_stores_paired eq_refl H).
Qed.

(** The streams of [var_op_ex]: three identities are accepted at server 1. *)
Example nofork_var_ex : exists a b,
  let p := var_op false id_order 3 5 (wire var_wire ex_vars0 ++ ex_cut) (repeat 7 48) (fun n => Z.of_nat n + 3) ex_tape (ex_state 5) in
  let q := var_op true id_order 3 5 (wire var_wire ex_vars1 ++ ex_cut) (repeat 7 48) (fun n => Z.of_nat n + 3) ex_tape (ex_state 5) in
  fst a = RET_INVALID /\ threshold 48 (nofork p) (nofork q) a b.
Proof.
  destruct (exec_obs_always 60
    (var_op false id_order 3 5 (wire var_wire ex_vars0 ++ ex_cut) (repeat 7 48) (fun n => Z.of_nat n + 3) ex_tape (ex_state 5))
    (var_op true id_order 3 5 (wire var_wire ex_vars1 ++ ex_cut) (repeat 7 48) (fun n => Z.of_nat n + 3) ex_tape (ex_state 5))
    (fun a b => (fst a, fst b)) (RET_INVALID, RET_NO_ANS)) as (a & b & H & E).
  { vm_compute. reflexivity. }
  exists a, b. cbv zeta. split; [now injection E|].
  refine (nofork_var 3 id_order id_order 5 5 _ _ ex_vars0 ex_vars1 (repeat 7 48) (repeat 7 48) _ _ _ _ _ (map c_pk ex_vars ++ [ex_pk 99]) a b
    _ id_fair ex_vars_arrive0 ex_vars_arrive1 (proj1 ex_vars_content) (proj2 ex_vars_content) eq_refl eq_refl _ H).
  - lia.
  - apply accepted_computed. vm_compute. reflexivity.
Qed.

(** The rows of [freq_checked_ex]: 3 rows of 4 bits need 2 bytes. *)
Example nofork_freq_ex :
  ends_in 1 (nofork (freq_op false id_order 2 4 (wire freq_wire ex_rows0) (ex_pk 0) ex_old ex_c0 ex_tape ex_store0))
            (nofork (freq_op true id_order 2 4 (wire freq_wire ex_rows1) (ex_pk 0) ex_old ex_c1 ex_tape ex_store1)) (both_sending 1).
Proof.
  apply (nofork_freq_deadlock 2 id_order id_order 4 4 _ _ ex_rows0 ex_rows1 _ _ _ _ _ _ _ _ _ _ [ex_pk 97; ex_pk 98; ex_pk 100]);
    auto using ex_rows_input0, ex_rows_input1, ex_params_ok, ex_stores_paired, id_fair; try apply ex_rows_checked; cbn; lia.
Qed.

Example nofork_swap_ex : threshold 11 (nofork (serializedSwap 3 [[1; 2; 3]])) (nofork (serializedSwap 3 [[4; 5; 6]])) [[4; 5; 6]] [[1; 2; 3]].
Proof. apply (nofork_swap 3 [[1; 2; 3]] [[4; 5; 6]]); repeat constructor. Qed.

(** The two honest LINREG requests of P_Stat.v. *)
Lemma ex_lin_content : Forall (fun s => linreg_content 3 (snd s)) (subs0 ex_lin) /\ Forall (fun s => linreg_content 3 (snd s)) (subs1 ex_lin).
Proof.
  split; [let l := eval vm_compute in (subs0 ex_lin) in change (subs0 ex_lin) with l|let l := eval vm_compute in (subs1 ex_lin) in change (subs1 ex_lin) with l];
    repeat (apply Forall_cons;
      [cbn [snd]; split; cbn [fst snd];
        [split; [reflexivity|]; split; [reflexivity|]; split; [reflexivity|]; split; [words_ok|]; split; [word_ok|]; split; words_ok
        |split; [reflexivity|]; split; [reflexivity|];
         split; [words_ok|]; split; [word_ok|]; split; [word_ok|]; split; [word_ok|]; split; [words_ok|]; split; [word_ok|]; split; word_ok]|]);
    apply Forall_nil.
Qed.
Example nofork_linreg_ex : exists a b,
  let p := linreg_op false id_order 3 2 (degree_wire 3 ++ wire linreg_wire (subs0 ex_lin)) (repeat 0 8) (repeat 7 32) ex_garbage
     (fun n => Z.of_nat n + 3) ex_tape (ex_state 5) in
  let q := linreg_op true id_order 3 2 (degree_wire 3 ++ wire linreg_wire (subs1 ex_lin)) (repeat 0 8) (repeat 7 32) ex_garbage
     (fun n => Z.of_nat n + 3) ex_tape (ex_state 5) in
  fst a = RET_ANS (moments 3 2 (fun j => nth j (linreg_fields ([5; 1], 0)) 0 + nth j (linreg_fields ([6; 6], 1)) 0)) /\
  threshold 32 (nofork p) (nofork q) a b.
Proof.
  destruct (exec_obs_always 400
    (linreg_op false id_order 3 2 (degree_wire 3 ++ wire linreg_wire (subs0 ex_lin)) (repeat 0 8) (repeat 7 32) ex_garbage
       (fun n => Z.of_nat n + 3) ex_tape (ex_state 5))
    (linreg_op true id_order 3 2 (degree_wire 3 ++ wire linreg_wire (subs1 ex_lin)) (repeat 0 8) (repeat 7 32) ex_garbage
       (fun n => Z.of_nat n + 3) ex_tape (ex_state 5)) (fun a b => (fst a, fst b))
    (RET_ANS (moments 3 2 (fun j => nth j (linreg_fields ([5; 1], 0)) 0 + nth j (linreg_fields ([6; 6], 1)) 0)), RET_NO_ANS)) as (a & b & H & E).
  { vm_compute. reflexivity. }
  exists a, b. cbv zeta. split; [exact (f_equal fst E)|].
  assert (AR : arrives_cut linreg_wire (linreg_size 3) 2 (wire linreg_wire (subs0 ex_lin)) (subs0 ex_lin) /\
               arrives_cut linreg_wire (linreg_size 3) 2 (wire linreg_wire (subs1 ex_lin)) (subs1 ex_lin)).
  { split; (exists []; split; [now rewrite app_nil_r|]; split; [left; vm_compute; reflexivity|]; split; [vm_compute; repeat constructor|vm_compute; reflexivity]). }
  refine (nofork_linreg 3 3 id_order id_order 2 2 _ _ (subs0 ex_lin) (subs1 ex_lin) (repeat 0 8) (repeat 0 8) (repeat 7 32) (repeat 7 32) _ _ _ _ _ _ _
    (map c_pk ex_lin) a b _ _ _ id_fair (proj1 AR) (proj2 AR) (proj1 ex_lin_content) (proj2 ex_lin_content) eq_refl eq_refl eq_refl eq_refl _ H).
  - lia.
  - lia.
  - apply PeanoNat.Nat.ltb_lt. vm_compute. reflexivity.
  - apply accepted_computed. vm_compute. reflexivity.
Qed.
