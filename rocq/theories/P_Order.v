(** * Repeated submissions in MAX and MIN (C34), iteration orders in VAR (C42) *)
From Coq Require Import ZArith List Bool Lia Permutation.
From Verif Require Import Words Constants Share Proc ProcFacts Net SpecNet SpecShare RelFacts Exec Snip SpecSnip
  ServerOps SpecServer TableFacts ServerFacts ServerProps ClientOps SpecClient SpecStat MaxRepeats P_Snip P_Server P_Client P_Stat.
Import ListNotations.
Open Scope Z_scope.

(** [subs0'], [subs1'] are [subs0], [subs1] with further submissions under identities
    that had already sent one.  There are a number of valid inputs and either an
    answer that both runs announce, unless they have too few inputs, or both runs
    are undefined, unless they have too few inputs. *)
Theorem max_min_repeats is_max B order0 order1 total0 total1 total0' total1' stream0 stream1 stream0' stream1'
    subs0 subs1 subs0' subs1' pk0 pk1 pk0' pk1' junk0 junk1 junk0' junk1' :
  fair order1 -> repeats any subs0 subs0' -> repeats any subs1 subs1' ->
  arrives max_wire total0 stream0 subs0 -> arrives max_wire total1 stream1 subs1 ->
  arrives max_wire total0' stream0' subs0' -> arrives max_wire total1' stream1' subs1' ->
  rows_ok B subs0 -> rows_ok B subs1 -> rows_ok B subs0' -> rows_ok B subs1' ->
  Z.of_nat total0 * (Z.of_nat B + 1) < two32 -> Z.of_nat total1 * (Z.of_nat B + 1) < two32 ->
  Z.of_nat total0' * (Z.of_nat B + 1) < two32 -> Z.of_nat total1' * (Z.of_nat B + 1) < two32 ->
  length pk0 = 32%nat -> length pk1 = 32%nat -> length pk0' = 32%nat -> length pk1' = 32%nat ->
  (forall i, length (junk0 i) = (8 * (B + 1))%nat) -> (forall i, length (junk1 i) = (8 * (B + 1))%nat) ->
  (forall i, length (junk0' i) = (8 * (B + 1))%nat) -> (forall i, length (junk1' i) = (8 * (B + 1))%nat) ->
  let run := max_op false order0 is_max B total0 stream0 pk0 junk0 in
  let peer := max_op true order1 is_max B total1 stream1 pk1 junk1 in
  let run' := max_op false order0 is_max B total0' stream0' pk0' junk0' in
  let peer' := max_op true order1 is_max B total1' stream1' pk1' junk1' in
  exists n,
  (exists ans, both run peer (fun r0 _ => r0 = outcome n total0 ans) /\
               both run' peer' (fun r0 _ => r0 = outcome n total0' ans)) \/
  ((if (2 * n <? total0)%nat then both run peer (fun r0 _ => r0 = RET_INVALID)
    else ends 0 run peer (Cfg Undef (Ret RET_NO_ANS) [] [])) /\
   (if (2 * n <? total0')%nat then both run' peer' (fun r0 _ => r0 = RET_INVALID)
    else ends 0 run' peer' (Cfg Undef (Ret RET_NO_ANS) [] []))).
Proof.
  exact (max_op_once is_max B order0 order1 total0 total1 total0' total1' stream0 stream1 stream0' stream1'
    subs0 subs1 subs0' subs1' pk0 pk1 pk0' pk1' junk0 junk1 junk0' junk1').
Qed.
Print Assumptions max_min_repeats.

(** The client of value 1 sends a second row, with value 3: [max_ex] in P_Server.v is
    the run without it. *)
Example max_min_repeats_ex : repeats any P_Server.ex_rows0 (P_Server.ex_rows0 ++ [(ex_pk 97, [1; 2; 3; 4])]).
Proof.
  exact (rep_add any P_Server.ex_rows0 [] (ex_pk 97) [10; 20; 0; 0] [(ex_pk 98, [7; 8; 9; 5])] [1; 2; 3; 4] []
    (rep_refl any P_Server.ex_rows0) eq_refl).
Qed.
Example max_min_repeats_run : both
  (max_op false id_order true 3 3 (wire max_wire (P_Server.ex_rows0 ++ [(ex_pk 97, [1; 2; 3; 4])])) (ex_pk 0) (fun _ => repeat 1 32))
  (max_op true id_order true 3 3 (wire max_wire (P_Server.ex_rows1 ++ [(ex_pk 97, [0; 0; 0; 0])])) (ex_pk 0) (fun _ => repeat 1 32))
  (fun r0 r1 => r0 = RET_ANS 2).
Proof.
  destruct (exec_obs_always 40
    (max_op false id_order true 3 3 (wire max_wire (P_Server.ex_rows0 ++ [(ex_pk 97, [1; 2; 3; 4])])) (ex_pk 0) (fun _ => repeat 1 32))
    (max_op true id_order true 3 3 (wire max_wire (P_Server.ex_rows1 ++ [(ex_pk 97, [0; 0; 0; 0])])) (ex_pk 0) (fun _ => repeat 1 32))
    (fun a _ => a) (RET_ANS 2)) as (x & y & H & E); [vm_compute; reflexivity|]. exists x, y. auto.
Qed.

(** ** Iteration order

    For honest clients ([var_run], [linreg_run]) the result does not depend on the
    order in which server 1 iterates over its table.  With cheaters it does: the
    coefficients of the zero test are taken from a common sequence in iteration
    order, and a cheater is accepted if the coefficient that falls on its
    submission is zero (probability 1/p).  Two runs on the same streams, with the
    same coefficients, challenge point and randomness, that differ in the iteration
    order of server 1 and announce different numbers of valid inputs and sums. *)
Definition rev_order : iteration := fun V m => rev m.
Definition order_K (n : nat) : Z := if (n <? 2)%nat then 0 else Z.of_nat n.
Theorem var_order_irrelevant_refuted : exists num_bits total stream0 stream1 subs0 subs1 junk K rnd st order order' r r',
  fair order /\ fair order' /\
  arrives_cut var_wire var_size total stream0 subs0 /\ arrives_cut var_wire var_size total stream1 subs1 /\
  Forall (fun s => var_content (snd s)) subs0 /\ Forall (fun s => var_content (snd s)) subs1 /\
  length junk = 48%nat /\ synced st st /\
  both (var_op false id_order num_bits total stream0 junk K rnd st) (var_op true order num_bits total stream1 junk K rnd st)
    (fun r0 _ => fst r0 = RET_ANS r) /\
  both (var_op false id_order num_bits total stream0 junk K rnd st) (var_op true order' num_bits total stream1 junk K rnd st)
    (fun r0 _ => fst r0 = RET_ANS r') /\
  r <> r'.
Proof.
  exists 3%nat, 4%nat, (wire var_wire ex_vars0 ++ ex_cut), (wire var_wire ex_vars1 ++ ex_cut), ex_vars0, ex_vars1,
    (repeat 7 48), order_K, ex_tape, (ex_state 5), id_order, rev_order, (2%nat, 3, 5), (3%nat, 6, 15).
  split; [exact id_fair|].
  split; [intros V m; apply Permutation_sym, Permutation_rev|].
  split; [exists ex_cut; split; [reflexivity|split; [left; reflexivity|split; [vm_compute; repeat constructor|reflexivity]]]|].
  split; [exists ex_cut; split; [reflexivity|split; [left; reflexivity|split; [vm_compute; repeat constructor|reflexivity]]]|].
  split; [exact (proj1 ex_vars_content)|]. split; [exact (proj2 ex_vars_content)|].
  split; [reflexivity|]. split; [exact ex_synced|].
  split; [|split; [|discriminate]].
  - destruct (exec_obs_always 60
      (var_op false id_order 3 4 (wire var_wire ex_vars0 ++ ex_cut) (repeat 7 48) order_K ex_tape (ex_state 5))
      (var_op true id_order 3 4 (wire var_wire ex_vars1 ++ ex_cut) (repeat 7 48) order_K ex_tape (ex_state 5))
      (fun a _ => fst a) (RET_ANS (2%nat, 3, 5))) as (x & y & H & E); [vm_compute; reflexivity|]. exists x, y. auto.
  - destruct (exec_obs_always 60
      (var_op false id_order 3 4 (wire var_wire ex_vars0 ++ ex_cut) (repeat 7 48) order_K ex_tape (ex_state 5))
      (var_op true rev_order 3 4 (wire var_wire ex_vars1 ++ ex_cut) (repeat 7 48) order_K ex_tape (ex_state 5))
      (fun a _ => fst a) (RET_ANS (3%nat, 6, 15))) as (x & y & H & E); [vm_compute; reflexivity|]. exists x, y. auto.
Qed.
Print Assumptions var_order_irrelevant_refuted.
