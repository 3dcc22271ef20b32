(** * When the other server stops

    Setting as in P_Server.v: arbitrary submissions [subs0] and [subs1] arrive, [L]
    lists the identities accepted by both.  Server 1 stops in the middle of the run; what
    server 0 then does is [alone] (Alone.v).  A user would expect no answer.  *)
From Coq Require Import ZArith List Bool Lia.
From Verif Require Import Words WordsFacts Constants Proc ProcFacts Net NetFacts SpecNet RelFacts
  ServerOps SpecServer TableFacts ServerFacts ServerProps P_Server Alone AloneFacts.
Import ListNotations.
Open Scope Z_scope.

(** Server 1 stops before the oblivious transfers, having sent any bytes [i] at all: no
    run of BIT_SUM gives an answer. *)
Theorem bit_sum_no_answer_partial order total stream junk rnd i x :
  (1 <= total)%nat -> ~ alone (bit_sum false order total stream junk rnd) i (RET_ANS x).
Proof. exact (bit_sum_early order total stream junk rnd i x). Qed.
Print Assumptions bit_sum_no_answer_partial.

Theorem int_sum_no_answer_partial num_bits order total stream junk rnd i x :
  (1 <= total)%nat -> (1 <= num_bits)%nat ->
  ~ alone (int_sum false order num_bits total stream junk rnd) i (RET_ANS x).
Proof. exact (int_sum_early num_bits order total stream junk rnd i x). Qed.
Print Assumptions int_sum_no_answer_partial.

(** The full statement, that server 0 gives no answer when server 1 stops at any point
    before its last message, is false: whenever enough submissions are accepted, server 1
    can stop at a point such that server 0 reports an answer, and every word [x] is a
    possible one. *)
Theorem bit_sum_alone_refuted order0 order1 total0 total1 stream0 stream1 subs0 subs1 junk0 junk1 rnd0 rnd1 L x :
  fair order1 -> arrives bit_wire total0 stream0 subs0 -> arrives bit_wire total1 stream1 subs1 ->
  length junk0 = 33%nat -> length junk1 = 33%nat -> accepted any subs0 subs1 L ->
  (total0 <= 2 * length L)%nat -> word x ->
  answers_alone (bit_sum false order0 total0 stream0 junk0 rnd0) (bit_sum true order1 total1 stream1 junk1 rnd1)
    (RET_ANS x).
Proof.
  exact (bit_sum_alone order0 order1 total0 total1 stream0 stream1 subs0 subs1 junk0 junk1 rnd0 rnd1 L x).
Qed.
Print Assumptions bit_sum_alone_refuted.

Theorem int_sum_alone_refuted num_bits order0 order1 total0 total1 stream0 stream1 subs0 subs1
  junk0 junk1 rnd0 rnd1 L x :
  (num_bits <= 63)%nat ->
  fair order1 -> arrives int_wire total0 stream0 subs0 -> arrives int_wire total1 stream1 subs1 ->
  Forall (fun s => word (snd s)) subs0 -> Forall (fun s => word (snd s)) subs1 ->
  length junk0 = 40%nat -> length junk1 = 40%nat -> accepted (fits num_bits) subs0 subs1 L ->
  (total0 <= 2 * length L)%nat -> word x ->
  answers_alone (int_sum false order0 num_bits total0 stream0 junk0 rnd0)
    (int_sum true order1 num_bits total1 stream1 junk1 rnd1) (RET_ANS x).
Proof.
  exact (int_sum_alone num_bits order0 order1 total0 total1 stream0 stream1 subs0 subs1 junk0 junk1 rnd0 rnd1 L x).
Qed.
Print Assumptions int_sum_alone_refuted.

(** Both truth values. *)
Theorem and_or_alone_refuted is_and order0 order1 total0 total1 stream0 stream1 subs0 subs1 junk0 junk1 L x :
  fair order1 -> arrives int_wire total0 stream0 subs0 -> arrives int_wire total1 stream1 subs1 ->
  Forall (fun s => word (snd s)) subs0 -> Forall (fun s => word (snd s)) subs1 ->
  length junk0 = 40%nat -> length junk1 = 40%nat -> accepted any subs0 subs1 L ->
  (total0 <= 2 * length L)%nat ->
  answers_alone (xor_op false order0 is_and total0 stream0 junk0) (xor_op true order1 is_and total1 stream1 junk1)
    (RET_ANS x).
Proof.
  exact (xor_op_alone is_and order0 order1 total0 total1 stream0 stream1 subs0 subs1 junk0 junk1 L x).
Qed.
Print Assumptions and_or_alone_refuted.

(** Every value from 0 to B. *)
Theorem max_min_alone_refuted is_max B order0 order1 total0 total1 stream0 stream1 subs0 subs1
  pk0 pk1 junk0 junk1 L x :
  fair order1 -> arrives max_wire total0 stream0 subs0 -> arrives max_wire total1 stream1 subs1 ->
  rows_ok B subs0 -> rows_ok B subs1 ->
  Z.of_nat total0 * (Z.of_nat B + 1) < two32 -> Z.of_nat total1 * (Z.of_nat B + 1) < two32 ->
  length pk0 = 32%nat -> length pk1 = 32%nat ->
  (forall i, length (junk0 i) = (8 * (B + 1))%nat) -> (forall i, length (junk1 i) = (8 * (B + 1))%nat) ->
  accepted any subs0 subs1 L -> (total0 <= 2 * length L)%nat -> (x <= B)%nat ->
  answers_alone (max_op false order0 is_max B total0 stream0 pk0 junk0)
       (max_op true order1 is_max B total1 stream1 pk1 junk1) (RET_ANS (Z.of_nat x)).
Proof.
  exact (max_op_alone is_max B order0 order1 total0 total1 stream0 stream1 subs0 subs1 pk0 pk1 junk0 junk1 L x).
Qed.
Print Assumptions max_min_alone_refuted.

(** ** Concrete cases *)

(** The run of [bit_sum_ex] (P_Server.v), whose answer is 2: with server 1 stopped
    before its last message, server 0 can report 1000. *)
Example bit_sum_alone_ex : answers_alone
  (bit_sum false id_order 4 (wire bit_wire ex_bits0) (repeat 5 33) (fun i => Z.of_nat i + 7))
  (bit_sum true id_order 3 (wire bit_wire ex_bits1) (repeat 6 33) (fun i => Z.of_nat i)) (RET_ANS 1000).
Proof.
  apply (bit_sum_alone_refuted id_order id_order 4 3 _ _ _ _ (repeat 5 33) (repeat 6 33) _ _ _ 1000
    id_fair ex_arrives0 ex_arrives1 eq_refl eq_refl ex_accepted); [cbn; lia|split; [lia|reflexivity]].
Qed.
(** MAX of the values 1 and 2 (at most 3) reported as 3. *)
Example max_alone_ex : answers_alone
  (max_op false id_order true 3 2 (wire max_wire ex_rows0) (ex_pk 0) (fun _ => repeat 1 32))
  (max_op true id_order true 3 2 (wire max_wire ex_rows1) (ex_pk 0) (fun _ => repeat 1 32)) (RET_ANS 3).
Proof.
  assert (R0 : rows_ok 3 ex_rows0) by (repeat constructor; cbn; lia).
  assert (R1 : rows_ok 3 ex_rows1) by (repeat constructor; cbn; lia).
  assert (J : forall i : nat, length ((fun _ => repeat 1 32) i : list Z) = (8 * (3 + 1))%nat) by reflexivity.
  apply (max_min_alone_refuted true 3 id_order id_order 2 2 _ _ ex_rows0 ex_rows1 (ex_pk 0) (ex_pk 0)
    (fun _ => repeat 1 32) (fun _ => repeat 1 32) [ex_pk 97; ex_pk 98] 3
    id_fair ex_rows_arrive0 ex_rows_arrive1 R0 R1 eq_refl eq_refl eq_refl eq_refl J J ex_rows_accepted); cbn; lia.
Qed.
(** Before the oblivious transfers, server 0 alone can still get as far as a refusal:
    server 1 has announced no identities. *)
Example bit_sum_alone_invalid :
  alone (bit_sum false id_order 4 (wire bit_wire ex_bits0) (repeat 5 33) (fun i => Z.of_nat i)) (repeat 0 8)
    (RET_INVALID : result Z).
Proof.
  rewrite (bit_sum_eq false id_order 4 _ ex_bits0) by (exact ex_arrives0 || reflexivity).
  unfold bit_sum0, learn. cbn -[table_of ex_bits0 too_few]. apply al_recv; [cbn; lia|].
  cbn -[table_of ex_bits0 too_few]. constructor.
  apply al_eof with (old := repeat 0 8); [cbn; lia|reflexivity|]. cbn. constructor.
Qed.
