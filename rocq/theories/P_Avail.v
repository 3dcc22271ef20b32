(** * No bytes from clients stop the servers (C57)

    What arrives from the clients is any sequence of bytes: [stream0] and [stream1]
    need not consist of records, need not agree in anything, and may stop anywhere;
    [total0], [total1] are the numbers of records announced.  [junk]: what the
    receiving variable holds before.  [both run peer R]: in every schedule both
    servers come to an end, with outcomes in [R]; [ended] (SpecAvail.v): server 0
    arrives at an answer or reports that too few records were acceptable. *)
From Coq Require Import ZArith List Bool Lia.
From Verif Require Import Words Share Proc ProcFacts Net SpecNet RelFacts Exec Circuit Snip SpecSnip
  ServerOps SpecServer ServerFacts SpecStat SpecAvail AvailFacts P_Snip P_Server P_Stat.
Import ListNotations.
Open Scope Z_scope.

Theorem int_sum_any_bytes nb order0 order1 total0 total1 stream0 stream1 junk0 junk1 rnd0 rnd1 :
  (nb <= 63)%nat -> fair order1 -> Z.of_nat total1 < two32 -> bytes stream0 -> bytes stream1 ->
  buffer 40 junk0 -> buffer 40 junk1 ->
  both (int_sum false order0 nb total0 stream0 junk0 rnd0) (int_sum true order1 nb total1 stream1 junk1 rnd1)
    (fun r0 r1 => ended r0 /\ r1 = RET_NO_ANS).
Proof. exact (int_any nb order0 order1 total0 total1 stream0 stream1 junk0 junk1 rnd0 rnd1). Qed.
Print Assumptions int_sum_any_bytes.

Theorem and_or_any_bytes is_and order0 order1 total0 total1 stream0 stream1 junk0 junk1 :
  fair order1 -> Z.of_nat total1 < two32 -> bytes stream0 -> bytes stream1 ->
  buffer 40 junk0 -> buffer 40 junk1 ->
  both (xor_op false order0 is_and total0 stream0 junk0) (xor_op true order1 is_and total1 stream1 junk1)
    (fun r0 r1 => ended r0 /\ r1 = RET_NO_ANS).
Proof. exact (xor_any is_and order0 order1 total0 total1 stream0 stream1 junk0 junk1). Qed.
Print Assumptions and_or_any_bytes.

(** BIT_SUM: provided the last byte of every record is 0 or 1. *)
Theorem bit_sum_any_bytes order0 order1 total0 total1 stream0 stream1 junk0 junk1 rnd0 rnd1 :
  fair order1 -> Z.of_nat total1 < two32 -> bools_at 33 32 stream0 -> bools_at 33 32 stream1 ->
  length junk0 = 33%nat -> length junk1 = 33%nat -> is_bool (nth 32 junk0 0) -> is_bool (nth 32 junk1 0) ->
  both (bit_sum false order0 total0 stream0 junk0 rnd0) (bit_sum true order1 total1 stream1 junk1 rnd1)
    (fun r0 r1 => ended r0 /\ r1 = RET_NO_ANS).
Proof. exact (bit_any order0 order1 total0 total1 stream0 stream1 junk0 junk1 rnd0 rnd1). Qed.
Print Assumptions bit_sum_any_bytes.

(** Finding: one client sending another byte suffices to make the behaviour of the
    server undefined (a [bool] is read that is neither true nor false). *)
Theorem bit_sum_any_bytes_refuted server order total stream junk rnd :
  (33 <= length stream)%nat -> (1 <= total)%nat -> ~ is_bool (nth 32 stream 0) ->
  bit_sum server order total stream junk rnd = Undef.
Proof. exact (bit_bad server order total stream junk rnd). Qed.
Print Assumptions bit_sum_any_bytes_refuted.

(** MAX, MIN: both end, or server 0 reads out of bounds (when the positions of the
    accepted records cancel, [max_min_undefined]); server 1 ends in any case. *)
Theorem max_min_any_bytes is_max B order0 order1 total0 total1 stream0 stream1 pk0 pk1 junk0 junk1 :
  fair order1 -> Z.of_nat total0 * (Z.of_nat B + 1) < two32 -> Z.of_nat total1 * (Z.of_nat B + 1) < two32 ->
  bytes stream0 -> bytes stream1 -> buffer 32 pk0 -> buffer 32 pk1 ->
  (forall i, buffer (8 * (B + 1)) (junk0 i)) -> (forall i, buffer (8 * (B + 1)) (junk1 i)) ->
  let run := max_op false order0 is_max B total0 stream0 pk0 junk0 in
  let peer := max_op true order1 is_max B total1 stream1 pk1 junk1 in
  both run peer (fun r0 r1 => ended r0 /\ r1 = RET_NO_ANS) \/
  ends 0 run peer (Cfg Undef (Ret RET_NO_ANS) [] []).
Proof. exact (max_any_ends is_max B order0 order1 total0 total1 stream0 stream1 pk0 pk1 junk0 junk1). Qed.
Print Assumptions max_min_any_bytes.

(** VAR, STDDEV and LINREG: the bytes that arrive at server 1 are some sequence of
    records [subs1] (followed by less than a record); if any of them passes the bound
    checks, whatever its proof, both servers end and remain in agreement for the next
    operation; if none does, both read from an empty array. *)
Theorem var_any_bytes nb order0 order1 total0 total1 stream0 stream1 junk0 junk1 K rnd0 rnd1 st0 st1 :
  (nb <= 24)%nat -> fair order1 -> Z.of_nat total0 < two32 -> Z.of_nat total1 < two32 -> bytes stream0 -> bytes stream1 ->
  length junk0 = 48%nat -> length junk1 = 48%nat -> synced st0 st1 ->
  exists subs1, arrives_cut var_wire var_size total1 stream1 subs1 /\
  let run := var_op false order0 nb total0 stream0 junk0 K rnd0 st0 in
  let peer := var_op true order1 nb total1 stream1 junk1 K rnd1 st1 in
  ((exists pk, first_sub (var_fits nb) subs1 pk <> None) /\
   both run peer (fun a b => ended (fst a) /\ fst b = RET_NO_ANS /\ synced (snd a) (snd b)) \/
   (forall pk, first_sub (var_fits nb) subs1 pk = None) /\ ends 0 run peer (Cfg Undef Undef [] [])).
Proof. exact (var_any nb order0 order1 total0 total1 stream0 stream1 junk0 junk1 K rnd0 rnd1 st0 st1). Qed.
Print Assumptions var_any_bytes.

(** The honest part here: the number of variables at the start of the stream. *)
Theorem linreg_any_bytes nb degree order0 order1 total0 total1 stream0 stream1 d0 d1 junk0 junk1 garbage0 garbage1
  K rnd0 rnd1 st0 st1 :
  (nb <= 24)%nat -> (1 <= degree)%nat -> (num_quad degree + num_x degree < 2 ^ 18)%nat -> fair order1 ->
  Z.of_nat total0 < two32 -> Z.of_nat total1 < two32 -> bytes stream0 -> bytes stream1 ->
  length d0 = 8%nat -> length d1 = 8%nat -> length junk0 = 32%nat -> length junk1 = 32%nat ->
  (forall i, let '(x, x2, xy) := garbage0 i in linreg_shape degree (x, 0, x2, xy)) -> synced st0 st1 ->
  exists subs1, arrives_cut linreg_wire (linreg_size degree) total1 stream1 subs1 /\
  let run := linreg_op false order0 nb total0 (degree_wire degree ++ stream0) d0 junk0 garbage0 K rnd0 st0 in
  let peer := linreg_op true order1 nb total1 (degree_wire degree ++ stream1) d1 junk1 garbage1 K rnd1 st1 in
  ((exists pk, first_sub (linreg_fits nb) subs1 pk <> None) /\
   both run peer (fun a b => ended (fst a) /\ fst b = RET_NO_ANS /\ synced (snd a) (snd b)) \/
   (forall pk, first_sub (linreg_fits nb) subs1 pk = None) /\ ends 0 run peer (Cfg Undef Undef [] [])).
Proof.
  exact (linreg_any nb degree order0 order1 total0 total1 stream0 stream1 d0 d1 junk0 junk1 garbage0 garbage1
    K rnd0 rnd1 st0 st1).
Qed.
Print Assumptions linreg_any_bytes.

(** ** Examples *)

(** 100 bytes that are not records, at server 1 only; 3 records announced. *)
Definition noise : list Z := map (fun i => (Z.of_nat i * 37 + 11) mod 256) (seq 0 100).
Example noise_bytes : bytes noise.
Proof. apply Forall_forall. intros x H. apply in_map_iff in H as (i & <- & _). apply Z.mod_pos_bound. lia. Qed.
Example int_sum_noise : both
  (int_sum false id_order 8 3 noise (repeat 7 40) (fun i => Z.of_nat i))
  (int_sum true id_order 8 3 (repeat 0 45) (repeat 7 40) (fun i => Z.of_nat i))
  (fun r0 r1 => ended r0 /\ r1 = RET_NO_ANS).
Proof.
  apply int_sum_any_bytes; auto using id_fair, noise_bytes; try (cbn; lia); try reflexivity;
    repeat constructor; cbn; lia.
Qed.
Example bit_bad_ex : (33 <= length (ex_pk 97 ++ [2%Z]))%nat /\ ~ is_bool (nth 32 (ex_pk 97 ++ [2]) 0).
Proof. split; [cbn; lia|]. intros [H|H]; discriminate H. Qed.
(** Random bytes long enough for records of VAR. *)
Definition long_noise : list Z := map (fun i => (Z.of_nat (i mod 32) * 37 + 11) mod 2) (seq 0 300).
Example var_noise : exists a b, always
  (var_op false id_order 24 2 long_noise (repeat 7 48) (fun n => Z.of_nat n + 3) ex_tape (ex_state 5))
  (var_op true id_order 24 2 (repeat 0 150) (repeat 7 48) (fun n => Z.of_nat n + 3) ex_tape (ex_state 5)) a b /\
  (fst a, fst b) = (RET_INVALID, RET_NO_ANS).
Proof. apply (exec_obs_always 60 _ _ (fun a b => (fst a, fst b))). vm_compute. reflexivity. Qed.
