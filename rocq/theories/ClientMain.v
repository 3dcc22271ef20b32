(** * The client's main function: /repo/client.cpp:152-1662

    The functions [bit_sum], [int_sum], [xor_op], [max_op], [var_op], [lin_reg],
    [freq_op] of client.cpp and [main], with CLIENT_BATCH true and DEBUG_INVALID
    false (lines 39-41).  Sockets are taken to accept everything that is sent. *)
From Coq Require Import String ZArith List Bool.
From Verif Require Import Words Constants Share Net Circuit Snip ServerOps ClientOps Main.
Import ListNotations.
Open Scope Z_scope.

(** The command line, after [atoi] and the conversions to the types of the variables:
    [numreqs] (a negative number is not modelled), [protocol], [num_bits] and
    [linreg_degree] if given. *)
Record client_args := mkArgs {
  a_numreqs : nat; a_protocol : string; a_bits : option nat; a_degree : option nat
}.
(** What is not under control: the generator [emp::PRG], FLINT's generator (its tape and
    position), and the members [num_of_inputs]
    and [max_inp] of an uninitialised [initMsg]. *)
Record client_env := mkEnv { e_prg : prg; e_tape : nat -> Z; e_pos : nat; e_num : nat; e_inp : nat }.

(** What the client prints as the true answer.  For VAR and STDDEV the number of
    clients, the sum and the sum of squares, from which the answer is computed as by
    the server; for LINREG the arguments of SolveLinReg. *)
Inductive printed :=
| AnsNothing
| AnsInt (ans : Z)
| AnsBool (ans : bool)
| AnsVar (stddev : bool) (n : nat) (sum sumsquared : Z)
| AnsReg (x_accum y_accum : list Z)
| AnsFreq (counts : list Z).

(** [Sent s0 s1 a]: the bytes sent to the servers before the connections are closed, and
    the answer printed.  [Quit]: [error_exit] with nothing sent. *)
Inductive client_end :=
| Sent (to0 to1 : list Z) (ans : printed)
| Quit
| Undefined.

(** [initMsg] as sent: three members of four bytes (/repo/types.h:57-61). *)
Definition initMsg_bytes (type : Z) (num_of_inputs : nat) (max_inp : nat) : list Z :=
  le_bytes 4 type ++ le_bytes 4 (Z.of_nat num_of_inputs) ++ le_bytes 4 (Z.of_nat max_inp).

(** The records of all requests, one after the other, as sent to one server. *)
Definition all_bytes {V} (enc : list Z * V -> list Z) (subs : list (list Z * V)) : list Z := concat (map enc subs).

(** lines 1018-1085: [x_accum], [y_accum] after the loop and [x_accum[0] += numreqs]. *)
Definition linreg_accum (degree : nat) (l : list (crec (linreg_vals * ClientPacket) (list Z * Z))) : list Z * list Z :=
  let add (acc vs : list Z) := map2 (fun a v => u64 (a + v)) acc vs in
  let one (acc : list Z * list Z) (r : crec (linreg_vals * ClientPacket) (list Z * Z)) :=
    let (x, y) := c_real r in
    (add (fst acc) (0 :: x ++ map (fun jk => u64 (nth (fst jk) x 0 * nth (snd jk) x 0)) (linreg_pairs (num_x degree))),
     add (snd acc) (y :: map (fun v => u64 (v * y)) x)) in
  let acc := fold_left one l (repeat 0 (num_x degree + num_quad degree + 1), repeat 0 (num_x degree + 1)) in
  (upd 0 (u64 (nth 0 (fst acc) 0 + Z.of_nat (length l))) (fst acc), snd acc).

(** lines 152-170 *)
Definition client_bit_sum (n : nat) (e : client_env) : client_end :=
  let l := fst (requests (bit_request (e_prg e)) n 0) in
  let msg := initMsg_bytes BIT_SUM n (e_inp e) in
  Sent (msg ++ all_bytes BitShare_bytes (subs0 l)) (msg ++ all_bytes BitShare_bytes (subs1 l)) (AnsInt (bit_ans l)).

(** lines 280-298.  Without [num_bits] on the command line [max_int] is 0 and the
    reduction modulo it undefined; so below. *)
Definition client_int_sum (max_int : Z) (n : nat) (e : client_env) : client_end :=
  if (max_int =? 0) && negb (n =? 0)%nat then Undefined else
  let l := fst (requests (int_request max_int (e_prg e)) n 0) in
  let msg := initMsg_bytes INT_SUM n (e_inp e) in
  Sent (msg ++ all_bytes IntShare_bytes (subs0 l)) (msg ++ all_bytes IntShare_bytes (subs1 l)) (AnsInt (int_ans l)).

(** lines 426-452 *)
Definition client_xor_op (is_and : bool) (n : nat) (e : client_env) : client_end :=
  let l := fst (requests (xor_request is_and (e_prg e)) n 0) in
  let msg := initMsg_bytes (if is_and then AND_OP else OR_OP) n (e_inp e) in
  Sent (msg ++ all_bytes IntShare_bytes (subs0 l)) (msg ++ all_bytes IntShare_bytes (subs1 l)) (AnsBool (xor_ans is_and l)).

(** lines 622-651.  [B] is [max_int]; the conversion to [unsigned int] in the message
    and in the parameter of [max_op_helper] is exact below 2^32; the case [num_bits]
    = 32 or more is not modelled. *)
Definition client_max_op (is_max : bool) (max_int : Z) (n : nat) (e : client_env) : client_end :=
  let B := Z.to_nat max_int in
  let l := fst (requests (max_request is_max B (e_prg e)) n 0) in
  let msg := initMsg_bytes (if is_max then MAX_OP else MIN_OP) n B in
  Sent (msg ++ all_bytes maxshare_bytes (subs0 l)) (msg ++ all_bytes maxshare_bytes (subs1 l))
       (AnsInt (Z.of_nat (max_ans is_max B l))).

(** lines 832-865 *)
Definition client_var_op (stddev : bool) (num_bits : nat) (max_int : Z) (n : nat) (e : client_env) : client_end :=
  if (31 <? num_bits)%nat then Quit else
  if (max_int =? 0) && negb (n =? 0)%nat then Undefined else
  match requests_opt (var_request max_int (e_prg e) (e_tape e)) n (0%nat, e_pos e, None) with
  | None => Undefined
  | Some (l, _) =>
      match wire_opt VarShare_bytes (subs0 l), wire_opt VarShare_bytes (subs1 l) with
      | Some w0, Some w1 =>
          let msg := initMsg_bytes (if stddev then STDDEV_OP else VAR_OP) n (e_inp e) in
          let (sum, sumsquared) := var_ans l in
          Sent (msg ++ w0) (msg ++ w1) (AnsVar stddev n sum sumsquared)
      | _, _ => Undefined
      end
  end.

(** lines 1171-1222, 1131-1137 *)
Definition client_lin_reg (degree num_bits : nat) (max_int : Z) (n : nat) (e : client_env) : client_end :=
  if (31 <? num_bits)%nat then Quit else
  if (max_int =? 0) && negb (n =? 0)%nat then Undefined else
  match requests_opt (linreg_request degree max_int (e_prg e) (e_tape e)) n (0%nat, e_pos e, None) with
  | None => Undefined
  | Some (l, _) =>
      match sent_bytes (send_size (Z.of_nat degree)), wire_opt (linregshare_bytes degree) (subs0 l),
            wire_opt (linregshare_bytes degree) (subs1 l) with
      | Some deg, Some w0, Some w1 =>
          let msg := initMsg_bytes LINREG_OP n (e_inp e) in
          let (x, y) := linreg_accum degree l in
          Sent (msg ++ deg ++ w0) (msg ++ deg ++ w1) (AnsReg x y)
      | _, _, _ => Undefined
      end
  end.

(** lines 1466-1488 *)
Definition client_freq_op (max_int : Z) (n : nat) (e : client_env) : client_end :=
  if (max_int =? 0) && negb (n =? 0)%nat then Undefined else
  let w := Z.to_nat max_int in
  let l := fst (requests (freq_request w (e_prg e)) n 0) in
  let msg := initMsg_bytes FREQ_OP n w in
  Sent (msg ++ all_bytes freqshare_bytes (subs0 l)) (msg ++ all_bytes freqshare_bytes (subs1 l)) (AnsFreq (freq_counts w l)).

(** lines 1490-1662.  The shift [1ULL << num_bits] comes before the test of its
    range.  In the message of an unrecognized protocol only the type is initialised. *)
Definition client_main (a : client_args) (e : client_env) : client_end :=
  let n := a_numreqs a in
  let pr := a_protocol a in
  let num_bits := match a_bits a with Some b => b | None => 0%nat end in
  let max_int := match a_bits a with Some b => 2 ^ Z.of_nat b | None => 0 end in
  let degree := match a_degree a with Some d => d | None => 2%nat end in
  if (63 <? num_bits)%nat then Undefined
  else if (degree <? 2)%nat then Quit
  else if String.eqb pr "BITSUM"%string then client_bit_sum n e
  else if String.eqb pr "INTSUM"%string then client_int_sum max_int n e
  else if String.eqb pr "ANDOP"%string then client_xor_op true n e
  else if String.eqb pr "OROP"%string then client_xor_op false n e
  else if String.eqb pr "MAXOP"%string then client_max_op true max_int n e
  else if String.eqb pr "MINOP"%string then client_max_op false max_int n e
  else if String.eqb pr "VAROP"%string then client_var_op false num_bits max_int n e
  else if String.eqb pr "STDDEVOP"%string then client_var_op true num_bits max_int n e
  else if String.eqb pr "LINREGOP"%string then client_lin_reg degree num_bits max_int n e
  else if String.eqb pr "FREQOP"%string then client_freq_op max_int n e
  else let msg := initMsg_bytes NONE_OP (e_num e) (e_inp e) in Sent msg msg AnsNothing.
