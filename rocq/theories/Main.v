(** * The servers' main function: /repo/server.cpp:1446-1631 *)
From Coq Require Import ZArith List Bool.
From Verif Require Import Words Constants Share Proc Net OT Correlated Circuit Poly Snip ServerOps.
Import ListNotations.
Open Scope Z_scope.

(** /repo/types.h:43-55 [messageType]: consecutive numbers from 0. *)
Definition NONE_OP : Z := 0. Definition BIT_SUM : Z := 1. Definition INT_SUM : Z := 2.
Definition AND_OP : Z := 3. Definition OR_OP : Z := 4. Definition MAX_OP : Z := 5. Definition MIN_OP : Z := 6.
Definition VAR_OP : Z := 7. Definition STDDEV_OP : Z := 8. Definition LINREG_OP : Z := 9. Definition FREQ_OP : Z := 10.

(** One connection of a client, as seen by one server: the bytes the client sends
    before it closes; the iteration order of the hash table; the random draws made;
    the contents of the local variables before they are first written.
    - [k_draw]: server 1's draw if the challenge point is renewed before;
    - [k_rnd]: the draws of the OT sender;
    - [k_msg]: [initMsg msg] (12 bytes);
    - [k_bit], [k_int], [k_var], [k_pk]: the variables [share] of the operations, for
      MAX, FREQ and LINREG only the identity in it;
    - [k_rows]: the uninitialised rows of MAX and FREQ;
    - [k_degree], [k_garbage]: LINREG. *)
Record conn := mkConn {
  k_stream : list Z; k_order : iteration; k_draw : Z; k_rnd : nat -> Z;
  k_msg : list Z; k_bit : list Z; k_int : list Z; k_var : list Z; k_pk : list Z;
  k_rows : nat -> list Z; k_degree : list Z; k_garbage : nat -> list Z * list Z * list Z
}.

(** What does not change while a server runs: [num_bits], the parameters of the store
    of correlated randomness, its random tape, and the sequence of coefficients of
    the common generator [snips_seed] (see [sync_seeds] below). *)
Record host := mkHost { h_num_bits : nat; h_params : store_params; h_tape : nat -> Z; h_K : nat -> Z }.
(** What does: the state of the proof checkers and the store. *)
Definition server_state := (snip_state * store)%type.

(** What [main], or the operation itself, prints.  For VAR and STDDEV the numbers from
    which the answer is computed (Moments.v), for LINREG the arguments of SolveLinReg. *)
Inductive output :=
| OutNothing
| OutInt (r : result Z)
| OutBool (r : result bool)
| OutVar (stddev : bool) (r : result (nat * Z * Z))
| OutReg (r : result (list Z * list Z))
| OutFreq (r : result (list Z)).

(** The [i]-th 4-byte member of [initMsg] (/repo/types.h:57-61: type, num_of_inputs,
    max_inp). *)
Definition member (i : nat) (msg : list Z) : Z := le_val (firstn 4 (skipn (4 * i) msg)).

(** lines 1514-1621.  The result of [recv_in] is not looked at: of a shorter message
    only the bytes received are overwritten.  An enumeration value that is none of
    the constants is "unrecognized" (strictly, loading one beyond 15 is not
    specified by C++). *)
Definition handle (server_num : bool) (h : host) (k : conn) (st : server_state)
  : proc (output * server_state) :=
  let (msg, s) := crecv 12 (k_stream k) (k_msg k) in
  let type := member 0 msg in
  let total := Z.to_nat (member 1 msg) in
  let nb := h_num_bits h in
  let o := k_order k in
  if type =? BIT_SUM then
    r <- bit_sum server_num o total s (k_bit k) (k_rnd k) ;; Ret (OutInt r, st)
  else if type =? INT_SUM then
    r <- int_sum server_num o nb total s (k_int k) (k_rnd k) ;; Ret (OutInt r, st)
  else if (type =? AND_OP) || (type =? OR_OP) then
    r <- xor_op server_num o (type =? AND_OP) total s (k_int k) ;; Ret (OutBool r, st)
  else if (type =? MAX_OP) || (type =? MIN_OP) then
    r <- max_op server_num o (type =? MAX_OP) (Z.to_nat (member 2 msg)) total s (k_pk k) (k_rows k) ;;
    Ret (OutInt r, st)
  else if (type =? VAR_OP) || (type =? STDDEV_OP) then
    r <- var_op server_num o nb total s (k_var k) (h_K h) (k_rnd k) (fst st) ;;
    Ret (OutVar (type =? STDDEV_OP) (fst r), (snd r, snd st))
  else if type =? LINREG_OP then
    r <- linreg_op server_num o nb total s (k_degree k) (k_pk k) (k_garbage k) (h_K h) (k_rnd k) (fst st) ;;
    Ret (OutReg (fst r), (snd r, snd st))
  else if type =? FREQ_OP then
    r <- freq_op server_num o nb total s (k_pk k) (k_rows k) (h_params h) (h_tape h) (snd st) ;;
    Ret (OutFreq (fst r), (fst st, snd r))
  else Ret (OutNothing, st).

(** lines 1494-1622, the first iterations of [while(1)], one for each connection. *)
Fixpoint serve (server_num : bool) (h : host) (ks : list conn) (st : server_state)
  : proc (list output * server_state) :=
  match ks with
  | [] => Ret ([], st)
  | k :: ks' =>
      v <- refresh_randomX server_num (k_draw k) (fst st) ;;
      s <- maybeUpdate (h_params h) (h_tape h) (snd st) ;;
      r <- handle server_num h k (v, s) ;;
      rest <- serve server_num h ks' (snd r) ;;
      Ret (fst r :: fst rest, snd rest)
  end.

(** /repo/server.h:136-150 [syncSnipSeeds], /repo/net_share.cpp:269-276: server 0 sends
    the bytes of its generator state, server 1 adopts them. *)
Definition sync_seeds (server_num : bool) (seed : list Z) : proc (list Z) :=
  if server_num then Recv (length seed) (fun s => Ret s) else Send seed (Ret seed).

(** lines 1480-1622, after the connection between the servers is established.
    [r]: the first draw for the challenge point; [gen]: the numbers FLINT's generator
    (reduced modulo p) yields from a state; [seed]: the initial generator state. *)
Definition server_main (server_num : bool) (num_bits : nat) (c : store_params) (T : nat -> Z)
  (r : Z) (gen : list Z -> nat -> Z) (seed : list Z) (ks : list conn) : proc (list output * server_state) :=
  x <- sync_randomX server_num r ;;
  sd <- sync_seeds server_num seed ;;
  serve server_num (mkHost num_bits c T (gen sd)) ks
    (mkSnip x 0 [] 0 (init_roots 0) 0, mkStore [] [] 0).
