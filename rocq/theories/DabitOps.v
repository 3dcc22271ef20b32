(** * VAR, STDDEV and LINREG built with USE_OT_B2A false

    /repo/constants.h sets USE_OT_B2A to true; the code for the other setting is the second
    branch of [share_convert] (/repo/server.cpp:178-189).  The rest of the operations is as in
    ServerOps.v; the store of correlated randomness is now part of the state. *)
From Coq Require Import ZArith List Bool.
From Verif Require Import Words Constants Share Proc Net OT Correlated Circuit Snip ServerOps.
Import ListNotations.
Open Scope Z_scope.

(** /repo/server.cpp:153-193, lines 178-189: [bits_arr] repeats [num_bits] for every share,
    the values are converted as one flat array. *)
Definition share_convert_d (c : store_params) (T : nat -> Z) (num_bits : list nat)
  (shares : list (list Z)) (s : store) : proc (list (list Z) * store) :=
  r <- b2a_daBit_multi c T (concat (map (fun _ => num_bits) shares)) (concat shares) s ;;
  Ret (chunks (length shares) (length num_bits) (fst r), snd r).

(** /repo/server.cpp:764-801, 1013-1063 and 831-866, 1084-1139: as [snip_sums1] and
    [snip_sums0]. *)
Definition snip_sums1_d (cs : store_params) (T K : nat -> Z) (c : circuit) (nbs : list nat)
  (l : list (list Z * ClientPacket)) (st : snip_state) (s : store) : proc (list Z * snip_state * store) :=
  r <- share_convert_d cs T nbs (map fst l) s ;;
  t <- (sv <- validate_snips true K st (map2 (fun e row => (c, snd e, row)) l (fst r)) ;;
        valid <- recv_bool_batch (length l) ;;
        Ret (accumulate (length nbs) (fst r) (map2 andb valid (fst sv)), snd sv)) ;;
  Ret (t, snd r).
Definition snip_sums0_d (cs : store_params) (T K : nat -> Z) (c : circuit) (nbs : list nat)
  (known : list bool) (l : list (list Z * ClientPacket)) (st : snip_state) (s : store)
  : proc (nat * list Z * snip_state * store) :=
  r <- share_convert_d cs T nbs (map fst l) s ;;
  t <- (sv <- validate_snips false K st (map2 (fun e row => (c, snd e, row)) l (fst r)) ;;
        let valid := map2 andb known (fst sv) in
        send_bool_batch valid ;;;
        Ret (count valid, accumulate (length nbs) (fst r) valid, snd sv)) ;;
  Ret (t, snd r).

(** /repo/server.cpp:749-805 *)
Definition var_op1_d (order : iteration) (cs : store_params) (T K : nat -> Z) (num_bits : nat)
  (m : table (Z * Z * ClientPacket)) (st : snip_state) (s : store)
  : proc (result (nat * Z * Z) * snip_state * store) :=
  let l := order _ m in
  announce l ;;;
  r <- snip_sums1_d cs T K CheckVar [num_bits; 2 * num_bits]%nat
         (map (fun e => let '(v, v2, pkt) := snd e in ([v; v2], pkt)) l) st s ;;
  send_fmpz (nth 0 (fst (fst r)) 0) ;;; send_fmpz (nth 1 (fst (fst r)) 0) ;;;
  Ret (RET_NO_ANS, snd (fst r), snd r).
(** /repo/server.cpp:806-898 *)
Definition var_op0_d (cs : store_params) (T K : nat -> Z) (num_bits : nat)
  (m : table (Z * Z * ClientPacket)) (total_inputs : nat) (st : snip_state) (s : store)
  : proc (result (nat * Z * Z) * snip_state * store) :=
  pks <- learn ;;
  let found := map (fun pk => find pk m) pks in
  r <- snip_sums0_d cs T K CheckVar [num_bits; 2 * num_bits]%nat (map is_some found)
         (map (fun f => match f with
                        | Some (v, v2, pkt) => ([v; v2], pkt)
                        | None => ([0; 0], mock_packet (NumMulGates CheckVar))
                        end) found) st s ;;
  let '(num_valid, a, st', s') := r in
  if reused m pks then Undef else
  b <- recv_fmpz ;; b2 <- recv_fmpz ;;
  if too_few num_valid total_inputs then Ret (RET_INVALID, st', s')
  else Ret (RET_ANS (num_valid, (b + nth 0 a 0) mod p, (b2 + nth 1 a 0) mod p), st', s').
Definition var_op_d (cs : store_params) (order : iteration) (num_bits total_inputs : nat)
  (stream junk : list Z) (T K : nat -> Z) (st : snip_state) (s : store)
  : proc (result (nat * Z * Z) * snip_state * store) :=
  if (64 <=? num_bits)%nat then Undef else
  match receive (var_one num_bits (NumMulGates CheckVar)) total_inputs (stream, junk) [] with
  | None => Undef
  | Some m => if server_num cs then var_op1_d order cs T K num_bits m st s
              else var_op0_d cs T K num_bits m total_inputs st s
  end.

(** /repo/server.cpp:991-1070 *)
Definition linreg_op1_d (order : iteration) (cs : store_params) (T K : nat -> Z) (num_bits degree : nat)
  (m : table (linreg_vals * ClientPacket)) (st : snip_state) (s : store)
  : proc (result (list Z * list Z) * snip_state * store) :=
  let l := order _ m in
  announce l ;;;
  r <- snip_sums1_d cs T K (CheckLinReg degree) (linreg_bits num_bits degree)
         (map (fun e => (linreg_row (fst (snd e)), snd (snd e))) l) st s ;;
  send_fmpz_batch (fst (fst r)) ;;;
  Ret (RET_NO_ANS, snd (fst r), snd r).
(** /repo/server.cpp:1071-1193 *)
Definition linreg_op0_d (cs : store_params) (T K : nat -> Z) (num_bits degree : nat)
  (garbage : nat -> list Z * list Z * list Z)
  (m : table (linreg_vals * ClientPacket)) (total_inputs : nat) (st : snip_state) (s : store)
  : proc (result (list Z * list Z) * snip_state * store) :=
  pks <- learn ;;
  if reused m pks then Undef else
  let found := map (fun pk => find pk m) pks in
  r <- snip_sums0_d cs T K (CheckLinReg degree) (linreg_bits num_bits degree) (map is_some found)
         (map2 (fun f i => match f with
                           | Some (v, pkt) => (linreg_row v, pkt)
                           | None =>
                               let '(x, x2, xy) := garbage i in
                               (linreg_row (x, 0, x2, xy), mock_packet (NumMulGates (CheckLinReg degree)))
                           end) found (seq 0 (length found))) st s ;;
  let '(num_valid, a, st', s') := r in
  b <- recv_fmpz_each (num_fields degree) ;;
  let s := map2 (fun b a => (b + a) mod p) b a in
  let nx := num_x degree in
  let x_accum := Z.of_nat num_valid :: firstn nx s ++ firstn (num_quad degree) (skipn degree s) in
  let y_accum := nth nx s 0 :: skipn (degree + num_quad degree) s in
  if too_few num_valid total_inputs then Ret (RET_INVALID, st', s')
  else Ret (RET_ANS (x_accum, y_accum), st', s').
Definition linreg_op_d (cs : store_params) (order : iteration) (num_bits total_inputs : nat)
  (stream degree0 pk0 : list Z) (garbage : nat -> list Z * list Z * list Z)
  (T K : nat -> Z) (st : snip_state) (s : store)
  : proc (result (list Z * list Z) * snip_state * store) :=
  if (64 <=? num_bits)%nat then Undef else
  let (d, s1) := crecv 8 stream degree0 in
  let degree := Z.to_nat (bswap32 (le_val d)) in
  if (degree =? 0)%nat then Undef else
  match receive (linreg_one num_bits (num_x degree) (num_quad degree) (NumMulGates (CheckLinReg degree)))
                total_inputs (s1, pk0) [] with
  | None => Undef
  | Some m => if server_num cs then linreg_op1_d order cs T K num_bits degree m st s
              else linreg_op0_d cs T K num_bits degree garbage m total_inputs st s
  end.
