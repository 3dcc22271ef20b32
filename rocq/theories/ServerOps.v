(** * The aggregate operations of the servers: /repo/server.cpp:131-193, 296-1444

    Each operation first reads the clients' records from [clientfd] into a hash
    table, then runs a protocol with the other server.  Server numbers are
    booleans: [false] is server 0, [true] is server 1.  Timing and byte counts
    printed for diagnosis are not modelled; memory is not modelled except where
    stated (indeterminate contents, accesses out of bounds). *)
From Coq Require Import ZArith List Bool.
From Verif Require Import Words Constants Share Proc Net OT Correlated Circuit Snip.
Import ListNotations.
Open Scope Z_scope.

(** ** Reading from a client *)

(** [recv_in(clientfd, buf, n)] where the client sends the bytes [s] and then
    closes: the new contents of the buffer ([old] before) and the unread bytes.
    (What recv_in does is in Net.v; P_Server.v proves that this is it.) *)
Definition crecv (n : nat) (s old : list Z) : list Z * list Z :=
  (firstn n s ++ skipn (Nat.min n (length s)) old, skipn n s).

(** [std::unordered_map<std::string, V>], as the list of its entries in order of
    insertion.  Keys are byte strings. *)
Definition table (V : Type) := list (list Z * V).
Definition key_eqb (a b : list Z) : bool := if list_eq_dec Z.eq_dec a b then true else false.
Fixpoint find {V} (pk : list Z) (m : table V) : option V :=
  match m with
  | [] => None
  | (k, v) :: m' => if key_eqb k pk then Some v else find pk m'
  end.

(** The order in which a loop [for (const auto& share : share_map)] visits the
    entries: an arbitrary function of the table (the theorems assume that it
    yields a permutation). *)
Definition iteration := forall V, table V -> table V.

(** Outcome of reading one record under a new key: stored, skipped, or undefined
    behaviour. *)
Inductive entry (V : Type) := Take (v : V) | Skip | Bad.
Arguments Take {V} v. Arguments Skip {V}. Arguments Bad {V}.

(** The loop [for (i = 0; i < total_inputs; i++)] common to all operations: a
    record under a known key is skipped.  [one] reads one record.  [None]:
    undefined behaviour. *)
Fixpoint receive {S V} (one : S -> list Z * entry V * S) (n : nat) (s : S) (m : table V)
  : option (table V) :=
  match n with
  | O => Some m
  | Datatypes.S n' =>
      let '(pk, e, s') := one s in
      match find pk m with
      | Some _ => receive one n' s' m
      | None =>
          match e with
          | Take v => receive one n' s' (m ++ [(pk, v)])
          | Skip => receive one n' s' m
          | Bad => None
          end
      end
  end.

(** /repo/server.cpp:304-310; [sizeof(BitShare) = 33].  The local variable [share]
    keeps its contents from one record to the next.  A byte other than 0 and 1 in
    a [bool] makes reading it undefined. *)
Definition bit_one (sb : list Z * list Z) : list Z * entry bool * (list Z * list Z) :=
  let (buf, rest) := crecv 33 (fst sb) (snd sb) in
  let b := nth 32 buf 0 in
  (firstn 32 buf,
   if b =? 0 then Take false else if b =? 1 then Take true else Bad,
   (rest, buf)).

(** /repo/server.cpp:390-398 and, with no bound on the value, 493-500;
    [sizeof(IntShare) = 40]. *)
Definition int_one (max_val : option Z) (sb : list Z * list Z) : list Z * entry Z * (list Z * list Z) :=
  let (buf, rest) := crecv 40 (fst sb) (snd sb) in
  let val := le_val (skipn 32 buf) in
  (firstn 32 buf,
   match max_val with Some m => if m <=? val then Skip else Take val | None => Take val end,
   (rest, buf)).

(** /repo/server.cpp:596-605.  [shares] is allocated without initialisation; [junk i]
    are the bytes previously in row [i].  State: stream, [share.pk], [i]. *)
Definition max_one (B : nat) (junk : nat -> list Z) (s : list Z * list Z * nat)
  : list Z * entry (list Z) * (list Z * list Z * nat) :=
  let '(str, old, i) := s in
  let (pk, s1) := crecv 32 str old in
  let (row, s2) := crecv (8 * (B + 1)) s1 (junk i) in
  (pk, Take (map le_val (chunks (B + 1) 8 row)), (s2, pk, S i)).

(** [max_val * max_val] in [uint64_t]. *)
Definition max_val (num_bits : nat) : Z := 2 ^ Z.of_nat num_bits.
Definition max_sq (num_bits : nat) : Z := u64 (max_val num_bits * max_val num_bits).

(** /repo/server.cpp:714-738; [sizeof(VarShare) = 48].  At the end of the stream
    [recv_ClientPacket] returns 0 (as does every later receive). *)
Definition var_one (num_bits NMul : nat) (sb : list Z * list Z)
  : list Z * entry (Z * Z * ClientPacket) * (list Z * list Z) :=
  let (buf, rest) := crecv 48 (fst sb) (snd sb) in
  let val := le_val (firstn 8 (skipn 32 buf)) in
  let val_squared := le_val (skipn 40 buf) in
  match feed (recv_ClientPacket NMul) rest with
  | None => (firstn 32 buf, Skip, ([], buf))
  | Some (packet, rest') =>
      (firstn 32 buf,
       if (max_val num_bits <=? val) || (max_sq num_bits <=? val_squared) then Skip
       else Take (val, val_squared, packet),
       (rest', buf))
  end.

(** A regression record: x, y, x2, xy. *)
Definition linreg_vals := (list Z * Z * list Z * list Z)%type.

(** /repo/server.cpp:939-974: one record.  If the stream ends within the record,
    then [packet_bytes <= 0] and the values read are not used. *)
Definition linreg_record (num_x num_quad NMul : nat) : proc (linreg_vals * ClientPacket) :=
  x <- recv_uint64_batch num_x ;;
  y <- recv_uint64 ;;
  x2 <- recv_uint64_batch num_quad ;;
  xy <- recv_uint64_batch num_x ;;
  packet <- recv_ClientPacket NMul ;;
  Ret ((x, y, x2, xy), packet).
Definition linreg_one (num_bits num_x num_quad NMul : nat) (sb : list Z * list Z)
  : list Z * entry (linreg_vals * ClientPacket) * (list Z * list Z) :=
  let (pk, s1) := crecv 32 (fst sb) (snd sb) in
  match feed (linreg_record num_x num_quad NMul) s1 with
  | None => (pk, Skip, ([], pk))
  | Some ((x, y, x2, xy), packet, rest) =>
      let sizes_valid :=
        forallb (fun z => z <? max_val num_bits) x &&
        forallb (fun z => z <? max_sq num_bits) xy &&
        (y <? max_val num_bits) &&
        forallb (fun z => z <? max_sq num_bits) x2 in
      (pk, if sizes_valid then Take ((x, y, x2, xy), packet) else Skip, (rest, pk))
  end.

(** /repo/server.cpp:1216-1224; [recv_bool_batch] unpacks from an uninitialised
    buffer, [junk i] its contents for record [i]. *)
Definition freq_one (max_inp : nat) (junk : nat -> list Z) (s : list Z * list Z * nat)
  : list Z * entry (list bool) * (list Z * list Z * nat) :=
  let '(str, old, i) := s in
  let (pk, s1) := crecv 32 str old in
  let (row, s2) := crecv (bool_bytes max_inp) s1 (junk i) in
  (pk, Take (unpack_bools max_inp row), (s2, pk, S i)).

(** ** Common parts of the protocols *)

(** [returnType], /repo/server.cpp (via /repo/server.h). *)
Inductive result (A : Type) := RET_INVALID | RET_NO_ANS | RET_ANS (ans : A).
Arguments RET_INVALID {A}. Arguments RET_NO_ANS {A}. Arguments RET_ANS {A} ans.

(** [num_valid < total_inputs * (1 - INVALID_THRESHOLD)] with INVALID_THRESHOLD 0.5;
    both sides are exact in [double] (counts below 2^32). *)
Definition too_few (num_valid : nat) (total_inputs : nat) : bool :=
  (2 * num_valid <? total_inputs)%nat.

(** Server 1 announces its identities: [send_size], then [send_out] of each key in
    iteration order, e.g. /repo/server.cpp:325-332. *)
Fixpoint send_pks (pks : list (list Z)) : proc unit :=
  match pks with
  | [] => Ret tt
  | k :: pks' => Send k (send_pks pks')
  end.
(** /repo/server.cpp:132-137 [get_pk], [n] times. *)
Fixpoint recv_pks (n : nat) : proc (list (list Z)) :=
  match n with
  | O => Ret []
  | S n' => Recv PK_LENGTH (fun k => l <- recv_pks n' ;; Ret (k :: l))
  end.
Definition announce {V} (l : table V) : proc unit :=
  send_size (Z.of_nat (length l)) ;;; send_pks (map fst l).
Definition learn : proc (list (list Z)) :=
  n <- recv_size ;; recv_pks (Z.to_nat n).

Definition is_some {A} (o : option A) : bool := match o with Some _ => true | None => false end.
(** An identity of the table occurs twice in [pks]: the pointers kept in the table for
    it are then fetched twice, and what they point to is freed twice (var_op and
    linreg_op of server 0). *)
Fixpoint reused {V} (m : table V) (pks : list (list Z)) : bool :=
  match pks with
  | [] => false
  | pk :: pks => (is_some (find pk m) && existsb (key_eqb pk) pks) || reused m pks
  end.
Definition get {A} (d : A) (o : option A) : A := match o with Some x => x | None => d end.
Definition count (l : list bool) : nat := length (filter (fun b => b) l).

(** ** BIT_SUM, /repo/server.cpp:296-378 *)

(** lines 322-344; [order] is the iteration order. *)
Definition bit_sum1 (order : iteration) (m : table bool) : proc (result Z) :=
  let l := order _ m in
  announce l ;;;
  b <- bitsum_ot_receiver false (map snd l) 0 ;;
  send_uint64 b ;;;
  Ret RET_NO_ANS.
(** lines 345-377; [rnd] are the draws of [bitsum_ot_sender].  Where [valid[i]] is
    false, [shares[i]] is uninitialised and not read. *)
Definition bit_sum0 (m : table bool) (total_inputs : nat) (rnd : nat -> Z) : proc (result Z) :=
  pks <- learn ;;
  let found := map (fun pk => find pk m) pks in
  let valid := map is_some found in
  a <- bitsum_ot_sender false rnd (map (get false) found) valid 0 ;;
  b <- recv_uint64 ;;
  if too_few (count valid) total_inputs then Ret RET_INVALID
  else Ret (RET_ANS (u64 (a + b))).
(** [junk]: initial contents of the variable [share]. *)
Definition bit_sum (server_num : bool) (order : iteration) (total_inputs : nat)
  (stream junk : list Z) (rnd : nat -> Z) : proc (result Z) :=
  match receive bit_one total_inputs (stream, junk) [] with
  | None => Undef
  | Some m => if server_num then bit_sum1 order m else bit_sum0 m total_inputs rnd
  end.

(** ** INT_SUM, /repo/server.cpp:380-482 *)

(** [b += b_all[i][0]] over all rows. *)
Definition sum_col0 (rows : list (list Z)) : Z :=
  fold_left (fun acc r => u64 (acc + nth 0 r 0)) rows 0.
(** lines 410-440 *)
Definition int_sum1 (order : iteration) (num_bits : nat) (m : table Z) : proc (result Z) :=
  let l := order _ m in
  announce l ;;;
  b_all <- intsum_ot_receiver false (map (fun e => [snd e]) l) [num_bits] 0 ;;
  send_uint64 (sum_col0 b_all) ;;;
  Ret RET_NO_ANS.
(** lines 441-481 *)
Definition int_sum0 (num_bits : nat) (m : table Z) (total_inputs : nat) (rnd : nat -> Z)
  : proc (result Z) :=
  pks <- learn ;;
  let found := map (fun pk => find pk m) pks in
  let valid := map is_some found in
  a_all <- intsum_ot_sender false rnd (map (fun f => [get 0 f]) found) valid [num_bits] 0 ;;
  b <- recv_uint64 ;;
  if too_few (count valid) total_inputs then Ret RET_INVALID
  else Ret (RET_ANS (u64 (sum_col0 a_all + b))).
(** [1ULL << num_bits] is undefined for [num_bits >= 64]. *)
Definition int_sum (server_num : bool) (order : iteration) (num_bits : nat) (total_inputs : nat)
  (stream junk : list Z) (rnd : nat -> Z) : proc (result Z) :=
  if (64 <=? num_bits)%nat then Undef else
  match receive (int_one (Some (max_val num_bits))) total_inputs (stream, junk) [] with
  | None => Undef
  | Some m => if server_num then int_sum1 order num_bits m else int_sum0 num_bits m total_inputs rnd
  end.

(** ** AND_OP, OR_OP, /repo/server.cpp:484-582 *)

(** lines 512-541 *)
Definition xor_op1 (order : iteration) (m : table Z) : proc (result bool) :=
  let l := order _ m in
  announce l ;;;
  other_valid <- recv_bool_batch (length l) ;;
  send_uint64 (fold_left (fun b ev => if snd ev : bool then Z.lxor b (snd (fst ev)) else b)
                         (combine l other_valid) 0) ;;;
  Ret RET_NO_ANS.
(** lines 542-581; [is_and] is [msg.type == AND_OP] (otherwise OR_OP: [main] calls
    [xor_op] for these two types only). *)
Definition xor_op0 (is_and : bool) (m : table Z) (total_inputs : nat) : proc (result bool) :=
  pks <- learn ;;
  let found := map (fun pk => find pk m) pks in
  let valid := map is_some found in
  let a := fold_left (fun a f => match f with Some v => Z.lxor a v | None => a end) found 0 in
  send_bool_batch valid ;;;
  b <- recv_uint64 ;;
  if too_few (count valid) total_inputs then Ret RET_INVALID
  else
    let aggr := Z.lxor a b in
    Ret (RET_ANS (if is_and then aggr =? 0 else negb (aggr =? 0))).
Definition xor_op (server_num : bool) (order : iteration) (is_and : bool) (total_inputs : nat)
  (stream junk : list Z) : proc (result bool) :=
  match receive (int_one None) total_inputs (stream, junk) [] with
  | None => Undef
  | Some m => if server_num then xor_op1 order m else xor_op0 is_and m total_inputs
  end.

(** ** MAX_OP, MIN_OP, /repo/server.cpp:584-699 *)

(** [for j <= B: b[j] ^= row[j]] *)
Definition xor_row (acc row : list Z) : list Z := map2 Z.lxor acc row.
(** lines 618-652 *)
Definition max_op1 (order : iteration) (B : nat) (m : table (list Z)) : proc (result Z) :=
  let l := order _ m in
  announce l ;;;
  other_valid <- recv_bool_batch (length l) ;;
  send_uint64_batch
    (fold_left (fun b ev => if snd ev : bool then xor_row b (snd (fst ev)) else b)
               (combine l other_valid) (repeat 0 (B + 1))) ;;;
  Ret RET_NO_ANS.
(** lines 681-694: the loop index is unsigned, so the loop does not stop at 0; when
    no position differs it continues with a[2^32 - 1], out of bounds. *)
Fixpoint scan_down (a b : list Z) (j : nat) : option nat :=
  if negb (nth j a 0 =? nth j b 0) then Some j
  else match j with O => None | S j' => scan_down a b j' end.
(** lines 653-696; [is_max] is [msg.type == MAX_OP] (otherwise MIN_OP). *)
Definition max_op0 (is_max : bool) (B : nat) (m : table (list Z)) (total_inputs : nat)
  : proc (result Z) :=
  pks <- learn ;;
  let found := map (fun pk => find pk m) pks in
  let valid := map is_some found in
  let a := fold_left (fun a f => match f with Some v => xor_row a v | None => a end)
                     found (repeat 0 (B + 1)) in
  send_bool_batch valid ;;;
  b <- recv_uint64_batch (B + 1) ;;
  if too_few (count valid) total_inputs then Ret RET_INVALID
  else match scan_down a b B with
       | None => Undef
       | Some j => Ret (RET_ANS (Z.of_nat (if is_max then j else B - j)))
       end.
(** The size [total_inputs * (B + 1)] of [shares] is computed in 32 bits; if it
    wraps around, the rows are written out of bounds. *)
Definition max_op (server_num : bool) (order : iteration) (is_max : bool) (B total_inputs : nat)
  (stream pk0 : list Z) (junk : nat -> list Z) : proc (result Z) :=
  if two32 <=? Z.of_nat total_inputs * (Z.of_nat B + 1) then Undef else
  match receive (max_one B junk) total_inputs (stream, pk0, 0%nat) [] with
  | None => Undef
  | Some m => if server_num then max_op1 order B m else max_op0 is_max B m total_inputs
  end.

(** ** VAR_OP, STDDEV_OP, /repo/server.cpp:701-899 *)

(** /repo/server.cpp:153-193 [share_convert] with USE_OT_B2A; [rnd] are server 0's
    draws.  [fmpz_set_ui] is the identity. *)
Definition share_convert (server_num : bool) (rnd : nat -> Z) (num_bits : list nat)
  (shares : list (list Z)) : proc (list (list Z)) :=
  b2a_ot server_num rnd num_bits shares p.

(** [new ClientPacket(NMul)] (/repo/share.h): arrays of zeros. *)
Definition mock_packet (NMul : nat) : ClientPacket :=
  mkPacket (repeat 0 NMul) 0 0 0
    (repeat 0 (match NextPowerOfTwo (Z.of_nat NMul) with Some N => Z.to_nat N | None => 0 end))
    (mkBTS 0 0 0).

(** What the common part of VAR and LINREG does with rows of shared values and
    their packets, on server 1: /repo/server.cpp:764-801 and 1013-1063.  [nbs]: the
    widths; [l]: pk, row and packet in iteration order.  Result: this server's
    accumulated shares and the new state. *)
Definition snip_sums1 (K : nat -> Z) (rnd : nat -> Z) (c : circuit) (nbs : list nat)
  (l : list (list Z * ClientPacket)) (st : snip_state) : proc (list Z * snip_state) :=
  shares_p <- share_convert true rnd nbs (map fst l) ;;
  sv <- validate_snips true K st (map2 (fun e row => (c, snd e, row)) l shares_p) ;;
  valid <- recv_bool_batch (length l) ;;
  Ret (accumulate (length nbs) shares_p (map2 andb valid (fst sv)), snd sv).
(** On server 0: /repo/server.cpp:831-866 and 1084-1139; [known] tells which
    identities are in this server's table.  Result: number of valid inputs,
    accumulated shares, new state. *)
Definition snip_sums0 (K : nat -> Z) (rnd : nat -> Z) (c : circuit) (nbs : list nat)
  (known : list bool) (l : list (list Z * ClientPacket)) (st : snip_state)
  : proc (nat * list Z * snip_state) :=
  shares_p <- share_convert false rnd nbs (map fst l) ;;
  sv <- validate_snips false K st (map2 (fun e row => (c, snd e, row)) l shares_p) ;;
  let valid := map2 andb known (fst sv) in
  send_bool_batch valid ;;;
  Ret (count valid, accumulate (length nbs) shares_p valid, snd sv).

(** lines 749-805 *)
Definition var_op1 (order : iteration) (K rnd : nat -> Z) (num_bits : nat)
  (m : table (Z * Z * ClientPacket)) (st : snip_state)
  : proc (result (nat * Z * Z) * snip_state) :=
  let l := order _ m in
  announce l ;;;
  r <- snip_sums1 K rnd CheckVar [num_bits; 2 * num_bits]%nat
         (map (fun e => let '(v, v2, pkt) := snd e in ([v; v2], pkt)) l) st ;;
  send_fmpz (nth 0 (fst r) 0) ;;; send_fmpz (nth 1 (fst r) 0) ;;;
  Ret (RET_NO_ANS, snd r).
(** lines 806-898.  The answer is (num_valid, b, b2), from which [ans] is computed in
    floating point (see Stat.v).  If [reused], line 849 frees a packet a second time:
    undefined.  That happens before [valid] is sent (line 852), here just after it. *)
Definition var_op0 (K rnd : nat -> Z) (num_bits : nat)
  (m : table (Z * Z * ClientPacket)) (total_inputs : nat) (st : snip_state)
  : proc (result (nat * Z * Z) * snip_state) :=
  pks <- learn ;;
  let found := map (fun pk => find pk m) pks in
  r <- snip_sums0 K rnd CheckVar [num_bits; 2 * num_bits]%nat (map is_some found)
         (map (fun f => match f with
                        | Some (v, v2, pkt) => ([v; v2], pkt)
                        | None => ([0; 0], mock_packet (NumMulGates CheckVar))
                        end) found) st ;;
  let '(num_valid, a, st') := r in
  if reused m pks then Undef else
  b <- recv_fmpz ;; b2 <- recv_fmpz ;;
  if too_few num_valid total_inputs then Ret (RET_INVALID, st')
  else Ret (RET_ANS (num_valid, (b + nth 0 a 0) mod p, (b2 + nth 1 a 0) mod p), st').
Definition var_op (server_num : bool) (order : iteration) (num_bits total_inputs : nat)
  (stream junk : list Z) (K rnd : nat -> Z) (st : snip_state)
  : proc (result (nat * Z * Z) * snip_state) :=
  if (64 <=? num_bits)%nat then Undef else
  match receive (var_one num_bits (NumMulGates CheckVar)) total_inputs (stream, junk) [] with
  | None => Undef
  | Some m => if server_num then var_op1 order K rnd num_bits m st
              else var_op0 K rnd num_bits m total_inputs st
  end.

(** ** LINREG_OP, /repo/server.cpp:901-1194 *)

Definition num_x (degree : nat) : nat := (degree - 1)%nat.
Definition num_quad (degree : nat) : nat := (num_x degree * (num_x degree + 1) / 2)%nat.
Definition num_fields (degree : nat) : nat := (2 * num_x degree + 1 + num_quad degree)%nat.
(** lines 926-928 *)
Definition linreg_bits (num_bits degree : nat) : list nat :=
  map (fun i => if (degree <=? i)%nat then 2 * num_bits else num_bits)%nat (seq 0 (num_fields degree)).
(** lines 1030-1036: the order of the fields in a row. *)
Definition linreg_row (v : linreg_vals) : list Z :=
  let '(x, y, x2, xy) := v in x ++ y :: x2 ++ xy.

(** lines 991-1070 *)
Definition linreg_op1 (order : iteration) (K rnd : nat -> Z) (num_bits degree : nat)
  (m : table (linreg_vals * ClientPacket)) (st : snip_state)
  : proc (result (list Z * list Z) * snip_state) :=
  let l := order _ m in
  announce l ;;;
  r <- snip_sums1 K rnd (CheckLinReg degree) (linreg_bits num_bits degree)
         (map (fun e => (linreg_row (fst (snd e)), snd (snd e))) l) st ;;
  send_fmpz_batch (fst r) ;;;
  Ret (RET_NO_ANS, snd r).
(** lines 1071-1193.  [garbage i]: the uninitialised x, x2, xy of an identity not
    in this server's table (y is 0).  If [reused], lines 1094-1104 read and free the
    same arrays again: undefined.  The answer is (x_accum, y_accum), passed on to
    [SolveLinReg]. *)
Definition linreg_op0 (K rnd : nat -> Z) (num_bits degree : nat)
  (garbage : nat -> list Z * list Z * list Z)
  (m : table (linreg_vals * ClientPacket)) (total_inputs : nat) (st : snip_state)
  : proc (result (list Z * list Z) * snip_state) :=
  pks <- learn ;;
  if reused m pks then Undef else
  let found := map (fun pk => find pk m) pks in
  r <- snip_sums0 K rnd (CheckLinReg degree) (linreg_bits num_bits degree) (map is_some found)
         (map2 (fun f i => match f with
                           | Some (v, pkt) => (linreg_row v, pkt)
                           | None =>
                               let '(x, x2, xy) := garbage i in
                               (linreg_row (x, 0, x2, xy), mock_packet (NumMulGates (CheckLinReg degree)))
                           end) found (seq 0 (length found))) st ;;
  let '(num_valid, a, st') := r in
  b <- recv_fmpz_each (num_fields degree) ;;
  let s := map2 (fun b a => (b + a) mod p) b a in
  let nx := num_x degree in
  let x_accum := Z.of_nat num_valid :: firstn nx s ++ firstn (num_quad degree) (skipn degree s) in
  let y_accum := nth nx s 0 :: skipn (degree + num_quad degree) s in
  if too_few num_valid total_inputs then Ret (RET_INVALID, st')
  else Ret (RET_ANS (x_accum, y_accum), st').
(** [degree] is read first (lines 906-907); [degree0]: contents of the variable if
    the stream ends before.  [degree = 0] makes [num_x] 2^64 - 1: allocation failure. *)
Definition linreg_op (server_num : bool) (order : iteration) (num_bits total_inputs : nat)
  (stream degree0 pk0 : list Z) (garbage : nat -> list Z * list Z * list Z)
  (K rnd : nat -> Z) (st : snip_state)
  : proc (result (list Z * list Z) * snip_state) :=
  if (64 <=? num_bits)%nat then Undef else
  let (d, s1) := crecv 8 stream degree0 in
  let degree := Z.to_nat (bswap32 (le_val d)) in
  if (degree =? 0)%nat then Undef else
  match receive (linreg_one num_bits (num_x degree) (num_quad degree) (NumMulGates (CheckLinReg degree)))
                total_inputs (s1, pk0) [] with
  | None => Undef
  | Some m => if server_num then linreg_op1 order K rnd num_bits degree m st
              else linreg_op0 K rnd num_bits degree garbage m total_inputs st
  end.

(** ** FREQ_OP, /repo/server.cpp:1196-1444 *)

(** lines 1258-1275 and 1341-1356, per input: xor of the bits and sum of the shares. *)
Definition parity_of (row : list bool) : bool := fold_left xorb row false.
Definition sum_of (row : list Z) : Z := fold_left (fun s x => (s + x) mod p) row 0.

(** lines 1234-1319 *)
Definition freq_op1 (order : iteration) (c : store_params) (T : nat -> Z) (max_inp : nat)
  (m : table (list bool)) (s : store) : proc (result (list Z) * store) :=
  let l := order _ m in
  let n := length l in
  announce l ;;;
  r <- b2a_daBit_single c T (concat (map snd l)) s ;;
  let shares_p := chunks n max_inp (fst r) in
  let parity := map (fun e => parity_of (snd e)) l in
  let sums := map sum_of shares_p in
  send_bool (parity_of parity) ;;;
  send_fmpz (sum_of sums) ;;;
  all_valid <- recv_bool ;;
  valid <- (if all_valid then Ret (repeat true n)
            else send_bool_batch parity ;;; send_fmpz_batch sums ;;; recv_bool_batch n) ;;
  send_fmpz_batch (accumulate max_inp shares_p valid) ;;;
  Ret (RET_NO_ANS, snd r).
(** lines 1378-1391: the validity of one input after the individual check. *)
Definition freq_valid (valid : bool) (parity parity_other : bool) (sum sum_other : Z) : bool :=
  valid && xorb parity parity_other && ((sum + sum_other) mod p =? 1).
(** lines 1320-1443.  [memset(valid, true)] also covers identities this server does
    not know; [valid] is sent in both cases.  [pk_list] has [total_inputs] elements and
    is written out of bounds if server 1 announces more identities. *)
Definition freq_op0 (c : store_params) (T : nat -> Z) (max_inp : nat)
  (m : table (list bool)) (total_inputs : nat) (s : store) : proc (result (list Z) * store) :=
  pks <- learn ;;
  let n := length pks in
  if (total_inputs <? n)%nat then Undef else
  let found := map (fun pk => find pk m) pks in
  let shares := map (get (repeat false max_inp)) found in
  r <- b2a_daBit_single c T (concat shares) s ;;
  let shares_p := chunks n max_inp (fst r) in
  let parity := map parity_of shares in
  let sums := map sum_of shares_p in
  total_parity_other <- recv_bool ;;
  sum_other <- recv_fmpz ;;
  let all_valid :=
    Bool.eqb (xorb (parity_of parity) total_parity_other) (Nat.odd total_inputs) &&
    ((sum_of sums + sum_other) mod p =? Z.of_nat total_inputs) in
  send_bool all_valid ;;;
  valid <- (if all_valid then Ret (repeat true n)
            else parity_other <- recv_bool_batch n ;;
                 sums_other <- recv_fmpz_batch n ;;
                 Ret (map3 (fun v pp ss => freq_valid v (fst pp) (snd pp) (fst ss) (snd ss))
                           (map is_some found) (combine parity parity_other)
                           (combine sums sums_other))) ;;
  send_bool_batch valid ;;;
  let accum := accumulate max_inp shares_p valid in
  accum_other <- recv_fmpz_batch max_inp ;;
  if too_few (count valid) total_inputs then Ret (RET_INVALID, snd r)
  else Ret (RET_ANS (map2 (fun a b => (a + b) mod p) accum accum_other), snd r).
(** [max_inp = 1 << num_bits] is a shift of an [int]: undefined from 31 on. *)
Definition freq_op (server_num : bool) (order : iteration) (num_bits total_inputs : nat)
  (stream pk0 : list Z) (junk : nat -> list Z) (c : store_params) (T : nat -> Z) (s : store)
  : proc (result (list Z) * store) :=
  if (31 <=? num_bits)%nat then Undef else
  let max_inp := Z.to_nat (2 ^ Z.of_nat num_bits) in
  match receive (freq_one max_inp junk) total_inputs (stream, pk0, 0%nat) [] with
  | None => Undef
  | Some m => if server_num then freq_op1 order c T max_inp m s
              else freq_op0 c T max_inp m total_inputs s
  end.
