(** * Debugging runs of VAR, STDDEV and LINREG: /repo/client.cpp:880-1010 and
    /repo/client.cpp:1234-1400 (with [DEBUG_INVALID] set, see DebugOps.v)

    Requests 0-9, 11 and 13 are spoiled, each in a way of its own, and marked as
    invalid. *)
From Coq Require Import ZArith List Bool.
From Verif Require Import Words Constants Share Proc Net Poly Circuit Snip ServerOps ClientOps DebugOps.
Import ListNotations.
Open Scope Z_scope.

(** [if (i <= 9 or i == 11 or i == 13)] (lines 938 and 1349) *)
Definition marked12 (i : nat) : bool := (i <=? 9)%nat || (i =? 11)%nat || (i =? 13)%nat.

(** [fmpz_add_si(x, x, 1)] on a field of a packet (lines 980-987 and 1339-1346); the
    sum is not reduced. *)
Definition add_h (q : ClientPacket) : ClientPacket :=
  mkPacket (MulShares q) (f0_s q) (g0_s q) (h0_s q) (upd 0 (nth 0 (h_points q) 0 + 1) (h_points q)) (triple_share q).
Definition add_f0 (q : ClientPacket) : ClientPacket :=
  mkPacket (MulShares q) (f0_s q + 1) (g0_s q) (h0_s q) (h_points q) (triple_share q).
Definition add_mul (q : ClientPacket) : ClientPacket :=
  mkPacket (upd 0 (nth 0 (MulShares q) 0 + 1) (MulShares q)) (f0_s q) (g0_s q) (h0_s q) (h_points q) (triple_share q).
Definition add_A (q : ClientPacket) : ClientPacket :=
  mkPacket (MulShares q) (f0_s q) (g0_s q) (h0_s q) (h_points q)
    (mkBTS (shareA (triple_share q) + 1) (shareB (triple_share q)) (shareC (triple_share q))).
Definition spoil0 (i : nat) (q : ClientPacket) : ClientPacket :=
  if (i =? 5)%nat then add_h q else if (i =? 7)%nat then add_mul q else q.
Definition spoil1 (i : nat) (q : ClientPacket) : ClientPacket :=
  if (i =? 6)%nat then add_f0 q else if (i =? 8)%nat then add_A q else q.

(** /repo/client.cpp:921-992: request [i] of [n].  The blocks of the identities are
    drawn first, then all values, then the first shares of the values, then those of
    the squares.  The private data are the value and [squared].  [fmpz_set_si] of a
    [uint64_t] is exact below 2^63. *)
Definition var_invalid_request (max_int : Z) (g : prg) (T : nat -> Z) (stale : nat -> list Z) (n : nat) (st : cstate)
  : option (drec (Z * Z * ClientPacket) (Z * Z) * cstate) :=
  let '(i, s, tabs) := st in
  let b := blocks (8 * n) in
  let sq := u64 (max_int * max_int) in
  let r := nth i (random_words g n n) 0 mod max_int in
  let real_val := if (i =? 0)%nat then u64 (r + max_int) else r in
  let s0 := nth i (random_words g (n + b) n) 0 mod max_int in
  let share0 := if (i =? 1)%nat then u64 (s0 + max_int) else s0 in
  let share1 := Z.lxor real_val share0 in
  let product := u64 (real_val * real_val) in
  let squared := if ((i =? 3) || (i =? 4))%nat then u64 (product + 10) mod sq else product in
  let w := nth i (random_words g (n + b + b) n) 0 in
  let share0_2 := if (i =? 2)%nat then w else w mod sq in
  let share1_2 := Z.lxor squared share0_2 in
  let pk := pub_key_to_hex (g i) in
  let inp1 := if (i =? 3)%nat then u64 (product + 10) mod max_int else product in
  match make_packets T s tabs CheckVar [real_val; inp1] with
  | None => None
  | Some (p0, p1, s', tabs') =>
      Some (mkD pk (key0 9 11 stale i pk) (key1 13 stale i pk)
                (share0, share0_2, spoil0 i p0) (share1, share1_2, spoil1 i p1)
                (real_val, squared) (negb (marked12 i)),
            (S i, s', tabs'))
  end.
(** The requests; [s] is the position on FLINT's tape. *)
Definition var_op_invalid (max_int : Z) (g : prg) (T : nat -> Z) (s : nat) (stale : nat -> list Z) (n : nat)
  : option (list (drec (Z * Z * ClientPacket) (Z * Z)) * cstate) :=
  requests_opt (var_invalid_request max_int g T stale n) n (0%nat, s, None).
(** [numvalid], [sum] and [sumsquared], from which the printed answer is made (lines
    994-1004) *)
Definition var_invalid_ans (l : list (crec (Z * Z * ClientPacket) (Z * Z))) : nat * Z * Z :=
  (length l, fold_left (fun a r => u64 (a + fst (c_real r))) l 0, fold_left (fun a r => u64 (a + snd (c_real r))) l 0).

(** /repo/client.cpp:1266-1361: request [i], with one x.  Each of the six draws takes a
    block; [make_pk] then works on a copy of the generator (ClientOps.v).  The private
    data are x, y, [x2_real] and [xy_real]. *)
Definition linreg_invalid_request (max_int : Z) (g : prg) (T : nat -> Z) (stale : nat -> list Z) (st : cstate)
  : option (drec (linreg_vals * ClientPacket) (list Z) * cstate) :=
  let '(i, s, tabs) := st in
  let pos := (6 * i)%nat in
  let sq := u64 (max_int * max_int) in
  let r := random_u64 g pos mod max_int in
  let x_real := if (i =? 0)%nat then u64 (r + max_int) else r in
  let x_share0 := random_u64 g (pos + 1) mod max_int in
  let y_real := random_u64 g (pos + 2) mod max_int in
  let y0 := random_u64 g (pos + 3) in
  let y_share0 := if (i =? 1)%nat then y0 else y0 mod max_int in
  let x2_product := u64 (x_real * x_real) in
  let x2_real := if (i =? 3)%nat then u64 (x2_product + 10) mod sq else x2_product in
  let x20 := random_u64 g (pos + 4) in
  let x2_share0 := if (i =? 2)%nat then x20 else x20 mod sq in
  let xy_product := u64 (x_real * y_real) in
  let xy_real := if (i =? 4)%nat then u64 (xy_product + 10) mod sq else xy_product in
  let xy_share0 := random_u64 g (pos + 5) mod sq in
  let pk := make_pk g (pos + 6) in
  match make_packets T s tabs (CheckLinReg 2) [x_real; y_real; x2_real; xy_product] with
  | None => None
  | Some (p0, p1, s', tabs') =>
      Some (mkD pk (key0 9 11 stale i pk) (key1 13 stale i pk)
                (([x_share0], y_share0, [x2_share0], [xy_share0]), spoil0 i p0)
                (([Z.lxor x_share0 x_real], Z.lxor y_share0 y_real, [Z.lxor x2_share0 x2_real],
                  [Z.lxor xy_share0 xy_real]), spoil1 i p1)
                [x_real; y_real; x2_real; xy_real] (negb (marked12 i)),
            (S i, s', tabs'))
  end.
Definition lin_reg_invalid (max_int : Z) (g : prg) (T : nat -> Z) (s : nat) (stale : nat -> list Z) (n : nat)
  : option (list (drec (linreg_vals * ClientPacket) (list Z)) * cstate) :=
  requests_opt (linreg_invalid_request max_int g T stale) n (0%nat, s, None).
(** [x_accum] and [y_accum] (lines 1352-1356) *)
Definition linreg_invalid_ans (l : list (crec (linreg_vals * ClientPacket) (list Z))) : list Z * list Z :=
  let total j := fold_left (fun a r => u64 (a + nth j (c_real r) 0)) l 0 in
  ([fold_left (fun a _ => u64 (a + 1)) l 0; total 0%nat; total 2%nat], [total 1%nat; total 3%nat]).
