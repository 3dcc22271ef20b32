(** * The client: /repo/client.cpp

    The client process simulates [numreqs] clients.  For each it draws a private
    value and shares of it, and an identity; it then sends the records to the two
    servers (in batches, [CLIENT_BATCH] is true).  [DEBUG_INVALID] is false: the
    functions [*_invalid] are in DebugOps.v.  Timing and printing are not modelled
    except the answer printed for comparison. *)
From Coq Require Import ZArith List Bool.
From Verif Require Import Words Constants Share Proc Net Poly Circuit Snip ServerOps.
Import ListNotations.
Open Scope Z_scope.

(** ** [emp::PRG]

    The generator produces a sequence of 16-byte blocks (AES in counter mode); its
    state is the number of blocks used.  [random_data(buf, n)] takes as many whole
    blocks as needed. *)
Definition prg := nat -> list Z.
Definition blocks (n : nat) : nat := ((n + 15) / 16)%nat.
Definition random_data (g : prg) (pos n : nat) : list Z :=
  firstn n (concat (map g (seq pos (blocks n)))).
(** [random_data(&x, sizeof(uint64_t))] *)
Definition random_u64 (g : prg) (pos : nat) : Z := le_val (random_data g pos 8).
(** [random_data(array, n * sizeof(uint64_t))] *)
Definition random_words (g : prg) (pos n : nat) : list Z := map le_val (chunks n 8 (random_data g pos (8 * n))).
(** [random_bool(array, n)]: [random_data] of n bytes, of which the low bits. *)
Definition random_bool (g : prg) (pos n : nat) : list bool := map Z.odd (random_data g pos n).
Definition random_bool1 (g : prg) (pos : nat) : bool := nth 0 (random_bool g pos 1) false.

(** ** Identities, /repo/client.cpp:48-59 *)

(** Lower case hexadecimal digit. *)
Definition hex_digit (d : Z) : Z := if d <? 10 then 48 + d else 87 + d.
(** [ss << std::hex << w]: no leading zeros ("0" for zero); at most 16 digits. *)
Fixpoint hex_loop (fuel : nat) (w : Z) (acc : list Z) : list Z :=
  match fuel with
  | O => acc
  | S f => if w <? 16 then hex_digit w :: acc else hex_loop f (w / 16) (hex_digit (w mod 16) :: acc)
  end.
Definition to_hex (w : Z) : list Z := hex_loop 16 w [].
(** [std::setfill('0') << std::setw(n)] *)
Definition setw0 (n : nat) (s : list Z) : list Z := repeat 48 (n - length s) ++ s.
(** [key]: the block, as two little endian words. *)
Definition pub_key_to_hex (b : list Z) : list Z :=
  setw0 16 (to_hex (le_val (firstn 8 b))) ++ setw0 16 (to_hex (le_val (skipn 8 b))).
(** [make_pk(emp::PRG prg)]: the generator is passed by value, so the caller's state
    does not advance. *)
Definition make_pk (g : prg) (pos : nat) : list Z := pub_key_to_hex (g pos).

(** ** Requests *)

(** What is made for one simulated client: identity, the two servers' shares, and
    the private value. *)
Record crec (V W : Type) := mkC { c_pk : list Z; c_0 : V; c_1 : V; c_real : W }.
Arguments mkC {V W}. Arguments c_pk {V W}. Arguments c_0 {V W}. Arguments c_1 {V W}. Arguments c_real {V W}.

(** [for (i = 0; i < numreqs; i++)]; [one] makes one request from the generator's
    position. *)
Fixpoint requests {R} (one : nat -> R * nat) (n pos : nat) : list R * nat :=
  match n with
  | O => ([], pos)
  | S n' =>
      let (r, pos1) := one pos in
      let (l, pos2) := requests one n' pos1 in
      (r :: l, pos2)
  end.

(** The submissions for each server. *)
Definition subs0 {V W} (l : list (crec V W)) : list (list Z * V) := map (fun r => (c_pk r, c_0 r)) l.
Definition subs1 {V W} (l : list (crec V W)) : list (list Z * V) := map (fun r => (c_pk r, c_1 r)) l.

(** /repo/client.cpp:114-129.  Result: the record and the generator's position. *)
Definition bit_request (g : prg) (pos : nat) : crec bool bool * nat :=
  let real_val := random_bool1 g pos in
  let share0 := random_bool1 g (pos + 1) in
  let share1 := xorb share0 real_val in
  (mkC (make_pk g (pos + 2)) share0 share1 real_val, (pos + 2)%nat).
(** [struct BitShare] as sent at lines 139-141. *)
Definition BitShare_bytes (s : list Z * bool) : list Z := fst s ++ [b2z (snd s)].
(** [ans], an [unsigned int]. *)
Definition bit_ans (l : list (crec bool bool)) : Z :=
  fold_left (fun ans r => u32 (ans + b2z (c_real r))) l 0.

(** /repo/client.cpp:242-259; [max_int = 1ULL << num_bits]. *)
Definition int_request (max_int : Z) (g : prg) (pos : nat) : crec Z Z * nat :=
  let real_val := random_u64 g pos mod max_int in
  let share0 := random_u64 g (pos + 1) mod max_int in
  let share1 := Z.lxor share0 real_val in
  (mkC (make_pk g (pos + 2)) share0 share1 real_val, (pos + 2)%nat).
(** [struct IntShare] *)
Definition IntShare_bytes (s : list Z * Z) : list Z := fst s ++ le_bytes 8 (snd s).
Definition int_ans (l : list (crec Z Z)) : Z := fold_left (fun ans r => u64 (ans + c_real r)) l 0.

(** /repo/client.cpp:378-404; [is_and]: protocol "ANDOP", otherwise "OROP".  The
    neutral value is encoded by 0, the other by a random word. *)
Definition xor_request (is_and : bool) (g : prg) (pos : nat) : crec Z bool * nat :=
  let value := random_bool1 g pos in
  let neutral := if is_and then value else negb value in
  let encoded := if neutral then 0 else random_u64 g (pos + 1) in
  let pos1 := if neutral then (pos + 1)%nat else (pos + 2)%nat in
  let share0 := random_u64 g pos1 in
  let share1 := Z.lxor share0 encoded in
  (mkC (make_pk g (pos1 + 1)) share0 share1 value, (pos1 + 1)%nat).
(** [ans] starts with true for AND and false for OR (lines 431-437). *)
Definition xor_ans (is_and : bool) (l : list (crec Z bool)) : bool :=
  fold_left (fun ans r => if is_and then ans && c_real r else ans || c_real r) l is_and.

(** /repo/client.cpp:559-593.  [B] is an [unsigned int]; the loops assume
    [B + 1 < 2^32]. *)
Definition max_request (is_max : bool) (B : nat) (g : prg) (pos : nat) : crec (list Z) nat * nat :=
  let n := (B + 1)%nat in
  let value := Z.to_nat (random_u64 g pos mod Z.of_nat n) in
  let or_encoded := random_words g (pos + 1) n in
  let share0 := random_words g (pos + 1 + blocks (8 * n)) n in
  let v := if is_max then value else (B - value)%nat in
  let enc := map (fun j => if (v <? j)%nat then 0 else nth j or_encoded 0) (seq 0 n) in
  let pos' := (pos + 1 + 2 * blocks (8 * n))%nat in
  (mkC (make_pk g pos') share0 (map2 Z.lxor share0 enc) value, pos').
(** [ans] starts with 0 for MAX and B for MIN (lines 628-634). *)
Definition max_ans (is_max : bool) (B : nat) (l : list (crec (list Z) nat)) : nat :=
  fold_left (fun ans r => if is_max then (if (ans <? c_real r)%nat then c_real r else ans)
                          else (if (c_real r <? ans)%nat then c_real r else ans))
            l (if is_max then 0%nat else B).
(** /repo/client.cpp:61-68 [send_maxshare] *)
Definition maxshare_bytes (s : list Z * list Z) : list Z := fst s ++ concat (map (le_bytes 8) (snd s)).

(** /repo/client.cpp:1421-1442. *)
Definition flip (v : nat) (l : list bool) : list bool := upd v (negb (nth v l false)) l.
Definition freq_request (max_int : nat) (g : prg) (pos : nat) : crec (list bool) nat * nat :=
  let real_val := Z.to_nat (random_u64 g pos mod Z.of_nat max_int) in
  let arr0 := random_bool g (pos + 1) max_int in
  let pos' := (pos + 1 + blocks max_int)%nat in
  (mkC (make_pk g pos') arr0 (flip real_val arr0) real_val, pos').
(** /repo/client.cpp:70-75 [send_freqshare] *)
Definition freqshare_bytes (s : list Z * list bool) : list Z := fst s ++ pack_bools (snd s).
(** [counts[real_val] += 1] *)
Definition freq_counts (max_int : nat) (l : list (crec (list bool) nat)) : list Z :=
  fold_left (fun cs r => upd (c_real r) (u64 (nth (c_real r) cs 0 + 1)) cs) l (repeat 0 max_int).

(** ** Requests with a proof of validity

    State: position of the generator, position [s] on the tape [T] of FLINT's
    generator, and the root tables made at the first call of [share_polynomials]. *)
Fixpoint requests_opt {S R} (one : S -> option (R * S)) (n : nat) (s : S) : option (list R * S) :=
  match n with
  | O => Some ([], s)
  | Datatypes.S n' =>
      match one s with
      | None => None
      | Some (r, s1) =>
          match requests_opt one n' s1 with
          | None => None
          | Some (l, s2) => Some (r :: l, s2)
          end
      end
  end.
Definition cstate := (nat * nat * option root_tables)%type.

(** [share_polynomials] with its lazily made tables (/repo/client.h:14-95). *)
Definition make_packets (T : nat -> Z) (s : nat) (tabs : option root_tables) (c : circuit) (inp : list Z)
  : option (ClientPacket * ClientPacket * nat * option root_tables) :=
  match NextPowerOfTwo (Z.of_nat (NumMulGates c)) with
  | None => None
  | Some N =>
      let t := client_roots tabs (Z.to_nat N) in
      match share_polynomials t c (eval_wires c inp) T s with
      | None => None
      | Some (p0, p1, s') => Some (p0, p1, s', Some t)
      end
  end.

(** /repo/client.cpp:766-804.  [fmpz_set_si] of a [uint64_t] is exact below 2^63. *)
Definition var_request (max_int : Z) (g : prg) (T : nat -> Z) (st : cstate)
  : option (crec (Z * Z * ClientPacket) Z * cstate) :=
  let '(pos, s, tabs) := st in
  let real_val := random_u64 g pos mod max_int in
  let share0 := random_u64 g (pos + 1) mod max_int in
  let share1 := Z.lxor share0 real_val in
  let squared := u64 (real_val * real_val) in
  let share0_2 := random_u64 g (pos + 2) mod u64 (max_int * max_int) in
  let share1_2 := Z.lxor share0_2 squared in
  match make_packets T s tabs CheckVar [real_val; squared] with
  | None => None
  | Some (p0, p1, s', tabs') =>
      Some (mkC (make_pk g (pos + 3)) (share0, share0_2, p0) (share1, share1_2, p1) real_val,
            ((pos + 3)%nat, s', tabs'))
  end.
(** [struct VarShare] and the packet; [None] if FLINT rejects an entry. *)
Definition VarShare_bytes (s : list Z * (Z * Z * ClientPacket)) : option (list Z) :=
  let '(v, v2, pkt) := snd s in
  option_map (app (fst s ++ le_bytes 8 v ++ le_bytes 8 v2))
             (sent_bytes (send_ClientPacket pkt (NumMulGates CheckVar))).
(** [sum] and [sumsquared] *)
Definition var_ans (l : list (crec (Z * Z * ClientPacket) Z)) : Z * Z :=
  fold_left (fun a r => (u64 (fst a + c_real r), u64 (snd a + u64 (c_real r * c_real r)))) l (0, 0).

(** /repo/client.cpp:1043-1127.  The private value is (x, y). *)
Definition linreg_request (degree : nat) (max_int : Z) (g : prg) (T : nat -> Z) (st : cstate)
  : option (crec (linreg_vals * ClientPacket) (list Z * Z) * cstate) :=
  let '(pos, s, tabs) := st in
  let nx := num_x degree in
  let nq := num_quad degree in
  let bx := blocks (8 * nx) in
  let bq := blocks (8 * nq) in
  let sq := u64 (max_int * max_int) in
  let x_real := map (fun w => w mod max_int) (random_words g pos nx) in
  let x_share0 := map (fun w => w mod max_int) (random_words g (pos + bx) nx) in
  let x2_share0 := map (fun w => w mod sq) (random_words g (pos + 2 * bx) nq) in
  let xy_share0 := map (fun w => w mod sq) (random_words g (pos + 2 * bx + bq) nx) in
  let y_real := random_u64 g (pos + 3 * bx + bq) mod max_int in
  let y_share0 := random_u64 g (pos + 3 * bx + bq + 1) mod max_int in
  let x2_real := map (fun jk => u64 (nth (fst jk) x_real 0 * nth (snd jk) x_real 0)) (linreg_pairs nx) in
  let xy_real := map (fun x => u64 (x * y_real)) x_real in
  let pos' := (pos + 3 * bx + bq + 2)%nat in
  match make_packets T s tabs (CheckLinReg degree) (x_real ++ y_real :: x2_real ++ xy_real) with
  | None => None
  | Some (p0, p1, s', tabs') =>
      Some (mkC (make_pk g pos')
                ((x_share0, y_share0, x2_share0, xy_share0), p0)
                ((map2 Z.lxor x_share0 x_real, Z.lxor y_share0 y_real,
                  map2 Z.lxor x2_share0 x2_real, map2 Z.lxor xy_share0 xy_real), p1)
                (x_real, y_real),
            (pos', s', tabs'))
  end.
(** /repo/client.cpp:77-91 [send_linregshare], then the packet. *)
Definition linregshare_bytes (degree : nat) (s : list Z * (linreg_vals * ClientPacket)) : option (list Z) :=
  let '((x, y, x2, xy), pkt) := snd s in
  option_map (app (fst s))
    (sent_bytes (send_uint64_batch x ;;; send_uint64 y ;;; send_uint64_batch x2 ;;; send_uint64_batch xy ;;;
                 send_ClientPacket pkt (NumMulGates (CheckLinReg degree)))).

(** The records of all requests, one after the other, as sent to one server. *)
Fixpoint wire_opt {V} (enc : list Z * V -> option (list Z)) (subs : list (list Z * V)) : option (list Z) :=
  match subs with
  | [] => Some []
  | s :: subs' =>
      match enc s, wire_opt enc subs' with
      | Some b, Some bs => Some (b ++ bs)
      | _, _ => None
      end
  end.
