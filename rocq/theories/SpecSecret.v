(** * Vocabulary: what the record sent to one server tells about the private value *)
From Coq Require Import ZArith List Bool.
From Verif Require Import Words Constants Share Net Circuit ServerOps ClientOps.
Import ListNotations.
Open Scope Z_scope.

(** The generator is idealised as arbitrary blocks of 16 bytes. *)
Definition is_blocks (g : prg) : Prop := forall i, length (g i) = 16%nat /\ Forall is_byte (g i).

(** The share for server 0 ([false]) or server 1 ([true]). *)
Definition share_of {V W} (side : bool) (r : crec V W) : V := if side then c_1 r else c_0 r.
(** What that server receives from the clients. *)
Definition seen {V W} (side : bool) (l : list (crec V W)) : list (list Z * V) :=
  map (fun r => (c_pk r, share_of side r)) l.

(** [one] makes a request.  Every private value [v] goes with every share [w] of either
    server: some random blocks make both, and the blocks used before and after the request
    (of which the identity is made) are as they were. *)
Definition independent {V W} (one : prg -> nat -> crec V W * nat) (legal : W -> Prop) (possible : V -> Prop) : Prop :=
  forall g pos side v w, is_blocks g -> legal v -> possible w ->
  exists g', is_blocks g' /\
    (forall i, (i < pos)%nat -> g' i = g i) /\
    (forall i, g' (snd (one g' pos) + i)%nat = g (snd (one g pos) + i)%nat) /\
    c_real (fst (one g' pos)) = v /\ share_of side (fst (one g' pos)) = w.

(** One server's view of a run of [n + 1] requests can have any value of the first client. *)
Definition first_hidden {V W} (one : prg -> nat -> crec V W * nat) (legal : W -> Prop) : Prop :=
  forall g n side v, is_blocks g -> legal v ->
  exists g', is_blocks g' /\
    seen side (fst (requests (one g') (S n) 0)) = seen side (fst (requests (one g) (S n) 0)) /\
    map c_real (fst (requests (one g') (S n) 0)) = v :: tl (map c_real (fst (requests (one g) (S n) 0))).

(** The same request; its private value completed by the value encoded by the shares. *)
Definition with_encoding {V W E} (decode : V -> V -> E) (one : prg -> nat -> crec V W * nat)
  (g : prg) (pos : nat) : crec V (W * E) * nat :=
  let (r, q) := one g pos in (mkC (c_pk r) (c_0 r) (c_1 r) (c_real r, decode (c_0 r) (c_1 r)), q).

(** AND and OR: a private bit and its encoding. *)
Definition xor_legal (is_and : bool) (ve : bool * Z) : Prop :=
  if (if is_and then fst ve else negb (fst ve)) then snd ve = 0 else 0 <= snd ve < two64.
(** MAX and MIN: rows of [B + 1] words; a private value and its encoding. *)
Definition row_ok (B : nat) (w : list Z) : Prop := length w = (B + 1)%nat /\ Forall (fun x => 0 <= x < two64) w.
Definition max_legal (is_max : bool) (B : nat) (ve : nat * list Z) : Prop :=
  (fst ve <= B)%nat /\ row_ok B (snd ve) /\
  forall j, ((if is_max then fst ve else B - fst ve) < j)%nat -> nth j (snd ve) 0 = 0.

(** A packet that can occur for a circuit with [n] multiplications and [N] points. *)
Definition possible_packet (n N : nat) (pkt : ClientPacket) : Prop :=
  let ok x := 0 <= x < Int_Modulus in
  length (MulShares pkt) = n /\ Forall ok (MulShares pkt) /\
  ok (f0_s pkt) /\ ok (g0_s pkt) /\ ok (h0_s pkt) /\
  length (h_points pkt) = N /\ Forall ok (h_points pkt) /\
  ok (shareA (triple_share pkt)) /\ ok (shareB (triple_share pkt)) /\ ok (shareC (triple_share pkt)).

(** The packet for one of the servers. *)
Definition packet_for (side : bool) (x : option (ClientPacket * ClientPacket * nat)) : option ClientPacket :=
  option_map (fun x => let '(p0, p1, _) := x in if side then p1 else p0) x.

(** Draws of [share_polynomials] (from position [s]) that are no masks: f(0), g(0), the
    triple, and whatever is drawn before and after. *)
Definition no_mask (s N n i : nat) : Prop :=
  let u := (s + 5 + N + n)%nat in (i < s + 2 \/ i = u \/ i = u + 1 \/ u + 5 <= i)%nat.

(** As [independent], for requests with a proof: they also draw from FLINT's generator [T]. *)
Definition independent_with_proof {V W} (one : prg -> (nat -> Z) -> cstate -> option (crec V W * cstate))
  (legal : W -> Prop) (possible : V -> Prop) : Prop :=
  forall g T pos s tabs side v w r pos' s' tabs', is_blocks g -> legal v -> possible w ->
  one g T (pos, s, tabs) = Some (r, (pos', s', tabs')) ->
  exists g' T' r', one g' T' (pos, s, tabs) = Some (r', (pos', s', tabs')) /\ is_blocks g' /\
    (forall i, (i < pos \/ pos' <= i)%nat -> g' i = g i) /\ (forall i, (i < s \/ s' <= i)%nat -> T' i = T i) /\
    c_real r' = v /\ share_of side r' = w /\ c_pk r' = c_pk r.

(** Records of VAR and LINREG that can occur. *)
Definition below (b : Z) (l : list Z) : Prop := Forall (fun z => 0 <= z < b) l.
Definition points_of (c : circuit) : nat :=
  match NextPowerOfTwo (Z.of_nat (NumMulGates c)) with Some N => Z.to_nat N | None => 0 end.
Definition possible_var (num_bits : nat) (w : Z * Z * ClientPacket) : Prop :=
  let '(v, v2, pkt) := w in
  0 <= v < 2 ^ Z.of_nat num_bits /\ 0 <= v2 < 2 ^ (2 * Z.of_nat num_bits) /\
  possible_packet (NumMulGates CheckVar) (points_of CheckVar) pkt.
Definition possible_linreg (num_bits degree : nat) (w : linreg_vals * ClientPacket) : Prop :=
  let '((x, y, x2, xy), pkt) := w in
  let nx := (degree - 1)%nat in
  length x = nx /\ length x2 = (nx * (nx + 1) / 2)%nat /\ length xy = nx /\
  below (2 ^ Z.of_nat num_bits) x /\ 0 <= y < 2 ^ Z.of_nat num_bits /\
  below (2 ^ (2 * Z.of_nat num_bits)) x2 /\ below (2 ^ (2 * Z.of_nat num_bits)) xy /\
  possible_packet (NumMulGates (CheckLinReg degree)) (points_of (CheckLinReg degree)) pkt.
Definition legal_linreg (num_bits degree : nat) (v : list Z * Z) : Prop :=
  length (fst v) = (degree - 1)%nat /\ below (2 ^ Z.of_nat num_bits) (fst v) /\ 0 <= snd v < 2 ^ Z.of_nat num_bits.
