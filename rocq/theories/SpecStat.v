(** * Specification vocabulary for VAR, STDDEV and LINREG *)
From Coq Require Import ZArith List Bool.
From Verif Require Import Words Constants Share Net SpecNet Circuit Snip SpecSnip ServerOps SpecServer.
Import ListNotations.
Open Scope Z_scope.

(** ** What the clients send *)

(** Words of 8 bytes, least significant byte first. *)
Definition words (l : list Z) : list Z := concat (map (le_bytes 8) l).
Definition packet_wire (x : ClientPacket) : list Z :=
  words (MulShares x ++ [f0_s x; g0_s x; h0_s x] ++ h_points x ++
         [shareA (triple_share x); shareB (triple_share x); shareC (triple_share x)]).
Definition var_wire (s : list Z * (Z * Z * ClientPacket)) : list Z :=
  let '(pk, (v, v2, pkt)) := s in pk ++ words [v; v2] ++ packet_wire pkt.
(** [y] alone is sent with the most significant byte first. *)
Definition linreg_wire (s : list Z * (linreg_vals * ClientPacket)) : list Z :=
  let '(pk, ((x, y, x2, xy), pkt)) := s in
  pk ++ words x ++ rev (le_bytes 8 y) ++ words x2 ++ words xy ++ packet_wire pkt.
(** The degree precedes the records of LINREG. *)
Definition degree_wire (degree : nat) : list Z := rev (le_bytes 4 (Z.of_nat degree)) ++ [0; 0; 0; 0].

(** Contents of a record: words, and arrays of the right lengths. *)
Definition var_content (v : Z * Z * ClientPacket) : Prop :=
  let '(v, v2, pkt) := v in word v /\ word v2 /\ packet_ok (NumMulGates CheckVar) pkt.
Definition linreg_shape (degree : nat) (v : linreg_vals) : Prop :=
  let '(x, y, x2, xy) := v in
  length x = num_x degree /\ length x2 = num_quad degree /\ length xy = num_x degree /\
  Forall word x /\ word y /\ Forall word x2 /\ Forall word xy.
Definition linreg_content (degree : nat) (v : linreg_vals * ClientPacket) : Prop :=
  linreg_shape degree (fst v) /\ packet_ok (NumMulGates (CheckLinReg degree)) (snd v).

(** Sizes of the records, in bytes. *)
Definition packet_size (NMul : nat) : nat :=
  8 * (NMul + 6 + match NextPowerOfTwo (Z.of_nat NMul) with Some N => Z.to_nat N | None => 0 end).
Definition var_size : nat := 48 + packet_size (NumMulGates CheckVar).
Definition linreg_size (degree : nat) : nat :=
  32 + 8 * num_fields degree + packet_size (NumMulGates (CheckLinReg degree)).

(** A server expecting [total] records gets the submissions [subs] from [stream]:
    either all [total] of them, or fewer because the client goes away, possibly
    within a record. *)
Definition arrives_cut {V} (enc : list Z * V -> list Z) (size total : nat) (stream : list Z)
  (subs : list (list Z * V)) : Prop :=
  exists rest, stream = wire enc subs ++ rest /\
    (total = length subs \/ (length subs <= total)%nat /\ (length rest < size)%nat) /\
    pks_ok subs /\ Z.of_nat (length subs) < two32.

(** ** What the servers accept *)
Definition var_fits (num_bits : nat) (v : Z * Z * ClientPacket) : bool :=
  let '(v, v2, _) := v in fits num_bits v && fits (2 * num_bits) v2.
Definition linreg_fits (num_bits : nat) (v : linreg_vals * ClientPacket) : bool :=
  let '((x, y, x2, xy), _) := v in
  forallb (fits num_bits) x && fits num_bits y &&
  forallb (fits (2 * num_bits)) x2 && forallb (fits (2 * num_bits)) xy.

(** The values shared by a submission, in the order of the inputs of the circuit:
    for VAR the value and its alleged square; for LINREG x, y, the alleged
    products of the x's and the alleged products of y with the x's. *)
Definition var_opened (a b : Z * Z * ClientPacket) : list Z :=
  let '(v, v2, _) := a in let '(v', v2', _) := b in [Z.lxor v v'; Z.lxor v2 v2'].
Definition linreg_opened (a b : linreg_vals * ClientPacket) : list Z :=
  map2 Z.lxor (linreg_row (fst a)) (linreg_row (fst b)).
Definition linreg_inputs (x : list Z) (y : Z) (x2 xy : list Z) : list Z := x ++ y :: x2 ++ xy.

(** The verdict on values [vals] with the packets [p0], [p1], using the challenge
    point [r] and the coefficients from [pos] on.  (It is the same for all ways of
    splitting the values between the servers.) *)
Definition judged (c : circuit) (r : Z) (K : nat -> Z) (pos : nat) (vals : list Z)
  (p0 p1 : ClientPacket) (b : bool) : Prop :=
  verdict c r K pos (p0, vals) (p1, map (fun _ => 0) vals) b.

(** [ok] is the outcome of validation for the identities in [L], each judged on its
    own values and with coefficients of its own, those from [pos pk] on. *)
Definition validated {V} (c : circuit) (r : Z) (K : nat -> Z) (start : nat) (fits : V -> bool)
  (opened : V -> V -> list Z) (packet : V -> ClientPacket) (subs0 subs1 : list (list Z * V))
  (L : list (list Z)) (ok : list Z -> bool) (pos : list Z -> nat) : Prop :=
  let w := S (length (result_zero c)) in
  (forall pk a b, first_sub fits subs0 pk = Some a -> first_sub fits subs1 pk = Some b ->
     judged c r K (pos pk) (opened a b) (packet a) (packet b) (ok pk)) /\
  (forall pk pk', In pk L -> In pk' L -> pk <> pk' ->
     (pos pk + w <= pos pk' \/ pos pk' + w <= pos pk)%nat) /\
  (forall pk, In pk L -> (start <= pos pk)%nat).

(** The sum over the identities in [L] of the [j]-th shared value. *)
Definition field_sum {V} (fits : V -> bool) (opened : V -> V -> list Z) (subs0 subs1 : list (list Z * V))
  (L : list (list Z)) (j : nat) : Z :=
  zsum (map (fun pk => nth j (combined fits opened [] subs0 subs1 pk) 0) L).

(** The answer of LINREG, from the number of accepted records and the sum of each
    field: (n, sums of x, sums of the products of the x's) and (sum of y, sums of
    the products of y with the x's). *)
Definition moments (degree count : nat) (sum : nat -> Z) : list Z * list Z :=
  (Z.of_nat count :: map sum (seq 0 (num_x degree)) ++ map sum (seq degree (num_quad degree)),
   sum (num_x degree) :: map sum (seq (degree + num_quad degree) (num_x degree))).

(** All products x_i * x_j, i <= j, in the order x0x0, x0x1, ..., x1x1, ... *)
Fixpoint pairwise (xs : list Z) : list Z :=
  match xs with
  | [] => []
  | x :: xs' => map (fun z => x * z) xs ++ pairwise xs'
  end.
(** The true fields of a client holding (x, y). *)
Definition linreg_fields (v : list Z * Z) : list Z :=
  linreg_inputs (fst v) (snd v) (pairwise (fst v)) (map (fun x => x * snd v) (fst v)).
