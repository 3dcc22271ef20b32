(** * Specification vocabulary for the proofs of validity *)
From Coq Require Import ZArith List Bool.
From Verif Require Import Words Constants Share Proc RelFacts Net Poly SpecPoly Circuit SpecCircuit Snip.
Import ListNotations.
Open Scope Z_scope.

(** The cached precomputation is the one for the current challenge point, and the
    root tables are those of the recorded size. *)
Definition pre_current (x : Z) (e : nat * CheckerPreComp) : Prop :=
  snd e = new_CheckerPreComp (init_roots (fst e)) (fst e) x.
Definition snip_ok (st : snip_state) : Prop :=
  in_field p (randomX st) /\
  Forall (pre_current (randomX st)) (precomp_store st) /\
  (num_roots st <> 0%nat -> tables st = init_roots (num_roots st)).

(** Two servers in agreement: same challenge point, same position in the common
    random coefficients. *)
Definition synced (st0 st1 : snip_state) : Prop :=
  snip_ok st0 /\ snip_ok st1 /\
  randomX st0 = randomX st1 /\ seed_pos st0 = seed_pos st1 /\ randx_uses st0 = randx_uses st1.

(** A submission as held by one server: packet and shares of the circuit inputs,
    with the array lengths that [recv_ClientPacket] produces; contents arbitrary. *)
Definition submission := (ClientPacket * list Z)%type.
Definition shaped (c : circuit) (x : submission) : Prop :=
  length (MulShares (fst x)) = NumMulGates c /\
  NextPowerOfTwo (Z.of_nat (NumMulGates c)) = Some (Z.of_nat (length (h_points (fst x)))) /\
  length (snd x) = NumInputs c.

Definition items (c : circuit) (xs : list submission) : list (circuit * ClientPacket * list Z) :=
  map (fun x => (c, fst x, snd x)) xs.

(** [verdict c r K pos x0 x1 b]: whenever the two servers are in agreement, with
    challenge point [r], and have used [pos] of the common coefficients [K],
    validating the single submission ([x0] at server 0, [x1] at server 1) gives
    the verdict [b] at both. *)
Definition verdict (c : circuit) (r : Z) (K : nat -> Z) (pos : nat) (x0 x1 : submission) (b : bool) : Prop :=
  forall st0 st1, synced st0 st1 -> randomX st0 = r -> seed_pos st0 = pos ->
  both (validate_snips false K st0 (items c [x0])) (validate_snips true K st1 (items c [x1]))
       (fun a a' => fst a = [b] /\ fst a' = [b]).

(** The values shared in the inputs of a submission. *)
Definition opened (x0 x1 : submission) : list Z :=
  map2 (fun a b => (a + b) mod p) (snd x0) (snd x1).

(** An honest submission: inputs shared additively, packets from
    [share_polynomials] for the evaluated circuit, with any client randomness. *)
Definition honest (c : circuit) (inps : list Z) (x0 x1 : submission) : Prop :=
  length inps = NumInputs c /\
  shares_of inps (snd x0) (snd x1) /\
  exists N T s s', NextPowerOfTwo (Z.of_nat (NumMulGates c)) = Some (Z.of_nat N) /\
    share_polynomials (client_roots None N) c (eval_wires c inps) T s = Some (fst x0, fst x1, s').

(** [K] and [K'] agree except at position [i], where they differ modulo p. *)
Definition differ_only_at (i : nat) (K K' : nat -> Z) : Prop :=
  (forall j, j <> i -> K j = K' j) /\ K i mod p <> K' i mod p.

(** The values (D, E) both servers reconstruct from the exchanged [CorShare]s of
    one submission, at challenge point [r]. *)
Definition opening (c : circuit) (r : Z) (x0 x1 : submission) (cor : Cor) : Prop :=
  exists N ck0 ck1, NextPowerOfTwo (Z.of_nat (NumMulGates c)) = Some (Z.of_nat N) /\
    let pre := new_CheckerPreComp (init_roots N) N r in
    new_Checker c false (fst x0) pre (snd x0) = Some ck0 /\
    new_Checker c true (fst x1) pre (snd x1) = Some ck1 /\
    cor = Cor_of (CorShareFn ck0) (CorShareFn ck1).

(** The submission with another share of a multiplication triple. *)
Definition with_triple (x : submission) (t : BeaverTripleShare) : submission :=
  (mkPacket (MulShares (fst x)) (f0_s (fst x)) (g0_s (fst x)) (h0_s (fst x)) (h_points (fst x)) t, snd x).

(** The five draws of the client for the triple: A, B and the three first shares. *)
Record triple_draws := mkDraws { dA : Z; dB : Z; drA : Z; drB : Z; drC : Z }.
Definition draws_in_field (q : triple_draws) : Prop :=
  in_field p (dA q) /\ in_field p (dB q) /\ in_field p (drA q) /\ in_field p (drB q) /\ in_field p (drC q).
Definition triple_of (q : triple_draws) : BeaverTripleShare * BeaverTripleShare :=
  BeaverTripleShares (drA q) (drB q) (drC q) (NewBeaverTriple (dA q) (dB q)).

(** A history of validations: at the top of each iteration of the main loop the
    challenge point may be refreshed ([h_draw] is server 1's draw for this), then
    a batch is validated.  The result lists, per batch, the point in use and the
    validity bits. *)
Record batch := mkBatch { h_draw : Z; h_ckt : circuit; h_xs0 : list submission; h_xs1 : list submission }.
Fixpoint session (server_num : bool) (K : nat -> Z) (bs : list batch) (st : snip_state)
  : proc (list (Z * list bool) * snip_state) :=
  match bs with
  | [] => Ret ([], st)
  | b :: bs' =>
      st1 <- refresh_randomX server_num (h_draw b) st ;;
      r <- validate_snips server_num K st1
             (items (h_ckt b) (if server_num then h_xs1 b else h_xs0 b)) ;;
      rest <- session server_num K bs' (snd r) ;;
      Ret ((randomX st1, fst r) :: fst rest, snd rest)
  end.
Definition batch_ok (b : batch) : Prop :=
  (NumMulGates (h_ckt b) < 2 ^ 18)%nat /\
  h_xs0 b <> [] /\ length (h_xs0 b) = length (h_xs1 b) /\ Z.of_nat (length (h_xs0 b)) < 2 ^ 32 /\
  Forall (shaped (h_ckt b)) (h_xs0 b) /\ Forall (shaped (h_ckt b)) (h_xs1 b).

(** Starting with point [x], already used for [u] proofs: each batch either uses a
    newly drawn point or the previous one, and never one that was used for more
    than a million proofs before; each bit is the verdict on the single
    submission with the point and coefficients then current. *)
Fixpoint points_ok (K : nat -> Z) (x u : Z) (pos : nat) (bs : list batch) (tr : list (Z * list bool)) : Prop :=
  match bs, tr with
  | [], [] => True
  | b :: bs', (y, vs) :: tr' =>
      let n := length (h_xs0 b) in
      let w := S (length (result_zero (h_ckt b))) in
      exists u', (u' = 0 /\ y = h_draw b mod p \/ u' = u /\ y = x) /\ u' <= 1000000 /\
        length vs = n /\
        (forall i x0 x1, nth_error (h_xs0 b) i = Some x0 -> nth_error (h_xs1 b) i = Some x1 ->
           verdict (h_ckt b) y K (pos + i * w) x0 x1 (nth i vs false)) /\
        points_ok K y (u' + Z.of_nat n) (pos + n * w) bs' tr'
  | _, _ => False
  end.
