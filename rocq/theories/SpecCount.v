(** * Specification vocabulary: counting challenges *)
From Coq Require Import ZArith List Bool.
From Verif Require Import Words Constants Share Proc RelFacts SpecPoly Circuit Snip SpecSnip ServerOps SpecServer SpecStat.
Import ListNotations.
Open Scope Z_scope.

(** A challenge: the point at which the polynomials are compared, and the
    coefficients of the linear combinations. *)
Definition challenge : Type := Z * list Z.

(** The challenges with [n] coefficients. *)
Definition challenges (n : nat) (e : challenge) : Prop :=
  in_field p (fst e) /\ length (snd e) = n /\ Forall (in_field p) (snd e).

(** There are at most [m], exactly [m], things with the property [A]. *)
Definition at_most {D} (m : Z) (A : D -> Prop) : Prop :=
  forall E, NoDup E -> Forall A E -> Z.of_nat (length E) <= m.
Definition exactly {D} (m : Z) (A : D -> Prop) : Prop :=
  exists E, NoDup E /\ (forall d, In d E <-> A d) /\ Z.of_nat (length E) = m.

(** The common sequence [K] continues, from [start] on, with the coefficients [ks]. *)
Definition uses (start : nat) (ks : list Z) (K : nat -> Z) : Prop :=
  forall i, (i < length ks)%nat -> K (start + i)%nat = nth i ks 0.

(** The challenge [e] lets the submission with values [vals] and packets [p0], [p1] through. *)
Definition passes (c : circuit) (vals : list Z) (p0 p1 : ClientPacket) (e : challenge) : Prop :=
  exists K pos, uses pos (snd e) K /\ judged c (fst e) K pos vals p0 p1 true.

(** The number of coefficients spent on one submission. *)
Definition coefficients (c : circuit) : nat := S (length (result_zero c)).

(** What the shared values of an identity ought to satisfy. *)
Definition var_truthful (vals : list Z) : Prop :=
  nth 1 vals 0 mod p = (nth 0 vals 0 * nth 0 vals 0) mod p.
Definition linreg_truthful (degree : nat) (vals : list Z) : Prop :=
  let nx := num_x degree in let nq := num_quad degree in
  let x := firstn nx vals in
  let y := nth nx vals 0 in
  let x2 := firstn nq (skipn (S nx) vals) in
  let xy := skipn (S nx + nq) vals in
  map (fun q => q mod p) x2 = map (fun q => q mod p) (pairwise x) /\
  map (fun q => q mod p) xy = map (fun z => (z * y) mod p) x.

(** All challenges with [n] coefficients, but at most [m], have the property [A]. *)
Definition all_but (m : Z) (n : nat) (A : challenge -> Prop) : Prop :=
  exists B : list challenge, Z.of_nat (length B) <= m /\ forall e, challenges n e -> ~ In e B -> A e.

(** With the challenge [e], whatever else is in the servers' memory and whatever they
    draw, the run of the operation ends with an answer counting only truthful
    identities: it is the answer for some identities [T] among those in [L], all of
    them truthful. *)
Definition var_clean nb order0 order1 total0 total1 stream0 stream1 subs0 subs1 junk0 junk1 L (e : challenge) : Prop :=
  forall K rnd0 rnd1 st0 st1, synced st0 st1 -> randomX st0 = fst e -> uses (seed_pos st0) (snd e) K ->
  both (var_op false order0 nb total0 stream0 junk0 K rnd0 st0) (var_op true order1 nb total1 stream1 junk1 K rnd1 st1)
    (fun a b => fst b = RET_NO_ANS /\ exists T, NoDup T /\ incl T L /\
       (forall pk, In pk T -> var_truthful (combined (var_fits nb) var_opened [] subs0 subs1 pk)) /\
       fst a = outcome (length T) total0
         (length T, field_sum (var_fits nb) var_opened subs0 subs1 T 0 mod p,
          field_sum (var_fits nb) var_opened subs0 subs1 T 1 mod p)).
Definition linreg_clean nb degree order0 order1 total0 total1 stream0 stream1 subs0 subs1 d0 d1 junk0 junk1 garbage0 garbage1
  L (e : challenge) : Prop :=
  forall K rnd0 rnd1 st0 st1, synced st0 st1 -> randomX st0 = fst e -> uses (seed_pos st0) (snd e) K ->
  both (linreg_op false order0 nb total0 (degree_wire degree ++ stream0) d0 junk0 garbage0 K rnd0 st0)
       (linreg_op true order1 nb total1 (degree_wire degree ++ stream1) d1 junk1 garbage1 K rnd1 st1)
    (fun a b => fst b = RET_NO_ANS /\ exists T, NoDup T /\ incl T L /\
       (forall pk, In pk T -> linreg_truthful degree (combined (linreg_fits nb) linreg_opened [] subs0 subs1 pk)) /\
       fst a = outcome (length T) total0
         (moments degree (length T) (fun j => field_sum (linreg_fits nb) linreg_opened subs0 subs1 T j mod p))).
