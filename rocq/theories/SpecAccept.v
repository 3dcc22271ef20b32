(** * Specification vocabulary: submissions with a right proof *)
From Coq Require Import ZArith List Bool.
From Verif Require Import Words Constants Share Proc Poly SpecPoly Circuit Snip SpecSnip RelFacts ServerOps SpecServer SpecStat SpecCount.
Import ListNotations.
Open Scope Z_scope.

(** What two packets share: field by field the sums modulo p. *)
Definition sums (a b : list Z) : list Z := map2 (fun x y => (x + y) mod p) a b.
Definition opened_packet (q0 q1 : ClientPacket) : ClientPacket :=
  mkPacket (sums (MulShares q0) (MulShares q1))
    ((f0_s q0 + f0_s q1) mod p) ((g0_s q0 + g0_s q1) mod p) ((h0_s q0 + h0_s q1) mod p)
    (sums (h_points q0) (h_points q1))
    (mkBTS ((shareA (triple_share q0) + shareA (triple_share q1)) mod p)
           ((shareB (triple_share q0) + shareB (triple_share q1)) mod p)
           ((shareC (triple_share q0) + shareC (triple_share q1)) mod p)).

(** The packets [r0], [r1] are ones the client's code makes for the values [vals], with
    some random numbers. *)
Definition made (c : circuit) (vals : list Z) (r0 r1 : ClientPacket) : Prop :=
  exists N T s s', NextPowerOfTwo (Z.of_nat (NumMulGates c)) = Some (Z.of_nat N) /\
    share_polynomials (client_roots None N) c (eval_wires c (map (fun v => v mod p) vals)) T s = Some (r0, r1, s').

(** The values satisfy the circuit and the packets share what the client's code would share. *)
Definition well_proved (c : circuit) (vals : list Z) (p0 p1 : ClientPacket) : Prop :=
  (Eval c (map (fun v => v mod p) vals) = true) /\
  exists r0 r1, made c vals r0 r1 /\ opened_packet p0 p1 = opened_packet r0 r1.

(** The same of the submissions of identity [pk]. *)
Definition proved_at {V} (c : circuit) (fits : V -> bool) (opened : V -> V -> list Z) (packet : V -> ClientPacket)
  (subs0 subs1 : list (list Z * V)) (pk : list Z) : Prop :=
  match first_sub fits subs0 pk, first_sub fits subs1 pk with
  | Some a, Some b => well_proved c (opened a b) (packet a) (packet b)
  | _, _ => False
  end.

(** With the challenge [e], whatever else is in the servers' memory and whatever they
    draw, the answer is that for exactly the identities [T]. *)
Definition var_exact nb order0 order1 total0 total1 stream0 stream1 subs0 subs1 junk0 junk1 T (e : challenge) : Prop :=
  forall K rnd0 rnd1 st0 st1, synced st0 st1 -> randomX st0 = fst e -> uses (seed_pos st0) (snd e) K ->
  both (var_op false order0 nb total0 stream0 junk0 K rnd0 st0) (var_op true order1 nb total1 stream1 junk1 K rnd1 st1)
    (fun a b => fst b = RET_NO_ANS /\
       fst a = outcome (length T) total0
         (length T, field_sum (var_fits nb) var_opened subs0 subs1 T 0 mod p,
          field_sum (var_fits nb) var_opened subs0 subs1 T 1 mod p)).
Definition linreg_exact nb degree order0 order1 total0 total1 stream0 stream1 subs0 subs1 d0 d1 junk0 junk1 garbage0 garbage1
  T (e : challenge) : Prop :=
  forall K rnd0 rnd1 st0 st1, synced st0 st1 -> randomX st0 = fst e -> uses (seed_pos st0) (snd e) K ->
  both (linreg_op false order0 nb total0 (degree_wire degree ++ stream0) d0 junk0 garbage0 K rnd0 st0)
       (linreg_op true order1 nb total1 (degree_wire degree ++ stream1) d1 junk1 garbage1 K rnd1 st1)
    (fun a b => fst b = RET_NO_ANS /\
       fst a = outcome (length T) total0
         (moments degree (length T) (fun j => field_sum (linreg_fits nb) linreg_opened subs0 subs1 T j mod p))).

(** [o'] is obtained from the opened packet [o] by changing something, but not f0, g0, A, B;
    or f0 while g0 (nonzero) and h0 are kept; or A while B (nonzero) and C are kept. *)
Definition spoiled (o o' : ClientPacket) : Prop :=
  let t := triple_share o in let t' := triple_share o' in
  (o <> o' /\ f0_s o = f0_s o' /\ g0_s o = g0_s o' /\ shareA t = shareA t' /\ shareB t = shareB t') \/
  (f0_s o <> f0_s o' /\ g0_s o = g0_s o' /\ h0_s o = h0_s o' /\ g0_s o <> 0) \/
  (shareA t <> shareA t' /\ shareB t = shareB t' /\ shareC t = shareC t' /\ shareB t <> 0).
