(** * What the debugging runs of VAR, STDDEV and LINREG need of chance (C66) *)
From Coq Require Import ZArith List Bool.
From Verif Require Import Words Constants Share Net Snip ServerOps ClientOps DebugOps DebugStat.
Import ListNotations.
Open Scope Z_scope.

(** A change is one only if, in request 6, the client's draw of g(0) is not zero (or
    f(0) does not matter), and in request 8 its draw of B is not. *)
Definition changes {V W} (packet : V -> ClientPacket) (l : list (drec V W)) : Prop :=
  (forall r, nth_error l 6 = Some r -> (g0_s (packet (d_0 r)) + g0_s (packet (d_1 r))) mod p <> 0) /\
  (forall r, nth_error l 8 = Some r ->
     (shareB (triple_share (packet (d_0 r))) + shareB (triple_share (packet (d_1 r)))) mod p <> 0).

(** The draws taken over unreduced do not fit in their bounds: server 0's share of the
    square in request 2 of VAR; its share of y in request 1 and of the square of x in
    request 2 of LINREG. *)
Definition var_too_big (nb : nat) (l : list (drec (Z * Z * ClientPacket) (Z * Z))) : Prop :=
  forall r, nth_error l 2 = Some r -> 2 ^ Z.of_nat (2 * nb) <= snd (fst (d_0 r)).
Definition linreg_too_big (nb : nat) (l : list (drec (linreg_vals * ClientPacket) (list Z))) : Prop :=
  (forall r, nth_error l 1 = Some r -> 2 ^ Z.of_nat nb <= nth 1 (linreg_row (fst (d_0 r))) 0) /\
  (forall r, nth_error l 2 = Some r -> 2 ^ Z.of_nat (2 * nb) <= nth 2 (linreg_row (fst (d_0 r))) 0).
