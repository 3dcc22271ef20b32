(** * Specifications for secret sharing, oblivious transfer and the store of
      correlated randomness.  Nothing here refers to the code; only to the
      record types of Constants.v. *)
From Coq Require Import ZArith List Bool.
From Verif Require Import Words Constants.
Import ListNotations.
Open Scope Z_scope.

(** Value of a little endian bit string. *)
Fixpoint bits_val (bs : list bool) : Z :=
  match bs with
  | [] => 0
  | b :: bs' => b2z b + 2 * bits_val bs'
  end.

(** Two servers' shares of one random bit, in both worlds. *)
Definition dabit_pair (d0 d1 : DaBit) : Prop :=
  0 <= bp d0 < Int_Modulus /\ 0 <= bp d1 < Int_Modulus /\
  (bp d0 + bp d1) mod Int_Modulus = b2z (xorb (b2 d0) (b2 d1)).

(** Two servers' shares of one Boolean multiplication triple. *)
Definition btriple_pair (t0 t1 : BoolTriple) : Prop :=
  xorb (tc t0) (tc t1) = xorb (ta t0) (ta t1) && xorb (tb t0) (tb t1).

(** The modulus an OT protocol works in: argument 0 means 2^64. *)
Definition ot_modulus (mod_ : Z) : Z := if mod_ =? 0 then two64 else mod_.

(** Admissible [mod] arguments: 0 (meaning 2^64), or small enough that the
    64-bit intermediate sums do not wrap. *)
Definition mod_ok (mod_ : Z) : Prop := mod_ = 0 \/ 1 < mod_ < 2 ^ 62.

(** Column widths admissible for a modulus: the powers 2^k used are at most the
    modulus. *)
Definition width_ok (m : Z) (nb : nat) : Prop :=
  (nb <= 64)%nat /\ (m <> 0 -> nb <> 0%nat -> 2 ^ (Z.of_nat nb - 1) <= m).

(** What a column of the conversion protocol must add up to. *)
Definition col_spec (m : Z) (nb : nat) (x y : Z) : Z :=
  ((Z.lxor x y) mod 2 ^ Z.of_nat nb) mod ot_modulus m.

(** What a row must add up to: zeros when it is marked invalid. *)
Definition row_spec (m : Z) (nbs : list nat) (v : bool) (r0 r1 : list Z) : list Z :=
  if v then map3 (col_spec m) nbs r0 r1 else repeat 0 (length nbs).

(** The contribution of one position to the bit sum. *)
Definition bit_spec (s0 s1 valid : bool) : Z := if valid then b2z (xorb s0 s1) else 0.
