(** * The final computation of VAR and STDDEV: /repo/server.cpp:883-893

    [double] is IEEE binary64 with rounding to nearest even, as formalised by Flocq (the
    payload of NaN is not kept).  [fmpz_get_d] and the conversion of [num_valid] are exact
    for the values that occur (below 2^53); here they round to nearest. *)
From Coq Require Import ZArith.
From Flocq Require Import Core.FLX IEEE754.BinarySingleNaN.
Open Scope Z_scope.

Definition double : Set := binary_float 53 1024.
Definition of_int (z : Z) : double := binary_normalize 53 1024 eq_refl eq_refl mode_NE z 0 false.
Definition dsub : double -> double -> double := @Bminus 53 1024 eq_refl eq_refl mode_NE.
Definition dmul : double -> double -> double := @Bmult 53 1024 eq_refl eq_refl mode_NE.
Definition ddiv : double -> double -> double := @Bdiv 53 1024 eq_refl eq_refl mode_NE.
Definition dsqrt : double -> double := @Bsqrt 53 1024 eq_refl eq_refl mode_NE.

(** lines 884-886: [ex], [ex2], [ans]. *)
Definition var_double (num_valid b b2 : Z) : double :=
  let ex := ddiv (of_int b) (of_int num_valid) in
  let ex2 := ddiv (of_int b2) (of_int num_valid) in
  dsub ex2 (dmul ex ex).
(** lines 890-891. *)
Definition var_final (stddev : bool) (num_valid b b2 : Z) : double :=
  if stddev then dsqrt (var_double num_valid b b2) else var_double num_valid b b2.
