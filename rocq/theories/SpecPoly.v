(** * Specifications for the polynomial layer *)
From Coq Require Import ZArith List.
Import ListNotations.
Open Scope Z_scope.

(** Value at [x] of the polynomial with coefficients [c] (lowest first), over Z. *)
Fixpoint peval (c : list Z) (x : Z) : Z :=
  match c with
  | [] => 0
  | a :: c' => a + x * peval c' x
  end.

(** Field elements. *)
Definition in_field (m x : Z) : Prop := 0 <= x < m.

(** [g] has multiplicative order exactly [n] modulo [m]. *)
Definition has_order (m g n : Z) : Prop :=
  0 < n /\ forall e, 0 <= e -> (g ^ e mod m = 1 <-> (n | e)).
