(** * Vocabulary for least squares *)
From Coq Require Import ZArith List Bool QArith Qcanon.
From Verif Require Import Words Share SpecServer ServerOps SpecStat.
Import ListNotations.
Open Scope Z_scope.

(** An integer as a rational. *)
Definition rat (x : Z) : Qc := Q2Qc (inject_Z x).
Definition sum_over {A} (f : A -> Qc) (l : list A) : Qc := fold_right (fun a s => f a + s)%Qc (rat 0) l.

(** A client holds (x, y).  The coordinates of a client: 1, then its x. *)
Definition coordinates (v : list Z * Z) : list Qc := map rat (1 :: fst v).
(** The value predicted by the coefficients [c]: c0 + c1 * x1 + c2 * x2 + ... *)
Definition predicted (c : list Qc) (v : list Z * Z) : Qc :=
  sum_over (fun cz => fst cz * snd cz)%Qc (combine c (coordinates v)).
Definition squared_error (c : list Qc) (v : list Z * Z) : Qc :=
  ((rat (snd v) - predicted c v) * (rat (snd v) - predicted c v))%Qc.
Definition total_error (c : list Qc) (data : list (list Z * Z)) : Qc := sum_over (squared_error c) data.

(** [c] has the least total error of all coefficient vectors, and no other has. *)
Definition least_squares (degree : nat) (c : list Qc) (data : list (list Z * Z)) : Prop :=
  length c = degree /\
  forall c', length c' = degree -> (total_error c data <= total_error c' data)%Qc /\
    (total_error c' data = total_error c data -> c' = c).

(** All data lie in one hyperplane: some non-trivial combination of the coordinates is
    zero for every client.  (Then no or many coefficient vectors are best.) *)
Definition degenerate (degree : nat) (data : list (list Z * Z)) : Prop :=
  exists d, length d = degree /\ (exists q, In q d /\ q <> rat 0) /\ forall v, In v data -> predicted d v = rat 0.

(** The sums over the clients that LINREG computes. *)
Definition field_totals (data : list (list Z * Z)) (j : nat) : Z :=
  zsum (map (fun v => nth j (linreg_fields v) 0) data).
