(** * Solving the regression: /repo/circuit.h:265-330 [SolveLinReg]

    FLINT's exact rationals are modelled by the canonical rationals [Qc]. *)
From Coq Require Import ZArith List Bool QArith Qcanon.
Import ListNotations.
Open Scope Z_scope.

(** [fmpq_set_ui(e, x, 1)]. *)
Definition of_ui (x : Z) : Qc := Q2Qc (inject_Z x).

(** Matrices while they are being filled in. *)
Definition mat := nat -> nat -> Qc.
Definition set_entry (X : mat) (i j : nat) (v : Qc) : mat :=
  fun a b => if (a =? i)%nat && (b =? j)%nat then v else X a b.

(** lines 288-294, the first row and column. *)
Definition fill_border (degree : nat) (x : list Z) (X : mat) : mat :=
  fold_left (fun X i =>
    let X1 := set_entry X i 0 (of_ui (nth i x 0)) in
    if (0 <? i)%nat then set_entry X1 0 i (of_ui (nth i x 0)) else X1) (seq 0 degree) X.
(** lines 295-303, the rest; [idx] runs through x. *)
Definition fill_cell (x : list Z) (i : nat) (s : mat * nat) (j : nat) : mat * nat :=
  let (X, idx) := s in
  let X1 := set_entry X i j (of_ui (nth idx x 0)) in
  (if negb (j =? i)%nat then set_entry X1 j i (of_ui (nth idx x 0)) else X1, S idx).
Definition fill_rest (degree : nat) (x : list Z) (X : mat) : mat :=
  fst (fold_left (fun s i => fold_left (fill_cell x i) (seq i (degree - i)) s) (seq 1 (degree - 1)) (X, degree)).
Definition matrix_X (degree : nat) (x : list Z) : mat :=
  fill_rest degree x (fill_border degree x (fun _ _ => of_ui 0)).
Definition vector_Y (degree : nat) (y : list Z) : list Qc :=
  map (fun i => of_ui (nth i y 0)) (seq 0 degree).

(** Sum of [f i] for [i < n]. *)
Fixpoint qsum (n : nat) (f : nat -> Qc) : Qc :=
  match n with
  | O => Q2Qc 0
  | S n' => (qsum n' f + f n')%Qc
  end.

(** [fmpq_mat_inv] computes the inverse or reports that the matrix is singular.  FLINT
    uses other algorithms; here it is Gauss-Jordan elimination, which P_LinReg.v proves
    to have this property (it determines the result).  A row of the extended matrix is
    the pair of its two halves. *)
Definition row := (list Qc * list Qc)%type.
Definition zero : Qc := Q2Qc 0.
Definition one : Qc := Q2Qc 1.
Definition at_col (k : nat) (r : row) : Qc := nth k (fst r) zero.
Definition scale (c : Qc) (r : row) : row := (map (Qcmult c) (fst r), map (Qcmult c) (snd r)).
Definition vsub (c : Qc) (a b : list Qc) : list Qc := map (fun ab => fst ab - c * snd ab)%Qc (combine a b).
Definition clear_col (k : nat) (pivot r : row) : row :=
  let c := at_col k r in (vsub c (fst r) (fst pivot), vsub c (snd r) (snd pivot)).
Fixpoint find_pivot (k : nat) (todo : list row) : option (row * list row) :=
  match todo with
  | [] => None
  | r :: rest =>
      if Qc_eq_dec (at_col k r) zero then
        match find_pivot k rest with Some (r', rest') => Some (r', r :: rest') | None => None end
      else Some (r, rest)
  end.
Fixpoint eliminate (steps k : nat) (done todo : list row) : option (list row) :=
  match steps with
  | O => Some done
  | S s =>
      match find_pivot k todo with
      | None => None
      | Some (r, rest) =>
          let pivot := scale (/ at_col k r)%Qc r in
          eliminate s (S k) (map (clear_col k pivot) done ++ [pivot]) (map (clear_col k pivot) rest)
      end
  end.
Definition unit_row (n i : nat) : list Qc := map (fun j => if (j =? i)%nat then one else zero) (seq 0 n).
Definition fmpq_mat_inv (n : nat) (X : mat) : option (list (list Qc)) :=
  match eliminate n 0 [] (map (fun i => (map (X i) (seq 0 n), unit_row n i)) (seq 0 n)) with
  | None => None
  | Some rows => Some (map snd rows)
  end.

(** The result before the conversion to [double] ([fmpq_get_d], not modelled).  [None]:
    "X is singular"; the code then multiplies with whatever FLINT left in the matrix. *)
Definition SolveLinReg (degree : nat) (x y : list Z) : option (list Qc) :=
  match fmpq_mat_inv degree (matrix_X degree x) with
  | None => None
  | Some M =>
      let Y := vector_Y degree y in
      Some (map (fun i => qsum degree (fun j => nth j (nth i M []) zero * nth j Y zero)%Qc) (seq 0 degree))
  end.
