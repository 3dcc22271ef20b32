(** * Vocabulary: variance of a list of integers, over the reals *)
From Coq Require Import ZArith Reals List.
From Verif Require Import Words.
Import ListNotations.
Open Scope R_scope.

Definition rsum (l : list R) : R := fold_right Rplus 0 l.
Definition mean (l : list R) : R := rsum l / INR (length l).
(** The mean of the squared distances to the mean. *)
Definition variance (xs : list Z) : R :=
  mean (map (fun x => (IZR x - mean (map IZR xs)) * (IZR x - mean (map IZR xs))) xs).
Definition mean_square (xs : list Z) : R := mean (map (fun x => IZR x * IZR x) xs).

Definition total (xs : list Z) : Z := zsum xs.
Definition total_squares (xs : list Z) : Z := zsum (map (fun x => x * x)%Z xs).
Definition all_equal (xs : list Z) : Prop := forall x y, In x xs -> In y xs -> x = y.
