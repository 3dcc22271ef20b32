(** * Specification vocabulary for circuits *)
From Coq Require Import ZArith List Bool.
From Verif Require Import Words Constants Share Circuit.
Import ListNotations.
Open Scope Z_scope.

(** Every parent is an earlier gate; zero gates exist. *)
Definition gate_wf (i : nat) (g : gate) : Prop :=
  match g with
  | GInput => True
  | GAdd l r | GMul l r => (l < i /\ r < i)%nat
  | GAddConst l _ | GMulConst l _ => (l < i)%nat
  end.
Definition wf (c : circuit) : Prop :=
  (forall i g, nth_error (gates c) i = Some g -> gate_wf i g) /\
  Forall (fun i => (i < length (gates c))%nat) (result_zero c).

(** [a] and [b] are additive shares modulo p of the vector [v]. *)
Definition shares_of (v a b : list Z) : Prop :=
  length a = length v /\ length b = length v /\
  forall i, (i < length v)%nat -> (nth i a 0 + nth i b 0) mod p = nth i v 0 mod p.

(** The values of the multiplication gates among the wires [w]. *)
Definition mul_wires (c : circuit) (w : list Z) : list Z :=
  map (fun m => nth (fst (fst m)) w 0) (mul_gates c).

(** [w] are correct wire values of [c] on [inps]: the declarative reading of the
    gates (the k-th input gate carries the k-th input). *)
Definition input_rank (c : circuit) (i : nat) : nat :=
  length (filter (fun g => match g with GInput => true | _ => false end) (firstn i (gates c))).
Definition computes (c : circuit) (inps w : list Z) : Prop :=
  length w = length (gates c) /\
  forall i g, nth_error (gates c) i = Some g ->
    match g with
    | GInput => nth i w 0 = nth (input_rank c i) inps 0
    | GAdd l r => nth i w 0 = (nth l w 0 + nth r w 0) mod p
    | GMul l r => nth i w 0 = (nth l w 0 * nth r w 0) mod p
    | GAddConst l k => nth i w 0 = (nth l w 0 + k) mod p
    | GMulConst l k => nth i w 0 = (nth l w 0 * k) mod p
    end.

(** All products x_i * x_j, i <= j, in the order x0x0, x0x1, ..., x1x1, ... *)
Fixpoint products (xs : list Z) : list Z :=
  match xs with
  | [] => []
  | x :: xs' => map (fun z => (x * z) mod p) xs ++ products xs'
  end.
