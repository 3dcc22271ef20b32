(** * Arithmetic circuits
    /repo/circuit.h:17-263.  A gate's parent pointers are modelled as indices
    into the circuit's vector of gates.  Wire values, fields of the gates in the
    code, are a separate list, so an evaluation returns the list of wires. *)
From Coq Require Import ZArith List Bool.
From Verif Require Import Words Constants Share.
Import ListNotations.
Open Scope Z_scope.

(** /repo/circuit.h:17-45 [GateType], [Gate]: kind, parents, constant. *)
Inductive gate :=
| GInput
| GAdd (l r : nat)
| GAddConst (l : nat) (c : Z)
| GMul (l r : nat)
| GMulConst (l : nat) (c : Z).

(** /repo/circuit.h:56-62 [Circuit]; [result_zero] holds indices. *)
Record circuit := mkCircuit { gates : list gate; result_zero : list nat }.

(** /repo/circuit.h:80-84: [mul_gates] is the subsequence of multiplication
    gates, here (index of the gate, index of ParentL, index of ParentR). *)
Fixpoint mul_gates_from (i : nat) (gs : list gate) : list (nat * nat * nat) :=
  match gs with
  | [] => []
  | GMul l r :: gs' => (i, l, r) :: mul_gates_from (S i) gs'
  | _ :: gs' => mul_gates_from (S i) gs'
  end.
Definition mul_gates (c : circuit) : list (nat * nat * nat) := mul_gates_from 0 (gates c).

(** /repo/circuit.h:147-149. *)
Definition NumMulGates (c : circuit) : nat := length (mul_gates c).

(** Number of input gates (how many array entries [Eval] and [ImportWires] read). *)
Definition NumInputs (c : circuit) : nat :=
  length (filter (fun g => match g with GInput => true | _ => false end) (gates c)).

(** /repo/circuit.h:91-138 [Circuit::Eval], the loop over the gates: [wires] are
    the values computed so far.  (Reading a parent that is not an earlier gate
    would read its initial 0 or a value left by an earlier evaluation; the
    theorems assume parents are earlier gates, see [wf] in SpecCircuit.v.) *)
Fixpoint eval_loop (gs : list gate) (inps : list Z) (inp_count : nat) (wires : list Z)
  : list Z :=
  match gs with
  | [] => wires
  | g :: gs' =>
      let w i := nth i wires 0 in
      match g with
      | GInput => eval_loop gs' inps (S inp_count) (wires ++ [nth inp_count inps 0])
      | GAdd l r => eval_loop gs' inps inp_count (wires ++ [(w l + w r) mod p])
      | GMul l r => eval_loop gs' inps inp_count (wires ++ [(w l * w r) mod p])
      | GAddConst l c => eval_loop gs' inps inp_count (wires ++ [(w l + c) mod p])
      | GMulConst l c => eval_loop gs' inps inp_count (wires ++ [(w l * c) mod p])
      end
  end.
Definition eval_wires (c : circuit) (inps : list Z) : list Z :=
  eval_loop (gates c) inps 0 [].

(** /repo/circuit.h:140-144: true iff every [result_zero] wire is 0. *)
Definition Eval (c : circuit) (inps : list Z) : bool :=
  let w := eval_wires c inps in
  forallb (fun i => nth i w 0 =? 0) (result_zero c).

(** /repo/circuit.h:151-158 [GetMulShares]: one [SplitShare] per multiplication
    gate, in order; [draws] are the successive random draws. *)
Definition GetMulShares (c : circuit) (wires draws : list Z) : list Z * list Z :=
  split (map2 (fun r m => SplitShare r (nth (fst (fst m)) wires 0)) draws (mul_gates c)).

(** /repo/circuit.h:160-193 [ImportWires]; [muls] is [p->MulShares]. *)
Fixpoint import_loop (server_num : bool) (gs : list gate) (inps : list Z) (inp_idx : nat)
  (muls : list Z) (mul_idx : nat) (wires : list Z) : list Z :=
  match gs with
  | [] => wires
  | g :: gs' =>
      let w i := nth i wires 0 in
      match g with
      | GInput =>
          import_loop server_num gs' inps (S inp_idx) muls mul_idx (wires ++ [nth inp_idx inps 0])
      | GAdd l r =>
          import_loop server_num gs' inps inp_idx muls mul_idx (wires ++ [(w l + w r) mod p])
      | GMul l r =>
          import_loop server_num gs' inps inp_idx muls (S mul_idx) (wires ++ [nth mul_idx muls 0])
      | GAddConst l c =>
          let v := if server_num then w l else w l + c in
          import_loop server_num gs' inps inp_idx muls mul_idx (wires ++ [v mod p])
      | GMulConst l c =>
          import_loop server_num gs' inps inp_idx muls mul_idx (wires ++ [(w l * c) mod p])
      end
  end.
Definition ImportWires (server_num : bool) (c : circuit) (inps muls : list Z) : list Z :=
  import_loop server_num (gates c) inps 0 muls 0 [].

(** /repo/circuit.h:67-72 [Circuit(num_inputs)]. *)
Definition Circuit_inputs (num_inputs : nat) : circuit :=
  mkCircuit (repeat GInput num_inputs) [].

(** /repo/circuit.h:47-54 [MulByNegOne]: multiplication by -1 mod p. *)
Definition MulByNegOne (k : nat) : gate := GMulConst k ((-1) mod p).

(** /repo/circuit.h:196-207 [AddCheckMulEqual]. *)
Definition AddCheckMulEqual (c : circuit) (ijk : nat * nat * nat) : circuit :=
  let '(i, j, k) := ijk in
  let s := length (gates c) in
  mkCircuit (gates c ++ [GMul i j; MulByNegOne k; GAdd s (s + 1)])
            (result_zero c ++ [(s + 2)%nat]).

(** /repo/circuit.h:230-236. *)
Definition CheckVar : circuit := AddCheckMulEqual (Circuit_inputs 2) (0, 0, 1)%nat.

(** /repo/circuit.h:243-263 [CheckLinReg]: the calls of [AddCheckMulEqual] made by
    the two loops, in order, with [idx] counting up from [degree].
    (No 32-bit wrap-around of [idx]: that needs degree > 90000.) *)
Definition linreg_pairs (num_x : nat) : list (nat * nat) :=
  flat_map (fun i => map (fun j => (i, j)) (seq i (num_x - i))) (seq 0 num_x).
Definition linreg_checks (degree : nat) : list (nat * nat * nat) :=
  let num_x := (degree - 1)%nat in
  let quad := linreg_pairs num_x in
  map2 (fun ij idx => (fst ij, snd ij, idx)) quad (seq degree (length quad)) ++
  map (fun i => (num_x, i, (degree + length quad + i)%nat)) (seq 0 num_x).
Definition CheckLinReg (degree : nat) : circuit :=
  let num_x := (degree - 1)%nat in
  let num_fields := (2 * num_x + 1 + num_x * (num_x + 1) / 2)%nat in
  fold_left AddCheckMulEqual (linreg_checks degree) (Circuit_inputs num_fields).
