(** * C20, C21: validation circuits *)
From Coq Require Import ZArith List Bool.
From Verif Require Import Words Constants Share Circuit SpecCircuit CircuitFacts.
Import ListNotations.
Open Scope Z_scope.

(** ** C20 *)

(** [Circuit::Eval] decides whether the wire values determined by the gates
    are 0 at all zero gates (for every circuit and every input vector). *)
Theorem eval_exists : forall c inps, wf c -> exists w, computes c inps w.
Proof. exact (fun c inps H => ex_intro _ _ (eval_computes c inps H)). Qed.
Print Assumptions eval_exists.

Theorem eval_correct : forall c inps w, wf c -> computes c inps w ->
  (Eval c inps = true <-> Forall (fun z => nth z w 0 = 0) (result_zero c)).
Proof. exact eval_decides. Qed.
Print Assumptions eval_correct.

(** The variance circuit accepts exactly x*x = y (mod p). *)
Theorem check_var_decides : forall x y,
  Eval CheckVar [x; y] = true <-> y mod p = (x * x) mod p.
Proof. exact check_var_lemma. Qed.
Print Assumptions check_var_decides.

Example check_var_yes : Eval CheckVar [5; 25] = true.
Proof. reflexivity. Qed.
Example check_var_no : Eval CheckVar [5; 26] = false.
Proof. reflexivity. Qed.
(** the squaring is modulo p *)
Example check_var_wraps : Eval CheckVar [2 ^ 24; (2 ^ 48) mod p] = true.
Proof. reflexivity. Qed.

(** The regression circuit of degree d = |xs| + 1 accepts exactly if the quadratic
    fields are the products x_i x_j (i <= j, row by row) and the cross fields
    the products y x_i, all modulo p. *)
Theorem check_linreg_decides : forall xs y quad cross,
  length quad = (length xs * (length xs + 1) / 2)%nat -> length cross = length xs ->
  Eval (CheckLinReg (S (length xs))) (xs ++ [y] ++ quad ++ cross) = true <->
  map (fun q => q mod p) quad = products xs /\
  map (fun q => q mod p) cross = map (fun x => (y * x) mod p) xs.
Proof. exact check_linreg_lemma. Qed.
Print Assumptions check_linreg_decides.

Example check_linreg_yes : Eval (CheckLinReg 3) [2; 3; 7; 4; 6; 9; 14; 21] = true.
Proof. reflexivity. Qed.
Example check_linreg_no : Eval (CheckLinReg 3) [2; 3; 7; 4; 9; 6; 14; 21] = false.
Proof. reflexivity. Qed.
Example check_linreg_spec :
  products [2; 3] = [4; 6; 9] /\ map (fun x => (7 * x) mod p) [2; 3] = [14; 21].
Proof. split; reflexivity. Qed.

(** Both are well-formed circuits with the expected numbers of inputs and
    multiplications. *)
Theorem check_circuits_wf : wf CheckVar /\ NumMulGates CheckVar = 1%nat /\ NumInputs CheckVar = 2%nat /\
  forall n, wf (CheckLinReg (n + 1)) /\
    NumMulGates (CheckLinReg (n + 1)) = (n * (n + 1) / 2 + n)%nat /\
    NumInputs (CheckLinReg (n + 1)) = (2 * n + 1 + n * (n + 1) / 2)%nat.
Proof. exact circuits_wf. Qed.
Print Assumptions check_circuits_wf.

(** ** C21 *)

(** If the servers import shares of the inputs and of the outputs of the
    multiplication gates, every wire of the two imported circuits adds up to the
    wire of the circuit on the shared values. *)
Theorem import_wires_shares : forall c inps w inps0 inps1 muls0 muls1,
  wf c -> computes c inps w ->
  shares_of inps inps0 inps1 -> shares_of (mul_wires c w) muls0 muls1 ->
  shares_of w (ImportWires false c inps0 muls0) (ImportWires true c inps1 muls1).
Proof. exact import_shares_computes. Qed.
Print Assumptions import_wires_shares.

(** The client's [GetMulShares] produces such shares, whatever the random draws. *)
Theorem get_mul_shares_shares : forall c w draws, length draws = NumMulGates c ->
  let (m0, m1) := GetMulShares c w draws in shares_of (mul_wires c w) m0 m1.
Proof. exact get_mul_shares_lemma. Qed.
Print Assumptions get_mul_shares_shares.

(** A circuit with every kind of gate: (x + y + 5) * y - 2x. *)
Definition ex_circuit : circuit :=
  mkCircuit [GInput; GInput; GAdd 0 1; GAddConst 2 5; GMul 3 1; GMulConst 0 (p - 2); GAdd 4 5] [6%nat].
Example ex_circuit_wf : wf ex_circuit.
Proof.
  split; [|repeat constructor].
  intros [|[|[|[|[|[|[|i]]]]]]] g H; cbn in H; try (injection H as <-; cbn; auto; repeat constructor).
  destruct i; discriminate.
Qed.
Example import_nontrivial :
  let w := eval_wires ex_circuit [3; 4] in
  let w0 := ImportWires false ex_circuit [100; 7] [1000] in
  let w1 := ImportWires true ex_circuit [p - 97; p - 3] [p - 952] in
  w = [3; 4; 7; 12; 48; p - 6; 42] /\ shares_of w w0 w1 /\
  nth 6 w0 0 = 800 /\ nth 6 w1 0 = p - 758.
Proof.
  cbv zeta. split; [reflexivity|]. split; [|split; reflexivity].
  apply import_shares_lemma; (split; [reflexivity|split; [reflexivity|]]).
  - intros [|[|i]] H; [reflexivity|reflexivity|cbn in H; do 2 apply PeanoNat.Nat.succ_lt_mono in H; inversion H].
  - intros [|i] H; [reflexivity|cbn in H; apply PeanoNat.Nat.succ_lt_mono in H; inversion H].
Qed.
