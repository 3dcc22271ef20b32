(** * The regression line (C45)

    [SolveLinReg] (LinSolve.v) is circuit.h's function up to its final conversion to
    [double]; the vocabulary (squared error, best coefficients) is in SpecLinReg.v. *)
From Coq Require Import ZArith List Bool QArith Qcanon Lia.
From Verif Require Import Words Constants Share Proc ProcFacts Net SpecNet RelFacts SpecPoly Circuit SpecCircuit
  Snip SpecSnip ServerOps SpecServer ClientOps SpecClient SpecStat ClientFacts LinSolve SpecLinReg LinSolveFacts LinRegFacts
  P_Client P_Stat.
Import ListNotations.
Open Scope Z_scope.

(** The stand-in for FLINT's [fmpq_mat_inv] meets the documented contract: it returns an
    inverse, and reports failure only if the matrix is singular.  (Any function with
    this contract gives the same results, see [inverse_determined].) *)
Theorem inverse_or_singular n (X : mat) :
  match fmpq_mat_inv n X with
  | Some M => length M = n /\ (forall i, (i < n)%nat -> length (nth i M []) = n) /\
      forall i j, (i < n)%nat -> (j < n)%nat ->
        qsum n (fun k => nth k (nth i M []) (rat 0) * X k j)%Qc = (if (i =? j)%nat then rat 1 else rat 0) /\
        qsum n (fun k => X i k * nth j (nth k M []) (rat 0))%Qc = (if (i =? j)%nat then rat 1 else rat 0)
  | None => exists v k, (k < n)%nat /\ v k <> rat 0 /\
      forall i, (i < n)%nat -> qsum n (fun j => X i j * v j)%Qc = rat 0
  end.
Proof. exact (inverse_both n X). Qed.
Print Assumptions inverse_or_singular.

(** A right inverse is the matrix found by elimination. *)
Theorem inverse_determined n (X : mat) M (N : mat) :
  fmpq_mat_inv n X = Some M ->
  (forall i j, (i < n)%nat -> (j < n)%nat ->
     qsum n (fun k => X i k * N k j)%Qc = if (i =? j)%nat then rat 1 else rat 0) ->
  forall i j, (i < n)%nat -> (j < n)%nat -> nth j (nth i M []) (rat 0) = N i j.
Proof. exact (inverse_unique n X M N). Qed.
Print Assumptions inverse_determined.

(** Applied to the sums over the data, the function returns the coefficients with the
    least total squared error, and these are unique. *)
Theorem regression_minimises degree data x y c :
  (1 <= degree)%nat -> (forall v, In v data -> length (fst v) = (degree - 1)%nat) ->
  moments degree (length data) (field_totals data) = (x, y) ->
  SolveLinReg degree x y = Some c -> least_squares degree c data.
Proof.
  intros D S E H. apply solution_is_least; auto. unfold sums. rewrite E. exact H.
Qed.
Print Assumptions regression_minimises.

(** The singular case, in which the code prints a warning and goes on with an unspecified
    matrix, arises exactly when the data do not determine the coefficients. *)
Theorem regression_singular_iff degree data x y :
  (1 <= degree)%nat -> (forall v, In v data -> length (fst v) = (degree - 1)%nat) ->
  moments degree (length data) (field_totals data) = (x, y) ->
  SolveLinReg degree x y = None <-> degenerate degree data.
Proof.
  intros D S E. rewrite <- (no_solution_iff degree data D S). unfold sums. rewrite E. reflexivity.
Qed.
Print Assumptions regression_singular_iff.

(** In particular fewer clients than coefficients are never enough. *)
Theorem regression_needs_data degree data x y :
  (1 <= degree)%nat -> (forall v, In v data -> length (fst v) = (degree - 1)%nat) ->
  (length data < degree)%nat ->
  moments degree (length data) (field_totals data) = (x, y) -> SolveLinReg degree x y = None.
Proof.
  intros D S L E. apply (regression_singular_iff degree data x y D S E). now apply few_data_degenerate.
Qed.
Print Assumptions regression_needs_data.

(** A whole run: n honest clients produced by the client program, any schedule; the
    operation's answer, passed to SolveLinReg, gives the best line through the clients'
    private values, or the data are degenerate. *)
Theorem linreg_line nb degree g T s n order0 order1 d0 d1 junk0 junk1 garbage0 garbage1 K rnd0 rnd1 st0 st1 :
  (nb <= 24)%nat -> (1 <= degree)%nat -> (num_quad degree + num_x degree < 2 ^ 18)%nat ->
  Z.of_nat n * 2 ^ Z.of_nat (2 * nb) <= p ->
  prg_ok g -> (0 < n)%nat -> Z.of_nat n < two32 -> fair order1 ->
  length d0 = 8%nat -> length d1 = 8%nat -> length junk0 = 32%nat -> length junk1 = 32%nat ->
  (forall i, let '(x, x2, xy) := garbage0 i in linreg_shape degree (x, 0, x2, xy)) -> synced st0 st1 ->
  exists l st' deg stream0 stream1,
    requests_opt (linreg_request degree (2 ^ Z.of_nat nb) g T) n (0%nat, s, None) = Some (l, st') /\ length l = n /\
    sent_bytes (send_size (Z.of_nat degree)) = Some deg /\
    wire_opt (linregshare_bytes degree) (subs0 l) = Some stream0 /\
    wire_opt (linregshare_bytes degree) (subs1 l) = Some stream1 /\
    both (linreg_op false order0 nb n (deg ++ stream0) d0 junk0 garbage0 K rnd0 st0)
         (linreg_op true order1 nb n (deg ++ stream1) d1 junk1 garbage1 K rnd1 st1)
       (fun a b => exists x y, fst a = RET_ANS (x, y) /\
          match SolveLinReg degree x y with
          | Some c => least_squares degree c (map (fun r => c_real r) l)
          | None => degenerate degree (map (fun r => c_real r) l)
          end).
Proof.
  intros HB HD HQ HP HG HN HN2 HF L0 L1 J0 J1 GB SY.
  destruct (linreg_run nb degree g T s n order0 order1 d0 d1 junk0 junk1 garbage0 garbage1 K rnd0 rnd1 st0 st1
    HB HD HQ HG HN HN2 HF L0 L1 J0 J1 GB SY) as (l & st' & deg & s0 & s1 & A & LL & B & C & D & RG & R).
  exists l, st', deg, s0, s1. split; [exact A|]. split; [exact LL|]. split; [exact B|]. split; [exact C|]. split; [exact D|].
  eapply ClientFacts.both_impl; [|exact R]. cbv beta. intros a b (_ & EA & _).
  set (data := map (fun r => c_real r) l).
  assert (SH : forall v, In v data -> length (fst v) = num_x degree).
  { intros v Hv. unfold data in Hv. apply in_map_iff in Hv as (r & <- & Hr). now apply RG. }
  assert (EM : moments degree n (fun j => zsum (map (fun r => nth j (linreg_fields (c_real r)) 0) l) mod p) =
               moments degree (length data) (field_totals data)).
  { unfold data. rewrite map_length, LL. apply moments_ext. intros j. unfold field_totals. rewrite map_map.
    apply (linreg_sums_exact nb); [|lia|rewrite LL; exact HP]. intros r Hr. split; apply (RG r Hr). }
  rewrite EM in EA. destruct (moments degree (length data) (field_totals data)) as [x y] eqn:E.
  exists x, y. split; [exact EA|]. destruct (SolveLinReg degree x y) as [c|] eqn:ES.
  - exact (regression_minimises degree data x y c HD SH E ES).
  - exact (proj1 (regression_singular_iff degree data x y HD SH E) ES).
Qed.
Print Assumptions linreg_line.

(** Two regressors: y = 1 + 2*a + 3*b exactly, plus one outlier. *)
Definition plane : list (list Z * Z) := [([0; 0], 1); ([1; 0], 3); ([0; 1], 4); ([1; 1], 6); ([2; 3], 15)].
Example plane_ex : let (x, y) := moments 3 (length plane) (field_totals plane) in
  option_map (map this) (SolveLinReg 3 x y) = Some [32 # 39; 28 # 13; 127 # 39]%Q.
Proof. vm_compute. reflexivity. Qed.
(** Three points on one vertical line: no regression. *)
Definition vertical : list (list Z * Z) := [([2], 1); ([2], 3); ([2], 4)].
Example vertical_ex : let (x, y) := moments 2 (length vertical) (field_totals vertical) in
  SolveLinReg 2 x y = None.
Proof. vm_compute. reflexivity. Qed.
