(** * C24, C25, C26, C39, C43: proofs of validity *)
From Coq Require Import ZArith List Bool.
From Verif Require Import Words Constants Cong Share Proc RelFacts Net Poly SpecPoly
  Exec Circuit SpecCircuit CircuitFacts Snip SpecSnip SnipFacts SnipBatch.
Import ListNotations.
Open Scope Z_scope.

(** ** C24 *)

(** An honest submission whose values satisfy the circuit is accepted by both
    servers, for every challenge point, all common coefficients and all of the
    client's randomness (quantified inside [honest]).  The bound on the size of
    the circuit is that of the roots of unity. *)
Theorem honest_accepted : forall c inps x0 x1 r K pos,
  wf c -> (NumMulGates c < 2 ^ 18)%nat ->
  honest c inps x0 x1 -> Eval c inps = true -> in_field p r ->
  verdict c r K pos x0 x1 true.
Proof. exact honest_verdict. Qed.
Print Assumptions honest_accepted.

(** A concrete honest client: x = 3, x^2 = 9. *)
Definition ex_tape (n : nat) : Z := 12345678901234567 * Z.of_nat (n * n + 3) + 17.
Definition ex_packets : ClientPacket * ClientPacket :=
  match share_polynomials (init_roots 2) CheckVar (eval_wires CheckVar [3; 9]) ex_tape 0 with
  | Some (q, _) => q
  | None => let z := mkPacket [] 0 0 0 [] (mkBTS 0 0 0) in (z, z)
  end.
Definition ex_x0 : submission := (fst ex_packets, [100; p - 50]).
Definition ex_x1 : submission := (snd ex_packets, [p - 97; 59]).
Example ex_honest : honest CheckVar [3; 9] ex_x0 ex_x1 /\ Eval CheckVar [3; 9] = true.
Proof.
  split; [|reflexivity].
  split; [reflexivity|]. split.
  - split; [reflexivity|]. split; [reflexivity|].
    intros [|[|i]] H; [reflexivity|reflexivity|cbn in H; do 2 apply PeanoNat.Nat.succ_lt_mono in H; inversion H].
  - exists 2%nat, ex_tape, 0%nat, 13%nat. split; [reflexivity|].
    vm_compute. reflexivity.
Qed.
Example ex_accepted : verdict CheckVar 5 (fun n => Z.of_nat n + 3) 7 ex_x0 ex_x1 true.
Proof.
  apply (honest_accepted CheckVar [3; 9]); try apply ex_honest; try apply circuits_wf.
  - apply PeanoNat.Nat.ltb_lt. vm_compute. reflexivity.
  - split; vm_compute; [discriminate|reflexivity].
Qed.

(** ** C25 *)

(** If the shared inputs do not satisfy the circuit then, whatever the two packets
    are, for all challenge points but at most 2N there is a coefficient of the
    random combination such that, for each choice of the others, at most one
    value (modulo p) of it leads to acceptance. *)
Theorem dishonest_rejected : forall c x0 x1 N,
  wf c -> (NumMulGates c < 2 ^ 18)%nat -> shaped c x0 -> shaped c x1 ->
  NextPowerOfTwo (Z.of_nat (NumMulGates c)) = Some (Z.of_nat N) ->
  Eval c (opened x0 x1) = false ->
  exists bad, (length bad <= 2 * N)%nat /\ forall r, in_field p r -> ~ In r bad ->
    exists j, (j <= length (result_zero c))%nat /\
      forall K K' pos, differ_only_at (pos + j) K K' ->
        ~ (verdict c r K pos x0 x1 true /\ verdict c r K' pos x0 x1 true).
Proof. exact sound_verdict. Qed.
Print Assumptions dishonest_rejected.

(** There always is a verdict, so "not accepted" means "rejected". *)
Theorem verdict_total : forall c x0 x1 r K pos,
  (NumMulGates c < 2 ^ 18)%nat -> shaped c x0 -> shaped c x1 -> in_field p r ->
  exists b, verdict c r K pos x0 x1 b /\ forall b', verdict c r K pos x0 x1 b' -> b' = b.
Proof.
  intros c x0 x1 r K pos HM S0 S1 Hr.
  destruct (verdict_exists c x0 x1 r K pos HM S0 S1 Hr) as [b Hb].
  exists b. split; [exact Hb|]. intros b' Hb'. exact (verdict_unique _ _ _ _ _ _ _ _ Hr Hb' Hb).
Qed.
Print Assumptions verdict_total.

(** A dishonest submission (x = 3 with 10 as its square) with the packets of the
    honest one. *)
Definition ex_y1 : submission := (snd ex_packets, [p - 97; 60]).
Example ex_dishonest : shaped CheckVar ex_x0 /\ shaped CheckVar ex_y1 /\ opened ex_x0 ex_y1 = [3; 10] /\
  Eval CheckVar (opened ex_x0 ex_y1) = false /\ NextPowerOfTwo (Z.of_nat (NumMulGates CheckVar)) = Some (Z.of_nat 2).
Proof. repeat split; vm_compute; reflexivity. Qed.

(** "For all challenge points but few" cannot be improved to "for all": a client
    that knows the point can forge a proof, here of 2 * 2 = 5, that is accepted for
    all coefficients.  (In the code the point is drawn from a FLINT generator with
    its default, fixed seed.) *)
Theorem dishonest_rejected_every_point_refuted : forall r, in_field p r ->
  exists x0 x1, shaped CheckVar x0 /\ shaped CheckVar x1 /\ opened x0 x1 = [2; 5] /\
    Eval CheckVar (opened x0 x1) = false /\
    forall K pos, verdict CheckVar r K pos x0 x1 true.
Proof.
  intros r Hr.
  pose (x0 := (mkPacket [5] 0 0 0 [0; 0] (mkBTS 0 0 0), [2; 5]) : submission).
  pose (x1 := (mkPacket [0] 0 0 0 [0; 0] (mkBTS 0 0 0), [0; 0]) : submission).
  destruct (forge CheckVar x0 x1 r) as (C & HC & HV).
  - apply PeanoNat.Nat.ltb_lt. vm_compute. reflexivity.
  - repeat split.
  - repeat split.
  - repeat constructor. exists 0. vm_compute. reflexivity.
  - exact Hr.
  - eexists _, _. split; [|split; [|split; [|split; [|exact HV]]]]; vm_compute; auto.
Qed.
Print Assumptions dishonest_rejected_every_point_refuted.

(** ** C26 *)

(** Validating a batch, of any size: both servers terminate in every schedule with
    the same bits, and bit [i] is the verdict on submission [i] alone (with the
    coefficients at its position of the common sequence). *)
Theorem batch_validated : forall c K st0 st1 xs0 xs1 d0 d1,
  (NumMulGates c < 2 ^ 18)%nat -> synced st0 st1 ->
  xs0 <> [] -> length xs0 = length xs1 -> Forall (shaped c) xs0 -> Forall (shaped c) xs1 ->
  let w := S (length (result_zero c)) in
  both (validate_snips false K st0 (items c xs0)) (validate_snips true K st1 (items c xs1))
    (fun a b => fst a = fst b /\ length (fst a) = length xs0 /\
       synced (snd a) (snd b) /\ randomX (snd a) = randomX st0 /\
       seed_pos (snd a) = (seed_pos st0 + length xs0 * w)%nat /\
       randx_uses (snd a) = u64 (randx_uses st0 + Z.of_nat (length xs0)) /\
       forall i, (i < length xs0)%nat ->
         verdict c (randomX st0) K (seed_pos st0 + i * w) (nth i xs0 d0) (nth i xs1 d1) (nth i (fst a) false)).
Proof. intros. apply rel_both. now apply batch_verdicts. Qed.
Print Assumptions batch_validated.

Definition ex_state (r : Z) : snip_state := mkSnip r 0 [] 0 (init_roots 0) 0.
Example ex_synced : synced (ex_state 5) (ex_state 5).
Proof.
  assert (snip_ok (ex_state 5)).
  { split; [split; vm_compute; [discriminate|reflexivity]|]. split; [constructor|]. intros H. now contradiction H. }
  repeat split; try apply H; auto.
Qed.
(** An honest and a dishonest submission, one batch: bits 1 and 0. *)
Example ex_batch : exists a b,
  always (validate_snips false (fun n => Z.of_nat n + 3) (ex_state 5) (items CheckVar [ex_x0; ex_x0]))
         (validate_snips true (fun n => Z.of_nat n + 3) (ex_state 5) (items CheckVar [ex_x1; ex_y1])) a b /\
  (fst a, fst b) = ([true; false], [true; false]).
Proof. apply (exec_obs_always 10 _ _ (fun a b => (fst a, fst b))). vm_compute. reflexivity. Qed.

(** An empty batch reads [circuit[0]] of an empty array. *)
Example empty_batch_undefined : validate_snips false ex_tape (ex_state 5) [] = Undef.
Proof. reflexivity. Qed.

(** ** C39 *)

(** Through any history of refreshes and batches both servers use the same point,
    which is never one used for more than a million proofs before the batch. *)
Theorem challenge_point_consistent : forall K bs st0 st1,
  Forall batch_ok bs -> synced st0 st1 -> 0 <= randx_uses st0 < 2 ^ 63 ->
  both (session false K bs st0) (session true K bs st1)
    (fun a b => fst a = fst b /\ synced (snd a) (snd b) /\
       points_ok K (randomX st0) (randx_uses st0) (seed_pos st0) bs (fst a)).
Proof. intros. apply rel_both. now apply session_rel. Qed.
Print Assumptions challenge_point_consistent.

Example ex_history : Forall batch_ok
  [mkBatch 11 CheckVar [ex_x0; ex_x0] [ex_x1; ex_y1]; mkBatch 12 CheckVar [ex_x0] [ex_y1]].
Proof.
  assert (shaped CheckVar ex_x0) by (repeat split; vm_compute; reflexivity).
  assert (shaped CheckVar ex_x1) by (repeat split; vm_compute; reflexivity).
  assert (shaped CheckVar ex_y1) by (repeat split; vm_compute; reflexivity).
  assert (NumMulGates CheckVar < 2 ^ 18)%nat by (apply PeanoNat.Nat.ltb_lt; vm_compute; reflexivity).
  apply Forall_cons; [|apply Forall_cons; [|apply Forall_nil]];
    (split; [assumption|]; split; [discriminate|]; split; [reflexivity|]; split; [reflexivity|]; split; repeat constructor; assumption).
Qed.

(** The initial synchronisation. *)
Theorem startup_point_agrees : forall r0 r,
  both (sync_randomX false r0) (sync_randomX true r) (fun a b => a = b /\ b = r mod p).
Proof. intros. apply rel_both. apply sync_rel. Qed.
Print Assumptions startup_point_agrees.

(** ** C43, validity proofs *)

(** The triple share a server holds and the values (D, E) opened during the check
    are jointly independent of everything else: whatever the submission, each
    combination arises from exactly one choice of the client's draws. *)
Theorem snip_opening_reveals_nothing : forall c x0 x1 r (server : bool) t D E,
  (NumMulGates c < 2 ^ 18)%nat -> shaped c x0 -> shaped c x1 ->
  in_field p r -> in_field p (shareA t) -> in_field p (shareB t) -> in_field p (shareC t) ->
  in_field p D -> in_field p E ->
  exists q, draws_in_field q /\
    forall q', draws_in_field q' ->
      ((if server then snd (triple_of q') else fst (triple_of q')) = t /\
       opening c r (with_triple x0 (fst (triple_of q'))) (with_triple x1 (snd (triple_of q'))) (mkCor D E)
       <-> q' = q).
Proof. exact opening_uniform. Qed.
Print Assumptions snip_opening_reveals_nothing.
