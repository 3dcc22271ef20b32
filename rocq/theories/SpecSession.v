(** * Vocabulary for sessions with the client program *)
From Coq Require Import String ZArith List Bool.
From Verif Require Import Words Constants Proc ProcFacts RelFacts Net Circuit Snip ServerOps SpecServer ClientOps SpecClient SpecStat Main SpecMain ClientMain.
Import ListNotations.
Open Scope Z_scope.

(** One run of the client program: its command line, its randomness, the connections
    through which the servers see it, and what it prints. *)
Record visit := mkVisit { v_args : client_args; v_env : client_env; v_0 : conn; v_1 : conn; v_ans : printed }.

Definition protocol (v : visit) : string := a_protocol (v_args v).
Definition is_protocol (v : visit) (names : list string) : Prop := In (protocol v) names.
Definition run_degree (a : client_args) : nat := match a_degree a with Some d => d | None => 2%nat end.

(** The records a run makes for AND/OR, and for MAX/MIN over values up to [B]. *)
Definition xor_records (is_and : bool) (v : visit) : list (crec Z bool) :=
  fst (requests (xor_request is_and (e_prg (v_env v))) (a_numreqs (v_args v)) 0).
Definition max_records (is_max : bool) (B : nat) (v : visit) : list (crec (list Z) nat) :=
  fst (requests (max_request is_max B (e_prg (v_env v))) (a_numreqs (v_args v)) 0).
(** The largest value, and the combined encodings at position [j]. *)
Definition top (nb : nat) : nat := Z.to_nat (2 ^ Z.of_nat nb).
Definition encodings_at (j : nat) (l : list (crec (list Z) nat)) : Z :=
  zxors (map (fun r => xor_at j (c_0 r) (c_1 r)) l).

(** The memory of a server in which the connection is handled. *)
Definition room (nb : nat) (a : client_args) (k : conn) : Prop :=
  length (k_msg k) = 12%nat /\ locals_ok k /\ fair (k_order k) /\
  (In (a_protocol a) ["MAXOP"; "MINOP"]%string -> forall i, length (k_rows k i) = (8 * (top nb + 1))%nat) /\
  (a_protocol a = "LINREGOP"%string ->
     forall i, let '(x, x2, xy) := k_garbage k i in linreg_shape (run_degree a) (x, 0, x2, xy)).

(** A run of the client program with at least one request and the servers' number of
    bits, seen by both servers from its first byte to its last.  The bounds are those
    of the operations (P_Client.v, P_Stat.v).  FREQ is excluded. *)
Definition visit_ok (nb : nat) (v : visit) : Prop :=
  let a := v_args v in let e := v_env v in
  client_main a e = Sent (k_stream (v_0 v)) (k_stream (v_1 v)) (v_ans v) /\
  room nb a (v_0 v) /\ room nb a (v_1 v) /\
  a_bits a = Some nb /\ (nb <= 63)%nat /\ (0 < a_numreqs a)%nat /\ Z.of_nat (a_numreqs a) < two32 /\
  prg_ok (e_prg e) /\ Z.of_nat (e_inp e) < two32 /\ Z.of_nat (e_num e) < two32 /\
  protocol v <> "FREQOP"%string /\
  (is_protocol v ["VAROP"; "STDDEVOP"; "LINREGOP"]%string -> (nb <= 24)%nat) /\
  (protocol v = "LINREGOP"%string -> (num_quad (run_degree a) + num_x (run_degree a) < 2 ^ 18)%nat) /\
  (is_protocol v ["MAXOP"; "MINOP"]%string -> Z.of_nat (a_numreqs a) * (Z.of_nat (top nb) + 1) < two32) /\
  (forall is_max : bool, protocol v = (if is_max then "MAXOP" else "MINOP")%string ->
     exists j, (j <= top nb)%nat /\ encodings_at j (max_records is_max (top nb) v) <> 0).

(** The encodings do not cancel where it matters, and the sums are below the modulus. *)
Definition sure (nb : nat) (v : visit) : Prop :=
  (forall is_and : bool, protocol v = (if is_and then "ANDOP" else "OROP")%string ->
     let l := xor_records is_and v in
     zxors (map (fun r => Z.lxor (c_0 r) (c_1 r)) l) <> 0 \/ forall r, In r l -> c_real r = is_and) /\
  (forall is_max : bool, protocol v = (if is_max then "MAXOP" else "MINOP")%string ->
     forall m, v_ans v = AnsInt (Z.of_nat m) ->
     encodings_at (if is_max then m else top nb - m) (max_records is_max (top nb) v) <> 0) /\
  (is_protocol v ["VAROP"; "STDDEVOP"; "LINREGOP"]%string ->
     Z.of_nat (a_numreqs (v_args v)) * 2 ^ Z.of_nat (2 * nb) <= Int_Modulus).

(** Server 0's output is what the client prints. *)
Definition same_answer (out : output) (ans : printed) : Prop :=
  match ans with
  | AnsNothing => out = OutNothing
  | AnsInt a => out = OutInt (RET_ANS a)
  | AnsBool b => out = OutBool (RET_ANS b)
  | AnsVar stddev n sum sumsq => out = OutVar stddev (RET_ANS (n, sum, sumsq))
  | AnsReg x y => out = OutReg (RET_ANS (x, y))
  | AnsFreq counts => out = OutFreq (RET_ANS counts)
  end.

(** AND and OR err only by missing the deciding value, MAX and MIN only by missing the
    extreme one. *)
Definition one_sided (v : visit) (out : output) : Prop :=
  (protocol v = "ANDOP"%string -> exists b, out = OutBool (RET_ANS b) /\ (b = false -> v_ans v = AnsBool false)) /\
  (protocol v = "OROP"%string -> exists b, out = OutBool (RET_ANS b) /\ (b = true -> v_ans v = AnsBool true)) /\
  (protocol v = "MAXOP"%string -> exists a m, out = OutInt (RET_ANS a) /\ v_ans v = AnsInt m /\ a <= m) /\
  (protocol v = "MINOP"%string -> exists a m, out = OutInt (RET_ANS a) /\ v_ans v = AnsInt m /\ m <= a).

(** A run of FREQ.  Server 0 and server 1 must have room for its rows. *)
Definition freq_visit_ok (nb : nat) (v : visit) : Prop :=
  let a := v_args v in let e := v_env v in
  protocol v = "FREQOP"%string /\
  client_main a e = Sent (k_stream (v_0 v)) (k_stream (v_1 v)) (v_ans v) /\
  a_bits a = Some nb /\ (nb <= 30)%nat /\ Z.of_nat (a_numreqs a) < two32 /\ prg_ok (e_prg e) /\
  Forall (fun k => length (k_msg k) = 12%nat /\ fair (k_order k) /\ length (k_pk k) = 32%nat /\
                   forall i, length (k_rows k i) = bool_bytes (top nb)) [v_0 v; v_1 v].
