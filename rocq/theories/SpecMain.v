(** * Vocabulary for sequences of operations *)
From Coq Require Import ZArith List Bool.
From Verif Require Import Words Constants Share Proc ProcFacts Net RelFacts Correlated SpecStore Snip SpecSnip ServerOps SpecServer Main.
Import ListNotations.
Open Scope Z_scope.

(** The message that opens a connection. *)
Definition init_msg (type : Z) (total B : nat) : list Z :=
  le_bytes 4 type ++ le_bytes 4 (Z.of_nat total) ++ le_bytes 4 (Z.of_nat B).
(** The client on connection [k] asks for an operation and then sends [stream]. *)
Definition opens (k : conn) (type : Z) (total B : nat) (stream : list Z) : Prop :=
  k_stream k = init_msg type total B ++ stream /\ 0 <= type < two32 /\
  Z.of_nat total < two32 /\ Z.of_nat B < two32 /\ length (k_msg k) = 12%nat.

(** The local variables have the sizes of their types. *)
Definition locals_ok (k : conn) : Prop :=
  length (k_bit k) = 33%nat /\ length (k_int k) = 40%nat /\ length (k_var k) = 48%nat /\
  length (k_pk k) = 32%nat /\ length (k_degree k) = 8%nat.

(** Servers started with the same parameters that have exchanged their seeds. *)
Definition hosts_ok (h0 h1 : host) : Prop :=
  h_num_bits h0 = h_num_bits h1 /\ h_K h0 = h_K h1 /\ params_ok (h_params h0) (h_params h1).
(** The states of two servers fit together. *)
Definition states_ok (st0 st1 : server_state) : Prop :=
  synced (fst st0) (fst st1) /\ stores_paired (snd st0) (snd st1).

(** Server 1 prints no answer. *)
Definition silent (out : output) : Prop :=
  match out with
  | OutNothing => True
  | OutInt r => r = RET_NO_ANS
  | OutBool r => r = RET_NO_ANS
  | OutVar _ r => r = RET_NO_ANS
  | OutReg r => r = RET_NO_ANS
  | OutFreq r => r = RET_NO_ANS
  end.

(** Between servers whose states fit together, whatever happened before, and whatever
    the schedule, the operation asked for on this pair of connections ends with an
    output of server 0 that satisfies [R]; nothing remains in the channel between the
    servers (see [always]), and their states fit together again. *)
Definition alone (h0 h1 : host) (k0 k1 : conn) (R : output -> Prop) : Prop :=
  forall st0 st1, states_ok st0 st1 ->
  both (handle false h0 k0 st0) (handle true h1 k1 st1)
    (fun a b => R (fst a) /\ silent (fst b) /\ states_ok (snd a) (snd b)).
