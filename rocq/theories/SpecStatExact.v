(** * Vocabulary: equal numbers of draws in VAR, STDDEV and LINREG

    Clients with a generator each.  A client draws [m] blocks from its [emp::PRG] (its private
    value, its shares, its identity) and [k] numbers below [p] from FLINT (the shares of its
    proof); all are to be uniformly distributed. *)
From Coq Require Import ZArith List Bool.
From Verif Require Import Words Constants Share Proc Net OT Circuit Snip ServerOps ClientOps SpecNet SpecSecret SpecPrivacy SpecExact SpecSnip SpecStatPrivacy.
Import ListNotations.
Open Scope Z_scope.

Definition client_draws := (list (list Z) * list Z)%type.
Definition one_client (m k : nat) (d : client_draws) : Prop :=
  length (fst d) = m /\ Forall block (fst d) /\ length (snd d) = k /\ Forall (fun z => 0 <= z < p) (snd d).
Definition all_draws (n m k : nat) (ds : list client_draws) : Prop := length ds = n /\ Forall (one_client m k) ds.

(** How many numbers the proof for circuit [c] takes. *)
Definition proof_draws (c : circuit) : nat := (5 + points_of c + NumMulGates c + 5)%nat.
(** How many blocks a client of VAR, STDDEV or LINREG takes, with its identity. *)
Definition var_blocks : nat := 4.
Definition linreg_blocks (degree : nat) : nat := (3 * blocks (8 * num_x degree) + blocks (8 * num_quad degree) + 3)%nat.

(** The generators that give these draws. *)
Definition draw_tapes (d : client_draws) : tapes := (fun i => nth i (fst d) (repeat 0 16), fun i => nth i (snd d) 0).

(** The draws with which the clients' private values are [vs] and their identities differ. *)
Definition gives {V W} (one : prg -> (nat -> Z) -> cstate -> option (crec (V * ClientPacket) W * cstate)) (m k : nat) (vs : list W)
  (ds : list client_draws) : Prop :=
  all_draws (length vs) m k ds /\
  exists l, separate_with_proofs one (map draw_tapes ds) = Some l /\ map c_real l = vs /\ NoDup (map c_pk l).

(** [F] pairs off the elements of [dom] with those of [dom']. *)
Definition pairs_off {D} (dom dom' : D -> Prop) (F : D -> D) : Prop :=
  exists G, (forall d, dom d -> dom' (F d) /\ G (F d) = d) /\ (forall d, dom' d -> dom (G d) /\ F (G d) = d).

(** Server 0's draws for the conversion of [n] rows with fields of widths [nbs]: one number
    below [p] for every bit.  (/repo/ot.cpp draws a 64-bit word and reduces it; the
    distance from uniform, below 2^-16 for each, is not modelled.) *)
Definition masks (n : nat) (nbs : list nat) (ms : list Z) : Prop :=
  length ms = (n * OT.total nbs)%nat /\ Forall (fun z => 0 <= z < p) ms.

(** What a server has of the clients' records and then is sent and answers, when the clients
    make their draws [ds].  The other arguments are those of the servers' functions:
    [order0], [order1] how tables are traversed, [junk0], [junk1] what lies in memory, [K]
    the stream of the servers' common seed, [rnd0], [rnd1] their draws, [st0], [st1] the
    states of the proof system. *)
Definition var_sees0 nb order0 order1 junk0 junk1 K rnd0 rnd1 st0 st1 (ds : list client_draws)
  (v : list (list Z * (Z * Z * ClientPacket)) * (list Z * (result (nat * Z * Z) * snip_state))) : Prop :=
  exists l stream0 stream1, separate_with_proofs (var_request (2 ^ Z.of_nat nb)) (map draw_tapes ds) = Some l /\
    wire_opt VarShare_bytes (subs0 l) = Some stream0 /\ wire_opt VarShare_bytes (subs1 l) = Some stream1 /\
    seen false l = fst v /\
    sees0 (var_op false order0 nb (length l) stream0 junk0 K rnd0 st0) (var_op true order1 nb (length l) stream1 junk1 K rnd1 st1) (snd v).
Definition var_sees1 nb order0 order1 junk0 junk1 K rnd1 st0 st1 (d : list client_draws * list Z)
  (v : list (list Z * (Z * Z * ClientPacket)) * (list Z * (result (nat * Z * Z) * snip_state))) : Prop :=
  exists l stream0 stream1, separate_with_proofs (var_request (2 ^ Z.of_nat nb)) (map draw_tapes (fst d)) = Some l /\
    wire_opt VarShare_bytes (subs0 l) = Some stream0 /\ wire_opt VarShare_bytes (subs1 l) = Some stream1 /\
    seen true l = fst v /\
    sees1 (var_op false order0 nb (length l) stream0 junk0 K (fun i => nth i (snd d) 0) st0)
          (var_op true order1 nb (length l) stream1 junk1 K rnd1 st1) (snd v).
Definition linreg_sees0 nb degree order0 order1 d0 d1 junk0 junk1 garbage0 garbage1 K rnd0 rnd1 st0 st1 (ds : list client_draws)
  (v : list (list Z * (linreg_vals * ClientPacket)) * (list Z * (result (list Z * list Z) * snip_state))) : Prop :=
  exists l deg stream0 stream1, separate_with_proofs (linreg_request degree (2 ^ Z.of_nat nb)) (map draw_tapes ds) = Some l /\
    sent_bytes (send_size (Z.of_nat degree)) = Some deg /\
    wire_opt (linregshare_bytes degree) (subs0 l) = Some stream0 /\ wire_opt (linregshare_bytes degree) (subs1 l) = Some stream1 /\
    seen false l = fst v /\
    sees0 (linreg_op false order0 nb (length l) (deg ++ stream0) d0 junk0 garbage0 K rnd0 st0)
          (linreg_op true order1 nb (length l) (deg ++ stream1) d1 junk1 garbage1 K rnd1 st1) (snd v).
Definition linreg_sees1 nb degree order0 order1 d0 d1 junk0 junk1 garbage0 garbage1 K rnd1 st0 st1 (d : list client_draws * list Z)
  (v : list (list Z * (linreg_vals * ClientPacket)) * (list Z * (result (list Z * list Z) * snip_state))) : Prop :=
  exists l deg stream0 stream1, separate_with_proofs (linreg_request degree (2 ^ Z.of_nat nb)) (map draw_tapes (fst d)) = Some l /\
    sent_bytes (send_size (Z.of_nat degree)) = Some deg /\
    wire_opt (linregshare_bytes degree) (subs0 l) = Some stream0 /\ wire_opt (linregshare_bytes degree) (subs1 l) = Some stream1 /\
    seen true l = fst v /\
    sees1 (linreg_op false order0 nb (length l) (deg ++ stream0) d0 junk0 garbage0 K (fun i => nth i (snd d) 0) st0)
          (linreg_op true order1 nb (length l) (deg ++ stream1) d1 junk1 garbage1 K rnd1 st1) (snd v).

(** As many elements of [dom] as of [dom'] satisfy [A]. *)
Definition equally_many {D} (dom dom' A : D -> Prop) : Prop :=
  forall E E', NoDup E -> NoDup E' -> (forall d, In d E <-> dom d /\ A d) -> (forall d, In d E' <-> dom' d /\ A d) -> length E = length E'.
