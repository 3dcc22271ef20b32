(** * A server whose peer has gone

    The model of Proc.v runs both servers to the end.  Here the other server's process
    has ended (crash, kill, lost connection) and its sockets are closed: what the
    remaining server does with the bytes that had arrived before. *)
From Coq Require Import ZArith List.
From Verif Require Import Proc.
Import ListNotations.
Open Scope nat_scope.

(** [alone p i a]: the remaining server, about to run [p] with the bytes [i] still
    unread in its socket buffer, can return [a].

    - A receive for which enough bytes are left is as before.
    - A receive at the end of the stream: [recv] returns 0, [recv_in] returns early
      (/repo/net_share.cpp:25-26), and the callers below ignore what it returns
      (/repo/server.cpp:132-137, 343, 365, 440, 470, 541, 562, 648, 671).  The destination
      keeps the bytes that did arrive; behind them it holds what it held before.  These
      destinations are uninitialised variables and arrays, so [old] is arbitrary.
      (Simplification: this describes the receives of sizes, identities, words, word
      arrays and packed booleans, which is all that BIT_SUM, INT_SUM, AND, OR, MAX and
      MIN use; [recv_fmpz] leaves its variable unchanged instead.)
    - [send] on the closed connection either still succeeds (the bytes are lost), or
      SIGPIPE ends the process, and then nothing is returned.
    - An oblivious transfer cannot be completed: the emp library keeps reading at the
      end of its stream.  One of no transfers at all is allowed to return.
    - [Undef] and [Xchg] (not used by these operations) return nothing here. *)
Inductive alone {A} : proc A -> list Z -> A -> Prop :=
| al_ret a i : alone (Ret a) i a
| al_recv n k i a : n <= length i -> alone (k (firstn n i)) (skipn n i) a -> alone (Recv n k) i a
| al_eof n k i old a : length i < n -> length old = n ->
    alone (k (i ++ skipn (length i) old)) [] a -> alone (Recv n k) i a
| al_send bs k i a : alone k i a -> alone (Send bs k) i a
| al_ots j k i a : alone k i a -> alone (OTSend j [] k) i a
| al_otr j k i a : alone (k []) i a -> alone (OTRecv j [] k) i a.

(** [peer_can_stop_at p q p' q']: when server 0 runs [p] and server 1 runs [q], there
    is, for every capacity of the socket buffers, an execution that reaches a point
    with nothing in flight where what is left to do is [p'] and [q']. *)
Definition peer_can_stop_at {A B} (p : proc A) (q : proc B) (p' : proc A) (q' : proc B) : Prop :=
  forall cap, 1 <= cap -> exists n, steps cap n (start p q) (start p' q').

(** [answers_alone p q a]: server 1 can stop in the middle of the run (it has not yet
    returned) such that server 0 goes on and returns [a]. *)
Definition answers_alone {A B} (p : proc A) (q : proc B) (a : A) : Prop :=
  exists p' q', peer_can_stop_at p q p' q' /\ (forall b, q' <> Ret b) /\ alone p' [] a.
