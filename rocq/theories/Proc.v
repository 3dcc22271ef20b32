(** * Two communicating server processes

    The two servers of /repo/server.cpp talk over one TCP connection
    ([serverfd]) and two oblivious-transfer channels ([ot0], [ot1],
    /repo/ot.cpp:9-50, /repo/server.cpp:1485-1486).  A server function is
    modelled as a [proc]: a tree of its communication actions. *)

From Coq Require Import ZArith List Bool.
From Verif Require Import Words.
Import ListNotations.
Open Scope Z_scope.

(** The communication actions of one server.

    - [Send bs k]     one blocking [send(serverfd, ...)] call, e.g.
                      /repo/net_share.cpp:32,49,73,119; all bytes are handed over
                      (simplification: short writes and errors of [send] on a
                      blocking socket are not modelled);
    - [Recv n k]      [recv_in(serverfd, buf, n)], /repo/net_share.cpp:21-29
                      (its reassembly loop is modelled separately in Net.v);
    - [Xchg bs n k]   [fork()]; the child sends [bs] and exits while the parent
                      receives [n] bytes, then [waitpid], e.g.
                      /repo/correlated.cpp:236-263, /repo/server.cpp:226-242;
                      with [do_fork = true] (/repo/server.cpp:1488);
    - [OTSend i ps k] / [OTRecv i bs k]  [OT_Wrapper::send] / [recv] on channel
                      [ot0] ([i = false]) or [ot1] ([i = true]),
                      /repo/ot.cpp:19-50, ideal functionality;
    - [Undef]         undefined behaviour / abnormal exit reached. *)
Inductive proc (A : Type) : Type :=
| Ret (a : A)
| Undef
| Send (bs : list Z) (k : proc A)
| Recv (n : nat) (k : list Z -> proc A)
| Xchg (bs : list Z) (n : nat) (k : list Z -> proc A)
| OTSend (i : bool) (ps : list (Z * Z)) (k : proc A)
| OTRecv (i : bool) (cs : list bool) (k : list Z -> proc A).

Arguments Ret {A} a.
Arguments Undef {A}.
Arguments Send {A} bs k.
Arguments Recv {A} n k.
Arguments Xchg {A} bs n k.
Arguments OTSend {A} i ps k.
Arguments OTRecv {A} i cs k.

Fixpoint bind {A B} (p : proc A) (f : A -> proc B) : proc B :=
  match p with
  | Ret a => f a
  | Undef => Undef
  | Send bs k => Send bs (bind k f)
  | Recv n k => Recv n (fun l => bind (k l) f)
  | Xchg bs n k => Xchg bs n (fun l => bind (k l) f)
  | OTSend i ps k => OTSend i ps (bind k f)
  | OTRecv i cs k => OTRecv i cs (fun l => bind (k l) f)
  end.

Notation "x <- p ;; q" := (bind p (fun x => q))
  (at level 61, p at next level, right associativity).
Notation "p ;;; q" := (bind p (fun _ => q))
  (at level 61, right associativity).

(** ** Semantics: one server's own moves *)

Inductive act := ATau | ASend (b : Z) | ARecv (b : Z).

(** Sends and receives happen byte by byte, so that a schedule can interleave
    the two servers (and the forked sender with its parent) at any byte. *)
Inductive lstep {A} : proc A -> act -> proc A -> Prop :=
| ls_send0 k : lstep (Send [] k) ATau k
| ls_send b bs k : lstep (Send (b :: bs) k) (ASend b) (Send bs k)
| ls_recv0 k : lstep (Recv 0 k) ATau (k [])
| ls_recv b n k : lstep (Recv (S n) k) (ARecv b) (Recv n (fun l => k (b :: l)))
| ls_xchg0 k : lstep (Xchg [] 0 k) ATau (k [])
| ls_xsend b bs n k : lstep (Xchg (b :: bs) n k) (ASend b) (Xchg bs n k)
| ls_xrecv b bs n k :
    lstep (Xchg bs (S n) k) (ARecv b) (Xchg bs n (fun l => k (b :: l))).

(** Effect of a move on the outgoing and incoming socket buffers; a buffer
    holds at most [cap] bytes. *)
Inductive chan (cap : nat) : act -> list Z -> list Z -> list Z -> list Z -> Prop :=
| ch_tau o i : chan cap ATau o i o i
| ch_send b o i : (length o < cap)%nat -> chan cap (ASend b) o i (o ++ [b]) i
| ch_recv b o i : chan cap (ARecv b) o (b :: i) o i.

(** Ideal oblivious transfer: the receiver gets the chosen message of each pair. *)
Definition ot_select (c : bool) (p : Z * Z) : Z := if c then snd p else fst p.

(** A configuration of the two servers: both processes and the two socket
    buffers (bytes in flight from server 0 to 1, and from 1 to 0). *)
Record config (A B : Type) := Cfg {
  proc0 : proc A;
  proc1 : proc B;
  ch01 : list Z;
  ch10 : list Z
}.
Arguments Cfg {A B}.
Arguments proc0 {A B}. Arguments proc1 {A B}. Arguments ch01 {A B}. Arguments ch10 {A B}.

(** One scheduling step of the pair of servers: either server moves, or an
    oblivious transfer for which both are ready (same channel, same number of
    transfers) takes place. *)
Inductive step {A B} (cap : nat) : config A B -> config A B -> Prop :=
| st_0 a p p' q o i o' i' :
    lstep p a p' -> chan cap a o i o' i' ->
    step cap (Cfg p q o i) (Cfg p' q o' i')
| st_1 a p q q' o i o' i' :
    lstep q a q' -> chan cap a i o i' o' ->
    step cap (Cfg p q o i) (Cfg p q' o' i')
| st_ot01 x ps cs k k' o i :
    length ps = length cs ->
    step cap (Cfg (OTSend x ps k) (OTRecv x cs k') o i)
             (Cfg k (k' (map2 ot_select cs ps)) o i)
| st_ot10 x ps cs k k' o i :
    length ps = length cs ->
    step cap (Cfg (OTRecv x cs k') (OTSend x ps k) o i)
             (Cfg (k' (map2 ot_select cs ps)) k o i).

Inductive steps {A B} (cap : nat) : nat -> config A B -> config A B -> Prop :=
| steps_0 c : steps cap 0 c c
| steps_S n c d e : step cap c d -> steps cap n d e -> steps cap (S n) c e.

(** Both servers start with empty socket buffers. *)
Definition start {A B} (p : proc A) (q : proc B) : config A B := Cfg p q [] [].

(** Both have returned and no byte is left in flight. *)
Definition finished {A B} (a : A) (b : B) : config A B := Cfg (Ret a) (Ret b) [] [].

(** [always p q a b]: for every buffer capacity at least 1 and every schedule,
    running server 0's [p] against server 1's [q] terminates, never deadlocks,
    and ends with results [a] and [b] and no residual bytes. *)
Definition always {A B} (p : proc A) (q : proc B) (a : A) (b : B) : Prop :=
  forall cap, (1 <= cap)%nat ->
  exists n,
    (forall m c, steps cap m (start p q) c -> (m <= n)%nat) /\
    (forall m c, steps cap m (start p q) c ->
       (exists c', step cap c c') \/ c = finished a b).

(** [emits p bs a]: [p] only sends; it sends exactly [bs] and returns [a]. *)
Inductive emits {A} : proc A -> list Z -> A -> Prop :=
| em_ret a : emits (Ret a) [] a
| em_send bs k l a : emits k l a -> emits (Send bs k) (bs ++ l) a.

(** [feed q s]: run a receive-only process on the byte stream [s]; its result
    and the unconsumed rest. *)
Fixpoint feed {A} (q : proc A) (s : list Z) : option (A * list Z) :=
  match q with
  | Ret a => Some (a, s)
  | Recv n k => if (n <=? length s)%nat then feed (k (firstn n s)) (skipn n s) else None
  | _ => None
  end.

