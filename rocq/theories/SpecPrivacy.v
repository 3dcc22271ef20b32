(** * Vocabulary: what a server learns during an operation *)
From Coq Require Import ZArith List Bool.
From Verif Require Import Words Proc ServerOps ClientOps SpecServer SpecSecret.
Import ListNotations.
Open Scope Z_scope.

(** A server that follows its program [p] and writes down everything it receives from
    the other server: bytes from the socket, and the messages of oblivious transfers. *)
Fixpoint logged {A} (log : list Z) (p : proc A) : proc (list Z * A) :=
  match p with
  | Ret a => Ret (log, a)
  | Undef => Undef
  | Send bs k => Send bs (logged log k)
  | Recv n k => Recv n (fun l => logged (log ++ l) (k l))
  | Xchg bs n k => Xchg bs n (fun l => logged (log ++ l) (k l))
  | OTSend i ps k => OTSend i ps (logged log k)
  | OTRecv i cs k => OTRecv i cs (fun l => logged (log ++ l) (k l))
  end.

(** [sees0 p q v]: in every schedule of server 0 running [p] against server 1 running [q],
    server 0 receives, and answers, [v]. *)
Definition sees0 {A B} (p : proc A) (q : proc B) (v : list Z * A) : Prop :=
  exists b, always (logged [] p) q v b.
Definition sees1 {A B} (p : proc A) (q : proc B) (v : list Z * B) : Prop :=
  exists a, always p (logged [] q) a v.

(** The order in which a hash table is traversed depends on its keys only. *)
Definition by_keys (order : iteration) : Prop :=
  forall V (m m' : table V), map fst m = map fst m' -> map fst (order V m) = map fst (order V m').

(** The identities of submissions, and whether each is acceptable. *)
Definition ids {V} (ok : V -> bool) (subs : list (list Z * V)) : list (list Z * bool) :=
  map (fun s => (fst s, ok (snd s))) subs.

(** Clients with a generator each.  (/repo/client.cpp:159-166 etc. with CLIENT_BATCH
    false: every call of the helper makes one request with a new [emp::PRG].) *)
Definition separate {V W} (one : prg -> nat -> crec V W * nat) (gs : list prg) : list (crec V W) :=
  map (fun g => fst (one g 0%nat)) gs.

(** MAX and MIN: the rows encoded by the accepted clients [L], xored together. *)
Definition row_of (B : nat) (subs0 subs1 : list (list Z * list Z)) (L : list (list Z)) : list Z :=
  map (fun j => zxors (map (combined any (xor_at j) 0 subs0 subs1) L)) (seq 0 (B + 1)).

(** A generator's blocks, each xored with a fixed block.  (With uniformly distributed blocks
    the result is distributed as before.) *)
Definition xor_tape (g d : prg) : prg := fun i => map2 Z.lxor (g i) (d i).
