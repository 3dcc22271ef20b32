(** * Vocabulary for a server facing an arbitrary program at the other end (C67, C68)

    Nothing is assumed of the other server: it need not run the code in /repo/server.cpp. *)
From Coq Require Import ZArith List Bool Arith.
From Verif Require Import Words Proc Net ServerOps SpecServer SpecAvail.
Import ListNotations.

(** What becomes of a server: it returns, its behaviour becomes undefined, or it waits for
    the other side. *)
Inductive fate (A : Type) := Returns (a : A) | Breaks | Waits.
Arguments Returns {A} a. Arguments Breaks {A}. Arguments Waits {A}.

(** The fate of a server running [p] if the bytes arriving over the connection are [i] and
    what arrives in the oblivious transfers in which it is the receiver is [w] (one list per
    transfer).  A receive for which there are not enough bytes waits. *)
Fixpoint against {A} (p : proc A) (i : list Z) (w : list (list Z)) : fate A :=
  match p with
  | Ret a => Returns a
  | Undef => Breaks
  | Send _ k => against k i w
  | Recv n k | Xchg _ n k =>
      if (n <=? length i)%nat then against (k (firstn n i)) (skipn n i) w else Waits
  | OTSend _ _ k => against k i w
  | OTRecv _ cs k =>
      match w with
      | m :: w' => if (length m =? length cs)%nat then against (k m) i w' else Waits
      | [] => Waits
      end
  end.

(** The program [q] at server 1 can make server 0, running [p], arrive at [p']. *)
Definition leads0 {A B} (p : proc A) (q : proc B) (p' : proc A) : Prop :=
  exists cap n c, (1 <= cap)%nat /\ steps cap n (start p q) c /\ proc0 c = p'.
(** The program [q] at server 0 can make server 1, running [p], arrive at [p']. *)
Definition leads1 {A B} (p : proc A) (q : proc B) (p' : proc A) : Prop :=
  exists cap n c, (1 <= cap)%nat /\ steps cap n (start q p) c /\ proc1 c = p'.

(** The same for server [server]. *)
Definition leads (server : bool) {A B} (p : proc A) (q : proc B) (p' : proc A) : Prop :=
  if server then leads1 p q p' else leads0 p q p'.

(** Whatever the other server runs, the behaviour of server [server] does not become
    undefined, and what it returns satisfies [Q]. *)
Definition safe (server : bool) {A} (p : proc A) (Q : A -> Prop) : Prop :=
  forall B (q : proc B), ~ leads server p q Undef /\ forall r, leads server p q (Ret r) -> Q r.
(** Some program at the other server makes the behaviour of server [server] undefined. *)
Definition breakable (server : bool) {A} (p : proc A) : Prop :=
  exists B (q : proc B), leads server p q Undef.
(** How an operation ends: server 1 has no answer, server 0 has one or refuses. *)
Definition proper (server : bool) {A} (r : result A) : Prop := if server then r = RET_NO_ANS else ended r.

(** Server 1 tells server 0 whose submissions to aggregate: the identities server 0 reads
    from [i], and the bytes that follow them. *)
Definition announced (i : list Z) (pks : list (list Z)) (rest : list Z) : Prop :=
  (8 <= length i)%nat /\
  length pks = Z.to_nat (bswap32 (le_val (firstn 8 i))) /\
  Forall (fun pk => length pk = 32%nat) pks /\
  skipn 8 i = concat pks ++ rest.

(** A loop over a table that visits the identities [pks], in this order and with their
    repetitions, instead of every entry once.  A server 1 that runs its own code with
    this order departs from the code only in whom it announces. *)
Definition replay (pks : list (list Z)) : iteration := fun V m =>
  flat_map (fun pk => match find pk m with Some v => [(pk, v)] | None => [] end) pks.

(** The server has an acceptable submission under [pk]. *)
Definition knows {V} (ok : V -> bool) (subs : list (list Z * V)) (pk : list Z) : bool :=
  match first_sub ok subs pk with Some _ => true | None => false end.
(** Someone of whom the server has an acceptable submission is among [pks] twice. *)
Definition known_twice {V} (ok : V -> bool) (subs : list (list Z * V)) (pks : list (list Z)) : Prop :=
  exists pk a b c, pks = a ++ pk :: b ++ pk :: c /\ knows ok subs pk = true.
(** Word [j] of the server's row for [pk]. *)
Definition own_word (j : nat) (subs : list (list Z * list Z)) (pk : list Z) : Z :=
  match first_sub any subs pk with Some v => nth j v 0%Z | None => 0%Z end.
