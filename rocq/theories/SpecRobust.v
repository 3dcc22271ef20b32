(** * Vocabulary for honest clients among others (C58) *)
From Coq Require Import ZArith List.
From Verif Require Import Words ServerOps SpecServer ClientOps SpecClient.
Import ListNotations.

(** Each record of [l] was made by a run of the client program, of any length, with
    some generator. *)
Definition made {V W} (one : prg -> nat -> crec V W * nat) (l : list (crec V W)) : Prop :=
  forall r, In r l -> exists g n, prg_ok g /\ In r (fst (requests (one g) n 0)).
(** The same for requests with a proof; [T]: the draws for the proofs. *)
Definition made_proof {V W} (one : prg -> (nat -> Z) -> cstate -> option (crec V W * cstate)) (l : list (crec V W)) : Prop :=
  forall r, In r l -> exists g T s n l' st', prg_ok g /\
    requests_opt (one g T) n (0%nat, s, None) = Some (l', st') /\ In r l'.

(** The identities of the records [l] are different, and of all that arrives under
    such an identity the first acceptable submission is, at both servers, that of [l].
    Nothing is said about submissions under other identities. *)
Definition reach_servers {V W} (fits : V -> bool) (l : list (crec V W)) (subs0 subs1 : list (list Z * V)) : Prop :=
  NoDup (map c_pk l) /\ forall r, In r l ->
    first_sub fits subs0 (c_pk r) = Some (c_0 r) /\ first_sub fits subs1 (c_pk r) = Some (c_1 r).

(** There are at most as many others as there are submissions left. *)
Definition others {V} (honest k : nat) (subs0 subs1 : list (list Z * V)) : Prop :=
  (honest + k <= length subs0)%nat /\ (honest + k <= length subs1)%nat.

(** The histogram [h] with [e j] more in each place [j]. *)
Definition with_extra (h : list Z) (e : nat -> nat) : list Z :=
  map (fun j => Z.add (nth j h 0%Z) (Z.of_nat (e j))) (seq 0 (length h)).
