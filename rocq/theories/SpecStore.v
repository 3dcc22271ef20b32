(** * Specification of the store of correlated randomness *)
From Coq Require Import ZArith List Bool.
From Verif Require Import Words Constants SpecShare Proc Correlated.
Import ListNotations.

(** The two servers' constant parameters agree except for the server number. *)
Definition params_ok (c0 c1 : store_params) : Prop :=
  server_num c0 = false /\ server_num c1 = true /\
  batch_size c0 = batch_size c1 /\ nbits c0 = nbits c1 /\ lazy c0 = lazy c1.

(** The queues of the two servers belong together entry by entry. *)
Definition stores_paired (s0 s1 : store) : Prop :=
  Forall2 dabit_pair (dabit_store s0) (dabit_store s1) /\
  Forall2 btriple_pair (btriple_store s0) (btriple_store s1).

(** [ts] was taken, in order, from the front of the queue [q] after appending some
    freshly generated items [gen], leaving [q']: nothing is lost, duplicated or
    handed out twice. *)
Definition took {A} (ts q q' : list A) : Prop := exists gen, q ++ gen = ts ++ q'.

(** Exactly the triples [ts] (the daBits [ds]) were consumed; the other queue was
    at most refilled; the random tape only moved forward. *)
Definition took_b ts (s s' : store) : Prop :=
  took ts (btriple_store s) (btriple_store s') /\ took [] (dabit_store s) (dabit_store s') /\ (ctr s <= ctr s')%nat.
Definition took_d ds (s s' : store) : Prop :=
  took ds (dabit_store s) (dabit_store s') /\ took [] (btriple_store s) (btriple_store s') /\ (ctr s <= ctr s')%nat.

(** A history of uses of the store. *)
Inductive store_op :=
| OpAddBool (n : nat)        (** addBoolTriples(n) *)
| OpAddDa (n : nat)          (** addDaBits(n) *)
| OpCheckBool (n : nat)      (** checkBoolTriples(n) *)
| OpCheckDa (n : nat)        (** checkDaBits(n) *)
| OpGetBool (n : nat)        (** n times getBoolTriple() *)
| OpGetDa (n : nat)          (** n times getDaBit() *)
| OpUpdate.                  (** maybeUpdate() *)

(** Run a history, collecting everything handed out. *)
Fixpoint run_store (c : store_params) (T : nat -> Z) (ops : list store_op) (s : store)
  : proc (list BoolTriple * list DaBit * store) :=
  match ops with
  | [] => Ret ([], [], s)
  | op :: ops' =>
      r <- match op with
           | OpAddBool n => s' <- addBoolTriples c T n s ;; Ret ([], [], s')
           | OpAddDa n => s' <- addDaBits c T n s ;; Ret ([], [], s')
           | OpCheckBool n => s' <- checkBoolTriples c T n s ;; Ret ([], [], s')
           | OpCheckDa n => s' <- checkDaBits c T n s ;; Ret ([], [], s')
           | OpGetBool n => r <- getBoolTriples c T n s ;; Ret (fst r, [], snd r)
           | OpGetDa n => r <- getDaBits c T n s ;; Ret ([], fst r, snd r)
           | OpUpdate => s' <- maybeUpdate c T s ;; Ret ([], [], s')
           end ;;
      r' <- run_store c T ops' (snd r) ;;
      Ret (fst (fst r) ++ fst (fst r'), snd (fst r) ++ snd (fst r'), snd r')
  end.

(** How many items a history asks for. *)
Definition asked_bool (ops : list store_op) : nat :=
  fold_right Nat.add 0%nat (map (fun op => match op with OpGetBool n => n | _ => 0%nat end) ops).
Definition asked_da (ops : list store_op) : nat :=
  fold_right Nat.add 0%nat (map (fun op => match op with OpGetDa n => n | _ => 0%nat end) ops).

(** First exchange of a process: what it hands to the other server. *)
Definition first_xchg {A} (p : proc A) : option (list Z) :=
  match p with Xchg bs _ _ => Some bs | _ => None end.

(** Rows have the given widths. *)
Definition rows_wf (nbs : list nat) (x : list (list bool)) : Prop := map (@length bool) x = nbs.
