(** * Debugging runs of the client: the [*_invalid] functions of /repo/client.cpp

    Called when [DEBUG_INVALID] is set to true (/repo/client.cpp:37; it is false as
    shipped).  Each makes [numreqs] requests of which some, at fixed places, are
    spoiled, marks these as "(invalid)" and prints the answer expected from the
    others.  [var_op_invalid] and [lin_reg_invalid] are in DebugStat.v. *)
From Coq Require Import ZArith List Bool.
From Verif Require Import Words Constants Proc Net ServerOps ClientOps.
Import ListNotations.
Open Scope Z_scope.

(** One request: the identity [pk_str] made for it, the identities and shares put in
    the two records, the private value, and whether it is marked as invalid. *)
Record drec (V W : Type) := mkD {
  d_id : list Z; d_k0 : list Z; d_k1 : list Z; d_0 : V; d_1 : V; d_real : W; d_valid : bool
}.
Arguments mkD {V W}. Arguments d_id {V W}. Arguments d_k0 {V W}. Arguments d_k1 {V W}.
Arguments d_0 {V W}. Arguments d_1 {V W}. Arguments d_real {V W}. Arguments d_valid {V W}.

(** The records sent to the two servers. *)
Definition dsubs0 {V W} (l : list (drec V W)) : list (list Z * V) := map (fun r => (d_k0 r, d_0 r)) l.
Definition dsubs1 {V W} (l : list (drec V W)) : list (list Z * V) := map (fun r => (d_k1 r, d_1 r)) l.
(** The requests that enter the printed answer. *)
Definition valids {V W} (l : list (drec V W)) : list (crec V W) :=
  map (fun r => mkC (d_id r) (d_0 r) (d_1 r) (d_real r)) (filter d_valid l).

(** [share0.pk[0] = 'q'] *)
Definition with_q (pk : list Z) : list Z := 113 :: skipn 1 pk.
(** Identities of the two records of request [i].  [prev_pk] points into the buffer
    of the previous [pk_str], which the assignment [pk_str = pub_key_to_hex(...)]
    has released: reading it is undefined behaviour.  [stale i] are the 32 bytes
    then found there (arbitrary in the model; the theorems say what they need). *)
Definition key0 (at_q at_prev : nat) (stale : nat -> list Z) (i : nat) (pk : list Z) : list Z :=
  if (i =? at_q)%nat then with_q pk else if (i =? at_prev)%nat then stale i else pk.
Definition key1 (at_prev : nat) (stale : nat -> list Z) (i : nat) (pk : list Z) : list Z :=
  if (i =? at_prev)%nat then stale i else pk.

(** /repo/client.cpp:172-226: 0, 2 and 4 are spoiled.  The blocks of the identities
    are drawn first, then all values, then all shares. *)
Definition marked3 (i : nat) : bool := (i =? 0)%nat || (i =? 2)%nat || (i =? 4)%nat.
Definition bit_sum_invalid (g : prg) (stale : nat -> list Z) (n : nat) : list (drec bool bool) :=
  let real_vals := random_bool g n n in
  let shares0 := random_bool g (n + blocks n) n in
  map (fun i =>
         let pk := pub_key_to_hex (g i) in
         mkD pk (key0 0 2 stale i pk) (key1 4 stale i pk)
             (nth i shares0 false) (xorb (nth i real_vals false) (nth i shares0 false))
             (nth i real_vals false) (negb (marked3 i)))
      (seq 0 n).

(** /repo/client.cpp:300-362: 0 (value not reduced), 1 (share not reduced), 2, 4 and
    6 are spoiled. *)
Definition marked_int (i : nat) : bool := (i <=? 2)%nat || (i =? 4)%nat || (i =? 6)%nat.
Definition int_sum_invalid (max_int : Z) (g : prg) (stale : nat -> list Z) (n : nat) : list (drec Z Z) :=
  let real_vals := random_words g n n in
  let shares0 := random_words g (n + blocks (8 * n)) n in
  map (fun i =>
         let pk := pub_key_to_hex (g i) in
         let real := if (i =? 0)%nat then nth i real_vals 0 else nth i real_vals 0 mod max_int in
         let share0 := if (i =? 1)%nat then nth i shares0 0 else nth i shares0 0 mod max_int in
         mkD pk (key0 2 4 stale i pk) (key1 6 stale i pk)
             share0 (Z.lxor real share0) real (negb (marked_int i)))
      (seq 0 n).

(** /repo/client.cpp:454-540: 0, 2 and 4 are spoiled. *)
Definition xor_op_invalid (is_and : bool) (g : prg) (stale : nat -> list Z) (n : nat) : list (drec Z bool) :=
  let values := random_bool g n n in
  let encoded_values := random_words g (n + blocks n) n in
  let shares0 := random_words g (n + blocks n + blocks (8 * n)) n in
  map (fun i =>
         let pk := pub_key_to_hex (g i) in
         let value := nth i values false in
         let neutral := if is_and then value else negb value in
         let encoded := if neutral then 0 else nth i encoded_values 0 in
         let share0 := nth i shares0 0 in
         mkD pk (key0 0 2 stale i pk) (key1 4 stale i pk)
             share0 (Z.lxor encoded share0) value (negb (marked3 i)))
      (seq 0 n).

(** /repo/client.cpp:653-741: 0, 2 and 4 are spoiled; [B] is 250 there. *)
Definition max_op_invalid (is_max : bool) (B : nat) (g : prg) (stale : nat -> list Z) (n : nat)
  : list (drec (list Z) nat) :=
  let m := (B + 1)%nat in
  let values := random_words g n n in
  map (fun i =>
         let pk := pub_key_to_hex (g i) in
         let value := Z.to_nat (nth i values 0 mod Z.of_nat m) in
         let pos := (n + blocks (8 * n) + i * (2 * blocks (8 * m)))%nat in
         let or_encoded := random_words g pos m in
         let share0 := random_words g (pos + blocks (8 * m)) m in
         let v := if is_max then value else (B - value)%nat in
         let enc := map (fun j => if (v <? j)%nat then 0 else nth j or_encoded 0) (seq 0 m) in
         mkD pk (key0 0 2 stale i pk) (key1 4 stale i pk)
             share0 (map2 Z.lxor share0 enc) value (negb (marked3 i)))
      (seq 0 n).
