(** * The store of correlated randomness: /repo/correlated.cpp

    Object state: the two queues, and the position [ctr] in the server's random
    tape [T] (raw draws; [prg.random_bool] uses the low bit, [fmpz_randm] and
    [% mod] reduce).  Each draw uses a fresh position.  Sizes are [nat]
    (the code uses [size_t]; products are assumed not to overflow).
    [do_fork] is true (/repo/server.cpp:1488): sends run in a forked child
    concurrently with the parent's receives. *)
From Coq Require Import ZArith List Bool.
From Verif Require Import Words Constants Share Proc Net OT.
Import ListNotations.
Open Scope Z_scope.

(** /repo/correlated.h:31-41 constant members. *)
Record store_params := mkParams {
  batch_size : nat;
  server_num : bool;      (** false = server 0, true = server 1 *)
  nbits : nat;
  lazy : bool
}.
Definition bool_batch_size (c : store_params) : nat := (batch_size c * nbits c)%nat.

(** /repo/correlated.h:43-44 *)
Record store := mkStore {
  dabit_store : list DaBit;
  btriple_store : list BoolTriple;
  ctr : nat
}.

Definition with_dabits (s : store) (l : list DaBit) : store := mkStore l (btriple_store s) (ctr s).
Definition with_btriples (s : store) (l : list BoolTriple) : store := mkStore (dabit_store s) l (ctr s).
Definition advance (s : store) (n : nat) : store :=
  mkStore (dabit_store s) (btriple_store s) (ctr s + n).

(** [n] random bits / words from position [from] on. *)
Definition draw_bits (T : nat -> Z) (from n : nat) : list bool :=
  map (fun i => Z.odd (T i)) (seq from n).
Definition draw_words (T : nat -> Z) (from n : nat) : list Z :=
  map (fun i => u64 (T i)) (seq from n).

(** /repo/correlated.cpp:12-22 *)
Definition addBoolTriples (c : store_params) (T : nat -> Z) (n : nat) (s : store) : proc store :=
  let m := if (bool_batch_size c <? n)%nat then n else bool_batch_size c in
  new <- gen_boolean_beaver_triples (server_num c)
           (draw_bits T (ctr s) m) (draw_bits T (ctr s + m) m) (draw_bits T (ctr s + 2 * m) m) ;;
  Ret (advance (with_btriples s (btriple_store s ++ new)) (3 * m)).

(** /repo/correlated.cpp:345-385 [generateDaBit]: [b] random bits, [w] random
    words (used by server 0 only). *)
Definition dabit_msgs (b : list bool) (w : list Z) : list (Z * Z) :=
  map2 (fun bi wi => (wi mod Int_Modulus, (wi mod Int_Modulus + b2z bi) mod Int_Modulus)) b w.
Definition dabit_out (b : list bool) (x : list Z) : list DaBit :=
  map2 (fun bi xi => mkDaBit (u64 (b2z bi + 2 * u64 (Int_Modulus - xi)) mod Int_Modulus) bi) b x.
Definition generateDaBit (server : bool) (b : list bool) (w : list Z) : proc (list DaBit) :=
  if server then OTRecv false b (fun x => Ret (dabit_out b x))
  else OTSend false (dabit_msgs b w)
         (Ret (dabit_out b (map (fun wi => Int_Modulus - wi mod Int_Modulus) w))).

(** /repo/correlated.cpp:24-58 *)
Definition addDaBits (c : store_params) (T : nat -> Z) (n : nat) (s : store) : proc store :=
  let m := if (batch_size c <? n)%nat then n else batch_size c in
  if lazy c then
    if server_num c then
      new <- recv_DaBit_batch m ;;
      Ret (with_dabits s (dabit_store s ++ new))
    else
      let pairs := map (fun i => makeLocalDaBit (T (ctr s + 2 * i)%nat) (T (ctr s + 2 * i + 1)%nat))
                       (seq 0 m) in
      send_DaBit_batch (map snd pairs) ;;;
      Ret (advance (with_dabits s (dabit_store s ++ map fst pairs)) (2 * m))
  else
    new <- generateDaBit (server_num c) (draw_bits T (ctr s) m) (draw_words T (ctr s + m) m) ;;
    Ret (advance (with_dabits s (dabit_store s ++ new)) (2 * m)).

(** /repo/correlated.cpp:60-66 *)
Definition checkBoolTriples (c : store_params) (T : nat -> Z) (n : nat) (s : store) : proc store :=
  if (length (btriple_store s) <? n)%nat
  then addBoolTriples c T (n - length (btriple_store s)) s else Ret s.
Definition checkDaBits (c : store_params) (T : nat -> Z) (n : nat) (s : store) : proc store :=
  if (length (dabit_store s) <? n)%nat
  then addDaBits c T (n - length (dabit_store s)) s else Ret s.

(** /repo/correlated.cpp:68-80; [front] of an empty queue is undefined. *)
Definition getBoolTriple (c : store_params) (T : nat -> Z) (s : store) : proc (BoolTriple * store) :=
  s' <- checkBoolTriples c T 1 s ;;
  match btriple_store s' with
  | [] => Undef
  | t :: l => Ret (t, with_btriples s' l)
  end.
Definition getDaBit (c : store_params) (T : nat -> Z) (s : store) : proc (DaBit * store) :=
  s' <- checkDaBits c T 1 s ;;
  match dabit_store s' with
  | [] => Undef
  | t :: l => Ret (t, with_dabits s' l)
  end.

(** /repo/correlated.cpp:88-106.  [btrip_target = 0], so no triples are made. *)
Definition maybeUpdate (c : store_params) (T : nat -> Z) (s : store) : proc store :=
  let make_da := (length (dabit_store s) <? batch_size c * nbits c / 2)%nat in
  let da_target := (2 * (if make_da then 1 else 0) * nbits c)%nat in
  s1 <- (if (length (btriple_store s) <? 0 * bool_batch_size c)%nat
         then addBoolTriples c T (0 * bool_batch_size c) s else Ret s) ;;
  if (length (dabit_store s1) <? da_target * batch_size c)%nat
  then addDaBits c T (da_target * batch_size c) s1 else Ret s1.

(** [n] successive calls of [getBoolTriple] / [getDaBit]. *)
Fixpoint getBoolTriples (c : store_params) (T : nat -> Z) (n : nat) (s : store)
  : proc (list BoolTriple * store) :=
  match n with
  | O => Ret ([], s)
  | S n' =>
      ts <- getBoolTriple c T s ;;
      r <- getBoolTriples c T n' (snd ts) ;;
      Ret (fst ts :: fst r, snd r)
  end.
Fixpoint getDaBits (c : store_params) (T : nat -> Z) (n : nat) (s : store)
  : proc (list DaBit * store) :=
  match n with
  | O => Ret ([], s)
  | S n' =>
      ts <- getDaBit c T s ;;
      r <- getDaBits c T n' (snd ts) ;;
      Ret (fst ts :: fst r, snd r)
  end.

(** Local computation of /repo/correlated.cpp:152-158. *)
Definition mult_out (server : bool) (x y : list bool) (ts : list BoolTriple)
  (d_other e_other : list bool) : list bool :=
  map3 (fun xy t de =>
          let d := xorb (xorb (fst xy) (ta t)) (fst de) in
          let e := xorb (xorb (snd xy) (tb t)) (snd de) in
          let z := xorb (tc t) (xorb (fst xy && e) (snd xy && d)) in
          if server then z else xorb z (d && e))
       (combine x y) ts (combine d_other e_other).

(** /repo/correlated.cpp:121-167 [multiplyBoolShares] *)
Definition multiplyBoolShares (c : store_params) (T : nat -> Z) (x y : list bool) (s : store)
  : proc (list bool * store) :=
  let N := length x in
  s1 <- checkBoolTriples c T N s ;;
  r <- getBoolTriples c T N s1 ;;
  let ts := fst r in
  let d_this := map2 (fun xi t => xorb xi (ta t)) x ts in
  let e_this := map2 (fun yi t => xorb yi (tb t)) y ts in
  Xchg (pack_bools d_this ++ pack_bools e_this) (bool_bytes N + bool_bytes N) (fun bs =>
    let d_other := unpack_bools N (firstn (bool_bytes N) bs) in
    let e_other := unpack_bools N (skipn (bool_bytes N) bs) in
    Ret (mult_out (server_num c) x y ts d_other e_other, snd r)).

(** /repo/correlated.cpp:172-219 [addBinaryShares].  A row is
    (x[i], y[i]) and [nbs] the widths; [z] rows are extended bit by bit. *)
Definition active (j : nat) (nb : nat) : bool := (j <? nb)%nat.
(** lines 192-200 *)
Definition ab_inputs (j : nat) (nbs : list nat) (v : list (list bool)) (carry : list bool)
  : list bool :=
  concat (map3 (fun nb vi ci => if active j nb then [xorb ci (nth j vi false)] else [])
               nbs v carry).
Definition ab_z (j : nat) (nbs : list nat) (x y z : list (list bool)) (carry : list bool)
  : list (list bool) :=
  map3 (fun nb xy zc => if active j nb
          then fst zc ++ [xorb (xorb (snd zc) (nth j (fst xy) false)) (nth j (snd xy) false)]
          else fst zc)
       nbs (combine x y) (combine z carry).
(** lines 204-210 *)
Fixpoint ab_scatter (j : nat) (nbs : list nat) (carry new_carry : list bool) : list bool :=
  match nbs, carry with
  | nb :: nbs', ci :: carry' =>
      if active j nb then
        match new_carry with
        | n :: new' => xorb ci n :: ab_scatter j nbs' carry' new'
        | [] => carry
        end
      else ci :: ab_scatter j nbs' carry' new_carry
  | _, _ => carry
  end.
(** lines 191-213; [rounds] iterations are left, starting with bit [j]. *)
Fixpoint ab_rounds (c : store_params) (T : nat -> Z) (rounds j : nat) (nbs : list nat)
  (x y z : list (list bool)) (carry : list bool) (s : store)
  : proc (list bool * list (list bool) * store) :=
  match rounds with
  | O => Ret (carry, z, s)
  | S rounds' =>
      r <- multiplyBoolShares c T (ab_inputs j nbs x carry) (ab_inputs j nbs y carry) s ;;
      ab_rounds c T rounds' (S j) nbs x y (ab_z j nbs x y z carry)
                (ab_scatter j nbs carry (fst r)) (snd r)
  end.
Definition addBinaryShares (c : store_params) (T : nat -> Z) (nbs : list nat)
  (x y : list (list bool)) (s : store) : proc (list bool * list (list bool) * store) :=
  s1 <- checkBoolTriples c T (total nbs) s ;;
  ab_rounds c T (fold_right Nat.max 0%nat nbs) 0 nbs x y (map (fun _ => []) nbs)
            (map (fun _ => false) nbs) s1.

(** Local computation of /repo/correlated.cpp:247-258. *)
Definition b2a_out (server : bool) (x : list bool) (ds : list DaBit) (v_other : list bool) : list Z :=
  map3 (fun xi d vo =>
          if xorb (xorb xi (b2 d)) vo
          then (- bp d + b2z server) mod Int_Modulus
          else bp d) x ds v_other.

(** /repo/correlated.cpp:221-266 [b2a_daBit_single] *)
Definition b2a_daBit_single (c : store_params) (T : nat -> Z) (x : list bool) (s : store)
  : proc (list Z * store) :=
  let N := length x in
  s1 <- checkDaBits c T N s ;;
  r <- getDaBits c T N s1 ;;
  let v_this := map2 (fun xi d => xorb xi (b2 d)) x (fst r) in
  Xchg (pack_bools v_this) (bool_bytes N) (fun bs =>
    Ret (b2a_out (server_num c) x (fst r) (unpack_bools N bs), snd r)).

(** [(1 << j)] of type [int], converted to [ulong] (/repo/correlated.cpp:293). *)
Definition shl_int_ulong (j : nat) : Z := if (j =? 31)%nat then two64 - 2147483648 else 2 ^ Z.of_nat j.

(** /repo/correlated.cpp:292-295 *)
Fixpoint multi_acc (xs : list Z) (j : nat) (acc : Z) : Z :=
  match xs with
  | [] => acc
  | x :: xs' => multi_acc xs' (S j) ((acc + x * shl_int_ulong j) mod Int_Modulus)
  end.

(** /repo/correlated.cpp:268-303 [b2a_daBit_multi]; widths above 32 shift an
    [int] by 32 or more: undefined. *)
Definition b2a_daBit_multi (c : store_params) (T : nat -> Z) (num_bits : list nat) (x : list Z)
  (s : store) : proc (list Z * store) :=
  if forallb (fun nb => (nb <=? 32)%nat) num_bits then
    s1 <- checkDaBits c T (total num_bits) s ;;
    let x2 := concat (map2 (fun nb xi => map (fun j => Z.testbit xi (Z.of_nat j)) (seq 0 nb))
                           num_bits x) in
    r <- b2a_daBit_single c T x2 s1 ;;
    Ret (map (fun l => multi_acc l 0 0) (pieces num_bits (fst r)), snd r)
  else Undef.

(** /repo/correlated.cpp:306-340 [b2a_ot]: rows of [num_values] numbers (here a
    list of rows instead of the flat array); [rnd] is server 0's tape. *)
Definition b2a_ot (server : bool) (rnd : nat -> Z) (num_bits : list nat) (x : list (list Z))
  (mod_ : Z) : proc (list (list Z)) :=
  let x2 := map (map u64) x in
  if server then intsum_ot_receiver false x2 num_bits mod_
  else intsum_ot_sender false rnd x2 (map (fun _ => true) x) num_bits mod_.
