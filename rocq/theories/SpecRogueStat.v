(** * Programs a server may run in place of VAR and LINREG (C70) *)
From Coq Require Import ZArith List Bool.
From Verif Require Import Words Constants Share Proc Net OT Circuit Snip ServerOps SpecServer SpecStat.
Import ListNotations.
Open Scope Z_scope.

(** ** Server 0: the sums over clients of its choice *)

(** In the check of [n] submissions it first reads server 1's numbers and then answers with
    their negatives, so that all checks come out right for server 1. *)
Definition force (n : nat) : proc unit :=
  fork_xchg (send_CorShare_batch (repeat (mkCorShare 0 0) n)) (16 * n) (recv_CorShare_batch n) ;;;
  vs <- recv_fmpz_batch n ;;
  send_fmpz_batch (map (fun v => (- v) mod p) vs) ;;;
  Ret tt.
(** It converts its shares as it should, forces the check, and calls valid whichever
    submissions it likes: [mask].  Result: the sums of its own shares of these. *)
Definition choose_sums (rnd : nat -> Z) (nbs : list nat) (rows : list (list Z)) (mask : list bool) : proc (list Z) :=
  shares_p <- share_convert false rnd nbs rows ;;
  force (length rows) ;;;
  send_bool_batch mask ;;;
  Ret (accumulate (length nbs) shares_p mask).

(** VAR with the sums over the clients for which [want] holds. *)
Definition spy_var (want : list Z -> bool) (num_bits total_inputs : nat) (stream junk : list Z) (rnd : nat -> Z)
  : proc (Z * Z) :=
  match receive (var_one num_bits (NumMulGates CheckVar)) total_inputs (stream, junk) [] with
  | None => Undef
  | Some m =>
      pks <- learn ;;
      let found := map (fun pk => find pk m) pks in
      a <- choose_sums rnd [num_bits; 2 * num_bits]%nat
             (map (fun f => match f with Some (v, v2, _) => [v; v2] | None => [0; 0] end) found)
             (map2 andb (map is_some found) (map want pks)) ;;
      b <- recv_fmpz ;; b2 <- recv_fmpz ;;
      Ret ((b + nth 0 a 0) mod p, (b2 + nth 1 a 0) mod p)
  end.
(** LINREG with the sums over the clients for which [want] holds; [stream]: what follows the degree. *)
Definition spy_linreg (want : list Z -> bool) (num_bits degree total_inputs : nat) (stream junk : list Z) (rnd : nat -> Z)
  : proc (list Z) :=
  match receive (linreg_one num_bits (num_x degree) (num_quad degree) (NumMulGates (CheckLinReg degree))) total_inputs (stream, junk) [] with
  | None => Undef
  | Some m =>
      pks <- learn ;;
      let found := map (fun pk => find pk m) pks in
      a <- choose_sums rnd (linreg_bits num_bits degree)
             (map (fun f => match f with Some (v, _) => linreg_row v | None => repeat 0 (num_fields degree) end) found)
             (map2 andb (map is_some found) (map want pks)) ;;
      b <- recv_fmpz_each (num_fields degree) ;;
      Ret (map2 (fun x y => (x + y) mod p) b a)
  end.

(** ** Server 1: a bit of the square of a private value

    It runs its code except that for the clients for which [want] holds it turns bit [j] of its
    share of the square before the conversion, and takes 2^j from what comes out of it. *)
Definition turned (j : nat) (v2 : Z) : Z := Z.lxor v2 (2 ^ Z.of_nat j).
Definition taken (j : nat) (row : list Z) : list Z := [nth 0 row 0; (nth 1 row 0 - 2 ^ Z.of_nat j) mod p].

Definition bent_sums (K rnd : nat -> Z) (j num_bits : nat) (want : list Z -> bool)
  (l : table (Z * Z * ClientPacket)) (st : snip_state) : proc (list Z * list bool) :=
  shares <- share_convert true rnd [num_bits; 2 * num_bits]%nat
              (map (fun e => let '(v, v2, _) := snd e in [v; if want (fst e) then turned j v2 else v2]) l) ;;
  let shares_p := map2 (fun e row => if want (fst e) then taken j row else row) l shares in
  sv <- validate_snips true K st (map2 (fun e row => (CheckVar, snd (snd e), row)) l shares_p) ;;
  valid <- recv_bool_batch (length l) ;;
  Ret (accumulate 2 shares_p (map2 andb valid (fst sv)), valid).
(** It returns what server 0 told it: which submissions are valid. *)
Definition bend_var (order : iteration) (want : list Z -> bool) (j num_bits total_inputs : nat)
  (stream junk : list Z) (K rnd : nat -> Z) (st : snip_state) : proc (list (list Z * bool)) :=
  match receive (var_one num_bits (NumMulGates CheckVar)) total_inputs (stream, junk) [] with
  | None => Undef
  | Some m =>
      let l := order _ m in
      announce l ;;;
      r <- bent_sums K rnd j num_bits want l st ;;
      send_fmpz (nth 0 (fst r) 0) ;;; send_fmpz (nth 1 (fst r) 0) ;;;
      Ret (combine (map fst l) (snd r))
  end.
(** Bit [j] of the square that client [pk] has shared. *)
Definition square_bit (nb : nat) (subs0 subs1 : list (list Z * (Z * Z * ClientPacket))) (j : nat) (pk : list Z) : bool :=
  match first_sub (var_fits nb) subs0 pk, first_sub (var_fits nb) subs1 pk with
  | Some a, Some b => Z.testbit (nth 1 (var_opened a b) 0) (Z.of_nat j)
  | _, _ => false
  end.
