(** * Proofs of validity (SNIPs): client packets and the servers' check
    /repo/client.h:14-95, /repo/server.h:93-326, /repo/server.cpp:119-149,195-294.
    Server numbers are booleans: [false] is server 0, [true] is server 1. *)
From Coq Require Import ZArith List Bool.
From Verif Require Import Words Constants Share Proc Net Poly Circuit.
Import ListNotations.
Open Scope Z_scope.

(** ** Client *)

(** /repo/client.h:14-95 [share_polynomials], for the circuit [c] whose wires were
    evaluated to [wires].  [T] is the tape of draws of the generator [seed] and
    [s] the position reached on it; draws are made in the order of the code
    ([F(0)], [G(0)], one per point of h, three for f0/g0/h0, one per
    multiplication gate, two for the triple, three to share it).  [t] are the
    root tables in use (lines 41-43, [client_roots] below).  [None]:
    [NextPowerOfTwo] diverges.  Result: packets for server 0 and 1 and the new
    tape position. *)
Definition share_polynomials (t : root_tables) (c : circuit) (wires : list Z)
  (T : nat -> Z) (s : nat) : option (ClientPacket * ClientPacket * nat) :=
  let n := NumMulGates c in
  match NextPowerOfTwo (Z.of_nat n) with
  | None => None
  | Some Nz =>
      let N := Z.to_nat Nz in
      let f0 := fmpz_randm (T s) p in
      let g0 := fmpz_randm (T (s + 1)%nat) p in
      let h0 := (f0 * g0) mod p in
      let pad := repeat 0 (N - 1 - n) in
      let pointsF := f0 :: map (fun m => nth (snd (fst m)) wires 0) (mul_gates c) ++ pad in
      let pointsG := g0 :: map (fun m => nth (snd m) wires 0) (mul_gates c) ++ pad in
      let polyF := fft_interpolate p N (invroots t) pointsF true in
      let polyG := fft_interpolate p N (invroots t) pointsG true in
      let paddedF := polyF ++ repeat 0 N in
      let paddedG := polyG ++ repeat 0 N in
      let evalsF := fft_interpolate p (2 * N) (roots2 t) paddedF false in
      let evalsG := fft_interpolate p (2 * N) (roots2 t) paddedG false in
      let h_val j := (nth (2 * j + 1) evalsF 0 * nth (2 * j + 1) evalsG 0) mod p in
      let hs := map (fun j => SplitShare (T (s + 2 + j)%nat) (h_val j)) (seq 0 N) in
      let f0s := SplitShare (T (s + 2 + N)%nat) f0 in
      let g0s := SplitShare (T (s + 3 + N)%nat) g0 in
      let h0s := SplitShare (T (s + 4 + N)%nat) h0 in
      let muls := GetMulShares c wires (map (fun i => T (s + 5 + N + i)%nat) (seq 0 n)) in
      let u := (s + 5 + N + n)%nat in
      let triple := NewBeaverTriple (T u) (T (u + 1)%nat) in
      let ts := BeaverTripleShares (T (u + 2)%nat) (T (u + 3)%nat) (T (u + 4)%nat) triple in
      Some (mkPacket (fst muls) (fst f0s) (fst g0s) (fst h0s) (map fst hs) (fst ts),
            mkPacket (snd muls) (snd f0s) (snd g0s) (snd h0s) (map snd hs) (snd ts),
            (u + 5)%nat)
  end.

(** /repo/client.h:41-43: tables are created at the first call and reused. *)
Definition client_roots (cur : option root_tables) (N : nat) : root_tables :=
  match cur with None => init_roots N | Some t => t end.

(** ** Precomputation for the challenge point *)

(** /repo/server.h:93-132 [CheckerPreComp]. *)
Record CheckerPreComp := mkCheckerPre {
  degN : precomp; deg2N : precomp; cx : Z; xN : precomp_x; x2N : precomp_x
}.

(** /repo/server.h:102-107 and 109-115: construction (from the current root
    tables) followed by [setCheckerPrecomp(val)]; [xN], [x2N] are null in between. *)
Definition setCheckerPrecomp (dN d2N : precomp) (val : Z) : CheckerPreComp :=
  mkCheckerPre dN d2N val (precomp_x_init dN val) (precomp_x_init d2N val).
Definition new_CheckerPreComp (t : root_tables) (N : nat) (val : Z) : CheckerPreComp :=
  setCheckerPrecomp (poly_batch_precomp_init p N (roots t))
                    (poly_batch_precomp_init p (2 * N) (roots2 t)) val.

(** Global variables used for validation: /repo/server.cpp:30-33 [randx_uses],
    [randomX], [precomp_store]; /repo/constants.cpp:10-11 the root tables and
    [num_roots]; the number of coefficients already drawn from the common
    generator [snips_seed] (/repo/server.h:136-150). *)
Record snip_state := mkSnip {
  randomX : Z; randx_uses : Z; precomp_store : list (nat * CheckerPreComp);
  num_roots : nat; tables : root_tables; seed_pos : nat
}.

(** /repo/constants.cpp:32-35: [init_roots] does nothing if the tables have size N. *)
Definition init_roots_if (N : nat) (st : snip_state) : snip_state :=
  if Nat.eqb (num_roots st) N then st
  else mkSnip (randomX st) (randx_uses st) (precomp_store st) N (init_roots N) (seed_pos st).

(** [precomp_store.find(N)]. *)
Fixpoint find_pre (N : nat) (l : list (nat * CheckerPreComp)) : option CheckerPreComp :=
  match l with
  | [] => None
  | (M, x) :: l' => if Nat.eqb N M then Some x else find_pre N l'
  end.

(** /repo/server.cpp:139-149 [getPrecomp]. *)
Definition getPrecomp (N : nat) (st : snip_state) : CheckerPreComp * snip_state :=
  match find_pre N (precomp_store st) with
  | Some x => (x, st)
  | None =>
      let x := new_CheckerPreComp (tables st) N (randomX st) in
      (x, mkSnip (randomX st) (randx_uses st) ((N, x) :: precomp_store st)
                 (num_roots st) (tables st) (seed_pos st))
  end.

(** /repo/server.cpp:120-129 [sync_randomX]; [r] is server 1's draw. *)
Definition sync_randomX (server_num : bool) (r : Z) : proc Z :=
  if server_num
  then let x := fmpz_randm r p in send_fmpz x ;;; Ret x
  else recv_fmpz.

(** /repo/server.cpp:1496-1503: refresh at the top of the main loop.
    ([randx_uses > 1e6]: comparison in double, exact here.) *)
Definition refresh_randomX (server_num : bool) (r : Z) (st : snip_state) : proc snip_state :=
  if 1000000 <? randx_uses st then
    x <- sync_randomX server_num r ;;
    Ret (mkSnip x 0
          (map (fun e => (fst e, setCheckerPrecomp (degN (snd e)) (deg2N (snd e)) x)) (precomp_store st))
          (num_roots st) (tables st) (seed_pos st))
  else Ret st.

(** ** Checker *)

(** /repo/server.h:152-197 [Checker]: the fields computed by the constructor. *)
Record Checker := mkChecker {
  ck_server : bool; ck_req : ClientPacket; ck_ckt : circuit; ck_wires : list Z;
  evalF : Z; evalG : Z; evalH : Z
}.

(** /repo/server.h:209-230: the arrays of points ([new_fmpz_array] zeroes them). *)
Definition pointsF (N : nat) (c : circuit) (req : ClientPacket) (w : list Z) : list Z :=
  f0_s req :: map (fun m => nth (snd (fst m)) w 0) (mul_gates c)
           ++ repeat 0 (N - NumMulGates c).
Definition pointsG (N : nat) (c : circuit) (req : ClientPacket) (w : list Z) : list Z :=
  g0_s req :: map (fun m => nth (snd m) w 0) (mul_gates c)
           ++ repeat 0 (N - NumMulGates c).
Definition pointsH (N : nat) (c : circuit) (req : ClientPacket) (w : list Z) : list Z :=
  interleave
    (h0_s req :: map (fun m => nth (fst (fst m)) w 0) (mul_gates c)
              ++ repeat 0 (N - NumMulGates c))
    (map (fun j => nth j (h_points req) 0) (seq 0 N) ++ [0]).

(** Constructor and [evalPoly], /repo/server.h:172-240.  [None]: [NextPowerOfTwo]
    diverges, or one of the client's arrays is too short (read out of bounds). *)
Definition new_Checker (c : circuit) (server_num : bool) (req : ClientPacket)
  (pre : CheckerPreComp) (InputShares : list Z) : option Checker :=
  match NextPowerOfTwo (Z.of_nat (NumMulGates c)) with
  | None => None
  | Some Nz =>
      let N := Z.to_nat Nz in
      if (length (MulShares req) <? NumMulGates c)%nat || (length (h_points req) <? N)%nat
         || (length InputShares <? NumInputs c)%nat then None else
      let w := ImportWires server_num c InputShares (MulShares req) in
      let eF := precomp_x_eval (xN pre) (pointsF N c req w) in
      let eG := (precomp_x_eval (xN pre) (pointsG N c req w) * cx pre) mod p in
      let eH := (precomp_x_eval (x2N pre) (pointsH N c req w) * cx pre) mod p in
      Some (mkChecker server_num req c w eF eG eH)
  end.

(** /repo/server.h:242-253. *)
Definition CorShareFn (ck : Checker) : CorShare :=
  mkCorShare ((evalF ck - shareA (triple_share (ck_req ck))) mod p)
             ((evalG ck - shareB (triple_share (ck_req ck))) mod p).

(** /repo/server.h:300-316 [randSum] with [same_runtime = false]; [out] starts at 0
    (the caller's fresh array), coefficients come from the common tape [K]. *)
Fixpoint randSum_loop (K : nat -> Z) (pos : nat) (arr : list Z) (out : Z) : Z :=
  match arr with
  | [] => out mod p
  | a :: arr' => randSum_loop K (S pos) arr' (out + (fmpz_randm (K pos) p * a) mod p)
  end.

(** /repo/server.h:255-298 [OutShare]; uses [|result_zero| + 1] coefficients. *)
Definition OutShare (K : nat -> Z) (pos : nat) (ck : Checker) (cor : Cor) : Z :=
  let t := triple_share (ck_req ck) in
  let m0 := if ck_server ck then 0 else (cor_D cor * cor_E cor) mod p in
  let m1 := (m0 + (cor_D cor * shareB t) mod p) mod p in
  let m2 := (m1 + (cor_E cor * shareA t) mod p) mod p in
  let m3 := (m2 + shareC t) mod p in
  let mulCheck := (m3 - evalH ck) mod p in
  randSum_loop K pos
    (mulCheck :: map (fun z => nth z (ck_wires ck) 0) (result_zero (ck_ckt ck))) 0.

Definition draws_of (ck : Checker) : nat := S (length (result_zero (ck_ckt ck))).

(** /repo/server.cpp:236-241: one [OutShare] per item, in order. *)
Fixpoint out_shares (K : nat -> Z) (pos : nat) (cks : list Checker) (cors : list Cor)
  : list Z * nat :=
  match cks, cors with
  | ck :: cks', cor :: cors' =>
      let (l, pos') := out_shares K (pos + draws_of ck) cks' cors' in
      (OutShare K pos ck cor :: l, pos')
  | _, _ => ([], pos)
  end.

(** /repo/server.h:319-326. *)
Definition AddToZero (x y : Z) : bool := (x + y) mod p =? 0.

(** ** Exchange by a forked sender *)

(** Bytes a purely sending program hands to the socket. *)
Fixpoint sent_bytes {A} (s : proc A) : option (list Z) :=
  match s with
  | Ret _ => Some []
  | Send bs k => option_map (app bs) (sent_bytes k)
  | _ => None
  end.

(** [fork(); child: s, exit; parent: r; waitpid]: the child sends the bytes of [s]
    while the parent receives.  Simplification: the parent's successive receives,
    [n] bytes in total, are one [Xchg] (there is no other action in between). *)
Definition fork_xchg {A} (s : proc unit) (n : nat) (r : proc A) : proc A :=
  match sent_bytes s with
  | None => Undef
  | Some bs =>
      Xchg bs n (fun l => match feed r l with Some (x, []) => Ret x | _ => Undef end)
  end.

(** ** Validation of a batch *)

Fixpoint all_some {A} (l : list (option A)) : option (list A) :=
  match l with
  | [] => Some []
  | Some x :: l' => option_map (cons x) (all_some l')
  | None :: _ => None
  end.

(** /repo/server.cpp:197-272 [validate_snips].  An item is (circuit[i], packet[i],
    shares_p[i*num_inputs ..]).  [circuit[0]] is dereferenced, so an empty batch
    is undefined behaviour.  (Not modelled: ~Checker's [flint_randclear(seed)],
    /repo/server.h:200, which may free the generator state; timing output.) *)
Definition validate_snips (server_num : bool) (K : nat -> Z) (st : snip_state)
  (items : list (circuit * ClientPacket * list Z)) : proc (list bool * snip_state) :=
  match items with
  | [] => Undef
  | (c0, _, _) :: _ =>
      match NextPowerOfTwo (Z.of_nat (NumMulGates c0)) with
      | None => Undef
      | Some NR =>
          let N := length items in
          let st1 := init_roots_if (Z.to_nat NR) st in
          let (pre, st2) := getPrecomp (Z.to_nat NR) st1 in
          match all_some (map (fun it =>
                  let '(c, req, inp) := it in new_Checker c server_num req pre inp) items) with
          | None => Undef
          | Some cks =>
              let cor_share := map CorShareFn cks in
              other <- fork_xchg (send_CorShare_batch cor_share) (16 * N) (recv_CorShare_batch N) ;;
              let (valid_share, pos') :=
                out_shares K (seed_pos st2) cks (map2 Cor_of cor_share other) in
              valid_other <- fork_xchg (send_fmpz_batch valid_share) (8 * N) (recv_fmpz_batch N) ;;
              Ret (map2 AddToZero valid_share valid_other,
                   mkSnip (randomX st2) (u64 (randx_uses st2 + Z.of_nat N)) (precomp_store st2)
                          (num_roots st2) (tables st2) pos')
          end
      end
  end.

(** /repo/server.cpp:274-294 [accumulate]: rows of valid items are added mod p. *)
Definition accumulate (num_inputs : nat) (rows : list (list Z)) (valid : list bool) : list Z :=
  fold_left (fun ans rv =>
      if snd rv : bool
      then map (fun j => (nth j ans 0 + nth j (fst rv) 0) mod p) (seq 0 num_inputs)
      else ans)
    (combine rows valid) (repeat 0 num_inputs).
