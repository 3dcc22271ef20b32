(** * Secret sharing and locally generated correlated randomness
    /repo/share.cpp.  Each [fmpz_randm(x, seed, m)] consumes one raw draw [r]
    of the generator and yields [r mod m]; the draws are arguments. *)
From Coq Require Import ZArith List Bool.
From Verif Require Import Words Constants.
Import ListNotations.
Open Scope Z_scope.

Notation p := Int_Modulus (only parsing).

(** [fmpz_randm(A, seed, m)] from the raw draw [r] (FLINT: uniform in [0,m)). *)
Definition fmpz_randm (r m : Z) : Z := r mod m.

(** /repo/share.cpp:9-14 [NextPowerOfTwo]: [ans = 1; while (n+1 > ans) ans *= 2]
    in [unsigned int].  [None] models divergence: after 32 doublings [ans] is 0
    and stays 0. *)
Fixpoint npo2_loop (fuel : nat) (n ans : Z) : option Z :=
  if ans <? u32 (n + 1) then
    match fuel with
    | O => None
    | S f => npo2_loop f n (u32 (ans * 2))
    end
  else Some ans.
Definition NextPowerOfTwo (n : Z) : option Z := npo2_loop 32 (u32 n) 1.

(** /repo/share.cpp:16-20 [SplitShare]: result is the pair (A, B). *)
Definition SplitShare (r val : Z) : Z * Z :=
  let A := fmpz_randm r p in
  (A, (val - A) mod p).

(** /repo/share.cpp:22-28 [Cor::Cor(x, y)]. *)
Definition Cor_of (x y : CorShare) : Cor :=
  mkCor ((shareD x + shareD y) mod p) ((shareE x + shareE y) mod p).

(** /repo/share.cpp:45-54 [NewBeaverTriple], draws [r1], [r2]. *)
Definition NewBeaverTriple (r1 r2 : Z) : BeaverTriple :=
  let A := fmpz_randm r1 p in
  let B := fmpz_randm r2 p in
  mkBT A B ((A * B) mod p).

(** /repo/share.cpp:56-62 [BeaverTripleShares], draws [r1], [r2], [r3]. *)
Definition BeaverTripleShares (r1 r2 r3 : Z) (t : BeaverTriple)
  : BeaverTripleShare * BeaverTripleShare :=
  let (a0, a1) := SplitShare r1 (bt_A t) in
  let (b0, b1) := SplitShare r2 (bt_B t) in
  let (c0, c1) := SplitShare r3 (bt_C t) in
  (mkBTS a0 b0 c0, mkBTS a1 b1 c1).

(** /repo/share.cpp:64-98 [makeLocalDaBit], draws [r1] (bit) and [r2] (share). *)
Definition makeLocalDaBit (r1 r2 : Z) : DaBit * DaBit :=
  let bit := fmpz_randm r1 2 in
  let adjust := bit + 1 in
  let adjust_mod := p - adjust in
  let bp0 := fmpz_randm r2 adjust_mod + adjust in
  let bp1 := (bit - bp0) mod p in
  (mkDaBit bp0 (Z.odd bp0), mkDaBit bp1 (Z.even bp1)).

(** /repo/share.cpp:101-128 [makeLocalEdaBit]: one daBit per pair of draws.
    [pow] is [2^i mod p], [r0], [r1] the accumulated arithmetic shares. *)
Fixpoint edabit_loop (draws : list (Z * Z)) (pow r0 r1 : Z) (bs0 bs1 : list bool)
  : EdaBit * EdaBit :=
  match draws with
  | [] => (mkEdaBit r0 bs0, mkEdaBit r1 bs1)
  | (d1, d2) :: draws' =>
      let (bit0, bit1) := makeLocalDaBit d1 d2 in
      edabit_loop draws' ((pow * 2) mod p)
        ((r0 + pow * bp bit0) mod p) ((r1 + pow * bp bit1) mod p)
        (bs0 ++ [b2 bit0]) (bs1 ++ [b2 bit1])
  end.
Definition makeLocalEdaBit (draws : list (Z * Z)) : EdaBit * EdaBit :=
  edabit_loop draws 1 0 0 [] [].

(** /repo/share.h:198-206 [EdaBit::get_int_b] (an [int]; overflow for 32 or more
    bits is undefined and modelled as [None]). *)
Fixpoint get_int_b_loop (bs : list bool) (pow ans : Z) : option Z :=
  match bs with
  | [] => Some ans
  | b :: bs' =>
      let ans' := if b then ans + pow else ans in
      let pow' := pow * 2 in
      if (2147483647 <? ans') then None
      else match bs' with
           | [] => if (2147483647 <? pow') then None else Some ans'
           | _ => if (2147483647 <? pow') then None else get_int_b_loop bs' pow' ans'
           end
  end.
Definition get_int_b (e : EdaBit) : option Z := get_int_b_loop (eb e) 1 0.

(** /repo/fmpz_utils.cpp:26-32 [fmpz_from_bool_array]. *)
Fixpoint from_bool_array_loop (bs : list bool) (i x : Z) : Z :=
  match bs with
  | [] => x
  | b :: bs' => from_bool_array_loop bs' (i + 1) (if b then Z.setbit x i else x)
  end.
Definition fmpz_from_bool_array (bs : list bool) : Z := from_bool_array_loop bs 0 0.
