(** * Modular powers, roots of unity, FFT and evaluation from point values
    /repo/constants.cpp:32-84, /repo/poly/fft.c, /repo/poly/poly_batch.c,
    /repo/poly/poly_once.c.  FLINT's integer and polynomial primitives are
    modelled by executable functions meeting their documented contracts. *)
From Coq Require Import ZArith List Bool.
From Verif Require Import Words Constants Share.
Import ListNotations.
Open Scope Z_scope.

(** ** FLINT integer primitives *)

(** [fmpz_powm_ui(f, g, e, m)] = g^e mod m (square and multiply). *)
Fixpoint powm_pos (m a : Z) (e : positive) : Z :=
  match e with
  | xH => a mod m
  | xO e' => let b := powm_pos m a e' in (b * b) mod m
  | xI e' => let b := powm_pos m a e' in (((b * b) mod m) * a) mod m
  end.
Definition powm (m a e : Z) : Z :=
  match e with Zpos e' => powm_pos m a e' | _ => 1 mod m end.

(** [fmpz_invmod(f, a, m)] for prime [m]: the inverse in [0,m) (computed here as
    a^(m-2)); FLINT leaves the output undefined for a = 0 mod m, here it is 0. *)
Definition invmod (m a : Z) : Z := if a mod m =? 0 then 0 else powm m a (m - 2).

(** ** Tables of roots of unity *)

(** The loops at /repo/constants.cpp:68-79:
    [t[0] = cur; t[i] = t[i-1] * g mod m]. *)
Fixpoint root_table (m g cur : Z) (n : nat) : list Z :=
  match n with
  | O => []
  | S n' => cur :: root_table m g ((cur * g) mod m) n'
  end.

(** /repo/constants.cpp:32-84 [init_roots(N)] (the three global tables).  The
    early return when the tables already have size N is [init_roots_if] in Snip.v. *)
Record root_tables := mkRoots {
  roots : list Z; invroots : list Z; roots2 : list Z
}.
Definition init_roots (N : nat) : root_tables :=
  let step_size := 2 ^ twoOrder / Z.of_nat N in
  let ginv := invmod p Int_Gen in
  let g_ := powm p Int_Gen step_size in
  let ginv_ := powm p ginv step_size in
  let ghalf_ := powm p Int_Gen (step_size / 2) in
  mkRoots (root_table p g_ 1 N) (root_table p ginv_ 1 N) (root_table p ghalf_ 1 (2 * N)).

(** ** FFT *)

Fixpoint interleave {A} (l m : list A) : list A :=
  match l, m with
  | x :: l', y :: m' => x :: y :: interleave l' m'
  | _, _ => []
  end.

(** /repo/poly/fft.c:4-35 [fft_recurse].  [n] is a power of two at every call
    (the caller passes NextPowerOfTwo(..) or twice it); [fuel] is only there to
    make the recursion structural.  The scratch arrays [tmp], [ySub] and
    [rootsSub] are local lists; the two writes to [out] are the interleaving. *)
Fixpoint fft_recurse (fuel : nat) (m : Z) (n : nat) (rts ys : list Z) : list Z :=
  match fuel with
  | O => []
  | S f =>
      if Nat.eqb n 1 then [nth 0 ys 0] else
      let h := Nat.div n 2 in
      let rootsSub := map (fun i => nth (2 * i) rts 0) (seq 0 h) in
      let ySub0 := map (fun i => (nth i ys 0 + nth (i + h) ys 0) mod m) (seq 0 h) in
      let ySub1 := map (fun i =>
        (((nth i ys 0 - nth (i + h) ys 0) mod m) * nth i rts 0) mod m) (seq 0 h) in
      interleave (fft_recurse f m h rootsSub ySub0) (fft_recurse f m h rootsSub ySub1)
  end.

(** /repo/poly/fft.c:37-72 [fft_interpolate]. *)
Definition fft_interpolate (m : Z) (nPoints : nat) (rts ys : list Z) (invert : bool)
  : list Z :=
  let out := fft_recurse nPoints m nPoints rts ys in
  if invert then
    let n_inverse := invmod m (Z.of_nat nPoints) in
    map (fun x => (x * n_inverse) mod m) out
  else out.

(** ** FLINT polynomials modulo m ([fmpz_mod_poly_t]): coefficient lists, lowest
       coefficient first, not necessarily normalised. *)

Fixpoint padd (m : Z) (a b : list Z) : list Z :=
  match a, b with
  | [], _ => b
  | _, [] => a
  | x :: a', y :: b' => (x + y) mod m :: padd m a' b'
  end.
Definition pscale (m k : Z) (a : list Z) : list Z := map (fun x => (k * x) mod m) a.

(** [fmpz_mod_poly_mul]. *)
Fixpoint pmul (m : Z) (a b : list Z) : list Z :=
  match a with
  | [] => []
  | x :: a' => padd m (pscale m x b) (0 :: pmul m a' b)
  end.

(** [fmpz_mod_poly_derivative]: coefficient i becomes (i+1) * c_(i+1) mod m. *)
Definition pderiv (m : Z) (a : list Z) : list Z :=
  map (fun i => (Z.of_nat (S i) * nth (S i) a 0) mod m) (seq 0 (length a - 1)).

(** [fmpz_mod_poly_rem(R, A, B)] for monic B of degree d (all divisors in the code
    are products of monic linear factors): schoolbook division, from the highest
    coefficient of A downwards; the result has d coefficients. *)
Definition prem_step (m : Z) (b : list Z) (c : Z) (r : list Z) : list Z :=
  let d := (length b - 1)%nat in
  let s := c :: r in
  let t := nth d s 0 in
  map (fun i => (nth i s 0 - t * nth i b 0) mod m) (seq 0 d).
Definition prem (m : Z) (a b : list Z) : list Z :=
  fold_right (prem_step m b) (repeat 0 (length b - 1)) a.

(** ** Product tree and precomputation *)

Inductive tree := Leaf (poly : list Z) | Node (poly : list Z) (l r : tree).
Definition tpoly (t : tree) : list Z :=
  match t with Leaf f => f | Node f _ _ => f end.

(** /repo/poly/poly_batch.c:74-115 [tree_init], for n_points >= 1. *)
Fixpoint tree_init (fuel : nat) (m : Z) (n_points : nat) (pointsX : list Z) : tree :=
  match fuel with
  | O => Leaf []
  | S f =>
      if Nat.eqb n_points 1 then Leaf [(- nth 0 pointsX 0) mod m; 1] else
      let k := Nat.div n_points 2 in
      let left := tree_init f m k pointsX in
      let right := tree_init f m (n_points - k) (skipn k pointsX) in
      Node (pmul m (tpoly left) (tpoly right)) left right
  end.

(** /repo/poly/poly_batch.c:236-255 [fast_evaluate]; the recursion on the number
    of points follows the tree. *)
Fixpoint fast_evaluate (m : Z) (poly : list Z) (t : tree) : list Z :=
  match t with
  | Leaf _ => [nth 0 poly 0]
  | Node _ l r =>
      fast_evaluate m (prem m poly (tpoly l)) l ++ fast_evaluate m (prem m poly (tpoly r)) r
  end.

(** /repo/poly/poly_batch.h [precomp_t]: the fields used afterwards. *)
Record precomp := mkPre { pre_mod : Z; x_points : list Z; s_points : list Z }.

(** /repo/poly/poly_batch.c:117-157 [c_precomp_init], [poly_batch_precomp_init]. *)
Definition poly_batch_precomp_init (m : Z) (n_points : nat) (pointsX : list Z) : precomp :=
  let t := tree_init n_points m n_points pointsX in
  let deriv := pderiv m (tpoly t) in
  mkPre m (firstn n_points pointsX) (map (invmod m) (fast_evaluate m deriv t)).

(** ** Evaluation at one point *)

(** First index at which [x] occurs (/repo/poly/poly_once.c:21-27). *)
Fixpoint index_of (x : Z) (l : list Z) : option nat :=
  match l with
  | [] => None
  | y :: l' => if x =? y then Some O else option_map S (index_of x l')
  end.

(** /repo/poly/poly_once.h [precomp_x_t]. *)
Record precomp_x := mkPreX { px_mod : Z; short_x : option nat; coeffs : list Z }.

(** /repo/poly/poly_once.c:8-63 [precomp_x_init]. *)
Definition precomp_x_init (pre : precomp) (x : Z) : precomp_x :=
  let m := pre_mod pre in
  let prod := fold_left (fun acc xi => (acc * (x - xi)) mod m) (x_points pre) 1 in
  mkPreX m (index_of x (x_points pre))
    (map2 (fun xi si => (invmod m ((x - xi) mod m) * prod * si) mod m)
          (x_points pre) (s_points pre)).

(** /repo/poly/poly_once.c:77-97 [precomp_x_eval]; [yValues] may be longer than
    the number of points. *)
Definition precomp_x_eval (px : precomp_x) (yValues : list Z) : Z :=
  match short_x px with
  | Some i => nth i yValues 0
  | None =>
      fold_left (fun out yc => (out + (fst yc * snd yc) mod px_mod px) mod px_mod px)
                (combine yValues (coeffs px)) 0
  end.
