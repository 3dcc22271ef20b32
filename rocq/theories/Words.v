(** * Machine words and byte strings

    Bytes are [Z] in [0,256); unsigned machine words are [Z] with explicit
    reduction.  These are the host types used all over /repo:
    [uint64_t]/[size_t]/[ulong] = 64 bits, [unsigned int]/[uint32_t] = 32 bits
    (x86-64 Linux, little endian). *)

From Coq Require Import ZArith List Lia Bool.
Import ListNotations.
Open Scope Z_scope.

Definition two32 : Z := 4294967296.
Definition two64 : Z := 18446744073709551616.

(** Conversion to [uint32_t] / [unsigned int] (C++ modular conversion). *)
Definition u32 (z : Z) : Z := z mod two32.

(** Conversion to [uint64_t] / [size_t] (C++ modular conversion). *)
Definition u64 (z : Z) : Z := z mod two64.

(** Conversion to [int] of an unsigned 32-bit pattern (two's complement). *)
Definition int32 (z : Z) : Z :=
  let w := u32 z in if w <? 2147483648 then w else w - two32.

(** In-memory (little endian) representation of an [n]-byte unsigned word. *)
Fixpoint le_bytes (n : nat) (z : Z) : list Z :=
  match n with
  | O => []
  | S n' => z mod 256 :: le_bytes n' (z / 256)
  end.

(** Value of a little endian byte string. *)
Fixpoint le_val (bs : list Z) : Z :=
  match bs with
  | [] => 0
  | b :: bs' => b + 256 * le_val bs'
  end.

Definition is_byte (b : Z) : Prop := 0 <= b < 256.

Definition b2z (b : bool) : Z := if b then 1 else 0.

(** Replace element [i] of a list (array store [l[i] = x], no effect when out
    of range; all uses are in range). *)
Fixpoint upd {A} (i : nat) (x : A) (l : list A) : list A :=
  match l, i with
  | [], _ => []
  | _ :: l', O => x :: l'
  | y :: l', S i' => y :: upd i' x l'
  end.

(** Cut a list into consecutive pieces of [k] elements, [n] of them. *)
Fixpoint chunks {A} (n k : nat) (l : list A) : list (list A) :=
  match n with
  | O => []
  | S n' => firstn k l :: chunks n' k (skipn k l)
  end.

(** Sum of a list of integers. *)
Definition zsum (l : list Z) : Z := fold_right Z.add 0 l.

(** Xor of a list of integers. *)
Definition zxors (l : list Z) : Z := fold_right Z.lxor 0 l.

Fixpoint map2 {A B C} (f : A -> B -> C) (l : list A) (m : list B) : list C :=
  match l, m with
  | x :: l', y :: m' => f x y :: map2 f l' m'
  | _, _ => []
  end.

Fixpoint map3 {A B C D} (f : A -> B -> C -> D)
  (l : list A) (m : list B) (n : list C) : list D :=
  match l, m, n with
  | x :: l', y :: m', z :: n' => f x y z :: map3 f l' m' n'
  | _, _, _ => []
  end.
