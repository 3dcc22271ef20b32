(** * Vocabulary: equal numbers of draws (exact distributions)

    Clients with a generator each.  A client's first block decides its private value; the
    blocks after it are its remaining draws, which are to be uniformly distributed. *)
From Coq Require Import ZArith List Bool.
From Verif Require Import Words ClientOps SpecSecret.
Import ListNotations.
Open Scope Z_scope.

Definition block (b : list Z) : Prop := length b = 16%nat /\ Forall is_byte b.

(** The remaining draws of [n] clients, [m] blocks each. *)
Definition draws (n m : nat) (ds : list (list (list Z))) : Prop :=
  length ds = n /\ Forall (fun d => length d = m /\ Forall block d) ds.

(** [F] is a permutation of [dom]. *)
Definition permutes {D} (dom : D -> Prop) (F : D -> D) : Prop :=
  exists G, forall d, dom d -> dom (F d) /\ dom (G d) /\ G (F d) = d /\ F (G d) = d.

(** The generator giving the blocks [b] and [d]. *)
Definition tape (b : list Z) (d : list (list Z)) : prg := fun i => nth i (b :: d) (repeat 0 16).
Definition tapes_of (bs : list (list Z)) (ds : list (list (list Z))) : list prg := map2 tape bs ds.

(** The private bit (AND, OR) and the private number up to [B] (MAX, MIN) that the first
    block gives. *)
Definition drawn_bit (b : list Z) : bool := Z.odd (nth 0 b 0).
Definition drawn_value (B : nat) (b : list Z) : nat := Z.to_nat (le_val (firstn 8 b) mod (Z.of_nat B + 1)).

(** [v] is the largest (MAX) or smallest (MIN) of the numbers. *)
Definition extreme (is_max : bool) (v : nat) (l : list nat) : Prop :=
  In v l /\ forall w, In w l -> if is_max then (w <= v)%nat else (v <= w)%nat.
