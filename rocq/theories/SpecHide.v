(** * Vocabulary: what the receiver of an oblivious transfer sees *)
From Coq Require Import ZArith List Bool.
From Verif Require Import Words Share SpecShare Proc.
Import ListNotations.
Open Scope Z_scope.

(** The messages that a receiver with the choice bits [cs] gets from a server whose next
    action is a transfer on channel [ot]. *)
Definition ot_view {A} (ot : bool) (cs : list bool) (q : proc A) : option (list Z) :=
  match q with
  | OTSend i ps _ => if Bool.eqb i ot then Some (map2 ot_select cs ps) else None
  | _ => None
  end.

(** Each entry of [valid], [n] times. *)
Definition spread_over (n : nat) (valid : list bool) : list bool := flat_map (fun v => repeat v n) valid.

(** Messages that can occur: numbers modulo [m] where the entry counts, 0 elsewhere. *)
Definition possible (m : Z) (counts : list bool) (want : list Z) : Prop :=
  Forall2 (fun c w => if c : bool then 0 <= w < ot_modulus m else w = 0) counts want.

(** The mask at position [i], a number modulo [m]. *)
Definition mask (m : Z) (rnd : nat -> Z) (i : nat) : Z := (rnd i mod two64) mod ot_modulus m.
