(** * Vocabulary: what a server learns during FREQ *)
From Coq Require Import ZArith List Bool.
From Verif Require Import Words Constants Share Proc Net ServerOps SpecServer SpecPrivacy SpecFreq.
Import ListNotations.
Open Scope Z_scope.

(** As [sees0] and [sees1], for runs that leave the bytes [left] unread on the way to
    server 1: with buffers of [k] bytes or more every schedule ends this way. *)
Definition ends0 {A B} (k : nat) (p : proc A) (q : proc B) (v : list Z * A) (left : list Z) : Prop :=
  exists b, ends k (logged [] p) q (Cfg (Ret v) (Ret b) left []).
Definition ends1 {A B} (k : nat) (p : proc A) (q : proc B) (v : list Z * B) (left : list Z) : Prop :=
  exists a, ends k p (logged [] q) (Cfg (Ret a) (Ret v) left []).

(** What server 0 can compute from the bytes it received in FREQ, [log], if it has dealt the
    daBits itself with the draws [T0 from], [T0 (from + 1)], ...: identities and rows.
    The log begins with the identities, then comes one masked bit for each bit of server 1's
    rows; server 0 knows the masks. *)
Definition overheard (w : nat) (T0 : nat -> Z) (from : nat) (subs0 : list (list Z * list bool)) (log : list Z)
  : list (list Z * list bool) :=
  match feed learn log with
  | Some (pks, rest) =>
      let N := (length pks * w)%nat in
      let v := unpack_bools N (firstn (bool_bytes N) rest) in
      let masks := map (fun i => b2 (snd (makeLocalDaBit (T0 (from + 2 * i)%nat) (T0 (from + 2 * i + 1)%nat)))) (seq 0 N) in
      let own := concat (map (fun pk => get (repeat false w) (first_sub any subs0 pk)) pks) in
      combine pks (chunks (length pks) w (map2 xorb own (map2 xorb v masks)))
  | None => []
  end.

(** The draws of a dealt daBit leave server 1's half different from 1. *)
Definition no_half_one (T0 : nat -> Z) (from n : nat) : Prop :=
  forall i, (i < n)%nat -> bp (snd (makeLocalDaBit (T0 (from + 2 * i)%nat) (T0 (from + 2 * i + 1)%nat))) <> 1.
