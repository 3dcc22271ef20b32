(** * Protocols over oblivious transfer: /repo/ot.cpp

    [OT_Wrapper::send]/[recv] (/repo/ot.cpp:19-50) is the ideal functionality
    [OTSend]/[OTRecv] of Proc.v; [ot0] is channel [false], [ot1] channel [true].
    [prg.random_data(&b0[idx], 8)] yields the 64-bit word [u64 (rnd idx)] of an
    arbitrary tape [rnd], named by the index it is stored at. *)
From Coq Require Import ZArith List Bool.
From Verif Require Import Words Constants Share Proc Net.
Import ListNotations.
Open Scope Z_scope.

(** [x %= mod], skipped when [mod = 0]. *)
Definition reduce (mod_ x : Z) : Z := if mod_ =? 0 then x else x mod mod_.

(** [max = mod == 0 ? UINT64_MAX : mod - 1]. *)
Definition ot_max (mod_ : Z) : Z := if mod_ =? 0 then two64 - 1 else mod_ - 1.

(** /repo/ot.cpp:67-79, one pass over [shares] and [valid] ([i] is the index). *)
Fixpoint bitsum_send_loop (mod_ : Z) (rnd : nat -> Z) (sv : list (bool * bool)) (i : nat)
  (sum : Z) : list (Z * Z) * Z :=
  match sv with
  | [] => ([], sum)
  | (share, valid) :: sv' =>
      if valid then
        let b0 := reduce mod_ (u64 (rnd i)) in
        let b1 := u64 (b0 + 1 - 2 * b2z share) in
        let sum' := reduce mod_ (u64 (sum + u64 (ot_max mod_ - b0 + 1) + b2z share)) in
        let (l, s) := bitsum_send_loop mod_ rnd sv' (S i) sum' in
        ((b0, b1) :: l, s)
      else
        let (l, s) := bitsum_send_loop mod_ rnd sv' (S i) sum in
        ((0, 0) :: l, s)
  end.

(** /repo/ot.cpp:56-86 [bitsum_ot_sender] *)
Definition bitsum_ot_sender (ot : bool) (rnd : nat -> Z) (shares valid : list bool) (mod_ : Z)
  : proc Z :=
  let (msgs, sum) := bitsum_send_loop mod_ rnd (combine shares valid) 0 0 in
  OTSend ot msgs (Ret sum).

(** /repo/ot.cpp:88-102 [bitsum_ot_receiver] *)
Definition bitsum_ot_receiver (ot : bool) (shares : list bool) (mod_ : Z) : proc Z :=
  OTRecv ot shares (fun r => Ret (fold_left (fun sum x => reduce mod_ (u64 (sum + x))) r 0)).

(** /repo/ot.cpp:140-160: the bits of one number, from bit position [k] on;
    [nb] bits are left, [idx] is the index into [b0]/[b1].  ([k < 64] because
    [intsum_ot_sender] below is [Undef] otherwise.) *)
Fixpoint intsum_send_bits (mod_ : Z) (rnd : nat -> Z) (nb : nat) (k : Z) (idx : nat)
  (num acc : Z) : list (Z * Z) * Z :=
  match nb with
  | O => ([], acc)
  | S nb' =>
      let bool_share := Z.odd num in
      let num' := num / 2 in
      let pow := 2 ^ k in
      let minus_pow := u64 (ot_max mod_ - pow + 1) in
      let b0 := reduce mod_ (u64 (rnd idx)) in
      let minus_b0 := u64 (ot_max mod_ - b0 + 1) in
      let b1 := reduce mod_ (u64 (b0 + (if bool_share then minus_pow else pow))) in
      let acc' := reduce mod_ (u64 (acc + b2z bool_share * pow + minus_b0)) in
      let (l, a) := intsum_send_bits mod_ rnd nb' (k + 1) (S idx) num' acc' in
      ((b0, b1) :: l, a)
  end.

(** /repo/ot.cpp:139-161: the columns of a valid row. *)
Fixpoint intsum_send_row (mod_ : Z) (rnd : nat -> Z) (cols : list (Z * nat)) (idx : nat)
  : list (Z * Z) * list Z :=
  match cols with
  | [] => ([], [])
  | (num, nb) :: cols' =>
      let (l, a) := intsum_send_bits mod_ rnd nb 0 idx num 0 in
      let (l', as') := intsum_send_row mod_ rnd cols' (idx + nb) in
      (l ++ l', a :: as')
  end.

Definition total (num_bits : list nat) : nat := fold_right Nat.add 0%nat num_bits.

(** /repo/ot.cpp:124-162: the rows; an invalid row sends zeros and returns zeros. *)
Fixpoint intsum_send_rows (mod_ : Z) (rnd : nat -> Z) (num_bits : list nat)
  (rows : list (list Z * bool)) (idx : nat) : list (Z * Z) * list (list Z) :=
  match rows with
  | [] => ([], [])
  | (row, valid) :: rows' =>
      let (l, ret) :=
        if valid then intsum_send_row mod_ rnd (combine row num_bits) idx
        else (repeat (0, 0) (total num_bits), repeat 0 (length num_bits)) in
      let (l', rets) := intsum_send_rows mod_ rnd num_bits rows' (idx + total num_bits) in
      (l ++ l', ret :: rets)
  end.

(** [1ULL << k] is undefined for [k >= 64]. *)
Definition widths_ok (num_bits : list nat) : bool := forallb (fun nb => (nb <=? 64)%nat) num_bits.

(** /repo/ot.cpp:104-170 [intsum_ot_sender].  (Simplification: [Undef] for a
    width above 64 even when no row is valid.) *)
Definition intsum_ot_sender (ot : bool) (rnd : nat -> Z) (shares : list (list Z))
  (valid : list bool) (num_bits : list nat) (mod_ : Z) : proc (list (list Z)) :=
  if widths_ok num_bits then
    let (msgs, ret) := intsum_send_rows mod_ rnd num_bits (combine shares valid) 0 in
    OTSend ot msgs (Ret ret)
  else Undef.

(** /repo/ot.cpp:188-193 *)
Fixpoint intsum_recv_bits (nb : nat) (num : Z) : list bool :=
  match nb with
  | O => []
  | S nb' => Z.odd num :: intsum_recv_bits nb' (num / 2)
  end.

(** /repo/ot.cpp:185-195 *)
Definition intsum_choices (num_bits : list nat) (shares : list (list Z)) : list bool :=
  concat (map (fun row => concat (map2 intsum_recv_bits num_bits row)) shares).

(** /repo/ot.cpp:206-210 *)
Definition intsum_recv_acc (mod_ : Z) (r : list Z) : Z :=
  fold_left (fun acc x => reduce mod_ (u64 (acc + x))) r 0.

(** Cut [l] into consecutive pieces of the given lengths. *)
Fixpoint pieces {A} (lens : list nat) (l : list A) : list (list A) :=
  match lens with
  | [] => []
  | n :: lens' => firstn n l :: pieces lens' (skipn n l)
  end.

(** /repo/ot.cpp:172-215 [intsum_ot_receiver] *)
Definition intsum_ot_receiver (ot : bool) (shares : list (list Z)) (num_bits : list nat)
  (mod_ : Z) : proc (list (list Z)) :=
  OTRecv ot (intsum_choices num_bits shares) (fun r =>
    Ret (map (fun rr => map (intsum_recv_acc mod_) (pieces num_bits rr))
             (chunks (length shares) (total num_bits) r))).

(** /repo/ot.cpp:233-236 *)
Definition btriple_msgs (x r : list bool) : list (Z * Z) :=
  map2 (fun xi ri => (b2z ri, b2z (xorb xi ri))) x r.

(** /repo/ot.cpp:247-255 *)
Definition btriple_out (x y r : list bool) (b : list Z) : list BoolTriple :=
  map2 (fun xy rb => mkBoolT (fst xy) (snd xy)
                       (negb (snd rb =? b2z (xorb (fst rb) (fst xy && snd xy)))))
       (combine x y) (combine r b).

(** /repo/ot.cpp:218-266 [gen_boolean_beaver_triples]; [x], [y], [r] are the
    outcomes of the three [prg.random_bool] calls ([m] bits each). *)
Definition gen_boolean_beaver_triples (server_num : bool) (x y r : list bool)
  : proc (list BoolTriple) :=
  if server_num then
    OTRecv false y (fun b => OTSend true (btriple_msgs x r) (Ret (btriple_out x y r b)))
  else
    OTSend false (btriple_msgs x r) (OTRecv true y (fun b => Ret (btriple_out x y r b))).

(** /repo/ot.cpp:379-406 [generate_beaver_triple_lazy]; [r1..r5] are the draws
    of server 0. *)
Definition generate_beaver_triple_lazy (server_num : bool) (r1 r2 r3 r4 r5 : Z)
  : proc BeaverTriple :=
  if server_num then recv_BeaverTriple
  else
    let A := fmpz_randm r1 Int_Modulus in
    let B := fmpz_randm r2 Int_Modulus in
    let C := fmpz_randm r3 Int_Modulus in
    let A' := fmpz_randm r4 Int_Modulus in
    let B' := fmpz_randm r5 Int_Modulus in
    let C' := ((A + A') * (B + B') - C) mod Int_Modulus in
    send_BeaverTriple (mkBT A' B' C') ;;; Ret (mkBT A B C).
