(** * Arithmetic triples from homomorphic encryption: /repo/he_triples.cpp

    The class is marked as deprecated and no program of the repository makes an
    object of it; it is modelled because its interface promises Beaver triples.
    [do_fork] is true (the default, /repo/he_triples.h:64). *)
From Coq Require Import ZArith List Bool.
From Verif Require Import Words Constants Proc Net.
Import ListNotations.
Open Scope Z_scope.

(** /repo/he_triples.h:17; the number of slots of a packed plaintext. *)
Definition MAX_HE_BATCH : nat := Nat.pow 2 13.

(** The calls of the PALISADE library the class makes, on serialised keys and
    ciphertexts (byte strings).
    Simplification: serialising and reading back is part of each call, and the
    serialised objects of one kind all have the same length. *)
Record he_scheme := mkHE {
  pk_len : nat;                                  (** serialised public key *)
  ct_len : nat;                                  (** serialised ciphertext *)
  encrypt : list Z -> Z -> list Z -> list Z;     (** [cc->Encrypt(pk, MakePackedPlaintext(v))] with given coins *)
  mult_plain : list Z -> list Z -> list Z;       (** [cc->EvalMult(ct, MakePackedPlaintext(v))] *)
  sub_ct : list Z -> list Z -> list Z;           (** [cc->EvalSub(ct, ct')] *)
  decrypt : list Z -> list Z -> nat -> list Z    (** [cc->Decrypt(sk, ct, &p); p->SetLength(n); p->GetPackedValue()] *)
}.

(** Members of the object, /repo/he_triples.h:33-53; [draws] counts the calls of
    [random_int] so far, [coins] those of [Encrypt]. *)
Record he_gen := mkGen {
  gen_pk : list Z; gen_sk : list Z; gen_other_pk : list Z; draws : nat; coins : nat
}.

(** /repo/he_triples.cpp:23-30: what the forked child sends. *)
Fixpoint send_strings (l : list (list Z)) : proc unit :=
  match l with
  | [] => Ret tt
  | x :: l' => send_string x ;;; send_strings l'
  end.
Fixpoint wire (p : proc unit) : list Z :=
  match p with
  | Send bs k => bs ++ wire k
  | _ => []
  end.
(** /repo/he_triples.cpp:35-43: what the parent receives. *)
Fixpoint recv_strings (n : nat) : proc (list (list Z)) :=
  match n with
  | O => Ret []
  | S n' => x <- recv_string [] ;; l <- recv_strings n' ;; Ret (x :: l)
  end.
(** /repo/he_triples.cpp:18-47 [serializedSwap] of objects of [len] bytes. *)
Definition serializedSwap (len : nat) (mine : list (list Z)) : proc (list (list Z)) :=
  Xchg (wire (send_strings mine)) (length mine * (8 + len)) (fun bs =>
    match feed (recv_strings (length mine)) bs with
    | Some (other, []) => Ret other
    | _ => Undef
    end).

(** /repo/he_triples.cpp:49-83, the constructor.  [pk], [sk]: the result of
    [KeyGen].  The engine [generator] is default constructed (never seeded) and
    copied into [random_int] (line 69), so the values are a fixed sequence;
    server 1 skips [random_offset] of them.  Int_Modulus has 48 bits, so the test
    of lines 53-58 does not fire. *)
Definition make_gen (Q : he_scheme) (server_num : bool) (random_offset : nat) (pk sk : list Z)
  : proc he_gen :=
  tmp <- serializedSwap (pk_len Q) [pk] ;;
  match tmp with
  | [other] => Ret (mkGen pk sk other (if server_num then random_offset else 0) 0)
  | _ => Undef
  end.

(** /repo/he_triples.cpp:92-93, 104: sizes of the batches, for [n > 0]. *)
Definition batch_sizes (n : nat) : list nat :=
  let num_batches := ((n - 1) / MAX_HE_BATCH + 1)%nat in
  let last_batch := ((n - 1) mod MAX_HE_BATCH + 1)%nat in
  map (fun i => if (i =? num_batches - 1)%nat then last_batch else MAX_HE_BATCH)
      (seq 0 num_batches).

(** /repo/he_triples.cpp:106-113: the values a, b, d of a batch, from call number
    [k] of [random_int] on; [G]: the sequence of its results. *)
Definition draw_a (G : nat -> Z) (k N : nat) : list Z := map (fun j => G (k + 3 * j)%nat) (seq 0 N).
Definition draw_b (G : nat -> Z) (k N : nat) : list Z := map (fun j => G (k + 3 * j + 1)%nat) (seq 0 N).
Definition draw_d (G : nat -> Z) (k N : nat) : list Z := map (fun j => G (k + 3 * j + 2)%nat) (seq 0 N).
Record he_batch := mkBatch { ba : list Z; bb : list Z; bd : list Z; ct_a : list Z; ct_d : list Z }.
(** /repo/he_triples.cpp:103-120 for one batch; [R]: the coins of [Encrypt]. *)
Definition make_batch (Q : he_scheme) (G R : nat -> Z) (pk other_pk : list Z) (k e N : nat) : he_batch :=
  mkBatch (draw_a G k N) (draw_b G k N) (draw_d G k N)
          (encrypt Q pk (R e) (draw_a G k N))
          (encrypt Q other_pk (R (e + 1)%nat) (draw_d G k N)).
Fixpoint make_batches (Q : he_scheme) (G R : nat -> Z) (pk other_pk : list Z) (k e : nat)
  (Ns : list nat) : list he_batch :=
  match Ns with
  | [] => []
  | N :: Ns' => make_batch Q G R pk other_pk k e N ::
                make_batches Q G R pk other_pk (k + 3 * N) (e + 2) Ns'
  end.

(** /repo/he_triples.cpp:144-158: one triple from a, b, d and the decrypted e. *)
Definition he_triple (a b d e : Z) : BeaverTriple :=
  mkBT a b (((a * b) mod Int_Modulus + d + e) mod Int_Modulus).
(** /repo/he_triples.cpp:135-159 for one batch. *)
Definition finish_batch (Q : he_scheme) (sk : list Z) (B : he_batch) (ct_e : list Z)
  : list BeaverTriple :=
  let N := length (ba B) in
  let e := decrypt Q sk ct_e N in
  map (fun j => he_triple (nth j (ba B) 0) (nth j (bb B) 0) (nth j (bd B) 0) (nth j e 0)) (seq 0 N).

(** /repo/he_triples.cpp:85-174 [generateTriples].  Every later access to [e[j]]
    is within its length by [SetLength(N)]. *)
Definition generateTriples (Q : he_scheme) (G R : nat -> Z) (n : nat) (g : he_gen)
  : proc (list BeaverTriple * he_gen) :=
  match n with
  | O => Ret ([], g)
  | _ =>
      let Bs := make_batches Q G R (gen_pk g) (gen_other_pk g) (draws g) (coins g) (batch_sizes n) in
      ct_a2 <- serializedSwap (ct_len Q) (map ct_a Bs) ;;
      let ct_e2 := map2 (fun c B => sub_ct Q (mult_plain Q c (bb B)) (ct_d B)) ct_a2 Bs in
      ct_e <- serializedSwap (ct_len Q) ct_e2 ;;
      Ret (concat (map2 (finish_batch Q (gen_sk g)) Bs ct_e),
           mkGen (gen_pk g) (gen_sk g) (gen_other_pk g) (draws g + 3 * n)
                 (coins g + 2 * length Bs))
  end.

(** Successive calls of [generateTriples] on one object. *)
Fixpoint he_calls (Q : he_scheme) (G R : nat -> Z) (ns : list nat) (g : he_gen)
  : proc (list (list BeaverTriple) * he_gen) :=
  match ns with
  | [] => Ret ([], g)
  | n :: ns' =>
      r <- generateTriples Q G R n g ;;
      rs <- he_calls Q G R ns' (snd r) ;;
      Ret (fst r :: fst rs, snd rs)
  end.
