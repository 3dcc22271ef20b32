(** * What is asked of arithmetic triples (C55) *)
From Coq Require Import ZArith List Bool.
From Verif Require Import Words Constants SpecPoly HeTriples.
Import ListNotations.
Open Scope Z_scope.

(** Contract of the encryption library, for the one expression the class
    evaluates: [keyed pk sk] are the key pairs [KeyGen] makes; encrypting [a],
    multiplying by [b], subtracting an encryption of [d] and decrypting gives
    a b - d modulo Int_Modulus in every slot (any representative).  Serialised
    objects are not empty and shorter than 2^32 bytes. *)
Record he_ok (Q : he_scheme) (keyed : list Z -> list Z -> Prop) : Prop := {
  pk_size : (0 < pk_len Q)%nat /\ Z.of_nat (pk_len Q) < 2 ^ 32;
  ct_size : (0 < ct_len Q)%nat /\ Z.of_nat (ct_len Q) < 2 ^ 32;
  pk_bytes : forall pk sk, keyed pk sk -> length pk = pk_len Q;
  enc_bytes : forall pk r v, length (encrypt Q pk r v) = ct_len Q;
  sub_bytes : forall c v c', length (sub_ct Q (mult_plain Q c v) c') = ct_len Q;
  decrypts : forall pk sk r r' a b d, keyed pk sk ->
    (length a <= MAX_HE_BATCH)%nat -> length b = length a -> length d = length a ->
    forall j, (j < length a)%nat ->
    (nth j (decrypt Q sk (sub_ct Q (mult_plain Q (encrypt Q pk r a) b) (encrypt Q pk r' d)) (length a)) 0)
      mod Int_Modulus
    = (nth j a 0 * nth j b 0 - nth j d 0) mod Int_Modulus
}.

(** [uniform_int_distribution{0, Int_Modulus - 1}] *)
Definition in_range (G : nat -> Z) : Prop := forall k, in_field Int_Modulus (G k).

(** The two servers' parts of a Beaver triple. *)
Definition triple_parts (t0 t1 : BeaverTriple) : Prop :=
  in_field Int_Modulus (bt_A t0) /\ in_field Int_Modulus (bt_B t0) /\ in_field Int_Modulus (bt_C t0) /\
  in_field Int_Modulus (bt_A t1) /\ in_field Int_Modulus (bt_B t1) /\ in_field Int_Modulus (bt_C t1) /\
  ((bt_A t0 + bt_A t1) * (bt_B t0 + bt_B t1)) mod Int_Modulus
  = (bt_C t0 + bt_C t1) mod Int_Modulus.

(** How many batches [n] triples take. *)
Definition batches_of (n : nat) : nat := ((n + (MAX_HE_BATCH - 1)) / MAX_HE_BATCH)%nat.
