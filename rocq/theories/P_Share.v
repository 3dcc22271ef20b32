(** * Properties C08-C12: secret sharing and locally generated randomness *)
From Coq Require Import ZArith List Bool Lia.
From Verif Require Import Words Constants Share SpecShare ShareFacts Proc RelFacts OT OTFacts
  Correlated CorrelatedFacts.
Import ListNotations.
Open Scope Z_scope.

(** ** C08 Additive sharing reconstructs. [r] is the raw random draw. *)
Theorem split_share_reconstructs : forall r val,
  let (a, b) := SplitShare r val in
  0 <= a < Int_Modulus /\ 0 <= b < Int_Modulus /\ (a + b) mod Int_Modulus = val mod Int_Modulus.
Proof.
  intros r val. pose proof (split_share_range r val). pose proof (split_share_sum r val).
  destruct (SplitShare r val). tauto.
Qed.
Print Assumptions split_share_reconstructs.

Example split_share_ex : SplitShare 140737597931520 (-5) = (140737597931520, 140737597931517)
  /\ (140737597931520 + 140737597931517) mod Int_Modulus = (-5) mod Int_Modulus.
Proof. split; reflexivity. Qed.

(** ** C09 One additive share reveals nothing: for every value, each share alone is
    a bijective function of the draw.  So with a uniform draw from [0,p), the
    distribution of each single share is uniform and does not depend on the value. *)
Theorem split_share_first_uniform : forall val s, 0 <= s < Int_Modulus ->
  exists! r, 0 <= r < Int_Modulus /\ fst (SplitShare r val) = s.
Proof. exact split_share_fst_bij. Qed.
Print Assumptions split_share_first_uniform.

Theorem split_share_second_uniform : forall val s, 0 <= s < Int_Modulus ->
  exists! r, 0 <= r < Int_Modulus /\ snd (SplitShare r val) = s.
Proof. exact split_share_snd_bij. Qed.
Print Assumptions split_share_second_uniform.

(** Server 1 sees share 3 with the value 10 under draw 7, with the value 20 under draw 17. *)
Example split_share_hides_ex : snd (SplitShare 7 10) = 3 /\ snd (SplitShare 17 20) = 3.
Proof. split; reflexivity. Qed.

(** ** C10 Multiplication triples are correct. *)
Theorem new_triple_correct : forall r1 r2,
  let t := NewBeaverTriple r1 r2 in
  bt_C t = (bt_A t * bt_B t) mod Int_Modulus /\
  0 <= bt_A t < Int_Modulus /\ 0 <= bt_B t < Int_Modulus /\ 0 <= bt_C t < Int_Modulus.
Proof. exact new_triple. Qed.
Print Assumptions new_triple_correct.

Theorem triple_shares_correct : forall r1 r2 s1 s2 s3,
  let (x, y) := BeaverTripleShares s1 s2 s3 (NewBeaverTriple r1 r2) in
  (shareC x + shareC y) mod Int_Modulus
  = ((shareA x + shareA y) * (shareB x + shareB y)) mod Int_Modulus.
Proof.
  intros r1 r2 s1 s2 s3. pose proof (triple_shares s1 s2 s3 (NewBeaverTriple r1 r2)) as H.
  pose proof (new_triple r1 r2) as (HC & _). cbv zeta in HC.
  destruct (BeaverTripleShares s1 s2 s3 (NewBeaverTriple r1 r2)) as [x y].
  destruct H as (HA & HB & HC').
  rewrite HC', HC, Z.mod_mod by (pose proof p_pos; lia).
  rewrite (Z.mul_mod (shareA x + shareA y)) by (pose proof p_pos; lia).
  rewrite HA, HB, <- Z.mul_mod by (pose proof p_pos; lia). reflexivity.
Qed.
Print Assumptions triple_shares_correct.

(** The fast generation protocol between the two servers: terminates in every
    schedule; the two results form a triple. *)
Theorem lazy_triple_correct : forall r1 r2 r3 r4 r5 s1 s2 s3 s4 s5,
  both (generate_beaver_triple_lazy false r1 r2 r3 r4 r5)
       (generate_beaver_triple_lazy true s1 s2 s3 s4 s5)
    (fun t0 t1 =>
      bt_A t0 = r1 mod Int_Modulus /\ bt_B t0 = r2 mod Int_Modulus /\ bt_C t0 = r3 mod Int_Modulus /\
      bt_A t1 = r4 mod Int_Modulus /\ bt_B t1 = r5 mod Int_Modulus /\
      0 <= bt_C t1 < Int_Modulus /\
      (bt_C t0 + bt_C t1) mod Int_Modulus =
        ((bt_A t0 + bt_A t1) * (bt_B t0 + bt_B t1)) mod Int_Modulus).
Proof. intros. apply rel_both, lazy_triple_rel. Qed.
Print Assumptions lazy_triple_correct.

Example new_triple_ex : NewBeaverTriple 140737597931520 5 = mkBT 140737597931520 5 140737597931516.
Proof. reflexivity. Qed.

(** ** C11 daBits are doubly-authentic. *)
Theorem local_dabit_correct : forall r1 r2,
  let (d0, d1) := makeLocalDaBit r1 r2 in
  dabit_pair d0 d1 /\ xorb (b2 d0) (b2 d1) = Z.odd r1.
Proof.
  intros r1 r2. pose proof (local_dabit_pair r1 r2). pose proof (dabit_local r1 r2).
  destruct (makeLocalDaBit r1 r2). cbn [fst snd] in *. tauto.
Qed.
Print Assumptions local_dabit_correct.

(** Generated jointly by oblivious transfer: [b0], [b1] the servers' random bits,
    [w0] server 0's random words. *)
Theorem joint_dabit_correct : forall b0 b1 w0 w1,
  length b0 = length w0 -> length b1 = length w0 -> Forall (fun x => 0 <= x < two64) w0 ->
  both (generateDaBit false b0 w0) (generateDaBit true b1 w1)
    (fun d0 d1 => Forall2 dabit_pair d0 d1 /\ length d0 = length w0 /\
                  map b2 d0 = b0 /\ map b2 d1 = b1).
Proof. intros. apply rel_both. now apply generateDaBit_rel. Qed.
Print Assumptions joint_dabit_correct.

(** Extended daBits over any number of bits. *)
Theorem local_edabit_correct : forall draws,
  let (e0, e1) := makeLocalEdaBit draws in
  length (eb e0) = length draws /\ length (eb e1) = length draws /\
  0 <= er e0 < Int_Modulus /\ 0 <= er e1 < Int_Modulus /\
  (er e0 + er e1) mod Int_Modulus = bits_val (map2 xorb (eb e0) (eb e1)) mod Int_Modulus /\
  map2 xorb (eb e0) (eb e1) = map (fun d => Z.odd (fst d)) draws.
Proof. exact edabit_local. Qed.
Print Assumptions local_edabit_correct.

(** The bits of an extended daBit as a number: [print] by [fmpz_from_bool_array] for any
    length, [get_int_b] up to 30 bits, above which it is undefined. *)
Theorem bool_array_value : forall bs, fmpz_from_bool_array bs = bits_val bs.
Proof. exact from_bool_array_val. Qed.
Print Assumptions bool_array_value.
Theorem edabit_int_value : forall e,
  get_int_b e = if (length (eb e) <=? 30)%nat then Some (bits_val (eb e)) else None.
Proof. exact int_b_value. Qed.
Print Assumptions edabit_int_value.
Example edabit_int_ex : get_int_b (mkEdaBit 0 [true; false; true; true]) = Some 13 /\
  fmpz_from_bool_array [true; false; true; true] = 13.
Proof. split; reflexivity. Qed.

Example local_dabit_ex :
  let (d0, d1) := makeLocalDaBit 3 41 in
  bp d0 = 43 /\ bp d1 = 140737597931479 /\ b2 d0 = true /\ b2 d1 = false.
Proof. repeat split. Qed.
Example joint_dabit_ex :
  exists d0 d1, always (generateDaBit false [true; false] [7; 9])
                       (generateDaBit true [true; true] []) d0 d1 /\
    Forall2 dabit_pair d0 d1 /\ map b2 d0 = [true; false].
Proof.
  destruct (joint_dabit_correct [true; false] [true; true] [7; 9] [] eq_refl eq_refl) as (d0 & d1 & H & R).
  { repeat constructor; unfold two64; lia. }
  exists d0, d1. tauto.
Qed.
Example local_edabit_ex :
  let (e0, e1) := makeLocalEdaBit [(1, 10); (0, 20); (1, 30)] in
  (er e0 + er e1) mod Int_Modulus = 5.
Proof. reflexivity. Qed.

(** ** C12 Proof domain size: the least power of two strictly greater than [n]. *)
Theorem next_power_of_two_least : forall n, 0 <= n < 2147483648 ->
  exists j, NextPowerOfTwo n = Some (2 ^ Z.of_nat j) /\ n < 2 ^ Z.of_nat j /\
            forall m, n < 2 ^ Z.of_nat m -> (j <= m)%nat.
Proof. exact next_pow2_least. Qed.
Print Assumptions next_power_of_two_least.

(** The bound is sharp: with 2^31 gates the loop of the code does not terminate,
    with 2^32 - 1 it returns 1. *)
Theorem next_power_of_two_bound_sharp :
  NextPowerOfTwo 2147483648 = None /\ NextPowerOfTwo 4294967295 = Some 1.
Proof. split; reflexivity. Qed.
Print Assumptions next_power_of_two_bound_sharp.

Example next_power_of_two_ex : NextPowerOfTwo 7 = Some 8 /\ NextPowerOfTwo 8 = Some 16.
Proof. split; reflexivity. Qed.
