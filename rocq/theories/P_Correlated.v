(** * Properties C16-C19 and C43: the store of correlated randomness and its uses *)
From Coq Require Import ZArith List Bool Lia.
From Verif Require Import Words WordsFacts Cong Constants Share SpecShare ShareFacts Proc ProcFacts Net NetFacts
  RelFacts OT OTFacts Correlated SpecStore CorrelatedFacts MpcFacts.
Import ListNotations.
Open Scope Z_scope.

(** Concrete stores used in the examples. *)
Definition ex_c0 := mkParams 4 false 3 true.
Definition ex_c1 := mkParams 4 true 3 true.
Definition ex_T (i : nat) : Z := Z.of_nat i * 7919 + 3.
Definition empty_store := mkStore [] [] 0.
Lemma ex_params : params_ok ex_c0 ex_c1.
Proof. repeat split. Qed.
Lemma empty_paired : stores_paired empty_store empty_store.
Proof. split; constructor. Qed.

(** ** C16 Shared AND. *)
Theorem shared_and_correct : forall c0 c1 T0 T1 x0 y0 x1 y1 s0 s1,
  params_ok c0 c1 -> stores_paired s0 s1 ->
  length x1 = length x0 -> length y0 = length x0 -> length y1 = length x0 ->
  both (multiplyBoolShares c0 T0 x0 y0 s0) (multiplyBoolShares c1 T1 x1 y1 s1)
    (fun r0 r1 =>
       length (fst r0) = length x0 /\ length (fst r1) = length x0 /\
       map2 xorb (fst r0) (fst r1) = map2 andb (map2 xorb x0 x1) (map2 xorb y0 y1) /\
       stores_paired (snd r0) (snd r1) /\
       exists ts0 ts1, length ts0 = length x0 /\ length ts1 = length x0 /\
         took_b ts0 s0 (snd r0) /\ took_b ts1 s1 (snd r1)).
Proof. intros. apply rel_both. now apply multiply_rel. Qed.
Print Assumptions shared_and_correct.

Example shared_and_ex : exists r0 r1,
  always (multiplyBoolShares ex_c0 ex_T [true; false; true] [true; true; false] empty_store)
         (multiplyBoolShares ex_c1 ex_T [false; false; true] [false; true; true] empty_store) r0 r1 /\
  map2 xorb (fst r0) (fst r1) = [true; false; false].
Proof.
  destruct (shared_and_correct ex_c0 ex_c1 ex_T ex_T [true; false; true] [true; true; false]
    [false; false; true] [false; true; true] _ _ ex_params empty_paired) as (r0 & r1 & H & _ & _ & E & _); auto.
  exists r0, r1. split; [exact H|exact E].
Qed.

(** ** C17 Shared binary addition: bits and carry of every row; one triple per bit. *)
Theorem shared_addition_correct : forall c0 c1 T0 T1 nbs x0 x1 y0 y1 s0 s1,
  params_ok c0 c1 -> stores_paired s0 s1 ->
  rows_wf nbs x0 -> rows_wf nbs x1 -> rows_wf nbs y0 -> rows_wf nbs y1 ->
  both (addBinaryShares c0 T0 nbs x0 y0 s0) (addBinaryShares c1 T1 nbs x1 y1 s1)
    (fun r0 r1 =>
       length (fst (fst r0)) = length nbs /\ length (fst (fst r1)) = length nbs /\
       rows_wf nbs (snd (fst r0)) /\ rows_wf nbs (snd (fst r1)) /\
       (forall i, (i < length nbs)%nat ->
          bits_val (map2 xorb (nth i (snd (fst r0)) []) (nth i (snd (fst r1)) []))
            + 2 ^ Z.of_nat (nth i nbs 0%nat) * b2z (xorb (nth i (fst (fst r0)) false) (nth i (fst (fst r1)) false))
          = bits_val (map2 xorb (nth i x0 []) (nth i x1 []))
            + bits_val (map2 xorb (nth i y0 []) (nth i y1 []))) /\
       stores_paired (snd r0) (snd r1) /\
       exists ts0 ts1, length ts0 = total nbs /\ length ts1 = total nbs /\
         took_b ts0 s0 (snd r0) /\ took_b ts1 s1 (snd r1)).
Proof. intros. apply rel_both. now apply addBinary_rel. Qed.
Print Assumptions shared_addition_correct.

(** 3 + 3 in two bits: 2, carry 1; 1 + 0 in one bit: 1, no carry. *)
Example shared_addition_ex : exists r0 r1,
  always (addBinaryShares ex_c0 ex_T [2%nat; 1%nat] [[true; false]; [true]] [[false; false]; [true]] empty_store)
         (addBinaryShares ex_c1 ex_T [2%nat; 1%nat] [[false; true]; [false]] [[true; true]; [true]] empty_store) r0 r1 /\
  bits_val (map2 xorb (nth 0 (snd (fst r0)) []) (nth 0 (snd (fst r1)) []))
    + 4 * b2z (xorb (nth 0 (fst (fst r0)) false) (nth 0 (fst (fst r1)) false)) = 6.
Proof.
  destruct (shared_addition_correct ex_c0 ex_c1 ex_T ex_T [2%nat; 1%nat] [[true; false]; [true]] [[false; true]; [false]]
    [[false; false]; [true]] [[true; true]; [true]] _ _ ex_params empty_paired eq_refl eq_refl eq_refl eq_refl)
    as (r0 & r1 & H & _ & _ & _ & _ & E & _).
  exists r0, r1. split; [exact H|]. apply (E 0%nat). cbn; lia.
Qed.

(** ** C18 Boolean-to-arithmetic conversion. *)
Theorem b2a_single_correct : forall c0 c1 T0 T1 x0 x1 s0 s1,
  params_ok c0 c1 -> stores_paired s0 s1 -> length x1 = length x0 ->
  both (b2a_daBit_single c0 T0 x0 s0) (b2a_daBit_single c1 T1 x1 s1)
    (fun r0 r1 =>
       length (fst r0) = length x0 /\ length (fst r1) = length x0 /\
       Forall (fun z => 0 <= z < Int_Modulus) (fst r0) /\
       Forall (fun z => 0 <= z < Int_Modulus) (fst r1) /\
       map2 (fun a b => (a + b) mod Int_Modulus) (fst r0) (fst r1) =
         map2 (fun a b => b2z (xorb a b)) x0 x1 /\
       stores_paired (snd r0) (snd r1) /\
       exists ds0 ds1, length ds0 = length x0 /\ length ds1 = length x0 /\
         took_d ds0 s0 (snd r0) /\ took_d ds1 s1 (snd r1)).
Proof. intros. apply rel_both. now apply b2a_single_rel. Qed.
Print Assumptions b2a_single_correct.

Theorem b2a_multi_correct : forall c0 c1 T0 T1 nbs x0 x1 s0 s1,
  params_ok c0 c1 -> stores_paired s0 s1 -> length x0 = length nbs -> length x1 = length nbs ->
  (forall nb, In nb nbs -> nb <= 31)%nat ->
  both (b2a_daBit_multi c0 T0 nbs x0 s0) (b2a_daBit_multi c1 T1 nbs x1 s1)
    (fun r0 r1 =>
       length (fst r0) = length nbs /\ length (fst r1) = length nbs /\
       Forall (fun z => 0 <= z < Int_Modulus) (fst r0) /\
       Forall (fun z => 0 <= z < Int_Modulus) (fst r1) /\
       map2 (fun a b => (a + b) mod Int_Modulus) (fst r0) (fst r1) =
         map3 (fun nb a b => Z.lxor a b mod 2 ^ Z.of_nat nb) nbs x0 x1 /\
       stores_paired (snd r0) (snd r1) /\
       exists ds0 ds1, length ds0 = total nbs /\ length ds1 = total nbs /\
         took_d ds0 s0 (snd r0) /\ took_d ds1 s1 (snd r1)).
Proof. intros. apply rel_both. now apply b2a_multi_rel. Qed.
Print Assumptions b2a_multi_correct.

Example b2a_multi_ex : exists r0 r1,
  always (b2a_daBit_multi ex_c0 ex_T [4%nat; 31%nat] [12; 2000000000] empty_store)
         (b2a_daBit_multi ex_c1 ex_T [4%nat; 31%nat] [10; 5] empty_store) r0 r1 /\
  map2 (fun a b => (a + b) mod Int_Modulus) (fst r0) (fst r1) = [6; 2000000005].
Proof.
  destruct (b2a_multi_correct ex_c0 ex_c1 ex_T ex_T [4%nat; 31%nat] [12; 2000000000] [10; 5] _ _
     ex_params empty_paired eq_refl eq_refl) as (r0 & r1 & H & _ & _ & _ & _ & E & _).
  { cbn. intros nb [<-|[<-|[]]]; lia. }
  exists r0, r1. split; [exact H|exact E].
Qed.

(** At width 32 the conversion is wrong (the weight [1 << 31] of the top bit is a
    negative [int]); from 33 on it is undefined behaviour. *)
Definition b2a_multi_correct_32 : Prop :=
  forall c0 c1 T0 T1 x0 x1 s0 s1, params_ok c0 c1 -> stores_paired s0 s1 ->
  both (b2a_daBit_multi c0 T0 [32%nat] [x0] s0) (b2a_daBit_multi c1 T1 [32%nat] [x1] s1)
    (fun r0 r1 => map2 (fun a b => (a + b) mod Int_Modulus) (fst r0) (fst r1)
                  = [Z.lxor x0 x1 mod 2 ^ 32]).
Definition ex_ds0 := repeat (mkDaBit 0 false) 32.
Theorem b2a_multi_width32_refuted : ~ b2a_multi_correct_32.
Proof.
  intros H.
  assert (HS : stores_paired (mkStore ex_ds0 [] 0) (mkStore ex_ds0 [] 0)).
  { split; [|constructor]. cbn [dabit_store]. unfold ex_ds0. generalize 32%nat as n. induction n; cbn [repeat]; constructor; auto.
    pose proof p_pos. unfold dabit_pair. cbn [bp b2 xorb b2z]. repeat split; lia. }
  specialize (H ex_c0 ex_c1 ex_T ex_T (2 ^ 31) 0 _ _ ex_params HS).
  pose proof (b2a_multi_run ex_c0 ex_c1 ex_T ex_T [32%nat] [2 ^ 31] [0] ex_ds0 ex_ds0 [] [] 0 0
                eq_refl eq_refl eq_refl eq_refl eq_refl) as C. cbv zeta in C.
  pose proof (both_functional _ _ _ _ _ H C) as F. revert F. vm_compute. discriminate.
Qed.
Print Assumptions b2a_multi_width32_refuted.

(** ** C19 Correlated randomness stays correlated and is never reused: after any
    history of store operations. *)
Theorem store_history_correct : forall c0 c1 T0 T1 ops s0 s1,
  params_ok c0 c1 -> stores_paired s0 s1 ->
  both (run_store c0 T0 ops s0) (run_store c1 T1 ops s1)
    (fun r0 r1 =>
       stores_paired (snd r0) (snd r1) /\
       Forall2 btriple_pair (fst (fst r0)) (fst (fst r1)) /\
       Forall2 dabit_pair (snd (fst r0)) (snd (fst r1)) /\
       length (fst (fst r0)) = asked_bool ops /\ length (snd (fst r0)) = asked_da ops /\
       took (fst (fst r0)) (btriple_store s0) (btriple_store (snd r0)) /\
       took (snd (fst r0)) (dabit_store s0) (dabit_store (snd r0)) /\
       took (fst (fst r1)) (btriple_store s1) (btriple_store (snd r1)) /\
       took (snd (fst r1)) (dabit_store s1) (dabit_store (snd r1))).
Proof. intros. apply rel_both. now apply run_store_rel. Qed.
Print Assumptions store_history_correct.

Example store_history_ex : exists r0 r1,
  always (run_store ex_c0 ex_T [OpUpdate; OpGetDa 5; OpGetBool 2; OpCheckDa 100; OpGetDa 30] empty_store)
         (run_store ex_c1 ex_T [OpUpdate; OpGetDa 5; OpGetBool 2; OpCheckDa 100; OpGetDa 30] empty_store) r0 r1 /\
  length (snd (fst r0)) = 35%nat /\ Forall2 dabit_pair (snd (fst r0)) (snd (fst r1)).
Proof.
  destruct (store_history_correct ex_c0 ex_c1 ex_T ex_T [OpUpdate; OpGetDa 5; OpGetBool 2; OpCheckDa 100; OpGetDa 30]
    _ _ ex_params empty_paired) as (r0 & r1 & H & _ & _ & F & _ & L & _).
  exists r0, r1. split; [exact H|]. split; [exact L|exact F].
Qed.

(** ** C43 Opened values reveal nothing.
    Whatever server 0's inputs [x], [y] are, and whatever triple shares [t1] server 1
    holds: each possible message [d], [e] is sent for exactly one vector of matching
    triple shares of server 0.  So with uniformly random triples the message is
    uniform and independent of [x], [y].  (By symmetry of the code the same
    holds for the message of server 1.) *)
Theorem and_opening_reveals_nothing : forall c T D k x y t1 d e,
  length y = length x -> length t1 = length x -> length d = length x -> length e = length x ->
  exists! t0, Forall2 btriple_pair t0 t1 /\
    first_xchg (multiplyBoolShares c T x y (mkStore D t0 k)) = Some (pack_bools d ++ pack_bools e).
Proof.
  intros c T D k x y t1 d e L1 L2 L3 L4.
  destruct (mul_mask_unique x y t1 d e L1 L2 L3 L4) as (t0 & (H1 & H2 & H3) & U).
  exists t0. split.
  - split; [auto|]. rewrite mul_first by (rewrite (Forall2_len _ _ _ H1); auto). now rewrite H2, H3.
  - intros t0' (K1 & K2). apply U. split; [auto|].
    pose proof (Forall2_len _ _ _ K1) as Lt. rewrite mul_first in K2 by lia.
    injection K2 as K2. apply app_inv_len in K2.
    2:{ rewrite !(bool_bytes_pack _ (length x)); auto. rewrite map2_length; lia. }
    destruct K2 as [Ka Kb]. split; apply pack_inj; auto; rewrite map2_length; lia.
Qed.
Print Assumptions and_opening_reveals_nothing.

Theorem b2a_opening_reveals_nothing : forall c T B k x t1 v,
  length t1 = length x -> length v = length x -> Forall (fun d => 0 <= bp d < Int_Modulus) t1 ->
  exists! t0, Forall2 dabit_pair t0 t1 /\
    first_xchg (b2a_daBit_single c T x (mkStore t0 B k)) = Some (pack_bools v).
Proof.
  intros c T B k x t1 v L1 L2 HF.
  destruct (b2a_mask_unique x t1 v L1 L2 HF) as (t0 & (H1 & H2) & U).
  exists t0. split.
  - split; [auto|]. rewrite b2a_first by (rewrite (Forall2_len _ _ _ H1); auto). now rewrite H2.
  - intros t0' (K1 & K2). apply U. split; [auto|].
    pose proof (Forall2_len _ _ _ K1) as Lt. rewrite b2a_first in K2 by lia.
    injection K2 as K2. apply pack_inj; auto; rewrite map2_length; lia.
Qed.
Print Assumptions b2a_opening_reveals_nothing.

Example and_opening_ex :
  first_xchg (multiplyBoolShares ex_c0 ex_T [true] [false] (mkStore [] [mkBoolT true true false] 0)) = Some [0; 1] /\
  first_xchg (multiplyBoolShares ex_c0 ex_T [false] [true] (mkStore [] [mkBoolT false false true] 0)) = Some [0; 1].
Proof. split; reflexivity. Qed.
