(** * Properties C13-C15: protocols over oblivious transfer *)
From Coq Require Import ZArith List Bool Lia.
From Verif Require Import Words Cong Constants Share SpecShare ShareFacts Proc ProcFacts SpecNet
  RelFacts OT OTFacts Correlated MpcFacts.
Import ListNotations.
Open Scope Z_scope.

(** ** C13 Oblivious bit sums. [rnd] is the sender's random tape. *)
Theorem bitsum_correct : forall ot rnd s0 s1 valid,
  length s0 = length valid -> length s1 = length valid ->
  both (bitsum_ot_sender ot rnd s0 valid 0) (bitsum_ot_receiver ot s1 0)
    (fun a b => 0 <= a < two64 /\ 0 <= b < two64 /\
       (a + b) mod two64 = zsum (map3 bit_spec s0 s1 valid) mod two64).
Proof. intros. apply rel_both. now apply bitsum_rel. Qed.
Print Assumptions bitsum_correct.

Example bitsum_ex : exists a b,
  always (bitsum_ot_sender false (fun i => Z.of_nat i - 7) [true; true; false; true] [true; true; true; false] 0)
         (bitsum_ot_receiver false [false; true; true; false] 0) a b /\ (a + b) mod two64 = 2.
Proof.
  destruct (bitsum_correct false (fun i => Z.of_nat i - 7) [true; true; false; true]
    [false; true; true; false] [true; true; true; false] eq_refl eq_refl) as (a & b & H & _ & _ & E).
  exists a, b. split; [exact H|exact E].
Qed.

(** With a non-zero modulus (which no caller passes) the protocol is wrong: the
    second message is not reduced. *)
Definition bitsum_correct_any_modulus : Prop :=
  forall ot rnd s0 s1 valid m, 1 < m < 2 ^ 62 ->
  length s0 = length valid -> length s1 = length valid ->
  both (bitsum_ot_sender ot rnd s0 valid m) (bitsum_ot_receiver ot s1 m)
    (fun a b => (a + b) mod m = zsum (map3 bit_spec s0 s1 valid) mod m).
Theorem bitsum_any_modulus_refuted : ~ bitsum_correct_any_modulus.
Proof.
  intros H. specialize (H false (fun _ => 0) [true] [true] [true] 7 ltac:(lia) eq_refl eq_refl).
  assert (C : always (bitsum_ot_sender false (fun _ => 0) [true] [true] 7)
                     (bitsum_ot_receiver false [true] 7) 1 1).
  { apply conv_always. unfold bitsum_ot_sender, bitsum_ot_receiver. cbn [combine bitsum_send_loop].
    apply runs_ot. reflexivity. }
  pose proof (both_functional _ _ _ _ _ H C) as F. cbv in F. discriminate.
Qed.
Print Assumptions bitsum_any_modulus_refuted.

(** ** C14 Oblivious integer conversion. [m = 0] stands for 2^64. *)
Theorem intsum_correct : forall ot rnd m nbs s0 s1 valid,
  mod_ok m -> Forall (width_ok m) nbs ->
  length s0 = length valid -> length s1 = length valid ->
  Forall (fun r => length r = length nbs) s0 -> Forall (fun r => length r = length nbs) s1 ->
  both (intsum_ot_sender ot rnd s0 valid nbs m) (intsum_ot_receiver ot s1 nbs m)
    (fun o0 o1 =>
      length o0 = length valid /\ length o1 = length valid /\
      Forall (fun r => length r = length nbs) o0 /\ Forall (fun r => length r = length nbs) o1 /\
      Forall (Forall (fun a => 0 <= a < ot_modulus m)) o0 /\
      Forall (Forall (fun a => 0 <= a < ot_modulus m)) o1 /\
      map2 (map2 (fun a b => (a + b) mod ot_modulus m)) o0 o1 = map3 (row_spec m nbs) valid s0 s1).
Proof. intros. apply rel_both. now apply intsum_rel. Qed.
Print Assumptions intsum_correct.

(** The same for the entry point used for SNIP operations, in which every row
    is treated as valid. *)
Theorem b2a_ot_correct : forall rnd0 rnd1 nbs x0 x1 m,
  mod_ok m -> Forall (width_ok m) nbs -> length x0 = length x1 ->
  Forall (fun r => length r = length nbs) x0 -> Forall (fun r => length r = length nbs) x1 ->
  Forall (Forall limbs_ok) x0 -> Forall (Forall limbs_ok) x1 ->
  both (b2a_ot false rnd0 nbs x0 m) (b2a_ot true rnd1 nbs x1 m)
    (fun o0 o1 =>
      length o0 = length x0 /\ length o1 = length x0 /\
      Forall (fun r => length r = length nbs) o0 /\ Forall (fun r => length r = length nbs) o1 /\
      Forall (Forall (fun a => 0 <= a < ot_modulus m)) o0 /\
      Forall (Forall (fun a => 0 <= a < ot_modulus m)) o1 /\
      map2 (map2 (fun a b => (a + b) mod ot_modulus m)) o0 o1 = map2 (map3 (col_spec m) nbs) x0 x1).
Proof. intros. apply rel_both. now apply b2a_ot_rel. Qed.
Print Assumptions b2a_ot_correct.

(** For the field modulus the hypotheses hold for all widths up to 48 bits. *)
Theorem width_ok_field : forall nb, (nb <= 48)%nat -> width_ok Int_Modulus nb.
Proof.
  intros nb H. split; [lia|]. intros _ N. pose proof p_ge.
  etransitivity; [apply (Z.pow_le_mono_r 2 _ 47); lia|]. lia.
Qed.
Print Assumptions width_ok_field.

(** At 49 bits it fails: the conversion no longer yields the xor. *)
Definition intsum_correct_all_widths : Prop :=
  forall ot rnd nbs s0 s1 valid, Forall (fun nb => (nb <= 64)%nat) nbs ->
  length s0 = length valid -> length s1 = length valid ->
  Forall (fun r => length r = length nbs) s0 -> Forall (fun r => length r = length nbs) s1 ->
  both (intsum_ot_sender ot rnd s0 valid nbs Int_Modulus) (intsum_ot_receiver ot s1 nbs Int_Modulus)
    (fun o0 o1 => map2 (map2 (fun a b => (a + b) mod Int_Modulus)) o0 o1
                  = map3 (row_spec Int_Modulus nbs) valid s0 s1).
Lemma intsum_49_bad :
  let (msgs, ret) := intsum_send_rows Int_Modulus (fun _ => 0) [49%nat] (combine [[2 ^ 48]] [true]) 0 in
  length msgs = 49%nat /\
  map2 (map2 (fun a b => (a + b) mod Int_Modulus)) ret
     (map (fun rr => map (intsum_recv_acc Int_Modulus) (pieces [49%nat] rr))
        (chunks 1 (total [49%nat]) (map2 ot_select (intsum_choices [49%nat] [[2 ^ 48]]) msgs))) <> [[0]].
Proof. vm_compute. split; [reflexivity|discriminate]. Qed.
Theorem intsum_all_widths_refuted : ~ intsum_correct_all_widths.
Proof.
  intros H. specialize (H false (fun _ => 0) [49%nat] [[2 ^ 48]] [[2 ^ 48]] [true]).
  destruct H as (o0 & o1 & A & E); auto.
  { repeat constructor. }
  unfold intsum_ot_sender, intsum_ot_receiver in A.
  change (widths_ok [49%nat]) with true in A. cbv iota in A.
  pose proof intsum_49_bad as B.
  destruct (intsum_send_rows Int_Modulus (fun _ => 0) [49%nat] (combine [[2 ^ 48]] [true]) 0) as [msgs ret].
  destruct B as [Lm Hm].
  eapply always_functional in A; [|apply conv_always; apply conv_ot_ret; rewrite Lm; reflexivity].
  destruct A as [<- <-]. apply Hm. exact E.
Qed.
Print Assumptions intsum_all_widths_refuted.

Example intsum_ex : exists o0 o1,
  always (intsum_ot_sender false (fun i => Z.of_nat i * 1000003) [[12; 5]; [9; 9]] [true; false] [4%nat; 3%nat] Int_Modulus)
         (intsum_ot_receiver false [[10; 1]; [3; 3]] [4%nat; 3%nat] Int_Modulus) o0 o1 /\
  map2 (map2 (fun a b => (a + b) mod Int_Modulus)) o0 o1 = [[6; 4]; [0; 0]].
Proof.
  pose proof p_ge as Hp.
  destruct (intsum_correct false (fun i => Z.of_nat i * 1000003) Int_Modulus [4%nat; 3%nat]
    [[12; 5]; [9; 9]] [[10; 1]; [3; 3]] [true; false]) as (o0 & o1 & H & _ & _ & _ & _ & _ & _ & E);
    auto.
  { right. change (2 ^ 47) with 140737488355328 in Hp. change (2 ^ 48) with 281474976710656 in Hp.
    change (2 ^ 62) with 4611686018427387904. lia. }
  { repeat (apply Forall_cons; [apply width_ok_field; lia|]). constructor. }
  exists o0, o1. split; [exact H|exact E].
Qed.

(** ** C15 Boolean triples from oblivious transfer.
    [x], [y], [r]: the random bit vectors of each server. *)
Theorem bool_triples_correct : forall x0 y0 r0 x1 y1 r1 m,
  length x0 = m -> length y0 = m -> length r0 = m ->
  length x1 = m -> length y1 = m -> length r1 = m ->
  both (gen_boolean_beaver_triples false x0 y0 r0) (gen_boolean_beaver_triples true x1 y1 r1)
    (fun t0 t1 => Forall2 btriple_pair t0 t1 /\ length t0 = m /\ length t1 = m /\
       map ta t0 = x0 /\ map tb t0 = y0 /\ map ta t1 = x1 /\ map tb t1 = y1).
Proof. intros. apply rel_both. now apply gen_btriples_rel. Qed.
Print Assumptions bool_triples_correct.

Example bool_triples_ex : exists t0 t1,
  always (gen_boolean_beaver_triples false [true; true] [false; true] [true; false])
         (gen_boolean_beaver_triples true [false; true] [true; false] [false; false]) t0 t1 /\
  Forall2 btriple_pair t0 t1 /\ length t0 = 2%nat.
Proof.
  destruct (bool_triples_correct [true; true] [false; true] [true; false]
              [false; true] [true; false] [false; false] 2) as (t0 & t1 & H & R); auto.
  exists t0, t1. tauto.
Qed.
