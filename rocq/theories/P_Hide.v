(** * C47: the oblivious transfers hide the sender's shares.
    The sender of /repo/ot.cpp masks each message with a fresh word.  Whatever the receiver
    chooses, and whatever messages it gets, exactly one choice of masks at the positions
    that count explains them — for every value of the sender's shares.  So with uniform
    masks the messages have the same distribution for all shares. *)
From Coq Require Import ZArith List Bool Lia.
From Verif Require Import Words Constants Share SpecShare Proc SpecHide OT OTFacts HideFacts.
Import ListNotations.
Open Scope Z_scope.

(** Integers (INT_SUM, VAR, LINREG, FREQ conversions). *)
Theorem intsum_reveals_nothing : forall ot m num_bits shares valid choices want,
  mod_ok m -> Forall (width_ok m) num_bits -> length shares = length valid ->
  Forall (fun row => length row = length num_bits) shares ->
  length choices = (length valid * total num_bits)%nat ->
  possible m (spread_over (total num_bits) valid) want ->
  exists rnd, ot_view ot choices (intsum_ot_sender ot rnd shares valid num_bits m) = Some want /\
    forall rnd', ot_view ot choices (intsum_ot_sender ot rnd' shares valid num_bits m) = Some want ->
      forall i, nth i (spread_over (total num_bits) valid) false = true -> mask m rnd' i = mask m rnd i.
Proof. exact intsum_hides. Qed.
Print Assumptions intsum_reveals_nothing.

(** What the receiver gets from one list of shares can come from any other. *)
Theorem intsum_explained_by_any_shares : forall ot m num_bits rnd shares shares' valid choices,
  mod_ok m -> Forall (width_ok m) num_bits ->
  length shares = length valid -> length shares' = length valid ->
  Forall (fun row => length row = length num_bits) shares ->
  Forall (fun row => length row = length num_bits) shares' ->
  length choices = (length valid * total num_bits)%nat ->
  exists rnd', ot_view ot choices (intsum_ot_sender ot rnd' shares' valid num_bits m) =
               ot_view ot choices (intsum_ot_sender ot rnd shares valid num_bits m).
Proof. exact intsum_same_view. Qed.
Print Assumptions intsum_explained_by_any_shares.

(** Bits (BIT_SUM), modulo 2^64 as the servers call it. *)
Theorem bitsum_reveals_nothing : forall ot shares valid choices want,
  length shares = length valid -> length choices = length valid -> possible 0 valid want ->
  exists rnd, ot_view ot choices (bitsum_ot_sender ot rnd shares valid 0) = Some want /\
    forall rnd', ot_view ot choices (bitsum_ot_sender ot rnd' shares valid 0) = Some want ->
      forall i, nth i valid false = true -> mask 0 rnd' i = mask 0 rnd i.
Proof. exact bitsum_hides. Qed.
Print Assumptions bitsum_reveals_nothing.

(** Boolean Beaver triples: the bits of the sender's first factor stay hidden. *)
Theorem triple_transfer_reveals_nothing : forall ot choices x want,
  length choices = length x -> length want = length x ->
  exists! r, length r = length x /\
    ot_view ot choices (OTSend ot (btriple_msgs x r) (Ret tt)) = Some (map b2z want).
Proof. exact triples_hide. Qed.
Print Assumptions triple_transfer_reveals_nothing.

(** Two clients, two columns of 3 and 2 bits modulo p, the second client invalid. *)
Example intsum_hide_ex :
  let choices := [true; false; true; true; false; true; true; true; true; true] in
  let want := [5; 17; 1000000; 0; 140737597931520; 0; 0; 0; 0; 0] in
  mod_ok Int_Modulus /\ Forall (width_ok Int_Modulus) [3; 2]%nat /\
  possible Int_Modulus (spread_over (total [3; 2]%nat) [true; false]) want /\
  exists rnd, ot_view true choices (intsum_ot_sender true rnd [[6; 1]; [2; 3]] [true; false] [3; 2]%nat Int_Modulus) = Some want.
Proof.
  cbv zeta.
  assert (H1 : mod_ok Int_Modulus) by (right; vm_compute; split; reflexivity).
  assert (H2 : Forall (width_ok Int_Modulus) [3; 2]%nat).
  { repeat apply Forall_cons; try apply Forall_nil; (split; [cbn; lia|intros _ _; vm_compute; discriminate]). }
  assert (H3 : possible Int_Modulus (spread_over (total [3; 2]%nat) [true; false])
                 [5; 17; 1000000; 0; 140737597931520; 0; 0; 0; 0; 0]).
  { unfold possible. repeat apply Forall2_cons; try apply Forall2_nil; cbv beta iota; try reflexivity;
      (split; [vm_compute; discriminate|vm_compute; reflexivity]). }
  split; [exact H1|]. split; [exact H2|]. split; [exact H3|].
  destruct (intsum_reveals_nothing true Int_Modulus [3; 2]%nat [[6; 1]; [2; 3]] [true; false]
    [true; false; true; true; false; true; true; true; true; true] _ H1 H2 eq_refl
    ltac:(repeat constructor) eq_refl H3) as (rnd & R & _).
  exists rnd. exact R.
Qed.
Example bitsum_hide_ex :
  exists rnd, ot_view false [true; false; true] (bitsum_ot_sender false rnd [true; true; false] [true; true; false] 0) = Some [12; 34; 0].
Proof.
  destruct (bitsum_reveals_nothing false [true; true; false] [true; true; false] [true; false; true] [12; 34; 0])
    as (rnd & R & _); [reflexivity|reflexivity| |exists rnd; exact R].
  unfold possible. repeat apply Forall2_cons; try apply Forall2_nil; cbv beta iota; try reflexivity;
    (split; [vm_compute; discriminate|vm_compute; reflexivity]).
Qed.
Example triple_hide_ex :
  ot_view true [true; false] (OTSend true (btriple_msgs [true; true] [false; true]) (Ret tt)) = Some (map b2z [true; true]).
Proof. reflexivity. Qed.
