(** * Property C55: arithmetic triples from homomorphic encryption *)
From Coq Require Import ZArith List Bool Lia.
From Verif Require Import Words WordsFacts Constants Proc ProcFacts Net NetFacts RelFacts SpecPoly HeTriples SpecHe HeFacts.
Import ListNotations.
Open Scope Z_scope.

Local Opaque Int_Modulus MAX_HE_BATCH.

(** ** The two servers make their objects and then call [generateTriples(n)] for
    each [n] of [ns]: in every schedule and with all buffer sizes both finish; the
    i-th call gives both exactly as many triples as asked for; the parts at the same
    place make a Beaver triple; and each call has used, of the coins of the encryption,
    the next two for each batch of at most MAX_HE_BATCH triples, so none serves twice.
    For all draws, coins, keys and numbers. *)
Theorem he_triples_correct : forall Q keyed G0 R0 G1 R1 random_offset pk0 sk0 pk1 sk1 ns,
  he_ok Q keyed -> keyed pk0 sk0 -> keyed pk1 sk1 -> in_range G0 -> in_range G1 ->
  both (g <- make_gen Q false random_offset pk0 sk0 ;; he_calls Q G0 R0 ns g)
       (g <- make_gen Q true random_offset pk1 sk1 ;; he_calls Q G1 R1 ns g) (fun r0 r1 =>
    map (@length _) (fst r0) = ns /\ map (@length _) (fst r1) = ns /\
    Forall2 (Forall2 triple_parts) (fst r0) (fst r1) /\
    coins (snd r0) = (2 * fold_right Nat.add 0 (map batches_of ns))%nat /\
    coins (snd r1) = (2 * fold_right Nat.add 0 (map batches_of ns))%nat).
Proof.
  intros Q keyed G0 R0 G1 R1 off pk0 sk0 pk1 sk1 ns OK K0 K1 I0 I1. apply rel_both.
  eapply rel_imp; [exact (whole_run Q keyed G0 R0 G1 R1 off pk0 sk0 pk1 sk1 ns OK K0 K1)|].
  intros r0 r1 (-> & -> & C0 & C1). rewrite !calls_length. repeat split; [now apply calls_parts|exact C0|exact C1].
Qed.
Print Assumptions he_triples_correct.

(** ** The parts are not secret.  Both objects read the same fixed sequence [G] (the
    engine is never seeded), server 1 [random_offset] places further on.  So the parts
    of both servers are known in advance, in every run, whatever the keys and the
    coins of the encryption; with the default offset of 8 server 1's part of B is even
    server 0's own part of A three triples later. *)
Theorem he_parts_known : forall Q keyed G R0 R1 random_offset pk0 sk0 pk1 sk1 ns t,
  he_ok Q keyed -> keyed pk0 sk0 -> keyed pk1 sk1 ->
  both (g <- make_gen Q false random_offset pk0 sk0 ;; he_calls Q G R0 ns g)
       (g <- make_gen Q true random_offset pk1 sk1 ;; he_calls Q G R1 ns g) (fun r0 r1 =>
    forall k, (k < fold_right Nat.add 0 ns)%nat ->
      bt_A (nth k (concat (fst r0)) t) = G (3 * k)%nat /\
      bt_B (nth k (concat (fst r0)) t) = G (3 * k + 1)%nat /\
      bt_A (nth k (concat (fst r1)) t) = G (random_offset + 3 * k)%nat /\
      bt_B (nth k (concat (fst r1)) t) = G (random_offset + 3 * k + 1)%nat /\
      (random_offset = 8%nat -> (k + 3 < fold_right Nat.add 0 ns)%nat ->
       bt_B (nth k (concat (fst r1)) t) = bt_A (nth (k + 3) (concat (fst r0)) t))).
Proof.
  intros Q keyed G R0 R1 off pk0 sk0 pk1 sk1 ns t OK K0 K1. apply rel_both.
  eapply rel_imp; [exact (whole_run Q keyed G R0 G R1 off pk0 sk0 pk1 sk1 ns OK K0 K1)|].
  intros r0 r1 (-> & -> & _) k. rewrite !calls_concat.
  change (fold_right Nat.add 0%nat ns) with (sum_list ns). intros Hk.
  rewrite !(triples_nth _ _ _ _ _ k) by exact Hk. cbn [triple_at bt_A bt_B]. repeat split.
  intros -> H3. rewrite triples_nth by exact H3. cbn [triple_at bt_A bt_B]. f_equal. lia.
Qed.
Print Assumptions he_parts_known.

(** ** A scheme that meets the contract (ciphertexts in clear: eight bytes per slot). *)
Definition pad (v : list Z) : list Z :=
  firstn MAX_HE_BATCH (map (fun x => x mod Int_Modulus) v ++ repeat 0 MAX_HE_BATCH).
Definition clear_ct (v : list Z) : list Z := concat (map (le_bytes 8) (pad v)).
Definition slots (c : list Z) : list Z := map le_val (chunks MAX_HE_BATCH 8 c).
Definition clear_scheme : he_scheme :=
  mkHE 1 (MAX_HE_BATCH * 8) (fun _ _ v => clear_ct v)
    (fun c v => clear_ct (map2 Z.mul (slots c) (pad v)))
    (fun c c' => clear_ct (map2 Z.sub (slots c) (slots c')))
    (fun _ c n => firstn n (slots c)).
Definition clear_keys (pk sk : list Z) : Prop := pk = sk /\ length pk = 1%nat.

Lemma pad_length v : length (pad v) = MAX_HE_BATCH.
Proof. unfold pad. rewrite firstn_length, app_length, repeat_length. lia. Qed.
Lemma pad_field v : Forall (fun x => 0 <= x < Int_Modulus) (pad v).
Proof.
  unfold pad. apply Forall_forall. intros x Hx.
  assert (I : In x (map (fun x => x mod Int_Modulus) v ++ repeat 0 MAX_HE_BATCH)).
  { rewrite <- (firstn_skipn MAX_HE_BATCH). apply in_or_app. now left. }
  apply in_app_or in I as [I|I].
  - apply in_map_iff in I as (y & <- & _). apply Z.mod_pos_bound, p_pos.
  - apply repeat_spec in I. subst. pose proof p_pos. lia.
Qed.
Lemma clear_length v : length (clear_ct v) = (MAX_HE_BATCH * 8)%nat.
Proof. unfold clear_ct. now rewrite concat_le_length, pad_length. Qed.
Lemma slots_clear v : slots (clear_ct v) = pad v.
Proof.
  unfold slots, clear_ct. rewrite <- (pad_length v) at 1. apply (chunks_map_le 8).
  eapply Forall_impl; [|apply pad_field]. cbn beta. intros x Hx.
  assert (Int_Modulus < 256 ^ Z.of_nat 8) by reflexivity. lia.
Qed.
Lemma nth_pad v j : (length v <= MAX_HE_BATCH)%nat -> (j < length v)%nat ->
  nth j (pad v) 0 = nth j v 0 mod Int_Modulus.
Proof.
  intros L H. unfold pad.
  assert (F : forall (l : list Z) n, (j < n)%nat -> nth j (firstn n l) 0 = nth j l 0).
  { clear. revert j. induction j; intros [|x l] [|n] H; cbn; try reflexivity; try lia. apply IHj. lia. }
  rewrite F by lia. rewrite app_nth1 by (rewrite map_length; lia).
  rewrite (nth_indep _ 0 (0 mod Int_Modulus)) by (rewrite map_length; lia).
  apply (map_nth (fun x => x mod Int_Modulus)).
Qed.
Lemma nth_map2 (f : Z -> Z -> Z) : forall l m j, length m = length l -> (j < length l)%nat ->
  nth j (map2 f l m) 0 = f (nth j l 0) (nth j m 0).
Proof.
  induction l as [|x l IH]; intros [|y m] j E H; cbn in *; try lia. destruct j; [reflexivity|]. apply IH; lia.
Qed.

Lemma clear_ok : he_ok clear_scheme clear_keys.
Proof.
  split; cbn [pk_len ct_len encrypt mult_plain sub_ct decrypt clear_scheme].
  - split; [lia|reflexivity].
  - split; [pose proof max_pos; lia|]. Transparent MAX_HE_BATCH. reflexivity.
  - now intros pk sk [_ H].
  - intros. apply clear_length.
  - intros. apply clear_length.
  - intros pk sk r r' a b d _ La Lb Ld j Hj. rewrite !slots_clear.
    assert (F : forall (l : list Z) n, (j < n)%nat -> nth j (firstn n l) 0 = nth j l 0).
    { clear. revert j. induction j; intros [|x l] [|n] H; cbn; try reflexivity; try lia. apply IHj. lia. }
    assert (M2 : forall (f : Z -> Z -> Z) u v, length (map2 f (pad u) (pad v)) = MAX_HE_BATCH).
    { intros. rewrite map2_len; rewrite !pad_length; reflexivity. }
    rewrite F by exact Hj.
    rewrite nth_pad; rewrite ?map2_len; rewrite ?pad_length; try lia.
    rewrite nth_map2; rewrite ?pad_length; try lia.
    rewrite nth_pad; rewrite ?M2; try lia.
    rewrite nth_map2; rewrite ?pad_length; try lia.
    rewrite !nth_pad by lia. rewrite Z.mod_mod by exact p_nz.
    rewrite <- Z.mul_mod by exact p_nz. rewrite <- Zminus_mod. reflexivity.
Qed.

(** Two calls, for 3 and 2 triples. *)
Definition ex_seq (k : nat) : Z := (Z.of_nat k * 7919 + 3) mod Int_Modulus.
Lemma ex_seq_range : in_range ex_seq.
Proof. intros k. apply Z.mod_pos_bound, p_pos. Qed.
Example he_ex : exists r0 r1,
  always (g <- make_gen clear_scheme false 8 [5] [5] ;; he_calls clear_scheme ex_seq Z.of_nat [3; 2]%nat g)
         (g <- make_gen clear_scheme true 8 [7] [7] ;; he_calls clear_scheme ex_seq Z.of_nat [3; 2]%nat g) r0 r1 /\
  map (@length _) (fst r0) = [3; 2]%nat /\ Forall2 (Forall2 triple_parts) (fst r0) (fst r1) /\
  bt_B (nth 1 (concat (fst r1)) (mkBT 0 0 0)) = bt_A (nth 4 (concat (fst r0)) (mkBT 0 0 0)).
Proof.
  destruct (he_triples_correct clear_scheme clear_keys ex_seq Z.of_nat ex_seq Z.of_nat 8 [5] [5] [7] [7] [3; 2]%nat
     clear_ok (conj eq_refl eq_refl) (conj eq_refl eq_refl) ex_seq_range ex_seq_range) as (r0 & r1 & A & L & _ & F & _).
  exists r0, r1. split; [exact A|]. split; [exact L|]. split; [exact F|].
  pose proof (he_parts_known clear_scheme clear_keys ex_seq Z.of_nat Z.of_nat 8 [5] [5] [7] [7] [3; 2]%nat
     (mkBT 0 0 0) clear_ok (conj eq_refl eq_refl) (conj eq_refl eq_refl)) as W.
  pose proof (both_functional _ _ _ _ _ W A) as H. destruct (H 1%nat) as (_ & _ & _ & _ & E); [cbn; lia|]. apply E; [reflexivity|cbn; lia].
Qed.
