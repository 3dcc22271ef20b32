(** * Triples from homomorphic encryption: proofs for C55 *)
From Coq Require Import ZArith List Bool Lia.
From Verif Require Import Words WordsFacts Constants Proc ProcFacts Net NetFacts RelFacts SpecPoly
  CorrelatedFacts HeTriples SpecHe.
Import ListNotations.
Open Scope Z_scope.

Lemma p_nz : Int_Modulus <> 0.
Proof. discriminate. Qed.
Lemma p_pos : 0 < Int_Modulus.
Proof. reflexivity. Qed.
Lemma max_pos : (0 < MAX_HE_BATCH)%nat.
Proof. unfold MAX_HE_BATCH. apply Nat.neq_0_lt_0, Nat.pow_nonzero. lia. Qed.
Local Opaque Int_Modulus MAX_HE_BATCH.

(** ** The exchange *)

Lemma emits_bytes p bs : emits p bs tt -> wire p = bs.
Proof. induction 1; cbn; congruence. Qed.

Lemma delivers_strings len l : (0 < len)%nat -> Z.of_nat len < 2 ^ 32 ->
  Forall (fun x => length x = len) l ->
  delivers (send_strings l) (recv_strings (length l)) l.
Proof.
  intros L B. induction 1 as [|x l E F IH]; cbn [send_strings recv_strings length].
  - apply delivers_ret.
  - eapply delivers_seq; [apply delivers_string; rewrite E; [lia|exact B]|].
    apply (delivers_map _ _ _ (fun l' => x :: l') IH).
Qed.

Lemma strings_wire len l : (0 < len)%nat -> Z.of_nat len < 2 ^ 32 ->
  Forall (fun x => length x = len) l ->
  feed (recv_strings (length l)) (wire (send_strings l)) = Some (l, []) /\
  length (wire (send_strings l)) = (length l * (8 + len))%nat.
Proof.
  intros L B F. destruct (delivers_strings len l L B F) as (bs & E & D).
  rewrite (emits_bytes _ _ E). split.
  - specialize (D []). now rewrite app_nil_r in D.
  - rewrite <- (emits_bytes _ _ E). clear -F. induction F as [|x l Lx F IH]; [reflexivity|].
    cbn [send_strings wire length]. unfold send_string at 1. cbn [bind send_size wire].
    rewrite !app_length, le_bytes_length, IH, Lx. lia.
Qed.

Lemma swap_runs len m0 m1 : (0 < len)%nat -> Z.of_nat len < 2 ^ 32 -> length m1 = length m0 ->
  Forall (fun x => length x = len) m0 -> Forall (fun x => length x = len) m1 ->
  conv (serializedSwap len m0) (serializedSwap len m1) m1 m0.
Proof.
  intros L B E F0 F1. destruct (strings_wire len m0 L B F0) as [W0 N0].
  destruct (strings_wire len m1 L B F1) as [W1 N1].
  assert (R : rel (serializedSwap len m0) (serializedSwap len m1) (fun a b => a = m1 /\ b = m0)).
  { unfold serializedSwap. apply rel_xchg; [rewrite N0, E; reflexivity|rewrite N1, E; reflexivity|].
    rewrite <- E at 1. rewrite W1, E, W0. now apply rel_ret. }
  destruct R as (a & b & C & -> & ->). exact C.
Qed.

(** ** Sizes of the batches *)

Fixpoint sum_list (l : list nat) : nat := match l with [] => 0%nat | x :: l' => (x + sum_list l')%nat end.


Lemma sizes_form q last : map (fun i => if (i =? q)%nat then last else MAX_HE_BATCH) (seq 0 (q + 1))
  = repeat MAX_HE_BATCH q ++ [last].
Proof.
  rewrite seq_app, map_app. cbn [seq map Nat.add]. rewrite Nat.eqb_refl. f_equal.
  assert (H : forall s k, (s + k <= q)%nat ->
    map (fun i => if (i =? q)%nat then last else MAX_HE_BATCH) (seq s k) = repeat MAX_HE_BATCH k).
  { intros s k. revert s. induction k as [|k IH]; intros s Hs; [reflexivity|].
    cbn [seq map repeat]. destruct (Nat.eqb_spec s q); [lia|]. f_equal. apply IH. lia. }
  apply H. lia.
Qed.

Lemma sum_repeat m q l : sum_list (repeat m q ++ [l]) = (q * m + l)%nat.
Proof. induction q as [|q IH]; cbn; [lia|rewrite IH; lia]. Qed.

Lemma batch_sizes_ok n : (0 < n)%nat ->
  sum_list (batch_sizes n) = n /\ Forall (fun N => (N <= MAX_HE_BATCH)%nat) (batch_sizes n).
Proof.
  intros Hn. unfold batch_sizes. cbv zeta. pose proof max_pos as M.
  rewrite Nat.add_sub, sizes_form, sum_repeat.
  pose proof (Nat.div_mod (n - 1) MAX_HE_BATCH ltac:(lia)).
  pose proof (Nat.mod_upper_bound (n - 1) MAX_HE_BATCH ltac:(lia)). split; [lia|].
  apply Forall_app. split; [|constructor; [lia|constructor]].
  apply Forall_forall. intros x Hx. apply repeat_spec in Hx. lia.
Qed.

Lemma batches_0 : batches_of 0 = 0%nat.
Proof. unfold batches_of. apply Nat.div_small. pose proof max_pos. lia. Qed.
Lemma batches_length n : (0 < n)%nat -> length (batch_sizes n) = batches_of n.
Proof.
  intros H. unfold batch_sizes, batches_of. rewrite map_length, seq_length. pose proof max_pos as M.
  replace (n + (MAX_HE_BATCH - 1))%nat with ((n - 1) + 1 * MAX_HE_BATCH)%nat by lia. rewrite Nat.div_add by lia. reflexivity.
Qed.

(** ** The triples as a function of the draws *)

(** The triple a server makes from its calls of [random_int] from [k] on, when the
    other server's are those from [k'] on. *)
Definition triple_at (G G' : nat -> Z) (k k' : nat) : BeaverTriple :=
  mkBT (G k) (G (k + 1)%nat)
    ((G k * G (k + 1)%nat + G (k + 2)%nat + (G k * G' (k' + 1)%nat - G' (k' + 2)%nat)) mod Int_Modulus).

Section Batches.
Variable Q : he_scheme.
Variable keyed : list Z -> list Z -> Prop.
Hypothesis OK : he_ok Q keyed.

Definition cross (c : list Z) (B : he_batch) : list Z := sub_ct Q (mult_plain Q c (bb B)) (ct_d B).

Lemma draw_a_nth G k N j : (j < N)%nat -> nth j (draw_a G k N) 0 = G (k + 3 * j)%nat.
Proof.
  intros. unfold draw_a. rewrite (nth_indep _ 0 (G (k + 3 * 0)%nat)) by (rewrite map_length, seq_length; lia).
  rewrite (map_nth (fun j => G (k + 3 * j)%nat)), seq_nth by lia. reflexivity.
Qed.
Lemma draw_b_nth G k N j : (j < N)%nat -> nth j (draw_b G k N) 0 = G (k + 3 * j + 1)%nat.
Proof.
  intros. unfold draw_b. rewrite (nth_indep _ 0 (G (k + 3 * 0 + 1)%nat)) by (rewrite map_length, seq_length; lia).
  rewrite (map_nth (fun j => G (k + 3 * j + 1)%nat)), seq_nth by lia. reflexivity.
Qed.
Lemma draw_d_nth G k N j : (j < N)%nat -> nth j (draw_d G k N) 0 = G (k + 3 * j + 2)%nat.
Proof.
  intros. unfold draw_d. rewrite (nth_indep _ 0 (G (k + 3 * 0 + 2)%nat)) by (rewrite map_length, seq_length; lia).
  rewrite (map_nth (fun j => G (k + 3 * j + 2)%nat)), seq_nth by lia. reflexivity.
Qed.
Lemma draw_lengths G k N : length (draw_a G k N) = N /\ length (draw_b G k N) = N /\ length (draw_d G k N) = N.
Proof. unfold draw_a, draw_b, draw_d. now rewrite !map_length, seq_length. Qed.

Lemma finish_out G G' R R' pk sk pk' k k' e e' N : keyed pk sk -> (N <= MAX_HE_BATCH)%nat ->
  finish_batch Q sk (make_batch Q G R pk pk' k e N)
    (cross (ct_a (make_batch Q G R pk pk' k e N)) (make_batch Q G' R' pk' pk k' e' N))
  = map (fun j => triple_at G G' (k + 3 * j) (k' + 3 * j)) (seq 0 N).
Proof.
  intros K HN. destruct (draw_lengths G k N) as (La & Lb & Ld). destruct (draw_lengths G' k' N) as (La' & Lb' & Ld').
  unfold finish_batch, make_batch, cross. cbn [ba bb bd ct_a ct_d]. rewrite La.
  apply map_ext_in. intros j Hj. apply in_seq in Hj.
  pose proof (decrypts Q keyed OK pk sk (R e) (R' (e' + 1)%nat) (draw_a G k N) (draw_b G' k' N) (draw_d G' k' N) K
                ltac:(lia) ltac:(lia) ltac:(lia) j ltac:(lia)) as D.
  rewrite La in D. rewrite draw_a_nth, draw_b_nth, draw_d_nth in D by lia.
  rewrite draw_a_nth, draw_b_nth, draw_d_nth by lia.
  unfold he_triple, triple_at. f_equal.
  rewrite <- Z.add_assoc, Z.add_mod_idemp_l by exact p_nz.
  rewrite Z.add_assoc, <- Z.add_mod_idemp_r, D, Z.add_mod_idemp_r by exact p_nz. reflexivity.
Qed.

Lemma finish_all G G' R R' pk sk pk' : keyed pk sk -> forall Ns k k' e e',
  Forall (fun N => (N <= MAX_HE_BATCH)%nat) Ns ->
  concat (map2 (finish_batch Q sk) (make_batches Q G R pk pk' k e Ns)
           (map2 cross (map ct_a (make_batches Q G R pk pk' k e Ns)) (make_batches Q G' R' pk' pk k' e' Ns)))
  = map (fun j => triple_at G G' (k + 3 * j) (k' + 3 * j)) (seq 0 (sum_list Ns)).
Proof.
  intros K. induction Ns as [|N Ns IH]; intros k k' e e' F; [reflexivity|].
  apply Forall_cons_iff in F as [HN F]. cbn [make_batches map map2 concat sum_list].
  rewrite (finish_out G G' R R' pk sk pk' k k' e e' N K HN), IH by exact F.
  rewrite seq_app, map_app. f_equal. cbn [Nat.add].
  replace (seq N (sum_list Ns)) with (map (fun j => (N + j)%nat) (seq 0 (sum_list Ns))).
  2:{ clear. generalize (sum_list Ns) as m. intros m. revert N. induction m as [|m IHm]; intros N; [reflexivity|].
    cbn [seq map]. f_equal; [lia|]. rewrite <- (IHm (S N)), <- seq_shift, map_map. apply map_ext. intros; lia. }
  rewrite map_map. apply map_ext. intros j. f_equal; lia.
Qed.
End Batches.

(** ** Calls *)

(** Two objects that have exchanged their public keys. *)
Definition gens_paired (keyed : list Z -> list Z -> Prop) (g0 g1 : he_gen) : Prop :=
  keyed (gen_pk g0) (gen_sk g0) /\ keyed (gen_pk g1) (gen_sk g1) /\
  gen_other_pk g0 = gen_pk g1 /\ gen_other_pk g1 = gen_pk g0.

Definition triples_at (G G' : nat -> Z) (k k' n : nat) : list BeaverTriple :=
  map (fun j => triple_at G G' (k + 3 * j) (k' + 3 * j)) (seq 0 n).

Lemma make_batches_length Q G R pk opk : forall Ns k e,
  length (make_batches Q G R pk opk k e Ns) = length Ns.
Proof. induction Ns; intros; cbn; auto. Qed.

Lemma cts_length Q keyed G R pk opk : he_ok Q keyed -> forall Ns k e,
  Forall (fun x => length x = ct_len Q) (map ct_a (make_batches Q G R pk opk k e Ns)).
Proof.
  intros OK. induction Ns as [|N Ns IH]; intros; cbn; constructor; auto. apply (enc_bytes Q keyed OK).
Qed.

Lemma map2_len {A B C} (f : A -> B -> C) l m : length m = length l -> length (map2 f l m) = length l.
Proof. revert m. induction l; intros [|] H; cbn in *; try lia. now rewrite IHl by lia. Qed.

Lemma cross_length Q keyed : he_ok Q keyed -> forall l m,
  Forall (fun x => length x = ct_len Q) (map2 (cross Q) l m).
Proof.
  intros OK. induction l; intros [|]; cbn; constructor; auto. apply (sub_bytes Q keyed OK).
Qed.

Lemma generate_runs Q keyed G0 R0 G1 R1 n g0 g1 : he_ok Q keyed -> gens_paired keyed g0 g1 ->
  rel (generateTriples Q G0 R0 n g0) (generateTriples Q G1 R1 n g1) (fun r0 r1 =>
    fst r0 = triples_at G0 G1 (draws g0) (draws g1) n /\
    fst r1 = triples_at G1 G0 (draws g1) (draws g0) n /\
    draws (snd r0) = (draws g0 + 3 * n)%nat /\ draws (snd r1) = (draws g1 + 3 * n)%nat /\
    coins (snd r0) = (coins g0 + 2 * batches_of n)%nat /\ coins (snd r1) = (coins g1 + 2 * batches_of n)%nat /\
    gens_paired keyed (snd r0) (snd r1)).
Proof.
  intros OK (K0 & K1 & E0 & E1). destruct n as [|n].
  { apply rel_ret. cbn [fst snd]. rewrite batches_0, !Nat.mul_0_r, !Nat.add_0_r. repeat split; auto. }
  pose proof (batches_length (S n) ltac:(lia)) as BL.
  destruct (batch_sizes_ok (S n) ltac:(lia)) as [SU FO].
  unfold generateTriples. rewrite E0, E1. cbv zeta. destruct (ct_size Q keyed OK) as [CL CB].
  set (Ns := batch_sizes (S n)) in *.
  set (B0 := make_batches Q G0 R0 (gen_pk g0) (gen_pk g1) (draws g0) (coins g0) Ns).
  set (B1 := make_batches Q G1 R1 (gen_pk g1) (gen_pk g0) (draws g1) (coins g1) Ns).
  assert (L0 : length B0 = length Ns) by apply make_batches_length.
  assert (L1 : length B1 = length Ns) by apply make_batches_length.
  eapply (rel_bind _ _ (fun a b => a = map ct_a B1 /\ b = map ct_a B0)).
  { exists (map ct_a B1), (map ct_a B0). split; [|split; reflexivity].
    apply swap_runs; auto; [rewrite !map_length; lia|eapply cts_length; eauto|eapply cts_length; eauto]. }
  intros a b (-> & ->). fold (cross Q).
  eapply (rel_bind _ _ (fun a b => a = map2 (cross Q) (map ct_a B0) B1 /\ b = map2 (cross Q) (map ct_a B1) B0)).
  { exists (map2 (cross Q) (map ct_a B0) B1), (map2 (cross Q) (map ct_a B1) B0).
    split; [|split; reflexivity].
    apply swap_runs; auto; [|eapply cross_length; eauto|eapply cross_length; eauto].
    rewrite !map2_len; rewrite ?map_length; lia. }
  intros a b (-> & ->). apply rel_ret. cbn [fst snd draws coins gen_pk gen_sk gen_other_pk]. rewrite L0, L1, BL.
  unfold B0, B1. rewrite (finish_all Q keyed OK G0 G1 R0 R1 (gen_pk g0) (gen_sk g0) (gen_pk g1) K0) by exact FO.
  rewrite (finish_all Q keyed OK G1 G0 R1 R0 (gen_pk g1) (gen_sk g1) (gen_pk g0) K1) by exact FO.
  rewrite SU. repeat split; auto.
Qed.

Fixpoint calls_at (G G' : nat -> Z) (k k' : nat) (ns : list nat) : list (list BeaverTriple) :=
  match ns with
  | [] => []
  | n :: ns' => triples_at G G' k k' n :: calls_at G G' (k + 3 * n) (k' + 3 * n) ns'
  end.

Lemma calls_run Q keyed G0 R0 G1 R1 : he_ok Q keyed -> forall ns g0 g1, gens_paired keyed g0 g1 ->
  rel (he_calls Q G0 R0 ns g0) (he_calls Q G1 R1 ns g1) (fun r0 r1 =>
    fst r0 = calls_at G0 G1 (draws g0) (draws g1) ns /\
    fst r1 = calls_at G1 G0 (draws g1) (draws g0) ns /\
    coins (snd r0) = (coins g0 + 2 * sum_list (map batches_of ns))%nat /\
    coins (snd r1) = (coins g1 + 2 * sum_list (map batches_of ns))%nat).
Proof.
  intros OK. induction ns as [|n ns IH]; intros g0 g1 P; cbn [he_calls].
  { apply rel_ret. cbn [map sum_list fold_right fst snd]. rewrite Nat.mul_0_r, !Nat.add_0_r. repeat split; reflexivity. }
  eapply rel_bind; [apply (generate_runs Q keyed G0 R0 G1 R1 n g0 g1 OK P)|].
  intros r0 r1 (E0 & E1 & D0 & D1 & C0 & C1 & P').
  eapply rel_bind; [apply (IH _ _ P')|].
  intros q0 q1 (F0 & F1 & N0 & N1). apply rel_ret. cbn [fst snd calls_at map].
  rewrite E0, E1, F0, F1, D0, D1. split; [reflexivity|]. split; [reflexivity|]. rewrite N0, N1, C0, C1.
  change (sum_list (batches_of n :: map batches_of ns)) with (batches_of n + sum_list (map batches_of ns))%nat. split; lia.
Qed.

Lemma make_gen_runs Q keyed off pk0 sk0 pk1 sk1 : he_ok Q keyed -> keyed pk0 sk0 -> keyed pk1 sk1 ->
  rel (make_gen Q false off pk0 sk0) (make_gen Q true off pk1 sk1) (fun g0 g1 =>
    draws g0 = 0%nat /\ draws g1 = off /\ coins g0 = 0%nat /\ coins g1 = 0%nat /\ gens_paired keyed g0 g1).
Proof.
  intros OK K0 K1. unfold make_gen. destruct (pk_size Q keyed OK) as [PL PB].
  eapply (rel_bind _ _ (fun a b => a = [pk1] /\ b = [pk0])).
  { exists [pk1], [pk0]. split; [|split; reflexivity].
    apply swap_runs; auto; repeat constructor; eapply pk_bytes; eauto. }
  intros a b (-> & ->). apply rel_ret. cbn. repeat split; auto.
Qed.

Lemma whole_run Q keyed G0 R0 G1 R1 off pk0 sk0 pk1 sk1 ns :
  he_ok Q keyed -> keyed pk0 sk0 -> keyed pk1 sk1 ->
  rel (g <- make_gen Q false off pk0 sk0 ;; he_calls Q G0 R0 ns g)
      (g <- make_gen Q true off pk1 sk1 ;; he_calls Q G1 R1 ns g) (fun r0 r1 =>
    fst r0 = calls_at G0 G1 0 off ns /\ fst r1 = calls_at G1 G0 off 0 ns /\
    coins (snd r0) = (2 * sum_list (map batches_of ns))%nat /\ coins (snd r1) = (2 * sum_list (map batches_of ns))%nat).
Proof.
  intros OK K0 K1. eapply rel_bind; [apply (make_gen_runs Q keyed off pk0 sk0 pk1 sk1 OK K0 K1)|].
  intros g0 g1 (D0 & D1 & C0 & C1 & P). pose proof (calls_run Q keyed G0 R0 G1 R1 OK ns g0 g1 P) as C.
  rewrite D0, D1, C0, C1 in C. exact C.
Qed.

(** ** The products *)

Lemma triple_at_parts G0 G1 k0 k1 : in_range G0 -> in_range G1 ->
  triple_parts (triple_at G0 G1 k0 k1) (triple_at G1 G0 k1 k0).
Proof.
  intros R0 R1. unfold triple_parts, triple_at. cbn [bt_A bt_B bt_C].
  assert (M : forall x, in_field Int_Modulus (x mod Int_Modulus)).
  { intros. unfold in_field. apply Z.mod_pos_bound, p_pos. }
  repeat split; try apply R0; try apply R1; try apply M.
  rewrite <- Z.add_mod by exact p_nz. f_equal. ring.
Qed.

Lemma calls_length G G' : forall ns k k', map (@length _) (calls_at G G' k k' ns) = ns.
Proof.
  induction ns; intros; cbn [calls_at map]; [reflexivity|].
  unfold triples_at at 1. now rewrite map_length, seq_length, IHns.
Qed.

Lemma calls_parts G0 G1 : in_range G0 -> in_range G1 -> forall ns k0 k1,
  Forall2 (Forall2 triple_parts) (calls_at G0 G1 k0 k1 ns) (calls_at G1 G0 k1 k0 ns).
Proof.
  intros R0 R1. induction ns as [|n ns IH]; intros; cbn [calls_at]; constructor; auto.
  unfold triples_at. induction (seq 0 n); cbn [map]; constructor; auto. now apply triple_at_parts.
Qed.

(** All calls together are one sequence. *)
Lemma calls_concat G G' : forall ns k k',
  concat (calls_at G G' k k' ns) = triples_at G G' k k' (sum_list ns).
Proof.
  induction ns as [|n ns IH]; intros; cbn [calls_at concat sum_list]; [reflexivity|].
  rewrite IH. unfold triples_at. rewrite seq_app, map_app. f_equal. cbn [Nat.add].
  replace (seq n (sum_list ns)) with (map (fun j => (n + j)%nat) (seq 0 (sum_list ns))).
  2:{ clear. generalize (sum_list ns) as m. intros m. revert n. induction m as [|m IHm]; intros N; [reflexivity|].
    cbn [seq map]. f_equal; [lia|]. rewrite <- (IHm (S N)), <- seq_shift, map_map. apply map_ext. intros; lia. }
  rewrite map_map. apply map_ext. intros j. f_equal; lia.
Qed.

Lemma triples_nth G G' k k' n j t : (j < n)%nat ->
  nth j (triples_at G G' k k' n) t = triple_at G G' (k + 3 * j) (k' + 3 * j).
Proof.
  intros H. unfold triples_at.
  rewrite (nth_indep _ t (triple_at G G' (k + 3 * 0) (k' + 3 * 0))) by (rewrite map_length, seq_length; lia).
  rewrite (map_nth (fun j => triple_at G G' (k + 3 * j) (k' + 3 * j))), seq_nth by lia. reflexivity.
Qed.
