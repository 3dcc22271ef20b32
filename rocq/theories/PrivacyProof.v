From Coq Require Import ZArith List Bool Lia Permutation.
From Verif Require Import Words WordsFacts Constants Share Cong Proc ProcFacts Net NetFacts SpecNet NetMsg SpecShare RelFacts
  OT OTFacts ServerOps SpecServer TableFacts ServerFacts ServerProps SpecHide HideFacts SpecPrivacy ViewFacts PrivacyFacts
  ClientOps SpecClient ClientFacts ClientProps ServerCor SpecSecret SecretFacts.
Import ListNotations.
Open Scope Z_scope.

(** ** Submissions of any kind *)
(** A table with given keys. *)
Definition with_keys {V} (d : V) (keys : list (list Z * bool)) : table V :=
  map (fun e => (fst e, d)) (table_of (fun b : bool => b) keys).
Lemma with_keys_fst {V} (d : V) (ok : V -> bool) subs keys : ids ok subs = keys ->
  map fst (with_keys d keys) = map fst (table_of ok subs).
Proof.
  intros <-. unfold with_keys. rewrite map_map. cbn [fst]. symmetry.
  rewrite (table_ids ok (fun b : bool => b) subs (ids ok subs)); [reflexivity|].
  unfold ids. rewrite map_map. reflexivity.
Qed.
Definition key_order {V} (order : iteration) (d : V) keys : list (list Z) := map fst (order V (with_keys d keys)).
Lemma key_order_eq {V} order (d : V) (ok : V -> bool) subs keys : by_keys order -> ids ok subs = keys ->
  map fst (order V (table_of ok subs)) = key_order order d keys.
Proof. intros HK E. apply HK. symmetry. now apply with_keys_fst. Qed.

Lemma bit_view_sum order0 order1 total0 stream0 subs0 junk0 rnd0 L keys :
  fair order1 -> by_keys order1 -> arrives bit_wire total0 stream0 subs0 -> length junk0 = 33%nat ->
  exists view, forall total1 stream1 subs1 junk1 rnd1,
    arrives bit_wire total1 stream1 subs1 -> length junk1 = 33%nat ->
    accepted any subs0 subs1 L -> ids any subs1 = keys ->
    sees0 (bit_sum false order0 total0 stream0 junk0 rnd0) (bit_sum true order1 total1 stream1 junk1 rnd1)
      (view (zsum (map (combined any bit_val 0 subs0 subs1) L))).
Proof.
  intros HF HK A0 J0.
  exists (bit_view0 (table_of any subs0) total0 rnd0 (key_order order1 false keys)).
  intros total1 stream1 subs1 junk1 rnd1 A1 J1 HL E. exists RET_NO_ANS. apply conv_always.
  rewrite (bit_sum_eq false _ _ _ subs0), (bit_sum_eq true _ _ _ subs1) by auto.
  destruct A1 as (r1 & _ & _ & P1 & S1).
  rewrite <- map_combined, <- (key_order_eq order1 false any subs1 keys HK E).
  apply bit_sees0; auto using table_keys, table_size, both_in_accepted.
Qed.

Lemma bit_views_alike order0 order1 total0 total0' total1 stream0 stream0' stream1 subs0 subs0' subs1 junk0 junk0' junk1 rnd0 rnd1 :
  fair order1 -> arrives bit_wire total0 stream0 subs0 -> arrives bit_wire total0' stream0' subs0' ->
  arrives bit_wire total1 stream1 subs1 ->
  length junk0 = 33%nat -> length junk0' = 33%nat -> length junk1 = 33%nat -> ids any subs0 = ids any subs0' ->
  exists rnd0' v,
    sees1 (bit_sum false order0 total0 stream0 junk0 rnd0) (bit_sum true order1 total1 stream1 junk1 rnd1) v /\
    sees1 (bit_sum false order0 total0' stream0' junk0' rnd0') (bit_sum true order1 total1 stream1 junk1 rnd1) v.
Proof.
  intros HF A0 A0' A1 J0 J0' J1 E.
  assert (EK := table_ids any any subs0 subs0' E).
  pose proof A1 as (r1 & _ & _ & P1 & S1).
  destruct (bit_alike1 order1 (table_of any subs0) (table_of any subs0') (table_of any subs1) total0 total0' rnd0)
    as (v & r & rnd' & r' & C & C'); auto using table_keys, table_size.
  exists rnd', v. split; [exists r|exists r']; apply conv_always, conv_swap.
  - rewrite (bit_sum_eq false _ _ _ subs0), (bit_sum_eq true _ _ _ subs1) by auto. exact C.
  - rewrite (bit_sum_eq false _ _ _ subs0'), (bit_sum_eq true _ _ _ subs1) by auto. exact C'.
Qed.

Lemma int_view_sum nb order0 order1 total0 stream0 subs0 junk0 rnd0 L keys :
  (nb <= 63)%nat -> fair order1 -> by_keys order1 -> arrives int_wire total0 stream0 subs0 ->
  Forall (fun s => word (snd s)) subs0 -> length junk0 = 40%nat ->
  exists view, forall total1 stream1 subs1 junk1 rnd1,
    arrives int_wire total1 stream1 subs1 -> Forall (fun s => word (snd s)) subs1 -> length junk1 = 40%nat ->
    accepted (fits nb) subs0 subs1 L -> ids (fits nb) subs1 = keys ->
    sees0 (int_sum false order0 nb total0 stream0 junk0 rnd0) (int_sum true order1 nb total1 stream1 junk1 rnd1)
      (view (zsum (map (combined (fits nb) Z.lxor 0 subs0 subs1) L) mod two64)).
Proof.
  intros HB HF HK A0 W0 J0.
  exists (int_view0 nb (table_of (fits nb) subs0) total0 rnd0 (key_order order1 0 keys)).
  intros total1 stream1 subs1 junk1 rnd1 A1 W1 J1 HL E. exists RET_NO_ANS. apply conv_always.
  rewrite (int_sum_eq false _ _ _ _ subs0), (int_sum_eq true _ _ _ _ subs1) by auto.
  destruct A1 as (r1 & _ & _ & P1 & S1).
  rewrite <- map_combined, <- (key_order_eq order1 0 (fits nb) subs1 keys HK E).
  apply int_sees0; auto using table_keys, table_size, both_in_accepted, fits_table.
Qed.

Lemma int_views_alike nb order0 order1 total0 total0' total1 stream0 stream0' stream1 subs0 subs0' subs1 junk0 junk0' junk1 rnd0 rnd1 :
  (nb <= 63)%nat -> fair order1 -> arrives int_wire total0 stream0 subs0 -> arrives int_wire total0' stream0' subs0' ->
  arrives int_wire total1 stream1 subs1 ->
  Forall (fun s => word (snd s)) subs0 -> Forall (fun s => word (snd s)) subs0' -> Forall (fun s => word (snd s)) subs1 ->
  length junk0 = 40%nat -> length junk0' = 40%nat -> length junk1 = 40%nat -> ids (fits nb) subs0 = ids (fits nb) subs0' ->
  exists rnd0' v,
    sees1 (int_sum false order0 nb total0 stream0 junk0 rnd0) (int_sum true order1 nb total1 stream1 junk1 rnd1) v /\
    sees1 (int_sum false order0 nb total0' stream0' junk0' rnd0') (int_sum true order1 nb total1 stream1 junk1 rnd1) v.
Proof.
  intros HB HF A0 A0' A1 W0 W0' W1 J0 J0' J1 E.
  assert (EK := table_ids (fits nb) (fits nb) subs0 subs0' E).
  pose proof A1 as (r1 & _ & _ & P1 & S1).
  destruct (int_alike1 order1 nb (table_of (fits nb) subs0) (table_of (fits nb) subs0') (table_of (fits nb) subs1) total0 total0' rnd0)
    as (v & r & rnd' & r' & C & C'); auto using table_keys, table_size.
  exists rnd', v. split; [exists r|exists r']; apply conv_always, conv_swap.
  - rewrite (int_sum_eq false _ _ _ _ subs0), (int_sum_eq true _ _ _ _ subs1) by auto. exact C.
  - rewrite (int_sum_eq false _ _ _ _ subs0'), (int_sum_eq true _ _ _ _ subs1) by auto. exact C'.
Qed.

(** The sum can be read off what server 0 sees. *)
Definition read_sum (nb : nat) (m0 : table Z) rnd ks (log : list Z) : Z :=
  (int_own nb m0 rnd ks + bswap64 (le_val (skipn (length (sent_by (announce_keys ks))) log))) mod two64.
Lemma read_int_view nb m0 total rnd ks S : 0 <= S < two64 ->
  read_sum nb m0 rnd ks (fst (int_view0 nb m0 total rnd ks S)) = S.
Proof.
  intros HS. unfold read_sum, int_view0. cbn [fst]. rewrite skipn_app, skipn_all, Nat.sub_diag. cbn [app skipn].
  unfold send_uint64. cbn [sent_by]. rewrite app_nil_r.
  rewrite le_val_bytes_small by (rewrite pow256_8; apply bswap64_range).
  rewrite bswap64_involutive by (apply Z.mod_pos_bound; reflexivity).
  rewrite Zplus_mod_idemp_r. replace (int_own nb m0 rnd ks + (S - int_own nb m0 rnd ks)) with S by ring.
  now apply Z.mod_small.
Qed.
Lemma int_sum_readable nb order0 order1 total0 stream0 subs0 junk0 rnd0 L keys :
  (nb <= 63)%nat -> fair order1 -> by_keys order1 -> arrives int_wire total0 stream0 subs0 ->
  Forall (fun s => word (snd s)) subs0 -> length junk0 = 40%nat ->
  exists decode, forall total1 stream1 subs1 junk1 rnd1 v,
    arrives int_wire total1 stream1 subs1 -> Forall (fun s => word (snd s)) subs1 -> length junk1 = 40%nat ->
    accepted (fits nb) subs0 subs1 L -> ids (fits nb) subs1 = keys ->
    sees0 (int_sum false order0 nb total0 stream0 junk0 rnd0) (int_sum true order1 nb total1 stream1 junk1 rnd1) v ->
    decode (fst v) = zsum (map (combined (fits nb) Z.lxor 0 subs0 subs1) L) mod two64.
Proof.
  intros HB HF HK A0 W0 J0.
  exists (read_sum nb (table_of (fits nb) subs0) rnd0 (key_order order1 0 keys)).
  intros total1 stream1 subs1 junk1 rnd1 v A1 W1 J1 HL E (b & H).
  assert (C : always (logged [] (int_sum false order0 nb total0 stream0 junk0 rnd0)) (int_sum true order1 nb total1 stream1 junk1 rnd1)
    (int_view0 nb (table_of (fits nb) subs0) total0 rnd0 (key_order order1 0 keys)
      (zsum (map (combined (fits nb) Z.lxor 0 subs0 subs1) L) mod two64)) RET_NO_ANS).
  { apply conv_always. rewrite (int_sum_eq false _ _ _ _ subs0), (int_sum_eq true _ _ _ _ subs1) by auto.
    destruct A1 as (r1 & _ & _ & P1 & S1).
    rewrite <- map_combined, <- (key_order_eq order1 0 (fits nb) subs1 keys HK E).
    apply int_sees0; auto using table_keys, table_size, both_in_accepted, fits_table. }
  destruct (always_functional _ _ _ _ _ _ H C) as [-> _]. apply read_int_view. apply Z.mod_pos_bound. reflexivity.
Qed.

Lemma xor_view_xor is_and order0 order1 total0 stream0 subs0 junk0 L keys :
  fair order1 -> by_keys order1 -> arrives int_wire total0 stream0 subs0 ->
  Forall (fun s => word (snd s)) subs0 -> length junk0 = 40%nat ->
  exists view, forall total1 stream1 subs1 junk1,
    arrives int_wire total1 stream1 subs1 -> Forall (fun s => word (snd s)) subs1 -> length junk1 = 40%nat ->
    accepted any subs0 subs1 L -> ids any subs1 = keys ->
    sees0 (xor_op false order0 is_and total0 stream0 junk0) (xor_op true order1 is_and total1 stream1 junk1)
      (view (zxors (map (combined any Z.lxor 0 subs0 subs1) L))).
Proof.
  intros HF HK A0 W0 J0.
  exists (xor_view0 is_and (table_of any subs0) total0 (key_order order1 0 keys)).
  intros total1 stream1 subs1 junk1 A1 W1 J1 HL E. exists RET_NO_ANS. apply conv_always.
  rewrite (xor_op_eq false _ _ _ _ subs0), (xor_op_eq true _ _ _ _ subs1) by auto.
  destruct A1 as (r1 & _ & _ & P1 & S1).
  rewrite <- map_combined, <- (key_order_eq order1 0 any subs1 keys HK E).
  apply xor_sees; auto using table_keys, table_size, both_in_accepted, word_table.
Qed.

Lemma founds_ids {V} (ok : V -> bool) subs subs' ks : ids ok subs = ids ok subs' ->
  map is_some (founds (table_of ok subs) ks) = map is_some (founds (table_of ok subs') ks).
Proof. intros E. unfold founds. rewrite !map_map. apply map_ext. intros k. now apply find_keys, table_ids. Qed.
Lemma first_sub_ids {V} (ok : V -> bool) subs subs' pk : ids ok subs = ids ok subs' ->
  (first_sub ok subs pk <> None <-> first_sub ok subs' pk <> None).
Proof.
  intros E. rewrite <- !(table_find ok). pose proof (find_keys pk _ _ (table_ids ok ok subs subs' E)) as H.
  destruct (find pk (table_of ok subs)), (find pk (table_of ok subs')); cbn in H; try discriminate; split; congruence.
Qed.
Lemma accepted_ids {V} (ok : V -> bool) subs0 subs0' subs1 subs1' L : ids ok subs0 = ids ok subs0' -> ids ok subs1 = ids ok subs1' ->
  accepted ok subs0 subs1 L -> accepted ok subs0' subs1' L.
Proof.
  intros E0 E1 [N H]. split; [exact N|]. intros pk. rewrite H.
  now rewrite (first_sub_ids ok subs0 subs0' pk E0), (first_sub_ids ok subs1 subs1' pk E1).
Qed.

Lemma xor_view_fixed is_and order0 order1 total1 stream1 subs1 junk1 keys :
  fair order1 -> arrives int_wire total1 stream1 subs1 ->
  Forall (fun s => word (snd s)) subs1 -> length junk1 = 40%nat ->
  exists v, forall total0 stream0 subs0 junk0,
    arrives int_wire total0 stream0 subs0 -> Forall (fun s => word (snd s)) subs0 -> length junk0 = 40%nat ->
    ids any subs0 = keys ->
    sees1 (xor_op false order0 is_and total0 stream0 junk0) (xor_op true order1 is_and total1 stream1 junk1) v.
Proof.
  intros HF A1 W1 J1.
  set (ks := map fst (order1 _ (table_of any subs1))).
  exists (sent_by (send_bool_batch (map is_some (founds (with_keys 0 keys) ks))), RET_NO_ANS).
  intros total0 stream0 subs0 junk0 A0 W0 J0 E.
  destruct (accepted_exists any subs0 subs1) as (L & HL).
  rewrite (xor_op_eq false _ _ _ _ subs0), (xor_op_eq true _ _ _ _ subs1) by auto.
  destruct A1 as (r1 & _ & _ & P1 & S1).
  destruct (xor_sees order1 is_and (table_of any subs0) (table_of any subs1) total0 L) as (_ & r & C);
    auto using table_keys, table_size, both_in_accepted, word_table.
  exists r. apply conv_always, conv_swap. fold ks in C.
  replace (map is_some (founds (with_keys 0 keys) ks)) with (map is_some (founds (table_of any subs0) ks)); [exact C|].
  unfold founds. rewrite !map_map. apply map_ext. intros k. apply find_keys. symmetry. now apply with_keys_fst.
Qed.

Lemma row_of_rows B subs0 subs1 L :
  row_of B subs0 subs1 L = xor_rows B (fun j => zxors (map (at_both (xor_at j) 0 (table_of any subs0) (table_of any subs1)) L)).
Proof. unfold row_of, xor_rows. apply map_ext. intros j. now rewrite map_combined. Qed.
Lemma highest_exists B X : (exists j, (j <= B)%nat /\ X j <> 0) -> exists j, highest B X j.
Proof.
  revert X. induction B as [|B IH]; intros X (j & Hj & HX).
  - assert (j = 0%nat) by lia. subst. exists 0%nat. split; auto. split; auto. intros; lia.
  - destruct (Z.eq_dec (X (S B)) 0) as [E|N].
    + destruct (IH X) as (i & Hi & HXi & Hz).
      { exists j. split; auto. destruct (Nat.eq_dec j (S B)) as [->|]; [contradiction|lia]. }
      exists i. split; [lia|]. split; auto. intros k Hk. destruct (Nat.eq_dec k (S B)) as [->|]; auto. apply Hz. lia.
    + exists (S B). split; auto. split; auto. intros; lia.
Qed.
Lemma row_nonzero B subs0 subs1 L : Exists (fun x => x <> 0) (row_of B subs0 subs1 L) ->
  exists j, highest B (fun j => zxors (map (at_both (xor_at j) 0 (table_of any subs0) (table_of any subs1)) L)) j.
Proof.
  intros H. apply highest_exists. rewrite row_of_rows in H. unfold xor_rows in H.
  apply Exists_exists in H as (x & Hx & N). apply in_map_iff in Hx as (j & <- & Hj). apply in_seq in Hj.
  exists j. split; [lia|exact N].
Qed.

Lemma max_view_row is_max B order0 order1 total0 stream0 subs0 pk0 junk0 L keys :
  fair order1 -> by_keys order1 -> arrives max_wire total0 stream0 subs0 -> rows_ok B subs0 ->
  Z.of_nat total0 * (Z.of_nat B + 1) < two32 -> length pk0 = 32%nat -> (forall i, length (junk0 i) = (8 * (B + 1))%nat) ->
  exists view, forall total1 stream1 subs1 pk1 junk1,
    arrives max_wire total1 stream1 subs1 -> rows_ok B subs1 ->
    Z.of_nat total1 * (Z.of_nat B + 1) < two32 -> length pk1 = 32%nat -> (forall i, length (junk1 i) = (8 * (B + 1))%nat) ->
    accepted any subs0 subs1 L -> ids any subs1 = keys ->
    (2 * length L < total0)%nat \/ Exists (fun x => x <> 0) (row_of B subs0 subs1 L) ->
    sees0 (max_op false order0 is_max B total0 stream0 pk0 junk0) (max_op true order1 is_max B total1 stream1 pk1 junk1)
      (view (row_of B subs0 subs1 L)).
Proof.
  intros HF HK A0 W0 T0 K0 J0.
  exists (max_view0 is_max B (table_of any subs0) total0 (key_order order1 (@nil Z) keys)).
  intros total1 stream1 subs1 pk1 junk1 A1 W1 T1 K1 J1 HL E HH. exists RET_NO_ANS. apply conv_always.
  rewrite (max_op_eq false _ _ _ _ _ subs0), (max_op_eq true _ _ _ _ _ subs1) by auto.
  destruct A1 as (r1 & _ & _ & P1 & S1).
  rewrite row_of_rows, <- (key_order_eq order1 (@nil Z) any subs1 keys HK E).
  apply max_sees; auto using table_keys, table_size, both_in_accepted, rows_table.
  - eapply Forall_impl; [|apply rows_table; eassumption]. now intros ? [].
  - destruct HH as [HH|HH]; [now left|right]. now apply row_nonzero.
Qed.

Lemma max_view_fixed is_max B order0 order1 total1 stream1 subs1 pk1 junk1 L keys :
  fair order1 -> arrives max_wire total1 stream1 subs1 -> rows_ok B subs1 ->
  Z.of_nat total1 * (Z.of_nat B + 1) < two32 -> length pk1 = 32%nat -> (forall i, length (junk1 i) = (8 * (B + 1))%nat) ->
  exists v, forall total0 stream0 subs0 pk0 junk0,
    arrives max_wire total0 stream0 subs0 -> rows_ok B subs0 ->
    Z.of_nat total0 * (Z.of_nat B + 1) < two32 -> length pk0 = 32%nat -> (forall i, length (junk0 i) = (8 * (B + 1))%nat) ->
    accepted any subs0 subs1 L -> ids any subs0 = keys ->
    (2 * length L < total0)%nat \/ Exists (fun x => x <> 0) (row_of B subs0 subs1 L) ->
    sees1 (max_op false order0 is_max B total0 stream0 pk0 junk0) (max_op true order1 is_max B total1 stream1 pk1 junk1) v.
Proof.
  intros HF A1 W1 T1 K1 J1.
  set (ks := map fst (order1 _ (table_of any subs1))).
  exists (sent_by (send_bool_batch (map is_some (founds (with_keys (@nil Z) keys) ks))), RET_NO_ANS).
  intros total0 stream0 subs0 pk0 junk0 A0 W0 T0 K0 J0 HL E HH.
  rewrite (max_op_eq false _ _ _ _ _ subs0), (max_op_eq true _ _ _ _ _ subs1) by auto.
  destruct A1 as (r1 & _ & _ & P1 & S1).
  destruct (max_sees order1 is_max B (table_of any subs0) (table_of any subs1) total0 L) as (_ & r & C);
    auto using table_keys, table_size, both_in_accepted, rows_table.
  - eapply Forall_impl; [|apply rows_table; eassumption]. now intros ? [].
  - destruct HH as [HH|HH]; [now left|right]. now apply row_nonzero.
  - exists r. apply conv_always, conv_swap. fold ks in C.
    replace (map is_some (founds (with_keys (@nil Z) keys) ks)) with (map is_some (founds (table_of any subs0) ks)); [exact C|].
    unfold founds. rewrite !map_map. apply map_ext. intros k. apply find_keys. symmetry. now apply with_keys_fst.
Qed.

(** ** Honest clients *)
Lemma choose_all {V W} (one : prg -> nat -> crec V W * nat) (legal : W -> Prop) (possible : V -> Prop) side :
  independent one legal possible -> fresh_all one ->
  (forall g, is_blocks g -> possible (share_of side (fst (one g 0%nat)))) ->
  forall gs vs, Forall is_blocks gs -> length vs = length gs -> Forall legal vs ->
  exists gs', Forall is_blocks gs' /\ map c_real (separate one gs') = vs /\
    seen side (separate one gs') = seen side (separate one gs).
Proof.
  intros I F P. induction gs as [|g gs IH]; intros [|v vs] G L Lv; cbn in L; try lia.
  - exists []. repeat split. constructor.
  - inversion G as [|? ? G1 G2]. inversion Lv as [|? ? V1 V2]. subst.
    destruct (IH vs G2 ltac:(lia) V2) as (gs' & A & B & C).
    destruct (I g 0%nat side v (share_of side (fst (one g 0%nat))) G1 V1 (P g G1)) as (g' & G' & _ & T & R & S).
    exists (g' :: gs'). split; [now constructor|]. unfold separate, seen in *. cbn [map]. rewrite R, B. split; [reflexivity|].
    f_equal; [|exact C]. rewrite S. f_equal. rewrite !F. unfold make_pk. specialize (T 0%nat). rewrite !Nat.add_0_r in T. now rewrite T.
Qed.
Lemma separate_length {V W} (one : prg -> nat -> crec V W * nat) gs : length (separate one gs) = length gs.
Proof. apply map_length. Qed.
Lemma seen_pks {V W} side (l l' : list (crec V W)) : seen side l = seen side l' -> map c_pk l = map c_pk l'.
Proof.
  intros E. apply (f_equal (map fst)) in E. unfold seen in E. rewrite !map_map in E. exact E.
Qed.
Lemma seen_subs {V W} (l : list (crec V W)) : seen false l = subs0 l /\ seen true l = subs1 l.
Proof. split; reflexivity. Qed.
Lemma separate_forall {V W} (one : prg -> nat -> crec V W * nat) (Q : crec V W -> Prop) gs :
  (forall g, is_blocks g -> Q (fst (one g 0%nat))) -> Forall is_blocks gs -> Forall Q (separate one gs).
Proof. intros H G. apply Forall_map. eapply Forall_impl; [|exact G]. exact H. Qed.
Lemma pk_length32 g pos : is_blocks g -> length (make_pk g pos) = 32%nat.
Proof. intros G. destruct (G pos) as [A B]. now apply pk_spec. Qed.
Lemma separate_pks {V W} (one : prg -> nat -> crec V W * nat) gs : fresh_all one -> Forall is_blocks gs ->
  Forall (fun r => length (c_pk r) = 32%nat) (separate one gs).
Proof. intros F. apply separate_forall. intros g G. rewrite F. now apply pk_length32. Qed.
Lemma ids_pks {V W} (ok : V -> bool) (f : crec V W -> V) (l l' : list (crec V W)) :
  map c_pk l = map c_pk l' -> Forall (fun r => ok (f r) = true) l -> Forall (fun r => ok (f r) = true) l' ->
  ids ok (map (fun r => (c_pk r, f r)) l) = ids ok (map (fun r => (c_pk r, f r)) l').
Proof.
  intros E F F'. unfold ids. rewrite !map_map. cbn [fst snd]. revert l' E F'.
  induction F as [|r l H F IH]; intros [|r' l'] E F'; try discriminate; [reflexivity|].
  injection E as E1 E2. inversion F' as [|? ? H' F2]. subst. cbn [map]. rewrite E1, H, H'. f_equal. now apply IH.
Qed.

(** *** BIT_SUM *)
Lemma bit_fresh_all : fresh_all bit_request. Proof. intros g pos. reflexivity. Qed.

Lemma bit_xor_all gs : Forall (fun r => bit_val (c_0 r) (c_1 r) = b2z (c_real r)) (separate bit_request gs).
Proof.
  apply Forall_map, Forall_forall. intros g _. unfold bit_request. cbn [fst c_0 c_1 c_real]. unfold bit_val. f_equal.
  destruct (random_bool1 g (0 + 1)), (random_bool1 g 0); reflexivity.
Qed.
Lemma bit_ok_any (l : list (crec bool bool)) : Forall (fun r : crec bool bool => any (c_0 r) = true /\ any (c_1 r) = true) l.
Proof. apply Forall_forall. intros; split; reflexivity. Qed.

Lemma seen_length {V W} side (l : list (crec V W)) : length (seen side l) = length l.
Proof. apply map_length. Qed.
Lemma bit_same0 gs gs' order0 order1 junk0 junk1 rnd0 rnd1 :
  fair order1 -> by_keys order1 -> length junk0 = 33%nat -> length junk1 = 33%nat ->
  Forall is_blocks gs -> Forall is_blocks gs' -> Z.of_nat (length gs) < two32 -> NoDup (map c_pk (separate bit_request gs)) ->
  seen false (separate bit_request gs') = seen false (separate bit_request gs) ->
  zsum (map (fun r => b2z (c_real r)) (separate bit_request gs')) = zsum (map (fun r => b2z (c_real r)) (separate bit_request gs)) ->
  exists v, forall h, h = gs \/ h = gs' ->
      sees0 (bit_sum false order0 (length h) (wire BitShare_bytes (subs0 (separate bit_request h))) junk0 rnd0)
            (bit_sum true order1 (length h) (wire BitShare_bytes (subs1 (separate bit_request h))) junk1 rnd1) v.
Proof.
  intros HF HK J0 J1 G G' HN ND S ES.
  set (vs := map c_real (separate bit_request gs')). assert (R : map c_real (separate bit_request gs') = vs) by reflexivity.
  rewrite <- (map_map c_real b2z (separate bit_request gs')), R in ES. clearbody vs.
  assert (LG : length gs' = length gs) by (apply (f_equal (@length _)) in S; now rewrite !seen_length, !separate_length in S).
  set (l := separate bit_request gs) in *. set (l' := separate bit_request gs') in *.
  assert (EP := seen_pks false l' l S). change (subs0 l' = subs0 l) in S.
  assert (ND' : NoDup (map c_pk l')) by now rewrite EP.
  assert (Ll : length l = length gs) by apply separate_length.
  assert (Ll' : length l' = length gs) by (unfold l'; now rewrite separate_length).
  pose proof (separate_pks bit_request gs bit_fresh_all G) as PK. pose proof (separate_pks bit_request gs' bit_fresh_all G') as PK'.
  fold l in PK. fold l' in PK'.
  destruct (bit_view_sum order0 order1 (length gs) (wire BitShare_bytes (subs0 l)) (subs0 l) junk0 rnd0 (map c_pk l) (ids any (subs1 l)))
    as (view & V); auto.
  { now apply honest_arrives0. }
  exists (view (zsum (map b2z vs))). intros h [->| ->].
  - fold l. replace (zsum (map b2z vs)) with (zsum (map (combined any bit_val 0 (subs0 l) (subs1 l)) (map c_pk l))).
    + apply V; auto. { now apply honest_arrives1. } apply honest_accepted_list; auto using bit_ok_any.
    + rewrite honest_map_combined by auto using bit_ok_any. rewrite ES. f_equal. apply map_ext_in. intros r Hr.
      pose proof (bit_xor_all gs) as X. rewrite Forall_forall in X. now apply X.
  - fold l'. rewrite LG, S. replace (zsum (map b2z vs)) with (zsum (map (combined any bit_val 0 (subs0 l) (subs1 l')) (map c_pk l))).
    + apply V; auto. { now apply honest_arrives1. }
      * rewrite <- S, <- EP. apply honest_accepted_list; auto using bit_ok_any.
      * apply (ids_pks any c_1); auto; apply Forall_forall; reflexivity.
    + rewrite <- S, <- EP, honest_map_combined by auto using bit_ok_any. rewrite <- R, map_map. f_equal. apply map_ext_in. intros r Hr.
      pose proof (bit_xor_all gs') as X. rewrite Forall_forall in X. now apply X.
Qed.

Lemma bit_server0 gs vs order0 order1 junk0 junk1 rnd0 rnd1 :
  fair order1 -> by_keys order1 -> length junk0 = 33%nat -> length junk1 = 33%nat ->
  Forall is_blocks gs -> Z.of_nat (length gs) < two32 -> NoDup (map c_pk (separate bit_request gs)) ->
  length vs = length gs -> zsum (map b2z vs) = zsum (map (fun r => b2z (c_real r)) (separate bit_request gs)) ->
  exists gs', Forall is_blocks gs' /\ map c_real (separate bit_request gs') = vs /\
    seen false (separate bit_request gs') = seen false (separate bit_request gs) /\
    exists v, forall h, h = gs \/ h = gs' ->
      sees0 (bit_sum false order0 (length h) (wire BitShare_bytes (subs0 (separate bit_request h))) junk0 rnd0)
            (bit_sum true order1 (length h) (wire BitShare_bytes (subs1 (separate bit_request h))) junk1 rnd1) v.
Proof.
  intros HF HK J0 J1 G HN ND LV ES.
  destruct (choose_all bit_request (fun _ => True) (fun _ => True) false bit_independent bit_fresh_all (fun _ _ => I) gs vs G LV)
    as (gs' & G' & R & S).
  { apply Forall_forall. auto. }
  exists gs'. split; [exact G'|]. split; [exact R|]. split; [exact S|].
  apply bit_same0; auto. rewrite <- ES, <- R, map_map. reflexivity.
Qed.

Lemma bit_same1 gs gs' order0 order1 junk0 junk1 rnd0 rnd1 :
  fair order1 -> length junk0 = 33%nat -> length junk1 = 33%nat ->
  Forall is_blocks gs -> Forall is_blocks gs' -> Z.of_nat (length gs) < two32 ->
  seen true (separate bit_request gs') = seen true (separate bit_request gs) ->
  exists rnd0' v, forall h, h = (gs, rnd0) \/ h = (gs', rnd0') ->
      sees1 (bit_sum false order0 (length (fst h)) (wire BitShare_bytes (subs0 (separate bit_request (fst h)))) junk0 (snd h))
            (bit_sum true order1 (length (fst h)) (wire BitShare_bytes (subs1 (separate bit_request (fst h)))) junk1 rnd1) v.
Proof.
  intros HF J0 J1 G G' HN S.
  assert (LG : length gs' = length gs) by (apply (f_equal (@length _)) in S; now rewrite !seen_length, !separate_length in S).
  set (l := separate bit_request gs) in *. set (l' := separate bit_request gs') in *.
  assert (EP := seen_pks true l' l S). change (subs1 l' = subs1 l) in S.
  assert (Ll : length l = length gs) by apply separate_length.
  assert (Ll' : length l' = length gs) by (unfold l'; now rewrite separate_length).
  pose proof (separate_pks bit_request gs bit_fresh_all G) as PK. pose proof (separate_pks bit_request gs' bit_fresh_all G') as PK'.
  fold l in PK. fold l' in PK'.
  destruct (bit_views_alike order0 order1 (length gs) (length gs) (length gs) (wire BitShare_bytes (subs0 l)) (wire BitShare_bytes (subs0 l'))
    (wire BitShare_bytes (subs1 l)) (subs0 l) (subs0 l') (subs1 l) junk0 junk0 junk1 rnd0 rnd1) as (rnd' & v & V & V'); auto;
    try (now apply honest_arrives0); try (now apply honest_arrives1).
  { apply (ids_pks any c_0); auto; apply Forall_forall; reflexivity. }
  exists rnd', v. intros h [->| ->]; cbn [fst snd].
  - exact V.
  - rewrite LG. fold l'. rewrite S. exact V'.
Qed.

Lemma bit_server1 gs vs order0 order1 junk0 junk1 rnd0 rnd1 :
  fair order1 -> length junk0 = 33%nat -> length junk1 = 33%nat ->
  Forall is_blocks gs -> Z.of_nat (length gs) < two32 -> length vs = length gs ->
  exists gs' rnd0', Forall is_blocks gs' /\ map c_real (separate bit_request gs') = vs /\
    seen true (separate bit_request gs') = seen true (separate bit_request gs) /\
    exists v, forall h, h = (gs, rnd0) \/ h = (gs', rnd0') ->
      sees1 (bit_sum false order0 (length (fst h)) (wire BitShare_bytes (subs0 (separate bit_request (fst h)))) junk0 (snd h))
            (bit_sum true order1 (length (fst h)) (wire BitShare_bytes (subs1 (separate bit_request (fst h)))) junk1 rnd1) v.
Proof.
  intros HF J0 J1 G HN LV.
  destruct (choose_all bit_request (fun _ => True) (fun _ => True) true bit_independent bit_fresh_all (fun _ _ => I) gs vs G LV)
    as (gs' & G' & R & S).
  { apply Forall_forall. auto. }
  destruct (bit_same1 gs gs' order0 order1 junk0 junk1 rnd0 rnd1) as (rnd' & v & V); auto.
  exists gs', rnd'. split; [exact G'|]. split; [exact R|]. split; [exact S|]. exists v. exact V.
Qed.

(** *** INT_SUM *)
Definition int_good nb (r : crec Z Z) : Prop :=
  0 <= c_0 r < 2 ^ Z.of_nat nb /\ 0 <= c_1 r < 2 ^ Z.of_nat nb /\ Z.lxor (c_0 r) (c_1 r) = c_real r.
Lemma int_fresh_all m : fresh_all (int_request m). Proof. intros g pos. reflexivity. Qed.
Lemma int_good_all nb gs : Forall (int_good nb) (separate (int_request (2 ^ Z.of_nat nb)) gs).
Proof.
  apply Forall_map, Forall_forall. intros g _. unfold int_request. cbn [fst c_0 c_1 c_real].
  assert (P : 0 < 2 ^ Z.of_nat nb) by (apply Z.pow_pos_nonneg; lia).
  unfold int_good. cbn [c_0 c_1 c_real].
  split; [now apply Z.mod_pos_bound|]. split; [apply lxor_lt; now apply Z.mod_pos_bound|]. apply lxor_back.
Qed.
Lemma int_good_fits nb l : Forall (int_good nb) l ->
  Forall (fun r : crec Z Z => fits nb (c_0 r) = true /\ fits nb (c_1 r) = true) l.
Proof. apply Forall_impl. intros r (A & B & _). unfold fits. split; apply Z.ltb_lt; lia. Qed.
Lemma int_good_words nb l : (nb <= 63)%nat -> Forall (int_good nb) l ->
  Forall (fun s => word (snd s)) (subs0 l) /\ Forall (fun s => word (snd s)) (subs1 l).
Proof.
  intros HB F. pose proof (pow_le_two64 nb HB) as P.
  split; apply Forall_map; (eapply Forall_impl; [|exact F]); intros r (A & B & _); unfold word; cbn [snd]; lia.
Qed.
Lemma int_possible nb side g : is_blocks g ->
  0 <= share_of side (fst (int_request (2 ^ Z.of_nat nb) g 0%nat)) < 2 ^ Z.of_nat nb.
Proof.
  intros G. pose proof (int_good_all nb [g]) as H. apply Forall_inv in H. destruct H as (A & B & _).
  destruct side; assumption.
Qed.

Lemma int_same0 nb gs gs' order0 order1 junk0 junk1 rnd0 rnd1 :
  let one := int_request (2 ^ Z.of_nat nb) in
  (nb <= 63)%nat -> fair order1 -> by_keys order1 -> length junk0 = 40%nat -> length junk1 = 40%nat ->
  Forall is_blocks gs -> Forall is_blocks gs' -> Z.of_nat (length gs) < two32 -> NoDup (map c_pk (separate one gs)) ->
  seen false (separate one gs') = seen false (separate one gs) ->
  zsum (map c_real (separate one gs')) mod two64 = zsum (map c_real (separate one gs)) mod two64 ->
  exists v, forall h, h = gs \/ h = gs' ->
      sees0 (int_sum false order0 nb (length h) (wire IntShare_bytes (subs0 (separate one h))) junk0 rnd0)
            (int_sum true order1 nb (length h) (wire IntShare_bytes (subs1 (separate one h))) junk1 rnd1) v.
Proof.
  intros one HB HF HK J0 J1 G G' HN ND S ES.
  set (vs := map c_real (separate one gs')) in *. assert (R : map c_real (separate one gs') = vs) by reflexivity. clearbody vs.
  assert (LG : length gs' = length gs) by (apply (f_equal (@length _)) in S; now rewrite !seen_length, !separate_length in S).
  pose proof (int_good_all nb gs) as GL. pose proof (int_good_all nb gs') as GL'. fold one in GL, GL'.
  set (l := separate one gs) in *. set (l' := separate one gs') in *.
  assert (EP := seen_pks false l' l S). change (subs0 l' = subs0 l) in S.
  assert (ND' : NoDup (map c_pk l')) by now rewrite EP.
  assert (Ll : length l = length gs) by apply separate_length.
  assert (Ll' : length l' = length gs) by (unfold l'; now rewrite separate_length).
  pose proof (separate_pks one gs (int_fresh_all _) G) as PK. pose proof (separate_pks one gs' (int_fresh_all _) G') as PK'.
  fold l in PK. fold l' in PK'.
  pose proof (int_good_fits nb l GL) as OK. pose proof (int_good_fits nb l' GL') as OK'.
  destruct (int_good_words nb l HB GL) as [W0 W1]. destruct (int_good_words nb l' HB GL') as [W0' W1'].
  destruct (int_view_sum nb order0 order1 (length gs) (wire IntShare_bytes (subs0 l)) (subs0 l) junk0 rnd0 (map c_pk l) (ids (fits nb) (subs1 l)))
    as (view & V); auto.
  { now apply honest_arrives0. }
  exists (view (zsum vs mod two64)). intros h [->| ->].
  - fold l. replace (zsum vs mod two64) with (zsum (map (combined (fits nb) Z.lxor 0 (subs0 l) (subs1 l)) (map c_pk l)) mod two64).
    + apply V; auto. { now apply honest_arrives1. } apply honest_accepted_list; auto.
    + rewrite honest_map_combined by auto. rewrite ES. f_equal. f_equal. apply map_ext_in. intros r Hr.
      rewrite Forall_forall in GL. now apply GL.
  - fold l'. rewrite LG, S. replace (zsum vs) with (zsum (map (combined (fits nb) Z.lxor 0 (subs0 l) (subs1 l')) (map c_pk l))).
    + apply V; auto. { now apply honest_arrives1. }
      * rewrite <- S, <- EP. apply honest_accepted_list; auto.
      * apply (ids_pks (fits nb) c_1); auto; [eapply Forall_impl; [|exact OK']|eapply Forall_impl; [|exact OK]]; now intros r [].
    + rewrite <- S, <- EP, honest_map_combined by auto. rewrite <- R. f_equal. apply map_ext_in. intros r Hr.
      rewrite Forall_forall in GL'. now apply GL'.
Qed.

Lemma int_server0 nb gs vs order0 order1 junk0 junk1 rnd0 rnd1 :
  let one := int_request (2 ^ Z.of_nat nb) in
  (nb <= 63)%nat -> fair order1 -> by_keys order1 -> length junk0 = 40%nat -> length junk1 = 40%nat ->
  Forall is_blocks gs -> Z.of_nat (length gs) < two32 -> NoDup (map c_pk (separate one gs)) ->
  length vs = length gs -> Forall (fun v => 0 <= v < 2 ^ Z.of_nat nb) vs ->
  zsum vs mod two64 = zsum (map c_real (separate one gs)) mod two64 ->
  exists gs', Forall is_blocks gs' /\ map c_real (separate one gs') = vs /\
    seen false (separate one gs') = seen false (separate one gs) /\
    exists v, forall h, h = gs \/ h = gs' ->
      sees0 (int_sum false order0 nb (length h) (wire IntShare_bytes (subs0 (separate one h))) junk0 rnd0)
            (int_sum true order1 nb (length h) (wire IntShare_bytes (subs1 (separate one h))) junk1 rnd1) v.
Proof.
  intros one HB HF HK J0 J1 G HN ND LV FV ES.
  destruct (choose_all one _ _ false (int_independent nb HB) (int_fresh_all _) (int_possible nb false) gs vs G LV FV)
    as (gs' & G' & R & S).
  exists gs'. split; [exact G'|]. split; [exact R|]. split; [exact S|].
  apply int_same0; auto. fold one. now rewrite R.
Qed.

Lemma int_same1 nb gs gs' order0 order1 junk0 junk1 rnd0 rnd1 :
  let one := int_request (2 ^ Z.of_nat nb) in
  (nb <= 63)%nat -> fair order1 -> length junk0 = 40%nat -> length junk1 = 40%nat ->
  Forall is_blocks gs -> Forall is_blocks gs' -> Z.of_nat (length gs) < two32 ->
  seen true (separate one gs') = seen true (separate one gs) ->
  exists rnd0' v, forall h, h = (gs, rnd0) \/ h = (gs', rnd0') ->
      sees1 (int_sum false order0 nb (length (fst h)) (wire IntShare_bytes (subs0 (separate one (fst h)))) junk0 (snd h))
            (int_sum true order1 nb (length (fst h)) (wire IntShare_bytes (subs1 (separate one (fst h)))) junk1 rnd1) v.
Proof.
  intros one HB HF J0 J1 G G' HN S.
  assert (LG : length gs' = length gs) by (apply (f_equal (@length _)) in S; now rewrite !seen_length, !separate_length in S).
  pose proof (int_good_all nb gs) as GL. pose proof (int_good_all nb gs') as GL'. fold one in GL, GL'.
  set (l := separate one gs) in *. set (l' := separate one gs') in *.
  assert (EP := seen_pks true l' l S). change (subs1 l' = subs1 l) in S.
  assert (Ll : length l = length gs) by apply separate_length.
  assert (Ll' : length l' = length gs) by (unfold l'; now rewrite separate_length).
  pose proof (separate_pks one gs (int_fresh_all _) G) as PK. pose proof (separate_pks one gs' (int_fresh_all _) G') as PK'.
  fold l in PK. fold l' in PK'.
  pose proof (int_good_fits nb l GL) as OK. pose proof (int_good_fits nb l' GL') as OK'.
  destruct (int_good_words nb l HB GL) as [W0 W1]. destruct (int_good_words nb l' HB GL') as [W0' W1'].
  destruct (int_views_alike nb order0 order1 (length gs) (length gs) (length gs) (wire IntShare_bytes (subs0 l)) (wire IntShare_bytes (subs0 l'))
    (wire IntShare_bytes (subs1 l)) (subs0 l) (subs0 l') (subs1 l) junk0 junk0 junk1 rnd0 rnd1) as (rnd' & v & V & V'); auto;
    try (now apply honest_arrives0); try (now apply honest_arrives1).
  { apply (ids_pks (fits nb) c_0); auto; [eapply Forall_impl; [|exact OK]|eapply Forall_impl; [|exact OK']]; now intros r []. }
  exists rnd', v. intros h [->| ->]; cbn [fst snd].
  - exact V.
  - rewrite LG. fold l'. rewrite S. exact V'.
Qed.

Lemma int_server1 nb gs vs order0 order1 junk0 junk1 rnd0 rnd1 :
  let one := int_request (2 ^ Z.of_nat nb) in
  (nb <= 63)%nat -> fair order1 -> length junk0 = 40%nat -> length junk1 = 40%nat ->
  Forall is_blocks gs -> Z.of_nat (length gs) < two32 ->
  length vs = length gs -> Forall (fun v => 0 <= v < 2 ^ Z.of_nat nb) vs ->
  exists gs' rnd0', Forall is_blocks gs' /\ map c_real (separate one gs') = vs /\
    seen true (separate one gs') = seen true (separate one gs) /\
    exists v, forall h, h = (gs, rnd0) \/ h = (gs', rnd0') ->
      sees1 (int_sum false order0 nb (length (fst h)) (wire IntShare_bytes (subs0 (separate one (fst h)))) junk0 (snd h))
            (int_sum true order1 nb (length (fst h)) (wire IntShare_bytes (subs1 (separate one (fst h)))) junk1 rnd1) v.
Proof.
  intros one HB HF J0 J1 G HN LV FV.
  destruct (choose_all one _ _ true (int_independent nb HB) (int_fresh_all _) (int_possible nb true) gs vs G LV FV)
    as (gs' & G' & R & S).
  destruct (int_same1 nb gs gs' order0 order1 junk0 junk1 rnd0 rnd1) as (rnd' & v & V); auto.
  exists gs', rnd'. split; [exact G'|]. split; [exact R|]. split; [exact S|]. exists v. exact V.
Qed.

(** *** Records with their encodings *)
Lemma choose_encoded {V W E} (decode : V -> V -> E) (one : prg -> nat -> crec V W * nat) (legal : W * E -> Prop) (possible : V -> Prop) side :
  independent (with_encoding decode one) legal possible -> fresh_all one ->
  (forall g, is_blocks g -> possible (share_of side (fst (one g 0%nat)))) ->
  forall gs ves, Forall is_blocks gs -> length ves = length gs -> Forall legal ves ->
  exists gs', Forall is_blocks gs' /\ map c_real (separate one gs') = map fst ves /\
    map (fun r => decode (c_0 r) (c_1 r)) (separate one gs') = map snd ves /\
    seen side (separate one gs') = seen side (separate one gs).
Proof.
  intros I F P gs ves G L FV.
  assert (H : forall g, fst (with_encoding decode one g 0%nat) =
    let r := fst (one g 0%nat) in mkC (c_pk r) (c_0 r) (c_1 r) (c_real r, decode (c_0 r) (c_1 r))).
  { intros g. unfold with_encoding. destruct (one g 0%nat). reflexivity. }
  destruct (choose_all (with_encoding decode one) legal possible side I) with (gs := gs) (vs := ves) as (gs' & G' & R & S); auto.
  - intros g pos. unfold with_encoding. specialize (F g pos). destruct (one g pos). exact F.
  - intros g Hg. rewrite H. specialize (P g Hg). destruct side; exact P.
  - exists gs'. split; [exact G'|]. unfold separate, seen in *. rewrite !map_map in R. rewrite !map_map in *.
    split; [|split].
    + rewrite <- R, map_map. apply map_ext. intros g. now rewrite H.
    + rewrite <- R, map_map. apply map_ext. intros g. now rewrite H.
    + clear - S H. revert gs S. induction gs' as [|g' gs' IH]; intros [|g gs] S; try discriminate; [reflexivity|].
      cbn [map] in *. injection S as S1 S2 S3. rewrite !H in S1, S2. cbv zeta in S1, S2. f_equal; [|now apply IH].
      f_equal; [exact S1|]. destruct side; exact S2.
Qed.

(** *** AND, OR *)
Lemma xor_fresh_all is_and : fresh_all (xor_request is_and).
Proof. intros g pos. unfold xor_request. cbn [fst snd c_pk]. reflexivity. Qed.
Lemma xor_words is_and gs : Forall is_blocks gs ->
  Forall (fun r => word (c_0 r) /\ word (c_1 r)) (separate (xor_request is_and) gs).
Proof.
  apply separate_forall. intros g G. unfold xor_request. cbn [fst].
  destruct (if is_and then random_bool1 g 0 else negb (random_bool1 g 0)); cbn [c_0 c_1]; split;
    try apply lxor_word; try (now apply u64_ok); unfold two64; lia.
Qed.
Lemma xor_words_subs (l : list (crec Z bool)) : Forall (fun r => word (c_0 r) /\ word (c_1 r)) l ->
  Forall (fun s => word (snd s)) (subs0 l) /\ Forall (fun s => word (snd s)) (subs1 l).
Proof. intros F. split; apply Forall_map; (eapply Forall_impl; [|exact F]); intros r [A B]; assumption. Qed.
Lemma any_ok {V W} (l : list (crec V W)) : Forall (fun r => any (c_0 r) = true /\ any (c_1 r) = true) l.
Proof. apply Forall_forall. intros; split; reflexivity. Qed.
Lemma ids_any {V W} (f : crec V W -> V) (l l' : list (crec V W)) : map c_pk l = map c_pk l' ->
  ids any (map (fun r => (c_pk r, f r)) l) = ids any (map (fun r => (c_pk r, f r)) l').
Proof. intros E. apply ids_pks; auto; apply Forall_forall; reflexivity. Qed.

(** Encodings with a given xor. *)
Lemma xor_encodings is_and X : word X -> forall vs, (X <> 0 -> exists v, In v vs /\ v <> is_and) ->
  exists es, length es = length vs /\ Forall (xor_legal is_and) (combine vs es) /\ zxors es = X.
Proof.
  intros WX. 
  assert (Z0 : forall vs, exists es, length es = length vs /\ Forall (xor_legal is_and) (combine vs es) /\ zxors es = 0).
  { induction vs as [|v vs (es & A & B & C)]; [exists []; repeat split; constructor|].
    exists (0 :: es). cbn [length combine zxors fold_right]. fold (zxors es). rewrite A, C. split; [reflexivity|]. split; [|reflexivity].
    constructor; [|exact B]. unfold xor_legal. cbn [fst snd]. destruct (if is_and then v else negb v); [reflexivity|]. unfold two64. lia. }
  induction vs as [|v vs IH]; intros H.
  - exists []. split; [reflexivity|]. split; [constructor|]. destruct (Z.eq_dec X 0) as [->|N]; [reflexivity|].
    destruct (H N) as (v & [] & _).
  - destruct (Bool.bool_dec v is_and) as [E|N].
    + destruct IH as (es & A & B & C).
      { intros N. destruct (H N) as (w & [->|Hw] & N'); [contradiction|eauto]. }
      exists (0 :: es). cbn [length combine zxors fold_right]. fold (zxors es). rewrite A, C. split; [reflexivity|].
      split; [|apply Z.lxor_0_l]. constructor; [|exact B]. unfold xor_legal. cbn [fst snd]. subst v. now destruct is_and.
    + destruct (Z0 vs) as (es & A & B & C). exists (X :: es). cbn [length combine zxors fold_right]. fold (zxors es). rewrite A, C.
      split; [reflexivity|]. split; [|apply Z.lxor_0_r]. constructor; [|exact B]. unfold xor_legal. cbn [fst snd].
      destruct v, is_and; try contradiction; exact WX.
Qed.
Lemma combine_split {A B} (a : list A) (b : list B) : length b = length a -> map fst (combine a b) = a /\ map snd (combine a b) = b.
Proof.
  revert b. induction a as [|x a IH]; intros [|y b] L; cbn in *; try lia; [split; reflexivity|].
  destruct (IH b ltac:(lia)) as [-> ->]. split; reflexivity.
Qed.

Lemma xor_encoded_neutral is_and gs : Forall is_blocks gs ->
  Forall (fun r => c_real r = is_and -> Z.lxor (c_0 r) (c_1 r) = 0) (separate (xor_request is_and) gs).
Proof.
  apply separate_forall. intros g _. unfold xor_request. cbn [fst c_0 c_1 c_real].
  intros E. rewrite E. destruct is_and; cbn [negb]; now rewrite Z.lxor_0_r, Z.lxor_nilpotent.
Qed.

Lemma xor_server0 is_and gs vs order0 order1 junk0 junk1 :
  let one := xor_request is_and in
  fair order1 -> by_keys order1 -> length junk0 = 40%nat -> length junk1 = 40%nat ->
  Forall is_blocks gs -> Z.of_nat (length gs) < two32 -> NoDup (map c_pk (separate one gs)) ->
  length vs = length gs ->
  ((forall v, In v vs -> v = is_and) -> forall r, In r (separate one gs) -> c_real r = is_and) ->
  exists gs', Forall is_blocks gs' /\ map c_real (separate one gs') = vs /\
    seen false (separate one gs') = seen false (separate one gs) /\
    exists v, forall h, h = gs \/ h = gs' ->
      sees0 (xor_op false order0 is_and (length h) (wire IntShare_bytes (subs0 (separate one h))) junk0)
            (xor_op true order1 is_and (length h) (wire IntShare_bytes (subs1 (separate one h))) junk1) v.
Proof.
  intros one HF HK J0 J1 G HN ND LV HV.
  pose proof (xor_words is_and gs G) as WL. fold one in WL.
  set (l := separate one gs) in *. set (X := zxors (map (fun r => Z.lxor (c_0 r) (c_1 r)) l)).
  destruct (xor_encodings is_and X) with (vs := vs) as (es & LE & FE & XE).
  { apply word_zxors. eapply Forall_impl; [|exact WL]. intros r [A B]. now apply word_lxor. }
  { intros NX. destruct (existsb (fun v => negb (Bool.eqb v is_and)) vs) eqn:Ex.
    - apply existsb_exists in Ex as (v & Hv & Nv). exists v. split; [exact Hv|]. intros ->. now rewrite Bool.eqb_reflx in Nv.
    - exfalso. apply NX. apply zxors_zero. intros r Hr.
      pose proof (xor_encoded_neutral is_and gs G) as EN. rewrite Forall_forall in EN. apply EN; [exact Hr|].
      apply HV; [|exact Hr]. intros v Hv. rewrite <- not_true_iff_false, existsb_exists in Ex.
      destruct (Bool.eqb v is_and) eqn:Ev; [now apply eqb_prop in Ev|]. exfalso. apply Ex. exists v. now rewrite Ev. }
  destruct (combine_split vs es LE) as [C1 C2].
  destruct (choose_encoded Z.lxor one (xor_legal is_and) (fun w => 0 <= w < two64) false (xor_independent is_and) (xor_fresh_all is_and))
    with (gs := gs) (ves := combine vs es) as (gs' & G' & R & RE & S); auto.
  { intros g Hg. pose proof (xor_words is_and [g] (Forall_cons _ Hg (Forall_nil _))) as H. apply Forall_inv in H. now destruct H. }
  { rewrite combine_length. lia. }
  rewrite C1 in R. rewrite C2 in RE.
  exists gs'. split; [exact G'|]. split; [exact R|]. split; [exact S|].
  assert (LG : length gs' = length gs).
  { apply (f_equal (@length _)) in R. rewrite map_length, separate_length in R. congruence. }
  pose proof (xor_words is_and gs' G') as WL'. fold one in WL'. fold l in S.
  set (l' := separate one gs') in *.
  assert (EP := seen_pks false l' l S). change (subs0 l' = subs0 l) in S.
  assert (ND' : NoDup (map c_pk l')) by now rewrite EP.
  assert (Ll : length l = length gs) by apply separate_length.
  assert (Ll' : length l' = length gs) by (unfold l'; now rewrite separate_length).
  pose proof (separate_pks one gs (xor_fresh_all _) G) as PK. pose proof (separate_pks one gs' (xor_fresh_all _) G') as PK'.
  fold l in PK. fold l' in PK'.
  destruct (xor_words_subs l WL) as [W0 W1]. destruct (xor_words_subs l' WL') as [W0' W1'].
  destruct (xor_view_xor is_and order0 order1 (length gs) (wire IntShare_bytes (subs0 l)) (subs0 l) junk0 (map c_pk l) (ids any (subs1 l)))
    as (view & V); auto.
  { now apply honest_arrives0. }
  exists (view X). intros h [->| ->].
  - fold l. replace X with (zxors (map (combined any Z.lxor 0 (subs0 l) (subs1 l)) (map c_pk l))).
    + apply V; auto. { now apply honest_arrives1. } apply honest_accepted_list; auto using any_ok.
    + rewrite honest_map_combined by auto using any_ok. reflexivity.
  - fold l'. rewrite LG, S. replace X with (zxors (map (combined any Z.lxor 0 (subs0 l) (subs1 l')) (map c_pk l))).
    + apply V; auto. { now apply honest_arrives1. }
      * rewrite <- S, <- EP. apply honest_accepted_list; auto using any_ok.
      * now apply ids_any.
    + rewrite <- S, <- EP, honest_map_combined by auto using any_ok. now rewrite RE.
Qed.

Lemma xor_server1 is_and gs vs order0 order1 junk0 junk1 :
  let one := xor_request is_and in
  fair order1 -> length junk0 = 40%nat -> length junk1 = 40%nat ->
  Forall is_blocks gs -> Z.of_nat (length gs) < two32 -> length vs = length gs ->
  exists gs', Forall is_blocks gs' /\ map c_real (separate one gs') = vs /\
    seen true (separate one gs') = seen true (separate one gs) /\
    exists v, forall h, h = gs \/ h = gs' ->
      sees1 (xor_op false order0 is_and (length h) (wire IntShare_bytes (subs0 (separate one h))) junk0)
            (xor_op true order1 is_and (length h) (wire IntShare_bytes (subs1 (separate one h))) junk1) v.
Proof.
  intros one HF J0 J1 G HN LV.
  destruct (xor_encodings is_and 0 word_0) with (vs := vs) as (es & LE & FE & _); [congruence|].
  destruct (combine_split vs es LE) as [C1 C2].
  destruct (choose_encoded Z.lxor one (xor_legal is_and) (fun w => 0 <= w < two64) true (xor_independent is_and) (xor_fresh_all is_and))
    with (gs := gs) (ves := combine vs es) as (gs' & G' & R & RE & S); auto.
  { intros g Hg. pose proof (xor_words is_and [g] (Forall_cons _ Hg (Forall_nil _))) as H. apply Forall_inv in H. now destruct H. }
  { rewrite combine_length. lia. }
  rewrite C1 in R.
  exists gs'. split; [exact G'|]. split; [exact R|]. split; [exact S|].
  assert (LG : length gs' = length gs).
  { apply (f_equal (@length _)) in R. rewrite map_length, separate_length in R. congruence. }
  pose proof (xor_words is_and gs G) as WL. fold one in WL.
  pose proof (xor_words is_and gs' G') as WL'. fold one in WL'.
  set (l := separate one gs) in *. set (l' := separate one gs') in *.
  assert (EP := seen_pks true l' l S). change (subs1 l' = subs1 l) in S.
  assert (Ll : length l = length gs) by apply separate_length.
  assert (Ll' : length l' = length gs) by (unfold l'; now rewrite separate_length).
  pose proof (separate_pks one gs (xor_fresh_all _) G) as PK. pose proof (separate_pks one gs' (xor_fresh_all _) G') as PK'.
  fold l in PK. fold l' in PK'.
  destruct (xor_words_subs l WL) as [W0 W1]. destruct (xor_words_subs l' WL') as [W0' W1'].
  destruct (xor_view_fixed is_and order0 order1 (length gs) (wire IntShare_bytes (subs1 l)) (subs1 l) junk1 (ids any (subs0 l)))
    as (v & V); auto.
  { now apply honest_arrives1. }
  exists v. intros h [->| ->].
  - fold l. apply V with (subs0 := subs0 l); auto. now apply honest_arrives0.
  - fold l'. rewrite LG, S. apply V with (subs0 := subs0 l'); auto. { now apply honest_arrives0. } now apply ids_any.
Qed.

(** *** MAX, MIN *)
Definition max_good is_max B (r : crec (list Z) nat) : Prop :=
  (c_real r <= B)%nat /\ row_ok B (c_0 r) /\ row_ok B (c_1 r) /\
  forall j, (level is_max B r < j <= B)%nat -> xor_at j (c_0 r) (c_1 r) = 0.
Lemma max_fresh_all is_max B : fresh_all (max_request is_max B). Proof. intros g pos. reflexivity. Qed.
Lemma nth_lxor j a b : length a = length b -> nth j (map2 Z.lxor a b) 0 = xor_at j a b.
Proof.
  unfold xor_at. revert a b. induction j as [|j IH]; intros [|x a] [|y b] L; cbn in *; try lia; auto.
Qed.
Lemma max_good_all is_max B gs : Forall is_blocks gs -> Forall (max_good is_max B) (separate (max_request is_max B) gs).
Proof.
  apply separate_forall. intros g G. unfold max_request, max_good, level. set (n := (B + 1)%nat). cbn [fst c_0 c_1 c_real].
  set (v := Z.to_nat (random_u64 g 0 mod Z.of_nat n)). set (lv := if is_max then v else (B - v)%nat).
  destruct (words_ok g (0 + 1) n G) as [LE FE]. pose proof (words_ok g (0 + 1 + blocks (8 * n)) n G) as R0.
  set (oe := random_words g (0 + 1) n) in *. set (s0 := random_words g (0 + 1 + blocks (8 * n)) n) in *.
  set (e := map (fun j => if (lv <? j)%nat then 0 else nth j oe 0) (seq 0 n)).
  assert (RE : row_ok B e).
  { split; [unfold e; now rewrite map_length, seq_length|]. apply Forall_forall. intros x Hx. apply in_map_iff in Hx as (j & <- & _).
    destruct (lv <? j)%nat; [unfold two64; lia|]. now apply nth_word. }
  split.
  { unfold v. pose proof (Z.mod_pos_bound (random_u64 g 0) (Z.of_nat n)). subst n. lia. }
  split; [exact R0|]. split; [now apply map2_lxor_row|].
  intros j Hj. rewrite <- nth_lxor by (rewrite map2_length; destruct R0, RE; lia).
  rewrite map2_lxor_diff by (destruct R0, RE; lia). unfold e. rewrite nth_map_seq by (unfold n; lia).
  replace (lv <? j)%nat with true; [reflexivity|]. symmetry. apply Nat.ltb_lt. apply Hj.
Qed.
Lemma max_good_rows is_max B l : Forall (max_good is_max B) l -> rows_ok B (subs0 l) /\ rows_ok B (subs1 l).
Proof.
  intros F. split; apply Forall_map; (eapply Forall_impl; [|exact F]); intros r (_ & [] & [] & _); cbn [snd]; split; assumption.
Qed.
Lemma max_row_of is_max B (l : list (crec (list Z) nat)) s0 s1 L :
  s0 = subs0 l -> s1 = subs1 l -> L = map c_pk l -> NoDup (map c_pk l) -> Forall (max_good is_max B) l ->
  row_of B s0 s1 L = map (fun j => zxors (map (fun e => nth j e 0) (map (fun r => map2 Z.lxor (c_0 r) (c_1 r)) l))) (seq 0 (B + 1)).
Proof.
  intros -> -> -> ND F. unfold row_of. apply map_ext. intros j. rewrite honest_map_combined by auto using any_ok.
  f_equal. rewrite map_map. apply map_ext_in. intros r Hr. rewrite Forall_forall in F. destruct (F r Hr) as (_ & [L0 _] & [L1 _] & _).
  symmetry. apply nth_lxor. lia.
Qed.
Definition lev (is_max : bool) (B v : nat) : nat := if is_max then v else (B - v)%nat.
Lemma zero_row B : row_ok B (repeat 0 (B + 1)).
Proof.
  split; [apply repeat_length|]. apply Forall_forall. intros x Hx. apply repeat_spec in Hx. subst. unfold two64. lia.
Qed.
Lemma row_encodings is_max B T : row_ok B T -> forall vs, Forall (fun v => (v <= B)%nat) vs ->
  (exists v, In v vs /\ forall j, (lev is_max B v < j)%nat -> nth j T 0 = 0) ->
  exists es, length es = length vs /\ Forall (max_legal is_max B) (combine vs es) /\
    forall j, zxors (map (fun e => nth j e 0) es) = nth j T 0.
Proof.
  intros RT.
  assert (Zs : forall vs, Forall (fun v => (v <= B)%nat) vs -> exists es, length es = length vs /\
    Forall (max_legal is_max B) (combine vs es) /\ forall j, zxors (map (fun e => nth j e 0) es) = 0).
  { induction vs as [|v vs IH]; intros F; [exists []; repeat split; constructor|].
    inversion F as [|? ? Hv F']; subst. destruct (IH F') as (es & A & C & D).
    exists (repeat 0 (B + 1) :: es). cbn [length combine map zxors fold_right]. rewrite A. split; [reflexivity|]. split.
    - constructor; [|exact C]. split; [exact Hv|]. split; [apply zero_row|]. intros j _. apply nth_repeat.
    - intros j. rewrite nth_repeat, Z.lxor_0_l. apply D. }
  induction vs as [|v vs IH]; intros F (w & Hw & HT); [destruct Hw|].
  inversion F as [|? ? Hv F']; subst. destruct Hw as [->|Hw].
  - destruct (Zs vs F') as (es & A & C & D). exists (T :: es). cbn [length combine map zxors fold_right]. rewrite A.
    split; [reflexivity|]. split.
    + constructor; [|exact C]. split; [exact Hv|]. split; [exact RT|]. exact HT.
    + intros j. change (Z.lxor (nth j T 0) (zxors (map (fun e => nth j e 0) es)) = nth j T 0). rewrite D. apply Z.lxor_0_r.
  - destruct IH as (es & A & C & D); [exact F'|exists w; auto|].
    exists (repeat 0 (B + 1) :: es). cbn [length combine map zxors fold_right]. rewrite A. split; [reflexivity|]. split.
    + constructor; [|exact C]. split; [exact Hv|]. split; [apply zero_row|]. intros j _. apply nth_repeat.
    + intros j. rewrite nth_repeat, Z.lxor_0_l. apply D.
Qed.
Lemma xor_at_word B r0 r1 j : row_ok B r0 -> row_ok B r1 -> word (xor_at j r0 r1).
Proof. intros [_ A] [_ C]. apply word_lxor; apply nth_word; assumption. Qed.

Lemma max_server0 is_max B gs vs order0 order1 pk0 pk1 junk0 junk1 :
  let one := max_request is_max B in
  Z.of_nat (length gs) * (Z.of_nat B + 1) < two32 ->
  fair order1 -> by_keys order1 -> length pk0 = 32%nat -> length pk1 = 32%nat ->
  (forall i, length (junk0 i) = (8 * (B + 1))%nat) -> (forall i, length (junk1 i) = (8 * (B + 1))%nat) ->
  Forall is_blocks gs -> NoDup (map c_pk (separate one gs)) ->
  Exists (fun x => x <> 0) (row_of B (subs0 (separate one gs)) (subs1 (separate one gs)) (map c_pk (separate one gs))) ->
  length vs = length gs -> Forall (fun v => (v <= B)%nat) vs ->
  (exists v, In v vs /\ forall r, In r (separate one gs) -> if is_max then (c_real r <= v)%nat else (v <= c_real r)%nat) ->
  exists gs', Forall is_blocks gs' /\ map c_real (separate one gs') = vs /\
    seen false (separate one gs') = seen false (separate one gs) /\
    exists v, forall h, h = gs \/ h = gs' ->
      sees0 (max_op false order0 is_max B (length h) (wire maxshare_bytes (subs0 (separate one h))) pk0 junk0)
            (max_op true order1 is_max B (length h) (wire maxshare_bytes (subs1 (separate one h))) pk1 junk1) v.
Proof.
  intros one HT HF HK K0 K1 J0 J1 G ND NZ LV FV HV.
  pose proof (max_good_all is_max B gs G) as GL. fold one in GL.
  set (l := separate one gs) in *. set (T := row_of B (subs0 l) (subs1 l) (map c_pk l)) in *.
  assert (NG : gs <> []).
  { intros ->. destruct HV as (v & Hv & _). destruct vs; [destruct Hv|discriminate]. }
  assert (HB : Z.of_nat B < two32) by (destruct gs; [congruence|cbn [length] in HT; nia]).
  assert (HN : Z.of_nat (length gs) < two32) by nia.
  assert (TN : forall j, (j <= B)%nat -> nth j T 0 = zxors (map (fun r => xor_at j (c_0 r) (c_1 r)) l)).
  { intros j Hj. unfold T, row_of. rewrite nth_map_seq by lia. now rewrite honest_map_combined by auto using any_ok. }
  assert (LT : length T = (B + 1)%nat) by (unfold T, row_of; now rewrite map_length, seq_length).
  destruct (row_encodings is_max B T) with (vs := vs) as (es & LE & FE & XE); auto.
  { split; [exact LT|]. apply Forall_forall. intros x Hx. unfold T, row_of in Hx.
    apply in_map_iff in Hx as (j & <- & _). rewrite honest_map_combined by auto using any_ok. apply word_zxors.
    eapply Forall_impl; [|exact GL]. intros r (_ & A & C & _). eapply xor_at_word; eassumption. }
  { destruct HV as (v & Hv & HV). exists v. split; [exact Hv|]. intros j Hj.
    destruct (Nat.le_gt_cases j B) as [HjB|HjB]; [|apply nth_overflow; lia].
    rewrite TN by exact HjB. apply zxors_zero. intros r Hr. rewrite Forall_forall in GL. destruct (GL r Hr) as (_ & _ & _ & Z0).
    apply Z0. specialize (HV r Hr). unfold lev, level in *. destruct is_max; lia. }
  destruct (combine_split vs es LE) as [C1 C2].
  destruct (choose_encoded (map2 Z.lxor) one (max_legal is_max B) (row_ok B) false (max_independent is_max B HB) (max_fresh_all is_max B))
    with (gs := gs) (ves := combine vs es) as (gs' & G' & R & RE & S); auto.
  { intros g Hg. pose proof (max_good_all is_max B [g] (Forall_cons _ Hg (Forall_nil _))) as H. apply Forall_inv in H. apply H. }
  { rewrite combine_length. lia. }
  rewrite C1 in R. rewrite C2 in RE.
  exists gs'. split; [exact G'|]. split; [exact R|]. split; [exact S|].
  assert (LG : length gs' = length gs).
  { apply (f_equal (@length _)) in R. rewrite map_length, separate_length in R. congruence. }
  pose proof (max_good_all is_max B gs' G') as GL'. fold one in GL'. fold l in S.
  set (l' := separate one gs') in *.
  assert (EP := seen_pks false l' l S). change (subs0 l' = subs0 l) in S.
  assert (ND' : NoDup (map c_pk l')) by now rewrite EP.
  assert (Ll : length l = length gs) by apply separate_length.
  assert (Ll' : length l' = length gs) by (unfold l'; now rewrite separate_length).
  pose proof (separate_pks one gs (max_fresh_all _ _) G) as PK. pose proof (separate_pks one gs' (max_fresh_all _ _) G') as PK'.
  fold l in PK. fold l' in PK'.
  destruct (max_good_rows is_max B l GL) as [W0 W1]. destruct (max_good_rows is_max B l' GL') as [W0' W1'].
  destruct (max_view_row is_max B order0 order1 (length gs) (wire maxshare_bytes (subs0 l)) (subs0 l) pk0 junk0 (map c_pk l) (ids any (subs1 l)))
    as (view & V); auto.
  { now apply honest_arrives0. }
  assert (TE : row_of B (subs0 l) (subs1 l') (map c_pk l) = T).
  { rewrite (max_row_of is_max B l'); auto. rewrite RE. apply nth_ext with 0 0; [now rewrite map_length, seq_length|].
    rewrite map_length, seq_length. intros j Hj. rewrite nth_map_seq by exact Hj. apply XE. }
  exists (view T). intros h [->| ->].
  - fold l. apply V; auto. { now apply honest_arrives1. } apply honest_accepted_list; auto using any_ok.
  - fold l'. rewrite LG, S. rewrite <- TE. apply V; auto.
    + now apply honest_arrives1.
    + rewrite <- S, <- EP. apply honest_accepted_list; auto using any_ok.
    + now apply ids_any.
    + right. now rewrite TE.
Qed.

Lemma max_server1 is_max B gs vs order0 order1 pk0 pk1 junk0 junk1 :
  let one := max_request is_max B in
  Z.of_nat (length gs) * (Z.of_nat B + 1) < two32 ->
  fair order1 -> length pk0 = 32%nat -> length pk1 = 32%nat ->
  (forall i, length (junk0 i) = (8 * (B + 1))%nat) -> (forall i, length (junk1 i) = (8 * (B + 1))%nat) ->
  Forall is_blocks gs -> NoDup (map c_pk (separate one gs)) ->
  Exists (fun x => x <> 0) (row_of B (subs0 (separate one gs)) (subs1 (separate one gs)) (map c_pk (separate one gs))) ->
  length vs = length gs -> Forall (fun v => (v <= B)%nat) vs ->
  exists gs', Forall is_blocks gs' /\ map c_real (separate one gs') = vs /\
    seen true (separate one gs') = seen true (separate one gs) /\
    exists v, forall h, h = gs \/ h = gs' ->
      sees1 (max_op false order0 is_max B (length h) (wire maxshare_bytes (subs0 (separate one h))) pk0 junk0)
            (max_op true order1 is_max B (length h) (wire maxshare_bytes (subs1 (separate one h))) pk1 junk1) v.
Proof.
  intros one HT HF K0 K1 J0 J1 G ND NZ LV FV.
  pose proof (max_good_all is_max B gs G) as GL. fold one in GL.
  assert (NG : gs <> []).
  { intros ->. cbn [separate map subs0 subs1] in NZ. apply Exists_exists in NZ as (x & Hx & N). apply in_map_iff in Hx as (j & E & _). now subst x. }
  assert (HB : Z.of_nat B < two32) by (destruct gs; [congruence|cbn [length] in HT; nia]).
  assert (HN : Z.of_nat (length gs) < two32) by nia.
  destruct vs as [|v0 vs0] eqn:EV; [destruct gs; [congruence|discriminate]|]. rewrite <- EV in *.
  destruct (row_encodings is_max B (1 :: repeat 0 B)) with (vs := vs) as (es & LE & FE & XE); auto.
  { split; [cbn [length]; rewrite repeat_length; lia|]. constructor; [unfold two64; lia|].
    apply Forall_forall. intros x Hx. apply repeat_spec in Hx. subst x. unfold two64; lia. }
  { exists v0. split; [rewrite EV; now left|]. intros [|j] Hj; [lia|]. apply nth_repeat. }
  destruct (combine_split vs es LE) as [C1 C2].
  destruct (choose_encoded (map2 Z.lxor) one (max_legal is_max B) (row_ok B) true (max_independent is_max B HB) (max_fresh_all is_max B))
    with (gs := gs) (ves := combine vs es) as (gs' & G' & R & RE & S); auto.
  { intros g Hg. pose proof (max_good_all is_max B [g] (Forall_cons _ Hg (Forall_nil _))) as H. apply Forall_inv in H. apply H. }
  { rewrite combine_length. lia. }
  rewrite C1 in R. rewrite C2 in RE.
  exists gs'. split; [exact G'|]. split; [exact R|]. split; [exact S|].
  assert (LG : length gs' = length gs).
  { apply (f_equal (@length _)) in R. rewrite map_length, separate_length in R. congruence. }
  pose proof (max_good_all is_max B gs' G') as GL'. fold one in GL'.
  set (l := separate one gs) in *. set (l' := separate one gs') in *.
  assert (EP := seen_pks true l' l S). change (subs1 l' = subs1 l) in S.
  assert (ND' : NoDup (map c_pk l')) by now rewrite EP.
  assert (Ll : length l = length gs) by apply separate_length.
  assert (Ll' : length l' = length gs) by (unfold l'; now rewrite separate_length).
  pose proof (separate_pks one gs (max_fresh_all _ _) G) as PK. pose proof (separate_pks one gs' (max_fresh_all _ _) G') as PK'.
  fold l in PK. fold l' in PK'.
  destruct (max_good_rows is_max B l GL) as [W0 W1]. destruct (max_good_rows is_max B l' GL') as [W0' W1'].
  destruct (max_view_fixed is_max B order0 order1 (length gs) (wire maxshare_bytes (subs1 l)) (subs1 l) pk1 junk1 (map c_pk l) (ids any (subs0 l)))
    as (v & V); auto.
  { now apply honest_arrives1. }
  exists v. intros h [->| ->].
  - fold l. apply V with (subs0 := subs0 l); auto. { now apply honest_arrives0. } apply honest_accepted_list; auto using any_ok.
  - fold l'. rewrite LG, S. apply V with (subs0 := subs0 l'); auto.
    + now apply honest_arrives0.
    + rewrite <- S, <- EP. apply honest_accepted_list; auto using any_ok.
    + now apply ids_any.
    + right. rewrite (max_row_of is_max B l'); auto. rewrite RE. apply Exists_exists. exists 1. split; [|lia].
      apply in_map_iff. exists 0%nat. split; [apply XE|]. apply in_seq. lia.
Qed.
