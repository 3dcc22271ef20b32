(** What the servers see in BIT_SUM, INT_SUM, AND/OR and MAX/MIN. *)
From Coq Require Import ZArith List Bool Lia Permutation.
From Verif Require Import Words WordsFacts Constants Share Cong Proc ProcFacts Net NetFacts SpecNet NetMsg SpecShare RelFacts
  OT OTFacts ServerOps SpecServer TableFacts ServerFacts ServerProps SpecHide HideFacts SpecPrivacy ViewFacts.
Import ListNotations.
Open Scope Z_scope.

Definition announce_keys (ks : list (list Z)) : proc unit :=
  send_size (Z.of_nat (length ks)) ;;; send_pks ks.
Lemma announce_keys_eq {V} (l : table V) : announce l = announce_keys (map fst l).
Proof. unfold announce, announce_keys. now rewrite map_length. Qed.
Lemma delivers_keys {V} order (m : table V) : fair order -> keys_ok m -> Z.of_nat (length m) < two32 ->
  delivers (announce_keys (map fst (order V m))) learn (map fst (order V m)).
Proof.
  intros HF [_ HK] HS. rewrite <- announce_keys_eq. apply delivers_announce; [now apply fair_forall|].
  now rewrite fair_length.
Qed.

Definition founds {V} (m0 : table V) (ks : list (list Z)) : list (option V) := map (fun pk => find pk m0) ks.
Lemma count_founds {V W} (m0 : table V) (m1 l : table W) L : Permutation l m1 -> NoDup (map fst m1) ->
  both_in m0 m1 L -> count (map is_some (founds m0 (map fst l))) = length L.
Proof. intros HP HN HL. unfold founds. now rewrite (count_accepted m0 m1 l L HP HN HL). Qed.

(** The share of server 1, from the result. *)
Lemma other_share a b S : 0 <= b < two64 -> (a + b) mod two64 = S mod two64 -> b = (S - a) mod two64.
Proof.
  intros Hb E. rewrite Zminus_mod, <- E, <- Zminus_mod. replace (a + b - a) with b by ring.
  symmetry. now apply Z.mod_small.
Qed.

(** ** BIT_SUM *)
Definition bit_shares (m0 : table bool) ks := map (get false) (founds m0 ks).
Definition bit_own (m0 : table bool) rnd ks : Z :=
  snd (bitsum_send_loop 0 rnd (combine (bit_shares m0 ks) (map is_some (founds m0 ks))) 0 0).
Definition bit_view0 (m0 : table bool) total rnd ks (S : Z) : list Z * result Z :=
  (sent_by (announce_keys ks) ++ sent_by (send_uint64 ((S - bit_own m0 rnd ks) mod two64)),
   outcome (count (map is_some (founds m0 ks))) total S).

Lemma bit_sees0 order m0 m1 total rnd L :
  fair order -> keys_ok m1 -> Z.of_nat (length m1) < two32 -> both_in m0 m1 L ->
  conv (logged [] (bit_sum0 m0 total rnd)) (bit_sum1 order m1)
    (bit_view0 m0 total rnd (map fst (order bool m1)) (zsum (map (at_both bit_val 0 m0 m1) L))) RET_NO_ANS.
Proof.
  intros HF KO HS HL. pose proof (delivers_keys order m1 HF KO HS) as D. destruct KO as [HN HK].
  unfold bit_sum0, bit_sum1.
  pose proof (HF _ m1) as HP. set (l := order bool m1) in *. rewrite announce_keys_eq.
  eapply log_receive; [exact D|]. cbn [app].
  destruct (bitsum_rel false rnd (bit_shares m0 (map fst l)) (map snd l) (map is_some (founds m0 (map fst l))))
    as (a & b & C & Ha & Hb & E).
  { unfold bit_shares, founds. now rewrite !map_length. }
  { unfold founds. now rewrite !map_length. }
  assert (CL : a = bit_own m0 rnd (map fst l) /\
    forall log, conv (logged log (bitsum_ot_sender false rnd (bit_shares m0 (map fst l)) (map is_some (founds m0 (map fst l))) 0))
      (bitsum_ot_receiver false (map snd l) 0) (log, a) b).
  { unfold bit_own. unfold bitsum_ot_sender in *. destruct (bitsum_send_loop _ _ _ _ _) as [msgs sum]. cbn [snd].
    destruct (log_ot_send _ _ _ _ _ _ [] C) as [-> _]. split; [reflexivity|]. intros log.
    now destruct (log_ot_send _ _ _ _ _ _ log C) as [_ K]. }
  destruct CL as [Ea CL].
  set (S := zsum _).
  assert (ES : (a + b) mod two64 = S).
  { rewrite E. unfold bit_shares, founds. rewrite map3_with0.
    transitivity (zsum (map (with0 m0 bit_val 0) l) mod two64).
    { do 2 f_equal. apply map_ext. intros e. unfold with0, bit_spec. now destruct (find (fst e) m0). }
    rewrite (zsum_accepted m0 m1 l) with (L := L) by auto.
    apply Z.mod_small. pose proof (both_in_length m0 m1 L HL).
    assert (R : 0 <= S <= Z.of_nat (length L)).
    { apply bit_sum_range. intros x. unfold at_both, bit_val.
      destruct (find x m0), (find x m1); try lia. destruct (xorb b0 b1); cbn; lia. }
    unfold two32, two64 in *. unfold S in R. lia. }
  eapply conv_logged_bind; [apply CL|]. cbn [fst snd].
  eapply log_receive; [now apply delivers_uint64|].
  rewrite too_few_outcome. unfold u64. rewrite ES.
  assert (EB : b = (S - bit_own m0 rnd (map fst l)) mod two64).
  { rewrite <- Ea. apply other_share; [exact Hb|]. rewrite <- ES. symmetry. apply Z.mod_mod. discriminate. }
  unfold bit_view0. rewrite <- EB. apply conv_ret.
Qed.

Definition seen_of {A} (cs : list bool) (q : proc A) : list Z := get [] (ot_view false cs q).
Lemma bit_sees1 order m0 m1 total rnd :
  fair order -> keys_ok m1 -> Z.of_nat (length m1) < two32 ->
  exists r, conv (logged [] (bit_sum1 order m1)) (bit_sum0 m0 total rnd)
    (seen_of (map snd (order bool m1)) (bitsum_ot_sender false rnd (bit_shares m0 (map fst (order bool m1)))
       (map is_some (founds m0 (map fst (order bool m1)))) 0), RET_NO_ANS) r.
Proof.
  intros HF KO HS. pose proof (delivers_keys order m1 HF KO HS) as D. destruct KO as [HN HK].
  unfold bit_sum0, bit_sum1.
  set (l := order bool m1) in *. rewrite announce_keys_eq.
  set (shares := bit_shares m0 (map fst l)). set (valid := map is_some (founds m0 (map fst l))).
  assert (L0 : length shares = length valid) by (unfold shares, valid, bit_shares, founds; now rewrite !map_length).
  assert (L1 : length (map snd l) = length valid) by (unfold valid, founds; now rewrite !map_length).
  destruct (bitsum_rel false rnd shares (map snd l) valid) as (a & b & C & Ha & Hb & _); auto.
  assert (CL : conv (logged [] (bitsum_ot_receiver false (map snd l) 0)) (bitsum_ot_sender false rnd shares valid 0)
     (seen_of (map snd l) (bitsum_ot_sender false rnd shares valid 0), b) a).
  { unfold seen_of, bitsum_ot_receiver in *. pose proof (bits_loop_form rnd (combine shares valid) 0 0) as BF.
    unfold bitsum_ot_sender in *. destruct (bitsum_send_loop _ _ _ _ _) as [msgs sum]. cbn [fst] in BF. cbn [ot_view Bool.eqb get].
    assert (LM : length msgs = length (map snd l)).
    { rewrite BF, map2_length, seq_length. unfold bit_deltas. rewrite map_length, combine_length. lia. }
    pose proof (log_ot_recv false msgs (map snd l) sum (fun r => fold_left (fun sum x => reduce 0 (u64 (sum + x))) r 0) [] LM) as K.
    cbn [app] in K. pose proof (conv_swap _ _ _ _ (conv_unlog _ _ _ _ K)) as K'. cbn [snd] in K'.
    destruct (always_functional _ _ _ _ _ _ (conv_always _ _ _ _ C) (conv_always _ _ _ _ K')) as [-> ->]. exact K. }
  eexists. eapply log_send; [exact D|].
  eapply conv_logged_bind; [exact CL|]. cbn [fst snd].
  eapply log_send; [now apply delivers_uint64|]. rewrite too_few_outcome. apply conv_ret.
Qed.

Lemma bitsum_same_view ot rnd shares shares' valid cs :
  length shares = length valid -> length shares' = length valid -> length cs = length valid ->
  exists rnd', ot_view ot cs (bitsum_ot_sender ot rnd' shares' valid 0) =
               ot_view ot cs (bitsum_ot_sender ot rnd shares valid 0).
Proof.
  intros L L' Lc. set (ds := bit_deltas (combine shares valid)).
  assert (LD : length ds = length valid) by (unfold ds, bit_deltas; rewrite map_length, combine_length, L; apply Nat.min_id).
  assert (CD : counts_of ds = valid).
  { unfold ds, counts_of, bit_deltas. rewrite map_map. rewrite <- (map_snd_combine shares valid L) at 2.
    apply map_ext. intros [s v]. now destruct v. }
  pose proof (view_possible 0 (or_introl eq_refl) rnd ds 0 cs ltac:(congruence)) as P. rewrite CD in P.
  destruct (bitsum_hides ot shares' valid cs _ L' Lc P) as (rnd' & R & _). exists rnd'. rewrite R.
  unfold bitsum_ot_sender. pose proof (bits_loop_form rnd (combine shares valid) 0 0) as BF.
  destruct (bitsum_send_loop _ _ _ _ _) as [msgs sum]. cbn [fst] in BF. cbn [ot_view]. rewrite Bool.eqb_reflx.
  rewrite BF. reflexivity.
Qed.

Lemma bit_alike1 order m0 m0' m1 total total' rnd :
  fair order -> keys_ok m1 -> Z.of_nat (length m1) < two32 -> map fst m0 = map fst m0' ->
  exists v r rnd' r', conv (logged [] (bit_sum1 order m1)) (bit_sum0 m0 total rnd) v r /\
    conv (logged [] (bit_sum1 order m1)) (bit_sum0 m0' total' rnd') v r'.
Proof.
  intros HF KO HS EK. destruct (bit_sees1 order m0 m1 total rnd HF KO HS) as (r & C).
  set (l := order bool m1) in *.
  assert (EV : map is_some (founds m0' (map fst l)) = map is_some (founds m0 (map fst l))).
  { unfold founds. rewrite !map_map. apply map_ext. intros e. now apply find_keys. }
  destruct (bitsum_same_view false rnd (bit_shares m0 (map fst l)) (bit_shares m0' (map fst l))
    (map is_some (founds m0 (map fst l))) (map snd l)) as (rnd' & R);
    try (unfold bit_shares, founds; now rewrite !map_length).
  destruct (bit_sees1 order m0' m1 total' rnd' HF KO HS) as (r' & C'). fold l in C'. rewrite EV in C'.
  unfold seen_of in *. rewrite R in C'. eauto 6.
Qed.

(** ** INT_SUM *)
Definition int_shares (m0 : table Z) ks := map (fun f => [get 0 f]) (founds m0 ks).
Definition int_own nb (m0 : table Z) rnd ks : Z :=
  sum_col0 (snd (intsum_send_rows 0 rnd [nb] (combine (int_shares m0 ks) (map is_some (founds m0 ks))) 0)).
Definition int_view0 nb (m0 : table Z) total rnd ks (S : Z) : list Z * result Z :=
  (sent_by (announce_keys ks) ++ sent_by (send_uint64 ((S - int_own nb m0 rnd ks) mod two64)),
   outcome (count (map is_some (founds m0 ks))) total S).

Lemma width_small nb : (nb <= 63)%nat -> Forall (width_ok 0) [nb].
Proof. intros H. constructor; [|constructor]. split; [lia|]. intros N. now elim N. Qed.
Lemma widths_small nb : (nb <= 63)%nat -> widths_ok [nb] = true.
Proof. intros H. unfold widths_ok. cbn. rewrite andb_true_r. apply Nat.leb_le. lia. Qed.

Lemma int_sees0 order nb m0 m1 total rnd L :
  fair order -> keys_ok m1 -> Z.of_nat (length m1) < two32 -> both_in m0 m1 L -> (nb <= 63)%nat ->
  Forall (fun e => 0 <= snd e < 2 ^ Z.of_nat nb) m0 ->
  Forall (fun e => 0 <= snd e < 2 ^ Z.of_nat nb) m1 ->
  conv (logged [] (int_sum0 nb m0 total rnd)) (int_sum1 order nb m1)
    (int_view0 nb m0 total rnd (map fst (order Z m1)) (zsum (map (at_both Z.lxor 0 m0 m1) L) mod two64)) RET_NO_ANS.
Proof.
  intros HF KO HS HL HB V0 V1. pose proof (delivers_keys order m1 HF KO HS) as D. destruct KO as [HN HK].
  unfold int_sum0, int_sum1.
  assert (Vl : Forall (fun e => 0 <= snd e < 2 ^ Z.of_nat nb) (order Z m1)) by now apply fair_forall.
  pose proof (HF _ m1) as HP. set (l := order Z m1) in *. rewrite announce_keys_eq.
  eapply log_receive; [exact D|]. cbn [app].
  destruct (intsum_rel false rnd 0 [nb] (int_shares m0 (map fst l)) (map (fun e => [snd e]) l) (map is_some (founds m0 (map fst l))))
    as (o0 & o1 & C & L0 & L1 & F0 & F1 & _ & _ & E).
  { now left. }
  { now apply width_small. }
  { unfold int_shares, founds. now rewrite !map_length. }
  { unfold founds. now rewrite !map_length. }
  { apply Forall_map, Forall_forall. reflexivity. }
  { apply Forall_map, Forall_forall. reflexivity. }
  change (ot_modulus 0) with two64 in E. cbn [length] in F0, F1.
  assert (CL : sum_col0 o0 = int_own nb m0 rnd (map fst l) /\
    forall log, conv (logged log (intsum_ot_sender false rnd (int_shares m0 (map fst l)) (map is_some (founds m0 (map fst l))) [nb] 0))
      (intsum_ot_receiver false (map (fun e => [snd e]) l) [nb] 0) (log, o0) o1).
  { unfold int_own. unfold intsum_ot_sender in *. rewrite widths_small in * by exact HB.
    destruct (intsum_send_rows _ _ _ _ _) as [msgs ret]. cbn [snd].
    destruct (log_ot_send _ _ _ _ _ _ [] C) as [-> _]. split; [reflexivity|]. intros log.
    now destruct (log_ot_send _ _ _ _ _ _ log C) as [_ K]. }
  destruct CL as [Ea CL].
  set (S := zsum _ mod two64).
  assert (ES : (sum_col0 o0 + sum_col0 o1) mod two64 = S).
  { rewrite !sum_col0_zsum. rewrite <- Zplus_mod, sums_cols by (auto; congruence).
    rewrite E. unfold int_shares, founds. rewrite int_rows by auto. now rewrite (zsum_accepted m0 m1 l) with (L := L). }
  eapply conv_logged_bind; [apply CL|]. cbn [fst snd].
  assert (Hb : 0 <= sum_col0 o1 < two64) by (rewrite sum_col0_zsum; apply Z.mod_pos_bound; reflexivity).
  eapply log_receive; [now apply delivers_uint64|].
  rewrite too_few_outcome. unfold u64. rewrite ES.
  assert (EB : sum_col0 o1 = (S - int_own nb m0 rnd (map fst l)) mod two64).
  { rewrite <- Ea. apply other_share; [exact Hb|]. rewrite <- ES. symmetry. apply Z.mod_mod. discriminate. }
  unfold int_view0. rewrite <- EB. apply conv_ret.
Qed.

Lemma int_choices_length nb (l : table Z) :
  length (intsum_choices [nb] (map (fun e => [snd e]) l)) = (length l * total [nb])%nat.
Proof.
  assert (H : forall n z, length (intsum_recv_bits n z) = n) by (induction n; intros; cbn; auto).
  unfold intsum_choices. rewrite map_map.
  enough (E : forall e : list Z * Z, length (concat (map2 intsum_recv_bits [nb] [snd e])) = nb).
  { induction l as [|e l IH]; [reflexivity|]. cbn [map concat]. rewrite app_length, E, IH.
    unfold total. cbn [length fold_right]. lia. }
  intros e. cbn. now rewrite app_nil_r.
Qed.

Lemma int_sees1 order nb m0 m1 total rnd :
  fair order -> keys_ok m1 -> Z.of_nat (length m1) < two32 -> (nb <= 63)%nat ->
  exists r, conv (logged [] (int_sum1 order nb m1)) (int_sum0 nb m0 total rnd)
    (seen_of (intsum_choices [nb] (map (fun e => [snd e]) (order Z m1)))
      (intsum_ot_sender false rnd (int_shares m0 (map fst (order Z m1)))
       (map is_some (founds m0 (map fst (order Z m1)))) [nb] 0), RET_NO_ANS) r.
Proof.
  intros HF KO HS HB. pose proof (delivers_keys order m1 HF KO HS) as D. destruct KO as [HN HK].
  unfold int_sum0, int_sum1.
  set (l := order Z m1) in *. rewrite announce_keys_eq.
  set (shares := int_shares m0 (map fst l)). set (valid := map is_some (founds m0 (map fst l))).
  assert (L0 : length shares = length valid) by (unfold shares, valid, int_shares, founds; now rewrite !map_length).
  assert (L1 : length (map (fun e => [snd e]) l) = length valid) by (unfold valid, founds; now rewrite !map_length).
  assert (R0 : Forall (fun r => length r = 1%nat) shares) by (apply Forall_map, Forall_forall; reflexivity).
  assert (R1 : Forall (fun r => length r = 1%nat) (map (fun e => [snd e]) l)) by (apply Forall_map, Forall_forall; reflexivity).
  destruct (intsum_rel false rnd 0 [nb] shares (map (fun e => [snd e]) l) valid) as (o0 & o1 & C & _); auto.
  { now left. }
  { now apply width_small. }
  assert (CL : conv (logged [] (intsum_ot_receiver false (map (fun e => [snd e]) l) [nb] 0)) (intsum_ot_sender false rnd shares valid [nb] 0)
     (seen_of (intsum_choices [nb] (map (fun e => [snd e]) l)) (intsum_ot_sender false rnd shares valid [nb] 0), o1) o0).
  { destruct (rows_form 0 rnd [nb] (or_introl eq_refl) (width_small nb HB) (combine shares valid) 0) as (BF & LF & _).
    { apply Forall_forall. intros [r v] Hr. apply in_combine_l in Hr. rewrite Forall_forall in R0. now apply R0. }
    unfold seen_of, intsum_ot_receiver, intsum_ot_sender in *. rewrite widths_small in * by exact HB.
    destruct (intsum_send_rows _ _ _ _ _) as [msgs sum]. cbn [fst] in BF. cbn [ot_view Bool.eqb get].
    assert (LM : length msgs = length (intsum_choices [nb] (map (fun e => [snd e]) l))).
    { rewrite BF, map2_length, seq_length, LF, int_choices_length, combine_length. rewrite L0, <- L1, map_length. lia. }
    set (f := fun r => map (fun rr => map (intsum_recv_acc 0) (pieces [nb] rr)) (chunks (length (map (fun e => [snd e]) l)) (OT.total [nb]) r)) in *.
    pose proof (log_ot_recv false msgs (intsum_choices [nb] (map (fun e => [snd e]) l)) sum f [] LM) as K.
    cbn [app] in K. pose proof (conv_swap _ _ _ _ (conv_unlog _ _ _ _ K)) as K'. cbn [snd] in K'.
    destruct (always_functional _ _ _ _ _ _ (conv_always _ _ _ _ C) (conv_always _ _ _ _ K')) as [-> ->]. exact K. }
  eexists. eapply log_send; [exact D|].
  eapply conv_logged_bind; [exact CL|]. cbn [fst snd].
  eapply log_send.
  { apply delivers_uint64. rewrite sum_col0_zsum. apply Z.mod_pos_bound. reflexivity. }
  rewrite too_few_outcome. apply conv_ret.
Qed.

Lemma int_alike1 order nb m0 m0' m1 total total' rnd :
  fair order -> keys_ok m1 -> Z.of_nat (length m1) < two32 -> (nb <= 63)%nat -> map fst m0 = map fst m0' ->
  exists v r rnd' r', conv (logged [] (int_sum1 order nb m1)) (int_sum0 nb m0 total rnd) v r /\
    conv (logged [] (int_sum1 order nb m1)) (int_sum0 nb m0' total' rnd') v r'.
Proof.
  intros HF KO HS HB EK. destruct (int_sees1 order nb m0 m1 total rnd HF KO HS HB) as (r & C).
  set (l := order Z m1) in *.
  assert (EV : map is_some (founds m0' (map fst l)) = map is_some (founds m0 (map fst l))).
  { unfold founds. rewrite !map_map. apply map_ext. intros e. now apply find_keys. }
  destruct (intsum_same_view false 0 [nb] rnd (int_shares m0 (map fst l)) (int_shares m0' (map fst l))
    (map is_some (founds m0 (map fst l))) (intsum_choices [nb] (map (fun e => [snd e]) l))) as (rnd' & R);
    try (unfold int_shares, founds; now rewrite !map_length); try (apply Forall_map, Forall_forall; reflexivity).
  { now left. }
  { now apply width_small. }
  { rewrite int_choices_length. unfold founds. now rewrite !map_length. }
  destruct (int_sees1 order nb m0' m1 total' rnd' HF KO HS HB) as (r' & C'). fold l in C'. rewrite EV in C'.
  unfold seen_of in *. rewrite R in C'. eauto 6.
Qed.

(** ** AND, OR *)
Definition xor_own (m0 : table Z) ks : Z :=
  fold_left (fun a f => match f with Some v => Z.lxor a v | None => a end) (founds m0 ks) 0.
Definition xor_answer (is_and : bool) (X : Z) : bool := if is_and then X =? 0 else negb (X =? 0).
Definition xor_view0 is_and (m0 : table Z) total ks (X : Z) : list Z * result bool :=
  (sent_by (announce_keys ks) ++ sent_by (send_uint64 (Z.lxor (xor_own m0 ks) X)),
   outcome (count (map is_some (founds m0 ks))) total (xor_answer is_and X)).

Lemma valid_delivers {V W} (m0 : table V) (l : table W) :
  delivers (send_bool_batch (map is_some (founds m0 (map fst l)))) (recv_bool_batch (length l))
    (map is_some (founds m0 (map fst l))).
Proof.
  replace (length l) with (length (map is_some (founds m0 (map fst l)))) by (unfold founds; now rewrite !map_length).
  apply delivers_bool_batch.
Qed.
Lemma lxor_back a b : Z.lxor a (Z.lxor a b) = b.
Proof. now rewrite <- Z.lxor_assoc, Z.lxor_nilpotent, Z.lxor_0_l. Qed.

Lemma xor_sees order is_and m0 m1 total L :
  fair order -> keys_ok m1 -> Z.of_nat (length m1) < two32 -> both_in m0 m1 L ->
  Forall (fun e => word (snd e)) m1 ->
  conv (logged [] (xor_op0 is_and m0 total)) (xor_op1 order m1)
    (xor_view0 is_and m0 total (map fst (order Z m1)) (zxors (map (at_both Z.lxor 0 m0 m1) L))) RET_NO_ANS /\
  exists r, conv (logged [] (xor_op1 order m1)) (xor_op0 is_and m0 total)
    (sent_by (send_bool_batch (map is_some (founds m0 (map fst (order Z m1))))), RET_NO_ANS) r.
Proof.
  intros HF KO HS HL V1. pose proof (delivers_keys order m1 HF KO HS) as D. destruct KO as [HN HK].
  unfold xor_op0, xor_op1. pose proof (HF _ m1) as HP.
  assert (Vl : Forall (fun e => word (snd e)) (order Z m1)) by now apply fair_forall.
  set (l := order Z m1) in *. rewrite announce_keys_eq.
  pose proof (valid_delivers m0 l) as DV. pose proof (fold_lxor_valid m0 l 0) as FV. rewrite Z.lxor_0_l in FV.
  assert (WB : word (zxors (map (with0 m0 (fun _ b => b) 0) l))).
  { apply word_zxors. eapply Forall_impl; [|exact Vl]. intros [k b] Hb.
    unfold with0. cbn [fst snd] in *. destruct (find k m0); [exact Hb|apply word_0]. }
  assert (EX : Z.lxor (xor_own m0 (map fst l)) (zxors (map (with0 m0 (fun _ b => b) 0) l))
             = zxors (map (at_both Z.lxor 0 m0 m1) L)).
  { unfold xor_own. rewrite fold_lxor_found, Z.lxor_0_l. unfold founds. now apply xors_both. }
  split.
  - eapply log_receive; [exact D|]. cbn [app]. cbv zeta.
    eapply log_send; [exact DV|]. fold (founds m0 (map fst l)) in FV. rewrite FV.
    eapply log_receive; [now apply delivers_uint64|].
    rewrite too_few_outcome. fold (founds m0 (map fst l)). fold (xor_own m0 (map fst l)). rewrite EX.
    unfold xor_view0. rewrite <- EX, lxor_back. apply conv_ret.
  - eexists. eapply log_send; [exact D|]. cbv zeta.
    eapply log_receive; [exact DV|]. cbn [app]. fold (founds m0 (map fst l)) in FV. rewrite FV.
    eapply log_send; [now apply delivers_uint64|]. rewrite too_few_outcome. apply conv_ret.
Qed.

(** ** MAX, MIN *)
Definition max_own B (m0 : table (list Z)) ks : list Z :=
  fold_left (fun a f => match f with Some v => xor_row a v | None => a end) (founds m0 ks) (repeat 0 (B + 1)).
Definition max_view0 (is_max : bool) B (m0 : table (list Z)) total ks (X : list Z) : list Z * result Z :=
  (sent_by (announce_keys ks) ++ sent_by (send_uint64_batch (xor_row (max_own B m0 ks) X)),
   match scan_down X (repeat 0 (B + 1)) B with
   | Some j => outcome (count (map is_some (founds m0 ks))) total (Z.of_nat (if is_max then j else B - j))
   | None => RET_INVALID
   end).
Definition xor_rows B (F : nat -> Z) : list Z := map F (seq 0 (B + 1)).

Lemma nth_xor_rows B F j : (j <= B)%nat -> nth j (xor_rows B F) 0 = F j.
Proof.
  intros H. unfold xor_rows. rewrite (nth_indep _ 0 (F 0%nat)) by (rewrite map_length, seq_length; lia).
  rewrite map_nth. f_equal. rewrite seq_nth; lia.
Qed.

Lemma max_sees order is_max B m0 m1 total L :
  fair order -> keys_ok m1 -> Z.of_nat (length m1) < two32 -> both_in m0 m1 L ->
  Forall (fun e => length (snd e) = (B + 1)%nat) m0 ->
  Forall (fun e => length (snd e) = (B + 1)%nat /\ Forall word (snd e)) m1 ->
  let F := fun j => zxors (map (at_both (xor_at j) 0 m0 m1) L) in
  (2 * length L < total)%nat \/ (exists j, highest B F j) ->
  conv (logged [] (max_op0 is_max B m0 total)) (max_op1 order B m1)
    (max_view0 is_max B m0 total (map fst (order _ m1)) (xor_rows B F)) RET_NO_ANS /\
  exists r, conv (logged [] (max_op1 order B m1)) (max_op0 is_max B m0 total)
    (sent_by (send_bool_batch (map is_some (founds m0 (map fst (order _ m1))))), RET_NO_ANS) r.
Proof.
  intros HF KO HS HL V0 V1 F HH. pose proof (delivers_keys order m1 HF KO HS) as D. destruct KO as [HN HK].
  unfold max_op0, max_op1. pose proof (HF _ m1) as HP.
  assert (Vl : Forall (fun e => length (snd e) = (B + 1)%nat /\ Forall word (snd e)) (order _ m1))
    by now apply fair_forall.
  set (l := order _ m1) in *. rewrite announce_keys_eq.
  pose proof (valid_delivers m0 l) as DV.
  destruct (fold_xor_found (B + 1) (founds m0 (map fst l)) (repeat 0 (B + 1))) as [A1 A2].
  { apply repeat_length. }
  { unfold founds. apply Forall_map, Forall_forall. intros k _. destruct (find k m0) eqn:E; auto.
    exact (find_forall (fun v => length v = (B + 1)%nat) m0 k l0 V0 E). }
  destruct (fold_xor_valid (B + 1) m0 l (repeat 0 (B + 1))) as [B1 B2].
  { apply repeat_length. }
  { eapply Forall_impl; [|exact Vl]. now intros ? []. }
  assert (BW := fold_xor_word (B + 1) m0 l (repeat 0 (B + 1)) (repeat_length _ _)).
  fold (founds m0 (map fst l)) in B1, B2, BW.
  set (b := fold_left (fun b ev => if snd ev : bool then xor_row b (snd (fst ev)) else b) _ _) in *.
  fold (max_own B m0 (map fst l)) in A1, A2. set (a := max_own B m0 (map fst l)) in *.
  assert (EX : forall j, xor_at j a b = F j).
  { intros j. unfold xor_at at 1. rewrite A2, B2.
    assert (R : nth j (repeat 0 (B + 1)) 0 = 0).
    { destruct (nth_in_or_default j (repeat 0 (B + 1)) 0) as [H|H]; auto. now apply repeat_spec in H. }
    rewrite R, !Z.lxor_0_l. unfold F.
    rewrite <- (zxors_accepted m0 m1 l) by auto. unfold founds. rewrite !map_map.
    rewrite zxors_lxor. f_equal. apply map_ext. intros [k w]. unfold with0. cbn [fst snd].
    destruct (find k m0); cbn [get]; auto. now destruct j. }
  assert (EB : b = xor_row a (xor_rows B F)).
  { apply nth_ext with (d := 0) (d' := 0).
    - rewrite B1. unfold xor_row, xor_rows. rewrite map2_length, map_length, seq_length, A1. lia.
    - intros j Hj. rewrite B1 in Hj. unfold xor_row.
      assert (N : nth j (map2 Z.lxor a (xor_rows B F)) 0 = Z.lxor (nth j a 0) (nth j (xor_rows B F) 0)).
      { apply nth_xor_row. unfold xor_rows. now rewrite map_length, seq_length. }
      rewrite N, nth_xor_rows by lia. rewrite <- EX. unfold xor_at. now rewrite lxor_back. }
  assert (DB : delivers (send_uint64_batch b) (recv_uint64_batch (B + 1)) b).
  { rewrite <- B1. apply delivers_uint64_batch. apply BW; auto.
    apply Forall_forall. intros x Hx. apply repeat_spec in Hx as ->. apply word_0. }
  pose proof (count_founds m0 m1 l L HP HN HL) as CF.
  assert (NX : forall j, highest B F j -> scan_down a b B = Some j /\ scan_down (xor_rows B F) (repeat 0 (B + 1)) B = Some j).
  { intros j (J1 & J2 & J3). split; apply scan_down_highest.
    - split; auto. split; [now rewrite EX|]. intros. rewrite EX. auto.
    - assert (Z0 : forall i, nth i (repeat 0 (B + 1)) 0 = 0).
      { intros i. destruct (nth_in_or_default i (repeat 0 (B + 1)) 0) as [H|H]; auto. now apply repeat_spec in H. }
      split; auto. unfold xor_at. split.
      + rewrite Z0, Z.lxor_0_r, nth_xor_rows by lia. exact J2.
      + intros k Hk. rewrite Z0, Z.lxor_0_r, nth_xor_rows by lia. auto. }
  assert (TERM : exists r, (if too_few (count (map is_some (founds m0 (map fst l)))) total then Ret RET_INVALID
    else match scan_down a b B with None => Undef | Some j => Ret (RET_ANS (Z.of_nat (if is_max then j else B - j))) end) = Ret r
    /\ r = snd (max_view0 is_max B m0 total (map fst l) (xor_rows B F))).
  { rewrite CF. unfold max_view0. cbn [snd]. rewrite CF. unfold too_few, outcome.
    destruct (Nat.ltb_spec (2 * length L) total) as [H|H].
    - eexists; split; [reflexivity|]. now destruct (scan_down (xor_rows B F) _ B).
    - destruct HH as [HH|(j & Hj)]; [lia|]. destruct (NX j Hj) as [-> ->]. eexists; split; reflexivity. }
  destruct TERM as (r & TERM & Er).
  split.
  - eapply log_receive; [exact D|]. cbn [app]. cbv zeta.
    eapply log_send; [exact DV|]. fold b.
    eapply log_receive; [exact DB|].
    fold (founds m0 (map fst l)). fold (max_own B m0 (map fst l)). fold a. rewrite TERM, Er, EB.
    unfold max_view0. cbn [snd]. apply conv_ret.
  - exists r. eapply log_send; [exact D|]. cbv zeta.
    eapply log_receive; [exact DV|]. cbn [app]. fold b.
    eapply log_send; [exact DB|]. fold (founds m0 (map fst l)). fold (max_own B m0 (map fst l)). fold a. rewrite TERM. apply conv_ret.
Qed.
