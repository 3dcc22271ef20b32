(** * Server 0 departs from the code: what it can find out *)
From Coq Require Import ZArith List Bool Lia Permutation.
From Verif Require Import Words WordsFacts Constants Share Proc ProcFacts Net NetFacts RelFacts OT OTFacts MpcFacts ServerOps SpecServer SpecPrivacy
  TableFacts ServerFacts ServerProps ClientFacts ViewFacts SecretFacts PrivacyProof Cong SpecPeer PeerFacts PeerProps SpecRogue RogueFacts RogueProps.
Import ListNotations.
Open Scope Z_scope.

(** ** What server 1 has announced *)
Lemma announce_same {V W} (l : table V) (l' : table W) : map fst l = map fst l' -> announce l = announce l'.
Proof. intros E. unfold announce. rewrite <- (map_length fst l), <- (map_length fst l'), E. reflexivity. Qed.

Definition pick (K : list (list Z)) (ov : list bool) : list (list Z) := map fst (filter snd (combine K ov)).
Lemma pick_incl K : forall ov, incl (pick K ov) K.
Proof.
  unfold pick. induction K as [|k K IH]; intros [|b ov] x Hx; try (now destruct Hx).
  destruct b; cbn in Hx.
  - destruct Hx as [<-|Hx]; [now left|right; eapply IH; eauto].
  - right; eapply IH; eauto.
Qed.
Lemma pick_nodup K : NoDup K -> forall ov, NoDup (pick K ov).
Proof.
  unfold pick. induction 1 as [|k K Hk H IH]; intros [|b ov]; cbn; try constructor.
  destruct b; cbn; [|apply IH]. constructor; [|apply IH]. intros I. apply Hk. exact (pick_incl K ov k I).
Qed.

(** Entries of the table in the order of iteration. *)
Definition from {V} (m l : table V) : Prop := Forall (fun e => find (fst e) m = Some (snd e)) l.
Lemma order_from {V} (ok : V -> bool) order subs : fair order -> from (table_of ok subs) (order V (table_of ok subs)).
Proof.
  intros HF. apply fair_forall; [exact HF|]. apply Forall_forall. intros [k v] H. apply in_find; [apply table_nodup|exact H].
Qed.
Lemma order_nodup {V} (ok : V -> bool) order subs : fair order -> NoDup (map fst (order V (table_of ok subs))).
Proof. intros HF. eapply Permutation_NoDup; [|apply (table_nodup ok subs)]. apply Permutation_map. symmetry. apply HF. Qed.
Lemma table_incl {V} (ok : V -> bool) subs : incl (map fst (table_of ok subs)) (map fst (ids ok subs)).
Proof.
  intros k Hk. apply in_map_iff in Hk. destruct Hk as ([k' v] & <- & Hin). apply (in_find _ _ _ (table_nodup ok subs)) in Hin.
  rewrite table_find in Hin. unfold ids. rewrite map_map. cbn [fst]. clear -Hin. revert Hin. induction subs as [|[a w] subs IH]; cbn; [discriminate|].
  unfold key_eqb. destruct (list_eq_dec Z.eq_dec a k') as [->|]; cbn; [now left|]. intros H. right. auto.
Qed.
Lemma order_incl {V} (ok : V -> bool) order subs : fair order -> incl (map fst (order V (table_of ok subs))) (map fst (ids ok subs)).
Proof.
  intros HF k Hk. apply table_incl. eapply Permutation_in; [|exact Hk]. apply Permutation_map, HF.
Qed.

Lemma own_from {V} (ok : V -> bool) subs d (e : list Z * V) : find (fst e) (table_of ok subs) = Some (snd e) -> own ok subs d (fst e) = snd e.
Proof. unfold own. rewrite table_find. now intros ->. Qed.

(** ** AND, OR, MAX, MIN: server 0 names one set of clients *)
Lemma xor_picked ok subs : forall l ov acc, from (table_of ok subs) l ->
  fold_left (fun b ev => if snd ev : bool then Z.lxor b (snd (fst ev)) else b) (combine l ov) acc =
  Z.lxor acc (zxors (map (own ok subs 0) (pick (map fst l) ov))).
Proof.
  induction l as [|e l IH]; intros ov acc F; [cbn; now rewrite Z.lxor_0_r|]. inversion F; subst.
  destruct ov as [|b ov]; [cbn; now rewrite Z.lxor_0_r|]. cbn [combine map fold_left fst snd]. rewrite IH by auto.
  unfold pick. cbn [combine filter snd]. destruct b; [|reflexivity]. cbn [map fst zxors fold_right].
  rewrite (own_from ok subs 0 e) by auto. unfold zxors, pick. now rewrite Z.lxor_assoc.
Qed.
Lemma row_picked ok subs B : forall l ov acc, from (table_of ok subs) l -> Forall (fun e => length (snd e) = (B + 1)%nat) l ->
  length acc = (B + 1)%nat ->
  let r := fold_left (fun b ev => if snd ev : bool then xor_row b (snd (fst ev)) else b) (combine l ov) acc in
  length r = (B + 1)%nat /\
  forall j, nth j r 0 = Z.lxor (nth j acc 0) (zxors (map (fun pk => nth j (own ok subs [] pk) 0) (pick (map fst l) ov))).
Proof.
  induction l as [|e l IH]; intros ov acc F R L; [split; [exact L|]; intros j; cbn; now rewrite Z.lxor_0_r|]. inversion F; subst. inversion R; subst.
  destruct ov as [|b ov]; [split; [exact L|]; intros j; cbn; now rewrite Z.lxor_0_r|]. cbn [combine map fold_left fst snd].
  unfold pick. cbn [combine filter snd]. destruct b; [|now apply IH]. cbn [map fst zxors fold_right].
  destruct (IH ov (xor_row acc (snd e))) as [I1 I2]; auto.
  { now apply xor_row_length. }
  split; [exact I1|]. intros j. rewrite I2, nth_xor_row by congruence. rewrite (own_from ok subs [] e) by auto. unfold zxors, pick.
  now rewrite Z.lxor_assoc.
Qed.
Lemma nth_same n (a b : list Z) : length a = n -> length b = n -> (forall j, (j < n)%nat -> nth j a 0 = nth j b 0) -> a = b.
Proof. intros La Lb H. apply (nth_ext _ _ 0 0); [congruence|]. intros j Hj. apply H. lia. Qed.

Lemma listens_bools n : listens (recv_bool_batch n). Proof. intros l. exact I. Qed.
Definition told (q : list Z) (n : nat) : list bool := match feed (recv_bool_batch n) q with Some (ov, _) => ov | None => [] end.

Lemma keys_order {V} (d : V) order keys : fair order -> NoDup (key_order order d keys) /\ incl (key_order order d keys) (map fst keys).
Proof.
  intros HF. unfold key_order. split.
  - eapply Permutation_NoDup; [apply Permutation_map; symmetry; apply HF|]. unfold with_keys. rewrite map_map. cbn [fst]. apply table_nodup.
  - intros k Hk. eapply Permutation_in in Hk; [|apply Permutation_map, HF]. unfold with_keys in Hk. rewrite map_map in Hk. cbn [fst] in Hk.
    apply table_incl in Hk. unfold ids in Hk. now rewrite map_map in Hk.
Qed.

Lemma xor_rogue0 {B} (q : proc B) is_and order keys : fair order -> by_keys order -> exists S, NoDup S /\ incl S (map fst keys) /\
  forall total total' stream stream' subs subs' junk junk',
    arrives int_wire total stream subs -> arrives int_wire total' stream' subs' ->
    Forall (fun s => word (snd s)) subs -> Forall (fun s => word (snd s)) subs' ->
    length junk = 40%nat -> length junk' = 40%nat -> ids any subs = keys -> ids any subs' = keys ->
    zxors (map (own any subs 0) S) = zxors (map (own any subs' 0) S) ->
    same_to false q (xor_op true order is_and total stream junk) (xor_op true order is_and total' stream' junk').
Proof.
  intros HF HK.
  set (kt := with_keys 0 keys). destruct (emits_announce (order Z kt)) as (bs & Em).
  set (K := map fst (order Z kt)). set (ov := told (fst (course q bs)) (length K)).
  destruct (keys_order 0 order keys HF) as [KN KI].
  exists (pick K ov). split; [now apply pick_nodup|]. split; [intros k Hk; now apply KI, (pick_incl K ov)|].
  intros total total' stream stream' subs subs' junk junk' A0 A0' W W' J J' E E' X.
  rewrite (xor_op_eq true _ _ _ _ subs), (xor_op_eq true _ _ _ _ subs') by auto. unfold xor_op1. cbv zeta.
  pose proof (key_order_eq order 0 any subs keys HK E) as O. pose proof (key_order_eq order 0 any subs' keys HK E') as O'.
  change (key_order order 0 keys) with K in O, O'.
  pose proof (order_from any order subs HF) as Fr. pose proof (order_from any order subs' HF) as Fr'.
  set (l := order Z (table_of any subs)) in *. set (l' := order Z (table_of any subs')) in *.
  rewrite (announce_same l (order Z kt)), (announce_same l' (order Z kt)) by assumption.
  assert (Ll : length l = length K) by (rewrite <- O; now rewrite map_length). assert (Ll' : length l' = length K) by (rewrite <- O'; now rewrite map_length).
  rewrite Ll, Ll'. apply (staged false q _ _ (recv_bool_batch (length K)) (announce (order Z kt)) bs); [exact Em|apply listens_bools|].
  intros v rest Ef. left. assert (Ev : v = ov) by (unfold ov, told; now rewrite Ef). subst v.
  rewrite (xor_picked any subs l ov 0 Fr), (xor_picked any subs' l' ov 0 Fr'). rewrite O, O', !Z.lxor_0_l, X. unfold send_uint64. cbn [bind]. apply eqv_send, eqv_end; exact I.
Qed.

Lemma max_rogue0 {B0} (q : proc B0) is_max B order keys : fair order -> by_keys order -> exists S, NoDup S /\ incl S (map fst keys) /\
  forall total total' stream stream' subs subs' pk0 pk0' junk junk',
    arrives max_wire total stream subs -> arrives max_wire total' stream' subs' -> rows_ok B subs -> rows_ok B subs' ->
    Z.of_nat total * (Z.of_nat B + 1) < two32 -> Z.of_nat total' * (Z.of_nat B + 1) < two32 ->
    length pk0 = 32%nat -> length pk0' = 32%nat ->
    (forall i, length (junk i) = (8 * (B + 1))%nat) -> (forall i, length (junk' i) = (8 * (B + 1))%nat) ->
    ids any subs = keys -> ids any subs' = keys ->
    (forall j, (j <= B)%nat -> zxors (map (fun pk => nth j (own any subs [] pk) 0) S) = zxors (map (fun pk => nth j (own any subs' [] pk) 0) S)) ->
    same_to false q (max_op true order is_max B total stream pk0 junk) (max_op true order is_max B total' stream' pk0' junk').
Proof.
  intros HF HK.
  set (kt := with_keys (@nil Z) keys). destruct (emits_announce (order (list Z) kt)) as (bs & Em).
  set (K := map fst (order (list Z) kt)). set (ov := told (fst (course q bs)) (length K)).
  destruct (keys_order (@nil Z) order keys HF) as [KN KI].
  exists (pick K ov). split; [now apply pick_nodup|]. split; [intros k Hk; now apply KI, (pick_incl K ov)|].
  intros total total' stream stream' subs subs' pk0 pk0' junk junk' A0 A0' W W' T T' P P' J J' E E' X.
  rewrite (max_op_eq true _ _ _ _ _ subs), (max_op_eq true _ _ _ _ _ subs') by auto. unfold max_op1. cbv zeta.
  pose proof (key_order_eq order [] any subs keys HK E) as O. pose proof (key_order_eq order [] any subs' keys HK E') as O'.
  change (key_order order [] keys) with K in O, O'.
  pose proof (order_from any order subs HF) as Fr. pose proof (order_from any order subs' HF) as Fr'.
  assert (Rl : Forall (fun e => length (snd e) = (B + 1)%nat) (order _ (table_of any subs))).
  { apply fair_forall; [exact HF|]. eapply Forall_impl; [|exact (rows_table B subs W)]. intros e He. apply He. }
  assert (Rl' : Forall (fun e => length (snd e) = (B + 1)%nat) (order _ (table_of any subs'))).
  { apply fair_forall; [exact HF|]. eapply Forall_impl; [|exact (rows_table B subs' W')]. intros e He. apply He. }
  set (l := order (list Z) (table_of any subs)) in *. set (l' := order (list Z) (table_of any subs')) in *.
  rewrite (announce_same l (order _ kt)), (announce_same l' (order _ kt)) by assumption.
  assert (Ll : length l = length K) by (rewrite <- O; now rewrite map_length). assert (Ll' : length l' = length K) by (rewrite <- O'; now rewrite map_length).
  rewrite Ll, Ll'. apply (staged false q _ _ (recv_bool_batch (length K)) (announce (order _ kt)) bs); [exact Em|apply listens_bools|].
  intros v rest Ef. left. assert (Ev : v = ov) by (unfold ov, told; now rewrite Ef). subst v.
  destruct (row_picked any subs B l ov (repeat 0 (B + 1)) Fr Rl (repeat_length _ _)) as [L1 N1].
  destruct (row_picked any subs' B l' ov (repeat 0 (B + 1)) Fr' Rl' (repeat_length _ _)) as [L2 N2].
  assert (Er : fold_left (fun b ev => if snd ev : bool then xor_row b (snd (fst ev)) else b) (combine l ov) (repeat 0 (B + 1)) =
               fold_left (fun b ev => if snd ev : bool then xor_row b (snd (fst ev)) else b) (combine l' ov) (repeat 0 (B + 1))).
  { apply (nth_same (B + 1)); auto. intros j Hj. rewrite N1, N2, O, O', X by lia. reflexivity. }
  rewrite Er. unfold send_uint64_batch. cbn [bind]. apply eqv_send, eqv_end; exact I.
Qed.

(** ** BIT_SUM, INT_SUM: server 0 puts two numbers to every bit *)
Definition offered (t : transfer) : list (Z * Z) := match t with Some (_, inr ps) => ps | _ => [] end.
Lemma fold_all (r : list Z) : fold_left (fun s x => reduce 0 (u64 (s + x))) r 0 = u64 (zsum r).
Proof. change 0 with (u64 0) at 2. unfold reduce. cbn [Z.eqb]. now rewrite fold_u64_sum. Qed.
Lemma map_own {V} (ok : V -> bool) subs d l : from (table_of ok subs) l -> map snd l = map (own ok subs d) (map fst l).
Proof. induction 1 as [|e l H F IH]; cbn [map]; [reflexivity|]. now rewrite IH, (own_from ok subs d e H). Qed.

Lemma bit_rogue0 {B} (q : proc B) order keys : fair order -> by_keys order -> exists K ps, NoDup K /\ incl K (map fst keys) /\
  forall total total' stream stream' subs subs' junk junk' rnd rnd',
    arrives bit_wire total stream subs -> arrives bit_wire total' stream' subs' ->
    length junk = 33%nat -> length junk' = 33%nat -> ids any subs = keys -> ids any subs' = keys ->
    zsum (map2 ot_select (map (own any subs false) K) ps) mod two64 = zsum (map2 ot_select (map (own any subs' false) K) ps) mod two64 ->
    same_to false q (bit_sum true order total stream junk rnd) (bit_sum true order total' stream' junk' rnd').
Proof.
  intros HF HK. set (kt := with_keys false keys). destruct (emits_announce (order bool kt)) as (bs & Em).
  destruct (keys_order false order keys HF) as [KN KI]. set (K := key_order order false keys) in *.
  exists K, (offered (snd (course q bs))). split; [exact KN|]. split; [exact KI|].
  intros total total' stream stream' subs subs' junk junk' rnd rnd' A0 A0' J J' E E' X.
  rewrite (bit_sum_eq true _ _ _ subs), (bit_sum_eq true _ _ _ subs') by auto. unfold bit_sum1. cbv zeta.
  pose proof (key_order_eq order false any subs keys HK E) as O. pose proof (key_order_eq order false any subs' keys HK E') as O'. fold K in O, O'.
  pose proof (order_from any order subs HF) as Fr. pose proof (order_from any order subs' HF) as Fr'.
  set (l := order bool (table_of any subs)) in *. set (l' := order bool (table_of any subs')) in *.
  rewrite (announce_same l (order bool kt)), (announce_same l' (order bool kt)) by assumption.
  rewrite (map_own any subs false l Fr), (map_own any subs' false l' Fr'), O, O'.
  apply (staged false q (fun _ : unit => b <- bitsum_ot_receiver false (map (own any subs false) K) 0 ;; send_uint64 b ;;; Ret RET_NO_ANS)
    (fun _ : unit => b <- bitsum_ot_receiver false (map (own any subs' false) K) 0 ;; send_uint64 b ;;; Ret RET_NO_ANS) (Ret tt) (announce (order bool kt)) bs);
    [exact Em|exact I|].
  intros v rest _. right; right. unfold bitsum_ot_receiver. cbn [bind].
  eexists false, _, _, _, _. split; [reflexivity|]. split; [reflexivity|]. split; [now rewrite !map_length|].
  intros ps Et _. rewrite Et in X. cbn [offered] in X. rewrite !fold_all. unfold u64. rewrite X. unfold send_uint64. cbn [bind].
  apply eqv_send, eqv_end; exact I.
Qed.

Lemma cong_mod m a b : cong m a b -> a mod m = b mod m. Proof. now intros H; apply cong_iff. Qed.
Lemma recv_acc_all r : intsum_recv_acc 0 r = u64 (zsum r). Proof. apply fold_all. Qed.
Lemma zsum_concat (ls : list (list Z)) : zsum (concat ls) = zsum (map zsum ls).
Proof. induction ls as [|a ls IH]; [reflexivity|]. cbn [concat map]. rewrite zsum_app, zsum_cons, IH. reflexivity. Qed.
Lemma zsum_u64 (f : list Z -> Z) ls : zsum (map (fun x => u64 (f x)) ls) mod two64 = zsum (map f ls) mod two64.
Proof.
  induction ls as [|a ls IH]; [reflexivity|]. cbn [map]. rewrite !zsum_cons. unfold u64 at 1. rewrite Zplus_mod_idemp_l, <- Zplus_mod_idemp_r, IH, Zplus_mod_idemp_r.
  reflexivity.
Qed.
Lemma int_all nb n r : length r = (n * nb)%nat ->
  sum_col0 (map (fun rr => map (intsum_recv_acc 0) (pieces [nb] rr)) (chunks n nb r)) = zsum r mod two64.
Proof.
  intros L. rewrite sum_col0_zsum, map_map.
  assert (C : Forall (fun c => length c = nb) (chunks n nb r)) by (apply chunks_each; lia).
  rewrite (map_ext_in _ (fun rr => u64 (zsum rr))).
  - rewrite zsum_u64, <- zsum_concat, SecretFacts.concat_chunks by lia. rewrite <- L, firstn_all. reflexivity.
  - intros rr H. rewrite Forall_forall in C. specialize (C rr H). cbn [pieces map nth]. rewrite recv_acc_all, <- C, firstn_all. reflexivity.
Qed.

Lemma int_choices nb xs : intsum_choices [nb] (map (fun x => [x]) xs) = flat_map (low_bits nb) xs.
Proof.
  unfold intsum_choices. rewrite map_map. cbn [map2 concat]. rewrite flat_map_concat_map. f_equal. apply map_ext. intros x.
  rewrite app_nil_r. unfold low_bits. now rewrite testbits_recv.
Qed.
Lemma low_bits_length nb xs : length (flat_map (low_bits nb) xs) = (length xs * nb)%nat.
Proof. induction xs as [|x xs IH]; [reflexivity|]. cbn [flat_map length]. rewrite app_length, IH. unfold low_bits. rewrite map_length, seq_length. lia. Qed.
Lemma map2_len {X Y W} (f : X -> Y -> W) : forall a b, length a = length b -> length (map2 f a b) = length a.
Proof. induction a as [|x a IH]; intros [|y b] L; try discriminate; [reflexivity|]. cbn in *. f_equal. apply IH. lia. Qed.

Lemma int_rogue0 {B} (q : proc B) nb order keys : (nb <= 63)%nat -> fair order -> by_keys order -> exists K ps, NoDup K /\ incl K (map fst keys) /\
  forall total total' stream stream' subs subs' junk junk' rnd rnd',
    arrives int_wire total stream subs -> arrives int_wire total' stream' subs' ->
    Forall (fun s => word (snd s)) subs -> Forall (fun s => word (snd s)) subs' ->
    length junk = 40%nat -> length junk' = 40%nat -> ids (fits nb) subs = keys -> ids (fits nb) subs' = keys ->
    zsum (map2 ot_select (flat_map (low_bits nb) (map (own (fits nb) subs 0) K)) ps) mod two64 =
    zsum (map2 ot_select (flat_map (low_bits nb) (map (own (fits nb) subs' 0) K)) ps) mod two64 ->
    same_to false q (int_sum true order nb total stream junk rnd) (int_sum true order nb total' stream' junk' rnd').
Proof.
  intros HB HF HK. set (kt := with_keys 0 keys). destruct (emits_announce (order Z kt)) as (bs & Em).
  destruct (keys_order 0 order keys HF) as [KN KI]. set (K := key_order order 0 keys) in *.
  exists K, (offered (snd (course q bs))). split; [exact KN|]. split; [exact KI|].
  intros total total' stream stream' subs subs' junk junk' rnd rnd' A0 A0' W W' J J' E E' X.
  rewrite (int_sum_eq true _ _ _ _ subs), (int_sum_eq true _ _ _ _ subs') by auto. unfold int_sum1. cbv zeta.
  pose proof (key_order_eq order 0 (fits nb) subs keys HK E) as O. pose proof (key_order_eq order 0 (fits nb) subs' keys HK E') as O'. fold K in O, O'.
  pose proof (order_from (fits nb) order subs HF) as Fr. pose proof (order_from (fits nb) order subs' HF) as Fr'.
  set (l := order Z (table_of (fits nb) subs)) in *. set (l' := order Z (table_of (fits nb) subs')) in *.
  rewrite (announce_same l (order Z kt)), (announce_same l' (order Z kt)) by assumption.
  rewrite <- (map_map snd (fun x => [x]) l), <- (map_map snd (fun x => [x]) l').
  rewrite (map_own (fits nb) subs 0 l Fr), (map_own (fits nb) subs' 0 l' Fr'), O, O'.
  apply (staged false q
    (fun _ : unit => b_all <- intsum_ot_receiver false (map (fun x => [x]) (map (own (fits nb) subs 0) K)) [nb] 0 ;; send_uint64 (sum_col0 b_all) ;;; Ret RET_NO_ANS)
    (fun _ : unit => b_all <- intsum_ot_receiver false (map (fun x => [x]) (map (own (fits nb) subs' 0) K)) [nb] 0 ;; send_uint64 (sum_col0 b_all) ;;; Ret RET_NO_ANS)
    (Ret tt) (announce (order Z kt)) bs); [exact Em|exact I|].
  intros v rest _. right; right. unfold intsum_ot_receiver. rewrite !int_choices, !map_length. cbn [bind]. unfold OT.total. cbn [fold_right]. rewrite Nat.add_0_r.
  eexists false, _, _, _, _. split; [reflexivity|]. split; [reflexivity|]. split; [now rewrite !low_bits_length, !map_length|].
  intros ps Et Lp. rewrite Et in X. cbn [offered] in X. rewrite low_bits_length, map_length in Lp.
  rewrite !int_all by (rewrite map2_len; rewrite ?low_bits_length, ?map_length; auto). rewrite X. unfold send_uint64. cbn [bind].
  apply eqv_send, eqv_end; exact I.
Qed.
