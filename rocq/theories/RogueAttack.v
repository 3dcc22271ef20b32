(** * Server 0 departs from the code: programs that find out shares of single clients *)
From Coq Require Import ZArith List Bool Lia Permutation.
From Verif Require Import Words WordsFacts Constants Share Proc ProcFacts Net NetFacts SpecNet Cong RelFacts OT OTFacts MpcFacts ServerOps SpecServer SpecPrivacy
  TableFacts ServerFacts ServerProps ClientFacts ViewFacts SecretFacts PrivacyProof SpecPeer PeerFacts PeerProps SpecRogue RogueFacts RogueProps Rogue0.
Import ListNotations.
Open Scope Z_scope.

(** ** Digits *)
Fixpoint number (b : Z) (xs : list Z) : Z := match xs with [] => 0 | x :: xs' => x + b * number b xs' end.
Lemma number_range b xs : 1 < b -> Forall (fun x => 0 <= x < b) xs -> 0 <= number b xs < b ^ Z.of_nat (length xs).
Proof.
  intros Hb. induction 1 as [|x xs Hx H IH]; [cbn; lia|]. cbn [number length]. rewrite Nat2Z.inj_succ, Z.pow_succ_r by lia.
  set (y := number b xs) in *. set (z := b ^ Z.of_nat (length xs)) in *. nia.
Qed.
Lemma digits_number b xs : 1 < b -> Forall (fun x => 0 <= x < b) xs -> digits b (length xs) (number b xs) = xs.
Proof.
  intros Hb. induction 1 as [|x xs Hx H IH]; [reflexivity|]. cbn [number length digits].
  rewrite (Z.mul_comm b), Z.mod_add, Z.div_add, Z.mod_small, Z.div_small, Z.add_0_l by lia. now rewrite IH.
Qed.

(** A sum of weights has as its digits what is weighted. *)
Lemma weighted {E} (f : E -> Z) (key : E -> list Z) b (l : list E) : forall want,
  zsum (map (fun e => f e * weight b want (key e)) l) = number b (map (fun k => zsum (map (fun e => if key_eqb k (key e) then f e else 0) l)) want).
Proof.
  induction want as [|k want IH]; cbn [weight map number].
  - induction l as [|e l IHl]; [reflexivity|]. cbn [map]. rewrite zsum_cons, IHl. ring.
  - rewrite <- IH. clear IH. induction l as [|e l IHl]; [cbn; ring|]. cbn [map]. rewrite !zsum_cons, IHl. destruct (key_eqb k (key e)); ring.
Qed.
Lemma key_eqb_true a b : key_eqb a b = true <-> a = b.
Proof. unfold key_eqb. destruct (list_eq_dec Z.eq_dec a b); split; congruence. Qed.
Lemma zsum_absent {V} (f : V -> Z) k (l : table V) : ~ In k (map fst l) -> zsum (map (fun e => if key_eqb k (fst e) then f (snd e) else 0) l) = 0.
Proof.
  induction l as [|e l IH]; intros N; [reflexivity|]. cbn [map] in *. rewrite zsum_cons, IH by (intros I; apply N; now right).
  destruct (key_eqb k (fst e)) eqn:E; [|reflexivity]. apply key_eqb_true in E. elim N. now left.
Qed.
Lemma zsum_present {V} (f : V -> Z) k v (l : table V) : NoDup (map fst l) -> In (k, v) l ->
  zsum (map (fun e => if key_eqb k (fst e) then f (snd e) else 0) l) = f v.
Proof.
  induction l as [|e l IH]; intros N I; [easy|]. inversion N; subst. cbn [map]. rewrite zsum_cons. destruct I as [->|I].
  - cbn [fst snd]. rewrite (proj2 (key_eqb_true k k) eq_refl), zsum_absent by auto. ring.
  - destruct (key_eqb k (fst e)) eqn:E; [|rewrite IH; auto]. apply key_eqb_true in E. subst k. elim H1. apply in_map_iff. now exists (fst e, v).
Qed.

Section Order.
Context {V : Type}.
Variables (ok : V -> bool) (subs : list (list Z * V)) (order : iteration).
Hypothesis HF : fair order.
Let l := order V (table_of ok subs).

Lemma order_own (f : V -> Z) d k : f d = 0 -> zsum (map (fun e => if key_eqb k (fst e) then f (snd e) else 0) l) = f (own ok subs d k).
Proof.
  intros Hd. unfold own. destruct (first_sub ok subs k) as [v|] eqn:E.
  - apply zsum_present; [apply order_nodup, HF|]. rewrite <- table_find in E. apply find_in in E.
    eapply Permutation_in; [symmetry; apply HF|exact E].
  - rewrite Hd. apply zsum_absent. intros I. apply in_map_iff in I. destruct I as (e & <- & I).
    pose proof (order_from ok order subs HF) as Fr. unfold from in Fr. rewrite Forall_forall in Fr. specialize (Fr e I). rewrite table_find in Fr. congruence.
Qed.
Lemma order_keys : pks_ok subs -> Forall (fun e => length (fst e) = 32%nat) l.
Proof. intros H. apply fair_forall; [exact HF|]. apply (table_keys ok subs H). Qed.
End Order.

Lemma picked_bits {V} (w : V -> Z) (wt : list Z -> Z) (bits : V -> list bool) (msgs : list Z -> list (Z * Z)) (l : table V) :
  (forall e, In e l -> length (bits (snd e)) = length (msgs (fst e))) ->
  (forall e, In e l -> zsum (map2 ot_select (bits (snd e)) (msgs (fst e))) = w (snd e) * wt (fst e)) ->
  zsum (map2 ot_select (flat_map bits (map snd l)) (flat_map msgs (map fst l))) = zsum (map (fun e => w (snd e) * wt (fst e)) l).
Proof.
  intros L H. induction l as [|e l IH]; [reflexivity|]. cbn [map flat_map].
  rewrite map2_split, zsum_app. specialize (L e (or_introl eq_refl)) as Le. specialize (H e (or_introl eq_refl)) as He.
  rewrite <- Le, firstn_app, firstn_all, Nat.sub_diag, skipn_app, skipn_all, Nat.sub_diag. cbn [firstn skipn app]. rewrite app_nil_r.
  rewrite He, zsum_cons, IH; [reflexivity|intros; apply L; now right|intros; apply H; now right].
Qed.

(** ** BIT_SUM *)
Lemma flat_single {X Y} (f : X -> Y) l : flat_map (fun x => [f x]) l = map f l.
Proof. induction l; cbn; congruence. Qed.

Lemma bit_spied want order total stream subs junk rnd : fair order -> arrives bit_wire total stream subs -> length junk = 33%nat ->
  (length want <= 64)%nat ->
  both (spy_bits want) (bit_sum true order total stream junk rnd) (fun r _ => r = map (fun pk => b2z (own any subs false pk)) want).
Proof.
  intros HF A J HW. rewrite (bit_sum_eq true _ _ _ subs) by auto. destruct A as (rest & _ & _ & Pk & Hs).
  apply rel_both. unfold spy_bits, bit_sum1. cbv zeta.
  pose proof (fun k => order_own any subs order HF b2z false k eq_refl) as OW. pose proof (order_keys any subs order HF Pk) as OK.
  assert (LL : Z.of_nat (length (order _ (table_of any subs))) < two32).
  { rewrite fair_length by auto. pose proof (table_length any subs). lia. }
  set (l := order bool (table_of any subs)) in *.
  eapply rel_deliver'. { apply delivers_announce; auto. }
  unfold bitsum_ot_receiver. cbn [bind]. eapply rel_ot; [now rewrite !map_length|].
  rewrite fold_all.
  assert (E : zsum (map2 ot_select (map snd l) (map (fun pk => (0, weight 2 want pk)) (map fst l))) = number 2 (map (fun pk => b2z (own any subs false pk)) want)).
  { rewrite <- (flat_single (fun pk => (0, weight 2 want pk))).
    replace (map snd l) with (flat_map (fun x : bool => [x]) (map snd l)) by (rewrite flat_single; apply map_id).
    rewrite (picked_bits b2z (weight 2 want)); [|reflexivity|].
    - rewrite (weighted (fun e => b2z (snd e)) fst). f_equal. apply map_ext. exact OW.
    - intros e _. cbn [map2]. rewrite zsum_cons. cbn [zsum fold_right]. unfold ot_select. cbn [fst snd]. destruct (snd e); cbn [b2z]; lia. }
  rewrite E. set (xs := map (fun pk => b2z (own any subs false pk)) want).
  assert (X : Forall (fun x => 0 <= x < 2) xs).
  { apply Forall_map, Forall_forall. intros k _. destruct (own any subs false k); cbn; lia. }
  pose proof (number_range 2 xs ltac:(lia) X) as R. unfold xs in R at 3. rewrite map_length in R.
  assert (R2 : 2 ^ Z.of_nat (length want) <= two64) by (change two64 with (2 ^ 64); apply Z.pow_le_mono_r; lia).
  eapply rel_deliver'. { apply delivers_uint64. apply Z.mod_pos_bound. reflexivity. }
  apply rel_ret. unfold u64. rewrite Z.mod_small by lia. rewrite <- (map_length (fun pk => b2z (own any subs false pk)) want). now apply digits_number.
Qed.

(** ** INT_SUM *)
Lemma low_bits_sum x w : forall nb s, 0 <= x ->
  zsum (map2 ot_select (map (fun j => Z.testbit x (Z.of_nat j)) (seq s nb)) (map (fun j => (0, w * 2 ^ Z.of_nat j)) (seq s nb))) =
  2 ^ Z.of_nat s * ((x / 2 ^ Z.of_nat s) mod 2 ^ Z.of_nat nb) * w.
Proof.
  induction nb as [|nb IH]; intros s Hx; [cbn; now rewrite Z.mod_1_r, Z.mul_0_r|]. cbn [seq map map2]. rewrite zsum_cons, IH by auto.
  rewrite !Nat2Z.inj_succ, !Z.pow_succ_r by lia. rewrite (Z.mul_comm 2 (2 ^ Z.of_nat s)), <- Z.div_div by lia.
  set (y := x / 2 ^ Z.of_nat s). set (S0 := 2 ^ Z.of_nat s).
  assert (T : (if Z.testbit x (Z.of_nat s) then 1 else 0) = y mod 2).
  { unfold y. pose proof (Z.testbit_spec' x (Z.of_nat s) ltac:(lia)) as T. rewrite <- T. now destruct (Z.testbit x (Z.of_nat s)). }
  unfold ot_select. cbn [fst snd].
  rewrite (Z.rem_mul_r y 2 (2 ^ Z.of_nat nb)) by (try lia; apply Z.pow_pos_nonneg; lia). rewrite <- T.
  destruct (Z.testbit x (Z.of_nat s)); ring.
Qed.
Lemma low_bits_val nb x w : 0 <= x < 2 ^ Z.of_nat nb ->
  zsum (map2 ot_select (low_bits nb x) (map (fun j => (0, w * 2 ^ Z.of_nat j)) (seq 0 nb))) = x * w.
Proof. intros H. unfold low_bits. rewrite low_bits_sum by lia. cbn [Z.of_nat]. rewrite Z.div_1_r, Z.mod_small by lia. ring. Qed.

Lemma flat_length {X Y} (f : X -> list Y) n l : (forall x, length (f x) = n) -> length (flat_map f l) = (length l * n)%nat.
Proof. intros H. induction l as [|x l IH]; [reflexivity|]. cbn [flat_map length]. rewrite app_length, H, IH. lia. Qed.

Lemma int_spied nb want order total stream subs junk rnd : (1 <= nb <= 63)%nat -> fair order -> arrives int_wire total stream subs ->
  Forall (fun s => word (snd s)) subs -> length junk = 40%nat -> (length want * nb <= 64)%nat ->
  both (spy_ints nb want) (int_sum true order nb total stream junk rnd) (fun r _ => r = map (own (fits nb) subs 0) want).
Proof.
  intros HB HF A W J HW. rewrite (int_sum_eq true _ _ _ _ subs) by (auto; lia). destruct A as (rest & _ & _ & Pk & Hs).
  apply rel_both. unfold spy_ints, int_sum1. cbv zeta.
  pose proof (fun k => order_own (fits nb) subs order HF (fun x => x) 0 k eq_refl) as OW. pose proof (order_keys (fits nb) subs order HF Pk) as OK.
  assert (LL : Z.of_nat (length (order _ (table_of (fits nb) subs))) < two32).
  { rewrite fair_length by auto. pose proof (table_length (fits nb) subs). lia. }
  assert (Vl : Forall (fun e => 0 <= snd e < 2 ^ Z.of_nat nb) (order _ (table_of (fits nb) subs))) by (apply fair_forall; auto using fits_table).
  assert (X : Forall (fun x => 0 <= x < 2 ^ Z.of_nat nb) (map (own (fits nb) subs 0) want)).
  { apply Forall_map, Forall_forall. intros k _. unfold own. destruct (first_sub (fits nb) subs k) as [v|] eqn:E.
    - rewrite <- table_find in E. exact (find_forall (fun v => 0 <= v < 2 ^ Z.of_nat nb) _ k v (fits_table nb subs W) E).
    - split; [lia|]. apply Z.pow_pos_nonneg; lia. }
  set (l := order Z (table_of (fits nb) subs)) in *. set (b := 2 ^ Z.of_nat nb) in *.
  assert (b1 : 1 < b) by (unfold b; apply Z.pow_gt_1; lia).
  eapply rel_deliver'. { apply delivers_announce; auto. }
  unfold intsum_ot_receiver. rewrite <- (map_map snd (fun x => [x]) l), int_choices, !map_length. cbn [bind]. unfold OT.total. cbn [fold_right]. rewrite Nat.add_0_r.
  assert (ML : length (flat_map (fun pk => map (fun j => (0, weight b want pk * 2 ^ Z.of_nat j)) (seq 0 nb)) (map fst l)) = (length l * nb)%nat).
  { rewrite (flat_length _ nb); [now rewrite map_length|]. intros. now rewrite map_length, seq_length. }
  assert (CL : length (flat_map (low_bits nb) (map snd l)) = (length l * nb)%nat) by now rewrite low_bits_length, map_length.
  eapply rel_ot; [congruence|].
  rewrite int_all by (rewrite map2_len; congruence).
  assert (E : zsum (map2 ot_select (flat_map (low_bits nb) (map snd l))
     (flat_map (fun pk => map (fun j => (0, weight b want pk * 2 ^ Z.of_nat j)) (seq 0 nb)) (map fst l))) = number b (map (own (fits nb) subs 0) want)).
  { rewrite (picked_bits (fun x => x) (weight b want)).
    - rewrite (weighted (fun e => snd e) fst). f_equal. apply map_ext. exact OW.
    - intros e _. unfold low_bits. now rewrite !map_length.
    - intros e He. rewrite Forall_forall in Vl. apply low_bits_val. now apply Vl. }
  rewrite E. set (xs := map (own (fits nb) subs 0) want) in *.
  pose proof (number_range b xs b1 X) as R. unfold xs in R at 3. rewrite map_length in R.
  assert (R2 : b ^ Z.of_nat (length want) <= two64).
  { unfold b. rewrite <- Z.pow_mul_r by lia. change two64 with (2 ^ 64). apply Z.pow_le_mono_r; nia. }
  eapply rel_deliver'. { apply delivers_uint64. apply Z.mod_pos_bound. reflexivity. }
  apply rel_ret. rewrite Z.mod_small by lia. rewrite <- (map_length (own (fits nb) subs 0) want). now apply digits_number.
Qed.

(** ** AND, OR, MAX, MIN *)
Lemma pick_one : forall K pk, NoDup K -> In pk K -> pick K (map (fun k => key_eqb k pk) K) = [pk].
Proof.
  unfold pick. induction K as [|k K IH]; intros pk N I; [easy|]. inversion N; subst. cbn [map combine filter snd].
  destruct (key_eqb k pk) eqn:E.
  - apply key_eqb_true in E. subst k. cbn [map fst]. f_equal. clear -H1. induction K as [|k K IH]; [reflexivity|]. cbn [map combine filter snd].
    destruct (key_eqb k pk) eqn:E; [apply key_eqb_true in E; subst; elim H1; now left|]. apply IH. intros I. apply H1. now right.
  - destruct I as [->|I]; [|now apply IH]. exfalso. now rewrite (proj2 (key_eqb_true pk pk) eq_refl) in E.
Qed.
Lemma first_in {V} (ok : V -> bool) subs order pk v : fair order -> first_sub ok subs pk = Some v -> In pk (map fst (order V (table_of ok subs))).
Proof.
  intros HF E. rewrite <- table_find in E. apply find_in in E. apply in_map_iff. exists (pk, v). split; [reflexivity|].
  eapply Permutation_in; [symmetry; apply HF|exact E].
Qed.

Lemma xor_spied pk v is_and order total stream subs junk : fair order -> arrives int_wire total stream subs ->
  Forall (fun s => word (snd s)) subs -> length junk = 40%nat -> first_sub any subs pk = Some v ->
  both (spy_xor pk) (xor_op true order is_and total stream junk) (fun r _ => r = v).
Proof.
  intros HF A W J E. rewrite (xor_op_eq true _ _ _ _ subs) by auto. destruct A as (rest & _ & _ & Pk & Hs).
  apply rel_both. unfold spy_xor, xor_op1. cbv zeta.
  pose proof (order_keys any subs order HF Pk) as OK. pose proof (order_from any order subs HF) as Fr. pose proof (order_nodup any order subs HF) as ON.
  pose proof (first_in any subs order pk v HF E) as OI.
  assert (LL : Z.of_nat (length (order _ (table_of any subs))) < two32).
  { rewrite fair_length by auto. pose proof (table_length any subs). lia. }
  assert (Wv : word v).
  { pose proof E as E'. rewrite <- table_find in E'. exact (find_forall word _ pk v (word_table any subs W) E'). }
  set (l := order Z (table_of any subs)) in *.
  eapply rel_deliver'. { apply delivers_announce; auto. }
  eapply rel_deliver.
  { eapply delivers_eq; [|reflexivity].
    match goal with |- delivers (send_bool_batch ?v) (recv_bool_batch ?n) _ => replace n with (length v) by now rewrite !map_length end.
    apply delivers_bool_batch. }
  rewrite (xor_picked any subs l _ 0 Fr), pick_one by auto. cbn [map zxors fold_right]. unfold own. rewrite E, Z.lxor_0_r, Z.lxor_0_l.
  eapply rel_deliver'. { now apply delivers_uint64. }
  now apply rel_ret.
Qed.

Lemma max_spied pk v is_max B order total stream subs pk0 junk : fair order -> arrives max_wire total stream subs -> rows_ok B subs ->
  Z.of_nat total * (Z.of_nat B + 1) < two32 -> length pk0 = 32%nat -> (forall i, length (junk i) = (8 * (B + 1))%nat) ->
  first_sub any subs pk = Some v ->
  both (spy_max B pk) (max_op true order is_max B total stream pk0 junk) (fun r _ => r = v).
Proof.
  intros HF A W T P J E. rewrite (max_op_eq true _ _ _ _ _ subs) by auto. destruct A as (rest & _ & _ & Pk & Hs).
  apply rel_both. unfold spy_max, max_op1. cbv zeta.
  pose proof (order_keys any subs order HF Pk) as OK. pose proof (order_from any order subs HF) as Fr. pose proof (order_nodup any order subs HF) as ON.
  pose proof (first_in any subs order pk v HF E) as OI.
  assert (LL : Z.of_nat (length (order _ (table_of any subs))) < two32).
  { rewrite fair_length by auto. pose proof (table_length any subs). lia. }
  assert (Rl : Forall (fun e => length (snd e) = (B + 1)%nat) (order _ (table_of any subs))).
  { apply fair_forall; [exact HF|]. eapply Forall_impl; [|exact (rows_table B subs W)]. intros e He. apply He. }
  assert (Wv : length v = (B + 1)%nat /\ Forall word v).
  { pose proof E as E'. rewrite <- table_find in E'. exact (find_forall (fun v => length v = (B + 1)%nat /\ Forall word v) _ pk v (rows_table B subs W) E'). }
  destruct Wv as [Lv Wv].
  set (l := order (list Z) (table_of any subs)) in *.
  eapply rel_deliver'. { apply delivers_announce; auto. }
  eapply rel_deliver.
  { eapply delivers_eq; [|reflexivity].
    match goal with |- delivers (send_bool_batch ?v) (recv_bool_batch ?n) _ => replace n with (length v) by now rewrite !map_length end.
    apply delivers_bool_batch. }
  destruct (row_picked any subs B l (map (fun k => key_eqb k pk) (map fst l)) (repeat 0 (B + 1)) Fr Rl (repeat_length _ _)) as [L1 N1].
  set (r := fold_left _ _ _) in *. rewrite pick_one in N1 by auto. 
  assert (Er : r = v).
  { apply (nth_same (B + 1)); auto. intros j Hj. rewrite N1. cbn [map zxors fold_right]. unfold own. rewrite E, Z.lxor_0_r.
    replace (nth j (repeat 0 (B + 1)) 0) with 0; [apply Z.lxor_0_l|]. symmetry. apply nth_repeat. }
  rewrite Er. eapply rel_deliver'. { rewrite <- Lv. now apply delivers_uint64_batch. }
  now apply rel_ret.
Qed.
