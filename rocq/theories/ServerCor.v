(** * Consequences: repeated identities, influence of one identity *)
From Coq Require Import ZArith List Bool Lia Permutation.
From Verif Require Import Words WordsFacts Constants Proc ProcFacts Net NetFacts SpecNet RelFacts
  ServerOps SpecServer TableFacts ServerFacts ServerProps.
Import ListNotations.
Open Scope Z_scope.

Lemma repeats_first {V} ok (s s' : list (list Z * V)) : repeats ok s s' ->
  forall pk, first_sub ok s' pk = first_sub ok s pk.
Proof.
  induction 1 as [|a k v b v' c H IH E]; auto. intros pk. rewrite <- IH.
  rewrite !first_sub_app. destruct (first_sub ok a pk); auto. cbn. rewrite E.
  destruct (key_eqb k pk) eqn:K; cbn; auto.
  rewrite !first_sub_app. destruct (first_sub ok b pk); auto. cbn. now rewrite K.
Qed.

Lemma repeats_accepted {V} ok (s0 s0' s1 s1' : list (list Z * V)) L :
  repeats ok s0 s0' -> repeats ok s1 s1' -> accepted ok s0 s1 L -> accepted ok s0' s1' L.
Proof.
  intros R0 R1 [N H]. split; auto. intros pk.
  rewrite (repeats_first ok s0 s0'), (repeats_first ok s1 s1') by auto. apply H.
Qed.

Lemma repeats_combined {V X} ok (f : V -> V -> X) d (s0 s0' s1 s1' : list (list Z * V)) L :
  repeats ok s0 s0' -> repeats ok s1 s1' ->
  map (combined ok f d s0' s1') L = map (combined ok f d s0 s1) L.
Proof.
  intros R0 R1. apply map_ext. intros pk. unfold combined.
  now rewrite (repeats_first ok s0 s0'), (repeats_first ok s1 s1').
Qed.

Lemma without_first {V} ok pk (s : list (list Z * V)) k :
  first_sub ok (without pk s) k = if key_eqb k pk then None else first_sub ok s k.
Proof.
  induction s as [|[k' v] s IH]; [cbn; now destruct (key_eqb k pk)|].
  unfold without. cbn [filter fst]. fold (without pk s). cbn [first_sub].
  destruct (key_eqb_spec k' pk) as [->|N]; cbn [negb].
  - rewrite IH. destruct (key_eqb_spec k pk) as [E|N']; [reflexivity|].
    destruct (key_eqb_spec pk k); [congruence|auto].
  - cbn [first_sub]. rewrite IH. destruct (key_eqb_spec k pk) as [E|N']; [|reflexivity]. rewrite E.
    destruct (key_eqb_spec k' pk); [congruence|auto].
Qed.

Definition drop (pk : list Z) (L : list (list Z)) : list (list Z) :=
  filter (fun k => negb (key_eqb k pk)) L.

Lemma without_accepted {V} ok pk (s0 s1 : list (list Z * V)) L :
  accepted ok s0 s1 L -> accepted ok (without pk s0) (without pk s1) (drop pk L).
Proof.
  intros [N H]. split; [now apply NoDup_filter'|]. intros k. unfold drop.
  rewrite filter_In, !without_first, H. destruct (key_eqb k pk); cbn; intuition congruence.
Qed.

Lemma without_combined {V X} ok (f : V -> V -> X) d pk (s0 s1 : list (list Z * V)) L :
  map (combined ok f d (without pk s0) (without pk s1)) (drop pk L)
  = map (combined ok f d s0 s1) (drop pk L).
Proof.
  apply map_ext_in. intros k Hk. unfold drop in Hk. apply filter_In in Hk as [_ Hk].
  unfold combined. rewrite !without_first. now destruct (key_eqb k pk).
Qed.

Lemma drop_cases pk L : NoDup L -> (~ In pk L /\ drop pk L = L) \/ Permutation L (pk :: drop pk L).
Proof.
  intros N. destruct (in_dec (list_eq_dec Z.eq_dec) pk L) as [H|H].
  - right. apply NoDup_Permutation; auto.
    + constructor; [|now apply NoDup_filter']. unfold drop. rewrite filter_In, key_eqb_refl. now intros [].
    + intros k. cbn. unfold drop. rewrite filter_In. destruct (key_eqb_spec k pk) as [->|N']; cbn.
      * tauto.
      * intuition congruence.
  - left. split; auto. unfold drop. clear N. induction L as [|k L IH]; auto. cbn.
    destruct (key_eqb_spec k pk) as [->|N']; [elim H; now left|]. cbn. rewrite IH; auto.
    intros H'. apply H. now right.
Qed.

(** Sum with and without an identity. *)
Lemma drop_sum (F : list Z -> Z) pk L bound : NoDup L -> (forall k, 0 <= F k <= bound) ->
  let n := length L in let n' := length (drop pk L) in
  (n' <= n <= n' + 1)%nat /\ 0 <= zsum (map F L) - zsum (map F (drop pk L)) <= bound.
Proof.
  intros N HF. cbv zeta. destruct (drop_cases pk L N) as [[_ ->]|P].
  - specialize (HF pk). lia.
  - rewrite (Permutation_length P) at 1 2. cbn [length].
    rewrite (zsum_permutation _ _ (Permutation_map F P)). cbn [map zsum fold_right].
    fold (zsum (map F (drop pk L))). specialize (HF pk). lia.
Qed.

Lemma combined_bit_range s0 s1 k : 0 <= combined any bit_val 0 s0 s1 k <= 1.
Proof.
  unfold combined, bit_val. destruct (first_sub any s0 k), (first_sub any s1 k); try lia.
  destruct (xorb b b0); cbn; lia.
Qed.

Lemma first_sub_in {V} ok (s : list (list Z * V)) k v : first_sub ok s k = Some v ->
  In (k, v) s /\ ok v = true.
Proof.
  induction s as [|[k' v'] s IH]; cbn; [discriminate|].
  destruct (key_eqb_spec k' k) as [->|]; cbn.
  - destruct (ok v') eqn:E; [intros [= ->]; auto|]. intros H. apply IH in H. tauto.
  - intros H. apply IH in H. tauto.
Qed.

Lemma combined_int_range nb s0 s1 k :
  Forall (fun s => word (snd s)) s0 -> Forall (fun s => word (snd s)) s1 ->
  0 <= combined (fits nb) Z.lxor 0 s0 s1 k <= 2 ^ Z.of_nat nb - 1.
Proof.
  intros W0 W1. assert (0 < 2 ^ Z.of_nat nb) by (apply Z.pow_pos_nonneg; lia).
  unfold combined. destruct (first_sub (fits nb) s0 k) as [a|] eqn:E0; [|lia].
  destruct (first_sub (fits nb) s1 k) as [b|] eqn:E1; [|lia].
  apply first_sub_in in E0 as [I0 F0]. apply first_sub_in in E1 as [I1 F1].
  unfold fits in *. apply Z.ltb_lt in F0, F1. rewrite Forall_forall in W0, W1.
  specialize (W0 _ I0). specialize (W1 _ I1). cbn [snd] in *. unfold word in *.
  pose proof (lxor_lt nb a b). lia.
Qed.

Lemma bit_sum_once order0 order1 total0 total1 total0' total1' stream0 stream1 stream0' stream1'
    subs0 subs1 subs0' subs1' junk0 junk1 junk0' junk1' rnd0 rnd1 :
  fair order1 -> repeats any subs0 subs0' -> repeats any subs1 subs1' ->
  arrives bit_wire total0 stream0 subs0 -> arrives bit_wire total1 stream1 subs1 ->
  arrives bit_wire total0' stream0' subs0' -> arrives bit_wire total1' stream1' subs1' ->
  length junk0 = 33%nat -> length junk1 = 33%nat -> length junk0' = 33%nat -> length junk1' = 33%nat ->
  exists n ans,
  both (bit_sum false order0 total0 stream0 junk0 rnd0) (bit_sum true order1 total1 stream1 junk1 rnd1)
    (fun r0 _ => r0 = outcome n total0 ans) /\
  both (bit_sum false order0 total0' stream0' junk0' rnd0) (bit_sum true order1 total1' stream1' junk1' rnd1)
    (fun r0 _ => r0 = outcome n total0' ans).
Proof.
  intros HF R0 R1 A0 A1 A0' A1' J0 J1 J0' J1'.
  destruct (accepted_exists any subs0 subs1) as [L HL].
  exists (length L), (zsum (map (combined any bit_val 0 subs0 subs1) L)). split.
  - destruct (bit_sum_result order0 order1 total0 total1 stream0 stream1 subs0 subs1 junk0 junk1 rnd0 rnd1 L)
      as (a & b & H & _ & E); auto. exists a, b. auto.
  - destruct (bit_sum_result order0 order1 total0' total1' stream0' stream1' subs0' subs1' junk0' junk1' rnd0 rnd1 L)
      as (a & b & H & _ & E); auto. { eapply repeats_accepted; eassumption. }
    exists a, b. split; auto. rewrite E. rewrite (repeats_combined any bit_val 0 subs0 subs0' subs1 subs1'); auto.
Qed.

Lemma int_sum_once nb order0 order1 total0 total1 total0' total1' stream0 stream1 stream0' stream1'
    subs0 subs1 subs0' subs1' junk0 junk1 junk0' junk1' rnd0 rnd1 :
  (nb <= 63)%nat -> fair order1 -> repeats (fits nb) subs0 subs0' -> repeats (fits nb) subs1 subs1' ->
  arrives int_wire total0 stream0 subs0 -> arrives int_wire total1 stream1 subs1 ->
  arrives int_wire total0' stream0' subs0' -> arrives int_wire total1' stream1' subs1' ->
  Forall (fun s => word (snd s)) subs0 -> Forall (fun s => word (snd s)) subs1 ->
  Forall (fun s => word (snd s)) subs0' -> Forall (fun s => word (snd s)) subs1' ->
  length junk0 = 40%nat -> length junk1 = 40%nat -> length junk0' = 40%nat -> length junk1' = 40%nat ->
  exists n ans,
  both (int_sum false order0 nb total0 stream0 junk0 rnd0) (int_sum true order1 nb total1 stream1 junk1 rnd1)
    (fun r0 _ => r0 = outcome n total0 ans) /\
  both (int_sum false order0 nb total0' stream0' junk0' rnd0) (int_sum true order1 nb total1' stream1' junk1' rnd1)
    (fun r0 _ => r0 = outcome n total0' ans).
Proof.
  intros HB HF R0 R1 A0 A1 A0' A1' W0 W1 W0' W1' J0 J1 J0' J1'.
  destruct (accepted_exists (fits nb) subs0 subs1) as [L HL].
  exists (length L), (zsum (map (combined (fits nb) Z.lxor 0 subs0 subs1) L) mod two64). split.
  - destruct (int_sum_result nb order0 order1 total0 total1 stream0 stream1 subs0 subs1 junk0 junk1 rnd0 rnd1 L)
      as (a & b & H & _ & E); auto. exists a, b. auto.
  - destruct (int_sum_result nb order0 order1 total0' total1' stream0' stream1' subs0' subs1' junk0' junk1' rnd0 rnd1 L)
      as (a & b & H & _ & E); auto. { eapply repeats_accepted; eassumption. }
    exists a, b. split; auto. rewrite E. rewrite (repeats_combined (fits nb) Z.lxor 0 subs0 subs0' subs1 subs1'); auto.
Qed.

Lemma xor_op_once is_and order0 order1 total0 total1 total0' total1' stream0 stream1 stream0' stream1'
    subs0 subs1 subs0' subs1' junk0 junk1 junk0' junk1' :
  fair order1 -> repeats any subs0 subs0' -> repeats any subs1 subs1' ->
  arrives int_wire total0 stream0 subs0 -> arrives int_wire total1 stream1 subs1 ->
  arrives int_wire total0' stream0' subs0' -> arrives int_wire total1' stream1' subs1' ->
  Forall (fun s => word (snd s)) subs0 -> Forall (fun s => word (snd s)) subs1 ->
  Forall (fun s => word (snd s)) subs0' -> Forall (fun s => word (snd s)) subs1' ->
  length junk0 = 40%nat -> length junk1 = 40%nat -> length junk0' = 40%nat -> length junk1' = 40%nat ->
  exists n ans,
  both (xor_op false order0 is_and total0 stream0 junk0) (xor_op true order1 is_and total1 stream1 junk1)
    (fun r0 _ => r0 = outcome n total0 ans) /\
  both (xor_op false order0 is_and total0' stream0' junk0') (xor_op true order1 is_and total1' stream1' junk1')
    (fun r0 _ => r0 = outcome n total0' ans).
Proof.
  intros HF R0 R1 A0 A1 A0' A1' W0 W1 W0' W1' J0 J1 J0' J1'.
  destruct (accepted_exists any subs0 subs1) as [L HL].
  eexists (length L), _. split.
  - destruct (xor_op_result is_and order0 order1 total0 total1 stream0 stream1 subs0 subs1 junk0 junk1 L)
      as (a & b & H & _ & E); auto. exists a, b. split; eauto.
  - destruct (xor_op_result is_and order0 order1 total0' total1' stream0' stream1' subs0' subs1' junk0' junk1' L)
      as (a & b & H & _ & E); auto. { eapply repeats_accepted; eassumption. }
    exists a, b. split; auto. rewrite E. rewrite (repeats_combined any Z.lxor 0 subs0 subs0' subs1 subs1'); auto.
Qed.

Lemma bit_sum_influence pk order0 order1 total0 total1 total0' total1' stream0 stream1 stream0' stream1'
    subs0 subs1 junk0 junk1 junk0' junk1' rnd0 rnd1 :
  fair order1 ->
  arrives bit_wire total0 stream0 subs0 -> arrives bit_wire total1 stream1 subs1 ->
  arrives bit_wire total0' stream0' (without pk subs0) -> arrives bit_wire total1' stream1' (without pk subs1) ->
  length junk0 = 33%nat -> length junk1 = 33%nat -> length junk0' = 33%nat -> length junk1' = 33%nat ->
  exists n ans n' ans',
  both (bit_sum false order0 total0 stream0 junk0 rnd0) (bit_sum true order1 total1 stream1 junk1 rnd1)
    (fun r0 _ => r0 = outcome n total0 ans) /\
  both (bit_sum false order0 total0' stream0' junk0' rnd0) (bit_sum true order1 total1' stream1' junk1' rnd1)
    (fun r0 _ => r0 = outcome n' total0' ans') /\
  (n' <= n <= n' + 1)%nat /\ 0 <= ans - ans' <= 1.
Proof.
  intros HF A0 A1 A0' A1' J0 J1 J0' J1'.
  destruct (accepted_exists any subs0 subs1) as [L HL].
  exists (length L), (zsum (map (combined any bit_val 0 subs0 subs1) L)).
  exists (length (drop pk L)), (zsum (map (combined any bit_val 0 subs0 subs1) (drop pk L))). split; [|split].
  - destruct (bit_sum_result order0 order1 total0 total1 stream0 stream1 subs0 subs1 junk0 junk1 rnd0 rnd1 L)
      as (a & b & H & _ & E); auto. exists a, b. auto.
  - destruct (bit_sum_result order0 order1 total0' total1' stream0' stream1' _ _ junk0' junk1' rnd0 rnd1
               (drop pk L) HF A0' A1' J0' J1' (without_accepted _ _ _ _ _ HL)) as (a & b & H & _ & E).
    exists a, b. split; auto. rewrite E. now rewrite without_combined.
  - apply drop_sum; [apply HL|]. intros. apply combined_bit_range.
Qed.

Lemma forall_without {V} (P : list Z * V -> Prop) pk subs : Forall P subs -> Forall P (without pk subs).
Proof.
  intros H. unfold without. apply Forall_forall. intros x Hx. apply filter_In in Hx as [Hx _].
  rewrite Forall_forall in H. auto.
Qed.

Lemma int_sum_influence nb pk order0 order1 total0 total1 total0' total1' stream0 stream1 stream0' stream1'
    subs0 subs1 junk0 junk1 junk0' junk1' rnd0 rnd1 :
  (nb <= 63)%nat -> fair order1 ->
  arrives int_wire total0 stream0 subs0 -> arrives int_wire total1 stream1 subs1 ->
  arrives int_wire total0' stream0' (without pk subs0) -> arrives int_wire total1' stream1' (without pk subs1) ->
  Forall (fun s => word (snd s)) subs0 -> Forall (fun s => word (snd s)) subs1 ->
  length junk0 = 40%nat -> length junk1 = 40%nat -> length junk0' = 40%nat -> length junk1' = 40%nat ->
  exists n ans n' ans',
  both (int_sum false order0 nb total0 stream0 junk0 rnd0) (int_sum true order1 nb total1 stream1 junk1 rnd1)
    (fun r0 _ => r0 = outcome n total0 ans) /\
  both (int_sum false order0 nb total0' stream0' junk0' rnd0) (int_sum true order1 nb total1' stream1' junk1' rnd1)
    (fun r0 _ => r0 = outcome n' total0' ans') /\
  (n' <= n <= n' + 1)%nat /\ (ans - ans') mod two64 < 2 ^ Z.of_nat nb.
Proof.
  intros HB HF A0 A1 A0' A1' W0 W1 J0 J1 J0' J1'.
  destruct (accepted_exists (fits nb) subs0 subs1) as [L HL].
  exists (length L), (zsum (map (combined (fits nb) Z.lxor 0 subs0 subs1) L) mod two64).
  exists (length (drop pk L)), (zsum (map (combined (fits nb) Z.lxor 0 subs0 subs1) (drop pk L)) mod two64).
  split; [|split].
  - destruct (int_sum_result nb order0 order1 total0 total1 stream0 stream1 subs0 subs1 junk0 junk1 rnd0 rnd1 L)
      as (a & b & H & _ & E); auto. exists a, b. auto.
  - destruct (int_sum_result nb order0 order1 total0' total1' stream0' stream1' _ _ junk0' junk1' rnd0 rnd1
               (drop pk L) HB HF A0' A1' (forall_without _ _ _ W0) (forall_without _ _ _ W1) J0' J1'
               (without_accepted _ _ _ _ _ HL)) as (a & b & H & _ & E).
    exists a, b. split; auto. rewrite E. now rewrite without_combined.
  - destruct (drop_sum (combined (fits nb) Z.lxor 0 subs0 subs1) pk L (2 ^ Z.of_nat nb - 1)) as [H1 H2].
    { apply HL. } { intros. now apply combined_int_range. }
    split; auto. rewrite <- Zminus_mod.
    eapply Z.le_lt_trans; [apply Z.mod_le; [lia|reflexivity]|]. lia.
Qed.

(** ** One-sided errors of AND/OR and MAX/MIN *)
Lemma zxors_zero {A} (f : A -> Z) l : (forall x, In x l -> f x = 0) -> zxors (map f l) = 0.
Proof.
  induction l as [|x l IH]; intros H; cbn; auto. rewrite (H x) by now left.
  change (fold_right Z.lxor 0 (map f l)) with (zxors (map f l)). rewrite IH; auto.
  intros; apply H; now right.
Qed.
Lemma zxors_single {A} (f : A -> Z) l y : NoDup l -> In y l -> (forall x, In x l -> x <> y -> f x = 0) ->
  zxors (map f l) = f y.
Proof.
  intros N Hy H. induction l as [|x l IH]; [easy|]. inversion N; subst. cbn.
  change (fold_right Z.lxor 0 (map f l)) with (zxors (map f l)). destruct Hy as [->|Hy].
  - rewrite zxors_zero, Z.lxor_0_r; auto. intros z Hz. apply H; [now right|]. congruence.
  - rewrite (H x), Z.lxor_0_l; [|now left|congruence]. apply IH; auto. intros; apply H; auto. now right.
Qed.

(** ** Independence from traversal order and randomness *)
Lemma both_same {A B} (p p' : proc A) (q q' : proc B) x y :
  both p q (fun a b => b = y /\ a = x) -> both p' q' (fun a b => b = y /\ a = x) ->
  forall a b a' b', always p q a b -> always p' q' a' b' -> a = a' /\ b = b'.
Proof.
  intros H H' a b a' b' R R'. pose proof (both_functional _ _ _ _ _ H R) as [-> ->].
  pose proof (both_functional _ _ _ _ _ H' R') as [-> ->]. auto.
Qed.

(** ** recv_in from a client *)
Lemma crecv_recv_in script stream buf :
  Forall no_err script -> (Nat.max (length buf) (length stream) < length script)%nat ->
  Z.of_nat (length buf) < 2147483648 ->
  exists ret,
  recv_in script true stream buf (Z.of_nat (length buf))
  = RDone ret (fst (crecv (length buf) stream buf)) (snd (crecv (length buf) stream buf)).
Proof.
  intros HE HL HB. set (n := length buf) in *. unfold crecv. cbn [fst snd].
  destruct (Nat.le_gt_cases n (length stream)) as [H|H].
  - eexists. rewrite recv_in_complete by (auto; lia). now rewrite Nat.min_l by auto.
  - eexists. rewrite recv_in_eof by (auto; lia). rewrite Nat.min_r by lia.
    now rewrite (firstn_all2 stream), (skipn_all2 stream) by lia.
Qed.
