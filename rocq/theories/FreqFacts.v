(** * FREQ: the protocol on tables *)
From Coq Require Import ZArith List Bool Lia Arith Permutation Setoid Morphisms.
From Verif Require Import Words WordsFacts Cong Constants Share ShareFacts Proc ProcFacts
  Net NetFacts SpecNet NetMsg SpecShare RelFacts OT OTFacts Correlated SpecStore CorrelatedFacts MpcFacts
  Poly SpecPoly FieldFacts PolyFacts FftFacts TreeFacts PolyProps
  Circuit Snip SnipFacts SnipBatch SnipSums ServerOps SpecServer TableFacts ServerFacts SpecFreq ClientFacts.
Import ListNotations.
Open Scope Z_scope.

Arguments Z.mul : simpl never.
Arguments Z.add : simpl never.
Arguments Z.sub : simpl never.
Arguments Z.pow : simpl never.
Arguments Z.modulo : simpl never.
Opaque Int_Modulus.
Local Notation P := Int_Modulus.

(** ** Weights, parities, sums *)
Lemma parity_fold row : forall acc, fold_left xorb row acc = xorb acc (Nat.odd (weight row)).
Proof.
  induction row as [|b row IH]; intros acc; cbn [fold_left weight].
  - now rewrite xorb_false_r.
  - rewrite IH, Nat.odd_add. destruct b, acc, (Nat.odd (weight row)); reflexivity.
Qed.
Lemma parity_weight row : parity_of row = Nat.odd (weight row).
Proof. unfold parity_of. rewrite parity_fold. now destruct (Nat.odd _). Qed.
Lemma weight_xor a : forall b, length a = length b ->
  Nat.odd (weight (map2 xorb a b)) = xorb (Nat.odd (weight a)) (Nat.odd (weight b)).
Proof.
  induction a as [|x a IH]; intros [|y b] H; try discriminate; auto.
  cbn [map2 weight]. injection H as H. rewrite !Nat.odd_add, IH by auto.
  destruct x, y, (Nat.odd (weight a)), (Nat.odd (weight b)); reflexivity.
Qed.
Lemma weight_le row : (weight row <= length row)%nat.
Proof. induction row as [|[] row IH]; cbn [weight length]; lia. Qed.

Lemma parities rows0 : forall rows1, Forall2 (fun a b => length b = length a) rows0 rows1 ->
  xorb (parity_of (map parity_of rows0)) (parity_of (map parity_of rows1)) =
  Nat.odd (list_sum (map weight (map2 (map2 xorb) rows0 rows1))).
Proof.
  intros rows1 H. rewrite !parity_weight.
  induction H as [|a b rows0 rows1 Hab H IH]; auto.
  cbn [map map2 weight list_sum fold_right]. change (fold_right Nat.add 0%nat) with list_sum.
  rewrite !Nat.odd_add, weight_xor, <- IH, !parity_weight by auto.
  destruct (Nat.odd (weight a)), (Nat.odd (weight b)); cbn;
  repeat match goal with |- context [Nat.odd ?x] => destruct (Nat.odd x) end; reflexivity.
Qed.

Lemma sum_of_zsum l : sum_of l = zsum l mod P.
Proof.
  unfold sum_of. assert (H : forall acc, fold_left (fun s x => (s + x) mod p) l (acc mod P) = (acc + zsum l) mod P).
  { induction l as [|x l IH]; intros acc; cbn [fold_left].
    - now rewrite zsum_nil, Z.add_0_r.
    - change p with P. rewrite Zplus_mod_idemp_l, IH, zsum_cons. apply f_equal2; auto. ring. }
  specialize (H 0). rewrite Zmod_0_l in H. exact H.
Qed.
Lemma sum_of_cong l : cong P (sum_of l) (zsum l).
Proof. rewrite sum_of_zsum. apply cong_mod. Qed.
Lemma sum_of_field l : in_field P (sum_of l).
Proof. rewrite sum_of_zsum. apply Z.mod_pos_bound, p_pos. Qed.

Definition addp (a b : Z) : Z := (a + b) mod P.
Lemma sum_shares a : forall b row, length b = length a -> map2 addp a b = map b2z row ->
  cong P (sum_of a + sum_of b) (Z.of_nat (weight row)).
Proof.
  intros b row L H. rewrite !sum_of_cong. revert b row L H.
  induction a as [|x a IH]; intros [|y b] [|v row] L H; try discriminate; [reflexivity|].
  cbn [map2 map weight] in *. injection H as Hx H. injection L as L.
  rewrite !zsum_cons, Nat2Z.inj_add, <- (IH b row L H).
  replace (Z.of_nat (if v then 1 else 0)%nat) with (b2z v) by now destruct v.
  rewrite <- Hx. unfold addp. demod. cong_ring.
Qed.

Lemma sums_shares sh0 : forall sh1 rows, Forall2 (fun a b => length b = length a) sh0 sh1 ->
  map2 (map2 addp) sh0 sh1 = map (map b2z) rows ->
  cong P (sum_of (map sum_of sh0) + sum_of (map sum_of sh1)) (Z.of_nat (list_sum (map weight rows))).
Proof.
  intros sh1 rows HF H. rewrite !sum_of_cong. revert rows H.
  induction HF as [|a b sh0 sh1 Hab HF IH]; intros [|row rows] H; try discriminate; [reflexivity|].
  cbn [map2 map list_sum fold_right] in *. change (fold_right Nat.add 0%nat) with list_sum.
  injection H as Hx H. rewrite !zsum_cons, Nat2Z.inj_add, <- (IH rows H), <- (sum_shares a b row Hab Hx).
  cong_ring.
Qed.

(** ** Rows of the two servers *)
Lemma chunks_map2 {A B C} (f : A -> B -> C) n k : forall a b,
  chunks n k (map2 f a b) = map2 (map2 f) (chunks n k a) (chunks n k b).
Proof.
  assert (HF : forall k a b, firstn k (map2 f a b) = map2 f (firstn k a) (firstn k b)).
  { clear. induction k as [|k IH]; intros [|x a] [|y b]; cbn [firstn map2]; auto. now rewrite IH. }
  assert (HS : forall k a b, skipn k (map2 f a b) = map2 f (skipn k a) (skipn k b)).
  { clear. induction k as [|k IH]; intros [|x a] [|y b]; cbn [skipn map2]; auto.
    now destruct (skipn k a). }
  induction n as [|n IH]; intros a b; cbn [chunks map2]; auto.
  rewrite HF, HS, IH by auto. reflexivity.
Qed.
Lemma chunks_map {A B} (f : A -> B) n k : forall a, chunks n k (map f a) = map (map f) (chunks n k a).
Proof. induction n as [|n IH]; intros a; cbn [chunks map]; auto. now rewrite firstn_map, skipn_map, IH. Qed.

Lemma b2z_xor_map (a b : list bool) : map2 (fun x y => b2z (xorb x y)) a b = map b2z (map2 xorb a b).
Proof. revert b. induction a as [|x a IH]; intros [|y b]; cbn [map2 map]; auto. now rewrite IH. Qed.

Lemma concat_width {A} w (rows : list (list A)) : Forall (fun r => length r = w) rows ->
  length (concat rows) = (length rows * w)%nat.
Proof. induction 1 as [|r rows Hr H IH]; cbn [concat length]; auto. rewrite app_length, IH, Hr. lia. Qed.

Lemma concat_chunks {A} w (rows : list (list A)) : Forall (fun r => length r = w) rows ->
  chunks (length rows) w (concat rows) = rows.
Proof. intros H. rewrite <- (app_nil_r (concat rows)). now apply chunks_concat. Qed.

Lemma opened_rows w rows0 rows1 a0 a1 : length rows0 = length rows1 ->
  Forall (fun r => length r = w) rows0 -> Forall (fun r => length r = w) rows1 ->
  map2 addp a0 a1 = map2 (fun x y => b2z (xorb x y)) (concat rows0) (concat rows1) ->
  map2 (map2 addp) (chunks (length rows0) w a0) (chunks (length rows0) w a1) =
  map (map b2z) (map2 (map2 xorb) rows0 rows1).
Proof.
  intros L F0 F1 H. rewrite <- chunks_map2, H, b2z_xor_map, chunks_map, chunks_map2.
  rewrite concat_chunks by auto. rewrite L, concat_chunks by auto. reflexivity.
Qed.

Lemma Forall2_widths {A B} w (x : list (list A)) (y : list (list B)) : length x = length y ->
  Forall (fun r => length r = w) x -> Forall (fun r => length r = w) y ->
  Forall2 (fun a b => length b = length a) x y.
Proof.
  revert y. induction x as [|a x IH]; intros [|b y] L F G; try discriminate; constructor.
  - rewrite (Forall_inv F), (Forall_inv G). reflexivity.
  - apply IH; [now injection L|now inversion F|now inversion G].
Qed.

(** ** Columns *)
Lemma col_bits j rows : forall valid, length valid = length rows ->
  col_sum j (map (map b2z) rows) valid =
  Z.of_nat (count (map2 (fun row (v : bool) => v && nth j row false) rows valid)).
Proof.
  unfold col_sum, count. induction rows as [|row rows IH]; intros [|v valid] L; try discriminate; auto.
  cbn [map map2 filter]. injection L as L. rewrite zsum_cons, (IH valid L).
  destruct v; cbn [andb]; [|reflexivity].
  replace (nth j (map b2z row) 0) with (b2z (nth j row false)) by (symmetry; apply (map_nth b2z row false j)).
  destruct (nth j row false); cbn [length b2z]; lia.
Qed.

Lemma count_le l : (count l <= length l)%nat.
Proof. unfold count. induction l as [|[] l IH]; cbn [filter length]; lia. Qed.

Lemma answer_spec w sh0 sh1 rows valid : length sh0 = length rows -> length sh1 = length rows ->
  length valid = length rows -> Z.of_nat (length rows) < P ->
  Forall (fun r => length r = w) sh0 -> Forall (fun r => length r = w) sh1 ->
  map2 (map2 addp) sh0 sh1 = map (map b2z) rows ->
  map2 addp (accumulate w sh0 valid) (accumulate w sh1 valid) =
  map (fun j => Z.of_nat (count (map2 (fun row (v : bool) => v && nth j row false) rows valid))) (seq 0 w).
Proof.
  intros L0 L1 LV HP F0 F1 H.
  destruct (accumulate_spec w sh0 valid) as (A & _ & B). destruct (accumulate_spec w sh1 valid) as (C & _ & D).
  apply nth_ext with (d := 0) (d' := 0).
  { now rewrite map2_length, A, C, map_length, seq_length, Nat.min_id. }
  intros j Hj. rewrite map2_length, A, C, Nat.min_id in Hj.
  rewrite nth_map2' by lia. rewrite nth_map_seq' by auto. unfold addp. rewrite B, D by auto.
  rewrite <- Zplus_mod. set (c := count _).
  rewrite <- (Z.mod_small (Z.of_nat c) P).
  - rewrite Z.add_comm. apply cong_iff.
    rewrite (col_sum_add j sh0 sh1 valid w) by (auto; lia).
    change (map2 (map2 (fun a b => (a + b) mod P)) sh0 sh1) with (map2 (map2 addp) sh0 sh1).
    rewrite H, col_bits by auto. reflexivity.
  - pose proof (count_le (map2 (fun row (v : bool) => v && nth j row false) rows valid)) as HC.
    fold c in HC. rewrite map2_length in HC. lia.
Qed.

(** ** The part up to the check of the batch *)
Definition row0 (w : nat) (m0 : table (list bool)) (e : list Z * list bool) : list bool :=
  get (repeat false w) (find (fst e) m0).
Definition bits (w : nat) (m0 : table (list bool)) (e : list Z * list bool) : list bool :=
  map2 xorb (row0 w m0 e) (snd e).

Definition tail1 (w : nat) (rows1 : list (list bool)) (sh1 : list (list Z)) (s1 : store) (all_valid : bool)
  : proc (result (list Z) * store) :=
  valid <- (if all_valid then Ret (repeat true (length rows1))
            else send_bool_batch (map parity_of rows1) ;;; send_fmpz_batch (map sum_of sh1) ;;;
                 recv_bool_batch (length rows1)) ;;
  send_fmpz_batch (accumulate w sh1 valid) ;;;
  Ret (RET_NO_ANS, s1).
Definition tail0 (w : nat) (known0 : list bool) (rows0 : list (list bool)) (sh0 : list (list Z)) (total : nat)
  (s0 : store) (all_valid : bool) : proc (result (list Z) * store) :=
  valid <- (if all_valid then Ret (repeat true (length rows0))
            else parity_other <- recv_bool_batch (length rows0) ;;
                 sums_other <- recv_fmpz_batch (length rows0) ;;
                 Ret (map3 (fun v pp ss => freq_valid v (fst pp) (snd pp) (fst ss) (snd ss))
                           known0 (combine (map parity_of rows0) parity_other)
                           (combine (map sum_of sh0) sums_other))) ;;
  send_bool_batch valid ;;;
  accum_other <- recv_fmpz_batch w ;;
  if too_few (count valid) total then Ret (RET_INVALID, s0)
  else Ret (RET_ANS (map2 addp (accumulate w sh0 valid) accum_other), s0).

Definition balancedb (W total : nat) : bool :=
  Bool.eqb (Nat.odd W) (Nat.odd total) && (Z.of_nat W mod P =? Z.of_nat total).
Lemma balancedb_spec W total : reflect (balanced W total) (balancedb W total).
Proof.
  unfold balanced, balancedb. apply iff_reflect. rewrite andb_true_iff, eqb_true_iff, Z.eqb_eq. tauto.
Qed.

Lemma row0_width w m0 e : Forall (fun e => length (snd e) = w) m0 -> length (row0 w m0 e) = w.
Proof.
  intros H. unfold row0. destruct (find (fst e) m0) as [v|] eqn:E; cbn [get]; [|apply repeat_length].
  exact (find_forall (fun v => length v = w) m0 (fst e) v H E).
Qed.

Lemma fields_limbs l : Forall (in_field P) l -> Forall limbs_ok l.
Proof. intros H. eapply Forall_impl; [|exact H]. intros z Hz. now apply in_field_limbs. Qed.
Lemma sums_limbs l : Forall limbs_ok (map sum_of l).
Proof. apply fields_limbs, Forall_map, Forall_forall. intros x _. apply sum_of_field. Qed.
Lemma bool_sums_width {A} w (f : A -> list bool) l : (forall e, In e l -> length (f e) = w) ->
  Forall (fun r => length r = w) (map f l).
Proof. intros H. apply Forall_map, Forall_forall. exact H. Qed.

Lemma map2_maps {A B C D} (f : B -> C -> D) (g : A -> B) (h : A -> C) l :
  map2 f (map g l) (map h l) = map (fun x => f (g x) (h x)) l.
Proof. induction l; cbn [map map2]; congruence. Qed.


(** What holds of the shares obtained from the conversion. *)
Definition converted (w : nat) (m0 : table (list bool)) (l : table (list bool)) (sh0 sh1 : list (list Z)) : Prop :=
  length sh0 = length l /\ length sh1 = length l /\
  Forall (fun r => length r = w) sh0 /\ Forall (fun r => length r = w) sh1 /\
  map2 (map2 addp) sh0 sh1 = map (map b2z) (map (bits w m0) l).

Lemma freq_start order c0 c1 T0 T1 w m0 m1 total s0 s1 :
  params_ok c0 c1 -> stores_paired s0 s1 -> fair order -> keys_ok m1 ->
  Z.of_nat (length m1) < two32 ->
  Forall (fun e => length (snd e) = w) m0 -> Forall (fun e => length (snd e) = w) m1 ->
  (length m1 <= total)%nat ->
  let l := order _ m1 in
  exists sh0 sh1 s0' s1', stores_paired s0' s1' /\ converted w m0 l sh0 sh1 /\
    let av := balancedb (list_sum (map (fun e => weight (bits w m0 e)) l)) total in
    runs (freq_op0 c0 T0 w m0 total s0) (freq_op1 order c1 T1 w m1 s1)
      (tail0 w (map (fun e => known m0 (fst e)) l) (map (row0 w m0) l) sh0 total s0' av)
      (tail1 w (map snd l) sh1 s1' av).
Proof.
  intros HP HS HF HK HN W0 W1 HT l.
  assert (HK' : Forall (fun e => length (fst e) = 32%nat) l) by (apply fair_forall; [auto|apply HK]).
  assert (Hl : length l = length m1) by now apply fair_length.
  assert (WL : Forall (fun e => length (snd e) = w) l) by now apply fair_forall.
  assert (R1 : Forall (fun r => length r = w) (map snd l)) by now apply Forall_map.
  assert (R0 : Forall (fun r => length r = w) (map (row0 w m0) l)).
  { apply Forall_map, Forall_forall. intros e _. now apply row0_width. }
  assert (E0 : map (get (repeat false w)) (map (fun pk => find pk m0) (map fst l)) = map (row0 w m0) l).
  { rewrite !map_map. reflexivity. }
  assert (E1 : map is_some (map (fun pk => find pk m0) (map fst l)) = map (fun e => known m0 (fst e)) l).
  { rewrite !map_map. reflexivity. }
  assert (LR : length (map (row0 w m0) l) = length (map snd l)) by now rewrite !map_length.
  destruct (b2a_single_rel c0 c1 T0 T1 (concat (map (row0 w m0) l)) (concat (map snd l)) s0 s1 HP HS)
    as (r0 & r1 & HC & A1 & A2 & A3 & A4 & A5 & A6 & _).
  { rewrite !(concat_width w) by auto. now rewrite !map_length. }
  assert (LC : length (concat (map (row0 w m0) l)) = (length l * w)%nat).
  { rewrite (concat_width w) by auto. now rewrite map_length. }
  rewrite LC in A1, A2.
  set (sh0 := chunks (length l) w (fst r0)). set (sh1 := chunks (length l) w (fst r1)).
  assert (HO : map2 (map2 addp) sh0 sh1 = map (map b2z) (map (bits w m0) l)).
  { unfold sh0, sh1. rewrite <- (map_length (row0 w m0) l) at 1 2.
    rewrite (opened_rows w (map (row0 w m0) l) (map snd l)) by auto.
    rewrite map2_maps. reflexivity. }
  assert (HV : converted w m0 l sh0 sh1).
  { unfold converted, sh0, sh1. rewrite !chunks_length. split; auto. split; auto.
    split; [apply chunks_each; lia|]. split; [apply chunks_each; lia|]. exact HO. }
  exists sh0, sh1, (snd r0), (snd r1). split; auto. split; auto. cbv zeta.
  unfold freq_op0, freq_op1. fold l.
  eapply runs_trans; [apply delivers_runs'; apply delivers_announce; [auto|now rewrite Hl]|].
  rewrite !map_length, Hl. destruct (Nat.ltb_spec total (length m1)) as [?|_]; [lia|].
  rewrite E0, E1, <- Hl.
  eapply conv_bind_runs; [exact HC|]. fold sh0 sh1.
  eapply runs_trans; [apply delivers_runs', delivers_bool|].
  eapply runs_trans; [apply delivers_runs', delivers_fmpz, in_field_limbs, sum_of_field|].
  assert (EB : Bool.eqb (xorb (parity_of (map parity_of (map (row0 w m0) l)))
                 (parity_of (map (fun e : list Z * list bool => parity_of (snd e)) l)))
               (Nat.odd total) && ((sum_of (map sum_of sh0) + sum_of (map sum_of sh1)) mod p =? Z.of_nat total)
             = balancedb (list_sum (map (fun e => weight (bits w m0 e)) l)) total).
  { unfold balancedb. rewrite <- (map_map snd parity_of). rewrite parities.
    2:{ apply Forall2_widths with (w := w); auto. }
    rewrite map2_maps. rewrite !map_map. apply f_equal2.
    - reflexivity.
    - apply (f_equal (fun z => z =? Z.of_nat total)). change p with P. apply cong_iff.
      destruct HV as (L0 & L1 & F0 & F1 & _).
      rewrite (sums_shares sh0 sh1 (map (bits w m0) l)); auto.
      + rewrite map_map. reflexivity.
      + apply Forall2_widths with (w := w); auto. congruence. }
  rewrite EB. eapply runs_trans; [apply delivers_runs, delivers_bool|].
  unfold tail0, tail1. rewrite !map_length. rewrite <- (map_map snd parity_of). apply runs_refl.
Qed.

(** ** Both endings *)
Definition fine (w : nat) (m0 : table (list bool)) (e : list Z * list bool) : bool :=
  known m0 (fst e) && (weight (bits w m0 e) =? 1)%nat.

Lemma one_fine k a b sa sb row : length b = length a -> cong P (sa + sb) (Z.of_nat (weight (map2 xorb a b))) ->
  row = map2 xorb a b -> Z.of_nat (weight row) < P ->
  freq_valid k (parity_of a) (parity_of b) sa sb = k && (weight row =? 1)%nat.
Proof.
  intros L H -> HW. unfold freq_valid. destruct k; cbn [andb]; [|reflexivity].
  rewrite !parity_weight, <- weight_xor by auto. change p with P.
  rewrite (cong_mod_eq P _ (Z.of_nat (weight (map2 xorb a b)))); auto; [|lia].
  destruct (Nat.eqb_spec (weight (map2 xorb a b)) 1) as [->|N]; [reflexivity|].
  destruct (Z.eqb_spec (Z.of_nat (weight (map2 xorb a b))) 1); [lia|]. apply andb_false_r.
Qed.

Lemma valid_spec w m0 l : forall sh0 sh1, Z.of_nat w < P ->
  Forall (fun e => length (snd e) = w) m0 -> Forall (fun e => length (snd e) = w) l ->
  converted w m0 l sh0 sh1 ->
  map3 (fun v pp ss => freq_valid v (fst pp) (snd pp) (fst ss) (snd ss))
    (map (fun e => known m0 (fst e)) l)
    (combine (map parity_of (map (row0 w m0) l)) (map parity_of (map snd l)))
    (combine (map sum_of sh0) (map sum_of sh1)) = map (fine w m0) l.
Proof.
  induction l as [|e l IH]; intros sh0 sh1 HP W0 W1 (L0 & L1 & F0 & F1 & H); auto.
  destruct sh0 as [|a sh0]; [discriminate|]. destruct sh1 as [|b sh1]; [discriminate|].
  cbn [map map2 map3 combine fst snd] in *. injection H as Hx H.
  rewrite IH; auto; [|now inversion W1|].
  2:{ split; [now injection L0|]. split; [now injection L1|]. split; [now inversion F0|].
      split; [now inversion F1|]. exact H. }
  apply (f_equal2 (@cons bool)); auto. unfold fine.
  pose proof (Forall_inv W1) as We. cbv beta in We. pose proof (row0_width w m0 e W0) as Wr.
  apply one_fine; auto.
  - congruence.
  - apply sum_shares; [rewrite (Forall_inv F1), (Forall_inv F0); reflexivity|exact Hx].
  - unfold bits. pose proof (weight_le (map2 xorb (row0 w m0 e) (snd e))) as HW.
    rewrite map2_length in HW. lia.
Qed.

Lemma count_true {A} (f : A -> bool) l : count (map f l) = length (filter f l).
Proof. unfold count. induction l as [|x l IH]; cbn [map filter]; auto. destruct (f x); cbn [length]; now rewrite IH. Qed.
Lemma count_all n : count (repeat true n) = n.
Proof. unfold count. induction n; cbn [repeat filter length]; congruence. Qed.

(** The answer over the entries satisfying [ok]. *)
Definition counts (w : nat) (m0 l : table (list bool)) (ok : list Z * list bool -> bool) : list Z :=
  map (fun j => Z.of_nat (length (filter (fun e => ok e && nth j (bits w m0 e) false) l))) (seq 0 w).

Lemma counts_spec w m0 l sh0 sh1 ok : converted w m0 l sh0 sh1 -> Z.of_nat (length l) < P ->
  map2 addp (accumulate w sh0 (map ok l)) (accumulate w sh1 (map ok l)) = counts w m0 l ok.
Proof.
  intros (L0 & L1 & F0 & F1 & H) HP. rewrite (answer_spec w sh0 sh1 (map (bits w m0) l)); auto; rewrite ?map_length; auto.
  unfold counts. apply map_ext. intros j. apply f_equal. rewrite <- count_true. apply f_equal.
  now rewrite map2_maps.
Qed.

Lemma two32_field : two32 < P.
Proof. reflexivity. Qed.

Lemma freq_unbalanced w m0 l sh0 sh1 total s0 s1 : Z.of_nat w < P -> Z.of_nat (length l) < two32 ->
  Forall (fun e => length (snd e) = w) m0 -> Forall (fun e => length (snd e) = w) l ->
  converted w m0 l sh0 sh1 ->
  conv (tail0 w (map (fun e => known m0 (fst e)) l) (map (row0 w m0) l) sh0 total s0 false)
       (tail1 w (map snd l) sh1 s1 false)
    (outcome (length (filter (fine w m0) l)) total (counts w m0 l (fine w m0)), s0) (RET_NO_ANS, s1).
Proof.
  intros HP HN W0 W1 HC. unfold tail0, tail1. rewrite !map_length.
  pose proof HC as (L0 & L1 & F0 & F1 & _).
  assert (HB : delivers (send_bool_batch (map parity_of (map snd l))) (recv_bool_batch (length l))
                 (map parity_of (map snd l))).
  { pose proof (delivers_bool_batch (map parity_of (map snd l))) as H. rewrite !map_length in H. exact H. }
  assert (HS : delivers (send_fmpz_batch (map sum_of sh1)) (recv_fmpz_batch (length l)) (map sum_of sh1)).
  { pose proof (delivers_fmpz_batch (map sum_of sh1) (sums_limbs sh1)) as H. rewrite map_length, L1 in H. exact H. }
  eapply runs_trans.
  { apply runs_bind. eapply runs_trans; [apply delivers_runs'; exact HB|].
    eapply runs_trans; [apply delivers_runs'; exact HS|]. apply runs_refl. }
  cbn [bind]. rewrite (valid_spec w m0 l sh0 sh1) by auto.
  assert (HV : delivers (send_bool_batch (map (fine w m0) l)) (recv_bool_batch (length l)) (map (fine w m0) l)).
  { pose proof (delivers_bool_batch (map (fine w m0) l)) as H. rewrite map_length in H. exact H. }
  eapply runs_trans; [apply delivers_runs; exact HV|].
  destruct (accumulate_spec w sh1 (map (fine w m0) l)) as (A & B & _).
  pose proof (delivers_fmpz_batch _ (fields_limbs _ B)) as HA. rewrite A in HA.
  eapply runs_trans; [apply delivers_runs'; exact HA|].
  rewrite (counts_spec w m0 l) by (auto; pose proof two32_field; lia). rewrite count_true.
  unfold too_few, outcome. destruct (2 * _ <? _)%nat; apply conv_ret.
Qed.

(** A message from server 1 while bytes for server 1 are waiting. *)
Lemma steps_under {A B} cap o (q : proc B) l b : (1 <= cap)%nat -> emits q l b ->
  forall (p : proc A) a, feed p l = Some (a, []) ->
  exists n, steps cap n (Cfg p q o []) (Cfg (Ret a) (Ret b) o []).
Proof.
  intros Hc. revert q. induction l as [|x l IH]; intros q E p a F.
  - destruct (emits_nil _ _ E) as (n & Hn). destruct (feed_nil _ _ F) as (m & Hm).
    exists (n + m)%nat. eapply steps_trans; [apply taus_steps1|apply taus_steps0]; eassumption.
  - destruct (emits_cons _ _ _ _ E) as (n & p1 & p2 & T & L & E').
    destruct (feed_cons _ _ _ _ F) as (m & q1 & q2 & T' & L' & F').
    destruct (IH _ E' _ _ F') as (k & Hk).
    exists (n + (m + S (S k)))%nat.
    eapply steps_trans; [apply taus_steps1; eassumption|].
    eapply steps_trans; [apply taus_steps0; eassumption|].
    econstructor; [eapply st_1; [eassumption|constructor; simpl; lia]|].
    econstructor; [eapply st_0; [eassumption|constructor]|]. exact Hk.
Qed.

Lemma steps_fill {A B} cap (q : proc B) (k : proc A) i : forall bs o, (length o + length bs <= cap)%nat ->
  exists n, steps cap n (Cfg (Send bs k) q o i) (Cfg k q (o ++ bs) i).
Proof.
  induction bs as [|b bs IH]; intros o H.
  - exists 1%nat. rewrite app_nil_r. econstructor; [eapply st_0; [constructor|constructor]|constructor].
  - cbn in H. destruct (IH (o ++ [b])) as (n & Hn); [rewrite app_length; cbn; lia|].
    rewrite <- app_assoc in Hn. exists (S n).
    econstructor; [eapply st_0; [constructor|constructor; lia]|]. exact Hn.
Qed.

Lemma ret_stuck {A B} cap (a : A) (b : B) o i e : ~ step cap (Cfg (Ret a) (Ret b) o i) e.
Proof. intros H; inversion H; subst; match goal with L : lstep _ _ _ |- _ => inversion L end. Qed.

Lemma map_const_true {A} (l : list A) : repeat true (length l) = map (fun _ => true) l.
Proof. induction l; cbn [length repeat map]; congruence. Qed.

Lemma freq_balanced w m0 l sh0 sh1 total s0 s1 : Z.of_nat (length l) < two32 ->
  converted w m0 l sh0 sh1 ->
  reach (bool_bytes (length l))
    (tail0 w (map (fun e => known m0 (fst e)) l) (map (row0 w m0) l) sh0 total s0 true)
    (tail1 w (map snd l) sh1 s1 true)
    (Cfg (Ret (outcome (length l) total (counts w m0 l (fun _ => true)), s0)) (Ret (RET_NO_ANS, s1))
         (pack_bools (repeat true (length l))) []).
Proof.
  intros HN HC cap H1 Hk. split; [|intros e; apply ret_stuck].
  unfold tail0, tail1. rewrite !map_length. cbn [bind]. unfold send_bool_batch. cbn [bind].
  match goal with |- exists n, steps _ _ (start (Send ?b ?k) ?q) _ =>
    destruct (steps_fill cap q k [] b []) as (n & Hn) end.
  { rewrite pack_bools_length, repeat_length. cbn. exact Hk. }
  cbn [app] in Hn.
  destruct (accumulate_spec w sh1 (repeat true (length l))) as (A & B & _).
  destruct (delivers_fmpz_batch _ (fields_limbs _ B)) as (bs & E & F). rewrite A in F.
  match type of Hn with steps _ _ _ ?c =>
    assert (HM : exists m, steps cap m c
      (Cfg (Ret (outcome (length l) total (counts w m0 l (fun _ => true)), s0)) (Ret (RET_NO_ANS, s1))
         (pack_bools (repeat true (length l))) [])) end.
  2:{ destruct HM as (m & Hm). exists (n + m)%nat. eapply steps_trans; [exact Hn|exact Hm]. }
  eapply steps_under; [exact H1|apply emits_bind_ret; exact E|].
  specialize (F []). rewrite app_nil_r in F. erewrite feed_bind by exact F.
  rewrite count_all, map_const_true.
  rewrite (counts_spec w m0 l) by (auto; pose proof two32_field; lia).
  unfold too_few, outcome. destruct (2 * _ <? _)%nat; reflexivity.
Qed.
