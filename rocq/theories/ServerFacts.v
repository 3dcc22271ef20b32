(** * Facts about BIT_SUM, INT_SUM, AND/OR and MAX/MIN *)
From Coq Require Import ZArith List Bool Lia Permutation.
From Verif Require Import Words WordsFacts Constants Cong Proc ProcFacts Net NetFacts SpecNet SpecShare RelFacts
  OT OTFacts ServerOps SpecServer TableFacts.
Import ListNotations.
Open Scope Z_scope.

Lemma fair_forall (order : iteration) {V} (P : list Z * V -> Prop) m :
  fair order -> Forall P m -> Forall P (order V m).
Proof.
  intros HF. apply Permutation_Forall. symmetry. apply HF.
Qed.
Lemma fair_length (order : iteration) {V} (m : table V) : fair order -> length (order V m) = length m.
Proof. intros HF. apply Permutation_length, HF. Qed.

Lemma map3_with0 {V W X} (m0 : table V) (l : table W) (g : V -> W -> bool -> X) d0 :
  map3 g (map (get d0) (map (fun pk => find pk m0) (map fst l))) (map snd l)
         (map is_some (map (fun pk => find pk m0) (map fst l)))
  = map (fun e => g (get d0 (find (fst e) m0)) (snd e) (is_some (find (fst e) m0))) l.
Proof. induction l as [|[k w] l IH]; cbn; auto. now rewrite IH. Qed.

(** ** BIT_SUM *)

Lemma bit_sum_range (F : list Z -> Z) L : (forall x, 0 <= F x <= 1) ->
  0 <= zsum (map F L) <= Z.of_nat (length L).
Proof.
  intros H. induction L as [|x L IH]; cbn [map zsum fold_right length]; [lia|].
  specialize (H x). fold (zsum (map F L)). lia.
Qed.

Lemma NoDup_incl_length {A} (l l' : list A) : NoDup l -> incl l l' -> (length l <= length l')%nat.
Proof. intros. now apply List.NoDup_incl_length. Qed.

Lemma both_in_length {V W} (m0 : table V) (m1 : table W) L : both_in m0 m1 L ->
  (length L <= length m1)%nat.
Proof.
  intros [N H]. rewrite <- (map_length fst m1). apply List.NoDup_incl_length; auto.
  intros x Hx. apply H in Hx. destruct Hx as [_ Hx]. now apply find_some_iff in Hx.
Qed.

Lemma bit_sum_tables order m0 m1 total rnd L :
  fair order -> keys_ok m1 -> Z.of_nat (length m1) < two32 -> both_in m0 m1 L ->
  rel (bit_sum0 m0 total rnd) (bit_sum1 order m1)
    (fun r0 r1 => r1 = RET_NO_ANS /\
      r0 = outcome (length L) total (zsum (map (at_both bit_val 0 m0 m1) L))).
Proof.
  intros HF [HN HK] HS HL. unfold bit_sum0, bit_sum1.
  pose proof (HF _ m1) as HP. set (l := order bool m1) in *.
  eapply rel_deliver'.
  { apply delivers_announce; [now apply fair_forall|]. unfold l. now rewrite fair_length. }
  eapply rel_bind.
  { apply bitsum_rel; now rewrite !map_length. }
  intros a b (Ha & Hb & E).
  eapply rel_deliver'; [now apply delivers_uint64|].
  rewrite (count_accepted m0 m1 l L HP HN HL), too_few_outcome.
  apply rel_ret. split; auto. f_equal. unfold u64. rewrite E, map3_with0.
  transitivity (zsum (map (with0 m0 bit_val 0) l) mod two64).
  { do 2 f_equal. apply map_ext. intros e. unfold with0, bit_spec. now destruct (find (fst e) m0). }
  rewrite (zsum_accepted m0 m1 l) with (L := L) by auto.
  apply Z.mod_small. pose proof (both_in_length m0 m1 L HL).
  assert (R : 0 <= zsum (map (at_both bit_val 0 m0 m1) L) <= Z.of_nat (length L)).
  { apply bit_sum_range. intros x. unfold at_both, bit_val.
    destruct (find x m0), (find x m1); try lia. destruct (xorb b0 b1); cbn; lia. }
  unfold two32, two64 in *. lia.
Qed.

(** ** INT_SUM *)
Lemma sum_col0_zsum rows : sum_col0 rows = zsum (map (fun r => nth 0 r 0) rows) mod two64.
Proof.
  unfold sum_col0. 
  assert (H : forall rows acc, fold_left (fun acc r => u64 (acc + nth 0 r 0)) rows (acc mod two64)
    = (acc + zsum (map (fun r => nth 0 r 0) rows)) mod two64).
  { induction rows0 as [|r rows0 IH]; intros acc; cbn [fold_left map zsum fold_right].
    - now rewrite Z.add_0_r.
    - unfold u64 at 2. rewrite Zplus_mod_idemp_l. rewrite IH. f_equal. unfold zsum. ring. }
  exact (H rows 0).
Qed.

Lemma sums_cols (o0 o1 : list (list Z)) : length o0 = length o1 ->
  Forall (fun r => length r = 1%nat) o0 -> Forall (fun r => length r = 1%nat) o1 ->
  (zsum (map (fun r => nth 0 r 0) o0) + zsum (map (fun r => nth 0 r 0) o1)) mod two64
  = zsum (map (fun r => nth 0 r 0) (map2 (map2 (fun a b => (a + b) mod two64)) o0 o1)) mod two64.
Proof.
  revert o1. induction o0 as [|r0 o0 IH]; intros [|r1 o1] L F0 F1; try discriminate; auto.
  inversion F0; subst. inversion F1; subst. injection L as L.
  specialize (IH o1 L H2 H4). cbn [map zsum fold_right map2].
  fold (zsum (map (fun r => nth 0 r 0) o0)) (zsum (map (fun r => nth 0 r 0) o1)).
  fold (zsum (map (fun r => nth 0 r 0) (map2 (map2 (fun a b => (a + b) mod two64)) o0 o1))).
  destruct r0 as [|x [|]]; try discriminate. destruct r1 as [|y [|]]; try discriminate.
  cbn [map2 nth]. rewrite Zplus_mod_idemp_l. symmetry.
  rewrite <- Zplus_mod_idemp_r, <- IH, Zplus_mod_idemp_r. f_equal. ring.
Qed.

Lemma lxor_lt n a b : 0 <= a < 2 ^ Z.of_nat n -> 0 <= b < 2 ^ Z.of_nat n -> 0 <= Z.lxor a b < 2 ^ Z.of_nat n.
Proof.
  intros Ha Hb. assert (0 <= Z.lxor a b) by (apply Z.lxor_nonneg; lia). split; auto.
  destruct (Z.eq_dec (Z.lxor a b) 0) as [->|]; [apply Z.pow_pos_nonneg; lia|].
  apply Z.log2_lt_pow2; [lia|]. eapply Z.le_lt_trans; [apply Z.log2_lxor; lia|].
  destruct (Z.eq_dec a 0) as [->|]; destruct (Z.eq_dec b 0) as [->|];
    rewrite ?Z.lxor_0_l, ?Z.lxor_0_r in *; try lia.
  - cbn [Z.log2]. apply Z.max_lub_lt; [|apply Z.log2_lt_pow2; lia].
    enough (0 <= Z.log2 b < Z.of_nat n) by lia. split; [apply Z.log2_nonneg|apply Z.log2_lt_pow2; lia].
  - apply Z.max_lub_lt; [apply Z.log2_lt_pow2; lia|].
    enough (0 <= Z.log2 a < Z.of_nat n) by (cbn [Z.log2]; lia).
    split; [apply Z.log2_nonneg|apply Z.log2_lt_pow2; lia].
  - apply Z.max_lub_lt; apply Z.log2_lt_pow2; lia.
Qed.

Lemma find_forall {V} (P : V -> Prop) (m : table V) k v :
  Forall (fun e => P (snd e)) m -> find k m = Some v -> P v.
Proof. intros H F. apply find_in in F. rewrite Forall_forall in H. exact (H _ F). Qed.

Lemma int_rows num_bits (m0 : table Z) (l : table Z) :
  (num_bits <= 63)%nat ->
  Forall (fun e => 0 <= snd e < 2 ^ Z.of_nat num_bits) m0 ->
  Forall (fun e => 0 <= snd e < 2 ^ Z.of_nat num_bits) l ->
  map (fun r => nth 0 r 0)
    (map3 (row_spec 0 [num_bits]) (map is_some (map (fun pk => find pk m0) (map fst l)))
       (map (fun f => [get 0 f]) (map (fun pk => find pk m0) (map fst l)))
       (map (fun e => [snd e]) l))
  = map (with0 m0 Z.lxor 0) l.
Proof.
  intros HB H0 Hl. induction Hl as [|[k b] l Hb Hl IH]; auto.
  cbn [map map3 fst snd]. rewrite IH. f_equal. unfold with0. cbn [fst snd].
  destruct (find k m0) as [a|] eqn:F; [|reflexivity].
  pose proof (find_forall (fun v => 0 <= v < 2 ^ Z.of_nat num_bits) m0 k a H0 F) as Ha. cbn [snd] in Hb.
  cbn [is_some get row_spec map3 nth].
  unfold col_spec. pose proof (lxor_lt num_bits a b Ha Hb) as R.
  rewrite (Z.mod_small _ (2 ^ _)) by auto. apply Z.mod_small.
  change (ot_modulus 0) with two64. split; [lia|]. eapply Z.lt_le_trans; [apply R|].
  change two64 with (2 ^ 64). apply Z.pow_le_mono_r; lia.
Qed.

Lemma int_sum_tables order num_bits m0 m1 total rnd L :
  fair order -> keys_ok m1 -> Z.of_nat (length m1) < two32 -> both_in m0 m1 L -> (num_bits <= 63)%nat ->
  Forall (fun e => 0 <= snd e < 2 ^ Z.of_nat num_bits) m0 ->
  Forall (fun e => 0 <= snd e < 2 ^ Z.of_nat num_bits) m1 ->
  rel (int_sum0 num_bits m0 total rnd) (int_sum1 order num_bits m1)
    (fun r0 r1 => r1 = RET_NO_ANS /\
      r0 = outcome (length L) total (zsum (map (at_both Z.lxor 0 m0 m1) L) mod two64)).
Proof.
  intros HF [HN HK] HS HL HB V0 V1. unfold int_sum0, int_sum1.
  pose proof (HF _ m1) as HP. 
  assert (Vl : Forall (fun e => 0 <= snd e < 2 ^ Z.of_nat num_bits) (order Z m1)) by now apply fair_forall.
  set (l := order Z m1) in *.
  eapply rel_deliver'.
  { apply delivers_announce; [now apply fair_forall|]. unfold l. now rewrite fair_length. }
  eapply rel_bind.
  { apply (intsum_rel false rnd 0 [num_bits]).
    - now left.
    - constructor; [|constructor]. split; [lia|]. intros H. now elim H.
    - now rewrite !map_length.
    - now rewrite !map_length.
    - apply Forall_map, Forall_forall. reflexivity.
    - apply Forall_map, Forall_forall. reflexivity. }
  intros o0 o1 (L0 & L1 & F0 & F1 & _ & _ & E). change (ot_modulus 0) with two64 in E.
  cbn [length] in F0, F1.
  eapply rel_deliver'.
  { apply delivers_uint64. rewrite sum_col0_zsum. apply Z.mod_pos_bound. reflexivity. }
  rewrite (count_accepted m0 m1 l L HP HN HL), too_few_outcome.
  apply rel_ret. split; auto. f_equal. unfold u64. rewrite !sum_col0_zsum.
  rewrite <- Zplus_mod, sums_cols by (auto; congruence).
  rewrite E, int_rows by auto. now rewrite (zsum_accepted m0 m1 l) with (L := L).
Qed.

(** ** AND, OR *)
Lemma fold_lxor_found (fs : list (option Z)) acc :
  fold_left (fun a f => match f with Some v => Z.lxor a v | None => a end) fs acc
  = Z.lxor acc (zxors (map (get 0) fs)).
Proof.
  revert acc. induction fs as [|[v|] fs IH]; intros acc; cbn [fold_left map zxors fold_right get].
  - now rewrite Z.lxor_0_r.
  - rewrite IH. unfold zxors. now rewrite Z.lxor_assoc.
  - rewrite IH. now rewrite Z.lxor_0_l.
Qed.

Lemma fold_lxor_valid (m0 l : table Z) acc :
  fold_left (fun b ev => if snd ev : bool then Z.lxor b (snd (fst ev)) else b)
    (combine l (map is_some (map (fun pk => find pk m0) (map fst l)))) acc
  = Z.lxor acc (zxors (map (with0 m0 (fun _ b => b) 0) l)).
Proof.
  revert acc. induction l as [|[k w] l IH]; intros acc; cbn [combine map fold_left zxors fold_right fst snd].
  - now rewrite Z.lxor_0_r.
  - unfold with0 at 1. cbn [fst snd]. destruct (find k m0); cbn [is_some]; rewrite IH.
    + unfold zxors. now rewrite Z.lxor_assoc.
    + now rewrite Z.lxor_0_l.
Qed.

Lemma zxors_lxor {A} (f g : A -> Z) l :
  Z.lxor (zxors (map f l)) (zxors (map g l)) = zxors (map (fun x => Z.lxor (f x) (g x)) l).
Proof.
  induction l as [|x l IH]; cbn; auto. unfold zxors in *. cbn. rewrite <- IH.
  rewrite !Z.lxor_assoc. f_equal. rewrite <- !Z.lxor_assoc. f_equal. apply Z.lxor_comm.
Qed.

Lemma word_lxor a b : word a -> word b -> word (Z.lxor a b).
Proof. unfold word. change two64 with (2 ^ Z.of_nat 64). apply lxor_lt. Qed.
Lemma word_0 : word 0. Proof. unfold word, two64. lia. Qed.
Lemma word_zxors {A} (f : A -> Z) l : Forall (fun x => word (f x)) l -> word (zxors (map f l)).
Proof. induction 1; cbn; [apply word_0|]. now apply word_lxor. Qed.

Lemma xors_both (m0 m1 l : table Z) L :
  Permutation l m1 -> NoDup (map fst m1) -> both_in m0 m1 L ->
  Z.lxor (zxors (map (get 0) (map (fun pk => find pk m0) (map fst l))))
         (zxors (map (with0 m0 (fun _ b => b) 0) l))
  = zxors (map (at_both Z.lxor 0 m0 m1) L).
Proof.
  intros HP HN HL. rewrite <- (zxors_accepted m0 m1 l) by auto. rewrite !map_map.
  rewrite zxors_lxor. f_equal. apply map_ext. intros [k b]. unfold with0. cbn [fst snd].
  destruct (find k m0); reflexivity.
Qed.

Lemma xor_op_tables order is_and m0 m1 total L :
  fair order -> keys_ok m1 -> Z.of_nat (length m1) < two32 -> both_in m0 m1 L ->
  Forall (fun e => word (snd e)) m1 ->
  rel (xor_op0 is_and m0 total) (xor_op1 order m1)
    (fun r0 r1 => r1 = RET_NO_ANS /\
      r0 = outcome (length L) total
             (let z := zxors (map (at_both Z.lxor 0 m0 m1) L) =? 0 in if is_and then z else negb z)).
Proof.
  intros HF [HN HK] HS HL V1. unfold xor_op0, xor_op1.
  pose proof (HF _ m1) as HP. 
  assert (Vl : Forall (fun e => word (snd e)) (order Z m1)) by now apply fair_forall.
  set (l := order Z m1) in *.
  eapply rel_deliver'.
  { apply delivers_announce; [now apply fair_forall|]. unfold l. now rewrite fair_length. }
  cbv zeta.
  eapply rel_deliver.
  { eapply delivers_eq; [|reflexivity].
    match goal with |- delivers (send_bool_batch ?v) (recv_bool_batch ?n) _ =>
      replace n with (length v) by now rewrite !map_length end.
    apply delivers_bool_batch. }
  rewrite fold_lxor_valid, Z.lxor_0_l.
  eapply rel_deliver'.
  { apply delivers_uint64. apply word_zxors. eapply Forall_impl; [|exact Vl]. intros [k b] Hb.
    unfold with0. cbn [fst snd] in *. destruct (find k m0); [exact Hb|apply word_0]. }
  rewrite (count_accepted m0 m1 l L HP HN HL), too_few_outcome.
  apply rel_ret. split; auto. f_equal.
  rewrite fold_lxor_found, Z.lxor_0_l, (xors_both m0 m1 l L) by auto. reflexivity.
Qed.

(** ** Ending in a given configuration *)
Definition reach {A B} (k : nat) (p : proc A) (q : proc B) (c : config A B) : Prop :=
  forall cap, (1 <= cap)%nat -> (k <= cap)%nat ->
  (exists n, steps cap n (start p q) c) /\ forall e, ~ step cap c e.

Lemma reach_ends {A B} k (p : proc A) (q : proc B) c : reach k p q c -> ends k p q c.
Proof.
  intros H cap H1 Hk. destruct (H cap H1 Hk) as [(n & Hn) F]. exists n.
  split; intros m d Hm; destruct (confluent _ _ _ _ _ _ Hn F Hm) as (j & -> & Hj); [lia|].
  inversion Hj; subst; eauto.
Qed.

Lemma runs_reach {A B} k (p p' : proc A) (q q' : proc B) c :
  runs p q p' q' -> reach k p' q' c -> reach k p q c.
Proof.
  intros H R cap H1 Hk. destruct (R cap H1 Hk) as [(n & Hn) F]. destruct (H cap H1) as (m & Hm).
  split; auto. exists (m + n)%nat. eapply steps_trans; eauto.
Qed.

Lemma reach_undef {A B} (b : B) : reach 0 (@Undef A) (Ret b) (Cfg Undef (Ret b) [] []).
Proof.
  intros cap _ _. split; [exists 0%nat; constructor|].
  intros e H. inversion H; subst; match goal with L : lstep _ _ _ |- _ => inversion L end.
Qed.

(** ** MAX, MIN *)
Lemma xor_row_length n a b : length a = n -> length b = n -> length (xor_row a b) = n.
Proof. intros <- H. unfold xor_row. rewrite map2_length. lia. Qed.
Lemma nth_xor_row j a b : length a = length b ->
  nth j (xor_row a b) 0 = Z.lxor (nth j a 0) (nth j b 0).
Proof.
  unfold xor_row. revert b j. induction a as [|x a IH]; intros [|y b] j H; try discriminate.
  - now destruct j.
  - destruct j; cbn; auto.
Qed.

Lemma fold_xor_found n (fs : list (option (list Z))) : forall acc, length acc = n ->
  Forall (fun f => match f with Some v => length v = n | None => True end) fs ->
  let r := fold_left (fun a f => match f with Some v => xor_row a v | None => a end) fs acc in
  length r = n /\
  forall j, nth j r 0 = Z.lxor (nth j acc 0) (zxors (map (fun f => nth j (get [] f) 0) fs)).
Proof.
  induction fs as [|[v|] fs IH]; intros acc La F; cbn [fold_left map zxors fold_right get].
  - split; auto. intros j. now rewrite Z.lxor_0_r.
  - inversion F; subst. destruct (IH (xor_row acc v)) as [I1 I2]; auto.
    { now apply xor_row_length. }
    split; auto. intros j. rewrite I2, nth_xor_row by auto. now rewrite Z.lxor_assoc.
  - inversion F; subst. destruct (IH acc) as [I1 I2]; auto. split; auto.
    intros j. rewrite I2. destruct j; cbn [nth]; now rewrite Z.lxor_0_l.
Qed.

Lemma fold_xor_valid n (m0 l : table (list Z)) : forall acc, length acc = n ->
  Forall (fun e => length (snd e) = n) l ->
  let r := fold_left (fun b ev => if snd ev : bool then xor_row b (snd (fst ev)) else b)
    (combine l (map is_some (map (fun pk => find pk m0) (map fst l)))) acc in
  length r = n /\
  forall j, nth j r 0 = Z.lxor (nth j acc 0) (zxors (map (with0 m0 (fun _ b => nth j b 0) 0) l)).
Proof.
  induction l as [|[k w] l IH]; intros acc La F; cbn [combine map fold_left zxors fold_right fst snd].
  - split; auto. intros j. now rewrite Z.lxor_0_r.
  - inversion F; subst. cbn [snd] in H1. unfold with0 at 1. cbn [fst snd].
    destruct (find k m0); cbn [is_some].
    + destruct (IH (xor_row acc w)) as [I1 I2]; auto.
      { now apply xor_row_length. }
      split; auto. intros j. rewrite I2, nth_xor_row by auto. now rewrite Z.lxor_assoc.
    + destruct (IH acc) as [I1 I2]; auto.
Qed.

Lemma scan_down_highest a b B j :
  highest B (fun j => xor_at j a b) j -> scan_down a b B = Some j.
Proof.
  unfold xor_at. intros (H1 & H2 & H3). induction B as [|B IH]; cbn [scan_down].
  - assert (j = 0%nat) by lia. subst.
    destruct (Z.eqb_spec (nth 0 a 0) (nth 0 b 0)) as [E|]; auto.
    rewrite E, Z.lxor_nilpotent in H2. now elim H2.
  - destruct (Z.eqb_spec (nth (S B) a 0) (nth (S B) b 0)) as [E|N]; cbn [negb].
    + apply IH; [|intros; apply H3; lia]. destruct (Nat.eq_dec j (S B)) as [->|]; [|lia].
      rewrite E, Z.lxor_nilpotent in H2. now elim H2.
    + destruct (Nat.eq_dec j (S B)) as [->|]; auto. exfalso. apply N.
      apply Z.lxor_eq. apply H3. lia.
Qed.
Lemma scan_down_none a b B : (forall j, (j <= B)%nat -> xor_at j a b = 0) -> scan_down a b B = None.
Proof.
  unfold xor_at. intros H. induction B as [|B IH]; cbn [scan_down].
  - rewrite (Z.lxor_eq _ _ (H 0%nat ltac:(lia))), Z.eqb_refl. reflexivity.
  - rewrite (Z.lxor_eq _ _ (H (S B) ltac:(lia))), Z.eqb_refl. cbn. apply IH. intros; apply H; lia.
Qed.

Lemma word_xor_row n a b : length a = n -> length b = n -> Forall word a -> Forall word b -> Forall word (xor_row a b).
Proof.
  unfold xor_row. intros _ _ Ha. revert b. induction Ha; intros [|y b] Hb; cbn; auto.
  inversion Hb; subst. constructor; auto. now apply word_lxor.
Qed.

Lemma fold_xor_word n (m0 l : table (list Z)) : forall acc, length acc = n -> Forall word acc ->
  Forall (fun e => length (snd e) = n /\ Forall word (snd e)) l ->
  Forall word (fold_left (fun b ev => if snd ev : bool then xor_row b (snd (fst ev)) else b)
    (combine l (map is_some (map (fun pk => find pk m0) (map fst l)))) acc).
Proof.
  induction l as [|[k w] l IH]; intros acc La Ha F; cbn [combine map fold_left fst snd]; auto.
  inversion F; subst. cbn [snd] in H1. destruct H1 as [H1 H1'].
  destruct (find k m0); cbn [is_some]; apply IH; auto.
  - now apply xor_row_length.
  - apply word_xor_row with (n := length acc); auto.
Qed.

Lemma max_op_tables order is_max B m0 m1 total L :
  fair order -> keys_ok m1 -> Z.of_nat (length m1) < two32 -> both_in m0 m1 L ->
  Forall (fun e => length (snd e) = (B + 1)%nat) m0 ->
  Forall (fun e => length (snd e) = (B + 1)%nat /\ Forall word (snd e)) m1 ->
  exists a b,
    (forall j, xor_at j a b = zxors (map (at_both (xor_at j) 0 m0 m1) L)) /\
    runs (max_op0 is_max B m0 total) (max_op1 order B m1)
      (if too_few (length L) total then Ret RET_INVALID
       else match scan_down a b B with
       | None => Undef
       | Some j => Ret (RET_ANS (Z.of_nat (if is_max then j else B - j)))
       end) (Ret RET_NO_ANS).
Proof.
  intros HF [HN HK] HS HL V0 V1. unfold max_op0, max_op1.
  pose proof (HF _ m1) as HP.
  assert (Vl : Forall (fun e => length (snd e) = (B + 1)%nat /\ Forall word (snd e)) (order _ m1))
    by now apply fair_forall.
  set (l := order _ m1) in *.
  set (found := map (fun pk => find pk m0) (map fst l)).
  destruct (fold_xor_found (B + 1) found (repeat 0 (B + 1))) as [A1 A2].
  { apply repeat_length. }
  { unfold found. apply Forall_map, Forall_forall. intros k _. destruct (find k m0) eqn:F; auto.
    exact (find_forall (fun v => length v = (B + 1)%nat) m0 k l0 V0 F). }
  destruct (fold_xor_valid (B + 1) m0 l (repeat 0 (B + 1))) as [B1 B2].
  { apply repeat_length. }
  { eapply Forall_impl; [|exact Vl]. now intros ? []. }
  pose proof (fold_xor_word (B + 1) m0 l (repeat 0 (B + 1)) (repeat_length _ _)) as BW.
  fold found in B1, B2, BW.
  set (a := fold_left (fun a f => match f with Some v => xor_row a v | None => a end) found _) in *.
  set (b := fold_left (fun b ev => if snd ev : bool then xor_row b (snd (fst ev)) else b) _ _) in *.
  exists a, b. split.
  - intros j. unfold xor_at at 1. rewrite A2, B2.
    assert (R : nth j (repeat 0 (B + 1)) 0 = 0).
    { destruct (nth_in_or_default j (repeat 0 (B + 1)) 0) as [H|H]; auto. now apply repeat_spec in H. }
    rewrite R, !Z.lxor_0_l.
    rewrite <- (zxors_accepted m0 m1 l) by auto. unfold found. rewrite !map_map.
    rewrite zxors_lxor. f_equal. apply map_ext. intros [k w]. unfold with0. cbn [fst snd].
    destruct (find k m0); cbn [get]; auto. now destruct j.
  - eapply runs_trans.
    { eapply delivers_runs'. apply delivers_announce; [now apply fair_forall|].
      unfold l. now rewrite fair_length. }
    cbv zeta. fold found.
    eapply runs_trans.
    { eapply delivers_runs. replace (length l) with (length (map is_some found))
        by (unfold found; now rewrite !map_length).
      apply delivers_bool_batch. }
    fold a b. eapply runs_trans.
    { eapply delivers_runs'. rewrite <- B1. apply delivers_uint64_batch. apply BW; auto.
      apply Forall_forall. intros x Hx. apply repeat_spec in Hx as ->. apply word_0. }
    unfold found. rewrite (count_accepted m0 m1 l L HP HN HL). apply runs_refl.
Qed.
