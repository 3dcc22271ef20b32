(** * Debugging runs of the single operations: proofs for C56 *)
From Coq Require Import ZArith List Bool Lia Permutation.
From Verif Require Import Words WordsFacts Constants Proc ProcFacts Net NetFacts SpecNet RelFacts
  ServerOps SpecServer TableFacts ServerFacts ServerProps ServerCor ClientOps SpecClient ClientFacts ClientProps
  DebugOps SpecDebug DebugFacts.
Import ListNotations.
Open Scope Z_scope.

(** ** How many are left *)
Lemma filter_short {A} (f : A -> bool) l : (length (filter f l) <= length l)%nat.
Proof. induction l as [|x l IH]; cbn; [lia|]. destruct (f x); cbn; lia. Qed.
Lemma filter_all {A} (f : A -> bool) l : (forall x, In x l -> f x = true) -> filter f l = l.
Proof. induction l as [|x l IH]; intros H; cbn; [reflexivity|]. rewrite (H x) by now left. f_equal. apply IH. intros; apply H; now right. Qed.

Lemma left_over (f : nat -> bool) c n : (c <= n)%nat -> (forall i, (c <= i)%nat -> f i = true) ->
  length (filter f (seq 0 n)) = (length (filter f (seq 0 c)) + (n - c))%nat.
Proof.
  intros H F. replace n with (c + (n - c))%nat at 1 by lia. rewrite seq_app, filter_app, app_length. f_equal.
  rewrite (filter_all f (seq (0 + c) (n - c))), seq_length; auto. intros x Hx. apply in_seq in Hx. apply F. lia.
Qed.
Lemma marked3_late i : (5 <= i)%nat -> negb (marked3 i) = true.
Proof. intros. unfold marked3. destruct (Nat.eqb_spec i 0), (Nat.eqb_spec i 2), (Nat.eqb_spec i 4); cbn; auto; lia. Qed.
Lemma marked_int_late i : (7 <= i)%nat -> negb (marked_int i) = true.
Proof. intros. unfold marked_int. destruct (Nat.leb_spec i 2), (Nat.eqb_spec i 4), (Nat.eqb_spec i 6); cbn; auto; lia. Qed.
Lemma marked3_cases i : marked3 i = true <-> i = 0%nat \/ i = 2%nat \/ i = 4%nat.
Proof. unfold marked3. destruct (Nat.eqb_spec i 0), (Nat.eqb_spec i 2), (Nat.eqb_spec i 4); cbn; split; intros; auto; try lia; try discriminate. Qed.
Lemma marked_int_cases i : marked_int i = true <-> i = 0%nat \/ i = 1%nat \/ i = 2%nat \/ i = 4%nat \/ i = 6%nat.
Proof. unfold marked_int. destruct (Nat.leb_spec i 2), (Nat.eqb_spec i 4), (Nat.eqb_spec i 6); cbn; split; intros; auto; try lia; try discriminate. Qed.

Lemma valids_length {V W} (R : nat -> drec V W) n :
  length (valids (map R (seq 0 n))) = length (filter (fun i => d_valid (R i)) (seq 0 n)).
Proof. unfold valids. rewrite filter_map_seq, !map_length. reflexivity. Qed.

Lemma valid_rec {V W} (R : nat -> drec V W) n r : In r (valids (map R (seq 0 n))) ->
  exists i, (i < n)%nat /\ d_valid (R i) = true /\ r = mkC (d_id (R i)) (d_0 (R i)) (d_1 (R i)) (d_real (R i)).
Proof.
  unfold valids. rewrite filter_map_seq, map_map. intros H. apply in_map_iff in H as (i & <- & H).
  apply filter_In in H as [H Hv]. apply in_seq in H. exists i. repeat split; auto. lia.
Qed.
Lemma valids_short {V W} (R : nat -> drec V W) n : (length (valids (map R (seq 0 n))) <= n)%nat.
Proof. rewrite valids_length. etransitivity; [apply filter_short|now rewrite seq_length]. Qed.

Lemma enough3 {V W} (R : nat -> drec V W) n {A} (x : A) : (forall i, d_valid (R i) = negb (marked3 i)) -> (6 <= n)%nat ->
  outcome (length (valids (map R (seq 0 n)))) n x = RET_ANS x.
Proof.
  intros E H. rewrite valids_length, (left_over _ 5) by (try lia; intros; rewrite E; now apply marked3_late).
  cbn [seq filter]. rewrite !E. cbn. unfold outcome.
  match goal with |- context [(?a <? ?b)%nat] => destruct (Nat.ltb_spec a b); [lia|reflexivity] end.
Qed.
Lemma enough_int {V W} (R : nat -> drec V W) n {A} (x : A) : (forall i, d_valid (R i) = negb (marked_int i)) -> (10 <= n)%nat ->
  outcome (length (valids (map R (seq 0 n)))) n x = RET_ANS x.
Proof.
  intros E H. rewrite valids_length, (left_over _ 7) by (try lia; intros; rewrite E; now apply marked_int_late).
  cbn [seq filter]. rewrite !E. cbn. unfold outcome.
  match goal with |- context [(?a <? ?b)%nat] => destruct (Nat.ltb_spec a b); [lia|reflexivity] end.
Qed.

Lemma two32_64 n : Z.of_nat n < two32 -> Z.of_nat n < two64.
Proof. unfold two32, two64. lia. Qed.

(** ** BIT_SUM *)
Lemma bit_debug g stale n order0 order1 junk0 junk1 rnd0 rnd1 :
  prg_ok g -> Z.of_nat n < two32 -> fair order1 -> length junk0 = 33%nat -> length junk1 = 33%nat ->
  released_ok g stale n 0 2 4 ->
  let l := bit_sum_invalid g stale n in
  both (bit_sum false order0 n (wire BitShare_bytes (dsubs0 l)) junk0 rnd0)
       (bit_sum true order1 n (wire BitShare_bytes (dsubs1 l)) junk1 rnd1)
    (fun r0 r1 => r1 = RET_NO_ANS /\ r0 = outcome (length (valids l)) n (bit_ans (valids l)) /\
       ((6 <= n)%nat -> r0 = RET_ANS (bit_ans (valids l)))).
Proof.
  intros HG Hn HF J0 J1 REL. unfold bit_sum_invalid. set (real := random_bool g n n).
  set (sh := random_bool g (n + blocks n) n). cbv zeta.
  set (R := fun i => mkD (pub_key_to_hex (g i)) (key0 0 2 stale i (pub_key_to_hex (g i)))
      (key1 4 stale i (pub_key_to_hex (g i))) (nth i sh false) (xorb (nth i real false) (nth i sh false))
      (nth i real false) (negb (marked3 i))).
  pose proof (two32_64 n Hn) as Hn64. pose proof (prg_blocks g n HG Hn64) as HB64.
  assert (PL : (0 < 2 < 4)%nat /\ d_valid (R (2 - 1)%nat) = true /\ d_valid (R (4 - 1)%nat) = true) by (repeat split; lia).
  assert (GOOD : forall i, (i < n)%nat -> d_valid (R i) = true ->
    i <> 0%nat /\ i <> 2%nat /\ i <> 4%nat /\ any (d_0 (R i)) = true /\ any (d_1 (R i)) = true).
  { intros i _ Hv. cbn in Hv. apply negb_true_iff in Hv. repeat split; auto; intros ->; discriminate. }
  assert (BAD : forall i, (i < n)%nat -> d_valid (R i) = false ->
    i = 0%nat \/ i = 2%nat \/ i = 4%nat \/ any (d_0 (R i)) = false \/ any (d_1 (R i)) = false).
  { intros i _ Hv. cbn in Hv. apply negb_false_iff, marked3_cases in Hv. tauto. }
  pose proof (valids_short R n) as VL.
  eapply both_impl; [|apply (bit_sum_result order0 order1 n n _ _ (dsubs0 (map R (seq 0 n))) (dsubs1 (map R (seq 0 n)))
    junk0 junk1 rnd0 rnd1 (map c_pk (valids (map R (seq 0 n))))); auto].
  - intros a b [-> ->]. split; auto. rewrite map_length.
    replace (zsum _) with (bit_ans (valids (map R (seq 0 n)))).
    + split; auto. intros H6. now rewrite enough3.
    + rewrite bit_ans_sum by lia. f_equal.
      rewrite (debug_combined any R g stale n 0 2 4) by (auto; reflexivity). apply map_ext_in. intros r Hr.
      apply valid_rec in Hr as (i & _ & _ & ->). cbn. unfold bit_val.
      now destruct (nth i real false), (nth i sh false).
  - apply (debug_arrives0 any R g stale n 0 2 4); auto; reflexivity.
  - apply (debug_arrives1 any R g stale n 0 2 4); auto; reflexivity.
  - apply (debug_accepted any R g stale n 0 2 4); auto; reflexivity.
Qed.

(** ** INT_SUM *)
Lemma lxor_big w x y : 0 <= y < 2 ^ Z.of_nat w -> 2 ^ Z.of_nat w <= x -> 2 ^ Z.of_nat w <= Z.lxor x y.
Proof.
  intros Hy Hx. assert (H0 : 0 < 2 ^ Z.of_nat w) by (apply Z.pow_pos_nonneg; lia).
  destruct (Z.le_gt_cases (2 ^ Z.of_nat w) (Z.lxor x y)) as [|G]; auto. exfalso.
  assert (A : 0 <= Z.lxor x y) by (apply Z.lxor_nonneg; lia).
  pose proof (lxor_lt w (Z.lxor x y) y (conj A G) Hy) as B.
  rewrite Z.lxor_assoc, Z.lxor_nilpotent, Z.lxor_0_r in B. lia.
Qed.
Lemma int_ans_sum (l : list (crec Z Z)) : int_ans l = zsum (map c_real l) mod two64.
Proof.
  unfold int_ans. rewrite (fold_left_map' (fun s x => u64 (s + x)) c_real).
  change 0 with (u64 0) at 1. rewrite fold_u64_sum. reflexivity.
Qed.
Lemma lxor_word x y : word x -> word y -> word (Z.lxor x y).
Proof. unfold word. change two64 with (2 ^ Z.of_nat 64). apply lxor_lt. Qed.

Lemma int_debug num_bits g stale n order0 order1 junk0 junk1 rnd0 rnd1 :
  (num_bits <= 63)%nat ->
  prg_ok g -> Z.of_nat n < two32 -> fair order1 -> length junk0 = 40%nat -> length junk1 = 40%nat ->
  released_ok g stale n 2 4 6 ->
  let M := 2 ^ Z.of_nat num_bits in
  let l := int_sum_invalid M g stale n in
  too_big M l ->
  both (int_sum false order0 num_bits n (wire IntShare_bytes (dsubs0 l)) junk0 rnd0)
       (int_sum true order1 num_bits n (wire IntShare_bytes (dsubs1 l)) junk1 rnd1)
    (fun r0 r1 => r1 = RET_NO_ANS /\ r0 = outcome (length (valids l)) n (int_ans (valids l)) /\
       ((10 <= n)%nat -> r0 = RET_ANS (int_ans (valids l)))).
Proof.
  intros HB HG Hn HF J0 J1 REL. unfold int_sum_invalid. set (M := 2 ^ Z.of_nat num_bits). cbv zeta.
  destruct (random_words_ok g n n HG) as [LR FR].
  destruct (random_words_ok g (n + blocks (8 * n)) n HG) as [LS FS].
  set (rv := random_words g n n) in *. set (s0 := random_words g (n + blocks (8 * n)) n) in *.
  set (R := fun i => mkD (pub_key_to_hex (g i)) (key0 2 4 stale i (pub_key_to_hex (g i)))
      (key1 6 stale i (pub_key_to_hex (g i)))
      (if (i =? 1)%nat then nth i s0 0 else nth i s0 0 mod M)
      (Z.lxor (if (i =? 0)%nat then nth i rv 0 else nth i rv 0 mod M) (if (i =? 1)%nat then nth i s0 0 else nth i s0 0 mod M))
      (if (i =? 0)%nat then nth i rv 0 else nth i rv 0 mod M) (negb (marked_int i))).
  intros TB. pose proof (two32_64 n Hn) as Hn64. pose proof (prg_blocks g n HG Hn64) as HB64.
  assert (HM : 0 < M) by (apply Z.pow_pos_nonneg; lia).
  pose proof (pow_le_two64 num_bits HB) as HM64. fold M in HM64.
  assert (MW : forall x, word (x mod M)).
  { intros x. pose proof (Z.mod_pos_bound x M HM). unfold word. lia. }
  assert (W0 : forall i, word (d_0 (R i))).
  { intros i. cbn. destruct (i =? 1)%nat; auto using nth_word. }
  assert (WR : forall i, word (d_real (R i))).
  { intros i. cbn. destruct (i =? 0)%nat; auto using nth_word. }
  assert (W1 : forall i, word (d_1 (R i))) by (intros i; apply lxor_word; [apply WR|apply W0]).
  assert (S0 : forall i, (i <> 1)%nat -> 0 <= d_0 (R i) < M).
  { intros i Hi. cbn. destruct (Nat.eqb_spec i 1); [easy|]. now apply Z.mod_pos_bound. }
  assert (SR : forall i, (i <> 0)%nat -> 0 <= d_real (R i) < M).
  { intros i Hi. cbn. destruct (Nat.eqb_spec i 0); [easy|]. now apply Z.mod_pos_bound. }
  assert (PL : (2 < 4 < 6)%nat /\ d_valid (R (4 - 1)%nat) = true /\ d_valid (R (6 - 1)%nat) = true) by (repeat split; lia).
  assert (MK : forall i, d_valid (R i) = true -> i <> 0%nat /\ i <> 1%nat /\ i <> 2%nat /\ i <> 4%nat /\ i <> 6%nat).
  { intros i Hv. cbn in Hv. apply negb_true_iff in Hv. repeat split; intros ->; discriminate. }
  assert (GOOD : forall i, (i < n)%nat -> d_valid (R i) = true ->
    i <> 2%nat /\ i <> 4%nat /\ i <> 6%nat /\ fits num_bits (d_0 (R i)) = true /\ fits num_bits (d_1 (R i)) = true).
  { intros i _ Hv. apply MK in Hv as (N0 & N1 & N2 & N4 & N6). repeat split; auto; unfold fits; fold M; apply Z.ltb_lt.
    - now apply S0.
    - apply (lxor_lt num_bits); [now apply SR|now apply S0]. }
  assert (BAD : forall i, (i < n)%nat -> d_valid (R i) = false ->
    i = 2%nat \/ i = 4%nat \/ i = 6%nat \/ fits num_bits (d_0 (R i)) = false \/ fits num_bits (d_1 (R i)) = false).
  { intros i Hi Hv. cbn [R d_valid] in Hv. apply negb_false_iff, marked_int_cases in Hv. destruct TB as [T0 T1].
    destruct Hv as [->|[->|[->|[->| ->]]]]; auto; do 3 right.
    - right. unfold fits. fold M. apply Z.ltb_ge. apply (lxor_big num_bits); [apply (S0 0%nat); lia|].
      apply (T0 (R 0%nat)). destruct n; [lia|]. reflexivity.
    - left. unfold fits. fold M. apply Z.ltb_ge. apply (T1 (R 1%nat)). destruct n as [|[|?]]; [lia|lia|]. reflexivity. }
  assert (E : map (fun r : crec Z Z => Z.lxor (c_0 r) (c_1 r)) (valids (map R (seq 0 n))) = map c_real (valids (map R (seq 0 n)))).
  { apply map_ext_in. intros r Hr. apply valid_rec in Hr as (i & _ & _ & ->). cbn [c_0 c_1 c_real R d_0 d_1 d_real].
    rewrite Z.lxor_comm, Z.lxor_assoc, Z.lxor_nilpotent. apply Z.lxor_0_r. }
  eapply both_impl; [|apply (int_sum_result num_bits order0 order1 n n _ _ (dsubs0 (map R (seq 0 n))) (dsubs1 (map R (seq 0 n)))
    junk0 junk1 rnd0 rnd1 (map c_pk (valids (map R (seq 0 n))))); auto].
  - intros a b [-> ->]. split; auto. rewrite map_length.
    rewrite (debug_combined (fits num_bits) R g stale n 2 4 6) by (auto; reflexivity). rewrite E, <- int_ans_sum.
    split; auto. intros H10. now rewrite enough_int.
  - apply (debug_arrives0 (fits num_bits) R g stale n 2 4 6); auto; reflexivity.
  - apply (debug_arrives1 (fits num_bits) R g stale n 2 4 6); auto; reflexivity.
  - apply Forall_map, Forall_map, Forall_forall. intros i _. apply W0.
  - apply Forall_map, Forall_map, Forall_forall. intros i _. apply W1.
  - apply (debug_accepted (fits num_bits) R g stale n 2 4 6); auto; reflexivity.
Qed.

(** ** AND, OR *)
Lemma xor_debug is_and g stale n order0 order1 junk0 junk1 :
  prg_ok g -> Z.of_nat n < two32 -> fair order1 -> length junk0 = 40%nat -> length junk1 = 40%nat ->
  released_ok g stale n 0 2 4 ->
  let l := xor_op_invalid is_and g stale n in
  let e := zxors (map (fun r => Z.lxor (c_0 r) (c_1 r)) (valids l)) in
  both (xor_op false order0 is_and n (wire IntShare_bytes (dsubs0 l)) junk0)
       (xor_op true order1 is_and n (wire IntShare_bytes (dsubs1 l)) junk1)
    (fun r0 r1 => r1 = RET_NO_ANS /\
       exists ans, r0 = outcome (length (valids l)) n ans /\ ((6 <= n)%nat -> r0 = RET_ANS ans) /\
         (xor_ans is_and (valids l) = is_and -> ans = is_and) /\
         (xor_ans is_and (valids l) = negb is_and -> e <> 0 -> ans = negb is_and) /\
         (ans = negb is_and -> exists r, In r (valids l) /\ c_real r = negb is_and)).
Proof.
  intros HG Hn HF J0 J1 REL. unfold xor_op_invalid. cbv zeta.
  destruct (random_words_ok g (n + blocks n) n HG) as [LE FE].
  destruct (random_words_ok g (n + blocks n + blocks (8 * n)) n HG) as [LS FS].
  set (rv := random_bool g n n) in *. set (ev := random_words g (n + blocks n) n) in *.
  set (s0 := random_words g (n + blocks n + blocks (8 * n)) n) in *.
  set (enc := fun i => if (if is_and then nth i rv false else negb (nth i rv false)) then 0 else nth i ev 0).
  change (map _ (seq 0 n)) with (map (fun i => mkD (pub_key_to_hex (g i)) (key0 0 2 stale i (pub_key_to_hex (g i)))
      (key1 4 stale i (pub_key_to_hex (g i))) (nth i s0 0) (Z.lxor (enc i) (nth i s0 0))
      (nth i rv false) (negb (marked3 i))) (seq 0 n)).
  set (R := fun i => mkD (pub_key_to_hex (g i)) (key0 0 2 stale i (pub_key_to_hex (g i)))
      (key1 4 stale i (pub_key_to_hex (g i))) (nth i s0 0) (Z.lxor (enc i) (nth i s0 0))
      (nth i rv false) (negb (marked3 i))).
  pose proof (two32_64 n Hn) as Hn64. pose proof (prg_blocks g n HG Hn64) as HB64.
  assert (PL : (0 < 2 < 4)%nat /\ d_valid (R (2 - 1)%nat) = true /\ d_valid (R (4 - 1)%nat) = true) by (repeat split; lia).
  assert (GOOD : forall i, (i < n)%nat -> d_valid (R i) = true ->
    i <> 0%nat /\ i <> 2%nat /\ i <> 4%nat /\ any (d_0 (R i)) = true /\ any (d_1 (R i)) = true).
  { intros i _ Hv. cbn in Hv. apply negb_true_iff in Hv. repeat split; auto; intros ->; discriminate. }
  assert (BAD : forall i, (i < n)%nat -> d_valid (R i) = false ->
    i = 0%nat \/ i = 2%nat \/ i = 4%nat \/ any (d_0 (R i)) = false \/ any (d_1 (R i)) = false).
  { intros i _ Hv. cbn in Hv. apply negb_false_iff, marked3_cases in Hv. tauto. }
  assert (WE : forall i, word (enc i)).
  { intros i. unfold enc. match goal with |- context [if ?b then 0 else _] => destruct b end;
      [unfold word, two64; lia|now apply nth_word]. }
  set (v := valids (map R (seq 0 n))). set (e := zxors (map (fun r => Z.lxor (c_0 r) (c_1 r)) v)).
  assert (F : forall r, In r v -> c_real r = is_and -> Z.lxor (c_0 r) (c_1 r) = 0).
  { intros r Hr. apply valid_rec in Hr as (i & _ & _ & ->). cbn [c_0 c_1 c_real R d_0 d_1 d_real]. intros ER.
    unfold enc. rewrite ER. replace (if is_and then is_and else negb is_and) with true by now destruct is_and.
    rewrite Z.lxor_0_l. apply Z.lxor_nilpotent. }
  assert (N : xor_ans is_and v = is_and -> e = 0).
  { intros H. unfold e. apply zxors_zero. intros r Hr. apply (F r Hr).
    now apply (proj1 (xor_ans_neutral is_and v) H). }
  eapply both_impl; [|apply (xor_op_result is_and order0 order1 n n _ _ (dsubs0 (map R (seq 0 n))) (dsubs1 (map R (seq 0 n)))
    junk0 junk1 (map c_pk v)); auto].
  - intros a b [-> ->]. split; auto. rewrite map_length.
    assert (C : map (combined any Z.lxor 0 (dsubs0 (map R (seq 0 n))) (dsubs1 (map R (seq 0 n)))) (map c_pk v)
      = map (fun r => Z.lxor (c_0 r) (c_1 r)) v) by (apply (debug_combined any R g stale n 0 2 4); auto; reflexivity).
    rewrite C. fold e. eexists. split; [reflexivity|]. split; [intros H6; exact (enough3 R n _ (fun i => eq_refl) H6)|].
    cbv zeta. destruct (Z.eqb_spec e 0) as [E|E].
    + split; [now destruct is_and|]. split; [easy|]. intros H. now destruct is_and.
    + split; [intros H; elim E; auto|]. split; [now destruct is_and|]. intros _.
      destruct (existsb (fun r => Bool.eqb (c_real r) (negb is_and)) v) eqn:X.
      * apply existsb_exists in X as (r & Hr & Er%eqb_prop). eauto.
      * exfalso. apply E, N, xor_ans_neutral. intros r Hr.
        rewrite <- not_true_iff_false, existsb_exists in X.
        destruct (Bool.eqb (c_real r) (negb is_and)) eqn:Er; [exfalso; eauto|].
        apply eqb_false_iff in Er. now destruct (c_real r), is_and.
  - apply (debug_arrives0 any R g stale n 0 2 4); auto; reflexivity.
  - apply (debug_arrives1 any R g stale n 0 2 4); auto; reflexivity.
  - apply Forall_map, Forall_map, Forall_forall. intros i _. now apply nth_word.
  - apply Forall_map, Forall_map, Forall_forall. intros i _. apply lxor_word; [apply WE|now apply nth_word].
  - apply (debug_accepted any R g stale n 0 2 4); auto; reflexivity.
Qed.

(** ** MAX, MIN *)
Lemma highest_exists B (X : nat -> Z) j0 : (j0 <= B)%nat -> X j0 <> 0 -> exists j, highest B X j.
Proof.
  intros Hj0 HX0.
  assert (H : forall d, (j0 + d <= B)%nat -> (exists i, (j0 <= i <= j0 + d)%nat /\ X i <> 0 /\
     forall k, (i < k <= j0 + d)%nat -> X k = 0)).
  { induction d as [|d IH]; intros Hd.
    - exists j0. repeat split; auto; [lia|]. intros; lia.
    - destruct IH as (i & Hi & N & Z0); [lia|]. destruct (Z.eq_dec (X (j0 + S d)%nat) 0) as [E|E].
      + exists i. repeat split; auto; [lia|lia|]. intros k Hk. destruct (Nat.eq_dec k (j0 + S d)) as [->|]; auto.
        apply Z0. lia.
      + exists (j0 + S d)%nat. repeat split; auto; [lia|]. intros; lia. }
  destruct (H (B - j0)%nat) as (i & Hi & N & Z0); [lia|]. exists i. split; [lia|]. split; auto.
  intros k Hk. apply Z0. lia.
Qed.

Lemma max_debug is_max B g stale n order0 order1 pk0 pk1 junk0 junk1 :
  prg_ok g -> Z.of_nat n * (Z.of_nat B + 1) < two32 -> (6 <= n)%nat -> fair order1 ->
  length pk0 = 32%nat -> length pk1 = 32%nat ->
  (forall i, length (junk0 i) = (8 * (B + 1))%nat) -> (forall i, length (junk1 i) = (8 * (B + 1))%nat) ->
  released_ok g stale n 0 2 4 ->
  let l := max_op_invalid is_max B g stale n in
  let X := fun j => zxors (map (fun r => xor_at j (c_0 r) (c_1 r)) (valids l)) in
  let m := max_ans is_max B (valids l) in
  let p := max_op false order0 is_max B n (wire maxshare_bytes (dsubs0 l)) pk0 junk0 in
  let q := max_op true order1 is_max B n (wire maxshare_bytes (dsubs1 l)) pk1 junk1 in
  extremum is_max (valids l) m /\
  (X (if is_max then m else B - m)%nat <> 0 ->
     both p q (fun r0 r1 => r1 = RET_NO_ANS /\ r0 = RET_ANS (Z.of_nat m))) /\
  ((exists j, (j <= B)%nat /\ X j <> 0) ->
     both p q (fun r0 r1 => r1 = RET_NO_ANS /\
       exists a, r0 = RET_ANS (Z.of_nat a) /\ if is_max then (a <= m)%nat else (m <= a)%nat)).
Proof.
  intros HG HN H6 HF P0 P1 J0 J1 REL. unfold max_op_invalid. set (mm := (B + 1)%nat).
  set (values := random_words g n n).
  set (val := fun i => Z.to_nat (nth i values 0 mod Z.of_nat mm)).
  set (ps := fun i => (n + blocks (8 * n) + i * (2 * blocks (8 * mm)))%nat).
  set (oe := fun i => random_words g (ps i) mm). set (s0 := fun i => random_words g (ps i + blocks (8 * mm)) mm).
  set (lvl := fun i => if is_max then val i else (B - val i)%nat).
  set (enc := fun i => map (fun j => if (lvl i <? j)%nat then 0 else nth j (oe i) 0) (seq 0 mm)).
  set (R := fun i => mkD (pub_key_to_hex (g i)) (key0 0 2 stale i (pub_key_to_hex (g i)))
      (key1 4 stale i (pub_key_to_hex (g i))) (s0 i) (map2 Z.lxor (s0 i) (enc i)) (val i) (negb (marked3 i))).
  change (let l := map R (seq 0 n) in
  let X := fun j => zxors (map (fun r => xor_at j (c_0 r) (c_1 r)) (valids l)) in
  let m := max_ans is_max B (valids l) in
  let p := max_op false order0 is_max B n (wire maxshare_bytes (dsubs0 l)) pk0 junk0 in
  let q := max_op true order1 is_max B n (wire maxshare_bytes (dsubs1 l)) pk1 junk1 in
  extremum is_max (valids l) m /\
  (X (if is_max then m else B - m)%nat <> 0 ->
     both p q (fun r0 r1 => r1 = RET_NO_ANS /\ r0 = RET_ANS (Z.of_nat m))) /\
  ((exists j, (j <= B)%nat /\ X j <> 0) ->
     both p q (fun r0 r1 => r1 = RET_NO_ANS /\
       exists a, r0 = RET_ANS (Z.of_nat a) /\ if is_max then (a <= m)%nat else (m <= a)%nat))).
  assert (Hn : Z.of_nat n < two32) by nia. pose proof (two32_64 n Hn) as Hn64. pose proof (prg_blocks g n HG Hn64) as HB64.
  assert (PL : (0 < 2 < 4)%nat /\ d_valid (R (2 - 1)%nat) = true /\ d_valid (R (4 - 1)%nat) = true) by (repeat split; lia).
  assert (GOOD : forall i, (i < n)%nat -> d_valid (R i) = true ->
    i <> 0%nat /\ i <> 2%nat /\ i <> 4%nat /\ any (d_0 (R i)) = true /\ any (d_1 (R i)) = true).
  { intros i _ Hv. cbn [R d_valid] in Hv. apply negb_true_iff in Hv. repeat split; auto; intros ->; discriminate. }
  assert (BAD : forall i, (i < n)%nat -> d_valid (R i) = false ->
    i = 0%nat \/ i = 2%nat \/ i = 4%nat \/ any (d_0 (R i)) = false \/ any (d_1 (R i)) = false).
  { intros i _ Hv. cbn [R d_valid] in Hv. apply negb_false_iff, marked3_cases in Hv. tauto. }
  assert (LO : forall i, length (oe i) = mm /\ Forall word (oe i)) by (intros; now apply random_words_ok).
  assert (LS : forall i, length (s0 i) = mm /\ Forall word (s0 i)) by (intros; now apply random_words_ok).
  assert (HV : forall i, (val i <= B)%nat).
  { intros i. unfold val. pose proof (Z.mod_pos_bound (nth i values 0) (Z.of_nat mm)). subst mm. lia. }
  assert (LE : forall i, length (enc i) = mm) by (intros; unfold enc; now rewrite map_length, seq_length).
  assert (L1 : forall i, length (map2 Z.lxor (s0 i) (enc i)) = mm).
  { intros i. rewrite map2_length, LE, (proj1 (LS i)). lia. }
  assert (AT : forall i j, (j < mm)%nat -> nth j (map2 Z.lxor (s0 i) (enc i)) 0 = Z.lxor (nth j (s0 i) 0) (if (lvl i <? j)%nat then 0 else nth j (oe i) 0)).
  { intros i j Hj. rewrite nth_map2 with (da := 0) (db := 0) by (rewrite ?LE, ?(proj1 (LS i)); lia).
    f_equal. unfold enc. now rewrite nth_map_seq. }
  assert (W1 : forall i, Forall word (map2 Z.lxor (s0 i) (enc i))).
  { intros i. apply Forall_forall. intros x Hx. apply (In_nth _ _ 0) in Hx as (j & Hj & <-). rewrite L1 in Hj.
    rewrite AT by auto. apply lxor_word; [apply nth_word, LS|].
    destruct (lvl i <? j)%nat; [unfold word, two64; lia|apply nth_word, LO]. }
  clearbody val oe s0.
  intros l X m p q. set (v := valids l) in *.
  assert (NE : v <> []).
  { intros E. assert (I : In (R 1%nat) (filter d_valid l)).
    { apply filter_In. split; [|reflexivity]. unfold l. apply in_map, in_seq. lia. }
    apply (in_map (fun r => mkC (d_id r) (d_0 r) (d_1 r) (d_real r))) in I.
    change (In (mkC (d_id (R 1%nat)) (d_0 (R 1%nat)) (d_1 (R 1%nat)) (d_real (R 1%nat))) v) in I. now rewrite E in I. }
  assert (F : forall r, In r v -> (c_real r <= B)%nat /\
    (forall j, (level is_max B r < j <= B)%nat -> xor_at j (c_0 r) (c_1 r) = 0)).
  { intros r Hr. apply valid_rec in Hr as (i & _ & _ & ->). cbn [R d_id d_0 d_1 d_real c_0 c_1 c_real]. split; auto.
    unfold level. cbn [c_real]. fold (lvl i). intros j Hj. unfold xor_at. rewrite AT by (unfold mm; lia).
    destruct (Nat.ltb_spec (lvl i) j); [|lia]. now rewrite Z.lxor_0_r, Z.lxor_nilpotent. }
  assert (EX : extremum is_max v m).
  { apply max_ans_extremum; auto. apply Forall_forall. intros r Hr. now apply F. }
  assert (COMB : forall j, map (combined any (xor_at j) 0 (dsubs0 l) (dsubs1 l)) (map c_pk v) = map (fun r => xor_at j (c_0 r) (c_1 r)) v).
  { intros j. apply (debug_combined any R g stale n 0 2 4); auto; reflexivity. }
  assert (main : forall j, highest B X j ->
    both p q (fun r0 r1 => r1 = RET_NO_ANS /\ r0 = RET_ANS (Z.of_nat (if is_max then j else B - j)%nat))).
  { intros j Hj. eapply both_impl; [|apply (max_op_result is_max B order0 order1 n n _ _ (dsubs0 l) (dsubs1 l)
      pk0 pk1 junk0 junk1 (map c_pk v) j); auto].
    - intros a b [-> ->]. split; auto. rewrite map_length. apply enough3; auto.
    - apply (debug_arrives0 any R g stale n 0 2 4); auto; reflexivity.
    - apply (debug_arrives1 any R g stale n 0 2 4); auto; reflexivity.
    - apply Forall_map, Forall_map, Forall_forall. intros i _. apply LS.
    - apply Forall_map, Forall_map, Forall_forall. intros i _. split; [apply L1|apply W1].
    - apply (debug_accepted any R g stale n 0 2 4); auto; reflexivity.
    - right. destruct Hj as (A1 & A2 & A3). split; [auto|]. split; [now rewrite COMB|].
      intros k Hk. rewrite COMB. now apply A3. }
  set (lv := if is_max then m else (B - m)%nat).
  assert (ZERO : forall k, (lv < k <= B)%nat -> X k = 0).
  { intros k Hk. apply zxors_zero. intros r Hr.
    destruct (F r Hr) as (A & Z0). apply Z0. destruct EX as [_ EX]. specialize (EX r Hr).
    unfold level, lv in *. destruct is_max; lia. }
  assert (HM : (m <= B)%nat).
  { destruct EX as [(r & Hr & <-) _]. apply (F r Hr). }
  split; auto. split.
  - intros HX. eapply both_impl; [|apply (main lv)].
    + intros a b [-> ->]. split; auto. do 2 f_equal. unfold lv. destruct is_max; lia.
    + split; [unfold lv; destruct is_max; lia|]. split; auto.
  - intros (j0 & Hj0 & HX0). destruct (highest_exists B X j0 Hj0 HX0) as [j Hj].
    eapply both_impl; [|apply (main j Hj)]. intros a b [-> ->]. split; auto.
    eexists. split; [reflexivity|]. destruct Hj as (A1 & A2 & A3).
    assert (j <= lv)%nat.
    { destruct (Nat.le_gt_cases j lv); auto. elim A2. apply ZERO. lia. }
    unfold lv in *. destruct is_max; lia.
Qed.
