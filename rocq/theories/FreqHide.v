(** Other private values that make the same view of a FREQ operation. *)
From Coq Require Import ZArith List Bool Lia Permutation.
From Verif Require Import Words WordsFacts Cong Constants Share SpecShare ShareFacts Proc ProcFacts Net NetFacts SpecNet NetMsg RelFacts OT OTFacts
  Correlated SpecStore CorrelatedFacts MpcFacts Circuit Snip SnipFacts SnipBatch SnipSums ServerOps SpecServer TableFacts ServerFacts ClientOps SpecClient
  ClientFacts SpecPoly SpecSecret SecretFacts SpecPrivacy ViewFacts PrivacyFacts PrivacyProof StatPrivacy SessionFreq SpecFreq FreqFacts ServerProps FreqProps SpecFreqPrivacy FreqView FreqPrivacy.
Import ListNotations.
Open Scope Z_scope.
Local Notation P := Int_Modulus.
Opaque Int_Modulus.

(** ** Bits *)
Lemma masked_eq : forall x ds, masked x ds = map2 xorb x (map b2 ds).
Proof. unfold masked. induction x as [|a x IH]; intros [|d ds]; try reflexivity. cbn [map2 map]. now rewrite IH. Qed.
Lemma masked_same : forall x x' ds ds', length x' = length x -> length ds = length x -> length ds' = length x ->
  map b2 ds' = map2 xorb (map b2 ds) (map2 xorb x x') -> masked x' ds' = masked x ds.
Proof.
  intros x x' ds ds' L1 L2 L3 H. rewrite !masked_eq, H. clear H ds' L3. revert x' ds L1 L2.
  induction x as [|a x IH]; intros [|a' x'] [|d ds] L1 L2; try discriminate; [reflexivity|].
  cbn [map map2]. rewrite IH by (cbn in *; lia). f_equal. now destruct a, a', (b2 d).
Qed.
Lemma firstn_seq n m f : (n <= m)%nat -> firstn n (seq f m) = seq f n.
Proof. revert m f. induction n as [|n IH]; intros [|m] f H; try lia; [reflexivity|reflexivity|]. cbn [seq firstn]. now rewrite IH by lia. Qed.
Lemma seq_from {A} (h : nat -> A) f n : map h (seq f n) = map (fun k => h (f + k)%nat) (seq 0 n).
Proof.
  revert f h. induction n as [|n IH]; intros f h; [reflexivity|]. cbn [seq map]. rewrite Nat.add_0_r. f_equal.
  rewrite IH, (IH 1%nat). apply map_ext. intros k. f_equal. lia.
Qed.
Lemma map2_seq {A B D} (h : A -> B -> D) (f : nat -> A) (g : nat -> B) n :
  map2 h (map f (seq 0 n)) (map g (seq 0 n)) = map (fun k => h (f k) (g k)) (seq 0 n).
Proof. generalize (seq 0 n) as s. induction s as [|k s IH]; [reflexivity|]. cbn [map map2]. now rewrite IH. Qed.
Lemma list_seq {A} (d : A) : forall l, l = map (fun k => nth k l d) (seq 0 (length l)).
Proof.
  induction l as [|a l IH]; [reflexivity|]. cbn [length seq map nth]. f_equal. rewrite <- seq_shift, map_map. exact IH.
Qed.
Lemma map2_list {A D} (h : A -> bool -> D) (f : nat -> A) d :
  map2 h (map f (seq 0 (length d))) d = map (fun k => h (f k) (nth k d false)) (seq 0 (length d)).
Proof. rewrite <- (map2_seq h f (fun k => nth k d false)), <- list_seq. reflexivity. Qed.
Lemma odd_flip z b : Z.odd (z + b2z b) = xorb (Z.odd z) b.
Proof. rewrite Z.odd_add. destruct b; reflexivity. Qed.

(** ** daBits by oblivious transfer *)
Lemma out_bits : forall b x n, length x = length b -> map b2 (firstn n (dabit_out b x)) = firstn n b.
Proof.
  unfold dabit_out. induction b as [|c b IH]; intros [|y x] [|n] L; try discriminate; try reflexivity.
  cbn [map2 firstn map b2]. f_equal. apply IH. now injection L.
Qed.
Lemma ot_got_eq T0 T1 f0 f1 m : ot_got T0 T1 f0 f1 m =
  map (fun k => let w := u64 (T0 (f0 + m + k)%nat) mod P in
                if Z.odd (T1 (f1 + k)%nat) then (w + b2z (Z.odd (T0 (f0 + k)%nat))) mod P else w) (seq 0 m).
Proof.
  unfold ot_got, ot_sent, dabit_msgs, draw_bits, draw_words.
  rewrite (seq_from _ f1), (seq_from _ f0), (seq_from _ (f0 + m)), !map2_seq. reflexivity.
Qed.
Lemma ot_got_length T0 T1 f0 f1 m : length (ot_got T0 T1 f0 f1 m) = m.
Proof. rewrite ot_got_eq. now rewrite map_length, seq_length. Qed.
Lemma drawn T f m n : (n <= m)%nat -> firstn n (draw_bits T f m) = map (fun k => Z.odd (T (f + k)%nat)) (seq 0 n).
Proof. intros H. unfold draw_bits. rewrite seq_from, firstn_map, firstn_seq by exact H. reflexivity. Qed.
Lemma bits0_ot T0 f0 m n : (n <= m)%nat -> map b2 (firstn n (made0 false T0 f0 m)) = map (fun k => Z.odd (T0 (f0 + k)%nat)) (seq 0 n).
Proof.
  intros H. unfold made0. rewrite out_bits by (now rewrite map_length, draw_words_length, draw_bits_length). now apply drawn.
Qed.
Lemma bits1_ot T0 T1 f0 f1 m n : (n <= m)%nat ->
  map b2 (firstn n (made1 false T0 T1 f0 f1 m)) = map (fun k => Z.odd (T1 (f1 + k)%nat)) (seq 0 n).
Proof.
  intros H. unfold made1. rewrite out_bits by (now rewrite ot_got_length, draw_bits_length). now apply drawn.
Qed.

(** Server 1 with other choices. *)
Definition flip_bits (T : nat -> Z) (from : nat) (d : list bool) (i : nat) : Z :=
  if (from <=? i)%nat && (i <? from + length d)%nat then T i + b2z (nth (i - from) d false) else T i.
Lemma flip_bits_at T f d k : (k < length d)%nat -> Z.odd (flip_bits T f d (f + k)) = xorb (Z.odd (T (f + k)%nat)) (nth k d false).
Proof.
  intros H. unfold flip_bits. destruct (Nat.leb_spec f (f + k)); [|lia]. destruct (Nat.ltb_spec (f + k) (f + length d)); [|lia].
  cbn [andb]. rewrite odd_flip. do 2 f_equal. lia.
Qed.
Lemma flipped1 T0 T1 f0 f1 m d : (length d <= m)%nat ->
  map b2 (firstn (length d) (made1 false T0 (flip_bits T1 f1 d) f0 f1 m))
  = map2 xorb (map b2 (firstn (length d) (made1 false T0 T1 f0 f1 m))) d.
Proof.
  intros H. rewrite !bits1_ot by exact H. rewrite map2_list. apply map_ext_in.
  intros k Hk. apply in_seq in Hk. apply flip_bits_at. lia.
Qed.

(** Server 0 with other bits, and other words where server 1 chooses the second message. *)
Definition retape (T0 T1 : nat -> Z) (f0 f1 m : nat) (d : list bool) (i : nat) : Z :=
  let n := length d in
  if (f0 <=? i)%nat && (i <? f0 + n)%nat then T0 i + b2z (nth (i - f0) d false) else
  if (f0 + m <=? i)%nat && (i <? f0 + m + n)%nat then
    let k := (i - f0 - m)%nat in let b := Z.odd (T0 (f0 + k)%nat) in
    if Z.odd (T1 (f1 + k)%nat) then (u64 (T0 i) mod P + b2z b - b2z (xorb b (nth k d false))) mod P else T0 i
  else T0 i.
Lemma retape_bit T0 T1 f0 f1 m d k : (length d <= m)%nat -> (k < m)%nat ->
  Z.odd (retape T0 T1 f0 f1 m d (f0 + k)) = xorb (Z.odd (T0 (f0 + k)%nat)) (nth k d false).
Proof.
  intros H Hk. unfold retape. destruct (Nat.leb_spec f0 (f0 + k)); [|lia].
  destruct (Nat.ltb_spec (f0 + k) (f0 + length d)); cbn [andb].
  - rewrite odd_flip. do 2 f_equal. lia.
  - destruct (Nat.leb_spec (f0 + m) (f0 + k)); [lia|]. cbn [andb]. rewrite nth_overflow by lia. now rewrite xorb_false_r.
Qed.
Lemma retape_word T0 T1 f0 f1 m d k : (length d <= m)%nat -> (k < m)%nat ->
  let b := Z.odd (T0 (f0 + k)%nat) in let w := u64 (T0 (f0 + m + k)%nat) mod P in
  u64 (retape T0 T1 f0 f1 m d (f0 + m + k)) mod P =
  if Z.odd (T1 (f1 + k)%nat) then (w + b2z b - b2z (xorb b (nth k d false))) mod P else w.
Proof.
  intros H Hk b w. unfold retape. destruct (Nat.leb_spec f0 (f0 + m + k)); [|lia].
  destruct (Nat.ltb_spec (f0 + m + k) (f0 + length d)); [lia|]. cbn [andb].
  destruct (Nat.leb_spec (f0 + m) (f0 + m + k)); [|lia]. destruct (Nat.ltb_spec (f0 + m + k) (f0 + m + length d)); cbn [andb].
  - replace (f0 + m + k - f0 - m)%nat with k by lia. fold b. destruct (Z.odd (T1 (f1 + k)%nat)); [|reflexivity].
    fold w. pose proof p_pos. pose proof (Z.mod_pos_bound (w + b2z b - b2z (xorb b (nth k d false))) P ltac:(lia)) as R.
    unfold u64. rewrite (Z.mod_small _ two64); [now rewrite Z.mod_mod by lia|]. assert (P < two64) by reflexivity. lia.
  - rewrite nth_overflow by lia. rewrite xorb_false_r. fold w. destruct (Z.odd (T1 (f1 + k)%nat)); [|reflexivity].
    replace (w + b2z b - b2z b) with w by lia. unfold w. pose proof p_pos. now rewrite Z.mod_mod by lia.
Qed.
Lemma retape_got T0 T1 f0 f1 m d : (length d <= m)%nat -> ot_got (retape T0 T1 f0 f1 m d) T1 f0 f1 m = ot_got T0 T1 f0 f1 m.
Proof.
  intros H. rewrite !ot_got_eq. apply map_ext_in. intros k Hk. apply in_seq in Hk. cbv zeta.
  rewrite retape_bit, retape_word by lia. destruct (Z.odd (T1 (f1 + k)%nat)); [|reflexivity].
  pose proof p_pos. rewrite Zplus_mod_idemp_l. f_equal. lia.
Qed.
Lemma retaped0 T0 T1 f0 f1 m d : (length d <= m)%nat ->
  map b2 (firstn (length d) (made0 false (retape T0 T1 f0 f1 m d) f0 m)) = map2 xorb (map b2 (firstn (length d) (made0 false T0 f0 m))) d.
Proof.
  intros H. rewrite !bits0_ot by exact H. rewrite map2_list. apply map_ext_in.
  intros k Hk. apply in_seq in Hk. apply retape_bit; lia.
Qed.

(** ** Dealt daBits *)
Lemma local_bits r1 r2 : let bit := r1 mod 2 in let bp0 := r2 mod (P - (bit + 1)) + (bit + 1) in
  0 <= bit <= 1 /\ bit + 1 <= bp0 <= P - 1 /\
  makeLocalDaBit r1 r2 = (mkDaBit bp0 (Z.odd bp0), mkDaBit (bit + (P - bp0)) (Z.even (bit + (P - bp0)))) /\ 1 + bit <= bit + (P - bp0) <= P - 1.
Proof.
  cbv zeta. unfold makeLocalDaBit, fmpz_randm. change p with P.
  pose proof (Z.mod_pos_bound r1 2 ltac:(lia)) as B. set (bit := r1 mod 2) in *.
  assert (HP : 2 < P) by reflexivity.
  pose proof (Z.mod_pos_bound r2 (P - (bit + 1)) ltac:(lia)) as B2. set (bp0 := r2 mod _ + _) in *.
  assert (B0 : bit + 1 <= bp0 <= P - 1) by lia.
  assert (E : (bit - bp0) mod P = bit + (P - bp0)).
  { symmetry. apply Z.mod_unique with (-1); [left; lia|lia]. }
  split; [lia|]. split; [exact B0|]. split; [|lia]. rewrite E. reflexivity.
Qed.
Definition other_draws (r1 r2 : Z) : Z * Z :=
  let bit := r1 mod 2 in let bp0 := r2 mod (P - (bit + 1)) + (bit + 1) in
  (1 - bit, bp0 + (1 - bit) - bit - (2 - bit)).
Lemma other_draws_ok r1 r2 : bp (snd (makeLocalDaBit r1 r2)) <> 1 ->
  let d := makeLocalDaBit r1 r2 in let d' := makeLocalDaBit (fst (other_draws r1 r2)) (snd (other_draws r1 r2)) in
  snd d' = snd d /\ b2 (fst d') = negb (b2 (fst d)).
Proof.
  intros H. cbv zeta. destruct (local_bits r1 r2) as (Hb & H0 & E & H1). unfold other_draws. cbn [fst snd].
  set (bit := r1 mod 2) in *. set (bp0 := r2 mod (P - (bit + 1)) + (bit + 1)) in *. rewrite E in *. cbn [fst snd bp b2] in *.
  destruct (local_bits (1 - bit) (bp0 + (1 - bit) - bit - (2 - bit))) as (_ & _ & E' & _). rewrite E'.
  assert (X : (1 - bit) mod 2 = 1 - bit) by (apply Z.mod_small; lia). rewrite X. clear E'.
  assert (Y : (bp0 + (1 - bit) - bit - (2 - bit)) mod (P - (1 - bit + 1)) = bp0 + (1 - bit) - bit - (2 - bit)).
  { apply Z.mod_small. assert (bit = 0 \/ bit = 1) as [Z0|Z0] by lia; rewrite Z0 in *; lia. }
  rewrite Y. cbn [fst snd bp b2].
  replace (bp0 + (1 - bit) - bit - (2 - bit) + (1 - bit + 1)) with (bp0 + (1 - 2 * bit)) by lia.
  replace (1 - bit + (P - (bp0 + (1 - 2 * bit)))) with (bit + (P - bp0)) by lia. split; [reflexivity|].
  rewrite Z.odd_add. replace (1 - 2 * bit) with (1 + 2 * (- bit)) by lia. rewrite Z.odd_add_mul_2. now destruct (Z.odd bp0).
Qed.
Definition redeal (T : nat -> Z) (from : nat) (d : list bool) (i : nat) : Z :=
  if (from <=? i)%nat && (i <? from + 2 * length d)%nat then
    let k := ((i - from) / 2)%nat in
    if nth k d false then
      let o := other_draws (T (from + 2 * k)%nat) (T (from + 2 * k + 1)%nat) in
      if Nat.even (i - from) then fst o else snd o
    else T i
  else T i.
Lemma redeal_at T f d k :
  redeal T f d (f + 2 * k) = (if nth k d false then fst (other_draws (T (f + 2 * k)%nat) (T (f + 2 * k + 1)%nat)) else T (f + 2 * k)%nat) /\
  redeal T f d (f + 2 * k + 1) = (if nth k d false then snd (other_draws (T (f + 2 * k)%nat) (T (f + 2 * k + 1)%nat)) else T (f + 2 * k + 1)%nat).
Proof.
  unfold redeal. split.
  - destruct (Nat.leb_spec f (f + 2 * k)); [|lia]. destruct (Nat.ltb_spec (f + 2 * k) (f + 2 * length d)); cbn [andb].
    + replace (f + 2 * k - f)%nat with (2 * k)%nat by lia.
      replace (2 * k / 2)%nat with k by (rewrite Nat.mul_comm; now rewrite Nat.div_mul by lia).
      rewrite (Nat.even_mul 2 k). reflexivity.
    + now rewrite nth_overflow by lia.
  - destruct (Nat.leb_spec f (f + 2 * k + 1)); [|lia]. destruct (Nat.ltb_spec (f + 2 * k + 1) (f + 2 * length d)); cbn [andb].
    + replace (f + 2 * k + 1 - f)%nat with (1 + 2 * k)%nat by lia.
      replace ((1 + 2 * k) / 2)%nat with k by (rewrite Nat.mul_comm, Nat.div_add by lia; reflexivity).
      rewrite (Nat.even_add_mul_2 1 k). reflexivity.
    + now rewrite nth_overflow by lia.
Qed.
Lemma redealt T f d m : (length d <= m)%nat -> no_half_one T f (length d) ->
  map snd (local_pairs (redeal T f d) f m) = map snd (local_pairs T f m) /\
  map b2 (firstn (length d) (map fst (local_pairs (redeal T f d) f m))) = map2 xorb (map b2 (firstn (length d) (map fst (local_pairs T f m)))) d.
Proof.
  intros H NH.
  assert (A : forall k, let pr T := makeLocalDaBit (T (f + 2 * k)%nat) (T (f + 2 * k + 1)%nat) in
    snd (pr (redeal T f d)) = snd (pr T) /\ b2 (fst (pr (redeal T f d))) = xorb (b2 (fst (pr T))) (nth k d false)).
  { intros k. cbv zeta. destruct (redeal_at T f d k) as [-> ->]. destruct (nth k d false) eqn:E.
    - assert (Hk : (k < length d)%nat).
      { destruct (Nat.ltb_spec k (length d)); auto. rewrite nth_overflow in E by lia. discriminate. }
      destruct (other_draws_ok _ _ (NH k Hk)) as [A B]. split; [exact A|]. rewrite B. now rewrite xorb_true_r.
    - split; [reflexivity|now rewrite xorb_false_r]. }
  unfold local_pairs. split.
  - rewrite !map_map. apply map_ext. intros k. apply A.
  - rewrite !firstn_map, !firstn_seq by exact H. rewrite !map_map. rewrite map2_list.
    apply map_ext. intros k. apply A.
Qed.

(** The half of server 1 tells the bit only if it is 1. *)
Lemma local_half (b : bool) h :
  (exists r1 r2, let d := makeLocalDaBit r1 r2 in xorb (b2 (fst d)) (b2 (snd d)) = b /\ bp (snd d) = h) <-> 1 + b2z b <= h <= P - 1.
Proof.
  split.
  - intros (r1 & r2 & H). cbv zeta in H. destruct (local_bits r1 r2) as (Hb & H0 & E & H1). rewrite E in H. cbn [fst snd b2 bp] in H.
    destruct H as [H H']. set (bit := r1 mod 2) in *. set (bp0 := r2 mod (P - (bit + 1)) + (bit + 1)) in *.
    assert (O : Z.even (bit + (P - bp0)) = xorb (Z.odd bit) (Z.odd bp0)).
    { rewrite Z.even_add, Z.even_sub. change (Z.even P) with false. rewrite <- !Z.negb_odd. now destruct (Z.odd bit), (Z.odd bp0). }
    rewrite O in H. assert (B : b = Z.odd bit) by (rewrite <- H; now destruct (Z.odd bit), (Z.odd bp0)).
    clearbody bp0 bit. clear E O H. assert (bit = 0 \/ bit = 1) as [X|X] by lia; subst bit b; cbn in H1 |- *; lia.
  - intros H. exists (b2z b), (P - 1 - h). cbv zeta. destruct (local_bits (b2z b) (P - 1 - h)) as (_ & _ & E & _). rewrite E.
    assert (X : b2z b mod 2 = b2z b) by now destruct b. rewrite X in *.
    assert (0 <= b2z b <= 1) by now destruct b.
    rewrite (Z.mod_small (P - 1 - h)) by lia. cbn [fst snd bp b2].
    replace (b2z b + (P - (P - 1 - h + (b2z b + 1)))) with h by lia. split; [|reflexivity].
    replace (P - 1 - h + (b2z b + 1)) with (P - h + b2z b) by lia. rewrite odd_flip, Z.odd_sub. change (Z.odd P) with true.
    rewrite <- Z.negb_odd. now destruct (Z.odd h), b.
Qed.

Lemma made1_length lz T0 T1 f0 f1 m : length (made1 lz T0 T1 f0 f1 m) = m.
Proof.
  destruct (made_pairs lz T0 T1 f0 f1 m) as (F2 & L2). apply Forall2_len in F2. congruence.
Qed.
Lemma made0_length lz T0 f0 m : length (made0 lz T0 f0 m) = m.
Proof. apply (made_pairs lz T0 T0 f0 f0 m). Qed.

(** ** Operations *)
Lemma freq_op_honest sv order num_bits (l : list (crec (list bool) nat)) pk junk c T s :
  (num_bits <= 30)%nat -> NoDup (map c_pk l) -> Forall (fun r => length (c_pk r) = 32%nat) l -> Z.of_nat (length l) < two32 ->
  Forall (row_good (freq_width num_bits)) l -> length pk = 32%nat -> (forall i, length (junk i) = bool_bytes (freq_width num_bits)) ->
  freq_op sv order num_bits (length l) (wire freqshare_bytes (if sv then subs1 l else subs0 l)) pk junk c T s
  = if sv then freq_op1 order c T (freq_width num_bits) (subs1 l) s else freq_op0 c T (freq_width num_bits) (subs0 l) (length l) s.
Proof.
  intros HB ND K32 HN RG K J.
  assert (TD : forall f : crec (list bool) nat -> list bool, table_of any (map (fun r => (c_pk r, f r)) l) = map (fun r => (c_pk r, f r)) l).
  { intros f. apply table_distinct; [now rewrite map_map|]. apply Forall_forall. reflexivity. }
  destruct sv.
  - rewrite (freq_op_eq num_bits HB true order (length l) _ (subs1 l)); auto.
    + unfold subs1. rewrite TD. reflexivity.
    + apply (honest_arrives1 freq_wire); auto.
    + apply Forall_map. eapply Forall_impl; [|exact RG]. intros r (_ & _ & A & _). exact A.
  - rewrite (freq_op_eq num_bits HB false order (length l) _ (subs0 l)); auto.
    + unfold subs0. rewrite TD. reflexivity.
    + apply (honest_arrives0 freq_wire); auto.
    + apply Forall_map. eapply Forall_impl; [|exact RG]. intros r (_ & A & _). exact A.
Qed.

Lemma freq_fresh_all w : fresh_all (freq_request w).
Proof. intros g. reflexivity. Qed.
Lemma by_order (order : iteration) (l l' rs : list (crec (list bool) nat)) : fair order -> by_keys order ->
  map c_pk l' = map c_pk l -> order _ (subs1 l) = subs1 rs ->
  exists rs', Permutation l' rs' /\ order _ (subs1 l') = subs1 rs' /\ map c_pk rs' = map c_pk rs.
Proof.
  intros HF HK E EO. destruct (in_order order l' HF) as (rs' & HP' & EO'). exists rs'. split; [exact HP'|]. split; [exact EO'|].
  assert (A : forall q : list (crec (list bool) nat), map fst (subs1 q) = map c_pk q) by (intros q; unfold subs1; now rewrite map_map).
  rewrite <- !A, <- EO, <- EO'. apply HK. now rewrite !A.
Qed.
Lemma rows_length w (rs : list (crec (list bool) nat)) : Forall (row_good w) rs ->
  length (concat (map c_0 rs)) = (length rs * w)%nat /\ length (concat (map c_1 rs)) = (length rs * w)%nat.
Proof.
  intros G. rewrite !(concat_width w), !map_length; [auto| |]; apply Forall_map; (eapply Forall_impl; [|exact G]); intros r H; apply H.
Qed.
Lemma announced (rs : list (crec (list bool) nat)) : announce (subs1 rs) = announce_keys (map c_pk rs).
Proof. rewrite announce_keys_eq. unfold subs1. now rewrite map_map. Qed.
Lemma xor_length a b n : length a = n -> length b = n -> length (map2 xorb a b) = n.
Proof. intros. rewrite map2_length. lia. Qed.

Section Worlds.
  Variables (num_bits : nat) (gs : list prg) (vs : list nat) (order0 order1 : iteration) (pk0 pk1 : list Z) (junk0 junk1 : nat -> list Z)
    (c0 c1 : store_params) (T0 T1 : nat -> Z) (s0 s1 : store).
  Let w := freq_width num_bits.
  Let n := length gs.
  Let one := freq_request w.
  Let l : list (crec (list bool) nat) := separate one gs.
  Hypothesis HB : (num_bits <= 30)%nat.
  Hypothesis HF : fair order1.
  Hypothesis HK : by_keys order1.
  Hypothesis K0 : length pk0 = 32%nat.
  Hypothesis K1 : length pk1 = 32%nat.
  Hypothesis J0 : forall i, length (junk0 i) = bool_bytes w.
  Hypothesis J1 : forall i, length (junk1 i) = bool_bytes w.
  Hypothesis HP : params_ok c0 c1.
  Hypothesis E0 : dabit_store s0 = [].
  Hypothesis E1 : dabit_store s1 = [].
  Hypothesis NE : gs <> [].
  Hypothesis HN : Z.of_nat n < two32.
  Hypothesis HG : Forall is_blocks gs.
  Hypothesis ND : NoDup (map c_pk l).
  Hypothesis LV : length vs = n.
  Hypothesis VV : Forall (fun v => (v < w)%nat) vs.

  Lemma w_pos : (0 < w)%nat.
  Proof. unfold w, freq_width. assert (0 < 2 ^ Z.of_nat num_bits) by (apply Z.pow_pos_nonneg; lia). lia. Qed.
  Lemma w_word : Z.of_nat w <= two64.
  Proof.
    unfold w, freq_width. rewrite Z2Nat.id by (apply Z.pow_nonneg; lia).
    apply Z.le_trans with (2 ^ 30); [apply Z.pow_le_mono_r; lia|unfold two64; lia].
  Qed.
  (** Everything known about some honest clients and their order at server 1. *)
  Let known (gs' : list prg) (l' rs' : list (crec (list bool) nat)) : Prop :=
    l' = separate one gs' /\ length l' = n /\ NoDup (map c_pk l') /\ Forall (fun r => length (c_pk r) = 32%nat) l' /\ Forall (row_good w) l' /\
    Permutation l' rs' /\ order1 _ (subs1 l') = subs1 rs' /\ Forall (row_good w) rs' /\ length rs' = n.
  Lemma known_of gs' rs' : Forall is_blocks gs' -> length gs' = n -> NoDup (map c_pk (separate one gs')) ->
    Permutation (separate one gs') rs' -> order1 _ (subs1 (separate one gs')) = subs1 rs' -> known gs' (separate one gs') rs'.
  Proof.
    intros G L ND' HPm EO. unfold known. split; [reflexivity|]. split; [now rewrite separate_length|]. split; [exact ND'|].
    split; [apply separate_pks; [apply freq_fresh_all|exact G]|].
    assert (RG : Forall (row_good w) (separate one gs')).
    { apply separate_forall; [|exact G]. intros g Hg. apply request_row; [exact Hg|exact w_pos]. }
    split; [exact RG|]. split; [exact HPm|]. split; [exact EO|]. split; [eapply Permutation_Forall; [exact HPm|exact RG]|].
    rewrite <- (Permutation_length HPm). now rewrite separate_length.
  Qed.
  Lemma two_worlds side : exists gs' rs rs', Forall is_blocks gs' /\ map c_real (separate one gs') = vs /\ seen side (separate one gs') = seen side l /\
    known gs l rs /\ known gs' (separate one gs') rs' /\ map c_pk rs' = map c_pk rs /\
    (if side then map c_1 rs' = map c_1 rs else map c_0 rs' = map c_0 rs).
  Proof.
    destruct (choose_all one (fun v => (v < w)%nat) (fun x => length x = w) side (freq_independent w w_pos w_word) (freq_fresh_all w)) with (gs := gs) (vs := vs)
      as (gs' & G' & R' & S'); auto.
    { intros g Hg. destruct (request_row w g Hg w_pos) as (_ & A & B & _). destruct side; assumption. }
    destruct (in_order order1 l HF) as (rs & HPm & EO).
    pose proof (seen_pks _ _ _ S') as PK. fold l in PK.
    destruct (by_order order1 l (separate one gs') rs HF HK PK EO) as (rs' & HPm' & EO' & PK').
    exists gs', rs, rs'. split; [exact G'|]. split; [exact R'|]. split; [exact S'|].
    assert (Ln : length gs' = n).
    { rewrite <- (separate_length one gs'), <- (map_length c_pk), PK, map_length. apply separate_length. }
    split; [apply known_of; auto|]. split; [apply known_of; auto; rewrite PK; exact ND|]. split; [exact PK'|].
    destruct side.
    - apply (same_order l (separate one gs') rs rs' c_1 ND); auto.
    - apply (same_order l (separate one gs') rs rs' c_0 ND); auto.
  Qed.
  Lemma n_pos (l' : list (crec (list bool) nat)) : length l' = n -> l' <> [].
  Proof. intros L ->. apply NE. apply length_zero_iff_nil. symmetry. exact L. Qed.

  (** *** Server 0, daBits by oblivious transfer *)
  Lemma freq_hides0 : lazy c0 = false -> histogram w vs = histogram w (map c_real l) ->
    exists gs' T1' view left,
      Forall is_blocks gs' /\ map c_real (separate one gs') = vs /\ seen false (separate one gs') = seen false l /\
      ends0 (bool_bytes n)
        (freq_op false order0 num_bits n (wire freqshare_bytes (subs0 l)) pk0 junk0 c0 T0 s0)
        (freq_op true order1 num_bits n (wire freqshare_bytes (subs1 l)) pk1 junk1 c1 T1 s1) view left /\
      ends0 (bool_bytes n)
        (freq_op false order0 num_bits n (wire freqshare_bytes (subs0 l)) pk0 junk0 c0 T0 s0)
        (freq_op true order1 num_bits n (wire freqshare_bytes (subs1 (separate one gs'))) pk1 junk1 c1 T1' s1) view left.
  Proof.
    intros HL HH. destruct (two_worlds false) as (gs' & rs & rs' & G' & R' & S' & KA & KB & PK & C0). cbv beta iota in C0.
    set (l' := separate one gs') in *.
    destruct KA as (_ & A1 & A2 & A3 & A4 & A5 & A6 & A7 & A8). destruct KB as (_ & B1 & B2 & B3 & B4 & B5 & B6 & B7 & B8).
    assert (SS : subs0 l' = subs0 l) by exact S'.
    destruct (rows_length w rs A7) as [X0 X1]. destruct (rows_length w rs' B7) as [X0' X1'].
    rewrite A8 in X0, X1. rewrite B8 in X0', X1'.
    set (x1 := concat (map c_1 rs)) in *. set (x1' := concat (map c_1 rs')) in *.
    set (d := map2 xorb x1 x1'). assert (LD : length d = (n * w)%nat) by (apply xor_length; assumption).
    set (T1' := flip_bits T1 (ctr s1) d). exists gs', T1'.
    pose proof (honest_log0 order1 w l rs c0 c1 T0 T1 s0 s1 HF A2 A3 ltac:(rewrite A1; exact HN) A5 A6 A4 w_pos (n_pos l A1) HP E0 E1) as HA.
    pose proof (honest_log0 order1 w l' rs' c0 c1 T0 T1' s0 s1 HF B2 B3 ltac:(rewrite B1; exact HN) B5 B6 B4 w_pos (n_pos l' B1) HP E0 E1) as HBb.
    pose proof (honest_closing order1 w l rs c0 T0 T1 s0 s1 HF A2 A3 ltac:(rewrite A1; exact HN) A5 A6 A4 w_pos (n_pos l A1)) as CA.
    pose proof (honest_closing order1 w l' rs' c0 T0 T1' s0 s1 HF B2 B3 ltac:(rewrite B1; exact HN) B5 B6 B4 w_pos (n_pos l' B1)) as CB.
    pose proof (all1_field w rs c0 T0 T1 s0 s1) as FA. pose proof (all1_field w rs' c0 T0 T1' s0 s1) as FB.
    rewrite A1, A8 in *. rewrite B1, B8 in *. rewrite C0, HL, SS in *. fold x1 in HA, CA, FA. fold x1' in HBb, CB, FB.
    set (N := (n * w)%nat) in *. set (m := batch_of c0 N) in *.
    assert (Nm : (N <= m)%nat) by apply batch_enough.
    assert (VE : masked x1' (firstn N (made1 false T0 T1' (ctr s0) (ctr s1) m)) = masked x1 (firstn N (made1 false T0 T1 (ctr s0) (ctr s1) m))).
    { assert (LM : forall T, length (firstn N (made1 false T0 T (ctr s0) (ctr s1) m)) = N).
      { intros T. rewrite firstn_length, made1_length. lia. }
      apply masked_same; [congruence|rewrite LM; congruence|rewrite LM; congruence|].
      fold d. unfold T1'. rewrite <- LD. apply flipped1. lia. }
    rewrite VE in *. 
    assert (HR : histogram w (map c_real rs') = histogram w (map c_real rs)).
    { rewrite <- (histogram_perm w _ _ (Permutation_map c_real A5)), <- (histogram_perm w _ _ (Permutation_map c_real B5)).
      rewrite R'. exact HH. }
    rewrite HR in *. destruct CA as (P1 & P2 & P3). destruct CB as (Q1 & Q2 & Q3).
    rewrite Q1, <- P1 in HBb.
    apply (fun h => addp_inj _ _ _ (sum_of_field _) (sum_of_field _) (eq_trans h (eq_sym P2))) in Q2. rewrite Q2 in HBb.
    apply (fun h => addp_all_inj _ _ _ (proj1 FB) (proj1 FA) ltac:(rewrite (proj2 FB); symmetry; apply accumulate_spec)
              ltac:(rewrite (proj2 FA); symmetry; apply accumulate_spec) (eq_trans h (eq_sym P3))) in Q3. rewrite Q3 in HBb.
    rewrite announced in HA, HBb. rewrite PK in HBb.
    eexists _, _. split; [exact G'|]. split; [exact R'|]. split; [exact S'|].
    pose proof (freq_op_honest false order0 num_bits l pk0 junk0 c0 T0 s0 HB A2 A3 ltac:(rewrite A1; exact HN) A4 K0 J0) as O0.
    pose proof (freq_op_honest true order1 num_bits l pk1 junk1 c1 T1 s1 HB A2 A3 ltac:(rewrite A1; exact HN) A4 K1 J1) as O1.
    pose proof (freq_op_honest true order1 num_bits l' pk1 junk1 c1 T1' s1 HB B2 B3 ltac:(rewrite B1; exact HN) B4 K1 J1) as O1'.
    cbv beta iota in O0, O1, O1'. rewrite A1 in O0, O1. rewrite B1 in O1'. fold w in O0, O1, O1'.
    fold l'. rewrite O0, O1, O1'. split; eexists; apply reach_ends; [exact HA|exact HBb].
  Qed.

  (** *** Server 1 *)
  Lemma freq_hides1_from (T0' : list bool -> nat -> Z) :
    (forall d, length d = (n * w)%nat -> let m := batch_of c0 (n * w) in
       dealt (lazy c0) (T0' d) T1 (ctr s0) (ctr s1) m = dealt (lazy c0) T0 T1 (ctr s0) (ctr s1) m /\
       made1 (lazy c0) (T0' d) T1 (ctr s0) (ctr s1) m = made1 (lazy c0) T0 T1 (ctr s0) (ctr s1) m /\
       map b2 (firstn (n * w) (made0 (lazy c0) (T0' d) (ctr s0) m)) = map2 xorb (map b2 (firstn (n * w) (made0 (lazy c0) T0 (ctr s0) m))) d) ->
    exists gs' d view left,
      Forall is_blocks gs' /\ map c_real (separate one gs') = vs /\ seen true (separate one gs') = seen true l /\
      ends1 (bool_bytes n)
        (freq_op false order0 num_bits n (wire freqshare_bytes (subs0 l)) pk0 junk0 c0 T0 s0)
        (freq_op true order1 num_bits n (wire freqshare_bytes (subs1 l)) pk1 junk1 c1 T1 s1) view left /\
      ends1 (bool_bytes n)
        (freq_op false order0 num_bits n (wire freqshare_bytes (subs0 (separate one gs'))) pk0 junk0 c0 (T0' d) s0)
        (freq_op true order1 num_bits n (wire freqshare_bytes (subs1 l)) pk1 junk1 c1 T1 s1) view left.
  Proof.
    intros HT. destruct (two_worlds true) as (gs' & rs & rs' & G' & R' & S' & KA & KB & PK & C1). cbv beta iota in C1.
    set (l' := separate one gs') in *.
    destruct KA as (_ & A1 & A2 & A3 & A4 & A5 & A6 & A7 & A8). destruct KB as (_ & B1 & B2 & B3 & B4 & B5 & B6 & B7 & B8).
    assert (SS : subs1 l' = subs1 l) by exact S'.
    destruct (rows_length w rs A7) as [X0 X1]. destruct (rows_length w rs' B7) as [X0' X1'].
    rewrite A8 in X0, X1. rewrite B8 in X0', X1'.
    set (x0 := concat (map c_0 rs)) in *. set (x0' := concat (map c_0 rs')) in *.
    set (d := map2 xorb x0 x0'). assert (LD : length d = (n * w)%nat) by (apply xor_length; assumption).
    exists gs', d. destruct (HT d LD) as (HD & H1 & H0). cbv zeta in HD, H1, H0.
    destruct (honest_log1 order1 w l rs c0 c1 T0 T1 s0 s1 HF A2 A3 ltac:(rewrite A1; exact HN) A5 A6 A4 w_pos (n_pos l A1) HP E0 E1) as (a & HA).
    destruct (honest_log1 order1 w l' rs' c0 c1 (T0' d) T1 s0 s1 HF B2 B3 ltac:(rewrite B1; exact HN) B5 B6 B4 w_pos (n_pos l' B1) HP E0 E1) as (a' & HA').
    rewrite A1, A8 in *. rewrite B1, B8 in *. fold x0 in HA. fold x0' in HA'. rewrite HD, H1, SS in HA'.
    set (N := (n * w)%nat) in *. set (m := batch_of c0 N) in *.
    assert (Nm : (N <= m)%nat) by apply batch_enough.
    assert (VE : masked x0' (firstn N (made0 (lazy c0) (T0' d) (ctr s0) m)) = masked x0 (firstn N (made0 (lazy c0) T0 (ctr s0) m))).
    { assert (LM : forall T, length (firstn N (made0 (lazy c0) T (ctr s0) m)) = N).
      { intros T. rewrite firstn_length, made0_length. lia. }
      apply masked_same; [congruence|rewrite LM; congruence|rewrite LM; congruence|exact H0]. }
    rewrite VE in HA'.
    eexists _, _. split; [exact G'|]. split; [exact R'|]. split; [exact S'|].
    pose proof (freq_op_honest false order0 num_bits l pk0 junk0 c0 T0 s0 HB A2 A3 ltac:(rewrite A1; exact HN) A4 K0 J0) as O0.
    pose proof (freq_op_honest false order0 num_bits l' pk0 junk0 c0 (T0' d) s0 HB B2 B3 ltac:(rewrite B1; exact HN) B4 K0 J0) as O0'.
    pose proof (freq_op_honest true order1 num_bits l pk1 junk1 c1 T1 s1 HB A2 A3 ltac:(rewrite A1; exact HN) A4 K1 J1) as O1.
    cbv beta iota in O0, O0', O1. rewrite A1 in O0, O1. rewrite B1 in O0'. fold w in O0, O0', O1.
    fold l'. rewrite O0, O0', O1. split; eexists; apply reach_ends; [exact HA|exact HA'].
  Qed.
  Lemma freq_hides1 : lazy c0 = false ->
    exists gs' T0' view left,
      Forall is_blocks gs' /\ map c_real (separate one gs') = vs /\ seen true (separate one gs') = seen true l /\
      ends1 (bool_bytes n)
        (freq_op false order0 num_bits n (wire freqshare_bytes (subs0 l)) pk0 junk0 c0 T0 s0)
        (freq_op true order1 num_bits n (wire freqshare_bytes (subs1 l)) pk1 junk1 c1 T1 s1) view left /\
      ends1 (bool_bytes n)
        (freq_op false order0 num_bits n (wire freqshare_bytes (subs0 (separate one gs'))) pk0 junk0 c0 T0' s0)
        (freq_op true order1 num_bits n (wire freqshare_bytes (subs1 l)) pk1 junk1 c1 T1 s1) view left.
  Proof.
    intros HL. destruct (freq_hides1_from (retape T0 T1 (ctr s0) (ctr s1) (batch_of c0 (n * w)))) as (gs' & d & view & left & H).
    - intros d LD. cbv zeta. rewrite HL. set (m := batch_of c0 (n * w)).
      assert (LM : (length d <= m)%nat) by (rewrite LD; apply batch_enough).
      unfold dealt, made1. rewrite retape_got by exact LM. split; [reflexivity|]. split; [reflexivity|]. rewrite <- LD. now apply retaped0.
    - exists gs'. eexists _, view, left. exact H.
  Qed.
  Lemma freq_hides1_lazy : lazy c0 = true -> no_half_one T0 (ctr s0) (n * w) ->
    exists gs' T0' view left,
      Forall is_blocks gs' /\ map c_real (separate one gs') = vs /\ seen true (separate one gs') = seen true l /\
      ends1 (bool_bytes n)
        (freq_op false order0 num_bits n (wire freqshare_bytes (subs0 l)) pk0 junk0 c0 T0 s0)
        (freq_op true order1 num_bits n (wire freqshare_bytes (subs1 l)) pk1 junk1 c1 T1 s1) view left /\
      ends1 (bool_bytes n)
        (freq_op false order0 num_bits n (wire freqshare_bytes (subs0 (separate one gs'))) pk0 junk0 c0 T0' s0)
        (freq_op true order1 num_bits n (wire freqshare_bytes (subs1 l)) pk1 junk1 c1 T1 s1) view left.
  Proof.
    intros HL NH. destruct (freq_hides1_from (redeal T0 (ctr s0))) as (gs' & d & view & left & H).
    - intros d LD. cbv zeta. rewrite HL. set (m := batch_of c0 (n * w)).
      assert (LM : (length d <= m)%nat) by (rewrite LD; apply batch_enough). rewrite <- LD in NH.
      destruct (redealt T0 (ctr s0) d m LM NH) as [R1 R2].
      unfold dealt, made1, made0. rewrite R1. split; [reflexivity|]. split; [reflexivity|]. rewrite <- LD. exact R2.
    - exists gs'. eexists _, view, left. exact H.
  Qed.
End Worlds.

(** ** Server 0 as dealer *)
Lemma ends_functional {A B} k (p : proc A) (q : proc B) a b o i c' :
  ends k p q (Cfg (Ret a) (Ret b) o i) -> ends k p q c' -> c' = Cfg (Ret a) (Ret b) o i.
Proof.
  intros H H'. apply ends_reach in H. set (cap := S k).
  destruct (H cap ltac:(unfold cap; lia) ltac:(unfold cap; lia)) as [(n & S) F].
  destruct (H' cap ltac:(unfold cap; lia) ltac:(unfold cap; lia)) as (n' & _ & D).
  destruct (D _ _ S) as [(d & X)|X]; [elim (F d X)|now symmetry].
Qed.
Lemma onehot_inj w a b : (a < w)%nat -> map (fun j => (j =? a)%nat) (seq 0 w) = map (fun j => (j =? b)%nat) (seq 0 w) -> a = b.
Proof.
  intros H E. apply (f_equal (fun l => nth a l false)) in E. rewrite !nth_map_seq' in E by exact H.
  rewrite Nat.eqb_refl in E. now apply Nat.eqb_eq.
Qed.
Lemma honest_bits w (l : list (crec (list bool) nat)) : NoDup (map c_pk l) -> Forall (row_good w) l ->
  map (freq_bits w (subs0 l) (subs1 l)) (map c_pk l) = map (fun v => map (fun j => (j =? v)%nat) (seq 0 w)) (map c_real l).
Proof.
  intros ND RG. rewrite !map_map. apply map_ext_in. intros r Hr.
  assert (OK : Forall (fun r : crec (list bool) nat => any (c_0 r) = true /\ any (c_1 r) = true) l)
    by (apply Forall_forall; intros; split; reflexivity).
  unfold freq_bits. rewrite (honest_first0 any l ND OK r Hr), (honest_first1 any l ND OK r Hr). cbn [get].
  rewrite Forall_forall in RG. now apply RG.
Qed.
Lemma honest_heard (l : list (crec (list bool) nat)) : NoDup (map c_pk l) -> heard (subs1 l) (map c_pk l).
Proof.
  intros ND.
  assert (OK : Forall (fun r : crec (list bool) nat => any (c_0 r) = true /\ any (c_1 r) = true) l)
    by (apply Forall_forall; intros; split; reflexivity).
  split; auto. intros pk. split.
  - intros (r & <- & H)%in_map_iff. rewrite (honest_first1 any l ND OK r H). discriminate.
  - intros H. destruct (in_dec (list_eq_dec Z.eq_dec) pk (map c_pk l)) as [|N]; auto.
    elim H. apply first_sub_none. now rewrite subs1_keys.
Qed.
Lemma freq_dealer num_bits gs gs' order0 order1 pk0 pk1 junk0 junk1 c0 c1 T0 T1 T1' s0 s1 s1' view left left' :
  let w := freq_width num_bits in let one := freq_request w in let n := length gs in
  let l := separate one gs in let l' := separate one gs' in
  (num_bits <= 30)%nat -> fair order1 -> length pk0 = 32%nat -> length pk1 = 32%nat ->
  (forall i, length (junk0 i) = bool_bytes w) -> (forall i, length (junk1 i) = bool_bytes w) ->
  params_ok c0 c1 -> lazy c0 = true -> dabit_store s0 = [] -> dabit_store s1 = [] -> dabit_store s1' = [] ->
  gs <> [] -> Z.of_nat n < two32 -> Forall is_blocks gs -> Forall is_blocks gs' ->
  NoDup (map c_pk l) -> seen false l' = seen false l ->
  ends0 (bool_bytes n)
    (freq_op false order0 num_bits n (wire freqshare_bytes (subs0 l)) pk0 junk0 c0 T0 s0)
    (freq_op true order1 num_bits n (wire freqshare_bytes (subs1 l)) pk1 junk1 c1 T1 s1) view left ->
  ends0 (bool_bytes n)
    (freq_op false order0 num_bits n (wire freqshare_bytes (subs0 l)) pk0 junk0 c0 T0 s0)
    (freq_op true order1 num_bits n (wire freqshare_bytes (subs1 l')) pk1 junk1 c1 T1' s1') view left' ->
  map c_real l' = map c_real l.
Proof.
  intros w one n l l' HB HF K0 K1 J0 J1 HP HL E0 E1 E1' NE HN HG HG' ND S VA VB.
  pose proof (seen_pks _ _ _ S) as PK.
  assert (Hw : (0 < w)%nat).
  { unfold w, freq_width. assert (0 < 2 ^ Z.of_nat num_bits) by (apply Z.pow_pos_nonneg; lia). lia. }
  assert (F : forall gs, Forall is_blocks gs -> Forall (row_good w) (separate one gs) /\ Forall (fun r => length (c_pk r) = 32%nat) (separate one gs)).
  { intros h Hh. split; [apply separate_forall; [|exact Hh]; intros g Hg; now apply request_row|].
    apply separate_pks; [apply freq_fresh_all|exact Hh]. }
  destruct (F gs HG) as [RG P32]. destruct (F gs' HG') as [RG' P32']. fold l in RG, P32. fold l' in RG', P32'. clear F.
  assert (Ln : length l = n) by apply separate_length.
  assert (Ln' : length l' = n) by (rewrite <- (map_length c_pk), PK, map_length; exact Ln).
  assert (ND' : NoDup (map c_pk l')) by now rewrite PK.
  assert (SS : subs0 l' = subs0 l) by exact S.
  assert (IN : forall (q : list (crec (list bool) nat)), length q = n -> Forall (row_good w) q -> Forall (fun r => length (c_pk r) = 32%nat) q ->
    freq_input num_bits n (wire freqshare_bytes (subs0 q)) (subs0 q) pk0 junk0 /\ freq_input num_bits n (wire freqshare_bytes (subs1 q)) (subs1 q) pk1 junk1).
  { intros q Lq RQ PQ. split.
    - split; [rewrite <- Lq; apply (honest_arrives0 freq_wire); auto; rewrite Lq; exact HN|]. split; [|now split].
      apply Forall_map. eapply Forall_impl; [|exact RQ]. intros r (_ & A & _). exact A.
    - split; [rewrite <- Lq; apply (honest_arrives1 freq_wire); auto; rewrite Lq; exact HN|]. split; [|now split].
      apply Forall_map. eapply Forall_impl; [|exact RQ]. intros r (_ & _ & A & _). exact A. }
  destruct (IN l Ln RG P32) as [I0 I1]. destruct (IN l' Ln' RG' P32') as [_ I1'].
  assert (NL : map c_pk l <> []) by (intros X; apply NE, length_zero_iff_nil; fold n; rewrite <- Ln, <- (map_length c_pk), X; reflexivity).
  assert (LM : length (map c_pk l) = n) by now rewrite map_length.
  destruct (freq_rows_heard num_bits order0 order1 n n _ _ (subs0 l) (subs1 l) pk0 pk1 junk0 junk1 c0 c1 T0 T1 s0 s1 (map c_pk l)
    HB HF I0 I1 HP HL E0 E1 (honest_heard l ND) NL ltac:(lia)) as (v & lf & L1 & HL1 & X1 & O1).
  pose proof (honest_heard l' ND') as HH'. rewrite PK in HH'.
  destruct (freq_rows_heard num_bits order0 order1 n n _ _ (subs0 l) (subs1 l') pk0 pk1 junk0 junk1 c0 c1 T0 T1' s0 s1' (map c_pk l)
    HB HF I0 I1' HP HL E0 E1' HH' NL ltac:(lia)) as (v' & lf' & L2 & HL2 & X2 & O2).
  rewrite LM in X1, X2.
  destruct X1 as (b1 & X1). destruct X2 as (b2 & X2). destruct VA as (b3 & VA). destruct VB as (b4 & VB).
  pose proof (ends_functional _ _ _ _ _ _ _ _ X1 VA) as Q1. injection Q1 as Q1 _ _.
  pose proof (ends_functional _ _ _ _ _ _ _ _ X2 VB) as Q2. injection Q2 as Q2 _ _.
  subst v v'. rewrite O1 in O2. fold w in O2.
  assert (L12 : L2 = L1).
  { apply (f_equal (map fst)) in O2. rewrite !map_map in O2. cbn [fst] in O2. rewrite !map_id in O2. now symmetry. }
  subst L2.
  assert (EB : forall pk, In pk (map c_pk l) -> freq_bits w (subs0 l) (subs1 l) pk = freq_bits w (subs0 l) (subs1 l') pk).
  { intros pk Hpk. apply (Permutation_in _ (Permutation_sym HL1)) in Hpk.
    apply ext_in_map with (a := pk) in O2; [|exact Hpk]. now injection O2. }
  pose proof (honest_bits w l ND RG) as BA. pose proof (honest_bits w l' ND' RG') as BB. rewrite PK, SS in BB.
  rewrite (map_ext_in _ _ _ EB), BB in BA.
  assert (IJ : forall a b, Forall (fun v => (v < w)%nat) a ->
    map (fun v => map (fun j => (j =? v)%nat) (seq 0 w)) a = map (fun v => map (fun j => (j =? v)%nat) (seq 0 w)) b -> a = b).
  { clear. intros a b G. revert b. induction G as [|x a Hx G IH]; intros [|y b] E; try discriminate; [reflexivity|].
    cbn [map] in E. injection E as A B. f_equal; [now apply (onehot_inj w)|now apply IH]. }
  apply IJ; [|exact BA]. apply Forall_map. eapply Forall_impl; [|exact RG']. now intros r [].
Qed.
