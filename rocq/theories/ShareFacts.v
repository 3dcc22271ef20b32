(** * Proofs about /repo/share.cpp (model Share.v) *)
From Coq Require Import ZArith List Bool Lia ZifyBool ZifyNat.
From Verif Require Import Words WordsFacts Constants Share SpecShare.
Import ListNotations.
Open Scope Z_scope.

Lemma p_pos : 0 < Int_Modulus.
Proof. reflexivity. Qed.
Lemma p_ge : 2 ^ 47 < Int_Modulus < 2 ^ 48.
Proof. split; reflexivity. Qed.
Global Opaque Int_Modulus.

Lemma modp_range x : 0 <= x mod Int_Modulus < Int_Modulus.
Proof. apply Z.mod_pos_bound, p_pos. Qed.

Ltac pmod := pose proof p_pos; pose proof p_ge.

Lemma split_share_sum r v : let (a, b) := SplitShare r v in (a + b) mod Int_Modulus = v mod Int_Modulus.
Proof.
  pmod. unfold SplitShare. rewrite Zplus_mod_idemp_r. f_equal. lia.
Qed.

Lemma split_share_range r v : let (a, b) := SplitShare r v in
  0 <= a < Int_Modulus /\ 0 <= b < Int_Modulus.
Proof. unfold SplitShare, fmpz_randm. split; apply modp_range. Qed.

Lemma split_share_fst_bij v s : 0 <= s < Int_Modulus ->
  exists! r, 0 <= r < Int_Modulus /\ fst (SplitShare r v) = s.
Proof.
  intros Hs. exists s. unfold SplitShare, fmpz_randm; cbn. split.
  - split; auto. now apply Z.mod_small.
  - intros r [Hr <-]. symmetry. now rewrite Z.mod_small.
Qed.

Lemma mod_inj_small m a b : 0 <= a < m -> 0 <= b < m -> (a - b) mod m = 0 -> a = b.
Proof.
  intros Ha Hb H. assert (m <> 0) by lia. apply Z.mod_divide in H as [k Hk]; auto.
  assert (k = 0) by nia. lia.
Qed.

Lemma split_share_snd_bij v s : 0 <= s < Int_Modulus ->
  exists! r, 0 <= r < Int_Modulus /\ snd (SplitShare r v) = s.
Proof.
  intros Hs. pmod. exists ((v - s) mod Int_Modulus). unfold SplitShare, fmpz_randm; cbn. split.
  - split; [apply modp_range|]. rewrite Z.mod_mod by lia. rewrite Zminus_mod_idemp_r.
    replace (v - (v - s)) with s by lia. now apply Z.mod_small.
  - intros r [Hr <-]. rewrite (Z.mod_small r) by auto.
    rewrite Zminus_mod_idemp_r. replace (v - (v - r)) with r by lia. now apply Z.mod_small.
Qed.

Lemma new_triple r1 r2 : let t := NewBeaverTriple r1 r2 in
  bt_C t = (bt_A t * bt_B t) mod Int_Modulus /\
  0 <= bt_A t < Int_Modulus /\ 0 <= bt_B t < Int_Modulus /\ 0 <= bt_C t < Int_Modulus.
Proof. cbn. unfold fmpz_randm. repeat split; apply modp_range. Qed.

Lemma triple_shares r1 r2 r3 t : let (x, y) := BeaverTripleShares r1 r2 r3 t in
  (shareA x + shareA y) mod Int_Modulus = bt_A t mod Int_Modulus /\
  (shareB x + shareB y) mod Int_Modulus = bt_B t mod Int_Modulus /\
  (shareC x + shareC y) mod Int_Modulus = bt_C t mod Int_Modulus.
Proof.
  unfold BeaverTripleShares.
  pose proof (split_share_sum r1 (bt_A t)). pose proof (split_share_sum r2 (bt_B t)).
  pose proof (split_share_sum r3 (bt_C t)).
  destruct (SplitShare r1 _), (SplitShare r2 _), (SplitShare r3 _); cbn; auto.
Qed.

(** daBits *)

Lemma dabit_local r1 r2 : let (d0, d1) := makeLocalDaBit r1 r2 in
  0 <= bp d0 < Int_Modulus /\ 0 <= bp d1 < Int_Modulus /\
  (bp d0 + bp d1) mod Int_Modulus = b2z (Z.odd r1) /\
  xorb (b2 d0) (b2 d1) = Z.odd r1.
Proof.
  pmod. unfold makeLocalDaBit, fmpz_randm; cbn.
  assert (Hodd : r1 mod 2 = b2z (Z.odd r1)) by (rewrite Zmod_odd; destruct (Z.odd r1); auto).
  rewrite Hodd. set (bit := b2z (Z.odd r1)).
  assert (0 <= bit <= 1) by (subst bit; destruct (Z.odd r1); cbn; lia).
  pose proof (Z.mod_pos_bound r2 (Int_Modulus - (bit + 1)) ltac:(lia)) as Hr.
  set (q := r2 mod (Int_Modulus - (bit + 1))) in *.
  set (b0 := q + (bit + 1)).
  assert (Hb1 : (bit - b0) mod Int_Modulus = bit - b0 + Int_Modulus).
  { symmetry. apply Z.mod_unique with (-1); subst b0; lia. }
  rewrite Hb1.
  assert (Podd : Z.odd Int_Modulus = true) by reflexivity.
  repeat split; try (subst b0; lia).
  - replace (b0 + (bit - b0 + Int_Modulus)) with (bit + 1 * Int_Modulus) by lia.
    rewrite Z.mod_add by lia. apply Z.mod_small. lia.
  - rewrite <- Z.negb_odd. replace (bit - b0 + Int_Modulus) with (bit + (Int_Modulus - b0)) by lia.
    rewrite Z.odd_add, Z.odd_sub, Podd.
    assert (Z.odd bit = Z.odd r1) as -> by (subst bit; destruct (Z.odd r1); auto).
    destruct (Z.odd b0), (Z.odd r1); reflexivity.
Qed.

Lemma bits_val_app a b : bits_val (a ++ b) = bits_val a + 2 ^ Z.of_nat (length a) * bits_val b.
Proof.
  induction a; cbn [app bits_val length].
  - change (2 ^ Z.of_nat 0) with 1. lia.
  - rewrite IHa, Nat2Z.inj_succ, Z.pow_succ_r by lia. lia.
Qed.

Lemma bits_val_range bs : 0 <= bits_val bs < 2 ^ Z.of_nat (length bs).
Proof.
  induction bs; cbn [bits_val length].
  - change (2 ^ Z.of_nat 0) with 1. lia.
  - rewrite Nat2Z.inj_succ, Z.pow_succ_r by lia. destruct a; cbn [b2z]; lia.
Qed.

Lemma edabit_loop_spec draws : forall pow r0 r1 bs0 bs1,
  length bs0 = length bs1 ->
  pow mod Int_Modulus = 2 ^ Z.of_nat (length bs0) mod Int_Modulus ->
  0 <= r0 < Int_Modulus -> 0 <= r1 < Int_Modulus ->
  (r0 + r1) mod Int_Modulus = bits_val (map2 xorb bs0 bs1) mod Int_Modulus ->
  let (e0, e1) := edabit_loop draws pow r0 r1 bs0 bs1 in
  length (eb e0) = (length bs0 + length draws)%nat /\
  length (eb e1) = (length bs0 + length draws)%nat /\
  0 <= er e0 < Int_Modulus /\ 0 <= er e1 < Int_Modulus /\
  (er e0 + er e1) mod Int_Modulus = bits_val (map2 xorb (eb e0) (eb e1)) mod Int_Modulus /\
  map2 xorb (eb e0) (eb e1) =
    map2 xorb bs0 bs1 ++ map (fun d => Z.odd (fst d)) draws.
Proof.
  induction draws as [|[d1 d2] draws IH]; intros pow r0 r1 bs0 bs1 Hl Hp Hr0 Hr1 Hs;
    cbn [edabit_loop].
  - cbn [er eb length map]. rewrite app_nil_r. repeat split; auto; lia.
  - pose proof (dabit_local d1 d2) as D. destruct (makeLocalDaBit d1 d2) as [x y].
    destruct D as (Hx & Hy & Hsum & Hxor). pmod.
    assert (Hm : map2 xorb (bs0 ++ [b2 x]) (bs1 ++ [b2 y]) = map2 xorb bs0 bs1 ++ [Z.odd d1]).
    { rewrite <- Hxor. clear -Hl. revert bs1 Hl.
      induction bs0; destruct bs1; cbn; intros; try discriminate; auto. f_equal. auto. }
    specialize (IH ((pow * 2) mod Int_Modulus)
      ((r0 + pow * bp x) mod Int_Modulus) ((r1 + pow * bp y) mod Int_Modulus)
      (bs0 ++ [b2 x]) (bs1 ++ [b2 y])).
    assert (map2_len : length (map2 xorb bs0 bs1) = length bs0) by (rewrite map2_length; lia).
    destruct (edabit_loop _ _ _ _ _ _) as [e0 e1].
    destruct IH as (H1 & H2 & H3 & H4 & H5 & H6).
    + rewrite !app_length. cbn. lia.
    + rewrite app_length. cbn [length]. rewrite Nat.add_1_r, Nat2Z.inj_succ, Z.pow_succ_r by lia.
      rewrite Z.mod_mod by lia. rewrite Z.mul_mod, Hp, <- Z.mul_mod by lia. f_equal. lia.
    + apply modp_range.
    + apply modp_range.
    + rewrite <- Zplus_mod. rewrite Hm, bits_val_app, map2_len. cbn [bits_val].
      replace (r0 + pow * bp x + (r1 + pow * bp y)) with (r0 + r1 + pow * (bp x + bp y)) by ring.
      rewrite Zplus_mod, Hs, Z.mul_mod, Hp, Hsum by lia.
      rewrite <- Zplus_mod_idemp_r. rewrite Z.add_mod_idemp_l by lia.
      rewrite Z.mul_mod_idemp_l by lia.
      rewrite Zplus_mod_idemp_r. rewrite Zplus_mod_idemp_r. f_equal. lia.
    + rewrite Hm in H6. rewrite app_length in H1, H2. cbn [length] in *.
      repeat split; auto; try lia. rewrite H6, <- app_assoc. reflexivity.
Qed.

Lemma edabit_local draws : let (e0, e1) := makeLocalEdaBit draws in
  length (eb e0) = length draws /\ length (eb e1) = length draws /\
  0 <= er e0 < Int_Modulus /\ 0 <= er e1 < Int_Modulus /\
  (er e0 + er e1) mod Int_Modulus = bits_val (map2 xorb (eb e0) (eb e1)) mod Int_Modulus /\
  map2 xorb (eb e0) (eb e1) = map (fun d => Z.odd (fst d)) draws.
Proof.
  pmod. pose proof (edabit_loop_spec draws 1 0 0 [] [] eq_refl eq_refl) as H1.
  unfold makeLocalEdaBit. destruct (edabit_loop _ _ _ _ _ _).
  specialize (H1 ltac:(lia) ltac:(lia) eq_refl).
  exact H1.
Qed.

(** NextPowerOfTwo *)

Lemma npo2_loop_spec fuel : forall n k, (k + fuel = 32)%nat ->
  0 <= n < 2147483648 -> (k = 0%nat \/ (k <= 31)%nat /\ 2 ^ (Z.of_nat k - 1) <= n) ->
  exists j, npo2_loop fuel n (2 ^ Z.of_nat k) = Some (2 ^ Z.of_nat j) /\
            n < 2 ^ Z.of_nat j /\ (j = 0%nat \/ 2 ^ (Z.of_nat j - 1) <= n).
Proof.
  induction fuel as [|f IH]; intros n k Hk Hn Hp.
  - lia.
  - cbn [npo2_loop]. unfold u32 at 1. rewrite Z.mod_small by (unfold two32; lia).
    assert (Hkl : (k <= 31)%nat) by lia.
    destruct (Z.ltb_spec (2 ^ Z.of_nat k) (n + 1)) as [L|L].
    + assert (Hk31 : (k < 31)%nat).
      { destruct (Nat.eq_dec k 31) as [->|]; [|lia]. change (2 ^ Z.of_nat 31) with 2147483648 in L. lia. }
      assert (Hpow : 2 ^ Z.of_nat (S k) = 2 ^ Z.of_nat k * 2).
      { rewrite Nat2Z.inj_succ, Z.pow_succ_r by lia. lia. }
      assert (Hle : 2 ^ Z.of_nat (S k) <= 2 ^ 31) by (apply Z.pow_le_mono_r; lia).
      assert (0 < 2 ^ Z.of_nat k) by (apply Z.pow_pos_nonneg; lia).
      replace (u32 (2 ^ Z.of_nat k * 2)) with (2 ^ Z.of_nat (S k)).
      2:{ rewrite Hpow. unfold u32. rewrite Z.mod_small; unfold two32; lia. }
      apply IH; try lia. right. split; [lia|].
      replace (Z.of_nat (S k) - 1) with (Z.of_nat k) by lia. lia.
    + exists k. repeat split; auto; try lia.
Qed.

Lemma next_pow2_spec n : 0 <= n < 2147483648 ->
  exists j, NextPowerOfTwo n = Some (2 ^ Z.of_nat j) /\
            n < 2 ^ Z.of_nat j /\ (j = 0%nat \/ 2 ^ (Z.of_nat j - 1) <= n).
Proof.
  intros. unfold NextPowerOfTwo. rewrite u32_small by (unfold two32; lia).
  apply (npo2_loop_spec 32 n 0); auto.
Qed.

Lemma next_pow2_least n : 0 <= n < 2147483648 ->
  exists j, NextPowerOfTwo n = Some (2 ^ Z.of_nat j) /\ n < 2 ^ Z.of_nat j /\
            forall m, n < 2 ^ Z.of_nat m -> (j <= m)%nat.
Proof.
  intros Hn. destruct (next_pow2_spec n Hn) as (j & H1 & H2 & H3). exists j.
  repeat split; auto. intros m Hm. destruct H3 as [->|H3]; [lia|].
  assert (2 ^ (Z.of_nat j - 1) < 2 ^ Z.of_nat m) as L by lia.
  apply Z.pow_lt_mono_r_iff in L; lia.
Qed.

Lemma testbit_above x n m : 0 <= n <= m -> 0 <= x < 2 ^ n -> Z.testbit x m = false.
Proof.
  intros Hn Hx. destruct (Z.eq_dec x 0) as [->|]; [apply Z.bits_0|].
  apply Z.bits_above_log2; [lia|]. apply Z.lt_le_trans with n; [|lia].
  apply Z.log2_lt_pow2; lia.
Qed.

Lemma from_bool_array_loop_spec bs : forall i x, 0 <= i -> 0 <= x < 2 ^ i ->
  from_bool_array_loop bs i x = x + 2 ^ i * bits_val bs.
Proof.
  induction bs as [|b bs IH]; intros i x Hi Hx; cbn [from_bool_array_loop bits_val]; [lia|].
  assert (Hbit : Z.setbit x i = x + 2 ^ i).
  { rewrite Z.setbit_spec'. symmetry. rewrite <- Z.lxor_lor.
    - apply Z.add_nocarry_lxor.
      apply Z.bits_inj'. intros n Hn. rewrite Z.land_spec, Z.bits_0, Z.pow2_bits_eqb by lia.
      destruct (Z.eqb_spec i n); [|apply andb_false_r]. subst.
      now rewrite (testbit_above x n n) by lia.
    - apply Z.bits_inj'. intros n Hn. rewrite Z.land_spec, Z.bits_0, Z.pow2_bits_eqb by lia.
      destruct (Z.eqb_spec i n); [|apply andb_false_r]. subst.
      now rewrite (testbit_above x n n) by lia. }
  assert (Hp : 2 ^ (i + 1) = 2 * 2 ^ i) by (rewrite Z.pow_add_r by lia; lia).
  rewrite IH by (try lia; destruct b; rewrite ?Hbit; lia).
  destruct b; cbn [b2z]; rewrite ?Hbit, Hp; lia.
Qed.

Lemma from_bool_array_val bs : fmpz_from_bool_array bs = bits_val bs.
Proof.
  unfold fmpz_from_bool_array. rewrite from_bool_array_loop_spec; lia.
Qed.

Lemma int_b_loop bs : forall n pow ans, pow = 2 ^ Z.of_nat n -> (n <= 30)%nat -> 0 <= ans < 2 ^ Z.of_nat n ->
  get_int_b_loop bs pow ans = if (n + length bs <=? 30)%nat then Some (ans + pow * bits_val bs) else None.
Proof.
  induction bs as [|b bs IH]; intros n pow ans HP HN HA; cbn [get_int_b_loop length bits_val].
  - rewrite Nat.add_0_r. destruct (Nat.leb_spec n 30); [f_equal; lia|lia].
  - assert (HA' : 0 <= (if b then ans + pow else ans) < 2 ^ Z.of_nat (S n))
      by (rewrite Nat2Z.inj_succ, Z.pow_succ_r by lia; destruct b; lia).
    assert (HB : ans + pow * (b2z b + 2 * bits_val bs) = (if b then ans + pow else ans) + pow * 2 * bits_val bs)
      by (destruct b; unfold b2z; ring).
    assert (Q : pow * 2 = 2 ^ Z.of_nat (S n)) by (rewrite Nat2Z.inj_succ, Z.pow_succ_r by lia; lia).
    rewrite HB. set (x := if b then ans + pow else ans) in *.
    destruct (Nat.leb_spec (S n) 30) as [L|G].
    + assert (2 ^ Z.of_nat (S n) <= 2 ^ 30) by (apply Z.pow_le_mono_r; lia).
      assert (2 ^ 30 = 1073741824) by reflexivity.
      destruct (Z.ltb_spec 2147483647 x); [lia|]. destruct (Z.ltb_spec 2147483647 (pow * 2)); [lia|].
      specialize (IH (S n) (pow * 2) x Q L HA'). rewrite Nat.add_succ_r, <- Nat.add_succ_l.
      rewrite <- IH. destruct bs; reflexivity.
    + assert (n = 30)%nat as -> by lia. assert (pow * 2 = 2147483648) by (rewrite Q; reflexivity).
      destruct (Nat.leb_spec (30 + S (length bs)) 30); [lia|].
      destruct (Z.ltb_spec 2147483647 (pow * 2)); [|lia].
      destruct (2147483647 <? x), bs; reflexivity.
Qed.
Lemma int_b_value e : get_int_b e = if (length (eb e) <=? 30)%nat then Some (bits_val (eb e)) else None.
Proof.
  unfold get_int_b. rewrite (int_b_loop (eb e) 0) by (reflexivity || lia). rewrite Z.add_0_l, Z.mul_1_l. reflexivity.
Qed.
