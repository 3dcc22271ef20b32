(** * Proofs about /repo/ot.cpp (model OT.v) *)
From Coq Require Import ZArith List Bool Lia ZifyBool ZifyNat Setoid Morphisms.
From Verif Require Import Words WordsFacts Cong Constants Share ShareFacts Proc ProcFacts
  Net NetFacts SpecNet SpecShare NetMsg RelFacts OT.
Import ListNotations.
Open Scope Z_scope.

Arguments Z.mul : simpl never.
Arguments Z.add : simpl never.
Arguments Z.sub : simpl never.
Arguments Z.pow : simpl never.

Lemma two64_pos : 0 < two64.
Proof. reflexivity. Qed.
Lemma ot_modulus_pos m : mod_ok m -> 0 < ot_modulus m.
Proof. unfold mod_ok, ot_modulus, two64. destruct (Z.eqb_spec m 0); lia. Qed.

Lemma u64_le x : 0 <= x < two64 -> u64 x = x.
Proof. apply u64_small. Qed.

(** [reduce m (u64 x)] for [x] that does not wrap when [m <> 0]. *)
Lemma reduce_cong m x : mod_ok m -> (m <> 0 -> 0 <= x < two64) ->
  cong (ot_modulus m) (reduce m (u64 x)) x.
Proof.
  unfold mod_ok, ot_modulus, reduce. intros Hm Hx.
  destruct (Z.eqb_spec m 0) as [E|E].
  - apply cong_u64.
  - rewrite u64_small by auto. apply cong_mod.
Qed.

Lemma reduce_range m x : mod_ok m -> 0 <= reduce m (u64 x) < ot_modulus m.
Proof.
  intros H. unfold reduce, ot_modulus. destruct (Z.eqb_spec m 0).
  - apply u64_range.
  - apply Z.mod_pos_bound. destruct H; lia.
Qed.

Lemma recv_acc_cong m r : mod_ok m -> forall acc, (m <> 0 -> 0 <= acc < m) ->
  Forall (fun x => m <> 0 -> 0 <= x < m) r ->
  cong (ot_modulus m) (fold_left (fun acc x => reduce m (u64 (acc + x))) r acc) (acc + zsum r).
Proof.
  intros Hm. induction r as [|x r IH]; intros acc Hacc Hr; cbn [fold_left]; rewrite ?zsum_cons, ?zsum_nil.
  - cong_ring.
  - inversion Hr; subst. rewrite IH; auto.
    + rewrite reduce_cong; auto.
      * cong_ring.
      * intros N. specialize (Hacc N). specialize (H1 N). unfold two64. destruct Hm; lia.
    + intros N. pose proof (reduce_range m (acc + x) Hm) as R. unfold ot_modulus in R.
      destruct (Z.eqb_spec m 0); [contradiction|auto].
Qed.

(** ** Bit sums (with [mod = 0], as both servers use it) *)

Definition bit_contrib (c : bool) (sv : bool * bool) : Z :=
  if snd sv then b2z (xorb (fst sv) c) else 0.

Lemma bitsum_send_loop_spec rnd sv : forall i sum msgs s cs,
  bitsum_send_loop 0 rnd sv i sum = (msgs, s) -> length cs = length sv ->
  length msgs = length sv /\
  cong two64 (s + zsum (map2 ot_select cs msgs)) (sum + zsum (map2 bit_contrib cs sv)).
Proof.
  induction sv as [|[sh v] sv IH]; intros i sum msgs s cs E L; cbn [bitsum_send_loop] in E.
  - injection E as <- <-. destruct cs; [|discriminate]. split; auto. cbn. reflexivity.
  - destruct cs as [|c cs]; [discriminate|]. injection L as L.
    destruct v.
    + destruct (bitsum_send_loop _ _ _ _ _) as [l s'] eqn:E'. injection E as <- <-.
      destruct (IH _ _ _ _ cs E' L) as [Hl Hc]. split; [cbn; lia|].
      cbn [map2]. rewrite !zsum_cons.
      set (b0 := reduce 0 (u64 (rnd i))) in *.
      set (b1 := u64 (b0 + 1 - 2 * b2z sh)) in *.
      assert (Hsel : cong two64 (ot_select c (b0, b1)) (b0 + b2z c * (1 - 2 * b2z sh))).
      { unfold ot_select; destruct c; cbn [fst snd].
        - unfold b1. rewrite cong_u64. destruct sh; cbn [b2z]; cong_ring.
        - cbn [b2z]. cong_ring. }
      rewrite Hsel.
      transitivity ((s' + zsum (map2 ot_select cs l)) + (b0 + b2z c * (1 - 2 * b2z sh))); [cong_ring|].
      rewrite Hc.
      unfold reduce, ot_max. cbn [Z.eqb]. rewrite !cong_u64.
      unfold bit_contrib at 2; cbn [snd fst].
      replace (two64 - 1 - b0 + 1) with (two64 - b0) by lia.
      rewrite (cong_self_sub two64).
      destruct sh, c; cbn [xorb b2z]; cong_ring.
    + destruct (bitsum_send_loop _ _ _ _ _) as [l s'] eqn:E'. injection E as <- <-.
      destruct (IH _ _ _ _ cs E' L) as [Hl Hc]. split; [cbn; lia|].
      cbn [map2]. rewrite !zsum_cons.
      unfold bit_contrib at 1; cbn [snd fst].
      replace (ot_select c (0, 0)) with 0 by (destruct c; reflexivity).
      rewrite Z.add_0_l, Z.add_0_l. exact Hc.
Qed.

Lemma bitsum_send_range rnd sv : forall i sum msgs s, 0 <= sum < two64 ->
  bitsum_send_loop 0 rnd sv i sum = (msgs, s) -> 0 <= s < two64.
Proof.
  induction sv as [|[sh v] sv IH]; intros i sum msgs s Hs E; cbn [bitsum_send_loop] in E.
  - now injection E as <- <-.
  - destruct v; destruct (bitsum_send_loop _ _ _ _ _) as [l s'] eqn:E'; injection E as <- <-.
    + eapply IH; [|exact E']. unfold reduce; cbn [Z.eqb]. apply u64_range.
    + eapply IH; eauto.
Qed.

Lemma recv_acc_range m r : mod_ok m -> forall acc, 0 <= acc < ot_modulus m ->
  0 <= fold_left (fun acc x => reduce m (u64 (acc + x))) r acc < ot_modulus m.
Proof.
  intros Hm. induction r; intros acc Ha; cbn [fold_left]; auto.
  apply IHr. now apply reduce_range.
Qed.

Lemma bitsum_rel ot rnd (s0 s1 valid : list bool) : length s0 = length valid -> length s1 = length valid ->
  rel (bitsum_ot_sender ot rnd s0 valid 0) (bitsum_ot_receiver ot s1 0)
    (fun a b => 0 <= a < two64 /\ 0 <= b < two64 /\
      (a + b) mod two64 =
      zsum (map3 bit_spec s0 s1 valid) mod two64).
Proof.
  intros L0 L1. unfold bitsum_ot_sender, bitsum_ot_receiver.
  destruct (bitsum_send_loop _ _ _ _ _) as [msgs s] eqn:E.
  destruct (bitsum_send_loop_spec _ _ _ _ _ _ s1 E) as [Hl Hc].
  { rewrite combine_length. lia. }
  apply rel_ot. { rewrite Hl, combine_length. lia. }
  apply rel_ret.
  assert (Hs : 0 <= s < two64) by (eapply bitsum_send_range; [|exact E]; unfold two64; lia).
  set (r := map2 ot_select s1 msgs) in *.
  pose proof (recv_acc_range 0 r (or_introl eq_refl) 0 ltac:(cbn; unfold two64; lia)) as Hrr.
  change (ot_modulus 0) with two64 in Hrr.
  split; [auto|split; [auto|]].
  apply cong_iff.
    pose proof (recv_acc_cong 0 r (or_introl eq_refl) 0) as Hr.
    change (ot_modulus 0) with two64 in Hr. rewrite Hr.
    + rewrite Z.add_0_l, Hc, Z.add_0_l. apply cong_eq. f_equal.
      clear -L0 L1. revert s0 s1 L0 L1. induction valid as [|v valid IH]; intros [|x s0] [|y s1];
        cbn; intros; try discriminate; auto. f_equal; auto.
    + congruence.
    + apply Forall_forall. congruence.
Qed.

(** ** Integer conversion *)

Lemma recv_bits_length nb x : length (intsum_recv_bits nb x) = nb.
Proof. revert x; induction nb; intros; cbn; auto. Qed.

Lemma bits_val_recv nb x : bits_val (intsum_recv_bits nb x) = x mod 2 ^ Z.of_nat nb.
Proof.
  revert x. induction nb as [|nb IH]; intros x; cbn [intsum_recv_bits bits_val].
  - change (2 ^ Z.of_nat 0) with 1. now rewrite Z.mod_1_r.
  - rewrite IH, Nat2Z.inj_succ, Z.pow_succ_r by lia.
    assert (0 < 2 ^ Z.of_nat nb) by (apply Z.pow_pos_nonneg; lia).
    rewrite Z.rem_mul_r by lia. rewrite Zmod_odd.
    destruct (Z.odd x); reflexivity.
Qed.

Lemma recv_bits_lxor nb x y :
  map2 xorb (intsum_recv_bits nb x) (intsum_recv_bits nb y) = intsum_recv_bits nb (Z.lxor x y).
Proof.
  revert x y. induction nb as [|nb IH]; intros; cbn [intsum_recv_bits map2]; auto.
  rewrite IH. f_equal.
  - rewrite <- !Z.bit0_odd. now rewrite Z.lxor_spec.
  - f_equal. rewrite <- !Z.div2_div, <- !Z.shiftr_spec_aux || idtac.
    change 2 with (2 ^ 1). rewrite <- !Z.shiftr_div_pow2 by lia. now rewrite Z.shiftr_lxor.
Qed.

Lemma reduce_draw_range m x : mod_ok m -> m <> 0 -> 0 <= reduce m (u64 x) < m.
Proof.
  intros H N. pose proof (reduce_range m x H) as R. unfold ot_modulus in R.
  destruct (Z.eqb_spec m 0); [contradiction|auto].
Qed.

Lemma ot_max_neg m x : mod_ok m -> (m <> 0 -> 0 <= x <= m) ->
  cong (ot_modulus m) (u64 (ot_max m - x + 1)) (- x) /\
  (m <> 0 -> 0 <= u64 (ot_max m - x + 1) <= m).
Proof.
  intros Hm Hx. unfold ot_max, ot_modulus. destruct (Z.eqb_spec m 0) as [E|E].
  - split; [|congruence]. rewrite cong_u64. exists 1. lia.
  - specialize (Hx E). assert (m < 2 ^ 62) by (destruct Hm; lia).
    change (2 ^ 62) with 4611686018427387904 in *.
    rewrite u64_small by (unfold two64; lia). split; [exists 1; lia|lia].
Qed.

Lemma intsum_send_bits_spec m rnd num' : mod_ok m -> forall nb k idx num acc l a num1,
  0 <= k -> (m <> 0 -> nb <> 0%nat -> 2 ^ (k + Z.of_nat nb - 1) <= m) ->
  (0 <= acc < ot_modulus m) ->
  intsum_send_bits m rnd nb k idx num acc = (l, a) ->
  num1 = num' ->
  length l = nb /\ 0 <= a < ot_modulus m /\
  Forall (fun x => m <> 0 -> 0 <= x < m) (map2 ot_select (intsum_recv_bits nb num1) l) /\
  cong (ot_modulus m) (a + zsum (map2 ot_select (intsum_recv_bits nb num1) l))
    (acc + 2 ^ k * bits_val (map2 xorb (intsum_recv_bits nb num) (intsum_recv_bits nb num1))).
Proof.
  intros Hm nb. revert num'. induction nb as [|nb IH]; intros num' k idx num acc l a num1 Hk Hp Hacc E ->;
    cbn [intsum_send_bits] in E.
  - injection E as <- <-. cbn [intsum_recv_bits map2 bits_val length].
    rewrite zsum_nil. repeat split; try lia; [constructor|]. cong_ring.
  - destruct (intsum_send_bits _ _ _ _ _ _ _) as [l' a'] eqn:E'. injection E as <- <-.
    set (sh := Z.odd num) in *. set (b0 := reduce m (u64 (rnd idx))) in *.
    assert (Hpow : m <> 0 -> 0 <= 2 ^ k <= m).
    { intros N. split; [apply Z.pow_nonneg; lia|].
      etransitivity; [|apply Hp; auto]. apply Z.pow_le_mono_r; lia. }
    assert (Hb0 : m <> 0 -> 0 <= b0 < m) by (intro; now apply reduce_draw_range).
    destruct (ot_max_neg m (2 ^ k) Hm ltac:(auto)) as [Cmp Rmp].
    destruct (ot_max_neg m b0 Hm ltac:(intro N; specialize (Hb0 N); lia)) as [Cmb Rmb].
    set (mp := u64 (ot_max m - 2 ^ k + 1)) in *. set (mb := u64 (ot_max m - b0 + 1)) in *.
    set (b1 := reduce m (u64 (b0 + (if sh then mp else 2 ^ k)))) in *.
    assert (Hm62 : m <> 0 -> 1 < m < 4611686018427387904) by (intro N; destruct Hm as [|HH]; [contradiction|exact HH]).
    assert (Cb1 : cong (ot_modulus m) b1 (b0 + (if sh then - 2 ^ k else 2 ^ k))).
    { unfold b1. rewrite reduce_cong; auto.
      - destruct sh; [now rewrite Cmp|reflexivity].
      - intro N. specialize (Hb0 N). specialize (Rmp N). specialize (Hpow N). specialize (Hm62 N).
        unfold two64. destruct sh; lia. }
    assert (Hacc' : m <> 0 -> 0 <= acc < m).
    { intro N. unfold ot_modulus in Hacc. destruct (Z.eqb_spec m 0); [contradiction|auto]. }
    set (acc' := reduce m (u64 (acc + b2z sh * 2 ^ k + mb))) in *.
    assert (Cacc : cong (ot_modulus m) acc' (acc + b2z sh * 2 ^ k - b0)).
    { unfold acc'. rewrite reduce_cong; auto.
      - rewrite Cmb. cong_ring.
      - intro N. specialize (Hb0 N). specialize (Rmb N). specialize (Hpow N). specialize (Hm62 N).
        specialize (Hacc' N). unfold two64. destruct sh; cbn [b2z]; lia. }
    specialize (IH (num' / 2) (k + 1) (S idx) (num / 2) acc' l' a' _ ltac:(lia)
      ltac:(intros N N'; replace (k + 1 + Z.of_nat nb - 1) with (k + Z.of_nat (S nb) - 1) by lia; auto)
      ltac:(now apply reduce_range) E' eq_refl).
    destruct IH as (Hl & Ha & Hf & Hc).
    cbn [intsum_recv_bits map2 length bits_val]. rewrite zsum_cons.
    set (c := Z.odd num') in *.
    assert (Csel : cong (ot_modulus m) (ot_select c (b0, b1))
                     (b0 + b2z c * (if sh then - 2 ^ k else 2 ^ k))).
    { unfold ot_select. destruct c; cbn [fst snd b2z].
      - rewrite Cb1. destruct sh; cong_ring.
      - cong_ring. }
    split; [lia|]. split; [auto|]. split.
    + constructor; auto. intro N. unfold ot_select. destruct c; cbn [fst snd]; auto.
      now apply reduce_draw_range.
    + transitivity (ot_select c (b0, b1) + (a' + zsum (map2 ot_select (intsum_recv_bits nb (num' / 2)) l')));
        [cong_ring|].
      rewrite Hc, Csel, Cacc.
      replace (2 ^ (k + 1)) with (2 ^ k * 2) by (rewrite Z.pow_add_r by lia; ring).
      set (v := bits_val _). fold sh. destruct sh, c; cbn [xorb b2z]; cong_ring.
Qed.

Lemma recv_acc_fold m r : intsum_recv_acc m r =
  fold_left (fun acc x => reduce m (u64 (acc + x))) r 0.
Proof. reflexivity. Qed.

Lemma intsum_send_row_spec m rnd : mod_ok m -> forall nbs row row' idx l as_,
  Forall (width_ok m) nbs -> length row = length nbs -> length row' = length nbs ->
  intsum_send_row m rnd (combine row nbs) idx = (l, as_) ->
  let r := map2 ot_select (concat (map2 intsum_recv_bits nbs row')) l in
  let bs := map (intsum_recv_acc m) (pieces nbs r) in
  length l = total nbs /\ length as_ = length nbs /\
  Forall (fun a => 0 <= a < ot_modulus m) as_ /\
  Forall (fun a => 0 <= a < ot_modulus m) bs /\
  map2 (fun a b => (a + b) mod ot_modulus m) as_ bs = map3 (col_spec m) nbs row row'.
Proof.
  intros Hm. pose proof (ot_modulus_pos m Hm) as HM.
  induction nbs as [|nb nbs IH]; intros row row' idx l as_ HW L L' E.
  - destruct row; [|discriminate]. destruct row'; [|discriminate]. cbn in E. injection E as <- <-.
    cbn. repeat split; constructor.
  - destruct row as [|x row]; [discriminate|]. destruct row' as [|y row']; [discriminate|].
    injection L as L. injection L' as L'. inversion HW as [|? ? [Hw Hw'] HW']; subst.
    cbn [combine intsum_send_row] in E.
    destruct (intsum_send_bits _ _ _ _ _ _ _) as [l1 a] eqn:E1.
    destruct (intsum_send_row _ _ _ _) as [l2 as2] eqn:E2. injection E as <- <-.
    destruct (intsum_send_bits_spec m rnd y Hm nb 0 idx x 0 l1 a y ltac:(lia) Hw' ltac:(lia) E1 eq_refl)
      as (Hl1 & Ha & Hf & Hc).
    specialize (IH row row' _ l2 as2 HW' L L' E2). cbv zeta in IH. destruct IH as (Hl2 & Hlas & Hfa & Hfb & Hmap).
    cbn [map2 concat total fold_right pieces map map3].
    change (fold_right Nat.add 0%nat nbs) with (total nbs).
    assert (Hsplit : map2 ot_select (intsum_recv_bits nb y ++ concat (map2 intsum_recv_bits nbs row')) (l1 ++ l2)
      = map2 ot_select (intsum_recv_bits nb y) l1 ++ map2 ot_select (concat (map2 intsum_recv_bits nbs row')) l2).
    { apply map2_app. rewrite recv_bits_length. auto. }
    assert (Hlen1 : length (map2 ot_select (intsum_recv_bits nb y) l1) = nb).
    { rewrite map2_length, recv_bits_length. lia. }
    cbv zeta. rewrite Hsplit, firstn_app_exact, skipn_app_exact by auto.
    split; [rewrite app_length; lia|]. split; [cbn; lia|].
    assert (Hrr : 0 <= intsum_recv_acc m (map2 ot_select (intsum_recv_bits nb y) l1) < ot_modulus m).
    { apply recv_acc_range; auto. lia. }
    split; [constructor; auto|]. split; [constructor; auto|].
    f_equal; auto. unfold col_spec. apply cong_iff. rewrite recv_acc_fold.
    rewrite (recv_acc_cong m _ Hm 0); auto.
    + rewrite Z.add_0_l, Hc, recv_bits_lxor, bits_val_recv. cong_ring.
    + intro N. destruct Hm; lia.
Qed.

Lemma pieces_repeat0 m nbs : mod_ok m ->
  map (intsum_recv_acc m) (pieces nbs (repeat 0 (total nbs))) = repeat 0 (length nbs).
Proof.
  intros Hm. induction nbs as [|nb nbs IH]; cbn [pieces map length repeat total fold_right]; auto.
  change (fold_right Nat.add 0%nat nbs) with (total nbs).
  rewrite repeat_app, firstn_app_exact, skipn_app_exact by apply repeat_length.
  f_equal; auto. unfold intsum_recv_acc. clear -Hm. induction nb; cbn [repeat fold_left]; auto.
  replace (reduce m (u64 (0 + 0))) with 0; auto.
  unfold reduce. destruct (Z.eqb_spec m 0); reflexivity.
Qed.

Lemma map2_select_zeros cs n : length cs = n -> map2 ot_select cs (repeat (0, 0) n) = repeat 0 n.
Proof.
  intros <-. induction cs; cbn; auto. f_equal; auto. destruct a; auto.
Qed.

Lemma concat_bits_length nbs row : length row = length nbs ->
  length (concat (map2 intsum_recv_bits nbs row)) = total nbs.
Proof.
  revert row. induction nbs; destruct row; cbn; intros; try discriminate; auto.
  rewrite app_length, recv_bits_length, IHnbs by lia. auto.
Qed.

Lemma choices_length nbs s : Forall (fun r => length r = length nbs) s ->
  length (intsum_choices nbs s) = (length s * total nbs)%nat.
Proof.
  unfold intsum_choices. induction 1; cbn; auto.
  rewrite app_length, concat_bits_length, IHForall by auto. auto.
Qed.

Lemma intsum_send_rows_spec m rnd nbs : mod_ok m -> Forall (width_ok m) nbs ->
  forall s0 s1 valid idx l rets,
  length s0 = length valid -> length s1 = length valid ->
  Forall (fun r => length r = length nbs) s0 -> Forall (fun r => length r = length nbs) s1 ->
  intsum_send_rows m rnd nbs (combine s0 valid) idx = (l, rets) ->
  let r := map2 ot_select (intsum_choices nbs s1) l in
  let outs := map (fun rr => map (intsum_recv_acc m) (pieces nbs rr))
                  (chunks (length s1) (total nbs) r) in
  length l = (length valid * total nbs)%nat /\
  length rets = length valid /\ length outs = length valid /\
  Forall (fun r => length r = length nbs) rets /\ Forall (fun r => length r = length nbs) outs /\
  Forall (Forall (fun a => 0 <= a < ot_modulus m)) rets /\
  Forall (Forall (fun a => 0 <= a < ot_modulus m)) outs /\
  map2 (map2 (fun a b => (a + b) mod ot_modulus m)) rets outs = map3 (row_spec m nbs) valid s0 s1.
Proof.
  intros Hm HW. pose proof (ot_modulus_pos m Hm) as HM.
  induction s0 as [|r0 s0 IH]; intros s1 valid idx l rets L0 L1 F0 F1 E.
  - destruct valid; [|discriminate]. destruct s1; [|discriminate].
    cbn in E. injection E as <- <-. cbn. repeat split; constructor.
  - destruct valid as [|v valid]; [discriminate|]. destruct s1 as [|r1 s1]; [discriminate|].
    injection L0 as L0. injection L1 as L1.
    inversion F0; subst. inversion F1; subst.
    cbn [combine intsum_send_rows] in E.
    destruct (if v then _ else _) as [l1 ret] eqn:E1.
    destruct (intsum_send_rows _ _ _ _ _) as [l2 rets2] eqn:E2. injection E as <- <-.
    specialize (IH s1 valid _ l2 rets2 L0 L1 ltac:(auto) ltac:(auto) E2). cbv zeta in IH.
    destruct IH as (A1 & A2 & A3 & A4 & A5 & A6 & A7 & A8).
    cbv zeta. cbn [length chunks map].
    change (intsum_choices nbs (r1 :: s1)) with
      (concat (map2 intsum_recv_bits nbs r1) ++ intsum_choices nbs s1).
    set (c1 := concat (map2 intsum_recv_bits nbs r1)).
    assert (Hc1 : length c1 = total nbs) by now apply concat_bits_length.
    assert (P : length l1 = total nbs /\ length ret = length nbs /\
      Forall (fun a => 0 <= a < ot_modulus m) ret /\
      Forall (fun a => 0 <= a < ot_modulus m) (map (intsum_recv_acc m) (pieces nbs (map2 ot_select c1 l1))) /\
      map2 (fun a b => (a + b) mod ot_modulus m) ret
        (map (intsum_recv_acc m) (pieces nbs (map2 ot_select c1 l1))) = row_spec m nbs v r0 r1).
    { destruct v.
      - eapply intsum_send_row_spec; eauto.
      - injection E1 as <- <-. rewrite map2_select_zeros by auto. rewrite pieces_repeat0 by auto.
        rewrite !repeat_length. repeat split; auto.
        + apply Forall_forall. intros z Hz. apply repeat_spec in Hz. lia.
        + apply Forall_forall. intros z Hz. apply repeat_spec in Hz. lia.
        + unfold row_spec. clear -HM. induction (length nbs); cbn; auto. f_equal; auto. }
    destruct P as (B1 & B2 & B3 & B4 & B5).
    rewrite map2_app by congruence.
    assert (Hl : length (map2 ot_select c1 l1) = total nbs) by (rewrite map2_length; lia).
    rewrite firstn_app_exact, skipn_app_exact by auto.
    rewrite app_length. cbn [map2 map3]. rewrite B5, A8.
    assert (Hpl : forall (r : list Z), length (pieces nbs r) = length nbs).
    { clear. induction nbs; intros; cbn; auto. }
    repeat split; auto.
    + rewrite B1, A1. reflexivity.
    + constructor; auto. now rewrite map_length, Hpl.
Qed.

Lemma width_ok_64 m nbs : Forall (width_ok m) nbs -> widths_ok nbs = true.
Proof.
  intros H. apply forallb_forall. intros nb Hnb. rewrite Forall_forall in H.
  destruct (H nb Hnb). now apply Nat.leb_le.
Qed.

Lemma intsum_rel ot rnd m nbs s0 s1 valid :
  mod_ok m -> Forall (width_ok m) nbs ->
  length s0 = length valid -> length s1 = length valid ->
  Forall (fun r => length r = length nbs) s0 -> Forall (fun r => length r = length nbs) s1 ->
  rel (intsum_ot_sender ot rnd s0 valid nbs m) (intsum_ot_receiver ot s1 nbs m)
    (fun o0 o1 =>
      length o0 = length valid /\ length o1 = length valid /\
      Forall (fun r => length r = length nbs) o0 /\ Forall (fun r => length r = length nbs) o1 /\
      Forall (Forall (fun a => 0 <= a < ot_modulus m)) o0 /\
      Forall (Forall (fun a => 0 <= a < ot_modulus m)) o1 /\
      map2 (map2 (fun a b => (a + b) mod ot_modulus m)) o0 o1 = map3 (row_spec m nbs) valid s0 s1).
Proof.
  intros Hm HW L0 L1 F0 F1. unfold intsum_ot_sender, intsum_ot_receiver.
  rewrite (width_ok_64 m) by auto.
  destruct (intsum_send_rows _ _ _ _ _) as [l rets] eqn:E.
  pose proof (intsum_send_rows_spec m rnd nbs Hm HW s0 s1 valid 0%nat l rets L0 L1 F0 F1 E) as P.
  cbv zeta in P. destruct P as (A1 & P).
  apply rel_ot. { rewrite choices_length by auto. congruence. }
  apply rel_ret. exact P.
Qed.

(** ** Boolean Beaver triples *)

Lemma btriple_out_spec : forall x0 y0 r0 x1 y1 r1 m,
  length x0 = m -> length y0 = m -> length r0 = m ->
  length x1 = m -> length y1 = m -> length r1 = m ->
  let t0 := btriple_out x0 y0 r0 (map2 ot_select y0 (btriple_msgs x1 r1)) in
  let t1 := btriple_out x1 y1 r1 (map2 ot_select y1 (btriple_msgs x0 r0)) in
  Forall2 btriple_pair t0 t1 /\ length t0 = m /\ length t1 = m /\
  map ta t0 = x0 /\ map tb t0 = y0 /\ map ta t1 = x1 /\ map tb t1 = y1.
Proof.
  cbv zeta. induction x0 as [|a0 x0 IH]; intros; subst; destruct y0, r0, x1, y1, r1; try discriminate.
  - cbn. repeat split; constructor.
  - cbn [length] in *.
    specialize (IH y0 r0 x1 y1 r1 _ eq_refl ltac:(lia) ltac:(lia) ltac:(lia) ltac:(lia) ltac:(lia)).
    cbv zeta in *. destruct IH as (A1 & A2 & A3 & A4 & A5 & A6 & A7).
    unfold btriple_out, btriple_msgs in *. cbn [map2 combine fst snd map length ta tb].
    split; [|repeat split; f_equal; auto].
    constructor; auto. unfold btriple_pair. cbn [ta tb tc fst snd].
    repeat match goal with b : bool |- _ => destruct b end; reflexivity.
Qed.

Lemma gen_btriples_rel x0 y0 r0 x1 y1 r1 m :
  length x0 = m -> length y0 = m -> length r0 = m ->
  length x1 = m -> length y1 = m -> length r1 = m ->
  rel (gen_boolean_beaver_triples false x0 y0 r0) (gen_boolean_beaver_triples true x1 y1 r1)
    (fun t0 t1 => Forall2 btriple_pair t0 t1 /\ length t0 = m /\ length t1 = m /\
       map ta t0 = x0 /\ map tb t0 = y0 /\ map ta t1 = x1 /\ map tb t1 = y1).
Proof.
  intros. unfold gen_boolean_beaver_triples.
  apply rel_ot. { unfold btriple_msgs. rewrite map2_length. lia. }
  apply rel_ot'. { unfold btriple_msgs. rewrite map2_length. lia. }
  apply rel_ret. now apply btriple_out_spec.
Qed.

(** ** Lazy Beaver triple *)

Lemma range_limbs x : 0 <= x < Int_Modulus -> limbs_ok x.
Proof. pose proof p_ge. unfold limbs_ok, two64. lia. Qed.

Lemma lazy_triple_rel r1 r2 r3 r4 r5 s1 s2 s3 s4 s5 :
  rel (generate_beaver_triple_lazy false r1 r2 r3 r4 r5)
      (generate_beaver_triple_lazy true s1 s2 s3 s4 s5)
    (fun t0 t1 =>
      bt_A t0 = r1 mod Int_Modulus /\ bt_B t0 = r2 mod Int_Modulus /\ bt_C t0 = r3 mod Int_Modulus /\
      bt_A t1 = r4 mod Int_Modulus /\ bt_B t1 = r5 mod Int_Modulus /\
      0 <= bt_C t1 < Int_Modulus /\
      (bt_C t0 + bt_C t1) mod Int_Modulus =
        ((bt_A t0 + bt_A t1) * (bt_B t0 + bt_B t1)) mod Int_Modulus).
Proof.
  unfold generate_beaver_triple_lazy. pose proof p_pos as Hp.
  eapply rel_deliver_end.
  - apply delivers_BeaverTriple; cbn [bt_A bt_B bt_C]; apply range_limbs, modp_range.
  - cbn [bt_A bt_B bt_C]. unfold fmpz_randm.
    do 5 (split; [reflexivity|]). split; [apply modp_range|].
    apply cong_iff. demod. cong_ring.
Qed.
