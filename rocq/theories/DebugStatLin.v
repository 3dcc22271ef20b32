(** * Debugging runs of LINREG: rows and answers *)
From Coq Require Import ZArith Znumtheory List Bool Lia Permutation.
From Verif Require Import Words WordsFacts Constants Cong Share SpecShare ShareFacts Proc ProcFacts Net SpecNet NetFacts RelFacts
  Poly SpecPoly FieldFacts PolyFacts FftFacts Circuit SpecCircuit CircuitFacts Snip SpecSnip SnipFacts SnipBatch
  MpcFacts ServerOps SpecServer TableFacts ServerFacts ServerProps ServerCor ClientOps SpecClient ClientFacts ClientProps
  SnipSums SpecStat StatReads StatProps StatClient StatSound SpecCount CountFacts CountProps SpecAccept AcceptFacts AcceptProps
  DebugOps SpecDebug DebugFacts DebugProps DebugStat SpecDebugStat DebugStatFacts DebugStatProps DebugStatRows.
From Verif Require DabitFacts SecretProof.
Import ListNotations.
Open Scope Z_scope.
Opaque Int_Modulus Int_Gen init_roots.
Local Notation P := Int_Modulus.

Definition linreg_luck nb (i : nat) (r : drec (linreg_vals * ClientPacket) (list Z)) : Prop :=
  (i = 1%nat -> 2 ^ Z.of_nat nb <= nth 1 (linreg_row (fst (d_0 r))) 0) /\
  (i = 2%nat -> 2 ^ Z.of_nat (2 * nb) <= nth 2 (linreg_row (fst (d_0 r))) 0) /\
  (i = 6%nat -> (g0_s (snd (d_0 r)) + g0_s (snd (d_1 r))) mod p <> 0) /\
  (i = 8%nat -> (shareB (triple_share (snd (d_0 r))) + shareB (triple_share (snd (d_1 r)))) mod p <> 0).

(** The blocks the identities are made of. *)
Definition sixth (g : prg) : prg := fun i => g (6 * i + 6)%nat.

Definition linreg_real nb (d : list Z) : Prop :=
  exists x y, d = [x; y; x * x; x * y] /\ 0 <= x < 2 ^ Z.of_nat nb /\ 0 <= y < 2 ^ Z.of_nat nb.

Lemma linreg_small : (0 < NumMulGates (CheckLinReg 2) < 2 ^ 18)%nat.
Proof.
  destruct (linreg_gates 2 ltac:(lia)) as [-> _]. change (num_quad 2 + num_x 2)%nat with 2%nat. split; [lia|].
  apply Nat.lt_le_trans with (2 ^ 2)%nat; [cbn; lia|]. apply Nat.pow_le_mono_r; lia.
Qed.
Lemma linreg_eval x y x2 xy : Eval (CheckLinReg 2) [x; y; x2; xy] = true <->
  x2 mod p = (x * x) mod p /\ xy mod p = (x * y) mod p.
Proof.
  pose proof (check_linreg_lemma [x] y [x2] [xy] eq_refl eq_refl) as H. cbn [length app] in H. rewrite H.
  cbn [map products]. rewrite (Z.mul_comm y x).
  split; [intros [A B]|intros [A B]].
  - injection A as A. injection B as B. auto.
  - now rewrite A, B.
Qed.

Lemma linreg_row_invalid nb g T stale : (1 <= nb <= 24)%nat -> prg_ok g -> forall i s tabs, tabs_ok (CheckLinReg 2) tabs ->
  exists r s' tabs', linreg_invalid_request (2 ^ Z.of_nat nb) g T stale (i, s, tabs) = Some (r, (S i, s', tabs')) /\
    tabs_ok (CheckLinReg 2) tabs' /\ linreg_content 2 (d_0 r) /\ linreg_content 2 (d_1 r) /\
    (linreg_luck nb i r -> row (CheckLinReg 2) (linreg_fits nb) (linreg_content 2) linreg_opened snd (sixth g) stale i r) /\
    (marked12 i = false -> linreg_opened (d_0 r) (d_1 r) = d_real r /\ linreg_real nb (d_real r)).
Proof.
  intros Hn HG i s tabs HT. unfold linreg_invalid_request. rewrite (u64_max nb) by lia.
  set (M := 2 ^ Z.of_nat nb). set (M2 := 2 ^ Z.of_nat (2 * nb)). cbv zeta.
  assert (HM : 0 < M <= 2 ^ 24) by (split; [apply Z.pow_pos_nonneg; lia|apply Z.pow_le_mono_r; lia]).
  assert (HM2 : M2 = M * M).
  { unfold M2, M. rewrite <- Z.pow_add_r by lia. f_equal. lia. }
  assert (B2 : 0 < M2 <= 2 ^ 48) by (clear - HM HM2; nia).
  pose proof (Z.mod_pos_bound (random_u64 g (6 * i)) M (proj1 HM)) as Hx0.
  pose proof (Z.mod_pos_bound (random_u64 g (6 * i + 1)) M (proj1 HM)) as Ha.
  pose proof (Z.mod_pos_bound (random_u64 g (6 * i + 2)) M (proj1 HM)) as Hy.
  pose proof (Z.mod_pos_bound (random_u64 g (6 * i + 3)) M (proj1 HM)) as Hb0.
  pose proof (random_u64_ok g (6 * i + 3) HG) as Wb0.
  pose proof (Z.mod_pos_bound (random_u64 g (6 * i + 4)) M2 (proj1 B2)) as Hc0.
  pose proof (random_u64_ok g (6 * i + 4) HG) as Wc0.
  pose proof (Z.mod_pos_bound (random_u64 g (6 * i + 5)) M2 (proj1 B2)) as He.
  set (x0 := random_u64 g (6 * i) mod M) in *. clearbody x0.
  set (a := random_u64 g (6 * i + 1) mod M) in *. clearbody a.
  set (y := random_u64 g (6 * i + 2) mod M) in *. clearbody y.
  set (bw := random_u64 g (6 * i + 3)) in *. clearbody bw.
  set (cw := random_u64 g (6 * i + 4)) in *. clearbody cw.
  set (e := random_u64 g (6 * i + 5) mod M2) in *. clearbody e.
  assert (EM : M = 2 ^ Z.of_nat nb) by reflexivity. assert (EM2 : M2 = 2 ^ Z.of_nat (2 * nb)) by reflexivity.
  clearbody M M2.
  assert (U : forall x, 0 <= x <= 2 ^ 51 -> u64 x = x).
  { intros x Hx. apply u64_small. assert (2 ^ 51 < two64) by reflexivity. clear - Hx H. lia. }
  rewrite (U (x0 + M)) by (clear - Hx0 HM; lia).
  set (x := if (i =? 0)%nat then x0 + M else x0).
  assert (Hx : 0 <= x < 2 * M) by (unfold x; destruct (i =? 0)%nat; clear - Hx0 HM; lia).
  assert (Hx' : i <> 0%nat -> 0 <= x < M) by (unfold x; destruct (Nat.eqb_spec i 0); [easy|auto]).
  assert (X0 : i = 0%nat -> M <= x) by (intros ->; unfold x; cbn [Nat.eqb]; clear - Hx0; lia).
  clearbody x.
  set (b := if (i =? 1)%nat then bw else bw mod M).
  assert (Hb' : i <> 1%nat -> 0 <= b < M) by (unfold b; destruct (Nat.eqb_spec i 1); [easy|auto]).
  assert (Wb : word b).
  { unfold b. destruct (i =? 1)%nat; [exact Wb0|]. clear - Hb0 HM. unfold word, two64. lia. }
  clearbody b.
  assert (Hxx : 0 <= x * x <= 2 ^ 50) by (clear - Hx HM; nia).
  assert (Hxy : 0 <= x * y <= 2 ^ 50) by (clear - Hx Hy HM; nia).
  rewrite (U (x * x)), (U (x * x + 10)), (U (x * y)), (U (x * y + 10)) by (clear - Hxx Hxy; lia).
  assert (Hxx' : i <> 0%nat -> 0 <= x * x < M2) by (intros Y; specialize (Hx' Y); clear - Hx' HM2; nia).
  assert (Hxy' : i <> 0%nat -> 0 <= x * y < M2) by (intros Y; specialize (Hx' Y); clear - Hx' Hy HM2; nia).
  pose proof (Z.mod_pos_bound (x * x + 10) M2 (proj1 B2)) as HT10.
  pose proof (Z.mod_pos_bound (x * y + 10) M2 (proj1 B2)) as HU10.
  set (q := if (i =? 3)%nat then (x * x + 10) mod M2 else x * x).
  assert (Hq : 0 <= q <= 2 ^ 50).
  { unfold q. destruct (i =? 3)%nat; [|exact Hxx]. clear - HT10 B2. lia. }
  assert (Hq' : i <> 0%nat -> 0 <= q < M2).
  { intros Y. unfold q. destruct (i =? 3)%nat; [exact HT10|auto]. }
  assert (EQ : i <> 3%nat -> q = x * x) by (intros Y; unfold q; destruct (Nat.eqb_spec i 3); easy).
  assert (EQ' : i = 3%nat -> q = (x * x + 10) mod M2) by (intros ->; reflexivity).
  clearbody q.
  set (z := if (i =? 4)%nat then (x * y + 10) mod M2 else x * y).
  assert (Hz : 0 <= z <= 2 ^ 50).
  { unfold z. destruct (i =? 4)%nat; [|exact Hxy]. clear - HU10 B2. lia. }
  assert (Hz' : i <> 0%nat -> 0 <= z < M2).
  { intros Y. unfold z. destruct (i =? 4)%nat; [exact HU10|auto]. }
  assert (EZ : i <> 4%nat -> z = x * y) by (intros Y; unfold z; destruct (Nat.eqb_spec i 4); easy).
  assert (EZ' : i = 4%nat -> z = (x * y + 10) mod M2) by (intros ->; reflexivity).
  clearbody z.
  set (c := if (i =? 2)%nat then cw else cw mod M2).
  assert (Hc' : i <> 2%nat -> 0 <= c < M2) by (unfold c; destruct (Nat.eqb_spec i 2); [easy|auto]).
  assert (Wc : word c).
  { unfold c. destruct (i =? 2)%nat; [exact Wc0|]. clear - Hc0 B2. unfold word, two64. lia. }
  clearbody c.
  destruct (packets_made T s tabs (CheckLinReg 2) [x; y; q; x * y]) as (p0 & p1 & s' & tabs' & -> & HT' & O0 & O1 & S0 & S1 & WP); auto.
  { apply check_linreg_wf. lia. }
  { apply linreg_small. }
  eexists _, s', tabs'. split; [reflexivity|]. split; [exact HT'|].
  assert (WX : word x) by (clear - Hx HM; unfold word, two64; lia). assert (WA : word a) by (clear - Ha HM; unfold word, two64; lia).
  assert (WY : word y) by (clear - Hy HM; unfold word, two64; lia).
  assert (WQ : word q) by (clear - Hq; unfold word, two64; lia). assert (WZ : word z) by (clear - Hz; unfold word, two64; lia).
  assert (WE : word e) by (clear - He B2; unfold word, two64; lia).
  assert (EO : linreg_opened ([a], b, [c], [e], spoil0 i p0)
    ([Z.lxor a x], Z.lxor b y, [Z.lxor c q], [Z.lxor e z], spoil1 i p1) = [x; y; q; z]).
  { unfold linreg_opened, linreg_row. cbn [fst app map2]. now rewrite <- !Z.lxor_assoc, !Z.lxor_nilpotent, !Z.lxor_0_l. }
  assert (C0 : linreg_content 2 ([a], b, [c], [e], spoil0 i p0)).
  { split; [|now apply spoil0_ok]. cbn [fst]. split; [reflexivity|split; [reflexivity|split; [reflexivity|]]]. split; [|split; [assumption|split]]; constructor; auto. }
  assert (C1 : linreg_content 2 ([Z.lxor a x], Z.lxor b y, [Z.lxor c q], [Z.lxor e z], spoil1 i p1)).
  { split; [|now apply spoil1_ok]. cbn [fst]. pose proof (lxor_word a x WA WX). pose proof (lxor_word b y Wb WY). pose proof (lxor_word c q Wc WQ). pose proof (lxor_word e z WE WZ).
    split; [reflexivity|split; [reflexivity|split; [reflexivity|]]]. split; [|split; [assumption|split]]; constructor; auto. }
  split; [exact C0|]. split; [exact C1|]. split.
  - intros (L1 & L2 & L6 & L8). unfold row. cbn [d_id d_k0 d_k1 d_0 d_1 d_real d_valid snd fst] in *. rewrite EO.
    split; [reflexivity|]. split; [reflexivity|]. split; [reflexivity|]. split; [reflexivity|].
    split; [exact C0|]. split; [exact C1|].
    split.
    { intros Hm. assert (X : ~ marked6 i = true) by congruence. rewrite marked6_cases in X.
      unfold linreg_fits. cbn [forallb]. rewrite !andb_true_r, !andb_true_iff, !fits_spec, <- EM, <- EM2.
      assert (Y0 : i <> 0%nat) by (clear - X; lia). assert (Y1 : i <> 1%nat) by (clear - X; lia). assert (Y2 : i <> 2%nat) by (clear - X; lia).
      specialize (Hx' Y0). specialize (Hq' Y0). specialize (Hz' Y0). specialize (Hb' Y1). specialize (Hc' Y2).
      pose proof (lxor_lt nb a x) as Z1. pose proof (lxor_lt nb b y) as Z2.
      pose proof (lxor_lt (2 * nb) c q) as Z3. pose proof (lxor_lt (2 * nb) e z) as Z4.
      rewrite <- EM in Z1, Z2. rewrite <- EM2 in Z3, Z4.
      specialize (Z1 Ha Hx'). specialize (Z2 Hb' Hy). specialize (Z3 Hc' Hq'). specialize (Z4 He Hz').
      clear - Z1 Z2 Z3 Z4 Ha Hb' Hc' He. lia. }
    split.
    { intros Hi. assert (i = 0 \/ i = 1 \/ i = 2)%nat as C by (clear - Hi; lia). unfold linreg_fits. cbn [forallb]. destruct C as [C|[C|C]].
      - right. rewrite (fits_not nb (Z.lxor a x)); [reflexivity|]. rewrite Z.lxor_comm. apply lxor_big; rewrite <- EM; [exact Ha|].
        exact (X0 C).
      - left. rewrite (fits_not nb b); [now rewrite andb_false_r|]. exact (L1 C).
      - left. rewrite (fits_not (2 * nb) c); [now rewrite andb_false_r|]. exact (L2 C). }
    split.
    { intros Hm. assert (X : ~ marked12 i = true) by congruence. rewrite marked12_cases in X.
      assert (E0 : spoil0 i p0 = p0) by (unfold spoil0; destruct (Nat.eqb_spec i 5), (Nat.eqb_spec i 7); try (clear - X e0; lia); reflexivity).
      assert (E1 : spoil1 i p1 = p1) by (unfold spoil1; destruct (Nat.eqb_spec i 6), (Nat.eqb_spec i 8); try (clear - X e0; lia); reflexivity).
      assert (Y3 : q = x * x) by (apply EQ; clear - X; lia). assert (Y4 : z = x * y) by (apply EZ; clear - X; lia).
      rewrite E0, E1, Y4. apply WP. apply linreg_eval. now rewrite Y3. }
    intros Hi HW. assert (Y0 : i <> 0%nat) by (clear - Hi; lia). destruct (Nat.le_gt_cases i 4) as [C|C].
    + destruct HW as [HE _]. cbn [map] in HE. apply linreg_eval in HE. destruct HE as [HE1 HE2].
      rewrite Zmod_mod, <- Zmult_mod in HE1, HE2.
      assert (i = 3 \/ i = 4)%nat as [X|X] by (clear - C Hi; lia).
      * revert HE1. rewrite (EQ' X), EM2. apply ten_more; [exact Hn|]. rewrite <- EM2. exact (Hxx' Y0).
      * revert HE2. rewrite (EZ' X), EM2. apply ten_more; [exact Hn|]. rewrite <- EM2. exact (Hxy' Y0).
    + assert (Y3 : q = x * x) by (apply EQ; clear - C; lia). assert (Y4 : z = x * y) by (apply EZ; clear - C; lia).
      revert HW. rewrite Y4.
      apply (spoiled_wrong (CheckLinReg 2) [x; y; q; x * y] p0 p1); [apply linreg_small|apply WP, linreg_eval; now rewrite Y3|].
      apply (spoiled_row i _ p0 p1 O0 O1); auto.
      * exact linreg_small.
      * clear - C Hi. lia.
  - intros Hm. assert (X : ~ marked12 i = true) by congruence. rewrite marked12_cases in X.
    cbn [d_0 d_1 d_real fst snd]. split; [exact EO|]. exists x, y. rewrite <- EM.
    assert (Y3 : q = x * x) by (apply EQ; clear - X; lia). assert (Y4 : z = x * y) by (apply EZ; clear - X; lia).
    rewrite Y3, Y4. split; [reflexivity|]. split; [apply Hx'; clear - X; lia|exact Hy].
Qed.

Lemma u64_count {A} (l : list A) a : 0 <= a -> a + Z.of_nat (length l) < two64 ->
  fold_left (fun s _ => u64 (s + 1)) l a = a + Z.of_nat (length l).
Proof.
  revert a. induction l as [|x l IH]; intros a Ha Hl; cbn [fold_left length] in *; [lia|].
  rewrite u64_small by lia. rewrite IH; lia.
Qed.

Lemma linreg_debug nb g T s stale n order0 order1 d0 d1 junk0 junk1 garbage0 garbage1 :
  (1 <= nb <= 24)%nat -> prg_ok g -> (24 <= n)%nat -> Z.of_nat n < two32 -> fair order1 ->
  length d0 = 8%nat -> length d1 = 8%nat -> length junk0 = 32%nat -> length junk1 = 32%nat ->
  (forall i, let '(x, x2, xy) := garbage0 i in linreg_shape 2 (x, 0, x2, xy)) ->
  released_ok (fun i => g (6 * i + 6)%nat) stale n 9 11 13 ->
  exists l st' deg stream0 stream1,
    lin_reg_invalid (2 ^ Z.of_nat nb) g T s stale n = Some (l, st') /\ length l = n /\
    sent_bytes (send_size 2) = Some deg /\
    wire_opt (linregshare_bytes 2) (dsubs0 l) = Some stream0 /\ wire_opt (linregshare_bytes 2) (dsubs1 l) = Some stream1 /\
    (linreg_too_big nb l -> changes snd l ->
     let v := valids l in let sum j := zsum (map (fun r => nth j (c_real r) 0) v) in
     length v = (n - 12)%nat /\
     linreg_invalid_ans v = ([Z.of_nat (length v); sum 0%nat mod two64; sum 2%nat mod two64], [sum 1%nat mod two64; sum 3%nat mod two64]) /\
     (forall r, In r v -> exists x y, c_real r = [x; y; x * x; x * y] /\ 0 <= x < 2 ^ Z.of_nat nb /\ 0 <= y < 2 ^ Z.of_nat nb) /\
     forall L1, accepted (linreg_fits nb) (dsubs1 l) (dsubs1 l) L1 ->
     let m := (coefficients (CheckLinReg 2) * length L1)%nat in
     all_but (6 * (9 * p ^ Z.of_nat m)) m (fun e =>
       forall K rnd0 rnd1 st0 st1, synced st0 st1 -> randomX st0 = fst e -> uses (seed_pos st0) (snd e) K ->
       both (linreg_op false order0 nb n (deg ++ stream0) d0 junk0 garbage0 K rnd0 st0)
            (linreg_op true order1 nb n (deg ++ stream1) d1 junk1 garbage1 K rnd1 st1)
         (fun a b => fst b = RET_NO_ANS /\
            fst a = RET_ANS ([Z.of_nat (length v); sum 0%nat mod p; sum 2%nat mod p], [sum 1%nat mod p; sum 3%nat mod p])))).
Proof.
  intros Hn HG Hn24 HN HF LD0 LD1 J0 J1 HGB REL.
  destruct (invalid_loop (CheckLinReg 2) (linreg_invalid_request (2 ^ Z.of_nat nb) g T stale) (fun i r =>
      linreg_content 2 (d_0 r) /\ linreg_content 2 (d_1 r) /\
      (linreg_luck nb i r -> row (CheckLinReg 2) (linreg_fits nb) (linreg_content 2) linreg_opened snd (sixth g) stale i r) /\
      (marked12 i = false -> linreg_opened (d_0 r) (d_1 r) = d_real r /\ linreg_real nb (d_real r)))
      (fun i s tabs => linreg_row_invalid nb g T stale Hn HG i s tabs) n 0%nat s None (or_introl eq_refl))
    as (l & st' & E & HL & HQ). cbn [Nat.add] in HQ.
  assert (CL : forall r, In r l -> linreg_content 2 (d_0 r) /\ linreg_content 2 (d_1 r)).
  { intros r Hr. apply In_nth_error in Hr as [k Hk]. destruct (HQ k r Hk) as (A & B & _). auto. }
  assert (WO : forall subs, Forall (fun s => linreg_content 2 (snd s)) subs ->
    wire_opt (linregshare_bytes 2) subs = Some (wire linreg_wire subs)).
  { intros subs F. apply wire_opt_all. eapply Forall_impl; [|exact F].
    intros [pk [[[[x y] x2] xy] pkt]] [HS PO]. unfold linregshare_bytes.
    cbn [fst snd] in PO |- *. destruct HS as (_ & _ & _ & _ & Wy & _). rewrite !sent_bytes_seq, !sent_uint64_batch.
    rewrite (sent_packet _ _ PO). cbn [send_uint64 sent_bytes option_map]. rewrite app_nil_r, be_bytes64 by exact Wy.
    unfold linreg_wire. reflexivity. }
  exists l, st', (degree_wire 2), (wire linreg_wire (dsubs0 l)), (wire linreg_wire (dsubs1 l)).
  split; [exact E|]. split; [exact HL|].
  split; [apply (sent_degree 2); reflexivity|].
  split; [apply WO, Forall_map, Forall_forall; intros r Hr; apply (CL r Hr)|].
  split; [apply WO, Forall_map, Forall_forall; intros r Hr; apply (CL r Hr)|].
  intros (BIG1 & BIG2) (CH6 & CH8).
  assert (ROW : forall i r, nth_error l i = Some r ->
    row (CheckLinReg 2) (linreg_fits nb) (linreg_content 2) linreg_opened snd (sixth g) stale i r).
  { intros i r Hr. destruct (HQ i r Hr) as (_ & _ & X & _). apply X. split; [|split; [|split]]; intros ->; auto. }
  assert (HB : blocks_ok (sixth g) n).
  { destruct HG as [G1 G2]. split; [intros i; apply G1|]. intros i j Hi Hj X. unfold sixth in X. apply G2 in X; [lia|..];
    (assert (6 * two32 + 6 < two64) by reflexivity; clear - Hi Hj HN H; lia). }
  destruct (debug_lists (CheckLinReg 2) (linreg_fits nb) (linreg_content 2) linreg_opened snd (sixth g) stale l n HL Hn24 ROW HB REL)
    as (L & HA & LL & LV & ND & HT & FS & NE & K0 & K1 & C0 & C1).
  assert (VA : forall r, In r (valids l) -> linreg_opened (c_0 r) (c_1 r) = c_real r /\ linreg_real nb (c_real r)).
  { intros r Hr. unfold valids in Hr. apply in_map_iff in Hr as (d & <- & Hd). apply filter_In in Hd as [Hd Hv].
    apply In_nth_error in Hd as [k Hk]. destruct (HQ k d Hk) as (_ & _ & _ & X). cbn [c_0 c_1 c_real]. apply X.
    destruct (ROW k d Hk) as (_ & _ & _ & DV & _). rewrite DV in Hv. now apply negb_true_iff. }
  cbv zeta. split; [exact LV|]. split.
  { assert (Y : forall j, fold_left (fun a r => u64 (a + nth j (c_real r) 0)) (valids l) 0 =
      zsum (map (fun r => nth j (c_real r) 0) (valids l)) mod two64).
    { intros j. change 0 with (u64 0) at 2. now rewrite (u64_fold _ (valids l) 0), Z.add_0_l. }
    unfold linreg_invalid_ans. rewrite !Y.
    rewrite u64_count, Z.add_0_l; [reflexivity|lia|]. rewrite LV. assert (two32 < two64) by reflexivity. clear - HN H. lia. }
  split; [intros r Hr; apply (VA r Hr)|].
  intros L1 HA1.
  assert (X : forall A B m, all_but A m B -> forall A' (B' : challenge -> Prop), A = A' -> (forall e, B e -> B' e) -> all_but A' m B').
  { intros A B m H A' B' <- I. revert H. apply all_but_weaken. exact I. }
  eapply X; [apply (linreg_exact_count nb 2 order0 order1 n n (wire linreg_wire (dsubs0 l)) (wire linreg_wire (dsubs1 l)) (dsubs0 l) (dsubs1 l)
    d0 d1 junk0 junk1 garbage0 garbage1 L L1 (map c_pk (valids l)) 4); auto|..].
  - apply Hn.
  - destruct (linreg_gates 2 ltac:(lia)) as [<- _]. apply linreg_small.
  - apply honest_arrives_cut; auto. unfold dsubs0. now rewrite map_length.
  - apply honest_arrives_cut; auto. unfold dsubs1. now rewrite map_length.
  - f_equal. rewrite map_length, LL, LV. clear - Hn24. lia.
  - intros e HE K rnd0 rnd1 st0 st1 SY ER HU. eapply both_impl; [|exact (HE K rnd0 rnd1 st0 st1 SY ER HU)].
    cbv beta. intros x y [-> ->]. split; auto. rewrite map_length.
    unfold moments. change (num_x 2) with 1%nat. change (num_quad 2) with 1%nat. cbn [seq map app Nat.add]. rewrite !FS.
    assert (S0 : forall j, map (fun r => nth j (linreg_opened (c_0 r) (c_1 r)) 0) (valids l) = map (fun r => nth j (c_real r) 0) (valids l)).
    { intros j. apply map_ext_in. intros r Hr. now rewrite (proj1 (VA r Hr)). }
    rewrite !S0. unfold outcome. rewrite LV.
    match goal with |- context [(?x <? ?y)%nat] => destruct (Nat.ltb_spec x y) as [Z|Z]; [exfalso; clear - Z Hn24; lia|reflexivity] end.
Qed.
