(** * Debugging runs of VAR, STDDEV and LINREG: rows and answers *)
From Coq Require Import ZArith Znumtheory List Bool Lia Permutation.
From Verif Require Import Words WordsFacts Constants Cong Share SpecShare ShareFacts Proc ProcFacts Net SpecNet NetFacts RelFacts
  Poly SpecPoly FieldFacts PolyFacts FftFacts Circuit SpecCircuit CircuitFacts Snip SpecSnip SnipFacts SnipBatch
  MpcFacts ServerOps SpecServer TableFacts ServerFacts ServerProps ServerCor ClientOps SpecClient ClientFacts ClientProps
  SnipSums SpecStat StatReads StatProps StatClient StatSound SpecCount CountFacts CountProps SpecAccept AcceptFacts AcceptProps
  DebugOps SpecDebug DebugFacts DebugProps DebugStat SpecDebugStat DebugStatFacts DebugStatProps.
From Verif Require DabitFacts SecretProof.
Import ListNotations.
Open Scope Z_scope.
Opaque Int_Modulus Int_Gen init_roots.
Local Notation P := Int_Modulus.

(** ** VAR *)
Lemma fits_spec nb v : fits nb v = true <-> v < 2 ^ Z.of_nat nb.
Proof. unfold fits. apply Z.ltb_lt. Qed.
Lemma fits_not nb v : 2 ^ Z.of_nat nb <= v -> fits nb v = false.
Proof. intros H. unfold fits. apply Z.ltb_ge. exact H. Qed.
Lemma lxor_again a b : Z.lxor b (Z.lxor a b) = a.
Proof. now rewrite (Z.lxor_comm a b), <- Z.lxor_assoc, Z.lxor_nilpotent, Z.lxor_0_l. Qed.

Definition var_luck nb (i : nat) (r : drec (Z * Z * ClientPacket) (Z * Z)) : Prop :=
  (i = 2%nat -> 2 ^ Z.of_nat (2 * nb) <= snd (fst (d_0 r))) /\
  (i = 6%nat -> (g0_s (snd (d_0 r)) + g0_s (snd (d_1 r))) mod p <> 0) /\
  (i = 8%nat -> (shareB (triple_share (snd (d_0 r))) + shareB (triple_share (snd (d_1 r)))) mod p <> 0).

Lemma var_row nb g T stale n : (1 <= nb <= 24)%nat -> prg_ok g -> forall i s tabs, tabs_ok CheckVar tabs ->
  exists r s' tabs', var_invalid_request (2 ^ Z.of_nat nb) g T stale n (i, s, tabs) = Some (r, (S i, s', tabs')) /\
    tabs_ok CheckVar tabs' /\ var_content (d_0 r) /\ var_content (d_1 r) /\
    (var_luck nb i r -> row CheckVar (var_fits nb) var_content var_opened snd g stale i r) /\
    (marked12 i = false -> var_opened (d_0 r) (d_1 r) = [fst (d_real r); snd (d_real r)] /\
       0 <= fst (d_real r) < 2 ^ Z.of_nat nb /\ snd (d_real r) = fst (d_real r) * fst (d_real r)).
Proof.
  intros Hn HG i s tabs HT. unfold var_invalid_request. rewrite (u64_max nb) by lia.
  set (M := 2 ^ Z.of_nat nb). set (M2 := 2 ^ Z.of_nat (2 * nb)). cbv zeta.
  assert (HM : 0 < M <= 2 ^ 24) by (split; [apply Z.pow_pos_nonneg; lia|apply Z.pow_le_mono_r; lia]).
  assert (HM2 : M2 = M * M).
  { unfold M2, M. rewrite <- Z.pow_add_r by lia. f_equal. lia. }
  assert (B2 : 0 < M2 <= 2 ^ 48) by (clear - HM HM2; nia).
  assert (Hw : word (nth i (random_words g (n + blocks (8 * n) + blocks (8 * n)) n) 0)).
  { apply nth_word. apply (random_words_ok g _ n HG). }
  set (w := nth i (random_words g (n + blocks (8 * n) + blocks (8 * n)) n) 0) in *. clearbody w.
  pose proof (Z.mod_pos_bound (nth i (random_words g n n) 0) M (proj1 HM)) as Hv0.
  set (v0 := nth i (random_words g n n) 0 mod M) in *. clearbody v0.
  pose proof (Z.mod_pos_bound (nth i (random_words g (n + blocks (8 * n)) n) 0) M (proj1 HM)) as Hs0.
  set (s0 := nth i (random_words g (n + blocks (8 * n)) n) 0 mod M) in *. clearbody s0.
  assert (EM : M = 2 ^ Z.of_nat nb) by reflexivity. assert (EM2 : M2 = 2 ^ Z.of_nat (2 * nb)) by reflexivity.
  clearbody M M2.
  assert (U : forall x, 0 <= x <= 2 ^ 51 -> u64 x = x).
  { intros x Hx. apply u64_small. assert (2 ^ 51 < two64) by reflexivity. clear - Hx H. lia. }
  rewrite (U (v0 + M)), (U (s0 + M)) by (clear - Hv0 Hs0 HM; lia).
  set (v := if (i =? 0)%nat then v0 + M else v0).
  set (a := if (i =? 1)%nat then s0 + M else s0).
  assert (Hv : 0 <= v < 2 * M) by (unfold v; destruct (i =? 0)%nat; clear - Hv0 HM; lia).
  assert (Hv' : i <> 0%nat -> 0 <= v < M) by (unfold v; destruct (Nat.eqb_spec i 0); [easy|auto]).
  assert (V0 : i = 0%nat -> M <= v) by (intros ->; unfold v; cbn [Nat.eqb]; clear - Hv0; lia).
  assert (Ha : 0 <= a < 2 * M) by (unfold a; destruct (i =? 1)%nat; clear - Hs0 HM; lia).
  assert (Ha' : i <> 1%nat -> 0 <= a < M) by (unfold a; destruct (Nat.eqb_spec i 1); [easy|auto]).
  assert (A1 : i = 1%nat -> M <= a) by (intros ->; unfold a; cbn [Nat.eqb]; clear - Hs0; lia).
  clearbody v a.
  assert (Hvv : 0 <= v * v <= 2 ^ 50) by (clear - Hv HM; nia).
  rewrite (U (v * v)), (U (v * v + 10)) by (clear - Hvv; lia).
  assert (Hvv' : i <> 0%nat -> 0 <= v * v < M2) by (intros X; specialize (Hv' X); clear - Hv' HM2; nia).
  pose proof (Z.mod_pos_bound (v * v + 10) M2 (proj1 B2)) as HT10.
  set (q := if ((i =? 3) || (i =? 4))%nat then (v * v + 10) mod M2 else v * v).
  assert (Hq : 0 <= q <= 2 ^ 50).
  { unfold q. destruct (_ || _); [|exact Hvv]. clear - HT10 B2. lia. }
  assert (Hq' : i <> 0%nat -> 0 <= q < M2).
  { intros X. unfold q. destruct (_ || _); [exact HT10|auto]. }
  assert (EQ : i <> 3%nat -> i <> 4%nat -> q = v * v).
  { intros X Y. unfold q. destruct (Nat.eqb_spec i 3), (Nat.eqb_spec i 4); easy. }
  assert (EQ' : (i = 3 \/ i = 4)%nat -> q = (v * v + 10) mod M2).
  { intros X. unfold q. replace ((i =? 3) || (i =? 4))%nat with true; [reflexivity|].
    symmetry. apply orb_true_iff. rewrite !Nat.eqb_eq. exact X. }
  clearbody q.
  pose proof (Z.mod_pos_bound w M2 (proj1 B2)) as HW2.
  set (a2 := if (i =? 2)%nat then w else w mod M2).
  assert (Ha2' : i <> 2%nat -> 0 <= a2 < M2).
  { unfold a2. destruct (Nat.eqb_spec i 2); [easy|auto]. }
  assert (Ha2 : word a2).
  { unfold a2. destruct (i =? 2)%nat; auto. clear - HW2 B2. unfold word, two64 in *. lia. }
  clearbody a2.
  set (inp1 := if (i =? 3)%nat then (v * v + 10) mod M else v * v).
  assert (EI : i <> 3%nat -> inp1 = v * v) by (unfold inp1; destruct (Nat.eqb_spec i 3); easy).
  clearbody inp1.
  destruct (packets_made T s tabs CheckVar [v; inp1]) as (p0 & p1 & s' & tabs' & -> & HT' & O0 & O1 & S0 & S1 & WP); auto.
  { apply check_var_wf. }
  { exact var_small. }
  eexists _, s', tabs'. split; [reflexivity|]. split; [exact HT'|].
  assert (WV : word v) by (clear - Hv HM; unfold word, two64; lia). assert (WA : word a) by (clear - Ha HM; unfold word, two64; lia).
  assert (WQ : word q) by (clear - Hq; unfold word, two64; lia).
  assert (EO : var_opened (a, a2, spoil0 i p0) (Z.lxor v a, Z.lxor q a2, spoil1 i p1) = [v; q]).
  { unfold var_opened. now rewrite !lxor_again. }
  assert (C0 : var_content (a, a2, spoil0 i p0)) by (split; [exact WA|split; [exact Ha2|now apply spoil0_ok]]).
  assert (C1 : var_content (Z.lxor v a, Z.lxor q a2, spoil1 i p1)).
  { split; [now apply lxor_word|split; [now apply lxor_word|now apply spoil1_ok]]. }
  split; [exact C0|]. split; [exact C1|]. split.
  - intros (L2 & L6 & L8). unfold row. cbn [d_id d_k0 d_k1 d_0 d_1 d_real d_valid snd fst] in *. rewrite EO.
    split; [reflexivity|]. split; [reflexivity|]. split; [reflexivity|]. split; [reflexivity|].
    split; [exact C0|]. split; [exact C1|].
    split.
    { intros Hm. assert (X : ~ marked6 i = true) by congruence. rewrite marked6_cases in X.
      unfold var_fits. rewrite !andb_true_iff, !fits_spec, <- EM, <- EM2.
      assert (X0 : i <> 0%nat) by (clear - X; lia). assert (X1 : i <> 1%nat) by (clear - X; lia). assert (X2 : i <> 2%nat) by (clear - X; lia).
      specialize (Hv' X0). specialize (Hq' X0). specialize (Ha' X1). specialize (Ha2' X2).
      rewrite EM in Hv', Ha'. rewrite EM2 in Hq', Ha2'.
      pose proof (lxor_lt nb v a Hv' Ha') as Y1. pose proof (lxor_lt (2 * nb) q a2 Hq' Ha2') as Y2.
      rewrite <- EM in Y1, Ha'. rewrite <- EM2 in Y2, Ha2'. clear - Y1 Y2 Ha' Ha2'. lia. }
    split.
    { intros Hi. assert (i = 0 \/ i = 1 \/ i = 2)%nat as C by (clear - Hi; lia). unfold var_fits. destruct C as [C|[C|C]].
      - right. rewrite (fits_not nb (Z.lxor v a)); [reflexivity|]. apply lxor_big; rewrite <- EM; [apply Ha'; rewrite C; discriminate|].
        exact (V0 C).
      - left. rewrite (fits_not nb a); [reflexivity|]. rewrite <- EM. exact (A1 C).
      - left. rewrite (fits_not (2 * nb) a2); [apply andb_false_r|]. exact (L2 C). }
    split.
    { intros Hm. assert (X : ~ marked12 i = true) by congruence. rewrite marked12_cases in X.
      assert (E0 : spoil0 i p0 = p0) by (unfold spoil0; destruct (Nat.eqb_spec i 5), (Nat.eqb_spec i 7); try (clear - X e; lia); reflexivity).
      assert (E1 : spoil1 i p1 = p1) by (unfold spoil1; destruct (Nat.eqb_spec i 6), (Nat.eqb_spec i 8); try (clear - X e; lia); reflexivity).
      rewrite E0, E1, EQ by (clear - X; lia). rewrite EI in WP by (clear - X; lia). apply WP. now apply check_var_lemma. }
    intros Hi HW. destruct (Nat.le_gt_cases i 4) as [C|C].
    + destruct HW as [HE _]. cbn [map] in HE. apply check_var_lemma in HE.
      rewrite Zmod_mod, <- Zmult_mod in HE. revert HE. rewrite EQ' by (clear - C Hi; lia). rewrite EM2.
      apply ten_more; [exact Hn|]. rewrite <- EM2. apply Hvv'. clear - Hi. lia.
    + revert HW. rewrite EQ by (clear - C; lia). rewrite EI in WP by (clear - C; lia).
      apply (spoiled_wrong CheckVar [v; v * v] p0 p1); [exact var_small|apply WP; now apply check_var_lemma|].
      apply (spoiled_row i _ p0 p1 O0 O1); auto.
      * split; [|exact var_small]. cbn. auto.
      * clear - C Hi. lia.
  - intros Hm. assert (X : ~ marked12 i = true) by congruence. rewrite marked12_cases in X.
    cbn [d_0 d_1 d_real fst snd]. split; [exact EO|]. split; [apply Hv'|apply EQ]; clear - X; lia.
Qed.

Lemma u64_fold {A} (f : A -> Z) l a : fold_left (fun s r => u64 (s + f r)) l (u64 a) = (a + zsum (map f l)) mod two64.
Proof.
  revert a. induction l as [|x l IH]; intros a; cbn [fold_left map].
  - unfold zsum. cbn. now rewrite Z.add_0_r.
  - replace (u64 (u64 a + f x)) with (u64 (a + f x)) by (unfold u64; now rewrite Zplus_mod_idemp_l).
    rewrite IH. unfold zsum. cbn [fold_right]. now rewrite Z.add_assoc.
Qed.

Lemma all_but_weaken A m (B B' : challenge -> Prop) : (forall e, B e -> B' e) -> all_but A m B -> all_but A m B'.
Proof. intros I (l & HL & H). exists l. split; [exact HL|]. auto. Qed.

Lemma var_debug nb g T s stale n order0 order1 junk0 junk1 :
  (1 <= nb <= 24)%nat -> prg_ok g -> (24 <= n)%nat -> Z.of_nat n < two32 -> fair order1 ->
  length junk0 = 48%nat -> length junk1 = 48%nat -> released_ok g stale n 9 11 13 ->
  exists l st' stream0 stream1,
    var_op_invalid (2 ^ Z.of_nat nb) g T s stale n = Some (l, st') /\ length l = n /\
    wire_opt VarShare_bytes (dsubs0 l) = Some stream0 /\ wire_opt VarShare_bytes (dsubs1 l) = Some stream1 /\
    (var_too_big nb l -> changes snd l ->
     let v := valids l in
     let sum := zsum (map (fun r => fst (c_real r)) v) in let sumsq := zsum (map (fun r => snd (c_real r)) v) in
     length v = (n - 12)%nat /\ var_invalid_ans v = (length v, sum mod two64, sumsq mod two64) /\
     (forall r, In r v -> 0 <= fst (c_real r) < 2 ^ Z.of_nat nb /\ snd (c_real r) = fst (c_real r) * fst (c_real r)) /\
     forall L1, accepted (var_fits nb) (dsubs1 l) (dsubs1 l) L1 ->
     let m := (coefficients CheckVar * length L1)%nat in
     all_but (6 * (5 * p ^ Z.of_nat m)) m (fun e =>
       forall K rnd0 rnd1 st0 st1, synced st0 st1 -> randomX st0 = fst e -> uses (seed_pos st0) (snd e) K ->
       both (var_op false order0 nb n stream0 junk0 K rnd0 st0) (var_op true order1 nb n stream1 junk1 K rnd1 st1)
         (fun a b => fst b = RET_NO_ANS /\ fst a = RET_ANS (length v, sum mod p, sumsq mod p)))).
Proof.
  intros Hn HG Hn24 HN HF J0 J1 REL.
  destruct (invalid_loop CheckVar (var_invalid_request (2 ^ Z.of_nat nb) g T stale n) (fun i r =>
      var_content (d_0 r) /\ var_content (d_1 r) /\
      (var_luck nb i r -> row CheckVar (var_fits nb) var_content var_opened snd g stale i r) /\
      (marked12 i = false -> var_opened (d_0 r) (d_1 r) = [fst (d_real r); snd (d_real r)] /\
        0 <= fst (d_real r) < 2 ^ Z.of_nat nb /\ snd (d_real r) = fst (d_real r) * fst (d_real r)))
      (fun i s tabs => var_row nb g T stale n Hn HG i s tabs) n 0%nat s None (or_introl eq_refl))
    as (l & st' & E & HL & HQ). cbn [Nat.add] in HQ.
  assert (CL : forall r, In r l -> var_content (d_0 r) /\ var_content (d_1 r)).
  { intros r Hr. apply In_nth_error in Hr as [k Hk]. destruct (HQ k r Hk) as (A & B & _). auto. }
  assert (WO : forall subs, Forall (fun s => var_content (snd s)) subs -> wire_opt VarShare_bytes subs = Some (wire var_wire subs)).
  { intros subs F. apply wire_opt_all. eapply Forall_impl; [|exact F].
    intros [pk [[v v2] pkt]] (W1 & W2 & PO). unfold VarShare_bytes. cbn [fst snd].
    rewrite (sent_packet _ _ PO). cbn [option_map]. unfold var_wire, words. cbn [map concat].
    now rewrite app_nil_r, <- !app_assoc. }
  exists l, st', (wire var_wire (dsubs0 l)), (wire var_wire (dsubs1 l)).
  split; [exact E|]. split; [exact HL|].
  split; [apply WO, Forall_map, Forall_forall; intros r Hr; apply (CL r Hr)|].
  split; [apply WO, Forall_map, Forall_forall; intros r Hr; apply (CL r Hr)|].
  intros BIG (CH6 & CH8).
  assert (ROW : forall i r, nth_error l i = Some r -> row CheckVar (var_fits nb) var_content var_opened snd g stale i r).
  { intros i r Hr. destruct (HQ i r Hr) as (_ & _ & X & _). apply X. split; [|split]; intros ->; auto. }
  pose proof (prg_blocks g n HG (two32_64 n HN)) as HB.
  destruct (debug_lists CheckVar (var_fits nb) var_content var_opened snd g stale l n HL Hn24 ROW HB REL)
    as (L & HA & LL & LV & ND & HT & FS & NE & K0 & K1 & C0 & C1).
  assert (VA : forall r, In r (valids l) -> var_opened (c_0 r) (c_1 r) = [fst (c_real r); snd (c_real r)] /\
    0 <= fst (c_real r) < 2 ^ Z.of_nat nb /\ snd (c_real r) = fst (c_real r) * fst (c_real r)).
  { intros r Hr. unfold valids in Hr. apply in_map_iff in Hr as (d & <- & Hd). apply filter_In in Hd as [Hd Hv].
    apply In_nth_error in Hd as [k Hk]. destruct (HQ k d Hk) as (_ & _ & _ & X). cbn [c_0 c_1 c_real]. apply X.
    destruct (ROW k d Hk) as (_ & _ & _ & DV & _). rewrite DV in Hv. now apply negb_true_iff. }
  cbv zeta. split; [exact LV|]. split.
  { unfold var_invalid_ans. change 0 with (u64 0). rewrite !(u64_fold _ (valids l) 0), !Z.add_0_l. reflexivity. }
  split; [intros r Hr; apply (VA r Hr)|].
  intros L1 HA1.
  assert (X : forall A B m, all_but A m B -> forall A' (B' : challenge -> Prop), A = A' -> (forall e, B e -> B' e) -> all_but A' m B').
  { intros A B m H A' B' <- I. revert H. apply all_but_weaken. exact I. }
  eapply X; [apply (var_exact_count nb order0 order1 n n (wire var_wire (dsubs0 l)) (wire var_wire (dsubs1 l)) (dsubs0 l) (dsubs1 l)
    junk0 junk1 L L1 (map c_pk (valids l))); auto|..].
  - apply Hn.
  - apply honest_arrives_cut; auto. unfold dsubs0. now rewrite map_length.
  - apply honest_arrives_cut; auto. unfold dsubs1. now rewrite map_length.
  - f_equal. rewrite map_length, LL, LV. clear - Hn24. lia.
  - intros e HE K rnd0 rnd1 st0 st1 SY ER HU. eapply both_impl; [|exact (HE K rnd0 rnd1 st0 st1 SY ER HU)].
    cbv beta. intros x y [-> ->]. split; auto. rewrite map_length, !FS.
    assert (S0 : map (fun r => nth 0 (var_opened (c_0 r) (c_1 r)) 0) (valids l) = map (fun r => fst (c_real r)) (valids l)).
    { apply map_ext_in. intros r Hr. now rewrite (proj1 (VA r Hr)). }
    assert (S1 : map (fun r => nth 1 (var_opened (c_0 r) (c_1 r)) 0) (valids l) = map (fun r => snd (c_real r)) (valids l)).
    { apply map_ext_in. intros r Hr. now rewrite (proj1 (VA r Hr)). }
    rewrite S0, S1. unfold outcome. rewrite LV.
    match goal with |- context [(?x <? ?y)%nat] => destruct (Nat.ltb_spec x y) as [Z|Z]; [exfalso; clear - Z Hn24; lia|reflexivity] end.
Qed.
