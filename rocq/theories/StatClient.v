From Coq Require Import ZArith List Bool Lia Permutation.
From Verif Require Import Words WordsFacts Constants Cong Share ShareFacts Proc ProcFacts Net NetFacts SpecNet NetMsg RelFacts
  Poly SpecPoly Circuit SpecCircuit CircuitFacts Snip SpecSnip SnipFacts SnipBatch
  ServerOps SpecServer TableFacts ServerFacts ServerProps ServerCor ClientOps SpecClient ClientFacts
  SnipSums SpecStat StatReads StatProps.
Import ListNotations.
Open Scope Z_scope.

Local Notation P := Int_Modulus.

(** ** Packets of an honest client *)
Lemma split_field r v : limbs_ok (fst (SplitShare r v)) /\ limbs_ok (snd (SplitShare r v)).
Proof.
  unfold SplitShare. cbn [fst snd].
  split; apply field_limbs; apply Z.mod_pos_bound; reflexivity.
Qed.

Lemma share_polynomials_ok t c w T s N : NextPowerOfTwo (Z.of_nat (NumMulGates c)) = Some (Z.of_nat N) ->
  exists p0 p1 s', share_polynomials t c w T s = Some (p0, p1, s') /\
    packet_ok (NumMulGates c) p0 /\ packet_ok (NumMulGates c) p1.
Proof.
  intros HN. unfold share_polynomials. rewrite HN, Nat2Z.id. cbv zeta.
  match goal with |- context [GetMulShares c w ?d] => set (draws := d) end.
  assert (LD : length draws = NumMulGates c) by (unfold draws; now rewrite map_length, seq_length).
  pose proof (get_mul_shares_lemma c w draws LD) as GM.
  assert (FM : Forall limbs_ok (fst (GetMulShares c w draws)) /\ Forall limbs_ok (snd (GetMulShares c w draws))).
  { unfold GetMulShares. generalize (mul_gates c) as ms. generalize draws as ds.
    induction ds as [|d ds IH]; intros [|m ms]; cbn [map2 split]; try (split; constructor).
    specialize (IH ms). destruct (split _) as [l0 l1]. cbn [fst snd] in *.
    pose proof (split_field d (nth (fst (fst m)) w 0)) as [A B].
    destruct (SplitShare d (nth (fst (fst m)) w 0)) as [x y]. cbn [fst snd] in *.
    split; constructor; tauto. }
  destruct (GetMulShares c w draws) as [m0 m1]. cbn [fst snd] in *.
  destruct GM as (G0 & G1 & _). unfold mul_wires in G0, G1. rewrite map_length in G0, G1.
  fold (NumMulGates c) in G0, G1.
  eexists _, _, _. split; [reflexivity|].
  assert (T3 : forall r1 r2 r3 t, triple_ok (fst (BeaverTripleShares r1 r2 r3 t)) /\ triple_ok (snd (BeaverTripleShares r1 r2 r3 t))).
  { intros. unfold BeaverTripleShares.
    pose proof (split_field r1 (bt_A t0)) as [A B]. pose proof (split_field r2 (bt_B t0)) as [C D].
    pose proof (split_field r3 (bt_C t0)) as [E F].
    destruct (SplitShare r1 _), (SplitShare r2 _), (SplitShare r3 _). cbn [fst snd] in *; split; (split; [|split]); assumption. }
  split; (split; [assumption|]; split; [cbn [h_points]; now rewrite !map_length, seq_length|]);
    cbn [MulShares f0_s g0_s h0_s h_points triple_share];
    (split; [apply FM|]; split; [apply split_field|]; split; [apply split_field|]; split; [apply split_field|];
     split; [|apply T3]; apply Forall_forall; intros z Hz; rewrite map_map in Hz;
     apply in_map_iff in Hz as (j & <- & _); apply split_field).
Qed.

(** The tables in use are those of the circuit. *)
Definition tabs_ok (c : circuit) (tabs : option root_tables) : Prop :=
  tabs = None \/ exists N, NextPowerOfTwo (Z.of_nat (NumMulGates c)) = Some (Z.of_nat N) /\ tabs = Some (init_roots N).

Lemma make_packets_ok T s tabs c inps : (NumMulGates c < 2 ^ 18)%nat -> tabs_ok c tabs ->
  length inps = NumInputs c ->
  exists p0 p1 s' tabs', make_packets T s tabs c inps = Some (p0, p1, s', tabs') /\ tabs_ok c tabs' /\
    packet_ok (NumMulGates c) p0 /\ packet_ok (NumMulGates c) p1 /\
    forall a b, shares_of inps a b -> honest c inps (p0, a) (p1, b).
Proof.
  intros HM HT LI. destruct (npo2_nat _ HM) as (k & _ & _ & HN).
  unfold make_packets. rewrite HN, Nat2Z.id.
  assert (E : client_roots tabs (2 ^ k) = init_roots (2 ^ k)).
  { destruct HT as [->|(N & HN' & ->)]; [reflexivity|]. cbn [client_roots]. f_equal. eapply npo2_fun; eauto. }
  rewrite E. destruct (share_polynomials_ok (init_roots (2 ^ k)) c (eval_wires c inps) T s _ HN) as (p0 & p1 & s' & EP & O0 & O1).
  rewrite EP. exists p0, p1, s', (Some (init_roots (2 ^ k))). split; [reflexivity|].
  split; [right; eauto|]. split; [auto|]. split; [auto|].
  intros a b HS. split; auto. split; auto. exists (2 ^ k)%nat, T, s, s'. auto.
Qed.

(** ** Loops over requests *)
Lemma requests_opt_facts {V W} g c (one : cstate -> option (crec V W * cstate)) (Q : crec V W -> Prop) w :
  (forall pos s tabs, tabs_ok c tabs -> exists r pos' s' tabs',
     one (pos, s, tabs) = Some (r, (pos', s', tabs')) /\ tabs_ok c tabs' /\
     (pos < pos' <= pos + w)%nat /\ c_pk r = make_pk g pos' /\ Q r) ->
  forall n pos s tabs, tabs_ok c tabs -> exists l pos' s' tabs',
    requests_opt one n (pos, s, tabs) = Some (l, (pos', s', tabs')) /\
    (pos <= pos' <= pos + n * w)%nat /\ length l = n /\ Forall Q l /\
    Forall (fun r => exists q, (pos < q <= pos')%nat /\ c_pk r = make_pk g q) l /\
    (prg_ok g -> Z.of_nat pos' < two64 -> NoDup (map c_pk l)).
Proof.
  intros H. induction n as [|n IH]; intros pos s tabs HT; cbn [requests_opt].
  - exists [], pos, s, tabs. split; [reflexivity|]. split; [lia|]. repeat split; constructor.
  - destruct (H pos s tabs HT) as (r & pos1 & s1 & tabs1 & -> & HT1 & HP & HK & HQ).
    destruct (IH pos1 s1 tabs1 HT1) as (l & pos2 & s2 & tabs2 & -> & HP2 & HL & HF & HQs & HN).
    exists (r :: l), pos2, s2, tabs2. split; [reflexivity|]. split; [lia|]. split; [cbn; lia|].
    split; [now constructor|]. split.
    + constructor; [exists pos1; split; [lia|auto]|]. eapply Forall_impl; [|exact HQs].
      intros x (q & Hq & E). exists q. split; [lia|auto].
    + intros HG HE. cbn [map]. constructor; [|now apply HN].
      intros (r' & E & Hin)%in_map_iff. rewrite Forall_forall in HQs. destruct (HQs r' Hin) as (q & Hq & E').
      rewrite HK, E' in E. apply make_pk_inj in E; auto; lia.
Qed.

Lemma wire_opt_all {V} (enc : list Z * V -> option (list Z)) (enc' : list Z * V -> list Z) subs :
  Forall (fun s => enc s = Some (enc' s)) subs -> wire_opt enc subs = Some (wire enc' subs).
Proof.
  induction 1 as [|s subs E H IH]; [reflexivity|]. cbn [wire_opt]. rewrite E, IH. reflexivity.
Qed.

Lemma honest_arrives_cut {V} enc size (subs : list (list Z * V)) n :
  length subs = n -> Forall (fun s => length (fst s) = 32%nat) subs -> Z.of_nat n < two32 ->
  arrives_cut enc size n (wire enc subs) subs.
Proof.
  intros L P H. exists []. split; [now rewrite app_nil_r|]. split; [left; auto|]. split; [exact P|lia].
Qed.

Lemma filter_all {A} (f : A -> bool) l : (forall x, In x l -> f x = true) -> filter f l = l.
Proof.
  induction l as [|x l IH]; intros H; cbn; auto. rewrite (H x) by now left. f_equal. apply IH. intros. apply H. now right.
Qed.

(** The accepted records are all of them. *)
Lemma all_ok {V} c r K start (ft : V -> bool) op pkt subs0 subs1 L good pos :
  in_field P r -> validated c r K start ft op pkt subs0 subs1 L good pos ->
  accepted ft subs0 subs1 L ->
  (forall pk a b po, first_sub ft subs0 pk = Some a -> first_sub ft subs1 pk = Some b ->
     judged c r K po (op a b) (pkt a) (pkt b) true) -> filter good L = L.
Proof.
  intros Hr (HJ & _) (_ & HA) HT. apply filter_all. intros pk Hpk.
  apply HA in Hpk as [H0 H1].
  destruct (first_sub ft subs0 pk) as [a|] eqn:E0; [|congruence].
  destruct (first_sub ft subs1 pk) as [b|] eqn:E1; [|congruence].
  symmetry. exact (verdict_unique _ _ _ _ _ _ _ _ Hr (HT pk a b (pos pk) E0 E1) (HJ pk a b E0 E1)).
Qed.

Lemma judged_honest c vals p0 p1 r K pos : wf c -> (NumMulGates c < 2 ^ 18)%nat -> in_field P r ->
  (forall a b, shares_of vals a b -> honest c vals (p0, a) (p1, b)) -> Eval c vals = true ->
  judged c r K pos vals p0 p1 true.
Proof.
  intros WF HM Hr HH HE. unfold judged. eapply honest_verdict; eauto. apply HH.
  split; auto. split; [now rewrite map_length|]. intros i Hi. rewrite (nth_map_in _ vals i 0 0) by auto.
  now rewrite Z.add_0_r.
Qed.

(** ** VAR *)
Definition var_good (nb : nat) (r : crec (Z * Z * ClientPacket) Z) : Prop :=
  let v := c_real r in
  0 <= v < 2 ^ Z.of_nat nb /\
  var_content (c_0 r) /\ var_content (c_1 r) /\ var_fits nb (c_0 r) = true /\ var_fits nb (c_1 r) = true /\
  var_opened (c_0 r) (c_1 r) = [v; v * v] /\
  forall a b, shares_of [v; v * v] a b -> honest CheckVar [v; v * v] (snd (c_0 r), a) (snd (c_1 r), b).

Lemma lxor_back a b : Z.lxor a (Z.lxor a b) = b.
Proof. now rewrite <- Z.lxor_assoc, Z.lxor_nilpotent, Z.lxor_0_l. Qed.

Lemma sq_small nb v : (nb <= 31)%nat -> 0 <= v < 2 ^ Z.of_nat nb -> 0 <= v * v < 2 ^ Z.of_nat (2 * nb).
Proof.
  intros Hn Hv. replace (Z.of_nat (2 * nb)) with (Z.of_nat nb + Z.of_nat nb) by lia.
  rewrite Z.pow_add_r by lia. nia.
Qed.
Lemma pow_small nb : (nb <= 31)%nat -> 0 < 2 ^ Z.of_nat (2 * nb) < two64.
Proof.
  intros H. split; [apply Z.pow_pos_nonneg; lia|].
  apply Z.le_lt_trans with (2 ^ 62); [apply Z.pow_le_mono_r; lia|reflexivity].
Qed.
Lemma u64_sq nb v : (nb <= 31)%nat -> 0 <= v < 2 ^ Z.of_nat nb -> u64 (v * v) = v * v.
Proof. intros Hn Hv. apply u64_small. pose proof (sq_small nb v Hn Hv). pose proof (pow_small nb Hn). lia. Qed.
Lemma u64_max nb : (nb <= 31)%nat -> u64 (2 ^ Z.of_nat nb * 2 ^ Z.of_nat nb) = 2 ^ Z.of_nat (2 * nb).
Proof.
  intros H. rewrite <- Z.pow_add_r by lia. replace (Z.of_nat nb + Z.of_nat nb) with (Z.of_nat (2 * nb)) by lia.
  apply u64_small. pose proof (pow_small nb H). lia.
Qed.

Lemma var_request_good nb g T : (nb <= 31)%nat -> forall pos s tabs, tabs_ok CheckVar tabs ->
  exists r pos' s' tabs', var_request (2 ^ Z.of_nat nb) g T (pos, s, tabs) = Some (r, (pos', s', tabs')) /\
    tabs_ok CheckVar tabs' /\ (pos < pos' <= pos + 3)%nat /\ c_pk r = make_pk g pos' /\ var_good nb r.
Proof.
  intros Hn pos s tabs HT. unfold var_request. rewrite (u64_max nb Hn).
  set (M := 2 ^ Z.of_nat nb). set (M2 := 2 ^ Z.of_nat (2 * nb)).
  assert (HM : 0 < M) by (apply Z.pow_pos_nonneg; lia).
  assert (HM2 : 0 < M2 < two64) by now apply pow_small.
  assert (MM : M < two64).
  { apply Z.le_lt_trans with (2 ^ 31); [apply Z.pow_le_mono_r; lia|reflexivity]. }
  set (v := random_u64 g pos mod M). set (a := random_u64 g (pos + 1) mod M). set (a2 := random_u64 g (pos + 2) mod M2).
  assert (Hv : 0 <= v < M) by now apply Z.mod_pos_bound.
  assert (Ha : 0 <= a < M) by now apply Z.mod_pos_bound.
  assert (Ha2 : 0 <= a2 < M2) by (apply Z.mod_pos_bound; lia).
  pose proof (sq_small nb v Hn Hv) as Hv2. fold M2 in Hv2.
  cbv zeta. rewrite (u64_sq nb v Hn Hv).
  destruct (make_packets_ok T s tabs CheckVar [v; v * v]) as (p0 & p1 & s' & tabs' & -> & HT' & O0 & O1 & HH); auto.
  { apply PeanoNat.Nat.ltb_lt. reflexivity. }
  eexists _, _, _, _. split; [reflexivity|]. split; [exact HT'|]. split; [lia|]. split; [reflexivity|].
  assert (Hb : 0 <= Z.lxor a v < M) by (apply lxor_lt; auto).
  assert (Hb2 : 0 <= Z.lxor a2 (v * v) < M2) by (apply lxor_lt; auto).
  unfold var_good. cbn [c_0 c_1 c_real snd]. split; [exact Hv|].
  unfold var_content, var_fits, fits, word, var_opened. fold M M2.
  split; [split; [lia|split; [lia|exact O0]]|]. split; [split; [lia|split; [lia|exact O1]]|].
  split; [apply andb_true_intro; split; apply Z.ltb_lt; lia|].
  split; [apply andb_true_intro; split; apply Z.ltb_lt; lia|].
  split; [now rewrite !lxor_back|exact HH].
Qed.

Lemma fold_var (l : list (crec (Z * Z * ClientPacket) Z)) a b :
  fold_left (fun a r => (u64 (fst a + c_real r), u64 (snd a + u64 (c_real r * c_real r)))) l (u64 a, u64 b)
  = (u64 (a + zsum (map c_real l)), u64 (b + zsum (map (fun r => c_real r * c_real r) l))).
Proof.
  revert a b. induction l as [|r l IH]; intros a b; unfold zsum in *; cbn [fold_left map fold_right fst snd].
  - now rewrite !Z.add_0_r.
  - assert (X : forall x y, u64 (u64 x + y) = u64 (x + y)) by (intros; unfold u64; apply Zplus_mod_idemp_l).
    assert (Y : forall x y, u64 (x + u64 y) = u64 (x + y)) by (intros; unfold u64; apply Zplus_mod_idemp_r).
    rewrite !X, Y, IH, !Z.add_assoc. reflexivity.
Qed.

Lemma var_honest nb g T s n order0 order1 junk0 junk1 K rnd0 rnd1 st0 st1 :
  (nb <= 24)%nat -> prg_ok g -> (0 < n)%nat -> Z.of_nat n < two32 -> fair order1 ->
  length junk0 = 48%nat -> length junk1 = 48%nat -> synced st0 st1 ->
  exists l st' stream0 stream1,
    requests_opt (var_request (2 ^ Z.of_nat nb) g T) n (0%nat, s, None) = Some (l, st') /\ length l = n /\
    wire_opt VarShare_bytes (subs0 l) = Some stream0 /\ wire_opt VarShare_bytes (subs1 l) = Some stream1 /\
    (let sum := zsum (map c_real l) in let sumsq := zsum (map (fun r => c_real r * c_real r) l) in
     both (var_op false order0 nb n stream0 junk0 K rnd0 st0) (var_op true order1 nb n stream1 junk1 K rnd1 st1)
       (fun a b => fst b = RET_NO_ANS /\ fst a = RET_ANS (n, sum mod p, sumsq mod p) /\ synced (snd a) (snd b)) /\
     var_ans l = (sum mod two64, sumsq mod two64)).
Proof.
  intros Hn HG Hn0 HN HF J0 J1 SY.
  destruct (requests_opt_facts g CheckVar (var_request (2 ^ Z.of_nat nb) g T) (var_good nb) 3
    (var_request_good nb g T ltac:(lia)) n 0%nat s None (or_introl eq_refl))
    as (l & pos' & s' & tabs' & E & HP & L & GD & PK & ND).
  assert (ND' : NoDup (map c_pk l)) by (apply ND; auto; unfold two32, two64 in *; lia). clear ND.
  assert (K32 : Forall (fun r => length (c_pk r) = 32%nat) l).
  { eapply Forall_impl; [|exact PK]. intros r (q & _ & EQ). rewrite EQ. now apply make_pk_length. }
  assert (C0 : Forall (fun s => var_content (snd s)) (subs0 l)).
  { apply Forall_map. eapply Forall_impl; [|exact GD]. intros r H. apply H. }
  assert (C1 : Forall (fun s => var_content (snd s)) (subs1 l)).
  { apply Forall_map. eapply Forall_impl; [|exact GD]. intros r H. apply H. }
  assert (W : forall subs, Forall (fun s => var_content (snd s)) subs ->
    Forall (fun s => VarShare_bytes s = Some (var_wire s)) subs).
  { intros subs. apply Forall_impl. intros [pk [[v v2] pkt]] (W1 & W2 & PO). unfold VarShare_bytes. cbn [fst snd].
    rewrite (sent_packet _ _ PO). cbn [option_map]. unfold var_wire, words. cbn [map concat].
    now rewrite app_nil_r, <- !app_assoc. }
  assert (OK : Forall (fun r => var_fits nb (c_0 r) = true /\ var_fits nb (c_1 r) = true) l).
  { eapply Forall_impl; [|exact GD]. intros r H. split; apply H. }
  pose proof (honest_accepted_list (var_fits nb) l ND' OK) as HA.
  exists l, (pos', s', tabs'), (wire var_wire (subs0 l)), (wire var_wire (subs1 l)).
  split; [exact E|]. split; [exact L|]. split; [apply wire_opt_all; auto|]. split; [apply wire_opt_all; auto|].
  cbv zeta. split; [|unfold var_ans; change (0, 0) with (u64 0, u64 0); apply fold_var].
  assert (Hr : in_field P (randomX st0)) by apply SY.
  destruct l as [|r0 l'] eqn:El; [cbn in L; lia|]. rewrite <- El in *.
  eapply both_impl; [|apply (var_op_result nb order0 order1 n n _ _ (subs0 l) (subs1 l) junk0 junk1 K rnd0 rnd1 st0 st1 (map c_pk l));
    auto].
  - intros a b (good & pos & HV & -> & -> & SY' & _).
    assert (FL : filter good (map c_pk l) = map c_pk l).
    { eapply all_ok; [exact Hr|exact HV|exact HA|]. intros pk x y po E0 E1.
      assert (Hin : In pk (map c_pk l)) by (apply HA; split; congruence).
      apply in_map_iff in Hin as (r & <- & Hin).
      rewrite (honest_first0 _ l ND' OK r Hin) in E0. rewrite (honest_first1 _ l ND' OK r Hin) in E1.
      injection E0 as <-. injection E1 as <-.
      rewrite Forall_forall in GD. destruct (GD r Hin) as (_ & _ & _ & _ & _ & -> & HH).
      apply judged_honest; auto; [apply check_var_wf|apply PeanoNat.Nat.ltb_lt; reflexivity|].
      now apply check_var_lemma. }
    rewrite FL, map_length, L, outcome_all. split; [reflexivity|]. split; [|exact SY'].
    assert (S : forall j, field_sum (var_fits nb) var_opened (subs0 l) (subs1 l) (map c_pk l) j =
      zsum (map (fun r => nth j [c_real r; c_real r * c_real r] 0) l)).
    { intros j. unfold field_sum.
      rewrite <- (map_map (combined (var_fits nb) var_opened [] (subs0 l) (subs1 l)) (fun r => nth j r 0)).
      rewrite (honest_map_combined _ l ND' OK), map_map. apply f_equal. apply map_ext_in. intros r Hin.
      rewrite Forall_forall in GD. destruct (GD r Hin) as (_ & _ & _ & _ & _ & -> & _). reflexivity. }
    rewrite !S. reflexivity.
  - apply honest_arrives_cut; auto; [unfold subs0; now rewrite map_length|apply Forall_map; exact K32].
  - apply honest_arrives_cut; auto; [unfold subs1; now rewrite map_length|apply Forall_map; exact K32].
  - exists (c_pk r0). rewrite (honest_first1 _ l ND' OK r0) by (rewrite El; now left). discriminate.
Qed.

(** ** LINREG *)
Lemma pairwise_pairs xs :
  pairwise xs = map (fun ij => nth (fst ij) xs 0 * nth (snd ij) xs 0) (linreg_pairs (length xs)).
Proof.
  enough (H : forall n s, (s + n = length xs)%nat ->
    pairwise (skipn s xs) =
    map (fun ij => nth (fst ij) xs 0 * nth (snd ij) xs 0)
      (flat_map (fun i => map (fun j => (i, j)) (seq i (length xs - i))) (seq s n))).
  { unfold linreg_pairs. rewrite <- (H (length xs) 0%nat) by lia. now rewrite skipn_O. }
  induction n as [|n IH]; intros s Hs; cbn [seq flat_map].
  - rewrite skipn_all2 by lia. reflexivity.
  - rewrite map_app, map_map. cbn [fst snd].
    rewrite (map_nth_seq_skip (fun z => nth s xs 0 * z)) by reflexivity.
    rewrite <- IH by lia.
    assert (E : skipn s xs = nth s xs 0 :: skipn (S s) xs).
    { clear - Hs. revert xs Hs. induction s as [|s IH]; intros [|x xs] Hs; cbn in Hs; try lia; auto.
      cbn [skipn nth]. apply IH. lia. }
    rewrite E at 1. cbn [pairwise]. rewrite <- E. reflexivity.
Qed.
Lemma pairwise_length xs : length (pairwise xs) = (length xs * (length xs + 1) / 2)%nat.
Proof. rewrite pairwise_pairs, map_length. apply linreg_pairs_length. Qed.
Lemma pairwise_mod xs : map (fun q => q mod p) (pairwise xs) = products xs.
Proof. now rewrite pairwise_pairs, products_pairs, map_map. Qed.

Lemma map2_lxor_back : forall a b, length a = length b -> map2 Z.lxor a (map2 Z.lxor a b) = b.
Proof.
  induction a as [|x a IH]; intros [|y b] H; try discriminate; [reflexivity|]. cbn [map2].
  rewrite lxor_back. f_equal. apply IH. now injection H.
Qed.
Lemma map2_app {A B C} (f : A -> B -> C) a a' b b' : length a = length b ->
  map2 f (a ++ a') (b ++ b') = map2 f a b ++ map2 f a' b'.
Proof.
  revert b. induction a as [|x a IH]; intros [|y b] H; try discriminate; [reflexivity|]. cbn [map2 app].
  f_equal. apply IH. now injection H.
Qed.
Lemma map2_lxor_range nb a : forall b, Forall (fun v => 0 <= v < 2 ^ Z.of_nat nb) a ->
  Forall (fun v => 0 <= v < 2 ^ Z.of_nat nb) b -> Forall (fun v => 0 <= v < 2 ^ Z.of_nat nb) (map2 Z.lxor a b).
Proof.
  induction a as [|x a IH]; intros [|y b] Ha Hb; cbn [map2]; auto.
  inversion Ha; inversion Hb; subst. constructor; [apply lxor_lt; auto|auto].
Qed.
Lemma Forall_mod m l : 0 < m -> Forall (fun v => 0 <= v < m) (map (fun w => w mod m) l).
Proof. intros H. apply Forall_map, Forall_forall. intros. now apply Z.mod_pos_bound. Qed.

Definition linreg_good (nb degree : nat) (r : crec (linreg_vals * ClientPacket) (list Z * Z)) : Prop :=
  let f := linreg_fields (c_real r) in
  length (fst (c_real r)) = num_x degree /\
  Forall (fun v => 0 <= v < 2 ^ Z.of_nat nb) (fst (c_real r)) /\ 0 <= snd (c_real r) < 2 ^ Z.of_nat nb /\
  linreg_content degree (c_0 r) /\ linreg_content degree (c_1 r) /\
  linreg_fits nb (c_0 r) = true /\ linreg_fits nb (c_1 r) = true /\
  linreg_opened (c_0 r) (c_1 r) = f /\
  forall a b, shares_of f a b -> honest (CheckLinReg degree) f (snd (c_0 r), a) (snd (c_1 r), b).

Lemma in_range nb l : Forall (fun v => 0 <= v < 2 ^ Z.of_nat nb) l -> forallb (fits nb) l = true.
Proof.
  intros H. apply forallb_forall. intros v Hv. rewrite Forall_forall in H. apply Z.ltb_lt. now apply H.
Qed.
Lemma range_word nb l : (nb <= 63)%nat -> Forall (fun v => 0 <= v < 2 ^ Z.of_nat nb) l -> Forall word l.
Proof.
  intros Hn. apply Forall_impl. intros v Hv. unfold word. pose proof (pow_le_two64 nb Hn). lia.
Qed.

Lemma linreg_fields_length v degree : (1 <= degree)%nat -> length (fst v) = num_x degree ->
  length (linreg_fields v) = NumInputs (CheckLinReg degree).
Proof.
  intros Hd Hl. rewrite (proj2 (linreg_gates degree Hd)). unfold linreg_fields, linreg_inputs.
  rewrite app_length. cbn [length]. rewrite app_length, map_length, pairwise_length, Hl.
  unfold num_fields, num_quad. lia.
Qed.

Lemma linreg_request_good nb degree g T : (nb <= 31)%nat -> (1 <= degree)%nat -> (forall q k, length (random_words g q k) = k) ->
  (NumMulGates (CheckLinReg degree) < 2 ^ 18)%nat ->
  forall pos s tabs, tabs_ok (CheckLinReg degree) tabs ->
  exists r pos' s' tabs', linreg_request degree (2 ^ Z.of_nat nb) g T (pos, s, tabs) = Some (r, (pos', s', tabs')) /\
    tabs_ok (CheckLinReg degree) tabs' /\
    (pos < pos' <= pos + (3 * blocks (8 * num_x degree) + blocks (8 * num_quad degree) + 2))%nat /\
    c_pk r = make_pk g pos' /\ linreg_good nb degree r.
Proof.
  intros Hn Hd RW HM pos s tabs HT. unfold linreg_request. rewrite (u64_max nb Hn).
  set (M := 2 ^ Z.of_nat nb). set (M2 := 2 ^ Z.of_nat (2 * nb)).
  assert (PM : 0 < M) by (apply Z.pow_pos_nonneg; lia).
  assert (HM2 : 0 < M2 < two64) by now apply pow_small.
  set (nx := num_x degree). set (nq := num_quad degree). cbv zeta.
  set (bx := blocks (8 * nx)). set (bq := blocks (8 * nq)).
  set (x := map (fun w => w mod M) (random_words g pos nx)).
  set (x0 := map (fun w => w mod M) (random_words g (pos + bx) nx)).
  set (x20 := map (fun w => w mod M2) (random_words g (pos + 2 * bx) nq)).
  set (xy0 := map (fun w => w mod M2) (random_words g (pos + 2 * bx + bq) nx)).
  set (y := random_u64 g (pos + 3 * bx + bq) mod M).
  set (y0 := random_u64 g (pos + 3 * bx + bq + 1) mod M).
  assert (Lx : length x = nx) by (unfold x; now rewrite map_length).
  assert (Lx0 : length x0 = nx) by (unfold x0; now rewrite map_length).
  assert (Lx20 : length x20 = nq) by (unfold x20; now rewrite map_length).
  assert (Lxy0 : length xy0 = nx) by (unfold xy0; now rewrite map_length).
  assert (Fx : Forall (fun v => 0 <= v < M) x) by now apply Forall_mod.
  assert (Fx0 : Forall (fun v => 0 <= v < M) x0) by now apply Forall_mod.
  assert (Fx20 : Forall (fun v => 0 <= v < M2) x20) by (apply Forall_mod; lia).
  assert (Fxy0 : Forall (fun v => 0 <= v < M2) xy0) by (apply Forall_mod; lia).
  assert (Hy : 0 <= y < M) by now apply Z.mod_pos_bound.
  assert (Hy0 : 0 <= y0 < M) by now apply Z.mod_pos_bound.
  assert (MUL : forall a b, 0 <= a < M -> 0 <= b < M -> 0 <= a * b < M2).
  { intros a b A B. unfold M2. replace (Z.of_nat (2 * nb)) with (Z.of_nat nb + Z.of_nat nb) by lia.
    rewrite Z.pow_add_r by lia. fold M. nia. }
  assert (NX : forall i, 0 <= nth i x 0 < M).
  { intros i. destruct (Nat.lt_ge_cases i (length x)) as [H|H].
    - rewrite Forall_forall in Fx. apply Fx, nth_In, H.
    - rewrite nth_overflow by auto. lia. }
  assert (E2 : map (fun jk => u64 (nth (fst jk) x 0 * nth (snd jk) x 0)) (linreg_pairs nx) = pairwise x).
  { rewrite pairwise_pairs, Lx. apply map_ext. intros jk. apply u64_small.
    specialize (MUL _ _ (NX (fst jk)) (NX (snd jk))). lia. }
  assert (E3 : map (fun z => u64 (z * y)) x = map (fun z => z * y) x).
  { apply map_ext_in. intros z Hz. rewrite Forall_forall in Fx. apply u64_small.
    specialize (MUL z y (Fx z Hz) Hy). lia. }
  rewrite E2, E3. change (x ++ y :: pairwise x ++ map (fun z => z * y) x) with (linreg_fields (x, y)).
  destruct (make_packets_ok T s tabs (CheckLinReg degree) (linreg_fields (x, y))) as (p0 & p1 & s' & tabs' & -> & HT' & O0 & O1 & HH); auto.
  { now apply linreg_fields_length. }
  eexists _, _, _, _. split; [reflexivity|]. split; [exact HT'|]. split; [fold bx bq; lia|]. split; [reflexivity|].
  assert (L2 : length (pairwise x) = nq) by (rewrite pairwise_length, Lx; reflexivity).
  assert (L3 : length (map (fun z => z * y) x) = nx) by now rewrite map_length.
  assert (F2 : Forall (fun v => 0 <= v < M2) (pairwise x)).
  { rewrite pairwise_pairs. apply Forall_map, Forall_forall. intros jk _. now apply MUL. }
  assert (F3 : Forall (fun v => 0 <= v < M2) (map (fun z => z * y) x)).
  { apply Forall_map. eapply Forall_impl; [|exact Fx]. intros z Hz. now apply MUL. }
  set (q2 := pairwise x) in *. set (q3 := map (fun z => z * y) x) in *.
  assert (Fx1 : Forall (fun v => 0 <= v < M) (map2 Z.lxor x0 x)) by now apply map2_lxor_range.
  assert (Fx21 : Forall (fun v => 0 <= v < M2) (map2 Z.lxor x20 q2)) by now apply map2_lxor_range.
  assert (Fxy1 : Forall (fun v => 0 <= v < M2) (map2 Z.lxor xy0 q3)) by now apply map2_lxor_range.
  assert (Hy1 : 0 <= Z.lxor y0 y < M) by now apply lxor_lt.
  assert (WM : forall v, 0 <= v < M -> word v).
  { intros v Hv. unfold word. assert (M < two64) by (apply pow_le_two64; lia). lia. }
  assert (W1 : forall l, Forall (fun v => 0 <= v < M) l -> Forall word l) by (intros l; apply range_word; lia).
  assert (W2 : forall l, Forall (fun v => 0 <= v < M2) l -> Forall word l) by (intros l; apply range_word; lia).
  unfold linreg_good. cbn [c_0 c_1 c_real fst snd].
  split; [exact Lx|]. split; [exact Fx|]. split; [exact Hy|].
  split; [split; [repeat (split; [auto|]); auto|exact O0]|].
  split.
  { split; [|exact O1]. cbn [fst linreg_shape]. rewrite !map2_length.
    split; [fold nx; lia|]. split; [fold nq; lia|]. split; [fold nx; lia|]. auto. }
  assert (FT : forall v, 0 <= v < M -> fits nb v = true) by (intros v Hv; apply Z.ltb_lt; apply Hv).
  split; [cbn [linreg_fits]; rewrite !in_range by assumption; rewrite FT by assumption; reflexivity|].
  split; [cbn [linreg_fits]; rewrite !in_range by assumption; rewrite FT by assumption; reflexivity|].
  split; [|exact HH].
  unfold linreg_opened, linreg_row. cbn [fst]. rewrite map2_app by (rewrite map2_length; lia). cbn [map2].
  rewrite map2_app by (rewrite map2_length; lia). rewrite lxor_back, !map2_lxor_back by lia. reflexivity.
Qed.

Lemma linreg_true degree v : (1 <= degree)%nat -> length (fst v) = num_x degree ->
  Eval (CheckLinReg degree) (linreg_fields v) = true.
Proof.
  intros Hd Hl. replace degree with (S (length (fst v))) by (rewrite Hl; unfold num_x; lia).
  unfold linreg_fields, linreg_inputs. apply check_linreg_lemma.
  - apply pairwise_length.
  - apply map_length.
  - split; [apply pairwise_mod|]. rewrite map_map. apply map_ext. intros z. now rewrite Z.mul_comm.
Qed.

Lemma sent_degree degree : Z.of_nat degree < two32 ->
  sent_bytes (send_size (Z.of_nat degree)) = Some (degree_wire degree).
Proof.
  intros H. cbn [send_size sent_bytes]. cbn [option_map]. rewrite app_nil_r. f_equal.
  unfold degree_wire, bswap32. rewrite u32_small by lia.
  rewrite <- (le_bytes_val (rev (le_bytes 4 (Z.of_nat degree)) ++ [0; 0; 0; 0])).
  - rewrite app_length, rev_length, le_bytes_length, le_val_app, rev_length, le_bytes_length.
    change (le_val [0; 0; 0; 0]) with 0. rewrite Z.mul_0_r, Z.add_0_r. reflexivity.
  - apply Forall_app. split; [apply Forall_rev, le_bytes_bytes|]. repeat constructor; unfold is_byte; lia.
Qed.

Lemma sent_uint64_batch l : sent_bytes (send_uint64_batch l) = Some (words l).
Proof. cbn. now rewrite app_nil_r. Qed.

Lemma linreg_draws degree n pos : (num_quad degree + num_x degree < 2 ^ 18)%nat -> Z.of_nat n < two32 ->
  (pos <= 0 + n * (3 * blocks (8 * num_x degree) + blocks (8 * num_quad degree) + 2))%nat -> Z.of_nat pos < two64.
Proof.
  intros HQ HN HP.
  assert (B : forall k, (blocks k <= k + 15)%nat) by (intros k; unfold blocks; apply Nat.div_le_upper_bound; lia).
  pose proof (B (8 * num_x degree)%nat) as B1. pose proof (B (8 * num_quad degree)%nat) as B2.
  apply Nat2Z.inj_lt in HQ. rewrite Nat2Z.inj_pow in HQ. change (Z.of_nat 2 ^ Z.of_nat 18) with 262144 in HQ.
  set (w := (3 * blocks (8 * num_x degree) + blocks (8 * num_quad degree) + 2)%nat) in *.
  assert (Z.of_nat w < 16777216) by (unfold w; lia). clearbody w. clear B B1 B2 HQ.
  unfold two32, two64 in *. nia.
Qed.

Lemma linreg_honest nb degree g T s n order0 order1 d0 d1 junk0 junk1 garbage0 garbage1 K rnd0 rnd1 st0 st1 :
  (nb <= 24)%nat -> (1 <= degree)%nat -> (num_quad degree + num_x degree < 2 ^ 18)%nat ->
  prg_ok g -> (0 < n)%nat -> Z.of_nat n < two32 -> fair order1 ->
  length d0 = 8%nat -> length d1 = 8%nat -> length junk0 = 32%nat -> length junk1 = 32%nat ->
  (forall i, let '(x, x2, xy) := garbage0 i in linreg_shape degree (x, 0, x2, xy)) -> synced st0 st1 ->
  exists l st' deg stream0 stream1,
    requests_opt (linreg_request degree (2 ^ Z.of_nat nb) g T) n (0%nat, s, None) = Some (l, st') /\ length l = n /\
    sent_bytes (send_size (Z.of_nat degree)) = Some deg /\
    wire_opt (linregshare_bytes degree) (subs0 l) = Some stream0 /\
    wire_opt (linregshare_bytes degree) (subs1 l) = Some stream1 /\
    (forall r, In r l -> length (fst (c_real r)) = num_x degree /\
       Forall (fun v => 0 <= v < 2 ^ Z.of_nat nb) (fst (c_real r)) /\ 0 <= snd (c_real r) < 2 ^ Z.of_nat nb) /\
    both (linreg_op false order0 nb n (deg ++ stream0) d0 junk0 garbage0 K rnd0 st0)
         (linreg_op true order1 nb n (deg ++ stream1) d1 junk1 garbage1 K rnd1 st1)
       (fun a b => fst b = RET_NO_ANS /\
          fst a = RET_ANS (moments degree n (fun j => zsum (map (fun r => nth j (linreg_fields (c_real r)) 0) l) mod p)) /\
          synced (snd a) (snd b)).
Proof.
  intros Hn Hd HQ HG Hn0 HN HF LD0 LD1 J0 J1 HGB SY.
  destruct (linreg_gates degree Hd) as [GM GI].
  assert (HM : (NumMulGates (CheckLinReg degree) < 2 ^ 18)%nat) by (rewrite GM; exact HQ).
  destruct (requests_opt_facts g (CheckLinReg degree) (linreg_request degree (2 ^ Z.of_nat nb) g T) (linreg_good nb degree) _
    (linreg_request_good nb degree g T ltac:(lia) Hd (fun q k => proj1 (random_words_ok g q k HG)) HM) n 0%nat s None (or_introl eq_refl))
    as (l & pos' & s' & tabs' & E & HP & L & GD & PK & ND).
  assert (ND' : NoDup (map c_pk l)) by (apply ND; auto; exact (linreg_draws degree n pos' HQ HN (proj2 HP))). clear ND.
  assert (K32 : Forall (fun r => length (c_pk r) = 32%nat) l).
  { eapply Forall_impl; [|exact PK]. intros r (q & _ & EQ). rewrite EQ. now apply make_pk_length. }
  assert (C0 : Forall (fun s => linreg_content degree (snd s)) (subs0 l)).
  { apply Forall_map. eapply Forall_impl; [|exact GD]. intros r H. apply H. }
  assert (C1 : Forall (fun s => linreg_content degree (snd s)) (subs1 l)).
  { apply Forall_map. eapply Forall_impl; [|exact GD]. intros r H. apply H. }
  assert (W : forall subs, Forall (fun s => linreg_content degree (snd s)) subs ->
    Forall (fun s => linregshare_bytes degree s = Some (linreg_wire s)) subs).
  { intros subs. apply Forall_impl. intros [pk [[[[x y] x2] xy] pkt]] [HS PO]. unfold linregshare_bytes.
    cbn [fst snd] in PO |- *. destruct HS as (_ & _ & _ & _ & Wy & _). rewrite !sent_bytes_seq, !sent_uint64_batch.
    rewrite (sent_packet _ _ PO). cbn [send_uint64 sent_bytes option_map]. rewrite app_nil_r, be_bytes64 by exact Wy.
    unfold linreg_wire. reflexivity. }
  assert (OK : Forall (fun r => linreg_fits nb (c_0 r) = true /\ linreg_fits nb (c_1 r) = true) l).
  { eapply Forall_impl; [|exact GD]. intros r H. split; apply H. }
  pose proof (honest_accepted_list (linreg_fits nb) l ND' OK) as HA.
  exists l, (pos', s', tabs'), (degree_wire degree), (wire linreg_wire (subs0 l)), (wire linreg_wire (subs1 l)).
  split; [exact E|]. split; [exact L|]. split; [apply sent_degree, degree_small, HQ|].
  split; [apply wire_opt_all; auto|]. split; [apply wire_opt_all; auto|].
  split.
  { intros r Hr. rewrite Forall_forall in GD. destruct (GD r Hr) as (A & B & C & _). auto. }
  assert (Hr : in_field P (randomX st0)) by apply SY.
  destruct l as [|r0 l'] eqn:El; [cbn in L; lia|]. rewrite <- El in *.
  eapply both_impl; [|apply (linreg_op_result nb degree order0 order1 n n _ _ (subs0 l) (subs1 l) d0 d1 junk0 junk1
    garbage0 garbage1 K rnd0 rnd1 st0 st1 (map c_pk l)); auto].
  - intros a b (good & pos & HV & -> & -> & SY' & _).
    assert (FL : filter good (map c_pk l) = map c_pk l).
    { eapply all_ok; [exact Hr|exact HV|exact HA|]. intros pk x y po E0 E1.
      assert (Hin : In pk (map c_pk l)) by (apply HA; split; congruence).
      apply in_map_iff in Hin as (r & <- & Hin).
      rewrite (honest_first0 _ l ND' OK r Hin) in E0. rewrite (honest_first1 _ l ND' OK r Hin) in E1.
      injection E0 as <-. injection E1 as <-.
      rewrite Forall_forall in GD. destruct (GD r Hin) as (Lr & _ & _ & _ & _ & _ & _ & -> & HH).
      apply judged_honest; auto; [apply check_linreg_wf; exact Hd|]. now apply linreg_true. }
    rewrite FL, map_length, L, outcome_all. split; [reflexivity|]. split; [|exact SY'].
    assert (S : forall j, field_sum (linreg_fits nb) linreg_opened (subs0 l) (subs1 l) (map c_pk l) j =
      zsum (map (fun r => nth j (linreg_fields (c_real r)) 0) l)).
    { intros j. unfold field_sum.
      rewrite <- (map_map (combined (linreg_fits nb) linreg_opened [] (subs0 l) (subs1 l)) (fun r => nth j r 0)).
      rewrite (honest_map_combined _ l ND' OK), map_map. apply f_equal. apply map_ext_in. intros r Hin.
      rewrite Forall_forall in GD. destruct (GD r Hin) as (_ & _ & _ & _ & _ & _ & _ & -> & _). reflexivity. }
    apply f_equal. unfold moments.
    assert (S' : forall A (f : Z -> A) k, map (fun j => f (field_sum (linreg_fits nb) linreg_opened (subs0 l) (subs1 l) (map c_pk l) j)) k
       = map (fun j => f (zsum (map (fun r => nth j (linreg_fields (c_real r)) 0) l))) k)
      by (intros; apply map_ext; intros; now rewrite S).
    rewrite !(S' _ (fun z => z mod p)), S. reflexivity.
  - apply honest_arrives_cut; auto; [unfold subs0; now rewrite map_length|apply Forall_map; exact K32].
  - apply honest_arrives_cut; auto; [unfold subs1; now rewrite map_length|apply Forall_map; exact K32].
  - exists (c_pk r0). rewrite (honest_first1 _ l ND' OK r0) by (rewrite El; now left). discriminate.
Qed.

(** ** When no reduction modulo p takes place *)
Lemma zsum_le {A} (f : A -> Z) B l : 0 <= B -> (forall a, In a l -> 0 <= f a <= B) ->
  0 <= zsum (map f l) <= Z.of_nat (length l) * B.
Proof.
  intros HB. unfold zsum. induction l as [|a l IH]; intros H; cbn [map fold_right length]; [lia|].
  pose proof (H a (or_introl eq_refl)). specialize (IH (fun a Ha => H a (or_intror Ha))). lia.
Qed.

Lemma var_real_range nb g T s n l st' : (nb <= 31)%nat ->
  requests_opt (var_request (2 ^ Z.of_nat nb) g T) n (0%nat, s, None) = Some (l, st') ->
  length l = n /\ forall r, In r l -> 0 <= c_real r < 2 ^ Z.of_nat nb.
Proof.
  intros Hn E.
  destruct (requests_opt_facts g CheckVar (var_request (2 ^ Z.of_nat nb) g T) (var_good nb) 3
    (var_request_good nb g T Hn) n 0%nat s None (or_introl eq_refl)) as (l' & pos' & s' & tabs' & E' & _ & L & GD & _).
  rewrite E in E'. injection E' as <- _. split; [exact L|]. rewrite Forall_forall in GD. intros r Hr. apply (GD r Hr).
Qed.

Lemma var_exact nb g T s n l st' : (nb <= 31)%nat -> (0 < n)%nat ->
  requests_opt (var_request (2 ^ Z.of_nat nb) g T) n (0%nat, s, None) = Some (l, st') ->
  Z.of_nat n * 2 ^ Z.of_nat (2 * nb) <= p ->
  zsum (map c_real l) mod p = zsum (map c_real l) /\
  zsum (map (fun r => c_real r * c_real r) l) mod p = zsum (map (fun r => c_real r * c_real r) l).
Proof.
  intros Hn Hn0 E HB. destruct (var_real_range nb g T s n l st' Hn E) as [L HR].
  set (M := 2 ^ Z.of_nat nb). set (M2 := 2 ^ Z.of_nat (2 * nb)) in *.
  assert (MM : M2 = M * M).
  { unfold M2, M. rewrite <- Z.pow_add_r by lia. apply f_equal. lia. }
  assert (HM : 0 < M) by (apply Z.pow_pos_nonneg; lia).
  assert (A1 : 0 <= zsum (map c_real l) <= Z.of_nat n * (M2 - 1)).
  { rewrite <- L. apply zsum_le; [nia|]. intros r Hr. specialize (HR r Hr). fold M in HR. nia. }
  assert (A2 : 0 <= zsum (map (fun r => c_real r * c_real r) l) <= Z.of_nat n * (M2 - 1)).
  { rewrite <- L. apply zsum_le; [nia|]. intros r Hr. specialize (HR r Hr). fold M in HR. nia. }
  split; apply Z.mod_small; nia.
Qed.

Lemma nth_range B (l : list Z) j : 0 <= B -> Forall (fun v => 0 <= v <= B) l -> 0 <= nth j l 0 <= B.
Proof.
  intros HB F. destruct (Nat.lt_ge_cases j (length l)) as [H|H].
  - rewrite Forall_forall in F. apply F, nth_In, H.
  - rewrite nth_overflow by exact H. lia.
Qed.
Lemma fields_range nb (v : list Z * Z) j : Forall (fun v => 0 <= v < 2 ^ Z.of_nat nb) (fst v) ->
  0 <= snd v < 2 ^ Z.of_nat nb -> 0 <= nth j (linreg_fields v) 0 <= 2 ^ Z.of_nat (2 * nb) - 1.
Proof.
  intros F Hy. set (M := 2 ^ Z.of_nat nb) in *. set (M2 := 2 ^ Z.of_nat (2 * nb)).
  assert (MM : M2 = M * M).
  { unfold M2, M. rewrite <- Z.pow_add_r by lia. apply f_equal. lia. }
  apply nth_range; [nia|]. unfold linreg_fields, linreg_inputs.
  apply Forall_app. split; [eapply Forall_impl; [|exact F]; cbv beta; intros; nia|].
  constructor; [nia|]. apply Forall_app. split.
  - destruct v as [xs y]. cbn [fst snd] in *. clear y Hy. induction xs as [|x xs IH]; [constructor|]. 
    change (pairwise (x :: xs)) with (map (fun z => x * z) (x :: xs) ++ pairwise xs).
    apply Forall_app. split; [|apply IH; now inversion F].
    assert (Hx : 0 <= x < M) by now inversion F.
    apply Forall_map. eapply Forall_impl; [|exact F]. cbv beta. intros; nia.
  - apply Forall_map. eapply Forall_impl; [|exact F]. cbv beta. intros; nia.
Qed.
Lemma linreg_exact nb (l : list (crec (linreg_vals * ClientPacket) (list Z * Z))) j :
  (forall r, In r l -> Forall (fun v => 0 <= v < 2 ^ Z.of_nat nb) (fst (c_real r)) /\ 0 <= snd (c_real r) < 2 ^ Z.of_nat nb) ->
  (0 < length l)%nat -> Z.of_nat (length l) * 2 ^ Z.of_nat (2 * nb) <= p ->
  zsum (map (fun r => nth j (linreg_fields (c_real r)) 0) l) mod p = zsum (map (fun r => nth j (linreg_fields (c_real r)) 0) l).
Proof.
  intros HR Hl HB. apply Z.mod_small.
  assert (0 < 2 ^ Z.of_nat (2 * nb)) by (apply Z.pow_pos_nonneg; lia).
  pose proof (zsum_le (fun r => nth j (linreg_fields (c_real r)) 0) (2 ^ Z.of_nat (2 * nb) - 1) l ltac:(lia)
    (fun r Hr => fields_range nb (c_real r) j (proj1 (HR r Hr)) (proj2 (HR r Hr)))). nia.
Qed.
