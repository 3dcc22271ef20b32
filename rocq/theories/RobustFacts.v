(** * Honest clients among others: proofs for C58 *)
From Coq Require Import ZArith List Bool Lia Permutation.
From Verif Require Import Words WordsFacts Constants Share Proc ProcFacts Net NetFacts SpecNet RelFacts SpecPoly Circuit SpecCircuit
  CircuitFacts Snip SpecSnip SnipFacts SnipBatch ServerOps SpecServer TableFacts ServerFacts ServerProps
  ClientOps SpecClient ClientFacts ClientProps SpecStat StatReads StatProps StatClient
  Correlated SpecStore SpecFreq FreqFacts FreqProps SpecRobust.
Import ListNotations.
Open Scope Z_scope.

Lemma first_sub_key {V} (ok : V -> bool) subs pk : first_sub ok subs pk <> None -> In pk (map fst subs).
Proof.
  intros H. destruct (in_dec (list_eq_dec Z.eq_dec) pk (map fst subs)) as [|N]; auto.
  now elim H; apply first_sub_none.
Qed.

Lemma zsum_app l l' : zsum (l ++ l') = zsum l + zsum l'.
Proof. unfold zsum. induction l as [|x l IH]; cbn [app fold_right]; lia. Qed.
Lemma zsum_perm l l' : Permutation l l' -> zsum l = zsum l'.
Proof. induction 1; unfold zsum in *; cbn [fold_right] in *; lia. Qed.
Lemma zsum_range {A} (f : A -> Z) B l : 0 <= B -> (forall a, In a l -> 0 <= f a <= B) ->
  0 <= zsum (map f l) <= Z.of_nat (length l) * B.
Proof.
  intros HB. unfold zsum. induction l as [|a l IH]; intros H; cbn [map fold_right length]; [lia|].
  pose proof (H a (or_introl eq_refl)). specialize (IH (fun x Hx => H x (or_intror Hx))). lia.
Qed.

(** A list of identities containing those of [l]: the rest. *)
Lemma split_ids {V W} (l : list (crec V W)) L : NoDup (map c_pk l) -> NoDup L -> incl (map c_pk l) L ->
  exists M, Permutation L (map c_pk l ++ M).
Proof.
  generalize (map c_pk l). clear l. intros ks. revert L. induction ks as [|k ks IH]; intros L ND NDL I.
  - exists L. reflexivity.
  - assert (In k L) as HK by (apply I; now left). apply in_split in HK as (L1 & L2 & ->).
    inversion ND as [|? ? N1 N2]; subst. pose proof (NoDup_remove_1 _ _ _ NDL) as ND2.
    destruct (IH (L1 ++ L2) N2 ND2) as [M HM].
    + intros x Hx. assert (In x (L1 ++ k :: L2)) as H by (apply I; now right).
      apply in_app_iff in H. apply in_app_iff. destruct H as [H|[H|H]]; auto. subst. contradiction.
    + exists M. cbn. rewrite <- HM. symmetry. apply Permutation_middle.
Qed.

Section Split.
Context {V W : Type} (ft : V -> bool) (subs0 subs1 : list (list Z * V)) (l : list (crec V W)).
Hypothesis HR : reach_servers ft l subs0 subs1.

Lemma split_accepted (Lf : list (list Z)) : NoDup Lf ->
  (forall pk, In pk Lf -> first_sub ft subs0 pk <> None /\ first_sub ft subs1 pk <> None) ->
  incl (map c_pk l) Lf ->
  exists M, length Lf = (length l + length M)%nat /\ others (length l) (length M) subs0 subs1 /\
    Permutation Lf (map c_pk l ++ M) /\ incl M Lf.
Proof.
  intros ND HA I. destruct (split_ids l Lf (proj1 HR) ND I) as [M HM]. exists M.
  assert (E : length Lf = (length l + length M)%nat).
  { rewrite (Permutation_length HM), app_length, map_length. reflexivity. }
  split; auto. split; [|split; auto].
  - unfold others. rewrite <- E. split.
    + rewrite <- (map_length fst subs0). apply NoDup_incl_length; auto. intros pk H. apply (first_sub_key ft). now apply HA.
    + rewrite <- (map_length fst subs1). apply NoDup_incl_length; auto. intros pk H. apply (first_sub_key ft). now apply HA.
  - intros x Hx. eapply Permutation_in; [symmetry; exact HM|]. apply in_app_iff. now right.
Qed.

Lemma reach_combined {X} (f : V -> V -> X) d r : In r l -> combined ft f d subs0 subs1 (c_pk r) = f (c_0 r) (c_1 r).
Proof. intros H. unfold combined. destruct (proj2 HR r H) as [-> ->]. reflexivity. Qed.

Lemma reach_accepted L : accepted ft subs0 subs1 L -> incl (map c_pk l) L.
Proof.
  intros [_ HA] pk (r & <- & Hr)%in_map_iff. apply HA. destruct (proj2 HR r Hr) as [-> ->]. split; discriminate.
Qed.

Lemma split_sum (h : list Z -> Z) (f : crec V W -> Z) Lf M : Permutation Lf (map c_pk l ++ M) ->
  (forall r, In r l -> h (c_pk r) = f r) ->
  zsum (map h Lf) = zsum (map f l) + zsum (map h M).
Proof.
  intros P E. rewrite (zsum_perm _ _ (Permutation_map h P)), map_app, zsum_app, map_map. f_equal.
  f_equal. now apply map_ext_in.
Qed.
End Split.

Lemma made_prop {V W} (one : prg -> nat -> crec V W * nat) l (Q : crec V W -> Prop) : made one l ->
  (forall g pos, prg_ok g -> Q (fst (one g pos))) -> forall r, In r l -> Q r.
Proof.
  intros HM HQ r Hr. destruct (HM r Hr) as (g & n & HG & Hin).
  pose proof (requests_forall Q (one g) n 0 (fun pos => HQ g pos HG)) as F. rewrite Forall_forall in F. auto.
Qed.

Lemma first_sub_ok {V} (ok : V -> bool) subs pk v : first_sub ok subs pk = Some v -> ok v = true.
Proof.
  induction subs as [|[k u] subs IH]; cbn; [discriminate|]. destruct (key_eqb k pk && ok u) eqn:E; auto.
  intros [= <-]. now apply andb_true_iff in E.
Qed.
Lemma first_sub_content {V} (P : V -> Prop) (ok : V -> bool) subs pk v : Forall (fun s => P (snd s)) subs ->
  first_sub ok subs pk = Some v -> P v.
Proof.
  induction subs as [|[k u] subs IH]; cbn; [discriminate|]. intros F.
  inversion F; subst. destruct (key_eqb k pk && ok u); auto. intros [= <-]. auto.
Qed.

Lemma bit_robust order0 order1 total0 total1 stream0 stream1 subs0 subs1 junk0 junk1 rnd0 rnd1 l :
  fair order1 -> arrives bit_wire total0 stream0 subs0 -> arrives bit_wire total1 stream1 subs1 ->
  length junk0 = 33%nat -> length junk1 = 33%nat ->
  made bit_request l -> reach_servers any l subs0 subs1 ->
  exists k e, others (length l) k subs0 subs1 /\ 0 <= e <= Z.of_nat k /\
  both (bit_sum false order0 total0 stream0 junk0 rnd0) (bit_sum true order1 total1 stream1 junk1 rnd1)
    (fun r0 r1 => r1 = RET_NO_ANS /\
       r0 = outcome (length l + k) total0 (zsum (map (fun r => b2z (c_real r)) l) + e)).
Proof.
  intros HF A0 A1 J0 J1 HM HR. destruct (TableFacts.accepted_exists any subs0 subs1) as [L HL].
  destruct (split_accepted any subs0 subs1 l HR L (proj1 HL) (fun pk => proj1 (proj2 HL pk)) (reach_accepted any subs0 subs1 l HR L HL))
    as (M & EL & OT & P & I).
  exists (length M), (zsum (map (combined any bit_val 0 subs0 subs1) M)). split; auto. split.
  - pose proof (zsum_range (combined any bit_val 0 subs0 subs1) 1 M) as Z. rewrite Z.mul_1_r in Z. apply Z; [lia|].
    intros pk _. unfold combined. destruct (first_sub any subs0 pk), (first_sub any subs1 pk); try lia.
    unfold bit_val. destruct (xorb b b0); cbn; lia.
  - eapply both_impl; [|apply (bit_sum_result order0 order1 total0 total1 stream0 stream1 subs0 subs1 junk0 junk1 rnd0 rnd1 L); auto].
    intros a b [-> ->]. split; auto. rewrite EL. f_equal.
    apply (split_sum l); auto. intros r Hr. rewrite (reach_combined any subs0 subs1 l HR) by auto.
    assert (E : c_1 r = xorb (c_0 r) (c_real r)) by (revert r Hr; apply (made_prop bit_request l _ HM); reflexivity).
    rewrite E. unfold bit_val. f_equal. now destruct (c_0 r), (c_real r).
Qed.

Lemma int_robust nb order0 order1 total0 total1 stream0 stream1 subs0 subs1 junk0 junk1 rnd0 rnd1 l :
  (nb <= 63)%nat ->
  fair order1 -> arrives int_wire total0 stream0 subs0 -> arrives int_wire total1 stream1 subs1 ->
  Forall (fun s => word (snd s)) subs0 -> Forall (fun s => word (snd s)) subs1 ->
  length junk0 = 40%nat -> length junk1 = 40%nat ->
  made (int_request (2 ^ Z.of_nat nb)) l -> reach_servers (fits nb) l subs0 subs1 ->
  exists k e, others (length l) k subs0 subs1 /\ 0 <= e <= Z.of_nat k * (2 ^ Z.of_nat nb - 1) /\
  both (int_sum false order0 nb total0 stream0 junk0 rnd0) (int_sum true order1 nb total1 stream1 junk1 rnd1)
    (fun r0 r1 => r1 = RET_NO_ANS /\
       r0 = outcome (length l + k) total0 ((zsum (map c_real l) + e) mod two64)).
Proof.
  intros HB HF A0 A1 W0 W1 J0 J1 HM HR. destruct (TableFacts.accepted_exists (fits nb) subs0 subs1) as [L HL].
  destruct (split_accepted _ subs0 subs1 l HR L (proj1 HL) (fun pk => proj1 (proj2 HL pk)) (reach_accepted _ subs0 subs1 l HR L HL))
    as (M & EL & OT & P & I).
  assert (HP : 0 < 2 ^ Z.of_nat nb) by (apply Z.pow_pos_nonneg; lia).
  exists (length M), (zsum (map (combined (fits nb) Z.lxor 0 subs0 subs1) M)). split; auto. split.
  - apply zsum_range; [lia|]. intros pk _. unfold combined.
    destruct (first_sub (fits nb) subs0 pk) as [a|] eqn:E0; [|lia]. destruct (first_sub (fits nb) subs1 pk) as [b|] eqn:E1; [|lia].
    pose proof (first_sub_ok _ _ _ _ E0) as F0. pose proof (first_sub_ok _ _ _ _ E1) as F1.
    pose proof (first_sub_content word _ _ _ _ W0 E0) as X0. pose proof (first_sub_content word _ _ _ _ W1 E1) as X1.
    apply Z.ltb_lt in F0. apply Z.ltb_lt in F1. unfold word in *.
    assert (0 <= Z.lxor a b < 2 ^ Z.of_nat nb) by (apply lxor_lt; lia). lia.
  - eapply both_impl; [|apply (int_sum_result nb order0 order1 total0 total1 stream0 stream1 subs0 subs1 junk0 junk1 rnd0 rnd1 L); auto].
    intros a b [-> ->]. split; auto. rewrite EL. f_equal. f_equal.
    apply (split_sum l); auto. intros r Hr. rewrite (reach_combined _ subs0 subs1 l HR) by auto.
    revert r Hr. apply (made_prop (int_request (2 ^ Z.of_nat nb)) l _ HM). intros g pos HG. now apply int_request_ok.
Qed.

(** ** VAR, LINREG *)
Lemma made_good {V W} c (one : prg -> (nat -> Z) -> cstate -> option (crec V W * cstate)) (Q : crec V W -> Prop) w l :
  made_proof one l ->
  (forall g T, prg_ok g -> forall pos s tabs, tabs_ok c tabs -> exists r pos' s' tabs',
     one g T (pos, s, tabs) = Some (r, (pos', s', tabs')) /\ tabs_ok c tabs' /\
     (pos < pos' <= pos + w)%nat /\ c_pk r = make_pk g pos' /\ Q r) ->
  forall r, In r l -> Q r.
Proof.
  intros HM HQ r Hr. destruct (HM r Hr) as (g & T & s & n & l' & st' & HG & E & Hin).
  destruct (requests_opt_facts g c (one g T) Q w (HQ g T HG) n 0%nat s None (or_introl eq_refl))
    as (l2 & pos' & s' & tabs' & E' & _ & _ & GD & _).
  rewrite E in E'. injection E' as <- _. rewrite Forall_forall in GD. auto.
Qed.

Lemma var_combined_range nb subs0 subs1 pk j :
  Forall (fun s => var_content (snd s)) subs0 -> Forall (fun s => var_content (snd s)) subs1 -> (j < 2)%nat ->
  0 <= nth j (combined (var_fits nb) var_opened [] subs0 subs1 pk) 0 <= 2 ^ Z.of_nat (if (j =? 0)%nat then nb else 2 * nb) - 1.
Proof.
  intros C0 C1 Hj. assert (HP : forall n, 0 < 2 ^ Z.of_nat n) by (intros; apply Z.pow_pos_nonneg; lia).
  unfold combined. pose proof (HP (if (j =? 0)%nat then nb else (2 * nb)%nat)) as HPj.
  destruct (first_sub (var_fits nb) subs0 pk) as [[[a a2] pa]|] eqn:E0; [|destruct j; cbn [nth]; lia].
  destruct (first_sub (var_fits nb) subs1 pk) as [[[b b2] pb]|] eqn:E1; [|destruct j; cbn [nth]; lia].
  pose proof (first_sub_ok _ _ _ _ E0) as F0. pose proof (first_sub_ok _ _ _ _ E1) as F1.
  pose proof (first_sub_content var_content _ _ _ _ C0 E0) as X0. pose proof (first_sub_content var_content _ _ _ _ C1 E1) as X1.
  cbn [var_fits] in F0, F1. apply andb_true_iff in F0 as [F0 F0']. apply andb_true_iff in F1 as [F1 F1'].
  apply Z.ltb_lt in F0, F0', F1, F1'. destruct X0 as (X0 & X0' & _). destruct X1 as (X1 & X1' & _). unfold word in *.
  assert (R1 : 0 <= Z.lxor a b < 2 ^ Z.of_nat nb) by (apply lxor_lt; lia).
  assert (R2 : 0 <= Z.lxor a2 b2 < 2 ^ Z.of_nat (2 * nb)) by (apply lxor_lt; lia).
  destruct j as [|[|j]]; cbn [var_opened nth Nat.eqb] in *; lia.
Qed.

Lemma filter_keeps {A} (f : A -> bool) ks L : incl ks L -> (forall k, In k ks -> f k = true) -> incl ks (filter f L).
Proof. intros I H x Hx. apply filter_In. auto. Qed.

Lemma var_robust nb order0 order1 total0 total1 stream0 stream1 subs0 subs1 junk0 junk1 K rnd0 rnd1 st0 st1 l :
  (nb <= 24)%nat -> fair order1 ->
  arrives_cut var_wire var_size total0 stream0 subs0 -> arrives_cut var_wire var_size total1 stream1 subs1 ->
  Forall (fun s => var_content (snd s)) subs0 -> Forall (fun s => var_content (snd s)) subs1 ->
  length junk0 = 48%nat -> length junk1 = 48%nat -> synced st0 st1 ->
  l <> [] -> made_proof (var_request (2 ^ Z.of_nat nb)) l -> reach_servers (var_fits nb) l subs0 subs1 ->
  exists k e e2, others (length l) k subs0 subs1 /\
    0 <= e <= Z.of_nat k * (2 ^ Z.of_nat nb - 1) /\ 0 <= e2 <= Z.of_nat k * (2 ^ Z.of_nat (2 * nb) - 1) /\
  both (var_op false order0 nb total0 stream0 junk0 K rnd0 st0) (var_op true order1 nb total1 stream1 junk1 K rnd1 st1)
    (fun a b => fst b = RET_NO_ANS /\
       fst a = outcome (length l + k) total0
         ((length l + k)%nat, (zsum (map c_real l) + e) mod p, (zsum (map (fun r => c_real r * c_real r) l) + e2) mod p) /\
       synced (snd a) (snd b)).
Proof.
  intros Hn HF A0 A1 C0 C1 J0 J1 SY NE HM HR.
  assert (GD : forall r, In r l -> var_good nb r).
  { apply (made_good CheckVar (var_request (2 ^ Z.of_nat nb)) (var_good nb) 3 l HM). intros g T _. apply var_request_good. lia. }
  destruct (TableFacts.accepted_exists (var_fits nb) subs0 subs1) as [L HL].
  assert (Hr : in_field p (randomX st0)) by apply SY.
  destruct (var_op_result nb order0 order1 total0 total1 stream0 stream1 subs0 subs1 junk0 junk1 K rnd0 rnd1 st0 st1 L)
    as (a & b & HAl & good & pos & HV & E1 & E0 & SY' & _); auto.
  { destruct l as [|r l']; [easy|]. exists (c_pk r). destruct (proj2 HR r (or_introl eq_refl)) as [_ ->]. discriminate. }
  assert (KP : incl (map c_pk l) (filter good L)).
  { apply filter_keeps; [exact (reach_accepted _ subs0 subs1 l HR L HL)|]. intros pk (r & <- & Hin)%in_map_iff.
    destruct (proj2 HR r Hin) as [F0 F1]. destruct HV as (HJ & _).
    specialize (HJ (c_pk r) (c_0 r) (c_1 r) F0 F1). destruct (GD r Hin) as (_ & _ & _ & _ & _ & EO & HH). rewrite EO in HJ.
    symmetry. refine (verdict_unique _ _ _ _ _ _ _ _ Hr _ HJ).
    apply judged_honest; auto; [apply check_var_wf|apply PeanoNat.Nat.ltb_lt; reflexivity|]. now apply check_var_lemma. }
  destruct (split_accepted (var_fits nb) subs0 subs1 l HR (filter good L)) as (M & EL & OT & P & I); auto.
  { apply NoDup_filter, HL. }
  { intros pk H. apply filter_In in H as [H _]. now apply HL. }
  set (F := fun j pk => nth j (combined (var_fits nb) var_opened [] subs0 subs1 pk) 0).
  exists (length M), (zsum (map (F 0%nat) M)), (zsum (map (F 1%nat) M)). split; auto.
  assert (HP : forall n, 0 < 2 ^ Z.of_nat n) by (intros; apply Z.pow_pos_nonneg; lia).
  split; [apply zsum_range; [specialize (HP nb); lia|]; intros pk _; apply (var_combined_range nb subs0 subs1 pk 0); auto|].
  split; [apply zsum_range; [specialize (HP (2 * nb)%nat); lia|]; intros pk _; apply (var_combined_range nb subs0 subs1 pk 1); auto|].
  exists a, b. split; auto. split; auto. split; auto. rewrite E0, EL. f_equal. unfold field_sum. fold (F 0%nat) (F 1%nat).
  rewrite (split_sum l (F 0%nat) c_real (filter good L) M P), (split_sum l (F 1%nat) (fun r => c_real r * c_real r) (filter good L) M P); auto.
  - intros r Hin. unfold F. rewrite (reach_combined _ subs0 subs1 l HR) by auto.
    destruct (GD r Hin) as (_ & _ & _ & _ & _ & -> & _). reflexivity.
  - intros r Hin. unfold F. rewrite (reach_combined _ subs0 subs1 l HR) by auto.
    destruct (GD r Hin) as (_ & _ & _ & _ & _ & -> & _). reflexivity.
Qed.

Definition field_width (nb degree j : nat) : nat := if (j <? degree)%nat then nb else (2 * nb)%nat.
Lemma linreg_combined_range nb degree subs0 subs1 pk j : (1 <= degree)%nat ->
  Forall (fun s => linreg_content degree (snd s)) subs0 -> Forall (fun s => linreg_content degree (snd s)) subs1 ->
  0 <= nth j (combined (linreg_fits nb) linreg_opened [] subs0 subs1 pk) 0 <= 2 ^ Z.of_nat (field_width nb degree j) - 1.
Proof.
  intros Hd C0 C1. assert (HP : forall n, 0 < 2 ^ Z.of_nat n) by (intros; apply Z.pow_pos_nonneg; lia).
  unfold combined. pose proof (HP (field_width nb degree j)) as HPj.
  destruct (first_sub (linreg_fits nb) subs0 pk) as [[[[[x y] x2] xy] pa]|] eqn:E0; [|destruct j; cbn [nth]; lia].
  destruct (first_sub (linreg_fits nb) subs1 pk) as [[[[[x' y'] x2'] xy'] pb]|] eqn:E1; [|destruct j; cbn [nth]; lia].
  pose proof (first_sub_ok _ _ _ _ E0) as F0. pose proof (first_sub_ok _ _ _ _ E1) as F1.
  pose proof (first_sub_content (linreg_content degree) _ _ _ _ C0 E0) as [X0 _].
  pose proof (first_sub_content (linreg_content degree) _ _ _ _ C1 E1) as [X1 _].
  cbn [linreg_fits] in F0, F1. rewrite !andb_true_iff in F0, F1.
  destruct F0 as [[[Fx Fy] Fq] Fxy]. destruct F1 as [[[Fx' Fy'] Fq'] Fxy'].
  destruct X0 as (Lx & Lq & Lxy & Wx & Wy & Wq & Wxy). destruct X1 as (Lx' & Lq' & Lxy' & Wx' & Wy' & Wq' & Wxy').
  apply Z.ltb_lt in Fy, Fy'.
  assert (R : forall n l l', forallb (fits n) l = true -> forallb (fits n) l' = true -> Forall word l -> Forall word l' ->
    Forall (fun z => 0 <= z <= 2 ^ Z.of_nat n - 1) (map2 Z.lxor l l')).
  { intros n l. induction l as [|a l IH]; intros [|b l'] G G' H H'; try constructor.
    - cbn in G, G'. apply andb_true_iff in G as [G _]. apply andb_true_iff in G' as [G' _]. apply Z.ltb_lt in G, G'.
      inversion H; inversion H'; subst. unfold word in *. assert (0 <= Z.lxor a b < 2 ^ Z.of_nat n) by (apply lxor_lt; lia). lia.
    - cbn in G, G'. apply andb_true_iff in G as [_ G]. apply andb_true_iff in G' as [_ G'].
      inversion H; inversion H'; subst. apply IH; auto. }
  assert (ML : forall l l' : list Z, length l' = length l -> length (map2 Z.lxor l l') = length l).
  { intros l l' H. rewrite map2_length, H. apply PeanoNat.Nat.min_id. }
  unfold linreg_opened, linreg_row. cbn [fst].
  rewrite map2_app by lia. cbn [map2]. rewrite map2_app by lia.
  assert (YR : 0 <= Z.lxor y y' <= 2 ^ Z.of_nat nb - 1).
  { unfold word in *. assert (0 <= Z.lxor y y' < 2 ^ Z.of_nat nb) by (apply lxor_lt; lia). lia. }
  specialize (HP nb) as HPn. specialize (HP (2 * nb)%nat) as HP2.
  unfold field_width, num_x in *. destruct (PeanoNat.Nat.ltb_spec j degree) as [J|J].
  - destruct (PeanoNat.Nat.lt_ge_cases j (length x)) as [J1|J1].
    + rewrite app_nth1 by (rewrite ML; lia). apply nth_range; [lia|]. apply R; auto.
    + rewrite app_nth2 by (rewrite ML; lia). rewrite ML by lia. replace (j - length x)%nat with 0%nat by lia. exact YR.
  - rewrite app_nth2 by (rewrite ML; lia). rewrite ML by lia. replace (j - length x)%nat with (S (j - degree)) by lia.
    cbn [nth]. apply nth_range; [lia|]. apply Forall_app. split; apply R; auto.
Qed.

Lemma linreg_robust nb degree order0 order1 total0 total1 stream0 stream1 subs0 subs1 d0 d1 junk0 junk1
  garbage0 garbage1 K rnd0 rnd1 st0 st1 l :
  (nb <= 24)%nat -> (1 <= degree)%nat -> (num_quad degree + num_x degree < 2 ^ 18)%nat -> fair order1 ->
  arrives_cut linreg_wire (linreg_size degree) total0 stream0 subs0 ->
  arrives_cut linreg_wire (linreg_size degree) total1 stream1 subs1 ->
  Forall (fun s => linreg_content degree (snd s)) subs0 -> Forall (fun s => linreg_content degree (snd s)) subs1 ->
  length d0 = 8%nat -> length d1 = 8%nat -> length junk0 = 32%nat -> length junk1 = 32%nat ->
  (forall i, let '(x, x2, xy) := garbage0 i in linreg_shape degree (x, 0, x2, xy)) -> synced st0 st1 ->
  l <> [] -> made_proof (linreg_request degree (2 ^ Z.of_nat nb)) l -> reach_servers (linreg_fits nb) l subs0 subs1 ->
  exists k e, others (length l) k subs0 subs1 /\
    (forall j, 0 <= e j <= Z.of_nat k * (2 ^ Z.of_nat (if (j <? degree)%nat then nb else 2 * nb) - 1)) /\
  both (linreg_op false order0 nb total0 (degree_wire degree ++ stream0) d0 junk0 garbage0 K rnd0 st0)
       (linreg_op true order1 nb total1 (degree_wire degree ++ stream1) d1 junk1 garbage1 K rnd1 st1)
    (fun a b => fst b = RET_NO_ANS /\
       fst a = outcome (length l + k) total0
         (moments degree (length l + k) (fun j => (zsum (map (fun r => nth j (linreg_fields (c_real r)) 0) l) + e j) mod p)) /\
       synced (snd a) (snd b)).
Proof.
  intros Hn Hd HQ HF A0 A1 C0 C1 LD0 LD1 J0 J1 HGB SY NE HM HR.
  destruct (linreg_gates degree Hd) as [GM GI].
  assert (HMul : (NumMulGates (CheckLinReg degree) < 2 ^ 18)%nat) by (rewrite GM; exact HQ).
  assert (GD : forall r, In r l -> linreg_good nb degree r).
  { eapply (made_good (CheckLinReg degree) (linreg_request degree (2 ^ Z.of_nat nb)) (linreg_good nb degree) _ l HM).
    intros g T HG. apply linreg_request_good; auto; [lia|]. intros q k. apply (random_words_ok g q k HG). }
  destruct (TableFacts.accepted_exists (linreg_fits nb) subs0 subs1) as [L HL].
  assert (Hr : in_field p (randomX st0)) by apply SY.
  destruct (linreg_op_result nb degree order0 order1 total0 total1 stream0 stream1 subs0 subs1 d0 d1 junk0 junk1
      garbage0 garbage1 K rnd0 rnd1 st0 st1 L)
    as (a & b & HAl & good & pos & HV & E1 & E0 & SY' & _); auto.
  { destruct l as [|r l']; [easy|]. exists (c_pk r). destruct (proj2 HR r (or_introl eq_refl)) as [_ ->]. discriminate. }
  assert (KP : incl (map c_pk l) (filter good L)).
  { apply filter_keeps; [exact (reach_accepted _ subs0 subs1 l HR L HL)|]. intros pk (r & <- & Hin)%in_map_iff.
    destruct (proj2 HR r Hin) as [F0 F1]. destruct HV as (HJ & _).
    specialize (HJ (c_pk r) (c_0 r) (c_1 r) F0 F1). destruct (GD r Hin) as (Lr & _ & _ & _ & _ & _ & _ & EO & HH). rewrite EO in HJ.
    symmetry. refine (verdict_unique _ _ _ _ _ _ _ _ Hr _ HJ).
    apply judged_honest; auto; [apply check_linreg_wf; exact Hd|]. now apply linreg_true. }
  destruct (split_accepted (linreg_fits nb) subs0 subs1 l HR (filter good L)) as (M & EL & OT & P & I); auto.
  { apply NoDup_filter, HL. }
  { intros pk H. apply filter_In in H as [H _]. now apply HL. }
  set (F := fun j pk => nth j (combined (linreg_fits nb) linreg_opened [] subs0 subs1 pk) 0).
  exists (length M), (fun j => zsum (map (F j) M)). split; auto. split.
  - intros j. apply zsum_range.
    + assert (0 < 2 ^ Z.of_nat (if (j <? degree)%nat then nb else 2 * nb)) by (apply Z.pow_pos_nonneg; lia). lia.
    + intros pk _. apply (linreg_combined_range nb degree); auto.
  - exists a, b. split; auto. split; auto. split; auto. rewrite E0, EL. f_equal.
    assert (S : forall j, field_sum (linreg_fits nb) linreg_opened subs0 subs1 (filter good L) j =
      zsum (map (fun r => nth j (linreg_fields (c_real r)) 0) l) + zsum (map (F j) M)).
    { intros j. unfold field_sum. fold (F j). rewrite (split_sum l (F j) (fun r => nth j (linreg_fields (c_real r)) 0) (filter good L) M P); auto.
      intros r Hin. unfold F. rewrite (reach_combined _ subs0 subs1 l HR) by auto.
      destruct (GD r Hin) as (_ & _ & _ & _ & _ & _ & _ & -> & _). reflexivity. }
    unfold moments. rewrite S. f_equal; f_equal; [f_equal|]; apply map_ext; intros j; now rewrite S.
Qed.

(** ** FREQ *)
Section Freq.
Variables (num_bits : nat) (subs0 subs1 : list (list Z * list bool)) (l : list (crec (list bool) nat)).
Let w := freq_width num_bits.
Hypothesis HM : made (freq_request w) l.
Hypothesis HR : reach_servers any l subs0 subs1.

Lemma freq_width_pos : (0 < w)%nat.
Proof. unfold w, freq_width. assert (0 < 2 ^ Z.of_nat num_bits) by (apply Z.pow_pos_nonneg; lia). lia. Qed.
Lemma freq_row_honest r : In r l ->
  (c_real r < w)%nat /\ freq_bits w subs0 subs1 (c_pk r) = map (fun j => (j =? c_real r)%nat) (seq 0 w).
Proof.
  intros Hr. destruct (proj2 HR r Hr) as [F0 F1]. unfold freq_bits. rewrite F0, F1. cbn [get].
  destruct (made_prop _ _ (fun r => (c_real r < w)%nat /\ length (c_0 r) = w /\ length (c_1 r) = w /\
    map2 xorb (c_0 r) (c_1 r) = map (fun j => (j =? c_real r)%nat) (seq 0 w)) HM) with (r := r) as (A & _ & _ & B); auto.
  intros g pos HG. apply freq_request_ok; auto. apply freq_width_pos.
Qed.
Lemma freq_weight_honest r : In r l -> weight (freq_bits w subs0 subs1 (c_pk r)) = 1%nat.
Proof. intros H. destruct (freq_row_honest r H) as [A ->]. apply weight_unit. lia. Qed.

Lemma votes_honest j : (j < w)%nat -> votes w subs0 subs1 (map c_pk l) j = count_occ PeanoNat.Nat.eq_dec (map c_real l) j.
Proof.
  intros Hj. unfold votes.
  assert (G : forall l', incl l' l -> length (filter (fun pk => nth j (freq_bits w subs0 subs1 pk) false) (map c_pk l')) =
    count_occ PeanoNat.Nat.eq_dec (map c_real l') j).
  { induction l' as [|r l' IH]; intros I; auto. cbn [map filter count_occ].
    destruct (freq_row_honest r (I r (or_introl eq_refl))) as [_ ->].
    rewrite SnipSums.nth_map_seq' by lia. specialize (IH (fun x Hx => I x (or_intror Hx))).
    destruct (PeanoNat.Nat.eqb_spec j (c_real r)) as [->|N]; destruct (PeanoNat.Nat.eq_dec (c_real r) _) as [E|E]; try congruence;
      cbn [length]; rewrite IH; auto. }
  apply G. intros x Hx. exact Hx.
Qed.

Lemma tally_split L M : Permutation L (map c_pk l ++ M) ->
  tally w subs0 subs1 L = with_extra (histogram w (map c_real l)) (votes w subs0 subs1 M).
Proof.
  intros P. unfold tally, with_extra. unfold histogram at 2. rewrite map_length, seq_length. apply map_ext_in. intros j Hj.
  apply in_seq in Hj. unfold histogram. rewrite SnipSums.nth_map_seq' by lia. rewrite <- votes_honest by lia.
  rewrite <- Nat2Z.inj_add. f_equal. unfold votes. rewrite (filter_len_perm _ _ _ P), filter_app, app_length. reflexivity.
Qed.

Lemma votes_le M j : (votes w subs0 subs1 M j <= length M)%nat.
Proof. unfold votes. induction M as [|pk M IH]; cbn [filter length]; [lia|]. destruct (nth j _ false); cbn [length]; lia. Qed.

Lemma votes_sum M : freq_rows w subs0 -> freq_rows w subs1 ->
  (forall pk, In pk M -> weight (freq_bits w subs0 subs1 pk) = 1%nat) ->
  list_sum (map (votes w subs0 subs1 M) (seq 0 w)) = length M.
Proof.
  intros W0 W1 HW.
  assert (E : Z.of_nat (list_sum (map (votes w subs0 subs1 M) (seq 0 w))) = zsum (tally w subs0 subs1 M)).
  { unfold tally. generalize (seq 0 w). induction l0 as [|x l0 IH]; auto. cbn [map list_sum fold_right] in *.
    change (fold_right Nat.add 0%nat) with list_sum in *. unfold zsum in *. cbn [fold_right]. lia. }
  rewrite tally_sum in E.
  - apply Nat2Z.inj in E. rewrite E. unfold total_weight. clear E. induction M as [|pk M IH]; auto.
    cbn [map list_sum fold_right length]. change (fold_right Nat.add 0%nat) with list_sum.
    rewrite HW by (now left). rewrite IH; auto. intros pk' H. apply HW. now right.
  - intros pk _. assert (HL : forall subs, freq_rows w subs -> length (get (repeat false w) (first_sub any subs pk)) = w).
    { intros subs H. destruct (first_sub any subs pk) as [v|] eqn:E'; cbn [get]; [|apply repeat_length].
      apply (first_sub_content (fun v => length v = w) any subs pk v H E'). }
    unfold freq_bits. rewrite map2_length, !HL by auto. apply PeanoNat.Nat.min_id.
Qed.
End Freq.

Lemma freq_robust_one_by_one num_bits order0 order1 total0 total1 stream0 stream1 subs0 subs1 pk0 pk1 junk0 junk1
    c0 c1 T0 T1 s0 s1 L l :
  (num_bits <= 30)%nat -> fair order1 ->
  freq_input num_bits total0 stream0 subs0 pk0 junk0 -> freq_input num_bits total1 stream1 subs1 pk1 junk1 ->
  params_ok c0 c1 -> stores_paired s0 s1 -> heard subs1 L -> (length L <= total0)%nat ->
  let w := freq_width num_bits in
  ~ balanced (total_weight w subs0 subs1 L) total0 ->
  made (freq_request w) l -> reach_servers any l subs0 subs1 ->
  exists k e, others (length l) k subs0 subs1 /\ list_sum (map e (seq 0 w)) = k /\
  both (freq_op false order0 num_bits total0 stream0 pk0 junk0 c0 T0 s0)
       (freq_op true order1 num_bits total1 stream1 pk1 junk1 c1 T1 s1)
    (fun r0 r1 => fst r1 = RET_NO_ANS /\
       fst r0 = outcome (length l + k) total0 (with_extra (histogram w (map c_real l)) e) /\
       stores_paired (snd r0) (snd r1)).
Proof.
  intros HB HF (A0 & W0 & K0 & J0) (A1 & W1 & K1 & J1) HP HS HL HT w HN HM HR.
  destruct (TableFacts.accepted_exists any subs0 subs1) as [La HLa].
  set (G := filter (fun pk => Nat.eqb (weight (freq_bits w subs0 subs1 pk)) 1) La).
  assert (HG : one_hot w subs0 subs1 G).
  { split; [apply NoDup_filter, HLa|]. intros pk. unfold G. rewrite filter_In, PeanoNat.Nat.eqb_eq, (proj2 HLa pk). tauto. }
  destruct (split_accepted any subs0 subs1 l HR G) as (M & EL & OT & P & I).
  - apply HG.
  - intros pk H. apply HG in H. tauto.
  - intros pk (r & <- & Hr)%in_map_iff. apply HG. destruct (proj2 HR r Hr) as [-> ->].
    split; [discriminate|]. split; [discriminate|]. now apply (freq_weight_honest num_bits subs0 subs1 l HM HR).
  - exists (length M), (votes w subs0 subs1 M). split; auto. split.
    + apply votes_sum; auto. intros pk H. apply I in H. now apply HG in H.
    + rewrite <- EL. unfold w; rewrite <- (tally_split num_bits subs0 subs1 l HM HR G M P).
      exact (freq_failed num_bits order0 order1 total0 total1 stream0 stream1 subs0 subs1 pk0 pk1 junk0 junk1
        c0 c1 T0 T1 s0 s1 L HB HF A0 A1 W0 W1 K0 K1 J0 J1 HP HS HL G HT HN HG).
Qed.

Lemma freq_robust_passed num_bits order0 order1 total0 total1 stream0 stream1 subs0 subs1 pk0 pk1 junk0 junk1
    c0 c1 T0 T1 s0 s1 L l :
  (num_bits <= 30)%nat -> fair order1 ->
  freq_input num_bits total0 stream0 subs0 pk0 junk0 -> freq_input num_bits total1 stream1 subs1 pk1 junk1 ->
  params_ok c0 c1 -> stores_paired s0 s1 -> heard subs1 L -> (length L <= total0)%nat ->
  let w := freq_width num_bits in
  balanced (total_weight w subs0 subs1 L) total0 ->
  made (freq_request w) l -> reach_servers any l subs0 subs1 ->
  exists k e, length L = (length l + k)%nat /\ (forall j, (e j <= k)%nat) /\
  exists s0' s1', stores_paired s0' s1' /\
  ends (bool_bytes (length L))
    (freq_op false order0 num_bits total0 stream0 pk0 junk0 c0 T0 s0)
    (freq_op true order1 num_bits total1 stream1 pk1 junk1 c1 T1 s1)
    (Cfg (Ret (outcome (length L) total0 (with_extra (histogram w (map c_real l)) e), s0')) (Ret (RET_NO_ANS, s1'))
         (pack_bools (repeat true (length L))) []).
Proof.
  intros HB HF (A0 & W0 & K0 & J0) (A1 & W1 & K1 & J1) HP HS HL HT w HN HM HR.
  destruct (split_ids l L (proj1 HR) (proj1 HL)) as [M P].
  { intros pk (r & <- & Hr)%in_map_iff. apply HL. destruct (proj2 HR r Hr) as [_ ->]. discriminate. }
  exists (length M), (votes w subs0 subs1 M). split.
  - rewrite (Permutation_length P), app_length, map_length. reflexivity.
  - split; [intros j; apply votes_le|]. unfold w; rewrite <- (tally_split num_bits subs0 subs1 l HM HR L M P).
    exact (freq_passed num_bits order0 order1 total0 total1 stream0 stream1 subs0 subs1 pk0 pk1 junk0 junk1
      c0 c1 T0 T1 s0 s1 L HB HF A0 A1 W0 W1 K0 K1 J0 J1 HP HS HL HT HN).
Qed.
