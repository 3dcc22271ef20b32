(** * Debugging runs of VAR, STDDEV and LINREG: whole runs *)
From Coq Require Import ZArith Znumtheory List Bool Lia Permutation.
From Verif Require Import Words WordsFacts Constants Cong Share SpecShare ShareFacts Proc ProcFacts Net SpecNet NetFacts RelFacts
  Poly SpecPoly FieldFacts PolyFacts FftFacts Circuit SpecCircuit CircuitFacts Snip SpecSnip SnipFacts SnipBatch
  MpcFacts ServerOps SpecServer TableFacts ServerFacts ServerProps ServerCor ClientOps SpecClient ClientFacts ClientProps
  SnipSums SpecStat StatReads StatProps StatClient StatSound SpecCount CountFacts CountProps SpecAccept AcceptFacts AcceptProps
  DebugOps SpecDebug DebugFacts DebugProps DebugStat SpecDebugStat DebugStatFacts.
From Verif Require DabitFacts SecretProof.
Import ListNotations.
Open Scope Z_scope.
Opaque Int_Modulus Int_Gen init_roots.
Local Notation P := Int_Modulus.

(** The requests not acceptable because of bounds or identities. *)
Definition marked6 (i : nat) : bool := (i <=? 2)%nat || (i =? 9)%nat || (i =? 11)%nat || (i =? 13)%nat.
Lemma marked6_cases i : marked6 i = true <-> (i <= 2)%nat \/ i = 9%nat \/ i = 11%nat \/ i = 13%nat.
Proof. unfold marked6. rewrite !orb_true_iff, Nat.leb_le, !Nat.eqb_eq. tauto. Qed.
Lemma marked12_cases i : marked12 i = true <-> (i <= 9)%nat \/ i = 11%nat \/ i = 13%nat.
Proof. unfold marked12. rewrite !orb_true_iff, Nat.leb_le, !Nat.eqb_eq. tauto. Qed.
Lemma marked_weaker i : marked12 i = false -> marked6 i = false.
Proof.
  intros H. destruct (marked6 i) eqn:E; auto. apply marked6_cases in E. rewrite <- H. symmetry. apply marked12_cases. lia.
Qed.
Lemma marked_between i : marked12 i = true -> marked6 i = false -> (3 <= i <= 8)%nat.
Proof.
  intros A B. apply marked12_cases in A. assert (C : ~ marked6 i = true) by congruence. rewrite marked6_cases in C. lia.
Qed.

Lemma by_entries {A} : forall a b : list A, (forall i, nth_error a i = nth_error b i) -> a = b.
Proof.
  induction a as [|x a IH]; intros [|y b] H; auto; try (specialize (H 0%nat); discriminate).
  f_equal; [specialize (H 0%nat); now injection H|]. apply IH. intros i. exact (H (S i)).
Qed.

Lemma nodup_inj {A} (f : nat -> A) n s : NoDup s -> (forall i, In i s -> (i < n)%nat) ->
  (forall i j, (i < n)%nat -> (j < n)%nat -> f i = f j -> i = j) -> NoDup (map f s).
Proof.
  intros ND B I. induction ND as [|i s NI ND IH]; cbn; constructor.
  - intros H. apply in_map_iff in H as (j & E & Hj). apply I in E; [congruence|apply B; now right|apply B; now left].
  - apply IH. intros; apply B; now right.
Qed.

Section Runs.
  Context {V W : Type}.
  Variables (c : circuit) (ok : V -> bool) (content : V -> Prop) (open : V -> V -> list Z) (packet : V -> ClientPacket).
  Variables (g : prg) (stale : nat -> list Z).
  Definition row (i : nat) (r : drec V W) : Prop :=
    d_id r = pub_key_to_hex (g i) /\ d_k0 r = key0 9 11 stale i (d_id r) /\ d_k1 r = key1 13 stale i (d_id r) /\
    d_valid r = negb (marked12 i) /\ content (d_0 r) /\ content (d_1 r) /\
    (marked6 i = false -> ok (d_0 r) = true /\ ok (d_1 r) = true) /\
    ((i <= 2)%nat -> ok (d_0 r) = false \/ ok (d_1 r) = false) /\
    (marked12 i = false -> well_proved c (open (d_0 r) (d_1 r)) (packet (d_0 r)) (packet (d_1 r))) /\
    ((3 <= i <= 8)%nat -> ~ well_proved c (open (d_0 r) (d_1 r)) (packet (d_0 r)) (packet (d_1 r))).

  Variables (l : list (drec V W)) (n : nat).
  Hypothesis HL : length l = n.
  Hypothesis Hn : (24 <= n)%nat.
  Hypothesis ROW : forall i r, nth_error l i = Some r -> row i r.
  Hypothesis HG : blocks_ok g n.
  Hypothesis REL : released_ok g stale n 9 11 13.

  Let def : drec V W -> nat -> drec V W := fun r i =>
    let pk := pub_key_to_hex (g i) in
    mkD pk (key0 9 11 stale i pk) (key1 13 stale i pk) (d_0 r) (d_1 r) (d_real r) (negb (marked12 i)).

  Lemma rows_as_map : exists R, l = map R (seq 0 n) /\ (forall i, (i < n)%nat -> row i (R i)) /\
    (forall i, d_id (R i) = pub_key_to_hex (g i) /\ d_k0 (R i) = key0 9 11 stale i (d_id (R i)) /\
       d_k1 (R i) = key1 13 stale i (d_id (R i)) /\ d_valid (R i) = negb (marked12 i)).
  Proof.
    destruct l as [|r0 l'] eqn:El; [cbn in HL; lia|]. rewrite <- El in *.
    exists (fun i => nth i l (def r0 i)).
    assert (X : forall i, (i < n)%nat -> nth_error l i = Some (nth i l (def r0 i))).
    { intros i Hi. apply nth_error_nth'. lia. }
    split; [|split].
    - apply by_entries. intros i. destruct (Nat.lt_ge_cases i n) as [H|H].
      + rewrite (X i H). symmetry. rewrite nth_error_map, nth_error_nth' with (d := 0%nat) by now rewrite seq_length.
        rewrite seq_nth by auto. reflexivity.
      + rewrite (proj2 (nth_error_None _ _)) by lia. symmetry. apply nth_error_None. rewrite map_length, seq_length. lia.
    - intros i Hi. apply ROW, X, Hi.
    - intros i. destruct (Nat.lt_ge_cases i n) as [H|H].
      + destruct (ROW i _ (X i H)) as (A & B & C & D & _). auto.
      + rewrite nth_overflow by lia. unfold def. cbn. auto.
  Qed.

  Lemma debug_lists : exists L, accepted ok (dsubs0 l) (dsubs1 l) L /\ length L = (n - 6)%nat /\
    let T := map c_pk (valids l) in
    length (valids l) = (n - 12)%nat /\ NoDup T /\
    (forall pk, In pk T <-> In pk L /\ proved_at c ok open packet (dsubs0 l) (dsubs1 l) pk) /\
    (forall j, field_sum ok open (dsubs0 l) (dsubs1 l) T j = zsum (map (fun r => nth j (open (c_0 r) (c_1 r)) 0) (valids l))) /\
    (exists pk, first_sub ok (dsubs1 l) pk <> None) /\
    Forall (fun s => length (fst s) = 32%nat) (dsubs0 l) /\ Forall (fun s => length (fst s) = 32%nat) (dsubs1 l) /\
    Forall (fun s => content (snd s)) (dsubs0 l) /\ Forall (fun s => content (snd s)) (dsubs1 l).
  Proof.
    destruct rows_as_map as (R & E & HR & KR).
    set (R6 := fun i => mkD (d_id (R i)) (d_k0 (R i)) (d_k1 (R i)) (d_0 (R i)) (d_1 (R i)) (d_real (R i)) (negb (marked6 i))).
    assert (D0 : dsubs0 l = dsubs0 (map R6 (seq 0 n))) by (rewrite E; unfold dsubs0; rewrite !map_map; reflexivity).
    assert (D1 : dsubs1 l = dsubs1 (map R6 (seq 0 n))) by (rewrite E; unfold dsubs1; rewrite !map_map; reflexivity).
    assert (ID : forall i, d_id (R6 i) = pub_key_to_hex (g i)) by (intros; apply KR).
    assert (K0 : forall i, d_k0 (R6 i) = key0 9 11 stale i (d_id (R6 i))) by (intros; apply KR).
    assert (K1 : forall i, d_k1 (R6 i) = key1 13 stale i (d_id (R6 i))) by (intros; apply KR).
    assert (PL : (9 < 11 < 13)%nat /\ d_valid (R6 (11 - 1)%nat) = true /\ d_valid (R6 (13 - 1)%nat) = true) by (repeat split; lia).
    assert (GOOD : forall i, (i < n)%nat -> d_valid (R6 i) = true ->
      i <> 9%nat /\ i <> 11%nat /\ i <> 13%nat /\ ok (d_0 (R6 i)) = true /\ ok (d_1 (R6 i)) = true).
    { intros i Hi Hv. cbn [R6 d_valid] in Hv. apply negb_true_iff in Hv.
      assert (C : ~ marked6 i = true) by congruence. rewrite marked6_cases in C.
      repeat split; try lia; apply (HR i Hi); auto. }
    assert (BAD : forall i, (i < n)%nat -> d_valid (R6 i) = false ->
      i = 9%nat \/ i = 11%nat \/ i = 13%nat \/ ok (d_0 (R6 i)) = false \/ ok (d_1 (R6 i)) = false).
    { intros i Hi Hv. cbn [R6 d_valid] in Hv. apply negb_false_iff, marked6_cases in Hv.
      destruct Hv as [H|[H|[H|H]]]; auto. do 3 right. now apply (HR i Hi). }
    pose proof (debug_accepted ok R6 g stale n 9 11 13 HG ID K0 K1 PL GOOD BAD REL) as HA.
    set (l6 := map R6 (seq 0 n)) in *.
    exists (map c_pk (valids l6)). rewrite D0, D1. split; [exact HA|].
    assert (F0 : forall i, (i < n)%nat -> marked6 i = false -> first_sub ok (dsubs0 l6) (d_id (R i)) = Some (d_0 (R i))).
    { intros i Hi Hm. apply (first0 ok R6 g stale n 9 11 13); auto. cbn. now rewrite Hm. }
    assert (F1 : forall i, (i < n)%nat -> marked6 i = false -> first_sub ok (dsubs1 l6) (d_id (R i)) = Some (d_1 (R i))).
    { intros i Hi Hm. apply (first1 ok R6 g stale n 9 11 13); auto. cbn. now rewrite Hm. }
    split.
    { rewrite map_length. unfold l6. rewrite valids_length, (left_over _ 14); [|lia|].
      - cbn. lia.
      - intros i Hi. cbn. apply negb_true_iff. destruct (marked6 i) eqn:X; auto. apply marked6_cases in X. lia. }
    assert (VE : forall r, In r (valids l) <-> exists i, (i < n)%nat /\ marked12 i = false /\
      r = mkC (d_id (R i)) (d_0 (R i)) (d_1 (R i)) (d_real (R i))).
    { intros r. rewrite E. split.
      - intros H. apply valid_rec in H as (i & Hi & Hv & ->). exists i. repeat split; auto.
        destruct (KR i) as (_ & _ & _ & D). rewrite D in Hv. now apply negb_true_iff.
      - intros (i & Hi & Hm & ->). unfold valids. apply in_map_iff. exists (R i). split; auto.
        apply filter_In. split; [apply in_map, in_seq; lia|]. destruct (KR i) as (_ & _ & _ & ->). now rewrite Hm. }
    cbv zeta. split.
    { rewrite E, valids_length.
      rewrite (filter_ext (fun i => d_valid (R i)) (fun i => negb (marked12 i))) by (intros; apply KR).
      rewrite (left_over _ 14); [cbn; lia|lia|].
      intros i Hi. apply negb_true_iff. destruct (marked12 i) eqn:X; auto. apply marked12_cases in X. lia. }
    split.
    { rewrite E. unfold valids. rewrite filter_map_seq, !map_map. cbn [c_pk]. apply (nodup_inj _ n).
      - apply NoDup_filter, seq_NoDup.
      - intros i Hi. apply filter_In in Hi as [Hi _]. apply in_seq in Hi. lia.
      - intros i j Hi Hj X. destruct HG as [HB HI]. rewrite !(proj1 (KR _)) in X. destruct (HB i), (HB j).
        apply pk_injective in X; auto. }
    split.
    { intros pk. split.
      - intros H. apply in_map_iff in H as (r & <- & Hr). apply VE in Hr as (i & Hi & Hm & ->). cbn [c_pk].
        pose proof (marked_weaker i Hm) as Hm6. split.
        + apply HA. rewrite F0, F1 by auto. split; discriminate.
        + unfold proved_at. rewrite F0, F1 by auto. now apply (HR i Hi).
      - intros [H HP]. apply in_map_iff in H as (r & <- & Hr). apply (valid_rec R6 n) in Hr as (i & Hi & Hv & ->).
        cbn [c_pk R6 d_id] in *. cbn [R6 d_valid] in Hv. apply negb_true_iff in Hv.
        unfold proved_at in HP. rewrite F0, F1 in HP by auto. apply in_map_iff.
        exists (mkC (d_id (R i)) (d_0 (R i)) (d_1 (R i)) (d_real (R i))). split; [reflexivity|]. apply VE. exists i.
        split; auto. split; auto. destruct (marked12 i) eqn:X; auto. exfalso.
        apply (HR i Hi) in HP; auto. now apply marked_between. }
    split.
    { intros j. unfold field_sum. rewrite map_map. f_equal. apply map_ext_in. intros r Hr.
      apply VE in Hr as (i & Hi & Hm & ->). cbn [c_pk c_0 c_1]. pose proof (marked_weaker i Hm) as Hm6.
      unfold combined. now rewrite F0, F1. }
    split.
    { exists (d_id (R 3%nat)). rewrite F1 by (try lia; reflexivity). discriminate. }
    rewrite <- D0, <- D1, E. unfold dsubs0, dsubs1.
    assert (KL : forall i, length (d_k0 (R i)) = 32%nat /\ length (d_k1 (R i)) = 32%nat).
    { apply (key_lengths ok R6 g stale n 9 11 13); auto. }
    repeat split; apply Forall_map, Forall_map, Forall_forall; intros i Hi; cbn [fst snd]; try apply KL;
      apply in_seq in Hi; apply (HR i); lia.
  Qed.
End Runs.

(** The loop over the requests. *)
Lemma invalid_loop {V W} c (one : cstate -> option (drec V W * cstate)) (Q : nat -> drec V W -> Prop) :
  (forall i s tabs, tabs_ok c tabs -> exists r s' tabs', one (i, s, tabs) = Some (r, (S i, s', tabs')) /\ tabs_ok c tabs' /\ Q i r) ->
  forall n i s tabs, tabs_ok c tabs -> exists l st', requests_opt one n (i, s, tabs) = Some (l, st') /\ length l = n /\
    forall k r, nth_error l k = Some r -> Q (i + k)%nat r.
Proof.
  intros H. induction n as [|n IH]; intros i s tabs HT; cbn [requests_opt].
  - exists [], (i, s, tabs). split; [reflexivity|]. split; [reflexivity|]. intros [|k] r E; discriminate.
  - destruct (H i s tabs HT) as (r & s' & tabs' & -> & HT' & HQ).
    destruct (IH (S i) s' tabs' HT') as (l & st' & -> & HL & HQs).
    exists (r :: l), st'. split; [reflexivity|]. split; [cbn; now rewrite HL|].
    intros [|k] r' E; cbn [nth_error] in E.
    + rewrite Nat.add_0_r. congruence.
    + rewrite Nat.add_succ_r. now apply HQs.
Qed.

(** Adding ten to a product below M^2 is always noticed. *)
Lemma ten_more nb t : (1 <= nb <= 24)%nat -> 0 <= t < 2 ^ Z.of_nat (2 * nb) ->
  ((t + 10) mod 2 ^ Z.of_nat (2 * nb)) mod p <> t mod p.
Proof.
  intros Hn Ht E. set (M2 := 2 ^ Z.of_nat (2 * nb)) in *.
  assert (E4 : exists q, M2 = 4 * q).
  { exists (2 ^ Z.of_nat (2 * nb - 2)). unfold M2. replace (Z.of_nat (2 * nb)) with (2 + Z.of_nat (2 * nb - 2)) by lia.
    rewrite Z.pow_add_r by lia. reflexivity. }
  assert (B : 4 <= M2 <= 2 ^ 48).
  { unfold M2. split; [change 4 with (2 ^ 2)|]; apply Z.pow_le_mono_r; lia. }
  pose proof (Z.mod_pos_bound (t + 10) M2 ltac:(lia)) as HB.
  pose proof (Z.div_mod (t + 10) M2 ltac:(lia)) as DM.
  set (k := (t + 10) / M2) in *. set (r := (t + 10) mod M2) in *.
  apply cong_iff in E. destruct E as [u Hu]. change p with P in Hu.
  assert (P1 : 2 ^ 48 < 2 * P) by reflexivity. assert (P2 : exists h, P = 2 * h + 1) by (exists ((P - 1) / 2); reflexivity).
  destruct E4 as [q Hq]. destruct P2 as [h Hh].
  assert (X : u * P = r - t) by lia. assert (X' : r - t = 10 - 4 * (q * k)) by (rewrite Hq in DM; lia).
  assert (Y : -2 < u < 2).
  { assert (-(2 * P) < u * P < 2 * P) as Z by lia. clear - Z. assert (0 < P) by reflexivity. nia. }
  generalize dependent (q * k). intros z X'. clear - X X' Y Hh.
  assert (u = 0 \/ u = 1 \/ u = -1) as [->|[->| ->]] by lia; lia.
Qed.
