(** * Debugging runs: proofs for C56 *)
From Coq Require Import ZArith List Bool Lia Permutation.
From Verif Require Import Words WordsFacts Constants Proc ProcFacts Net NetFacts SpecNet RelFacts
  ServerOps SpecServer TableFacts ServerFacts ServerProps ServerCor ClientOps SpecClient ClientFacts ClientProps
  DebugOps SpecDebug.
Import ListNotations.
Open Scope Z_scope.

Lemma key_eqb_true a b : key_eqb a b = true <-> a = b.
Proof. unfold key_eqb. destruct (list_eq_dec Z.eq_dec a b); split; congruence. Qed.

Section Lists.
Context {V : Type} (ok : V -> bool) (k : nat -> list Z) (v : nat -> V).

Lemma first_at key i : forall n s, (s <= i < s + n)%nat -> k i = key -> ok (v i) = true ->
  (forall j, (s <= j < i)%nat -> k j = key -> ok (v j) = false) ->
  first_sub ok (map (fun j => (k j, v j)) (seq s n)) key = Some (v i).
Proof.
  induction n as [|n IH]; intros s Hi E O F; [lia|]. cbn [seq map first_sub].
  destruct (Nat.eq_dec s i) as [->|N].
  - rewrite O, (proj2 (key_eqb_true (k i) key) E). reflexivity.
  - destruct (key_eqb (k s) key) eqn:Q; cbn [andb].
    + apply key_eqb_true in Q. rewrite (F s) by (auto; lia). apply IH; auto; [lia|]. intros; apply F; auto; lia.
    + apply IH; auto; [lia|]. intros; apply F; auto; lia.
Qed.

Lemma first_some key n s : first_sub ok (map (fun j => (k j, v j)) (seq s n)) key <> None <->
  exists j, (s <= j < s + n)%nat /\ k j = key /\ ok (v j) = true.
Proof.
  revert s. induction n as [|n IH]; intros s; cbn [seq map first_sub].
  - split; [easy|]. intros (j & Hj & _). lia.
  - destruct (key_eqb (k s) key && ok (v s)) eqn:Q.
    + apply andb_true_iff in Q as [Q1 Q2]. apply key_eqb_true in Q1. split; [|discriminate].
      intros _. exists s. repeat split; auto; lia.
    + rewrite IH. split.
      * intros (j & Hj & A). exists j. split; [lia|auto].
      * intros (j & Hj & A & B). exists j. split; [|auto]. destruct (Nat.eq_dec j s) as [->|]; [|lia].
        rewrite (proj2 (key_eqb_true _ _) A), B in Q. discriminate.
Qed.
End Lists.

Lemma filter_map_seq {A} (f : A -> bool) (R : nat -> A) l :
  filter f (map R l) = map R (filter (fun i => f (R i)) l).
Proof. induction l as [|i l IH]; cbn; [reflexivity|]. destruct (f (R i)); cbn; now rewrite IH. Qed.

(** ** The identities accepted by both servers are those not marked *)
Definition blocks_ok (g : prg) (n : nat) : Prop :=
  (forall i, length (g i) = 16%nat /\ Forall is_byte (g i)) /\
  (forall i j, (i < n)%nat -> (j < n)%nat -> g i = g j -> i = j).
Lemma prg_blocks g n : prg_ok g -> Z.of_nat n < two64 -> blocks_ok g n.
Proof. intros [A B] H. split; auto. intros i j Hi Hj. apply B; lia. Qed.

Section Run.
Context {V W : Type} (ok : V -> bool) (R : nat -> drec V W).
Variables (g : prg) (stale : nat -> list Z) (n iq i0 i1 : nat).
Hypothesis HG : blocks_ok g n.
Hypothesis ID : forall i, d_id (R i) = pub_key_to_hex (g i).
Hypothesis K0 : forall i, d_k0 (R i) = key0 iq i0 stale i (d_id (R i)).
Hypothesis K1 : forall i, d_k1 (R i) = key1 i1 stale i (d_id (R i)).
Hypothesis PL : (iq < i0 < i1)%nat /\ d_valid (R (i0 - 1)) = true /\ d_valid (R (i1 - 1)) = true.
Hypothesis GOOD : forall i, (i < n)%nat -> d_valid (R i) = true ->
  i <> iq /\ i <> i0 /\ i <> i1 /\ ok (d_0 (R i)) = true /\ ok (d_1 (R i)) = true.
Hypothesis BAD : forall i, (i < n)%nat -> d_valid (R i) = false ->
  i = iq \/ i = i0 \/ i = i1 \/ ok (d_0 (R i)) = false \/ ok (d_1 (R i)) = false.
Hypothesis REL : released_ok g stale n iq i0 i1.

Let l := map R (seq 0 n).

Lemma id_inj i j : (i < n)%nat -> (j < n)%nat -> d_id (R i) = d_id (R j) -> i = j.
Proof.
  intros Hi Hj E. rewrite !ID in E. destruct HG as [HB HI]. destruct (HB i), (HB j).
  apply pk_injective in E; auto.
Qed.
Lemma id_shape i : length (d_id (R i)) = 32%nat /\ Forall is_hex (d_id (R i)).
Proof. rewrite ID. destruct HG as [HB _]. destruct (HB i). destruct (pk_spec (g i)) as (A & B & _); auto. Qed.
Lemma q_not_id i j : with_q (d_id (R i)) <> d_id (R j).
Proof.
  unfold with_q. intros E. destruct (id_shape j) as [_ F]. rewrite <- E in F. apply Forall_inv in F.
  destruct F; lia.
Qed.
Lemma k0_plain i : i <> iq -> i <> i0 -> d_k0 (R i) = d_id (R i).
Proof. intros. rewrite K0. unfold key0. destruct (Nat.eqb_spec i iq), (Nat.eqb_spec i i0); congruence. Qed.
Lemma k0_q : d_k0 (R iq) = with_q (d_id (R iq)).
Proof. rewrite K0. unfold key0. now rewrite Nat.eqb_refl. Qed.
Lemma k0_prev : d_k0 (R i0) = stale i0.
Proof. rewrite K0. unfold key0. destruct (Nat.eqb_spec i0 iq); [lia|]. now rewrite Nat.eqb_refl. Qed.
Lemma k1_plain i : i <> i1 -> d_k1 (R i) = d_id (R i).
Proof. intros. rewrite K1. unfold key1. destruct (Nat.eqb_spec i i1); congruence. Qed.
Lemma k1_prev : d_k1 (R i1) = stale i1.
Proof. rewrite K1. unfold key1. now rewrite Nat.eqb_refl. Qed.

Lemma dsubs0_form : dsubs0 l = map (fun j => (d_k0 (R j), d_0 (R j))) (seq 0 n).
Proof. unfold dsubs0, l. now rewrite map_map. Qed.
Lemma dsubs1_form : dsubs1 l = map (fun j => (d_k1 (R j), d_1 (R j))) (seq 0 n).
Proof. unfold dsubs1, l. now rewrite map_map. Qed.

Lemma stale0_id i : (i < n)%nat -> stale i0 = d_id (R i) -> stale i0 = d_id (R (i0 - 1)%nat).
Proof.
  intros Hi E. destruct REL as (_ & _ & [A|A] & _); [now rewrite ID|].
  elim (A i Hi). now rewrite E, ID.
Qed.
Lemma stale1_id i : (i < n)%nat -> stale i1 = d_id (R i) -> stale i1 = d_id (R (i1 - 1)%nat).
Proof.
  intros Hi E. destruct REL as (_ & _ & _ & [A|(A & _)]); [now rewrite ID|].
  elim (A i Hi). now rewrite E, ID.
Qed.

Lemma first0 i : (i < n)%nat -> d_valid (R i) = true ->
  first_sub ok (dsubs0 l) (d_id (R i)) = Some (d_0 (R i)).
Proof.
  intros Hi Hv. rewrite dsubs0_form. destruct (GOOD i Hi Hv) as (Nq & N0 & N1 & O0 & _).
  apply (first_at ok (fun j => d_k0 (R j)) (fun j => d_0 (R j))); auto; [lia|now apply k0_plain|].
  intros j Hj E. exfalso. destruct (Nat.eq_dec j iq) as [->|Jq].
  { rewrite k0_q in E. now apply q_not_id in E. }
  destruct (Nat.eq_dec j i0) as [->|J0].
  { rewrite k0_prev in E. pose proof (stale0_id i Hi E) as E'. rewrite E in E'.
    apply id_inj in E'; lia. }
  rewrite k0_plain in E by auto. apply id_inj in E; lia.
Qed.
Lemma first1 i : (i < n)%nat -> d_valid (R i) = true ->
  first_sub ok (dsubs1 l) (d_id (R i)) = Some (d_1 (R i)).
Proof.
  intros Hi Hv. rewrite dsubs1_form. destruct (GOOD i Hi Hv) as (Nq & N0 & N1 & _ & O1).
  apply (first_at ok (fun j => d_k1 (R j)) (fun j => d_1 (R j))); auto; [lia|now apply k1_plain|].
  intros j Hj E. exfalso. destruct (Nat.eq_dec j i1) as [->|J1].
  { rewrite k1_prev in E. pose proof (stale1_id i Hi E) as E'. rewrite E in E'.
    apply id_inj in E'; lia. }
  rewrite k1_plain in E by auto. apply id_inj in E; lia.
Qed.

Lemma valids_form : valids l = map (fun i => mkC (d_id (R i)) (d_0 (R i)) (d_1 (R i)) (d_real (R i)))
  (filter (fun i => d_valid (R i)) (seq 0 n)).
Proof. unfold valids, l. now rewrite filter_map_seq, map_map. Qed.

Lemma in_valids r : In r (valids l) -> exists i, (i < n)%nat /\ d_valid (R i) = true /\
  r = mkC (d_id (R i)) (d_0 (R i)) (d_1 (R i)) (d_real (R i)).
Proof.
  rewrite valids_form. intros H. apply in_map_iff in H as (i & <- & H). apply filter_In in H as [H Hv].
  apply in_seq in H. exists i. repeat split; auto. lia.
Qed.

Lemma ids_nodup : NoDup (map c_pk (valids l)).
Proof.
  rewrite valids_form, map_map. cbn [c_pk].
  assert (H : forall s, NoDup s -> Forall (fun i => (i < n)%nat) s -> NoDup (map (fun i => d_id (R i)) s)).
  { induction s as [|i s IH]; intros ND F; [constructor|]. cbn. apply Forall_cons_iff in F as [Hi F].
    apply NoDup_cons_iff in ND as [NI ND]. constructor; auto. intros H. apply in_map_iff in H as (j & E & Hj).
    rewrite Forall_forall in F. apply id_inj in E; auto. congruence. }
  apply H; [apply NoDup_filter, seq_NoDup|]. apply Forall_forall. intros i Hi. apply filter_In in Hi as [Hi _].
  apply in_seq in Hi. lia.
Qed.

Lemma both_servers key j j' : (j < n)%nat -> (j' < n)%nat ->
  d_k0 (R j) = key -> ok (d_0 (R j)) = true -> d_k1 (R j') = key -> ok (d_1 (R j')) = true ->
  exists i, (i < n)%nat /\ d_valid (R i) = true /\ d_id (R i) = key.
Proof.
  intros Hj Hj' E O E' O'. destruct PL as ((L0 & L1) & V0 & V1).
  assert (P0 : (i0 - 1 < n)%nat -> stale i0 = d_id (R (i0 - 1)) -> key = stale i0 ->
    exists i, (i < n)%nat /\ d_valid (R i) = true /\ d_id (R i) = key)
    by (intros; exists (i0 - 1)%nat; repeat split; auto; congruence).
  assert (P1 : (i1 - 1 < n)%nat -> stale i1 = d_id (R (i1 - 1)) -> key = stale i1 ->
    exists i, (i < n)%nat /\ d_valid (R i) = true /\ d_id (R i) = key)
    by (intros; exists (i1 - 1)%nat; repeat split; auto; congruence).
  destruct (Nat.eq_dec j' i1) as [->|J1].
  - (* server 1's record with the released buffer *)
    rewrite k1_prev in E'. destruct REL as (_ & _ & _ & [A|(A & AQ & A0)]).
    { apply P1; auto; [lia|]. now rewrite ID. }
    exfalso. destruct (Nat.eq_dec j iq) as [->|Jq]; [rewrite k0_q, ID in E; congruence|].
    destruct (Nat.eq_dec j i0) as [->|J0]; [rewrite k0_prev in E; congruence|].
    rewrite k0_plain, ID in E by auto. apply (A j Hj). congruence.
  - rewrite k1_plain in E' by auto. destruct (Nat.eq_dec j iq) as [->|Jq].
    { rewrite k0_q in E. exfalso. apply (q_not_id iq j'). congruence. }
    destruct (Nat.eq_dec j i0) as [->|J0].
    { rewrite k0_prev in E. apply P0; auto; [lia|]. apply (stale0_id j' Hj'). congruence. }
    rewrite k0_plain in E by auto. assert (j = j') as <- by (apply id_inj; auto; congruence).
    exists j. repeat split; auto. destruct (d_valid (R j)) eqn:Hv; auto. exfalso.
    destruct (BAD j Hj Hv) as [?|[?|[?|[?|?]]]]; congruence.
Qed.

Lemma debug_accepted : accepted ok (dsubs0 l) (dsubs1 l) (map c_pk (valids l)).
Proof.
  split; [exact ids_nodup|]. intros pk. split.
  - intros H. apply in_map_iff in H as (r & <- & Hr). apply in_valids in Hr as (i & Hi & Hv & ->).
    cbn [c_pk]. rewrite first0, first1 by auto. split; discriminate.
  - intros [A B]. rewrite dsubs0_form in A. rewrite dsubs1_form in B.
    apply (first_some ok (fun j => d_k0 (R j)) (fun j => d_0 (R j))) in A as (j & Hj & E & O).
    apply (first_some ok (fun j => d_k1 (R j)) (fun j => d_1 (R j))) in B as (j' & Hj' & E' & O').
    destruct (both_servers pk j j') as (i & Hi & Hv & <-); auto; try lia.
    rewrite valids_form, map_map. cbn [c_pk]. apply in_map_iff. exists i. split; auto.
    apply filter_In. split; auto. apply in_seq. lia.
Qed.

Lemma debug_combined {X} (f : V -> V -> X) d :
  map (combined ok f d (dsubs0 l) (dsubs1 l)) (map c_pk (valids l)) =
  map (fun r => f (c_0 r) (c_1 r)) (valids l).
Proof.
  rewrite map_map. apply map_ext_in. intros r Hr. apply in_valids in Hr as (i & Hi & Hv & ->).
  cbn [c_pk c_0 c_1]. unfold combined. now rewrite first0, first1.
Qed.

Lemma key_lengths i : length (d_k0 (R i)) = 32%nat /\ length (d_k1 (R i)) = 32%nat.
Proof.
  destruct (id_shape i) as [L _]. destruct REL as (S0 & S1 & _). rewrite K0, K1. unfold key0, key1.
  split.
  - destruct (Nat.eqb_spec i iq); [unfold with_q; cbn [length]; rewrite skipn_length, L; lia|].
    destruct (Nat.eqb_spec i i0) as [->|]; auto.
  - destruct (Nat.eqb_spec i i1) as [->|]; auto.
Qed.

Lemma debug_arrives0 enc : Z.of_nat n < two32 -> arrives enc n (wire enc (dsubs0 l)) (dsubs0 l).
Proof.
  intros H. exists []. split; [now rewrite app_nil_r|]. unfold dsubs0, l.
  split; [left; now rewrite !map_length, seq_length|].
  split; [|now rewrite !map_length, seq_length].
  apply Forall_map, Forall_map, Forall_forall. intros i _. apply key_lengths.
Qed.
Lemma debug_arrives1 enc : Z.of_nat n < two32 -> arrives enc n (wire enc (dsubs1 l)) (dsubs1 l).
Proof.
  intros H. exists []. split; [now rewrite app_nil_r|]. unfold dsubs1, l.
  split; [left; now rewrite !map_length, seq_length|].
  split; [|now rewrite !map_length, seq_length].
  apply Forall_map, Forall_map, Forall_forall. intros i _. apply key_lengths.
Qed.
End Run.
