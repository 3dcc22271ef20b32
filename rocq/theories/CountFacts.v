(** * Counting challenges *)
From Coq Require Import ZArith List Bool Lia.
From Verif Require Import Words Constants Share SpecPoly SpecCount.
Import ListNotations.
Open Scope Z_scope.
Local Notation P := Int_Modulus.
Opaque Int_Modulus.

(** ** Enumerations *)
Lemma nodup_app {A} (l l' : list A) : NoDup l -> NoDup l' -> (forall x, In x l -> ~ In x l') -> NoDup (l ++ l').
Proof.
  induction l as [|x l IH]; intros H H' D; auto. cbn. inversion H; subst. constructor.
  - rewrite in_app_iff. intros [?|?]; auto. exact (D x (or_introl eq_refl) H0).
  - apply IH; auto. intros y Hy. apply D. now right.
Qed.
Lemma nodup_map {A B} (f : A -> B) l : (forall x y, In x l -> In y l -> f x = f y -> x = y) -> NoDup l -> NoDup (map f l).
Proof.
  intros HI H. induction H as [|x l Hx H IH]; cbn; constructor.
  - rewrite in_map_iff. intros (y & E & Hy). apply Hx. rewrite <- (HI y x); auto; [now right|now left].
  - apply IH. intros; apply HI; auto; now right.
Qed.
Lemma nodup_prod {A B} (l : list A) (l' : list B) : NoDup l -> NoDup l' -> NoDup (list_prod l l').
Proof.
  intros H H'. induction H as [|x l Hx H IH]; cbn [list_prod]; [constructor|].
  apply nodup_app; auto.
  - apply nodup_map; auto. intros a b _ _ E. congruence.
  - intros [a b] Hin Hin'. apply in_map_iff in Hin as (y & E & _). injection E as -> ->.
    apply in_prod_iff in Hin'. apply Hx, Hin'.
Qed.

Definition elements : list Z := map Z.of_nat (seq 0 (Z.to_nat P)).
Lemma P_pos : 0 < P. Proof. Transparent Int_Modulus. reflexivity. Qed.
Opaque Int_Modulus.
Lemma in_elements x : In x elements <-> in_field P x.
Proof.
  pose proof P_pos. unfold elements, in_field. rewrite in_map_iff. split.
  - intros (n & <- & Hn%in_seq). lia.
  - intros Hx. exists (Z.to_nat x). rewrite in_seq. lia.
Qed.
Lemma nodup_elements : NoDup elements.
Proof. apply nodup_map; [intros; lia|apply seq_NoDup]. Qed.
Lemma length_elements : Z.of_nat (length elements) = P.
Proof. pose proof P_pos. unfold elements. rewrite map_length, seq_length. lia. Qed.

Fixpoint tuples (n : nat) : list (list Z) :=
  match n with
  | O => [[]]
  | S n => map (fun e => fst e :: snd e) (list_prod elements (tuples n))
  end.
Lemma in_tuples n : forall t, In t (tuples n) <-> length t = n /\ Forall (in_field P) t.
Proof.
  induction n as [|n IH]; intros t; cbn [tuples].
  - split; [intros [<-|[]]; auto|]. intros [E _]. left. destruct t; [auto|discriminate].
  - rewrite in_map_iff. split.
    + intros ([x t'] & <- & [Hx%in_elements Ht%IH]%in_prod_iff). cbn. destruct Ht. split; auto.
    + destruct t as [|x t]; [intros [E _]; discriminate|]. intros [E F]. inversion F; subst. exists (x, t). split; auto.
      apply in_prod_iff. rewrite in_elements, IH. auto.
Qed.
Lemma nodup_tuples n : NoDup (tuples n).
Proof.
  induction n as [|n IH]; cbn [tuples]; [constructor; [easy|constructor]|].
  apply nodup_map; [|apply nodup_prod; auto using nodup_elements].
  intros [a b] [a' b'] _ _. cbn. congruence.
Qed.
Lemma length_tuples n : Z.of_nat (length (tuples n)) = P ^ Z.of_nat n.
Proof.
  induction n as [|n IH]; [reflexivity|]. cbn [tuples].
  rewrite map_length, prod_length, Nat2Z.inj_mul, length_elements, IH, Nat2Z.inj_succ, Z.pow_succ_r; lia.
Qed.

Lemma length_pairs (l : list Z) n : Z.of_nat (length (list_prod l (tuples n))) = Z.of_nat (length l) * P ^ Z.of_nat n.
Proof. now rewrite prod_length, Nat2Z.inj_mul, length_tuples. Qed.

Lemma challenges_exactly n : exactly (P ^ Z.of_nat (S n)) (challenges n).
Proof.
  exists (list_prod elements (tuples n)). split; [apply nodup_prod; auto using nodup_elements, nodup_tuples|].
  split.
  - intros [r t]. etransitivity; [apply in_prod_iff|]. rewrite in_elements, in_tuples. unfold challenges. cbn. tauto.
  - etransitivity; [apply length_pairs|]. rewrite length_elements, Nat2Z.inj_succ, Z.pow_succ_r; lia.
Qed.

(** ** Counting principles *)
Lemma at_most_incl {D} m m' (A A' : D -> Prop) : m <= m' -> (forall d, A' d -> A d) -> at_most m A -> at_most m' A'.
Proof.
  intros Hm HI H E ND F. transitivity m; auto. apply H; auto. eapply Forall_impl; eauto.
Qed.
Lemma at_most_list {D} (l : list D) (A : D -> Prop) : (forall d, A d -> In d l) -> at_most (Z.of_nat (length l)) A.
Proof.
  intros H E ND F. apply inj_le, NoDup_incl_length; auto. intros d Hd. apply H. rewrite Forall_forall in F. auto.
Qed.

(** A listed union. *)
Lemma at_most_none {D} (A : D -> Prop) : (forall d, ~ A d) -> at_most 0 A.
Proof. intros H. apply (at_most_list []). intros d Hd. exact (H d Hd). Qed.

Definition eq_challenge (e e' : challenge) : {e = e'} + {e <> e'}.
Proof. repeat decide equality. Defined.

(** A list all of whose members have [A] or [B] splits. *)
Lemma split_list {D} (A B : D -> Prop) E : NoDup E -> Forall (fun d => A d \/ B d) E ->
  exists E1 E2, NoDup E1 /\ NoDup E2 /\ Forall A E1 /\ Forall B E2 /\ length E = (length E1 + length E2)%nat /\
    incl E1 E /\ incl E2 E.
Proof.
  intros ND. induction ND as [|x E Hx ND IH]; intros F.
  - exists [], []. repeat split; try constructor; intros ? [].
  - inversion F; subst. destruct IH as (E1 & E2 & N1 & N2 & F1 & F2 & L & I1 & I2); auto. destruct H1 as [Hd|Hd].
    + exists (x :: E1), E2. split; [constructor; auto|]. split; auto. split; [constructor; auto|]. split; auto.
      split; [cbn; lia|]. split; [|now apply incl_tl]. intros y [->|Hy]; [now left|right; auto].
    + exists E1, (x :: E2). split; auto. split; [constructor; auto|]. split; auto. split; [constructor; auto|].
      split; [cbn; lia|]. split; [now apply incl_tl|]. intros y [->|Hy]; [now left|right; auto].
Qed.
Lemma at_most_union {D} m m' (A B : D -> Prop) : at_most m A -> at_most m' B -> at_most (m + m') (fun d => A d \/ B d).
Proof.
  intros HA HB E ND F. destruct (split_list A B E ND F) as (E1 & E2 & N1 & N2 & F1 & F2 & -> & _).
  pose proof (HA E1 N1 F1). pose proof (HB E2 N2 F2). lia.
Qed.
Lemma at_most_exists {D I} m (l : list I) (A : I -> D -> Prop) : (forall i, In i l -> at_most m (A i)) ->
  at_most (Z.of_nat (length l) * m) (fun d => exists i, In i l /\ A i d).
Proof.
  induction l as [|i l IH]; intros H.
  - apply at_most_none. intros d (? & [] & _).
  - apply at_most_incl with (m := m + Z.of_nat (length l) * m) (A := fun d => A i d \/ exists j, In j l /\ A j d).
    + cbn [length]. lia.
    + intros d (j & [<-|Hj] & Hd); eauto.
    + apply at_most_union; [apply H; now left|]. apply IH. intros j Hj. apply H. now right.
Qed.

(** Finite choice along a list. *)
Lemma choose {D J} (dec : forall d d' : D, {d = d'} + {d <> d'}) (R : D -> J -> Prop) (j0 : J) E :
  (forall d, In d E -> exists j, R d j) -> exists f, forall d, In d E -> R d (f d).
Proof.
  induction E as [|x E IH]; intros H; [exists (fun _ => j0); intros ? []|].
  destruct IH as [f Hf]; [intros d Hd; apply H; now right|]. destruct (H x (or_introl eq_refl)) as [j Hj].
  exists (fun d => if dec x d then j else f d). intros d [<-|Hd].
  - destruct (dec x x); congruence.
  - destruct (dec x d) as [<-|]; auto.
Qed.

(** If, except at [B] points, two accepted coefficient lists never differ in exactly
    one place chosen for the point, then few challenges are accepted. *)
Section Core.
  Variables (n : nat) (Acc : Z -> list Z -> Prop) (bad : list Z).
  Hypothesis HA : forall r, in_field P r -> ~ In r bad -> exists q, (q < n)%nat /\
    forall t t', length t = n -> length t' = n -> Forall (in_field P) t -> Forall (in_field P) t' ->
      Acc r t -> Acc r t' -> firstn q t = firstn q t' -> skipn (S q) t = skipn (S q) t' -> t = t'.

  Lemma count_bad : at_most (Z.of_nat (length bad) * P ^ Z.of_nat n) (fun e => challenges n e /\ In (fst e) bad).
  Proof.
    apply at_most_incl with (m := Z.of_nat (length (list_prod bad (tuples n)))) (A := fun e => In e (list_prod bad (tuples n))).
    - rewrite length_pairs. lia.
    - intros [r t] [(Hr & Ht) Hb]. cbn [fst snd] in *. apply in_prod_iff. rewrite in_tuples. auto.
    - apply at_most_list. auto.
  Qed.

  Lemma count_good : at_most (P ^ Z.of_nat n) (fun e => (challenges n e /\ Acc (fst e) (snd e)) /\ ~ In (fst e) bad).
  Proof.
    intros E ND F. rewrite Forall_forall in F.
    destruct (choose Z.eq_dec (fun r q => (q < n)%nat /\
      forall t t', length t = n -> length t' = n -> Forall (in_field P) t -> Forall (in_field P) t' ->
      Acc r t -> Acc r t' -> firstn q t = firstn q t' -> skipn (S q) t = skipn (S q) t' -> t = t') 0%nat (map fst E)) as [q Hq].
    { intros r (e & <- & He)%in_map_iff. destruct (F e He) as [[[Hr _] _] Hb]. exact (HA (fst e) Hr Hb). }
    set (drop := fun e : challenge => (fst e, firstn (q (fst e)) (snd e) ++ skipn (S (q (fst e))) (snd e))).
    assert (ND' : NoDup (map drop E)).
    { apply nodup_map; auto. intros [r t] [r' t'] He He' Ed. unfold drop in Ed. cbn [fst snd] in Ed.
      pose proof (f_equal fst Ed) as E1. apply (f_equal snd) in Ed. cbn [fst snd] in E1, Ed. subst r'.
      destruct (F _ He) as [[(Hr & Lt & Ft) At] _], (F _ He') as [[(_ & Lt' & Ft') At'] _]. cbn [fst snd] in *.
      destruct (Hq r) as [Hn HU]; [apply in_map_iff; exists (r, t); auto|].
      apply (f_equal (fun x => (firstn (q r) x, skipn (q r) x))) in Ed.
      rewrite !firstn_app, !skipn_app, !firstn_firstn, !skipn_firstn_comm, !firstn_length, Lt, Lt', !Nat.min_id in Ed.
      replace (Nat.min (q r) n) with (q r) in Ed by lia.
      rewrite Nat.sub_diag in Ed. cbn [firstn skipn] in Ed. rewrite !app_nil_r in Ed. cbn [app] in Ed.
      f_equal. apply HU; auto; [exact (f_equal fst Ed)|exact (f_equal snd Ed)]. }
    assert (Hn : E = [] \/ (0 < n)%nat).
    { destruct E as [|e E']; auto. right. destruct (Hq (fst e)) as [Hn _]; [now left|lia]. }
    destruct Hn as [->|Hn0]; [cbn; apply Z.pow_nonneg; pose proof P_pos; lia|].
    transitivity (Z.of_nat (length (list_prod elements (tuples (pred n))))).
    { rewrite <- (map_length drop). apply inj_le, NoDup_incl_length; auto. intros e (e' & <- & He)%in_map_iff.
      destruct (F _ He) as [[(Hr & Lt & Ft) _] _]. destruct (Hq (fst e')) as [Hn _]; [now apply in_map|].
      unfold drop. apply in_prod_iff. rewrite in_elements, in_tuples. split; auto. split.
      - rewrite app_length, firstn_length, skipn_length. lia.
      - apply Forall_app. rewrite <- (firstn_skipn (q (fst e')) (snd e')), Forall_app in Ft. split; [apply Ft|].
        destruct Ft as [_ Ft]. clear -Ft. change (S (q (fst e'))) with (1 + q (fst e'))%nat.
        revert Ft. generalize (snd e'). induction (q (fst e')) as [|k IH]; intros l Ft; destruct l as [|x l]; cbn in *; auto.
        now inversion Ft. }
    replace (Z.of_nat n) with (Z.succ (Z.of_nat (pred n))) by lia.
    rewrite length_pairs, length_elements, Z.pow_succ_r; lia.
  Qed.

  Lemma count_accepted : at_most ((Z.of_nat (length bad) + 1) * P ^ Z.of_nat n) (fun e => challenges n e /\ Acc (fst e) (snd e)).
  Proof.
    eapply at_most_incl; [| |apply (at_most_union _ _ _ _ count_bad count_good)]; [lia|].
    cbv beta. intros e [C A]. destruct (in_dec Z.eq_dec (fst e) bad); auto.
  Qed.
End Core.
