(** * Relational reasoning about a pair of server programs *)
From Coq Require Import ZArith List Bool Lia.
From Verif Require Import Words WordsFacts Proc ProcFacts Net NetFacts SpecNet.
Import ListNotations.

(** Both terminate in every schedule, with results related by [R]. *)
Definition both {A B} (p : proc A) (q : proc B) (R : A -> B -> Prop) : Prop :=
  exists a b, always p q a b /\ R a b.

(** Same, with [conv]. *)
Definition rel {A B} (p : proc A) (q : proc B) (R : A -> B -> Prop) : Prop :=
  exists a b, conv p q a b /\ R a b.

Lemma rel_both {A B} (p : proc A) (q : proc B) R : rel p q R -> both p q R.
Proof. intros (a & b & H & HR). exists a, b. split; auto. now apply conv_always. Qed.

Lemma both_rel {A B} (p : proc A) (q : proc B) R : both p q R -> rel p q R.
Proof. intros (a & b & H & HR). exists a, b. split; auto. now apply always_conv. Qed.

Lemma rel_ret {A B} (a : A) (b : B) (R : A -> B -> Prop) : R a b -> rel (Ret a) (Ret b) R.
Proof. intros. exists a, b. split; auto. apply conv_ret. Qed.

Lemma rel_bind {A B A' B'} (p : proc A) (q : proc B) R (f : A -> proc A') (g : B -> proc B') S :
  rel p q R -> (forall a b, R a b -> rel (f a) (g b) S) -> rel (bind p f) (bind q g) S.
Proof.
  intros (a & b & H & HR) K. destruct (K a b HR) as (a' & b' & H' & HS).
  exists a', b'. split; auto. eapply conv_bind; eauto.
Qed.

Lemma rel_imp {A B} (p : proc A) (q : proc B) (R S : A -> B -> Prop) :
  rel p q R -> (forall a b, R a b -> S a b) -> rel p q S.
Proof. intros (a & b & H & HR) K. exists a, b. auto. Qed.

Lemma rel_runs {A B} (p p' : proc A) (q q' : proc B) R :
  runs p q p' q' -> rel p' q' R -> rel p q R.
Proof.
  intros H (a & b & H' & HR). exists a, b. split; auto. eapply runs_trans; eauto.
Qed.

Lemma rel_xchg {A B} m0 m1 n0 n1 (k : list Z -> proc A) (k' : list Z -> proc B) R :
  length m0 = n1 -> length m1 = n0 -> rel (k m1) (k' m0) R ->
  rel (Xchg m0 n0 k) (Xchg m1 n1 k') R.
Proof. intros. eapply rel_runs; [now apply runs_xchg|auto]. Qed.

Lemma rel_ot {A B} x ps cs (k : proc A) (k' : list Z -> proc B) R :
  length ps = length cs -> rel k (k' (map2 ot_select cs ps)) R ->
  rel (OTSend x ps k) (OTRecv x cs k') R.
Proof. intros. eapply rel_runs; [now apply runs_ot|auto]. Qed.

Lemma rel_ot' {A B} x ps cs (k' : list Z -> proc A) (k : proc B) R :
  length ps = length cs -> rel (k' (map2 ot_select cs ps)) k R ->
  rel (OTRecv x cs k') (OTSend x ps k) R.
Proof. intros. eapply rel_runs; [now apply runs_ot'|auto]. Qed.

Lemma rel_deliver {A B C} s (r : proc A) x (k : proc B) (k' : A -> proc C) R :
  delivers s r x -> rel k (k' x) R -> rel (s ;;; k) (bind r k') R.
Proof. intros. eapply rel_runs; [eapply delivers_runs; eassumption|auto]. Qed.

Lemma rel_deliver' {A B C} s (r : proc A) x (k : proc B) (k' : A -> proc C) R :
  delivers s r x -> rel (k' x) k R -> rel (bind r k') (s ;;; k) R.
Proof. intros. eapply rel_runs; [eapply delivers_runs'; eassumption|auto]. Qed.

Lemma rel_deliver_ret {A B} s (r : proc A) x (b : B) (f : A -> B) (R : B -> B -> Prop) :
  delivers s r x -> R b (f x) -> rel (s ;;; Ret b) (bind r (fun z => Ret (f z))) R.
Proof. intros. eapply rel_deliver; eauto. now apply rel_ret. Qed.

(** A receive that ends the program. *)
Lemma emits_bind_ret {B} s bs (b : B) : emits s bs tt -> emits (s ;;; Ret b) bs b.
Proof.
  intros H. rewrite <- (app_nil_r bs). eapply emits_bind; eauto. constructor.
Qed.
Lemma rel_deliver_end {A B} s (r : proc A) x (b : B) (R : B -> A -> Prop) :
  delivers s r x -> R b x -> rel (s ;;; Ret b) r R.
Proof.
  intros (bs & E & F) H. exists b, x. split; auto.
  eapply conv_emit_feed; [apply emits_bind_ret; exact E|].
  specialize (F []). rewrite app_nil_r in F. exact F.
Qed.

(** Iterating a relational step. *)
Lemma both_functional {A B} (p : proc A) (q : proc B) R a b :
  both p q R -> always p q a b -> R a b.
Proof.
  intros (a' & b' & H & HR) H'. destruct (always_functional _ _ _ _ _ _ H H') as [<- <-]. auto.
Qed.

Lemma conv_ot_ret {A B} x ps cs (a : A) (f : list Z -> B) :
  length ps = length cs ->
  conv (OTSend x ps (Ret a)) (OTRecv x cs (fun r => Ret (f r))) a (f (map2 ot_select cs ps)).
Proof. intros. exact (runs_ot x ps cs (Ret a) (fun r => Ret (f r)) H). Qed.
Lemma conv_xchg_ret {A B} m0 m1 n0 n1 (f : list Z -> A) (g : list Z -> B) :
  length m0 = n1 -> length m1 = n0 ->
  conv (Xchg m0 n0 (fun r => Ret (f r))) (Xchg m1 n1 (fun r => Ret (g r))) (f m1) (g m0).
Proof. intros. exact (runs_xchg m0 m1 n0 n1 (fun r => Ret (f r)) (fun r => Ret (g r)) H H0). Qed.
