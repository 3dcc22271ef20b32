(** Facts about servers that log what they receive. *)
From Coq Require Import ZArith List Bool Lia Permutation.
From Verif Require Import Words WordsFacts Constants Share Proc ProcFacts Net NetFacts SpecNet NetMsg RelFacts ServerOps SpecServer TableFacts ServerFacts SpecPrivacy.
Import ListNotations.
Open Scope Z_scope.

(** ** Programs of the same shape *)
Inductive corr {A B} (R : A -> B -> Prop) : proc A -> proc B -> Prop :=
| co_ret a b : R a b -> corr R (Ret a) (Ret b)
| co_undef : corr R Undef Undef
| co_send bs k k' : corr R k k' -> corr R (Send bs k) (Send bs k')
| co_recv n k k' : (forall l, corr R (k l) (k' l)) -> corr R (Recv n k) (Recv n k')
| co_xchg bs n k k' : (forall l, corr R (k l) (k' l)) -> corr R (Xchg bs n k) (Xchg bs n k')
| co_ots i ps k k' : corr R k k' -> corr R (OTSend i ps k) (OTSend i ps k')
| co_otr i cs k k' : (forall l, corr R (k l) (k' l)) -> corr R (OTRecv i cs k) (OTRecv i cs k').

Lemma corr_lstep {A B} (R : A -> B -> Prop) p q : corr R p q -> forall a p', lstep p a p' ->
  exists q', lstep q a q' /\ corr R p' q'.
Proof.
  intros C a p' S. destruct S; inversion C; subst; eexists; (split; [constructor|]); auto; constructor; auto.
Qed.
Lemma corr_step {A B D} (R : A -> B -> Prop) cap (c d : config A D) p : corr R (proc0 c) p -> step cap c d ->
  exists p', step cap (Cfg p (proc1 c) (ch01 c) (ch10 c)) (Cfg p' (proc1 d) (ch01 d) (ch10 d)) /\ corr R (proc0 d) p'.
Proof.
  intros C S. destruct S; cbn [proc0 proc1 ch01 ch10] in *.
  - destruct (corr_lstep R _ _ C _ _ H) as (q' & S & C'). exists q'. split; [eapply st_0; eauto|exact C'].
  - exists p. split; [eapply st_1; eauto|exact C].
  - inversion C; subst. eexists. split; [apply st_ot01; auto|assumption].
  - inversion C; subst. eexists. split; [apply st_ot10; auto|]. auto.
Qed.
Lemma corr_steps {A B D} (R : A -> B -> Prop) cap n (c d : config A D) : steps cap n c d -> forall p, corr R (proc0 c) p ->
  exists p', steps cap n (Cfg p (proc1 c) (ch01 c) (ch10 c)) (Cfg p' (proc1 d) (ch01 d) (ch10 d)) /\ corr R (proc0 d) p'.
Proof.
  induction 1 as [c|n c d e S _ IH]; intros p C.
  - exists p. split; [constructor|exact C].
  - destruct (corr_step R cap c d p C S) as (p1 & S1 & C1). destruct (IH p1 C1) as (p2 & S2 & C2).
    exists p2. split; [econstructor; eauto|exact C2].
Qed.
Lemma corr_conv {A B D} (R : A -> B -> Prop) p p' (q : proc D) a d :
  (forall a b b', R a b -> R a b' -> b = b') ->
  corr R p p' -> conv p q a d -> exists b, R a b /\ conv p' q b d.
Proof.
  intros U C H.
  destruct (H 1%nat ltac:(lia)) as (n & S). destruct (corr_steps R _ _ _ _ S p' C) as (p2 & _ & C2).
  cbn [start proc0] in C2. inversion C2 as [a0 b Rab E1 E2| | | | | |]; subst. exists b. split; [exact Rab|].
  intros cap Hc. destruct (H cap Hc) as (n' & S'). exists n'.
  destruct (corr_steps R _ _ _ _ S' p' C) as (p3 & S3 & C3). cbn [start proc0 proc1 ch01 ch10] in *.
  inversion C3 as [a1 b1 Rab1 F1 F2| | | | | |]; subst. rewrite (U _ _ _ Rab Rab1). exact S3.
Qed.

Lemma corr_refl {A} (p : proc A) : corr eq p p.
Proof. induction p; constructor; auto. Qed.
Lemma corr_bind {A B A' B'} (R : A -> B -> Prop) (R' : A' -> B' -> Prop) p p' k k' :
  corr R p p' -> (forall a b, R a b -> corr R' (k a) (k' b)) -> corr R' (bind p k) (bind p' k').
Proof. induction 1; intros K; cbn [bind]; try (constructor; auto); auto. Qed.

(** The log does not disturb the program. *)
Lemma corr_logged {A} (p : proc A) : forall log, corr (fun v a => snd v = a) (logged log p) p.
Proof. induction p; intros log; cbn [logged]; constructor; auto. Qed.
Lemma conv_unlog {A B} (p : proc A) (q : proc B) v b : conv (logged [] p) q v b -> conv p q (snd v) b.
Proof.
  intros H. destruct (corr_conv (fun v a => snd v = a) (logged [] p) p q v b) as (a & E & C); auto.
  - intros; congruence.
  - apply corr_logged.
  - now rewrite E.
Qed.

Lemma corr_logged_bind {A B} (p : proc A) (k : A -> proc B) : forall log,
  corr eq (logged log (bind p k)) (bind (logged log p) (fun v => logged (fst v) (k (snd v)))).
Proof.
  induction p; intros log; cbn [logged bind]; try (constructor; auto).
  cbn [fst snd]. apply corr_refl.
Qed.
Lemma corr_sym {A} (p q : proc A) : corr eq p q -> corr eq q p.
Proof. induction 1; constructor; auto. Qed.
Lemma conv_corr {A B} (p p' : proc A) (q : proc B) a b : corr eq p p' -> conv p' q a b -> conv p q a b.
Proof.
  intros C H. destruct (corr_conv eq p' p q a b ltac:(intros; congruence) (corr_sym _ _ C) H) as (a' & <- & H').
  exact H'.
Qed.
Lemma conv_logged_bind {A B C D} (p : proc A) (k : A -> proc B) (q : proc C) (k' : C -> proc D) log v c u w :
  conv (logged log p) q v c -> conv (logged (fst v) (k (snd v))) (k' c) u w ->
  conv (logged log (bind p k)) (bind q k') u w.
Proof.
  intros H1 H2. eapply conv_corr; [apply corr_logged_bind|].
  exact (conv_bind _ _ _ _ _ _ _ _ H1 H2).
Qed.
Lemma conv_swap {A B} (p : proc A) (q : proc B) a b : conv p q a b -> conv q p b a.
Proof. intros H. apply runs_swap. exact H. Qed.

(** ** Messages *)
Lemma emits_logged {A} (s : proc A) bs a : emits s bs a -> forall log, emits (logged log s) bs (log, a).
Proof. intros H log. induction H; cbn [logged]; constructor; auto. Qed.
Lemma feed_logged {A} (r : proc A) : forall s x rest, feed r s = Some (x, rest) ->
  exists c, s = c ++ rest /\ forall log, feed (logged log r) s = Some ((log ++ c, x), rest).
Proof.
  induction r; intros s x rest F; cbn [feed logged] in *; try discriminate.
  - injection F as -> ->. exists []. split; [reflexivity|]. intros log. now rewrite app_nil_r.
  - destruct (Nat.leb_spec n (length s)) as [L|L]; [|discriminate].
    destruct (H _ _ _ _ F) as (c & E & K). exists (firstn n s ++ c). split.
    + rewrite <- app_assoc, <- E. symmetry. apply firstn_skipn.
    + intros log. rewrite K. now rewrite app_assoc.
Qed.

(** What a program that only sends puts on the wire. *)
Fixpoint sent_by {A} (p : proc A) : list Z :=
  match p with Send bs k => bs ++ sent_by k | _ => [] end.
Lemma emits_sent {A} (p : proc A) bs a : emits p bs a -> sent_by p = bs.
Proof. induction 1; cbn; congruence. Qed.

Lemma delivers_feed {A} s (r : proc A) x : delivers s r x ->
  emits s (sent_by s) tt /\ forall log rest, feed (logged log r) (sent_by s ++ rest) = Some ((log ++ sent_by s, x), rest).
Proof.
  intros (bs & E & F). rewrite (emits_sent _ _ _ E). split; [exact E|]. intros log rest.
  destruct (feed_logged r _ _ _ (F rest)) as (c & Ec & K). apply app_inv_tail in Ec. subst c. apply K.
Qed.
(** The logging server receives a message. *)
Lemma log_receive {A B C} s (r : proc A) x (k' : A -> proc B) (k : proc C) log u w :
  delivers s r x -> conv (logged (log ++ sent_by s) (k' x)) k u w ->
  conv (logged log (bind r k')) (s ;;; k) u w.
Proof.
  intros D H. destruct (delivers_feed _ _ _ D) as [E F].
  eapply conv_corr; [apply corr_logged_bind|].
  eapply runs_trans; [|exact H]. eapply (delivers_runs' s (logged log r) (log ++ sent_by s, x)).
  exists (sent_by s). split; [exact E|]. intros rest. apply F.
Qed.
(** The logging server sends a message. *)
Lemma log_send {A B C} s (r : proc A) x (k : proc B) (k' : A -> proc C) log u w :
  delivers s r x -> conv (logged log k) (k' x) u w ->
  conv (logged log (s ;;; k)) (bind r k') u w.
Proof.
  intros D H. destruct D as (bs & E & F).
  eapply conv_corr; [apply corr_logged_bind|]. eapply conv_bind.
  - eapply conv_emit_feed; [apply emits_logged; exact E|]. specialize (F []). rewrite app_nil_r in F. exact F.
  - exact H.
Qed.

(** ** Oblivious transfers *)
Lemma log_ot_send {A B} i ps (a a' : A) (q : proc B) b log :
  conv (OTSend i ps (Ret a)) q a' b -> a' = a /\ conv (logged log (OTSend i ps (Ret a))) q (log, a) b.
Proof.
  intros H.
  destruct (corr_conv (fun x v => x = a /\ v = (log, a)) (OTSend i ps (Ret a)) (logged log (OTSend i ps (Ret a))) q a' b)
    as (v & [E1 E2] & K); auto.
  - intros ? ? ? [_ ->] [_ ->]. reflexivity.
  - cbn [logged]. repeat constructor.
  - split; [exact E1|]. now rewrite <- E2.
Qed.
Lemma log_ot_recv {A B} i ps cs (a : A) (f : list Z -> B) log : length ps = length cs ->
  conv (logged log (OTRecv i cs (fun r => Ret (f r)))) (OTSend i ps (Ret a))
    (log ++ map2 ot_select cs ps, f (map2 ot_select cs ps)) a.
Proof.
  intros L. cbn [logged]. apply conv_swap.
  exact (conv_ot_ret i ps cs a (fun r => (log ++ r, f r)) L).
Qed.

(** ** Tables *)
Lemma find_keys {V W} k (m : table V) (m' : table W) : map fst m = map fst m' ->
  is_some (find k m) = is_some (find k m').
Proof.
  revert m'. induction m as [|[a v] m IH]; intros [|[b w] m'] E; cbn in *; try discriminate; [reflexivity|].
  injection E as -> E. destruct (key_eqb b k); [reflexivity|]. now apply IH.
Qed.
Lemma table_ids {V W} (ok : V -> bool) (ok' : W -> bool) subs subs' : ids ok subs = ids ok' subs' ->
  map fst (table_of ok subs) = map fst (table_of ok' subs').
Proof.
  unfold table_of, ids, recs_of.
  enough (H : forall (m : table V) (m' : table W), map fst m = map fst m' ->
    map (fun s => (fst s, ok (snd s))) subs = map (fun s => (fst s, ok' (snd s))) subs' ->
    map fst (build (recs_of ok subs) m) = map fst (build (recs_of ok' subs') m')) by (intros; now apply H).
  revert subs'. induction subs as [|[k v] subs IH]; intros [|[k' v'] subs'] m m' E I; cbn in I; try discriminate; [exact E|].
  injection I as <- Eo I. cbn [recs_of map build fst snd]. fold (recs_of ok subs) (recs_of ok' subs').
  rewrite <- Eo. pose proof (find_keys k m m' E) as F.
  destruct (find k m), (find k m'); cbn in F; try discriminate; destruct (ok v); auto.
  apply IH; auto. rewrite !map_app, E. reflexivity.
Qed.
