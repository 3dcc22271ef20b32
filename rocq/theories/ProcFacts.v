(** Proofs about the two-server semantics: the diamond property, hence
    schedule independence, and composition of runs. *)
From Coq Require Import ZArith List Bool Lia.
From Verif Require Import Words WordsFacts Proc.
Import ListNotations.

Section Sem.
Context {A B : Type}.
Variable cap : nat.

Lemma diamond (c c1 c2 : config A B) :
  step cap c c1 -> step cap c c2 ->
  c1 = c2 \/ exists c3, step cap c1 c3 /\ step cap c2 c3.
Proof.
  intros H1 H2.
  inversion H1 as [a p p' q o i o' i' L C | a p q q' o i o' i' L C
                  | x ps cs k k' o i LE | x ps cs k k' o i LE]; subst; clear H1;
  inversion H2 as [a2 p2 p2' q2 o2 i2 o2' i2' L2 C2 | a2 p2 q2 q2' o2 i2 o2' i2' L2 C2
                  | x2 ps2 cs2 k2 k2' o2 i2 LE2 | x2 ps2 cs2 k2 k2' o2 i2 LE2]; subst; clear H2;
  try (inversion L; fail); try (inversion L2; fail).
  - (* both moves by server 0 *)
    inversion L; subst; inversion L2; subst; inversion C; subst; inversion C2; subst; auto.
    + right; eexists; split.
      * eapply st_0; [apply ls_xrecv | constructor].
      * eapply st_0; [apply ls_xsend | constructor; assumption].
    + right; eexists; split.
      * eapply st_0; [apply ls_xsend | constructor; assumption].
      * eapply st_0; [apply ls_xrecv | constructor].
  - (* 0 then 1 *)
    right. inversion C; subst; inversion C2; subst;
    (eexists; split; [ eapply st_1; [eassumption|] | eapply st_0; [eassumption|] ]);
    simpl; rewrite ?app_length in *; simpl in *; try (constructor; lia); try constructor.
  - (* 1 then 0 *)
    right. inversion C; subst; inversion C2; subst;
    (eexists; split; [ eapply st_0; [eassumption|] | eapply st_1; [eassumption|] ]);
    simpl; rewrite ?app_length in *; simpl in *; try (constructor; lia); try constructor.
  - (* both moves by server 1 *)
    inversion L; subst; inversion L2; subst; inversion C; subst; inversion C2; subst; auto.
    + right; eexists; split.
      * eapply st_1; [apply ls_xrecv | constructor].
      * eapply st_1; [apply ls_xsend | constructor; assumption].
    + right; eexists; split.
      * eapply st_1; [apply ls_xsend | constructor; assumption].
      * eapply st_1; [apply ls_xrecv | constructor].
  - left; auto.
  - left; auto.
Qed.

Lemma steps_trans n m (c d e : config A B) :
  steps cap n c d -> steps cap m d e -> steps cap (n + m) c e.
Proof. induction 1; simpl; auto. intros. econstructor; eauto. Qed.

(** One step from the start of a complete run can be completed in one step less. *)
Lemma strip n (c f d : config A B) :
  steps cap n c f -> (forall e, ~ step cap f e) -> step cap c d ->
  exists m, n = S m /\ steps cap m d f.
Proof.
  intros H Hf. revert d. induction H as [c | n c d0 e Hs Hst IH]; intros d Hd.
  - exfalso. eapply Hf; eauto.
  - destruct (diamond _ _ _ Hs Hd) as [<- | (c3 & H1 & H2)].
    + exists n; auto.
    + destruct (IH Hf _ H1) as (m & -> & Hm).
      exists (S m). split; auto. econstructor; eauto.
Qed.

Lemma confluent m n (c f d : config A B) :
  steps cap n c f -> (forall e, ~ step cap f e) -> steps cap m c d ->
  exists k, n = (m + k)%nat /\ steps cap k d f.
Proof.
  intros H Hf Hd. revert n H. induction Hd as [c | m c d0 d Hs Hst IH]; intros n H.
  - exists n; auto.
  - destruct (strip _ _ _ _ H Hf Hs) as (n' & -> & Hn').
    destruct (IH _ Hn') as (k & -> & Hk).
    exists k; auto.
Qed.

Lemma finished_final (a : A) (b : B) e : ~ step cap (finished a b) e.
Proof. intros H; unfold finished in H; inversion H; subst;
  match goal with L : lstep _ _ _ |- _ => inversion L end. Qed.

End Sem.

(** [runs p q p' q']: some schedule leads from [p]/[q] to [p']/[q'] with empty
    buffers, whatever the buffer capacity. *)
Definition runs {A B} (p : proc A) (q : proc B) (p' : proc A) (q' : proc B) : Prop :=
  forall cap, (1 <= cap)%nat -> exists n, steps cap n (start p q) (start p' q').

Definition conv {A B} (p : proc A) (q : proc B) (a : A) (b : B) : Prop :=
  runs p q (Ret a) (Ret b).

Theorem conv_always {A B} (p : proc A) (q : proc B) a b : conv p q a b -> always p q a b.
Proof.
  intros H cap Hcap. destruct (H cap Hcap) as (n & Hn). exists n.
  assert (F : forall e, ~ step cap (finished a b) e) by (intro; apply finished_final).
  split; intros m c Hm.
  - destruct (confluent _ _ _ _ _ _ Hn F Hm) as (k & -> & _). lia.
  - destruct (confluent _ _ _ _ _ _ Hn F Hm) as (k & -> & Hk).
    inversion Hk; subst; eauto.
Qed.

Lemma always_conv {A B} (p : proc A) (q : proc B) a b : always p q a b -> conv p q a b.
Proof.
  intros H cap Hcap. destruct (H cap Hcap) as (n & Hlen & Hprog).
  assert (G : forall k m c, (n - m <= k)%nat -> steps cap m (start p q) c ->
                exists j, steps cap j (start p q) (finished a b)).
  { induction k; intros m c Hk Hm.
    - destruct (Hprog _ _ Hm) as [(c' & Hc') | ->]; eauto.
      exfalso. pose proof (steps_trans _ _ _ _ _ _ Hm (steps_S _ _ _ _ _ Hc' (steps_0 _ _))) as X.
      apply Hlen in X. lia.
    - destruct (Hprog _ _ Hm) as [(c' & Hc') | ->]; eauto.
      pose proof (steps_trans _ _ _ _ _ _ Hm (steps_S _ _ _ _ _ Hc' (steps_0 _ _))) as X.
      eapply IHk; [|exact X]; lia. }
  apply (G n 0%nat (start p q)); [lia | constructor].
Qed.

(** The results are unique. *)
Lemma always_functional {A B} (p : proc A) (q : proc B) a b a' b' :
  always p q a b -> always p q a' b' -> a = a' /\ b = b'.
Proof.
  intros H H'. apply always_conv in H; apply always_conv in H'.
  destruct (H 1%nat ltac:(lia)) as (n & Hn). destruct (H' 1%nat ltac:(lia)) as (m & Hm).
  destruct (confluent _ _ _ _ _ _ Hn (fun e => finished_final _ _ _ _) Hm) as (k & _ & Hk).
  inversion Hk; subst; auto. exfalso; eapply finished_final; eassumption.
Qed.

Lemma runs_refl {A B} (p : proc A) (q : proc B) : runs p q p q.
Proof. intros cap _. exists 0%nat. constructor. Qed.

Lemma runs_trans {A B} (p p' p'' : proc A) (q q' q'' : proc B) :
  runs p q p' q' -> runs p' q' p'' q'' -> runs p q p'' q''.
Proof.
  intros H1 H2 cap Hc. destruct (H1 cap Hc) as (n & Hn). destruct (H2 cap Hc) as (m & Hm).
  exists (n + m)%nat. eapply steps_trans; eauto.
Qed.

(** ** Sequencing *)
Lemma lstep_bind {A B} (p : proc A) a p' (f : A -> proc B) :
  lstep p a p' -> lstep (bind p f) a (bind p' f).
Proof. destruct 1; simpl; constructor. Qed.

Lemma step_bind {A B A' B'} cap (c d : config A B) (f : A -> proc A') (g : B -> proc B') :
  step cap c d ->
  step cap (Cfg (bind (proc0 c) f) (bind (proc1 c) g) (ch01 c) (ch10 c))
           (Cfg (bind (proc0 d) f) (bind (proc1 d) g) (ch01 d) (ch10 d)).
Proof.
  destruct 1; simpl.
  - eapply st_0; eauto using lstep_bind.
  - eapply st_1; eauto using lstep_bind.
  - apply (st_ot01 cap x ps cs (bind k f) (fun l => bind (k' l) g)); assumption.
  - apply (st_ot10 cap x ps cs (bind k g) (fun l => bind (k' l) f)); assumption.
Qed.

Lemma steps_bind {A B A' B'} cap n (c d : config A B) (f : A -> proc A') (g : B -> proc B') :
  steps cap n c d ->
  steps cap n (Cfg (bind (proc0 c) f) (bind (proc1 c) g) (ch01 c) (ch10 c))
              (Cfg (bind (proc0 d) f) (bind (proc1 d) g) (ch01 d) (ch10 d)).
Proof. induction 1; econstructor; eauto using step_bind. Qed.

Lemma runs_bind {A B A' B'} (p p' : proc A) (q q' : proc B)
  (f : A -> proc A') (g : B -> proc B') :
  runs p q p' q' -> runs (bind p f) (bind q g) (bind p' f) (bind q' g).
Proof.
  intros H cap Hc. destruct (H cap Hc) as (n & Hn). exists n.
  exact (steps_bind cap n (start p q) (start p' q') f g Hn).
Qed.

Lemma conv_ret {A B} (a : A) (b : B) : conv (Ret a) (Ret b) a b.
Proof. apply runs_refl. Qed.

Lemma conv_bind {A B A' B'} (p : proc A) (q : proc B) a b
  (f : A -> proc A') (g : B -> proc B') a' b' :
  conv p q a b -> conv (f a) (g b) a' b' -> conv (bind p f) (bind q g) a' b'.
Proof.
  intros H1 H2. eapply runs_trans; [apply (runs_bind _ _ _ _ f g H1)|]. exact H2.
Qed.

Lemma conv_bind_runs {A B A' B'} (p : proc A) (q : proc B) a b
  (f : A -> proc A') (g : B -> proc B') p' q' :
  conv p q a b -> runs (f a) (g b) p' q' -> runs (bind p f) (bind q g) p' q'.
Proof.
  intros H1 H2. eapply runs_trans; [apply (runs_bind _ _ _ _ f g H1)|]. exact H2.
Qed.

Lemma bind_ret_r {A} (p : proc A) :
  (forall a b : list Z -> proc A, (forall l, a l = b l) -> a = b) -> bind p Ret = p.
Proof.
  intro fe. induction p; simpl; f_equal; auto.
Qed.

(** ** Primitive exchanges *)
Lemma steps_send_recv01 {A B} cap bs (k : proc A) (k' : list Z -> proc B) :
  (1 <= cap)%nat ->
  exists n, steps cap n (start (Send bs k) (Recv (length bs) k')) (start k (k' bs)).
Proof.
  intros Hc. revert k'. induction bs as [|b bs IH]; intros k'; simpl.
  - exists 2%nat. eapply steps_S; [eapply st_0; [apply ls_send0|constructor]|].
    eapply steps_S; [eapply st_1; [apply ls_recv0|constructor]|]. constructor.
  - destruct (IH (fun l => k' (b :: l))) as (n & Hn). exists (S (S n)).
    eapply steps_S; [eapply st_0; [apply ls_send|constructor; simpl; lia]|].
    eapply steps_S; [eapply st_1; [apply ls_recv|constructor]|]. exact Hn.
Qed.

Lemma runs_send_recv {A B} bs n (k : proc A) (k' : list Z -> proc B) :
  length bs = n -> runs (Send bs k) (Recv n k') k (k' bs).
Proof. intros <- cap Hc. now apply steps_send_recv01. Qed.

(** Swapping the roles of the two servers. *)
Definition swapc {A B} (c : config A B) : config B A :=
  Cfg (proc1 c) (proc0 c) (ch10 c) (ch01 c).

Lemma step_swap {A B} cap (c d : config A B) : step cap c d -> step cap (swapc c) (swapc d).
Proof.
  destruct 1; unfold swapc; simpl.
  - eapply st_1; eauto.
  - eapply st_0; eauto.
  - apply st_ot10; auto.
  - apply st_ot01; auto.
Qed.

Lemma steps_swap {A B} cap n (c d : config A B) :
  steps cap n c d -> steps cap n (swapc c) (swapc d).
Proof. induction 1; econstructor; eauto using step_swap. Qed.

Lemma runs_swap {A B} (p p' : proc A) (q q' : proc B) :
  runs p q p' q' -> runs q p q' p'.
Proof.
  intros H cap Hc. destruct (H cap Hc) as (n & Hn). exists n.
  exact (steps_swap _ _ _ _ Hn).
Qed.

Lemma runs_recv_send {A B} bs n (k : list Z -> proc A) (k' : proc B) :
  length bs = n -> runs (Recv n k) (Send bs k') (k bs) k'.
Proof. intros. apply runs_swap, runs_send_recv; assumption. Qed.

Lemma xchg_half {A B} cap m0 m1 n0 (k : list Z -> proc A) (k' : list Z -> proc B) :
  (1 <= cap)%nat ->
  exists n, steps cap n (start (Xchg m0 n0 k) (Xchg m1 (length m0) k'))
                        (start (Xchg [] n0 k) (Xchg m1 0 (fun l => k' (m0 ++ l)))).
Proof.
  intros Hc. revert k'. induction m0 as [|b m0 IH]; intros k'; simpl.
  - exists 0%nat. constructor.
  - destruct (IH (fun l => k' (b :: l))) as (n & Hn). exists (S (S n)).
    eapply steps_S; [eapply st_0; [apply ls_xsend|constructor; simpl; lia]|].
    eapply steps_S; [eapply st_1; [apply ls_xrecv|constructor]|]. exact Hn.
Qed.

Lemma runs_xchg {A B} m0 m1 n0 n1 (k : list Z -> proc A) (k' : list Z -> proc B) :
  length m0 = n1 -> length m1 = n0 ->
  runs (Xchg m0 n0 k) (Xchg m1 n1 k') (k m1) (k' m0).
Proof.
  intros <- <- cap Hc.
  destruct (xchg_half cap m0 m1 (length m1) k k' Hc) as (n & Hn).
  destruct (xchg_half cap m1 [] 0 (fun l => k' (m0 ++ l)) k Hc) as (m & Hm).
  apply steps_swap in Hm. unfold swapc in Hm; simpl in Hm.
  exists (n + (m + 2))%nat.
  eapply steps_trans; [exact Hn|]. eapply steps_trans; [exact Hm|].
  eapply steps_S; [eapply st_0; [apply ls_xchg0|constructor]|].
  eapply steps_S; [eapply st_1; [apply ls_xchg0|constructor]|].
  rewrite !app_nil_r. constructor.
Qed.

Lemma runs_ot {A B} x ps cs (k : proc A) (k' : list Z -> proc B) :
  length ps = length cs ->
  runs (OTSend x ps k) (OTRecv x cs k') k (k' (map2 ot_select cs ps)).
Proof.
  intros H cap Hc. exists 1%nat. econstructor; [|constructor]. now apply st_ot01.
Qed.

Lemma runs_ot' {A B} x ps cs (k' : list Z -> proc A) (k : proc B) :
  length ps = length cs ->
  runs (OTRecv x cs k') (OTSend x ps k) (k' (map2 ot_select cs ps)) k.
Proof. intros. apply runs_swap, runs_ot; assumption. Qed.

(** ** One-directional messages *)

Lemma emits_bind {A B} (p : proc A) l a (f : A -> proc B) l' b :
  emits p l a -> emits (f a) l' b -> emits (bind p f) (l ++ l') b.
Proof.
  induction 1; simpl; intros; auto. rewrite <- app_assoc. constructor; auto.
Qed.

Lemma feed_bind {A B} (q : proc A) s a s' (f : A -> proc B) :
  feed q s = Some (a, s') -> feed (bind q f) s = feed (f a) s'.
Proof.
  revert s. induction q; simpl; intros s H0; try discriminate.
  - inversion H0; subst; auto.
  - destruct (n <=? length s)%nat; [|discriminate]. auto.
Qed.

Lemma feed_recv {A} n (k : list Z -> proc A) s rest :
  length s = n -> feed (Recv n k) (s ++ rest) = feed (k s) rest.
Proof.
  intros <-. simpl. rewrite app_length.
  destruct (Nat.leb_spec (length s) (length s + length rest)); [|lia].
  rewrite firstn_app_exact, skipn_app_exact by auto. reflexivity.
Qed.

Inductive taus {A} : nat -> proc A -> proc A -> Prop :=
| taus_0 p : taus 0 p p
| taus_S n p q r : lstep p ATau q -> taus n q r -> taus (S n) p r.

Lemma taus_steps0 {A B} cap n (p p' : proc A) (q : proc B) o i :
  taus n p p' -> steps cap n (Cfg p q o i) (Cfg p' q o i).
Proof. induction 1; econstructor; eauto. eapply st_0; eauto. constructor. Qed.

Lemma taus_steps1 {A B} cap n (p : proc A) (q q' : proc B) o i :
  taus n q q' -> steps cap n (Cfg p q o i) (Cfg p q' o i).
Proof. induction 1; econstructor; eauto. eapply st_1; eauto. constructor. Qed.

Lemma emits_nil {A} (p : proc A) a : emits p [] a -> exists n, taus n p (Ret a).
Proof.
  remember [] as l. intros H; revert Heql. induction H; intros.
  - exists 0%nat; constructor.
  - apply app_eq_nil in Heql as [-> ->]. destruct (IHemits eq_refl) as (n & Hn).
    exists (S n). econstructor; [constructor|exact Hn].
Qed.

Lemma emits_cons {A} (p : proc A) b l a : emits p (b :: l) a ->
  exists n p1 p2, taus n p p1 /\ lstep p1 (ASend b) p2 /\ emits p2 l a.
Proof.
  remember (b :: l) as bl. intros H; revert Heqbl. induction H; intros.
  - discriminate.
  - destruct bs as [|c bs]; simpl in Heqbl.
    + destruct (IHemits Heqbl) as (n & p1 & p2 & T & L & E).
      exists (S n), p1, p2. split; [econstructor; [constructor|exact T]|auto].
    + inversion Heqbl; subst. exists 0%nat; do 2 eexists.
      split; [constructor|]. split; [constructor|]. constructor; auto.
Qed.

Lemma feed_nil {A} (q : proc A) r : feed q [] = Some (r, []) -> exists n, taus n q (Ret r).
Proof.
  induction q; simpl; intros H0; try discriminate.
  - inversion H0; subst. exists 0%nat; constructor.
  - destruct n; simpl in H0; [|discriminate].
    destruct (H [] H0) as (m & Hm). exists (S m). econstructor; [constructor|exact Hm].
Qed.

Lemma feed_cons {A} (q : proc A) b l r : feed q (b :: l) = Some (r, []) ->
  exists n q1 q2, taus n q q1 /\ lstep q1 (ARecv b) q2 /\ feed q2 l = Some (r, []).
Proof.
  induction q; simpl; intros H0; try discriminate.
  destruct n; simpl in H0.
  - destruct (H [] H0) as (m & q1 & q2 & T & L & F). exists (S m), q1, q2.
    split; [econstructor; [constructor|exact T]|auto].
  - exists 0%nat; do 2 eexists. split; [constructor|]. split; [constructor|].
    simpl. exact H0.
Qed.

Lemma conv_emit_feed {A B} (p : proc A) (q : proc B) l a b :
  emits p l a -> feed q l = Some (b, []) -> conv p q a b.
Proof.
  intros E F cap Hc. revert p q E F. induction l as [|x l IH]; intros.
  - destruct (emits_nil _ _ E) as (n & Hn). destruct (feed_nil _ _ F) as (m & Hm).
    exists (n + m)%nat. eapply steps_trans.
    + apply taus_steps0; eassumption.
    + apply taus_steps1; eassumption.
  - destruct (emits_cons _ _ _ _ E) as (n & p1 & p2 & T & L & E').
    destruct (feed_cons _ _ _ _ F) as (m & q1 & q2 & T' & L' & F').
    destruct (IH _ _ E' F') as (k & Hk).
    exists (n + (m + S (S k)))%nat.
    eapply steps_trans; [apply taus_steps0; eassumption|].
    eapply steps_trans; [apply taus_steps1; eassumption|].
    econstructor; [eapply st_0; [eassumption|constructor; simpl; lia]|].
    econstructor; [eapply st_1; [eassumption|constructor]|]. exact Hk.
Qed.

Lemma conv_feed_emit {A B} (p : proc A) (q : proc B) l a b :
  emits q l b -> feed p l = Some (a, []) -> conv p q a b.
Proof. intros. apply runs_swap. eapply conv_emit_feed; eauto. Qed.
