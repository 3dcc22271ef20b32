(** Proofs about servers that do not fork: large buffers simulate the forked exchange,
    small ones deadlock. *)
From Coq Require Import ZArith List Bool Lia.
From Verif Require Import Words WordsFacts Proc ProcFacts SpecServer ServerFacts NoFork SpecNoFork.
Import ListNotations.

(** ** Reaching a final configuration settles all schedules *)
Lemma ends_in_steps {A B} cap n (p : proc A) (q : proc B) c (E : config A B -> Prop) :
  steps cap n (start p q) c -> (forall e, ~ step cap c e) -> E c -> ends_in cap p q E.
Proof.
  intros Hn F HE. exists n.
  split; intros m d Hm; destruct (confluent _ _ _ _ _ _ Hn F Hm) as (j & -> & Hj); [lia|].
  inversion Hj; subst; eauto.
Qed.

Lemma both_sending_final {A B} cap (c e : config A B) : both_sending cap c -> ~ step cap c e.
Proof.
  intros (b0 & m0 & k0 & b1 & m1 & k1 & E0 & E1 & L0 & L1) H. destruct c as [p q o i]. cbn in *. subst p q.
  inversion H; subst.
  - match goal with L : lstep _ _ _ |- _ => inversion L; subst end.
    match goal with C : chan _ _ _ _ _ _ |- _ => inversion C; subst end. lia.
  - match goal with L : lstep _ _ _ |- _ => inversion L; subst end.
    match goal with C : chan _ _ _ _ _ _ |- _ => inversion C; subst end. lia.
Qed.

(** ** Large buffers: the unforked program follows the forked one *)

(** [sim p x p']: [p'] is [p] without forks, ahead of it by having sent [x] already. *)
Inductive sim {A} : proc A -> list Z -> proc A -> Prop :=
| sim_same p : sim p [] (nofork p)
| sim_ahead bs n k : sim (Xchg bs n k) bs (Recv n (fun l => nofork (k l))).

Definition csim {A B} (c c' : config A B) : Prop :=
  exists x y, sim (proc0 c) x (proc0 c') /\ sim (proc1 c) y (proc1 c') /\
    ch01 c' = ch01 c ++ x /\ ch10 c' = ch10 c ++ y.

Definition msg {A} (p : proc A) : nat := match p with Xchg bs _ _ => length bs | _ => 0 end.

Lemma sim_step {A B} capF cap (p p2 p' : proc A) a o i o2 i2 x :
  lstep p a p2 -> chan capF a o i o2 i2 -> sim p x p' -> (length o <= capF)%nat -> (capF + msg p <= cap)%nat ->
  exists m x2 p2', sim p2 x2 p2' /\
    forall (q' : proc B) y, steps cap m (Cfg p' q' (o ++ x) (i ++ y)) (Cfg p2' q' (o2 ++ x2) (i2 ++ y)).
Proof.
  intros L C S Ho Hc.
  assert (X : forall bs n k, p = Xchg bs n k ->
    exists m x2 p2', sim p2 x2 p2' /\
      forall (q' : proc B) y, steps cap m (Cfg (Recv n (fun l => nofork (k l))) q' (o ++ bs) (i ++ y)) (Cfg p2' q' (o2 ++ x2) (i2 ++ y))).
  { intros bs n k ->. inversion L; subst; inversion C; subst.
    - exists 1%nat, [], (nofork (k [])). split; [constructor|]. intros q' y.
      eapply steps_S; [eapply st_0; constructor|]. rewrite app_nil_r. constructor.
    - exists 0%nat, bs0, (Recv n (fun l => nofork (k l))). split; [constructor|]. intros q' y.
      rewrite <- app_assoc. constructor.
    - exists 1%nat, bs, (Recv n0 (fun l => nofork (k (b :: l)))).
      split; [exact (sim_ahead bs n0 (fun l => k (b :: l)))|]. intros q' y.
      eapply steps_S; [eapply st_0; [apply ls_recv|constructor]|]. constructor. }
  destruct S as [p|bs n k]; [|eapply X; reflexivity].
  destruct p as [r| |bs k|n k|bs n k|b ps k|b cs k]; try (inversion L; fail).
  - inversion L; subst; inversion C; subst.
    + exists 1%nat, [], (nofork p2). split; [constructor|]. intros q' y.
      eapply steps_S; [eapply st_0; constructor|]. constructor.
    + exists 1%nat, [], (nofork (Send bs0 k)). split; [constructor|]. intros q' y.
      rewrite !app_nil_r. eapply steps_S; [eapply st_0; [apply ls_send|constructor; cbn in Hc; lia]|]. constructor.
  - inversion L; subst; inversion C; subst.
    + exists 1%nat, [], (nofork (k [])). split; [constructor|]. intros q' y.
      eapply steps_S; [eapply st_0; constructor|]. constructor.
    + exists 1%nat, [], (nofork (Recv n0 (fun l => k (b :: l)))). split; [constructor|]. intros q' y.
      eapply steps_S; [eapply st_0; [apply ls_recv|constructor]|]. constructor.
  - destruct (X _ _ _ eq_refl) as (m & x2 & p2' & HS & HR). cbn [msg] in Hc.
    exists (S (length bs) + m)%nat, x2, p2'. split; [exact HS|]. intros q' y. rewrite app_nil_r. cbn [nofork].
    eapply steps_trans; [|apply HR]. clear -Hc Ho.
    assert (G : forall bs o, (length o + length bs <= cap)%nat ->
      steps cap (S (length bs)) (Cfg (Send bs (Recv n (fun l => nofork (k l)))) q' o (i ++ y))
        (Cfg (Recv n (fun l => nofork (k l))) q' (o ++ bs) (i ++ y))).
    { clear. induction bs as [|b bs IH]; intros o H.
      - rewrite app_nil_r. eapply steps_S; [eapply st_0; constructor|constructor].
      - cbn in H. cbn [length]. change (o ++ b :: bs) with (o ++ ([b] ++ bs)). rewrite app_assoc.
        eapply steps_S; [|apply IH; rewrite app_length; cbn; lia].
        eapply st_0; constructor. lia. }
    apply G. lia.
Qed.

Lemma sim_ot_send {A} i ps (k p' : proc A) x : sim (OTSend i ps k) x p' -> x = [] /\ p' = OTSend i ps (nofork k).
Proof. intros H. inversion H; subst. auto. Qed.
Lemma sim_ot_recv {A} i cs (k : list Z -> proc A) p' x : sim (OTRecv i cs k) x p' -> x = [] /\ p' = OTRecv i cs (fun l => nofork (k l)).
Proof. intros H. inversion H; subst. auto. Qed.

Lemma chan_len cap a o i o' i' : chan cap a o i o' i' -> (length o <= cap)%nat -> (length i <= cap)%nat ->
  (length o' <= cap)%nat /\ (length i' <= cap)%nat.
Proof. intros C Ho Hi. inversion C; subst; rewrite ?app_length; cbn in *; lia. Qed.

Lemma sim_steps {A B} capF n (c d : config A B) : steps capF n c d ->
  (length (ch01 c) <= capF)%nat -> (length (ch10 c) <= capF)%nat ->
  exists K, forall cap, (K <= cap)%nat -> forall c', csim c c' -> exists m d', steps cap m c' d' /\ csim d d'.
Proof.
  induction 1 as [c|n c d e Hs Hst IH]; intros H0 H1.
  - exists 0%nat. intros cap _ c' H. exists 0%nat, c'. split; [constructor|exact H].
  - assert (HD : (length (ch01 d) <= capF)%nat /\ (length (ch10 d) <= capF)%nat).
    { inversion Hs; subst; cbn [ch01 ch10] in *; auto;
      match goal with C : chan _ _ _ _ _ _ |- _ => pose proof (chan_len _ _ _ _ _ _ C) end; intuition. }
    destruct (IH (proj1 HD) (proj2 HD)) as (K & HK).
    exists (K + capF + msg (proc0 c) + msg (proc1 c))%nat. intros cap Hcap c' (x & y & S0 & S1 & E0 & E1).
    assert (NX : exists m d', steps cap m c' d' /\ csim d d').
    { destruct c' as [p' q' o' i']. inversion Hs; subst; cbn [proc0 proc1 ch01 ch10] in *; subst o' i'.
      - destruct (@sim_step A B capF cap p p'0 p' a o i o'0 i'0 x) as (m & x2 & p2' & HS & HR); auto; [lia|].
        exists m, (Cfg p2' q' (o'0 ++ x2) (i'0 ++ y)). split; [apply HR|]. exists x2, y. auto.
      - destruct (@sim_step B A capF cap q q'0 q' a i o i'0 o'0 y) as (m & x2 & p2' & HS & HR); auto; [lia|].
        exists m, (Cfg p' p2' (o'0 ++ x) (i'0 ++ x2)). split; [|exists x, x2; auto].
        apply (steps_swap _ _ _ _ (HR p' x)).
      - apply sim_ot_send in S0 as [-> ->]. apply sim_ot_recv in S1 as [-> ->].
        exists 1%nat. eexists. split; [eapply steps_S; [apply st_ot01; assumption|constructor]|].
        exists [], []. repeat split; constructor.
      - apply sim_ot_recv in S0 as [-> ->]. apply sim_ot_send in S1 as [-> ->].
        exists 1%nat. eexists. split; [eapply steps_S; [apply st_ot10; assumption|constructor]|].
        exists [], []. repeat split; constructor. }
    destruct NX as (m & d' & Hm & CS). destruct (HK cap ltac:(lia) d' CS) as (m' & e' & Hm' & CS').
    exists (m + m')%nat, e'. split; auto. eapply steps_trans; eauto.
Qed.

(** If the forked program always ends with both servers returning, then so does the
    unforked one once the buffers are large enough, with the same outcome. *)
Lemma ends_reach {A B} k (p : proc A) (q : proc B) c : ends k p q c ->
  exists n, steps (Nat.max 1 k) n (start p q) c.
Proof.
  intros H. destruct (H (Nat.max 1 k) ltac:(lia) ltac:(lia)) as (n & Hlen & Hprog).
  assert (G : forall j m d, (n - m <= j)%nat -> steps (Nat.max 1 k) m (start p q) d ->
                exists j, steps (Nat.max 1 k) j (start p q) c).
  { induction j; intros m d Hk Hm.
    - destruct (Hprog _ _ Hm) as [(c' & Hc') | ->]; eauto.
      exfalso. pose proof (steps_trans _ _ _ _ _ _ Hm (steps_S _ _ _ _ _ Hc' (steps_0 _ _))) as X.
      apply Hlen in X. lia.
    - destruct (Hprog _ _ Hm) as [(c' & Hc') | ->]; eauto.
      pose proof (steps_trans _ _ _ _ _ _ Hm (steps_S _ _ _ _ _ Hc' (steps_0 _ _))) as X.
      eapply IHj; [|exact X]; lia. }
  apply (G n 0%nat (start p q)); [lia | constructor].
Qed.

Lemma ret_final {A B} cap (a : A) (b : B) o i e : ~ step cap (Cfg (Ret a) (Ret b) o i) e.
Proof. intros H; inversion H; subst; match goal with L : lstep _ _ _ |- _ => inversion L end. Qed.

Lemma nofork_ends {A B} k (p : proc A) (q : proc B) a b o i : ends k p q (Cfg (Ret a) (Ret b) o i) ->
  exists K, ends K (nofork p) (nofork q) (Cfg (Ret a) (Ret b) o i).
Proof.
  intros H. destruct (ends_reach _ _ _ _ H) as (n & Hn).
  destruct (sim_steps _ _ _ _ Hn) as (K & HK); cbn; try lia.
  exists K. apply reach_ends. intros cap H1 Hcap. split; [|intros; apply ret_final].
  destruct (HK cap Hcap (start (nofork p) (nofork q))) as (m & d' & Hm & x & y & S0 & S1 & E0 & E1).
  { exists [], []. repeat split; constructor. }
  exists m. destruct d' as [p' q' o' i']. cbn in S0, S1, E0, E1. inversion S0; subst. inversion S1; subst.
  rewrite !app_nil_r in Hm. exact Hm.
Qed.

(** ** Programs without exchanges *)
Fixpoint noX {A} (p : proc A) : Prop :=
  match p with
  | Ret _ | Undef => True
  | Send _ k => noX k
  | Recv _ k => forall l, noX (k l)
  | Xchg _ _ _ => False
  | OTSend _ _ k => noX k
  | OTRecv _ _ k => forall l, noX (k l)
  end.

Lemma noX_bind {A B} (p : proc A) (f : A -> proc B) : noX p -> (forall a, noX (f a)) -> noX (bind p f).
Proof. intros Hp Hf. induction p; cbn in *; auto. Qed.

Lemma lstep_noX {A B} (p : proc A) a p' (f : A -> proc B) :
  lstep p a p' -> noX p -> lstep (nofork (bind p f)) a (nofork (bind p' f)) /\ noX p'.
Proof.
  intros L N. inversion L; subst; cbn [bind nofork noX] in *; try contradiction;
  (split; [first [constructor | exact (ls_recv b n (fun l => nofork (bind (k l) f))) | exact (ls_recv0 (fun l => nofork (bind (k l) f)))]|auto]).
Qed.

Lemma steps_noX {A B A' B'} cap n (c d : config A B) (f : A -> proc A') (g : B -> proc B') :
  steps cap n c d -> noX (proc0 c) -> noX (proc1 c) ->
  steps cap n (Cfg (nofork (bind (proc0 c) f)) (nofork (bind (proc1 c) g)) (ch01 c) (ch10 c))
              (Cfg (nofork (bind (proc0 d) f)) (nofork (bind (proc1 d) g)) (ch01 d) (ch10 d)).
Proof.
  induction 1 as [c|n c d e Hs Hst IH]; intros N0 N1; [constructor|].
  inversion Hs; subst; cbn [proc0 proc1 ch01 ch10] in *.
  - destruct (lstep_noX p a p' f H N0) as [L N]. eapply steps_S; [eapply st_0; eassumption|]. apply IH; auto.
  - destruct (lstep_noX q a q' g H N1) as [L N]. eapply steps_S; [eapply st_1; eassumption|]. apply IH; auto.
  - cbn [noX] in *. eapply steps_S; [exact (st_ot01 cap x ps cs (nofork (bind k f)) (fun l => nofork (bind (k' l) g)) o i H)|]. apply IH; auto.
  - cbn [noX] in *. eapply steps_S; [exact (st_ot10 cap x ps cs (nofork (bind k g)) (fun l => nofork (bind (k' l) f)) o i H)|]. apply IH; auto.
Qed.

Lemma runs_noX {A B A' B'} (p : proc A) (q : proc B) a b (f : A -> proc A') (g : B -> proc B') :
  conv p q a b -> noX p -> noX q -> runs (nofork (bind p f)) (nofork (bind q g)) (nofork (f a)) (nofork (g b)).
Proof.
  intros C N0 N1 cap Hc. destruct (C cap Hc) as (n & Hn). exists n. exact (steps_noX cap n _ _ f g Hn N0 N1).
Qed.

Lemma steps_noX_ret {A B} cap n (p : proc A) (q : proc B) a b :
  steps cap n (start p q) (finished a b) -> noX p -> noX q -> steps cap n (start (nofork p) (nofork q)) (finished a b).
Proof.
  intros H N0 N1. 
  assert (E : forall n (c d : config A B), steps cap n c d -> noX (proc0 c) -> noX (proc1 c) ->
    steps cap n (Cfg (nofork (proc0 c)) (nofork (proc1 c)) (ch01 c) (ch10 c))
                (Cfg (nofork (proc0 d)) (nofork (proc1 d)) (ch01 d) (ch10 d))).
  { clear. assert (LS : forall T (p : proc T) a p', lstep p a p' -> noX p -> lstep (nofork p) a (nofork p') /\ noX p').
    { intros T p a p' L N. inversion L; subst; cbn [nofork noX] in *; try contradiction;
      (split; [first [constructor | exact (ls_recv b n (fun l => nofork (k l))) | exact (ls_recv0 (fun l => nofork (k l)))]|auto]).
      }
    induction 1 as [c|n c d e Hs Hst IH]; intros N0 N1; [constructor|].
    inversion Hs; subst; cbn [proc0 proc1 ch01 ch10] in *.
    - destruct (LS _ p a p' H N0) as [L N]. eapply steps_S; [eapply st_0; eassumption|]. apply IH; auto.
    - destruct (LS _ q a q' H N1) as [L N]. eapply steps_S; [eapply st_1; eassumption|]. apply IH; auto.
    - cbn [noX] in *. eapply steps_S; [exact (st_ot01 cap x ps cs (nofork k) (fun l => nofork (k' l)) o i H)|]. apply IH; auto.
    - cbn [noX] in *. eapply steps_S; [exact (st_ot10 cap x ps cs (nofork k) (fun l => nofork (k' l)) o i H)|]. apply IH; auto. }
  exact (E n _ _ H N0 N1).
Qed.

(** Peeling a prefix off a complete run. *)
Lemma conv_after {A B} (p p' : proc A) (q q' : proc B) a b : conv p q a b -> runs p q p' q' -> conv p' q' a b.
Proof.
  intros C R cap Hc. destruct (C cap Hc) as (n & Hn). destruct (R cap Hc) as (m & Hm).
  destruct (confluent _ _ _ _ _ _ Hn (fun e => finished_final _ _ _ _) Hm) as (k & _ & Hk). eauto.
Qed.

Lemma conv_not_undef0 {A B} (q : proc B) (a : A) b : ~ conv Undef q a b.
Proof.
  intros C. destruct (C 1%nat ltac:(lia)) as (n & Hn).
  assert (G : forall n (c d : config A B), steps 1 n c d -> proc0 c = Undef -> proc0 d = Undef).
  { clear. induction 1 as [|n c d e Hs Hst IH]; intros E; auto. apply IH.
    inversion Hs; subst; cbn in *; subst; auto; try discriminate.
    match goal with L : lstep Undef _ _ |- _ => inversion L end. }
  specialize (G _ _ _ Hn eq_refl). discriminate.
Qed.
Lemma conv_not_undef1 {A B} (p : proc A) (a : A) (b : B) : ~ conv p Undef a b.
Proof. intros C. apply (conv_not_undef0 p b a). apply runs_swap in C. exact C. Qed.

(** ** One exchange *)
Lemma fill {A B} cap (k : proc A) (q : proc B) i : forall n bs o, (n <= length bs)%nat -> (length o + n <= cap)%nat ->
  steps cap n (Cfg (Send bs k) q o i) (Cfg (Send (skipn n bs) k) q (o ++ firstn n bs) i).
Proof.
  induction n as [|n IH]; intros bs o Hb Hc.
  - cbn. rewrite app_nil_r. constructor.
  - destruct bs as [|b bs]; [cbn in Hb; lia|]. cbn [firstn skipn length] in *.
    change (o ++ b :: firstn n bs) with (o ++ ([b] ++ firstn n bs)). rewrite app_assoc.
    eapply steps_S; [|apply IH; [lia|rewrite app_length; cbn; lia]].
    eapply st_0; constructor. lia.
Qed.

Lemma xchg_deadlock {A B} cap m0 m1 n0 n1 (k : list Z -> proc A) (k' : list Z -> proc B) :
  (cap < length m0)%nat -> (cap < length m1)%nat ->
  exists n c, steps cap n (start (nofork (Xchg m0 n0 k)) (nofork (Xchg m1 n1 k'))) c /\ both_sending cap c.
Proof.
  intros H0 H1. cbn [nofork].
  set (K0 := Recv n0 (fun l => nofork (k l))). set (K1 := Recv n1 (fun l => nofork (k' l))).
  pose proof (fill cap K0 (Send m1 K1) [] cap m0 [] ltac:(lia) ltac:(cbn; lia)) as F0.
  pose proof (steps_swap _ _ _ _ (fill cap K1 (Send (skipn cap m0) K0) (firstn cap m0) cap m1 [] ltac:(lia) ltac:(cbn; lia))) as F1.
  unfold swapc in F1. cbn [proc0 proc1 ch01 ch10 app] in F0, F1.
  exists (cap + cap)%nat. eexists. split; [eapply steps_trans; [exact F0|exact F1]|].
  unfold both_sending. cbn [proc0 proc1 ch01 ch10].
  destruct (skipn cap m0) as [|b0 r0] eqn:E0; [apply (f_equal (@length _)) in E0; rewrite skipn_length in E0; cbn in E0; lia|].
  destruct (skipn cap m1) as [|b1 r1] eqn:E1; [apply (f_equal (@length _)) in E1; rewrite skipn_length in E1; cbn in E1; lia|].
  exists b0, r0, K0, b1, r1, K1. rewrite !firstn_length. repeat split; lia.
Qed.

Lemma drain {A B} cap : forall bs (k : list Z -> proc A) (q : proc B) o i,
  steps cap (S (length bs)) (Cfg (Recv (length bs) k) q o (bs ++ i)) (Cfg (k bs) q o i).
Proof.
  induction bs as [|b bs IH]; intros k q o i; cbn [length app].
  - eapply steps_S; [eapply st_0; constructor|constructor].
  - eapply steps_S; [eapply st_0; [apply ls_recv|constructor]|]. apply (IH (fun l => k (b :: l))).
Qed.

(** Enough that one of the two messages fits. *)
Lemma xchg_fits0 {A B} cap m0 m1 n0 n1 (k : list Z -> proc A) (k' : list Z -> proc B) :
  (1 <= cap)%nat -> length m0 = n1 -> length m1 = n0 -> (length m0 <= cap)%nat ->
  exists n, steps cap n (start (nofork (Xchg m0 n0 k)) (nofork (Xchg m1 n1 k'))) (start (nofork (k m1)) (nofork (k' m0))).
Proof.
  intros Hc <- <- Hm. cbn [nofork].
  set (K0 := Recv (length m1) (fun l => nofork (k l))). set (K1 := Recv (length m0) (fun l => nofork (k' l))).
  assert (P1 : forall m1 o (kk : list Z -> proc A) , exists n, steps cap n (Cfg (Recv (length m1) kk) (Send m1 K1) o []) (Cfg (kk m1) K1 o [])).
  { induction m2 as [|b m2 IH]; intros o kk; cbn [length].
    - exists 2%nat. eapply steps_S; [eapply st_0; constructor|]. eapply steps_S; [eapply st_1; constructor|]. constructor.
    - destruct (IH o (fun l => kk (b :: l))) as (n & Hn). exists (S (S n)).
      eapply steps_S; [eapply st_1; [apply ls_send|constructor; cbn; lia]|].
      eapply steps_S; [eapply st_0; [apply ls_recv|constructor]|]. exact Hn. }
  destruct (P1 m1 m0 (fun l => nofork (k l))) as (n & Hn).
  pose proof (fill cap K0 (Send m1 K1) [] (length m0) m0 [] ltac:(lia) ltac:(cbn; lia)) as F0.
  rewrite skipn_all, firstn_all in F0. cbn [app] in F0.
  pose proof (steps_swap _ _ _ _ (drain cap m0 (fun l => nofork (k' l)) (nofork (k m1)) [] [])) as D.
  unfold swapc in D. cbn [proc0 proc1 ch01 ch10] in D. rewrite app_nil_r in D.
  eexists. eapply steps_trans; [exact F0|].
  eapply steps_S; [eapply st_0; constructor|]. eapply steps_trans; [exact Hn|exact D].
Qed.

Lemma xchg_fits {A B} cap m0 m1 n0 n1 (k : list Z -> proc A) (k' : list Z -> proc B) :
  (1 <= cap)%nat -> length m0 = n1 -> length m1 = n0 -> (length m0 <= cap \/ length m1 <= cap)%nat ->
  exists n, steps cap n (start (nofork (Xchg m0 n0 k)) (nofork (Xchg m1 n1 k'))) (start (nofork (k m1)) (nofork (k' m0))).
Proof.
  intros Hc E0 E1 [H|H]; [now apply xchg_fits0|].
  destruct (@xchg_fits0 B A cap m1 m0 n1 n0 k' k Hc E1 E0 H) as (n & Hn). exists n.
  exact (steps_swap _ _ _ _ Hn).
Qed.

(** ** Composition *)

(** What is to be shown: reaching the results, or a deadlock. *)
Definition thr {A B} (need : nat) (p : proc A) (q : proc B) (a : A) (b : B) : Prop :=
  forall cap, (1 <= cap)%nat ->
    ((need <= cap)%nat -> exists n, steps cap n (start p q) (finished a b)) /\
    ((cap < need)%nat -> exists n c, steps cap n (start p q) c /\ both_sending cap c).

Lemma thr_threshold {A B} need (p : proc A) (q : proc B) a b : thr need p q a b -> threshold need p q a b.
Proof.
  intros H cap Hc. destruct (H cap Hc) as [H1 H2]. split; intros Hn.
  - destruct (H1 Hn) as (n & E). eapply ends_in_steps; [exact E|intro; apply finished_final|reflexivity].
  - destruct (H2 Hn) as (n & c & E & S). eapply ends_in_steps; [exact E|intro; now apply both_sending_final|exact S].
Qed.

Lemma thr_runs {A B} need (p p' : proc A) (q q' : proc B) a b : runs p q p' q' -> thr need p' q' a b -> thr need p q a b.
Proof.
  intros R H cap Hc. destruct (R cap Hc) as (n & Hn). destruct (H cap Hc) as [H1 H2]. split; intros Hd.
  - destruct (H1 Hd) as (m & Hm). exists (n + m)%nat. eapply steps_trans; eauto.
  - destruct (H2 Hd) as (m & c & Hm & S). exists (n + m)%nat, c. split; auto. eapply steps_trans; eauto.
Qed.

Lemma thr_noX {A B} need (p : proc A) (q : proc B) a b : conv p q a b -> noX p -> noX q -> need = 0%nat -> thr need (nofork p) (nofork q) a b.
Proof.
  intros C N0 N1 -> cap Hc. split; [|lia]. intros _. destruct (C cap Hc) as (n & Hn). exists n.
  apply steps_noX_ret; auto.
Qed.

(** An exchange of two messages of [m] bytes, followed by something that needs no more. *)
Lemma thr_xchg {A B} m need m0 m1 (k : list Z -> proc A) (k' : list Z -> proc B) a b :
  length m0 = m -> length m1 = m -> (need <= m)%nat -> thr need (nofork (k m1)) (nofork (k' m0)) a b ->
  thr m (nofork (Xchg m0 m k)) (nofork (Xchg m1 m k')) a b.
Proof.
  intros L0 L1 Hn H cap Hc. split; intros Hm.
  - destruct (xchg_fits cap m0 m1 m m k k' Hc L0 L1 ltac:(lia)) as (n & E).
    destruct (H cap Hc) as [H1 _]. destruct (H1 ltac:(lia)) as (n' & E'). exists (n + n')%nat. eapply steps_trans; eauto.
  - apply xchg_deadlock; lia.
Qed.

(** The same under a second continuation. *)
Lemma runs_noX2 {A B A1 B1 A2 B2} (p : proc A) (q : proc B) a b
  (F : A -> proc A1) (G : B -> proc B1) (f : A1 -> proc A2) (g : B1 -> proc B2) :
  conv p q a b -> noX p -> noX q ->
  runs (nofork (bind (bind p F) f)) (nofork (bind (bind q G) g)) (nofork (bind (F a) f)) (nofork (bind (G b) g)).
Proof.
  intros C N0 N1 cap Hc. destruct (C cap Hc) as (n & Hn). exists n.
  assert (LS : forall T T1 T2 (p : proc T) a p' (F : T -> proc T1) (f : T1 -> proc T2), lstep p a p' -> noX p ->
    lstep (nofork (bind (bind p F) f)) a (nofork (bind (bind p' F) f)) /\ noX p').
  { clear. intros T T1 T2 p a p' F f L N. inversion L; subst; cbn [bind nofork noX] in *; try contradiction;
    (split; [first [constructor | exact (ls_recv b n (fun l => nofork (bind (bind (k l) F) f)))
                   | exact (ls_recv0 (fun l => nofork (bind (bind (k l) F) f)))]|auto]). }
  assert (E : forall n (c d : config A B), steps cap n c d -> noX (proc0 c) -> noX (proc1 c) ->
    steps cap n (Cfg (nofork (bind (bind (proc0 c) F) f)) (nofork (bind (bind (proc1 c) G) g)) (ch01 c) (ch10 c))
                (Cfg (nofork (bind (bind (proc0 d) F) f)) (nofork (bind (bind (proc1 d) G) g)) (ch01 d) (ch10 d))).
  { clear -LS. induction 1 as [c|n c d e Hs Hst IH]; intros N0 N1; [constructor|].
    inversion Hs; subst; cbn [proc0 proc1 ch01 ch10] in *.
    - destruct (LS _ _ _ p a p' F f H N0) as [L N]. eapply steps_S; [eapply st_0; eassumption|]. apply IH; auto.
    - destruct (LS _ _ _ q a q' G g H N1) as [L N]. eapply steps_S; [eapply st_1; eassumption|]. apply IH; auto.
    - cbn [noX] in *. eapply steps_S; [exact (st_ot01 cap x ps cs (nofork (bind (bind k F) f)) (fun l => nofork (bind (bind (k' l) G) g)) o i H)|]. apply IH; auto.
    - cbn [noX] in *. eapply steps_S; [exact (st_ot10 cap x ps cs (nofork (bind (bind k G) g)) (fun l => nofork (bind (bind (k' l) F) f)) o i H)|]. apply IH; auto. }
  exact (E n _ _ Hn N0 N1).
Qed.

(** A deadlock reached after a prefix. *)
Definition dead {A B} (need : nat) (p : proc A) (q : proc B) : Prop :=
  forall cap, (1 <= cap)%nat -> (cap < need)%nat -> exists n c, steps cap n (start p q) c /\ both_sending cap c.
Lemma dead_runs {A B} need (p p' : proc A) (q q' : proc B) : runs p q p' q' -> dead need p' q' -> dead need p q.
Proof.
  intros R H cap Hc Hd. destruct (R cap Hc) as (n & Hn). destruct (H cap Hc Hd) as (m & c & Hm & S).
  exists (n + m)%nat, c. split; auto. eapply steps_trans; eauto.
Qed.
Lemma dead_ends {A B} need (p : proc A) (q : proc B) cap : dead need p q -> (1 <= cap)%nat -> (cap < need)%nat ->
  ends_in cap p q (both_sending cap).
Proof.
  intros H Hc Hd. destruct (H cap Hc Hd) as (n & c & E & S).
  eapply ends_in_steps; [exact E|intro; now apply both_sending_final|exact S].
Qed.
