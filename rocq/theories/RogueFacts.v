(** * A server running a program of its own: general facts *)
From Coq Require Import ZArith List Bool Lia.
From Verif Require Import Words WordsFacts Constants Share Proc ProcFacts Net NetFacts RelFacts ServerOps SpecServer
  SpecPeer PeerFacts SpecRogue.
Import ListNotations.
Open Scope nat_scope.

(** ** What a program does until its first oblivious transfer, when it receives [inp] *)
Definition transfer := option (bool * (list bool + list (Z * Z)))%type.
Fixpoint course {A} (q : proc A) (inp : list Z) : list Z * transfer :=
  match q with
  | Ret _ | Undef => ([], None)
  | Send bs k => let (e, t) := course k inp in (bs ++ e, t)
  | Recv n k => if (n <=? length inp)%nat then course (k (firstn n inp)) (skipn n inp) else ([], None)
  | Xchg bs n k =>
      if (n <=? length inp)%nat then let (e, t) := course (k (firstn n inp)) (skipn n inp) in (bs ++ e, t) else (bs, None)
  | OTSend x ps _ => ([], Some (x, inr ps))
  | OTRecv x cs _ => ([], Some (x, inl cs))
  end.
Lemma course_lstep {A} (q q' : proc A) a : lstep q a q' -> forall inp,
  match a with
  | ATau => course q inp = course q' inp
  | ASend b => course q inp = (b :: fst (course q' inp), snd (course q' inp))
  | ARecv b => course q (b :: inp) = course q' inp
  end.
Proof.
  induction 1; intros inp; cbn [course].
  - destruct (course k inp); reflexivity.
  - destruct (course k inp); reflexivity.
  - reflexivity.
  - cbn [length firstn skipn]. reflexivity.
  - cbn [Nat.leb firstn skipn]. destruct (course (k []) inp); reflexivity.
  - destruct (n <=? length inp); [|reflexivity]. destruct (course (k (firstn n inp)) (skipn n inp)); reflexivity.
  - cbn [length firstn skipn]. reflexivity.
Qed.

(** ** Programs that look the same from outside *)
Definition inert {A} (p : proc A) : Prop := match p with Ret _ | Undef => True | _ => False end.
Inductive eqv {A A'} : proc A -> proc A' -> Prop :=
| eqv_end p p' : inert p -> inert p' -> eqv p p'
| eqv_send bs k k' : eqv k k' -> eqv (Send bs k) (Send bs k')
| eqv_recv n k k' : (forall l, eqv (k l) (k' l)) -> eqv (Recv n k) (Recv n k').

Lemma eqv_lstep {A A'} (p : proc A) (p' : proc A') : eqv p p' -> forall a p1, lstep p a p1 ->
  exists p1', lstep p' a p1' /\ eqv p1 p1'.
Proof.
  intros E a p1 L. destruct E as [p p' I I'|bs k k' E|n k k' E].
  - destruct p; try contradiction; inversion L.
  - inversion L; subst; [exists k'; split; [constructor|exact E]|].
    exists (Send bs0 k'). split; [constructor|now apply eqv_send].
  - inversion L; subst; [exists (k' []); split; [constructor|apply E]|].
    exists (Recv n0 (fun l => k' (b :: l))). split; [constructor|]. apply eqv_recv. intros l. apply E.
Qed.

(** ** Runs in parallel *)
Section Lockstep.
Variables A A' B : Type.
Variable R : proc B -> proc A -> proc A' -> list Z -> list Z -> Prop.
Hypothesis R_q : forall q p p' o i a q1 o1 i1 cap, R q p p' o i -> lstep q a q1 -> chan cap a o i o1 i1 -> R q1 p p' o1 i1.
Hypothesis R_p : forall q p p' o i a p1 o1 i1 cap, R q p p' o i -> lstep p a p1 -> chan cap a i o i1 o1 ->
  exists p1', lstep p' a p1' /\ R q p1 p1' o1 i1.
Hypothesis R_ot01 : forall x ps cs k (k' : list Z -> proc A) p' o i, R (OTSend x ps k) (OTRecv x cs k') p' o i -> length ps = length cs ->
  exists cs' k'', p' = OTRecv x cs' k'' /\ length ps = length cs' /\ R k (k' (map2 ot_select cs ps)) (k'' (map2 ot_select cs' ps)) o i.
Hypothesis R_ot10 : forall x ps cs (k : proc A) k' p' o i, R (OTRecv x cs k') (OTSend x ps k) p' o i -> length ps = length cs ->
  exists ps' k'', p' = OTSend x ps' k'' /\ length ps' = length cs /\ map2 ot_select cs ps' = map2 ot_select cs ps /\ R (k' (map2 ot_select cs ps)) k k'' o i.

Lemma lockstep cap n : forall c d, steps cap n c d -> forall p', R (proc0 c) (proc1 c) p' (ch01 c) (ch10 c) ->
  exists p1', steps cap n (Cfg (proc0 c) p' (ch01 c) (ch10 c)) (Cfg (proc0 d) p1' (ch01 d) (ch10 d)).
Proof.
  intros c d H. induction H as [c|n c d e H H' IH]; intros p' HR.
  - exists p'. constructor.
  - destruct H as [a q q1 p o i o1 i1 L C|a q p p1 o i o1 i1 L C|x ps cs k k' o i L|x ps cs k k' o i L]; cbn [proc0 proc1 ch01 ch10] in *.
    + destruct (IH p') as (z & S); [exact (R_q _ _ _ _ _ _ _ _ _ _ HR L C)|]. exists z. econstructor; [|exact S]. econstructor; eassumption.
    + destruct (R_p _ _ _ _ _ _ _ _ _ _ HR L C) as (p1' & L' & HR'). destruct (IH p1' HR') as (z & S).
      exists z. econstructor; [|exact S]. eapply st_1; eassumption.
    + destruct (R_ot01 _ _ _ _ _ _ _ _ HR L) as (cs' & k'' & -> & L' & HR'). destruct (IH _ HR') as (z & S).
      exists z. econstructor; [|exact S]. now constructor.
    + destruct (R_ot10 _ _ _ _ _ _ _ _ HR L) as (ps' & k'' & -> & L' & E & HR'). destruct (IH _ HR') as (z & S).
      exists z. econstructor; [|exact S]. rewrite <- E. now constructor.
Qed.
Lemma lockstep_leads q p p' : R q p p' [] [] -> forall q', leads0 q p q' -> leads0 q p' q'.
Proof.
  intros HR q' (cap & n & c & C & S & E). destruct (lockstep cap n _ _ S p' HR) as (z & S').
  exists cap, n, (Cfg (proc0 c) z (ch01 c) (ch10 c)). auto.
Qed.
End Lockstep.

(** ** A server that first only sends, then only receives, then does something for which
    only what it received matters *)
Definition fits_together {A A'} (t : transfer) (p : proc A) (p' : proc A') : Prop :=
  eqv p p' \/
  (exists x ps ps' k k', p = OTSend x ps k /\ p' = OTSend x ps' k' /\ length ps = length ps' /\ eqv k k' /\
     forall cs, t = Some (x, inl cs) -> length ps = length cs -> map2 ot_select cs ps' = map2 ot_select cs ps) \/
  (exists x cs cs' k k', p = OTRecv x cs k /\ p' = OTRecv x cs' k' /\ length cs = length cs' /\
     forall ps, t = Some (x, inr ps) -> length ps = length cs -> eqv (k (map2 ot_select cs ps)) (k' (map2 ot_select cs' ps))).

Section Staged.
Variables A A' B U : Type.
Variable q0 : proc B.
Variable T : U -> proc A.
Variable T' : U -> proc A'.
Variable r0 : proc U.
Variable all : list Z.
Hypothesis HT : forall v rest, feed r0 (fst (course q0 all)) = Some (v, rest) ->
  fits_together (snd (course q0 all)) (T v) (T' v).

Definition follows (q : proc B) (e o fut : list Z) : Prop :=
  course q0 all = (e ++ o ++ fst (course q fut), snd (course q fut)).

Inductive R : proc B -> proc A -> proc A' -> list Z -> list Z -> Prop :=
| R_send q (s : proc unit) rem o i : emits s rem tt -> listens r0 -> follows q [] o (i ++ rem) ->
    R q (bind s (fun _ => bind r0 T)) (bind s (fun _ => bind r0 T')) o i
| R_recv q r e o i : listens r -> (forall rest, feed r rest = feed r0 (e ++ rest)) -> follows q e o i ->
    R q (bind r T) (bind r T') o i
| R_tail q p p' o i : eqv p p' -> R q p p' o i.

Lemma follows_move q e o i rem a q1 o1 i1 cap : follows q e o (i ++ rem) -> lstep q a q1 -> chan cap a o i o1 i1 ->
  follows q1 e o1 (i1 ++ rem).
Proof.
  unfold follows. intros F L C. rewrite F. pose proof (course_lstep q q1 a L) as H. destruct C; cbn in H.
  - now rewrite H.
  - rewrite H. cbn. now rewrite <- !app_assoc.
  - cbn. now rewrite H.
Qed.
Lemma follows_recv q e b o i : follows q e (b :: o) i -> follows q (e ++ [b]) o i.
Proof. unfold follows. intros ->. now rewrite <- !app_assoc. Qed.

Lemma tail_steps q p p' o i : eqv p p' -> forall a p1 o1 i1 cap, lstep p a p1 -> chan cap a i o i1 o1 ->
  exists p1', lstep p' a p1' /\ R q p1 p1' o1 i1.
Proof. intros E a p1 o1 i1 cap L C. destruct (eqv_lstep p p' E a p1 L) as (p1' & L' & E'). exists p1'. split; auto. now apply R_tail. Qed.

Lemma at_end q v e o i : (forall rest, feed (Ret v) rest = feed r0 (e ++ rest)) -> follows q e o i ->
  fits_together (snd (course q i)) (T v) (T' v).
Proof.
  intros Hf F. unfold follows in F. replace (snd (course q i)) with (snd (course q0 all)) by (rewrite F; reflexivity).
  apply (HT v (o ++ fst (course q i))). rewrite F. cbn [fst]. rewrite <- Hf. reflexivity.
Qed.

Lemma recv_steps q r e o i : listens r -> (forall rest, feed r rest = feed r0 (e ++ rest)) -> follows q e o i ->
  forall a p1 o1 i1 cap, lstep (bind r T) a p1 -> chan cap a i o i1 o1 ->
  exists p1', lstep (bind r T') a p1' /\ R q p1 p1' o1 i1.
Proof.
  intros Hr Hf F a p1 o1 i1 cap L C. destruct r as [v| |bs k|n k|bs n k|x ps k|x cs k]; try contradiction; cbn [bind] in *.
  - destruct (at_end q v e o i Hf F) as [E|[(x & ps & ps' & k & k' & E & _)|(x & cs & cs' & k & k' & E & _)]].
    + exact (tail_steps q _ _ o i E a p1 o1 i1 cap L C).
    + rewrite E in L. inversion L.
    + rewrite E in L. inversion L.
  - cbn in Hr. inversion L; subst.
    + inversion C; subst. exists (bind (k []) T'). split; [constructor|]. apply (R_recv q (k []) e); auto.
    + inversion C; subst. exists (bind (Recv n0 (fun l => k (b :: l))) T'). split; [constructor|].
      apply (R_recv q (Recv n0 (fun l => k (b :: l))) (e ++ [b])).
      * intros l. apply Hr.
      * intros rest. rewrite <- app_assoc. cbn [app]. rewrite <- Hf. cbn [feed length firstn skipn]. reflexivity.
      * now apply follows_recv.
Qed.

Lemma recv_ot01 x ps cs k (k' : list Z -> proc A) r e o i : listens r -> (forall rest, feed r rest = feed r0 (e ++ rest)) ->
  follows (OTSend x ps k) e o i -> bind r T = OTRecv x cs k' -> length ps = length cs ->
  exists cs' k'', bind r T' = OTRecv x cs' k'' /\ length ps = length cs' /\
    R k (k' (map2 ot_select cs ps)) (k'' (map2 ot_select cs' ps)) o i.
Proof.
  intros Hr Hf F E L. destruct r as [v| |bs g|n g|bs n g|y qs g|y ds g]; try contradiction; try discriminate. cbn [bind] in *.
  destruct (at_end _ v e o i Hf F) as [H|[(y & qs & qs' & g & g' & H & _)|(y & ds & ds' & g & g' & H & H' & Ld & Hq)]].
  - rewrite E in H. inversion H; subst. contradiction.
  - congruence.
  - rewrite E in H. injection H as <- <- <-. exists ds', g'. split; [exact H'|]. split; [congruence|]. apply R_tail. apply Hq; [reflexivity|exact L].
Qed.
Lemma recv_ot10 x ps cs (k : proc A) k' r e o i : listens r -> (forall rest, feed r rest = feed r0 (e ++ rest)) ->
  follows (OTRecv x cs k') e o i -> bind r T = OTSend x ps k -> length ps = length cs ->
  exists ps' k'', bind r T' = OTSend x ps' k'' /\ length ps' = length cs /\ map2 ot_select cs ps' = map2 ot_select cs ps /\
    R (k' (map2 ot_select cs ps)) k k'' o i.
Proof.
  intros Hr Hf F E L. destruct r as [v| |bs g|n g|bs n g|y qs g|y ds g]; try contradiction; try discriminate. cbn [bind] in *.
  destruct (at_end _ v e o i Hf F) as [H|[(y & qs & qs' & g & g' & H & H' & Ld & Hk & Hq)|(y & ds & ds' & g & g' & H & _)]].
  - rewrite E in H. inversion H; subst. contradiction.
  - rewrite E in H. injection H as <- <- <-. exists qs', g'. split; [exact H'|]. split; [congruence|]. split; [apply Hq; [reflexivity|exact L]|].
    now apply R_tail.
  - congruence.
Qed.

Lemma staged_half (s : proc unit) : emits s all tt -> listens r0 -> forall q',
  leads0 q0 (bind s (fun _ => bind r0 T)) q' -> leads0 q0 (bind s (fun _ => bind r0 T')) q'.
Proof.
  intros Hs Hr. apply (lockstep_leads A A' B R).
  - intros q p p' o i a q1 o1 i1 cap HR L C. destruct HR as [q s' rem o i E Hl F|q r e o i Hl Hf F|q p p' o i E].
    + apply (R_send q1 s' rem); auto. eapply follows_move; eassumption.
    + apply (R_recv q1 r e); auto. rewrite <- (app_nil_r i1). eapply follows_move; [rewrite app_nil_r; exact F|exact L|exact C].
    + now apply R_tail.
  - intros q p p' o i a p1 o1 i1 cap HR L C. destruct HR as [q s' rem o i E Hl F|q r e o i Hl Hf F|q p p' o i E].
    + inversion E; subst; cbn [bind] in *.
      * rewrite app_nil_r in F. exact (recv_steps q r0 [] o i Hl (fun _ => eq_refl) F a p1 o1 i1 cap L C).
      * inversion L; subst; inversion C; subst.
        -- eexists. split; [apply ls_send0|]. apply (R_send q k l); auto.
        -- eexists. split; [apply ls_send|]. apply (R_send q (Send bs0 k) (bs0 ++ l)); [now constructor|exact Hl|].
           rewrite <- app_assoc. exact F.
    + exact (recv_steps q r e o i Hl Hf F a p1 o1 i1 cap L C).
    + exact (tail_steps q p p' o i E a p1 o1 i1 cap L C).
  - intros x ps cs k k' p' o i HR L.
    remember (OTSend x ps k) as q eqn:Eq. remember (OTRecv x cs k') as p eqn:Ep.
    destruct HR as [q s' rem o i E Hl F|q r e o i Hl Hf F|q p p' o i E]; subst q.
    + destruct s' as [[]| |bs z|n z|bs n z|y qs z|y ds z]; inversion E; subst; cbn [bind] in *; [|discriminate].
      rewrite app_nil_r in F. exact (recv_ot01 x ps cs k k' r0 [] o i Hl (fun _ => eq_refl) F Ep L).
    + exact (recv_ot01 x ps cs k k' r e o i Hl Hf F Ep L).
    + subst p. inversion E; contradiction.
  - intros x ps cs k k' p' o i HR L.
    remember (OTRecv x cs k') as q eqn:Eq. remember (OTSend x ps k) as p eqn:Ep.
    destruct HR as [q s' rem o i E Hl F|q r e o i Hl Hf F|q p p' o i E]; subst q.
    + destruct s' as [[]| |bs z|n z|bs n z|y qs z|y ds z]; inversion E; subst; cbn [bind] in *; [|discriminate].
      rewrite app_nil_r in F. exact (recv_ot10 x ps cs k k' r0 [] o i Hl (fun _ => eq_refl) F Ep L).
    + exact (recv_ot10 x ps cs k k' r e o i Hl Hf F Ep L).
    + subst p. inversion E; contradiction.
  - apply (R_send q0 s all); auto. unfold follows. cbn. now destruct (course q0 all).
Qed.
End Staged.

Lemma eqv_sym {A A'} (p : proc A) (p' : proc A') : eqv p p' -> eqv p' p.
Proof. induction 1; [now apply eqv_end|now apply eqv_send|now apply eqv_recv]. Qed.
Lemma eqv_refl_emits {A} (p : proc A) bs a : emits p bs a -> eqv p p.
Proof. induction 1; [apply eqv_end; exact I|now apply eqv_send]. Qed.
Lemma fits_sym {A A'} t (p : proc A) (p' : proc A') : fits_together t p p' -> fits_together t p' p.
Proof.
  intros [H|[(x & ps & ps' & k & k' & -> & -> & L & E & H)|(x & cs & cs' & k & k' & -> & -> & L & H)]].
  - left. now apply eqv_sym.
  - right; left. exists x, ps', ps, k', k. split; [auto|]. split; [auto|]. split; [auto|]. split; [now apply eqv_sym|].
    intros cs E1 E2. symmetry. apply H; congruence.
  - right; right. exists x, cs', cs, k', k. split; [auto|]. split; [auto|]. split; [auto|].
    intros ps E1 E2. apply eqv_sym. apply H; congruence.
Qed.

(** The program [q] fares the same if what comes after the stages fits. *)
Lemma staged server {A A' B U} (q : proc B) (T : U -> proc A) (T' : U -> proc A') r (s : proc unit) all :
  emits s all tt -> listens r ->
  (forall v rest, feed r (fst (course q all)) = Some (v, rest) -> fits_together (snd (course q all)) (T v) (T' v)) ->
  same_to server q (bind s (fun _ => bind r T)) (bind s (fun _ => bind r T')).
Proof.
  intros Hs Hr H q'.
  assert (L : leads0 q (bind s (fun _ => bind r T)) q' <-> leads0 q (bind s (fun _ => bind r T')) q').
  { split; apply (staged_half _ _ B U q _ _ r all); auto. intros v rest E. apply fits_sym. eauto. }
  unfold leads. destruct server; [|exact L]. now rewrite !leads_swap.
Qed.

