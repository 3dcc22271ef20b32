(** * A server facing an arbitrary program: general facts *)
From Coq Require Import ZArith List Bool Lia.
From Verif Require Import Words WordsFacts Constants Share Proc ProcFacts Net NetFacts RelFacts ServerOps SpecServer TableFacts
  SpecPeer.
Import ListNotations.
Open Scope nat_scope.

(** ** [against] describes exactly what can happen *)

Lemma against_lstep {A} (p : proc A) a p' : lstep p a p' -> forall i w,
  against p (match a with ARecv b => b :: i | _ => i end) w = against p' i w.
Proof.
  induction 1; intros i w; cbn [against firstn skipn length]; auto.
Qed.

Lemma against_steps {A B} cap n : forall (c d : config A B), steps cap n c d -> forall i w, exists i' w',
  against (proc0 c) i' w' = against (proc0 d) i w.
Proof.
  intros c d H. induction H as [|n c d e H H' IH]; intros i w; [now exists i, w|].
  destruct (IH i w) as (i1 & w1 & E). rewrite <- E.
  destruct H as [a p p' q o j o' j' L _|a p q q' o j o' j' L _|x ps cs k k' o j L|x ps cs k k' o j L]; cbn [proc0].
  - eexists _, w1. apply (against_lstep p a p' L).
  - now exists i1, w1.
  - exists i1, w1. reflexivity.
  - exists i1, (map2 ot_select cs ps :: w1). cbn [against]. rewrite map2_length, L, Nat.min_id, Nat.eqb_refl. reflexivity.
Qed.

(** A program that plays the part of the other side. *)
Fixpoint mirror {A} (p : proc A) (i : list Z) (w : list (list Z)) : proc unit :=
  match p with
  | Ret _ | Undef => Ret tt
  | Send bs k => Recv (length bs) (fun _ => mirror k i w)
  | Recv n k => Send (firstn n i) (mirror (k (firstn n i)) (skipn n i) w)
  | Xchg bs n k => Xchg (firstn n i) (length bs) (fun _ => mirror (k (firstn n i)) (skipn n i) w)
  | OTSend x ps k => OTRecv x (map (fun _ => false) ps) (fun _ => mirror k i w)
  | OTRecv x cs k =>
      match w with
      | m :: w' => OTSend x (map (fun z => (z, z)) m) (mirror (k m) i w')
      | [] => Ret tt
      end
  end.

Lemma select_same : forall (cs : list bool) m, length m = length cs -> map2 ot_select cs (map (fun z => (z, z)) m) = m.
Proof.
  induction cs as [|c cs IH]; intros [|z m] L; try discriminate; [reflexivity|]. cbn. rewrite IH by (cbn in L; congruence).
  unfold ot_select. cbn. now destruct c.
Qed.

Definition stopped {A} (f : fate A) : option (proc A) :=
  match f with Returns a => Some (Ret a) | Breaks => Some Undef | Waits => None end.

Lemma mirror_runs {A} (p : proc A) : forall i w e, stopped (against p i w) = Some e ->
  exists q, runs p (mirror p i w) e q.
Proof.
  induction p as [a| |bs k IH|n k IH|bs n k IH|x ps k IH|x cs k IH]; intros i w e; cbn [against mirror stopped].
  - intros [= <-]. eexists. apply runs_refl.
  - intros [= <-]. eexists. apply runs_refl.
  - intros H. destruct (IH i w e H) as (q & R). exists q. eapply runs_trans; [apply runs_send_recv; reflexivity|exact R].
  - destruct (Nat.leb_spec n (length i)) as [L|L]; [|discriminate]. intros H.
    destruct (IH _ _ _ _ H) as (q & R). exists q. eapply runs_trans; [|exact R].
    apply (runs_recv_send (firstn n i) n k). now rewrite firstn_length_le.
  - destruct (Nat.leb_spec n (length i)) as [L|L]; [|discriminate]. intros H.
    destruct (IH _ _ _ _ H) as (q & R). exists q. eapply runs_trans; [|exact R].
    apply (runs_xchg bs (firstn n i) n (length bs) k (fun _ => _)); [reflexivity|]. now rewrite firstn_length_le.
  - intros H. destruct (IH i w e H) as (q & R). exists q. eapply runs_trans; [|exact R].
    apply (runs_ot x ps (map (fun _ => false) ps) k (fun _ => mirror k i w)). now rewrite map_length.
  - destruct w as [|m w]; [discriminate|]. destruct (Nat.eqb_spec (length m) (length cs)) as [L|L]; [|discriminate].
    intros H. destruct (IH _ _ _ _ H) as (q & R). exists q. eapply runs_trans; [|exact R].
    pose proof (runs_ot' x (map (fun z => (z, z)) m) cs k (mirror (k m) i w)) as Q. rewrite map_length in Q.
    specialize (Q L). rewrite select_same in Q by exact L. exact Q.
Qed.

Lemma against_ends {A} (p e : proc A) : (e = Undef \/ exists a, e = Ret a) ->
  (exists B (q : proc B), leads0 p q e) <-> exists i w, stopped (against p i w) = Some e.
Proof.
  intros He. split.
  - intros (B & q & cap & n & c & _ & S & E).
    destruct (against_steps cap n _ _ S [] []) as (i & w & H). cbn [start proc0] in H. exists i, w. rewrite H, E.
    destruct He as [->|[a ->]]; reflexivity.
  - intros (i & w & H). exists unit, (mirror p i w). destruct (mirror_runs p i w e H) as (q & R).
    destruct (R 1 (le_n _)) as (n & S). exists 1, n, (start e q). auto.
Qed.

Lemma leads_swap {A B} (p : proc A) (q : proc B) e : leads1 p q e <-> leads0 p q e.
Proof.
  split; intros (cap & n & c & C & S & E); apply steps_swap in S; exists cap, n, (swapc c); destruct c; cbn in *; auto.
Qed.

(** ** Programs that do not break *)

(** Whatever bytes in [Pb] and whatever transfers arrive, [p] does not break, and if it
    returns, the result is in [Q]. *)
Fixpoint fine {A} (Pb : Z -> Prop) (Q : A -> Prop) (p : proc A) : Prop :=
  match p with
  | Ret a => Q a
  | Undef => False
  | Send _ k => fine Pb Q k
  | Recv n k => forall l, length l = n -> Forall Pb l -> fine Pb Q (k l)
  | Xchg _ n k => forall l, length l = n -> Forall Pb l -> fine Pb Q (k l)
  | OTSend _ _ k => fine Pb Q k
  | OTRecv _ cs k => forall l, length l = length cs -> fine Pb Q (k l)
  end.

Lemma fine_against {A} Pb Q (p : proc A) : fine Pb Q p -> forall i w, Forall Pb i ->
  match against p i w with Returns a => Q a | Breaks => False | Waits => True end.
Proof.
  induction p as [a| |bs k IH|n k IH|bs n k IH|x ps k IH|x cs k IH]; intros F i w Hi; cbn [against fine] in *;
    [exact F|exact F|now apply IH| | |now apply IH|].
  - destruct (Nat.leb_spec n (length i)); auto. apply IH.
    + apply F; [now rewrite firstn_length_le|now apply Forall_firstn].
    + now apply Forall_skipn.
  - destruct (Nat.leb_spec n (length i)); auto. apply IH.
    + apply F; [now rewrite firstn_length_le|now apply Forall_firstn].
    + now apply Forall_skipn.
  - destruct w as [|m w]; [exact I|]. destruct (Nat.eqb_spec (length m) (length cs)) as [E|]; [|exact I].
    apply IH; auto.
Qed.

Lemma fine_bind {A B} Pb Q R (p : proc A) (f : A -> proc B) :
  fine Pb Q p -> (forall a, Q a -> fine Pb R (f a)) -> fine Pb R (bind p f).
Proof.
  intros F H. induction p as [a| |bs k IH|n k IH|bs n k IH|x ps k IH|x cs k IH]; cbn [bind fine] in *; auto.
Qed.
Lemma fine_imp {A} Pb (Q R : A -> Prop) (p : proc A) : fine Pb Q p -> (forall a, Q a -> R a) -> fine Pb R p.
Proof.
  intros F H. induction p as [a| |bs k IH|n k IH|bs n k IH|x ps k IH|x cs k IH]; cbn [fine] in *; auto.
Qed.
Lemma fine_emits {A} Pb (p : proc A) bs a : emits p bs a -> fine Pb (fun x => x = a) p.
Proof. induction 1; cbn; auto. Qed.

(** ** Parts that only send, and parts that only receive *)
Lemma against_emits {A B} (p : proc A) bs a (f : A -> proc B) i w : emits p bs a ->
  against (bind p f) i w = against (f a) i w.
Proof. induction 1; cbn [bind against]; auto. Qed.

Lemma against_feed {A B} (r : proc A) (f : A -> proc B) : forall i w,
  match feed r i with
  | Some (x, rest) => against (bind r f) i w = against (f x) rest w
  | None => True
  end.
Proof.
  induction r as [a| |bs k IH|n k IH|bs n k IH|x ps k IH|x cs k IH]; intros i w; cbn [feed bind against]; auto.
  destruct (n <=? length i); [|exact I]. apply IH.
Qed.
(** Only receives. *)
Fixpoint listens {A} (r : proc A) : Prop :=
  match r with Ret _ => True | Recv _ k => forall l, listens (k l) | _ => False end.
Lemma against_waits {A B} (r : proc A) (f : A -> proc B) : listens r -> forall i w, feed r i = None ->
  against (bind r f) i w = Waits.
Proof.
  induction r as [a| |bs k IH|n k IH|bs n k IH|x ps k IH|x cs k IH]; cbn [listens]; intros L i w E; try easy.
  cbn [feed bind against] in *. destruct (n <=? length i); auto.
Qed.
Lemma listens_bind {A B} (r : proc A) (f : A -> proc B) : listens r -> (forall a, listens (f a)) -> listens (bind r f).
Proof. induction r; cbn; intros; auto; easy. Qed.

Lemma listens_pks n : listens (recv_pks n).
Proof. induction n as [|n IH]; cbn [recv_pks listens]; auto. intros l. apply listens_bind; cbn; auto. Qed.
Lemma listens_learn : listens learn.
Proof. unfold learn. apply listens_bind; [cbn; auto|]. intros; apply listens_pks. Qed.

Lemma feed_pks n : forall i pks rest, feed (recv_pks n) i = Some (pks, rest) <->
  length pks = n /\ Forall (fun pk => length pk = 32) pks /\ i = concat pks ++ rest.
Proof.
  induction n as [|n IH]; intros i pks rest; cbn [recv_pks].
  - cbn [feed]. split.
    + intros [= <- <-]. auto.
    + intros (L & _ & E). destruct pks; [|discriminate]. cbn in E. now subst.
  - cbn [feed]. change PK_LENGTH with 32. destruct (Nat.leb_spec 32 (length i)) as [L|L].
    + split.
      * intros H. destruct (feed (recv_pks n) (skipn 32 i)) as [[p' r']|] eqn:E.
        -- rewrite (feed_bind _ _ _ _ _ E) in H. cbn [feed] in H.
           apply (f_equal (fun o => match o with Some x => x | None => (pks, rest) end)) in H. cbn beta iota in H.
           apply pair_equal_spec in H as [<- <-].
           apply IH in E as (E1 & E2 & E3). split; [exact (f_equal S E1)|]. split.
           { constructor; [now apply firstn_length_le|exact E2]. }
           change (concat (firstn 32 i :: p')) with (firstn 32 i ++ concat p').
           rewrite <- app_assoc, <- E3. symmetry. apply firstn_skipn.
        -- exfalso. revert H E. generalize (skipn 32 i) (firstn 32 i). clear. intros j k.
           revert j. generalize (recv_pks n) (listens_pks n). intros r. induction r; cbn [listens]; intros LL j; try easy.
           cbn [bind feed]. destruct (n0 <=? length j); [apply H; auto|discriminate].
      * intros (E1 & E2 & ->). destruct pks as [|pk pks]; [discriminate|]. apply Forall_cons_iff in E2 as [E2 E3].
        cbn [concat]. rewrite <- app_assoc. rewrite <- E2. rewrite firstn_app, firstn_all, Nat.sub_diag, firstn_O, app_nil_r.
        rewrite skipn_app, skipn_all, Nat.sub_diag. cbn [app skipn].
        assert (E : feed (recv_pks n) (concat pks ++ rest) = Some (pks, rest)) by (apply IH; cbn in E1; auto).
        rewrite (feed_bind _ _ _ _ _ E). reflexivity.
    + split; [discriminate|]. intros (E1 & E2 & ->). destruct pks as [|pk pks]; [discriminate|].
      apply Forall_cons_iff in E2 as [E2 _]. cbn [concat] in L. rewrite !app_length in L. lia.
Qed.

Lemma feed_learn i pks rest : feed learn i = Some (pks, rest) <-> announced i pks rest.
Proof.
  unfold learn, announced. cbn [recv_size bind feed]. unfold recv_size. cbn [bind feed].
  destruct (Nat.leb_spec 8 (length i)) as [L|L].
  - rewrite feed_pks. tauto.
  - split; [discriminate|]. intros []. lia.
Qed.

Lemma learn_against {B} (f : list (list Z) -> proc B) i w :
  (exists pks rest, announced i pks rest /\ against (bind learn f) i w = against (f pks) rest w) \/
  (~ exists pks rest, announced i pks rest) /\ against (bind learn f) i w = Waits.
Proof.
  pose proof (against_feed learn f i w) as H. pose proof (against_waits learn f listens_learn i w) as H'.
  destruct (feed learn i) as [[pks rest]|] eqn:E.
  - left. exists pks, rest. split; auto. now apply feed_learn.
  - right. split; auto. intros (pks & rest & H2). apply feed_learn in H2. congruence.
Qed.
Lemma announced_unique i pks rest pks' rest' : announced i pks rest -> announced i pks' rest' -> pks = pks' /\ rest = rest'.
Proof. intros H H'. apply feed_learn in H, H'. rewrite H in H'. now injection H' as -> ->. Qed.
