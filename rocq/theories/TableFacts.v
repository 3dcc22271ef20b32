(** * Facts about reading records into tables and announcing identities *)
From Coq Require Import ZArith List Bool Lia Permutation.
From Verif Require Import Words WordsFacts Constants Proc ProcFacts Net NetFacts SpecNet RelFacts
  ServerOps SpecServer.
Import ListNotations.
Open Scope Z_scope.

Lemma key_eqb_spec a b : reflect (a = b) (key_eqb a b).
Proof. unfold key_eqb. destruct (list_eq_dec Z.eq_dec a b); now constructor. Qed.
Lemma key_eqb_refl a : key_eqb a a = true.
Proof. now destruct (key_eqb_spec a a). Qed.

(** ** Tables *)
Lemma find_app {V} pk (m m' : table V) :
  find pk (m ++ m') = match find pk m with Some v => Some v | None => find pk m' end.
Proof. induction m as [|[k v] m IH]; cbn; auto. now destruct (key_eqb k pk). Qed.

Lemma find_in {V} pk (m : table V) v : find pk m = Some v -> In (pk, v) m.
Proof.
  induction m as [|[k w] m IH]; cbn; [discriminate|].
  destruct (key_eqb_spec k pk) as [->|]; [injection 1 as ->; auto|auto].
Qed.

Lemma in_find {V} pk (m : table V) v : NoDup (map fst m) -> In (pk, v) m -> find pk m = Some v.
Proof.
  induction m as [|[k w] m IH]; cbn; intros N H; [easy|]. inversion N; subst.
  destruct H as [H|H]; [injection H as -> ->; now rewrite key_eqb_refl|].
  destruct (key_eqb_spec k pk) as [->|]; auto.
  exfalso. apply H2. apply (in_map fst) in H. exact H.
Qed.

Lemma find_none {V} pk (m : table V) : find pk m = None <-> ~ In pk (map fst m).
Proof.
  induction m as [|[k v] m IH]; cbn; [easy|].
  destruct (key_eqb_spec k pk) as [->|N].
  - split; [discriminate|]. intros H. exfalso. auto.
  - rewrite IH. split; [intros H [E|E]; auto|auto].
Qed.

Lemma find_some_iff {V} pk (m : table V) : find pk m <> None <-> In pk (map fst m).
Proof.
  destruct (in_dec (list_eq_dec Z.eq_dec) pk (map fst m)) as [H|H].
  - split; auto. intros _ E. now apply find_none in E.
  - apply find_none in H as E. rewrite E. split; [easy|]. now intros H'.
Qed.

(** ** The receive loop *)
Fixpoint build {V} (recs : list (list Z * option V)) (m : table V) : table V :=
  match recs with
  | [] => m
  | (k, o) :: recs' =>
      match find k m, o with
      | None, Some v => build recs' (m ++ [(k, v)])
      | _, _ => build recs' m
      end
  end.

Definition entry_of {V} (o : option V) : entry V := match o with Some v => Take v | None => Skip end.

Inductive reads {S V} (one : S -> list Z * entry V * S) : S -> list (list Z * option V) -> S -> Prop :=
| reads_nil s : reads one s [] s
| reads_cons s pk o s' recs s'' :
    one s = (pk, entry_of o, s') -> reads one s' recs s'' -> reads one s ((pk, o) :: recs) s''.

Lemma receive_build {S V} (one : S -> list Z * entry V * S) s recs s' :
  reads one s recs s' -> forall m, receive one (length recs) s m = Some (build recs m).
Proof.
  induction 1; intros m; cbn [receive build length]; auto.
  rewrite H. destruct (find pk m); [auto|]. destruct o; cbn [entry_of]; auto.
Qed.

Lemma receive_build_app {S V} (one : S -> list Z * entry V * S) s recs s' n m :
  reads one s recs s' -> receive one (length recs + n) s m = receive one n s' (build recs m).
Proof.
  intros H. revert m. induction H; intros m; cbn [receive build length Nat.add]; auto.
  rewrite H. destruct (find pk m); [auto|]. destruct o; cbn [entry_of]; auto.
Qed.

Definition recs_of {V} (ok : V -> bool) (subs : list (list Z * V)) : list (list Z * option V) :=
  map (fun s => (fst s, if ok (snd s) then Some (snd s) else None)) subs.

Lemma build_find {V} (ok : V -> bool) subs : forall (m : table V) pk,
  find pk (build (recs_of ok subs) m)
  = match find pk m with Some v => Some v | None => first_sub ok subs pk end.
Proof.
  induction subs as [|[k v] subs IH]; intros m pk; cbn [recs_of map build first_sub fst snd].
  - now destruct (find pk m).
  - fold (recs_of ok subs).
    destruct (ok v) eqn:E.
    + destruct (find k m) eqn:F.
      * rewrite IH. destruct (find pk m) eqn:G; auto.
        destruct (key_eqb_spec k pk) as [->|]; [congruence|auto].
      * rewrite IH, find_app. cbn [find]. rewrite andb_true_r.
        destruct (find pk m) eqn:G; auto. now destruct (key_eqb k pk).
    + rewrite andb_false_r. destruct (find k m); apply IH.
Qed.

Lemma build_nodup {V} recs : forall (m : table V), NoDup (map fst m) -> NoDup (map fst (build recs m)).
Proof.
  induction recs as [|[k o] recs IH]; intros m N; cbn [build]; auto.
  destruct (find k m) eqn:F; auto. destruct o; auto. apply IH.
  rewrite map_app. apply Permutation_NoDup with (l := k :: map fst m).
  - cbn. apply Permutation_cons_append.
  - constructor; auto. now apply find_none.
Qed.

Lemma build_forall {V} (P : list Z * V -> Prop) recs : forall (m : table V),
  Forall P m -> Forall (fun r => match snd r with Some v => P (fst r, v) | None => True end) recs ->
  Forall P (build recs m).
Proof.
  induction recs as [|[k o] recs IH]; intros m Hm Hr; cbn [build]; auto.
  inversion Hr; subst. cbn in H1. destruct (find k m); auto. destruct o; auto.
  apply IH; auto. apply Forall_app. auto.
Qed.

Lemma build_length {V} recs : forall (m : table V),
  (length (build recs m) <= length m + length recs)%nat.
Proof.
  induction recs as [|[k o] recs IH]; intros m; cbn [build length]; [lia|].
  destruct (find k m); [specialize (IH m); lia|]. destruct o; [|specialize (IH m); lia].
  specialize (IH (m ++ [(k, v)])). rewrite app_length in IH. cbn in IH. lia.
Qed.

(** The table made from a list of submissions. *)
Definition table_of {V} (ok : V -> bool) (subs : list (list Z * V)) : table V := build (recs_of ok subs) [].

Lemma recs_of_length {V} ok (subs : list (list Z * V)) : length (recs_of ok subs) = length subs.
Proof. apply map_length. Qed.

Lemma table_find {V} ok (subs : list (list Z * V)) pk : find pk (table_of ok subs) = first_sub ok subs pk.
Proof. unfold table_of. now rewrite build_find. Qed.

Lemma table_nodup {V} ok (subs : list (list Z * V)) : NoDup (map fst (table_of ok subs)).
Proof. apply build_nodup. constructor. Qed.

Lemma table_forall {V} ok (P : list Z * V -> Prop) subs :
  (forall s, In s subs -> ok (snd s) = true -> P s) -> Forall P (table_of ok subs).
Proof.
  intros H. apply build_forall; [constructor|]. unfold recs_of. apply Forall_map, Forall_forall.
  intros [k v] Hin. cbn. destruct (ok v) eqn:E; auto.
Qed.

Lemma table_length {V} ok (subs : list (list Z * V)) : (length (table_of ok subs) <= length subs)%nat.
Proof. unfold table_of. pose proof (build_length (recs_of ok subs) []). rewrite recs_of_length in H. exact H. Qed.

(** A well-formed table. *)
Definition keys_ok {V} (m : table V) : Prop :=
  NoDup (map fst m) /\ Forall (fun e => length (fst e) = 32%nat) m.

Lemma table_keys {V} ok (subs : list (list Z * V)) : pks_ok subs -> keys_ok (table_of ok subs).
Proof.
  intros H. split; [apply table_nodup|]. apply table_forall. intros s Hs _.
  unfold pks_ok in H. rewrite Forall_forall in H. auto.
Qed.

(** No identity is announced twice by an honest server. *)
Lemma reused_nodup {V} (m : table V) pks : NoDup pks -> reused m pks = false.
Proof.
  induction 1 as [|pk pks N _ IH]; cbn [reused]; auto. rewrite IH, orb_false_r.
  destruct (existsb (key_eqb pk) pks) eqn:E; [|apply andb_false_r].
  apply existsb_exists in E as (k & Hk & E). destruct (key_eqb_spec pk k); [subst; easy|discriminate].
Qed.
Lemma reused_order {V W} (m0 : table V) (m1 : table W) order : fair order -> NoDup (map fst m1) ->
  reused m0 (map fst (order _ m1)) = false.
Proof.
  intros HF ND. apply reused_nodup. eapply Permutation_NoDup; [|exact ND].
  apply Permutation_map, Permutation_sym, HF.
Qed.

(** ** Reading complete records *)
Lemma crecv_app n x rest old : length x = n -> (length old <= n)%nat -> crecv n (x ++ rest) old = (x, rest).
Proof.
  intros <- H. unfold crecv. rewrite firstn_app_exact, skipn_app_exact by auto.
  rewrite app_length, skipn_all2, app_nil_r by lia. reflexivity.
Qed.

Lemma crecv_length n s old : length old = n -> length (fst (crecv n s old)) = n.
Proof. intros H. unfold crecv. cbn. rewrite app_length, firstn_length, skipn_length. lia. Qed.

Lemma reads_app {S V} (one : S -> list Z * entry V * S) s r s' r' s'' :
  reads one s r s' -> reads one s' r' s'' -> reads one s (r ++ r') s''.
Proof. induction 1; cbn; auto. intros. econstructor; eauto. Qed.

Lemma last_cons {A} (a : A) l d : last (a :: l) d = last l a.
Proof.
  revert a d. induction l as [|b l IH]; intros a d; auto.
  change (last (a :: b :: l) d) with (last (b :: l) d). rewrite IH.
  symmetry. apply IH.
Qed.

Lemma bit_wire_length s : length (fst s) = 32%nat -> length (bit_wire s) = 33%nat.
Proof. intros H. unfold bit_wire. rewrite app_length. cbn. lia. Qed.
Lemma bit_wire_parts k b : length k = 32%nat ->
  firstn 32 (bit_wire (k, b)) = k /\ nth 32 (bit_wire (k, b)) 0 = b2z b.
Proof.
  intros H. unfold bit_wire. cbn [fst snd]. rewrite firstn_app_exact by auto. split; auto.
  rewrite app_nth2 by lia. now rewrite H.
Qed.

Lemma bit_reads subs : forall rest junk, pks_ok subs -> length junk = 33%nat ->
  reads bit_one (wire bit_wire subs ++ rest, junk) (recs_of any subs)
    (rest, last (map bit_wire subs) junk).
Proof.
  induction subs as [|[k b] subs IH]; intros rest junk H L.
  - constructor.
  - inversion H; subst. cbn in H2. cbn [wire map concat recs_of fst snd any]. rewrite last_cons.
    assert (LW : length (bit_wire (k, b)) = 33%nat) by now apply bit_wire_length.
    econstructor; [|apply (IH rest (bit_wire (k, b)) H3 LW)].
    unfold bit_one. cbn [fst snd]. rewrite <- app_assoc.
    rewrite crecv_app by lia. destruct (bit_wire_parts k b H2) as [-> ->]. now destruct b.
Qed.

Lemma int_wire_length s : length (fst s) = 32%nat -> length (int_wire s) = 40%nat.
Proof. intros H. unfold int_wire. rewrite app_length, le_bytes_length. cbn. lia. Qed.
Lemma int_wire_val k v : word v -> length k = 32%nat ->
  le_val (skipn 32 (int_wire (k, v))) = v /\ firstn 32 (int_wire (k, v)) = k.
Proof.
  intros Hv L. unfold int_wire. cbn [fst snd].
  rewrite skipn_app_exact, firstn_app_exact by auto. rewrite le_val_bytes_small; auto.
Qed.

Definition below (mx : option Z) (v : Z) : bool := match mx with Some m => v <? m | None => true end.

Lemma int_reads mx subs : forall rest junk, pks_ok subs -> Forall (fun s => word (snd s)) subs ->
  length junk = 40%nat ->
  reads (int_one mx) (wire int_wire subs ++ rest, junk) (recs_of (below mx) subs)
    (rest, last (map int_wire subs) junk).
Proof.
  induction subs as [|[k v] subs IH]; intros rest junk H Hw L.
  - constructor.
  - inversion H; subst. inversion Hw; subst. cbn in H2, H4. cbn [wire map concat recs_of fst snd].
    rewrite last_cons.
    assert (LI : length (int_wire (k, v)) = 40%nat) by now apply int_wire_length.
    econstructor; [|apply (IH rest (int_wire (k, v)) H3 H5 LI)].
    unfold int_one. cbn [fst snd]. rewrite <- app_assoc.
    rewrite crecv_app by lia. destruct (int_wire_val k v H4 H2) as [-> ->].
    f_equal. f_equal. unfold below. destruct mx; auto.
    destruct (Z.leb_spec z v), (Z.ltb_spec v z); auto; lia.
Qed.

Lemma max_reads B junk subs : forall rest pk0 i, pks_ok subs ->
  Forall (fun s => length (snd s) = (B + 1)%nat /\ Forall word (snd s)) subs ->
  length pk0 = 32%nat -> (forall i, length (junk i) = (8 * (B + 1))%nat) ->
  reads (max_one B junk) (wire max_wire subs ++ rest, pk0, i) (recs_of any subs)
        (rest, last (map fst subs) pk0, (i + length subs)%nat).
Proof.
  induction subs as [|[k v] subs IH]; intros rest pk0 i H Hw L LJ.
  - rewrite Nat.add_0_r. constructor.
  - inversion H; subst. inversion Hw; subst. cbn in H2. destruct H4 as [Lv Wv]. cbn [snd] in Lv, Wv.
    cbn [wire map concat recs_of fst snd any]. rewrite last_cons.
    replace (i + length ((k, v) :: subs))%nat with (S i + length subs)%nat by (cbn; lia).
    econstructor; [|apply (IH rest k (S i) H3 H5 H2 LJ)].
    unfold max_one. unfold max_wire at 1. cbn [fst snd]. rewrite <- !app_assoc.
    rewrite (crecv_app 32 k) by (auto; lia).
    rewrite (crecv_app (8 * (B + 1))).
    2:{ rewrite concat_le_length, Lv. lia. } 2:{ rewrite LJ. lia. }
    rewrite <- Lv, chunks_map_le; [reflexivity|]. exact Wv.
Qed.

Lemma freq_reads n junk subs : forall rest pk0 i, pks_ok subs ->
  Forall (fun s => length (snd s) = n) subs ->
  length pk0 = 32%nat -> (forall i, length (junk i) = bool_bytes n) ->
  reads (freq_one n junk) (wire freq_wire subs ++ rest, pk0, i) (recs_of any subs)
        (rest, last (map fst subs) pk0, (i + length subs)%nat).
Proof.
  induction subs as [|[k v] subs IH]; intros rest pk0 i H Hw L LJ.
  - rewrite Nat.add_0_r. constructor.
  - inversion H; subst. pose proof (Forall_inv Hw) as Lv. pose proof (Forall_inv_tail Hw) as H5.
    cbn [fst snd] in H2, Lv.
    cbn [wire map concat recs_of fst snd any]. rewrite last_cons.
    replace (i + length ((k, v) :: subs))%nat with (S i + length subs)%nat by (cbn; lia).
    econstructor; [|apply (IH rest k (S i) H3 H5 H2 LJ)].
    unfold freq_one. unfold freq_wire at 1. cbn [fst snd]. rewrite <- !app_assoc.
    rewrite (crecv_app 32 k) by (auto; lia).
    rewrite (crecv_app _ (pack_bools v)); [|now rewrite pack_bools_length, Lv|rewrite LJ; auto].
    cbn [entry_of]. rewrite <- Lv at 1. now rewrite unpack_pack.
Qed.

(** ** Clients that go away after a complete record *)
Lemma crecv_nil n old : crecv n [] old = (old, []).
Proof. unfold crecv. cbn. rewrite firstn_nil, skipn_nil, Nat.min_0_r. reflexivity. Qed.

Lemma receive_idle {S V} (one : S -> list Z * entry V * S) (Inv : S -> Prop) m :
  (forall s, Inv s -> let '(pk, e, s') := one s in (find pk m <> None \/ e = Skip) /\ Inv s') ->
  forall n s, Inv s -> receive one n s m = Some m.
Proof.
  intros H. induction n as [|n IH]; intros s Hs; cbn [receive]; auto.
  specialize (H s Hs). destruct (one s) as [[pk e] s']. destruct H as [[F| ->] Hs'].
  - destruct (find pk m); [now apply IH|now elim F].
  - destruct (find pk m); now apply IH.
Qed.

Lemma first_sub_app {V} ok (a b : list (list Z * V)) pk :
  first_sub ok (a ++ b) pk = match first_sub ok a pk with Some v => Some v | None => first_sub ok b pk end.
Proof. induction a as [|[k v] a IH]; cbn; auto. now destruct (key_eqb k pk && ok v). Qed.

Lemma last_split {A} (l : list A) : l <> [] -> exists l' x, l = l' ++ [x].
Proof.
  intros H. destruct (exists_last H) as (l' & x & E). eauto.
Qed.

Lemma bit_receive total subs rest junk : pks_ok subs -> length junk = 33%nat -> delivered total subs rest ->
  receive bit_one total (wire bit_wire subs ++ rest, junk) [] = Some (table_of any subs).
Proof.
  intros Hp Hj [->|(Hn & -> & Hl)].
  - rewrite <- (recs_of_length any). eapply receive_build. now apply bit_reads.
  - replace total with (length (recs_of any subs) + (total - length subs))%nat
      by (rewrite recs_of_length; lia).
    erewrite receive_build_app by now apply bit_reads. fold (table_of any subs).
    destruct (last_split subs Hn) as (subs' & [k b] & ->).
    rewrite map_app. cbn [map]. rewrite last_last.
    assert (Lk : length k = 32%nat).
    { unfold pks_ok in Hp. rewrite Forall_forall in Hp. apply (Hp (k, b)). apply in_or_app. cbn. auto. }
    apply (receive_idle bit_one (fun s => s = ([], bit_wire (k, b)))); auto.
    intros s ->. unfold bit_one. cbn [fst snd]. rewrite crecv_nil.
    destruct (bit_wire_parts k b Lk) as [-> ->]. split; auto. left.
    rewrite table_find, first_sub_app. cbn. rewrite key_eqb_refl. cbn.
    destruct (first_sub any subs' k); discriminate.
Qed.

Lemma int_receive mx total subs rest junk : pks_ok subs -> Forall (fun s => word (snd s)) subs ->
  length junk = 40%nat -> delivered total subs rest ->
  receive (int_one mx) total (wire int_wire subs ++ rest, junk) [] = Some (table_of (below mx) subs).
Proof.
  intros Hp Hw Hj [->|(Hn & -> & Hl)].
  - rewrite <- (recs_of_length (below mx)). eapply receive_build. now apply int_reads.
  - replace total with (length (recs_of (below mx) subs) + (total - length subs))%nat
      by (rewrite recs_of_length; lia).
    erewrite receive_build_app by now apply int_reads. fold (table_of (below mx) subs).
    destruct (last_split subs Hn) as (subs' & [k v] & ->).
    rewrite map_app. cbn [map]. rewrite last_last.
    assert (Lk : length k = 32%nat /\ word v).
    { unfold pks_ok in Hp. rewrite Forall_forall in Hp, Hw.
      split; [apply (Hp (k, v))|apply (Hw (k, v))]; apply in_or_app; cbn; auto. }
    destruct Lk as [Lk Wv].
    apply (receive_idle (int_one mx) (fun s => s = ([], int_wire (k, v)))); auto.
    intros s ->. unfold int_one. cbn [fst snd]. rewrite crecv_nil.
    destruct (int_wire_val k v Wv Lk) as [-> ->]. split; auto.
    rewrite table_find, first_sub_app. cbn. rewrite key_eqb_refl. cbn.
    destruct (below mx v) eqn:E.
    + left. destruct (first_sub (below mx) subs' k); discriminate.
    + right. unfold below in E. destruct mx; [|discriminate].
      destruct (Z.leb_spec z v); auto. apply Z.ltb_ge in E. lia.
Qed.

Lemma row_receive {V} (one : list Z * list Z * nat -> list Z * entry V * (list Z * list Z * nat))
  total (subs : list (list Z * V)) rest str pk0 :
  reads one (str, pk0, 0%nat) (recs_of any subs) (rest, last (map fst subs) pk0, length subs) ->
  (forall pk i, exists e, one ([], pk, i) = (pk, e, ([], pk, S i))) ->
  delivered total subs rest ->
  receive one total (str, pk0, 0%nat) [] = Some (table_of any subs).
Proof.
  intros HR HE [->|(Hn & -> & Hl)].
  - rewrite <- (recs_of_length any). eapply receive_build. exact HR.
  - replace total with (length (recs_of any subs) + (total - length subs))%nat
      by (rewrite recs_of_length; lia).
    erewrite receive_build_app by exact HR. fold (table_of any subs).
    destruct (last_split subs Hn) as (subs' & [k v] & ->).
    rewrite map_app. cbn [map]. rewrite last_last.
    apply (receive_idle one (fun s => fst s = ([], k))); auto.
    intros [s i] E. cbn in E. subst s. destruct (HE k i) as (e & ->). split; auto.
    left. rewrite table_find, first_sub_app. cbn. rewrite key_eqb_refl. cbn.
    destruct (first_sub any subs' k); discriminate.
Qed.

Lemma max_receive B junk total subs rest pk0 : pks_ok subs ->
  Forall (fun s => length (snd s) = (B + 1)%nat /\ Forall word (snd s)) subs ->
  length pk0 = 32%nat -> (forall i, length (junk i) = (8 * (B + 1))%nat) -> delivered total subs rest ->
  receive (max_one B junk) total (wire max_wire subs ++ rest, pk0, 0%nat) [] = Some (table_of any subs).
Proof.
  intros Hp Hw Hk Hj. apply row_receive.
  - exact (max_reads B junk subs rest pk0 0%nat Hp Hw Hk Hj).
  - intros pk i. eexists. unfold max_one. now rewrite !crecv_nil.
Qed.

Lemma freq_receive n junk total subs rest pk0 : pks_ok subs ->
  Forall (fun s => length (snd s) = n) subs ->
  length pk0 = 32%nat -> (forall i, length (junk i) = bool_bytes n) -> delivered total subs rest ->
  receive (freq_one n junk) total (wire freq_wire subs ++ rest, pk0, 0%nat) [] = Some (table_of any subs).
Proof.
  intros Hp Hw Hk Hj. apply row_receive.
  - exact (freq_reads n junk subs rest pk0 0%nat Hp Hw Hk Hj).
  - intros pk i. eexists. unfold freq_one. now rewrite !crecv_nil.
Qed.

Lemma NoDup_filter' {A} (f : A -> bool) l : NoDup l -> NoDup (filter f l).
Proof.
  induction 1; cbn; [constructor|]. destruct (f x); auto. constructor; auto.
  intros H'. apply filter_In in H'. tauto.
Qed.

Lemma accepted_exists {V} ok (s0 s1 : list (list Z * V)) : exists L, accepted ok s0 s1 L.
Proof.
  exists (filter (fun k => is_some (first_sub ok s1 k)) (map fst (table_of ok s0))). split.
  - apply NoDup_filter', table_nodup.
  - intros pk. rewrite filter_In, <- find_some_iff, table_find.
    destruct (first_sub ok s1 pk); cbn; intuition discriminate.
Qed.

(** ** Announcing identities *)
Lemma delivers_pks l : Forall (fun k => length k = 32%nat) l ->
  delivers (send_pks l) (recv_pks (length l)) l.
Proof.
  induction 1 as [|k l H HL IH]; cbn [send_pks recv_pks length]; [apply delivers_ret|].
  change (Send k (send_pks l)) with (Send k (Ret tt) ;;; send_pks l).
  change (Recv PK_LENGTH (fun k0 => l0 <- recv_pks (length l);; Ret (k0 :: l0)))
    with (k0 <- Recv PK_LENGTH (fun k => Ret k) ;; (l0 <- recv_pks (length l);; Ret (k0 :: l0))).
  eapply delivers_seq; [|].
  - apply delivers_send1 with (x := k); [exact H|reflexivity].
  - apply (delivers_map _ _ _ (cons k) IH).
Qed.

Lemma delivers_announce {V} (l : table V) :
  Forall (fun e => length (fst e) = 32%nat) l -> Z.of_nat (length l) < two32 ->
  delivers (announce l) learn (map fst l).
Proof.
  intros H L. unfold announce, learn. eapply delivers_seq; [apply delivers_size; lia|].
  rewrite Nat2Z.id, <- (map_length fst). apply delivers_pks. now apply Forall_map.
Qed.

(** ** Permutations and sums over the accepted identities *)
Definition both_in {V W} (m0 : table V) (m1 : table W) (L : list (list Z)) : Prop :=
  NoDup L /\ forall pk, In pk L <-> find pk m0 <> None /\ find pk m1 <> None.

Definition known {V} (m : table V) (pk : list Z) : bool := is_some (find pk m).
Lemma known_iff {V} (m : table V) pk : known m pk = true <-> find pk m <> None.
Proof. unfold known. destruct (find pk m); cbn; split; congruence. Qed.


Lemma perm_known {V W} (m0 : table V) (m1 l : table W) L :
  Permutation l m1 -> NoDup (map fst m1) -> both_in m0 m1 L ->
  Permutation (filter (known m0) (map fst l)) L.
Proof.
  intros HP HN (NL & HL). apply NoDup_Permutation; auto.
  - apply NoDup_filter'. eapply Permutation_NoDup; [|exact HN]. apply Permutation_map. now symmetry.
  - intros pk. rewrite filter_In, known_iff, HL, find_some_iff with (m := m1).
    assert (In pk (map fst l) <-> In pk (map fst m1)).
    { split; apply Permutation_in; apply Permutation_map; [exact HP|now symmetry]. }
    tauto.
Qed.

Lemma zsum_filter {A} (g : A -> bool) (F : A -> Z) l :
  (forall x, g x = false -> F x = 0) -> zsum (map F l) = zsum (map F (filter g l)).
Proof.
  intros H. induction l as [|x l IH]; cbn; auto.
  destruct (g x) eqn:E; cbn; unfold zsum in *; cbn; rewrite ?IH; auto. now rewrite H by auto.
Qed.
Lemma zxors_filter {A} (g : A -> bool) (F : A -> Z) l :
  (forall x, g x = false -> F x = 0) -> zxors (map F l) = zxors (map F (filter g l)).
Proof.
  intros H. induction l as [|x l IH]; cbn; auto.
  destruct (g x) eqn:E; cbn; unfold zxors in *; cbn; rewrite ?IH; auto. rewrite H by auto. apply Z.lxor_0_l.
Qed.

(** Value of the pair of tables at an identity. *)
Definition at_both {V W X} (f : V -> W -> X) (d : X) (m0 : table V) (m1 : table W) (pk : list Z) : X :=
  match find pk m0, find pk m1 with Some a, Some b => f a b | _, _ => d end.

Lemma at_both_combined {V X} ok (f : V -> V -> X) d s0 s1 pk :
  at_both f d (table_of ok s0) (table_of ok s1) pk = combined ok f d s0 s1 pk.
Proof. unfold at_both, combined. now rewrite !table_find. Qed.

Lemma both_in_accepted {V} ok (s0 s1 : list (list Z * V)) L :
  accepted ok s0 s1 L -> both_in (table_of ok s0) (table_of ok s1) L.
Proof. intros [N H]. split; auto. intros pk. now rewrite !table_find. Qed.

(** Traversal of server 1's table in order [l], each entry paired with what server
    0 knows. *)
Definition with0 {V W X} (m0 : table V) (f : V -> W -> X) (d : X) (e : list Z * W) : X :=
  match find (fst e) m0 with Some a => f a (snd e) | None => d end.

Lemma with0_at_both {V W X} (m0 : table V) (m1 l : table W) (f : V -> W -> X) d :
  Permutation l m1 -> NoDup (map fst m1) ->
  map (with0 m0 f d) l = map (at_both f d m0 m1) (map fst l).
Proof.
  intros HP HN. rewrite map_map. apply map_ext_in. intros [k b] Hin. unfold with0, at_both. cbn [fst snd].
  rewrite (in_find k m1 b); auto. eapply Permutation_in; eauto.
Qed.

Lemma zsum_accepted {V W} (m0 : table V) (m1 l : table W) f L :
  Permutation l m1 -> NoDup (map fst m1) -> both_in m0 m1 L ->
  zsum (map (with0 m0 f 0) l) = zsum (map (at_both f 0 m0 m1) L).
Proof.
  intros HP HN HB. rewrite (with0_at_both m0 m1) by auto.
  rewrite (zsum_filter (known m0)).
  2:{ intros x Hx. unfold at_both, known in *. now destruct (find x m0). }
  apply zsum_permutation, Permutation_map. eapply perm_known; eauto.
Qed.
Lemma zxors_accepted {V W} (m0 : table V) (m1 l : table W) f L :
  Permutation l m1 -> NoDup (map fst m1) -> both_in m0 m1 L ->
  zxors (map (with0 m0 f 0) l) = zxors (map (at_both f 0 m0 m1) L).
Proof.
  intros HP HN HB. rewrite (with0_at_both m0 m1) by auto.
  rewrite (zxors_filter (known m0)).
  2:{ intros x Hx. unfold at_both, known in *. now destruct (find x m0). }
  apply zxors_permutation, Permutation_map. eapply perm_known; eauto.
Qed.

Lemma count_known {V} (m0 : table V) ks :
  count (map is_some (map (fun pk => find pk m0) ks)) = length (filter (known m0) ks).
Proof.
  unfold count. induction ks as [|k ks IH]; cbn [map filter length]; auto.
  unfold known at 1. destruct (is_some (find k m0)); cbn [length]; now rewrite IH.
Qed.
Lemma count_accepted {V W} (m0 : table V) (m1 l : table W) L :
  Permutation l m1 -> NoDup (map fst m1) -> both_in m0 m1 L ->
  count (map is_some (map (fun pk => find pk m0) (map fst l))) = length L.
Proof. intros. rewrite count_known. apply Permutation_length. eapply perm_known; eauto. Qed.

Lemma too_few_outcome {A} n t (ans : A) :
  (if too_few n t then Ret RET_INVALID else Ret (RET_ANS ans)) = Ret (outcome n t ans).
Proof. unfold too_few, outcome. now destruct (2 * n <? t)%nat. Qed.
