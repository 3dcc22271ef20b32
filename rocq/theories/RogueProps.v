(** * A server running a program of its own: the operations *)
From Coq Require Import ZArith List Bool Lia Permutation.
From Verif Require Import Words WordsFacts Constants Share Proc ProcFacts Net NetFacts RelFacts OT ServerOps SpecServer SpecPrivacy
  TableFacts ServerFacts ServerProps ViewFacts SpecPeer PeerFacts PeerProps SpecRogue RogueFacts.
Import ListNotations.
Open Scope Z_scope.

Lemma eqv_listens {A A' B} (r : proc B) (f : B -> proc A) (f' : B -> proc A') : listens r -> (forall b, eqv (f b) (f' b)) ->
  eqv (bind r f) (bind r f').
Proof.
  intros L H. induction r as [a| |bs k IH|n k IH|bs n k IH|x ps k IH|x cs k IH]; try contradiction; cbn [bind].
  - apply H.
  - apply eqv_recv. intros l. apply IH, L.
Qed.
Lemma eqv_if {A A'} (b b' : bool) (p q : proc A) (p' q' : proc A') : inert p -> inert q -> inert p' -> inert q' ->
  eqv (if b then p else q) (if b' then p' else q').
Proof. intros. apply eqv_end; destruct b, b'; auto. Qed.

Lemma same_ids {V} (ok : V -> bool) subs subs' : ids ok subs = ids ok subs' -> forall pk,
  is_some (find pk (table_of ok subs)) = is_some (find pk (table_of ok subs')).
Proof.
  intros E pk. rewrite !table_find. revert subs' E. induction subs as [|[k v] subs IH]; intros [|[k' v'] subs'] E; try discriminate; [reflexivity|].
  cbn in E. injection E as -> Ev E. cbn [first_sub]. rewrite <- Ev. destruct (key_eqb k' pk && ok v); [reflexivity|]. now apply IH.
Qed.

(** ** Server 1 departs from the code *)

(** *** The messages of an oblivious transfer, moved *)
Lemma map2_split {X Y W} (f : X -> Y -> W) : forall a b cs,
  map2 f cs (a ++ b) = map2 f (firstn (length a) cs) a ++ map2 f (skipn (length a) cs) b.
Proof.
  induction a as [|x a IH]; intros b cs; cbn [length firstn skipn app]; [reflexivity|].
  destruct cs as [|c cs]; [reflexivity|]. cbn [map2]. cbn [firstn skipn map2 app]. f_equal. apply IH.
Qed.

Lemma bit_moved : forall valid s s' cs i, exists l, forall rnd d, (forall j, d (i + j)%nat = nth j l 0) -> forall sum sum',
  length s = length valid -> length s' = length valid ->
  map2 ot_select cs (fst (bitsum_send_loop 0 (moved rnd d) (combine s' valid) i sum')) =
  map2 ot_select cs (fst (bitsum_send_loop 0 rnd (combine s valid) i sum)).
Proof.
  induction valid as [|v valid IH]; intros s s' cs i.
  - exists []. intros rnd d _ sum sum' L L'. destruct s, s'; try discriminate. reflexivity.
  - destruct s as [|x s]; [exists []; discriminate|]. destruct s' as [|x' s']; [exists []; discriminate|].
    destruct cs as [|c cs]; [exists []; reflexivity|].
    destruct (IH s s' cs (S i)) as (l & H).
    exists ((if c then 2 * b2z x' - 2 * b2z x else 0) :: l). intros rnd d Hd sum sum' L L'. cbn [length] in L, L'.
    cbn [combine bitsum_send_loop].
    assert (Hd' : forall j, d (S i + j)%nat = nth j l 0). { intros j. specialize (Hd (S j)). cbn in Hd. rewrite <- Hd. f_equal. lia. }
    assert (D0 : d i = if c then 2 * b2z x' - 2 * b2z x else 0). { specialize (Hd 0%nat). cbn in Hd. rewrite <- Hd. f_equal. lia. }
    destruct v.
    + specialize (H rnd d Hd' (reduce 0 (u64 (sum + u64 (ot_max 0 - reduce 0 (u64 (rnd i)) + 1) + b2z x)))
        (reduce 0 (u64 (sum' + u64 (ot_max 0 - reduce 0 (u64 (moved rnd d i)) + 1) + b2z x'))) ltac:(lia) ltac:(lia)).
      destruct (bitsum_send_loop 0 (moved rnd d) _ _ _). destruct (bitsum_send_loop 0 rnd _ _ _). cbn [fst map2] in *. f_equal; [|exact H].
      unfold ot_select, reduce. cbn. unfold moved. rewrite D0. destruct c; [|f_equal; lia].
      unfold u64. rewrite <- !(Z.add_opp_r (_ + 1)), <- !Z.add_assoc, !Zplus_mod_idemp_l. f_equal. lia.
    + specialize (H rnd d Hd' sum sum' ltac:(lia) ltac:(lia)).
      destruct (bitsum_send_loop 0 (moved rnd d) _ _ _). destruct (bitsum_send_loop 0 rnd _ _ _). cbn [fst map2] in *. f_equal. exact H.
Qed.
Lemma bit_loop_length : forall valid s rnd i sum, length s = length valid ->
  length (fst (bitsum_send_loop 0 rnd (combine s valid) i sum)) = length valid.
Proof.
  induction valid as [|v valid IH]; intros [|x s] rnd i sum L; try discriminate; [reflexivity|]. cbn [combine bitsum_send_loop].
  destruct v; match goal with |- context [bitsum_send_loop 0 rnd ?c ?j ?sm] =>
    specialize (IH s rnd j sm ltac:(cbn in L; lia)); destruct (bitsum_send_loop 0 rnd c j sm) end; cbn in *; lia.
Qed.

(** What a program chooses in its first oblivious transfer. *)
Definition chosen (t : transfer) : list bool := match t with Some (_, inl cs) => cs | _ => [] end.
Definition named (e : list Z) : list (list Z) := match feed learn e with Some (pks, _) => pks | None => [] end.

Lemma bit_rogue1 {B} (q : proc B) order order' total total' stream stream' subs subs' junk junk' :
  arrives bit_wire total stream subs -> arrives bit_wire total' stream' subs' ->
  length junk = 33%nat -> length junk' = 33%nat -> ids any subs = ids any subs' ->
  exists d, forall rnd, same_to true q (bit_sum false order total stream junk rnd) (bit_sum false order' total' stream' junk' (moved rnd d)).
Proof.
  intros A0 A0' J J' E. pose proof (same_ids any subs subs' E) as K.
  set (m := table_of any subs) in *. set (m' := table_of any subs') in *.
  set (pks := named (fst (course q []))). set (cs := chosen (snd (course q []))).
  destruct (bit_moved (map (fun pk => is_some (find pk m)) pks) (map (fun pk => get false (find pk m)) pks)
    (map (fun pk => get false (find pk m')) pks) cs 0) as (l & H).
  exists (fun i => nth i l 0). intros rnd. rewrite (bit_sum_eq false _ _ _ subs), (bit_sum_eq false _ _ _ subs') by auto.
  fold m m'. unfold bit_sum0.
  apply (staged true q _ _ learn (Ret tt) []); [constructor|apply listens_learn|].
  intros v rest F. right; left. unfold bitsum_ot_sender. rewrite !map_map.
  assert (Ev : map (fun pk => is_some (find pk m')) v = map (fun pk => is_some (find pk m)) v)
    by (apply map_ext; intros; symmetry; apply K).
  rewrite Ev.
  assert (Ep : pks = v) by (unfold pks, named; now rewrite F). clearbody pks. subst pks.
  specialize (H rnd (fun i => nth i l 0) (fun j => eq_refl) 0 0 ltac:(now rewrite !map_length) ltac:(now rewrite !map_length)).
  pose proof (bit_loop_length (map (fun pk => is_some (find pk m)) v) (map (fun pk => get false (find pk m)) v) rnd 0 0 ltac:(now rewrite !map_length)) as L.
  pose proof (bit_loop_length (map (fun pk => is_some (find pk m)) v) (map (fun pk => get false (find pk m')) v) (moved rnd (fun i => nth i l 0)) 0 0 ltac:(now rewrite !map_length)) as L'.
  destruct (bitsum_send_loop 0 rnd _ 0 0) as [ps sum]. destruct (bitsum_send_loop 0 (moved rnd _) _ 0 0) as [ps' sum']. cbn [fst] in *.
  eexists false, ps, ps', _, _. split; [reflexivity|]. split; [reflexivity|]. split; [congruence|]. split.
  - cbn [bind]. apply (eqv_listens recv_uint64); [intros ?; exact I|]. intros b. apply eqv_if; exact I.
  - intros cs0 Et _. unfold cs in H. rewrite Et in H. cbn in H. exact H.
Qed.

Lemma bits_length nb : forall rnd k idx num acc, length (fst (intsum_send_bits 0 rnd nb k idx num acc)) = nb.
Proof.
  induction nb as [|nb IH]; intros rnd k idx num acc; [reflexivity|]. cbn [intsum_send_bits].
  match goal with |- context [intsum_send_bits 0 rnd nb ?a ?b ?c ?e] => specialize (IH rnd a b c e); destruct (intsum_send_bits 0 rnd nb a b c e) end.
  cbn in *. lia.
Qed.
Lemma int_moved nb : forall k num num' cs idx, exists l, length l = nb /\
  forall rnd d, (forall j, (j < nb)%nat -> d (idx + j)%nat = nth j l 0) -> forall acc acc',
  map2 ot_select cs (fst (intsum_send_bits 0 (moved rnd d) nb k idx num' acc')) =
  map2 ot_select cs (fst (intsum_send_bits 0 rnd nb k idx num acc)).
Proof.
  induction nb as [|nb IH]; intros k num num' cs idx; [exists []; split; [reflexivity|]; reflexivity|].
  destruct cs as [|c cs].
  { exists (repeat 0 (S nb)). split; [apply repeat_length|]. reflexivity. }
  destruct (IH (k + 1) (num / 2) (num' / 2) cs (S idx)) as (l & Ll & H).
  set (X := fun b : bool => if b then u64 (ot_max 0 - 2 ^ k + 1) else 2 ^ k).
  exists ((if c then X (Z.odd num) - X (Z.odd num') else 0) :: l). split; [cbn; lia|]. intros rnd d Hd acc acc'.
  cbn [intsum_send_bits]. cbv zeta. fold (X (Z.odd num)) (X (Z.odd num')).
  assert (Hd' : forall j, (j < nb)%nat -> d (S idx + j)%nat = nth j l 0).
  { intros j Hj. specialize (Hd (S j) ltac:(lia)). cbn in Hd. rewrite <- Hd. f_equal. lia. }
  assert (D0 : d idx = if c then X (Z.odd num) - X (Z.odd num') else 0).
  { specialize (Hd 0%nat ltac:(lia)). cbn in Hd. rewrite <- Hd. f_equal. lia. }
  match goal with |- context [intsum_send_bits 0 (moved rnd d) nb ?a ?b ?e ?g] =>
    match goal with |- context [intsum_send_bits 0 rnd nb ?a' ?b' ?e' ?g'] => specialize (H rnd d Hd' g' g);
      destruct (intsum_send_bits 0 (moved rnd d) nb a b e g); destruct (intsum_send_bits 0 rnd nb a' b' e' g') end end.
  cbn [fst map2] in *. f_equal; [|exact H]. unfold ot_select, reduce. cbn [Z.eqb fst snd]. unfold moved. rewrite D0. clearbody X.
  destruct c; [|f_equal; lia]. unfold u64. rewrite !Zplus_mod_idemp_l. f_equal. lia.
Qed.

Lemma rows_moved nb : forall valid (s s' : list Z) cs idx, exists l, forall rnd d, (forall j, d (idx + j)%nat = nth j l 0) ->
  length s = length valid -> length s' = length valid ->
  map2 ot_select cs (fst (intsum_send_rows 0 (moved rnd d) [nb] (combine (map (fun x => [x]) s') valid) idx)) =
  map2 ot_select cs (fst (intsum_send_rows 0 rnd [nb] (combine (map (fun x => [x]) s) valid) idx)).
Proof.
  induction valid as [|v valid IH]; intros s s' cs idx.
  { exists []. intros rnd d _ L L'. destruct s, s'; try discriminate. reflexivity. }
  destruct s as [|x s]; [exists []; discriminate|]. destruct s' as [|x' s']; [exists []; discriminate|].
  destruct (int_moved nb 0 x x' (firstn nb cs) idx) as (l1 & L1 & H1).
  destruct (IH s s' (skipn nb cs) (idx + nb)%nat) as (l2 & H2).
  exists (l1 ++ l2). intros rnd d Hd L L'. cbn [length] in L, L'.
  assert (D1 : forall j, (j < nb)%nat -> d (idx + j)%nat = nth j l1 0) by (intros j Hj; rewrite Hd, app_nth1 by lia; reflexivity).
  assert (D2 : forall j, d (idx + nb + j)%nat = nth j l2 0).
  { intros j. rewrite <- Nat.add_assoc, Hd, app_nth2 by lia. f_equal. lia. }
  specialize (H1 rnd d D1 0 0). specialize (H2 rnd d D2 ltac:(lia) ltac:(lia)).
  cbn [map combine intsum_send_rows]. change (total [nb]) with (nb + 0)%nat. rewrite Nat.add_0_r.
  destruct (intsum_send_rows 0 (moved rnd d) [nb] _ (idx + nb)) as [m2' r2']. destruct (intsum_send_rows 0 rnd [nb] _ (idx + nb)) as [m2 r2].
  cbn [fst] in H2. destruct v; cbn [combine intsum_send_row].
  - pose proof (bits_length nb (moved rnd d) 0 idx x' 0) as B'. pose proof (bits_length nb rnd 0 idx x 0) as B0.
    destruct (intsum_send_bits 0 (moved rnd d) nb 0 idx x' 0) as [m1' r1']. destruct (intsum_send_bits 0 rnd nb 0 idx x 0) as [m1 r1].
    cbn [fst] in *. rewrite !app_nil_r, !map2_split, B', B0. now rewrite H1, H2.
  - cbn [fst]. rewrite !map2_split, repeat_length. now rewrite H2.
Qed.
Lemma rows_msgs_length nb : forall valid (s : list Z) rnd idx, length s = length valid ->
  length (fst (intsum_send_rows 0 rnd [nb] (combine (map (fun x => [x]) s) valid) idx)) = (length valid * nb)%nat.
Proof.
  induction valid as [|v valid IH]; intros [|x s] rnd idx L; try discriminate; [reflexivity|].
  cbn [map combine intsum_send_rows]. change (total [nb]) with (nb + 0)%nat. rewrite Nat.add_0_r.
  specialize (IH s rnd (idx + nb)%nat ltac:(cbn in L; lia)).
  destruct (intsum_send_rows 0 rnd [nb] _ (idx + nb)) as [m2 r2]. destruct v; cbn [combine intsum_send_row].
  - pose proof (bits_length nb rnd 0 idx x 0) as B0. destruct (intsum_send_bits 0 rnd nb 0 idx x 0) as [m1 r1]. cbn [fst length] in *.
    rewrite !app_length. cbn [length]. lia.
  - cbn [fst length] in *. rewrite app_length, repeat_length. lia.
Qed.

Lemma int_rogue1 {B} (q : proc B) nb order order' total total' stream stream' subs subs' junk junk' : (nb <= 63)%nat ->
  arrives int_wire total stream subs -> arrives int_wire total' stream' subs' ->
  Forall (fun s => word (snd s)) subs -> Forall (fun s => word (snd s)) subs' ->
  length junk = 40%nat -> length junk' = 40%nat -> ids (fits nb) subs = ids (fits nb) subs' ->
  exists d, forall rnd, same_to true q (int_sum false order nb total stream junk rnd) (int_sum false order' nb total' stream' junk' (moved rnd d)).
Proof.
  intros HB A0 A0' W W' J J' E. pose proof (same_ids (fits nb) subs subs' E) as K.
  set (m := table_of (fits nb) subs) in *. set (m' := table_of (fits nb) subs') in *.
  set (pks := named (fst (course q []))). set (cs := chosen (snd (course q []))).
  destruct (rows_moved nb (map (fun pk => is_some (find pk m)) pks) (map (fun pk => get 0 (find pk m)) pks)
    (map (fun pk => get 0 (find pk m')) pks) cs 0) as (l & H).
  exists (fun i => nth i l 0). intros rnd. rewrite (int_sum_eq false _ _ _ _ subs), (int_sum_eq false _ _ _ _ subs') by auto.
  fold m m'. unfold int_sum0.
  apply (staged true q _ _ learn (Ret tt) []); [constructor|apply listens_learn|].
  intros v rest F. right; left. unfold intsum_ot_sender.
  replace (widths_ok [nb]) with true by (unfold widths_ok; cbn [forallb]; destruct (Nat.leb_spec nb 64); [reflexivity|lia]).
  rewrite !map_map.
  assert (Ev : map (fun pk => is_some (find pk m')) v = map (fun pk => is_some (find pk m)) v)
    by (apply map_ext; intros; symmetry; apply K).
  rewrite Ev.
  assert (Ep : pks = v) by (unfold pks, named; now rewrite F). clearbody pks. subst pks.
  specialize (H rnd (fun i => nth i l 0) (fun j => eq_refl) ltac:(now rewrite !map_length) ltac:(now rewrite !map_length)).
  pose proof (rows_msgs_length nb (map (fun pk => is_some (find pk m)) v) (map (fun pk => get 0 (find pk m)) v) rnd 0 ltac:(now rewrite !map_length)) as L.
  pose proof (rows_msgs_length nb (map (fun pk => is_some (find pk m)) v) (map (fun pk => get 0 (find pk m')) v) (moved rnd (fun i => nth i l 0)) 0 ltac:(now rewrite !map_length)) as L'.
  repeat rewrite map_map in H. repeat rewrite map_map in L. repeat rewrite map_map in L'.
  destruct (intsum_send_rows 0 rnd _ _ 0) as [ps sum]. destruct (intsum_send_rows 0 (moved rnd _) _ _ 0) as [ps' sum']. cbn [fst] in *.
  eexists false, ps, ps', _, _. split; [reflexivity|]. split; [reflexivity|]. split; [congruence|]. split.
  - cbn [bind]. apply (eqv_listens recv_uint64); [intros ?; exact I|]. intros b. apply eqv_if; exact I.
  - intros cs0 Et _. unfold cs in H. rewrite Et in H. cbn in H. exact H.
Qed.

Lemma xor_rogue1 {B} (q : proc B) is_and order order' total total' stream stream' subs subs' junk junk' :
  arrives int_wire total stream subs -> arrives int_wire total' stream' subs' ->
  Forall (fun s => word (snd s)) subs -> Forall (fun s => word (snd s)) subs' ->
  length junk = 40%nat -> length junk' = 40%nat -> ids any subs = ids any subs' ->
  same_to true q (xor_op false order is_and total stream junk) (xor_op false order' is_and total' stream' junk').
Proof.
  intros A0 A0' W W' J J' E. pose proof (same_ids any subs subs' E) as K.
  rewrite (xor_op_eq false _ _ _ _ subs), (xor_op_eq false _ _ _ _ subs') by auto. unfold xor_op0.
  apply (staged true q _ _ learn (Ret tt) []); [constructor|apply listens_learn|].
  intros v rest F. left. rewrite !map_map.
  assert (Ev : map (fun pk => is_some (find pk (table_of any subs'))) v = map (fun pk => is_some (find pk (table_of any subs))) v)
    by (apply map_ext; intros; symmetry; apply K).
  rewrite Ev. unfold send_bool_batch. cbn [bind]. apply eqv_send.
  apply (eqv_listens recv_uint64); [intros ?; exact I|]. intros b. apply eqv_if; exact I.
Qed.
Lemma max_rogue1 {B0} (q : proc B0) is_max B order order' total total' stream stream' subs subs' pk0 pk0' junk junk' :
  arrives max_wire total stream subs -> arrives max_wire total' stream' subs' -> rows_ok B subs -> rows_ok B subs' ->
  Z.of_nat total * (Z.of_nat B + 1) < two32 -> Z.of_nat total' * (Z.of_nat B + 1) < two32 ->
  length pk0 = 32%nat -> length pk0' = 32%nat ->
  (forall i, length (junk i) = (8 * (B + 1))%nat) -> (forall i, length (junk' i) = (8 * (B + 1))%nat) -> ids any subs = ids any subs' ->
  same_to true q (max_op false order is_max B total stream pk0 junk) (max_op false order' is_max B total' stream' pk0' junk').
Proof.
  intros A0 A0' R0 R0' T T' P P' J J' E. pose proof (same_ids any subs subs' E) as K.
  rewrite (max_op_eq false _ _ _ _ _ subs), (max_op_eq false _ _ _ _ _ subs') by auto. unfold max_op0.
  apply (staged true q _ _ learn (Ret tt) []); [constructor|apply listens_learn|].
  intros v rest F. left. rewrite !map_map.
  assert (Ev : map (fun pk => is_some (find pk (table_of any subs'))) v = map (fun pk => is_some (find pk (table_of any subs))) v)
    by (apply map_ext; intros; symmetry; apply K).
  rewrite Ev. unfold send_bool_batch. cbn [bind]. apply eqv_send.
  apply (eqv_listens (recv_uint64_batch (B + 1))); [intros ?; exact I|]. intros b. apply eqv_end.
  - destruct (too_few _ _); [exact I|]. destruct (scan_down _ _ _); exact I.
  - destruct (too_few _ _); [exact I|]. destruct (scan_down _ _ _); exact I.
Qed.
