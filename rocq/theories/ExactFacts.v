(** * Permutations of the clients' draws *)
From Coq Require Import ZArith List Bool Lia Permutation.
From Verif Require Import Words WordsFacts Share Proc ProcFacts Net NetFacts SpecNet RelFacts ServerOps SpecServer TableFacts ServerFacts
  ServerProps SpecPrivacy ViewFacts PrivacyFacts ClientOps SpecClient ClientFacts ClientProps ServerCor SpecSecret SecretFacts
  PrivacyProof PrivacyExact SpecExact.
Import ListNotations.
Open Scope Z_scope.

(** ** Counting *)
Lemma permutes_enum {D} (dom : D -> Prop) F E : permutes dom F -> NoDup E -> (forall d, In d E <-> dom d) -> Permutation (map F E) E.
Proof.
  intros (G & H) ND HE. apply NoDup_Permutation.
  - clear - ND HE H. assert (HD : forall d, In d E -> dom d) by (intros; now apply HE). clear HE.
    induction E as [|d E IH]; [constructor|]. inversion ND; subst. cbn. constructor.
    + intros (e & Ee & Hin)%in_map_iff. assert (d = e); [|subst; contradiction].
      destruct (H d (HD d (or_introl eq_refl))) as (_ & _ & <- & _). destruct (H e (HD e (or_intror Hin))) as (_ & _ & <- & _).
      now rewrite Ee.
    + apply IH; auto. intros e He. apply HD. now right.
  - exact ND.
  - intros d. rewrite in_map_iff. split.
    + intros (e & <- & He). apply HE, H, HE, He.
    + intros Hd. apply HE in Hd. exists (G d). destruct (H d Hd) as (_ & B & _ & C). split; [exact C|]. now apply HE.
Qed.

Lemma filter_len_permut {A} (f : A -> bool) l l' : Permutation l l' -> length (filter f l) = length (filter f l').
Proof. induction 1; cbn; auto; try congruence; repeat (destruct (f _); cbn; auto); congruence. Qed.
Lemma permutes_count {D} (dom : D -> Prop) F (P Q : D -> bool) E : permutes dom F -> (forall d, dom d -> Q (F d) = P d) ->
  NoDup E -> (forall d, In d E <-> dom d) -> length (filter P E) = length (filter Q E).
Proof.
  intros HF HPQ ND HE. rewrite <- (filter_len_permut Q _ _ (permutes_enum dom F E HF ND HE)).
  assert (HD : forall d, In d E -> dom d) by (intros; now apply HE). clear - HPQ HD.
  induction E as [|d E IH]; [reflexivity|]. cbn [map filter]. rewrite HPQ by (apply HD; now left).
  assert (IH' := IH (fun e He => HD e (or_intror He))). destruct (P d); cbn [length]; lia.
Qed.

Lemma permutes_id {D} (dom : D -> Prop) : permutes dom (fun d => d).
Proof. exists (fun d => d). auto. Qed.
Lemma permutes_comp {D} (dom : D -> Prop) F F' : permutes dom F -> permutes dom F' -> permutes dom (fun d => F' (F d)).
Proof.
  intros (G & H) (G' & H'). exists (fun d => G (G' d)). intros d Hd.
  destruct (H d Hd) as (A & B & C & E). destruct (H' (F d) A) as (A' & B' & C' & E').
  destruct (H' d Hd) as (A2 & B2 & C2 & E2). destruct (H (G' d) B2) as (A3 & B3 & C3 & E3).
  split; [exact A'|]. split; [exact B3|]. split; [now rewrite C'|]. now rewrite E3.
Qed.

(** ** A relation between the first blocks of clients: the same for server 0 *)
Section Alike.
Context {V W Q : Type} (one : prg -> nat -> crec V W * nat) (m : nat) (cont : Q -> crec V W -> Z).
Definition records (bs : list (list Z)) ds : list (crec V W) := separate one (tapes_of bs ds).
Definition client (b : list Z) d : crec V W := fst (one (tape b d) 0%nat).

(** Some permutation of the draws keeps server 0's records and the xor of all contributions. *)
Definition alike (bs bs' : list (list Z)) : Prop := exists F, permutes (draws (length bs) m) F /\
  forall ds, draws (length bs) m ds ->
    seen false (records bs' (F ds)) = seen false (records bs ds) /\
    forall q, zxors (map (cont q) (records bs' (F ds))) = zxors (map (cont q) (records bs ds)).

Lemma alike_refl bs : alike bs bs.
Proof. exists (fun d => d). split; [apply permutes_id|]. auto. Qed.
Lemma alike_trans bs1 bs2 bs3 : length bs1 = length bs2 -> alike bs1 bs2 -> alike bs2 bs3 -> alike bs1 bs3.
Proof.
  intros L (F & HF & H) (F' & HF' & H'). rewrite <- L in *. exists (fun d => F' (F d)). split; [now apply permutes_comp|].
  intros ds Hd. assert (HD : draws (length bs1) m (F ds)) by (destruct HF as (G & HG); now apply HG).
  destruct (H ds Hd) as (A & B). destruct (H' (F ds) HD) as (A' & B').
  split; [now rewrite A'|]. intros q. now rewrite B'.
Qed.
Lemma alike_sym bs1 bs2 : length bs1 = length bs2 -> alike bs1 bs2 -> alike bs2 bs1.
Proof.
  intros L (F & (G & HG) & H). unfold alike. rewrite <- L. exists G. split.
  - exists F. intros d Hd. destruct (HG d Hd) as (A & B & C & E). auto.
  - intros ds Hd. destruct (HG ds Hd) as (A & B & C & E). destruct (H (G ds) B) as (X & Y). rewrite E in X, Y.
    split; [now rewrite X|]. intros q. now rewrite Y.
Qed.

(** *** Changing one client's first block, with changes to the draws of this and another client *)
Definition one_draw (d : list (list Z)) : Prop := length d = m /\ Forall block d.

Lemma nth_draw n ds i : draws n m ds -> (i < n)%nat -> one_draw (nth i ds []).
Proof. intros [L F] H. rewrite Forall_forall in F. apply F, nth_In. lia. Qed.
Lemma upd_draws n ds i d : draws n m ds -> one_draw d -> draws n m (upd i d ds).
Proof.
  intros [L F] H. split; [now rewrite upd_length|]. revert i. clear L. induction F as [|x l Hx F IH]; intros [|i]; cbn; auto.
Qed.
Lemma records_length bs ds : length ds = length bs -> length (records bs ds) = length bs.
Proof. intros L. unfold records, separate, tapes_of. now rewrite map_length, map2_length, L, Nat.min_id. Qed.
Lemma records_upd bs ds i b d : length ds = length bs -> records (upd i b bs) (upd i d ds) = upd i (client b d) (records bs ds).
Proof.
  unfold records, separate, tapes_of, client. revert ds i. induction bs as [|b0 bs IH]; intros [|d0 ds] [|i] L; cbn in *; try lia; auto.
  rewrite IH by lia. reflexivity.
Qed.
Lemma upd_nth {A} i (l : list A) d : upd i (nth i l d) l = l.
Proof. revert i. induction l as [|x l IH]; intros [|i]; cbn; auto. now rewrite IH. Qed.
Lemma records_upd' bs ds j e : length ds = length bs -> records bs (upd j e ds) = upd j (client (nth j bs []) e) (records bs ds).
Proof. intros L. rewrite <- (records_upd bs ds j) by exact L. now rewrite upd_nth. Qed.
Lemma records_nth bs ds k r : length ds = length bs -> (k < length bs)%nat ->
  nth k (records bs ds) r = client (nth k bs []) (nth k ds []).
Proof.
  unfold records, separate, tapes_of, client. revert ds k. induction bs as [|b bs IH]; intros [|d ds] [|k] L H; cbn in *; try lia; auto.
  apply IH; lia.
Qed.
Lemma map_upd {A B} (f : A -> B) i x l : map f (upd i x l) = upd i (f x) (map f l).
Proof. revert i. induction l as [|y l IH]; intros [|i]; cbn; auto. now rewrite IH. Qed.
Lemma upd_same {A} i (x : A) l d : nth i l d = x -> upd i x l = l.
Proof. intros <-. apply upd_nth. Qed.
Lemma zxors_upd i x l : (i < length l)%nat -> zxors (upd i x l) = Z.lxor (zxors l) (Z.lxor (nth i l 0) x).
Proof.
  revert i. induction l as [|y l IH]; intros [|i] H; cbn [length] in H; try lia; cbn [upd nth zxors fold_right].
  - rewrite (Z.lxor_comm y), (Z.lxor_assoc _ y (Z.lxor y x)), <- (Z.lxor_assoc y y x), Z.lxor_nilpotent, Z.lxor_0_l. apply Z.lxor_comm.
  - change (fold_right Z.lxor 0) with zxors. rewrite IH by lia. now rewrite Z.lxor_assoc.
Qed.

(** [f] changes the draws of two clients. *)
Definition good_pair (f : list (list Z) -> list (list Z) -> list (list Z) * list (list Z)) : Prop :=
  forall d e, one_draw d -> one_draw e -> one_draw (fst (f d e)) /\ one_draw (snd (f d e)).
Definition at_two (f : list (list Z) -> list (list Z) -> list (list Z) * list (list Z)) i j (ds : list (list (list Z))) :=
  let '(d, e) := f (nth i ds []) (nth j ds []) in upd i d (upd j e ds).

Lemma at_two_permutes n i j f g : (i < n)%nat -> (j < n)%nat -> i <> j -> good_pair f -> good_pair g ->
  (forall d e, one_draw d -> one_draw e -> g (fst (f d e)) (snd (f d e)) = (d, e) /\ f (fst (g d e)) (snd (g d e)) = (d, e)) ->
  permutes (draws n m) (at_two f i j).
Proof.
  intros Hi Hj N GF GG INV. exists (at_two g i j). intros ds HD.
  pose proof (nth_draw n ds i HD Hi) as Di. pose proof (nth_draw n ds j HD Hj) as Dj.
  assert (AT : forall f g, good_pair f -> (forall d e, one_draw d -> one_draw e -> g (fst (f d e)) (snd (f d e)) = (d, e)) ->
    draws n m (at_two f i j ds) /\ at_two g i j (at_two f i j ds) = ds).
  { clear f g GF GG INV. intros f g GF INV. unfold at_two at 1 3. specialize (GF _ _ Di Dj). specialize (INV _ _ Di Dj).
    destruct (f (nth i ds []) (nth j ds [])) as [d e]. cbn [fst snd] in *. destruct GF as [Gd Ge].
    split; [apply upd_draws; [apply upd_draws|]; assumption|]. destruct HD as [L _]. unfold at_two.
    rewrite nth_upd_eq by (rewrite upd_length; lia). rewrite nth_upd_neq by auto. rewrite nth_upd_eq by lia. rewrite INV.
    apply nth_ext with [] []; [now rewrite !upd_length|]. intros k _.
    destruct (Nat.eq_dec k i) as [->|Ni]; [now rewrite nth_upd_eq by (rewrite !upd_length; lia)|].
    rewrite nth_upd_neq by auto. destruct (Nat.eq_dec k j) as [->|Nj]; [now rewrite nth_upd_eq by (rewrite !upd_length; lia)|].
    now rewrite !nth_upd_neq by auto. }
  destruct (AT f g GF) as [A B]; [intros; now apply INV|]. destruct (AT g f GG) as [C E]; [intros; now apply INV|]. auto.
Qed.

Lemma alike_step bs i j b' f g : (i < length bs)%nat -> (j < length bs)%nat -> i <> j -> good_pair f -> good_pair g ->
  (forall d e, one_draw d -> one_draw e -> g (fst (f d e)) (snd (f d e)) = (d, e) /\ f (fst (g d e)) (snd (g d e)) = (d, e)) ->
  (forall d e, one_draw d -> one_draw e ->
    let r := client (nth i bs []) d in let s := client (nth j bs []) e in
    let r' := client b' (fst (f d e)) in let s' := client (nth j bs []) (snd (f d e)) in
    c_pk r' = c_pk r /\ c_0 r' = c_0 r /\ c_pk s' = c_pk s /\ c_0 s' = c_0 s /\
    forall q, Z.lxor (cont q r') (cont q s') = Z.lxor (cont q r) (cont q s)) ->
  alike bs (upd i b' bs).
Proof.
  intros Hi Hj N GF GG INV H. exists (at_two f i j). split; [now apply at_two_permutes with g|].
  intros ds HD. pose proof (nth_draw _ ds i HD Hi) as Di. pose proof (nth_draw _ ds j HD Hj) as Dj.
  specialize (H _ _ Di Dj). unfold at_two. destruct (f (nth i ds []) (nth j ds [])) as [d e]. cbn [fst snd] in H.
  destruct H as (P & S & P' & S' & X). destruct HD as [L _].
  rewrite records_upd by (rewrite upd_length; exact L). rewrite records_upd' by exact L.
  set (l := records bs ds) in *. assert (LL : length l = length bs) by now apply records_length.
  set (r' := client b' d) in *. set (s' := client (nth j bs []) e) in *.
  set (r := client (nth i bs []) (nth i ds [])) in *. set (s := client (nth j bs []) (nth j ds [])) in *.
  assert (Er : forall x, nth i l x = r) by (intros x; now apply records_nth).
  assert (Es : forall x, nth j l x = s) by (intros x; now apply records_nth).
  split.
  - unfold seen, share_of. rewrite !map_upd. rewrite (upd_same j _ (map _ l) (c_pk s, c_0 s)).
    + rewrite (upd_same i _ _ (c_pk r, c_0 r)); [reflexivity|]. rewrite (map_nth (fun r => (c_pk r, c_0 r)) l r i), Er. now rewrite P, S.
    + rewrite (map_nth (fun r => (c_pk r, c_0 r)) l s j), Es. now rewrite P', S'.
  - intros q. rewrite !map_upd. rewrite zxors_upd by (rewrite upd_length, map_length; lia).
    rewrite nth_upd_neq by auto. rewrite zxors_upd by (rewrite map_length; lia).
    assert (NT : forall k y, (k < length l)%nat -> nth k (map (cont q) l) 0 = cont q (nth k l y)).
    { intros k y Hk. rewrite (nth_indep _ 0 (cont q y)) by (rewrite map_length; lia). apply map_nth. }
    rewrite (NT i r), (NT j s), Er, Es by lia. specialize (X q).
    rewrite Z.lxor_assoc. rewrite <- (Z.lxor_0_r (zxors (map (cont q) l))) at 2. f_equal.
    rewrite (Z.lxor_comm (cont q s) (cont q s')), (Z.lxor_comm (cont q r) (cont q r')).
    transitivity (Z.lxor (Z.lxor (cont q r') (cont q s')) (Z.lxor (cont q r) (cont q s))).
    + rewrite (Z.lxor_comm (cont q r') (cont q s')). rewrite !Z.lxor_assoc. f_equal.
      rewrite <- !Z.lxor_assoc, (Z.lxor_comm (cont q s)). rewrite !Z.lxor_assoc. f_equal. apply Z.lxor_comm.
    + rewrite X. apply Z.lxor_nilpotent.
Qed.
(** Another first block that makes no difference. *)
Lemma alike_same bs i b' : (i < length bs)%nat -> (forall d, one_draw d ->
    let r := client (nth i bs []) d in let r' := client b' d in
    c_pk r' = c_pk r /\ c_0 r' = c_0 r /\ forall q, cont q r' = cont q r) ->
  alike bs (upd i b' bs).
Proof.
  intros Hi H. exists (fun d => d). split; [apply permutes_id|]. intros ds HD. pose proof (nth_draw _ ds i HD Hi) as Di.
  specialize (H _ Di). cbv zeta in H. destruct H as (P & S & X). destruct HD as [L _].
  assert (E : records (upd i b' bs) ds = upd i (client b' (nth i ds [])) (records bs ds)).
  { rewrite <- records_upd by exact L. now rewrite upd_nth. }
  rewrite E. clear E.
  set (l := records bs ds) in *. assert (LL : length l = length bs) by now apply records_length.
  assert (Er : forall x, nth i l x = client (nth i bs []) (nth i ds [])) by (intros x; now apply records_nth).
  split.
  - unfold seen, share_of. rewrite !map_upd. set (r := client (nth i bs []) (nth i ds [])) in *.
    rewrite (upd_same i _ _ (c_pk r, c_0 r)); [reflexivity|]. rewrite (map_nth (fun r => (c_pk r, c_0 r)) l r i), Er. now rewrite P, S.
  - intros q. rewrite map_upd. rewrite (upd_same i _ _ 0); [reflexivity|]. rewrite X.
    rewrite (nth_indep _ 0 (cont q (client (nth i bs []) (nth i ds [])))) by (rewrite map_length; lia).
    now rewrite map_nth, Er.
Qed.

(** *** To a common list
    If any client can be changed to [top] beside a client of kind [lead], which it keeps,
    then a list with a [lead] is like the one with [top] everywhere else. *)
Lemma alike_top (K : list Z -> Prop) bs j (h : nat -> list Z) : (j < length bs)%nat -> h j = nth j bs [] -> Forall K bs -> (forall i, K (h i)) ->
  (forall bs2 i, Forall K bs2 -> length bs2 = length bs -> nth j bs2 [] = nth j bs [] -> (i < length bs)%nat -> i <> j -> nth i bs2 [] = nth i bs [] ->
     alike bs2 (upd i (h i) bs2)) ->
  alike bs (map h (seq 0 (length bs))).
Proof.
  intros Hj EJ KB KH H.
  assert (G : forall n, (n <= length bs)%nat -> alike bs (map h (seq 0 n) ++ skipn n bs)).
  { induction n as [|n IH]; intros Hn; [apply alike_refl|]. specialize (IH ltac:(lia)).
    set (bs2 := map h (seq 0 n) ++ skipn n bs) in *.
    assert (L2 : length bs2 = length bs) by (unfold bs2; rewrite app_length, map_length, seq_length, skipn_length; lia).
    assert (E : map h (seq 0 (S n)) ++ skipn (S n) bs = upd n (h n) bs2).
    { unfold bs2. rewrite seq_S, map_app, <- app_assoc. cbn [map app Nat.add].
      assert (LS : length (map h (seq 0 n)) = n) by now rewrite map_length, seq_length. revert LS. generalize (map h (seq 0 n)). intros a LS.
      destruct (skipn n bs) as [|x t] eqn:ES; [apply (f_equal (@length _)) in ES; rewrite skipn_length in ES; cbn in ES; lia|].
      assert (ET : skipn (S n) bs = t).
      { clear - ES. revert bs ES. induction n as [|n IH]; intros [|y bs] ES; try discriminate; [now injection ES|]. now apply IH. }
      rewrite ET. generalize (h n). intros hn. clear - LS. revert n LS. induction a as [|y a IH]; intros n LS; cbn in LS; subst n; cbn; auto. f_equal. now apply IH. }
    rewrite E.
    assert (N : forall k, (n <= k)%nat -> nth k bs2 [] = nth k bs []).
    { intros k Hk. unfold bs2. rewrite app_nth2 by (rewrite map_length, seq_length; lia). rewrite map_length, seq_length.
      rewrite <- (firstn_skipn n bs) at 2. rewrite app_nth2 by (rewrite firstn_length; lia). f_equal. rewrite firstn_length. lia. }
    destruct (Nat.eq_dec n j) as [->|Nj].
    - rewrite (upd_same j _ bs2 []); [exact IH|]. rewrite EJ. apply N. lia.
    - apply alike_trans with bs2; auto. apply H; auto.
      { unfold bs2. apply Forall_app. split; [apply Forall_map, Forall_forall; auto|now apply Forall_skipn]. }
      destruct (Nat.lt_ge_cases j n) as [Lt|Ge]; [|apply N; lia]. unfold bs2.
      rewrite app_nth1 by (rewrite map_length, seq_length; lia). rewrite <- EJ.
      rewrite (nth_indep _ [] (h 0%nat)) by (rewrite map_length, seq_length; lia). rewrite (map_nth h), seq_nth by lia. reflexivity. }
  specialize (G (length bs) (le_n _)). rewrite skipn_all, app_nil_r in G. exact G.
Qed.
End Alike.

(** ** Tapes *)
Lemma zero_block : block (repeat 0 16).
Proof. split; [reflexivity|]. apply Forall_forall. intros x Hx. apply repeat_spec in Hx. subst. unfold is_byte. lia. Qed.
Lemma tape_blocks b d : block b -> Forall block d -> is_blocks (tape b d).
Proof.
  intros Hb Hd i. unfold tape. assert (F : Forall block (b :: d)) by now constructor.
  destruct (Nat.lt_ge_cases i (length (b :: d))) as [H|H].
  - rewrite Forall_forall in F. apply F, nth_In, H.
  - rewrite nth_overflow by exact H. apply zero_block.
Qed.
Lemma tapes_blocks n m bs ds : Forall block bs -> draws n m ds -> Forall is_blocks (tapes_of bs ds).
Proof.
  intros FB [_ FD]. unfold tapes_of. revert ds FD. induction FB as [|b bs Hb FB IH]; intros [|d ds] FD; cbn; constructor.
  - inversion FD as [|? ? [_ X]]; subst. now apply tape_blocks.
  - inversion FD; subst. now apply IH.
Qed.
Lemma tape_u64 b d k : block b -> Forall block d -> random_u64 (tape b d) k = le_val (firstn 8 (nth k (b :: d) (repeat 0 16))).
Proof. intros Hb Hd. unfold random_u64. rewrite data_block by (first [now apply tape_blocks|lia]). reflexivity. Qed.
Lemma tape_bit b d : block b -> Forall block d -> random_bool1 (tape b d) 0 = drawn_bit b.
Proof.
  intros Hb Hd. unfold random_bool1, random_bool, drawn_bit. rewrite data_block by (first [now apply tape_blocks|lia]). cbn [tape nth].
  destruct Hb as [L _]. destruct b as [|x b]; [discriminate|]. reflexivity.
Qed.
Lemma block_xor a b : block a -> block b -> block (map2 Z.lxor a b).
Proof. intros [La Fa] [Lb Fb]. split; [rewrite map2_length, La, Lb; reflexivity|now apply map2_bytes]. Qed.
Lemma block_xor_back a b : block a -> block b -> map2 Z.lxor (map2 Z.lxor a b) b = a.
Proof.
  intros [La _] [Lb _]. assert (L : length a = length b) by lia. clear La Lb. revert b L.
  induction a as [|x a IH]; intros [|y b] L; try discriminate; [reflexivity|]. cbn. rewrite IH by (now injection L).
  now rewrite Z.lxor_assoc, Z.lxor_nilpotent, Z.lxor_0_r.
Qed.
Lemma block_word_xor a b : block a -> block b ->
  le_val (firstn 8 (map2 Z.lxor a b)) = Z.lxor (le_val (firstn 8 a)) (le_val (firstn 8 b)).
Proof.
  intros [La Fa] [Lb Fb]. rewrite <- map2_firstn. apply le_val_lxor; [rewrite !firstn_length; lia|now apply Forall_firstn'|now apply Forall_firstn'].
Qed.

(** ** AND, OR *)
Section Xor.
Variable is_and : bool.
Let one := xor_request is_and.
Let enc (_ : unit) (r : crec Z bool) := Z.lxor (c_0 r) (c_1 r).
Definition neutral (b : list Z) : bool := if is_and then drawn_bit b else negb (drawn_bit b).
Definition loud : list Z := (if is_and then 0 else 1) :: repeat 0 15.
Lemma loud_block : block loud.
Proof.
  split; [reflexivity|]. constructor; [destruct is_and; unfold is_byte; lia|]. apply Forall_forall. intros x Hx. apply repeat_spec in Hx. subst.
  unfold is_byte. lia.
Qed.
Lemma loud_not_neutral : neutral loud = false. Proof. unfold neutral, loud. now destruct is_and. Qed.

Lemma xor_client b d : block b -> Forall block d ->
  client one b d =
  let g := tape b d in let w k := le_val (firstn 8 (nth k (b :: d) (repeat 0 16))) in
  if neutral b then mkC (make_pk g 2) (w 1%nat) (w 1%nat) (drawn_bit b)
  else mkC (make_pk g 3) (w 2%nat) (Z.lxor (w 2%nat) (w 1%nat)) (drawn_bit b).
Proof.
  intros Hb Hd. unfold client, one, xor_request. cbv zeta. rewrite tape_bit by auto. fold (neutral b).
  destruct (neutral b); cbn [fst Nat.add]; rewrite !tape_u64 by auto; cbn [Nat.add]; [now rewrite Z.lxor_0_r|reflexivity].
Qed.

Definition three (d : list (list Z)) : list Z * list Z * list Z := (nth 0 d [], nth 1 d [], nth 2 d []).
Lemma three_inv d : one_draw 3 d -> exists a b c, d = [a; b; c] /\ block a /\ block b /\ block c.
Proof.
  intros [L F]. destruct d as [|a [|b [|c [|? ?]]]]; try discriminate. exists a, b, c. split; [reflexivity|].
  inversion F as [|? ? A F1]; inversion F1 as [|? ? B F2]; inversion F2; subst. auto.
Qed.
Lemma three_draw a b c : block a -> block b -> block c -> one_draw 3 [a; b; c].
Proof. intros. split; [reflexivity|]. repeat (apply Forall_cons; [assumption|]). apply Forall_nil. Qed.

Definition raise_i d e := let '(s, k, x) := three d in let '(y, t, u) := three e in ([x; s; k], [map2 Z.lxor y x; t; u]).
Definition lower_i d e := let '(x, s, k) := three d in let '(y, t, u) := three e in ([s; k; x], [map2 Z.lxor y x; t; u]).

Lemma xor_raise bs i j b' : Forall block bs -> block b' -> (i < length bs)%nat -> (j < length bs)%nat -> i <> j ->
  neutral (nth i bs []) = true -> neutral b' = false -> neutral (nth j bs []) = false ->
  alike one 3 enc bs (upd i b' bs).
Proof.
  intros FB Bb Hi Hj N Ni Nb Nj. rewrite Forall_forall in FB.
  assert (Bi : block (nth i bs [])) by now apply FB, nth_In. assert (Bj : block (nth j bs [])) by now apply FB, nth_In.
  apply alike_step with (j := j) (f := raise_i) (g := lower_i); [assumption|assumption|assumption| | | |].
  - intros d e Hd He. destruct (three_inv d Hd) as (s & k & x & -> & A1 & A2 & A3). destruct (three_inv e He) as (y & t & u & -> & B1 & B2 & B3). cbn in *.
    split; apply three_draw; auto using block_xor.
  - intros d e Hd He. destruct (three_inv d Hd) as (s & k & x & -> & A1 & A2 & A3). destruct (three_inv e He) as (y & t & u & -> & B1 & B2 & B3). cbn in *.
    split; apply three_draw; auto using block_xor.
  - intros d e Hd He. destruct (three_inv d Hd) as (s & k & x & -> & A1 & A2 & A3). destruct (three_inv e He) as (y & t & u & -> & B1 & B2 & B3). cbn in *.
    now rewrite !block_xor_back by auto.
  - intros d e Hd He. destruct (three_inv d Hd) as (s & k & x & -> & A1 & A2 & A3). destruct (three_inv e He) as (y & t & u & -> & B1 & B2 & B3).
    cbv zeta. cbn [raise_i three nth fst snd].
    assert (FD : forall a b c, block a -> block b -> block c -> Forall block [a; b; c]) by (intros; repeat (apply Forall_cons; [assumption|]); apply Forall_nil).
    rewrite !xor_client by auto using block_xor. cbv zeta. rewrite Ni, Nb, Nj. cbn [c_pk c_0 c_1 nth].
    split; [reflexivity|]. split; [reflexivity|]. split; [reflexivity|]. split; [reflexivity|]. intros q. unfold enc. cbn [c_0 c_1].
    rewrite block_word_xor by auto.
    generalize (le_val (firstn 8 x)) (le_val (firstn 8 s)) (le_val (firstn 8 t)) (le_val (firstn 8 y)). intros X S T Y.
    assert (C : forall a b, Z.lxor a (Z.lxor a b) = b) by (intros; now rewrite <- Z.lxor_assoc, Z.lxor_nilpotent, Z.lxor_0_l).
    rewrite !C, Z.lxor_nilpotent, Z.lxor_0_l, (Z.lxor_comm Y X). apply C.
Qed.
Lemma xor_swap bs i b' : Forall block bs -> block b' -> (i < length bs)%nat -> neutral b' = neutral (nth i bs []) ->
  alike one 3 enc bs (upd i b' bs).
Proof.
  intros FB Bb Hi E. rewrite Forall_forall in FB. assert (Bi : block (nth i bs [])) by now apply FB, nth_In.
  apply alike_same; [assumption|]. intros d [L Hd]. cbv zeta. rewrite !xor_client by auto. cbv zeta. rewrite E.
  destruct (neutral (nth i bs [])); cbn [c_pk c_0 c_1]; unfold make_pk, tape, enc; cbn [nth c_0 c_1]; auto.
Qed.
Lemma upd_block i b bs : Forall block bs -> block b -> Forall block (upd i b bs).
Proof. intros F Hb. revert i. induction F; intros [|i]; cbn; constructor; auto. Qed.
Lemma xor_alike_loud bs : Forall block bs -> (exists b, In b bs /\ neutral b = false) -> alike one 3 enc bs (repeat loud (length bs)).
Proof.
  intros FB (b & Hb & Nb). destruct (In_nth bs b [] Hb) as (j & Hj & Ej).
  set (h := fun i => if Nat.eq_dec i j then nth j bs [] else loud).
  assert (HB : forall k, (k < length bs)%nat -> block (nth k bs [])) by (intros k Hk; rewrite Forall_forall in FB; now apply FB, nth_In).
  assert (A : alike one 3 enc bs (map h (seq 0 (length bs)))).
  { apply alike_top with (K := block) (j := j); auto.
    - unfold h. destruct (Nat.eq_dec j j); congruence.
    - intros i. unfold h. destruct (Nat.eq_dec i j); auto using loud_block.
    - intros bs2 i F2 L2 E2 Hi N Ei. unfold h. destruct (Nat.eq_dec i j) as [|_]; [congruence|].
      destruct (neutral (nth i bs [])) eqn:Ni.
      + apply xor_raise with (j := j); auto using loud_block, loud_not_neutral; try lia; [now rewrite Ei|now rewrite E2, Ej].
      + apply xor_swap; auto using loud_block; [lia|]. now rewrite Ei, Ni, loud_not_neutral. }
  set (bs1 := map h (seq 0 (length bs))) in *.
  assert (L1 : length bs1 = length bs) by (unfold bs1; now rewrite map_length, seq_length).
  assert (E : repeat loud (length bs) = upd j loud bs1).
  { apply nth_ext with [] []; [now rewrite repeat_length, upd_length|]. rewrite repeat_length. intros k Hk.
    rewrite (nth_indep _ [] loud), nth_repeat by now rewrite repeat_length.
    destruct (Nat.eq_dec k j) as [->|Nk]; [now rewrite nth_upd_eq by lia|]. rewrite nth_upd_neq by auto. unfold bs1.
    rewrite (nth_indep _ [] (h 0%nat)) by (rewrite map_length, seq_length; lia). rewrite (map_nth h), seq_nth by lia.
    unfold h. cbn [Nat.add]. destruct (Nat.eq_dec k j); [congruence|reflexivity]. }
  rewrite E. apply alike_trans with bs1; auto. apply xor_swap; auto using loud_block.
  - unfold bs1. apply Forall_map, Forall_forall. intros i _. unfold h. destruct (Nat.eq_dec i j); auto using loud_block.
  - lia.
  - rewrite loud_not_neutral. unfold bs1. rewrite (nth_indep _ [] (h 0%nat)) by (rewrite map_length, seq_length; lia).
    rewrite (map_nth h), seq_nth by lia. unfold h. cbn [Nat.add]. destruct (Nat.eq_dec j j); [|congruence]. now rewrite Ej.
Qed.
Lemma xor_alike bs bs' : length bs' = length bs -> Forall block bs -> Forall block bs' ->
  (Forall (fun b => neutral b = true) bs <-> Forall (fun b => neutral b = true) bs') -> alike one 3 enc bs bs'.
Proof.
  intros L FB FB' H.
  assert (D : forall l, Forall (fun b => neutral b = true) l \/ exists b, In b l /\ neutral b = false).
  { induction l as [|b l [IH|(c & Hc & Nc)]]; [left; constructor| |right; exists c; split; [now right|auto]].
    destruct (neutral b) eqn:E; [left; now constructor|right; exists b; split; [now left|auto]]. }
  destruct (D bs) as [A|A].
  - pose proof (proj1 H A) as A'. exists (fun d => d). split; [apply permutes_id|]. intros ds [_ HD]. cbv beta.
    enough (E : map (fun r => (c_pk r, (c_0 r, c_1 r))) (records one bs' ds) = map (fun r => (c_pk r, (c_0 r, c_1 r))) (records one bs ds)).
    { split.
      - apply (f_equal (map (fun x => (fst x, fst (snd x))))) in E. rewrite !map_map in E. exact E.
      - intros q. apply (f_equal (map (fun x => Z.lxor (fst (snd x)) (snd (snd x))))) in E. rewrite !map_map in E. unfold enc. cbn [fst snd] in E. now rewrite E. }
    clear H D. unfold records, separate, tapes_of. revert bs' L FB' A' ds HD. induction bs as [|b bs IH]; intros [|b' bs'] L FB' A' [|d ds] HD;
      try discriminate; try reflexivity. cbn [map2 map]. inversion FB; inversion FB'; inversion A; inversion A'; inversion HD as [|? ? [LD BD] HD']; subst. f_equal.
    + fold (client one b' d). fold (client one b d). rewrite !xor_client by auto. cbv zeta. 
      repeat match goal with X : neutral _ = true |- _ => rewrite X; clear X end. cbn [c_pk c_0 c_1 nth]. reflexivity.
    + apply IH; auto.
  - destruct (D bs') as [A'|A'].
    + exfalso. apply H in A'. destruct A as (b & Hb & Nb). rewrite Forall_forall in A'. rewrite (A' b Hb) in Nb. discriminate.
    + apply alike_trans with (repeat loud (length bs)); [now rewrite repeat_length| |].
      * now apply xor_alike_loud.
      * rewrite <- L. apply alike_sym; [now rewrite repeat_length|]. now apply xor_alike_loud.
Qed.

(** Server 1: its records stay the same. *)
Definition xor_side1 (b b' : list Z) (d : list (list Z)) : list (list Z) :=
  if neutral b then
    if neutral b' then d else let '(s, k, x) := three d in [x; map2 Z.lxor s x; k]
  else if neutral b' then let '(x, s, k) := three d in [map2 Z.lxor s x; k; x] else d.
Lemma xor_side1_draw b b' d : one_draw 3 d -> one_draw 3 (xor_side1 b b' d) /\ xor_side1 b' b (xor_side1 b b' d) = d.
Proof.
  intros H. destruct (three_inv d H) as (s & k & x & -> & A1 & A2 & A3). unfold xor_side1.
  destruct (neutral b), (neutral b'); cbn [three nth]; (split; [|try reflexivity]);
    try (now apply three_draw); try (apply three_draw; auto using block_xor); now rewrite block_xor_back by auto.
Qed.
Lemma xor_side1_client b b' d : block b -> block b' -> one_draw 3 d ->
  c_pk (client one b' (xor_side1 b b' d)) = c_pk (client one b d) /\ c_1 (client one b' (xor_side1 b b' d)) = c_1 (client one b d).
Proof.
  intros Bb Bb' Hd. destruct (xor_side1_draw b b' d Hd) as [[_ F'] _]. pose proof Hd as [_ F]. rewrite !xor_client by auto. clear F F'.
  destruct (three_inv d Hd) as (s & k & x & -> & A1 & A2 & A3). cbv zeta. unfold xor_side1, make_pk, tape.
  destruct (neutral b), (neutral b'); cbn [three nth c_pk c_1]; split; try reflexivity; rewrite block_word_xor by auto;
    rewrite ?Z.lxor_assoc, ?Z.lxor_nilpotent, ?Z.lxor_0_r; reflexivity.
Qed.
End Xor.

(** A permutation client by client. *)
Lemma permutes_each m (f : list Z -> list Z -> list (list Z) -> list (list Z)) bs bs' : length bs' = length bs ->
  (forall b b' d, one_draw m d -> one_draw m (f b b' d) /\ f b' b (f b b' d) = d) ->
  permutes (draws (length bs) m) (fun ds => map2 (fun bb d => f (fst bb) (snd bb) d) (combine bs bs') ds).
Proof.
  intros L H. exists (fun ds => map2 (fun bb d => f (snd bb) (fst bb) d) (combine bs bs') ds). intros ds HD.
  assert (G : forall f g, (forall b b' d, one_draw m d -> one_draw m (f b b' d) /\ g b b' (f b b' d) = d) ->
    let F := fun f ds => map2 (fun bb d => f (fst bb) (snd bb) d) (combine bs bs') ds in
    draws (length bs) m (F f ds) /\ F g (F f ds) = ds).
  { clear f H. intros f g H F. unfold F. clear F. revert bs' L ds HD. induction bs as [|b bs IH]; intros [|b' bs'] L [|d ds] HD; try discriminate.
    - split; [|reflexivity]. exact HD.
    - exfalso. destruct HD as [X _]. discriminate.
    - exfalso. destruct HD as [X _]. discriminate.
    - cbn [combine map2 fst snd]. destruct HD as [LD FD]. inversion FD as [|? ? Hd FD']; subst. destruct (H b b' d Hd) as [A B].
      destruct (IH bs') with (ds := ds) as [[C1 C2] E]; [now injection L|split; [now injection LD|auto]|].
      split; [|rewrite B; now f_equal]. split; [cbn [length]; congruence|]. constructor; auto. }
  destruct (G f (fun b b' => f b' b)) as [A B]; [exact H|].
  destruct (G (fun b b' => f b' b) f) as [C E]; [intros b b' d Hd; apply (H b' b d Hd)|]. auto.
Qed.
Lemma each_seen {V W} (one : prg -> nat -> crec V W * nat) m f bs bs' ds : length bs' = length bs -> Forall block bs -> Forall block bs' ->
  draws (length bs) m ds ->
  (forall b b' d, block b -> block b' -> one_draw m d ->
     c_pk (client one b' (f b b' d)) = c_pk (client one b d) /\ c_1 (client one b' (f b b' d)) = c_1 (client one b d)) ->
  seen true (records one bs' (map2 (fun bb d => f (fst bb) (snd bb) d) (combine bs bs') ds)) = seen true (records one bs ds).
Proof.
  intros L FB FB' HD H. unfold records, separate, tapes_of. revert bs' L FB' ds HD.
  induction bs as [|b bs IH]; intros [|b' bs'] L FB' [|d ds] HD; try discriminate; try reflexivity.
  inversion FB; inversion FB'; subst. destruct HD as [LD FD]. inversion FD as [|? ? Hd FD']; subst.
  cbn [combine map2 map seen]. unfold seen in *. cbn [map]. f_equal.
  - cbn [fst snd share_of]. destruct (H b b' d) as [E1 E2]; auto. unfold client in E1, E2. now rewrite E1, E2.
  - apply IH; auto. split; [now injection LD|auto].
Qed.
