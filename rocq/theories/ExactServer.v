(** * Equal numbers of draws: what the servers see *)
From Coq Require Import ZArith List Bool Lia Permutation.
From Verif Require Import Words WordsFacts Share Proc ProcFacts Net NetFacts SpecNet RelFacts ServerOps SpecServer TableFacts ServerFacts
  ServerProps SpecPrivacy ViewFacts PrivacyFacts ClientOps SpecClient ClientFacts ClientProps ServerCor SpecSecret SecretFacts
  PrivacyProof PrivacyExact SpecExact ExactFacts ExactMax.
Import ListNotations.
Open Scope Z_scope.

Lemma xor_same0 is_and gs gs' order0 order1 junk0 junk1 :
  let one := xor_request is_and in
  fair order1 -> by_keys order1 -> length junk0 = 40%nat -> length junk1 = 40%nat ->
  Forall is_blocks gs -> Forall is_blocks gs' -> Z.of_nat (length gs) < two32 -> NoDup (map c_pk (separate one gs)) ->
  seen false (separate one gs') = seen false (separate one gs) ->
  zxors (map (fun r => Z.lxor (c_0 r) (c_1 r)) (separate one gs')) = zxors (map (fun r => Z.lxor (c_0 r) (c_1 r)) (separate one gs)) ->
  exists v, forall h, h = separate one gs \/ h = separate one gs' ->
    sees0 (xor_op false order0 is_and (length h) (wire IntShare_bytes (subs0 h)) junk0)
          (xor_op true order1 is_and (length h) (wire IntShare_bytes (subs1 h)) junk1) v.
Proof.
  intros one HF HK J0 J1 G G' HN ND S RE.
  pose proof (xor_words is_and gs G) as WL. fold one in WL. pose proof (xor_words is_and gs' G') as WL'. fold one in WL'.
  pose proof (separate_pks one gs (xor_fresh_all _) G) as PK. pose proof (separate_pks one gs' (xor_fresh_all _) G') as PK'.
  assert (Ll : length (separate one gs) = length gs) by apply separate_length.
  set (l := separate one gs) in *. set (l' := separate one gs') in *. set (X := zxors (map (fun r => Z.lxor (c_0 r) (c_1 r)) l)) in *.
  assert (EP := seen_pks false l' l S). change (subs0 l' = subs0 l) in S.
  assert (ND' : NoDup (map c_pk l')) by now rewrite EP.
  assert (Ll' : length l' = length gs) by (apply (f_equal (@length _)) in EP; rewrite !map_length in EP; lia).
  destruct (xor_words_subs l WL) as [W0 W1]. destruct (xor_words_subs l' WL') as [W0' W1'].
  destruct (xor_view_xor is_and order0 order1 (length gs) (wire IntShare_bytes (subs0 l)) (subs0 l) junk0 (map c_pk l) (ids any (subs1 l)))
    as (view & V); auto.
  { now apply honest_arrives0. }
  exists (view X). intros h [->| ->].
  - rewrite Ll. replace X with (zxors (map (combined any Z.lxor 0 (subs0 l) (subs1 l)) (map c_pk l))).
    + apply V; auto. { now apply honest_arrives1. } apply honest_accepted_list; auto using any_ok.
    + rewrite honest_map_combined by auto using any_ok. reflexivity.
  - rewrite Ll', S. replace X with (zxors (map (combined any Z.lxor 0 (subs0 l) (subs1 l')) (map c_pk l))).
    + apply V; auto. { now apply honest_arrives1. }
      * rewrite <- S, <- EP. apply honest_accepted_list; auto using any_ok.
      * now apply ids_any.
    + rewrite <- S, <- EP, honest_map_combined by auto using any_ok. exact RE.
Qed.
Lemma xor_same1 is_and gs gs' order0 order1 junk0 junk1 :
  let one := xor_request is_and in
  fair order1 -> length junk0 = 40%nat -> length junk1 = 40%nat ->
  Forall is_blocks gs -> Forall is_blocks gs' -> Z.of_nat (length gs) < two32 ->
  seen true (separate one gs') = seen true (separate one gs) ->
  exists v, forall h, h = separate one gs \/ h = separate one gs' ->
    sees1 (xor_op false order0 is_and (length h) (wire IntShare_bytes (subs0 h)) junk0)
          (xor_op true order1 is_and (length h) (wire IntShare_bytes (subs1 h)) junk1) v.
Proof.
  intros one HF J0 J1 G G' HN S.
  pose proof (xor_words is_and gs G) as WL. fold one in WL. pose proof (xor_words is_and gs' G') as WL'. fold one in WL'.
  pose proof (separate_pks one gs (xor_fresh_all _) G) as PK. pose proof (separate_pks one gs' (xor_fresh_all _) G') as PK'.
  assert (Ll : length (separate one gs) = length gs) by apply separate_length.
  set (l := separate one gs) in *. set (l' := separate one gs') in *.
  assert (EP := seen_pks true l' l S). change (subs1 l' = subs1 l) in S.
  assert (Ll' : length l' = length gs) by (apply (f_equal (@length _)) in EP; rewrite !map_length in EP; lia).
  destruct (xor_words_subs l WL) as [W0 W1]. destruct (xor_words_subs l' WL') as [W0' W1'].
  destruct (xor_view_fixed is_and order0 order1 (length gs) (wire IntShare_bytes (subs1 l)) (subs1 l) junk1 (ids any (subs0 l)))
    as (v & V); auto.
  { now apply honest_arrives1. }
  exists v. intros h [->| ->].
  - rewrite Ll. apply V with (subs0 := subs0 l); auto. now apply honest_arrives0.
  - rewrite Ll', S. apply V with (subs0 := subs0 l'); auto. { now apply honest_arrives0. } now apply ids_any.
Qed.

Lemma records_real {V W} (one : prg -> nat -> crec V W * nat) (f : list Z -> W) m bs ds : Forall block bs -> draws (length bs) m ds ->
  (forall b d, block b -> Forall block d -> c_real (fst (one (tape b d) 0%nat)) = f b) ->
  map c_real (separate one (tapes_of bs ds)) = map f bs.
Proof.
  intros FB [L FD] H. unfold separate, tapes_of. revert ds L FD. induction FB as [|b bs Hb FB IH]; intros [|d ds] L FD; try discriminate; [reflexivity|].
  inversion FD as [|? ? [_ Hd] FD']; subst. cbn [map2 map]. rewrite H by auto. f_equal. apply IH; auto.
Qed.
Lemma xor_drawn is_and b d : block b -> Forall block d -> c_real (fst (xor_request is_and (tape b d) 0)) = drawn_bit b.
Proof. intros Hb Hd. unfold xor_request. cbn [fst c_real]. now apply tape_bit. Qed.
Lemma neutral_iff is_and bs : Forall (fun b => neutral is_and b = true) bs <-> (forall b, In b bs -> drawn_bit b = is_and).
Proof.
  rewrite Forall_forall. unfold neutral. split; intros H b Hb; specialize (H b Hb); destruct is_and, (drawn_bit b); cbn in *; congruence.
Qed.
Lemma permutes_dom {D} (dom : D -> Prop) F d : permutes dom F -> dom d -> dom (F d).
Proof. intros (G & H) Hd. now apply H. Qed.
Lemma tapes_length n m bs ds : length bs = n -> draws n m ds -> length (tapes_of bs ds) = n.
Proof. intros L [LD _]. unfold tapes_of. rewrite map2_length, L, LD. apply Nat.min_id. Qed.

Lemma xor_exact0 is_and bs bs' : let one := xor_request is_and in
  length bs' = length bs -> Forall block bs -> Forall block bs' -> Z.of_nat (length bs) < two32 ->
  ((forall b, In b bs -> drawn_bit b = is_and) <-> (forall b, In b bs' -> drawn_bit b = is_and)) ->
  exists F, permutes (draws (length bs) 3) F /\ forall ds, draws (length bs) 3 ds ->
    let l := separate one (tapes_of bs ds) in let l' := separate one (tapes_of bs' (F ds)) in
    map c_real l = map drawn_bit bs /\ map c_real l' = map drawn_bit bs' /\ seen false l' = seen false l /\
    forall order0 order1 junk0 junk1, fair order1 -> by_keys order1 -> length junk0 = 40%nat -> length junk1 = 40%nat ->
      NoDup (map c_pk l) ->
      exists v, forall h, h = l \/ h = l' ->
        sees0 (xor_op false order0 is_and (length h) (wire IntShare_bytes (subs0 h)) junk0)
              (xor_op true order1 is_and (length h) (wire IntShare_bytes (subs1 h)) junk1) v.
Proof.
  intros one L FB FB' HN HE. rewrite <- !neutral_iff in HE. destruct (xor_alike is_and bs bs' L FB FB' HE) as (F & PF & H).
  exists F. split; [exact PF|]. intros ds HD. pose proof (permutes_dom _ _ _ PF HD) as HD'. cbv zeta.
  destruct (H ds HD) as [S X]. split; [apply (records_real one drawn_bit 3); [assumption|assumption|exact (xor_drawn is_and)]|].
  split; [apply (records_real one drawn_bit 3); [assumption|now rewrite L|exact (xor_drawn is_and)]|]. split; [exact S|].
  intros order0 order1 junk0 junk1 HF HK J0 J1 ND. apply xor_same0; auto.
  - eapply tapes_blocks; eassumption.
  - eapply tapes_blocks; eassumption.
  - rewrite (tapes_length (length bs) 3); auto.
  - exact (X tt).
Qed.
Lemma xor_exact1 is_and bs bs' : let one := xor_request is_and in
  length bs' = length bs -> Forall block bs -> Forall block bs' -> Z.of_nat (length bs) < two32 ->
  exists F, permutes (draws (length bs) 3) F /\ forall ds, draws (length bs) 3 ds ->
    let l := separate one (tapes_of bs ds) in let l' := separate one (tapes_of bs' (F ds)) in
    map c_real l = map drawn_bit bs /\ map c_real l' = map drawn_bit bs' /\ seen true l' = seen true l /\
    forall order0 order1 junk0 junk1, fair order1 -> length junk0 = 40%nat -> length junk1 = 40%nat ->
      exists v, forall h, h = l \/ h = l' ->
        sees1 (xor_op false order0 is_and (length h) (wire IntShare_bytes (subs0 h)) junk0)
              (xor_op true order1 is_and (length h) (wire IntShare_bytes (subs1 h)) junk1) v.
Proof.
  intros one L FB FB' HN. pose proof (permutes_each 3 (xor_side1 is_and) bs bs' L (xor_side1_draw is_and)) as PF.
  eexists. split; [exact PF|]. intros ds HD. pose proof (permutes_dom _ _ _ PF HD) as HD'. cbv beta in HD'. cbv zeta.
  pose proof (each_seen one 3 (xor_side1 is_and) bs bs' ds L FB FB' HD (xor_side1_client is_and)) as S.
  split; [apply (records_real one drawn_bit 3); [assumption|assumption|exact (xor_drawn is_and)]|].
  split; [apply (records_real one drawn_bit 3); [assumption|now rewrite L|exact (xor_drawn is_and)]|]. split; [exact S|].
  intros order0 order1 junk0 junk1 HF J0 J1. apply xor_same1; auto.
  - eapply tapes_blocks; eassumption.
  - eapply tapes_blocks; eassumption.
  - rewrite (tapes_length (length bs) 3); auto.
Qed.

(** ** MAX, MIN *)
Lemma max_row_cont B (l : list (crec (list Z) nat)) : NoDup (map c_pk l) ->
  row_of B (subs0 l) (subs1 l) (map c_pk l) = map (fun j => zxors (map (fun r => xor_at j (c_0 r) (c_1 r)) l)) (seq 0 (B + 1)).
Proof. intros ND. unfold row_of. apply map_ext. intros j. now rewrite honest_map_combined by auto using any_ok. Qed.
Lemma max_same0 is_max B gs gs' order0 order1 pk0 pk1 junk0 junk1 :
  let one := max_request is_max B in
  Z.of_nat (length gs) * (Z.of_nat B + 1) < two32 -> length gs' = length gs ->
  fair order1 -> by_keys order1 -> length pk0 = 32%nat -> length pk1 = 32%nat ->
  (forall i, length (junk0 i) = (8 * (B + 1))%nat) -> (forall i, length (junk1 i) = (8 * (B + 1))%nat) ->
  Forall is_blocks gs -> Forall is_blocks gs' -> NoDup (map c_pk (separate one gs)) ->
  Exists (fun x => x <> 0) (row_of B (subs0 (separate one gs)) (subs1 (separate one gs)) (map c_pk (separate one gs))) ->
  seen false (separate one gs') = seen false (separate one gs) ->
  (forall q, zxors (map (fun r => xor_at q (c_0 r) (c_1 r)) (separate one gs')) = zxors (map (fun r => xor_at q (c_0 r) (c_1 r)) (separate one gs))) ->
  exists v, forall h, h = separate one gs \/ h = separate one gs' ->
    sees0 (max_op false order0 is_max B (length h) (wire maxshare_bytes (subs0 h)) pk0 junk0)
          (max_op true order1 is_max B (length h) (wire maxshare_bytes (subs1 h)) pk1 junk1) v.
Proof.
  intros one HT LG HF HK K0 K1 J0 J1 G G' ND NZ S X.
  pose proof (max_good_all is_max B gs G) as GL. fold one in GL. pose proof (max_good_all is_max B gs' G') as GL'. fold one in GL'.
  pose proof (separate_pks one gs (max_fresh_all _ _) G) as PK. pose proof (separate_pks one gs' (max_fresh_all _ _) G') as PK'.
  assert (Ll : length (separate one gs) = length gs) by apply separate_length.
  assert (Ll' : length (separate one gs') = length gs) by (now rewrite separate_length).
  set (l := separate one gs) in *. set (l' := separate one gs') in *.
  assert (EP := seen_pks false l' l S). change (subs0 l' = subs0 l) in S.
  assert (ND' : NoDup (map c_pk l')) by now rewrite EP.
  assert (HN : Z.of_nat (length gs) < two32) by nia.
  destruct (max_good_rows is_max B l GL) as [W0 W1]. destruct (max_good_rows is_max B l' GL') as [W0' W1'].
  destruct (max_view_row is_max B order0 order1 (length gs) (wire maxshare_bytes (subs0 l)) (subs0 l) pk0 junk0 (map c_pk l) (ids any (subs1 l)))
    as (view & V); auto.
  { now apply honest_arrives0. }
  assert (TE : row_of B (subs0 l) (subs1 l') (map c_pk l) = row_of B (subs0 l) (subs1 l) (map c_pk l)).
  { rewrite <- S, <- EP at 1. rewrite !max_row_cont by auto. apply map_ext. intros j. apply X. }
  exists (view (row_of B (subs0 l) (subs1 l) (map c_pk l))). intros h [->| ->].
  - rewrite Ll. apply V; auto. { now apply honest_arrives1. } apply honest_accepted_list; auto using any_ok.
  - rewrite Ll', S, <- TE. apply V; auto.
    + now apply honest_arrives1.
    + rewrite <- S, <- EP. apply honest_accepted_list; auto using any_ok.
    + now apply ids_any.
    + right. now rewrite TE.
Qed.
Lemma max_same1 is_max B gs gs' order0 order1 pk0 pk1 junk0 junk1 :
  let one := max_request is_max B in
  Z.of_nat (length gs) * (Z.of_nat B + 1) < two32 -> length gs' = length gs ->
  fair order1 -> length pk0 = 32%nat -> length pk1 = 32%nat ->
  (forall i, length (junk0 i) = (8 * (B + 1))%nat) -> (forall i, length (junk1 i) = (8 * (B + 1))%nat) ->
  Forall is_blocks gs -> Forall is_blocks gs' -> NoDup (map c_pk (separate one gs)) ->
  seen true (separate one gs') = seen true (separate one gs) ->
  exists v, forall h, h = separate one gs \/ h = separate one gs' ->
    Exists (fun x => x <> 0) (row_of B (subs0 h) (subs1 h) (map c_pk h)) ->
    sees1 (max_op false order0 is_max B (length h) (wire maxshare_bytes (subs0 h)) pk0 junk0)
          (max_op true order1 is_max B (length h) (wire maxshare_bytes (subs1 h)) pk1 junk1) v.
Proof.
  intros one HT LG HF K0 K1 J0 J1 G G' ND S.
  pose proof (max_good_all is_max B gs G) as GL. fold one in GL. pose proof (max_good_all is_max B gs' G') as GL'. fold one in GL'.
  pose proof (separate_pks one gs (max_fresh_all _ _) G) as PK. pose proof (separate_pks one gs' (max_fresh_all _ _) G') as PK'.
  assert (Ll : length (separate one gs) = length gs) by apply separate_length.
  assert (Ll' : length (separate one gs') = length gs) by (now rewrite separate_length).
  set (l := separate one gs) in *. set (l' := separate one gs') in *.
  assert (EP := seen_pks true l' l S). change (subs1 l' = subs1 l) in S.
  assert (ND' : NoDup (map c_pk l')) by now rewrite EP.
  assert (HN : Z.of_nat (length gs) < two32) by nia.
  destruct (max_good_rows is_max B l GL) as [W0 W1]. destruct (max_good_rows is_max B l' GL') as [W0' W1'].
  destruct (max_view_fixed is_max B order0 order1 (length gs) (wire maxshare_bytes (subs1 l)) (subs1 l) pk1 junk1 (map c_pk l) (ids any (subs0 l)))
    as (v & V); auto.
  { now apply honest_arrives1. }
  exists v. intros h [->| ->] NZ.
  - rewrite Ll. apply V with (subs0 := subs0 l); auto. { now apply honest_arrives0. } apply honest_accepted_list; auto using any_ok.
  - rewrite Ll', S. apply V with (subs0 := subs0 l'); auto.
    + now apply honest_arrives0.
    + rewrite <- S, <- EP. apply honest_accepted_list; auto using any_ok.
    + now apply ids_any.
    + right. now rewrite <- S, <- EP.
Qed.
Lemma max_drawn is_max B b d : block b -> Forall block d -> c_real (fst (max_request is_max B (tape b d) 0)) = drawn_value B b.
Proof. apply (max_real is_max B). Qed.

Lemma max_exact0 is_max B bs bs' v : let one := max_request is_max B in let m := (2 * blocks (8 * (B + 1)) + 1)%nat in
  length bs' = length bs -> Forall block bs -> Forall block bs' -> Z.of_nat (length bs) * (Z.of_nat B + 1) < two32 ->
  extreme is_max v (map (drawn_value B) bs) -> extreme is_max v (map (drawn_value B) bs') ->
  exists F, permutes (draws (length bs) m) F /\ forall ds, draws (length bs) m ds ->
    let l := separate one (tapes_of bs ds) in let l' := separate one (tapes_of bs' (F ds)) in
    map c_real l = map (drawn_value B) bs /\ map c_real l' = map (drawn_value B) bs' /\ seen false l' = seen false l /\
    forall order0 order1 pk0 pk1 junk0 junk1, fair order1 -> by_keys order1 -> length pk0 = 32%nat -> length pk1 = 32%nat ->
      (forall i, length (junk0 i) = (8 * (B + 1))%nat) -> (forall i, length (junk1 i) = (8 * (B + 1))%nat) ->
      NoDup (map c_pk l) -> Exists (fun x => x <> 0) (row_of B (subs0 l) (subs1 l) (map c_pk l)) ->
      exists w, forall h, h = l \/ h = l' ->
        sees0 (max_op false order0 is_max B (length h) (wire maxshare_bytes (subs0 h)) pk0 junk0)
              (max_op true order1 is_max B (length h) (wire maxshare_bytes (subs1 h)) pk1 junk1) w.
Proof.
  intros one m L FB FB' HN HE HE'. destruct (max_alike is_max B bs bs' v L FB FB' HE HE') as (F & PF & H).
  exists F. split; [exact PF|]. intros ds HD. pose proof (permutes_dom _ _ _ PF HD) as HD'. cbv zeta.
  destruct (H ds HD) as [S X]. split; [apply (records_real one (drawn_value B) m); [assumption|assumption|exact (max_drawn is_max B)]|].
  split; [apply (records_real one (drawn_value B) m); [assumption|now rewrite L|exact (max_drawn is_max B)]|]. split; [exact S|].
  intros order0 order1 pk0 pk1 junk0 junk1 HF HK K0 K1 J0 J1 ND NZ. apply max_same0; auto.
  - now rewrite (tapes_length (length bs) m).
  - now rewrite !(tapes_length (length bs) m).
  - eapply tapes_blocks; eassumption.
  - eapply tapes_blocks; eassumption.
Qed.
Lemma max_exact1 is_max B bs bs' : let one := max_request is_max B in let m := (2 * blocks (8 * (B + 1)) + 1)%nat in
  length bs' = length bs -> Forall block bs -> Forall block bs' -> Z.of_nat (length bs) * (Z.of_nat B + 1) < two32 ->
  exists F, permutes (draws (length bs) m) F /\ forall ds, draws (length bs) m ds ->
    let l := separate one (tapes_of bs ds) in let l' := separate one (tapes_of bs' (F ds)) in
    map c_real l = map (drawn_value B) bs /\ map c_real l' = map (drawn_value B) bs' /\ seen true l' = seen true l /\
    forall order0 order1 pk0 pk1 junk0 junk1, fair order1 -> length pk0 = 32%nat -> length pk1 = 32%nat ->
      (forall i, length (junk0 i) = (8 * (B + 1))%nat) -> (forall i, length (junk1 i) = (8 * (B + 1))%nat) ->
      NoDup (map c_pk l) ->
      exists w, forall h, h = l \/ h = l' -> Exists (fun x => x <> 0) (row_of B (subs0 h) (subs1 h) (map c_pk h)) ->
        sees1 (max_op false order0 is_max B (length h) (wire maxshare_bytes (subs0 h)) pk0 junk0)
              (max_op true order1 is_max B (length h) (wire maxshare_bytes (subs1 h)) pk1 junk1) w.
Proof.
  intros one m L FB FB' HN. pose proof (permutes_each m (max_side1 is_max B) bs bs' L (max_side1_draw is_max B)) as PF.
  eexists. split; [exact PF|]. intros ds HD. pose proof (permutes_dom _ _ _ PF HD) as HD'. cbv beta in HD'. cbv zeta.
  pose proof (each_seen one m (max_side1 is_max B) bs bs' ds L FB FB' HD (max_side1_client is_max B)) as S.
  split; [apply (records_real one (drawn_value B) m); [assumption|assumption|exact (max_drawn is_max B)]|].
  split; [apply (records_real one (drawn_value B) m); [assumption|now rewrite L|exact (max_drawn is_max B)]|]. split; [exact S|].
  intros order0 order1 pk0 pk1 junk0 junk1 HF K0 K1 J0 J1 ND. apply max_same1; auto.
  - now rewrite (tapes_length (length bs) m).
  - now rewrite !(tapes_length (length bs) m).
  - eapply tapes_blocks; eassumption.
  - eapply tapes_blocks; eassumption.
Qed.

(** ** Numbers of draws *)
Fixpoint lists_of {A} (E : list A) (n : nat) : list (list A) :=
  match n with O => [[]] | S n => flat_map (fun x => map (cons x) (lists_of E n)) E end.
Lemma in_lists_of {A} (E : list A) (P : A -> Prop) n : (forall x, In x E <-> P x) ->
  forall l, In l (lists_of E n) <-> length l = n /\ Forall P l.
Proof.
  intros HE. induction n as [|n IH]; intros l; cbn [lists_of].
  - split; [intros [<-|[]]; auto|]. intros [L _]. destruct l; [now left|discriminate].
  - rewrite in_flat_map. split.
    + intros (x & Hx & Hl). apply in_map_iff in Hl as (t & <- & Ht). apply IH in Ht as [L F]. split; [cbn; congruence|]. constructor; [now apply HE|exact F].
    + intros [L F]. destruct l as [|x t]; [discriminate|]. inversion F; subst. exists x. split; [now apply HE|].
      apply in_map. apply IH. split; [now injection L|assumption].
Qed.
Lemma draws_finite n m : exists E, NoDup E /\ forall ds, In ds E <-> draws n m ds.
Proof.
  set (bytes := map Z.of_nat (seq 0 256)).
  assert (HB : forall x, In x bytes <-> is_byte x).
  { intros x. unfold bytes, is_byte. rewrite in_map_iff. split.
    - intros (k & <- & Hk). apply in_seq in Hk. lia.
    - intros H. exists (Z.to_nat x). split; [lia|]. apply in_seq. lia. }
  set (E := lists_of (lists_of (lists_of bytes 16) m) n).
  exists (nodup (list_eq_dec (list_eq_dec (list_eq_dec Z.eq_dec))) E). split; [apply NoDup_nodup|].
  intros ds. rewrite nodup_In. unfold E. apply in_lists_of. intros d. apply in_lists_of. intros b. now apply in_lists_of.
Qed.
Lemma alike_count {V W Q} (one : prg -> nat -> crec V W * nat) m (cont : Q -> crec V W -> Z) (qs : list Q) bs bs' : alike one m cont bs bs' ->
  forall (A : list (list Z * V) -> list Z -> bool) E, NoDup E -> (forall ds, In ds E <-> draws (length bs) m ds) ->
  let hits bs := length (filter (fun ds => let l := separate one (tapes_of bs ds) in
                   A (seen false l) (map (fun q => zxors (map (cont q) l)) qs)) E) in
  hits bs = hits bs'.
Proof.
  intros (F & PF & H) A E ND HE hits. unfold hits. cbv zeta.
  apply (permutes_count (draws (length bs) m) F (fun ds => A (seen false (records one bs ds)) (map (fun q => zxors (map (cont q) (records one bs ds))) qs))
    (fun ds => A (seen false (records one bs' ds)) (map (fun q => zxors (map (cont q) (records one bs' ds))) qs)) E PF); auto.
  intros ds HD. destruct (H ds HD) as [S X]. rewrite S. f_equal. apply map_ext. exact X.
Qed.
Lemma side_count {V W} (one : prg -> nat -> crec V W * nat) m F bs bs' : permutes (draws (length bs) m) F ->
  (forall ds, draws (length bs) m ds -> seen true (separate one (tapes_of bs' (F ds))) = seen true (separate one (tapes_of bs ds))) ->
  forall (A : list (list Z * V) -> bool) E, NoDup E -> (forall ds, In ds E <-> draws (length bs) m ds) ->
  let hits bs := length (filter (fun ds => A (seen true (separate one (tapes_of bs ds)))) E) in hits bs = hits bs'.
Proof.
  intros PF H A E ND HE hits. unfold hits.
  apply (permutes_count (draws (length bs) m) F (fun ds => A (seen true (separate one (tapes_of bs ds))))
    (fun ds => A (seen true (separate one (tapes_of bs' ds)))) E PF); auto.
  intros ds HD. now rewrite H.
Qed.
Lemma xor_count0 is_and bs bs' : length bs' = length bs -> Forall block bs -> Forall block bs' ->
  ((forall b, In b bs -> drawn_bit b = is_and) <-> (forall b, In b bs' -> drawn_bit b = is_and)) ->
  forall (A : list (list Z * Z) -> Z -> bool) E, NoDup E -> (forall ds, In ds E <-> draws (length bs) 3 ds) ->
  let hits bs := length (filter (fun ds => let l := separate (xor_request is_and) (tapes_of bs ds) in
                   A (seen false l) (zxors (map (fun r => Z.lxor (c_0 r) (c_1 r)) l))) E) in
  hits bs = hits bs'.
Proof.
  intros L FB FB' HE A E ND HEn. rewrite <- !neutral_iff in HE.
  exact (alike_count _ 3 _ [tt] bs bs' (xor_alike is_and bs bs' L FB FB' HE) (fun s q => A s (nth 0 q 0)) E ND HEn).
Qed.
Lemma max_count0 is_max B bs bs' v : length bs' = length bs -> Forall block bs -> Forall block bs' ->
  extreme is_max v (map (drawn_value B) bs) -> extreme is_max v (map (drawn_value B) bs') ->
  forall (A : list (list Z * list Z) -> list Z -> bool) E, NoDup E ->
    (forall ds, In ds E <-> draws (length bs) (2 * blocks (8 * (B + 1)) + 1) ds) ->
  let hits bs := length (filter (fun ds => let l := separate (max_request is_max B) (tapes_of bs ds) in
                   A (seen false l) (map (fun q => zxors (map (fun r => xor_at q (c_0 r) (c_1 r)) l)) (seq 0 (B + 1)))) E) in
  hits bs = hits bs'.
Proof.
  intros L FB FB' HE HE' A E ND HEn.
  exact (alike_count _ _ _ (seq 0 (B + 1)) bs bs' (max_alike is_max B bs bs' v L FB FB' HE HE') A E ND HEn).
Qed.
Lemma xor_count1 is_and bs bs' : length bs' = length bs -> Forall block bs -> Forall block bs' ->
  forall (A : list (list Z * Z) -> bool) E, NoDup E -> (forall ds, In ds E <-> draws (length bs) 3 ds) ->
  let hits bs := length (filter (fun ds => A (seen true (separate (xor_request is_and) (tapes_of bs ds)))) E) in hits bs = hits bs'.
Proof.
  intros L FB FB'. apply (side_count (xor_request is_and) 3 _ bs bs' (permutes_each 3 (xor_side1 is_and) bs bs' L (xor_side1_draw is_and))).
  intros ds HD. exact (each_seen _ 3 (xor_side1 is_and) bs bs' ds L FB FB' HD (xor_side1_client is_and)).
Qed.
Lemma max_count1 is_max B bs bs' : length bs' = length bs -> Forall block bs -> Forall block bs' ->
  forall (A : list (list Z * list Z) -> bool) E, NoDup E -> (forall ds, In ds E <-> draws (length bs) (2 * blocks (8 * (B + 1)) + 1) ds) ->
  let hits bs := length (filter (fun ds => A (seen true (separate (max_request is_max B) (tapes_of bs ds)))) E) in hits bs = hits bs'.
Proof.
  intros L FB FB'. apply (side_count (max_request is_max B) _ _ bs bs' (permutes_each _ (max_side1 is_max B) bs bs' L (max_side1_draw is_max B))).
  intros ds HD. exact (each_seen _ _ (max_side1 is_max B) bs bs' ds L FB FB' HD (max_side1_client is_max B)).
Qed.
