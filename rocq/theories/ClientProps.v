From Coq Require Import ZArith List Bool Lia Permutation.
From Verif Require Import Words WordsFacts Constants Proc ProcFacts Net NetFacts SpecNet RelFacts
  ServerOps SpecServer TableFacts ServerFacts ServerProps ServerCor ClientOps SpecClient ClientFacts.
Import ListNotations.
Open Scope Z_scope.

(** ** AND, OR *)
Lemma xor_fresh a g : fresh_pk g (xor_request a g).
Proof.
  intros pos. unfold xor_request. set (ne := if a then _ else _). split; [|reflexivity].
  destruct ne; cbn [snd]; lia.
Qed.
Lemma xor_end a g n : (snd (requests (xor_request a g) n 0) <= 3 * n)%nat.
Proof.
  pose proof (requests_end (xor_request a g) n 0 3). enough ((snd (requests (xor_request a g) n 0) <= 0 + n * 3)%nat) by lia.
  apply H. intros pos. unfold xor_request. set (ne := if a then _ else _). destruct ne; cbn [snd]; lia.
Qed.

(** The value a request encodes: zero if it is the neutral one. *)
Lemma xor_request_ok a g pos : prg_ok g ->
  let r := fst (xor_request a g pos) in
  word (c_0 r) /\ word (c_1 r) /\ (c_real r = a -> Z.lxor (c_0 r) (c_1 r) = 0).
Proof.
  intros HG r. subst r. unfold xor_request. set (v := random_bool1 g pos).
  set (ne := if a then v else negb v). set (p1 := if ne then _ else _).
  set (e := if ne then 0 else random_u64 g (pos + 1)). cbn [fst c_0 c_1 c_real].
  assert (E : word e). { unfold e. destruct ne; [unfold word, two64; lia|now apply random_u64_ok]. }
  pose proof (random_u64_ok g p1 HG) as R. split; auto.
  split; [change two64 with (2 ^ Z.of_nat 64) in *; unfold word in *; apply (lxor_lt 64); auto|].
  intros Hv. replace e with 0; [now rewrite Z.lxor_0_r, Z.lxor_nilpotent|].
  unfold e, ne. rewrite Hv. now destruct a.
Qed.

Lemma fold_neutral is_and (l : list (crec Z bool)) a0 :
  fold_left (fun ans r => if is_and : bool then ans && c_real r else ans || c_real r) l a0 =
  if is_and then a0 && forallb (fun r => c_real r) l else a0 || existsb (fun r => c_real r) l.
Proof.
  revert a0. induction l as [|r l IH]; intros a0; cbn [fold_left forallb existsb].
  - destruct is_and; [now rewrite andb_true_r|now rewrite orb_false_r].
  - rewrite IH. destruct is_and; [now rewrite andb_assoc|now rewrite orb_assoc].
Qed.

Lemma xor_ans_neutral is_and (l : list (crec Z bool)) :
  xor_ans is_and l = is_and <-> forall r, In r l -> c_real r = is_and.
Proof.
  unfold xor_ans. rewrite fold_neutral. destruct is_and; cbn [andb orb].
  - apply forallb_forall.
  - rewrite <- not_true_iff_false, existsb_exists. split.
    + intros H r Hr. apply not_true_iff_false. intros E. apply H. eauto.
    + intros H (r & Hr & E). rewrite (H r Hr) in E. discriminate.
Qed.

Lemma xor_honest is_and g n order0 order1 junk0 junk1 :
  prg_ok g -> Z.of_nat n < two32 -> fair order1 -> length junk0 = 40%nat -> length junk1 = 40%nat ->
  let l := fst (requests (xor_request is_and g) n 0) in
  let e := zxors (map (fun r => Z.lxor (c_0 r) (c_1 r)) l) in
  both (xor_op false order0 is_and n (wire IntShare_bytes (subs0 l)) junk0)
       (xor_op true order1 is_and n (wire IntShare_bytes (subs1 l)) junk1)
    (fun r0 r1 => r1 = RET_NO_ANS /\
       exists ans, r0 = RET_ANS ans /\
         (xor_ans is_and l = is_and -> ans = is_and) /\
         (xor_ans is_and l = negb is_and -> e <> 0 -> ans = negb is_and) /\
         (ans = negb is_and -> exists r, In r l /\ c_real r = negb is_and)).
Proof.
  intros HG Hn HF J0 J1 l e.
  assert (L : length l = n) by apply requests_length.
  pose proof (requests_pks g (xor_request is_and g) n 0 HG (xor_fresh is_and g)) as P.
  assert (ND : NoDup (map c_pk l)).
  { apply requests_nodup with (g := g); auto using xor_fresh. pose proof (xor_end is_and g n).
    unfold two32, two64 in *. lia. }
  assert (F : Forall (fun r => word (c_0 r) /\ word (c_1 r) /\ (c_real r = is_and -> Z.lxor (c_0 r) (c_1 r) = 0)) l).
  { apply requests_forall. intros pos. now apply xor_request_ok. }
  assert (OK : Forall (fun r : crec Z bool => any (c_0 r) = true /\ any (c_1 r) = true) l)
    by (apply Forall_forall; intros; split; reflexivity).
  pose proof (honest_accepted_list any l ND OK) as HA.
  assert (N : xor_ans is_and l = is_and -> e = 0).
  { intros H. unfold e. apply zxors_zero. intros r Hr. rewrite Forall_forall in F. apply (F r Hr).
    now apply (proj1 (xor_ans_neutral is_and l) H). }
  eapply both_impl; [|apply (xor_op_result is_and order0 order1 n n _ _ (subs0 l) (subs1 l) junk0 junk1 (map c_pk l));
    auto; [apply honest_arrives0|apply honest_arrives1| |]; auto].
  - intros a b [-> ->]. split; auto. rewrite map_length, L, outcome_all.
    rewrite (honest_map_combined any l ND OK). fold e. eexists. split; [reflexivity|].
    cbv zeta. destruct (Z.eqb_spec e 0) as [E|E].
    + split; [now destruct is_and|]. split; [easy|]. intros H. now destruct is_and.
    + split; [intros H; elim E; auto|]. split; [now destruct is_and|]. intros _.
      destruct (existsb (fun r => Bool.eqb (c_real r) (negb is_and)) l) eqn:X.
      * apply existsb_exists in X as (r & Hr & Er%eqb_prop). eauto.
      * exfalso. apply E, N, xor_ans_neutral. intros r Hr.
        rewrite <- not_true_iff_false, existsb_exists in X.
        destruct (Bool.eqb (c_real r) (negb is_and)) eqn:Er; [exfalso; eauto|].
        apply eqb_false_iff in Er. now destruct (c_real r), is_and.
  - apply Forall_map. eapply Forall_impl; [|exact F]. intros r (A & _). exact A.
  - apply Forall_map. eapply Forall_impl; [|exact F]. intros r (_ & A & _). exact A.
Qed.

(** ** MAX, MIN *)
Lemma max_fresh a B g : fresh_pk g (max_request a B g).
Proof. intros pos. unfold max_request. cbn [fst snd c_pk]. split; [lia|reflexivity]. Qed.
Lemma max_end a B g n : (snd (requests (max_request a B g) n 0) <= n * (1 + 2 * blocks (8 * (B + 1))))%nat.
Proof.
  apply (requests_end (max_request a B g) n 0). intros pos. unfold max_request. cbn [snd]. lia.
Qed.

(** The position a client's value is encoded at. *)
Definition level (is_max : bool) (B : nat) (r : crec (list Z) nat) : nat :=
  if is_max then c_real r else (B - c_real r)%nat.

Lemma nth_map_seq {A} (f : nat -> A) n j d : (j < n)%nat -> nth j (map f (seq 0 n)) d = f j.
Proof. intros H. rewrite nth_indep with (d' := f 0%nat) by now rewrite map_length, seq_length.
  rewrite map_nth, seq_nth by auto. reflexivity. Qed.

Lemma nth_word l j : Forall word l -> word (nth j l 0).
Proof.
  intros H. destruct (Nat.lt_ge_cases j (length l)) as [|G].
  - rewrite Forall_forall in H. apply H, nth_In; auto.
  - rewrite nth_overflow by auto. unfold word, two64. lia.
Qed.

Lemma max_request_ok a B g pos : prg_ok g ->
  let r := fst (max_request a B g pos) in
  (c_real r <= B)%nat /\
  (length (c_0 r) = B + 1)%nat /\ (length (c_1 r) = B + 1)%nat /\ Forall word (c_0 r) /\ Forall word (c_1 r) /\
  (forall j, (level a B r < j <= B)%nat -> xor_at j (c_0 r) (c_1 r) = 0).
Proof.
  intros HG r. subst r. unfold max_request, level. set (n := (B + 1)%nat).
  set (v := Z.to_nat (random_u64 g pos mod Z.of_nat n)).
  destruct (random_words_ok g (pos + 1) n HG) as [LE FE].
  destruct (random_words_ok g (pos + 1 + blocks (8 * n)) n HG) as [L0 F0].
  set (oe := random_words g (pos + 1) n) in *. set (s0 := random_words g (pos + 1 + blocks (8 * n)) n) in *.
  set (lv := if a then v else (B - v)%nat). set (f := fun j => if (lv <? j)%nat then 0 else nth j oe 0).
  cbn [fst c_0 c_1 c_real]. fold lv.
  assert (HV : (v <= B)%nat).
  { unfold v. pose proof (Z.mod_pos_bound (random_u64 g pos) (Z.of_nat n)). subst n. lia. }
  split; auto. split; auto. split; [rewrite map2_length, map_length, seq_length; unfold n in *; lia|].
  split; auto. split.
  - apply Forall_forall. intros x Hx. apply (In_nth _ _ 0) in Hx as (j & Hj & <-).
    rewrite map2_length, map_length, seq_length in Hj.
    rewrite nth_map2 with (da := 0) (db := 0) by (rewrite ?map_length, ?seq_length; lia).
    rewrite nth_map_seq by lia.
    pose proof (nth_word s0 j F0) as A. assert (B' : word (f j)).
    { unfold f. destruct (lv <? j)%nat; [unfold word, two64; lia|now apply nth_word]. }
    unfold word in *. change two64 with (2 ^ Z.of_nat 64) in *. apply (lxor_lt 64); auto.
  - intros j Hj. unfold xor_at.
    rewrite nth_map2 with (da := 0) (db := 0) by (rewrite ?map_length, ?seq_length; lia).
    rewrite nth_map_seq by lia. unfold f. destruct (Nat.ltb_spec lv j); [|lia].
    now rewrite Z.lxor_0_r, Z.lxor_nilpotent.
Qed.

(** [max_ans] is the largest (smallest) private value. *)
Lemma fold_max (l : list (crec (list Z) nat)) a0 :
  let m := fold_left (fun ans r => if (ans <? c_real r)%nat then c_real r else ans) l a0 in
  (a0 <= m)%nat /\ (forall r, In r l -> (c_real r <= m)%nat) /\ (m = a0 \/ exists r, In r l /\ c_real r = m).
Proof.
  revert a0. induction l as [|r l IH]; intros a0; cbn [fold_left].
  - split; [lia|]. split; [easy|auto].
  - specialize (IH (if (a0 <? c_real r)%nat then c_real r else a0)).
    set (m := fold_left _ l _) in *. cbv zeta in IH |- *. destruct IH as (A & B & C).
    destruct (Nat.ltb_spec a0 (c_real r)).
    + split; [lia|]. split; [intros x [->|Hx]; auto|]. right. destruct C as [C|(x & Hx & C)].
      * exists r. split; [now left|auto].
      * exists x. split; [now right|auto].
    + split; [lia|]. split; [intros x [->|Hx]; auto; lia|]. destruct C as [C|(x & Hx & C)]; auto.
      right. exists x. split; [now right|auto].
Qed.
Lemma fold_min (l : list (crec (list Z) nat)) a0 :
  let m := fold_left (fun ans r => if (c_real r <? ans)%nat then c_real r else ans) l a0 in
  (m <= a0)%nat /\ (forall r, In r l -> (m <= c_real r)%nat) /\ (m = a0 \/ exists r, In r l /\ c_real r = m).
Proof.
  revert a0. induction l as [|r l IH]; intros a0; cbn [fold_left].
  - split; [lia|]. split; [easy|auto].
  - specialize (IH (if (c_real r <? a0)%nat then c_real r else a0)).
    set (m := fold_left _ l _) in *. cbv zeta in IH |- *. destruct IH as (A & B & C).
    destruct (Nat.ltb_spec (c_real r) a0).
    + split; [lia|]. split; [intros x [->|Hx]; auto|]. right. destruct C as [C|(x & Hx & C)].
      * exists r. split; [now left|auto].
      * exists x. split; [now right|auto].
    + split; [lia|]. split; [intros x [->|Hx]; auto; lia|]. destruct C as [C|(x & Hx & C)]; auto.
      right. exists x. split; [now right|auto].
Qed.

Lemma max_ans_extremum is_max B (l : list (crec (list Z) nat)) : l <> [] ->
  Forall (fun r => (c_real r <= B)%nat) l -> extremum is_max l (max_ans is_max B l).
Proof.
  intros HL HB. unfold extremum, max_ans. destruct l as [|r0 l']; [easy|]. set (l := r0 :: l') in *.
  destruct is_max.
  - destruct (fold_max l 0%nat) as (A & C & D). set (m := fold_left _ l 0%nat) in *. split; [|exact C].
    destruct D as [D|D]; auto. exists r0. split; [now left|]. specialize (C r0 (or_introl eq_refl)). lia.
  - destruct (fold_min l B) as (A & C & D). set (m := fold_left _ l B) in *. split; [|exact C].
    destruct D as [D|D]; auto. exists r0. split; [now left|]. specialize (C r0 (or_introl eq_refl)).
    apply Forall_inv in HB. lia.
Qed.

Lemma max_honest is_max B g n order0 order1 pk0 pk1 junk0 junk1 :
  prg_ok g -> Z.of_nat n * (Z.of_nat B + 1) < two32 -> (0 < n)%nat -> fair order1 ->
  length pk0 = 32%nat -> length pk1 = 32%nat ->
  (forall i, length (junk0 i) = (8 * (B + 1))%nat) -> (forall i, length (junk1 i) = (8 * (B + 1))%nat) ->
  let l := fst (requests (max_request is_max B g) n 0) in
  let X := fun j => zxors (map (fun r => xor_at j (c_0 r) (c_1 r)) l) in
  let m := max_ans is_max B l in
  let p := max_op false order0 is_max B n (wire maxshare_bytes (subs0 l)) pk0 junk0 in
  let q := max_op true order1 is_max B n (wire maxshare_bytes (subs1 l)) pk1 junk1 in
  extremum is_max l m /\
  (X (if is_max then m else B - m)%nat <> 0 ->
     both p q (fun r0 r1 => r1 = RET_NO_ANS /\ r0 = RET_ANS (Z.of_nat m))) /\
  ((exists j, (j <= B)%nat /\ X j <> 0) ->
     both p q (fun r0 r1 => r1 = RET_NO_ANS /\
       exists a, r0 = RET_ANS (Z.of_nat a) /\ if is_max then (a <= m)%nat else (m <= a)%nat)).
Proof.
  intros HG HN Hn HF P0 P1 J0 J1 l X m p q.
  assert (L : length l = n) by apply requests_length.
  assert (Hn32 : Z.of_nat n < two32) by nia.
  pose proof (requests_pks g (max_request is_max B g) n 0 HG (max_fresh is_max B g)) as P.
  assert (ND : NoDup (map c_pk l)).
  { apply requests_nodup with (g := g); auto using max_fresh. pose proof (max_end is_max B g n) as HE.
    assert (HB : (blocks (8 * (B + 1)) <= 8 * (B + 1) + 15)%nat) by (unfold blocks; apply Nat.div_le_upper_bound; lia).
    unfold two32, two64 in *. nia. }
  assert (F : Forall (fun r =>
     (c_real r <= B)%nat /\
     (length (c_0 r) = B + 1)%nat /\ (length (c_1 r) = B + 1)%nat /\ Forall word (c_0 r) /\ Forall word (c_1 r) /\
     (forall j, (level is_max B r < j <= B)%nat -> xor_at j (c_0 r) (c_1 r) = 0)) l).
  { apply requests_forall. intros pos. now apply max_request_ok. }
  assert (OK : Forall (fun r : crec (list Z) nat => any (c_0 r) = true /\ any (c_1 r) = true) l)
    by (apply Forall_forall; intros; split; reflexivity).
  pose proof (honest_accepted_list any l ND OK) as HA.
  assert (EX : extremum is_max l m).
  { apply max_ans_extremum; [intros E; rewrite E in L; cbn in L; lia|].
    eapply Forall_impl; [|exact F]. intros r (A & _). exact A. }
  assert (R0 : rows_ok B (subs0 l)).
  { apply Forall_map. eapply Forall_impl; [|exact F]. intros r (_ & A & _ & A' & _). split; assumption. }
  assert (R1 : rows_ok B (subs1 l)).
  { apply Forall_map. eapply Forall_impl; [|exact F]. intros r (_ & _ & A & _ & A' & _). split; assumption. }
  assert (main : forall j, highest B X j ->
    both p q (fun r0 r1 => r1 = RET_NO_ANS /\ r0 = RET_ANS (Z.of_nat (if is_max then j else B - j)%nat))).
  { intros j Hj. eapply both_impl; [|apply (max_op_result is_max B order0 order1 n n _ _ (subs0 l) (subs1 l)
      pk0 pk1 junk0 junk1 (map c_pk l) j); auto; [apply honest_arrives0|apply honest_arrives1|]; auto].
    - intros a b [-> ->]. split; auto. now rewrite map_length, L, outcome_all.
    - right. destruct Hj as (H1 & H2 & H3). split; [auto|].
      split; [now rewrite (honest_map_combined any l ND OK)|].
      intros k Hk. rewrite (honest_map_combined any l ND OK). now apply H3. }
  set (lv := if is_max then m else (B - m)%nat).
  assert (ZERO : forall k, (lv < k <= B)%nat -> X k = 0).
  { intros k Hk. apply zxors_zero. intros r Hr. rewrite Forall_forall in F.
    destruct (F r Hr) as (A & _ & _ & _ & _ & Z0). apply Z0. destruct EX as [_ EX]. specialize (EX r Hr).
    unfold level, lv in *. destruct is_max; lia. }
  assert (HM : (m <= B)%nat).
  { destruct EX as [(r & Hr & <-) _]. rewrite Forall_forall in F. apply (F r Hr). }
  split; auto. split.
  - intros HX. eapply both_impl; [|apply (main lv)].
    + intros a b [-> ->]. split; auto. do 2 f_equal. unfold lv. destruct is_max; lia.
    + split; [unfold lv; destruct is_max; lia|]. split; auto.
  - intros (j0 & Hj0 & HX0).
    assert (exists j, highest B X j) as [j Hj].
    { clear - Hj0 HX0. assert (H : forall d j, (j + d = B)%nat -> (exists i, (j <= i <= B)%nat /\ X i <> 0) -> exists j, highest B X j).
      { induction d as [|d IH]; intros j E (i & Hi & HX).
        - exists i. split; [lia|]. split; auto. intros k Hk. lia.
        - destruct (Z.eq_dec (X j) 0) as [Z0|NZ].
          + apply (IH (S j)); [lia|]. exists i. split; auto.
            destruct (Nat.eq_dec i j) as [->|]; [easy|lia].
          + assert (D : (exists i, (S j <= i <= B)%nat /\ X i <> 0) \/ (forall i, (S j <= i <= B)%nat -> X i = 0)).
            { clear - X. assert (D : forall e k, (k + e = S B)%nat ->
                (exists i, (k <= i <= B)%nat /\ X i <> 0) \/ (forall i, (k <= i <= B)%nat -> X i = 0)).
              { induction e as [|e IHe]; intros k E; [right; intros; lia|].
                destruct (IHe (S k)) as [(i & Hi & HX)|H]; [lia| |].
                - left. exists i. split; auto; lia.
                - destruct (Z.eq_dec (X k) 0) as [Z0|NZ]; [|left; exists k; split; auto; lia].
                  right. intros i Hi. destruct (Nat.eq_dec i k) as [->|]; auto. apply H. lia. }
              destruct (Nat.le_gt_cases (S j) (S B)); [apply (D (S B - S j)%nat); lia|right; intros; lia]. }
            destruct D as [D|D]; [apply (IH (S j)); auto; lia|].
            exists j. split; [lia|]. split; auto. }
      apply (H (B - 0)%nat 0%nat); [lia|]. exists j0. split; [lia|auto]. }
    eapply both_impl; [|apply (main j Hj)]. intros a b [-> ->]. split; auto.
    eexists. split; [reflexivity|]. destruct Hj as (H1 & H2 & H3).
    assert (j <= lv)%nat.
    { destruct (Nat.le_gt_cases j lv); auto. elim H2. apply ZERO. lia. }
    unfold lv in *. destruct is_max; lia.
Qed.

(** ** Identities *)
Lemma requests_next {R} (one : nat -> R * nat) n pos i d : (S i < n)%nat ->
  exists q, nth i (fst (requests one n pos)) d = fst (one q) /\ nth (S i) (fst (requests one n pos)) d = fst (one (snd (one q))).
Proof.
  revert pos i. induction n as [|n IH]; intros pos i Hi; [lia|]. cbn [requests].
  destruct (one pos) as [r pos1] eqn:E. destruct (requests one n pos1) as [l pos2] eqn:E2. cbn [fst].
  destruct i as [|i].
  - exists pos. rewrite E. split; [reflexivity|]. cbn [nth snd].
    destruct n as [|n]; [lia|]. cbn [requests] in E2. destruct (one pos1) as [r1 pos3].
    destruct (requests one n pos3). injection E2 as <- <-. reflexivity.
  - destruct (IH pos1 i) as (q & A & B); [lia|]. rewrite E2 in A, B. exists q. auto.
Qed.

(** If the private value is a function [h] of the first half of the next block, it is
    determined by the previous identity. *)
Lemma pk_determines_next {V W} g (one : nat -> crec V W * nat) (h : Z -> W) n i d :
  prg_ok g -> fresh_pk g one -> (forall pos, c_real (fst (one pos)) = h (le_val (firstn 8 (g pos)))) ->
  (S i < n)%nat ->
  c_real (nth (S i) (fst (requests one n 0)) d) = h (unhex (firstn 16 (c_pk (nth i (fst (requests one n 0)) d)))).
Proof.
  intros HG HF HR Hi. destruct (requests_next one n 0 i d Hi) as (q & E1 & E2). rewrite E1, E2, HR.
  rewrite (proj2 (HF q)). f_equal. destruct HG as [HB _]. destruct (HB (snd (one q))).
  symmetry. now apply pk_spec.
Qed.

Lemma bool1_block g pos : prg_ok g -> random_bool1 g pos = Z.odd (le_val (firstn 8 (g pos))).
Proof.
  intros [H _]. destruct (H pos) as [L F]. unfold random_bool1, random_bool, random_data.
  change (blocks 1) with 1%nat. cbn [seq map concat]. rewrite app_nil_r.
  destruct (g pos) as [|b bs]; [discriminate|]. cbn [firstn map nth le_val].
  rewrite Z.odd_add_mul_even by (now exists 128). reflexivity.
Qed.
