From Coq Require Import ZArith List Bool Lia Permutation.
From Verif Require Import Words WordsFacts Constants Proc ProcFacts Net NetFacts SpecNet RelFacts
  ServerOps SpecServer TableFacts ServerFacts ServerProps ServerCor ClientOps SpecClient.
Import ListNotations.
Open Scope Z_scope.

(** ** Hexadecimal *)
Lemma hex_digit_ok d : 0 <= d < 16 -> is_hex (hex_digit d) /\ hex_val (hex_digit d) = d.
Proof.
  intros H. unfold is_hex, hex_digit, hex_val. destruct (Z.ltb_spec d 10).
  - destruct (Z.ltb_spec (48 + d) 58); lia.
  - destruct (Z.ltb_spec (87 + d) 58); lia.
Qed.

Lemma unhex_app s t : unhex (s ++ t) = fold_left (fun a c => 16 * a + hex_val c) t (unhex s).
Proof. unfold unhex. now rewrite fold_left_app. Qed.

Lemma hex_loop_spec fuel w acc : 0 <= w < 16 ^ Z.of_nat fuel -> (1 <= fuel)%nat ->
  exists s, hex_loop fuel w acc = s ++ acc /\ (length s <= fuel)%nat /\ unhex s = w /\ Forall is_hex s.
Proof.
  revert w acc. induction fuel as [|f IH]; intros w acc Hw Hf; [lia|]. cbn [hex_loop].
  destruct (Z.ltb_spec w 16).
  - destruct (hex_digit_ok w) as [H1 H2]; [lia|]. exists [hex_digit w].
    split; [reflexivity|]. split; [cbn; lia|]. split; [unfold unhex; cbn [fold_left]; lia|auto].
  - assert (1 <= f)%nat.
    { destruct f; [|lia]. change (16 ^ Z.of_nat 1) with 16 in Hw. lia. }
    destruct (IH (w / 16) (hex_digit (w mod 16) :: acc)) as (s & E & L & U & F); auto.
    { rewrite Nat2Z.inj_succ, Z.pow_succ_r in Hw by lia.
      split; [apply Z.div_pos; lia|]. apply Z.div_lt_upper_bound; lia. }
    destruct (hex_digit_ok (w mod 16)) as [H1 H2]; [apply Z.mod_pos_bound; lia|].
    exists (s ++ [hex_digit (w mod 16)]). split; [rewrite E, <- app_assoc; reflexivity|].
    split; [rewrite app_length; cbn; lia|]. split.
    + rewrite unhex_app. cbn [fold_left]. rewrite U, H2. pose proof (Z.div_mod w 16). lia.
    + apply Forall_app. auto.
Qed.

Lemma unhex_zeros n s : unhex (repeat 48 n ++ s) = unhex s.
Proof. rewrite unhex_app. f_equal. induction n as [|n IH]; [reflexivity|exact IH]. Qed.

Lemma setw_hex w : 0 <= w < two64 ->
  length (setw0 16 (to_hex w)) = 16%nat /\ unhex (setw0 16 (to_hex w)) = w /\ Forall is_hex (setw0 16 (to_hex w)).
Proof.
  intros Hw. unfold setw0, to_hex.
  destruct (hex_loop_spec 16 w []) as (s & E & L & U & F); [exact Hw|lia|].
  rewrite app_nil_r in E. rewrite E. split; [rewrite app_length, repeat_length; lia|].
  split; [now rewrite unhex_zeros|]. apply Forall_app. split; auto.
  apply Forall_forall. intros x Hx%repeat_spec. subst. left. lia.
Qed.

Lemma le_val_word bs : Forall is_byte bs -> length bs = 8%nat -> 0 <= le_val bs < two64.
Proof. intros H L. pose proof (le_val_range bs H) as B. rewrite L in B. exact B. Qed.

Lemma firstn8 (b : list Z) : length b = 16%nat -> length (firstn 8 b) = 8%nat /\ length (skipn 8 b) = 8%nat.
Proof. intros H. rewrite firstn_length, skipn_length. lia. Qed.

Lemma Forall_firstn' {A} (P : A -> Prop) n l : Forall P l -> Forall P (firstn n l).
Proof. intros H. rewrite <- (firstn_skipn n l), Forall_app in H. apply H. Qed.
Lemma Forall_skipn' {A} (P : A -> Prop) n l : Forall P l -> Forall P (skipn n l).
Proof. intros H. rewrite <- (firstn_skipn n l), Forall_app in H. apply H. Qed.

Lemma pk_spec b : length b = 16%nat -> Forall is_byte b ->
  length (pub_key_to_hex b) = 32%nat /\ Forall is_hex (pub_key_to_hex b) /\
  unhex (firstn 16 (pub_key_to_hex b)) = le_val (firstn 8 b) /\
  unhex (skipn 16 (pub_key_to_hex b)) = le_val (skipn 8 b).
Proof.
  intros L F. destruct (firstn8 b L) as [L1 L2].
  destruct (setw_hex (le_val (firstn 8 b))) as (A1 & A2 & A3).
  { apply le_val_word; auto using Forall_firstn'. }
  destruct (setw_hex (le_val (skipn 8 b))) as (B1 & B2 & B3).
  { apply le_val_word; auto using Forall_skipn'. }
  unfold pub_key_to_hex. split; [rewrite app_length, A1, B1; reflexivity|].
  split; [apply Forall_app; auto|]. rewrite firstn_app_exact, skipn_app_exact by exact A1. auto.
Qed.

Lemma pk_injective b b' :
  length b = 16%nat -> Forall is_byte b -> length b' = 16%nat -> Forall is_byte b' ->
  pub_key_to_hex b = pub_key_to_hex b' -> b = b'.
Proof.
  intros L F L' F' E. destruct (pk_spec b L F) as (_ & _ & U1 & U2).
  destruct (pk_spec b' L' F') as (_ & _ & U1' & U2'). rewrite E, U1' in U1. rewrite E, U2' in U2.
  rewrite <- (firstn_skipn 8 b), <- (firstn_skipn 8 b').
  destruct (firstn8 b L) as [L1 L2], (firstn8 b' L') as [L1' L2'].
  f_equal.
  - rewrite <- (le_bytes_val (firstn 8 b)), <- (le_bytes_val (firstn 8 b')) by auto using Forall_firstn'.
    congruence.
  - rewrite <- (le_bytes_val (skipn 8 b)), <- (le_bytes_val (skipn 8 b')) by auto using Forall_skipn'.
    congruence.
Qed.

(** ** Random data *)
Lemma random_data_blocks g pos k : prg_ok g -> length (concat (map g (seq pos k))) = (16 * k)%nat /\
  Forall is_byte (concat (map g (seq pos k))).
Proof.
  intros [H _]. revert pos. induction k as [|k IH]; intros pos; [split; [reflexivity|constructor]|].
  cbn [seq map concat]. destruct (IH (S pos)) as [L F]. destruct (H pos) as [L' F'].
  split; [rewrite app_length; lia|]. apply Forall_app. auto.
Qed.

Lemma random_data_ok g pos n : prg_ok g ->
  length (random_data g pos n) = n /\ Forall is_byte (random_data g pos n).
Proof.
  intros H. destruct (random_data_blocks g pos (blocks n) H) as [L F]. unfold random_data.
  split; [|now apply Forall_firstn'].
  rewrite firstn_length, L. unfold blocks.
  pose proof (Nat.div_mod (n + 15) 16). pose proof (Nat.mod_upper_bound (n + 15) 16). lia.
Qed.

Lemma random_u64_ok g pos : prg_ok g -> 0 <= random_u64 g pos < two64.
Proof. intros H. destruct (random_data_ok g pos 8 H). apply le_val_word; auto. Qed.

Lemma random_u64_block g pos : prg_ok g -> random_u64 g pos = le_val (firstn 8 (g pos)).
Proof.
  intros H. unfold random_u64, random_data. change (blocks 8) with 1%nat. cbn [seq map concat].
  now rewrite app_nil_r.
Qed.

Lemma Forall_chunks {A} (P : A -> Prop) n k l : Forall P l -> Forall (Forall P) (chunks n k l).
Proof.
  revert l. induction n as [|n IH]; intros l H; cbn [chunks]; constructor.
  - now apply Forall_firstn'.
  - now apply IH, Forall_skipn'.
Qed.

Lemma chunks_each {A} n k (l : list A) : (n * k <= length l)%nat -> Forall (fun c => length c = k) (chunks n k l).
Proof.
  revert l. induction n as [|n IH]; intros l H; cbn [chunks]; constructor.
  - rewrite firstn_length. lia.
  - apply IH. rewrite skipn_length. lia.
Qed.

Lemma random_words_ok g pos n : prg_ok g ->
  length (random_words g pos n) = n /\ Forall word (random_words g pos n).
Proof.
  intros H. destruct (random_data_ok g pos (8 * n) H) as [L F]. unfold random_words.
  split; [now rewrite map_length, chunks_length|]. apply Forall_map, Forall_forall. intros c Hc.
  pose proof (Forall_chunks is_byte n 8 _ F) as A. pose proof (chunks_each n 8 (random_data g pos (8 * n))) as B.
  rewrite L in B. specialize (B ltac:(lia)). rewrite Forall_forall in A, B. apply le_val_word; auto.
Qed.

Lemma random_bool_length g pos n : prg_ok g -> length (random_bool g pos n) = n.
Proof. intros H. unfold random_bool. rewrite map_length. now apply random_data_ok. Qed.

Lemma make_pk_length g pos : prg_ok g -> length (make_pk g pos) = 32%nat.
Proof. intros [H _]. destruct (H pos). now apply pk_spec. Qed.

Lemma make_pk_inj g i j : prg_ok g -> Z.of_nat i < two64 -> Z.of_nat j < two64 ->
  make_pk g i = make_pk g j -> i = j.
Proof.
  intros [H HI] Hi Hj E. apply HI; auto. destruct (H i), (H j). now apply pk_injective.
Qed.

(** ** Loops over requests *)
Lemma requests_length {R} (one : nat -> R * nat) n pos : length (fst (requests one n pos)) = n.
Proof.
  revert pos. induction n as [|n IH]; intros pos; [reflexivity|]. cbn [requests].
  destruct (one pos) as [r pos1]. specialize (IH pos1). destruct (requests one n pos1). cbn in *. lia.
Qed.

Lemma requests_forall {R} (P : R -> Prop) (one : nat -> R * nat) n pos :
  (forall pos, P (fst (one pos))) -> Forall P (fst (requests one n pos)).
Proof.
  intros H. revert pos. induction n as [|n IH]; intros pos; [constructor|]. cbn [requests].
  specialize (H pos). destruct (one pos) as [r pos1]. specialize (IH pos1).
  destruct (requests one n pos1). constructor; auto.
Qed.

Lemma requests_end {R} (one : nat -> R * nat) n pos k :
  (forall pos, (snd (one pos) <= pos + k)%nat) -> (snd (requests one n pos) <= pos + n * k)%nat.
Proof.
  intros H. revert pos. induction n as [|n IH]; intros pos; [cbn; lia|]. cbn [requests].
  specialize (H pos). destruct (one pos) as [r pos1]. specialize (IH pos1).
  destruct (requests one n pos1). cbn [snd] in *. lia.
Qed.

Lemma requests_pk_at {V W} g (one : nat -> crec V W * nat) n pos : fresh_pk g one ->
  (pos <= snd (requests one n pos))%nat /\
  Forall (fun r => exists q, (pos < q <= snd (requests one n pos))%nat /\ c_pk r = make_pk g q)
         (fst (requests one n pos)).
Proof.
  intros H. revert pos. induction n as [|n IH]; intros pos; [split; [cbn; lia|constructor]|]. cbn [requests].
  specialize (H pos). destruct (one pos) as [r pos1]. cbn [fst snd] in H. specialize (IH pos1).
  destruct (requests one n pos1) as [l pos2]. cbn [fst snd] in *. destruct IH as [IH1 IH2].
  split; [lia|]. constructor; [exists pos1; split; [lia|apply H]|].
  eapply Forall_impl; [|exact IH2]. intros x (q & Hq & E). exists q. split; [lia|auto].
Qed.

Lemma requests_nodup {V W} g (one : nat -> crec V W * nat) n pos : prg_ok g -> fresh_pk g one ->
  Z.of_nat (snd (requests one n pos)) < two64 -> NoDup (map c_pk (fst (requests one n pos))).
Proof.
  intros HG H. revert pos. induction n as [|n IH]; intros pos HE; [constructor|]. cbn [requests] in *.
  pose proof (H pos) as [H1 H2]. destruct (one pos) as [r pos1]. cbn [fst snd] in H1, H2. specialize (IH pos1).
  pose proof (requests_pk_at g one n pos1 H) as [P1 P2].
  destruct (requests one n pos1) as [l pos2]. cbn [fst snd map] in *. constructor; auto.
  intros (r' & E & Hin)%in_map_iff. rewrite Forall_forall in P2. destruct (P2 r' Hin) as (q & Hq & E').
  rewrite H2, E' in E. apply make_pk_inj in E; auto; lia.
Qed.

Lemma requests_pks {V W} g (one : nat -> crec V W * nat) n pos : prg_ok g -> fresh_pk g one ->
  Forall (fun r => length (c_pk r) = 32%nat) (fst (requests one n pos)).
Proof.
  intros HG H. eapply Forall_impl; [|apply requests_pk_at; exact H].
  intros r (q & _ & E). rewrite E. now apply make_pk_length.
Qed.

(** ** Honest submissions *)
Lemma first_sub_nodup {V} (ok : V -> bool) subs pk v :
  NoDup (map fst subs) -> In (pk, v) subs -> ok v = true -> first_sub ok subs pk = Some v.
Proof.
  induction subs as [|[k w] subs IH]; intros ND HI HO; [easy|]. cbn [first_sub]. inversion ND as [|? ? N1 N2]; subst.
  destruct HI as [E|HI].
  - injection E as -> ->. destruct (key_eqb_spec pk pk) as [_|N]; [|easy]. now rewrite HO.
  - destruct (key_eqb_spec k pk) as [E|N]; [|now apply IH]. subst k. exfalso. apply N1.
    apply in_map_iff. now exists (pk, v).
Qed.

Lemma first_sub_none {V} (ok : V -> bool) subs pk : ~ In pk (map fst subs) -> first_sub ok subs pk = None.
Proof.
  induction subs as [|[k w] subs IH]; intros H; [easy|]. cbn [first_sub]. cbn [map fst In] in H.
  destruct (key_eqb_spec k pk) as [E|N]; [exfalso; auto|]. cbn [andb]. auto.
Qed.

Lemma subs0_keys {V W} (l : list (crec V W)) : map fst (subs0 l) = map c_pk l.
Proof. unfold subs0. now rewrite map_map. Qed.
Lemma subs1_keys {V W} (l : list (crec V W)) : map fst (subs1 l) = map c_pk l.
Proof. unfold subs1. now rewrite map_map. Qed.

Section Honest.
  Context {V W : Type} (ok : V -> bool) (l : list (crec V W)).
  Hypothesis ND : NoDup (map c_pk l).
  Hypothesis OK : Forall (fun r => ok (c_0 r) = true /\ ok (c_1 r) = true) l.

  Lemma honest_first0 r : In r l -> first_sub ok (subs0 l) (c_pk r) = Some (c_0 r).
  Proof.
    intros H. apply first_sub_nodup; [now rewrite subs0_keys| |].
    - unfold subs0. apply in_map_iff. eauto.
    - rewrite Forall_forall in OK. now apply OK.
  Qed.
  Lemma honest_first1 r : In r l -> first_sub ok (subs1 l) (c_pk r) = Some (c_1 r).
  Proof.
    intros H. apply first_sub_nodup; [now rewrite subs1_keys| |].
    - unfold subs1. apply in_map_iff. eauto.
    - rewrite Forall_forall in OK. now apply OK.
  Qed.
  Lemma honest_accepted_list : accepted ok (subs0 l) (subs1 l) (map c_pk l).
  Proof.
    split; auto. intros pk. split.
    - intros (r & <- & H)%in_map_iff. rewrite honest_first0, honest_first1 by auto. split; discriminate.
    - intros [H _]. destruct (in_dec (list_eq_dec Z.eq_dec) pk (map c_pk l)) as [|N]; auto.
      elim H. apply first_sub_none. now rewrite subs0_keys.
  Qed.
  Lemma honest_combined {X} (f : V -> V -> X) d r : In r l ->
    combined ok f d (subs0 l) (subs1 l) (c_pk r) = f (c_0 r) (c_1 r).
  Proof. intros H. unfold combined. now rewrite honest_first0, honest_first1. Qed.
  Lemma honest_map_combined {X} (f : V -> V -> X) d :
    map (combined ok f d (subs0 l) (subs1 l)) (map c_pk l) = map (fun r => f (c_0 r) (c_1 r)) l.
  Proof. rewrite map_map. apply map_ext_in. intros r H. now apply honest_combined. Qed.
End Honest.

Lemma honest_arrives0 {V W} enc (l : list (crec V W)) n :
  length l = n -> Forall (fun r => length (c_pk r) = 32%nat) l -> Z.of_nat n < two32 ->
  arrives enc n (wire enc (subs0 l)) (subs0 l).
Proof.
  intros L P H. exists []. split; [now rewrite app_nil_r|]. unfold subs0 at 1 3. rewrite map_length.
  split; [left; unfold subs0; now rewrite map_length|]. split; [|lia].
  apply Forall_map. exact P.
Qed.
Lemma honest_arrives1 {V W} enc (l : list (crec V W)) n :
  length l = n -> Forall (fun r => length (c_pk r) = 32%nat) l -> Z.of_nat n < two32 ->
  arrives enc n (wire enc (subs1 l)) (subs1 l).
Proof.
  intros L P H. exists []. split; [now rewrite app_nil_r|]. unfold subs1 at 1 3. rewrite map_length.
  split; [left; unfold subs1; now rewrite map_length|]. split; [|lia].
  apply Forall_map. exact P.
Qed.

Lemma outcome_all {A} n (x : A) : outcome n n x = RET_ANS x.
Proof. unfold outcome. destruct (Nat.ltb_spec (2 * n) n); [lia|reflexivity]. Qed.

Lemma both_impl {A B} (p : proc A) (q : proc B) (R R' : A -> B -> Prop) :
  (forall a b, R a b -> R' a b) -> both p q R -> both p q R'.
Proof. intros H (a & b & H1 & H2). exists a, b. auto. Qed.

(** ** BITSUM *)
Lemma bit_fresh g : fresh_pk g (bit_request g).
Proof. intros pos. cbn. split; [lia|reflexivity]. Qed.

Lemma bit_end g n : (snd (requests (bit_request g) n 0) <= 2 * n)%nat.
Proof. pose proof (requests_end (bit_request g) n 0 2). cbn [bit_request snd] in H. specialize (H ltac:(intros; lia)). lia. Qed.

Lemma fold_u32_sum (l : list Z) a : fold_left (fun s x => u32 (s + x)) l (u32 a) = u32 (a + zsum l).
Proof.
  revert a. induction l as [|x l IH]; intros a; unfold zsum in *; cbn [fold_left fold_right].
  - now rewrite Z.add_0_r.
  - replace (u32 (u32 a + x)) with (u32 (a + x)).
    + rewrite IH. f_equal. lia.
    + unfold u32. now rewrite Zplus_mod_idemp_l.
Qed.
Lemma fold_u64_sum (l : list Z) a : fold_left (fun s x => u64 (s + x)) l (u64 a) = u64 (a + zsum l).
Proof.
  revert a. induction l as [|x l IH]; intros a; unfold zsum in *; cbn [fold_left fold_right].
  - now rewrite Z.add_0_r.
  - replace (u64 (u64 a + x)) with (u64 (a + x)).
    + rewrite IH. f_equal. lia.
    + unfold u64. now rewrite Zplus_mod_idemp_l.
Qed.

Lemma fold_left_map' {A B C} (f : A -> C -> A) (h : B -> C) l a :
  fold_left (fun s r => f s (h r)) l a = fold_left f (map h l) a.
Proof. revert a. induction l as [|x l IH]; intros a; [reflexivity|]. cbn. apply IH. Qed.

Lemma bits_sum_bound (l : list bool) : 0 <= zsum (map b2z l) <= Z.of_nat (length l).
Proof.
  unfold zsum. induction l as [|b l IH]; cbn [map fold_right length]; [lia|].
  rewrite Nat2Z.inj_succ. destruct b; cbn [b2z]; lia.
Qed.

Lemma bit_ans_sum (l : list (crec bool bool)) : Z.of_nat (length l) < two32 ->
  bit_ans l = zsum (map (fun r => b2z (c_real r)) l).
Proof.
  intros H. unfold bit_ans. rewrite (fold_left_map' (fun s x => u32 (s + x)) (fun r => b2z (c_real r))).
  change 0 with (u32 0). rewrite fold_u32_sum, Z.add_0_l. apply u32_small.
  rewrite <- (map_map (fun r => c_real r) b2z).
  pose proof (bits_sum_bound (map (fun r => c_real r) l)) as B. rewrite map_length in B. lia.
Qed.

Lemma bit_honest g n order0 order1 junk0 junk1 rnd0 rnd1 :
  prg_ok g -> Z.of_nat n < two32 -> fair order1 -> length junk0 = 33%nat -> length junk1 = 33%nat ->
  let l := fst (requests (bit_request g) n 0) in
  both (bit_sum false order0 n (wire BitShare_bytes (subs0 l)) junk0 rnd0)
       (bit_sum true order1 n (wire BitShare_bytes (subs1 l)) junk1 rnd1)
    (fun r0 r1 => r1 = RET_NO_ANS /\ r0 = RET_ANS (zsum (map (fun r => b2z (c_real r)) l))) /\
  bit_ans l = zsum (map (fun r => b2z (c_real r)) l).
Proof.
  intros HG Hn HF J0 J1 l.
  assert (L : length l = n) by apply requests_length.
  split; [|apply bit_ans_sum; now rewrite L].
  pose proof (requests_pks g (bit_request g) n 0 HG (bit_fresh g)) as P.
  assert (ND : NoDup (map c_pk l)).
  { apply requests_nodup with (g := g); auto using bit_fresh. pose proof (bit_end g n).
    unfold two32, two64 in *. lia. }
  assert (OK : Forall (fun r : crec bool bool => any (c_0 r) = true /\ any (c_1 r) = true) l)
    by (apply Forall_forall; intros; split; reflexivity).
  pose proof (honest_accepted_list any l ND OK) as HA.
  eapply both_impl; [|apply (bit_sum_result order0 order1 n n _ _ (subs0 l) (subs1 l) junk0 junk1 rnd0 rnd1 (map c_pk l));
    auto; [apply honest_arrives0|apply honest_arrives1]; auto].
  intros a b [-> ->]. split; auto. rewrite map_length, L, outcome_all. f_equal. f_equal.
  rewrite (honest_map_combined any l ND OK). apply map_ext_in. intros r Hr.
  assert (F : Forall (fun r => c_1 r = xorb (c_0 r) (c_real r)) l).
  { apply requests_forall. intros pos. reflexivity. }
  rewrite Forall_forall in F. rewrite (F r Hr). unfold bit_val. f_equal.
  now destruct (c_0 r), (c_real r).
Qed.

(** ** INTSUM *)
Lemma int_fresh m g : fresh_pk g (int_request m g).
Proof. intros pos. cbn. split; [lia|reflexivity]. Qed.
Lemma int_end m g n : (snd (requests (int_request m g) n 0) <= 2 * n)%nat.
Proof. pose proof (requests_end (int_request m g) n 0 2). cbn [int_request snd] in H. specialize (H ltac:(intros; lia)). lia. Qed.

Lemma int_request_ok num_bits g pos : (num_bits <= 63)%nat -> prg_ok g ->
  let r := fst (int_request (2 ^ Z.of_nat num_bits) g pos) in
  0 <= c_0 r < 2 ^ Z.of_nat num_bits /\ 0 <= c_1 r < 2 ^ Z.of_nat num_bits /\
  0 <= c_real r < 2 ^ Z.of_nat num_bits /\ Z.lxor (c_0 r) (c_1 r) = c_real r.
Proof.
  intros HB HG. cbn [int_request fst c_0 c_1 c_real].
  set (M := 2 ^ Z.of_nat num_bits).
  assert (HM : 0 < M) by (apply Z.pow_pos_nonneg; lia).
  set (a := random_u64 g (pos + 1) mod M). set (b := random_u64 g pos mod M).
  assert (A : 0 <= a < M) by now apply Z.mod_pos_bound.
  assert (B : 0 <= b < M) by now apply Z.mod_pos_bound.
  split; auto. split; [apply lxor_lt; auto|]. split; auto.
  rewrite <- Z.lxor_assoc, Z.lxor_nilpotent. apply Z.lxor_0_l.
Qed.

Lemma pow_le_two64 num_bits : (num_bits <= 63)%nat -> 2 ^ Z.of_nat num_bits < two64.
Proof.
  intros H. apply Z.le_lt_trans with (2 ^ 63); [apply Z.pow_le_mono_r; lia|reflexivity].
Qed.

Lemma int_honest num_bits g n order0 order1 junk0 junk1 rnd0 rnd1 :
  (num_bits <= 63)%nat ->
  prg_ok g -> Z.of_nat n < two32 -> fair order1 -> length junk0 = 40%nat -> length junk1 = 40%nat ->
  let l := fst (requests (int_request (2 ^ Z.of_nat num_bits) g) n 0) in
  both (int_sum false order0 num_bits n (wire IntShare_bytes (subs0 l)) junk0 rnd0)
       (int_sum true order1 num_bits n (wire IntShare_bytes (subs1 l)) junk1 rnd1)
    (fun r0 r1 => r1 = RET_NO_ANS /\ r0 = RET_ANS (zsum (map c_real l) mod two64)) /\
  int_ans l = zsum (map c_real l) mod two64.
Proof.
  intros HB HG Hn HF J0 J1 l. set (M := 2 ^ Z.of_nat num_bits) in *.
  assert (L : length l = n) by apply requests_length.
  split; [|unfold int_ans; rewrite (fold_left_map' (fun s x => u64 (s + x)) c_real);
           change 0 with (u64 0) at 1; rewrite fold_u64_sum; reflexivity].
  pose proof (requests_pks g (int_request M g) n 0 HG (int_fresh M g)) as P.
  assert (ND : NoDup (map c_pk l)).
  { apply requests_nodup with (g := g); auto using int_fresh. pose proof (int_end M g n).
    unfold two32, two64 in *. lia. }
  assert (F : Forall (fun r => 0 <= c_0 r < M /\ 0 <= c_1 r < M /\ 0 <= c_real r < M /\
                               Z.lxor (c_0 r) (c_1 r) = c_real r) l).
  { apply requests_forall. intros pos. now apply int_request_ok. }
  pose proof (pow_le_two64 num_bits HB) as HM.
  assert (OK : Forall (fun r : crec Z Z => fits num_bits (c_0 r) = true /\ fits num_bits (c_1 r) = true) l).
  { eapply Forall_impl; [|exact F]. intros r (A & B & _). unfold fits.
    split; apply Z.ltb_lt; [apply A|apply B]. }
  pose proof (honest_accepted_list (fits num_bits) l ND OK) as HA.
  eapply both_impl; [|apply (int_sum_result num_bits order0 order1 n n _ _ (subs0 l) (subs1 l) junk0 junk1 rnd0 rnd1 (map c_pk l));
    auto; [apply honest_arrives0|apply honest_arrives1| |]; auto].
  - intros a b [-> ->]. split; auto. rewrite map_length, L, outcome_all. f_equal. f_equal. f_equal.
    rewrite (honest_map_combined (fits num_bits) l ND OK). apply map_ext_in. intros r Hr.
    rewrite Forall_forall in F. apply (F r Hr).
  - apply Forall_map. eapply Forall_impl; [|exact F]. intros r (A & _). cbn [snd]. fold M in HM. unfold word. lia.
  - apply Forall_map. eapply Forall_impl; [|exact F]. intros r (_ & A & _). cbn [snd]. fold M in HM. unfold word. lia.
Qed.
