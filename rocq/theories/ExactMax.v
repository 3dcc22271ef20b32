(** * Equal numbers of draws: MAX, MIN *)
From Coq Require Import ZArith List Bool Lia.
From Verif Require Import Words WordsFacts Share ClientOps SpecClient ClientFacts ClientProps NetFacts AvailFacts SpecSecret SecretFacts
  SpecServer SpecPrivacy ViewFacts PrivacyFacts PrivacyProof PrivacyExact SpecExact ExactFacts.
Import ListNotations.
Open Scope Z_scope.

(** ** Words within blocks *)
Definition word_in (b : list Z) (j : nat) : Z := le_val (map (fun t => nth (8 * (j mod 2) + t) b 0) (seq 0 8)).
Definition word_of (d : list (list Z)) (k j : nat) : Z := word_in (nth (k + j / 2) d []) j.

Lemma nth_concat_blocks (g : prg) : is_blocks g -> forall n pos i, (i < 16 * n)%nat ->
  nth i (concat (map g (seq pos n))) 0 = nth (i mod 16) (g (pos + i / 16)%nat) 0.
Proof.
  intros G. induction n as [|n IH]; intros pos i H; [lia|]. cbn [seq map concat]. destruct (G pos) as [L _].
  destruct (Nat.lt_ge_cases i 16) as [C|C].
  - rewrite app_nth1 by lia. rewrite Nat.mod_small, Nat.div_small by lia. now rewrite Nat.add_0_r.
  - rewrite app_nth2 by lia. rewrite L, IH by lia. replace i with ((i - 16) + 1 * 16)%nat at 3 4 by lia.
    rewrite Nat.mod_add, Nat.div_add by lia. do 2 f_equal. lia.
Qed.
Lemma nth_chunks {A} n k (l : list A) j : (j < n)%nat -> nth j (chunks n k l) [] = firstn k (skipn (k * j) l).
Proof.
  revert l j. induction n as [|n IH]; intros l [|j] H; [lia|lia| |]; cbn [chunks nth].
  - now rewrite Nat.mul_0_r.
  - rewrite IH by lia. rewrite skipn_skipn'. do 2 f_equal. lia.
Qed.
Lemma firstn_map_nth (l : list Z) n k : (n + k <= length l)%nat -> firstn k (skipn n l) = map (fun t => nth (n + t) l 0) (seq 0 k).
Proof.
  intros H. apply nth_ext with 0 0; [rewrite firstn_length, skipn_length, map_length, seq_length; lia|].
  rewrite firstn_length, skipn_length. intros i Hi. rewrite nth_map_seq by lia.
  rewrite <- nth_skip. rewrite <- (firstn_skipn k (skipn n l)) at 2. rewrite app_nth1; [reflexivity|].
  rewrite firstn_length, skipn_length. lia.
Qed.
Lemma blocks_enough n : (n <= 16 * blocks n)%nat.
Proof. unfold blocks. pose proof (Nat.div_mod (n + 15) 16). pose proof (Nat.mod_upper_bound (n + 15) 16). lia. Qed.
Lemma word_block n j : (j < n)%nat -> (j / 2 < blocks (8 * n))%nat.
Proof. intros H. pose proof (blocks_enough (8 * n)). pose proof (Nat.div_mod j 2). lia. Qed.
Lemma nth_random_words g pos n j : is_blocks g -> (j < n)%nat -> nth j (random_words g pos n) 0 = word_in (g (pos + j / 2)%nat) j.
Proof.
  intros G H. unfold random_words, word_in, random_data. pose proof (blocks_enough (8 * n)) as BE.
  set (l := concat (map g (seq pos (blocks (8 * n))))).
  assert (LL : length l = (16 * blocks (8 * n))%nat).
  { unfold l. generalize (blocks (8 * n)) pos. clear - G. induction n as [|n IH]; intros pos; [reflexivity|].
    cbn [seq map concat]. rewrite app_length, IH. destruct (G pos) as [L _]. lia. }
  rewrite (nth_indep _ 0 (le_val [])) by (rewrite map_length, chunks_length; lia). rewrite (map_nth le_val), nth_chunks by exact H. f_equal.
  rewrite firstn_map_nth by (rewrite firstn_length; lia). apply map_ext_in. intros t Ht. apply in_seq in Ht.
  assert (E : nth (8 * j + t) (firstn (8 * n) l) 0 = nth (8 * j + t) l 0).
  { rewrite <- (firstn_skipn (8 * n) l) at 2. rewrite app_nth1; [reflexivity|]. rewrite firstn_length. lia. }
  rewrite E. unfold l. rewrite nth_concat_blocks by (auto; lia).
  pose proof (Nat.div_mod j 2). pose proof (Nat.mod_upper_bound j 2).
  replace (8 * j + t)%nat with ((8 * (j mod 2) + t) + (j / 2) * 16)%nat by lia.
  rewrite Nat.mod_add, Nat.div_add by lia. rewrite Nat.mod_small, Nat.div_small by lia. reflexivity.
Qed.

(** ** Mixing selected words into others *)
Definition bmix (sel : nat -> bool) (q : nat) (a b : list Z) : list Z :=
  map (fun t => if sel (2 * q + t / 8)%nat then Z.lxor (nth t a 0) (nth t b 0) else nth t a 0) (seq 0 16).
Lemma nth_byte b t : Forall is_byte b -> is_byte (nth t b 0).
Proof.
  intros F. destruct (Nat.lt_ge_cases t (length b)) as [H|H]; [rewrite Forall_forall in F; now apply F, nth_In|].
  rewrite nth_overflow by exact H. unfold is_byte. lia.
Qed.
Lemma byte_lxor x y : is_byte x -> is_byte y -> is_byte (Z.lxor x y).
Proof.
  intros Hx Hy. assert (F : Forall is_byte (map2 Z.lxor [x] [y])) by (apply map2_bytes; constructor; auto). now inversion F.
Qed.
Lemma bmix_block sel q a b : block a -> block b -> block (bmix sel q a b).
Proof.
  intros [La Fa] [Lb Fb]. split; [unfold bmix; now rewrite map_length, seq_length|]. apply Forall_forall. intros x Hx.
  apply in_map_iff in Hx as (t & <- & _). destruct (sel (2 * q + t / 8)%nat); [apply byte_lxor|]; now apply nth_byte.
Qed.
Lemma nth_bmix sel q a b t : (t < 16)%nat -> nth t (bmix sel q a b) 0 = if sel (2 * q + t / 8)%nat then Z.lxor (nth t a 0) (nth t b 0) else nth t a 0.
Proof. intros H. unfold bmix. now rewrite nth_map_seq. Qed.
Lemma bmix_back sel q a b : block a -> bmix sel q (bmix sel q a b) b = a.
Proof.
  intros [La _]. apply nth_ext with 0 0; [unfold bmix; rewrite map_length, seq_length; lia|].
  unfold bmix at 1. rewrite map_length, seq_length. intros t Ht. rewrite !nth_bmix by exact Ht.
  destruct (sel (2 * q + t / 8)%nat); [|reflexivity]. now rewrite Z.lxor_assoc, Z.lxor_nilpotent, Z.lxor_0_r.
Qed.
Lemma word_in_bmix sel a b j : block a -> block b ->
  word_in (bmix sel (j / 2) a b) j = if sel j then Z.lxor (word_in a j) (word_in b j) else word_in a j.
Proof.
  intros [La Fa] [Lb Fb]. unfold word_in. pose proof (Nat.div_mod j 2). pose proof (Nat.mod_upper_bound j 2).
  assert (E : forall t, (t < 8)%nat -> nth (8 * (j mod 2) + t) (bmix sel (j / 2) a b) 0 =
    if sel j then Z.lxor (nth (8 * (j mod 2) + t) a 0) (nth (8 * (j mod 2) + t) b 0) else nth (8 * (j mod 2) + t) a 0).
  { intros t Ht. rewrite nth_bmix by lia.
    assert (E8 : ((8 * (j mod 2) + t) / 8 = j mod 2)%nat).
    { rewrite (Nat.add_comm _ t), (Nat.mul_comm 8), Nat.div_add, Nat.div_small by lia. reflexivity. }
    rewrite E8. replace (2 * (j / 2) + j mod 2)%nat with j by (apply Nat.div_mod; lia). reflexivity. }
  rewrite (map_ext_in (fun t => nth (8 * (j mod 2) + t) (bmix sel (j / 2) a b) 0) _ (seq 0 8)
    (fun t Ht => E t (proj2 (proj1 (in_seq 8 0 t) Ht)))). destruct (sel j); [|reflexivity].
  rewrite <- le_val_lxor.
  - f_equal.
  - now rewrite !map_length.
  - apply Forall_forall. intros x Hx. apply in_map_iff in Hx as (t & <- & _). now apply nth_byte.
  - apply Forall_forall. intros x Hx. apply in_map_iff in Hx as (t & <- & _). now apply nth_byte.
Qed.

(** The words of the [K] blocks of [src] into those of [d] from block [off] on. *)
Definition stir (sel : nat -> bool) (m K off : nat) (d src : list (list Z)) : list (list Z) :=
  map (fun k => if ((off <=? k) && (k <? off + K))%nat then bmix sel (k - off) (nth k d []) (nth (k - off) src []) else nth k d []) (seq 0 m).
Section Stir.
Variables (sel : nat -> bool) (m K off : nat).
Hypothesis HK : (off + K <= m)%nat.
Lemma draw_block d k : one_draw m d -> (k < m)%nat -> block (nth k d []).
Proof. intros [L F] H. rewrite Forall_forall in F. apply F, nth_In. lia. Qed.
Lemma nth_stir d src k : (k < m)%nat -> nth k (stir sel m K off d src) [] =
  if ((off <=? k) && (k <? off + K))%nat then bmix sel (k - off) (nth k d []) (nth (k - off) src []) else nth k d [].
Proof. intros H. unfold stir. now rewrite nth_map_seq. Qed.
Lemma stir_in d src q : (q < K)%nat -> nth (off + q) (stir sel m K off d src) [] = bmix sel q (nth (off + q) d []) (nth q src []).
Proof.
  intros H. rewrite nth_stir by lia. replace ((off <=? off + q) && (off + q <? off + K))%nat with true; [now replace (off + q - off)%nat with q by lia|].
  symmetry. apply andb_true_intro. split; [apply Nat.leb_le|apply Nat.ltb_lt]; lia.
Qed.
Lemma stir_out d src k : (k < m)%nat -> (k < off \/ off + K <= k)%nat -> nth k (stir sel m K off d src) [] = nth k d [].
Proof.
  intros H C. rewrite nth_stir by lia. replace ((off <=? k) && (k <? off + K))%nat with false; [reflexivity|].
  symmetry. apply andb_false_iff. destruct C; [left; apply Nat.leb_gt|right; apply Nat.ltb_ge]; lia.
Qed.
Lemma stir_draw d src : one_draw m d -> one_draw m src -> one_draw m (stir sel m K off d src).
Proof.
  intros Hd Hs. split; [unfold stir; now rewrite map_length, seq_length|]. apply Forall_forall. intros x Hx.
  apply in_map_iff in Hx as (k & <- & Hk). apply in_seq in Hk.
  destruct ((off <=? k) && (k <? off + K))%nat eqn:E; [|apply draw_block; [assumption|lia]].
  apply andb_true_iff in E as [E1 E2]. apply Nat.leb_le in E1. apply Nat.ltb_lt in E2.
  apply bmix_block; apply draw_block; auto; lia.
Qed.
Lemma stir_back d src src' : one_draw m d -> (forall q, (q < K)%nat -> nth q src' [] = nth q src []) ->
  stir sel m K off (stir sel m K off d src) src' = d.
Proof.
  intros Hd E. pose proof Hd as [L _]. apply nth_ext with [] []; [unfold stir; rewrite map_length, seq_length; lia|].
  unfold stir at 1. rewrite map_length, seq_length. intros k Hk.
  destruct (Nat.lt_ge_cases k off) as [C|C]; [now rewrite !stir_out by auto|].
  destruct (Nat.lt_ge_cases k (off + K)) as [C'|C']; [|now rewrite !stir_out by auto].
  replace k with (off + (k - off))%nat by lia. rewrite !stir_in, E by lia. apply bmix_back, draw_block; [assumption|lia].
Qed.
Lemma word_stir_in d src j : one_draw m d -> one_draw m src -> (j / 2 < K)%nat ->
  word_of (stir sel m K off d src) off j = if sel j then Z.lxor (word_of d off j) (word_of src 0 j) else word_of d off j.
Proof.
  intros Hd Hs H. unfold word_of. rewrite stir_in by exact H. rewrite word_in_bmix; [reflexivity| |]; apply draw_block; auto; lia.
Qed.
Lemma word_stir_out d src k j : (k + j / 2 < m)%nat -> (k + j / 2 < off \/ off + K <= k + j / 2)%nat ->
  word_of (stir sel m K off d src) k j = word_of d k j.
Proof. intros H C. unfold word_of. now rewrite stir_out by auto. Qed.
End Stir.

(** ** The clients *)
Section Max.
Variables (is_max : bool) (B : nat).
Let one := max_request is_max B.
Let K := blocks (8 * (B + 1)).
Let m := (2 * K + 1)%nat.
Let cont (q : nat) (r : crec (list Z) nat) := xor_at q (c_0 r) (c_1 r).
Definition blevel (b : list Z) : nat := lev is_max B (drawn_value B b).

Lemma tape_at b d k : (k < length d)%nat -> tape b d (S k) = nth k d [].
Proof. intros H. unfold tape. cbn [nth]. now apply nth_indep. Qed.
Lemma max_real b d : block b -> Forall block d -> c_real (client one b d) = drawn_value B b.
Proof.
  intros Hb Hd. unfold client, one, max_request. cbv zeta. cbn [fst c_real]. rewrite tape_u64 by auto. cbn [nth].
  unfold drawn_value. now rewrite Nat2Z.inj_add.
Qed.
Lemma max_words b d k n j : block b -> one_draw m d -> (k + blocks (8 * n) <= m)%nat -> (j < n)%nat ->
  nth j (random_words (tape b d) (0 + 1 + k) n) 0 = word_of d k j.
Proof.
  intros Hb [L F] H Hj. rewrite nth_random_words by (auto using tape_blocks). unfold word_of. pose proof (word_block n j Hj).
  replace (0 + 1 + k + j / 2)%nat with (S (k + j / 2)) by lia. rewrite tape_at by lia. reflexivity.
Qed.
Lemma max_c0 b d j : block b -> one_draw m d -> (j <= B)%nat -> nth j (c_0 (client one b d)) 0 = word_of d K j.
Proof.
  intros Hb Hd H. unfold client, one, max_request. cbv zeta. cbn [fst c_0]. fold K. apply max_words; auto; fold K; lia.
Qed.
Lemma max_rows b d : block b -> Forall block d -> length (c_0 (client one b d)) = (B + 1)%nat /\ length (c_1 (client one b d)) = (B + 1)%nat.
Proof.
  intros Hb Hd. pose proof (max_good_all is_max B [tape b d] (Forall_cons _ (tape_blocks b d Hb Hd) (Forall_nil _))) as G.
  apply Forall_inv in G. destruct G as (_ & [A _] & [C _] & _). auto.
Qed.
Lemma max_c1 b d j : block b -> one_draw m d -> (j <= B)%nat ->
  nth j (c_1 (client one b d)) 0 = Z.lxor (word_of d K j) (if (blevel b <? j)%nat then 0 else word_of d 0 j).
Proof.
  intros Hb Hd H. pose proof (max_real b d Hb (proj2 Hd)) as R. revert R. unfold client, one, max_request. cbv zeta. cbn [fst c_1 c_real]. fold K.
  intros R. pose proof (tape_blocks b d Hb (proj2 Hd)) as G. destruct (words_ok (tape b d) (0 + 1 + K) (B + 1) G) as [L0 _].
  rewrite nth_lxor by (rewrite L0, map_length, seq_length; reflexivity). unfold xor_at.
  rewrite max_words by (auto; fold K; lia). rewrite nth_map_seq by lia. f_equal. rewrite R. fold (lev is_max B (drawn_value B b)). fold (blevel b).
  destruct (blevel b <? j)%nat; [reflexivity|].
  change (0 + 1)%nat with (0 + 1 + 0)%nat. apply max_words; auto; fold K; lia.
Qed.
Lemma max_cont b d j : block b -> one_draw m d ->
  cont j (client one b d) = if ((blevel b <? j) || (B <? j))%nat then 0 else word_of d 0 j.
Proof.
  intros Hb Hd. unfold cont, xor_at. destruct (B <? j)%nat eqn:E.
  - rewrite orb_true_r. apply Nat.ltb_lt in E. destruct (max_rows b d Hb (proj2 Hd)) as [A C]. rewrite !nth_overflow by lia. reflexivity.
  - rewrite orb_false_r. apply Nat.ltb_ge in E. rewrite max_c0, max_c1 by auto. now rewrite <- Z.lxor_assoc, Z.lxor_nilpotent, Z.lxor_0_l.
Qed.
Lemma max_pk b d : block b -> one_draw m d -> c_pk (client one b d) = make_pk (fun _ => nth (2 * K) d []) 0.
Proof.
  intros Hb [L F]. unfold client, one, max_request. cbv zeta. cbn [fst c_pk]. fold K. unfold make_pk, random_u64, random_data.
  change (blocks 8) with 1%nat. cbn [seq map concat]. change (0 + 1 + 2 * K)%nat with (S (2 * K)). now rewrite tape_at by lia.
Qed.

Definition between (a b w : nat) : bool := ((min a b <? w) && (w <=? max a b))%nat.
Definition raise_max (a b : nat) (d e : list (list Z)) : list (list Z) * list (list Z) := (d, stir (between a b) m K 0 e d).

Lemma max_c0_same b b' d d' : block b -> block b' -> one_draw m d -> one_draw m d' ->
  (forall j, (j <= B)%nat -> word_of d' K j = word_of d K j) -> c_0 (client one b' d') = c_0 (client one b d).
Proof.
  intros Hb Hb' Hd Hd' E. destruct (max_rows b d Hb (proj2 Hd)) as [A _]. destruct (max_rows b' d' Hb' (proj2 Hd')) as [A' _].
  apply nth_ext with 0 0; [lia|]. intros j Hj. rewrite !max_c0 by (auto; lia). apply E. lia.
Qed.
Lemma max_step bs i j b' : Forall block bs -> block b' -> (i < length bs)%nat -> (j < length bs)%nat -> i <> j ->
  (blevel (nth i bs []) <= blevel (nth j bs []))%nat -> (blevel b' <= blevel (nth j bs []))%nat ->
  alike one m cont bs (upd i b' bs).
Proof.
  intros FB Bb Hi Hj N Li Lb. rewrite Forall_forall in FB.
  assert (Bi : block (nth i bs [])) by now apply FB, nth_In. assert (Bj : block (nth j bs [])) by now apply FB, nth_In.
  set (f := raise_max (blevel (nth i bs [])) (blevel b')).
  assert (GF : good_pair m f).
  { intros d e Hd He. unfold f, raise_max. cbn [fst snd]. split; [exact Hd|]. apply stir_draw; auto. unfold m. lia. }
  assert (INV : forall d e, one_draw m d -> one_draw m e -> f (fst (f d e)) (snd (f d e)) = (d, e)).
  { intros d e Hd He. unfold f, raise_max. cbn [fst snd]. f_equal. apply stir_back; auto. unfold m. lia. }
  apply alike_step with (j := j) (f := f) (g := f); [assumption|assumption|assumption|assumption|assumption| |].
  { intros d e Hd He. split; now apply INV. }
  intros d e Hd He. cbv zeta. destruct (GF d e Hd He) as [_ He']. unfold f, raise_max in *. cbn [fst snd] in *.
  set (sel := between (blevel (nth i bs [])) (blevel b')) in *.
  assert (HKm : (0 + K <= m)%nat) by (unfold m; lia).
  assert (W : forall q, (q <= B)%nat -> (q / 2 < K)%nat) by (intros q Hq; apply word_block; lia).
  rewrite !max_pk by auto. split; [reflexivity|]. split; [now apply max_c0_same|].
  split. { rewrite stir_out by (auto; unfold m; lia). reflexivity. }
  split. { apply max_c0_same; auto. intros q Hq. specialize (W q Hq). apply word_stir_out; auto; unfold m; lia. }
  intros q. rewrite !max_cont by auto. destruct (B <? q)%nat eqn:EB; [now rewrite !orb_true_r|]. rewrite !orb_false_r. apply Nat.ltb_ge in EB.
  rewrite word_stir_in by auto. unfold sel, between. specialize (W q EB).
  generalize (word_of d 0 q) (word_of e 0 q). intros x y.
  assert (C : forall a b, Z.lxor a (Z.lxor b a) = b) by (intros; now rewrite (Z.lxor_comm b), <- Z.lxor_assoc, Z.lxor_nilpotent, Z.lxor_0_l).
  destruct (Nat.ltb_spec (blevel (nth i bs [])) q), (Nat.ltb_spec (blevel b') q), (Nat.ltb_spec (blevel (nth j bs [])) q),
    (Nat.ltb_spec (min (blevel (nth i bs [])) (blevel b')) q), (Nat.leb_spec q (max (blevel (nth i bs [])) (blevel b'))); cbn [andb];
    try lia; try reflexivity; rewrite ?C, ?Z.lxor_0_l; try reflexivity. apply Z.lxor_comm.
Qed.
Lemma max_swap bs i b' : Forall block bs -> block b' -> (i < length bs)%nat -> blevel b' = blevel (nth i bs []) ->
  alike one m cont bs (upd i b' bs).
Proof.
  intros FB Bb Hi E. rewrite Forall_forall in FB. assert (Bi : block (nth i bs [])) by now apply FB, nth_In.
  apply alike_same; [assumption|]. intros d Hd. cbv zeta. rewrite !max_pk by auto. split; [reflexivity|]. split; [now apply max_c0_same|].
  intros q. rewrite !max_cont by auto. now rewrite E.
Qed.
Lemma max_alike_top bs top b : Forall block bs -> block top -> In b bs -> blevel top = blevel b ->
  (forall c, In c bs -> (blevel c <= blevel b)%nat) -> alike one m cont bs (repeat top (length bs)).
Proof.
  intros FB BT Hb ET HL. destruct (In_nth bs b [] Hb) as (j & Hj & Ej).
  set (h := fun i => if Nat.eq_dec i j then nth j bs [] else top).
  assert (HB : forall k, (k < length bs)%nat -> block (nth k bs [])) by (intros k Hk; rewrite Forall_forall in FB; now apply FB, nth_In).
  assert (A : alike one m cont bs (map h (seq 0 (length bs)))).
  { apply alike_top with (K := block) (j := j); [assumption| |assumption| |].
    - unfold h. destruct (Nat.eq_dec j j); congruence.
    - intros i. unfold h. destruct (Nat.eq_dec i j); auto.
    - intros bs2 i F2 L2 E2 Hi N Ei. unfold h. destruct (Nat.eq_dec i j) as [|_]; [congruence|].
      apply max_step with (j := j); [assumption|assumption|lia|lia|assumption| |].
      + rewrite Ei, E2, Ej. apply HL, nth_In, Hi.
      + rewrite E2, Ej, ET. lia. }
  set (bs1 := map h (seq 0 (length bs))) in *.
  assert (L1 : length bs1 = length bs) by (unfold bs1; now rewrite map_length, seq_length).
  assert (N1 : forall k, (k < length bs)%nat -> nth k bs1 [] = h k).
  { intros k Hk. unfold bs1. now rewrite nth_map_seq. }
  assert (E : repeat top (length bs) = upd j top bs1).
  { apply nth_ext with [] []; [now rewrite repeat_length, upd_length|]. rewrite repeat_length. intros k Hk.
    rewrite (nth_indep _ [] top), nth_repeat by now rewrite repeat_length.
    destruct (Nat.eq_dec k j) as [->|Nk]; [now rewrite nth_upd_eq by lia|]. rewrite nth_upd_neq by auto.
    rewrite N1 by exact Hk. unfold h. destruct (Nat.eq_dec k j); [congruence|reflexivity]. }
  rewrite E. apply alike_trans with bs1; [now symmetry|exact A|]. apply max_swap; [|assumption|lia|].
  - unfold bs1. apply Forall_map, Forall_forall. intros i _. unfold h. destruct (Nat.eq_dec i j); auto.
  - rewrite N1 by exact Hj. unfold h. destruct (Nat.eq_dec j j); [|congruence]. now rewrite Ej, ET.
Qed.
Lemma drawn_le b : (drawn_value B b <= B)%nat.
Proof. unfold drawn_value. pose proof (Z.mod_pos_bound (le_val (firstn 8 b)) (Z.of_nat B + 1)). lia. Qed.
Lemma max_alike bs bs' v : length bs' = length bs -> Forall block bs -> Forall block bs' ->
  extreme is_max v (map (drawn_value B) bs) -> extreme is_max v (map (drawn_value B) bs') -> alike one m cont bs bs'.
Proof.
  intros L FB FB' [I H] [I' H']. apply in_map_iff in I as (b & Eb & Hb). apply in_map_iff in I' as (b' & Eb' & Hb').
  assert (UP : forall l, (forall w, In w (map (drawn_value B) l) -> if is_max then (w <= v)%nat else (v <= w)%nat) ->
    forall x, drawn_value B x = v -> forall c, In c l -> (blevel c <= blevel x)%nat).
  { intros l Hl x Ex c Hc. specialize (Hl _ (in_map _ _ _ Hc)). unfold blevel, lev. rewrite Ex.
    pose proof (drawn_le c). pose proof (drawn_le x). destruct is_max; lia. }
  assert (BT : block b') by (rewrite Forall_forall in FB'; auto).
  apply alike_trans with (repeat b' (length bs)); [now rewrite repeat_length| |].
  - apply max_alike_top with b; auto; [|now apply UP]. unfold blevel. now rewrite Eb, Eb'.
  - rewrite <- L. apply alike_sym; [now rewrite repeat_length|]. apply max_alike_top with b'; auto. now apply UP.
Qed.

(** Server 1: its records stay the same. *)
Definition max_side1 (b b' : list Z) (d : list (list Z)) : list (list Z) := stir (between (blevel b) (blevel b')) m K K d d.
Lemma between_comm x y w : between x y w = between y x w.
Proof. unfold between. now rewrite Nat.min_comm, Nat.max_comm. Qed.
Lemma stir_sel sel sel' d src : (forall w, sel w = sel' w) -> stir sel m K K d src = stir sel' m K K d src.
Proof.
  intros E. unfold stir. apply map_ext. intros k. destruct ((K <=? k) && (k <? K + K))%nat; [|reflexivity].
  unfold bmix. apply map_ext. intros t. now rewrite E.
Qed.
Lemma max_side1_draw b b' d : one_draw m d -> one_draw m (max_side1 b b' d) /\ max_side1 b' b (max_side1 b b' d) = d.
Proof.
  intros H. assert (HKm : (K + K <= m)%nat) by (unfold m; lia). split; [apply stir_draw; auto|].
  unfold max_side1 at 1. rewrite (stir_sel _ _ _ _ (between_comm (blevel b') (blevel b))). apply stir_back; auto.
  intros q Hq. unfold max_side1. apply stir_out; [assumption|lia|now left].
Qed.
Lemma max_side1_client b b' d : block b -> block b' -> one_draw m d ->
  c_pk (client one b' (max_side1 b b' d)) = c_pk (client one b d) /\ c_1 (client one b' (max_side1 b b' d)) = c_1 (client one b d).
Proof.
  intros Bb Bb' Hd. destruct (max_side1_draw b b' d Hd) as [Hd' _]. assert (HKm : (K + K <= m)%nat) by (unfold m; lia).
  split.
  - rewrite !max_pk by auto. unfold max_side1. rewrite stir_out; [reflexivity|assumption|unfold m; lia|right; lia].
  - destruct (max_rows b d Bb (proj2 Hd)) as [_ A]. destruct (max_rows b' _ Bb' (proj2 Hd')) as [_ A'].
    apply nth_ext with 0 0; [lia|]. intros j Hj. rewrite A' in Hj.
    assert (W : (j / 2 < K)%nat) by (apply word_block; lia).
    rewrite !max_c1 by (auto; lia). unfold max_side1. rewrite word_stir_in by auto. rewrite word_stir_out by (auto; lia). unfold between.
    generalize (word_of d 0 j) (word_of d K j). intros x y.
    destruct (Nat.ltb_spec (blevel b) j), (Nat.ltb_spec (blevel b') j), (Nat.ltb_spec (min (blevel b) (blevel b')) j),
      (Nat.leb_spec j (max (blevel b) (blevel b'))); cbn [andb]; try lia; rewrite ?Z.lxor_assoc, ?Z.lxor_nilpotent, ?Z.lxor_0_r; reflexivity.
Qed.
End Max.
