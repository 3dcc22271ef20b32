(** Construction of random blocks that explain a record. *)
From Coq Require Import ZArith List Bool Lia.
From Verif Require Import Words WordsFacts Constants Share ShareFacts Net ClientOps SpecClient SpecSecret ServerFacts ClientFacts.
Import ListNotations.
Open Scope Z_scope.

(** ** Tapes *)
(** [g] up to [pos], then the blocks [bs], then [rest]. *)
Definition splice (g : prg) (pos : nat) (bs : list (list Z)) (rest : prg) : prg :=
  fun i => if (i <? pos)%nat then g i
           else match nth_error bs (i - pos) with Some b => b | None => rest (i - pos - length bs)%nat end.
Lemma splice_before g pos bs rest i : (i < pos)%nat -> splice g pos bs rest i = g i.
Proof. intros H. unfold splice. now apply Nat.ltb_lt in H as ->. Qed.
Lemma splice_after g pos bs rest i : splice g pos bs rest (pos + length bs + i)%nat = rest i.
Proof.
  unfold splice. destruct (Nat.ltb_spec (pos + length bs + i) pos); [lia|].
  replace (nth_error bs _) with (@None (list Z)) by (symmetry; apply nth_error_None; lia). f_equal. lia.
Qed.
Lemma splice_mid g pos pre seg post rest :
  map (splice g pos (pre ++ seg ++ post) rest) (seq (pos + length pre) (length seg)) = seg.
Proof.
  apply nth_ext with [] []; [now rewrite map_length, seq_length|]. intros n Hn. rewrite map_length, seq_length in Hn.
  rewrite (nth_indep _ _ (splice g pos (pre ++ seg ++ post) rest 0%nat)) by now rewrite map_length, seq_length.
  rewrite map_nth, seq_nth by exact Hn. unfold splice. destruct (Nat.ltb_spec (pos + length pre + n) pos); [lia|].
  replace (pos + length pre + n - pos)%nat with (length pre + n)%nat by lia.
  rewrite nth_error_app2, nth_error_app1 by lia.
  replace (length pre + n - length pre)%nat with n by lia.
  destruct (nth_error seg n) eqn:E; [|apply nth_error_None in E; lia]. symmetry. now apply nth_error_nth.
Qed.
Lemma splice_blocks g pos bs rest : is_blocks g -> is_blocks rest ->
  Forall (fun b => length b = 16%nat /\ Forall is_byte b) bs -> is_blocks (splice g pos bs rest).
Proof.
  intros G R F i. unfold splice. destruct (i <? pos)%nat; [apply G|].
  destruct (nth_error bs (i - pos)) eqn:E; [|apply R]. rewrite Forall_forall in F. apply F. eapply nth_error_In. exact E.
Qed.

(** ** Blocks with given contents *)
Definition to_blocks (bytes : list Z) : list (list Z) := chunks (blocks (length bytes)) 16 (bytes ++ repeat 0 15).
Lemma blocks_bounds n : (n <= 16 * blocks n /\ 16 * blocks n <= n + 15)%nat.
Proof. unfold blocks. pose proof (Nat.div_mod (n + 15) 16 ltac:(lia)). pose proof (Nat.mod_upper_bound (n + 15) 16 ltac:(lia)). lia. Qed.
Lemma to_blocks_length bytes : length (to_blocks bytes) = blocks (length bytes).
Proof. apply chunks_length. Qed.
Lemma to_blocks_ok bytes : Forall is_byte bytes -> Forall (fun b => length b = 16%nat /\ Forall is_byte b) (to_blocks bytes).
Proof.
  intros F. apply Forall_forall. intros b Hb. split.
  - revert b Hb. apply Forall_forall, chunks_each. rewrite app_length, repeat_length.
    pose proof (blocks_bounds (length bytes)). lia.
  - revert b Hb. apply Forall_forall, Forall_chunks, Forall_app. split; [exact F|].
    apply Forall_forall. intros x Hx. apply repeat_spec in Hx. subst. red. lia.
Qed.
Lemma concat_chunks {A} n k (l : list A) : (n * k <= length l)%nat -> concat (chunks n k l) = firstn (n * k) l.
Proof.
  revert l. induction n as [|n IH]; intros l H; [reflexivity|]. cbn [chunks concat]. rewrite IH by (rewrite skipn_length; lia).
  cbn [Nat.mul]. rewrite <- (firstn_skipn k l) at 3. rewrite firstn_app, firstn_firstn, firstn_length.
  replace (Nat.min (k + n * k) k) with k by lia. f_equal. f_equal. lia.
Qed.
Lemma splice_data g pos pre bytes post rest :
  random_data (splice g pos (pre ++ to_blocks bytes ++ post) rest) (pos + length pre) (length bytes) = bytes.
Proof.
  unfold random_data. rewrite <- to_blocks_length, splice_mid. unfold to_blocks.
  pose proof (blocks_bounds (length bytes)).
  rewrite concat_chunks by (rewrite app_length, repeat_length; lia).
  rewrite firstn_firstn, Nat.min_l by lia. now rewrite firstn_app, Nat.sub_diag, firstn_O, app_nil_r, firstn_all.
Qed.
Lemma splice_u64 g pos pre w post rest : 0 <= w < two64 ->
  random_u64 (splice g pos (pre ++ to_blocks (le_bytes 8 w) ++ post) rest) (pos + length pre) = w.
Proof.
  intros H. unfold random_u64. pose proof (splice_data g pos pre (le_bytes 8 w) post rest) as E.
  rewrite le_bytes_length in E. rewrite E. now apply le_val_bytes_small.
Qed.
Definition bytes_of (ws : list Z) : list Z := concat (map (le_bytes 8) ws).
Lemma bytes_of_length ws : length (bytes_of ws) = (8 * length ws)%nat.
Proof. unfold bytes_of. induction ws as [|w ws IH]; [reflexivity|]. cbn [map concat]. rewrite app_length, le_bytes_length, IH. cbn [length]. lia. Qed.
Lemma bytes_of_bytes ws : Forall is_byte (bytes_of ws).
Proof. unfold bytes_of. induction ws as [|w ws IH]; [constructor|]. cbn [map concat]. apply Forall_app. split; [apply le_bytes_bytes|exact IH]. Qed.
Lemma splice_words g pos pre ws post rest : Forall (fun w => 0 <= w < two64) ws ->
  random_words (splice g pos (pre ++ to_blocks (bytes_of ws) ++ post) rest) (pos + length pre) (length ws) = ws.
Proof.
  intros H. unfold random_words. rewrite <- bytes_of_length, splice_data. unfold bytes_of.
  rewrite <- (app_nil_r (concat _)), <- (map_length (le_bytes 8) ws), chunks_concat.
  - rewrite map_map. rewrite <- map_id. apply map_ext_in. intros w Hw. rewrite Forall_forall in H.
    apply le_val_bytes_small. now apply H.
  - apply Forall_forall. intros b Hb. apply in_map_iff in Hb as (w & <- & _). apply le_bytes_length.
Qed.
Lemma splice_bools g pos pre bs post rest :
  random_bool (splice g pos (pre ++ to_blocks (map b2z bs) ++ post) rest) (pos + length pre) (length bs) = bs.
Proof.
  unfold random_bool. rewrite <- (map_length b2z bs), splice_data, map_map. rewrite <- map_id. apply map_ext. intros []; reflexivity.
Qed.
Lemma splice_bool1 g pos pre b post rest :
  random_bool1 (splice g pos (pre ++ to_blocks [b2z b] ++ post) rest) (pos + length pre) = b.
Proof.
  unfold random_bool1. change 1%nat with (length [b]). change [b2z b] with (map b2z [b]). now rewrite splice_bools.
Qed.
Lemma b2z_bytes bs : Forall is_byte (map b2z bs).
Proof. apply Forall_forall. intros x Hx. apply in_map_iff in Hx as ([] & <- & _); red; cbn; lia. Qed.
Lemma shift_blocks g q : is_blocks g -> is_blocks (fun i => g (q + i)%nat).
Proof. intros H i. apply H. Qed.

(** A request that uses [length bs] blocks. *)
Lemma independent_splice {V W} (one : prg -> nat -> crec V W * nat) (legal : W -> Prop) (possible : V -> Prop) :
  (forall side v w, legal v -> possible w ->
     exists bs, Forall (fun b => length b = 16%nat /\ Forall is_byte b) bs /\
       forall g pos rest, is_blocks g -> let g' := splice g pos bs rest in
         snd (one g' pos) = (pos + length bs)%nat /\
         c_real (fst (one g' pos)) = v /\ share_of side (fst (one g' pos)) = w) ->
  independent one legal possible.
Proof.
  intros H g pos side v w G L P. destruct (H side v w L P) as (bs & F & R).
  specialize (R g pos (fun i => g (snd (one g pos) + i)%nat) G). cbv zeta in R. destruct R as (R1 & R2 & R3).
  exists (splice g pos bs (fun i => g (snd (one g pos) + i)%nat)).
  split; [|split; [|split; [|split]]]; auto.
  - apply splice_blocks; auto. now apply shift_blocks.
  - intros i Hi. now apply splice_before.
  - intros i. rewrite R1. exact (splice_after g pos bs (fun i => g (snd (one g pos) + i)%nat) i).
Qed.

(** ** Runs *)
Definition local {V W} (one : prg -> nat -> crec V W * nat) : Prop :=
  forall g g' q q', (forall i, g' (q' + i)%nat = g (q + i)%nat) ->
    fst (one g' q') = fst (one g q) /\
    exists d, snd (one g q) = (q + d)%nat /\ snd (one g' q') = (q' + d)%nat.
Definition fresh_all {V W} (one : prg -> nat -> crec V W * nat) : Prop :=
  forall g pos, c_pk (fst (one g pos)) = make_pk g (snd (one g pos)).
Lemma requests_local {V W} (one : prg -> nat -> crec V W * nat) : local one -> forall n g g' q q',
  (forall i, g' (q' + i)%nat = g (q + i)%nat) ->
  fst (requests (one g') n q') = fst (requests (one g) n q).
Proof.
  intros L. induction n as [|n IH]; intros g g' q q' E; [reflexivity|]. cbn [requests].
  destruct (L g g' q q' E) as (E1 & d & E2 & E3).
  destruct (one g q) as [r p1], (one g' q') as [r' p1']. cbn [fst snd] in *. subst.
  specialize (IH g g' (q + d)%nat (q' + d)%nat). destruct (requests (one g) n _), (requests (one g') n _). cbn [fst] in *.
  rewrite IH; [reflexivity|]. intros i. rewrite <- !Nat.add_assoc. apply E.
Qed.
Lemma first_hidden_of {V W} (one : prg -> nat -> crec V W * nat) (legal : W -> Prop) (possible : V -> Prop) :
  local one -> fresh_all one -> independent one legal possible ->
  (forall g pos side, is_blocks g -> possible (share_of side (fst (one g pos)))) ->
  first_hidden one legal.
Proof.
  intros L F I P g n side v G Lv.
  destruct (I g 0%nat side v (share_of side (fst (one g 0%nat))) G Lv (P g 0%nat side G)) as (g' & G' & _ & A & R & S).
  exists g'. split; [exact G'|].
  pose proof (requests_local one L n g g' _ _ A) as RL. pose proof (F g 0%nat) as F1. pose proof (F g' 0%nat) as F2.
  cbn [requests]. specialize (A 0%nat). rewrite !Nat.add_0_r in A.
  destruct (one g 0%nat) as [r p1], (one g' 0%nat) as [r' p1']. cbn [fst snd] in *.
  destruct (requests (one g) n p1) as [l p2], (requests (one g') n p1') as [l' p2']. cbn [fst] in *. subst l'.
  unfold seen. cbn [map tl]. split; [|now rewrite R].
  f_equal. f_equal; [|exact S]. rewrite F1, F2. unfold make_pk. now rewrite A.
Qed.

Lemma random_data_local g g' q q' k n : (forall i, g' (q' + i)%nat = g (q + i)%nat) ->
  random_data g' (q' + k) n = random_data g (q + k) n.
Proof.
  intros E. unfold random_data. f_equal. f_equal. generalize (blocks n) k. clear k n.
  intros m. induction m as [|m IH]; intros k; [reflexivity|]. cbn [seq map]. f_equal; [apply E|].
  specialize (IH (S k)). rewrite !Nat.add_succ_r in IH. exact IH.
Qed.
Lemma random_data_local0 g g' q q' n : (forall i, g' (q' + i)%nat = g (q + i)%nat) ->
  random_data g' q' n = random_data g q n.
Proof. intros E. pose proof (random_data_local g g' q q' 0 n E) as H. now rewrite !Nat.add_0_r in H. Qed.
Lemma make_pk_local g g' q q' k : (forall i, g' (q' + i)%nat = g (q + i)%nat) -> make_pk g' (q' + k) = make_pk g (q + k).
Proof. intros E. unfold make_pk. now rewrite E. Qed.

Ltac local_tac E :=
  unfold random_u64, random_words, random_bool1, random_bool;
  rewrite <- ?Nat.add_assoc;
  rewrite ?(random_data_local _ _ _ _ _ _ E), ?(random_data_local0 _ _ _ _ _ E), ?(make_pk_local _ _ _ _ _ E).

(** ** BIT_SUM *)
Lemma bit_local : local bit_request.
Proof.
  intros g g' q q' E. unfold bit_request. cbn [fst snd]. local_tac E. split; [reflexivity|]. exists 2%nat. auto.
Qed.
Lemma bit_independent : independent bit_request (fun _ => True) (fun _ => True).
Proof.
  apply independent_splice. intros side v w _ _.
  set (s0 := if side then xorb w v else w).
  exists (to_blocks [b2z v] ++ to_blocks [b2z s0]). split.
  - apply Forall_app. split; apply to_blocks_ok; (repeat constructor); [destruct v|destruct v|destruct s0|destruct s0]; cbn; lia.
  - intros g pos rest G. cbv zeta. unfold bit_request. cbn [fst snd c_real share_of].
    pose proof (splice_bool1 g pos [] v (to_blocks [b2z s0]) rest) as E1. cbn [app length] in E1. rewrite Nat.add_0_r in E1.
    pose proof (splice_bool1 g pos (to_blocks [b2z v]) s0 [] rest) as E2. rewrite app_nil_r in E2.
    change (length (to_blocks [b2z v])) with 1%nat in E2.
    rewrite E1, E2. split; [reflexivity|]. split; [reflexivity|]. unfold s0. destruct side, v, w; reflexivity.
Qed.
Lemma bit_hidden : first_hidden bit_request (fun _ => True).
Proof. apply first_hidden_of with (fun _ => True); auto using bit_local, bit_independent. intros g pos. reflexivity. Qed.

(** ** Ranges of draws *)
Lemma data_ok g pos n : is_blocks g -> length (random_data g pos n) = n /\ Forall is_byte (random_data g pos n).
Proof.
  intros G. unfold random_data.
  assert (H : forall k q, length (concat (map g (seq q k))) = (16 * k)%nat /\ Forall is_byte (concat (map g (seq q k)))).
  { induction k as [|k IH]; intros q; [split; [reflexivity|constructor]|]. cbn [seq map concat].
    destruct (IH (S q)) as [I1 I2]. destruct (G q) as [G1 G2]. rewrite app_length, G1, I1. split; [lia|].
    apply Forall_app. split; assumption. }
  destruct (H (blocks n) pos) as [H1 H2]. pose proof (blocks_bounds n). split.
  - rewrite firstn_length, H1. lia.
  - now apply Forall_firstn'.
Qed.
Lemma u64_ok g pos : is_blocks g -> 0 <= random_u64 g pos < two64.
Proof. intros G. destruct (data_ok g pos 8 G) as [L F]. unfold random_u64. now apply le_val_word. Qed.
Lemma words_ok g pos n : is_blocks g -> length (random_words g pos n) = n /\ Forall (fun w => 0 <= w < two64) (random_words g pos n).
Proof.
  intros G. destruct (data_ok g pos (8 * n) G) as [L F]. unfold random_words. split; [now rewrite map_length, chunks_length|].
  apply Forall_forall. intros w Hw. apply in_map_iff in Hw as (c & <- & Hc).
  pose proof (Forall_chunks is_byte n 8 _ F) as F1. pose proof (chunks_each n 8 (random_data g pos (8 * n)) ltac:(lia)) as F2.
  rewrite Forall_forall in F1, F2. apply le_val_word; [now apply F1|now apply F2].
Qed.
Lemma bools_ok g pos n : is_blocks g -> length (random_bool g pos n) = n.
Proof. intros G. unfold random_bool. rewrite map_length. now apply data_ok. Qed.

(** ** INT_SUM *)
Lemma word_blocks w : Forall (fun b => length b = 16%nat /\ Forall is_byte b) (to_blocks (le_bytes 8 w)).
Proof. apply to_blocks_ok, le_bytes_bytes. Qed.
Lemma word_blocks_length w : length (to_blocks (le_bytes 8 w)) = 1%nat.
Proof. now rewrite to_blocks_length, le_bytes_length. Qed.
Lemma int_local m : local (int_request m).
Proof. intros g g' q q' E. unfold int_request. cbn [fst snd]. local_tac E. split; [reflexivity|]. exists 2%nat. auto. Qed.
Lemma lxor_twice a b : Z.lxor (Z.lxor a b) b = a.
Proof. now rewrite Z.lxor_assoc, Z.lxor_nilpotent, Z.lxor_0_r. Qed.
Lemma int_independent num_bits : (num_bits <= 63)%nat ->
  independent (int_request (2 ^ Z.of_nat num_bits)) (fun v => 0 <= v < 2 ^ Z.of_nat num_bits) (fun w => 0 <= w < 2 ^ Z.of_nat num_bits).
Proof.
  intros Hn. pose proof (pow_le_two64 num_bits Hn) as B64. apply independent_splice. intros side v w Hv Hw.
  set (s0 := if side then Z.lxor w v else w).
  assert (R0 : 0 <= s0 < 2 ^ Z.of_nat num_bits) by (unfold s0; destruct side; [now apply lxor_lt|exact Hw]).
  exists (to_blocks (le_bytes 8 v) ++ to_blocks (le_bytes 8 s0)). split.
  - apply Forall_app. split; apply word_blocks.
  - intros g pos rest G. cbv zeta. unfold int_request. cbn [fst snd c_real share_of].
    pose proof (splice_u64 g pos [] v (to_blocks (le_bytes 8 s0)) rest ltac:(lia)) as E1. cbn [app length] in E1. rewrite Nat.add_0_r in E1.
    pose proof (splice_u64 g pos (to_blocks (le_bytes 8 v)) s0 [] rest ltac:(lia)) as E2. rewrite app_nil_r, word_blocks_length in E2.
    rewrite E1, E2, app_length, !word_blocks_length, !Z.mod_small by assumption.
    split; [reflexivity|]. split; [reflexivity|]. unfold s0. destruct side; cbn [share_of c_0 c_1]; [apply lxor_twice|reflexivity].
Qed.
Lemma int_hidden num_bits : (num_bits <= 63)%nat ->
  first_hidden (int_request (2 ^ Z.of_nat num_bits)) (fun v => 0 <= v < 2 ^ Z.of_nat num_bits).
Proof.
  intros Hn. apply first_hidden_of with (fun w => 0 <= w < 2 ^ Z.of_nat num_bits); auto using int_local, int_independent.
  - intros g pos. reflexivity.
  - intros g pos side G. unfold int_request. cbn [fst share_of].
    assert (P : 0 < 2 ^ Z.of_nat num_bits) by (apply Z.pow_pos_nonneg; lia).
    destruct side; cbn [share_of c_0 c_1]; [apply lxor_lt|]; now apply Z.mod_pos_bound.
Qed.

(** ** AND, OR *)
Lemma xor_local is_and : local (xor_request is_and).
Proof.
  intros g g' q q' E. unfold xor_request. cbn [fst snd]. unfold random_bool1, random_bool.
  rewrite (random_data_local0 _ _ _ _ _ E). set (v := nth 0 _ false). set (neutral := if is_and then v else negb v).
  destruct neutral; local_tac E.
  - split; [reflexivity|]. exists 2%nat. split; lia.
  - split; [reflexivity|]. exists 3%nat. split; lia.
Qed.
Lemma lxor_word a b : 0 <= a < two64 -> 0 <= b < two64 -> 0 <= Z.lxor a b < two64.
Proof. apply (lxor_lt 64). Qed.
Lemma bit_blocks b : Forall (fun b => length b = 16%nat /\ Forall is_byte b) (to_blocks [b2z b]).
Proof. apply to_blocks_ok. constructor; [|constructor]. destruct b; red; cbn; lia. Qed.
Lemma xor_independent is_and :
  independent (with_encoding Z.lxor (xor_request is_and)) (xor_legal is_and) (fun w => 0 <= w < two64).
Proof.
  apply independent_splice. intros side [v e] w Hv Hw. unfold xor_legal in Hv. cbn [fst snd] in Hv.
  set (s0 := if side then Z.lxor w e else w). destruct (if is_and then v else negb v) eqn:N.
  - subst e. clear s0.
    exists (to_blocks [b2z v] ++ to_blocks (le_bytes 8 w)). split; [apply Forall_app; split; [apply bit_blocks|apply word_blocks]|].
    intros g pos rest G. cbv zeta.
    pose proof (splice_bool1 g pos [] v (to_blocks (le_bytes 8 w)) rest) as E1. cbn [app length] in E1. rewrite Nat.add_0_r in E1.
    pose proof (splice_u64 g pos (to_blocks [b2z v]) w [] rest Hw) as E2. rewrite app_nil_r in E2.
    change (length (to_blocks [b2z v])) with 1%nat in E2.
    unfold with_encoding, xor_request. rewrite E1, N, E2. cbn [fst snd c_real c_0 c_1 share_of].
    rewrite Z.lxor_0_r, Z.lxor_nilpotent, app_length, word_blocks_length. change (length (to_blocks [b2z v])) with 1%nat.
    split; [lia|]. split; [reflexivity|]. now destruct side.
  - assert (R0 : 0 <= s0 < two64) by (unfold s0; destruct side; [now apply lxor_word|exact Hw]).
    exists (to_blocks [b2z v] ++ to_blocks (le_bytes 8 e) ++ to_blocks (le_bytes 8 s0)).
    split; [repeat (apply Forall_app; split); try apply bit_blocks; apply word_blocks|].
    intros g pos rest G. cbv zeta.
    pose proof (splice_bool1 g pos [] v (to_blocks (le_bytes 8 e) ++ to_blocks (le_bytes 8 s0)) rest) as E1. cbn [app length] in E1. rewrite Nat.add_0_r in E1.
    pose proof (splice_u64 g pos (to_blocks [b2z v]) e (to_blocks (le_bytes 8 s0)) rest Hv) as E2.
    pose proof (splice_u64 g pos (to_blocks [b2z v] ++ to_blocks (le_bytes 8 e)) s0 [] rest R0) as E3.
    rewrite app_nil_r, <- app_assoc, app_length, word_blocks_length in E3. change (length (to_blocks [b2z v])) with 1%nat in E2, E3.
    unfold with_encoding, xor_request. rewrite E1, N, E2. cbn [Nat.add] in E3. rewrite E3. cbn [fst snd c_real c_0 c_1 share_of].
    rewrite !app_length, !word_blocks_length. change (length (to_blocks [b2z v])) with 1%nat.
    split; [lia|]. split; [|unfold s0; destruct side; [apply lxor_twice|reflexivity]].
    f_equal. now rewrite <- Z.lxor_assoc, Z.lxor_nilpotent, Z.lxor_0_l.
Qed.
Lemma independent_plain {V W E} (decode : V -> V -> E) (one : prg -> nat -> crec V W * nat)
  (legal : W * E -> Prop) (legal' : W -> Prop) (possible : V -> Prop) :
  (forall v, legal' v -> exists e, legal (v, e)) ->
  independent (with_encoding decode one) legal possible -> independent one legal' possible.
Proof.
  intros Ex I g pos side v w G Lv P. destruct (Ex v Lv) as [e Le].
  destruct (I g pos side (v, e) w G Le P) as (g' & G' & A & B & C & D). exists g'. split; [exact G'|]. split; [exact A|].
  unfold with_encoding in *. destruct (one g pos) as [r q], (one g' pos) as [r' q']. cbn [fst snd c_real] in *.
  split; [exact B|]. split; [now injection C|]. destruct side; exact D.
Qed.
Lemma xor_hidden is_and : first_hidden (xor_request is_and) (fun _ => True).
Proof.
  apply first_hidden_of with (fun w => 0 <= w < two64).
  - apply xor_local.
  - intros g pos. unfold xor_request. cbn [fst snd c_pk]. reflexivity.
  - apply independent_plain with (decode := Z.lxor) (legal := xor_legal is_and); [|apply xor_independent].
    intros v _. exists 0. unfold xor_legal. cbn. destruct (if is_and then v else negb v); [reflexivity|]. unfold two64. lia.
  - intros g pos side G. unfold xor_request. cbn [fst share_of].
    destruct (if is_and then random_bool1 g pos else negb (random_bool1 g pos)), side; cbn [share_of c_0 c_1];
      try apply lxor_word; try (now apply u64_ok); unfold two64; lia.
Qed.

(** ** MAX, MIN *)
Lemma max_local is_max B : local (max_request is_max B).
Proof.
  intros g g' q q' E. unfold max_request. cbn [fst snd]. local_tac E. split; [reflexivity|].
  exists (1 + 2 * blocks (8 * (B + 1)))%nat. split; lia.
Qed.
Lemma map2_lxor_row B a b : row_ok B a -> row_ok B b -> row_ok B (map2 Z.lxor a b).
Proof.
  intros [La Fa] [Lb Fb]. split; [rewrite map2_length; lia|]. clear La Lb. revert b Fb.
  induction Fa as [|x a Hx Fa IH]; intros [|y b] Fb; cbn; try constructor; inversion Fb; subst.
  - now apply lxor_word.
  - now apply IH.
Qed.
Lemma map2_lxor_twice a b : length a = length b -> map2 Z.lxor (map2 Z.lxor a b) b = a.
Proof. revert b. induction a as [|x a IH]; intros [|y b] L; cbn in *; try lia; [reflexivity|]. rewrite IH by lia. now rewrite lxor_twice. Qed.
Lemma map2_lxor_diff a b : length a = length b -> map2 Z.lxor a (map2 Z.lxor a b) = b.
Proof.
  revert b. induction a as [|x a IH]; intros [|y b] L; cbn in *; try lia; [reflexivity|]. rewrite IH by lia.
  now rewrite <- Z.lxor_assoc, Z.lxor_nilpotent, Z.lxor_0_l.
Qed.
Lemma words_blocks ws : Forall (fun b => length b = 16%nat /\ Forall is_byte b) (to_blocks (bytes_of ws)).
Proof. apply to_blocks_ok, bytes_of_bytes. Qed.
Lemma max_independent is_max B : Z.of_nat B < two32 ->
  independent (with_encoding (map2 Z.lxor) (max_request is_max B)) (max_legal is_max B) (row_ok B).
Proof.
  intros HB. apply independent_splice. intros side [v e] w (Hv & He & Hz) Hw. cbn [fst snd] in *.
  set (s0 := if side then map2 Z.lxor w e else w).
  assert (R0 : row_ok B s0) by (unfold s0; destruct side; [now apply map2_lxor_row|exact Hw]).
  destruct He as [Le Fe]. destruct R0 as [L0 F0].
  assert (LB : forall ws : list Z, length ws = (B + 1)%nat -> length (to_blocks (bytes_of ws)) = blocks (8 * (B + 1))).
  { intros ws H. now rewrite to_blocks_length, bytes_of_length, H. }
  assert (Wv : 0 <= Z.of_nat v < two64) by (unfold two32, two64 in *; lia).
  exists (to_blocks (le_bytes 8 (Z.of_nat v)) ++ to_blocks (bytes_of e) ++ to_blocks (bytes_of s0)).
  split; [repeat (apply Forall_app; split); try apply words_blocks; apply word_blocks|].
  intros g pos rest G. cbv zeta.
  pose proof (splice_u64 g pos [] (Z.of_nat v) (to_blocks (bytes_of e) ++ to_blocks (bytes_of s0)) rest Wv) as E1.
  cbn [app length] in E1. rewrite Nat.add_0_r in E1.
  pose proof (splice_words g pos (to_blocks (le_bytes 8 (Z.of_nat v))) e (to_blocks (bytes_of s0)) rest Fe) as E2.
  rewrite word_blocks_length, Le in E2.
  pose proof (splice_words g pos (to_blocks (le_bytes 8 (Z.of_nat v)) ++ to_blocks (bytes_of e)) s0 [] rest F0) as E3.
  rewrite app_nil_r, <- app_assoc, app_length, word_blocks_length, LB, L0 in E3 by exact Le.
  set (g' := splice _ _ _ _) in *. unfold with_encoding, max_request. rewrite E1, E2.
  rewrite Nat.add_assoc in E3. rewrite E3. cbn [fst snd c_real c_0 c_1 share_of].
  rewrite Z.mod_small by (unfold two32 in HB; lia). rewrite Nat2Z.id.
  assert (EE : map (fun j => if ((if is_max then v else B - v) <? j)%nat then 0 else nth j e 0) (seq 0 (B + 1)) = e).
  { apply nth_ext with 0 0; [now rewrite map_length, seq_length|]. intros j Hj. rewrite map_length, seq_length in Hj.
    set (f := fun j => if ((if is_max then v else B - v) <? j)%nat then 0 else nth j e 0).
    rewrite (nth_indep _ _ (f 0%nat)) by now rewrite map_length, seq_length.
    rewrite map_nth, seq_nth by exact Hj. unfold f. cbn [Nat.add].
    destruct (Nat.ltb_spec (if is_max then v else (B - v)%nat) j); [|reflexivity].
    symmetry. now apply Hz. }
  rewrite EE. rewrite !app_length, word_blocks_length, (LB e Le), (LB s0 L0).
  split; [lia|]. split; [now rewrite map2_lxor_diff by congruence|].
  unfold s0. destruct side; cbn [share_of c_0 c_1]; [|reflexivity]. apply map2_lxor_twice. destruct Hw. congruence.
Qed.
Lemma max_hidden is_max B : Z.of_nat B < two32 -> first_hidden (max_request is_max B) (fun v => (v <= B)%nat).
Proof.
  intros HB. apply first_hidden_of with (row_ok B).
  - apply max_local.
  - intros g pos. reflexivity.
  - apply independent_plain with (decode := map2 Z.lxor) (legal := max_legal is_max B); [|now apply max_independent].
    intros v Hv. exists (repeat 0 (B + 1)). unfold max_legal, row_ok. cbn [fst snd]. split; [exact Hv|].
    split; [split; [apply repeat_length|]|].
    + apply Forall_forall. intros x Hx. apply repeat_spec in Hx. subst. unfold two64. lia.
    + intros j _. generalize (B + 1)%nat. clear. intros n. revert j. induction n as [|n IH]; intros [|j]; cbn; auto.
  - intros g pos side G. unfold max_request. cbn [fst share_of].
    set (s0 := random_words g (pos + 1 + _) _). assert (R0 : row_ok B s0) by (apply words_ok; exact G).
    destruct side; cbn [share_of c_0 c_1]; [|exact R0]. apply map2_lxor_row; [exact R0|]. split; [now rewrite map_length, seq_length|].
    apply Forall_forall. intros x Hx. apply in_map_iff in Hx as (j & <- & Hj). apply in_seq in Hj.
    destruct (_ <? j)%nat; [unfold two64; lia|]. destruct (words_ok g (pos + 1) (B + 1) G) as [L F]. rewrite Forall_forall in F.
    apply F, nth_In. lia.
Qed.

(** ** FREQ *)
Lemma flip_len v l : length (flip v l) = length l.
Proof. apply upd_length. Qed.
Lemma flip_twice v l : flip v (flip v l) = l.
Proof.
  unfold flip. destruct (Nat.lt_ge_cases v (length l)) as [H|H].
  - rewrite nth_upd_eq, negb_involutive by exact H. apply nth_ext with false false; [now rewrite !upd_length|].
    intros j Hj. destruct (Nat.eq_dec v j) as [->|N].
    + rewrite nth_upd_eq by (now rewrite upd_length). reflexivity.
    + now rewrite !nth_upd_neq.
  - assert (U : forall x, upd v x l = l).
    { clear -H. intros x. revert v H. induction l as [|y l IH]; intros [|v] H; cbn in *; try reflexivity; [lia|]. now rewrite IH by lia. }
    now rewrite !U.
Qed.
Lemma freq_local n : local (freq_request n).
Proof.
  intros g g' q q' E. unfold freq_request. cbn [fst snd]. local_tac E. split; [reflexivity|].
  exists (1 + blocks n)%nat. split; lia.
Qed.
Lemma freq_independent n : (0 < n)%nat -> Z.of_nat n <= two64 ->
  independent (freq_request n) (fun v => (v < n)%nat) (fun w => length w = n).
Proof.
  intros Hn H64. apply independent_splice. intros side v w Hv Hw.
  set (s0 := if side then flip v w else w). assert (L0 : length s0 = n) by (unfold s0; destruct side; [now rewrite flip_len|exact Hw]).
  assert (Wv : 0 <= Z.of_nat v < two64) by lia.
  exists (to_blocks (le_bytes 8 (Z.of_nat v)) ++ to_blocks (map b2z s0)).
  split; [apply Forall_app; split; [apply word_blocks|apply to_blocks_ok, b2z_bytes]|].
  intros g pos rest G. cbv zeta.
  pose proof (splice_u64 g pos [] (Z.of_nat v) (to_blocks (map b2z s0)) rest Wv) as E1. cbn [app length] in E1. rewrite Nat.add_0_r in E1.
  pose proof (splice_bools g pos (to_blocks (le_bytes 8 (Z.of_nat v))) s0 [] rest) as E2.
  rewrite app_nil_r, word_blocks_length, L0 in E2. set (g' := splice _ _ _ _) in *.
  unfold freq_request. rewrite E1, E2. cbn [fst snd c_real c_0 c_1 share_of].
  rewrite app_length, word_blocks_length, to_blocks_length, map_length, L0, Z.mod_small by lia. rewrite Nat2Z.id.
  split; [lia|]. split; [reflexivity|]. unfold s0. destruct side; cbn [share_of c_0 c_1]; [apply flip_twice|reflexivity].
Qed.
Lemma freq_hidden n : (0 < n)%nat -> Z.of_nat n <= two64 -> first_hidden (freq_request n) (fun v => (v < n)%nat).
Proof.
  intros Hn H64. apply first_hidden_of with (fun w => length w = n); auto using freq_local, freq_independent.
  - intros g pos. reflexivity.
  - intros g pos side G. unfold freq_request. cbn [fst]. destruct side; cbn [share_of c_0 c_1]; [rewrite flip_len|]; now apply bools_ok.
Qed.
