(** The masks that carry one private value into another: VAR, STDDEV and LINREG. *)
From Coq Require Import ZArith List Bool Lia.
From Verif Require Import ServerFacts CircuitFacts Words WordsFacts ClientFacts Constants Share Proc ProcFacts Net Poly SpecPoly Circuit SpecCircuit Snip SpecSnip
  ServerOps ClientOps SnipSums SpecStat StatReads StatProps StatClient SpecSecret SecretFacts SecretProof SpecPrivacy PrivacyExact SpecExact ExactFacts
  SpecStatPrivacy StatView StatPrivacy StatOps SpecStatExact StatExact StatPair.
Import ListNotations.
Open Scope Z_scope.
Local Notation P := Int_Modulus.
Opaque Int_Modulus Int_Gen init_roots Nat.pow.
Arguments Z.mul : simpl never.
Arguments Z.add : simpl never.
Arguments Z.modulo : simpl never.

(** ** Generators given by lists of blocks *)
Lemma data_ext g h pos n : (forall i, g i = h i) -> random_data g pos n = random_data h pos n.
Proof. intros E. apply random_data_local0. intros i. apply E. Qed.
Lemma u64_ext g h pos : (forall i, g i = h i) -> random_u64 g pos = random_u64 h pos.
Proof. intros E. unfold random_u64. now rewrite (data_ext g h). Qed.
Lemma words_ext g h pos n : (forall i, g i = h i) -> random_words g pos n = random_words h pos n.
Proof. intros E. unfold random_words. now rewrite (data_ext g h). Qed.
Lemma zeros_block : block (repeat 0 16).
Proof. split; [reflexivity|]. apply Forall_forall. intros x Hx. apply repeat_spec in Hx. subst. red. lia. Qed.
Lemma gen_list_blocks d t : Forall block d -> is_blocks (gen (d, t)).
Proof.
  intros F i. unfold gen, draw_tapes. cbn [fst]. destruct (Nat.lt_ge_cases i (length d)) as [H|H].
  - rewrite Forall_forall in F. apply F, nth_In, H.
  - rewrite nth_overflow by exact H. apply zeros_block.
Qed.
Lemma gen_xor d e t : length d = length e -> forall i, gen (xor_list d e, t) i = xor_tape (gen (d, t)) (gen (e, t)) i.
Proof.
  intros L i. unfold gen, draw_tapes, xor_tape, xor_list. cbn [fst]. revert e L i.
  induction d as [|b d IH]; intros [|b' e] L i; cbn in L; try lia; cbn [map2].
  - destruct i; reflexivity.
  - destruct i; cbn [nth]; [reflexivity|]. apply IH. lia.
Qed.
Lemma gen_splice e t i : gen (e, t) i = splice (fun _ => repeat 0 16) 0 e (fun _ => repeat 0 16) i.
Proof.
  unfold gen, draw_tapes, splice. cbn [fst]. rewrite (proj2 (Nat.ltb_ge i 0)) by lia. rewrite Nat.sub_0_r.
  destruct (nth_error e i) eqn:E; [now apply nth_error_nth|]. apply nth_overflow. now apply nth_error_None.
Qed.
Lemma list_words pre ws post t : Forall (fun w => 0 <= w < two64) ws ->
  random_words (gen (pre ++ to_blocks (bytes_of ws) ++ post, t)) (length pre) (length ws) = ws.
Proof.
  intros H. erewrite words_ext by apply gen_splice. exact (splice_words (fun _ => repeat 0 16) 0 pre ws post (fun _ => repeat 0 16) H).
Qed.
Lemma list_u64 pre w post t : 0 <= w < two64 -> random_u64 (gen (pre ++ to_blocks (le_bytes 8 w) ++ post, t)) (length pre) = w.
Proof.
  intros H. erewrite u64_ext by apply gen_splice. exact (splice_u64 (fun _ => repeat 0 16) 0 pre w post (fun _ => repeat 0 16) H).
Qed.
Lemma list_last pre t : gen (pre ++ [repeat 0 16], t) (length pre) = repeat 0 16.
Proof. unfold gen, draw_tapes. cbn [fst]. rewrite app_nth2 by lia. now rewrite Nat.sub_diag. Qed.

(** ** Exclusive or of the draws *)
Lemma map2_app {A B C} (f : A -> B -> C) a a' b b' : length a = length b -> map2 f (a ++ a') (b ++ b') = map2 f a b ++ map2 f a' b'.
Proof. revert b. induction a as [|x a IH]; intros [|y b] L; cbn in *; try lia; [reflexivity|]. now rewrite IH by lia. Qed.
Lemma data_xor g d pos n : is_blocks g -> is_blocks d ->
  random_data (xor_tape g d) pos n = map2 Z.lxor (random_data g pos n) (random_data d pos n).
Proof.
  intros G D. unfold random_data. rewrite map2_firstn. f_equal. generalize (blocks n). intros k. revert pos.
  induction k as [|k IH]; intros pos; [reflexivity|]. cbn [seq map concat]. rewrite IH, map2_app.
  - reflexivity.
  - destruct (G pos) as [-> _]. now destruct (D pos) as [-> _].
Qed.
Lemma skipn_map2 {A B C} (f : A -> B -> C) n : forall a b, skipn n (map2 f a b) = map2 f (skipn n a) (skipn n b).
Proof.
  induction n as [|n IH]; intros a b; [reflexivity|]. destruct a as [|x a]; [reflexivity|]. destruct b as [|y b].
  - cbn [skipn map2]. now destruct (skipn n a).
  - cbn [skipn map2]. apply IH.
Qed.
Lemma chunks_xor n : forall a b, length a = (8 * n)%nat -> length b = (8 * n)%nat -> Forall is_byte a -> Forall is_byte b ->
  map le_val (chunks n 8 (map2 Z.lxor a b)) = map2 Z.lxor (map le_val (chunks n 8 a)) (map le_val (chunks n 8 b)).
Proof.
  induction n as [|n IH]; intros a b La Lb Fa Fb; [reflexivity|]. cbn [chunks map map2]. f_equal.
  - rewrite <- map2_firstn. apply le_val_lxor; [rewrite !firstn_length; lia|now apply Forall_firstn'|now apply Forall_firstn'].
  - rewrite skipn_map2. apply IH; try (rewrite skipn_length; lia).
    + rewrite <- (firstn_skipn 8 a) in Fa. now apply Forall_app in Fa.
    + rewrite <- (firstn_skipn 8 b) in Fb. now apply Forall_app in Fb.
Qed.
Lemma words_xor g d pos n : is_blocks g -> is_blocks d ->
  random_words (xor_tape g d) pos n = map2 Z.lxor (random_words g pos n) (random_words d pos n).
Proof.
  intros G D. unfold random_words. rewrite data_xor by assumption. destruct (data_ok g pos (8 * n) G), (data_ok d pos (8 * n) D).
  now apply chunks_xor.
Qed.
Lemma map_mod_lxor n : forall a b, map (fun w => w mod 2 ^ Z.of_nat n) (map2 Z.lxor a b)
  = map2 Z.lxor (map (fun w => w mod 2 ^ Z.of_nat n) a) (map (fun w => w mod 2 ^ Z.of_nat n) b).
Proof. induction a as [|x a IH]; intros [|y b]; cbn [map map2]; try reflexivity. now rewrite lxor_mod, IH. Qed.

(** The segments of a mask: the difference for server 1's side, zeros for server 0's. *)
Definition diff (a b : list Z) : list Z := map2 Z.lxor a b.
Definition only (side : bool) (l : list Z) : list Z := if side then l else map (fun _ => 0) l.
Lemma diff_length a b : length a = length b -> length (diff a b) = length a.
Proof. intros E. unfold diff. rewrite map2_length, E. apply Nat.min_id. Qed.
Lemma only_length side l : length (only side l) = length l.
Proof. destruct side; cbn [only]; [reflexivity|apply map_length]. Qed.
Lemma diff_sym a b : length a = length b -> diff a b = diff b a.
Proof. unfold diff. revert b. induction a as [|x a IH]; intros [|y b] L; cbn in *; try lia; [reflexivity|]. now rewrite Z.lxor_comm, IH by lia. Qed.
Lemma diff_back a b : length a = length b -> map2 Z.lxor a (diff a b) = b.
Proof.
  unfold diff. revert b. induction a as [|x a IH]; intros [|y b] L; cbn in *; try lia; [reflexivity|]. rewrite IH by lia. f_equal.
  now rewrite <- Z.lxor_assoc, Z.lxor_nilpotent, Z.lxor_0_l.
Qed.
Lemma zeros_id (s : list Z) : forall l : list Z, length s = length l -> map2 Z.lxor s (map (fun _ => 0) l) = s.
Proof. induction s as [|x s IH]; intros [|y l] L; cbn in *; try lia; [reflexivity|]. now rewrite Z.lxor_0_r, IH by lia. Qed.
(** A share moved by [only side (diff a b)]. *)
Lemma share_moves (side : bool) s a b : length s = length a -> length a = length b ->
  let s' := map2 Z.lxor s (only side (diff a b)) in
  (if side then map2 Z.lxor s' b else s') = (if side then map2 Z.lxor s a else s).
Proof.
  intros L1 L2 s'. unfold s'. destruct side; cbn [only].
  - clear s'. revert a b L1 L2. induction s as [|x s IH]; intros [|y a] [|z b] L1 L2; cbn in *; try lia; [reflexivity|].
    unfold diff in IH. rewrite (IH a b) by lia. f_equal.
    rewrite !Z.lxor_assoc. f_equal. now rewrite Z.lxor_nilpotent, Z.lxor_0_r.
  - apply zeros_id. rewrite diff_length; congruence.
Qed.
Definition only1 (side : bool) (w : Z) : Z := if side then w else 0.
Lemma share_moves1 (side : bool) s a b :
  let s' := Z.lxor s (only1 side (Z.lxor a b)) in (if side then Z.lxor s' b else s') = (if side then Z.lxor s a else s).
Proof. destruct side; cbn [only1]; [|apply Z.lxor_0_r]. rewrite !Z.lxor_assoc. f_equal. now rewrite Z.lxor_nilpotent, Z.lxor_0_r. Qed.
Lemma below_only M side l : 0 < M -> below M l -> below M (only side l).
Proof. intros HM B. destruct side; cbn [only]; [exact B|]. apply Forall_forall. intros z Hz. apply in_map_iff in Hz as (? & <- & _). lia. Qed.

(** ** VAR, STDDEV *)
Section Var.
  Variable nb : nat.
  Hypothesis Hn : (nb <= 31)%nat.
  Let M := 2 ^ Z.of_nat nb.
  Definition var_val (g : prg) : Z := random_u64 g 0 mod 2 ^ Z.of_nat nb.
  Definition var_key (g : prg) : list Z := make_pk g 3.
  Definition var_inp (v : Z) : list Z := [v; u64 (v * v)].
  Definition var_sh (side : bool) (g : prg) : Z * Z :=
    let s := random_u64 g 1 mod 2 ^ Z.of_nat nb in let s2 := random_u64 g 2 mod u64 (2 ^ Z.of_nat nb * 2 ^ Z.of_nat nb) in
    let v := var_val g in
    (if side then Z.lxor s v else s, if side then Z.lxor s2 (u64 (v * v)) else s2).
  Definition var_legal (v : Z) : Prop := 0 <= v < 2 ^ Z.of_nat nb.
  Definition word_block (w : Z) : list (list Z) := to_blocks (le_bytes 8 w).
  Definition var_mask (side : bool) (v v' : Z) : list (list Z) :=
    word_block (Z.lxor v v') ++ word_block (only1 side (Z.lxor v v')) ++ word_block (only1 side (Z.lxor (u64 (v * v)) (u64 (v' * v')))) ++ [repeat 0 16].

  Lemma var_form : one_form CheckVar var_inp (var_request (2 ^ Z.of_nat nb)) var_val var_key var_sh 3.
  Proof. intros g T _. reflexivity. Qed.
  Lemma var_val_legal g : is_blocks g -> var_legal (var_val g).
  Proof. intros _. apply Z.mod_pos_bound. apply Z.pow_pos_nonneg; lia. Qed.
  Lemma var_mask_ok : mask_ok var_blocks var_legal var_val var_key var_sh var_mask.
  Proof.
    intros side v v' Hv Hv'. pose proof (u64_max nb Hn) as UM.
    assert (HM2 : 0 < 2 ^ Z.of_nat (2 * nb) < two64) by now apply pow_small.
    assert (EM : 2 ^ Z.of_nat (2 * nb) = M * M) by (unfold M; rewrite <- Z.pow_add_r by lia; f_equal; lia).
    assert (MM : M < two64) by (apply Z.le_lt_trans with (2 ^ 31); [apply Z.pow_le_mono_r; lia|reflexivity]).
    unfold var_legal in Hv, Hv'. fold M in Hv, Hv'.
    assert (S1 : u64 (v * v) = v * v /\ 0 <= v * v < M * M) by (apply u64_prod; auto; lia).
    assert (S2 : u64 (v' * v') = v' * v' /\ 0 <= v' * v' < M * M) by (apply u64_prod; auto; lia).
    set (a := Z.lxor v v'). set (b := Z.lxor (u64 (v * v)) (u64 (v' * v'))).
    assert (Ra : 0 <= a < M) by (apply lxor_lt; assumption).
    assert (Rb : 0 <= b < 2 ^ Z.of_nat (2 * nb)) by (unfold b; rewrite (proj1 S1), (proj1 S2); apply lxor_lt; rewrite EM; tauto).
    assert (Ra1 : 0 <= only1 side a < M) by (destruct side; cbn [only1]; lia).
    assert (Rb1 : 0 <= only1 side b < 2 ^ Z.of_nat (2 * nb)) by (destruct side; cbn [only1]; lia).
    assert (B : Forall block (var_mask side v v')).
    { unfold var_mask. fold a b. repeat (apply Forall_app; split; [apply word_blocks|]). constructor; [exact zeros_block|constructor]. }
    assert (L : length (var_mask side v v') = var_blocks) by reflexivity.
    split; [exact L|]. split; [exact B|]. split.
    { unfold var_mask. now rewrite (Z.lxor_comm v v'), (Z.lxor_comm (u64 (v * v))). }
    intros d t' Ld Fd EV. cbv zeta. set (e := var_mask side v v') in *.
    assert (GX : forall i, gen (xor_list d e, t') i = xor_tape (gen (d, t')) (gen (e, t')) i) by (apply gen_xor; congruence).
    pose proof (gen_list_blocks d t' Fd) as GB. pose proof (gen_list_blocks e t' B) as EB.
    pose proof (list_u64 [] a (word_block (only1 side a) ++ word_block (only1 side b) ++ [repeat 0 16]) t' ltac:(lia)) as E0.
    pose proof (list_u64 (word_block a) (only1 side a) (word_block (only1 side b) ++ [repeat 0 16]) t' ltac:(lia)) as E1.
    pose proof (list_u64 (word_block a ++ word_block (only1 side a)) (only1 side b) [repeat 0 16] t' ltac:(lia)) as E2.
    rewrite <- app_assoc in E2.
    change (random_u64 (gen (e, t')) 0 = a) in E0. change (random_u64 (gen (e, t')) 1 = only1 side a) in E1. change (random_u64 (gen (e, t')) 2 = only1 side b) in E2.
    assert (VV : var_val (gen (xor_list d e, t')) = v').
    { unfold var_val. rewrite (u64_ext _ _ 0 GX), u64_xor, E0, lxor_mod by assumption. unfold var_val in EV. rewrite EV.
      rewrite (Z.mod_small a) by exact Ra. unfold a. now rewrite <- Z.lxor_assoc, Z.lxor_nilpotent, Z.lxor_0_l. }
    split; [exact VV|]. split.
    - unfold var_key, make_pk. rewrite GX. unfold xor_tape. replace (gen (e, t') 3%nat) with (repeat 0 16) by reflexivity.
      now rewrite xor_zero_block by apply GB.
    - unfold var_sh. cbv zeta. rewrite VV, EV, (u64_ext _ _ 1 GX), (u64_ext _ _ 2 GX), !u64_xor, E1, E2, UM, !lxor_mod by assumption.
      rewrite (Z.mod_small (only1 side a)), (Z.mod_small (only1 side b)) by assumption. unfold a, b. f_equal; apply share_moves1.
  Qed.
End Var.

(** ** LINREG *)
Section Linreg.
  Variables nb degree : nat.
  Hypothesis Hn : (nb <= 31)%nat.
  Hypothesis Hd : (1 <= degree)%nat.
  Let M := 2 ^ Z.of_nat nb.
  Let nx := num_x degree.
  Let nq := num_quad degree.
  Let bx := blocks (8 * nx).
  Let bq := blocks (8 * nq).
  Definition lin_val (g : prg) : list Z * Z :=
    (map (fun w => w mod 2 ^ Z.of_nat nb) (random_words g 0 (num_x degree)),
     random_u64 g (3 * blocks (8 * num_x degree) + blocks (8 * num_quad degree)) mod 2 ^ Z.of_nat nb).
  Definition lin_key (g : prg) : list Z := make_pk g (3 * blocks (8 * num_x degree) + blocks (8 * num_quad degree) + 2).
  Definition lin_x2 (v : list Z * Z) : list Z := map (fun jk => u64 (nth (fst jk) (fst v) 0 * nth (snd jk) (fst v) 0)) (linreg_pairs (num_x degree)).
  Definition lin_xy (v : list Z * Z) : list Z := map (fun x => u64 (x * snd v)) (fst v).
  Definition lin_inp (v : list Z * Z) : list Z := fst v ++ snd v :: lin_x2 v ++ lin_xy v.
  Definition lin_sh (side : bool) (g : prg) : linreg_vals :=
    let sq := u64 (2 ^ Z.of_nat nb * 2 ^ Z.of_nat nb) in
    let bx := blocks (8 * num_x degree) in let bq := blocks (8 * num_quad degree) in
    let v := lin_val g in
    let sx := map (fun w => w mod 2 ^ Z.of_nat nb) (random_words g bx (num_x degree)) in
    let sx2 := map (fun w => w mod sq) (random_words g (2 * bx) (num_quad degree)) in
    let sxy := map (fun w => w mod sq) (random_words g (2 * bx + bq) (num_x degree)) in
    let sy := random_u64 g (3 * bx + bq + 1) mod 2 ^ Z.of_nat nb in
    (if side then map2 Z.lxor sx (fst v) else sx, if side then Z.lxor sy (snd v) else sy,
     if side then map2 Z.lxor sx2 (lin_x2 v) else sx2, if side then map2 Z.lxor sxy (lin_xy v) else sxy).
  Definition seg (ws : list Z) : list (list Z) := to_blocks (bytes_of ws).
  Definition lin_mask (side : bool) (v v' : list Z * Z) : list (list Z) :=
    seg (diff (fst v) (fst v')) ++ seg (only side (diff (fst v) (fst v'))) ++ seg (only side (diff (lin_x2 v) (lin_x2 v'))) ++
    seg (only side (diff (lin_xy v) (lin_xy v'))) ++ word_block (Z.lxor (snd v) (snd v')) ++ word_block (only1 side (Z.lxor (snd v) (snd v'))) ++ [repeat 0 16].

  Lemma lin_form : one_form (CheckLinReg degree) lin_inp (linreg_request degree (2 ^ Z.of_nat nb)) lin_val lin_key lin_sh
    (3 * blocks (8 * num_x degree) + blocks (8 * num_quad degree) + 2).
  Proof. intros g T _. reflexivity. Qed.
  Lemma lin_val_legal g : is_blocks g -> legal_linreg nb degree (lin_val g).
  Proof.
    intros G. assert (0 < 2 ^ Z.of_nat nb) by (apply Z.pow_pos_nonneg; lia).
    split; [|split]; cbn [lin_val fst snd].
    - rewrite map_length. apply (words_ok g 0 nx G).
    - apply Forall_forall. intros z Hz. apply in_map_iff in Hz as (w & <- & _). now apply Z.mod_pos_bound.
    - now apply Z.mod_pos_bound.
  Qed.
  Lemma seg_length ws n : length ws = n -> length (seg ws) = blocks (8 * n).
  Proof. intros <-. unfold seg. now rewrite to_blocks_length, bytes_of_length. Qed.
  Lemma lin_parts v : legal_linreg nb degree v -> length (fst v) = nx /\ below M (fst v) /\ 0 <= snd v < M /\
    length (lin_x2 v) = nq /\ below (2 ^ Z.of_nat (2 * nb)) (lin_x2 v) /\ length (lin_xy v) = nx /\ below (2 ^ Z.of_nat (2 * nb)) (lin_xy v).
  Proof.
    intros (Lx & Bx & Hy). change (2 ^ Z.of_nat nb) with M in Bx, Hy. assert (HM2 : 0 < 2 ^ Z.of_nat (2 * nb) < two64) by now apply pow_small.
    assert (EM : 2 ^ Z.of_nat (2 * nb) = M * M) by (unfold M; rewrite <- Z.pow_add_r by lia; f_equal; lia).
    assert (Nx : forall i, 0 <= nth i (fst v) 0 < M).
    { intros i. destruct (Nat.lt_ge_cases i (length (fst v))) as [H|H].
      - unfold below in Bx. rewrite Forall_forall in Bx. apply Bx, nth_In, H.
      - rewrite nth_overflow by exact H. lia. }
    split; [exact Lx|]. split; [exact Bx|]. split; [exact Hy|]. split; [|split; [|split]].
    - unfold lin_x2. rewrite map_length. apply linreg_pairs_length.
    - apply Forall_forall. intros z Hz. apply in_map_iff in Hz as (jk & <- & _).
      destruct (u64_prod M _ _ (Nx (fst jk)) (Nx (snd jk)) ltac:(lia)) as [-> H]. lia.
    - unfold lin_xy. now rewrite map_length.
    - apply Forall_forall. intros z Hz. apply in_map_iff in Hz as (a & <- & Ha). unfold below in Bx. rewrite Forall_forall in Bx.
      destruct (u64_prod M a (snd v) (Bx a Ha) Hy ltac:(lia)) as [-> H]. lia.
  Qed.
  Lemma lin_mask_ok : mask_ok (linreg_blocks degree) (legal_linreg nb degree) lin_val lin_key lin_sh lin_mask.
  Proof.
    intros side v v' Hv Hv'. pose proof (u64_max nb Hn) as UM.
    assert (HM2 : 0 < 2 ^ Z.of_nat (2 * nb) < two64) by now apply pow_small.
    assert (MM : 0 < M < two64).
    { split; [apply Z.pow_pos_nonneg; lia|]. apply Z.le_lt_trans with (2 ^ 31); [apply Z.pow_le_mono_r; lia|reflexivity]. }
    destruct (lin_parts v Hv) as (L1 & B1 & Y1 & L2 & B2 & L3 & B3). destruct (lin_parts v' Hv') as (L1' & B1' & Y1' & L2' & B2' & L3' & B3').
    set (dx := diff (fst v) (fst v')). set (dx2 := diff (lin_x2 v) (lin_x2 v')). set (dxy := diff (lin_xy v) (lin_xy v')). set (dy := Z.lxor (snd v) (snd v')).
    assert (Ldx : length dx = nx) by (unfold dx; rewrite diff_length; congruence).
    assert (Ldx2 : length dx2 = nq) by (unfold dx2; rewrite diff_length; congruence).
    assert (Ldxy : length dxy = nx) by (unfold dxy; rewrite diff_length; congruence).
    assert (Bdx : below M dx) by (apply below_lxor; congruence || assumption).
    assert (Bdx2 : below (2 ^ Z.of_nat (2 * nb)) dx2) by (apply below_lxor; congruence || assumption).
    assert (Bdxy : below (2 ^ Z.of_nat (2 * nb)) dxy) by (apply below_lxor; congruence || assumption).
    assert (Rdy : 0 <= dy < M) by (apply lxor_lt; assumption).
    assert (Bo : forall b l, 0 < b -> below b l -> b < two64 -> below b (only side l) /\ Forall (fun w => 0 <= w < two64) (only side l)).
    { intros b l H0 Bl H. pose proof (below_only b side l H0 Bl) as X. split; [exact X|]. eapply below_words; [|exact X]. lia. }
    destruct (Bo _ _ (proj1 MM) Bdx (proj2 MM)) as [Bo1 W1]. destruct (Bo _ _ (proj1 HM2) Bdx2 (proj2 HM2)) as [Bo2 W2].
    destruct (Bo _ _ (proj1 HM2) Bdxy (proj2 HM2)) as [Bo3 W3].
    assert (W0 : Forall (fun w => 0 <= w < two64) dx) by (eapply below_words; [|exact Bdx]; lia).
    assert (Ro : 0 <= only1 side dy < M) by (destruct side; cbn [only1]; lia).
    set (s1 := seg dx). set (s2 := seg (only side dx)). set (s3 := seg (only side dx2)). set (s4 := seg (only side dxy)).
    set (s5 := word_block dy). set (s6 := word_block (only1 side dy)). set (s7 := [repeat 0 16]).
    assert (K1 : length s1 = bx) by (now apply seg_length).
    assert (K2 : length s2 = bx) by (apply seg_length; now rewrite only_length).
    assert (K3 : length s3 = bq) by (apply seg_length; now rewrite only_length).
    assert (K4 : length s4 = bx) by (apply seg_length; now rewrite only_length).
    assert (K5 : length s5 = 1%nat) by apply word_blocks_length.
    assert (K6 : length s6 = 1%nat) by apply word_blocks_length.
    assert (EE : lin_mask side v v' = s1 ++ s2 ++ s3 ++ s4 ++ s5 ++ s6 ++ s7) by reflexivity.
    assert (B : Forall block (lin_mask side v v')).
    { rewrite EE. repeat (apply Forall_app; split; [first [apply words_blocks|apply word_blocks]|]). constructor; [exact zeros_block|constructor]. }
    assert (L : length (lin_mask side v v') = linreg_blocks degree).
    { rewrite EE, !app_length, K1, K2, K3, K4, K5, K6. unfold linreg_blocks. fold nx nq bx bq. cbn [s7 length]. lia. }
    split; [exact L|]. split; [exact B|]. split.
    { unfold lin_mask. rewrite (diff_sym (fst v) (fst v')), (diff_sym (lin_x2 v)), (diff_sym (lin_xy v)), (Z.lxor_comm (snd v)) by congruence. reflexivity. }
    intros d t' Ld Fd EV. cbv zeta. set (e := lin_mask side v v') in *.
    assert (GX : forall i, gen (xor_list d e, t') i = xor_tape (gen (d, t')) (gen (e, t')) i) by (apply gen_xor; congruence).
    pose proof (gen_list_blocks d t' Fd) as GB. pose proof (gen_list_blocks e t' B) as EB.
    assert (E1 : random_words (gen (e, t')) 0 nx = dx).
    { rewrite EE, <- Ldx. exact (list_words [] dx (s2 ++ s3 ++ s4 ++ s5 ++ s6 ++ s7) t' W0). }
    assert (E2 : random_words (gen (e, t')) bx nx = only side dx).
    { rewrite EE, <- Ldx, <- (only_length side dx), <- K1. exact (list_words s1 (only side dx) (s3 ++ s4 ++ s5 ++ s6 ++ s7) t' W1). }
    assert (E3 : random_words (gen (e, t')) (2 * bx) nq = only side dx2).
    { rewrite EE. pose proof (list_words (s1 ++ s2) (only side dx2) (s4 ++ s5 ++ s6 ++ s7) t' W2) as H.
      rewrite app_length, K1, K2, only_length, Ldx2, <- app_assoc in H. replace (bx + bx)%nat with (2 * bx)%nat in H by lia. exact H. }
    assert (E4 : random_words (gen (e, t')) (2 * bx + bq) nx = only side dxy).
    { rewrite EE. pose proof (list_words (s1 ++ s2 ++ s3) (only side dxy) (s5 ++ s6 ++ s7) t' W3) as H.
      rewrite !app_length, K1, K2, K3, only_length, Ldxy, <- !app_assoc in H. replace (bx + (bx + bq))%nat with (2 * bx + bq)%nat in H by lia. exact H. }
    assert (E5 : random_u64 (gen (e, t')) (3 * bx + bq) = dy).
    { rewrite EE. pose proof (list_u64 (s1 ++ s2 ++ s3 ++ s4) dy (s6 ++ s7) t' ltac:(lia)) as H.
      rewrite !app_length, K1, K2, K3, K4, <- !app_assoc in H. replace (bx + (bx + (bq + bx)))%nat with (3 * bx + bq)%nat in H by lia. exact H. }
    assert (E6 : random_u64 (gen (e, t')) (3 * bx + bq + 1) = only1 side dy).
    { rewrite EE. pose proof (list_u64 (s1 ++ s2 ++ s3 ++ s4 ++ s5) (only1 side dy) s7 t' ltac:(lia)) as H.
      rewrite !app_length, K1, K2, K3, K4, K5, <- !app_assoc in H. replace (bx + (bx + (bq + (bx + 1))))%nat with (3 * bx + bq + 1)%nat in H by lia. exact H. }
    assert (E7 : gen (e, t') (3 * bx + bq + 2)%nat = repeat 0 16).
    { rewrite EE. pose proof (list_last (s1 ++ s2 ++ s3 ++ s4 ++ s5 ++ s6) t') as H.
      rewrite !app_length, K1, K2, K3, K4, K5, K6, <- !app_assoc in H. replace (bx + (bx + (bq + (bx + (1 + 1)))))%nat with (3 * bx + bq + 2)%nat in H by lia. exact H. }
    destruct (words_ok (gen (d, t')) bx nx GB) as [Q2 _]. destruct (words_ok (gen (d, t')) (2 * bx) nq GB) as [Q3 _].
    destruct (words_ok (gen (d, t')) (2 * bx + bq) nx GB) as [Q4 _].
    assert (VV : lin_val (gen (xor_list d e, t')) = v').
    { unfold lin_val in EV |- *. fold nx nq bx bq M in EV |- *. destruct v as [x y], v' as [x' y']. cbn [fst snd] in *. pose proof (f_equal fst EV) as EX. pose proof (f_equal snd EV) as EY. cbn [fst snd] in EX, EY.
      rewrite (words_ext _ _ 0 nx GX), (u64_ext _ _ _ GX), words_xor, u64_xor, E1, E5 by assumption. unfold M at 1 2. rewrite map_mod_lxor, lxor_mod. fold M.
      rewrite EX, EY, (Z.mod_small dy), map_mod_below by assumption. f_equal.
      - apply diff_back. congruence.
      - unfold dy. now rewrite <- Z.lxor_assoc, Z.lxor_nilpotent, Z.lxor_0_l. }
    split; [exact VV|]. split.
    - unfold lin_key, make_pk. fold nx nq bx bq. rewrite GX. unfold xor_tape. rewrite E7. now rewrite xor_zero_block by apply GB.
    - unfold lin_sh. cbv zeta. rewrite VV, EV. fold nx nq bx bq.
      rewrite !(words_ext _ _ _ _ GX), (u64_ext _ _ _ GX), !words_xor, u64_xor, E2, E3, E4, E6, UM, !map_mod_lxor, lxor_mod by assumption.
      fold M. rewrite (Z.mod_small (only1 side dy)), !(map_mod_below _ (only side _)) by assumption.
      repeat (apply f_equal2); [| | |].
      + apply share_moves; rewrite ?map_length; congruence.
      + apply share_moves1.
      + apply share_moves; rewrite ?map_length; congruence.
      + apply share_moves; rewrite ?map_length; congruence.
  Qed.
End Linreg.
