(** * Proofs about circuits *)
From Coq Require Import ZArith List Bool Lia Arith.
From Verif Require Import Words WordsFacts Constants Share Cong ShareFacts Circuit SpecCircuit.
Import ListNotations.
Open Scope Z_scope.
Arguments Z.mul : simpl never.
Arguments Z.add : simpl never.
Arguments Z.modulo : simpl never.

(** ** Basic facts about the evaluation loops *)

Definition is_inputb (g : gate) : bool := match g with GInput => true | _ => false end.
Definition num_inp (gs : list gate) : nat := length (filter is_inputb gs).

Lemma eval_loop_app gs gs' inps : forall k w,
  eval_loop (gs ++ gs') inps k w =
  eval_loop gs' inps (k + num_inp gs) (eval_loop gs inps k w).
Proof.
  induction gs as [|g gs IH]; intros k w; cbn [app eval_loop num_inp filter length].
  - now rewrite Nat.add_0_r.
  - destruct g; cbn [is_inputb]; rewrite IH; unfold num_inp; cbn [filter is_inputb length];
      f_equal; lia.
Qed.

Lemma eval_loop_prefix gs inps : forall k w, exists v,
  eval_loop gs inps k w = w ++ v /\ length v = length gs.
Proof.
  induction gs as [|g gs IH]; intros k w; cbn [eval_loop].
  - exists []. now rewrite app_nil_r.
  - destruct g;
      match goal with |- context [eval_loop gs inps ?k' ?w'] =>
        destruct (IH k' w') as (v & -> & L) end;
      rewrite <- app_assoc; eexists; (split; [reflexivity|cbn; lia]).
Qed.

Lemma eval_wires_length c inps : length (eval_wires c inps) = length (gates c).
Proof.
  unfold eval_wires. destruct (eval_loop_prefix (gates c) inps 0 []) as (v & -> & L). exact L.
Qed.

Lemma eval_inputs n inps : forall k w, (k + n = length inps)%nat ->
  eval_loop (repeat GInput n) inps k w = w ++ skipn k inps.
Proof.
  induction n as [|n IH]; intros k w H; cbn [repeat eval_loop].
  - rewrite skipn_all2 by lia. now rewrite app_nil_r.
  - rewrite IH by lia. rewrite <- app_assoc. f_equal. cbn.
    clear IH w. revert k H. induction inps as [|x inps IH]; intros k H; cbn in H; [lia|].
    destruct k; [reflexivity|]. cbn [nth skipn]. apply IH. lia.
Qed.

Lemma nth_app_l {A} i (l m : list A) d : (i < length l)%nat -> nth i (l ++ m) d = nth i l d.
Proof. intros. now apply app_nth1. Qed.

(** ** The checks *)

Definition check_ok (inps : list Z) (ijk : nat * nat * nat) : bool :=
  let '(i, j, k) := ijk in
  (nth i inps 0 * nth j inps 0) mod p =? nth k inps 0 mod p.

Lemma neg_add_zero a b : (((a mod p) + (b * ((-1) mod p)) mod p) mod p =? 0) = (a mod p =? b mod p).
Proof.
  pose proof p_pos as Hp.
  assert (E : cong p (((a mod p) + (b * ((-1) mod p)) mod p) mod p) (a - b))
    by (demod; cong_ring).
  destruct (Z.eqb_spec (a mod p) (b mod p)) as [H|H];
    [apply Z.eqb_eq|apply Z.eqb_neq]; unfold cong in *.
  - apply cong_iff in H. apply (cong_small p); [apply Z.mod_pos_bound; lia|lia|].
    destruct E as [k E], H as [k' H]. exists (k + k'). lia.
  - intros H0. apply H, cong_iff. rewrite H0 in E. destruct E as [k E]. exists (- k). lia.
Qed.

Lemma add_check_wires c inps i j k :
  (i < length (gates c))%nat -> (j < length (gates c))%nat -> (k < length (gates c))%nat ->
  let w := eval_wires c inps in
  eval_wires (AddCheckMulEqual c (i, j, k)) inps =
  w ++ [(nth i w 0 * nth j w 0) mod p; (nth k w 0 * ((-1) mod p)) mod p;
        ((nth i w 0 * nth j w 0) mod p + (nth k w 0 * ((-1) mod p)) mod p) mod p].
Proof.
  intros Hi Hj Hk w. unfold eval_wires, AddCheckMulEqual. cbn [gates].
  rewrite eval_loop_app. fold (eval_wires c inps). fold w.
  assert (L : length w = length (gates c)) by apply eval_wires_length.
  cbn [eval_loop MulByNegOne].
  rewrite (nth_app_l k) by lia.
  rewrite <- !app_assoc. cbn [app].
  rewrite !app_nth2 by lia. rewrite L, Nat.sub_diag.
  replace (length (gates c) + 1 - length (gates c))%nat with 1%nat by lia. reflexivity.
Qed.

Lemma forallb_ext_in {A} (f g : A -> bool) l :
  (forall x, In x l -> f x = g x) -> forallb f l = forallb g l.
Proof.
  intros H. induction l as [|x l IH]; [reflexivity|]. cbn. rewrite H by now left.
  f_equal. apply IH. intros; apply H. now right.
Qed.

(** Adding checks on inputs only: acceptance is the conjunction. *)
Lemma checks_eval n inps checks : length inps = n ->
  Forall (fun ijk => let '(i, j, k) := ijk in (i < n /\ j < n /\ k < n)%nat) checks ->
  forall c, (n <= length (gates c))%nat ->
  firstn n (eval_wires c inps) = inps ->
  Forall (fun z => (z < length (gates c))%nat) (result_zero c) ->
  Eval (fold_left AddCheckMulEqual checks c) inps = Eval c inps && forallb (check_ok inps) checks.
Proof.
  intros Ln. induction checks as [|[[i j] k] checks IH]; intros F c Hn Hw Hz; cbn [fold_left forallb].
  - now rewrite andb_true_r.
  - inversion F as [|? ? Hijk F']; subst x l. destruct Hijk as (Hi & Hj & Hk).
    pose proof (add_check_wires c inps i j k ltac:(lia) ltac:(lia) ltac:(lia)) as W.
    cbv zeta in W.
    assert (L : length (eval_wires c inps) = length (gates c)) by apply eval_wires_length.
    assert (N : forall t, (t < n)%nat -> nth t (eval_wires c inps) 0 = nth t inps 0).
    { intros t Ht. rewrite <- Hw at 2. rewrite <- (firstn_skipn n (eval_wires c inps)) at 1.
      rewrite app_nth1; auto. rewrite firstn_length. lia. }
    rewrite IH; auto.
    + rewrite andb_assoc. f_equal. unfold Eval. rewrite W.
      cbn [AddCheckMulEqual result_zero]. rewrite forallb_app. f_equal.
      * apply forallb_ext_in. intros z Hz'. rewrite nth_app_l; auto.
        rewrite Forall_forall in Hz. rewrite L. auto.
      * cbn [forallb]. rewrite andb_true_r. rewrite app_nth2 by lia. rewrite L.
        replace (length (gates c) + 2 - length (gates c))%nat with 2%nat by lia. cbn [nth].
        rewrite neg_add_zero. unfold check_ok. now rewrite !N by lia.
    + cbn. rewrite app_length. lia.
    + rewrite W. rewrite firstn_app. rewrite L.
      replace (n - length (gates c))%nat with 0%nat by lia. cbn [firstn]. now rewrite app_nil_r.
    + cbn [AddCheckMulEqual result_zero gates]. rewrite app_length. apply Forall_app. split.
      * eapply Forall_impl; [|exact Hz]. cbn. lia.
      * constructor; [cbn; lia|constructor].
Qed.

Lemma checks_inputs n inps checks : length inps = n ->
  Forall (fun ijk => let '(i, j, k) := ijk in (i < n /\ j < n /\ k < n)%nat) checks ->
  Eval (fold_left AddCheckMulEqual checks (Circuit_inputs n)) inps = forallb (check_ok inps) checks.
Proof.
  intros L F. rewrite (checks_eval n); auto.
  - cbn. rewrite repeat_length. lia.
  - unfold eval_wires. cbn [Circuit_inputs gates]. rewrite eval_inputs by lia. cbn [app].
    rewrite skipn_O. subst n. apply firstn_all.
  - constructor.
Qed.

Lemma nth_map_in {A B} (f : A -> B) l t d d' : (t < length l)%nat ->
  nth t (map f l) d' = f (nth t l d).
Proof.
  intros H. rewrite (nth_indep _ d' (f d)) by (now rewrite map_length). apply map_nth.
Qed.

(** C20, variance *)
Lemma check_var_lemma x y : Eval CheckVar [x; y] = true <-> y mod p = (x * x) mod p.
Proof.
  unfold CheckVar. change (AddCheckMulEqual (Circuit_inputs 2) (0, 0, 1)%nat)
    with (fold_left AddCheckMulEqual [(0, 0, 1)%nat] (Circuit_inputs 2)).
  rewrite checks_inputs by (auto; repeat constructor).
  cbn [forallb check_ok nth]. rewrite andb_true_r, Z.eqb_eq. split; auto.
Qed.

(** ** The regression circuit *)

Lemma map_nth_seq_skip (f : Z -> Z) (xs : list Z) s : forall n, (n = length xs - s)%nat ->
  map (fun j => f (nth j xs 0)) (seq s n) = map f (skipn s xs).
Proof.
  intros n ->. revert xs. induction s as [|s IH]; intros xs.
  - rewrite Nat.sub_0_r, skipn_O. induction xs as [|x xs IHx]; [reflexivity|].
    cbn [length seq map nth]. f_equal. rewrite <- seq_shift, map_map. apply IHx.
  - destruct xs as [|x xs]; [reflexivity|]. cbn [length skipn Nat.sub].
    rewrite <- IH. rewrite <- seq_shift, map_map. reflexivity.
Qed.

Lemma products_pairs xs :
  products xs = map (fun ij => (nth (fst ij) xs 0 * nth (snd ij) xs 0) mod p) (linreg_pairs (length xs)).
Proof.
  enough (H : forall n s, (s + n = length xs)%nat ->
    products (skipn s xs) =
    map (fun ij => (nth (fst ij) xs 0 * nth (snd ij) xs 0) mod p)
      (flat_map (fun i => map (fun j => (i, j)) (seq i (length xs - i))) (seq s n))).
  { unfold linreg_pairs. rewrite <- (H (length xs) 0%nat) by lia. now rewrite skipn_O. }
  induction n as [|n IH]; intros s Hs; cbn [seq flat_map].
  - rewrite skipn_all2 by lia. reflexivity.
  - rewrite map_app, map_map. cbn [fst snd].
    rewrite (map_nth_seq_skip (fun z => (nth s xs 0 * z) mod p)) by reflexivity.
    rewrite <- IH by lia.
    assert (E : skipn s xs = nth s xs 0 :: skipn (S s) xs).
    { clear - Hs. revert xs Hs. induction s as [|s IH]; intros [|x xs] Hs; cbn in Hs; try lia; auto.
      cbn [skipn nth]. apply IH. lia. }
    rewrite E at 1. cbn [products]. rewrite <- E. reflexivity.
Qed.

Lemma linreg_pairs_length n : length (linreg_pairs n) = (n * (n + 1) / 2)%nat.
Proof.
  enough (H : forall m s, (s + m = n)%nat ->
    (2 * length (flat_map (fun i => map (fun j => (i, j)) (seq i (n - i))) (seq s m)) =
     m * (m + 1))%nat).
  { specialize (H n 0%nat eq_refl). fold (linreg_pairs n) in H.
    rewrite <- H. rewrite Nat.mul_comm, Nat.div_mul; lia. }
  induction m as [|m IH]; intros s Hs; cbn [seq flat_map]; [reflexivity|].
  rewrite app_length, map_length, seq_length, Nat.mul_add_distr_l, IH by lia.
  replace (n - s)%nat with (S m) by lia. lia.
Qed.

Lemma linreg_pairs_range n : Forall (fun ij => (fst ij < n /\ snd ij < n)%nat) (linreg_pairs n).
Proof.
  apply Forall_forall. intros [i j] H. unfold linreg_pairs in H.
  apply in_flat_map in H as (a & Ha & H). apply in_map_iff in H as (b & E & Hb).
  inversion E; subst. apply in_seq in Ha, Hb. cbn. lia.
Qed.

Lemma forallb_map2_seq {A} (f : A -> nat -> bool) (l : list A) d : forall s,
  forallb (fun ab => f (fst ab) (snd ab)) (combine l (seq s (length l))) = true <->
  forall t, (t < length l)%nat -> f (nth t l d) (s + t)%nat = true.
Proof.
  induction l as [|x l IH]; intros s; cbn [length seq combine forallb].
  - split; [intros _ t Ht; lia|reflexivity].
  - rewrite andb_true_iff, IH. cbn [fst snd]. split.
    + intros [H0 H] [|t] Ht; cbn [nth]; [now rewrite Nat.add_0_r|].
      replace (s + S t)%nat with (S s + t)%nat by lia. apply H. cbn in Ht. lia.
    + intros H. split; [specialize (H 0%nat ltac:(lia)); now rewrite Nat.add_0_r in H|].
      intros t Ht. specialize (H (S t) ltac:(lia)). cbn [nth] in H.
      now replace (S s + t)%nat with (s + S t)%nat by lia.
Qed.

Lemma map2_combine {A B C} (f : A -> B -> C) l m :
  map2 f l m = map (fun ab => f (fst ab) (snd ab)) (combine l m).
Proof. revert m. induction l; intros [|b m]; cbn; auto. now rewrite IHl. Qed.

Lemma forallb_map {A B} (f : A -> B) (g : B -> bool) l :
  forallb g (map f l) = forallb (fun x => g (f x)) l.
Proof. induction l; cbn; congruence. Qed.

Lemma list_eq_nthZ (l m : list Z) : l = m <->
  length l = length m /\ forall t, (t < length l)%nat -> nth t l 0 = nth t m 0.
Proof.
  split; [intros ->; auto|]. intros [L H]. apply (nth_ext _ _ 0 0); auto.
Qed.

Lemma check_linreg_lemma xs y quad cross :
  length quad = (length xs * (length xs + 1) / 2)%nat -> length cross = length xs ->
  Eval (CheckLinReg (S (length xs))) (xs ++ [y] ++ quad ++ cross) = true <->
  map (fun q => q mod p) quad = products xs /\
  map (fun q => q mod p) cross = map (fun x => (y * x) mod p) xs.
Proof.
  intros Lq Lc. unfold CheckLinReg, linreg_checks.
  replace (S (length xs) - 1)%nat with (length xs) by lia. cbv zeta.
  set (n := length xs) in *.
  pose proof (linreg_pairs_length n) as LP. pose proof (linreg_pairs_range n) as RP.
  set (inps := xs ++ [y] ++ quad ++ cross).
  assert (LI : length inps = (2 * n + 1 + n * (n + 1) / 2)%nat).
  { unfold inps. rewrite !app_length. cbn [length]. rewrite Lq, Lc. fold n. lia. }
  assert (Nx : forall i, (i < n)%nat -> nth i inps 0 = nth i xs 0).
  { intros. unfold inps. now rewrite app_nth1. }
  assert (Ny : nth n inps 0 = y).
  { unfold inps. rewrite app_nth2 by (fold n; lia). fold n. now rewrite Nat.sub_diag. }
  assert (Nq : forall t, (t < length quad)%nat -> nth (S n + t)%nat inps 0 = nth t quad 0).
  { intros. unfold inps. rewrite app_nth2 by (fold n; lia). fold n.
    replace (S n + t - n)%nat with (S t) by lia. cbn [app nth]. now rewrite app_nth1. }
  assert (Nc : forall t, nth (S n + length quad + t)%nat inps 0 = nth t cross 0).
  { intros. unfold inps. rewrite app_nth2 by (fold n; lia). fold n.
    replace (S n + length quad + t - n)%nat with (S (length quad + t)) by lia. cbn [app nth].
    rewrite app_nth2 by lia. f_equal. lia. }
  rewrite checks_inputs; [|exact LI|].
  2:{ apply Forall_app. split; apply Forall_forall; intros [[i j] k] H.
      - rewrite map2_combine in H. apply in_map_iff in H as ([[a b] t] & E & H).
        cbn in E. injection E as <- <- <-. rewrite Forall_forall in RP.
        pose proof (RP _ (in_combine_l _ _ _ _ H)) as R. apply in_combine_r, in_seq in H.
        rewrite LP in H. cbn [fst snd] in R.
        repeat split; lia.
      - apply in_map_iff in H as (t & E & H). injection E as <- <- <-. apply in_seq in H.
        rewrite LP. repeat split; lia. }
  rewrite forallb_app, andb_true_iff.
  assert (Q : forallb (check_ok inps)
      (map2 (fun ij idx => (fst ij, snd ij, idx)) (linreg_pairs n) (seq (S n) (length (linreg_pairs n)))) = true
    <-> map (fun q => q mod p) quad = products xs).
  { rewrite map2_combine, forallb_map.
    rewrite (forallb_map2_seq (fun ij idx => check_ok inps (fst ij, snd ij, idx)) _ (0, 0)%nat).
    rewrite products_pairs. fold n. rewrite list_eq_nthZ, !map_length.
    split.
    - intros H. split; [lia|]. intros t Ht. specialize (H t ltac:(lia)).
      rewrite Forall_forall in RP.
      destruct (RP (nth t (linreg_pairs n) (0, 0)%nat)) as [R1 R2]; [apply nth_In; lia|].
      unfold check_ok in H. rewrite Nq, (Nx _ R1), (Nx _ R2) in H by lia. apply Z.eqb_eq in H.
      rewrite (nth_map_in _ quad t 0), (nth_map_in _ (linreg_pairs n) t (0, 0)%nat) by lia.
      now symmetry.
    - intros [_ H] t Ht. specialize (H t ltac:(lia)).
      rewrite Forall_forall in RP.
      destruct (RP (nth t (linreg_pairs n) (0, 0)%nat)) as [R1 R2]; [apply nth_In; lia|].
      unfold check_ok. rewrite Nq, (Nx _ R1), (Nx _ R2) by lia. apply Z.eqb_eq.
      rewrite (nth_map_in _ quad t 0), (nth_map_in _ (linreg_pairs n) t (0, 0)%nat) in H by lia.
      now symmetry. }
  assert (C : forallb (check_ok inps)
      (map (fun i => (n, i, (S n + length (linreg_pairs n) + i)%nat)) (seq 0 n)) = true
    <-> map (fun q => q mod p) cross = map (fun x => (y * x) mod p) xs).
  { rewrite forallb_map, forallb_forall, list_eq_nthZ, !map_length.
    assert (E : forall t, (t < n)%nat ->
      (check_ok inps (n, t, (S n + length (linreg_pairs n) + t)%nat) = true <->
       nth t (map (fun q => q mod p) cross) 0 = nth t (map (fun x => (y * x) mod p) xs) 0)).
    { intros t Ht. unfold check_ok. rewrite LP, <- Lq. rewrite Nc, Ny, (Nx t Ht).
      rewrite (nth_map_in _ cross t 0), (nth_map_in _ xs t 0) by (fold n; lia). rewrite Z.eqb_eq. split; auto. }
    split.
    - intros H. split; [auto|]. intros t Ht. apply E; [lia|]. apply H, in_seq. lia.
    - intros [_ H] t Ht. apply in_seq in Ht. apply E; [lia|]. apply H. lia. }
  now rewrite Q, C.
Qed.

(** ** Sharing is linear *)

Definition wsum (a b v : list Z) : Prop :=
  length a = length v /\ length b = length v /\
  forall i, cong p (nth i a 0 + nth i b 0) (nth i v 0).

Lemma wsum_snoc a b v x y z : wsum a b v -> cong p (x + y) z ->
  wsum (a ++ [x]) (b ++ [y]) (v ++ [z]).
Proof.
  intros (La & Lb & H) Hz. split; [rewrite !app_length; cbn; lia|].
  split; [rewrite !app_length; cbn; lia|]. intros i.
  destruct (Nat.lt_ge_cases i (length v)).
  - rewrite !app_nth1 by lia. auto.
  - rewrite !app_nth2 by lia. rewrite La, Lb.
    destruct (i - length v)%nat as [|[|]]; cbn; auto; reflexivity.
Qed.

Lemma import_linear gs inps0 inps1 inps muls0 muls1 muls :
  (forall i, cong p (nth i inps0 0 + nth i inps1 0) (nth i inps 0)) ->
  (forall i, cong p (nth i muls0 0 + nth i muls1 0) (nth i muls 0)) ->
  forall k m w0 w1 w, wsum w0 w1 w ->
  wsum (import_loop false gs inps0 k muls0 m w0) (import_loop true gs inps1 k muls1 m w1)
       (import_loop false gs inps k muls m w).
Proof.
  intros HI HM. induction gs as [|g gs IH]; intros k m w0 w1 w W; cbn [import_loop]; auto.
  pose proof W as (_ & _ & HW).
  destruct g; apply IH, wsum_snoc; auto; demod.
  - rewrite <- !HW. cong_ring.
  - rewrite <- !HW. cong_ring.
  - rewrite <- !HW. cong_ring.
Qed.

(** Imported wires satisfy the linear gates; if the multiplication outputs are
    right they are the wires of the evaluation. *)
Definition wcong (a v : list Z) : Prop :=
  length a = length v /\ forall i, cong p (nth i a 0) (nth i v 0).

Lemma wcong_snoc a v x z : wcong a v -> cong p x z -> wcong (a ++ [x]) (v ++ [z]).
Proof.
  intros (La & H) Hz. split; [rewrite !app_length; cbn; lia|]. intros i.
  destruct (Nat.lt_ge_cases i (length v)).
  - rewrite !app_nth1 by lia. auto.
  - rewrite !app_nth2 by lia. rewrite La.
    destruct (i - length v)%nat as [|[|]]; cbn; auto; reflexivity.
Qed.

Lemma eval_loop_nth gs inps : forall k w i, (i < length w)%nat ->
  nth i (eval_loop gs inps k w) 0 = nth i w 0.
Proof.
  intros k w i Hi. destruct (eval_loop_prefix gs inps k w) as (v & -> & _).
  now apply app_nth1.
Qed.

Lemma import_loop_prefix s gs inps muls : forall k m w, exists v,
  import_loop s gs inps k muls m w = w ++ v /\ length v = length gs.
Proof.
  induction gs as [|g gs IH]; intros k m w; cbn [import_loop].
  - exists []. now rewrite app_nil_r.
  - destruct g;
      match goal with |- context [import_loop s gs inps ?k' muls ?m' ?w'] =>
        destruct (IH k' m' w') as (v & -> & L) end;
      rewrite <- app_assoc; eexists; (split; [reflexivity|cbn; lia]).
Qed.

Lemma import_length s c inps muls : length (ImportWires s c inps muls) = length (gates c).
Proof.
  unfold ImportWires. destruct (import_loop_prefix s (gates c) inps muls 0 0 []) as (v & -> & L). exact L.
Qed.

(** the t-th multiplication gate has the t-th multiplication share *)
Lemma mul_gates_from_spec gs : forall i t a l r,
  nth_error (mul_gates_from i gs) t = Some (a, l, r) ->
  (i <= a)%nat /\ nth_error gs (a - i) = Some (GMul l r).
Proof.
  induction gs as [|g gs IH]; intros i t a l r H; cbn in H; [now destruct t|].
  assert (K : (exists t', nth_error (mul_gates_from (S i) gs) t' = Some (a, l, r)) \/
              (g = GMul l r /\ a = i)).
  { destruct g; try (left; exists t; exact H).
    destruct t; cbn in H; [right; inversion H; auto|left; exists t; exact H]. }
  destruct K as [[t' K]|[-> ->]].
  - apply IH in K as [K1 K2]. split; [lia|].
    replace (a - i)%nat with (S (a - S i)) by lia. exact K2.
  - split; [lia|]. now rewrite Nat.sub_diag.
Qed.

Lemma import_mul_wires s gs inps muls : forall k m w,
  map (fun x => nth (fst (fst x)) (import_loop s gs inps k muls m w) 0) (mul_gates_from (length w) gs) =
  map (fun t => nth t muls 0) (seq m (length (mul_gates_from (length w) gs))).
Proof.
  induction gs as [|g gs IH]; intros k m w; cbn [import_loop mul_gates_from]; [reflexivity|].
  assert (L : forall x : Z, S (length w) = length (w ++ [x])) by (intros; rewrite app_length; cbn; lia).
  destruct g;
    try (match goal with |- context [import_loop s gs inps ?k' muls ?m' (w ++ [?x])] =>
      rewrite (L x); apply IH end).
  rewrite (L (nth m muls 0)). cbn [map length seq fst]. rewrite IH. f_equal.
  destruct (import_loop_prefix s gs inps muls k (S m) (w ++ [nth m muls 0])) as (v & -> & _).
  rewrite <- app_assoc. rewrite app_nth2 by lia. now rewrite Nat.sub_diag.
Qed.

(** [import] with correct products = evaluation *)
Lemma import_eval gs inps inps' muls : (forall i, cong p (nth i inps 0) (nth i inps' 0)) ->
  forall k m w v, wcong w v ->
  (forall t a l r, nth_error (mul_gates_from (length w) gs) t = Some (a, l, r) ->
     cong p (nth (m + t) muls 0) (nth a (eval_loop gs inps' k v) 0)) ->
  wcong (import_loop false gs inps k muls m w) (eval_loop gs inps' k v).
Proof.
  intros HI. induction gs as [|g gs IH]; intros k m w v W HM; cbn [import_loop eval_loop]; auto.
  pose proof W as (LW & HW).
  assert (L : forall x : Z, length (w ++ [x]) = S (length w)) by (intros; rewrite app_length; cbn; lia).
  destruct g; apply IH;
    try (apply wcong_snoc; auto; demod; rewrite ?HW; reflexivity);
    try (intros t a l' r' H; rewrite L in H; apply (HM t a l' r'); exact H).
  - apply wcong_snoc; auto.
    specialize (HM 0%nat (length w) l r eq_refl). rewrite Nat.add_0_r in HM.
    rewrite HM. cbn [eval_loop]. rewrite eval_loop_nth by (rewrite app_length; cbn; lia).
    rewrite app_nth2 by lia. rewrite LW, Nat.sub_diag. cbn [nth]. reflexivity.
  - intros t a l' r' H. rewrite L in H. specialize (HM (S t) a l' r' H).
    replace (S m + t)%nat with (m + S t)%nat by lia. exact HM.
Qed.

Lemma shares_of_cong v a b : shares_of v a b ->
  forall i, cong p (nth i a 0 + nth i b 0) (nth i v 0).
Proof.
  intros (La & Lb & H) i. destruct (Nat.lt_ge_cases i (length v)).
  - apply cong_iff. auto.
  - rewrite !nth_overflow by lia. reflexivity.
Qed.

Lemma wsum_shares a b v : wsum a b v -> shares_of v a b.
Proof.
  intros (La & Lb & H). repeat split; auto. intros. now apply cong_iff.
Qed.

Lemma nth_map_mul (c : circuit) w t : nth t (mul_wires c w) 0 =
  match nth_error (mul_gates c) t with Some m => nth (fst (fst m)) w 0 | None => 0 end.
Proof.
  unfold mul_wires. destruct (nth_error (mul_gates c) t) as [m|] eqn:E.
  - rewrite (nth_map_in _ _ t m) by (apply nth_error_Some; congruence).
    now rewrite (nth_error_nth _ _ m E).
  - rewrite nth_overflow; auto. rewrite map_length. now apply nth_error_None.
Qed.

Lemma import_shares_lemma c inps inps0 inps1 muls0 muls1 :
  shares_of inps inps0 inps1 ->
  shares_of (mul_wires c (eval_wires c inps)) muls0 muls1 ->
  shares_of (eval_wires c inps) (ImportWires false c inps0 muls0) (ImportWires true c inps1 muls1).
Proof.
  intros HI HM. pose proof (shares_of_cong _ _ _ HI) as CI. pose proof (shares_of_cong _ _ _ HM) as CM.
  apply wsum_shares. unfold ImportWires.
  destruct (import_linear (gates c) _ _ _ _ _ _ CI CM 0 0 [] [] []) as (L0 & L1 & HS).
  { repeat split; auto. intros i. destruct i; reflexivity. }
  destruct (import_eval (gates c) inps inps (mul_wires c (eval_wires c inps)) ltac:(reflexivity)
             0 0 [] []) as (LE & HE).
  { split; auto. intros i; destruct i; reflexivity. }
  { intros t a l r H. cbn [Nat.add length] in *. rewrite nth_map_mul.
    unfold mul_gates. rewrite H. reflexivity. }
  unfold eval_wires. repeat split; try congruence. intros i. rewrite HS. apply HE.
Qed.

Lemma eval_computes c inps : wf c -> computes c inps (eval_wires c inps).
Proof.
  intros [WF _]. split; [apply eval_wires_length|]. unfold eval_wires.
  enough (H : forall gs pre w, gates c = pre ++ gs -> length w = length pre ->
     (forall i g, nth_error gs i = Some g -> gate_wf (length pre + i) g) ->
     let f := eval_loop gs inps (num_inp pre) w in
     forall i g, nth_error gs i = Some g ->
     match g with
      | GInput => nth (length pre + i) f 0 = nth (input_rank c (length pre + i)) inps 0
      | GAdd l r => nth (length pre + i) f 0 = (nth l f 0 + nth r f 0) mod p
      | GMul l r => nth (length pre + i) f 0 = (nth l f 0 * nth r f 0) mod p
      | GAddConst l k => nth (length pre + i) f 0 = (nth l f 0 + k) mod p
      | GMulConst l k => nth (length pre + i) f 0 = (nth l f 0 * k) mod p
      end).
  { specialize (H (gates c) [] [] eq_refl eq_refl WF). exact H. }
  induction gs as [|g gs IH]; intros pre w Hc Lw WFs f i g' Hg; [now destruct i|].
  assert (S1 : forall x : Z, nth (length pre) (w ++ [x]) 0 = x).
  { intros. rewrite app_nth2 by lia. now rewrite Lw, Nat.sub_diag. }
  assert (Step : forall k' x, f = eval_loop gs inps k' (w ++ [x]) ->
     (forall j, (j < length w)%nat -> nth j f 0 = nth j w 0) /\ nth (length pre) f 0 = x).
  { intros k' x ->. split.
    - intros j Hj. rewrite eval_loop_nth by (rewrite app_length; cbn; lia). now apply app_nth1.
    - rewrite eval_loop_nth by (rewrite app_length; cbn; lia). apply S1. }
  destruct i as [|i].
  - cbn in Hg. injection Hg as <-. specialize (WFs 0%nat g eq_refl).
    rewrite Nat.add_0_r in *. unfold f in *.
    destruct g; cbn [eval_loop gate_wf] in *.
    + destruct (Step _ _ eq_refl) as [_ ->]. f_equal. unfold input_rank, num_inp.
      rewrite Hc. rewrite firstn_app, Nat.sub_diag, firstn_O, app_nil_r, firstn_all. reflexivity.
    + destruct (Step _ _ eq_refl) as [Hj ->]. rewrite !Hj by lia. reflexivity.
    + destruct (Step _ _ eq_refl) as [Hj ->]. rewrite !Hj by lia. reflexivity.
    + destruct (Step _ _ eq_refl) as [Hj ->]. rewrite !Hj by lia. reflexivity.
    + destruct (Step _ _ eq_refl) as [Hj ->]. rewrite !Hj by lia. reflexivity.
  - assert (E : exists x, f = eval_loop gs inps (num_inp (pre ++ [g])) (w ++ [x])).
    { unfold f, num_inp. rewrite filter_app, app_length.
      destruct g; cbn [eval_loop filter is_inputb length]; rewrite ?Nat.add_0_r, ?Nat.add_1_r; eauto. }
    destruct E as [x E].
    specialize (IH (pre ++ [g]) (w ++ [x])).
    rewrite <- app_assoc in IH. specialize (IH Hc ltac:(rewrite !app_length; cbn; lia)).
    rewrite app_length in IH. cbn [length] in IH.
    assert (WFs' : forall i0 g0, nth_error gs i0 = Some g0 -> gate_wf (length pre + 1 + i0) g0).
    { intros i0 g0 H0. replace (length pre + 1 + i0)%nat with (length pre + S i0)%nat by lia.
      apply WFs. exact H0. }
    specialize (IH WFs'). cbv zeta in IH. rewrite <- E in IH. specialize (IH i g' Hg).
    replace (length pre + 1 + i)%nat with (length pre + S i)%nat in IH by lia. exact IH.
Qed.

Lemma eval_true_iff c inps : Eval c inps = true <->
  Forall (fun z => nth z (eval_wires c inps) 0 = 0) (result_zero c).
Proof.
  unfold Eval. rewrite forallb_forall, Forall_forall.
  split; intros H z Hz; apply Z.eqb_eq; auto; specialize (H z Hz); rewrite ?Z.eqb_eq in *; auto.
Qed.

(** the client's [GetMulShares] shares the multiplication outputs *)
Lemma get_mul_shares_lemma c w draws : length draws = NumMulGates c ->
  let (m0, m1) := GetMulShares c w draws in shares_of (mul_wires c w) m0 m1.
Proof.
  unfold GetMulShares, NumMulGates, mul_wires. intros L.
  revert draws L. generalize (mul_gates c) as ms.
  induction ms as [|m ms IH]; intros [|r draws] L; cbn in L; try lia; cbn [map2 split map].
  - repeat split; auto; cbn; lia.
  - specialize (IH draws ltac:(lia)).
    destruct (split (map2 _ draws ms)) as [m0 m1] eqn:E.
    pose proof (split_share_sum r (nth (fst (fst m)) w 0)) as S. destruct (SplitShare _ _) as [a b].
    destruct IH as (L0 & L1 & H). split; [cbn; lia|]. split; [cbn; lia|].
    intros [|i] Hi; cbn [nth]; auto. apply H. cbn in Hi. lia.
Qed.


(** ** Uniqueness of wires; the concrete circuits are well formed *)

Lemma computes_unique c inps w w' : wf c -> computes c inps w -> computes c inps w' -> w = w'.
Proof.
  intros [WF _] [L H] [L' H']. apply (nth_ext _ _ 0 0); [congruence|].
  intros i. induction i as [i IH] using lt_wf_ind. intros Hi. rewrite L in Hi.
  destruct (nth_error (gates c) i) as [g|] eqn:E; [|apply nth_error_None in E; lia].
  specialize (H i g E). specialize (H' i g E). specialize (WF i g E).
  destruct g; cbn in WF; rewrite H, H'; auto; rewrite !IH by lia; reflexivity.
Qed.

Lemma eval_decides c inps w : wf c -> computes c inps w ->
  (Eval c inps = true <-> Forall (fun z => nth z w 0 = 0) (result_zero c)).
Proof.
  intros WF H. rewrite (computes_unique c inps w (eval_wires c inps)); auto;
    [apply eval_true_iff|now apply eval_computes].
Qed.

Lemma import_shares_computes c inps w inps0 inps1 muls0 muls1 : wf c -> computes c inps w ->
  shares_of inps inps0 inps1 -> shares_of (mul_wires c w) muls0 muls1 ->
  shares_of w (ImportWires false c inps0 muls0) (ImportWires true c inps1 muls1).
Proof.
  intros WF H. rewrite (computes_unique c inps w (eval_wires c inps)); auto;
    [apply import_shares_lemma|now apply eval_computes].
Qed.

Lemma wf_inputs n : wf (Circuit_inputs n).
Proof.
  split; [|constructor]. cbn. intros i g H. apply nth_error_In, repeat_spec in H. now subst.
Qed.

Lemma wf_add_check c i j k : wf c ->
  (i < length (gates c) /\ j < length (gates c) /\ k < length (gates c))%nat ->
  wf (AddCheckMulEqual c (i, j, k)).
Proof.
  intros [W Z] H. split; cbn [AddCheckMulEqual gates result_zero].
  - intros t g E. destruct (Nat.lt_ge_cases t (length (gates c))) as [L|L].
    + rewrite nth_error_app1 in E by auto. auto.
    + rewrite nth_error_app2 in E by auto.
      remember (t - length (gates c))%nat as d.
      destruct d as [|[|[|d]]]; cbn in E; try (injection E as <-; cbn; lia).
      destruct d; discriminate.
  - apply Forall_app. split; rewrite app_length; cbn [length].
    + eapply Forall_impl; [|exact Z]. cbn. lia.
    + constructor; [lia|constructor].
Qed.

Lemma fold_checks_facts checks : forall c n, (n <= length (gates c))%nat ->
  Forall (fun ijk => let '(i, j, k) := ijk in (i < n /\ j < n /\ k < n)%nat) checks ->
  wf c ->
  let c' := fold_left AddCheckMulEqual checks c in
  wf c' /\ NumMulGates c' = (NumMulGates c + length checks)%nat /\ NumInputs c' = NumInputs c.
Proof.
  induction checks as [|[[i j] k] checks IH]; intros c n Hn F WF; cbn [fold_left].
  - cbn. repeat split; try apply WF. lia.
  - inversion F as [|? ? H F']; subst x l. destruct H as (Hi & Hj & Hk).
    destruct (IH (AddCheckMulEqual c (i, j, k)) n) as (A & B & C); auto.
    + cbn. rewrite app_length. lia.
    + apply wf_add_check; auto. lia.
    + split; [exact A|]. rewrite B, C. split.
      * unfold NumMulGates, mul_gates. cbn [AddCheckMulEqual gates].
        assert (E : forall gs gs' s, length (mul_gates_from s (gs ++ gs')) =
          (length (mul_gates_from s gs) + length (mul_gates_from (s + length gs) gs'))%nat).
        { induction gs as [|g gs IHg]; intros gs' s; cbn [app mul_gates_from length].
          - now rewrite Nat.add_0_r.
          - destruct g; cbn [length]; rewrite IHg; rewrite ?Nat.add_succ_comm, ?Nat.add_succ_r; auto;
              f_equal; f_equal; f_equal; lia. }
        rewrite E. cbn. lia.
      * unfold NumInputs. cbn [AddCheckMulEqual gates]. rewrite filter_app. cbn. now rewrite app_nil_r.
Qed.

Lemma num_mul_inputs n : NumMulGates (Circuit_inputs n) = 0%nat /\ NumInputs (Circuit_inputs n) = n.
Proof.
  unfold NumMulGates, mul_gates, NumInputs. cbn. split.
  - enough (H : forall s, mul_gates_from s (repeat GInput n) = []) by now rewrite H.
    induction n; intros; cbn; auto.
  - induction n; cbn; auto.
Qed.

Lemma linreg_checks_range degree : (1 <= degree)%nat ->
  let n := (degree - 1)%nat in
  Forall (fun ijk => let '(i, j, k) := ijk in
    (i < 2 * n + 1 + n * (n + 1) / 2 /\ j < 2 * n + 1 + n * (n + 1) / 2 /\
     k < 2 * n + 1 + n * (n + 1) / 2)%nat) (linreg_checks degree).
Proof.
  intros Hd n. unfold linreg_checks. fold n.
  pose proof (linreg_pairs_length n) as LP. pose proof (linreg_pairs_range n) as RP.
  apply Forall_app. split; apply Forall_forall; intros [[i j] k] H.
  - rewrite map2_combine in H. apply in_map_iff in H as ([[a b] t] & E & H).
    cbn in E. injection E as <- <- <-. rewrite Forall_forall in RP.
    pose proof (RP _ (in_combine_l _ _ _ _ H)) as R. apply in_combine_r, in_seq in H.
    rewrite LP in H. cbn [fst snd] in R. repeat split; lia.
  - apply in_map_iff in H as (t & E & H). injection E as <- <- <-. apply in_seq in H.
    rewrite LP. repeat split; lia.
Qed.

Lemma check_linreg_wf degree : (1 <= degree)%nat ->
  let n := (degree - 1)%nat in
  wf (CheckLinReg degree) /\
  NumMulGates (CheckLinReg degree) = (n * (n + 1) / 2 + n)%nat /\
  NumInputs (CheckLinReg degree) = (2 * n + 1 + n * (n + 1) / 2)%nat.
Proof.
  intros Hd n. unfold CheckLinReg. fold n.
  set (nf := (2 * n + 1 + n * (n + 1) / 2)%nat).
  destruct (fold_checks_facts (linreg_checks degree) (Circuit_inputs nf) nf) as (A & B & C).
  - cbn. rewrite repeat_length. lia.
  - apply linreg_checks_range. lia.
  - apply wf_inputs.
  - destruct (num_mul_inputs nf) as [D E]. rewrite D in B. rewrite E in C.
    split; [exact A|]. split; [|exact C]. rewrite B. unfold linreg_checks. fold n.
    rewrite app_length, map2_length, map_length, !seq_length, linreg_pairs_length. lia.
Qed.

Lemma check_var_wf : wf CheckVar /\ NumMulGates CheckVar = 1%nat /\ NumInputs CheckVar = 2%nat.
Proof.
  split; [|split; reflexivity]. apply wf_add_check; [apply wf_inputs|cbn; lia].
Qed.

Lemma circuits_wf : wf CheckVar /\ NumMulGates CheckVar = 1%nat /\ NumInputs CheckVar = 2%nat /\
  forall n, wf (CheckLinReg (n + 1)) /\
    NumMulGates (CheckLinReg (n + 1)) = (n * (n + 1) / 2 + n)%nat /\
    NumInputs (CheckLinReg (n + 1)) = (2 * n + 1 + n * (n + 1) / 2)%nat.
Proof.
  destruct check_var_wf as (A & B & C). repeat (split; [assumption|]).
  intros n. pose proof (check_linreg_wf (n + 1) ltac:(lia)) as H. cbv zeta in H.
  now replace (n + 1 - 1)%nat with n in H by lia.
Qed.
