(** Facts about sums of rationals and Gauss-Jordan elimination. *)
From Coq Require Import ZArith List Bool QArith Qcanon Lia Arith Permutation.
From Verif Require Import LinSolve.
Import ListNotations.
Open Scope nat_scope.
Open Scope Qc_scope.

Ltac qring := unfold zero, one in *; ring.

Lemma qsum_ext n f g : (forall i, (i < n)%nat -> f i = g i) -> qsum n f = qsum n g.
Proof. intros H. induction n as [|n IH]; cbn [qsum]; [reflexivity|]. rewrite IH, H; auto. Qed.
Lemma qsum_add n f g : qsum n (fun i => f i + g i) = qsum n f + qsum n g.
Proof. induction n as [|n IH]; cbn [qsum]; [ring|]. rewrite IH. ring. Qed.
Lemma qsum_mul n c f : qsum n (fun i => c * f i) = c * qsum n f.
Proof. induction n as [|n IH]; cbn [qsum]; [ring|]. rewrite IH. ring. Qed.
Lemma qsum_mul_r n c f : qsum n (fun i => f i * c) = qsum n f * c.
Proof. induction n as [|n IH]; cbn [qsum]; [ring|]. rewrite IH. ring. Qed.
Lemma qsum_zero n f : (forall i, (i < n)%nat -> f i = zero) -> qsum n f = zero.
Proof. intros H. induction n as [|n IH]; cbn [qsum]; [reflexivity|]. rewrite IH, H by auto. qring. Qed.
Lemma qsum_swap n m f : qsum n (fun i => qsum m (fun j => f i j)) = qsum m (fun j => qsum n (fun i => f i j)).
Proof.
  induction n as [|n IH]; cbn [qsum].
  - symmetry. apply qsum_zero. reflexivity.
  - rewrite IH. symmetry. apply (qsum_add m (fun j => qsum n (fun i => f i j)) (fun j => f n j)).
Qed.
Definition delta (i j : nat) : Qc := if (i =? j)%nat then one else zero.
Lemma delta_sym i j : delta i j = delta j i.
Proof. unfold delta. now rewrite Nat.eqb_sym. Qed.
Lemma qsum_delta n k f : (k < n)%nat -> qsum n (fun i => delta i k * f i) = f k.
Proof.
  induction n as [|n IH]; cbn [qsum]; intros H; [lia|]. unfold delta at 2.
  destruct (Nat.eqb_spec n k) as [->|N].
  - rewrite qsum_zero. { qring. } intros i Hi. unfold delta. destruct (Nat.eqb_spec i k); [lia|]. qring.
  - rewrite IH by lia. qring.
Qed.

Lemma nth_map_any {A B} (f : A -> B) l i d d0 : (i < length l)%nat -> nth i (map f l) d = f (nth i l d0).
Proof. intros H. rewrite nth_indep with (d' := f d0) by now rewrite map_length. apply map_nth. Qed.
Lemma nth_map_seq (f : nat -> Qc) n i : (i < n)%nat -> nth i (map f (seq 0 n)) zero = f i.
Proof. intros H. rewrite nth_map_any with (d0 := O) by now rewrite seq_length. now rewrite seq_nth. Qed.

Lemma scale_nth c l i : nth i (map (Qcmult c) l) zero = c * nth i l zero.
Proof.
  destruct (Nat.lt_ge_cases i (length l)).
  - now rewrite nth_map_any with (d0 := zero).
  - rewrite !nth_overflow by (rewrite ?map_length; lia). qring.
Qed.
Lemma vsub_length c a b : length a = length b -> length (vsub c a b) = length a.
Proof. intros H. unfold vsub. rewrite map_length, combine_length, H. apply Nat.min_id. Qed.
Lemma vsub_nth c a b i : length a = length b -> nth i (vsub c a b) zero = nth i a zero - c * nth i b zero.
Proof.
  intros H. destruct (Nat.lt_ge_cases i (length a)).
  - unfold vsub. rewrite nth_map_any with (d0 := (zero, zero)) by (rewrite combine_length; lia).
    rewrite combine_nth by assumption. reflexivity.
  - rewrite !nth_overflow by (rewrite ?vsub_length; lia). qring.
Qed.

Section Elim.
  Context (n : nat) (X : mat).

  (** The left half of a row is the combination of the rows of X given by the right
      half. *)
  Definition combo (r : row) : Prop :=
    length (fst r) = n /\ length (snd r) = n /\
    forall j, (j < n)%nat -> nth j (fst r) zero = qsum n (fun i => nth i (snd r) zero * X i j).

  Lemma combo_scale c r : combo r -> combo (scale c r).
  Proof.
    intros (L & R & H). unfold scale. split; [cbn; now rewrite map_length|]. split; [cbn; now rewrite map_length|].
    intros j Hj. cbn [fst snd]. rewrite scale_nth, H, <- qsum_mul by auto. apply qsum_ext. intros i _.
    rewrite scale_nth. ring.
  Qed.
  Lemma combo_clear k q r : combo q -> combo r -> combo (clear_col k q r).
  Proof.
    intros (L & R & H) (L' & R' & H'). unfold clear_col. cbv zeta. set (c := at_col k r).
    split; [cbn; rewrite vsub_length; congruence|]. split; [cbn; rewrite vsub_length; congruence|].
    intros j Hj. cbn [fst snd]. rewrite vsub_nth, H, H' by congruence.
    transitivity (qsum n (fun i => nth i (snd r) zero * X i j + - c * (nth i (snd q) zero * X i j))).
    - rewrite qsum_add, qsum_mul. ring.
    - apply qsum_ext. intros i _. rewrite vsub_nth by congruence. ring.
  Qed.

  Definition kills (v : nat -> Qc) (r : row) : Prop := qsum n (fun j => nth j (fst r) zero * v j) = zero.
  Lemma kills_scale c v r : c <> zero -> kills v (scale c r) -> kills v r.
  Proof.
    unfold kills, scale. cbn [fst]. intros Hc H.
    assert (E : c * qsum n (fun j => nth j (fst r) zero * v j) = zero).
    { rewrite <- qsum_mul. etransitivity; [|exact H]. apply qsum_ext. intros j _. rewrite scale_nth. ring. }
    destruct (Qcmult_integral _ _ E); [contradiction|assumption].
  Qed.
  Lemma kills_clear k v q r : length (fst q) = length (fst r) -> kills v q -> kills v (clear_col k q r) -> kills v r.
  Proof.
    unfold kills, clear_col. cbv zeta. cbn [fst]. set (c := at_col k r). intros L Hq H.
    transitivity (qsum n (fun j => nth j (vsub c (fst r) (fst q)) zero * v j + c * (nth j (fst q) zero * v j))).
    - apply qsum_ext. intros j _. rewrite vsub_nth by congruence. ring.
    - rewrite qsum_add, qsum_mul, H, Hq. qring.
  Qed.

  Lemma find_pivot_spec k todo :
    match find_pivot k todo with
    | Some (r, rest) => at_col k r <> zero /\ Permutation todo (r :: rest)
    | None => forall r, In r todo -> at_col k r = zero
    end.
  Proof.
    induction todo as [|r todo IH]; cbn [find_pivot]; [easy|].
    destruct (Qc_eq_dec (at_col k r) zero) as [E|N].
    - destruct (find_pivot k todo) as [[r' rest']|].
      + destruct IH as [H1 H2]. split; [exact H1|]. rewrite H2. apply perm_swap.
      + intros q [<-|H]; auto.
    - split; [exact N|reflexivity].
  Qed.

  Lemma at_col_scale c k r : at_col k (scale c r) = c * at_col k r.
  Proof. unfold at_col, scale. cbn [fst]. apply scale_nth. Qed.
  Lemma at_col_clear j k q r : length (fst q) = length (fst r) ->
    at_col j (clear_col k q r) = at_col j r - at_col k r * at_col j q.
  Proof. intros H. unfold at_col, clear_col. cbv zeta. cbn [fst]. apply vsub_nth. congruence. Qed.

  Lemma eliminate_spec : forall steps k done todo,
    (k + steps = n)%nat -> length done = k -> length todo = steps ->
    Forall combo done -> Forall combo todo ->
    (forall i j, (i < k)%nat -> (j < k)%nat -> at_col j (nth i done ([], [])) = delta i j) ->
    (forall r j, In r todo -> (j < k)%nat -> at_col j r = zero) ->
    match eliminate steps k done todo with
    | Some rows => length rows = n /\ Forall combo rows /\
        forall i j, (i < n)%nat -> (j < n)%nat -> at_col j (nth i rows ([], [])) = delta i j
    | None => exists v k, (k < n)%nat /\ v k <> zero /\ forall r, In r done \/ In r todo -> kills v r
    end.
  Proof.
    induction steps as [|steps IH]; intros k done todo Hn LD LT CD CT HD HT; cbn [eliminate].
    - split; [lia|]. split; [exact CD|]. intros i j Hi Hj. apply HD; lia.
    - pose proof (find_pivot_spec k todo) as FP. destruct (find_pivot k todo) as [[r rest]|].
      + destruct FP as [NZ PM]. cbv zeta. set (q := scale (/ at_col k r) r).
        assert (LR : length rest = steps).
        { apply Permutation_length in PM. cbn in PM. lia. }
        assert (CR : combo r /\ Forall combo rest).
        { rewrite PM in CT. inversion CT; auto. }
        destruct CR as [Cr Crest].
        assert (Cq : combo q) by now apply combo_scale.
        assert (Hq : forall j, (j <= k)%nat -> at_col j q = delta k j).
        { intros j Hj. unfold q. rewrite at_col_scale. unfold delta. destruct (Nat.eqb_spec k j) as [<-|N].
          - rewrite Qcmult_comm. apply Qcmult_inv_r. exact NZ.
          - rewrite (HT r j) by (try lia; rewrite PM; now left). qring. }
        assert (LQ : forall x, combo x -> length (fst q) = length (fst x)).
        { intros x Cx. destruct Cq as [-> _]. destruct Cx as [-> _]. reflexivity. }
        assert (CD' : Forall combo (map (clear_col k q) done ++ [q])).
        { apply Forall_app. split; [|constructor; auto]. apply Forall_map.
          rewrite Forall_forall in CD |- *. intros x Hx. apply combo_clear; auto. }
        assert (CT' : Forall combo (map (clear_col k q) rest)).
        { apply Forall_map. rewrite Forall_forall in Crest |- *. intros x Hx. apply combo_clear; auto. }
        specialize (IH (S k) (map (clear_col k q) done ++ [q]) (map (clear_col k q) rest)).
        assert (IH' := fun A B => IH ltac:(lia) A B CD' CT'). clear IH.
        lapply IH'; [clear IH'; intros IH'|rewrite app_length, map_length; cbn; lia].
        lapply IH'; [clear IH'; intros IH'|now rewrite map_length].
        lapply IH'; [clear IH'; intros IH'|].
        2: { intros i j Hi Hj. destruct (Nat.eq_dec i k) as [->|N].
             - rewrite app_nth2 by (rewrite map_length; lia). rewrite map_length, LD, Nat.sub_diag. cbn [nth].
                apply Hq. lia.
             - rewrite app_nth1 by (rewrite map_length; lia).
                rewrite nth_map_any with (d0 := (([], []) : row)) by lia.
                set (x := nth i done ([], [])).
                assert (Cx : combo x) by (rewrite Forall_forall in CD; apply CD, nth_In; lia).
                rewrite at_col_clear by now apply LQ. rewrite (Hq j) by lia.
                destruct (Nat.eq_dec j k) as [->|N2].
                + unfold delta. rewrite Nat.eqb_refl. destruct (Nat.eqb_spec i k); [lia|]. qring.
                + unfold x. rewrite HD by lia. unfold delta at 2. destruct (Nat.eqb_spec k j); [lia|]. qring. }
        lapply IH'; [clear IH'; intros IH'|].
        2: { intros y j Hy Hj. apply in_map_iff in Hy as (x & <- & Hx).
             assert (Cx : combo x) by (rewrite Forall_forall in Crest; auto).
             rewrite at_col_clear by now apply LQ. rewrite (Hq j) by lia.
             unfold delta. destruct (Nat.eqb_spec k j) as [<-|N].
             - qring.
             - rewrite (HT x j); [qring| |lia]. rewrite PM. now right. }
        destruct (eliminate steps (S k) _ _) as [rows|]; [exact IH'|].
        destruct IH' as (v & j & Hj & NV & HK). exists v, j. split; [exact Hj|]. split; [exact NV|].
        assert (Kq : kills v q) by (apply HK; left; apply in_or_app; right; now left).
        assert (Kr : kills v r).
        { apply (kills_scale (/ at_col k r)); [|exact Kq]. intros E0. apply NZ.
          rewrite <- (Qcmult_1_r (at_col k r)), <- (Qcmult_inv_r (at_col k r)) by exact NZ.
          rewrite E0. qring. }
        intros x [Hx|Hx].
        * apply (kills_clear k v q); [apply LQ; rewrite Forall_forall in CD; auto|exact Kq|].
          apply HK. left. apply in_or_app. left. now apply in_map.
        * rewrite PM in Hx. destruct Hx as [<-|Hx]; [exact Kr|].
          apply (kills_clear k v q); [apply LQ; rewrite Forall_forall in Crest; auto|exact Kq|].
          apply HK. right. now apply in_map.
      + (* no pivot: the column is a combination of the previous ones *)
        exists (fun j => if (j <? k)%nat then - at_col k (nth j done ([], [])) else delta j k), k.
        split; [lia|]. split; [rewrite Nat.ltb_irrefl; unfold delta; rewrite Nat.eqb_refl; discriminate|].
        assert (SP : forall g, qsum n (fun j => g j * (if (j <? k)%nat then - at_col k (nth j done ([], [])) else delta j k))
                     = g k - qsum k (fun j => g j * at_col k (nth j done ([], [])))).
        { intros g. transitivity (qsum n (fun j => delta j k * g j) + - qsum k (fun j => g j * at_col k (nth j done ([], [])))).
          2: { rewrite qsum_delta by lia. ring. }
          assert (AUX : forall m, qsum (k + m) (fun j => g j * (if (j <? k)%nat then - at_col k (nth j done ([], [])) else delta j k))
             = qsum (k + m) (fun j => delta j k * g j) + - qsum k (fun j => g j * at_col k (nth j done ([], [])))).
          { induction m as [|m IHm].
            - rewrite Nat.add_0_r. rewrite (qsum_zero k (fun j => delta j k * g j)).
              2: { intros i Hi. unfold delta. destruct (Nat.eqb_spec i k); [lia|]. qring. }
              transitivity (qsum k (fun j => - (1) * (g j * at_col k (nth j done ([], []))))).
              + apply qsum_ext. intros i Hi. destruct (Nat.ltb_spec i k); [|lia]. ring.
              + rewrite qsum_mul. qring.
            - rewrite Nat.add_succ_r. cbn [qsum]. rewrite IHm. destruct (Nat.ltb_spec (k + m) k); [lia|]. ring. }
          replace n with (k + S steps)%nat by lia. apply AUX. }
        intros x [Hx|Hx]; unfold kills; rewrite SP.
        * destruct (@In_nth row _ _ ([], []) Hx) as (i & Hi & Ei). apply (fun H => Nat.lt_le_trans _ _ _ H (Nat.eq_le_incl _ _ LD)) in Hi.
          change (nth k (fst x) zero) with (at_col k x).
          rewrite (qsum_ext k _ (fun j => delta j i * at_col k (nth j done ([], [])))).
          { rewrite qsum_delta by exact Hi. rewrite Ei. qring. }
          intros j Hj. change (nth j (fst x) zero) with (at_col j x). rewrite <- Ei, HD by lia. now rewrite delta_sym.
        * change (nth k (fst x) zero) with (at_col k x). rewrite FP by exact Hx.
          rewrite qsum_zero. { qring. }
          intros j Hj. change (nth j (fst x) zero) with (at_col j x). rewrite HT by (auto; lia). qring.
  Qed.

  Lemma unit_length i : length (unit_row n i) = n.
  Proof. unfold unit_row. now rewrite map_length, seq_length. Qed.
  Lemma unit_nth i j : (j < n)%nat -> nth j (unit_row n i) zero = delta j i.
  Proof. intros H. unfold unit_row. rewrite nth_map_seq by exact H. reflexivity. Qed.

  Lemma inverse_spec :
    match fmpq_mat_inv n X with
    | Some M => length M = n /\ (forall i, (i < n)%nat -> length (nth i M []) = n) /\
        forall i j, (i < n)%nat -> (j < n)%nat ->
          qsum n (fun k => nth k (nth i M []) zero * X k j) = delta i j
    | None => exists v k, (k < n)%nat /\ v k <> zero /\
        forall i, (i < n)%nat -> qsum n (fun j => X i j * v j) = zero
    end.
  Proof.
    unfold fmpq_mat_inv. cbv zeta. set (rows := map _ (seq 0 n)).
    assert (LR : length rows = n) by (unfold rows; now rewrite map_length, seq_length).
    assert (E := eliminate_spec n 0 [] rows (Nat.add_0_l n) eq_refl LR (Forall_nil _)).
    lapply E; [clear E; intros E|].
    2: { unfold rows. apply Forall_map, Forall_forall. intros i Hi. apply in_seq in Hi.
         split; [cbn; now rewrite map_length, seq_length|]. split; [apply unit_length|].
         intros j Hj. cbn [fst snd]. rewrite nth_map_seq by exact Hj.
         rewrite (qsum_ext n _ (fun k => delta k i * X k j)).
         - now rewrite qsum_delta by lia.
         - intros k Hk. now rewrite unit_nth. }
    lapply E; [clear E; intros E|intros; lia]. lapply E; [clear E; intros E|intros; lia].
    destruct (eliminate n 0 [] rows) as [R|].
    - destruct E as (L & C & D). split; [now rewrite map_length|].
      assert (NT : forall i, (i < n)%nat -> nth i (map snd R) [] = snd (nth i R ([], []))).
      { intros i Hi. rewrite nth_map_any with (d0 := (([], []) : row)) by lia. reflexivity. }
      assert (CI : forall i, (i < n)%nat -> combo (nth i R ([], []))).
      { intros i Hi. rewrite Forall_forall in C. apply C, nth_In. lia. }
      split.
      + intros i Hi. rewrite NT by exact Hi. apply CI. exact Hi.
      + intros i j Hi Hj. rewrite NT by exact Hi. destruct (CI i Hi) as (_ & _ & H).
        rewrite <- H by exact Hj. apply D; auto.
    - destruct E as (v & k & Hk & NV & H). exists v, k. split; [exact Hk|]. split; [exact NV|].
      intros i Hi. assert (HI : In (nth i rows ([], [])) rows) by (apply nth_In; rewrite LR; exact Hi).
      specialize (H _ (or_intror HI)). clear HI.
      unfold kills in H. etransitivity; [|exact H]. apply qsum_ext. intros j Hj.
      unfold rows. rewrite nth_map_any with (d0 := O) by (rewrite seq_length; lia). rewrite seq_nth by lia.
      cbn [fst]. now rewrite nth_map_seq by exact Hj.
  Qed.

  (** What the right halves of the result annihilate is annihilated by those at the start. *)
  Definition rkills (w : nat -> Qc) (r : row) : Prop := qsum n (fun j => nth j (snd r) zero * w j) = zero.
  Lemma eliminate_kernel w : forall steps k done todo rows,
    Forall combo done -> Forall combo todo ->
    eliminate steps k done todo = Some rows -> (length todo <= steps)%nat -> (forall r, In r rows -> rkills w r) ->
    forall r, In r done \/ In r todo -> rkills w r.
  Proof.
    induction steps as [|steps IH]; intros k done todo rows CD CT E LT H x Hx; cbn [eliminate] in E.
    - destruct todo; [|cbn in LT; lia]. injection E as <-. destruct Hx as [Hx|[]]. auto.
    - pose proof (find_pivot_spec k todo) as FP. destruct (find_pivot k todo) as [[r rest]|]; [|discriminate].
      destruct FP as [NZ PM]. cbv zeta in E. set (q := scale (/ at_col k r) r) in *.
      assert (CR : combo r /\ Forall combo rest) by (rewrite PM in CT; inversion CT; auto).
      destruct CR as [Cr Crest].
      assert (Cq : combo q) by now apply combo_scale.
      assert (ALL : forall y, In y (map (clear_col k q) done ++ [q]) \/ In y (map (clear_col k q) rest) -> rkills w y).
      { apply (IH (S k) _ _ rows); auto.
        - apply Forall_app. split; [|constructor; auto]. apply Forall_map.
          rewrite Forall_forall in CD |- *. intros y Hy. apply combo_clear; auto.
        - apply Forall_map. rewrite Forall_forall in Crest |- *. intros y Hy. apply combo_clear; auto.
        - rewrite map_length. apply Permutation_length in PM. cbn in PM. lia. }
      assert (Kq : rkills w q) by (apply ALL; left; apply in_or_app; right; now left).
      assert (Kr : rkills w r).
      { unfold rkills in *.
        transitivity (at_col k r * qsum n (fun j => nth j (snd q) zero * w j)); [|rewrite Kq; qring].
        rewrite <- qsum_mul. apply qsum_ext. intros j _. unfold q, scale. cbn [snd]. rewrite scale_nth.
        transitivity (at_col k r * / at_col k r * nth j (snd r) zero * w j); [|ring].
        rewrite Qcmult_inv_r by exact NZ. ring. }
      assert (BACK : forall y, combo y -> rkills w (clear_col k q y) -> rkills w y).
      { intros y (_ & Ly & _) K. destruct Cq as (_ & Lq & _). unfold rkills, clear_col in *. cbv zeta in K. cbn [snd] in K.
        set (c := at_col k y) in *.
        transitivity (qsum n (fun j => nth j (vsub c (snd y) (snd q)) zero * w j + c * (nth j (snd q) zero * w j))).
        - apply qsum_ext. intros j _. rewrite vsub_nth by congruence. ring.
        - rewrite qsum_add, qsum_mul, K, Kq. qring. }
      destruct Hx as [Hx|Hx].
      + apply BACK; [rewrite Forall_forall in CD; auto|]. apply ALL. left. apply in_or_app. left. now apply in_map.
      + rewrite PM in Hx. destruct Hx as [<-|Hx]; [exact Kr|].
        apply BACK; [rewrite Forall_forall in Crest; auto|]. apply ALL. right. now apply in_map.
  Qed.

  (** The inverse is also a right inverse. *)
  Lemma inverse_right M : fmpq_mat_inv n X = Some M ->
    forall i j, (i < n)%nat -> (j < n)%nat -> qsum n (fun k => X i k * nth j (nth k M []) zero) = delta i j.
  Proof.
    intros E i j Hi Hj. pose proof inverse_spec as IS. rewrite E in IS. destruct IS as (LM & _ & L).
    set (m := fun i j => nth j (nth i M []) zero) in *.
    set (w := fun i => qsum n (fun k => X i k * m k j) + - (1) * delta i j).
    enough (W : w i = zero).
    { unfold w in W. change (qsum n (fun k => X i k * m k j) = delta i j).
      set (a := qsum n _) in *. set (d := delta i j) in *. transitivity (a + - (1) * d + d); [ring|]. rewrite W. qring. }
    unfold fmpq_mat_inv in E. destruct (eliminate n 0 [] _) as [rows|] eqn:EE; [|discriminate].
    assert (EM : map snd rows = M) by now injection E. clear E. 
    set (start := map _ (seq 0 n)) in EE.
    assert (LS : length start = n) by (unfold start; now rewrite map_length, seq_length).
    assert (K : rkills w (nth i start ([], []))).
    { apply (eliminate_kernel w n 0 [] start rows); auto.
      - unfold start. apply Forall_map, Forall_forall. intros a Ha. apply in_seq in Ha.
         split; [cbn; now rewrite map_length, seq_length|]. split; [apply unit_length|].
         intros b Hb. cbn [fst snd]. rewrite nth_map_seq by exact Hb.
         rewrite (qsum_ext n _ (fun k => delta k a * X k b)).
         + now rewrite qsum_delta by lia.
         + intros k Hk. now rewrite unit_nth.
      - apply Nat.eq_le_incl. exact LS.
      - intros r Hr. assert (Hm : In (snd r) M) by (rewrite <- EM; now apply in_map).
        destruct (In_nth _ _ [] Hm) as (a & Ha & Ea). rewrite LM in Ha.
        unfold rkills. rewrite <- Ea. change (qsum n (fun k => m a k * w k) = zero). unfold w.
        transitivity (qsum n (fun l => qsum n (fun k => m a l * X l k * m k j)) + - (1) * m a j).
        + rewrite (qsum_ext n _ (fun l => m a l * qsum n (fun k => X l k * m k j) + - (1) * (delta l j * m a l))) by (intros; ring).
          rewrite qsum_add, qsum_mul, qsum_delta by exact Hj. f_equal. apply qsum_ext. intros l Hl.
          rewrite <- qsum_mul. apply qsum_ext. intros; ring.
        + rewrite qsum_swap. rewrite (qsum_ext n _ (fun k => delta k a * m k j)).
          { rewrite qsum_delta by exact Ha. qring. }
          intros k Hk. rewrite qsum_mul_r. f_equal. rewrite delta_sym. apply L; auto.
      - right. apply nth_In. unfold row. rewrite LS. exact Hi. }
    unfold rkills, start in K. rewrite nth_map_any with (d0 := O) in K by (rewrite seq_length; lia).
    rewrite seq_nth in K by lia. cbn [snd Nat.add] in K.
    rewrite (qsum_ext n _ (fun l => delta l i * w l)) in K by (intros l Hl; now rewrite unit_nth).
    now rewrite qsum_delta in K.
  Qed.

  Context (SYM : forall i j, (i < n)%nat -> (j < n)%nat -> X i j = X j i).

  (** A left inverse of a symmetric matrix is symmetric, so it solves the system. *)
  Lemma inverse_solves M Y :
    fmpq_mat_inv n X = Some M ->
    forall i, (i < n)%nat ->
      qsum n (fun j => X i j * qsum n (fun k => nth k (nth j M []) zero * Y k)) = Y i.
  Proof.
    intros E i Hi. pose proof inverse_spec as IS. rewrite E in IS. destruct IS as (_ & _ & L).
    set (m := fun i j => nth j (nth i M []) zero).
    assert (R : forall i j, (i < n)%nat -> (j < n)%nat -> qsum n (fun k => X i k * m j k) = delta i j).
    { intros a b Ha Hb. rewrite delta_sym, <- L by auto. apply qsum_ext. intros k Hk. rewrite SYM by auto.
      unfold m. ring. }
    assert (MS : forall i j, (i < n)%nat -> (j < n)%nat -> m i j = m j i).
    { intros a b Ha Hb.
      transitivity (qsum n (fun l => m a l * qsum n (fun k => X l k * m b k))).
      - rewrite (qsum_ext n _ (fun l => delta l b * m a l)). { now rewrite qsum_delta. }
        intros l Hl. rewrite R by auto. ring.
      - transitivity (qsum n (fun l => qsum n (fun k => m a l * X l k * m b k))).
        { apply qsum_ext. intros l Hl. rewrite <- qsum_mul. apply qsum_ext. intros; ring. }
        rewrite qsum_swap. transitivity (qsum n (fun k => delta k a * m b k)); [|now rewrite qsum_delta].
        apply qsum_ext. intros k Hk. rewrite qsum_mul_r. f_equal. rewrite delta_sym. apply L; auto. }
    transitivity (qsum n (fun j => qsum n (fun k => X i j * m j k * Y k))).
    { apply qsum_ext. intros j Hj. rewrite <- qsum_mul. apply qsum_ext. intros k Hk. unfold m. ring. }
    rewrite qsum_swap. transitivity (qsum n (fun k => delta k i * Y k)); [|now rewrite qsum_delta].
    apply qsum_ext. intros k Hk. rewrite qsum_mul_r. f_equal. rewrite delta_sym, <- R by auto.
    apply qsum_ext. intros j Hj. rewrite MS by auto. reflexivity.
  Qed.
End Elim.
