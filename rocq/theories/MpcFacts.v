(** * Proofs about the share arithmetic of /repo/correlated.cpp:
      multiplyBoolShares, addBinaryShares, b2a_daBit_single, b2a_daBit_multi, b2a_ot *)
From Coq Require Import ZArith List Bool Lia ZifyBool ZifyNat Setoid Morphisms.
From Verif Require Import Words WordsFacts Cong Constants Share SpecShare ShareFacts Proc ProcFacts
  Net NetFacts SpecNet NetMsg RelFacts OT OTFacts Correlated SpecStore CorrelatedFacts.
Import ListNotations.
Open Scope Z_scope.

Arguments Z.mul : simpl never.
Arguments Z.add : simpl never.
Arguments Z.sub : simpl never.
Arguments Z.pow : simpl never.
Arguments Nat.div : simpl never.
Arguments Nat.modulo : simpl never.

(** ** multiplyBoolShares *)

Lemma mult_out_spec : forall x0 x1 y0 y1 ts0 ts1,
  length x1 = length x0 -> length y0 = length x0 -> length y1 = length x0 ->
  length ts0 = length x0 -> Forall2 btriple_pair ts0 ts1 ->
  let d0 := map2 (fun xi t => xorb xi (ta t)) x0 ts0 in
  let e0 := map2 (fun yi t => xorb yi (tb t)) y0 ts0 in
  let d1 := map2 (fun xi t => xorb xi (ta t)) x1 ts1 in
  let e1 := map2 (fun yi t => xorb yi (tb t)) y1 ts1 in
  let z0 := mult_out false x0 y0 ts0 d1 e1 in
  let z1 := mult_out true x1 y1 ts1 d0 e0 in
  length z0 = length x0 /\ length z1 = length x0 /\
  map2 xorb z0 z1 = map2 andb (map2 xorb x0 x1) (map2 xorb y0 y1).
Proof.
  cbv zeta. induction x0 as [|a x0 IH]; intros x1 y0 y1 ts0 ts1 L1 L2 L3 L4 HF;
    destruct x1, y0, y1; try discriminate; destruct ts0 as [|t0 ts0]; try discriminate;
    inversion HF as [|? t1 ? ts1' Ht HF']; subst.
  - cbn. auto.
  - cbn [length] in *.
    destruct (IH x1 y0 y1 ts0 ts1') as (A & B & C); try lia; auto.
    unfold mult_out in *. cbn [map2 map3 combine fst snd length].
    rewrite A, B. repeat split; auto. f_equal; auto.
    unfold btriple_pair in Ht. destruct t0 as [u0 v0 w0], t1 as [u1 v1 w1]. cbn [ta tb tc] in *.
    clear -Ht. revert Ht. destruct w0, w1; cbn [xorb];
      repeat match goal with b : bool |- _ => destruct b end; cbn; intros; try discriminate; reflexivity.
Qed.

Lemma bool_bytes_pack l N : length l = N -> length (pack_bools l) = bool_bytes N.
Proof. intros <-. apply pack_bools_length. Qed.

Lemma multiply_rel c0 c1 T0 T1 x0 y0 x1 y1 s0 s1 :
  params_ok c0 c1 -> stores_paired s0 s1 ->
  length x1 = length x0 -> length y0 = length x0 -> length y1 = length x0 ->
  rel (multiplyBoolShares c0 T0 x0 y0 s0) (multiplyBoolShares c1 T1 x1 y1 s1)
    (fun r0 r1 =>
       length (fst r0) = length x0 /\ length (fst r1) = length x0 /\
       map2 xorb (fst r0) (fst r1) = map2 andb (map2 xorb x0 x1) (map2 xorb y0 y1) /\
       stores_paired (snd r0) (snd r1) /\
       exists ts0 ts1, length ts0 = length x0 /\ length ts1 = length x0 /\
         took_b ts0 s0 (snd r0) /\ took_b ts1 s1 (snd r1)).
Proof.
  intros HP HS L1 L2 L3. unfold multiplyBoolShares. rewrite L1.
  eapply rel_bind; [apply checkBoolTriples_rel; auto|]. cbn beta.
  intros a0 a1 (A & B & C & _). eapply rel_bind; [apply getBoolTriples_rel; auto|]. cbn beta.
  intros [t0 b0] [t1 b1] (D & L & E & F & G). cbn [fst snd] in *.
  pose proof (Forall2_len _ _ _ D) as L'.
  set (d0 := map2 _ x0 t0). set (e0 := map2 _ y0 t0). set (d1 := map2 _ x1 t1). set (e1 := map2 _ y1 t1).
  set (N := length x0) in *.
  assert (Ld0 : length d0 = N) by (subst d0; rewrite map2_length; lia).
  assert (Le0 : length e0 = N) by (subst e0; rewrite map2_length; lia).
  assert (Ld1 : length d1 = N) by (subst d1; rewrite map2_length; lia).
  assert (Le1 : length e1 = N) by (subst e1; rewrite map2_length; lia).
  apply rel_xchg; [rewrite app_length, !(bool_bytes_pack _ N) by auto; auto..|].
  rewrite !firstn_app_exact, !skipn_app_exact by now rewrite (bool_bytes_pack _ N).
  rewrite <- Ld1 at 1. rewrite unpack_pack. rewrite <- Le1 at 1. rewrite unpack_pack.
  rewrite <- Ld0 at 1. rewrite unpack_pack. rewrite <- Le0 at 1. rewrite unpack_pack.
  apply rel_ret. cbn [fst snd]. destruct HP as (P0 & P1 & _). rewrite P0, P1.
  destruct (mult_out_spec x0 x1 y0 y1 t0 t1) as (M1 & M2 & M3); auto.
  split; [exact M1|]. split; [exact M2|]. split; [exact M3|]. split; [auto|].
  exists t0, t1. repeat split; try lia; try apply (took_b_trans [] t0 _ _ _ (grew_took_b _ _ B) F);
    apply (took_b_trans [] t1 _ _ _ (grew_took_b _ _ C) G).
Qed.

(** ** addBinaryShares *)

(** One row of the computation: width, input shares, output shares so far, carry
    shares. *)
Record row := mkRow {
  rn : nat; rx0 : list bool; rx1 : list bool; ry0 : list bool; ry1 : list bool;
  rz0 : list bool; rz1 : list bool; rc0 : bool; rc1 : bool }.

Definition rX r := map2 xorb (rx0 r) (rx1 r).
Definition rY r := map2 xorb (ry0 r) (ry1 r).
Definition rC r := xorb (rc0 r) (rc1 r).

Definition same_inputs r r' :=
  rn r' = rn r /\ rx0 r' = rx0 r /\ rx1 r' = rx1 r /\ ry0 r' = ry0 r /\ ry1 r' = ry1 r.

Definition row_step (j : nat) (r r' : row) : Prop :=
  same_inputs r r' /\
  if active j (rn r) then
    (exists u v, rz0 r' = rz0 r ++ [u] /\ rz1 r' = rz1 r ++ [v] /\
       xorb u v = xorb (rC r) (xorb (xorb (nth j (rx0 r) false) (nth j (rx1 r) false))
                                    (xorb (nth j (ry0 r) false) (nth j (ry1 r) false)))) /\
    rC r' = xorb (rC r)
       (xorb (rC r) (xorb (nth j (rx0 r) false) (nth j (rx1 r) false)) &&
        xorb (rC r) (xorb (nth j (ry0 r) false) (nth j (ry1 r) false)))
  else rz0 r' = rz0 r /\ rz1 r' = rz1 r /\ rc0 r' = rc0 r /\ rc1 r' = rc1 r.

Fixpoint count_active (j : nat) (nbs : list nat) : nat :=
  match nbs with
  | [] => 0
  | nb :: nbs' => (if active j nb then 1 else 0) + count_active j nbs'
  end.

Lemma ab_inputs_length j : forall nbs v carry, length v = length nbs -> length carry = length nbs ->
  length (ab_inputs j nbs v carry) = count_active j nbs.
Proof.
  unfold ab_inputs. induction nbs; intros [|vi v] [|ci carry] L L'; try discriminate; auto.
  cbn [map3 concat count_active]. rewrite app_length, IHnbs by (cbn in *; lia).
  destruct (active j a); reflexivity.
Qed.

Lemma ab_round j : forall rs new0 new1,
  length new0 = count_active j (map rn rs) -> length new1 = count_active j (map rn rs) ->
  map2 xorb new0 new1 =
    map2 andb (map2 xorb (ab_inputs j (map rn rs) (map rx0 rs) (map rc0 rs))
                         (ab_inputs j (map rn rs) (map rx1 rs) (map rc1 rs)))
              (map2 xorb (ab_inputs j (map rn rs) (map ry0 rs) (map rc0 rs))
                         (ab_inputs j (map rn rs) (map ry1 rs) (map rc1 rs))) ->
  exists rs', Forall2 (row_step j) rs rs' /\
    ab_scatter j (map rn rs) (map rc0 rs) new0 = map rc0 rs' /\
    ab_scatter j (map rn rs) (map rc1 rs) new1 = map rc1 rs' /\
    ab_z j (map rn rs) (map rx0 rs) (map ry0 rs) (map rz0 rs) (map rc0 rs) = map rz0 rs' /\
    ab_z j (map rn rs) (map rx1 rs) (map ry1 rs) (map rz1 rs) (map rc1 rs) = map rz1 rs'.
Proof.
  induction rs as [|r rs IH]; intros new0 new1 L0 L1 H.
  - exists []. cbn. repeat split; constructor.
  - unfold ab_inputs in *. cbn [map map3 concat count_active ab_scatter] in *.
    destruct (active j (rn r)) eqn:Ea.
    + destruct new0 as [|n0 new0]; [discriminate|]. destruct new1 as [|n1 new1]; [discriminate|].
      cbn [app map2] in H. injection H as Hn H.
      destruct (IH new0 new1) as (rs' & A & B & C & D & E); auto.
      exists (mkRow (rn r) (rx0 r) (rx1 r) (ry0 r) (ry1 r)
        (rz0 r ++ [xorb (xorb (rc0 r) (nth j (rx0 r) false)) (nth j (ry0 r) false)])
        (rz1 r ++ [xorb (xorb (rc1 r) (nth j (rx1 r) false)) (nth j (ry1 r) false)])
        (xorb (rc0 r) n0) (xorb (rc1 r) n1) :: rs').
      split; [|cbn [map rc0 rc1 rz0 rz1]; repeat split; try (f_equal; assumption)].
      * constructor; auto. split; [repeat split|]. rewrite Ea. cbn [rz0 rz1 rc0 rc1]. split.
        -- eexists _, _. split; [reflexivity|]. split; [reflexivity|]. unfold rC.
           destruct (rc0 r), (rc1 r), (nth j (rx0 r) false), (nth j (rx1 r) false),
             (nth j (ry0 r) false), (nth j (ry1 r) false); reflexivity.
        -- unfold rC. cbn [rc0 rc1].
           replace (xorb (xorb (rc0 r) n0) (xorb (rc1 r) n1))
             with (xorb (xorb (rc0 r) (rc1 r)) (xorb n0 n1))
             by (destruct (rc0 r), (rc1 r), n0, n1; reflexivity).
           rewrite Hn. destruct (rc0 r), (rc1 r), (nth j (rx0 r) false), (nth j (rx1 r) false),
             (nth j (ry0 r) false), (nth j (ry1 r) false); reflexivity.
      * unfold ab_z in *. cbn [combine map3 fst snd]. rewrite Ea. f_equal. exact D.
      * unfold ab_z in *. cbn [combine map3 fst snd]. rewrite Ea. f_equal. exact E.
    + cbn [app] in H. destruct (IH new0 new1) as (rs' & A & B & C & D & E); auto.
      exists (r :: rs').
      split; [|cbn [map]; repeat split; try (f_equal; assumption)].
      * constructor; auto. split; [repeat split|]. rewrite Ea. auto.
      * unfold ab_z in *. cbn [combine map3 fst snd]. rewrite Ea. f_equal. exact D.
      * unfold ab_z in *. cbn [combine map3 fst snd]. rewrite Ea. f_equal. exact E.
Qed.

(** State of a row before round [j]. *)
Definition row_inv (j : nat) (r : row) : Prop :=
  let m := Nat.min j (rn r) in
  length (rx0 r) = rn r /\ length (rx1 r) = rn r /\ length (ry0 r) = rn r /\ length (ry1 r) = rn r /\
  length (rz0 r) = m /\ length (rz1 r) = m /\
  bits_val (map2 xorb (rz0 r) (rz1 r)) + 2 ^ Z.of_nat m * b2z (rC r) =
    bits_val (firstn m (rX r)) + bits_val (firstn m (rY r)).

Lemma nth_map2 {A B C} (f : A -> B -> C) : forall l m i a b c, (i < length l)%nat -> length m = length l ->
  nth i (map2 f l m) c = f (nth i l a) (nth i m b).
Proof.
  induction l; intros [|y m] i a' b c Hi L; cbn in *; try lia.
  destruct i; auto. apply IHl; lia.
Qed.

Lemma nth_map_d {A B} (f : A -> B) l i d fd : f d = fd -> nth i (map f l) fd = f (nth i l d).
Proof. intros <-. apply map_nth. Qed.

Lemma firstn_S_nth {A} : forall (l : list A) i d, (i < length l)%nat ->
  firstn (S i) l = firstn i l ++ [nth i l d].
Proof.
  induction l; intros i d Hi; cbn [length] in Hi; [lia|].
  destruct i; cbn; auto. f_equal. apply IHl. lia.
Qed.

Lemma row_step_inv j r r' : row_inv j r -> row_step j r r' -> row_inv (S j) r'.
Proof.
  unfold row_inv. cbv zeta. intros (L0 & L1 & L2 & L3 & Z0 & Z1 & V) ((N & X0 & X1 & Y0 & Y1) & S).
  rewrite N, X0, X1, Y0, Y1. repeat (split; [assumption|]).
  unfold active in S. destruct (Nat.ltb_spec j (rn r)) as [Hj|Hj].
  - destruct S as ((u & v & E0 & E1 & Euv) & EC).
    rewrite (Nat.min_l j) in * by lia. rewrite (Nat.min_l (Datatypes.S j)) by lia.
    rewrite E0, E1, EC, !app_length. cbn [length].
    split; [lia|]. split; [lia|].
    rewrite map2_app by congruence. rewrite bits_val_app, map2_length, Z0, Z1, Nat.min_id.
    unfold rX, rY. rewrite X0, X1, Y0, Y1. fold (rX r) (rY r).
    assert (LX : length (rX r) = rn r) by (unfold rX; rewrite map2_length; lia).
    assert (LY : length (rY r) = rn r) by (unfold rY; rewrite map2_length; lia).
    rewrite (firstn_S_nth (rX r) j false), (firstn_S_nth (rY r) j false) by lia.
    rewrite !bits_val_app, !firstn_length, LX, LY, !Nat.min_l by lia.
    cbn [map2 bits_val]. rewrite Euv.
    assert (NX : nth j (rX r) false = xorb (nth j (rx0 r) false) (nth j (rx1 r) false))
      by (apply nth_map2; lia).
    assert (NY : nth j (rY r) false = xorb (nth j (ry0 r) false) (nth j (ry1 r) false))
      by (apply nth_map2; lia).
    rewrite NX, NY.
    rewrite Nat2Z.inj_succ, Z.pow_succ_r by lia.
    set (P := 2 ^ Z.of_nat j) in *.
    set (x := xorb (nth j (rx0 r) false) (nth j (rx1 r) false)).
    set (y := xorb (nth j (ry0 r) false) (nth j (ry1 r) false)).
    destruct (rC r), x, y; cbn [xorb andb b2z] in *; lia.
  - destruct S as (E0 & E1 & EC0 & EC1). unfold rC, rX, rY. rewrite E0, E1, EC0, EC1, X0, X1, Y0, Y1.
    rewrite (Nat.min_r j) in * by lia. rewrite (Nat.min_r (Datatypes.S j)) by lia.
    auto.
Qed.

Lemma ab_rounds_rel c0 c1 T0 T1 : params_ok c0 c1 -> forall rounds j rs s0 s1,
  stores_paired s0 s1 -> Forall (row_inv j) rs ->
  rel (ab_rounds c0 T0 rounds j (map rn rs) (map rx0 rs) (map ry0 rs) (map rz0 rs) (map rc0 rs) s0)
      (ab_rounds c1 T1 rounds j (map rn rs) (map rx1 rs) (map ry1 rs) (map rz1 rs) (map rc1 rs) s1)
    (fun r0 r1 => exists rs',
       Forall (row_inv (j + rounds)) rs' /\ Forall2 same_inputs rs rs' /\
       fst (fst r0) = map rc0 rs' /\ snd (fst r0) = map rz0 rs' /\
       fst (fst r1) = map rc1 rs' /\ snd (fst r1) = map rz1 rs' /\
       stores_paired (snd r0) (snd r1) /\
       exists ts0 ts1,
         length ts0 = fold_right Nat.add 0%nat (map (fun i => count_active i (map rn rs)) (seq j rounds)) /\
         length ts1 = length ts0 /\ took_b ts0 s0 (snd r0) /\ took_b ts1 s1 (snd r1)).
Proof.
  intros HP. induction rounds as [|k IH]; intros j rs s0 s1 HS HI; cbn [ab_rounds].
  - apply rel_ret. cbn [fst snd]. exists rs. rewrite Nat.add_0_r.
    split; [auto|]. split. { clear. induction rs; constructor; auto. repeat split. }
    do 4 (split; [reflexivity|]). split; [auto|]. exists [], []. repeat split; auto; apply took_nil.
  - assert (Len : forall (f : row -> list bool) (g : row -> bool), length (ab_inputs j (map rn rs) (map f rs) (map g rs))
             = count_active j (map rn rs)).
    { intros. apply ab_inputs_length; now rewrite !map_length. }
    eapply rel_bind; [apply multiply_rel; auto; now rewrite !Len|]. cbn beta.
    intros [n0 a0] [n1 a1] (M0 & M1 & M2 & M3 & ts0 & ts1 & M4 & M5 & M6 & M7). cbn [fst snd] in *.
    rewrite Len in *.
    destruct (ab_round j rs n0 n1 M0 M1 M2) as (rs' & A & B & C & D & E).
    rewrite B, C, D, E.
    assert (Sm : Forall2 same_inputs rs rs').
    { clear -A. induction A; constructor; auto. apply H. }
    assert (Hmaps : map rn rs = map rn rs' /\ map rx0 rs = map rx0 rs' /\ map rx1 rs = map rx1 rs' /\
                    map ry0 rs = map ry0 rs' /\ map ry1 rs = map ry1 rs').
    { clear -Sm. induction Sm; cbn; auto. destruct H as (?&?&?&?&?). destruct IHSm as (?&?&?&?&?).
      repeat split; f_equal; auto. }
    destruct Hmaps as (Hrn & -> & -> & -> & ->). rewrite Hrn in *.
    eapply rel_imp; [apply IH; auto|].
    { clear -A HI. induction A; inversion HI; subst; constructor; auto. eapply row_step_inv; eauto. }
    cbn beta. intros r0 r1 (rs'' & X1 & X2 & X3 & X4 & X5 & X6 & X7 & us0 & us1 & X8 & X9 & X10 & X11).
    exists rs''. rewrite Nat.add_succ_r. split; [exact X1|]. split.
    { clear -Sm X2. revert rs'' X2. induction Sm; intros rs'' X2; inversion X2; subst; constructor; auto.
      destruct H as (?&?&?&?&?). match goal with H : same_inputs y _ |- _ => destruct H as (?&?&?&?&?) end.
      repeat split; congruence. }
    repeat (split; [assumption|]).
    exists (ts0 ++ us0), (ts1 ++ us1). rewrite !app_length.
    split; [|split; [lia|split; eapply took_b_trans; eauto]].
    cbn [seq map fold_right]. rewrite X8, M4. lia.
Qed.

Lemma count_active_total nbs : forall rounds j, (forall nb, In nb nbs -> nb <= j + rounds)%nat ->
  fold_right Nat.add 0%nat (map (fun i => count_active i nbs) (seq j rounds))
   = total (map (fun nb => nb - j)%nat nbs).
Proof.
  assert (K : forall j, (count_active j nbs = total (map (fun nb => nb - j) nbs) - total (map (fun nb => nb - S j) nbs)
     /\ total (map (fun nb => nb - S j) nbs) <= total (map (fun nb => nb - j) nbs))%nat).
  { intros j. induction nbs as [|nb nbs IH]; [cbn; auto|]. cbn [map total fold_right count_active] in *.
    fold (total (map (fun nb => nb - j)%nat nbs)) (total (map (fun nb => nb - S j)%nat nbs)).
    destruct IH as [IH1 IH2]. rewrite IH1. unfold active. destruct (Nat.ltb_spec j nb); lia. }
  induction rounds as [|k IH]; intros j H; cbn [seq map fold_right].
  - clear K. induction nbs as [|nb nbs IHn]; auto. cbn [map total fold_right].
    fold (total (map (fun nb => nb - j)%nat nbs)). rewrite <- IHn; [|intros; apply H; now right].
    specialize (H nb (or_introl eq_refl)). lia.
  - rewrite IH by (intros nb Hn; specialize (H nb Hn); lia). destruct (K j). lia.
Qed.

Lemma max_ge nbs nb : In nb nbs -> (nb <= fold_right Nat.max 0%nat nbs)%nat.
Proof. induction nbs; cbn; intros []; subst; [lia|]. specialize (IHnbs H). lia. Qed.

(** Zip the inputs into rows. *)
Fixpoint rows_of (nbs : list nat) (x0 x1 y0 y1 : list (list bool)) : list row :=
  match nbs, x0, x1, y0, y1 with
  | nb :: nbs, a :: x0, b :: x1, c :: y0, d :: y1 =>
      mkRow nb a b c d [] [] false false :: rows_of nbs x0 x1 y0 y1
  | _, _, _, _, _ => []
  end.

Lemma rows_of_spec : forall nbs x0 x1 y0 y1,
  rows_wf nbs x0 -> rows_wf nbs x1 -> rows_wf nbs y0 -> rows_wf nbs y1 ->
  let rs := rows_of nbs x0 x1 y0 y1 in
  map rn rs = nbs /\ map rx0 rs = x0 /\ map rx1 rs = x1 /\ map ry0 rs = y0 /\ map ry1 rs = y1 /\
  map rz0 rs = map (fun _ => []) nbs /\ map rz1 rs = map (fun _ => []) nbs /\
  map rc0 rs = map (fun _ => false) nbs /\ map rc1 rs = map (fun _ => false) nbs /\
  Forall (row_inv 0) rs.
Proof.
  cbv zeta. unfold rows_wf.
  induction nbs as [|nb nbs IH]; intros [|a x0] [|b x1] [|c y0] [|d y1] H0 H1 H2 H3; try discriminate.
  - cbn. repeat split; constructor.
  - cbn [map] in *. injection H0 as Ha H0. injection H1 as Hb H1. injection H2 as Hc H2. injection H3 as Hd H3.
    destruct (IH x0 x1 y0 y1 H0 H1 H2 H3) as (A1 & A2 & A3 & A4 & A5 & A6 & A7 & A8 & A9 & A10).
    cbn [rows_of map rn rx0 rx1 ry0 ry1 rz0 rz1 rc0 rc1].
    repeat split; try (f_equal; assumption).
    constructor; auto. unfold row_inv. cbn [rn rx0 rx1 ry0 ry1 rz0 rz1 Nat.min length].
    repeat split; auto.
Qed.

Lemma addBinary_rel c0 c1 T0 T1 nbs x0 x1 y0 y1 s0 s1 :
  params_ok c0 c1 -> stores_paired s0 s1 ->
  rows_wf nbs x0 -> rows_wf nbs x1 -> rows_wf nbs y0 -> rows_wf nbs y1 ->
  rel (addBinaryShares c0 T0 nbs x0 y0 s0) (addBinaryShares c1 T1 nbs x1 y1 s1)
    (fun r0 r1 =>
       length (fst (fst r0)) = length nbs /\ length (fst (fst r1)) = length nbs /\
       rows_wf nbs (snd (fst r0)) /\ rows_wf nbs (snd (fst r1)) /\
       (forall i, (i < length nbs)%nat ->
          bits_val (map2 xorb (nth i (snd (fst r0)) []) (nth i (snd (fst r1)) []))
            + 2 ^ Z.of_nat (nth i nbs 0%nat) * b2z (xorb (nth i (fst (fst r0)) false) (nth i (fst (fst r1)) false))
          = bits_val (map2 xorb (nth i x0 []) (nth i x1 []))
            + bits_val (map2 xorb (nth i y0 []) (nth i y1 []))) /\
       stores_paired (snd r0) (snd r1) /\
       exists ts0 ts1, length ts0 = total nbs /\ length ts1 = total nbs /\
         took_b ts0 s0 (snd r0) /\ took_b ts1 s1 (snd r1)).
Proof.
  intros HP HS W0 W1 W2 W3. unfold addBinaryShares.
  eapply rel_bind; [apply checkBoolTriples_rel; auto|]. cbn beta.
  intros a0 a1 (A & B & C & _).
  destruct (rows_of_spec nbs x0 x1 y0 y1 W0 W1 W2 W3) as (E1 & E2 & E3 & E4 & E5 & E6 & E7 & E8 & E9 & HI).
  set (rs := rows_of nbs x0 x1 y0 y1) in *.
  pose proof (ab_rounds_rel c0 c1 T0 T1 HP (fold_right Nat.max 0%nat nbs) 0 rs a0 a1 A HI) as R.
  rewrite E6, E7, E8, E9, E1, E2, E3, E4, E5 in R.
  eapply rel_imp; [exact R|]. clear R. cbn beta.
  intros [[k0 z0] t0] [[k1 z1] t1]. cbn [fst snd].
  intros (rs' & X1 & X2 & -> & -> & -> & -> & X7 & us0 & us1 & X8 & X9 & X10 & X11).
  rewrite Nat.add_0_l in X1.
  assert (Eq : map rn rs' = nbs /\ map rx0 rs' = x0 /\ map rx1 rs' = x1 /\ map ry0 rs' = y0 /\ map ry1 rs' = y1).
  { rewrite <- E1, <- E2, <- E3, <- E4, <- E5. clear -X2. induction X2; cbn; auto.
    destruct H as (?&?&?&?&?). destruct IHX2 as (?&?&?&?&?). repeat split; f_equal; auto. }
  destruct Eq as (Q1 & Q2 & Q3 & Q4 & Q5).
  assert (Ln : length rs' = length nbs) by (rewrite <- Q1; now rewrite map_length).
  assert (Inv : Forall (fun r => row_inv (rn r) r) rs').
  { rewrite Forall_forall in X1 |- *. intros r Hr. specialize (X1 r Hr).
    assert (Hle : (rn r <= fold_right Nat.max 0%nat nbs)%nat).
    { apply max_ge. rewrite <- Q1. now apply in_map. }
    unfold row_inv in *. cbv zeta in *. rewrite Nat.min_r in X1 by auto. now rewrite Nat.min_id. }
  split; [now rewrite map_length|]. split; [now rewrite map_length|].
  unfold rows_wf. split; [|split; [|split; [|split]]].
  - rewrite <- Q1, map_map. apply map_ext_in. intros r Hr. rewrite Forall_forall in Inv.
    destruct (Inv r Hr) as (_ & _ & _ & _ & Hz & _). now rewrite Hz, Nat.min_id.
  - rewrite <- Q1, map_map. apply map_ext_in. intros r Hr. rewrite Forall_forall in Inv.
    destruct (Inv r Hr) as (_ & _ & _ & _ & _ & Hz & _). now rewrite Hz, Nat.min_id.
  - intros i Hi. rewrite <- Q1, <- Q2, <- Q3, <- Q4, <- Q5.
    set (dr := mkRow 0 [] [] [] [] [] [] false false).
    rewrite (nth_map_d rz0 rs' i dr []), (nth_map_d rz1 rs' i dr []), (nth_map_d rn rs' i dr 0%nat),
      (nth_map_d rc0 rs' i dr false), (nth_map_d rc1 rs' i dr false), (nth_map_d rx0 rs' i dr []),
      (nth_map_d rx1 rs' i dr []), (nth_map_d ry0 rs' i dr []), (nth_map_d ry1 rs' i dr []) by reflexivity.
    assert (Hin : In (nth i rs' dr) rs') by (apply nth_In; lia).
    rewrite Forall_forall in Inv. specialize (Inv _ Hin). set (r := nth i rs' dr) in *.
    destruct Inv as (L0 & L1 & L2 & L3 & Z0 & Z1 & V). rewrite Nat.min_id in V.
    unfold rC in V. rewrite V. unfold rX, rY.
    rewrite !firstn_all2 by (rewrite map2_length; lia). reflexivity.
  - exact X7.
  - rewrite (count_active_total nbs _ 0) in X8 by (intros nb Hn; cbn; now apply max_ge).
    assert (total (map (fun nb => nb - 0)%nat nbs) = total nbs) as Et.
    { f_equal. rewrite <- map_id. apply map_ext. intros; lia. }
    rewrite Et in X8.
    exists us0, us1. split; [lia|]. split; [lia|]. split.
    + apply (took_b_trans [] us0 _ _ _ (grew_took_b _ _ B) X10).
    + apply (took_b_trans [] us1 _ _ _ (grew_took_b _ _ C) X11).
Qed.

(** ** Conversion to arithmetic shares *)

Lemma b2a_out_spec : forall x0 x1 ds0 ds1, length x1 = length x0 -> length ds0 = length x0 ->
  Forall2 dabit_pair ds0 ds1 ->
  let v0 := map2 (fun xi d => xorb xi (b2 d)) x0 ds0 in
  let v1 := map2 (fun xi d => xorb xi (b2 d)) x1 ds1 in
  let o0 := b2a_out false x0 ds0 v1 in
  let o1 := b2a_out true x1 ds1 v0 in
  length o0 = length x0 /\ length o1 = length x0 /\
  Forall (fun z => 0 <= z < Int_Modulus) o0 /\ Forall (fun z => 0 <= z < Int_Modulus) o1 /\
  map2 (fun a b => (a + b) mod Int_Modulus) o0 o1 = map2 (fun a b => b2z (xorb a b)) x0 x1.
Proof.
  cbv zeta. pose proof p_ge as Hp.
  induction x0 as [|a x0 IH]; intros x1 ds0 ds1 L1 L2 HF;
    destruct x1 as [|b x1]; try discriminate; destruct ds0 as [|d0 ds0]; try discriminate;
    inversion HF as [|? d1 ? ds1' (H0 & H1 & Hs) HF']; subst.
  - cbn. auto.
  - cbn [length] in *. destruct (IH x1 ds0 ds1') as (A & B & C & D & E); try lia; auto.
    unfold b2a_out in *. cbn [map2 map3 length]. rewrite A, B.
    replace (xorb (xorb b (b2 d1)) (xorb a (b2 d0))) with (xorb (xorb a (b2 d0)) (xorb b (b2 d1)))
      by (destruct a, b, (b2 d0), (b2 d1); reflexivity).
    repeat split; auto.
    + constructor; auto. match goal with |- context [if ?c then _ else _] => destruct c end; auto; apply modp_range.
    + constructor; auto. match goal with |- context [if ?c then _ else _] => destruct c end; auto; apply modp_range.
    + f_equal; auto.
      assert (Cs : cong Int_Modulus (bp d0 + bp d1) (b2z (xorb (b2 d0) (b2 d1)))).
      { apply cong_iff. rewrite Hs. symmetry. apply Z.mod_small. destruct (xorb _ _); cbn; lia. }
      apply cong_mod_eq; [destruct (xorb a b); cbn [b2z]; lia|].
      destruct (xorb (xorb a (b2 d0)) (xorb b (b2 d1))) eqn:Ex.
      * demod. transitivity (1 - (bp d0 + bp d1)); [cbn [b2z]; cong_ring|]. rewrite Cs.
        destruct a, b, (b2 d0), (b2 d1); try discriminate; apply cong_eq; reflexivity.
      * rewrite Cs. destruct a, b, (b2 d0), (b2 d1); try discriminate; apply cong_eq; reflexivity.
Qed.

Lemma b2a_single_rel c0 c1 T0 T1 x0 x1 s0 s1 :
  params_ok c0 c1 -> stores_paired s0 s1 -> length x1 = length x0 ->
  rel (b2a_daBit_single c0 T0 x0 s0) (b2a_daBit_single c1 T1 x1 s1)
    (fun r0 r1 =>
       length (fst r0) = length x0 /\ length (fst r1) = length x0 /\
       Forall (fun z => 0 <= z < Int_Modulus) (fst r0) /\
       Forall (fun z => 0 <= z < Int_Modulus) (fst r1) /\
       map2 (fun a b => (a + b) mod Int_Modulus) (fst r0) (fst r1) =
         map2 (fun a b => b2z (xorb a b)) x0 x1 /\
       stores_paired (snd r0) (snd r1) /\
       exists ds0 ds1, length ds0 = length x0 /\ length ds1 = length x0 /\
         took_d ds0 s0 (snd r0) /\ took_d ds1 s1 (snd r1)).
Proof.
  intros HP HS L1. unfold b2a_daBit_single. rewrite L1.
  eapply rel_bind; [apply checkDaBits_rel; auto|]. cbn beta.
  intros a0 a1 (A & B & C & _). eapply rel_bind; [apply getDaBits_rel; auto|]. cbn beta.
  intros [t0 b0] [t1 b1] (D & L & E & F & G). cbn [fst snd] in *.
  pose proof (Forall2_len _ _ _ D) as L'.
  set (v0 := map2 _ x0 t0). set (v1 := map2 _ x1 t1). set (N := length x0) in *.
  assert (Lv0 : length v0 = N) by (subst v0; rewrite map2_length; lia).
  assert (Lv1 : length v1 = N) by (subst v1; rewrite map2_length; lia).
  apply rel_xchg; [now apply bool_bytes_pack..|].
  rewrite <- Lv1 at 1. rewrite unpack_pack. rewrite <- Lv0 at 1. rewrite unpack_pack.
  apply rel_ret. cbn [fst snd]. destruct HP as (P0 & P1 & _). rewrite P0, P1.
  destruct (b2a_out_spec x0 x1 t0 t1) as (M1 & M2 & M3 & M4 & M5); auto.
  repeat (split; [assumption|]).
  exists t0, t1. repeat split; try lia; try apply (took_d_trans [] t0 _ _ _ (grew_took_d _ _ B) F);
    apply (took_d_trans [] t1 _ _ _ (grew_took_d _ _ C) G).
Qed.

Lemma shl_small j : (j < 31)%nat -> shl_int_ulong j = 2 ^ Z.of_nat j.
Proof. intros. unfold shl_int_ulong. destruct (Nat.eqb_spec j 31); [lia|auto]. Qed.

Lemma multi_acc_range : forall xs j acc, 0 <= acc < Int_Modulus -> 0 <= multi_acc xs j acc < Int_Modulus.
Proof. induction xs; intros; cbn [multi_acc]; auto. apply IHxs, modp_range. Qed.

Lemma multi_acc_sum : forall x0 x1 (bs : list bool) j a0 a1,
  length x1 = length x0 -> (j + length x0 <= 31)%nat ->
  map2 (fun a b => (a + b) mod Int_Modulus) x0 x1 = map b2z bs ->
  cong Int_Modulus (multi_acc x0 j a0 + multi_acc x1 j a1)
    (a0 + a1 + 2 ^ Z.of_nat j * bits_val bs).
Proof.
  induction x0 as [|u x0 IH]; intros [|v x1] bs j a0 a1 L Hj H; try discriminate.
  - destruct bs; [|discriminate]. cbn [multi_acc bits_val]. cong_ring.
  - destruct bs as [|b bs]; [discriminate|]. cbn [map2 map length] in *. injection H as Hb H.
    cbn [multi_acc bits_val]. rewrite (IH x1 bs) by (try lia; auto).
    rewrite shl_small by lia. demod.
    assert (Cb : cong Int_Modulus (u + v) (b2z b)).
    { apply cong_iff. rewrite Hb. symmetry. apply Z.mod_small. pose proof p_ge. destruct b; cbn; lia. }
    transitivity (a0 + a1 + 2 ^ Z.of_nat j * (u + v) + 2 ^ Z.of_nat (S j) * bits_val bs); [cong_ring|].
    rewrite Cb, Nat2Z.inj_succ, Z.pow_succ_r by lia. cong_ring.
Qed.

Lemma testbits_recv nb : forall x, map (fun j => Z.testbit x (Z.of_nat j)) (seq 0 nb) = intsum_recv_bits nb x.
Proof.
  induction nb as [|nb IH]; intros x; [reflexivity|]. cbn [seq map intsum_recv_bits].
  rewrite Z.bit0_odd. f_equal. rewrite <- IH, <- seq_shift, map_map. apply map_ext. intros j.
  rewrite Nat2Z.inj_succ. now rewrite Z.div2_bits by lia.
Qed.

Lemma map2_map_recv : forall nbs x, map2 (fun nb xi => map (fun j => Z.testbit xi (Z.of_nat j)) (seq 0 nb)) nbs x
  = map2 intsum_recv_bits nbs x.
Proof. induction nbs; intros [|y x]; cbn [map2]; auto. rewrite testbits_recv, IHnbs. auto. Qed.

Lemma pieces_length {A} nbs : forall l : list A, length (pieces nbs l) = length nbs.
Proof. induction nbs; intros; cbn; auto. Qed.

Lemma app_inv_len {A} : forall a b c d : list A, a ++ b = c ++ d -> length a = length c -> a = c /\ b = d.
Proof.
  induction a; intros b [|z c] d H L; try discriminate; auto.
  cbn in *. injection H as -> H. destruct (IHa b c d H) as [-> ->]; auto.
Qed.

Lemma multi_spec : forall nbs x0 x1 o0 o1, length x0 = length nbs -> length x1 = length nbs ->
  (forall nb, In nb nbs -> nb <= 31)%nat ->
  length o0 = total nbs -> length o1 = total nbs ->
  map2 (fun a b => (a + b) mod Int_Modulus) o0 o1 =
    map2 (fun a b => b2z (xorb a b)) (concat (map2 intsum_recv_bits nbs x0)) (concat (map2 intsum_recv_bits nbs x1)) ->
  map2 (fun a b => (a + b) mod Int_Modulus)
     (map (fun l => multi_acc l 0 0) (pieces nbs o0)) (map (fun l => multi_acc l 0 0) (pieces nbs o1))
  = map3 (fun nb a b => Z.lxor a b mod 2 ^ Z.of_nat nb) nbs x0 x1.
Proof.
  induction nbs as [|nb nbs IH]; intros [|a x0] [|b x1] o0 o1 L0 L1 Hn H0 H1 H; try discriminate; auto.
  cbn [map2 concat pieces map map3 total fold_right length] in *. fold (total nbs) in *.
  rewrite <- (firstn_skipn nb o0), <- (firstn_skipn nb o1) in H.
  assert (F0 : length (firstn nb o0) = nb) by (rewrite firstn_length; lia).
  assert (F1 : length (firstn nb o1) = nb) by (rewrite firstn_length; lia).
  rewrite map2_app in H by congruence. rewrite map2_app in H by now rewrite !recv_bits_length.
  apply app_inv_len in H. 2:{ rewrite !map2_length, !recv_bits_length. lia. }
  destruct H as [Ha Hb]. f_equal.
  - assert (Hnb : (nb <= 31)%nat) by (apply Hn; now left).
    assert (Ha' : map2 (fun a b => (a + b) mod Int_Modulus) (firstn nb o0) (firstn nb o1)
                  = map b2z (map2 xorb (intsum_recv_bits nb a) (intsum_recv_bits nb b))).
    { rewrite Ha. clear. generalize (intsum_recv_bits nb a), (intsum_recv_bits nb b).
      induction l; intros [|y m]; cbn [map2 map]; auto. f_equal; auto. }
    pose proof (multi_acc_sum (firstn nb o0) (firstn nb o1) _ 0 0 0 ltac:(congruence) ltac:(lia) Ha') as Hc.
    apply cong_mod_eq.
    + pose proof p_ge. assert (0 < 2 ^ Z.of_nat nb <= 2 ^ 31)
        by (split; [apply Z.pow_pos_nonneg; lia|apply Z.pow_le_mono_r; lia]).
      pose proof (Z.mod_pos_bound (Z.lxor a b) (2 ^ Z.of_nat nb)).
      change (2 ^ 31) with 2147483648 in *. change (2 ^ 47) with 140737488355328 in *. lia.
    + rewrite Hc, recv_bits_lxor, bits_val_recv. change (2 ^ Z.of_nat 0) with 1. cong_ring.
  - apply IH; auto; rewrite ?skipn_length; try lia. intros; apply Hn; now right.
Qed.

Lemma b2a_multi_rel c0 c1 T0 T1 nbs x0 x1 s0 s1 :
  params_ok c0 c1 -> stores_paired s0 s1 -> length x0 = length nbs -> length x1 = length nbs ->
  (forall nb, In nb nbs -> nb <= 31)%nat ->
  rel (b2a_daBit_multi c0 T0 nbs x0 s0) (b2a_daBit_multi c1 T1 nbs x1 s1)
    (fun r0 r1 =>
       length (fst r0) = length nbs /\ length (fst r1) = length nbs /\
       Forall (fun z => 0 <= z < Int_Modulus) (fst r0) /\
       Forall (fun z => 0 <= z < Int_Modulus) (fst r1) /\
       map2 (fun a b => (a + b) mod Int_Modulus) (fst r0) (fst r1) =
         map3 (fun nb a b => Z.lxor a b mod 2 ^ Z.of_nat nb) nbs x0 x1 /\
       stores_paired (snd r0) (snd r1) /\
       exists ds0 ds1, length ds0 = total nbs /\ length ds1 = total nbs /\
         took_d ds0 s0 (snd r0) /\ took_d ds1 s1 (snd r1)).
Proof.
  intros HP HS L0 L1 Hn. unfold b2a_daBit_multi.
  assert (forallb (fun nb => (nb <=? 32)%nat) nbs = true) as ->.
  { apply forallb_forall. intros nb Hi. specialize (Hn nb Hi). apply Nat.leb_le. lia. }
  eapply rel_bind; [apply checkDaBits_rel; auto|]. cbn beta. intros a0 a1 (A & B & C & _).
  rewrite !map2_map_recv.
  eapply rel_bind.
  { apply b2a_single_rel; auto. now rewrite !concat_bits_length. }
  cbn beta. rewrite concat_bits_length by auto.
  intros [o0 b0] [o1 b1] (M1 & M2 & M3 & M4 & M5 & M6 & ds0 & ds1 & M7 & M8 & M9 & M10). cbn [fst snd] in *.
  apply rel_ret. cbn [fst snd]. rewrite !map_length, !pieces_length.
  assert (Hr : forall o, Forall (fun z => 0 <= z < Int_Modulus) (map (fun l => multi_acc l 0 0) (pieces nbs o))).
  { intros o. apply Forall_forall. intros z Hz. apply in_map_iff in Hz. destruct Hz as (l & <- & _).
    apply multi_acc_range. pose proof p_pos. lia. }
  do 4 (split; [auto|]). split; [now apply multi_spec|].
  split; [auto|]. exists ds0, ds1. split; [auto|]. split; [auto|]. split.
  - apply (took_d_trans [] ds0 _ _ _ (grew_took_d _ _ B) M9).
  - apply (took_d_trans [] ds1 _ _ _ (grew_took_d _ _ C) M10).
Qed.

Lemma b2a_ot_rel rnd0 rnd1 nbs x0 x1 m : mod_ok m -> Forall (width_ok m) nbs ->
  length x0 = length x1 ->
  Forall (fun r => length r = length nbs) x0 -> Forall (fun r => length r = length nbs) x1 ->
  Forall (Forall limbs_ok) x0 -> Forall (Forall limbs_ok) x1 ->
  rel (b2a_ot false rnd0 nbs x0 m) (b2a_ot true rnd1 nbs x1 m)
    (fun o0 o1 =>
      length o0 = length x0 /\ length o1 = length x0 /\
      Forall (fun r => length r = length nbs) o0 /\ Forall (fun r => length r = length nbs) o1 /\
      Forall (Forall (fun a => 0 <= a < ot_modulus m)) o0 /\
      Forall (Forall (fun a => 0 <= a < ot_modulus m)) o1 /\
      map2 (map2 (fun a b => (a + b) mod ot_modulus m)) o0 o1 = map2 (map3 (col_spec m) nbs) x0 x1).
Proof.
  intros Hm HW L F0 F1 B0 B1. unfold b2a_ot.
  assert (U : forall x, Forall (Forall limbs_ok) x -> map (map u64) x = x).
  { intros x H. induction H as [|r x Hr H IH]; cbn [map]; auto. rewrite IH. f_equal.
    induction Hr as [|z r Hz Hr IHr]; cbn [map]; auto. rewrite IHr. f_equal. now apply u64_small. }
  rewrite !U by auto.
  eapply rel_imp; [apply intsum_rel; auto; rewrite ?map_length; auto|]. cbn beta.
  rewrite map_length. intros o0 o1 (A1 & A2 & A3 & A4 & A5 & A6 & A7).
  repeat (split; [assumption|]). rewrite A7. clear -L.
  revert x1 L. induction x0 as [|r x0 IH]; intros [|r' x1] L; try discriminate; auto.
  cbn [map map3 map2]. f_equal. apply IH. cbn in L. lia.
Qed.

(** ** Histories of the store *)

Lemma run_store_rel c0 c1 T0 T1 ops : params_ok c0 c1 -> forall s0 s1, stores_paired s0 s1 ->
  rel (run_store c0 T0 ops s0) (run_store c1 T1 ops s1)
    (fun r0 r1 =>
       stores_paired (snd r0) (snd r1) /\
       Forall2 btriple_pair (fst (fst r0)) (fst (fst r1)) /\
       Forall2 dabit_pair (snd (fst r0)) (snd (fst r1)) /\
       length (fst (fst r0)) = asked_bool ops /\ length (snd (fst r0)) = asked_da ops /\
       took (fst (fst r0)) (btriple_store s0) (btriple_store (snd r0)) /\
       took (snd (fst r0)) (dabit_store s0) (dabit_store (snd r0)) /\
       took (fst (fst r1)) (btriple_store s1) (btriple_store (snd r1)) /\
       took (snd (fst r1)) (dabit_store s1) (dabit_store (snd r1))).
Proof.
  intros HP. induction ops as [|op ops IH]; intros s0 s1 HS; cbn [run_store].
  - apply rel_ret. cbn [fst snd]. repeat split; auto; try apply HS; apply took_nil.
  - eapply (rel_bind _ _ (fun r0 r1 =>
       stores_paired (snd r0) (snd r1) /\
       Forall2 btriple_pair (fst (fst r0)) (fst (fst r1)) /\
       Forall2 dabit_pair (snd (fst r0)) (snd (fst r1)) /\
       length (fst (fst r0)) = asked_bool [op] /\ length (snd (fst r0)) = asked_da [op] /\
       took (fst (fst r0)) (btriple_store s0) (btriple_store (snd r0)) /\
       took (snd (fst r0)) (dabit_store s0) (dabit_store (snd r0)) /\
       took (fst (fst r1)) (btriple_store s1) (btriple_store (snd r1)) /\
       took (snd (fst r1)) (dabit_store s1) (dabit_store (snd r1)))).
    + assert (G : forall (p q : proc store) R,
         rel p q R -> (forall a b, R a b -> stores_paired a b /\ grew s0 a /\ grew s1 b) ->
         asked_bool [op] = 0%nat -> asked_da [op] = 0%nat ->
         rel (s' <- p ;; Ret (@nil BoolTriple, @nil DaBit, s')) (s' <- q ;; Ret (@nil BoolTriple, @nil DaBit, s'))
           (fun r0 r1 =>
           stores_paired (snd r0) (snd r1) /\
           Forall2 btriple_pair (fst (fst r0)) (fst (fst r1)) /\
           Forall2 dabit_pair (snd (fst r0)) (snd (fst r1)) /\
           length (fst (fst r0)) = asked_bool [op] /\ length (snd (fst r0)) = asked_da [op] /\
           took (fst (fst r0)) (btriple_store s0) (btriple_store (snd r0)) /\
           took (snd (fst r0)) (dabit_store s0) (dabit_store (snd r0)) /\
           took (fst (fst r1)) (btriple_store s1) (btriple_store (snd r1)) /\
           took (snd (fst r1)) (dabit_store s1) (dabit_store (snd r1)))).
      { intros p q R H HR -> ->. eapply rel_bind; [exact H|]. intros a b Hab.
        destruct (HR a b Hab) as (S & G0 & G1). apply rel_ret. cbn [fst snd].
        destruct (grew_took_b _ _ G0) as (? & ? & _). destruct (grew_took_b _ _ G1) as (? & ? & _).
        split; [auto|]. split; [constructor|]. split; [constructor|]. auto 10. }
      destruct op.
      * eapply G; [apply addBoolTriples_rel; auto|cbn beta; tauto|reflexivity..].
      * eapply G; [apply addDaBits_rel; auto|cbn beta; tauto|reflexivity..].
      * eapply G; [apply checkBoolTriples_rel; auto|cbn beta; tauto|reflexivity..].
      * eapply G; [apply checkDaBits_rel; auto|cbn beta; tauto|reflexivity..].
      * eapply rel_bind; [apply getBoolTriples_rel; auto|]. cbn beta.
        intros [t0 a] [t1 b] (A & L & B & (C1 & C2 & _) & (D1 & D2 & _)). apply rel_ret. cbn [fst snd] in *.
        unfold asked_bool, asked_da. cbn [map fold_right length].
        do 8 (split; [first [assumption | constructor | lia]|]). assumption.
      * eapply rel_bind; [apply getDaBits_rel; auto|]. cbn beta.
        intros [t0 a] [t1 b] (A & L & B & (C1 & C2 & _) & (D1 & D2 & _)). apply rel_ret. cbn [fst snd] in *.
        unfold asked_bool, asked_da. cbn [map fold_right length].
        do 8 (split; [first [assumption | constructor | lia]|]). assumption.
      * eapply G; [apply maybeUpdate_rel; auto|cbn beta; tauto|reflexivity..].
    + cbn beta. intros [[t0 d0] a] [[t1 d1] b] (A1 & A2 & A3 & A4 & A5 & A6 & A7 & A8 & A9). cbn [fst snd] in *.
      eapply rel_bind; [apply IH; auto|]. cbn beta.
      intros [[t0' d0'] a'] [[t1' d1'] b'] (B1 & B2 & B3 & B4 & B5 & B6 & B7 & B8 & B9). cbn [fst snd] in *.
      apply rel_ret. cbn [fst snd]. split; [auto|]. split; [now apply Forall2_app|]. split; [now apply Forall2_app|].
      rewrite !app_length, A4, A5, B4, B5. unfold asked_bool, asked_da. cbn [map fold_right].
      split; [lia|]. split; [lia|]. repeat split; eapply took_trans; eauto.
Qed.

(** ** What is opened *)

Lemma get_enough_bool c T : forall ts k D,
  getBoolTriples c T (length ts) (mkStore D ts k) = Ret (ts, mkStore D [] k).
Proof.
  induction ts as [|t ts IH]; intros k D; [reflexivity|].
  cbn [length getBoolTriples]. unfold getBoolTriple, checkBoolTriples. cbn [btriple_store length].
  change (S (length ts) <? 1)%nat with false. cbn [bind btriple_store].
  unfold with_btriples. cbn [snd fst dabit_store ctr]. rewrite IH. reflexivity.
Qed.
Lemma get_enough_da c T : forall ts k B,
  getDaBits c T (length ts) (mkStore ts B k) = Ret (ts, mkStore [] B k).
Proof.
  induction ts as [|t ts IH]; intros k B; [reflexivity|].
  cbn [length getDaBits]. unfold getDaBit, checkDaBits. cbn [dabit_store length].
  change (S (length ts) <? 1)%nat with false. cbn [bind dabit_store].
  unfold with_dabits. cbn [snd fst btriple_store ctr]. rewrite IH. reflexivity.
Qed.

Lemma mul_first c T x y D ts k : length ts = length x ->
  first_xchg (multiplyBoolShares c T x y (mkStore D ts k)) =
  Some (pack_bools (map2 (fun xi t => xorb xi (ta t)) x ts) ++ pack_bools (map2 (fun yi t => xorb yi (tb t)) y ts)).
Proof.
  intros L. unfold multiplyBoolShares, checkBoolTriples. cbn [btriple_store]. rewrite <- L, Nat.ltb_irrefl.
  cbn [bind]. rewrite get_enough_bool. reflexivity.
Qed.
Lemma b2a_single_enough c T x B ds k : length ds = length x ->
  b2a_daBit_single c T x (mkStore ds B k) =
  Xchg (pack_bools (map2 (fun xi d => xorb xi (b2 d)) x ds)) (bool_bytes (length x))
    (fun bs => Ret (b2a_out (server_num c) x ds (unpack_bools (length x) bs), mkStore [] B k)).
Proof.
  intros L. unfold b2a_daBit_single, checkDaBits. cbn [dabit_store]. rewrite <- L, Nat.ltb_irrefl.
  cbn [bind]. rewrite get_enough_da. reflexivity.
Qed.
Lemma b2a_multi_run c0 c1 T0 T1 nbs x0 x1 ds0 ds1 B0 B1 k0 k1 :
  forallb (fun nb => (nb <=? 32)%nat) nbs = true ->
  length x0 = length nbs -> length x1 = length nbs ->
  length ds0 = total nbs -> length ds1 = total nbs ->
  let bits0 := concat (map2 intsum_recv_bits nbs x0) in
  let bits1 := concat (map2 intsum_recv_bits nbs x1) in
  let o0 := b2a_out (server_num c0) bits0 ds0 (map2 (fun xi d => xorb xi (b2 d)) bits1 ds1) in
  let o1 := b2a_out (server_num c1) bits1 ds1 (map2 (fun xi d => xorb xi (b2 d)) bits0 ds0) in
  always (b2a_daBit_multi c0 T0 nbs x0 (mkStore ds0 B0 k0)) (b2a_daBit_multi c1 T1 nbs x1 (mkStore ds1 B1 k1))
    (map (fun l => multi_acc l 0 0) (pieces nbs o0), mkStore [] B0 k0)
    (map (fun l => multi_acc l 0 0) (pieces nbs o1), mkStore [] B1 k1).
Proof.
  cbv zeta. intros Hf L0 L1 D0 D1. apply conv_always. unfold b2a_daBit_multi. rewrite Hf.
  unfold checkDaBits. cbn [dabit_store]. rewrite D0, D1, Nat.ltb_irrefl. cbn [bind].
  rewrite !map2_map_recv.
  pose proof (concat_bits_length nbs x0 L0) as C0. pose proof (concat_bits_length nbs x1 L1) as C1.
  set (bits0 := concat (map2 intsum_recv_bits nbs x0)) in *.
  set (bits1 := concat (map2 intsum_recv_bits nbs x1)) in *.
  rewrite !b2a_single_enough by congruence. cbn [bind fst snd].
  set (v0 := map2 _ bits0 ds0). set (v1 := map2 _ bits1 ds1).
  assert (Lv0 : length v0 = total nbs) by (subst v0; rewrite map2_length; lia).
  assert (Lv1 : length v1 = total nbs) by (subst v1; rewrite map2_length; lia).
  rewrite C0, C1.
  rewrite <- (unpack_pack v1) at 2. rewrite <- (unpack_pack v0) at 2. rewrite Lv0, Lv1.
  apply (conv_xchg_ret (pack_bools v0) (pack_bools v1) _ _
    (fun bs => (map (fun l => multi_acc l 0 0) (pieces nbs (b2a_out (server_num c0) bits0 ds0 (unpack_bools (total nbs) bs))), mkStore [] B0 k0))
    (fun bs => (map (fun l => multi_acc l 0 0) (pieces nbs (b2a_out (server_num c1) bits1 ds1 (unpack_bools (total nbs) bs))), mkStore [] B1 k1)));
  now apply bool_bytes_pack.
Qed.
Lemma b2a_first c T x B ds k : length ds = length x ->
  first_xchg (b2a_daBit_single c T x (mkStore ds B k)) =
  Some (pack_bools (map2 (fun xi d => xorb xi (b2 d)) x ds)).
Proof.
  intros L. unfold b2a_daBit_single, checkDaBits. cbn [dabit_store]. rewrite <- L, Nat.ltb_irrefl.
  cbn [bind]. rewrite get_enough_da. reflexivity.
Qed.

Lemma pack_inj a b : length a = length b -> pack_bools a = pack_bools b -> a = b.
Proof. intros L H. rewrite <- (unpack_pack a), <- (unpack_pack b). now rewrite L, H. Qed.

Lemma xorb_move a b c : xorb a b = c <-> b = xorb a c.
Proof. destruct a, b, c; cbn; split; congruence. Qed.

Lemma mul_mask_unique : forall x y t1 d e,
  length y = length x -> length t1 = length x -> length d = length x -> length e = length x ->
  exists! t0, Forall2 btriple_pair t0 t1 /\
    map2 (fun xi t => xorb xi (ta t)) x t0 = d /\ map2 (fun yi t => xorb yi (tb t)) y t0 = e.
Proof.
  induction x as [|a x IH]; intros [|b y] [|t t1] [|di d] [|ei e] L1 L2 L3 L4; try discriminate.
  - exists []. split; [cbn; auto|]. intros t0 (H & _). inversion H. auto.
  - cbn [length] in *. destruct (IH y t1 d e) as (t0 & (H1 & H2 & H3) & U); try lia.
    set (A := xorb a di). set (B := xorb b ei).
    exists (mkBoolT A B (xorb (tc t) (xorb A (ta t) && xorb B (tb t))) :: t0). split.
    + split; [constructor; auto|].
      * unfold btriple_pair. cbn [ta tb tc]. destruct (tc t), (xorb A (ta t)), (xorb B (tb t)); reflexivity.
      * cbn [map2 ta tb]. rewrite H2, H3. unfold A, B. split; f_equal; [destruct a, di|destruct b, ei]; reflexivity.
    + intros [|u t0'] (K1 & K2 & K3); [inversion K1|]. inversion K1 as [|? ? ? ? Kp]; subst.
      cbn [map2] in *. injection K2 as Ka K2. injection K3 as Kb K3.
      rewrite (U t0') by auto. f_equal. destruct u as [u v w]. unfold btriple_pair in *. cbn [ta tb tc] in *.
      apply xorb_move in Ka. apply xorb_move in Kb. subst u v. fold A in Kp |- *. fold B in Kp |- *. f_equal.
      revert Kp.
      destruct w, (tc t), (xorb A (ta t)), (xorb B (tb t)); cbn; congruence.
Qed.

Lemma b2a_mask_unique : forall x t1 v,
  length t1 = length x -> length v = length x -> Forall (fun d => 0 <= bp d < Int_Modulus) t1 ->
  exists! t0, Forall2 dabit_pair t0 t1 /\ map2 (fun xi t => xorb xi (b2 t)) x t0 = v.
Proof.
  pose proof p_ge as Hp.
  induction x as [|a x IH]; intros [|t t1] [|vi v] L1 L2 HF; try discriminate.
  - exists []. split; [cbn; auto|]. intros t0 (H & _). inversion H. auto.
  - cbn [length] in *. inversion HF as [|? ? Ht HF']; subst.
    destruct (IH t1 v) as (t0 & (H1 & H2) & U); try lia; auto.
    set (A := xorb a vi). set (bit := b2z (xorb A (b2 t))).
    assert (Hbit : 0 <= bit <= 1) by (unfold bit; destruct (xorb A (b2 t)); cbn; lia).
    exists (mkDaBit ((bit - bp t) mod Int_Modulus) A :: t0). split.
    + split; [constructor; auto|].
      * unfold dabit_pair. cbn [bp b2]. split; [apply modp_range|]. split; [auto|]. fold bit.
        apply cong_mod_eq; [lia|]. demod. cong_ring.
      * cbn [map2 b2]. rewrite H2. unfold A. f_equal. destruct a, vi; reflexivity.
    + intros [|u t0'] (K1 & K2); [inversion K1|]. inversion K1 as [|? ? ? ? (Q1 & Q2 & Q3)]; subst.
      cbn [map2] in *. injection K2 as Ka K2. rewrite (U t0') by auto. f_equal.
      destruct u as [u w]. cbn [bp b2] in *. apply xorb_move in Ka. subst w. fold A in Q3 |- *. f_equal.
      fold bit in Q3. apply (cong_small Int_Modulus); auto; [apply modp_range|]. demod.
      transitivity ((u + bp t) - bp t); [|cong_ring].
      apply cong_sub; [|reflexivity]. apply cong_iff. rewrite Q3. apply Z.mod_small. lia.
Qed.
