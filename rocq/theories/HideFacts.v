(** Transfers are masked: each possible view arises from exactly one choice of masks. *)
From Coq Require Import ZArith List Bool Lia.
From Verif Require Import Words Cong Constants Share SpecShare ShareFacts Proc SpecHide OT OTFacts.
Import ListNotations.
Open Scope Z_scope.

Lemma mask_reduce m rnd i : mod_ok m -> reduce m (u64 (rnd i)) = mask m rnd i.
Proof.
  intros H. unfold mask, reduce, ot_modulus, u64. destruct (Z.eqb_spec m 0); [|reflexivity].
  symmetry. apply Z.mod_small, Z.mod_pos_bound. reflexivity.
Qed.
Lemma mask_range m rnd i : mod_ok m -> 0 <= mask m rnd i < ot_modulus m.
Proof. intros H. rewrite <- mask_reduce by exact H. now apply reduce_range. Qed.

(** The pair at position [i]: [None] for an entry that does not count, else the difference
    of the two messages. *)
Definition entry (m : Z) (rnd : nat -> Z) (i : nat) (d : option Z) : Z * Z :=
  match d with
  | None => (0, 0)
  | Some d => (mask m rnd i, (mask m rnd i + d) mod ot_modulus m)
  end.
Definition counts_of (ds : list (option Z)) : list bool := map (fun d => match d with Some _ => true | None => false end) ds.

Lemma map2_app {A B C} (f : A -> B -> C) a b c d : length a = length c ->
  map2 f (a ++ b) (c ++ d) = map2 f a c ++ map2 f b d.
Proof.
  revert c. induction a as [|x a IH]; intros [|y c] H; cbn in *; try lia; [reflexivity|]. f_equal. apply IH. lia.
Qed.

Lemma masked m : mod_ok m -> forall ds idx cs want, length cs = length ds -> possible m (counts_of ds) want ->
  exists rnd, map2 ot_select cs (map2 (entry m rnd) (seq idx (length ds)) ds) = want /\
    forall rnd', map2 ot_select cs (map2 (entry m rnd') (seq idx (length ds)) ds) = want ->
      forall i, (i < length ds)%nat -> nth i (counts_of ds) false = true -> mask m rnd' (idx + i) = mask m rnd (idx + i).
Proof.
  intros Hm. assert (MP := ot_modulus_pos m Hm).
  assert (M64 : ot_modulus m <= two64).
  { unfold ot_modulus. destruct (Z.eqb_spec m 0); [lia|]. destruct Hm; [contradiction|]. unfold two64. lia. }
  induction ds as [|d ds IH]; intros idx cs want Lc P.
  - exists (fun _ => 0). destruct cs; [|discriminate]. inversion P. split; [reflexivity|]. cbn. lia.
  - destruct cs as [|c cs]; [discriminate|]. cbn in Lc. inversion P as [|? w ? want' Hw P' E1 E2]. subst want. clear P. subst.
    destruct (IH (S idx) cs want' ltac:(lia) P') as (rnd & R & U).
    set (M := ot_modulus m) in *.
    (* the mask that gives w *)
    set (x := match d with Some d => if c then (w - d) mod M else w | None => 0 end).
    set (rnd' := fun i => if (i =? idx)%nat then x else rnd i).
    exists rnd'.
    assert (EXT : map2 (entry m rnd') (seq (S idx) (length ds)) ds = map2 (entry m rnd) (seq (S idx) (length ds)) ds).
    { clear. assert (H : forall k, (idx < k)%nat -> map2 (entry m rnd') (seq k (length ds)) ds = map2 (entry m rnd) (seq k (length ds)) ds).
      { induction ds as [|e ds IH]; intros k Hk; [reflexivity|]. cbn [length seq map2]. rewrite IH by lia. f_equal.
        unfold entry, mask, rnd'. destruct (Nat.eqb_spec k idx); [lia|]. reflexivity. }
      apply H. lia. }
    assert (MX : match d with Some _ => mask m rnd' idx = x | None => True end).
    { destruct d as [d|]; [|exact I]. cbn in Hw. unfold mask, rnd'. rewrite Nat.eqb_refl. fold M.
      assert (0 <= x < M) by (unfold x; destruct c; [apply Z.mod_pos_bound; exact MP|exact Hw]).
      rewrite (Z.mod_small x two64) by lia. now apply Z.mod_small. }
    split.
    + cbn [length seq map2]. rewrite EXT, R. f_equal. destruct d as [d|]; cbn [entry].
      * rewrite MX. cbn in Hw. unfold x. destruct c; cbn [ot_select fst snd]; [|reflexivity]. fold M.
        rewrite Z.add_mod_idemp_l by lia. replace (w - d + d) with w by ring. now apply Z.mod_small.
      * destruct c; cbn; now rewrite Hw.
    + intros rnd2 E i Hi Ci. cbn [length seq map2] in E. injection E as E0 E. destruct i as [|i].
      * rewrite Nat.add_0_r. cbn in Ci. destruct d as [d|]; [|discriminate]. rewrite MX. cbn [entry] in E0.
        pose proof (mask_range m rnd2 idx Hm) as RG. fold M in RG, E0. unfold x. cbn in Hw. destruct c; cbn [ot_select fst snd] in E0.
        -- rewrite <- E0, Zminus_mod_idemp_l. replace (mask m rnd2 idx + d - d) with (mask m rnd2 idx) by ring.
           symmetry. now apply Z.mod_small.
        -- exact E0.
      * cbn in Ci. specialize (U rnd2 E i ltac:(cbn in Hi; lia) Ci). rewrite Nat.add_succ_r. cbn [Nat.add] in U. rewrite U.
        unfold mask, rnd'. destruct (Nat.eqb_spec (S (idx + i)) idx); [lia|]. reflexivity.
Qed.

(** ** Integers *)
Fixpoint deltas (nb : nat) (k num : Z) : list (option Z) :=
  match nb with
  | O => []
  | S nb' => Some (if Z.odd num then - 2 ^ k else 2 ^ k) :: deltas nb' (k + 1) (num / 2)
  end.
Lemma deltas_length nb : forall k num, length (deltas nb k num) = nb.
Proof. induction nb as [|nb IH]; intros; cbn; [reflexivity|]. now rewrite IH. Qed.
Lemma deltas_counts nb : forall k num, counts_of (deltas nb k num) = repeat true nb.
Proof. induction nb as [|nb IH]; intros; cbn; [reflexivity|]. f_equal. apply IH. Qed.

Lemma bits_form m rnd : mod_ok m -> forall nb k idx num acc,
  0 <= k -> (m <> 0 -> nb <> 0%nat -> 2 ^ (k + Z.of_nat nb - 1) <= m) ->
  fst (intsum_send_bits m rnd nb k idx num acc) = map2 (entry m rnd) (seq idx nb) (deltas nb k num).
Proof.
  intros Hm nb. induction nb as [|nb IH]; intros k idx num acc Hk Hp; [reflexivity|].
  cbn [intsum_send_bits seq deltas map2].
  destruct (intsum_send_bits _ _ nb _ _ _ _) as [l' a'] eqn:E. cbn [fst].
  assert (EL := f_equal fst E). cbn [fst] in EL. rewrite <- EL, IH; [|lia|].
  2: { intros N N'. replace (k + 1 + Z.of_nat nb - 1) with (k + Z.of_nat (S nb) - 1) by lia. apply Hp; auto. }
  f_equal. unfold entry. rewrite mask_reduce by exact Hm. f_equal.
  set (b0 := mask m rnd idx). pose proof (mask_range m rnd idx Hm) as RG. fold b0 in RG.
  assert (Hpow : m <> 0 -> 0 <= 2 ^ k <= m).
  { intros N. split; [apply Z.pow_nonneg; lia|]. etransitivity; [|apply Hp; auto]. apply Z.pow_le_mono_r; lia. }
  destruct (ot_max_neg m (2 ^ k) Hm ltac:(auto)) as [Cmp Rmp]. set (mp := u64 (ot_max m - 2 ^ k + 1)) in *.
  assert (C : cong (ot_modulus m) (reduce m (u64 (b0 + (if Z.odd num then mp else 2 ^ k))))
                (b0 + (if Z.odd num then - 2 ^ k else 2 ^ k))).
  { rewrite reduce_cong; auto.
    - destruct (Z.odd num); [now rewrite Cmp|reflexivity].
    - intro N. specialize (Rmp N). specialize (Hpow N). unfold ot_modulus in RG.
      destruct (Z.eqb_spec m 0); [contradiction|].
      assert (m < 2 ^ 62) by (destruct Hm; lia). change (2 ^ 62) with 4611686018427387904 in *. unfold two64.
      destruct (Z.odd num); lia. }
  pose proof (reduce_range m (b0 + (if Z.odd num then mp else 2 ^ k)) Hm) as RR.
  rewrite <- (Z.mod_small (reduce _ _) (ot_modulus m)) by exact RR. now apply cong_iff.
Qed.

Definition row_deltas (cols : list (Z * nat)) : list (option Z) := flat_map (fun c => deltas (snd c) 0 (fst c)) cols.
Lemma row_form m rnd : mod_ok m -> forall cols idx, Forall (width_ok m) (map snd cols) ->
  fst (intsum_send_row m rnd cols idx) = map2 (entry m rnd) (seq idx (length (row_deltas cols))) (row_deltas cols).
Proof.
  intros Hm. induction cols as [|[num nb] cols IH]; intros idx W; [reflexivity|].
  cbn [map] in W. inversion W as [|? ? W1 W2]. subst. cbn [intsum_send_row].
  destruct (intsum_send_bits _ _ _ _ _ _ _) as [l a] eqn:E1. destruct (intsum_send_row _ _ _ _) as [l' a'] eqn:E2.
  cbn [fst]. assert (F1 := f_equal fst E1). assert (F2 := f_equal fst E2). cbn [fst] in F1, F2.
  rewrite <- F1, <- F2, IH by exact W2.
  rewrite bits_form; [|exact Hm|lia|].
  2: { intros N N'. rewrite Z.add_0_l. now apply W1. }
  unfold row_deltas. cbn [flat_map fst snd]. rewrite app_length, deltas_length, seq_app, map2_app; [reflexivity|].
  now rewrite seq_length, deltas_length.
Qed.
Lemma row_deltas_length : forall cols, length (row_deltas cols) = total (map snd cols).
Proof.
  induction cols as [|[num nb] cols IH]; [reflexivity|]. unfold row_deltas in *. cbn [flat_map fst snd map].
  rewrite app_length, deltas_length, IH. reflexivity.
Qed.
Lemma row_deltas_counts : forall cols, counts_of (row_deltas cols) = repeat true (total (map snd cols)).
Proof.
  induction cols as [|[num nb] cols IH]; [reflexivity|]. unfold row_deltas in *. cbn [flat_map fst snd map].
  unfold counts_of in *. rewrite map_app, IH. fold (counts_of (deltas nb 0 num)). rewrite deltas_counts.
  symmetry. apply repeat_app.
Qed.
Lemma combine_snd {A B} (a : list A) (b : list B) : length a = length b -> map snd (combine a b) = b.
Proof. revert b. induction a as [|x a IH]; intros [|y b] H; cbn in *; try lia; [reflexivity|]. f_equal. apply IH. lia. Qed.

Definition rows_deltas (nbs : list nat) (rows : list (list Z * bool)) : list (option Z) :=
  flat_map (fun r => if snd r : bool then row_deltas (combine (fst r) nbs) else repeat None (total nbs)) rows.
Lemma entry_none m rnd n : forall idx, map2 (entry m rnd) (seq idx n) (repeat None n) = repeat (0, 0) n.
Proof. induction n as [|n IH]; intros idx; cbn; [reflexivity|]. f_equal. apply IH. Qed.
Lemma rows_form m rnd nbs : mod_ok m -> Forall (width_ok m) nbs -> forall rows idx,
  Forall (fun r => length (fst r) = length nbs) rows ->
  fst (intsum_send_rows m rnd nbs rows idx) =
    map2 (entry m rnd) (seq idx (length (rows_deltas nbs rows))) (rows_deltas nbs rows) /\
  length (rows_deltas nbs rows) = (length rows * total nbs)%nat /\
  counts_of (rows_deltas nbs rows) = spread_over (total nbs) (map snd rows).
Proof.
  intros Hm W. induction rows as [|[row valid] rows IH]; intros idx F; [repeat split|].
  inversion F as [|? ? F1 F2]. subst. cbn [fst] in F1. destruct (IH (idx + total nbs)%nat F2) as (I1 & I2 & I3).
  cbn [intsum_send_rows].
  assert (LD : length (if valid then row_deltas (combine row nbs) else repeat None (total nbs)) = total nbs).
  { destruct valid; [|apply repeat_length]. rewrite row_deltas_length, combine_snd by exact F1. reflexivity. }
  assert (FR : fst (if valid then intsum_send_row m rnd (combine row nbs) idx
        else (repeat (0, 0) (total nbs), repeat 0 (length nbs))) =
     map2 (entry m rnd) (seq idx (total nbs)) (if valid then row_deltas (combine row nbs) else repeat None (total nbs))).
  { destruct valid; cbn [fst].
    - rewrite row_form by (auto; now rewrite combine_snd). rewrite row_deltas_length, combine_snd by exact F1. reflexivity.
    - now rewrite entry_none. }
  set (head := if valid then intsum_send_row _ _ _ _ else _) in *. destruct head as [l ret]. cbn [fst] in FR.
  destruct (intsum_send_rows _ _ _ _ _) as [l' rets]. cbn [fst] in *. subst l l'.
  assert (DEC : rows_deltas nbs ((row, valid) :: rows) =
     (if valid then row_deltas (combine row nbs) else repeat None (total nbs)) ++ rows_deltas nbs rows) by reflexivity.
  rewrite DEC. set (D := if valid then row_deltas _ else _) in *. split; [|split].
  - rewrite app_length, LD, seq_app, map2_app by (rewrite seq_length; auto). reflexivity.
  - rewrite app_length, LD, I2. reflexivity.
  - unfold counts_of in *. rewrite map_app, I3. unfold spread_over. cbn [map snd flat_map]. f_equal.
    unfold D. destruct valid.
    + fold (counts_of (row_deltas (combine row nbs))). now rewrite row_deltas_counts, combine_snd.
    + clear. induction (total nbs) as [|n IH]; cbn; [reflexivity|]. f_equal. exact IH.
Qed.

Lemma map_snd_combine {A B} (a : list A) (b : list B) : length a = length b -> map snd (combine a b) = b.
Proof. apply combine_snd. Qed.

Lemma spread_length n l : length (spread_over n l) = (length l * n)%nat.
Proof. induction l as [|v l IH]; [reflexivity|]. unfold spread_over in *. cbn. now rewrite app_length, repeat_length, IH. Qed.

Lemma intsum_hides ot m nbs shares valid cs want :
  mod_ok m -> Forall (width_ok m) nbs -> length shares = length valid ->
  Forall (fun r => length r = length nbs) shares -> length cs = (length valid * total nbs)%nat ->
  possible m (spread_over (total nbs) valid) want ->
  exists rnd, ot_view ot cs (intsum_ot_sender ot rnd shares valid nbs m) = Some want /\
    forall rnd', ot_view ot cs (intsum_ot_sender ot rnd' shares valid nbs m) = Some want ->
      forall i, nth i (spread_over (total nbs) valid) false = true -> mask m rnd' i = mask m rnd i.
Proof.
  intros Hm W L F Lc P.
  assert (F' : Forall (fun r : list Z * bool => length (fst r) = length nbs) (combine shares valid)).
  { apply Forall_forall. intros [r v] Hr. apply in_combine_l in Hr. rewrite Forall_forall in F. now apply F. }
  assert (LR : length (combine shares valid) = length valid) by (rewrite combine_length, L; apply Nat.min_id).
  set (ds := rows_deltas nbs (combine shares valid)).
  assert (ALL : forall rnd, ot_view ot cs (intsum_ot_sender ot rnd shares valid nbs m) =
     Some (map2 ot_select cs (map2 (entry m rnd) (seq 0 (length ds)) ds))).
  { intros rnd. unfold intsum_ot_sender. rewrite (width_ok_64 m nbs W).
    destruct (rows_form m rnd nbs Hm W (combine shares valid) 0 F') as (R & _).
    destruct (intsum_send_rows _ _ _ _ _) as [msgs ret]. cbn [fst] in R. cbn [ot_view]. rewrite Bool.eqb_reflx, R. reflexivity. }
  destruct (rows_form m (fun _ => 0) nbs Hm W (combine shares valid) 0 F') as (_ & LD & CD). fold ds in LD, CD.
  rewrite LR in LD. rewrite combine_snd in CD by exact L.
  destruct (masked m Hm ds 0 cs want) as (rnd & R & U); [lia|now rewrite CD|].
  exists rnd. rewrite ALL, R. split; [reflexivity|]. intros rnd' E i Ci. rewrite ALL in E. injection E as E.
  apply (U rnd' E i); [|now rewrite CD]. rewrite LD, <- spread_length.
  destruct (Nat.lt_ge_cases i (length (spread_over (total nbs) valid))) as [H|H]; [exact H|].
  rewrite nth_overflow in Ci by exact H. discriminate.
Qed.

(** ** Bits *)
Definition bit_deltas (sv : list (bool * bool)) : list (option Z) :=
  map (fun s => if snd s : bool then Some (1 - 2 * b2z (fst s)) else None) sv.
Lemma bits_loop_form rnd : forall sv i sum,
  fst (bitsum_send_loop 0 rnd sv i sum) = map2 (entry 0 rnd) (seq i (length (bit_deltas sv))) (bit_deltas sv).
Proof.
  induction sv as [|[s v] sv IH]; intros i sum; [reflexivity|]. cbn [bitsum_send_loop]. destruct v.
  - specialize (IH (S i) (reduce 0 (u64 (sum + u64 (ot_max 0 - reduce 0 (u64 (rnd i)) + 1) + b2z s)))).
    destruct (bitsum_send_loop _ _ _ _ _) as [l a]. cbn [fst] in *. rewrite IH. cbn [bit_deltas map length seq map2 fst snd].
    f_equal. unfold entry. rewrite mask_reduce by (left; reflexivity). f_equal. unfold u64, ot_modulus. cbn. f_equal. ring.
  - specialize (IH (S i) sum). destruct (bitsum_send_loop _ _ _ _ _) as [l a]. cbn [fst] in *. rewrite IH. reflexivity.
Qed.
Lemma bitsum_hides ot shares valid cs want :
  length shares = length valid -> length cs = length valid -> possible 0 valid want ->
  exists rnd, ot_view ot cs (bitsum_ot_sender ot rnd shares valid 0) = Some want /\
    forall rnd', ot_view ot cs (bitsum_ot_sender ot rnd' shares valid 0) = Some want ->
      forall i, nth i valid false = true -> mask 0 rnd' i = mask 0 rnd i.
Proof.
  intros L Lc P. set (ds := bit_deltas (combine shares valid)).
  assert (LD : length ds = length valid) by (unfold ds, bit_deltas; rewrite map_length, combine_length, L; apply Nat.min_id).
  assert (CD : counts_of ds = valid).
  { unfold counts_of, ds, bit_deltas. rewrite map_map. rewrite <- (combine_snd shares valid) at 2 by exact L.
    apply map_ext. intros [s []]; reflexivity. }
  assert (ALL : forall rnd, ot_view ot cs (bitsum_ot_sender ot rnd shares valid 0) =
     Some (map2 ot_select cs (map2 (entry 0 rnd) (seq 0 (length ds)) ds))).
  { intros rnd. unfold bitsum_ot_sender. pose proof (bits_loop_form rnd (combine shares valid) 0 0) as R.
    destruct (bitsum_send_loop _ _ _ _ _) as [msgs s]. cbn [fst] in R. cbn [ot_view]. rewrite Bool.eqb_reflx, R. reflexivity. }
  destruct (masked 0 (or_introl eq_refl) ds 0 cs want) as (rnd & R & U); [lia|now rewrite CD|].
  exists rnd. rewrite ALL, R. split; [reflexivity|]. intros rnd' E i Ci. rewrite ALL in E. injection E as E.
  apply (U rnd' E i); [|now rewrite CD]. rewrite LD.
  destruct (Nat.lt_ge_cases i (length valid)) as [H|H]; [exact H|].
  rewrite nth_overflow in Ci by exact H. discriminate.
Qed.

(** ** Boolean triples *)
Lemma triples_hide ot cs x want :
  length cs = length x -> length want = length x ->
  exists! r, length r = length x /\ ot_view ot cs (OTSend ot (btriple_msgs x r) (Ret tt)) = Some (map b2z want).
Proof.
  revert cs want. induction x as [|x0 x IH]; intros [|c cs] [|w want] L1 L2; cbn in L1, L2; try lia.
  - exists []. split; [split; [reflexivity|]; cbn; now rewrite Bool.eqb_reflx|]. intros [|] [H _]; [reflexivity|discriminate].
  - destruct (IH cs want ltac:(lia) ltac:(lia)) as (r & [Lr V] & U). cbn [ot_view] in V, U. rewrite Bool.eqb_reflx in V, U.
    set (r0 := if c then xorb x0 w else w).
    exists (r0 :: r). cbn [ot_view]. rewrite Bool.eqb_reflx. split.
    + split; [cbn; lia|]. unfold btriple_msgs in *. cbn [map2 map]. injection V as ->. do 2 f_equal.
      unfold r0. destruct c, x0, w; reflexivity.
    + intros [|s0 s] [Ls E]; [discriminate|]. unfold btriple_msgs in E. cbn [map2 map] in E. injection E as E0 E.
      f_equal.
      * unfold r0. destruct c, x0, w, s0; cbn in E0 |- *; congruence.
      * apply U. split; [cbn in Ls; lia|]. unfold btriple_msgs. now rewrite E.
Qed.


(** ** Every view is possible, so any other input explains it *)
Lemma view_possible m : mod_ok m -> forall rnd ds idx cs, length cs = length ds ->
  possible m (counts_of ds) (map2 ot_select cs (map2 (entry m rnd) (seq idx (length ds)) ds)).
Proof.
  intros Hm rnd ds. induction ds as [|d ds IH]; intros idx [|c cs] L; cbn in L; try lia; [constructor|].
  cbn [length seq map2 counts_of map]. constructor; [|apply IH; lia].
  destruct d as [d|]; [|destruct c; reflexivity]. cbn [entry]. destruct c; cbn [ot_select fst snd].
  - apply Z.mod_pos_bound. now apply ot_modulus_pos.
  - now apply mask_range.
Qed.
Lemma intsum_view_possible ot m nbs rnd shares valid cs :
  mod_ok m -> Forall (width_ok m) nbs -> length shares = length valid ->
  Forall (fun r => length r = length nbs) shares -> length cs = (length valid * total nbs)%nat ->
  exists v, ot_view ot cs (intsum_ot_sender ot rnd shares valid nbs m) = Some v /\
    possible m (spread_over (total nbs) valid) v.
Proof.
  intros Hm W L F Lc.
  assert (F' : Forall (fun r : list Z * bool => length (fst r) = length nbs) (combine shares valid)).
  { apply Forall_forall. intros [r v] Hr. apply in_combine_l in Hr. rewrite Forall_forall in F. now apply F. }
  assert (LR : length (combine shares valid) = length valid) by (rewrite combine_length, L; apply Nat.min_id).
  destruct (rows_form m rnd nbs Hm W (combine shares valid) 0 F') as (R & LD & CD).
  rewrite LR in LD. rewrite combine_snd in CD by exact L.
  unfold intsum_ot_sender. rewrite (width_ok_64 m nbs W).
  destruct (intsum_send_rows _ _ _ _ _) as [msgs ret]. cbn [fst] in R. subst msgs. cbn [ot_view]. rewrite Bool.eqb_reflx.
  eexists. split; [reflexivity|]. rewrite <- CD. apply view_possible; [exact Hm|lia].
Qed.
Lemma intsum_same_view ot m nbs rnd shares shares' valid cs :
  mod_ok m -> Forall (width_ok m) nbs -> length shares = length valid -> length shares' = length valid ->
  Forall (fun r => length r = length nbs) shares -> Forall (fun r => length r = length nbs) shares' ->
  length cs = (length valid * total nbs)%nat ->
  exists rnd', ot_view ot cs (intsum_ot_sender ot rnd' shares' valid nbs m) =
               ot_view ot cs (intsum_ot_sender ot rnd shares valid nbs m).
Proof.
  intros Hm W L L' F F' Lc. destruct (intsum_view_possible ot m nbs rnd shares valid cs) as (v & V & P); auto.
  destruct (intsum_hides ot m nbs shares' valid cs v) as (rnd' & R & _); auto. exists rnd'. now rewrite V.
Qed.
