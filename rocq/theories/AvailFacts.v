(** * Arbitrary bytes from clients: proofs for C57 *)
From Coq Require Import ZArith List Bool Lia Permutation.
From Verif Require Import Words WordsFacts Constants Share Proc ProcFacts Net NetFacts SpecNet RelFacts Circuit Snip SpecSnip
  ServerOps SpecServer TableFacts ServerFacts ServerProps SpecStat SpecAvail SnipFacts StatReads StatProps StatSound.
Import ListNotations.
Open Scope Z_scope.

(** ** Reading *)
Lemma skipn_firstn_length (n : nat) (s old : list Z) : length old = n ->
  length (fst (crecv n s old)) = n.
Proof. intros H. unfold crecv. cbn [fst]. rewrite app_length, firstn_length, skipn_length. lia. Qed.
Lemma crecv_bytes n s old : bytes s -> bytes old -> bytes (fst (crecv n s old)) /\ bytes (snd (crecv n s old)).
Proof.
  unfold bytes, crecv. cbn [fst snd]. intros H H'. split.
  - apply Forall_app. split; [now apply Forall_firstn|now apply Forall_skipn].
  - now apply Forall_skipn.
Qed.

Lemma find_none_key {V} (m : table V) pk : find pk m = None -> ~ In pk (map fst m).
Proof.
  induction m as [|[k v] m IH]; cbn; [easy|]. destruct (key_eqb k pk) eqn:E; [discriminate|].
  intros H [F|F]; [subst; rewrite key_eqb_refl in E; discriminate|now apply IH].
Qed.

Section Receive.
Context {S V : Type} (one : S -> list Z * entry V * S) (Inv : S -> Prop) (P : V -> Prop).
Hypothesis step : forall s, Inv s -> let '(pk, e, s') := one s in
  length pk = 32%nat /\ Inv s' /\ e <> Bad /\ forall v, e = Take v -> P v.

Lemma receive_any : forall n s m, Inv s -> keys_ok m -> Forall (fun e => P (snd e)) m ->
  exists m', receive one n s m = Some m' /\ keys_ok m' /\ Forall (fun e => P (snd e)) m' /\
    (length m' <= length m + n)%nat.
Proof.
  induction n as [|n IH]; intros s m Hs HK HP; cbn [receive].
  - exists m. repeat split; auto; try apply HK. lia.
  - pose proof (step s Hs) as St. destruct (one s) as [[pk e] s']. destruct St as (L & Hs' & NB & T).
    assert (more : exists m', receive one n s' m = Some m' /\ keys_ok m' /\ Forall (fun e => P (snd e)) m' /\
      (length m' <= length m + Datatypes.S n)%nat).
    { destruct (IH s' m Hs' HK HP) as (m' & A & B & C & D). exists m'. repeat split; auto; try apply B. lia. }
    destruct (find pk m) eqn:E; [exact more|]. destruct e as [v| |]; [|exact more|now elim NB].
    destruct (IH s' (m ++ [(pk, v)]) Hs') as (m' & A & B & C & D).
    + destruct HK as [K1 K2]. split.
      * rewrite map_app. cbn. apply NoDup_Add with (a := pk) (l := map fst m).
        { rewrite <- (app_nil_r (map fst m)) at 1. apply Add_app. }
        split; auto. now apply find_none_key.
      * apply Forall_app. split; auto.
    + apply Forall_app. split; auto.
    + exists m'. repeat split; auto; try apply B. rewrite app_length in D. cbn in D. lia.
Qed.
Lemma received n s : Inv s -> exists m, receive one n s [] = Some m /\ keys_ok m /\
  Forall (fun e => P (snd e)) m /\ (length m <= n)%nat.
Proof.
  intros H. destruct (receive_any n s [] H) as (m & A & B & C & D); [split; constructor|constructor|].
  exists m. auto.
Qed.
End Receive.

Lemma both_in_exists {V W} (m0 : table V) (m1 : table W) : NoDup (map fst m1) -> exists L, both_in m0 m1 L.
Proof.
  intros H. exists (filter (known m0) (map fst m1)). split; [now apply NoDup_filter|].
  intros pk. rewrite filter_In, known_iff. split.
  - intros [A B]. split; auto. intros E. now apply find_none_key in E.
  - intros [A B]. split; auto. destruct (in_dec (list_eq_dec Z.eq_dec) pk (map fst m1)) as [|N]; auto.
    elim B. clear - N. induction m1 as [|[k v] m1 IH]; cbn; auto. cbn in N.
    destruct (key_eqb k pk) eqn:E; [|apply IH; tauto]. unfold key_eqb in E.
    destruct (list_eq_dec Z.eq_dec k pk); [subst; tauto|discriminate].
Qed.

Lemma ended_outcome {A} n t (x : A) : ended (outcome n t x).
Proof. unfold outcome, ended. destruct (2 * n <? t)%nat; eauto. Qed.

(** ** INT_SUM, AND, OR *)
Definition buf_ok (n : nat) (sb : list Z * list Z) : Prop := bytes (fst sb) /\ bytes (snd sb) /\ length (snd sb) = n.

Lemma int_step mx s : buf_ok 40 s -> let '(pk, e, s') := int_one mx s in
  length pk = 32%nat /\ buf_ok 40 s' /\ e <> Bad /\ forall v, e = Take v -> word v /\ match mx with Some m => v < m | None => True end.
Proof.
  destruct s as [str old]. intros (B & B' & L). cbn [fst snd] in *. unfold int_one. cbn [fst snd].
  pose proof (skipn_firstn_length 40 str old L) as L'. destruct (crecv_bytes 40 str old B B') as [C C'].
  destruct (crecv 40 str old) as [buf rest]. cbn [fst snd] in *.
  split; [rewrite firstn_length; lia|]. split; [repeat split; auto|].
  assert (W : word (le_val (skipn 32 buf))).
  { pose proof (le_val_range (skipn 32 buf) ltac:(now apply Forall_skipn)) as R. rewrite skipn_length, L' in R.
    exact R. }
  destruct mx as [m|].
  - destruct (Z.leb_spec m (le_val (skipn 32 buf))); split; try discriminate. intros v [= <-]. auto.
  - split; [discriminate|]. intros v [= <-]. auto.
Qed.

Lemma int_any nb order0 order1 total0 total1 stream0 stream1 junk0 junk1 rnd0 rnd1 :
  (nb <= 63)%nat -> fair order1 -> Z.of_nat total1 < two32 -> bytes stream0 -> bytes stream1 ->
  buffer 40 junk0 -> buffer 40 junk1 ->
  both (int_sum false order0 nb total0 stream0 junk0 rnd0) (int_sum true order1 nb total1 stream1 junk1 rnd1)
    (fun r0 r1 => ended r0 /\ r1 = RET_NO_ANS).
Proof.
  intros HB HF HT S0 S1 [J0 J0'] [J1 J1']. unfold int_sum.
  replace (64 <=? nb)%nat with false by (symmetry; apply Nat.leb_gt; lia).
  destruct (received (int_one (Some (max_val nb))) (buf_ok 40) (fun v => word v /\ v < max_val nb)
    (int_step (Some (max_val nb))) total0 (stream0, junk0)) as (m0 & E0 & K0 & P0 & L0); [repeat split; auto|].
  destruct (received (int_one (Some (max_val nb))) (buf_ok 40) (fun v => word v /\ v < max_val nb)
    (int_step (Some (max_val nb))) total1 (stream1, junk1)) as (m1 & E1 & K1 & P1 & L1); [repeat split; auto|].
  rewrite E0, E1. destruct (both_in_exists m0 m1 (proj1 K1)) as [L HL]. apply rel_both.
  eapply rel_imp; [apply (int_sum_tables order1 nb m0 m1 total0 rnd0 L); auto; try lia|].
  - eapply Forall_impl; [|exact P0]. unfold word, max_val. cbn beta. lia.
  - eapply Forall_impl; [|exact P1]. unfold word, max_val. cbn beta. lia.
  - intros a b [-> ->]. split; auto using ended_outcome.
Qed.

Lemma xor_any is_and order0 order1 total0 total1 stream0 stream1 junk0 junk1 :
  fair order1 -> Z.of_nat total1 < two32 -> bytes stream0 -> bytes stream1 ->
  buffer 40 junk0 -> buffer 40 junk1 ->
  both (xor_op false order0 is_and total0 stream0 junk0) (xor_op true order1 is_and total1 stream1 junk1)
    (fun r0 r1 => ended r0 /\ r1 = RET_NO_ANS).
Proof.
  intros HF HT S0 S1 [J0 J0'] [J1 J1']. unfold xor_op.
  destruct (received (int_one None) (buf_ok 40) (fun v => word v /\ True)
    (int_step None) total0 (stream0, junk0)) as (m0 & E0 & K0 & P0 & L0); [repeat split; auto|].
  destruct (received (int_one None) (buf_ok 40) (fun v => word v /\ True)
    (int_step None) total1 (stream1, junk1)) as (m1 & E1 & K1 & P1 & L1); [repeat split; auto|].
  rewrite E0, E1. destruct (both_in_exists m0 m1 (proj1 K1)) as [L HL]. apply rel_both.
  eapply rel_imp; [apply (xor_op_tables order1 is_and m0 m1 total0 L); auto; try lia|].
  - eapply Forall_impl; [|exact P1]. intros e [W _]. exact W.
  - intros a b [-> ->]. split; auto using ended_outcome.
Qed.

(** ** BIT_SUM *)
Definition bool_inv (sb : list Z * list Z) : Prop :=
  bools_at 33 32 (fst sb) /\ length (snd sb) = 33%nat /\ is_bool (nth 32 (snd sb) 0).
Lemma nth_crecv n (s old : list Z) i : (i < n)%nat -> length old = n ->
  nth i (fst (crecv n s old)) 0 = if (i <? length s)%nat then nth i s 0 else nth i old 0.
Proof.
  intros Hi L. unfold crecv. cbn [fst]. destruct (Nat.ltb_spec i (length s)) as [H|H].
  - rewrite app_nth1 by (rewrite firstn_length; lia). rewrite <- (firstn_skipn n s) at 2.
    now rewrite app_nth1 by (rewrite firstn_length; lia).
  - rewrite firstn_all2 by lia. rewrite app_nth2 by lia. rewrite Nat.min_r by lia.
    rewrite <- (firstn_skipn (length s) old) at 2. rewrite app_nth2 by (rewrite firstn_length; lia).
    f_equal. rewrite firstn_length. lia.
Qed.
Lemma nth_skip {A} n (l : list A) i d : nth i (skipn n l) d = nth (n + i) l d.
Proof.
  revert l. induction n as [|n IH]; intros l; [reflexivity|]. destruct l as [|x l]; cbn; [now destruct i|apply IH].
Qed.
Lemma bit_step s : bool_inv s -> let '(pk, e, s') := bit_one s in
  length pk = 32%nat /\ bool_inv s' /\ e <> Bad /\ forall v : bool, e = Take v -> True.
Proof.
  destruct s as [str old]. intros (B & L & J). cbn [fst snd] in *. unfold bit_one. cbn [fst snd].
  pose proof (skipn_firstn_length 33 str old L) as L'. pose proof (nth_crecv 33 str old 32) as N.
  assert (R : snd (crecv 33 str old) = skipn 33 str) by reflexivity.
  destruct (crecv 33 str old) as [buf rest]. cbn [fst snd] in *. subst rest.
  rewrite N by (auto; lia). set (b := if (32 <? length str)%nat then nth 32 str 0 else nth 32 old 0).
  assert (HB : is_bool b).
  { unfold b. destruct (Nat.ltb_spec 32 (length str)) as [H|H]; auto. apply (B 0%nat). lia. }
  split; [rewrite firstn_length; lia|]. split.
  - split; [|split; auto; cbn [snd]; rewrite N by (auto; lia); exact HB].
    cbn [fst]. intros k Hk. rewrite skipn_length in Hk. rewrite nth_skip.
    replace (33 + (33 * k + 32))%nat with (33 * S k + 32)%nat by lia. apply B. lia.
  - split; auto. destruct HB as [-> | ->]; discriminate.
Qed.

Lemma bit_any order0 order1 total0 total1 stream0 stream1 junk0 junk1 rnd0 rnd1 :
  fair order1 -> Z.of_nat total1 < two32 -> bools_at 33 32 stream0 -> bools_at 33 32 stream1 ->
  length junk0 = 33%nat -> length junk1 = 33%nat -> is_bool (nth 32 junk0 0) -> is_bool (nth 32 junk1 0) ->
  both (bit_sum false order0 total0 stream0 junk0 rnd0) (bit_sum true order1 total1 stream1 junk1 rnd1)
    (fun r0 r1 => ended r0 /\ r1 = RET_NO_ANS).
Proof.
  intros HF HT S0 S1 J0 J1 J0' J1'. unfold bit_sum.
  destruct (received bit_one bool_inv (fun _ => True) bit_step total0 (stream0, junk0)) as (m0 & E0 & K0 & P0 & L0); [repeat split; auto|].
  destruct (received bit_one bool_inv (fun _ => True) bit_step total1 (stream1, junk1)) as (m1 & E1 & K1 & P1 & L1); [repeat split; auto|].
  rewrite E0, E1. destruct (both_in_exists m0 m1 (proj1 K1)) as [L HL]. apply rel_both.
  eapply rel_imp; [apply (bit_sum_tables order1 m0 m1 total0 rnd0 L); auto; lia|].
  intros a b [-> ->]. split; auto using ended_outcome.
Qed.

(** ** MAX, MIN *)
Definition max_inv (s : list Z * list Z * nat) : Prop :=
  bytes (fst (fst s)) /\ length (snd (fst s)) = 32%nat /\ bytes (snd (fst s)).
Definition row_ok (B : nat) (r : list Z) : Prop := length r = (B + 1)%nat /\ Forall word r.

Lemma chunk_words n : forall l, bytes l -> length l = (8 * n)%nat ->
  length (map le_val (chunks n 8 l)) = n /\ Forall word (map le_val (chunks n 8 l)).
Proof.
  induction n as [|n IH]; intros l HB L; cbn [chunks map]; [split; [reflexivity|constructor]|].
  destruct (IH (skipn 8 l)) as [A B]; [now apply Forall_skipn|rewrite skipn_length; lia|].
  split; [cbn [length]; now rewrite A|]. constructor; auto.
  pose proof (le_val_range (firstn 8 l) ltac:(now apply Forall_firstn)) as R. rewrite firstn_length in R.
  replace (Nat.min 8 (length l)) with 8%nat in R by lia. exact R.
Qed.

Lemma max_step B junk s : (forall i, buffer (8 * (B + 1)) (junk i)) -> max_inv s ->
  let '(pk, e, s') := max_one B junk s in
  length pk = 32%nat /\ max_inv s' /\ e <> Bad /\ forall v, e = Take v -> row_ok B v.
Proof.
  intros HJ. destruct s as [[str old] i]. intros (HB & L & HO). cbn [fst snd] in *. unfold max_one.
  pose proof (skipn_firstn_length 32 str old L) as L'. destruct (crecv_bytes 32 str old HB HO) as [C C'].
  destruct (crecv 32 str old) as [pk s1]. cbn [fst snd] in *. destruct (HJ i) as [JB JL].
  pose proof (skipn_firstn_length (8 * (B + 1)) s1 (junk i) JL) as L2.
  destruct (crecv_bytes (8 * (B + 1)) s1 (junk i) C' JB) as [D D'].
  destruct (crecv (8 * (B + 1)) s1 (junk i)) as [row s2]. cbn [fst snd] in *.
  split; auto. split; [repeat split; auto|]. split; [discriminate|]. intros v [= <-]. now apply chunk_words.
Qed.

Lemma max_any_ends is_max B order0 order1 total0 total1 stream0 stream1 pk0 pk1 junk0 junk1 :
  fair order1 -> Z.of_nat total0 * (Z.of_nat B + 1) < two32 -> Z.of_nat total1 * (Z.of_nat B + 1) < two32 ->
  bytes stream0 -> bytes stream1 -> buffer 32 pk0 -> buffer 32 pk1 ->
  (forall i, buffer (8 * (B + 1)) (junk0 i)) -> (forall i, buffer (8 * (B + 1)) (junk1 i)) ->
  let p := max_op false order0 is_max B total0 stream0 pk0 junk0 in
  let q := max_op true order1 is_max B total1 stream1 pk1 junk1 in
  both p q (fun r0 r1 => ended r0 /\ r1 = RET_NO_ANS) \/ ends 0 p q (Cfg Undef (Ret RET_NO_ANS) [] []).
Proof.
  intros HF T0 T1 S0 S1 [A0 A0'] [A1 A1'] J0 J1. cbv zeta. unfold max_op.
  destruct (Z.leb_spec two32 (Z.of_nat total0 * (Z.of_nat B + 1))); [lia|].
  destruct (Z.leb_spec two32 (Z.of_nat total1 * (Z.of_nat B + 1))); [lia|].
  destruct (received (max_one B junk0) max_inv (row_ok B) (fun s => max_step B junk0 s J0) total0 (stream0, pk0, 0%nat))
    as (m0 & E0 & K0 & P0 & L0); [repeat split; auto|].
  destruct (received (max_one B junk1) max_inv (row_ok B) (fun s => max_step B junk1 s J1) total1 (stream1, pk1, 0%nat))
    as (m1 & E1 & K1 & P1 & L1); [repeat split; auto|].
  rewrite E0, E1. destruct (both_in_exists m0 m1 (proj1 K1)) as [L HL].
  destruct (max_op_tables order1 is_max B m0 m1 total0 L) as (a & b & _ & HR); auto.
  - nia.
  - eapply Forall_impl; [|exact P0]. intros e [W _]. exact W.
  - destruct (too_few (length L) total0).
    + left. apply rel_both. eapply rel_runs; [exact HR|]. apply rel_ret. split; [now left|reflexivity].
    + destruct (scan_down a b B) as [j|].
      * left. apply rel_both. eapply rel_runs; [exact HR|]. apply rel_ret. split; [right; eauto|reflexivity].
      * right. apply reach_ends. eapply runs_reach; [exact HR|]. apply reach_undef.
Qed.

(** ** VAR, LINREG: every stream is a sequence of records *)
Lemma words_decode n : forall b, bytes b -> length b = (8 * n)%nat ->
  exists l, words l = b /\ length l = n /\ Forall word l.
Proof.
  induction n as [|n IH]; intros b HB L.
  - exists []. destruct b; [|discriminate]. repeat split. constructor.
  - destruct (IH (skipn 8 b)) as (l & E & L' & F); [now apply Forall_skipn|rewrite skipn_length; lia|].
    assert (LF : length (firstn 8 b) = 8%nat) by (rewrite firstn_length; lia).
    assert (HF : Forall is_byte (firstn 8 b)) by now apply Forall_firstn.
    exists (le_val (firstn 8 b) :: l). split; [|split].
    + unfold words in *. cbn [map concat]. rewrite E. rewrite <- LF at 1. rewrite le_bytes_val by auto.
      apply firstn_skipn.
    + cbn. now rewrite L'.
    + constructor; auto. pose proof (le_val_range _ HF) as R. rewrite LF in R. exact R.
Qed.

Lemma split_at {A} n (l : list A) : (n <= length l)%nat -> exists a b, l = a ++ b /\ length a = n.
Proof. intros H. exists (firstn n l), (skipn n l). rewrite firstn_skipn, firstn_length. split; auto. lia. Qed.

Lemma packet_decode NMul N b : NextPowerOfTwo (Z.of_nat NMul) = Some (Z.of_nat N) ->
  bytes b -> length b = (8 * (NMul + 6 + N))%nat -> exists x, packet_wire x = b /\ packet_ok NMul x.
Proof.
  intros HN HB L. destruct (words_decode _ b HB L) as (l & <- & LL & F).
  destruct (split_at NMul l) as (ms & l1 & -> & LM); [lia|]. rewrite app_length in LL.
  destruct l1 as [|f [|g [|h l2]]]; cbn [length] in LL; try lia.
  destruct (split_at N l2) as (hs & l3 & -> & LH); [lia|]. rewrite app_length in LL.
  destruct l3 as [|a [|b [|c [|? ?]]]]; cbn [length] in LL; try lia.
  apply Forall_app in F as [F1 F2]. apply Forall_cons_iff in F2 as [W1 F2]. apply Forall_cons_iff in F2 as [W2 F2].
  apply Forall_cons_iff in F2 as [W3 F2]. apply Forall_app in F2 as [F3 F4].
  apply Forall_cons_iff in F4 as [W4 F4]. apply Forall_cons_iff in F4 as [W5 F4]. apply Forall_cons_iff in F4 as [W6 _].
  exists (mkPacket ms f g h hs (mkBTS a b c)). split; [reflexivity|].
  unfold packet_ok, triple_ok. cbn. rewrite LH. repeat split; auto; try apply W1; try apply W2; try apply W3; try apply W4; try apply W5; try apply W6.
Qed.

Lemma packet_size_eq NMul N : NextPowerOfTwo (Z.of_nat NMul) = Some (Z.of_nat N) ->
  packet_size NMul = (8 * (NMul + 6 + N))%nat.
Proof. intros H. unfold packet_size. rewrite H, Nat2Z.id. reflexivity. Qed.

Section Decode.
Context {V : Type} (enc : list Z * V -> list Z) (size : nat) (content : V -> Prop).
Hypothesis dec : forall b, bytes b -> length b = size ->
  exists s, enc s = b /\ length (fst s) = 32%nat /\ content (snd s).

Lemma decode_stream total : forall stream, bytes stream -> exists subs rest,
  stream = wire enc subs ++ rest /\ (length subs <= total)%nat /\
  (total = length subs \/ (length subs <= total)%nat /\ (length rest < size)%nat) /\
  pks_ok subs /\ Forall (fun s => content (snd s)) subs.
Proof.
  induction total as [|n IH]; intros stream HB.
  - exists [], stream. repeat split; auto; try constructor.
  - destruct (Nat.lt_ge_cases (length stream) size) as [H|H].
    + exists [], stream. split; [reflexivity|]. split; [cbn; lia|]. split; [right; cbn; lia|split; constructor].
    + destruct (dec (firstn size stream)) as (s & E & K & C); [now apply Forall_firstn|rewrite firstn_length; lia|].
      destruct (IH (skipn size stream)) as (subs & rest & E' & L & T & P & F); [now apply Forall_skipn|].
      exists (s :: subs), rest. split.
      { unfold wire in *. cbn [map concat]. rewrite <- app_assoc, <- E', E. symmetry. apply firstn_skipn. }
      cbn [length]. split; [lia|]. split; [lia|]. split; constructor; auto.
Qed.
Lemma decode_arrives total stream : bytes stream -> Z.of_nat total < two32 ->
  exists subs, arrives_cut enc size total stream subs /\ Forall (fun s => content (snd s)) subs.
Proof.
  intros HB HT. destruct (decode_stream total stream HB) as (subs & rest & E & L & T & P & F).
  exists subs. split; auto. exists rest. repeat split; auto. lia.
Qed.
End Decode.

Lemma accepted_exists {V} (ok : V -> bool) (s0 s1 : list (list Z * V)) : exists L, accepted ok s0 s1 L.
Proof.
  exists (filter (fun pk => is_some (first_sub ok s0 pk) && is_some (first_sub ok s1 pk))
            (nodup (list_eq_dec Z.eq_dec) (map fst s0))).
  split; [apply NoDup_filter, NoDup_nodup|]. intros pk. rewrite filter_In, nodup_In, andb_true_iff.
  assert (S : forall o : option V, is_some o = true <-> o <> None) by (intros [|]; cbn; split; congruence).
  rewrite !S. split; [tauto|]. intros [A B]. split; auto.
  clear - A. induction s0 as [|[k v] s0 IH]; cbn in *; [easy|].
  destruct (key_eqb k pk && ok v) eqn:E; [|right; auto]. left. apply andb_true_iff in E as [E _].
  unfold key_eqb in E. destruct (list_eq_dec Z.eq_dec k pk); [auto|discriminate].
Qed.

Lemma pk_part {A} n (l : list A) m : length l = (n + m)%nat -> exists a b, l = a ++ b /\ length a = n /\ length b = m.
Proof.
  intros H. destruct (split_at n l) as (a & b & -> & L); [lia|]. rewrite app_length in H. exists a, b. repeat split; auto. lia.
Qed.

Lemma var_decode b : bytes b -> length b = var_size ->
  exists s, var_wire s = b /\ length (fst s) = 32%nat /\ var_content (snd s).
Proof.
  intros HB L. assert (HN : NextPowerOfTwo (Z.of_nat (NumMulGates CheckVar)) = Some (Z.of_nat 2)) by reflexivity.
  unfold var_size in L. rewrite (packet_size_eq _ _ HN) in L.
  destruct (pk_part 32 b (16 + 8 * (NumMulGates CheckVar + 6 + 2))) as (pk & r & -> & LP & LR); [lia|].
  destruct (pk_part 16 r (8 * (NumMulGates CheckVar + 6 + 2))) as (vs & pb & -> & LV & LB); [lia|].
  apply Forall_app in HB as [_ HB]. apply Forall_app in HB as [B1 B2].
  destruct (words_decode 2 vs B1 LV) as (l & <- & LL & F). destruct l as [|v [|v2 [|? ?]]]; try discriminate.
  destruct (packet_decode _ _ pb HN B2 LB) as (x & <- & HX).
  exists (pk, (v, v2, x)). split; [reflexivity|]. split; auto. cbn.
  apply Forall_cons_iff in F as [W1 F]. apply Forall_cons_iff in F as [W2 _]. auto.
Qed.

Lemma acceptable_dec {V} (ok : V -> bool) (subs : list (list Z * V)) :
  (exists pk, first_sub ok subs pk <> None) \/ (forall pk, first_sub ok subs pk = None).
Proof.
  induction subs as [|[k v] subs IH]; [now right|]. destruct (ok v) eqn:E.
  - left. exists k. cbn. now rewrite key_eqb_refl, E.
  - destruct IH as [[pk H]|H]; [left; exists pk|right; intros pk]; cbn; rewrite E, andb_false_r; auto.
Qed.

Lemma var_any nb order0 order1 total0 total1 stream0 stream1 junk0 junk1 K rnd0 rnd1 st0 st1 :
  (nb <= 24)%nat -> fair order1 -> Z.of_nat total0 < two32 -> Z.of_nat total1 < two32 -> bytes stream0 -> bytes stream1 ->
  length junk0 = 48%nat -> length junk1 = 48%nat -> synced st0 st1 ->
  exists subs1, arrives_cut var_wire var_size total1 stream1 subs1 /\
  let run := var_op false order0 nb total0 stream0 junk0 K rnd0 st0 in
  let peer := var_op true order1 nb total1 stream1 junk1 K rnd1 st1 in
  ((exists pk, first_sub (var_fits nb) subs1 pk <> None) /\
   both run peer (fun a b => ended (fst a) /\ fst b = RET_NO_ANS /\ synced (snd a) (snd b)) \/
   (forall pk, first_sub (var_fits nb) subs1 pk = None) /\ ends 0 run peer (Cfg Undef Undef [] [])).
Proof.
  intros HB HF T0 T1 S0 S1 J0 J1 SY.
  destruct (decode_arrives var_wire var_size var_content var_decode total0 stream0 S0 T0) as (subs0 & A0 & C0).
  destruct (decode_arrives var_wire var_size var_content var_decode total1 stream1 S1 T1) as (subs1 & A1 & C1).
  exists subs1. split; auto. cbv zeta. destruct (acceptable_dec (var_fits nb) subs1) as [NE|NE]; [left|right]; split; auto.
  - destruct (accepted_exists (var_fits nb) subs0 subs1) as [L HL].
    destruct (var_op_result nb order0 order1 total0 total1 stream0 stream1 subs0 subs1 junk0 junk1 K rnd0 rnd1 st0 st1 L)
      as (a & b & HA & ok & pos & _ & E1 & E0 & SY' & _); auto.
    exists a, b. split; auto. rewrite E0. auto using ended_outcome.
  - eapply var_nothing; eauto.
Qed.

Lemma linreg_decode degree N b :
  NextPowerOfTwo (Z.of_nat (NumMulGates (CheckLinReg degree))) = Some (Z.of_nat N) ->
  bytes b -> length b = linreg_size degree ->
  exists s, linreg_wire s = b /\ length (fst s) = 32%nat /\ linreg_content degree (snd s).
Proof.
  intros HN HB L. unfold linreg_size, num_fields in L. rewrite (packet_size_eq _ _ HN) in L.
  remember (NumMulGates (CheckLinReg degree)) as NM eqn:ENM. set (nx := num_x degree) in *. set (nq := num_quad degree) in *.
  destruct (pk_part 32 b (8 * (2 * nx + 1 + nq) + 8 * (NM + 6 + N))) as (pk & r & -> & LP & LR); [lia|].
  destruct (pk_part (8 * nx) r (8 * (nx + 1 + nq) + 8 * (NM + 6 + N))) as (xs & r1 & -> & LX & LR1); [lia|].
  destruct (pk_part 8 r1 (8 * (nx + nq) + 8 * (NM + 6 + N))) as (ys & r2 & -> & LY & LR2); [lia|].
  destruct (pk_part (8 * nq) r2 (8 * nx + 8 * (NM + 6 + N))) as (qs & r3 & -> & LQ & LR3); [lia|].
  destruct (pk_part (8 * nx) r3 (8 * (NM + 6 + N))) as (xys & pb & -> & LXY & LB); [lia|].
  apply Forall_app in HB as [_ HB]. apply Forall_app in HB as [B1 HB]. apply Forall_app in HB as [B2 HB].
  apply Forall_app in HB as [B3 HB]. apply Forall_app in HB as [B4 B5].
  destruct (words_decode _ xs B1 LX) as (x & <- & Lx & Fx). destruct (words_decode _ qs B3 LQ) as (x2 & <- & Lq & Fq).
  destruct (words_decode _ xys B4 LXY) as (xy & <- & Lxy & Fxy).
  destruct (packet_decode _ _ pb HN B5 LB) as (pkt & <- & HP).
  assert (HY : Forall is_byte (rev ys)) by now apply Forall_rev.
  exists (pk, ((x, le_val (rev ys), x2, xy), pkt)). split; [|split; auto].
  - pose proof (le_bytes_val (rev ys) HY) as E. rewrite rev_length, LY in E.
    unfold linreg_wire. rewrite E, rev_involutive. reflexivity.
  - assert (WY : word (le_val (rev ys))).
    { pose proof (le_val_range _ HY) as R. rewrite rev_length, LY in R. exact R. }
    split; [unfold linreg_shape; cbn [fst snd]; auto 10|]. cbn [snd]. rewrite <- ENM. exact HP.
Qed.

Lemma linreg_any nb degree order0 order1 total0 total1 stream0 stream1 d0 d1 junk0 junk1 garbage0 garbage1 K rnd0 rnd1 st0 st1 :
  (nb <= 24)%nat -> (1 <= degree)%nat -> (num_quad degree + num_x degree < 2 ^ 18)%nat -> fair order1 ->
  Z.of_nat total0 < two32 -> Z.of_nat total1 < two32 -> bytes stream0 -> bytes stream1 ->
  length d0 = 8%nat -> length d1 = 8%nat -> length junk0 = 32%nat -> length junk1 = 32%nat ->
  (forall i, let '(x, x2, xy) := garbage0 i in linreg_shape degree (x, 0, x2, xy)) -> synced st0 st1 ->
  exists subs1, arrives_cut linreg_wire (linreg_size degree) total1 stream1 subs1 /\
  let run := linreg_op false order0 nb total0 (degree_wire degree ++ stream0) d0 junk0 garbage0 K rnd0 st0 in
  let peer := linreg_op true order1 nb total1 (degree_wire degree ++ stream1) d1 junk1 garbage1 K rnd1 st1 in
  ((exists pk, first_sub (linreg_fits nb) subs1 pk <> None) /\
   both run peer (fun a b => ended (fst a) /\ fst b = RET_NO_ANS /\ synced (snd a) (snd b)) \/
   (forall pk, first_sub (linreg_fits nb) subs1 pk = None) /\ ends 0 run peer (Cfg Undef Undef [] [])).
Proof.
  intros HB HD HQ HF T0 T1 S0 S1 D0 D1 J0 J1 HG SY.
  destruct (linreg_gates degree HD) as [GM _].
  assert (HM : (NumMulGates (CheckLinReg degree) < 2 ^ 18)%nat) by (rewrite GM; exact HQ).
  destruct (SnipFacts.npo2_nat _ HM) as (kk & _ & _ & HN). clear HM GM.
  pose proof (fun b => linreg_decode degree _ b HN) as dec. clear HN.
  destruct (decode_arrives linreg_wire _ (linreg_content degree) dec total0 stream0 S0 T0) as (subs0 & A0 & C0).
  destruct (decode_arrives linreg_wire _ (linreg_content degree) dec total1 stream1 S1 T1) as (subs1 & A1 & C1).
  exists subs1. split; auto. cbv zeta. destruct (acceptable_dec (linreg_fits nb) subs1) as [NE|NE]; [left|right]; split; auto.
  - destruct (accepted_exists (linreg_fits nb) subs0 subs1) as [L HL].
    destruct (linreg_op_result nb degree order0 order1 total0 total1 stream0 stream1 subs0 subs1 d0 d1 junk0 junk1
      garbage0 garbage1 K rnd0 rnd1 st0 st1 L) as (a & b & HA & ok & pos & _ & E1 & E0 & SY' & _); auto.
    exists a, b. split; auto. rewrite E0. auto using ended_outcome.
  - eapply linreg_nothing; eauto.
Qed.

Lemma bit_bad server order total stream junk rnd :
  (33 <= length stream)%nat -> (1 <= total)%nat -> ~ is_bool (nth 32 stream 0) ->
  bit_sum server order total stream junk rnd = Undef.
Proof.
  intros L T NB. destruct total as [|n]; [lia|].
  assert (R : receive bit_one (S n) (stream, junk) [] = None).
  { cbn [receive]. unfold bit_one at 1. cbn [fst snd]. unfold crecv.
    rewrite app_nth1 by (rewrite firstn_length; lia).
    assert (E : nth 32 (firstn 33 stream) 0 = nth 32 stream 0).
    { rewrite <- (firstn_skipn 33 stream) at 2. now rewrite app_nth1 by (rewrite firstn_length; lia). }
    rewrite E. cbn [find]. destruct (Z.eqb_spec (nth 32 stream 0) 0) as [H|H]; [elim NB; now left|].
    destruct (Z.eqb_spec (nth 32 stream 0) 1) as [H'|H']; [elim NB; now right|]. reflexivity. }
  unfold bit_sum. rewrite R. reflexivity.
Qed.
