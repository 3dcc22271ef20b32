(** * Reading the records of VAR and LINREG *)
From Coq Require Import ZArith List Bool Lia Arith Permutation.
From Verif Require Import Words WordsFacts Constants Share Proc ProcFacts Net NetFacts SpecNet RelFacts
  Circuit Snip SpecSnip SnipFacts ServerOps SpecServer TableFacts SpecStat.
Import ListNotations.
Open Scope Z_scope.

(** ** Receivers that take exactly [n] bytes *)
Definition exactly {A} (n : nat) (q : proc A) : Prop := forall s,
  match feed q s with None => (length s < n)%nat | Some (_, s') => (length s = n + length s')%nat end.

Lemma feed_bind_none {A B} (q : proc A) (f : A -> proc B) : forall s,
  feed q s = None -> feed (bind q f) s = None.
Proof.
  induction q; cbn; intros s E; auto; try discriminate. destruct (n <=? length s)%nat; auto.
Qed.

Lemma exactly_bind {A B} n m (q : proc A) (f : A -> proc B) :
  exactly n q -> (forall a, exactly m (f a)) -> exactly (n + m) (bind q f).
Proof.
  intros H K s. specialize (H s). destruct (feed q s) as [[a s']|] eqn:E.
  - rewrite (feed_bind _ _ _ _ _ E). specialize (K a s'). destruct (feed (f a) s') as [[b s'']|]; lia.
  - rewrite (feed_bind_none _ _ _ E). lia.
Qed.
Lemma exactly_ret {A} (a : A) : exactly 0 (Ret a).
Proof. intros s. cbn. lia. Qed.
Lemma exactly_recv {A} n (g : list Z -> A) : exactly n (Recv n (fun bs => Ret (g bs))).
Proof.
  intros s. cbn. destruct (Nat.leb_spec n (length s)); [rewrite skipn_length; lia|auto].
Qed.
Lemma exactly_eq {A} n m (q : proc A) : exactly n q -> n = m -> exactly m q.
Proof. now intros H <-. Qed.

Lemma exactly_fmpz_each n : exactly (8 * n) (recv_fmpz_each n).
Proof.
  induction n as [|n IH]; cbn [recv_fmpz_each]; [apply exactly_ret|].
  eapply exactly_eq; [apply exactly_bind; [apply exactly_recv|]; intros; apply exactly_bind; [exact IH|intros; apply exactly_ret]|].
  change FMPZ_BYTES with 8%nat. lia.
Qed.

Lemma exactly_packet NMul N : NextPowerOfTwo (Z.of_nat NMul) = Some N ->
  exactly (packet_size NMul) (recv_ClientPacket NMul).
Proof.
  intros E. unfold recv_ClientPacket, packet_size. rewrite E.
  eapply exactly_eq.
  { apply exactly_bind; [apply exactly_fmpz_each|]. intros ms.
    apply exactly_bind; [apply exactly_recv|]. intros f.
    apply exactly_bind; [apply exactly_recv|]. intros g.
    apply exactly_bind; [apply exactly_recv|]. intros h.
    apply exactly_bind; [apply exactly_fmpz_each|]. intros hs.
    apply exactly_bind; [|intros t; apply exactly_ret].
    unfold recv_BeaverTripleShare.
    apply exactly_bind; [apply exactly_recv|]. intros a.
    apply exactly_bind; [apply exactly_recv|]. intros b.
    apply exactly_bind; [apply exactly_recv|]. intros c. apply exactly_ret. }
  change FMPZ_BYTES with 8%nat. lia.
Qed.

Lemma exactly_linreg nx nq NMul N : NextPowerOfTwo (Z.of_nat NMul) = Some N ->
  exactly (8 * (2 * nx + 1 + nq) + packet_size NMul) (linreg_record nx nq NMul).
Proof.
  intros E. unfold linreg_record. eapply exactly_eq.
  { apply exactly_bind; [apply exactly_recv|]. intros x.
    apply exactly_bind; [apply exactly_recv|]. intros y.
    apply exactly_bind; [apply exactly_recv|]. intros x2.
    apply exactly_bind; [apply exactly_recv|]. intros xy.
    apply exactly_bind; [apply (exactly_packet _ _ E)|]. intros pk. apply exactly_ret. }
  lia.
Qed.

Lemma exactly_short {A} n (q : proc A) s : exactly n q -> (length s < n)%nat -> feed q s = None.
Proof. intros H L. specialize (H s). destruct (feed q s) as [[a s']|]; [lia|auto]. Qed.

(** ** Packets on the wire *)
Lemma words_app a b : words (a ++ b) = words a ++ words b.
Proof. unfold words. now rewrite map_app, concat_app. Qed.
Lemma words_length l : length (words l) = (8 * length l)%nat.
Proof. unfold words. rewrite concat_le_length. lia. Qed.

Lemma sent_bytes_seq {B} (s : proc unit) (k : proc B) :
  sent_bytes (s ;;; k) = match sent_bytes s with Some a => option_map (app a) (sent_bytes k) | None => None end.
Proof.
  induction s as [a| |bs k' IH| | | |]; cbn [bind sent_bytes]; auto.
  - destruct (sent_bytes k); auto.
  - rewrite IH. destruct (sent_bytes k'); auto. cbn. destruct (sent_bytes k); auto. cbn. now rewrite app_assoc.
Qed.
Lemma sent_fmpz x : limbs_ok x -> sent_bytes (send_fmpz x) = Some (words [x]).
Proof.
  intros H. unfold send_fmpz, words. rewrite fits_limbs_ok by auto. cbn [sent_bytes option_map map concat].
  reflexivity.
Qed.
Lemma sent_fmpz_each l : Forall limbs_ok l -> sent_bytes (send_fmpz_each l) = Some (words l).
Proof.
  induction 1; cbn [send_fmpz_each]; auto. rewrite sent_bytes_seq, sent_fmpz, IHForall by auto.
  cbn [option_map]. unfold words. cbn [map concat]. now rewrite app_nil_r.
Qed.

Lemma sent_packet NMul x : packet_ok NMul x ->
  sent_bytes (send_ClientPacket x NMul) = Some (packet_wire x).
Proof.
  intros (HM & HN & H1 & H2 & H3 & H4 & H5 & (H6 & H7 & H8)). unfold send_ClientPacket.
  rewrite HN, HM, Nat.eqb_refl, Z.eqb_refl. cbn [andb]. unfold send_BeaverTripleShare.
  rewrite !sent_bytes_seq, !sent_fmpz_each, !sent_fmpz by auto. cbn [option_map].
  unfold packet_wire. rewrite !words_app. apply f_equal.
  unfold words. cbn [map concat]. rewrite !app_nil_r, <- !app_assoc. reflexivity.
Qed.

Lemma feed_packet NMul x rest : packet_ok NMul x ->
  feed (recv_ClientPacket NMul) (packet_wire x ++ rest) = Some (x, rest).
Proof.
  intros H. destruct (delivers_ClientPacket NMul x H) as (bs & E & F).
  apply emits_sent in E. rewrite (sent_packet NMul x H) in E. injection E as ->. apply F.
Qed.

Lemma packet_wire_length NMul x : packet_ok NMul x -> length (packet_wire x) = packet_size NMul.
Proof.
  intros (HM & HN & _). unfold packet_wire, packet_size. rewrite HN, words_length, !app_length, HM, Nat2Z.id.
  cbn [length]. lia.
Qed.

(** ** VAR *)
Lemma var_wire_length s : length (fst s) = 32%nat -> var_content (snd s) -> length (var_wire s) = var_size.
Proof.
  destruct s as [k [[v v2] pkt]]. cbn [fst snd]. intros L (_ & _ & H). unfold var_wire, var_size.
  rewrite !app_length, words_length, (packet_wire_length _ _ H), L. cbn [length]. lia.
Qed.

Lemma max_val_fits nb v : negb (max_val nb <=? v) = fits nb v.
Proof. unfold max_val, fits. now destruct (Z.leb_spec (2 ^ Z.of_nat nb) v), (Z.ltb_spec v (2 ^ Z.of_nat nb)); try lia. Qed.
Lemma max_sq_eq nb : (nb < 32)%nat -> max_sq nb = 2 ^ Z.of_nat (2 * nb).
Proof.
  intros H. unfold max_sq, max_val. rewrite <- Z.pow_add_r by lia.
  replace (Z.of_nat nb + Z.of_nat nb) with (Z.of_nat (2 * nb)) by lia.
  unfold u64. apply Z.mod_small. split; [apply Z.pow_nonneg; lia|]. change two64 with (2 ^ 64).
  apply Z.pow_lt_mono_r; lia.
Qed.

Definition fst3 {A B C} (x : A * B * C) : A := fst (fst x).

Lemma var_one_whole nb k v rest junk : (nb < 32)%nat ->
  length k = 32%nat -> var_content v -> length junk = 48%nat ->
  exists buf, length buf = 48%nat /\ 
  var_one nb (NumMulGates CheckVar) (var_wire (k, v) ++ rest, junk)
  = (k, entry_of (if var_fits nb v then Some v else None), (rest, buf)).
Proof.
  destruct v as [[v v2] pkt]. intros Hn L (Wv & Wv2 & HP) LJ. unfold var_one, var_wire. cbn [fst snd].
  rewrite <- !app_assoc, app_assoc.
  assert (LW : length (words [v; v2]) = 16%nat) by (now rewrite words_length).
  rewrite (crecv_app 48 (k ++ words [v; v2])) by (rewrite ?app_length; lia).
  rewrite (feed_packet _ _ rest HP). rewrite firstn_app_exact by auto.
  assert (E1 : skipn 32 (k ++ words [v; v2]) = words [v; v2]) by (now rewrite skipn_app_exact).
  assert (E2 : skipn 40 (k ++ words [v; v2]) = le_bytes 8 v2).
  { unfold words. cbn [map concat]. rewrite app_nil_r, app_assoc, skipn_app_exact; auto.
    rewrite app_length, le_bytes_length. lia. }
  rewrite E1, E2. unfold words. cbn [map concat]. rewrite firstn_app_exact by apply le_bytes_length.
  rewrite !le_val_bytes_small by (auto; apply Wv || apply Wv2).
  eexists. split; [|].
  2:{ f_equal. f_equal. unfold var_fits. rewrite <- !max_val_fits, max_sq_eq by auto.
      unfold max_val. replace (Z.of_nat (2 * nb)) with (Z.of_nat (2 * nb)) by reflexivity.
      destruct (2 ^ Z.of_nat nb <=? v), (2 ^ Z.of_nat (2 * nb) <=? v2); reflexivity. }
  rewrite !app_length, !le_bytes_length, L. cbn. lia.
Qed.

Lemma var_reads nb subs : (nb < 32)%nat -> forall rest junk, pks_ok subs ->
  Forall (fun s => var_content (snd s)) subs -> length junk = 48%nat ->
  exists buf, length buf = 48%nat /\
  reads (var_one nb (NumMulGates CheckVar)) (wire var_wire subs ++ rest, junk) (recs_of (var_fits nb) subs) (rest, buf).
Proof.
  intros Hn. induction subs as [|[k v] subs IH]; intros rest junk HP HC LJ.
  - exists junk. split; auto. constructor.
  - pose proof (Forall_inv HP) as L. pose proof (Forall_inv HC) as C. cbn [fst snd] in L, C.
    cbn [wire map concat recs_of fst snd].
    destruct (var_one_whole nb k v (wire var_wire subs ++ rest) junk Hn L C LJ) as (b & LB & E).
    destruct (IH rest b (Forall_inv_tail HP) (Forall_inv_tail HC) LB) as (buf & LF & R).
    exists buf. split; auto. econstructor; [|exact R]. rewrite <- app_assoc. exact E.
Qed.

Lemma npo2_var : NextPowerOfTwo (Z.of_nat (NumMulGates CheckVar)) = Some 2.
Proof. reflexivity. Qed.

Lemma var_one_short nb s buf : (length s < var_size)%nat ->
  var_one nb (NumMulGates CheckVar) (s, buf)
  = (firstn 32 (fst (crecv 48 s buf)), Skip, ([], fst (crecv 48 s buf))).
Proof.
  intros H. unfold var_one. cbn [fst snd]. destruct (crecv 48 s buf) as [b rest] eqn:E.
  assert (rest = skipn 48 s) as -> by (unfold crecv in E; congruence).
  rewrite (exactly_short (packet_size (NumMulGates CheckVar))).
  - reflexivity.
  - exact (exactly_packet _ _ npo2_var).
  - rewrite skipn_length. unfold var_size in H. change (packet_size (NumMulGates CheckVar)) with 72%nat in *. lia.
Qed.

Lemma var_receive nb total subs rest junk : (nb < 32)%nat -> pks_ok subs ->
  Forall (fun s => var_content (snd s)) subs -> length junk = 48%nat ->
  (total = length subs \/ (length subs <= total)%nat /\ (length rest < var_size)%nat) ->
  receive (var_one nb (NumMulGates CheckVar)) total (wire var_wire subs ++ rest, junk) []
  = Some (table_of (var_fits nb) subs).
Proof.
  intros Hn HP HC LJ HT. destruct (var_reads nb subs Hn rest junk HP HC LJ) as (buf & LB & R).
  destruct HT as [->|[HT HR]].
  - rewrite <- (recs_of_length (var_fits nb)). eapply receive_build. exact R.
  - replace total with (length (recs_of (var_fits nb) subs) + (total - length subs))%nat
      by (rewrite recs_of_length; lia).
    erewrite receive_build_app by exact R. fold (table_of (var_fits nb) subs).
    apply (receive_idle _ (fun s => (length (fst s) < var_size)%nat)); auto.
    intros [s b] Hs. cbn [fst] in Hs. rewrite var_one_short by auto. split; auto. cbn. unfold var_size. lia.
Qed.

(** ** LINREG *)
Lemma be_bytes64 y : word y -> le_bytes 8 (bswap64 y) = rev (le_bytes 8 y).
Proof.
  intros Hy. unfold word in Hy.
  assert (B : forall z, 0 <= z < two32 -> le_bytes 4 (bswap32 z) = rev (le_bytes 4 z)).
  { intros z Hz. unfold bswap32. rewrite u32_small by auto.
    rewrite <- (le_bytes_val (rev (le_bytes 4 z))) at 2.
    - now rewrite rev_length, le_bytes_length.
    - apply Forall_rev, le_bytes_bytes. }
  assert (S8 : forall a b, 0 <= a < two32 -> 0 <= b < two32 ->
    le_bytes 8 (a * two32 + b) = le_bytes 4 b ++ le_bytes 4 a).
  { intros a b Ha Hb. rewrite <- (le_bytes_val (le_bytes 4 b ++ le_bytes 4 a)).
    - rewrite app_length, !le_bytes_length, le_val_app, le_bytes_length, !le_val_bytes_small by auto.
      f_equal. change (256 ^ Z.of_nat 4) with two32. lia.
    - apply Forall_app. split; apply le_bytes_bytes. }
  assert (R1 : 0 <= y mod two32 < two32) by (apply Z.mod_pos_bound; reflexivity).
  assert (R2 : 0 <= y / two32 < two32).
  { split; [apply Z.div_pos; [lia|reflexivity]|]. apply Z.div_lt_upper_bound; [reflexivity|]. unfold two32, two64 in *. lia. }
  rewrite bswap64_add, S8 by apply bswap32_range. rewrite !B by auto.
  rewrite (Z.div_mod y two32) at 3 by discriminate. rewrite (Z.mul_comm two32), S8 by auto.
  now rewrite rev_app_distr.
Qed.

Lemma sent_bytes_send bs : sent_bytes (Send bs (Ret tt)) = Some bs.
Proof. cbn. now rewrite app_nil_r. Qed.

Lemma linreg_delivers degree v : linreg_content degree v ->
  let '((x, y, x2, xy), pkt) := v in
  forall rest, feed (linreg_record (num_x degree) (num_quad degree) (NumMulGates (CheckLinReg degree)))
    (words x ++ rev (le_bytes 8 y) ++ words x2 ++ words xy ++ packet_wire pkt ++ rest) = Some (v, rest).
Proof.
  destruct v as [[[[x y] x2] xy] pkt]. intros [(L1 & L2 & L3 & W1 & Wy & W2 & W3) HP] rest.
  cbn [fst snd] in *. unfold linreg_record.
  assert (F : forall n l s, length l = n -> Forall word l -> feed (recv_uint64_batch n) (words l ++ s) = Some (l, s)).
  { intros n l s L W. unfold recv_uint64_batch. rewrite feed_recv by (rewrite words_length; lia).
    cbn [feed]. unfold words. rewrite <- L, chunks_map_le; auto. }
  rewrite (feed_bind _ _ _ _ _ (F _ x _ L1 W1)).
  assert (E : feed recv_uint64 (rev (le_bytes 8 y) ++ words x2 ++ words xy ++ packet_wire pkt ++ rest)
    = Some (y, words x2 ++ words xy ++ packet_wire pkt ++ rest)).
  { unfold recv_uint64. rewrite feed_recv by (rewrite rev_length; apply le_bytes_length). cbn [feed].
    rewrite <- (be_bytes64 y Wy), le_val_bytes_small by apply bswap64_range.
    rewrite bswap64_involutive by exact Wy. reflexivity. }
  rewrite (feed_bind _ _ _ _ _ E).
  rewrite (feed_bind _ _ _ _ _ (F _ x2 _ L2 W2)).
  rewrite (feed_bind _ _ _ _ _ (F _ xy _ L3 W3)).
  rewrite (feed_bind _ _ _ _ _ (feed_packet _ _ _ HP)). reflexivity.
Qed.

Lemma linreg_one_whole nb degree k v rest junk : (nb < 32)%nat ->
  length k = 32%nat -> linreg_content degree v -> length junk = 32%nat ->
  linreg_one nb (num_x degree) (num_quad degree) (NumMulGates (CheckLinReg degree)) (linreg_wire (k, v) ++ rest, junk)
  = (k, entry_of (if linreg_fits nb v then Some v else None), (rest, k)).
Proof.
  intros Hn L HC LJ. pose proof (linreg_delivers degree v HC) as D.
  destruct v as [[[[x y] x2] xy] pkt]. unfold linreg_one, linreg_wire. cbn [fst snd].
  rewrite <- !app_assoc. rewrite (crecv_app 32 k) by lia. rewrite D.
  unfold linreg_fits. rewrite max_sq_eq by auto. unfold max_val.
  change (fun z => z <? 2 ^ Z.of_nat nb) with (fits nb).
  change (fun z => z <? 2 ^ Z.of_nat (2 * nb)) with (fits (2 * nb)).
  change (y <? 2 ^ Z.of_nat nb) with (fits nb y).
  destruct (forallb (fits nb) x), (fits nb y), (forallb (fits (2 * nb)) x2), (forallb (fits (2 * nb)) xy); reflexivity.
Qed.

Lemma linreg_reads nb degree subs : (nb < 32)%nat -> forall rest junk, pks_ok subs ->
  Forall (fun s => linreg_content degree (snd s)) subs -> length junk = 32%nat ->
  exists buf, length buf = 32%nat /\
  reads (linreg_one nb (num_x degree) (num_quad degree) (NumMulGates (CheckLinReg degree)))
    (wire linreg_wire subs ++ rest, junk) (recs_of (linreg_fits nb) subs) (rest, buf).
Proof.
  intros Hn. induction subs as [|[k v] subs IH]; intros rest junk HP HC LJ.
  - exists junk. split; auto. constructor.
  - pose proof (Forall_inv HP) as L. pose proof (Forall_inv HC) as C. cbn [fst snd] in L, C.
    cbn [wire map concat recs_of fst snd].
    destruct (IH rest k (Forall_inv_tail HP) (Forall_inv_tail HC) L) as (buf & LF & R).
    exists buf. split; auto. econstructor; [|exact R]. rewrite <- app_assoc.
    now rewrite (linreg_one_whole nb degree k v _ junk Hn L C LJ).
Qed.

Lemma linreg_receive nb degree N total subs rest junk : (nb < 32)%nat ->
  NextPowerOfTwo (Z.of_nat (NumMulGates (CheckLinReg degree))) = Some N -> pks_ok subs ->
  Forall (fun s => linreg_content degree (snd s)) subs -> length junk = 32%nat ->
  (total = length subs \/ (length subs <= total)%nat /\ (length rest < linreg_size degree)%nat) ->
  receive (linreg_one nb (num_x degree) (num_quad degree) (NumMulGates (CheckLinReg degree))) total
    (wire linreg_wire subs ++ rest, junk) [] = Some (table_of (linreg_fits nb) subs).
Proof.
  intros Hn HN HP HC LJ HT. destruct (linreg_reads nb degree subs Hn rest junk HP HC LJ) as (buf & LB & R).
  destruct HT as [->|[HT HR]].
  - rewrite <- (recs_of_length (linreg_fits nb)). eapply receive_build. exact R.
  - replace total with (length (recs_of (linreg_fits nb) subs) + (total - length subs))%nat
      by (rewrite recs_of_length; lia).
    erewrite receive_build_app by exact R. fold (table_of (linreg_fits nb) subs).
    apply (receive_idle _ (fun s => (length (fst s) < linreg_size degree)%nat)); auto.
    intros [s b] Hs. cbn [fst] in Hs. unfold linreg_one. cbn [fst snd].
    destruct (crecv 32 s b) as [pk s1] eqn:E.
    assert (s1 = skipn 32 s) as -> by (unfold crecv in E; congruence).
    rewrite (exactly_short (8 * num_fields degree + packet_size (NumMulGates (CheckLinReg degree)))).
    + split; auto. cbn. unfold linreg_size. lia.
    + exact (exactly_linreg _ _ _ _ HN).
    + rewrite skipn_length. unfold linreg_size in Hs. unfold num_fields in *. lia.
Qed.

(** ** Every stream of bytes is a stream of records *)
Lemma chunks_words n : forall s, Forall is_byte s -> (8 * n <= length s)%nat ->
  words (map le_val (chunks n 8 s)) = firstn (8 * n) s /\
  length (map le_val (chunks n 8 s)) = n /\ Forall word (map le_val (chunks n 8 s)).
Proof.
  induction n as [|n IH]; intros s B L.
  - cbn. auto.
  - cbn [chunks map]. destruct (IH (skipn 8 s)) as (A & C & D).
    { rewrite <- (firstn_skipn 8 s) in B. now apply Forall_app in B. }
    { rewrite skipn_length. lia. }
    assert (B8 : Forall is_byte (firstn 8 s)).
    { rewrite <- (firstn_skipn 8 s) in B. now apply Forall_app in B. }
    assert (L8 : length (firstn 8 s) = 8%nat) by (rewrite firstn_length; lia).
    split; [|split].
    + unfold words in *. cbn [map concat]. rewrite A. rewrite <- L8 at 1. rewrite le_bytes_val by auto.
      replace (8 * S n)%nat with (8 + 8 * n)%nat by lia.
      rewrite <- (firstn_skipn 8 s) at 3. rewrite firstn_app, L8.
      rewrite (firstn_all2 (firstn 8 s)) by lia. f_equal. f_equal. lia.
    + cbn [length]. auto.
    + constructor; auto. pose proof (le_val_range _ B8) as R. rewrite L8 in R. exact R.
Qed.
