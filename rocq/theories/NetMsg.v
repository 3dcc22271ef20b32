(** * Sizes of the messages of /repo/net_share.cpp and the [message] property *)
From Coq Require Import ZArith List Bool Lia ZifyBool ZifyNat.
From Verif Require Import Words WordsFacts Constants Share Proc ProcFacts Net NetFacts SpecNet.
Import ListNotations.
Open Scope Z_scope.

Arguments Nat.div : simpl never.
Arguments Nat.modulo : simpl never.

Definition sends_len (s : proc unit) (n : nat) : Prop :=
  exists bs, emits s bs tt /\ length bs = n.

Lemma emits_det {A} (p : proc A) l a l' a' : emits p l a -> emits p l' a' -> l = l' /\ a = a'.
Proof.
  intros H. revert l' a'. induction H; intros l' a' H'; inversion H'; subst; auto.
  destruct (IHemits _ _ H4) as [-> ->]. auto.
Qed.

Lemma delivers_message {A} s (r : proc A) n x :
  delivers s r x -> sends_len s n -> message s r n x.
Proof.
  intros D (bs' & E' & L). split.
  - destruct D as (bs & E & F). destruct (emits_det _ _ _ _ _ E E') as [-> _]. eauto.
  - intros B C k k' b c. split; intros H; apply conv_always; apply always_conv in H.
    + eapply runs_trans; [exact (delivers_runs s r x k k' D)|exact H].
    + eapply runs_trans; [exact (delivers_runs' s r x k k' D)|exact H].
Qed.

Lemma len_ret : sends_len (Ret tt) 0.
Proof. exists []. split; [constructor|auto]. Qed.

Lemma len_send bs n : length bs = n -> sends_len (Send bs (Ret tt)) n.
Proof.
  intros. exists bs. split; auto. rewrite <- (app_nil_r bs) at 2. repeat constructor.
Qed.

Lemma len_seq s s' n n' : sends_len s n -> sends_len s' n' -> sends_len (s ;;; s') (n + n').
Proof.
  intros (bs & E & L) (bs' & E' & L'). exists (bs ++ bs'). split.
  - eapply emits_bind; eauto.
  - rewrite app_length. lia.
Qed.

Lemma len_eq s n m : sends_len s n -> m = n -> sends_len s m.
Proof. now intros ? ->. Qed.

Lemma FMPZ_BYTES_8 : FMPZ_BYTES = 8%nat.
Proof. reflexivity. Qed.

Lemma len_fmpz x : limbs_ok x -> sends_len (send_fmpz x) 8.
Proof.
  intros. unfold send_fmpz. rewrite fits_limbs_ok by auto. apply len_send, le_bytes_length.
Qed.

Lemma len_fmpz_chunk x : Forall limbs_ok x -> sends_len (send_fmpz_chunk x) (8 * length x).
Proof.
  intros H. unfold send_fmpz_chunk. rewrite (proj2 (forallb_forall _ _)).
  2:{ intros z Hz. apply fits_limbs_ok. rewrite Forall_forall in H; auto. }
  apply len_send. rewrite concat_le_length, FMPZ_BYTES_8. lia.
Qed.

Lemma len_fmpz_batch_loop maxb fuel x :
  0 < maxb -> (length x <= fuel)%nat -> Forall limbs_ok x ->
  sends_len (send_fmpz_batch_loop maxb fuel x) (8 * length x).
Proof.
  intros Hm. revert x. induction fuel as [|f IH]; intros x Hl Hx;
    cbn [send_fmpz_batch_loop];
    (destruct (Z.ltb_spec maxb (Z.of_nat (length x))) as [L|L]; [|now apply len_fmpz_chunk]).
  - lia.
  - eapply len_eq; [eapply len_seq;
      [apply len_fmpz_chunk, Forall_firstn, Hx|
       apply IH; [rewrite skipn_length; lia|apply Forall_skipn, Hx]]|].
    rewrite firstn_length, skipn_length. lia.
Qed.

Lemma len_fmpz_batch x : Forall limbs_ok x -> sends_len (send_fmpz_batch x) (8 * length x).
Proof. intros. apply len_fmpz_batch_loop; auto. reflexivity. Qed.

Lemma len_fmpz_each x : Forall limbs_ok x -> sends_len (send_fmpz_each x) (8 * length x).
Proof.
  induction 1; cbn [send_fmpz_each length]; [apply len_ret|].
  eapply len_eq; [eapply len_seq; [now apply len_fmpz|eassumption]|lia].
Qed.

Lemma len_bool_batch x : sends_len (send_bool_batch x) (bool_bytes (length x)).
Proof. apply len_send, pack_bools_length. Qed.

Lemma bool_bytes_ceil n : is_ceil8 n (bool_bytes n).
Proof.
  unfold is_ceil8, bool_bytes.
  pose proof (Nat.div_mod (n + 7) 8 ltac:(lia)).
  pose proof (Nat.mod_upper_bound (n + 7) 8 ltac:(lia)). lia.
Qed.

Lemma is_ceil8_unique n a b : is_ceil8 n a -> is_ceil8 n b -> a = b.
Proof. unfold is_ceil8. lia. Qed.

Lemma bool_bytes_mul8 a n : bool_bytes (8 * a + n) = (a + bool_bytes n)%nat.
Proof.
  apply (is_ceil8_unique (8 * a + n)); [apply bool_bytes_ceil|].
  pose proof (bool_bytes_ceil n). unfold is_ceil8 in *. lia.
Qed.

Lemma len_DaBit_chunk x : Forall dabit_ok x ->
  sends_len (send_DaBit_chunk x) (8 * length x + bool_bytes (length x)).
Proof.
  intros. eapply len_eq; [eapply len_seq;
    [apply len_fmpz_batch; apply Forall_map; eauto|apply len_bool_batch]|].
  now rewrite !map_length.
Qed.

Lemma len_DaBit_batch_loop mb fuel x :
  0 < mb -> (length x <= fuel)%nat -> Forall dabit_ok x ->
  sends_len (send_DaBit_batch_loop (8 * mb) fuel x) (8 * length x + bool_bytes (length x)).
Proof.
  intros Hm. revert x. induction fuel as [|f IH]; intros x Hl Hx;
    cbn [send_DaBit_batch_loop];
    (destruct (Z.ltb_spec (8 * mb) (Z.of_nat (length x))) as [L|L]; [|now apply len_DaBit_chunk]).
  - lia.
  - eapply len_eq; [eapply len_seq;
      [apply len_DaBit_chunk, Forall_firstn, Hx|
       apply IH; [rewrite skipn_length; lia|apply Forall_skipn, Hx]]|].
    assert (Hf : length (firstn (Z.to_nat (8 * mb)) x) = (8 * Z.to_nat mb)%nat)
      by (rewrite firstn_length; lia).
    assert (Hs : length (skipn (Z.to_nat (8 * mb)) x) = (length x - 8 * Z.to_nat mb)%nat)
      by (rewrite skipn_length; lia).
    rewrite Hf, Hs.
    pose proof (bool_bytes_mul8 (Z.to_nat mb) 0). rewrite Nat.add_0_r in H.
    pose proof (bool_bytes_mul8 (Z.to_nat mb) (length x - 8 * Z.to_nat mb)).
    replace (8 * Z.to_nat mb + (length x - 8 * Z.to_nat mb))%nat with (length x) in H0 by lia.
    change (bool_bytes 0) with 0%nat in H. lia.
Qed.

Lemma len_DaBit_batch x : Forall dabit_ok x ->
  sends_len (send_DaBit_batch x) (8 * length x + bool_bytes (length x)).
Proof. intros. apply (len_DaBit_batch_loop 40000); auto. reflexivity. Qed.

Lemma msg_bool x : message (send_bool x) recv_bool 1 x.
Proof. apply delivers_message; [apply delivers_bool|now apply len_send]. Qed.

Lemma msg_bool_batch x :
  message (send_bool_batch x) (recv_bool_batch (length x)) (bool_bytes (length x)) x.
Proof. apply delivers_message; [apply delivers_bool_batch|apply len_bool_batch]. Qed.

Lemma msg_int x : -2147483648 <= x < 2147483648 -> message (send_int x) recv_int 4 x.
Proof. intros. apply delivers_message; [now apply delivers_int|apply len_send, le_bytes_length]. Qed.

Lemma msg_size x : message (send_size x) recv_size 8 (u32 x).
Proof. apply delivers_message; [apply delivers_size_trunc|apply len_send, le_bytes_length]. Qed.

Lemma msg_uint32 x : 0 <= x < two32 -> message (send_uint32 x) recv_uint32 4 x.
Proof. intros. apply delivers_message; [now apply delivers_uint32|apply len_send, le_bytes_length]. Qed.

Lemma msg_uint64 x : 0 <= x < two64 -> message (send_uint64 x) recv_uint64 8 x.
Proof. intros. apply delivers_message; [now apply delivers_uint64|apply len_send, le_bytes_length]. Qed.

Lemma msg_uint64_batch x : Forall (fun z => 0 <= z < two64) x ->
  message (send_uint64_batch x) (recv_uint64_batch (length x)) (8 * length x) x.
Proof.
  intros. apply delivers_message; [now apply delivers_uint64_batch|].
  apply len_send. rewrite concat_le_length. lia.
Qed.

Lemma msg_string x old : (0 < length x)%nat -> Z.of_nat (length x) < two32 ->
  message (send_string x) (recv_string old) (8 + length x) x.
Proof.
  intros. apply delivers_message; [now apply delivers_string|].
  apply len_seq; apply len_send; auto; apply le_bytes_length.
Qed.

Lemma msg_empty_string old : message (send_string []) (recv_string old) 8 old.
Proof.
  apply delivers_message; [apply delivers_empty_string|].
  apply (len_seq _ _ 8 0); apply len_send; auto; apply le_bytes_length.
Qed.

Lemma msg_fmpz x : 0 <= x < two64 -> message (send_fmpz x) recv_fmpz 8 x.
Proof. intros. apply delivers_message; [now apply delivers_fmpz|now apply len_fmpz]. Qed.

Lemma msg_fmpz_batch x : Forall (fun z => 0 <= z < two64) x ->
  message (send_fmpz_batch x) (recv_fmpz_batch (length x)) (8 * length x) x.
Proof. intros. apply delivers_message; [now apply delivers_fmpz_batch|now apply len_fmpz_batch]. Qed.

Lemma msg_Cor x : limbs_ok (cor_D x) -> limbs_ok (cor_E x) -> message (send_Cor x) recv_Cor 16 x.
Proof.
  intros. apply delivers_message; [now apply delivers_Cor|].
  apply (len_seq _ _ 8 8); now apply len_fmpz.
Qed.

Lemma msg_CorShare x : corshare_ok x -> message (send_CorShare x) recv_CorShare 16 x.
Proof.
  intros H. apply delivers_message; [now apply delivers_CorShare|]. destruct H.
  apply (len_seq _ _ 8 8); now apply len_fmpz.
Qed.

Lemma msg_CorShare_batch x : Forall corshare_ok x ->
  message (send_CorShare_batch x) (recv_CorShare_batch (length x)) (16 * length x) x.
Proof.
  intros H. apply delivers_message; [now apply delivers_CorShare_batch|].
  eapply len_eq; [eapply len_seq; apply len_fmpz_batch; apply Forall_map;
    (eapply Forall_impl; [|exact H]); now intros ? []|].
  rewrite !map_length. lia.
Qed.

Lemma msg_BeaverTriple x : limbs_ok (bt_A x) -> limbs_ok (bt_B x) -> limbs_ok (bt_C x) ->
  message (send_BeaverTriple x) recv_BeaverTriple 24 x.
Proof.
  intros. apply delivers_message; [now apply delivers_BeaverTriple|].
  apply (len_seq _ _ 8 16); [now apply len_fmpz|].
  apply (len_seq _ _ 8 8); now apply len_fmpz.
Qed.

Lemma len_BeaverTripleShare x : triple_ok x -> sends_len (send_BeaverTripleShare x) 24.
Proof.
  intros (?&?&?). apply (len_seq _ _ 8 16); [now apply len_fmpz|].
  apply (len_seq _ _ 8 8); now apply len_fmpz.
Qed.

Lemma msg_BeaverTripleShare x : triple_ok x ->
  message (send_BeaverTripleShare x) recv_BeaverTripleShare 24 x.
Proof.
  intros. apply delivers_message;
    [now apply delivers_BeaverTripleShare|now apply len_BeaverTripleShare].
Qed.

Lemma msg_ClientPacket NMul x : packet_ok NMul x ->
  message (send_ClientPacket x NMul) (recv_ClientPacket NMul)
    (8 * NMul + 24 + 8 * length (h_points x) + 24) x.
Proof.
  intros H. apply delivers_message; [now apply delivers_ClientPacket|].
  destruct H as (HM & HN & H1 & H2 & H3 & H4 & H5 & H6). unfold send_ClientPacket.
  rewrite HN, HM, Nat.eqb_refl, Z.eqb_refl. cbn [andb].
  eapply len_eq; [eapply len_seq; [now apply len_fmpz_each|];
    eapply len_seq; [now apply len_fmpz|]; eapply len_seq; [now apply len_fmpz|];
    eapply len_seq; [now apply len_fmpz|]; eapply len_seq; [now apply len_fmpz_each|];
    now apply len_BeaverTripleShare|]. lia.
Qed.

Lemma msg_BoolTriple x : message (send_BoolTriple x) recv_BoolTriple 1 x.
Proof. apply delivers_message; [apply delivers_BoolTriple|]. exact (len_bool_batch [ta x; tb x; tc x]). Qed.

Lemma msg_DaBit x : limbs_ok (bp x) -> message (send_DaBit x) recv_DaBit 9 x.
Proof.
  intros. apply delivers_message; [now apply delivers_DaBit|].
  apply (len_seq _ _ 8 1); [now apply len_fmpz|now apply len_send].
Qed.

Lemma msg_DaBit_batch x : Forall (fun d => limbs_ok (bp d)) x ->
  message (send_DaBit_batch x) (recv_DaBit_batch (length x))
    (8 * length x + bool_bytes (length x)) x.
Proof. intros. apply delivers_message; [now apply delivers_DaBit_batch|now apply len_DaBit_batch]. Qed.

Lemma msg_EdaBit nbits x : edabit_ok nbits x ->
  message (send_EdaBit x nbits) (recv_EdaBit nbits) (8 + bool_bytes nbits) x.
Proof.
  intros H. apply delivers_message; [now apply delivers_EdaBit|].
  destruct H as [H1 H2]. unfold send_EdaBit. rewrite H2, Nat.eqb_refl.
  apply len_seq; [now apply len_fmpz|]. rewrite <- H2. apply len_bool_batch.
Qed.

Lemma msg_EdaBit_batch nbits x : Forall (edabit_ok nbits) x ->
  message (send_EdaBit_batch x nbits) (recv_EdaBit_batch nbits (length x))
    (8 * length x + bool_bytes (length x * nbits)) x.
Proof.
  intros H. apply delivers_message; [now apply delivers_EdaBit_batch|].
  unfold send_EdaBit_batch. rewrite (proj2 (forallb_forall _ _)).
  2:{ intros e He. rewrite Forall_forall in H. apply Nat.eqb_eq, H, He. }
  eapply len_eq; [eapply len_seq; [apply len_fmpz_batch|apply len_bool_batch]|].
  - apply Forall_map. eapply Forall_impl; [|exact H]. now intros ? [].
  - rewrite map_length, (concat_length_const nbits), map_length; auto.
    apply Forall_map. eapply Forall_impl; [|exact H]. now intros ? [].
Qed.
