(** * Properties C01-C07: sockets and messages *)
From Coq Require Import ZArith List Bool Lia.
From Verif Require Import Words WordsFacts Constants Share Proc ProcFacts Net NetFacts SpecNet NetMsg.
Import ListNotations.
Open Scope Z_scope.

(** ** C01 Byte-stream reassembly.
    For every stream [sent] of at least [len] bytes, every previous content of
    the buffer, and every error-free behaviour of the kernel (any fragmentation;
    the kernel keeps answering, i.e. the script is long enough): the call
    returns [len], the buffer holds the first [len] bytes, the rest is unread. *)
Theorem recv_reassembles : forall script closed sent buf (len : nat),
  Forall no_err script -> (len <= length script)%nat -> (len <= length sent)%nat ->
  length buf = len -> Z.of_nat len < 2147483648 ->
  recv_in script closed sent buf (Z.of_nat len)
  = RDone (Z.of_nat len) (firstn len sent) (skipn len sent).
Proof. intros. rewrite recv_in_complete by (auto; lia).
  rewrite (skipn_all2 buf) by lia. now rewrite app_nil_r. Qed.
Print Assumptions recv_reassembles.

(** If it returns at all (however short the kernel's script), the result is the
    above or end of stream: no partial success. *)
Theorem recv_all_or_eof : forall script closed sent buf (len : nat) ret b rest,
  Forall no_err script -> length buf = len -> Z.of_nat len < 2147483648 ->
  recv_in script closed sent buf (Z.of_nat len) = RDone ret b rest ->
  (ret = Z.of_nat len /\ b = firstn len sent /\ rest = skipn len sent
     /\ (len <= length sent)%nat)
  \/ (ret = 0 /\ closed = true /\ (length sent < len)%nat).
Proof. intros script closed sent buf len ret b rest H1 H2 H3 H4.
  pose proof (recv_in_loop_done script closed sent buf 0 len H1 ltac:(lia) H3 ltac:(lia)) as P.
  unfold recv_in in H4. simpl Z.of_nat in P at 1. rewrite H4 in P.
  rewrite Nat.sub_0_r, (skipn_all2 buf), app_nil_r in P by lia. simpl firstn in P. simpl app in P.
  destruct P as [(?&?&?&?)|(?&?&?&?&?)]; auto. Qed.
Print Assumptions recv_all_or_eof.

Example recv_reassembles_ex :
  recv_in [KChunk 0; KChunk 1; KChunk 4; KChunk 0; KChunk 0] false
          [10; 11; 12; 13; 14; 15; 16] [0; 0; 0; 0; 0] 5
  = RDone 5 [10; 11; 12; 13; 14] [15; 16].
Proof. reflexivity. Qed.

(** ** C02 End of stream is reported. *)
Theorem recv_eof_reported : forall script sent buf (len : nat),
  Forall no_err script -> (length sent < length script)%nat -> (length sent < len)%nat ->
  length buf = len -> Z.of_nat len < 2147483648 ->
  recv_in script true sent buf (Z.of_nat len)
  = RDone 0 (sent ++ skipn (length sent) buf) [].
Proof. intros. apply recv_in_eof; auto; lia. Qed.
Print Assumptions recv_eof_reported.

Example recv_eof_ex :
  recv_in [KChunk 1; KChunk 1; KChunk 1] true [10; 11; 12] [7; 7; 7; 7; 7] 5
  = RDone 0 [10; 11; 12; 7; 7] [].
Proof. reflexivity. Qed.

(** ** C03 A failing receive is reported as a failure: FALSE of the code.
    An error after some bytes have arrived, followed by a successful call,
    makes the call return [len] with a shifted (corrupted) buffer. *)
Definition error_never_corrupts : Prop :=
  forall script closed sent buf (len : nat) b rest,
    length buf = len -> Z.of_nat len < 2147483648 ->
    recv_in script closed sent buf (Z.of_nat len) = RDone (Z.of_nat len) b rest ->
    b = firstn len sent.
Theorem recv_error_reported_refuted : ~ error_never_corrupts.
Proof.
  intros H.
  specialize (H [KChunk 1; KErr; KChunk 1] false [1; 2; 3; 4] [0; 0; 0] 3%nat [1; 3; 4] []
                eq_refl eq_refl eq_refl).
  discriminate H.
Qed.
Print Assumptions recv_error_reported_refuted.

(** What does hold: an error on the first call, or a connection that fails for
    good at any offset, gives -1 with the buffer as it was. *)
Theorem recv_error_first_reported_partial : forall script closed sent buf (len : nat),
  (1 <= len)%nat -> Z.of_nat len < 4294967295 ->
  recv_in (KErr :: script) closed sent buf (Z.of_nat len) = RDone (-1) buf sent.
Proof. exact recv_in_err_first. Qed.
Print Assumptions recv_error_first_reported_partial.

Theorem recv_error_persistent_reported_partial : forall m closed sent buf (off len : nat),
  (off < m)%nat -> (off < len)%nat -> Z.of_nat len < 4294967295 ->
  recv_in_loop (repeat KErr m) closed sent buf (Z.of_nat off) (Z.of_nat len)
  = RDone (-1) buf sent.
Proof. exact recv_in_loop_err_persistent. Qed.
Print Assumptions recv_error_persistent_reported_partial.

(** ** C04 Bit vectors round-trip, in ceil(n/8) bytes. *)
Theorem bool_batch_roundtrip : forall x : list bool,
  exists m, is_ceil8 (length x) m /\
  message (send_bool_batch x) (recv_bool_batch (length x)) m x.
Proof. intros x. exists (bool_bytes (length x)). split; [apply bool_bytes_ceil|apply msg_bool_batch]. Qed.
Print Assumptions bool_batch_roundtrip.

Theorem bool_roundtrip : forall x : bool, message (send_bool x) recv_bool 1 x.
Proof. exact msg_bool. Qed.
Print Assumptions bool_roundtrip.

Example bool_batch_ex :
  feed (recv_bool_batch 10)
       (pack_bools [true; false; true; true; false; false; false; false; false; true] ++ [99])
  = Some ([true; false; true; true; false; false; false; false; false; true], [99]).
Proof. reflexivity. Qed.

(** ** C05 Integer messages round-trip. *)
Theorem int_roundtrip : forall x, -2147483648 <= x < 2147483648 -> message (send_int x) recv_int 4 x.
Proof. exact msg_int. Qed.
Print Assumptions int_roundtrip.

Theorem uint32_roundtrip : forall x, 0 <= x < 2 ^ 32 -> message (send_uint32 x) recv_uint32 4 x.
Proof. exact msg_uint32. Qed.
Print Assumptions uint32_roundtrip.

Theorem uint64_roundtrip : forall x, 0 <= x < 2 ^ 64 -> message (send_uint64 x) recv_uint64 8 x.
Proof. exact msg_uint64. Qed.
Print Assumptions uint64_roundtrip.

Theorem ulong_roundtrip : forall x, 0 <= x < 2 ^ 64 -> message (send_ulong x) recv_ulong 8 x.
Proof. exact msg_uint64. Qed.
Print Assumptions ulong_roundtrip.

Theorem uint64_batch_roundtrip : forall x : list Z, Forall (fun z => 0 <= z < 2 ^ 64) x ->
  message (send_uint64_batch x) (recv_uint64_batch (length x)) (8 * length x) x.
Proof. exact msg_uint64_batch. Qed.
Print Assumptions uint64_batch_roundtrip.

Theorem ulong_batch_roundtrip : forall x : list Z, Forall (fun z => 0 <= z < 2 ^ 64) x ->
  message (send_ulong_batch x) (recv_ulong_batch (length x)) (8 * length x) x.
Proof. exact msg_uint64_batch. Qed.
Print Assumptions ulong_batch_roundtrip.

(** A [size_t] arrives reduced modulo 2^32: exactly iff it is below 2^32. *)
Theorem size_roundtrip : forall x, 0 <= x < 2 ^ 64 -> message (send_size x) recv_size 8 (x mod 2 ^ 32).
Proof. intros x _. exact (msg_size x). Qed.
Print Assumptions size_roundtrip.

Theorem size_roundtrip_iff : forall x, 0 <= x < 2 ^ 64 ->
  (message (send_size x) recv_size 8 x <-> x < 2 ^ 32).
Proof.
  intros x Hx. split.
  - intros [(bs & _ & E & F) _]. destruct (msg_size x) as [(bs' & _ & E' & F') _].
    destruct (emits_det _ _ _ _ _ E E') as [<- _].
    specialize (F []). specialize (F' []). rewrite F in F'. injection F' as F'.
    rewrite F'. apply (u32_range x).
  - intros L. pose proof (msg_size x) as M. rewrite u32_small in M by (change two32 with (2 ^ 32); lia).
    exact M.
Qed.
Print Assumptions size_roundtrip_iff.

Theorem string_roundtrip : forall x old, (0 < length x)%nat -> Z.of_nat (length x) < 2 ^ 32 ->
  message (send_string x) (recv_string old) (8 + length x) x.
Proof. exact msg_string. Qed.
Print Assumptions string_roundtrip.

(** The empty string is not transferred: the target keeps its old value. *)
Theorem string_roundtrip_empty_refuted :
  ~ (forall old, message (send_string []) (recv_string old) 8 []).
Proof.
  intros H. destruct (H [65]) as [(bs & _ & E & F) _].
  destruct (msg_empty_string [65]) as [(bs' & _ & E' & F') _].
  destruct (emits_det _ _ _ _ _ E E') as [<- _].
  specialize (F []). specialize (F' []). rewrite F in F'. discriminate.
Qed.
Print Assumptions string_roundtrip_empty_refuted.

Example uint64_ex : emits (send_uint64 0x0102030405060708) [1; 2; 3; 4; 5; 6; 7; 8] tt.
Proof. exact (em_send [1; 2; 3; 4; 5; 6; 7; 8] (Ret tt) [] tt (em_ret tt)). Qed.

(** ** C06 Field elements round-trip (single and in batches of any length). *)
Theorem fmpz_roundtrip : forall x, 0 <= x < 2 ^ 64 -> message (send_fmpz x) recv_fmpz 8 x.
Proof. exact msg_fmpz. Qed.
Print Assumptions fmpz_roundtrip.

Theorem fmpz_batch_roundtrip : forall x : list Z, Forall (fun z => 0 <= z < 2 ^ 64) x ->
  message (send_fmpz_batch x) (recv_fmpz_batch (length x)) (8 * length x) x.
Proof. exact msg_fmpz_batch. Qed.
Print Assumptions fmpz_batch_roundtrip.

(** Every field element qualifies. *)
Example field_in_range : forall x, 0 <= x < Int_Modulus -> 0 <= x < 2 ^ 64.
Proof. intros x H. assert (Int_Modulus < 2 ^ 64) by reflexivity. lia. Qed.

(** The chunked path, on a small chunk limit: 5 elements in chunks of 2. *)
Example fmpz_chunked_ex :
  feed (recv_fmpz_batch_loop 2 5 5)
       (concat (map (le_bytes 8) [5; 2 ^ 63; 7; 8; 9]) ++ [1])
  = Some ([5; 2 ^ 63; 7; 8; 9], [1]).
Proof. reflexivity. Qed.

(** ** C07 Protocol messages round-trip. *)
Theorem Cor_roundtrip : forall x, limbs_ok (cor_D x) -> limbs_ok (cor_E x) ->
  message (send_Cor x) recv_Cor 16 x.
Proof. exact msg_Cor. Qed.
Print Assumptions Cor_roundtrip.

Theorem CorShare_roundtrip : forall x, corshare_ok x ->
  message (send_CorShare x) recv_CorShare 16 x.
Proof. exact msg_CorShare. Qed.
Print Assumptions CorShare_roundtrip.

Theorem CorShare_batch_roundtrip : forall x, Forall corshare_ok x ->
  message (send_CorShare_batch x) (recv_CorShare_batch (length x)) (16 * length x) x.
Proof. exact msg_CorShare_batch. Qed.
Print Assumptions CorShare_batch_roundtrip.

Theorem BeaverTriple_roundtrip : forall x,
  limbs_ok (bt_A x) -> limbs_ok (bt_B x) -> limbs_ok (bt_C x) ->
  message (send_BeaverTriple x) recv_BeaverTriple 24 x.
Proof. exact msg_BeaverTriple. Qed.
Print Assumptions BeaverTriple_roundtrip.

Theorem BeaverTripleShare_roundtrip : forall x, triple_ok x ->
  message (send_BeaverTripleShare x) recv_BeaverTripleShare 24 x.
Proof. exact msg_BeaverTripleShare. Qed.
Print Assumptions BeaverTripleShare_roundtrip.

Theorem BoolTriple_roundtrip : forall x, message (send_BoolTriple x) recv_BoolTriple 1 x.
Proof. exact msg_BoolTriple. Qed.
Print Assumptions BoolTriple_roundtrip.

Theorem DaBit_roundtrip : forall x, limbs_ok (bp x) -> message (send_DaBit x) recv_DaBit 9 x.
Proof. exact msg_DaBit. Qed.
Print Assumptions DaBit_roundtrip.

Theorem DaBit_batch_roundtrip : forall x, Forall (fun d => limbs_ok (bp d)) x ->
  exists m, is_ceil8 (length x) m /\
  message (send_DaBit_batch x) (recv_DaBit_batch (length x)) (8 * length x + m) x.
Proof. intros. exists (bool_bytes (length x)). split; [apply bool_bytes_ceil|now apply msg_DaBit_batch]. Qed.
Print Assumptions DaBit_batch_roundtrip.

Theorem EdaBit_roundtrip : forall nbits x, edabit_ok nbits x ->
  exists m, is_ceil8 nbits m /\ message (send_EdaBit x nbits) (recv_EdaBit nbits) (8 + m) x.
Proof. intros. exists (bool_bytes nbits). split; [apply bool_bytes_ceil|now apply msg_EdaBit]. Qed.
Print Assumptions EdaBit_roundtrip.

Theorem EdaBit_batch_roundtrip : forall nbits x, Forall (edabit_ok nbits) x ->
  exists m, is_ceil8 (length x * nbits) m /\
  message (send_EdaBit_batch x nbits) (recv_EdaBit_batch nbits (length x)) (8 * length x + m) x.
Proof. intros. exists (bool_bytes (length x * nbits)). split; [apply bool_bytes_ceil|now apply msg_EdaBit_batch]. Qed.
Print Assumptions EdaBit_batch_roundtrip.

Theorem ClientPacket_roundtrip : forall NMul x, packet_ok NMul x ->
  message (send_ClientPacket x NMul) (recv_ClientPacket NMul)
    (8 * NMul + 24 + 8 * length (h_points x) + 24) x.
Proof. exact msg_ClientPacket. Qed.
Print Assumptions ClientPacket_roundtrip.

(** A packet for a circuit with 2 multiplications (4 interpolation points). *)
Example packet_ok_ex :
  packet_ok 2 (mkPacket [11; 12] 1 2 3 [21; 22; 23; 24] (mkBTS 5 6 7)).
Proof. unfold packet_ok, triple_ok, limbs_ok. repeat split; cbn; try lia; repeat constructor; try lia;
  reflexivity. Qed.
