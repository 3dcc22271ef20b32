(** * Proofs about /repo/net_share.cpp (model Net.v) *)
From Coq Require Import ZArith List Bool Lia ZifyBool ZifyNat.
From Verif Require Import Words WordsFacts Constants Share Proc ProcFacts Net SpecNet.
Import ListNotations.
Open Scope Z_scope.

Arguments Nat.div : simpl never.
Arguments Nat.modulo : simpl never.

(** ** recv_in *)

Lemma recv_in_loop_eq script closed stream buf r len :
  recv_in_loop script closed stream buf r len =
  if r <? len then
    match script with
    | [] => RBlocked buf
    | KErr :: script' =>
        recv_in_loop script' closed stream buf (u32 (r + u32 (-1))) len
    | KChunk c :: script' =>
        match stream with
        | [] => if closed then RDone 0 buf [] else RBlocked buf
        | _ =>
            let got := firstn (Nat.min (S c) (Z.to_nat (len - r))) stream in
            recv_in_loop script' closed (skipn (length got) stream)
              (store_at buf (Z.to_nat r) got)
              (u32 (r + Z.of_nat (length got))) len
        end
    end
  else RDone (int32 r) buf stream.
Proof. destruct script; reflexivity. Qed.

Lemma int32_small z : 0 <= z < 2147483648 -> int32 z = z.
Proof.
  intros. unfold int32, u32, two32. rewrite Z.mod_small by lia.
  destruct (Z.ltb_spec z 2147483648); lia.
Qed.

Lemma store_at_length buf off bs :
  (off + length bs <= length buf)%nat -> length (store_at buf off bs) = length buf.
Proof.
  intros. unfold store_at. rewrite !app_length, firstn_length, skipn_length. lia.
Qed.

Lemma skipn_skipn' {A} (a b : nat) (l : list A) : skipn a (skipn b l) = skipn (b + a) l.
Proof. revert l. induction b; intros; simpl; auto. destruct l; auto. now rewrite skipn_nil. Qed.

Lemma firstn_add {A} (a b : nat) (l : list A) :
  firstn (a + b) l = firstn a l ++ firstn b (skipn a l).
Proof. revert l. induction a; intros; simpl; auto. destruct l; simpl; auto.
  - now rewrite firstn_nil.
  - now rewrite IHa.
Qed.

Lemma firstn_store_at buf off bs :
  (off + length bs <= length buf)%nat ->
  firstn (off + length bs) (store_at buf off bs) = firstn off buf ++ bs.
Proof.
  intros. unfold store_at. rewrite app_assoc.
  rewrite firstn_app_exact; auto. rewrite app_length, firstn_length. lia.
Qed.

Lemma skipn_store_at buf off bs n :
  (off + length bs <= n)%nat -> (off + length bs <= length buf)%nat ->
  skipn n (store_at buf off bs) = skipn n buf.
Proof.
  intros. unfold store_at. rewrite app_assoc.
  replace n with (length (firstn off buf ++ bs) + (n - (off + length bs)))%nat.
  2:{ rewrite app_length, firstn_length. lia. }
  rewrite <- skipn_skipn'. rewrite skipn_app_exact by reflexivity.
  rewrite skipn_skipn'. f_equal. rewrite app_length, firstn_length. lia.
Qed.

(** Every completed run of [recv_in] without kernel errors. *)
Lemma recv_in_loop_done script : forall closed stream buf (r len : nat),
  Forall no_err script -> (r <= len)%nat -> Z.of_nat len < 2147483648 ->
  (len <= length buf)%nat ->
  match recv_in_loop script closed stream buf (Z.of_nat r) (Z.of_nat len) with
  | RDone ret b rest =>
      (ret = Z.of_nat len /\ (len - r <= length stream)%nat /\
       b = firstn r buf ++ firstn (len - r) stream ++ skipn len buf /\
       rest = skipn (len - r) stream) \/
      (ret = 0 /\ closed = true /\ (length stream < len - r)%nat /\
       b = firstn r buf ++ stream ++ skipn (r + length stream) buf /\ rest = [])
  | RBlocked _ =>
      (length script < len - r /\ length script <= length stream)%nat \/
      ((length stream < len - r)%nat /\ closed = false)
  end.
Proof.
  induction script as [|e script IH]; intros closed stream buf r len Herr Hr Hlen Hbuf;
    rewrite recv_in_loop_eq; destruct (Z.ltb_spec (Z.of_nat r) (Z.of_nat len)) as [L|L].
  - left. simpl. lia.
  - left. rewrite int32_small by lia. replace (len - r)%nat with 0%nat by lia.
    replace len with r by lia. simpl. rewrite firstn_skipn. repeat split; auto; lia.
  - inversion Herr as [|? ? He Herr']; subst. destruct e as [c|]; [|contradiction].
    destruct stream as [|x stream].
    + destruct closed.
      * right. simpl. rewrite Nat.add_0_r, firstn_skipn. repeat split; auto; lia.
      * right. simpl. split; [lia|auto].
    + remember (x :: stream) as st eqn:Est.
      set (got := firstn _ st). cbv zeta.
      replace (Z.to_nat (Z.of_nat len - Z.of_nat r)) with (len - r)%nat in * by lia.
      assert (Hg : length got = Nat.min (Nat.min (S c) (len - r)) (length st))
        by (subst got; rewrite firstn_length; lia).
      assert (1 <= length st)%nat by (rewrite Est; simpl; lia).
      assert (1 <= length got)%nat by lia.
      rewrite Nat2Z.id.
      assert (Hu : u32 (Z.of_nat r + Z.of_nat (length got)) = Z.of_nat (r + length got)).
      { unfold u32, two32. rewrite Z.mod_small; lia. }
      rewrite Hu.
      specialize (IH closed (skipn (length got) st) (store_at buf r got) (r + length got)%nat len
                     Herr' ltac:(lia) Hlen).
      rewrite store_at_length in IH by lia. specialize (IH Hbuf).
      assert (Hgot : got = firstn (length got) st).
      { subst got. rewrite firstn_length.
        destruct (Nat.le_gt_cases (Nat.min (S c) (len - r)) (length st)).
        - now rewrite (Nat.min_l _ (length st)) by lia.
        - rewrite (Nat.min_r _ (length st)) by lia. now rewrite firstn_all, firstn_all2 by lia. }
      destruct (recv_in_loop script _ _ _ _ _) as [ret b rest|b].
      * rewrite skipn_length in IH.
        destruct IH as [(-> & Hs & -> & ->)|(-> & -> & Hs & -> & ->)].
        -- left. repeat split; try lia.
           ++ rewrite firstn_store_at by lia. rewrite skipn_store_at by lia.
              rewrite <- !app_assoc. f_equal. rewrite app_assoc. f_equal.
              rewrite Hgot at 1. rewrite <- firstn_add. f_equal. lia.
           ++ rewrite skipn_skipn'. f_equal. lia.
        -- right. repeat split; try lia.
           ++ rewrite firstn_store_at by lia.
              rewrite skipn_store_at by lia.
              rewrite <- app_assoc. f_equal.
              transitivity ((got ++ skipn (length got) st) ++ skipn (r + length got + (length st - length got)) buf).
              ** now rewrite <- app_assoc.
              ** rewrite Hgot at 1. rewrite firstn_skipn. replace (r + length got + (length st - length got))%nat with (r + length st)%nat by lia. reflexivity.
      * rewrite skipn_length in IH. simpl. destruct IH as [IH|[IH1 IH2]];
          [left; lia|right; split; [lia|auto]].
  - left. rewrite int32_small by lia. replace (len - r)%nat with 0%nat by lia.
    replace len with r by lia. simpl. rewrite firstn_skipn. repeat split; auto; lia.
Qed.

Lemma recv_in_complete script closed stream buf (len : nat) :
  Forall no_err script -> (len <= length script)%nat -> (len <= length stream)%nat ->
  (len <= length buf)%nat -> Z.of_nat len < 2147483648 ->
  recv_in script closed stream buf (Z.of_nat len) =
  RDone (Z.of_nat len) (firstn len stream ++ skipn len buf) (skipn len stream).
Proof.
  intros. pose proof (recv_in_loop_done script closed stream buf 0 len
    ltac:(auto) ltac:(lia) ltac:(auto) ltac:(auto)) as P.
  unfold recv_in. simpl Z.of_nat in P at 1.
  destruct (recv_in_loop _ _ _ _ _ _) as [ret b rest|b].
  - rewrite Nat.sub_0_r in P. simpl firstn in P. simpl app in P.
    destruct P as [(-> & _ & -> & ->)|(? & ? & ? & ?)]; [reflexivity|lia].
  - lia.
Qed.

Lemma recv_in_eof script stream buf (len : nat) :
  Forall no_err script -> (length stream < length script)%nat -> (length stream < len)%nat ->
  (len <= length buf)%nat -> Z.of_nat len < 2147483648 ->
  recv_in script true stream buf (Z.of_nat len) =
  RDone 0 (stream ++ skipn (length stream) buf) [].
Proof.
  intros. pose proof (recv_in_loop_done script true stream buf 0 len
    ltac:(auto) ltac:(lia) ltac:(auto) ltac:(auto)) as P.
  unfold recv_in. simpl Z.of_nat in P at 1.
  destruct (recv_in_loop _ _ _ _ _ _) as [ret b rest|b].
  - rewrite Nat.sub_0_r in P. simpl firstn in P. simpl app in P.
    destruct P as [(? & ? & ? & ?)|(-> & _ & _ & -> & ->)]; [lia|reflexivity].
  - destruct P as [P|[P P']]; [lia|discriminate].
Qed.

(** The kernel reports an error on the very first call. *)
Lemma recv_in_err_first script closed stream buf (len : nat) :
  (1 <= len)%nat -> Z.of_nat len < 4294967295 ->
  recv_in (KErr :: script) closed stream buf (Z.of_nat len) = RDone (-1) buf stream.
Proof.
  intros. unfold recv_in. rewrite recv_in_loop_eq.
  destruct (Z.ltb_spec 0 (Z.of_nat len)); [|lia].
  rewrite recv_in_loop_eq. change (u32 (0 + u32 (-1))) with 4294967295.
  destruct (Z.ltb_spec 4294967295 (Z.of_nat len)); [lia|]. reflexivity.
Qed.

(** A connection that fails for good: every later call fails too. *)
Lemma recv_in_loop_err_persistent m : forall closed stream buf (r len : nat),
  (r < m)%nat -> (r < len)%nat -> Z.of_nat len < 4294967295 ->
  recv_in_loop (repeat KErr m) closed stream buf (Z.of_nat r) (Z.of_nat len)
  = RDone (-1) buf stream.
Proof.
  induction m as [|m IH]; intros; [lia|]. rewrite recv_in_loop_eq.
  destruct (Z.ltb_spec (Z.of_nat r) (Z.of_nat len)); [|lia]. simpl repeat. cbv iota.
  destruct r as [|r].
  - rewrite recv_in_loop_eq. change (u32 (Z.of_nat 0 + u32 (-1))) with 4294967295.
    destruct (Z.ltb_spec 4294967295 (Z.of_nat len)); [lia|]. reflexivity.
  - replace (u32 (Z.of_nat (S r) + u32 (-1))) with (Z.of_nat r).
    + apply IH; lia.
    + change (u32 (-1)) with 4294967295. unfold u32, two32.
      replace (Z.of_nat (S r) + 4294967295) with (Z.of_nat r + 1 * 4294967296) by lia.
      rewrite Z.mod_add by lia. rewrite Z.mod_small; lia.
Qed.

(** ** Packed bits *)

Definition pack_step (x : list bool) (buf : list Z) (i : nat) : list Z :=
  if nth i x false
  then upd (i / 8) (Z.lxor (nth (i / 8) buf 0) (2 ^ Z.of_nat (i mod 8))) buf
  else buf.

Lemma bit_lt_256 z : 0 <= z -> (forall i, 8 <= i -> Z.testbit z i = false) -> z < 256.
Proof.
  intros Hz H. destruct (Z.eq_dec z 0); [lia|].
  apply (Z.log2_lt_cancel z 256). change (Z.log2 256) with 8.
  destruct (Z.lt_ge_cases (Z.log2 z) 8); auto.
  specialize (H (Z.log2 z) ltac:(lia)). rewrite Z.bit_log2 in H by lia. discriminate.
Qed.

Lemma testbit_byte_high z i : 0 <= z < 256 -> 8 <= i -> Z.testbit z i = false.
Proof.
  intros. destruct (Z.eq_dec z 0) as [->|]; [apply Z.bits_0|].
  apply Z.bits_above_log2; [lia|].
  assert (Z.log2 z <= Z.log2 255) by (apply Z.log2_le_mono; lia).
  change (Z.log2 255) with 7 in *. lia.
Qed.

Lemma lxor_byte a b : is_byte a -> is_byte b -> is_byte (Z.lxor a b).
Proof.
  unfold is_byte. intros. assert (0 <= Z.lxor a b) by (apply Z.lxor_nonneg; lia).
  split; auto. apply bit_lt_256; auto. intros. rewrite Z.lxor_spec.
  rewrite !testbit_byte_high; auto; lia.
Qed.

Lemma pow2_mod8_byte i : is_byte (2 ^ Z.of_nat (i mod 8)).
Proof.
  unfold is_byte. pose proof (Nat.mod_upper_bound i 8 ltac:(lia)).
  split; [apply Z.pow_nonneg; lia|]. change 256 with (2 ^ 8). apply Z.pow_lt_mono_r; lia.
Qed.

Lemma Forall_upd {A} (P : A -> Prop) i x l : Forall P l -> P x -> Forall P (upd i x l).
Proof. intros H Hx. revert i. induction H; intros [|i]; simpl; constructor; auto. Qed.

Lemma Forall_nth0 l i : Forall is_byte l -> is_byte (nth i l 0).
Proof.
  intros H. destruct (Nat.lt_ge_cases i (length l)).
  - rewrite Forall_forall in H. apply H, nth_In; auto.
  - rewrite nth_overflow by auto. unfold is_byte; lia.
Qed.

Lemma pack_inv x k buf :
  (k <= length x)%nat -> buf = fold_left (pack_step x) (seq 0 k) (repeat 0 (bool_bytes (length x))) ->
  length buf = bool_bytes (length x) /\ Forall is_byte buf /\
  forall j, Z.testbit (nth (j / 8) buf 0) (Z.of_nat (j mod 8)) = (j <? k)%nat && nth j x false.
Proof.
  revert buf. induction k as [|k IH]; intros buf Hk ->.
  - simpl. rewrite repeat_length. repeat split.
    + apply Forall_forall. intros z Hz. apply repeat_spec in Hz as ->. unfold is_byte; lia.
    + intros j. replace (nth (j / 8) (repeat 0 (bool_bytes (length x))) 0) with 0.
      * apply Z.bits_0.
      * symmetry. apply nth_repeat.
  - rewrite seq_S, fold_left_app. simpl.
    specialize (IH _ ltac:(lia) eq_refl).
    set (b := fold_left _ _ _) in *. destruct IH as (Hl & Hb & Hj).
    unfold pack_step. destruct (nth k x false) eqn:Ek.
    + assert (Hkk : (k / 8 < length b)%nat).
      { rewrite Hl. unfold bool_bytes. apply Nat.div_lt_upper_bound; [lia|].
        pose proof (Nat.div_mod (length x + 7) 8 ltac:(lia)).
        pose proof (Nat.mod_upper_bound (length x + 7) 8 ltac:(lia)). lia. }
      repeat split.
      * now rewrite upd_length.
      * apply Forall_upd; auto. apply lxor_byte; [now apply Forall_nth0|apply pow2_mod8_byte].
      * intros j. destruct (Nat.eq_dec (j / 8) (k / 8)) as [E|E].
        -- rewrite E, nth_upd_eq by auto. rewrite Z.lxor_spec, <- E, Hj.
           rewrite Z.pow2_bits_eqb by lia.
           pose proof (Nat.div_mod j 8 ltac:(lia)). pose proof (Nat.div_mod k 8 ltac:(lia)).
           destruct (Nat.eq_dec j k) as [->|N].
           ++ rewrite Z.eqb_refl, Ek. destruct (Nat.ltb_spec k k), (Nat.ltb_spec k (S k)); auto; lia.
           ++ destruct (Z.eqb_spec (Z.of_nat (k mod 8)) (Z.of_nat (j mod 8))) as [E'|E'].
              { exfalso. apply N. lia. }
              rewrite xorb_false_r.
              destruct (Nat.ltb_spec j k), (Nat.ltb_spec j (S k)); auto; lia.
        -- rewrite nth_upd_neq by auto. rewrite Hj.
           assert (j <> k) by (intros ->; auto).
           destruct (Nat.ltb_spec j k), (Nat.ltb_spec j (S k)); auto; lia.
    + repeat split; auto. intros j. rewrite Hj.
      destruct (Nat.eq_dec j k) as [->|N].
      * rewrite Ek, !andb_false_r. auto.
      * destruct (Nat.ltb_spec j k), (Nat.ltb_spec j (S k)); auto; lia.
Qed.

Lemma pack_bools_length x : length (pack_bools x) = bool_bytes (length x).
Proof. apply (pack_inv x (length x) (pack_bools x)); auto. Qed.

Lemma pack_bools_bytes x : Forall is_byte (pack_bools x).
Proof. apply (pack_inv x (length x) (pack_bools x)); auto. Qed.

Lemma unpack_pack x : unpack_bools (length x) (pack_bools x) = x.
Proof.
  destruct (pack_inv x (length x) (pack_bools x)) as (_ & _ & H); auto.
  unfold unpack_bools. apply nth_ext with (d := false) (d' := false).
  - now rewrite map_length, seq_length.
  - intros j Hj. rewrite map_length, seq_length in Hj.
    set (f := fun i => _).
    rewrite (nth_indep _ false (f 0%nat)) by now rewrite map_length, seq_length.
    rewrite map_nth, seq_nth by auto. unfold f. simpl (0 + j)%nat. rewrite H.
    destruct (Nat.ltb_spec j (length x)); auto; lia.
Qed.

(** ** Byte order *)

Lemma le_val_app a b : le_val (a ++ b) = le_val a + 256 ^ Z.of_nat (length a) * le_val b.
Proof.
  induction a; cbn [length app le_val].
  - change (256 ^ Z.of_nat 0) with 1. lia.
  - rewrite IHa, Nat2Z.inj_succ, Z.pow_succ_r by lia. ring.
Qed.

Lemma bswap32_range x : 0 <= bswap32 x < two32.
Proof.
  unfold bswap32.
  assert (H : Forall is_byte (rev (le_bytes 4 (u32 x)))).
  { apply Forall_rev, le_bytes_bytes. }
  pose proof (le_val_range _ H) as R. rewrite rev_length, le_bytes_length in R. exact R.
Qed.

Lemma le_val_rev_rev n x : 0 <= x < 256 ^ Z.of_nat n ->
  le_val (rev (le_bytes n (le_val (rev (le_bytes n x))))) = x.
Proof.
  intros Hx. set (l := rev (le_bytes n x)).
  assert (Hl : length l = n) by (subst l; now rewrite rev_length, le_bytes_length).
  assert (Hb : Forall is_byte l) by (apply Forall_rev, le_bytes_bytes).
  rewrite <- Hl at 1. rewrite le_bytes_val by auto.
  subst l. rewrite rev_involutive. now apply le_val_bytes_small.
Qed.

Lemma bswap32_involutive x : bswap32 (bswap32 x) = u32 x.
Proof.
  pose proof (bswap32_range x) as R.
  unfold bswap32 at 1. rewrite (u32_small (bswap32 x)) by auto.
  apply le_val_rev_rev. apply u32_range.
Qed.

Lemma bswap32_u32 x : bswap32 (u32 x) = bswap32 x.
Proof. unfold bswap32, u32. now rewrite Z.mod_mod by (unfold two32; lia). Qed.

Lemma lor_shiftl_add a b n : 0 <= n -> 0 <= b < 2 ^ n ->
  Z.lor (Z.shiftl a n) b = a * 2 ^ n + b.
Proof.
  intros Hn Hb. rewrite <- Z.shiftl_mul_pow2 by lia.
  symmetry. rewrite <- Z.lxor_lor, Z.add_nocarry_lxor; auto;
    apply Z.bits_inj'; intros i Hi; rewrite Z.land_spec, Z.bits_0;
    destruct (Z.lt_ge_cases i n);
    try (rewrite Z.shiftl_spec_low by lia; reflexivity);
    (assert (Z.testbit b i = false) as ->; [|apply andb_false_r]);
    (destruct (Z.eq_dec b 0) as [->|]; [apply Z.bits_0|]);
    apply Z.bits_above_log2; try lia;
    apply Z.lt_le_trans with n; try lia; apply Z.log2_lt_pow2; lia.
Qed.

Lemma bswap64_add x :
  bswap64 x = bswap32 (x mod two32) * two32 + bswap32 (x / two32).
Proof.
  unfold bswap64. pose proof (bswap32_range (Z.shiftr x 32)).
  rewrite lor_shiftl_add by (change (2 ^ 32) with two32; lia).
  change 0xFFFFFFFF with (Z.ones 32). rewrite Z.land_ones, Z.shiftr_div_pow2 by lia.
  reflexivity.
Qed.

Lemma bswap64_range x : 0 <= bswap64 x < two64.
Proof.
  rewrite bswap64_add. pose proof (bswap32_range (x mod two32)).
  pose proof (bswap32_range (x / two32)). unfold two32, two64 in *. lia.
Qed.

Lemma bswap64_involutive x : 0 <= x < two64 -> bswap64 (bswap64 x) = x.
Proof.
  intros Hx. rewrite (bswap64_add (bswap64 x)). rewrite (bswap64_add x).
  pose proof (bswap32_range (x mod two32)) as R1.
  pose proof (bswap32_range (x / two32)) as R2.
  set (hi := bswap32 (x mod two32)) in *. set (lo := bswap32 (x / two32)) in *.
  assert (two32 > 0) by reflexivity.
  replace ((hi * two32 + lo) mod two32) with lo.
  2:{ rewrite Z.add_comm, Z.mod_add by lia. now rewrite Z.mod_small. }
  replace ((hi * two32 + lo) / two32) with hi.
  2:{ rewrite Z.add_comm, Z.div_add by lia. rewrite Z.div_small; lia. }
  unfold hi, lo. rewrite !bswap32_involutive.
  unfold u32. rewrite Z.mod_mod by lia.
  rewrite (Z.mod_small (x / two32)).
  - rewrite (Z.div_mod x two32) at 3 by lia. lia.
  - split; [apply Z.div_pos; lia|apply Z.div_lt_upper_bound; [lia|]]. exact (proj2 Hx).
Qed.

(** ** Messages: what one side sends is what the other receives *)

(** [s] sends a byte string which, followed by anything, [r] decodes to [x],
    leaving exactly the rest. *)
Definition delivers {A} (s : proc unit) (r : proc A) (x : A) : Prop :=
  exists bs, emits s bs tt /\ forall rest, feed r (bs ++ rest) = Some (x, rest).

Lemma delivers_ret {A} (x : A) : delivers (Ret tt) (Ret x) x.
Proof. exists []. split; [constructor|reflexivity]. Qed.

Lemma delivers_seq {A B} s (r : proc A) x s' (r' : A -> proc B) y :
  delivers s r x -> delivers s' (r' x) y -> delivers (s ;;; s') (bind r r') y.
Proof.
  intros (bs & E & F) (bs' & E' & F'). exists (bs ++ bs'). split.
  - eapply emits_bind; eauto.
  - intros rest. rewrite <- app_assoc. erewrite feed_bind by apply F. apply F'.
Qed.

Lemma delivers_map {A B} s (r : proc A) x (f : A -> B) :
  delivers s r x -> delivers s (bind r (fun z => Ret (f z))) (f x).
Proof.
  intros (bs & E & F). exists bs. split; auto. intros rest.
  erewrite feed_bind by apply F. reflexivity.
Qed.

Lemma delivers_eq {A} s (r : proc A) x y : delivers s r x -> y = x -> delivers s r y.
Proof. now intros ? ->. Qed.

Lemma delivers_send1 {A} bs n (k : list Z -> proc A) x :
  length bs = n -> k bs = Ret x -> delivers (Send bs (Ret tt)) (Recv n k) x.
Proof.
  intros H Hk. exists bs. split.
  - rewrite <- (app_nil_r bs) at 2. repeat constructor.
  - intros rest. rewrite feed_recv by auto. now rewrite Hk.
Qed.

Lemma delivers_bool x : delivers (send_bool x) recv_bool x.
Proof. apply delivers_send1; auto. destruct x; reflexivity. Qed.

Lemma delivers_bool_batch x : delivers (send_bool_batch x) (recv_bool_batch (length x)) x.
Proof. apply delivers_send1; [apply pack_bools_length|now rewrite unpack_pack]. Qed.

Lemma le_val_bytes_u32 x : le_val (le_bytes 4 (bswap32 x)) = bswap32 x.
Proof. apply le_val_bytes_small. apply bswap32_range. Qed.

Lemma le_val_bytes_size x : le_val (le_bytes 8 (bswap32 x)) = bswap32 x.
Proof.
  apply le_val_bytes_small. pose proof (bswap32_range x). rewrite pow256_8.
  unfold two32, two64 in *. lia.
Qed.

Lemma delivers_size x : 0 <= x < two32 -> delivers (send_size x) recv_size x.
Proof.
  intros. apply delivers_send1; [apply le_bytes_length|].
  now rewrite le_val_bytes_size, bswap32_involutive, u32_small.
Qed.

Lemma delivers_size_trunc x : delivers (send_size x) recv_size (u32 x).
Proof.
  intros. apply delivers_send1; [apply le_bytes_length|].
  now rewrite le_val_bytes_size, bswap32_involutive.
Qed.

Lemma delivers_uint32 x : 0 <= x < two32 -> delivers (send_uint32 x) recv_uint32 x.
Proof.
  intros. apply delivers_send1; [apply le_bytes_length|].
  now rewrite le_val_bytes_u32, bswap32_involutive, u32_small.
Qed.

Lemma int32_u32 x : -2147483648 <= x < 2147483648 -> int32 (u32 x) = x.
Proof.
  intros. unfold int32, u32. rewrite Z.mod_mod by (unfold two32; lia).
  destruct (Z.lt_ge_cases x 0).
  - replace (x mod two32) with (x + two32).
    + unfold two32. destruct (Z.ltb_spec (x + 4294967296) 2147483648); lia.
    + apply Z.mod_unique with (-1); unfold two32; lia.
  - rewrite Z.mod_small by (unfold two32; lia).
    destruct (Z.ltb_spec x 2147483648); lia.
Qed.

Lemma delivers_int x : -2147483648 <= x < 2147483648 -> delivers (send_int x) recv_int x.
Proof.
  intros. apply delivers_send1; [apply le_bytes_length|].
  now rewrite le_val_bytes_u32, bswap32_involutive, int32_u32.
Qed.

Lemma delivers_uint64 x : 0 <= x < two64 -> delivers (send_uint64 x) recv_uint64 x.
Proof.
  intros. apply delivers_send1; [apply le_bytes_length|].
  rewrite le_val_bytes_small by (rewrite pow256_8; apply bswap64_range).
  now rewrite bswap64_involutive.
Qed.

Lemma chunks_map_le n (x : list Z) :
  Forall (fun z => 0 <= z < 256 ^ Z.of_nat n) x ->
  map le_val (chunks (length x) n (concat (map (le_bytes n) x))) = x.
Proof.
  intros H. rewrite <- (app_nil_r (concat _)).
  rewrite <- (map_length (le_bytes n) x) at 1. rewrite chunks_concat.
  - rewrite map_map. rewrite <- (map_id x) at 2. apply map_ext_in.
    intros z Hz. apply le_val_bytes_small. rewrite Forall_forall in H. now apply H.
  - apply Forall_map, Forall_forall. intros. apply le_bytes_length.
Qed.

Lemma concat_le_length n (x : list Z) :
  length (concat (map (le_bytes n) x)) = (length x * n)%nat.
Proof.
  rewrite (concat_length_const n).
  - now rewrite map_length.
  - apply Forall_map, Forall_forall. intros. apply le_bytes_length.
Qed.

Lemma delivers_uint64_batch x : Forall (fun z => 0 <= z < two64) x ->
  delivers (send_uint64_batch x) (recv_uint64_batch (length x)) x.
Proof.
  intros. apply delivers_send1; [apply concat_le_length|]. now rewrite chunks_map_le.
Qed.

Lemma delivers_string x old : (0 < length x)%nat -> Z.of_nat (length x) < two32 ->
  delivers (send_string x) (recv_string old) x.
Proof.
  intros. unfold send_string, recv_string. eapply delivers_seq; [apply delivers_size; lia|].
  simpl. destruct (Z.eqb_spec (Z.of_nat (length x)) 0); [lia|].
  rewrite Nat2Z.id. apply delivers_send1; reflexivity.
Qed.

(** The empty string leaves the target of the receiver unchanged. *)
Lemma delivers_empty_string old : delivers (send_string []) (recv_string old) old.
Proof.
  unfold send_string, recv_string. eapply delivers_seq; [apply (delivers_size 0); unfold two32; lia|].
  simpl. exists []. split; [|reflexivity]. change (@nil Z) with (@nil Z ++ []) at 2.
  repeat constructor.
Qed.

Lemma fits_limbs_ok x : limbs_ok x -> fits_limbs x = true.
Proof.
  unfold limbs_ok, fits_limbs. change (256 ^ Z.of_nat FMPZ_BYTES) with two64. intros.
  destruct (Z.leb_spec 0 x), (Z.ltb_spec x two64); auto; lia.
Qed.

Lemma in_field_limbs x : 0 <= x < Int_Modulus -> limbs_ok x.
Proof. unfold limbs_ok. assert (Int_Modulus < two64) by reflexivity. lia. Qed.

Lemma delivers_fmpz x : limbs_ok x -> delivers (send_fmpz x) recv_fmpz x.
Proof.
  intros. unfold send_fmpz. rewrite fits_limbs_ok by auto.
  apply delivers_send1; [apply le_bytes_length|]. now rewrite le_val_bytes_small.
Qed.

Lemma delivers_fmpz_chunk x : Forall limbs_ok x ->
  delivers (send_fmpz_chunk x) (recv_fmpz_chunk (length x)) x.
Proof.
  intros. unfold send_fmpz_chunk. rewrite (proj2 (forallb_forall _ _)).
  2:{ intros z Hz. apply fits_limbs_ok. rewrite Forall_forall in H; auto. }
  apply delivers_send1; [apply concat_le_length|]. now rewrite chunks_map_le.
Qed.

Lemma Forall_firstn {A} (P : A -> Prop) n l : Forall P l -> Forall P (firstn n l).
Proof. intros H. revert n. induction H; intros [|n]; simpl; constructor; auto. Qed.
Lemma Forall_skipn {A} (P : A -> Prop) n l : Forall P l -> Forall P (skipn n l).
Proof. intros H. revert n. induction H; intros [|n]; simpl; auto. Qed.

Lemma delivers_fmpz_batch_loop maxb fuel x :
  0 < maxb -> (length x <= fuel)%nat -> Forall limbs_ok x ->
  delivers (send_fmpz_batch_loop maxb fuel x) (recv_fmpz_batch_loop maxb fuel (length x)) x.
Proof.
  intros Hm. revert x. induction fuel as [|f IH]; intros x Hl Hx.
  - simpl. destruct (Z.ltb_spec maxb (Z.of_nat (length x))); [lia|].
    now apply delivers_fmpz_chunk.
  - cbn [send_fmpz_batch_loop recv_fmpz_batch_loop].
    destruct (Z.ltb_spec maxb (Z.of_nat (length x))) as [L|L]; [|now apply delivers_fmpz_chunk].
    assert (Hf : length (firstn (Z.to_nat maxb) x) = Z.to_nat maxb) by (rewrite firstn_length; lia).
    eapply delivers_seq.
    + rewrite <- Hf at 2. apply delivers_fmpz_chunk, Forall_firstn, Hx.
    + eapply delivers_eq; [|symmetry; apply (firstn_skipn (Z.to_nat maxb) x)].
      apply delivers_map with (f := fun l' => firstn (Z.to_nat maxb) x ++ l').
      rewrite <- skipn_length. apply IH; [rewrite skipn_length; lia|].
      apply Forall_skipn, Hx.
Qed.

Lemma delivers_fmpz_batch x : Forall limbs_ok x ->
  delivers (send_fmpz_batch x) (recv_fmpz_batch (length x)) x.
Proof. intros. apply delivers_fmpz_batch_loop; auto. reflexivity. Qed.

Lemma delivers_Cor x : limbs_ok (cor_D x) -> limbs_ok (cor_E x) ->
  delivers (send_Cor x) recv_Cor x.
Proof.
  intros. destruct x as [d e]. eapply delivers_seq; [now apply delivers_fmpz|].
  apply delivers_map with (f := fun e => mkCor d e). now apply delivers_fmpz.
Qed.

Lemma delivers_CorShare x : corshare_ok x -> delivers (send_CorShare x) recv_CorShare x.
Proof.
  intros []. destruct x as [d e]. eapply delivers_seq; [now apply delivers_fmpz|].
  apply delivers_map with (f := fun e => mkCorShare d e). now apply delivers_fmpz.
Qed.

Lemma delivers_CorShare_batch x : Forall corshare_ok x ->
  delivers (send_CorShare_batch x) (recv_CorShare_batch (length x)) x.
Proof.
  intros H. unfold send_CorShare_batch, recv_CorShare_batch.
  eapply delivers_seq.
  - rewrite <- (map_length shareD). apply delivers_fmpz_batch.
    apply Forall_map. eapply Forall_impl; [|exact H]. now intros ? [].
  - assert (E : x = map2 mkCorShare (map shareD x) (map shareE x)).
    { clear. induction x as [|[] x]; simpl; congruence. }
    eapply delivers_eq; [|exact E]. clear E.
    apply delivers_map with (f := fun es => map2 mkCorShare (map shareD x) es).
    rewrite <- (map_length shareE). apply delivers_fmpz_batch.
    apply Forall_map. eapply Forall_impl; [|exact H]. now intros ? [].
Qed.

Lemma delivers_fmpz_each x : Forall limbs_ok x ->
  delivers (send_fmpz_each x) (recv_fmpz_each (length x)) x.
Proof.
  induction 1; cbn [send_fmpz_each recv_fmpz_each length]; [apply delivers_ret|].
  eapply delivers_seq; [now apply delivers_fmpz|].
  apply delivers_map with (f := fun l => x :: l). auto.
Qed.

Lemma delivers_BeaverTriple x : limbs_ok (bt_A x) -> limbs_ok (bt_B x) -> limbs_ok (bt_C x) ->
  delivers (send_BeaverTriple x) recv_BeaverTriple x.
Proof.
  intros. destruct x as [a b c]. eapply delivers_seq; [now apply delivers_fmpz|].
  eapply delivers_seq; [now apply delivers_fmpz|].
  apply delivers_map with (f := fun c => mkBT a b c). now apply delivers_fmpz.
Qed.

Lemma delivers_BeaverTripleShare x : triple_ok x ->
  delivers (send_BeaverTripleShare x) recv_BeaverTripleShare x.
Proof.
  intros (?&?&?). destruct x as [a b c]. eapply delivers_seq; [now apply delivers_fmpz|].
  eapply delivers_seq; [now apply delivers_fmpz|].
  apply delivers_map with (f := fun c => mkBTS a b c). now apply delivers_fmpz.
Qed.

Lemma delivers_ClientPacket NMul x : packet_ok NMul x ->
  delivers (send_ClientPacket x NMul) (recv_ClientPacket NMul) x.
Proof.
  intros (HM & HN & H1 & H2 & H3 & H4 & H5 & H6). unfold send_ClientPacket, recv_ClientPacket.
  rewrite HN, HM, Nat.eqb_refl, Z.eqb_refl, Nat2Z.id. cbn [andb].
  destruct x as [ms f g h hs t];
    cbn [MulShares f0_s g0_s h0_s h_points triple_share] in *. subst NMul.
  eapply delivers_seq; [now apply delivers_fmpz_each|].
  eapply delivers_seq; [now apply delivers_fmpz|].
  eapply delivers_seq; [now apply delivers_fmpz|].
  eapply delivers_seq; [now apply delivers_fmpz|].
  eapply delivers_seq; [now apply delivers_fmpz_each|].
  apply delivers_map with (f := fun t => mkPacket ms f g h hs t).
  now apply delivers_BeaverTripleShare.
Qed.

Lemma delivers_BoolTriple x : delivers (send_BoolTriple x) recv_BoolTriple x.
Proof.
  destruct x as [a b c]. unfold recv_BoolTriple.
  apply (delivers_map _ (recv_bool_batch 3) [a; b; c]
           (fun l => mkBoolT (nth 0 l false) (nth 1 l false) (nth 2 l false))).
  apply (delivers_bool_batch [a; b; c]).
Qed.

Lemma delivers_DaBit x : dabit_ok x -> delivers (send_DaBit x) recv_DaBit x.
Proof.
  intros. destruct x as [v b]. eapply delivers_seq; [now apply delivers_fmpz|].
  apply delivers_map with (f := fun b => mkDaBit v b). apply delivers_bool.
Qed.

Lemma delivers_DaBit_chunk x : Forall dabit_ok x ->
  delivers (send_DaBit_chunk x) (recv_DaBit_chunk (length x)) x.
Proof.
  intros H. eapply delivers_seq.
  - rewrite <- (map_length bp). apply delivers_fmpz_batch. now apply Forall_map.
  - assert (E : x = map2 mkDaBit (map bp x) (map b2 x)).
    { clear. induction x as [|[] x]; simpl; congruence. }
    eapply delivers_eq; [|exact E]. clear E. apply delivers_map with (f := fun bs => map2 mkDaBit (map bp x) bs).
    rewrite <- (map_length b2). apply delivers_bool_batch.
Qed.

Lemma delivers_DaBit_batch_loop maxb fuel x :
  0 < maxb -> (length x <= fuel)%nat -> Forall dabit_ok x ->
  delivers (send_DaBit_batch_loop maxb fuel x) (recv_DaBit_batch_loop maxb fuel (length x)) x.
Proof.
  intros Hm. revert x. induction fuel as [|f IH]; intros x Hl Hx.
  - simpl. destruct (Z.ltb_spec maxb (Z.of_nat (length x))); [lia|].
    now apply delivers_DaBit_chunk.
  - cbn [send_DaBit_batch_loop recv_DaBit_batch_loop].
    destruct (Z.ltb_spec maxb (Z.of_nat (length x))) as [L|L]; [|now apply delivers_DaBit_chunk].
    assert (Hf : length (firstn (Z.to_nat maxb) x) = Z.to_nat maxb) by (rewrite firstn_length; lia).
    eapply delivers_seq.
    + rewrite <- Hf at 2. apply delivers_DaBit_chunk, Forall_firstn, Hx.
    + eapply delivers_eq; [|symmetry; apply (firstn_skipn (Z.to_nat maxb) x)].
      apply delivers_map with (f := fun l' => firstn (Z.to_nat maxb) x ++ l').
      rewrite <- skipn_length. apply IH; [rewrite skipn_length; lia|].
      apply Forall_skipn, Hx.
Qed.

Lemma delivers_DaBit_batch x : Forall dabit_ok x ->
  delivers (send_DaBit_batch x) (recv_DaBit_batch (length x)) x.
Proof. intros. apply delivers_DaBit_batch_loop; auto. reflexivity. Qed.

Lemma delivers_EdaBit nbits x : edabit_ok nbits x ->
  delivers (send_EdaBit x nbits) (recv_EdaBit nbits) x.
Proof.
  intros [H1 H2]. destruct x as [r b]; cbn [er eb] in *. unfold send_EdaBit. cbn [er eb].
  rewrite H2, Nat.eqb_refl.
  eapply delivers_seq; [now apply delivers_fmpz|].
  apply delivers_map with (f := fun b => mkEdaBit r b). subst. apply delivers_bool_batch.
Qed.

Lemma delivers_EdaBit_batch nbits x : Forall (edabit_ok nbits) x ->
  delivers (send_EdaBit_batch x nbits) (recv_EdaBit_batch nbits (length x)) x.
Proof.
  intros H. unfold send_EdaBit_batch. rewrite (proj2 (forallb_forall _ _)).
  2:{ intros e He. rewrite Forall_forall in H. apply Nat.eqb_eq, H, He. }
  assert (Hlen : Forall (fun l => length l = nbits) (map eb x)).
  { apply Forall_map. eapply Forall_impl; [|exact H]. now intros ? []. }
  eapply delivers_seq.
  - rewrite <- (map_length er). apply delivers_fmpz_batch.
    apply Forall_map. eapply Forall_impl; [|exact H]. now intros ? [].
  - assert (E : x = map2 mkEdaBit (map er x) (chunks (length x) nbits (concat (map eb x)))).
    { rewrite <- (map_length eb). rewrite <- (app_nil_r (concat _)).
      rewrite chunks_concat by auto.
      clear. induction x as [|[] x]; simpl; congruence. }
    eapply delivers_eq; [|exact E]. clear E.
    apply delivers_map with (f := fun b => map2 mkEdaBit (map er x) (chunks (length x) nbits b)).
    rewrite <- (map_length eb) at 1. rewrite <- (concat_length_const nbits) by auto.
    apply delivers_bool_batch.
Qed.

(** Consequences for the pair of servers. *)
Lemma delivers_runs {A B C} s (r : proc A) x (k : proc B) (k' : A -> proc C) :
  delivers s r x -> runs (s ;;; k) (bind r k') k (k' x).
Proof.
  intros (bs & E & F). eapply conv_bind_runs; [|apply runs_refl].
  eapply conv_emit_feed; eauto. specialize (F []). rewrite app_nil_r in F. exact F.
Qed.

Lemma delivers_runs' {A B C} s (r : proc A) x (k : proc B) (k' : A -> proc C) :
  delivers s r x -> runs (bind r k') (s ;;; k) (k' x) k.
Proof. intros. apply runs_swap. now apply delivers_runs. Qed.
