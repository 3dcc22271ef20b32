(** * FREQ (C33, and parts of C34, C36, C37, C38, C42, C46)

    Setting as in P_Server.v: the submissions [subs0], [subs1] arriving at the two
    servers are arbitrary and unrelated.  [L] lists the identities server 1 has
    heard of, [freq_bits w subs0 subs1 pk] is the row shared under an identity
    (SpecFreq.v).  [s0], [s1]: the stores of correlated randomness. *)
From Coq Require Import ZArith List Bool Lia Arith.
From Verif Require Import Words WordsFacts Constants Share SpecShare Proc ProcFacts Net NetFacts SpecNet RelFacts Exec ExecBuf
  Correlated SpecStore ServerOps SpecServer TableFacts ServerFacts ClientOps SpecClient ClientFacts ClientProps
  SpecFreq FreqFacts FreqProps P_Server P_Client.
Import ListNotations.
Open Scope Z_scope.

(** ** Arbitrary streams *)

(** If the weights of all rows do not add up to the announced number, each row is
    checked by itself: every schedule terminates, exactly the rows of weight one
    under identities known to both servers are counted. *)
Theorem freq_checked_one_by_one num_bits order0 order1 total0 total1 stream0 stream1 subs0 subs1 pk0 pk1 junk0 junk1
    c0 c1 T0 T1 s0 s1 L G :
  (num_bits <= 30)%nat -> fair order1 ->
  freq_input num_bits total0 stream0 subs0 pk0 junk0 -> freq_input num_bits total1 stream1 subs1 pk1 junk1 ->
  params_ok c0 c1 -> stores_paired s0 s1 -> heard subs1 L -> (length L <= total0)%nat ->
  let w := freq_width num_bits in
  ~ balanced (total_weight w subs0 subs1 L) total0 -> one_hot w subs0 subs1 G ->
  both (freq_op false order0 num_bits total0 stream0 pk0 junk0 c0 T0 s0)
       (freq_op true order1 num_bits total1 stream1 pk1 junk1 c1 T1 s1)
    (fun r0 r1 => fst r1 = RET_NO_ANS /\
       fst r0 = outcome (length G) total0 (tally w subs0 subs1 G) /\ stores_paired (snd r0) (snd r1)).
Proof.
  intros HB HF (A0 & W0 & K0 & J0) (A1 & W1 & K1 & J1) HP HS HL HT w HN HG.
  exact (freq_failed num_bits order0 order1 total0 total1 stream0 stream1 subs0 subs1 pk0 pk1 junk0 junk1
    c0 c1 T0 T1 s0 s1 L HB HF A0 A1 W0 W1 K0 K1 J0 J1 HP HS HL G HT HN HG).
Qed.
Print Assumptions freq_checked_one_by_one.

(** If they do, all rows are counted, whatever their weights, also those under
    identities unknown to server 0.  Server 0's flags, one bit for each identity,
    are left unread in the buffer towards server 1. *)
Theorem freq_batch_passed num_bits order0 order1 total0 total1 stream0 stream1 subs0 subs1 pk0 pk1 junk0 junk1
    c0 c1 T0 T1 s0 s1 L :
  (num_bits <= 30)%nat -> fair order1 ->
  freq_input num_bits total0 stream0 subs0 pk0 junk0 -> freq_input num_bits total1 stream1 subs1 pk1 junk1 ->
  params_ok c0 c1 -> stores_paired s0 s1 -> heard subs1 L -> (length L <= total0)%nat ->
  let w := freq_width num_bits in
  balanced (total_weight w subs0 subs1 L) total0 ->
  exists s0' s1', stores_paired s0' s1' /\
  ends (bool_bytes (length L))
    (freq_op false order0 num_bits total0 stream0 pk0 junk0 c0 T0 s0)
    (freq_op true order1 num_bits total1 stream1 pk1 junk1 c1 T1 s1)
    (Cfg (Ret (outcome (length L) total0 (tally w subs0 subs1 L), s0')) (Ret (RET_NO_ANS, s1'))
         (pack_bools (repeat true (length L))) []).
Proof.
  intros HB HF (A0 & W0 & K0 & J0) (A1 & W1 & K1 & J1) HP HS HL HT w HN.
  exact (freq_passed num_bits order0 order1 total0 total1 stream0 stream1 subs0 subs1 pk0 pk1 junk0 junk1
    c0 c1 T0 T1 s0 s1 L HB HF A0 A1 W0 W1 K0 K1 J0 J1 HP HS HL HT HN).
Qed.
Print Assumptions freq_batch_passed.

(** What the check of the batch still guarantees: the counts add up to the weight
    of the rows counted, which modulo p is the number announced. *)
Theorem freq_counts_add_up num_bits subs0 subs1 L :
  let w := freq_width num_bits in
  freq_rows w subs0 -> freq_rows w subs1 -> heard subs1 L ->
  zsum (tally w subs0 subs1 L) = Z.of_nat (total_weight w subs0 subs1 L).
Proof.
  intros w W0 W1 HL. apply tally_sum. intros pk _.
  assert (HW : forall subs, freq_rows w subs -> length (get (repeat false w) (first_sub any subs pk)) = w).
  { intros subs H. destruct (first_sub any subs pk) as [v|] eqn:E; cbn [get]; [|apply repeat_length].
    apply ServerCor.first_sub_in in E. unfold freq_rows in H. rewrite Forall_forall in H. apply (H (pk, v)). apply E. }
  unfold freq_bits. rewrite map2_length, !HW by auto. apply Nat.min_id.
Qed.
Print Assumptions freq_counts_add_up.

(** ** Whole runs with honest clients *)
Theorem freq_run num_bits g n order0 order1 pk0 pk1 junk0 junk1 c0 c1 T0 T1 s0 s1 :
  (num_bits <= 30)%nat -> prg_ok g -> Z.of_nat n < two32 -> fair order1 ->
  let w := freq_width num_bits in
  length pk0 = 32%nat -> length pk1 = 32%nat ->
  (forall i, length (junk0 i) = bool_bytes w) -> (forall i, length (junk1 i) = bool_bytes w) ->
  params_ok c0 c1 -> stores_paired s0 s1 ->
  let l := fst (requests (freq_request w g) n 0) in
  (exists s0' s1', stores_paired s0' s1' /\
   ends (bool_bytes n)
     (freq_op false order0 num_bits n (wire freqshare_bytes (subs0 l)) pk0 junk0 c0 T0 s0)
     (freq_op true order1 num_bits n (wire freqshare_bytes (subs1 l)) pk1 junk1 c1 T1 s1)
     (Cfg (Ret (RET_ANS (histogram w (map c_real l)), s0')) (Ret (RET_NO_ANS, s1'))
          (pack_bools (repeat true n)) [])) /\
  freq_counts w l = histogram w (map c_real l).
Proof. exact (freq_honest num_bits g n order0 order1 pk0 pk1 junk0 junk1 c0 c1 T0 T1 s0 s1). Qed.
Print Assumptions freq_run.

(** ** Where server 0 never answers *)

(** Buffers too small for the flags that nobody reads. *)
Theorem freq_small_buffers_block num_bits order0 order1 total0 total1 stream0 stream1 subs0 subs1 pk0 pk1 junk0 junk1
    c0 c1 T0 T1 s0 s1 L cap :
  (num_bits <= 30)%nat -> fair order1 ->
  freq_input num_bits total0 stream0 subs0 pk0 junk0 -> freq_input num_bits total1 stream1 subs1 pk1 junk1 ->
  params_ok c0 c1 -> stores_paired s0 s1 -> heard subs1 L -> (length L <= total0)%nat ->
  balanced (total_weight (freq_width num_bits) subs0 subs1 L) total0 ->
  (1 <= cap)%nat -> (cap < bool_bytes (length L))%nat ->
  never_returns cap (freq_op false order0 num_bits total0 stream0 pk0 junk0 c0 T0 s0)
                    (freq_op true order1 num_bits total1 stream1 pk1 junk1 c1 T1 s1).
Proof.
  intros HB HF (A0 & W0 & K0 & J0) (A1 & W1 & K1 & J1) HP HS HL HT HN H1 H2.
  exact (freq_waits num_bits order0 order1 total0 total1 stream0 stream1 subs0 subs1 pk0 pk1 junk0 junk1
    c0 c1 T0 T1 s0 s1 L HB HF A0 A1 W0 W1 K0 K1 J0 J1 HP HS HL cap HT HN H1 H2).
Qed.
Print Assumptions freq_small_buffers_block.

(** Server 1 knows more identities than server 0 expects submissions: server 0
    writes past the end of its list. *)
Theorem freq_more_identities_undefined num_bits order0 order1 total0 total1 stream0 stream1 subs0 subs1 pk0 pk1 junk0 junk1
    c0 c1 T0 T1 s0 s1 L cap :
  (num_bits <= 30)%nat -> fair order1 ->
  freq_input num_bits total0 stream0 subs0 pk0 junk0 -> freq_input num_bits total1 stream1 subs1 pk1 junk1 ->
  heard subs1 L -> (total0 < length L)%nat -> (1 <= cap)%nat ->
  never_returns cap (freq_op false order0 num_bits total0 stream0 pk0 junk0 c0 T0 s0)
                    (freq_op true order1 num_bits total1 stream1 pk1 junk1 c1 T1 s1).
Proof.
  intros HB HF (A0 & W0 & K0 & J0) (A1 & W1 & K1 & J1) HL HT H1.
  exact (freq_overrun num_bits order0 order1 total0 total1 stream0 stream1 subs0 subs1 pk0 pk1 junk0 junk1
    c0 c1 T0 T1 s0 s1 L HB HF A0 A1 W0 W1 K0 K1 J0 J1 HL cap HT H1).
Qed.
Print Assumptions freq_more_identities_undefined.

(** ** One submission per identity: repetitions change neither the rows nor who is
    counted (but the number announced, hence possibly which check is made). *)
Theorem freq_repeats num_bits order0 order1 total0 total1 stream0 stream1 subs0 subs1 subs0' subs1' pk0 pk1 junk0 junk1
    c0 c1 T0 T1 s0 s1 L G :
  (num_bits <= 30)%nat -> fair order1 -> repeats any subs0 subs0' -> repeats any subs1 subs1' ->
  freq_input num_bits total0 stream0 subs0' pk0 junk0 -> freq_input num_bits total1 stream1 subs1' pk1 junk1 ->
  params_ok c0 c1 -> stores_paired s0 s1 -> heard subs1 L -> (length L <= total0)%nat ->
  let w := freq_width num_bits in
  one_hot w subs0 subs1 G ->
  let p := freq_op false order0 num_bits total0 stream0 pk0 junk0 c0 T0 s0 in
  let q := freq_op true order1 num_bits total1 stream1 pk1 junk1 c1 T1 s1 in
  (~ balanced (total_weight w subs0 subs1 L) total0 ->
     both p q (fun r0 r1 => fst r1 = RET_NO_ANS /\ fst r0 = outcome (length G) total0 (tally w subs0 subs1 G) /\
       stores_paired (snd r0) (snd r1))) /\
  (balanced (total_weight w subs0 subs1 L) total0 ->
     exists s0' s1', stores_paired s0' s1' /\
     ends (bool_bytes (length L)) p q
       (Cfg (Ret (outcome (length L) total0 (tally w subs0 subs1 L), s0')) (Ret (RET_NO_ANS, s1'))
          (pack_bools (repeat true (length L))) [])).
Proof.
  intros HB HF R0 R1 I0 I1 HP HS HL HT w HG p q.
  destruct (repeats_tally w subs0 subs0' subs1 subs1' L R0 R1) as [EL EW].
  destruct (repeats_tally w subs0 subs0' subs1 subs1' G R0 R1) as [EG _].
  rewrite <- EL, <- EW, <- EG. split; intros HN.
  - apply freq_checked_one_by_one with (subs0 := subs0') (subs1 := subs1') (L := L); auto.
    + now apply (repeats_heard subs1).
    + now apply (repeats_one_hot w subs0 subs0' subs1 subs1').
  - apply freq_batch_passed; auto. now apply (repeats_heard subs1).
Qed.
Print Assumptions freq_repeats.

(** ** Identities reveal private values *)
Theorem freq_identity_reveals_next w g n i d : prg_ok g -> (S i < n)%nat ->
  let l := fst (requests (freq_request w g) n 0) in
  c_real (nth (S i) l d) = Z.to_nat (unhex (firstn 16 (c_pk (nth i l d))) mod Z.of_nat w).
Proof.
  intros HG Hi. apply (pk_determines_next g (freq_request w g) (fun z => Z.to_nat (z mod Z.of_nat w))); auto.
  - apply freq_fresh.
  - intros pos. unfold freq_request. cbn [fst c_real]. now rewrite random_u64_block.
Qed.
Print Assumptions freq_identity_reveals_next.

(** ** Examples and refutations *)

(** Stores with daBits for 32 bits: the bits 1, 0, 1, 0, ... *)
Definition ex_dabits0 : list DaBit := concat (repeat [mkDaBit 5 true; mkDaBit 9 false] 16).
Definition ex_dabits1 : list DaBit := concat (repeat [mkDaBit (p - 4) false; mkDaBit (p - 9) false] 16).
Definition ex_store0 : store := mkStore ex_dabits0 [] 0.
Definition ex_store1 : store := mkStore ex_dabits1 [] 0.
Example ex_stores_paired : stores_paired ex_store0 ex_store1.
Proof. split; [|constructor]. repeat (constructor; [repeat split; vm_compute; congruence|]). constructor. Qed.
Definition ex_c0 : store_params := mkParams 8 false 4 true.
Definition ex_c1 : store_params := mkParams 8 true 4 true.
Example ex_params_ok : params_ok ex_c0 ex_c1.
Proof. repeat split. Qed.
Definition ex_old : nat -> list Z := fun _ => [7].

(** Three clients, two bits; the second row has weight zero, the third is sent under
    different identities; four submissions announced. *)
Definition ex_rows0 : list (list Z * list bool) :=
  [(ex_pk 97, [true; false; false; true]); (ex_pk 98, [true; true; false; false]); (ex_pk 99, [true; true; true; true])].
Definition ex_rows1 : list (list Z * list bool) :=
  [(ex_pk 97, [true; true; false; true]); (ex_pk 98, [true; true; false; false]); (ex_pk 100, [true; false; false; false])].
Ltac rows_done :=
  split; [exists []; split; [reflexivity|split; [(left; reflexivity) || (right; split; [discriminate|split; [reflexivity|apply Nat.leb_le; reflexivity]])|
            split; [apply Forall_forall; intros ? Hin; repeat (destruct Hin as [<-|Hin]; [reflexivity|]); destruct Hin|reflexivity]]]
         |split; [apply Forall_forall; intros ? Hin; repeat (destruct Hin as [<-|Hin]; [reflexivity|]); destruct Hin|split; reflexivity]].
Example ex_rows_input0 : freq_input 2 4 (wire freq_wire ex_rows0) ex_rows0 (ex_pk 0) ex_old.
Proof. rows_done. Qed.
Example ex_rows_input1 : freq_input 2 4 (wire freq_wire ex_rows1) ex_rows1 (ex_pk 0) ex_old.
Proof. rows_done. Qed.
Example ex_rows_checked : heard ex_rows1 [ex_pk 97; ex_pk 98; ex_pk 100] /\
  ~ balanced (total_weight (freq_width 2) ex_rows0 ex_rows1 [ex_pk 97; ex_pk 98; ex_pk 100]) 4 /\
  tally (freq_width 2) ex_rows0 ex_rows1 [ex_pk 97] = [0; 1; 0; 0].
Proof.
  split; [|split].
  - split; [repeat (constructor; [cbn; intuition discriminate|]); constructor|].
    intros pk. cbn [ex_rows1 first_sub]. unfold any. rewrite !andb_true_r.
    destruct (key_eqb_spec (ex_pk 97) pk); [split; [discriminate|subst; cbn; auto]|].
    destruct (key_eqb_spec (ex_pk 98) pk); [split; [discriminate|subst; cbn; auto]|].
    destruct (key_eqb_spec (ex_pk 100) pk); [split; [discriminate|subst; cbn; auto]|].
    cbn [In]. intuition congruence.
  - vm_compute. intros [H _]. discriminate.
  - reflexivity.
Qed.
(** Two accepted of four would do, one does not; with two announced it does. *)
Example freq_checked_ex : exists a b, always
  (freq_op false id_order 2 4 (wire freq_wire ex_rows0) (ex_pk 0) ex_old ex_c0 (fun _ => 0) ex_store0)
  (freq_op true id_order 2 4 (wire freq_wire ex_rows1) (ex_pk 0) ex_old ex_c1 (fun _ => 0) ex_store1) a b /\
  (fst a, fst b) = (RET_INVALID, RET_NO_ANS).
Proof. apply (exec_obs_always 60 _ _ (fun a b => (fst a, fst b))). vm_compute. reflexivity. Qed.

(** Not one-hot must not be counted: false.  Two clients, one with the row (1, 1),
    one with (0, 0): no row has weight one, and server 0 announces (1, 1). *)
Definition ex_cheat0 : list (list Z * list bool) := [(ex_pk 97, [true; false]); (ex_pk 98, [true; false])].
Definition ex_cheat1 : list (list Z * list bool) := [(ex_pk 97, [false; true]); (ex_pk 98, [true; false])].
Theorem freq_only_one_hot_refuted :
  one_hot (freq_width 1) ex_cheat0 ex_cheat1 [] /\
  exists s0' s1' o i, ends 1
    (freq_op false id_order 1 2 (wire freq_wire ex_cheat0) (ex_pk 0) ex_old ex_c0 (fun _ => 0) ex_store0)
    (freq_op true id_order 1 2 (wire freq_wire ex_cheat1) (ex_pk 0) ex_old ex_c1 (fun _ => 0) ex_store1)
    (Cfg (Ret (RET_ANS [1; 1], s0')) (Ret (RET_NO_ANS, s1')) o i).
Proof.
  split.
  - split; [constructor|]. intros pk. split; [intros []|]. cbn [ex_cheat0 ex_cheat1 first_sub]. unfold any.
    rewrite !andb_true_r. unfold freq_bits. cbn [ex_cheat0 ex_cheat1 first_sub]. unfold any. rewrite !andb_true_r.
    destruct (key_eqb (ex_pk 97) pk); [intros (_ & _ & H); vm_compute in H; discriminate|].
    destruct (key_eqb (ex_pk 98) pk); [intros (_ & _ & H); vm_compute in H; discriminate|]. now intros (? & _).
  - destruct (exec_buf_obs_ends 1 2000
      (freq_op false id_order 1 2 (wire freq_wire ex_cheat0) (ex_pk 0) ex_old ex_c0 (fun _ => 0) ex_store0)
      (freq_op true id_order 1 2 (wire freq_wire ex_cheat1) (ex_pk 0) ex_old ex_c1 (fun _ => 0) ex_store1)
      (fun a b _ _ => (fst a, fst b)) (RET_ANS [1; 1], RET_NO_ANS)) as (a & b & o & i & H & E).
    { vm_compute. reflexivity. }
    destruct a as [a s0'], b as [b s1']. cbn [fst] in E. injection E as -> ->. exists s0', s1', o, i. exact H.
Qed.
Print Assumptions freq_only_one_hot_refuted.

(** After each operation the channel is empty, so that a sequence of operations
    gives each the result it has alone: false.  Honest clients, FREQ twice: *)
Definition ex_prg2 : prg := fun i => le_bytes 16 ((Z.of_nat (3 * i) + 1) * (2 ^ 64 + 5)).
Definition ex_first : list (crec (list bool) nat) := fst (requests (freq_request 2 ex_prg2) 2 0).
Definition ex_second : list (crec (list bool) nat) := fst (requests (freq_request 2 ex_prg2) 2 3).
Definition ex_freq0 (l : list (crec (list bool) nat)) : store -> proc (result (list Z) * store) :=
  freq_op false id_order 1 2 (wire freqshare_bytes (subs0 l)) (ex_pk 0) ex_old ex_c0 (fun _ => 0).
Definition ex_freq1 (l : list (crec (list bool) nat)) : store -> proc (result (list Z) * store) :=
  freq_op true id_order 1 2 (wire freqshare_bytes (subs1 l)) (ex_pk 0) ex_old ex_c1 (fun _ => 0).
(** The first operation is right and leaves one byte; alone, the second would be right. *)
Example freq_run_ex : map c_real ex_first = [1; 1]%nat /\ map c_real ex_second = [0; 0]%nat /\
  (exists a b o i, ends 1 (ex_freq0 ex_first ex_store0) (ex_freq1 ex_first ex_store1) (Cfg (Ret a) (Ret b) o i) /\
     (fst a, fst b, o, i) = (RET_ANS [0; 2], RET_NO_ANS, [3], [])) /\
  (exists a b o i, ends 1 (ex_freq0 ex_second ex_store0) (ex_freq1 ex_second ex_store1) (Cfg (Ret a) (Ret b) o i) /\
     (fst a, fst b, o, i) = (RET_ANS [2; 0], RET_NO_ANS, [3], [])).
Proof.
  split; [reflexivity|]. split; [reflexivity|].
  split; apply (exec_buf_obs_ends 1 2000 _ _ (fun a b o i => (fst a, fst b, o, i))); vm_compute; reflexivity.
Qed.
(** One after the other, the second announces (5, 9) for two clients with value 0. *)
Theorem freq_after_freq_refuted :
  exists b o i, ends 8
    (r <- ex_freq0 ex_first ex_store0 ;; r' <- ex_freq0 ex_second (snd r) ;; Ret (fst r, fst r'))
    (r <- ex_freq1 ex_first ex_store1 ;; r' <- ex_freq1 ex_second (snd r) ;; Ret (fst r, fst r'))
    (Cfg (Ret (RET_ANS [0; 2], RET_ANS [5; 9])) (Ret b) o i) /\
  histogram 2 (map c_real ex_second) = [2; 0].
Proof.
  destruct (exec_buf_obs_ends 8 4000
    (r <- ex_freq0 ex_first ex_store0 ;; r' <- ex_freq0 ex_second (snd r) ;; Ret (fst r, fst r'))
    (r <- ex_freq1 ex_first ex_store1 ;; r' <- ex_freq1 ex_second (snd r) ;; Ret (fst r, fst r'))
    (fun a _ _ _ => a) (RET_ANS [0; 2], RET_ANS [5; 9])) as (a & b & o & i & H & E).
  { vm_compute. reflexivity. }
  subst a. exists b, o, i. split; [exact H|reflexivity].
Qed.
Print Assumptions freq_after_freq_refuted.

(** Buffers of one byte, nine clients, one value: server 0 waits for ever. *)
Definition ex_nine : list (list Z * list bool) := map (fun k => (ex_pk k, [true])) [1; 2; 3; 4; 5; 6; 7; 8; 9].
Definition ex_nine' : list (list Z * list bool) := map (fun k => (ex_pk k, [false])) [1; 2; 3; 4; 5; 6; 7; 8; 9].
Example freq_block_ex :
  freq_input 0 9 (wire freq_wire ex_nine) ex_nine (ex_pk 0) ex_old /\
  freq_input 0 9 (wire freq_wire ex_nine') ex_nine' (ex_pk 0) ex_old /\
  balanced (total_weight (freq_width 0) ex_nine ex_nine' (map ex_pk [1; 2; 3; 4; 5; 6; 7; 8; 9])) 9 /\
  (1 < bool_bytes 9)%nat.
Proof.
  split; [rows_done|]. split; [rows_done|]. split; [split; reflexivity|]. apply Nat.ltb_lt. reflexivity.
Qed.
(** A repetition. *)
Example freq_repeats_ex : repeats any ex_rows1 ([(ex_pk 97, [true; true; false; true]); (ex_pk 98, [true; true; false; false])] ++
  (ex_pk 97, [false; false; false; false]) :: [(ex_pk 100, [true; false; false; false])]).
Proof.
  exact (rep_add any ex_rows1 [] (ex_pk 97) [true; true; false; true] [(ex_pk 98, [true; true; false; false])]
    [false; false; false; false] [(ex_pk 100, [true; false; false; false])] (rep_refl any ex_rows1) eq_refl).
Qed.
(** Reading the next value off an identity. *)
Example freq_next_ex : let l := fst (requests (freq_request 4 ex_prg) 3 0) in
  map c_real l = [1; 3; 1]%nat /\ map (fun r => Z.to_nat (unhex (firstn 16 (c_pk r)) mod 4)) l = [3; 1; 3]%nat.
Proof. split; reflexivity. Qed.
