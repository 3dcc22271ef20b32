(** * Debugging runs of the client (C56)

    With [DEBUG_INVALID] set, a client makes [n] requests, spoils some of them and
    prints the answer expected from the rest.  [valids l]: the requests not marked as
    invalid.  [stale i]: what is read from the released buffer at request [i]. *)
From Coq Require Import ZArith List Bool Lia.
From Verif Require Import Words WordsFacts Constants Proc Net RelFacts
  ServerOps SpecServer TableFacts ServerFacts ServerProps ServerCor ClientOps SpecClient ClientFacts ClientProps
  DebugOps SpecDebug DebugFacts DebugProps P_Client.
Import ListNotations.
Open Scope Z_scope.

(** For any outcome [r0] of server 0: with six requests or more more than half are
    left, so the answer is the printed one. *)
Theorem bit_sum_debug_run g stale n order0 order1 junk0 junk1 rnd0 rnd1 :
  prg_ok g -> Z.of_nat n < two32 -> fair order1 -> length junk0 = 33%nat -> length junk1 = 33%nat ->
  released_ok g stale n 0 2 4 ->
  let l := bit_sum_invalid g stale n in
  both (bit_sum false order0 n (wire BitShare_bytes (dsubs0 l)) junk0 rnd0)
       (bit_sum true order1 n (wire BitShare_bytes (dsubs1 l)) junk1 rnd1)
    (fun r0 r1 => r1 = RET_NO_ANS /\ r0 = outcome (length (valids l)) n (bit_ans (valids l)) /\
       ((6 <= n)%nat -> r0 = RET_ANS (bit_ans (valids l)))).
Proof. exact (bit_debug g stale n order0 order1 junk0 junk1 rnd0 rnd1). Qed.
Print Assumptions bit_sum_debug_run.

Theorem int_sum_debug_run num_bits g stale n order0 order1 junk0 junk1 rnd0 rnd1 :
  (num_bits <= 63)%nat ->
  prg_ok g -> Z.of_nat n < two32 -> fair order1 -> length junk0 = 40%nat -> length junk1 = 40%nat ->
  released_ok g stale n 2 4 6 ->
  let M := 2 ^ Z.of_nat num_bits in
  let l := int_sum_invalid M g stale n in
  too_big M l ->
  both (int_sum false order0 num_bits n (wire IntShare_bytes (dsubs0 l)) junk0 rnd0)
       (int_sum true order1 num_bits n (wire IntShare_bytes (dsubs1 l)) junk1 rnd1)
    (fun r0 r1 => r1 = RET_NO_ANS /\ r0 = outcome (length (valids l)) n (int_ans (valids l)) /\
       ((10 <= n)%nat -> r0 = RET_ANS (int_ans (valids l)))).
Proof. exact (int_debug num_bits g stale n order0 order1 junk0 junk1 rnd0 rnd1). Qed.
Print Assumptions int_sum_debug_run.

(** As in [and_or_run], for the requests left. *)
Theorem and_or_debug_run is_and g stale n order0 order1 junk0 junk1 :
  prg_ok g -> Z.of_nat n < two32 -> fair order1 -> length junk0 = 40%nat -> length junk1 = 40%nat ->
  released_ok g stale n 0 2 4 ->
  let l := xor_op_invalid is_and g stale n in
  let e := zxors (map (fun r => Z.lxor (c_0 r) (c_1 r)) (valids l)) in
  both (xor_op false order0 is_and n (wire IntShare_bytes (dsubs0 l)) junk0)
       (xor_op true order1 is_and n (wire IntShare_bytes (dsubs1 l)) junk1)
    (fun r0 r1 => r1 = RET_NO_ANS /\
       exists ans, r0 = outcome (length (valids l)) n ans /\ ((6 <= n)%nat -> r0 = RET_ANS ans) /\
         (xor_ans is_and (valids l) = is_and -> ans = is_and) /\
         (xor_ans is_and (valids l) = negb is_and -> e <> 0 -> ans = negb is_and) /\
         (ans = negb is_and -> exists r, In r (valids l) /\ c_real r = negb is_and)).
Proof. exact (xor_debug is_and g stale n order0 order1 junk0 junk1). Qed.
Print Assumptions and_or_debug_run.

(** As in [max_min_run], for the requests left. *)
Theorem max_min_debug_run is_max B g stale n order0 order1 pk0 pk1 junk0 junk1 :
  prg_ok g -> Z.of_nat n * (Z.of_nat B + 1) < two32 -> (6 <= n)%nat -> fair order1 ->
  length pk0 = 32%nat -> length pk1 = 32%nat ->
  (forall i, length (junk0 i) = (8 * (B + 1))%nat) -> (forall i, length (junk1 i) = (8 * (B + 1))%nat) ->
  released_ok g stale n 0 2 4 ->
  let l := max_op_invalid is_max B g stale n in
  let X := fun j => zxors (map (fun r => xor_at j (c_0 r) (c_1 r)) (valids l)) in
  let m := max_ans is_max B (valids l) in
  let p := max_op false order0 is_max B n (wire maxshare_bytes (dsubs0 l)) pk0 junk0 in
  let q := max_op true order1 is_max B n (wire maxshare_bytes (dsubs1 l)) pk1 junk1 in
  extremum is_max (valids l) m /\
  (X (if is_max then m else B - m)%nat <> 0 ->
     both p q (fun r0 r1 => r1 = RET_NO_ANS /\ r0 = RET_ANS (Z.of_nat m))) /\
  ((exists j, (j <= B)%nat /\ X j <> 0) ->
     both p q (fun r0 r1 => r1 = RET_NO_ANS /\
       exists a, r0 = RET_ANS (Z.of_nat a) /\ if is_max then (a <= m)%nat else (m <= a)%nat)).
Proof. exact (max_debug is_max B g stale n order0 order1 pk0 pk1 junk0 junk1). Qed.
Print Assumptions max_min_debug_run.

(** ** Cases *)
(** The buffers are as they were: *)
Definition kept (g : prg) : nat -> list Z := fun i => pub_key_to_hex (g (i - 1)%nat).
Example kept_ok g n iq i0 i1 : prg_ok g -> released_ok g (kept g) n iq i0 i1.
Proof.
  intros [HB _]. unfold released_ok, kept. destruct (HB (i0 - 1)%nat), (HB (i1 - 1)%nat).
  split; [now apply pk_spec|]. split; [now apply pk_spec|]. split; now left.
Qed.
(** They hold something else, a different thing at each request: *)
Definition garbage : nat -> list Z := fun i => repeat (Z.of_nat i) 32.
Example garbage_ok g n : prg_ok g -> released_ok g garbage n 0 2 4 /\ released_ok g garbage n 2 4 6.
Proof.
  intros [HB _].
  assert (N : forall i j, (i < 48)%nat -> garbage i <> pub_key_to_hex (g j)).
  { intros i j Hi E. destruct (HB j). destruct (pk_spec (g j)) as (_ & F & _); auto. rewrite <- E in F.
    apply Forall_inv in F. unfold is_hex in F. lia. }
  assert (L : forall i, length (garbage i) = 32%nat) by (intros; apply repeat_length).
  split; (split; [apply L|split; [apply L|split; right; [intros; apply N; lia|]]]);
    (split; [intros; apply N; lia|split; discriminate]).
Qed.

Definition dbg : prg := fun i => le_bytes 16 (Z.of_nat i * 4294967297 + 1009 * two64).
Example dbg_ok : prg_ok dbg.
Proof.
  split.
  - intros i. split; [apply le_bytes_length|apply le_bytes_bytes].
  - intros i j Hi Hj E. apply (f_equal le_val) in E. unfold dbg in E.
    rewrite !le_val_bytes_small in E; [lia| |];
      change (256 ^ Z.of_nat 16) with (two64 * two64); unfold two64 in *; lia.
Qed.

Example bit_sum_debug_ex : let l := bit_sum_invalid dbg garbage 7 in
  map d_real l = [true; false; false; false; true; false; false] /\
  map d_valid l = [false; true; false; true; false; true; true] /\ bit_ans (valids l) = 0.
Proof. vm_compute. repeat split. Qed.
Example int_sum_debug_ex : let l := int_sum_invalid 8 dbg garbage 10 in
  too_big 8 l /\ map d_valid l = [false; false; false; true; false; true; false; true; true; true] /\
  int_ans (valids l) <> 0.
Proof.
  vm_compute. split; [split; intros r [= <-]; vm_compute; discriminate|]. split; [reflexivity|discriminate].
Qed.
Example and_or_debug_ex : let l := xor_op_invalid true dbg garbage 7 in
  map c_real (valids l) = [false; false; false; false] /\ xor_ans true (valids l) = false /\
  zxors (map (fun r => Z.lxor (c_0 r) (c_1 r)) (valids l)) <> 0.
Proof. vm_compute. repeat split; discriminate. Qed.
Example max_min_debug_ex : let l := max_op_invalid true 3 dbg garbage 7 in
  map c_real (valids l) <> [] /\
  zxors (map (fun r => xor_at (max_ans true 3 (valids l)) (c_0 r) (c_1 r)) (valids l)) <> 0.
Proof. vm_compute. repeat split; discriminate. Qed.

(** ** What is read from the released buffers matters

    Finding: if the same bytes are found at both places, the first spoiled record of
    server 0 and the last spoiled record of server 1 make one accepted request, and
    the answer is not the printed one. *)
Theorem debug_released_refuted : exists g stale n, prg_ok g /\ (forall i, length (stale i) = 32%nat) /\ (6 <= n)%nat /\
  forall order0 order1 junk0 junk1 rnd0 rnd1,
  fair order1 -> length junk0 = 33%nat -> length junk1 = 33%nat ->
  let l := bit_sum_invalid g stale n in
  both (bit_sum false order0 n (wire BitShare_bytes (dsubs0 l)) junk0 rnd0)
       (bit_sum true order1 n (wire BitShare_bytes (dsubs1 l)) junk1 rnd1)
    (fun r0 r1 => exists a, r0 = RET_ANS a /\ a <> bit_ans (valids l)).
Proof.
  exists dbg, (fun _ => repeat 122 32), 7%nat. split; [exact dbg_ok|]. split; [reflexivity|]. split; [lia|].
  intros order0 order1 junk0 junk1 rnd0 rnd1 HF J0 J1 l.
  assert (LEN : Forall (fun s : list Z * bool => length (fst s) = 32%nat) (dsubs0 l) /\
                Forall (fun s : list Z * bool => length (fst s) = 32%nat) (dsubs1 l)).
  { split; vm_compute; repeat (apply Forall_cons; [reflexivity|]); apply Forall_nil. }
  assert (AR : forall s, Forall (fun s : list Z * bool => length (fst s) = 32%nat) s -> length s = 7%nat ->
    arrives BitShare_bytes 7 (wire BitShare_bytes s) s).
  { intros s F L. exists []. split; [now rewrite app_nil_r|]. split; [now left|]. split; auto. rewrite L. reflexivity. }
  set (L := map (fun i => pub_key_to_hex (dbg i)) [1; 3; 5; 6]%nat ++ [repeat 122 32]).
  assert (ACC : accepted any (dsubs0 l) (dsubs1 l) L).
  { split; [vm_compute; repeat (apply NoDup_cons; [vm_compute; intuition discriminate|]); apply NoDup_nil|].
    intros pk. split.
    - intros H. repeat (destruct H as [<-|H]; [split; vm_compute; discriminate|]). destruct H.
    - intros [A B].
      assert (IA : In pk (map fst (dsubs0 l))).
      { destruct (in_dec (list_eq_dec Z.eq_dec) pk (map fst (dsubs0 l))); auto. elim A. now apply first_sub_none. }
      assert (IB : In pk (map fst (dsubs1 l))).
      { destruct (in_dec (list_eq_dec Z.eq_dec) pk (map fst (dsubs1 l))); auto. elim B. now apply first_sub_none. }
      clear A B. vm_compute in IA.
      repeat (destruct IA as [<-|IA]; [vm_compute in IB |- *; intuition discriminate|]). destruct IA. }
  eapply both_impl; [|apply (bit_sum_result order0 order1 7 7 _ _ (dsubs0 l) (dsubs1 l) junk0 junk1 rnd0 rnd1 L); auto;
    [apply AR|apply AR]; try apply LEN; reflexivity].
  intros a b [_ ->]. exists 1. split; [reflexivity|]. vm_compute. discriminate.
Qed.
Print Assumptions debug_released_refuted.
