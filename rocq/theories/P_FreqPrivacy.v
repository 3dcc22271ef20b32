(** C54: what a server learns in FREQ.

    With daBits made by oblivious transfer ([lazy = false]) each server learns what it
    should: server 0 the counts, server 1 nothing.  The shipped setting is
    [LAZY_PRECOMPUTE true]: server 0 deals the daBits.  Then server 0 learns the row of
    every single client, and server 1 learns nothing unless one of its halves is 1.
    "Learns nothing" means: whatever other private values the clients might have had,
    some random choices of the clients and of the other server make the same view.

    Statements: SpecFreqPrivacy.v ([ends0], [ends1], [overheard], [no_half_one]),
    SpecSecret.v ([seen], [is_blocks]), SpecFreq.v ([histogram], [freq_bits], [heard]). *)
From Coq Require Import ZArith List Bool Lia Permutation.
From Verif Require Import Words WordsFacts Constants Share Proc Net ServerOps SpecServer ClientOps SpecClient SpecSecret SpecPrivacy Correlated SpecStore
  SpecFreq SpecFreqPrivacy FreqPrivacy FreqHide P_Server P_Freq P_Privacy.
Import ListNotations.
Open Scope Z_scope.

(** ** Server 0 deals the daBits: it can compute the row shared under every identity.
    The submissions are arbitrary. *)
Theorem freq_rows_visible0 : forall num_bits order0 order1 total0 total1 stream0 stream1 subs0 subs1 pk0 pk1 junk0 junk1 c0 c1 T0 T1 s0 s1 L,
  (num_bits <= 30)%nat -> fair order1 ->
  freq_input num_bits total0 stream0 subs0 pk0 junk0 -> freq_input num_bits total1 stream1 subs1 pk1 junk1 ->
  params_ok c0 c1 -> lazy c0 = true -> dabit_store s0 = [] -> dabit_store s1 = [] ->
  heard subs1 L -> L <> [] -> (length L <= total0)%nat ->
  exists view left L', Permutation L' L /\
    ends0 (bool_bytes (length L))
      (freq_op false order0 num_bits total0 stream0 pk0 junk0 c0 T0 s0)
      (freq_op true order1 num_bits total1 stream1 pk1 junk1 c1 T1 s1) view left /\
    overheard (freq_width num_bits) T0 (ctr s0) subs0 (fst view)
      = map (fun pk => (pk, freq_bits (freq_width num_bits) subs0 subs1 pk)) L'.
Proof. exact freq_rows_heard. Qed.
Print Assumptions freq_rows_visible0.

(** Hence clients whose records for server 0 are the same, and whose run looks the same to
    server 0, have the same values one by one, not just the same counts. *)
Theorem freq_dealer_knows : forall num_bits gs gs' order0 order1 pk0 pk1 junk0 junk1 c0 c1 T0 T1 T1' s0 s1 s1' view left left',
  let w := freq_width num_bits in let one := freq_request w in let n := length gs in
  let l := separate one gs in let l' := separate one gs' in
  (num_bits <= 30)%nat -> fair order1 -> length pk0 = 32%nat -> length pk1 = 32%nat ->
  (forall i, length (junk0 i) = bool_bytes w) -> (forall i, length (junk1 i) = bool_bytes w) ->
  params_ok c0 c1 -> lazy c0 = true -> dabit_store s0 = [] -> dabit_store s1 = [] -> dabit_store s1' = [] ->
  gs <> [] -> Z.of_nat n < two32 -> Forall is_blocks gs -> Forall is_blocks gs' ->
  NoDup (map c_pk l) -> seen false l' = seen false l ->
  ends0 (bool_bytes n)
    (freq_op false order0 num_bits n (wire freqshare_bytes (subs0 l)) pk0 junk0 c0 T0 s0)
    (freq_op true order1 num_bits n (wire freqshare_bytes (subs1 l)) pk1 junk1 c1 T1 s1) view left ->
  ends0 (bool_bytes n)
    (freq_op false order0 num_bits n (wire freqshare_bytes (subs0 l)) pk0 junk0 c0 T0 s0)
    (freq_op true order1 num_bits n (wire freqshare_bytes (subs1 l')) pk1 junk1 c1 T1' s1') view left' ->
  map c_real l' = map c_real l.
Proof. exact freq_dealer. Qed.
Print Assumptions freq_dealer_knows.

(** ** daBits by oblivious transfer.  Server 0: any values with the same counts. *)
Theorem freq_private0 : forall num_bits gs vs order0 order1 pk0 pk1 junk0 junk1 c0 c1 T0 T1 s0 s1,
  let w := freq_width num_bits in let one := freq_request w in let n := length gs in let l := separate one gs in
  (num_bits <= 30)%nat -> fair order1 -> by_keys order1 -> length pk0 = 32%nat -> length pk1 = 32%nat ->
  (forall i, length (junk0 i) = bool_bytes w) -> (forall i, length (junk1 i) = bool_bytes w) ->
  params_ok c0 c1 -> dabit_store s0 = [] -> dabit_store s1 = [] ->
  gs <> [] -> Z.of_nat n < two32 -> Forall is_blocks gs -> NoDup (map c_pk l) ->
  length vs = n -> Forall (fun v => (v < w)%nat) vs ->
  lazy c0 = false -> histogram w vs = histogram w (map c_real l) ->
  exists gs' T1' view left,
    Forall is_blocks gs' /\ map c_real (separate one gs') = vs /\ seen false (separate one gs') = seen false l /\
    ends0 (bool_bytes n)
      (freq_op false order0 num_bits n (wire freqshare_bytes (subs0 l)) pk0 junk0 c0 T0 s0)
      (freq_op true order1 num_bits n (wire freqshare_bytes (subs1 l)) pk1 junk1 c1 T1 s1) view left /\
    ends0 (bool_bytes n)
      (freq_op false order0 num_bits n (wire freqshare_bytes (subs0 l)) pk0 junk0 c0 T0 s0)
      (freq_op true order1 num_bits n (wire freqshare_bytes (subs1 (separate one gs'))) pk1 junk1 c1 T1' s1) view left.
Proof. exact freq_hides0. Qed.
Print Assumptions freq_private0.

(** Server 1: any values at all. *)
Theorem freq_private1 : forall num_bits gs vs order0 order1 pk0 pk1 junk0 junk1 c0 c1 T0 T1 s0 s1,
  let w := freq_width num_bits in let one := freq_request w in let n := length gs in let l := separate one gs in
  (num_bits <= 30)%nat -> fair order1 -> by_keys order1 -> length pk0 = 32%nat -> length pk1 = 32%nat ->
  (forall i, length (junk0 i) = bool_bytes w) -> (forall i, length (junk1 i) = bool_bytes w) ->
  params_ok c0 c1 -> dabit_store s0 = [] -> dabit_store s1 = [] ->
  gs <> [] -> Z.of_nat n < two32 -> Forall is_blocks gs -> NoDup (map c_pk l) ->
  length vs = n -> Forall (fun v => (v < w)%nat) vs ->
  lazy c0 = false ->
  exists gs' T0' view left,
    Forall is_blocks gs' /\ map c_real (separate one gs') = vs /\ seen true (separate one gs') = seen true l /\
    ends1 (bool_bytes n)
      (freq_op false order0 num_bits n (wire freqshare_bytes (subs0 l)) pk0 junk0 c0 T0 s0)
      (freq_op true order1 num_bits n (wire freqshare_bytes (subs1 l)) pk1 junk1 c1 T1 s1) view left /\
    ends1 (bool_bytes n)
      (freq_op false order0 num_bits n (wire freqshare_bytes (subs0 (separate one gs'))) pk0 junk0 c0 T0' s0)
      (freq_op true order1 num_bits n (wire freqshare_bytes (subs1 l)) pk1 junk1 c1 T1 s1) view left.
Proof. exact freq_hides1. Qed.
Print Assumptions freq_private1.

(** ** Dealt daBits.  Server 1: any values at all, provided none of its halves is 1. *)
Theorem freq_private1_lazy : forall num_bits gs vs order0 order1 pk0 pk1 junk0 junk1 c0 c1 T0 T1 s0 s1,
  let w := freq_width num_bits in let one := freq_request w in let n := length gs in let l := separate one gs in
  (num_bits <= 30)%nat -> fair order1 -> by_keys order1 -> length pk0 = 32%nat -> length pk1 = 32%nat ->
  (forall i, length (junk0 i) = bool_bytes w) -> (forall i, length (junk1 i) = bool_bytes w) ->
  params_ok c0 c1 -> dabit_store s0 = [] -> dabit_store s1 = [] ->
  gs <> [] -> Z.of_nat n < two32 -> Forall is_blocks gs -> NoDup (map c_pk l) ->
  length vs = n -> Forall (fun v => (v < w)%nat) vs ->
  lazy c0 = true -> no_half_one T0 (ctr s0) (n * w) ->
  exists gs' T0' view left,
    Forall is_blocks gs' /\ map c_real (separate one gs') = vs /\ seen true (separate one gs') = seen true l /\
    ends1 (bool_bytes n)
      (freq_op false order0 num_bits n (wire freqshare_bytes (subs0 l)) pk0 junk0 c0 T0 s0)
      (freq_op true order1 num_bits n (wire freqshare_bytes (subs1 l)) pk1 junk1 c1 T1 s1) view left /\
    ends1 (bool_bytes n)
      (freq_op false order0 num_bits n (wire freqshare_bytes (subs0 (separate one gs'))) pk0 junk0 c0 T0' s0)
      (freq_op true order1 num_bits n (wire freqshare_bytes (subs1 l)) pk1 junk1 c1 T1 s1) view left.
Proof. exact freq_hides1_lazy. Qed.
Print Assumptions freq_private1_lazy.

(** Why the proviso: server 1's half [h] of a dealt daBit can belong to the bit 0 if
    [1 <= h <= p - 1], to the bit 1 if [2 <= h <= p - 1]; so the half 1 tells the bit. *)
Theorem local_dabit_half : forall (b : bool) h,
  (exists r1 r2, let d := makeLocalDaBit r1 r2 in xorb (b2 (fst d)) (b2 (snd d)) = b /\ bp (snd d) = h) <-> 1 + b2z b <= h <= Int_Modulus - 1.
Proof. exact local_half. Qed.
Print Assumptions local_dabit_half.

(** ** Examples *)
(** Values 1, 2 and 0 of four possible. *)
Definition ex_c0_ot : store_params := mkParams 8 false 4 false.
Definition ex_c1_ot : store_params := mkParams 8 true 4 false.
Definition ex_empty : store := mkStore [] [] 7.
Lemma ex_freq_nodup : NoDup (map c_pk (separate (freq_request (freq_width 2)) ex_gens)).
Proof. repeat (apply NoDup_cons; [vm_compute; intuition discriminate|]). apply NoDup_nil. Qed.
Definition ex_tape (z : Z) : nat -> Z := fun i => z * (Z.of_nat i + 3) + 1.

(** Server 0 would see the same with 0, 1 and 2. *)
Example freq_private0_ex : map c_real (separate (freq_request (freq_width 2)) ex_gens) = [1; 2; 0]%nat /\
  exists gs' T1' view left,
    Forall is_blocks gs' /\ map c_real (separate (freq_request (freq_width 2)) gs') = [0; 1; 2]%nat /\
    seen false (separate (freq_request (freq_width 2)) gs') = seen false (separate (freq_request (freq_width 2)) ex_gens) /\
    let p0 := freq_op false id_order 2 3 (wire freqshare_bytes (subs0 (separate (freq_request (freq_width 2)) ex_gens))) (ex_pk 0) ex_old ex_c0_ot (ex_tape 11) ex_empty in
    let p1 g T := freq_op true id_order 2 3 (wire freqshare_bytes (subs1 (separate (freq_request (freq_width 2)) g))) (ex_pk 0) ex_old ex_c1_ot T ex_empty in
    ends0 (bool_bytes 3) p0 (p1 ex_gens (ex_tape 29)) view left /\ ends0 (bool_bytes 3) p0 (p1 gs' T1') view left.
Proof.
  split; [vm_compute; reflexivity|].
  apply (freq_private0 2 ex_gens [0; 1; 2]%nat id_order id_order (ex_pk 0) (ex_pk 0) ex_old ex_old ex_c0_ot ex_c1_ot (ex_tape 11) (ex_tape 29) ex_empty ex_empty);
    try reflexivity; try lia.
  - apply id_fair.
  - apply id_by_keys.
  - repeat split.
  - discriminate.
  - apply ex_gens_blocks.
  - exact ex_freq_nodup.
  - repeat (apply Forall_cons; [vm_compute; lia|]). apply Forall_nil.
Qed.

(** Server 1 would see the same with 3, 3 and 3; with dealt daBits too. *)
Example freq_private1_ex : exists gs' T0' view left,
    Forall is_blocks gs' /\ map c_real (separate (freq_request (freq_width 2)) gs') = [3; 3; 3]%nat /\
    seen true (separate (freq_request (freq_width 2)) gs') = seen true (separate (freq_request (freq_width 2)) ex_gens) /\
    let p0 g T := freq_op false id_order 2 3 (wire freqshare_bytes (subs0 (separate (freq_request (freq_width 2)) g))) (ex_pk 0) ex_old ex_c0_ot T ex_empty in
    let p1 := freq_op true id_order 2 3 (wire freqshare_bytes (subs1 (separate (freq_request (freq_width 2)) ex_gens))) (ex_pk 0) ex_old ex_c1_ot (ex_tape 29) ex_empty in
    ends1 (bool_bytes 3) (p0 ex_gens (ex_tape 11)) p1 view left /\ ends1 (bool_bytes 3) (p0 gs' T0') p1 view left.
Proof.
  apply (freq_private1 2 ex_gens [3; 3; 3]%nat id_order id_order (ex_pk 0) (ex_pk 0) ex_old ex_old ex_c0_ot ex_c1_ot (ex_tape 11) (ex_tape 29) ex_empty ex_empty);
    try reflexivity; try lia.
  - apply id_fair.
  - apply id_by_keys.
  - repeat split.
  - discriminate.
  - apply ex_gens_blocks.
  - exact ex_freq_nodup.
  - repeat (apply Forall_cons; [vm_compute; lia|]). apply Forall_nil.
Qed.
Example freq_private1_lazy_ex : no_half_one (ex_tape 11) 7 (3 * freq_width 2) /\ exists gs' T0' view left,
    Forall is_blocks gs' /\ map c_real (separate (freq_request (freq_width 2)) gs') = [3; 3; 3]%nat /\
    seen true (separate (freq_request (freq_width 2)) gs') = seen true (separate (freq_request (freq_width 2)) ex_gens) /\
    let p0 g T := freq_op false id_order 2 3 (wire freqshare_bytes (subs0 (separate (freq_request (freq_width 2)) g))) (ex_pk 0) ex_old ex_c0 T ex_empty in
    let p1 := freq_op true id_order 2 3 (wire freqshare_bytes (subs1 (separate (freq_request (freq_width 2)) ex_gens))) (ex_pk 0) ex_old ex_c1 (ex_tape 29) ex_empty in
    ends1 (bool_bytes 3) (p0 ex_gens (ex_tape 11)) p1 view left /\ ends1 (bool_bytes 3) (p0 gs' T0') p1 view left.
Proof.
  assert (NH : no_half_one (ex_tape 11) 7 (3 * freq_width 2)).
  { intros i Hi. change (3 * freq_width 2)%nat with 12%nat in Hi. do 12 (destruct i as [|i]; [vm_compute; discriminate|]). lia. }
  split; [exact NH|].
  apply (freq_private1_lazy 2 ex_gens [3; 3; 3]%nat id_order id_order (ex_pk 0) (ex_pk 0) ex_old ex_old ex_c0 ex_c1 (ex_tape 11) (ex_tape 29) ex_empty ex_empty);
    try reflexivity; try lia.
  - apply id_fair.
  - apply id_by_keys.
  - repeat split.
  - discriminate.
  - apply ex_gens_blocks.
  - exact ex_freq_nodup.
  - repeat (apply Forall_cons; [vm_compute; lia|]). apply Forall_nil.
  - exact NH.
Qed.
(** Server 0 as the dealer computes the row of every client, here those of [ex_rows0] and
    [ex_rows1], one of them without a record at server 0. *)
Example freq_rows_visible_ex : exists view left L', Permutation L' [ex_pk 97; ex_pk 98; ex_pk 100] /\
  ends0 (bool_bytes 3)
    (freq_op false id_order 2 4 (wire freq_wire ex_rows0) (ex_pk 0) ex_old ex_c0 (ex_tape 11) ex_empty)
    (freq_op true id_order 2 4 (wire freq_wire ex_rows1) (ex_pk 0) ex_old ex_c1 (ex_tape 29) ex_empty) view left /\
  overheard (freq_width 2) (ex_tape 11) 7 ex_rows0 (fst view) = map (fun pk => (pk, freq_bits (freq_width 2) ex_rows0 ex_rows1 pk)) L'.
Proof.
  apply (freq_rows_visible0 2 id_order id_order 4 4 _ _ ex_rows0 ex_rows1 (ex_pk 0) (ex_pk 0) ex_old ex_old ex_c0 ex_c1 (ex_tape 11) (ex_tape 29) ex_empty ex_empty);
    try reflexivity; try lia.
  - apply id_fair.
  - exact ex_rows_input0.
  - exact ex_rows_input1.
  - repeat split.
  - exact (proj1 ex_rows_checked).
  - discriminate.
  - cbn [length]. lia.
Qed.
Example freq_rows_visible_row : freq_bits (freq_width 2) ex_rows0 ex_rows1 (ex_pk 97) = [false; true; false; false].
Proof. reflexivity. Qed.
(** The half 1 belongs to the bit 0 only; the half 2 to either. *)
Example local_dabit_half_ex :
  makeLocalDaBit 0 140737597931519 = (mkDaBit (Int_Modulus - 1) false, mkDaBit 1 false) /\
  makeLocalDaBit 0 140737597931518 = (mkDaBit (Int_Modulus - 2) true, mkDaBit 2 true) /\
  makeLocalDaBit 1 140737597931518 = (mkDaBit (Int_Modulus - 1) false, mkDaBit 2 true).
Proof. repeat split; vm_compute; reflexivity. Qed.

(** The statement of [freq_private0] fails for [lazy = true], already for these clients. *)
Theorem freq_private0_lazy_refuted : exists num_bits gs vs order0 order1 pk0 pk1 junk0 junk1 c0 c1 T0 T1 s0 s1,
  let w := freq_width num_bits in let one := freq_request w in let n := length gs in let l := separate one gs in
  Forall is_blocks gs /\ params_ok c0 c1 /\ lazy c0 = true /\ length vs = n /\ Forall (fun v => (v < w)%nat) vs /\
  histogram w vs = histogram w (map c_real l) /\
  ~ exists gs' T1' view left,
    Forall is_blocks gs' /\ map c_real (separate one gs') = vs /\ seen false (separate one gs') = seen false l /\
    ends0 (bool_bytes n)
      (freq_op false order0 num_bits n (wire freqshare_bytes (subs0 l)) pk0 junk0 c0 T0 s0)
      (freq_op true order1 num_bits n (wire freqshare_bytes (subs1 l)) pk1 junk1 c1 T1 s1) view left /\
    ends0 (bool_bytes n)
      (freq_op false order0 num_bits n (wire freqshare_bytes (subs0 l)) pk0 junk0 c0 T0 s0)
      (freq_op true order1 num_bits n (wire freqshare_bytes (subs1 (separate one gs'))) pk1 junk1 c1 T1' s1) view left.
Proof.
  exists 2%nat, ex_gens, [0; 1; 2]%nat, id_order, id_order, (ex_pk 0), (ex_pk 0), ex_old, ex_old, ex_c0, ex_c1, (ex_tape 11), (ex_tape 29), ex_empty, ex_empty.
  cbv zeta. split; [exact ex_gens_blocks|]. split; [repeat split|]. split; [reflexivity|]. split; [reflexivity|].
  split; [repeat (apply Forall_cons; [vm_compute; lia|]); apply Forall_nil|]. split; [vm_compute; reflexivity|].
  intros (gs' & T1' & view & left & G & R & S & VA & VB).
  assert (X : map c_real (separate (freq_request (freq_width 2)) gs') = map c_real (separate (freq_request (freq_width 2)) ex_gens)).
  { apply (freq_dealer_knows 2 ex_gens gs' id_order id_order (ex_pk 0) (ex_pk 0) ex_old ex_old ex_c0 ex_c1 (ex_tape 11) (ex_tape 29) T1' ex_empty ex_empty ex_empty view left left);
      try reflexivity; try lia; try assumption.
    - apply id_fair.
    - repeat split.
    - discriminate.
    - apply ex_gens_blocks.
    - exact ex_freq_nodup. }
  rewrite R in X. vm_compute in X. discriminate.
Qed.
Print Assumptions freq_private0_lazy_refuted.
