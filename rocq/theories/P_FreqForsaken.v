(** * FREQ when the other server stops (C72)

    Setting as in P_Freq.v: rows [subs0] and [subs1] arrive, [L] lists the identities that
    server 1 knows.  Server 1 stops in the middle of the run; what server 0 then does is
    [forsaken] (SpecForsaken.v).  A user would expect no answer. *)
From Coq Require Import ZArith List Bool Lia Permutation.
From Verif Require TableFacts.
From Verif Require Import Words Constants Share Proc Net SpecNet Correlated SpecStore SpecPoly
  ServerOps SpecServer ServerFacts ServerProps SpecFreq Alone SpecForsaken FreqForsaken P_Server P_Freq.
Import ListNotations.
Open Scope Z_scope.

(** Server 1 stops before its last message, its shares [b] of the counts.  [G] is what an
    undisturbed run counts: all rows if the check of the batch succeeds, else the rows of
    weight one (C33).  Server 0 reports its own shares [a] of the counts as the counts:
    wrong wherever server 1's share is not 0. *)
Theorem freq_alone_refuted num_bits order0 order1 total0 total1 stream0 stream1 subs0 subs1 pk0 pk1 junk0 junk1
    c0 c1 T0 T1 s0 s1 L G :
  let w := freq_width num_bits in
  (num_bits <= 30)%nat -> fair order1 ->
  freq_input num_bits total0 stream0 subs0 pk0 junk0 -> freq_input num_bits total1 stream1 subs1 pk1 junk1 ->
  params_ok c0 c1 -> stores_paired s0 s1 -> heard subs1 L -> (length L <= total0)%nat ->
  (balanced (total_weight w subs0 subs1 L) total0 /\ G = L \/
   ~ balanced (total_weight w subs0 subs1 L) total0 /\ one_hot w subs0 subs1 G) ->
  exists a b s0' s1',
    length a = w /\ length b = w /\ Forall (in_field p) a /\ Forall (in_field p) b /\
    map2 (fun x y => (x + y) mod p) a b = tally w subs0 subs1 G /\
    (forall j, (j < w)%nat -> nth j b 0 <> 0 -> nth j a 0 <> nth j (tally w subs0 subs1 G) 0) /\
    ((total0 <= 2 * length G)%nat -> exists old, blank old /\
     stops_before (freq_op false order0 num_bits total0 stream0 pk0 junk0 c0 T0 s0)
       (freq_op true order1 num_bits total1 stream1 pk1 junk1 c1 T1 s1)
       (send_fmpz_batch b ;;; Ret (RET_NO_ANS, s1')) old (RET_ANS a, s0')).
Proof.
  exact (freq_wrong num_bits order0 order1 total0 total1 stream0 stream1 subs0 subs1 pk0 pk1 junk0 junk1
    c0 c1 T0 T1 s0 s1 L G).
Qed.
Print Assumptions freq_alone_refuted.

(** Server 1 stops earlier, before it sends its part of the check.  The destination [v] of
    its parity is uninitialised, so are the [flags] read in the check of single rows, and
    the destinations of all numbers hold 0.  Then server 0 reports an answer only if its own
    shares [sh0] of the rows happen to look like rows: all together add up to the number of
    submissions, or at least half as many rows as submissions add up to 1. *)
Theorem freq_no_answer_partial num_bits order0 order1 total0 total1 stream0 stream1 subs0 subs1 pk0 pk1 junk0 junk1
    c0 c1 T0 T1 s0 s1 L :
  let w := freq_width num_bits in
  (num_bits <= 30)%nat -> fair order1 ->
  freq_input num_bits total0 stream0 subs0 pk0 junk0 -> freq_input num_bits total1 stream1 subs1 pk1 junk1 ->
  params_ok c0 c1 -> stores_paired s0 s1 -> heard subs1 L -> (length L <= total0)%nat ->
  exists ids sh0 sh1 x y rest p', Permutation ids L /\
    length sh0 = length ids /\ length sh1 = length ids /\
    Forall (fun row => length row = w) sh0 /\ Forall (fun row => length row = w) sh1 /\
    map2 (map2 (fun x y => (x + y) mod p)) sh0 sh1 = map (fun pk => map b2z (freq_bits w subs0 subs1 pk)) ids /\
    peer_can_stop_at (freq_op false order0 num_bits total0 stream0 pk0 junk0 c0 T0 s0)
      (freq_op true order1 num_bits total1 stream1 pk1 junk1 c1 T1 s1) p' (send_bool x ;;; send_fmpz y ;;; rest) /\
    forall v old a st, blank old \/ (exists flags old', old = flags :: old' /\ blank old') ->
      forsaken ([v] :: holding 0 :: old) p' [] (RET_ANS a, st) ->
      zsum (map zsum sh0) mod p = Z.of_nat total0 \/
      (total0 <= 2 * length (filter (fun row => zsum row mod p =? 1)%Z sh0))%nat.
Proof.
  exact (freq_guess num_bits order0 order1 total0 total1 stream0 stream1 subs0 subs1 pk0 pk1 junk0 junk1
    c0 c1 T0 T1 s0 s1 L).
Qed.
Print Assumptions freq_no_answer_partial.

(** ** Examples *)

(** Two clients, with the rows (1, 0) and (0, 1). *)
Definition ex_hot0 : list (list Z * list bool) := [(ex_pk 97, [true; false]); (ex_pk 98, [true; false])].
Definition ex_hot1 : list (list Z * list bool) := [(ex_pk 97, [false; false]); (ex_pk 98, [true; true])].
Example ex_hot_heard : heard ex_hot1 [ex_pk 97; ex_pk 98] /\
  balanced (total_weight (freq_width 1) ex_hot0 ex_hot1 [ex_pk 97; ex_pk 98]) 2.
Proof.
  split.
  - split; [repeat (constructor; [cbn; intuition discriminate|]); constructor|].
    intros pk. cbn [ex_hot1 first_sub]. unfold any. rewrite !andb_true_r.
    destruct (TableFacts.key_eqb_spec (ex_pk 97) pk); [split; [discriminate|subst; cbn; auto]|].
    destruct (TableFacts.key_eqb_spec (ex_pk 98) pk); [split; [discriminate|subst; cbn; auto]|].
    cbn [In]. intuition congruence.
  - vm_compute. auto.
Qed.
Example ex_hot_input0 : freq_input 1 2 (wire freq_wire ex_hot0) ex_hot0 (ex_pk 0) ex_old.
Proof. rows_done. Qed.
Example ex_hot_input1 : freq_input 1 2 (wire freq_wire ex_hot1) ex_hot1 (ex_pk 0) ex_old.
Proof. rows_done. Qed.

Example freq_alone_ex : exists a b s0' s1' old,
  map2 (fun x y => (x + y) mod p) a b = [1; 1] /\ blank old /\
  stops_before
    (freq_op false id_order 1 2 (wire freq_wire ex_hot0) (ex_pk 0) ex_old ex_c0 (fun _ => 0) ex_store0)
    (freq_op true id_order 1 2 (wire freq_wire ex_hot1) (ex_pk 0) ex_old ex_c1 (fun _ => 0) ex_store1)
    (send_fmpz_batch b ;;; Ret (RET_NO_ANS, s1')) old (RET_ANS a, s0').
Proof.
  destruct (freq_alone_refuted 1 id_order id_order 2 2 _ _ ex_hot0 ex_hot1 (ex_pk 0) (ex_pk 0) ex_old ex_old ex_c0 ex_c1
    (fun _ => 0) (fun _ => 0) ex_store0 ex_store1 [ex_pk 97; ex_pk 98] [ex_pk 97; ex_pk 98] ltac:(lia) id_fair
    ex_hot_input0 ex_hot_input1 ex_params_ok ex_stores_paired (proj1 ex_hot_heard) ltac:(cbn; lia)
    (or_introl (conj (proj2 ex_hot_heard) eq_refl)))
    as (a & b & s0' & s1' & _ & _ & _ & _ & E & _ & H).
  destruct (H ltac:(cbn; lia)) as (old & B & S). exists a, b, s0', s1', old.
  split; [rewrite E; vm_compute; reflexivity|]. split; [exact B|exact S].
Qed.

(** The hypotheses of the second theorem hold for the three clients of P_Freq.v, whose
    rows are checked one by one. *)
Example freq_no_answer_ex : exists p' x y rest,
  peer_can_stop_at
    (freq_op false id_order 2 4 (wire freq_wire ex_rows0) (ex_pk 0) ex_old ex_c0 (fun _ => 0) ex_store0)
    (freq_op true id_order 2 4 (wire freq_wire ex_rows1) (ex_pk 0) ex_old ex_c1 (fun _ => 0) ex_store1)
    p' (send_bool x ;;; send_fmpz y ;;; rest).
Proof.
  destruct (freq_no_answer_partial 2 id_order id_order 4 4 _ _ ex_rows0 ex_rows1 (ex_pk 0) (ex_pk 0) ex_old ex_old ex_c0 ex_c1
    (fun _ => 0) (fun _ => 0) ex_store0 ex_store1 _ ltac:(lia) id_fair
    ex_rows_input0 ex_rows_input1 ex_params_ok ex_stores_paired (proj1 ex_rows_checked) ltac:(cbn; lia))
    as (ids & sh0 & sh1 & x & y & rest & p' & _ & _ & _ & _ & _ & _ & H & _).
  exists p', x, y, rest. exact H.
Qed.

(** Server 0's shares can look like a row by chance: one client, one possible value, and
    server 0's share of it is 1.  Server 1 has sent its identity and its byte of the
    conversion, and stops. *)
Example freq_guess_ex : exists st, forsaken [[0]; holding 0; repeat 0 8]
  (freq_op false id_order 0 1 (wire freq_wire [(ex_pk 97, [true])]) (ex_pk 0) ex_old ex_c0 (fun _ => 0)
     (mkStore (concat (repeat [mkDaBit 1 true] 8)) [] 0))
  (le_bytes 8 (bswap32 1) ++ ex_pk 97 ++ [0]) (RET_ANS [1], st).
Proof. eexists. apply go_on_forsaken. vm_compute. reflexivity. Qed.
(** With the share 2 there is no answer. *)
Example freq_no_guess_ex : exists st, forsaken [[0]; holding 0; [0]; repeat 0 8; repeat 0 8]
  (freq_op false id_order 0 1 (wire freq_wire [(ex_pk 97, [true])]) (ex_pk 0) ex_old ex_c0 (fun _ => 0)
     (mkStore (concat (repeat [mkDaBit 2 true] 8)) [] 0))
  (le_bytes 8 (bswap32 1) ++ ex_pk 97 ++ [0]) (RET_INVALID, st).
Proof. eexists. apply go_on_forsaken. vm_compute. reflexivity. Qed.
