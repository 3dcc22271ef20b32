(** * C61: in VAR, STDDEV and LINREG what a server sees has the same distribution for all values
    with the same sums *)
From Coq Require Import ZArith List Bool Lia Permutation.
From Verif Require Import Words WordsFacts Constants Share Proc Net OT Circuit Snip ServerOps ClientOps SpecNet SpecShare SpecServer SpecClient SpecStat
  SpecSecret SpecPrivacy SpecExact SpecSnip SpecStatPrivacy SpecStatExact StatOps StatExactOps P_Server P_Snip P_Secret P_Privacy P_StatPrivacy.
Import ListNotations.
Open Scope Z_scope.
Transparent Int_Modulus.

(** Vocabulary: SpecStatExact.v.

    [vs], [vs']: two lists of private values.  [gives ... vs] is the set of the draws with
    which the clients' values are [vs].  The draws for [vs] and those for [vs'] are paired off
    so that a server sees the same in both of a pair, and every view comes from as many draws
    for [vs] as for [vs']. *)

(** ** VAR, STDDEV.  Server 0: values with the same sum and sum of squares. *)
Theorem var_exact0 : forall nb order0 order1 junk0 junk1 K rnd0 rnd1 st0 st1 vs vs',
  let dom := gives (var_request (2 ^ Z.of_nat nb)) var_blocks (proof_draws CheckVar) in
  let view := var_sees0 nb order0 order1 junk0 junk1 K rnd0 rnd1 st0 st1 in
  (nb <= 24)%nat -> fair order1 -> by_keys order1 -> length junk0 = 48%nat -> length junk1 = 48%nat -> synced st0 st1 ->
  vs <> [] -> length vs' = length vs -> Z.of_nat (length vs) < two32 ->
  Forall (fun v => 0 <= v < 2 ^ Z.of_nat nb) vs -> Forall (fun v => 0 <= v < 2 ^ Z.of_nat nb) vs' ->
  zsum vs' mod p = zsum vs mod p -> zsum (map (fun v => v * v) vs') mod p = zsum (map (fun v => v * v) vs) mod p ->
  (exists F, pairs_off (dom vs) (dom vs') F /\ forall ds, dom vs ds -> exists v, view ds v /\ view (F ds) v) /\
  (forall v, equally_many (dom vs) (dom vs') (fun ds => view ds v)).
Proof. exact var_exact0_proof. Qed.
Print Assumptions var_exact0.

(** Server 1: values of any kind.  It sees also what depends on server 0's draws [ms]. *)
Theorem var_exact1 : forall nb order0 order1 junk0 junk1 K rnd1 st0 st1 vs vs',
  let dom us (d : list client_draws * list Z) :=
    gives (var_request (2 ^ Z.of_nat nb)) var_blocks (proof_draws CheckVar) us (fst d) /\ masks (length us) [nb; (2 * nb)%nat] (snd d) in
  let view := var_sees1 nb order0 order1 junk0 junk1 K rnd1 st0 st1 in
  (nb <= 24)%nat -> fair order1 -> by_keys order1 -> length junk0 = 48%nat -> length junk1 = 48%nat -> synced st0 st1 ->
  vs <> [] -> length vs' = length vs -> Z.of_nat (length vs) < two32 ->
  Forall (fun v => 0 <= v < 2 ^ Z.of_nat nb) vs -> Forall (fun v => 0 <= v < 2 ^ Z.of_nat nb) vs' ->
  (exists F, pairs_off (dom vs) (dom vs') F /\ forall d, dom vs d -> exists v, view d v /\ view (F d) v) /\
  (forall v, equally_many (dom vs) (dom vs') (fun d => view d v)).
Proof. exact var_exact1_proof. Qed.
Print Assumptions var_exact1.

(** ** LINREG.  Server 0: values with the same sums of x, y, x_i x_j and x_i y. *)
Theorem linreg_exact0 : forall nb degree order0 order1 d0 d1 junk0 junk1 garbage0 garbage1 K rnd0 rnd1 st0 st1 vs vs',
  let dom := gives (linreg_request degree (2 ^ Z.of_nat nb)) (linreg_blocks degree) (proof_draws (CheckLinReg degree)) in
  let view := linreg_sees0 nb degree order0 order1 d0 d1 junk0 junk1 garbage0 garbage1 K rnd0 rnd1 st0 st1 in
  let sum us j := zsum (map (fun u => nth j (linreg_fields u) 0) us) mod p in
  (nb <= 24)%nat -> (1 <= degree)%nat -> (num_quad degree + num_x degree < 2 ^ 18)%nat ->
  fair order1 -> by_keys order1 -> length d0 = 8%nat -> length d1 = 8%nat ->
  length junk0 = 32%nat -> length junk1 = 32%nat -> synced st0 st1 ->
  vs <> [] -> length vs' = length vs -> Z.of_nat (length vs) < two32 ->
  Forall (legal_linreg nb degree) vs -> Forall (legal_linreg nb degree) vs' -> (forall j, sum vs' j = sum vs j) ->
  (exists F, pairs_off (dom vs) (dom vs') F /\ forall ds, dom vs ds -> exists v, view ds v /\ view (F ds) v) /\
  (forall v, equally_many (dom vs) (dom vs') (fun ds => view ds v)).
Proof. exact linreg_exact0_proof. Qed.
Print Assumptions linreg_exact0.

Theorem linreg_exact1 : forall nb degree order0 order1 d0 d1 junk0 junk1 garbage0 garbage1 K rnd1 st0 st1 vs vs',
  let dom us (d : list client_draws * list Z) :=
    gives (linreg_request degree (2 ^ Z.of_nat nb)) (linreg_blocks degree) (proof_draws (CheckLinReg degree)) us (fst d) /\
    masks (length us) (linreg_bits nb degree) (snd d) in
  let view := linreg_sees1 nb degree order0 order1 d0 d1 junk0 junk1 garbage0 garbage1 K rnd1 st0 st1 in
  (nb <= 24)%nat -> (1 <= degree)%nat -> (num_quad degree + num_x degree < 2 ^ 18)%nat ->
  fair order1 -> by_keys order1 -> length d0 = 8%nat -> length d1 = 8%nat ->
  length junk0 = 32%nat -> length junk1 = 32%nat -> synced st0 st1 ->
  vs <> [] -> length vs' = length vs -> Z.of_nat (length vs) < two32 ->
  Forall (legal_linreg nb degree) vs -> Forall (legal_linreg nb degree) vs' ->
  (exists F, pairs_off (dom vs) (dom vs') F /\ forall d, dom vs d -> exists v, view d v /\ view (F d) v) /\
  (forall v, equally_many (dom vs) (dom vs') (fun d => view d v)).
Proof. exact linreg_exact1_proof. Qed.
Print Assumptions linreg_exact1.

(** The same records, bytes and answer for server 0 come from a list of draws and from one paired
    with it; so the sets counted are not empty: *)
Definition ex_draw (m k : nat) (a b c : Z) : client_draws := (map (ex_gen a b c) (seq 0 m), map (fun i => Z.of_nat i * 12345 + c) (seq 0 k)).
Definition ex_draws m k : list client_draws := [ex_draw m k 0 5 1; ex_draw m k 4 7 9; ex_draw m k 5 0 17].
Lemma ex_all_draws m k : (k <= 1000)%nat -> all_draws 3 m k (ex_draws m k).
Proof.
  intros Hk.
  assert (H : forall a b c, 0 <= c < 100 -> one_client m k (ex_draw m k a b c)).
  { intros a b c Hc. unfold one_client, ex_draw; cbn [fst snd]. rewrite !map_length, !seq_length. repeat split.
    - apply Forall_map, Forall_forall. intros i _. unfold ex_gen. split; [apply le_bytes_length|apply le_bytes_bytes].
    - apply Forall_map, Forall_forall. intros i Hi. apply in_seq in Hi. unfold p, Int_Modulus. lia. }
  split; [reflexivity|]. repeat (apply Forall_cons; [apply H; lia|]). apply Forall_nil.
Qed.
Lemma ex_var_gives : gives (var_request (2 ^ Z.of_nat 3)) var_blocks (proof_draws CheckVar) [0; 4; 5] (ex_draws var_blocks (proof_draws CheckVar)).
Proof.
  split; [apply ex_all_draws; vm_compute; lia|].
  destruct (separate_with_proofs (var_request (2 ^ Z.of_nat 3)) (map draw_tapes (ex_draws var_blocks (proof_draws CheckVar)))) as [l|] eqn:E; [|vm_compute in E; discriminate].
  exists l. split; [reflexivity|]. vm_compute in E. injection E as <-. split; [reflexivity|].
  cbn [map c_pk]. repeat (apply NoDup_cons; [vm_compute; intuition discriminate|]). apply NoDup_nil.
Qed.
(** Values 0, 4, 5 and 1, 2, 6. *)
Example var_exact_ex : exists v ds ds',
  let k := proof_draws CheckVar in let dom := gives (var_request (2 ^ Z.of_nat 3)) var_blocks k in
  let view := var_sees0 3 id_order id_order (repeat 0 48) (repeat 0 48) (fun i => Z.of_nat i) (fun _ => 77) (fun _ => 5) (ex_state 5) (ex_state 5) in
  dom [0; 4; 5] ds /\ dom [1; 2; 6] ds' /\ view ds v /\ view ds' v /\ equally_many (dom [0; 4; 5]) (dom [1; 2; 6]) (fun d => view d v).
Proof.
  destruct (var_exact0 3 id_order id_order (repeat 0 48) (repeat 0 48) (fun i => Z.of_nat i) (fun _ => 77) (fun _ => 5) (ex_state 5) (ex_state 5)
    [0; 4; 5] [1; 2; 6]) as ((F & PO & H) & C); try reflexivity; try lia; try discriminate.
  - apply id_fair.
  - apply id_by_keys.
  - exact ex_synced.
  - repeat (apply Forall_cons; [cbn; lia|]). apply Forall_nil.
  - repeat (apply Forall_cons; [cbn; lia|]). apply Forall_nil.
  - destruct (H _ ex_var_gives) as (v & V & V'). exists v, (ex_draws var_blocks (proof_draws CheckVar)), (F (ex_draws var_blocks (proof_draws CheckVar))).
    cbv zeta. split; [exact ex_var_gives|]. split; [|split; [exact V|split; [exact V'|apply C]]].
    destruct PO as (G & P1 & _). apply (P1 _ ex_var_gives).
Qed.
Lemma ex_lin_gives : gives (linreg_request 2 (2 ^ Z.of_nat 3)) (linreg_blocks 2) (proof_draws (CheckLinReg 2)) [([0], 1); ([4], 1); ([5], 1)]
  (ex_draws (linreg_blocks 2) (proof_draws (CheckLinReg 2))).
Proof.
  split; [apply ex_all_draws; vm_compute; lia|].
  destruct (separate_with_proofs (linreg_request 2 (2 ^ Z.of_nat 3)) (map draw_tapes (ex_draws (linreg_blocks 2) (proof_draws (CheckLinReg 2))))) as [l|] eqn:E;
    [|vm_compute in E; discriminate].
  exists l. split; [reflexivity|]. vm_compute in E. injection E as <-. split; [reflexivity|].
  cbn [map c_pk]. repeat (apply NoDup_cons; [vm_compute; intuition discriminate|]). apply NoDup_nil.
Qed.
(** Points (0, 1), (4, 1), (5, 1) and (7, 2), (7, 3), (0, 0): server 1. *)
Example linreg_exact_ex : exists v d d',
  let dom us (d : list client_draws * list Z) := gives (linreg_request 2 (2 ^ Z.of_nat 3)) (linreg_blocks 2) (proof_draws (CheckLinReg 2)) us (fst d) /\
    masks (length us) (linreg_bits 3 2) (snd d) in
  let view := linreg_sees1 3 2 id_order id_order (repeat 0 8) (repeat 0 8) (repeat 0 32) (repeat 0 32) (fun _ => ([], [], [])) (fun _ => ([], [], []))
    (fun i => Z.of_nat i) (fun _ => 5) (ex_state 5) (ex_state 5) in
  dom [([0], 1); ([4], 1); ([5], 1)] d /\ dom [([7], 2); ([7], 3); ([0], 0)] d' /\ view d v /\ view d' v /\
  equally_many (dom [([0], 1); ([4], 1); ([5], 1)]) (dom [([7], 2); ([7], 3); ([0], 0)]) (fun d => view d v).
Proof.
  destruct (linreg_exact1 3 2 id_order id_order (repeat 0 8) (repeat 0 8) (repeat 0 32) (repeat 0 32) (fun _ => ([], [], [])) (fun _ => ([], [], []))
    (fun i => Z.of_nat i) (fun _ => 5) (ex_state 5) (ex_state 5)
    [([0], 1); ([4], 1); ([5], 1)] [([7], 2); ([7], 3); ([0], 0)]) as ((F & PO & H) & C); try reflexivity; try lia; try discriminate.
  - apply Nat.ltb_lt. reflexivity.
  - apply id_fair.
  - apply id_by_keys.
  - exact ex_synced.
  - repeat (apply Forall_cons; [split; [reflexivity|split; [repeat constructor; cbn; lia|cbn; lia]]|]). apply Forall_nil.
  - repeat (apply Forall_cons; [split; [reflexivity|split; [repeat constructor; cbn; lia|cbn; lia]]|]). apply Forall_nil.
  - set (d := (ex_draws (linreg_blocks 2) (proof_draws (CheckLinReg 2)), repeat 99 (3 * OT.total (linreg_bits 3 2)))).
    assert (G : gives (linreg_request 2 (2 ^ Z.of_nat 3)) (linreg_blocks 2) (proof_draws (CheckLinReg 2)) [([0], 1); ([4], 1); ([5], 1)] (fst d) /\
      masks 3 (linreg_bits 3 2) (snd d)).
    { split; [exact ex_lin_gives|]. split; [apply repeat_length|]. apply Forall_forall. intros z Hz. apply repeat_spec in Hz. subst z. split; [lia|reflexivity]. }
    destruct (H d G) as (v & V & V'). exists v, d, (F d).
    cbv zeta. split; [exact G|]. split; [|split; [exact V|split; [exact V'|apply C]]].
    destruct PO as (J & P1 & _). apply (P1 _ G).
Qed.
