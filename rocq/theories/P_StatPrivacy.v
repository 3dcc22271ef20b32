(** * C53: in VAR, STDDEV and LINREG a server that follows its program learns only the sums *)
From Coq Require Import ZArith List Bool Lia Permutation.
From Verif Require Import Words WordsFacts Constants Share Proc Net OT Circuit Snip ServerOps ClientOps SpecNet SpecShare SpecServer SpecClient SpecStat
  SpecSecret SpecPrivacy SpecSnip SpecStatPrivacy StatOps P_Server P_Snip P_Secret P_Privacy.
Import ListNotations.
Open Scope Z_scope.

(** Vocabulary: [sees0], [sees1], [by_keys] in SpecPrivacy.v; [seen], [is_blocks],
    [legal_linreg] in SpecSecret.v; [separate_with_proofs] in SpecStatPrivacy.v;
    [linreg_fields] in SpecStat.v.

    [gs]: the clients' generators and the draws of their shares and proofs; [l]: what these
    clients send; [K], [st0], [st1]: the servers' common random point and seed. *)

(** ** VAR, STDDEV.  Server 0: any values with the same sum and sum of squares. *)
Theorem var_private0 : forall nb gs l vs order0 order1 junk0 junk1 K rnd0 rnd1 st0 st1,
  let one := var_request (2 ^ Z.of_nat nb) in let n := length gs in
  (nb <= 24)%nat -> fair order1 -> by_keys order1 -> length junk0 = 48%nat -> length junk1 = 48%nat -> synced st0 st1 ->
  gs <> [] -> Z.of_nat n < two32 -> Forall (fun gT => is_blocks (fst gT)) gs ->
  separate_with_proofs one gs = Some l -> NoDup (map c_pk l) ->
  length vs = n -> Forall (fun v => 0 <= v < 2 ^ Z.of_nat nb) vs ->
  zsum vs mod p = zsum (map c_real l) mod p ->
  zsum (map (fun v => v * v) vs) mod p = zsum (map (fun r => c_real r * c_real r) l) mod p ->
  exists gs' l' stream0 stream1 stream1' view,
    Forall (fun gT => is_blocks (fst gT)) gs' /\ separate_with_proofs one gs' = Some l' /\ map c_real l' = vs /\
    seen false l' = seen false l /\
    wire_opt VarShare_bytes (subs0 l) = Some stream0 /\ wire_opt VarShare_bytes (subs1 l) = Some stream1 /\
    wire_opt VarShare_bytes (subs1 l') = Some stream1' /\
    sees0 (var_op false order0 nb n stream0 junk0 K rnd0 st0) (var_op true order1 nb n stream1 junk1 K rnd1 st1) view /\
    sees0 (var_op false order0 nb n stream0 junk0 K rnd0 st0) (var_op true order1 nb n stream1' junk1 K rnd1 st1) view.
Proof. exact var_hides0. Qed.
Print Assumptions var_private0.

(** Server 1: any values at all. *)
Theorem var_private1 : forall nb gs l vs order0 order1 junk0 junk1 K rnd0 rnd1 st0 st1,
  let one := var_request (2 ^ Z.of_nat nb) in let n := length gs in
  (nb <= 24)%nat -> fair order1 -> by_keys order1 -> length junk0 = 48%nat -> length junk1 = 48%nat -> synced st0 st1 ->
  gs <> [] -> Z.of_nat n < two32 -> Forall (fun gT => is_blocks (fst gT)) gs ->
  separate_with_proofs one gs = Some l -> NoDup (map c_pk l) ->
  length vs = n -> Forall (fun v => 0 <= v < 2 ^ Z.of_nat nb) vs ->
  exists gs' l' rnd0' stream0 stream0' stream1 view,
    Forall (fun gT => is_blocks (fst gT)) gs' /\ separate_with_proofs one gs' = Some l' /\ map c_real l' = vs /\
    seen true l' = seen true l /\
    wire_opt VarShare_bytes (subs0 l) = Some stream0 /\ wire_opt VarShare_bytes (subs0 l') = Some stream0' /\
    wire_opt VarShare_bytes (subs1 l) = Some stream1 /\
    sees1 (var_op false order0 nb n stream0 junk0 K rnd0 st0) (var_op true order1 nb n stream1 junk1 K rnd1 st1) view /\
    sees1 (var_op false order0 nb n stream0' junk0 K rnd0' st0) (var_op true order1 nb n stream1 junk1 K rnd1 st1) view.
Proof. exact var_hides1. Qed.
Print Assumptions var_private1.

(** ** LINREG.  Server 0: any values with the same sums of x, y, x_i x_j and x_i y. *)
Theorem linreg_private0 : forall nb degree gs l vs order0 order1 d0 d1 junk0 junk1 garbage0 garbage1 K rnd0 rnd1 st0 st1,
  let one := linreg_request degree (2 ^ Z.of_nat nb) in let n := length gs in
  let sum us j := zsum (map (fun u => nth j (linreg_fields u) 0) us) mod p in
  (nb <= 24)%nat -> (1 <= degree)%nat -> (num_quad degree + num_x degree < 2 ^ 18)%nat ->
  fair order1 -> by_keys order1 -> length d0 = 8%nat -> length d1 = 8%nat ->
  length junk0 = 32%nat -> length junk1 = 32%nat -> synced st0 st1 ->
  gs <> [] -> Z.of_nat n < two32 -> Forall (fun gT => is_blocks (fst gT)) gs ->
  separate_with_proofs one gs = Some l -> NoDup (map c_pk l) ->
  length vs = n -> Forall (legal_linreg nb degree) vs ->
  (forall j, sum vs j = sum (map c_real l) j) ->
  exists gs' l' deg stream0 stream1 stream1' view,
    Forall (fun gT => is_blocks (fst gT)) gs' /\ separate_with_proofs one gs' = Some l' /\ map c_real l' = vs /\
    seen false l' = seen false l /\ sent_bytes (send_size (Z.of_nat degree)) = Some deg /\
    wire_opt (linregshare_bytes degree) (subs0 l) = Some stream0 /\ wire_opt (linregshare_bytes degree) (subs1 l) = Some stream1 /\
    wire_opt (linregshare_bytes degree) (subs1 l') = Some stream1' /\
    sees0 (linreg_op false order0 nb n (deg ++ stream0) d0 junk0 garbage0 K rnd0 st0)
          (linreg_op true order1 nb n (deg ++ stream1) d1 junk1 garbage1 K rnd1 st1) view /\
    sees0 (linreg_op false order0 nb n (deg ++ stream0) d0 junk0 garbage0 K rnd0 st0)
          (linreg_op true order1 nb n (deg ++ stream1') d1 junk1 garbage1 K rnd1 st1) view.
Proof. exact linreg_hides0. Qed.
Print Assumptions linreg_private0.

(** Server 1: any values at all. *)
Theorem linreg_private1 : forall nb degree gs l vs order0 order1 d0 d1 junk0 junk1 garbage0 garbage1 K rnd0 rnd1 st0 st1,
  let one := linreg_request degree (2 ^ Z.of_nat nb) in let n := length gs in
  (nb <= 24)%nat -> (1 <= degree)%nat -> (num_quad degree + num_x degree < 2 ^ 18)%nat ->
  fair order1 -> by_keys order1 -> length d0 = 8%nat -> length d1 = 8%nat ->
  length junk0 = 32%nat -> length junk1 = 32%nat -> synced st0 st1 ->
  gs <> [] -> Z.of_nat n < two32 -> Forall (fun gT => is_blocks (fst gT)) gs ->
  separate_with_proofs one gs = Some l -> NoDup (map c_pk l) ->
  length vs = n -> Forall (legal_linreg nb degree) vs ->
  exists gs' l' rnd0' deg stream0 stream0' stream1 view,
    Forall (fun gT => is_blocks (fst gT)) gs' /\ separate_with_proofs one gs' = Some l' /\ map c_real l' = vs /\
    seen true l' = seen true l /\ sent_bytes (send_size (Z.of_nat degree)) = Some deg /\
    wire_opt (linregshare_bytes degree) (subs0 l) = Some stream0 /\ wire_opt (linregshare_bytes degree) (subs0 l') = Some stream0' /\
    wire_opt (linregshare_bytes degree) (subs1 l) = Some stream1 /\
    sees1 (linreg_op false order0 nb n (deg ++ stream0) d0 junk0 garbage0 K rnd0 st0)
          (linreg_op true order1 nb n (deg ++ stream1) d1 junk1 garbage1 K rnd1 st1) view /\
    sees1 (linreg_op false order0 nb n (deg ++ stream0') d0 junk0 garbage0 K rnd0' st0)
          (linreg_op true order1 nb n (deg ++ stream1) d1 junk1 garbage1 K rnd1 st1) view.
Proof. exact linreg_hides1. Qed.
Print Assumptions linreg_private1.

(** ** Examples *)
Definition ex_tapes : list tapes :=
  [(ex_gen 0 5 1, fun i => Z.of_nat i * 12345); (ex_gen 4 7 9, fun i => Z.of_nat i + 5); (ex_gen 5 0 17, fun _ => 99)].
Lemma ex_tapes_blocks : Forall (fun gT => is_blocks (fst gT)) ex_tapes.
Proof.
  assert (H : forall a b c, is_blocks (ex_gen a b c)).
  { intros a b c i. unfold ex_gen. rewrite le_bytes_length. split; [reflexivity|apply le_bytes_bytes]. }
  repeat (apply Forall_cons; [apply H|]). apply Forall_nil.
Qed.
(** Values 0, 4 and 5; server 0 would see the same with 1, 2 and 6 (sum 9, sum of squares 41). *)
Example var_private_ex : exists l gs' l' stream0 stream1 stream1' view,
  let one := var_request (2 ^ Z.of_nat 3) in
  let st := ex_state 5 in
  separate_with_proofs one ex_tapes = Some l /\ map c_real l = [0; 4; 5] /\
  separate_with_proofs one gs' = Some l' /\ map c_real l' = [1; 2; 6] /\ seen false l' = seen false l /\
  wire_opt VarShare_bytes (subs0 l) = Some stream0 /\ wire_opt VarShare_bytes (subs1 l) = Some stream1 /\
  wire_opt VarShare_bytes (subs1 l') = Some stream1' /\
  let p0 := var_op false id_order 3 3 stream0 (repeat 0 48) (fun i => Z.of_nat i) (fun _ => 77) st in
  sees0 p0 (var_op true id_order 3 3 stream1 (repeat 0 48) (fun i => Z.of_nat i) (fun _ => 5) st) view /\
  sees0 p0 (var_op true id_order 3 3 stream1' (repeat 0 48) (fun i => Z.of_nat i) (fun _ => 5) st) view.
Proof.
  destruct (separate_with_proofs (var_request (2 ^ Z.of_nat 3)) ex_tapes) as [l|] eqn:E; [|vm_compute in E; discriminate].
  assert (R : map c_real l = [0; 4; 5] /\ map c_pk l = map (fun g => make_pk g 3) (map fst ex_tapes)).
  { vm_compute in E. injection E as <-. split; vm_compute; reflexivity. }
  destruct R as [R PK].
  destruct (var_private0 3 ex_tapes l [1; 2; 6] id_order id_order (repeat 0 48) (repeat 0 48) (fun i => Z.of_nat i)
    (fun _ => 77) (fun _ => 5) (ex_state 5) (ex_state 5)) as (gs' & l' & t0 & t1 & t1' & view & _ & H); auto.
  - lia.
  - apply id_fair.
  - apply id_by_keys.
  - exact ex_synced.
  - discriminate.
  - reflexivity.
  - apply ex_tapes_blocks.
  - rewrite PK. repeat (apply NoDup_cons; [vm_compute; intuition discriminate|]). apply NoDup_nil.
  - repeat (apply Forall_cons; [cbn; lia|]). apply Forall_nil.
  - rewrite R. reflexivity.
  - rewrite <- (map_map c_real (fun v => v * v)), R. reflexivity.
  - exists l, gs', l', t0, t1, t1', view. cbv zeta. split; [exact E|]. split; [exact R|]. exact H.
Qed.

(** Points (0, 1), (4, 1), (5, 1); server 1 would see the same with (7, 2), (7, 3), (0, 0). *)
Example linreg_private_ex : exists l gs' l' rnd0' deg stream0 stream0' stream1 view,
  let one := linreg_request 2 (2 ^ Z.of_nat 3) in
  let st := ex_state 5 in let g := fun _ : nat => ([] : list Z, [] : list Z, [] : list Z) in
  separate_with_proofs one ex_tapes = Some l /\ map c_real l = [([0], 1); ([4], 1); ([5], 1)] /\
  separate_with_proofs one gs' = Some l' /\ map c_real l' = [([7], 2); ([7], 3); ([0], 0)] /\ seen true l' = seen true l /\
  sent_bytes (send_size 2) = Some deg /\
  wire_opt (linregshare_bytes 2) (subs0 l) = Some stream0 /\ wire_opt (linregshare_bytes 2) (subs0 l') = Some stream0' /\
  wire_opt (linregshare_bytes 2) (subs1 l) = Some stream1 /\
  let p1 := linreg_op true id_order 3 3 (deg ++ stream1) (repeat 0 8) (repeat 0 32) g (fun i => Z.of_nat i) (fun _ => 5) st in
  sees1 (linreg_op false id_order 3 3 (deg ++ stream0) (repeat 0 8) (repeat 0 32) g (fun i => Z.of_nat i) (fun _ => 77) st) p1 view /\
  sees1 (linreg_op false id_order 3 3 (deg ++ stream0') (repeat 0 8) (repeat 0 32) g (fun i => Z.of_nat i) rnd0' st) p1 view.
Proof.
  destruct (separate_with_proofs (linreg_request 2 (2 ^ Z.of_nat 3)) ex_tapes) as [l|] eqn:E; [|vm_compute in E; discriminate].
  assert (R : map c_real l = [([0], 1); ([4], 1); ([5], 1)] /\ map c_pk l = map (fun g => make_pk g 6) (map fst ex_tapes)).
  { vm_compute in E. injection E as <-. split; vm_compute; reflexivity. }
  destruct R as [R PK].
  destruct (linreg_private1 3 2 ex_tapes l [([7], 2); ([7], 3); ([0], 0)] id_order id_order (repeat 0 8) (repeat 0 8) (repeat 0 32) (repeat 0 32)
    (fun _ => ([], [], [])) (fun _ => ([], [], [])) (fun i => Z.of_nat i)
    (fun _ => 77) (fun _ => 5) (ex_state 5) (ex_state 5)) as (gs' & l' & rnd0' & deg & t0 & t0' & t1 & view & _ & H); auto; try lia.
  - apply Nat.ltb_lt. reflexivity.
  - apply id_fair.
  - apply id_by_keys.
  - exact ex_synced.
  - discriminate.
  - reflexivity.
  - apply ex_tapes_blocks.
  - rewrite PK. repeat (apply NoDup_cons; [vm_compute; intuition discriminate|]). apply NoDup_nil.
  - repeat (apply Forall_cons; [split; [reflexivity|split; [repeat constructor; cbn; lia|cbn; lia]]|]). apply Forall_nil.
  - exists l, gs', l', rnd0', deg, t0, t0', t1, view. cbv zeta. split; [exact E|]. split; [exact R|]. exact H.
Qed.
