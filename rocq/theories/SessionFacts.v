(** Proofs about sessions with the client program. *)
From Coq Require Import String ZArith List Bool Lia Arith.
From Verif Require Import Words WordsFacts Constants Share Proc ProcFacts Net NetFacts RelFacts Correlated SpecStore
  Circuit Snip SpecSnip ServerOps SpecServer ServerCor ClientOps SpecClient SpecStat ClientFacts ClientProps StatClient StatProps
  Main SpecMain MainFacts ClientMain SpecSession P_Client P_Stat P_Main.
Import ListNotations.
Open Scope Z_scope.
Local Notation P := Int_Modulus.
Opaque Int_Modulus.

Lemma handle_some {A} h0 h1 k0 k1 (op0 op1 : proc (result A)) (f : result A -> output) (Q : result A -> Prop) :
  (forall st, handle false h0 k0 st = (r <- op0 ;; Ret (f r, st))) ->
  (forall st, handle true h1 k1 st = (r <- op1 ;; Ret (f r, st))) ->
  silent (f RET_NO_ANS) ->
  both op0 op1 (fun r0 r1 => r1 = RET_NO_ANS /\ Q r0) ->
  alone h0 h1 k0 k1 (fun out => exists r, out = f r /\ Q r).
Proof.
  intros E0 E1 HS HB st0 st1 OK. rewrite E0, E1. apply rel_both.
  eapply rel_bind; [apply both_rel, HB|]. cbn beta. intros a b [-> HQ]. apply rel_ret. cbn [fst snd].
  split; [exists a; auto|]. split; [exact HS|exact OK].
Qed.
Lemma alone_imp h0 h1 k0 k1 (R R' : output -> Prop) : (forall out, R out -> R' out) ->
  alone h0 h1 k0 k1 R -> alone h0 h1 k0 k1 R'.
Proof.
  intros HI HA st0 st1 OK. eapply both_impl; [|apply HA, OK]. cbn beta. intros a b (X & Y). split; auto.
Qed.

(** ** Accumulators of LINREG *)
Lemma accum_rows k (rows : list (list Z)) : Forall (fun r => length r = k) rows -> forall acc, length acc = k ->
  Forall (fun a => 0 <= a < two64) acc ->
  fold_left (fun acc row => map2 (fun a v => u64 (a + v)) acc row) rows acc =
  map (fun j => (nth j acc 0 + zsum (map (fun r => nth j r 0) rows)) mod two64) (seq 0 k).
Proof.
  induction 1 as [|r rows Hr _ IH]; intros acc HL HB; cbn [fold_left map zsum].
  - rewrite <- HL. apply (nth_ext _ _ 0 0); [now rewrite map_length, seq_length|].
    intros i Hi. rewrite ClientProps.nth_map_seq by exact Hi. rewrite Z.add_0_r. symmetry. apply Z.mod_small.
    rewrite Forall_forall in HB. apply HB, nth_In, Hi.
  - assert (HL' : length (map2 (fun a v => u64 (a + v)) acc r) = k) by (rewrite map2_length, HL, Hr; apply Nat.min_id).
    rewrite IH; [|exact HL'|].
    + apply map_ext_in. intros j Hj. apply in_seq in Hj.
      rewrite (nth_map2 _ acc r j 0 0 0) by lia. unfold u64.
      rewrite Z.add_mod_idemp_l by discriminate. f_equal. unfold zsum. cbn [map fold_right]. lia.
    + apply Forall_forall. intros x Hx. destruct (In_nth _ _ 0 Hx) as (i & Hi & <-).
      rewrite (nth_map2 _ acc r i 0 0 0) by lia. apply Z.mod_pos_bound. reflexivity.
Qed.

Lemma seq_from s n : seq s n = map (fun j => (s + j)%nat) (seq 0 n).
Proof.
  revert s. induction n as [|n IH]; intros s; cbn [seq map]; [reflexivity|]. rewrite Nat.add_0_r. f_equal.
  rewrite IH, (IH 1%nat), map_map. apply map_ext. intros a. lia.
Qed.
Lemma moments_ext' degree n s s' : (forall j, s j = s' j) -> moments degree n s = moments degree n s'.
Proof. intros H. unfold moments. rewrite H. now rewrite !(map_ext s s' H). Qed.
Lemma zsum_ext {A} (f g : A -> Z) l : (forall a, In a l -> f a = g a) -> zsum (map f l) = zsum (map g l).
Proof. intros H. f_equal. apply map_ext_in, H. Qed.

Local Notation lrec := (crec (linreg_vals * ClientPacket) (list Z * Z)).
Lemma linreg_accum_sums nb degree (l : list lrec) :
  (nb <= 24)%nat -> (1 <= degree)%nat -> Z.of_nat (length l) < two32 ->
  (forall r, In r l -> length (fst (c_real r)) = num_x degree /\
     Forall (fun v => 0 <= v < 2 ^ Z.of_nat nb) (fst (c_real r)) /\ 0 <= snd (c_real r) < 2 ^ Z.of_nat nb) ->
  linreg_accum degree l =
  moments degree (length l) (fun j => zsum (map (fun r => nth j (linreg_fields (c_real r)) 0) l) mod two64).
Proof.
  intros HB HD HN HV.
  set (x2 := fun x => map (fun jk => u64 (nth (fst jk) x 0 * nth (snd jk) x 0)) (linreg_pairs (num_x degree))).
  set (rx := fun r : lrec => 0 :: fst (c_real r) ++ x2 (fst (c_real r))).
  set (ry := fun r : lrec => snd (c_real r) :: map (fun v => u64 (v * snd (c_real r))) (fst (c_real r))).
  assert (SM : forall a b, 0 <= a < 2 ^ Z.of_nat nb -> 0 <= b < 2 ^ Z.of_nat nb -> u64 (a * b) = a * b).
  { intros a b Ha Hb. apply Z.mod_small. assert (2 ^ Z.of_nat nb <= 2 ^ 24) by (apply Z.pow_le_mono_r; lia).
    change (2 ^ 24) with 16777216 in *. split; [nia|]. apply Z.le_lt_trans with (16777216 * 16777216); [nia|reflexivity]. }
  assert (NB : forall x i, Forall (fun v => 0 <= v < 2 ^ Z.of_nat nb) x -> 0 <= nth i x 0 < 2 ^ Z.of_nat nb).
  { intros x i Hx. destruct (Nat.lt_ge_cases i (length x)) as [H|H].
    - rewrite Forall_forall in Hx. apply Hx, nth_In, H.
    - rewrite nth_overflow by exact H. split; [lia|]. apply Z.pow_pos_nonneg; lia. }
  assert (EX2 : forall r, In r l -> x2 (fst (c_real r)) = pairwise (fst (c_real r))).
  { intros r Hr. destruct (HV r Hr) as (L & F & _). rewrite pairwise_pairs, L. unfold x2. apply map_ext.
    intros ij. apply SM; apply NB, F. }
  assert (LX2 : forall r, In r l -> length (x2 (fst (c_real r))) = num_quad degree).
  { intros r Hr. rewrite EX2 by exact Hr. rewrite pairwise_length. destruct (HV r Hr) as (-> & _). reflexivity. }
  assert (EXY : forall r, In r l -> map (fun v => u64 (v * snd (c_real r))) (fst (c_real r)) =
                                    map (fun v => v * snd (c_real r)) (fst (c_real r))).
  { intros r Hr. destruct (HV r Hr) as (L & F & Y). apply map_ext_in. intros v Hv. apply SM; [|exact Y].
    rewrite Forall_forall in F. apply F, Hv. }
  assert (LX : Forall (fun w => length w = (num_x degree + num_quad degree + 1)%nat) (map rx l)).
  { apply Forall_map, Forall_forall. intros r Hr. unfold rx. cbn [length]. rewrite app_length, LX2 by exact Hr.
    destruct (HV r Hr) as (-> & _). lia. }
  assert (LY : Forall (fun w => length w = (num_x degree + 1)%nat) (map ry l)).
  { apply Forall_map, Forall_forall. intros r Hr. unfold ry. cbn [length]. rewrite map_length.
    destruct (HV r Hr) as (-> & _). lia. }
  assert (FS : forall (l : list lrec) a b,
    fold_left (fun (acc : list Z * list Z) (r : lrec) =>
      let (x, y) := c_real r in
      (map2 (fun a v => u64 (a + v)) (fst acc) (0 :: x ++ x2 x),
       map2 (fun a v => u64 (a + v)) (snd acc) (y :: map (fun v => u64 (v * y)) x))) l (a, b) =
    (fold_left (fun acc row => map2 (fun a v => u64 (a + v)) acc row) (map rx l) a,
     fold_left (fun acc row => map2 (fun a v => u64 (a + v)) acc row) (map ry l) b)).
  { clear. induction l as [|r l IH]; intros a b; cbn [fold_left map]; [reflexivity|].
    unfold rx at 2, ry at 2. destruct (c_real r) as [x y] eqn:E. cbn [fst snd]. apply IH. }
  unfold linreg_accum. cbv zeta.
  change (fold_left _ l _) with
    (fold_left (fun (acc : list Z * list Z) (r : lrec) =>
      let (x, y) := c_real r in
      (map2 (fun a v => u64 (a + v)) (fst acc) (0 :: x ++ x2 x),
       map2 (fun a v => u64 (a + v)) (snd acc) (y :: map (fun v => u64 (v * y)) x))) l
      (repeat 0 (num_x degree + num_quad degree + 1), repeat 0 (num_x degree + 1))).
  rewrite FS. cbn [fst snd].
  assert (RZ : forall n, Forall (fun a => 0 <= a < two64) (repeat 0 n)).
  { intros n. apply Forall_forall. intros a Ha. apply repeat_spec in Ha. subst a. split; [lia|reflexivity]. }
  rewrite (accum_rows _ _ LX _ (repeat_length _ _) (RZ _)), (accum_rows _ _ LY _ (repeat_length _ _) (RZ _)).
  assert (DG : degree = S (num_x degree)) by (unfold num_x; lia).
  unfold moments. f_equal.
  - replace (num_x degree + num_quad degree + 1)%nat with (S (num_x degree + num_quad degree)) by lia.
    cbn [seq map nth]. rewrite (zsum_ext _ (fun _ => 0)).
    2: { intros w Hw. apply in_map_iff in Hw. destruct Hw as (r & <- & _). reflexivity. }
    assert (Z0 : forall k, zsum (map (fun _ : list Z => 0) k) = 0) by (induction k; cbn; auto).
    rewrite Z0. cbn [repeat upd].
    (* first entry *)
    replace (u64 _) with (Z.of_nat (length l)).
    2: { unfold u64. cbn. symmetry. apply Z.mod_small. split; [lia|]. eapply Z.lt_trans; [exact HN|reflexivity]. }
    f_equal. rewrite seq_app, map_app. f_equal.
    + rewrite <- seq_shift, map_map. apply map_ext_in. intros j Hj. apply in_seq in Hj.
      cbn [nth]. rewrite nth_repeat. rewrite Z.add_0_l, map_map. f_equal. apply zsum_ext. intros r Hr. unfold rx. cbn [nth].
      destruct (HV r Hr) as (L & _). rewrite app_nth1 by lia. unfold linreg_fields, linreg_inputs.
      now rewrite app_nth1 by lia.
    + rewrite (seq_from (1 + num_x degree)), (seq_from degree), !map_map. apply map_ext_in. intros j Hj. apply in_seq in Hj.
      cbn [Nat.add nth]. rewrite nth_repeat. rewrite Z.add_0_l, map_map. f_equal. apply zsum_ext. intros r Hr.
      unfold rx. cbn [nth]. destruct (HV r Hr) as (L & _). rewrite app_nth2 by lia. rewrite EX2 by exact Hr.
      unfold linreg_fields, linreg_inputs. rewrite app_nth2 by lia. rewrite L.
      replace (degree + j - num_x degree)%nat with (S j) by lia. cbn [nth].
      replace (num_x degree + j - num_x degree)%nat with j by lia.
      rewrite app_nth1; [reflexivity|]. rewrite pairwise_length, L. exact (proj2 Hj).
  - replace (num_x degree + 1)%nat with (S (num_x degree)) by lia. cbn [seq map]. f_equal.
    + cbn [repeat nth]. rewrite Z.add_0_l, map_map. f_equal. apply zsum_ext. intros r Hr. unfold ry. cbn [nth].
      destruct (HV r Hr) as (L & _). unfold linreg_fields, linreg_inputs. rewrite app_nth2 by lia.
      rewrite L, Nat.sub_diag. reflexivity.
    + rewrite <- seq_shift, (seq_from (degree + num_quad degree)), !map_map. apply map_ext_in. intros j Hj. apply in_seq in Hj.
      rewrite nth_repeat. rewrite Z.add_0_l, map_map. f_equal. apply zsum_ext. intros r Hr. unfold ry. cbn [nth].
      rewrite EXY by exact Hr. destruct (HV r Hr) as (L & _).
      assert (LP : length (pairwise (fst (c_real r))) = num_quad degree) by (rewrite pairwise_length, L; reflexivity).
      unfold linreg_fields, linreg_inputs. rewrite app_nth2 by lia. rewrite L.
      replace (degree + num_quad degree + j - num_x degree)%nat with (S (num_quad degree + j)) by lia. cbn [nth].
      rewrite app_nth2 by lia. rewrite LP. f_equal. lia.
Qed.

(** ** One visit *)
Definition answer_ok (nb : nat) (v : visit) (out : output) : Prop :=
  one_sided v out /\ (sure nb v -> same_answer out (v_ans v)).

Lemma not_one_sided v out : ~ is_protocol v ["ANDOP"; "OROP"; "MAXOP"; "MINOP"]%string -> one_sided v out.
Proof. intros H. unfold is_protocol in H. cbn [In] in H. repeat split; intros E; elim H; rewrite E; auto. Qed.

Section Visit.
Context (nb : nat) (h0 h1 : host) (HH : hosts_ok h0 h1) (HB : h_num_bits h0 = nb).
Context (n : nat) (pr : string) (dg : option nat) (e : client_env) (k0 k1 : conn) (ans : printed).
Let a := mkArgs n pr (Some nb) dg.
Let v := mkVisit a e k0 k1 ans.
Context (HN : (0 < n)%nat) (HN2 : Z.of_nat n < two32) (HG : prg_ok (e_prg e)) (HI : Z.of_nat (e_inp e) < two32)
  (R0 : room nb a k0) (R1 : room nb a k1).

Lemma opens_of k type B stream : room nb a k -> 0 <= type < two32 -> Z.of_nat B < two32 ->
  initMsg_bytes type n B ++ stream = k_stream k -> opens k type n B stream.
Proof. intros (M & _) HT HBB E. repeat split; auto; try apply HT. Qed.

Lemma visit_bit : pr = "BITSUM"%string -> client_bit_sum n e = Sent (k_stream k0) (k_stream k1) ans ->
  alone h0 h1 k0 k1 (answer_ok nb v).
Proof.
  intros EP H. unfold client_bit_sum in H. injection H as E0 E1 <-.
  apply (opens_of _ BIT_SUM) in E0; [|exact R0|split; [discriminate|reflexivity]|exact HI].
  apply (opens_of _ BIT_SUM) in E1; [|exact R1|split; [discriminate|reflexivity]|exact HI].
  destruct R0 as (_ & V0 & _). destruct R1 as (_ & V1 & F1 & _).
  eapply alone_imp; [|eapply handle_plain; [dispatch E0|dispatch E1|reflexivity|]].
  2: { exact (proj1 (bit_sum_run (e_prg e) n (k_order k0) (k_order k1) (k_bit k0) (k_bit k1) (k_rnd k0) (k_rnd k1)
        HG HN2 F1 (proj1 V0) (proj1 V1))). }
  cbn beta. intros out ->. split; [apply not_one_sided; unfold is_protocol, protocol; cbn; rewrite EP; intuition discriminate|].
  intros _. unfold same_answer. cbn [v_ans v].
  now rewrite (proj2 (bit_sum_run (e_prg e) n (k_order k0) (k_order k1) (k_bit k0) (k_bit k1) (k_rnd k0) (k_rnd k1)
        HG HN2 F1 (proj1 V0) (proj1 V1))).
Qed.

Lemma visit_int : pr = "INTSUM"%string -> (nb <= 63)%nat ->
  client_int_sum (2 ^ Z.of_nat nb) n e = Sent (k_stream k0) (k_stream k1) ans ->
  alone h0 h1 k0 k1 (answer_ok nb v).
Proof.
  intros EP HNB H. unfold client_int_sum in H.
  assert (T : (2 ^ Z.of_nat nb =? 0) = false) by (apply Z.eqb_neq; assert (0 < 2 ^ Z.of_nat nb) by (apply Z.pow_pos_nonneg; lia); lia).
  rewrite T in H. cbn [andb] in H. injection H as E0 E1 <-.
  apply (opens_of _ INT_SUM) in E0; [|exact R0|split; [discriminate|reflexivity]|exact HI].
  apply (opens_of _ INT_SUM) in E1; [|exact R1|split; [discriminate|reflexivity]|exact HI].
  destruct R0 as (_ & (_ & V0 & _) & _). destruct R1 as (_ & (_ & V1 & _) & F1 & _).
  destruct (int_sum_run nb (e_prg e) n (k_order k0) (k_order k1) (k_int k0) (k_int k1) (k_rnd k0) (k_rnd k1)
        HNB HG HN2 F1 V0 V1) as [X Y].
  eapply alone_imp; [|eapply handle_plain; [dispatch E0|dispatch E1|reflexivity|]].
  2: { rewrite <- (proj1 HH), HB. exact X. }
  cbn beta. intros out ->. split; [apply not_one_sided; unfold is_protocol, protocol; cbn; rewrite EP; intuition discriminate|].
  intros _. unfold same_answer. cbn [v_ans v]. now rewrite Y.
Qed.

Lemma visit_xor (is_and : bool) : pr = (if is_and then "ANDOP" else "OROP")%string ->
  client_xor_op is_and n e = Sent (k_stream k0) (k_stream k1) ans ->
  alone h0 h1 k0 k1 (answer_ok nb v).
Proof.
  intros EP H. unfold client_xor_op in H. injection H as E0 E1 EA.
  apply (opens_of _ (if is_and then AND_OP else OR_OP)) in E0;
    [|exact R0|destruct is_and; split; try discriminate; reflexivity|exact HI].
  apply (opens_of _ (if is_and then AND_OP else OR_OP)) in E1;
    [|exact R1|destruct is_and; split; try discriminate; reflexivity|exact HI].
  destruct R0 as (_ & (_ & V0 & _) & _). destruct R1 as (_ & (_ & V1 & _) & F1 & _).
  pose proof (and_or_run is_and (e_prg e) n (k_order k0) (k_order k1) (k_int k0) (k_int k1) HG HN2 F1 V0 V1) as X.
  cbv zeta in X.
  match type of X with both ?o0 ?o1 ?Q => 
    assert (X' : alone h0 h1 k0 k1 (fun out => exists r, out = OutBool r /\ snd (true, forall w, w = RET_NO_ANS -> Q r w))) end.
  { destruct is_and; (eapply (handle_some _ _ _ _ _ _ OutBool); [dispatch E0|dispatch E1|reflexivity|]);
      (eapply both_impl; [|exact X]); cbn beta; intros x0 x1 [Y1 Y2]; (split; [exact Y1|]); cbn [snd]; intros w Hw; (split; [exact Hw|exact Y2]). }
  eapply alone_imp; [|exact X'].
  assert (N : xor_ans is_and (xor_records is_and v) = is_and \/ xor_ans is_and (xor_records is_and v) = negb is_and)
    by (destruct (xor_ans is_and (xor_records is_and v)), is_and; auto).
  assert (PA := and_or_answer is_and (xor_records is_and v)).
  unfold xor_records in N, PA. cbn [v v_args v_env a a_numreqs] in N, PA.
  cbn beta. intros out (r & -> & Q). cbn [snd] in Q. destruct (Q RET_NO_ANS eq_refl) as (_ & b & -> & P1 & P2 & P3). split.
  - assert (D : b = negb is_and -> ans = AnsBool (negb is_and)).
    { intros Hb. rewrite <- EA. f_equal. destruct N as [N|N]; [|exact N].
      rewrite (P1 N) in Hb. destruct is_and; discriminate. }
    destruct is_and; repeat split; unfold protocol; cbn [v v_args a a_protocol v_ans]; rewrite EP; try discriminate; intros _;
      exists b; (split; [reflexivity|exact D]).
  - intros (S1 & _). specialize (S1 is_and EP). cbv zeta in S1. unfold xor_records in S1. cbn [v v_args v_env a a_numreqs] in S1.
    cbn [v v_ans]. rewrite <- EA. cbn [same_answer]. do 2 f_equal.
    destruct N as [N|N].
    + now rewrite (P1 N).
    + rewrite N. apply P2; [exact N|]. destruct S1 as [S1|S1]; [exact S1|].
      apply PA in S1. rewrite N in S1. destruct is_and; discriminate.
Qed.

Lemma visit_max (is_max : bool) : pr = (if is_max then "MAXOP" else "MINOP")%string ->
  Z.of_nat n * (Z.of_nat (top nb) + 1) < two32 ->
  (exists j, (j <= top nb)%nat /\ encodings_at j (max_records is_max (top nb) v) <> 0) ->
  client_max_op is_max (2 ^ Z.of_nat nb) n e = Sent (k_stream k0) (k_stream k1) ans ->
  alone h0 h1 k0 k1 (answer_ok nb v).
Proof.
  intros EP HT HE H. unfold client_max_op in H. fold (top nb) in H. injection H as E0 E1 EA.
  assert (HBB : Z.of_nat (top nb) < two32) by nia.
  apply (opens_of _ (if is_max then MAX_OP else MIN_OP)) in E0;
    [|exact R0|destruct is_max; split; try discriminate; reflexivity|exact HBB].
  apply (opens_of _ (if is_max then MAX_OP else MIN_OP)) in E1;
    [|exact R1|destruct is_max; split; try discriminate; reflexivity|exact HBB].
  assert (IP : In pr ["MAXOP"; "MINOP"]%string) by (rewrite EP; destruct is_max; cbn; auto).
  destruct R0 as (_ & (_ & _ & _ & V0 & _) & _ & J0 & _). destruct R1 as (_ & (_ & _ & _ & V1 & _) & F1 & J1 & _).
  destruct (max_min_run is_max (top nb) (e_prg e) n (k_order k0) (k_order k1) (k_pk k0) (k_pk k1) (k_rows k0) (k_rows k1)
    HG HT HN F1 V0 V1 (J0 IP) (J1 IP)) as (_ & X1 & X2).
  set (l := fst (requests (max_request is_max (top nb) (e_prg e)) n 0)) in *.
  set (m := max_ans is_max (top nb) l) in *.
  destruct (Z.eq_dec (encodings_at (if is_max then m else top nb - m) l) 0) as [Z0|NZ].
  - assert (X' : alone h0 h1 k0 k1 (fun out => exists r, out = OutInt r /\ exists b, r = RET_ANS (Z.of_nat b) /\ if is_max then (b <= m)%nat else (m <= b)%nat)).
    { destruct is_max; (eapply (handle_some _ _ _ _ _ _ OutInt); [dispatch E0|dispatch E1|reflexivity|exact (X2 HE)]). }
    eapply alone_imp; [|exact X']. cbn beta. intros out (r & -> & b & -> & HBM). split.
    + destruct is_max; repeat split; unfold protocol; cbn [v v_args a a_protocol v_ans]; rewrite EP; try discriminate; intros _;
        exists (Z.of_nat b), (Z.of_nat m); (split; [reflexivity|split; [symmetry; exact EA|lia]]).
    + intros (_ & S2 & _). elim (S2 is_max EP m); [symmetry; exact EA|exact Z0].
  - assert (X' : alone h0 h1 k0 k1 (fun out => out = OutInt (RET_ANS (Z.of_nat m)))).
    { destruct is_max; (eapply (handle_plain _ _ _ _ _ _ OutInt); [dispatch E0|dispatch E1|reflexivity|exact (X1 NZ)]). }
    eapply alone_imp; [|exact X']. cbn beta. intros out ->. split.
    + destruct is_max; repeat split; unfold protocol; cbn [v v_args a a_protocol v_ans]; rewrite EP; try discriminate; intros _;
        exists (Z.of_nat m), (Z.of_nat m); (split; [reflexivity|split; [symmetry; exact EA|lia]]).
    + intros _. cbn [v v_ans]. rewrite <- EA. reflexivity.
Qed.

Lemma small_sum x : x mod P = x -> x mod two64 = x.
Proof.
  intros E. apply Z.mod_small. rewrite <- E. assert (H := Z.mod_pos_bound x P eq_refl).
  split; [apply H|]. eapply Z.lt_trans; [apply H|reflexivity].
Qed.

Lemma visit_var (stddev : bool) : pr = (if stddev then "STDDEVOP" else "VAROP")%string -> (nb <= 24)%nat ->
  client_var_op stddev nb (2 ^ Z.of_nat nb) n e = Sent (k_stream k0) (k_stream k1) ans ->
  alone h0 h1 k0 k1 (answer_ok nb v).
Proof.
  intros EP HNB H. unfold client_var_op in H.
  assert (T : (2 ^ Z.of_nat nb =? 0) = false) by (apply Z.eqb_neq; assert (0 < 2 ^ Z.of_nat nb) by (apply Z.pow_pos_nonneg; lia); lia).
  rewrite T in H. cbn [andb] in H.
  destruct (Nat.ltb_spec 31 nb) as [?|_]; [lia|].
  assert (RR := R0). assert (RR1 := R1).
  destruct RR as (_ & (_ & _ & V0 & _) & _). destruct RR1 as (_ & (_ & _ & V1 & _) & F1 & _).
  assert (VR := fun K st0 st1 => var_run nb (e_prg e) (e_tape e) (e_pos e) n (k_order k0) (k_order k1) (k_var k0) (k_var k1) K
    (k_rnd k0) (k_rnd k1) st0 st1 HNB HG HN HN2 F1 V0 V1).
  destruct (requests_opt (var_request (2 ^ Z.of_nat nb) (e_prg e) (e_tape e)) n (0%nat, e_pos e, None)) as [[l st']|] eqn:EL;
    [|discriminate].
  destruct (wire_opt VarShare_bytes (subs0 l)) as [w0|] eqn:W0; [|discriminate].
  destruct (wire_opt VarShare_bytes (subs1 l)) as [w1|] eqn:W1; [|discriminate].
  destruct (var_ans l) as [sm sq] eqn:EVA. injection H as E0 E1 EA.
  apply (opens_of _ (if stddev then STDDEV_OP else VAR_OP)) in E0;
    [|exact R0|destruct stddev; split; try discriminate; reflexivity|exact HI].
  apply (opens_of _ (if stddev then STDDEV_OP else VAR_OP)) in E1;
    [|exact R1|destruct stddev; split; try discriminate; reflexivity|exact HI].
  set (sum := zsum (map c_real l)) in *. set (sumsq := zsum (map (fun r => c_real r * c_real r) l)) in *.
  assert (VA : forall st0 st1 : snip_state, synced st0 st1 -> sm = sum mod two64 /\ sq = sumsq mod two64).
  { intros st0 st1 SY. destruct (VR (fun _ => 0) st0 st1 SY) as (l' & st'' & w0' & w1' & Y1 & _ & _ & _ & _ & Y2).
    injection Y1 as <- <-. rewrite EVA in Y2. injection Y2 as -> ->. auto. }
  assert (VO : forall st0 st1, synced st0 st1 ->
    both (var_op false (k_order k0) (h_num_bits h0) n w0 (k_var k0) (h_K h0) (k_rnd k0) st0)
         (var_op true (k_order k1) (h_num_bits h1) n w1 (k_var k1) (h_K h1) (k_rnd k1) st1)
         (fun a b => fst b = RET_NO_ANS /\ fst a = RET_ANS (n, sum mod P, sumsq mod P) /\ synced (snd a) (snd b))).
  { intros st0 st1 SY. rewrite <- (proj1 HH), <- (proj1 (proj2 HH)), HB.
    destruct (VR (h_K h0) st0 st1 SY) as (l' & st'' & w0' & w1' & Y1 & _ & Y3 & Y4 & Y5 & _).
    injection Y1 as <- <-. rewrite W0 in Y3. rewrite W1 in Y4. injection Y3 as <-. injection Y4 as <-. exact Y5. }
  assert (AA : forall st0 st1 : snip_state, synced st0 st1 -> sure nb v ->
    same_answer (OutVar stddev (RET_ANS (n, sum mod P, sumsq mod P))) ans).
  { intros st0 st1 SY (_ & _ & S3). destruct (VA st0 st1 SY) as [-> ->]. rewrite <- EA. cbn [same_answer].
    assert (IP : is_protocol v ["VAROP"; "STDDEVOP"; "LINREGOP"]%string)
      by (unfold is_protocol, protocol; cbn [v v_args a a_protocol]; rewrite EP; destruct stddev; cbn; auto).
    assert (HNB' : (nb <= 31)%nat) by lia.
    destruct (var_sums_exact nb (e_prg e) (e_tape e) (e_pos e) n l st' HNB' HN EL (S3 IP)) as [X1 X2].
    fold sum in X1. fold sumsq in X2.
    rewrite X1, X2, (small_sum _ X1), (small_sum _ X2). reflexivity. }
  assert (NS : forall out, one_sided v out).
  { intros out. apply not_one_sided. unfold is_protocol, protocol. cbn [v v_args a a_protocol]. rewrite EP.
    destruct stddev; cbn; intuition discriminate. }
  intros st0 st1 OK. destruct OK as [OK1 OK2].
  assert (X : alone h0 h1 k0 k1 (fun out => exists r, out = OutVar stddev r /\ r = RET_ANS (n, sum mod P, sumsq mod P))).
  { destruct stddev; (eapply (handle_snip _ _ _ _ _ _ (OutVar _)); [dispatch E0|dispatch E1|reflexivity|exact VO]). }
  eapply both_impl; [|apply X; split; assumption]. cbn beta. intros x y ((r & EO & ->) & Z1). split; [|exact Z1].
  rewrite EO. split; [apply NS|]. intros SU. exact (AA _ _ OK1 SU).
Qed.

Lemma visit_linreg : pr = "LINREGOP"%string -> (nb <= 24)%nat ->
  let degree := run_degree a in (2 <= degree)%nat -> (num_quad degree + num_x degree < 2 ^ 18)%nat ->
  client_lin_reg degree nb (2 ^ Z.of_nat nb) n e = Sent (k_stream k0) (k_stream k1) ans ->
  alone h0 h1 k0 k1 (answer_ok nb v).
Proof.
  intros EP HNB degree HD HQ H. unfold client_lin_reg in H.
  assert (T : (2 ^ Z.of_nat nb =? 0) = false) by (apply Z.eqb_neq; assert (0 < 2 ^ Z.of_nat nb) by (apply Z.pow_pos_nonneg; lia); lia).
  rewrite T in H. cbn [andb] in H.
  destruct (Nat.ltb_spec 31 nb) as [?|_]; [lia|].
  assert (RR := R0). assert (RR1 := R1).
  destruct RR as (_ & (_ & _ & _ & V0 & D0) & _ & _ & G0). destruct RR1 as (_ & (_ & _ & _ & V1 & D1) & F1 & _).
  assert (HD1 : (1 <= degree)%nat) by lia.
  assert (VR := fun K st0 st1 => linreg_run nb degree (e_prg e) (e_tape e) (e_pos e) n (k_order k0) (k_order k1)
    (k_degree k0) (k_degree k1) (k_pk k0) (k_pk k1) (k_garbage k0) (k_garbage k1) K
    (k_rnd k0) (k_rnd k1) st0 st1 HNB HD1 HQ HG HN HN2 F1 D0 D1 V0 V1 (G0 EP)).
  destruct (requests_opt (linreg_request degree (2 ^ Z.of_nat nb) (e_prg e) (e_tape e)) n (0%nat, e_pos e, None)) as [[l st']|] eqn:EL;
    [|discriminate].
  destruct (sent_bytes (send_size (Z.of_nat degree))) as [deg|] eqn:ED; [|discriminate].
  destruct (wire_opt (linregshare_bytes degree) (subs0 l)) as [w0|] eqn:W0; [|discriminate].
  destruct (wire_opt (linregshare_bytes degree) (subs1 l)) as [w1|] eqn:W1; [|discriminate].
  destruct (linreg_accum degree l) as [xa ya] eqn:EVA. injection H as E0 E1 EA.
  apply (opens_of _ LINREG_OP) in E0; [|exact R0|split; [discriminate|reflexivity]|exact HI].
  apply (opens_of _ LINREG_OP) in E1; [|exact R1|split; [discriminate|reflexivity]|exact HI].
  set (sums := fun j => zsum (map (fun r => nth j (linreg_fields (c_real r)) 0) l)) in *.
  assert (VO : forall st0 st1, synced st0 st1 -> length l = n /\
    (forall r, In r l -> length (fst (c_real r)) = num_x degree /\
       Forall (fun v => 0 <= v < 2 ^ Z.of_nat nb) (fst (c_real r)) /\ 0 <= snd (c_real r) < 2 ^ Z.of_nat nb) /\
    both (linreg_op false (k_order k0) (h_num_bits h0) n (deg ++ w0) (k_degree k0) (k_pk k0) (k_garbage k0) (h_K h0) (k_rnd k0) st0)
         (linreg_op true (k_order k1) (h_num_bits h1) n (deg ++ w1) (k_degree k1) (k_pk k1) (k_garbage k1) (h_K h1) (k_rnd k1) st1)
         (fun a b => fst b = RET_NO_ANS /\ fst a = RET_ANS (moments degree n (fun j => sums j mod P)) /\ synced (snd a) (snd b))).
  { intros st0 st1 SY. rewrite <- (proj1 HH), <- (proj1 (proj2 HH)), HB.
    destruct (VR (h_K h0) st0 st1 SY) as (l' & st'' & deg' & w0' & w1' & Y1 & Y2 & Y3 & Y4 & Y5 & Y6 & Y7).
    injection Y1 as <- <-. injection Y3 as <-. rewrite W0 in Y4. rewrite W1 in Y5. injection Y4 as <-. injection Y5 as <-.
    split; [exact Y2|]. split; [exact Y6|exact Y7]. }
  assert (NS : forall out, one_sided v out).
  { intros out. apply not_one_sided. unfold is_protocol, protocol. cbn [v v_args a a_protocol]. rewrite EP.
    cbn; intuition discriminate. }
  intros st0 st1 OK. destruct OK as [OK1 OK2].
  assert (X : alone h0 h1 k0 k1 (fun out => exists r, out = OutReg r /\ r = RET_ANS (moments degree n (fun j => sums j mod P)))).
  { eapply (handle_snip _ _ _ _ _ _ OutReg); [dispatch E0|dispatch E1|reflexivity|]. intros s0 s1 SY. exact (proj2 (proj2 (VO s0 s1 SY))). }
  destruct (VO _ _ OK1) as (LL & RG & _).
  eapply both_impl; [|apply X; split; assumption]. cbn beta. intros x y ((r & EO & ->) & Z1). split; [|exact Z1].
  rewrite EO. split; [apply NS|]. intros (_ & _ & S3).
  assert (IP : is_protocol v ["VAROP"; "STDDEVOP"; "LINREGOP"]%string)
      by (unfold is_protocol, protocol; cbn [v v_args a a_protocol]; rewrite EP; cbn; auto).
  assert (HL2 : Z.of_nat (length l) < two32) by (rewrite LL; exact HN2).
  assert (EQ := linreg_accum_sums nb degree l HNB HD1 HL2 RG). rewrite LL, EVA in EQ.
  cbn [v v_ans]. rewrite <- EA. cbn [same_answer]. do 2 f_equal. rewrite EQ.
  assert (LP : (0 < length l)%nat) by lia.
  assert (S4 := S3 IP). cbn [v v_args a a_numreqs] in S4. rewrite <- LL in S4.
  apply moments_ext'. intros j. fold (sums j).
  assert (X1 := linreg_sums_exact nb l j (fun r Hr => proj2 (RG r Hr)) LP S4). fold (sums j) in X1.
  rewrite X1, (small_sum _ X1). reflexivity.
Qed.
End Visit.

Lemma visit_alone nb h0 h1 v : hosts_ok h0 h1 -> h_num_bits h0 = nb -> visit_ok nb v ->
  alone h0 h1 (v_0 v) (v_1 v) (answer_ok nb v).
Proof.
  intros HH HB. destruct v as [[n pr bits dg] e k0 k1 ans]. unfold visit_ok. cbn [v_args v_env v_0 v_1 v_ans a_numreqs a_bits a_protocol].
  intros (H & R0 & R1 & -> & HNB & HN & HN2 & HG & HI & HI2 & NF & HVB & HLQ & HMT & HME).
  unfold is_protocol, protocol in *. cbn [v_args a_protocol] in *.
  unfold client_main in H. cbn [a_numreqs a_protocol a_bits a_degree] in H.
  destruct (Nat.ltb_spec 63 nb) as [?|_]; [lia|].
  destruct (Nat.ltb_spec match dg with Some d => d | None => 2%nat end 2) as [?|HD]; [discriminate|].
  destruct (String.eqb_spec pr "BITSUM") as [E|_]; [eapply visit_bit; eassumption|].
  destruct (String.eqb_spec pr "INTSUM") as [E|_]; [eapply visit_int; eassumption|].
  destruct (String.eqb_spec pr "ANDOP") as [E|N1]; [eapply visit_xor with (is_and := true); eassumption|].
  destruct (String.eqb_spec pr "OROP") as [E|N2]; [eapply visit_xor with (is_and := false); eassumption|].
  destruct (String.eqb_spec pr "MAXOP") as [E|N3].
  { eapply visit_max with (is_max := true); try eassumption; [apply HMT; rewrite E; cbn; auto|exact (HME true E)]. }
  destruct (String.eqb_spec pr "MINOP") as [E|N4].
  { eapply visit_max with (is_max := false); try eassumption; [apply HMT; rewrite E; cbn; auto|exact (HME false E)]. }
  destruct (String.eqb_spec pr "VAROP") as [E|_].
  { eapply visit_var with (stddev := false); try eassumption. apply HVB. rewrite E. cbn. auto. }
  destruct (String.eqb_spec pr "STDDEVOP") as [E|_].
  { eapply visit_var with (stddev := true); try eassumption. apply HVB. rewrite E. cbn. auto. }
  destruct (String.eqb_spec pr "LINREGOP") as [E|_].
  { eapply visit_linreg; try eassumption; [apply HVB; rewrite E; cbn; auto|exact (HLQ E)]. }
  destruct (String.eqb_spec pr "FREQOP") as [E|_]; [easy|].
  injection H as E0 E1 <-.
  destruct R0 as (M0 & _). destruct R1 as (M1 & _).
  eapply alone_imp; [|apply (unknown_alone NONE_OP h0 h1 k0 k1 (e_num e) (e_num e) (e_inp e) (e_inp e) [] [])].
  - cbn beta. intros out ->. split; [|reflexivity]. apply not_one_sided. unfold is_protocol, protocol. cbn. intuition.
  - split; [rewrite app_nil_r; symmetry; exact E0|]. repeat split; auto; try reflexivity; discriminate.
  - split; [rewrite app_nil_r; symmetry; exact E1|]. repeat split; auto; try reflexivity; discriminate.
  - left. reflexivity.
Qed.

Lemma visits_alone nb h0 h1 vs : hosts_ok h0 h1 -> h_num_bits h0 = nb -> Forall (visit_ok nb) vs ->
  Forall2 (fun k R => alone h0 h1 (fst k) (snd k) R) (map (fun v => (v_0 v, v_1 v)) vs) (map (answer_ok nb) vs).
Proof.
  intros HH HB. induction 1 as [|v vs HV _ IH]; cbn [map]; constructor; [|exact IH].
  cbn [fst snd]. apply visit_alone; assumption.
Qed.

Lemma answers_split nb vs outs : Forall2 (fun (R : output -> Prop) out => R out) (map (answer_ok nb) vs) outs ->
  Forall2 (fun v out => one_sided v out /\ (sure nb v -> same_answer out (v_ans v))) vs outs.
Proof.
  revert outs. induction vs as [|v vs IH]; intros outs H; cbn [map] in H; inversion H; subst; constructor; auto.
Qed.

Lemma session_both nb c0 c1 T0 T1 r0 r1 gen seed0 seed1 vs :
  params_ok c0 c1 -> length seed0 = length seed1 -> Forall (visit_ok nb) vs ->
  both (server_main false nb c0 T0 r0 gen seed0 (map v_0 vs)) (server_main true nb c1 T1 r1 gen seed1 (map v_1 vs))
    (fun a b => Forall2 (fun v out => one_sided v out /\ (sure nb v -> same_answer out (v_ans v))) vs (fst a) /\
                Forall silent (fst b) /\ length (fst b) = length vs).
Proof.
  intros HP HL HV.
  assert (E0 : map v_0 vs = map fst (map (fun v => (v_0 v, v_1 v)) vs)) by (rewrite map_map; reflexivity).
  assert (E1 : map v_1 vs = map snd (map (fun v => (v_0 v, v_1 v)) vs)) by (rewrite map_map; reflexivity).
  rewrite E0, E1. eapply both_impl; [|apply (servers_from_start nb c0 c1 T0 T1 r0 r1 gen seed0 seed1 _ (map (answer_ok nb) vs) HP HL)].
  - cbn beta. intros a b (X & Y & Z & _). rewrite map_length in Z. split; [apply answers_split, X|]. auto.
  - apply visits_alone; [repeat split; apply HP|reflexivity|exact HV].
Qed.
