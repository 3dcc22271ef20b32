(** * Debugging runs of VAR, STDDEV and LINREG (C66)

    With [DEBUG_INVALID] set, a client of these makes [n] requests, spoils twelve of
    them (values over the cap, wrong squares, changed packets, wrong identities) and
    prints the answer expected from the rest.  [valids l]: the requests not marked as
    invalid.  [stale i]: what is read from the released buffer at request [i]. *)
From Coq Require Import ZArith List Bool Lia.
From Verif Require Import Words WordsFacts Constants Share Proc Net RelFacts Poly FftFacts Circuit Snip SpecSnip SnipFacts SnipBatch
  ServerOps SpecServer TableFacts ServerFacts ServerProps ClientOps SpecClient ClientFacts ClientProps
  SpecStat StatProps StatClient SpecCount SpecAccept
  DebugOps SpecDebug DebugFacts DebugStat SpecDebugStat DebugStatFacts DebugStatProps DebugStatRows DebugStatLin P_Client P_Debug.
Import ListNotations.
Open Scope Z_scope.

(** The run is always made and sent.  If the draws taken over unreduced are too big
    and the changes to the packets are changes, then twelve requests are left out,
    the printed sums are those of the rest modulo 2^64, and for all but 30 of p of
    the challenges the servers' answer is the sums of the rest modulo p. *)
Theorem var_debug_run nb g T s stale n order0 order1 junk0 junk1 :
  (1 <= nb <= 24)%nat -> prg_ok g -> (24 <= n)%nat -> Z.of_nat n < two32 -> fair order1 ->
  length junk0 = 48%nat -> length junk1 = 48%nat -> released_ok g stale n 9 11 13 ->
  exists l st' stream0 stream1,
    var_op_invalid (2 ^ Z.of_nat nb) g T s stale n = Some (l, st') /\ length l = n /\
    wire_opt VarShare_bytes (dsubs0 l) = Some stream0 /\ wire_opt VarShare_bytes (dsubs1 l) = Some stream1 /\
    (var_too_big nb l -> changes snd l ->
     let v := valids l in
     let sum := zsum (map (fun r => fst (c_real r)) v) in let sumsq := zsum (map (fun r => snd (c_real r)) v) in
     length v = (n - 12)%nat /\ var_invalid_ans v = (length v, sum mod two64, sumsq mod two64) /\
     (forall r, In r v -> 0 <= fst (c_real r) < 2 ^ Z.of_nat nb /\ snd (c_real r) = fst (c_real r) * fst (c_real r)) /\
     forall L1, accepted (var_fits nb) (dsubs1 l) (dsubs1 l) L1 ->
     let m := (coefficients CheckVar * length L1)%nat in
     all_but (6 * (5 * p ^ Z.of_nat m)) m (fun e =>
       forall K rnd0 rnd1 st0 st1, synced st0 st1 -> randomX st0 = fst e -> uses (seed_pos st0) (snd e) K ->
       both (var_op false order0 nb n stream0 junk0 K rnd0 st0) (var_op true order1 nb n stream1 junk1 K rnd1 st1)
         (fun a b => fst b = RET_NO_ANS /\ fst a = RET_ANS (length v, sum mod p, sumsq mod p)))).
Proof. exact (var_debug nb g T s stale n order0 order1 junk0 junk1). Qed.
Print Assumptions var_debug_run.

(** The same for LINREG (always with one x); the sums are those of x, x^2, y and xy,
    and all but 54 of p of the challenges will do. *)
Theorem linreg_debug_run nb g T s stale n order0 order1 d0 d1 junk0 junk1 garbage0 garbage1 :
  (1 <= nb <= 24)%nat -> prg_ok g -> (24 <= n)%nat -> Z.of_nat n < two32 -> fair order1 ->
  length d0 = 8%nat -> length d1 = 8%nat -> length junk0 = 32%nat -> length junk1 = 32%nat ->
  (forall i, let '(x, x2, xy) := garbage0 i in linreg_shape 2 (x, 0, x2, xy)) ->
  released_ok (fun i => g (6 * i + 6)%nat) stale n 9 11 13 ->
  exists l st' deg stream0 stream1,
    lin_reg_invalid (2 ^ Z.of_nat nb) g T s stale n = Some (l, st') /\ length l = n /\
    sent_bytes (send_size 2) = Some deg /\
    wire_opt (linregshare_bytes 2) (dsubs0 l) = Some stream0 /\ wire_opt (linregshare_bytes 2) (dsubs1 l) = Some stream1 /\
    (linreg_too_big nb l -> changes snd l ->
     let v := valids l in let sum j := zsum (map (fun r => nth j (c_real r) 0) v) in
     length v = (n - 12)%nat /\
     linreg_invalid_ans v = ([Z.of_nat (length v); sum 0%nat mod two64; sum 2%nat mod two64], [sum 1%nat mod two64; sum 3%nat mod two64]) /\
     (forall r, In r v -> exists x y, c_real r = [x; y; x * x; x * y] /\ 0 <= x < 2 ^ Z.of_nat nb /\ 0 <= y < 2 ^ Z.of_nat nb) /\
     forall L1, accepted (linreg_fits nb) (dsubs1 l) (dsubs1 l) L1 ->
     let m := (coefficients (CheckLinReg 2) * length L1)%nat in
     all_but (6 * (9 * p ^ Z.of_nat m)) m (fun e =>
       forall K rnd0 rnd1 st0 st1, synced st0 st1 -> randomX st0 = fst e -> uses (seed_pos st0) (snd e) K ->
       both (linreg_op false order0 nb n (deg ++ stream0) d0 junk0 garbage0 K rnd0 st0)
            (linreg_op true order1 nb n (deg ++ stream1) d1 junk1 garbage1 K rnd1 st1)
         (fun a b => fst b = RET_NO_ANS /\
            fst a = RET_ANS ([Z.of_nat (length v); sum 0%nat mod p; sum 2%nat mod p], [sum 1%nat mod p; sum 3%nat mod p])))).
Proof. exact (linreg_debug nb g T s stale n order0 order1 d0 d1 junk0 junk1 garbage0 garbage1). Qed.
Print Assumptions linreg_debug_run.

(** ** Cases *)
Definition ex_draws (i : nat) : Z := (1 + Z.of_nat i * Z.of_nat i * 1000003) mod p.
(** The buffers are as they were, so [released_ok] holds: *)
Example kept_var n : released_ok dbg (kept dbg) n 9 11 13.
Proof. apply kept_ok, dbg_ok. Qed.
Example kept_linreg n : released_ok (fun i => dbg (6 * i + 6)%nat) (kept (fun i => dbg (6 * i + 6)%nat)) n 9 11 13.
Proof.
  destruct dbg_ok as [HB _]. unfold released_ok, kept. destruct (HB (6 * (11 - 1) + 6)%nat), (HB (6 * (13 - 1) + 6)%nat).
  split; [now apply pk_spec|]. split; [now apply pk_spec|]. split; now left.
Qed.
(** The two other conditions hold, decided by computation: *)
Definition changed_b {V W} (packet : V -> ClientPacket) (l : list (drec V W)) : bool :=
  match nth_error l 6, nth_error l 8 with
  | Some r, Some r' =>
      negb ((g0_s (packet (d_0 r)) + g0_s (packet (d_1 r))) mod p =? 0) &&
      negb ((shareB (triple_share (packet (d_0 r'))) + shareB (triple_share (packet (d_1 r')))) mod p =? 0)
  | _, _ => false
  end.
Lemma changed_b_ok {V W} (packet : V -> ClientPacket) (l : list (drec V W)) : changed_b packet l = true -> changes packet l.
Proof.
  unfold changed_b, changes. destruct (nth_error l 6), (nth_error l 8); try discriminate.
  rewrite andb_true_iff, !negb_true_iff, !Z.eqb_neq. intros [A B]. split; intros r [= <-]; auto.
Qed.
Definition var_lucky nb n : bool :=
  match var_op_invalid (2 ^ Z.of_nat nb) dbg ex_draws 0 (kept dbg) n with
  | Some (l, _) => changed_b snd l && match nth_error l 2 with Some r => 2 ^ Z.of_nat (2 * nb) <=? snd (fst (d_0 r)) | None => false end
  | None => false
  end.
Example var_debug_ex : forall l st', var_op_invalid (2 ^ Z.of_nat 8) dbg ex_draws 0 (kept dbg) 24 = Some (l, st') ->
  var_too_big 8 l /\ changes snd l.
Proof.
  intros l st' E. assert (H : var_lucky 8 24 = true) by (vm_compute; reflexivity).
  unfold var_lucky in H. rewrite E in H. apply andb_prop in H as [A B]. split; [|now apply changed_b_ok].
  intros r Hr. rewrite Hr in B. now apply Z.leb_le.
Qed.
Definition linreg_lucky nb n : bool :=
  match lin_reg_invalid (2 ^ Z.of_nat nb) dbg ex_draws 0 (kept (fun i => dbg (6 * i + 6)%nat)) n with
  | Some (l, _) => changed_b snd l &&
      match nth_error l 1, nth_error l 2 with
      | Some r, Some r' => (2 ^ Z.of_nat nb <=? nth 1 (linreg_row (fst (d_0 r))) 0) &&
          (2 ^ Z.of_nat (2 * nb) <=? nth 2 (linreg_row (fst (d_0 r'))) 0)
      | _, _ => false
      end
  | None => false
  end.
Example linreg_debug_ex : forall l st',
  lin_reg_invalid (2 ^ Z.of_nat 8) dbg ex_draws 0 (kept (fun i => dbg (6 * i + 6)%nat)) 24 = Some (l, st') ->
  linreg_too_big 8 l /\ changes snd l.
Proof.
  intros l st' E. assert (H : linreg_lucky 8 24 = true) by (vm_compute; reflexivity).
  unfold linreg_lucky in H. rewrite E in H. apply andb_prop in H as [A B]. split; [|now apply changed_b_ok].
  destruct (nth_error l 1) as [r1|] eqn:E1, (nth_error l 2) as [r2|] eqn:E2; try discriminate.
  apply andb_prop in B as [B1 B2]. split; intros r Hr.
  - rewrite E1 in Hr. injection Hr as <-. now apply Z.leb_le.
  - rewrite E2 in Hr. injection Hr as <-. now apply Z.leb_le.
Qed.
(** The sums of this run of VAR: *)
Example var_debug_sums : option_map (fun x => var_invalid_ans (valids (fst x)))
  (var_op_invalid (2 ^ Z.of_nat 8) dbg ex_draws 0 (kept dbg) 24) <> Some (12%nat, 0, 0).
Proof. vm_compute. discriminate. Qed.
