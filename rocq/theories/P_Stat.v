(** * VAR, STDDEV and LINREG (C31, C32 and parts of C34, C36, C37, C41, C42, C46)

    Setting as in P_Server.v: the submissions [subs0], [subs1] arriving at the two
    servers are arbitrary and unrelated; a client may go away anywhere, also
    within a record ([arrives_cut], SpecStat.v).  [K]: the common coefficients;
    [st0], [st1]: the state of the proof checkers, [synced]: in agreement, as it is
    after start-up and after every operation.  The answers are those passed on to
    the final floating point computation. *)
From Coq Require Import ZArith List Bool Lia.
From Verif Require Import Words Constants Share Proc ProcFacts Net SpecNet RelFacts Exec SpecPoly Circuit SpecCircuit
  Snip SpecSnip ServerOps SpecServer TableFacts ServerFacts ClientOps SpecClient SpecStat StatReads StatProps StatClient StatSound
  P_Snip P_Server P_Client.
Import ListNotations.
Open Scope Z_scope.

(** ** Arbitrary streams *)

(** Every schedule terminates; each identity in [L] (acceptable at both servers) is
    judged on its own values and packets; the answer consists of the number of
    identities judged valid and the sums of their values and of their squares. *)
Theorem var_op_correct nb order0 order1 total0 total1 stream0 stream1 subs0 subs1 junk0 junk1 K rnd0 rnd1 st0 st1 L :
  (nb <= 24)%nat -> fair order1 ->
  arrives_cut var_wire var_size total0 stream0 subs0 -> arrives_cut var_wire var_size total1 stream1 subs1 ->
  Forall (fun s => var_content (snd s)) subs0 -> Forall (fun s => var_content (snd s)) subs1 ->
  length junk0 = 48%nat -> length junk1 = 48%nat ->
  (exists pk, first_sub (var_fits nb) subs1 pk <> None) ->
  accepted (var_fits nb) subs0 subs1 L -> synced st0 st1 ->
  both (var_op false order0 nb total0 stream0 junk0 K rnd0 st0) (var_op true order1 nb total1 stream1 junk1 K rnd1 st1)
    (fun a b => exists ok pos,
       validated CheckVar (randomX st0) K (seed_pos st0) (var_fits nb) var_opened snd subs0 subs1 L ok pos /\
       fst b = RET_NO_ANS /\
       fst a = outcome (length (filter ok L)) total0
         (length (filter ok L),
          field_sum (var_fits nb) var_opened subs0 subs1 (filter ok L) 0 mod p,
          field_sum (var_fits nb) var_opened subs0 subs1 (filter ok L) 1 mod p) /\
       synced (snd a) (snd b) /\ randomX (snd a) = randomX st0).
Proof.
  intros. eapply ClientFacts.both_impl; [|eapply var_op_result; eassumption].
  cbv beta. intros a b (ok & pos & A & B & C & D & E & _). exists ok, pos. auto.
Qed.
Print Assumptions var_op_correct.

Theorem linreg_op_correct nb degree order0 order1 total0 total1 stream0 stream1 subs0 subs1 d0 d1 junk0 junk1
  garbage0 garbage1 K rnd0 rnd1 st0 st1 L :
  (nb <= 24)%nat -> (1 <= degree)%nat -> (num_quad degree + num_x degree < 2 ^ 18)%nat -> fair order1 ->
  arrives_cut linreg_wire (linreg_size degree) total0 stream0 subs0 ->
  arrives_cut linreg_wire (linreg_size degree) total1 stream1 subs1 ->
  Forall (fun s => linreg_content degree (snd s)) subs0 -> Forall (fun s => linreg_content degree (snd s)) subs1 ->
  length d0 = 8%nat -> length d1 = 8%nat -> length junk0 = 32%nat -> length junk1 = 32%nat ->
  (forall i, let '(x, x2, xy) := garbage0 i in linreg_shape degree (x, 0, x2, xy)) ->
  (exists pk, first_sub (linreg_fits nb) subs1 pk <> None) ->
  accepted (linreg_fits nb) subs0 subs1 L -> synced st0 st1 ->
  both (linreg_op false order0 nb total0 (degree_wire degree ++ stream0) d0 junk0 garbage0 K rnd0 st0)
       (linreg_op true order1 nb total1 (degree_wire degree ++ stream1) d1 junk1 garbage1 K rnd1 st1)
    (fun a b => exists ok pos,
       validated (CheckLinReg degree) (randomX st0) K (seed_pos st0) (linreg_fits nb) linreg_opened snd subs0 subs1 L ok pos /\
       fst b = RET_NO_ANS /\
       fst a = outcome (length (filter ok L)) total0
         (moments degree (length (filter ok L))
            (fun j => field_sum (linreg_fits nb) linreg_opened subs0 subs1 (filter ok L) j mod p)) /\
       synced (snd a) (snd b) /\ randomX (snd a) = randomX st0).
Proof.
  intros. eapply ClientFacts.both_impl; [|eapply linreg_op_result; eassumption].
  cbv beta. intros a b (ok & pos & A & B & C & D & E & _). exists ok, pos. auto.
Qed.
Print Assumptions linreg_op_correct.

(** The verdict on a submission is determined (by its values, its packets, the
    point and the coefficients). *)
Theorem judged_once c r K pos vals p0 p1 b b' : in_field p r ->
  judged c r K pos vals p0 p1 b -> judged c r K pos vals p0 p1 b' -> b = b'.
Proof. intros Hr. apply SnipBatch.verdict_unique. exact Hr. Qed.
Print Assumptions judged_once.

(** ** Cheating clients

    For all challenge points but at most 2N (here N = 2) there is a coefficient
    such that at most one of its p values leads to acceptance. *)
Theorem var_cheater_rejected v v2 p0 p1 :
  packet_ok (NumMulGates CheckVar) p0 -> packet_ok (NumMulGates CheckVar) p1 ->
  v2 mod p <> (v * v) mod p ->
  exists bad, (length bad <= 4)%nat /\ forall r, in_field p r -> ~ In r bad ->
    exists j, (j <= 1)%nat /\
      forall K K' pos, differ_only_at (pos + j) K K' ->
        ~ (judged CheckVar r K pos [v; v2] p0 p1 true /\ judged CheckVar r K' pos [v; v2] p0 p1 true).
Proof. exact (var_cheat v v2 p0 p1). Qed.
Print Assumptions var_cheater_rejected.

(** Up to 23 bits the congruence is an equality, for values that pass the bound
    checks. *)
Theorem var_square_exact nb v v2 : (nb <= 23)%nat -> 0 <= v < 2 ^ Z.of_nat nb -> 0 <= v2 < 2 ^ Z.of_nat (2 * nb) ->
  v2 mod p = (v * v) mod p -> v2 = v * v.
Proof. exact (square_exact nb v v2). Qed.
Print Assumptions var_square_exact.
(** At 24 bits it is not. *)
Theorem var_square_exact_24_refuted : exists v v2, 0 <= v < 2 ^ 24 /\ 0 <= v2 < 2 ^ 48 /\
  v2 mod p = (v * v) mod p /\ v2 <> v * v.
Proof. exists 5, (25 + p). vm_compute. repeat split; discriminate. Qed.
Print Assumptions var_square_exact_24_refuted.

Theorem linreg_cheater_rejected degree x y x2 xy p0 p1 N :
  (1 <= degree)%nat -> (num_quad degree + num_x degree < 2 ^ 18)%nat ->
  packet_ok (NumMulGates (CheckLinReg degree)) p0 -> packet_ok (NumMulGates (CheckLinReg degree)) p1 ->
  length x = num_x degree -> length x2 = num_quad degree -> length xy = num_x degree ->
  NextPowerOfTwo (Z.of_nat (num_quad degree + num_x degree)) = Some (Z.of_nat N) ->
  ~ (map (fun q => q mod p) x2 = map (fun q => q mod p) (pairwise x) /\
     map (fun q => q mod p) xy = map (fun z => (z * y) mod p) x) ->
  let c := CheckLinReg degree in
  exists bad, (length bad <= 2 * N)%nat /\ forall r, in_field p r -> ~ In r bad ->
    exists j, (j <= length (result_zero c))%nat /\
      forall K K' pos, differ_only_at (pos + j) K K' ->
        ~ (judged c r K pos (linreg_inputs x y x2 xy) p0 p1 true /\
           judged c r K' pos (linreg_inputs x y x2 xy) p0 p1 true).
Proof. exact (linreg_cheat degree x y x2 xy p0 p1 N). Qed.
Print Assumptions linreg_cheater_rejected.

(** ** Whole runs with an honest client process *)

Theorem var_run nb g T s n order0 order1 junk0 junk1 K rnd0 rnd1 st0 st1 :
  (nb <= 24)%nat -> prg_ok g -> (0 < n)%nat -> Z.of_nat n < two32 -> fair order1 ->
  length junk0 = 48%nat -> length junk1 = 48%nat -> synced st0 st1 ->
  exists l st' stream0 stream1,
    requests_opt (var_request (2 ^ Z.of_nat nb) g T) n (0%nat, s, None) = Some (l, st') /\ length l = n /\
    wire_opt VarShare_bytes (subs0 l) = Some stream0 /\ wire_opt VarShare_bytes (subs1 l) = Some stream1 /\
    (let sum := zsum (map c_real l) in let sumsq := zsum (map (fun r => c_real r * c_real r) l) in
     both (var_op false order0 nb n stream0 junk0 K rnd0 st0) (var_op true order1 nb n stream1 junk1 K rnd1 st1)
       (fun a b => fst b = RET_NO_ANS /\ fst a = RET_ANS (n, sum mod p, sumsq mod p) /\ synced (snd a) (snd b)) /\
     var_ans l = (sum mod two64, sumsq mod two64)).
Proof. exact (var_honest nb g T s n order0 order1 junk0 junk1 K rnd0 rnd1 st0 st1). Qed.
Print Assumptions var_run.

(** The sums are the true ones when they cannot exceed the modulus; for the largest
    width, 24 bits, this is no client at all, for 16 bits it is 32768 clients. *)
Theorem var_sums_exact nb g T s n l st' : (nb <= 31)%nat -> (0 < n)%nat ->
  requests_opt (var_request (2 ^ Z.of_nat nb) g T) n (0%nat, s, None) = Some (l, st') ->
  Z.of_nat n * 2 ^ Z.of_nat (2 * nb) <= p ->
  zsum (map c_real l) mod p = zsum (map c_real l) /\
  zsum (map (fun r => c_real r * c_real r) l) mod p = zsum (map (fun r => c_real r * c_real r) l).
Proof. exact (var_exact nb g T s n l st'). Qed.
Print Assumptions var_sums_exact.
Example var_sums_exact_ex : 32768 * 2 ^ Z.of_nat (2 * 16) <= p.
Proof. vm_compute. discriminate. Qed.

Theorem linreg_run nb degree g T s n order0 order1 d0 d1 junk0 junk1 garbage0 garbage1 K rnd0 rnd1 st0 st1 :
  (nb <= 24)%nat -> (1 <= degree)%nat -> (num_quad degree + num_x degree < 2 ^ 18)%nat ->
  prg_ok g -> (0 < n)%nat -> Z.of_nat n < two32 -> fair order1 ->
  length d0 = 8%nat -> length d1 = 8%nat -> length junk0 = 32%nat -> length junk1 = 32%nat ->
  (forall i, let '(x, x2, xy) := garbage0 i in linreg_shape degree (x, 0, x2, xy)) -> synced st0 st1 ->
  exists l st' deg stream0 stream1,
    requests_opt (linreg_request degree (2 ^ Z.of_nat nb) g T) n (0%nat, s, None) = Some (l, st') /\ length l = n /\
    sent_bytes (send_size (Z.of_nat degree)) = Some deg /\
    wire_opt (linregshare_bytes degree) (subs0 l) = Some stream0 /\
    wire_opt (linregshare_bytes degree) (subs1 l) = Some stream1 /\
    (forall r, In r l -> length (fst (c_real r)) = num_x degree /\
       Forall (fun v => 0 <= v < 2 ^ Z.of_nat nb) (fst (c_real r)) /\ 0 <= snd (c_real r) < 2 ^ Z.of_nat nb) /\
    both (linreg_op false order0 nb n (deg ++ stream0) d0 junk0 garbage0 K rnd0 st0)
         (linreg_op true order1 nb n (deg ++ stream1) d1 junk1 garbage1 K rnd1 st1)
       (fun a b => fst b = RET_NO_ANS /\
          fst a = RET_ANS (moments degree n (fun j => zsum (map (fun r => nth j (linreg_fields (c_real r)) 0) l) mod p)) /\
          synced (snd a) (snd b)).
Proof. exact (linreg_honest nb degree g T s n order0 order1 d0 d1 junk0 junk1 garbage0 garbage1 K rnd0 rnd1 st0 st1). Qed.
Print Assumptions linreg_run.

Theorem linreg_sums_exact nb (l : list (crec (linreg_vals * ClientPacket) (list Z * Z))) j :
  (forall r, In r l -> Forall (fun v => 0 <= v < 2 ^ Z.of_nat nb) (fst (c_real r)) /\ 0 <= snd (c_real r) < 2 ^ Z.of_nat nb) ->
  (0 < length l)%nat -> Z.of_nat (length l) * 2 ^ Z.of_nat (2 * nb) <= p ->
  zsum (map (fun r => nth j (linreg_fields (c_real r)) 0) l) mod p = zsum (map (fun r => nth j (linreg_fields (c_real r)) 0) l).
Proof. exact (linreg_exact nb l j). Qed.
Print Assumptions linreg_sums_exact.

(** ** One submission per identity *)

Theorem var_repeats nb order0 order1 total0 total1 total0' total1' stream0 stream1 stream0' stream1'
    subs0 subs1 subs0' subs1' junk0 junk1 junk0' junk1' K rnd0 rnd1 st0 st1 :
  (nb <= 24)%nat -> fair order1 -> repeats (var_fits nb) subs0 subs0' -> repeats (var_fits nb) subs1 subs1' ->
  arrives_cut var_wire var_size total0 stream0 subs0 -> arrives_cut var_wire var_size total1 stream1 subs1 ->
  arrives_cut var_wire var_size total0' stream0' subs0' -> arrives_cut var_wire var_size total1' stream1' subs1' ->
  Forall (fun s => var_content (snd s)) subs0 -> Forall (fun s => var_content (snd s)) subs1 ->
  Forall (fun s => var_content (snd s)) subs0' -> Forall (fun s => var_content (snd s)) subs1' ->
  length junk0 = 48%nat -> length junk1 = 48%nat -> length junk0' = 48%nat -> length junk1' = 48%nat ->
  (exists pk, first_sub (var_fits nb) subs1 pk <> None) -> synced st0 st1 ->
  exists n ans,
  both (var_op false order0 nb total0 stream0 junk0 K rnd0 st0) (var_op true order1 nb total1 stream1 junk1 K rnd1 st1)
    (fun a _ => fst a = outcome n total0 ans) /\
  both (var_op false order0 nb total0' stream0' junk0' K rnd0 st0) (var_op true order1 nb total1' stream1' junk1' K rnd1 st1)
    (fun a _ => fst a = outcome n total0' ans).
Proof.
  exact (var_op_once nb order0 order1 total0 total1 total0' total1' stream0 stream1 stream0' stream1'
    subs0 subs1 subs0' subs1' junk0 junk1 junk0' junk1' K rnd0 rnd1 st0 st1).
Qed.
Print Assumptions var_repeats.

Theorem linreg_repeats nb degree order0 order1 total0 total1 total0' total1' stream0 stream1 stream0' stream1'
    subs0 subs1 subs0' subs1' d0 d1 d0' d1' junk0 junk1 junk0' junk1' garbage0 garbage1 K rnd0 rnd1 st0 st1 :
  (nb <= 24)%nat -> (1 <= degree)%nat -> (num_quad degree + num_x degree < 2 ^ 18)%nat -> fair order1 ->
  repeats (linreg_fits nb) subs0 subs0' -> repeats (linreg_fits nb) subs1 subs1' ->
  arrives_cut linreg_wire (linreg_size degree) total0 stream0 subs0 ->
  arrives_cut linreg_wire (linreg_size degree) total1 stream1 subs1 ->
  arrives_cut linreg_wire (linreg_size degree) total0' stream0' subs0' ->
  arrives_cut linreg_wire (linreg_size degree) total1' stream1' subs1' ->
  Forall (fun s => linreg_content degree (snd s)) subs0 -> Forall (fun s => linreg_content degree (snd s)) subs1 ->
  Forall (fun s => linreg_content degree (snd s)) subs0' -> Forall (fun s => linreg_content degree (snd s)) subs1' ->
  length d0 = 8%nat -> length d1 = 8%nat -> length d0' = 8%nat -> length d1' = 8%nat ->
  length junk0 = 32%nat -> length junk1 = 32%nat -> length junk0' = 32%nat -> length junk1' = 32%nat ->
  (forall i, let '(x, x2, xy) := garbage0 i in linreg_shape degree (x, 0, x2, xy)) ->
  (exists pk, first_sub (linreg_fits nb) subs1 pk <> None) -> synced st0 st1 ->
  exists n ans,
  both (linreg_op false order0 nb total0 (degree_wire degree ++ stream0) d0 junk0 garbage0 K rnd0 st0)
       (linreg_op true order1 nb total1 (degree_wire degree ++ stream1) d1 junk1 garbage1 K rnd1 st1)
    (fun a _ => fst a = outcome n total0 ans) /\
  both (linreg_op false order0 nb total0' (degree_wire degree ++ stream0') d0' junk0' garbage0 K rnd0 st0)
       (linreg_op true order1 nb total1' (degree_wire degree ++ stream1') d1' junk1' garbage1 K rnd1 st1)
    (fun a _ => fst a = outcome n total0' ans).
Proof.
  exact (linreg_op_once nb degree order0 order1 total0 total1 total0' total1' stream0 stream1 stream0' stream1'
    subs0 subs1 subs0' subs1' d0 d1 d0' d1' junk0 junk1 junk0' junk1' garbage0 garbage1 K rnd0 rnd1 st0 st1).
Qed.
Print Assumptions linreg_repeats.

(** ** Nothing to validate

    Finding: when no acceptable record arrives at server 1 (for instance because the
    client goes away at once) both servers read [circuit[0]] of an empty array. *)
Theorem var_nothing_undefined nb order0 order1 total0 total1 stream0 stream1 subs0 subs1 junk0 junk1 K rnd0 rnd1 st0 st1 :
  (nb <= 24)%nat -> fair order1 ->
  arrives_cut var_wire var_size total0 stream0 subs0 -> arrives_cut var_wire var_size total1 stream1 subs1 ->
  Forall (fun s => var_content (snd s)) subs0 -> Forall (fun s => var_content (snd s)) subs1 ->
  length junk0 = 48%nat -> length junk1 = 48%nat ->
  (forall pk, first_sub (var_fits nb) subs1 pk = None) ->
  ends 0 (var_op false order0 nb total0 stream0 junk0 K rnd0 st0) (var_op true order1 nb total1 stream1 junk1 K rnd1 st1)
    (Cfg Undef Undef [] []).
Proof. exact (var_nothing nb order0 order1 total0 total1 stream0 stream1 subs0 subs1 junk0 junk1 K rnd0 rnd1 st0 st1). Qed.
Print Assumptions var_nothing_undefined.
Theorem linreg_nothing_undefined nb degree order0 order1 total0 total1 stream0 stream1 subs0 subs1 d0 d1 junk0 junk1
  garbage0 garbage1 K rnd0 rnd1 st0 st1 :
  (nb <= 24)%nat -> (1 <= degree)%nat -> (num_quad degree + num_x degree < 2 ^ 18)%nat -> fair order1 ->
  arrives_cut linreg_wire (linreg_size degree) total0 stream0 subs0 ->
  arrives_cut linreg_wire (linreg_size degree) total1 stream1 subs1 ->
  Forall (fun s => linreg_content degree (snd s)) subs0 -> Forall (fun s => linreg_content degree (snd s)) subs1 ->
  length d0 = 8%nat -> length d1 = 8%nat -> length junk0 = 32%nat -> length junk1 = 32%nat ->
  (forall pk, first_sub (linreg_fits nb) subs1 pk = None) ->
  ends 0 (linreg_op false order0 nb total0 (degree_wire degree ++ stream0) d0 junk0 garbage0 K rnd0 st0)
         (linreg_op true order1 nb total1 (degree_wire degree ++ stream1) d1 junk1 garbage1 K rnd1 st1)
    (Cfg Undef Undef [] []).
Proof.
  exact (linreg_nothing nb degree order0 order1 total0 total1 stream0 stream1 subs0 subs1 d0 d1 junk0 junk1
    garbage0 garbage1 K rnd0 rnd1 st0 st1).
Qed.
Print Assumptions linreg_nothing_undefined.

(** ** Identities reveal private values *)
Theorem var_identity_reveals_next M g T n s l st' i d : prg_ok g ->
  requests_opt (var_request M g T) n (0%nat, s, None) = Some (l, st') -> (S i < n)%nat ->
  c_real (nth (S i) l d) = unhex (firstn 16 (c_pk (nth i l d))) mod M.
Proof. exact (var_next M g T n s l st' i d). Qed.
Print Assumptions var_identity_reveals_next.
(** For LINREG, the first two coordinates of x. *)
Theorem linreg_identity_reveals_next degree M g T n s l st' i d : prg_ok g ->
  requests_opt (linreg_request degree M g T) n (0%nat, s, None) = Some (l, st') -> (S i < n)%nat ->
  let x := fst (c_real (nth (S i) l d)) in
  ((1 <= num_x degree)%nat -> nth 0 x 0 = unhex (firstn 16 (c_pk (nth i l d))) mod M) /\
  ((2 <= num_x degree)%nat -> nth 1 x 0 = unhex (skipn 16 (c_pk (nth i l d))) mod M).
Proof. exact (linreg_next degree M g T n s l st' i d). Qed.
Print Assumptions linreg_identity_reveals_next.

(** ** Examples *)

(** Two honest requests of 3 bits. *)
Definition ex_vars : list (crec (Z * Z * ClientPacket) Z) :=
  match requests_opt (var_request 8 ex_prg ex_tape) 2 (0%nat, 0%nat, None) with Some (l, _) => l | None => [] end.
(** The first is sent twice; a third client claims 10 as the square of 3 and uses the
    packets of the first; it is followed by the beginning of a record. *)
Definition ex_vars0 : list (list Z * (Z * Z * ClientPacket)) :=
  subs0 ex_vars ++ firstn 1 (subs0 ex_vars) ++ [(ex_pk 99, (1, 4, snd (snd (hd (ex_pk 0, (0, 0, fst ex_packets)) (subs0 ex_vars)))))].
Definition ex_vars1 : list (list Z * (Z * Z * ClientPacket)) :=
  subs1 ex_vars ++ firstn 1 (subs1 ex_vars) ++ [(ex_pk 99, (2, 14, snd (snd (hd (ex_pk 0, (0, 0, fst ex_packets)) (subs1 ex_vars)))))].
Definition ex_cut : list Z := [48; 49; 50].
Lemma ex_vars_arrive0 : arrives_cut var_wire var_size 5 (wire var_wire ex_vars0 ++ ex_cut) ex_vars0.
Proof. exists ex_cut. split; [reflexivity|]. split; [right; vm_compute; lia|]. split; [vm_compute; repeat constructor|reflexivity]. Qed.
Lemma ex_vars_arrive1 : arrives_cut var_wire var_size 5 (wire var_wire ex_vars1 ++ ex_cut) ex_vars1.
Proof. exists ex_cut. split; [reflexivity|]. split; [right; vm_compute; lia|]. split; [vm_compute; repeat constructor|reflexivity]. Qed.
Ltac word_ok := split; [vm_compute; discriminate|vm_compute; reflexivity].
Ltac words_ok := repeat (apply Forall_cons; [word_ok|]); apply Forall_nil.
Ltac content :=
  split; [word_ok|]; split; [word_ok|]; split; [reflexivity|]; split; [reflexivity|];
  split; [words_ok|]; split; [word_ok|]; split; [word_ok|]; split; [word_ok|]; split; [words_ok|];
  split; [word_ok|]; split; word_ok.
Lemma ex_vars_content : Forall (fun s => var_content (snd s)) ex_vars0 /\ Forall (fun s => var_content (snd s)) ex_vars1.
Proof.
  split; [let l := eval vm_compute in ex_vars0 in change ex_vars0 with l|let l := eval vm_compute in ex_vars1 in change ex_vars1 with l];
    repeat (apply Forall_cons; [cbn [snd]; content|]); apply Forall_nil.
Qed.
Example ex_vars_first : exists pk, first_sub (var_fits 3) ex_vars1 pk <> None.
Proof. exists (ex_pk 99). vm_compute. discriminate. Qed.
Lemma accepted_listing {V} (ok : V -> bool) subs0 subs1 L : NoDup L ->
  Forall (fun pk => first_sub ok subs0 pk <> None /\ first_sub ok subs1 pk <> None) L -> incl (map fst subs0) L ->
  accepted ok subs0 subs1 L.
Proof.
  intros ND F I. split; [exact ND|]. rewrite Forall_forall in F. intros pk. split; [apply F|]. intros [H _].
  destruct (first_sub ok subs0 pk) as [v|] eqn:E; [|easy]. apply ServerCor.first_sub_in in E as [E _].
  apply I, in_map_iff. exists (pk, v). auto.
Qed.
(** The same by computation. *)
Definition known (pk : list Z) (L : list (list Z)) : bool := existsb (fun k => if list_eq_dec Z.eq_dec pk k then true else false) L.
Fixpoint distinct_keys (L : list (list Z)) : bool := match L with [] => true | k :: L' => negb (known k L') && distinct_keys L' end.
Definition found {V} (o : option V) : bool := match o with Some _ => true | None => false end.
Definition listing {V} (ok : V -> bool) (subs0 subs1 : list (list Z * V)) (L : list (list Z)) : bool :=
  distinct_keys L && forallb (fun pk => found (first_sub ok subs0 pk) && found (first_sub ok subs1 pk)) L &&
  forallb (fun pk => known pk L) (map fst subs0).
Lemma known_in pk L : known pk L = true <-> In pk L.
Proof.
  unfold known. rewrite existsb_exists. split.
  - intros (k & Hk & E). destruct (list_eq_dec Z.eq_dec pk k); [now subst|discriminate].
  - intros H. exists pk. split; [exact H|]. now destruct (list_eq_dec Z.eq_dec pk pk).
Qed.
Lemma distinct_nodup L : distinct_keys L = true -> NoDup L.
Proof.
  induction L as [|k L IH]; intros H; constructor; cbn [distinct_keys] in H; apply andb_true_iff in H as [H1 H2]; auto.
  intros I. apply known_in in I. now rewrite I in H1.
Qed.
Lemma accepted_computed {V} (ok : V -> bool) subs0 subs1 L : listing ok subs0 subs1 L = true -> accepted ok subs0 subs1 L.
Proof.
  intros H. apply andb_true_iff in H as [H H3]. apply andb_true_iff in H as [H1 H2].
  apply accepted_listing; [now apply distinct_nodup| |].
  - apply Forall_forall. intros pk Hp. rewrite forallb_forall in H2. specialize (H2 pk Hp).
    destruct (first_sub ok subs0 pk), (first_sub ok subs1 pk); (split; [discriminate|discriminate]) || discriminate H2.
  - intros pk Hp. rewrite forallb_forall in H3. now apply known_in, H3.
Qed.
Example ex_vars_accepted : accepted (var_fits 3) ex_vars0 ex_vars1 (map c_pk ex_vars ++ [ex_pk 99]).
Proof.
  apply accepted_computed. vm_compute. reflexivity.
Qed.
(** The hypotheses of [var_op_correct] hold of this example, and its result: both
    honest clients and the cheater are in [L], the cheater is not counted. *)
Example var_op_ex_values : map c_real ex_vars = [1; 2].
Proof. vm_compute. reflexivity. Qed.
Example var_op_ex : exists a b, always
  (var_op false id_order 3 4 (wire var_wire ex_vars0 ++ ex_cut) (repeat 7 48) (fun n => Z.of_nat n + 3) ex_tape (ex_state 5))
  (var_op true id_order 3 4 (wire var_wire ex_vars1 ++ ex_cut) (repeat 7 48) (fun n => Z.of_nat n + 3) ex_tape (ex_state 5)) a b /\
  (fst a, fst b) = (RET_ANS (2%nat, 1 + 2, 1 * 1 + 2 * 2), RET_NO_ANS).
Proof. apply (exec_obs_always 60 _ _ (fun a b => (fst a, fst b))). vm_compute. reflexivity. Qed.
(** The repetition in [ex_vars0] is one in the sense of [var_repeats]. *)
Example var_repeats_ex : repeats (var_fits 3) (subs0 ex_vars ++ skipn 3 ex_vars0) ex_vars0.
Proof.
  let l := eval vm_compute in ex_vars0 in match l with
  | ?x1 :: ?x2 :: (?k, ?v') :: ?c =>
      match x1 with (_, ?v) => exact (rep_add _ _ [] k v [x2] v' c (rep_refl _ _) eq_refl) end
  end.
Qed.
(** The claim of the cheater. *)
Example var_cheater_ex : var_opened (1, 4, fst ex_packets) (2, 14, snd ex_packets) = [3; 10] /\ 10 mod p <> (3 * 3) mod p.
Proof. split; [reflexivity|vm_compute; discriminate]. Qed.

(** The client goes away at once. *)
Example var_nothing_ex : arrives_cut var_wire var_size 1 ([] : list Z) [] /\ forall pk, first_sub (var_fits 3) [] pk = None.
Proof. split; [|reflexivity]. exists []. split; [reflexivity|]. split; [right; vm_compute; lia|]. split; [constructor|reflexivity]. Qed.

(** Two honest LINREG requests with two features and 3 bits; 5 records expected, so
    that two are too few; and with 4 expected. *)
Definition ex_prg' : prg := fun i => le_bytes 16 ((Z.of_nat (3 * i) + 1) * (2 ^ 64 + 5)).
Definition ex_lin : list (crec (linreg_vals * ClientPacket) (list Z * Z)) :=
  match requests_opt (linreg_request 3 8 ex_prg' ex_tape) 2 (0%nat, 0%nat, None) with Some (l, _) => l | None => [] end.
Example ex_lin_values : map c_real ex_lin = [([5; 1], 0); ([6; 6], 1)].
Proof. vm_compute. reflexivity. Qed.
Definition ex_garbage (i : nat) : list Z * list Z * list Z := ([1; 2], [3; 4; 5], [6; 7]).
Example ex_garbage_ok : forall i, let '(x, x2, xy) := ex_garbage i in linreg_shape 3 (x, 0, x2, xy).
Proof.
  intros i. split; [reflexivity|]. split; [reflexivity|]. split; [reflexivity|].
  split; [words_ok|]. split; [word_ok|]. split; words_ok.
Qed.
Definition ex_lin_run (total : nat) :=
  exec_obs 400
  (linreg_op false id_order 3 total (degree_wire 3 ++ wire linreg_wire (subs0 ex_lin)) (repeat 0 8) (repeat 7 32) ex_garbage
     (fun n => Z.of_nat n + 3) ex_tape (ex_state 5))
  (linreg_op true id_order 3 total (degree_wire 3 ++ wire linreg_wire (subs1 ex_lin)) (repeat 0 8) (repeat 7 32) ex_garbage
     (fun n => Z.of_nat n + 3) ex_tape (ex_state 5)) (fun a b => (fst a, fst b)).
Example linreg_op_ex4 : ex_lin_run 4 = Some (RET_ANS (moments 3 2 (fun j =>
   nth j (linreg_fields ([5; 1], 0)) 0 + nth j (linreg_fields ([6; 6], 1)) 0)), RET_NO_ANS).
Proof. vm_compute. reflexivity. Qed.
Example linreg_op_ex5 : ex_lin_run 5 = Some (RET_INVALID, RET_NO_ANS).
Proof. vm_compute. reflexivity. Qed.
