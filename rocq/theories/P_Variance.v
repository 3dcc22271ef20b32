(** * VAR and STDDEV as floating point numbers (C49)

    [var_double], [var_final] (Variance.v): the [double] that the server prints.  [B2R]: the
    real number a double stands for.  SpecVariance.v: the variance over the reals.
    9007199254740992 = 2^53.  These theorems use the axioms of the standard library's
    real numbers. *)
From Coq Require Import ZArith Reals List Lia.
From Flocq Require Import BinarySingleNaN.
From Verif Require Import Words Constants Share Proc ProcFacts Net SpecNet RelFacts SpecPoly Circuit SpecCircuit
  Snip SpecSnip ServerOps SpecServer ClientOps SpecClient SpecStat ClientFacts P_Client P_Stat
  Variance SpecVariance VarianceFacts.
Import ListNotations.
Open Scope R_scope.

(** For non-negative values the sum of whose squares does not exceed the modulus, the
    answer of VAR is a number, not negative, zero exactly if all values agree, and off by at
    most 6 units of rounding of the mean of the squares. *)
Theorem var_accurate xs :
  xs <> [] -> Forall (fun x => (0 <= x)%Z) xs -> (total_squares xs < p)%Z -> (Z.of_nat (length xs) < two32)%Z ->
  let d := var_final false (Z.of_nat (length xs)) (total xs) (total_squares xs) in
  is_finite d = true /\ 0 <= B2R d /\ (B2R d = 0 <-> all_equal xs) /\
  Rabs (B2R d - variance xs) <= 6 * / 9007199254740992 * mean_square xs.
Proof. exact (var_close xs). Qed.
Print Assumptions var_accurate.

(** STDDEV is then a number as well (the argument of [sqrt] is never negative). *)
Theorem stddev_accurate xs :
  xs <> [] -> Forall (fun x => (0 <= x)%Z) xs -> (total_squares xs < p)%Z -> (Z.of_nat (length xs) < two32)%Z ->
  let d := var_final true (Z.of_nat (length xs)) (total xs) (total_squares xs) in
  is_finite d = true /\ 0 <= B2R d /\ (B2R d = 0 <-> all_equal xs) /\
  Rabs (B2R d - sqrt (variance xs)) * sqrt (variance xs) <= 8 * / 9007199254740992 * mean_square xs.
Proof. exact (stddev_close xs). Qed.
Print Assumptions stddev_accurate.

(** When the sum of the squares exceeds the modulus this fails: two clients, both holding
    the largest 24-bit value; STDDEV prints NaN instead of 0. *)
Theorem stddev_number_refuted :
  exists xs, xs <> [] /\ Forall (fun x => (0 <= x < 2 ^ 24)%Z) xs /\ all_equal xs /\
    is_nan (var_final true (Z.of_nat (length xs)) (total xs mod p) (total_squares xs mod p)) = true /\
    (let d := var_final false (Z.of_nat (length xs)) (total xs mod p) (total_squares xs mod p) in
     is_finite d = true /\ Bsign d = true).
Proof.
  exists [16777215; 16777215]%Z. split; [discriminate|]. split; [repeat constructor; lia|].
  split; [intros x y [<-|[<-|[]]] [<-|[<-|[]]]; reflexivity|]. split; [vm_compute; reflexivity|].
  cbv zeta. split; vm_compute; reflexivity.
Qed.
Print Assumptions stddev_number_refuted.

(** A whole run of honest clients. *)
Theorem var_run_double nb g T s n order0 order1 junk0 junk1 K rnd0 rnd1 st0 st1 :
  (nb <= 24)%nat -> (Z.of_nat n * 2 ^ Z.of_nat (2 * nb) <= p)%Z ->
  prg_ok g -> (0 < n)%nat -> (Z.of_nat n < two32)%Z -> fair order1 ->
  length junk0 = 48%nat -> length junk1 = 48%nat -> synced st0 st1 ->
  exists l st' stream0 stream1,
    requests_opt (var_request (2 ^ Z.of_nat nb) g T) n (0%nat, s, None) = Some (l, st') /\ length l = n /\
    wire_opt VarShare_bytes (subs0 l) = Some stream0 /\ wire_opt VarShare_bytes (subs1 l) = Some stream1 /\
    (let xs := map (fun r => c_real r) l in
     both (var_op false order0 nb n stream0 junk0 K rnd0 st0) (var_op true order1 nb n stream1 junk1 K rnd1 st1)
       (fun a _ => exists b b2, fst a = RET_ANS (n, b, b2) /\
          Rabs (B2R (var_final false (Z.of_nat n) b b2) - variance xs) <= 6 * / 9007199254740992 * mean_square xs /\
          is_finite (var_final true (Z.of_nat n) b b2) = true /\
          Rabs (B2R (var_final true (Z.of_nat n) b b2) - sqrt (variance xs)) * sqrt (variance xs)
            <= 8 * / 9007199254740992 * mean_square xs)).
Proof.
  intros HB HP HG HN HN2 HF J0 J1 SY.
  destruct (var_run nb g T s n order0 order1 junk0 junk1 K rnd0 rnd1 st0 st1 HB HG HN HN2 HF J0 J1 SY)
    as (l & st' & s0 & s1 & A & LL & B & C & D).
  exists l, st', s0, s1. split; [exact A|]. split; [exact LL|]. split; [exact B|]. split; [exact C|].
  intros xs. cbv zeta in D. destruct D as [D _].
  destruct (var_sums_exact nb g T s n l st' ltac:(lia) HN A HP) as [E1 E2].
  eapply ClientFacts.both_impl; [|exact D]. cbv beta. intros a b0 (_ & EA & _).
  rewrite E1, E2 in EA.
  assert (T1 : zsum (map c_real l) = total xs) by reflexivity.
  assert (T2 : zsum (map (fun r => c_real r * c_real r)%Z l) = total_squares xs).
  { unfold total_squares, xs. rewrite map_map. reflexivity. }
  rewrite T1, T2 in EA. exists (total xs), (total_squares xs). split; [exact EA|].
  assert (LX : length xs = n) by (unfold xs; rewrite map_length; exact LL).
  assert (NE : xs <> []) by (intros E; rewrite E in LX; cbn in LX; lia).
  assert (PO : Forall (fun x => (0 <= x)%Z) xs).
  { apply Forall_forall. intros x Hx. unfold xs in Hx. apply in_map_iff in Hx as (r & <- & Hr).
    destruct (StatClient.var_real_range nb g T s n l st' ltac:(lia) A) as [_ HR]. specialize (HR r Hr). lia. }
  assert (SM : (total_squares xs < p)%Z).
  { rewrite <- T2, <- E2. apply Z.mod_pos_bound. reflexivity. }
  pose proof (var_accurate xs NE PO SM ltac:(lia)) as VA. pose proof (stddev_accurate xs NE PO SM ltac:(lia)) as SA.
  cbv zeta in VA, SA. rewrite LX in VA, SA. split; [apply VA|]. split; [apply SA|apply SA].
Qed.
Print Assumptions var_run_double.

(** Values 1, 2, 3: the variance is 2/3; the sum of squares is far below the modulus. *)
Example var_ex : match var_final false 3 6 14 with B754_finite s m e _ => (s, Zpos m, e) | _ => (true, 0%Z, 0%Z) end
  = (false, 6004799503160664, -53)%Z.
Proof. vm_compute. reflexivity. Qed.
Example var_ex_hyp : ((total_squares [1; 2; 3] < p) /\ total [1; 2; 3] = 6 /\ total_squares [1; 2; 3] = 14)%Z.
Proof. repeat split; reflexivity. Qed.
