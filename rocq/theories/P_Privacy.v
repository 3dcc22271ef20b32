(** * C51: during an operation, a server that follows its program learns only the aggregate *)
From Coq Require Import ZArith List Bool Lia Permutation.
From Verif Require Import Words WordsFacts Constants Share Proc Net OT ServerOps ClientOps SpecNet SpecShare SpecServer SpecClient SpecSecret
  SpecPrivacy ServerProps ClientFacts SecretFacts ViewFacts PrivacyProof PrivacyExact P_Server P_Secret.
Import ListNotations.
Open Scope Z_scope.

(** Vocabulary in SpecPrivacy.v ([sees0], [sees1], [by_keys], [ids], [separate], [row_of]) and
    SpecSecret.v ([seen], [is_blocks]).

    ** Any submissions, cheaters and repeated identities included.

    What server 0 sees is a function [view] of its own submissions, of the identities server 1
    has, and of one number: the sum of the accepted values. *)

Theorem bit_sum_view0 : forall order0 order1 total0 stream0 subs0 junk0 rnd0 L keys,
  fair order1 -> by_keys order1 -> arrives bit_wire total0 stream0 subs0 -> length junk0 = 33%nat ->
  exists view, forall total1 stream1 subs1 junk1 rnd1,
    arrives bit_wire total1 stream1 subs1 -> length junk1 = 33%nat ->
    accepted any subs0 subs1 L -> ids any subs1 = keys ->
    sees0 (bit_sum false order0 total0 stream0 junk0 rnd0) (bit_sum true order1 total1 stream1 junk1 rnd1)
      (view (zsum (map (combined any bit_val 0 subs0 subs1) L))).
Proof. exact bit_view_sum. Qed.
Print Assumptions bit_sum_view0.

Theorem int_sum_view0 : forall nb order0 order1 total0 stream0 subs0 junk0 rnd0 L keys,
  (nb <= 63)%nat -> fair order1 -> by_keys order1 -> arrives int_wire total0 stream0 subs0 ->
  Forall (fun s => word (snd s)) subs0 -> length junk0 = 40%nat ->
  exists view, forall total1 stream1 subs1 junk1 rnd1,
    arrives int_wire total1 stream1 subs1 -> Forall (fun s => word (snd s)) subs1 -> length junk1 = 40%nat ->
    accepted (fits nb) subs0 subs1 L -> ids (fits nb) subs1 = keys ->
    sees0 (int_sum false order0 nb total0 stream0 junk0 rnd0) (int_sum true order1 nb total1 stream1 junk1 rnd1)
      (view (zsum (map (combined (fits nb) Z.lxor 0 subs0 subs1) L) mod two64)).
Proof. exact int_view_sum. Qed.
Print Assumptions int_sum_view0.

(** Server 1 sees the same whatever server 0's submissions hold (identities apart), for some
    choice of server 0's masks. *)
Theorem bit_sum_view1 : forall order0 order1 total0 total0' total1 stream0 stream0' stream1 subs0 subs0' subs1 junk0 junk0' junk1 rnd0 rnd1,
  fair order1 -> arrives bit_wire total0 stream0 subs0 -> arrives bit_wire total0' stream0' subs0' ->
  arrives bit_wire total1 stream1 subs1 ->
  length junk0 = 33%nat -> length junk0' = 33%nat -> length junk1 = 33%nat -> ids any subs0 = ids any subs0' ->
  exists rnd0' v,
    sees1 (bit_sum false order0 total0 stream0 junk0 rnd0) (bit_sum true order1 total1 stream1 junk1 rnd1) v /\
    sees1 (bit_sum false order0 total0' stream0' junk0' rnd0') (bit_sum true order1 total1 stream1 junk1 rnd1) v.
Proof. exact bit_views_alike. Qed.
Print Assumptions bit_sum_view1.

Theorem int_sum_view1 : forall nb order0 order1 total0 total0' total1 stream0 stream0' stream1 subs0 subs0' subs1 junk0 junk0' junk1 rnd0 rnd1,
  (nb <= 63)%nat -> fair order1 -> arrives int_wire total0 stream0 subs0 -> arrives int_wire total0' stream0' subs0' ->
  arrives int_wire total1 stream1 subs1 ->
  Forall (fun s => word (snd s)) subs0 -> Forall (fun s => word (snd s)) subs0' -> Forall (fun s => word (snd s)) subs1 ->
  length junk0 = 40%nat -> length junk0' = 40%nat -> length junk1 = 40%nat -> ids (fits nb) subs0 = ids (fits nb) subs0' ->
  exists rnd0' v,
    sees1 (int_sum false order0 nb total0 stream0 junk0 rnd0) (int_sum true order1 nb total1 stream1 junk1 rnd1) v /\
    sees1 (int_sum false order0 nb total0' stream0' junk0' rnd0') (int_sum true order1 nb total1 stream1 junk1 rnd1) v.
Proof. exact int_views_alike. Qed.
Print Assumptions int_sum_view1.

(** AND and OR: server 0 sees a function of the xor of the accepted encodings, server 1 nothing. *)
Theorem and_or_view0 : forall is_and order0 order1 total0 stream0 subs0 junk0 L keys,
  fair order1 -> by_keys order1 -> arrives int_wire total0 stream0 subs0 ->
  Forall (fun s => word (snd s)) subs0 -> length junk0 = 40%nat ->
  exists view, forall total1 stream1 subs1 junk1,
    arrives int_wire total1 stream1 subs1 -> Forall (fun s => word (snd s)) subs1 -> length junk1 = 40%nat ->
    accepted any subs0 subs1 L -> ids any subs1 = keys ->
    sees0 (xor_op false order0 is_and total0 stream0 junk0) (xor_op true order1 is_and total1 stream1 junk1)
      (view (zxors (map (combined any Z.lxor 0 subs0 subs1) L))).
Proof. exact xor_view_xor. Qed.
Print Assumptions and_or_view0.

Theorem and_or_view1 : forall is_and order0 order1 total1 stream1 subs1 junk1 keys,
  fair order1 -> arrives int_wire total1 stream1 subs1 ->
  Forall (fun s => word (snd s)) subs1 -> length junk1 = 40%nat ->
  exists v, forall total0 stream0 subs0 junk0,
    arrives int_wire total0 stream0 subs0 -> Forall (fun s => word (snd s)) subs0 -> length junk0 = 40%nat ->
    ids any subs0 = keys ->
    sees1 (xor_op false order0 is_and total0 stream0 junk0) (xor_op true order1 is_and total1 stream1 junk1) v.
Proof. exact xor_view_fixed. Qed.
Print Assumptions and_or_view1.

(** MAX and MIN: a function of the xored row; server 1 nothing. *)
Theorem max_min_view0 : forall is_max B order0 order1 total0 stream0 subs0 pk0 junk0 L keys,
  fair order1 -> by_keys order1 -> arrives max_wire total0 stream0 subs0 -> rows_ok B subs0 ->
  Z.of_nat total0 * (Z.of_nat B + 1) < two32 -> length pk0 = 32%nat -> (forall i, length (junk0 i) = (8 * (B + 1))%nat) ->
  exists view, forall total1 stream1 subs1 pk1 junk1,
    arrives max_wire total1 stream1 subs1 -> rows_ok B subs1 ->
    Z.of_nat total1 * (Z.of_nat B + 1) < two32 -> length pk1 = 32%nat -> (forall i, length (junk1 i) = (8 * (B + 1))%nat) ->
    accepted any subs0 subs1 L -> ids any subs1 = keys ->
    (2 * length L < total0)%nat \/ Exists (fun x => x <> 0) (row_of B subs0 subs1 L) ->
    sees0 (max_op false order0 is_max B total0 stream0 pk0 junk0) (max_op true order1 is_max B total1 stream1 pk1 junk1)
      (view (row_of B subs0 subs1 L)).
Proof. exact max_view_row. Qed.
Print Assumptions max_min_view0.

Theorem max_min_view1 : forall is_max B order0 order1 total1 stream1 subs1 pk1 junk1 L keys,
  fair order1 -> arrives max_wire total1 stream1 subs1 -> rows_ok B subs1 ->
  Z.of_nat total1 * (Z.of_nat B + 1) < two32 -> length pk1 = 32%nat -> (forall i, length (junk1 i) = (8 * (B + 1))%nat) ->
  exists v, forall total0 stream0 subs0 pk0 junk0,
    arrives max_wire total0 stream0 subs0 -> rows_ok B subs0 ->
    Z.of_nat total0 * (Z.of_nat B + 1) < two32 -> length pk0 = 32%nat -> (forall i, length (junk0 i) = (8 * (B + 1))%nat) ->
    accepted any subs0 subs1 L -> ids any subs0 = keys ->
    (2 * length L < total0)%nat \/ Exists (fun x => x <> 0) (row_of B subs0 subs1 L) ->
    sees1 (max_op false order0 is_max B total0 stream0 pk0 junk0) (max_op true order1 is_max B total1 stream1 pk1 junk1) v.
Proof. exact max_view_fixed. Qed.
Print Assumptions max_min_view1.

(** Server 0 does learn the sum, and also when the operation is refused because too many
    submissions were bad (the other server's answer is the same in both cases). *)
Theorem refused_sum_known : forall nb order0 order1 total0 stream0 subs0 junk0 rnd0 L keys,
  (nb <= 63)%nat -> fair order1 -> by_keys order1 -> arrives int_wire total0 stream0 subs0 ->
  Forall (fun s => word (snd s)) subs0 -> length junk0 = 40%nat ->
  exists decode, forall total1 stream1 subs1 junk1 rnd1 v,
    arrives int_wire total1 stream1 subs1 -> Forall (fun s => word (snd s)) subs1 -> length junk1 = 40%nat ->
    accepted (fits nb) subs0 subs1 L -> ids (fits nb) subs1 = keys ->
    sees0 (int_sum false order0 nb total0 stream0 junk0 rnd0) (int_sum true order1 nb total1 stream1 junk1 rnd1) v ->
    decode (fst v) = zsum (map (combined (fits nb) Z.lxor 0 subs0 subs1) L) mod two64.
Proof. exact int_sum_readable. Qed.
Print Assumptions refused_sum_known.

(** ** Honest clients, each with its own generator.

    Any other private values [vs] with the same sum, for some other draws [gs'] of the clients,
    give server 0 the same records, the same messages and the same answer. *)
Theorem bit_sum_private0 : forall gs vs order0 order1 junk0 junk1 rnd0 rnd1,
  fair order1 -> by_keys order1 -> length junk0 = 33%nat -> length junk1 = 33%nat ->
  Forall is_blocks gs -> Z.of_nat (length gs) < two32 -> NoDup (map c_pk (separate bit_request gs)) ->
  length vs = length gs -> zsum (map b2z vs) = zsum (map (fun r => b2z (c_real r)) (separate bit_request gs)) ->
  exists gs', Forall is_blocks gs' /\ map c_real (separate bit_request gs') = vs /\
    seen false (separate bit_request gs') = seen false (separate bit_request gs) /\
    exists v, forall h, h = gs \/ h = gs' ->
      sees0 (bit_sum false order0 (length h) (wire BitShare_bytes (subs0 (separate bit_request h))) junk0 rnd0)
            (bit_sum true order1 (length h) (wire BitShare_bytes (subs1 (separate bit_request h))) junk1 rnd1) v.
Proof. exact bit_server0. Qed.
Print Assumptions bit_sum_private0.

Theorem int_sum_private0 : forall nb gs vs order0 order1 junk0 junk1 rnd0 rnd1,
  let one := int_request (2 ^ Z.of_nat nb) in
  (nb <= 63)%nat -> fair order1 -> by_keys order1 -> length junk0 = 40%nat -> length junk1 = 40%nat ->
  Forall is_blocks gs -> Z.of_nat (length gs) < two32 -> NoDup (map c_pk (separate one gs)) ->
  length vs = length gs -> Forall (fun v => 0 <= v < 2 ^ Z.of_nat nb) vs ->
  zsum vs mod two64 = zsum (map c_real (separate one gs)) mod two64 ->
  exists gs', Forall is_blocks gs' /\ map c_real (separate one gs') = vs /\
    seen false (separate one gs') = seen false (separate one gs) /\
    exists v, forall h, h = gs \/ h = gs' ->
      sees0 (int_sum false order0 nb (length h) (wire IntShare_bytes (subs0 (separate one h))) junk0 rnd0)
            (int_sum true order1 nb (length h) (wire IntShare_bytes (subs1 (separate one h))) junk1 rnd1) v.
Proof. exact int_server0. Qed.
Print Assumptions int_sum_private0.

(** AND and OR: other bits, not all neutral unless all bits were. *)
Theorem and_or_private0 : forall is_and gs vs order0 order1 junk0 junk1,
  let one := xor_request is_and in
  fair order1 -> by_keys order1 -> length junk0 = 40%nat -> length junk1 = 40%nat ->
  Forall is_blocks gs -> Z.of_nat (length gs) < two32 -> NoDup (map c_pk (separate one gs)) ->
  length vs = length gs ->
  ((forall v, In v vs -> v = is_and) -> forall r, In r (separate one gs) -> c_real r = is_and) ->
  exists gs', Forall is_blocks gs' /\ map c_real (separate one gs') = vs /\
    seen false (separate one gs') = seen false (separate one gs) /\
    exists v, forall h, h = gs \/ h = gs' ->
      sees0 (xor_op false order0 is_and (length h) (wire IntShare_bytes (subs0 (separate one h))) junk0)
            (xor_op true order1 is_and (length h) (wire IntShare_bytes (subs1 (separate one h))) junk1) v.
Proof. exact xor_server0. Qed.
Print Assumptions and_or_private0.

(** MAX and MIN: other values with an extremum at least as extreme.  (The condition on the row:
    the operation is undefined when it is zero, see [max_min_undefined].) *)
Theorem max_min_private0 : forall is_max B gs vs order0 order1 pk0 pk1 junk0 junk1,
  let one := max_request is_max B in
  Z.of_nat (length gs) * (Z.of_nat B + 1) < two32 ->
  fair order1 -> by_keys order1 -> length pk0 = 32%nat -> length pk1 = 32%nat ->
  (forall i, length (junk0 i) = (8 * (B + 1))%nat) -> (forall i, length (junk1 i) = (8 * (B + 1))%nat) ->
  Forall is_blocks gs -> NoDup (map c_pk (separate one gs)) ->
  Exists (fun x => x <> 0) (row_of B (subs0 (separate one gs)) (subs1 (separate one gs)) (map c_pk (separate one gs))) ->
  length vs = length gs -> Forall (fun v => (v <= B)%nat) vs ->
  (exists v, In v vs /\ forall r, In r (separate one gs) -> if is_max then (c_real r <= v)%nat else (v <= c_real r)%nat) ->
  exists gs', Forall is_blocks gs' /\ map c_real (separate one gs') = vs /\
    seen false (separate one gs') = seen false (separate one gs) /\
    exists v, forall h, h = gs \/ h = gs' ->
      sees0 (max_op false order0 is_max B (length h) (wire maxshare_bytes (subs0 (separate one h))) pk0 junk0)
            (max_op true order1 is_max B (length h) (wire maxshare_bytes (subs1 (separate one h))) pk1 junk1) v.
Proof. exact max_server0. Qed.
Print Assumptions max_min_private0.

(** Server 1: any other private values whatever. *)
Theorem bit_sum_private1 : forall gs vs order0 order1 junk0 junk1 rnd0 rnd1,
  fair order1 -> length junk0 = 33%nat -> length junk1 = 33%nat ->
  Forall is_blocks gs -> Z.of_nat (length gs) < two32 -> length vs = length gs ->
  exists gs' rnd0', Forall is_blocks gs' /\ map c_real (separate bit_request gs') = vs /\
    seen true (separate bit_request gs') = seen true (separate bit_request gs) /\
    exists v, forall h, h = (gs, rnd0) \/ h = (gs', rnd0') ->
      sees1 (bit_sum false order0 (length (fst h)) (wire BitShare_bytes (subs0 (separate bit_request (fst h)))) junk0 (snd h))
            (bit_sum true order1 (length (fst h)) (wire BitShare_bytes (subs1 (separate bit_request (fst h)))) junk1 rnd1) v.
Proof. exact bit_server1. Qed.
Print Assumptions bit_sum_private1.

Theorem int_sum_private1 : forall nb gs vs order0 order1 junk0 junk1 rnd0 rnd1,
  let one := int_request (2 ^ Z.of_nat nb) in
  (nb <= 63)%nat -> fair order1 -> length junk0 = 40%nat -> length junk1 = 40%nat ->
  Forall is_blocks gs -> Z.of_nat (length gs) < two32 ->
  length vs = length gs -> Forall (fun v => 0 <= v < 2 ^ Z.of_nat nb) vs ->
  exists gs' rnd0', Forall is_blocks gs' /\ map c_real (separate one gs') = vs /\
    seen true (separate one gs') = seen true (separate one gs) /\
    exists v, forall h, h = (gs, rnd0) \/ h = (gs', rnd0') ->
      sees1 (int_sum false order0 nb (length (fst h)) (wire IntShare_bytes (subs0 (separate one (fst h)))) junk0 (snd h))
            (int_sum true order1 nb (length (fst h)) (wire IntShare_bytes (subs1 (separate one (fst h)))) junk1 rnd1) v.
Proof. exact int_server1. Qed.
Print Assumptions int_sum_private1.

Theorem and_or_private1 : forall is_and gs vs order0 order1 junk0 junk1,
  let one := xor_request is_and in
  fair order1 -> length junk0 = 40%nat -> length junk1 = 40%nat ->
  Forall is_blocks gs -> Z.of_nat (length gs) < two32 -> length vs = length gs ->
  exists gs', Forall is_blocks gs' /\ map c_real (separate one gs') = vs /\
    seen true (separate one gs') = seen true (separate one gs) /\
    exists v, forall h, h = gs \/ h = gs' ->
      sees1 (xor_op false order0 is_and (length h) (wire IntShare_bytes (subs0 (separate one h))) junk0)
            (xor_op true order1 is_and (length h) (wire IntShare_bytes (subs1 (separate one h))) junk1) v.
Proof. exact xor_server1. Qed.
Print Assumptions and_or_private1.

Theorem max_min_private1 : forall is_max B gs vs order0 order1 pk0 pk1 junk0 junk1,
  let one := max_request is_max B in
  Z.of_nat (length gs) * (Z.of_nat B + 1) < two32 ->
  fair order1 -> length pk0 = 32%nat -> length pk1 = 32%nat ->
  (forall i, length (junk0 i) = (8 * (B + 1))%nat) -> (forall i, length (junk1 i) = (8 * (B + 1))%nat) ->
  Forall is_blocks gs -> NoDup (map c_pk (separate one gs)) ->
  Exists (fun x => x <> 0) (row_of B (subs0 (separate one gs)) (subs1 (separate one gs)) (map c_pk (separate one gs))) ->
  length vs = length gs -> Forall (fun v => (v <= B)%nat) vs ->
  exists gs', Forall is_blocks gs' /\ map c_real (separate one gs') = vs /\
    seen true (separate one gs') = seen true (separate one gs) /\
    exists v, forall h, h = gs \/ h = gs' ->
      sees1 (max_op false order0 is_max B (length h) (wire maxshare_bytes (subs0 (separate one h))) pk0 junk0)
            (max_op true order1 is_max B (length h) (wire maxshare_bytes (subs1 (separate one h))) pk1 junk1) v.
Proof. exact max_server1. Qed.
Print Assumptions max_min_private1.

(** ** The same with distributions

    BIT_SUM and INT_SUM: for private values [vs] and [vs'] with the same sum there are fixed
    blocks [ds], chosen before the draws, such that xoring the clients' blocks with them turns
    draws giving [vs] into draws giving [vs'], and server 0 sees the same.  As this map is its own
    inverse, what server 0 sees has the same distribution for [vs] and for [vs']. *)
Theorem bit_sum_exact0 : forall vs vs', length vs' = length vs -> zsum (map b2z vs') = zsum (map b2z vs) ->
  exists ds, forall gs order0 order1 junk0 junk1 rnd0 rnd1,
    fair order1 -> by_keys order1 -> length junk0 = 33%nat -> length junk1 = 33%nat ->
    Forall is_blocks gs -> Z.of_nat (length gs) < two32 -> NoDup (map c_pk (separate bit_request gs)) ->
    map c_real (separate bit_request gs) = vs ->
    let gs' := map2 xor_tape gs ds in
    Forall is_blocks gs' /\ map c_real (separate bit_request gs') = vs' /\
    seen false (separate bit_request gs') = seen false (separate bit_request gs) /\
    exists v, forall h, h = gs \/ h = gs' ->
      sees0 (bit_sum false order0 (length h) (wire BitShare_bytes (subs0 (separate bit_request h))) junk0 rnd0)
            (bit_sum true order1 (length h) (wire BitShare_bytes (subs1 (separate bit_request h))) junk1 rnd1) v.
Proof. exact bit_exact0. Qed.
Print Assumptions bit_sum_exact0.

Theorem int_sum_exact0 : forall nb vs vs', (nb <= 63)%nat -> length vs' = length vs ->
  Forall (fun v => 0 <= v < 2 ^ Z.of_nat nb) vs -> Forall (fun v => 0 <= v < 2 ^ Z.of_nat nb) vs' ->
  zsum vs' mod two64 = zsum vs mod two64 ->
  let one := int_request (2 ^ Z.of_nat nb) in
  exists ds, forall gs order0 order1 junk0 junk1 rnd0 rnd1,
    fair order1 -> by_keys order1 -> length junk0 = 40%nat -> length junk1 = 40%nat ->
    Forall is_blocks gs -> Z.of_nat (length gs) < two32 -> NoDup (map c_pk (separate one gs)) ->
    map c_real (separate one gs) = vs ->
    let gs' := map2 xor_tape gs ds in
    Forall is_blocks gs' /\ map c_real (separate one gs') = vs' /\
    seen false (separate one gs') = seen false (separate one gs) /\
    exists v, forall h, h = gs \/ h = gs' ->
      sees0 (int_sum false order0 nb (length h) (wire IntShare_bytes (subs0 (separate one h))) junk0 rnd0)
            (int_sum true order1 nb (length h) (wire IntShare_bytes (subs1 (separate one h))) junk1 rnd1) v.
Proof. exact int_exact0. Qed.
Print Assumptions int_sum_exact0.

(** Server 1, for any [vs] and [vs']; here server 0's masks have to change as well.  In either
    case exactly one choice of the masks gives what server 1 sees. *)
Theorem bit_sum_exact1 : forall vs vs', length vs' = length vs ->
  exists ds, forall gs order0 order1 junk0 junk1 rnd0 rnd1,
    fair order1 -> length junk0 = 33%nat -> length junk1 = 33%nat ->
    Forall is_blocks gs -> Z.of_nat (length gs) < two32 -> NoDup (map c_pk (separate bit_request gs)) ->
    map c_real (separate bit_request gs) = vs ->
    let gs' := map2 xor_tape gs ds in
    Forall is_blocks gs' /\ map c_real (separate bit_request gs') = vs' /\
    seen true (separate bit_request gs') = seen true (separate bit_request gs) /\
    exists rnd0' v, forall h rnd, h = gs /\ rnd = rnd0 \/ h = gs' /\ rnd = rnd0' ->
      let run q := sees1
            (bit_sum false order0 (length h) (wire BitShare_bytes (subs0 (separate bit_request h))) junk0 q)
            (bit_sum true order1 (length h) (wire BitShare_bytes (subs1 (separate bit_request h))) junk1 rnd1) v in
      run rnd /\ forall q, run q -> forall i, (i < length gs)%nat -> q i mod two64 = rnd i mod two64.
Proof. exact bit_exact1. Qed.
Print Assumptions bit_sum_exact1.

Theorem int_sum_exact1 : forall nb vs vs', (nb <= 63)%nat -> length vs' = length vs ->
  Forall (fun v => 0 <= v < 2 ^ Z.of_nat nb) vs -> Forall (fun v => 0 <= v < 2 ^ Z.of_nat nb) vs' ->
  let one := int_request (2 ^ Z.of_nat nb) in
  exists ds, forall gs order0 order1 junk0 junk1 rnd0 rnd1,
    fair order1 -> length junk0 = 40%nat -> length junk1 = 40%nat ->
    Forall is_blocks gs -> Z.of_nat (length gs) < two32 -> NoDup (map c_pk (separate one gs)) ->
    map c_real (separate one gs) = vs ->
    let gs' := map2 xor_tape gs ds in
    Forall is_blocks gs' /\ map c_real (separate one gs') = vs' /\
    seen true (separate one gs') = seen true (separate one gs) /\
    exists rnd0' v, forall h rnd, h = gs /\ rnd = rnd0 \/ h = gs' /\ rnd = rnd0' ->
      let run q := sees1
            (int_sum false order0 nb (length h) (wire IntShare_bytes (subs0 (separate one h))) junk0 q)
            (int_sum true order1 nb (length h) (wire IntShare_bytes (subs1 (separate one h))) junk1 rnd1) v in
      run rnd /\ forall q, run q -> forall i, (i < length gs * nb)%nat -> q i mod two64 = rnd i mod two64.
Proof. exact int_exact1. Qed.
Print Assumptions int_sum_exact1.

(** ** Examples *)
Lemma id_by_keys : by_keys id_order. Proof. intros V m m' E. exact E. Qed.
(** Three clients with values 9, 2 and 12; server 0 would see the same with 1, 15 and 7. *)
Definition ex_gen (a b c : Z) : prg := fun i => le_bytes 16 (match i with O => a | S O => b | _ => c end).
Definition ex_gens : list prg := [ex_gen 9 5 1; ex_gen 2 7 2; ex_gen 12 0 3].
Lemma ex_gens_blocks : Forall is_blocks ex_gens.
Proof.
  assert (H : forall a b c, is_blocks (ex_gen a b c)).
  { intros a b c i. unfold ex_gen. rewrite le_bytes_length. split; [reflexivity|apply le_bytes_bytes]. }
  repeat (apply Forall_cons; [apply H|]). apply Forall_nil.
Qed.
Example int_private_ex :
  map c_real (separate (int_request (2 ^ Z.of_nat 4)) ex_gens) = [9; 2; 12] /\
  exists gs', Forall is_blocks gs' /\ map c_real (separate (int_request (2 ^ Z.of_nat 4)) gs') = [1; 15; 7] /\
    seen false (separate (int_request (2 ^ Z.of_nat 4)) gs') = seen false (separate (int_request (2 ^ Z.of_nat 4)) ex_gens) /\
    exists v, forall h, h = ex_gens \/ h = gs' ->
      sees0 (int_sum false id_order 4 (length h) (wire IntShare_bytes (subs0 (separate (int_request (2 ^ Z.of_nat 4)) h))) (repeat 0 40) (fun _ => 77))
            (int_sum true id_order 4 (length h) (wire IntShare_bytes (subs1 (separate (int_request (2 ^ Z.of_nat 4)) h))) (repeat 0 40) (fun _ => 5)) v.
Proof.
  split; [vm_compute; reflexivity|]. apply int_sum_private0; try reflexivity.
  - lia.
  - apply id_fair.
  - apply id_by_keys.
  - apply ex_gens_blocks.
  - repeat (apply NoDup_cons; [vm_compute; intuition discriminate|]). apply NoDup_nil.
  - repeat (apply Forall_cons; [cbn; lia|]). apply Forall_nil.
Qed.
(** MAX of 1, 2 and 0 among 0..3; server 1 would see the same with 3, 3 and 2. *)
Example max_private_ex :
  map c_real (separate (max_request true 3) ex_gens) = [1%nat; 2%nat; 0%nat] /\
  exists gs', Forall is_blocks gs' /\ map c_real (separate (max_request true 3) gs') = [3%nat; 3%nat; 2%nat] /\
    seen true (separate (max_request true 3) gs') = seen true (separate (max_request true 3) ex_gens) /\
    exists v, forall h, h = ex_gens \/ h = gs' ->
      sees1 (max_op false id_order true 3 (length h) (wire maxshare_bytes (subs0 (separate (max_request true 3) h))) (ex_pk 0) (fun _ => repeat 1 32))
            (max_op true id_order true 3 (length h) (wire maxshare_bytes (subs1 (separate (max_request true 3) h))) (ex_pk 0) (fun _ => repeat 1 32)) v.
Proof.
  split; [vm_compute; reflexivity|]. apply max_min_private1; try reflexivity.
  - apply id_fair.
  - apply ex_gens_blocks.
  - repeat (apply NoDup_cons; [vm_compute; intuition discriminate|]). apply NoDup_nil.
  - apply Exists_exists. eexists. split; [left; reflexivity|]. vm_compute. discriminate.
  - repeat (apply Forall_cons; [cbn; lia|]). apply Forall_nil.
Qed.

Example exact_ex : exists ds, Forall is_blocks (map2 xor_tape ex_gens ds) /\
  map c_real (separate (int_request (2 ^ Z.of_nat 4)) (map2 xor_tape ex_gens ds)) = [1; 15; 7].
Proof.
  destruct (int_sum_exact0 4 [9; 2; 12] [1; 15; 7]) as (ds & H); try reflexivity; try lia;
    try (repeat (apply Forall_cons; [cbn; lia|]); apply Forall_nil).
  exists ds. destruct (H ex_gens id_order id_order (repeat 0 40) (repeat 0 40) (fun _ => 0) (fun _ => 0)) as (A & B & _); auto.
  - apply id_fair.
  - apply id_by_keys.
  - apply ex_gens_blocks.
  - reflexivity.
  - repeat (apply NoDup_cons; [vm_compute; intuition discriminate|]). apply NoDup_nil.
Qed.
