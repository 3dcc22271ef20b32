(** * What a server learns that runs a program of its own (C69)

    One server departs from the code: it runs any program [q].  [same_to server q p p']
    (SpecRogue.v): server [server] arrives at the same states of [q] whether the other
    server runs [p] or [p'], so that nothing it receives tells [p] from [p'].
    [ids ok subs] are the identities of the submissions and whether each is acceptable:
    what the servers tell each other in any case. *)
From Coq Require Import ZArith List Bool Lia.
From Verif Require Import Words WordsFacts Constants Share Proc ProcFacts Net NetFacts SpecNet RelFacts OT
  ServerOps SpecServer SpecPrivacy ServerFacts ServerProps SpecPeer SpecRogue RogueFacts RogueProps Rogue0 RogueAttack
  P_Client P_Server P_Privacy.
Import ListNotations.
Open Scope Z_scope.

(** ** Server 1 departs from the code: it learns no share of server 0

    Against server 0 with any other values in the submissions, server 1 fares the same
    with masks that are moved by a fixed amount. *)
Theorem bit_sum_rogue1 {B} (q : proc B) order order' total total' stream stream' subs subs' junk junk' :
  arrives bit_wire total stream subs -> arrives bit_wire total' stream' subs' ->
  length junk = 33%nat -> length junk' = 33%nat -> ids any subs = ids any subs' ->
  exists d, forall rnd, same_to true q (bit_sum false order total stream junk rnd) (bit_sum false order' total' stream' junk' (moved rnd d)).
Proof. exact (bit_rogue1 q order order' total total' stream stream' subs subs' junk junk'). Qed.
Print Assumptions bit_sum_rogue1.
Theorem int_sum_rogue1 {B} (q : proc B) nb order order' total total' stream stream' subs subs' junk junk' : (nb <= 63)%nat ->
  arrives int_wire total stream subs -> arrives int_wire total' stream' subs' ->
  Forall (fun s => word (snd s)) subs -> Forall (fun s => word (snd s)) subs' ->
  length junk = 40%nat -> length junk' = 40%nat -> ids (fits nb) subs = ids (fits nb) subs' ->
  exists d, forall rnd, same_to true q (int_sum false order nb total stream junk rnd) (int_sum false order' nb total' stream' junk' (moved rnd d)).
Proof. exact (int_rogue1 q nb order order' total total' stream stream' subs subs' junk junk'). Qed.
Print Assumptions int_sum_rogue1.
Theorem and_or_rogue1 {B} (q : proc B) is_and order order' total total' stream stream' subs subs' junk junk' :
  arrives int_wire total stream subs -> arrives int_wire total' stream' subs' ->
  Forall (fun s => word (snd s)) subs -> Forall (fun s => word (snd s)) subs' ->
  length junk = 40%nat -> length junk' = 40%nat -> ids any subs = ids any subs' ->
  same_to true q (xor_op false order is_and total stream junk) (xor_op false order' is_and total' stream' junk').
Proof. exact (xor_rogue1 q is_and order order' total total' stream stream' subs subs' junk junk'). Qed.
Print Assumptions and_or_rogue1.
(** (Should [q] lead server 0 into undefined behaviour, see C67, server 0 is taken to stop
    there.) *)
Theorem max_min_rogue1 {B0} (q : proc B0) is_max B order order' total total' stream stream' subs subs' pk0 pk0' junk junk' :
  arrives max_wire total stream subs -> arrives max_wire total' stream' subs' -> rows_ok B subs -> rows_ok B subs' ->
  Z.of_nat total * (Z.of_nat B + 1) < two32 -> Z.of_nat total' * (Z.of_nat B + 1) < two32 ->
  length pk0 = 32%nat -> length pk0' = 32%nat ->
  (forall i, length (junk i) = (8 * (B + 1))%nat) -> (forall i, length (junk' i) = (8 * (B + 1))%nat) -> ids any subs = ids any subs' ->
  same_to true q (max_op false order is_max B total stream pk0 junk) (max_op false order' is_max B total' stream' pk0' junk').
Proof. exact (max_rogue1 q is_max B order order' total total' stream stream' subs subs' pk0 pk0' junk junk'). Qed.
Print Assumptions max_min_rogue1.

(** ** Server 0 departs from the code: it learns one aggregate of its own choosing

    What server 0 can learn of server 1's shares is bounded, whatever it runs.  The set [S]
    (the pairs [ps]) depend on [q] and on the identities only, so that of all shares with
    these identities server 0 can tell apart only those that differ in one number. *)

(** One weighted sum of the bits, modulo 2^64. *)
Theorem bit_sum_rogue0 {B} (q : proc B) order keys : fair order -> by_keys order -> exists K ps, NoDup K /\ incl K (map fst keys) /\
  forall total total' stream stream' subs subs' junk junk' rnd rnd',
    arrives bit_wire total stream subs -> arrives bit_wire total' stream' subs' ->
    length junk = 33%nat -> length junk' = 33%nat -> ids any subs = keys -> ids any subs' = keys ->
    zsum (map2 ot_select (map (own any subs false) K) ps) mod two64 = zsum (map2 ot_select (map (own any subs' false) K) ps) mod two64 ->
    same_to false q (bit_sum true order total stream junk rnd) (bit_sum true order total' stream' junk' rnd').
Proof. exact (bit_rogue0 q order keys). Qed.
Print Assumptions bit_sum_rogue0.
Theorem int_sum_rogue0 {B} (q : proc B) nb order keys : (nb <= 63)%nat -> fair order -> by_keys order -> exists K ps, NoDup K /\ incl K (map fst keys) /\
  forall total total' stream stream' subs subs' junk junk' rnd rnd',
    arrives int_wire total stream subs -> arrives int_wire total' stream' subs' ->
    Forall (fun s => word (snd s)) subs -> Forall (fun s => word (snd s)) subs' ->
    length junk = 40%nat -> length junk' = 40%nat -> ids (fits nb) subs = keys -> ids (fits nb) subs' = keys ->
    zsum (map2 ot_select (flat_map (low_bits nb) (map (own (fits nb) subs 0) K)) ps) mod two64 =
    zsum (map2 ot_select (flat_map (low_bits nb) (map (own (fits nb) subs' 0) K)) ps) mod two64 ->
    same_to false q (int_sum true order nb total stream junk rnd) (int_sum true order nb total' stream' junk' rnd').
Proof. exact (int_rogue0 q nb order keys). Qed.
Print Assumptions int_sum_rogue0.
(** The xor of the words (of the rows) over one set of clients. *)
Theorem and_or_rogue0 {B} (q : proc B) is_and order keys : fair order -> by_keys order -> exists S, NoDup S /\ incl S (map fst keys) /\
  forall total total' stream stream' subs subs' junk junk',
    arrives int_wire total stream subs -> arrives int_wire total' stream' subs' ->
    Forall (fun s => word (snd s)) subs -> Forall (fun s => word (snd s)) subs' ->
    length junk = 40%nat -> length junk' = 40%nat -> ids any subs = keys -> ids any subs' = keys ->
    zxors (map (own any subs 0) S) = zxors (map (own any subs' 0) S) ->
    same_to false q (xor_op true order is_and total stream junk) (xor_op true order is_and total' stream' junk').
Proof. exact (xor_rogue0 q is_and order keys). Qed.
Print Assumptions and_or_rogue0.
Theorem max_min_rogue0 {B0} (q : proc B0) is_max B order keys : fair order -> by_keys order -> exists S, NoDup S /\ incl S (map fst keys) /\
  forall total total' stream stream' subs subs' pk0 pk0' junk junk',
    arrives max_wire total stream subs -> arrives max_wire total' stream' subs' -> rows_ok B subs -> rows_ok B subs' ->
    Z.of_nat total * (Z.of_nat B + 1) < two32 -> Z.of_nat total' * (Z.of_nat B + 1) < two32 ->
    length pk0 = 32%nat -> length pk0' = 32%nat ->
    (forall i, length (junk i) = (8 * (B + 1))%nat) -> (forall i, length (junk' i) = (8 * (B + 1))%nat) ->
    ids any subs = keys -> ids any subs' = keys ->
    (forall j, (j <= B)%nat -> zxors (map (fun pk => nth j (own any subs [] pk) 0) S) = zxors (map (fun pk => nth j (own any subs' [] pk) 0) S)) ->
    same_to false q (max_op true order is_max B total stream pk0 junk) (max_op true order is_max B total' stream' pk0' junk').
Proof. exact (max_rogue0 q is_max B order keys). Qed.
Print Assumptions max_min_rogue0.

(** ** Findings: that one number can be the shares of single clients

    Server 1 completes its part as if nothing had happened; with its own share of the same
    submission server 0 then has the client's private value. *)

(** BIT_SUM: the shares of any 64 clients at once. *)
Theorem bit_sum_rogue0_refuted want order total stream subs junk rnd : fair order -> arrives bit_wire total stream subs -> length junk = 33%nat ->
  (length want <= 64)%nat ->
  both (spy_bits want) (bit_sum true order total stream junk rnd) (fun r _ => r = map (fun pk => b2z (own any subs false pk)) want).
Proof. exact (bit_spied want order total stream subs junk rnd). Qed.
Print Assumptions bit_sum_rogue0_refuted.
(** INT_SUM: the shares of as many clients as fit in 64 bits. *)
Theorem int_sum_rogue0_refuted nb want order total stream subs junk rnd : (1 <= nb <= 63)%nat -> fair order -> arrives int_wire total stream subs ->
  Forall (fun s => word (snd s)) subs -> length junk = 40%nat -> (length want * nb <= 64)%nat ->
  both (spy_ints nb want) (int_sum true order nb total stream junk rnd) (fun r _ => r = map (own (fits nb) subs 0) want).
Proof. exact (int_spied nb want order total stream subs junk rnd). Qed.
Print Assumptions int_sum_rogue0_refuted.
(** AND, OR: the share of any one client. *)
Theorem and_or_rogue0_refuted pk v is_and order total stream subs junk : fair order -> arrives int_wire total stream subs ->
  Forall (fun s => word (snd s)) subs -> length junk = 40%nat -> first_sub any subs pk = Some v ->
  both (spy_xor pk) (xor_op true order is_and total stream junk) (fun r _ => r = v).
Proof. exact (xor_spied pk v is_and order total stream subs junk). Qed.
Print Assumptions and_or_rogue0_refuted.
(** MAX, MIN: the whole row of any one client. *)
Theorem max_min_rogue0_refuted pk v is_max B order total stream subs pk0 junk : fair order -> arrives max_wire total stream subs -> rows_ok B subs ->
  Z.of_nat total * (Z.of_nat B + 1) < two32 -> length pk0 = 32%nat -> (forall i, length (junk i) = (8 * (B + 1))%nat) ->
  first_sub any subs pk = Some v ->
  both (spy_max B pk) (max_op true order is_max B total stream pk0 junk) (fun r _ => r = v).
Proof. exact (max_spied pk v is_max B order total stream subs pk0 junk). Qed.
Print Assumptions max_min_rogue0_refuted.

(** ** Examples *)
(** Other bits under the same identities as [ex_bits0] and [ex_bits1]. *)
Definition other_bits0 : list (list Z * bool) := map (fun s => (fst s, negb (snd s))) ex_bits0.
Lemma other_arrives0 : arrives bit_wire 4 (wire bit_wire other_bits0) other_bits0.
Proof. exists []. split; [now rewrite app_nil_r|]. split; [now left|]. split; [repeat constructor|reflexivity]. Qed.
Example bit_rogue1_ex {B} (q : proc B) : exists d, forall rnd, same_to true q
  (bit_sum false id_order 4 (wire bit_wire ex_bits0) (repeat 5 33) rnd)
  (bit_sum false id_order 4 (wire bit_wire other_bits0) (repeat 5 33) (moved rnd d)).
Proof. exact (bit_sum_rogue1 q id_order id_order 4 4 _ _ _ _ (repeat 5 33) (repeat 5 33) ex_arrives0 other_arrives0 eq_refl eq_refl eq_refl). Qed.

Definition other_ints0 : list (list Z * Z) := [(ex_pk 97, 12); (ex_pk 98, 77)].
Lemma other_ints_arrive0 : arrives int_wire 2 (wire int_wire other_ints0) other_ints0.
Proof. exists []. split; [now rewrite app_nil_r|]. split; [now left|]. split; [repeat constructor|reflexivity]. Qed.
Example int_rogue1_ex {B} (q : proc B) : exists d, forall rnd, same_to true q
  (int_sum false id_order 4 2 (wire int_wire ex_ints0) (repeat 5 40) rnd)
  (int_sum false id_order 4 2 (wire int_wire other_ints0) (repeat 5 40) (moved rnd d)).
Proof.
  apply (int_sum_rogue1 q 4 id_order id_order 2 2 _ _ ex_ints0 other_ints0); auto using ex_int_arrives0, other_ints_arrive0; try lia; try reflexivity;
    repeat constructor; cbn; lia.
Qed.
Example or_rogue1_ex {B} (q : proc B) : same_to true q
  (xor_op false id_order false 2 (wire int_wire ex_ints0) (repeat 5 40))
  (xor_op false id_order false 2 (wire int_wire other_ints0) (repeat 5 40)).
Proof.
  apply (and_or_rogue1 q false id_order id_order 2 2 _ _ ex_ints0 other_ints0); auto using ex_int_arrives0, other_ints_arrive0; try reflexivity;
    repeat constructor; cbn; lia.
Qed.
Definition other_rows0 : list (list Z * list Z) := [(ex_pk 97, [1; 2; 3; 4]); (ex_pk 98, [5; 6; 7; 8])].
Lemma other_rows_arrive0 : arrives max_wire 2 (wire max_wire other_rows0) other_rows0.
Proof. exists []. split; [now rewrite app_nil_r|]. split; [now left|]. split; [repeat constructor|reflexivity]. Qed.
Example max_rogue1_ex {B} (q : proc B) : same_to true q
  (max_op false id_order true 3 2 (wire max_wire P_Server.ex_rows0) (ex_pk 0) (fun _ => repeat 1 32))
  (max_op false id_order true 3 2 (wire max_wire other_rows0) (ex_pk 0) (fun _ => repeat 1 32)).
Proof.
  apply (max_min_rogue1 q true 3 id_order id_order 2 2 _ _ P_Server.ex_rows0 other_rows0); auto using ex_rows_arrive0, other_rows_arrive0; try reflexivity;
    repeat constructor; cbn; lia.
Qed.

(** Here server 0 runs its own code. *)
Example bit_rogue0_ex : exists K ps, NoDup K /\ incl K [ex_pk 99; ex_pk 97] /\
  forall subs', arrives bit_wire 2 (wire bit_wire subs') subs' -> ids any subs' = ids any ex_bits1 ->
    zsum (map2 ot_select (map (own any ex_bits1 false) K) ps) mod two64 = zsum (map2 ot_select (map (own any subs' false) K) ps) mod two64 ->
    same_to false (bit_sum false id_order 4 (wire bit_wire ex_bits0) (repeat 5 33) (fun i => Z.of_nat i))
      (bit_sum true id_order 3 (wire bit_wire ex_bits1) (repeat 6 33) (fun _ => 0)) (bit_sum true id_order 2 (wire bit_wire subs') (repeat 6 33) (fun _ => 0)).
Proof.
  destruct (bit_sum_rogue0 (bit_sum false id_order 4 (wire bit_wire ex_bits0) (repeat 5 33) (fun i => Z.of_nat i)) id_order (ids any ex_bits1)
    id_fair id_by_keys) as (K & ps & H1 & H2 & H3). exists K, ps. split; [exact H1|]. split; [exact H2|].
  intros subs' A E X. exact (H3 3%nat 2%nat _ _ ex_bits1 subs' (repeat 6 33) (repeat 6 33) (fun _ => 0) (fun _ => 0) ex_arrives1 A eq_refl eq_refl eq_refl E X).
Qed.
Example int_rogue0_ex {B} (q : proc B) : exists K ps, NoDup K /\ incl K [ex_pk 98; ex_pk 97] /\
  forall subs', arrives int_wire 2 (wire int_wire subs') subs' -> Forall (fun s => word (snd s)) subs' -> ids (fits 4) subs' = ids (fits 4) ex_ints1 ->
    zsum (map2 ot_select (flat_map (low_bits 4) (map (own (fits 4) ex_ints1 0) K)) ps) mod two64 =
    zsum (map2 ot_select (flat_map (low_bits 4) (map (own (fits 4) subs' 0) K)) ps) mod two64 ->
    same_to false q (int_sum true id_order 4 2 (wire int_wire ex_ints1) (repeat 6 40) (fun _ => 0))
      (int_sum true id_order 4 2 (wire int_wire subs') (repeat 6 40) (fun _ => 0)).
Proof.
  destruct (int_sum_rogue0 q 4 id_order (ids (fits 4) ex_ints1) ltac:(lia) id_fair id_by_keys) as (K & ps & H1 & H2 & H3).
  exists K, ps. split; [exact H1|]. split; [exact H2|]. intros subs' A W E X.
  apply (H3 2%nat 2%nat _ _ ex_ints1 subs'); auto using ex_int_arrives1. repeat constructor; cbn; lia.
Qed.
Example or_rogue0_ex {B} (q : proc B) : exists S, NoDup S /\ incl S [ex_pk 98; ex_pk 97] /\
  forall subs', arrives int_wire 2 (wire int_wire subs') subs' -> Forall (fun s => word (snd s)) subs' -> ids any subs' = ids any ex_ints1 ->
    zxors (map (own any ex_ints1 0) S) = zxors (map (own any subs' 0) S) ->
    same_to false q (xor_op true id_order false 2 (wire int_wire ex_ints1) (repeat 6 40)) (xor_op true id_order false 2 (wire int_wire subs') (repeat 6 40)).
Proof.
  destruct (and_or_rogue0 q false id_order (ids any ex_ints1) id_fair id_by_keys) as (S & H1 & H2 & H3).
  exists S. split; [exact H1|]. split; [exact H2|]. intros subs' A W E X.
  apply (H3 2%nat 2%nat _ _ ex_ints1 subs'); auto using ex_int_arrives1. repeat constructor; cbn; lia.
Qed.
Example max_rogue0_ex {B} (q : proc B) : exists S, NoDup S /\ incl S [ex_pk 97; ex_pk 98] /\
  forall subs', arrives max_wire 2 (wire max_wire subs') subs' -> rows_ok 3 subs' -> ids any subs' = ids any P_Server.ex_rows1 ->
    (forall j, (j <= 3)%nat -> zxors (map (fun pk => nth j (own any P_Server.ex_rows1 [] pk) 0) S) = zxors (map (fun pk => nth j (own any subs' [] pk) 0) S)) ->
    same_to false q (max_op true id_order true 3 2 (wire max_wire P_Server.ex_rows1) (ex_pk 0) (fun _ => repeat 1 32))
      (max_op true id_order true 3 2 (wire max_wire subs') (ex_pk 0) (fun _ => repeat 1 32)).
Proof.
  destruct (max_min_rogue0 q true 3 id_order (ids any P_Server.ex_rows1) id_fair id_by_keys) as (S & H1 & H2 & H3).
  exists S. split; [exact H1|]. split; [exact H2|]. intros subs' A W E X.
  apply (H3 2%nat 2%nat _ _ P_Server.ex_rows1 subs'); auto using ex_rows_arrive1; try reflexivity; repeat constructor; cbn; lia.
Qed.

(** Client 99 has the share true at server 1, client 97 false, client 98 none. *)
Example bit_spy_ex : both (spy_bits [ex_pk 97; ex_pk 98; ex_pk 99])
  (bit_sum true id_order 3 (wire bit_wire ex_bits1) (repeat 6 33) (fun _ => 0)) (fun r _ => r = [0; 0; 1]).
Proof. exact (bit_sum_rogue0_refuted [ex_pk 97; ex_pk 98; ex_pk 99] id_order 3 _ ex_bits1 (repeat 6 33) (fun _ => 0) id_fair ex_arrives1 eq_refl ltac:(cbn; lia)). Qed.
Example int_spy_ex : both (spy_ints 4 [ex_pk 97; ex_pk 98])
  (int_sum true id_order 4 2 (wire int_wire ex_ints1) (repeat 6 40) (fun _ => 0)) (fun r _ => r = [3; 9]).
Proof.
  apply (int_sum_rogue0_refuted 4 [ex_pk 97; ex_pk 98] id_order 2 _ ex_ints1); auto using id_fair, ex_int_arrives1; try (cbn; lia);
    repeat constructor; cbn; lia.
Qed.
Example or_spy_ex : both (spy_xor (ex_pk 97)) (xor_op true id_order false 2 (wire int_wire ex_ints1) (repeat 6 40)) (fun r _ => r = 3).
Proof.
  apply (and_or_rogue0_refuted (ex_pk 97) 3 false id_order 2 _ ex_ints1); auto using id_fair, ex_int_arrives1; try reflexivity;
    repeat constructor; cbn; lia.
Qed.
Example max_spy_ex : both (spy_max 3 (ex_pk 98)) (max_op true id_order true 3 2 (wire max_wire P_Server.ex_rows1) (ex_pk 0) (fun _ => repeat 1 32))
  (fun r _ => r = [1; 2; 3; 5]).
Proof.
  apply (max_min_rogue0_refuted (ex_pk 98) [1; 2; 3; 5] true 3 id_order 2 _ P_Server.ex_rows1); auto using id_fair, ex_rows_arrive1; try reflexivity;
    repeat constructor; cbn; lia.
Qed.
