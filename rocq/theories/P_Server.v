(** * Aggregate operations: sums, AND/OR, MAX/MIN

    Setting of all theorems: server [i] expects [total_i] records and reads them
    from the byte stream [stream_i], in which the submissions [subs_i] arrive
    ([arrives], SpecServer.v).  The submissions at the two servers are arbitrary and
    unrelated: records may be missing at one server, repeated, in different order,
    or malformed.  [L] lists the identities with an acceptable submission at both
    servers.  [junk_i]: initial contents of the receive buffers; [order_i]: traversal
    order of the hash table; [rnd_i]: random draws.  [both p q R] (RelFacts.v): every
    schedule of the two servers terminates without deadlock, with nothing left in
    the socket buffers, and the results satisfy [R]. *)
From Coq Require Import ZArith List Bool Lia Permutation.
From Verif Require Import Words WordsFacts Constants Proc ProcFacts Net NetFacts SpecNet RelFacts Exec
  ServerOps SpecServer TableFacts ServerFacts ServerProps ServerCor.
Import ListNotations.
Open Scope Z_scope.

(** Identities accepted by both servers can always be listed. *)
Theorem accepted_listed {V} (ok : V -> bool) (subs0 subs1 : list (list Z * V)) :
  exists L, accepted ok subs0 subs1 L /\ forall L', accepted ok subs0 subs1 L' -> Permutation L L'.
Proof.
  destruct (accepted_exists ok subs0 subs1) as [L H]. exists L. split; auto.
  intros L' [N' H']. apply NoDup_Permutation; auto. { apply H. }
  intros pk. rewrite (proj2 H pk), (H' pk). reflexivity.
Qed.
Print Assumptions accepted_listed.

(** The contents of a receive buffer, and the unread bytes, after [recv_in] from a
    client that sends [stream] and closes (any splitting of the stream by the
    kernel, no errors). *)
Theorem client_recv_correct script stream buf :
  Forall no_err script -> (Nat.max (length buf) (length stream) < length script)%nat ->
  Z.of_nat (length buf) < 2147483648 ->
  exists ret,
  recv_in script true stream buf (Z.of_nat (length buf))
  = RDone ret (fst (crecv (length buf) stream buf)) (snd (crecv (length buf) stream buf)).
Proof. exact (crecv_recv_in script stream buf). Qed.
Print Assumptions client_recv_correct.
Example client_recv_ex : exists ret,
  recv_in [KChunk 0; KChunk 5; KChunk 0; KChunk 0; KChunk 0] true [1; 2; 3] [7; 7; 7; 7] 4 = RDone ret [1; 2; 3; 7] [].
Proof. eexists. reflexivity. Qed.

(** ** Sums *)

Theorem bit_sum_correct order0 order1 total0 total1 stream0 stream1 subs0 subs1 junk0 junk1 rnd0 rnd1 L :
  fair order1 -> arrives bit_wire total0 stream0 subs0 -> arrives bit_wire total1 stream1 subs1 ->
  length junk0 = 33%nat -> length junk1 = 33%nat -> accepted any subs0 subs1 L ->
  both (bit_sum false order0 total0 stream0 junk0 rnd0) (bit_sum true order1 total1 stream1 junk1 rnd1)
    (fun r0 r1 => r1 = RET_NO_ANS /\
       r0 = outcome (length L) total0 (zsum (map (combined any bit_val 0 subs0 subs1) L))).
Proof. exact (bit_sum_result order0 order1 total0 total1 stream0 stream1 subs0 subs1 junk0 junk1 rnd0 rnd1 L). Qed.
Print Assumptions bit_sum_correct.

Theorem int_sum_correct num_bits order0 order1 total0 total1 stream0 stream1 subs0 subs1 junk0 junk1 rnd0 rnd1 L :
  (num_bits <= 63)%nat ->
  fair order1 -> arrives int_wire total0 stream0 subs0 -> arrives int_wire total1 stream1 subs1 ->
  Forall (fun s => word (snd s)) subs0 -> Forall (fun s => word (snd s)) subs1 ->
  length junk0 = 40%nat -> length junk1 = 40%nat -> accepted (fits num_bits) subs0 subs1 L ->
  both (int_sum false order0 num_bits total0 stream0 junk0 rnd0)
       (int_sum true order1 num_bits total1 stream1 junk1 rnd1)
    (fun r0 r1 => r1 = RET_NO_ANS /\
       r0 = outcome (length L) total0
              (zsum (map (combined (fits num_bits) Z.lxor 0 subs0 subs1) L) mod two64)).
Proof.
  exact (int_sum_result num_bits order0 order1 total0 total1 stream0 stream1 subs0 subs1 junk0 junk1 rnd0 rnd1 L).
Qed.
Print Assumptions int_sum_correct.

(** ** AND and OR

    The answer is determined by the xor of the encoded values of the accepted
    identities. *)
Theorem and_or_correct is_and order0 order1 total0 total1 stream0 stream1 subs0 subs1 junk0 junk1 L :
  fair order1 -> arrives int_wire total0 stream0 subs0 -> arrives int_wire total1 stream1 subs1 ->
  Forall (fun s => word (snd s)) subs0 -> Forall (fun s => word (snd s)) subs1 ->
  length junk0 = 40%nat -> length junk1 = 40%nat -> accepted any subs0 subs1 L ->
  both (xor_op false order0 is_and total0 stream0 junk0) (xor_op true order1 is_and total1 stream1 junk1)
    (fun r0 r1 => r1 = RET_NO_ANS /\
       r0 = outcome (length L) total0
              (let z := zxors (map (combined any Z.lxor 0 subs0 subs1) L) =? 0 in
               if is_and then z else negb z)).
Proof. exact (xor_op_result is_and order0 order1 total0 total1 stream0 stream1 subs0 subs1 junk0 junk1 L). Qed.
Print Assumptions and_or_correct.

(** When no accepted identity encodes a non-zero value (nobody sent 1 to OR, nobody
    0 to AND), the answer is false for OR and true for AND; when exactly one does, it
    is the opposite. *)
Theorem and_or_decided is_and order0 order1 total0 total1 stream0 stream1 subs0 subs1 junk0 junk1 L k (some : bool) :
  fair order1 -> arrives int_wire total0 stream0 subs0 -> arrives int_wire total1 stream1 subs1 ->
  Forall (fun s => word (snd s)) subs0 -> Forall (fun s => word (snd s)) subs1 ->
  length junk0 = 40%nat -> length junk1 = 40%nat -> accepted any subs0 subs1 L ->
  (forall pk, In pk L -> pk <> k -> combined any Z.lxor 0 subs0 subs1 pk = 0) ->
  (if some then In k L /\ combined any Z.lxor 0 subs0 subs1 k <> 0
   else combined any Z.lxor 0 subs0 subs1 k = 0) ->
  both (xor_op false order0 is_and total0 stream0 junk0) (xor_op true order1 is_and total1 stream1 junk1)
    (fun r0 r1 => r1 = RET_NO_ANS /\ r0 = outcome (length L) total0 (if is_and then negb some else some)).
Proof.
  intros HF A0 A1 W0 W1 J0 J1 HL HZ HS.
  destruct (xor_op_result is_and order0 order1 total0 total1 stream0 stream1 subs0 subs1 junk0 junk1 L)
    as (a & b & H & E1 & E0); auto.
  exists a, b. split; auto. split; auto. rewrite E0. f_equal. cbv zeta.
  set (f := combined any Z.lxor 0 subs0 subs1) in *. destruct some.
  - destruct HS as [HI HN]. rewrite (zxors_single f L k) by (auto; apply HL).
    destruct (Z.eqb_spec (f k) 0); [easy|]. now destruct is_and.
  - rewrite zxors_zero; [now destruct is_and|]. intros pk Hpk.
    destruct (list_eq_dec Z.eq_dec pk k) as [->|N]; auto.
Qed.
Print Assumptions and_or_decided.

(** ** MAX and MIN

    Position [j] of a client's row is the xor of the two rows received.  Position
    [j] of the aggregate is the xor over the accepted identities; the largest
    index at which it is not zero is the answer ([B] minus it, for MIN). *)
Theorem max_min_correct is_max B order0 order1 total0 total1 stream0 stream1 subs0 subs1 pk0 pk1 junk0 junk1 L j :
  fair order1 -> arrives max_wire total0 stream0 subs0 -> arrives max_wire total1 stream1 subs1 ->
  rows_ok B subs0 -> rows_ok B subs1 ->
  Z.of_nat total0 * (Z.of_nat B + 1) < two32 -> Z.of_nat total1 * (Z.of_nat B + 1) < two32 ->
  length pk0 = 32%nat -> length pk1 = 32%nat ->
  (forall i, length (junk0 i) = (8 * (B + 1))%nat) -> (forall i, length (junk1 i) = (8 * (B + 1))%nat) ->
  accepted any subs0 subs1 L ->
  (2 * length L < total0)%nat \/
  highest B (fun j => zxors (map (combined any (xor_at j) 0 subs0 subs1) L)) j ->
  both (max_op false order0 is_max B total0 stream0 pk0 junk0)
       (max_op true order1 is_max B total1 stream1 pk1 junk1)
    (fun r0 r1 => r1 = RET_NO_ANS /\
       r0 = outcome (length L) total0 (Z.of_nat (if is_max then j else B - j))).
Proof.
  exact (max_op_result is_max B order0 order1 total0 total1 stream0 stream1 subs0 subs1 pk0 pk1 junk0 junk1 L j).
Qed.
Print Assumptions max_min_correct.

(** If each accepted identity's row is zero above its value [v pk], the answer of MAX
    is at most the largest value; it is equal to [m] if [m] bounds the values and the
    entries at [m] do not cancel. *)
Theorem max_never_exceeds B L subs0 subs1 (v : list Z -> nat) j :
  highest B (fun j => zxors (map (combined any (xor_at j) 0 subs0 subs1) L)) j ->
  (forall pk i, In pk L -> (v pk < i <= B)%nat -> combined any (xor_at i) 0 subs0 subs1 pk = 0) ->
  exists pk, In pk L /\ (j <= v pk)%nat.
Proof.
  intros (H1 & H2 & H3) HV.
  destruct (existsb (fun pk => (j <=? v pk)%nat) L) eqn:E.
  - apply existsb_exists in E as (pk & Hin & Hle). apply Nat.leb_le in Hle. eauto.
  - exfalso. apply H2. apply zxors_zero. intros pk Hpk. apply HV; auto. split; auto.
    rewrite <- not_true_iff_false, existsb_exists in E.
    destruct (Nat.lt_ge_cases (v pk) j) as [|G]; auto. exfalso. apply E. exists pk.
    split; auto. now apply Nat.leb_le.
Qed.
Print Assumptions max_never_exceeds.

Theorem max_attained B L subs0 subs1 (v : list Z -> nat) m :
  (m <= B)%nat -> (forall pk, In pk L -> (v pk <= m)%nat) ->
  (forall pk i, In pk L -> (v pk < i <= B)%nat -> combined any (xor_at i) 0 subs0 subs1 pk = 0) ->
  zxors (map (combined any (xor_at m) 0 subs0 subs1) L) <> 0 ->
  highest B (fun j => zxors (map (combined any (xor_at j) 0 subs0 subs1) L)) m.
Proof.
  intros HB HM HV HN. split; auto. split; auto. intros k Hk. apply zxors_zero.
  intros pk Hpk. apply HV; auto. specialize (HM pk Hpk). lia.
Qed.
Print Assumptions max_attained.

(** Finding: when all positions cancel (in particular when nothing is accepted and
    nothing was announced), server 0 reads out of bounds, in every schedule. *)
Theorem max_min_undefined is_max B order0 order1 total0 total1 stream0 stream1 subs0 subs1 pk0 pk1 junk0 junk1 L :
  fair order1 -> arrives max_wire total0 stream0 subs0 -> arrives max_wire total1 stream1 subs1 ->
  rows_ok B subs0 -> rows_ok B subs1 ->
  Z.of_nat total0 * (Z.of_nat B + 1) < two32 -> Z.of_nat total1 * (Z.of_nat B + 1) < two32 ->
  length pk0 = 32%nat -> length pk1 = 32%nat ->
  (forall i, length (junk0 i) = (8 * (B + 1))%nat) -> (forall i, length (junk1 i) = (8 * (B + 1))%nat) ->
  accepted any subs0 subs1 L ->
  (total0 <= 2 * length L)%nat ->
  (forall j, (j <= B)%nat -> zxors (map (combined any (xor_at j) 0 subs0 subs1) L) = 0) ->
  ends 0 (max_op false order0 is_max B total0 stream0 pk0 junk0)
         (max_op true order1 is_max B total1 stream1 pk1 junk1)
         (Cfg Undef (Ret RET_NO_ANS) [] []).
Proof.
  exact (max_op_undefined is_max B order0 order1 total0 total1 stream0 stream1 subs0 subs1 pk0 pk1 junk0 junk1 L).
Qed.
Print Assumptions max_min_undefined.

(** ** One submission per identity

    Records inserted after an acceptable record of the same identity, at either
    server, change neither the answer nor the number of accepted inputs. *)
Theorem bit_sum_repeats order0 order1 total0 total1 total0' total1' stream0 stream1 stream0' stream1'
    subs0 subs1 subs0' subs1' junk0 junk1 junk0' junk1' rnd0 rnd1 :
  fair order1 -> repeats any subs0 subs0' -> repeats any subs1 subs1' ->
  arrives bit_wire total0 stream0 subs0 -> arrives bit_wire total1 stream1 subs1 ->
  arrives bit_wire total0' stream0' subs0' -> arrives bit_wire total1' stream1' subs1' ->
  length junk0 = 33%nat -> length junk1 = 33%nat -> length junk0' = 33%nat -> length junk1' = 33%nat ->
  exists n ans,
  both (bit_sum false order0 total0 stream0 junk0 rnd0) (bit_sum true order1 total1 stream1 junk1 rnd1)
    (fun r0 _ => r0 = outcome n total0 ans) /\
  both (bit_sum false order0 total0' stream0' junk0' rnd0) (bit_sum true order1 total1' stream1' junk1' rnd1)
    (fun r0 _ => r0 = outcome n total0' ans).
Proof.
  exact (bit_sum_once order0 order1 total0 total1 total0' total1' stream0 stream1 stream0' stream1'
    subs0 subs1 subs0' subs1' junk0 junk1 junk0' junk1' rnd0 rnd1).
Qed.
Print Assumptions bit_sum_repeats.

Theorem int_sum_repeats num_bits order0 order1 total0 total1 total0' total1' stream0 stream1 stream0' stream1'
    subs0 subs1 subs0' subs1' junk0 junk1 junk0' junk1' rnd0 rnd1 :
  (num_bits <= 63)%nat -> fair order1 ->
  repeats (fits num_bits) subs0 subs0' -> repeats (fits num_bits) subs1 subs1' ->
  arrives int_wire total0 stream0 subs0 -> arrives int_wire total1 stream1 subs1 ->
  arrives int_wire total0' stream0' subs0' -> arrives int_wire total1' stream1' subs1' ->
  Forall (fun s => word (snd s)) subs0 -> Forall (fun s => word (snd s)) subs1 ->
  Forall (fun s => word (snd s)) subs0' -> Forall (fun s => word (snd s)) subs1' ->
  length junk0 = 40%nat -> length junk1 = 40%nat -> length junk0' = 40%nat -> length junk1' = 40%nat ->
  exists n ans,
  both (int_sum false order0 num_bits total0 stream0 junk0 rnd0)
       (int_sum true order1 num_bits total1 stream1 junk1 rnd1)
    (fun r0 _ => r0 = outcome n total0 ans) /\
  both (int_sum false order0 num_bits total0' stream0' junk0' rnd0)
       (int_sum true order1 num_bits total1' stream1' junk1' rnd1)
    (fun r0 _ => r0 = outcome n total0' ans).
Proof.
  exact (int_sum_once num_bits order0 order1 total0 total1 total0' total1' stream0 stream1 stream0' stream1'
    subs0 subs1 subs0' subs1' junk0 junk1 junk0' junk1' rnd0 rnd1).
Qed.
Print Assumptions int_sum_repeats.

Theorem and_or_repeats is_and order0 order1 total0 total1 total0' total1' stream0 stream1 stream0' stream1'
    subs0 subs1 subs0' subs1' junk0 junk1 junk0' junk1' :
  fair order1 -> repeats any subs0 subs0' -> repeats any subs1 subs1' ->
  arrives int_wire total0 stream0 subs0 -> arrives int_wire total1 stream1 subs1 ->
  arrives int_wire total0' stream0' subs0' -> arrives int_wire total1' stream1' subs1' ->
  Forall (fun s => word (snd s)) subs0 -> Forall (fun s => word (snd s)) subs1 ->
  Forall (fun s => word (snd s)) subs0' -> Forall (fun s => word (snd s)) subs1' ->
  length junk0 = 40%nat -> length junk1 = 40%nat -> length junk0' = 40%nat -> length junk1' = 40%nat ->
  exists n ans,
  both (xor_op false order0 is_and total0 stream0 junk0) (xor_op true order1 is_and total1 stream1 junk1)
    (fun r0 _ => r0 = outcome n total0 ans) /\
  both (xor_op false order0 is_and total0' stream0' junk0') (xor_op true order1 is_and total1' stream1' junk1')
    (fun r0 _ => r0 = outcome n total0' ans).
Proof.
  exact (xor_op_once is_and order0 order1 total0 total1 total0' total1' stream0 stream1 stream0' stream1'
    subs0 subs1 subs0' subs1' junk0 junk1 junk0' junk1').
Qed.
Print Assumptions and_or_repeats.

(** For any operation: what a server holds for each identity is not affected. *)
Theorem repeats_no_effect {V} (ok : V -> bool) subs subs' :
  repeats ok subs subs' -> forall pk, first_sub ok subs' pk = first_sub ok subs pk.
Proof. exact (repeats_first ok subs subs'). Qed.
Print Assumptions repeats_no_effect.

(** ** Influence of one identity, whatever it sends to the two servers *)
Theorem bit_sum_bounded_influence pk order0 order1 total0 total1 total0' total1' stream0 stream1 stream0' stream1'
    subs0 subs1 junk0 junk1 junk0' junk1' rnd0 rnd1 :
  fair order1 ->
  arrives bit_wire total0 stream0 subs0 -> arrives bit_wire total1 stream1 subs1 ->
  arrives bit_wire total0' stream0' (without pk subs0) -> arrives bit_wire total1' stream1' (without pk subs1) ->
  length junk0 = 33%nat -> length junk1 = 33%nat -> length junk0' = 33%nat -> length junk1' = 33%nat ->
  exists n ans n' ans',
  both (bit_sum false order0 total0 stream0 junk0 rnd0) (bit_sum true order1 total1 stream1 junk1 rnd1)
    (fun r0 _ => r0 = outcome n total0 ans) /\
  both (bit_sum false order0 total0' stream0' junk0' rnd0) (bit_sum true order1 total1' stream1' junk1' rnd1)
    (fun r0 _ => r0 = outcome n' total0' ans') /\
  (n' <= n <= n' + 1)%nat /\ 0 <= ans - ans' <= 1.
Proof.
  exact (bit_sum_influence pk order0 order1 total0 total1 total0' total1' stream0 stream1 stream0' stream1'
    subs0 subs1 junk0 junk1 junk0' junk1' rnd0 rnd1).
Qed.
Print Assumptions bit_sum_bounded_influence.

Theorem int_sum_bounded_influence num_bits pk order0 order1 total0 total1 total0' total1'
    stream0 stream1 stream0' stream1' subs0 subs1 junk0 junk1 junk0' junk1' rnd0 rnd1 :
  (num_bits <= 63)%nat -> fair order1 ->
  arrives int_wire total0 stream0 subs0 -> arrives int_wire total1 stream1 subs1 ->
  arrives int_wire total0' stream0' (without pk subs0) -> arrives int_wire total1' stream1' (without pk subs1) ->
  Forall (fun s => word (snd s)) subs0 -> Forall (fun s => word (snd s)) subs1 ->
  length junk0 = 40%nat -> length junk1 = 40%nat -> length junk0' = 40%nat -> length junk1' = 40%nat ->
  exists n ans n' ans',
  both (int_sum false order0 num_bits total0 stream0 junk0 rnd0)
       (int_sum true order1 num_bits total1 stream1 junk1 rnd1)
    (fun r0 _ => r0 = outcome n total0 ans) /\
  both (int_sum false order0 num_bits total0' stream0' junk0' rnd0)
       (int_sum true order1 num_bits total1' stream1' junk1' rnd1)
    (fun r0 _ => r0 = outcome n' total0' ans') /\
  (n' <= n <= n' + 1)%nat /\ (ans - ans') mod two64 < 2 ^ Z.of_nat num_bits.
Proof.
  exact (int_sum_influence num_bits pk order0 order1 total0 total1 total0' total1' stream0 stream1 stream0' stream1'
    subs0 subs1 junk0 junk1 junk0' junk1' rnd0 rnd1).
Qed.
Print Assumptions int_sum_bounded_influence.

(** ** Traversal order and random draws do not matter *)
Theorem bit_sum_deterministic order0 order1 order0' order1' total0 total1 stream0 stream1 subs0 subs1
    junk0 junk1 junk0' junk1' rnd0 rnd1 rnd0' rnd1' :
  fair order1 -> fair order1' ->
  arrives bit_wire total0 stream0 subs0 -> arrives bit_wire total1 stream1 subs1 ->
  length junk0 = 33%nat -> length junk1 = 33%nat -> length junk0' = 33%nat -> length junk1' = 33%nat ->
  forall a b a' b',
  always (bit_sum false order0 total0 stream0 junk0 rnd0) (bit_sum true order1 total1 stream1 junk1 rnd1) a b ->
  always (bit_sum false order0' total0 stream0 junk0' rnd0') (bit_sum true order1' total1 stream1 junk1' rnd1') a' b' ->
  a = a' /\ b = b'.
Proof.
  intros F F' A0 A1 J0 J1 J0' J1'. destruct (accepted_exists any subs0 subs1) as [L HL].
  eapply both_same; eapply bit_sum_result; eassumption.
Qed.
Print Assumptions bit_sum_deterministic.

Theorem int_sum_deterministic num_bits order0 order1 order0' order1' total0 total1 stream0 stream1 subs0 subs1
    junk0 junk1 junk0' junk1' rnd0 rnd1 rnd0' rnd1' :
  (num_bits <= 63)%nat -> fair order1 -> fair order1' ->
  arrives int_wire total0 stream0 subs0 -> arrives int_wire total1 stream1 subs1 ->
  Forall (fun s => word (snd s)) subs0 -> Forall (fun s => word (snd s)) subs1 ->
  length junk0 = 40%nat -> length junk1 = 40%nat -> length junk0' = 40%nat -> length junk1' = 40%nat ->
  forall a b a' b',
  always (int_sum false order0 num_bits total0 stream0 junk0 rnd0)
         (int_sum true order1 num_bits total1 stream1 junk1 rnd1) a b ->
  always (int_sum false order0' num_bits total0 stream0 junk0' rnd0')
         (int_sum true order1' num_bits total1 stream1 junk1' rnd1') a' b' ->
  a = a' /\ b = b'.
Proof.
  intros HB F F' A0 A1 W0 W1 J0 J1 J0' J1'. destruct (accepted_exists (fits num_bits) subs0 subs1) as [L HL].
  eapply both_same; eapply int_sum_result; eassumption.
Qed.
Print Assumptions int_sum_deterministic.

(** ** Clients that stop inside a record

    Finding: the claim that such a record has no effect is false.  Client 2 stops
    after 5 bytes of its 33-byte record; the servers see a record under a mixed
    identity with the shares of client 1, and count client 1 twice. *)
Definition ex_pk (c : Z) : list Z := repeat c 32.
Definition id_order : iteration := fun V m => m.
Theorem crash_in_record_refuted :
  exists pk1 pk2 (a b : bool) junk rnd,
    length pk1 = 32%nat /\ length pk2 = 32%nat /\ xorb a b = true /\
    both (bit_sum false id_order 2 (bit_wire (pk1, a) ++ firstn 5 pk2) junk rnd)
         (bit_sum true id_order 2 (bit_wire (pk1, b) ++ firstn 5 pk2) junk rnd)
         (fun r0 _ => r0 = RET_ANS 2).
Proof.
  exists (ex_pk 97), (ex_pk 98), true, false, (repeat 0 33), (fun i => Z.of_nat i).
  split; [reflexivity|]. split; [reflexivity|]. split; [reflexivity|].
  destruct (exec_obs_always 20
    (bit_sum false id_order 2 (bit_wire (ex_pk 97, true) ++ firstn 5 (ex_pk 98)) (repeat 0 33) (fun i => Z.of_nat i))
    (bit_sum true id_order 2 (bit_wire (ex_pk 97, false) ++ firstn 5 (ex_pk 98)) (repeat 0 33) (fun i => Z.of_nat i))
    (fun a _ => a) (RET_ANS 2)) as (x & y & H & E).
  { vm_compute. reflexivity. }
  exists x, y. auto.
Qed.
Print Assumptions crash_in_record_refuted.

(** ** Examples *)
Lemma id_fair : fair id_order.
Proof. intros V m. reflexivity. Qed.

(** Three identities; one unknown to server 1, one repeated at server 0. *)
Definition ex_bits0 : list (list Z * bool) :=
  [(ex_pk 97, true); (ex_pk 98, true); (ex_pk 97, false); (ex_pk 99, false)].
Definition ex_bits1 : list (list Z * bool) := [(ex_pk 99, true); (ex_pk 97, false)].
Example ex_arrives0 : arrives bit_wire 4 (wire bit_wire ex_bits0) ex_bits0.
Proof.
  exists []. split; [now rewrite app_nil_r|]. split; [now left|]. split; [repeat constructor|reflexivity].
Qed.
(** Server 1 expected a third record. *)
Example ex_arrives1 : arrives bit_wire 3 (wire bit_wire ex_bits1) ex_bits1.
Proof.
  exists []. split; [now rewrite app_nil_r|]. split; [right; repeat split; [discriminate|cbn; lia]|].
  split; [repeat constructor|reflexivity].
Qed.
Example ex_accepted : accepted any ex_bits0 ex_bits1 [ex_pk 97; ex_pk 99].
Proof.
  split.
  - constructor; [|constructor; [easy|constructor]]. intros [H|[]]. discriminate H.
  - intros pk. cbn -[ex_pk]. rewrite !andb_true_r.
    destruct (key_eqb_spec (ex_pk 97) pk) as [<-|N1].
    + replace (key_eqb (ex_pk 99) (ex_pk 97)) with false by reflexivity. split; [split; discriminate|auto].
    + destruct (key_eqb_spec (ex_pk 99) pk) as [<-|N2].
      * split; [|auto]. split; [|discriminate].
        destruct (key_eqb_spec (ex_pk 98) (ex_pk 99)); discriminate.
      * split; [intros [H|[H|[]]]; congruence|]. intros [_ H]. now elim H.
Qed.
Example bit_sum_ex : both
  (bit_sum false id_order 4 (wire bit_wire ex_bits0) (repeat 5 33) (fun i => Z.of_nat i + 7))
  (bit_sum true id_order 3 (wire bit_wire ex_bits1) (repeat 6 33) (fun i => Z.of_nat i))
  (fun r0 r1 => r1 = RET_NO_ANS /\ r0 = RET_ANS 2).
Proof.
  exact (bit_sum_correct id_order id_order 4 3 _ _ _ _ (repeat 5 33) (repeat 6 33) _ _ _
    id_fair ex_arrives0 ex_arrives1 eq_refl eq_refl ex_accepted).
Qed.

Definition ex_ints0 : list (list Z * Z) := [(ex_pk 97, 5); (ex_pk 98, 200)].
Definition ex_ints1 : list (list Z * Z) := [(ex_pk 98, 9); (ex_pk 97, 3)].
Lemma ex_int_arrives0 : arrives int_wire 2 (wire int_wire ex_ints0) ex_ints0.
Proof. exists []. split; [now rewrite app_nil_r|]. split; [now left|]. split; [repeat constructor|reflexivity]. Qed.
Lemma ex_int_arrives1 : arrives int_wire 2 (wire int_wire ex_ints1) ex_ints1.
Proof. exists []. split; [now rewrite app_nil_r|]. split; [now left|]. split; [repeat constructor|reflexivity]. Qed.
(** With 4 bits, the second identity's share at server 0 is too large. *)
Example ex_int_accepted : accepted (fits 4) ex_ints0 ex_ints1 [ex_pk 97].
Proof.
  split; [constructor; [easy|constructor]|]. intros pk. cbn -[ex_pk].
  destruct (key_eqb_spec (ex_pk 97) pk) as [<-|N1].
  - cbn. split; [split; discriminate|auto].
  - cbn [andb]. rewrite andb_false_r. split; [intros [H|[]]; congruence|]. intros [H _]. now elim H.
Qed.
Example int_sum_ex : both
  (int_sum false id_order 4 2 (wire int_wire ex_ints0) (repeat 5 40) (fun i => Z.of_nat i + 7))
  (int_sum true id_order 4 2 (wire int_wire ex_ints1) (repeat 6 40) (fun i => Z.of_nat i))
  (fun r0 r1 => r1 = RET_NO_ANS /\ r0 = RET_ANS 6).
Proof.
  apply (int_sum_correct 4 id_order id_order 2 2 _ _ ex_ints0 ex_ints1 (repeat 5 40) (repeat 6 40) _ _ [ex_pk 97]);
    auto using id_fair, ex_int_arrives0, ex_int_arrives1, ex_int_accepted; try lia;
    repeat constructor; cbn; lia.
Qed.
Example or_ex : both
  (xor_op false id_order false 2 (wire int_wire ex_ints0) (repeat 5 40))
  (xor_op true id_order false 2 (wire int_wire ex_ints1) (repeat 6 40))
  (fun r0 r1 => r0 = RET_ANS true).
Proof.
  destruct (exec_obs_always 20
    (xor_op false id_order false 2 (wire int_wire ex_ints0) (repeat 5 40))
    (xor_op true id_order false 2 (wire int_wire ex_ints1) (repeat 6 40)) (fun a _ => a) (RET_ANS true))
    as (x & y & H & E); [vm_compute; reflexivity|]. exists x, y. auto.
Qed.

(** Values 1 and 2 of at most B = 3. *)
Definition ex_rows0 : list (list Z * list Z) := [(ex_pk 97, [10; 20; 0; 0]); (ex_pk 98, [7; 8; 9; 5])].
Definition ex_rows1 : list (list Z * list Z) := [(ex_pk 97, [11; 22; 0; 0]); (ex_pk 98, [1; 2; 3; 5])].
Lemma ex_rows_arrive0 : arrives max_wire 2 (wire max_wire ex_rows0) ex_rows0.
Proof. exists []. split; [now rewrite app_nil_r|]. split; [now left|]. split; [repeat constructor|reflexivity]. Qed.
Lemma ex_rows_arrive1 : arrives max_wire 2 (wire max_wire ex_rows1) ex_rows1.
Proof. exists []. split; [now rewrite app_nil_r|]. split; [now left|]. split; [repeat constructor|reflexivity]. Qed.
Lemma ex_rows_accepted : accepted any ex_rows0 ex_rows1 [ex_pk 97; ex_pk 98].
Proof.
  split.
  - constructor; [|constructor; [easy|constructor]]. intros [H|[]]. discriminate H.
  - intros pk. cbn -[ex_pk]. rewrite !andb_true_r.
    destruct (key_eqb_spec (ex_pk 97) pk) as [<-|N1]; [split; [split; discriminate|auto]|].
    destruct (key_eqb_spec (ex_pk 98) pk) as [<-|N2]; [split; [split; discriminate|auto]|].
    split; [intros [H|[H|[]]]; congruence|]. intros [_ H]. now elim H.
Qed.
Example max_ex : both
  (max_op false id_order true 3 2 (wire max_wire ex_rows0) (ex_pk 0) (fun _ => repeat 1 32))
  (max_op true id_order true 3 2 (wire max_wire ex_rows1) (ex_pk 0) (fun _ => repeat 1 32))
  (fun r0 r1 => r1 = RET_NO_ANS /\ r0 = RET_ANS 2).
Proof.
  assert (R0 : rows_ok 3 ex_rows0) by (repeat constructor; cbn; lia).
  assert (R1 : rows_ok 3 ex_rows1) by (repeat constructor; cbn; lia).
  assert (J : forall i : nat, length ((fun _ => repeat 1 32) i : list Z) = (8 * (3 + 1))%nat) by reflexivity.
  assert (H : highest 3 (fun j => zxors (map (combined any (xor_at j) 0 ex_rows0 ex_rows1) [ex_pk 97; ex_pk 98])) 2).
  { split; [lia|]. split; [vm_compute; discriminate|]. intros k Hk.
    assert (k = 3%nat) by lia. subst. reflexivity. }
  exact (max_min_correct true 3 id_order id_order 2 2 _ _ ex_rows0 ex_rows1 (ex_pk 0) (ex_pk 0)
    (fun _ => repeat 1 32) (fun _ => repeat 1 32) [ex_pk 97; ex_pk 98] 2
    id_fair ex_rows_arrive0 ex_rows_arrive1 R0 R1 eq_refl eq_refl eq_refl eq_refl J J ex_rows_accepted (or_intror H)).
Qed.
Example repeats_ex : repeats any [(ex_pk 97, true); (ex_pk 98, true); (ex_pk 99, false)] ex_bits0.
Proof.
  exact (rep_add any _ [] (ex_pk 97) true [(ex_pk 98, true)] false [(ex_pk 99, false)] (rep_refl _ _) eq_refl).
Qed.
