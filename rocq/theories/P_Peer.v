(** * No program at the other server makes a server's behaviour undefined (C67)

    Nothing is assumed of the other server: [safe server p Q] (SpecPeer.v) quantifies over
    every program [q] at the other end, every schedule and every buffer size.  [breakable]
    is the opposite: some program at the other end leads to undefined behaviour.
    [against p i w] is the fate of a server when [i] are the bytes and [w] the results of
    oblivious transfers that reach it. *)
From Coq Require Import ZArith List Bool Lia.
From Verif Require Import Words WordsFacts Constants Share Proc ProcFacts Net NetFacts SpecNet RelFacts OT Correlated
  ServerOps SpecServer ServerFacts ServerProps SpecStat SpecAvail AvailFacts
  SpecPeer PeerFacts PeerProps PeerStat PeerLin PeerFreq PeerSingle P_Client P_Server P_Snip P_Stat P_Freq P_Avail.
Import ListNotations.
Open Scope Z_scope.

(** The fate of a server depends on what reaches it, and everything can reach it: some
    program at the other end leads to undefined behaviour (to the result [a]) exactly if
    some bytes and transfers do. *)
Theorem peer_breaks server {A} (p : proc A) : breakable server p <-> exists i w, against p i w = Breaks.
Proof. exact (breakable_against server p). Qed.
Print Assumptions peer_breaks.
Theorem peer_safe server {A} (p : proc A) Q :
  safe server p Q <-> forall i w, match against p i w with Returns a => Q a | Breaks => False | Waits => True end.
Proof. exact (safe_against server p Q). Qed.
Print Assumptions peer_safe.

(** ** BIT_SUM, INT_SUM, AND, OR: either server, any other end *)
Theorem bit_sum_peer server order total stream junk rnd :
  bools_at 33 32 stream -> length junk = 33%nat -> is_bool (nth 32 junk 0) ->
  safe server (bit_sum server order total stream junk rnd) (proper server).
Proof. intros H L J. apply safe_against. exact (bit_peer server order total stream junk rnd H L J). Qed.
Print Assumptions bit_sum_peer.
Theorem int_sum_peer server order nb total stream junk rnd : (nb <= 63)%nat ->
  safe server (int_sum server order nb total stream junk rnd) (proper server).
Proof. intros H. apply safe_against. exact (int_peer server order nb total stream junk rnd H). Qed.
Print Assumptions int_sum_peer.
Theorem and_or_peer server order is_and total stream junk :
  safe server (xor_op server order is_and total stream junk) (proper server).
Proof. apply safe_against. exact (xor_peer server order is_and total stream junk). Qed.
Print Assumptions and_or_peer.

(** ** MAX, MIN *)
Theorem max_min_peer1 order is_max B total stream pk0 junk : Z.of_nat total * (Z.of_nat B + 1) < two32 ->
  safe true (max_op true order is_max B total stream pk0 junk) (proper true).
Proof. intros H. apply safe_against. exact (max_peer1 order is_max B total stream pk0 junk H). Qed.
Print Assumptions max_min_peer1.
(** Server 0 exactly when server 1 announces enough known identities and then sends
    back the xor of server 0's own rows. *)
Theorem max_min_peer0 is_max B order total stream subs pk0 junk i w :
  arrives max_wire total stream subs -> rows_ok B subs -> Z.of_nat total * (Z.of_nat B + 1) < two32 ->
  length pk0 = 32%nat -> (forall i, length (junk i) = (8 * (B + 1))%nat) ->
  against (max_op false order is_max B total stream pk0 junk) i w = Breaks <->
  exists pks rest, announced i pks rest /\ (8 * (B + 1) <= length rest)%nat /\
    (total <= 2 * length (filter (knows any subs) pks))%nat /\
    forall j, (j <= B)%nat -> le_val (firstn 8 (skipn (8 * j) rest)) = zxors (map (own_word j subs) pks).
Proof. exact (max_peer0 i w is_max B order total stream subs pk0 junk). Qed.
Print Assumptions max_min_peer0.
(** Finding: server 1 needs no knowledge for this beyond one identity: it announces it an
    even number of times and sends zeros. *)
Theorem max_min_peer0_refuted is_max B order total stream subs pk0 junk pk :
  arrives max_wire total stream subs -> rows_ok B subs -> Z.of_nat total * (Z.of_nat B + 1) < two32 ->
  length pk0 = 32%nat -> (forall i, length (junk i) = (8 * (B + 1))%nat) ->
  knows any subs pk = true ->
  breakable false (max_op false order is_max B total stream pk0 junk).
Proof. exact (max_breakable is_max B order total stream subs pk0 junk pk). Qed.
Print Assumptions max_min_peer0_refuted.

(** ** VAR, STDDEV, LINREG

    Finding: if server 1 announces no identity, server 0 dereferences the first circuit of
    an empty batch ([circuit[0]], /repo/server.cpp:197-272).  Finding: if it announces
    someone known to server 0 twice, server 0 frees the same packet twice
    (/repo/server.cpp:849; in LINREG it also reads freed arrays, lines 1094-1104).
    Nothing else breaks it. *)
Theorem var_peer_server0 order nb total stream junk K rnd st :
  (nb < 32)%nat -> bytes stream -> length junk = 48%nat -> Z.of_nat total < two32 ->
  exists subs, arrives_cut var_wire var_size total stream subs /\ forall i w,
  (against (var_op false order nb total stream junk K rnd st) i w = Breaks <->
   exists pks rest, announced i pks rest /\
     (pks = [] \/ known_twice (var_fits nb) subs pks /\ (24 * length pks <= length rest)%nat)) /\
  (forall r, against (var_op false order nb total stream junk K rnd st) i w = Returns r -> ended (fst r)).
Proof. exact (var_peer0 order nb total stream junk K rnd st). Qed.
Print Assumptions var_peer_server0.
Theorem var_peer_server0_refuted order nb total stream junk K rnd st :
  (nb < 32)%nat -> bytes stream -> length junk = 48%nat -> Z.of_nat total < two32 ->
  breakable false (var_op false order nb total stream junk K rnd st).
Proof. exact (var_breakable order nb total stream junk K rnd st). Qed.
Print Assumptions var_peer_server0_refuted.
(** Server 1, as soon as it has one acceptable record. *)
Theorem var_peer_server1 order nb total stream junk K rnd st :
  (nb < 32)%nat -> fair order -> bytes stream -> length junk = 48%nat -> Z.of_nat total < two32 ->
  exists subs, arrives_cut var_wire var_size total stream subs /\
    ((exists pk, first_sub (var_fits nb) subs pk <> None) ->
     safe true (var_op true order nb total stream junk K rnd st) (fun r => fst r = RET_NO_ANS)).
Proof. exact (var_safe1 order nb total stream junk K rnd st). Qed.
Print Assumptions var_peer_server1.

Theorem linreg_peer_server0 degree order nb total stream d0 junk garbage K rnd st :
  (nb < 32)%nat -> (1 <= degree)%nat -> (num_quad degree + num_x degree < 2 ^ 18)%nat -> bytes stream ->
  length junk = 32%nat -> length d0 = 8%nat -> Z.of_nat total < two32 ->
  (forall i, let '(x, x2, xy) := garbage i in linreg_shape degree (x, 0, x2, xy)) ->
  let run := linreg_op false order nb total (degree_wire degree ++ stream) d0 junk garbage K rnd st in
  exists subs, arrives_cut linreg_wire (linreg_size degree) total stream subs /\ forall i w,
  (against run i w = Breaks <->
   exists pks rest, announced i pks rest /\ (pks = [] \/ known_twice (linreg_fits nb) subs pks)) /\
  (forall r, against run i w = Returns r -> ended (fst r)).
Proof. exact (linreg_peer0 degree order nb total stream d0 junk garbage K rnd st). Qed.
Print Assumptions linreg_peer_server0.
Theorem linreg_peer_server0_refuted degree order nb total stream d0 junk garbage K rnd st :
  (nb < 32)%nat -> (1 <= degree)%nat -> (num_quad degree + num_x degree < 2 ^ 18)%nat -> bytes stream ->
  length junk = 32%nat -> length d0 = 8%nat -> Z.of_nat total < two32 ->
  (forall i, let '(x, x2, xy) := garbage i in linreg_shape degree (x, 0, x2, xy)) ->
  breakable false (linreg_op false order nb total (degree_wire degree ++ stream) d0 junk garbage K rnd st).
Proof. exact (linreg_breakable degree order nb total stream d0 junk garbage K rnd st). Qed.
Print Assumptions linreg_peer_server0_refuted.
Theorem linreg_peer_server1 degree order nb total stream d0 junk garbage K rnd st :
  (nb < 32)%nat -> (1 <= degree)%nat -> (num_quad degree + num_x degree < 2 ^ 18)%nat -> fair order -> bytes stream ->
  length junk = 32%nat -> length d0 = 8%nat -> Z.of_nat total < two32 ->
  exists subs, arrives_cut linreg_wire (linreg_size degree) total stream subs /\
    ((exists pk, first_sub (linreg_fits nb) subs pk <> None) ->
     safe true (linreg_op true order nb total (degree_wire degree ++ stream) d0 junk garbage K rnd st)
       (fun r => fst r = RET_NO_ANS)).
Proof. exact (linreg_safe1 degree order nb total stream d0 junk garbage K rnd st). Qed.
Print Assumptions linreg_peer_server1.

(** ** FREQ

    Server 0 exactly when more identities are announced than it expected records (it
    writes behind the end of [pk_list]), or the byte of the total parity is neither 0 nor
    1. *)
Theorem freq_peer_server0 order nb total stream pk0 junk c T s i w : server_num c = false -> (nb <= 30)%nat ->
  let run := freq_op false order nb total stream pk0 junk c T s in
  let at_ (pks : list (list Z)) := bool_bytes (length pks * Z.to_nat (2 ^ Z.of_nat nb)) in
  (against run i w = Breaks <->
   exists pks rest, announced i pks rest /\
     ((total < length pks)%nat \/ (at_ pks < length rest)%nat /\ ~ is_bool (nth (at_ pks) rest 0))) /\
  (forall r, against run i w = Returns r -> ended (fst r)).
Proof. exact (freq_peer0 order nb total stream pk0 junk c T s i w). Qed.
Print Assumptions freq_peer_server0.
(** Server 1 exactly when one certain byte is neither 0 nor 1; its place does not depend on
    what arrives. *)
Theorem freq_peer_server1 order nb total stream pk0 junk c T s : server_num c = true -> lazy c = true -> (nb <= 30)%nat ->
  let run := freq_op true order nb total stream pk0 junk c T s in
  exists k, forall i w,
  (against run i w = Breaks <-> (k < length i)%nat /\ ~ is_bool (nth k i 0)) /\
  (forall r, against run i w = Returns r -> fst r = RET_NO_ANS).
Proof. exact (freq_peer1 order nb total stream pk0 junk c T s). Qed.
Print Assumptions freq_peer_server1.
Theorem freq_peer_refuted server order nb total stream pk0 junk c T s :
  server_num c = server -> lazy c = true -> (nb <= 30)%nat -> Z.of_nat total + 1 < two32 ->
  breakable server (freq_op server order nb total stream pk0 junk c T s).
Proof. exact (freq_breakable server order nb total stream pk0 junk c T s). Qed.
Print Assumptions freq_peer_refuted.

(** ** Examples *)
(** Server 1 does not follow the protocol at all: it sends 8 bytes that announce two
    identities, a known one twice, then a word; server 0 still ends properly. *)
Definition odd_bytes : list Z := le_bytes 8 (bswap32 2) ++ ex_pk 97 ++ ex_pk 97 ++ repeat 9 8.
Example int_odd : exists x,
  against (int_sum false id_order 4 2 (wire int_wire ex_ints0) (repeat 5 40) (fun i => Z.of_nat i + 7)) odd_bytes [] = Returns (RET_ANS x).
Proof. vm_compute. eexists. reflexivity. Qed.
(** The crash of MAX: the identity 97 twice, then zeros. *)
Example max_odd : against (max_op false id_order true 3 2 (wire max_wire P_Server.ex_rows0) (ex_pk 0) (fun _ => repeat 1 32))
  (le_bytes 8 (bswap32 2) ++ ex_pk 97 ++ ex_pk 97 ++ repeat 0 32) [] = Breaks.
Proof. vm_compute. reflexivity. Qed.
Example max_odd_hyps : knows any P_Server.ex_rows0 (ex_pk 97) = true /\ rows_ok 3 P_Server.ex_rows0 /\
  arrives max_wire 2 (wire max_wire P_Server.ex_rows0) P_Server.ex_rows0.
Proof. split; [reflexivity|]. split; [repeat constructor; cbn; lia|apply P_Server.ex_rows_arrive0]. Qed.
(** VAR: no identity. *)
Example var_none : against (var_op false id_order 24 2 long_noise (repeat 7 48) (fun n => Z.of_nat n + 3) ex_tape (ex_state 5))
  (le_bytes 8 0) [] = Breaks.
Proof. vm_compute. reflexivity. Qed.
(** VAR: a client of server 0 is announced twice; the double free is reached with the last
    of the 48 bytes that are read before it. *)
Definition twice_bytes (n : nat) : list Z :=
  let pk := nth 0 (map ClientOps.c_pk ex_vars) [] in le_bytes 8 (bswap32 2) ++ pk ++ pk ++ repeat 0 n.
Example var_twice :
  let run := var_op false id_order 3 5 (wire var_wire ex_vars0 ++ ex_cut) (repeat 7 48) (fun n => Z.of_nat n + 3) ex_tape (ex_state 5) in
  knows (var_fits 3) ex_vars0 (nth 0 (map ClientOps.c_pk ex_vars) []) = true /\
  against run (twice_bytes 48) [] = Breaks /\ against run (twice_bytes 47) [] = Waits.
Proof. vm_compute. repeat split; reflexivity. Qed.
(** FREQ with two values and two records: three identities announced; a parity byte 2. *)
Example freq_many : against (freq_op false id_order 1 2 [] (ex_pk 0) ex_old ex_c0 (fun i => Z.of_nat i) ex_store0)
  (le_bytes 8 (bswap32 3) ++ repeat 7 96) [] = Breaks.
Proof. vm_compute. reflexivity. Qed.
Example freq_parity : against (freq_op false id_order 1 2 [] (ex_pk 0) ex_old ex_c0 (fun i => Z.of_nat i) ex_store0)
  (le_bytes 8 (bswap32 2) ++ repeat 7 64 ++ [0; 2]) [] = Breaks /\
  against (freq_op false id_order 1 2 [] (ex_pk 0) ex_old ex_c0 (fun i => Z.of_nat i) ex_store0)
  (le_bytes 8 (bswap32 2) ++ repeat 7 64 ++ [0; 1]) [] = Waits.
Proof. vm_compute. split; reflexivity. Qed.
