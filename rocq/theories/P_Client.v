(** * The client, and whole runs of the sum, AND/OR, MAX/MIN operations

    In the theorems on whole runs one client process makes [n] requests from a
    generator [g] and sends them to the two servers, which run the operation. *)
From Coq Require Import ZArith List Bool Lia.
From Verif Require Import Words WordsFacts Constants Proc Net RelFacts
  ServerOps SpecServer TableFacts ServerFacts ServerProps ServerCor ClientOps SpecClient ClientFacts ClientProps.
Import ListNotations.
Open Scope Z_scope.

(** ** Identities *)

Theorem identity_well_formed b : length b = 16%nat -> Forall is_byte b ->
  length (pub_key_to_hex b) = 32%nat /\ Forall is_hex (pub_key_to_hex b).
Proof. intros L F. destruct (pk_spec b L F) as (A & B & _). auto. Qed.
Print Assumptions identity_well_formed.

Theorem identity_injective b b' :
  length b = 16%nat -> Forall is_byte b -> length b' = 16%nat -> Forall is_byte b' ->
  pub_key_to_hex b = pub_key_to_hex b' -> b = b'.
Proof. exact (pk_injective b b'). Qed.
Print Assumptions identity_injective.

(** Leading zeros are kept. *)
Example identity_ex : pub_key_to_hex [1; 2; 0; 0; 0; 0; 0; 0; 255; 0; 0; 0; 0; 0; 0; 0] =
  map Z.of_nat [48;48;48;48;48;48;48;48;48;48;48;48;48;50;48;49;
                48;48;48;48;48;48;48;48;48;48;48;48;48;48;102;102]%nat.
Proof. reflexivity. Qed.

(** Identities made for the requests of one run are different. *)
Theorem identities_distinct {V W} g (one : nat -> crec V W * nat) n :
  prg_ok g -> fresh_pk g one -> Z.of_nat (snd (requests one n 0)) < two64 ->
  NoDup (map c_pk (fst (requests one n 0))).
Proof. exact (requests_nodup g one n 0). Qed.
Print Assumptions identities_distinct.

(** Such a generator: *)
Definition ex_prg : prg := fun i => le_bytes 16 (Z.of_nat (3 * i) + 1).
Example ex_prg_ok : prg_ok ex_prg.
Proof.
  split.
  - intros i. split; [apply le_bytes_length|apply le_bytes_bytes].
  - intros i j Hi Hj E. apply (f_equal le_val) in E. unfold ex_prg in E.
    rewrite !le_val_bytes_small in E; [lia| |];
      change (256 ^ Z.of_nat 16) with (two64 * two64); unfold two64 in *; lia.
Qed.

(** ** Whole runs *)

Theorem bit_sum_run g n order0 order1 junk0 junk1 rnd0 rnd1 :
  prg_ok g -> Z.of_nat n < two32 -> fair order1 -> length junk0 = 33%nat -> length junk1 = 33%nat ->
  let l := fst (requests (bit_request g) n 0) in
  both (bit_sum false order0 n (wire BitShare_bytes (subs0 l)) junk0 rnd0)
       (bit_sum true order1 n (wire BitShare_bytes (subs1 l)) junk1 rnd1)
    (fun r0 r1 => r1 = RET_NO_ANS /\ r0 = RET_ANS (zsum (map (fun r => b2z (c_real r)) l))) /\
  bit_ans l = zsum (map (fun r => b2z (c_real r)) l).
Proof. exact (bit_honest g n order0 order1 junk0 junk1 rnd0 rnd1). Qed.
Print Assumptions bit_sum_run.
Example bit_sum_run_ex : map c_real (fst (requests (bit_request ex_prg) 4 0)) = [true; true; true; true] /\
  map c_0 (fst (requests (bit_request ex_prg) 4 0)) = [false; false; false; false].
Proof. split; reflexivity. Qed.

Theorem int_sum_run num_bits g n order0 order1 junk0 junk1 rnd0 rnd1 :
  (num_bits <= 63)%nat ->
  prg_ok g -> Z.of_nat n < two32 -> fair order1 -> length junk0 = 40%nat -> length junk1 = 40%nat ->
  let l := fst (requests (int_request (2 ^ Z.of_nat num_bits) g) n 0) in
  both (int_sum false order0 num_bits n (wire IntShare_bytes (subs0 l)) junk0 rnd0)
       (int_sum true order1 num_bits n (wire IntShare_bytes (subs1 l)) junk1 rnd1)
    (fun r0 r1 => r1 = RET_NO_ANS /\ r0 = RET_ANS (zsum (map c_real l) mod two64)) /\
  int_ans l = zsum (map c_real l) mod two64.
Proof. exact (int_honest num_bits g n order0 order1 junk0 junk1 rnd0 rnd1). Qed.
Print Assumptions int_sum_run.
Example int_sum_run_ex :
  map c_real (fst (requests (int_request (2 ^ 3) ex_prg) 3 0)) = [1; 7; 5] /\
  map c_0 (fst (requests (int_request (2 ^ 3) ex_prg) 3 0)) = [4; 2; 0] /\
  map c_1 (fst (requests (int_request (2 ^ 3) ex_prg) 3 0)) = [5; 5; 5].
Proof. repeat split. Qed.

(** The answer is right when no client holds the deciding value ([negb is_and]: 0
    for AND, 1 for OR); it is the deciding value only if some client holds it; and it
    is right unless the encodings cancel. *)
Theorem and_or_run is_and g n order0 order1 junk0 junk1 :
  prg_ok g -> Z.of_nat n < two32 -> fair order1 -> length junk0 = 40%nat -> length junk1 = 40%nat ->
  let l := fst (requests (xor_request is_and g) n 0) in
  let e := zxors (map (fun r => Z.lxor (c_0 r) (c_1 r)) l) in
  both (xor_op false order0 is_and n (wire IntShare_bytes (subs0 l)) junk0)
       (xor_op true order1 is_and n (wire IntShare_bytes (subs1 l)) junk1)
    (fun r0 r1 => r1 = RET_NO_ANS /\
       exists ans, r0 = RET_ANS ans /\
         (xor_ans is_and l = is_and -> ans = is_and) /\
         (xor_ans is_and l = negb is_and -> e <> 0 -> ans = negb is_and) /\
         (ans = negb is_and -> exists r, In r l /\ c_real r = negb is_and)).
Proof. exact (xor_honest is_and g n order0 order1 junk0 junk1). Qed.
Print Assumptions and_or_run.
(** What [xor_ans] is. *)
Theorem and_or_answer is_and (l : list (crec Z bool)) :
  xor_ans is_and l = is_and <-> forall r, In r l -> c_real r = is_and.
Proof. exact (xor_ans_neutral is_and l). Qed.
Print Assumptions and_or_answer.

(** MAX/MIN over values up to [B]: [m] is the true extremum; the answer is [m] unless
    the encodings at its index cancel; it is never beyond [m]. *)
Theorem max_min_run is_max B g n order0 order1 pk0 pk1 junk0 junk1 :
  prg_ok g -> Z.of_nat n * (Z.of_nat B + 1) < two32 -> (0 < n)%nat -> fair order1 ->
  length pk0 = 32%nat -> length pk1 = 32%nat ->
  (forall i, length (junk0 i) = (8 * (B + 1))%nat) -> (forall i, length (junk1 i) = (8 * (B + 1))%nat) ->
  let l := fst (requests (max_request is_max B g) n 0) in
  let X := fun j => zxors (map (fun r => xor_at j (c_0 r) (c_1 r)) l) in
  let m := max_ans is_max B l in
  let p := max_op false order0 is_max B n (wire maxshare_bytes (subs0 l)) pk0 junk0 in
  let q := max_op true order1 is_max B n (wire maxshare_bytes (subs1 l)) pk1 junk1 in
  extremum is_max l m /\
  (X (if is_max then m else B - m)%nat <> 0 ->
     both p q (fun r0 r1 => r1 = RET_NO_ANS /\ r0 = RET_ANS (Z.of_nat m))) /\
  ((exists j, (j <= B)%nat /\ X j <> 0) ->
     both p q (fun r0 r1 => r1 = RET_NO_ANS /\
       exists a, r0 = RET_ANS (Z.of_nat a) /\ if is_max then (a <= m)%nat else (m <= a)%nat)).
Proof. exact (max_honest is_max B g n order0 order1 pk0 pk1 junk0 junk1). Qed.
Print Assumptions max_min_run.
Example max_min_run_ex :
  map c_real (fst (requests (max_request true 3 ex_prg) 3 0)) = [1%nat; 0%nat; 3%nat] /\
  max_ans true 3 (fst (requests (max_request true 3 ex_prg) 3 0)) = 3%nat /\
  zxors (map (fun r => xor_at 3 (c_0 r) (c_1 r)) (fst (requests (max_request true 3 ex_prg) 3 0))) = 0 /\
  max_ans false 3 (fst (requests (max_request false 3 ex_prg) 3 0)) = 0%nat /\
  zxors (map (fun r => xor_at 2 (c_0 r) (c_1 r)) (fst (requests (max_request false 3 ex_prg) 3 0))) <> 0.
Proof. vm_compute. repeat split. discriminate. Qed.

(** ** Identities reveal private values

    Finding: the block an identity is made of is the one the next private value is
    drawn from, so whoever sees the identity of a request (both servers do) can
    compute the private value of the next request of the same process. *)
Theorem bit_identity_reveals_next g n i d : prg_ok g -> (S i < n)%nat ->
  let l := fst (requests (bit_request g) n 0) in
  c_real (nth (S i) l d) = Z.odd (unhex (firstn 16 (c_pk (nth i l d)))).
Proof.
  intros HG Hi l. apply (pk_determines_next g (bit_request g) Z.odd); auto using bit_fresh.
  intros pos. now apply bool1_block.
Qed.
Print Assumptions bit_identity_reveals_next.
Theorem and_or_identity_reveals_next is_and g n i d : prg_ok g -> (S i < n)%nat ->
  let l := fst (requests (xor_request is_and g) n 0) in
  c_real (nth (S i) l d) = Z.odd (unhex (firstn 16 (c_pk (nth i l d)))).
Proof.
  intros HG Hi l. apply (pk_determines_next g (xor_request is_and g) Z.odd); auto using xor_fresh.
  intros pos. now apply bool1_block.
Qed.
Print Assumptions and_or_identity_reveals_next.
Theorem int_identity_reveals_next max_int g n i d : prg_ok g -> (S i < n)%nat ->
  let l := fst (requests (int_request max_int g) n 0) in
  c_real (nth (S i) l d) = unhex (firstn 16 (c_pk (nth i l d))) mod max_int.
Proof.
  intros HG Hi l. apply (pk_determines_next g (int_request max_int g) (fun z => z mod max_int)); auto using int_fresh.
  intros pos. cbn [int_request fst c_real]. now rewrite random_u64_block.
Qed.
Print Assumptions int_identity_reveals_next.
Theorem max_identity_reveals_next is_max B g n i d : prg_ok g -> (S i < n)%nat ->
  let l := fst (requests (max_request is_max B g) n 0) in
  c_real (nth (S i) l d) = Z.to_nat (unhex (firstn 16 (c_pk (nth i l d))) mod Z.of_nat (B + 1)).
Proof.
  intros HG Hi l. apply (pk_determines_next g (max_request is_max B g) (fun z => Z.to_nat (z mod Z.of_nat (B + 1)))); auto using max_fresh.
  intros pos. unfold max_request. cbn [fst c_real]. now rewrite random_u64_block.
Qed.
Print Assumptions max_identity_reveals_next.
