(** * C50: the record sent to one server tells it nothing about the private value *)
From Coq Require Import ZArith List Bool Lia.
From Verif Require Import Words Constants Share Net Poly Circuit Snip ServerOps ClientOps SpecSecret ServerFacts ClientFacts SecretFacts SecretProof.
Import ListNotations.
Open Scope Z_scope.

(** Vocabulary in SpecSecret.v.  [independent one legal possible]: every legal private value
    goes with every possible share of either server, and with every identity. *)
Theorem bit_record_secret : independent bit_request (fun _ => True) (fun _ => True).
Proof. exact bit_independent. Qed.
Print Assumptions bit_record_secret.

Theorem int_record_secret : forall num_bits, (num_bits <= 63)%nat ->
  independent (int_request (2 ^ Z.of_nat num_bits))
    (fun v => 0 <= v < 2 ^ Z.of_nat num_bits) (fun w => 0 <= w < 2 ^ Z.of_nat num_bits).
Proof. exact int_independent. Qed.
Print Assumptions int_record_secret.

(** Also independent of the encoding (the XOR of the two shares), not only of the value. *)
Theorem and_or_record_secret : forall is_and,
  independent (with_encoding Z.lxor (xor_request is_and)) (xor_legal is_and) (fun w => 0 <= w < two64).
Proof. exact xor_independent. Qed.
Print Assumptions and_or_record_secret.

Theorem max_min_record_secret : forall is_max B, Z.of_nat B < two32 ->
  independent (with_encoding (map2 Z.lxor) (max_request is_max B)) (max_legal is_max B) (row_ok B).
Proof. exact max_independent. Qed.
Print Assumptions max_min_record_secret.

Theorem freq_record_secret : forall n, (0 < n)%nat -> Z.of_nat n <= two64 ->
  independent (freq_request n) (fun v => (v < n)%nat) (fun w => length w = n).
Proof. exact freq_independent. Qed.
Print Assumptions freq_record_secret.

(** The packet of the proof of validity: whatever the circuit, its wires (hence the private
    input) and the polynomials' random values, one choice of the masks, modulo p, gives any
    possible packet to a server. *)
Theorem packet_reveals_nothing : forall t c wires T s side N pkt,
  NextPowerOfTwo (Z.of_nat (NumMulGates c)) = Some (Z.of_nat N) -> possible_packet (NumMulGates c) N pkt ->
  exists T', (forall i, no_mask s N (NumMulGates c) i -> T' i = T i) /\
    packet_for side (share_polynomials t c wires T' s) = Some pkt /\
    forall T'', (forall i, no_mask s N (NumMulGates c) i -> T'' i = T i) ->
      packet_for side (share_polynomials t c wires T'' s) = Some pkt ->
      forall i, fmpz_randm (T'' i) Int_Modulus = fmpz_randm (T' i) Int_Modulus.
Proof. exact packet_secret. Qed.
Print Assumptions packet_reveals_nothing.

Theorem var_record_secret : forall num_bits, (num_bits <= 31)%nat ->
  independent_with_proof (var_request (2 ^ Z.of_nat num_bits))
    (fun v => 0 <= v < 2 ^ Z.of_nat num_bits) (possible_var num_bits).
Proof. exact var_independent. Qed.
Print Assumptions var_record_secret.

Theorem linreg_record_secret : forall num_bits degree, (num_bits <= 31)%nat -> (1 <= degree)%nat ->
  independent_with_proof (linreg_request degree (2 ^ Z.of_nat num_bits))
    (legal_linreg num_bits degree) (possible_linreg num_bits degree).
Proof. exact linreg_independent. Qed.
Print Assumptions linreg_record_secret.

(** Whole runs: all that a server receives from the clients fits any value of the first one.
    (Not of the later ones: the identity of a client is made of the generator's next blocks,
    see C46.) *)
Theorem first_bit_hidden : first_hidden bit_request (fun _ => True).
Proof. exact bit_hidden. Qed.
Print Assumptions first_bit_hidden.

Theorem first_int_hidden : forall num_bits, (num_bits <= 63)%nat ->
  first_hidden (int_request (2 ^ Z.of_nat num_bits)) (fun v => 0 <= v < 2 ^ Z.of_nat num_bits).
Proof. exact int_hidden. Qed.
Print Assumptions first_int_hidden.

Theorem first_and_or_hidden : forall is_and, first_hidden (xor_request is_and) (fun _ => True).
Proof. exact xor_hidden. Qed.
Print Assumptions first_and_or_hidden.

Theorem first_max_min_hidden : forall is_max B, Z.of_nat B < two32 ->
  first_hidden (max_request is_max B) (fun v => (v <= B)%nat).
Proof. exact max_hidden. Qed.
Print Assumptions first_max_min_hidden.

Theorem first_freq_hidden : forall n, (0 < n)%nat -> Z.of_nat n <= two64 ->
  first_hidden (freq_request n) (fun v => (v < n)%nat).
Proof. exact freq_hidden. Qed.
Print Assumptions first_freq_hidden.

(** ** Concrete cases *)
Definition zero_prg : prg := fun _ => repeat 0 16.
Example zero_blocks : is_blocks zero_prg.
Proof. intros i. split; [reflexivity|]. apply Forall_forall. intros x Hx. apply repeat_spec in Hx. subst x. split; lia. Qed.

(** Server 0 got 5 from a client of INTSUM with 4 bits: the value may be 9, or 2. *)
Example int_secret_ex : forall v, v = 9 \/ v = 2 -> exists g, is_blocks g /\
  c_real (fst (int_request 16 g 0)) = v /\ c_0 (fst (int_request 16 g 0)) = 5.
Proof.
  intros v Hv. destruct (int_record_secret 4 ltac:(lia) zero_prg 0%nat false v 5 zero_blocks ltac:(cbn; lia) ltac:(cbn; lia))
    as (g & G & _ & _ & R & S). exists g. now split.
Qed.
(** Server 1 got a certain row of MAX with B = 2: the value may be 0, 1 or 2. *)
Example max_secret_ex : forall v, (v <= 2)%nat -> exists g, is_blocks g /\
  c_real (fst (max_request true 2 g 0)) = v /\ c_1 (fst (max_request true 2 g 0)) = [7; 8; 9].
Proof.
  intros v Hv.
  destruct (max_min_record_secret true 2 ltac:(reflexivity) zero_prg 0%nat true (v, [0; 0; 0]) [7; 8; 9] zero_blocks) as (g & G & _ & _ & R & S).
  - split; [exact Hv|]. split.
    + split; [reflexivity|]. repeat (apply Forall_cons; [unfold two64; lia|]). apply Forall_nil.
    + intros j _. cbn [snd]. do 3 (destruct j as [|j]; [reflexivity|]). now destruct j.
  - split; [reflexivity|]. repeat (apply Forall_cons; [unfold two64; lia|]). apply Forall_nil.
  - exists g. split; [exact G|]. unfold with_encoding in R, S. destruct (max_request true 2 g 0) as [r q]. cbn in *. injection R as R _. now split.
Qed.
(** VAR with 8 bits: a record of server 1 that fits every value. *)
Definition ex_packet : ClientPacket :=
  mkPacket [123456] 1 2 3 [4; 5] (mkBTS 6 7 8).
Example var_request_ok : exists r st, var_request 256 zero_prg (fun _ => 3) (0%nat, 0%nat, None) = Some (r, st).
Proof. vm_compute. eauto. Qed.
Example var_secret_ex : forall v, 0 <= v < 256 -> exists g T r st, is_blocks g /\
  var_request 256 g T (0%nat, 0%nat, None) = Some (r, st) /\ c_real r = v /\ c_1 r = (200, 60000, ex_packet).
Proof.
  intros v Hv. destruct var_request_ok as (r & [[pos s] tabs] & E).
  destruct (var_record_secret 8 ltac:(lia) zero_prg (fun _ => 3) 0%nat 0%nat None true v (200, 60000, ex_packet) r pos s tabs
              zero_blocks Hv) as (g & T & r' & E' & G & _ & _ & R & S & _).
  - split; [cbn; lia|]. split; [cbn; lia|]. unfold possible_packet. cbn [MulShares f0_s g0_s h0_s h_points triple_share shareA shareB shareC ex_packet].
    change (NumMulGates CheckVar) with 1%nat. replace (points_of CheckVar) with 2%nat by reflexivity.
    repeat split; try (repeat constructor); try (vm_compute; congruence).
  - exact E.
  - exists g, T, r', (pos, s, tabs). repeat (split; [assumption|]). assumption.
Qed.
