(** Exact versions of the choices in SecretProof.v: a proof's draws are determined by what one
    server has and opens. *)
From Coq Require Import ZArith List Bool Lia Permutation.
From Verif Require Import Words WordsFacts Constants Share ShareFacts Net OT Poly Circuit CircuitFacts Snip ServerOps ClientOps SpecSecret ServerFacts ClientFacts
  SecretFacts SnipBatch SpecSnip StatReads StatClient SecretProof SpecExact SpecPrivacy PrivacyExact ExactFacts ExactServer SpecStatPrivacy StatPrivacy SpecStatExact.
Import ListNotations.
Open Scope Z_scope.
Local Notation P := Int_Modulus.
Opaque Int_Modulus Int_Gen init_roots.
Arguments Z.mul : simpl never.
Arguments Z.add : simpl never.
Arguments Z.modulo : simpl never.

(** ** Finite domains *)
Lemma finite_choice {A B} (dec : forall a a' : A, {a = a'} + {a <> a'}) (d : B) (R : A -> B -> Prop) (E : list A) :
  (forall a, In a E -> exists b, R a b) -> exists F, forall a, In a E -> R a (F a).
Proof.
  induction E as [|a E IH]; intros H.
  - exists (fun _ => d). intros a [].
  - destruct IH as (F & HF); [intros; apply H; now right|]. destruct (H a) as (b & Hb); [now left|].
    exists (fun a' => if dec a a' then b else F a'). intros a' I. destruct (dec a a') as [<-|N]; [exact Hb|].
    destruct I as [->|I]; [now elim N|now apply HF].
Qed.
Lemma pairing {A} (dec : forall a a' : A, {a = a'} + {a <> a'}) (dom dom' all : A -> Prop) (R : A -> A -> Prop) (E : list A) (a0 : A) :
  (forall a, all a <-> In a E) -> (forall a, dom a -> all a) -> (forall a, dom' a -> all a) ->
  (forall a, {dom a} + {~ dom a}) -> (forall a, {dom' a} + {~ dom' a}) ->
  (forall a, dom a -> exists b, dom' b /\ R a b) -> (forall b, dom' b -> exists a, dom a /\ R a b) ->
  (forall a b b', dom a -> dom' b -> dom' b' -> R a b -> R a b' -> b = b') ->
  (forall a a' b, dom a -> dom a' -> dom' b -> R a b -> R a' b -> a = a') ->
  exists F, pairs_off dom dom' F /\ forall a, dom a -> R a (F a).
Proof.
  intros HE D D' dd dd' T T' U U'.
  destruct (finite_choice dec a0 (fun a b => dom a -> dom' b /\ R a b) E) as (F & HF).
  { intros a _. destruct (dd a) as [H|H]; [destruct (T a H) as (b & Hb); now exists b|exists a0; contradiction]. }
  destruct (finite_choice dec a0 (fun b a => dom' b -> dom a /\ R a b) E) as (G & HG).
  { intros b _. destruct (dd' b) as [H|H]; [destruct (T' b H) as (a & Ha); now exists a|exists a0; contradiction]. }
  assert (F1 : forall a, dom a -> dom' (F a) /\ R a (F a)) by (intros a H; apply HF; [apply HE, D, H|exact H]).
  assert (G1 : forall b, dom' b -> dom (G b) /\ R (G b) b) by (intros b H; apply HG; [apply HE, D', H|exact H]).
  exists F. split; [|intros a H; apply F1; exact H]. exists G. split.
  - intros a H. destruct (F1 a H) as [H1 H2]. split; [exact H1|]. destruct (G1 _ H1) as [H3 H4]. now apply (U' _ a (F a)).
  - intros b H. destruct (G1 b H) as [H1 H2]. split; [exact H1|]. destruct (F1 _ H1) as [H3 H4]. now apply (U (G b)).
Qed.
Lemma pairs_off_count {D} (dom dom' : D -> Prop) F (A A' : D -> Prop) E E' : pairs_off dom dom' F ->
  (forall d, dom d -> (A d <-> A' (F d))) -> NoDup E -> NoDup E' -> (forall d, In d E <-> dom d /\ A d) -> (forall d, In d E' <-> dom' d /\ A' d) ->
  length E = length E'.
Proof.
  intros (G & H1 & H2) HA N N' HE HE'.
  assert (I : forall (f g : D -> D) (X Y : list D), (forall d, In d X -> In (f d) Y /\ g (f d) = d) -> NoDup X -> (length X <= length Y)%nat).
  { intros f g X Y H ND. rewrite <- (map_length f X). apply NoDup_incl_length.
    - clear -H ND. induction ND as [|x X HX ND IH]; [constructor|]. cbn [map]. constructor.
      + intros I. apply in_map_iff in I as (y & Ey & Hy). apply HX. destruct (H x) as [_ E1]; [now left|]. destruct (H y) as [_ E2]; [now right|]. congruence.
      + apply IH. intros d Hd. apply H. now right.
    - intros y Hy. apply in_map_iff in Hy as (x & <- & Hx). now apply H. }
  apply Nat.le_antisymm.
  - apply (I F G); [|exact N]. intros d Hd. apply HE in Hd as [Hd Ad]. destruct (H1 d Hd) as [X Y]. split; [|exact Y]. apply HE'. split; [exact X|]. now apply HA.
  - apply (I G F); [|exact N']. intros d Hd. apply HE' in Hd as [Hd Ad]. destruct (H2 d Hd) as [X Y]. split; [|exact Y]. apply HE. split; [exact X|].
    apply HA; [exact X|]. now rewrite Y.
Qed.
Lemma below_finite q : exists E, forall z, In z E <-> 0 <= z < q.
Proof.
  exists (map Z.of_nat (seq 0 (Z.to_nat q))). intros z. rewrite in_map_iff. split.
  - intros (k & <- & Hk). apply in_seq in Hk. lia.
  - intros H. exists (Z.to_nat z). split; [lia|]. apply in_seq. lia.
Qed.
Lemma all_draws_finite n m k : exists E, NoDup E /\ forall ds, In ds E <-> all_draws n m k ds.
Proof.
  destruct (below_finite 256) as (bytes & HB). destruct (below_finite P) as (elems & HP).
  set (B := lists_of (lists_of bytes 16) m). set (T := lists_of elems k).
  set (E := lists_of (list_prod B T) n).
  exists (nodup (list_eq_dec (fun x y : client_draws => ltac:(repeat decide equality) : {x = y} + {x <> y})) E). split; [apply NoDup_nodup|].
  intros ds. rewrite nodup_In. unfold E. apply in_lists_of. intros [d t]. etransitivity; [apply in_prod_iff|]. unfold B, T, one_client. cbn [fst snd].
  rewrite (in_lists_of elems (fun z => 0 <= z < P) k HP), (in_lists_of (lists_of bytes 16) block m).
  - tauto.
  - intros b. now apply in_lists_of.
Qed.
Definition draws_dec : forall x y : list client_draws, {x = y} + {x <> y}.
Proof. repeat decide equality. Defined.

(** ** Halves *)
Lemma half_other side r v : half (negb side) r v = (v - half side r v) mod P.
Proof.
  unfold half, SplitShare, fmpz_randm. change p with P. destruct side; cbn [negb fst snd]; [|reflexivity].
  rewrite Zminus_mod_idemp_r. replace (v - (v - r mod P)) with (r mod P) by ring. symmetry. apply Zmod_mod.
Qed.
Lemma half_range side r v : 0 <= half side r v < P.
Proof. apply half_field. Qed.

(** The packets of the two servers, up to the triple. *)
Lemma map2_seq_ext {A B} (f f' : nat -> A -> B) n l : (forall i y, (i < n)%nat -> f i y = f' i y) -> map2 f (seq 0 n) l = map2 f' (seq 0 n) l.
Proof. intros H. apply map2_ext_in'. intros x Hx y. apply in_seq in Hx. apply H. lia. Qed.

Section Packet.
  Variables (side : bool) (t : root_tables) (c : circuit) (wires : list Z) (N : nat).
  Let n := NumMulGates c.
  Let u := (5 + N + n)%nat.

  (** Only residues of the first draws matter. *)
  Lemma packet_half_mod sd T T' : (forall i, (i < u + 5)%nat -> T i mod P = T' i mod P) ->
    packet_half sd t c wires N T 0 = packet_half sd t c wires N T' 0.
  Proof.
    intros H. unfold packet_half. cbv zeta. change (0 + 5 + N + NumMulGates c)%nat with u. fold n.
    assert (HH : forall i v, (i < u + 5)%nat -> half sd (T i) v = half sd (T' i) v).
    { intros i v Hi. unfold half, SplitShare, fmpz_randm. change p with P. now rewrite (H i Hi). }
    assert (R : forall i, (i < u + 5)%nat -> fmpz_randm (T i) P = fmpz_randm (T' i) P) by (intros i Hi; exact (H i Hi)).
    change p with P. change (0 + 1)%nat with 1%nat. rewrite (R 0%nat), (R 1%nat) by (unfold u; lia).
    assert (NB : NewBeaverTriple (T u) (T (u + 1)%nat) = NewBeaverTriple (T' u) (T' (u + 1)%nat)).
    { unfold NewBeaverTriple. change p with P. now rewrite (R u), (R (u + 1)%nat) by lia. }
    rewrite NB.
    f_equal.
    - apply map2_seq_ext. intros i y Hi. apply HH. unfold u. lia.
    - apply HH. unfold u. lia.
    - apply HH. unfold u. lia.
    - apply HH. unfold u. lia.
    - apply map_ext_in. intros j Hj. apply in_seq in Hj. apply HH. unfold u. lia.
    - f_equal; apply HH; lia.
  Qed.

  (** Draws that agree on f(0), g(0) and give one server the same packet give the other
      the same packet but for the triple. *)
  Lemma other_up_to_triple T1 T2 : T1 0%nat = T2 0%nat -> T1 1%nat = T2 1%nat ->
    packet_half side t c wires N T1 0 = packet_half side t c wires N T2 0 ->
    let q1 := packet_half (negb side) t c wires N T1 0 in let q2 := packet_half (negb side) t c wires N T2 0 in
    MulShares q1 = MulShares q2 /\ f0_s q1 = f0_s q2 /\ g0_s q1 = g0_s q2 /\ h0_s q1 = h0_s q2 /\ h_points q1 = h_points q2.
  Proof.
    intros E0 E1 E. unfold packet_half in E. cbv zeta in E. cbn [Nat.add] in E. injection E as Em Ef Eg Eh Ep _ _ _.
    cbv zeta. unfold packet_half. cbv zeta. cbn [MulShares f0_s g0_s h0_s h_points Nat.add].
    rewrite E0, E1 in *. rewrite !half_other. rewrite Ef, Eg, Eh. split; [|split; [reflexivity|split; [reflexivity|split; [reflexivity|]]]].
    - revert Em. generalize (seq 0 (NumMulGates c)) as a. generalize (mul_gates c) as b. intros b a. revert b.
      induction a as [|i a IH]; intros [|y b] Em; cbn [map2] in *; [reflexivity..|]. injection Em as Ei Em. rewrite !half_other, Ei. f_equal. now apply IH.
    - revert Ep. generalize (seq 0 N). intros a. induction a as [|j a IH]; intros Ep; cbn [map] in *; [reflexivity|].
      injection Ep as Ej Ep. rewrite !half_other, Ej. f_equal. now apply IH.
  Qed.
  Lemma triple_total T : T u mod P = (shareA (triple_share (packet_half side t c wires N T 0)) + shareA (triple_share (packet_half (negb side) t c wires N T 0))) mod P /\
    T (u + 1)%nat mod P = (shareB (triple_share (packet_half side t c wires N T 0)) + shareB (triple_share (packet_half (negb side) t c wires N T 0))) mod P.
  Proof.
    unfold packet_half. cbv zeta. cbn [triple_share shareA shareB]. unfold NewBeaverTriple. cbn [bt_A bt_B]. unfold fmpz_randm. change p with P.
    change (0 + 5 + N + NumMulGates c)%nat with u. rewrite !half_other, !Zplus_mod_idemp_r.
    split.
    - match goal with |- _ = (?h + (?x - ?h)) mod P => replace (h + (x - h)) with x by ring end. symmetry. apply Zmod_mod.
    - match goal with |- _ = (?h + (?x - ?h)) mod P => replace (h + (x - h)) with x by ring end. symmetry. apply Zmod_mod.
  Qed.
End Packet.

(** ** A list of draws *)
Definition tp (t : list Z) (i : nat) : Z := nth i t 0.
Definition residues (k : nat) (t : list Z) : Prop := length t = k /\ Forall (fun z => 0 <= z < P) t.
Lemma P_pos : 0 < P. Proof. reflexivity. Qed.
Lemma tp_range k t i : residues k t -> 0 <= tp t i < P.
Proof.
  intros [L F]. unfold tp. destruct (Nat.lt_ge_cases i (length t)) as [H|H].
  - rewrite Forall_forall in F. apply F, nth_In, H.
  - rewrite nth_overflow by exact H. pose proof P_pos. lia.
Qed.
Lemma sub_mod_inj e a b : 0 <= a < P -> 0 <= b < P -> (e - a) mod P = (e - b) mod P -> a = b.
Proof.
  intros Ha Hb E.
  assert (X : (e - (e - a)) mod P = (e - (e - b)) mod P) by (rewrite <- (Zminus_mod_idemp_r e (e - a)), <- (Zminus_mod_idemp_r e (e - b)); now rewrite E).
  replace (e - (e - a)) with a in X by ring. replace (e - (e - b)) with b in X by ring. now rewrite !Z.mod_small in X by assumption.
Qed.

Section Draws.
  Variables (side : bool) (t : root_tables) (c : circuit) (N : nat) (r : Z).
  Hypothesis EN : NextPowerOfTwo (Z.of_nat (NumMulGates c)) = Some (Z.of_nat N).
  Let n := NumMulGates c.
  Let u := (5 + N + n)%nat.
  Let half_of (sd : bool) (wires t1 : list Z) := packet_half sd t c wires N (tp t1) 0.

  Lemma draws_unique wires row cor t1 t2 : residues (u + 5) t1 -> residues (u + 5) t2 -> tp t1 0 = tp t2 0 -> tp t1 1 = tp t2 1 ->
    half_of side wires t1 = half_of side wires t2 ->
    opens c r (negb side) (half_of (negb side) wires t1, row) cor -> opens c r (negb side) (half_of (negb side) wires t2, row) cor ->
    t1 = t2.
  Proof.
    intros R1 R2 E0 E1 EH (N1 & ck1 & EN1 & C1 & K1) (N2 & ck2 & EN2 & C2 & K2).
    assert (X1 : N1 = N) by (rewrite EN in EN1; injection EN1; lia). assert (X2 : N2 = N) by (rewrite EN in EN2; injection EN2; lia). subst N1 N2.
    destruct (other_up_to_triple side t c wires N (tp t1) (tp t2) E0 E1 EH) as (Q1 & Q2 & Q3 & Q4 & Q5).
    fold (half_of (negb side) wires t1) in Q1, Q2, Q3, Q4, Q5. fold (half_of (negb side) wires t2) in Q1, Q2, Q3, Q4, Q5.
    assert (WT : with_triple (half_of (negb side) wires t1, row) (triple_share (half_of (negb side) wires t2)) = (half_of (negb side) wires t2, row)).
    { unfold with_triple. cbn [fst snd]. rewrite Q1, Q2, Q3, Q4, Q5. now destruct (half_of (negb side) wires t2). }
    pose proof (checker_triple _ _ (half_of (negb side) wires t1, row) (triple_share (half_of (negb side) wires t2)) _ _ C1) as CT.
    rewrite WT in CT. cbn [fst snd] in CT, C2. rewrite C2 in CT. injection CT as CT.
    assert (KK : CorShareFn ck1 = CorShareFn ck2) by congruence.
    assert (RQ : ck_req ck1 = half_of (negb side) wires t1).
    { cbn [fst snd] in C1. unfold new_Checker in C1. destruct (NextPowerOfTwo _); [|discriminate]. destruct (_ || _); [discriminate|].
      injection C1 as <-. reflexivity. }
    unfold CorShareFn in KK. rewrite RQ in KK. rewrite CT in KK. cbn [ck_req evalF evalG] in KK.
    pose proof (f_equal shareD KK) as KA. pose proof (f_equal shareE KK) as KB. cbn [shareD shareE] in KA, KB. clear KK.
    assert (RG : forall t0, 0 <= shareA (triple_share (half_of (negb side) wires t0)) < P /\ 0 <= shareB (triple_share (half_of (negb side) wires t0)) < P)
      by (intros t0; split; apply half_range).
    apply sub_mod_inj in KA; [|exact (proj1 (RG t1))|exact (proj1 (RG t2))]. apply sub_mod_inj in KB; [|exact (proj2 (RG t1))|exact (proj2 (RG t2))].
    destruct (triple_total side t c wires N (tp t1)) as [A1 B1]. destruct (triple_total side t c wires N (tp t2)) as [A2 B2].
    fold n in A1, B1, A2, B2. fold u in A1, B1, A2, B2.
    fold (half_of side wires t1) in A1, B1. fold (half_of (negb side) wires t1) in A1, B1.
    fold (half_of side wires t2) in A2, B2. fold (half_of (negb side) wires t2) in A2, B2.
    assert (TU : tp t1 u = tp t2 u).
    { rewrite <- (Z.mod_small (tp t1 u) P), <- (Z.mod_small (tp t2 u) P) by (eapply tp_range; eassumption). rewrite A1, A2, EH, KA. reflexivity. }
    assert (TU1 : tp t1 (u + 1) = tp t2 (u + 1)).
    { rewrite <- (Z.mod_small (tp t1 (u + 1)) P), <- (Z.mod_small (tp t2 (u + 1)) P) by (eapply tp_range; eassumption). rewrite B1, B2, EH, KB. reflexivity. }
    assert (ALL : forall i, fmpz_randm (tp t1 i) P = fmpz_randm (tp t2 i) P).
    { apply (mask_unique side t c wires N (tp t2) 0); [|reflexivity|exact EH].
      intros i Hi. unfold no_mask in Hi. cbv zeta in Hi. fold n in Hi. change (0 + 5 + N + n)%nat with u in Hi.
      destruct Hi as [Hi|[->|[->|Hi]]]; [|exact TU|exact TU1|].
      - destruct i as [|[|i]]; [exact E0|exact E1|clear -Hi; lia].
      - unfold tp. destruct R1 as [L1 _], R2 as [L2 _]. rewrite !nth_overflow by (clear -L1 L2 Hi; lia). reflexivity. }
    destruct R1 as [L1 F1], R2 as [L2 F2]. apply nth_ext with 0 0; [congruence|]. intros i Hi. specialize (ALL i).
    unfold fmpz_randm in ALL. rewrite !Z.mod_small in ALL by (eapply tp_range; split; eauto). exact ALL.
  Qed.

  Lemma draws_exist wires row D E t1 pkt : residues (u + 5) t1 -> possible_packet n N pkt ->
    length row = NumInputs c -> 0 <= D < P -> 0 <= E < P ->
    exists t2, residues (u + 5) t2 /\ tp t2 0 = tp t1 0 /\ tp t2 1 = tp t1 1 /\ half_of side wires t2 = pkt /\
      opens c r (negb side) (half_of (negb side) wires t2, row) (mkCorShare D E).
  Proof.
    intros R1 Pk LR HD HE. set (T := tp t1).
    set (q := packet_half (negb side) t c wires N (mask_tape side t c wires N T 0 pkt) 0).
    assert (HC : exists ck, new_Checker c (negb side) q (new_CheckerPreComp (init_roots N) N r) row = Some ck).
    { unfold new_Checker. rewrite EN, Nat2Z.id.
      assert (L1 : length (MulShares q) = NumMulGates c) by (unfold q, packet_half; cbn [MulShares]; rewrite map2_length, seq_length; apply Nat.min_id).
      assert (L2 : length (h_points q) = N) by (unfold q, packet_half; cbn [h_points]; now rewrite map_length, seq_length).
      rewrite L1, L2, LR, !Nat.ltb_irrefl. cbn [orb]. eauto. }
    destruct HC as (ck & HC).
    set (a := evalF ck + shareA (triple_share pkt) - D). set (b := evalG ck + shareB (triple_share pkt) - E).
    set (T0 := set_at T u a b). set (T2 := mask_tape side t c wires N T0 0 pkt).
    assert (K : forall i, (i < 2)%nat -> T2 i = T i).
    { intros i Hi. unfold T2. rewrite mask_kept by (unfold no_mask; lia). unfold T0, set_at, u.
      destruct (Nat.eqb_spec i (5 + N + n)); [lia|]. destruct (Nat.eqb_spec i (5 + N + n + 1)); [lia|reflexivity]. }
    set (t2 := map (fun i => T2 i mod P) (seq 0 (u + 5))).
    assert (N2 : forall i, (i < u + 5)%nat -> tp t2 i = T2 i mod P).
    { intros i Hi. unfold tp, t2. set (f := fun i => T2 i mod P). rewrite (nth_indep _ 0 (f 0%nat)) by now rewrite map_length, seq_length.
      rewrite map_nth, seq_nth by exact Hi. reflexivity. }
    assert (PH : forall sd, half_of sd wires t2 = packet_half sd t c wires N T2 0).
    { intros sd. apply packet_half_mod. fold n. fold u. intros i Hi. rewrite N2 by exact Hi. apply Zmod_mod. }
    exists t2. split.
    { split; [unfold t2; now rewrite map_length, seq_length|]. apply Forall_map, Forall_forall. intros i _. apply Z.mod_pos_bound, P_pos. }
    split; [rewrite N2, K by (unfold u; lia); apply Z.mod_small; eapply tp_range, R1|].
    split; [rewrite N2, K by (unfold u; lia); apply Z.mod_small; eapply tp_range, R1|].
    rewrite !PH. split; [exact (mask_packet side t c wires N T0 0 pkt Pk)|].
    destruct (other_packet side t c wires N T 0 pkt a b) as (z & OP). change (0 + 5 + N + NumMulGates c)%nat with u in OP. fold T0 in OP. fold T2 q in OP.
    rewrite OP. pose proof (checker_triple c (negb side) (q, row) (mkBTS ((a - shareA (triple_share pkt)) mod P) ((b - shareB (triple_share pkt)) mod P) z) _ _ HC) as CT.
    eexists N, _. split; [exact EN|]. split; [exact CT|].
    unfold CorShareFn. cbn [ck_req fst with_triple triple_share shareA shareB evalF evalG]. change p with P. unfold a, b.
    f_equal; rewrite Zminus_mod_idemp_r; (etransitivity; [|apply Z.mod_small; eassumption]); f_equal; ring.
  Qed.
End Draws.
