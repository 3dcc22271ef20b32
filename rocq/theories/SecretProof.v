(** Secrecy of requests with a proof of validity. *)
From Coq Require Import ZArith List Bool Lia.
From Verif Require Import Words WordsFacts Constants Share ShareFacts Net Poly Circuit CircuitFacts Snip ServerOps ClientOps SpecSecret ServerFacts ClientFacts SecretFacts SnipBatch SpecSnip StatReads StatClient.
Import ListNotations.
Open Scope Z_scope.
Local Notation P := Int_Modulus.

(** ** One share *)
Definition half (side : bool) (r val : Z) : Z := if side then snd (SplitShare r val) else fst (SplitShare r val).
(** The draw that gives share [w] of [val]. *)
Definition draw_for (side : bool) (val w : Z) : Z := if side then (val - w) mod P else w.
Lemma half_draw side val w : 0 <= w < P -> half side (draw_for side val w) val = w.
Proof.
  intros H. unfold half, draw_for, SplitShare, fmpz_randm. change p with P. destruct side; cbn [fst snd].
  - rewrite Zmod_mod, Zminus_mod_idemp_r. replace (val - (val - w)) with w by ring. now apply Z.mod_small.
  - now apply Z.mod_small.
Qed.
Lemma half_inj side val r r' : half side r val = half side r' val -> fmpz_randm r p = fmpz_randm r' p.
Proof.
  unfold half, SplitShare, fmpz_randm. change p with P. destruct side; cbn [fst snd]; [|auto]. intros E.
  assert (PP : 0 < P) by reflexivity.
  pose proof (Z.mod_pos_bound r P PP). pose proof (Z.mod_pos_bound r' P PP).
  assert (X : (val - (val - r mod P)) mod P = (val - (val - r' mod P)) mod P).
  { rewrite <- (Zminus_mod_idemp_r val (val - r mod P)), <- (Zminus_mod_idemp_r val (val - r' mod P)). now rewrite E. }
  replace (val - (val - r mod P)) with (r mod P) in X by ring. replace (val - (val - r' mod P)) with (r' mod P) in X by ring.
  now rewrite !Zmod_mod in X.
Qed.

(** ** The packet *)
Definition h_value (t : root_tables) (c : circuit) (wires : list Z) (N : nat) (f0 g0 : Z) (j : nat) : Z :=
  let n := NumMulGates c in
  let pad := repeat 0 (N - 1 - n) in
  let pointsF := f0 :: map (fun m => nth (snd (fst m)) wires 0) (mul_gates c) ++ pad in
  let pointsG := g0 :: map (fun m => nth (snd m) wires 0) (mul_gates c) ++ pad in
  let evalsF := fft_interpolate p (2 * N) (roots2 t) (fft_interpolate p N (invroots t) pointsF true ++ repeat 0 N) false in
  let evalsG := fft_interpolate p (2 * N) (roots2 t) (fft_interpolate p N (invroots t) pointsG true ++ repeat 0 N) false in
  (nth (2 * j + 1) evalsF 0 * nth (2 * j + 1) evalsG 0) mod p.
Definition packet_half (side : bool) (t : root_tables) (c : circuit) (wires : list Z) (N : nat) (T : nat -> Z) (s : nat) : ClientPacket :=
  let n := NumMulGates c in
  let f0 := fmpz_randm (T s) p in
  let g0 := fmpz_randm (T (s + 1)%nat) p in
  let u := (s + 5 + N + n)%nat in
  let tr := NewBeaverTriple (T u) (T (u + 1)%nat) in
  mkPacket (map2 (fun i m => half side (T (s + 5 + N + i)%nat) (nth (fst (fst m)) wires 0)) (seq 0 n) (mul_gates c))
    (half side (T (s + 2 + N)%nat) f0) (half side (T (s + 3 + N)%nat) g0) (half side (T (s + 4 + N)%nat) ((f0 * g0) mod p))
    (map (fun j => half side (T (s + 2 + j)%nat) (h_value t c wires N f0 g0 j)) (seq 0 N))
    (mkBTS (half side (T (u + 2)%nat) (bt_A tr)) (half side (T (u + 3)%nat) (bt_B tr)) (half side (T (u + 4)%nat) (bt_C tr))).
Lemma fst_split {A B} (l : list (A * B)) : fst (split l) = map fst l.
Proof. induction l as [|[a b] l IH]; [reflexivity|]. cbn. destruct (split l). cbn in *. now rewrite IH. Qed.
Lemma snd_split {A B} (l : list (A * B)) : snd (split l) = map snd l.
Proof. induction l as [|[a b] l IH]; [reflexivity|]. cbn. destruct (split l). cbn in *. now rewrite IH. Qed.
Lemma map_map2 {A B C D} (f : C -> D) (g : A -> B -> C) a b : map f (map2 g a b) = map2 (fun x y => f (g x y)) a b.
Proof. revert b. induction a as [|x a IH]; intros [|y b]; cbn; [reflexivity|reflexivity|reflexivity|]. now rewrite IH. Qed.
Lemma map2_map_l {A B C D} (f : A -> B) (g : B -> C -> D) a b : map2 g (map f a) b = map2 (fun x y => g (f x) y) a b.
Proof. revert b. induction a as [|x a IH]; intros [|y b]; cbn; [reflexivity|reflexivity|reflexivity|]. now rewrite IH. Qed.
Lemma packets_form t c wires T s N : NextPowerOfTwo (Z.of_nat (NumMulGates c)) = Some (Z.of_nat N) ->
  share_polynomials t c wires T s =
  Some (packet_half false t c wires N T s, packet_half true t c wires N T s, (s + 5 + N + NumMulGates c + 5)%nat).
Proof.
  intros E. unfold share_polynomials. rewrite E, Nat2Z.id. cbv zeta. unfold packet_half, GetMulShares, BeaverTripleShares.
  rewrite fst_split, snd_split, !map2_map_l, !map_map2, !map_map. cbv zeta.
  unfold half. f_equal.
Qed.

(** ** Masks that give a packet *)
Section Masks.
  Variables (side : bool) (t : root_tables) (c : circuit) (wires : list Z) (N : nat) (T : nat -> Z) (s : nat) (pkt : ClientPacket).
  Let n := NumMulGates c.
  Let u := (s + 5 + N + n)%nat.
  Let f0 := fmpz_randm (T s) p.
  Let g0 := fmpz_randm (T (s + 1)%nat) p.
  Let tr := NewBeaverTriple (T u) (T (u + 1)%nat).
  Definition mask_tape (i : nat) : Z :=
    if (i <? s + 2)%nat then T i
    else if (i <? s + 2 + N)%nat then draw_for side (h_value t c wires N f0 g0 (i - (s + 2))) (nth (i - (s + 2)) (h_points pkt) 0)
    else if (i =? s + 2 + N)%nat then draw_for side f0 (f0_s pkt)
    else if (i =? s + 3 + N)%nat then draw_for side g0 (g0_s pkt)
    else if (i =? s + 4 + N)%nat then draw_for side ((f0 * g0) mod p) (h0_s pkt)
    else if (i <? u)%nat then draw_for side (nth (fst (fst (nth (i - (s + 5 + N)) (mul_gates c) (0, 0, 0)%nat))) wires 0) (nth (i - (s + 5 + N)) (MulShares pkt) 0)
    else if (i =? u + 2)%nat then draw_for side (bt_A tr) (shareA (triple_share pkt))
    else if (i =? u + 3)%nat then draw_for side (bt_B tr) (shareB (triple_share pkt))
    else if (i =? u + 4)%nat then draw_for side (bt_C tr) (shareC (triple_share pkt))
    else T i.
  Ltac cases := unfold mask_tape; unfold u, n in *;
    repeat match goal with
    | |- context [(?a <? ?b)%nat] => destruct (Nat.ltb_spec a b); try lia
    | |- context [(?a =? ?b)%nat] => destruct (Nat.eqb_spec a b); try lia
    end; try reflexivity.
  Lemma mask_kept i : no_mask s N n i -> mask_tape i = T i.
  Proof. unfold no_mask. fold u. intros H. cases. Qed.
  Lemma mask_h j : (j < N)%nat -> mask_tape (s + 2 + j)%nat = draw_for side (h_value t c wires N f0 g0 j) (nth j (h_points pkt) 0).
  Proof. intros H. cases. all: replace (s + 2 + j - (s + 2))%nat with j by lia; reflexivity. Qed.
  Lemma mask_f : mask_tape (s + 2 + N)%nat = draw_for side f0 (f0_s pkt).
  Proof. cases. Qed.
  Lemma mask_g : mask_tape (s + 3 + N)%nat = draw_for side g0 (g0_s pkt).
  Proof. cases. Qed.
  Lemma mask_h0 : mask_tape (s + 4 + N)%nat = draw_for side ((f0 * g0) mod p) (h0_s pkt).
  Proof. cases. Qed.
  Lemma mask_m i : (i < n)%nat -> mask_tape (s + 5 + N + i)%nat =
    draw_for side (nth (fst (fst (nth i (mul_gates c) (0, 0, 0)%nat))) wires 0) (nth i (MulShares pkt) 0).
  Proof. intros H. cases. all: replace (s + 5 + N + i - (s + 5 + N))%nat with i by lia; reflexivity. Qed.
  Lemma mask_a : mask_tape (u + 2)%nat = draw_for side (bt_A tr) (shareA (triple_share pkt)).
  Proof. cases. Qed.
  Lemma mask_b : mask_tape (u + 3)%nat = draw_for side (bt_B tr) (shareB (triple_share pkt)).
  Proof. cases. Qed.
  Lemma mask_c : mask_tape (u + 4)%nat = draw_for side (bt_C tr) (shareC (triple_share pkt)).
  Proof. cases. Qed.

  Lemma packet_half_as (T' : nat -> Z) : (forall i, no_mask s N n i -> T' i = T i) ->
    packet_half side t c wires N T' s =
    mkPacket (map2 (fun i m => half side (T' (s + 5 + N + i)%nat) (nth (fst (fst m)) wires 0)) (seq 0 n) (mul_gates c))
      (half side (T' (s + 2 + N)%nat) f0) (half side (T' (s + 3 + N)%nat) g0) (half side (T' (s + 4 + N)%nat) ((f0 * g0) mod p))
      (map (fun j => half side (T' (s + 2 + j)%nat) (h_value t c wires N f0 g0 j)) (seq 0 N))
      (mkBTS (half side (T' (u + 2)%nat) (bt_A tr)) (half side (T' (u + 3)%nat) (bt_B tr)) (half side (T' (u + 4)%nat) (bt_C tr))).
  Proof.
    intros K. unfold packet_half. cbv zeta. fold n u.
    rewrite (K s) by (unfold no_mask; lia). rewrite (K (s + 1)%nat) by (unfold no_mask; lia).
    rewrite (K u) by (unfold no_mask, u; lia). rewrite (K (u + 1)%nat) by (unfold no_mask, u; lia). reflexivity.
  Qed.
  Lemma map2_nth' {A B C} (f : A -> B -> C) a b i da db dc : (i < length a)%nat -> (i < length b)%nat ->
    nth i (map2 f a b) dc = f (nth i a da) (nth i b db).
  Proof. revert b i. induction a as [|x a IH]; intros [|y b] [|i] La Lb; cbn in *; try lia; [reflexivity|]. apply IH; lia. Qed.

  Lemma mask_packet : possible_packet n N pkt -> packet_half side t c wires N mask_tape s = pkt.
  Proof.
    intros (L1 & F1 & Hf & Hg & Hh & L2 & F2 & Ha & Hb & Hc).
    rewrite (packet_half_as mask_tape mask_kept). rewrite mask_f, mask_g, mask_h0, mask_a, mask_b, mask_c, !half_draw by assumption.
    replace (map2 _ (seq 0 n) (mul_gates c)) with (MulShares pkt).
    2: { symmetry. apply nth_ext with 0 0; [rewrite map2_length, seq_length, L1; unfold n, NumMulGates; lia|].
         intros i Hi. rewrite map2_length, seq_length in Hi.
         rewrite (map2_nth' _ _ _ i 0%nat (0, 0, 0)%nat) by (rewrite ?seq_length; lia).
         rewrite seq_nth by lia. cbn [Nat.add]. rewrite mask_m by lia. apply half_draw.
         rewrite Forall_forall in F1. apply F1, nth_In. lia. }
    replace (map _ (seq 0 N)) with (h_points pkt).
    2: { symmetry. apply nth_ext with 0 0; [now rewrite map_length, seq_length|]. intros j Hj. rewrite map_length, seq_length in Hj.
         set (f := fun j => half side (mask_tape (s + 2 + j)%nat) (h_value t c wires N f0 g0 j)).
         rewrite (nth_indep _ _ (f 0%nat)) by now rewrite map_length, seq_length.
         rewrite map_nth, seq_nth by exact Hj. unfold f. cbn [Nat.add]. rewrite mask_h by exact Hj. apply half_draw.
         rewrite Forall_forall in F2. apply F2, nth_In. lia. }
    destruct pkt as [? ? ? ? ? []]; reflexivity.
  Qed.

  Lemma mask_unique (T1 T2 : nat -> Z) : (forall i, no_mask s N n i -> T1 i = T i) -> (forall i, no_mask s N n i -> T2 i = T i) ->
    packet_half side t c wires N T1 s = packet_half side t c wires N T2 s -> forall i, fmpz_randm (T1 i) p = fmpz_randm (T2 i) p.
  Proof.
    intros K1 K2. rewrite (packet_half_as T1 K1), (packet_half_as T2 K2). intros E. injection E as Em Ef Eg Eh Ep Ea Eb Ec.
    apply half_inj in Ef, Eg, Eh, Ea, Eb, Ec. intros i.
    destruct (Nat.lt_ge_cases i (s + 2)); [now rewrite K1, K2 by (unfold no_mask; lia)|].
    destruct (Nat.lt_ge_cases i (s + 2 + N)) as [H1|H1].
    { assert (X := f_equal (fun l => nth (i - (s + 2)) l 0) Ep). cbv beta in X.
      set (f1 := fun j => half side (T1 (s + 2 + j)%nat) (h_value t c wires N f0 g0 j)) in X.
      set (f2 := fun j => half side (T2 (s + 2 + j)%nat) (h_value t c wires N f0 g0 j)) in X.
      rewrite (nth_indep (map f1 _) _ (f1 0%nat)), (nth_indep (map f2 _) _ (f2 0%nat)) in X by (rewrite map_length, seq_length; lia).
      rewrite !map_nth, !seq_nth in X by lia. unfold f1, f2 in X. apply half_inj in X.
      cbn [Nat.add] in X. now replace (s + 2 + (i - (s + 2)))%nat with i in X by lia. }
    destruct (Nat.eq_dec i (s + 2 + N)) as [->|]; [exact Ef|].
    destruct (Nat.eq_dec i (s + 3 + N)) as [->|]; [exact Eg|].
    destruct (Nat.eq_dec i (s + 4 + N)) as [->|]; [exact Eh|].
    destruct (Nat.lt_ge_cases i u) as [H2|H2].
    { assert (X := f_equal (fun l => nth (i - (s + 5 + N)) l 0) Em). cbv beta in X.
      assert (LM : length (mul_gates c) = n) by reflexivity.
      rewrite !(map2_nth' _ _ _ _ 0%nat (0, 0, 0)%nat) in X by (rewrite ?seq_length; unfold u in *; lia).
      rewrite !seq_nth in X by (unfold u in *; lia). apply half_inj in X.
      cbn [Nat.add] in X. now replace (s + 5 + N + (i - (s + 5 + N)))%nat with i in X by (unfold u in *; lia). }
    destruct (Nat.eq_dec i (u + 2)) as [->|]; [exact Ea|].
    destruct (Nat.eq_dec i (u + 3)) as [->|]; [exact Eb|].
    destruct (Nat.eq_dec i (u + 4)) as [->|]; [exact Ec|].
    now rewrite K1, K2 by (unfold no_mask, u in *; lia).
  Qed.
End Masks.

Lemma packet_secret t c wires T s side N pkt :
  NextPowerOfTwo (Z.of_nat (NumMulGates c)) = Some (Z.of_nat N) -> possible_packet (NumMulGates c) N pkt ->
  exists T', (forall i, no_mask s N (NumMulGates c) i -> T' i = T i) /\
    packet_for side (share_polynomials t c wires T' s) = Some pkt /\
    forall T'', (forall i, no_mask s N (NumMulGates c) i -> T'' i = T i) ->
      packet_for side (share_polynomials t c wires T'' s) = Some pkt ->
      forall i, fmpz_randm (T'' i) p = fmpz_randm (T' i) p.
Proof.
  intros E Pk. exists (mask_tape side t c wires N T s pkt). split; [intros i; apply mask_kept|].
  assert (F : forall T0, packet_for side (share_polynomials t c wires T0 s) = Some (packet_half side t c wires N T0 s)).
  { intros T0. rewrite (packets_form t c wires T0 s N E). now destruct side. }
  rewrite F. rewrite mask_packet by exact Pk. split; [reflexivity|].
  intros T'' K X. rewrite F in X. injection X as X. apply (mask_unique side t c wires N T s); [exact K|intros i; apply mask_kept|].
  now rewrite mask_packet.
Qed.

(** ** Requests *)
Lemma npo2_nonneg fuel n pow N : 0 <= pow -> npo2_loop fuel n pow = Some N -> 0 <= N.
Proof.
  revert pow. induction fuel as [|f IH]; intros pow H; cbn [npo2_loop]; (destruct (_ <? _); [|intros E; injection E; lia]).
  - discriminate.
  - apply IH. unfold u32. apply Z.mod_pos_bound. reflexivity.
Qed.
Lemma next_nonneg n N : NextPowerOfTwo n = Some N -> 0 <= N.
Proof. apply npo2_nonneg. lia. Qed.
Lemma map2_ext_in' {A B C} (f f' : A -> B -> C) a b : (forall x, In x a -> forall y, f x y = f' x y) -> map2 f a b = map2 f' a b.
Proof. revert b. induction a as [|x a IH]; intros [|y b] H; cbn; [reflexivity..|]. rewrite H by now left. f_equal. apply IH. intros z Hz. apply H. now right. Qed.
(** The share of (D, E) that server [side] computes from packet and inputs [x]. *)
Definition opens (c : circuit) (r : Z) (side : bool) (x : ClientPacket * list Z) (cor : CorShare) : Prop :=
  exists N ck, NextPowerOfTwo (Z.of_nat (NumMulGates c)) = Some (Z.of_nat N) /\
    new_Checker c side (fst x) (new_CheckerPreComp (init_roots N) N r) (snd x) = Some ck /\ CorShareFn ck = cor.
Definition set_at (T : nat -> Z) (u : nat) (a b : Z) (i : nat) : Z :=
  if (i =? u)%nat then a else if (i =? u + 1)%nat then b else T i.

(** The other server's packet when this server's is [pkt]: only its triple depends on
    the draws [u], [u + 1]. *)
Lemma other_packet (side : bool) t c wires N T s pkt a b : let u := (s + 5 + N + NumMulGates c)%nat in
  let q := packet_half (negb side) t c wires N (mask_tape side t c wires N T s pkt) s in
  let q' := packet_half (negb side) t c wires N (mask_tape side t c wires N (set_at T u a b) s pkt) s in
  exists z, q' = mkPacket (MulShares q) (f0_s q) (g0_s q) (h0_s q) (h_points q)
    (mkBTS ((a - shareA (triple_share pkt)) mod P) ((b - shareB (triple_share pkt)) mod P) z).
Proof.
  intros u q q'.
  assert (K : forall i, (i < u)%nat -> mask_tape side t c wires N (set_at T u a b) s pkt i = mask_tape side t c wires N T s pkt i).
  { intros i Hi. unfold mask_tape. fold u.
    assert (S : forall j, (j < u)%nat -> set_at T u a b j = T j).
    { intros j Hj. unfold set_at. destruct (Nat.eqb_spec j u); [lia|]. destruct (Nat.eqb_spec j (u + 1)); [lia|reflexivity]. }
    rewrite !S by (unfold u in *; lia). destruct (Nat.ltb_spec i u); [|lia]. reflexivity. }
  assert (Ku : mask_tape side t c wires N (set_at T u a b) s pkt u = a).
  { rewrite mask_kept by (unfold no_mask, u; lia). unfold set_at. now rewrite Nat.eqb_refl. }
  assert (Ku1 : mask_tape side t c wires N (set_at T u a b) s pkt (u + 1) = b).
  { rewrite mask_kept by (unfold no_mask, u; lia). unfold set_at. rewrite Nat.eqb_refl. destruct (Nat.eqb_spec (u + 1) u); [lia|reflexivity]. }
  assert (HA : forall v w, half (negb side) (draw_for side (v mod p) w) (v mod p) = (v - w) mod P).
  { intros v w. unfold half, draw_for, SplitShare, fmpz_randm. change p with P. destruct side; cbn [negb fst snd].
    - rewrite Zmod_mod. apply Zminus_mod_idemp_l.
    - rewrite Zminus_mod_idemp_l, Zminus_mod_idemp_r. reflexivity. }
  eexists. unfold q', q, packet_half. cbv zeta. fold u. cbn [MulShares f0_s g0_s h0_s h_points].
  rewrite (K s), (K (s + 1)%nat), (K (s + 2 + N)%nat), (K (s + 3 + N)%nat), (K (s + 4 + N)%nat) by (unfold u; lia).
  f_equal.
  - apply map2_ext_in'. intros i Hi. apply in_seq in Hi. intros m. rewrite K by (unfold u; lia). reflexivity.
  - apply map_ext_in. intros j Hj. apply in_seq in Hj. rewrite K by (unfold u; lia). reflexivity.
  - rewrite Ku, Ku1. f_equal.
    + unfold u. rewrite mask_a. fold u. rewrite !mask_kept in Ku, Ku1 by (unfold no_mask, u; lia).
      rewrite Ku, Ku1. apply HA.
    + unfold u. rewrite mask_b. fold u. rewrite !mask_kept in Ku, Ku1 by (unfold no_mask, u; lia).
      rewrite Ku, Ku1. apply HA.
Qed.

Lemma make_packets_open T s tabs c inp (side : bool) pkt p0 p1 s' tabs' :
  make_packets T s tabs c inp = Some (p0, p1, s', tabs') ->
  forall inp' r row D E, possible_packet (NumMulGates c) (points_of c) pkt ->
  length row = NumInputs c -> 0 <= D < P -> 0 <= E < P ->
  exists T' p0' p1', make_packets T' s tabs c inp' = Some (p0', p1', s', tabs') /\
    (forall i, (i < s \/ s' <= i)%nat -> T' i = T i) /\ (if side then p1' else p0') = pkt /\
    opens c r (negb side) (if side then p0' else p1', row) (mkCorShare D E).
Proof.
  unfold make_packets, points_of. destruct (NextPowerOfTwo (Z.of_nat (NumMulGates c))) as [Nz|] eqn:EQ; [|discriminate]. set (N := Z.to_nat Nz).
  assert (EN : NextPowerOfTwo (Z.of_nat (NumMulGates c)) = Some (Z.of_nat N)).
  { rewrite EQ. f_equal. unfold N. symmetry. apply Z2Nat.id. apply next_nonneg in EQ. lia. }
  rewrite (packets_form _ c (eval_wires c inp) T s N EN). intros X inp' r row D E Pk LR HD HE. injection X as <- <- <- <-.
  set (t := client_roots tabs N). set (u := (s + 5 + N + NumMulGates c)%nat). set (wires := eval_wires c inp').
  set (q := packet_half (negb side) t c wires N (mask_tape side t c wires N T s pkt) s).
  assert (HC : exists ck, new_Checker c (negb side) q (new_CheckerPreComp (init_roots N) N r) row = Some ck).
  { unfold new_Checker. rewrite EN, Nat2Z.id.
    assert (L1 : length (MulShares q) = NumMulGates c) by (unfold q, packet_half; cbn [MulShares]; rewrite map2_length, seq_length; apply Nat.min_id).
    assert (L2 : length (h_points q) = N) by (unfold q, packet_half; cbn [h_points]; now rewrite map_length, seq_length).
    rewrite L1, L2, LR, !Nat.ltb_irrefl. cbn [orb]. eauto. }
  destruct HC as (ck & HC).
  set (a := evalF ck + shareA (triple_share pkt) - D). set (b := evalG ck + shareB (triple_share pkt) - E).
  set (T0 := set_at T u a b).
  exists (mask_tape side t c wires N T0 s pkt), (packet_half false t c wires N (mask_tape side t c wires N T0 s pkt) s),
    (packet_half true t c wires N (mask_tape side t c wires N T0 s pkt) s).
  rewrite (packets_form _ c wires _ s N EN). split; [reflexivity|]. split; [|split].
  - intros i Hi. rewrite mask_kept by (unfold no_mask; lia). unfold T0, set_at, u.
    destruct (Nat.eqb_spec i (s + 5 + N + NumMulGates c)); [lia|]. destruct (Nat.eqb_spec i (s + 5 + N + NumMulGates c + 1)); [lia|reflexivity].
  - etransitivity; [|exact (mask_packet side t c wires N T0 s pkt Pk)]. now destruct side.
  - destruct (other_packet side t c wires N T s pkt a b) as (z & OP). fold u T0 q in OP.
    replace (if side then _ else _) with (packet_half (negb side) t c wires N (mask_tape side t c wires N T0 s pkt) s) by now destruct side.
    rewrite OP. pose proof (checker_triple c (negb side) (q, row) (mkBTS ((a - shareA (triple_share pkt)) mod P) ((b - shareB (triple_share pkt)) mod P) z) _ _ HC) as CT.
    eexists N, _. split; [exact EN|]. split; [exact CT|].
    unfold CorShareFn. cbn [ck_req fst with_triple triple_share shareA shareB evalF evalG]. change p with P. unfold a, b.
    f_equal; rewrite Zminus_mod_idemp_r; (etransitivity; [|apply Z.mod_small; eassumption]); f_equal; ring.
Qed.

(** As [independent_with_proof]; moreover, the other server's share of (D, E) is at will. *)
Definition independent_with_opening {V W} (c : circuit) (one : prg -> (nat -> Z) -> cstate -> option (crec (V * ClientPacket) W * cstate))
  (legal : W -> Prop) (possible : V * ClientPacket -> Prop) : Prop :=
  forall g T pos s tabs side v w r pos' s' tabs' x row D E, is_blocks g -> legal v -> possible w ->
  length row = NumInputs c -> 0 <= D < P -> 0 <= E < P ->
  one g T (pos, s, tabs) = Some (r, (pos', s', tabs')) ->
  exists g' T' r', one g' T' (pos, s, tabs) = Some (r', (pos', s', tabs')) /\ is_blocks g' /\
    (forall i, (i < pos \/ pos' <= i)%nat -> g' i = g i) /\ (forall i, (i < s \/ s' <= i)%nat -> T' i = T i) /\
    c_real r' = v /\ share_of side r' = w /\ c_pk r' = c_pk r /\
    opens c x (negb side) (snd (share_of (negb side) r'), row) (mkCorShare D E).
Lemma opening_proof {V W} c one legal possible : @independent_with_opening V W c one legal possible ->
  independent_with_proof one legal possible.
Proof.
  intros H g T pos s tabs side v w r pos' s' tabs' G Lv Pw E.
  destruct (H g T pos s tabs side v w r pos' s' tabs' 0 (repeat 0 (NumInputs c)) 0 0 G Lv Pw (repeat_length _ _)
    ltac:(split; reflexivity || lia) ltac:(split; reflexivity || lia) E)
    as (g' & T' & r' & A & B & C1 & D & E1 & F & I & _).
  exists g', T', r'. auto 8.
Qed.

Lemma var_opens num_bits : (num_bits <= 31)%nat ->
  independent_with_opening CheckVar (var_request (2 ^ Z.of_nat num_bits)) (fun v => 0 <= v < 2 ^ Z.of_nat num_bits) (possible_var num_bits).
Proof.
  intros Hn g T pos s tabs side v [[w1 w2] pkt] r pos' s' tabs' rx row D0 E0 G Hv (H1 & H2 & HP) LR HD0 HE0 E.
  replace (2 * Z.of_nat num_bits) with (Z.of_nat (2 * num_bits)) in H2 by lia.
  pose proof (u64_max num_bits Hn) as UM. set (M := 2 ^ Z.of_nat num_bits) in *. set (M2 := 2 ^ Z.of_nat (2 * num_bits)) in *.
  assert (HM2 : 0 < M2 < two64) by now apply pow_small.
  assert (MM : M < two64) by (apply Z.le_lt_trans with (2 ^ 31); [apply Z.pow_le_mono_r; lia|reflexivity]).
  assert (EM : M2 = M * M) by (unfold M, M2; rewrite <- Z.pow_add_r by lia; f_equal; lia).
  assert (SQ : 0 <= v * v < M2) by nia.
  unfold var_request in E. cbv zeta in E.
  destruct (make_packets T s tabs CheckVar _) as [[[[p0 p1] s1] t1]|] eqn:EP; [|discriminate]. injection E as <- <- <- <-.
  destruct (make_packets_open _ _ _ _ _ side pkt _ _ _ _ EP [v; u64 (v * v)] rx row D0 E0 HP LR HD0 HE0) as (T' & p0' & p1' & EP' & KT & Q & OQ).
  set (a := if side then Z.lxor w1 v else w1). set (a2 := if side then Z.lxor w2 (v * v) else w2).
  assert (Ra : 0 <= a < M) by (unfold a; destruct side; [now apply lxor_lt|exact H1]).
  assert (Ra2 : 0 <= a2 < M2) by (unfold a2; destruct side; [now apply lxor_lt|exact H2]).
  set (bs := to_blocks (le_bytes 8 v) ++ to_blocks (le_bytes 8 a) ++ to_blocks (le_bytes 8 a2)).
  assert (LBS : length bs = 3%nat) by (unfold bs; now rewrite !app_length, !word_blocks_length).
  set (g' := splice g pos bs (fun i => g (pos + 3 + i)%nat)).
  pose proof (splice_u64 g pos [] v (to_blocks (le_bytes 8 a) ++ to_blocks (le_bytes 8 a2)) (fun i => g (pos + 3 + i)%nat) ltac:(lia)) as E1.
  cbn [app length] in E1. rewrite Nat.add_0_r in E1.
  pose proof (splice_u64 g pos (to_blocks (le_bytes 8 v)) a (to_blocks (le_bytes 8 a2)) (fun i => g (pos + 3 + i)%nat) ltac:(lia)) as E2.
  rewrite word_blocks_length in E2.
  pose proof (splice_u64 g pos (to_blocks (le_bytes 8 v) ++ to_blocks (le_bytes 8 a)) a2 [] (fun i => g (pos + 3 + i)%nat) ltac:(lia)) as E3.
  rewrite app_nil_r, <- app_assoc, app_length, !word_blocks_length in E3. cbn [Nat.add] in E3. fold bs in E1, E2, E3. fold g' in E1, E2, E3.
  assert (U : u64 (v * v) = v * v) by (apply Z.mod_small; unfold two64 in *; lia).
  eexists g', T', _. split.
  { unfold var_request. rewrite E1, E2, E3, UM, (Z.mod_small v M), (Z.mod_small a M), (Z.mod_small a2 M2), EP' by assumption. reflexivity. }
  assert (AFT : forall i, (pos + 3 <= i)%nat -> g' i = g i).
  { intros i Hi. replace i with (pos + length bs + (i - pos - 3))%nat at 1 by lia. unfold g'. rewrite splice_after. f_equal. lia. }
  split; [|split; [|split; [|split; [|split; [|split]]]]].
  - apply splice_blocks; [exact G|intros i; apply G|]. unfold bs. repeat (apply Forall_app; split); apply word_blocks.
  - intros i [Hi|Hi]; [now apply splice_before|now apply AFT].
  - exact KT.
  - reflexivity.
  - unfold share_of. rewrite U. unfold a, a2. destruct side; cbn [c_0 c_1]; rewrite Q; [|reflexivity].
    now rewrite !lxor_twice.
  - cbn [c_pk]. unfold make_pk. now rewrite AFT.
  - destruct side; exact OQ.
Qed.
Lemma var_independent num_bits : (num_bits <= 31)%nat ->
  independent_with_proof (var_request (2 ^ Z.of_nat num_bits)) (fun v => 0 <= v < 2 ^ Z.of_nat num_bits) (possible_var num_bits).
Proof. intros H. apply (opening_proof CheckVar). now apply var_opens. Qed.

Lemma map_mod_below M l : below M l -> map (fun w => w mod M) l = l.
Proof.
  intros F. rewrite <- (map_id l) at 2. apply map_ext_in. intros x Hx. apply Z.mod_small. unfold below in F. rewrite Forall_forall in F. now apply F.
Qed.
Lemma below_words M l : M <= two64 -> below M l -> Forall (fun w => 0 <= w < two64) l.
Proof. intros H. apply Forall_impl. intros x. lia. Qed.
Lemma below_lxor k a b : length a = length b -> below (2 ^ Z.of_nat k) a -> below (2 ^ Z.of_nat k) b -> below (2 ^ Z.of_nat k) (map2 Z.lxor a b).
Proof.
  unfold below. revert b. induction a as [|x a IH]; intros [|y b] L Fa Fb; cbn in *; try lia; constructor; inversion Fa; inversion Fb; subst.
  - now apply lxor_lt.
  - apply IH; auto.
Qed.
Lemma u64_prod M x y : 0 <= x < M -> 0 <= y < M -> M * M <= two64 -> u64 (x * y) = x * y /\ 0 <= x * y < M * M.
Proof. intros Hx Hy H. assert (0 <= x * y < M * M) by nia. split; [apply Z.mod_small; lia|assumption]. Qed.

Lemma linreg_opens num_bits degree : (num_bits <= 31)%nat -> (1 <= degree)%nat ->
  independent_with_opening (CheckLinReg degree) (linreg_request degree (2 ^ Z.of_nat num_bits)) (legal_linreg num_bits degree) (possible_linreg num_bits degree).
Proof.
  intros Hn Hd g T pos s tabs side [x y] [[[[wx wy] wx2] wxy] pkt] r pos' s' tabs' rx row D0 E0 G (Lx & Bx & Hy)
    (Lwx & Lwx2 & Lwxy & Bwx & Hwy & Bwx2 & Bwxy & HP) LR HD0 HE0 E. cbn [fst snd] in *.
  replace (2 * Z.of_nat num_bits) with (Z.of_nat (2 * num_bits)) in * by lia.
  pose proof (u64_max num_bits Hn) as UM.
  pose proof (below_lxor num_bits) as XM. pose proof (below_lxor (2 * num_bits)) as XM2. pose proof (lxor_lt num_bits) as XL.
  assert (EM : 2 ^ Z.of_nat (2 * num_bits) = 2 ^ Z.of_nat num_bits * 2 ^ Z.of_nat num_bits) by (rewrite <- Z.pow_add_r by lia; f_equal; lia).
  assert (HM2 : 0 < 2 ^ Z.of_nat (2 * num_bits) < two64) by now apply pow_small.
  assert (MM : 2 ^ Z.of_nat num_bits < two64) by (apply Z.le_lt_trans with (2 ^ 31); [apply Z.pow_le_mono_r; lia|reflexivity]).
  set (M := 2 ^ Z.of_nat num_bits) in *. set (M2 := 2 ^ Z.of_nat (2 * num_bits)) in *.
  set (nx := (degree - 1)%nat) in *. set (nq := (nx * (nx + 1) / 2)%nat) in *.
  unfold linreg_request in E. change (num_x degree) with nx in E. change (num_quad degree) with nq in E. cbv zeta in E.
  destruct (make_packets T s tabs (CheckLinReg degree) _) as [[[[p0 p1] sb] tb]|] eqn:EP; [|discriminate]. injection E as <- <- <- <-.
  set (x2 := map (fun jk => u64 (nth (fst jk) x 0 * nth (snd jk) x 0)) (linreg_pairs nx)).
  set (xy := map (fun a => u64 (a * y)) x).
  assert (Nx : forall i, 0 <= nth i x 0 < M).
  { intros i. destruct (Nat.lt_ge_cases i (length x)) as [H|H].
    - unfold below in Bx. rewrite Forall_forall in Bx. apply Bx, nth_In, H.
    - rewrite nth_overflow by exact H. lia. }
  assert (Bx2 : below M2 x2).
  { apply Forall_forall. intros z Hz. apply in_map_iff in Hz as (jk & <- & _).
    destruct (u64_prod M _ _ (Nx (fst jk)) (Nx (snd jk)) ltac:(lia)) as [-> H]. lia. }
  assert (Bxy : below M2 xy).
  { apply Forall_forall. intros z Hz. apply in_map_iff in Hz as (a & <- & Ha). unfold below in Bx. rewrite Forall_forall in Bx.
    destruct (u64_prod M a y (Bx a Ha) Hy ltac:(lia)) as [-> H]. lia. }
  assert (Lx2 : length x2 = nq) by (unfold x2; rewrite map_length; apply linreg_pairs_length).
  assert (Lxy : length xy = nx) by (unfold xy; now rewrite map_length).
  destruct (make_packets_open _ _ _ _ _ side pkt _ _ _ _ EP (x ++ y :: x2 ++ xy) rx row D0 E0 HP LR HD0 HE0) as (T' & p0' & p1' & EP' & KT & Q & OQ).
  set (ax := if side then map2 Z.lxor wx x else wx). set (ay := if side then Z.lxor wy y else wy).
  set (ax2 := if side then map2 Z.lxor wx2 x2 else wx2). set (axy := if side then map2 Z.lxor wxy xy else wxy).
  assert (Lax : length ax = nx) by (unfold ax; destruct side; [rewrite map2_length; lia|exact Lwx]).
  assert (Lax2 : length ax2 = nq) by (unfold ax2; destruct side; [rewrite map2_length; lia|exact Lwx2]).
  assert (Laxy : length axy = nx) by (unfold axy; destruct side; [rewrite map2_length; lia|exact Lwxy]).
  assert (Bax : below M ax) by (unfold ax; destruct side; [apply XM; congruence || assumption|exact Bwx]).
  assert (Bax2 : below M2 ax2) by (unfold ax2; destruct side; [apply XM2; congruence || assumption|exact Bwx2]).
  assert (Baxy : below M2 axy) by (unfold axy; destruct side; [apply XM2; congruence || assumption|exact Bwxy]).
  assert (Hay : 0 <= ay < M) by (unfold ay; destruct side; [now apply XL|exact Hwy]).
  set (bx := blocks (8 * nx)). set (bq := blocks (8 * nq)).
  set (s1 := to_blocks (bytes_of x)). set (s2 := to_blocks (bytes_of ax)). set (s3 := to_blocks (bytes_of ax2)).
  set (s4 := to_blocks (bytes_of axy)). set (s5 := to_blocks (le_bytes 8 y)). set (s6 := to_blocks (le_bytes 8 ay)).
  assert (LB : forall ws : list Z, length (to_blocks (bytes_of ws)) = blocks (8 * length ws)) by (intros ws; now rewrite to_blocks_length, bytes_of_length).
  assert (K1 : length s1 = bx) by (unfold s1; now rewrite LB, Lx).
  assert (K2 : length s2 = bx) by (unfold s2; now rewrite LB, Lax).
  assert (K3 : length s3 = bq) by (unfold s3; now rewrite LB, Lax2).
  assert (K4 : length s4 = bx) by (unfold s4; now rewrite LB, Laxy).
  assert (K5 : length s5 = 1%nat) by apply word_blocks_length.
  assert (K6 : length s6 = 1%nat) by apply word_blocks_length.
  set (bs := s1 ++ s2 ++ s3 ++ s4 ++ s5 ++ s6).
  assert (LBS : length bs = (3 * bx + bq + 2)%nat) by (unfold bs; rewrite !app_length; lia).
  set (rest := fun i => g (pos + 3 * bx + bq + 2 + i)%nat). set (g' := splice g pos bs rest).
  assert (W : forall l b, below b l -> b < two64 -> Forall (fun w => 0 <= w < two64) l) by (intros l b B H; eapply below_words; [|exact B]; lia).
  assert (E1 : random_words g' pos nx = x).
  { pose proof (splice_words g pos [] x (s2 ++ s3 ++ s4 ++ s5 ++ s6) rest (W _ _ Bx MM)) as H.
    cbn [app length] in H. rewrite Nat.add_0_r, Lx in H. exact H. }
  assert (E2 : random_words g' (pos + bx) nx = ax).
  { pose proof (splice_words g pos s1 ax (s3 ++ s4 ++ s5 ++ s6) rest (W _ _ Bax MM)) as H. rewrite K1, Lax in H. exact H. }
  assert (E3 : random_words g' (pos + 2 * bx) nq = ax2).
  { pose proof (splice_words g pos (s1 ++ s2) ax2 (s4 ++ s5 ++ s6) rest (W _ _ Bax2 ltac:(lia))) as H.
    rewrite app_length, K1, K2, Lax2, <- app_assoc in H. replace (pos + (bx + bx))%nat with (pos + 2 * bx)%nat in H by lia. exact H. }
  assert (E4 : random_words g' (pos + 2 * bx + bq) nx = axy).
  { pose proof (splice_words g pos (s1 ++ s2 ++ s3) axy (s5 ++ s6) rest (W _ _ Baxy ltac:(lia))) as H.
    rewrite !app_length, K1, K2, K3, Laxy, <- !app_assoc in H. replace (pos + (bx + (bx + bq)))%nat with (pos + 2 * bx + bq)%nat in H by lia. exact H. }
  assert (E5 : random_u64 g' (pos + 3 * bx + bq) = y).
  { pose proof (splice_u64 g pos (s1 ++ s2 ++ s3 ++ s4) y s6 rest ltac:(lia)) as H.
    rewrite !app_length, K1, K2, K3, K4, <- !app_assoc in H. replace (pos + (bx + (bx + (bq + bx))))%nat with (pos + 3 * bx + bq)%nat in H by lia. exact H. }
  assert (E6 : random_u64 g' (pos + 3 * bx + bq + 1) = ay).
  { pose proof (splice_u64 g pos (s1 ++ s2 ++ s3 ++ s4 ++ s5) ay [] rest ltac:(lia)) as H.
    rewrite app_nil_r, !app_length, K1, K2, K3, K4, K5, <- !app_assoc in H.
    replace (pos + (bx + (bx + (bq + (bx + 1)))))%nat with (pos + 3 * bx + bq + 1)%nat in H by lia. exact H. }
  assert (AFT : forall i, (pos + 3 * bx + bq + 2 <= i)%nat -> g' i = g i).
  { intros i Hi. replace i with (pos + length bs + (i - pos - length bs))%nat at 1 by lia. unfold g'. rewrite splice_after. unfold rest. f_equal. lia. }
  eexists g', T', _. split.
  { unfold linreg_request. change (num_x degree) with nx. change (num_quad degree) with nq. cbv zeta. fold bx bq.
    rewrite UM. fold M2. rewrite E1, E2, E3, E4, E5, E6.
    rewrite (map_mod_below M x Bx), (map_mod_below M ax Bax), (map_mod_below M2 ax2 Bax2), (map_mod_below M2 axy Baxy).
    rewrite (Z.mod_small y M Hy), (Z.mod_small ay M Hay). fold x2 xy. rewrite EP'. reflexivity. }
  split; [|split; [|split; [|split; [|split; [|split]]]]].
  - apply splice_blocks; [exact G|intros i; apply G|]. unfold bs, s1, s2, s3, s4, s5, s6.
    repeat (apply Forall_app; split); try apply words_blocks; apply word_blocks.
  - intros i [Hi|Hi]; [now apply splice_before|now apply AFT].
  - exact KT.
  - reflexivity.
  - unfold share_of, ax, ay, ax2, axy. destruct side; cbn [c_0 c_1]; rewrite Q; [|reflexivity].
    rewrite lxor_twice, !map2_lxor_twice by congruence. reflexivity.
  - cbn [c_pk]. unfold make_pk. now rewrite AFT.
  - destruct side; exact OQ.
Qed.
Lemma linreg_independent num_bits degree : (num_bits <= 31)%nat -> (1 <= degree)%nat ->
  independent_with_proof (linreg_request degree (2 ^ Z.of_nat num_bits)) (legal_linreg num_bits degree) (possible_linreg num_bits degree).
Proof. intros H Hd. apply (opening_proof (CheckLinReg degree)). now apply linreg_opens. Qed.
