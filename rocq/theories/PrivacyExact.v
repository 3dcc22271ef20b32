From Coq Require Import ZArith List Bool Lia Permutation.
From Verif Require Import Words WordsFacts Constants Share Cong Proc ProcFacts Net NetFacts SpecNet NetMsg SpecShare RelFacts
  OT OTFacts ServerOps SpecServer TableFacts ServerFacts ServerProps SpecHide HideFacts SpecPrivacy ViewFacts PrivacyFacts
  ClientOps SpecClient ClientFacts ClientProps ServerCor SpecSecret SecretFacts PrivacyProof.
Import ListNotations.
Open Scope Z_scope.

(** ** Xored bytes and words *)
Lemma testbit_byte b x i : 0 <= b < 256 -> 0 <= i ->
  Z.testbit (b + 256 * x) i = if i <? 8 then Z.testbit b i else Z.testbit x (i - 8).
Proof.
  intros Hb Hi. replace (b + 256 * x) with (b + x * 2 ^ 8) by lia.
  destruct (Z.ltb_spec i 8).
  - rewrite <- (Z.mod_pow2_bits_low (b + x * 2 ^ 8) 8 i) by lia. rewrite Z_mod_plus_full, Z.mod_small by lia. reflexivity.
  - replace i with ((i - 8) + 8) at 1 by lia. rewrite <- Z.div_pow2_bits by lia. rewrite Z_div_plus_full by lia.
    rewrite Z.div_small by lia. reflexivity.
Qed.
Lemma byte_lxor a b : is_byte a -> is_byte b -> is_byte (Z.lxor a b).
Proof. intros A B. unfold is_byte in *. change 256 with (2 ^ Z.of_nat 8) in *. now apply lxor_lt. Qed.
Lemma map2_bytes a b : Forall is_byte a -> Forall is_byte b -> Forall is_byte (map2 Z.lxor a b).
Proof.
  intros A. revert b. induction A as [|x a Hx A IH]; intros [|y b] B; cbn; constructor; inversion B; subst; auto using byte_lxor.
Qed.
Lemma le_val_lxor : forall a b, length a = length b -> Forall is_byte a -> Forall is_byte b ->
  le_val (map2 Z.lxor a b) = Z.lxor (le_val a) (le_val b).
Proof.
  induction a as [|x a IH]; intros [|y b] L A B; cbn [length] in L; try discriminate; [reflexivity|].
  inversion A as [|? ? Hx A']; inversion B as [|? ? Hy B']; subst. cbn [map2 le_val]. rewrite IH by (auto; lia).
  apply Z.bits_inj'. intros i Hi. rewrite Z.lxor_spec, !testbit_byte by (first [assumption|apply byte_lxor; assumption]).
  destruct (i <? 8); apply Z.lxor_spec.
Qed.
Lemma lxor_mod a b n : Z.lxor a b mod 2 ^ Z.of_nat n = Z.lxor (a mod 2 ^ Z.of_nat n) (b mod 2 ^ Z.of_nat n).
Proof.
  apply Z.bits_inj'. intros i Hi. rewrite Z.lxor_spec. destruct (Z.lt_ge_cases i (Z.of_nat n)).
  - rewrite !Z.mod_pow2_bits_low by lia. apply Z.lxor_spec.
  - rewrite !Z.mod_pow2_bits_high by lia. reflexivity.
Qed.
Lemma odd_lxor a b : Z.odd (Z.lxor a b) = xorb (Z.odd a) (Z.odd b).
Proof. rewrite <- !Z.bit0_odd. apply Z.lxor_spec. Qed.

Lemma xor_blocks g d : is_blocks g -> is_blocks d -> is_blocks (xor_tape g d).
Proof.
  intros G D i. unfold xor_tape. destruct (G i) as [LG FG], (D i) as [LD FD]. rewrite map2_length, LG, LD. split; [reflexivity|].
  now apply map2_bytes.
Qed.
Lemma map2_firstn {A B C} (f : A -> B -> C) n : forall a b, map2 f (firstn n a) (firstn n b) = firstn n (map2 f a b).
Proof. induction n as [|n IH]; intros [|x a] [|y b]; cbn [firstn map2]; auto. now rewrite IH. Qed.
(** Up to 16 bytes are drawn from one block. *)
Lemma data_block g pos n : is_blocks g -> (0 < n <= 16)%nat -> random_data g pos n = firstn n (g pos).
Proof.
  intros G Hn. unfold random_data. replace (blocks n) with 1%nat.
  - cbn [seq map concat]. now rewrite app_nil_r.
  - unfold blocks. assert (n = S (n - 1)) by lia. apply Nat.div_unique with (n - 1)%nat; lia.
Qed.
Lemma u64_xor g d pos : is_blocks g -> is_blocks d ->
  random_u64 (xor_tape g d) pos = Z.lxor (random_u64 g pos) (random_u64 d pos).
Proof.
  intros G D. unfold random_u64. rewrite !data_block by (auto using xor_blocks; lia).
  unfold xor_tape. rewrite <- map2_firstn. destruct (G pos) as [LG FG], (D pos) as [LD FD].
  apply le_val_lxor; [rewrite !firstn_length; lia|now apply Forall_firstn'|now apply Forall_firstn'].
Qed.
Lemma bool1_xor g d pos : is_blocks g -> is_blocks d ->
  random_bool1 (xor_tape g d) pos = xorb (random_bool1 g pos) (random_bool1 d pos).
Proof.
  intros G D. unfold random_bool1, random_bool. rewrite !data_block by (auto using xor_blocks; lia).
  unfold xor_tape. destruct (G pos) as [LG FG], (D pos) as [LD FD].
  destruct (g pos) as [|x a]; [discriminate|]. destruct (d pos) as [|y b]; [discriminate|]. cbn. apply odd_lxor.
Qed.

(** A tape with [a] and [b] (words) in its first two blocks, zeros elsewhere. *)
Definition two_words (a b : Z) : prg := fun i => match i with O => le_bytes 16 a | S O => le_bytes 16 b | _ => le_bytes 16 0 end.
Lemma two_blocks a b : is_blocks (two_words a b).
Proof. intros i. unfold two_words. destruct i as [|[|i]]; (split; [apply le_bytes_length|apply le_bytes_bytes]). Qed.
Lemma le_bytes_firstn n : forall k z, (k <= n)%nat -> firstn k (le_bytes n z) = le_bytes k z.
Proof.
  induction n as [|n IH]; intros k z H; [replace k with 0%nat by lia; reflexivity|].
  destruct k as [|k]; [reflexivity|]. cbn [le_bytes firstn]. now rewrite IH by lia.
Qed.
Lemma two_u64 a b : 0 <= a < two64 -> 0 <= b < two64 ->
  random_u64 (two_words a b) 0 = a /\ random_u64 (two_words a b) 1 = b.
Proof.
  intros A B. unfold random_u64. rewrite !data_block by (auto using two_blocks; lia). cbn [two_words].
  rewrite !le_bytes_firstn by lia. split; apply le_val_bytes_small; assumption.
Qed.
Lemma xor_zero_block b : length b = 16%nat -> map2 Z.lxor b (le_bytes 16 0) = b.
Proof.
  intros L. change (le_bytes 16 0) with (repeat 0 16). rewrite <- L. clear L. induction b as [|x b IH]; [reflexivity|].
  cbn [length repeat map2]. now rewrite Z.lxor_0_r, IH.
Qed.
Lemma two_after g a b : is_blocks g -> xor_tape g (two_words a b) 2%nat = g 2%nat.
Proof. intros G. unfold xor_tape. cbn [two_words]. apply xor_zero_block, G. Qed.

(** ** One client *)
Definition int_flip (side : bool) (x : Z) : prg := two_words x (if side then x else 0).
Lemma int_flipped nb side g x : (nb <= 63)%nat -> is_blocks g -> 0 <= x < 2 ^ Z.of_nat nb ->
  let r := fst (int_request (2 ^ Z.of_nat nb) g 0) in
  let r' := fst (int_request (2 ^ Z.of_nat nb) (xor_tape g (int_flip side x)) 0) in
  is_blocks (int_flip side x) /\ c_pk r' = c_pk r /\ share_of side r' = share_of side r /\ c_real r' = Z.lxor (c_real r) x.
Proof.
  intros HB G Hx. pose proof (pow_le_two64 nb HB) as P. cbv zeta. split; [apply two_blocks|].
  assert (S0 : 0 <= (if side then x else 0) < two64) by (destruct side; unfold two64 in *; lia).
  destruct (two_u64 x (if side then x else 0)) as [E0 E1]; [lia|exact S0|]. fold (int_flip side x) in E0, E1.
  assert (D : is_blocks (int_flip side x)) by apply two_blocks.
  unfold int_request. cbn [fst c_pk c_real]. change (0 + 1)%nat with 1%nat. change (0 + 2)%nat with 2%nat.
  rewrite !u64_xor, E0, E1, !lxor_mod by auto. rewrite (Z.mod_small x) by lia.
  split; [unfold make_pk, int_flip; now rewrite two_after by auto|]. split; [|reflexivity].
  unfold share_of. destruct side; cbn [c_0 c_1].
  - rewrite (Z.mod_small x) by lia. rewrite Z.lxor_assoc, <- (Z.lxor_assoc x), (Z.lxor_comm x), Z.lxor_assoc, Z.lxor_nilpotent, Z.lxor_0_r. reflexivity.
  - rewrite Zmod_0_l. apply Z.lxor_0_r.
Qed.
Definition bit_flip (side x : bool) : prg := two_words (b2z x) (if side then b2z x else 0).
Lemma two_bool a b : random_bool1 (two_words (b2z a) (b2z b)) 0 = a /\ random_bool1 (two_words (b2z a) (b2z b)) 1 = b.
Proof. destruct a, b; split; vm_compute; reflexivity. Qed.
Lemma bit_flipped side g x : is_blocks g ->
  let r := fst (bit_request g 0) in
  let r' := fst (bit_request (xor_tape g (bit_flip side x)) 0) in
  is_blocks (bit_flip side x) /\ c_pk r' = c_pk r /\ share_of side r' = share_of side r /\ c_real r' = xorb (c_real r) x.
Proof.
  intros G. cbv zeta. split; [apply two_blocks|].
  assert (D : is_blocks (bit_flip side x)) by apply two_blocks.
  assert (E : random_bool1 (bit_flip side x) 0 = x /\ random_bool1 (bit_flip side x) 1 = (side && x)%bool).
  { unfold bit_flip. replace (if side then b2z x else 0) with (b2z (side && x)) by now destruct side, x. apply two_bool. }
  destruct E as [E0 E1]. unfold bit_request. cbn [fst c_pk c_real]. change (0 + 1)%nat with 1%nat. change (0 + 2)%nat with 2%nat.
  rewrite !bool1_xor, E0, E1 by auto.
  split; [unfold make_pk, bit_flip; now rewrite two_after by auto|]. split; [|reflexivity].
  unfold share_of. destruct side, x, (random_bool1 g 0), (random_bool1 g 1); reflexivity.
Qed.

(** ** All clients *)
Lemma flip_all {V W} (one : prg -> nat -> crec V W * nat) (legal : W -> Prop) (side : bool) (f : W -> W -> prg) :
  (forall a b g, legal a -> legal b -> is_blocks g -> c_real (fst (one g 0%nat)) = a ->
     is_blocks (f a b) /\
     let r := fst (one g 0%nat) in let r' := fst (one (xor_tape g (f a b)) 0%nat) in
     c_pk r' = c_pk r /\ share_of side r' = share_of side r /\ c_real r' = b) ->
  forall vs vs' gs, length vs' = length vs -> Forall legal vs -> Forall legal vs' -> Forall is_blocks gs ->
  map c_real (separate one gs) = vs ->
  let gs' := map2 xor_tape gs (map2 f vs vs') in
  Forall is_blocks gs' /\ map c_real (separate one gs') = vs' /\ seen side (separate one gs') = seen side (separate one gs).
Proof.
  intros H vs vs' gs L F F' G E. cbv zeta. revert vs vs' L F F' E.
  induction G as [|g gs Hg G IH]; intros vs vs' L F F' E; cbn in E; subst vs.
  - destruct vs'; [|discriminate]. cbn. split; [constructor|split; reflexivity].
  - destruct vs' as [|b vs']; [discriminate|]. inversion F as [|? ? Fa F1]; inversion F' as [|? ? Fb F2]; subst.
    cbn [map2]. destruct (H _ b g Fa Fb Hg eq_refl) as (B & P & Q & R). cbv zeta in P, Q, R.
    destruct (IH (map c_real (separate one gs)) vs') as (I1 & I2 & I3); auto.
    split; [|split].
    + constructor; [now apply xor_blocks|exact I1].
    + cbn [separate map]. rewrite R. f_equal. exact I2.
    + unfold seen, separate in *. cbn [map]. rewrite P, Q. f_equal. exact I3.
Qed.
Lemma int_exact nb side vs vs' gs : (nb <= 63)%nat ->
  let legal v := 0 <= v < 2 ^ Z.of_nat nb in let one := int_request (2 ^ Z.of_nat nb) in
  length vs' = length vs -> Forall legal vs -> Forall legal vs' -> Forall is_blocks gs -> map c_real (separate one gs) = vs ->
  let gs' := map2 xor_tape gs (map2 (fun a b => int_flip side (Z.lxor a b)) vs vs') in
  Forall is_blocks gs' /\ map c_real (separate one gs') = vs' /\ seen side (separate one gs') = seen side (separate one gs).
Proof.
  intros HB legal one L F F' G E. apply (flip_all one legal side); auto.
  intros a b g Ha Hb Hg R. pose proof (lxor_lt nb a b Ha Hb) as Hx.
  destruct (int_flipped nb side g (Z.lxor a b) HB Hg Hx) as (B & P & Q & S). cbv zeta in *. fold one in P, Q, S.
  split; [exact B|]. split; [exact P|]. split; [exact Q|]. rewrite S, R. apply lxor_back.
Qed.
Lemma bit_exact side vs vs' gs : length vs' = length vs -> Forall is_blocks gs -> map c_real (separate bit_request gs) = vs ->
  let gs' := map2 xor_tape gs (map2 (fun a b => bit_flip side (xorb a b)) vs vs') in
  Forall is_blocks gs' /\ map c_real (separate bit_request gs') = vs' /\
  seen side (separate bit_request gs') = seen side (separate bit_request gs).
Proof.
  intros L G E. apply (flip_all bit_request (fun _ => True) side); auto; try (apply Forall_forall; auto).
  intros a b g _ _ Hg R. destruct (bit_flipped side g (xorb a b) Hg) as (B & P & Q & S). cbv zeta in *.
  split; [exact B|]. split; [exact P|]. split; [exact Q|]. rewrite S, R. now destruct a, b.
Qed.

(** ** Server 0 *)
Lemma bit_exact0 vs vs' : length vs' = length vs -> zsum (map b2z vs') = zsum (map b2z vs) ->
  exists ds, forall gs order0 order1 junk0 junk1 rnd0 rnd1,
    fair order1 -> by_keys order1 -> length junk0 = 33%nat -> length junk1 = 33%nat ->
    Forall is_blocks gs -> Z.of_nat (length gs) < two32 -> NoDup (map c_pk (separate bit_request gs)) ->
    map c_real (separate bit_request gs) = vs ->
    let gs' := map2 xor_tape gs ds in
    Forall is_blocks gs' /\ map c_real (separate bit_request gs') = vs' /\
    seen false (separate bit_request gs') = seen false (separate bit_request gs) /\
    exists v, forall h, h = gs \/ h = gs' ->
      sees0 (bit_sum false order0 (length h) (wire BitShare_bytes (subs0 (separate bit_request h))) junk0 rnd0)
            (bit_sum true order1 (length h) (wire BitShare_bytes (subs1 (separate bit_request h))) junk1 rnd1) v.
Proof.
  intros L ES. exists (map2 (fun a b => bit_flip false (xorb a b)) vs vs').
  intros gs order0 order1 junk0 junk1 rnd0 rnd1 HF HK J0 J1 G HN ND E.
  destruct (bit_exact false vs vs' gs L G E) as (G' & R & S). cbv zeta in *. set (gs' := map2 xor_tape gs _) in *.
  split; [exact G'|]. split; [exact R|]. split; [exact S|].
  apply bit_same0; auto. rewrite <- !(map_map c_real b2z), R, E. exact ES.
Qed.
Lemma int_exact0 nb vs vs' : (nb <= 63)%nat -> length vs' = length vs ->
  Forall (fun v => 0 <= v < 2 ^ Z.of_nat nb) vs -> Forall (fun v => 0 <= v < 2 ^ Z.of_nat nb) vs' ->
  zsum vs' mod two64 = zsum vs mod two64 ->
  let one := int_request (2 ^ Z.of_nat nb) in
  exists ds, forall gs order0 order1 junk0 junk1 rnd0 rnd1,
    fair order1 -> by_keys order1 -> length junk0 = 40%nat -> length junk1 = 40%nat ->
    Forall is_blocks gs -> Z.of_nat (length gs) < two32 -> NoDup (map c_pk (separate one gs)) ->
    map c_real (separate one gs) = vs ->
    let gs' := map2 xor_tape gs ds in
    Forall is_blocks gs' /\ map c_real (separate one gs') = vs' /\
    seen false (separate one gs') = seen false (separate one gs) /\
    exists v, forall h, h = gs \/ h = gs' ->
      sees0 (int_sum false order0 nb (length h) (wire IntShare_bytes (subs0 (separate one h))) junk0 rnd0)
            (int_sum true order1 nb (length h) (wire IntShare_bytes (subs1 (separate one h))) junk1 rnd1) v.
Proof.
  intros HB L F F' ES one. exists (map2 (fun a b => int_flip false (Z.lxor a b)) vs vs').
  intros gs order0 order1 junk0 junk1 rnd0 rnd1 HF HK J0 J1 G HN ND E.
  destruct (int_exact nb false vs vs' gs HB L F F' G E) as (G' & R & S). cbv zeta in *. fold one in R, S. set (gs' := map2 xor_tape gs _) in *.
  split; [exact G'|]. split; [exact R|]. split; [exact S|].
  apply int_same0; auto. fold one. now rewrite R, E.
Qed.

(** ** Server 1: what it sees determines server 0's masks *)
Lemma build_all {V} (subs : list (list Z * V)) ok : Forall (fun s => ok (snd s) = true) subs -> NoDup (map fst subs) ->
  table_of ok subs = subs.
Proof.
  intros F ND. unfold table_of.
  enough (H : forall m : table V, NoDup (map fst (m ++ subs)) -> build (recs_of ok subs) m = m ++ subs) by now apply H.
  clear ND. induction F as [|[k v] subs Hv F IH]; intros m ND; [cbn; now rewrite app_nil_r|].
  cbn [recs_of map build fst snd] in *. fold (recs_of ok subs). rewrite Hv.
  assert (N : find k m = None).
  { apply find_none. rewrite map_app in ND. cbn [map fst] in ND. apply NoDup_remove_2 in ND. intros H. apply ND, in_or_app. now left. }
  rewrite N. rewrite (IH (m ++ [(k, v)])); rewrite <- app_assoc; [reflexivity|exact ND].
Qed.
Lemma all_found {V W} (m0 : table V) (m1 l : table W) : map fst m0 = map fst m1 -> Permutation l m1 ->
  map is_some (founds m0 (map fst l)) = repeat true (length m1).
Proof.
  intros E P. rewrite <- (Permutation_length P).
  assert (H : forall e, In e l -> is_some (find (fst e) m0) = true).
  { intros e He. apply (Permutation_in _ P) in He. assert (K : In (fst e) (map fst m0)) by (rewrite E; now apply in_map).
    apply find_some_iff in K. destruct (find (fst e) m0); [reflexivity|congruence]. }
  clear P E. unfold founds. induction l as [|e l IH]; [reflexivity|]. cbn [map repeat length]. rewrite H by now left. f_equal.
  apply IH. intros e' He'. apply H. now right.
Qed.
Lemma nth_repeat_true i n : (i < n)%nat -> nth i (repeat true n) false = true.
Proof. revert i. induction n as [|n IH]; intros [|i] H; cbn; try lia; auto. apply IH. lia. Qed.
Lemma spread_repeat w n : spread_over w (repeat true n) = repeat true (n * w).
Proof.
  unfold spread_over. induction n as [|n IH]; [reflexivity|]. cbn [repeat flat_map Nat.mul]. rewrite IH. symmetry. apply repeat_app.
Qed.
Lemma view_some {A} cs ps (k : proc A) : ot_view false cs (OTSend false ps k) = Some (map2 ot_select cs ps).
Proof. reflexivity. Qed.

Lemma bit_masks order m0 m1 total rnd rnd' v r r' :
  fair order -> keys_ok m1 -> Z.of_nat (length m1) < two32 -> map fst m0 = map fst m1 ->
  conv (logged [] (bit_sum1 order m1)) (bit_sum0 m0 total rnd) v r ->
  conv (logged [] (bit_sum1 order m1)) (bit_sum0 m0 total rnd') v r' ->
  forall i, (i < length m1)%nat -> rnd i mod two64 = rnd' i mod two64.
Proof.
  intros HF KO HS E C C' i Hi.
  destruct (bit_sees1 order m0 m1 total rnd HF KO HS) as (s & D). destruct (bit_sees1 order m0 m1 total rnd' HF KO HS) as (s' & D').
  destruct (always_functional _ _ _ _ _ _ (conv_always _ _ _ _ C) (conv_always _ _ _ _ D)) as [-> _].
  destruct (always_functional _ _ _ _ _ _ (conv_always _ _ _ _ C') (conv_always _ _ _ _ D')) as [E' _].
  injection E' as EV. clear C C' D D'. set (l := order bool m1) in *.
  set (shares := bit_shares m0 (map fst l)) in *. set (valid := map is_some (founds m0 (map fst l))) in *.
  assert (VT : valid = repeat true (length m1)) by (apply (all_found m0 m1 l E); apply HF).
  assert (LS : length shares = length valid) by (unfold shares, valid, bit_shares, founds; now rewrite !map_length).
  assert (LC : length (map snd l) = length valid) by (unfold valid, founds; now rewrite !map_length).
  set (ds := bit_deltas (combine shares valid)).
  assert (LD : length ds = length valid) by (unfold ds, bit_deltas; rewrite map_length, combine_length, LS; apply Nat.min_id).
  assert (CD : counts_of ds = valid).
  { unfold ds, counts_of, bit_deltas. rewrite map_map. rewrite <- (map_snd_combine shares valid LS) at 2.
    apply map_ext. intros [x y]. now destruct y. }
  pose proof (view_possible 0 (or_introl eq_refl) rnd ds 0 (map snd l) ltac:(congruence)) as P. rewrite CD in P.
  destruct (bitsum_hides false shares valid (map snd l) _ LS LC P) as (rnd2 & R & U).
  assert (V : forall q, ot_view false (map snd l) (bitsum_ot_sender false q shares valid 0) =
    Some (map2 ot_select (map snd l) (fst (bitsum_send_loop 0 q (combine shares valid) 0 0)))).
  { intros q. unfold bitsum_ot_sender. now destruct (bitsum_send_loop _ _ _ _ _). }
  unfold seen_of in EV. rewrite !V in EV. cbn [get] in EV.
  assert (V1 : ot_view false (map snd l) (bitsum_ot_sender false rnd shares valid 0) =
    Some (map2 ot_select (map snd l) (map2 (entry 0 rnd) (seq 0 (length ds)) ds))).
  { rewrite V. pose proof (bits_loop_form rnd (combine shares valid) 0 0) as BF.
    destruct (bitsum_send_loop _ _ _ _ _). cbn [fst] in *. now rewrite BF. }
  assert (T : nth i valid false = true) by (rewrite VT; now apply nth_repeat_true).
  pose proof (U rnd V1 i T) as M1.
  assert (V2 : ot_view false (map snd l) (bitsum_ot_sender false rnd' shares valid 0) =
    Some (map2 ot_select (map snd l) (map2 (entry 0 rnd) (seq 0 (length ds)) ds))) by (rewrite V, <- EV, <- V; exact V1).
  pose proof (U rnd' V2 i T) as M2.
  unfold mask in M1, M2. change (ot_modulus 0) with two64 in *. rewrite !Z.mod_mod in M1, M2 by (unfold two64; lia). congruence.
Qed.
Lemma int_masks order nb m0 m1 total rnd rnd' v r r' :
  fair order -> keys_ok m1 -> Z.of_nat (length m1) < two32 -> (nb <= 63)%nat -> map fst m0 = map fst m1 ->
  conv (logged [] (int_sum1 order nb m1)) (int_sum0 nb m0 total rnd) v r ->
  conv (logged [] (int_sum1 order nb m1)) (int_sum0 nb m0 total rnd') v r' ->
  forall i, (i < length m1 * nb)%nat -> rnd i mod two64 = rnd' i mod two64.
Proof.
  intros HF KO HS HB E C C' i Hi.
  destruct (int_sees1 order nb m0 m1 total rnd HF KO HS HB) as (s & D). destruct (int_sees1 order nb m0 m1 total rnd' HF KO HS HB) as (s' & D').
  destruct (always_functional _ _ _ _ _ _ (conv_always _ _ _ _ C) (conv_always _ _ _ _ D)) as [-> _].
  destruct (always_functional _ _ _ _ _ _ (conv_always _ _ _ _ C') (conv_always _ _ _ _ D')) as [E' _].
  injection E' as EV. clear C C' D D'. set (l := order Z m1) in *.
  set (shares := int_shares m0 (map fst l)) in *. set (valid := map is_some (founds m0 (map fst l))) in *.
  assert (VT : valid = repeat true (length m1)) by (apply (all_found m0 m1 l E); apply HF).
  assert (LS : length shares = length valid) by (unfold shares, valid, int_shares, founds; now rewrite !map_length).
  assert (RS : Forall (fun r => length r = length [nb]) shares) by (apply Forall_map, Forall_forall; reflexivity).
  set (cs := intsum_choices [nb] (map (fun e => [snd e]) l)) in *.
  assert (LC : length cs = (length valid * OT.total [nb])%nat).
  { unfold cs. rewrite int_choices_length. unfold valid, founds. now rewrite !map_length. }
  destruct (intsum_view_possible false 0 [nb] rnd shares valid cs (or_introl eq_refl) (width_small nb HB) LS RS LC) as (w & V & P).
  destruct (intsum_view_possible false 0 [nb] rnd' shares valid cs (or_introl eq_refl) (width_small nb HB) LS RS LC) as (w' & V' & _).
  unfold seen_of in EV. rewrite V, V' in EV. cbn [get] in EV. subst w'.
  destruct (intsum_hides false 0 [nb] shares valid cs w (or_introl eq_refl) (width_small nb HB) LS RS LC P) as (rnd2 & R & U).
  assert (T : nth i (spread_over (OT.total [nb]) valid) false = true).
  { rewrite VT, spread_repeat. apply nth_repeat_true. cbn. lia. }
  pose proof (U rnd V i T) as M1. pose proof (U rnd' V' i T) as M2.
  unfold mask in M1, M2. change (ot_modulus 0) with two64 in *. rewrite !Z.mod_mod in M1, M2 by (unfold two64; lia). congruence.
Qed.

(** ** Server 1 *)
Lemma bit_exact1 vs vs' : length vs' = length vs ->
  exists ds, forall gs order0 order1 junk0 junk1 rnd0 rnd1,
    fair order1 -> length junk0 = 33%nat -> length junk1 = 33%nat ->
    Forall is_blocks gs -> Z.of_nat (length gs) < two32 -> NoDup (map c_pk (separate bit_request gs)) ->
    map c_real (separate bit_request gs) = vs ->
    let gs' := map2 xor_tape gs ds in
    Forall is_blocks gs' /\ map c_real (separate bit_request gs') = vs' /\
    seen true (separate bit_request gs') = seen true (separate bit_request gs) /\
    exists rnd0' v, forall h rnd, h = gs /\ rnd = rnd0 \/ h = gs' /\ rnd = rnd0' ->
      let run q := sees1
            (bit_sum false order0 (length h) (wire BitShare_bytes (subs0 (separate bit_request h))) junk0 q)
            (bit_sum true order1 (length h) (wire BitShare_bytes (subs1 (separate bit_request h))) junk1 rnd1) v in
      run rnd /\ forall q, run q -> forall i, (i < length gs)%nat -> q i mod two64 = rnd i mod two64.
Proof.
  intros L. exists (map2 (fun a b => bit_flip true (xorb a b)) vs vs').
  intros gs order0 order1 junk0 junk1 rnd0 rnd1 HF J0 J1 G HN ND E.
  destruct (bit_exact true vs vs' gs L G E) as (G' & R & S). cbv zeta in *. set (gs' := map2 xor_tape gs _) in *.
  split; [exact G'|]. split; [exact R|]. split; [exact S|].
  destruct (bit_same1 gs gs' order0 order1 junk0 junk1 rnd0 rnd1) as (rnd' & v & V); auto.
  exists rnd', v. intros h rnd Hh.
  assert (V0 : sees1 (bit_sum false order0 (length h) (wire BitShare_bytes (subs0 (separate bit_request h))) junk0 rnd)
            (bit_sum true order1 (length h) (wire BitShare_bytes (subs1 (separate bit_request h))) junk1 rnd1) v).
  { destruct Hh as [[-> ->]|[-> ->]]; [exact (V (gs, rnd0) (or_introl eq_refl))|exact (V (gs', rnd') (or_intror eq_refl))]. }
  split; [exact V0|]. intros q Hq i Hi.
  assert (EP := seen_pks true _ _ S).
  assert (GH : Forall is_blocks h) by (destruct Hh as [[-> _]|[-> _]]; assumption).
  assert (EH : map c_pk (separate bit_request h) = map c_pk (separate bit_request gs)) by (destruct Hh as [[-> _]|[-> _]]; [reflexivity|exact EP]).
  assert (LH : length h = length gs).
  { apply (f_equal (@length _)) in EH. now rewrite !map_length, !separate_length in EH. }
  set (l := separate bit_request h) in *. assert (Ll : length l = length h) by apply separate_length.
  assert (PK := separate_pks bit_request h bit_fresh_all GH). fold l in PK.
  assert (A0 : arrives bit_wire (length h) (wire BitShare_bytes (subs0 l)) (subs0 l)) by (apply honest_arrives0; auto; lia).
  assert (A1 : arrives bit_wire (length h) (wire BitShare_bytes (subs1 l)) (subs1 l)) by (apply honest_arrives1; auto; lia).
  destruct V0 as (r & V0), Hq as (r' & Hq).
  rewrite (bit_sum_eq false _ _ _ (subs0 l)), (bit_sum_eq true _ _ _ (subs1 l)) in V0 by auto.
  rewrite (bit_sum_eq false _ _ _ (subs0 l)), (bit_sum_eq true _ _ _ (subs1 l)) in Hq by auto.
  pose proof A1 as (r1 & _ & _ & P1 & S1).
  assert (T1 : table_of any (subs1 l) = subs1 l).
  { apply build_all; [apply Forall_forall; reflexivity|]. unfold subs1. rewrite map_map. change (NoDup (map c_pk l)). now rewrite EH. }
  apply (bit_masks order1 (table_of any (subs0 l)) (table_of any (subs1 l)) (length h) q rnd v r' r); auto using table_keys, table_size.
  - apply (table_ids any any). unfold ids, subs0, subs1. rewrite !map_map. reflexivity.
  - now apply conv_swap, always_conv.
  - now apply conv_swap, always_conv.
  - rewrite T1. unfold subs1. rewrite map_length. lia.
Qed.

Lemma ids_two nb (l : list (crec Z Z)) : Forall (fun r : crec Z Z => fits nb (c_0 r) = true /\ fits nb (c_1 r) = true) l ->
  ids (fits nb) (subs0 l) = ids (fits nb) (subs1 l).
Proof.
  intros F. unfold ids, subs0, subs1. rewrite !map_map. apply map_ext_in. intros r Hr. rewrite Forall_forall in F.
  destruct (F r Hr) as [A B]. cbn [fst snd]. now rewrite A, B.
Qed.
Lemma int_exact1 nb vs vs' : (nb <= 63)%nat -> length vs' = length vs ->
  Forall (fun v => 0 <= v < 2 ^ Z.of_nat nb) vs -> Forall (fun v => 0 <= v < 2 ^ Z.of_nat nb) vs' ->
  let one := int_request (2 ^ Z.of_nat nb) in
  exists ds, forall gs order0 order1 junk0 junk1 rnd0 rnd1,
    fair order1 -> length junk0 = 40%nat -> length junk1 = 40%nat ->
    Forall is_blocks gs -> Z.of_nat (length gs) < two32 -> NoDup (map c_pk (separate one gs)) ->
    map c_real (separate one gs) = vs ->
    let gs' := map2 xor_tape gs ds in
    Forall is_blocks gs' /\ map c_real (separate one gs') = vs' /\
    seen true (separate one gs') = seen true (separate one gs) /\
    exists rnd0' v, forall h rnd, h = gs /\ rnd = rnd0 \/ h = gs' /\ rnd = rnd0' ->
      let run q := sees1
            (int_sum false order0 nb (length h) (wire IntShare_bytes (subs0 (separate one h))) junk0 q)
            (int_sum true order1 nb (length h) (wire IntShare_bytes (subs1 (separate one h))) junk1 rnd1) v in
      run rnd /\ forall q, run q -> forall i, (i < length gs * nb)%nat -> q i mod two64 = rnd i mod two64.
Proof.
  intros HB L F F' one. exists (map2 (fun a b => int_flip true (Z.lxor a b)) vs vs').
  intros gs order0 order1 junk0 junk1 rnd0 rnd1 HF J0 J1 G HN ND E.
  destruct (int_exact nb true vs vs' gs HB L F F' G E) as (G' & R & S). cbv zeta in *. fold one in R, S. set (gs' := map2 xor_tape gs _) in *.
  split; [exact G'|]. split; [exact R|]. split; [exact S|].
  destruct (int_same1 nb gs gs' order0 order1 junk0 junk1 rnd0 rnd1) as (rnd' & v & V); auto. fold one in V.
  exists rnd', v. intros h rnd Hh.
  assert (V0 : sees1 (int_sum false order0 nb (length h) (wire IntShare_bytes (subs0 (separate one h))) junk0 rnd)
            (int_sum true order1 nb (length h) (wire IntShare_bytes (subs1 (separate one h))) junk1 rnd1) v).
  { destruct Hh as [[-> ->]|[-> ->]]; [exact (V (gs, rnd0) (or_introl eq_refl))|exact (V (gs', rnd') (or_intror eq_refl))]. }
  split; [exact V0|]. intros q Hq i Hi.
  assert (EP := seen_pks true _ _ S).
  assert (GH : Forall is_blocks h) by (destruct Hh as [[-> _]|[-> _]]; assumption).
  assert (EH : map c_pk (separate one h) = map c_pk (separate one gs)) by (destruct Hh as [[-> _]|[-> _]]; [reflexivity|exact EP]).
  assert (LH : length h = length gs).
  { apply (f_equal (@length _)) in EH. now rewrite !map_length, !separate_length in EH. }
  set (l := separate one h) in *. assert (Ll : length l = length h) by apply separate_length.
  assert (PK := separate_pks one h (int_fresh_all _) GH). fold l in PK.
  assert (A0 : arrives int_wire (length h) (wire IntShare_bytes (subs0 l)) (subs0 l)) by (apply honest_arrives0; auto; lia).
  assert (A1 : arrives int_wire (length h) (wire IntShare_bytes (subs1 l)) (subs1 l)) by (apply honest_arrives1; auto; lia).
  assert (GL := int_good_all nb h). fold one l in GL. pose proof (int_good_fits nb l GL) as OK.
  destruct (int_good_words nb l HB GL) as [W0 W1].
  destruct V0 as (r & V0), Hq as (r' & Hq).
  rewrite (int_sum_eq false _ _ _ _ (subs0 l)), (int_sum_eq true _ _ _ _ (subs1 l)) in V0 by auto.
  rewrite (int_sum_eq false _ _ _ _ (subs0 l)), (int_sum_eq true _ _ _ _ (subs1 l)) in Hq by auto.
  pose proof A1 as (r1 & _ & _ & P1 & S1).
  assert (T1 : table_of (fits nb) (subs1 l) = subs1 l).
  { apply build_all; [unfold subs1; apply Forall_map; eapply Forall_impl; [|exact OK]; now intros x []|]. unfold subs1. rewrite map_map. change (NoDup (map c_pk l)). now rewrite EH. }
  apply (int_masks order1 nb (table_of (fits nb) (subs0 l)) (table_of (fits nb) (subs1 l)) (length h) q rnd v r' r); auto using table_keys, table_size.
  - apply (table_ids (fits nb) (fits nb)). apply (ids_two nb l OK).
  - now apply conv_swap, always_conv.
  - now apply conv_swap, always_conv.
  - rewrite T1. unfold subs1. rewrite map_length. lia.
Qed.
