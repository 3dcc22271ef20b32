(** A one-to-one correspondence between the draws for two lists of private values, under which
    one server has, and is sent, the same. *)
From Coq Require Import ZArith List Bool Lia Permutation.
From Verif Require Import Words WordsFacts Constants Share SpecShare Proc ProcFacts Net SpecNet OT OTFacts SpecHide HideFacts Poly SpecPoly Circuit SpecCircuit CircuitFacts Snip SpecSnip SnipFacts SnipBatch
  ServerOps SpecServer TableFacts ServerFacts ClientOps ClientFacts SnipSums SpecStat StatReads StatProps StatClient SpecSecret SecretFacts SecretProof SpecPrivacy PrivacyExact SpecExact ExactFacts
  ExactServer ViewFacts PrivacyFacts PrivacyProof SpecStatPrivacy StatView StatPrivacy SpecStatExact StatExact.
Import ListNotations.
Open Scope Z_scope.
Local Notation P := Int_Modulus.
Opaque Int_Modulus Int_Gen init_roots.
Arguments Z.mul : simpl never.
Arguments Z.add : simpl never.
Arguments Z.modulo : simpl never.

Definition xor_list (d e : list (list Z)) : list (list Z) := map2 (map2 Z.lxor) d e.
Lemma xor_list_ok m d e : length d = m -> Forall block d -> length e = m -> Forall block e ->
  length (xor_list d e) = m /\ Forall block (xor_list d e) /\ xor_list (xor_list d e) e = d.
Proof.
  intros L F L' F'. split; [unfold xor_list; rewrite map2_length; lia|].
  revert e m L L' F'. induction F as [|b d Hb F IH]; intros [|b' e] m L L' F'; cbn in *; try lia; [split; [constructor|reflexivity]|].
  inversion F' as [|? ? Hb' F'']; subst. destruct (IH e (length d) eq_refl ltac:(lia) F'') as [A B].
  split; [constructor; [now apply block_xor|exact A]|]. unfold xor_list in *. cbn [map2]. rewrite block_xor_back, B by assumption. reflexivity.
Qed.

Section Client.
  Context {V W : Type}.
  Variables (c : circuit) (m : nat) (vals inp : W -> list Z) (legal : W -> Prop)
    (one : prg -> (nat -> Z) -> cstate -> option (crec (V * ClientPacket) W * cstate))
    (val : prg -> W) (key : prg -> list Z) (sh : bool -> prg -> V) (last : nat)
    (mask : bool -> W -> W -> list (list Z)).
  Let N := points_of c.
  Let k := proof_draws c.
  Let t := client_roots None N.
  Hypothesis HM : (NumMulGates c < 2 ^ 18)%nat.
  Definition one_form : Prop := forall g T, is_blocks g ->
    one g T (0%nat, 0%nat, None) =
    match make_packets T 0 None c (inp (val g)) with
    | None => None
    | Some (p0, p1, s', tabs') => Some (mkC (key g) (sh false g, p0) (sh true g, p1) (val g), (last, s', tabs'))
    end.
  Hypothesis FORM : one_form.
  Hypothesis VALS : forall v, legal v -> length (vals v) = NumInputs c.
  Hypothesis VAL : forall g, is_blocks g -> legal (val g).

  Definition gen (d : client_draws) : prg := fst (draw_tapes d).
  Definition made (d : client_draws) : crec (V * ClientPacket) W :=
    let wires := eval_wires c (inp (val (gen d))) in
    mkC (key (gen d)) (sh false (gen d), packet_half false t c wires N (tp (snd d)) 0)
        (sh true (gen d), packet_half true t c wires N (tp (snd d)) 0) (val (gen d)).
  Definition mask_ok : Prop := forall side v v', legal v -> legal v' ->
    length (mask side v v') = m /\ Forall block (mask side v v') /\ mask side v v' = mask side v' v /\
    forall d t', length d = m -> Forall block d -> val (gen (d, t')) = v ->
      let g' := gen (xor_list d (mask side v v'), t') in
      val g' = v' /\ key g' = key (gen (d, t')) /\ sh side g' = sh side (gen (d, t')).
  Hypothesis MASK : mask_ok.

  Lemma gen_blocks d : one_client m k d -> is_blocks (gen d).
  Proof.
    intros (L & F & _) i. unfold gen, draw_tapes. cbn [fst].
    destruct (Nat.lt_ge_cases i (length (fst d))) as [H|H].
    - rewrite Forall_forall in F. apply F, nth_In, H.
    - rewrite nth_overflow by exact H. apply zero_block.
  Qed.
  Lemma points_EN : NextPowerOfTwo (Z.of_nat (NumMulGates c)) = Some (Z.of_nat N).
  Proof.
    destruct (npo2_nat _ HM) as (e & _ & _ & HN). unfold N, points_of. rewrite HN. now rewrite Nat2Z.id.
  Qed.
  Lemma made_eq d : one_client m k d -> option_map fst (one (fst (draw_tapes d)) (snd (draw_tapes d)) (0%nat, 0%nat, None)) = Some (made d).
  Proof.
    intros D. rewrite FORM by now apply gen_blocks. unfold make_packets. rewrite points_EN, Nat2Z.id.
    rewrite (packets_form _ c _ _ 0 N points_EN). reflexivity.
  Qed.
  Lemma made_list ds : Forall (one_client m k) ds -> separate_with_proofs one (map draw_tapes ds) = Some (map made ds).
  Proof.
    unfold separate_with_proofs. induction 1 as [|d ds D F IH]; [reflexivity|]. cbn [map all_some]. rewrite made_eq by exact D. now rewrite IH.
  Qed.
  Lemma made_share side d : share_of side (made d) = (sh side (gen d), packet_half side t c (eval_wires c (inp (val (gen d)))) N (tp (snd d)) 0).
  Proof. now destruct side. Qed.
  Lemma one_residues d : one_client m k d -> residues k (snd d).
  Proof. intros (_ & _ & L & F). now split. Qed.
  Lemma made_shaped side d o : one_client m k d -> length o = NumInputs c -> shaped c (snd (share_of side (made d)), subrow (vals (c_real (made d))) o).
  Proof.
    intros D Lo. rewrite made_share. cbn [snd]. unfold shaped. cbn [fst snd].
    destruct (packet_possible side t c (eval_wires c (inp (val (gen d)))) N (tp (snd d)) 0) as (L1 & _ & _ & _ & _ & L2 & _).
    split; [exact L1|]. split; [rewrite L2; apply points_EN|].
    unfold subrow. rewrite map2_length. cbn [made c_real]. rewrite (VALS _ (VAL _ (gen_blocks d D))), Lo. apply Nat.min_id.
  Qed.

  (** What server [negb side] would open for the client with draws [d] if server [side]'s
      converted share were [o]. *)
  Definition opening (side : bool) (x : Z) (o : list Z) (d : client_draws) (cor : CorShare) : Prop :=
    opens c x (negb side) (snd (share_of (negb side) (made d)), subrow (vals (c_real (made d))) o) cor.
  Definition link (side : bool) (x : Z) (o : list Z) (d d' : client_draws) : Prop :=
    fst d' = xor_list (fst d) (mask side (c_real (made d)) (c_real (made d'))) /\
    tp (snd d') 0 = tp (snd d) 0 /\ tp (snd d') 1 = tp (snd d) 1 /\
    c_pk (made d') = c_pk (made d) /\ share_of side (made d') = share_of side (made d) /\
    exists cor, opening side x o d cor /\ opening side x o d' cor.

  Lemma link_sym side x o d d' : one_client m k d -> one_client m k d' -> link side x o d d' -> link side x o d' d.
  Proof.
    intros D D' (E & T0 & T1 & K & S & cor & O1 & O2). split; [|repeat split; eauto].
    pose proof (VAL _ (gen_blocks d D)) as LV. pose proof (VAL _ (gen_blocks d' D')) as LV'.
    destruct (MASK side (val (gen d)) (val (gen d')) LV LV') as (ML & MB & MS & _).
    cbn [made c_real] in *. rewrite E, <- MS. symmetry. apply (xor_list_ok m); auto; apply D.
  Qed.
  Lemma link_exists side x o d v' : in_field P x -> one_client m k d -> legal v' -> length o = NumInputs c ->
    exists d', one_client m k d' /\ c_real (made d') = v' /\ link side x o d d'.
  Proof.
    intros Hx D LV' Lo. destruct d as [b tt]. destruct (opens_exists c x (negb side) _ HM Hx (made_shaped (negb side) (b, tt) o D Lo)) as (cor & O1 & HD & HE).
    pose proof (VAL _ (gen_blocks _ D)) as LV. set (v := val (gen (b, tt))) in *.
    destruct (MASK side v v' LV LV') as (ML & MB & MS & MM).
    destruct D as (Lb & Fb & RT). cbn [fst snd] in Lb, Fb, RT.
    set (b' := xor_list b (mask side v v')). destruct (xor_list_ok m b (mask side v v') Lb Fb ML MB) as (Lb' & Fb' & _).
    destruct (draws_exist side t c N x points_EN (eval_wires c (inp v')) (subrow (vals v') o) (shareD cor) (shareE cor) tt
      (snd (share_of side (made (b, tt)))) RT) as (t' & R' & T0 & T1 & PH & OP); auto.
    { rewrite made_share. cbn [snd]. apply packet_possible. }
    { unfold subrow. rewrite map2_length, (VALS v' LV'), Lo. apply Nat.min_id. }
    exists (b', t').
    assert (D' : one_client m k (b', t')) by (split; [exact Lb'|]; split; [exact Fb'|exact R']).
    assert (G : gen (b', t') = gen (b', tt)) by reflexivity.
    destruct (MM b tt Lb Fb eq_refl) as (V' & K' & S'). fold b' in V', K', S'.
    assert (RV : c_real (made (b', t')) = v') by exact V'.
    split; [exact D'|]. split; [exact RV|].
    split; [rewrite RV; reflexivity|]. split; [exact T0|]. split; [exact T1|].
    split; [exact K'|]. split.
    - rewrite !made_share in *. cbn [snd] in *. rewrite G, V', S', PH. reflexivity.
    - exists cor. split; [exact O1|]. unfold opening. rewrite made_share. cbn [snd]. rewrite RV, G, V'. destruct cor as [D0 E0]. exact OP.
  Qed.
  Lemma link_unique side x o d d1 d2 : one_client m k d1 -> one_client m k d2 ->
    c_real (made d1) = c_real (made d2) -> link side x o d d1 -> link side x o d d2 -> d1 = d2.
  Proof.
    intros D1 D2 RV (E1 & T01 & T11 & K1 & S1 & cor1 & O1 & O1') (E2 & T02 & T12 & K2 & S2 & cor2 & O2 & O2').
    assert (cor2 = cor1) by exact (opens_fun _ _ _ _ _ _ O2 O1). subst cor2.
    assert (EB : fst d1 = fst d2) by (rewrite E1, E2, RV; reflexivity).
    assert (G : gen d1 = gen d2) by (unfold gen, draw_tapes; cbn [fst]; now rewrite EB).
    assert (SS : share_of side (made d1) = share_of side (made d2)) by congruence.
    rewrite !made_share, <- G in SS. apply (f_equal snd) in SS. cbn [snd] in SS.
    unfold opening in O1', O2'. rewrite made_share in O1', O2'. rewrite <- G, <- RV in O2'. cbn [snd] in O1', O2'.
    assert (ET : snd d1 = snd d2).
    { refine (draws_unique side t c N x points_EN _ _ _ _ _ (one_residues _ D1) (one_residues _ D2) _ _ SS O1' O2'); congruence. }
    destruct d1, d2; cbn [fst snd] in *; congruence.
  Qed.

  (** ** All clients *)
  Definition linked (side : bool) (x : Z) (own : list Z -> list Z) (ds ds' : list client_draws) : Prop :=
    Forall2 (fun d d' => link side x (own (c_pk (made d))) d d') ds ds'.
  Lemma linked_seen side x own ds ds' : linked side x own ds ds' -> seen side (map made ds') = seen side (map made ds).
  Proof.
    unfold seen. induction 1 as [|d d' ds ds' (_ & _ & _ & K & S & _) _ IH]; [reflexivity|]. cbn [map]. now rewrite K, S, IH.
  Qed.
  Lemma linked_sym side x own own' ds ds' : Forall (one_client m k) ds -> Forall (one_client m k) ds' -> (forall pk, own' pk = own pk) ->
    linked side x own ds ds' -> linked side x own' ds' ds.
  Proof.
    intros D D' EO H. induction H as [|d d' ds ds' L _ IH]; [constructor|]. inversion D; inversion D'; subst. constructor.
    - rewrite EO. destruct L as (L1 & L2 & L3 & K & L5). rewrite K. apply link_sym; auto. split; auto.
    - now apply IH.
  Qed.
  Lemma linked_exists side x own : in_field P x -> (forall pk, length (own pk) = NumInputs c) ->
    forall ds vs', Forall (one_client m k) ds -> Forall legal vs' -> length vs' = length ds ->
    exists ds', Forall (one_client m k) ds' /\ length ds' = length ds /\ map c_real (map made ds') = vs' /\ linked side x own ds ds'.
  Proof.
    intros Hx HO. induction ds as [|d ds IH]; intros [|v' vs'] D LV L; cbn in L; try lia.
    - exists []. repeat split; constructor.
    - inversion D; inversion LV; subst. destruct (IH vs') as (ds' & A & B & C & E); auto.
      destruct (link_exists side x (own (c_pk (made d))) d v') as (d' & A1 & C1 & E1); auto.
      exists (d' :: ds'). split; [now constructor|]. split; [cbn; congruence|]. split; [cbn [map]; congruence|]. now constructor.
  Qed.
  Lemma linked_unique side x own ds ds1 ds2 : Forall (one_client m k) ds1 -> Forall (one_client m k) ds2 ->
    map c_real (map made ds1) = map c_real (map made ds2) -> linked side x own ds ds1 -> linked side x own ds ds2 -> ds1 = ds2.
  Proof.
    intros D1 D2 E H1. revert ds2 D2 E. induction H1 as [|d d1 ds ds1 L1 H1 IH]; intros ds2 D2 E H2; inversion H2 as [|? d2 ? ds2' L2 H2']; subst; [reflexivity|].
    inversion D1; inversion D2; subst. cbn [map] in E. injection E as E1 E2. f_equal.
    - eapply link_unique; eassumption.
    - now apply IH.
  Qed.
  Lemma linked_openings side x own ds ds' : linked side x own ds ds' -> NoDup (map c_pk (map made ds)) ->
    exists corf : list Z -> CorShare,
      Forall (fun r => opens c x (negb side) (snd (share_of (negb side) r), subrow (vals (c_real r)) (own (c_pk r))) (corf (c_pk r))) (map made ds) /\
      Forall (fun r => opens c x (negb side) (snd (share_of (negb side) r), subrow (vals (c_real r)) (own (c_pk r))) (corf (c_pk r))) (map made ds').
  Proof.
    induction 1 as [|d d' ds ds' L H IH]; intros ND.
    - exists (fun _ => mkCorShare 0 0). split; constructor.
    - cbn [map] in ND. inversion ND as [|? ? NI ND']; subst. destruct (IH ND') as (f & F1 & F2).
      pose proof (linked_seen _ _ _ _ _ H) as SN. apply seen_pks in SN.
      destruct L as (_ & _ & _ & K & _ & cor & O1 & O2).
      exists (fun pk => if key_eqb pk (c_pk (made d)) then cor else f pk).
      assert (OT : forall l, Forall (fun r : crec (V * ClientPacket) W => opens c x (negb side) (snd (share_of (negb side) r), subrow (vals (c_real r)) (own (c_pk r))) (f (c_pk r))) l ->
        ~ In (c_pk (made d)) (map c_pk l) ->
        Forall (fun r => opens c x (negb side) (snd (share_of (negb side) r), subrow (vals (c_real r)) (own (c_pk r)))
          (if key_eqb (c_pk r) (c_pk (made d)) then cor else f (c_pk r))) l).
      { intros l Fl NL. apply Forall_forall. intros r Hr. destruct (key_eqb_spec (c_pk r) (c_pk (made d))) as [E|_].
        - elim NL. rewrite <- E. now apply in_map.
        - rewrite Forall_forall in Fl. now apply Fl. }
      cbn [map]. split; constructor.
      + rewrite key_eqb_refl. exact O1.
      + apply OT; [exact F1|exact NI].
      + rewrite K, key_eqb_refl. unfold opening in O2. exact O2.
      + apply OT; [exact F2|]. rewrite SN. exact NI.
  Qed.
End Client.
