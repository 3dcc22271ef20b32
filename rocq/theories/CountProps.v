(** * How many challenges let a cheating client of VAR or LINREG through *)
From Coq Require Import ZArith List Bool Lia Permutation.
From Verif Require Import Words WordsFacts Constants Cong Share SpecShare ShareFacts Proc ProcFacts Net SpecNet NetFacts RelFacts
  Poly SpecPoly Circuit SpecCircuit CircuitFacts Snip SpecSnip SnipFacts SnipBatch
  MpcFacts ServerOps SpecServer TableFacts ServerFacts ServerCor ClientOps SpecClient ClientFacts ClientProps
  SnipSums SpecStat StatReads StatProps StatClient StatSound SpecCount CountFacts.
From Verif Require DabitFacts.
Import ListNotations.
Open Scope Z_scope.
Local Notation P := Int_Modulus.
Opaque Int_Modulus.

(** ** The verdict depends only on the coefficients spent *)
Lemma dotK_window K K' : forall l pos pos', (forall i, (i < length l)%nat -> K (pos + i)%nat = K' (pos' + i)%nat) ->
  dotK K pos l = dotK K' pos' l.
Proof.
  induction l as [|a l IH]; intros pos pos' H; cbn [dotK]; auto.
  pose proof (H 0%nat ltac:(cbn; lia)) as H0. rewrite !Nat.add_0_r in H0. rewrite H0. f_equal.
  apply IH. intros i Hi. rewrite !Nat.add_succ_comm. apply H. cbn. lia.
Qed.

Lemma verdict_window c r K K' pos pos' x0 x1 b : (NumMulGates c < 2 ^ 18)%nat -> shaped c x0 -> shaped c x1 -> in_field P r ->
  (forall i, (i < coefficients c)%nat -> K (pos + i)%nat = K' (pos' + i)%nat) ->
  verdict c r K pos x0 x1 b -> verdict c r K' pos' x0 x1 b.
Proof.
  intros HM S0 S1 Hr HK V.
  destruct (item_good c x0 x1 HM S0 S1) as (k & f & g & h & Hk & Hn & HN & Lf & Lg & Lh & Hp & HG).
  destruct (HG r Hr) as (ck0 & ck1 & G).
  pose proof (good_verdict c k r K pos _ Hk HN G) as W. pose proof (good_verdict c k r K' pos' _ Hk HN G) as W'.
  cbn [jx0 jx1 jent] in W, W'.
  rewrite (verdict_unique _ _ _ _ _ _ _ _ Hr V W). rewrite (dotK_window K K' _ pos pos'); auto.
  cbn [length]. rewrite map_length. exact HK.
Qed.

Lemma shaped_plain c vals p0 p1 : packet_ok (NumMulGates c) p0 -> packet_ok (NumMulGates c) p1 -> length vals = NumInputs c ->
  shaped c (p0, vals) /\ shaped c (p1, map (fun _ => 0) vals).
Proof.
  intros O0 O1 HL. split.
  - destruct O0 as (A & B & _). repeat split; auto.
  - destruct O1 as (A & B & _). repeat split; auto. cbn [snd]. now rewrite map_length.
Qed.

Lemma judged_window c r K K' pos pos' vals p0 p1 b : (NumMulGates c < 2 ^ 18)%nat ->
  packet_ok (NumMulGates c) p0 -> packet_ok (NumMulGates c) p1 -> length vals = NumInputs c -> in_field P r ->
  (forall i, (i < coefficients c)%nat -> K (pos + i)%nat = K' (pos' + i)%nat) ->
  judged c r K pos vals p0 p1 b -> judged c r K' pos' vals p0 p1 b.
Proof.
  intros HM O0 O1 HL Hr HK. destruct (shaped_plain c vals p0 p1 O0 O1 HL). now apply verdict_window.
Qed.

(** ** One submission, among others *)
Definition window (off w : nat) (t : list Z) : list Z := firstn w (skipn off t).

Lemma nth_window off w t i : (i < w)%nat -> nth i (window off w t) 0 = nth (off + i) t 0.
Proof.
  intros Hi. unfold window. revert off t. induction i as [|i IH] in w, Hi |- *; intros off t.
  - rewrite Nat.add_0_r. revert t. induction off as [|off IH]; intros t.
    + destruct w; [lia|]. now destruct t.
    + destruct t as [|x t]; cbn [skipn nth]; [now rewrite firstn_nil; destruct w|apply IH].
  - revert t. induction off as [|off IHo]; intros t.
    + destruct w as [|w]; [lia|]. destruct t as [|x t]; [reflexivity|]. cbn [skipn firstn nth Nat.add].
      apply (IH w ltac:(lia) 0%nat t).
    + destruct t as [|x t]; cbn [skipn Nat.add nth]; [rewrite firstn_nil; now destruct w|]. apply IHo.
Qed.
Lemma length_window off w t : (off + w <= length t)%nat -> length (window off w t) = w.
Proof. intros H. unfold window. rewrite firstn_length, skipn_length. lia. Qed.

Lemma nth_agree q (t t' : list Z) : length t = length t' -> firstn q t = firstn q t' -> skipn (S q) t = skipn (S q) t' ->
  forall i, i <> q -> nth i t 0 = nth i t' 0.
Proof.
  revert t t'. induction q as [|q IH]; intros [|x t] [|x' t'] L E1 E2 i Hi; try discriminate; auto.
  - destruct i; [lia|]. cbn in *. congruence.
  - cbn [firstn] in E1. change (skipn (S q) t = skipn (S q) t') in E2. injection E1 as -> E1.
    destruct i; [reflexivity|]. cbn [nth]. apply IH; auto.
Qed.

(** Challenges that cannot let the submission through but for few points and, elsewhere, one
    value of some coefficient. *)
Definition shaky (c : circuit) (vals : list Z) (p0 p1 : ClientPacket) (N : nat) : Prop :=
  exists bad, (length bad <= 2 * N)%nat /\ forall r, in_field P r -> ~ In r bad ->
    exists j, (j <= length (result_zero c))%nat /\
      forall K K' pos, differ_only_at (pos + j) K K' ->
        ~ (judged c r K pos vals p0 p1 true /\ judged c r K' pos vals p0 p1 true).

Lemma shaky_count c vals p0 p1 N off n : (NumMulGates c < 2 ^ 18)%nat ->
  packet_ok (NumMulGates c) p0 -> packet_ok (NumMulGates c) p1 -> length vals = NumInputs c ->
  shaky c vals p0 p1 N -> (off + coefficients c <= n)%nat ->
  at_most ((2 * Z.of_nat N + 1) * P ^ Z.of_nat n)
    (fun e => challenges n e /\ passes c vals p0 p1 (fst e, window off (coefficients c) (snd e))).
Proof.
  intros HM O0 O1 HL (bad & LB & HB) Ho.
  eapply at_most_incl; [| |apply (count_accepted n (fun r t => passes c vals p0 p1 (r, window off (coefficients c) t)) bad)].
  - apply Z.mul_le_mono_nonneg_r; [apply Z.pow_nonneg; pose proof P_pos; lia|lia].
  - auto.
  - intros r Hr Hb. destruct (HB r Hr Hb) as (j & Hj & HU). unfold coefficients in *. exists (off + j)%nat. split; [lia|].
    intros t t' Lt Lt' Ft Ft' (K & pos & HK & J) (K' & pos' & HK' & J') E1 E2. cbn [fst snd] in *.
    destruct (list_eq_dec Z.eq_dec t t') as [|NE]; auto. exfalso. unfold uses in HK, HK'.
    rewrite length_window in HK, HK' by lia.
    pose proof (nth_agree (off + j) t t' ltac:(congruence) E1 E2) as HA.
    apply (HU (fun i => nth (off + i) t 0) (fun i => nth (off + i) t' 0) 0%nat); cycle 1.
    + split.
      * refine (judged_window c r K _ pos 0 vals p0 p1 true HM O0 O1 HL Hr _ J). unfold coefficients. intros i Hi.
        rewrite HK by exact Hi. now rewrite nth_window.
      * refine (judged_window c r K' _ pos' 0 vals p0 p1 true HM O0 O1 HL Hr _ J'). unfold coefficients. intros i Hi.
        rewrite HK' by exact Hi. now rewrite nth_window.
    + split; [intros i Hi; apply HA; lia|]. cbn [Nat.add].
      assert (Q : forall u, length u = n -> Forall (in_field P) u -> in_field P (nth (off + j) u 0)).
      { intros u Lu Fu. rewrite Forall_forall in Fu. apply Fu, nth_In. lia. }
      pose proof (Q t Lt Ft) as F1. pose proof (Q t' Lt' Ft') as F2. unfold in_field in F1, F2.
      rewrite !Z.mod_small by assumption. intros E. apply NE. apply nth_ext with (d := 0) (d' := 0); [congruence|].
      intros i Hi. destruct (Nat.eq_dec i (off + j)) as [->|]; auto.
Qed.

Lemma passes_count c vals p0 p1 N off n : wf c -> (NumMulGates c < 2 ^ 18)%nat ->
  packet_ok (NumMulGates c) p0 -> packet_ok (NumMulGates c) p1 -> length vals = NumInputs c ->
  NextPowerOfTwo (Z.of_nat (NumMulGates c)) = Some (Z.of_nat N) ->
  Eval c (map (fun v => v mod p) vals) = false -> (off + coefficients c <= n)%nat ->
  at_most ((2 * Z.of_nat N + 1) * P ^ Z.of_nat n)
    (fun e => challenges n e /\ passes c vals p0 p1 (fst e, window off (coefficients c) (snd e))).
Proof.
  intros WF HM O0 O1 HL HN HE Ho. apply shaky_count; auto.
  exact (judged_sound c vals p0 p1 N WF HM O0 O1 HL HN HE).
Qed.

(** ** Positions *)
Lemma index_lt (L : list (list Z)) pk : In pk L -> (index_of pk L < length L)%nat.
Proof. intros H. apply nth_error_Some. rewrite index_in by auto. discriminate. Qed.

Lemma fair_keys {V} order (m : table V) pk : fair order -> In pk (map fst m) -> In pk (map fst (order V m)).
Proof.
  intros HF. intros (e & <- & He)%in_map_iff. apply in_map. eapply Permutation_in; [symmetry; apply HF|exact He].
Qed.

Lemma uses_window start ks K off w : uses start ks K -> (off + w <= length ks)%nat -> uses (start + off) (window off w ks) K.
Proof.
  intros HU Ho i Hi. rewrite length_window in Hi by auto. rewrite nth_window by auto. rewrite <- Nat.add_assoc.
  apply HU. lia.
Qed.

(** ** From counting to listing *)
Lemma decided_list {D} (R : D -> Prop) (l : list D) : NoDup l -> (forall d, In d l -> R d \/ ~ R d) ->
  exists l', NoDup l' /\ forall d, In d l' <-> In d l /\ R d.
Proof.
  intros ND. induction ND as [|x l Hx ND IH]; intros H.
  - exists []. split; [constructor|]. cbn. tauto.
  - destruct IH as (l' & N' & H'); [intros d Hd; apply H; now right|].
    destruct (H x (or_introl eq_refl)) as [Rx|Rx].
    + exists (x :: l'). split; [constructor; auto; intros Hin; apply Hx; now apply H'|].
      intros d. cbn [In]. rewrite H'. split; [intros [<-|[]]; auto|]. intros [[<-|] ?]; auto.
    + exists l'. split; auto. intros d. cbn [In]. rewrite H'. split; [tauto|]. intros [[<-|] ?]; [contradiction|auto].
Qed.

Lemma all_but_intro m n (R A : challenge -> Prop) :
  (forall e, challenges n e -> R e \/ ~ R e) -> at_most m (fun e => challenges n e /\ R e) ->
  (forall e, challenges n e -> ~ R e -> A e) -> all_but m n A.
Proof.
  intros HD HM HA. destruct (challenges_exactly n) as (E & ND & HE & _).
  destruct (decided_list R E ND) as (B & NB & HB); [intros d Hd; apply HD; now apply HE|].
  exists B. split.
  - apply HM; auto. apply Forall_forall. intros e [He Re]%HB. split; auto. now apply HE.
  - intros e He NI. apply HA; auto. intros Re. apply NI, HB. split; auto. now apply HE.
Qed.

Lemma exists_decided {I} (R : I -> Prop) l : (forall i, In i l -> R i \/ ~ R i) ->
  (exists i, In i l /\ R i) \/ ~ (exists i, In i l /\ R i).
Proof.
  induction l as [|i l IH]; intros H; [right; intros (? & [] & _)|].
  destruct (H i (or_introl eq_refl)) as [Hi|Hi]; [left; exists i; split; auto; now left|].
  destruct IH as [(j & Hj & Rj)|N]; [intros j Hj; apply H; now right|left; exists j; split; auto; now right|].
  right. intros (j & [<-|Hj] & Rj); auto. apply N. eauto.
Qed.

Lemma passes_decided c vals p0 p1 r cs : (NumMulGates c < 2 ^ 18)%nat ->
  packet_ok (NumMulGates c) p0 -> packet_ok (NumMulGates c) p1 -> length vals = NumInputs c -> in_field P r ->
  length cs = coefficients c -> passes c vals p0 p1 (r, cs) \/ ~ passes c vals p0 p1 (r, cs).
Proof.
  intros HM O0 O1 HL Hr Lc. destruct (shaped_plain c vals p0 p1 O0 O1 HL) as [S0 S1].
  destruct (item_good c _ _ HM S0 S1) as (k & f & g & h & Hk & Hn & HN & _ & _ & _ & _ & HG).
  destruct (HG r Hr) as (ck0 & ck1 & G).
  pose proof (good_verdict c k r (fun i => nth i cs 0) 0 _ Hk HN G) as W. cbn [jx0 jx1] in W.
  match type of W with verdict _ _ _ _ _ _ ?b => destruct b eqn:EB; clear EB end.
  - left. exists (fun i => nth i cs 0), 0%nat. split; [intros i Hi; reflexivity|exact W].
  - right. intros (K & pos & HK & J). cbn [fst snd] in *.
    assert (judged c r (fun i => nth i cs 0) 0 vals p0 p1 true) as J'.
    { refine (judged_window c r K _ pos 0 vals p0 p1 true HM O0 O1 HL Hr _ J). intros i Hi. apply HK. now rewrite Lc. }
    pose proof (verdict_unique _ _ _ _ _ _ _ _ Hr J' W). discriminate.
Qed.

(** ** The operations, for any circuit *)
Section Whole.
  Context {V : Type}.
  Variables (c : circuit) (fits : V -> bool) (opened : V -> V -> list Z) (packet : V -> ClientPacket)
    (subs0 subs1 : list (list Z * V)) (L L1 C : list (list Z)) (order1 : iteration) (N : nat)
    (truthful : list Z -> Prop).
  Hypothesis WF : wf c.
  Hypothesis HM : (NumMulGates c < 2 ^ 18)%nat.
  Hypothesis HN : NextPowerOfTwo (Z.of_nat (NumMulGates c)) = Some (Z.of_nat N).
  Hypothesis HF : fair order1.
  Hypothesis HA : accepted fits subs0 subs1 L.
  Hypothesis HL1 : length (table_of fits subs1) = length L1.
  (** shapes *)
  Hypothesis HS : forall pk a b, first_sub fits subs0 pk = Some a -> first_sub fits subs1 pk = Some b ->
    packet_ok (NumMulGates c) (packet a) /\ packet_ok (NumMulGates c) (packet b) /\ length (opened a b) = NumInputs c.
  Hypothesis HT : forall pk a b, first_sub fits subs0 pk = Some a -> first_sub fits subs1 pk = Some b ->
    truthful (opened a b) \/ Eval c (map (fun v => v mod p) (opened a b)) = false.
  Hypothesis HC : forall pk, In pk L -> ~ truthful (combined fits opened [] subs0 subs1 pk) -> In pk C.
  Hypothesis HD : forall v, truthful v \/ ~ truthful v.

  Let w := coefficients c.
  Let n := (w * length L1)%nat.
  Let place pk := (index_of pk (map fst (order1 _ (table_of fits subs1))) * w)%nat.

  Definition slips (pk : list Z) (e : challenge) : Prop :=
    match first_sub fits subs0 pk, first_sub fits subs1 pk with
    | Some a, Some b => Eval c (map (fun v => v mod p) (opened a b)) = false /\
        passes c (opened a b) (packet a) (packet b) (fst e, window (place pk) w (snd e))
    | _, _ => False
    end.

  Lemma place_ok pk b : first_sub fits subs1 pk = Some b -> (place pk + w <= n)%nat.
  Proof.
    intros E. assert (I : In pk (map fst (order1 _ (table_of fits subs1)))).
    { apply fair_keys; auto. apply find_some_iff. rewrite table_find. congruence. }
    apply index_lt in I. rewrite map_length, (fair_length order1 _ HF), HL1 in I.
    unfold place, n. nia.
  Qed.

  Lemma slips_count : at_most (Z.of_nat (length C) * ((2 * Z.of_nat N + 1) * P ^ Z.of_nat n))
    (fun e => challenges n e /\ exists pk, In pk C /\ slips pk e).
  Proof.
    eapply at_most_incl; [apply Z.le_refl| |apply (at_most_exists ((2 * Z.of_nat N + 1) * P ^ Z.of_nat n) C (fun pk e => challenges n e /\ slips pk e))].
    - intros e (He & pk & Hp & Hs). eauto.
    - intros pk _. unfold slips. destruct (first_sub fits subs0 pk) as [a|] eqn:E0, (first_sub fits subs1 pk) as [b|] eqn:E1;
      try (eapply at_most_incl; [| |apply at_most_none]; [apply Z.mul_nonneg_nonneg; [lia|apply Z.pow_nonneg; pose proof P_pos; lia]|exact (fun d H => H)|]; cbv beta; tauto).
      destruct (HS pk a b E0 E1) as (A & B & Q).
      destruct (Eval c (map (fun v => v mod p) (opened a b))) eqn:EV.
      + eapply at_most_incl; [| |apply at_most_none]; [apply Z.mul_nonneg_nonneg; [lia|apply Z.pow_nonneg; pose proof P_pos; lia]|exact (fun d H => H)|].
        cbv beta. intros e (_ & H & _). discriminate.
      + eapply at_most_incl; [apply Z.le_refl| |apply (passes_count c (opened a b) (packet a) (packet b) N (place pk) n WF HM A B Q HN EV)].
        * intros e (He & _ & H). auto.
        * eapply place_ok; eauto.
  Qed.

  Lemma slips_decided pk e : challenges n e -> slips pk e \/ ~ slips pk e.
  Proof.
    intros (Hr & Le & Fe). unfold slips. destruct (first_sub fits subs0 pk) as [a|] eqn:E0; [|tauto].
    destruct (first_sub fits subs1 pk) as [b|] eqn:E1; [|tauto].
    destruct (Eval c (map (fun v => v mod p) (opened a b))); [right; intros [? _]; discriminate|].
    destruct (HS pk a b E0 E1) as (A & B & Q). pose proof (place_ok pk b E1).
    destruct (passes_decided c (opened a b) (packet a) (packet b) (fst e) (window (place pk) w (snd e)) HM A B Q Hr); auto.
    - apply length_window. rewrite Le. exact H.
    - tauto.
  Qed.

  Lemma whole_count (A : challenge -> Prop) :
    (forall e, challenges n e -> (forall ok K start pos, uses start (snd e) K -> in_field P (fst e) ->
        validated c (fst e) K start fits opened packet subs0 subs1 L ok pos ->
        (forall pk, pos pk = (start + index_of pk (map fst (order1 _ (table_of fits subs1))) * S (length (result_zero c)))%nat) ->
        forall pk, In pk (filter ok L) -> truthful (combined fits opened [] subs0 subs1 pk)) -> A e) ->
    all_but (Z.of_nat (length C) * ((2 * Z.of_nat N + 1) * P ^ Z.of_nat n)) n A.
  Proof.
    intros H. apply all_but_intro with (R := fun e => exists pk, In pk C /\ slips pk e).
    - intros e He. apply exists_decided. intros pk _. now apply slips_decided.
    - apply slips_count.
    - intros e He NS. apply H; auto. intros ok K start pos HU Hr (HJ & _) HP pk [Hin Hok]%filter_In.
      destruct (HD (combined fits opened [] subs0 subs1 pk)) as [|NT]; auto. exfalso. apply NS. exists pk.
      split; [apply HC; auto|]. unfold slips, combined in *.
      destruct (proj1 (proj2 HA pk) Hin) as [F0 F1].
      destruct (first_sub fits subs0 pk) as [a|] eqn:E0; [|congruence]. destruct (first_sub fits subs1 pk) as [b|] eqn:E1; [|congruence].
      split; [destruct (HT pk a b E0 E1); [contradiction|auto]|].
      specialize (HJ pk a b E0 E1). rewrite Hok in HJ. exists K, (pos pk). split; [|exact HJ]. cbn [snd].
      rewrite HP. apply uses_window; auto. destruct He as (_ & -> & _). eapply place_ok; eauto.
  Qed.
End Whole.

(** ** VAR and LINREG *)
Lemma var_truth vals : length vals = 2%nat ->
  var_truthful vals \/ Eval CheckVar (map (fun v => v mod p) vals) = false.
Proof.
  destruct vals as [|v [|v2 [|? ?]]]; intros L; try discriminate. unfold var_truthful. cbn [nth].
  destruct (Eval CheckVar (map (fun v => v mod p) [v; v2])) eqn:E; auto. left. exact (proj1 (check_var_mod v v2) E).
Qed.

Lemma linreg_truth degree vals : (1 <= degree)%nat -> length vals = num_fields degree ->
  linreg_truthful degree vals \/ Eval (CheckLinReg degree) (map (fun v => v mod p) vals) = false.
Proof.
  intros Hd HL. destruct (Eval (CheckLinReg degree) _) eqn:E; auto. left. unfold linreg_truthful.
  set (nx := num_x degree) in *. set (nq := num_quad degree) in *.
  set (x := firstn nx vals). set (y := nth nx vals 0). set (x2 := firstn nq (skipn (S nx) vals)). set (xy := skipn (S nx + nq) vals).
  assert (LF : length vals = (nx + 1 + nq + nx)%nat) by (rewrite HL; unfold num_fields, nx, nq; lia).
  assert (Lx : length x = nx) by (unfold x; rewrite firstn_length; lia).
  assert (Lx2 : length x2 = nq) by (unfold x2; rewrite firstn_length, skipn_length; lia).
  assert (Lxy : length xy = nx) by (unfold xy; rewrite skipn_length; lia).
  assert (EV : vals = x ++ y :: x2 ++ xy).
  { unfold x, y, x2, xy. clear -LF. assert (nx < length vals)%nat by lia. clear LF. revert vals H.
    induction nx as [|k IH]; intros [|v vals] H; cbn [length] in H; try lia.
    - cbn [firstn nth skipn app Nat.add]. now rewrite firstn_skipn.
    - cbn [firstn nth app Nat.add skipn]. f_equal. apply IH. lia. }
  clearbody x y x2 xy. subst vals. clear HL LF.
  replace degree with (S (length (map (fun v => v mod p) x))) in E by (rewrite map_length, Lx; unfold nx, num_x; lia).
  rewrite map_app in E. cbn [map] in E. rewrite map_app in E.
  refine (_ (proj1 (check_linreg_lemma _ _ _ _ _ _) E)).
  + intros [E2 Exy]. rewrite <- pairwise_mod, pairwise_map_mod in E2. rewrite !map_map in E2. rewrite (map_map _ _ xy), (map_map _ _ x) in Exy.
    split.
    * rewrite <- E2. apply map_ext. intros z. now rewrite Zmod_mod.
    * transitivity (map (fun z => (y mod p * (z mod p)) mod p) x).
      -- rewrite <- Exy. apply map_ext. intros z. now rewrite Zmod_mod.
      -- apply map_ext. intros z. now rewrite <- Zmult_mod, Z.mul_comm.
  + rewrite !map_length, Lx2, Lx. reflexivity.
  + now rewrite !map_length, Lxy, Lx.
Qed.

Lemma var_dec v : var_truthful v \/ ~ var_truthful v.
Proof. unfold var_truthful. destruct (Z.eq_dec (nth 1 v 0 mod p) ((nth 0 v 0 * nth 0 v 0) mod p)); auto. Qed.
Lemma linreg_dec degree v : linreg_truthful degree v \/ ~ linreg_truthful degree v.
Proof.
  unfold linreg_truthful.
  match goal with |- (?a = ?b /\ ?c = ?d) \/ _ => destruct (list_eq_dec Z.eq_dec a b); [destruct (list_eq_dec Z.eq_dec c d)|] end;
  tauto.
Qed.

Lemma first_sub_in {V} (ok : V -> bool) subs pk a : first_sub ok subs pk = Some a -> exists k, In (k, a) subs.
Proof.
  induction subs as [|[k v] l IH]; cbn [first_sub]; [discriminate|].
  destruct (_ && _); [intros [= ->]; exists k; now left|]. intros H. destruct (IH H) as [k' Hk]. exists k'. now right.
Qed.

Lemma var_count nb order0 order1 total0 total1 stream0 stream1 subs0 subs1 junk0 junk1 L L1 C :
  (nb <= 24)%nat -> fair order1 ->
  arrives_cut var_wire var_size total0 stream0 subs0 -> arrives_cut var_wire var_size total1 stream1 subs1 ->
  Forall (fun s => var_content (snd s)) subs0 -> Forall (fun s => var_content (snd s)) subs1 ->
  length junk0 = 48%nat -> length junk1 = 48%nat ->
  (exists pk, first_sub (var_fits nb) subs1 pk <> None) ->
  accepted (var_fits nb) subs0 subs1 L -> accepted (var_fits nb) subs1 subs1 L1 ->
  (forall pk, In pk L -> ~ var_truthful (combined (var_fits nb) var_opened [] subs0 subs1 pk) -> In pk C) ->
  let n := (coefficients CheckVar * length L1)%nat in
  all_but (Z.of_nat (length C) * (5 * p ^ Z.of_nat n)) n
    (var_clean nb order0 order1 total0 total1 stream0 stream1 subs0 subs1 junk0 junk1 L).
Proof.
  intros Hn HF A0 A1 C0 C1 J0 J1 NE HA HA1 HC n.
  assert (HK : keys_ok (table_of (var_fits nb) subs1)) by (apply table_keys; destruct A1 as (? & _ & _ & HP & _); exact HP).
  change 5 with (2 * Z.of_nat 2 + 1).
  apply (whole_count CheckVar (var_fits nb) var_opened snd subs0 subs1 L L1 C order1 2 var_truthful); auto.
  - apply check_var_wf.
  - apply PeanoNat.Nat.ltb_lt. reflexivity.
  - now apply DabitFacts.accepted_table.
  - intros pk [[v v2] p0] [[v' v2'] p1] [k0 I0]%first_sub_in [k1 I1]%first_sub_in. rewrite Forall_forall in C0, C1.
    apply C0 in I0. apply C1 in I1. cbn in I0, I1. cbn [snd]. split; [apply I0|]. split; [apply I1|reflexivity].
  - intros pk [[v v2] p0] [[v' v2'] p1] _ _. apply var_truth. reflexivity.
  - apply var_dec.
  - intros e He H K rnd0 rnd1 st0 st1 SY ER HU.
    eapply both_impl; [|apply (var_op_result nb order0 order1 total0 total1 stream0 stream1 subs0 subs1 junk0 junk1 K rnd0 rnd1 st0 st1 L); auto].
    cbv beta. intros a b (ok & pos & HV & EB & EA & _ & _ & _ & EP). split; auto. exists (filter ok L).
    rewrite ER in HV.
    split; [apply NoDup_filter, HA|]. split; [intros x Hx; apply filter_In in Hx; apply Hx|]. split; auto.
    exact (H ok K (seed_pos st0) pos HU (proj1 He) HV EP).
Qed.

Lemma linreg_count nb degree order0 order1 total0 total1 stream0 stream1 subs0 subs1 d0 d1 junk0 junk1 garbage0 garbage1 L L1 C N :
  (nb <= 24)%nat -> (1 <= degree)%nat -> (num_quad degree + num_x degree < 2 ^ 18)%nat -> fair order1 ->
  arrives_cut linreg_wire (linreg_size degree) total0 stream0 subs0 ->
  arrives_cut linreg_wire (linreg_size degree) total1 stream1 subs1 ->
  Forall (fun s => linreg_content degree (snd s)) subs0 -> Forall (fun s => linreg_content degree (snd s)) subs1 ->
  length d0 = 8%nat -> length d1 = 8%nat -> length junk0 = 32%nat -> length junk1 = 32%nat ->
  (forall i, let '(x, x2, xy) := garbage0 i in linreg_shape degree (x, 0, x2, xy)) ->
  (exists pk, first_sub (linreg_fits nb) subs1 pk <> None) ->
  accepted (linreg_fits nb) subs0 subs1 L -> accepted (linreg_fits nb) subs1 subs1 L1 ->
  NextPowerOfTwo (Z.of_nat (num_quad degree + num_x degree)) = Some (Z.of_nat N) ->
  (forall pk, In pk L -> ~ linreg_truthful degree (combined (linreg_fits nb) linreg_opened [] subs0 subs1 pk) -> In pk C) ->
  let n := (coefficients (CheckLinReg degree) * length L1)%nat in
  all_but (Z.of_nat (length C) * ((2 * Z.of_nat N + 1) * p ^ Z.of_nat n)) n
    (linreg_clean nb degree order0 order1 total0 total1 stream0 stream1 subs0 subs1 d0 d1 junk0 junk1 garbage0 garbage1 L).
Proof.
  intros Hn Hd HQ HF A0 A1 C0 C1 D0 D1 J0 J1 HG NE HA HA1 HN HC n.
  assert (HK : keys_ok (table_of (linreg_fits nb) subs1)) by (apply table_keys; destruct A1 as (? & _ & _ & HP & _); exact HP).
  destruct (linreg_gates degree Hd) as [GM GI].
  assert (LO : forall pk a b, first_sub (linreg_fits nb) subs0 pk = Some a -> first_sub (linreg_fits nb) subs1 pk = Some b ->
    packet_ok (NumMulGates (CheckLinReg degree)) (snd a) /\ packet_ok (NumMulGates (CheckLinReg degree)) (snd b) /\
    length (linreg_opened a b) = num_fields degree).
  { intros pk [[[[x y] x2] xy] p0] [[[[x' y'] x2'] xy'] p1] [k0 I0]%first_sub_in [k1 I1]%first_sub_in. rewrite Forall_forall in C0, C1.
    apply C0 in I0. apply C1 in I1. destruct I0 as [(a1 & a2 & a3 & _) I0], I1 as [(b1 & b2 & b3 & _) I1]. cbn [fst snd] in *.
    split; [exact I0|]. split; [exact I1|]. unfold linreg_opened, linreg_row. cbn [fst]. rewrite map2_length, !app_length. cbn [length].
    rewrite !app_length. unfold num_fields. lia. }
  apply (whole_count (CheckLinReg degree) (linreg_fits nb) linreg_opened snd subs0 subs1 L L1 C order1 N (linreg_truthful degree)).
  - apply check_linreg_wf; auto.
  - rewrite GM. exact HQ.
  - rewrite GM. exact HN.
  - exact HF.
  - exact HA.
  - now apply DabitFacts.accepted_table.
  - intros pk a b E0 E1. rewrite GI. exact (LO pk a b E0 E1).
  - intros pk a b E0 E1. apply linreg_truth; auto. apply (LO pk a b E0 E1).
  - exact HC.
  - apply linreg_dec.
  - intros e He H K rnd0 rnd1 st0 st1 SY ER HU.
    eapply both_impl; [|exact (linreg_op_result nb degree order0 order1 total0 total1 stream0 stream1 subs0 subs1 d0 d1 junk0 junk1
       garbage0 garbage1 K rnd0 rnd1 st0 st1 L Hn Hd HQ HF A0 A1 C0 C1 D0 D1 J0 J1 HG NE HA SY)].
    cbv beta. intros a b (ok & pos & HV & EB & EA & _ & _ & _ & EP). split; auto. exists (filter ok L).
    rewrite ER in HV.
    split; [apply NoDup_filter, HA|]. split; [intros x Hx; apply filter_In in Hx; apply Hx|]. split; auto.
    exact (H ok K (seed_pos st0) pos HU (proj1 He) HV EP).
Qed.

(** ** One submission *)
Lemma one_count c vals p0 p1 N : wf c -> (NumMulGates c < 2 ^ 18)%nat ->
  packet_ok (NumMulGates c) p0 -> packet_ok (NumMulGates c) p1 -> length vals = NumInputs c ->
  NextPowerOfTwo (Z.of_nat (NumMulGates c)) = Some (Z.of_nat N) ->
  Eval c (map (fun v => v mod p) vals) = false ->
  at_most ((2 * Z.of_nat N + 1) * p ^ Z.of_nat (coefficients c))
    (fun e => challenges (coefficients c) e /\ passes c vals p0 p1 e).
Proof.
  intros WF HM O0 O1 HL HN HE.
  eapply at_most_incl; [apply Z.le_refl| |exact (passes_count c vals p0 p1 N 0 (coefficients c) WF HM O0 O1 HL HN HE (le_n _))].
  intros [r ks] [He Hp]. split; auto. cbn [fst snd]. destruct He as (_ & Lk & _). cbn [snd] in Lk.
  unfold window. cbn [skipn]. now rewrite <- Lk, firstn_all.
Qed.

(** The coefficients that are all zero let everything through. *)
Lemma zero_passes c vals p0 p1 r : (NumMulGates c < 2 ^ 18)%nat ->
  packet_ok (NumMulGates c) p0 -> packet_ok (NumMulGates c) p1 -> length vals = NumInputs c -> in_field P r ->
  passes c vals p0 p1 (r, repeat 0 (coefficients c)).
Proof.
  intros HM O0 O1 HL Hr. destruct (shaped_plain c vals p0 p1 O0 O1 HL) as [S0 S1].
  destruct (item_good c _ _ HM S0 S1) as (k & f & g & h & Hk & Hn & HN & _ & _ & _ & _ & HG).
  destruct (HG r Hr) as (ck0 & ck1 & G).
  pose proof (good_verdict c k r (fun i => 0) 0 _ Hk HN G) as W. cbn [jx0 jx1 jent] in W.
  assert (Z0 : forall l q, dotK (fun _ => 0) q l = 0) by (induction l as [|? ? IH]; intros; cbn [dotK]; auto; now rewrite IH).
  rewrite Z0 in W. exists (fun _ => 0), 0%nat. split; [|exact W].
  intros i Hi. cbn [fst snd]. now rewrite nth_repeat.
Qed.
