(** * A server facing an arbitrary program: the operations *)
From Coq Require Import ZArith List Bool Lia Permutation.
From Verif Require Import Words WordsFacts Constants Share Proc ProcFacts Net NetFacts SpecNet RelFacts OT Correlated Circuit Snip SpecSnip
  ServerOps SpecServer TableFacts ServerFacts SpecStat SpecAvail SnipFacts SnipBatch StatReads StatProps StatSound AvailFacts NoForkRun
  SpecPeer PeerFacts.
Import ListNotations.
Open Scope Z_scope.

Definition anyb (_ : Z) : Prop := True.
Lemma all_any i : Forall anyb i.
Proof. apply Forall_forall. intros; exact I. Qed.
Definition yes {A} (_ : A) : Prop := True.

Lemma fine_listens {A} Pb (r : proc A) : listens r -> fine Pb yes r.
Proof. induction r; cbn; intros; auto; try easy. Qed.
Lemma emits_pks l : exists bs, emits (send_pks l) bs tt.
Proof.
  induction l as [|k l [bs IH]]; [exists []; constructor|]. exists (k ++ bs). cbn. now constructor.
Qed.
Lemma emits_announce {V} (l : table V) : exists bs, emits (announce l) bs tt.
Proof.
  destruct (emits_pks (map fst l)) as [bs H]. eexists. unfold announce, send_size. cbn [bind]. constructor. exact H.
Qed.
Lemma fine_announce {V B} Pb R (l : table V) (k : proc B) : fine Pb R k -> fine Pb R (announce l ;;; k).
Proof.
  intros H. destruct (emits_announce l) as [bs E]. eapply fine_bind; [exact (fine_emits Pb _ _ _ E)|]. auto.
Qed.

(** ** BIT_SUM, INT_SUM, AND, OR *)
Lemma bit0_fine Pb m total rnd : fine Pb ended (bit_sum0 m total rnd).
Proof.
  unfold bit_sum0. eapply fine_bind; [exact (fine_listens Pb _ listens_learn)|]. intros pks _. cbv zeta.
  unfold bitsum_ot_sender. destruct (bitsum_send_loop _ _ _ _ _). cbn [bind fine recv_uint64]. intros b _ _.
  unfold ended. destruct (too_few _ _); cbn [fine]; eauto.
Qed.
Lemma bit1_fine Pb order m : fine Pb (fun r => r = RET_NO_ANS) (bit_sum1 order m).
Proof. unfold bit_sum1. cbv zeta. apply fine_announce. cbn. auto. Qed.
Lemma int0_fine Pb nb m total rnd : (nb <= 63)%nat -> fine Pb ended (int_sum0 nb m total rnd).
Proof.
  intros HB. unfold int_sum0. eapply fine_bind; [exact (fine_listens Pb _ listens_learn)|]. intros pks _. cbv zeta.
  unfold intsum_ot_sender, widths_ok. cbn [forallb]. destruct (Nat.leb_spec nb 64); [cbn [andb]|lia].
  destruct (intsum_send_rows _ _ _ _ _). cbn [bind fine recv_uint64]. intros b _ _.
  unfold ended. destruct (too_few _ _); cbn [fine]; eauto.
Qed.
Lemma int1_fine Pb order nb m : fine Pb (fun r => r = RET_NO_ANS) (int_sum1 order nb m).
Proof. unfold int_sum1. cbv zeta. apply fine_announce. cbn. auto. Qed.
Lemma xor0_fine Pb a m total : fine Pb ended (xor_op0 a m total).
Proof.
  unfold xor_op0. eapply fine_bind; [exact (fine_listens Pb _ listens_learn)|]. intros pks _. cbv zeta.
  cbn [bind fine recv_uint64 send_bool_batch]. intros b _ _. unfold ended. destruct (too_few _ _); cbn [fine]; eauto.
Qed.
Lemma xor1_fine Pb order m : fine Pb (fun r => r = RET_NO_ANS) (xor_op1 order m).
Proof. unfold xor_op1. cbv zeta. apply fine_announce. cbn. auto. Qed.

Definition survives {A} (p : proc A) (Q : A -> Prop) : Prop :=
  forall i w, match against p i w with Returns a => Q a | Breaks => False | Waits => True end.
Lemma fine_survives {A} (p : proc A) Q : fine anyb Q p -> survives p Q.
Proof. intros F i w. exact (fine_against anyb Q p F i w (all_any i)). Qed.

Lemma leads_against server {A} (p : proc A) e : (e = Undef \/ exists a, e = Ret a) ->
  ((exists B (q : proc B), leads server p q e) <-> exists i w, stopped (against p i w) = Some e).
Proof.
  intros He. rewrite <- (against_ends p e He). unfold leads. destruct server; [|reflexivity].
  split; intros (B & q & H); exists B, q; now apply leads_swap.
Qed.
Lemma breakable_against server {A} (p : proc A) : breakable server p <-> exists i w, against p i w = Breaks.
Proof.
  unfold breakable. rewrite leads_against by auto. split; intros (i & w & H); exists i, w; [|now rewrite H].
  destruct (against p i w); cbn in H; [discriminate|reflexivity|discriminate].
Qed.
Lemma safe_against server {A} (p : proc A) Q : safe server p Q <-> survives p Q.
Proof.
  split.
  - intros H i w. destruct (against p i w) as [a| |] eqn:E; auto.
    + destruct (proj2 (leads_against server p (Ret a) ltac:(eauto))) as (B & q & L); [exists i, w; now rewrite E|].
      exact (proj2 (H B q) a L).
    + destruct (proj2 (leads_against server p Undef ltac:(auto))) as (B & q & L); [exists i, w; now rewrite E|].
      exact (proj1 (H B q) L).
  - intros H B q. split.
    + intros L. destruct (proj1 (leads_against server p Undef ltac:(auto))) as (i & w & E); [eauto|].
      specialize (H i w). destruct (against p i w); cbn in E; [discriminate|exact H|discriminate].
    + intros r L. destruct (proj1 (leads_against server p (Ret r) ltac:(eauto))) as (i & w & E); [eauto|].
      specialize (H i w). destruct (against p i w); cbn in E; try discriminate. now injection E as <-.
Qed.

Lemma receive_some {S V} (one : S -> list Z * entry V * S) (P : V -> Prop) :
  (forall s, let '(_, e, _) := one s in e <> Bad /\ forall v, e = Take v -> P v) ->
  forall n s m, Forall (fun e => P (snd e)) m -> exists m', receive one n s m = Some m' /\ Forall (fun e => P (snd e)) m'.
Proof.
  intros H. induction n as [|n IH]; intros s m F; cbn [receive]; [eauto|].
  specialize (H s). destruct (one s) as [[pk e] s']. destruct H as [H1 H2].
  destruct (find pk m); [auto|]. destruct e as [v| |]; [|auto|now elim H1].
  apply IH. apply Forall_app. split; auto.
Qed.

Lemma int_some mx n s : exists m, receive (int_one mx) n s [] = Some m.
Proof.
  destruct (receive_some (int_one mx) yes) with (n := n) (s := s) (m := @nil (list Z * Z)) as (m & E & _); [|constructor|eauto].
  intros t. unfold int_one. destruct (crecv 40 (fst t) (snd t)). split; [|intros; exact I].
  destruct mx; [destruct (_ <=? _)|]; discriminate.
Qed.

Lemma bit_peer server order total stream junk rnd :
  bools_at 33 32 stream -> length junk = 33%nat -> is_bool (nth 32 junk 0) ->
  survives (bit_sum server order total stream junk rnd) (proper server).
Proof.
  intros H L J. destruct (received bit_one bool_inv yes) with (n := total) (s := (stream, junk)) as (m & E & _).
  { intros s Hs. pose proof (bit_step s Hs) as B. destruct (bit_one s) as [[pk e] s']. intuition auto; exact I. }
  { repeat split; auto. }
  unfold bit_sum. rewrite E. apply fine_survives. destruct server; [apply bit1_fine|apply bit0_fine].
Qed.
Lemma int_peer server order nb total stream junk rnd : (nb <= 63)%nat ->
  survives (int_sum server order nb total stream junk rnd) (proper server).
Proof.
  intros HB. unfold int_sum. destruct (Nat.leb_spec 64 nb); [lia|].
  destruct (int_some (Some (max_val nb)) total (stream, junk)) as (m & ->). apply fine_survives.
  destruct server; [apply int1_fine|now apply int0_fine].
Qed.
Lemma xor_peer server order is_and total stream junk :
  survives (xor_op server order is_and total stream junk) (proper server).
Proof.
  unfold xor_op. destruct (int_some None total (stream, junk)) as (m & ->). apply fine_survives.
  destruct server; [apply xor1_fine|apply xor0_fine].
Qed.

(** ** MAX, MIN *)
Lemma max1_fine Pb order B m : fine Pb (fun r => r = RET_NO_ANS) (max_op1 order B m).
Proof. unfold max_op1. cbv zeta. apply fine_announce. cbn. auto. Qed.

Lemma scan_down_none_iff a b : forall B, scan_down a b B = None <-> forall j, (j <= B)%nat -> nth j a 0 = nth j b 0.
Proof.
  induction B as [|B IH]; cbn [scan_down].
  - destruct (Z.eqb_spec (nth 0 a 0) (nth 0 b 0)) as [E|E]; cbn [negb]; split; intros H; auto; try discriminate.
    + intros j Hj. now replace j with 0%nat by lia.
    + elim E. apply H. lia.
  - destruct (Z.eqb_spec (nth (S B) a 0) (nth (S B) b 0)) as [E|E]; cbn [negb].
    + rewrite IH. split; intros H j Hj; [|apply H; lia]. destruct (Nat.eq_dec j (S B)) as [->|]; auto. apply H. lia.
    + split; [discriminate|]. intros H. elim E. apply H. lia.
Qed.

Lemma max0_breaks is_max B m total i w :
  against (max_op0 is_max B m total) i w = Breaks <->
  exists pks rest, announced i pks rest /\ (8 * (B + 1) <= length rest)%nat /\
    (total <= 2 * count (map is_some (map (fun pk => find pk m) pks)))%nat /\
    forall j, (j <= B)%nat ->
      le_val (firstn 8 (skipn (8 * j) rest)) =
      nth j (fold_left (fun a f => match f with Some v => xor_row a v | None => a end)
                       (map (fun pk => find pk m) pks) (repeat 0 (B + 1))) 0.
Proof.
  unfold max_op0.
  match goal with |- against (bind learn ?f) i w = _ <-> _ => destruct (learn_against f i w) as [(pks & rest & A & ->)|[N ->]] end.
  - cbv zeta. cbn [bind against send_bool_batch recv_uint64_batch].
    set (found := map (fun pk => find pk m) pks). set (a := fold_left _ found _).
    assert (NW : forall j, (j <= B)%nat -> (8 * (B + 1) <= length rest)%nat ->
      nth j (map le_val (chunks (B + 1) 8 (firstn ((B + 1) * 8) rest))) 0 = le_val (firstn 8 (skipn (8 * j) rest))).
    { intros j Hj HL. rewrite <- (firstn_skipn ((B + 1) * 8) rest) at 2.
      set (r1 := firstn ((B + 1) * 8) rest). set (r2 := skipn _ rest).
      assert (L1 : length r1 = ((B + 1) * 8)%nat) by (apply firstn_length_le; lia). clearbody r1 r2. clear - Hj L1.
      assert (G : forall n j (l r : list Z), (j < n)%nat -> length l = (n * 8)%nat ->
        nth j (map le_val (chunks n 8 l)) 0 = le_val (firstn 8 (skipn (8 * j) (l ++ r)))).
      { clear. induction n as [|n IH]; intros j l r Hj L; [lia|]. cbn [chunks map].
        destruct j as [|j]; cbn [nth].
        - rewrite Nat.mul_0_r. cbn [skipn]. rewrite firstn_app. replace (8 - length l)%nat with 0%nat by lia.
          rewrite firstn_O, app_nil_r. reflexivity.
        - rewrite (IH j _ r) by (rewrite ?skipn_length; lia). do 2 f_equal.
          replace (8 * S j)%nat with (8 * j + 8)%nat by lia.
          rewrite !skipn_app, skipn_length.
          assert (SS : forall x y (t : list Z), skipn x (skipn y t) = skipn (x + y) t).
          { clear. intros x y. induction y as [|y IHy]; intros t; [now rewrite Nat.add_0_r|].
            destruct t; [now rewrite !skipn_nil|]. rewrite Nat.add_succ_r. cbn [skipn]. apply IHy. }
          rewrite SS. f_equal. f_equal. lia. }
      apply G; [lia|exact L1]. }
    destruct (Nat.leb_spec ((B + 1) * 8) (length rest)) as [L|L].
    + unfold too_few. destruct (Nat.ltb_spec (2 * count (map is_some found)) total) as [T|T].
      { cbn [against]. split; [discriminate|]. intros (pks' & rest' & A' & _ & T' & _).
        destruct (announced_unique _ _ _ _ _ A A') as [<- <-]. fold found in T'. lia. }
      match goal with |- context [scan_down a ?b B] => pose proof (scan_down_none_iff a b B) as SD; destruct (scan_down a b B) as [j|] end; cbn [against].
      * split; [discriminate|]. intros (pks' & rest' & A' & L' & _ & H).
        destruct (announced_unique _ _ _ _ _ A A') as [<- <-]. fold found in H. fold a in H.
        assert (X : Some j = None); [|discriminate]. apply SD. intros k Hk. rewrite NW by (auto; lia). symmetry. now apply H.
      * split; [|reflexivity]. intros _. exists pks, rest. split; auto. split; [lia|]. split; [exact T|].
        intros k Hk. fold found. fold a. rewrite <- (NW k) by (auto; lia). symmetry. now apply SD.
    + split; [discriminate|]. intros (pks' & rest' & A' & L' & _). destruct (announced_unique _ _ _ _ _ A A') as [<- <-]. lia.
  - split; [discriminate|]. intros (pks & rest & A & _). elim N. eauto.
Qed.
