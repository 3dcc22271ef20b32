(** Facts about the main loop. *)
From Coq Require Import ZArith List Bool Lia Arith.
From Verif Require Import Words WordsFacts Constants Share Proc ProcFacts Net NetFacts NetMsg ShareFacts RelFacts Correlated SpecStore CorrelatedFacts
  Poly SpecPoly Circuit Snip SpecSnip SnipFacts SnipBatch ServerOps SpecServer TableFacts ServerFacts Main SpecMain.
Import ListNotations.
Open Scope Z_scope.
Local Notation P := Int_Modulus.
Opaque Int_Modulus.

Lemma le4 x : 0 <= x < two32 -> le_val (le_bytes 4 x) = x.
Proof. intros H. rewrite le_val_bytes. apply Z.mod_small. exact H. Qed.

Lemma opens_read k type total B stream : opens k type total B stream ->
  crecv 12 (k_stream k) (k_msg k) = (init_msg type total B, stream) /\
  member 0 (init_msg type total B) = type /\ Z.to_nat (member 1 (init_msg type total B)) = total /\
  Z.to_nat (member 2 (init_msg type total B)) = B.
Proof.
  intros (E & HT & HN & HB & HL). split.
  - rewrite E. apply crecv_app; [|rewrite HL; apply le_n]. unfold init_msg. now rewrite !app_length, !le_bytes_length.
  - assert (X : forall a b c : list Z, length a = 4%nat -> length b = 4%nat -> length c = 4%nat ->
      firstn 4 (skipn 0 (a ++ b ++ c)) = a /\ firstn 4 (skipn 4 (a ++ b ++ c)) = b /\ firstn 4 (skipn 8 (a ++ b ++ c)) = c).
    { intros a b c. do 5 (destruct a as [|? a]; try discriminate). do 5 (destruct b as [|? b]; try discriminate).
      do 5 (destruct c as [|? c]; try discriminate). intros _ _ _. cbn. auto. }
    unfold member, init_msg. cbn [Nat.mul Nat.add].
    destruct (X (le_bytes 4 type) (le_bytes 4 (Z.of_nat total)) (le_bytes 4 (Z.of_nat B))) as (-> & -> & ->);
      try apply le_bytes_length.
    rewrite !le4 by lia. rewrite !Nat2Z.id. auto.
Qed.

Lemma serve_rel h0 h1 ks Rs : hosts_ok h0 h1 -> Forall2 (fun k R => alone h0 h1 (fst k) (snd k) R) ks Rs ->
  forall st0 st1, states_ok st0 st1 ->
  rel (serve false h0 (map fst ks) st0) (serve true h1 (map snd ks) st1)
    (fun a b => Forall2 (fun (R : output -> Prop) out => R out) Rs (fst a) /\ Forall silent (fst b) /\
                length (fst b) = length ks /\ states_ok (snd a) (snd b)).
Proof.
  intros (_ & _ & HP). induction 1 as [|k R ks Rs HA _ IH]; intros st0 st1 HS; cbn [map serve].
  - apply rel_ret. cbn [fst snd]. repeat split; auto; apply HS.
  - eapply rel_bind; [apply refresh_rel, HS|]. cbn beta. intros v0 v1 (SV & _).
    eapply rel_bind; [apply maybeUpdate_rel; [exact HP|apply HS]|]. cbn beta. intros s0 s1 (SS & _).
    eapply rel_bind; [apply both_rel, HA; split; assumption|]. cbn beta. intros r0 r1 (HR & HQ & HS').
    eapply rel_bind; [apply IH, HS'|]. cbn beta. intros t0 t1 (H1 & H2 & H3 & H4).
    apply rel_ret. cbn [fst snd length]. split; [constructor; assumption|]. split; [constructor; assumption|].
    split; [now rewrite H3|exact H4].
Qed.

Lemma seeds_rel seed0 seed1 : length seed0 = length seed1 ->
  rel (sync_seeds false seed0) (sync_seeds true seed1) (fun a b => a = seed0 /\ b = seed0).
Proof.
  intros E. unfold sync_seeds. rewrite <- E. exists seed0, seed0. split; [|auto].
  eapply conv_emit_feed; [apply em_send, em_ret|]. rewrite app_nil_r.
  cbn [feed]. rewrite Nat.leb_refl, firstn_all, skipn_all. reflexivity.
Qed.

Lemma fresh_synced x : in_field P x -> synced (mkSnip x 0 [] 0 (init_roots 0) 0) (mkSnip x 0 [] 0 (init_roots 0) 0).
Proof.
  intros H. assert (S : snip_ok (mkSnip x 0 [] 0 (init_roots 0) 0)).
  { split; [exact H|]. split; [constructor|]. intros N. now elim N. }
  split; [exact S|]. split; [exact S|]. repeat split.
Qed.

Lemma main_rel nb c0 c1 T0 T1 r0 r1 gen seed0 seed1 ks Rs : params_ok c0 c1 -> length seed0 = length seed1 ->
  Forall2 (fun k R => alone (mkHost nb c0 T0 (gen seed0)) (mkHost nb c1 T1 (gen seed0)) (fst k) (snd k) R) ks Rs ->
  rel (server_main false nb c0 T0 r0 gen seed0 (map fst ks)) (server_main true nb c1 T1 r1 gen seed1 (map snd ks))
    (fun a b => Forall2 (fun (R : output -> Prop) out => R out) Rs (fst a) /\ Forall silent (fst b) /\
                length (fst b) = length ks /\ states_ok (snd a) (snd b)).
Proof.
  intros HP HL HA. unfold server_main.
  eapply rel_bind; [apply sync_rel|]. cbn beta. intros x y [-> ->].
  eapply rel_bind; [apply seeds_rel, HL|]. cbn beta. intros ? ? [-> ->].
  apply serve_rel; [repeat split; apply HP|exact HA|]. split; cbn [fst snd].
  - apply fresh_synced, Z.mod_pos_bound, p_pos.
  - split; constructor.
Qed.

(** A connection whose message is understood. *)
Lemma handle_plain {A} h0 h1 k0 k1 (op0 op1 : proc (result A)) (f : result A -> output) (x : result A) :
  (forall st, handle false h0 k0 st = (r <- op0 ;; Ret (f r, st))) ->
  (forall st, handle true h1 k1 st = (r <- op1 ;; Ret (f r, st))) ->
  silent (f RET_NO_ANS) ->
  both op0 op1 (fun r0 r1 => r1 = RET_NO_ANS /\ r0 = x) ->
  alone h0 h1 k0 k1 (fun out => out = f x).
Proof.
  intros E0 E1 HS HB st0 st1 OK. rewrite E0, E1. apply rel_both.
  eapply rel_bind; [apply both_rel, HB|]. cbn beta. intros a b [-> ->]. apply rel_ret. cbn [fst snd].
  split; [reflexivity|]. split; [exact HS|exact OK].
Qed.
Lemma handle_snip {A} h0 h1 k0 k1 (op0 op1 : snip_state -> proc (result A * snip_state)) (f : result A -> output)
    (Q : result A -> Prop) :
  (forall st, handle false h0 k0 st = (r <- op0 (fst st) ;; Ret (f (fst r), (snd r, snd st)))) ->
  (forall st, handle true h1 k1 st = (r <- op1 (fst st) ;; Ret (f (fst r), (snd r, snd st)))) ->
  silent (f RET_NO_ANS) ->
  (forall st0 st1, synced st0 st1 ->
    both (op0 st0) (op1 st1) (fun a b => fst b = RET_NO_ANS /\ Q (fst a) /\ synced (snd a) (snd b))) ->
  alone h0 h1 k0 k1 (fun out => exists r, out = f r /\ Q r).
Proof.
  intros E0 E1 HS HB st0 st1 [OK1 OK2]. rewrite E0, E1. apply rel_both.
  eapply rel_bind; [apply both_rel, HB, OK1|]. cbn beta. intros a b (-> & HQ & SY). apply rel_ret. cbn [fst snd].
  split; [exists (fst a); auto|]. split; [exact HS|]. split; assumption.
Qed.
Lemma handle_store {A} h0 h1 k0 k1 (op0 op1 : store -> proc (result A * store)) (f : result A -> output)
    (Q : result A -> Prop) :
  (forall st, handle false h0 k0 st = (r <- op0 (snd st) ;; Ret (f (fst r), (fst st, snd r)))) ->
  (forall st, handle true h1 k1 st = (r <- op1 (snd st) ;; Ret (f (fst r), (fst st, snd r)))) ->
  silent (f RET_NO_ANS) ->
  (forall st0 st1, stores_paired st0 st1 ->
    both (op0 st0) (op1 st1) (fun a b => fst b = RET_NO_ANS /\ Q (fst a) /\ stores_paired (snd a) (snd b))) ->
  alone h0 h1 k0 k1 (fun out => exists r, out = f r /\ Q r).
Proof.
  intros E0 E1 HS HB st0 st1 [OK1 OK2]. rewrite E0, E1. apply rel_both.
  eapply rel_bind; [apply both_rel, HB, OK2|]. cbn beta. intros a b (-> & HQ & SY). apply rel_ret. cbn [fst snd].
  split; [exists (fst a); auto|]. split; [exact HS|]. split; assumption.
Qed.

Ltac dispatch H :=
  let E := fresh in let E0 := fresh in let E1 := fresh in let E2 := fresh in
  intros st; destruct (opens_read _ _ _ _ _ H) as (E & E0 & E1 & E2);
  unfold handle; rewrite E; cbv zeta; rewrite E0, E1; try rewrite E2;
  reflexivity.
