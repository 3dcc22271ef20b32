(** * Executing a pair of concrete servers (used for examples only) *)
From Coq Require Import ZArith List Bool Arith.
From Verif Require Import Words Proc ProcFacts.
Import ListNotations.

(** Sends and receives of different sizes: byte by byte. *)
Lemma runs_more {A B} bs (k : proc A) (k' : list Z -> proc B) : forall n, (n <= length bs)%nat ->
  runs (Send bs k) (Recv n k') (Send (skipn n bs) k) (k' (firstn n bs)).
Proof.
  intros n. revert bs k'. induction n as [|n IH]; intros bs k' Hn cap Hc.
  - exists 1%nat. eapply steps_S; [eapply st_1; [apply ls_recv0|constructor]|]. constructor.
  - destruct bs as [|b bs]; [inversion Hn|]. cbn in Hn. apply le_S_n in Hn.
    destruct (IH bs (fun l => k' (b :: l)) Hn cap Hc) as (m & Hm). exists (S (S m)).
    eapply steps_S; [eapply st_0; [apply ls_send|constructor; exact Hc]|].
    eapply steps_S; [eapply st_1; [apply ls_recv|constructor]|]. exact Hm.
Qed.
Lemma runs_less {A B} bs n (k : proc A) : forall (k' : list Z -> proc B),
  runs (Send bs k) (Recv (length bs + n) k') k (Recv n (fun l => k' (bs ++ l))).
Proof.
  induction bs as [|b bs IH]; intros k' cap Hc.
  - exists 1%nat. eapply steps_S; [eapply st_0; [apply ls_send0|constructor]|]. constructor.
  - destruct (IH (fun l => k' (b :: l)) cap Hc) as (m & Hm). exists (S (S m)).
    eapply steps_S; [eapply st_0; [apply ls_send|constructor; exact Hc]|].
    eapply steps_S; [eapply st_1; [apply ls_recv|constructor]|]. exact Hm.
Qed.

(** One particular schedule; by [conv_always] its outcome is that of all. *)
Fixpoint exec {A B} (fuel : nat) (p : proc A) (q : proc B) : option (A * B) :=
  match fuel with
  | O => None
  | S f =>
      match p, q with
      | Ret a, Ret b => Some (a, b)
      | Send bs k, Recv n k' =>
          if Nat.eqb (length bs) n then exec f k (k' bs)
          else if Nat.ltb n (length bs) then exec f (Send (skipn n bs) k) (k' (firstn n bs))
          else exec f k (Recv (n - length bs) (fun l => k' (bs ++ l)))
      | Recv n k, Send bs k' =>
          if Nat.eqb (length bs) n then exec f (k bs) k'
          else if Nat.ltb n (length bs) then exec f (k (firstn n bs)) (Send (skipn n bs) k')
          else exec f (Recv (n - length bs) (fun l => k (bs ++ l))) k'
      | Xchg m0 n0 k, Xchg m1 n1 k' =>
          if Nat.eqb (length m0) n1 && Nat.eqb (length m1) n0 then exec f (k m1) (k' m0) else None
      | OTSend x ps k, OTRecv y cs k' =>
          if Bool.eqb x y && Nat.eqb (length ps) (length cs)
          then exec f k (k' (map2 ot_select cs ps)) else None
      | OTRecv x cs k, OTSend y ps k' =>
          if Bool.eqb x y && Nat.eqb (length ps) (length cs)
          then exec f (k (map2 ot_select cs ps)) k' else None
      | _, _ => None
      end
  end.

Lemma exec_conv {A B} fuel : forall (p : proc A) (q : proc B) a b,
  exec fuel p q = Some (a, b) -> conv p q a b.
Proof.
  induction fuel as [|f IH]; intros p q a b H; [discriminate|].
  destruct p, q; cbn [exec] in H; try discriminate.
  - injection H as -> ->. apply conv_ret.
  - destruct (Nat.eqb_spec (length bs) n) as [E|].
    { eapply runs_trans; [apply runs_send_recv; exact E|]. now apply IH. }
    destruct (Nat.ltb_spec n (length bs)) as [L|L].
    + eapply runs_trans; [apply runs_more, Nat.lt_le_incl, L|]. now apply IH.
    + eapply runs_trans; [|apply IH; exact H].
      replace n with (length bs + (n - length bs))%nat at 1 by (rewrite Nat.add_comm; now apply Nat.sub_add).
      apply runs_less.
  - destruct (Nat.eqb_spec (length bs) n) as [E|].
    { eapply runs_trans; [apply runs_recv_send; exact E|]. now apply IH. }
    destruct (Nat.ltb_spec n (length bs)) as [L|L].
    + eapply runs_trans; [apply runs_swap, runs_more, Nat.lt_le_incl, L|]. now apply IH.
    + eapply runs_trans; [|apply IH; exact H].
      replace n with (length bs + (n - length bs))%nat at 1 by (rewrite Nat.add_comm; now apply Nat.sub_add).
      apply runs_swap, runs_less.
  - destruct (Nat.eqb_spec (length bs) n0) as [E|]; [|discriminate].
    destruct (Nat.eqb_spec (length bs0) n) as [E'|]; [|discriminate]. cbn in H.
    eapply runs_trans; [apply runs_xchg; [exact E|exact E']|]. now apply IH.
  - destruct (Bool.eqb i i0) eqn:E; [|discriminate]. apply Bool.eqb_prop in E as <-.
    destruct (Nat.eqb_spec (length ps) (length cs)) as [E'|]; [|discriminate]. cbn in H.
    eapply runs_trans; [apply runs_ot; exact E'|]. now apply IH.
  - destruct (Bool.eqb i i0) eqn:E; [|discriminate]. apply Bool.eqb_prop in E as <-.
    destruct (Nat.eqb_spec (length ps) (length cs)) as [E'|]; [|discriminate]. cbn in H.
    eapply runs_trans; [apply runs_ot'; exact E'|]. now apply IH.
Qed.

Lemma exec_always {A B} fuel (p : proc A) (q : proc B) r :
  exec fuel p q = Some r -> always p q (fst r) (snd r).
Proof. intros H. apply conv_always, (exec_conv fuel). now destruct r. Qed.

Definition exec_obs {A B C} (fuel : nat) (p : proc A) (q : proc B) (f : A -> B -> C) : option C :=
  match exec fuel p q with Some (a, b) => Some (f a b) | None => None end.
Lemma exec_obs_always {A B C} fuel (p : proc A) (q : proc B) (f : A -> B -> C) c :
  exec_obs fuel p q f = Some c -> exists a b, always p q a b /\ f a b = c.
Proof.
  unfold exec_obs. destruct (exec fuel p q) as [[a b]|] eqn:E; [|discriminate].
  intros [= <-]. exists a, b. split; auto. exact (exec_always fuel p q (a, b) E).
Qed.
