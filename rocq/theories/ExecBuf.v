(** * Executing a pair of concrete servers whose buffers need not be empty at the
    end (used for examples only) *)
From Coq Require Import ZArith List Bool Arith Lia.
From Verif Require Import Words Proc ProcFacts SpecServer ServerFacts.
Import ListNotations.

Definition move {A} (cap : nat) (p : proc A) (o i : list Z) : option (proc A * list Z * list Z) :=
  match p with
  | Send [] k => Some (k, o, i)
  | Send (b :: bs) k => if (length o <? cap)%nat then Some (Send bs k, o ++ [b], i) else None
  | Recv O k => Some (k [], o, i)
  | Recv (S n) k => match i with [] => None | b :: i' => Some (Recv n (fun l => k (b :: l)), o, i') end
  | Xchg [] O k => Some (k [], o, i)
  | Xchg [] (S n) k => match i with [] => None | b :: i' => Some (Xchg [] n (fun l => k (b :: l)), o, i') end
  | Xchg (b :: bs) n k =>
      if (length o <? cap)%nat then Some (Xchg bs n k, o ++ [b], i) else None
  | _ => None
  end.
Lemma move_spec {A} cap (p p' : proc A) o i o' i' : move cap p o i = Some (p', o', i') ->
  exists a, lstep p a p' /\ chan cap a o i o' i'.
Proof.
  destruct p; cbn [move]; try discriminate.
  - destruct bs as [|b bs]; [intros [= <- <- <-]; eexists; split; constructor|].
    destruct (Nat.ltb_spec (length o) cap); [|discriminate]. intros [= <- <- <-]. eexists; split; constructor; auto.
  - destruct n; [intros [= <- <- <-]; eexists; split; constructor|].
    destruct i; [discriminate|]. intros [= <- <- <-]. eexists; split; constructor.
  - destruct bs as [|b bs].
    + destruct n; [intros [= <- <- <-]; eexists; split; constructor|].
      destruct i; [discriminate|]. intros [= <- <- <-]. eexists; split; constructor.
    + destruct (Nat.ltb_spec (length o) cap); [|discriminate]. intros [= <- <- <-]. eexists; split; constructor; auto.
Qed.

(** The bytes left over are returned with the results. *)
Fixpoint exec_buf {A B} (cap fuel : nat) (p : proc A) (q : proc B) (o i : list Z)
  : option (A * B * list Z * list Z) :=
  match fuel with
  | O => None
  | S f =>
      match move cap p o i with
      | Some (p', o', i') => exec_buf cap f p' q o' i'
      | None =>
          match move cap q i o with
          | Some (q', i', o') => exec_buf cap f p q' o' i'
          | None =>
              match p, q with
              | Ret a, Ret b => Some (a, b, o, i)
              | OTSend x ps k, OTRecv y cs k' =>
                  if Bool.eqb x y && Nat.eqb (length ps) (length cs)
                  then exec_buf cap f k (k' (map2 ot_select cs ps)) o i else None
              | OTRecv x cs k, OTSend y ps k' =>
                  if Bool.eqb x y && Nat.eqb (length ps) (length cs)
                  then exec_buf cap f (k (map2 ot_select cs ps)) k' o i else None
              | _, _ => None
              end
          end
      end
  end.

Lemma exec_buf_steps {A B} cap fuel : forall (p : proc A) (q : proc B) o i a b o' i',
  exec_buf cap fuel p q o i = Some (a, b, o', i') ->
  exists n, steps cap n (Cfg p q o i) (Cfg (Ret a) (Ret b) o' i').
Proof.
  induction fuel as [|f IH]; intros p q o i a b o' i' H; [discriminate|]. cbn [exec_buf] in H.
  destruct (move cap p o i) as [[[p1 o1] i1]|] eqn:E.
  { destruct (move_spec _ _ _ _ _ _ _ E) as (x & L & C). destruct (IH _ _ _ _ _ _ _ _ H) as (n & Hn).
    exists (S n). econstructor; [eapply st_0; eauto|exact Hn]. }
  destruct (move cap q i o) as [[[q1 i1] o1]|] eqn:E'.
  { destruct (move_spec _ _ _ _ _ _ _ E') as (x & L & C). destruct (IH _ _ _ _ _ _ _ _ H) as (n & Hn).
    exists (S n). econstructor; [eapply st_1; eauto|exact Hn]. }
  destruct p, q; try discriminate.
  - injection H as -> -> -> ->. exists 0%nat. constructor.
  - destruct (Bool.eqb i0 i1) eqn:Eb; [|discriminate]. apply Bool.eqb_prop in Eb as <-.
    destruct (Nat.eqb_spec (length ps) (length cs)) as [El|]; [|discriminate]. cbn in H.
    destruct (IH _ _ _ _ _ _ _ _ H) as (n & Hn). exists (S n). econstructor; [now apply st_ot01|exact Hn].
  - destruct (Bool.eqb i0 i1) eqn:Eb; [|discriminate]. apply Bool.eqb_prop in Eb as <-.
    destruct (Nat.eqb_spec (length ps) (length cs)) as [El|]; [|discriminate]. cbn in H.
    destruct (IH _ _ _ _ _ _ _ _ H) as (n & Hn). exists (S n). econstructor; [now apply st_ot10|exact Hn].
Qed.

Lemma step_more {A B} cap cap' (c d : config A B) : (cap <= cap')%nat -> step cap c d -> step cap' c d.
Proof.
  intros H Hs. destruct Hs.
  - eapply st_0; [eassumption|]. destruct H1; constructor; lia.
  - eapply st_1; [eassumption|]. destruct H1; constructor; lia.
  - now apply st_ot01.
  - now apply st_ot10.
Qed.

Definition exec_buf_obs {A B C} (cap fuel : nat) (p : proc A) (q : proc B) (f : A -> B -> list Z -> list Z -> C) : option C :=
  match exec_buf cap fuel p q [] [] with Some (a, b, o, i) => Some (f a b o i) | None => None end.
Lemma exec_buf_obs_ends {A B C} cap fuel (p : proc A) (q : proc B) (f : A -> B -> list Z -> list Z -> C) c :
  exec_buf_obs cap fuel p q f = Some c ->
  exists a b o i, ends cap p q (Cfg (Ret a) (Ret b) o i) /\ f a b o i = c.
Proof.
  unfold exec_buf_obs. destruct (exec_buf cap fuel p q [] []) as [[[[a b] o] i]|] eqn:E; [|discriminate].
  intros [= <-]. exists a, b, o, i. split; auto. apply reach_ends. intros cap' H1 Hk.
  destruct (exec_buf_steps _ _ _ _ _ _ _ _ _ _ E) as (n & Hn). split.
  - exists n. clear - Hn Hk. unfold start. induction Hn; econstructor; eauto using step_more.
  - intros e H; inversion H; subst; match goal with L : lstep _ _ _ |- _ => inversion L end.
Qed.
