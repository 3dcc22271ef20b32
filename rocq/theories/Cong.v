(** * Congruence modulo an integer *)
From Coq Require Import ZArith List Lia Setoid Morphisms.
From Verif Require Import Words.
Import ListNotations.
Open Scope Z_scope.

Definition cong (m a b : Z) : Prop := (m | a - b).

Lemma cong_iff m a b : cong m a b <-> a mod m = b mod m.
Proof.
  unfold cong. destruct (Z.eq_dec m 0) as [->|Hm].
  - rewrite !Zmod_0_r. split; [intros [k H]; lia|intros ->; exists 0; lia].
  - split.
    + intros [k H]. replace a with (b + k * m) by lia. apply Z_mod_plus_full.
    + intros H. apply Z.mod_divide; auto. rewrite Zminus_mod, H, Z.sub_diag. apply Zmod_0_l.
Qed.

Global Instance cong_equiv m : Equivalence (cong m).
Proof.
  split; red; intros *; rewrite !cong_iff; congruence.
Qed.
Global Instance cong_add m : Proper (cong m ==> cong m ==> cong m) Z.add.
Proof. intros a b [k H] c d [k' H']. exists (k + k'). lia. Qed.
Global Instance cong_sub m : Proper (cong m ==> cong m ==> cong m) Z.sub.
Proof. intros a b [k H] c d [k' H']. exists (k - k'). lia. Qed.
Global Instance cong_mul m : Proper (cong m ==> cong m ==> cong m) Z.mul.
Proof.
  intros a b [k H] c d [k' H']. exists (k * c + b * k').
  replace (a * c - b * d) with ((a - b) * c + b * (c - d)) by ring. rewrite H, H'. ring.
Qed.
Global Instance cong_opp m : Proper (cong m ==> cong m) Z.opp.
Proof. intros a b [k H]. exists (- k). lia. Qed.

Lemma cong_eq m a b : a = b -> cong m a b.
Proof. intros ->. reflexivity. Qed.

Lemma cong_mod m a : cong m (a mod m) a.
Proof. apply cong_iff, Zmod_mod. Qed.

Lemma cong_0 m : cong m m 0.
Proof. exists 1. lia. Qed.

Lemma cong_self_sub m a : cong m (m - a) (- a).
Proof. exists 1. lia. Qed.

Lemma cong_u64 a : cong two64 (u64 a) a.
Proof. apply cong_mod. Qed.

Lemma cong_small m a b : 0 <= a < m -> 0 <= b < m -> cong m a b -> a = b.
Proof. rewrite cong_iff. intros Ha Hb. now rewrite !Z.mod_small by assumption. Qed.

Lemma cong_mod_eq m a b : 0 <= b < m -> cong m a b -> a mod m = b.
Proof. rewrite cong_iff. intros Hb ->. now apply Z.mod_small. Qed.

Lemma cong_pow m a b n : cong m a b -> cong m (a ^ n) (b ^ n).
Proof.
  intros H. destruct (Z.lt_ge_cases n 0).
  - now rewrite !Z.pow_neg_r by lia.
  - pattern n. apply natlike_ind; auto; [reflexivity|].
    intros x Hx IH. rewrite !Z.pow_succ_r by lia. now rewrite IH, H.
Qed.

(** Remove the [mod m] in a goal [cong m _ _], outermost first. *)
Ltac demod :=
  repeat match goal with
  | |- cong ?m _ _ =>
      match goal with |- context [?x mod m] => rewrite (cong_mod m x) end
  end.
Ltac cong_ring := apply cong_eq; ring.

Lemma zsum_nil : zsum [] = 0.
Proof. reflexivity. Qed.

Lemma zsum_cons x l : zsum (x :: l) = x + zsum l.
Proof. reflexivity. Qed.

Lemma zsum_cong m l l' : Forall2 (cong m) l l' -> cong m (zsum l) (zsum l').
Proof. induction 1; rewrite ?zsum_cons; [reflexivity|]. now rewrite H, IHForall2. Qed.

Lemma zsum_map_add {A} (f g : A -> Z) l :
  zsum (map (fun x => f x + g x) l) = zsum (map f l) + zsum (map g l).
Proof. induction l; cbn [map]; rewrite ?zsum_cons; [reflexivity|lia]. Qed.

Lemma zsum_map_ext_cong {A} m (f g : A -> Z) l :
  (forall x, In x l -> cong m (f x) (g x)) -> cong m (zsum (map f l)) (zsum (map g l)).
Proof.
  intros H. apply zsum_cong. induction l; cbn; constructor; auto.
  - apply H. now left.
  - apply IHl. intros. apply H. now right.
Qed.
