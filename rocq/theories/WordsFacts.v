(** Facts about words and byte strings (proofs only). *)
From Coq Require Import ZArith List Lia Bool Permutation.
From Coq Require Import ZifyBool ZifyNat.
From Verif Require Import Words.
Import ListNotations.
Open Scope Z_scope.

Ltac Zify.zify_post_hook ::= Z.div_mod_to_equations.

Lemma u64_range z : 0 <= u64 z < two64.
Proof. unfold u64, two64. lia. Qed.

Lemma u32_range z : 0 <= u32 z < two32.
Proof. unfold u32, two32. lia. Qed.

Lemma u64_small z : 0 <= z < two64 -> u64 z = z.
Proof. intros. unfold u64. apply Z.mod_small; assumption. Qed.

Lemma u32_small z : 0 <= z < two32 -> u32 z = z.
Proof. intros. unfold u32. apply Z.mod_small; assumption. Qed.

Lemma le_bytes_length n z : length (le_bytes n z) = n.
Proof. revert z; induction n; simpl; intros; auto. Qed.

Lemma le_bytes_bytes n z : Forall is_byte (le_bytes n z).
Proof.
  revert z; induction n; simpl; intros; constructor; auto.
  unfold is_byte. lia.
Qed.

Lemma le_val_bytes n z : le_val (le_bytes n z) = z mod 256 ^ Z.of_nat n.
Proof.
  revert z; induction n; intros.
  - simpl. rewrite Z.mod_1_r. reflexivity.
  - cbn [le_bytes le_val]. rewrite IHn.
    rewrite Nat2Z.inj_succ, Z.pow_succ_r by lia.
    rewrite (Z.rem_mul_r z 256 (256 ^ Z.of_nat n)) by lia.
    reflexivity.
Qed.

Lemma le_val_bytes_small n z :
  0 <= z < 256 ^ Z.of_nat n -> le_val (le_bytes n z) = z.
Proof. intros. rewrite le_val_bytes. apply Z.mod_small; assumption. Qed.

Lemma le_val_range bs : Forall is_byte bs -> 0 <= le_val bs < 256 ^ Z.of_nat (length bs).
Proof.
  induction 1; simpl length; cbn [le_val].
  - simpl. lia.
  - rewrite Nat2Z.inj_succ, Z.pow_succ_r by lia. unfold is_byte in H. lia.
Qed.

Lemma le_bytes_val bs : Forall is_byte bs -> le_bytes (length bs) (le_val bs) = bs.
Proof.
  induction 1; cbn [length le_bytes le_val]; auto.
  unfold is_byte in H.
  replace ((x + 256 * le_val l) mod 256) with x by lia.
  replace ((x + 256 * le_val l) / 256) with (le_val l) by lia.
  now rewrite IHForall.
Qed.

Lemma pow256_8 : 256 ^ Z.of_nat 8 = two64.
Proof. reflexivity. Qed.

Lemma pow256_4 : 256 ^ Z.of_nat 4 = two32.
Proof. reflexivity. Qed.

(** Lists *)
Lemma upd_length {A} i (x : A) l : length (upd i x l) = length l.
Proof. revert i; induction l; destruct i; simpl; auto. Qed.

Lemma nth_upd_eq {A} i (x : A) l d : (i < length l)%nat -> nth i (upd i x l) d = x.
Proof. revert i; induction l; destruct i; simpl; intros; auto; try lia. apply IHl; lia. Qed.

Lemma nth_upd_neq {A} i j (x : A) l d : i <> j -> nth j (upd i x l) d = nth j l d.
Proof.
  revert i j; induction l; destruct i, j; simpl; intros; auto; congruence.
Qed.

Lemma firstn_app_exact {A} (l r : list A) n : length l = n -> firstn n (l ++ r) = l.
Proof. intros <-. rewrite firstn_app, Nat.sub_diag, firstn_all. simpl. apply app_nil_r. Qed.

Lemma skipn_app_exact {A} (l r : list A) n : length l = n -> skipn n (l ++ r) = r.
Proof. intros <-. rewrite skipn_app, Nat.sub_diag, skipn_all. reflexivity. Qed.

Lemma chunks_length {A} n k (l : list A) : length (chunks n k l) = n.
Proof. revert l; induction n; simpl; intros; auto. Qed.

Lemma chunks_concat {A} k (ls : list (list A)) rest :
  Forall (fun l => length l = k) ls -> chunks (length ls) k (concat ls ++ rest) = ls.
Proof.
  induction 1; simpl; auto.
  rewrite <- app_assoc.
  rewrite firstn_app_exact by assumption. rewrite skipn_app_exact by assumption.
  now rewrite IHForall.
Qed.

Lemma concat_length_const {A} k (ls : list (list A)) :
  Forall (fun l => length l = k) ls -> length (concat ls) = (length ls * k)%nat.
Proof. induction 1; simpl; auto. rewrite app_length. lia. Qed.

Lemma map2_length {A B C} (f : A -> B -> C) l m :
  length (map2 f l m) = Nat.min (length l) (length m).
Proof. revert m; induction l; destruct m; simpl; auto. Qed.

Lemma nth_map2 {A B C} (f : A -> B -> C) l m i da db dc :
  (i < length l)%nat -> (i < length m)%nat ->
  nth i (map2 f l m) dc = f (nth i l da) (nth i m db).
Proof.
  revert m i; induction l; destruct m, i; simpl; intros; try lia; auto.
  apply IHl; lia.
Qed.

Lemma zsum_app l m : zsum (l ++ m) = zsum l + zsum m.
Proof. induction l; simpl; lia. Qed.

Lemma zxors_app l m : zxors (l ++ m) = Z.lxor (zxors l) (zxors m).
Proof. induction l; simpl; auto. rewrite IHl. now rewrite Z.lxor_assoc. Qed.

Lemma zsum_permutation l m : Permutation l m -> zsum l = zsum m.
Proof. induction 1; simpl; lia. Qed.

Lemma zxors_permutation l m : Permutation l m -> zxors l = zxors m.
Proof.
  induction 1; simpl; try congruence.
  rewrite <- !Z.lxor_assoc. f_equal. apply Z.lxor_comm.
Qed.

Lemma map2_app {A B C} (f : A -> B -> C) l l' m m' :
  length l = length m -> map2 f (l ++ l') (m ++ m') = map2 f l m ++ map2 f l' m'.
Proof.
  revert m; induction l; destruct m; simpl; intros; try discriminate; auto. f_equal; auto.
Qed.
