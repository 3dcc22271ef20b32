(** * C59: in AND, OR, MAX and MIN a server's view has the same distribution

    Every client has a generator of its own.  Its first block fixes its private value; the
    blocks after it are drawn uniformly.  For any two lists of first blocks with the same result
    there is a permutation of the draws under which server 0 sees the same; for server 1 there is
    one for any two lists.  So every view comes from equally many draws. *)
From Coq Require Import ZArith List Bool Lia.
From Verif Require Import Words WordsFacts Share Proc Net SpecNet ServerOps SpecServer SpecPrivacy ClientOps SpecClient SpecSecret SpecExact
  ExactFacts ExactMax ExactServer P_Server P_Privacy.
Import ListNotations.
Open Scope Z_scope.

(** The same result of AND (OR): all bits 1 (0) in both lists, or in neither. *)
Theorem and_or_exact0 : forall is_and bs bs', let one := xor_request is_and in
  length bs' = length bs -> Forall block bs -> Forall block bs' -> Z.of_nat (length bs) < two32 ->
  ((forall b, In b bs -> drawn_bit b = is_and) <-> (forall b, In b bs' -> drawn_bit b = is_and)) ->
  exists F, permutes (draws (length bs) 3) F /\ forall ds, draws (length bs) 3 ds ->
    let l := separate one (tapes_of bs ds) in let l' := separate one (tapes_of bs' (F ds)) in
    map c_real l = map drawn_bit bs /\ map c_real l' = map drawn_bit bs' /\ seen false l' = seen false l /\
    forall order0 order1 junk0 junk1, fair order1 -> by_keys order1 -> length junk0 = 40%nat -> length junk1 = 40%nat ->
      NoDup (map c_pk l) ->
      exists v, forall h, h = l \/ h = l' ->
        sees0 (xor_op false order0 is_and (length h) (wire IntShare_bytes (subs0 h)) junk0)
              (xor_op true order1 is_and (length h) (wire IntShare_bytes (subs1 h)) junk1) v.
Proof. exact xor_exact0. Qed.
Print Assumptions and_or_exact0.

Theorem and_or_exact1 : forall is_and bs bs', let one := xor_request is_and in
  length bs' = length bs -> Forall block bs -> Forall block bs' -> Z.of_nat (length bs) < two32 ->
  exists F, permutes (draws (length bs) 3) F /\ forall ds, draws (length bs) 3 ds ->
    let l := separate one (tapes_of bs ds) in let l' := separate one (tapes_of bs' (F ds)) in
    map c_real l = map drawn_bit bs /\ map c_real l' = map drawn_bit bs' /\ seen true l' = seen true l /\
    forall order0 order1 junk0 junk1, fair order1 -> length junk0 = 40%nat -> length junk1 = 40%nat ->
      exists v, forall h, h = l \/ h = l' ->
        sees1 (xor_op false order0 is_and (length h) (wire IntShare_bytes (subs0 h)) junk0)
              (xor_op true order1 is_and (length h) (wire IntShare_bytes (subs1 h)) junk1) v.
Proof. exact xor_exact1. Qed.
Print Assumptions and_or_exact1.

(** The same result of MAX (MIN).  As in C51 the xor of the encoded rows must not be all zero;
    by [max_min_counts0] the draws for which it is are as many for [bs] as for [bs']. *)
Theorem max_min_exact0 : forall is_max B bs bs' v, let one := max_request is_max B in let m := (2 * blocks (8 * (B + 1)) + 1)%nat in
  length bs' = length bs -> Forall block bs -> Forall block bs' -> Z.of_nat (length bs) * (Z.of_nat B + 1) < two32 ->
  extreme is_max v (map (drawn_value B) bs) -> extreme is_max v (map (drawn_value B) bs') ->
  exists F, permutes (draws (length bs) m) F /\ forall ds, draws (length bs) m ds ->
    let l := separate one (tapes_of bs ds) in let l' := separate one (tapes_of bs' (F ds)) in
    map c_real l = map (drawn_value B) bs /\ map c_real l' = map (drawn_value B) bs' /\ seen false l' = seen false l /\
    forall order0 order1 pk0 pk1 junk0 junk1, fair order1 -> by_keys order1 -> length pk0 = 32%nat -> length pk1 = 32%nat ->
      (forall i, length (junk0 i) = (8 * (B + 1))%nat) -> (forall i, length (junk1 i) = (8 * (B + 1))%nat) ->
      NoDup (map c_pk l) -> Exists (fun x => x <> 0) (row_of B (subs0 l) (subs1 l) (map c_pk l)) ->
      exists w, forall h, h = l \/ h = l' ->
        sees0 (max_op false order0 is_max B (length h) (wire maxshare_bytes (subs0 h)) pk0 junk0)
              (max_op true order1 is_max B (length h) (wire maxshare_bytes (subs1 h)) pk1 junk1) w.
Proof. exact max_exact0. Qed.
Print Assumptions max_min_exact0.

Theorem max_min_exact1 : forall is_max B bs bs', let one := max_request is_max B in let m := (2 * blocks (8 * (B + 1)) + 1)%nat in
  length bs' = length bs -> Forall block bs -> Forall block bs' -> Z.of_nat (length bs) * (Z.of_nat B + 1) < two32 ->
  exists F, permutes (draws (length bs) m) F /\ forall ds, draws (length bs) m ds ->
    let l := separate one (tapes_of bs ds) in let l' := separate one (tapes_of bs' (F ds)) in
    map c_real l = map (drawn_value B) bs /\ map c_real l' = map (drawn_value B) bs' /\ seen true l' = seen true l /\
    forall order0 order1 pk0 pk1 junk0 junk1, fair order1 -> length pk0 = 32%nat -> length pk1 = 32%nat ->
      (forall i, length (junk0 i) = (8 * (B + 1))%nat) -> (forall i, length (junk1 i) = (8 * (B + 1))%nat) ->
      NoDup (map c_pk l) ->
      exists w, forall h, h = l \/ h = l' -> Exists (fun x => x <> 0) (row_of B (subs0 h) (subs1 h) (map c_pk h)) ->
        sees1 (max_op false order0 is_max B (length h) (wire maxshare_bytes (subs0 h)) pk0 junk0)
              (max_op true order1 is_max B (length h) (wire maxshare_bytes (subs1 h)) pk1 junk1) w.
Proof. exact max_exact1. Qed.
Print Assumptions max_min_exact1.

(** ** Numbers of draws
    [A] is any event about server 0's records and the aggregate, on which alone its view depends
    (C51), or about server 1's records.  [E] lists all draws; it exists. *)
Theorem all_draws_listed : forall n m, exists E, NoDup E /\ forall ds, In ds E <-> draws n m ds.
Proof. exact draws_finite. Qed.
Print Assumptions all_draws_listed.

Theorem and_or_counts0 : forall is_and bs bs', length bs' = length bs -> Forall block bs -> Forall block bs' ->
  ((forall b, In b bs -> drawn_bit b = is_and) <-> (forall b, In b bs' -> drawn_bit b = is_and)) ->
  forall (A : list (list Z * Z) -> Z -> bool) E, NoDup E -> (forall ds, In ds E <-> draws (length bs) 3 ds) ->
  let hits bs := length (filter (fun ds => let l := separate (xor_request is_and) (tapes_of bs ds) in
                   A (seen false l) (zxors (map (fun r => Z.lxor (c_0 r) (c_1 r)) l))) E) in
  hits bs = hits bs'.
Proof. exact xor_count0. Qed.
Print Assumptions and_or_counts0.
Theorem and_or_counts1 : forall is_and bs bs', length bs' = length bs -> Forall block bs -> Forall block bs' ->
  forall (A : list (list Z * Z) -> bool) E, NoDup E -> (forall ds, In ds E <-> draws (length bs) 3 ds) ->
  let hits bs := length (filter (fun ds => A (seen true (separate (xor_request is_and) (tapes_of bs ds)))) E) in hits bs = hits bs'.
Proof. exact xor_count1. Qed.
Print Assumptions and_or_counts1.
Theorem max_min_counts0 : forall is_max B bs bs' v, length bs' = length bs -> Forall block bs -> Forall block bs' ->
  extreme is_max v (map (drawn_value B) bs) -> extreme is_max v (map (drawn_value B) bs') ->
  forall (A : list (list Z * list Z) -> list Z -> bool) E, NoDup E ->
    (forall ds, In ds E <-> draws (length bs) (2 * blocks (8 * (B + 1)) + 1) ds) ->
  let hits bs := length (filter (fun ds => let l := separate (max_request is_max B) (tapes_of bs ds) in
                   A (seen false l) (map (fun q => zxors (map (fun r => xor_at q (c_0 r) (c_1 r)) l)) (seq 0 (B + 1)))) E) in
  hits bs = hits bs'.
Proof. exact max_count0. Qed.
Print Assumptions max_min_counts0.
Theorem max_min_counts1 : forall is_max B bs bs', length bs' = length bs -> Forall block bs -> Forall block bs' ->
  forall (A : list (list Z * list Z) -> bool) E, NoDup E -> (forall ds, In ds E <-> draws (length bs) (2 * blocks (8 * (B + 1)) + 1) ds) ->
  let hits bs := length (filter (fun ds => A (seen true (separate (max_request is_max B) (tapes_of bs ds)))) E) in hits bs = hits bs'.
Proof. exact max_count1. Qed.
Print Assumptions max_min_counts1.

(** The result has to be the same: with one client and OR, the bits 0 and 1 can be told apart
    by the aggregate. *)
Definition first_block (v : Z) : list Z := le_bytes 16 v.
Lemma first_block_ok v : block (first_block v).
Proof. split; [apply le_bytes_length|apply le_bytes_bytes]. Qed.
Theorem result_is_seen :
  exists A : list (list Z * Z) -> Z -> bool,
    (forall ds, draws 1 3 ds -> let l := separate (xor_request false) (tapes_of [first_block 0] ds) in
       A (seen false l) (zxors (map (fun r => Z.lxor (c_0 r) (c_1 r)) l)) = true) /\
    exists ds, draws 1 3 ds /\ let l := separate (xor_request false) (tapes_of [first_block 1] ds) in
       A (seen false l) (zxors (map (fun r => Z.lxor (c_0 r) (c_1 r)) l)) = false.
Proof.
  exists (fun _ x => x =? 0). split.
  - intros ds [L F]. destruct ds as [|d [|? ?]]; try discriminate. inversion F as [|? ? [LD FD] _]; subst.
    cbv zeta. change (separate (xor_request false) (tapes_of [first_block 0] [d])) with [client (xor_request false) (first_block 0) d].
    rewrite xor_client by (auto using first_block_ok). cbv zeta. change (neutral false (first_block 0)) with true. cbn [map c_0 c_1 zxors fold_right].
    now rewrite Z.lxor_nilpotent.
  - exists [[first_block 5; first_block 6; first_block 7]]. split; [|now vm_compute].
    split; [reflexivity|]. constructor; [|constructor]. split; [reflexivity|].
    repeat (apply Forall_cons; [apply first_block_ok|]). apply Forall_nil.
Qed.
Print Assumptions result_is_seen.

(** ** Examples *)
(** OR of the bits 1, 0, 0 and of 0, 1, 1. *)
Example or_exact_ex : let bs := map first_block [1; 0; 0] in let bs' := map first_block [0; 1; 1] in
  map drawn_bit bs = [true; false; false] /\ map drawn_bit bs' = [false; true; true] /\
  exists F, permutes (draws 3 3) F /\ forall ds, draws 3 3 ds ->
    seen false (separate (xor_request false) (tapes_of bs' (F ds))) = seen false (separate (xor_request false) (tapes_of bs ds)).
Proof.
  cbv zeta. split; [reflexivity|]. split; [reflexivity|].
  destruct (and_or_exact0 false (map first_block [1; 0; 0]) (map first_block [0; 1; 1])) as (F & PF & H).
  - reflexivity.
  - apply Forall_map, Forall_forall. intros v _. apply first_block_ok.
  - apply Forall_map, Forall_forall. intros v _. apply first_block_ok.
  - reflexivity.
  - split; intros H; [specialize (H (first_block 1) (or_introl eq_refl))|specialize (H (first_block 1) (or_intror (or_introl eq_refl)))];
      vm_compute in H; discriminate.
  - exists F. split; [exact PF|]. intros ds HD. now apply H.
Qed.
(** MAX of 2, 5, 1 and of 5, 0, 4, with B = 6. *)
Example max_exact_ex : let bs := map first_block [2; 5; 1] in let bs' := map first_block [5; 0; 4] in
  map (drawn_value 6) bs = [2; 5; 1]%nat /\ map (drawn_value 6) bs' = [5; 0; 4]%nat /\
  extreme true 5 (map (drawn_value 6) bs) /\ extreme true 5 (map (drawn_value 6) bs') /\
  forall E, NoDup E -> (forall ds, In ds E <-> draws 3 9 ds) -> forall A,
  let hits bs := length (filter (fun ds => let l := separate (max_request true 6) (tapes_of bs ds) in
                   A (seen false l) (map (fun q => zxors (map (fun r => xor_at q (c_0 r) (c_1 r)) l)) (seq 0 7))) E) in
  hits bs = hits bs'.
Proof.
  cbv zeta. assert (E1 : map (drawn_value 6) (map first_block [2; 5; 1]) = [2; 5; 1]%nat) by (vm_compute; reflexivity).
  assert (E2 : map (drawn_value 6) (map first_block [5; 0; 4]) = [5; 0; 4]%nat) by (vm_compute; reflexivity).
  assert (X1 : extreme true 5 (map (drawn_value 6) (map first_block [2; 5; 1]))).
  { rewrite E1. split; [cbn; auto|]. intros w [<-|[<-|[<-|[]]]]; lia. }
  assert (X2 : extreme true 5 (map (drawn_value 6) (map first_block [5; 0; 4]))).
  { rewrite E2. split; [cbn; auto|]. intros w [<-|[<-|[<-|[]]]]; lia. }
  split; [exact E1|]. split; [exact E2|]. split; [exact X1|]. split; [exact X2|].
  intros E ND HE A. apply (max_min_counts0 true 6 (map first_block [2; 5; 1]) (map first_block [5; 0; 4]) 5 eq_refl); [| |exact X1|exact X2|exact ND|exact HE].
  - apply Forall_map, Forall_forall. intros v _. apply first_block_ok.
  - apply Forall_map, Forall_forall. intros v _. apply first_block_ok.
Qed.
