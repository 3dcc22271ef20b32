(** * Sessions with the client program (C52)

    The client program of client.cpp (ClientMain.v) and the servers' main loop
    (Main.v) together: the program is run any number of times, one run after the
    other, with any operations, and server 0 prints each time what the program
    prints. *)
From Coq Require Import String ZArith List Bool Lia Arith.
From Verif Require Import Words Constants Share Proc ProcFacts Net RelFacts Exec ExecBuf Correlated SpecStore
  Circuit Snip ServerOps SpecServer ClientOps SpecClient SpecStat Main SpecMain ClientMain SpecSession
  P_Correlated P_Server P_Client P_Stat SessionFacts SessionFreq.
Import ListNotations.
Open Scope Z_scope.

(** Whatever the schedule, the servers end with one output for each visit, and nothing
    remains in the channel between them.  AND, OR, MAX and MIN err only to one side;
    the answer is what the client prints if encodings do not cancel and the sums
    are below the modulus ([sure]). *)
Theorem whole_session nb c0 c1 T0 T1 r0 r1 gen seed0 seed1 vs :
  params_ok c0 c1 -> length seed0 = length seed1 -> Forall (visit_ok nb) vs ->
  both (server_main false nb c0 T0 r0 gen seed0 (map v_0 vs)) (server_main true nb c1 T1 r1 gen seed1 (map v_1 vs))
    (fun a b => Forall2 (fun v out => one_sided v out /\ (sure nb v -> same_answer out (v_ans v))) vs (fst a) /\
                Forall silent (fst b) /\ length (fst b) = length vs).
Proof. exact (session_both nb c0 c1 T0 T1 r0 r1 gen seed0 seed1 vs). Qed.
Print Assumptions whole_session.

(** A FREQ at the end, if the socket buffers hold one bit for each of its requests.
    Those bits remain in the channel from server 0 to server 1. *)
Theorem whole_session_freq nb c0 c1 T0 T1 r0 r1 gen seed0 seed1 vs f :
  params_ok c0 c1 -> length seed0 = length seed1 -> Forall (visit_ok nb) vs -> freq_visit_ok nb f ->
  exists outs0 out outs1 s0 s1,
    ends (bool_bytes (a_numreqs (v_args f)))
      (server_main false nb c0 T0 r0 gen seed0 (map v_0 (vs ++ [f]))) (server_main true nb c1 T1 r1 gen seed1 (map v_1 (vs ++ [f])))
      (Cfg (Ret (outs0 ++ [out], s0)) (Ret (outs1, s1)) (pack_bools (repeat true (a_numreqs (v_args f)))) []) /\
    Forall2 (fun v out => one_sided v out /\ (sure nb v -> same_answer out (v_ans v))) vs outs0 /\
    same_answer out (v_ans f) /\ Forall silent outs1 /\ length outs1 = S (length vs).
Proof. exact (session_freq nb c0 c1 T0 T1 r0 r1 gen seed0 seed1 vs f). Qed.
Print Assumptions whole_session_freq.

(** ** What the client program does with its arguments *)

(** It sends something unless the number of bits is too large or missing. *)
Theorem client_sends a e nb :
  a_bits a = Some nb -> (nb <= 63)%nat -> (0 < a_numreqs a)%nat -> Z.of_nat (a_numreqs a) < two32 -> prg_ok (e_prg e) ->
  (2 <= run_degree a)%nat ->
  (In (a_protocol a) ["VAROP"; "STDDEVOP"; "LINREGOP"]%string -> (nb <= 24)%nat) ->
  (a_protocol a = "LINREGOP"%string -> (num_quad (run_degree a) + num_x (run_degree a) < 2 ^ 18)%nat) ->
  exists to0 to1 ans, client_main a e = Sent to0 to1 ans.
Proof. exact (client_sends_something a e nb). Qed.
Print Assumptions client_sends.

(** Without a number of bits on the command line, INTSUM, VAROP, STDDEVOP, LINREGOP and
    FREQOP compute a remainder modulo 0. *)
Theorem no_bits_refuted : exists a e, (0 < a_numreqs a)%nat /\ a_protocol a = "INTSUM"%string /\ prg_ok (e_prg e) /\
  client_main a e = Undefined.
Proof.
  exists (mkArgs 1 "INTSUM" None None), (mkEnv ex_prg (fun _ => 0) 0 0 0).
  repeat split; try apply ex_prg_ok. cbn. lia.
Qed.
Print Assumptions no_bits_refuted.

(** ** Example: seven runs with 2 bits *)
Definition ex_env : client_env := mkEnv ex_prg (fun n => Z.of_nat (7 * n) + 5) 0 9 6.
Definition ex_visit (n : nat) (pr : string) : visit :=
  let a := mkArgs n pr (Some 2%nat) (Some 3%nat) in
  let k s := mkConn s id_order 11 (fun n => Z.of_nat (5 * n) + 2) (repeat 1 12) (repeat 2 33) (repeat 3 40) (repeat 7 48) (ex_pk 0)
               (fun _ => repeat 1 (if String.eqb pr "FREQOP" then 1 else 40)) (repeat 4 8)
               (fun _ => ([1; 1], [2; 2; 2], [3; 3])) in
  match client_main a ex_env with
  | Sent s0 s1 ans => mkVisit a ex_env (k s0) (k s1) ans
  | _ => mkVisit a ex_env (k []) (k []) AnsNothing
  end.
Definition ex_visits : list visit :=
  [ex_visit 3 "BITSUM"; ex_visit 4 "INTSUM"; ex_visit 2 "OROP"; ex_visit 5 "MINOP"; ex_visit 2 "VAROP"; ex_visit 2 "LINREGOP";
   ex_visit 1 "HELLO"].
Lemma ex_small : (num_quad 3 + num_x 3 < 2 ^ 18)%nat.
Proof. apply Nat.lt_le_trans with (2 ^ 3)%nat; [apply Nat.ltb_lt; reflexivity|]. apply Nat.pow_le_mono_r; apply Nat.leb_le || discriminate; reflexivity. Qed.
Lemma ex_ok n pr : (0 < n)%nat -> Z.of_nat n < 100 -> In pr ["BITSUM"; "INTSUM"; "OROP"; "MINOP"; "VAROP"; "LINREGOP"; "HELLO"]%string ->
  (pr = "MINOP"%string -> exists j, (j <= top 2)%nat /\ encodings_at j (max_records false (top 2) (ex_visit n pr)) <> 0) ->
  visit_ok 2 (ex_visit n pr).
Proof.
  intros HN HM HP HE.
  destruct (client_sends (mkArgs n pr (Some 2%nat) (Some 3%nat)) ex_env 2 eq_refl) as (s0 & s1 & ans & HS); cbn [a_numreqs run_degree a_degree]; auto.
  - lia.
  - apply Z.lt_trans with (1 := HM). reflexivity.
  - apply ex_prg_ok.
  - lia.
  - intros _. exact ex_small.
  - unfold ex_visit in *. rewrite HS in *.
    assert (R : forall s, room 2 (mkArgs n pr (Some 2%nat) (Some 3%nat))
      (mkConn s id_order 11 (fun n => Z.of_nat (5 * n) + 2) (repeat 1 12) (repeat 2 33) (repeat 3 40) (repeat 7 48) (ex_pk 0)
               (fun _ => repeat 1 (if String.eqb pr "FREQOP" then 1 else 40)) (repeat 4 8) (fun _ => ([1; 1], [2; 2; 2], [3; 3])))).
    { intros s. unfold room, locals_ok. cbn [k_msg k_bit k_int k_var k_pk k_degree k_order k_rows k_garbage a_protocol].
      split; [reflexivity|]. split; [repeat split|]. split; [apply id_fair|].
      split; [intros H _; cbn [In] in H; destruct H as [<-|[<-|[]]]; reflexivity|].
      intros _ _. split; [reflexivity|]. split; [reflexivity|]. split; [reflexivity|]. repeat (split || apply Forall_cons || apply Forall_nil); (discriminate || reflexivity). }
    unfold visit_ok. cbn [v_args v_env v_0 v_1 v_ans k_stream].
    split; [exact HS|]. split; [apply R|]. split; [apply R|]. cbn [a_bits a_numreqs ex_env e_prg e_inp e_num].
    split; [reflexivity|]. split; [lia|]. split; [exact HN|]. split; [apply Z.lt_trans with (1 := HM); reflexivity|].
    split; [apply ex_prg_ok|]. split; [reflexivity|]. split; [reflexivity|].
    unfold protocol, is_protocol. cbn [v_args a_protocol].
    split; [intros ->; cbn [In] in HP; intuition discriminate|].
    split; [intros _; lia|]. split; [intros _; exact ex_small|].
    split; [intros _; change (Z.of_nat (top 2)) with 4; unfold two32; lia|].
    intros [|] E; [subst pr; cbn [In] in HP; intuition discriminate|]. apply HE, E.
Qed.
Example ex_visits_ok : Forall (visit_ok 2) ex_visits.
Proof.
  unfold ex_visits. repeat apply Forall_cons; try apply Forall_nil; (apply ex_ok; [lia|reflexivity|cbn [In]; tauto|]); try discriminate.
  intros _. exists 4%nat. split; [apply Nat.leb_le; reflexivity|]. vm_compute. discriminate.
Qed.
Lemma ex_protocol n pr : protocol (ex_visit n pr) = pr.
Proof. unfold ex_visit, protocol. destruct client_main; reflexivity. Qed.
Lemma ex_reqs n pr : a_numreqs (v_args (ex_visit n pr)) = n.
Proof. unfold ex_visit. destruct client_main; reflexivity. Qed.
Lemma ex_sure n pr : Z.of_nat n < 100 ->
  (pr = "OROP"%string -> zxors (map (fun r => Z.lxor (c_0 r) (c_1 r)) (xor_records false (ex_visit n pr))) <> 0) ->
  (pr = "MINOP"%string -> forall m, v_ans (ex_visit n pr) = AnsInt (Z.of_nat m) ->
     encodings_at (top 2 - m) (max_records false (top 2) (ex_visit n pr)) <> 0) ->
  pr <> "ANDOP"%string -> pr <> "MAXOP"%string -> sure 2 (ex_visit n pr).
Proof.
  intros HN HO HM NA NM. unfold sure, is_protocol. rewrite ex_protocol, ex_reqs. split; [|split].
  - intros [|] E; [easy|]. left. apply HO, E.
  - intros [|] E; [easy|]. apply HM, E.
  - intros _. change (2 ^ Z.of_nat (2 * 2)) with 16. apply Z.le_trans with 1600; [lia|discriminate].
Qed.
Example ex_visits_sure : Forall (sure 2) ex_visits.
Proof.
  unfold ex_visits.
  repeat match goal with
  | |- Forall _ (_ :: _) => apply Forall_cons; [apply ex_sure; [reflexivity|intros EP|intros EP|discriminate|discriminate]; try discriminate EP; clear EP|]
  end; [| |apply Forall_nil].
  - vm_compute. discriminate.
  - intros m E. assert (E' : v_ans (ex_visit 5 "MINOP") = AnsInt 0) by (vm_compute; reflexivity).
    rewrite E' in E. assert (m = 0)%nat as -> by (injection E; lia). vm_compute. discriminate.
Qed.
Example session_ex : exists a b, always
  (server_main false 2 ex_c0 ex_T 8 (fun s n => Z.of_nat n + 3 + nth 0 s 0) (repeat 9 56) (map v_0 ex_visits))
  (server_main true 2 ex_c1 ex_T 5 (fun s n => Z.of_nat n + 3 + nth 0 s 0) (repeat 6 56) (map v_1 ex_visits)) a b /\
  fst a = [OutInt (RET_ANS 3); OutInt (RET_ANS 8); OutBool (RET_ANS true); OutInt (RET_ANS 0);
           OutVar false (RET_ANS (2%nat, 3, 5)); OutReg (RET_ANS ([2; 3; 0; 5; 0; 0], [1; 2; 0])); OutNothing].
Proof. apply (exec_obs_always 400 _ _ (fun a b => fst a)). vm_compute. reflexivity. Qed.
Example ex_freq_ok : freq_visit_ok 2 (ex_visit 3 "FREQOP") /\ v_ans (ex_visit 3 "FREQOP") = AnsFreq [0; 2; 0; 1].
Proof.
  assert (E : exists s0 s1, client_main (mkArgs 3 "FREQOP" (Some 2%nat) (Some 3%nat)) ex_env = Sent s0 s1 (AnsFreq [0; 2; 0; 1]))
    by (do 2 eexists; vm_compute; reflexivity).
  destruct E as (s0 & s1 & E). unfold ex_visit. rewrite E. split; [|reflexivity].
  split; [reflexivity|]. split; [exact E|]. split; [reflexivity|]. split; [cbn; lia|]. split; [reflexivity|]. split; [apply ex_prg_ok|].
  repeat apply Forall_cons; try apply Forall_nil; (split; [reflexivity|]); (split; [apply id_fair|]); (split; [reflexivity|]); reflexivity.
Qed.
