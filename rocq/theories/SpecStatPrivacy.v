(** * Vocabulary: clients of VAR, STDDEV and LINREG with generators of their own *)
From Coq Require Import ZArith List Bool.
From Verif Require Import Constants Snip ServerOps ClientOps SpecSecret.
Import ListNotations.

(** Each client has an [emp::PRG] and a sequence of numbers drawn from FLINT, makes one
    request, and has no table of roots before.  (Runs of /repo/client.cpp with one request each; or lines 848-857 and 1192-1201 with
    CLIENT_BATCH false, where every call of the helper has a new [emp::PRG].) *)
Definition tapes := (prg * (nat -> Z))%type.
Definition separate_with_proofs {V W} (one : prg -> (nat -> Z) -> cstate -> option (crec (V * ClientPacket) W * cstate))
  (gs : list tapes) : option (list (crec (V * ClientPacket) W)) :=
  all_some (map (fun gT => option_map fst (one (fst gT) (snd gT) (0%nat, 0%nat, None))) gs).
