(** * Servers that do not fork

    [CorrelatedStore] takes a flag [do_fork] (/repo/correlated.h:65-79; /repo/server.cpp:1488
    leaves it true, /repo/test/test_bits.cpp:13 offers false "to do leaks testing"), and so
    does [ArithTripleGenerator] (/repo/he_triples.h:50-64).  Everywhere it is used
    (/repo/correlated.cpp:139-165 and 238-263, /repo/server.cpp:226-242 and 245-268,
    /repo/he_triples.cpp:23-46) the code reads
    <<
      pid_t pid = 0;
      if (do_fork) pid = fork();
      if (pid == 0) { ...send...; if (do_fork) exit(EXIT_SUCCESS); }
      ...receive...
      if (do_fork) waitpid(pid, &status, 0);
    >>
    With [do_fork = false] the same process first sends everything and then receives. *)
From Coq Require Import ZArith List Bool.
From Verif Require Import Words Proc.
Import ListNotations.

(** The program compiled with [do_fork = false]: each forked exchange [Xchg] becomes a
    blocking send followed by the receive; nothing else changes. *)
Fixpoint nofork {A} (p : proc A) : proc A :=
  match p with
  | Ret a => Ret a
  | Undef => Undef
  | Send bs k => Send bs (nofork k)
  | Recv n k => Recv n (fun l => nofork (k l))
  | Xchg bs n k => Send bs (Recv n (fun l => nofork (k l)))
  | OTSend i ps k => OTSend i ps (nofork k)
  | OTRecv i cs k => OTRecv i cs (fun l => nofork (k l))
  end.
