(** * VAR, LINREG and FREQ on a server whose peer has gone (C71, C72)

    Continues Alone.v, which covers the operations without proofs of validity. *)
From Coq Require Import ZArith List.
From Verif Require Import Words Constants Share Proc Net Alone.
Import ListNotations.
Open Scope Z_scope.

(** [forsaken old p i a]: the remaining server, about to run [p] with the bytes [i] still
    unread in its socket buffer, returns [a]; [old] lists, for each receive that meets the
    end of the stream, the bytes its destination then holds.

    - A receive at the end of the stream returns early (/repo/net_share.cpp:25-26) and no
      caller in VAR, LINREG and FREQ looks at that.  [recv_fmpz] returns before it assigns
      (/repo/net_share.cpp:204-206), so the destination is unchanged, also when
      some of the bytes did arrive; so does [recv_fmpz_batch] for each batch
      (/repo/net_share.cpp:261-265).
    - An exchange (/repo/server.cpp:232-262) sends in another process and receives in this
      one: its receiving half is as above.
    - [send], [Undef] and oblivious transfers are as in Alone.v. *)
Inductive forsaken {A} : list (list Z) -> proc A -> list Z -> A -> Prop :=
| fs_ret a i : forsaken [] (Ret a) i a
| fs_recv old n k i a : (n <= length i)%nat -> forsaken old (k (firstn n i)) (skipn n i) a -> forsaken old (Recv n k) i a
| fs_eof bs old n k i a : (length i < n)%nat -> length bs = n ->
    forsaken old (k bs) [] a -> forsaken (bs :: old) (Recv n k) i a
| fs_send old bs k i a : forsaken old k i a -> forsaken old (Send bs k) i a
| fs_xchg old ms n k i a : (n <= length i)%nat -> forsaken old (k (firstn n i)) (skipn n i) a ->
    forsaken old (Xchg ms n k) i a
| fs_xeof bs old ms n k i a : (length i < n)%nat -> length bs = n ->
    forsaken old (k bs) [] a -> forsaken (bs :: old) (Xchg ms n k) i a
| fs_ots old j k i a : forsaken old k i a -> forsaken old (OTSend j [] k) i a
| fs_otr old j k i a : forsaken old (k []) i a -> forsaken old (OTRecv j [] k) i a.

(** [stops_before p q q' old a]: server 1 can stop in the middle of the run, with [q'] still
    to do, such that server 0 goes on with the variables [old] and returns [a]. *)
Definition stops_before {A B} (p : proc A) (q q' : proc B) (old : list (list Z)) (a : A) : Prop :=
  exists p', peer_can_stop_at p q p' q' /\ forsaken old p' [] a.

(** The bytes of the number [x] (0 <= x < 2^64) in a variable. *)
Definition holding (x : Z) : list Z := le_bytes 8 x.

(** The loops at the end of LINREG, /repo/server.cpp:1145-1178, use one variable [b], 0 at
    first (line 1143), for all the sums: [recv_fmpz(serverfd, b)], then [b] becomes
    [(b + a[j]) mod p], which is the j-th sum.  If nothing is received, [b] is still the
    sum before.  [b_before]: what [b] holds before each receive; [b_after]: the sums. *)
Fixpoint b_before (b : Z) (a : list Z) : list Z :=
  match a with [] => [] | x :: a' => b :: b_before ((b + x) mod p) a' end.
Fixpoint b_after (b : Z) (a : list Z) : list Z :=
  match a with [] => [] | x :: a' => (b + x) mod p :: b_after ((b + x) mod p) a' end.

(** Destinations that hold zeros: those of [recv_fmpz_batch] in FREQ, made by
    [new_fmpz_array] just before (/repo/server.cpp:1376, 1424). *)
Definition blank (old : list (list Z)) : Prop := Forall (Forall (eq 0)) old.
