(** * Sockets and messages: /repo/net_share.cpp *)
From Coq Require Import ZArith List Bool.
From Verif Require Import Words Constants Share Proc.
Import ListNotations.
Open Scope Z_scope.

(** ** [recv_in] against the kernel

    What one [recv(sockfd, ptr, want)] call does is decided by the kernel: it
    delivers at least one and at most [want] of the bytes that are next in the
    stream ([KChunk c] allows up to [c+1] bytes), or fails with -1 ([KErr]).  At
    the end of the peer's bytes it returns 0 if the peer has closed, otherwise
    it blocks. *)
Inductive kevent := KChunk (c : nat) | KErr.

Inductive recv_result :=
| RDone (ret : Z) (buf : list Z) (rest : list Z)  (** returned [ret]; unread stream [rest] *)
| RBlocked (buf : list Z).                        (** still waiting for bytes or for the kernel *)

(** Store bytes [bs] into [buf] from offset [off] on. *)
Definition store_at (buf : list Z) (off : nat) (bs : list Z) : list Z :=
  firstn off buf ++ bs ++ skipn (off + length bs) buf.

(** /repo/net_share.cpp:21-29.  [unsigned int bytes_read, tmp]: the result -1 of
    [recv] becomes [tmp = 2^32 - 1], is not [<= 0], and is added to [bytes_read]
    modulo 2^32.  [sizeof len = 8], so [bytes_read < len] compares exactly. *)
Fixpoint recv_in_loop (script : list kevent) (closed : bool) (stream buf : list Z)
  (bytes_read len : Z) : recv_result :=
  if bytes_read <? len then
    match script with
    | [] => RBlocked buf
    | KErr :: script' =>
        recv_in_loop script' closed stream buf (u32 (bytes_read + u32 (-1))) len
    | KChunk c :: script' =>
        match stream with
        | [] => if closed then RDone 0 buf [] else RBlocked buf
        | _ =>
            let got := firstn (Nat.min (S c) (Z.to_nat (len - bytes_read))) stream in
            recv_in_loop script' closed (skipn (length got) stream)
              (store_at buf (Z.to_nat bytes_read) got)
              (u32 (bytes_read + Z.of_nat (length got))) len
        end
    end
  else RDone (int32 bytes_read) buf stream.

Definition recv_in (script : list kevent) (closed : bool) (stream buf : list Z) (len : Z)
  : recv_result := recv_in_loop script closed stream buf 0 len.

(** ** Scalars *)

(** [htonl]/[ntohl] on a little endian host: byte reversal of a 32-bit word. *)
Definition bswap32 (x : Z) : Z := le_val (rev (le_bytes 4 (u32 x))).

(** /repo/net_share.cpp:14-15 [htonll]/[ntohll]. *)
Definition bswap64 (x : Z) : Z :=
  Z.lor (Z.shiftl (bswap32 (Z.land x 0xFFFFFFFF)) 32) (bswap32 (Z.shiftr x 32)).

(** /repo/net_share.cpp:31-33 *)
Definition send_bool (x : bool) : proc unit := Send [b2z x] (Ret tt).
(** /repo/net_share.cpp:35-37; a byte other than 0 or 1 stored into a [bool]
    object makes its later use undefined. *)
Definition recv_bool : proc bool :=
  Recv 1 (fun bs => match bs with
                    | [b] => if b =? 0 then Ret false else if b =? 1 then Ret true else Undef
                    | _ => Undef
                    end).

(** /repo/net_share.cpp:39-54: bit [i] is xored into byte [i/8]. *)
Definition bool_bytes (n : nat) : nat := ((n + 7) / 8)%nat.
Definition pack_bools (x : list bool) : list Z :=
  fold_left
    (fun buf i => if nth i x false
                  then upd (i / 8) (Z.lxor (nth (i / 8) buf 0) (2 ^ Z.of_nat (i mod 8))) buf
                  else buf)
    (seq 0 (length x)) (repeat 0 (bool_bytes (length x))).
Definition send_bool_batch (x : list bool) : proc unit := Send (pack_bools x) (Ret tt).
(** /repo/net_share.cpp:56-68 *)
Definition unpack_bools (n : nat) (buf : list Z) : list bool :=
  map (fun i => Z.testbit (nth (i / 8) buf 0) (Z.of_nat (i mod 8))) (seq 0 n).
Definition recv_bool_batch (n : nat) : proc (list bool) :=
  Recv (bool_bytes n) (fun bs => Ret (unpack_bools n bs)).

(** /repo/net_share.cpp:70-80; [x] is an [int], sent as its 32-bit pattern. *)
Definition send_int (x : Z) : proc unit := Send (le_bytes 4 (bswap32 x)) (Ret tt).
Definition recv_int : proc Z := Recv 4 (fun bs => Ret (int32 (bswap32 (le_val bs)))).

(** /repo/net_share.cpp:82-92; [htonl] takes and returns 32 bits. *)
Definition send_size (x : Z) : proc unit := Send (le_bytes 8 (bswap32 x)) (Ret tt).
Definition recv_size : proc Z := Recv 8 (fun bs => Ret (bswap32 (le_val bs))).

(** /repo/net_share.cpp:94-104 *)
Definition send_uint32 (x : Z) : proc unit := Send (le_bytes 4 (bswap32 x)) (Ret tt).
Definition recv_uint32 : proc Z := Recv 4 (fun bs => Ret (bswap32 (le_val bs))).

(** /repo/net_share.cpp:106-116 and, for [ulong], 126-136. *)
Definition send_uint64 (x : Z) : proc unit := Send (le_bytes 8 (bswap64 x)) (Ret tt).
Definition recv_uint64 : proc Z := Recv 8 (fun bs => Ret (bswap64 (le_val bs))).
Definition send_ulong := send_uint64.
Definition recv_ulong := recv_uint64.

(** /repo/net_share.cpp:118-124 and, for [ulong], 138-144: host byte order. *)
Definition send_uint64_batch (x : list Z) : proc unit :=
  Send (concat (map (le_bytes 8) x)) (Ret tt).
Definition recv_uint64_batch (n : nat) : proc (list Z) :=
  Recv (n * 8) (fun bs => Ret (map le_val (chunks n 8 bs))).
Definition send_ulong_batch := send_uint64_batch.
Definition recv_ulong_batch := recv_uint64_batch.

(** /repo/net_share.cpp:146-154: length, then characters. *)
Definition send_string (x : list Z) : proc unit :=
  send_size (Z.of_nat (length x)) ;;; Send x (Ret tt).
(** /repo/net_share.cpp:156-167: a length of 0 makes [recv_in] return 0, which
    is taken for a failure, and the target keeps its [old] value. *)
Definition recv_string (old : list Z) : proc (list Z) :=
  len <- recv_size ;;
  if len =? 0 then Ret old else Recv (Z.to_nat len) (fun bs => Ret bs).

(** ** Field elements *)

(** [fmpz_get_ui_array(buf, 1 limb, x)]: needs 0 <= x < 2^64 (else FLINT aborts). *)
Definition fits_limbs (x : Z) : bool := (0 <=? x) && (x <? 256 ^ Z.of_nat FMPZ_BYTES).

(** /repo/net_share.cpp:169-186 with [FIXED_FMPZ_SIZE]. *)
Definition send_fmpz (x : Z) : proc unit :=
  if fits_limbs x then Send (le_bytes FMPZ_BYTES x) (Ret tt) else Undef.
(** /repo/net_share.cpp:188-210 *)
Definition recv_fmpz : proc Z := Recv FMPZ_BYTES (fun bs => Ret (le_val bs)).

(** /repo/net_share.cpp:212-238: recursion in chunks of at most [maxb] elements.
    [fuel] bounds the recursion depth (the length always suffices).
    The early return for an empty batch sends nothing, as here. *)
Definition send_fmpz_chunk (x : list Z) : proc unit :=
  if forallb fits_limbs x then Send (concat (map (le_bytes FMPZ_BYTES) x)) (Ret tt) else Undef.
Fixpoint send_fmpz_batch_loop (maxb : Z) (fuel : nat) (x : list Z) : proc unit :=
  if maxb <? Z.of_nat (length x) then
    match fuel with
    | O => Undef
    | S f => send_fmpz_chunk (firstn (Z.to_nat maxb) x) ;;;
             send_fmpz_batch_loop maxb f (skipn (Z.to_nat maxb) x)
    end
  else send_fmpz_chunk x.
Definition send_fmpz_batch (x : list Z) : proc unit :=
  send_fmpz_batch_loop MAX_FMPZ_BATCH (length x) x.

(** /repo/net_share.cpp:240-267 *)
Definition recv_fmpz_chunk (n : nat) : proc (list Z) :=
  Recv (n * FMPZ_BYTES) (fun bs => Ret (map le_val (chunks n FMPZ_BYTES bs))).
Fixpoint recv_fmpz_batch_loop (maxb : Z) (fuel : nat) (n : nat) : proc (list Z) :=
  if maxb <? Z.of_nat n then
    match fuel with
    | O => Undef
    | S f => l <- recv_fmpz_chunk (Z.to_nat maxb) ;;
             l' <- recv_fmpz_batch_loop maxb f (n - Z.to_nat maxb) ;;
             Ret (l ++ l')
    end
  else recv_fmpz_chunk n.
Definition recv_fmpz_batch (n : nat) : proc (list Z) :=
  recv_fmpz_batch_loop MAX_FMPZ_BATCH n n.

(** ** Shares *)

(** /repo/net_share.cpp:280-296 *)
Definition send_Cor (x : Cor) : proc unit := send_fmpz (cor_D x) ;;; send_fmpz (cor_E x).
Definition recv_Cor : proc Cor := d <- recv_fmpz ;; e <- recv_fmpz ;; Ret (mkCor d e).

(** /repo/net_share.cpp:298-314 *)
Definition send_CorShare (x : CorShare) : proc unit :=
  send_fmpz (shareD x) ;;; send_fmpz (shareE x).
Definition recv_CorShare : proc CorShare :=
  d <- recv_fmpz ;; e <- recv_fmpz ;; Ret (mkCorShare d e).

(** /repo/net_share.cpp:316-350: all D shares, then all E shares. *)
Definition send_CorShare_batch (x : list CorShare) : proc unit :=
  send_fmpz_batch (map shareD x) ;;; send_fmpz_batch (map shareE x).
Definition recv_CorShare_batch (n : nat) : proc (list CorShare) :=
  ds <- recv_fmpz_batch n ;; es <- recv_fmpz_batch n ;; Ret (map2 mkCorShare ds es).

(** Sequence of sends / receives in a loop. *)
Fixpoint send_fmpz_each (xs : list Z) : proc unit :=
  match xs with [] => Ret tt | x :: xs' => send_fmpz x ;;; send_fmpz_each xs' end.
Fixpoint recv_fmpz_each (n : nat) : proc (list Z) :=
  match n with
  | O => Ret []
  | S n' => x <- recv_fmpz ;; xs <- recv_fmpz_each n' ;; Ret (x :: xs)
  end.

(** /repo/net_share.cpp:408-428 *)
Definition send_BeaverTriple (x : BeaverTriple) : proc unit :=
  send_fmpz (bt_A x) ;;; send_fmpz (bt_B x) ;;; send_fmpz (bt_C x).
Definition recv_BeaverTriple : proc BeaverTriple :=
  a <- recv_fmpz ;; b <- recv_fmpz ;; c <- recv_fmpz ;; Ret (mkBT a b c).

(** /repo/net_share.cpp:430-450 *)
Definition send_BeaverTripleShare (x : BeaverTripleShare) : proc unit :=
  send_fmpz (shareA x) ;;; send_fmpz (shareB x) ;;; send_fmpz (shareC x).
Definition recv_BeaverTripleShare : proc BeaverTripleShare :=
  a <- recv_fmpz ;; b <- recv_fmpz ;; c <- recv_fmpz ;; Ret (mkBTS a b c).

(** /repo/net_share.cpp:352-378.  The arrays have [NMul] and [N] entries; other
    lengths would be read out of bounds. *)
Definition send_ClientPacket (x : ClientPacket) (NMul : nat) : proc unit :=
  match NextPowerOfTwo (Z.of_nat NMul) with
  | None => Undef
  | Some N =>
      if (length (MulShares x) =? NMul)%nat && (Z.of_nat (length (h_points x)) =? N) then
        send_fmpz_each (MulShares x) ;;;
        send_fmpz (f0_s x) ;;; send_fmpz (g0_s x) ;;; send_fmpz (h0_s x) ;;;
        send_fmpz_each (h_points x) ;;;
        send_BeaverTripleShare (triple_share x)
      else Undef
  end.
(** /repo/net_share.cpp:380-406 *)
Definition recv_ClientPacket (NMul : nat) : proc ClientPacket :=
  match NextPowerOfTwo (Z.of_nat NMul) with
  | None => Undef
  | Some N =>
      ms <- recv_fmpz_each NMul ;;
      f <- recv_fmpz ;; g <- recv_fmpz ;; h <- recv_fmpz ;;
      hs <- recv_fmpz_each (Z.to_nat N) ;;
      t <- recv_BeaverTripleShare ;;
      Ret (mkPacket ms f g h hs t)
  end.

(** /repo/net_share.cpp:452-464 *)
Definition send_BoolTriple (x : BoolTriple) : proc unit :=
  send_bool_batch [ta x; tb x; tc x].
Definition recv_BoolTriple : proc BoolTriple :=
  l <- recv_bool_batch 3 ;;
  Ret (mkBoolT (nth 0 l false) (nth 1 l false) (nth 2 l false)).

(** /repo/net_share.cpp:466-482 *)
Definition send_DaBit (x : DaBit) : proc unit := send_fmpz (bp x) ;;; send_bool (b2 x).
Definition recv_DaBit : proc DaBit := v <- recv_fmpz ;; b <- recv_bool ;; Ret (mkDaBit v b).

(** /repo/net_share.cpp:484-541: chunks of at most [MAX_DABIT_BATCH]. *)
Definition send_DaBit_chunk (x : list DaBit) : proc unit :=
  send_fmpz_batch (map bp x) ;;; send_bool_batch (map b2 x).
Fixpoint send_DaBit_batch_loop (maxb : Z) (fuel : nat) (x : list DaBit) : proc unit :=
  if maxb <? Z.of_nat (length x) then
    match fuel with
    | O => Undef
    | S f => send_DaBit_chunk (firstn (Z.to_nat maxb) x) ;;;
             send_DaBit_batch_loop maxb f (skipn (Z.to_nat maxb) x)
    end
  else send_DaBit_chunk x.
Definition send_DaBit_batch (x : list DaBit) : proc unit :=
  send_DaBit_batch_loop MAX_DABIT_BATCH (length x) x.
Definition recv_DaBit_chunk (n : nat) : proc (list DaBit) :=
  vs <- recv_fmpz_batch n ;; bs <- recv_bool_batch n ;; Ret (map2 mkDaBit vs bs).
Fixpoint recv_DaBit_batch_loop (maxb : Z) (fuel : nat) (n : nat) : proc (list DaBit) :=
  if maxb <? Z.of_nat n then
    match fuel with
    | O => Undef
    | S f => l <- recv_DaBit_chunk (Z.to_nat maxb) ;;
             l' <- recv_DaBit_batch_loop maxb f (n - Z.to_nat maxb) ;;
             Ret (l ++ l')
    end
  else recv_DaBit_chunk n.
Definition recv_DaBit_batch (n : nat) : proc (list DaBit) :=
  recv_DaBit_batch_loop MAX_DABIT_BATCH n n.

(** /repo/net_share.cpp:543-559 *)
Definition send_EdaBit (x : EdaBit) (nbits : nat) : proc unit :=
  if (length (eb x) =? nbits)%nat then send_fmpz (er x) ;;; send_bool_batch (eb x) else Undef.
Definition recv_EdaBit (nbits : nat) : proc EdaBit :=
  r <- recv_fmpz ;; b <- recv_bool_batch nbits ;; Ret (mkEdaBit r b).

(** /repo/net_share.cpp:561-601: all [r], then all bits row by row. *)
Definition send_EdaBit_batch (x : list EdaBit) (nbits : nat) : proc unit :=
  if forallb (fun e => (length (eb e) =? nbits)%nat) x then
    send_fmpz_batch (map er x) ;;; send_bool_batch (concat (map eb x))
  else Undef.
Definition recv_EdaBit_batch (nbits n : nat) : proc (list EdaBit) :=
  rs <- recv_fmpz_batch n ;;
  b <- recv_bool_batch (n * nbits) ;;
  Ret (map2 mkEdaBit rs (chunks n nbits b)).
