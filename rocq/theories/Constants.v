(** * Constants and record types of the code *)
From Coq Require Import ZArith List Bool.
From Verif Require Import Words.
Import ListNotations.
Open Scope Z_scope.

(** /repo/constants.h:50-52 (hexadecimal strings in the code). *)
Definition Int_Modulus : Z := 0x800006880001.
Definition Int_Gen : Z := 0x3503101C8855.
Definition twoOrder : Z := 19.

(** /repo/net_share.h: batch limits. *)
Definition MAX_FMPZ_BATCH : Z := 1000000.
Definition MAX_DABIT_BATCH : Z := 320000.

(** /repo/types.h:4 *)
Definition PK_LENGTH : nat := 32.

(** /repo/server.cpp:29, [#define RANDOMX_THRESHOLD 1e6]. *)
Definition RANDOMX_THRESHOLD : Z := 1000000.

(** Number of bytes of a field element on the wire:
    [fmpz_size(Int_Modulus)] limbs of 8 bytes, /repo/net_share.cpp:173,193
    with [FIXED_FMPZ_SIZE] true. *)
Definition fmpz_size (x : Z) : Z := if x =? 0 then 0 else Z.log2 (Z.abs x) / 64 + 1.
Definition FMPZ_BYTES : nat := Z.to_nat (8 * fmpz_size Int_Modulus).

(** /repo/share.h:11-26 [struct Cor]. *)
Record Cor := mkCor { cor_D : Z; cor_E : Z }.
(** /repo/share.h:29-42 [struct CorShare]. *)
Record CorShare := mkCorShare { shareD : Z; shareE : Z }.
(** /repo/share.h:44-60 [struct BeaverTriple]. *)
Record BeaverTriple := mkBT { bt_A : Z; bt_B : Z; bt_C : Z }.
(** /repo/share.h:63-79 [struct BeaverTripleShare]. *)
Record BeaverTripleShare := mkBTS { shareA : Z; shareB : Z; shareC : Z }.
(** /repo/share.h:81-90 [struct BooleanBeaverTriple]. *)
Record BoolTriple := mkBoolT { ta : bool; tb : bool; tc : bool }.
(** /repo/share.h:163-179 [struct DaBit]. *)
Record DaBit := mkDaBit { bp : Z; b2 : bool }.
(** /repo/share.h:182-215 [struct EdaBit]. *)
Record EdaBit := mkEdaBit { er : Z; eb : list bool }.
(** /repo/share.h:103-130 [struct ClientPacket]; [NMul] and [N] are the lengths
    of the two arrays. *)
Record ClientPacket := mkPacket {
  MulShares : list Z;
  f0_s : Z; g0_s : Z; h0_s : Z;
  h_points : list Z;
  triple_share : BeaverTripleShare
}.
