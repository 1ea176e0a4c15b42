(** * theta/bit_packing.go: the 126 unrolled functions packBitsW / unpackBitsW and the two switches.
    Transcribed statement by statement from the source by a script (one list element per statement, in order).
    - [PS j i s] / [PO j i s] : bytes[j] = / |= uint8(values[i] shifted by s)   ([L n]: << n, [R n]: >> n);
    - [US i j r m l] / [UO i j r m l] : values[i] = / |= uint64((bytes[j] >> r) & m) << l
      (r = 0, m = 255, l = 0 where the source has no such operation). *)
From Verif Require Import Base.
Local Open Scope N_scope.

Inductive shift := L (n : N) | R (n : N).
Inductive pst := PS (j i : nat) (s : shift) | PO (j i : nat) (s : shift).
Inductive ust := US (i j : nat) (r m l : N) | UO (i j : nat) (r m l : N).

(** bit_packing.go:92-101 *)
Definition packBits1 : list pst := [
  PS 0 0 (L 7); PO 0 1 (L 6); PO 0 2 (L 5); PO 0 3 (L 4); PO 0 4 (L 3); PO 0 5 (L 2); PO 0 6 (L 1); PO 0 7 (R 0)].
(** bit_packing.go:103-113 *)
Definition packBits2 : list pst := [
  PS 0 0 (L 6); PO 0 1 (L 4); PO 0 2 (L 2); PO 0 3 (R 0); PS 1 4 (L 6); PO 1 5 (L 4); PO 1 6 (L 2); PO 1 7 (R 0)].
(** bit_packing.go:115-128 *)
Definition packBits3 : list pst := [
  PS 0 0 (L 5); PO 0 1 (L 2); PO 0 2 (R 1); PS 1 2 (L 7); PO 1 3 (L 4); PO 1 4 (L 1); PO 1 5 (R 2); PS 2 5 (L 6);
  PO 2 6 (L 3); PO 2 7 (R 0)].
(** bit_packing.go:130-142 *)
Definition packBits4 : list pst := [
  PS 0 0 (L 4); PO 0 1 (R 0); PS 1 2 (L 4); PO 1 3 (R 0); PS 2 4 (L 4); PO 2 5 (R 0); PS 3 6 (L 4); PO 3 7 (R 0)].
(** bit_packing.go:144-161 *)
Definition packBits5 : list pst := [
  PS 0 0 (L 3); PO 0 1 (R 2); PS 1 1 (L 6); PO 1 2 (L 1); PO 1 3 (R 4); PS 2 3 (L 4); PO 2 4 (R 1); PS 3 4 (L 7);
  PO 3 5 (L 2); PO 3 6 (R 3); PS 4 6 (L 5); PO 4 7 (R 0)].
(** bit_packing.go:163-181 *)
Definition packBits6 : list pst := [
  PS 0 0 (L 2); PO 0 1 (R 4); PS 1 1 (L 4); PO 1 2 (R 2); PS 2 2 (L 6); PO 2 3 (R 0); PS 3 4 (L 2); PO 3 5 (R 4);
  PS 4 5 (L 4); PO 4 6 (R 2); PS 5 6 (L 6); PO 5 7 (R 0)].
(** bit_packing.go:183-204 *)
Definition packBits7 : list pst := [
  PS 0 0 (L 1); PO 0 1 (R 6); PS 1 1 (L 2); PO 1 2 (R 5); PS 2 2 (L 3); PO 2 3 (R 4); PS 3 3 (L 4); PO 3 4 (R 3);
  PS 4 4 (L 5); PO 4 5 (R 2); PS 5 5 (L 6); PO 5 6 (R 1); PS 6 6 (L 7); PO 6 7 (R 0)].
(** bit_packing.go:206-215 *)
Definition packBits8 : list pst := [
  PS 0 0 (R 0); PS 1 1 (R 0); PS 2 2 (R 0); PS 3 3 (R 0); PS 4 4 (R 0); PS 5 5 (R 0); PS 6 6 (R 0); PS 7 7 (R 0)].
(** bit_packing.go:217-242 *)
Definition packBits9 : list pst := [
  PS 0 0 (R 1); PS 1 0 (L 7); PO 1 1 (R 2); PS 2 1 (L 6); PO 2 2 (R 3); PS 3 2 (L 5); PO 3 3 (R 4); PS 4 3 (L 4);
  PO 4 4 (R 5); PS 5 4 (L 3); PO 5 5 (R 6); PS 6 5 (L 2); PO 6 6 (R 7); PS 7 6 (L 1); PO 7 7 (R 8); PS 8 7 (R 0)].
(** bit_packing.go:244-270 *)
Definition packBits10 : list pst := [
  PS 0 0 (R 2); PS 1 0 (L 6); PO 1 1 (R 4); PS 2 1 (L 4); PO 2 2 (R 6); PS 3 2 (L 2); PO 3 3 (R 8); PS 4 3 (R 0);
  PS 5 4 (R 2); PS 6 4 (L 6); PO 6 5 (R 4); PS 7 5 (L 4); PO 7 6 (R 6); PS 8 6 (L 2); PO 8 7 (R 8); PS 9 7 (R 0)].
(** bit_packing.go:272-301 *)
Definition packBits11 : list pst := [
  PS 0 0 (R 3); PS 1 0 (L 5); PO 1 1 (R 6); PS 2 1 (L 2); PO 2 2 (R 9); PS 3 2 (R 1); PS 4 2 (L 7); PO 4 3 (R 4);
  PS 5 3 (L 4); PO 5 4 (R 7); PS 6 4 (L 1); PO 6 5 (R 10); PS 7 5 (R 2); PS 8 5 (L 6); PO 8 6 (R 5); PS 9 6 (L 3);
  PO 9 7 (R 8); PS 10 7 (R 0)].
(** bit_packing.go:303-331 *)
Definition packBits12 : list pst := [
  PS 0 0 (R 4); PS 1 0 (L 4); PO 1 1 (R 8); PS 2 1 (R 0); PS 3 2 (R 4); PS 4 2 (L 4); PO 4 3 (R 8); PS 5 3 (R 0);
  PS 6 4 (R 4); PS 7 4 (L 4); PO 7 5 (R 8); PS 8 5 (R 0); PS 9 6 (R 4); PS 10 6 (L 4); PO 10 7 (R 8); PS 11 7 (R 0)].
(** bit_packing.go:333-366 *)
Definition packBits13 : list pst := [
  PS 0 0 (R 5); PS 1 0 (L 3); PO 1 1 (R 10); PS 2 1 (R 2); PS 3 1 (L 6); PO 3 2 (R 7); PS 4 2 (L 1); PO 4 3 (R 12);
  PS 5 3 (R 4); PS 6 3 (L 4); PO 6 4 (R 9); PS 7 4 (R 1); PS 8 4 (L 7); PO 8 5 (R 6); PS 9 5 (L 2); PO 9 6 (R 11);
  PS 10 6 (R 3); PS 11 6 (L 5); PO 11 7 (R 8); PS 12 7 (R 0)].
(** bit_packing.go:368-402 *)
Definition packBits14 : list pst := [
  PS 0 0 (R 6); PS 1 0 (L 2); PO 1 1 (R 12); PS 2 1 (R 4); PS 3 1 (L 4); PO 3 2 (R 10); PS 4 2 (R 2); PS 5 2 (L 6);
  PO 5 3 (R 8); PS 6 3 (R 0); PS 7 4 (R 6); PS 8 4 (L 2); PO 8 5 (R 12); PS 9 5 (R 4); PS 10 5 (L 4); PO 10 6 (R 10);
  PS 11 6 (R 2); PS 12 6 (L 6); PO 12 7 (R 8); PS 13 7 (R 0)].
(** bit_packing.go:404-441 *)
Definition packBits15 : list pst := [
  PS 0 0 (R 7); PS 1 0 (L 1); PO 1 1 (R 14); PS 2 1 (R 6); PS 3 1 (L 2); PO 3 2 (R 13); PS 4 2 (R 5); PS 5 2 (L 3);
  PO 5 3 (R 12); PS 6 3 (R 4); PS 7 3 (L 4); PO 7 4 (R 11); PS 8 4 (R 3); PS 9 4 (L 5); PO 9 5 (R 10); PS 10 5 (R 2);
  PS 11 5 (L 6); PO 11 6 (R 9); PS 12 6 (R 1); PS 13 6 (L 7); PO 13 7 (R 8); PS 14 7 (R 0)].
(** bit_packing.go:443-467 *)
Definition packBits16 : list pst := [
  PS 0 0 (R 8); PS 1 0 (R 0); PS 2 1 (R 8); PS 3 1 (R 0); PS 4 2 (R 8); PS 5 2 (R 0); PS 6 3 (R 8); PS 7 3 (R 0);
  PS 8 4 (R 8); PS 9 4 (R 0); PS 10 5 (R 8); PS 11 5 (R 0); PS 12 6 (R 8); PS 13 6 (R 0); PS 14 7 (R 8); PS 15 7 (R 0)].
(** bit_packing.go:469-510 *)
Definition packBits17 : list pst := [
  PS 0 0 (R 9); PS 1 0 (R 1); PS 2 0 (L 7); PO 2 1 (R 10); PS 3 1 (R 2); PS 4 1 (L 6); PO 4 2 (R 11); PS 5 2 (R 3);
  PS 6 2 (L 5); PO 6 3 (R 12); PS 7 3 (R 4); PS 8 3 (L 4); PO 8 4 (R 13); PS 9 4 (R 5); PS 10 4 (L 3); PO 10 5 (R 14);
  PS 11 5 (R 6); PS 12 5 (L 2); PO 12 6 (R 15); PS 13 6 (R 7); PS 14 6 (L 1); PO 14 7 (R 16); PS 15 7 (R 8);
  PS 16 7 (R 0)].
(** bit_packing.go:512-554 *)
Definition packBits18 : list pst := [
  PS 0 0 (R 10); PS 1 0 (R 2); PS 2 0 (L 6); PO 2 1 (R 12); PS 3 1 (R 4); PS 4 1 (L 4); PO 4 2 (R 14); PS 5 2 (R 6);
  PS 6 2 (L 2); PO 6 3 (R 16); PS 7 3 (R 8); PS 8 3 (R 0); PS 9 4 (R 10); PS 10 4 (R 2); PS 11 4 (L 6); PO 11 5 (R 12);
  PS 12 5 (R 4); PS 13 5 (L 4); PO 13 6 (R 14); PS 14 6 (R 6); PS 15 6 (L 2); PO 15 7 (R 16); PS 16 7 (R 8);
  PS 17 7 (R 0)].
(** bit_packing.go:556-601 *)
Definition packBits19 : list pst := [
  PS 0 0 (R 11); PS 1 0 (R 3); PS 2 0 (L 5); PO 2 1 (R 14); PS 3 1 (R 6); PS 4 1 (L 2); PO 4 2 (R 17); PS 5 2 (R 9);
  PS 6 2 (R 1); PS 7 2 (L 7); PO 7 3 (R 12); PS 8 3 (R 4); PS 9 3 (L 4); PO 9 4 (R 15); PS 10 4 (R 7); PS 11 4 (L 1);
  PO 11 5 (R 18); PS 12 5 (R 10); PS 13 5 (R 2); PS 14 5 (L 6); PO 14 6 (R 13); PS 15 6 (R 5); PS 16 6 (L 3);
  PO 16 7 (R 16); PS 17 7 (R 8); PS 18 7 (R 0)].
(** bit_packing.go:603-647 *)
Definition packBits20 : list pst := [
  PS 0 0 (R 12); PS 1 0 (R 4); PS 2 0 (L 4); PO 2 1 (R 16); PS 3 1 (R 8); PS 4 1 (R 0); PS 5 2 (R 12); PS 6 2 (R 4);
  PS 7 2 (L 4); PO 7 3 (R 16); PS 8 3 (R 8); PS 9 3 (R 0); PS 10 4 (R 12); PS 11 4 (R 4); PS 12 4 (L 4);
  PO 12 5 (R 16); PS 13 5 (R 8); PS 14 5 (R 0); PS 15 6 (R 12); PS 16 6 (R 4); PS 17 6 (L 4); PO 17 7 (R 16);
  PS 18 7 (R 8); PS 19 7 (R 0)].
(** bit_packing.go:649-698 *)
Definition packBits21 : list pst := [
  PS 0 0 (R 13); PS 1 0 (R 5); PS 2 0 (L 3); PO 2 1 (R 18); PS 3 1 (R 10); PS 4 1 (R 2); PS 5 1 (L 6); PO 5 2 (R 15);
  PS 6 2 (R 7); PS 7 2 (L 1); PO 7 3 (R 20); PS 8 3 (R 12); PS 9 3 (R 4); PS 10 3 (L 4); PO 10 4 (R 17); PS 11 4 (R 9);
  PS 12 4 (R 1); PS 13 4 (L 7); PO 13 5 (R 14); PS 14 5 (R 6); PS 15 5 (L 2); PO 15 6 (R 19); PS 16 6 (R 11);
  PS 17 6 (R 3); PS 18 6 (L 5); PO 18 7 (R 16); PS 19 7 (R 8); PS 20 7 (R 0)].
(** bit_packing.go:700-750 *)
Definition packBits22 : list pst := [
  PS 0 0 (R 14); PS 1 0 (R 6); PS 2 0 (L 2); PO 2 1 (R 20); PS 3 1 (R 12); PS 4 1 (R 4); PS 5 1 (L 4); PO 5 2 (R 18);
  PS 6 2 (R 10); PS 7 2 (R 2); PS 8 2 (L 6); PO 8 3 (R 16); PS 9 3 (R 8); PS 10 3 (R 0); PS 11 4 (R 14); PS 12 4 (R 6);
  PS 13 4 (L 2); PO 13 5 (R 20); PS 14 5 (R 12); PS 15 5 (R 4); PS 16 5 (L 4); PO 16 6 (R 18); PS 17 6 (R 10);
  PS 18 6 (R 2); PS 19 6 (L 6); PO 19 7 (R 16); PS 20 7 (R 8); PS 21 7 (R 0)].
(** bit_packing.go:752-805 *)
Definition packBits23 : list pst := [
  PS 0 0 (R 15); PS 1 0 (R 7); PS 2 0 (L 1); PO 2 1 (R 22); PS 3 1 (R 14); PS 4 1 (R 6); PS 5 1 (L 2); PO 5 2 (R 21);
  PS 6 2 (R 13); PS 7 2 (R 5); PS 8 2 (L 3); PO 8 3 (R 20); PS 9 3 (R 12); PS 10 3 (R 4); PS 11 3 (L 4);
  PO 11 4 (R 19); PS 12 4 (R 11); PS 13 4 (R 3); PS 14 4 (L 5); PO 14 5 (R 18); PS 15 5 (R 10); PS 16 5 (R 2);
  PS 17 5 (L 6); PO 17 6 (R 17); PS 18 6 (R 9); PS 19 6 (R 1); PS 20 6 (L 7); PO 20 7 (R 16); PS 21 7 (R 8);
  PS 22 7 (R 0)].
(** bit_packing.go:807-839 *)
Definition packBits24 : list pst := [
  PS 0 0 (R 16); PS 1 0 (R 8); PS 2 0 (R 0); PS 3 1 (R 16); PS 4 1 (R 8); PS 5 1 (R 0); PS 6 2 (R 16); PS 7 2 (R 8);
  PS 8 2 (R 0); PS 9 3 (R 16); PS 10 3 (R 8); PS 11 3 (R 0); PS 12 4 (R 16); PS 13 4 (R 8); PS 14 4 (R 0);
  PS 15 5 (R 16); PS 16 5 (R 8); PS 17 5 (R 0); PS 18 6 (R 16); PS 19 6 (R 8); PS 20 6 (R 0); PS 21 7 (R 16);
  PS 22 7 (R 8); PS 23 7 (R 0)].
(** bit_packing.go:841-898 *)
Definition packBits25 : list pst := [
  PS 0 0 (R 17); PS 1 0 (R 9); PS 2 0 (R 1); PS 3 0 (L 7); PO 3 1 (R 18); PS 4 1 (R 10); PS 5 1 (R 2); PS 6 1 (L 6);
  PO 6 2 (R 19); PS 7 2 (R 11); PS 8 2 (R 3); PS 9 2 (L 5); PO 9 3 (R 20); PS 10 3 (R 12); PS 11 3 (R 4);
  PS 12 3 (L 4); PO 12 4 (R 21); PS 13 4 (R 13); PS 14 4 (R 5); PS 15 4 (L 3); PO 15 5 (R 22); PS 16 5 (R 14);
  PS 17 5 (R 6); PS 18 5 (L 2); PO 18 6 (R 23); PS 19 6 (R 15); PS 20 6 (R 7); PS 21 6 (L 1); PO 21 7 (R 24);
  PS 22 7 (R 16); PS 23 7 (R 8); PS 24 7 (R 0)].
(** bit_packing.go:900-958 *)
Definition packBits26 : list pst := [
  PS 0 0 (R 18); PS 1 0 (R 10); PS 2 0 (R 2); PS 3 0 (L 6); PO 3 1 (R 20); PS 4 1 (R 12); PS 5 1 (R 4); PS 6 1 (L 4);
  PO 6 2 (R 22); PS 7 2 (R 14); PS 8 2 (R 6); PS 9 2 (L 2); PO 9 3 (R 24); PS 10 3 (R 16); PS 11 3 (R 8);
  PS 12 3 (R 0); PS 13 4 (R 18); PS 14 4 (R 10); PS 15 4 (R 2); PS 16 4 (L 6); PO 16 5 (R 20); PS 17 5 (R 12);
  PS 18 5 (R 4); PS 19 5 (L 4); PO 19 6 (R 22); PS 20 6 (R 14); PS 21 6 (R 6); PS 22 6 (L 2); PO 22 7 (R 24);
  PS 23 7 (R 16); PS 24 7 (R 8); PS 25 7 (R 0)].
(** bit_packing.go:960-1021 *)
Definition packBits27 : list pst := [
  PS 0 0 (R 19); PS 1 0 (R 11); PS 2 0 (R 3); PS 3 0 (L 5); PO 3 1 (R 22); PS 4 1 (R 14); PS 5 1 (R 6); PS 6 1 (L 2);
  PO 6 2 (R 25); PS 7 2 (R 17); PS 8 2 (R 9); PS 9 2 (R 1); PS 10 2 (L 7); PO 10 3 (R 20); PS 11 3 (R 12);
  PS 12 3 (R 4); PS 13 3 (L 4); PO 13 4 (R 23); PS 14 4 (R 15); PS 15 4 (R 7); PS 16 4 (L 1); PO 16 5 (R 26);
  PS 17 5 (R 18); PS 18 5 (R 10); PS 19 5 (R 2); PS 20 5 (L 6); PO 20 6 (R 21); PS 21 6 (R 13); PS 22 6 (R 5);
  PS 23 6 (L 3); PO 23 7 (R 24); PS 24 7 (R 16); PS 25 7 (R 8); PS 26 7 (R 0)].
(** bit_packing.go:1023-1056 *)
Definition packBits28 : list pst := [
  PS 0 0 (R 20); PS 1 0 (R 12); PS 2 0 (R 4); PS 3 0 (L 4); PO 3 1 (R 24); PS 4 1 (R 16); PS 5 1 (R 8); PS 6 1 (R 0);
  PS 7 2 (R 20); PS 8 2 (R 12); PS 9 2 (R 4); PS 10 2 (L 4); PO 10 3 (R 24); PS 11 3 (R 16); PS 12 3 (R 8);
  PS 13 3 (R 0); PS 14 4 (R 20); PS 15 4 (R 12); PS 16 4 (R 4); PS 17 4 (L 4); PO 17 5 (R 24); PS 18 5 (R 16);
  PS 19 5 (R 8); PS 20 5 (R 0); PS 21 6 (R 20); PS 22 6 (R 12); PS 23 6 (R 4); PS 24 6 (L 4); PO 24 7 (R 24);
  PS 25 7 (R 16); PS 26 7 (R 8); PS 27 7 (R 0)].
(** bit_packing.go:1058-1123 *)
Definition packBits29 : list pst := [
  PS 0 0 (R 21); PS 1 0 (R 13); PS 2 0 (R 5); PS 3 0 (L 3); PO 3 1 (R 26); PS 4 1 (R 18); PS 5 1 (R 10); PS 6 1 (R 2);
  PS 7 1 (L 6); PO 7 2 (R 23); PS 8 2 (R 15); PS 9 2 (R 7); PS 10 2 (L 1); PO 10 3 (R 28); PS 11 3 (R 20);
  PS 12 3 (R 12); PS 13 3 (R 4); PS 14 3 (L 4); PO 14 4 (R 25); PS 15 4 (R 17); PS 16 4 (R 9); PS 17 4 (R 1);
  PS 18 4 (L 7); PO 18 5 (R 22); PS 19 5 (R 14); PS 20 5 (R 6); PS 21 5 (L 2); PO 21 6 (R 27); PS 22 6 (R 19);
  PS 23 6 (R 11); PS 24 6 (R 3); PS 25 6 (L 5); PO 25 7 (R 24); PS 26 7 (R 16); PS 27 7 (R 8); PS 28 7 (R 0)].
(** bit_packing.go:1125-1169 *)
Definition packBits30 : list pst := [
  PS 0 0 (R 22); PS 1 0 (R 14); PS 2 0 (R 6); PS 3 0 (L 2); PO 3 1 (R 28); PS 4 1 (R 20); PS 5 1 (R 12); PS 6 1 (R 4);
  PS 7 1 (L 4); PO 7 2 (R 26); PS 8 2 (R 18); PS 9 2 (R 10); PS 10 2 (R 2); PS 11 2 (L 6); PO 11 3 (R 24);
  PS 12 3 (R 16); PS 13 3 (R 8); PS 14 3 (R 0); PS 15 4 (R 22); PS 16 4 (R 14); PS 17 4 (R 6); PS 18 4 (L 2);
  PO 18 5 (R 28); PS 19 5 (R 20); PS 20 5 (R 12); PS 21 5 (R 4); PS 22 5 (L 4); PO 22 6 (R 26); PS 23 6 (R 18);
  PS 24 6 (R 10); PS 25 6 (R 2); PS 26 6 (L 6); PO 26 7 (R 24); PS 27 7 (R 16); PS 28 7 (R 8); PS 29 7 (R 0)].
(** bit_packing.go:1171-1217 *)
Definition packBits31 : list pst := [
  PS 0 0 (R 23); PS 1 0 (R 15); PS 2 0 (R 7); PS 3 0 (L 1); PO 3 1 (R 30); PS 4 1 (R 22); PS 5 1 (R 14); PS 6 1 (R 6);
  PS 7 1 (L 2); PO 7 2 (R 29); PS 8 2 (R 21); PS 9 2 (R 13); PS 10 2 (R 5); PS 11 2 (L 3); PO 11 3 (R 28);
  PS 12 3 (R 20); PS 13 3 (R 12); PS 14 3 (R 4); PS 15 3 (L 4); PO 15 4 (R 27); PS 16 4 (R 19); PS 17 4 (R 11);
  PS 18 4 (R 3); PS 19 4 (L 5); PO 19 5 (R 26); PS 20 5 (R 18); PS 21 5 (R 10); PS 22 5 (R 2); PS 23 5 (L 6);
  PO 23 6 (R 25); PS 24 6 (R 17); PS 25 6 (R 9); PS 26 6 (R 1); PS 27 6 (L 7); PO 27 7 (R 24); PS 28 7 (R 16);
  PS 29 7 (R 8); PS 30 7 (R 0)].
(** bit_packing.go:1219-1259 *)
Definition packBits32 : list pst := [
  PS 0 0 (R 24); PS 1 0 (R 16); PS 2 0 (R 8); PS 3 0 (R 0); PS 4 1 (R 24); PS 5 1 (R 16); PS 6 1 (R 8); PS 7 1 (R 0);
  PS 8 2 (R 24); PS 9 2 (R 16); PS 10 2 (R 8); PS 11 2 (R 0); PS 12 3 (R 24); PS 13 3 (R 16); PS 14 3 (R 8);
  PS 15 3 (R 0); PS 16 4 (R 24); PS 17 4 (R 16); PS 18 4 (R 8); PS 19 4 (R 0); PS 20 5 (R 24); PS 21 5 (R 16);
  PS 22 5 (R 8); PS 23 5 (R 0); PS 24 6 (R 24); PS 25 6 (R 16); PS 26 6 (R 8); PS 27 6 (R 0); PS 28 7 (R 24);
  PS 29 7 (R 16); PS 30 7 (R 8); PS 31 7 (R 0)].
(** bit_packing.go:1261-1309 *)
Definition packBits33 : list pst := [
  PS 0 0 (R 25); PS 1 0 (R 17); PS 2 0 (R 9); PS 3 0 (R 1); PS 4 0 (L 7); PO 4 1 (R 26); PS 5 1 (R 18); PS 6 1 (R 10);
  PS 7 1 (R 2); PS 8 1 (L 6); PO 8 2 (R 27); PS 9 2 (R 19); PS 10 2 (R 11); PS 11 2 (R 3); PS 12 2 (L 5);
  PO 12 3 (R 28); PS 13 3 (R 20); PS 14 3 (R 12); PS 15 3 (R 4); PS 16 3 (L 4); PO 16 4 (R 29); PS 17 4 (R 21);
  PS 18 4 (R 13); PS 19 4 (R 5); PS 20 4 (L 3); PO 20 5 (R 30); PS 21 5 (R 22); PS 22 5 (R 14); PS 23 5 (R 6);
  PS 24 5 (L 2); PO 24 6 (R 31); PS 25 6 (R 23); PS 26 6 (R 15); PS 27 6 (R 7); PS 28 6 (L 1); PO 28 7 (R 32);
  PS 29 7 (R 24); PS 30 7 (R 16); PS 31 7 (R 8); PS 32 7 (R 0)].
(** bit_packing.go:1311-1359 *)
Definition packBits34 : list pst := [
  PS 0 0 (R 26); PS 1 0 (R 18); PS 2 0 (R 10); PS 3 0 (R 2); PS 4 0 (L 6); PO 4 1 (R 28); PS 5 1 (R 20); PS 6 1 (R 12);
  PS 7 1 (R 4); PS 8 1 (L 4); PO 8 2 (R 30); PS 9 2 (R 22); PS 10 2 (R 14); PS 11 2 (R 6); PS 12 2 (L 2);
  PO 12 3 (R 32); PS 13 3 (R 24); PS 14 3 (R 16); PS 15 3 (R 8); PS 16 3 (R 0); PS 17 4 (R 26); PS 18 4 (R 18);
  PS 19 4 (R 10); PS 20 4 (R 2); PS 21 4 (L 6); PO 21 5 (R 28); PS 22 5 (R 20); PS 23 5 (R 12); PS 24 5 (R 4);
  PS 25 5 (L 4); PO 25 6 (R 30); PS 26 6 (R 22); PS 27 6 (R 14); PS 28 6 (R 6); PS 29 6 (L 2); PO 29 7 (R 32);
  PS 30 7 (R 24); PS 31 7 (R 16); PS 32 7 (R 8); PS 33 7 (R 0)].
(** bit_packing.go:1361-1411 *)
Definition packBits35 : list pst := [
  PS 0 0 (R 27); PS 1 0 (R 19); PS 2 0 (R 11); PS 3 0 (R 3); PS 4 0 (L 5); PO 4 1 (R 30); PS 5 1 (R 22); PS 6 1 (R 14);
  PS 7 1 (R 6); PS 8 1 (L 2); PO 8 2 (R 33); PS 9 2 (R 25); PS 10 2 (R 17); PS 11 2 (R 9); PS 12 2 (R 1);
  PS 13 2 (L 7); PO 13 3 (R 28); PS 14 3 (R 20); PS 15 3 (R 12); PS 16 3 (R 4); PS 17 3 (L 4); PO 17 4 (R 31);
  PS 18 4 (R 23); PS 19 4 (R 15); PS 20 4 (R 7); PS 21 4 (L 1); PO 21 5 (R 34); PS 22 5 (R 26); PS 23 5 (R 18);
  PS 24 5 (R 10); PS 25 5 (R 2); PS 26 5 (L 6); PO 26 6 (R 29); PS 27 6 (R 21); PS 28 6 (R 13); PS 29 6 (R 5);
  PS 30 6 (L 3); PO 30 7 (R 32); PS 31 7 (R 24); PS 32 7 (R 16); PS 33 7 (R 8); PS 34 7 (R 0)].
(** bit_packing.go:1413-1461 *)
Definition packBits36 : list pst := [
  PS 0 0 (R 28); PS 1 0 (R 20); PS 2 0 (R 12); PS 3 0 (R 4); PS 4 0 (L 4); PO 4 1 (R 32); PS 5 1 (R 24); PS 6 1 (R 16);
  PS 7 1 (R 8); PS 8 1 (R 0); PS 9 2 (R 28); PS 10 2 (R 20); PS 11 2 (R 12); PS 12 2 (R 4); PS 13 2 (L 4);
  PO 13 3 (R 32); PS 14 3 (R 24); PS 15 3 (R 16); PS 16 3 (R 8); PS 17 3 (R 0); PS 18 4 (R 28); PS 19 4 (R 20);
  PS 20 4 (R 12); PS 21 4 (R 4); PS 22 4 (L 4); PO 22 5 (R 32); PS 23 5 (R 24); PS 24 5 (R 16); PS 25 5 (R 8);
  PS 26 5 (R 0); PS 27 6 (R 28); PS 28 6 (R 20); PS 29 6 (R 12); PS 30 6 (R 4); PS 31 6 (L 4); PO 31 7 (R 32);
  PS 32 7 (R 24); PS 33 7 (R 16); PS 34 7 (R 8); PS 35 7 (R 0)].
(** bit_packing.go:1463-1515 *)
Definition packBits37 : list pst := [
  PS 0 0 (R 29); PS 1 0 (R 21); PS 2 0 (R 13); PS 3 0 (R 5); PS 4 0 (L 3); PO 4 1 (R 34); PS 5 1 (R 26); PS 6 1 (R 18);
  PS 7 1 (R 10); PS 8 1 (R 2); PS 9 1 (L 6); PO 9 2 (R 31); PS 10 2 (R 23); PS 11 2 (R 15); PS 12 2 (R 7);
  PS 13 2 (L 1); PO 13 3 (R 36); PS 14 3 (R 28); PS 15 3 (R 20); PS 16 3 (R 12); PS 17 3 (R 4); PS 18 3 (L 4);
  PO 18 4 (R 33); PS 19 4 (R 25); PS 20 4 (R 17); PS 21 4 (R 9); PS 22 4 (R 1); PS 23 4 (L 7); PO 23 5 (R 30);
  PS 24 5 (R 22); PS 25 5 (R 14); PS 26 5 (R 6); PS 27 5 (L 2); PO 27 6 (R 35); PS 28 6 (R 27); PS 29 6 (R 19);
  PS 30 6 (R 11); PS 31 6 (R 3); PS 32 6 (L 5); PO 32 7 (R 32); PS 33 7 (R 24); PS 34 7 (R 16); PS 35 7 (R 8);
  PS 36 7 (R 0)].
(** bit_packing.go:1517-1569 *)
Definition packBits38 : list pst := [
  PS 0 0 (R 30); PS 1 0 (R 22); PS 2 0 (R 14); PS 3 0 (R 6); PS 4 0 (L 2); PO 4 1 (R 36); PS 5 1 (R 28); PS 6 1 (R 20);
  PS 7 1 (R 12); PS 8 1 (R 4); PS 9 1 (L 4); PO 9 2 (R 34); PS 10 2 (R 26); PS 11 2 (R 18); PS 12 2 (R 10);
  PS 13 2 (R 2); PS 14 2 (L 6); PO 14 3 (R 32); PS 15 3 (R 24); PS 16 3 (R 16); PS 17 3 (R 8); PS 18 3 (R 0);
  PS 19 4 (R 30); PS 20 4 (R 22); PS 21 4 (R 14); PS 22 4 (R 6); PS 23 4 (L 2); PO 23 5 (R 36); PS 24 5 (R 28);
  PS 25 5 (R 20); PS 26 5 (R 12); PS 27 5 (R 4); PS 28 5 (L 4); PO 28 6 (R 34); PS 29 6 (R 26); PS 30 6 (R 18);
  PS 31 6 (R 10); PS 32 6 (R 2); PS 33 6 (L 6); PO 33 7 (R 32); PS 34 7 (R 24); PS 35 7 (R 16); PS 36 7 (R 8);
  PS 37 7 (R 0)].
(** bit_packing.go:1571-1625 *)
Definition packBits39 : list pst := [
  PS 0 0 (R 31); PS 1 0 (R 23); PS 2 0 (R 15); PS 3 0 (R 7); PS 4 0 (L 1); PO 4 1 (R 38); PS 5 1 (R 30); PS 6 1 (R 22);
  PS 7 1 (R 14); PS 8 1 (R 6); PS 9 1 (L 2); PO 9 2 (R 37); PS 10 2 (R 29); PS 11 2 (R 21); PS 12 2 (R 13);
  PS 13 2 (R 5); PS 14 2 (L 3); PO 14 3 (R 36); PS 15 3 (R 28); PS 16 3 (R 20); PS 17 3 (R 12); PS 18 3 (R 4);
  PS 19 3 (L 4); PO 19 4 (R 35); PS 20 4 (R 27); PS 21 4 (R 19); PS 22 4 (R 11); PS 23 4 (R 3); PS 24 4 (L 5);
  PO 24 5 (R 34); PS 25 5 (R 26); PS 26 5 (R 18); PS 27 5 (R 10); PS 28 5 (R 2); PS 29 5 (L 6); PO 29 6 (R 33);
  PS 30 6 (R 25); PS 31 6 (R 17); PS 32 6 (R 9); PS 33 6 (R 1); PS 34 6 (L 7); PO 34 7 (R 32); PS 35 7 (R 24);
  PS 36 7 (R 16); PS 37 7 (R 8); PS 38 7 (R 0)].
(** bit_packing.go:1627-1675 *)
Definition packBits40 : list pst := [
  PS 0 0 (R 32); PS 1 0 (R 24); PS 2 0 (R 16); PS 3 0 (R 8); PS 4 0 (R 0); PS 5 1 (R 32); PS 6 1 (R 24); PS 7 1 (R 16);
  PS 8 1 (R 8); PS 9 1 (R 0); PS 10 2 (R 32); PS 11 2 (R 24); PS 12 2 (R 16); PS 13 2 (R 8); PS 14 2 (R 0);
  PS 15 3 (R 32); PS 16 3 (R 24); PS 17 3 (R 16); PS 18 3 (R 8); PS 19 3 (R 0); PS 20 4 (R 32); PS 21 4 (R 24);
  PS 22 4 (R 16); PS 23 4 (R 8); PS 24 4 (R 0); PS 25 5 (R 32); PS 26 5 (R 24); PS 27 5 (R 16); PS 28 5 (R 8);
  PS 29 5 (R 0); PS 30 6 (R 32); PS 31 6 (R 24); PS 32 6 (R 16); PS 33 6 (R 8); PS 34 6 (R 0); PS 35 7 (R 32);
  PS 36 7 (R 24); PS 37 7 (R 16); PS 38 7 (R 8); PS 39 7 (R 0)].
(** bit_packing.go:1677-1733 *)
Definition packBits41 : list pst := [
  PS 0 0 (R 33); PS 1 0 (R 25); PS 2 0 (R 17); PS 3 0 (R 9); PS 4 0 (R 1); PS 5 0 (L 7); PO 5 1 (R 34); PS 6 1 (R 26);
  PS 7 1 (R 18); PS 8 1 (R 10); PS 9 1 (R 2); PS 10 1 (L 6); PO 10 2 (R 35); PS 11 2 (R 27); PS 12 2 (R 19);
  PS 13 2 (R 11); PS 14 2 (R 3); PS 15 2 (L 5); PO 15 3 (R 36); PS 16 3 (R 28); PS 17 3 (R 20); PS 18 3 (R 12);
  PS 19 3 (R 4); PS 20 3 (L 4); PO 20 4 (R 37); PS 21 4 (R 29); PS 22 4 (R 21); PS 23 4 (R 13); PS 24 4 (R 5);
  PS 25 4 (L 3); PO 25 5 (R 38); PS 26 5 (R 30); PS 27 5 (R 22); PS 28 5 (R 14); PS 29 5 (R 6); PS 30 5 (L 2);
  PO 30 6 (R 39); PS 31 6 (R 31); PS 32 6 (R 23); PS 33 6 (R 15); PS 34 6 (R 7); PS 35 6 (L 1); PO 35 7 (R 40);
  PS 36 7 (R 32); PS 37 7 (R 24); PS 38 7 (R 16); PS 39 7 (R 8); PS 40 7 (R 0)].
(** bit_packing.go:1735-1791 *)
Definition packBits42 : list pst := [
  PS 0 0 (R 34); PS 1 0 (R 26); PS 2 0 (R 18); PS 3 0 (R 10); PS 4 0 (R 2); PS 5 0 (L 6); PO 5 1 (R 36); PS 6 1 (R 28);
  PS 7 1 (R 20); PS 8 1 (R 12); PS 9 1 (R 4); PS 10 1 (L 4); PO 10 2 (R 38); PS 11 2 (R 30); PS 12 2 (R 22);
  PS 13 2 (R 14); PS 14 2 (R 6); PS 15 2 (L 2); PO 15 3 (R 40); PS 16 3 (R 32); PS 17 3 (R 24); PS 18 3 (R 16);
  PS 19 3 (R 8); PS 20 3 (R 0); PS 21 4 (R 34); PS 22 4 (R 26); PS 23 4 (R 18); PS 24 4 (R 10); PS 25 4 (R 2);
  PS 26 4 (L 6); PO 26 5 (R 36); PS 27 5 (R 28); PS 28 5 (R 20); PS 29 5 (R 12); PS 30 5 (R 4); PS 31 5 (L 4);
  PO 31 6 (R 38); PS 32 6 (R 30); PS 33 6 (R 22); PS 34 6 (R 14); PS 35 6 (R 6); PS 36 6 (L 2); PO 36 7 (R 40);
  PS 37 7 (R 32); PS 38 7 (R 24); PS 39 7 (R 16); PS 40 7 (R 8); PS 41 7 (R 0)].
(** bit_packing.go:1793-1851 *)
Definition packBits43 : list pst := [
  PS 0 0 (R 35); PS 1 0 (R 27); PS 2 0 (R 19); PS 3 0 (R 11); PS 4 0 (R 3); PS 5 0 (L 5); PO 5 1 (R 38); PS 6 1 (R 30);
  PS 7 1 (R 22); PS 8 1 (R 14); PS 9 1 (R 6); PS 10 1 (L 2); PO 10 2 (R 41); PS 11 2 (R 33); PS 12 2 (R 25);
  PS 13 2 (R 17); PS 14 2 (R 9); PS 15 2 (R 1); PS 16 2 (L 7); PO 16 3 (R 36); PS 17 3 (R 28); PS 18 3 (R 20);
  PS 19 3 (R 12); PS 20 3 (R 4); PS 21 3 (L 4); PO 21 4 (R 39); PS 22 4 (R 31); PS 23 4 (R 23); PS 24 4 (R 15);
  PS 25 4 (R 7); PS 26 4 (L 1); PO 26 5 (R 42); PS 27 5 (R 34); PS 28 5 (R 26); PS 29 5 (R 18); PS 30 5 (R 10);
  PS 31 5 (R 2); PS 32 5 (L 6); PO 32 6 (R 37); PS 33 6 (R 29); PS 34 6 (R 21); PS 35 6 (R 13); PS 36 6 (R 5);
  PS 37 6 (L 3); PO 37 7 (R 40); PS 38 7 (R 32); PS 39 7 (R 24); PS 40 7 (R 16); PS 41 7 (R 8); PS 42 7 (R 0)].
(** bit_packing.go:1853-1909 *)
Definition packBits44 : list pst := [
  PS 0 0 (R 36); PS 1 0 (R 28); PS 2 0 (R 20); PS 3 0 (R 12); PS 4 0 (R 4); PS 5 0 (L 4); PO 5 1 (R 40); PS 6 1 (R 32);
  PS 7 1 (R 24); PS 8 1 (R 16); PS 9 1 (R 8); PS 10 1 (R 0); PS 11 2 (R 36); PS 12 2 (R 28); PS 13 2 (R 20);
  PS 14 2 (R 12); PS 15 2 (R 4); PS 16 2 (L 4); PO 16 3 (R 40); PS 17 3 (R 32); PS 18 3 (R 24); PS 19 3 (R 16);
  PS 20 3 (R 8); PS 21 3 (R 0); PS 22 4 (R 36); PS 23 4 (R 28); PS 24 4 (R 20); PS 25 4 (R 12); PS 26 4 (R 4);
  PS 27 4 (L 4); PO 27 5 (R 40); PS 28 5 (R 32); PS 29 5 (R 24); PS 30 5 (R 16); PS 31 5 (R 8); PS 32 5 (R 0);
  PS 33 6 (R 36); PS 34 6 (R 28); PS 35 6 (R 20); PS 36 6 (R 12); PS 37 6 (R 4); PS 38 6 (L 4); PO 38 7 (R 40);
  PS 39 7 (R 32); PS 40 7 (R 24); PS 41 7 (R 16); PS 42 7 (R 8); PS 43 7 (R 0)].
(** bit_packing.go:1911-1971 *)
Definition packBits45 : list pst := [
  PS 0 0 (R 37); PS 1 0 (R 29); PS 2 0 (R 21); PS 3 0 (R 13); PS 4 0 (R 5); PS 5 0 (L 3); PO 5 1 (R 42); PS 6 1 (R 34);
  PS 7 1 (R 26); PS 8 1 (R 18); PS 9 1 (R 10); PS 10 1 (R 2); PS 11 1 (L 6); PO 11 2 (R 39); PS 12 2 (R 31);
  PS 13 2 (R 23); PS 14 2 (R 15); PS 15 2 (R 7); PS 16 2 (L 1); PO 16 3 (R 44); PS 17 3 (R 36); PS 18 3 (R 28);
  PS 19 3 (R 20); PS 20 3 (R 12); PS 21 3 (R 4); PS 22 3 (L 4); PO 22 4 (R 41); PS 23 4 (R 33); PS 24 4 (R 25);
  PS 25 4 (R 17); PS 26 4 (R 9); PS 27 4 (R 1); PS 28 4 (L 7); PO 28 5 (R 38); PS 29 5 (R 30); PS 30 5 (R 22);
  PS 31 5 (R 14); PS 32 5 (R 6); PS 33 5 (L 2); PO 33 6 (R 43); PS 34 6 (R 35); PS 35 6 (R 27); PS 36 6 (R 19);
  PS 37 6 (R 11); PS 38 6 (R 3); PS 39 6 (L 5); PO 39 7 (R 40); PS 40 7 (R 32); PS 41 7 (R 24); PS 42 7 (R 16);
  PS 43 7 (R 8); PS 44 7 (R 0)].
(** bit_packing.go:1973-2033 *)
Definition packBits46 : list pst := [
  PS 0 0 (R 38); PS 1 0 (R 30); PS 2 0 (R 22); PS 3 0 (R 14); PS 4 0 (R 6); PS 5 0 (L 2); PO 5 1 (R 44); PS 6 1 (R 36);
  PS 7 1 (R 28); PS 8 1 (R 20); PS 9 1 (R 12); PS 10 1 (R 4); PS 11 1 (L 4); PO 11 2 (R 42); PS 12 2 (R 34);
  PS 13 2 (R 26); PS 14 2 (R 18); PS 15 2 (R 10); PS 16 2 (R 2); PS 17 2 (L 6); PO 17 3 (R 40); PS 18 3 (R 32);
  PS 19 3 (R 24); PS 20 3 (R 16); PS 21 3 (R 8); PS 22 3 (R 0); PS 23 4 (R 38); PS 24 4 (R 30); PS 25 4 (R 22);
  PS 26 4 (R 14); PS 27 4 (R 6); PS 28 4 (L 2); PO 28 5 (R 44); PS 29 5 (R 36); PS 30 5 (R 28); PS 31 5 (R 20);
  PS 32 5 (R 12); PS 33 5 (R 4); PS 34 5 (L 4); PO 34 6 (R 42); PS 35 6 (R 34); PS 36 6 (R 26); PS 37 6 (R 18);
  PS 38 6 (R 10); PS 39 6 (R 2); PS 40 6 (L 6); PO 40 7 (R 40); PS 41 7 (R 32); PS 42 7 (R 24); PS 43 7 (R 16);
  PS 44 7 (R 8); PS 45 7 (R 0)].
(** bit_packing.go:2035-2097 *)
Definition packBits47 : list pst := [
  PS 0 0 (R 39); PS 1 0 (R 31); PS 2 0 (R 23); PS 3 0 (R 15); PS 4 0 (R 7); PS 5 0 (L 1); PO 5 1 (R 46); PS 6 1 (R 38);
  PS 7 1 (R 30); PS 8 1 (R 22); PS 9 1 (R 14); PS 10 1 (R 6); PS 11 1 (L 2); PO 11 2 (R 45); PS 12 2 (R 37);
  PS 13 2 (R 29); PS 14 2 (R 21); PS 15 2 (R 13); PS 16 2 (R 5); PS 17 2 (L 3); PO 17 3 (R 44); PS 18 3 (R 36);
  PS 19 3 (R 28); PS 20 3 (R 20); PS 21 3 (R 12); PS 22 3 (R 4); PS 23 3 (L 4); PO 23 4 (R 43); PS 24 4 (R 35);
  PS 25 4 (R 27); PS 26 4 (R 19); PS 27 4 (R 11); PS 28 4 (R 3); PS 29 4 (L 5); PO 29 5 (R 42); PS 30 5 (R 34);
  PS 31 5 (R 26); PS 32 5 (R 18); PS 33 5 (R 10); PS 34 5 (R 2); PS 35 5 (L 6); PO 35 6 (R 41); PS 36 6 (R 33);
  PS 37 6 (R 25); PS 38 6 (R 17); PS 39 6 (R 9); PS 40 6 (R 1); PS 41 6 (L 7); PO 41 7 (R 40); PS 42 7 (R 32);
  PS 43 7 (R 24); PS 44 7 (R 16); PS 45 7 (R 8); PS 46 7 (R 0)].
(** bit_packing.go:2099-2155 *)
Definition packBits48 : list pst := [
  PS 0 0 (R 40); PS 1 0 (R 32); PS 2 0 (R 24); PS 3 0 (R 16); PS 4 0 (R 8); PS 5 0 (R 0); PS 6 1 (R 40); PS 7 1 (R 32);
  PS 8 1 (R 24); PS 9 1 (R 16); PS 10 1 (R 8); PS 11 1 (R 0); PS 12 2 (R 40); PS 13 2 (R 32); PS 14 2 (R 24);
  PS 15 2 (R 16); PS 16 2 (R 8); PS 17 2 (R 0); PS 18 3 (R 40); PS 19 3 (R 32); PS 20 3 (R 24); PS 21 3 (R 16);
  PS 22 3 (R 8); PS 23 3 (R 0); PS 24 4 (R 40); PS 25 4 (R 32); PS 26 4 (R 24); PS 27 4 (R 16); PS 28 4 (R 8);
  PS 29 4 (R 0); PS 30 5 (R 40); PS 31 5 (R 32); PS 32 5 (R 24); PS 33 5 (R 16); PS 34 5 (R 8); PS 35 5 (R 0);
  PS 36 6 (R 40); PS 37 6 (R 32); PS 38 6 (R 24); PS 39 6 (R 16); PS 40 6 (R 8); PS 41 6 (R 0); PS 42 7 (R 40);
  PS 43 7 (R 32); PS 44 7 (R 24); PS 45 7 (R 16); PS 46 7 (R 8); PS 47 7 (R 0)].
(** bit_packing.go:2157-2221 *)
Definition packBits49 : list pst := [
  PS 0 0 (R 41); PS 1 0 (R 33); PS 2 0 (R 25); PS 3 0 (R 17); PS 4 0 (R 9); PS 5 0 (R 1); PS 6 0 (L 7); PO 6 1 (R 42);
  PS 7 1 (R 34); PS 8 1 (R 26); PS 9 1 (R 18); PS 10 1 (R 10); PS 11 1 (R 2); PS 12 1 (L 6); PO 12 2 (R 43);
  PS 13 2 (R 35); PS 14 2 (R 27); PS 15 2 (R 19); PS 16 2 (R 11); PS 17 2 (R 3); PS 18 2 (L 5); PO 18 3 (R 44);
  PS 19 3 (R 36); PS 20 3 (R 28); PS 21 3 (R 20); PS 22 3 (R 12); PS 23 3 (R 4); PS 24 3 (L 4); PO 24 4 (R 45);
  PS 25 4 (R 37); PS 26 4 (R 29); PS 27 4 (R 21); PS 28 4 (R 13); PS 29 4 (R 5); PS 30 4 (L 3); PO 30 5 (R 46);
  PS 31 5 (R 38); PS 32 5 (R 30); PS 33 5 (R 22); PS 34 5 (R 14); PS 35 5 (R 6); PS 36 5 (L 2); PO 36 6 (R 47);
  PS 37 6 (R 39); PS 38 6 (R 31); PS 39 6 (R 23); PS 40 6 (R 15); PS 41 6 (R 7); PS 42 6 (L 1); PO 42 7 (R 48);
  PS 43 7 (R 40); PS 44 7 (R 32); PS 45 7 (R 24); PS 46 7 (R 16); PS 47 7 (R 8); PS 48 7 (R 0)].
(** bit_packing.go:2223-2287 *)
Definition packBits50 : list pst := [
  PS 0 0 (R 42); PS 1 0 (R 34); PS 2 0 (R 26); PS 3 0 (R 18); PS 4 0 (R 10); PS 5 0 (R 2); PS 6 0 (L 6); PO 6 1 (R 44);
  PS 7 1 (R 36); PS 8 1 (R 28); PS 9 1 (R 20); PS 10 1 (R 12); PS 11 1 (R 4); PS 12 1 (L 4); PO 12 2 (R 46);
  PS 13 2 (R 38); PS 14 2 (R 30); PS 15 2 (R 22); PS 16 2 (R 14); PS 17 2 (R 6); PS 18 2 (L 2); PO 18 3 (R 48);
  PS 19 3 (R 40); PS 20 3 (R 32); PS 21 3 (R 24); PS 22 3 (R 16); PS 23 3 (R 8); PS 24 3 (R 0); PS 25 4 (R 42);
  PS 26 4 (R 34); PS 27 4 (R 26); PS 28 4 (R 18); PS 29 4 (R 10); PS 30 4 (R 2); PS 31 4 (L 6); PO 31 5 (R 44);
  PS 32 5 (R 36); PS 33 5 (R 28); PS 34 5 (R 20); PS 35 5 (R 12); PS 36 5 (R 4); PS 37 5 (L 4); PO 37 6 (R 46);
  PS 38 6 (R 38); PS 39 6 (R 30); PS 40 6 (R 22); PS 41 6 (R 14); PS 42 6 (R 6); PS 43 6 (L 2); PO 43 7 (R 48);
  PS 44 7 (R 40); PS 45 7 (R 32); PS 46 7 (R 24); PS 47 7 (R 16); PS 48 7 (R 8); PS 49 7 (R 0)].
(** bit_packing.go:2289-2355 *)
Definition packBits51 : list pst := [
  PS 0 0 (R 43); PS 1 0 (R 35); PS 2 0 (R 27); PS 3 0 (R 19); PS 4 0 (R 11); PS 5 0 (R 3); PS 6 0 (L 5); PO 6 1 (R 46);
  PS 7 1 (R 38); PS 8 1 (R 30); PS 9 1 (R 22); PS 10 1 (R 14); PS 11 1 (R 6); PS 12 1 (L 2); PO 12 2 (R 49);
  PS 13 2 (R 41); PS 14 2 (R 33); PS 15 2 (R 25); PS 16 2 (R 17); PS 17 2 (R 9); PS 18 2 (R 1); PS 19 2 (L 7);
  PO 19 3 (R 44); PS 20 3 (R 36); PS 21 3 (R 28); PS 22 3 (R 20); PS 23 3 (R 12); PS 24 3 (R 4); PS 25 3 (L 4);
  PO 25 4 (R 47); PS 26 4 (R 39); PS 27 4 (R 31); PS 28 4 (R 23); PS 29 4 (R 15); PS 30 4 (R 7); PS 31 4 (L 1);
  PO 31 5 (R 50); PS 32 5 (R 42); PS 33 5 (R 34); PS 34 5 (R 26); PS 35 5 (R 18); PS 36 5 (R 10); PS 37 5 (R 2);
  PS 38 5 (L 6); PO 38 6 (R 45); PS 39 6 (R 37); PS 40 6 (R 29); PS 41 6 (R 21); PS 42 6 (R 13); PS 43 6 (R 5);
  PS 44 6 (L 3); PO 44 7 (R 48); PS 45 7 (R 40); PS 46 7 (R 32); PS 47 7 (R 24); PS 48 7 (R 16); PS 49 7 (R 8);
  PS 50 7 (R 0)].
(** bit_packing.go:2357-2421 *)
Definition packBits52 : list pst := [
  PS 0 0 (R 44); PS 1 0 (R 36); PS 2 0 (R 28); PS 3 0 (R 20); PS 4 0 (R 12); PS 5 0 (R 4); PS 6 0 (L 4); PO 6 1 (R 48);
  PS 7 1 (R 40); PS 8 1 (R 32); PS 9 1 (R 24); PS 10 1 (R 16); PS 11 1 (R 8); PS 12 1 (R 0); PS 13 2 (R 44);
  PS 14 2 (R 36); PS 15 2 (R 28); PS 16 2 (R 20); PS 17 2 (R 12); PS 18 2 (R 4); PS 19 2 (L 4); PO 19 3 (R 48);
  PS 20 3 (R 40); PS 21 3 (R 32); PS 22 3 (R 24); PS 23 3 (R 16); PS 24 3 (R 8); PS 25 3 (R 0); PS 26 4 (R 44);
  PS 27 4 (R 36); PS 28 4 (R 28); PS 29 4 (R 20); PS 30 4 (R 12); PS 31 4 (R 4); PS 32 4 (L 4); PO 32 5 (R 48);
  PS 33 5 (R 40); PS 34 5 (R 32); PS 35 5 (R 24); PS 36 5 (R 16); PS 37 5 (R 8); PS 38 5 (R 0); PS 39 6 (R 44);
  PS 40 6 (R 36); PS 41 6 (R 28); PS 42 6 (R 20); PS 43 6 (R 12); PS 44 6 (R 4); PS 45 6 (L 4); PO 45 7 (R 48);
  PS 46 7 (R 40); PS 47 7 (R 32); PS 48 7 (R 24); PS 49 7 (R 16); PS 50 7 (R 8); PS 51 7 (R 0)].
(** bit_packing.go:2423-2491 *)
Definition packBits53 : list pst := [
  PS 0 0 (R 45); PS 1 0 (R 37); PS 2 0 (R 29); PS 3 0 (R 21); PS 4 0 (R 13); PS 5 0 (R 5); PS 6 0 (L 3); PO 6 1 (R 50);
  PS 7 1 (R 42); PS 8 1 (R 34); PS 9 1 (R 26); PS 10 1 (R 18); PS 11 1 (R 10); PS 12 1 (R 2); PS 13 1 (L 6);
  PO 13 2 (R 47); PS 14 2 (R 39); PS 15 2 (R 31); PS 16 2 (R 23); PS 17 2 (R 15); PS 18 2 (R 7); PS 19 2 (L 1);
  PO 19 3 (R 52); PS 20 3 (R 44); PS 21 3 (R 36); PS 22 3 (R 28); PS 23 3 (R 20); PS 24 3 (R 12); PS 25 3 (R 4);
  PS 26 3 (L 4); PO 26 4 (R 49); PS 27 4 (R 41); PS 28 4 (R 33); PS 29 4 (R 25); PS 30 4 (R 17); PS 31 4 (R 9);
  PS 32 4 (R 1); PS 33 4 (L 7); PO 33 5 (R 46); PS 34 5 (R 38); PS 35 5 (R 30); PS 36 5 (R 22); PS 37 5 (R 14);
  PS 38 5 (R 6); PS 39 5 (L 2); PO 39 6 (R 51); PS 40 6 (R 43); PS 41 6 (R 35); PS 42 6 (R 27); PS 43 6 (R 19);
  PS 44 6 (R 11); PS 45 6 (R 3); PS 46 6 (L 5); PO 46 7 (R 48); PS 47 7 (R 40); PS 48 7 (R 32); PS 49 7 (R 24);
  PS 50 7 (R 16); PS 51 7 (R 8); PS 52 7 (R 0)].
(** bit_packing.go:2493-2561 *)
Definition packBits54 : list pst := [
  PS 0 0 (R 46); PS 1 0 (R 38); PS 2 0 (R 30); PS 3 0 (R 22); PS 4 0 (R 14); PS 5 0 (R 6); PS 6 0 (L 2); PO 6 1 (R 52);
  PS 7 1 (R 44); PS 8 1 (R 36); PS 9 1 (R 28); PS 10 1 (R 20); PS 11 1 (R 12); PS 12 1 (R 4); PS 13 1 (L 4);
  PO 13 2 (R 50); PS 14 2 (R 42); PS 15 2 (R 34); PS 16 2 (R 26); PS 17 2 (R 18); PS 18 2 (R 10); PS 19 2 (R 2);
  PS 20 2 (L 6); PO 20 3 (R 48); PS 21 3 (R 40); PS 22 3 (R 32); PS 23 3 (R 24); PS 24 3 (R 16); PS 25 3 (R 8);
  PS 26 3 (R 0); PS 27 4 (R 46); PS 28 4 (R 38); PS 29 4 (R 30); PS 30 4 (R 22); PS 31 4 (R 14); PS 32 4 (R 6);
  PS 33 4 (L 2); PO 33 5 (R 52); PS 34 5 (R 44); PS 35 5 (R 36); PS 36 5 (R 28); PS 37 5 (R 20); PS 38 5 (R 12);
  PS 39 5 (R 4); PS 40 5 (L 4); PO 40 6 (R 50); PS 41 6 (R 42); PS 42 6 (R 34); PS 43 6 (R 26); PS 44 6 (R 18);
  PS 45 6 (R 10); PS 46 6 (R 2); PS 47 6 (L 6); PO 47 7 (R 48); PS 48 7 (R 40); PS 49 7 (R 32); PS 50 7 (R 24);
  PS 51 7 (R 16); PS 52 7 (R 8); PS 53 7 (R 0)].
(** bit_packing.go:2563-2633 *)
Definition packBits55 : list pst := [
  PS 0 0 (R 47); PS 1 0 (R 39); PS 2 0 (R 31); PS 3 0 (R 23); PS 4 0 (R 15); PS 5 0 (R 7); PS 6 0 (L 1); PO 6 1 (R 54);
  PS 7 1 (R 46); PS 8 1 (R 38); PS 9 1 (R 30); PS 10 1 (R 22); PS 11 1 (R 14); PS 12 1 (R 6); PS 13 1 (L 2);
  PO 13 2 (R 53); PS 14 2 (R 45); PS 15 2 (R 37); PS 16 2 (R 29); PS 17 2 (R 21); PS 18 2 (R 13); PS 19 2 (R 5);
  PS 20 2 (L 3); PO 20 3 (R 52); PS 21 3 (R 44); PS 22 3 (R 36); PS 23 3 (R 28); PS 24 3 (R 20); PS 25 3 (R 12);
  PS 26 3 (R 4); PS 27 3 (L 4); PO 27 4 (R 51); PS 28 4 (R 43); PS 29 4 (R 35); PS 30 4 (R 27); PS 31 4 (R 19);
  PS 32 4 (R 11); PS 33 4 (R 3); PS 34 4 (L 5); PO 34 5 (R 50); PS 35 5 (R 42); PS 36 5 (R 34); PS 37 5 (R 26);
  PS 38 5 (R 18); PS 39 5 (R 10); PS 40 5 (R 2); PS 41 5 (L 6); PO 41 6 (R 49); PS 42 6 (R 41); PS 43 6 (R 33);
  PS 44 6 (R 25); PS 45 6 (R 17); PS 46 6 (R 9); PS 47 6 (R 1); PS 48 6 (L 7); PO 48 7 (R 48); PS 49 7 (R 40);
  PS 50 7 (R 32); PS 51 7 (R 24); PS 52 7 (R 16); PS 53 7 (R 8); PS 54 7 (R 0)].
(** bit_packing.go:2635-2699 *)
Definition packBits56 : list pst := [
  PS 0 0 (R 48); PS 1 0 (R 40); PS 2 0 (R 32); PS 3 0 (R 24); PS 4 0 (R 16); PS 5 0 (R 8); PS 6 0 (R 0); PS 7 1 (R 48);
  PS 8 1 (R 40); PS 9 1 (R 32); PS 10 1 (R 24); PS 11 1 (R 16); PS 12 1 (R 8); PS 13 1 (R 0); PS 14 2 (R 48);
  PS 15 2 (R 40); PS 16 2 (R 32); PS 17 2 (R 24); PS 18 2 (R 16); PS 19 2 (R 8); PS 20 2 (R 0); PS 21 3 (R 48);
  PS 22 3 (R 40); PS 23 3 (R 32); PS 24 3 (R 24); PS 25 3 (R 16); PS 26 3 (R 8); PS 27 3 (R 0); PS 28 4 (R 48);
  PS 29 4 (R 40); PS 30 4 (R 32); PS 31 4 (R 24); PS 32 4 (R 16); PS 33 4 (R 8); PS 34 4 (R 0); PS 35 5 (R 48);
  PS 36 5 (R 40); PS 37 5 (R 32); PS 38 5 (R 24); PS 39 5 (R 16); PS 40 5 (R 8); PS 41 5 (R 0); PS 42 6 (R 48);
  PS 43 6 (R 40); PS 44 6 (R 32); PS 45 6 (R 24); PS 46 6 (R 16); PS 47 6 (R 8); PS 48 6 (R 0); PS 49 7 (R 48);
  PS 50 7 (R 40); PS 51 7 (R 32); PS 52 7 (R 24); PS 53 7 (R 16); PS 54 7 (R 8); PS 55 7 (R 0)].
(** bit_packing.go:2701-2773 *)
Definition packBits57 : list pst := [
  PS 0 0 (R 49); PS 1 0 (R 41); PS 2 0 (R 33); PS 3 0 (R 25); PS 4 0 (R 17); PS 5 0 (R 9); PS 6 0 (R 1); PS 7 0 (L 7);
  PO 7 1 (R 50); PS 8 1 (R 42); PS 9 1 (R 34); PS 10 1 (R 26); PS 11 1 (R 18); PS 12 1 (R 10); PS 13 1 (R 2);
  PS 14 1 (L 6); PO 14 2 (R 51); PS 15 2 (R 43); PS 16 2 (R 35); PS 17 2 (R 27); PS 18 2 (R 19); PS 19 2 (R 11);
  PS 20 2 (R 3); PS 21 2 (L 5); PO 21 3 (R 52); PS 22 3 (R 44); PS 23 3 (R 36); PS 24 3 (R 28); PS 25 3 (R 20);
  PS 26 3 (R 12); PS 27 3 (R 4); PS 28 3 (L 4); PO 28 4 (R 53); PS 29 4 (R 45); PS 30 4 (R 37); PS 31 4 (R 29);
  PS 32 4 (R 21); PS 33 4 (R 13); PS 34 4 (R 5); PS 35 4 (L 3); PO 35 5 (R 54); PS 36 5 (R 46); PS 37 5 (R 38);
  PS 38 5 (R 30); PS 39 5 (R 22); PS 40 5 (R 14); PS 41 5 (R 6); PS 42 5 (L 2); PO 42 6 (R 55); PS 43 6 (R 47);
  PS 44 6 (R 39); PS 45 6 (R 31); PS 46 6 (R 23); PS 47 6 (R 15); PS 48 6 (R 7); PS 49 6 (L 1); PO 49 7 (R 56);
  PS 50 7 (R 48); PS 51 7 (R 40); PS 52 7 (R 32); PS 53 7 (R 24); PS 54 7 (R 16); PS 55 7 (R 8); PS 56 7 (R 0)].
(** bit_packing.go:2775-2847 *)
Definition packBits58 : list pst := [
  PS 0 0 (R 50); PS 1 0 (R 42); PS 2 0 (R 34); PS 3 0 (R 26); PS 4 0 (R 18); PS 5 0 (R 10); PS 6 0 (R 2); PS 7 0 (L 6);
  PO 7 1 (R 52); PS 8 1 (R 44); PS 9 1 (R 36); PS 10 1 (R 28); PS 11 1 (R 20); PS 12 1 (R 12); PS 13 1 (R 4);
  PS 14 1 (L 4); PO 14 2 (R 54); PS 15 2 (R 46); PS 16 2 (R 38); PS 17 2 (R 30); PS 18 2 (R 22); PS 19 2 (R 14);
  PS 20 2 (R 6); PS 21 2 (L 2); PO 21 3 (R 56); PS 22 3 (R 48); PS 23 3 (R 40); PS 24 3 (R 32); PS 25 3 (R 24);
  PS 26 3 (R 16); PS 27 3 (R 8); PS 28 3 (R 0); PS 29 4 (R 50); PS 30 4 (R 42); PS 31 4 (R 34); PS 32 4 (R 26);
  PS 33 4 (R 18); PS 34 4 (R 10); PS 35 4 (R 2); PS 36 4 (L 6); PO 36 5 (R 52); PS 37 5 (R 44); PS 38 5 (R 36);
  PS 39 5 (R 28); PS 40 5 (R 20); PS 41 5 (R 12); PS 42 5 (R 4); PS 43 5 (L 4); PO 43 6 (R 54); PS 44 6 (R 46);
  PS 45 6 (R 38); PS 46 6 (R 30); PS 47 6 (R 22); PS 48 6 (R 14); PS 49 6 (R 6); PS 50 6 (L 2); PO 50 7 (R 56);
  PS 51 7 (R 48); PS 52 7 (R 40); PS 53 7 (R 32); PS 54 7 (R 24); PS 55 7 (R 16); PS 56 7 (R 8); PS 57 7 (R 0)].
(** bit_packing.go:2849-2923 *)
Definition packBits59 : list pst := [
  PS 0 0 (R 51); PS 1 0 (R 43); PS 2 0 (R 35); PS 3 0 (R 27); PS 4 0 (R 19); PS 5 0 (R 11); PS 6 0 (R 3); PS 7 0 (L 5);
  PO 7 1 (R 54); PS 8 1 (R 46); PS 9 1 (R 38); PS 10 1 (R 30); PS 11 1 (R 22); PS 12 1 (R 14); PS 13 1 (R 6);
  PS 14 1 (L 2); PO 14 2 (R 57); PS 15 2 (R 49); PS 16 2 (R 41); PS 17 2 (R 33); PS 18 2 (R 25); PS 19 2 (R 17);
  PS 20 2 (R 9); PS 21 2 (R 1); PS 22 2 (L 7); PO 22 3 (R 52); PS 23 3 (R 44); PS 24 3 (R 36); PS 25 3 (R 28);
  PS 26 3 (R 20); PS 27 3 (R 12); PS 28 3 (R 4); PS 29 3 (L 4); PO 29 4 (R 55); PS 30 4 (R 47); PS 31 4 (R 39);
  PS 32 4 (R 31); PS 33 4 (R 23); PS 34 4 (R 15); PS 35 4 (R 7); PS 36 4 (L 1); PO 36 5 (R 58); PS 37 5 (R 50);
  PS 38 5 (R 42); PS 39 5 (R 34); PS 40 5 (R 26); PS 41 5 (R 18); PS 42 5 (R 10); PS 43 5 (R 2); PS 44 5 (L 6);
  PO 44 6 (R 53); PS 45 6 (R 45); PS 46 6 (R 37); PS 47 6 (R 29); PS 48 6 (R 21); PS 49 6 (R 13); PS 50 6 (R 5);
  PS 51 6 (L 3); PO 51 7 (R 56); PS 52 7 (R 48); PS 53 7 (R 40); PS 54 7 (R 32); PS 55 7 (R 24); PS 56 7 (R 16);
  PS 57 7 (R 8); PS 58 7 (R 0)].
(** bit_packing.go:2925-2997 *)
Definition packBits60 : list pst := [
  PS 0 0 (R 52); PS 1 0 (R 44); PS 2 0 (R 36); PS 3 0 (R 28); PS 4 0 (R 20); PS 5 0 (R 12); PS 6 0 (R 4); PS 7 0 (L 4);
  PO 7 1 (R 56); PS 8 1 (R 48); PS 9 1 (R 40); PS 10 1 (R 32); PS 11 1 (R 24); PS 12 1 (R 16); PS 13 1 (R 8);
  PS 14 1 (R 0); PS 15 2 (R 52); PS 16 2 (R 44); PS 17 2 (R 36); PS 18 2 (R 28); PS 19 2 (R 20); PS 20 2 (R 12);
  PS 21 2 (R 4); PS 22 2 (L 4); PO 22 3 (R 56); PS 23 3 (R 48); PS 24 3 (R 40); PS 25 3 (R 32); PS 26 3 (R 24);
  PS 27 3 (R 16); PS 28 3 (R 8); PS 29 3 (R 0); PS 30 4 (R 52); PS 31 4 (R 44); PS 32 4 (R 36); PS 33 4 (R 28);
  PS 34 4 (R 20); PS 35 4 (R 12); PS 36 4 (R 4); PS 37 4 (L 4); PO 37 5 (R 56); PS 38 5 (R 48); PS 39 5 (R 40);
  PS 40 5 (R 32); PS 41 5 (R 24); PS 42 5 (R 16); PS 43 5 (R 8); PS 44 5 (R 0); PS 45 6 (R 52); PS 46 6 (R 44);
  PS 47 6 (R 36); PS 48 6 (R 28); PS 49 6 (R 20); PS 50 6 (R 12); PS 51 6 (R 4); PS 52 6 (L 4); PO 52 7 (R 56);
  PS 53 7 (R 48); PS 54 7 (R 40); PS 55 7 (R 32); PS 56 7 (R 24); PS 57 7 (R 16); PS 58 7 (R 8); PS 59 7 (R 0)].
(** bit_packing.go:2999-3075 *)
Definition packBits61 : list pst := [
  PS 0 0 (R 53); PS 1 0 (R 45); PS 2 0 (R 37); PS 3 0 (R 29); PS 4 0 (R 21); PS 5 0 (R 13); PS 6 0 (R 5); PS 7 0 (L 3);
  PO 7 1 (R 58); PS 8 1 (R 50); PS 9 1 (R 42); PS 10 1 (R 34); PS 11 1 (R 26); PS 12 1 (R 18); PS 13 1 (R 10);
  PS 14 1 (R 2); PS 15 1 (L 6); PO 15 2 (R 55); PS 16 2 (R 47); PS 17 2 (R 39); PS 18 2 (R 31); PS 19 2 (R 23);
  PS 20 2 (R 15); PS 21 2 (R 7); PS 22 2 (L 1); PO 22 3 (R 60); PS 23 3 (R 52); PS 24 3 (R 44); PS 25 3 (R 36);
  PS 26 3 (R 28); PS 27 3 (R 20); PS 28 3 (R 12); PS 29 3 (R 4); PS 30 3 (L 4); PO 30 4 (R 57); PS 31 4 (R 49);
  PS 32 4 (R 41); PS 33 4 (R 33); PS 34 4 (R 25); PS 35 4 (R 17); PS 36 4 (R 9); PS 37 4 (R 1); PS 38 4 (L 7);
  PO 38 5 (R 54); PS 39 5 (R 46); PS 40 5 (R 38); PS 41 5 (R 30); PS 42 5 (R 22); PS 43 5 (R 14); PS 44 5 (R 6);
  PS 45 5 (L 2); PO 45 6 (R 59); PS 46 6 (R 51); PS 47 6 (R 43); PS 48 6 (R 35); PS 49 6 (R 27); PS 50 6 (R 19);
  PS 51 6 (R 11); PS 52 6 (R 3); PS 53 6 (L 5); PO 53 7 (R 56); PS 54 7 (R 48); PS 55 7 (R 40); PS 56 7 (R 32);
  PS 57 7 (R 24); PS 58 7 (R 16); PS 59 7 (R 8); PS 60 7 (R 0)].
(** bit_packing.go:3077-3153 *)
Definition packBits62 : list pst := [
  PS 0 0 (R 54); PS 1 0 (R 46); PS 2 0 (R 38); PS 3 0 (R 30); PS 4 0 (R 22); PS 5 0 (R 14); PS 6 0 (R 6); PS 7 0 (L 2);
  PO 7 1 (R 60); PS 8 1 (R 52); PS 9 1 (R 44); PS 10 1 (R 36); PS 11 1 (R 28); PS 12 1 (R 20); PS 13 1 (R 12);
  PS 14 1 (R 4); PS 15 1 (L 4); PO 15 2 (R 58); PS 16 2 (R 50); PS 17 2 (R 42); PS 18 2 (R 34); PS 19 2 (R 26);
  PS 20 2 (R 18); PS 21 2 (R 10); PS 22 2 (R 2); PS 23 2 (L 6); PO 23 3 (R 56); PS 24 3 (R 48); PS 25 3 (R 40);
  PS 26 3 (R 32); PS 27 3 (R 24); PS 28 3 (R 16); PS 29 3 (R 8); PS 30 3 (R 0); PS 31 4 (R 54); PS 32 4 (R 46);
  PS 33 4 (R 38); PS 34 4 (R 30); PS 35 4 (R 22); PS 36 4 (R 14); PS 37 4 (R 6); PS 38 4 (L 2); PO 38 5 (R 60);
  PS 39 5 (R 52); PS 40 5 (R 44); PS 41 5 (R 36); PS 42 5 (R 28); PS 43 5 (R 20); PS 44 5 (R 12); PS 45 5 (R 4);
  PS 46 5 (L 4); PO 46 6 (R 58); PS 47 6 (R 50); PS 48 6 (R 42); PS 49 6 (R 34); PS 50 6 (R 26); PS 51 6 (R 18);
  PS 52 6 (R 10); PS 53 6 (R 2); PS 54 6 (L 6); PO 54 7 (R 56); PS 55 7 (R 48); PS 56 7 (R 40); PS 57 7 (R 32);
  PS 58 7 (R 24); PS 59 7 (R 16); PS 60 7 (R 8); PS 61 7 (R 0)].
(** bit_packing.go:3155-3233 *)
Definition packBits63 : list pst := [
  PS 0 0 (R 55); PS 1 0 (R 47); PS 2 0 (R 39); PS 3 0 (R 31); PS 4 0 (R 23); PS 5 0 (R 15); PS 6 0 (R 7); PS 7 0 (L 1);
  PO 7 1 (R 62); PS 8 1 (R 54); PS 9 1 (R 46); PS 10 1 (R 38); PS 11 1 (R 30); PS 12 1 (R 22); PS 13 1 (R 14);
  PS 14 1 (R 6); PS 15 1 (L 2); PO 15 2 (R 61); PS 16 2 (R 53); PS 17 2 (R 45); PS 18 2 (R 37); PS 19 2 (R 29);
  PS 20 2 (R 21); PS 21 2 (R 13); PS 22 2 (R 5); PS 23 2 (L 3); PO 23 3 (R 60); PS 24 3 (R 52); PS 25 3 (R 44);
  PS 26 3 (R 36); PS 27 3 (R 28); PS 28 3 (R 20); PS 29 3 (R 12); PS 30 3 (R 4); PS 31 3 (L 4); PO 31 4 (R 59);
  PS 32 4 (R 51); PS 33 4 (R 43); PS 34 4 (R 35); PS 35 4 (R 27); PS 36 4 (R 19); PS 37 4 (R 11); PS 38 4 (R 3);
  PS 39 4 (L 5); PO 39 5 (R 58); PS 40 5 (R 50); PS 41 5 (R 42); PS 42 5 (R 34); PS 43 5 (R 26); PS 44 5 (R 18);
  PS 45 5 (R 10); PS 46 5 (R 2); PS 47 5 (L 6); PO 47 6 (R 57); PS 48 6 (R 49); PS 49 6 (R 41); PS 50 6 (R 33);
  PS 51 6 (R 25); PS 52 6 (R 17); PS 53 6 (R 9); PS 54 6 (R 1); PS 55 6 (L 7); PO 55 7 (R 56); PS 56 7 (R 48);
  PS 57 7 (R 40); PS 58 7 (R 32); PS 59 7 (R 24); PS 60 7 (R 16); PS 61 7 (R 8); PS 62 7 (R 0)].

(** bit_packing.go:3239-3371 the switch of packBitsBlock8. *)
Definition pack_switch : list (N * list pst) := [
  (1, packBits1); (2, packBits2); (3, packBits3); (4, packBits4); (5, packBits5); (6, packBits6);
  (7, packBits7); (8, packBits8); (9, packBits9); (10, packBits10); (11, packBits11); (12, packBits12);
  (13, packBits13); (14, packBits14); (15, packBits15); (16, packBits16); (17, packBits17); (18, packBits18);
  (19, packBits19); (20, packBits20); (21, packBits21); (22, packBits22); (23, packBits23); (24, packBits24);
  (25, packBits25); (26, packBits26); (27, packBits27); (28, packBits28); (29, packBits29); (30, packBits30);
  (31, packBits31); (32, packBits32); (33, packBits33); (34, packBits34); (35, packBits35); (36, packBits36);
  (37, packBits37); (38, packBits38); (39, packBits39); (40, packBits40); (41, packBits41); (42, packBits42);
  (43, packBits43); (44, packBits44); (45, packBits45); (46, packBits46); (47, packBits47); (48, packBits48);
  (49, packBits49); (50, packBits50); (51, packBits51); (52, packBits52); (53, packBits53); (54, packBits54);
  (55, packBits55); (56, packBits56); (57, packBits57); (58, packBits58); (59, packBits59); (60, packBits60);
  (61, packBits61); (62, packBits62); (63, packBits63)].

(** bit_packing.go:3373-3382 *)
Definition unpackBits1 : list ust := [
  US 0 0 7 255 0; US 1 0 6 1 0; US 2 0 5 1 0; US 3 0 4 1 0; US 4 0 3 1 0; US 5 0 2 1 0; US 6 0 1 1 0; US 7 0 0 1 0].
(** bit_packing.go:3384-3393 *)
Definition unpackBits2 : list ust := [
  US 0 0 6 255 0; US 1 0 4 3 0; US 2 0 2 3 0; US 3 0 0 3 0; US 4 1 6 255 0; US 5 1 4 3 0; US 6 1 2 3 0; US 7 1 0 3 0].
(** bit_packing.go:3395-3406 *)
Definition unpackBits3 : list ust := [
  US 0 0 5 255 0; US 1 0 2 7 0; US 2 0 0 3 1; UO 2 1 7 255 0; US 3 1 4 7 0; US 4 1 1 7 0; US 5 1 0 1 2; UO 5 2 6 255 0;
  US 6 2 3 7 0; US 7 2 0 7 0].
(** bit_packing.go:3408-3417 *)
Definition unpackBits4 : list ust := [
  US 0 0 4 255 0; US 1 0 0 15 0; US 2 1 4 255 0; US 3 1 0 15 0; US 4 2 4 255 0; US 5 2 0 15 0; US 6 3 4 255 0;
  US 7 3 0 15 0].
(** bit_packing.go:3419-3439 *)
Definition unpackBits5 : list ust := [
  US 0 0 3 255 0; US 1 0 0 7 2; UO 1 1 6 255 0; US 2 1 1 31 0; US 3 1 0 1 4; UO 3 2 4 255 0; US 4 2 0 15 1;
  UO 4 3 7 255 0; US 5 3 2 31 0; US 6 3 0 3 3; UO 6 4 5 255 0; US 7 4 0 31 0].
(** bit_packing.go:3441-3461 *)
Definition unpackBits6 : list ust := [
  US 0 0 2 255 0; US 1 0 0 3 4; UO 1 1 4 255 0; US 2 1 0 15 2; UO 2 2 6 255 0; US 3 2 0 63 0; US 4 3 2 255 0;
  US 5 3 0 3 4; UO 5 4 4 255 0; US 6 4 0 15 2; UO 6 5 6 255 0; US 7 5 0 63 0].
(** bit_packing.go:3463-3485 *)
Definition unpackBits7 : list ust := [
  US 0 0 1 255 0; US 1 0 0 1 6; UO 1 1 2 255 0; US 2 1 0 3 5; UO 2 2 3 255 0; US 3 2 0 7 4; UO 3 3 4 255 0;
  US 4 3 0 15 3; UO 4 4 5 255 0; US 5 4 0 31 2; UO 5 5 6 255 0; US 6 5 0 63 1; UO 6 6 7 255 0; US 7 6 0 127 0].
(** bit_packing.go:3487-3496 *)
Definition unpackBits8 : list ust := [
  US 0 0 0 255 0; US 1 1 0 255 0; US 2 2 0 255 0; US 3 3 0 255 0; US 4 4 0 255 0; US 5 5 0 255 0; US 6 6 0 255 0;
  US 7 7 0 255 0].
(** bit_packing.go:3498-3522 *)
Definition unpackBits9 : list ust := [
  US 0 0 0 255 1; UO 0 1 7 255 0; US 1 1 0 127 2; UO 1 2 6 255 0; US 2 2 0 63 3; UO 2 3 5 255 0; US 3 3 0 31 4;
  UO 3 4 4 255 0; US 4 4 0 15 5; UO 4 5 3 255 0; US 5 5 0 7 6; UO 5 6 2 255 0; US 6 6 0 3 7; UO 6 7 1 255 0;
  US 7 7 0 1 8; UO 7 8 0 255 0].
(** bit_packing.go:3524-3548 *)
Definition unpackBits10 : list ust := [
  US 0 0 0 255 2; UO 0 1 6 255 0; US 1 1 0 63 4; UO 1 2 4 255 0; US 2 2 0 15 6; UO 2 3 2 255 0; US 3 3 0 3 8;
  UO 3 4 0 255 0; US 4 5 0 255 2; UO 4 6 6 255 0; US 5 6 0 63 4; UO 5 7 4 255 0; US 6 7 0 15 6; UO 6 8 2 255 0;
  US 7 8 0 3 8; UO 7 9 0 255 0].
(** bit_packing.go:3550-3576 *)
Definition unpackBits11 : list ust := [
  US 0 0 0 255 3; UO 0 1 5 255 0; US 1 1 0 31 6; UO 1 2 2 255 0; US 2 2 0 3 9; UO 2 3 0 255 1; UO 2 4 7 255 0;
  US 3 4 0 127 4; UO 3 5 4 255 0; US 4 5 0 15 7; UO 4 6 1 255 0; US 5 6 0 1 10; UO 5 7 0 255 2; UO 5 8 6 255 0;
  US 6 8 0 63 5; UO 6 9 3 255 0; US 7 9 0 7 8; UO 7 10 0 255 0].
(** bit_packing.go:3578-3602 *)
Definition unpackBits12 : list ust := [
  US 0 0 0 255 4; UO 0 1 4 255 0; US 1 1 0 15 8; UO 1 2 0 255 0; US 2 3 0 255 4; UO 2 4 4 255 0; US 3 4 0 15 8;
  UO 3 5 0 255 0; US 4 6 0 255 4; UO 4 7 4 255 0; US 5 7 0 15 8; UO 5 8 0 255 0; US 6 9 0 255 4; UO 6 10 4 255 0;
  US 7 10 0 15 8; UO 7 11 0 255 0].
(** bit_packing.go:3604-3632 *)
Definition unpackBits13 : list ust := [
  US 0 0 0 255 5; UO 0 1 3 255 0; US 1 1 0 7 10; UO 1 2 0 255 2; UO 1 3 6 255 0; US 2 3 0 63 7; UO 2 4 1 255 0;
  US 3 4 0 1 12; UO 3 5 0 255 4; UO 3 6 4 255 0; US 4 6 0 15 9; UO 4 7 0 255 1; UO 4 8 7 255 0; US 5 8 0 127 6;
  UO 5 9 2 255 0; US 6 9 0 3 11; UO 6 10 0 255 3; UO 6 11 5 255 0; US 7 11 0 31 8; UO 7 12 0 255 0].
(** bit_packing.go:3634-3662 *)
Definition unpackBits14 : list ust := [
  US 0 0 0 255 6; UO 0 1 2 255 0; US 1 1 0 3 12; UO 1 2 0 255 4; UO 1 3 4 255 0; US 2 3 0 15 10; UO 2 4 0 255 2;
  UO 2 5 6 255 0; US 3 5 0 63 8; UO 3 6 0 255 0; US 4 7 0 255 6; UO 4 8 2 255 0; US 5 8 0 3 12; UO 5 9 0 255 4;
  UO 5 10 4 255 0; US 6 10 0 15 10; UO 6 11 0 255 2; UO 6 12 6 255 0; US 7 12 0 63 8; UO 7 13 0 255 0].
(** bit_packing.go:3664-3694 *)
Definition unpackBits15 : list ust := [
  US 0 0 0 255 7; UO 0 1 1 255 0; US 1 1 0 1 14; UO 1 2 0 255 6; UO 1 3 2 255 0; US 2 3 0 3 13; UO 2 4 0 255 5;
  UO 2 5 3 255 0; US 3 5 0 7 12; UO 3 6 0 255 4; UO 3 7 4 255 0; US 4 7 0 15 11; UO 4 8 0 255 3; UO 4 9 5 255 0;
  US 5 9 0 31 10; UO 5 10 0 255 2; UO 5 11 6 255 0; US 6 11 0 63 9; UO 6 12 0 255 1; UO 6 13 7 255 0; US 7 13 0 127 8;
  UO 7 14 0 255 0].
(** bit_packing.go:3696-3713 *)
Definition unpackBits16 : list ust := [
  US 0 0 0 255 8; UO 0 1 0 255 0; US 1 2 0 255 8; UO 1 3 0 255 0; US 2 4 0 255 8; UO 2 5 0 255 0; US 3 6 0 255 8;
  UO 3 7 0 255 0; US 4 8 0 255 8; UO 4 9 0 255 0; US 5 10 0 255 8; UO 5 11 0 255 0; US 6 12 0 255 8; UO 6 13 0 255 0;
  US 7 14 0 255 8; UO 7 15 0 255 0].
(** bit_packing.go:3715-3747 *)
Definition unpackBits17 : list ust := [
  US 0 0 0 255 9; UO 0 1 0 255 1; UO 0 2 7 255 0; US 1 2 0 127 10; UO 1 3 0 255 2; UO 1 4 6 255 0; US 2 4 0 63 11;
  UO 2 5 0 255 3; UO 2 6 5 255 0; US 3 6 0 31 12; UO 3 7 0 255 4; UO 3 8 4 255 0; US 4 8 0 15 13; UO 4 9 0 255 5;
  UO 4 10 3 255 0; US 5 10 0 7 14; UO 5 11 0 255 6; UO 5 12 2 255 0; US 6 12 0 3 15; UO 6 13 0 255 7; UO 6 14 1 255 0;
  US 7 14 0 1 16; UO 7 15 0 255 8; UO 7 16 0 255 0].
(** bit_packing.go:3749-3781 *)
Definition unpackBits18 : list ust := [
  US 0 0 0 255 10; UO 0 1 0 255 2; UO 0 2 6 255 0; US 1 2 0 63 12; UO 1 3 0 255 4; UO 1 4 4 255 0; US 2 4 0 15 14;
  UO 2 5 0 255 6; UO 2 6 2 255 0; US 3 6 0 3 16; UO 3 7 0 255 8; UO 3 8 0 255 0; US 4 9 0 255 10; UO 4 10 0 255 2;
  UO 4 11 6 255 0; US 5 11 0 63 12; UO 5 12 0 255 4; UO 5 13 4 255 0; US 6 13 0 15 14; UO 6 14 0 255 6;
  UO 6 15 2 255 0; US 7 15 0 3 16; UO 7 16 0 255 8; UO 7 17 0 255 0].
(** bit_packing.go:3783-3817 *)
Definition unpackBits19 : list ust := [
  US 0 0 0 255 11; UO 0 1 0 255 3; UO 0 2 5 255 0; US 1 2 0 31 14; UO 1 3 0 255 6; UO 1 4 2 255 0; US 2 4 0 3 17;
  UO 2 5 0 255 9; UO 2 6 0 255 1; UO 2 7 7 255 0; US 3 7 0 127 12; UO 3 8 0 255 4; UO 3 9 4 255 0; US 4 9 0 15 15;
  UO 4 10 0 255 7; UO 4 11 1 255 0; US 5 11 0 1 18; UO 5 12 0 255 10; UO 5 13 0 255 2; UO 5 14 6 255 0;
  US 6 14 0 63 13; UO 6 15 0 255 5; UO 6 16 3 255 0; US 7 16 0 7 16; UO 7 17 0 255 8; UO 7 18 0 255 0].
(** bit_packing.go:3819-3851 *)
Definition unpackBits20 : list ust := [
  US 0 0 0 255 12; UO 0 1 0 255 4; UO 0 2 4 255 0; US 1 2 0 15 16; UO 1 3 0 255 8; UO 1 4 0 255 0; US 2 5 0 255 12;
  UO 2 6 0 255 4; UO 2 7 4 255 0; US 3 7 0 15 16; UO 3 8 0 255 8; UO 3 9 0 255 0; US 4 10 0 255 12; UO 4 11 0 255 4;
  UO 4 12 4 255 0; US 5 12 0 15 16; UO 5 13 0 255 8; UO 5 14 0 255 0; US 6 15 0 255 12; UO 6 16 0 255 4;
  UO 6 17 4 255 0; US 7 17 0 15 16; UO 7 18 0 255 8; UO 7 19 0 255 0].
(** bit_packing.go:3853-3889 *)
Definition unpackBits21 : list ust := [
  US 0 0 0 255 13; UO 0 1 0 255 5; UO 0 2 3 255 0; US 1 2 0 7 18; UO 1 3 0 255 10; UO 1 4 0 255 2; UO 1 5 6 255 0;
  US 2 5 0 63 15; UO 2 6 0 255 7; UO 2 7 1 255 0; US 3 7 0 1 20; UO 3 8 0 255 12; UO 3 9 0 255 4; UO 3 10 4 255 0;
  US 4 10 0 15 17; UO 4 11 0 255 9; UO 4 12 0 255 1; UO 4 13 7 255 0; US 5 13 0 127 14; UO 5 14 0 255 6;
  UO 5 15 2 255 0; US 6 15 0 3 19; UO 6 16 0 255 11; UO 6 17 0 255 3; UO 6 18 5 255 0; US 7 18 0 31 16;
  UO 7 19 0 255 8; UO 7 20 0 255 0].
(** bit_packing.go:3891-3927 *)
Definition unpackBits22 : list ust := [
  US 0 0 0 255 14; UO 0 1 0 255 6; UO 0 2 2 255 0; US 1 2 0 3 20; UO 1 3 0 255 12; UO 1 4 0 255 4; UO 1 5 4 255 0;
  US 2 5 0 15 18; UO 2 6 0 255 10; UO 2 7 0 255 2; UO 2 8 6 255 0; US 3 8 0 63 16; UO 3 9 0 255 8; UO 3 10 0 255 0;
  US 4 11 0 255 14; UO 4 12 0 255 6; UO 4 13 2 255 0; US 5 13 0 3 20; UO 5 14 0 255 12; UO 5 15 0 255 4;
  UO 5 16 4 255 0; US 6 16 0 15 18; UO 6 17 0 255 10; UO 6 18 0 255 2; UO 6 19 6 255 0; US 7 19 0 63 16;
  UO 7 20 0 255 8; UO 7 21 0 255 0].
(** bit_packing.go:3929-3967 *)
Definition unpackBits23 : list ust := [
  US 0 0 0 255 15; UO 0 1 0 255 7; UO 0 2 1 255 0; US 1 2 0 1 22; UO 1 3 0 255 14; UO 1 4 0 255 6; UO 1 5 2 255 0;
  US 2 5 0 3 21; UO 2 6 0 255 13; UO 2 7 0 255 5; UO 2 8 3 255 0; US 3 8 0 7 20; UO 3 9 0 255 12; UO 3 10 0 255 4;
  UO 3 11 4 255 0; US 4 11 0 15 19; UO 4 12 0 255 11; UO 4 13 0 255 3; UO 4 14 5 255 0; US 5 14 0 31 18;
  UO 5 15 0 255 10; UO 5 16 0 255 2; UO 5 17 6 255 0; US 6 17 0 63 17; UO 6 18 0 255 9; UO 6 19 0 255 1;
  UO 6 20 7 255 0; US 7 20 0 127 16; UO 7 21 0 255 8; UO 7 22 0 255 0].
(** bit_packing.go:3969-3994 *)
Definition unpackBits24 : list ust := [
  US 0 0 0 255 16; UO 0 1 0 255 8; UO 0 2 0 255 0; US 1 3 0 255 16; UO 1 4 0 255 8; UO 1 5 0 255 0; US 2 6 0 255 16;
  UO 2 7 0 255 8; UO 2 8 0 255 0; US 3 9 0 255 16; UO 3 10 0 255 8; UO 3 11 0 255 0; US 4 12 0 255 16; UO 4 13 0 255 8;
  UO 4 14 0 255 0; US 5 15 0 255 16; UO 5 16 0 255 8; UO 5 17 0 255 0; US 6 18 0 255 16; UO 6 19 0 255 8;
  UO 6 20 0 255 0; US 7 21 0 255 16; UO 7 22 0 255 8; UO 7 23 0 255 0].
(** bit_packing.go:3996-4036 *)
Definition unpackBits25 : list ust := [
  US 0 0 0 255 17; UO 0 1 0 255 9; UO 0 2 0 255 1; UO 0 3 7 255 0; US 1 3 0 127 18; UO 1 4 0 255 10; UO 1 5 0 255 2;
  UO 1 6 6 255 0; US 2 6 0 63 19; UO 2 7 0 255 11; UO 2 8 0 255 3; UO 2 9 5 255 0; US 3 9 0 31 20; UO 3 10 0 255 12;
  UO 3 11 0 255 4; UO 3 12 4 255 0; US 4 12 0 15 21; UO 4 13 0 255 13; UO 4 14 0 255 5; UO 4 15 3 255 0;
  US 5 15 0 7 22; UO 5 16 0 255 14; UO 5 17 0 255 6; UO 5 18 2 255 0; US 6 18 0 3 23; UO 6 19 0 255 15;
  UO 6 20 0 255 7; UO 6 21 1 255 0; US 7 21 0 1 24; UO 7 22 0 255 16; UO 7 23 0 255 8; UO 7 24 0 255 0].
(** bit_packing.go:4038-4078 *)
Definition unpackBits26 : list ust := [
  US 0 0 0 255 18; UO 0 1 0 255 10; UO 0 2 0 255 2; UO 0 3 6 255 0; US 1 3 0 63 20; UO 1 4 0 255 12; UO 1 5 0 255 4;
  UO 1 6 4 255 0; US 2 6 0 15 22; UO 2 7 0 255 14; UO 2 8 0 255 6; UO 2 9 2 255 0; US 3 9 0 3 24; UO 3 10 0 255 16;
  UO 3 11 0 255 8; UO 3 12 0 255 0; US 4 13 0 255 18; UO 4 14 0 255 10; UO 4 15 0 255 2; UO 4 16 6 255 0;
  US 5 16 0 63 20; UO 5 17 0 255 12; UO 5 18 0 255 4; UO 5 19 4 255 0; US 6 19 0 15 22; UO 6 20 0 255 14;
  UO 6 21 0 255 6; UO 6 22 2 255 0; US 7 22 0 3 24; UO 7 23 0 255 16; UO 7 24 0 255 8; UO 7 25 0 255 0].
(** bit_packing.go:4080-4122 *)
Definition unpackBits27 : list ust := [
  US 0 0 0 255 19; UO 0 1 0 255 11; UO 0 2 0 255 3; UO 0 3 5 255 0; US 1 3 0 31 22; UO 1 4 0 255 14; UO 1 5 0 255 6;
  UO 1 6 2 255 0; US 2 6 0 3 25; UO 2 7 0 255 17; UO 2 8 0 255 9; UO 2 9 0 255 1; UO 2 10 7 255 0; US 3 10 0 127 20;
  UO 3 11 0 255 12; UO 3 12 0 255 4; UO 3 13 4 255 0; US 4 13 0 15 23; UO 4 14 0 255 15; UO 4 15 0 255 7;
  UO 4 16 1 255 0; US 5 16 0 1 26; UO 5 17 0 255 18; UO 5 18 0 255 10; UO 5 19 0 255 2; UO 5 20 6 255 0;
  US 6 20 0 63 21; UO 6 21 0 255 13; UO 6 22 0 255 5; UO 6 23 3 255 0; US 7 23 0 7 24; UO 7 24 0 255 16;
  UO 7 25 0 255 8; UO 7 26 0 255 0].
(** bit_packing.go:4124-4164 *)
Definition unpackBits28 : list ust := [
  US 0 0 0 255 20; UO 0 1 0 255 12; UO 0 2 0 255 4; UO 0 3 4 255 0; US 1 3 0 15 24; UO 1 4 0 255 16; UO 1 5 0 255 8;
  UO 1 6 0 255 0; US 2 7 0 255 20; UO 2 8 0 255 12; UO 2 9 0 255 4; UO 2 10 4 255 0; US 3 10 0 15 24; UO 3 11 0 255 16;
  UO 3 12 0 255 8; UO 3 13 0 255 0; US 4 14 0 255 20; UO 4 15 0 255 12; UO 4 16 0 255 4; UO 4 17 4 255 0;
  US 5 17 0 15 24; UO 5 18 0 255 16; UO 5 19 0 255 8; UO 5 20 0 255 0; US 6 21 0 255 20; UO 6 22 0 255 12;
  UO 6 23 0 255 4; UO 6 24 4 255 0; US 7 24 0 15 24; UO 7 25 0 255 16; UO 7 26 0 255 8; UO 7 27 0 255 0].
(** bit_packing.go:4166-4210 *)
Definition unpackBits29 : list ust := [
  US 0 0 0 255 21; UO 0 1 0 255 13; UO 0 2 0 255 5; UO 0 3 3 255 0; US 1 3 0 7 26; UO 1 4 0 255 18; UO 1 5 0 255 10;
  UO 1 6 0 255 2; UO 1 7 6 255 0; US 2 7 0 63 23; UO 2 8 0 255 15; UO 2 9 0 255 7; UO 2 10 1 255 0; US 3 10 0 1 28;
  UO 3 11 0 255 20; UO 3 12 0 255 12; UO 3 13 0 255 4; UO 3 14 4 255 0; US 4 14 0 15 25; UO 4 15 0 255 17;
  UO 4 16 0 255 9; UO 4 17 0 255 1; UO 4 18 7 255 0; US 5 18 0 127 22; UO 5 19 0 255 14; UO 5 20 0 255 6;
  UO 5 21 2 255 0; US 6 21 0 3 27; UO 6 22 0 255 19; UO 6 23 0 255 11; UO 6 24 0 255 3; UO 6 25 5 255 0;
  US 7 25 0 31 24; UO 7 26 0 255 16; UO 7 27 0 255 8; UO 7 28 0 255 0].
(** bit_packing.go:4212-4256 *)
Definition unpackBits30 : list ust := [
  US 0 0 0 255 22; UO 0 1 0 255 14; UO 0 2 0 255 6; UO 0 3 2 255 0; US 1 3 0 3 28; UO 1 4 0 255 20; UO 1 5 0 255 12;
  UO 1 6 0 255 4; UO 1 7 4 255 0; US 2 7 0 15 26; UO 2 8 0 255 18; UO 2 9 0 255 10; UO 2 10 0 255 2; UO 2 11 6 255 0;
  US 3 11 0 63 24; UO 3 12 0 255 16; UO 3 13 0 255 8; UO 3 14 0 255 0; US 4 15 0 255 22; UO 4 16 0 255 14;
  UO 4 17 0 255 6; UO 4 18 2 255 0; US 5 18 0 3 28; UO 5 19 0 255 20; UO 5 20 0 255 12; UO 5 21 0 255 4;
  UO 5 22 4 255 0; US 6 22 0 15 26; UO 6 23 0 255 18; UO 6 24 0 255 10; UO 6 25 0 255 2; UO 6 26 6 255 0;
  US 7 26 0 63 24; UO 7 27 0 255 16; UO 7 28 0 255 8; UO 7 29 0 255 0].
(** bit_packing.go:4258-4304 *)
Definition unpackBits31 : list ust := [
  US 0 0 0 255 23; UO 0 1 0 255 15; UO 0 2 0 255 7; UO 0 3 1 255 0; US 1 3 0 1 30; UO 1 4 0 255 22; UO 1 5 0 255 14;
  UO 1 6 0 255 6; UO 1 7 2 255 0; US 2 7 0 3 29; UO 2 8 0 255 21; UO 2 9 0 255 13; UO 2 10 0 255 5; UO 2 11 3 255 0;
  US 3 11 0 7 28; UO 3 12 0 255 20; UO 3 13 0 255 12; UO 3 14 0 255 4; UO 3 15 4 255 0; US 4 15 0 15 27;
  UO 4 16 0 255 19; UO 4 17 0 255 11; UO 4 18 0 255 3; UO 4 19 5 255 0; US 5 19 0 31 26; UO 5 20 0 255 18;
  UO 5 21 0 255 10; UO 5 22 0 255 2; UO 5 23 6 255 0; US 6 23 0 63 25; UO 6 24 0 255 17; UO 6 25 0 255 9;
  UO 6 26 0 255 1; UO 6 27 7 255 0; US 7 27 0 127 24; UO 7 28 0 255 16; UO 7 29 0 255 8; UO 7 30 0 255 0].
(** bit_packing.go:4306-4339 *)
Definition unpackBits32 : list ust := [
  US 0 0 0 255 24; UO 0 1 0 255 16; UO 0 2 0 255 8; UO 0 3 0 255 0; US 1 4 0 255 24; UO 1 5 0 255 16; UO 1 6 0 255 8;
  UO 1 7 0 255 0; US 2 8 0 255 24; UO 2 9 0 255 16; UO 2 10 0 255 8; UO 2 11 0 255 0; US 3 12 0 255 24;
  UO 3 13 0 255 16; UO 3 14 0 255 8; UO 3 15 0 255 0; US 4 16 0 255 24; UO 4 17 0 255 16; UO 4 18 0 255 8;
  UO 4 19 0 255 0; US 5 20 0 255 24; UO 5 21 0 255 16; UO 5 22 0 255 8; UO 5 23 0 255 0; US 6 24 0 255 24;
  UO 6 25 0 255 16; UO 6 26 0 255 8; UO 6 27 0 255 0; US 7 28 0 255 24; UO 7 29 0 255 16; UO 7 30 0 255 8;
  UO 7 31 0 255 0].
(** bit_packing.go:4341-4389 *)
Definition unpackBits33 : list ust := [
  US 0 0 0 255 25; UO 0 1 0 255 17; UO 0 2 0 255 9; UO 0 3 0 255 1; UO 0 4 7 255 0; US 1 4 0 127 26; UO 1 5 0 255 18;
  UO 1 6 0 255 10; UO 1 7 0 255 2; UO 1 8 6 255 0; US 2 8 0 63 27; UO 2 9 0 255 19; UO 2 10 0 255 11; UO 2 11 0 255 3;
  UO 2 12 5 255 0; US 3 12 0 31 28; UO 3 13 0 255 20; UO 3 14 0 255 12; UO 3 15 0 255 4; UO 3 16 4 255 0;
  US 4 16 0 15 29; UO 4 17 0 255 21; UO 4 18 0 255 13; UO 4 19 0 255 5; UO 4 20 3 255 0; US 5 20 0 7 30;
  UO 5 21 0 255 22; UO 5 22 0 255 14; UO 5 23 0 255 6; UO 5 24 2 255 0; US 6 24 0 3 31; UO 6 25 0 255 23;
  UO 6 26 0 255 15; UO 6 27 0 255 7; UO 6 28 1 255 0; US 7 28 0 1 32; UO 7 29 0 255 24; UO 7 30 0 255 16;
  UO 7 31 0 255 8; UO 7 32 0 255 0].
(** bit_packing.go:4391-4439 *)
Definition unpackBits34 : list ust := [
  US 0 0 0 255 26; UO 0 1 0 255 18; UO 0 2 0 255 10; UO 0 3 0 255 2; UO 0 4 6 255 0; US 1 4 0 63 28; UO 1 5 0 255 20;
  UO 1 6 0 255 12; UO 1 7 0 255 4; UO 1 8 4 255 0; US 2 8 0 15 30; UO 2 9 0 255 22; UO 2 10 0 255 14; UO 2 11 0 255 6;
  UO 2 12 2 255 0; US 3 12 0 3 32; UO 3 13 0 255 24; UO 3 14 0 255 16; UO 3 15 0 255 8; UO 3 16 0 255 0;
  US 4 17 0 255 26; UO 4 18 0 255 18; UO 4 19 0 255 10; UO 4 20 0 255 2; UO 4 21 6 255 0; US 5 21 0 63 28;
  UO 5 22 0 255 20; UO 5 23 0 255 12; UO 5 24 0 255 4; UO 5 25 4 255 0; US 6 25 0 15 30; UO 6 26 0 255 22;
  UO 6 27 0 255 14; UO 6 28 0 255 6; UO 6 29 2 255 0; US 7 29 0 3 32; UO 7 30 0 255 24; UO 7 31 0 255 16;
  UO 7 32 0 255 8; UO 7 33 0 255 0].
(** bit_packing.go:4441-4491 *)
Definition unpackBits35 : list ust := [
  US 0 0 0 255 27; UO 0 1 0 255 19; UO 0 2 0 255 11; UO 0 3 0 255 3; UO 0 4 5 255 0; US 1 4 0 31 30; UO 1 5 0 255 22;
  UO 1 6 0 255 14; UO 1 7 0 255 6; UO 1 8 2 255 0; US 2 8 0 3 33; UO 2 9 0 255 25; UO 2 10 0 255 17; UO 2 11 0 255 9;
  UO 2 12 0 255 1; UO 2 13 7 255 0; US 3 13 0 127 28; UO 3 14 0 255 20; UO 3 15 0 255 12; UO 3 16 0 255 4;
  UO 3 17 4 255 0; US 4 17 0 15 31; UO 4 18 0 255 23; UO 4 19 0 255 15; UO 4 20 0 255 7; UO 4 21 1 255 0;
  US 5 21 0 1 34; UO 5 22 0 255 26; UO 5 23 0 255 18; UO 5 24 0 255 10; UO 5 25 0 255 2; UO 5 26 6 255 0;
  US 6 26 0 63 29; UO 6 27 0 255 21; UO 6 28 0 255 13; UO 6 29 0 255 5; UO 6 30 3 255 0; US 7 30 0 7 32;
  UO 7 31 0 255 24; UO 7 32 0 255 16; UO 7 33 0 255 8; UO 7 34 0 255 0].
(** bit_packing.go:4493-4541 *)
Definition unpackBits36 : list ust := [
  US 0 0 0 255 28; UO 0 1 0 255 20; UO 0 2 0 255 12; UO 0 3 0 255 4; UO 0 4 4 255 0; US 1 4 0 15 32; UO 1 5 0 255 24;
  UO 1 6 0 255 16; UO 1 7 0 255 8; UO 1 8 0 255 0; US 2 9 0 255 28; UO 2 10 0 255 20; UO 2 11 0 255 12;
  UO 2 12 0 255 4; UO 2 13 4 255 0; US 3 13 0 15 32; UO 3 14 0 255 24; UO 3 15 0 255 16; UO 3 16 0 255 8;
  UO 3 17 0 255 0; US 4 18 0 255 28; UO 4 19 0 255 20; UO 4 20 0 255 12; UO 4 21 0 255 4; UO 4 22 4 255 0;
  US 5 22 0 15 32; UO 5 23 0 255 24; UO 5 24 0 255 16; UO 5 25 0 255 8; UO 5 26 0 255 0; US 6 27 0 255 28;
  UO 6 28 0 255 20; UO 6 29 0 255 12; UO 6 30 0 255 4; UO 6 31 4 255 0; US 7 31 0 15 32; UO 7 32 0 255 24;
  UO 7 33 0 255 16; UO 7 34 0 255 8; UO 7 35 0 255 0].
(** bit_packing.go:4543-4595 *)
Definition unpackBits37 : list ust := [
  US 0 0 0 255 29; UO 0 1 0 255 21; UO 0 2 0 255 13; UO 0 3 0 255 5; UO 0 4 3 255 0; US 1 4 0 7 34; UO 1 5 0 255 26;
  UO 1 6 0 255 18; UO 1 7 0 255 10; UO 1 8 0 255 2; UO 1 9 6 255 0; US 2 9 0 63 31; UO 2 10 0 255 23; UO 2 11 0 255 15;
  UO 2 12 0 255 7; UO 2 13 1 255 0; US 3 13 0 1 36; UO 3 14 0 255 28; UO 3 15 0 255 20; UO 3 16 0 255 12;
  UO 3 17 0 255 4; UO 3 18 4 255 0; US 4 18 0 15 33; UO 4 19 0 255 25; UO 4 20 0 255 17; UO 4 21 0 255 9;
  UO 4 22 0 255 1; UO 4 23 7 255 0; US 5 23 0 127 30; UO 5 24 0 255 22; UO 5 25 0 255 14; UO 5 26 0 255 6;
  UO 5 27 2 255 0; US 6 27 0 3 35; UO 6 28 0 255 27; UO 6 29 0 255 19; UO 6 30 0 255 11; UO 6 31 0 255 3;
  UO 6 32 5 255 0; US 7 32 0 31 32; UO 7 33 0 255 24; UO 7 34 0 255 16; UO 7 35 0 255 8; UO 7 36 0 255 0].
(** bit_packing.go:4597-4649 *)
Definition unpackBits38 : list ust := [
  US 0 0 0 255 30; UO 0 1 0 255 22; UO 0 2 0 255 14; UO 0 3 0 255 6; UO 0 4 2 255 0; US 1 4 0 3 36; UO 1 5 0 255 28;
  UO 1 6 0 255 20; UO 1 7 0 255 12; UO 1 8 0 255 4; UO 1 9 4 255 0; US 2 9 0 15 34; UO 2 10 0 255 26; UO 2 11 0 255 18;
  UO 2 12 0 255 10; UO 2 13 0 255 2; UO 2 14 6 255 0; US 3 14 0 63 32; UO 3 15 0 255 24; UO 3 16 0 255 16;
  UO 3 17 0 255 8; UO 3 18 0 255 0; US 4 19 0 255 30; UO 4 20 0 255 22; UO 4 21 0 255 14; UO 4 22 0 255 6;
  UO 4 23 2 255 0; US 5 23 0 3 36; UO 5 24 0 255 28; UO 5 25 0 255 20; UO 5 26 0 255 12; UO 5 27 0 255 4;
  UO 5 28 4 255 0; US 6 28 0 15 34; UO 6 29 0 255 26; UO 6 30 0 255 18; UO 6 31 0 255 10; UO 6 32 0 255 2;
  UO 6 33 6 255 0; US 7 33 0 63 32; UO 7 34 0 255 24; UO 7 35 0 255 16; UO 7 36 0 255 8; UO 7 37 0 255 0].
(** bit_packing.go:4651-4705 *)
Definition unpackBits39 : list ust := [
  US 0 0 0 255 31; UO 0 1 0 255 23; UO 0 2 0 255 15; UO 0 3 0 255 7; UO 0 4 1 255 0; US 1 4 0 1 38; UO 1 5 0 255 30;
  UO 1 6 0 255 22; UO 1 7 0 255 14; UO 1 8 0 255 6; UO 1 9 2 255 0; US 2 9 0 3 37; UO 2 10 0 255 29; UO 2 11 0 255 21;
  UO 2 12 0 255 13; UO 2 13 0 255 5; UO 2 14 3 255 0; US 3 14 0 7 36; UO 3 15 0 255 28; UO 3 16 0 255 20;
  UO 3 17 0 255 12; UO 3 18 0 255 4; UO 3 19 4 255 0; US 4 19 0 15 35; UO 4 20 0 255 27; UO 4 21 0 255 19;
  UO 4 22 0 255 11; UO 4 23 0 255 3; UO 4 24 5 255 0; US 5 24 0 31 34; UO 5 25 0 255 26; UO 5 26 0 255 18;
  UO 5 27 0 255 10; UO 5 28 0 255 2; UO 5 29 6 255 0; US 6 29 0 63 33; UO 6 30 0 255 25; UO 6 31 0 255 17;
  UO 6 32 0 255 9; UO 6 33 0 255 1; UO 6 34 7 255 0; US 7 34 0 127 32; UO 7 35 0 255 24; UO 7 36 0 255 16;
  UO 7 37 0 255 8; UO 7 38 0 255 0].
(** bit_packing.go:4707-4748 *)
Definition unpackBits40 : list ust := [
  US 0 0 0 255 32; UO 0 1 0 255 24; UO 0 2 0 255 16; UO 0 3 0 255 8; UO 0 4 0 255 0; US 1 5 0 255 32; UO 1 6 0 255 24;
  UO 1 7 0 255 16; UO 1 8 0 255 8; UO 1 9 0 255 0; US 2 10 0 255 32; UO 2 11 0 255 24; UO 2 12 0 255 16;
  UO 2 13 0 255 8; UO 2 14 0 255 0; US 3 15 0 255 32; UO 3 16 0 255 24; UO 3 17 0 255 16; UO 3 18 0 255 8;
  UO 3 19 0 255 0; US 4 20 0 255 32; UO 4 21 0 255 24; UO 4 22 0 255 16; UO 4 23 0 255 8; UO 4 24 0 255 0;
  US 5 25 0 255 32; UO 5 26 0 255 24; UO 5 27 0 255 16; UO 5 28 0 255 8; UO 5 29 0 255 0; US 6 30 0 255 32;
  UO 6 31 0 255 24; UO 6 32 0 255 16; UO 6 33 0 255 8; UO 6 34 0 255 0; US 7 35 0 255 32; UO 7 36 0 255 24;
  UO 7 37 0 255 16; UO 7 38 0 255 8; UO 7 39 0 255 0].
(** bit_packing.go:4750-4806 *)
Definition unpackBits41 : list ust := [
  US 0 0 0 255 33; UO 0 1 0 255 25; UO 0 2 0 255 17; UO 0 3 0 255 9; UO 0 4 0 255 1; UO 0 5 7 255 0; US 1 5 0 127 34;
  UO 1 6 0 255 26; UO 1 7 0 255 18; UO 1 8 0 255 10; UO 1 9 0 255 2; UO 1 10 6 255 0; US 2 10 0 63 35;
  UO 2 11 0 255 27; UO 2 12 0 255 19; UO 2 13 0 255 11; UO 2 14 0 255 3; UO 2 15 5 255 0; US 3 15 0 31 36;
  UO 3 16 0 255 28; UO 3 17 0 255 20; UO 3 18 0 255 12; UO 3 19 0 255 4; UO 3 20 4 255 0; US 4 20 0 15 37;
  UO 4 21 0 255 29; UO 4 22 0 255 21; UO 4 23 0 255 13; UO 4 24 0 255 5; UO 4 25 3 255 0; US 5 25 0 7 38;
  UO 5 26 0 255 30; UO 5 27 0 255 22; UO 5 28 0 255 14; UO 5 29 0 255 6; UO 5 30 2 255 0; US 6 30 0 3 39;
  UO 6 31 0 255 31; UO 6 32 0 255 23; UO 6 33 0 255 15; UO 6 34 0 255 7; UO 6 35 1 255 0; US 7 35 0 1 40;
  UO 7 36 0 255 32; UO 7 37 0 255 24; UO 7 38 0 255 16; UO 7 39 0 255 8; UO 7 40 0 255 0].
(** bit_packing.go:4808-4864 *)
Definition unpackBits42 : list ust := [
  US 0 0 0 255 34; UO 0 1 0 255 26; UO 0 2 0 255 18; UO 0 3 0 255 10; UO 0 4 0 255 2; UO 0 5 6 255 0; US 1 5 0 63 36;
  UO 1 6 0 255 28; UO 1 7 0 255 20; UO 1 8 0 255 12; UO 1 9 0 255 4; UO 1 10 4 255 0; US 2 10 0 15 38;
  UO 2 11 0 255 30; UO 2 12 0 255 22; UO 2 13 0 255 14; UO 2 14 0 255 6; UO 2 15 2 255 0; US 3 15 0 3 40;
  UO 3 16 0 255 32; UO 3 17 0 255 24; UO 3 18 0 255 16; UO 3 19 0 255 8; UO 3 20 0 255 0; US 4 21 0 255 34;
  UO 4 22 0 255 26; UO 4 23 0 255 18; UO 4 24 0 255 10; UO 4 25 0 255 2; UO 4 26 6 255 0; US 5 26 0 63 36;
  UO 5 27 0 255 28; UO 5 28 0 255 20; UO 5 29 0 255 12; UO 5 30 0 255 4; UO 5 31 4 255 0; US 6 31 0 15 38;
  UO 6 32 0 255 30; UO 6 33 0 255 22; UO 6 34 0 255 14; UO 6 35 0 255 6; UO 6 36 2 255 0; US 7 36 0 3 40;
  UO 7 37 0 255 32; UO 7 38 0 255 24; UO 7 39 0 255 16; UO 7 40 0 255 8; UO 7 41 0 255 0].
(** bit_packing.go:4866-4924 *)
Definition unpackBits43 : list ust := [
  US 0 0 0 255 35; UO 0 1 0 255 27; UO 0 2 0 255 19; UO 0 3 0 255 11; UO 0 4 0 255 3; UO 0 5 5 255 0; US 1 5 0 31 38;
  UO 1 6 0 255 30; UO 1 7 0 255 22; UO 1 8 0 255 14; UO 1 9 0 255 6; UO 1 10 2 255 0; US 2 10 0 3 41; UO 2 11 0 255 33;
  UO 2 12 0 255 25; UO 2 13 0 255 17; UO 2 14 0 255 9; UO 2 15 0 255 1; UO 2 16 7 255 0; US 3 16 0 127 36;
  UO 3 17 0 255 28; UO 3 18 0 255 20; UO 3 19 0 255 12; UO 3 20 0 255 4; UO 3 21 4 255 0; US 4 21 0 15 39;
  UO 4 22 0 255 31; UO 4 23 0 255 23; UO 4 24 0 255 15; UO 4 25 0 255 7; UO 4 26 1 255 0; US 5 26 0 1 42;
  UO 5 27 0 255 34; UO 5 28 0 255 26; UO 5 29 0 255 18; UO 5 30 0 255 10; UO 5 31 0 255 2; UO 5 32 6 255 0;
  US 6 32 0 63 37; UO 6 33 0 255 29; UO 6 34 0 255 21; UO 6 35 0 255 13; UO 6 36 0 255 5; UO 6 37 3 255 0;
  US 7 37 0 7 40; UO 7 38 0 255 32; UO 7 39 0 255 24; UO 7 40 0 255 16; UO 7 41 0 255 8; UO 7 42 0 255 0].
(** bit_packing.go:4926-4982 *)
Definition unpackBits44 : list ust := [
  US 0 0 0 255 36; UO 0 1 0 255 28; UO 0 2 0 255 20; UO 0 3 0 255 12; UO 0 4 0 255 4; UO 0 5 4 255 0; US 1 5 0 15 40;
  UO 1 6 0 255 32; UO 1 7 0 255 24; UO 1 8 0 255 16; UO 1 9 0 255 8; UO 1 10 0 255 0; US 2 11 0 255 36;
  UO 2 12 0 255 28; UO 2 13 0 255 20; UO 2 14 0 255 12; UO 2 15 0 255 4; UO 2 16 4 255 0; US 3 16 0 15 40;
  UO 3 17 0 255 32; UO 3 18 0 255 24; UO 3 19 0 255 16; UO 3 20 0 255 8; UO 3 21 0 255 0; US 4 22 0 255 36;
  UO 4 23 0 255 28; UO 4 24 0 255 20; UO 4 25 0 255 12; UO 4 26 0 255 4; UO 4 27 4 255 0; US 5 27 0 15 40;
  UO 5 28 0 255 32; UO 5 29 0 255 24; UO 5 30 0 255 16; UO 5 31 0 255 8; UO 5 32 0 255 0; US 6 33 0 255 36;
  UO 6 34 0 255 28; UO 6 35 0 255 20; UO 6 36 0 255 12; UO 6 37 0 255 4; UO 6 38 4 255 0; US 7 38 0 15 40;
  UO 7 39 0 255 32; UO 7 40 0 255 24; UO 7 41 0 255 16; UO 7 42 0 255 8; UO 7 43 0 255 0].
(** bit_packing.go:4984-5044 *)
Definition unpackBits45 : list ust := [
  US 0 0 0 255 37; UO 0 1 0 255 29; UO 0 2 0 255 21; UO 0 3 0 255 13; UO 0 4 0 255 5; UO 0 5 3 255 0; US 1 5 0 7 42;
  UO 1 6 0 255 34; UO 1 7 0 255 26; UO 1 8 0 255 18; UO 1 9 0 255 10; UO 1 10 0 255 2; UO 1 11 6 255 0;
  US 2 11 0 63 39; UO 2 12 0 255 31; UO 2 13 0 255 23; UO 2 14 0 255 15; UO 2 15 0 255 7; UO 2 16 1 255 0;
  US 3 16 0 1 44; UO 3 17 0 255 36; UO 3 18 0 255 28; UO 3 19 0 255 20; UO 3 20 0 255 12; UO 3 21 0 255 4;
  UO 3 22 4 255 0; US 4 22 0 15 41; UO 4 23 0 255 33; UO 4 24 0 255 25; UO 4 25 0 255 17; UO 4 26 0 255 9;
  UO 4 27 0 255 1; UO 4 28 7 255 0; US 5 28 0 127 38; UO 5 29 0 255 30; UO 5 30 0 255 22; UO 5 31 0 255 14;
  UO 5 32 0 255 6; UO 5 33 2 255 0; US 6 33 0 3 43; UO 6 34 0 255 35; UO 6 35 0 255 27; UO 6 36 0 255 19;
  UO 6 37 0 255 11; UO 6 38 0 255 3; UO 6 39 5 255 0; US 7 39 0 31 40; UO 7 40 0 255 32; UO 7 41 0 255 24;
  UO 7 42 0 255 16; UO 7 43 0 255 8; UO 7 44 0 255 0].
(** bit_packing.go:5046-5106 *)
Definition unpackBits46 : list ust := [
  US 0 0 0 255 38; UO 0 1 0 255 30; UO 0 2 0 255 22; UO 0 3 0 255 14; UO 0 4 0 255 6; UO 0 5 2 255 0; US 1 5 0 3 44;
  UO 1 6 0 255 36; UO 1 7 0 255 28; UO 1 8 0 255 20; UO 1 9 0 255 12; UO 1 10 0 255 4; UO 1 11 4 255 0;
  US 2 11 0 15 42; UO 2 12 0 255 34; UO 2 13 0 255 26; UO 2 14 0 255 18; UO 2 15 0 255 10; UO 2 16 0 255 2;
  UO 2 17 6 255 0; US 3 17 0 63 40; UO 3 18 0 255 32; UO 3 19 0 255 24; UO 3 20 0 255 16; UO 3 21 0 255 8;
  UO 3 22 0 255 0; US 4 23 0 255 38; UO 4 24 0 255 30; UO 4 25 0 255 22; UO 4 26 0 255 14; UO 4 27 0 255 6;
  UO 4 28 2 255 0; US 5 28 0 3 44; UO 5 29 0 255 36; UO 5 30 0 255 28; UO 5 31 0 255 20; UO 5 32 0 255 12;
  UO 5 33 0 255 4; UO 5 34 4 255 0; US 6 34 0 15 42; UO 6 35 0 255 34; UO 6 36 0 255 26; UO 6 37 0 255 18;
  UO 6 38 0 255 10; UO 6 39 0 255 2; UO 6 40 6 255 0; US 7 40 0 63 40; UO 7 41 0 255 32; UO 7 42 0 255 24;
  UO 7 43 0 255 16; UO 7 44 0 255 8; UO 7 45 0 255 0].
(** bit_packing.go:5108-5170 *)
Definition unpackBits47 : list ust := [
  US 0 0 0 255 39; UO 0 1 0 255 31; UO 0 2 0 255 23; UO 0 3 0 255 15; UO 0 4 0 255 7; UO 0 5 1 255 0; US 1 5 0 1 46;
  UO 1 6 0 255 38; UO 1 7 0 255 30; UO 1 8 0 255 22; UO 1 9 0 255 14; UO 1 10 0 255 6; UO 1 11 2 255 0; US 2 11 0 3 45;
  UO 2 12 0 255 37; UO 2 13 0 255 29; UO 2 14 0 255 21; UO 2 15 0 255 13; UO 2 16 0 255 5; UO 2 17 3 255 0;
  US 3 17 0 7 44; UO 3 18 0 255 36; UO 3 19 0 255 28; UO 3 20 0 255 20; UO 3 21 0 255 12; UO 3 22 0 255 4;
  UO 3 23 4 255 0; US 4 23 0 15 43; UO 4 24 0 255 35; UO 4 25 0 255 27; UO 4 26 0 255 19; UO 4 27 0 255 11;
  UO 4 28 0 255 3; UO 4 29 5 255 0; US 5 29 0 31 42; UO 5 30 0 255 34; UO 5 31 0 255 26; UO 5 32 0 255 18;
  UO 5 33 0 255 10; UO 5 34 0 255 2; UO 5 35 6 255 0; US 6 35 0 63 41; UO 6 36 0 255 33; UO 6 37 0 255 25;
  UO 6 38 0 255 17; UO 6 39 0 255 9; UO 6 40 0 255 1; UO 6 41 7 255 0; US 7 41 0 127 40; UO 7 42 0 255 32;
  UO 7 43 0 255 24; UO 7 44 0 255 16; UO 7 45 0 255 8; UO 7 46 0 255 0].
(** bit_packing.go:5172-5221 *)
Definition unpackBits48 : list ust := [
  US 0 0 0 255 40; UO 0 1 0 255 32; UO 0 2 0 255 24; UO 0 3 0 255 16; UO 0 4 0 255 8; UO 0 5 0 255 0; US 1 6 0 255 40;
  UO 1 7 0 255 32; UO 1 8 0 255 24; UO 1 9 0 255 16; UO 1 10 0 255 8; UO 1 11 0 255 0; US 2 12 0 255 40;
  UO 2 13 0 255 32; UO 2 14 0 255 24; UO 2 15 0 255 16; UO 2 16 0 255 8; UO 2 17 0 255 0; US 3 18 0 255 40;
  UO 3 19 0 255 32; UO 3 20 0 255 24; UO 3 21 0 255 16; UO 3 22 0 255 8; UO 3 23 0 255 0; US 4 24 0 255 40;
  UO 4 25 0 255 32; UO 4 26 0 255 24; UO 4 27 0 255 16; UO 4 28 0 255 8; UO 4 29 0 255 0; US 5 30 0 255 40;
  UO 5 31 0 255 32; UO 5 32 0 255 24; UO 5 33 0 255 16; UO 5 34 0 255 8; UO 5 35 0 255 0; US 6 36 0 255 40;
  UO 6 37 0 255 32; UO 6 38 0 255 24; UO 6 39 0 255 16; UO 6 40 0 255 8; UO 6 41 0 255 0; US 7 42 0 255 40;
  UO 7 43 0 255 32; UO 7 44 0 255 24; UO 7 45 0 255 16; UO 7 46 0 255 8; UO 7 47 0 255 0].
(** bit_packing.go:5223-5287 *)
Definition unpackBits49 : list ust := [
  US 0 0 0 255 41; UO 0 1 0 255 33; UO 0 2 0 255 25; UO 0 3 0 255 17; UO 0 4 0 255 9; UO 0 5 0 255 1; UO 0 6 7 255 0;
  US 1 6 0 127 42; UO 1 7 0 255 34; UO 1 8 0 255 26; UO 1 9 0 255 18; UO 1 10 0 255 10; UO 1 11 0 255 2;
  UO 1 12 6 255 0; US 2 12 0 63 43; UO 2 13 0 255 35; UO 2 14 0 255 27; UO 2 15 0 255 19; UO 2 16 0 255 11;
  UO 2 17 0 255 3; UO 2 18 5 255 0; US 3 18 0 31 44; UO 3 19 0 255 36; UO 3 20 0 255 28; UO 3 21 0 255 20;
  UO 3 22 0 255 12; UO 3 23 0 255 4; UO 3 24 4 255 0; US 4 24 0 15 45; UO 4 25 0 255 37; UO 4 26 0 255 29;
  UO 4 27 0 255 21; UO 4 28 0 255 13; UO 4 29 0 255 5; UO 4 30 3 255 0; US 5 30 0 7 46; UO 5 31 0 255 38;
  UO 5 32 0 255 30; UO 5 33 0 255 22; UO 5 34 0 255 14; UO 5 35 0 255 6; UO 5 36 2 255 0; US 6 36 0 3 47;
  UO 6 37 0 255 39; UO 6 38 0 255 31; UO 6 39 0 255 23; UO 6 40 0 255 15; UO 6 41 0 255 7; UO 6 42 1 255 0;
  US 7 42 0 1 48; UO 7 43 0 255 40; UO 7 44 0 255 32; UO 7 45 0 255 24; UO 7 46 0 255 16; UO 7 47 0 255 8;
  UO 7 48 0 255 0].
(** bit_packing.go:5289-5353 *)
Definition unpackBits50 : list ust := [
  US 0 0 0 255 42; UO 0 1 0 255 34; UO 0 2 0 255 26; UO 0 3 0 255 18; UO 0 4 0 255 10; UO 0 5 0 255 2; UO 0 6 6 255 0;
  US 1 6 0 63 44; UO 1 7 0 255 36; UO 1 8 0 255 28; UO 1 9 0 255 20; UO 1 10 0 255 12; UO 1 11 0 255 4;
  UO 1 12 4 255 0; US 2 12 0 15 46; UO 2 13 0 255 38; UO 2 14 0 255 30; UO 2 15 0 255 22; UO 2 16 0 255 14;
  UO 2 17 0 255 6; UO 2 18 2 255 0; US 3 18 0 3 48; UO 3 19 0 255 40; UO 3 20 0 255 32; UO 3 21 0 255 24;
  UO 3 22 0 255 16; UO 3 23 0 255 8; UO 3 24 0 255 0; US 4 25 0 255 42; UO 4 26 0 255 34; UO 4 27 0 255 26;
  UO 4 28 0 255 18; UO 4 29 0 255 10; UO 4 30 0 255 2; UO 4 31 6 255 0; US 5 31 0 63 44; UO 5 32 0 255 36;
  UO 5 33 0 255 28; UO 5 34 0 255 20; UO 5 35 0 255 12; UO 5 36 0 255 4; UO 5 37 4 255 0; US 6 37 0 15 46;
  UO 6 38 0 255 38; UO 6 39 0 255 30; UO 6 40 0 255 22; UO 6 41 0 255 14; UO 6 42 0 255 6; UO 6 43 2 255 0;
  US 7 43 0 3 48; UO 7 44 0 255 40; UO 7 45 0 255 32; UO 7 46 0 255 24; UO 7 47 0 255 16; UO 7 48 0 255 8;
  UO 7 49 0 255 0].
(** bit_packing.go:5355-5421 *)
Definition unpackBits51 : list ust := [
  US 0 0 0 255 43; UO 0 1 0 255 35; UO 0 2 0 255 27; UO 0 3 0 255 19; UO 0 4 0 255 11; UO 0 5 0 255 3; UO 0 6 5 255 0;
  US 1 6 0 31 46; UO 1 7 0 255 38; UO 1 8 0 255 30; UO 1 9 0 255 22; UO 1 10 0 255 14; UO 1 11 0 255 6;
  UO 1 12 2 255 0; US 2 12 0 3 49; UO 2 13 0 255 41; UO 2 14 0 255 33; UO 2 15 0 255 25; UO 2 16 0 255 17;
  UO 2 17 0 255 9; UO 2 18 0 255 1; UO 2 19 7 255 0; US 3 19 0 127 44; UO 3 20 0 255 36; UO 3 21 0 255 28;
  UO 3 22 0 255 20; UO 3 23 0 255 12; UO 3 24 0 255 4; UO 3 25 4 255 0; US 4 25 0 15 47; UO 4 26 0 255 39;
  UO 4 27 0 255 31; UO 4 28 0 255 23; UO 4 29 0 255 15; UO 4 30 0 255 7; UO 4 31 1 255 0; US 5 31 0 1 50;
  UO 5 32 0 255 42; UO 5 33 0 255 34; UO 5 34 0 255 26; UO 5 35 0 255 18; UO 5 36 0 255 10; UO 5 37 0 255 2;
  UO 5 38 6 255 0; US 6 38 0 63 45; UO 6 39 0 255 37; UO 6 40 0 255 29; UO 6 41 0 255 21; UO 6 42 0 255 13;
  UO 6 43 0 255 5; UO 6 44 3 255 0; US 7 44 0 7 48; UO 7 45 0 255 40; UO 7 46 0 255 32; UO 7 47 0 255 24;
  UO 7 48 0 255 16; UO 7 49 0 255 8; UO 7 50 0 255 0].
(** bit_packing.go:5423-5487 *)
Definition unpackBits52 : list ust := [
  US 0 0 0 255 44; UO 0 1 0 255 36; UO 0 2 0 255 28; UO 0 3 0 255 20; UO 0 4 0 255 12; UO 0 5 0 255 4; UO 0 6 4 255 0;
  US 1 6 0 15 48; UO 1 7 0 255 40; UO 1 8 0 255 32; UO 1 9 0 255 24; UO 1 10 0 255 16; UO 1 11 0 255 8;
  UO 1 12 0 255 0; US 2 13 0 255 44; UO 2 14 0 255 36; UO 2 15 0 255 28; UO 2 16 0 255 20; UO 2 17 0 255 12;
  UO 2 18 0 255 4; UO 2 19 4 255 0; US 3 19 0 15 48; UO 3 20 0 255 40; UO 3 21 0 255 32; UO 3 22 0 255 24;
  UO 3 23 0 255 16; UO 3 24 0 255 8; UO 3 25 0 255 0; US 4 26 0 255 44; UO 4 27 0 255 36; UO 4 28 0 255 28;
  UO 4 29 0 255 20; UO 4 30 0 255 12; UO 4 31 0 255 4; UO 4 32 4 255 0; US 5 32 0 15 48; UO 5 33 0 255 40;
  UO 5 34 0 255 32; UO 5 35 0 255 24; UO 5 36 0 255 16; UO 5 37 0 255 8; UO 5 38 0 255 0; US 6 39 0 255 44;
  UO 6 40 0 255 36; UO 6 41 0 255 28; UO 6 42 0 255 20; UO 6 43 0 255 12; UO 6 44 0 255 4; UO 6 45 4 255 0;
  US 7 45 0 15 48; UO 7 46 0 255 40; UO 7 47 0 255 32; UO 7 48 0 255 24; UO 7 49 0 255 16; UO 7 50 0 255 8;
  UO 7 51 0 255 0].
(** bit_packing.go:5489-5557 *)
Definition unpackBits53 : list ust := [
  US 0 0 0 255 45; UO 0 1 0 255 37; UO 0 2 0 255 29; UO 0 3 0 255 21; UO 0 4 0 255 13; UO 0 5 0 255 5; UO 0 6 3 255 0;
  US 1 6 0 7 50; UO 1 7 0 255 42; UO 1 8 0 255 34; UO 1 9 0 255 26; UO 1 10 0 255 18; UO 1 11 0 255 10;
  UO 1 12 0 255 2; UO 1 13 6 255 0; US 2 13 0 63 47; UO 2 14 0 255 39; UO 2 15 0 255 31; UO 2 16 0 255 23;
  UO 2 17 0 255 15; UO 2 18 0 255 7; UO 2 19 1 255 0; US 3 19 0 1 52; UO 3 20 0 255 44; UO 3 21 0 255 36;
  UO 3 22 0 255 28; UO 3 23 0 255 20; UO 3 24 0 255 12; UO 3 25 0 255 4; UO 3 26 4 255 0; US 4 26 0 15 49;
  UO 4 27 0 255 41; UO 4 28 0 255 33; UO 4 29 0 255 25; UO 4 30 0 255 17; UO 4 31 0 255 9; UO 4 32 0 255 1;
  UO 4 33 7 255 0; US 5 33 0 127 46; UO 5 34 0 255 38; UO 5 35 0 255 30; UO 5 36 0 255 22; UO 5 37 0 255 14;
  UO 5 38 0 255 6; UO 5 39 2 255 0; US 6 39 0 3 51; UO 6 40 0 255 43; UO 6 41 0 255 35; UO 6 42 0 255 27;
  UO 6 43 0 255 19; UO 6 44 0 255 11; UO 6 45 0 255 3; UO 6 46 5 255 0; US 7 46 0 31 48; UO 7 47 0 255 40;
  UO 7 48 0 255 32; UO 7 49 0 255 24; UO 7 50 0 255 16; UO 7 51 0 255 8; UO 7 52 0 255 0].
(** bit_packing.go:5559-5627 *)
Definition unpackBits54 : list ust := [
  US 0 0 0 255 46; UO 0 1 0 255 38; UO 0 2 0 255 30; UO 0 3 0 255 22; UO 0 4 0 255 14; UO 0 5 0 255 6; UO 0 6 2 255 0;
  US 1 6 0 3 52; UO 1 7 0 255 44; UO 1 8 0 255 36; UO 1 9 0 255 28; UO 1 10 0 255 20; UO 1 11 0 255 12;
  UO 1 12 0 255 4; UO 1 13 4 255 0; US 2 13 0 15 50; UO 2 14 0 255 42; UO 2 15 0 255 34; UO 2 16 0 255 26;
  UO 2 17 0 255 18; UO 2 18 0 255 10; UO 2 19 0 255 2; UO 2 20 6 255 0; US 3 20 0 63 48; UO 3 21 0 255 40;
  UO 3 22 0 255 32; UO 3 23 0 255 24; UO 3 24 0 255 16; UO 3 25 0 255 8; UO 3 26 0 255 0; US 4 27 0 255 46;
  UO 4 28 0 255 38; UO 4 29 0 255 30; UO 4 30 0 255 22; UO 4 31 0 255 14; UO 4 32 0 255 6; UO 4 33 2 255 0;
  US 5 33 0 3 52; UO 5 34 0 255 44; UO 5 35 0 255 36; UO 5 36 0 255 28; UO 5 37 0 255 20; UO 5 38 0 255 12;
  UO 5 39 0 255 4; UO 5 40 4 255 0; US 6 40 0 15 50; UO 6 41 0 255 42; UO 6 42 0 255 34; UO 6 43 0 255 26;
  UO 6 44 0 255 18; UO 6 45 0 255 10; UO 6 46 0 255 2; UO 6 47 6 255 0; US 7 47 0 63 48; UO 7 48 0 255 40;
  UO 7 49 0 255 32; UO 7 50 0 255 24; UO 7 51 0 255 16; UO 7 52 0 255 8; UO 7 53 0 255 0].
(** bit_packing.go:5629-5699 *)
Definition unpackBits55 : list ust := [
  US 0 0 0 255 47; UO 0 1 0 255 39; UO 0 2 0 255 31; UO 0 3 0 255 23; UO 0 4 0 255 15; UO 0 5 0 255 7; UO 0 6 1 255 0;
  US 1 6 0 1 54; UO 1 7 0 255 46; UO 1 8 0 255 38; UO 1 9 0 255 30; UO 1 10 0 255 22; UO 1 11 0 255 14;
  UO 1 12 0 255 6; UO 1 13 2 255 0; US 2 13 0 3 53; UO 2 14 0 255 45; UO 2 15 0 255 37; UO 2 16 0 255 29;
  UO 2 17 0 255 21; UO 2 18 0 255 13; UO 2 19 0 255 5; UO 2 20 3 255 0; US 3 20 0 7 52; UO 3 21 0 255 44;
  UO 3 22 0 255 36; UO 3 23 0 255 28; UO 3 24 0 255 20; UO 3 25 0 255 12; UO 3 26 0 255 4; UO 3 27 4 255 0;
  US 4 27 0 15 51; UO 4 28 0 255 43; UO 4 29 0 255 35; UO 4 30 0 255 27; UO 4 31 0 255 19; UO 4 32 0 255 11;
  UO 4 33 0 255 3; UO 4 34 5 255 0; US 5 34 0 31 50; UO 5 35 0 255 42; UO 5 36 0 255 34; UO 5 37 0 255 26;
  UO 5 38 0 255 18; UO 5 39 0 255 10; UO 5 40 0 255 2; UO 5 41 6 255 0; US 6 41 0 63 49; UO 6 42 0 255 41;
  UO 6 43 0 255 33; UO 6 44 0 255 25; UO 6 45 0 255 17; UO 6 46 0 255 9; UO 6 47 0 255 1; UO 6 48 7 255 0;
  US 7 48 0 127 48; UO 7 49 0 255 40; UO 7 50 0 255 32; UO 7 51 0 255 24; UO 7 52 0 255 16; UO 7 53 0 255 8;
  UO 7 54 0 255 0].
(** bit_packing.go:5701-5758 *)
Definition unpackBits56 : list ust := [
  US 0 0 0 255 48; UO 0 1 0 255 40; UO 0 2 0 255 32; UO 0 3 0 255 24; UO 0 4 0 255 16; UO 0 5 0 255 8; UO 0 6 0 255 0;
  US 1 7 0 255 48; UO 1 8 0 255 40; UO 1 9 0 255 32; UO 1 10 0 255 24; UO 1 11 0 255 16; UO 1 12 0 255 8;
  UO 1 13 0 255 0; US 2 14 0 255 48; UO 2 15 0 255 40; UO 2 16 0 255 32; UO 2 17 0 255 24; UO 2 18 0 255 16;
  UO 2 19 0 255 8; UO 2 20 0 255 0; US 3 21 0 255 48; UO 3 22 0 255 40; UO 3 23 0 255 32; UO 3 24 0 255 24;
  UO 3 25 0 255 16; UO 3 26 0 255 8; UO 3 27 0 255 0; US 4 28 0 255 48; UO 4 29 0 255 40; UO 4 30 0 255 32;
  UO 4 31 0 255 24; UO 4 32 0 255 16; UO 4 33 0 255 8; UO 4 34 0 255 0; US 5 35 0 255 48; UO 5 36 0 255 40;
  UO 5 37 0 255 32; UO 5 38 0 255 24; UO 5 39 0 255 16; UO 5 40 0 255 8; UO 5 41 0 255 0; US 6 42 0 255 48;
  UO 6 43 0 255 40; UO 6 44 0 255 32; UO 6 45 0 255 24; UO 6 46 0 255 16; UO 6 47 0 255 8; UO 6 48 0 255 0;
  US 7 49 0 255 48; UO 7 50 0 255 40; UO 7 51 0 255 32; UO 7 52 0 255 24; UO 7 53 0 255 16; UO 7 54 0 255 8;
  UO 7 55 0 255 0].
(** bit_packing.go:5760-5832 *)
Definition unpackBits57 : list ust := [
  US 0 0 0 255 49; UO 0 1 0 255 41; UO 0 2 0 255 33; UO 0 3 0 255 25; UO 0 4 0 255 17; UO 0 5 0 255 9; UO 0 6 0 255 1;
  UO 0 7 7 255 0; US 1 7 0 127 50; UO 1 8 0 255 42; UO 1 9 0 255 34; UO 1 10 0 255 26; UO 1 11 0 255 18;
  UO 1 12 0 255 10; UO 1 13 0 255 2; UO 1 14 6 255 0; US 2 14 0 63 51; UO 2 15 0 255 43; UO 2 16 0 255 35;
  UO 2 17 0 255 27; UO 2 18 0 255 19; UO 2 19 0 255 11; UO 2 20 0 255 3; UO 2 21 5 255 0; US 3 21 0 31 52;
  UO 3 22 0 255 44; UO 3 23 0 255 36; UO 3 24 0 255 28; UO 3 25 0 255 20; UO 3 26 0 255 12; UO 3 27 0 255 4;
  UO 3 28 4 255 0; US 4 28 0 15 53; UO 4 29 0 255 45; UO 4 30 0 255 37; UO 4 31 0 255 29; UO 4 32 0 255 21;
  UO 4 33 0 255 13; UO 4 34 0 255 5; UO 4 35 3 255 0; US 5 35 0 7 54; UO 5 36 0 255 46; UO 5 37 0 255 38;
  UO 5 38 0 255 30; UO 5 39 0 255 22; UO 5 40 0 255 14; UO 5 41 0 255 6; UO 5 42 2 255 0; US 6 42 0 3 55;
  UO 6 43 0 255 47; UO 6 44 0 255 39; UO 6 45 0 255 31; UO 6 46 0 255 23; UO 6 47 0 255 15; UO 6 48 0 255 7;
  UO 6 49 1 255 0; US 7 49 0 1 56; UO 7 50 0 255 48; UO 7 51 0 255 40; UO 7 52 0 255 32; UO 7 53 0 255 24;
  UO 7 54 0 255 16; UO 7 55 0 255 8; UO 7 56 0 255 0].
(** bit_packing.go:5834-5906 *)
Definition unpackBits58 : list ust := [
  US 0 0 0 255 50; UO 0 1 0 255 42; UO 0 2 0 255 34; UO 0 3 0 255 26; UO 0 4 0 255 18; UO 0 5 0 255 10; UO 0 6 0 255 2;
  UO 0 7 6 255 0; US 1 7 0 63 52; UO 1 8 0 255 44; UO 1 9 0 255 36; UO 1 10 0 255 28; UO 1 11 0 255 20;
  UO 1 12 0 255 12; UO 1 13 0 255 4; UO 1 14 4 255 0; US 2 14 0 15 54; UO 2 15 0 255 46; UO 2 16 0 255 38;
  UO 2 17 0 255 30; UO 2 18 0 255 22; UO 2 19 0 255 14; UO 2 20 0 255 6; UO 2 21 2 255 0; US 3 21 0 3 56;
  UO 3 22 0 255 48; UO 3 23 0 255 40; UO 3 24 0 255 32; UO 3 25 0 255 24; UO 3 26 0 255 16; UO 3 27 0 255 8;
  UO 3 28 0 255 0; US 4 29 0 255 50; UO 4 30 0 255 42; UO 4 31 0 255 34; UO 4 32 0 255 26; UO 4 33 0 255 18;
  UO 4 34 0 255 10; UO 4 35 0 255 2; UO 4 36 6 255 0; US 5 36 0 63 52; UO 5 37 0 255 44; UO 5 38 0 255 36;
  UO 5 39 0 255 28; UO 5 40 0 255 20; UO 5 41 0 255 12; UO 5 42 0 255 4; UO 5 43 4 255 0; US 6 43 0 15 54;
  UO 6 44 0 255 46; UO 6 45 0 255 38; UO 6 46 0 255 30; UO 6 47 0 255 22; UO 6 48 0 255 14; UO 6 49 0 255 6;
  UO 6 50 2 255 0; US 7 50 0 3 56; UO 7 51 0 255 48; UO 7 52 0 255 40; UO 7 53 0 255 32; UO 7 54 0 255 24;
  UO 7 55 0 255 16; UO 7 56 0 255 8; UO 7 57 0 255 0].
(** bit_packing.go:5908-5982 *)
Definition unpackBits59 : list ust := [
  US 0 0 0 255 51; UO 0 1 0 255 43; UO 0 2 0 255 35; UO 0 3 0 255 27; UO 0 4 0 255 19; UO 0 5 0 255 11; UO 0 6 0 255 3;
  UO 0 7 5 255 0; US 1 7 0 31 54; UO 1 8 0 255 46; UO 1 9 0 255 38; UO 1 10 0 255 30; UO 1 11 0 255 22;
  UO 1 12 0 255 14; UO 1 13 0 255 6; UO 1 14 2 255 0; US 2 14 0 3 57; UO 2 15 0 255 49; UO 2 16 0 255 41;
  UO 2 17 0 255 33; UO 2 18 0 255 25; UO 2 19 0 255 17; UO 2 20 0 255 9; UO 2 21 0 255 1; UO 2 22 7 255 0;
  US 3 22 0 127 52; UO 3 23 0 255 44; UO 3 24 0 255 36; UO 3 25 0 255 28; UO 3 26 0 255 20; UO 3 27 0 255 12;
  UO 3 28 0 255 4; UO 3 29 4 255 0; US 4 29 0 15 55; UO 4 30 0 255 47; UO 4 31 0 255 39; UO 4 32 0 255 31;
  UO 4 33 0 255 23; UO 4 34 0 255 15; UO 4 35 0 255 7; UO 4 36 1 255 0; US 5 36 0 1 58; UO 5 37 0 255 50;
  UO 5 38 0 255 42; UO 5 39 0 255 34; UO 5 40 0 255 26; UO 5 41 0 255 18; UO 5 42 0 255 10; UO 5 43 0 255 2;
  UO 5 44 6 255 0; US 6 44 0 63 53; UO 6 45 0 255 45; UO 6 46 0 255 37; UO 6 47 0 255 29; UO 6 48 0 255 21;
  UO 6 49 0 255 13; UO 6 50 0 255 5; UO 6 51 3 255 0; US 7 51 0 7 56; UO 7 52 0 255 48; UO 7 53 0 255 40;
  UO 7 54 0 255 32; UO 7 55 0 255 24; UO 7 56 0 255 16; UO 7 57 0 255 8; UO 7 58 0 255 0].
(** bit_packing.go:5984-6056 *)
Definition unpackBits60 : list ust := [
  US 0 0 0 255 52; UO 0 1 0 255 44; UO 0 2 0 255 36; UO 0 3 0 255 28; UO 0 4 0 255 20; UO 0 5 0 255 12; UO 0 6 0 255 4;
  UO 0 7 4 255 0; US 1 7 0 15 56; UO 1 8 0 255 48; UO 1 9 0 255 40; UO 1 10 0 255 32; UO 1 11 0 255 24;
  UO 1 12 0 255 16; UO 1 13 0 255 8; UO 1 14 0 255 0; US 2 15 0 255 52; UO 2 16 0 255 44; UO 2 17 0 255 36;
  UO 2 18 0 255 28; UO 2 19 0 255 20; UO 2 20 0 255 12; UO 2 21 0 255 4; UO 2 22 4 255 0; US 3 22 0 15 56;
  UO 3 23 0 255 48; UO 3 24 0 255 40; UO 3 25 0 255 32; UO 3 26 0 255 24; UO 3 27 0 255 16; UO 3 28 0 255 8;
  UO 3 29 0 255 0; US 4 30 0 255 52; UO 4 31 0 255 44; UO 4 32 0 255 36; UO 4 33 0 255 28; UO 4 34 0 255 20;
  UO 4 35 0 255 12; UO 4 36 0 255 4; UO 4 37 4 255 0; US 5 37 0 15 56; UO 5 38 0 255 48; UO 5 39 0 255 40;
  UO 5 40 0 255 32; UO 5 41 0 255 24; UO 5 42 0 255 16; UO 5 43 0 255 8; UO 5 44 0 255 0; US 6 45 0 255 52;
  UO 6 46 0 255 44; UO 6 47 0 255 36; UO 6 48 0 255 28; UO 6 49 0 255 20; UO 6 50 0 255 12; UO 6 51 0 255 4;
  UO 6 52 4 255 0; US 7 52 0 15 56; UO 7 53 0 255 48; UO 7 54 0 255 40; UO 7 55 0 255 32; UO 7 56 0 255 24;
  UO 7 57 0 255 16; UO 7 58 0 255 8; UO 7 59 0 255 0].
(** bit_packing.go:6058-6134 *)
Definition unpackBits61 : list ust := [
  US 0 0 0 255 53; UO 0 1 0 255 45; UO 0 2 0 255 37; UO 0 3 0 255 29; UO 0 4 0 255 21; UO 0 5 0 255 13; UO 0 6 0 255 5;
  UO 0 7 3 255 0; US 1 7 0 7 58; UO 1 8 0 255 50; UO 1 9 0 255 42; UO 1 10 0 255 34; UO 1 11 0 255 26;
  UO 1 12 0 255 18; UO 1 13 0 255 10; UO 1 14 0 255 2; UO 1 15 6 255 0; US 2 15 0 63 55; UO 2 16 0 255 47;
  UO 2 17 0 255 39; UO 2 18 0 255 31; UO 2 19 0 255 23; UO 2 20 0 255 15; UO 2 21 0 255 7; UO 2 22 1 255 0;
  US 3 22 0 1 60; UO 3 23 0 255 52; UO 3 24 0 255 44; UO 3 25 0 255 36; UO 3 26 0 255 28; UO 3 27 0 255 20;
  UO 3 28 0 255 12; UO 3 29 0 255 4; UO 3 30 4 255 0; US 4 30 0 15 57; UO 4 31 0 255 49; UO 4 32 0 255 41;
  UO 4 33 0 255 33; UO 4 34 0 255 25; UO 4 35 0 255 17; UO 4 36 0 255 9; UO 4 37 0 255 1; UO 4 38 7 255 0;
  US 5 38 0 127 54; UO 5 39 0 255 46; UO 5 40 0 255 38; UO 5 41 0 255 30; UO 5 42 0 255 22; UO 5 43 0 255 14;
  UO 5 44 0 255 6; UO 5 45 2 255 0; US 6 45 0 3 59; UO 6 46 0 255 51; UO 6 47 0 255 43; UO 6 48 0 255 35;
  UO 6 49 0 255 27; UO 6 50 0 255 19; UO 6 51 0 255 11; UO 6 52 0 255 3; UO 6 53 5 255 0; US 7 53 0 31 56;
  UO 7 54 0 255 48; UO 7 55 0 255 40; UO 7 56 0 255 32; UO 7 57 0 255 24; UO 7 58 0 255 16; UO 7 59 0 255 8;
  UO 7 60 0 255 0].
(** bit_packing.go:6136-6212 *)
Definition unpackBits62 : list ust := [
  US 0 0 0 255 54; UO 0 1 0 255 46; UO 0 2 0 255 38; UO 0 3 0 255 30; UO 0 4 0 255 22; UO 0 5 0 255 14; UO 0 6 0 255 6;
  UO 0 7 2 255 0; US 1 7 0 3 60; UO 1 8 0 255 52; UO 1 9 0 255 44; UO 1 10 0 255 36; UO 1 11 0 255 28;
  UO 1 12 0 255 20; UO 1 13 0 255 12; UO 1 14 0 255 4; UO 1 15 4 255 0; US 2 15 0 15 58; UO 2 16 0 255 50;
  UO 2 17 0 255 42; UO 2 18 0 255 34; UO 2 19 0 255 26; UO 2 20 0 255 18; UO 2 21 0 255 10; UO 2 22 0 255 2;
  UO 2 23 6 255 0; US 3 23 0 63 56; UO 3 24 0 255 48; UO 3 25 0 255 40; UO 3 26 0 255 32; UO 3 27 0 255 24;
  UO 3 28 0 255 16; UO 3 29 0 255 8; UO 3 30 0 255 0; US 4 31 0 255 54; UO 4 32 0 255 46; UO 4 33 0 255 38;
  UO 4 34 0 255 30; UO 4 35 0 255 22; UO 4 36 0 255 14; UO 4 37 0 255 6; UO 4 38 2 255 0; US 5 38 0 3 60;
  UO 5 39 0 255 52; UO 5 40 0 255 44; UO 5 41 0 255 36; UO 5 42 0 255 28; UO 5 43 0 255 20; UO 5 44 0 255 12;
  UO 5 45 0 255 4; UO 5 46 4 255 0; US 6 46 0 15 58; UO 6 47 0 255 50; UO 6 48 0 255 42; UO 6 49 0 255 34;
  UO 6 50 0 255 26; UO 6 51 0 255 18; UO 6 52 0 255 10; UO 6 53 0 255 2; UO 6 54 6 255 0; US 7 54 0 63 56;
  UO 7 55 0 255 48; UO 7 56 0 255 40; UO 7 57 0 255 32; UO 7 58 0 255 24; UO 7 59 0 255 16; UO 7 60 0 255 8;
  UO 7 61 0 255 0].
(** bit_packing.go:6214-6292 *)
Definition unpackBits63 : list ust := [
  US 0 0 0 255 55; UO 0 1 0 255 47; UO 0 2 0 255 39; UO 0 3 0 255 31; UO 0 4 0 255 23; UO 0 5 0 255 15; UO 0 6 0 255 7;
  UO 0 7 1 255 0; US 1 7 0 1 62; UO 1 8 0 255 54; UO 1 9 0 255 46; UO 1 10 0 255 38; UO 1 11 0 255 30;
  UO 1 12 0 255 22; UO 1 13 0 255 14; UO 1 14 0 255 6; UO 1 15 2 255 0; US 2 15 0 3 61; UO 2 16 0 255 53;
  UO 2 17 0 255 45; UO 2 18 0 255 37; UO 2 19 0 255 29; UO 2 20 0 255 21; UO 2 21 0 255 13; UO 2 22 0 255 5;
  UO 2 23 3 255 0; US 3 23 0 7 60; UO 3 24 0 255 52; UO 3 25 0 255 44; UO 3 26 0 255 36; UO 3 27 0 255 28;
  UO 3 28 0 255 20; UO 3 29 0 255 12; UO 3 30 0 255 4; UO 3 31 4 255 0; US 4 31 0 15 59; UO 4 32 0 255 51;
  UO 4 33 0 255 43; UO 4 34 0 255 35; UO 4 35 0 255 27; UO 4 36 0 255 19; UO 4 37 0 255 11; UO 4 38 0 255 3;
  UO 4 39 5 255 0; US 5 39 0 31 58; UO 5 40 0 255 50; UO 5 41 0 255 42; UO 5 42 0 255 34; UO 5 43 0 255 26;
  UO 5 44 0 255 18; UO 5 45 0 255 10; UO 5 46 0 255 2; UO 5 47 6 255 0; US 6 47 0 63 57; UO 6 48 0 255 49;
  UO 6 49 0 255 41; UO 6 50 0 255 33; UO 6 51 0 255 25; UO 6 52 0 255 17; UO 6 53 0 255 9; UO 6 54 0 255 1;
  UO 6 55 7 255 0; US 7 55 0 127 56; UO 7 56 0 255 48; UO 7 57 0 255 40; UO 7 58 0 255 32; UO 7 59 0 255 24;
  UO 7 60 0 255 16; UO 7 61 0 255 8; UO 7 62 0 255 0].

(** bit_packing.go:6298-6430 the switch of unpackBitsBlock8. *)
Definition unpack_switch : list (N * list ust) := [
  (1, unpackBits1); (2, unpackBits2); (3, unpackBits3); (4, unpackBits4); (5, unpackBits5); (6, unpackBits6);
  (7, unpackBits7); (8, unpackBits8); (9, unpackBits9); (10, unpackBits10); (11, unpackBits11); (12, unpackBits12);
  (13, unpackBits13); (14, unpackBits14); (15, unpackBits15); (16, unpackBits16); (17, unpackBits17); (18, unpackBits18);
  (19, unpackBits19); (20, unpackBits20); (21, unpackBits21); (22, unpackBits22); (23, unpackBits23); (24, unpackBits24);
  (25, unpackBits25); (26, unpackBits26); (27, unpackBits27); (28, unpackBits28); (29, unpackBits29); (30, unpackBits30);
  (31, unpackBits31); (32, unpackBits32); (33, unpackBits33); (34, unpackBits34); (35, unpackBits35); (36, unpackBits36);
  (37, unpackBits37); (38, unpackBits38); (39, unpackBits39); (40, unpackBits40); (41, unpackBits41); (42, unpackBits42);
  (43, unpackBits43); (44, unpackBits44); (45, unpackBits45); (46, unpackBits46); (47, unpackBits47); (48, unpackBits48);
  (49, unpackBits49); (50, unpackBits50); (51, unpackBits51); (52, unpackBits52); (53, unpackBits53); (54, unpackBits54);
  (55, unpackBits55); (56, unpackBits56); (57, unpackBits57); (58, unpackBits58); (59, unpackBits59); (60, unpackBits60);
  (61, unpackBits61); (62, unpackBits62); (63, unpackBits63)].

