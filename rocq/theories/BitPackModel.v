(** * Model of theta/bit_packing.go: execution of the unrolled block functions, and packBits / unpackBits. *)
From Verif Require Import Base Bytes Arr BitPackData.
Local Open Scope nat_scope.

Definition u8 (x : N) : N := (x mod 256)%N.
Definition u64 (x : N) : N := (x mod 2 ^ 64)%N.

(** uint8(values[i] << n), uint8(values[i] >> n). *)
Definition shifted (s : shift) (v : N) : N :=
  match s with L n => u8 (u64 (N.shiftl v n)) | R n => u8 (N.shiftr v n) end.

(** One statement of a packBitsW function; [None]: index out of range. *)
Definition pstep (vals : list N) (buf : list N) (st : pst) : option (list N) :=
  match st with
  | PS j i s => do v <- nth_error vals i ; wr j (shifted s v) buf
  | PO j i s => do v <- nth_error vals i ; do b <- nth_error buf j ; wr j (N.lor b (shifted s v)) buf
  end.
Fixpoint pexec (vals : list N) (prog : list pst) (buf : list N) : option (list N) :=
  match prog with [] => Some buf | st :: r => do buf' <- pstep vals buf st ; pexec vals r buf' end.

(** uint64((bytes[j] >> r) & m) << l. *)
Definition taken (r m l b : N) : N := u64 (N.shiftl (N.land (N.shiftr b r) m) l).
Definition ustep (buf : list N) (vals : list N) (st : ust) : option (list N) :=
  match st with
  | US i j r m l => do b <- nth_error buf j ; wr i (taken r m l b) vals
  | UO i j r m l => do b <- nth_error buf j ; do v <- nth_error vals i ; wr i (N.lor v (taken r m l b)) vals
  end.
Fixpoint uexec (buf : list N) (prog : list ust) (vals : list N) : option (list N) :=
  match prog with [] => Some vals | st :: r => do vals' <- ustep buf vals st ; uexec buf r vals' end.

Fixpoint assoc {A} (w : N) (l : list (N * A)) : option A :=
  match l with [] => None | (k, a) :: r => if (k =? w)%N then Some a else assoc w r end.

(** Outcome of a Go call: value, returned error, or run-time panic. *)
Inductive res (A : Type) := Ok (a : A) | Err | Panic.
Arguments Ok {A}. Arguments Err {A}. Arguments Panic {A}.
Definition of_opt {A} (o : option A) : res A := match o with Some a => Ok a | None => Panic end.
Definition bindr {A B} (r : res A) (f : A -> res B) : res B :=
  match r with Ok a => f a | Err => Err | Panic => Panic end.
Notation "'let*' x := a 'in' b" := (bindr a (fun x => b)) (at level 200, x pattern, a at level 100, b at level 200).

(** bit_packing.go:3239-3371 packBitsBlock8(values, bytes, bits): the new contents of bytes. *)
Definition pack_block8 (vals buf : list N) (w : N) : res (list N) :=
  match assoc w pack_switch with None => Err | Some prog => of_opt (pexec vals prog buf) end.
(** bit_packing.go:6298-6430 unpackBitsBlock8(values, bytes, bits): the new contents of values. *)
Definition unpack_block8 (vals buf : list N) (w : N) : res (list N) :=
  match assoc w unpack_switch with None => Err | Some prog => of_opt (uexec buf prog vals) end.

(** bit_packing.go:46-58: the byte-aligned part of packBits. [fuel] bounds the loop (bits / 8 + 1 is enough:
    [pack_bits_spec] never meets exhaustion). Returns (bytes, bytesIdx, offset). *)
Fixpoint pack_whole (fuel : nat) (value : N) (bits : nat) (buf : list N) (idx : nat) : option (list N * nat * nat) :=
  match fuel with
  | 0 => None
  | S f =>
    if 8 <=? bits then
      do buf' <- wr idx (u8 (N.shiftr value (N.of_nat (bits - 8)))) buf ; pack_whole f value (bits - 8) buf' (idx + 1)
    else if 0 <? bits then
      do buf' <- wr idx (u8 (u64 (N.shiftl value (N.of_nat (8 - bits))))) buf ; Some (buf', idx, bits)
    else Some (buf, idx, 0)
  end.

(** bit_packing.go:29-58 packBits. *)
Definition pack_bits (value : N) (bits : nat) (buf : list N) (idx off : nat) : option (list N * nat * nat) :=
  if 0 <? off then
    let c := 8 - off in
    let mask := (2 ^ N.of_nat c - 1)%N in
    do b <- nth_error buf idx ;
    if bits <? c then
      do buf' <- wr idx (N.lor b (u8 (N.land (u64 (N.shiftl value (N.of_nat (c - bits)))) mask))) buf ;
      Some (buf', idx, off + bits)
    else
      do buf' <- wr idx (N.lor b (u8 (N.land (N.shiftr value (N.of_nat (bits - c))) mask))) buf ;
      pack_whole (S (bits / 8)) value (bits - c) buf' (idx + 1)
  else pack_whole (S (bits / 8)) value bits buf idx.

(** bit_packing.go:77-89: the rest of unpackBits. Returns (value, bytesIdx, offset). *)
Fixpoint unpack_whole (fuel : nat) (value : N) (bits : nat) (buf : list N) (idx off : nat) : option (N * nat * nat) :=
  match fuel with
  | 0 => None
  | S f =>
    if 8 <=? bits then
      do b <- nth_error buf idx ; unpack_whole f (N.lor (u64 (N.shiftl value 8)) b) (bits - 8) buf (idx + 1) off
    else if 0 <? bits then
      do b <- nth_error buf idx ;
      Some (N.lor (u64 (N.shiftl value (N.of_nat bits))) (N.shiftr b (N.of_nat (8 - bits))), idx, bits)
    else Some (value, idx, off)
  end.

(** bit_packing.go:64-90 unpackBits. *)
Definition unpack_bits (bits : nat) (buf : list N) (idx off : nat) : option (N * nat * nat) :=
  let avail := 8 - off in
  let chunk := Nat.min avail bits in
  let mask := (2 ^ N.of_nat chunk - 1)%N in
  do b <- nth_error buf idx ;
  let value := N.land (N.shiftr b (N.of_nat (avail - chunk))) mask in
  let idx' := if avail =? chunk then idx + 1 else idx in
  unpack_whole (S (bits / 8)) value (bits - chunk) buf idx' ((off + chunk) mod 8).
