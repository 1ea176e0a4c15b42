(** * Model of tuple/encoder.go, tuple/decoder.go, tuple/arrayofnumbers_sketch_encoder.go,
    tuple/arrayofnumbers_sketch_decoder.go and the string summaries of tuple/arrayofstrings_sketch.go.

    An io.Reader over a byte slice is the list of the bytes still to be read: a reader answers the value and the
    remaining bytes, [Err] when a read comes up short (binary.Read and io.ReadFull return io.EOF or
    io.ErrUnexpectedEOF). The io.Writer is taken to accept every write (bytes.Buffer): an encoder answers the bytes
    written, or [Err] when a summary writer fails (what was already written stays written; only the error is modelled).
    Memory is not: make([]entry, numEntries) may ask for 2^32-1 entries on a 16 byte image. *)
From Verif Require Import Base Bytes BitPackModel HashtableModel ThetaModel TupleModel.
Local Open Scope nat_scope.

(** ** Readers *)

(** binary.Read(r, binary.LittleEndian, &x) with x of [k] bytes. *)
Definition rd_le (k : nat) (b : list N) : res (N * list N) :=
  if k <=? length b then Ok (unle (firstn k b), skipn k b) else Err.

(** io.ReadFull(r, make([]byte, k)). *)
Definition rd_bytes (k : nat) (b : list N) : res (list N * list N) :=
  if k <=? length b then Ok (firstn k b, skipn k b) else Err.

(** for i := 0; i < n; i++ { x, err := read(r); ...; xs = append(xs, x) } *)
Fixpoint rd_many {A} (rd : list N -> res (A * list N)) (n : nat) (b : list N) : res (list A * list N) :=
  match n with
  | 0 => Ok ([], b)
  | S n' =>
    let* (x, b1) := rd b in
    let* (r, b2) := rd_many rd n' b1 in
    Ok (x :: r, b2)
  end.

(** for _, x := range xs { err := write(w, x); ... } *)
Fixpoint wr_many {A} (wr : A -> res (list N)) (l : list A) : res (list N) :=
  match l with
  | [] => Ok []
  | x :: r =>
    let* b := wr x in
    let* c := wr_many wr r in
    Ok (b ++ c)
  end.

(** ** Constants *)

(** internal/family.go:66-69 FamilyEnum.Tuple.Id. *)
Definition FamilyTuple : N := 9.
(** tuple/compact_sketch.go:30-33. *)
Definition SerialVersionLegacy : N := 1.
Definition TupleSerialVersion : N := 3.
(** tuple/tuple.go:23-27. *)
Definition TypeArrayOfNumbers : N := 3.
Definition TypeCompactTuple : N := 1.
Definition TypeCompactTupleLegacy : N := 5.
(** tuple/arrayofnumbers_compact_sketch.go:30-32. *)
Definition AonSerialVersion : N := 1.

(** [flags |= 1 << bit] when [c], on a byte. *)
Definition flag (bit : N) (c : bool) : N := if c then N.shiftl 1 bit else 0%N.

Section Codec.
  Context {S : Type}.
  Notation entry := (N * S)%type.
  Notation sketch := (@tsketch S).

  (** compact_sketch.go:314-322 preambleLongs. *)
  Definition tup_preamble_longs (s : sketch) : N :=
    if testimation s then 3%N else if ts_empty s || (length (ts_entries s) =? 1) then 1%N else 2%N.

  (** encoder.go:108-116: the body of the loop over the entries. *)
  Definition wr_entry (wr : S -> res (list N)) (e : entry) : res (list N) :=
    let* b := wr (snd e) in Ok (le 8 (fst e) ++ b).

  (** encoder.go:47-118 Encode. Flags (compact_sketch.go:35-41): bit 3 compact, bit 1 read only, bit 2 empty, bit 4 ordered. *)
  Definition tup_encode (wr : S -> res (list N)) (s : sketch) : res (list N) :=
    let pre := tup_preamble_longs s in
    let flags := N.lor (N.lor (N.lor (flag 3 true) (flag 1 true)) (flag 2 (ts_empty s))) (flag 4 (ts_ordered s)) in
    let* es := wr_many (wr_entry wr) (ts_entries s) in
    Ok (le 1 pre ++ le 1 TupleSerialVersion ++ le 1 FamilyTuple ++ le 1 TypeCompactTuple ++ le 1 0 ++ le 1 flags ++
        le 2 (ts_seed s) ++
        (if (1 <? pre)%N then le 4 (N.of_nat (length (ts_entries s))) ++ le 4 0 else []) ++
        (if testimation s then le 8 (ts_theta s) else []) ++ es).

  (** decoder.go:136-148: the body of the loop reading entries. *)
  Definition rd_entry (rd : list N -> res (S * list N)) (b : list N) : res (entry * list N) :=
    let* (h, b) := rd_le 8 b in
    let* (x, b) := rd b in
    Ok ((h, x), b).

  (** decoder.go:53-154 Decode. [want] is internal.ComputeSeedHash(dec.seed), [None] when it returns an error. *)
  Definition tup_decode (want : option N) (rd : list N -> res (S * list N)) (b : list N) : res (sketch * list N) :=
    let* (pre, b) := rd_le 1 b in
    let* (version, b) := rd_le 1 b in
    let* (family, b) := rd_le 1 b in
    let* (type, b) := rd_le 1 b in
    let* (_, b) := rd_le 1 b in
    let* (flags, b) := rd_le 1 b in
    let* (seed, b) := rd_le 2 b in
    if negb ((version =? TupleSerialVersion)%N || (version =? SerialVersionLegacy)%N) then Err
    else if negb (family =? FamilyTuple)%N then Err
    else if negb ((type =? TypeCompactTuple)%N || (type =? TypeCompactTupleLegacy)%N) then Err
    else
      let empty := N.testbit flags 2 in
      let seed_ok := empty || match want with Some w => (seed =? w)%N | None => false end in
      if negb seed_ok then Err
      else
        let* (n, theta, b) :=
          (if empty then Ok (0%N, MaxTheta, b)
           else if (pre =? 1)%N then Ok (1%N, MaxTheta, b)
           else
             let* (n, b) := rd_le 4 b in
             let* (_, b) := rd_le 4 b in
             if (2 <? pre)%N then (let* (th, b) := rd_le 8 b in Ok (n, th, b)) else Ok (n, MaxTheta, b)) in
        let* (entries, b) := rd_many (rd_entry rd) (N.to_nat n) b in
        Ok (tcompact_entries empty (N.testbit flags 4) seed theta entries, b).
End Codec.

(** ** Array-of-numbers sketches

    A value of type V (an 8 to 64 bit integer or float) is its bit pattern, [w] bytes wide. *)

(** arrayofnumbers_compact_sketch.go:48-55 (an ArrayOfNumbersSummary's size field equals numberOfValuesInSummary). *)
Record aon := mkAon { an_sketch : @tsketch (list N); an_num_values : N }.

(** arrayofnumbers_sketch_encoder.go:37-44: the summary writer. *)
Definition wr_numbers (w : nat) (vs : list N) : res (list N) := wr_many (fun v => Ok (le w v)) vs.

(** arrayofnumbers_sketch_decoder.go:39-51: the summary reader. *)
Definition rd_numbers (w : nat) (nv : N) (b : list N) : res (list N * list N) := rd_many (rd_le w) (N.to_nat nv) b.

(** arrayofnumbers_sketch_encoder.go:49-124 Encode. Flags (arrayofnumbers_compact_sketch.go:34-40): bit 2 empty, bit 3 has
    entries, bit 4 ordered. *)
Definition aon_encode (w : nat) (a : aon) : res (list N) :=
  let s := an_sketch a in
  let has := 0 <? length (ts_entries s) in
  let flags := N.lor (N.lor (flag 2 (ts_empty s)) (flag 3 has)) (flag 4 (ts_ordered s)) in
  let* sums := wr_many (wr_numbers w) (map snd (ts_entries s)) in
  Ok (le 1 1 ++ le 1 AonSerialVersion ++ le 1 FamilyTuple ++ le 1 TypeArrayOfNumbers ++ le 1 flags ++ le 1 (an_num_values a) ++
      le 2 (ts_seed s) ++ le 8 (ts_theta s) ++
      (if has then le 4 (N.of_nat (length (ts_entries s))) ++ le 4 0 ++ concat (map (fun e => le 8 (fst e)) (ts_entries s)) ++ sums
       else [])).

(** arrayofnumbers_sketch_decoder.go:56-162 Decode, with :101-120 of arrayofnumbers_compact_sketch.go. *)
Definition aon_decode (w : nat) (want : option N) (b : list N) : res (aon * list N) :=
  let* (_, b) := rd_le 1 b in
  let* (version, b) := rd_le 1 b in
  let* (family, b) := rd_le 1 b in
  let* (type, b) := rd_le 1 b in
  let* (flags, b) := rd_le 1 b in
  let* (nv, b) := rd_le 1 b in
  let* (seed, b) := rd_le 2 b in
  if negb (version =? AonSerialVersion)%N then Err
  else if negb (family =? FamilyTuple)%N then Err
  else if negb (type =? TypeArrayOfNumbers)%N then Err
  else
    let has := N.testbit flags 3 in
    let seed_ok := negb has || match want with Some x => (seed =? x)%N | None => false end in
    if negb seed_ok then Err
    else
      let* (theta, b) := rd_le 8 b in
      let* (entries, b) :=
        (if has then
           let* (n, b) := rd_le 4 b in
           let* (_, b) := rd_le 4 b in
           let* (hashes, b) := rd_many (rd_le 8) (N.to_nat n) b in
           let* (sums, b) := rd_many (rd_numbers w nv) (N.to_nat n) b in
           Ok (combine hashes sums, b)
         else Ok ([], b)) in
      Ok (mkAon (tcompact_entries (N.testbit flags 2) (N.testbit flags 4) seed theta entries) nv, b).

(** ** String summaries (arrayofstrings_sketch.go). A string is its bytes. *)

(** :32-37 *)
Definition maxStringSliceLength : nat := 127.

(** :116-122 computeStringsTotalBytes: uint32 arithmetic. *)
Definition strings_total_bytes (vs : list (list N)) : N :=
  fold_left (fun t v => (t + N.of_nat (length v)) mod 2 ^ 32)%N vs (N.of_nat (4 + 1 + length vs * 4) mod 2 ^ 32)%N.

(** :103-112 *)
Definition wr_string (v : list N) : res (list N) := Ok (le 4 (N.of_nat (length v)) ++ v).

(** :88-114 writeStrings. *)
Definition wr_strings (vs : list (list N)) : res (list N) :=
  if maxStringSliceLength <? length vs then Err
  else
    let* b := wr_many wr_string vs in
    Ok (le 4 (strings_total_bytes vs) ++ le 1 (N.of_nat (length vs)) ++ b).

(** :156-168 *)
Definition rd_string (b : list N) : res (list N * list N) :=
  let* (n, b) := rd_le 4 b in rd_bytes (N.to_nat n) b.

(** :141-171 readStrings. *)
Definition rd_strings (b : list N) : res (list (list N) * list N) :=
  let* (_, b) := rd_le 4 b in
  let* (n, b) := rd_le 1 b in
  if (N.of_nat maxStringSliceLength <? n)%N then Err
  else rd_many rd_string (N.to_nat n) b.

(** :40-49 GenerateHashKeyFromStrings: the bytes fed to the hasher ([44] is the comma). *)
Fixpoint strings_key_bytes (s : list (list N)) : list N :=
  match s with
  | [] => []
  | v :: r => v ++ (match r with [] => [] | _ => 44%N :: strings_key_bytes r end)
  end.
