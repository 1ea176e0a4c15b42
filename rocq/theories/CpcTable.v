(** * Model of cpc/pair_table.go: the open-addressed set of (row, column) pairs.

    A pair is the number row*64 + column.  Slots hold [Some item] or [None] for Go's -1: every
    item is non-negative, so the two encodings carry the same information.  [Panic] stands for an
    out-of-range index, a negative shift count, or exhausted fuel (a loop that would not end); the
    theorems exclude it.  After an [Err] the receiver may have been half rebuilt in Go: the state
    left behind by an error is not modelled. *)
From Verif Require Import Base Bytes Arr BitPackModel.
Local Open Scope nat_scope.

(** pair_table.go:32-37 *)
Record table := mkTable { t_lg : nat; t_vb : nat; t_n : nat; t_slots : list (option N) }.

(** pair_table.go:39-52 with utils.go:144-149 checkLgSizeInts *)
Definition new_table (lg vb : nat) : res table :=
  if (lg <? 2) || (26 <? lg) then Err else Ok (mkTable lg vb 0 (repeat None (2 ^ lg))).

(** pair_table.go:54-59 *)
Definition clear_table (t : table) : table :=
  mkTable (t_lg t) (t_vb t) 0 (repeat None (length (t_slots t))).

(** The probe loop shared by maybeInsert (71-75), maybeDelete (96-101) and mustInsert (152-156):
    the first slot from [probe] on, cyclically, that holds [item] or is empty.
    [(probe + 1) & mask] is [(probe + 1) mod size], the size being a power of two. *)
Fixpoint probe_loop (fuel : nat) (slots : list (option N)) (size probe : nat) (item : N) : res nat :=
  match nth_error slots probe with
  | None => Panic
  | Some None => Ok probe
  | Some (Some y) =>
      if (y =? item)%N then Ok probe
      else match fuel with
           | O => Panic
           | S f => probe_loop f slots size ((probe + 1) mod size) item
           end
  end.

(** [item >> (validBits - lgSizeInts)]: Go panics on a negative shift count (67, 94, 148). *)
Definition home (vb lg : nat) (item : N) : res nat :=
  if vb <? lg then Panic else Ok (N.to_nat (N.shiftr item (N.of_nat (vb - lg)))).

Definition lookup (t : table) (item : N) : res nat :=
  let* h := home (t_vb t) (t_lg t) item in
  probe_loop (2 ^ t_lg t) (t_slots t) (2 ^ t_lg t) h item.

(** pair_table.go:183-194: reinsertion of every occupied old slot, in slot order. *)
Fixpoint reinsert (ins : table -> N -> res (table * bool)) (t : table) (old : list (option N)) : res table :=
  match old with
  | [] => Ok t
  | None :: r => reinsert ins t r
  | Some x :: r => let* (t', _) := ins t x in reinsert ins t' r
  end.

(** pair_table.go:167-196; [ins] is maybeInsert. *)
Definition rebuild_with (ins : table -> N -> res (table * bool)) (t : table) (newlg : nat) : res table :=
  if (newlg <? 2) || (26 <? newlg) then Err
  else if 2 ^ newlg <=? t_n t then Err
  else reinsert ins (mkTable newlg (t_vb t) 0 (repeat None (2 ^ newlg))) (t_slots t).

(** pair_table.go:81-86: grow while more than three quarters full. *)
Fixpoint grow_with (ins : table -> N -> res (table * bool)) (fuel : nat) (t : table) : res table :=
  if 3 * 2 ^ t_lg t <? 4 * t_n t then
    match fuel with
    | O => Panic
    | S f => let* t' := rebuild_with ins t (t_lg t + 1) in grow_with ins f t'
    end
  else Ok t.

(** pair_table.go:60-88.  maybeInsert and rebuild are mutually recursive in Go; [fuel] bounds the
    nesting depth. *)
Fixpoint insert_fuel (fuel : nat) (t : table) (item : N) : res (table * bool) :=
  match fuel with
  | O => Panic
  | S f =>
      let* p := lookup t item in
      match nth_error (t_slots t) p with
      | Some (Some _) => Ok (t, false)
      | _ =>
          let t1 := mkTable (t_lg t) (t_vb t) (t_n t + 1) (upd p (Some item) (t_slots t)) in
          let* t2 := grow_with (insert_fuel f) 26 t1 in
          Ok (t2, true)
      end
  end.
Definition maybe_insert : table -> N -> res (table * bool) := insert_fuel 2.
Definition rebuild (t : table) (newlg : nat) : res table := rebuild_with maybe_insert t newlg.

(** pair_table.go:107-118: empty the rest of the cluster, remembering its items in order. *)
Fixpoint drain (fuel : nat) (slots : list (option N)) (size probe n : nat) (acc : list N)
  : res (list (option N) * nat * list N) :=
  match nth_error slots probe with
  | None => Panic
  | Some None => Ok (slots, n, acc)
  | Some (Some y) =>
      match fuel with
      | O => Panic
      | S f => drain f (upd probe None slots) size ((probe + 1) mod size) (n - 1) (acc ++ [y])
      end
  end.

(** pair_table.go:124-131 *)
Fixpoint insert_all (t : table) (l : list N) : res table :=
  match l with
  | [] => Ok t
  | x :: r => let* (t', _) := maybe_insert t x in insert_all t' r
  end.

(** pair_table.go:134-138: shrink while less than a quarter full. *)
Fixpoint shrink (fuel : nat) (t : table) : res table :=
  if (4 * t_n t <? 1 * 2 ^ t_lg t) && (2 <? t_lg t) then
    match fuel with
    | O => Panic
    | S f => let* t' := rebuild t (t_lg t - 1) in shrink f t'
    end
  else Ok t.

(** pair_table.go:90-140 *)
Definition maybe_delete (t : table) (item : N) : res (table * bool) :=
  let* p := lookup t item in
  match nth_error (t_slots t) p with
  | Some (Some _) =>
      let size := 2 ^ t_lg t in
      let* (slots, n, items) := drain size (upd p None (t_slots t)) size ((p + 1) mod size) (t_n t - 1) [] in
      let* t1 := insert_all (mkTable (t_lg t) (t_vb t) n slots) items in
      let* t2 := shrink 26 t1 in
      Ok (t2, true)
  | _ => Ok (t, false)
  end.

(** pair_table.go:142-165 *)
Definition must_insert (t : table) (item : N) : res table :=
  let* p := lookup t item in
  match nth_error (t_slots t) p with
  | Some (Some _) => Err
  | _ => Ok (mkTable (t_lg t) (t_vb t) (t_n t) (upd p (Some item) (t_slots t)))
  end.

Fixpoint must_insert_all (t : table) (l : list N) : res table :=
  match l with [] => Ok t | x :: r => let* t' := must_insert t x in must_insert_all t' r end.

(** pair_table.go:320-322: the smallest size that is at most three quarters full. *)
Fixpoint choose_lg (fuel lg n : nat) : res nat :=
  if 3 * 2 ^ lg <? 4 * n then
    match fuel with O => Panic | S f => choose_lg f (lg + 1) n end
  else Ok lg.

(** pair_table.go:317-337 newInstanceFromPairsArray(pairs, len(pairs), lgK).  The size search needs
    no more than 64 steps for an int count. *)
Definition from_pairs (pairs : list N) (lgK : nat) : res table :=
  let* lg := choose_lg 64 2 (length pairs) in
  let* t := new_table lg (6 + lgK) in
  let* t' := must_insert_all t pairs in
  Ok (mkTable (t_lg t') (t_vb t') (length pairs) (t_slots t')).

(** pair_table.go:272-313 unwrap(numPairs).  [r1] is Go's r + 1. *)
Fixpoint unwrap2 (slots : list (option N)) (out : list N) (l r1 : nat) : res (list N * nat * nat) :=
  match slots with
  | [] => Ok (out, l, r1)
  | None :: s => unwrap2 s out l r1
  | Some x :: s => let* out' := of_opt (wr l x out) in unwrap2 s out' (l + 1) r1
  end.
Fixpoint unwrap1 (vb : nat) (slots : list (option N)) (out : list N) (l r1 : nat) : res (list N * nat * nat) :=
  match slots with
  | [] => Ok (out, l, r1)
  | None :: _ => unwrap2 slots out l r1
  | Some x :: s =>
      if N.testbit x (N.of_nat (vb - 1)) then
        match r1 with
        | O => Panic
        | S r => let* out' := of_opt (wr r x out) in unwrap1 vb s out' l r
        end
      else let* out' := of_opt (wr l x out) in unwrap1 vb s out' (l + 1) r1
  end.
Definition unwrap (t : table) (numPairs : nat) : res (list N) :=
  if numPairs <? 1 then Ok []
  else
    let* (out, l, r1) := unwrap1 (t_vb t) (t_slots t) (repeat 0%N numPairs) 0 numPairs in
    if l =? r1 then Ok out else Err.

(** pair_table.go:256-269 copy: a deep copy, the same value in the model. *)
Definition copy_table (t : table) : table := t.

Definition m32 (x : N) : N := N.land x 4294967295.

(** pair_table.go:206-209: moving [v] left past the larger elements; the array prefix before the
    current position is held reversed.  Returns the new reversed prefix and the distance moved. *)
Fixpoint shift_in (v : N) (rp : list N) : list N * nat :=
  match rp with
  | y :: rp' => if (v <? m32 y)%N then let (q, d) := shift_in v rp' in (y :: q, S d) else (v :: rp, 0)
  | [] => ([v], 0)
  end.

(** slices.Sort, modelled by an insertion sort. *)
Fixpoint sins (x : N) (l : list N) : list N :=
  match l with [] => [x] | y :: r => if (x <=? y)%N then x :: y :: r else y :: sins x r end.
Fixpoint ssort (l : list N) : list N := match l with [] => [] | x :: r => sins x (ssort r) end.

(** pair_table.go:198-223 introspectiveInsertionSort(a, 0, len(a)-1), the only way it is called:
    [rp] is a[0..i-1] reversed, [rest] is a[i..].  When the moves exceed 8*len(a), the code sorts
    the sub-slice from the position [j] last written, not from the beginning. *)
Fixpoint isort_loop (limit cost i : nat) (rp rest : list N) : list N :=
  match rest with
  | [] => rev rp
  | x :: rest' =>
      let (rp', d) := shift_in (m32 x) rp in
      let cost' := cost + d in
      let j := i - d in
      if limit <? cost' then
        let b := map m32 (rev rp' ++ rest') in
        firstn j b ++ ssort (skipn j b)
      else isort_loop limit cost' (S i) rp' rest'
  end.
Definition isort (a : list N) : list N :=
  match a with [] => [] | x :: r => isort_loop (8 * length a) 0 1 [x] r end.

(** pair_table.go:225-253 mergePairs with arrC = arrB = [bc] and startC = 0: the in-place merge of
    the only caller (cpc_compressed_state.go:279). *)
Fixpoint merge_loop (fuel : nat) (arrA bc : list N) (a limA b limB c : nat) : res (list N) :=
  match fuel with
  | O => Ok bc
  | S f =>
      if limB <=? b then
        let* x := of_opt (nth_error arrA a) in
        let* bc' := of_opt (wr c x bc) in merge_loop f arrA bc' (a + 1) limA b limB (c + 1)
      else if limA <=? a then
        let* x := of_opt (nth_error bc b) in
        let* bc' := of_opt (wr c x bc) in merge_loop f arrA bc' a limA (b + 1) limB (c + 1)
      else
        let* aa := of_opt (nth_error arrA a) in
        let* bb := of_opt (nth_error bc b) in
        if (m32 aa <? m32 bb)%N then
          let* bc' := of_opt (wr c aa bc) in merge_loop f arrA bc' (a + 1) limA b limB (c + 1)
        else
          let* bc' := of_opt (wr c bb bc) in merge_loop f arrA bc' a limA (b + 1) limB (c + 1)
  end.
Definition merge_pairs (arrA bc : list N) (lengthA startB lengthB : nat) : res (list N) :=
  merge_loop (lengthA + lengthB) arrA bc 0 lengthA startB (startB + lengthB) 0.

(** pair_table.go:341-352 unwrappingGetItems; 354-386 equals. *)
Fixpoint somes (l : list (option N)) : list N :=
  match l with [] => [] | Some x :: r => x :: somes r | None :: r => somes r end.
Definition get_items (t : table) : list N := firstn (t_n t) (somes (t_slots t)).
Fixpoint list_eqb (a b : list N) : bool :=
  match a, b with [], [] => true | x :: r, y :: s => (x =? y)%N && list_eqb r s | _, _ => false end.
Definition table_eq (t u : table) : bool :=
  (t_vb t =? t_vb u) && (t_n t =? t_n u) && list_eqb (isort (get_items t)) (isort (get_items u)).
