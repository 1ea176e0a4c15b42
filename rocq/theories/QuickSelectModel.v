(** * Model of internal/quick_select.go (QuickSelect, partition, QuickSelectFunc, partitionFunc).

    The Go functions are generic in the element type and its comparison; here [A] and
    [lt] ([lt a b] is [a < b], resp. [compare(a,b) < 0]).  Every slice access returns
    [None] (panic) when out of range; every loop carries fuel and returns [None] when it
    is exhausted, so [Some] means: terminated without panic. *)
From Verif Require Import Base.

Section QS.
  Context {A : Type}.
  Variable lt : A -> A -> bool.

  (** quick_select.go:42-47: [for arr[i+1] < v { i++; if i == hi { break } }]; returns i. *)
  Fixpoint scan_up (fuel : nat) (arr : list A) (v : A) (hi i : nat) : option nat :=
    match fuel with
    | O => None
    | S f =>
      match nth_error arr (i + 1) with
      | None => None
      | Some x =>
        if lt x v then
          (if i + 1 =? hi then Some (i + 1) else scan_up f arr v hi (i + 1))
        else Some i
      end
    end.

  (** quick_select.go:49-54: [for v < arr[j-1] { j--; if j == lo { break } }]; returns j.
      Go's arr[j-1] with j = 0 panics: the [0 <? j] test. *)
  Fixpoint scan_down (fuel : nat) (arr : list A) (v : A) (lo j : nat) : option nat :=
    match fuel with
    | O => None
    | S f =>
      if j =? 0 then None else
      match nth_error arr (j - 1) with
      | None => None
      | Some x =>
        if lt v x then
          (if j - 1 =? lo then Some (j - 1) else scan_down f arr v lo (j - 1))
        else Some j
      end
    end.

  (** quick_select.go:41-60: the outer loop of partition; returns (arr, j). *)
  Fixpoint part_loop (fuel : nat) (arr : list A) (v : A) (lo hi i j : nat) : option (list A * nat) :=
    match fuel with
    | O => None
    | S f =>
      match scan_up (length arr + 1) arr v hi i with
      | None => None
      | Some i1 =>
        let i2 := i1 + 1 in                                  (* :48 i++ *)
        match scan_down (length arr + 1) arr v lo j with
        | None => None
        | Some j1 =>
          if j1 =? 0 then None else                          (* j-- below 0: used as an index next *)
          let j2 := j1 - 1 in                                (* :55 j-- *)
          if j2 <=? i2 then Some (arr, j2)                   (* :56 if i >= j break *)
          else
            match nth_error arr i2, nth_error arr j2 with
            | Some _, Some _ => part_loop f (swap i2 j2 arr) v lo hi i2 j2   (* :59 *)
            | _, _ => None
            end
        end
      end
    end.

  (** quick_select.go:37-63 partition (and :85-111 partitionFunc, the same text with compare). *)
  Definition partition (arr : list A) (lo hi : nat) : option (list A * nat) :=
    match nth_error arr lo with
    | None => None
    | Some v =>
      match part_loop (length arr + 1) arr v lo hi lo (hi + 1) with
      | None => None
      | Some (arr', j) =>
        match nth_error arr' j with
        | None => None
        | Some _ => Some (swap lo j arr', j)                 (* :61 *)
        end
      end
    end.

  (** quick_select.go:22-35 QuickSelect (and :70-83 QuickSelectFunc). Returns the mutated slice and the
      selected element. [hi] is Go's int: [hi = j - 1] could be -1 only if j = 0 <= pivot is false,
      and then the other branch is taken; the model uses nat and the theorem covers lo <= pivot <= hi. *)
  Fixpoint qs_loop (fuel : nat) (arr : list A) (lo hi pivot : nat) : option (list A * A) :=
    match fuel with
    | O => None
    | S f =>
      if lo <? hi then
        match partition arr lo hi with
        | None => None
        | Some (arr', j) =>
          if j =? pivot then
            match nth_error arr' pivot with None => None | Some x => Some (arr', x) end
          else if pivot <? j then qs_loop f arr' lo (j - 1) pivot
          else qs_loop f arr' (j + 1) hi pivot
        end
      else match nth_error arr pivot with None => None | Some x => Some (arr, x) end
    end.

  Definition quick_select (arr : list A) (lo hi pivot : nat) : option (list A * A) :=
    qs_loop (hi - lo + 1) arr lo hi pivot.
End QS.
