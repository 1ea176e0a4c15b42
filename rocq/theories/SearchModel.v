(** * Model of internal/inequality_search.go.

    [C] is the element type, [less] the CompareFn and [ceq] Go's ==. Indices are Go ints ([Z]); an index outside
    the slice panics ([None]). *)
From Verif Require Import Base Bytes.
Local Open Scope Z_scope.

(** inequality_search.go:27-34. The "unknown inequality" errors are unreachable in this type. *)
Inductive inequality := LT | LE | GE | GT.

Section Search.
Context {C : Type}.
Variables less ceq : C -> C -> bool.

Definition at_ (arr : list C) (i : Z) : option C := if i <? 0 then None else nth_error arr (Z.to_nat i).

(** inequality_search.go:71-144 resolve. *)
Definition resolve (arr : list C) (lo hi : Z) (v : C) (crit : inequality) : option Z :=
  do a <- at_ arr lo;
  do b <- at_ arr hi;
  match crit with
  | LT => if lo =? hi then Some (if negb (less v b) && negb (ceq v b) then lo else -1)
          else Some (if negb (less v b) && negb (ceq v b) then hi
                     else if negb (less v a) && negb (ceq v a) then lo else -1)
  | LE => if lo =? hi then Some (if negb (less v a) then lo else -1)
          else Some (if negb (less v b) then hi else if negb (less v a) then lo else -1)
  | GE => if lo =? hi then Some (if less v a || ceq v a then lo else -1)
          else Some (if less v a || ceq v a then lo else if less v b || ceq v b then hi else -1)
  | GT => if lo =? hi then Some (if less v a then lo else -1)
          else Some (if less v a then lo else if less v b then hi else -1)
  end.

(** inequality_search.go:146-169 compare. *)
Definition compare (arr : list C) (a b : Z) (v : C) (crit : inequality) : option Z :=
  do x <- at_ arr a;
  do y <- at_ arr b;
  match crit with
  | LT | GE => Some (if less v x || ceq x v then -1 else if less y v then 1 else 0)
  | LE | GT => Some (if less v x then -1 else if less y v || ceq y v then 1 else 0)
  end.

(** inequality_search.go:171-182 getIndex. *)
Definition get_index (a b : Z) (crit : inequality) : Z :=
  match crit with LT | LE => a | GE | GT => b end.

(** inequality_search.go:49-68: the loop of FindWithInequality. *)
Fixpoint search_loop (fuel : nat) (arr : list C) (lo hi : Z) (v : C) (crit : inequality) : option Z :=
  match fuel with
  | O => None
  | S f =>
    if lo <=? hi then
      if hi - lo <=? 1 then resolve arr lo hi v crit
      else
        let mid := lo + Z.quot (hi - lo) 2 in
        do ret <- compare arr mid (mid + 1) v crit;
        if ret =? -1 then search_loop f arr lo mid v crit
        else if ret =? 1 then search_loop f arr (mid + 1) hi v crit
        else Some (get_index mid (mid + 1) crit)
    else Some (-1)
  end.

(** inequality_search.go:43-69 FindWithInequality. [None]: the "empty array" error or a panic. *)
Definition find_with_inequality (arr : list C) (low high : Z) (v : C) (crit : inequality) : option Z :=
  match arr with
  | [] => None
  | _ => search_loop (Z.to_nat (high - low) + 1) arr low high v crit
  end.
End Search.
