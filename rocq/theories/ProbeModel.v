(** * The open-addressing probe loop shared by several Go tables.

    theta/hashtable.go:166-186 (find), tuple/hashtable.go:169-189 (find),
    hll/coupon_hash_set.go (find) and hll/aux_hash_map.go (find) all run the same loop over a
    power-of-two table: start at [idx], step by an odd [stride] under [mask], stop at an
    empty slot, at a matching slot, or when back at the start. The four Go texts differ only in
    how a cell is classified; that is the [test] argument. *)
From Verif Require Import Base.

Inductive ptest := TEmpty | TMatch | TOther.

Inductive presult :=
| PEmpty (i : nat)      (* not present; i is the free slot *)
| PFound (i : nat)      (* present at slot i *)
| PFull                 (* back at the start: not present and no free slot *)
| PPanic                (* index out of range *)
| PNoFuel.

Section Loop.
  Context {A : Type}.
  Fixpoint probe_loop (fuel : nat) (t : list A) (test : A -> ptest)
           (mask stride idx start : N) : presult :=
    match fuel with
    | O => PNoFuel
    | S f =>
      match nth_error t (N.to_nat idx) with
      | None => PPanic
      | Some a =>
        match test a with
        | TEmpty => PEmpty (N.to_nat idx)
        | TMatch => PFound (N.to_nat idx)
        | TOther =>
          let idx' := N.land (idx + stride) mask in
          if (idx' =? start)%N then PFull
          else probe_loop f t test mask stride idx' start
        end
      end
    end.
End Loop.
