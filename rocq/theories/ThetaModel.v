(** * Model of the theta package: update sketch, compact sketch, union, intersection, A-not-B.

    Hashes are inputs: an update carries the 63-bit value [h1 >> 1] that HashXAndScreen
    computes from the datum (theta/hashtable.go:105-158); the theorems hold for every
    sequence of such values, hence for every item type and hash function. *)
From Verif Require Import Base QuickSelectModel ProbeModel HashtableModel.
Local Open Scope nat_scope.

(** theta stores bare hashes: entry = uint64, 0 = free. *)
Definition tid (x : N) : N := x.
Notation ttable := (table N).

(** ** Sorting: [slices.Sort] on []uint64 (any correct algorithm gives this list). *)
Fixpoint insert_sorted (x : N) (l : list N) : list N :=
  match l with
  | [] => [x]
  | y :: r => if (x <=? y)%N then x :: l else y :: insert_sorted x r
  end.
Fixpoint sortN (l : list N) : list N :=
  match l with [] => [] | x :: r => insert_sorted x (sortN r) end.

(** ** Update sketch *)

(** theta/update_sketch.go:86-115 NewQuickSelectUpdateSketch; [theta0] = startingThetaFromP(p)
    (theta/utils.go:54-59), an arbitrary value in [0, MaxTheta]. The option checks :97-105 are the
    hypotheses [MinLgK <= lgK <= MaxLgK]. *)
Definition new_update_sketch (lgK rf theta0 : N) : ttable :=
  new_table 0%N (starting_sub_multiple (lgK + 1) MinLgK rf) lgK rf theta0 theta0 true.

Inductive uerr := UNil | UErrExceedsTheta | UErrZeroHash | UErrDuplicate | UErrNoEmptySlots | UErrEmptyString.

Definition set_nonempty (t : ttable) : ttable :=
  mkTable (t_entries t) (t_theta t) (t_num t) (t_lgCur t) (t_lgNom t) (t_rf t) false (t_theta0 t).

(** theta/update_sketch.go:261-277 UpdateInt64 with theta/hashtable.go:133-144 HashInt64AndScreen; the
    Int32/String/Bytes variants (:287-303, :353-373, :377-393) differ only in the hash computed. *)
Definition update (t : ttable) (h : N) : option (ttable * uerr) :=
  let t := set_nonempty t in                                    (* hashtable.go:134 *)
  if (t_theta t <=? h)%N then Some (t, UErrExceedsTheta)        (* :137 *)
  else if (h =? 0)%N then Some (t, UErrZeroHash)                (* :140 *)
  else
    match find tid (t_entries t) (t_lgCur t) h with
    | PEmpty i => match insert tid 0%N t i h with None => None | Some t' => Some (t', UNil) end
    | PFound _ => Some (t, UErrDuplicate)
    | PFull => Some (t, UErrNoEmptySlots)
    | PPanic | PNoFuel => None
    end.

(** The operations of an update sketch that change its state. *)
Inductive uop := OpUpdate (h : N) | OpEmptyString | OpTrim | OpReset.

(** One API call: update_sketch.go:261-398 (updates), :353-356 (empty string), :396-398 Trim, :401-403 Reset. *)
Definition ustep (t : ttable) (op : uop) : option (ttable * uerr) :=
  match op with
  | OpUpdate h => update t h
  | OpEmptyString => Some (t, UErrEmptyString)
  | OpTrim => match trim tid 0%N t with None => None | Some t' => Some (t', UNil) end
  | OpReset => Some (reset 0%N t, UNil)
  end.

Fixpoint urun (t : ttable) (ops : list uop) : option ttable :=
  match ops with
  | [] => Some t
  | op :: r => match ustep t op with None => None | Some (t', _) => urun t' r end
  end.

(** ** The Sketch interface (theta/sketch.go) as seen by the set operations: the values
    returned by All() (in order), Theta64(), SeedHash(), IsEmpty(), IsOrdered(); NumRetained() is the
    length of All(). It is also the CompactSketch struct (theta/compact_sketch.go:65-71). *)
Record sketch := mkSketch {
  sk_entries : list N;
  sk_theta : N;
  sk_seed : N;
  sk_empty : bool;
  sk_ordered : bool;
}.

(** update_sketch.go:119-148, 406-416: the interface view of an update sketch. *)
Definition view_update (seed : N) (t : ttable) : sketch :=
  mkSketch (table_all tid t)
           (if t_empty t then MaxTheta else t_theta t)            (* :129-134 *)
           seed (t_empty t)
           (t_num t <=? 1).                                       (* :124-126 *)

(** theta/compact_sketch.go:74-98 NewCompactSketch. *)
Definition new_compact (s : sketch) (ordered : bool) : sketch :=
  mkSketch (if sk_empty s then []
            else if ordered && negb (sk_ordered s) then sortN (sk_entries s) else sk_entries s)
           (sk_theta s) (sk_seed s) (sk_empty s) (sk_ordered s || ordered).

(** theta/compact_sketch.go:100-112 newCompactSketchFromEntries. *)
Definition compact_from_entries (isEmpty isOrdered : bool) (seed theta : N) (entries : list N) : sketch :=
  mkSketch entries theta seed isEmpty (if length entries <=? 1 then true else isOrdered).

(** ** Union *)
Record union := mkUnion { u_tab : ttable; u_theta : N; u_seed : N }.

(** theta/union.go:78-112 NewUnion. *)
Definition new_union (lgK rf theta0 seed : N) : union :=
  mkUnion (new_update_sketch lgK rf theta0) theta0 seed.

(** theta/union.go:135-153: the loop over sketch.All(). The policy is the default no-op (:146). *)
Fixpoint union_loop (utheta : N) (ordered : bool) (l : list N) (t : ttable) : option ttable :=
  match l with
  | [] => Some t
  | e :: r =>
    if (e <? utheta)%N && (e <? t_theta t)%N then
      match find tid (t_entries t) (t_lgCur t) e with
      | PEmpty i => match insert tid 0%N t i e with None => None | Some t' => union_loop utheta ordered r t' end
      | PFound _ => union_loop utheta ordered r t
      | _ => None
      end
    else if ordered then Some t else union_loop utheta ordered r t
  end.

(** theta/union.go:115-157 Update. [None]: an error is returned. *)
Definition union_update (u : union) (s : sketch) : option union :=
  if sk_empty s then Some u
  else if negb (u_seed u =? sk_seed s)%N then None                (* :128 *)
  else
    let th := N.min (u_theta u) (sk_theta s) in                   (* :133 *)
    match union_loop th (sk_ordered s) (sk_entries s) (set_nonempty (u_tab u)) with
    | None => None
    | Some t' => Some (mkUnion t' (N.min th (t_theta t')) (u_seed u))   (* :155 *)
    end.

(** theta/union.go:160-204 Result. *)
Definition union_result (u : union) (ordered : bool) : option sketch :=
  let t := u_tab u in
  if t_empty t then Some (compact_from_entries true true (u_seed u) (u_theta u) [])
  else
    let theta := N.min (u_theta u) (t_theta t) in
    let nominal := pow2 (t_lgNom t) in
    let entries :=
      if (t_theta t <=? u_theta u)%N then filter (fun e => negb (e =? 0)%N) (t_entries t)
      else filter (fun e => negb (e =? 0)%N && (e <? theta)%N) (t_entries t) in
    match
      (if nominal <? length entries then
         match quick_select (hash_lt tid) entries 0 (length entries - 1) nominal with
         | None => None
         | Some (es, _) =>
           match nth_error es nominal with
           | None => None
           | Some th => Some (th, firstn nominal es)
           end
         end
       else Some (theta, entries))
    with
    | None => None
    | Some (th, es) =>
      Some (compact_from_entries (t_empty t) ordered (u_seed u) th (if ordered then sortN es else es))
    end.

(** theta/union.go:213-216 Reset. *)
Definition union_reset (u : union) : union :=
  let t := reset 0%N (u_tab u) in mkUnion t (t_theta t) (u_seed u).

(** ** internal/utils.go:135-145 LgSizeFromCount with loadFactor = 15/16 (exact in float64);
    Log2Floor is [N.log2]. *)
Definition lg_size_from_count (n : N) : N :=
  let lgN := N.log2 n in
  if (15 * 2 ^ (lgN + 1) / 16 <? n)%N then (lgN + 2)%N else (lgN + 1)%N.

(** ** Intersection *)
Record inter := mkInter { i_tab : ttable; i_valid : bool; i_seed : N }.

(** theta/intersection.go:56-72 NewIntersection. *)
Definition new_inter (seed : N) : inter :=
  mkInter (new_table 0%N 0 0 0 MaxTheta MaxTheta false) false seed.

Definition set_theta_empty (t : ttable) (theta : N) (e : bool) : ttable :=
  mkTable (t_entries t) theta (t_num t) (t_lgCur t) (t_lgNom t) (t_rf t) e (t_theta0 t).

(** intersection.go:117-124: first update, fill the table; a key found is an error; a full table gives index 0. *)
Fixpoint inter_fill (l : list N) (t : ttable) : option ttable :=
  match l with
  | [] => Some t
  | e :: r =>
    match find tid (t_entries t) (t_lgCur t) e with
    | PFound _ => None
    | PEmpty i => match insert tid 0%N t i e with None => None | Some t' => inter_fill r t' end
    | PFull => match insert tid 0%N t 0 e with None => None | Some t' => inter_fill r t' end
    | _ => None
    end
  end.

(** intersection.go:140-159: collect matches; returns (matches in order, count). *)
Fixpoint inter_match (t : ttable) (ordered : bool) (maxMatches : nat) (l : list N)
         (matches : list N) (count : nat) : option (list N * nat) :=
  match l with
  | [] => Some (matches, count)
  | e :: r =>
    if (e <? t_theta t)%N then
      match find tid (t_entries t) (t_lgCur t) e with
      | PFound i =>
        if length matches =? maxMatches then None                 (* :144 *)
        else match nth_error (t_entries t) i with
             | None => None
             | Some x => inter_match t ordered maxMatches r (matches ++ [x]) (count + 1)
             end
      | PEmpty _ | PFull => inter_match t ordered maxMatches r matches (count + 1)
      | _ => None
      end
    else if ordered then Some (matches, count)                    (* :153-156 *)
    else inter_match t ordered maxMatches r matches (count + 1)
  end.

(** intersection.go:178-185: rebuild the table from the matches. *)
Fixpoint inter_refill (l : list N) (t : ttable) : option ttable :=
  match l with
  | [] => Some t
  | e :: r =>
    match find tid (t_entries t) (t_lgCur t) e with
    | PFound i | PEmpty i => match insert tid 0%N t i e with None => None | Some t' => inter_refill r t' end
    | _ => None
    end
  end.

(** theta/intersection.go:75-188 Update. [None]: an error is returned (or a panic). *)
Definition inter_update (x : inter) (s : sketch) : option inter :=
  let t := i_tab x in
  if t_empty t then Some x                                                       (* :76 *)
  else if negb (sk_empty s) && negb (sk_seed s =? i_seed x)%N then None          (* :88 *)
  else
    let e := t_empty t || sk_empty s in                                          (* :92 *)
    let th := if e then MaxTheta else N.min (t_theta t) (sk_theta s) in          (* :93-97 *)
    let t := set_theta_empty t th e in
    if i_valid x && (t_num t =? 0) then Some (mkInter t true (i_seed x))         (* :99 *)
    else if length (sk_entries s) =? 0 then                                      (* :103 *)
      Some (mkInter (new_table 0%N 0 0 0 th MaxTheta e) true (i_seed x))
    else if negb (i_valid x) then                                                (* :111 *)
      let lg := lg_size_from_count (N.of_nat (length (sk_entries s))) in
      match inter_fill (sk_entries s) (new_table 0%N lg (lg - 1) 0 th MaxTheta e) with
      | None => None
      | Some t' => if t_num t' =? length (sk_entries s) then Some (mkInter t' true (i_seed x)) else None
      end
    else
      let maxM := Nat.min (t_num t) (length (sk_entries s)) in                   (* :135 *)
      match inter_match t (sk_ordered s) maxM (sk_entries s) [] 0 with
      | None => None
      | Some (ms, count) =>
        if length (sk_entries s) <? count then None                              (* :161 *)
        else if negb (sk_ordered s) && (count <? length (sk_entries s)) then None (* :164 *)
        else if length ms =? 0 then                                              (* :168 *)
          Some (mkInter (new_table 0%N 0 0 0 th MaxTheta (if (th =? MaxTheta)%N then true else e)) true (i_seed x))
        else
          let lg := lg_size_from_count (N.of_nat (length ms)) in
          match inter_refill ms (new_table 0%N lg (lg - 1) 0 th MaxTheta e) with
          | None => None
          | Some t' => Some (mkInter t' true (i_seed x))
          end
      end.

(** theta/intersection.go:191-221 Result. *)
Definition inter_result (x : inter) (ordered : bool) : option sketch :=
  if i_valid x then
    let t := i_tab x in
    let es := if 0 <? t_num t then filter (fun e => negb (e =? 0)%N) (t_entries t) else [] in
    let es := if (0 <? t_num t) && ordered then sortN es else es in
    Some (compact_from_entries (t_empty t) ordered (i_seed x) (t_theta t) es)
  else None.

(** ** A-not-B *)

(** theta/a_not_b.go:93-110 computeSortBased: a Go map of b's entries, then a filter. *)
Definition anotb_sort (a b : sketch) (theta : N) : list N :=
  filter (fun e => negb (existsb (N.eqb e) (sk_entries b)) && (e <? theta)%N) (sk_entries a).

(** a_not_b.go:117-128: load b's entries below theta into the table. *)
Fixpoint anotb_fill (ordered : bool) (theta : N) (l : list N) (t : ttable) : option ttable :=
  match l with
  | [] => Some t
  | e :: r =>
    if (e <? theta)%N then
      match find tid (t_entries t) (t_lgCur t) e with
      | PFound i | PEmpty i => match insert tid 0%N t i e with None => None | Some t' => anotb_fill ordered theta r t' end
      | _ => None
      end
    else if ordered then Some t else anotb_fill ordered theta r t
  end.

(** a_not_b.go:130-141: scan a. *)
Fixpoint anotb_scan (ordered : bool) (theta : N) (t : ttable) (l : list N) : option (list N) :=
  match l with
  | [] => Some []
  | e :: r =>
    if (e <? theta)%N then
      match find tid (t_entries t) (t_lgCur t) e with
      | PEmpty _ => match anotb_scan ordered theta t r with None => None | Some es => Some (e :: es) end
      | PFound _ | PFull => anotb_scan ordered theta t r
      | _ => None
      end
    else if ordered then Some [] else anotb_scan ordered theta t r
  end.

(** a_not_b.go:112-144 computeHashBased. *)
Definition anotb_hash (a b : sketch) (theta : N) : option (list N) :=
  let lg := lg_size_from_count (N.of_nat (length (sk_entries b))) in
  match anotb_fill (sk_ordered b) theta (sk_entries b) (new_table 0%N lg lg 0 0 0 false) with
  | None => None
  | Some t => anotb_scan (sk_ordered a) theta t (sk_entries a)
  end.

(** theta/a_not_b.go:28-91 ANotB; [seed] is ComputeSeedHash of the seed argument. *)
Definition a_not_b (a b : sketch) (seed : N) (ordered : bool) : option sketch :=
  if sk_empty a then Some (new_compact a ordered)
  else if (0 <? length (sk_entries a)) && sk_empty b then Some (new_compact a ordered)
  else if negb (sk_seed a =? seed)%N then None
  else if negb (sk_seed b =? seed)%N then None
  else
    let theta := N.min (sk_theta a) (sk_theta b) in
    match
      (if length (sk_entries b) =? 0 then Some (filter (fun e => e <? theta)%N (sk_entries a))
       else if sk_ordered a && sk_ordered b then Some (anotb_sort a b theta)
       else anotb_hash a b theta)
    with
    | None => None
    | Some es =>
      let isEmpty := if (length es =? 0) && (theta =? MaxTheta)%N then true else sk_empty a in
      let es := if ordered && negb (sk_ordered a) then sortN es else es in
      Some (compact_from_entries isEmpty (sk_ordered a || ordered) seed theta es)
    end.
