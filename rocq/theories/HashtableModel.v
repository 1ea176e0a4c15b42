(** * Model of theta/hashtable.go and tuple/hashtable.go.

    The two Go files are the same text up to the entry type: theta stores bare hashes
    ([E := N], [hashOf := id]), tuple stores [entry{Hash, Summary}].  The model is generic in
    the entry type [E], its hash [hashOf] (0 = free slot) and the zero entry.
    Sizes ([1 << lg]) and counters are [nat] (Go: int/uint32; lg <= 27 so no wrap can occur).
    [None] = panic or internal loop failure. *)
From Verif Require Import Base QuickSelectModel ProbeModel.
Local Open Scope nat_scope.

Definition pow2 (lg : N) : nat := N.to_nat (2 ^ lg).

(** theta/hashtable.go:27-30, 208-216 computeCapacity: floor(0.5 * 2^lg) resp. floor(15/16 * 2^lg),
    exact in float64 for lg < 53. tuple/hashtable.go:211-219. *)
Definition compute_capacity (lgCur lgNom : N) : nat :=
  if (lgCur <=? lgNom)%N then pow2 lgCur / 2 else 15 * pow2 lgCur / 16.

(** theta/hashtable.go:189-192 computeStride, tuple/hashtable.go:192-195; strideMask = 127 (:32-35). *)
Definition compute_stride (key lgSize : N) : N :=
  (2 * N.land (N.shiftr key lgSize) 127 + 1)%N.

(** theta/utils.go:62-70, tuple/hashtable.go:319-327 startingSubMultiple (uint8 values <= 27, no wrap). *)
Definition starting_sub_multiple (lgTgt lgMin lgRf : N) : N :=
  (if lgTgt <=? lgMin then lgMin
   else if lgRf =? 0 then lgTgt
   else (lgTgt - lgMin) mod lgRf + lgMin)%N.

Definition MaxTheta : N := (2 ^ 63 - 1)%N.        (* theta/constants.go:40 *)
Definition MinLgK : N := 5%N.                     (* theta/constants.go:43 *)
Definition MaxLgK : N := 26%N.                    (* theta/constants.go:46 *)

Section HT.
  Context {E : Type}.
  Variable hashOf : E -> N.
  Variable zeroE : E.

  (** theta/hashtable.go:46-56, tuple/hashtable.go (struct hashtable). [seed] and [p] are only read by
      hashing and Reset; [t_theta0] stands for startingThetaFromP(p), a value fixed at construction. *)
  Record table := mkTable {
    t_entries : list E;
    t_theta : N;
    t_num : nat;
    t_lgCur : N;
    t_lgNom : N;
    t_rf : N;
    t_empty : bool;
    t_theta0 : N;
  }.

  (** theta/hashtable.go:59-78 NewHashtable: lgCurSize = 0 leaves the slice nil. *)
  Definition new_table (lgCur lgNom rf theta theta0 : N) (isEmpty : bool) : table :=
    mkTable (if (0 <? lgCur)%N then repeat zeroE (pow2 lgCur) else []) theta 0 lgCur lgNom rf isEmpty theta0.

  Definition hash_test (key : N) (e : E) : ptest :=
    if (hashOf e =? 0)%N then TEmpty else if (hashOf e =? key)%N then TMatch else TOther.

  (** theta/hashtable.go:166-186 find, tuple/hashtable.go:169-189. (uint32(key) & mask = key & mask
      because mask < 2^32.) *)
  Definition find (entries : list E) (lgSize key : N) : presult :=
    let mask := (2 ^ lgSize - 1)%N in
    let stride := compute_stride key lgSize in
    let index := N.land key mask in
    probe_loop (pow2 lgSize) entries (hash_test key) mask stride index index.

  (** [index, _ := find(..)]: the error is dropped; on ErrKeyNotFoundAndNoEmptySlots the index is 0. *)
  Definition find_index (entries : list E) (lgSize key : N) : option nat :=
    match find entries lgSize key with
    | PEmpty i | PFound i => Some i
    | PFull => Some 0
    | PPanic | PNoFuel => None
    end.

  (** One step of the reinsertion loops (resize :224-231, rebuild :252-255). *)
  Definition reinsert (lg : N) (acc : option (list E)) (e : E) : option (list E) :=
    match acc with
    | None => None
    | Some es =>
      match find_index es lg (hashOf e) with
      | None => None
      | Some i => if i <? length es then Some (upd i e es) else None
      end
    end.

  (** theta/hashtable.go:218-235 resize, tuple/hashtable.go:221-238. *)
  Definition resize (t : table) : option table :=
    let lgNew := N.min (t_lgCur t + t_rf t) (t_lgNom t + 1) in
    if length (t_entries t) =? pow2 (t_lgCur t) then
      let live := filter (fun e => negb (hashOf e =? 0)%N) (t_entries t) in
      match fold_left (reinsert lgNew) live (Some (repeat zeroE (pow2 lgNew))) with
      | None => None
      | Some es => Some (mkTable es (t_theta t) (t_num t) lgNew (t_lgNom t) (t_rf t) (t_empty t) (t_theta0 t))
      end
    else None.

  (** theta/hashtable.go:286-290: first free slot. *)
  Fixpoint first_free (l : list E) (i : nat) : nat :=
    match l with
    | [] => i
    | e :: r => if (hashOf e =? 0)%N then i else first_free r (S i)
    end.

  (** theta/hashtable.go:292-302: the compaction scan over j (the list of remaining j's). *)
  Fixpoint consolidate_loop (js : list nat) (entries : list E) (i num : nat) : option (list E) :=
    match js with
    | [] => Some entries
    | j :: js' =>
      match nth_error entries j with
      | None => None
      | Some e =>
        if (hashOf e =? 0)%N then consolidate_loop js' entries i num
        else if i <? length entries then
          let entries' := upd j zeroE (upd i e entries) in
          if i + 1 =? num then Some entries' else consolidate_loop js' entries' (i + 1) num
        else None
      end
    end.

  (** theta/hashtable.go:285-303 consolidateNonEmpty, tuple/hashtable.go:288-306. *)
  Definition consolidate (entries : list E) (size num : nat) : option (list E) :=
    let i := first_free (firstn size entries) 0 in
    consolidate_loop (seq (i + 1) (size - (i + 1))) entries i num.

  Definition hash_lt (a b : E) : bool := (hashOf a <? hashOf b)%N.

  (** theta/hashtable.go:237-256 rebuild, tuple/hashtable.go:240-259. *)
  Definition rebuild (t : table) : option table :=
    let size := pow2 (t_lgCur t) in
    let nominal := pow2 (t_lgNom t) in
    match consolidate (t_entries t) size (t_num t) with
    | None => None
    | Some es =>
      if length es <? t_num t then None else            (* slicing t.entries[:numEntries] *)
      match quick_select hash_lt (firstn (t_num t) es) 0 (t_num t - 1) nominal with
      | None => None
      | Some (pre, _) =>
        let old := pre ++ skipn (t_num t) es in
        match nth_error old nominal with
        | None => None
        | Some pivot =>
          match fold_left (reinsert (t_lgCur t)) (firstn nominal old) (Some (repeat zeroE size)) with
          | None => None
          | Some es' => Some (mkTable es' (hashOf pivot) nominal (t_lgCur t) (t_lgNom t) (t_rf t) (t_empty t) (t_theta0 t))
          end
        end
      end
    end.

  (** theta/hashtable.go:195-206 Insert, tuple/hashtable.go:198-209. *)
  Definition insert (t : table) (index : nat) (e : E) : option table :=
    if index <? length (t_entries t) then
      let t1 := mkTable (upd index e (t_entries t)) (t_theta t) (t_num t + 1)
                        (t_lgCur t) (t_lgNom t) (t_rf t) (t_empty t) (t_theta0 t) in
      if compute_capacity (t_lgCur t1) (t_lgNom t1) <? t_num t1 then
        if (t_lgCur t1 <=? t_lgNom t1)%N then resize t1 else rebuild t1
      else Some t1
    else None.

  (** theta/hashtable.go:259-263 Trim, tuple/hashtable.go:262-266. *)
  Definition trim (t : table) : option table :=
    if pow2 (t_lgNom t) <? t_num t then rebuild t else Some t.

  (** theta/hashtable.go:266-283 Reset, tuple/hashtable.go:269-286 (both branches leave 2^lg zero cells). *)
  Definition reset (t : table) : table :=
    let lg := starting_sub_multiple (t_lgNom t + 1) MinLgK (t_rf t) in
    mkTable (repeat zeroE (if (lg =? t_lgCur t)%N then length (t_entries t) else pow2 lg))
            (t_theta0 t) 0 lg (t_lgNom t) (t_rf t) true (t_theta0 t).

  (** The iteration order of All(): theta/update_sketch.go:406-416, tuple likewise. *)
  Definition table_all (t : table) : list E := filter (fun e => negb (hashOf e =? 0)%N) (t_entries t).
End HT.
Arguments table : clear implicits.
