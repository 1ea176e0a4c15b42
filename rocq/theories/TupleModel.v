(** * Model of the tuple package: update sketch, compact sketch, filter, union, intersection, A-not-B.

    A tuple sketch stores [entry{Hash, Summary}]; the hash table code (tuple/hashtable.go) is the text of
    theta's with that entry type, so the generic [HashtableModel] is used at [E := N * S].
    Summaries have value semantics: this is the code with WithUnionApplyFunc / applyFunc / updateFunc,
    and also the policy/method variants as long as no summary object is shared between sketches
    (sharing is modelled separately, in [TupleProps (hloop)]). *)
From Verif Require Import Base QuickSelectModel ProbeModel HashtableModel ThetaModel.
Local Open Scope nat_scope.

Section Tuple.
  Context {S V : Type}.
  (** entry[S]{}.Summary: the zero value of S in a free slot. *)
  Variable s0 : S.

  Definition ent : Type := N * S.
  Definition ehash (e : ent) : N := fst e.
  Definition zent : ent := (0%N, s0).
  Notation tab := (table ent).

  (** slices.SortFunc(entries, by Hash) (any correct sort; hashes are distinct). *)
  Fixpoint insert_by_hash (x : ent) (l : list ent) : list ent :=
    match l with
    | [] => [x]
    | y :: r => if (fst x <=? fst y)%N then x :: l else y :: insert_by_hash x r
    end.
  Fixpoint sort_by_hash (l : list ent) : list ent :=
    match l with [] => [] | x :: r => insert_by_hash x (sort_by_hash r) end.

  (** ** Update sketch *)

  (** tuple/update_sketch.go:95-151 NewUpdateSketch, NewUpdateSketchWithSummaryUpdateFunc: the same table parameters as theta's. *)
  Definition tup_new (lgK rf theta0 : N) : tab :=
    new_table zent (starting_sub_multiple (lgK + 1) MinLgK rf) lgK rf theta0 theta0 true.

  Definition tup_nonempty (t : tab) : tab :=
    mkTable (t_entries t) (t_theta t) (t_num t) (t_lgCur t) (t_lgNom t) (t_rf t) false (t_theta0 t).

  Definition set_entries (t : tab) (es : list ent) : tab :=
    mkTable es (t_theta t) (t_num t) (t_lgCur t) (t_lgNom t) (t_rf t) (t_empty t) (t_theta0 t).

  (** update_sketch.go:334-351 UpdateInt64 and :502-518 insertOrUpdate, with tuple/hashtable.go:135-147
      HashInt64AndScreen; [upf s v] is updateFunc(s, v) (or s.Update(v)), [mk] is newSummary(). The other
      key types (:360-500) differ only in the hash computed. *)
  Definition tup_update (upf : S -> V -> S) (mk : S) (t : tab) (h : N) (v : V) : option (tab * uerr) :=
    let t := tup_nonempty t in
    if (t_theta t <=? h)%N then Some (t, UErrExceedsTheta)
    else if (h =? 0)%N then Some (t, UErrZeroHash)
    else
      match find ehash (t_entries t) (t_lgCur t) h with
      | PEmpty i =>
        match insert ehash zent t i (h, upf mk v) with None => None | Some t' => Some (t', UNil) end
      | PFound i =>
        match nth_error (t_entries t) i with
        | None => None
        | Some e => Some (set_entries t (upd i (fst e, upf (snd e) v) (t_entries t)), UNil)
        end
      | PFull => Some (t, UErrNoEmptySlots)
      | PPanic | PNoFuel => None
      end.

  Inductive tupop := TUpdate (h : N) (v : V) | TEmptyString (v : V) | TTrim | TReset.

  (** One API call: update_sketch.go:325-500 (updates), :455-458 (empty string), :521-528 Trim and Reset. *)
  Definition tup_step (upf : S -> V -> S) (mk : S) (t : tab) (op : tupop) : option (tab * uerr) :=
    match op with
    | TUpdate h v => tup_update upf mk t h v
    | TEmptyString _ => Some (t, UErrEmptyString)
    | TTrim => match trim ehash zent t with None => None | Some t' => Some (t', UNil) end
    | TReset => Some (reset zent t, UNil)
    end.

  Fixpoint tup_run (upf : S -> V -> S) (mk : S) (t : tab) (ops : list tupop) : option tab :=
    match ops with
    | [] => Some t
    | op :: r => match tup_step upf mk t op with None => None | Some (t', _) => tup_run upf mk t' r end
    end.

  (** ** The Sketch[S] interface (tuple/sketch.go), and the CompactSketch struct (compact_sketch.go:43-50). *)
  Record tsketch := mkTSketch {
    ts_entries : list ent;
    ts_theta : N;
    ts_seed : N;
    ts_empty : bool;
    ts_ordered : bool;
  }.

  (** update_sketch.go:266-308: IsEmpty, IsOrdered (numEntries <= 1), Theta64, NumRetained, All. *)
  Definition tview (seed : N) (t : tab) : tsketch :=
    mkTSketch (table_all ehash t) (if t_empty t then MaxTheta else t_theta t) seed (t_empty t) (t_num t <=? 1).

  (** compact_sketch.go:54-92 NewCompactSketch (Clone is the identity on values). *)
  Definition tcompact (s : tsketch) (ordered : bool) : tsketch :=
    mkTSketch (if ordered && negb (ts_ordered s) then sort_by_hash (ts_entries s) else ts_entries s)
              (ts_theta s) (ts_seed s) (ts_empty s) (ts_ordered s || ordered).

  (** compact_sketch.go:96-132 NewCompactSketchFromThetaSketch. *)
  Definition tcompact_from_theta (s : sketch) (summary : S) (ordered : bool) : tsketch :=
    let es := map (fun h => (h, summary)) (sk_entries s) in
    mkTSketch (if ordered && negb (sk_ordered s) then sort_by_hash es else es)
              (sk_theta s) (sk_seed s) (sk_empty s) (sk_ordered s || ordered).

  (** compact_sketch.go:134-147 newCompactSketch. *)
  Definition tcompact_entries (isEmpty isOrdered : bool) (seed theta : N) (entries : list ent) : tsketch :=
    mkTSketch entries theta seed isEmpty (if length entries <=? 1 then true else isOrdered).

  (** sketch.go IsEstimationMode: Theta64() < MaxTheta && !IsEmpty(). *)
  Definition testimation (s : tsketch) : bool := (ts_theta s <? MaxTheta)%N && negb (ts_empty s).

  (** compact_sketch.go:284-312 newFilteredCompactSketch (Filter of both sketch kinds). *)
  Definition tfilter (s : tsketch) (p : S -> bool) : tsketch :=
    let es := filter (fun e => p (snd e)) (ts_entries s) in
    tcompact_entries (negb (testimation s) && (length es =? 0)) (ts_ordered s) (ts_seed s) (ts_theta s) es.

  (** ** Union *)
  Record tunion := mkTUnion { tu_tab : tab; tu_theta : N; tu_seed : N }.

  (** union.go:96-173 NewUnion, NewUnionWithSummaryMergeFunc. *)
  Definition new_tunion (lgK rf theta0 seed : N) : tunion := mkTUnion (tup_new lgK rf theta0) theta0 seed.

  (** union.go:200-224: the loop over sketch.All(); [ap a b] is applyFunc(a, b). *)
  Fixpoint tunion_loop (ap : S -> S -> S) (utheta : N) (ordered : bool) (l : list ent) (t : tab) : option tab :=
    match l with
    | [] => Some t
    | (h, s) :: r =>
      if (h <? utheta)%N && (h <? t_theta t)%N then
        match find ehash (t_entries t) (t_lgCur t) h with
        | PEmpty i =>
          match insert ehash zent t i (h, s) with None => None | Some t' => tunion_loop ap utheta ordered r t' end
        | PFound i =>
          match nth_error (t_entries t) i with
          | None => None
          | Some e => tunion_loop ap utheta ordered r (set_entries t (upd i (fst e, ap (snd e) s) (t_entries t)))
          end
        | _ => None
        end
      else if ordered then Some t else tunion_loop ap utheta ordered r t
    end.

  (** union.go:179-228 Update. [None]: an error is returned. *)
  Definition tunion_update (ap : S -> S -> S) (u : tunion) (s : tsketch) : option tunion :=
    if ts_empty s then Some u
    else if negb (tu_seed u =? ts_seed s)%N then None
    else
      let th := N.min (tu_theta u) (ts_theta s) in
      match tunion_loop ap th (ts_ordered s) (ts_entries s) (tup_nonempty (tu_tab u)) with
      | None => None
      | Some t' => Some (mkTUnion t' (N.min th (t_theta t')) (tu_seed u))
      end.

  (** union.go:231-277 Result. *)
  Definition tunion_result (u : tunion) (ordered : bool) : option tsketch :=
    let t := tu_tab u in
    if t_empty t then Some (tcompact_entries true true (tu_seed u) (tu_theta u) [])
    else
      let theta := N.min (tu_theta u) (t_theta t) in
      let nominal := pow2 (t_lgNom t) in
      let entries :=
        if (t_theta t <=? tu_theta u)%N then filter (fun e => negb (ehash e =? 0)%N) (t_entries t)
        else filter (fun e => negb (ehash e =? 0)%N && (ehash e <? theta)%N) (t_entries t) in
      match
        (if nominal <? length entries then
           match quick_select (hash_lt ehash) entries 0 (length entries - 1) nominal with
           | None => None
           | Some (es, _) =>
             match nth_error es nominal with
             | None => None
             | Some x => Some (ehash x, firstn nominal es)
             end
           end
         else Some (theta, entries))
      with
      | None => None
      | Some (th, es) =>
        Some (tcompact_entries (t_empty t) ordered (tu_seed u) th (if ordered then sort_by_hash es else es))
      end.

  (** union.go:286-289 Reset. *)
  Definition tunion_reset (u : tunion) : tunion :=
    let t := reset zent (tu_tab u) in mkTUnion t (t_theta t) (tu_seed u).

  (** ** Intersection *)
  Record tinter := mkTInter { ti_tab : tab; ti_valid : bool; ti_seed : N }.

  (** intersection.go:51-104 NewIntersection, NewIntersectionWithSummaryMergeFunc. *)
  Definition new_tinter (seed : N) : tinter := mkTInter (new_table zent 0 0 0 MaxTheta MaxTheta false) false seed.

  Definition tset_theta_empty (t : tab) (theta : N) (e : bool) : tab :=
    mkTable (t_entries t) theta (t_num t) (t_lgCur t) (t_lgNom t) (t_rf t) e (t_theta0 t).

  (** intersection.go:153-163: first update. *)
  Fixpoint tinter_fill (l : list ent) (t : tab) : option tab :=
    match l with
    | [] => Some t
    | e :: r =>
      match find ehash (t_entries t) (t_lgCur t) (fst e) with
      | PFound _ => None
      | PEmpty i => match insert ehash zent t i e with None => None | Some t' => tinter_fill r t' end
      | PFull => match insert ehash zent t 0 e with None => None | Some t' => tinter_fill r t' end
      | _ => None
      end
    end.

  (** intersection.go:179-203: the match loop; the summary is combined in the table, then copied. *)
  Fixpoint tinter_match (ap : S -> S -> S) (t : tab) (ordered : bool) (maxMatches : nat) (l : list ent)
           (matches : list ent) (count : nat) : option (list ent * nat) :=
    match l with
    | [] => Some (matches, count)
    | (h, s) :: r =>
      if (h <? t_theta t)%N then
        match find ehash (t_entries t) (t_lgCur t) h with
        | PFound i =>
          if length matches =? maxMatches then None
          else match nth_error (t_entries t) i with
               | None => None
               | Some e =>
                 let e' := (fst e, ap (snd e) s) in
                 tinter_match ap (set_entries t (upd i e' (t_entries t))) ordered maxMatches r (matches ++ [e']) (count + 1)
               end
        | PEmpty _ | PFull => tinter_match ap t ordered maxMatches r matches (count + 1)
        | _ => None
        end
      else if ordered then Some (matches, count)
      else tinter_match ap t ordered maxMatches r matches (count + 1)
    end.

  (** intersection.go:221-229. *)
  Fixpoint tinter_refill (l : list ent) (t : tab) : option tab :=
    match l with
    | [] => Some t
    | e :: r =>
      match find ehash (t_entries t) (t_lgCur t) (fst e) with
      | PFound i | PEmpty i => match insert ehash zent t i e with None => None | Some t' => tinter_refill r t' end
      | _ => None
      end
    end.

  (** intersection.go:110-232 Update. *)
  Definition tinter_update (ap : S -> S -> S) (x : tinter) (s : tsketch) : option tinter :=
    let t := ti_tab x in
    if t_empty t then Some x
    else if negb (ts_empty s) && negb (ts_seed s =? ti_seed x)%N then None
    else
      let e := t_empty t || ts_empty s in
      let th := if e then MaxTheta else N.min (t_theta t) (ts_theta s) in
      let t := tset_theta_empty t th e in
      if ti_valid x && (t_num t =? 0) then Some (mkTInter t true (ti_seed x))
      else if length (ts_entries s) =? 0 then
        Some (mkTInter (new_table zent 0 0 0 th MaxTheta e) true (ti_seed x))
      else if negb (ti_valid x) then
        let lg := lg_size_from_count (N.of_nat (length (ts_entries s))) in
        match tinter_fill (ts_entries s) (new_table zent lg (lg - 1) 0 th MaxTheta e) with
        | None => None
        | Some t' => if t_num t' =? length (ts_entries s) then Some (mkTInter t' true (ti_seed x)) else None
        end
      else
        let maxM := Nat.min (t_num t) (length (ts_entries s)) in
        match tinter_match ap t (ts_ordered s) maxM (ts_entries s) [] 0 with
        | None => None
        | Some (ms, count) =>
          if length (ts_entries s) <? count then None
          else if negb (ts_ordered s) && (count <? length (ts_entries s)) then None
          else if length ms =? 0 then
            Some (mkTInter (new_table zent 0 0 0 th MaxTheta (if (th =? MaxTheta)%N then true else e)) true (ti_seed x))
          else
            let lg := lg_size_from_count (N.of_nat (length ms)) in
            match tinter_refill ms (new_table zent lg (lg - 1) 0 th MaxTheta e) with
            | None => None
            | Some t' => Some (mkTInter t' true (ti_seed x))
            end
        end.

  (** intersection.go:235-268 Result. *)
  Definition tinter_result (x : tinter) (ordered : bool) : option tsketch :=
    if ti_valid x then
      let t := ti_tab x in
      let es := if 0 <? t_num t then filter (fun e => negb (ehash e =? 0)%N) (t_entries t) else [] in
      let es := if (0 <? t_num t) && ordered then sort_by_hash es else es in
      Some (tcompact_entries (t_empty t) ordered (ti_seed x) (t_theta t) es)
    else None.

  (** ** A-not-B. [b] is used only through its hashes, so it is a theta view; the hash table of
      computeHashBased is a theta table (a_not_b.go:129). *)

  (** the theta view of a tuple sketch (the values ANotB reads from b). *)
  Definition erase_sk (s : tsketch) : sketch :=
    mkSketch (map fst (ts_entries s)) (ts_theta s) (ts_seed s) (ts_empty s) (ts_ordered s).

  (** a_not_b.go:104-124 computeSortBased. *)
  Definition tanotb_sort (a : tsketch) (b : sketch) (theta : N) : list ent :=
    filter (fun e => negb (existsb (N.eqb (fst e)) (sk_entries b)) && (fst e <? theta)%N) (ts_entries a).

  (** a_not_b.go:145-158: scan a. *)
  Fixpoint tanotb_scan (ordered : bool) (theta : N) (t : ttable) (l : list ent) : option (list ent) :=
    match l with
    | [] => Some []
    | e :: r =>
      if (fst e <? theta)%N then
        match find tid (t_entries t) (t_lgCur t) (fst e) with
        | PEmpty _ => match tanotb_scan ordered theta t r with None => None | Some es => Some (e :: es) end
        | PFound _ | PFull => tanotb_scan ordered theta t r
        | _ => None
        end
      else if ordered then Some [] else tanotb_scan ordered theta t r
    end.

  (** a_not_b.go:126-161 computeHashBased. *)
  Definition tanotb_hash (a : tsketch) (b : sketch) (theta : N) : option (list ent) :=
    let lg := lg_size_from_count (N.of_nat (length (sk_entries b))) in
    match anotb_fill (sk_ordered b) theta (sk_entries b) (new_table 0%N lg lg 0 0 0 false) with
    | None => None
    | Some t => tanotb_scan (ts_ordered a) theta t (ts_entries a)
    end.

  (** a_not_b.go:163-296 TupleANotThetaB. *)
  Definition tuple_a_not_theta_b (a : tsketch) (b : sketch) (seed : N) (ordered : bool) : option tsketch :=
    if ts_empty a then Some (tcompact a ordered)
    else if (0 <? length (ts_entries a)) && sk_empty b then Some (tcompact a ordered)
    else if negb (ts_seed a =? seed)%N then None
    else if negb (sk_seed b =? seed)%N then None
    else
      let theta := N.min (ts_theta a) (sk_theta b) in
      match
        (if length (sk_entries b) =? 0 then Some (filter (fun e => fst e <? theta)%N (ts_entries a))
         else if ts_ordered a && sk_ordered b then Some (tanotb_sort a b theta)
         else tanotb_hash a b theta)
      with
      | None => None
      | Some es =>
        let isEmpty := if (length es =? 0) && (theta =? MaxTheta)%N then true else ts_empty a in
        let es := if ordered && negb (ts_ordered a) then sort_by_hash es else es in
        Some (tcompact_entries isEmpty (ts_ordered a || ordered) seed theta es)
      end.

  (** a_not_b.go:29-102 ANotB: the same text with b a tuple sketch. *)
  Definition tuple_a_not_b (a b : tsketch) (seed : N) (ordered : bool) : option tsketch :=
    tuple_a_not_theta_b a (erase_sk b) seed ordered.
End Tuple.
Arguments tsketch : clear implicits.
Arguments tunion : clear implicits.
Arguments tinter : clear implicits.
Arguments tupop : clear implicits.
Arguments ent : clear implicits.
