(** * The tuple package with summaries as objects: tuple/update_sketch.go, union.go, intersection.go, compact_sketch.go in
    the branches that use Policy.Apply and Summary.Update, which modify a summary in place.

    A summary is an address (the pointer) into a heap [list S]; a sketch is a [tsketch nat], a table a [table (ent nat)].
    The free slot holds the pair (0, 0), whose address is never read. [ap x y] is what Policy.Apply leaves in the object
    that held [x] when its second argument holds [y]; [upf x v] is what Update(v) leaves in it. The value model
    ([TupleModel]) is the code with merge functions; here nothing is copied unless the code calls Clone. *)
From Verif Require Import Base QuickSelectModel ProbeModel HashtableModel ThetaModel TupleModel.
Local Open Scope nat_scope.

Section Heap.
  Context {S V : Type}.
  Variable ap : S -> S -> S.
  Notation hent := (ent nat).
  Notation htab := (table (ent nat)).
  Notation heap := (list S).

  (** Policy.Apply(internal, incoming) (tuple/set_operation.go:21-24). [None]: an address outside the heap. *)
  Definition policy_apply (hp : heap) (a b : nat) : option heap :=
    match nth_error hp a, nth_error hp b with
    | Some x, Some y => Some (upd a (ap x y) hp)
    | _, _ => None
    end.

  (** Summary.Clone of each entry in turn: a new object at the end of the heap. *)
  Fixpoint clone_all (hp : heap) (l : list hent) : option (list hent * heap) :=
    match l with
    | [] => Some ([], hp)
    | (h, a) :: r =>
      match nth_error hp a with
      | None => None
      | Some x =>
        match clone_all (hp ++ [x]) r with
        | None => None
        | Some (l', hp') => Some ((h, length hp) :: l', hp')
        end
      end
    end.

  (** compact_sketch.go:54-92 NewCompactSketch. *)
  Definition hcompact (hp : heap) (s : tsketch nat) (ordered : bool) : option (tsketch nat * heap) :=
    match clone_all hp (ts_entries s) with
    | None => None
    | Some (es, hp') =>
      Some (mkTSketch (if ordered && negb (ts_ordered s) then sort_by_hash es else es)
                      (ts_theta s) (ts_seed s) (ts_empty s) (ts_ordered s || ordered), hp')
    end.

  (** ** Update sketch: update_sketch.go:334-351 UpdateInt64, :502-518 insertOrUpdate with newSummary() and
      Summary.Update. *)
  Definition hup_update (upf : S -> V -> S) (mk : S) (t : htab) (hp : heap) (h : N) (v : V) : option (htab * heap * uerr) :=
    let t := tup_nonempty t in
    if (t_theta t <=? h)%N then Some (t, hp, UErrExceedsTheta)
    else if (h =? 0)%N then Some (t, hp, UErrZeroHash)
    else
      match find ehash (t_entries t) (t_lgCur t) h with
      | PEmpty i =>
        match insert ehash (zent 0) t i (h, length hp) with
        | None => None
        | Some t' => Some (t', hp ++ [upf mk v], UNil)
        end
      | PFound i =>
        match nth_error (t_entries t) i with
        | None => None
        | Some e =>
          match nth_error hp (snd e) with
          | None => None
          | Some x => Some (t, upd (snd e) (upf x v) hp, UNil)
          end
        end
      | PFull => Some (t, hp, UErrNoEmptySlots)
      | PPanic | PNoFuel => None
      end.

  Definition hup_step (upf : S -> V -> S) (mk : S) (t : htab) (hp : heap) (op : tupop V) : option (htab * heap) :=
    match op with
    | TUpdate h v => match hup_update upf mk t hp h v with None => None | Some (t', hp', _) => Some (t', hp') end
    | TEmptyString _ => Some (t, hp)
    | TTrim => match trim ehash (zent 0) t with None => None | Some t' => Some (t', hp) end
    | TReset => Some (reset (zent 0) t, hp)
    end.

  Fixpoint hup_run (upf : S -> V -> S) (mk : S) (t : htab) (hp : heap) (ops : list (tupop V)) : option (htab * heap) :=
    match ops with
    | [] => Some (t, hp)
    | op :: r => match hup_step upf mk t hp op with None => None | Some (t', hp') => hup_run upf mk t' hp' r end
    end.

  (** ** Union *)

  (** union.go:200-224, applyFunc == nil: a new key stores the input's own summary object. *)
  Fixpoint hunion_loop (utheta : N) (ordered : bool) (l : list hent) (t : htab) (hp : heap) : option (htab * heap) :=
    match l with
    | [] => Some (t, hp)
    | (h, a) :: r =>
      if (h <? utheta)%N && (h <? t_theta t)%N then
        match find ehash (t_entries t) (t_lgCur t) h with
        | PEmpty i =>
          match insert ehash (zent 0) t i (h, a) with None => None | Some t' => hunion_loop utheta ordered r t' hp end
        | PFound i =>
          match nth_error (t_entries t) i with
          | None => None
          | Some e =>
            match policy_apply hp (snd e) a with
            | None => None
            | Some hp' => hunion_loop utheta ordered r t hp'
            end
          end
        | _ => None
        end
      else if ordered then Some (t, hp) else hunion_loop utheta ordered r t hp
    end.

  (** union.go:179-228 Update. Result (:231-277) and Reset (:286-289) do not touch summaries: they are
      [tunion_result] and [tunion_reset] on addresses. *)
  Definition hunion_update (u : tunion nat) (hp : heap) (s : tsketch nat) : option (tunion nat * heap) :=
    if ts_empty s then Some (u, hp)
    else if negb (tu_seed u =? ts_seed s)%N then None
    else
      let th := N.min (tu_theta u) (ts_theta s) in
      match hunion_loop th (ts_ordered s) (ts_entries s) (tup_nonempty (tu_tab u)) hp with
      | None => None
      | Some (t', hp') => Some (mkTUnion t' (N.min th (t_theta t')) (tu_seed u), hp')
      end.

  (** ** Intersection *)

  (** intersection.go:179-203, applyFunc == nil. *)
  Fixpoint hinter_match (t : htab) (ordered : bool) (maxMatches : nat) (l : list hent)
           (matches : list hent) (count : nat) (hp : heap) : option (list hent * nat * heap) :=
    match l with
    | [] => Some (matches, count, hp)
    | (h, a) :: r =>
      if (h <? t_theta t)%N then
        match find ehash (t_entries t) (t_lgCur t) h with
        | PFound i =>
          if length matches =? maxMatches then None
          else match nth_error (t_entries t) i with
               | None => None
               | Some e =>
                 match policy_apply hp (snd e) a with
                 | None => None
                 | Some hp' => hinter_match t ordered maxMatches r (matches ++ [e]) (count + 1) hp'
                 end
               end
        | PEmpty _ | PFull => hinter_match t ordered maxMatches r matches (count + 1) hp
        | _ => None
        end
      else if ordered then Some (matches, count, hp)
      else hinter_match t ordered maxMatches r matches (count + 1) hp
    end.

  (** intersection.go:110-232 Update: the first update (:149-163) stores the input's own summary objects. *)
  Definition hinter_update (x : tinter nat) (hp : heap) (s : tsketch nat) : option (tinter nat * heap) :=
    let t := ti_tab x in
    if t_empty t then Some (x, hp)
    else if negb (ts_empty s) && negb (ts_seed s =? ti_seed x)%N then None
    else
      let e := t_empty t || ts_empty s in
      let th := if e then MaxTheta else N.min (t_theta t) (ts_theta s) in
      let t := tset_theta_empty t th e in
      if ti_valid x && (t_num t =? 0) then Some (mkTInter t true (ti_seed x), hp)
      else if length (ts_entries s) =? 0 then
        Some (mkTInter (new_table (zent 0) 0 0 0 th MaxTheta e) true (ti_seed x), hp)
      else if negb (ti_valid x) then
        let lg := lg_size_from_count (N.of_nat (length (ts_entries s))) in
        match tinter_fill 0 (ts_entries s) (new_table (zent 0) lg (lg - 1) 0 th MaxTheta e) with
        | None => None
        | Some t' => if t_num t' =? length (ts_entries s) then Some (mkTInter t' true (ti_seed x), hp) else None
        end
      else
        let maxM := Nat.min (t_num t) (length (ts_entries s)) in
        match hinter_match t (ts_ordered s) maxM (ts_entries s) [] 0 hp with
        | None => None
        | Some (ms, count, hp') =>
          if length (ts_entries s) <? count then None
          else if negb (ts_ordered s) && (count <? length (ts_entries s)) then None
          else if length ms =? 0 then
            Some (mkTInter (new_table (zent 0) 0 0 0 th MaxTheta (if (th =? MaxTheta)%N then true else e)) true (ti_seed x), hp')
          else
            let lg := lg_size_from_count (N.of_nat (length ms)) in
            match tinter_refill 0 ms (new_table (zent 0) lg (lg - 1) 0 th MaxTheta e) with
            | None => None
            | Some t' => Some (mkTInter t' true (ti_seed x), hp')
            end
        end.

  (** intersection.go:235-268 Result: every summary is cloned. *)
  Definition hinter_result (x : tinter nat) (hp : heap) (ordered : bool) : option (tsketch nat * heap) :=
    if ti_valid x then
      let t := ti_tab x in
      match (if 0 <? t_num t then clone_all hp (filter (fun e => negb (ehash e =? 0)%N) (t_entries t)) else Some ([], hp)) with
      | None => None
      | Some (es, hp') =>
        let es := if (0 <? t_num t) && ordered then sort_by_hash es else es in
        Some (tcompact_entries (t_empty t) ordered (ti_seed x) (t_theta t) es, hp')
      end
    else None.

  (** What the interface reports of a sketch at a moment: All() yields the summary objects, read in the heap of that
      moment ([s0]: any value, for addresses outside the heap). *)
  Definition reported (s0 : S) (hp : heap) (s : tsketch nat) : tsketch S :=
    mkTSketch (map (fun e => (fst e, nth (snd e) hp s0)) (ts_entries s)) (ts_theta s) (ts_seed s) (ts_empty s) (ts_ordered s).
End Heap.
