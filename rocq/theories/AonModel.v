(** * Model of the array-of-numbers sketches: tuple/arrayofnumbers_sketch.go, arrayofnumbers_update_sketch.go,
    arrayofnumbers_compact_sketch.go, arrayofnumbers_union.go, arrayofnumbers_intersection.go, arrayofnumbers_a_not_b.go.

    The hash table and the set operations are the text of the tuple package at S = *ArrayOfNumbersSummary[V], so
    [TupleModel] is used at [S := list V]. Summaries are values here (sharing: [TupleHeapModel]). The type V and its
    addition are parameters ([add]: Go's + at that type, so wrapping integers and rounded floats are covered). *)
From Verif Require Import Base HashtableModel ProbeModel ThetaModel TupleModel.
Local Open Scope nat_scope.

Section Aon.
  Context {V : Type}.
  Variable zero : V.
  Variable add : V -> V -> V.

  (** arrayofnumbers_sketch.go:41-46 newArrayOfNumbersSummary. *)
  Definition aon_new_summary (nv : nat) : list V := repeat zero nv.

  (** arrayofnumbers_sketch.go:69-73 Update: for i < size { s.values[i] += values[i] }; [None]: index out of range. *)
  Fixpoint aon_summary_update (size : nat) (s values : list V) : option (list V) :=
    match size with
    | 0 => Some s
    | S n =>
      match s, values with
      | x :: s', v :: values' => match aon_summary_update n s' values' with None => None | Some r => Some (add x v :: r) end
      | _, _ => None
      end
    end.

  Definition aent : Type := N * list V.
  (** A free slot holds the nil pointer. *)
  Definition azent : aent := (0%N, []).

  (** The outcome of an update: the table and the error, or a panic (the isEmpty flag, already cleared, is all that changed
      then: [APanic] carries that table). *)
  Inductive aout := ADone (t : table aent) (e : uerr) | APanic (t : table aent) | AStuck.

  (** arrayofnumbers_update_sketch.go:255-275 UpdateInt64 (the other key types, :278-383, differ only in the hash), with
      tuple/hashtable.go:135-147 HashInt64AndScreen. *)
  Definition aon_update (nv : nat) (t : table aent) (h : N) (values : list V) : aout :=
    let t := tup_nonempty t in
    if (t_theta t <=? h)%N then ADone t UErrExceedsTheta
    else if (h =? 0)%N then ADone t UErrZeroHash
    else
      match find ehash (t_entries t) (t_lgCur t) h with
      | PEmpty i =>
        match aon_summary_update nv (aon_new_summary nv) values with
        | None => APanic t
        | Some s => match insert ehash azent t i (h, s) with None => AStuck | Some t' => ADone t' UNil end
        end
      | PFound i =>
        match nth_error (t_entries t) i with
        | None => AStuck
        | Some e =>
          match aon_summary_update nv (snd e) values with
          | None => APanic t
          | Some s => ADone (set_entries t (upd i (fst e, s) (t_entries t))) UNil
          end
        end
      | PFull => ADone t UErrNoEmptySlots
      | PPanic | PNoFuel => AStuck
      end.

  (** :40-78 NewArrayOfNumbersUpdateSketch: the table parameters of the tuple sketch. *)
  Definition aon_new (lgK rf theta0 : N) : table aent := tup_new [] lgK rf theta0.

  (** One API call; :337-339 (empty string), :386-393 Trim, Reset. [None]: a panic ends the history. *)
  Definition aon_step (nv : nat) (t : table aent) (op : tupop (list V)) : option (table aent * uerr) :=
    match op with
    | TUpdate h v => match aon_update nv t h v with ADone t' e => Some (t', e) | _ => None end
    | TEmptyString _ => Some (t, UErrEmptyString)
    | TTrim => match trim ehash azent t with None => None | Some t' => Some (t', UNil) end
    | TReset => Some (reset azent t, UNil)
    end.

  Fixpoint aon_run (nv : nat) (t : table aent) (ops : list (tupop (list V))) : option (table aent) :=
    match ops with
    | [] => Some t
    | op :: r => match aon_step nv t op with None => None | Some (t', _) => aon_run nv t' r end
    end.

  (** ArrayOfNumbersSketch[V] (arrayofnumbers_sketch.go:28-33): a tuple sketch and the number of values of its summaries. *)
  Record asketch := mkASketch { as_sketch : tsketch (list V); as_nv : nat }.

  (** arrayofnumbers_compact_sketch.go:58-99 NewArrayOfNumbersCompactSketch. *)
  Definition aon_compact (s : asketch) (ordered : bool) : asketch := mkASketch (tcompact (as_sketch s) ordered) (as_nv s).

  (** The update sketch seen through the interface, arrayofnumbers_update_sketch.go:195-237, :396-398. *)
  Definition aon_view (nv : nat) (seed : N) (t : table aent) : asketch := mkASketch (tview seed t) nv.

  (** ** Set operations *)
  Record aunion := mkAUnion { au_union : tunion (list V); au_nv : nat }.

  (** arrayofnumbers_union.go:39-85. *)
  Definition new_aunion (nv : nat) (lgK rf theta0 seed : N) : aunion := mkAUnion (new_tunion [] lgK rf theta0 seed) nv.

  (** arrayofnumbers_union.go:88-136 Update: an empty sketch is ignored first, then the number of values is compared.
      [None]: an error is returned. *)
  Definition aunion_update (ap : list V -> list V -> list V) (u : aunion) (s : asketch) : option aunion :=
    if ts_empty (as_sketch s) then Some u
    else if negb (au_nv u =? as_nv s) then None
    else match tunion_update [] ap (au_union u) (as_sketch s) with None => None | Some u' => Some (mkAUnion u' (au_nv u)) end.

  (** :139-185 Result, :194-197 Reset. *)
  Definition aunion_result (u : aunion) (ordered : bool) : option asketch :=
    match tunion_result (au_union u) ordered with None => None | Some r => Some (mkASketch r (au_nv u)) end.
  Definition aunion_reset (u : aunion) : aunion := mkAUnion (tunion_reset [] (au_union u)) (au_nv u).

  Record ainter := mkAInter { ai_inter : tinter (list V); ai_nv : nat }.

  (** arrayofnumbers_intersection.go:39-67. *)
  Definition new_ainter (nv : nat) (seed : N) : ainter := mkAInter (new_tinter [] seed) nv.

  (** arrayofnumbers_intersection.go:70-191 Update: nothing once the intersection is known to be empty; then the number of
      values is compared, also for an empty sketch. *)
  Definition ainter_update (ap : list V -> list V -> list V) (x : ainter) (s : asketch) : option ainter :=
    if t_empty (ti_tab (ai_inter x)) then Some x
    else if negb (ai_nv x =? as_nv s) then None
    else match tinter_update [] ap (ai_inter x) (as_sketch s) with None => None | Some x' => Some (mkAInter x' (ai_nv x)) end.

  (** :194-228 Result. *)
  Definition ainter_result (x : ainter) (ordered : bool) : option asketch :=
    match tinter_result (ai_inter x) ordered with None => None | Some r => Some (mkASketch r (ai_nv x)) end.

  (** arrayofnumbers_a_not_b.go:29-105: the number of values of [b] is not looked at. *)
  Definition aon_a_not_b (a b : asketch) (seed : N) (ordered : bool) : option asketch :=
    match tuple_a_not_b (as_sketch a) (as_sketch b) seed ordered with None => None | Some r => Some (mkASketch r (as_nv a)) end.
End Aon.
Arguments asketch : clear implicits.
Arguments aunion : clear implicits.
Arguments ainter : clear implicits.
Arguments aout : clear implicits.
