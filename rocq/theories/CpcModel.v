(** * Model of cpc/cpc_sketch.go and cpc/cpc_union.go.

    A coupon is the number row*64 + column (Go's rowCol).  Counts, offsets and lgK are [nat]: with
    4 <= lgK <= 26 and at most 64 columns every product formed by the code is below 2^40, so no Go
    integer wraps.  The two floating-point accumulators (kxp, hipEstAccum) form one abstract value
    of type [F], changed only through the operations [hip_ops].  [Err] is a returned error; the state left
    behind by an error is not modelled. *)
From Verif Require Import Base Bytes Arr BitPackModel CpcTable.
Local Open Scope nat_scope.

(** updateHIP (cpc_sketch.go:365-372), refreshKXP (485-502) and the initial values (NewCpcSketch). *)
Record hip_ops (F : Type) := mkOps {
  h_init : nat -> F;
  h_add : nat -> nat -> F -> F;           (* lgK, column *)
  h_refresh : nat -> list N -> F -> F }.  (* lgK, bit matrix *)
Arguments h_init {F}. Arguments h_add {F}. Arguments h_refresh {F}.

(** cpc_sketch.go:57-76 without the scratch buffer. *)
Record cpc (F : Type) := mkCpc {
  c_seed : N; c_lgK : nat; c_n : nat; c_merged : bool; c_fi : nat; c_off : nat;
  c_win : option (list N); c_tab : option table; c_hip : F }.
Arguments mkCpc {F}. Arguments c_seed {F}. Arguments c_lgK {F}. Arguments c_n {F}. Arguments c_merged {F}.
Arguments c_fi {F}. Arguments c_off {F}. Arguments c_win {F}. Arguments c_tab {F}. Arguments c_hip {F}.

Definition col_of (rc : N) : nat := N.to_nat (N.land rc 63).
Definition row_of (rc : N) : nat := N.to_nat (N.shiftr rc 6).
Definition mk_rc (row col : nat) : N := N.lor (N.shiftl (N.of_nat row) 6) (N.of_nat col).
(** math/bits.LeadingZeros64, TrailingZeros64, OnesCount64. *)
Definition clz64 (x : N) : nat := 64 - N.to_nat (N.size x).
Fixpoint ctz_from (fuel i : nat) (x : N) : nat :=
  match fuel with O => i | S f => if N.testbit x (N.of_nat i) then i else ctz_from f (S i) x end.
Definition ctz64 (x : N) : nat := ctz_from 64 0 x.
Definition bits_of (x : N) : list nat := filter (fun c => N.testbit x (N.of_nat c)) (seq 0 64).
Definition popcount64 (x : N) : nat := length (bits_of x).

Inductive flavor := Empty | Sparse | Hybrid | Pinned | Sliding.
(** utils.go:181-202 determineFlavor *)
Definition determine_flavor (lgK C : nat) : flavor :=
  let k := 2 ^ lgK in
  if C =? 0 then Empty
  else if 32 * C <? 3 * k then Sparse
  else if 2 * C <? k then Hybrid
  else if 8 * C <? 27 * k then Pinned
  else Sliding.

(** utils.go:471-479 determineCorrectOffset *)
Definition correct_offset (lgK C : nat) : nat :=
  if 8 * C <? 19 * 2 ^ lgK then 0 else (8 * C - 19 * 2 ^ lgK) / (8 * 2 ^ lgK).

(** utils.go:227-233 countBitsSetInMatrix *)
Definition count_bits (m : list N) : nat := fold_left (fun a x => a + popcount64 x) m 0.

Section Cpc.
Variable F : Type.
Variable HO : hip_ops F.
Notation cpcF := (cpc F).

(** cpc_sketch.go:82-92 NewCpcSketch *)
Definition new_cpc (lgK : nat) (seed : N) : res cpcF :=
  if (lgK <? 4) || (26 <? lgK) then Err
  else Ok (mkCpc seed lgK 0 false 0 0 None None (h_init HO lgK)).

(** cpc_sketch.go:237-244 *)
Definition promote_empty (s : cpcF) : res cpcF :=
  let* t := new_table 2 (6 + c_lgK s) in
  Ok (mkCpc (c_seed s) (c_lgK s) (c_n s) (c_merged s) (c_fi s) (c_off s) (c_win s) (Some t) (c_hip s)).

(** cpc_sketch.go:383-399: the occupied slots of the old table go to the window (columns below 8)
    or to the new table. *)
Fixpoint promote_slots (slots : list (option N)) (w : list N) (t : table) : res (list N * table) :=
  match slots with
  | [] => Ok (w, t)
  | None :: r => promote_slots r w t
  | Some rc :: r =>
      if col_of rc <? 8 then
        let* b := of_opt (nth_error w (row_of rc)) in
        let* w' := of_opt (wr (row_of rc) (N.lor b (N.shiftl 1 (N.of_nat (col_of rc)))) w) in
        promote_slots r w' t
      else
        let* (t', novel) := maybe_insert t rc in
        if novel then promote_slots r w t' else Err
  end.

(** cpc_sketch.go:374-405 *)
Definition promote_sparse (s : cpcF) : res cpcF :=
  match c_tab s with
  | None => Panic
  | Some old =>
      let* nt := new_table 2 (6 + c_lgK s) in
      let* (w, t) := promote_slots (t_slots old) (repeat 0%N (2 ^ c_lgK s)) nt in
      Ok (mkCpc (c_seed s) (c_lgK s) (c_n s) (c_merged s) (c_fi s) (c_off s) (Some w) (Some t) (c_hip s))
  end.

(** cpc_sketch.go:246-272 *)
Definition update_sparse (s : cpcF) (rc : N) : res cpcF :=
  let k := 2 ^ c_lgK s in
  if 3 * k <=? 32 * c_n s then Err
  else match c_tab s with
       | None => Err
       | Some t =>
           let* (t', novel) := maybe_insert t rc in
           if novel then
             let s' := mkCpc (c_seed s) (c_lgK s) (c_n s + 1) (c_merged s) (c_fi s) (c_off s) (c_win s) (Some t')
                         (h_add HO (c_lgK s) (col_of rc) (c_hip s)) in
             if 3 * k <=? 32 * (c_n s + 1) then promote_sparse s' else Ok s'
           else Ok (mkCpc (c_seed s) (c_lgK s) (c_n s) (c_merged s) (c_fi s) (c_off s) (c_win s) (Some t') (c_hip s))
       end.

(** cpc_sketch.go:533-541: flip the cell of every pair in the table. *)
Fixpoint flip_slots (slots : list (option N)) (m : list N) : res (list N) :=
  match slots with
  | [] => Ok m
  | None :: r => flip_slots r m
  | Some rc :: r =>
      let* p := of_opt (nth_error m (row_of rc)) in
      let* m' := of_opt (wr (row_of rc) (N.lxor p (N.shiftl 1 (N.of_nat (col_of rc)))) m) in
      flip_slots r m'
  end.

(** cpc_sketch.go:521-525: or the window bytes in, row by row. *)
Fixpoint or_window (off : nat) (w m : list N) : res (list N) :=
  match w, m with
  | [], _ => Ok m
  | _ :: _, [] => Panic
  | v :: w', x :: m' =>
      let* r := or_window off w' m' in Ok (N.lor x (N.shiftl v (N.of_nat off)) :: r)
  end.

(** cpc_sketch.go:504-543 *)
Definition bit_matrix (s : cpcF) : res (list N) :=
  if 56 <? c_off s then Err
  else if c_n s =? 0 then Ok (repeat 0%N (2 ^ c_lgK s))
  else
    let* m := match c_win s with
              | Some w => or_window (c_off s) w (repeat (N.ones (N.of_nat (c_off s))) (2 ^ c_lgK s))
              | None => Ok (repeat (N.ones (N.of_nat (c_off s))) (2 ^ c_lgK s))
              end in
    match c_tab s with
    | None => Err
    | Some t => flip_slots (t_slots t) m
    end.

(** The columns of one row that are not at their default for a window at [off]
    (cpc_sketch.go:458-465 and cpc_union.go:193-204): ones after the window, zeros before it. *)
Definition row_surprises (off : nat) (p : N) : N :=
  N.lxor (N.ldiff p (N.shiftl 255 (N.of_nat off))) (N.ones (N.of_nat off)).

(** cpc_sketch.go:466-478: the set bits of one row, in increasing order; the flag says that an
    insertion was not novel, which makes modifyOffset return early. *)
Fixpoint insert_cols (t : table) (row : nat) (cols : list nat) : res (table * bool) :=
  match cols with
  | [] => Ok (t, false)
  | c :: r => let* (t', novel) := maybe_insert t (mk_rc row c) in
              if novel then insert_cols t' row r else Ok (t', true)
  end.

(** cpc_sketch.go:458-479, over the rows of the matrix. *)
Fixpoint offset_rows (off : nat) (rows win : list N) (i : nat) (t : table) (ors : N)
  : res (list N * table * N * bool) :=
  match rows with
  | [] => Ok (win, t, ors, false)
  | p :: rows' =>
      match win with
      | [] => Panic
      | _ :: win' =>
          let b := N.land (N.shiftr p (N.of_nat off)) 255 in
          let pat := row_surprises off p in
          let* (t', stop) := insert_cols t i (bits_of pat) in
          if stop then Ok (b :: win', t', N.lor ors pat, true)
          else let* (w, t'', o, st) := offset_rows off rows' win' (S i) t' (N.lor ors pat) in
               Ok (b :: w, t'', o, st)
      end
  end.

(** cpc_sketch.go:436-483 *)
Definition modify_offset (s : cpcF) (newoff : nat) : res cpcF :=
  if 56 <? newoff then Err
  else if negb (newoff =? c_off s + 1) then Err
  else match c_win s, c_tab s with
       | Some w, Some t =>
           let* m := bit_matrix s in
           let hip := if newoff mod 8 =? 0 then h_refresh HO (c_lgK s) m (c_hip s) else c_hip s in
           let* (w', t', ors, stop) := offset_rows newoff m w 0 (clear_table t) 0%N in
           if stop then
             Ok (mkCpc (c_seed s) (c_lgK s) (c_n s) (c_merged s) (c_fi s) (c_off s) (Some w') (Some t') hip)
           else
             Ok (mkCpc (c_seed s) (c_lgK s) (c_n s) (c_merged s) (Nat.min (ctz64 ors) newoff) newoff (Some w') (Some t') hip)
       | _, _ => Err
       end.

(** cpc_sketch.go:274-332 *)
Definition update_windowed (s : cpcF) (rc : N) : res cpcF :=
  let off := c_off s in
  let k := 2 ^ c_lgK s in
  if 56 <? off then Err
  else if 32 * c_n s <? 3 * k then Err
  else if (27 + 8 * off) * k <=? 8 * c_n s then Err
  else
    let col := col_of rc in
    let* (w', t', novel) :=
      (if col <? off then
         match c_tab s with
         | None => Panic
         | Some t => let* (t', b) := maybe_delete t rc in Ok (c_win s, Some t', b)
         end
       else if col <? off + 8 then
         match c_win s with
         | None => Panic
         | Some w =>
             let* old := of_opt (nth_error w (row_of rc)) in
             let new := N.lor old (N.shiftl 1 (N.of_nat (col - off))) in
             if (new =? old)%N then Ok (c_win s, c_tab s, false)
             else let* w' := of_opt (wr (row_of rc) new w) in Ok (Some w', c_tab s, true)
         end
       else
         match c_tab s with
         | None => Panic
         | Some t => let* (t', b) := maybe_insert t rc in Ok (c_win s, Some t', b)
         end) in
    if novel then
      let s' := mkCpc (c_seed s) (c_lgK s) (c_n s + 1) (c_merged s) (c_fi s) off w' t'
                  (h_add HO (c_lgK s) col (c_hip s)) in
      if (27 + 8 * off) * k <=? 8 * (c_n s + 1) then
        let* s2 := modify_offset s' (off + 1) in
        if (c_off s2 <? 1) || (56 <? c_off s2) then Err
        else if (27 + 8 * c_off s2) * k <=? 8 * (c_n s + 1) then Err
        else Ok s2
      else Ok s'
    else Ok (mkCpc (c_seed s) (c_lgK s) (c_n s) (c_merged s) (c_fi s) off w' t' (c_hip s)).

(** cpc_sketch.go:418-434 *)
Definition row_col_update (s : cpcF) (rc : N) : res cpcF :=
  if col_of rc <? c_fi s then Ok s
  else
    let* s1 := (if c_n s =? 0 then promote_empty s else Ok s) in
    if 32 * c_n s1 <? 3 * 2 ^ c_lgK s1 then update_sparse s1 rc else update_windowed s1 rc.

(** cpc_sketch.go:203-235.  The branch for rowCol64 == -1 is dead: rowCol64 is never negative. *)
Definition hash_update (s : cpcF) (hash0 hash1 : N) : res cpcF :=
  let col := clz64 hash1 in
  if col <? c_fi s then Ok s
  else
    let col := if 63 <? col then 63 else col in
    let* s1 := (if c_n s =? 0 then promote_empty s else Ok s) in
    let row := N.to_nat (N.land hash0 (N.ones (N.of_nat (c_lgK s1)))) in
    let rc := mk_rc row col in
    if 32 * c_n s1 <? 3 * 2 ^ c_lgK s1 then update_sparse s1 rc else update_windowed s1 rc.

(** cpc_sketch.go:570-577 *)
Definition validate (s : cpcF) : res bool :=
  let* m := bit_matrix s in Ok (count_bits m =? c_n s).

(** cpc_sketch.go:580-622: a deep copy. *)
Definition copy_cpc (s : cpcF) : res cpcF :=
  let* _ := new_cpc (c_lgK s) (c_seed s) in Ok s.

Definition get_flavor (s : cpcF) : flavor := determine_flavor (c_lgK s) (c_n s).

(** utils.go:235-257 walkTableUpdatingSketch.  int(InverseGolden * float64(numSlots)): the float64
    constant is 5566755282872656 / 2^53 and the product by a power of two is exact. *)
Definition stride (size : nat) : nat :=
  let s := N.to_nat (5566755282872656 * N.of_nat size / 2 ^ 53)%N in
  if Nat.even s then s + 1 else s.
Fixpoint walk_loop (count : nat) (dest : cpcF) (slots : list (option N)) (size st j : nat) : res cpcF :=
  match count with
  | O => Ok dest
  | S c =>
      let j' := j mod size in
      let* slot := of_opt (nth_error slots j') in
      match slot with
      | None => walk_loop c dest slots size st (j' + st)
      | Some rc =>
          let* d := row_col_update dest (N.land rc (N.lor (N.shiftl (N.ones (N.of_nat (c_lgK dest))) 6) 63)) in
          walk_loop c d slots size st (j' + st)
      end
  end.
Definition walk_table (dest : cpcF) (t : table) : res cpcF :=
  walk_loop (2 ^ t_lg t) dest (t_slots t) (2 ^ t_lg t) (stride (2 ^ t_lg t)) 0.

(** ** cpc_union.go *)
Record cunion := mkCu { u_seed : N; u_lgK : nat; u_mat : option (list N); u_acc : option cpcF }.

(** cpc_union.go:39-52 *)
Definition new_union (lgK : nat) (seed : N) : res cunion :=
  let* a := new_cpc lgK seed in Ok (mkCu seed lgK None (Some a)).

(** cpc_union.go:233-252 *)
Definition check_union (u : cunion) : res unit :=
  match u_acc u, u_mat u with
  | Some _, Some _ | None, None => Err
  | Some a, None =>
      if (0 <? c_n a) && (match c_win a with Some _ => true | None => match c_tab a with None => true | _ => false end end) then Err
      else if negb (u_lgK u =? c_lgK a) then Err
      else Ok tt
  | None, Some _ => Ok tt
  end.

(** cpc_union.go:329-340 orMatrixIntoMatrix, utils.go:219-225: row r of the source goes to row
    r mod destK. *)
Fixpoint or_rows (destK : nat) (src : list N) (r : nat) (dest : list N) : res (list N) :=
  match src with
  | [] => Ok dest
  | x :: s =>
      let* d := of_opt (nth_error dest (r mod destK)) in
      let* dest' := of_opt (wr (r mod destK) (N.lor d x) dest) in
      or_rows destK s (S r) dest'
  end.

(** cpc_union.go:313-327 *)
Fixpoint or_table (destK : nat) (slots : list (option N)) (dest : list N) : res (list N) :=
  match slots with
  | [] => Ok dest
  | None :: s => or_table destK s dest
  | Some rc :: s =>
      let r := row_of rc mod destK in
      let* d := of_opt (nth_error dest r) in
      let* dest' := of_opt (wr r (N.lor d (N.shiftl 1 (N.of_nat (col_of rc)))) dest) in
      or_table destK s dest'
  end.

(** cpc_union.go:254-298 *)
Definition reduce_union (u : cunion) (newlg : nat) : res cunion :=
  if newlg <? u_lgK u then
    match u_mat u with
    | Some m =>
        let* m' := or_rows (2 ^ newlg) m 0 (repeat 0%N (2 ^ newlg)) in
        Ok (mkCu (u_seed u) newlg (Some m') (u_acc u))
    | None =>
        match u_acc u with
        | None => Panic
        | Some old =>
            let* fresh := new_cpc newlg (c_seed old) in
            if c_n old =? 0 then Ok (mkCu (u_seed u) newlg None (Some fresh))
            else match c_tab old with
                 | None => Panic
                 | Some t =>
                     let* ns := walk_table fresh t in
                     match get_flavor ns with
                     | Sparse => Ok (mkCu (u_seed u) newlg None (Some ns))
                     | _ => let* m := bit_matrix ns in Ok (mkCu (u_seed u) newlg (Some m) None)
                     end
                 end
        end
    end
  else Ok u.

(** cpc_union.go:62-142 *)
Definition union_update (u : cunion) (src : cpcF) : res cunion :=
  if negb (u_seed u =? c_seed src)%N then Err
  else match get_flavor src with
  | Empty => Ok u
  | fl =>
    let* _ := check_union u in
    let* u := (if c_lgK src <? u_lgK u then reduce_union u (c_lgK src) else Ok u) in
    let* u := match fl, u_acc u with
              | Sparse, _ => Ok u
              | _, Some a => let* m := bit_matrix a in Ok (mkCu (u_seed u) (u_lgK u) (Some m) None)
              | _, None => Ok u
              end in
    match fl, u_mat u with
    | Sparse, None =>
        match u_acc u with
        | None => Panic
        | Some a =>
            if (match get_flavor a with Empty => true | _ => false end) && (u_lgK u =? c_lgK src) then
              let* cp := copy_cpc src in Ok (mkCu (u_seed u) (u_lgK u) None (Some cp))
            else match c_tab src with
                 | None => Panic
                 | Some t =>
                     let* a' := walk_table a t in
                     match get_flavor a' with
                     | Empty | Sparse => Ok (mkCu (u_seed u) (u_lgK u) None (Some a'))
                     | _ => let* m := bit_matrix a' in Ok (mkCu (u_seed u) (u_lgK u) (Some m) None)
                     end
                 end
        end
    | Sparse, Some m =>
        match c_tab src with
        | None => Panic
        | Some t => let* m' := or_table (2 ^ u_lgK u) (t_slots t) m in Ok (mkCu (u_seed u) (u_lgK u) (Some m') (u_acc u))
        end
    | Hybrid, Some m | Pinned, Some m =>
        if c_lgK src <? u_lgK u then Err
        else match c_win src, c_tab src with
             | Some w, Some t =>
                 let* m1 := or_rows (2 ^ u_lgK u) w 0 m in
                 let* m2 := or_table (2 ^ u_lgK u) (t_slots t) m1 in
                 Ok (mkCu (u_seed u) (u_lgK u) (Some m2) (u_acc u))
             | _, _ => Panic
             end
    | Sliding, Some m =>
        let* sm := bit_matrix src in
        if c_lgK src <? u_lgK u then Err
        else let* m' := or_rows (2 ^ u_lgK u) sm 0 m in Ok (mkCu (u_seed u) (u_lgK u) (Some m') (u_acc u))
    | _, _ => Err
    end
  end.

(** cpc_union.go:144-231 *)
Definition get_result (u : cunion) : res cpcF :=
  let* _ := check_union u in
  match u_acc u, u_mat u with
  | Some a, _ =>
      if c_n a =? 0 then
        let* r := new_cpc (u_lgK u) (c_seed a) in
        Ok (mkCpc (c_seed r) (c_lgK r) (c_n r) true (c_fi r) (c_off r) (c_win r) (c_tab r) (c_hip r))
      else match get_flavor a with
           | Sparse =>
               let* r := copy_cpc a in
               Ok (mkCpc (c_seed r) (c_lgK r) (c_n r) true (c_fi r) (c_off r) (c_win r) (c_tab r) (c_hip r))
           | _ => Err
           end
  | None, Some m =>
      let lgK := u_lgK u in
      let* r := new_cpc lgK (u_seed u) in
      let C := count_bits m in
      match determine_flavor lgK C with
      | Empty | Sparse => Err
      | _ =>
          let off := correct_offset lgK C in
          let* t := new_table (Nat.max (lgK - 4) 2) (6 + lgK) in
          let* (w, t', ors, stop) := offset_rows off m (repeat 0%N (2 ^ lgK)) 0 t 0%N in
          if stop then Err
          else Ok (mkCpc (c_seed r) lgK C true (Nat.min (ctz64 ors) off) off (Some w) (Some t') (c_hip r))
      end
  | None, None => Panic
  end.

(** cpc_union.go:342-365 GetBitMatrix *)
Definition union_matrix (u : cunion) : res (list N) :=
  let* _ := check_union u in
  match u_mat u, u_acc u with
  | Some m, _ => Ok m
  | None, Some a => bit_matrix a
  | None, None => Err
  end.
End Cpc.
