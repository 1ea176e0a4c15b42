(** * Proofs about the items of the REQ sketch, its sorted view and its extremes. *)
From Coq Require Import Sorting.Sorted.
From Verif Require Import Base Bytes Arr BitPackModel SearchModel SearchProps KllModel KllProofs KllSem ReqModel ReqProofs ReqSem.
Local Open Scope nat_scope.

Section V.
Context {C : Type}.
Variables less ceq : C -> C -> bool.
Variable zero : C.
Variable sort : list C -> list C.
Context {F : Type}.
Variable f_half : F -> nat.
Hypothesis order : strict_total less ceq.
Hypothesis sort_perm : forall l, Permutation l (sort l).
Hypothesis sort_sorted : forall l, StronglySorted (fun a b => less b a = false) (sort l).
Notation comp := (compactor (C := C) (F := F)).
Notation sk := (ReqModel.sketch (C := C) (F := F)).
Notation srt := (sortedl less).
Notation srtw := (sortedw less).
Notation lvs := (lvs less f_half).
Implicit Types (c : comp) (s : sk) (L : list C) (Ls : list (list C)) (res : list (C * N)).

Lemma item_ok c L i x : rep c L -> nth_error L i = Some x -> item c i = Some x.
Proof.
  intros H Hi. destruct (rep_parts less sort sort_perm sort_sorted c L H) as (P & Q & H1 & H2 & _). unfold item. rewrite H2, H1. cbn [bindo].
  rewrite nth_error_app2 by lia. replace (length P + i - length P) with i by lia. rewrite nth_error_app1; auto. apply nth_error_Some. congruence.
Qed.

Lemma all_loop_ok h K : forall fuel c above done x rest Ls i w, rep c (done ++ x :: rest) -> lvs h K i above Ls -> Forall nonempty Ls -> length (x :: rest) + csum Ls <= fuel ->
  all_loop fuel c above (length done) w = Some (map (fun x => (x, w)) (x :: rest) ++ wl (w * 2) Ls).
Proof.
  induction fuel as [|fuel IH]; intros c above done x rest Ls i w HR HL HN Hf; [cbn [length] in Hf; lia|]. cbn [all_loop].
  rewrite (item_ok c (done ++ x :: rest) (length done) x HR) by (apply nth_seg; auto). cbn [bindo].
  rewrite (proj1 HR), app_length. cbn [length] in *. destruct (Nat.eqb_spec (length done + 1) (length done + S (length rest))) as [E|E].
  - destruct rest; [|cbn [length] in E; lia]. destruct above as [|c' above]; destruct Ls as [|L Ls]; cbn [ReqSem.lvs] in HL; try tauto.
    destruct HL as [HL1 HL2]. inversion HN as [|? ? N1 N2]; subst. destruct L as [|y L]; [exfalso; apply N1; auto|].
    rewrite csum_cons in Hf. cbn [length] in Hf. pose proof (IH c' above [] y L Ls (S i) (w * 2)%N (l_rep _ _ _ _ _ _ _ HL1) HL2 N2 ltac:(lia)) as HE. cbn [length] in HE. rewrite HE. reflexivity.
  - destruct rest as [|y rest]; [cbn [length] in E; lia|]. specialize (IH c above (done ++ [x]) y rest Ls i w). rewrite <- app_assoc in IH. cbn [app] in IH. rewrite app_length in IH. cbn [length] in *.
    rewrite IH; [reflexivity|auto|auto|auto|lia].
Qed.

Lemma srtw_snoc l a : srtw (l ++ [a]) <-> srtw l /\ Forall (fun y => le2 less y a) l.
Proof.
  unfold sortedw. induction l as [|b l IH]; cbn [app].
  - split; intros; repeat constructor.
  - split.
    + intros H. inversion H as [|? ? H1 H2]; subst. apply IH in H1. destruct H1 as [H1 H3]. apply Forall_app in H2. destruct H2 as [H2 H4]. inversion H4; subst. split; constructor; auto.
    + intros [H1 H2]. inversion H1; inversion H2; subst. constructor; [apply IH; auto|]. apply Forall_app. split; auto.
Qed.
Lemma snocw_ge l a b : srtw (l ++ [a]) -> le2 less a b -> Forall (fun z => le2 less z b) (l ++ [a]).
Proof.
  intros H Hy. apply srtw_snoc in H. destruct H as [H1 H2]. apply Forall_app. split; [|constructor; auto].
  eapply Forall_impl; [|exact H2]. intros z Ha. cbn beta in Ha. apply (lew_trans less ceq order _ _ _ Ha Hy).
Qed.
Lemma srtw_map w L : srt L -> srtw (map (fun x => (x, w)) L).
Proof. induction 1 as [|a l H IH HF]; constructor; auto. apply Forall_map. eapply Forall_impl; [|exact HF]. intros; auto. Qed.

Lemma view_loop_ok w : forall cnt (A G D : list (C * N)) X B Y, length G = length B -> cnt = length A + length B ->
  exists M, view_merge_loop less cnt (A ++ G ++ D) (length A) (X ++ B ++ Y) (length B) (length X + length B) w = Some (M ++ D) /\
    Permutation (A ++ map (fun x => (x, w)) B) M /\ (srtw A -> srt B -> srtw M).
Proof.
  induction cnt as [|cnt IH]; intros A G D X B Y HG Hc.
  - destruct A, B, G; cbn [length] in *; try lia. exists []. repeat split; auto.
  - cbn [view_merge_loop].
    assert (TA : forall A' x, A = A' ++ [x] ->
      exists M, (do x0 <- nth_error (A ++ G ++ D) (length A - 1); do a <- wr cnt x0 (A ++ G ++ D); view_merge_loop less cnt a (length A - 1) (X ++ B ++ Y) (length B) (length X + length B) w) = Some (M ++ x :: D) /\
        Permutation (A' ++ map (fun x => (x, w)) B) M /\ (srtw A' -> srt B -> srtw M)).
    { intros A' x ->. rewrite app_length in *. cbn [length] in *. replace (length A' + 1 - 1) with (length A') by lia. rewrite <- !app_assoc. cbn [app].
      rewrite nth_seg by auto. cbn [bindo]. destruct (snoc_cases G) as [->|(G' & g & ->)].
      - cbn [app length] in *. rewrite wr_seg by lia. cbn [bindo]. destruct (IH A' [] (x :: D) X B Y HG ltac:(lia)) as (M & H1 & H2 & H3). cbn [app] in H1. exists M. auto.
      - rewrite app_length in HG. cbn [length] in HG. rewrite <- app_assoc. cbn [app].
        replace (A' ++ x :: G' ++ g :: D) with ((A' ++ x :: G') ++ g :: D) by (rewrite <- app_assoc; auto).
        rewrite wr_seg by (rewrite app_length; cbn [length]; lia). cbn [bindo]. rewrite <- app_assoc. cbn [app].
        destruct (IH A' (x :: G') (x :: D) X B Y ltac:(cbn [length]; lia) ltac:(lia)) as (M & H1 & H2 & H3). cbn [app] in H1. exists M. auto. }
    assert (TB : forall B' y, B = B' ++ [y] ->
      exists M, (do x0 <- nth_error (X ++ B ++ Y) (length X + length B - 1); do a <- wr cnt (x0, w) (A ++ G ++ D); view_merge_loop less cnt a (length A) (X ++ B ++ Y) (length B - 1) (length X + length B - 1) w) = Some (M ++ (y, w) :: D) /\
        Permutation (A ++ map (fun x => (x, w)) B') M /\ (srtw A -> srt B' -> srtw M)).
    { intros B' y ->. rewrite app_length in *. cbn [length] in *. replace (length B' + 1 - 1) with (length B') by lia. replace (length X + (length B' + 1) - 1) with (length X + length B') by lia.
      rewrite <- (app_assoc B' [y] Y). cbn [app]. 
      assert (NE : nth_error (X ++ B' ++ y :: Y) (length X + length B') = Some y) by (rewrite app_assoc; apply nth_seg; rewrite app_length; auto).
      rewrite NE. cbn [bindo]. destruct (snoc_cases G) as [->|(G' & g & ->)]; [cbn [length] in HG; lia|].
      rewrite app_length in HG. cbn [length] in HG. rewrite <- !app_assoc. cbn [app]. rewrite (app_assoc A G' (g :: D)).
      rewrite wr_seg by (rewrite app_length; lia). cbn [bindo]. rewrite <- app_assoc.
      destruct (IH A G' ((y, w) :: D) X B' (y :: Y) ltac:(lia) ltac:(lia)) as (M & H1 & H2 & H3). exists M. auto. }
    assert (Fin : forall (M : list (C * N)) x D0, M ++ x :: D0 = (M ++ [x]) ++ D0) by (intros; rewrite <- app_assoc; auto).
    destruct (snoc_cases A) as [EA|(A' & x & EA)].
    + destruct (snoc_cases B) as [EB|(B' & y & EB)]; [subst; cbn [length] in Hc; lia|].
      destruct (TB _ _ EB) as (M & H1 & H2 & H3). assert (0 < length B) by (rewrite EB, app_length; cbn [length]; lia).
      destruct (Nat.ltb_spec 0 (length A)); [subst A; cbn [length] in *; lia|]. cbn [andb]. destruct (Nat.ltb_spec 0 (length B)); [|lia].
      rewrite H1, Fin. eexists. split; [reflexivity|]. subst A B. rewrite map_app. cbn [app map] in *. split; [apply Permutation_app_tail; auto|].
      intros _ HB. apply sorted_snoc in HB. apply srtw_snoc. split; [apply H3; [constructor|tauto]|]. eapply Permutation_Forall; [exact H2|]. apply Forall_map. tauto.
    + assert (0 < length A) by (rewrite EA, app_length; cbn [length]; lia). destruct (Nat.ltb_spec 0 (length A)); [|lia].
      destruct (TA _ _ EA) as (M & H1 & H2 & H3). destruct (snoc_cases B) as [EB|(B' & y & EB)].
      * destruct (Nat.ltb_spec 0 (length B)); [subst B; cbn [length] in *; lia|]. cbn [andb]. rewrite H1, Fin. eexists. split; [reflexivity|].
        subst A B. cbn [map] in *. rewrite app_nil_r in *. split; [apply Permutation_app_tail; auto|].
        intros HA _. apply srtw_snoc in HA. apply srtw_snoc. split; [apply H3; [tauto|constructor]|]. eapply Permutation_Forall; [exact H2|tauto].
      * assert (0 < length B) by (rewrite EB, app_length; cbn [length]; lia). destruct (Nat.ltb_spec 0 (length B)); [|lia]. cbn [andb].
        destruct (TB _ _ EB) as (M' & H1' & H2' & H3').
        assert (NA : nth_error (A ++ G ++ D) (length A - 1) = Some x).
        { rewrite EA, app_length, <- app_assoc. cbn [length app]. apply nth_seg. lia. }
        assert (NB : nth_error (X ++ B ++ Y) (length X + length B - 1) = Some y).
        { rewrite EB, app_length, <- app_assoc. cbn [length app]. rewrite app_assoc. apply nth_seg. rewrite app_length. lia. }
        rewrite NA in H1 |- *. rewrite NB in H1' |- *. cbn [bindo] in *. destruct (less (fst x) y) eqn:E; cbn [negb].
        -- rewrite H1', Fin. eexists. split; [reflexivity|]. split.
           { rewrite EB, map_app, app_assoc. apply Permutation_app_tail. auto. }
           intros HA HB. apply srtw_snoc. rewrite EB in HB. pose proof (proj1 (sorted_snoc less _ _) HB) as [HB1 HB2].
           split; [apply H3'; auto|]. eapply Permutation_Forall; [exact H2'|]. apply Forall_app. split; [|apply Forall_map; auto].
           rewrite EA in HA |- *. apply snocw_ge; auto. apply (lew_lt less ceq order). auto.
        -- rewrite H1, Fin. eexists. split; [reflexivity|]. split.
           { rewrite EA, <- app_assoc. eapply perm_trans; [apply Permutation_app_head, Permutation_app_comm|]. rewrite app_assoc. apply Permutation_app_tail. auto. }
           intros HA HB. apply srtw_snoc. rewrite EA in HA. pose proof (proj1 (srtw_snoc _ _) HA) as [HA1 HA2].
           split; [apply H3; auto|]. eapply Permutation_Forall; [exact H2|]. apply Forall_app. split; auto.
           rewrite EB in HB |- *. apply Forall_map. apply (snoc_ge less ceq order); auto.
Qed.

Lemma view_levels_ok h K : forall cs i Ls (A G : list (C * N)), lvs h K i cs Ls -> length G = csum Ls -> srtw A ->
  exists res, view_levels less sort h cs (A ++ G) (length A) = Some res /\ Permutation (A ++ wl (2 ^ N.of_nat i) Ls) res /\ srtw res.
Proof.
  induction cs as [|c cs IH]; intros i [|L Ls] A G HL HG HA; cbn [ReqSem.lvs] in HL; try tauto.
  - destruct G; [|discriminate]. exists A. cbn [view_levels wl]. rewrite !app_nil_r. auto.
  - destruct HL as [HL1 HL2]. cbn [view_levels]. unfold view_merge.
    destruct (sort_ok less sort sort_perm sort_sorted c L (l_rep _ _ _ _ _ _ _ HL1) (l_sorted _ _ _ _ _ _ _ HL1)) as (it & S & -> & RS & PS & SS & _). cbn [bindo set_items c_count c_items c_lgw].
    rewrite csum_cons in HG. destruct (split_at G (length L)) as (G1 & G2 & -> & HG1); [lia|]. rewrite app_length in HG.
    pose proof (Permutation_length PS) as EL. rewrite (proj1 (l_rep _ _ _ _ _ _ _ HL1)), EL.
    assert (EX : exists X Y, it = X ++ S ++ Y /\ (if h then c_cap (set_items c it (length S) true) else length S) = length X + length S).
    { destruct RS as [_ [W HW]]. cbn [set_items c_items c_hra] in HW. rewrite (l_hra _ _ _ _ _ _ _ HL1) in HW. unfold c_cap. cbn [set_items c_items]. destruct h; [exists W, []|exists [], W]; (split; [rewrite ?app_nil_r; auto|]); subst; rewrite ?app_length; auto. }
    destruct EX as (X & Y & -> & EH). rewrite EH.
    destruct (view_loop_ok (2 ^ N.of_nat (c_lgw c)) (length A + length S) A G1 G2 X S Y ltac:(lia) eq_refl) as (M & -> & PM & SM). cbn [bindo].
    destruct (IH (Datatypes.S i) Ls M G2 HL2 ltac:(lia) (SM HA SS)) as (res & HE & PR & SR).
    replace (length A + length S) with (length M) by (rewrite <- (Permutation_length PM), app_length, map_length; auto).
    exists res. split; auto. split; auto. eapply perm_trans; [|exact PR]. cbn [wl]. rewrite (l_lgw _ _ _ _ _ _ _ HL1) in PM.
    replace (2 ^ N.of_nat i * 2)%N with (2 ^ N.of_nat (Datatypes.S i))%N by (rewrite Nat2N.inj_succ, N.pow_succ_r'; lia).
    rewrite app_assoc. apply Permutation_app_tail. eapply perm_trans; [|exact PM]. apply Permutation_app_head. apply Permutation_map. auto.
Qed.

Lemma accumulate_eq l : forall st, accumulate st l = convert_to_cumulative st l.
Proof. induction l as [|x l IH]; intros st; cbn [accumulate convert_to_cumulative]; congruence. Qed.
Lemma accumulate_length l : forall st, length (accumulate st l) = length l.
Proof. induction l; intros; cbn [accumulate length]; auto. Qed.
Definition nsum (l : list N) : N := fold_right N.add 0%N l.
Lemma accumulate_app l : forall st l', accumulate st (l ++ l') = accumulate st l ++ accumulate (st + nsum l) l'.
Proof. induction l as [|x l IH]; intros st l'; cbn [app accumulate nsum fold_right]; [rewrite N.add_0_r; auto|]. fold (nsum l). rewrite IH. do 3 f_equal. lia. Qed.
Lemma wsum_nsum res : wsum (fun _ => true) res = nsum (map snd res).
Proof. induction res as [|a res IH]; auto. cbn [map nsum fold_right]. fold (nsum (map snd res)). rewrite <- IH. reflexivity. Qed.

Definition add_min (mn : C) res : list (C * N) := match res with [] => [] | (q, w) :: t => if ceq q mn then res else (mn, 1%N) :: (q, w - 1)%N :: t end.
Fixpoint add_max (mx : C) res : list (C * N) :=
  match res with
  | [] => []
  | [(q, w)] => if ceq q mx then [(q, w)] else [(q, w - 1)%N; (mx, 1%N)]
  | a :: t => a :: add_max mx t
  end.
Lemma add_max_snoc mx r q w : add_max mx (r ++ [(q, w)]) = r ++ (if ceq q mx then [(q, w)] else [(q, w - 1)%N; (mx, 1%N)]).
Proof. induction r as [|a r IH]; [reflexivity|]. cbn [app add_max]. rewrite <- IH. destruct a as [qa wa]. destruct (r ++ [(q, w)]) eqn:E; auto. destruct r; discriminate. Qed.

Lemma snoc_nth {X} (l : list X) x : nth_error (l ++ [x]) (length (l ++ [x]) - 1) = Some x.
Proof. rewrite app_length. cbn [length]. apply nth_seg. lia. Qed.

Lemma wr0 {X} (x y : X) l : wr 0 x (y :: l) = Some (x :: l).
Proof. reflexivity. Qed.

Lemma include_ok res mn mx : res <> [] -> Forall (fun a => (1 <= snd a)%N) res -> (forall q w, res = [(q, w)] -> ceq q mn = false -> ceq q mx = false -> (2 <= w)%N) ->
  include_min_max ceq zero (map fst res) (accumulate 0 (map snd res)) mx mn = Some (map fst (add_max mx (add_min mn res)), accumulate 0 (map snd (add_max mx (add_min mn res)))).
Proof.
  intros HN HW H1. destruct res as [|[q0 w0] t]; [congruence|]. clear HN.
  unfold include_min_max. cbn [map nth_error fst snd bindo]. rewrite !accumulate_length. cbn [length]. rewrite !map_length. rewrite sub_ok by lia. cbn [bindo].
  replace (S (length t) - 1) with (length t) by lia.
  destruct (snoc_cases ((q0, w0) :: t)) as [E|(r & [ql wl] & E)]; [discriminate|].
  assert (Lr : length t = length r). { apply (f_equal (@length _)) in E. rewrite app_length in E. cbn [length] in E. lia. }
  assert (Wl : (1 <= wl)%N). { rewrite E in HW. apply Forall_app in HW. destruct HW as [_ HW]. inversion HW; auto. }
  assert (W0 : (1 <= w0)%N) by (inversion HW; auto).
  assert (EQ : q0 :: map fst t = map fst r ++ [ql]). { change (q0 :: map fst t) with (map fst ((q0, w0) :: t)). rewrite E, map_app. auto. }
  assert (EW : w0 :: map snd t = map snd r ++ [wl]). { change (w0 :: map snd t) with (map snd ((q0, w0) :: t)). rewrite E, map_app. auto. }
  assert (NQ : nth_error (q0 :: map fst t) (length t) = Some ql). { rewrite EQ. apply nth_seg. rewrite map_length. auto. }
  rewrite NQ. cbn [bindo].
  set (cw := accumulate 0 (w0 :: map snd t)). set (qs := q0 :: map fst t) in *.
  assert (Lcw : length cw = S (length t)) by (unfold cw; rewrite accumulate_length; cbn [length]; rewrite map_length; auto).
  assert (Lqs : length qs = S (length t)) by (unfold qs; cbn [length]; rewrite map_length; auto).
  assert (Ecw : cw = accumulate 0 (map snd r) ++ [(nsum (map snd r) + wl)%N]) by (unfold cw; rewrite EW, accumulate_app, N.add_0_l; auto).
  assert (NT : nth_error cw (length t) = Some (nsum (map snd r) + wl)%N) by (rewrite Ecw; apply nth_seg; rewrite accumulate_length, map_length; auto).
  (* low only *)
  assert (LowA : forall t', accumulate 0 (1%N :: (w0 - 1)%N :: t') = 1%N :: accumulate 0 (w0 :: t')).
  { intros t'. cbn [accumulate]. rewrite !N.add_0_l. replace (1 + (w0 - 1))%N with w0 by lia. auto. }
  destruct (ceq q0 mn) eqn:E0; destruct (ceq ql mx) eqn:El; cbn [negb].
  - rewrite !Nat.add_0_r, Nat.eqb_refl. cbn [add_min]. rewrite E0, E, add_max_snoc, El, !map_app. cbn [map fst snd]. rewrite <- EQ, <- EW. auto.
  - rewrite Nat.add_0_r. destruct (Nat.eqb_spec (S (length t) + 1) (S (length t))); [lia|].
    replace (repeat zero (S (length t) + 1)) with ([] ++ repeat zero (length qs) ++ [zero]) by (rewrite Lqs; cbn [app]; change [zero] with (repeat zero 1); rewrite <- repeat_app; auto).
    replace (repeat 0%N (S (length t) + 1)) with ([] ++ repeat 0%N (length cw) ++ [0%N]) by (rewrite Lcw; cbn [app]; change [0%N] with (repeat 0%N 1); rewrite <- repeat_app; auto).
    rewrite put_seg by (rewrite ?repeat_length; auto). cbn [bindo]. rewrite put_seg by (rewrite ?repeat_length; auto). cbn [bindo app]. rewrite NT. cbn [bindo].
    rewrite wr_seg by lia. cbn [bindo]. rewrite wr_seg by lia. cbn [bindo]. rewrite Ecw, <- app_assoc. cbn [app]. rewrite wr_seg by (rewrite accumulate_length, map_length; lia). cbn [bindo].
    cbn [add_min]. rewrite E0, E, add_max_snoc, El, !map_app. cbn [map fst snd]. rewrite EQ, <- app_assoc, accumulate_app. cbn [accumulate app]. f_equal. f_equal. f_equal. f_equal; [lia|]. f_equal. lia.
  - rewrite Nat.add_0_r. destruct (Nat.eqb_spec (S (length t) + 1) (S (length t))); [lia|].
    replace (repeat zero (S (length t) + 1)) with ([zero] ++ repeat zero (length qs) ++ []) by (rewrite Lqs, app_nil_r; change [zero] with (repeat zero 1); rewrite <- repeat_app; f_equal; lia).
    replace (repeat 0%N (S (length t) + 1)) with ([0%N] ++ repeat 0%N (length cw) ++ []) by (rewrite Lcw, app_nil_r; change [0%N] with (repeat 0%N 1); rewrite <- repeat_app; f_equal; lia).
    rewrite put_seg by (rewrite ?repeat_length; auto). cbn [bindo]. rewrite put_seg by (rewrite ?repeat_length; auto). rewrite !app_nil_r. cbn [bindo app].
    rewrite wr0. cbn [bindo app]. rewrite wr0. cbn [bindo app].
    cbn [add_min]. rewrite E0.
    assert (EM : add_max mx ((mn, 1%N) :: (q0, (w0 - 1)%N) :: t) = (mn, 1%N) :: (q0, (w0 - 1)%N) :: t).
    { destruct (snoc_cases t) as [->|(t' & [a b] & ->)].
      - cbn [add_max]. destruct r; [|cbn [length] in Lr; lia]. cbn [app] in E. inversion E; subst. rewrite El. auto.
      - assert (a = ql /\ b = wl) as [-> ->]. { change ((q0, w0) :: t' ++ [(a, b)]) with (((q0, w0) :: t') ++ [(a, b)]) in E. apply app_inj_tail in E. destruct E as [_ E]. inversion E; auto. }
        change ((mn, 1%N) :: (q0, (w0 - 1)%N) :: t' ++ [(ql, wl)]) with (((mn, 1%N) :: (q0, (w0 - 1)%N) :: t') ++ [(ql, wl)]). rewrite add_max_snoc, El. auto. }
    rewrite EM. cbn [map fst snd]. rewrite LowA. auto.
  - destruct (Nat.eqb_spec (S (length t) + 1 + 1) (S (length t))); [lia|].
    replace (repeat zero (S (length t) + 1 + 1)) with ([zero] ++ repeat zero (length qs) ++ [zero]) by (rewrite Lqs; change [zero] with (repeat zero 1); rewrite <- !repeat_app; f_equal; lia).
    replace (repeat 0%N (S (length t) + 1 + 1)) with ([0%N] ++ repeat 0%N (length cw) ++ [0%N]) by (rewrite Lcw; change [0%N] with (repeat 0%N 1); rewrite <- !repeat_app; f_equal; lia).
    rewrite put_seg by (rewrite ?repeat_length; auto). cbn [bindo]. rewrite put_seg by (rewrite ?repeat_length; auto). cbn [bindo app].
    rewrite wr0. cbn [bindo app]. rewrite wr0. cbn [bindo app]. rewrite NT. cbn [bindo].
    change (mn :: qs ++ [zero]) with ((mn :: qs) ++ zero :: []). rewrite wr_seg by (cbn [length]; lia). cbn [bindo].
    change (1%N :: cw ++ [0%N]) with ((1%N :: cw) ++ 0%N :: []). rewrite wr_seg by (cbn [length]; lia). cbn [bindo].
    rewrite Ecw. cbn [app]. rewrite <- app_assoc. cbn [app].
    change (1%N :: accumulate 0 (map snd r) ++ (nsum (map snd r) + wl)%N :: [(nsum (map snd r) + wl)%N]) with ((1%N :: accumulate 0 (map snd r)) ++ (nsum (map snd r) + wl)%N :: [(nsum (map snd r) + wl)%N]).
    rewrite wr_seg by (cbn [length]; rewrite accumulate_length, map_length; lia). cbn [bindo].
    cbn [add_min]. rewrite E0.
    destruct (snoc_cases t) as [->|(t' & [a b] & ->)].
    + destruct r; [|cbn [length] in Lr; lia]. cbn [app] in E. inversion E; subst. specialize (H1 _ _ eq_refl E0 El). cbn [add_max]. rewrite El. cbn [map fst snd accumulate app nsum fold_right]. unfold qs. cbn [map app]. f_equal. f_equal. f_equal. f_equal; [lia|]. f_equal. lia.
    + assert (a = ql /\ b = wl /\ r = (q0, w0) :: t') as (-> & -> & ->). { change ((q0, w0) :: t' ++ [(a, b)]) with (((q0, w0) :: t') ++ [(a, b)]) in E. apply app_inj_tail in E. destruct E as [E' E]. inversion E; auto. }
      change ((mn, 1%N) :: (q0, (w0 - 1)%N) :: t' ++ [(ql, wl)]) with (((mn, 1%N) :: (q0, (w0 - 1)%N) :: t') ++ [(ql, wl)]). rewrite add_max_snoc, El, !map_app. cbn [map fst snd]. 
      rewrite EQ, accumulate_app, LowA. cbn [map fst snd accumulate app nsum fold_right]. fold (nsum (map snd t')). rewrite <- !app_assoc. cbn [app]. f_equal. f_equal. f_equal. f_equal. f_equal. f_equal; [lia|]. f_equal. lia.
Qed.

Definition inner mn mx res : Prop := Forall (fun a => lew less mn (fst a) /\ lew less (fst a) mx) res.
Lemma ceq_true a b : ceq a b = true <-> a = b.
Proof. apply (st_eq _ _ order). Qed.

Lemma wsum_all p res : (forall a, In a res -> p (fst a) = true) -> wsum p res = wsum (fun _ => true) res.
Proof. induction res as [|a res IH]; intros H; auto. unfold wsum in *. cbn [fold_right]. rewrite (H a) by (left; auto). rewrite IH by (intros; apply H; right; auto). auto. Qed.
Lemma wsum_none p res : (forall a, In a res -> p (fst a) = false) -> wsum p res = 0%N.
Proof. induction res as [|a res IH]; intros H; auto. unfold wsum in *. cbn [fold_right]. rewrite (H a) by (left; auto). rewrite IH by (intros; apply H; right; auto). auto. Qed.
Lemma wsum_le p res : (wsum p res <= wsum (fun _ => true) res)%N.
Proof. induction res as [|a res IH]; [unfold wsum; cbn; lia|]. unfold wsum in *. cbn [fold_right]. destruct (p (fst a)); lia. Qed.
Lemma wsum_appw p (A B : list (C * N)) : wsum p (A ++ B) = (wsum p A + wsum p B)%N.
Proof. unfold wsum. induction A; cbn [app fold_right]; auto. rewrite IHA. lia. Qed.
Lemma wsum_nilw p : wsum p (@nil (C * N)) = 0%N.
Proof. reflexivity. Qed.
Lemma wsum_cons p (a : C * N) B : wsum p (a :: B) = ((if p (fst a) then snd a else 0) + wsum p B)%N.
Proof. reflexivity. Qed.

Lemma add_min_rank p mn res : down less p -> srtw res -> res <> [] -> Forall (fun a => (1 <= snd a)%N) res -> Forall (fun a => lew less mn (fst a)) res ->
  wsum p (add_min mn res) = if p mn then N.max 1 (wsum p res) else 0%N.
Proof.
  intros Hp HS HN HW HI. destruct res as [|[q w] t]; [congruence|]. inversion HS as [|? ? S1 S2]; inversion HW as [|? ? W1 W2]; inversion HI as [|? ? I1 I2]; subst. cbn [fst snd] in *.
  assert (HF : p mn = false -> wsum p ((q, w) :: t) = 0%N).
  { intros E. apply wsum_none. intros a Ha. destruct (p (fst a)) eqn:Ea; auto. rewrite Forall_forall in HI. rewrite (Hp mn (fst a) (HI a Ha) Ea) in E. discriminate. }
  cbn [add_min]. destruct (ceq q mn) eqn:E0.
  - apply ceq_true in E0. subst q. destruct (p mn) eqn:E; auto. rewrite wsum_cons. cbn [fst snd]. rewrite E. lia.
  - rewrite !wsum_cons in *. cbn [fst snd] in *. destruct (p mn) eqn:E.
    + destruct (p q) eqn:Eq; [lia|]. rewrite (wsum_none p t); [lia|]. intros a Ha. destruct (p (fst a)) eqn:Ea; auto. rewrite Forall_forall in S2. rewrite (Hp q (fst a) (S2 a Ha) Ea) in Eq. discriminate.
    + specialize (HF eq_refl). destruct (p q); lia.
Qed.

Lemma add_max_rank p mx r q w : down less p -> srtw (r ++ [(q, w)]) -> (1 <= w)%N -> Forall (fun a => lew less (fst a) mx) (r ++ [(q, w)]) ->
  wsum p (add_max mx (r ++ [(q, w)])) = if p mx then wsum (fun _ => true) (r ++ [(q, w)]) else N.min (wsum p (r ++ [(q, w)])) (wsum (fun _ => true) (r ++ [(q, w)]) - 1).
Proof.
  intros Hp HS HW HI. apply srtw_snoc in HS. destruct HS as [S1 S2]. rewrite Forall_forall in S2, HI. rewrite add_max_snoc.
  assert (HR : p q = true -> wsum p r = wsum (fun _ => true) r) by (intros E; apply wsum_all; intros a Ha; apply (Hp (fst a) q); auto; apply (S2 a Ha)).
  assert (Iq : lew less q mx) by (apply (HI (q, w)); apply in_or_app; right; left; auto). pose proof (wsum_le p r) as Hr.
  assert (HM : p mx = true -> p q = true) by (intros E; apply (Hp q mx); auto).
  destruct (ceq q mx) eqn:E0; rewrite ?wsum_appw, ?wsum_cons, ?wsum_nilw; cbn [fst snd]; rewrite ?N.add_0_r.
  - apply ceq_true in E0. subst q. destruct (p mx) eqn:E; [rewrite HR; auto|]. lia.
  - destruct (p mx) eqn:E.
    + rewrite HM, HR by auto. lia.
    + destruct (p q) eqn:Eq; [rewrite HR by auto|]; lia.
Qed.

Lemma add_min_sum mn res : res <> [] -> Forall (fun a => (1 <= snd a)%N) res -> wsum (fun _ => true) (add_min mn res) = wsum (fun _ => true) res.
Proof. intros HN HW. destruct res as [|[q w] t]; [congruence|]. inversion HW; subst. cbn [add_min]. destruct (ceq q mn); auto. rewrite !wsum_cons. cbn [fst snd] in *. lia. Qed.

Definition clamp (lo hi : bool) (W n : N) : N := if lo then if hi then n else N.min (N.max 1 W) (n - 1) else 0%N.

(** The cumulative weight up to [p] once the extremes are in. *)
Lemma rank_formula p mn mx res : down less p -> srtw res -> res <> [] -> Forall (fun a => (1 <= snd a)%N) res -> inner mn mx res -> lew less mn mx ->
  (wsum (fun _ => true) res = 1%N -> forall q w, In (q, w) res -> q = mn) ->
  wsum p (add_max mx (add_min mn res)) = clamp (p mn) (p mx) (wsum p res) (wsum (fun _ => true) res) /\ srtw (add_max mx (add_min mn res)).
Proof.
  intros Hp HS HN HW HI Hmm H1.
  assert (IL : Forall (fun a => lew less mn (fst a)) res) by (eapply Forall_impl; [|exact HI]; intros a Ha; apply Ha).
  assert (IH : Forall (fun a => lew less (fst a) mx) res) by (eapply Forall_impl; [|exact HI]; intros a Ha; apply Ha).
  pose proof (add_min_rank p mn res Hp HS HN HW IL) as A1. pose proof (add_min_sum mn res HN HW) as A2.
  assert (A3 : srtw (add_min mn res)).
  { destruct res as [|[q w] t]; [congruence|]. cbn [add_min]. destruct (ceq q mn); auto. inversion HS; subst. constructor; [constructor; auto|]. inversion IL; subst. constructor; auto. }
  assert (A4 : Forall (fun a => lew less (fst a) mx) (add_min mn res)).
  { destruct res as [|[q w] t]; [congruence|]. cbn [add_min]. destruct (ceq q mn); auto. inversion IH; subst. constructor; auto. }
  destruct (snoc_cases (add_min mn res)) as [E|(r & [ql wl] & E)].
  { destruct res as [|[q w] t]; [congruence|]. cbn [add_min] in E. destruct (ceq q mn); discriminate. }
  assert (Wl : (1 <= wl)%N).
  { destruct res as [|[q w] t]; [congruence|]. cbn [add_min] in E. destruct (ceq q mn) eqn:E0.
    - rewrite E in HW. apply Forall_app in HW. destruct HW as [_ HW]. inversion HW; auto.
    - destruct (snoc_cases t) as [->|(t' & [a b] & ->)].
      + change [(mn, 1%N); (q, (w - 1)%N)] with ([(mn, 1%N)] ++ [(q, (w - 1)%N)]) in E. apply app_inj_tail in E. destruct E as [_ E]. inversion E; subst.
        destruct (N.eq_dec w 1) as [->|]; [|inversion HW; subst; cbn [snd] in *; lia]. exfalso. specialize (H1 eq_refl ql 1%N (or_introl eq_refl)). subst. rewrite (proj2 (ceq_true mn mn) eq_refl) in E0. discriminate.
      + change ((mn, 1%N) :: (q, (w - 1)%N) :: t' ++ [(a, b)]) with (((mn, 1%N) :: (q, (w - 1)%N) :: t') ++ [(a, b)]) in E. apply app_inj_tail in E. destruct E as [_ E]. inversion E; subst.
        inversion HW as [|? ? _ HW2]; subst. apply Forall_app in HW2. destruct HW2 as [_ HW2]. inversion HW2; auto. }
  rewrite E in *. pose proof (add_max_rank p mx r ql wl Hp A3 Wl A4) as B1. rewrite B1, A1, A2. split.
  - unfold clamp. destruct (p mn) eqn:Emn; auto. destruct (p mx) eqn:Emx; [|lia]. rewrite (Hp mn mx Hmm Emx) in Emn. discriminate.
  - rewrite add_max_snoc. destruct (ceq ql mx); auto. apply srtw_snoc in A3. destruct A3 as [S1 S2].
    change [(ql, (wl - 1)%N); (mx, 1%N)] with ([(ql, (wl - 1)%N)] ++ [(mx, 1%N)]). rewrite app_assoc. apply srtw_snoc. split; [apply srtw_snoc; auto|].
    apply Forall_app in A4. destruct A4 as [A4 A5]. inversion A5; subst. apply Forall_app. split; [exact A4|constructor; auto].
Qed.
Lemma adjusted_sorted mn mx res : srtw res -> inner mn mx res -> lew less mn mx -> srtw (add_max mx (add_min mn res)).
Proof.
  intros HS HI Hmm. assert (HH : srtw (add_min mn res) /\ Forall (fun a => lew less (fst a) mx) (add_min mn res)).
  { destruct res as [|[q w] t]; cbn [add_min]; [split; auto|]. inversion HI as [|? ? [I1 I2] I3]; subst. inversion HS as [|? ? S1 S2]; subst. cbn [fst] in *.
    assert (I4 : Forall (fun a => lew less (fst a) mx) t) by (eapply Forall_impl; [|exact I3]; intros a Ha; apply Ha).
    assert (I5 : Forall (fun a => le2 less (mn, 1%N) a) t) by (eapply Forall_impl; [|exact I3]; intros a Ha; apply Ha).
    destruct (ceq q mn); split; auto.
    repeat constructor; auto. }
  destruct HH as [A3 A4]. destruct (snoc_cases (add_min mn res)) as [E|(r & [ql wl] & E)]; [rewrite E; constructor|]. rewrite E in *.
  rewrite add_max_snoc. destruct (ceq ql mx); auto. apply srtw_snoc in A3. destruct A3 as [S1 S2].
  change [(ql, (wl - 1)%N); (mx, 1%N)] with ([(ql, (wl - 1)%N)] ++ [(mx, 1%N)]). rewrite app_assoc. apply srtw_snoc. split; [apply srtw_snoc; auto|].
  apply Forall_app in A4. destruct A4 as [A4 A5]. inversion A5; subst. apply Forall_app. split; [exact A4|constructor; auto].
Qed.
Lemma adjusted_in mn mx res y : res <> [] -> In y (map fst (add_max mx (add_min mn res))) <-> y = mn \/ y = mx \/ In y (map fst res).
Proof.
  intros HN. assert (HA : forall y, In y (map fst (add_min mn res)) <-> y = mn \/ In y (map fst res)).
  { intros z. destruct res as [|[q w] t]; [congruence|]. cbn [add_min]. destruct (ceq q mn) eqn:E; cbn [map In fst].
    - apply ceq_true in E. subst q. split; [tauto|]. intros [->|H]; auto.
    - split; [intros [H|H]; auto|intros [H|H]; auto]. }
  assert (HM : add_min mn res <> []) by (destruct res as [|[q w] t]; [congruence|]; cbn [add_min]; destruct (ceq q mn); discriminate).
  destruct (snoc_cases (add_min mn res)) as [E|(r & [ql wl] & E)]; [congruence|]. specialize (HA y). rewrite E in *. rewrite add_max_snoc.
  destruct (ceq ql mx) eqn:E0.
  - apply ceq_true in E0. subst ql. rewrite map_app, in_app_iff in *. cbn [map In fst] in *. intuition congruence.
  - rewrite map_app, in_app_iff in *. cbn [map In fst] in *. intuition congruence.
Qed.
End V.
