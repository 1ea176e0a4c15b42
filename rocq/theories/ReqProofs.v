(** * Proofs about the compactors of the REQ sketch. *)
From Coq Require Import Sorting.Sorted.
From Verif Require Import Base Bytes Arr BitPackModel SearchModel SearchProps KllProofs KllSem ReqModel.
Local Open Scope nat_scope.

Section P.
Context {C : Type}.
Variables less ceq : C -> C -> bool.
Variable zero : C.
Variable sort : list C -> list C.
Context {F : Type}.
Variable f_of : nat -> F.
Variable f_shrink : F -> F.
Variable f_half : F -> nat.
Hypothesis order : strict_total less ceq.
Hypothesis sort_perm : forall l, Permutation l (sort l).
Hypothesis sort_sorted : forall l, StronglySorted (fun a b => less b a = false) (sort l).
Hypothesis f_of_ok : forall j, j <= 512 -> f_half (f_of (2 * j)) = j.
Hypothesis f_shrink_ok : forall f, f_half f <= 512 -> 2 <= f_half (f_shrink f) -> f_half f <= 2 * f_half (f_shrink f) /\ f_half (f_shrink f) <= f_half f.
Notation comp := (compactor (C := C) (F := F)).
Notation srt := (sortedl less).
Implicit Types (c : comp) (L M A B G D P Q : list C).

(** The active region of [c] is [L]. *)
Definition rep c L : Prop := c_count c = length L /\ exists G, c_items c = if c_hra c then G ++ L else L ++ G.

Lemma rep_parts c L : rep c L -> exists P Q, c_items c = P ++ L ++ Q /\ c_start c = Some (length P) /\
  (if c_hra c then Q = [] else P = []) /\ c_cap c = length P + length L + length Q.
Proof.
  intros [HC [G HG]]. unfold c_start, c_cap. rewrite HC. destruct (c_hra c) eqn:E.
  - exists G, []. rewrite app_nil_r, HG, app_length, sub_ok by lia. cbn [length]. repeat split; try lia. f_equal. lia.
  - exists [], G. rewrite HG, app_length. cbn [length app]. repeat split; auto.
Qed.

Lemma rep_cap c L : rep c L -> length L <= c_cap c.
Proof. intros H. destruct (rep_parts _ _ H) as (P & Q & _ & _ & _ & E). lia. Qed.

Lemma ensure_capacity_ok c L n : rep c L -> exists it, ensure_capacity zero c n = Some (set_items c it (c_count c) (c_sorted c)) /\
  rep (set_items c it (c_count c) (c_sorted c)) L /\ n <= length it /\ c_cap c <= length it.
Proof.
  intros H. destruct (rep_parts _ _ H) as (P & Q & H1 & H2 & H3 & H4). destruct H as [HC [G HG]].
  unfold ensure_capacity. destruct (Nat.ltb_spec (c_cap c) n) as [E|E].
  - rewrite H2. cbn [bindo]. assert (HD : (if c_hra c then sub n (c_count c) else Some 0) = Some (if c_hra c then n - length L else 0)).
    { destruct (c_hra c); auto. rewrite HC. apply sub_ok. lia. }
    rewrite HD. cbn [bindo]. rewrite H1, HC, get_seg by auto. cbn [bindo].
    set (dst := if c_hra c then n - length L else 0). set (rest := n - length L - dst).
    assert (HR : repeat zero n = repeat zero dst ++ repeat zero (length L) ++ repeat zero rest).
    { rewrite <- !repeat_app. f_equal. unfold rest, dst. destruct (c_hra c); lia. }
    rewrite HR, put_seg by (rewrite ?repeat_length; auto). cbn [bindo]. eexists. split; [reflexivity|].
    rewrite !app_length, !repeat_length. split; [|unfold rest, dst; destruct (c_hra c); lia].
    split; [auto|]. cbn [c_items set_items c_hra]. unfold rest, dst. destruct (c_hra c).
    + exists (repeat zero (n - length L)). rewrite Nat.sub_diag. cbn [repeat]. rewrite app_nil_r. auto.
    + exists (repeat zero (n - length L - 0)). reflexivity.
  - exists (c_items c). unfold c_cap in *. repeat split; cbn [set_items c_count c_items c_hra]; auto; [|exists G; auto].
    destruct c; reflexivity.
Qed.

Lemma ensure_space_ok c L n : rep c L -> exists it, ensure_space zero c n = Some (set_items c it (c_count c) (c_sorted c)) /\
  rep (set_items c it (c_count c) (c_sorted c)) L /\ length L + n <= length it.
Proof.
  intros H. pose proof (proj1 H) as HC. unfold ensure_space. destruct (Nat.ltb_spec (c_cap c) (c_count c + n)) as [E|E].
  - destruct (ensure_capacity_ok c L (c_count c + n + c_delta c) H) as (it & -> & H1 & H2 & H3). exists it. repeat split; auto; try apply H1. lia.
  - exists (c_items c). unfold c_cap in *. split; [destruct c; reflexivity|]. split; [|lia]. destruct H as [_ [G HG]]. split; auto. exists G; auto.
Qed.

Lemma append_ok c L x : rep c L -> exists it, append zero c x = Some (set_items c it (length L + 1) false) /\
  rep (set_items c it (length L + 1) false) (if c_hra c then x :: L else L ++ [x]).
Proof.
  intros H. unfold append. destruct (ensure_space_ok c L 1 H) as (it & -> & [HC [G HG]] & H2). cbn [bindo].
  cbn [set_items c_items c_hra c_count] in *. unfold c_cap. cbn [c_items set_items]. rewrite HC. destruct (c_hra c) eqn:E.
  - rewrite HG in H2 |- *. rewrite app_length in H2 |- *. destruct (snoc_cases G) as [->|(G' & g & ->)]; [cbn [length] in H2; lia|].
    rewrite app_length in H2 |- *. cbn [length] in *. rewrite sub_ok by lia. cbn [bindo]. rewrite <- app_assoc. cbn [app].
    rewrite wr_seg by lia. cbn [bindo]. eexists. split; [reflexivity|]. split; cbn [set_items c_count c_items c_hra length]; [lia|]. rewrite E. exists G'. auto.
  - rewrite HG in H2 |- *. rewrite app_length in H2. destruct G as [|g G]; [cbn [length] in H2; lia|]. cbn [bindo].
    rewrite wr_seg by auto. cbn [bindo]. eexists. split; [reflexivity|]. split; cbn [set_items c_count c_items c_hra]; [rewrite app_length; reflexivity|].
    rewrite E. exists G. rewrite <- app_assoc. auto.
Qed.

Lemma sort_ok c L : rep c L -> (c_sorted c = true -> srt L) -> exists it S, c_sort sort c = Some (set_items c it (c_count c) true) /\
  rep (set_items c it (c_count c) true) S /\ Permutation L S /\ srt S /\ length it = c_cap c.
Proof.
  intros H HS. unfold c_sort. destruct (c_sorted c) eqn:E.
  - exists (c_items c), L. split; [rewrite <- E; destruct c; reflexivity|]. split; [exact H|]. auto.
  - destruct (rep_parts _ _ H) as (P & Q & H1 & H2 & H3 & H4). destruct H as [HC [G HG]]. rewrite H2. cbn [bindo].
    rewrite H1, HC, get_seg by auto. cbn [bindo]. pose proof (Permutation_length (sort_perm L)) as HL.
    rewrite put_seg by auto. cbn [bindo]. exists (P ++ sort L ++ Q), (sort L). split; [reflexivity|]. split; [|split; [apply sort_perm|split; [apply sort_sorted|]]].
    + split; cbn [set_items c_count c_items c_hra]; [lia|]. destruct (c_hra c); subst; [exists P; rewrite app_nil_r; auto|exists Q; auto].
    + rewrite H4, !app_length. lia.
Qed.

Lemma merge_up_spec : forall cnt D G A PB B, length G = length B -> cnt = length A + length B ->
  merge_up less cnt (D ++ G ++ A) (length D + length G) (length D + length G + length A) (PB ++ B) (length PB) (length PB + length B) (length D)
  = Some (D ++ mergel less B A).
Proof.
  induction cnt as [|cnt IH]; intros D G A PB B HG Hc.
  - destruct A, B, G; cbn [length] in *; try lia. rewrite mergel_nil_l. reflexivity.
  - cbn [merge_up]. destruct A as [|x A].
    + destruct B as [|y B]; [cbn [length] in Hc; lia|]. destruct G as [|g G]; [discriminate|]. cbn [length] in *.
      destruct (Nat.ltb_spec (length D + S (length G)) (length D + S (length G) + 0)); [lia|]. cbn [andb].
      destruct (Nat.ltb_spec (length PB) (length PB + S (length B))); [|lia].
      rewrite nth_seg by auto. cbn [bindo]. cbn [app]. rewrite wr_seg by auto. cbn [bindo].
      specialize (IH (D ++ [y]) G [] (PB ++ [y]) B ltac:(lia) ltac:(cbn [length]; lia)). rewrite <- !app_assoc in IH. cbn [app] in IH.
      rewrite !app_length in IH. cbn [length] in IH.
      replace (length D + S (length G)) with (length D + 1 + length G) by lia. replace (length PB + S (length B)) with (length PB + 1 + length B) by lia.
      rewrite IH. rewrite !mergel_nil_r. auto.
    + destruct B as [|y B].
      * destruct G; [|discriminate]. cbn [length app] in *. rewrite !Nat.add_0_r.
        destruct (Nat.ltb_spec (length D) (length D + S (length A))); [|lia]. rewrite Nat.ltb_irrefl. cbn [andb].
        rewrite nth_seg by auto. cbn [bindo]. rewrite wr_seg by auto. cbn [bindo].
        specialize (IH (D ++ [x]) [] A PB [] eq_refl ltac:(cbn [length]; lia)). cbn [app length] in IH. rewrite <- app_assoc in IH. cbn [app] in IH.
        rewrite app_length in IH. cbn [length] in IH. rewrite !Nat.add_0_r in IH.
        replace (length D + S (length A)) with (length D + 1 + length A) by lia. rewrite IH. rewrite !mergel_nil_l, <- app_assoc. auto.
      * destruct G as [|g G]; [discriminate|]. cbn [length] in *.
        destruct (Nat.ltb_spec (length D + S (length G)) (length D + S (length G) + S (length A))); [|lia].
        destruct (Nat.ltb_spec (length PB) (length PB + S (length B))); [|lia]. cbn [andb].
        replace (nth_error (D ++ (g :: G) ++ x :: A) (length D + S (length G))) with (Some x)
          by (symmetry; rewrite app_assoc; apply nth_seg; rewrite app_length; auto).
        cbn [bindo]. rewrite nth_seg by auto. cbn [bindo]. rewrite mergel_cons. destruct (less y x); cbn [negb].
        -- cbn [app]. rewrite wr_seg by auto. cbn [bindo].
           specialize (IH (D ++ [y]) G (x :: A) (PB ++ [y]) B ltac:(lia) ltac:(cbn [length]; lia)). rewrite <- !app_assoc in IH. cbn [app] in IH.
           rewrite !app_length in IH. cbn [length] in IH.
           replace (length D + S (length G)) with (length D + 1 + length G) by lia. replace (length PB + S (length B)) with (length PB + 1 + length B) by lia.
           rewrite IH. auto.
        -- cbn [app]. rewrite wr_seg by auto. cbn [bindo].
           specialize (IH (D ++ [x]) (G ++ [x]) A PB (y :: B)). rewrite <- !app_assoc in IH. cbn [app] in IH. rewrite !app_length in IH. cbn [length] in IH.
           replace (length D + S (length G) + 1) with (length D + 1 + (length G + 1)) by lia.
           replace (length D + S (length G) + S (length A)) with (length D + 1 + (length G + 1) + length A) by lia.
           rewrite IH by lia. auto.
Qed.

Lemma sorted_snoc l x : srt (l ++ [x]) <-> srt l /\ Forall (fun y => lew less y x) l.
Proof.
  unfold sortedl. induction l as [|a l IH]; cbn [app].
  - split; intros; repeat constructor.
  - split.
    + intros H. inversion H as [|? ? H1 H2]; subst. apply IH in H1. destruct H1 as [H1 H3]. apply Forall_app in H2. destruct H2 as [H2 H4].
      inversion H4; subst. split; constructor; auto.
    + intros [H1 H2]. inversion H1; inversion H2; subst. constructor; [apply IH; auto|]. apply Forall_app. split; auto.
Qed.
Lemma snoc_ge l x y : srt (l ++ [x]) -> lew less x y -> Forall (fun z => lew less z y) (l ++ [x]).
Proof.
  intros H Hy. apply sorted_snoc in H. destruct H as [H1 H2]. apply Forall_app. split; [|constructor; auto].
  eapply Forall_impl; [|exact H2]. intros a Ha. cbn beta in Ha. apply (lew_trans less ceq order _ _ _ Ha Hy).
Qed.

Lemma merge_down_spec : forall cnt A G D B QB, length G = length B -> cnt = length A + length B ->
  exists M, merge_down less cnt (A ++ G ++ D) (length A) (B ++ QB) (length B) = Some (M ++ D) /\ Permutation (A ++ B) M /\ (srt A -> srt B -> srt M).
Proof.
  induction cnt as [|cnt IH]; intros A G D B QB HG Hc.
  - destruct A, B, G; cbn [length] in *; try lia. exists []. repeat split; auto.
  - cbn [merge_down].
    assert (TA : forall A' x, A = A' ++ [x] ->
      exists M, (do x0 <- nth_error (A ++ G ++ D) (length A - 1); do a <- wr cnt x0 (A ++ G ++ D); merge_down less cnt a (length A - 1) (B ++ QB) (length B)) = Some (M ++ x :: D) /\
        Permutation (A' ++ B) M /\ (srt A' -> srt B -> srt M)).
    { intros A' x ->. rewrite app_length in *. cbn [length] in *. replace (length A' + 1 - 1) with (length A') by lia. rewrite <- !app_assoc. cbn [app].
      rewrite nth_seg by auto. cbn [bindo]. destruct (snoc_cases G) as [->|(G' & g & ->)].
      - cbn [app length] in *. rewrite wr_seg by lia. cbn [bindo]. destruct (IH A' [] (x :: D) B QB HG ltac:(lia)) as (M & H1 & H2 & H3). cbn [app] in H1. exists M. auto.
      - rewrite app_length in HG. cbn [length] in HG. rewrite <- app_assoc. cbn [app].
        replace (A' ++ x :: G' ++ g :: D) with ((A' ++ x :: G') ++ g :: D) by (rewrite <- app_assoc; auto).
        rewrite wr_seg by (rewrite app_length; cbn [length]; lia). cbn [bindo]. rewrite <- app_assoc. cbn [app].
        destruct (IH A' (x :: G') (x :: D) B QB ltac:(cbn [length]; lia) ltac:(lia)) as (M & H1 & H2 & H3). cbn [app] in H1. exists M. auto. }
    assert (TB : forall B' y, B = B' ++ [y] ->
      exists M, (do x0 <- nth_error (B ++ QB) (length B - 1); do a <- wr cnt x0 (A ++ G ++ D); merge_down less cnt a (length A) (B ++ QB) (length B - 1)) = Some (M ++ y :: D) /\
        Permutation (A ++ B') M /\ (srt A -> srt B' -> srt M)).
    { intros B' y ->. rewrite app_length in *. cbn [length] in *. replace (length B' + 1 - 1) with (length B') by lia. rewrite <- (app_assoc B' [y] QB). cbn [app].
      rewrite nth_seg by auto. cbn [bindo]. destruct (snoc_cases G) as [->|(G' & g & ->)]; [cbn [length] in HG; lia|].
      rewrite app_length in HG. cbn [length] in HG. rewrite <- !app_assoc. cbn [app]. rewrite (app_assoc A G' (g :: D)).
      rewrite wr_seg by (rewrite app_length; lia). cbn [bindo]. rewrite <- app_assoc.
      destruct (IH A G' (y :: D) B' (y :: QB) ltac:(lia) ltac:(lia)) as (M & H1 & H2 & H3). exists M. auto. }
    assert (Fin : forall M x D0, M ++ x :: D0 = (M ++ [x]) ++ D0) by (intros; rewrite <- app_assoc; auto).
    destruct (snoc_cases A) as [EA|(A' & x & EA)].
    + destruct (snoc_cases B) as [EB|(B' & y & EB)]; [subst; cbn [length] in Hc; lia|].
      destruct (TB _ _ EB) as (M & H1 & H2 & H3). assert (0 < length B) by (rewrite EB, app_length; cbn [length]; lia).
      destruct (Nat.ltb_spec 0 (length A)); [subst A; cbn [length] in *; lia|]. cbn [andb]. destruct (Nat.ltb_spec 0 (length B)); [|lia].
      rewrite H1, Fin. eexists. split; [reflexivity|]. subst A B. cbn [app] in *. split; [apply Permutation_app_tail; auto|].
      intros _ HB. apply sorted_snoc in HB. apply sorted_snoc. split; [apply H3; [constructor|tauto]|]. eapply Permutation_Forall; [exact H2|tauto].
    + assert (0 < length A) by (rewrite EA, app_length; cbn [length]; lia). destruct (Nat.ltb_spec 0 (length A)); [|lia].
      destruct (TA _ _ EA) as (M & H1 & H2 & H3). destruct (snoc_cases B) as [EB|(B' & y & EB)].
      * destruct (Nat.ltb_spec 0 (length B)); [subst B; cbn [length] in *; lia|]. cbn [andb]. rewrite H1, Fin. eexists. split; [reflexivity|].
        subst A B. rewrite app_nil_r in *. split; [apply Permutation_app_tail; auto|].
        intros HA _. apply sorted_snoc in HA. apply sorted_snoc. split; [apply H3; [tauto|constructor]|]. eapply Permutation_Forall; [exact H2|tauto].
      * assert (0 < length B) by (rewrite EB, app_length; cbn [length]; lia). destruct (Nat.ltb_spec 0 (length B)); [|lia]. cbn [andb].
        destruct (TB _ _ EB) as (M' & H1' & H2' & H3').
        assert (NA : nth_error (A ++ G ++ D) (length A - 1) = Some x).
        { rewrite EA, app_length, <- app_assoc. cbn [length app]. apply nth_seg. lia. }
        assert (NB : nth_error (B ++ QB) (length B - 1) = Some y).
        { rewrite EB, app_length, <- app_assoc. cbn [length app]. apply nth_seg. lia. }
        rewrite NA in H1 |- *. rewrite NB in H1' |- *. cbn [bindo] in *. destruct (less x y) eqn:E; cbn [negb].
        -- rewrite H1', Fin. eexists. split; [reflexivity|]. split.
           { rewrite EB, app_assoc. apply Permutation_app_tail. auto. }
           intros HA HB. apply sorted_snoc. rewrite EB in HB. pose proof (proj1 (sorted_snoc _ _) HB) as [HB1 HB2].
           split; [apply H3'; auto|]. eapply Permutation_Forall; [exact H2'|]. apply Forall_app. split; auto.
           rewrite EA in HA |- *. apply snoc_ge; auto. apply (lew_lt less ceq order). auto.
        -- rewrite H1, Fin. eexists. split; [reflexivity|]. split.
           { rewrite EA, <- app_assoc. eapply perm_trans; [apply Permutation_app_head, Permutation_app_comm|]. rewrite app_assoc. apply Permutation_app_tail. auto. }
           intros HA HB. apply sorted_snoc. rewrite EA in HA. pose proof (proj1 (sorted_snoc _ _) HA) as [HA1 HA2].
           split; [apply H3; auto|]. eapply Permutation_Forall; [exact H2|]. apply Forall_app. split; auto.
           rewrite EB in HB |- *. apply snoc_ge; auto.
Qed.

Lemma c_merge_sort_in_ok c L oit B X : rep c L -> c_sorted c = true -> srt L -> srt B -> oit = (if c_hra c then X ++ B else B ++ X) ->
  exists it M, c_merge_sort_in less zero c oit (length B) true = Ok (set_items c it (length L + length B) true) /\
    rep (set_items c it (length L + length B) true) M /\ Permutation (L ++ B) M /\ srt M.
Proof.
  intros H HS HL HB Ho. unfold c_merge_sort_in. rewrite HS. cbn [negb orb].
  destruct (ensure_space_ok c L (length B) H) as (it & -> & [HC [G HG]] & H2). cbn [bindo set_items c_hra c_count c_items] in *. unfold c_cap. cbn [set_items c_items c_count].
  rewrite HC. destruct (c_hra c) eqn:E.
  - rewrite HG in *. rewrite app_length in H2. rewrite sub_ok by (rewrite app_length; lia). cbn [bindo]. rewrite sub_ok by (rewrite app_length; lia). cbn [bindo].
    subst oit. rewrite (sub_ok (length (X ++ B))) by (rewrite app_length; lia). cbn [bindo].
    destruct (split_at G (length G - length B)) as (D & G' & -> & HD); [lia|]. rewrite app_length in *.
    pose proof (merge_up_spec (length L + length B) D G' L X B ltac:(lia) eq_refl) as HM. rewrite <- app_assoc. rewrite !app_length.
    replace (length D + length G' + length L - (length L + length B)) with (length D) by lia.
    replace (length D + length G' + length L - length L) with (length D + length G') by lia.
    replace (length X + length B - length B) with (length X) by lia. rewrite <- Nat.add_assoc in HM at 1. rewrite Nat.add_assoc in HM.
    match goal with |- context [merge_up less ?a ?b ?c0 ?d ?e ?f ?g ?h] => replace (merge_up less a b c0 d e f g h) with (Some (D ++ mergel less B L)) by (symmetry; etransitivity; [|exact HM]; f_equal; lia) end.
    cbn [bindo of_opt]. eexists _, (mergel less B L). split; [reflexivity|].
    assert (HP : Permutation (L ++ B) (mergel less B L)) by (eapply perm_trans; [apply Permutation_app_comm|apply mergel_perm]).
    split; [|split; [exact HP|apply (mergel_sorted less ceq order); auto]].
    split; cbn [set_items c_count c_items c_hra]; [rewrite <- (Permutation_length HP), app_length; auto|]. rewrite E. exists D. auto.
  - rewrite HG in *. rewrite app_length in H2. subst oit. destruct (split_at G (length B)) as (G' & D & -> & HD); [lia|].
    destruct (merge_down_spec (length L + length B) L G' D B X HD eq_refl) as (M & HM & HP & HSo). rewrite HM. cbn [bindo of_opt].
    eexists _, M. split; [reflexivity|]. split; [|split; auto].
    split; cbn [set_items c_count c_items c_hra]; [rewrite <- (Permutation_length HP), app_length; auto|]. rewrite E. exists D. auto.
Qed.

Lemma promote_loop_spec (o : bool) : forall h fuel P R Q D G, length R = 2 * h -> length G = h -> h < fuel ->
  promote_loop fuel (P ++ R ++ Q) (length P + if o then 1 else 0) (length P + 2 * h) (D ++ G) (length D) = Some (D ++ sel o R).
Proof.
  induction h as [|h IH]; intros fuel P R Q D G HR HG Hf; (destruct fuel as [|fuel]; [lia|]); cbn [promote_loop].
  - destruct R; [|cbn [length] in HR; lia]. destruct G; [|discriminate]. destruct (Nat.ltb_spec (length P + (if o then 1 else 0)) (length P + 2 * 0)); [destruct o; lia|]. reflexivity.
  - destruct R as [|a [|b R]]; cbn [length] in HR; try lia. destruct G as [|g G]; [discriminate|]. cbn [length] in HG.
    destruct (Nat.ltb_spec (length P + (if o then 1 else 0)) (length P + 2 * S h)); [|destruct o; lia].
    assert (HN : nth_error (P ++ (a :: b :: R) ++ Q) (length P + (if o then 1 else 0)) = Some (if o then b else a)).
    { destruct o; rewrite nth_after; reflexivity. }
    rewrite HN. cbn [bindo]. rewrite wr_seg by auto. cbn [bindo].
    specialize (IH fuel (P ++ [a; b]) R Q (D ++ [if o then b else a]) G ltac:(lia) ltac:(lia) ltac:(lia)).
    rewrite <- !app_assoc in IH. cbn [app] in IH. rewrite !app_length in IH. cbn [length] in IH. cbn [app].
    replace (length P + (if o then 1 else 0) + 2) with (length P + 2 + (if o then 1 else 0)) by lia.
    replace (length P + 2 * S h) with (length P + 2 + 2 * h) by lia. rewrite IH. cbn [sel]. auto.
Qed.

(** ** The configuration of a compactor *)
Record conf c : Prop := mkConf {
  cf_nsec : In (c_nsec c) [3; 6; 12; 24; 48]; cf_size : c_ssize c = 2 * f_half (c_szf c); cf_range : 4 <= c_ssize c <= 1024 }.

Lemma section_limit_ok c : conf c -> section_limit (c_nsec c) = Z.of_N (2 ^ N.of_nat (c_nsec c - 1)).
Proof. intros H. pose proof (cf_nsec _ H) as HI. cbn [In] in HI. destruct HI as [E|[E|[E|[E|[E|[]]]]]]; rewrite <- E; vm_compute; reflexivity. Qed.
Lemma conf_pos c : conf c -> 3 <= c_nsec c <= 48.
Proof. intros H. pose proof (cf_nsec _ H) as HI. cbn [In] in HI. lia. Qed.
Lemma conf_even c : conf c -> exists q, c_ssize c = 2 * q.
Proof. intros H. exists (f_half (c_szf c)). apply H. Qed.

(** What ensureEnoughSections leaves alone, and that it does not lower the capacity. *)
Definition same c c' : Prop := c_hra c' = c_hra c /\ c_sorted c' = c_sorted c /\ c_state c' = c_state c /\ c_lgw c' = c_lgw c /\
  c_nsec c * c_ssize c <= c_nsec c' * c_ssize c'.

Lemma ensure_enough_ok c L : rep c L -> conf c -> (c_state c < 2 ^ 47)%N -> exists c' b, ensure_enough_sections zero f_shrink f_half c = Some (c', b) /\
  rep c' L /\ conf c' /\ same c c' /\ (b = true -> c_nsec c < c_nsec c').
Proof.
  intros H HC HS. unfold ensure_enough_sections. rewrite (section_limit_ok _ HC).
  assert (Base : forall b : bool, b = false -> exists c' b0, Some (c, b) = Some (c', b0) /\ rep c' L /\ conf c' /\ same c c' /\ (b0 = true -> c_nsec c < c_nsec c')).
  { intros b ->. exists c, false. repeat split; auto; try discriminate; apply H || apply HC. }
  destruct (Z.leb_spec (Z.of_N (2 ^ N.of_nat (c_nsec c - 1))) (Z.of_N (c_state c))) as [E1|E1]; [|apply Base; auto].
  destruct (Nat.ltb_spec 4 (c_ssize c)) as [E2|E2]; [|apply Base; auto]. cbn [andb].
  destruct (Nat.leb_spec 4 (nearest_even f_half (f_shrink (c_szf c)))) as [E3|E3]; [|apply Base; auto].
  unfold nearest_even in E3. pose proof (cf_size _ HC) as HCS. pose proof (cf_range _ HC) as HCR. destruct (f_shrink_ok (c_szf c) ltac:(lia) ltac:(lia)) as [S1 S2]. rewrite (cf_size _ HC) in *.
  assert (HN : In (c_nsec c) [3; 6; 12; 24]).
  { pose proof (cf_nsec _ HC) as HI. cbn [In] in HI |- *. destruct HI as [E|[E|[E|[E|[E|[]]]]]]; auto. exfalso. rewrite <- E in E1. cbn [Nat.sub] in E1.
    change (N.of_nat 47) with 47%N in E1. lia. }
  set (c1 := mkComp _ _ _ _ _ _ _ _ _ _ _).
  assert (R1 : rep c1 L) by (destruct H as [H1 [G H2]]; split; [exact H1|exists G; exact H2]).
  assert (HM : 2 * c_nsec c mod 256 = 2 * c_nsec c) by (apply Nat.mod_small; cbn [In] in HN; lia).
  assert (C1 : conf c1).
  { constructor; cbn [c1 c_nsec c_ssize c_szf]; unfold nearest_even; try lia.
    - replace ((2 * c_nsec c) mod 256) with (2 * c_nsec c) by auto. cbn [In] in HN |- *. lia. }
  destruct (ensure_capacity_ok c1 L (2 * nom_cap c1) R1) as (it & -> & R2 & _). cbn [bindo]. eexists _, true. split; [reflexivity|]. split; [exact R2|].
  split; [destruct C1; constructor; auto|]. unfold c1, same. cbn [set_items c_hra c_sorted c_state c_lgw c_nsec c_ssize]. rewrite HM. unfold nearest_even.
  repeat split; auto; [|intros _; cbn [In] in HN; lia]. rewrite (cf_size _ HC). nia.
Qed.

Lemma ensure_all_ok L : forall fuel c, rep c L -> conf c -> (c_state c < 2 ^ 47)%N -> 48 < c_nsec c + fuel ->
  exists c', ensure_all_sections zero f_shrink f_half fuel c = Some c' /\ rep c' L /\ conf c' /\ same c c'.
Proof.
  induction fuel as [|fuel IH]; intros c H HC HS Hf; [pose proof (conf_pos _ HC); lia|]. cbn [ensure_all_sections].
  destruct (ensure_enough_ok c L H HC HS) as (c1 & b & -> & R1 & C1 & S1 & HB). cbn [bindo]. destruct b.
  - destruct (IH c1 R1 C1) as (c2 & -> & R2 & C2 & S2); [destruct S1 as (_ & _ & -> & _); auto|specialize (HB eq_refl); lia|].
    exists c2. split; auto. split; auto. split; auto. unfold same in *. intuition; congruence || lia.
  - exists c1. auto.
Qed.

Lemma promote_into_ok c next L M (P R Q : list C -> list C) (o : bool) h : rep c L -> (c_sorted c = true -> srt L) ->
  (forall S, Permutation L S -> srt S -> S = P S ++ R S ++ Q S /\ length (R S) = 2 * h /\ srt (R S) /\ length (P S) + 2 * h + length (Q S) = length L) -> 
  (forall S, Permutation L S -> srt S -> length (P S) = length (P (sort L))) ->
  rep next M -> c_sorted next = true -> srt M ->
  exists it S itn M', promote_into less zero sort c next (length (P (sort L))) (length (P (sort L)) + 2 * h) o = Ok (set_items c it (c_count c) true, set_items next itn (length M + h) true, h) /\
    rep (set_items c it (c_count c) true) S /\ Permutation L S /\ srt S /\
    rep (set_items next itn (length M + h) true) M' /\ Permutation (sel o (R S) ++ M) M' /\ srt M'.
Proof.
  intros H HS HPRQ HPl Hn HnS HM. unfold promote_into. destruct (rep_parts _ _ H) as (X & Y & H1 & H2 & H3 & H4). rewrite H2. cbn [of_opt bindr].
  destruct (sort_ok c L H HS) as (it & S & -> & RS & PS & SS & Lit). cbn [of_opt bindr]. rewrite sub_ok by lia. cbn [of_opt bindr].
  replace (length (P (sort L)) + 2 * h - length (P (sort L))) with (2 * h) by lia.
  replace (Nat.odd (2 * h)) with false by (symmetry; rewrite Nat.odd_mul; reflexivity). replace (2 * h / 2) with h by (symmetry; rewrite Nat.mul_comm; apply Nat.div_mul; lia).
  destruct (HPRQ S PS SS) as (ES & LR & SR & LT). specialize (HPl S PS SS).
  assert (EI : exists X' Y', it = X' ++ S ++ Y' /\ length X' = length X).
  { destruct RS as [_ [G HG]]. cbn [set_items c_items c_hra] in HG. destruct (c_hra c); [exists G, []; rewrite app_nil_r|exists [], G]; (split; [auto|]); subst it; rewrite ?app_length in Lit; rewrite <- (Permutation_length PS) in Lit; subst; cbn [length] in *; lia. }
  destruct EI as (X' & Y' & EI & LX). cbn [set_items c_items]. 
  assert (HL : promote_loop (2 * h + 1) it (length X + length (P (sort L)) + (if o then 1 else 0)) (length X + (length (P (sort L)) + 2 * h)) (repeat zero h) 0 = Some (sel o (R S))).
  { pose proof (promote_loop_spec o h (2 * h + 1) (X' ++ P S) (R S) (Q S ++ Y') [] (repeat zero h) LR (repeat_length _ _) ltac:(lia)) as HL. cbn [app length] in HL.
    rewrite <- HL. rewrite EI. rewrite ES at 1. rewrite <- !app_assoc, app_length. f_equal; lia. }
  rewrite HL. cbn [of_opt bindr].
  pose proof (sel_length less ceq zero sort (fun _ => false) sort_perm o h (R S) LR) as LS.
  destruct (c_merge_sort_in_ok next M (sel o (R S)) (sel o (R S)) [] Hn HnS HM) as (itn & M' & HE & RM & PM & SM).
  { apply (sel_sorted less); auto. }
  { destruct (c_hra next); [auto|rewrite app_nil_r; auto]. }
  rewrite LS in HE, RM. rewrite HE. cbn [bindr]. eexists it, S, itn, M'. split; [reflexivity|]. split; auto. split; auto. split; auto. split; auto. split; auto.
  eapply perm_trans; [apply Permutation_app_comm|exact PM].
Qed.

Lemma sorted_app A B : srt (A ++ B) -> srt A /\ srt B /\ Forall (fun a => Forall (lew less a) B) A.
Proof.
  unfold sortedl. induction A as [|a A IH]; cbn [app]; intros H; [repeat constructor; auto|]. inversion H as [|? ? H1 H2]; subst.
  apply Forall_app in H2. destruct (IH H1) as (I1 & I2 & I3). repeat split; auto; constructor; tauto.
Qed.

Lemma compact_ok c next L M bit : rep c L -> conf c -> (c_sorted c = true -> srt L) -> rep next M -> c_sorted next = true -> srt M ->
  nom_cap c <= length L -> (Z.of_nat (length L) < 2 ^ 31)%Z -> (c_state c + 1 < 2 ^ 47)%N ->
  exists c' itn lo keep S h (b : bool) M',
    compact less zero sort f_shrink f_half c next bit = Ok (c', set_items next itn (length M + h) true, (- Z.of_nat h)%Z, (Z.of_nat (nom_cap c') - Z.of_nat (nom_cap c))%Z) /\
    Permutation L S /\ srt S /\ S = (if c_hra c then lo ++ keep else keep ++ lo) /\ length lo = 2 * h /\ 2 <= h /\
    c_nsec c * c_ssize c <= length keep < nom_cap c /\ rep c' keep /\ c_sorted c' = true /\ conf c' /\ c_hra c' = c_hra c /\ c_lgw c' = c_lgw c /\
    c_state c' = (c_state c + 1)%N /\ c_nsec c * c_ssize c <= c_nsec c' * c_ssize c' /\
    rep (set_items next itn (length M + h) true) M' /\ Permutation (sel b lo ++ M) M' /\ srt M'.
Proof.
  intros H HC HS Hn HnS HM Hcap H31 Hst. unfold compact.
  set (secs := Nat.min (trailing_ones (c_state c) + 1) (c_nsec c)).
  pose proof (conf_pos _ HC) as Hns. pose proof (cf_range _ HC) as Hsz.
  assert (Hsecs : 1 <= secs <= c_nsec c) by (unfold secs; lia).
  assert (Hcnt : c_count c = length L) by apply H.
  set (nonC := c_nsec c * c_ssize c + (c_nsec c - secs) * c_ssize c).
  assert (HnC : nonC + secs * c_ssize c = nom_cap c) by (unfold nonC, nom_cap; nia).
  assert (HnC2 : c_nsec c * c_ssize c <= nonC) by (unfold nonC; apply Nat.le_add_r).
  assert (Hge : c_ssize c <= secs * c_ssize c) by nia.
  assert (Hkeep : exists keepn h, length L = keepn + 2 * h /\ 2 <= h /\ c_nsec c * c_ssize c <= keepn < nom_cap c /\
     compaction_range c secs = (Z.of_nat (if c_hra c then 2 * h else length L) * 2 ^ 32 + Z.of_nat (if c_hra c then 0 else keepn))%Z).
  { unfold compaction_range. rewrite Hcnt.
    assert (EN : (Z.of_nat (nom_cap c / 2) + (Z.of_nat (c_nsec c) - Z.of_nat secs) * Z.of_nat (c_ssize c))%Z = Z.of_nat nonC).
    { unfold nonC. replace (nom_cap c / 2) with (c_nsec c * c_ssize c) by (symmetry; replace (nom_cap c) with (c_nsec c * c_ssize c * 2) by (unfold nom_cap; nia); apply Nat.div_mul; lia). 
      rewrite <- Nat2Z.inj_sub by lia. rewrite <- Nat2Z.inj_mul, <- Nat2Z.inj_add. auto. }
    rewrite EN. destruct (Z.odd (Z.of_nat (length L) - Z.of_nat nonC)) eqn:EO.
    - apply Z.odd_spec in EO. destruct EO as [q Hq]. exists (nonC + 1), (Z.to_nat q). repeat split; try lia.
      destruct (c_hra c); f_equal; lia.
    - rewrite <- Z.negb_even in EO. apply negb_false_iff, Z.even_spec in EO. destruct EO as [q Hq]. exists nonC, (Z.to_nat q). repeat split; try lia.
      destruct (c_hra c); f_equal; lia. }
  destruct Hkeep as (keepn & h & EL & Hh & Hk & ->). clear nonC HnC HnC2.
  set (high := if c_hra c then 2 * h else length L). set (low := if c_hra c then 0 else keepn).
  assert (EH : high = low + 2 * h) by (unfold high, low; destruct (c_hra c); lia).
  assert (E32 : ((Z.of_nat high * 2 ^ 32 + Z.of_nat low) mod 2 ^ 32 = Z.of_nat low)%Z).
  { rewrite Z.add_comm, Z.mod_add by lia. apply Z.mod_small. split; [lia|].
    unfold low; destruct (c_hra c); lia. }
  assert (E33 : ((Z.of_nat high * 2 ^ 32 + Z.of_nat low) / 2 ^ 32 = Z.of_nat high)%Z).
  { rewrite Z.div_add_l by lia. rewrite Z.div_small; [lia|]. split; [lia|].
    unfold low; destruct (c_hra c); lia. }
  rewrite E32, E33. destruct (Z.ltb_spec (Z.of_nat high - Z.of_nat low) 2); [lia|].
  set (b := if N.odd (c_state c) then negb (c_coin c) else bit). set (c1 := mkComp (c_items c) (c_count c) _ _ _ b _ _ _ _ _).
  assert (R1 : rep c1 L) by (destruct H as [H1 [G H2]]; split; [exact H1|exists G; exact H2]).
  rewrite !Nat2Z.id.
  destruct (promote_into_ok c1 next L M (fun S => firstn low S) (fun S => firstn (2 * h) (skipn low S)) (fun S => skipn (2 * h) (skipn low S)) b h R1 HS) as (it & S & itn & M' & HE & RS & PS & SS & RM & PM & SM); auto.
  { intros S PS SS. rewrite (firstn_skipn (2 * h)), (firstn_skipn low). split; auto. rewrite firstn_length, skipn_length, <- (Permutation_length PS).
    assert (Hl : low + 2 * h <= length L) by (unfold low; destruct (c_hra c); lia).
    split; [lia|]. split; [|rewrite skipn_length, firstn_length, skipn_length, <- (Permutation_length PS); lia].
    pose proof SS as SS'. rewrite <- (firstn_skipn low S) in SS'. apply sorted_app in SS'. destruct SS' as (_ & SS' & _).
    rewrite <- (firstn_skipn (2 * h) (skipn low S)) in SS'. apply sorted_app in SS'. tauto. }
  { intros S PS SS. rewrite !firstn_length, <- (Permutation_length PS), <- (Permutation_length (sort_perm L)). auto. }
  assert (LF : length (firstn low (sort L)) = low). { rewrite firstn_length, <- (Permutation_length (sort_perm L)). unfold low; destruct (c_hra c); lia. }
  rewrite LF, <- EH in HE. rewrite HE. cbn [bindr]. unfold trim_count. cbn [set_items c_count c_items c_hra c_sorted]. cbn [c1 c_count] in *. rewrite Hcnt in *.
  replace (Z.to_nat (Z.of_nat high - Z.of_nat low)) with (2 * h) by lia. rewrite sub_ok by lia. cbn [bindo of_opt bindr].
  set (c2 := mkComp _ _ _ _ _ _ _ _ _ _ _).
  set (lo := firstn (2 * h) (skipn low S)) in *. set (keep := if c_hra c then skipn (2 * h) S else firstn keepn S).
  assert (LSS : length S = length L) by (symmetry; apply Permutation_length; auto).
  assert (ESp : S = if c_hra c then lo ++ keep else keep ++ lo).
  { unfold lo, keep, low. destruct (c_hra c); [rewrite skipn_O, firstn_skipn; auto|].
    rewrite (firstn_all2 (skipn keepn S)) by (rewrite skipn_length; lia). rewrite firstn_skipn. auto. }
  assert (LK : length keep = keepn) by (unfold keep; destruct (c_hra c); [rewrite skipn_length|rewrite firstn_length]; lia).
  assert (R2 : rep c2 keep).
  { destruct RS as [_ [G HG]]. cbn [set_items c_items c_hra] in HG. split; cbn [c2 c_count c_items c_hra set_items]; [lia|].
    cbn [c1 c_hra] in *. destruct (c_hra c); rewrite ESp in HG; [exists (G ++ lo)|exists (lo ++ G)]; rewrite HG, <- ?app_assoc; auto. }
  assert (C2 : conf c2) by (destruct HC; constructor; auto).
  destruct (ensure_enough_ok c2 keep R2 C2 Hst) as (c3 & b3 & -> & R3 & C3 & (S31 & S32 & S33 & S34 & S35) & _). cbn [of_opt bindr].
  assert (LL : length lo = 2 * h). { unfold lo. rewrite firstn_length, skipn_length. unfold low. destruct (c_hra c); lia. }
  exists c3, itn, lo, keep, S, h, b, M'. split.
  { replace (c_count c3) with keepn by (rewrite <- LK; symmetry; apply R3). f_equal. f_equal. f_equal. lia. }
  cbn [c2 c_nsec c_ssize c_hra c_sorted c_lgw c_state set_items] in *. cbn [c1 c_nsec c_ssize c_hra c_sorted c_lgw c_state] in *.
  split; [exact PS|]. split; [exact SS|]. split; [exact ESp|]. split; [exact LL|]. split; [exact Hh|]. split; [lia|]. split; [exact R3|]. split; [exact S32|]. split; [exact C3|]. split; [exact S31|].
  split; [exact S34|]. split; [exact S33|]. split; [exact S35|]. split; [exact RM|]. split; [exact PM|exact SM].
Qed.

Lemma lor_le a b : (N.lor a b <= a + b)%N.
Proof.
  assert (HA : N.lor a b = (N.ldiff a b + b)%N).
  { rewrite N.add_nocarry_lxor by (apply N.bits_inj; intros i; rewrite N.land_spec, N.ldiff_spec, N.bits_0; destruct (N.testbit a i), (N.testbit b i); auto).
    apply N.bits_inj. intros i. rewrite N.lor_spec, N.lxor_spec, N.ldiff_spec. destruct (N.testbit a i), (N.testbit b i); auto. }
  rewrite HA. apply N.add_le_mono_r. apply N.ldiff_le. apply N.bits_inj. intros i. rewrite !N.ldiff_spec, N.bits_0. destruct (N.testbit a i), (N.testbit b i); auto.
Qed.

Lemma c_merge_ok c o L B : rep c L -> conf c -> (c_sorted c = true -> srt L) -> rep o B -> (c_sorted o = true -> srt B) ->
  c_hra o = c_hra c -> c_lgw o = c_lgw c -> (c_state c + c_state o < 2 ^ 47)%N ->
  exists c' M, c_merge less zero sort f_shrink f_half c o = Ok c' /\ rep c' M /\ Permutation (L ++ B) M /\ srt M /\ c_sorted c' = true /\ conf c' /\
    c_hra c' = c_hra c /\ c_lgw c' = c_lgw c /\ c_state c' = N.lor (c_state c) (c_state o) /\ c_nsec c * c_ssize c <= c_nsec c' * c_ssize c'.
Proof.
  intros H HC HS Ho HSo Hh Hw Hst. unfold c_merge. rewrite Hw, Nat.eqb_refl. cbn [negb]. set (c1 := mkComp _ _ _ _ _ _ _ _ _ _ _).
  assert (R1 : rep c1 L) by (destruct H as [H1 [G H2]]; split; [exact H1|exists G; exact H2]).
  assert (C1 : conf c1) by (destruct HC; constructor; auto).
  destruct (ensure_all_ok L 64 c1 R1 C1) as (c2 & -> & R2 & C2 & (S1 & S2 & S3 & S4 & S5)); [cbn [c1 c_state]; pose proof (lor_le (c_state c) (c_state o)); lia|lia|]. cbn [of_opt bindr].
  cbn [c1 c_hra c_sorted c_state c_lgw c_nsec c_ssize] in S1, S2, S3, S4, S5.
  destruct (sort_ok c2 L R2) as (it & S & -> & RS & PS & SS & _); [rewrite S2; auto|]. cbn [of_opt bindr].
  destruct (sort_ok o B Ho HSo) as (ito & So & -> & RSo & PSo & SSo & _). cbn [of_opt bindr]. cbn [set_items c_count c_items c_sorted c_hra c_nsec c_coin c_szf c_state c_ssize c_delta c_lgw].
  assert (CC : c_count c2 = length S) by apply RS. assert (CO : c_count o = length So) by apply RSo. rewrite CC, CO in *.
  destruct RS as [_ [GS HGS]]. destruct RSo as [_ [Go HGo]]. cbn [set_items c_items c_hra] in HGS, HGo. rewrite Hh in HGo. rewrite S1 in HGS.
  destruct (Nat.ltb_spec (length S) (length So)) as [E|E].
  - set (c3 := mkComp _ _ _ _ _ _ _ _ _ _ _).
    destruct (c_merge_sort_in_ok c3 So it S GS) as (it3 & M & -> & RM & PM & SM); auto.
    { split; [reflexivity|]. exists Go. cbn [c3 c_items c_hra]. rewrite S1. auto. }
    { cbn [c3 c_hra]. rewrite S1. auto. }
    eexists _, M. split; [reflexivity|]. split; [exact RM|]. split.
    { eapply perm_trans; [|exact PM]. eapply perm_trans; [apply Permutation_app_comm|]. apply Permutation_app; auto. }
    split; auto. split; auto. split; [destruct C2; constructor; auto|]. cbn [c3 set_items c_hra c_lgw c_state c_nsec c_ssize]. auto.
  - set (c3 := set_items c2 it (length S) true).
    destruct (c_merge_sort_in_ok c3 S ito So Go) as (it3 & M & HE & RM & PM & SM); auto.
    { split; [reflexivity|]. exists GS. cbn [c3 set_items c_items c_hra]. rewrite S1. auto. }
    { cbn [c3 set_items c_hra]. rewrite S1. auto. }
    rewrite HE. eexists _, M. split; [reflexivity|]. split; [exact RM|]. split.
    { eapply perm_trans; [|exact PM]. apply Permutation_app; auto. }
    split; auto. split; auto. split; [destruct C2; constructor; auto|]. cbn [c3 set_items c_hra c_lgw c_state c_nsec c_ssize]. auto.
Qed.
End P.
