From Verif Require Import Base QuickSelectModel.

(** Arrays reachable by swaps inside [lo..hi]. *)
Section RPerm.
  Context {A : Type}.
  Inductive swaps (lo hi : nat) (a : list A) : list A -> Prop :=
  | swaps_refl : swaps lo hi a a
  | swaps_step : forall b i j, swaps lo hi a b -> lo <= i <= hi -> lo <= j <= hi ->
      swaps lo hi a (swap i j b).

  Lemma swaps_length lo hi a b : swaps lo hi a b -> length b = length a.
  Proof. induction 1; auto. rewrite swap_length; auto. Qed.

  Lemma swaps_perm lo hi a b : swaps lo hi a b -> Permutation a b.
  Proof. induction 1; auto. eapply perm_trans; [eauto|apply swap_Permutation]. Qed.

  Lemma swap_id_oob (l : list A) i j : ~ (i < length l /\ j < length l) -> swap i j l = l.
  Proof.
    intros. unfold swap. destruct (nth_error l i) eqn:Ei; auto. destruct (nth_error l j) eqn:Ej; auto.
    apply nth_error_Some_lt in Ei; apply nth_error_Some_lt in Ej; lia.
  Qed.

  Lemma swaps_outside lo hi a b : swaps lo hi a b ->
    forall k, k < lo \/ hi < k -> nth_error b k = nth_error a k.
  Proof.
    induction 1; auto; intros k Hk.
    destruct (Nat.lt_ge_cases i (length b)); [destruct (Nat.lt_ge_cases j (length b))|].
    2-3: rewrite swap_id_oob by lia; auto.
    rewrite swap_nth_error by auto.
    destruct (Nat.eqb_spec k j); [lia|]. destruct (Nat.eqb_spec k i); [lia|]. auto.
  Qed.

  Lemma swaps_inside lo hi a b : swaps lo hi a b ->
    forall k, lo <= k <= hi -> exists k', lo <= k' <= hi /\ nth_error b k = nth_error a k'.
  Proof.
    induction 1; intros k Hk; eauto.
    destruct (Nat.lt_ge_cases i (length b)); [destruct (Nat.lt_ge_cases j (length b))|].
    2-3: rewrite swap_id_oob by lia; auto.
    rewrite swap_nth_error by auto.
    destruct (Nat.eqb_spec k j); [apply IHswaps; lia|]. destruct (Nat.eqb_spec k i); apply IHswaps; lia.
  Qed.

  Lemma swaps_trans lo hi a b c : swaps lo hi a b -> swaps lo hi b c -> swaps lo hi a c.
  Proof. intros H. induction 1; auto. constructor; auto. Qed.

  Lemma swaps_weaken lo hi lo' hi' a b : swaps lo hi a b -> lo' <= lo -> hi <= hi' -> swaps lo' hi' a b.
  Proof. induction 1; intros; constructor; auto; lia. Qed.
End RPerm.

Section QSProofs.
  Context {A : Type}.
  Variable lt : A -> A -> bool.
  Variable key : A -> Z.
  Hypothesis lt_key : forall a b, lt a b = (key a <? key b)%Z.

  (** [at_ arr i P]: cell i exists and satisfies P. *)
  Notation "a '@' i '|->' x" := (nth_error a i = Some x) (at level 70).

  Lemma scan_up_spec : forall fuel arr v hi i,
    i < hi -> hi < length arr -> hi - i < fuel ->
    exists i1, scan_up lt fuel arr v hi i = Some i1 /\ i <= i1 <= hi /\
      (forall k x, i < k <= i1 -> arr @ k |-> x -> (key x < key v)%Z) /\
      (i1 < hi -> exists x, arr @ (i1 + 1) |-> x /\ (key v <= key x)%Z).
  Proof.
    induction fuel; intros arr v hi i Hi Hlen Hf; [lia|]. simpl.
    destruct (nth_error arr (i + 1)) as [x|] eqn:E.
    2:{ apply nth_error_None in E. lia. }
    rewrite lt_key. destruct (Z.ltb_spec (key x) (key v)) as [Hlt|Hge].
    - destruct (Nat.eqb_spec (i + 1) hi) as [He|Hne].
      + exists (i + 1). split; auto. split; [lia|]. split; [|lia].
        intros k y Hk Hy. replace k with (i + 1) in Hy by lia. rewrite E in Hy. inversion Hy; subst; auto.
      + destruct (IHfuel arr v hi (i + 1)) as (i1 & H1 & H2 & H3 & H4); try lia.
        exists i1. split; auto. split; [lia|]. split; [|auto].
        intros k y Hk Hy. destruct (Nat.eq_dec k (i + 1)).
        * subst. rewrite E in Hy. inversion Hy; subst; auto.
        * eapply H3; eauto; lia.
    - exists i. split; auto. split; [lia|]. split; [intros; lia|]. intros _. eauto.
  Qed.

  Lemma scan_down_spec : forall fuel arr v lo j,
    lo < j -> j <= length arr -> arr @ lo |-> v -> j - lo < fuel ->
    exists j1, scan_down lt fuel arr v lo j = Some j1 /\ lo < j1 <= j /\
      (forall k x, j1 <= k < j -> arr @ k |-> x -> (key v < key x)%Z) /\
      (exists x, arr @ (j1 - 1) |-> x /\ (key x <= key v)%Z).
  Proof.
    induction fuel; intros arr v lo j Hj Hlen Hv Hf; [lia|]. simpl.
    destruct (Nat.eqb_spec j 0); [lia|].
    destruct (nth_error arr (j - 1)) as [x|] eqn:E.
    2:{ apply nth_error_None in E. lia. }
    rewrite lt_key. destruct (Z.ltb_spec (key v) (key x)) as [Hlt|Hge].
    - destruct (Nat.eqb_spec (j - 1) lo) as [He|Hne].
      + rewrite He in E. rewrite E in Hv. inversion Hv; subst. lia.
      + destruct (IHfuel arr v lo (j - 1)) as (j1 & H1 & H2 & H3 & H4); try lia; auto.
        exists j1. split; auto. split; [lia|]. split; [|auto].
        intros k y Hk Hy. destruct (Nat.eq_dec k (j - 1)).
        * subst. rewrite E in Hy. inversion Hy; subst; auto.
        * eapply H3; eauto; lia.
    - exists j. split; auto. split; [lia|]. split; [intros; lia|]. eauto.
  Qed.

  Lemma part_loop_spec : forall fuel arr v lo hi i j,
    lo <= i -> i < j -> j <= hi + 1 -> i < hi -> hi < length arr -> arr @ lo |-> v ->
    j - i <= fuel ->
    (forall k x, lo < k <= i -> arr @ k |-> x -> (key x <= key v)%Z) ->
    (forall k x, j <= k <= hi -> arr @ k |-> x -> (key v <= key x)%Z) ->
    exists arr' j2, part_loop lt fuel arr v lo hi i j = Some (arr', j2) /\
      lo <= j2 <= hi /\ swaps (lo + 1) hi arr arr' /\
      (forall k x, lo < k <= j2 -> arr' @ k |-> x -> (key x <= key v)%Z) /\
      (forall k x, j2 < k <= hi -> arr' @ k |-> x -> (key v <= key x)%Z).
  Proof.
    induction fuel; intros arr v lo hi i j Hloi Hij Hj Hihi Hlen Hv Hfuel HL HR; [lia|]. simpl.
    destruct (scan_up_spec (length arr + 1) arr v hi i) as (i1 & -> & Hi1 & HL1 & HS); try lia.
    destruct (scan_down_spec (length arr + 1) arr v lo j) as (j1 & -> & Hj1 & HR1 & (y & Hy & Hyv)); try lia; auto.
    destruct (Nat.eqb_spec j1 0); [lia|].
    destruct (Nat.leb_spec (j1 - 1) (i1 + 1)) as [Hle|Hgt].
    - exists arr, (j1 - 1). split; auto. split; [lia|]. split; [constructor|]. split.
      + intros k x Hk Hx. destruct (Nat.le_gt_cases k i).
        { eapply HL; eauto. lia. }
        destruct (Nat.le_gt_cases k i1). { apply Z.lt_le_incl. eapply HL1; eauto. }
        assert (k = j1 - 1) by lia. subst k. rewrite Hx in Hy. inversion Hy; subst. auto.
      + intros k x Hk Hx. destruct (Nat.lt_ge_cases k j).
        { apply Z.lt_le_incl. eapply HR1; eauto. lia. }
        eapply HR; eauto. lia.
    - destruct (HS ltac:(lia)) as (z & Hz & Hzv). rewrite Hz, Hy.
      set (arr1 := swap (i1 + 1) (j1 - 1) arr).
      assert (Hsw : forall k, nth_error arr1 k =
         if k =? j1 - 1 then Some z else if k =? i1 + 1 then Some y else nth_error arr k).
      { intros k. unfold arr1. rewrite swap_nth_error by lia. rewrite Hz, Hy. auto. }
      destruct (IHfuel arr1 v lo hi (i1 + 1) (j1 - 1)) as (arr' & j2 & H1 & H2 & H3 & H4 & H5); try lia.
      + unfold arr1. rewrite swap_length. lia.
      + rewrite Hsw. destruct (Nat.eqb_spec lo (j1 - 1)); [lia|]. destruct (Nat.eqb_spec lo (i1 + 1)); [lia|]. auto.
      + intros k x Hk. rewrite Hsw.
        destruct (Nat.eqb_spec k (j1 - 1)); [lia|]. destruct (Nat.eqb_spec k (i1 + 1)).
        * intros E; inversion E; subst; auto.
        * intros Hx. destruct (Nat.le_gt_cases k i). { eapply HL; eauto; lia. }
          apply Z.lt_le_incl. eapply HL1; eauto. lia.
      + intros k x Hk. rewrite Hsw.
        destruct (Nat.eqb_spec k (j1 - 1)).
        * intros E; inversion E; subst; auto.
        * destruct (Nat.eqb_spec k (i1 + 1)); [lia|]. intros Hx.
          destruct (Nat.lt_ge_cases k j). { apply Z.lt_le_incl. eapply HR1; eauto. lia. }
          eapply HR; eauto; lia.
      + exists arr', j2. split; auto. split; auto. split; auto.
        eapply swaps_trans; [|exact H3]. unfold arr1. constructor; [constructor|lia|lia].
  Qed.

  Lemma partition_spec : forall arr lo hi, lo < hi -> hi < length arr ->
    exists arr' j v, partition lt arr lo hi = Some (arr', j) /\ lo <= j <= hi /\
      swaps lo hi arr arr' /\ arr' @ j |-> v /\
      (forall k x, lo <= k < j -> arr' @ k |-> x -> (key x <= key v)%Z) /\
      (forall k x, j < k <= hi -> arr' @ k |-> x -> (key v <= key x)%Z).
  Proof.
    intros arr lo hi Hlh Hlen. unfold partition.
    destruct (nth_error arr lo) as [v|] eqn:Ev.
    2:{ apply nth_error_None in Ev. lia. }
    destruct (part_loop_spec (length arr + 1) arr v lo hi lo (hi + 1)) as (arr' & j & -> & Hj & Hs & HL & HR); try lia; auto.
    assert (Hlen' : length arr' = length arr) by (eapply swaps_length; eauto).
    assert (Hlo' : nth_error arr' lo = Some v).
    { erewrite swaps_outside; eauto. lia. }
    destruct (nth_error arr' j) as [w|] eqn:Ew.
    2:{ apply nth_error_None in Ew. lia. }
    assert (Hsw : forall k, nth_error (swap lo j arr') k =
         if k =? j then Some v else if k =? lo then Some w else nth_error arr' k).
    { intros k. rewrite swap_nth_error by lia. rewrite Hlo', Ew. auto. }
    exists (swap lo j arr'), j, v. split; auto. split; auto. split; [|split; [|split]].
    - constructor; try lia. eapply swaps_weaken; eauto; lia.
    - rewrite Hsw, Nat.eqb_refl. auto.
    - intros k x Hk. rewrite Hsw. destruct (Nat.eqb_spec k j); [lia|].
      destruct (Nat.eqb_spec k lo).
      + intros E; inversion E; subst. eapply (HL j); eauto. lia.
      + intros Hx. eapply HL; eauto. lia.
    - intros k x Hk. rewrite Hsw. destruct (Nat.eqb_spec k j); [lia|].
      destruct (Nat.eqb_spec k lo); [lia|]. intros Hx. eapply HR; eauto.
  Qed.

  Lemma qs_loop_spec : forall fuel arr lo hi lo0 hi0 pivot,
    lo0 <= lo -> lo <= pivot <= hi -> hi <= hi0 -> hi0 < length arr -> hi - lo < fuel ->
    (forall a b x y, lo0 <= a < lo -> lo <= b <= hi0 -> arr @ a |-> x -> arr @ b |-> y -> (key x <= key y)%Z) ->
    (forall a b x y, lo0 <= a <= hi -> hi < b <= hi0 -> arr @ a |-> x -> arr @ b |-> y -> (key x <= key y)%Z) ->
    exists arr' v, qs_loop lt fuel arr lo hi pivot = Some (arr', v) /\
      swaps lo0 hi0 arr arr' /\ arr' @ pivot |-> v /\
      (forall k x, lo0 <= k < pivot -> arr' @ k |-> x -> (key x <= key v)%Z) /\
      (forall k x, pivot < k <= hi0 -> arr' @ k |-> x -> (key v <= key x)%Z).
  Proof.
    induction fuel; intros arr lo hi lo0 hi0 pivot Hlo Hp Hhi Hlen Hf HL HR; [lia|]. simpl.
    destruct (Nat.ltb_spec lo hi) as [Hlt|Hge].
    - destruct (partition_spec arr lo hi) as (arr' & j & v & -> & Hj & Hs & Hv & HA & HB); try lia.
      assert (Hlen' : length arr' = length arr) by (eapply swaps_length; eauto).
      assert (Hout : forall k, k < lo \/ hi < k -> nth_error arr' k = nth_error arr k)
        by (intros; eapply swaps_outside; eauto).
      assert (Hin : forall k, lo <= k <= hi -> exists k', lo <= k' <= hi /\ nth_error arr' k = nth_error arr k')
        by (intros; eapply swaps_inside; eauto).
      assert (HL' : forall a b x y, lo0 <= a < lo -> lo <= b <= hi0 -> arr' @ a |-> x -> arr' @ b |-> y -> (key x <= key y)%Z).
      { intros a b x y Ha Hb Hx Hy. rewrite Hout in Hx by lia.
        destruct (Nat.le_gt_cases b hi).
        - destruct (Hin b) as (b' & Hb' & E); [lia|]. rewrite E in Hy. eapply (HL a b'); eauto; lia.
        - rewrite Hout in Hy by lia. eapply (HL a b); eauto. }
      assert (HR' : forall a b x y, lo0 <= a <= hi -> hi < b <= hi0 -> arr' @ a |-> x -> arr' @ b |-> y -> (key x <= key y)%Z).
      { intros a b x y Ha Hb Hx Hy. rewrite (Hout b) in Hy by lia.
        destruct (Nat.lt_ge_cases a lo).
        - rewrite Hout in Hx by lia. eapply (HR a b); eauto.
        - destruct (Hin a) as (a' & Ha' & E); [lia|]. rewrite E in Hx. eapply (HR a' b); eauto; lia. }
      assert (Hs0 : swaps lo0 hi0 arr arr') by (eapply swaps_weaken; eauto).
      destruct (Nat.eqb_spec j pivot) as [->|Hne].
      + rewrite Hv. exists arr', v. split; auto. split; auto. split; auto. split.
        * intros k x Hk Hx. destruct (Nat.lt_ge_cases k lo).
          { eapply (HL' k pivot); eauto; lia. } eapply HA; eauto; lia.
        * intros k x Hk Hx. destruct (Nat.le_gt_cases k hi). { eapply HB; eauto; lia. }
          eapply (HR' pivot k); eauto; lia.
      + destruct (Nat.ltb_spec pivot j).
        * destruct (IHfuel arr' lo (j - 1) lo0 hi0 pivot) as (arr2 & v2 & H1 & H2 & H3); try lia.
          { intros a b x y Ha Hb. apply (HL' a b); lia. }
          { intros a b x y Ha Hb Hx Hy.
            destruct (Nat.lt_ge_cases a lo). { eapply (HL' a b); eauto; lia. }
            destruct (Nat.le_gt_cases b hi).
            2:{ eapply (HR' a b); eauto; lia. }
            transitivity (key v). { eapply HA; eauto; lia. }
            destruct (Nat.eq_dec b j). { subst. rewrite Hv in Hy. inversion Hy; lia. }
            eapply HB; eauto; lia. }
          exists arr2, v2. split; auto. split; auto. eapply swaps_trans; eauto.
        * destruct (IHfuel arr' (j + 1) hi lo0 hi0 pivot) as (arr2 & v2 & H1 & H2 & H3); try lia.
          { intros a b x y Ha Hb Hx Hy.
            destruct (Nat.lt_ge_cases a lo). { eapply (HL' a b); eauto; lia. }
            destruct (Nat.le_gt_cases b hi).
            2:{ eapply (HR' a b); eauto; lia. }
            transitivity (key v). 2:{ eapply HB; eauto; lia. }
            destruct (Nat.eq_dec a j). { subst. rewrite Hv in Hx. inversion Hx; lia. }
            eapply HA; eauto; lia. }
          { intros a b x y Ha Hb. apply (HR' a b); lia. }
          exists arr2, v2. split; auto. split; auto. eapply swaps_trans; eauto.
    - destruct (nth_error arr pivot) as [v|] eqn:E.
      2:{ apply nth_error_None in E. lia. }
      assert (lo = pivot) by lia. subst. assert (hi = pivot) by lia. subst.
      exists arr, v. split; auto. split; [constructor|]. split; auto. split.
      + intros k x Hk Hx. eapply (HL k pivot); eauto; lia.
      + intros k x Hk Hx. eapply (HR pivot k); eauto; lia.
  Qed.

  Theorem quick_select_correct : forall arr lo hi pivot,
    lo <= pivot <= hi -> hi < length arr ->
    exists arr' v, quick_select lt arr lo hi pivot = Some (arr', v) /\
      swaps lo hi arr arr' /\ nth_error arr' pivot = Some v /\
      (forall k x, lo <= k < pivot -> nth_error arr' k = Some x -> (key x <= key v)%Z) /\
      (forall k x, pivot < k <= hi -> nth_error arr' k = Some x -> (key v <= key x)%Z).
  Proof.
    intros. unfold quick_select. apply qs_loop_spec; try lia; intros; lia.
  Qed.
End QSProofs.
