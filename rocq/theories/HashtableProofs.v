From Verif Require Import Base QuickSelectModel QuickSelectProofs ProbeModel ProbeProofs HashtableModel.
Local Open Scope nat_scope.

Lemma pow2_pos lg : 0 < pow2 lg.
Proof. unfold pow2. pose proof (pow2_pos_N lg). lia. Qed.

Lemma pow2_succ lg : pow2 (lg + 1) = 2 * pow2 lg.
Proof. unfold pow2. rewrite N.pow_add_r. change (2 ^ 1)%N with 2%N. lia. Qed.

Lemma pow2_mono a b : (a <= b)%N -> pow2 a <= pow2 b.
Proof. intros. unfold pow2. assert (2 ^ a <= 2 ^ b)%N by (apply N.pow_le_mono_r; lia). lia. Qed.

Lemma stride_is_odd k lg : N.odd (compute_stride k lg) = true.
Proof.
  unfold compute_stride. rewrite N.odd_add. rewrite N.odd_mul. simpl. auto.
Qed.

  Lemma capacity_lt lgCur lgNom : compute_capacity lgCur lgNom < pow2 lgCur.
  Proof. unfold compute_capacity. pose proof (pow2_pos lgCur). destruct (lgCur <=? lgNom)%N; lia. Qed.

  Lemma capacity_ge_nominal lgCur lgNom : (lgNom < lgCur)%N -> pow2 lgNom <= compute_capacity lgCur lgNom.
  Proof.
    intros H. unfold compute_capacity. destruct (N.leb_spec lgCur lgNom); [lia|].
    pose proof (pow2_pos lgNom). assert (2 * pow2 lgNom <= pow2 lgCur).
    { rewrite <- pow2_succ. apply pow2_mono. lia. } lia.
  Qed.

  (** Inserting a new entry at the slot found: the content becomes old + new, cut at the new theta. *)
Section HTP.
  Context {E : Type}.
  Variable hashOf : E -> N.
  Variable zeroE : E.
  Hypothesis zero_hash : hashOf zeroE = 0%N.

  Notation table := (table E).

  Definition kof (e : E) : option N := if (hashOf e =? 0)%N then None else Some (hashOf e).
  Definition live (es : list E) : list E := filter (fun e => negb (hashOf e =? 0)%N) es.
  Definition tok (lg : N) (es : list E) : Prop :=
    table_ok kof lg (fun k => N.land k (2 ^ lg - 1)) (fun k => compute_stride k lg) es.

  Lemma live_contents es : contents kof es = live es.
  Proof.
    unfold contents, live. apply filter_ext. intros e. unfold isocc, isfree, kof.
    destruct (hashOf e =? 0)%N; auto.
  Qed.

  Lemma live_In es e : In e (live es) <-> In e es /\ hashOf e <> 0%N.
  Proof.
    unfold live. rewrite filter_In. destruct (N.eqb_spec (hashOf e) 0); simpl; intuition congruence.
  Qed.

  Lemma hash_test_ktest k : forall e, hash_test hashOf k e = ktest kof k e.
  Proof. intros e. unfold hash_test, ktest, kof. destruct (hashOf e =? 0)%N; auto. Qed.

  Lemma probe_loop_ext {A} fuel (t : list A) f g mask stride idx start :
    (forall a, f a = g a) -> probe_loop fuel t f mask stride idx start = probe_loop fuel t g mask stride idx start.
  Proof.
    intros H. revert idx. induction fuel; simpl; auto. intros idx.
    destruct (nth_error t (N.to_nat idx)); auto. rewrite H. destruct (g a); auto. rewrite IHfuel. auto.
  Qed.

  Lemma tok_length lg es : tok lg es -> length es = pow2 lg.
  Proof. intros [H _]. exact H. Qed.

  Lemma tok_empty lg : tok lg (repeat zeroE (pow2 lg)).
  Proof. apply table_ok_free. unfold kof. rewrite zero_hash. auto. Qed.

  Lemma live_repeat n : live (repeat zeroE n) = [].
  Proof. rewrite <- live_contents. apply contents_free. unfold kof. rewrite zero_hash. auto. Qed.

  Lemma tok_NoDup lg es : tok lg es -> NoDup (map hashOf (live es)).
  Proof.
    intros (_ & _ & Hu). apply uniq_NoDup in Hu. rewrite live_contents in Hu.
    assert (H : map kof (live es) = map Some (map hashOf (live es))).
    { rewrite map_map. apply map_ext_in. intros e He. apply live_In in He. unfold kof.
      destruct (N.eqb_spec (hashOf e) 0); tauto. }
    rewrite H in Hu. eapply NoDup_map_inv; eauto.
  Qed.

  (** What find returns in a table with a free slot. *)
  Lemma find_cases lg es k : tok lg es -> length (live es) < pow2 lg ->
    (exists i e, find hashOf es lg k = PFound i /\ nth_error es i = Some e /\ hashOf e = k /\ k <> 0%N) \/
    (exists i, find hashOf es lg k = PEmpty i /\ i < length es /\
       (forall e, In e (live es) -> hashOf e <> k) /\
       (k <> 0%N -> forall x, hashOf x = k -> tok lg (upd i x es) /\ Permutation (live (upd i x es)) (x :: live es))).
  Proof.
    intros Hok Hfree. unfold find. rewrite (probe_loop_ext _ _ _ (ktest kof k)) by apply hash_test_ktest.
    destruct (probe_loop_spec kof lg (fun k => N.land k (2 ^ lg - 1)) (fun k => compute_stride k lg)
      (fun k => stride_is_odd k lg)) with (t := es) (k := k) (fuel := pow2 lg)
      as [(s & a & Hr & Ha & Hk)|(s & a & j1 & Hr & Ha & Hk & Hj1 & Hs & Hocc & Hnot)]; auto.
    - intros k0. rewrite land_mask_mod. apply N.mod_lt. pose proof (pow2_pos_N lg). lia.
    - apply free_slot; [apply Hok|]. rewrite live_contents. auto.
    - left. exists s, a. split; auto. split; auto. unfold kof in Hk.
      destruct (N.eqb_spec (hashOf a) 0); inversion Hk; subst; auto.
    - right. exists s. split; auto. split; [eapply nth_error_Some_lt; eauto|]. split.
      + intros e He E1. apply live_In in He. destruct He as [He H0]. apply (Hnot e He).
        unfold kof. destruct (N.eqb_spec (hashOf e) 0); [tauto|]. congruence.
      + intros H0 x Hx.
        assert (Hkx : kof x = Some k) by (unfold kof; rewrite Hx; destruct (N.eqb_spec k 0); congruence).
        split.
        * eapply insert_ok with (a := a) (k := k); eauto.
        * rewrite <- !live_contents. eapply contents_insert; eauto. unfold isocc, isfree. rewrite Hkx. auto.
  Qed.

  Lemma reinsert_fold : forall l lg es,
    tok lg es -> (forall e, In e l -> hashOf e <> 0%N) ->
    NoDup (map hashOf (l ++ live es)) -> length (live es) + length l < pow2 lg ->
    exists es', fold_left (reinsert hashOf lg) l (Some es) = Some es' /\ tok lg es' /\
      Permutation (live es') (l ++ live es).
  Proof.
    induction l as [|e l IH]; intros lg es Hok Hnz Hnd Hlen; simpl in *.
    - exists es. auto.
    - inversion Hnd as [|? ? Hnin Hnd']; subst. unfold find_index.
      destruct (find_cases lg es (hashOf e) Hok) as [(i & a & Hf & Ha & Hh & _)|(i & Hf & Hi & Hnot & Hins)]; [lia| |].
      + exfalso. apply Hnin. rewrite map_app, in_app_iff. right. rewrite <- Hh. apply in_map. apply live_In.
        split; [eapply nth_error_In; eauto|]. rewrite Hh. apply Hnz; auto.
      + rewrite Hf. destruct (Nat.ltb_spec i (length es)); [|lia].
        destruct (Hins (Hnz e (or_introl eq_refl)) e eq_refl) as [Hok' Hp].
        destruct (IH lg (upd i e es)) as (es' & H1 & H2 & H3); auto.
        * eapply Permutation_NoDup; [|exact Hnd]. apply (Permutation_map hashOf (l:=e :: l ++ live es)).
          symmetry. rewrite Hp. symmetry. apply Permutation_middle.
        * apply Permutation_length in Hp. simpl in Hp. lia.
        * exists es'. split; auto. split; auto. rewrite H3, Hp. symmetry. apply Permutation_middle.
  Qed.

  (** consolidateNonEmpty moves the live entries, in order, to the front. *)
  Lemma firstn_upd_S : forall (l : list E) i x, i < length l -> firstn (i + 1) (upd i x l) = firstn i l ++ [x].
  Proof. induction l; destruct i; simpl; intros; auto; try lia. f_equal. apply IHl. lia. Qed.
  Lemma skipn_upd_lt : forall (l : list E) i j x, i < j -> skipn j (upd i x l) = skipn j l.
  Proof. induction l; destruct i, j; simpl; intros; auto; try lia. apply IHl. lia. Qed.
  Lemma firstn_upd_le : forall (l : list E) i j x, j <= i -> firstn j (upd i x l) = firstn j l.
  Proof. induction l; destruct i, j; simpl; intros; auto; try lia. f_equal. apply IHl. lia. Qed.
  Lemma skipn_nth : forall (l : list E) j e, nth_error l j = Some e -> skipn j l = e :: skipn (j + 1) l.
  Proof. induction l; destruct j; simpl; intros; try congruence. apply IHl; auto. Qed.

  Lemma consolidate_loop_spec : forall n j i cur size L,
    n = size - j -> i < j -> j <= size -> length cur = size ->
    firstn i cur ++ live (skipn j cur) = L ->
    exists cur', consolidate_loop hashOf zeroE (seq j n) cur i (length L) = Some cur' /\
      length cur' = size /\ firstn (length L) cur' = L.
  Proof.
    induction n; intros j i cur size L Hn Hij Hj Hlen HL; simpl.
    - exists cur. split; auto. split; auto. assert (j = size) by lia. subst j.
      rewrite skipn_all2 in HL by lia. simpl in HL. rewrite app_nil_r in HL. subst L.
      rewrite firstn_length_le by lia. auto.
    - destruct (nth_error cur j) as [e|] eqn:Ee.
      2:{ apply nth_error_None in Ee. lia. }
      rewrite (skipn_nth _ _ _ Ee) in HL. unfold live in HL. cbn [filter] in HL. fold (live (skipn (j + 1) cur)) in HL.
      destruct (N.eqb_spec (hashOf e) 0) as [E0|E0]; cbn [negb] in HL.
      + destruct (IHn (S j) i cur size L) as (cur' & H1 & H2); try lia; auto.
        { replace (S j) with (j + 1) by lia. auto. }
        exists cur'. auto.
      + destruct (Nat.ltb_spec i (length cur)); [|lia].
        set (cur1 := upd j zeroE (upd i e cur)).
        assert (Hf : firstn (i + 1) cur1 = firstn i cur ++ [e]).
        { unfold cur1. rewrite firstn_upd_le by lia. apply firstn_upd_S. lia. }
        assert (Hs : skipn (j + 1) cur1 = skipn (j + 1) cur).
        { unfold cur1. rewrite skipn_upd_lt by lia. rewrite skipn_upd_lt by lia. auto. }
        assert (Hl1 : length cur1 = size) by (unfold cur1; rewrite !upd_length; auto).
        assert (HL1 : firstn (i + 1) cur1 ++ live (skipn (j + 1) cur1) = L).
        { rewrite Hf, Hs, <- app_assoc. simpl. exact HL. }
        destruct (Nat.eqb_spec (i + 1) (length L)) as [Ei|Ei].
        * exists cur1. split; auto. split; auto. rewrite <- Ei.
          rewrite <- HL1 in Ei. rewrite app_length, firstn_length_le in Ei by lia.
          destruct (live (skipn (j + 1) cur1)); simpl in Ei; [|lia]. rewrite app_nil_r in HL1. auto.
        * destruct (IHn (S j) (i + 1) cur1 size L) as (cur' & H1 & H2); try lia; auto.
          { replace (S j) with (j + 1) by lia. auto. }
          exists cur'. auto.
  Qed.

  Lemma first_free_spec : forall l i0, let i := first_free hashOf l i0 in
    i0 <= i <= i0 + length l /\ live (firstn (i - i0) l) = firstn (i - i0) l /\
    (i < i0 + length l -> exists e, nth_error l (i - i0) = Some e /\ hashOf e = 0%N).
  Proof.
    induction l as [|e l IH]; intros i0; simpl.
    - replace (i0 - i0) with 0 by lia. simpl. split; [lia|]. split; auto. lia.
    - destruct (N.eqb_spec (hashOf e) 0) as [E0|E0].
      + replace (i0 - i0) with 0 by lia. simpl. split; [lia|]. split; auto. intros _. eauto.
      + specialize (IH (S i0)). cbv zeta in IH. destruct IH as (H1 & H2 & H3).
        set (i := first_free hashOf l (S i0)) in *.
        replace (i - i0) with (S (i - S i0)) by lia. simpl. split; [lia|]. split.
        * destruct (N.eqb_spec (hashOf e) 0); [tauto|]. simpl. f_equal. auto.
        * intros Hi. apply H3. lia.
  Qed.

  Lemma live_app a b : live (a ++ b) = live a ++ live b.
  Proof. unfold live. apply filter_app. Qed.

  Lemma consolidate_spec : forall es, 
    exists es', consolidate hashOf zeroE es (length es) (length (live es)) = Some es' /\
      length es' = length es /\ firstn (length (live es)) es' = live es.
  Proof.
    intros es. unfold consolidate. rewrite firstn_all.
    destruct (first_free_spec es 0) as (H1 & H2 & H3).
    set (i := first_free hashOf es 0) in *. rewrite Nat.sub_0_r in *. simpl in H1, H3.
    destruct (Nat.eq_dec i (length es)) as [Ei|Ei].
    - rewrite Ei. replace (length es - (length es + 1)) with 0 by lia. simpl.
      exists es. split; auto. split; auto.
      rewrite Ei, firstn_all in H2. rewrite H2. apply firstn_all.
    - destruct H3 as (e & He & He0); [lia|].
      apply consolidate_loop_spec; try lia.
      rewrite <- (firstn_skipn i es) at 3. rewrite live_app, H2. f_equal.
      rewrite (skipn_nth _ _ _ He). unfold live at 2. simpl.
      destruct (N.eqb_spec (hashOf e) 0); [|tauto]. simpl. auto.
  Qed.

  Lemma hash_lt_key : forall a b, hash_lt hashOf a b = (Z.of_N (hashOf a) <? Z.of_N (hashOf b))%Z.
  Proof. intros. unfold hash_lt. lia. Qed.

  Lemma NoDup_map_inj {A B} (f : A -> B) (l : list A) i j x y :
    NoDup (map f l) -> nth_error l i = Some x -> nth_error l j = Some y -> f x = f y -> i = j.
  Proof.
    intros Hnd Hi Hj E1. rewrite NoDup_nth_error in Hnd. apply Hnd.
    - rewrite map_length. eapply nth_error_Some_lt; eauto.
    - rewrite !nth_error_map, Hi, Hj. simpl. congruence.
  Qed.

  (** Selecting the [m] smallest of a duplicate-free list. *)
  Lemma select_smallest : forall (l : list E) m, NoDup (map hashOf l) -> m < length l ->
    exists pre v, quick_select (hash_lt hashOf) l 0 (length l - 1) m = Some (pre, v) /\
      Permutation l pre /\ nth_error pre m = Some v /\
      (forall e, In e l -> (In e (firstn m pre) <-> (hashOf e < hashOf v)%N)).
  Proof.
    intros l m Hnd Hm.
    destruct (quick_select_correct (hash_lt hashOf) (fun e => Z.of_N (hashOf e)) hash_lt_key l 0 (length l - 1) m)
      as (pre & v & Hq & Hs & Hv & HL & HR); try lia.
    exists pre, v. split; auto. assert (Hp : Permutation l pre) by (eapply swaps_perm; eauto).
    split; auto. split; auto.
    assert (Hnd' : NoDup (map hashOf pre)).
    { eapply Permutation_NoDup; [|exact Hnd]. apply Permutation_map. auto. }
    assert (Hlen : length pre = length l) by (symmetry; apply Permutation_length; auto).
    intros e He. split.
    - intros Hin. apply In_nth_error in Hin. destruct Hin as [p Hpe].
      assert (Hpm : p < m). { apply nth_error_Some_lt in Hpe. rewrite firstn_length in Hpe. lia. }
      assert (Hpe' : nth_error pre p = Some e).
      { rewrite <- (firstn_skipn m pre). rewrite nth_error_app1; auto. rewrite firstn_length. lia. }
      assert (Z.of_N (hashOf e) <= Z.of_N (hashOf v))%Z by (eapply HL; eauto; lia).
      assert (hashOf e <> hashOf v). { intros C. assert (p = m) by (eapply NoDup_map_inj; eauto). lia. }
      lia.
    - intros Hlt. assert (Hin : In e pre) by (eapply Permutation_in; eauto).
      apply In_nth_error in Hin. destruct Hin as [p Hpe].
      assert (Hpl : p < length pre) by (eapply nth_error_Some_lt; eauto).
      destruct (lt_eq_lt_dec p m) as [[Hl|He']|Hg].
      + apply In_nth_error_iff. exists p. rewrite <- (firstn_skipn m pre) in Hpe.
        rewrite nth_error_app1 in Hpe; auto. rewrite firstn_length. lia.
      + subst p. rewrite Hpe in Hv. inversion Hv; subst. lia.
      + assert (Z.of_N (hashOf v) <= Z.of_N (hashOf e))%Z by (eapply (HR p); eauto; lia). lia.
  Qed.

  Lemma NoDup_app_l {A} (a b : list A) : NoDup (a ++ b) -> NoDup a.
  Proof. induction a; simpl; intros H; constructor; inversion H; subst; auto. intros C. apply H2. apply in_app_iff. auto. Qed.

  Lemma rebuild_spec : forall t, tok (t_lgCur t) (t_entries t) -> t_num t = length (live (t_entries t)) ->
    pow2 (t_lgNom t) < t_num t -> pow2 (t_lgNom t) < pow2 (t_lgCur t) ->
    exists t', rebuild hashOf zeroE t = Some t' /\ tok (t_lgCur t') (t_entries t') /\
      t_num t' = length (live (t_entries t')) /\ t_num t' = pow2 (t_lgNom t) /\
      t_lgCur t' = t_lgCur t /\ t_lgNom t' = t_lgNom t /\ t_rf t' = t_rf t /\ t_empty t' = t_empty t /\
      t_theta0 t' = t_theta0 t /\
      (exists e, In e (live (t_entries t)) /\ hashOf e = t_theta t') /\
      (forall e, In e (live (t_entries t')) <-> In e (live (t_entries t)) /\ (hashOf e < t_theta t')%N).
  Proof.
    intros t Hok Hnum Hnom Hsz. unfold rebuild.
    pose proof (tok_NoDup _ _ Hok) as Hnd.
    cbv zeta.
    replace (consolidate hashOf zeroE (t_entries t) (pow2 (t_lgCur t)) (t_num t))
      with (consolidate hashOf zeroE (t_entries t) (length (t_entries t)) (length (live (t_entries t))))
      by (rewrite (tok_length _ _ Hok), Hnum; auto).
    rewrite Hnum in *.
    destruct (consolidate_spec (t_entries t)) as (es & -> & Hlen & Hfst).
    assert (Hle : length (live (t_entries t)) <= length es).
    { rewrite <- Hfst. rewrite firstn_length. lia. }
    destruct (Nat.ltb_spec (length es) (length (live (t_entries t)))); [lia|].
    rewrite Hfst. set (L := live (t_entries t)) in *. set (m := pow2 (t_lgNom t)) in *.
    destruct (select_smallest L m Hnd Hnom) as (pre & v & -> & Hperm & Hv & Hsel).
    assert (Hplen : length pre = length L) by (symmetry; apply Permutation_length; auto).
    rewrite nth_error_app1 by lia. rewrite Hv.
    rewrite firstn_app. replace (m - length pre) with 0 by lia. simpl (firstn 0 _). rewrite app_nil_r.
    assert (HinL : forall e, In e (firstn m pre) -> In e L).
    { intros e He. eapply Permutation_in; [symmetry; eauto|].
      rewrite <- (firstn_skipn m pre). apply in_app_iff. auto. }
    destruct (reinsert_fold (firstn m pre) (t_lgCur t) (repeat zeroE (pow2 (t_lgCur t)))) as (es' & -> & Hok' & Hp').
    - apply tok_empty.
    - intros e He. apply HinL in He. apply live_In in He. tauto.
    - rewrite live_repeat, app_nil_r.
      assert (Hnd' : NoDup (map hashOf pre)).
      { eapply Permutation_NoDup; [|exact Hnd]. apply Permutation_map. auto. }
      rewrite <- (firstn_skipn m pre), map_app in Hnd'. eapply NoDup_app_l; eauto.
    - rewrite live_repeat. simpl. rewrite firstn_length. lia.
    - rewrite live_repeat, app_nil_r in Hp'.
      assert (length (live es') = m).
      { rewrite (Permutation_length Hp'), firstn_length. lia. }
      eexists. split; [reflexivity|]. simpl. do 8 (split; [solve [auto]|]). split; [|intros e; split].
      + exists v. split; auto. eapply Permutation_in; [symmetry; eauto|]. eapply nth_error_In; eauto.
      + intros He. assert (In e (firstn m pre)) by (eapply Permutation_in; eauto). split; auto. apply Hsel; auto.
      + intros [H1 H2]. eapply Permutation_in; [symmetry; eauto|]. apply Hsel; auto.
  Qed.

  Lemma resize_spec : forall t, tok (t_lgCur t) (t_entries t) -> t_num t = length (live (t_entries t)) ->
    let lgNew := N.min (t_lgCur t + t_rf t) (t_lgNom t + 1) in
    t_num t < pow2 lgNew ->
    exists t', resize hashOf zeroE t = Some t' /\ tok (t_lgCur t') (t_entries t') /\
      t_num t' = length (live (t_entries t')) /\ t_num t' = t_num t /\ t_theta t' = t_theta t /\
      t_lgCur t' = lgNew /\ t_lgNom t' = t_lgNom t /\ t_rf t' = t_rf t /\ t_empty t' = t_empty t /\
      t_theta0 t' = t_theta0 t /\
      Permutation (live (t_entries t')) (live (t_entries t)).
  Proof.
    intros t Hok Hnum lgNew Hn. unfold resize. fold lgNew.
    rewrite (tok_length _ _ Hok), Nat.eqb_refl. fold (live (t_entries t)).
    destruct (reinsert_fold (live (t_entries t)) lgNew (repeat zeroE (pow2 lgNew))) as (es' & -> & Hok' & Hp').
    - apply tok_empty.
    - intros e He. apply live_In in He. tauto.
    - rewrite live_repeat, app_nil_r. eapply tok_NoDup; eauto.
    - rewrite live_repeat. simpl. lia.
    - rewrite live_repeat, app_nil_r in Hp'.
      eexists. split; [reflexivity|]. simpl. split; auto. split; [|repeat (split; auto)].
      rewrite (Permutation_length Hp'). auto.
  Qed.

  (** The capacity arithmetic. *)
  Lemma insert_spec : forall t e i,
    tok (t_lgCur t) (t_entries t) -> t_num t = length (live (t_entries t)) ->
    t_num t < pow2 (t_lgCur t) ->
    find hashOf (t_entries t) (t_lgCur t) (hashOf e) = PEmpty i -> hashOf e <> 0%N ->
    ((t_lgCur t <= t_lgNom t)%N -> compute_capacity (t_lgCur t) (t_lgNom t) < t_num t + 1 ->
       t_num t + 1 < pow2 (N.min (t_lgCur t + t_rf t) (t_lgNom t + 1))) ->
    (forall x, In x (live (t_entries t)) -> (hashOf x < t_theta t)%N) -> (hashOf e < t_theta t)%N ->
    exists t', insert hashOf zeroE t i e = Some t' /\ tok (t_lgCur t') (t_entries t') /\
      t_num t' = length (live (t_entries t')) /\
      t_lgNom t' = t_lgNom t /\ t_rf t' = t_rf t /\ t_empty t' = t_empty t /\ t_theta0 t' = t_theta0 t /\
      (forall x, In x (live (t_entries t')) <-> (In x (live (t_entries t)) \/ x = e) /\ (hashOf x < t_theta t')%N) /\
      ((t_theta t' = t_theta t /\ t_num t' = t_num t + 1 /\
         ((t_num t + 1 <= compute_capacity (t_lgCur t) (t_lgNom t) /\ t_lgCur t' = t_lgCur t) \/
          (compute_capacity (t_lgCur t) (t_lgNom t) < t_num t + 1 /\ (t_lgCur t <= t_lgNom t)%N /\
           t_lgCur t' = N.min (t_lgCur t + t_rf t) (t_lgNom t + 1)))) \/
       ((t_theta t' < t_theta t)%N /\ t_num t' = pow2 (t_lgNom t) /\ (t_lgNom t < t_lgCur t)%N /\
         compute_capacity (t_lgCur t) (t_lgNom t) < t_num t + 1 /\ t_lgCur t' = t_lgCur t /\
         exists x, (In x (live (t_entries t)) \/ x = e) /\ hashOf x = t_theta t')).
  Proof.
    intros t e i Hok Hnum Hfree Hfind Hnz Hroom Hth He.
    assert (Hnum1 : length (live (t_entries t)) < pow2 (t_lgCur t)) by lia.
    destruct (find_cases (t_lgCur t) (t_entries t) (hashOf e) Hok Hnum1)
      as [(i' & a & Hf & _)|(i' & Hf & Hi & Hnot & Hins)]; [congruence|].
    rewrite Hfind in Hf. inversion Hf; subst i'. clear Hf.
    destruct (Hins Hnz e eq_refl) as [Hok1 Hp1]. clear Hins.
    unfold insert. destruct (Nat.ltb_spec i (length (t_entries t))); [|lia].
    set (t1 := mkTable _ _ _ _ _ _ _ _).
    assert (Hn1 : t_num t1 = length (live (t_entries t1))).
    { simpl. rewrite (Permutation_length Hp1). simpl. lia. }
    assert (Hmem : forall x, In x (live (t_entries t1)) <-> In x (live (t_entries t)) \/ x = e).
    { intros x. simpl. split; intros Hx.
      - eapply Permutation_in in Hx; [|exact Hp1]. destruct Hx; auto.
      - eapply Permutation_in; [symmetry; exact Hp1|]. destruct Hx; simpl; auto. }
    cbn [t_lgCur t_lgNom t_num t1].
    destruct (Nat.ltb_spec (compute_capacity (t_lgCur t) (t_lgNom t)) (t_num t + 1)) as [Hc|Hc].
    - destruct (N.leb_spec (t_lgCur t) (t_lgNom t)) as [Hl|Hl].
      + destruct (resize_spec t1 Hok1 Hn1) as (t' & H1 & H2 & H3 & H4 & H5 & H6 & H7 & H8 & H9 & H10 & H11).
        { simpl. auto. }
        exists t'. simpl in *. do 7 (split; [solve [auto]|]). split; [intros x; split|].
        * intros Hx. rewrite H5. apply (Permutation_in _ H11) in Hx.
          apply Hmem in Hx. split; auto. destruct Hx as [Hx| ->]; auto.
        * intros [Hx _]. eapply Permutation_in; [symmetry; eauto|]. apply Hmem; auto.
        * left. split; auto.
      + pose proof (capacity_ge_nominal _ _ Hl).
        destruct (rebuild_spec t1 Hok1 Hn1) as (t' & H1 & H2 & H3 & H4 & H5 & H6 & H7 & H8 & H9 & (p & H10 & H11) & H12).
        { simpl. lia. }
        { simpl. pose proof (pow2_mono (t_lgNom t + 1) (t_lgCur t)). rewrite pow2_succ in *. pose proof (pow2_pos (t_lgNom t)). lia. }
        apply Hmem in H10.
        exists t'. simpl in *. do 7 (split; [solve [congruence | auto]|]). split.
        * intros x. rewrite H12. rewrite Hmem. tauto.
        * right. split.
          { rewrite <- H11. destruct H10 as [Hp|Hp]; [auto|subst; auto]. }
          split; [lia|]. split; auto. split; auto. split; auto. eauto.
    - exists t1. simpl. do 7 (split; [solve [auto]|]). split; [intros x; split|].
      + intros Hx. apply Hmem in Hx. split; auto. destruct Hx as [Hx| ->]; auto.
      + intros [Hx _]. apply Hmem. auto.
      + left. split; auto.
  Qed.

  (** Insertion into a table that never rebuilds (lgCur <= lgNom): only resize, theta irrelevant. *)
  Lemma insert_small : forall t e i,
    tok (t_lgCur t) (t_entries t) -> t_num t = length (live (t_entries t)) ->
    t_num t < pow2 (t_lgCur t) ->
    find hashOf (t_entries t) (t_lgCur t) (hashOf e) = PEmpty i -> hashOf e <> 0%N ->
    (t_lgCur t <= t_lgNom t)%N -> t_rf t = 0%N -> t_num t + 1 < pow2 (t_lgCur t) ->
    exists t', insert hashOf zeroE t i e = Some t' /\ tok (t_lgCur t') (t_entries t') /\
      t_num t' = length (live (t_entries t')) /\ t_num t' = t_num t + 1 /\
      t_lgNom t' = t_lgNom t /\ t_rf t' = t_rf t /\ t_lgCur t' = t_lgCur t /\
      Permutation (live (t_entries t')) (e :: live (t_entries t)).
  Proof.
    intros t e i Hok Hnum Hfree Hfind Hnz Hle Hrf Hroom.
    assert (Hnum1 : length (live (t_entries t)) < pow2 (t_lgCur t)) by lia.
    destruct (find_cases (t_lgCur t) (t_entries t) (hashOf e) Hok Hnum1)
      as [(i' & a & Hf & _)|(i' & Hf & Hi & Hnot & Hins)]; [congruence|].
    rewrite Hfind in Hf. inversion Hf; subst i'. clear Hf.
    destruct (Hins Hnz e eq_refl) as [Hok1 Hp1]. clear Hins.
    unfold insert. destruct (Nat.ltb_spec i (length (t_entries t))); [|lia].
    set (t1 := mkTable _ _ _ _ _ _ _ _).
    assert (Hn1 : t_num t1 = length (live (t_entries t1))).
    { simpl. rewrite (Permutation_length Hp1). simpl. lia. }
    cbn [t_lgCur t_lgNom t_num t1].
    destruct (Nat.ltb_spec (compute_capacity (t_lgCur t) (t_lgNom t)) (t_num t + 1)) as [Hc|Hc].
    - destruct (N.leb_spec (t_lgCur t) (t_lgNom t)) as [Hl|Hl]; [|lia].
      assert (Hmin : N.min (t_lgCur t + t_rf t) (t_lgNom t + 1) = t_lgCur t) by lia.
      destruct (resize_spec t1 Hok1 Hn1) as (t' & H1 & H2 & H3 & H4 & H5 & H6 & H7 & H8 & H9 & H10 & H11).
      { simpl. rewrite Hmin. auto. }
      simpl in *. exists t'. do 5 (split; [solve [auto]|]). split; auto. split; [congruence|].
      rewrite H11. auto.
    - exists t1. simpl. do 7 (split; [solve [auto]|]). auto.
  Qed.
End HTP.
