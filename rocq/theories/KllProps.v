(** * The properties C28 - C33: KLL quantile sketches, for every history of updates, merges and resets and every coin outcome. *)
From Coq Require Import Sorting.Sorted.
From Verif Require Import Base Bytes Arr SearchModel SearchProps KllModel KllProofs KllSem.
Local Open Scope nat_scope.

Section Props.
Context {C : Type}.
Variables less ceq : C -> C -> bool.
Variable zero : C.
Variable sort : list C -> list C.
(** The comparison is a strict total order, and the library's sort sorts. *)
Hypothesis order : strict_total less ceq.
Hypothesis sort_perm : forall l, Permutation l (sort l).
Hypothesis sort_sorted : forall l, StronglySorted (fun a b => less b a = false) (sort l).

(** ** Specification: histories.

    [made K s xs cs]: [s] can be reached by creating, updating, merging and resetting sketches, all created with k >= K and
    2 <= m <= k; [xs] lists the items that went into it, and [cs] the levels of the compactions its content went through.
    Every operation may meet any outcome of its coin flips. *)
Inductive made (K : N) : kll (C := C) -> list C -> list nat -> Prop :=
| made_new k0 m0 s : kll_new zero k0 m0 = Some s -> (K <= k0)%N -> 2 <= m0 -> (N.of_nat m0 <= k0)%N -> made K s [] []
| made_update s xs cs coin x s' new : made K s xs cs -> (n s + 1 < 2 ^ 60)%N ->
    kll_update less zero sort coin s [] x = Some (s', new) -> made K s' (x :: xs) (new ++ cs)
| made_merge s xs cs o ys ds coin s' new : made K s xs cs -> made K o ys ds -> (n s + n o < 2 ^ 60)%N ->
    kll_merge less zero sort coin s o [] = Some (s', new) -> made K s' (xs ++ ys) (new ++ cs ++ ds)
| made_reset s xs cs : made K s xs cs -> made K (kll_reset zero s) [] [].

(** The number of stream items that satisfy [p]. *)
Definition count (p : C -> bool) (xs : list C) : Z := Z.of_nat (length (filter p xs)).
(** The total weight of the retained items that satisfy [p]. *)
Definition weight (p : C -> bool) (l : list (C * N)) : N := fold_right (fun a t => (if p (fst a) then snd a else 0) + t)%N 0%N l.
(** The items a rank query counts: those at most [x], or those below [x]. *)
Definition below (x : C) (inclusive : bool) (y : C) : bool := if inclusive then negb (less x y) else less y x.
Definition is_min (v : C) (xs : list C) : Prop := In v xs /\ forall y, In y xs -> less y v = false.
Definition is_max (v : C) (xs : list C) : Prop := In v xs /\ forall y, In y xs -> less v y = false.
(** The sum of the weights 2^level of the compacted levels. *)
Definition compaction_weight (cs : list nat) : Z := fold_right (fun c a => 2 ^ Z.of_nat c + a)%Z 0%Z cs.

(** ** The invariant *)
Let grows_wt' := grows_wt less ceq zero sort (fun _ => false) sort_perm.
Let grows_sorted' := grows_sorted less ceq sort order sort_sorted.
Let grows_sub' := grows_sub less ceq zero sort sort_perm.
Let grows_rank' := grows_rank less ceq sort order sort_perm sort_sorted.
Let zipm_sorted' := zipm_sorted less ceq order.
Let inv_empty' := inv_empty less ceq zero sort (fun _ => false) sort_perm.
Let R_zipm' := R_zipm less zero sort sort_perm sort_sorted.
Let cnt_cons' := cnt_cons less sort sort_perm sort_sorted.
Let cnt_app' := cnt_app less sort sort_perm sort_sorted.
Let cnt_perm' := cnt_perm less sort sort_perm sort_sorted.

Record Good (s : kll) (xs : list C) (cs : list nat) (U : nat) (Ls : list (list C)) : Prop := mkGood {
  g_inv : Inv s U Ls; g_sorted : LvS less Ls; g_sub : sub_multiset (concat Ls) xs; g_n : n s = N.of_nat (length xs);
  g_rank : forall p, down less p -> (Z.abs (R p Ls - cnt p xs) <= pow_sum cs)%Z;
  g_mm : has_min_max s = negb (length xs =? 0)%nat;
  g_min : xs <> [] -> is_min (min_item s) xs; g_max : xs <> [] -> is_max (max_item s) xs;
  g_log : Forall (fun c => c + 1 < length Ls) cs;
  g_k : (8 <= k s <= 65535)%N; g_m : 2 <= m s /\ (N.of_nat (m s) <= k s)%N }.

Lemma cap_one k0 m0 : (N.of_nat m0 <= k0)%N -> (8 <= k0 <= 65535)%N -> tot k0 m0 1 <= N.to_nat k0 /\ ((k0 < 32768)%N -> tot k0 m0 1 = N.to_nat k0).
Proof.
  intros Hm Hk. cbn [tot]. unfold dcap.
  assert (E : int_cap_aux k0 0 = Some (let r := ((((2 * k0) mod 65536) * 2 ^ 0 / 3 ^ 0 + 1) / 2)%N in if (r <=? k0)%N then r else k0)) by reflexivity.
  rewrite E. clear E. cbn zeta. rewrite !N.pow_0_r, N.mul_1_r, N.div_1_r.
  assert (HM : ((2 * k0) mod 65536 <= 2 * k0)%N) by (apply N.mod_le; lia).
  split.
  - destruct (N.leb_spec (((2 * k0) mod 65536 + 1) / 2) k0); lia.
  - intros H. rewrite (N.mod_small (2 * k0)) by lia. replace ((2 * k0 + 1) / 2)%N with k0 by (rewrite N.add_comm, N.mul_comm, N.div_add by lia; reflexivity).
    rewrite N.leb_refl. lia.
Qed.
Lemma good_fresh k0 m0 mk : (8 <= k0 <= 65535)%N -> 2 <= m0 -> (N.of_nat m0 <= k0)%N ->
  Good (mkKll k0 m0 mk 1 false 0 [N.to_nat k0; N.to_nat k0] (repeat zero (N.to_nat k0)) zero zero false) [] [] (N.to_nat k0) [[]].
Proof.
  intros Hk Hm Hmk. constructor; try (cbn [n k m has_min_max length]; auto; fail).
  - constructor; try (cbn [n k m l0_sorted]; auto; fail).
    + exists (repeat zero (N.to_nat k0)). cbn [items levels num_levels concat pb length app]. rewrite app_nil_r, repeat_length, csum_cons, csum_nil. cbn [length]. rewrite !Nat.add_0_r. auto.
    + cbn [k m]. split; [discriminate|]. split; auto. cbn [length]. apply cap_one; auto.
    + left. auto.
  - constructor.
  - exists []. auto.
  - intros p Hp. simpl. lia.
  - congruence.
  - congruence.
Qed.

Lemma is_min_cons v x xs : is_min v xs -> is_min (if less x v then x else v) (x :: xs).
Proof.
  intros [H1 H2]. destruct (less x v) eqn:E; split; cbn [In]; auto; intros y [<-|Hy]; auto.
  - apply (st_irrefl _ _ order).
  - destruct (less y x) eqn:E2; auto. rewrite <- (H2 y Hy). symmetry. apply (st_trans _ _ order) with x; auto.
Qed.
Lemma is_max_cons v x xs : is_max v xs -> is_max (if less v x then x else v) (x :: xs).
Proof.
  intros [H1 H2]. destruct (less v x) eqn:E; split; cbn [In]; auto; intros y [<-|Hy]; auto.
  - apply (st_irrefl _ _ order).
  - destruct (less x y) eqn:E2; auto. rewrite <- (H2 y Hy). symmetry. apply (st_trans _ _ order) with x; auto.
Qed.
Lemma is_min_app v w xs ys : is_min v xs -> is_min w ys -> is_min (if less v w then v else w) (xs ++ ys).
Proof.
  intros [H1 H2] [H3 H4]. split; [apply in_or_app; destruct (less v w); auto|]. intros y Hy. apply in_app_or in Hy. destruct (less v w) eqn:E, Hy as [Hy|Hy]; auto.
  - destruct (less y v) eqn:E2; auto. rewrite <- (H4 y Hy). symmetry. apply (st_trans _ _ order) with v; auto.
  - destruct (less y w) eqn:E2; auto. rewrite <- (H2 y Hy). symmetry. eapply lt_le; eauto.
Qed.
Lemma is_max_app v w xs ys : is_max v xs -> is_max w ys -> is_max (if less w v then v else w) (xs ++ ys).
Proof.
  intros [H1 H2] [H3 H4]. split; [apply in_or_app; destruct (less w v); auto|]. intros y Hy. apply in_app_or in Hy. destruct (less w v) eqn:E, Hy as [Hy|Hy]; auto.
  - destruct (less v y) eqn:E2; auto. rewrite <- (H4 y Hy). symmetry. apply (st_trans _ _ order) with v; auto.
  - destruct (less w y) eqn:E2; auto. rewrite <- (H2 y Hy). symmetry. eapply le_lt; eauto.
Qed.

Lemma pow_sum_app A B : pow_sum (A ++ B) = (pow_sum A + pow_sum B)%Z.
Proof. unfold pow_sum. induction A; cbn [app fold_right]; lia. Qed.

Lemma good_update s xs cs U Ls coin x : Good s xs cs U Ls -> (n s + 1 < 2 ^ 60)%N ->
  exists s' new U' Ls', kll_update less zero sort coin s [] x = Some (s', new) /\ Good s' (x :: xs) (new ++ cs) U' Ls'.
Proof.
  intros G Hn. destruct (update_inv less ceq zero sort coin sort_perm s U Ls [] x (g_inv _ _ _ _ _ G) Hn) as (U' & Ls' & new & lv & it & HU & HI & HG).
  cbn zeta in *. rewrite app_nil_r in HU. eexists _, new, U', Ls'. split; [exact HU|].
  destruct (grows_wt' _ _ _ _ HG) as (_ & _ & HL & HF).
  constructor; cbn [k m n has_min_max min_item max_item]; try apply G; auto.
  - eapply grows_sorted'; eauto. apply G.
  - change (x :: xs) with ([x] ++ xs). eapply sub_trans; [eapply grows_sub'; eauto|]. apply sub_app; [apply sub_refl; auto|apply G].
  - rewrite (g_n _ _ _ _ _ G). cbn [length]. lia.
  - intros p Hp. pose proof (g_rank _ _ _ _ _ G p Hp) as H1. pose proof (grows_rank' p _ _ _ _ Hp (g_sorted _ _ _ _ _ G) HG) as H2.
    rewrite cnt_cons' in H2. rewrite cnt_nil in H2. rewrite cnt_cons'. rewrite pow_sum_app. lia.
  - intros _. unfold upd_min. rewrite (g_mm _ _ _ _ _ G). destruct xs; cbn [length Nat.eqb negb]; [|apply is_min_cons; apply G; discriminate].
    split; cbn [In]; auto. intros y [<-|[]]. apply (st_irrefl _ _ order).
  - intros _. unfold upd_max. rewrite (g_mm _ _ _ _ _ G). destruct xs; cbn [length Nat.eqb negb]; [|apply is_max_cons; apply G; discriminate].
    split; cbn [In]; auto. intros y [<-|[]]. apply (st_irrefl _ _ order).
  - apply Forall_app. split; auto. eapply Forall_impl; [|apply G]. simpl. intros. lia.
Qed.

Lemma zipm_length (A : list (list C)) : forall B : list (list C), length (zipm less A B) = Nat.max (length A) (length B).
Proof. induction A as [|a A IH]; intros [|b B]; cbn [zipm length]; auto. rewrite IH. auto. Qed.

Lemma good_merge s xs cs U Ls o ys ds V Os coin : Good s xs cs U Ls -> Good o ys ds V Os -> (n s + n o < 2 ^ 60)%N ->
  exists s' new U' Ls', kll_merge less zero sort coin s o [] = Some (s', new) /\ Good s' (xs ++ ys) (new ++ cs ++ ds) U' Ls'.
Proof.
  intros G Go Hn. destruct (N.eq_dec (n o) 0) as [E|E].
  - exists s, [], U, Ls. split; [unfold kll_merge, is_empty; rewrite E; reflexivity|].
    assert (ys = []) as -> by (rewrite (g_n _ _ _ _ _ Go) in E; destruct ys; [auto|cbn [length] in E; lia]).
    pose proof (inv_empty' _ _ _ (g_inv _ _ _ _ _ Go) E). subst Os. rewrite app_nil_r. cbn [app].
    assert (ds = []) as ->. { pose proof (g_log _ _ _ _ _ Go) as HL. destruct ds; auto. inversion HL; subst. cbn [length] in *. lia. }
    rewrite app_nil_r. auto.
  - destruct (merge_ok less ceq zero sort coin sort_perm s U Ls o V Os [] (g_inv _ _ _ _ _ G) (g_inv _ _ _ _ _ Go) Hn E)
      as (s' & U' & Ls' & c2 & c1 & L1 & HM & HI & G1 & G2 & Hk & Hm & HN & _ & HMM).
    rewrite app_nil_r in HM. exists s', (c2 ++ c1), U', Ls'. split; auto.
    assert (HOne : Os <> []) by apply (i_fit _ _ _ (g_inv _ _ _ _ _ Go)). destruct Os as [|O0 Ot]; [congruence|]. cbn [hd tl] in *.
    destruct (grows_wt' _ _ _ _ G1) as (_ & _ & HL1 & HF1). destruct (grows_wt' _ _ _ _ G2) as (_ & _ & HL2 & HF2).
    assert (HLne : Ls <> []) by apply (i_fit _ _ _ (g_inv _ _ _ _ _ G)).
    destruct L1 as [|A0 At]; [destruct Ls; [congruence|cbn [length] in HL1; lia]|]. cbn [hd tl] in *. cbn [length] in HL2. rewrite zipm_length in HL2.
    assert (HS1 : LvS less (A0 :: At)) by (eapply grows_sorted'; eauto; apply G).
    pose proof (g_sorted _ _ _ _ _ Go) as HSo. unfold LvS in HS1, HSo. cbn [tl] in *.
    assert (HS2 : LvS less (A0 :: zipm less At Ot)) by (unfold LvS; cbn [tl]; eapply zipm_sorted'; eauto).
    assert (HysN : ys <> []) by (intros ->; apply E; rewrite (g_n _ _ _ _ _ Go); auto).
    constructor; auto.
    + eapply grows_sorted'; eauto.
    + eapply sub_trans; [eapply grows_sub'; eauto|]. cbn [app concat]. eapply sub_trans with (B := concat (A0 :: At) ++ concat Ot).
      { apply sub_refl. cbn [concat]. rewrite <- app_assoc. apply Permutation_app_head. apply zipm_concat. }
      eapply sub_trans; [apply sub_app; [eapply grows_sub'; eauto|apply sub_refl, Permutation_refl]|].
      eapply sub_trans with (B := concat Ls ++ concat (O0 :: Ot)).
      { apply sub_refl. cbn [concat]. apply Permutation_trans with ((concat Ls ++ O0) ++ concat Ot); [apply Permutation_app_tail|rewrite app_assoc; apply Permutation_refl].
        apply Permutation_trans with (concat Ls ++ rev O0); [apply Permutation_app_comm|apply Permutation_app_head, Permutation_sym, Permutation_rev]. }
      apply sub_app; [apply G|apply Go].
    + rewrite HN, (g_n _ _ _ _ _ G), (g_n _ _ _ _ _ Go), app_length. lia.
    + intros p Hp. pose proof (g_rank _ _ _ _ _ G p Hp) as H1. pose proof (g_rank _ _ _ _ _ Go p Hp) as H2.
      pose proof (grows_rank' p _ _ _ _ Hp (g_sorted _ _ _ _ _ G) G1) as H3.
      pose proof (grows_rank' p _ _ _ _ Hp HS2 G2) as H4.
      cbn [R] in *. rewrite R_zipm' in H4. rewrite !pow_sum_app, cnt_app'. rewrite cnt_nil in H4.
      rewrite <- (cnt_perm' p _ _ (Permutation_rev O0)) in H3. lia.
    + assert (HH : has_min_max s' = true).
      { unfold is_empty in HMM. destruct (n s =? 0)%N; injection HMM as _ _ ->; auto. rewrite (g_mm _ _ _ _ _ Go). destruct ys; [congruence|reflexivity]. }
      rewrite HH, app_length. destruct ys; [congruence|]. cbn [length]. destruct (Nat.eqb_spec (length xs + S (length ys)) 0); [lia|reflexivity].
    + intros _. unfold is_empty in HMM. destruct (N.eqb_spec (n s) 0) as [E0|E0]; injection HMM as -> _ _.
      * assert (xs = []) as -> by (rewrite (g_n _ _ _ _ _ G) in E0; destruct xs; [auto|cbn [length] in E0; lia]). apply Go; auto.
      * apply is_min_app; [apply G; intros ->; apply E0; rewrite (g_n _ _ _ _ _ G); auto|apply Go; auto].
    + intros _. unfold is_empty in HMM. destruct (N.eqb_spec (n s) 0) as [E0|E0]; injection HMM as _ -> _.
      * assert (xs = []) as -> by (rewrite (g_n _ _ _ _ _ G) in E0; destruct xs; [auto|cbn [length] in E0; lia]). apply Go; auto.
      * apply is_max_app; [apply G; intros ->; apply E0; rewrite (g_n _ _ _ _ _ G); auto|apply Go; auto].
    + cbn [length] in *. rewrite !Forall_app. repeat split; (eapply Forall_impl; [|eassumption]) || (eapply Forall_impl; [|apply G]) || (eapply Forall_impl; [|apply Go]); simpl; intros; try lia.
      
    + rewrite Hk. apply G.
    + rewrite Hk, Hm. apply G.
Qed.

Lemma made_good K s xs cs : made K s xs cs -> exists U Ls, Good s xs cs U Ls.
Proof.
  induction 1 as [k0 m0 s HN HK Hm Hmk|s xs cs coin x s' new H (U & Ls & G) Hn HU|s xs cs o ys ds coin s' new H (U & Ls & G) Ho (V & Os & Go) Hn HM|s xs cs H (U & Ls & G)].
  - unfold kll_new in HN. destruct (N.ltb_spec k0 8); [discriminate|]. destruct (N.ltb_spec 65535 k0); [discriminate|]. cbn [orb] in HN. injection HN as <-.
    eexists _, _. apply good_fresh; auto.
  - destruct (good_update _ _ _ _ _ coin x G Hn) as (s2 & new2 & U' & Ls' & HU2 & G'). rewrite HU in HU2. injection HU2 as <- <-. eauto.
  - destruct (good_merge _ _ _ _ _ _ _ _ _ _ coin G Go Hn) as (s2 & new2 & U' & Ls' & HU2 & G'). rewrite HM in HU2. injection HU2 as <- <-. eauto.
  - eexists _, _. unfold kll_reset. apply good_fresh; apply G.
Qed.

(** ** C29: no operation panics, and the structure is what the format promises *)
Theorem kll_never_panics : forall K s xs cs, made K s xs cs ->
  (forall coin x, (n s + 1 < 2 ^ 60)%N -> exists s' new, kll_update less zero sort coin s [] x = Some (s', new)) /\
  (forall coin o ys ds, made K o ys ds -> (n s + n o < 2 ^ 60)%N -> exists s' new, kll_merge less zero sort coin s o [] = Some (s', new)) /\
  (n s <> 0%N -> exists v, sorted_view less ceq zero sort s = Some v /\ forall x inclusive, exists r, get_rank less ceq v x inclusive = Some r) /\
  (exists l, iterate zero s = Some l) /\ (exists r, get_num_retained s = Some r).
Proof.
  intros K s xs cs H. destruct (made_good _ _ _ _ H) as (U & Ls & G). split; [|split; [|split; [|split]]].
  - intros coin x Hn. destruct (good_update _ _ _ _ _ coin x G Hn) as (s' & new & _ & _ & HU & _). eauto.
  - intros coin o ys ds Ho Hn. destruct (made_good _ _ _ _ Ho) as (V & Os & Go). destruct (good_merge _ _ _ _ _ _ _ _ _ _ coin G Go Hn) as (s' & new & _ & _ & HU & _). eauto.
  - intros Hn. destruct (sorted_view_ok less ceq zero sort order sort_perm sort_sorted s U Ls (g_inv _ _ _ _ _ G) (g_sorted _ _ _ _ _ G) Hn) as (res & HV & HS & HP).
    eexists. split; [exact HV|]. intros x incl. eexists. apply (rank_ok less ceq order); auto. intros ->.
    apply Permutation_sym, Permutation_nil in HP. apply (f_equal (wsum (fun _ => true))) in HP.
    pose proof (wsum_wl less zero sort sort_perm sort_sorted (fun _ => true) Ls 1) as HW. rewrite HP in HW.
    assert (HR : R (fun _ => true) Ls = Z.of_N (wt Ls)).
    { clear. induction Ls as [|L Ls IH]; cbn [R wt]; auto. rewrite IH. unfold cnt. replace (filter (fun _ => true) L) with L; [lia|].
      induction L; cbn [filter]; congruence. }
    rewrite HR, (i_wt _ _ _ (g_inv _ _ _ _ _ G)) in HW. unfold wsum in HW. cbn [fold_right] in HW. lia.
  - rewrite (iterate_ok less ceq zero sort sort_perm sort_sorted s U Ls (g_inv _ _ _ _ _ G)). eauto.
  - destruct (i_rep _ _ _ (g_inv _ _ _ _ _ G)) as (pre & H1 & H2 & H3 & H4). unfold get_num_retained.
    assert (HLne : Ls <> []) by apply (i_fit _ _ _ (g_inv _ _ _ _ _ G)). rewrite H2, H3. destruct Ls as [|L Ls]; [congruence|].
    rewrite nth_seg by (rewrite pb_length; auto). cbn [bindo pb app nth_error]. rewrite sub_ok by (rewrite csum_cons; lia). eauto.
Qed.

Lemma pb_nth (A : list (list C)) L (B : list (list C)) p :
  nth_error (pb p (A ++ L :: B) ++ [p + csum (A ++ L :: B)]) (length A) = Some (p + csum A) /\
  nth_error (pb p (A ++ L :: B) ++ [p + csum (A ++ L :: B)]) (length A + 1) = Some (p + csum A + length L).
Proof.
  rewrite pb_app. cbn [pb]. rewrite <- app_assoc. cbn [app]. split.
  - apply nth_seg. rewrite pb_length. auto.
  - rewrite csum_app, csum_cons. destruct B as [|b B]; cbn [pb app].
    + rewrite csum_nil. rewrite nth_error_app2 by (rewrite pb_length; lia). rewrite pb_length. replace (length A + 1 - length A) with 1 by lia. cbn [nth_error]. f_equal. lia.
    + rewrite nth_error_app2 by (rewrite pb_length; lia). rewrite pb_length. replace (length A + 1 - length A) with 1 by lia. cbn [nth_error]. auto.
Qed.

(** The levels are consecutive segments of the item array that end at its end; every level above the lowest is sorted;
    and (for k < 32768) the array has exactly the capacity the code computes for that number of levels. *)
Theorem kll_structure : forall K s xs cs, made K s xs cs ->
  length (levels s) = num_levels s + 1 /\ nth_error (levels s) (num_levels s) = Some (length (items s)) /\
  (forall i, i < num_levels s -> exists a b, nth_error (levels s) i = Some a /\ nth_error (levels s) (i + 1) = Some b /\ a <= b <= length (items s) /\
     (1 <= i -> StronglySorted (fun x y => less y x = false) (firstn (b - a) (skipn a (items s))))) /\
  ((n s < 2 ^ 60)%N -> (k s < 32768)%N -> compute_total_item_capacity (k s) (m s) (num_levels s) = Some (length (items s))).
Proof.
  intros K s xs cs H. destruct (made_good _ _ _ _ H) as (U & Ls & G). pose proof (g_inv _ _ _ _ _ G) as I.
  destruct (i_rep _ _ _ I) as (pre & H1 & H2 & H3 & H4).
  assert (HU : length (items s) = U) by (rewrite H1, app_length, H4; reflexivity).
  split; [|split; [|split]].
  - rewrite H2, app_length, pb_length, H3. cbn [length]. lia.
  - rewrite H2, H3, nth_seg by (rewrite pb_length; auto). congruence.
  - intros i Hi. rewrite H3 in Hi. destruct (nth_error Ls i) as [L|] eqn:E; [|apply nth_error_None in E; lia].
    apply nth_error_split in E. destruct E as (A & B & E & EA). subst i. rewrite H2, E.
    destruct (pb_nth A L B (length pre)) as [N1 N2]. eexists _, _. split; [exact N1|]. split; [exact N2|].
    rewrite E, csum_app, csum_cons in H4. split; [lia|]. intros HA.
    replace (length pre + csum A + length L - (length pre + csum A)) with (length L) by lia.
    rewrite H1, E, concat_app. cbn [concat]. rewrite !app_assoc. rewrite <- app_assoc.
    rewrite skipn_seg by (rewrite app_length; unfold csum; auto). rewrite firstn_seg by auto.
    pose proof (g_sorted _ _ _ _ _ G) as HS. unfold LvS in HS. rewrite E in HS. destruct A as [|A0 A]; [cbn [length] in HA; lia|]. cbn [app tl] in HS.
    apply Forall_app in HS. destruct HS as [_ HS]. inversion HS; subst. assumption.
  - intros Hn Hk. rewrite H3, HU. rewrite (total_capacity_ok less ceq zero (fun _ => false) (k s) (m s) (length Ls)).
    + f_equal. apply (i_fit _ _ _ I). auto.
    + pose proof (inv_levels less ceq zero sort (fun _ => false) sort_perm _ _ _ I Hn). lia.
Qed.

(** ** C28: the weights of the retained items add up to the number of items presented *)
Theorem kll_weight_conserved : forall K s xs cs, made K s xs cs -> exists l, iterate zero s = Some l /\
  n s = N.of_nat (length xs) /\ weight (fun _ => true) l = n s /\ get_num_retained s = Some (length l) /\
  Forall (fun a => exists level, level < num_levels s /\ snd a = (2 ^ N.of_nat level)%N) l.
Proof.
  intros K s xs cs H. destruct (made_good _ _ _ _ H) as (U & Ls & G). pose proof (g_inv _ _ _ _ _ G) as I.
  exists (wl 1 Ls). split; [exact (iterate_ok less ceq zero sort sort_perm sort_sorted s U Ls I)|]. split; [apply G|].
  destruct (i_rep _ _ _ I) as (pre & H1 & H2 & H3 & H4). split; [|split].
  - assert (HR : R (fun _ => true) Ls = Z.of_N (wt Ls)).
    { clear. induction Ls as [|L Ls IH]; cbn [R wt]; auto. rewrite IH. unfold cnt. replace (filter (fun _ => true) L) with L; [lia|].
      induction L; cbn [filter]; congruence. }
    pose proof (wsum_wl less zero sort sort_perm sort_sorted (fun _ => true) Ls 1) as HW. rewrite HR, (i_wt _ _ _ I) in HW.
    change (weight (fun _ => true) (wl 1 Ls)) with (wsum (fun _ => true) (wl 1 Ls)). lia.
  - unfold get_num_retained.
    assert (HLne : Ls <> []) by apply (i_fit _ _ _ I). rewrite H2, H3. destruct Ls as [|L Ls]; [congruence|].
    rewrite nth_seg by (rewrite pb_length; auto). cbn [bindo pb app nth_error]. rewrite sub_ok by (rewrite csum_cons; lia). f_equal.
    assert (HL : forall (X : list (list C)) w, length (wl w X) = csum X).
    { clear. induction X as [|L X IH]; intros w; cbn [wl]; [rewrite csum_nil; auto|]. rewrite app_length, map_length, csum_cons, IH. auto. }
    rewrite HL. lia.
  - rewrite H3. assert (HW : forall X j, Forall (fun a : C * N => exists level, level < j + length X /\ snd a = (2 ^ N.of_nat level)%N) (wl (2 ^ N.of_nat j) X)).
    { clear. induction X as [|L X IH]; intros j; cbn [wl]; [constructor|]. apply Forall_app. split.
      - apply Forall_map, Forall_forall. intros x _. exists j. cbn [snd length]. split; [lia|auto].
      - replace (2 ^ N.of_nat j * 2)%N with (2 ^ N.of_nat (S j))%N by (rewrite Nat2N.inj_succ, N.pow_succ_r'; lia).
        eapply Forall_impl; [|apply (IH (S j))]. cbn [length]. intros a (lv & H & ->). exists lv. split; [lia|auto]. }
    exact (HW Ls 0).
Qed.

(** ** C30: minimum and maximum are exact; retained items were presented, no more often than they were presented *)
Theorem kll_min_max_exact : forall K s xs cs, made K s xs cs ->
  (xs = [] -> get_min_item s = None /\ get_max_item s = None) /\
  (xs <> [] -> exists mn mx, get_min_item s = Some mn /\ is_min mn xs /\ get_max_item s = Some mx /\ is_max mx xs).
Proof.
  intros K s xs cs H. destruct (made_good _ _ _ _ H) as (U & Ls & G). unfold get_min_item, get_max_item, is_empty. rewrite (g_n _ _ _ _ _ G). split.
  - intros ->. auto.
  - intros Hx. destruct (N.eqb_spec (N.of_nat (length xs)) 0); [destruct xs; [congruence|cbn [length] in *; lia]|].
    exists (min_item s), (max_item s). repeat split; try apply G; auto.
Qed.
Theorem kll_retained_from_stream : forall K s xs cs l, made K s xs cs -> iterate zero s = Some l ->
  exists discarded, Permutation (map fst l ++ discarded) xs.
Proof.
  intros K s xs cs l H HI. destruct (made_good _ _ _ _ H) as (U & Ls & G).
  rewrite (iterate_ok less ceq zero sort sort_perm sort_sorted s U Ls (g_inv _ _ _ _ _ G)) in HI. injection HI as <-.
  assert (HL : forall (X : list (list C)) w, map fst (wl w X) = concat X).
  { clear. induction X as [|L X IH]; intros w; cbn [wl concat]; auto. rewrite map_app, IH, map_map. cbn [fst]. rewrite map_id. auto. }
  rewrite HL. apply G.
Qed.

(** ** C32: a deterministic bound on the rank error *)
Theorem kll_rank_error : forall K s xs cs v x inclusive r, made K s xs cs -> sorted_view less ceq zero sort s = Some v ->
  get_rank less ceq v x inclusive = Some r -> (Z.abs (Z.of_N r - count (below x inclusive) xs) <= compaction_weight cs)%Z.
Proof.
  intros K s xs cs v x incl r H HV HR. destruct (made_good _ _ _ _ H) as (U & Ls & G).
  assert (Hn : n s <> 0%N) by (intros E; unfold sorted_view, is_empty in HV; rewrite E in HV; discriminate).
  destruct (sorted_view_ok less ceq zero sort order sort_perm sort_sorted s U Ls (g_inv _ _ _ _ _ G) (g_sorted _ _ _ _ _ G) Hn) as (res & HV2 & HS & HP).
  rewrite HV in HV2. injection HV2 as ->.
  assert (HN : res <> []). { intros ->. unfold get_rank in HR. cbn [map quantiles] in HR. discriminate. }
  rewrite (rank_ok less ceq order) in HR by auto. injection HR as <-.
  rewrite <- (wsum_perm zero _ _ _ HP). rewrite (wsum_wl less zero sort sort_perm sort_sorted). rewrite Z.mul_1_l.
  apply (g_rank _ _ _ _ _ G). apply (upto_down less ceq order).
Qed.
(** Every compaction in the log was of a level below the top one. *)
Theorem kll_compaction_levels : forall K s xs cs, made K s xs cs -> Forall (fun c => c + 1 < num_levels s) cs.
Proof.
  intros K s xs cs H. destruct (made_good _ _ _ _ H) as (U & Ls & G).
  destruct (i_rep _ _ _ (g_inv _ _ _ _ _ G)) as (pre & _ & _ & -> & _). apply G.
Qed.

(** ** C31: exact until the first compaction, and no compaction before k items *)
Theorem kll_exact_mode : forall K s xs cs, made K s xs cs -> is_estimation_mode s = false ->
  cs = [] /\ (exists l, iterate zero s = Some l /\ Permutation (map fst l) xs /\ Forall (fun a => snd a = 1%N) l) /\
  forall v x inclusive, sorted_view less ceq zero sort s = Some v -> exists r, get_rank less ceq v x inclusive = Some r /\ Z.of_N r = count (below x inclusive) xs.
Proof.
  intros K s xs cs H HE. destruct (made_good _ _ _ _ H) as (U & Ls & G). pose proof (g_inv _ _ _ _ _ G) as I.
  destruct (i_rep _ _ _ I) as (pre & H1 & H2 & H3 & H4). unfold is_estimation_mode in HE. apply Nat.ltb_ge in HE. rewrite H3 in HE.
  assert (HLne : Ls <> []) by apply (i_fit _ _ _ I). destruct Ls as [|L [|L' Ls]]; [congruence| |cbn [length] in HE; lia].
  assert (HC : cs = []). { pose proof (g_log _ _ _ _ _ G) as HL. destruct cs; auto. inversion HL; subst. cbn [length] in *. lia. }
  split; auto. split.
  - rewrite (iterate_ok less ceq zero sort sort_perm sort_sorted s U [L] I). eexists. split; [reflexivity|]. cbn [wl]. rewrite app_nil_r, map_map. cbn [fst]. rewrite map_id. split.
    + destruct (g_sub _ _ _ _ _ G) as [D HD]. cbn [concat] in HD. rewrite app_nil_r in HD. pose proof (i_wt _ _ _ I) as HW. rewrite (g_n _ _ _ _ _ G) in HW. cbn [wt] in HW.
      apply Permutation_length in HD as HD'. rewrite app_length in HD'. destruct D; [|cbn [length] in HD'; lia]. rewrite app_nil_r in HD. auto.
    + apply Forall_map, Forall_forall. auto.
  - intros v x incl HV. destruct (proj1 (proj2 (proj2 (kll_never_panics _ _ _ _ H)))) as (v2 & HV2 & HR).
    { intros E. unfold sorted_view, is_empty in HV. rewrite E in HV. discriminate. }
    rewrite HV in HV2. injection HV2 as <-. destruct (HR x incl) as (r & Hr). exists r. split; auto.
    pose proof (kll_rank_error _ _ _ _ _ _ _ _ H HV Hr) as HB. subst cs. cbn [compaction_weight fold_right] in HB. lia.
Qed.

Lemma inv_update_small s U L coin x r : Inv s U [L] -> length L < U ->
  exists s', kll_update less zero sort coin s r x = Some (s', r) /\ Inv s' U [x :: L] /\ k s' = k s.
Proof.
  intros I HL. destruct (update_ok less ceq zero sort coin sort_perm s U [L] r x (i_rep _ _ _ I) (i_fit _ _ _ I)) as (U' & Ls' & r' & lv & it & HU & HF & HK & HR).
  { cbn [length]. lia. }
  unfold l_update in HU. rewrite csum_cons, csum_nil in HU. destruct (Nat.eqb_spec (length L + 0) U) as [|_]; [lia|]. cbn [bindo] in HU. injection HU as <- <- <-. cbn zeta in *.
  eexists. split; [exact HK|]. split; [|reflexivity]. constructor; cbn [n k m l0_sorted]; auto.
  - left. auto.
  - pose proof (i_wt _ _ _ I) as HW. cbn [wt length] in *. lia.
  - lia.
Qed.
Lemma inv_update_all_small coin : forall ys s U L r, Inv s U [L] -> length L + length ys <= U ->
  exists s', update_all less zero sort coin s r ys = Some (s', r) /\ Inv s' U [rev ys ++ L] /\ k s' = k s.
Proof.
  induction ys as [|y ys IH]; intros s U L r I HL; cbn [update_all rev app]; [eauto|].
  cbn [length] in HL. destruct (inv_update_small s U L coin y r I ltac:(lia)) as (s1 & -> & I1 & K1). cbn [bindo].
  destruct (IH s1 U (y :: L) r I1) as (s2 & HU & I2 & K2); [cbn [length]; lia|]. exists s2. rewrite HU. split; auto. rewrite <- app_assoc. cbn [app]. split; [auto|congruence].
Qed.

(** However updates and merges are interleaved, a sketch all of whose parts have k at least K does not enter estimation mode
    while its stream has at most K items. *)
Theorem kll_exact_up_to_k : forall K s xs cs, made K s xs cs -> (N.of_nat (length xs) <= K)%N -> is_estimation_mode s = false.
Proof.
  assert (HK : forall K s xs cs, made K s xs cs -> (K <= k s)%N).
  { induction 1 as [k0 m0 s HN HK Hm Hmk|s xs cs coin x s' new H IH Hn HU|s xs cs o ys ds coin s' new H IH Ho IHo Hn HM|s xs cs H IH].
    - unfold kll_new in HN. destruct ((k0 <? 8)%N || (65535 <? k0)%N); [discriminate|]. injection HN as <-. auto.
    - destruct (made_good _ _ _ _ H) as (U & Ls & G). destruct (update_inv less ceq zero sort coin sort_perm s U Ls [] x (g_inv _ _ _ _ _ G) Hn) as (U' & Ls' & new2 & lv & it & HU2 & _).
      cbn zeta in HU2. rewrite HU in HU2. injection HU2 as -> _. auto.
    - destruct (N.eq_dec (n o) 0) as [E|E]; [unfold kll_merge, is_empty in HM; rewrite E in HM; injection HM as <- _; auto|].
      destruct (made_good _ _ _ _ H) as (U & Ls & G). destruct (made_good _ _ _ _ Ho) as (V & Os & Go).
      destruct (merge_ok less ceq zero sort coin sort_perm s U Ls o V Os [] (g_inv _ _ _ _ _ G) (g_inv _ _ _ _ _ Go) Hn E)
        as (s2 & U' & Ls' & c2 & c1 & L1 & HM2 & HI & G1 & G2 & Hk & _). rewrite HM in HM2. injection HM2 as -> _. rewrite Hk. auto.
    - auto. }
  assert (HX : forall K s xs cs, made K s xs cs -> (N.of_nat (length xs) <= K)%N -> exists L, Inv s (N.to_nat (k s)) [L]).
  { induction 1 as [k0 m0 s HN HK0 Hm Hmk|s xs cs coin x s' new H IH Hn HU|s xs cs o ys ds coin s' new H IH Ho IHo Hn HM|s xs cs H IH]; intros Hx.
    - unfold kll_new in HN. destruct (N.ltb_spec k0 8); [discriminate|]. destruct (N.ltb_spec 65535 k0); [discriminate|]. injection HN as <-.
      exists []. cbn [k]. apply (g_inv _ _ _ _ _ (good_fresh k0 m0 k0 ltac:(lia) Hm Hmk)).
    - cbn [length] in Hx. destruct (IH ltac:(lia)) as (L & I). destruct (made_good _ _ _ _ H) as (U & Ls & G).
      pose proof (HK _ _ _ _ H). pose proof (i_wt _ _ _ I) as HW. rewrite (g_n _ _ _ _ _ G) in HW. cbn [wt] in HW.
      destruct (inv_update_small s _ L coin x [] I ltac:(lia)) as (s2 & HU2 & I2 & K2). rewrite HU in HU2. injection HU2 as -> _. rewrite K2. eauto.
    - rewrite app_length in Hx. destruct (IH ltac:(lia)) as (L & I). destruct (IHo ltac:(lia)) as (M & Io).
      destruct (made_good _ _ _ _ H) as (U & Ls & G). destruct (made_good _ _ _ _ Ho) as (V & Os & Go). pose proof (HK _ _ _ _ H).
      pose proof (i_wt _ _ _ I) as HW. rewrite (g_n _ _ _ _ _ G) in HW. cbn [wt] in HW.
      pose proof (i_wt _ _ _ Io) as HWo. rewrite (g_n _ _ _ _ _ Go) in HWo. cbn [wt] in HWo.
      unfold kll_merge in HM. unfold is_empty at 1 in HM. destruct (N.eqb_spec (n o) 0) as [E|E]; [injection HM as <- _; eauto|].
      destruct (total_items_rep less ceq zero sort (fun _ => false) sort_perm _ _ _ Io) as (preO & HOi & HOl & HOn & HOT).
      rewrite HOl, HOi in HM. cbn [pb app nth_error bindo concat] in HM. rewrite HOn in HM. rewrite csum_cons, csum_nil, app_nil_r, Nat.add_0_r in HM.
      replace (length preO + length M - length preO) with (length M) in HM by lia.
      assert (HG : sl_get (length preO) (length M) (preO ++ M) = Some M) by (rewrite <- (app_nil_r (preO ++ M)), <- app_assoc; apply get_seg; auto).
      rewrite HG in HM. cbn [bindo] in HM.
      destruct (inv_update_all_small coin M s _ L [] I ltac:(lia)) as (s1 & HU & I1 & K1). rewrite HU in HM. cbn [bindo length Nat.ltb Nat.leb] in HM.
      assert (HT1 : total_items_array zero s1 = items s1).
      { unfold total_items_array, is_empty. destruct (N.eqb_spec (n s1) 0) as [E1|]; auto. exfalso. pose proof (i_wt _ _ _ I1) as HW1. rewrite E1 in HW1. cbn [wt] in HW1.
        rewrite app_length, rev_length in HW1. rewrite (g_n _ _ _ _ _ Go) in E. lia. }
      rewrite HT1 in HM. 
      assert (HS : Rep s' (N.to_nat (k s)) [rev M ++ L] /\ k s' = k s /\ m s' = m s1 /\ n s' = (n s + n o)%N /\ l0_sorted s' = l0_sorted s1).
      { destruct (is_empty s); injection HM as <- _; cbn [k m n l0_sorted]; (split; [apply (i_rep _ _ _ I1)|]); auto. }
      destruct HS as (S1 & S2 & S3 & S4 & S5). exists (rev M ++ L). rewrite S2. constructor; auto.
      + rewrite S2, S3, <- K1. rewrite <- K1 in I1. apply I1.
      + left; auto.
      + rewrite S4, (g_n _ _ _ _ _ G), (g_n _ _ _ _ _ Go). cbn [wt]. rewrite app_length, rev_length. lia.
      + rewrite S5. apply (i_flag _ _ _ I1).
      + intros _. congruence.
    - destruct (made_good _ _ _ _ H) as (U & Ls & G). exists []. apply (g_inv _ _ _ _ _ (good_fresh (k s) (m s) (min_k s) (g_k _ _ _ _ _ G) (proj1 (g_m _ _ _ _ _ G)) (proj2 (g_m _ _ _ _ _ G)))). }
  intros K s xs cs H Hx. destruct (HX _ _ _ _ H Hx) as (L & I). destruct (i_rep _ _ _ I) as (pre & _ & _ & H3 & _). unfold is_estimation_mode. rewrite H3. reflexivity.
Qed.

(** ** C33: rank and quantile answers are exactly those of the weighted retained items *)
(** The cumulative weight [w] reaches the rank [r]. *)
Definition hits (r : N) (inclusive : bool) (w : N) : Prop := if inclusive then (r <= w)%N else (r < w)%N.

Lemma made_view K s xs cs v l : made K s xs cs -> sorted_view less ceq zero sort s = Some v -> iterate zero s = Some l ->
  exists res nn, v = mkView (map fst res) (convert_to_cumulative 0 (map snd res)) nn /\ sortedw less res /\ Permutation l res /\ res <> [] /\ nn = n s.
Proof.
  intros H HV HI. destruct (made_good _ _ _ _ H) as (U & Ls & G).
  assert (Hn : n s <> 0%N) by (intros E; unfold sorted_view, is_empty in HV; rewrite E in HV; discriminate).
  destruct (proj1 (proj2 (proj2 (kll_never_panics _ _ _ _ H))) Hn) as (v2 & HV1 & HR). rewrite HV in HV1. injection HV1 as <-.
  destruct (sorted_view_ok less ceq zero sort order sort_perm sort_sorted s U Ls (g_inv _ _ _ _ _ G) (g_sorted _ _ _ _ _ G) Hn) as (res & HV2 & HS & HP).
  rewrite HV in HV2. injection HV2 as ->. exists res, (n s). split; auto. split; auto.
  rewrite (iterate_ok less ceq zero sort sort_perm sort_sorted s U Ls (g_inv _ _ _ _ _ G)) in HI. injection HI as <-. split; auto. split; auto.
  intros ->. destruct (HR zero true) as (r & Hr). unfold get_rank in Hr. discriminate.
Qed.

Theorem kll_view_sorted : forall K s xs cs v, made K s xs cs -> sorted_view less ceq zero sort s = Some v ->
  StronglySorted (fun a b => less b a = false) (quantiles v) /\ StronglySorted N.le (cum_weights v) /\
  length (cum_weights v) = length (quantiles v) /\ last (cum_weights v) 0%N = n s.
Proof.
  intros K s xs cs v H HV. destruct (kll_weight_conserved _ _ _ _ H) as (l & HI & _ & HW & _).
  destruct (made_view _ _ _ _ _ _ H HV HI) as (res & nn & -> & HS & HP & HN & ->). cbn [quantiles cum_weights total_n].
  split; [|split; [|split]].
  - clear -HS. induction HS as [|a res HS IH HF]; cbn [map]; constructor; auto. apply Forall_map. eapply Forall_impl; [|exact HF]. auto.
  - generalize 0%N. clear. induction res as [|a res IH]; intros t; cbn [map convert_to_cumulative]; constructor; auto.
    apply Forall_forall. intros w Hw. apply In_nth_error in Hw. destruct Hw as [i Hi]. assert (i < length res).
    { assert (i < length (convert_to_cumulative (t + snd a) (map snd res))) by (apply nth_error_Some; congruence). rewrite cum_length, map_length in *. auto. }
    rewrite cum_nth in Hi by auto. injection Hi as <-. lia.
  - rewrite cum_length, !map_length. auto.
  - rewrite <- HW. change (weight (fun _ => true) l) with (wsum (fun _ => true) l). rewrite (wsum_perm zero _ _ _ HP).
    assert (HL : forall X t, X <> [] -> last (convert_to_cumulative t (map snd X)) 0%N = (t + wsum (fun _ : C => true) X)%N).
    { clear. induction X as [|a X IH]; intros t HX; [congruence|]. cbn [map convert_to_cumulative]. unfold wsum. cbn [fold_right]. fold (wsum (fun _ : C => true) X).
      destruct X as [|b X]; [cbn [map convert_to_cumulative last]; unfold wsum; cbn [fold_right]; lia|].
      specialize (IH (t + snd a)%N ltac:(discriminate)). cbn [map convert_to_cumulative last] in *. rewrite IH. lia. }
    rewrite HL by auto. lia.
Qed.

Theorem kll_rank_is_weight : forall K s xs cs v l x inclusive, made K s xs cs -> sorted_view less ceq zero sort s = Some v -> iterate zero s = Some l ->
  get_rank less ceq v x inclusive = Some (weight (below x inclusive) l).
Proof.
  intros K s xs cs v l x incl H HV HI. destruct (made_view _ _ _ _ _ _ H HV HI) as (res & nn & -> & HS & HP & HN & _).
  rewrite (rank_ok less ceq order) by auto. f_equal. symmetry. exact (wsum_perm zero (upto less x incl) _ _ HP).
Qed.
Theorem kll_rank_monotone : forall K s xs cs v x y inclusive r q, made K s xs cs -> sorted_view less ceq zero sort s = Some v ->
  less x y = true -> get_rank less ceq v x inclusive = Some r -> get_rank less ceq v y inclusive = Some q -> (r <= q <= n s)%N.
Proof.
  intros K s xs cs v x y incl r q H HV Hxy Hr Hq. destruct (kll_weight_conserved _ _ _ _ H) as (l & HI & _ & HW & _).
  rewrite (kll_rank_is_weight _ _ _ _ _ _ x _ H HV HI) in Hr. rewrite (kll_rank_is_weight _ _ _ _ _ _ y _ H HV HI) in Hq. injection Hr as <-. injection Hq as <-. rewrite <- HW. split.
  - apply (wsum_mono (C := C)). intros a _. unfold below. destruct incl.
    + rewrite !negb_true_iff. intros H1. destruct (less y (fst a)) eqn:E; auto. rewrite <- H1. symmetry. apply (st_trans _ _ order) with y; auto.
    + intros H1. apply (st_trans _ _ order) with x; auto.
  - apply (wsum_mono (C := C)). auto.
Qed.

(** The quantile of rank [r] is the least retained item whose cumulative weight reaches [r], or the greatest retained item if
    no cumulative weight does. *)
Theorem kll_quantile_correct : forall K s xs cs v l r inclusive, made K s xs cs -> sorted_view less ceq zero sort s = Some v -> iterate zero s = Some l ->
  exists q, get_quantile v r inclusive = Some q /\ In q (map fst l) /\
    (forall y, In y (map fst l) -> less y q = true -> ~ hits r inclusive (weight (below y true) l)) /\
    (hits r inclusive (n s) -> hits r inclusive (weight (below q true) l)) /\
    (~ hits r inclusive (n s) -> forall y, In y (map fst l) -> less q y = false).
Proof.
  intros K s xs cs v l r incl H HV HI. destruct (made_view _ _ _ _ _ _ H HV HI) as (res & nn & -> & HS & HP & HN & _).
  destruct (kll_weight_conserved _ _ _ _ H) as (l2 & HI2 & _ & HW & _). rewrite HI in HI2. injection HI2 as <-.
  destruct (quantile_ok less ceq zero order res nn r incl HS HN) as (q & H1 & H2 & H3 & H4 & H5).
  assert (HE : forall p, wsum p res = weight p l) by (intros p; symmetry; apply (wsum_perm zero p _ _ HP)).
  assert (HM : forall y, In y (map fst res) <-> In y (map fst l)).
  { intros y. split; apply Permutation_in; [apply Permutation_sym|]; apply Permutation_map; auto. }
  exists q. rewrite <- HW. rewrite HE in H3, H5. split; auto. split; [apply HM; auto|]. split; [|split].
  - intros y Hy Hlt. rewrite <- HE. apply H4; auto. apply HM; auto.
  - rewrite <- (HE (below q true)). exact H3.
  - intros Hh y Hy. apply H5; auto. apply HM; auto.
Qed.
End Props.

(** ** Cases that meet the hypotheses: integers, insertion sort, k = 8 *)
Fixpoint ins (x : Z) (l : list Z) : list Z := match l with [] => [x] | y :: t => if (x <=? y)%Z then x :: l else y :: ins x t end.
Definition isort (l : list Z) : list Z := fold_right ins [] l.
Lemma ins_perm x l : Permutation (x :: l) (ins x l).
Proof. induction l as [|y l IH]; cbn [ins]; auto. destruct (x <=? y)%Z; auto. rewrite perm_swap. constructor. auto. Qed.
Lemma isort_perm l : Permutation l (isort l).
Proof. unfold isort. induction l as [|x l IH]; cbn [fold_right]; auto. rewrite <- ins_perm. constructor. auto. Qed.
Lemma ins_sorted x l : StronglySorted (fun a b => (b <? a)%Z = false) l -> StronglySorted (fun a b => (b <? a)%Z = false) (ins x l).
Proof.
  induction 1 as [|y l HS IH HF]; cbn [ins]; [repeat constructor|]. destruct (Z.leb_spec x y) as [E|E].
  - constructor; [constructor; auto|]. constructor; [apply Z.ltb_ge; auto|]. eapply Forall_impl; [|exact HF]. intros a Ha. apply Z.ltb_ge in Ha. apply Z.ltb_ge. lia.
  - constructor; auto. apply Forall_forall. intros a Ha. apply (Permutation_in a (Permutation_sym (ins_perm x l))) in Ha. destruct Ha as [<-|Ha]; [apply Z.ltb_ge; lia|].
    eapply Forall_forall in HF; eauto.
Qed.
Lemma isort_sorted l : StronglySorted (fun a b => (b <? a)%Z = false) (isort l).
Proof. unfold isort. induction l; cbn [fold_right]; [constructor|apply ins_sorted; auto]. Qed.

Fixpoint feed (c : nat) (s : kll) (log : list nat) (i : nat) : option (kll * list nat) :=
  match c with
  | O => Some (s, log)
  | S c => match kll_update Z.ltb 0%Z isort Nat.even s [] (Z.of_nat ((i * 7) mod 41)) with
           | Some (s', new) => feed c s' (new ++ log) (S i) | None => None end
  end.
Fixpoint fed (c i : nat) (acc : list Z) : list Z := match c with O => acc | S c => fed c (S i) (Z.of_nat ((i * 7) mod 41) :: acc) end.
Lemma feed_made K : forall c s xs log i s' log', made Z.ltb 0%Z isort K s xs log -> (n s + N.of_nat c < 2 ^ 60)%N -> feed c s log i = Some (s', log') ->
  made Z.ltb 0%Z isort K s' (fed c i xs) log'.
Proof.
  induction c as [|c IH]; intros s xs log i s' log' H Hn HF; cbn [feed fed] in *; [injection HF as <- <-; auto|].
  destruct (kll_update Z.ltb 0%Z isort Nat.even s [] (Z.of_nat ((i * 7) mod 41))) as [[s1 new]|] eqn:E; [|discriminate].
  assert (HM : made Z.ltb 0%Z isort K s1 (Z.of_nat ((i * 7) mod 41) :: xs) (new ++ log)) by (eapply made_update; eauto; lia).
  eapply IH; [exact HM| |exact HF].
  destruct (made_good Z.ltb Z.eqb 0%Z isort Z_total isort_perm isort_sorted _ _ _ _ HM) as (U & Ls & G). rewrite (g_n _ _ _ _ _ _ G).
  destruct (made_good Z.ltb Z.eqb 0%Z isort Z_total isort_perm isort_sorted _ _ _ _ H) as (U' & Ls' & G'). rewrite (g_n _ _ _ _ _ _ G') in Hn. cbn [length]. lia.
Qed.

(** 60 updates, then a merge with a sketch of 20: several levels, compactions at levels 0 and 1. *)
Definition start c i := match kll_new 0%Z 8 4 with Some s => feed c s [] i | None => None end.
Definition case_m := match start 60 0, start 20 3 with
  | Some (a, la), Some (b, lb) => match kll_merge Z.ltb 0%Z isort (fun i => Nat.odd i) a b [] with Some (s, new) => Some (s, new ++ la ++ lb) | None => None end
  | _, _ => None end.
Lemma option_get {X} (o : option X) (ok : match o with Some _ => true | None => false end = true) : exists x, o = Some x.
Proof. destruct o; eauto. discriminate. Qed.
Lemma case_m_some : exists r, case_m = Some r.
Proof. apply option_get. vm_compute. reflexivity. Qed.
Definition measures (r : kll (C := Z) * list nat) := (num_levels (fst r), n (fst r), compaction_weight (snd r), existsb (Nat.eqb 2) (snd r)).
Lemma case_m_measures : option_map measures case_m = Some (4, 80%N, 23%Z, true).
Proof. vm_compute. reflexivity. Qed.
Lemma feed_new c i s log : start c i = Some (s, log) -> (N.of_nat c < 2 ^ 60)%N ->
  made Z.ltb 0%Z isort 8 s (fed c i []) log.
Proof.
  unfold start. intros H Hc. destruct (kll_new 0%Z 8 4) as [s0|] eqn:E0; [|discriminate].
  apply (feed_made 8 c s0 [] [] i); auto; [eapply made_new; eauto; lia|]. unfold kll_new in E0. injection E0 as <-. exact Hc.
Qed.
Lemma case_m_made s cs : case_m = Some (s, cs) -> made Z.ltb 0%Z isort 8 s (fed 60 0 [] ++ fed 20 3 []) cs.
Proof.
  unfold case_m. destruct (start 60 0) as [[a la]|] eqn:EA; [|discriminate]. destruct (start 20 3) as [[b lb]|] eqn:EB; [|discriminate].
  destruct (kll_merge Z.ltb 0%Z isort (fun i => Nat.odd i) a b []) as [[s2 new]|] eqn:E2; [|discriminate]. intros EM. injection EM as <- <-.
  apply feed_new in EA; [|reflexivity]. apply feed_new in EB; [|reflexivity].
  eapply made_merge; eauto.
  destruct (made_good Z.ltb Z.eqb 0%Z isort Z_total isort_perm isort_sorted _ _ _ _ EA) as (U & Ls & G). rewrite (g_n _ _ _ _ _ _ G).
  destruct (made_good Z.ltb Z.eqb 0%Z isort Z_total isort_perm isort_sorted _ _ _ _ EB) as (U' & Ls' & G'). rewrite (g_n _ _ _ _ _ _ G'). reflexivity.
Qed.
Example kll_case_made : exists s cs, case_m = Some (s, cs) /\ made Z.ltb 0%Z isort 8 s (fed 60 0 [] ++ fed 20 3 []) cs /\
  measures (s, cs) = (4, 80%N, 23%Z, true).
Proof.
  destruct case_m_some as [[s cs] EM]. pose proof case_m_measures as HM. rewrite EM in HM. cbn [option_map] in HM.
  exists s, cs. split; auto. split; [apply case_m_made; auto|congruence].
Qed.

(** A quantile and a rank on it. *)
Example kll_case_query : match case_m with
  | Some (s, _) => match sorted_view Z.ltb Z.eqb 0%Z isort s with
                   | Some v => (get_rank Z.ltb Z.eqb v 16%Z true, get_rank Z.ltb Z.eqb v 16%Z false, get_quantile v 40 true) | None => (None, None, None) end
  | None => (None, None, None) end = (Some 40%N, Some 36%N, Some 16%Z).
Proof. vm_compute. reflexivity. Qed.

(** ** Refuted: what NewKllItemsSketch accepts but the sketch cannot bear.

    The constructor checks k but not m (items_sketch.go:83-104). With m = 255 and k = 8 the ninth update finds no level to compact
    and panics; with m = 1 a level of one item is compacted in vain and the update writes before the array. *)
Theorem kll_any_m_never_panics_refuted : exists k0 m0 s0, kll_new 0%Z k0 m0 = Some s0 /\ m0 <= 255 /\ feed 9 s0 [] 0 = None.
Proof. exists 8%N, 255. eexists. split; [reflexivity|]. split; [lia|]. vm_compute. reflexivity. Qed.
Fixpoint feed_up (c : nat) (s : kll) (i : nat) : option kll :=
  match c with
  | O => Some s
  | S c => match kll_update Z.ltb 0%Z isort Nat.even s [] (Z.of_nat i) with Some (s', _) => feed_up c s' (S i) | None => None end
  end.
Theorem kll_m_one_never_panics_refuted : exists s0 s1, kll_new 0%Z 8 1 = Some s0 /\ feed_up 271 s0 0 = Some s1 /\
  kll_update Z.ltb 0%Z isort Nat.even s1 [] 271%Z = None.
Proof. eexists. eexists. split; [reflexivity|]. split; [vm_compute; reflexivity|]. vm_compute. reflexivity. Qed.
(** From k = 32768 the capacity 2k wraps in uint16: the code computes capacity m for a new sketch that has room for k items
    (and NewKllItemsSketchFromSlice, which compares the two, would reject its serialized form). *)
Theorem kll_large_k_capacity_refuted : exists s : kll (C := Z), kll_new 0%Z 32768 8 = Some s /\
  compute_total_item_capacity (k s) (m s) (num_levels s) = Some 8 /\ length (items s) = N.to_nat 32768.
Proof. eexists. split; [reflexivity|]. split; [reflexivity|]. cbn [items]. apply repeat_length. Qed.

Print Assumptions kll_never_panics.
Print Assumptions kll_structure.
Print Assumptions kll_weight_conserved.
Print Assumptions kll_min_max_exact.
Print Assumptions kll_retained_from_stream.
Print Assumptions kll_rank_error.
Print Assumptions kll_exact_mode.
Print Assumptions kll_exact_up_to_k.
Print Assumptions kll_view_sorted.
Print Assumptions kll_rank_is_weight.
Print Assumptions kll_rank_monotone.
Print Assumptions kll_quantile_correct.
