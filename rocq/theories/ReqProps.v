(** * C35, C56 - C58: REQ quantile sketches, for every history of updates, merges, resets and queries and every random bit. *)
From Coq Require Import Sorting.Sorted.
From Verif Require Import Base Bytes Arr BitPackModel SearchModel SearchProps KllModel KllProofs KllSem KllProps ReqModel ReqProofs ReqSem ReqView.
Local Open Scope nat_scope.

Section Props.
Context {C : Type}.
Variables less ceq : C -> C -> bool.
Variable zero : C.
Variable sort : list C -> list C.
Context {F : Type}.
Variable f_of : nat -> F.
Variable f_shrink : F -> F.
Variable f_half : F -> nat.
(** The comparison is a strict total order (float32 without NaN, -0 and 0 identified), and the library's sort sorts. *)
Hypothesis order : strict_total less ceq.
Hypothesis sort_perm : forall l, Permutation l (sort l).
Hypothesis sort_sorted : forall l, StronglySorted (fun a b => less b a = false) (sort l).
(** What is asked of the floating-point section size: an even number up to 1024 is represented exactly, and dividing by the
    square root of two takes off at most half. *)
Hypothesis f_of_ok : forall j, j <= 512 -> f_half (f_of (2 * j)) = j.
Hypothesis f_shrink_ok : forall f, f_half f <= 512 -> 2 <= f_half (f_shrink f) -> f_half f <= 2 * f_half (f_shrink f) /\ f_half (f_shrink f) <= f_half f.
Notation sk := (ReqModel.sketch (C := C) (F := F)).
Notation upd_ rnd := (req_update less zero sort rnd f_of f_shrink f_half).
Notation mrg_ rnd := (req_merge less zero sort rnd f_of f_shrink f_half).
Notation new_ := (req_new zero f_of).
Notation rst_ := (req_reset zero f_of).
Notation view_ := (sorted_view less ceq zero sort).
Notation rank_ := (view_rank less ceq).
Notation below := (KllProps.below less).
Notation is_min := (KllProps.is_min less).
Notation is_max := (KllProps.is_max less).
Notation compaction_weight := KllProps.compaction_weight.

(** ** Specification: histories.

    NewSketch leaves the extremes at 0, Reset sets them to NaN; Merge takes over the extremes of the other sketch only if those of
    the receiver are NaN, whereas Update overwrites them when the sketch is empty. The status says which history the extremes
    had: [Fresh], straight from NewSketch; [Tainted], the sketch or one merged into it was merged into while [Fresh]; else [Exact]. *)
Inductive status := Fresh | Exact | Tainted.
Definition after_update (st : status) : status := match st with Fresh => Exact | _ => st end.
Definition after_merge (st st2 : status) (ys : list C) : status :=
  match ys with [] => st | _ => match st, st2 with Exact, Exact => Exact | _, _ => Tainted end end.

(** [made h K st s xs cs]: [s] can be reached by creating, updating, merging, resetting and querying sketches, all of the same
    accuracy mode [h] (true: high ranks) and created with k >= K; [xs] lists the items that went into it, [cs] the levels of
    the compactions its content went through. Every operation may meet any outcome of its random bits. *)
Inductive made (h : bool) (K : nat) : status -> sk -> list C -> list nat -> Prop :=
| made_new k s : new_ k h = Ok s -> K <= k -> made h K Fresh s [] []
| made_update st s xs cs rnd x s' new : made h K st s xs cs -> (r_n s + 1 < 2 ^ 47)%N ->
    upd_ rnd s [] (Some x) = Ok (s', new) -> made h K (after_update st) s' (x :: xs) (new ++ cs)
| made_nan st s xs cs rnd s' new : made h K st s xs cs -> upd_ rnd s [] None = Ok (s', new) -> made h K st s' xs (new ++ cs)
| made_merge st s xs cs st2 o ys ds rnd s' new : made h K st s xs cs -> made h K st2 o ys ds -> (r_n s + r_n o < 2 ^ 47)%N ->
    mrg_ rnd s o [] = Ok (s', new) -> made h K (after_merge st st2 ys) s' (ys ++ xs) (new ++ cs ++ ds)
| made_reset st s xs cs : made h K st s xs cs -> made h K Exact (rst_ s) [] []
| made_query st s xs cs s' : made h K st s xs cs -> queried sort s = Some s' -> made h K st s' xs cs.

(** The active part of a compactor's buffer: its end in high-rank-accuracy mode, its start otherwise. *)
Definition active (c : compactor (C := C) (F := F)) : list C :=
  if c_hra c then skipn (length (c_items c) - c_count c) (c_items c) else firstn (c_count c) (c_items c).
(** Every second item of a list, starting with the first or the second. *)
Fixpoint every_second (odd : bool) (l : list C) : list C :=
  match l with a :: b :: t => (if odd then b else a) :: every_second odd t | _ => [] end.

(** ** The invariant *)
Definition seen (st : status) (xs : list C) : list C := match st with Exact => xs | _ => zero :: xs end.
Definition ext (st : status) (s : sk) (xs : list C) : Prop :=
  (match st with Fresh => xs = [] | Tainted => xs <> [] | Exact => True end) /\
  (seen st xs = [] -> r_min s = None /\ r_max s = None) /\
  (seen st xs <> [] -> exists mn mx, r_min s = Some mn /\ r_max s = Some mx /\ is_min mn (seen st xs) /\ is_max mx (seen st xs)).

Lemma min_one x : is_min x [x].
Proof. split; cbn [In]; auto. intros y [<-|[]]. apply (st_irrefl _ _ order). Qed.
Lemma max_one x : is_max x [x].
Proof. split; cbn [In]; auto. intros y [<-|[]]. apply (st_irrefl _ _ order). Qed.
Lemma min_ext v A B : (forall y, In y A <-> In y B) -> is_min v A -> is_min v B.
Proof. intros H [H1 H2]. split; [apply H; auto|]. intros y Hy. apply H2, H; auto. Qed.
Lemma max_ext v A B : (forall y, In y A <-> In y B) -> is_max v A -> is_max v B.
Proof. intros H [H1 H2]. split; [apply H; auto|]. intros y Hy. apply H2, H; auto. Qed.
Lemma min_join v w A B : is_min v A -> is_min w B -> is_min (if less w v then w else v) (B ++ A).
Proof. apply (fun H G => KllProps.is_min_app less ceq order w v B A G H). Qed.
Lemma max_join v w A B : is_max v A -> is_max w B -> is_max (if less v w then w else v) (B ++ A).
Proof. apply (fun H G => KllProps.is_max_app less ceq order w v B A G H). Qed.

Lemma empty_iff h K s xs cs Ls : Good less f_half h K s xs cs Ls -> is_empty s = match xs with [] => true | _ => false end.
Proof. intros G. unfold is_empty. rewrite (g_n _ _ _ _ _ _ _ _ G). destruct xs; auto. Qed.

Lemma ext_update h K st s xs cs Ls x s' : Good less f_half h K s xs cs Ls -> ext st s xs -> r_min s' = new_min less x s -> r_max s' = new_max less x s ->
  ext (after_update st) s' (x :: xs).
Proof.
  intros G (E1 & E2 & E3) H1 H2. unfold new_min, new_max in *. rewrite (empty_iff _ _ _ _ _ _ G) in *.
  split; [destruct st; cbn [after_update]; auto; discriminate|]. split; [destruct st; cbn [after_update seen]; discriminate|]. intros _.
  destruct st; cbn [after_update seen] in *.
  - subst xs. exists x, x. repeat split; auto; try apply min_one; try apply max_one; left; auto.
  - destruct xs as [|y xs].
    + exists x, x. split; auto. split; auto. split; [apply min_one|apply max_one].
    + destruct (E3 ltac:(discriminate)) as (mn & mx & F1 & F2 & F3 & F4). rewrite F1 in H1. rewrite F2 in H2. cbn [f_min f_max] in *.
      eexists _, _. split; [exact H1|]. split; [exact H2|]. split.
      * apply (min_ext _ ((y :: xs) ++ [x])); [intros z; rewrite in_app_iff; cbn [In]; tauto|]. apply min_join; [apply min_one|auto].
      * apply (max_ext _ ((y :: xs) ++ [x])); [intros z; rewrite in_app_iff; cbn [In]; tauto|]. apply max_join; [apply max_one|auto].
  - destruct xs as [|y xs]; [congruence|]. destruct (E3 ltac:(discriminate)) as (mn & mx & F1 & F2 & F3 & F4). rewrite F1 in H1. rewrite F2 in H2. cbn [f_min f_max] in *.
    eexists _, _. split; [exact H1|]. split; [exact H2|]. split.
    + apply (min_ext _ ((zero :: y :: xs) ++ [x])); [intros z; rewrite in_app_iff; cbn [In]; tauto|]. apply min_join; [apply min_one|auto].
    + apply (max_ext _ ((zero :: y :: xs) ++ [x])); [intros z; rewrite in_app_iff; cbn [In]; tauto|]. apply max_join; [apply max_one|auto].
Qed.
Lemma ext_merge st s xs st2 o ys s' : ext st s xs -> ext st2 o ys -> ys <> [] -> r_min s' = merged_min less s o -> r_max s' = merged_max less s o ->
  ext (after_merge st st2 ys) s' (ys ++ xs).
Proof.
  intros (E1 & E2 & E3) (D1 & D2 & D3) Hy H1 H2. unfold merged_min, merged_max in *.
  assert (Hs : seen st2 ys <> []) by (destruct st2; cbn [seen]; auto; discriminate).
  destruct (D3 Hs) as (w & w' & W1 & W2 & W3 & W4). clear D2 D3.
  assert (N2 : st2 <> Fresh) by (intros ->; congruence).
  assert (HN : ys ++ xs <> []) by (destruct ys; [congruence|discriminate]).
  replace (after_merge st st2 ys) with (match st, st2 with Exact, Exact => Exact | _, _ => Tainted end) by (destruct ys; [congruence|reflexivity]).
  split; [destruct st, st2; auto|]. split; [destruct st, st2; cbn [seen]; try discriminate; congruence|]. intros _.
  destruct (seen st xs) as [|a t] eqn:ES.
  - destruct (E2 eq_refl) as [M1 M2]. rewrite M1 in H1. rewrite M2 in H2. cbn [orb] in *. exists w, w'. split; [congruence|]. split; [congruence|].
    destruct st; cbn [seen] in ES; try discriminate. subst xs. rewrite app_nil_r. destruct st2; try congruence; cbn [seen] in *; auto.
  - destruct (E3 ltac:(discriminate)) as (v & v' & V1 & V2 & V3 & V4). rewrite V1, W1 in H1. rewrite V2, W2 in H2. cbn [orb f_less] in *.
    exists (if less w v then w else v), (if less v' w' then w' else v'). split; [destruct (less w v); auto|]. split; [destruct (less v' w'); auto|].
    rewrite <- ES in *. pose proof (min_join _ _ _ _ V3 W3) as J1. pose proof (max_join _ _ _ _ V4 W4) as J2.
    assert (HI : forall y, In y (seen st2 ys ++ seen st xs) <-> In y (seen (match st, st2 with Exact, Exact => Exact | _, _ => Tainted end) (ys ++ xs))).
    { intros y. destruct st, st2; try congruence; cbn [seen app In]; rewrite ?in_app_iff; cbn [In]; tauto. }
    split; [eapply min_ext; eauto|eapply max_ext; eauto].
Qed.

Lemma new_valid k h s : new_ k h = Ok s -> valid_k k.
Proof.
  unfold req_new, valid_k. destruct (Nat.odd k); [discriminate|]. destruct (Nat.ltb_spec k 4); [discriminate|]. destruct (Nat.ltb_spec 1024 k); [discriminate|]. intros _. split; auto. 
Qed.
Lemma n_len h K s xs cs Ls : Good less f_half h K s xs cs Ls -> r_n s = N.of_nat (length xs).
Proof. apply g_n. Qed.

Lemma made_good h K st s xs cs : made h K st s xs cs -> exists Ls, Good less f_half h K s xs cs Ls /\ ext st s xs /\ (xs = [] -> cs = []) /\ (r_n s < 2 ^ 47)%N.
Proof.
  induction 1 as [k s HN HK|st s xs cs rnd x s' new H (Ls & G & E & Z & B) Hn HU|st s xs cs rnd s' new H (Ls & G & E & Z & B) HU|
    st s xs cs st2 o ys ds rnd s' new H (Ls & G & E & Z & B) Ho (Os & Go & Eo & Zo & Bo) Hn HM|st s xs cs H (Ls & G & E & Z & B)|st s xs cs s' H (Ls & G & E & Z & B) HQ].
  - destruct (new_good less zero (fun _ => false) f_of f_half f_of_ok k h K (new_valid _ _ _ HN) HK) as (s2 & E & G & M1 & M2 & _). rewrite HN in E. injection E as <-.
    exists [[]]. split; auto. split; [|split; [auto|rewrite (n_len _ _ _ _ _ _ G); cbn; lia]]. split; auto. split; [discriminate|]. intros _. exists zero, zero. cbn [seen]. repeat split; auto; try apply min_one; try apply max_one; left; auto.
  - destruct (update_good less ceq zero sort rnd f_of f_shrink f_half order sort_perm sort_sorted f_of_ok f_shrink_ok h K s [] xs cs Ls x G) as (s2 & l & Ls' & HU2 & G' & M1 & M2 & _).
    { rewrite (n_len _ _ _ _ _ _ G) in Hn. lia. }
    rewrite HU, app_nil_r in HU2. injection HU2 as <- <-. exists Ls'. split; auto. split; [eapply ext_update; eauto|]. split; [discriminate|]. rewrite (n_len _ _ _ _ _ _ G'). rewrite (n_len _ _ _ _ _ _ G) in Hn. cbn [length]. lia.
  - cbn [req_update] in HU. injection HU as <- <-. exists Ls. auto.
  - destruct ys as [|y ys].
    + unfold req_merge in HM. rewrite (empty_iff _ _ _ _ _ _ Go) in HM. injection HM as <- <-. rewrite (Zo eq_refl), app_nil_r. cbn [after_merge app]. exists Ls. auto.
    + destruct (merge_good less ceq zero sort rnd f_of f_shrink f_half order sort_perm sort_sorted f_of_ok f_shrink_ok h K s o [] xs (y :: ys) cs ds Ls Os G Go ltac:(discriminate)) as (s2 & l & Ls' & HU2 & G' & M1 & M2 & _).
      { rewrite (n_len _ _ _ _ _ _ G), (n_len _ _ _ _ _ _ Go) in Hn. lia. }
      rewrite HM, app_nil_r in HU2. injection HU2 as <- <-. exists Ls'. split; auto. split; [eapply ext_merge; eauto; discriminate|]. split; [discriminate|]. rewrite (n_len _ _ _ _ _ _ G'). rewrite (n_len _ _ _ _ _ _ G), (n_len _ _ _ _ _ _ Go) in Hn. rewrite app_length. lia.
  - destruct (reset_good less zero (fun _ => false) f_of f_half f_of_ok s h K xs cs Ls G) as (G' & M1 & M2 & _). exists [[]]. split; auto.
    split; [split; auto; split; [auto|cbn [seen]; congruence]|]. split; auto. rewrite (n_len _ _ _ _ _ _ G'). cbn. lia.
  - destruct (queried_good less sort (fun _ => false) f_of f_half sort_perm sort_sorted f_of_ok s h K xs cs Ls G) as (s2 & Ls' & HQ2 & G' & M1 & M2 & _).
    rewrite HQ in HQ2. injection HQ2 as <-. exists Ls'. split; auto. split; [unfold ext; rewrite M1, M2; auto|]. split; auto. rewrite (n_len _ _ _ _ _ _ G'), <- (n_len _ _ _ _ _ _ G). auto.
Qed.

Notation Gd := (Good less f_half).
Lemma wl_length (Ls : list (list C)) : forall w, length (wl w Ls) = csum Ls.
Proof. induction Ls as [|L Ls IH]; intros w; cbn [wl]; [rewrite csum_nil; auto|]. rewrite app_length, map_length, csum_cons, IH. auto. Qed.
Lemma wl_fst (Ls : list (list C)) : forall w, map fst (wl w Ls) = concat Ls.
Proof. induction Ls as [|L Ls IH]; intros w; cbn [wl concat]; auto. rewrite map_app, IH, map_map. cbn [fst]. rewrite map_id. auto. Qed.
Lemma wl_levels (Ls : list (list C)) : forall j, Forall (fun a : C * N => exists level, level < j + length Ls /\ snd a = (2 ^ N.of_nat level)%N) (wl (2 ^ N.of_nat j) Ls).
Proof.
  induction Ls as [|L X IH]; intros j; cbn [wl]; [constructor|]. apply Forall_app. split.
  - apply Forall_map, Forall_forall. intros x _. exists j. cbn [snd length]. split; [lia|auto].
  - replace (2 ^ N.of_nat j * 2)%N with (2 ^ N.of_nat (S j))%N by (rewrite Nat2N.inj_succ, N.pow_succ_r'; lia).
    eapply Forall_impl; [|apply (IH (S j))]. cbn [length]. intros a (lv & H & ->). exists lv. split; [lia|auto].
Qed.
Lemma wl_sum p (Ls : list (list C)) : Z.of_N (wsum p (wl 1 Ls)) = R p Ls.
Proof. rewrite (wsum_wl less zero sort sort_perm sort_sorted). lia. Qed.

Lemma all_ok h K s xs cs Ls : Gd h K s xs cs Ls -> all s = Some (wl 1 Ls).
Proof.
  intros G. unfold all. rewrite (g_ret _ _ _ _ _ _ _ _ G). destruct xs as [|x0 xs].
  - rewrite (g_one _ _ _ _ _ _ _ _ G eq_refl). reflexivity.
  - destruct (good_cons less sort (fun _ => false) f_of f_half sort_perm sort_sorted f_of_ok _ _ _ _ _ _ G) as (c & cs' & L & t & EC & EL). subst Ls. rewrite EC.
    pose proof (g_ne _ _ _ _ _ _ _ _ G ltac:(discriminate)) as HN. inversion HN as [|? ? N1 N2]; subst. destruct L as [|x L]; [contradiction|]. rewrite csum_cons. cbn [length].
    destruct (Z.eqb_spec (Z.of_nat (S (length L) + csum t)) 0); [lia|].
    pose proof (g_lv _ _ _ _ _ _ _ _ G) as HL. rewrite <- EC. rewrite (retained_ok less sort (fun _ => false) f_of f_half sort_perm sort_sorted f_of_ok _ _ _ _ _ HL).
    rewrite Nat2Z.id. rewrite EC in HL. destruct HL as [HL HT].
    pose proof (all_loop_ok less sort f_half sort_perm sort_sorted h K (csum ((x :: L) :: t) + 1) c cs' [] x L t 1 1 (l_rep _ _ _ _ _ _ _ HL) HT N2) as HA.
    cbn [length] in HA. rewrite HA by (rewrite csum_cons; cbn [length]; lia). cbn [wl]. auto.
Qed.

Lemma sub_in (A B : list C) y : sub_multiset A B -> In y A -> In y B.
Proof. intros [X HX] H. eapply Permutation_in; [exact HX|]. apply in_or_app. auto. Qed.
Lemma last_acc (X : list (C * N)) : X <> [] -> (do last <- sub (length (accumulate 0 (map snd X))) 1; nth_error (accumulate 0 (map snd X)) last) = Some (wsum (fun _ => true) X).
Proof.
  intros HX. destruct (snoc_cases X) as [->|(r & [q w] & ->)]; [congruence|]. rewrite map_app, accumulate_app. cbn [map snd accumulate]. rewrite sub_ok by (rewrite app_length; cbn [length]; lia). cbn [bindo]. rewrite snoc_nth. f_equal. rewrite wsum_appw, wsum_cons, wsum_nilw. cbn [snd]. rewrite (wsum_nsum r). lia.
Qed.

Lemma view_ok h K st s xs cs Ls : Gd h K s xs cs Ls -> ext st s xs -> xs <> [] ->
  exists res mn mx, r_min s = Some mn /\ r_max s = Some mx /\ is_min mn (seen st xs) /\ is_max mx (seen st xs) /\
    view_ s = Ok (mkNView (map fst (add_max ceq mx (add_min ceq mn res))) (accumulate 0 (map snd (add_max ceq mx (add_min ceq mn res)))) (r_n s)) /\
    Permutation (wl 1 Ls) res /\ sortedw less res /\ res <> [] /\ Forall (fun a => (1 <= snd a)%N) res /\ inner less mn mx res /\ lew less mn mx /\
    sortedw less (add_max ceq mx (add_min ceq mn res)).
Proof.
  intros G (E1 & E2 & E3) Hx. assert (HS : seen st xs <> []) by (destruct st; cbn [seen]; auto; discriminate).
  destruct (E3 HS) as (mn & mx & M1 & M2 & M3 & M4).
  destruct (view_levels_ok less ceq zero sort f_half order sort_perm sort_sorted h K (r_comps s) 0 Ls [] (repeat (zero, 0%N) (csum Ls)) (g_lv _ _ _ _ _ _ _ _ G)) as (res & HV & HP & HSo).
  { rewrite repeat_length. auto. } { constructor. }
  cbn [app length] in *. change (2 ^ N.of_nat 0)%N with 1%N in HP. exists res, mn, mx. do 4 (split; auto).
  assert (HT : wsum (fun _ => true) res = r_n s).
  { rewrite <- (wsum_perm zero (fun _ => true) _ _ HP). apply N2Z.inj. rewrite wl_sum, (d_total _ _ _ _ _ _ (g_D _ _ _ _ _ _ _ _ G)), (g_n _ _ _ _ _ _ _ _ G). lia. }
  assert (HN : res <> []). { intros ->. rewrite wsum_nilw, (g_n _ _ _ _ _ _ _ _ G) in HT. destruct xs; [congruence|discriminate]. }
  assert (HW : Forall (fun a => (1 <= snd a)%N) res).
  { eapply Permutation_Forall; [exact HP|]. change 1%N with (2 ^ N.of_nat 0)%N. eapply Forall_impl; [|apply (wl_levels Ls 0)]. cbn beta. intros a (l & _ & ->). pose proof (N.pow_nonzero 2 (N.of_nat l) ltac:(lia)). change (2 ^ N.of_nat 0)%N with 1%N. lia. }
  assert (HIn : forall a, In a res -> In (fst a) xs).
  { intros a Ha. apply (sub_in (concat Ls)); [apply (d_sub _ _ _ _ _ _ (g_D _ _ _ _ _ _ _ _ G))|]. rewrite <- (wl_fst Ls 1). apply in_map. eapply Permutation_in; [apply Permutation_sym; exact HP|exact Ha]. }
  assert (HIs : forall y, In y xs -> In y (seen st xs)) by (intros y Hy; destruct st; cbn [seen]; auto; right; auto).
  assert (HI : inner less mn mx res).
  { apply Forall_forall. intros a Ha. split; [apply (proj2 M3)|apply (proj2 M4)]; auto. }
  assert (Hmm : lew less mn mx) by (apply (proj2 M3), (proj1 M4)).
  assert (HAS : sortedw less (add_max ceq mx (add_min ceq mn res))) by (apply (adjusted_sorted less); auto).
  split; [|do 6 (split; auto)].
  unfold sorted_view. rewrite (empty_iff _ _ _ _ _ _ G). destruct xs as [|x0 xs]; [congruence|].
  rewrite (g_hra _ _ _ _ _ _ _ _ G), (g_ret _ _ _ _ _ _ _ _ G), Nat2Z.id, HV. cbn [of_opt bindr].
  rewrite (last_acc res HN). cbn [of_opt bindr]. rewrite HT, N.eqb_refl. cbn [negb]. rewrite M1, M2. cbn [of_opt bindr].
  rewrite (include_ok less ceq zero sort sort_perm sort_sorted res mn mx HN HW); [reflexivity|].
  intros q w -> Q1 Q2. destruct (N.leb_spec 2 w) as [|Hw]; auto. exfalso.
  assert (w = 1)%N as -> by (inversion HW; cbn [snd] in *; lia).
  unfold wsum in HT. cbn [fold_right fst snd] in HT. rewrite (g_n _ _ _ _ _ _ _ _ G) in HT. destruct xs; [|cbn [length] in HT; lia].
  destruct (HIn (q, 1%N) (or_introl eq_refl)) as [Q|[]]. cbn [fst] in Q. subst x0.
  assert (HZ : forall y, In y (seen st [q]) -> y = q \/ y = zero) by (intros y; destruct st; cbn [seen In]; intuition).
  destruct (HZ _ (proj1 M3)) as [-> | ->]; [rewrite (proj2 (ceq_true less ceq order q q) eq_refl) in Q1; discriminate|].
  destruct (HZ _ (proj1 M4)) as [-> | ->]; [rewrite (proj2 (ceq_true less ceq order q q) eq_refl) in Q2; discriminate|].
  inversion HI as [|? ? [I1 I2] _]; subst. cbn [fst] in *. unfold lew in *.
  destruct (st_total _ _ order q zero) as [Q|[Q|Q]]; [congruence| |congruence]. apply (ceq_true less ceq order) in Q. congruence.
Qed.

Lemma view_rank_eq (X : list (C * N)) nn x (incl : bool) : sortedw less X -> X <> [] -> rank_ (mkNView (map fst X) (accumulate 0 (map snd X)) nn) x incl = Some (wsum (upto less x incl) X).
Proof. intros HS HN. rewrite accumulate_eq. exact (rank_ok less ceq order X nn x incl HS HN). Qed.
Lemma view_quantile_eq (X : list (C * N)) nn r (incl : bool) :
  view_quantile (mkNView (map fst X) (accumulate 0 (map snd X)) nn) r incl = get_quantile (mkView (map fst X) (convert_to_cumulative 0 (map snd X)) nn) r incl.
Proof. rewrite accumulate_eq. unfold view_quantile, get_quantile. cbn [v_q v_cw quantiles cum_weights]. rewrite cum_length, !map_length. auto. Qed.
Lemma adjusted_ne mn mx (res : list (C * N)) : res <> [] -> add_max ceq mx (add_min ceq mn res) <> [].
Proof. intros H E. pose proof (proj2 (adjusted_in less ceq order mn mx res mn H) (or_introl eq_refl)) as HI. rewrite E in HI. destruct HI. Qed.

(** ** C35: nothing fails or panics *)

(** NewSketch accepts exactly the even k from 4 to 1024. *)
Theorem req_new_ok : forall k h, (exists s, new_ k h = Ok s) <-> (Nat.even k = true /\ 4 <= k <= 1024).
Proof.
  intros k h. unfold req_new. rewrite <- Nat.negb_odd. destruct (Nat.odd k); cbn [negb orb].
  - split; [intros (s & H); discriminate|intros [H _]; discriminate].
  - destruct (Nat.ltb_spec k 4); cbn [orb]; [split; [intros (s & HH); discriminate|intros [_ HH]; lia]|].
    destruct (Nat.ltb_spec 1024 k); [split; [intros (s & HH); discriminate|intros [_ HH]; lia]|]. split; [auto|intros _; eauto].
Qed.
Theorem req_never_fails : forall h K st s xs cs, made h K st s xs cs ->
  (forall rnd x, (r_n s + 1 < 2 ^ 47)%N -> exists s' new, upd_ rnd s [] x = Ok (s', new)) /\
  (forall rnd st2 o ys ds, made h K st2 o ys ds -> (r_n s + r_n o < 2 ^ 47)%N -> exists s' new, mrg_ rnd s o [] = Ok (s', new)) /\
  (exists s', queried sort s = Some s') /\ (exists l, all s = Some l) /\
  (xs <> [] -> exists v, view_ s = Ok v /\ (forall x inclusive, exists r, rank_ v x inclusive = Some r) /\ (forall r inclusive, exists q, view_quantile v r inclusive = Some q)).
Proof.
  intros h K st s xs cs H. destruct (made_good _ _ _ _ _ _ H) as (Ls & G & E & Z & B). split; [|split; [|split; [|split]]].
  - intros rnd [x|] Hn; [|cbn [req_update]; eauto].
    destruct (update_good less ceq zero sort rnd f_of f_shrink f_half order sort_perm sort_sorted f_of_ok f_shrink_ok h K s [] xs cs Ls x G) as (s2 & l & Ls' & HU2 & _).
    { rewrite (n_len _ _ _ _ _ _ G) in Hn. lia. } eauto.
  - intros rnd st2 o ys ds Ho Hn. destruct (made_good _ _ _ _ _ _ Ho) as (Os & Go & _). destruct ys as [|y ys].
    + unfold req_merge. rewrite (empty_iff _ _ _ _ _ _ Go). eauto.
    + destruct (merge_good less ceq zero sort rnd f_of f_shrink f_half order sort_perm sort_sorted f_of_ok f_shrink_ok h K s o [] xs (y :: ys) cs ds Ls Os G Go ltac:(discriminate)) as (s2 & l & Ls' & HU2 & _).
      { rewrite (n_len _ _ _ _ _ _ G), (n_len _ _ _ _ _ _ Go) in Hn. lia. } eauto.
  - destruct (queried_good less sort (fun _ => false) f_of f_half sort_perm sort_sorted f_of_ok s h K xs cs Ls G) as (s2 & Ls' & HQ2 & _). eauto.
  - rewrite (all_ok _ _ _ _ _ _ G). eauto.
  - intros Hx. destruct (view_ok _ _ _ _ _ _ _ G E Hx) as (res & mn & mx & _ & _ & _ & _ & HV & HP & HS & HN & HW & HI & Hmm & HAS). pose proof (adjusted_ne mn mx res HN) as HAN.
    eexists. split; [exact HV|]. split.
    + intros x incl. rewrite view_rank_eq by auto. eauto.
    + intros r incl. rewrite view_quantile_eq. destruct (quantile_ok less ceq zero order _ (r_n s) r incl HAS HAN) as (q & -> & _). eauto.
Qed.
(** A sketch of the other accuracy mode is refused, unless it is empty. *)
Theorem req_merge_mode : forall h K st s xs cs st2 o ys ds rnd, made h K st s xs cs -> made (negb h) K st2 o ys ds -> ys <> [] -> mrg_ rnd s o [] = Err.
Proof.
  intros h K st s xs cs st2 o ys ds rnd H Ho Hy. destruct (made_good _ _ _ _ _ _ H) as (Ls & G & _). destruct (made_good _ _ _ _ _ _ Ho) as (Os & Go & _).
  unfold req_merge. rewrite (empty_iff _ _ _ _ _ _ Go), (g_hra _ _ _ _ _ _ _ _ G), (g_hra _ _ _ _ _ _ _ _ Go). destruct ys; [congruence|]. destruct h; auto.
Qed.

(** ** C35: the weights of the retained items add up to N; they are stream items, each retained at most as often as presented *)
Theorem req_weight_conserved : forall h K st s xs cs, made h K st s xs cs -> exists l, all s = Some l /\
  r_n s = N.of_nat (length xs) /\ weight (fun _ => true) l = r_n s /\ r_ret s = Z.of_nat (length l) /\ (r_ret s < r_nom s)%Z /\
  Forall (fun a => exists level, level < length (r_comps s) /\ snd a = (2 ^ N.of_nat level)%N) l /\
  exists discarded, Permutation (map fst l ++ discarded) xs.
Proof.
  intros h K st s xs cs H. destruct (made_good _ _ _ _ _ _ H) as (Ls & G & _). exists (wl 1 Ls). split; [eapply all_ok; eauto|]. split; [apply (g_n _ _ _ _ _ _ _ _ G)|].
  split; [|split; [|split; [|split]]].
  - change (weight (fun _ => true) (wl 1 Ls)) with (wsum (fun _ => true) (wl 1 Ls)). apply N2Z.inj. rewrite wl_sum, (d_total _ _ _ _ _ _ (g_D _ _ _ _ _ _ _ _ G)), (g_n _ _ _ _ _ _ _ _ G). lia.
  - rewrite wl_length. apply (g_ret _ _ _ _ _ _ _ _ G).
  - apply (g_lt _ _ _ _ _ _ _ _ G).
  - rewrite (lvs_length less (fun _ => false) f_half h K _ _ _ (g_lv _ _ _ _ _ _ _ _ G)). exact (wl_levels Ls 0).
  - rewrite wl_fst. apply (d_sub _ _ _ _ _ _ (g_D _ _ _ _ _ _ _ _ G)).
Qed.

(** ** C35: the compactors *)
Lemma active_ok c L : rep c L -> active c = L.
Proof.
  intros [H (X & HX)]. unfold active. rewrite H, HX. destruct (c_hra c).
  - rewrite app_length. replace (length X + length L - length L) with (length X) by lia. rewrite skipn_app, skipn_all, Nat.sub_diag. auto.
  - rewrite firstn_app, firstn_all, Nat.sub_diag. cbn [firstn]. rewrite app_nil_r. auto.
Qed.
Lemma lvs_nth h K : forall cs i Ls j c, lvs less f_half h K i cs Ls -> nth_error cs j = Some c -> exists L, nth_error Ls j = Some L /\ lv less f_half h K (i + j) c L.
Proof.
  induction cs as [|c0 cs IH]; intros i [|L Ls] j c H Hj; cbn [lvs] in H; try tauto; [destruct j; discriminate|]. destruct H as [H1 H2].
  destruct j as [|j]; cbn [nth_error] in *; [injection Hj as <-; exists L; rewrite Nat.add_0_r; auto|]. destruct (IH _ _ _ _ H2 Hj) as (L' & E & HL). exists L'. replace (i + S j) with (S i + j) by lia. auto.
Qed.
Lemma csum_nth (Ls : list (list C)) : forall j L, nth_error Ls j = Some L -> length L <= csum Ls.
Proof. induction Ls as [|A Ls IH]; intros [|j] L H; cbn [nth_error] in H; try discriminate; rewrite csum_cons; [injection H as <-; lia|]. specialize (IH _ _ H). lia. Qed.
Lemma states_nth (cs : list (compactor (C := C) (F := F))) : forall j c, nth_error cs j = Some c -> (c_state c <= states cs)%N.
Proof. induction cs as [|A cs IH]; intros [|j] c H; cbn [nth_error] in H; try discriminate; cbn [states fold_right]; fold (states cs); [injection H as <-; lia|]. specialize (IH _ _ H). lia. Qed.

(** Level i holds items of weight 2^i, in the active part of its buffer; a level flagged as sorted is; all but the lowest are
    flagged; the section size is even, between 4 and 1024, and a full compactor protects at least 3K items. *)
Theorem req_compactors : forall h K st s xs cs i c, made h K st s xs cs -> nth_error (r_comps s) i = Some c ->
  c_lgw c = i /\ c_hra c = h /\ c_count c <= length (c_items c) /\ (xs <> [] -> 0 < c_count c) /\
  (c_sorted c = true -> StronglySorted (fun x y => less y x = false) (active c)) /\ (0 < i -> c_sorted c = true) /\
  Nat.even (c_ssize c) = true /\ 4 <= c_ssize c <= 1024 /\ In (c_nsec c) [3; 6; 12; 24; 48] /\ 6 * K <= nom_cap c.
Proof.
  intros h K st s xs cs i c H Hi. destruct (made_good _ _ _ _ _ _ H) as (Ls & G & _). destruct (lvs_nth _ _ _ _ _ _ _ (g_lv _ _ _ _ _ _ _ _ G) Hi) as (L & HL & V). cbn [Nat.add] in V.
  destruct V as [V1 V2 V3 V4 V5 V6 V7]. split; auto. split; auto. split.
  { destruct V1 as [V0 (X & HX)]. rewrite HX, V0. destruct (c_hra c); rewrite app_length; lia. }
  split. { intros Hx. pose proof (g_ne _ _ _ _ _ _ _ _ G Hx) as HN. rewrite Forall_forall in HN. pose proof (HN L (nth_error_In _ _ HL)) as HE. rewrite (proj1 V1). destruct L; [contradiction|cbn [length]; lia]. }
  split; [rewrite (active_ok c L V1); exact V6|]. split; [intros; apply V7; lia|]. destruct V2 as [W1 W2 W3]. split; [rewrite W2; apply Nat.even_spec; eexists; reflexivity|]. split; [auto|]. split; [auto|]. unfold nom_cap. lia.
Qed.

(** Compacting a full level: its sorted items are split in a range of even length, at least 4, at the inaccurate end, and a rest
    that keeps at least half of the nominal capacity, and at least 3K items; every second item of the range, starting at random,
    goes to the next level, in order; the rest stays. *)
Theorem req_compaction : forall h K st s xs cs i c next bit, made h K st s xs cs -> nth_error (r_comps s) i = Some c -> nth_error (r_comps s) (i + 1) = Some next ->
  nom_cap c <= c_count c ->
  exists c' next' dret dnom range rest odd,
    compact less zero sort f_shrink f_half c next bit = Ok (c', next', dret, dnom) /\
    Permutation (active c) (range ++ rest) /\ StronglySorted (fun x y => less y x = false) (if h then range ++ rest else rest ++ range) /\
    Nat.even (length range) = true /\ 4 <= length range /\ nom_cap c / 2 <= length rest /\ 3 * K <= length rest /\ length rest < nom_cap c /\
    active c' = rest /\ c_sorted c' = true /\
    Permutation (active next') (every_second odd range ++ active next) /\ StronglySorted (fun x y => less y x = false) (active next') /\ c_sorted next' = true /\
    (dret + Z.of_nat (c_count c + c_count next) = Z.of_nat (c_count c' + c_count next'))%Z /\ (dnom = Z.of_nat (nom_cap c') - Z.of_nat (nom_cap c))%Z.
Proof.
  intros h K st s xs cs i c next bit H Hi Hi1 Hc. destruct (made_good _ _ _ _ _ _ H) as (Ls & G & _ & _ & B).
  destruct (lvs_nth _ _ _ _ _ _ _ (g_lv _ _ _ _ _ _ _ _ G) Hi) as (L & HL & V). destruct (lvs_nth _ _ _ _ _ _ _ (g_lv _ _ _ _ _ _ _ _ G) Hi1) as (M & HM & W). cbn [Nat.add] in V, W.
  pose proof (l_rep _ _ _ _ _ _ _ V) as RV. pose proof (l_rep _ _ _ _ _ _ _ W) as RW. pose proof (l_flag _ _ _ _ _ _ _ W ltac:(lia)) as FW.
  pose proof (g_st _ _ _ _ _ _ _ _ G) as GS. pose proof (states_nth _ _ _ Hi) as S1. pose proof (csum_nth _ _ _ HL) as S2.
  pose proof (good_csum less sort (fun _ => false) f_of f_half sort_perm sort_sorted f_of_ok _ _ _ _ _ _ G) as S3. rewrite (g_n _ _ _ _ _ _ _ _ G) in B, GS. specialize (S3 ltac:(lia)).
  assert (HLn : 24 <= nom_cap c). { pose proof (conf_pos _ _ (l_conf _ _ _ _ _ _ _ V)). pose proof (cf_range _ _ (l_conf _ _ _ _ _ _ _ V)). unfold nom_cap. nia. }
  destruct (compact_ok less ceq zero sort f_of f_shrink f_half order sort_perm sort_sorted f_of_ok f_shrink_ok c next L M bit RV (l_conf _ _ _ _ _ _ _ V) (l_sorted _ _ _ _ _ _ _ V) RW FW (l_sorted _ _ _ _ _ _ _ W FW))
    as (c' & itn & lo & keep & S & hh & b & M' & EC & P1 & P2 & P3 & P4 & P5 & P6 & P7 & P8 & P9 & P10 & P11 & P12 & P13 & P14 & P15 & P16).
  { rewrite (proj1 RV) in Hc. auto. } { change (2 ^ 31)%Z with 2147483648%Z. lia. } { rewrite (proj1 RV) in Hc. lia. }
  pose proof (l_keep _ _ _ _ _ _ _ V) as LK. pose proof (l_hra _ _ _ _ _ _ _ V) as LH.
  eexists c', _, _, _, lo, keep, b. split; [exact EC|]. rewrite (active_ok _ _ RV), (active_ok _ _ P7), (active_ok _ _ P14), (active_ok _ _ RW).
  split; [rewrite P1, P3; destruct (c_hra c); [auto|apply Permutation_app_comm]|]. split; [rewrite LH in P3; rewrite <- P3; exact P2|].
  split; [rewrite P4; apply Nat.even_spec; eexists; reflexivity|]. split; [lia|]. split.
  { replace (nom_cap c) with (c_nsec c * c_ssize c * 2) by (unfold nom_cap; lia). rewrite Nat.div_mul by lia. lia. }
  split; [lia|]. split; [lia|]. split; auto. split; auto. split; [apply Permutation_sym; exact P15|]. split; [exact P16|]. split; [reflexivity|]. split; [|reflexivity].
  rewrite (proj1 RV), (proj1 RW), (proj1 P7). cbn [set_items c_count].
  assert (length L = length keep + 2 * hh) by (rewrite (Permutation_length P1), P3; destruct (c_hra c); rewrite app_length; lia). lia.
Qed.

(** ** C56: minimum and maximum *)
Theorem req_min_max_exact : forall h K st s xs cs, made h K st s xs cs ->
  (xs = [] -> min_item s = Err /\ max_item s = Err) /\
  (xs <> [] -> st <> Tainted -> exists mn mx, min_item s = Ok (Some mn) /\ is_min mn xs /\ max_item s = Ok (Some mx) /\ is_max mx xs).
Proof.
  intros h K st s xs cs H. destruct (made_good _ _ _ _ _ _ H) as (Ls & G & (E1 & E2 & E3) & _). unfold min_item, max_item. rewrite (empty_iff _ _ _ _ _ _ G). split; [intros ->; auto|].
  intros Hx Hst. destruct xs as [|x xs]; [congruence|]. destruct st; try congruence. cbn [seen] in *. destruct (E3 Hx) as (mn & mx & -> & -> & M3 & M4). eauto 10.
Qed.
(** What is returned after a merge into a sketch straight from NewSketch: the extremes of the stream and 0. *)
Theorem req_min_max_tainted : forall h K s xs cs, made h K Tainted s xs cs ->
  exists mn mx, min_item s = Ok (Some mn) /\ is_min mn (zero :: xs) /\ max_item s = Ok (Some mx) /\ is_max mx (zero :: xs).
Proof.
  intros h K s xs cs H. destruct (made_good _ _ _ _ _ _ H) as (Ls & G & (E1 & E2 & E3) & _). unfold min_item, max_item. rewrite (empty_iff _ _ _ _ _ _ G).
  destruct xs as [|x xs]; [congruence|]. cbn [seen] in *. destruct (E3 ltac:(discriminate)) as (mn & mx & -> & -> & M3 & M4). eauto 10.
Qed.

(** ** C57: ranks *)

Lemma view_single h K st s xs cs Ls res mn : Gd h K s xs cs Ls -> ext st s xs -> xs <> [] -> (st <> Tainted \/ (2 <= r_n s)%N) -> is_min mn (seen st xs) -> Permutation (wl 1 Ls) res ->
  wsum (fun _ => true) res = r_n s /\ (wsum (fun _ => true) res = 1%N -> forall q w, In (q, w) res -> q = mn).
Proof.
  intros G E Hx Hst M3 HP.
  assert (HT : wsum (fun _ => true) res = r_n s).
  { rewrite <- (wsum_perm zero (fun _ => true) _ _ HP). apply N2Z.inj. rewrite wl_sum, (d_total _ _ _ _ _ _ (g_D _ _ _ _ _ _ _ _ G)), (g_n _ _ _ _ _ _ _ _ G). lia. }
  split; auto. intros H1 q w Hq. rewrite HT in H1. destruct Hst as [Hst|Hst]; [|lia]. rewrite (g_n _ _ _ _ _ _ _ _ G) in H1. destruct xs as [|x0 [|x1 xs]]; [congruence| |cbn [length] in H1; lia].
  assert (Hs : seen st [x0] = [x0]) by (destruct st; cbn [seen]; auto; [destruct E as [E _]; discriminate|congruence]). rewrite Hs in *.
  destruct M3 as [[M3|[]] _]. subst mn.
  assert (Hin : In q [x0]). { apply (sub_in (concat Ls)); [apply (d_sub _ _ _ _ _ _ (g_D _ _ _ _ _ _ _ _ G))|]. rewrite <- (wl_fst Ls 1). change q with (fst (q, w)). apply in_map. eapply Permutation_in; [apply Permutation_sym; exact HP|exact Hq]. }
  destruct Hin as [->|[]]. auto.
Qed.

(** The rank is the weight of the retained items counted, except that the minimum and maximum have weight 1 of their own: nothing
    is below the minimum, everything is up to the maximum, and in between at least one item is counted and one is not. *)
Theorem req_rank_is_weight : forall h K st s xs cs v l x inclusive mn mx, made h K st s xs cs -> (st <> Tainted \/ (2 <= r_n s)%N) -> view_ s = Ok v -> all s = Some l ->
  min_item s = Ok (Some mn) -> max_item s = Ok (Some mx) ->
  rank_ v x inclusive = Some (if below x inclusive mn then if below x inclusive mx then r_n s else N.min (N.max 1 (weight (below x inclusive) l)) (r_n s - 1) else 0%N).
Proof.
  intros h K st s xs cs v l x incl mn mx H Hst HV HL Hmn Hmx. destruct (made_good _ _ _ _ _ _ H) as (Ls & G & E & _).
  assert (Hx : xs <> []). { intros ->. unfold sorted_view in HV. rewrite (empty_iff _ _ _ _ _ _ G) in HV. discriminate. }
  destruct (view_ok _ _ _ _ _ _ _ G E Hx) as (res & mn' & mx' & M1 & M2 & M3 & M4 & HV' & HP & HS & HN & HW & HI & Hmm & HAS).
  unfold min_item, max_item in *. rewrite (empty_iff _ _ _ _ _ _ G) in *. destruct xs as [|x0 xs]; [congruence|].
  assert (mn' = mn) as -> by congruence. assert (mx' = mx) as -> by congruence. rewrite (all_ok _ _ _ _ _ _ G) in HL. injection HL as <-.
  rewrite HV in HV'. injection HV' as ->. rewrite view_rank_eq by (auto; apply adjusted_ne; auto). f_equal.
  destruct (view_single _ _ _ _ _ _ _ _ _ G E Hx Hst M3 HP) as [HT H1].
  destruct (rank_formula less ceq zero order (upto less x incl) mn mx res (upto_down less ceq order x incl) HS HN HW HI Hmm H1) as [HR _].
  rewrite HR, HT. unfold clamp. rewrite <- (wsum_perm zero (upto less x incl) _ _ HP). reflexivity.
Qed.

Lemma filter_length_le p (xs : list C) : length (filter p xs) <= length xs.
Proof. induction xs as [|x xs IH]; cbn [filter length]; auto. destruct (p x); cbn [length]; lia. Qed.
Lemma count_le p (xs : list C) : (0 <= cnt p xs <= Z.of_nat (length xs))%Z.
Proof. unfold cnt. pose proof (filter_length_le p xs). lia. Qed.
Lemma cnt_pos p (xs : list C) y : In y xs -> p y = true -> (1 <= cnt p xs)%Z.
Proof. intros H1 H2. assert (HF : In y (filter p xs)) by (apply filter_In; auto). unfold cnt. destruct (filter p xs); [destruct HF|cbn [length]; lia]. Qed.
Lemma cnt_miss p (xs : list C) y : In y xs -> p y = false -> (cnt p xs <= Z.of_nat (length xs) - 1)%Z.
Proof.
  intros H1 H2. unfold cnt. apply in_split in H1. destruct H1 as (A & B & ->). rewrite filter_app, !app_length. cbn [filter length]. rewrite H2.
  pose proof (filter_length_le p A). pose proof (filter_length_le p B). lia.
Qed.

(** The rank, and the true count it estimates, when the extremes are exact. *)
Lemma rank_between h K st s xs cs Ls v x (incl : bool) r : made h K st s xs cs -> Gd h K s xs cs Ls -> ext st s xs -> st <> Tainted -> view_ s = Ok v -> rank_ v x incl = Some r ->
  let c := count (below x incl) xs in let w := R (below x incl) Ls in
  ((w <= Z.of_N r <= c) \/ (c <= Z.of_N r <= w) \/ Z.of_N r = c)%Z.
Proof.
  intros H G E Hst HV HR. cbn zeta.
  assert (Hx : xs <> []). { intros ->. unfold sorted_view in HV. rewrite (empty_iff _ _ _ _ _ _ G) in HV. discriminate. }
  destruct (proj2 (req_min_max_exact _ _ _ _ _ _ H) Hx Hst) as (mn & mx & M1 & M2 & M3 & M4).
  rewrite (req_rank_is_weight _ _ _ _ _ _ _ _ x incl _ _ H (or_introl Hst) HV (all_ok _ _ _ _ _ _ G) M1 M3) in HR. injection HR as <-.
  pose proof (wl_sum (below x incl) Ls) as HW. change (wsum (below x incl) (wl 1 Ls)) with (weight (below x incl) (wl 1 Ls)) in HW.
  change (count (below x incl) xs) with (cnt (below x incl) xs). pose proof (count_le (below x incl) xs) as HC. rewrite (g_n _ _ _ _ _ _ _ _ G).
  assert (HD : down less (below x incl)) by apply (upto_down less ceq order).
  assert (HL : (1 <= Z.of_nat (length xs))%Z) by (destruct xs; [congruence|cbn [length]; lia]).
  pose proof (cnt_nonneg less sort sort_perm sort_sorted (below x incl) xs) as H0.
  destruct (below x incl mn) eqn:E1; [destruct (below x incl mx) eqn:E2|].
  - right. right. rewrite (cnt_full less sort sort_perm sort_sorted (below x incl) xs); [lia|]. intros y Hy. apply (HD y mx); auto. apply (proj2 M4 y Hy).
  - pose proof (cnt_pos _ _ _ (proj1 M2) E1). pose proof (cnt_miss _ _ _ (proj1 M4) E2). lia.
  - right. right. rewrite (proj2 (cnt_zero less sort sort_perm sort_sorted (below x incl) xs)); [lia|]. intros y Hy. destruct (below x incl y) eqn:Ey; auto.
    rewrite (HD mn y (proj2 M2 y Hy) Ey) in E1. discriminate.
Qed.

(** The error of a rank is at most the sum of the weights 2^level of the levels compacted. *)
Theorem req_rank_error : forall h K st s xs cs v x inclusive r, made h K st s xs cs -> st <> Tainted -> view_ s = Ok v -> rank_ v x inclusive = Some r ->
  (Z.abs (Z.of_N r - count (below x inclusive) xs) <= compaction_weight cs)%Z.
Proof.
  intros h K st s xs cs v x incl r H Hst HV HR. destruct (made_good _ _ _ _ _ _ H) as (Ls & G & E & _).
  pose proof (rank_between _ _ _ _ _ _ _ _ _ _ _ H G E Hst HV HR) as HB. cbn zeta in HB.
  pose proof (d_rank _ _ _ _ _ _ (g_D _ _ _ _ _ _ _ _ G) (below x incl) (upto_down less ceq order x incl)) as HD.
  change (compaction_weight cs) with (pow_sum cs). unfold count in *. unfold cnt in HD. lia.
Qed.

(** Within 3K items of the accurate end, ranks are exact: in high-rank-accuracy mode, when at most 3K items are not counted;
    otherwise, when at most 3K items are counted. *)
Theorem req_rank_exact_end : forall h K st s xs cs v x inclusive r, made h K st s xs cs -> st <> Tainted -> view_ s = Ok v -> rank_ v x inclusive = Some r ->
  ((if h then Z.of_nat (length xs) - count (below x inclusive) xs else count (below x inclusive) xs) <= Z.of_nat (3 * K))%Z ->
  Z.of_N r = count (below x inclusive) xs.
Proof.
  intros h K st s xs cs v x incl r H Hst HV HR HK. destruct (made_good _ _ _ _ _ _ H) as (Ls & G & E & _).
  pose proof (rank_between _ _ _ _ _ _ _ _ _ _ _ H G E Hst HV HR) as HB. cbn zeta in HB. set (p := below x incl) in *.
  assert (Hp : down less p) by apply (upto_down less ceq order). pose proof (g_D _ _ _ _ _ _ _ _ G) as GD.
  change (count p xs) with (cnt p xs) in *.
  assert (HE : forall q, sided less h q -> (cnt q xs <= Z.of_nat (3 * K))%Z -> R q Ls = cnt q xs).
  { intros q Hq Hc. destruct (d_exact _ _ _ _ _ _ GD q Hq Hc) as [D1 D2]. rewrite <- D1. destruct Ls as [|L t]; [reflexivity|]. cbn [hd tl R] in *.
    assert (HZ : R q t = 0%Z). { clear -D2. induction D2 as [|A t HA HT IH]; cbn [R]; auto. lia. } lia. }
  assert (HR' : R p Ls = cnt p xs); [|lia].
  destruct h.
  - pose proof (cnt_compl less sort sort_perm sort_sorted p xs) as C1. pose proof (R_compl less sort sort_perm sort_sorted p Ls) as C2. rewrite (d_total _ _ _ _ _ _ GD) in C2.
    assert (Hu : sided less true (fun x => negb (p x))). { cbn [sided]. intros a b Hab. rewrite !negb_involutive. apply Hp; auto. }
    specialize (HE _ Hu ltac:(lia)). lia.
  - apply HE; auto.
Qed.

(** With a single level, every item is retained with weight 1 and every rank is exact. *)
Theorem req_exact_mode : forall h K st s xs cs, made h K st s xs cs -> is_estimation_mode s = false ->
  (exists l, all s = Some l /\ Permutation (map fst l) xs /\ Forall (fun a => snd a = 1%N) l) /\
  (st <> Tainted -> forall v x inclusive r, view_ s = Ok v -> rank_ v x inclusive = Some r -> Z.of_N r = count (below x inclusive) xs).
Proof.
  intros h K st s xs cs H HE. destruct (made_good _ _ _ _ _ _ H) as (Ls & G & E & _).
  assert (HL : exists L, Ls = [L]).
  { unfold is_estimation_mode in HE. apply Nat.ltb_ge in HE. rewrite (lvs_length less (fun _ => false) f_half h K _ _ _ (g_lv _ _ _ _ _ _ _ _ G)) in HE.
    destruct (good_cons less sort (fun _ => false) f_of f_half sort_perm sort_sorted f_of_ok _ _ _ _ _ _ G) as (c & cs' & L & t & EC & EL). subst Ls. destruct t; [eauto|cbn [length] in HE; lia]. }
  destruct HL as [L ->]. pose proof (g_D _ _ _ _ _ _ _ _ G) as GD.
  assert (HP : Permutation L xs).
  { destruct (d_sub _ _ _ _ _ _ GD) as [X HX]. cbn [concat] in HX. rewrite app_nil_r in HX. pose proof (d_total _ _ _ _ _ _ GD) as HT. cbn [R] in HT. rewrite (cnt_all less sort sort_perm sort_sorted) in HT.
    apply Permutation_length in HX as HY. rewrite app_length in HY. destruct X; [|cbn [length] in HY; lia]. rewrite app_nil_r in HX. auto. }
  split.
  - rewrite (all_ok _ _ _ _ _ _ G). eexists. split; [reflexivity|]. rewrite wl_fst. cbn [concat wl]. rewrite !app_nil_r. split; auto. apply Forall_map, Forall_forall. auto.
  - intros Hst v x incl r HV HR. pose proof (rank_between _ _ _ _ _ _ _ _ _ _ _ H G E Hst HV HR) as HB. cbn zeta in HB. cbn [R] in HB.
    change (count (below x incl) xs) with (cnt (below x incl) xs) in *. rewrite (cnt_permr _ _ _ HP) in HB. lia.
Qed.

(** ** C57: no compaction before 6K items, however updates and merges are interleaved *)
Lemma one_nom h K c L : lv less f_half h K 0 c L -> (Z.of_nat (6 * K) <= Z.of_nat (nom_cap c))%Z.
Proof. intros V. pose proof (l_keep _ _ _ _ _ _ _ V). unfold nom_cap. lia. Qed.
Lemma one_level h K s xs cs Ls : Gd h K s xs cs Ls -> length (r_comps s) = 1 -> exists c L, r_comps s = [c] /\ Ls = [L] /\ lv less f_half h K 0 c L /\ r_ret s = Z.of_nat (length xs) /\ r_nom s = Z.of_nat (nom_cap c).
Proof.
  intros G H1. destruct (r_comps s) as [|c [|c2 t]] eqn:EC; cbn [length] in H1; try lia. pose proof (g_lv _ _ _ _ _ _ _ _ G) as HL. rewrite EC in HL. destruct Ls as [|L [|L2 t]]; cbn [lvs] in HL; try tauto.
  exists c, L. split; auto. split; auto. split; [tauto|]. split.
  - rewrite (g_ret _ _ _ _ _ _ _ _ G), csum_cons, csum_nil. pose proof (d_total _ _ _ _ _ _ (g_D _ _ _ _ _ _ _ _ G)) as HT. cbn [R] in HT. rewrite (cnt_all less sort sort_perm sort_sorted) in HT. lia.
  - rewrite (g_nom _ _ _ _ _ _ _ _ G), EC. cbn [compute_max_nom fold_right]. lia.
Qed.
Theorem req_exact_below_6k : forall h K st s xs cs, made h K st s xs cs -> length xs < 6 * K -> is_estimation_mode s = false /\ cs = [].
Proof.
  assert (HX : forall h K st s xs cs, made h K st s xs cs -> length xs < 6 * K -> length (r_comps s) = 1 /\ cs = []).
  { induction 1 as [k s HN HK|st s xs cs rnd x s' new H IH Hn HU|st s xs cs rnd s' new H IH HU|
      st s xs cs st2 o ys ds rnd s' new H IH Ho IHo Hn HM|st s xs cs H IH|st s xs cs s' H IH HQ]; intros Hx.
    - unfold req_new in HN. destruct (Nat.odd k || (k <? 4) || (1024 <? k)); inversion HN; auto.
    - cbn [length] in Hx. destruct (IH ltac:(lia)) as [I1 ->]. destruct (made_good _ _ _ _ _ _ H) as (Ls & G & _).
      destruct (one_level _ _ _ _ _ _ G I1) as (c & L & EC & -> & V & E1 & E2). pose proof (one_nom _ _ _ _ V) as HNm.
      unfold req_update in HU. rewrite EC in HU. destruct (append zero c x) as [c1|]; cbn [of_opt bindr] in HU; [|discriminate].
      rewrite E1, E2 in HU. destruct (Z.leb_spec (Z.of_nat (nom_cap c)) (Z.of_nat (length xs) + 1)) as [|_]; [lia|]. injection HU as <- <-. auto.
    - cbn [req_update] in HU. injection HU as <- <-. auto.
    - rewrite app_length in Hx. destruct (IH ltac:(lia)) as [I1 ->]. destruct (IHo ltac:(lia)) as [I2 ->]. rewrite app_nil_r.
      destruct (made_good _ _ _ _ _ _ H) as (Ls & G & _ & _ & B1). destruct (made_good _ _ _ _ _ _ Ho) as (Os & Go & _ & _ & B2).
      destruct (one_level _ _ _ _ _ _ G I1) as (c & L & EC & -> & V & E1 & E2). destruct (one_level _ _ _ _ _ _ Go I2) as (c' & L' & EC' & -> & V' & E1' & E2').
      unfold req_merge in HM. rewrite (empty_iff _ _ _ _ _ _ Go) in HM. destruct ys as [|y ys]; [injection HM as <- <-; auto|].
      rewrite (g_hra _ _ _ _ _ _ _ _ G), (g_hra _ _ _ _ _ _ _ _ Go), Bool.eqb_reflx in HM. cbn [negb] in HM.
      rewrite I1, I2 in HM. cbn [Nat.sub grow_times] in HM.
      pose proof (g_st _ _ _ _ _ _ _ _ G). pose proof (g_st _ _ _ _ _ _ _ _ Go).
      destruct (merge_levels_ok less ceq zero sort rnd f_of f_shrink f_half order sort_perm sort_sorted f_of_ok f_shrink_ok h K (r_comps o) 0 (r_comps s) [L] [L'] (g_lv _ _ _ _ _ _ _ _ G) (g_lv _ _ _ _ _ _ _ _ Go)) as (cs' & M & EM & VM & ZM & _).
      { auto. } { lia. }
      rewrite EM in HM. cbn [bindr] in HM. cbn [r_nom r_ret] in HM.
      pose proof (zipped_csum less sort sort_perm sort_sorted _ _ _ ZM) as HC. rewrite !csum_cons, !csum_nil in HC.
      pose proof (retained_ok less sort (fun _ => false) f_of f_half sort_perm sort_sorted f_of_ok _ _ _ _ _ VM) as HRt.
      assert (HM1 : exists c2 L2, cs' = [c2] /\ M = [L2] /\ lv less f_half h K 0 c2 L2).
      { pose proof (lvs_length less (fun _ => false) f_half h K _ _ _ VM) as HLl. assert (length M = 1). { clear -ZM. inversion ZM as [|a b m0 A0 B0 M0 ZP ZZ]; subst. inversion ZZ; subst. auto. }
        destruct cs' as [|c2 [|? ?]]; cbn [length] in *; try lia. destruct M as [|L2 [|? ?]]; cbn [length] in *; try lia. cbn [lvs] in VM. exists c2, L2. tauto. }
      destruct HM1 as (c2 & L2 & -> & -> & V2). pose proof (one_nom _ _ _ _ V2) as HNm. rewrite HRt, HC in HM. cbn [compute_max_nom fold_right] in HM.
      assert (R1 : r_ret s = Z.of_nat (length L + 0)) by (rewrite (g_ret _ _ _ _ _ _ _ _ G), csum_cons, csum_nil; auto).
      assert (R2 : r_ret o = Z.of_nat (length L' + 0)) by (rewrite (g_ret _ _ _ _ _ _ _ _ Go), csum_cons, csum_nil; auto).
      destruct (Z.leb_spec (Z.of_nat (nom_cap c2) + 0) (Z.of_nat (length L + 0 + (length L' + 0)))) as [|Hlt]; [cbn [length] in *; lia|]. cbn [bindr r_nom r_ret] in HM.
      destruct (Z.leb_spec (Z.of_nat (nom_cap c2) + 0) (Z.of_nat (length L + 0 + (length L' + 0)))) as [|_]; [lia|]. injection HM as <- <-. auto.
    - auto.
    - destruct (IH Hx) as [I1 I2]. split; auto. unfold queried in HQ. destruct (r_comps s) as [|c [|? ?]]; cbn [length] in I1; try lia. cbn [sort_comps] in HQ. destruct (c_sort sort c); cbn [bindo] in HQ; [|discriminate]. injection HQ as <-. auto. }
  intros h K st s xs cs H Hx. destruct (HX _ _ _ _ _ _ H Hx) as [H1 ->]. split; auto. unfold is_estimation_mode. rewrite H1. auto.
Qed.

(** Where the sketch itself claims that a rank is exact (its lower and upper bounds are the rank), it is exact, provided that no
    part of the sketch was built with a smaller k, and that the claim is not made at the very edge of the range: 3k items from
    the accurate end. Both provisos are needed: see the end of this file. *)
Theorem req_exact_claim : forall h K st s xs cs v x inclusive r, made h K st s xs cs -> st <> Tainted -> r_k s = K -> view_ s = Ok v -> rank_ v x inclusive = Some r ->
  is_exact_rank s r = true -> (if h then r + N.of_nat (3 * K) <> r_n s else r <> N.of_nat (3 * K))%N ->
  Z.of_N r = count (below x inclusive) xs.
Proof.
  intros h K st s xs cs v x incl r H Hst HK HV HR HE Hedge. destruct (made_good _ _ _ _ _ _ H) as (Ls & G & E & _).
  unfold is_exact_rank in HE. rewrite HK in HE. apply orb_prop in HE. destruct HE as [HE|HE]; [apply orb_prop in HE; destruct HE as [HE|HE]|].
  - apply Nat.eqb_eq in HE. apply (req_exact_mode _ _ _ _ _ _ H) with (v := v); auto. unfold is_estimation_mode. rewrite HE. auto.
  - apply N.leb_le in HE. rewrite (g_n _ _ _ _ _ _ _ _ G) in HE. apply (req_exact_mode _ _ _ _ _ _ H) with (v := v); auto.
    apply (req_exact_below_6k _ _ _ _ _ _ H). pose proof (proj2 (g_k _ _ _ _ _ _ _ _ G)). lia.
  - pose proof (rank_between _ _ _ _ _ _ _ _ _ _ _ H G E Hst HV HR) as HB. cbn zeta in HB. rewrite (g_hra _ _ _ _ _ _ _ _ G) in HE. rewrite (g_n _ _ _ _ _ _ _ _ G) in *.
    apply (req_rank_exact_end _ _ _ _ _ _ _ _ _ _ H Hst HV HR).
    pose proof (g_D _ _ _ _ _ _ _ _ G) as GD. set (p := below x incl) in *. assert (Hp : down less p) by apply (upto_down less ceq order).
    change (count p xs) with (cnt p xs) in *. destruct h; apply N.leb_le in HE.
    + pose proof (cnt_compl less sort sort_perm sort_sorted p xs) as C1. pose proof (R_compl less sort sort_perm sort_sorted p Ls) as C2. rewrite (d_total _ _ _ _ _ _ GD) in C2.
      assert (Hu : sided less true (fun x => negb (p x))). { cbn [sided]. intros a b Hab. rewrite !negb_involutive. apply Hp; auto. }
      pose proof (d_low _ _ _ _ _ _ GD _ Hu). lia.
    + pose proof (d_low _ _ _ _ _ _ GD p Hp). lia.
Qed.

(** Ranks are monotone and at most N. *)
Theorem req_rank_monotone : forall h K st s xs cs v x y inclusive r q, made h K st s xs cs -> (st <> Tainted \/ (2 <= r_n s)%N) -> view_ s = Ok v ->
  less x y = true -> rank_ v x inclusive = Some r -> rank_ v y inclusive = Some q -> (r <= q <= r_n s)%N.
Proof.
  intros h K st s xs cs v x y incl r q H Hst HV Hxy Hr Hq. destruct (made_good _ _ _ _ _ _ H) as (Ls & G & E & _).
  assert (Hx : xs <> []). { intros ->. unfold sorted_view in HV. rewrite (empty_iff _ _ _ _ _ _ G) in HV. discriminate. }
  destruct (view_ok _ _ _ _ _ _ _ G E Hx) as (res & mn & mx & M1 & M2 & M3 & M4 & HV' & HP & HS & HN & HW & HI & Hmm & HAS). rewrite HV in HV'. injection HV' as ->.
  pose proof (adjusted_ne mn mx res HN) as HAN. rewrite view_rank_eq in Hr, Hq by auto. injection Hr as <-. injection Hq as <-.
  assert (HT : wsum (fun _ => true) (add_max ceq mx (add_min ceq mn res)) = r_n s).
  { destruct (view_single _ _ _ _ _ _ _ _ _ G E Hx Hst M3 HP) as [HT H1].
    destruct (rank_formula less ceq zero order (fun _ => true) mn mx res ltac:(intros ? ?; auto) HS HN HW HI Hmm H1) as [-> _]. exact HT. }
  split.
  - apply (wsum_mono (C := C)). intros a _. unfold upto. destruct incl.
    + rewrite !negb_true_iff. intros H1. destruct (less y (fst a)) eqn:E0; auto. rewrite <- H1. symmetry. apply (st_trans _ _ order) with y; auto.
    + intros H1. apply (st_trans _ _ order) with x; auto.
  - rewrite <- HT. apply (wsum_le zero).
Qed.

(** ** C58: quantiles *)

(** The quantile of rank [r] is the least of the minimum, the maximum and the retained items whose rank reaches [r], or the
    greatest of them if none does. *)
Theorem req_quantile_correct : forall h K st s xs cs v l r inclusive mn mx, made h K st s xs cs -> (st <> Tainted \/ (2 <= r_n s)%N) -> view_ s = Ok v -> all s = Some l ->
  min_item s = Ok (Some mn) -> max_item s = Ok (Some mx) ->
  let candidate y := y = mn \/ y = mx \/ In y (map fst l) in
  exists q, view_quantile v r inclusive = Some q /\ candidate q /\
    (hits r inclusive (r_n s) -> exists w, rank_ v q true = Some w /\ hits r inclusive w) /\
    (forall y w, candidate y -> less y q = true -> rank_ v y true = Some w -> ~ hits r inclusive w) /\
    (~ hits r inclusive (r_n s) -> forall y, candidate y -> less q y = false).
Proof.
  intros h K st s xs cs v l r incl mn mx H Hst HV HL Hmn Hmx candidate. destruct (made_good _ _ _ _ _ _ H) as (Ls & G & E & _).
  assert (Hx : xs <> []). { intros ->. unfold sorted_view in HV. rewrite (empty_iff _ _ _ _ _ _ G) in HV. discriminate. }
  destruct (view_ok _ _ _ _ _ _ _ G E Hx) as (res & mn' & mx' & M1 & M2 & M3 & M4 & HV' & HP & HS & HN & HW & HI & Hmm & HAS).
  unfold min_item, max_item in *. rewrite (empty_iff _ _ _ _ _ _ G) in *. destruct xs as [|x0 xs]; [congruence|].
  assert (mn' = mn) as -> by congruence. assert (mx' = mx) as -> by congruence. rewrite (all_ok _ _ _ _ _ _ G) in HL. injection HL as <-.
  rewrite HV in HV'. injection HV' as ->. pose proof (adjusted_ne mn mx res HN) as HAN.
  assert (HT : wsum (fun _ => true) (add_max ceq mx (add_min ceq mn res)) = r_n s).
  { destruct (view_single _ _ _ _ _ _ _ _ _ G E Hx Hst M3 HP) as [HT H1].
    destruct (rank_formula less ceq zero order (fun _ => true) mn mx res ltac:(intros ? ?; auto) HS HN HW HI Hmm H1) as [-> _]. exact HT. }
  assert (HC : forall y, candidate y <-> In y (map fst (add_max ceq mx (add_min ceq mn res)))).
  { intros y. rewrite (adjusted_in less ceq order) by auto. unfold candidate.
    assert (HH : In y (map fst (wl 1 Ls)) <-> In y (map fst res)); [|tauto]. split; apply Permutation_in; [|apply Permutation_sym]; apply Permutation_map; auto. }
  destruct (quantile_ok less ceq zero order _ (r_n s) r incl HAS HAN) as (q & Q1 & Q2 & Q3 & Q4 & Q5). rewrite HT in *. exists q. rewrite view_quantile_eq.
  split; auto. split; [apply HC; auto|]. split; [|split].
  - intros Hh. eexists. rewrite view_rank_eq by auto. split; [reflexivity|]. apply Q3. exact Hh.
  - intros y w Hy Hl Hw. rewrite view_rank_eq in Hw by auto. injection Hw as <-. apply Q4; auto. apply HC; auto.
  - intros Hh y Hy. apply Q5; [exact Hh|]. apply HC; auto.
Qed.

End Props.

(** ** Cases that meet the hypotheses: integers, insertion sort, and a fixed-point section size in units of 2^-20 *)
Definition q_of (k : nat) : N := (N.of_nat k * 1048576)%N.
Definition q_shrink (f : N) : N := (f * 741455 / 1048576)%N.
Definition q_half (f : N) : nat := N.to_nat ((f + 1048576) / 2097152)%N.
Lemma q_of_ok j : j <= 512 -> q_half (q_of (2 * j)) = j.
Proof.
  intros _. unfold q_half, q_of. replace (N.of_nat (2 * j) * 1048576 + 1048576)%N with (1048576 + N.of_nat j * 2097152)%N by lia.
  rewrite N.div_add by lia. change (1048576 / 2097152)%N with 0%N. lia.
Qed.
Lemma q_shrink_ok f : q_half f <= 512 -> 2 <= q_half (q_shrink f) -> q_half f <= 2 * q_half (q_shrink f) /\ q_half (q_shrink f) <= q_half f.
Proof.
  unfold q_half, q_shrink. intros _ H. set (y := (f * 741455 / 1048576)%N) in *.
  assert (Y1 : (1048576 * y <= f * 741455)%N) by (apply N.mul_div_le; lia).
  assert (Y2 : (f * 741455 < 1048576 * (y + 1))%N) by (unfold y; rewrite N.add_1_r; apply N.mul_succ_div_gt; lia).
  set (a := ((y + 1048576) / 2097152)%N) in *. set (b := ((f + 1048576) / 2097152)%N).
  assert (A1 : (2097152 * a <= y + 1048576)%N) by (apply N.mul_div_le; lia).
  assert (A2 : (y + 1048576 < 2097152 * (a + 1))%N) by (unfold a; rewrite N.add_1_r; apply N.mul_succ_div_gt; lia).
  assert (B1 : (2097152 * b <= f + 1048576)%N) by (apply N.mul_div_le; lia).
  assert (B2 : (f + 1048576 < 2097152 * (b + 1))%N) by (unfold b; rewrite N.add_1_r; apply N.mul_succ_div_gt; lia).
  lia.
Qed.

Notation zmade := (made Z.ltb 0%Z isort q_of q_shrink q_half).
Notation zgood := (made_good Z.ltb Z.eqb 0%Z isort q_of q_shrink q_half Z_total isort_perm isort_sorted q_of_ok q_shrink_ok).
Notation zupd := (req_update Z.ltb 0%Z isort Nat.even q_of q_shrink q_half).
Notation zmrg := (req_merge Z.ltb 0%Z isort Nat.even q_of q_shrink q_half).
Notation znew := (req_new 0%Z q_of).
Notation zview := (sorted_view Z.ltb Z.eqb 0%Z isort).
Notation zrank := (view_rank Z.ltb Z.eqb).

Fixpoint feed (l : list Z) (s : ReqModel.sketch (C := Z) (F := N)) (log : list nat) : option (ReqModel.sketch (C := Z) (F := N) * list nat) :=
  match l with
  | [] => Some (s, log)
  | x :: l => match zupd s [] (Some x) with Ok (s', new) => feed l s' (new ++ log) | _ => None end
  end.
Lemma feed_made h K : forall l s xs log s' log', zmade h K Exact s xs log -> (r_n s + N.of_nat (length l) < 2 ^ 47)%N -> feed l s log = Some (s', log') ->
  zmade h K Exact s' (rev l ++ xs) log'.
Proof.
  induction l as [|x l IH]; intros s xs log s' log' H Hn HF; cbn [feed rev length app] in *; [injection HF as <- <-; auto|].
  destruct (zupd s [] (Some x)) as [[s1 new]| |] eqn:E; try discriminate.
  assert (HM : zmade h K Exact s1 (x :: xs) (new ++ log)) by (eapply (made_update Z.ltb 0%Z isort q_of q_shrink q_half h K Exact); eauto; lia).
  rewrite <- app_assoc. cbn [app]. eapply IH; [exact HM| |exact HF].
  destruct (zgood _ _ _ _ _ _ HM) as (Ls & G & _). destruct (zgood _ _ _ _ _ _ H) as (Ls' & G' & _). rewrite (g_n _ _ _ _ _ _ _ _ G). rewrite (g_n _ _ _ _ _ _ _ _ G') in Hn. cbn [length]. lia.
Qed.
(** A sketch created with [k], then reset, then given the items [l]. *)
Definition run (h : bool) (k : nat) (l : list Z) : option (ReqModel.sketch (C := Z) (F := N) * list nat) :=
  match znew k h with Ok s => feed l (req_reset 0%Z q_of s) [] | _ => None end.
Lemma run_made h K k l s log : K <= k -> (N.of_nat (length l) < 2 ^ 47)%N -> run h k l = Some (s, log) -> zmade h K Exact s (rev l) log.
Proof.
  intros HK Hl H. unfold run in H. destruct (znew k h) as [s0| |] eqn:E; try discriminate. rewrite <- (app_nil_r (rev l)).
  eapply feed_made; [|  |exact H]; [eapply made_reset, made_new; eauto|]. cbn [req_reset grow r_n]. lia.
Qed.
(** [c] distinct numbers in a scrambled order. *)
Definition scrambled (c : nat) : list Z := map (fun i => (Z.of_nat i * 37) mod 499)%Z (seq 0 c).

(** 300 items in a sketch with k = 4 go through many compactions on several levels; some level is over its nominal capacity. *)
Definition demo (h : bool) := run h 4 (scrambled 300).
Definition some_full (cs : list (compactor (C := Z) (F := N))) : bool := existsb (fun p => nom_cap (fst p) <=? c_count (fst p)) (combine cs (tl cs)).
Lemma demo_facts : forall h, match demo h with Some (s, log) => (3 <=? length (r_comps s)) && (20 <=? length log) && (r_n s =? 300)%N | None => false end = true.
Proof. intros [|]; vm_compute; reflexivity. Qed.
Example req_case : forall h, exists s cs, zmade h 4 Exact s (rev (scrambled 300)) cs /\ is_estimation_mode s = true /\ 20 <= length cs /\
  exists v, zview s = Ok v /\ forall r, zrank v (if h then 476 else 14)%Z true = Some r -> Z.of_N r = count (KllProps.below Z.ltb (if h then 476 else 14)%Z true) (rev (scrambled 300)).
Proof.
  intros h. pose proof (demo_facts h) as H. destruct (demo h) as [[s cs]|] eqn:E; [|discriminate]. apply andb_prop in H. destruct H as [H H3]. apply andb_prop in H. destruct H as [H1 H2]. apply Nat.leb_le in H1, H2.
  assert (HM : zmade h 4 Exact s (rev (scrambled 300)) cs) by (apply (run_made h 4 4); auto; vm_compute; reflexivity).
  exists s, cs. split; auto. split; [apply Nat.ltb_lt; lia|]. split; auto.
  destruct (req_never_fails Z.ltb Z.eqb 0%Z isort q_of q_shrink q_half Z_total isort_perm isort_sorted q_of_ok q_shrink_ok _ _ _ _ _ _ HM) as (_ & _ & _ & _ & HV).
  destruct HV as (v & HV & _); [intros E0; apply (f_equal (@length Z)) in E0; vm_compute in E0; discriminate|].
  exists v. split; auto. intros r Hr. eapply (req_rank_exact_end Z.ltb Z.eqb 0%Z isort q_of q_shrink q_half Z_total isort_perm isort_sorted q_of_ok q_shrink_ok); eauto; [discriminate|].
  destruct h; vm_compute; discriminate.
Qed.
(** A level over its nominal capacity with a level above it, as [req_compaction] asks. *)
Example req_compaction_case : forall h, exists s cs c next, zmade h 4 Exact s (rev (scrambled 28)) cs /\ nth_error (r_comps s) 0 = Some c /\ nth_error (r_comps s) (0 + 1) = Some next /\ nom_cap c <= c_count c.
Proof.
  intros h. assert (H : match run h 4 (scrambled 28) with Some (s, _) => match r_comps s with c :: next :: _ => nom_cap c <=? c_count c | _ => false end | None => false end = true) by (destruct h; vm_compute; reflexivity).
  destruct (run h 4 (scrambled 28)) as [[s cs]|] eqn:E; [|discriminate]. destruct (r_comps s) as [|c [|next t]] eqn:EC; try discriminate. exists s, cs, c, next.
  split; [apply (run_made h 4 4); auto; vm_compute; reflexivity|]. rewrite EC. split; auto. split; auto. apply Nat.leb_le. auto.
Qed.
(** Two sketches merged: ranks within the bound, extremes exact. *)
Definition merged (h : bool) (k1 k2 : nat) (l1 l2 : list Z) : option (ReqModel.sketch (C := Z) (F := N) * list nat) :=
  match run h k1 l1, run h k2 l2 with
  | Some (s, cs), Some (o, ds) => match zmrg s o [] with Ok (s', new) => Some (s', new ++ cs ++ ds) | _ => None end
  | _, _ => None end.
Lemma merged_made h K k1 k2 l1 l2 s cs : K <= k1 -> K <= k2 -> l2 <> [] -> (N.of_nat (length l1) + N.of_nat (length l2) < 2 ^ 47)%N -> merged h k1 k2 l1 l2 = Some (s, cs) -> zmade h K Exact s (rev l2 ++ rev l1) cs.
Proof.
  intros H1 H2 Hne Hl H. unfold merged in H. destruct (run h k1 l1) as [[s1 c1]|] eqn:E1; [|discriminate]. destruct (run h k2 l2) as [[s2 c2]|] eqn:E2; [|discriminate].
  destruct (zmrg s1 s2 []) as [[s' new]| |] eqn:E; try discriminate. injection H as <- <-.
  pose proof (run_made h K k1 l1 s1 c1 H1 ltac:(lia) E1) as M1. pose proof (run_made h K k2 l2 s2 c2 H2 ltac:(lia) E2) as M2.
  replace Exact with (after_merge Exact Exact (rev l2)). 2:{ destruct (rev l2) eqn:ER; [|reflexivity]. apply (f_equal (@rev Z)) in ER. rewrite rev_involutive in ER. contradiction. }
  eapply made_merge; eauto. destruct (zgood _ _ _ _ _ _ M1) as (Ls & G & _). destruct (zgood _ _ _ _ _ _ M2) as (Ls' & G' & _).
  rewrite (g_n _ _ _ _ _ _ _ _ G), (g_n _ _ _ _ _ _ _ _ G'), !rev_length. lia.
Qed.
Example req_merge_case : forall h, exists s cs, zmade h 4 Exact s (rev (scrambled 300) ++ rev (scrambled 200)) cs /\ is_estimation_mode s = true /\ min_item s = Ok (Some 0%Z) /\ max_item s = Ok (Some 491%Z).
Proof.
  intros h. assert (H : match merged h 8 4 (scrambled 200) (scrambled 300) with Some (s, _) => match r_min s, r_max s with Some a, Some b => (a =? 0)%Z && (b =? 491)%Z && is_estimation_mode s && negb (is_empty s) | _, _ => false end | None => false end = true) by (destruct h; vm_compute; reflexivity).
  destruct (merged h 8 4 (scrambled 200) (scrambled 300)) as [[s cs]|] eqn:E; [|discriminate]. destruct (r_min s) as [a|] eqn:E1; [|discriminate]. destruct (r_max s) as [b|] eqn:E2; [|discriminate].
  apply andb_prop in H. destruct H as [H H4]. apply andb_prop in H. destruct H as [H H3]. apply andb_prop in H. destruct H as [H1 H2]. apply Z.eqb_eq in H1, H2. subst a b.
  exists s, cs. split; [apply (merged_made h 4 8 4); auto; try lia; [intros E0; vm_compute in E0; discriminate|vm_compute; reflexivity]|]. split; auto.
  unfold min_item, max_item. destruct (is_empty s); [discriminate|]. rewrite E1, E2. auto.
Qed.


(** ** What does not hold *)

(** Merging into a sketch straight from NewSketch reports 0 as the minimum of a stream of positive items. *)
Theorem req_min_after_merge_into_new_refuted : exists s xs cs mn, zmade true 4 Tainted s xs cs /\ min_item s = Ok (Some mn) /\ ~ In mn xs /\ Forall (fun x => mn < x)%Z xs.
Proof.
  destruct (znew 4 true) as [s0| |] eqn:E0; try (vm_compute in E0; discriminate). destruct (run true 4 [5%Z; 7%Z]) as [[o ds]|] eqn:E1; [|vm_compute in E1; discriminate].
  destruct (zmrg s0 o []) as [[s1 new]| |] eqn:E2; try (vm_compute in E0; injection E0 as <-; vm_compute in E1; injection E1 as <- <-; vm_compute in E2; discriminate).
  exists s1, [7%Z; 5%Z], (new ++ [] ++ ds), 0%Z. split; [|split; [|split]].
  - change [7%Z; 5%Z] with ([7%Z; 5%Z] ++ []). change Tainted with (after_merge Fresh Exact [7%Z; 5%Z]). eapply made_merge; [eapply made_new; eauto|apply (run_made true 4 4 [5%Z; 7%Z]); eauto; vm_compute; reflexivity| |exact E2].
    vm_compute in E0. injection E0 as <-. vm_compute in E1. injection E1 as <- <-. vm_compute. reflexivity.
  - vm_compute in E0. injection E0 as <-. vm_compute in E1. injection E1 as <- <-. vm_compute in E2. injection E2 as <- <-. reflexivity.
  - intros [H|[H|[]]]; discriminate.
  - repeat constructor.
Qed.
(** ... and after merging the single item -5, the rank of -5 is 0 out of 1. *)
Theorem req_rank_after_merge_into_new_refuted : exists s cs v, zmade true 4 Tainted s [(-5)%Z] cs /\ zview s = Ok v /\ zrank v (-5)%Z true = Some 0%N /\ is_estimation_mode s = false.
Proof.
  destruct (znew 4 true) as [s0| |] eqn:E0; try (vm_compute in E0; discriminate). destruct (run true 4 [(-5)%Z]) as [[o ds]|] eqn:E1; [|vm_compute in E1; discriminate].
  destruct (zmrg s0 o []) as [[s1 new]| |] eqn:E2; try (vm_compute in E0; injection E0 as <-; vm_compute in E1; injection E1 as <- <-; vm_compute in E2; discriminate).
  destruct (zview s1) as [v| |] eqn:E3; try (vm_compute in E0; injection E0 as <-; vm_compute in E1; injection E1 as <- <-; vm_compute in E2; injection E2 as <- <-; vm_compute in E3; discriminate).
  exists s1, (new ++ [] ++ ds), v. split; [|split; [auto|]].
  - change [(-5)%Z] with ([(-5)%Z] ++ []). change Tainted with (after_merge Fresh Exact [(-5)%Z]). eapply made_merge; [eapply made_new; eauto|apply (run_made true 4 4 [(-5)%Z]); eauto; vm_compute; reflexivity| |exact E2].
    vm_compute in E0. injection E0 as <-. vm_compute in E1. injection E1 as <- <-. vm_compute. reflexivity.
  - vm_compute in E0. injection E0 as <-. vm_compute in E1. injection E1 as <- <-. vm_compute in E2. injection E2 as <- <-. vm_compute in E3. injection E3 as <-. split; reflexivity.
Qed.

(** The rank of [x] claimed exact and wrong. *)
Definition wrong_claim (s : ReqModel.sketch (C := Z) (F := N)) (xs : list Z) (x : Z) : bool :=
  match zview s with
  | Ok v => match zrank v x true with Some r => is_exact_rank s r && negb (Z.of_N r =? count (KllProps.below Z.ltb x true) xs)%Z | None => false end
  | _ => false end.
Lemma wrong_claim_spec s xs x : wrong_claim s xs x = true -> exists v r, zview s = Ok v /\ zrank v x true = Some r /\ is_exact_rank s r = true /\ Z.of_N r <> count (KllProps.below Z.ltb x true) xs.
Proof.
  unfold wrong_claim. intros H. destruct (zview s) as [v| |]; try discriminate. destruct (zrank v x true) as [r|] eqn:E; [|discriminate]. apply andb_prop in H. destruct H as [H1 H2].
  exists v, r. repeat split; auto. apply negb_true_iff, Z.eqb_neq in H2. auto.
Qed.
(** At the edge of the range where ranks are claimed to be exact, they need not be: 72 updates of one sketch with k = 4. *)
Theorem req_exact_claim_edge_refuted : exists s xs cs x v r, zmade true 4 Exact s xs cs /\ r_k s = 4 /\ zview s = Ok v /\ zrank v x true = Some r /\ is_exact_rank s r = true /\
  Z.of_N r <> count (KllProps.below Z.ltb x true) xs.
Proof.
  assert (H : match run true 4 (scrambled 72) with Some (s, cs) => (r_k s =? 4) && wrong_claim s (rev (scrambled 72)) 400%Z | None => false end = true) by (vm_compute; reflexivity).
  destruct (run true 4 (scrambled 72)) as [[s cs]|] eqn:E; [|discriminate]. apply andb_prop in H. destruct H as [H1 H2]. apply Nat.eqb_eq in H1. destruct (wrong_claim_spec _ _ _ H2) as (v & r & W).
  exists s, (rev (scrambled 72)), cs, 400%Z, v, r. split; [apply (run_made true 4 4); auto; vm_compute; reflexivity|]. auto.
Qed.
(** After merging a sketch with a smaller k, ranks well inside that range are wrong: here with fewer than 24 items above [x], where 3k = 48. *)
Theorem req_exact_claim_smaller_k_refuted : exists s xs cs x v r, zmade true 4 Exact s xs cs /\ r_k s = 16 /\ zview s = Ok v /\ zrank v x true = Some r /\ is_exact_rank s r = true /\
  Z.of_N r <> count (KllProps.below Z.ltb x true) xs /\ (Z.of_nat (length xs) - count (KllProps.below Z.ltb x true) xs < 24)%Z.
Proof.
  assert (H : match merged true 16 4 [0%Z] (scrambled 300) with Some (s, cs) => (r_k s =? 16) && wrong_claim s (rev (scrambled 300) ++ rev [0%Z]) 463%Z | None => false end = true) by (vm_compute; reflexivity).
  destruct (merged true 16 4 [0%Z] (scrambled 300)) as [[s cs]|] eqn:E; [|discriminate]. apply andb_prop in H. destruct H as [H1 H2]. apply Nat.eqb_eq in H1. destruct (wrong_claim_spec _ _ _ H2) as (v & r & W1 & W2 & W3 & W4).
  exists s, (rev (scrambled 300) ++ rev [0%Z]), cs, 463%Z, v, r. split; [apply (merged_made true 4 16 4); auto; try lia; [intros E0; vm_compute in E0; discriminate|vm_compute; reflexivity]|].
  do 5 (split; auto). vm_compute. reflexivity.
Qed.

Print Assumptions req_new_ok.
Print Assumptions req_never_fails.
Print Assumptions req_merge_mode.
Print Assumptions req_weight_conserved.
Print Assumptions req_compactors.
Print Assumptions req_compaction.
Print Assumptions req_min_max_exact.
Print Assumptions req_min_max_tainted.
Print Assumptions req_rank_is_weight.
Print Assumptions req_rank_error.
Print Assumptions req_rank_exact_end.
Print Assumptions req_exact_mode.
Print Assumptions req_exact_below_6k.
Print Assumptions req_exact_claim.
Print Assumptions req_rank_monotone.
Print Assumptions req_quantile_correct.
Print Assumptions req_min_after_merge_into_new_refuted.
Print Assumptions req_rank_after_merge_into_new_refuted.
Print Assumptions req_exact_claim_edge_refuted.
Print Assumptions req_exact_claim_smaller_k_refuted.
