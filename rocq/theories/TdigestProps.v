(** * Properties of t-digests

    The specification vocabulary is [is_min], [is_max] (TdigestSem.v: a smallest, largest value of a list), [stands] (TdigestProofs.v:
    a centroid is the number and the average of a non-empty list of values), [made] (below: the sketches the API can make of a
    stream of values) and [count]. *)
From Verif Require Import Base Arr TdigestModel TdigestProofs TdigestSem TdigestRank.
From Coq Require Import QArith Qabs Permutation Sorted Lqa Setoid.
Local Close Scope Q_scope.
Local Open Scope nat_scope.

(** What decoding an encoded sketch gives (TdigestSerde.v proves that it is this): itself, but a sketch of one value comes back
    with that value as a centroid. *)
Definition reload (s : td) : td :=
  if is_empty s then mkTd PInf NInf [] [] 0 (t_k s) false
  else if (total_weight s =? 1)%N
       then mkTd (t_min s) (t_min s) [mkC (match t_min s with Fin m => m | _ => 0%Q end) 1] [] 1 (t_k s) (t_rev s)
       else s.

(** The number of values of [xs] that satisfy p. *)
Definition count (p : Q -> bool) (xs : list Q) : nat := length (filter p xs).

Section Props.
Variable ln : Q -> Q.

(** [made k0 s xs]: the sketch s was made from the values xs, in some order, by sketches whose k is at least k0: new sketches,
    updates, merges (also of sketches with different k), queries and encoding and decoding. *)
Inductive made (k0 : N) : td -> list Q -> Prop :=
| made_new k s : (k0 <= k)%N -> td_new k = Some s -> made k0 s []
| made_update s xs v s' : made k0 s xs -> update ln s v = Some s' -> made k0 s' (xs ++ [v])
| made_merge s xs o ys s' : made k0 s xs -> made k0 o ys -> merge_in ln s o = Val s' -> made k0 s' (xs ++ ys)
| made_rank s xs v s' a : made k0 s xs -> rank ln s v = (s', a) -> made k0 s' xs
| made_quantile s xs r s' a : made k0 s xs -> quantile ln s r = (s', a) -> made k0 s' xs
| made_compress s xs s' : made k0 s xs -> compress ln s = Some s' -> made k0 s' xs
| made_reload s xs : made k0 s xs -> made k0 (reload s) xs.

Lemma TInv_total s xs : TInv s xs -> total_weight s = N.of_nat (length xs).
Proof.
  intros [K (ys & P & G & W) S Mn Mx B]. unfold total_weight. rewrite W, (Permutation_length P), app_length. lia.
Qed.

Lemma TInv_reload s xs : TInv s xs -> TInv (reload s) xs.
Proof.
  intro H. unfold reload. destruct (is_empty s) eqn:E.
  - apply (TInv_empty _ _ H) in E. subst xs. eapply (TInv_new (t_k s)). unfold td_new.
    pose proof (ti_k _ _ H). destruct (N.ltb_spec (t_k s) 10); [lia|reflexivity].
  - pose proof (TInv_total _ _ H) as T. destruct (N.eqb_spec (total_weight s) 1) as [E1|_]; [|exact H].
    rewrite E1 in T. destruct xs as [|x [|y xs]]; [discriminate| |cbn [length] in T; lia].
    destruct H as [K _ _ Mn Mx _]. destruct (t_min s) as [m| | |]; cbn [min_ok] in Mn; [|discriminate|contradiction|contradiction].
    destruct Mn as [(z & [Hz|[]] & Ez) L]. subst z.
    split; cbn [t_k t_cs t_buf t_w t_min t_max].
    + exact K.
    + exists [x]. split; [reflexivity|]. split; [|reflexivity]. split.
      * exists [[x]]. split; [|reflexivity]. constructor; [|constructor]. split; [discriminate|]. split; [reflexivity|].
        cbn [c_mean c_wt qsum fold_right]. rewrite qw_1, Ez. ring.
      * intros y [<-|[]]. eexists. split; [left; reflexivity|]. cbn [c_mean]. lra.
      * intros y [<-|[]]. eexists. split; [left; reflexivity|]. cbn [c_mean]. lra.
      * right. split; exists [], (mkC m 1), []; repeat split; auto.
    + repeat constructor.
    + cbn [min_ok]. split; [exists x; split; [left; reflexivity|exact Ez]|exact L].
    + cbn [max_ok]. split; [exists x; split; [left; reflexivity|exact Ez]|]. intros y [<-|[]]. lra.
    + cbn [length]. lia.
Qed.

Lemma rank_state s xs v : TInv s xs ->
  (xs = [] -> rank ln s v = (s, Fail ErrEmpty)) /\
  (xs <> [] -> fst (rank ln s v) = s \/ compress ln s = Some (fst (rank ln s v))).
Proof.
  intro H. pose proof (TInv_empty _ _ H) as TE. unfold rank. destruct (is_empty s) eqn:E.
  - split; [reflexivity|]. intro X. exfalso. apply X. apply TE. reflexivity.
  - split; [intro X; apply TE in X; discriminate|]. intros _.
    destruct (lt_ext v (t_min s)); [left; reflexivity|]. destruct (gt_ext v (t_max s)); [left; reflexivity|].
    destruct (_ =? 1); [left; reflexivity|]. destruct (compress ln s) as [s1|]; [|left; reflexivity].
    right. destruct (t_min s1), (t_max s1); reflexivity.
Qed.
Lemma quantile_state s xs r : TInv s xs ->
  fst (quantile ln s r) = s \/ compress ln s = Some (fst (quantile ln s r)).
Proof.
  intro H. unfold quantile. destruct (is_empty s); [left; reflexivity|]. destruct (_ || _); [left; reflexivity|].
  destruct (compress ln s) as [s1|]; [|left; reflexivity]. right. destruct (t_min s1), (t_max s1); reflexivity.
Qed.

Lemma made_inv k0 s xs : made k0 s xs -> TInv s xs /\ (k0 <= t_k s)%N.
Proof.
  induction 1 as [k s K E|s xs v s' M [IH IK] E|s xs o ys s' M1 [IH1 IK1] M2 [IH2 IK2] E|s xs v s' a M [IH IK] E|s xs r s' a M [IH IK] E|s xs s' M [IH IK] E|s xs M [IH IK]].
  - split; [eapply TInv_new; exact E|]. unfold td_new in E. destruct (_ <? _)%N; [discriminate|]. injection E as <-. exact K.
  - destruct (update_ok ln s xs v IH) as (s1 & U & T & K). rewrite E in U. injection U as <-. split; [exact T|rewrite K; exact IK].
  - assert (Y : ys <> []).
    { intros ->. unfold merge_in in E. rewrite (proj2 (TInv_empty _ _ IH2) eq_refl) in E. discriminate. }
    destruct (merge_in_ok ln s xs o ys IH1 IH2 Y) as (s1 & U & T & _ & K). rewrite E in U. injection U as <-. split; [exact T|rewrite K; exact IK1].
  - destruct (rank_state s xs v IH) as [R0 R1]. rewrite E in R0, R1. cbn [fst] in R1.
    destruct xs as [|x xs]; [specialize (R0 eq_refl); injection R0 as -> _; auto|].
    destruct R1 as [->|C]; [discriminate|auto|]. destruct (compress_ok ln s _ IH) as (s1 & U & T & _ & K). rewrite C in U. injection U as <-.
    split; [exact T|rewrite K; exact IK].
  - pose proof (quantile_state s xs r IH) as R. rewrite E in R. cbn [fst] in R. destruct R as [->|C]; [auto|].
    destruct (compress_ok ln s _ IH) as (s1 & U & T & _ & K). rewrite C in U. injection U as <-. split; [exact T|rewrite K; exact IK].
  - destruct (compress_ok ln s _ IH) as (s1 & U & T & _ & K). rewrite E in U. injection U as <-. split; [exact T|rewrite K; exact IK].
  - split; [apply TInv_reload; exact IH|]. unfold reload. destruct (is_empty s); [exact IK|]. destruct (_ =? 1)%N; exact IK.
Qed.

(** ** C40: no update or merge fails, and the sketch accounts for the whole stream. *)

(** Update of a finite value succeeds on every sketch, and Merge succeeds unless the other sketch is empty. *)
Theorem tdigest_never_fails k0 s xs o ys v : made k0 s xs -> made k0 o ys ->
  (exists s', update ln s v = Some s') /\
  (ys <> [] -> exists s', merge_in ln s o = Val s') /\ (ys = [] -> merge_in ln s o = Fail ErrEmpty).
Proof.
  intros M1 M2. destruct (made_inv _ _ _ M1) as [H1 _]. destruct (made_inv _ _ _ M2) as [H2 _]. split; [|split].
  - destruct (update_ok ln s xs v H1) as (s' & U & _). eauto.
  - intro Y. destruct (merge_in_ok ln s xs o ys H1 H2 Y) as (s' & U & _). eauto.
  - intros ->. unfold merge_in. rewrite (proj2 (TInv_empty _ _ H2) eq_refl). reflexivity.
Qed.

(** The stream is split into the groups the centroids stand for and the buffered values; nothing is lost or counted twice. The
    centroids are in order of their means, the total weight is the number of values, the buffer stays within its capacity. *)
Theorem tdigest_accounts k0 s xs : made k0 s xs ->
  (exists groups, Forall2 stands (t_cs s) groups /\ Permutation xs (concat groups ++ t_buf s)) /\
  StronglySorted (fun a b => (c_mean a <= c_mean b)%Q) (t_cs s) /\
  total_weight s = N.of_nat (length xs) /\ (is_empty s = true <-> xs = []) /\ length (t_buf s) <= buffer_limit (t_k s).
Proof.
  intro M. destruct (made_inv _ _ _ M) as [H _]. pose proof (TInv_total _ _ H) as T. pose proof (TInv_empty _ _ H) as TE.
  destruct H as [K (ys & P & G & W) S Mn Mx B]. split; [|auto].
  destruct (g_rep _ _ G) as (gs & F & Q). exists gs. split; [exact F|]. rewrite P. apply Permutation_app_tail. exact Q.
Qed.

(** MinValue and MaxValue are exactly the smallest and largest value of the stream. *)
Theorem tdigest_min_max_exact k0 s xs : made k0 s xs ->
  (xs = [] /\ min_value s = Fail ErrEmpty /\ max_value s = Fail ErrEmpty) \/
  (exists mn mx, min_value s = Val (Fin mn) /\ max_value s = Val (Fin mx) /\ is_min xs mn /\ is_max xs mx).
Proof.
  intro M. destruct (made_inv _ _ _ M) as [H _]. pose proof (TInv_empty _ _ H) as TE. unfold min_value, max_value.
  destruct (is_empty s) eqn:E.
  - left. split; [apply TE; reflexivity|]. auto.
  - right. assert (X : xs <> []) by (intro X; apply TE in X; discriminate).
    pose proof (ti_min _ _ H) as Mn. pose proof (ti_max _ _ H) as Mx.
    destruct (t_min s) as [mn| | |]; cbn [min_ok] in Mn; [|congruence|contradiction|contradiction].
    destruct (t_max s) as [mx| | |]; cbn [max_ok] in Mx; [|contradiction|congruence|contradiction].
    exists mn, mx. auto.
Qed.

(** The extreme centroids are single values: in the tails nothing is averaged. *)
Theorem tdigest_tails_exact k0 s xs c l : made k0 s xs -> t_cs s = c :: l ->
  c_wt c = 1%N /\ c_wt (last (t_cs s) c) = 1%N /\
  (forall a, In a (t_cs s) -> (c_mean c <= c_mean a /\ c_mean a <= c_mean (last (t_cs s) c))%Q) /\
  (t_buf s = [] -> is_min xs (c_mean c) /\ is_max xs (c_mean (last (t_cs s) c))).
Proof.
  intros M E. destruct (made_inv _ _ _ M) as [[K (ys & P & G & W) S Mn Mx B] _].
  assert (N0 : t_cs s <> []) by (rewrite E; discriminate).
  destruct (hd1 _ c S N0 (g_ends _ _ G)) as [W1 W2]. rewrite E in W1 at 1. cbn [hd] in W1. split; [exact W1|]. split; [exact W2|]. split.
  - intros a I. split.
    + pose proof (sorted_hd _ a c S I) as Q. rewrite E in Q. exact Q.
    + pose proof (sorted_last _ a c S I) as Q. exact Q.
  - intro BE. rewrite BE, app_nil_r in P. split.
    + eapply is_min_perm; [symmetry; exact P|]. pose proof (good_min _ _ c S N0 G) as Q. rewrite E in Q at 1. exact Q.
    + eapply is_max_perm; [symmetry; exact P|]. apply (good_max _ _ c S N0 G).
Qed.

(** ** C41: what the queries answer *)
Lemma TInv_ends s xs : TInv s xs -> t_buf s = [] -> xs <> [] ->
  exists mn mx, t_min s = Fin mn /\ t_max s = Fin mx /\ is_min xs mn /\ is_max xs mx /\ ends_ok mn mx (t_cs s) (t_w s) /\
                good_cs (t_cs s) xs /\ t_w s = N.of_nat (length xs).
Proof.
  intros [K (ys & P & G & W) S Mn Mx B] BE X.
  rewrite BE, app_nil_r in P. assert (G' : good_cs (t_cs s) xs) by (eapply good_perm; [symmetry; exact P|exact G]).
  rewrite <- (Permutation_length P) in W.
  assert (N0 : t_cs s <> []) by (intro E; rewrite E in G'; apply good_nil' in G'; congruence).
  destruct (t_min s) as [mn| | |]; cbn [min_ok] in Mn; [|congruence|contradiction|contradiction].
  destruct (t_max s) as [mx| | |]; cbn [max_ok] in Mx; [|contradiction|congruence|contradiction].
  exists mn, mx. do 4 (split; [auto|]). split; [|split; [exact G'|exact W]].
  assert (EL : forall d, (c_mean (hd d (t_cs s)) == mn)%Q).
  { intro d. destruct (good_min _ _ d S N0 G') as [(x & I & Ex) L]. destruct Mn as [(y & J & Ey) L'].
    specialize (L y J). specialize (L' x I). lra. }
  assert (EH : forall d, (c_mean (last (t_cs s) d) == mx)%Q).
  { intro d. destruct (good_max _ _ d S N0 G') as [(x & I & Ex) L]. destruct Mx as [(y & J & Ey) L'].
    specialize (L y J). specialize (L' x I). lra. }
  split.
  - split; auto.
    + eapply good_wt; exact G'.
    + rewrite W. apply good_sumw. exact G'.
    + intro d. specialize (EL d). split; [lra|auto].
    + intro d. specialize (EH d). split; [lra|auto].
  - intro d. apply (hd1 _ d S N0 (g_ends _ _ G')).
  - intro d. apply (hd1 _ d S N0 (g_ends _ _ G')).
Qed.

(** How Rank answers on a non-empty sketch. *)
Inductive rank_case (s : td) (xs : list Q) (v : Q) : td -> Q -> Prop :=
| rc_low : (forall x, In x xs -> (v < x)%Q) -> rank_case s xs v s 0
| rc_high : (forall x, In x xs -> (x < v)%Q) -> rank_case s xs v s 1
| rc_one x : xs = [x] -> (x == v)%Q -> rank_case s xs v s (1 # 2)
| rc_zone s' mn mx r : compress ln s = Some s' -> length (t_cs s) + length (t_buf s) <> 1 ->
    t_min s' = Fin mn -> t_max s' = Fin mx -> is_min xs mn -> is_max xs mx -> ends_ok mn mx (t_cs s') (t_w s') ->
    good_cs (t_cs s') xs -> t_w s' = N.of_nat (length xs) -> TInv s' xs -> t_buf s' = [] ->
    (mn <= v)%Q -> (v <= mx)%Q -> rank_tails mn mx (t_cs s') (t_w s') v = Val r ->
    rank_zone mn mx (t_cs s') (t_w s') v (r * qw (t_w s')) -> rank_case s xs v s' r.

Lemma rank_cases s xs v : TInv s xs -> xs <> [] -> exists s' r, rank ln s v = (s', Val r) /\ rank_case s xs v s' r.
Proof.
  intros H X. pose proof (TInv_empty _ _ H) as TE. unfold rank.
  destruct (is_empty s) eqn:E; [exfalso; apply X, TE; reflexivity|].
  pose proof (ti_min _ _ H) as Mn. pose proof (ti_max _ _ H) as Mx.
  destruct (t_min s) as [mn| | |] eqn:Emn; cbn [min_ok] in Mn; [|congruence|contradiction|contradiction].
  destruct (t_max s) as [mx| | |] eqn:Emx; cbn [max_ok] in Mx; [|contradiction|congruence|contradiction].
  cbn [lt_ext gt_ext]. destruct (qltb v mn) eqn:E1.
  { apply qltb_lt in E1. exists s, 0%Q. split; [reflexivity|]. apply rc_low. intros x I. destruct Mn as [_ L]. specialize (L x I). lra. }
  apply qltb_ge in E1. destruct (qltb mx v) eqn:E2.
  { apply qltb_lt in E2. exists s, 1%Q. split; [reflexivity|]. apply rc_high. intros x I. destruct Mx as [_ L]. specialize (L x I). lra. }
  apply qltb_ge in E2. destruct (Nat.eqb_spec (length (t_cs s) + length (t_buf s)) 1) as [E3|E3].
  - exists s, (1 # 2)%Q. split; [reflexivity|].
    assert (exists x, xs = [x]).
    { destruct H as [K (ys & P & G & W) S _ _ B].
      destruct (t_buf s) as [|b [|b' bs]]; cbn [length] in E3.
      - rewrite app_nil_r in P. destruct (t_cs s) as [|c [|c' cs]]; cbn [length] in E3; try lia.
        assert (N0 : [c] <> []) by discriminate. destruct (hd1 _ c S N0 (g_ends _ _ G)) as [W1 _]. cbn [hd] in W1.
        destruct (g_rep _ _ G) as (gs & F & Q). inversion F as [|? g ? gs' St F']; subst. inversion F'; subst.
        destruct St as (_ & L & _). rewrite W1 in L. cbn [concat] in Q. rewrite app_nil_r in Q.
        destruct g as [|x [|y g]]; cbn [length] in L; try lia.
        assert (Q' : Permutation [x] xs) by (rewrite P; symmetry; exact Q). apply Permutation_length_1_inv in Q'. exists x. exact Q'.
      - destruct (t_cs s) as [|c cs]; cbn [length] in E3; [|lia]. apply good_nil' in G. subst ys. cbn [app] in P. symmetry in P.
        apply Permutation_length_1_inv in P. exists b. exact P.
      - lia. }
    destruct H0 as (x & ->). apply (rc_one _ _ _ x); [reflexivity|]. destruct Mn as [_ L1]. destruct Mx as [_ L2].
    specialize (L1 x (or_introl eq_refl)). specialize (L2 x (or_introl eq_refl)).
    destruct (TInv_empty _ _ H). pose proof (ti_min _ _ H) as Mn'. rewrite Emn in Mn'. cbn [min_ok] in Mn'.
    destruct Mn' as [(y & [<-|[]] & Ey) _]. pose proof (ti_max _ _ H) as Mx'. rewrite Emx in Mx'. cbn [max_ok] in Mx'.
    destruct Mx' as [(z & [<-|[]] & Ez) _]. lra.
  - destruct (compress_ok ln s xs H) as (s1 & C & T & B & K). rewrite C.
    destruct (TInv_ends s1 xs T B X) as (mn1 & mx1 & Q1 & Q2 & Q3 & Q4 & Q5 & Q6 & Q7). rewrite Q1, Q2.
    assert (A1 : (mn1 <= v)%Q). { destruct Mn as [(x & I & Ex) _]. destruct Q3 as [_ L]. specialize (L x I). lra. }
    assert (A2 : (v <= mx1)%Q). { destruct Mx as [(x & I & Ex) _]. destruct Q4 as [_ L]. specialize (L x I). lra. }
    destruct (rank_tails_zone mn1 mx1 (t_cs s1) (t_w s1) v (eo_t _ _ _ _ Q5) A1 A2) as (r & R & Z).
    exists s1, r. split; [rewrite R; reflexivity|]. eapply rc_zone; eauto.
Qed.

Lemma zone_unit mn mx cs W v r : tails_ok mn mx cs W -> (mn <= v)%Q -> (v <= mx)%Q -> rank_zone mn mx cs W v (r * qw W) ->
  (0 <= r /\ r <= 1)%Q.
Proof.
  intros T A B Z. pose proof (zone_bounds _ _ _ _ _ _ T A B Z) as [L1 L2]. pose proof (qw_pos _ (tails_W _ _ _ _ T)) as P.
  halves. split; nra.
Qed.

(** Rank of a non-empty sketch answers, without failing, a number of [0, 1]; it is 0 below every value and 1 above every value,
    and 1/2 at the only value of a sketch of one value. *)
Theorem tdigest_rank_range k0 s xs v : made k0 s xs -> xs <> [] ->
  exists s' r, rank ln s v = (s', Val r) /\ (0 <= r /\ r <= 1)%Q /\
    ((forall x, In x xs -> (v < x)%Q) -> r = 0%Q) /\ ((forall x, In x xs -> (x < v)%Q) -> r = 1%Q) /\
    (forall x, xs = [x] -> (x == v)%Q -> (r == 1 # 2)%Q).
Proof.
  intros M X. destruct (made_inv _ _ _ M) as [H _]. destruct (rank_cases s xs v H X) as (s' & r & R & C). exists s', r.
  split; [exact R|].
  destruct xs as [|x0 xs]; [congruence|]. assert (I0 : In x0 (x0 :: xs)) by (left; reflexivity).
  destruct C as [L|L|x EX EV|s' mn mx r C Len Q1 Q2 Q3 Q4 Q5 Q6 Q7 Q8 Q9 A1 A2 R1 Z].
  - split; [lra|]. split; [reflexivity|]. split.
    + intro L'. specialize (L x0 I0). specialize (L' x0 I0). lra.
    + intros x E V. injection E as -> ->. specialize (L x I0). lra.
  - split; [lra|]. split; [|split; [reflexivity|]].
    + intro L'. specialize (L x0 I0). specialize (L' x0 I0). lra.
    + intros x E V. injection E as -> ->. specialize (L x I0). lra.
  - injection EX as -> ->. split; [lra|]. split; [|split; [|reflexivity]].
    + intro L'. specialize (L' x I0). lra.
    + intro L'. specialize (L' x I0). lra.
  - split; [eapply zone_unit; eauto using eo_t|]. split; [|split].
    + intro L'. destruct Q3 as [(y & I & E) _]. specialize (L' y I). lra.
    + intro L'. destruct Q4 as [(y & I & E) _]. specialize (L' y I). lra.
    + intros x E V. pose proof (zone_bounds _ _ _ _ _ _ (eo_t _ _ _ _ Q5) A1 A2 Z) as [B1 B2]. rewrite Q7, E in B1, B2.
      cbn [length] in B1, B2. change (qw (N.of_nat 1)) with 1%Q in B1, B2. halves. lra.
Qed.

Lemma compress_det s s1 s2 : compress ln s = Some s1 -> compress ln s = Some s2 -> s1 = s2.
Proof. congruence. Qed.

(** Rank is monotone: asked on one sketch, a larger value never has a smaller rank. *)
Theorem tdigest_rank_monotone k0 s xs v1 v2 s1 r1 s2 r2 : made k0 s xs -> (v1 <= v2)%Q ->
  rank ln s v1 = (s1, Val r1) -> rank ln s v2 = (s2, Val r2) -> (r1 <= r2)%Q.
Proof.
  intros M L R1 R2. destruct (made_inv _ _ _ M) as [H _].
  destruct xs as [|x0 xs]; [destruct (rank_state s [] v1 H) as [E _]; specialize (E eq_refl); rewrite R1 in E; discriminate|].
  assert (X : x0 :: xs <> []) by discriminate. assert (I0 : In x0 (x0 :: xs)) by (left; reflexivity).
  destruct (rank_cases s _ v1 H X) as (s1' & r1' & R1' & C1). rewrite R1 in R1'. injection R1' as <- <-.
  destruct (rank_cases s _ v2 H X) as (s2' & r2' & R2' & C2). rewrite R2 in R2'. injection R2' as <- <-.
  assert (B1 : (0 <= r1 /\ r1 <= 1)%Q).
  { destruct C1 as [L1|L1|x EX EV|s' mn mx r C Len Q1 Q2 Q3 Q4 Q5 Q6 Q7 Q8 Q9 A1 A2 RR Z]; try lra. eapply zone_unit; eauto using eo_t. }
  assert (B2 : (0 <= r2 /\ r2 <= 1)%Q).
  { destruct C2 as [L1|L1|x EX EV|s' mn mx r C Len Q1 Q2 Q3 Q4 Q5 Q6 Q7 Q8 Q9 A1 A2 RR Z]; try lra. eapply zone_unit; eauto using eo_t. }
  destruct C1 as [L1|L1|x EX EV|s1 mn mx r1 C Len Q1 Q2 Q3 Q4 Q5 Q6 Q7 Q8 Q9 A1 A2 RR Z]; [lra| | |].
  - destruct C2 as [L2|L2|x EX EV|s2 mn mx r2 C Len Q1 Q2 Q3 Q4 Q5 Q6 Q7 Q8 Q9 A1 A2 RR Z]; [| lra | |].
    + specialize (L1 x0 I0). specialize (L2 x0 I0). lra.
    + injection EX as -> ->. specialize (L1 x I0). lra.
    + destruct Q4 as [(y & I & E) _]. specialize (L1 y I). lra.
  - injection EX as -> ->.
    destruct C2 as [L2|L2|x' EX' EV'|s2 mn mx r2 C Len Q1 Q2 Q3 Q4 Q5 Q6 Q7 Q8 Q9 A1 A2 RR Z]; [| lra | lra |].
    + specialize (L2 x I0). lra.
    + pose proof (zone_bounds _ _ _ _ _ _ (eo_t _ _ _ _ Q5) A1 A2 Z) as [D1 D2]. rewrite Q7 in D1, D2.
      cbn [length] in D1, D2. change (qw (N.of_nat 1)) with 1%Q in D1, D2. halves. lra.
  - destruct C2 as [L2|L2|x EX EV|s2 mn' mx' r2 C' Len' P1 P2 P3 P4 P5 P6 P7 P8 P9 D1 D2 RR' Z']; [| lra | |].
    + destruct Q3 as [(y & I & E) _]. specialize (L2 y I). lra.
    + injection EX as -> ->. pose proof (zone_bounds _ _ _ _ _ _ (eo_t _ _ _ _ Q5) A1 A2 Z) as [D1 D2]. rewrite Q7 in D1, D2.
      cbn [length] in D1, D2. change (qw (N.of_nat 1)) with 1%Q in D1, D2. halves. lra.
    + pose proof (compress_det _ _ _ C C') as <-. rewrite Q1 in P1. injection P1 as <-. rewrite Q2 in P2. injection P2 as <-.
      pose proof (zone_mono _ _ _ _ _ _ _ _ (eo_t _ _ _ _ Q5) A1 L D2 Z Z') as MM.
      pose proof (qw_pos _ (tails_W _ _ _ _ (eo_t _ _ _ _ Q5))). nra.
Qed.

(** Quantile of a non-empty sketch answers, for every rank of [0, 1], a value between the smallest and the largest value. *)
Theorem tdigest_quantile_range k0 s xs r : made k0 s xs -> xs <> [] -> (0 <= r)%Q -> (r <= 1)%Q ->
  exists s' q mn mx, quantile ln s r = (s', Val q) /\ is_min xs mn /\ is_max xs mx /\ (mn <= q /\ q <= mx)%Q.
Proof.
  intros M X R0 R1. destruct (made_inv _ _ _ M) as [H _]. unfold quantile.
  destruct (is_empty s) eqn:E; [apply (TInv_empty _ _ H) in E; congruence|].
  assert (F1 : qltb r 0 = false) by (apply qltb_ge; exact R0). assert (F2 : qltb 1 r = false) by (apply qltb_ge; exact R1).
  rewrite F1, F2. cbn [orb]. destruct (compress_ok ln s xs H) as (s1 & C & T & B & K). rewrite C.
  destruct (TInv_ends s1 xs T B X) as (mn & mx & Q1 & Q2 & Q3 & Q4 & Q5 & Q6 & Q7). rewrite Q1, Q2.
  destruct (quantile_core_ok mn mx (t_cs s1) (t_w s1) r Q5 R0 R1) as (q & Q & B1). exists s1, q, mn, mx.
  rewrite Q. auto.
Qed.

(** ** Asking does not change the answers *)
Lemma squashed_len2 k W r l : 2 <= length l -> 2 <= length (squashed ln k W r l).
Proof.
  intro L. unfold squashed.
  assert (G : forall c q, 1 <= length q -> 2 <= length (squash ln k W true 0 c q)).
  { intros c [|b q] Lq; [cbn [length] in Lq; lia|]. cbn [squash orb length].
    pose proof (squash_nonnil ln k W false (0 + qw (c_wt c)) b q). destruct (squash _ _ _ _ _ _ _); [congruence|]. cbn [length]. lia. }
  destruct r.
  - assert (L' : length (rev l) = length l) by apply rev_length. destruct (rev l) as [|c q]; [cbn [length] in L'; lia|].
    cbv zeta. rewrite rev_length. apply G. cbn [length] in L'. lia.
  - destruct l as [|c q]; [cbn [length] in L; lia|]. cbv zeta. apply G. cbn [length] in L. lia.
Qed.

Lemma compress_len s xs s1 : TInv s xs -> compress ln s = Some s1 -> xs <> [] ->
  length (t_cs s) + length (t_buf s) <> 1 -> length (t_cs s1) + length (t_buf s1) <> 1.
Proof.
  intros H C X L. destruct (compress_ok ln s xs H) as (s2 & C2 & T & B & K). rewrite C in C2. injection C2 as <-. rewrite B. cbn [length].
  unfold compress in C. destruct (t_buf s) as [|b bs] eqn:E.
  - injection C as <-. cbn [length] in L. lia.
  - rewrite <- E in *. assert (N0 : singles (t_buf s) ++ t_cs s <> []) by (rewrite E; discriminate).
    rewrite merge_merged in C by exact N0. injection C as <-. unfold merged. cbn [t_cs].
    assert (2 <= length (ssort (singles (t_buf s) ++ t_cs s))).
    { rewrite <- (Permutation_length (ssort_perm _)), app_length. unfold singles. rewrite map_length.
      assert (length (t_buf s) <> 0) by (rewrite E; discriminate). lia. }
    pose proof (squashed_len2 (t_k s) (t_w s + N.of_nat (length (t_buf s))) (t_rev s) _ H0). lia.
Qed.

Lemma compress_idem s xs s1 : TInv s xs -> compress ln s = Some s1 -> compress ln s1 = Some s1.
Proof.
  intros H C. destruct (compress_ok ln s xs H) as (s2 & C2 & T & B & K). rewrite C in C2. injection C2 as <-.
  unfold compress. rewrite B. reflexivity.
Qed.

Lemma rank_after_compress s xs s1 v : TInv s xs -> xs <> [] -> compress ln s = Some s1 -> length (t_cs s) + length (t_buf s) <> 1 ->
  snd (rank ln s1 v) = snd (rank ln s v).
Proof.
  intros H X C L. pose proof (compress_len s xs s1 H C X L) as L1. pose proof (compress_idem s xs s1 H C) as CI.
  destruct (compress_ok ln s xs H) as (s2 & C2 & T & B & K). rewrite C in C2. injection C2 as <-.
  pose proof (TInv_empty _ _ H) as TE. pose proof (TInv_empty _ _ T) as TE1.
  unfold rank. destruct (is_empty s) eqn:E; [exfalso; apply X, TE; reflexivity|].
  destruct (is_empty s1) eqn:E1; [exfalso; apply X, TE1; reflexivity|].
  pose proof (ti_min _ _ H) as Mn. pose proof (ti_max _ _ H) as Mx.
  pose proof (ti_min _ _ T) as Mn1. pose proof (ti_max _ _ T) as Mx1.
  assert (F1 : lt_ext v (t_min s1) = lt_ext v (t_min s)).
  { destruct (t_min s) as [mn| | |]; cbn [min_ok] in Mn; [|congruence|contradiction|contradiction].
    destruct (t_min s1) as [mn1| | |]; cbn [min_ok] in Mn1; [|congruence|contradiction|contradiction].
    assert (EQ : (mn1 == mn)%Q).
    { destruct Mn as [(x & I & Ex) La], Mn1 as [(y & J & Ey) Lb]. specialize (La y J). specialize (Lb x I). lra. }
    cbn [lt_ext]. unfold qltb. rewrite EQ. reflexivity. }
  assert (F2 : gt_ext v (t_max s1) = gt_ext v (t_max s)).
  { destruct (t_max s) as [mx| | |]; cbn [max_ok] in Mx; [|contradiction|congruence|contradiction].
    destruct (t_max s1) as [mx1| | |]; cbn [max_ok] in Mx1; [|contradiction|congruence|contradiction].
    assert (EQ : (mx1 == mx)%Q).
    { destruct Mx as [(x & I & Ex) La], Mx1 as [(y & J & Ey) Lb]. specialize (La y J). specialize (Lb x I). lra. }
    cbn [gt_ext]. unfold qltb. rewrite EQ. reflexivity. }
  rewrite F1, F2. destruct (lt_ext v (t_min s)); [reflexivity|]. destruct (gt_ext v (t_max s)); [reflexivity|].
  destruct (Nat.eqb_spec (length (t_cs s1) + length (t_buf s1)) 1) as [|_]; [lia|].
  destruct (Nat.eqb_spec (length (t_cs s) + length (t_buf s)) 1) as [|_]; [lia|].
  rewrite CI, C. reflexivity.
Qed.

(** Rank and Quantile change the sketch (they compress it) but not what it answers afterwards. *)
Theorem tdigest_queries_stable k0 s xs v w s1 r q s2 p : made k0 s xs ->
  rank ln s v = (s1, Val r) -> quantile ln s p = (s2, Val q) ->
  snd (rank ln s1 w) = snd (rank ln s w) /\ snd (quantile ln s1 p) = Val q /\ snd (quantile ln s2 p) = Val q.
Proof.
  intros M R Q. destruct (made_inv _ _ _ M) as [H _].
  destruct xs as [|x0 xs]; [destruct (rank_state s [] v H) as [E _]; specialize (E eq_refl); rewrite R in E; discriminate|].
  assert (X : x0 :: xs <> []) by discriminate.
  assert (QC : forall s', compress ln s = Some s' -> snd (quantile ln s' p) = Val q).
  { intros s' C. pose proof (compress_idem s _ s' H C) as CI. destruct (compress_ok ln s _ H) as (s3 & C3 & T & B & K).
    rewrite C in C3. injection C3 as <-. unfold quantile in Q |- *.
    destruct (is_empty s') eqn:E'; [apply (TInv_empty _ _ T) in E'; congruence|].
    destruct (is_empty s) eqn:E; [discriminate|]. destruct (qltb p 0 || qltb 1 p); [discriminate|].
    rewrite C in Q. rewrite CI. destruct (t_min s'); try discriminate. destruct (t_max s'); try discriminate.
    injection Q as _ Q. exact Q. }
  split; [|split].
  - destruct (rank_cases s _ v H X) as (s1' & r' & R' & C). rewrite R in R'. injection R' as <- <-.
    destruct C as [L|L|x EX EV|s1 mn mx r C Len Q1 Q2 Q3 Q4 Q5 Q6 Q7 Q8 Q9 A1 A2 RR Z]; try reflexivity.
    eapply rank_after_compress; eassumption.
  - destruct (rank_state s _ v H) as [_ S]. rewrite R in S. cbn [fst] in S. destruct (S X) as [->|C]; [rewrite Q; reflexivity|].
    apply QC. exact C.
  - pose proof (quantile_state s _ p H) as S. rewrite Q in S. cbn [fst] in S. destruct S as [->|C]; [rewrite Q; reflexivity|].
    apply QC. exact C.
Qed.

(** ** CDF and PMF *)
Lemma valid_splits_sorted l : valid_splits l = true -> StronglySorted Qlt l.
Proof.
  induction l as [|x l IH]; intro V; [constructor|]. destruct l as [|y l]; [repeat constructor|].
  change (qltb x y && valid_splits (y :: l) = true) in V. apply andb_prop in V. destruct V as [V1 V2]. specialize (IH V2).
  apply qltb_lt in V1. constructor; [exact IH|]. constructor; [exact V1|]. apply StronglySorted_inv in IH. destruct IH as [_ F].
  eapply Forall_impl; [|exact F]. cbn. intros; lra.
Qed.

Lemma ranks_ok l : forall s xs, TInv s xs -> xs <> [] -> exists s' rs, ranks ln s l = (s', Val rs) /\
  Forall2 (fun v r => snd (rank ln s v) = Val r) l rs.
Proof.
  induction l as [|v l IH]; intros s xs H X; cbn [ranks]; [exists s, []; split; [reflexivity|constructor]|].
  destruct (rank_cases s xs v H X) as (s1 & r & R & C). rewrite R.
  assert (E : TInv s1 xs /\ forall w, snd (rank ln s1 w) = snd (rank ln s w)).
  { destruct C as [L|L|x EX EV|s1 mn mx r C Len Q1 Q2 Q3 Q4 Q5 Q6 Q7 Q8 Q9 A1 A2 RR Z]; try (split; [exact H|reflexivity]).
    split; [exact Q8|]. intro w. eapply rank_after_compress; eassumption. }
  destruct E as [T E]. destruct (IH s1 xs T X) as (s2 & rs & R2 & F). rewrite R2. exists s2, (r :: rs). split; [reflexivity|].
  constructor; [rewrite R; reflexivity|]. clear - F E.
  induction F as [|a b l rs Q F IH]; constructor; [rewrite <- E; exact Q|exact IH].
Qed.

Fixpoint nondecreasing (l : list Q) : Prop := match l with x :: ((y :: _) as l') => (x <= y)%Q /\ nondecreasing l' | _ => True end.

(** CDF on increasing split points answers the ranks of the split points, followed by 1: numbers of [0, 1] that never decrease. *)
Theorem tdigest_cdf_monotone k0 s xs splits : made k0 s xs -> xs <> [] -> valid_splits splits = true ->
  exists s' rs, cdf ln s splits = (s', Val (rs ++ [1%Q])) /\
    Forall2 (fun v r => snd (rank ln s v) = Val r) splits rs /\
    nondecreasing (rs ++ [1%Q]) /\ Forall (fun r => (0 <= r /\ r <= 1)%Q) rs.
Proof.
  intros M X V. destruct (made_inv _ _ _ M) as [H _]. destruct (ranks_ok splits s xs H X) as (s' & rs & R & F).
  exists s', rs. unfold cdf. rewrite V. cbn [negb]. rewrite R. split; [reflexivity|]. split; [exact F|].
  assert (U : Forall (fun r => (0 <= r /\ r <= 1)%Q) rs).
  { clear R V. induction F as [|v r l rs Q F IH]; constructor; [|exact IH].
    destruct (tdigest_rank_range k0 s xs v M X) as (s1 & r' & R' & B & _). rewrite R' in Q. injection Q as <-. exact B. }
  split; [|exact U]. apply valid_splits_sorted in V. clear R.
  revert U V. induction F as [|v r l rs Q F IH]; intros U V; [exact I|].
  apply Forall_cons_iff in U. destruct U as [U1 U2]. apply StronglySorted_inv in V. destruct V as [V1 V2].
  specialize (IH U2 V1). destruct F as [|v' r' l rs Q' F].
  - cbn [app nondecreasing]. split; [lra|exact I].
  - cbn [app] in IH |- *. split; [|exact IH]. apply Forall_cons_iff in V2. destruct V2 as [V2 _].
    destruct (rank ln s v) as [sa aa] eqn:Ra. destruct (rank ln s v') as [sb ab] eqn:Rb. cbn [snd] in Q, Q'. subst aa ab.
    eapply (tdigest_rank_monotone k0 s xs v v'); eauto. lra.
Qed.

Definition total (l : list Q) : Q := fold_right Qplus 0%Q l.

Lemma differences_ok l : forall p, nondecreasing (p :: l) ->
  Forall (fun x => (0 <= x)%Q) (differences p l) /\ (p + total (differences p l) == last l p)%Q.
Proof.
  induction l as [|x l IH]; intros p N0; cbn [differences].
  - split; [constructor|]. cbn [total fold_right last]. ring.
  - destruct N0 as [L N0]. destruct (IH x N0) as [F S]. split.
    + constructor; [lra|exact F].
    + change (total (x - p :: differences x l)%Q) with (x - p + total (differences x l))%Q.
      assert (LE : last (x :: l) p = last l x).
      { destruct l as [|y l]; [reflexivity|]. change (last (x :: y :: l) p) with (last (y :: l) p). apply last_any. discriminate. }
      rewrite LE, <- S. ring.
Qed.

(** PMF answers one more number than there are split points; none is negative and they add up to 1. *)
Theorem tdigest_pmf_distribution k0 s xs splits : made k0 s xs -> xs <> [] -> valid_splits splits = true ->
  exists s' ps, pmf ln s splits = (s', Val ps) /\ length ps = length splits + 1 /\
    Forall (fun p => (0 <= p)%Q) ps /\ (total ps == 1)%Q.
Proof.
  intros M X V. destruct (tdigest_cdf_monotone k0 s xs splits M X V) as (s' & rs & C & F & N0 & U). unfold pmf. rewrite C.
  assert (LR : length rs = length splits) by (clear - F; induction F; cbn [length]; auto).
  assert (LD : forall l p, length (differences p l) = length l) by (induction l; intros; cbn [differences length]; auto).
  destruct rs as [|r rs].
  - cbn [app differences]. exists s', [1%Q]. split; [reflexivity|]. split; [cbn [length] in *; lia|]. split; [repeat constructor; lra|].
    cbn [total fold_right]. lra.
  - cbn [app] in *. exists s', (r :: differences r (rs ++ [1%Q])). split; [reflexivity|].
    destruct (differences_ok _ _ N0) as [D1 D2]. split; [|split].
    + cbn [length] in *. rewrite LD, app_length. cbn [length]. lia.
    + apply Forall_cons_iff in U. constructor; [apply U|exact D1].
    + change (total (r :: differences r (rs ++ [1%Q]))) with (r + total (differences r (rs ++ [1%Q])))%Q. rewrite D2, last_last. reflexivity.
Qed.

End Props.
