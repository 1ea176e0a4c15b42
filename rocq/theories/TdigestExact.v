(** * Small streams are kept exactly

    While three times the number of values stays below 2k, no two values share a centroid, and Rank and Quantile are exact. The only
    fact about the logarithm that is used is that it is not positive up to 1. *)
From Verif Require Import Base Arr TdigestModel TdigestProofs TdigestSem TdigestRank TdigestProps.
From Coq Require Import QArith Qabs Permutation Sorted Lqa Setoid.
Local Close Scope Q_scope.
Local Open Scope nat_scope.

Definition ones (cs : list cent) : Prop := Forall (fun c => c_wt c = 1%N) cs.

Lemma quarter q : (0 <= q)%Q -> (q <= 1)%Q -> (0 <= q * (1 - q) /\ q * (1 - q) <= 1 # 4)%Q.
Proof.
  intros A B. split; [nra|].
  assert (S : (0 <= (q - (1 # 2)) * (q - (1 # 2)))%Q) by (destruct (Qlt_le_dec q (1 # 2)); nra).
  lra.
Qed.

Section Exact.
Variable ln : Q -> Q.
Hypothesis ln_nonpos : forall x, (0 < x)%Q -> (x <= 1)%Q -> (ln x <= 0)%Q.

Lemma fits_false k W so cw bw : (3 * W < 2 * k)%N -> (0 < W)%N -> (0 <= so)%Q -> (so <= qw W)%Q -> (0 < cw)%N -> (0 < bw)%N ->
  fits ln k W so cw bw = false.
Proof.
  intros K Wp S0 S1 C B. unfold fits. cbv zeta. apply qleb_gt.
  pose proof (qw_ge1 _ C) as C1. pose proof (qw_ge1 _ B) as B1. pose proof (qw_pos _ Wp) as Wq.
  assert (Kq : (3 * qw W < 2 * qw k)%Q).
  { pose proof (qw_lt _ _ K) as L. unfold qw in *. rewrite !N2Z.inj_mul, !inject_Z_mult in L. exact L. }
  set (nrm := sf_normalizer ln (2 * qw k) (qw W)).
  set (q2 := ((so + (qw cw + qw bw)) / qw W)%Q). set (q0 := (so / qw W)%Q).
  assert (M : (qmin (sf_max q0 nrm) (sf_max q2 nrm) <= sf_max q0 nrm)%Q).
  { unfold qmin. destruct (qltb _ _) eqn:E; [apply qltb_lt in E; lra|lra]. }
  assert (Q0 : (0 <= q0)%Q) by (apply Qle_shift_div_l; lra).
  assert (Q1 : (q0 <= 1)%Q) by (apply Qle_shift_div_r; lra).
  set (z := sf_z ln (2 * qw k) (qw W)).
  assert (Z : (z <= 24)%Q).
  { unfold z, sf_z. assert ((ln (qw W / (2 * qw k)) <= 0)%Q); [|lra]. apply ln_nonpos.
    - apply Qlt_shift_div_l; lra. - apply Qle_shift_div_r; lra. }
  assert (E : (sf_max q0 nrm == q0 * (1 - q0) * (z * / (2 * qw k)))%Q).
  { unfold sf_max, nrm, sf_normalizer. fold z. unfold Qdiv. rewrite Qinv_mult_distr, Qinv_involutive. ring. }
  set (t := (q0 * (1 - q0))%Q) in *.
  destruct (quarter q0 Q0 Q1) as [T0 T1]. fold t in T0, T1.
  assert (I0 : (0 < / (2 * qw k))%Q) by (apply Qinv_lt_0_compat; lra).
  assert (I1 : (qw W * / (2 * qw k) < 1 # 3)%Q).
  { change (qw W / (2 * qw k) < 1 # 3)%Q. apply Qlt_shift_div_r; lra. }
  set (i := (/ (2 * qw k))%Q) in *. clearbody i z t q0 q2 nrm.
  assert (H1 : (qw W * sf_max q0 nrm == t * z * (qw W * i))%Q) by (rewrite E; ring).
  set (y := (qw W * i)%Q) in *. assert (Y0 : (0 <= y)%Q) by (unfold y; nra).
  assert (H2 : (t * z <= 6)%Q) by nra.
  assert (H3 : (t * z * y < 2)%Q).
  { destruct (Qlt_le_dec 0 y) as [Yp|Yp]; [|assert ((y == 0)%Q) as -> by lra; lra].
    assert ((t * z * y <= 6 * y)%Q) by (apply Qmult_le_compat_r; lra). lra. }
  assert (H4 : (qw W * qmin (sf_max q0 nrm) (sf_max q2 nrm) <= qw W * sf_max q0 nrm)%Q).
  { rewrite !(Qmult_comm (qw W)). apply Qmult_le_compat_r; lra. }
  lra.
Qed.

Lemma squash_id k W l : (3 * W < 2 * k)%N -> (0 < W)%N -> forall first so cur, Forall (fun c => (0 < c_wt c)%N) (cur :: l) ->
  (0 <= so)%Q -> (so + sumw (cur :: l) == qw W)%Q -> squash ln k W first so cur l = cur :: l.
Proof.
  intros K Wp. induction l as [|b l IH]; intros first so cur P S E; cbn [squash]; [reflexivity|].
  apply Forall_cons_iff in P. destruct P as [Pc P]. pose proof P as P'. apply Forall_cons_iff in P'. destruct P' as [Pb _].
  change (sumw (cur :: b :: l)) with (qw (c_wt cur) + sumw (b :: l))%Q in E. pose proof (sumw_nonneg (b :: l)).
  pose proof (qw_nonneg (c_wt cur)).
  rewrite fits_false; auto; [|lra].
  assert (F : (if first || match l with [] => true | _ => false end then false else false) = false) by (destruct (first || _); reflexivity).
  rewrite F. rewrite IH; [reflexivity|exact P|lra|]. lra.
Qed.

Lemma squashed_id k W r l : (3 * W < 2 * k)%N -> (0 < W)%N -> Forall (fun c => (0 < c_wt c)%N) l -> (sumw l == qw W)%Q ->
  squashed ln k W r l = l.
Proof.
  intros K Wp P E. unfold squashed. destruct r.
  - assert (E' : (sumw (rev l) == qw W)%Q) by (rewrite <- (sumw_perm _ _ (Permutation_rev l)); exact E).
    pose proof (Forall_rev P) as P'. destruct (rev l) as [|c q] eqn:R.
    + apply (f_equal (@rev cent)) in R. rewrite rev_involutive in R. symmetry. exact R.
    + cbv zeta. rewrite squash_id; auto; [rewrite <- R; apply rev_involutive|lra|rewrite E'; ring].
  - destruct l as [|c q]; [reflexivity|]. cbv zeta. rewrite squash_id; auto; [lra|rewrite E; ring].
Qed.

Lemma ones_singles l : ones (singles l).
Proof. unfold ones, singles. apply Forall_forall. intros c I. apply in_map_iff in I. destruct I as (x & <- & _). reflexivity. Qed.
Lemma ones_pos l : ones l -> Forall (fun c => (0 < c_wt c)%N) l.
Proof. intro H. eapply Forall_impl; [|exact H]. cbn. intros; lia. Qed.

Lemma merged_ones s tmp w n : ones tmp -> ones (t_cs s) -> (t_w s + w)%N = N.of_nat n -> (sumw (tmp ++ t_cs s) == qw (t_w s + w))%Q ->
  0 < n -> (3 * N.of_nat n < 2 * t_k s)%N -> ones (t_cs (merged ln s tmp w)).
Proof.
  intros O1 O2 E Sm Np K. unfold merged. cbn [t_cs].
  assert (O : ones (ssort (tmp ++ t_cs s))).
  { unfold ones. eapply Permutation_Forall; [apply ssort_perm|]. apply Forall_app. split; assumption. }
  rewrite squashed_id; auto.
  - rewrite E. exact K.
  - lia.
  - apply ones_pos. exact O.
  - rewrite <- (sumw_perm _ _ (ssort_perm _)). exact Sm.
Qed.

Lemma compress_ones s xs s' : TInv s xs -> ones (t_cs s) -> (3 * N.of_nat (length xs) < 2 * t_k s)%N -> compress ln s = Some s' -> ones (t_cs s').
Proof.
  intros H O K C. unfold compress in C. destruct (t_buf s) as [|b bs] eqn:E; [injection C as <-; exact O|]. rewrite <- E in C.
  rewrite merge_merged in C by (rewrite E; discriminate). injection C as <-.
  destruct H as [_ (ys & P & G & W) _ _ _ _]. pose proof (Permutation_length P) as L. rewrite app_length in L.
  assert (T : (t_w s + N.of_nat (length (t_buf s)))%N = N.of_nat (length xs)) by (rewrite W; lia).
  apply (merged_ones s _ _ (length xs)); auto.
  - apply ones_singles.
  - rewrite T, sumw_app, (good_sumw _ _ G), (good_sumw _ _ (good_singles (t_buf s))), <- qw_add. rewrite L, Nat2N.inj_add, N.add_comm. reflexivity.
  - rewrite L, E. cbn [length]. lia.
Qed.

(** Every value has its own centroid. *)
Lemma made_ones k0 s xs : made ln k0 s xs -> (3 * N.of_nat (length xs) < 2 * k0)%N -> ones (t_cs s).
Proof.
  intro M. induction M as [k s K E|s xs v s' M IH E|s xs o ys s' M1 IH1 M2 IH2 E|s xs v s' a M IH E|s xs r s' a M IH E|s xs s' M IH E|s xs M IH]; intro L.
  - unfold td_new in E. destruct (_ <? _)%N; [discriminate|]. injection E as <-. constructor.
  - rewrite app_length, Nat2N.inj_add in L. destruct (made_inv _ _ _ _ M) as [H K]. specialize (IH ltac:(lia)).
    unfold update in E. destruct (length (t_buf s) =? buffer_limit (t_k s)).
    + destruct (compress ln s) as [s1|] eqn:C; [|discriminate]. injection E as <-. cbn [t_cs].
      apply (compress_ones s xs s1 H IH); [lia|exact C].
    + injection E as <-. exact IH.
  - destruct (made_inv _ _ _ _ M1) as [H1 K1]. destruct (made_inv _ _ _ _ M2) as [H2 K2].
    rewrite app_length, Nat2N.inj_add in L. specialize (IH1 ltac:(lia)). specialize (IH2 ltac:(lia)).
    unfold merge_in in E. destruct (is_empty o) eqn:Eo; [discriminate|].
    assert (Y : ys <> []) by (intro Y; apply (TInv_empty _ _ H2) in Y; congruence).
    assert (YL : 0 < length ys) by (destruct ys; [congruence|cbn [length]; lia]).
    pose proof H1 as [_ (zs & P & G & W) _ _ _ _]. pose proof H2 as [_ (zs2 & P2 & G2 & W2) _ _ _ _].
    pose proof (Permutation_length P) as Lx. rewrite app_length in Lx. pose proof (Permutation_length P2) as Ly. rewrite app_length in Ly.
    set (tmp := singles (t_buf s) ++ singles (t_buf o) ++ t_cs o) in *. set (w := (N.of_nat (length (t_buf s)) + total_weight o)%N) in *.
    assert (T : (t_w s + w)%N = N.of_nat (length xs + length ys)).
    { unfold w, total_weight. rewrite W, W2. lia. }
    assert (Sm : (sumw (tmp ++ t_cs s) == qw (t_w s + w))%Q).
    { rewrite T. unfold tmp. rewrite !sumw_app, (good_sumw _ _ G), (good_sumw _ _ G2), !(good_sumw _ _ (good_singles _)), <- !qw_add.
      rewrite Lx, Ly. replace (N.of_nat (length (t_buf s)) + (N.of_nat (length (t_buf o)) + N.of_nat (length zs2)) + N.of_nat (length zs))%N
        with (N.of_nat (length zs + length (t_buf s) + (length zs2 + length (t_buf o)))) by lia. reflexivity. }
    assert (N0 : tmp ++ t_cs s <> []).
    { intro F. rewrite F in Sm. change (sumw []) with 0%Q in Sm. rewrite T in Sm.
      pose proof (qw_pos (N.of_nat (length xs + length ys)) ltac:(lia)). lra. }
    rewrite merge_merged in E by exact N0. injection E as <-.
    apply (merged_ones s tmp w (length xs + length ys)); auto; try lia.
    unfold tmp, ones. apply Forall_app. split; [apply ones_singles|]. apply Forall_app. split; [apply ones_singles|exact IH2].
  - destruct (made_inv _ _ _ _ M) as [H K]. specialize (IH L). destruct (rank_state ln s xs v H) as [R0 R1]. rewrite E in R0, R1. cbn [fst] in R1.
    destruct xs as [|x xs]; [specialize (R0 eq_refl); injection R0 as -> _; exact IH|].
    destruct R1 as [->|C]; [discriminate|exact IH|]. apply (compress_ones s _ s' H IH); [lia|exact C].
  - destruct (made_inv _ _ _ _ M) as [H K]. specialize (IH L). pose proof (quantile_state ln s xs r H) as R. rewrite E in R. cbn [fst] in R.
    destruct R as [->|C]; [exact IH|]. apply (compress_ones s _ s' H IH); [lia|exact C].
  - destruct (made_inv _ _ _ _ M) as [H K]. specialize (IH L). apply (compress_ones s _ s' H IH); [lia|exact E].
  - specialize (IH L). unfold reload. destruct (is_empty s); [constructor|]. destruct (_ =? 1)%N; [repeat constructor|exact IH].
Qed.

(** ** Counting *)
Lemma count_perm p xs ys : Permutation xs ys -> count p xs = count p ys.
Proof.
  unfold count. induction 1 as [|x l l' P IH|x y l|l1 l2 l3 P1 IH1 P2 IH2]; cbn [filter].
  - reflexivity.
  - destruct (p x); cbn [length]; auto.
  - destruct (p x), (p y); reflexivity.
  - congruence.
Qed.
Lemma ones_count p cs xs : (forall x y, (x == y)%Q -> p x = p y) -> good_cs cs xs -> ones cs ->
  count p xs = length (filter (fun c => p (c_mean c)) cs).
Proof.
  intros Pr G O. destruct (g_rep _ _ G) as (gs & F & P). rewrite (count_perm _ _ _ P). clear P G. unfold count.
  revert O. induction F as [|c g l gs St F IH]; intro O; [reflexivity|].
  apply Forall_cons_iff in O. destruct O as [Oc O]. specialize (IH O). cbn [concat filter].
  destruct St as (_ & L & E). rewrite Oc in L, E. destruct g as [|x [|y g]]; cbn [length] in L; try lia.
  cbn [app filter]. cbn [qsum fold_right] in E. rewrite qw_1 in E.
  rewrite (Pr x (c_mean c)) by lra. destruct (p (c_mean c)); cbn [length]; auto.
Qed.
Lemma filter_len_le {A} (p : A -> bool) l : forall n, (forall i c, n <= i -> nth_error l i = Some c -> p c = false) -> length (filter p l) <= n.
Proof.
  induction l as [|x l IH]; intros n H; [cbn; lia|]. cbn [filter]. destruct n as [|n].
  - rewrite (H 0 x) by (auto; lia). apply (IH 0). intros i c _ C. apply (H (S i) c); [lia|exact C].
  - assert (length (filter p l) <= n) by (apply IH; intros i c L C; apply (H (S i) c); [lia|exact C]).
    destruct (p x); cbn [length]; lia.
Qed.
Lemma filter_len_ge {A} (p : A -> bool) l : forall n, n <= length l -> (forall i c, i < n -> nth_error l i = Some c -> p c = true) -> n <= length (filter p l).
Proof.
  induction l as [|x l IH]; intros n L H; [cbn [length] in L; lia|]. destruct n as [|n]; [lia|]. cbn [filter].
  rewrite (H 0 x) by (auto; lia). cbn [length] in *. apply le_n_S, IH; [lia|]. intros i c Li C. apply (H (S i) c); [lia|exact C].
Qed.

Definition lt_v (v : Q) (x : Q) : bool := qltb x v.
Definition le_v (v : Q) (x : Q) : bool := Qle_bool x v.
Lemma lt_v_proper v x y : (x == y)%Q -> lt_v v x = lt_v v y.
Proof. intro E. unfold lt_v, qltb. rewrite E. reflexivity. Qed.
Lemma le_v_proper v x y : (x == y)%Q -> le_v v x = le_v v y.
Proof. intro E. unfold le_v. rewrite E. reflexivity. Qed.

Lemma qw_S n : (qw (N.of_nat (S n)) == qw (N.of_nat n) + 1)%Q.
Proof. replace (N.of_nat (S n)) with (N.of_nat n + 1)%N by lia. rewrite qw_add, qw_1. reflexivity. Qed.
Lemma ones_below cs i : ones cs -> i <= length cs -> (below cs i == qw (N.of_nat i))%Q.
Proof.
  intros O. induction i as [|i IH]; intro L; [reflexivity|].
  destruct (nth_error cs i) as [c|] eqn:E; [|apply nth_error_None in E; lia].
  rewrite (below_S cs i c E), IH, qw_S by lia. unfold ones in O. rewrite Forall_forall in O. rewrite (O c (nth_error_In _ _ E)), qw_1. reflexivity.
Qed.
Lemma ones_center cs i c : ones cs -> nth_error cs i = Some c -> (center cs i c == qw (N.of_nat i) + (1 # 2))%Q.
Proof.
  intros O E. unfold center. assert (i < length cs) by (apply nth_error_Some; congruence). rewrite ones_below by (auto; lia).
  unfold ones in O. rewrite Forall_forall in O. rewrite (O c (nth_error_In _ _ E)), qw_1. reflexivity.
Qed.

(** [mid_rank] where all centroids are single values. *)
Lemma ones_mid_rank cs xs v l u cl cu rw : StronglySorted mle cs -> good_cs cs xs -> ones cs -> mid_rank cs v l u cl cu rw ->
  let lt := qw (N.of_nat (count (lt_v v) xs)) in let le := qw (N.of_nat (count (le_v v) xs)) in
  (Qabs (2 * rw - (lt + le)) <= 1)%Q /\ ((exists x, In x xs /\ (x == v)%Q) -> (2 * rw == lt + le)%Q).
Proof.
  intros So G O M. cbv zeta. rewrite (ones_count _ _ _ (lt_v_proper v) G O), (ones_count _ _ _ (le_v_proper v) G O).
  destruct M as [l u cl cu rw L A B C D E F R|l cl cu rw A B C D R].
  - assert (Ll : l < length cs) by (apply nth_error_Some; congruence). assert (Lu : u < length cs) by (apply nth_error_Some; congruence).
    assert (E1 : length (filter (fun c => lt_v v (c_mean c)) cs) = l).
    { apply Nat.le_antisymm.
      - apply filter_len_le. intros i c Li Ci. apply qltb_ge. pose proof (sorted_nth cs So l i _ _ Li A Ci) as Q. unfold mle in Q. lra.
      - apply filter_len_ge; [lia|]. intros i c Li Ci. apply qltb_lt. apply (E i c Li Ci). }
    assert (E2 : length (filter (fun c => le_v v (c_mean c)) cs) = S u).
    { apply Nat.le_antisymm.
      - apply filter_len_le. intros i c Li Ci. apply qleb_gt. apply (F i c); [lia|exact Ci].
      - apply filter_len_ge; [lia|]. intros i c Li Ci. apply Qle_bool_iff. pose proof (sorted_nth cs So i u _ _ ltac:(lia) Ci B) as Q. unfold mle in Q. lra. }
    rewrite E1, E2, qw_S. rewrite (ones_center cs l cl O A), (ones_center cs u cu O B) in R.
    assert (X : (2 * rw == qw (N.of_nat l) + (qw (N.of_nat u) + 1))%Q) by (rewrite R; field).
    split; [|intros _; exact X]. rewrite X. apply Qabs_Qle_condition. split; lra.
  - assert (Ll : S l < length cs) by (apply nth_error_Some; congruence).
    assert (E1 : length (filter (fun c => lt_v v (c_mean c)) cs) = S l).
    { apply Nat.le_antisymm.
      - apply filter_len_le. intros i c Li Ci. apply qltb_ge. pose proof (sorted_nth cs So (S l) i _ _ Li B Ci) as Q. unfold mle in Q. lra.
      - apply filter_len_ge; [lia|]. intros i c Li Ci. apply qltb_lt. pose proof (sorted_nth cs So i l _ _ ltac:(lia) Ci A) as Q. unfold mle in Q. lra. }
    assert (E2 : length (filter (fun c => le_v v (c_mean c)) cs) = S l).
    { apply Nat.le_antisymm.
      - apply filter_len_le. intros i c Li Ci. apply qleb_gt. pose proof (sorted_nth cs So (S l) i _ _ Li B Ci) as Q. unfold mle in Q. lra.
      - apply filter_len_ge; [lia|]. intros i c Li Ci. apply Qle_bool_iff. pose proof (sorted_nth cs So i l _ _ ltac:(lia) Ci A) as Q. unfold mle in Q. lra. }
    split.
    + rewrite E1, E2, qw_S. destruct (frac01 _ _ _ C D) as [F0 F1]. set (f := ((v - c_mean cl) / (c_mean cu - c_mean cl))%Q) in *.
      rewrite (ones_center cs l cl O A), (ones_center cs (S l) cu O B), qw_S in R. apply Qabs_Qle_condition. clearbody f. split; nra.
    + intros (x & I & Ex). exfalso.
      assert (N1 : count (le_v v) xs = count (lt_v v) xs).
      { rewrite (ones_count _ _ _ (lt_v_proper v) G O), (ones_count _ _ _ (le_v_proper v) G O). congruence. }
      clear - I Ex N1. assert (H : count (lt_v v) xs < count (le_v v) xs); [|lia]. clear N1. unfold count.
      assert (G : forall ys, length (filter (lt_v v) ys) <= length (filter (le_v v) ys)).
      { induction ys as [|y ys IH]; [cbn; lia|]. cbn [filter]. unfold lt_v at 1, le_v at 1.
        destruct (qltb y v) eqn:Q1; [|destruct (Qle_bool y v); cbn [length]; lia].
        apply qltb_lt in Q1. assert (Q2 : Qle_bool y v = true) by (apply Qle_bool_iff; lra). rewrite Q2. cbn [length]. lia. }
      induction xs as [|y ys IH]; [destruct I|]. cbn [filter]. destruct I as [->|I].
      * unfold lt_v at 1, le_v at 1. assert (Q1 : qltb x v = false) by (apply qltb_ge; lra). assert (Q2 : Qle_bool x v = true) by (apply Qle_bool_iff; lra).
        rewrite Q1, Q2. cbn [length]. pose proof (G ys). lia.
      * specialize (IH I). unfold lt_v at 1, le_v at 1.
        destruct (qltb y v) eqn:Q1; [|destruct (Qle_bool y v); cbn [length]; lia].
        apply qltb_lt in Q1. assert (Q2 : Qle_bool y v = true) by (apply Qle_bool_iff; lra). rewrite Q2. cbn [length]. lia.
Qed.

(** ** Quantile where all centroids are single values *)
Lemma ones_loop_step so w ci cj l : c_wt ci = 1%N -> c_wt cj = 1%N ->
  quantile_loop so w (ci :: cj :: l) =
    (let dw := ((qw 1 + qw 1) / 2)%Q in
     if qltb w (so + dw) then
       Some (if qltb (w - so) (1 # 2) then Val (c_mean ci)
             else if Qle_bool (so + dw - w) (1 # 2) then Val (c_mean cj)
             else weighted_average (c_mean ci) (w - so - (1 # 2)) (c_mean cj) (so + dw - w - (1 # 2)))
     else quantile_loop (so + dw) w (cj :: l)).
Proof.
  intros A B. change (quantile_loop so w (ci :: cj :: l)) with
    (let dw := ((qw (c_wt ci) + qw (c_wt cj)) / 2)%Q in
      if qltb w (so + dw) then
        Some (if (c_wt ci =? 1)%N && qltb (w - so) (1 # 2) then Val (c_mean ci)
              else if (c_wt cj =? 1)%N && Qle_bool (so + dw - w) (1 # 2) then Val (c_mean cj)
              else
                let left := if (c_wt ci =? 1)%N then (1 # 2)%Q else 0%Q in
                let right := if (c_wt cj =? 1)%N then (1 # 2)%Q else 0%Q in
                weighted_average (c_mean ci) (w - so - left) (c_mean cj) (so + dw - w - right))
      else quantile_loop (so + dw) w (cj :: l)).
  rewrite A, B. reflexivity.
Qed.
Lemma ones_quantile_loop l : forall so w ci, ones (ci :: l) -> (so <= w)%Q -> (w < so + qw (N.of_nat (length l)))%Q ->
  exists j c, quantile_loop so w (ci :: l) = Some (Val (c_mean c)) /\ nth_error (ci :: l) j = Some c /\
    (so + qw (N.of_nat j) - (1 # 2) <= w /\ w <= so + qw (N.of_nat j) + (1 # 2))%Q.
Proof.
  induction l as [|cj l IH]; intros so w ci O Lo Hi.
  - exfalso. cbn [length] in Hi. change (qw (N.of_nat 0)) with 0%Q in Hi. lra.
  - apply Forall_cons_iff in O. destruct O as [Oi O]. pose proof O as O'. apply Forall_cons_iff in O'. destruct O' as [Oj _].
    rewrite ones_loop_step by assumption. cbv zeta.
    set (dw := ((qw 1 + qw 1) / 2)%Q). assert (Dw : (dw == 1)%Q) by reflexivity. clearbody dw.
    destruct (qltb w (so + dw)) eqn:E.
    + apply qltb_lt in E. destruct (qltb (w - so) (1 # 2)) eqn:E1.
      * apply qltb_lt in E1. exists 0, ci. split; [reflexivity|]. split; [reflexivity|]. change (qw (N.of_nat 0)) with 0%Q. lra.
      * apply qltb_ge in E1. assert (F : Qle_bool (so + dw - w) (1 # 2) = true) by (apply Qle_bool_iff; lra). rewrite F.
        exists 1, cj. split; [reflexivity|]. split; [reflexivity|]. change (qw (N.of_nat 1)) with 1%Q. lra.
    + apply qltb_ge in E. cbn [length] in Hi. rewrite qw_S in Hi. destruct (IH (so + dw)%Q w cj O E) as (j & c & Q & Nj & B).
      * lra.
      * exists (S j), c. split; [exact Q|]. split; [exact Nj|]. rewrite qw_S. lra.
Qed.

Lemma ones_index cs xs j c q : StronglySorted mle cs -> good_cs cs xs -> ones cs -> nth_error cs j = Some c -> (q == c_mean c)%Q ->
  count (lt_v q) xs <= j /\ S j <= count (le_v q) xs /\ exists x, In x xs /\ (x == q)%Q.
Proof.
  intros So G O N0 E. split; [|split].
  - rewrite (ones_count _ _ _ (lt_v_proper q) G O). apply filter_len_le. intros i a L A. apply qltb_ge.
    pose proof (sorted_nth cs So j i _ _ L N0 A) as Q. unfold mle in Q. lra.
  - rewrite (ones_count _ _ _ (le_v_proper q) G O). assert (j < length cs) by (apply nth_error_Some; congruence).
    apply filter_len_ge; [lia|]. intros i a L A. apply Qle_bool_iff. pose proof (sorted_nth cs So i j _ _ ltac:(lia) A N0) as Q. unfold mle in Q. lra.
  - unfold ones in O. rewrite Forall_forall in O. pose proof (nth_error_In _ _ N0) as I.
    destruct (good_single_val cs xs c G I (O c I)) as (x & Ix & Ex). exists x. split; [exact Ix|lra].
Qed.

Lemma ones_quantile mn mx cs W xs r : ends_ok mn mx cs W -> good_cs cs xs -> W = N.of_nat (length xs) -> xs <> [] -> ones cs ->
  is_min xs mn -> is_max xs mx -> (0 <= r)%Q -> (r <= 1)%Q ->
  exists q j c, quantile_core mn mx cs W r = Val q /\ nth_error cs j = Some c /\ (q == c_mean c)%Q /\
    (qw (N.of_nat j) <= r * qw W /\ r * qw W <= qw (N.of_nat (S j)))%Q.
Proof.
  intros EO G EW X O Mn Mx R0 R1. destruct EO as [[N0 So Wt Sm TL TH] H1 L1].
  assert (LW : qw W = qw (N.of_nat (length cs))).
  { rewrite EW. do 2 f_equal. assert (E : (qw (N.of_nat (length xs)) == qw (N.of_nat (length cs)))%Q).
    { rewrite <- EW, <- Sm. rewrite <- (ones_below cs (length cs) O (le_n _)). unfold below. rewrite firstn_all. reflexivity. }
    pose proof (qw_le_inv (N.of_nat (length xs)) (N.of_nat (length cs)) ltac:(lra)).
    pose proof (qw_le_inv (N.of_nat (length cs)) (N.of_nat (length xs)) ltac:(lra)). lia. }
  rewrite LW. pose proof (nth_hd cs (mkC 0 0) N0) as NH. pose proof (nth_last cs (mkC 0 0) N0) as NL.
  destruct (TL (mkC 0 0)) as [_ TL2]. specialize (TL2 (H1 _)). destruct (TH (mkC 0 0)) as [_ TH2]. specialize (TH2 (L1 _)).
  destruct cs as [|c0 l]; [congruence|]. unfold quantile_core. destruct l as [|c1 l].
  - exists (c_mean c0), 0, c0. split; [reflexivity|]. split; [reflexivity|]. split; [reflexivity|].
    cbn [length]. change (qw (N.of_nat 0)) with 0%Q. change (qw (N.of_nat 1)) with 1%Q. lra.
  - specialize (H1 c0). specialize (L1 c0). cbn [hd] in *. set (cl := last (c0 :: c1 :: l) c0) in *. cbv zeta. rewrite LW.
    set (n := length (c0 :: c1 :: l)) in *. assert (n2 : 2 <= n) by (unfold n; cbn [length]; lia).
    set (w := (r * qw (N.of_nat n))%Q) in *. assert (W0 : (0 <= w)%Q) by (unfold w; pose proof (qw_nonneg (N.of_nat n)); nra).
    assert (W1 : (w <= qw (N.of_nat n))%Q) by (unfold w; pose proof (qw_nonneg (N.of_nat n)); nra).
    destruct (qltb w 1) eqn:E1.
    + apply qltb_lt in E1. exists mn, 0, c0. split; [reflexivity|]. split; [reflexivity|]. split; [lra|].
      change (qw (N.of_nat 0)) with 0%Q. change (qw (N.of_nat 1)) with 1%Q. lra.
    + apply qltb_ge in E1. assert (SN : (qw (N.of_nat n) == qw (N.of_nat (n - 1)) + 1)%Q) by (rewrite <- qw_S; replace (S (n - 1)) with n by lia; reflexivity).
      destruct (qltb (qw (N.of_nat n) - 1) w) eqn:E2.
      * apply qltb_lt in E2. exists mx, (n - 1), (last (c0 :: c1 :: l) (mkC 0 0)). split; [reflexivity|]. split; [exact NL|]. split; [lra|].
        replace (S (n - 1)) with n by lia. lra.
      * apply qltb_ge in E2. rewrite H1, L1. change (qltb 1 (qw 1)) with false. cbn [andb].
        destruct (ones_quantile_loop (c1 :: l) (qw 1 / 2) w c0 O) as (j & c & Q & Nj & B).
        -- change (qw 1 / 2)%Q with (1 # 2)%Q. lra.
        -- change (length (c1 :: l)) with (n - 1). change (qw 1 / 2)%Q with (1 # 2)%Q. lra.
        -- rewrite Q. exists (c_mean c), j, c. split; [reflexivity|]. split; [exact Nj|]. split; [reflexivity|].
           change (qw 1 / 2)%Q with (1 # 2)%Q in B. rewrite qw_S. lra.
Qed.

Definition at_most (xs : list Q) (v : Q) : Q := qw (N.of_nat (count (fun x => Qle_bool x v) xs)).
Definition less (xs : list Q) (v : Q) : Q := qw (N.of_nat (count (fun x => qltb x v) xs)).
Definition len (xs : list Q) : Q := qw (N.of_nat (length xs)).

(** A small stream is kept exactly: every centroid is one value. *)
Theorem tdigest_small_lossless k0 s xs : made ln k0 s xs -> (3 * N.of_nat (length xs) < 2 * k0)%N ->
  Forall (fun c => c_wt c = 1%N) (t_cs s).
Proof. apply made_ones. Qed.

(** Rank of a value of a small stream is exactly the middle of the ranks it holds: (values below + values not above) / 2n. For a
    value that is not in the stream it is off by at most half a value. *)
Theorem tdigest_small_rank_exact k0 s xs v s' r : made ln k0 s xs -> (3 * N.of_nat (length xs) < 2 * k0)%N -> xs <> [] ->
  rank ln s v = (s', Val r) ->
  (Qabs (2 * (r * len xs) - (less xs v + at_most xs v)) <= 1)%Q /\
  ((exists x, In x xs /\ (x == v)%Q) -> (2 * (r * len xs) == less xs v + at_most xs v)%Q).
Proof.
  intros M K X R. destruct (made_inv _ _ _ _ M) as [H KK]. pose proof (made_ones _ _ _ M K) as O.
  destruct (rank_cases ln s xs v H X) as (s1 & r1 & R1 & C). rewrite R in R1. injection R1 as <- <-.
  assert (CT : forall p, (forall x, In x xs -> p x = true) -> count p xs = length xs).
  { intros p. unfold count. clear. induction xs as [|x xs IH]; intro A; [reflexivity|]. cbn [filter length].
    rewrite (A x (or_introl eq_refl)). cbn [length]. rewrite IH; [reflexivity|]. intros y I. apply A. right; exact I. }
  assert (CF : forall p, (forall x, In x xs -> p x = false) -> count p xs = 0).
  { intros p. unfold count. clear. induction xs as [|x xs IH]; intro A; [reflexivity|]. cbn [filter length].
    rewrite (A x (or_introl eq_refl)). apply IH. intros y I. apply A. right; exact I. }
  destruct C as [L|L|x EX EV|s1 mn mx r C Len Q1 Q2 Q3 Q4 Q5 Q6 Q7 Q8 Q9 A1 A2 RR Z].
  - assert (E1 : (less xs v == 0)%Q).
    { unfold less. rewrite CF; [reflexivity|]. intros x I. apply qltb_ge. specialize (L x I). lra. }
    assert (E2 : (at_most xs v == 0)%Q).
    { unfold at_most. rewrite CF; [reflexivity|]. intros x I. apply qleb_gt. specialize (L x I). lra. }
    split; [|intros (x & I & E); specialize (L x I); lra]. rewrite E1, E2. apply Qabs_Qle_condition. split; lra.
  - assert (E1 : (less xs v == len xs)%Q).
    { unfold less. rewrite CT; [reflexivity|]. intros x I. apply qltb_lt. apply L. exact I. }
    assert (E2 : (at_most xs v == len xs)%Q).
    { unfold at_most. rewrite CT; [reflexivity|]. intros x I. apply Qle_bool_iff. specialize (L x I). lra. }
    split; [|intros (x & I & E); specialize (L x I); lra]. rewrite E1, E2. apply Qabs_Qle_condition. split; lra.
  - subst xs. assert (E1 : (less [x] v == 0)%Q).
    { unfold less. rewrite CF; [reflexivity|]. intros y [<-|[]]. apply qltb_ge. lra. }
    assert (E2 : (at_most [x] v == 1)%Q).
    { unfold at_most. rewrite CT; [reflexivity|]. intros y [<-|[]]. apply Qle_bool_iff. lra. }
    change (len [x]) with 1%Q. split; [|intros _; lra]. rewrite E1, E2. apply Qabs_Qle_condition. split; lra.
  - pose proof (compress_ones s xs s1 H O ltac:(lia) C) as O1. pose proof (to_sorted _ _ _ _ (eo_t _ _ _ _ Q5)) as So.
    rewrite Q7 in Z. fold (len xs) in Z.
    destruct (to_lo _ _ _ _ (eo_t _ _ _ _ Q5) (mkC 0 0)) as [_ TL2]. specialize (TL2 (eo_hd _ _ _ _ Q5 _)).
    destruct (to_hi _ _ _ _ (eo_t _ _ _ _ Q5) (mkC 0 0)) as [_ TH2]. specialize (TH2 (eo_last _ _ _ _ Q5 _)).
    destruct Z as [A B RZ|A B RZ|l u cl cu A B MR|A B RZ|A B RZ]; try lra.
    apply (ones_mid_rank (t_cs s1) xs v l u cl cu _ So Q6 O1 MR).
Qed.

(** Quantile of a small stream is exactly an r-quantile of it: a value of the stream with at most rn values below it and at least
    rn values not above it. *)
Theorem tdigest_small_quantile_exact k0 s xs p s' q : made ln k0 s xs -> (3 * N.of_nat (length xs) < 2 * k0)%N -> xs <> [] ->
  (0 <= p)%Q -> (p <= 1)%Q -> quantile ln s p = (s', Val q) ->
  (exists x, In x xs /\ (x == q)%Q) /\ (less xs q <= p * len xs /\ p * len xs <= at_most xs q)%Q.
Proof.
  intros M K X R0 R1 Q. destruct (made_inv _ _ _ _ M) as [H KK]. pose proof (made_ones _ _ _ M K) as O. unfold quantile in Q.
  destruct (is_empty s) eqn:E; [discriminate|]. destruct (qltb p 0 || qltb 1 p); [discriminate|].
  destruct (compress_ok ln s xs H) as (s1 & C & T & B & KE). rewrite C in Q.
  pose proof (compress_ones s xs s1 H O ltac:(lia) C) as O1.
  destruct (TInv_ends s1 xs T B X) as (mn & mx & Q1 & Q2 & Q3 & Q4 & Q5 & Q6 & Q7). rewrite Q1, Q2 in Q. injection Q as _ Q.
  destruct (ones_quantile mn mx _ _ xs p Q5 Q6 Q7 X O1 Q3 Q4 R0 R1) as (q' & j & c & QC & NJ & QE & B1 & B2).
  rewrite Q in QC. injection QC as <-.
  destruct (ones_index _ xs j c q (to_sorted _ _ _ _ (eo_t _ _ _ _ Q5)) Q6 O1 NJ QE) as (I1 & I2 & I3). split; [exact I3|].
  rewrite Q7 in B1, B2. fold (len xs) in B1, B2. unfold less, at_most.
  pose proof (qw_le (N.of_nat (count (lt_v q) xs)) (N.of_nat j) ltac:(lia)) as J1. pose proof (qw_le (N.of_nat (S j)) (N.of_nat (count (le_v q) xs)) ltac:(lia)) as J2.
  unfold lt_v in J1. unfold le_v in J2. split; lra.
Qed.
End Exact.
