(** * What Rank and Quantile answer: proofs. *)
From Verif Require Import Base Arr TdigestModel TdigestProofs TdigestSem.
From Coq Require Import QArith Qabs Permutation Sorted Lqa Setoid.
Local Close Scope Q_scope.
Local Open Scope nat_scope.

(** lra does not look into halves. *)
Ltac halves := unfold Qdiv in *; change (/ 2)%Q with (1 # 2)%Q in *; change (1 * (1 # 2))%Q with (1 # 2)%Q in *.
Ltac qlra := first [lra | halves; lra].
Ltac qnra := first [nra | halves; nra].

Lemma first_idx_spec {A} (p : A -> bool) l :
  first_idx p l <= length l /\
  (forall i x, i < first_idx p l -> nth_error l i = Some x -> p x = false) /\
  (first_idx p l < length l -> exists x, nth_error l (first_idx p l) = Some x /\ p x = true).
Proof.
  induction l as [|y l (IH1 & IH2 & IH3)]; cbn [first_idx length].
  - split; [lia|]. split; [intros; lia|intros; lia].
  - destruct (p y) eqn:E.
    + split; [lia|]. split; [intros; lia|]. intros _. exists y. auto.
    + split; [lia|]. split.
      * intros i x L N0. destruct i as [|i]; [cbn [nth_error] in N0; congruence|]. cbn [nth_error] in N0. apply (IH2 i); [lia|exact N0].
      * intro L. destruct IH3 as (x & X & Y); [lia|]. exists x. auto.
Qed.

Lemma sorted_nth l : StronglySorted mle l -> forall i j a b, i <= j -> nth_error l i = Some a -> nth_error l j = Some b -> mle a b.
Proof.
  induction 1 as [|x l S IH F]; intros i j a b L Ha Hb.
  - destruct i; discriminate.
  - destruct i as [|i], j as [|j]; cbn [nth_error] in *; try lia.
    + injection Ha as <-. injection Hb as <-. unfold mle. qlra.
    + injection Ha as <-. rewrite Forall_forall in F. apply F. eapply nth_error_In; exact Hb.
    + apply (IH i j); [lia|assumption|assumption].
Qed.

(** The weight below the middle of centroid i. *)
Definition below (cs : list cent) (i : nat) : Q := sumw (firstn i cs).
Definition center (cs : list cent) (i : nat) (c : cent) : Q := (below cs i + qw (c_wt c) / 2)%Q.

Lemma below_split cs i j : i <= j -> (below cs j == below cs i + sumw (firstn (j - i) (skipn i cs)))%Q.
Proof.
  intro L. unfold below. rewrite <- sumw_app.
  rewrite <- (firstn_skipn i (firstn j cs)). rewrite firstn_firstn, Nat.min_l by lia. rewrite skipn_firstn_comm. reflexivity.
Qed.
Lemma sumw_nonneg l : (0 <= sumw l)%Q.
Proof. induction l as [|c l IH]; [apply Qle_refl|]. change (sumw (c :: l)) with (qw (c_wt c) + sumw l)%Q. pose proof (qw_nonneg (c_wt c)). qlra. Qed.
Lemma below_mono cs i j : i <= j -> (below cs i <= below cs j)%Q.
Proof. intro L. rewrite (below_split cs i j L). pose proof (sumw_nonneg (firstn (j - i) (skipn i cs))). qlra. Qed.
Lemma firstn_S_nth {A} (l : list A) i x : nth_error l i = Some x -> firstn (S i) l = firstn i l ++ [x].
Proof.
  revert i; induction l as [|y l IH]; intros i H; [destruct i; discriminate|].
  destruct i as [|i]; cbn [nth_error] in H; [injection H as ->; reflexivity|].
  change (firstn (S (S i)) (y :: l)) with (y :: firstn (S i) l). change (firstn (S i) (y :: l)) with (y :: firstn i l).
  rewrite (IH _ H). reflexivity.
Qed.
Lemma below_S cs i c : nth_error cs i = Some c -> (below cs (S i) == below cs i + qw (c_wt c))%Q.
Proof.
  intro H. unfold below. rewrite (firstn_S_nth _ _ _ H), sumw_app. change (sumw [c]) with (qw (c_wt c) + 0)%Q. ring.
Qed.
Lemma below_all cs i : (below cs i <= sumw cs)%Q.
Proof.
  unfold below. rewrite <- (firstn_skipn i cs) at 2. rewrite sumw_app. pose proof (sumw_nonneg (skipn i cs)). qlra.
Qed.
Lemma center_lt cs i j a b : i < j -> nth_error cs i = Some a -> nth_error cs j = Some b ->
  (center cs i a + qw (c_wt a) / 2 + qw (c_wt b) / 2 <= center cs j b)%Q.
Proof.
  intros L A B. unfold center. pose proof (below_S cs i a A). pose proof (below_mono cs (S i) j L). qlra.
Qed.
Lemma center_mono cs i j a b : i <= j -> nth_error cs i = Some a -> nth_error cs j = Some b -> (center cs i a <= center cs j b)%Q.
Proof.
  intros L A B. destruct (Nat.eq_dec i j) as [->|N0].
  - rewrite A in B. injection B as <-. qlra.
  - pose proof (center_lt cs i j a b ltac:(lia) A B). pose proof (qw_nonneg (c_wt a)). pose proof (qw_nonneg (c_wt b)). qlra.
Qed.

Lemma nth_last (cs : list cent) d : cs <> [] -> nth_error cs (length cs - 1) = Some (last cs d).
Proof.
  intro N0. destruct (exists_last N0) as (r & x & ->). rewrite last_last, app_length, nth_error_app2 by (cbn [length]; lia).
  cbn [length]. replace (length r + 1 - 1 - length r) with 0 by lia. reflexivity.
Qed.
Lemma nth_hd (cs : list cent) d : cs <> [] -> nth_error cs 0 = Some (hd d cs).
Proof. destruct cs; [congruence|]. reflexivity. Qed.

Lemma center_bounds cs i c d : cs <> [] -> nth_error cs i = Some c ->
  (qw (c_wt (hd d cs)) / 2 <= center cs i c /\ center cs i c <= sumw cs - qw (c_wt (last cs d)) / 2)%Q.
Proof.
  intros N0 H. split.
  - pose proof (center_mono cs 0 i _ c ltac:(lia) (nth_hd cs d N0) H) as M. 
    assert (E : (center cs 0 (hd d cs) == qw (c_wt (hd d cs)) / 2)%Q)
      by (unfold center, below; cbn [firstn]; change (sumw []) with 0%Q; ring).
    rewrite E in M. exact M.
  - assert (i <= length cs - 1) by (assert (i < length cs) by (apply nth_error_Some; congruence); lia).
    pose proof (center_mono cs i _ c _ H0 H (nth_last cs d N0)) as M.
    unfold center in *. pose proof (below_S cs _ _ (nth_last cs d N0)) as B. pose proof (below_all cs (S (length cs - 1))). qlra.
Qed.

(** ** Rank between the extreme means *)
Inductive mid_rank (cs : list cent) (v : Q) : nat -> nat -> cent -> cent -> Q -> Prop :=
| mid_at l u cl cu rw : l <= u -> nth_error cs l = Some cl -> nth_error cs u = Some cu -> (c_mean cl == v)%Q -> (c_mean cu == v)%Q ->
    (forall i c, i < l -> nth_error cs i = Some c -> (c_mean c < v)%Q) ->
    (forall i c, u < i -> nth_error cs i = Some c -> (v < c_mean c)%Q) ->
    (rw == (center cs l cl + center cs u cu) / 2)%Q -> mid_rank cs v l u cl cu rw
| mid_between l cl cu rw : nth_error cs l = Some cl -> nth_error cs (S l) = Some cu -> (c_mean cl < v)%Q -> (v < c_mean cu)%Q ->
    (rw == center cs l cl + (center cs (S l) cu - center cs l cl) * ((v - c_mean cl) / (c_mean cu - c_mean cl)))%Q ->
    mid_rank cs v l (S l) cl cu rw.

Lemma rank_mid_spec cs W v d : StronglySorted mle cs -> cs <> [] -> (0 < W)%N ->
  (c_mean (hd d cs) <= v)%Q -> (v <= c_mean (last cs d))%Q ->
  exists r l u cl cu, rank_mid cs W v = Val r /\ mid_rank cs v l u cl cu (r * qw W).
Proof.
  intros So N0 Wp Hh Hl. unfold rank_mid.
  set (a := first_idx (fun c => Qle_bool v (c_mean c)) cs). set (b := first_idx (fun c => qltb v (c_mean c)) cs).
  destruct (first_idx_spec (fun c => Qle_bool v (c_mean c)) cs) as (A1 & A2 & A3). fold a in A1, A2, A3.
  destruct (first_idx_spec (fun c => qltb v (c_mean c)) cs) as (B1 & B2 & B3). fold b in B1, B2, B3.
  pose proof (qw_pos _ Wp) as Wq. pose proof (nth_last cs d N0) as NL. pose proof (nth_hd cs d N0) as NH.
  assert (LL : 0 < length cs) by (destruct cs; [congruence|cbn [length]; lia]).
  assert (Aa : a < length cs).
  { destruct (Nat.eq_dec a (length cs)) as [E|]; [|lia]. exfalso.
    assert (F : Qle_bool v (c_mean (last cs d)) = false) by (apply (A2 (length cs - 1)); [lia|exact NL]).
    apply qleb_gt in F. qlra. }
  assert (Bb : 0 < b).
  { destruct (Nat.eq_dec b 0) as [E|]; [|lia]. exfalso. destruct B3 as (x & X & Y); [lia|]. rewrite E in X. rewrite X in NH.
    injection NH as ->. apply qltb_lt in Y. qlra. }
  assert (AB : a <= b).
  { destruct (Nat.le_gt_cases a b) as [|L]; [assumption|]. exfalso. destruct B3 as (x & X & Y); [lia|].
    specialize (A2 b x L X). apply qltb_lt in Y. apply qleb_gt in A2. qlra. }
  destruct (Nat.eqb_spec a (length cs)) as [E|_]; [lia|]. destruct (Nat.eqb_spec b 0) as [E|_]; [lia|].
  destruct A3 as (ca & CA & CA1); [exact Aa|]. rewrite CA. apply Qle_bool_iff in CA1.
  assert (NB1 : exists cb1, nth_error cs (b - 1) = Some cb1 /\ (c_mean cb1 <= v)%Q).
  { destruct (nth_error cs (b - 1)) as [x|] eqn:X.
    - exists x. split; [reflexivity|]. specialize (B2 (b - 1) x ltac:(lia) X). apply qltb_ge in B2. exact B2.
    - apply nth_error_None in X. lia. }
  destruct NB1 as (cb1 & NB & NBle).
  destruct (Nat.eq_dec a b) as [E|N1].
  - (* strictly between centroids b-1 and b *)
    assert (Hb : b < length cs) by lia. destruct B3 as (cb & CB & CBv); [exact Hb|]. apply qltb_lt in CBv.
    rewrite E, CB in CA. injection CA as <-.
    assert (NBlt : (c_mean cb1 < v)%Q). { apply qleb_gt. apply (A2 (b - 1)); [lia|exact NB]. }
    rewrite E. assert (F1 : qltb v (c_mean cb) = true) by (apply qltb_lt; exact CBv). rewrite F1.
    destruct (Nat.ltb_spec 0 b) as [_|]; [|lia]. cbn [andb]. destruct (Nat.eqb_spec b (length cs)) as [|_]; [lia|].
    rewrite NB. assert (F2 : qltb (c_mean cb1) v = true) by (apply qltb_lt; exact NBlt). rewrite F2. cbn [negb]. rewrite ?NB, ?CB.
    assert (F3 : qltb 0 (c_mean cb - c_mean cb1) = true) by (apply qltb_lt; qlra). rewrite F3.
    eexists _, (b - 1), (S (b - 1)), cb1, cb. split; [reflexivity|].
    replace b with (S (b - 1)) in CB at 1 by lia.
    apply mid_between; auto. unfold center.
    pose proof (below_split cs (b - 1) (S (b - 1)) ltac:(lia)) as SP. replace (S (b - 1) - (b - 1)) with (b - (b - 1)) in SP by lia.
    change (sumw (firstn (b - 1) cs)) with (below cs (b - 1)).
    set (x := sumw (firstn (b - (b - 1)) (skipn (b - 1) cs))) in *. rewrite SP.
    assert (c_mean cb - c_mean cb1 > 0)%Q by qlra. field. split; qlra.
  - (* at one or more centroids *)
    assert (CAv : (c_mean ca == v)%Q).
    { specialize (B2 a ca ltac:(lia) CA). apply qltb_ge in B2. qlra. }
    assert (F1 : qltb v (c_mean ca) = false) by (apply qltb_ge; qlra). rewrite F1. cbn [andb].
    assert (CBv : (c_mean cb1 == v)%Q).
    { pose proof (sorted_nth cs So a (b - 1) ca cb1 ltac:(lia) CA NB) as M. unfold mle in M. qlra. }
    assert (U : (if b =? length cs then Some (b - 1) else match nth_error cs (b - 1) with
                  | Some cu0 => if negb (qltb (c_mean cu0) v) then Some (b - 1) else Some b | None => None end) = Some (b - 1)).
    { destruct (b =? length cs); [reflexivity|]. rewrite NB.
      assert (F2 : qltb (c_mean cb1) v = false) by (apply qltb_ge; qlra). rewrite F2. reflexivity. }
    rewrite U, ?CA, ?NB. assert (F3 : qltb 0 (c_mean cb1 - c_mean ca) = false) by (apply qltb_ge; qlra). rewrite F3.
    eexists _, a, (b - 1), ca, cb1. split; [reflexivity|]. apply mid_at; auto; try lia.
    + intros i c L C. apply qleb_gt. apply (A2 i); assumption.
    + intros i c L C. destruct (Nat.eq_dec b (length cs)) as [Eb|].
      * assert (i < length cs) by (apply nth_error_Some; congruence). lia.
      * destruct B3 as (x & X & Y); [lia|]. apply qltb_lt in Y. pose proof (sorted_nth cs So b i x c ltac:(lia) X C) as M. unfold mle in M. qlra.
    + unfold center. pose proof (below_split cs a (b - 1) ltac:(lia)) as SP.
      change (sumw (firstn a cs)) with (below cs a). set (x := sumw (firstn (b - 1 - a) (skipn a cs))) in *. rewrite SP. field. qlra.
Qed.

Lemma frac01 a b v : (a < v)%Q -> (v < b)%Q -> (0 <= (v - a) / (b - a) /\ (v - a) / (b - a) <= 1)%Q.
Proof. intros A B. split; [apply Qle_shift_div_l|apply Qle_shift_div_r]; qlra. Qed.

Lemma mid_rank_bounds cs v l u cl cu rw : mid_rank cs v l u cl cu rw ->
  nth_error cs l = Some cl /\ nth_error cs u = Some cu /\ (center cs l cl <= rw /\ rw <= center cs u cu)%Q.
Proof.
  intros [l' u' cl' cu' rw' L A B C D E F R|l' cl' cu' rw' A B C D R]; split; auto; split; auto.
  - pose proof (center_mono cs _ _ _ _ L A B). qlra.
  - pose proof (center_mono cs l' (S l') _ _ ltac:(lia) A B) as M. destruct (frac01 _ _ _ C D) as [F0 F1].
    set (f := ((v - c_mean cl') / (c_mean cu' - c_mean cl'))%Q) in *. clearbody f. qnra.
Qed.

Lemma mid_rank_mono cs v1 v2 l1 u1 cl1 cu1 r1 l2 u2 cl2 cu2 r2 : StronglySorted mle cs -> (v1 <= v2)%Q ->
  mid_rank cs v1 l1 u1 cl1 cu1 r1 -> mid_rank cs v2 l2 u2 cl2 cu2 r2 -> (r1 <= r2)%Q.
Proof.
  intros S L M1 M2. pose proof (mid_rank_bounds _ _ _ _ _ _ _ M1) as (NL1 & NU1 & _ & BU1).
  pose proof (mid_rank_bounds _ _ _ _ _ _ _ M2) as (NL2 & NU2 & BL2 & _).
  destruct (Nat.le_gt_cases u1 l2) as [UL|UL].
  { pose proof (center_mono cs _ _ _ _ UL NU1 NL2). qlra. }
  destruct M1 as [l1 u1 cl1 cu1 r1 L1 A1 B1 C1 D1 E1 F1 R1|l1 cl1 cu1 r1 A1 B1 C1 D1 R1];
  destruct M2 as [l2 u2 cl2 cu2 r2 L2 A2 B2 C2 D2 E2 F2 R2|l2 cl2 cu2 r2 A2 B2 C2 D2 R2].
  - pose proof (sorted_nth cs S l2 u1 _ _ ltac:(lia) NL2 NU1) as M. unfold mle in M. assert (V : (v1 == v2)%Q) by qlra.
    assert (l1 = l2).
    { destruct (Nat.lt_trichotomy l1 l2) as [X|[X|X]]; [|exact X|].
      - specialize (E2 l1 cl1 X A1). qlra. - specialize (E1 l2 cl2 X A2). qlra. }
    assert (u1 = u2).
    { destruct (Nat.lt_trichotomy u1 u2) as [X|[X|X]]; [|exact X|].
      - specialize (F1 u2 cu2 X B2). qlra. - specialize (F2 u1 cu1 X B1). qlra. }
    subst l2 u2. rewrite A1 in A2. injection A2 as <-. rewrite B1 in B2. injection B2 as <-. qlra.
  - pose proof (sorted_nth cs S (Datatypes.S l2) u1 _ _ ltac:(lia) NU2 NU1) as M. unfold mle in M. qlra.
  - pose proof (sorted_nth cs S l2 l1 _ _ ltac:(lia) NL2 NL1) as M. unfold mle in M. qlra.
  - assert (l1 = l2) as ->.
    { destruct (Nat.eq_dec l1 l2) as [|X]; [assumption|]. exfalso.
      pose proof (sorted_nth cs S (Datatypes.S l2) l1 _ _ ltac:(lia) NU2 NL1) as M. unfold mle in M. qlra. }
    rewrite A1 in A2. injection A2 as <-. rewrite B1 in B2. injection B2 as <-.
    pose proof (center_mono cs l2 (Datatypes.S l2) _ _ ltac:(lia) A1 B1) as M. rewrite R1, R2.
    assert (Fr : ((v1 - c_mean cl1) / (c_mean cu1 - c_mean cl1) <= (v2 - c_mean cl1) / (c_mean cu1 - c_mean cl1))%Q).
    { apply Qmult_le_compat_r; [qlra|]. apply Qinv_le_0_compat. qlra. }
    set (f1 := ((v1 - c_mean cl1) / _)%Q) in *. set (f2 := ((v2 - c_mean cl1) / _)%Q) in *. clearbody f1 f2. qnra.
Qed.

(** ** Sketches whose tails may be heavy, as another program may write them *)
Record tails_ok (mn mx : Q) (cs : list cent) (W : N) : Prop := mkTails {
  to_ne : cs <> [];
  to_sorted : StronglySorted mle cs;
  to_wt : Forall (fun c => (0 < c_wt c)%N) cs;
  to_sum : (sumw cs == qw W)%Q;
  to_lo : forall d, (mn <= c_mean (hd d cs))%Q /\ (c_wt (hd d cs) = 1%N -> (c_mean (hd d cs) == mn)%Q);
  to_hi : forall d, (c_mean (last cs d) <= mx)%Q /\ (c_wt (last cs d) = 1%N -> (c_mean (last cs d) == mx)%Q) }.

Lemma tails_W mn mx cs W : tails_ok mn mx cs W -> (0 < W)%N.
Proof.
  intros [N0 _ Wt Sm _ _]. destruct cs as [|c l]; [congruence|]. apply Forall_cons_iff in Wt. destruct Wt as [Wc _].
  change (sumw (c :: l)) with (qw (c_wt c) + sumw l)%Q in Sm. pose proof (sumw_nonneg l). pose proof (qw_pos _ Wc).
  destruct (N.eq_0_gt_0_cases W) as [->|]; [|assumption]. rewrite qw_0 in Sm. qlra.
Qed.

(** The three zones of rank_tails; [rw] is the answer times the total weight. *)
Inductive rank_zone (mn mx : Q) (cs : list cent) (W : N) (v : Q) (rw : Q) : Prop :=
| z_min : (v == mn)%Q -> (v < c_mean (hd (mkC 0 0) cs))%Q -> (rw == 1 / 2)%Q -> rank_zone mn mx cs W v rw
| z_left : (mn < v)%Q -> (v < c_mean (hd (mkC 0 0) cs))%Q ->
    (rw == 1 + (v - mn) / (c_mean (hd (mkC 0 0) cs) - mn) * (qw (c_wt (hd (mkC 0 0) cs)) / 2 - 1))%Q -> rank_zone mn mx cs W v rw
| z_mid l u cl cu : (c_mean (hd (mkC 0 0) cs) <= v)%Q -> (v <= c_mean (last cs (mkC 0 0)))%Q -> mid_rank cs v l u cl cu rw ->
    rank_zone mn mx cs W v rw
| z_right : (v < mx)%Q -> (c_mean (last cs (mkC 0 0)) < v)%Q ->
    (rw == qw W - (1 + (mx - v) / (mx - c_mean (last cs (mkC 0 0))) * (qw (c_wt (last cs (mkC 0 0))) / 2 - 1)))%Q -> rank_zone mn mx cs W v rw
| z_max : (v == mx)%Q -> (c_mean (last cs (mkC 0 0)) < v)%Q -> (rw == qw W - 1 / 2)%Q -> rank_zone mn mx cs W v rw.

Lemma rank_tails_zone mn mx cs W v : tails_ok mn mx cs W -> (mn <= v)%Q -> (v <= mx)%Q ->
  exists r, rank_tails mn mx cs W v = Val r /\ rank_zone mn mx cs W v (r * qw W).
Proof.
  intros T Lo Hi. pose proof (tails_W _ _ _ _ T) as Wp. pose proof (qw_pos _ Wp) as Wq.
  destruct T as [N0 S Wt Sm TL TH]. set (d := mkC 0 0).
  destruct (TL d) as [TL1 TL2]. destruct (TH d) as [TH1 TH2].
  destruct cs as [|c0 l]; [congruence|]. unfold rank_tails. rewrite (last_any (c0 :: l) c0 d) by discriminate.
  set (cl := last (c0 :: l) d) in *. cbn [hd] in TL1, TL2.
  destruct (qltb v (c_mean c0)) eqn:E1.
  - apply qltb_lt in E1. assert (F : qltb 0 (c_mean c0 - mn) = true) by (apply qltb_lt; qlra). rewrite F.
    destruct (Qeq_bool v mn) eqn:E2.
    + apply Qeq_bool_iff in E2. eexists. split; [reflexivity|]. apply z_min; auto. field. qlra.
    + assert (mn < v)%Q. { apply Qeq_bool_neq in E2. apply Qle_lt_or_eq in Lo. destruct Lo as [|X]; [assumption|]. exfalso; apply E2. symmetry; exact X. }
      eexists. split; [reflexivity|]. apply z_left; auto. cbn [hd]. field. split; qlra.
  - apply qltb_ge in E1. destruct (qltb (c_mean cl) v) eqn:E2.
    + apply qltb_lt in E2. assert (F : qltb 0 (mx - c_mean cl) = true) by (apply qltb_lt; qlra). rewrite F.
      destruct (Qeq_bool v mx) eqn:E3.
      * apply Qeq_bool_iff in E3. eexists. split; [reflexivity|]. apply z_max; auto. field. qlra.
      * assert (v < mx)%Q. { apply Qeq_bool_neq in E3. apply Qle_lt_or_eq in Hi. destruct Hi as [|X]; [assumption|]. exfalso; apply E3. exact X. }
        eexists. split; [reflexivity|]. apply z_right; auto. fold d. fold cl. field. split; qlra.
    + apply qltb_ge in E2. destruct (rank_mid_spec (c0 :: l) W v d S N0 Wp E1 E2) as (r & a & b & ca & cb & R & M).
      exists r. split; [exact R|]. eapply z_mid; eauto.
Qed.

Lemma wt_ge2 w : (0 < w)%N -> w <> 1%N -> (2 <= qw w)%Q.
Proof. intros A B. change 2%Q with (qw 2). apply qw_le. lia. Qed.

Lemma left_bounds mn m w v : (mn < v)%Q -> (v < m)%Q -> (2 <= w)%Q ->
  (1 <= 1 + (v - mn) / (m - mn) * (w / 2 - 1) /\ 1 + (v - mn) / (m - mn) * (w / 2 - 1) <= w / 2)%Q.
Proof.
  intros A B C. destruct (frac01 _ _ _ A B) as [F0 F1]. set (f := ((v - mn) / (m - mn))%Q) in *. clearbody f. qnra.
Qed.


Lemma tails_hd mn mx cs W v : tails_ok mn mx cs W -> (mn <= v)%Q -> (v < c_mean (hd (mkC 0 0) cs))%Q -> (2 <= qw (c_wt (hd (mkC 0 0) cs)))%Q.
Proof.
  intros [N0 S Wt Sm TL TH] Lo L. destruct (TL (mkC 0 0)) as [_ TL2]. apply wt_ge2.
  - rewrite Forall_forall in Wt. apply Wt. apply hd_in. exact N0.
  - intro E. specialize (TL2 E). qlra.
Qed.
Lemma tails_last mn mx cs W v : tails_ok mn mx cs W -> (v <= mx)%Q -> (c_mean (last cs (mkC 0 0)) < v)%Q -> (2 <= qw (c_wt (last cs (mkC 0 0))))%Q.
Proof.
  intros [N0 S Wt Sm TL TH] Hi L. destruct (TH (mkC 0 0)) as [_ TH2]. apply wt_ge2.
  - rewrite Forall_forall in Wt. apply Wt. apply last_in. exact N0.
  - intro E. specialize (TH2 E). qlra.
Qed.

Lemma zone_left_bounds mn mx cs W v rw : tails_ok mn mx cs W -> (mn <= v)%Q -> (v < c_mean (hd (mkC 0 0) cs))%Q ->
  rank_zone mn mx cs W v rw -> (1 / 2 <= rw /\ rw <= qw (c_wt (hd (mkC 0 0) cs)) / 2)%Q.
Proof.
  intros T Lo L Z. pose proof (tails_hd _ _ _ _ _ T Lo L) as H2. pose proof (sorted_hd cs (last cs (mkC 0 0)) (mkC 0 0) (to_sorted _ _ _ _ T) (last_in _ _ (to_ne _ _ _ _ T))) as HL.
  unfold mle in HL.
  destruct Z as [A B R|A B R|l u cl cu A B M|A B R|A B R]; try qlra.
  destruct (left_bounds mn _ _ v A B H2). qlra.
Qed.
Lemma zone_right_bounds mn mx cs W v rw : tails_ok mn mx cs W -> (v <= mx)%Q -> (c_mean (last cs (mkC 0 0)) < v)%Q ->
  rank_zone mn mx cs W v rw -> (qw W - qw (c_wt (last cs (mkC 0 0))) / 2 <= rw /\ rw <= qw W - 1 / 2)%Q.
Proof.
  intros T Hi L Z. pose proof (tails_last _ _ _ _ _ T Hi L) as H2. pose proof (sorted_hd cs (last cs (mkC 0 0)) (mkC 0 0) (to_sorted _ _ _ _ T) (last_in _ _ (to_ne _ _ _ _ T))) as HL.
  unfold mle in HL.
  destruct Z as [A B R|A B R|l u cl cu A B M|A B R|A B R]; try qlra.
  set (m := c_mean (last cs (mkC 0 0))) in *. set (w := qw (c_wt (last cs (mkC 0 0)))) in *.
  assert (F0 : (0 <= (mx - v) / (mx - m))%Q) by (apply Qle_shift_div_l; qlra).
  assert (F1 : ((mx - v) / (mx - m) <= 1)%Q) by (apply Qle_shift_div_r; qlra).
  set (f := ((mx - v) / (mx - m))%Q) in *. clearbody f. qnra.
Qed.
Lemma zone_mid_bounds mn mx cs W v rw : tails_ok mn mx cs W -> (c_mean (hd (mkC 0 0) cs) <= v)%Q -> (v <= c_mean (last cs (mkC 0 0)))%Q ->
  rank_zone mn mx cs W v rw ->
  (exists l u cl cu, mid_rank cs v l u cl cu rw) /\
  (qw (c_wt (hd (mkC 0 0) cs)) / 2 <= rw /\ rw <= qw W - qw (c_wt (last cs (mkC 0 0))) / 2)%Q.
Proof.
  intros T A B Z. destruct Z as [A' B' R|A' B' R|l u cl cu A' B' M|A' B' R|A' B' R]; try qlra.
  split; [eauto|]. destruct (mid_rank_bounds _ _ _ _ _ _ _ M) as (NL & NU & BL & BU).
  destruct (center_bounds cs l cl (mkC 0 0) (to_ne _ _ _ _ T) NL) as [C1 _].
  destruct (center_bounds cs u cu (mkC 0 0) (to_ne _ _ _ _ T) NU) as [_ C2].
  pose proof (to_sum _ _ _ _ T). qlra.
Qed.

Lemma zone_bounds mn mx cs W v rw : tails_ok mn mx cs W -> (mn <= v)%Q -> (v <= mx)%Q -> rank_zone mn mx cs W v rw ->
  (1 / 2 <= rw /\ rw <= qw W - 1 / 2)%Q.
Proof.
  intros T Lo Hi Z. set (d := mkC 0 0).
  assert (W0 : (1 <= qw (c_wt (hd d cs)))%Q).
  { apply qw_ge1. pose proof (to_wt _ _ _ _ T) as Wt. rewrite Forall_forall in Wt. apply Wt. apply hd_in. exact (to_ne _ _ _ _ T). }
  assert (Wl : (1 <= qw (c_wt (last cs d)))%Q).
  { apply qw_ge1. pose proof (to_wt _ _ _ _ T) as Wt. rewrite Forall_forall in Wt. apply Wt. apply last_in. exact (to_ne _ _ _ _ T). }
  destruct (center_bounds cs 0 (hd d cs) d (to_ne _ _ _ _ T) (nth_hd cs d (to_ne _ _ _ _ T))) as [C1 C2].
  assert (C3 : (qw (c_wt (hd d cs)) / 2 <= qw W - qw (c_wt (last cs d)) / 2)%Q) by (pose proof (to_sum _ _ _ _ T); qlra).
  destruct (Qlt_le_dec v (c_mean (hd d cs))) as [L|L].
  - destruct (zone_left_bounds _ _ _ _ _ _ T Lo L Z) as [B1 B2]. fold d in B1, B2. qlra.
  - destruct (Qlt_le_dec (c_mean (last cs d)) v) as [R|R].
    + destruct (zone_right_bounds _ _ _ _ _ _ T Hi R Z) as [B1 B2]. fold d in B1, B2. qlra.
    + destruct (zone_mid_bounds _ _ _ _ _ _ T L R Z) as (_ & B1 & B2). fold d in B1, B2. qlra.
Qed.

Lemma zone_mono mn mx cs W v1 v2 r1 r2 : tails_ok mn mx cs W -> (mn <= v1)%Q -> (v1 <= v2)%Q -> (v2 <= mx)%Q ->
  rank_zone mn mx cs W v1 r1 -> rank_zone mn mx cs W v2 r2 -> (r1 <= r2)%Q.
Proof.
  intros T L1 L L2 Z1 Z2. set (d := mkC 0 0) in *.
  destruct (center_bounds cs 0 (hd d cs) d (to_ne _ _ _ _ T) (nth_hd cs d (to_ne _ _ _ _ T))) as [C1 C2].
  assert (C3 : (qw (c_wt (hd d cs)) / 2 <= qw W - qw (c_wt (last cs d)) / 2)%Q) by (pose proof (to_sum _ _ _ _ T); qlra).
  destruct (Qlt_le_dec v1 (c_mean (hd d cs))) as [A1|A1].
  - pose proof (zone_left_bounds _ _ _ _ _ _ T L1 A1 Z1) as B1. fold d in B1.
    destruct (Qlt_le_dec v2 (c_mean (hd d cs))) as [A2|A2].
    + pose proof (zone_left_bounds _ _ _ _ _ _ T (Qle_trans _ _ _ L1 L) A2 Z2) as B2. fold d in B2.
      pose proof (tails_hd _ _ _ _ _ T L1 A1) as H2. fold d in H2.
      pose proof (sorted_hd cs (last cs d) d (to_sorted _ _ _ _ T) (last_in _ _ (to_ne _ _ _ _ T))) as HL. unfold mle in HL.
      destruct Z1 as [X1 Y1 R1|X1 Y1 R1|? ? ? ? X1 Y1 R1|X1 Y1 R1|X1 Y1 R1]; fold d in X1, Y1, R1; try qlra.
      destruct Z2 as [X2 Y2 R2|X2 Y2 R2|? ? ? ? X2 Y2 R2|X2 Y2 R2|X2 Y2 R2]; fold d in X2, Y2, R2; try qlra.
      rewrite R1, R2. set (m := c_mean (hd d cs)) in *. set (w := qw (c_wt (hd d cs))) in *.
      assert (Fr : ((v1 - mn) / (m - mn) <= (v2 - mn) / (m - mn))%Q).
      { apply Qmult_le_compat_r; [qlra|]. apply Qinv_le_0_compat. qlra. }
      set (f1 := ((v1 - mn) / _)%Q) in *. set (f2 := ((v2 - mn) / _)%Q) in *. clearbody f1 f2. qnra.
    + destruct (Qlt_le_dec (c_mean (last cs d)) v2) as [A3|A3].
      * pose proof (zone_right_bounds _ _ _ _ _ _ T L2 A3 Z2) as B2. fold d in B2. qlra.
      * pose proof (zone_mid_bounds _ _ _ _ _ _ T A2 A3 Z2) as (_ & B2). fold d in B2. qlra.
  - destruct (Qlt_le_dec (c_mean (last cs d)) v1) as [A2|A2].
    + assert (A3 : (c_mean (last cs d) < v2)%Q) by qlra.
      pose proof (tails_last _ _ _ _ _ T L2 A3) as H2. fold d in H2.
      pose proof (zone_right_bounds _ _ _ _ _ _ T (Qle_trans _ _ _ L L2) A2 Z1) as B1. fold d in B1.
      pose proof (zone_right_bounds _ _ _ _ _ _ T L2 A3 Z2) as B2. fold d in B2.
      pose proof (sorted_hd cs (last cs d) d (to_sorted _ _ _ _ T) (last_in _ _ (to_ne _ _ _ _ T))) as HL. unfold mle in HL.
      destruct Z2 as [X2 Y2 R2|X2 Y2 R2|? ? ? ? X2 Y2 R2|X2 Y2 R2|X2 Y2 R2]; fold d in X2, Y2, R2; try qlra.
      destruct Z1 as [X1 Y1 R1|X1 Y1 R1|? ? ? ? X1 Y1 R1|X1 Y1 R1|X1 Y1 R1]; fold d in X1, Y1, R1; try qlra.
      rewrite R1, R2. set (m := c_mean (last cs d)) in *. set (w := qw (c_wt (last cs d))) in *.
      assert (Fr : ((mx - v2) / (mx - m) <= (mx - v1) / (mx - m))%Q).
      { apply Qmult_le_compat_r; [qlra|]. apply Qinv_le_0_compat. qlra. }
      set (f1 := ((mx - v1) / _)%Q) in *. set (f2 := ((mx - v2) / _)%Q) in *. clearbody f1 f2. qnra.
    + pose proof (zone_mid_bounds _ _ _ _ _ _ T A1 A2 Z1) as ((l1 & u1 & cl1 & cu1 & M1) & B1). fold d in B1.
      destruct (Qlt_le_dec (c_mean (last cs d)) v2) as [A3|A3].
      * pose proof (zone_right_bounds _ _ _ _ _ _ T L2 A3 Z2) as B2. fold d in B2. qlra.
      * pose proof (zone_mid_bounds _ _ _ _ _ _ T (Qle_trans _ _ _ A1 L) A3 Z2) as ((l2 & u2 & cl2 & cu2 & M2) & B2). fold d in B2.
        eapply mid_rank_mono; [exact (to_sorted _ _ _ _ T)|exact L|exact M1|exact M2].
Qed.

(** ** Quantile *)
Lemma weighted_between x1 w1 x2 w2 : (x1 <= x2)%Q -> (0 <= w1)%Q -> (0 < w2)%Q ->
  exists q, weighted_average x1 w1 x2 w2 = Val q /\ (x1 <= q /\ q <= x2)%Q.
Proof.
  intros L A B. unfold weighted_average. destruct (Qeq_bool (w1 + w2) 0) eqn:E.
  - apply Qeq_bool_iff in E. qlra.
  - eexists. split; [reflexivity|]. split; [apply Qle_shift_div_l|apply Qle_shift_div_r]; try qlra; qnra.
Qed.

(** The loop answers with a value between two adjacent means: those around the weight. *)
Lemma quantile_loop_ok l : forall so w ci, StronglySorted mle (ci :: l) -> Forall (fun c => (0 < c_wt c)%N) (ci :: l) ->
  (so <= w)%Q -> (w < so + sumw (ci :: l) - qw (c_wt ci) / 2 - qw (c_wt (last (ci :: l) ci)) / 2)%Q ->
  exists q, quantile_loop so w (ci :: l) = Some (Val q) /\ (c_mean ci <= q /\ q <= c_mean (last (ci :: l) ci))%Q.
Proof.
  induction l as [|cj l IH]; intros so w ci S Wt Lo Hi.
  - exfalso. cbn [last] in Hi. change (sumw [ci]) with (qw (c_wt ci) + 0)%Q in Hi. qlra.
  - apply Forall_cons_iff in Wt. destruct Wt as [Wi Wt]. pose proof Wt as Wt'. apply Forall_cons_iff in Wt'. destruct Wt' as [Wj _].
    apply StronglySorted_inv in S. destruct S as [S F]. pose proof F as F'. apply Forall_cons_iff in F'. destruct F' as [Fj _]. unfold mle in Fj.
    assert (LA : last (ci :: cj :: l) ci = last (cj :: l) cj).
    { change (last (ci :: cj :: l) ci) with (last (cj :: l) ci). apply last_any. discriminate. }
    rewrite LA in *.
    assert (Hl : (c_mean cj <= c_mean (last (cj :: l) cj))%Q).
    { pose proof (sorted_last (cj :: l) cj cj S ltac:(left; reflexivity)) as M. exact M. }
    cbn [quantile_loop]. set (dw := ((qw (c_wt ci) + qw (c_wt cj)) / 2)%Q).
    destruct (qltb w (so + dw)) eqn:E.
    + apply qltb_lt in E. pose proof (qw_ge1 _ Wi). pose proof (qw_ge1 _ Wj).
      destruct (N.eqb_spec (c_wt ci) 1) as [Ei|Ei]; cbn [andb].
      * destruct (qltb (w - so) (1 # 2)) eqn:E1; [eexists; split; [reflexivity|]; qlra|]. apply qltb_ge in E1.
        destruct (N.eqb_spec (c_wt cj) 1) as [Ej|Ej]; cbn [andb].
        -- destruct (Qle_bool (so + dw - w) (1 # 2)) eqn:E2; [eexists; split; [reflexivity|]; qlra|]. apply qleb_gt in E2.
           destruct (weighted_between (c_mean ci) (w - so - (1 # 2)) (c_mean cj) (so + dw - w - (1 # 2))) as (q & Q & B1 & B2); try qlra.
           exists q. rewrite Q. split; [reflexivity|]. qlra.
        -- destruct (weighted_between (c_mean ci) (w - so - (1 # 2)) (c_mean cj) (so + dw - w - 0)) as (q & Q & B1 & B2); try qlra.
           exists q. rewrite Q. split; [reflexivity|]. qlra.
      * destruct (N.eqb_spec (c_wt cj) 1) as [Ej|Ej]; cbn [andb].
        -- destruct (Qle_bool (so + dw - w) (1 # 2)) eqn:E2; [eexists; split; [reflexivity|]; qlra|]. apply qleb_gt in E2.
           destruct (weighted_between (c_mean ci) (w - so - 0) (c_mean cj) (so + dw - w - (1 # 2))) as (q & Q & B1 & B2); try qlra.
           exists q. rewrite Q. split; [reflexivity|]. qlra.
        -- destruct (weighted_between (c_mean ci) (w - so - 0) (c_mean cj) (so + dw - w - 0)) as (q & Q & B1 & B2); try qlra.
           exists q. rewrite Q. split; [reflexivity|]. qlra.
    + apply qltb_ge in E. destruct (IH (so + dw)%Q w cj S Wt E) as (q & Q & B1 & B2).
      * unfold dw. change (sumw (ci :: cj :: l)) with (qw (c_wt ci) + sumw (cj :: l))%Q in Hi. qlra.
      * exists q. split; [exact Q|]. qlra.
Qed.

(** Sketches whose extreme centroids are the extreme values. *)
Record ends_ok (mn mx : Q) (cs : list cent) (W : N) : Prop := mkEnds {
  eo_t : tails_ok mn mx cs W;
  eo_hd : forall d, c_wt (hd d cs) = 1%N;
  eo_last : forall d, c_wt (last cs d) = 1%N }.

Lemma quantile_core_ok mn mx cs W r : ends_ok mn mx cs W -> (0 <= r)%Q -> (r <= 1)%Q ->
  exists q, quantile_core mn mx cs W r = Val q /\ (mn <= q /\ q <= mx)%Q.
Proof.
  intros [T H1 L1] R0 R1. destruct T as [N0 S Wt Sm TL TH].
  destruct cs as [|c0 l]; [congruence|]. destruct (TL c0) as [TLa TLb]. destruct (TH c0) as [THa THb].
  specialize (H1 c0). specialize (L1 c0). cbn [hd] in *. specialize (TLb H1). specialize (THb L1).
  assert (MM : (mn <= mx)%Q). { pose proof (sorted_last (c0 :: l) c0 c0 S ltac:(left; reflexivity)) as M. unfold mle in M. qlra. }
  unfold quantile_core. destruct l as [|c1 l].
  - exists (c_mean c0). split; [reflexivity|]. cbn [last] in *. qlra.
  - set (cl := last (c0 :: c1 :: l) c0) in *. cbv zeta. set (w := (r * qw W)%Q).
    destruct (qltb w 1) eqn:E1; [exists mn; split; [reflexivity|qlra]|]. apply qltb_ge in E1.
    destruct (qltb (qw W - 1) w) eqn:E2; [exists mx; split; [reflexivity|qlra]|]. apply qltb_ge in E2.
    rewrite H1, L1. change (qltb 1 (qw 1)) with false. cbn [andb].
    destruct (quantile_loop_ok (c1 :: l) (qw 1 / 2) w c0 S Wt) as (q & Q & B1 & B2).
    + rewrite qw_1. qlra.
    + fold cl. rewrite H1, L1, Sm, qw_1. qlra.
    + rewrite Q. exists q. split; [reflexivity|]. fold cl in B2. qlra.
Qed.
