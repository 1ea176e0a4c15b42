(** * What the centroids of a t-digest stand for: proofs. *)
From Verif Require Import Base Arr TdigestModel.
From Coq Require Import QArith Qabs Permutation Sorted Lqa Setoid.
Local Close Scope Q_scope.
Local Open Scope nat_scope.

(** ** Arithmetic *)
Lemma qltb_lt a b : qltb a b = true <-> (a < b)%Q.
Proof.
  unfold qltb. rewrite Bool.negb_true_iff. split; intro H.
  - apply Qnot_le_lt. intro L. apply Qle_bool_iff in L. congruence.
  - apply Bool.not_true_iff_false. rewrite Qle_bool_iff. apply Qlt_not_le. exact H.
Qed.
Lemma qltb_ge a b : qltb a b = false <-> (b <= a)%Q.
Proof.
  unfold qltb. rewrite Bool.negb_false_iff. apply Qle_bool_iff.
Qed.
Lemma qleb_gt a b : Qle_bool a b = false <-> (b < a)%Q.
Proof. rewrite <- qltb_lt. unfold qltb. rewrite Bool.negb_true_iff. reflexivity. Qed.

Lemma qw_add a b : (qw (a + b) == qw a + qw b)%Q.
Proof. unfold qw. rewrite N2Z.inj_add, inject_Z_plus. reflexivity. Qed.
Lemma qw_le a b : (a <= b)%N -> (qw a <= qw b)%Q.
Proof. intro H. unfold qw. rewrite <- Zle_Qle. lia. Qed.
Lemma qw_le_inv a b : (qw a <= qw b)%Q -> (a <= b)%N.
Proof. unfold qw. rewrite <- Zle_Qle. lia. Qed.
Lemma qw_lt a b : (a < b)%N -> (qw a < qw b)%Q.
Proof. intro H. unfold qw. rewrite <- Zlt_Qlt. lia. Qed.
Lemma qw_0 : (qw 0 == 0)%Q. Proof. reflexivity. Qed.
Lemma qw_1 : (qw 1 == 1)%Q. Proof. reflexivity. Qed.
Lemma qw_pos a : (0 < a)%N -> (0 < qw a)%Q.
Proof. intro H. change 0%Q with (qw 0). apply qw_lt. exact H. Qed.
Lemma qw_nonneg a : (0 <= qw a)%Q.
Proof. change 0%Q with (qw 0). apply qw_le. lia. Qed.
Lemma qw_ge1 a : (0 < a)%N -> (1 <= qw a)%Q.
Proof. intro H. change 1%Q with (qw 1). apply qw_le. lia. Qed.

Definition qsum (l : list Q) : Q := fold_right Qplus 0%Q l.
Lemma qsum_app a b : (qsum (a ++ b) == qsum a + qsum b)%Q.
Proof.
  induction a as [|x a IH]; cbn [app].
  - change (qsum []) with 0%Q. ring.
  - change (qsum (x :: a ++ b)) with (x + qsum (a ++ b))%Q. change (qsum (x :: a)) with (x + qsum a)%Q. rewrite IH. ring.
Qed.

(** ** A centroid stands for a group of values: their number and their average. *)
Definition stands (c : cent) (g : list Q) : Prop :=
  g <> [] /\ c_wt c = N.of_nat (length g) /\ (c_mean c * qw (c_wt c) == qsum g)%Q.

Lemma stands_wt c g : stands c g -> (0 < c_wt c)%N.
Proof. intros (N0 & E & _). rewrite E. destruct g; [congruence|]. cbn [length]. lia. Qed.

Lemma stands_single v : stands (mkC v 1) [v].
Proof.
  split; [discriminate|]. split; [reflexivity|]. cbn [c_mean c_wt qsum fold_right]. rewrite qw_1. ring.
Qed.

Lemma stands_add c o g h : stands c g -> stands o h -> stands (cadd c o) (g ++ h).
Proof.
  intros G H. pose proof (stands_wt _ _ G) as Wg. pose proof (stands_wt _ _ H) as Wh.
  destruct G as (G0 & G1 & G2), H as (H0 & H1 & H2).
  unfold cadd. split; [destruct g; [congruence|discriminate]|]. cbn [c_mean c_wt].
  split; [rewrite app_length, Nat2N.inj_add; congruence|].
  rewrite Qred_correct, qsum_app, <- G2, <- H2, qw_add. field.
  pose proof (qw_pos _ Wg). pose proof (qw_pos _ Wh). lra.
Qed.

(** The mean of two joined centroids lies between theirs. *)
Lemma cadd_between c o : (0 < c_wt c)%N -> (0 < c_wt o)%N -> (c_mean c <= c_mean o)%Q ->
  (c_mean c <= c_mean (cadd c o) /\ c_mean (cadd c o) <= c_mean o)%Q.
Proof.
  intros Wc Wo L. unfold cadd. cbn [c_mean]. rewrite Qred_correct, qw_add.
  pose proof (qw_pos _ Wc) as Pc. pose proof (qw_pos _ Wo) as Po.
  set (x := c_mean c) in *. set (y := c_mean o) in *. set (a := qw (c_wt c)) in *. set (b := qw (c_wt o)) in *.
  assert (E : (x + (y - x) * b / (a + b) == x + (y - x) * (b / (a + b)))%Q) by (field; lra).
  rewrite E.
  assert (F0 : (0 <= b / (a + b))%Q) by (apply Qle_shift_div_l; lra).
  assert (F1 : (b / (a + b) <= 1)%Q) by (apply Qle_shift_div_r; lra).
  set (f := (b / (a + b))%Q) in *. clearbody f.
  split; nra.
Qed.
Lemma cadd_between' c o : (0 < c_wt c)%N -> (0 < c_wt o)%N -> (c_mean o <= c_mean c)%Q ->
  (c_mean o <= c_mean (cadd c o) /\ c_mean (cadd c o) <= c_mean c)%Q.
Proof.
  intros Wc Wo L. unfold cadd. cbn [c_mean]. rewrite Qred_correct, qw_add.
  pose proof (qw_pos _ Wc) as Pc. pose proof (qw_pos _ Wo) as Po.
  set (x := c_mean c) in *. set (y := c_mean o) in *. set (a := qw (c_wt c)) in *. set (b := qw (c_wt o)) in *.
  assert (E : (x + (y - x) * b / (a + b) == x + (y - x) * (b / (a + b)))%Q) by (field; lra).
  rewrite E.
  assert (F0 : (0 <= b / (a + b))%Q) by (apply Qle_shift_div_l; lra).
  assert (F1 : (b / (a + b) <= 1)%Q) by (apply Qle_shift_div_r; lra).
  set (f := (b / (a + b))%Q) in *. clearbody f.
  split; nra.
Qed.

(** ** The stable sort *)
Definition mle (a b : cent) : Prop := (c_mean a <= c_mean b)%Q.
Definition mge (a b : cent) : Prop := (c_mean b <= c_mean a)%Q.

Lemma ins_perm x l : Permutation (x :: l) (ins x l).
Proof.
  induction l as [|y l IH]; cbn [ins]; [reflexivity|].
  destruct (qltb (c_mean y) (c_mean x)); [|reflexivity].
  rewrite perm_swap. constructor. exact IH.
Qed.
Lemma ssort_perm l : Permutation l (ssort l).
Proof. induction l as [|x l IH]; cbn [ssort]; [constructor|]. rewrite <- ins_perm. constructor. exact IH. Qed.

Lemma ins_sorted x l : StronglySorted mle l -> StronglySorted mle (ins x l).
Proof.
  induction l as [|y l IH]; intro S; cbn [ins]; [repeat constructor|].
  pose proof S as S0. apply StronglySorted_inv in S. destruct S as [S F].
  destruct (qltb (c_mean y) (c_mean x)) eqn:E.
  - constructor; [apply IH; exact S|].
    eapply Permutation_Forall; [apply ins_perm|]. constructor; [|exact F]. apply qltb_lt in E. unfold mle. lra.
  - apply qltb_ge in E. constructor; [exact S0|]. constructor; [exact E|].
    eapply Forall_impl; [|exact F]. unfold mle. intros; lra.
Qed.
Lemma ssort_sorted l : StronglySorted mle (ssort l).
Proof. induction l as [|x l IH]; cbn [ssort]; [constructor|apply ins_sorted; exact IH]. Qed.

Lemma sorted_rev l : StronglySorted mle l -> StronglySorted mge (rev l).
Proof.
  induction l as [|x l IH]; intro S; cbn [rev]; [constructor|].
  apply StronglySorted_inv in S. destruct S as [S F]. specialize (IH S).
  assert (G : Forall (fun c => mge c x) (rev l)).
  { apply Forall_rev. eapply Forall_impl; [|exact F]. intros a Ha; exact Ha. }
  clear S F. induction (rev l) as [|y r IHr]; cbn [app]; [repeat constructor|].
  apply StronglySorted_inv in IH. destruct IH as [S F]. apply Forall_cons_iff in G. destruct G as [Gy G].
  constructor; [apply IHr; assumption|]. apply Forall_app. split; [exact F|]. constructor; [exact Gy|constructor].
Qed.
Lemma sorted_rev' l : StronglySorted mge l -> StronglySorted mle (rev l).
Proof.
  induction l as [|x l IH]; intro S; cbn [rev]; [constructor|].
  apply StronglySorted_inv in S. destruct S as [S F]. specialize (IH S).
  assert (G : Forall (fun c => mle c x) (rev l)).
  { apply Forall_rev. eapply Forall_impl; [|exact F]. intros a Ha; exact Ha. }
  clear S F. induction (rev l) as [|y r IHr]; cbn [app]; [repeat constructor|].
  apply StronglySorted_inv in IH. destruct IH as [S F]. apply Forall_cons_iff in G. destruct G as [Gy G].
  constructor; [apply IHr; assumption|]. apply Forall_app. split; [exact F|]. constructor; [exact Gy|constructor].
Qed.

(** ** The first minimal and the last maximal centroid are single values *)
Definition low1 (l : list cent) : Prop := exists pre c post, l = pre ++ c :: post /\ c_wt c = 1%N /\
  Forall (fun p => (c_mean c < c_mean p)%Q) pre /\ Forall (fun p => (c_mean c <= c_mean p)%Q) post.
Definition high1 (l : list cent) : Prop := exists pre c post, l = pre ++ c :: post /\ c_wt c = 1%N /\
  Forall (fun p => (c_mean p <= c_mean c)%Q) pre /\ Forall (fun p => (c_mean p < c_mean c)%Q) post.

Lemma low1_app a b : low1 a -> low1 b -> low1 (a ++ b).
Proof.
  intros (p1 & c1 & q1 & E1 & W1 & A1 & B1) (p2 & c2 & q2 & E2 & W2 & A2 & B2). subst a b.
  destruct (Qlt_le_dec (c_mean c2) (c_mean c1)) as [L|L].
  - exists ((p1 ++ c1 :: q1) ++ p2), c2, q2. split; [rewrite <- !app_assoc; reflexivity|]. split; [exact W2|]. split; [|exact B2].
    apply Forall_app. split; [|exact A2]. apply Forall_app. split; [|constructor; [exact L|]].
    + eapply Forall_impl; [|exact A1]. cbn. intros; lra.
    + eapply Forall_impl; [|exact B1]. cbn. intros; lra.
  - exists p1, c1, (q1 ++ p2 ++ c2 :: q2). split; [rewrite <- !app_assoc; reflexivity|]. split; [exact W1|]. split; [exact A1|].
    apply Forall_app. split; [exact B1|]. apply Forall_app. split; [|constructor; [exact L|]].
    + eapply Forall_impl; [|exact A2]. cbn. intros; lra.
    + eapply Forall_impl; [|exact B2]. cbn. intros; lra.
Qed.
Lemma high1_app a b : high1 a -> high1 b -> high1 (a ++ b).
Proof.
  intros (p1 & c1 & q1 & E1 & W1 & A1 & B1) (p2 & c2 & q2 & E2 & W2 & A2 & B2). subst a b.
  destruct (Qlt_le_dec (c_mean c2) (c_mean c1)) as [L|L].
  - exists p1, c1, (q1 ++ p2 ++ c2 :: q2). split; [rewrite <- !app_assoc; reflexivity|]. split; [exact W1|]. split; [exact A1|].
    apply Forall_app. split; [exact B1|]. apply Forall_app. split; [|constructor; [exact L|]].
    + eapply Forall_impl; [|exact A2]. cbn. intros; lra.
    + eapply Forall_impl; [|exact B2]. cbn. intros; lra.
  - exists ((p1 ++ c1 :: q1) ++ p2), c2, q2. split; [rewrite <- !app_assoc; reflexivity|]. split; [exact W2|]. split; [|exact B2].
    apply Forall_app. split; [|exact A2]. apply Forall_app. split; [|constructor; [exact L|]].
    + eapply Forall_impl; [|exact A1]. cbn. intros; lra.
    + eapply Forall_impl; [|exact B1]. cbn. intros; lra.
Qed.

Definition ends1 (l : list cent) : Prop := l = [] \/ (low1 l /\ high1 l).
Lemma ends1_app a b : ends1 a -> ends1 b -> ends1 (a ++ b).
Proof.
  intros [->|[A1 A2]]; [auto|]. intros [->|[B1 B2]]; [rewrite app_nil_r; right; auto|].
  right. split; [apply low1_app|apply high1_app]; assumption.
Qed.
Lemma ends1_singles l : ends1 (singles l).
Proof.
  unfold singles. induction l as [|x l IH]; cbn [map]; [left; reflexivity|].
  change (ends1 ([mkC x 1] ++ map (fun v => mkC v 1) l)). apply ends1_app; [|exact IH].
  right. split; exists [], (mkC x 1), []; repeat split; auto.
Qed.

Lemma ins_hd x l d : hd d (ins x l) = match l with [] => x | y :: _ => if qltb (c_mean y) (c_mean x) then y else x end.
Proof. destruct l as [|y l]; cbn [ins]; [reflexivity|]. destruct (qltb _ _); reflexivity. Qed.
Lemma ssort_hd pre c post d : Forall (fun p => (c_mean c < c_mean p)%Q) pre -> Forall (fun p => (c_mean c <= c_mean p)%Q) post ->
  hd d (ssort (pre ++ c :: post)) = c.
Proof.
  induction pre as [|p pre IH]; intros A B; cbn [app ssort]; rewrite ins_hd.
  - destruct (ssort post) as [|y r] eqn:E; [reflexivity|].
    assert (In y post). { eapply Permutation_in; [symmetry; apply ssort_perm|]. rewrite E. left; reflexivity. }
    rewrite Forall_forall in B. specialize (B _ H).
    destruct (qltb (c_mean y) (c_mean c)) eqn:F; [|reflexivity]. apply qltb_lt in F. lra.
  - apply Forall_cons_iff in A. destruct A as [Ap A]. specialize (IH A B).
    destruct (ssort (pre ++ c :: post)) as [|y r] eqn:E.
    + exfalso. pose proof (ssort_perm (pre ++ c :: post)) as P. rewrite E in P. symmetry in P. apply Permutation_nil in P.
      destruct pre; discriminate.
    + cbn [hd] in IH. subst y. assert (F : qltb (c_mean c) (c_mean p) = true) by (apply qltb_lt; exact Ap). rewrite F. reflexivity.
Qed.

Lemma ins_last x l d : StronglySorted mle l ->
  last (ins x l) d = match l with [] => x | _ => if qltb (c_mean (last l d)) (c_mean x) then x else last l d end.
Proof.
  induction l as [|y l IH]; intro S; [reflexivity|].
  apply StronglySorted_inv in S. destruct S as [S F]. specialize (IH S).
  cbn [ins]. destruct (qltb (c_mean y) (c_mean x)) eqn:E.
  - destruct l as [|z l]; [cbn [ins last]; rewrite E; reflexivity|].
    change (last (y :: z :: l) d) with (last (z :: l) d). rewrite <- IH.
    destruct (ins x (z :: l)) as [|u r] eqn:I.
    + exfalso. pose proof (ins_perm x (z :: l)) as P. rewrite I in P. symmetry in P. apply Permutation_nil in P. discriminate.
    + change (last (y :: u :: r) d) with (last (u :: r) d). reflexivity.
  - change (last (x :: y :: l) d) with (last (y :: l) d).
    assert (L : (c_mean y <= c_mean (last (y :: l) d))%Q).
    { destruct l as [|z l]; [cbn [last]; lra|]. change (last (y :: z :: l) d) with (last (z :: l) d).
      rewrite Forall_forall in F. apply F. destruct (exists_last (l := z :: l)) as (r & w & R); [discriminate|].
      rewrite R, last_last. apply in_or_app. right; left; reflexivity. }
    apply qltb_ge in E. destruct (qltb (c_mean (last (y :: l) d)) (c_mean x)) eqn:G; [|reflexivity].
    apply qltb_lt in G. lra.
Qed.
Lemma ssort_last pre c post d : Forall (fun p => (c_mean p <= c_mean c)%Q) pre -> Forall (fun p => (c_mean p < c_mean c)%Q) post ->
  last (ssort (pre ++ c :: post)) d = c.
Proof.
  induction pre as [|p pre IH]; intros A B; cbn [app ssort]; rewrite ins_last by apply ssort_sorted.
  - destruct (ssort post) as [|y r] eqn:E; [reflexivity|].
    assert (In (last (y :: r) d) post).
    { eapply Permutation_in; [symmetry; apply ssort_perm|]. rewrite E.
      destruct (exists_last (l := y :: r)) as (q & w & R); [discriminate|].
      rewrite R, last_last. apply in_or_app. right; left; reflexivity. }
    rewrite Forall_forall in B. specialize (B _ H). apply qltb_lt in B. rewrite B. reflexivity.
  - apply Forall_cons_iff in A. destruct A as [Ap A]. specialize (IH A B).
    destruct (ssort (pre ++ c :: post)) as [|y r] eqn:E.
    + exfalso. pose proof (ssort_perm (pre ++ c :: post)) as P. rewrite E in P. symmetry in P. apply Permutation_nil in P.
      destruct pre; discriminate.
    + rewrite IH. assert (F : qltb (c_mean c) (c_mean p) = false) by (apply qltb_ge; exact Ap). rewrite F. reflexivity.
Qed.

(** ** The merging loop *)
Section Loop.
Variable ln : Q -> Q.

Lemma squash_stands k W l : forall first so cur g vs, stands cur g -> Forall2 stands l vs ->
  exists gs, Forall2 stands (squash ln k W first so cur l) gs /\ concat gs = g ++ concat vs.
Proof.
  induction l as [|b l IH]; intros first so cur g vs G V.
  - inversion V; subst. exists [g]. cbn [squash concat]. split; [constructor; [exact G|constructor]|reflexivity].
  - inversion V as [|? h ? vs' H V' E1 E2]; subst. cbn [squash].
    destruct (if (_ : bool) then false else _).
    + destruct (IH false so (cadd cur b) (g ++ h) vs' (stands_add _ _ _ _ G H) V') as (gs & S & C).
      exists gs. split; [exact S|]. rewrite C. cbn [concat]. rewrite app_assoc. reflexivity.
    + destruct (IH false (so + qw (c_wt cur))%Q b h vs' H V') as (gs & S & C).
      exists (g :: gs). split; [constructor; assumption|]. cbn [concat]. rewrite C. reflexivity.
Qed.

Lemma squash_sorted (R : cent -> cent -> Prop) k W :
  (forall a b c, R a b -> R b c -> R a c) ->
  (forall a b, (0 < c_wt a)%N -> (0 < c_wt b)%N -> R a b -> R a (cadd a b) /\ R (cadd a b) b) -> (forall a, R a a) ->
  forall l first so cur, Forall (fun c => (0 < c_wt c)%N) (cur :: l) -> StronglySorted R (cur :: l) ->
  StronglySorted R (squash ln k W first so cur l) /\ Forall (R cur) (squash ln k W first so cur l).
Proof.
  intros T B I. induction l as [|b l IH]; intros first so cur P S; cbn [squash].
  - split; [repeat constructor|repeat constructor; apply I].
  - apply Forall_cons_iff in P. destruct P as [Pc P]. pose proof P as P'. apply Forall_cons_iff in P'. destruct P' as [Pb Pl].
    apply StronglySorted_inv in S. destruct S as [S F]. pose proof S as S'. apply StronglySorted_inv in S'. destruct S' as [Sl Fl].
    apply Forall_cons_iff in F. destruct F as [Fb Fc].
    destruct (if (_ : bool) then false else _).
    + destruct (B cur b Pc Pb Fb) as [B1 B2].
      destruct (IH false so (cadd cur b)) as [IH1 IH2].
      * constructor; [cbn [cadd c_wt]; lia|exact Pl].
      * constructor; [exact Sl|]. eapply Forall_impl; [|exact Fl]. intros a Ha. eapply T; eassumption.
      * split; [exact IH1|]. eapply Forall_impl; [|exact IH2]. intros a Ha. eapply T; eassumption.
    + destruct (IH false (so + qw (c_wt cur))%Q b P S) as [IH1 IH2].
      assert (Q : Forall (R cur) (squash ln k W false (so + qw (c_wt cur)) b l)).
      { eapply Forall_impl; [|exact IH2]. intros a Ha. eapply T; eassumption. }
      split; [constructor; [exact IH1|exact Q]|constructor; [apply I|exact Q]].
Qed.

Lemma squash_nonnil k W first so cur l : squash ln k W first so cur l <> [].
Proof.
  revert first so cur; induction l as [|b l IH]; intros; cbn [squash]; [discriminate|].
  destruct (if (_ : bool) then false else _); [apply IH|discriminate].
Qed.
Lemma squash_hd k W so cur l d : hd d (squash ln k W true so cur l) = cur.
Proof. destruct l as [|b l]; reflexivity. Qed.
Lemma squash_last k W l : forall first so cur d, last (squash ln k W first so cur l) d = last (cur :: l) d.
Proof.
  induction l as [|b l IH]; intros first so cur d; cbn [squash]; [reflexivity|].
  destruct l as [|b' l].
  - rewrite Bool.orb_true_r. reflexivity.
  - rewrite Bool.orb_false_r. set (r := b' :: l) in *.
    destruct (if first then false else fits ln k W so (c_wt cur) (c_wt b)).
    + rewrite IH. subst r. reflexivity.
    + pose proof (squash_nonnil k W false (so + qw (c_wt cur))%Q b r) as N0.
      pose proof (IH false (so + qw (c_wt cur))%Q b d) as E.
      destruct (squash ln k W false (so + qw (c_wt cur))%Q b r) as [|u q]; [congruence|].
      change (last (cur :: u :: q) d) with (last (u :: q) d). rewrite E. subst r. reflexivity.
Qed.
Lemma squash_sumw k W l : forall first so cur,
  (sumw (squash ln k W first so cur l) == sumw (cur :: l))%Q.
Proof.
  induction l as [|b l IH]; intros first so cur; cbn [squash]; [reflexivity|].
  destruct (if (_ : bool) then false else _).
  - rewrite IH. cbn [sumw fold_right cadd c_wt]. rewrite qw_add. ring.
  - change (qw (c_wt cur) + sumw (squash ln k W false (so + qw (c_wt cur)) b l) == qw (c_wt cur) + sumw (b :: l))%Q.
    rewrite IH. reflexivity.
Qed.
End Loop.

(** [merge]'s centroids as a function of the sorted input. *)
Definition squashed (ln : Q -> Q) (k W : N) (r : bool) (sorted : list cent) : list cent :=
  match (if r then rev sorted else sorted) with
  | [] => []
  | c :: l => let out := squash ln k W true 0 c l in if r then rev out else out
  end.

Lemma last_rev {A} (l : list A) d : last (rev l) d = hd d l.
Proof. destruct l as [|x l]; [reflexivity|]. cbn [rev hd]. apply last_last. Qed.
Lemma hd_rev {A} (l : list A) d : hd d (rev l) = last l d.
Proof. rewrite <- (rev_involutive l) at 2. rewrite last_rev. reflexivity. Qed.
Lemma last_any {A} (l : list A) a b : l <> [] -> last l a = last l b.
Proof. intro N0. destruct (exists_last N0) as (r & x & ->). rewrite !last_last. reflexivity. Qed.

Lemma Forall2_rev {A B} (R : A -> B -> Prop) l l' : Forall2 R l l' -> Forall2 R (rev l) (rev l').
Proof.
  induction 1 as [|x y l l' H F IH]; cbn [rev]; [constructor|]. apply Forall2_app; [exact IH|]. constructor; [exact H|constructor].
Qed.
Lemma Forall2_perm {A B} (R : A -> B -> Prop) l l' m : Permutation l l' -> Forall2 R l m ->
  exists m', Permutation m m' /\ Forall2 R l' m'.
Proof.
  intros P. revert m. induction P as [|x l l' P IH|x y l|l1 l2 l3 P1 IH1 P2 IH2]; intros m F.
  - inversion F; subst. exists []. split; constructor.
  - inversion F as [|? b ? m0 H F0]; subst. destruct (IH _ F0) as (m' & Q & G). exists (b :: m'). split; constructor; assumption.
  - inversion F as [|? b ? m0 H F0]; subst. inversion F0 as [|? b' ? m1 H1 F1]; subst.
    exists (b' :: b :: m1). split; [apply perm_swap|]. repeat constructor; assumption.
  - destruct (IH1 _ F) as (m1 & Q1 & G1). destruct (IH2 _ G1) as (m2 & Q2 & G2). exists m2. split; [etransitivity; eassumption|exact G2].
Qed.
Lemma concat_perm {A} (l l' : list (list A)) : Permutation l l' -> Permutation (concat l) (concat l').
Proof.
  induction 1 as [|x l l' P IH|x y l|l1 l2 l3 P1 IH1 P2 IH2]; cbn [concat].
  - constructor.
  - apply Permutation_app_head. exact IH.
  - rewrite !app_assoc. apply Permutation_app_tail. apply Permutation_app_comm.
  - etransitivity; eassumption.
Qed.

Lemma sumw_app a b : (sumw (a ++ b) == sumw a + sumw b)%Q.
Proof.
  induction a as [|x a IH]; cbn [app].
  - change (sumw []) with 0%Q. ring.
  - change (sumw (x :: a ++ b)) with (qw (c_wt x) + sumw (a ++ b))%Q. change (sumw (x :: a)) with (qw (c_wt x) + sumw a)%Q.
    rewrite IH. ring.
Qed.
Lemma sumw_perm a b : Permutation a b -> (sumw a == sumw b)%Q.
Proof.
  induction 1 as [|x l l' P IH|x y l|l1 l2 l3 P1 IH1 P2 IH2]; cbn [sumw fold_right].
  - reflexivity.
  - fold (sumw l). fold (sumw l'). rewrite IH. reflexivity.
  - ring.
  - etransitivity; eassumption.
Qed.

Record good_cs (cs : list cent) (xs : list Q) : Prop := mkGood {
  g_rep : exists gs, Forall2 stands cs gs /\ Permutation xs (concat gs);
  g_lo : forall x, In x xs -> exists c, In c cs /\ (c_mean c <= x)%Q;
  g_hi : forall x, In x xs -> exists c, In c cs /\ (x <= c_mean c)%Q;
  g_ends : ends1 cs }.

Lemma good_app a b xs ys : good_cs a xs -> good_cs b ys -> good_cs (a ++ b) (xs ++ ys).
Proof.
  intros [(ga & Ra & Pa) La Ha Ea] [(gb & Rb & Pb) Lb Hb Eb]. split.
  - exists (ga ++ gb). split; [apply Forall2_app; assumption|]. rewrite concat_app. apply Permutation_app; assumption.
  - intros x I. apply in_app_or in I. destruct I as [I|I].
    + destruct (La x I) as (c & C & M). exists c. split; [apply in_or_app; left; exact C|exact M].
    + destruct (Lb x I) as (c & C & M). exists c. split; [apply in_or_app; right; exact C|exact M].
  - intros x I. apply in_app_or in I. destruct I as [I|I].
    + destruct (Ha x I) as (c & C & M). exists c. split; [apply in_or_app; left; exact C|exact M].
    + destruct (Hb x I) as (c & C & M). exists c. split; [apply in_or_app; right; exact C|exact M].
  - apply ends1_app; assumption.
Qed.
Lemma good_singles l : good_cs (singles l) l.
Proof.
  split.
  - exists (map (fun x => [x]) l). split.
    + unfold singles. induction l as [|x l IH]; cbn [map]; constructor; [apply stands_single|exact IH].
    + induction l as [|x l IH]; cbn [map concat app]; [constructor|]. constructor. exact IH.
  - intros x I. exists (mkC x 1). split; [|cbn [c_mean]; lra]. unfold singles. apply in_map_iff. exists x. auto.
  - intros x I. exists (mkC x 1). split; [|cbn [c_mean]; lra]. unfold singles. apply in_map_iff. exists x. auto.
  - apply ends1_singles.
Qed.
Lemma good_perm cs xs ys : Permutation xs ys -> good_cs cs xs -> good_cs cs ys.
Proof.
  intros P [(g & R & Q) L H E]. split; auto.
  - exists g. split; [exact R|]. rewrite <- P. exact Q.
  - intros x I. apply L. eapply Permutation_in; [symmetry; exact P|exact I].
  - intros x I. apply H. eapply Permutation_in; [symmetry; exact P|exact I].
Qed.

Lemma good_wt cs xs : good_cs cs xs -> Forall (fun c => (0 < c_wt c)%N) cs.
Proof. intros [(g & R & _) _ _ _]. induction R as [|c g0 l gs S R IH]; constructor; [eapply stands_wt; exact S|exact IH]. Qed.
Lemma stands_sum cs gs : Forall2 stands cs gs -> (sumw cs == qw (N.of_nat (length (concat gs))))%Q.
Proof.
  induction 1 as [|c g l gs S R IH]; cbn [sumw fold_right concat length]; [reflexivity|].
  fold (sumw l). rewrite IH, app_length, Nat2N.inj_add, qw_add. destruct S as (_ & -> & _). reflexivity.
Qed.
Lemma good_sumw cs xs : good_cs cs xs -> (sumw cs == qw (N.of_nat (length xs)))%Q.
Proof. intros [(g & R & P) _ _ _]. rewrite (Permutation_length P). apply stands_sum. exact R. Qed.
Lemma good_nil cs : good_cs cs [] -> cs = [].
Proof.
  intros [(g & R & P) _ _ _]. apply Permutation_nil in P. destruct R as [|c h l gs S R]; [reflexivity|].
  destruct S as (N0 & _). destruct h; [congruence|discriminate].
Qed.
Lemma good_nil' xs : good_cs [] xs -> xs = [].
Proof. intros [(g & R & P) _ _ _]. inversion R; subst. symmetry in P. apply Permutation_nil in P. exact P. Qed.

Lemma sorted_hd l c d : StronglySorted mle l -> In c l -> mle (hd d l) c.
Proof.
  intros S I. destruct l as [|x l]; [destruct I|]. cbn [hd]. apply StronglySorted_inv in S. destruct S as [S F].
  destruct I as [->|I]; [unfold mle; lra|]. rewrite Forall_forall in F. apply F. exact I.
Qed.
Lemma sorted_last l c d : StronglySorted mle l -> In c l -> mle c (last l d).
Proof.
  intros S I. apply sorted_rev in S. rewrite <- (rev_involutive l), last_rev.
  apply in_rev in I. destruct (rev l) as [|x r]; [destruct I|]. cbn [hd]. apply StronglySorted_inv in S. destruct S as [S F].
  destruct I as [->|I]; [unfold mle; lra|]. rewrite Forall_forall in F. apply F. exact I.
Qed.
Lemma last_in {A} (l : list A) d : l <> [] -> In (last l d) l.
Proof. intro N0. destruct (exists_last N0) as (r & x & ->). rewrite last_last. apply in_or_app. right; left; reflexivity. Qed.
Lemma hd_in {A} (l : list A) d : l <> [] -> In (hd d l) l.
Proof. destruct l; [congruence|]. left; reflexivity. Qed.

Lemma ends1_sorted l d : l <> [] -> ends1 l -> c_wt (hd d (ssort l)) = 1%N /\ c_wt (last (ssort l) d) = 1%N.
Proof.
  intros N0 [->|[(p1 & c1 & q1 & E1 & W1 & A1 & B1) (p2 & c2 & q2 & E2 & W2 & A2 & B2)]]; [congruence|]. split.
  - rewrite E1, ssort_hd by assumption. exact W1.
  - rewrite E2, ssort_last by assumption. exact W2.
Qed.
Lemma sorted_ends1 l d : StronglySorted mle l -> l <> [] -> c_wt (hd d l) = 1%N -> c_wt (last l d) = 1%N -> ends1 l.
Proof.
  intros S N0 H L. right. split.
  - destruct l as [|c l]; [congruence|]. exists [], c, l. split; [reflexivity|]. split; [exact H|]. split; [constructor|].
    apply StronglySorted_inv in S. destruct S as [_ F]. exact F.
  - destruct (exists_last N0) as (r & x & E). rewrite E in *. rewrite last_last in L. exists r, x, []. split; [reflexivity|].
    split; [exact L|]. split; [|constructor]. apply Forall_forall. intros c I.
    pose proof (sorted_last (r ++ [x]) c d S) as M. rewrite last_last in M. apply M. apply in_or_app. left; exact I.
Qed.

Section Merge.
Variable ln : Q -> Q.

(** Merging a list of centroids that stands for [xs] gives a sorted list that stands for [xs] and has the same extremes. *)
Lemma squashed_ends k W r l d : l <> [] ->
  squashed ln k W r l <> [] /\ hd d (squashed ln k W r l) = hd d l /\ last (squashed ln k W r l) d = last l d.
Proof.
  intro N0. unfold squashed. destruct r.
  - pose proof (hd_rev l d) as H1. pose proof (last_rev l d) as H2.
    destruct (rev l) as [|c q] eqn:E.
    + apply (f_equal (@rev cent)) in E. rewrite rev_involutive in E. cbn [rev] in E. congruence.
    + cbv zeta. rewrite hd_rev, last_rev, squash_last, squash_hd, H2. cbn [hd] in H1. split; [|split; auto].
      intro F. apply (f_equal (@rev cent)) in F. rewrite rev_involutive in F. cbn [rev] in F. apply squash_nonnil in F. exact F.
  - destruct l as [|c q]; [congruence|]. cbv zeta. rewrite squash_last, squash_hd. split; [apply squash_nonnil|]. auto.
Qed.

Lemma squashed_good k W r l xs : xs <> [] -> good_cs l xs ->
  let out := squashed ln k W r (ssort l) in
  StronglySorted mle out /\ good_cs out xs.
Proof.
  intros X G out. set (so := ssort l) in *. pose proof (ssort_perm l) as P. fold so in P.
  pose proof (ssort_sorted l) as S. fold so in S.
  assert (N1 : l <> []) by (intros ->; apply good_nil' in G; congruence).
  assert (N0 : so <> []) by (intro E; rewrite E in P; symmetry in P; apply Permutation_nil in P; congruence).
  pose proof (good_wt _ _ G) as Wt.
  assert (Wso : Forall (fun c => (0 < c_wt c)%N) so) by (eapply Permutation_Forall; eassumption).
  set (d := mkC 0 0).
  destruct (squashed_ends k W r so d N0) as (No & Hd & La).
  assert (SO : StronglySorted mle out).
  { subst out. unfold squashed. destruct r.
    - pose proof (sorted_rev _ S) as Sr. pose proof (Forall_rev Wso) as Wr. destruct (rev so) as [|c q]; [constructor|].
      cbv zeta. apply sorted_rev'. apply (squash_sorted ln mge); unfold mge; auto.
      + intros; lra. + intros a b A B L. destruct (cadd_between' a b A B L). split; assumption. + intros; lra.
    - destruct so as [|c q]; [constructor|]. cbv zeta. apply (squash_sorted ln mle); unfold mle; auto.
      + intros; lra. + intros a b A B L. apply cadd_between; assumption. + intros; lra. }
  split; [exact SO|].
  assert (RP : exists gs, Forall2 stands out gs /\ Permutation xs (concat gs)).
  { destruct (g_rep _ _ G) as (gs & F & PX). destruct (Forall2_perm _ _ _ _ P F) as (gs1 & P1 & F1).
    subst out. unfold squashed. destruct r.
    - pose proof (Forall2_rev _ _ _ F1) as F2. destruct (rev so) as [|c q] eqn:E.
      + apply (f_equal (@rev cent)) in E. rewrite rev_involutive in E. cbn [rev] in E. congruence.
      + inversion F2 as [|? g0 ? gs2 H0 F3 X1 X2]. cbv zeta. destruct (squash_stands ln k W q true 0 c g0 gs2 H0 F3) as (gs3 & F4 & C).
        exists (rev gs3). split; [apply Forall2_rev; exact F4|].
        rewrite PX, (concat_perm _ _ P1). rewrite (concat_perm _ _ (Permutation_rev gs1)), <- X2. cbn [concat]. rewrite <- C.
        apply concat_perm. apply Permutation_rev.
    - destruct so as [|c q]; [congruence|]. inversion F1 as [|? g0 ? gs2 H0 F3 X1 X2]. cbv zeta.
      destruct (squash_stands ln k W q true 0 c g0 gs2 H0 F3) as (gs3 & F4 & C).
      exists gs3. split; [exact F4|]. rewrite PX, (concat_perm _ _ P1), <- X2, C. reflexivity. }
  split.
  - exact RP.
  - intros x I. destruct (g_lo _ _ G x I) as (c & C & M). exists (hd d out). split; [apply hd_in; exact No|].
    unfold out. rewrite Hd. pose proof (sorted_hd so c d S) as Q. unfold mle in Q.
    specialize (Q (Permutation_in _ P C)). lra.
  - intros x I. destruct (g_hi _ _ G x I) as (c & C & M). exists (last out d). split; [apply last_in; exact No|].
    unfold out. rewrite La. pose proof (sorted_last so c d S) as Q. unfold mle in Q.
    specialize (Q (Permutation_in _ P C)). lra.
  - destruct (ends1_sorted l d N1 (g_ends _ _ G)) as [E1 E2]. fold so in E1, E2.
    apply (sorted_ends1 _ d SO No); unfold out; [rewrite Hd|rewrite La]; assumption.
Qed.
End Merge.
