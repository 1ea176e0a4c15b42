(** * The invariant of t-digests and what the queries answer: proofs. *)
From Verif Require Import Base Arr TdigestModel TdigestProofs.
From Coq Require Import QArith Qabs Permutation Sorted Lqa Setoid.
Local Close Scope Q_scope.
Local Open Scope nat_scope.

Definition is_min (xs : list Q) (m : Q) : Prop := (exists x, In x xs /\ (x == m)%Q) /\ (forall x, In x xs -> (m <= x)%Q).
Definition is_max (xs : list Q) (m : Q) : Prop := (exists x, In x xs /\ (x == m)%Q) /\ (forall x, In x xs -> (x <= m)%Q).

Lemma is_min_perm xs ys m : Permutation xs ys -> is_min xs m -> is_min ys m.
Proof.
  intros P [(x & I & E) L]. split.
  - exists x. split; [eapply Permutation_in; eassumption|exact E].
  - intros y J. apply L. eapply Permutation_in; [symmetry; exact P|exact J].
Qed.
Lemma is_max_perm xs ys m : Permutation xs ys -> is_max xs m -> is_max ys m.
Proof.
  intros P [(x & I & E) L]. split.
  - exists x. split; [eapply Permutation_in; eassumption|exact E].
  - intros y J. apply L. eapply Permutation_in; [symmetry; exact P|exact J].
Qed.

Lemma hd1 l d : StronglySorted mle l -> l <> [] -> ends1 l -> c_wt (hd d l) = 1%N /\ c_wt (last l d) = 1%N.
Proof.
  intros S N0 [->|[(p1 & c1 & q1 & E1 & W1 & A1 & B1) (p2 & c2 & q2 & E2 & W2 & A2 & B2)]]; [congruence|]. split.
  - destruct p1 as [|p p1].
    + rewrite E1. exact W1.
    + exfalso. pose proof (sorted_hd l c1 d S) as M. rewrite E1 in M. cbn [app hd] in M.
      apply Forall_cons_iff in A1. destruct A1 as [A1 _]. unfold mle in M.
      assert ((c_mean p <= c_mean c1)%Q); [|lra]. apply M. right. apply in_or_app. right; left; reflexivity.
  - destruct q2 as [|q q2].
    + rewrite E2, last_last. exact W2.
    + exfalso. pose proof (sorted_last l c2 d S) as M. rewrite E2 in M. unfold mle in M.
      assert (I : In c2 (p2 ++ c2 :: q :: q2)) by (apply in_or_app; right; left; reflexivity). specialize (M I).
      assert (J : In (last (p2 ++ c2 :: q :: q2) d) (q :: q2)).
      { replace (p2 ++ c2 :: q :: q2) with ((p2 ++ [c2]) ++ q :: q2) by (rewrite <- app_assoc; reflexivity).
        destruct (exists_last (l := q :: q2)) as (r & z & R); [discriminate|]. rewrite R, app_assoc, last_last.
        apply in_or_app. right; left; reflexivity. }
      rewrite Forall_forall in B2. specialize (B2 _ J). lra.
Qed.

Lemma good_single_val cs xs c : good_cs cs xs -> In c cs -> c_wt c = 1%N -> exists x, In x xs /\ (x == c_mean c)%Q.
Proof.
  intros G I W. destruct (g_rep _ _ G) as (gs & F & P).
  assert (E : exists g, In g gs /\ stands c g).
  { clear P G W. induction F as [|a g l gs' S F IH]; [destruct I|]. destruct I as [->|I].
    - exists g. split; [left; reflexivity|exact S].
    - destruct (IH I) as (g' & J & S'). exists g'. split; [right; exact J|exact S']. }
  destruct E as (g & J & N0 & L & M). rewrite W in L, M. destruct g as [|x [|y g]]; [congruence| |cbn [length] in L; lia].
  exists x. split.
  - eapply Permutation_in; [symmetry; exact P|]. apply in_concat. exists [x]. split; [exact J|left; reflexivity].
  - cbn [qsum fold_right] in M. rewrite qw_1 in M. lra.
Qed.

Lemma good_min cs xs d : StronglySorted mle cs -> cs <> [] -> good_cs cs xs -> is_min xs (c_mean (hd d cs)).
Proof.
  intros S N0 G. destruct (hd1 cs d S N0 (g_ends _ _ G)) as [W _]. split.
  - apply (good_single_val cs xs _ G); [apply hd_in; exact N0|exact W].
  - intros x I. destruct (g_lo _ _ G x I) as (c & C & M). pose proof (sorted_hd cs c d S C) as Q. unfold mle in Q. lra.
Qed.
Lemma good_max cs xs d : StronglySorted mle cs -> cs <> [] -> good_cs cs xs -> is_max xs (c_mean (last cs d)).
Proof.
  intros S N0 G. destruct (hd1 cs d S N0 (g_ends _ _ G)) as [_ W]. split.
  - apply (good_single_val cs xs _ G); [apply last_in; exact N0|exact W].
  - intros x I. destruct (g_hi _ _ G x I) as (c & C & M). pose proof (sorted_last cs c d S C) as Q. unfold mle in Q. lra.
Qed.

Definition min_ok (xs : list Q) (e : ext) : Prop := match e with Fin m => is_min xs m | PInf => xs = [] | NInf | NaN => False end.
Definition max_ok (xs : list Q) (e : ext) : Prop := match e with Fin m => is_max xs m | NInf => xs = [] | PInf | NaN => False end.

Lemma min_ok_update xs e v : min_ok xs e -> min_ok (xs ++ [v]) (min_ext e v).
Proof.
  destruct e as [m| | |]; cbn [min_ok]; [|intros ->|contradiction|contradiction]; unfold min_ext; cbn [lt_ext].
  - intros [(x & I & E) L]. destruct (qltb v m) eqn:B; cbn [min_ok].
    + apply qltb_lt in B. split; [exists v; split; [apply in_or_app; right; left; reflexivity|reflexivity]|].
      intros y J. apply in_app_or in J. destruct J as [J|[<-|[]]]; [|lra]. specialize (L y J). lra.
    + apply qltb_ge in B. split; [exists x; split; [apply in_or_app; left; exact I|exact E]|].
      intros y J. apply in_app_or in J. destruct J as [J|[<-|[]]]; [|lra]. apply L. exact J.
  - cbn [app]. split; [exists v; split; [left; reflexivity|reflexivity]|]. intros y [<-|[]]. lra.
Qed.
Lemma max_ok_update xs e v : max_ok xs e -> max_ok (xs ++ [v]) (max_ext e v).
Proof.
  destruct e as [m| | |]; cbn [max_ok]; [|contradiction|intros ->|contradiction]; unfold max_ext; cbn [gt_ext].
  - intros [(x & I & E) L]. destruct (qltb m v) eqn:B; cbn [max_ok].
    + apply qltb_lt in B. split; [exists v; split; [apply in_or_app; right; left; reflexivity|reflexivity]|].
      intros y J. apply in_app_or in J. destruct J as [J|[<-|[]]]; [|lra]. specialize (L y J). lra.
    + apply qltb_ge in B. split; [exists x; split; [apply in_or_app; left; exact I|exact E]|].
      intros y J. apply in_app_or in J. destruct J as [J|[<-|[]]]; [|lra]. apply L. exact J.
  - cbn [app]. split; [exists v; split; [left; reflexivity|reflexivity]|]. intros y [<-|[]]. lra.
Qed.

(** Once all is in the centroids: the extreme means are the extremes. *)
Lemma min_ok_merge own all e m : incl own all -> min_ok own e -> is_min all m -> min_ok all (min_ext e m) /\ exists m', min_ext e m = Fin m'.
Proof.
  intros I O M. destruct e as [q| | |]; cbn [min_ok] in O; [| |contradiction|contradiction]; unfold min_ext; cbn [lt_ext].
  - destruct (qltb m q) eqn:B; cbn [min_ok]; [split; [exact M|eauto]|]. apply qltb_ge in B.
    destruct O as [(x & J & E) L]. destruct M as [(y & Jy & Ey) Ly]. split; [|eauto]. split; [exists x; split; [apply I; exact J|exact E]|].
    intros z K. specialize (Ly z K). lra.
  - cbn [min_ok]. split; [exact M|eauto].
Qed.
Lemma max_ok_merge own all e m : incl own all -> max_ok own e -> is_max all m -> max_ok all (max_ext e m) /\ exists m', max_ext e m = Fin m'.
Proof.
  intros I O M. destruct e as [q| | |]; cbn [max_ok] in O; [|contradiction| |contradiction]; unfold max_ext; cbn [gt_ext].
  - destruct (qltb q m) eqn:B; cbn [max_ok]; [split; [exact M|eauto]|]. apply qltb_ge in B.
    destruct O as [(x & J & E) L]. destruct M as [(y & Jy & Ey) Ly]. split; [|eauto]. split; [exists x; split; [apply I; exact J|exact E]|].
    intros z K. specialize (Ly z K). lra.
  - cbn [max_ok]. split; [exact M|eauto].
Qed.

Record TInv (s : td) (xs : list Q) : Prop := mkTInv {
  ti_k : (10 <= t_k s)%N;
  ti_parts : exists ys, Permutation xs (ys ++ t_buf s) /\ good_cs (t_cs s) ys /\ t_w s = N.of_nat (length ys);
  ti_sorted : StronglySorted mle (t_cs s);
  ti_min : min_ok xs (t_min s);
  ti_max : max_ok xs (t_max s);
  ti_buf : length (t_buf s) <= buffer_limit (t_k s) }.

Lemma min_ok_perm xs ys e : Permutation xs ys -> min_ok xs e -> min_ok ys e.
Proof.
  intros P. destruct e; cbn [min_ok]; [apply is_min_perm; exact P| |auto|auto]. intros ->. apply Permutation_nil. exact P.
Qed.
Lemma max_ok_perm xs ys e : Permutation xs ys -> max_ok xs e -> max_ok ys e.
Proof.
  intros P. destruct e; cbn [max_ok]; [apply is_max_perm; exact P|auto| |auto]. intros ->. apply Permutation_nil. exact P.
Qed.
Lemma TInv_perm s xs ys : Permutation xs ys -> TInv s xs -> TInv s ys.
Proof.
  intros P [K (zs & Q & G & W) S Mn Mx B]. split; auto.
  - exists zs. split; [rewrite <- P; exact Q|]. auto.
  - eapply min_ok_perm; eassumption.
  - eapply max_ok_perm; eassumption.
Qed.

Lemma TInv_empty s xs : TInv s xs -> is_empty s = true <-> xs = [].
Proof.
  intros [K (ys & P & G & W) S Mn Mx B]. unfold is_empty. split.
  - intro E. destruct (t_cs s) as [|c l]; [|discriminate]. destruct (t_buf s) as [|v b]; [|discriminate].
    apply good_nil' in G. subst ys. symmetry in P. apply Permutation_nil in P. exact P.
  - intros ->. apply Permutation_nil in P. apply app_eq_nil in P. destruct P as [-> ->]. apply good_nil in G. rewrite G. reflexivity.
Qed.

Lemma TInv_new k s : td_new k = Some s -> TInv s [].
Proof.
  unfold td_new. destruct (k <? 10)%N eqn:K; [discriminate|]. intro E. injection E as <-. apply N.ltb_ge in K. split; cbn [t_k t_cs t_buf t_w t_min t_max].
  - exact K.
  - exists []. split; [constructor|]. split; [|reflexivity]. change (good_cs (singles []) []). apply good_singles.
  - constructor.
  - reflexivity.
  - reflexivity.
  - cbn [length]. lia.
Qed.

Section Ops.
Variable ln : Q -> Q.

(** The state [merge] builds. *)
Definition merged (s : td) (tmp : list cent) (w : N) : td :=
  let cs := squashed ln (t_k s) (t_w s + w) (t_rev s) (ssort (tmp ++ t_cs s)) in
  let d := mkC 0 0 in
  mkTd (min_ext (t_min s) (c_mean (hd d cs))) (max_ext (t_max s) (c_mean (last cs d))) cs [] (t_w s + w) (t_k s) (negb (t_rev s)).

Lemma merge_merged s tmp w : tmp ++ t_cs s <> [] -> merge ln s tmp w = Some (merged s tmp w).
Proof.
  intro N0. set (l := tmp ++ t_cs s) in *.
  assert (N1 : ssort l <> []).
  { intro E. pose proof (ssort_perm l) as P. rewrite E in P. symmetry in P. apply Permutation_nil in P. congruence. }
  unfold merge, merged. fold l. destruct (squashed_ends ln (t_k s) (t_w s + w) (t_rev s) (ssort l) (mkC 0 0) N1) as (N2 & _ & _).
  unfold squashed in *.
  destruct (if t_rev s then rev (ssort l) else ssort l) as [|c q]; [congruence|]. cbv zeta in *.
  destruct (if t_rev s then _ else _) as [|c0 r]; [congruence|]. cbn [hd].
  rewrite (last_any (c0 :: r) c0 (mkC 0 0)) by discriminate. reflexivity.
Qed.

Lemma merged_ok s ys tmp zs own w : (10 <= t_k s)%N -> good_cs (t_cs s) ys -> good_cs tmp zs -> zs ++ ys <> [] ->
  incl own (zs ++ ys) -> min_ok own (t_min s) -> max_ok own (t_max s) -> (t_w s + w)%N = N.of_nat (length (zs ++ ys)) ->
  tmp ++ t_cs s <> [] /\ TInv (merged s tmp w) (zs ++ ys) /\ t_buf (merged s tmp w) = [].
Proof.
  intros K G T X I Mn Mx W. pose proof (good_app _ _ _ _ T G) as A.
  assert (N0 : tmp ++ t_cs s <> []). { intro E. rewrite E in A. apply good_nil' in A. congruence. }
  split; [exact N0|]. split; [|reflexivity].
  destruct (squashed_good ln (t_k s) (t_w s + w) (t_rev s) _ _ X A) as [S Gd].
  assert (N1 : squashed ln (t_k s) (t_w s + w) (t_rev s) (ssort (tmp ++ t_cs s)) <> []).
  { intro E. rewrite E in Gd. apply good_nil' in Gd. congruence. }
  unfold merged. cbv zeta. set (cs := squashed _ _ _ _ _) in *. split; cbn [t_k t_cs t_buf t_w t_min t_max].
  - exact K.
  - exists (zs ++ ys). split; [rewrite app_nil_r; reflexivity|]. split; [exact Gd|exact W].
  - exact S.
  - apply (min_ok_merge own); auto. apply good_min; assumption.
  - apply (max_ok_merge own); auto. apply good_max; assumption.
  - cbn [length]. lia.
Qed.

Lemma compress_ok s xs : TInv s xs -> exists s', compress ln s = Some s' /\ TInv s' xs /\ t_buf s' = [] /\ t_k s' = t_k s.
Proof.
  intros H. pose proof H as [K (ys & P & G & W) S Mn Mx B]. unfold compress.
  destruct (t_buf s) as [|v b] eqn:E; [exists s; auto|]. rewrite <- E in *.
  destruct (merged_ok s ys (singles (t_buf s)) (t_buf s) xs (N.of_nat (length (t_buf s)))) as (N0 & TI & TB); auto.
  - apply good_singles.
  - rewrite E. discriminate.
  - intros x I. apply (Permutation_in _ P) in I. apply in_app_or in I. apply in_or_app. tauto.
  - rewrite W, app_length. lia.
  - exists (merged s (singles (t_buf s)) (N.of_nat (length (t_buf s)))). split; [apply merge_merged; exact N0|].
    split; [|split; [exact TB|reflexivity]]. eapply TInv_perm; [|exact TI]. rewrite P. apply Permutation_app_comm.
Qed.

Lemma update_ok s xs v : TInv s xs -> exists s', update ln s v = Some s' /\ TInv s' (xs ++ [v]) /\ t_k s' = t_k s.
Proof.
  intro H. unfold update.
  assert (C : exists s1, (if length (t_buf s) =? buffer_limit (t_k s) then compress ln s else Some s) = Some s1 /\ TInv s1 xs /\
            length (t_buf s1) < buffer_limit (t_k s1) /\ t_k s1 = t_k s).
  { destruct (Nat.eqb_spec (length (t_buf s)) (buffer_limit (t_k s))) as [E|E].
    - destruct (compress_ok s xs H) as (s1 & C & T & B & K). exists s1. split; [exact C|]. split; [exact T|].
      split; [|exact K]. rewrite B. cbn [length]. unfold buffer_limit, capacity. pose proof (ti_k _ _ T). destruct (_ <? 30)%N; lia.
    - exists s. split; [reflexivity|]. split; [exact H|]. split; [|reflexivity]. pose proof (ti_buf _ _ H). lia. }
  destruct C as (s1 & E & H1 & L & K1). rewrite E. eexists. split; [reflexivity|]. split; [|exact K1].
  destruct H1 as [K (ys & P & G & W) S Mn Mx B]. split; cbn [t_k t_cs t_buf t_w t_min t_max].
  - exact K.
  - exists ys. split; [rewrite P, <- app_assoc; reflexivity|]. auto.
  - exact S.
  - apply min_ok_update. exact Mn.
  - apply max_ok_update. exact Mx.
  - rewrite app_length. cbn [length]. lia.
Qed.

Lemma merge_in_ok s xs o ys : TInv s xs -> TInv o ys -> ys <> [] ->
  exists s', merge_in ln s o = Val s' /\ TInv s' (xs ++ ys) /\ t_buf s' = [] /\ t_k s' = t_k s.
Proof.
  intros H1 H2 Y. unfold merge_in. destruct (is_empty o) eqn:E; [apply (TInv_empty _ _ H2) in E; congruence|].
  pose proof H1 as [K (zs & P & G & W) S Mn Mx B]. pose proof H2 as [K2 (zs2 & P2 & G2 & W2) S2 Mn2 Mx2 B2].
  destruct (merged_ok s zs (singles (t_buf s) ++ singles (t_buf o) ++ t_cs o) (t_buf s ++ t_buf o ++ zs2) xs
              (N.of_nat (length (t_buf s)) + total_weight o)) as (N0 & TI & TB); auto.
  - apply good_app; [apply good_singles|]. apply good_app; [apply good_singles|exact G2].
  - intro F. apply app_eq_nil in F. destruct F as [F _]. apply app_eq_nil in F. destruct F as [_ F]. apply app_eq_nil in F.
    destruct F as [F1 F2]. rewrite F1, F2 in P2. symmetry in P2. apply Permutation_nil in P2. congruence.
  - intros x I. apply (Permutation_in _ P) in I. apply in_app_or in I. repeat rewrite in_app_iff. tauto.
  - unfold total_weight. rewrite W, W2, !app_length. lia.
  - rewrite merge_merged by exact N0. eexists. split; [reflexivity|]. split; [|split; [exact TB|reflexivity]].
    eapply TInv_perm; [|exact TI]. rewrite P, P2.
    rewrite (Permutation_app_comm zs (t_buf s)). rewrite <- !app_assoc. apply Permutation_app_head.
    rewrite (Permutation_app_comm zs). rewrite (Permutation_app_comm zs2 (t_buf o)). rewrite <- app_assoc. reflexivity.
Qed.
End Ops.
