(** * The heap of the VarOpt sketch: sifting down and up, building, popping. *)
From Verif Require Import Base Bytes Arr BitPackModel ReservoirModel VarOptModel.
From Coq Require Import QArith Qabs Lqa.
Local Close Scope Q_scope.
Local Open Scope nat_scope.

Lemma qlt_iff a b : qlt a b = true <-> (a < b)%Q.
Proof.
  unfold qlt. rewrite negb_true_iff. split; intros H.
  - apply Qnot_le_lt. intros C. apply Qle_bool_iff in C. congruence.
  - destruct (Qle_bool b a) eqn:E; auto. apply Qle_bool_iff in E. lra.
Qed.
Lemma qlt_false a b : qlt a b = false <-> (b <= a)%Q.
Proof. unfold qlt. rewrite negb_false_iff. apply Qle_bool_iff. Qed.
Lemma qle_false a b : Qle_bool a b = false <-> (b < a)%Q.
Proof.
  split; intros H.
  - apply Qnot_le_lt. intros C. apply Qle_bool_iff in C. congruence.
  - destruct (Qle_bool a b) eqn:E; auto. apply Qle_bool_iff in E. lra.
Qed.

Section Heap.
Context {T : Type}.
Implicit Types (l H X : list (@slot T)).

(** The weight in slot i. *)
Definition W l (i : nat) : Q := match nth_error l i with Some x => wt x | None => 0%Q end.

Definition child (p c : nat) : Prop := c = 2 * p + 1 \/ c = 2 * p + 2.
(** The heap order below the slots from j on, within the first h. *)
Definition heap l (h j : nat) : Prop := forall i c, j <= i -> c < h -> child i c -> (W l i <= W l c)%Q.

(** Only the first h slots are permuted. *)
Definition hperm (h : nat) l l' : Prop := exists H H' X, l = H ++ X /\ l' = H' ++ X /\ length H = h /\ Permutation H H'.

Lemma hperm_refl h l : h <= length l -> hperm h l l.
Proof. intros Hl. destruct (split_at l h Hl) as (P & Q & -> & HP). exists P, P, Q. auto. Qed.
Lemma hperm_trans h a b c : hperm h a b -> hperm h b c -> hperm h a c.
Proof.
  intros (H1 & H2 & X & -> & -> & HL & HP) (H3 & H4 & Y & E & -> & HL' & HP').
  assert (length H2 = h) by (apply Permutation_length in HP; lia).
  assert (H2 = H3 /\ X = Y) as [<- <-].
  { assert (E1 : firstn h (H2 ++ X) = firstn h (H3 ++ Y)) by congruence.
    assert (E2 : skipn h (H2 ++ X) = skipn h (H3 ++ Y)) by congruence.
    rewrite !firstn_seg in E1 by auto. rewrite !skipn_seg in E2 by auto. auto. }
  exists H1, H4, X. repeat split; auto. etransitivity; eauto.
Qed.
Lemma hperm_length h l l' : hperm h l l' -> length l' = length l.
Proof. intros (H1 & H2 & X & -> & -> & _ & P). rewrite !app_length. apply Permutation_length in P. lia. Qed.

Lemma perm_swap_at (P S Q : list (@slot T)) (x y : slot) : Permutation (P ++ x :: S ++ y :: Q) (P ++ y :: S ++ x :: Q).
Proof.
  apply Permutation_app_head.
  transitivity (x :: y :: S ++ Q); [constructor; symmetry; apply Permutation_middle|].
  transitivity (y :: x :: S ++ Q); [constructor|]. constructor. apply Permutation_middle.
Qed.

Lemma swap_ok l h i j : i < h -> j < h -> h <= length l ->
  exists l', swap l i j = Some l' /\ hperm h l l' /\
    forall c, W l' c = if c =? j then W l i else if c =? i then W l j else W l c.
Proof.
  intros Hi Hj Hl. unfold swap.
  destruct (nth_error l i) as [a|] eqn:Ea; [|apply nth_error_None in Ea; lia].
  destruct (nth_error l j) as [b|] eqn:Eb; [|apply nth_error_None in Eb; lia].
  cbn. eexists. split; [reflexivity|]. split.
  - destruct (split_at l h Hl) as (P & Q & -> & HP). exists P, (upd j a (upd i b P)), Q.
    assert (Hu : forall k (z : @slot T) A B, k < length A -> upd k z (A ++ B) = upd k z A ++ B).
    { clear. intros k z A B. revert k. induction A; intros [|k] Hk; simpl in *; try lia; auto. rewrite IHA by lia. auto. }
    split; auto. split. { rewrite Hu by lia. rewrite Hu by (rewrite upd_length; lia). auto. }
    split; auto.
    rewrite nth_error_app1 in Ea, Eb by lia.
    destruct (Nat.lt_trichotomy i j) as [Lt|[<-|Lt]].
    + apply nth_error_split in Ea. destruct Ea as (A & B & -> & HA).
      rewrite nth_error_app2 in Eb by lia. rewrite HA in Eb. replace (j - i) with (S (j - i - 1)) in Eb by lia. simpl in Eb.
      apply nth_error_split in Eb. destruct Eb as (B1 & B2 & -> & HB).
      rewrite (upd_seg A b a) by auto.
      replace (A ++ b :: B1 ++ b :: B2) with ((A ++ b :: B1) ++ b :: B2) by (rewrite <- app_assoc; auto).
      rewrite (upd_seg (A ++ b :: B1) a b) by (rewrite app_length; simpl; lia).
      rewrite <- !app_assoc. simpl. apply perm_swap_at.
    + assert (a = b) by congruence. subst b. apply nth_error_split in Ea. destruct Ea as (A & B & -> & HA).
      rewrite !(upd_seg A a a) by auto. auto.
    + apply nth_error_split in Eb. destruct Eb as (A & B & -> & HA).
      rewrite nth_error_app2 in Ea by lia. rewrite HA in Ea. replace (i - j) with (S (i - j - 1)) in Ea by lia. simpl in Ea.
      apply nth_error_split in Ea. destruct Ea as (B1 & B2 & -> & HB).
      replace (A ++ b :: B1 ++ a :: B2) with ((A ++ b :: B1) ++ a :: B2) by (rewrite <- app_assoc; auto).
      rewrite (upd_seg (A ++ b :: B1) b a) by (rewrite app_length; simpl; lia).
      rewrite <- !app_assoc. simpl. rewrite (upd_seg A a b) by auto. apply perm_swap_at.
  - intros c. unfold W.
    destruct (Nat.eqb_spec c j) as [->|Hcj].
    + rewrite nth_error_upd_eq by (rewrite upd_length; lia). rewrite Ea. auto.
    + rewrite nth_error_upd_neq by auto. destruct (Nat.eqb_spec c i) as [->|Hci].
      * rewrite nth_error_upd_eq by lia. rewrite Eb. auto.
      * rewrite nth_error_upd_neq by auto. auto.
Qed.

Lemma sift_down_ok j h : forall fuel l p, h <= length l -> p < h -> j <= p -> h - p <= fuel ->
  (forall i c, j <= i -> i <> p -> c < h -> child i c -> (W l i <= W l c)%Q) ->
  (forall g c, j <= g -> child g p -> child p c -> c < h -> (W l g <= W l c)%Q) ->
  exists l', sift_down fuel l (h - 1) p (2 * p + 1) = Some l' /\ hperm h l l' /\ heap l' h j.
Proof.
  induction fuel as [|fuel IH]; intros l p Hl Hp Hj Hf Hi Hg; [lia|].
  assert (HW : forall i, i < h -> exists x, nth_error l i = Some x /\ wt x = W l i).
  { intros i Hi0. unfold W. destruct (nth_error l i) eqn:E; [eauto|]. apply nth_error_None in E. lia. }
  cbn [sift_down].
  destruct (Nat.leb_spec (2 * p + 1) (h - 1)) as [Hc|Hc].
  2:{ exists l. split; auto. split; [apply hperm_refl; auto|]. intros i c A B C. destruct (Nat.eq_dec i p) as [->|N]; auto.
      destruct C; subst; lia. }
  set (m := if (2 * p + 1 + 1 <=? h - 1) && qlt (W l (2 * p + 2)) (W l (2 * p + 1)) then 2 * p + 2 else 2 * p + 1).
  match goal with |- context [bindo ?e _] => assert (Em : e = Some m) end.
  { unfold m. replace (2 * p + 1 + 1) with (2 * p + 2) by lia. destruct (Nat.leb_spec (2 * p + 2) (h - 1)); auto.
    destruct (HW (2 * p + 2)) as (x & -> & Ex); [lia|]. destruct (HW (2 * p + 1)) as (y & -> & Ey); [lia|].
    cbn. rewrite Ex, Ey. auto. }
  assert (Hm : child p m /\ m < h /\ forall c, child p c -> c < h -> (W l m <= W l c)%Q).
  { unfold m. destruct (Nat.leb_spec (2 * p + 1 + 1) (h - 1)); cbn [andb].
    - destruct (qlt _ _) eqn:E; [apply qlt_iff in E|apply qlt_false in E]; (split; [unfold child; lia|]; split; [lia|]);
        intros c [-> | ->] Hc'; lra.
    - split; [unfold child; lia|]. split; [lia|]. intros c [-> | ->] Hc'; [lra|lia]. }
  rewrite Em. cbn [bindo]. destruct Hm as (Hm1 & Hm2 & Hm3). clearbody m. clear Em.
  destruct (HW p Hp) as (a & Ea & Wa). destruct (HW m Hm2) as (b & Eb & Wb).
  rewrite Ea, Eb. cbn [bindo]. rewrite Wa, Wb.
  destruct (Qle_bool (W l p) (W l m)) eqn:E.
  - exists l. split; auto. split; [apply hperm_refl; auto|]. apply Qle_bool_iff in E.
    intros i c A B C. destruct (Nat.eq_dec i p) as [->|N]; auto. eapply Qle_trans; [exact E|]. apply Hm3; auto.
  - apply qle_false in E. destruct (swap_ok l h p m) as (l1 & -> & HP & HW1); try lia. cbn [bindo].
    assert (Hpm : p < m) by (destruct Hm1; lia).
    destruct (IH l1 m) as (l' & E' & HP' & Hh); try lia.
    + rewrite (hperm_length _ _ _ HP). auto.
    + intros i c A B C D. rewrite !HW1.
      destruct (Nat.eqb_spec i m) as [->|_]; [tauto|].
      destruct (Nat.eqb_spec i p) as [->|N1].
      * destruct (Nat.eqb_spec c m) as [->|N2]; [lra|].
        destruct (Nat.eqb_spec c p) as [->|N3]; [destruct D; lia|]. apply Hm3; auto.
      * destruct (Nat.eqb_spec c m) as [->|N2].
        { exfalso. unfold child in *. lia. }
        destruct (Nat.eqb_spec c p) as [->|N3]; [|auto].
        eapply Hg; eauto.
    + intros g c A B C D. rewrite !HW1.
      assert (g = p) by (unfold child in *; lia). subst g.
      destruct (Nat.eqb_spec p m); [lia|]. rewrite Nat.eqb_refl.
      destruct (Nat.eqb_spec c m) as [->|_]; [unfold child in *; lia|].
      destruct (Nat.eqb_spec c p) as [->|_]; [unfold child in *; lia|].
      apply Hi; auto; lia.
    + exists l'. split; auto. split; auto. eapply hperm_trans; eauto.
Qed.

Lemma restore_ok j h l : h <= length l -> j < h -> heap l h (j + 1) ->
  exists l', restore_leaves l h j = Ok l' /\ hperm h l l' /\ heap l' h j.
Proof.
  intros Hl Hj Hh. unfold restore_leaves. destruct (Nat.eqb_spec h 0); [lia|]. destruct (Nat.ltb_spec (h - 1) j); [lia|]. cbn [orb].
  destruct (sift_down_ok j h (h + 1) l j) as (l' & -> & A & B); try lia.
  - intros i c A B C D. apply Hh; auto. lia.
  - intros g c A B. unfold child in B. lia.
  - exists l'. auto.
Qed.

Lemma heapify_loop_ok h : forall cnt l, h <= length l -> cnt <= h -> heap l h cnt ->
  exists l', heapify_loop cnt l h = Ok l' /\ hperm h l l' /\ heap l' h 0.
Proof.
  induction cnt as [|j IH]; intros l Hl Hc Hh.
  - exists l. split; auto. split; auto. apply hperm_refl; auto.
  - cbn [heapify_loop]. destruct (restore_ok j h l) as (l1 & -> & P1 & H1); [auto|lia|rewrite Nat.add_1_r; auto|].
    cbn [bindr]. destruct (IH l1) as (l' & -> & P2 & H2); [rewrite (hperm_length _ _ _ P1); auto|lia|auto|].
    exists l'. split; auto. split; auto. eapply hperm_trans; eauto.
Qed.

Lemma heapify_ok h l : h <= length l -> exists l', heapify l h = Ok l' /\ hperm h l l' /\ heap l' h 0.
Proof.
  intros Hl. unfold heapify. destruct (Nat.ltb_spec h 2).
  - exists l. split; auto. split; [apply hperm_refl; auto|]. intros i c _ A [-> | ->]; lia.
  - apply heapify_loop_ok; auto; [apply Nat.div_le_upper_bound; lia|].
    intros i c A B C. pose proof (Nat.div_mod h 2 ltac:(lia)). pose proof (Nat.mod_upper_bound h 2 ltac:(lia)). unfold child in C. lia.
Qed.

Lemma heap_root l h : heap l h 0 -> forall i, i < h -> (W l 0 <= W l i)%Q.
Proof.
  intros Hh i. induction i as [i IH] using (well_founded_induction lt_wf). intros Hi.
  destruct (Nat.eq_dec i 0) as [->|N]; [lra|].
  pose proof (Nat.div_mod (i - 1) 2 ltac:(lia)) as D. pose proof (Nat.mod_upper_bound (i - 1) 2 ltac:(lia)) as Bd.
  eapply Qle_trans; [apply (IH ((i - 1) / 2)); lia|]. apply Hh; auto; [lia|unfold child; lia].
Qed.

Lemma sift_up_ok h : forall fuel l p, h <= length l -> p < h -> p < fuel ->
  (forall i c, c <> p -> c < h -> child i c -> (W l i <= W l c)%Q) ->
  (forall g c, child g p -> child p c -> c < h -> (W l g <= W l c)%Q) ->
  exists l', sift_up fuel l p = Some l' /\ hperm h l l' /\ heap l' h 0.
Proof.
  induction fuel as [|fuel IH]; intros l p Hl Hp Hf Hi Hg; [lia|].
  assert (HW : forall i, i < h -> exists x, nth_error l i = Some x /\ wt x = W l i).
  { intros i Hi0. unfold W. destruct (nth_error l i) eqn:E; [eauto|]. apply nth_error_None in E. lia. }
  cbn [sift_up]. destruct (Nat.ltb_spec 0 p) as [H0|H0].
  2:{ exists l. split; auto. split; [apply hperm_refl; auto|]. intros i c _ A B. apply Hi; auto. destruct B; lia. }
  cbv zeta. set (q := (p + 1) / 2 - 1).
  assert (Hq : child q p).
  { unfold q, child. pose proof (Nat.div_mod (p + 1) 2 ltac:(lia)). pose proof (Nat.mod_upper_bound (p + 1) 2 ltac:(lia)). lia. }
  clearbody q. assert (Hqp : q < p) by (destruct Hq; lia).
  destruct (HW p Hp) as (a & -> & Wa). destruct (HW q) as (b & -> & Wb); [lia|]. cbn [bindo]. rewrite Wa, Wb.
  destruct (qlt (W l p) (W l q)) eqn:E.
  - apply qlt_iff in E. destruct (swap_ok l h p q) as (l1 & -> & HP & HW1); try lia. cbn [bindo].
    destruct (IH l1 q) as (l' & E' & HP' & Hh); try lia.
    + rewrite (hperm_length _ _ _ HP). auto.
    + intros i c A B C. rewrite !HW1.
      destruct (Nat.eqb_spec c q) as [->|_]; [tauto|].
      destruct (Nat.eqb_spec c p) as [->|N1].
      * assert (i = q) by (unfold child in *; lia). subst i. rewrite Nat.eqb_refl. lra.
      * destruct (Nat.eqb_spec i q) as [->|N2].
        { eapply Qle_trans; [apply Qlt_le_weak; exact E|]. apply Hi; auto. }
        destruct (Nat.eqb_spec i p) as [->|N3]; [|auto]. eapply Hg; eauto.
    + intros g c A B C. rewrite !HW1.
      destruct (Nat.eqb_spec g q) as [->|_]; [unfold child in *; lia|].
      destruct (Nat.eqb_spec g p) as [->|_]; [unfold child in *; lia|].
      destruct (Nat.eqb_spec c q) as [->|_]; [unfold child in *; lia|].
      assert (Wg : (W l g <= W l q)%Q) by (apply Hi; auto; lia).
      destruct (Nat.eqb_spec c p) as [->|N1]; auto.
      eapply Qle_trans; [exact Wg|]. apply Hi; auto.
    + exists l'. split; auto. split; auto. eapply hperm_trans; eauto.
  - apply qlt_false in E. exists l. split; auto. split; [apply hperm_refl; auto|]. intros i c _ A B.
    destruct (Nat.eq_dec c p) as [->|N]; [|auto]. assert (i = q) by (unfold child in *; lia). subst i. auto.
Qed.
End Heap.
