(** * Proofs about kll/, second part: what the compactions mean, and the sorted view. *)
From Coq Require Import Sorting.Sorted.
From Verif Require Import Base Bytes Arr SearchModel SearchProps KllModel KllProofs.
Local Open Scope nat_scope.

Section Sem.
Context {C : Type}.
Variables less ceq : C -> C -> bool.
Variable zero : C.
Variable sort : list C -> list C.
Hypothesis T : strict_total less ceq.
Hypothesis sort_perm : forall l, Permutation l (sort l).
Definition lew (a b : C) : Prop := less b a = false.
Definition sortedl (l : list C) : Prop := StronglySorted lew l.
Hypothesis sort_sorted : forall l, sortedl (sort l).

Lemma lew_refl a : lew a a.
Proof. apply (st_irrefl _ _ T). Qed.
Lemma lew_trans a b c : lew a b -> lew b c -> lew a c.
Proof.
  unfold lew. intros H1 H2. destruct (less c a) eqn:E; auto. rewrite <- H2. symmetry.
  eapply lt_le; eauto.
Qed.
Lemma lew_lt a b : less a b = true -> lew a b.
Proof. apply (asym _ _ T). Qed.

(** ** Sorted levels *)
Lemma pair_ind (P : list C -> Prop) : P [] -> (forall a, P [a]) -> (forall a b l, P l -> P (a :: b :: l)) -> forall l, P l.
Proof. intros H0 H1 H2. fix IH 1. intros [|a [|b l]]; [exact H0|exact (H1 a)|]. exact (H2 a b l (IH l)). Qed.
Lemma sel_in b (l : list C) x : In x (sel b l) -> In x l.
Proof.
  induction l as [|a|a c l IH] using pair_ind; cbn [sel]; intros H; [destruct H|destruct H|].
  destruct H as [H|H]; [destruct b; subst; simpl; auto|]. right. right. apply IH. exact H.
Qed.
Lemma sel_sorted b : forall l, sortedl l -> sortedl (sel b l).
Proof.
  induction l as [|a|a c l IH] using pair_ind; intros H; cbn [sel]; try constructor.
  - apply IH. inversion H; subst. inversion H2; auto.
  - apply Forall_forall. intros x Hx. apply sel_in in Hx. inversion H; subst. inversion H2; subst.
    destruct b; [eapply Forall_forall in H5; eauto|]. inversion H3; subst. eapply Forall_forall in H7; eauto.
Qed.
Lemma mergel_in A B x : In x (mergel less A B) <-> In x A \/ In x B.
Proof.
  rewrite <- in_app_iff. split; apply Permutation_in; [apply Permutation_sym|]; apply mergel_perm.
Qed.
Lemma mergel_sorted : forall A B, sortedl A -> sortedl B -> sortedl (mergel less A B).
Proof.
  induction A as [|a A IHA]; intros B HA HB; [rewrite mergel_nil_l; auto|].
  induction B as [|b B IHB]; [rewrite mergel_nil_r; auto|]. rewrite mergel_cons.
  inversion HA; subst. inversion HB; subst. destruct (less a b) eqn:E.
  - constructor; [apply IHA; auto|]. apply Forall_forall. intros x Hx. apply mergel_in in Hx. destruct Hx as [Hx|[<-|Hx]].
    + eapply Forall_forall in H2; eauto.
    + apply lew_lt. auto.
    + eapply Forall_forall in H4; eauto. eapply lew_trans; eauto. apply lew_lt; auto.
  - constructor; [apply IHB; auto|]. apply Forall_forall. intros x Hx. apply mergel_in in Hx. destruct Hx as [[<-|Hx]|Hx].
    + exact E.
    + eapply lew_trans; [exact E|]. eapply Forall_forall in H2; eauto.
    + eapply Forall_forall in H4; eauto.
Qed.
Lemma skipn_sorted c l : sortedl l -> sortedl (skipn c l).
Proof. revert l; induction c; intros [|a l] H; cbn [skipn]; auto. apply IHc. inversion H; auto. Qed.

Definition LvS (Ls : list (list C)) : Prop := Forall sortedl (tl Ls).
Lemma halves_sorted b d E La : (d = true \/ sortedl E) -> sortedl La -> sortedl (halves less sort b d E La).
Proof.
  intros HE HL. unfold halves. assert (HS : sortedl (if d then sort E else E)) by (destruct d; [auto|destruct HE; [discriminate|auto]]).
  destruct La; [apply sel_sorted; auto|]. apply mergel_sorted; auto. apply sel_sorted; auto.
Qed.
Lemma even_sorted L : sortedl L -> sortedl (even_part L).
Proof. intros H. unfold even_part. destruct (_ =? _); auto. apply skipn_sorted; auto. Qed.
Lemma odd_sorted L : sortedl (odd_lo L).
Proof. unfold odd_lo. destruct (_ =? _); [|constructor]. destruct L; cbn [firstn]; repeat constructor. Qed.
Lemma step_sorted A c B : step less sort A c B -> LvS A -> LvS B.
Proof.
  intros [lower L La upper b H2|lower L b H2] HS; unfold LvS in *; destruct lower as [|L0 lower]; cbn [tl app] in *.
  - inversion HS; subst. constructor; auto. apply halves_sorted; auto.
  - apply Forall_app in HS. destruct HS as [HS1 HS2]. inversion HS2; subst. inversion H3; subst. apply Forall_app. split; auto.
    constructor; [apply odd_sorted|]. constructor; auto. apply halves_sorted; auto. right. apply even_sorted; auto.
  - constructor; [|constructor]. apply halves_sorted; auto. constructor.
  - apply Forall_app in HS. destruct HS as [HS1 HS2]. inversion HS2; subst. apply Forall_app. split; auto.
    constructor; [apply odd_sorted|]. constructor; [|constructor]. apply halves_sorted; [|constructor]. right. apply even_sorted; auto.
Qed.
Lemma grows_sorted A xs cs B : grows less sort A xs cs B -> LvS A -> LvS B.
Proof. induction 1; auto. intros HA. eapply step_sorted; eauto. Qed.
Lemma zipm_sorted A : forall B, Forall sortedl A -> Forall sortedl B -> Forall sortedl (zipm less A B).
Proof.
  induction A as [|a A IH]; intros [|b B] HA HB; cbn [zipm]; auto. inversion HA; inversion HB; subst. constructor; auto. apply mergel_sorted; auto.
Qed.

(** ** The retained items come from the stream *)
Definition sub_multiset (A B : list C) : Prop := exists D, Permutation (A ++ D) B.
Lemma sub_refl A B : Permutation A B -> sub_multiset A B.
Proof. intros. exists []. rewrite app_nil_r. auto. Qed.
Lemma sub_trans A B D : sub_multiset A B -> sub_multiset B D -> sub_multiset A D.
Proof. intros [X HX] [Y HY]. exists (X ++ Y). rewrite app_assoc, HX. auto. Qed.
Lemma sub_app A B A' B' : sub_multiset A A' -> sub_multiset B B' -> sub_multiset (A ++ B) (A' ++ B').
Proof.
  intros [X HX] [Y HY]. exists (X ++ Y). rewrite <- HX, <- HY. rewrite <- !app_assoc. apply Permutation_app_head.
  rewrite !app_assoc. apply Permutation_app_tail. apply Permutation_app_comm.
Qed.
Definition SelPerm := sel_perm less ceq zero sort (fun _ => false) sort_perm.
Lemma halves_sub b d L La : sub_multiset (halves less sort b d (even_part L) La) (even_part L ++ La).
Proof.
  unfold halves. set (S' := if d then sort (even_part L) else even_part L).
  assert (HP : Permutation (even_part L) S') by (unfold S'; destruct d; auto).
  assert (HL : length S' = 2 * (length L / 2)) by (rewrite <- (Permutation_length HP); eapply even_part_length; eauto).
  assert (HS : forall b, sub_multiset (sel b S') (even_part L)). { intros b0. exists (sel (negb b0) S'). rewrite HP. symmetry. eapply SelPerm; eauto. }
  destruct La as [|y La]; [rewrite app_nil_r; auto|].
  eapply sub_trans; [apply sub_refl, Permutation_sym, mergel_perm|]. apply sub_app; [auto|]. apply sub_refl. auto.
Qed.
Lemma step_sub A c B : step less sort A c B -> sub_multiset (concat B) (concat A).
Proof.
  intros [lower L La upper b H2|lower L b H2]; rewrite !concat_app; cbn [concat]; (apply sub_app; [apply sub_refl; auto|]).
  - assert (E : L ++ La ++ concat upper = odd_lo L ++ (even_part L ++ La) ++ concat upper) by (rewrite (odd_even L) at 1; rewrite <- !app_assoc; auto).
    rewrite E. apply sub_app; [apply sub_refl; auto|]. apply sub_app; [apply halves_sub|apply sub_refl; auto].
  - rewrite !app_nil_r. assert (E : L = odd_lo L ++ even_part L) by apply odd_even. rewrite E at 3. apply sub_app; [apply sub_refl; auto|]. pose proof (halves_sub b (length lower =? 0) L []) as H. rewrite app_nil_r in H. exact H.
Qed.
Lemma grows_sub A xs cs B : grows less sort A xs cs B -> sub_multiset (concat B) (xs ++ concat A).
Proof.
  induction 1.
  - apply sub_refl. auto.
  - eapply sub_trans; [eapply step_sub; eauto|auto].
  - cbn [concat app] in *. change (x :: L0 ++ concat t) with ([x] ++ L0 ++ concat t). change (x :: xs ++ concat A) with ([x] ++ xs ++ concat A).
    apply sub_app; auto. apply sub_refl. auto.
Qed.
Lemma zipm_concat A : forall B, Permutation (concat (zipm less A B)) (concat A ++ concat B).
Proof.
  induction A as [|a A IH]; intros [|b B]; cbn [zipm concat]; rewrite ?app_nil_r; auto.
  rewrite IH, <- mergel_perm. rewrite <- !app_assoc. apply Permutation_app_head. rewrite !app_assoc. apply Permutation_app_tail. apply Permutation_app_comm.
Qed.

(** ** Weighted ranks *)
Definition cnt (p : C -> bool) (l : list C) : Z := Z.of_nat (length (filter p l)).
Fixpoint R (p : C -> bool) (Ls : list (list C)) : Z := match Ls with [] => 0 | L :: t => cnt p L + 2 * R p t end%Z.
(** [p] holds of an initial part of the order: p x = (x <= v), or (x < v). *)
Definition down (p : C -> bool) : Prop := forall x y, lew x y -> p y = true -> p x = true.
Definition pow_sum (cs : list nat) : Z := fold_right (fun c a => 2 ^ Z.of_nat c + a)%Z 0%Z cs.

Lemma cnt_nil p : cnt p [] = 0%Z. Proof. reflexivity. Qed.
Lemma cnt_cons p x l : cnt p (x :: l) = ((if p x then 1 else 0) + cnt p l)%Z.
Proof. unfold cnt. cbn [filter]. destruct (p x); cbn [length]; lia. Qed.
Lemma cnt_app p A B : cnt p (A ++ B) = (cnt p A + cnt p B)%Z.
Proof. unfold cnt. rewrite filter_app, app_length. lia. Qed.
Lemma cnt_perm p A B : Permutation A B -> cnt p A = cnt p B.
Proof. induction 1; rewrite ?cnt_cons in *; try lia. Qed.
Lemma cnt_nonneg p l : (0 <= cnt p l)%Z. Proof. unfold cnt. lia. Qed.
Lemma R_app p A B : R p (A ++ B) = (R p A + 2 ^ Z.of_nat (length A) * R p B)%Z.
Proof.
  induction A as [|L A IH]; cbn [R app length]; [change (2 ^ Z.of_nat 0)%Z with 1%Z; lia|].
  rewrite IH, Nat2Z.inj_succ, Z.pow_succ_r by lia. lia.
Qed.
Lemma R_zipm p A : forall B, R p (zipm less A B) = (R p A + R p B)%Z.
Proof.
  induction A as [|a A IH]; intros [|b B]; cbn [zipm R]; try lia. rewrite IH, <- (cnt_perm p _ _ (mergel_perm less a b)), cnt_app. lia.
Qed.

(** Keeping every other item of a sorted list, with double weight, moves a rank by at most one. *)
Lemma sel_rank p b : down p -> forall l c, length l = 2 * c -> sortedl l -> (Z.abs (2 * cnt p (sel b l) - cnt p l) <= 1)%Z.
Proof.
  intros Hp. induction l as [|a|a e l IH] using pair_ind; intros c HL HS; cbn [sel].
  - rewrite cnt_nil. simpl. lia.
  - cbn [length] in HL. lia.
  - cbn [length] in HL. rewrite !cnt_cons. inversion HS; subst. inversion H1; subst.
    specialize (IH (c - 1) ltac:(lia) H3). rename H4 into H5.
    (* once an item fails p, all later ones do *)
    assert (Hz : p e = false -> cnt p l = 0%Z /\ cnt p (sel b l) = 0%Z).
    { intros He. assert (Hall : forall x, In x l -> p x = false).
      { intros x Hx. destruct (p x) eqn:E; auto. rewrite <- He. symmetry. apply (Hp e x); auto. eapply Forall_forall in H5; eauto. }
      split; unfold cnt.
      - replace (filter p l) with (@nil C); auto. symmetry. clear -Hall. induction l; auto. cbn [filter]. rewrite Hall by (simpl; auto). apply IHl. intros; apply Hall; simpl; auto.
      - assert (Hs : forall x, In x (sel b l) -> p x = false) by (intros x Hx; apply Hall; eapply sel_in; eauto).
        replace (filter p (sel b l)) with (@nil C); auto. symmetry. revert Hs. clear. induction (sel b l); intros Hs; auto. cbn [filter]. rewrite Hs by (simpl; auto). apply IHl0. intros; apply Hs; simpl; auto. }
    inversion H2; subst.
    destruct (p e) eqn:Ee.
    + rewrite (Hp a e H4 Ee). destruct b; rewrite ?Ee, ?(Hp a e H4 Ee); lia.
    + destruct (Hz eq_refl) as [-> ->]. destruct b; rewrite ?Ee; destruct (p a); lia.
Qed.
Lemma halves_rank p b d L La : down p -> (d = true \/ sortedl L) ->
  (Z.abs (2 * cnt p (halves less sort b d (even_part L) La) - cnt p (even_part L) - 2 * cnt p La) <= 1)%Z.
Proof.
  intros Hp HS. unfold halves. set (S' := if d then sort (even_part L) else even_part L).
  assert (HP : Permutation (even_part L) S') by (unfold S'; destruct d; auto).
  assert (HL : length S' = 2 * (length L / 2)) by (rewrite <- (Permutation_length HP); eapply even_part_length; eauto).
  assert (HS' : sortedl S'). { unfold S'. destruct d; auto. destruct HS; [discriminate|]. apply even_sorted; auto. }
  rewrite (cnt_perm p _ _ HP).
  assert (HR : forall b, (Z.abs (2 * cnt p (sel b S') - cnt p S') <= 1)%Z) by (intros b0; eapply sel_rank; eauto).
  destruct La as [|y La]; [rewrite cnt_nil; specialize (HR (negb b)); lia|].
  rewrite <- (cnt_perm p _ _ (mergel_perm less _ _)), cnt_app. specialize (HR b). lia.
Qed.
Lemma step_rank p A c B : down p -> LvS A -> step less sort A c B -> (Z.abs (R p B - R p A) <= 2 ^ Z.of_nat c)%Z.
Proof.
  intros Hp HS HT. assert (Hpow : forall q, (0 < 2 ^ Z.of_nat q)%Z) by (intros; apply Z.pow_pos_nonneg; lia).
  assert (HX : forall lower L La upper b, (length lower =? 0)%nat = true \/ sortedl L ->
     (Z.abs (R p (lower ++ odd_lo L :: halves less sort b (length lower =? 0)%nat (even_part L) La :: upper) - R p (lower ++ L :: La :: upper)) <= 2 ^ Z.of_nat (length lower))%Z).
  { intros lower L La upper b HSL. rewrite !R_app. cbn [R]. pose proof (halves_rank p b (length lower =? 0) L La Hp HSL) as HR.
    assert (HcL : cnt p L = (cnt p (odd_lo L) + cnt p (even_part L))%Z) by (rewrite (odd_even L) at 1; apply cnt_app). rewrite HcL.
    set (h := halves less sort b (length lower =? 0) (even_part L) La) in *. specialize (Hpow (length lower)).
    set (P := (2 ^ Z.of_nat (length lower))%Z) in *.
    match goal with |- (Z.abs ?e <= _)%Z => replace e with (P * (2 * cnt p h - cnt p (even_part L) - 2 * cnt p La))%Z by ring end.
    rewrite Z.abs_mul, (Z.abs_eq P) by lia. nia. }
  destruct HT as [lower L La upper b H2|lower L b H2].
  - apply HX. destruct lower as [|l0 lower]; [left; reflexivity|right]. unfold LvS in HS. cbn [tl app] in HS. apply Forall_app in HS. destruct HS as [_ HS]. inversion HS; auto.
  - specialize (HX lower L [] [] b). rewrite !R_app in *. cbn [R] in *. rewrite cnt_nil in HX. replace (cnt p L + 2 * (0 + 2 * 0))%Z with (cnt p L + 2 * 0)%Z in HX by lia. apply HX.
    destruct lower as [|l0 lower]; [left; reflexivity|right]. unfold LvS in HS. cbn [tl app] in HS. apply Forall_app in HS. destruct HS as [_ HS]. inversion HS; auto.
Qed.
Lemma grows_rank p A xs cs B : down p -> LvS A -> grows less sort A xs cs B -> (Z.abs (R p B - R p A - cnt p xs) <= pow_sum cs)%Z.
Proof.
  intros Hp HS. induction 1 as [|xs cs L1 c L2 H IH HT|xs cs x L0 t H IH]; cbn [pow_sum fold_right].
  - rewrite cnt_nil. lia.
  - pose proof (step_rank p _ _ _ Hp (grows_sorted _ _ _ _ H HS) HT). fold (pow_sum cs). lia.
  - cbn [R] in *. rewrite !cnt_cons. fold (pow_sum cs). lia.
Qed.

(** ** The sorted view *)
Definition le2 (a b : C * N) : Prop := lew (fst a) (fst b).
Definition sortedw (l : list (C * N)) : Prop := StronglySorted le2 l.
Fixpoint mergew (A : list (C * N)) : list (C * N) -> list (C * N) :=
  match A with
  | [] => fun B => B
  | x :: A' => fix go (B : list (C * N)) := match B with
      | [] => x :: A'
      | y :: B' => if less (fst x) (fst y) || ceq (fst x) (fst y) then x :: mergew A' (y :: B') else y :: go B'
      end
  end.
Lemma mergew_nil_r A : mergew A [] = A. Proof. destruct A; auto. Qed.
Lemma mergew_cons x A y B : mergew (x :: A) (y :: B) = if less (fst x) (fst y) || ceq (fst x) (fst y) then x :: mergew A (y :: B) else y :: mergew (x :: A) B.
Proof. reflexivity. Qed.
Lemma mergew_perm A : forall B, Permutation (A ++ B) (mergew A B).
Proof.
  induction A as [|x A IHA]; intros B; [apply Permutation_refl|]. induction B as [|y B IHB]; [rewrite mergew_nil_r, app_nil_r; auto|]. rewrite mergew_cons.
  destruct (_ || _); [simpl; constructor; apply IHA|]. eapply perm_trans; [apply Permutation_sym, Permutation_middle|]. constructor. apply IHB.
Qed.
Lemma mergew_in A B x : In x (mergew A B) <-> In x A \/ In x B.
Proof. rewrite <- in_app_iff. split; apply Permutation_in; [apply Permutation_sym|]; apply mergew_perm. Qed.
Lemma le2_trans a b c : le2 a b -> le2 b c -> le2 a c.
Proof. unfold le2. apply lew_trans. Qed.
Lemma mergew_sorted : forall A B, sortedw A -> sortedw B -> sortedw (mergew A B).
Proof.
  induction A as [|a A IHA]; intros B HA HB; [exact HB|].
  induction B as [|b B IHB]; [rewrite mergew_nil_r; auto|]. rewrite mergew_cons.
  inversion HA; subst. inversion HB; subst. destruct (less (fst a) (fst b) || ceq (fst a) (fst b)) eqn:E.
  - assert (Hab : le2 a b). { unfold le2. apply orb_true_iff in E. destruct E as [E|E]; [apply lew_lt; auto|]. apply (st_eq _ _ T) in E. rewrite E. apply lew_refl. }
    constructor; [apply IHA; auto|]. apply Forall_forall. intros x Hx. apply mergew_in in Hx. destruct Hx as [Hx|[<-|Hx]]; auto.
    + eapply Forall_forall in H2; eauto.
    + eapply Forall_forall in H4; eauto. eapply le2_trans; eauto.
  - assert (Hba : le2 b a). { unfold le2, lew. apply orb_false_iff in E. apply E. }
    constructor; [apply IHB; auto|]. apply Forall_forall. intros x Hx. apply mergew_in in Hx. destruct Hx as [[<-|Hx]|Hx]; auto.
    + eapply Forall_forall in H2; eauto. eapply le2_trans; eauto.
    + eapply Forall_forall in H4; eauto.
Qed.

Lemma tandem_ok : forall fuel A B P X Q PD G QD, length A + length B < fuel -> length G = length A + length B ->
  tandem_loop less ceq fuel (P ++ A ++ X ++ B ++ Q) (PD ++ G ++ QD) (length P) (length P + length A) (length P + length A + length X)
    (length P + length A + length X + length B) (length PD) = Some (PD ++ mergew A B ++ QD).
Proof.
  induction fuel as [|f IH]; intros A B P X Q PD G QD Hf HG; [lia|]. cbn [tandem_loop].
  destruct A as [|a A]; [|destruct B as [|b B]].
  - cbn [length]. rewrite Nat.add_0_r, Nat.ltb_irrefl. cbn [andb]. cbn [mergew].
    destruct (Nat.ltb_spec (length P + length X) (length P + length X + length B)) as [H|H].
    + replace (length P + length X + length B - (length P + length X)) with (length B) by lia. cbn [app]. rewrite app_assoc, <- app_length.
      rewrite get_seg by auto. cbn [bindo]. apply put_seg; auto.
    + destruct B; [|cbn [length] in H; lia]. destruct G; [|simpl in HG; lia]. auto.
  - cbn [length] in *. destruct (Nat.ltb_spec (length P) (length P + S (length A))); [|lia].
    destruct (Nat.ltb_spec (length P + S (length A) + length X) (length P + S (length A) + length X + 0)); [lia|]. cbn [andb].
    replace (length P + S (length A) - length P) with (length (a :: A)) by (cbn [length]; lia). rewrite (get_seg P (a :: A)) by auto. cbn [bindo].
    rewrite mergew_nil_r. apply put_seg; auto. cbn [length]. lia.
  - cbn [length] in *. destruct (Nat.ltb_spec (length P) (length P + S (length A))); [|lia].
    destruct (Nat.ltb_spec (length P + S (length A) + length X) (length P + S (length A) + length X + S (length B))); [|lia]. cbn [andb].
    cbn [app]. rewrite nth_seg by auto. cbn [bindo].
    assert (HB : nth_error (P ++ a :: A ++ X ++ b :: B ++ Q) (length P + S (length A) + length X) = Some b).
    { replace (P ++ a :: A ++ X ++ b :: B ++ Q) with ((P ++ (a :: A) ++ X) ++ b :: B ++ Q) by (rewrite <- !app_assoc; auto).
      apply nth_seg. rewrite !app_length. cbn [length]. lia. }
    rewrite HB. cbn [bindo]. rewrite mergew_cons. destruct G as [|g G]; [simpl in HG; lia|]. cbn [length] in HG.
    destruct (less (fst a) (fst b) || ceq (fst a) (fst b)).
    + cbn [app]. rewrite wr_seg by auto. cbn [bindo].
      specialize (IH A (b :: B) (P ++ [a]) X Q (PD ++ [a]) G QD ltac:(cbn [length]; lia) ltac:(cbn [length]; lia)).
      rewrite !app_length in IH. rewrite <- !app_assoc in IH. cbn [app length] in IH. cbn [app].
      etransitivity; [|exact IH]. f_equal; lia.
    + cbn [app]. rewrite wr_seg by auto. cbn [bindo].
      specialize (IH (a :: A) B P (X ++ [b]) Q (PD ++ [b]) G QD ltac:(cbn [length]; lia) ltac:(cbn [length]; lia)).
      rewrite !app_length in IH. rewrite <- !app_assoc in IH. cbn [app length] in IH. cbn [app].
      etransitivity; [|exact IH]. f_equal; lia.
Qed.

Lemma pb_nth b (As : list (list (C * N))) Bs X i : i = length As -> nth_error (pb b (As ++ Bs) ++ (b + csum (As ++ Bs)) :: X) i = Some (b + csum As).
Proof.
  intros ->. destruct Bs as [|B Bs].
  - rewrite app_nil_r. apply nth_seg. rewrite pb_length. auto.
  - rewrite pb_app, <- app_assoc. cbn [pb app]. apply nth_seg. rewrite pb_length. auto.
Qed.

Lemma blocky_ok lv : forall fuel As Ss Bs P Q P' Q' X, 
  lv = pb 0 (As ++ Ss ++ Bs) ++ csum (As ++ Ss ++ Bs) :: X -> Ss <> [] -> length Ss <= fuel -> Forall sortedw Ss -> length P = csum As -> length P' = csum As ->
  exists S2 D, blocky_rec less ceq fuel (P ++ concat Ss ++ Q) (P' ++ concat Ss ++ Q') lv (length As) (length Ss) = Some (P ++ S2 ++ Q, P' ++ D ++ Q') /\
    length S2 = csum Ss /\ sortedw D /\ Permutation (concat Ss) D.
Proof.
  induction fuel as [|f IH]; intros As Ss Bs P Q P' Q' X Hlv Hne Hf HS HP HP'; [destruct Ss; [congruence|simpl in Hf; lia]|].
  cbn [blocky_rec]. destruct (Nat.eqb_spec (length Ss) 1) as [E|E].
  - destruct Ss as [|S0 [|]]; try discriminate. cbn [concat]. rewrite app_nil_r. exists S0, S0. repeat split; auto; [rewrite csum_cons, csum_nil; lia|inversion HS; auto].
  - assert (Hl2 : 2 <= length Ss) by (destruct Ss as [|? [|]]; [congruence|cbn [length] in E; lia|cbn [length]; lia]).
    set (n1 := length Ss / 2). assert (Hn1 : 1 <= n1 < length Ss) by (unfold n1; split; [lia|apply Nat.div_lt; lia]).
    destruct (split_at Ss n1) as (S1 & S3 & -> & HS1); [lia|]. rewrite app_length in *. replace (length S1 + length S3 - n1) with (length S3) by lia.
    apply Forall_app in HS. destruct HS as [HSa HSb]. rewrite concat_app. rewrite <- !app_assoc.
    destruct (IH As S1 (S3 ++ Bs) P' (concat S3 ++ Q') P (concat S3 ++ Q) X) as (T2 & D1 & E1 & L1 & O1 & P1); auto.
    { rewrite Hlv, <- !app_assoc. auto. } { destruct S1; [simpl in HS1; lia|discriminate]. } { lia. }
    rewrite <- HS1, E1. cbn [bindo].
    assert (LD1 : length D1 = csum S1) by (rewrite <- (Permutation_length P1); auto).
    destruct (IH (As ++ S1) S3 Bs (P' ++ T2) Q' (P ++ D1) Q X) as (T3 & D3 & E3 & L3 & O3 & P3); auto.
    { rewrite Hlv, <- !app_assoc. auto. } { destruct S3; [simpl in Hn1; lia|discriminate]. } { lia. }
    { rewrite app_length, csum_app. lia. } { rewrite app_length, csum_app. lia. }
    rewrite <- !app_assoc in E3. rewrite app_length in E3. rewrite E3. cbn [bindo].
    assert (LD3 : length D3 = csum S3) by (rewrite <- (Permutation_length P3); auto).
    unfold tandem_merge.
    assert (N1 : nth_error lv (length As) = Some (csum As)). { rewrite Hlv. apply (pb_nth 0 As). auto. }
    assert (N2 : nth_error lv (length As + length S1) = Some (csum As + csum S1)).
    { rewrite Hlv. replace (As ++ (S1 ++ S3) ++ Bs) with ((As ++ S1) ++ S3 ++ Bs) by (rewrite <- !app_assoc; auto). rewrite (pb_nth 0 (As ++ S1)) by (rewrite app_length; auto). rewrite csum_app. auto. }
    assert (N3 : nth_error lv (length As + length S1 + length S3) = Some (csum As + csum S1 + csum S3)).
    { rewrite Hlv. replace (As ++ (S1 ++ S3) ++ Bs) with ((As ++ S1 ++ S3) ++ Bs) by (rewrite <- !app_assoc; auto). rewrite (pb_nth 0 (As ++ S1 ++ S3)) by (rewrite !app_length; lia). rewrite !csum_app. f_equal. lia. }
    rewrite N1, N2, N3. cbn [bindo].
    exists (D1 ++ D3), (mergew D1 D3).
    pose proof (tandem_ok (csum S1 + csum S3 + 1) D1 D3 P [] Q P' (T2 ++ T3) Q' ltac:(lia) ltac:(rewrite app_length; lia)) as HT.
    cbn [app length] in HT. rewrite Nat.add_0_r in HT. rewrite HP, HP', LD1, LD3 in HT. rewrite <- !app_assoc in HT.
    replace (csum As + csum S1 - csum As + (csum As + csum S1 + csum S3 - (csum As + csum S1)) + 1) with (csum S1 + csum S3 + 1) by lia.
    rewrite HT. cbn [bindo]. rewrite <- !app_assoc. repeat split.
    + rewrite app_length, csum_app. lia.
    + apply mergew_sorted; auto.
    + rewrite <- mergew_perm. apply Permutation_app; auto.
Qed.

(** Items with their weights, level by level. *)
Fixpoint wl (w : N) (Ls : list (list C)) : list (C * N) := match Ls with [] => [] | L :: t => map (fun x => (x, w)) L ++ wl (w * 2) t end.
Fixpoint wls (w : N) (Ls : list (list C)) : list (list (C * N)) := match Ls with [] => [] | [] :: t => wls (w * 2) t | L :: t => map (fun x => (x, w)) L :: wls (w * 2) t end.
Lemma wls_concat Ls : forall w, concat (wls w Ls) = wl w Ls.
Proof. induction Ls as [|[|x L] Ls IH]; intros w; cbn [wls wl concat]; auto; rewrite IH; auto. Qed.
Lemma wls_sorted Ls : forall w, Forall sortedl Ls -> Forall sortedw (wls w Ls).
Proof.
  assert (HM : forall w L, sortedl L -> sortedw (map (fun x => (x, w)) L)).
  { intros w L. induction 1; cbn [map]; constructor; auto. apply Forall_forall. intros y Hy. apply in_map_iff in Hy. destruct Hy as (z & <- & Hz). eapply Forall_forall in H0; eauto. }
  induction Ls as [|[|x L] Ls IH]; intros w H; cbn [wls]; auto; inversion H; subst; auto.
Qed.
Fixpoint ws (w : N) (Ls : list (list C)) : list N := match Ls with [] => [] | L :: t => repeat w (length L) ++ ws (w * 2) t end.
Lemma ws_length Ls : forall w, length (ws w Ls) = csum Ls.
Proof. induction Ls as [|L Ls IH]; intros w; cbn [ws]; auto. rewrite app_length, repeat_length, IH, csum_cons. auto. Qed.
Lemma wl_combine Ls : forall w, combine (concat Ls) (ws w Ls) = wl w Ls.
Proof.
  induction Ls as [|L Ls IH]; intros w; cbn [concat ws wl]; auto. rewrite <- IH. generalize (concat Ls) (ws (w * 2) Ls). intros A B.
  induction L; cbn [length repeat app combine map]; auto. f_equal. auto.
Qed.

Lemma view_levels_ok lv offset : forall Rs Ds w U V Y nes, 
  lv = pb offset (Ds ++ Rs) ++ [offset + csum (Ds ++ Rs)] -> length U = csum Ds -> length V = csum Rs -> length Rs <= length Y -> csum nes = csum Ds ->
  exists Y', view_levels_loop (length Rs) (length Ds) (length nes) w lv offset (U ++ V) (pb 0 nes ++ csum Ds :: Y) =
    Some (U ++ ws w Rs, pb 0 (nes ++ wls w Rs) ++ csum (nes ++ wls w Rs) :: Y', length (nes ++ wls w Rs)).
Proof.
  induction Rs as [|L Rs IH]; intros Ds w U V Y nes Hlv HU HV HY HN; cbn [view_levels_loop length].
  - exists Y. cbn [ws wls]. rewrite csum_nil in HV. destruct V; [|simpl in HV; lia]. rewrite !app_nil_r, HN. auto.
  - assert (N1 : nth_error lv (length Ds) = Some (offset + csum Ds)).
    { rewrite Hlv. rewrite pb_app, <- app_assoc. cbn [pb app]. apply nth_seg. rewrite pb_length. auto. }
    assert (N2 : nth_error lv (length Ds + 1) = Some (offset + csum Ds + length L)).
    { rewrite Hlv. replace (Ds ++ L :: Rs) with ((Ds ++ [L]) ++ Rs) by (rewrite <- app_assoc; auto). destruct Rs as [|L' Rs].
      - rewrite app_nil_r. rewrite csum_app, csum_cons, csum_nil. rewrite nth_seg by (rewrite pb_length, app_length; cbn [length]; lia). f_equal. lia.
      - rewrite pb_app, <- app_assoc. cbn [pb app]. rewrite nth_seg by (rewrite pb_length, app_length; cbn [length]; lia). rewrite csum_app, csum_cons, csum_nil. f_equal. lia. }
    rewrite N1, N2. cbn [bindo]. rewrite !sub_ok by lia. cbn [bindo].
    replace (offset + csum Ds - offset) with (csum Ds) by lia. replace (offset + csum Ds + length L - offset) with (csum Ds + length L) by lia.
    rewrite csum_cons in HV. destruct (split_at V (length L)) as (V1 & V2 & -> & HV1); [lia|]. rewrite app_length in HV.
    assert (Hlv' : lv = pb offset ((Ds ++ [L]) ++ Rs) ++ [offset + csum ((Ds ++ [L]) ++ Rs)]) by (rewrite Hlv, <- app_assoc; auto).
    assert (HcD : csum (Ds ++ [L]) = csum Ds + length L) by (rewrite csum_app, csum_cons, csum_nil; lia).
    cbn [length] in HY.
    destruct (Nat.ltb_spec (csum Ds) (csum Ds + length L)) as [H|H].
    + replace (csum Ds + length L - csum Ds) with (length L) by lia.
      rewrite put_seg by (rewrite ?repeat_length; auto). cbn [bindo].
      assert (HW1 : wr (length nes) (csum Ds) (pb 0 nes ++ csum Ds :: Y) = Some (pb 0 nes ++ csum Ds :: Y)) by (apply wr_seg; rewrite pb_length; auto).
      rewrite HW1. cbn [bindo]. destruct Y as [|y Y]; [cbn [length] in HY; lia|].
      assert (HW2 : wr (length nes + 1) (csum Ds + length L) (pb 0 nes ++ csum Ds :: y :: Y) = Some (pb 0 nes ++ csum Ds :: (csum Ds + length L) :: Y)).
      { replace (pb 0 nes ++ csum Ds :: y :: Y) with ((pb 0 nes ++ [csum Ds]) ++ y :: Y) by (rewrite <- app_assoc; auto).
        rewrite wr_seg by (rewrite app_length, pb_length; auto). rewrite <- app_assoc. auto. }
      rewrite HW2. cbn [bindo]. set (ML := map (fun x : C => (x, w)) L).
      assert (HWL : wls w (L :: Rs) = ML :: wls (w * 2) Rs) by (destruct L; [cbn [length] in H; lia|reflexivity]). rewrite HWL. clear HWL.
      assert (HML : length ML = length L) by apply map_length.
      destruct (IH (Ds ++ [L]) (w * 2)%N (U ++ repeat w (length L)) V2 Y (nes ++ [ML]) Hlv') as (Y' & E); try lia.
      { rewrite app_length, repeat_length. lia. } { cbn [length] in HY. lia. } { rewrite csum_app, csum_cons, csum_nil. lia. }
      exists Y'. rewrite !app_length in E. rewrite <- !app_assoc in E. rewrite HcD in E. cbn [app length] in E.
      rewrite pb_app in E. rewrite <- app_assoc in E. cbn [pb app] in E. rewrite HN in E. cbn [Nat.add] in E. rewrite app_length. cbn [ws length]. rewrite <- (Nat.add_assoc (length nes)) in E. exact E.
    + destruct L; [|cbn [length] in H; lia]. destruct V1; [|simpl in HV1; lia]. cbn [app].
      destruct (IH (Ds ++ [[]]) (w * 2)%N U V2 Y nes Hlv') as (Y' & E); try lia.
      rewrite app_length in E. rewrite HcD in E. cbn [length] in E. rewrite Nat.add_0_r in E. exists Y'. cbn [ws wls length repeat app]. rewrite <- E. reflexivity.
Qed.

Lemma wls_csum Ls : forall w, csum (wls w Ls) = csum Ls.
Proof.
  induction Ls as [|[|x L] Ls IH]; intros w; cbn [wls]; auto. rewrite !csum_cons, map_length, IH. auto.
Qed.
Lemma wl_perm0 A B t w : Permutation A B -> Permutation (wl w (A :: t)) (wl w (B :: t)).
Proof. intros H. cbn [wl]. apply Permutation_app_tail. apply Permutation_map. auto. Qed.

Lemma sorted_view_ok s U Ls : Inv s U Ls -> LvS Ls -> n s <> 0%N ->
  exists res, sorted_view less ceq zero sort s = Some (mkView (map fst res) (convert_to_cumulative 0 (map snd res)) (n s)) /\
    sortedw res /\ Permutation (wl 1 Ls) res.
Proof.
  intros I HS Hn. unfold sorted_view. unfold is_empty. destruct (N.eqb_spec (n s) 0) as [E|_]; [congruence|].
  destruct (total_items_rep less ceq zero sort (fun _ => false) sort_perm _ _ _ I) as (pre & Hit & Hlv & Hnl & HT).
  destruct (i_fit _ _ _ I) as (Hne & _). destruct Ls as [|L0 t]; [congruence|].
  assert (N0 : nth_error (levels s) 0 = Some (length pre)) by (rewrite Hlv; reflexivity).
  assert (N1 : nth_error (levels s) 1 = Some (length pre + length L0)).
  { rewrite Hlv. destruct t; cbn [pb app nth_error]; auto. rewrite csum_cons, csum_nil, Nat.add_0_r. auto. }
  assert (Nn : nth_error (levels s) (num_levels s) = Some (length pre + csum (L0 :: t))) by (rewrite Hlv, Hnl; apply nth_seg; rewrite pb_length; auto).
  rewrite N0, N1, Nn. cbn [bindo]. rewrite (i_flag _ _ _ I). rewrite sub_ok by lia. cbn [bindo].
  replace (length pre + length L0 - length pre) with (length L0) by lia.
  unfold sort_slice. rewrite Hit. cbn [concat]. rewrite get_seg by auto. cbn [bindo].
  assert (HL0 : length (sort L0) = length L0) by (symmetry; apply Permutation_length; auto).
  rewrite put_seg by auto. cbn [bindo]. rewrite sub_ok by lia. cbn [bindo].
  set (Ls1 := sort L0 :: t).
  assert (Hcs : csum (L0 :: t) = csum Ls1) by (unfold Ls1; rewrite !csum_cons; lia).
  replace (length pre + csum (L0 :: t) - length pre) with (csum Ls1) by lia.
  assert (HG : sl_get (length pre) (csum Ls1) (pre ++ sort L0 ++ concat t) = Some (concat Ls1)).
  { pose proof (get_seg pre (concat Ls1) [] (length pre) (csum Ls1) eq_refl eq_refl) as H. rewrite app_nil_r in H. exact H. }
  rewrite HG. cbn [bindo].
  assert (Hlv1 : levels s = pb (length pre) ([] ++ Ls1) ++ [length pre + csum ([] ++ Ls1)]).
  { rewrite Hlv. cbn [app]. unfold Ls1. cbn [pb app]. rewrite !csum_cons, HL0. auto. }
  destruct (view_levels_ok (levels s) (length pre) Ls1 [] 1%N [] (repeat 0%N (csum Ls1)) (repeat 0 (num_levels s)) [] Hlv1) as (Y' & HV); auto.
  { rewrite repeat_length. auto. } { rewrite repeat_length, Hnl. auto. }
  assert (HN' : num_levels s = length Ls1) by (rewrite Hnl; auto).
  replace (repeat 0 (num_levels s + 1)) with (0 :: repeat 0 (num_levels s)) by (rewrite Nat.add_comm; reflexivity).
  rewrite HN' in *. cbn [app length pb] in HV. cbn [length]. change (csum (@nil (list C))) with 0 in HV. rewrite HV. cbn [bindo].
  rewrite wl_combine.
  assert (HP1 : Permutation (wl 1 (L0 :: t)) (wl 1 Ls1)) by (apply wl_perm0; auto).
  assert (HSS : Forall sortedw (wls 1 Ls1)). { apply wls_sorted. constructor; auto. }
  assert (HNE : wls 1 Ls1 <> []).
  { intros E. pose proof (wls_csum Ls1 1) as Hc. rewrite E, csum_nil in Hc. rewrite <- Hcs in Hc.
    pose proof (i_wt _ _ _ I) as HW. assert (HZ : forall Ls : list (list C), csum Ls = 0 -> wt Ls = 0%N).
    { induction Ls as [|l Ls IH]; auto. rewrite csum_cons. intros H. cbn [wt]. rewrite IH by lia. lia. }
    rewrite HZ in HW by auto. congruence. }
  assert (HB : exists res, blocky_tandem_merge_sort less ceq (wl 1 Ls1) (pb 0 (wls 1 Ls1) ++ csum (wls 1 Ls1) :: Y') (length (wls 1 Ls1)) = Some res /\
     sortedw res /\ Permutation (wl 1 Ls1) res).
  { unfold blocky_tandem_merge_sort. destruct (Nat.eqb_spec (length (wls 1 Ls1)) 1) as [E|E].
    - exists (wl 1 Ls1). split; auto. split; auto. rewrite <- wls_concat. destruct (wls 1 Ls1) as [|S0 [|]]; try discriminate. cbn [concat]. rewrite app_nil_r. inversion HSS; auto.
    - pose proof (blocky_ok (pb 0 (wls 1 Ls1) ++ csum (wls 1 Ls1) :: Y') (length (wls 1 Ls1) + 1) [] (wls 1 Ls1) [] [] [] [] [] Y') as HB.
      cbn [app] in HB. rewrite !app_nil_r in HB. destruct HB as (S2 & D & HE & _ & HD & HP); auto; [lia|].
      rewrite wls_concat in *. cbn [length] in HE. rewrite HE. cbn [bindo]. rewrite app_nil_r. exists D. auto. }
  destruct HB as (res & HB & HO & HP). cbn [app] in HB. rewrite HB. cbn [bindo]. exists res. split; [reflexivity|]. split; auto. eapply perm_trans; eauto.
Qed.

Lemma iterate_level_ok : forall (L P Q : list C) w, iterate_level (length L) (P ++ L ++ Q) (length P) w = Some (map (fun x => (x, w)) L).
Proof.
  induction L as [|x L IH]; intros P Q w; cbn [length iterate_level]; auto. cbn [app]. rewrite nth_seg by auto. cbn [bindo].
  specialize (IH (P ++ [x]) Q w). rewrite app_length in IH. rewrite <- app_assoc in IH. cbn [app length] in IH. rewrite IH. auto.
Qed.
Lemma iterate_levels_ok : forall (Ls Ds : list (list C)) pre w, iterate_levels (length Ls) (length Ds) (pb (length pre) (Ds ++ Ls) ++ [length pre + csum (Ds ++ Ls)]) (pre ++ concat (Ds ++ Ls)) w = Some (wl w Ls).
Proof.
  induction Ls as [|L Ls IH]; intros Ds pre w; cbn [length iterate_levels]; auto.
  assert (N1 : nth_error (pb (length pre) (Ds ++ L :: Ls) ++ [length pre + csum (Ds ++ L :: Ls)]) (length Ds) = Some (length pre + csum Ds)).
  { rewrite pb_app, <- app_assoc. cbn [pb app]. apply nth_seg. rewrite pb_length. auto. }
  assert (N2 : nth_error (pb (length pre) (Ds ++ L :: Ls) ++ [length pre + csum (Ds ++ L :: Ls)]) (length Ds + 1) = Some (length pre + csum Ds + length L)).
  { replace (Ds ++ L :: Ls) with ((Ds ++ [L]) ++ Ls) by (rewrite <- app_assoc; auto). destruct Ls as [|L' Ls].
    - rewrite app_nil_r. rewrite csum_app, csum_cons, csum_nil. rewrite nth_seg by (rewrite pb_length, app_length; cbn [length]; lia). f_equal. lia.
    - rewrite pb_app, <- app_assoc. cbn [pb app]. rewrite nth_seg by (rewrite pb_length, app_length; cbn [length]; lia). rewrite csum_app, csum_cons, csum_nil. f_equal. lia. }
  rewrite N1, N2. cbn [bindo]. replace (length pre + csum Ds + length L - (length pre + csum Ds)) with (length L) by lia.
  assert (HI : iterate_level (length L) (pre ++ concat (Ds ++ L :: Ls)) (length pre + csum Ds) w = Some (map (fun x => (x, w)) L)).
  { rewrite concat_app. cbn [concat]. replace (pre ++ concat Ds ++ L ++ concat Ls) with ((pre ++ concat Ds) ++ L ++ concat Ls) by (rewrite <- app_assoc; auto).
    replace (length pre + csum Ds) with (length (pre ++ concat Ds)) by (rewrite app_length; auto). apply iterate_level_ok. }
  rewrite HI. cbn [bindo]. specialize (IH (Ds ++ [L]) pre (w * 2)%N). rewrite app_length in IH. rewrite <- app_assoc in IH. cbn [app length] in IH. rewrite IH. auto.
Qed.
Lemma iterate_ok s U Ls : Inv s U Ls -> iterate zero s = Some (wl 1 Ls).
Proof.
  intros I. unfold iterate. destruct (total_items_rep less ceq zero sort (fun _ => false) sort_perm _ _ _ I) as (pre & Hit & Hlv & Hnl & HT).
  rewrite Hit, Hlv. rewrite app_length, pb_length. cbn [length]. replace (length Ls + 1 - 1) with (length Ls) by lia. apply (iterate_levels_ok Ls []).
Qed.

(** Total weight of the items that satisfy [p]. *)
Definition wsum (p : C -> bool) (l : list (C * N)) : N := fold_right (fun a t => (if p (fst a) then snd a else 0) + t)%N 0%N l.
Lemma wsum_app p A B : wsum p (A ++ B) = (wsum p A + wsum p B)%N.
Proof. unfold wsum. induction A; cbn [app fold_right]; auto. rewrite IHA. lia. Qed.
Lemma wsum_perm p A B : Permutation A B -> wsum p A = wsum p B.
Proof. unfold wsum. induction 1; cbn [fold_right]; lia. Qed.
Lemma wsum_wl p Ls : forall w, Z.of_N (wsum p (wl w Ls)) = (Z.of_N w * R p Ls)%Z.
Proof.
  induction Ls as [|L Ls IH]; intros w; cbn [wl R]; [unfold wsum; simpl; lia|]. rewrite wsum_app, N2Z.inj_add, IH.
  assert (HL : Z.of_N (wsum p (map (fun x => (x, w)) L)) = (Z.of_N w * cnt p L)%Z).
  { induction L as [|x L IHL]; [rewrite cnt_nil; unfold wsum; simpl; lia|]. cbn [map]. rewrite cnt_cons. unfold wsum in *. cbn [fold_right fst snd]. destruct (p x); lia. }
  rewrite HL. lia.
Qed.
Lemma cum_nth l : forall i st, i < length l -> nth_error (convert_to_cumulative st (map snd l)) i = Some (st + wsum (fun _ => true) (firstn (S i) l))%N.
Proof.
  induction l as [|a l IH]; intros i st H; [cbn [length] in H; lia|]. cbn [map convert_to_cumulative]. destruct i as [|i].
  - cbn [nth_error firstn]. unfold wsum. cbn [fold_right]. f_equal. lia.
  - cbn [nth_error]. cbn [length] in H. rewrite IH by lia. cbn [firstn]. f_equal. unfold wsum. cbn [fold_right]. lia.
Qed.
Lemma wsum_split p l i : (forall j a, j < i -> nth_error l j = Some a -> p (fst a) = true) -> (forall j a, i <= j -> nth_error l j = Some a -> p (fst a) = false) ->
  wsum p l = wsum (fun _ => true) (firstn i l).
Proof.
  revert i. induction l as [|a l IH]; intros i H1 H2; [rewrite firstn_nil; auto|]. destruct i as [|i].
  - cbn [firstn]. unfold wsum in *. cbn [fold_right]. rewrite (H2 0 a) by (auto; lia). rewrite (IH 0); [auto|intros; lia|]. intros j b Hj Hb. apply (H2 (S j)); auto; lia.
  - cbn [firstn]. unfold wsum in *. cbn [fold_right]. rewrite (H1 0 a) by (auto; lia). rewrite (IH i); auto; intros j b Hj Hb; [apply (H1 (S j))|apply (H2 (S j))]; auto; lia.
Qed.
Lemma sorted_nth res i j a b : sortedw res -> i <= j -> nth_error res i = Some a -> nth_error res j = Some b -> le2 a b.
Proof.
  intros HS. revert i j. induction HS as [|x l HS IH HF]; intros i j Hij Ha Hb; [destruct i; discriminate|].
  destruct i as [|i], j as [|j]; cbn [nth_error] in *; try lia.
  - injection Ha as <-. injection Hb as <-. apply lew_refl.
  - injection Ha as <-. apply nth_error_In in Hb. eapply Forall_forall in HF; eauto.
  - eapply IH; [|eauto|eauto]. lia.
Qed.

Lemma at_map {X Y} (f : X -> Y) l i : at_ (map f l) i = option_map f (at_ l i).
Proof. unfold at_. destruct (i <? 0)%Z; auto. apply nth_error_map. Qed.
Lemma at_nth {X} (l : list X) i x : at_ l i = Some x -> (0 <= i)%Z /\ nth_error l (Z.to_nat i) = Some x /\ (i < Z.of_nat (length l))%Z.
Proof.
  unfold at_. destruct (Z.ltb_spec i 0); [discriminate|]. intros H1. repeat split; auto.
  assert (Z.to_nat i < length l) by (apply nth_error_Some; congruence). lia.
Qed.
Lemma nth_at {X} (l : list X) j x : nth_error l j = Some x -> at_ l (Z.of_nat j) = Some x.
Proof. unfold at_. intros H. destruct (Z.ltb_spec (Z.of_nat j) 0); [lia|]. rewrite Nat2Z.id. auto. Qed.

(** What rank asks about: the items at most, or below, [x]. *)
Definition upto (x : C) (incl : bool) (y : C) : bool := if incl then negb (less x y) else less y x.
Lemma upto_down x (incl : bool) : down (upto x incl).
Proof.
  intros a b Hab. unfold upto. destruct incl.
  - rewrite !negb_true_iff. intros H. eapply lew_trans; eauto.
  - intros H. eapply le_lt; eauto.
Qed.
Lemma upto_holds x (incl : bool) y : holds less (if incl then LE else LT) y x <-> upto x incl y = true.
Proof.
  unfold upto, holds. destruct incl; [|tauto]. rewrite negb_true_iff. split.
  - intros [H| ->]; [apply (asym _ _ T); auto|apply (st_irrefl _ _ T)].
  - intros H. destruct (st_total _ _ T y x) as [H1|[H1|H1]]; auto. congruence.
Qed.

Lemma rank_ok res nn x incl : sortedw res -> res <> [] ->
  get_rank less ceq (mkView (map fst res) (convert_to_cumulative 0 (map snd res)) nn) x incl = Some (wsum (upto x incl) res).
Proof.
  intros HS HN. unfold get_rank. cbn [quantiles cum_weights]. rewrite map_length.
  destruct (find_with_inequality_correct less ceq T (map fst res) 0 (Z.of_nat (length res) - 1) x (if incl then LE else LT)) as (r & Hr & HA).
  { destruct res; [congruence|discriminate]. } { lia. } { rewrite map_length. lia. }
  { intros i j a b Hi Hij Hj Ha Hb. rewrite at_map in Ha, Hb. destruct (at_ res i) eqn:E1; [|discriminate]. destruct (at_ res j) eqn:E2; [|discriminate].
    cbn [option_map] in *. injection Ha as <-. injection Hb as <-. apply at_nth in E1, E2. eapply sorted_nth; [eauto| |apply E1|apply E2]. lia. }
  rewrite Hr. cbn [bindo].
  assert (HW : wants_last (if incl then LE else LT) = true) by (destruct incl; auto).
  assert (HF : forall j a, nth_error res j = Some a -> at_ (map fst res) (Z.of_nat j) = Some (fst a)) by (intros j a Hj; rewrite at_map, (nth_at _ _ _ Hj); auto).
  assert (HJ : forall j a, nth_error res j = Some a -> (0 <= Z.of_nat j <= Z.of_nat (length res) - 1)%Z).
  { intros j a Hj. assert (j < length res) by (apply nth_error_Some; congruence). lia. }
  destruct HA as [[-> HA]|(Hr1 & (a & Ha & Hha) & HA)].
  - rewrite Z.eqb_refl. f_equal. symmetry. rewrite (wsum_split _ _ 0); auto; [intros; lia|].
    intros j b _ Hj. destruct (upto x incl (fst b)) eqn:E; auto. exfalso. apply upto_holds in E. eapply HA; eauto.
  - destruct (Z.eqb_spec r (-1)); [lia|]. rewrite HW in HA. rewrite at_map in Ha. destruct (at_ res r) as [[q wq]|] eqn:E; [|discriminate].
    cbn [option_map fst] in Ha. injection Ha as <-. apply at_nth in E. destruct E as (E1 & E2 & E3).
    unfold at_. destruct (Z.ltb_spec r 0); [lia|]. rewrite cum_nth by lia. f_equal. rewrite N.add_0_l. symmetry. apply wsum_split.
    + intros j b Hj Hb. apply (upto_down x incl) with (y := q); [|apply upto_holds; auto].
      change q with (fst (q, wq)). eapply sorted_nth; [eauto| |exact Hb|exact E2]. lia.
    + intros j b Hj Hb. destruct (upto x incl (fst b)) eqn:Eu; auto. exfalso. apply upto_holds in Eu.
      specialize (HA _ _ (HJ _ _ Hb) (HF _ _ Hb) Eu). lia.
Qed.

Lemma N_total : strict_total N.ltb N.eqb.
Proof.
  constructor.
  - apply N.eqb_eq.
  - apply N.ltb_irrefl.
  - intros a b c. rewrite !N.ltb_lt. lia.
  - intros a b. rewrite !N.ltb_lt. lia.
Qed.
Lemma wsum_mono p q l : (forall a, In a l -> p (fst a) = true -> q (fst a) = true) -> (wsum p l <= wsum q l)%N.
Proof.
  induction l as [|a l IH]; intros H; unfold wsum in *; cbn [fold_right]; [lia|].
  specialize (IH ltac:(intros; apply H; simpl; auto)). pose proof (H a ltac:(simpl; auto)) as Ha. destruct (p (fst a)), (q (fst a)); try lia.
Qed.
Lemma wsum_firstn i l : (wsum (fun _ => true) (firstn i l) <= wsum (fun _ => true) l)%N.
Proof.
  revert i; induction l as [|a l IH]; intros [|i]; cbn [firstn]; unfold wsum in *; cbn [fold_right]; try lia. specialize (IH i). lia.
Qed.
Lemma firstn_in_order res i p : sortedw res -> (forall j a, j < i -> nth_error res j = Some a -> p (fst a) = true) -> (wsum (fun _ => true) (firstn i res) <= wsum p res)%N.
Proof.
  intros HS. revert i. induction res as [|a res IH]; intros i H; [rewrite firstn_nil; unfold wsum; simpl; lia|]. destruct i as [|i]; [unfold wsum; simpl; lia|].
  inversion HS; subst. specialize (IH H2 i). unfold wsum in *. cbn [firstn fold_right]. rewrite (H 0 a) by (auto; lia).
  assert (HI : forall j b, j < i -> nth_error res j = Some b -> p (fst b) = true) by (intros j b Hj Hb; apply (H (S j) b); auto; lia).
  specialize (IH HI). lia.
Qed.


(** [reaches r incl w]: the cumulative weight [w] reaches the natural rank [r]. *)
Definition reaches (r : N) (incl : bool) (w : N) : Prop := if incl then (r <= w)%N else (r < w)%N.
Lemma cum_length l : forall st, length (convert_to_cumulative st l) = length l.
Proof. induction l; intros st; cbn [convert_to_cumulative length]; auto. Qed.
Lemma wsum_firstn_mono i j l : i <= j -> (wsum (fun _ => true) (firstn i l) <= wsum (fun _ => true) (firstn j l))%N.
Proof. intros H. replace i with (Nat.min i j) by lia. rewrite <- firstn_firstn. apply wsum_firstn. Qed.
Lemma reaches_mono r incl a b : (a <= b)%N -> reaches r incl a -> reaches r incl b.
Proof. unfold reaches. destruct incl; lia. Qed.
Lemma reaches_holds r (incl : bool) w : holds N.ltb (if incl then GE else GT) w r <-> reaches r incl w.
Proof. unfold reaches, holds. destruct incl; rewrite N.ltb_lt; [lia|tauto]. Qed.

Lemma quantile_ok res nn r incl : sortedw res -> res <> [] ->
  exists q, get_quantile (mkView (map fst res) (convert_to_cumulative 0 (map snd res)) nn) r incl = Some q /\ In q (map fst res) /\
    (reaches r incl (wsum (fun _ => true) res) -> reaches r incl (wsum (upto q true) res)) /\
    (forall y, In y (map fst res) -> less y q = true -> ~ reaches r incl (wsum (upto y true) res)) /\
    (~ reaches r incl (wsum (fun _ => true) res) -> forall y, In y (map fst res) -> less q y = false).
Proof.
  intros HS HN. unfold get_quantile. cbn [quantiles cum_weights]. rewrite map_length.
  assert (Hlen : 0 < length res) by (destruct res; [congruence|cbn [length]; lia]).
  set (cw := convert_to_cumulative 0 (map snd res)). assert (Hcl : length cw = length res) by (unfold cw; rewrite cum_length, map_length; auto).
  assert (Hcw : forall i, i < length res -> at_ cw (Z.of_nat i) = Some (wsum (fun _ => true) (firstn (S i) res))).
  { intros i Hi. apply nth_at. unfold cw. rewrite cum_nth by auto. rewrite N.add_0_l. auto. }
  assert (Hinv : forall i w, at_ cw i = Some w -> exists j, i = Z.of_nat j /\ j < length res /\ w = wsum (fun _ => true) (firstn (S j) res)).
  { intros i w H. pose proof (at_nth _ _ _ H) as (H0 & _ & H2). exists (Z.to_nat i). rewrite Z2Nat.id by lia. split; auto. split; [lia|].
    specialize (Hcw (Z.to_nat i) ltac:(lia)). rewrite Z2Nat.id in Hcw by lia. congruence. }
  destruct (find_with_inequality_correct N.ltb N.eqb N_total cw 0 (Z.of_nat (length res) - 1) r (if incl then GE else GT)) as (ix & Hix & HA).
  { destruct cw; [cbn [length] in Hcl; lia|discriminate]. } { lia. } { lia. }
  { intros i j a b Hi Hij Hj Ha Hb. apply Hinv in Ha, Hb. destruct Ha as (ia & -> & Hia & ->), Hb as (jb & -> & Hjb & ->). apply N.ltb_ge. apply wsum_firstn_mono. lia. }
  rewrite Hix. cbn [bindo].
  assert (HW : wants_last (if incl then GE else GT) = false) by (destruct incl; auto).
  assert (Hall : wsum (fun _ => true) res = wsum (fun _ => true) (firstn (S (length res - 1)) res)) by (rewrite firstn_all2; auto; lia).
  assert (Hy : forall y, In y (map fst res) -> exists j wy, nth_error res j = Some (y, wy)).
  { intros y Hy. apply in_map_iff in Hy. destruct Hy as ([y' wy] & <- & Hy). apply In_nth_error in Hy. destruct Hy as [j Hj]. eauto. }
  (* weight up to y, for y before position i *)
  assert (Hpre : forall i q wq y, nth_error res i = Some (q, wq) -> less y q = true -> (wsum (upto y true) res <= wsum (fun _ => true) (firstn i res))%N).
  { intros i q wq y Hq Hlt. rewrite <- (firstn_skipn i res) at 1. rewrite wsum_app.
    assert (Hz : wsum (upto y true) (skipn i res) = 0%N).
    { assert (HZ : forall a, In a (skipn i res) -> upto y true (fst a) = false).
      { intros a Ha. apply In_nth_error in Ha. destruct Ha as [j Hj]. rewrite nth_error_skipn' in Hj.
        pose proof (sorted_nth res i (i + j) (q, wq) a HS ltac:(lia) Hq Hj) as Hle. unfold upto. apply negb_false_iff. eapply lt_le; eauto. }
      clear -HZ. induction (skipn i res) as [|a l IH]; unfold wsum in *; cbn [fold_right]; auto. rewrite HZ by (simpl; auto). rewrite IH; auto. intros; apply HZ; simpl; auto. }
    rewrite Hz, N.add_0_r. apply wsum_mono. auto. }
  assert (Hup : forall i q wq, nth_error res i = Some (q, wq) -> (wsum (fun _ => true) (firstn (S i) res) <= wsum (upto q true) res)%N).
  { intros i q wq Hq. apply firstn_in_order; auto. intros j a Hj Ha. unfold upto. apply negb_true_iff.
    exact (sorted_nth res j i a (q, wq) HS ltac:(lia) Ha Hq). }
  destruct HA as [[-> HA]|(Hr1 & (w & Hw & Hhw) & HA)].
  - rewrite Z.eqb_refl. rewrite at_map.
    destruct (nth_error res (length res - 1)) as [[q wq]|] eqn:EL; [|apply nth_error_None in EL; lia].
    replace (Z.of_nat (length res) - 1)%Z with (Z.of_nat (length res - 1)) by lia. rewrite (nth_at _ _ _ EL). cbn [option_map fst].
    assert (HNR : ~ reaches r incl (wsum (fun _ => true) res)).
    { intros HR. rewrite Hall in HR. apply reaches_holds in HR. apply (HA (Z.of_nat (length res - 1)) _ ltac:(lia) (Hcw (length res - 1) ltac:(lia)) HR). }
    exists q. split; auto. split; [apply nth_error_In in EL; apply (in_map fst) in EL; auto|]. split; [tauto|]. split.
    + intros y _ _ HR. apply HNR. eapply reaches_mono; [|exact HR]. apply wsum_mono. auto.
    + intros _ y Hyy. destruct (Hy y Hyy) as (j & wy & Hj). assert (j < length res) by (apply nth_error_Some; congruence).
      exact (sorted_nth res j (length res - 1) (y, wy) (q, wq) HS ltac:(lia) Hj EL).
  - rewrite HW in HA. destruct (Z.eqb_spec ix (-1)); [lia|]. apply Hinv in Hw. destruct Hw as (j & -> & Hj & ->). apply reaches_holds in Hhw.
    destruct (nth_error res j) as [[q wq]|] eqn:EL; [|apply nth_error_None in EL; lia]. rewrite at_map, (nth_at _ _ _ EL). cbn [option_map fst].
    exists q. split; auto. split; [apply nth_error_In in EL; apply (in_map fst) in EL; auto|]. split; [|split].
    + intros _. eapply reaches_mono; [|exact Hhw]. eapply Hup; eauto.
    + intros y Hyy Hlt HR. pose proof (reaches_mono _ _ _ _ (Hpre j q wq y EL Hlt) HR) as HR2.
      destruct j as [|j]; [cbn [firstn] in HR2; unfold wsum in HR2; simpl in HR2|].
      * assert (HR3 : (r = 0)%N /\ incl = true) by (unfold reaches in HR2; destruct incl; split; auto; lia). destruct HR3 as [-> ->].
        destruct (Hy y Hyy) as (i & wy & Hi). pose proof (sorted_nth res 0 i (q, wq) (y, wy) HS ltac:(lia) EL Hi) as Hle. unfold le2, lew in Hle. cbn [fst] in Hle. congruence.
      * apply reaches_holds in HR2. specialize (HA (Z.of_nat j) _ ltac:(lia) (Hcw j ltac:(lia)) HR2). lia.
    + intros HNR. exfalso. apply HNR. eapply reaches_mono; [|exact Hhw]. apply wsum_firstn.
Qed.
End Sem.
