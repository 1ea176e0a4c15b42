(** * Proofs about the tuple model: forgetting the summaries gives the theta model; summary invariants. *)
From Coq Require Import Sorting.Sorted Permutation.
From Verif Require Import Base QuickSelectModel QuickSelectProofs ProbeModel ProbeProofs HashtableModel HashtableProofs
  ThetaModel ThetaProofs TupleModel.
Local Open Scope nat_scope.

Lemma map_upd {A B} (f : A -> B) i x l : map f (upd i x l) = upd i (f x) (map f l).
Proof. revert i; induction l; intros [|i]; simpl; congruence. Qed.

Lemma map_nth_error' {A B} (f : A -> B) l i : nth_error (map f l) i = option_map f (nth_error l i).
Proof. revert i; induction l; intros [|i]; simpl; auto. Qed.

Section Erase.
  Context {E : Type}.
  Variable hashOf : E -> N.
  Variable zeroE : E.
  Hypothesis zero_hash : hashOf zeroE = 0%N.

  Definition er (t : table E) : table N :=
    mkTable (map hashOf (t_entries t)) (t_theta t) (t_num t) (t_lgCur t) (t_lgNom t) (t_rf t) (t_empty t) (t_theta0 t).

  Lemma probe_loop_er fuel es f g mask stride idx start : (forall e, g (hashOf e) = f e) ->
    probe_loop fuel (map hashOf es) g mask stride idx start = probe_loop fuel es f mask stride idx start.
  Proof.
    clear. intros H. revert idx. induction fuel; simpl; auto. intros idx. rewrite map_nth_error'.
    destruct (nth_error es (N.to_nat idx)); simpl; auto. rewrite H. destruct (f e); auto. rewrite IHfuel. auto.
  Qed.

  Lemma find_er es lg k : find tid (map hashOf es) lg k = find hashOf es lg k.
  Proof. clear. unfold find. apply probe_loop_er. intros e. reflexivity. Qed.

  Lemma reinsert_er lg acc e :
    reinsert tid lg (option_map (map hashOf) acc) (hashOf e) = option_map (map hashOf) (reinsert hashOf lg acc e).
  Proof.
    clear. destruct acc as [es|]; simpl; auto. unfold find_index. change (tid (hashOf e)) with (hashOf e).
    rewrite find_er. destruct (find hashOf es lg (hashOf e)) as [i|i| | |]; simpl; auto; rewrite ?map_length.
    - destruct (i <? length es); simpl; rewrite ?map_upd; auto.
    - destruct (i <? length es); simpl; rewrite ?map_upd; auto.
    - destruct es; simpl; auto.
  Qed.

  Lemma reinsert_fold_er lg l : forall acc,
    fold_left (reinsert tid lg) (map hashOf l) (option_map (map hashOf) acc) =
    option_map (map hashOf) (fold_left (reinsert hashOf lg) l acc).
  Proof. clear. induction l as [|e r IH]; intros acc; simpl; auto. rewrite reinsert_er. auto. Qed.

  Lemma reinsert_fold_er' lg l es :
    fold_left (reinsert tid lg) (map hashOf l) (Some (map hashOf es)) =
    option_map (map hashOf) (fold_left (reinsert hashOf lg) l (Some es)).
  Proof. clear. apply (reinsert_fold_er lg l (Some es)). Qed.

  Lemma filter_er p q l : (forall e, q (hashOf e) = p e) -> filter q (map hashOf l) = map hashOf (filter p l).
  Proof. clear. intros H. induction l; simpl; auto. rewrite H. destruct (p a); simpl; congruence. Qed.

  Lemma repeat_er n : map hashOf (repeat zeroE n) = repeat 0%N n.
  Proof. induction n; simpl; congruence. Qed.

  Lemma resize_er t : resize tid 0%N (er t) = option_map er (resize hashOf zeroE t).
  Proof.
    unfold resize. simpl. rewrite map_length. destruct (_ =? _); auto.
    rewrite (filter_er (fun e => negb (hashOf e =? 0)%N)) by reflexivity.
    rewrite <- repeat_er. rewrite reinsert_fold_er'.
    destruct (fold_left _ _ _); simpl; auto.
  Qed.

  Lemma scan_up_er fuel arr v hi : forall i,
    scan_up (hash_lt tid) fuel (map hashOf arr) (hashOf v) hi i = scan_up (hash_lt hashOf) fuel arr v hi i.
  Proof.
    clear. induction fuel; intros i; simpl; auto. rewrite map_nth_error'.
    destruct (nth_error arr (i + 1)); simpl; auto. change (hash_lt tid (hashOf e) (hashOf v)) with (hash_lt hashOf e v).
    destruct (hash_lt hashOf e v); auto. destruct (_ =? _); auto.
  Qed.

  Lemma scan_down_er fuel arr v lo : forall i,
    scan_down (hash_lt tid) fuel (map hashOf arr) (hashOf v) lo i = scan_down (hash_lt hashOf) fuel arr v lo i.
  Proof.
    clear. induction fuel; intros i; simpl; auto. destruct (i =? 0); auto. rewrite map_nth_error'.
    destruct (nth_error arr (i - 1)); simpl; auto. change (hash_lt tid (hashOf v) (hashOf e)) with (hash_lt hashOf v e).
    destruct (hash_lt hashOf v e); auto. destruct (_ =? _); auto.
  Qed.

  Lemma swap_er i j l : map hashOf (swap i j l) = swap i j (map hashOf l).
  Proof.
    clear. unfold swap. rewrite !map_nth_error'. destruct (nth_error l i), (nth_error l j); simpl; auto.
    rewrite !map_upd. auto.
  Qed.

  Definition pm (r : option (list E * nat)) : option (list N * nat) := option_map (fun x => (map hashOf (fst x), snd x)) r.
  Definition qm (r : option (list E * E)) : option (list N * N) := option_map (fun x => (map hashOf (fst x), hashOf (snd x))) r.

  Lemma part_loop_er fuel : forall arr v lo hi i j,
    part_loop (hash_lt tid) fuel (map hashOf arr) (hashOf v) lo hi i j = pm (part_loop (hash_lt hashOf) fuel arr v lo hi i j).
  Proof.
    clear. induction fuel; intros; simpl; auto. rewrite map_length, scan_up_er.
    destruct (scan_up _ _ _ _ _ _); simpl; auto. rewrite scan_down_er. destruct (scan_down _ _ _ _ _ _); simpl; auto.
    destruct (n0 =? 0); auto. destruct (n0 - 1 <=? n + 1); auto. rewrite !map_nth_error'.
    destruct (nth_error arr (n + 1)), (nth_error arr (n0 - 1)); simpl; auto. rewrite <- swap_er. auto.
  Qed.

  Lemma partition_er arr lo hi : partition (hash_lt tid) (map hashOf arr) lo hi = pm (partition (hash_lt hashOf) arr lo hi).
  Proof.
    clear. unfold partition. rewrite map_nth_error'. destruct (nth_error arr lo); simpl; auto.
    rewrite map_length, part_loop_er. destruct (part_loop _ _ _ _ _ _ _ _) as [[a j]|]; simpl; auto.
    rewrite map_nth_error'. destruct (nth_error a j); simpl; auto. unfold pm. simpl. rewrite swap_er. auto.
  Qed.

  Lemma qs_loop_er fuel : forall arr lo hi p,
    qs_loop (hash_lt tid) fuel (map hashOf arr) lo hi p = qm (qs_loop (hash_lt hashOf) fuel arr lo hi p).
  Proof.
    clear. induction fuel; intros; simpl; auto. destruct (lo <? hi).
    - rewrite partition_er. destruct (partition _ _ _ _) as [[a j]|]; simpl; auto.
      destruct (j =? p). { rewrite map_nth_error'. destruct (nth_error a p); auto. }
      destruct (p <? j); auto.
    - rewrite map_nth_error'. destruct (nth_error arr p); auto.
  Qed.

  Lemma quick_select_er arr lo hi p :
    quick_select (hash_lt tid) (map hashOf arr) lo hi p = qm (quick_select (hash_lt hashOf) arr lo hi p).
  Proof. clear. apply qs_loop_er. Qed.

  Lemma first_free_er l : forall i, first_free tid (map hashOf l) i = first_free hashOf l i.
  Proof. clear. induction l; intros i; simpl; auto. change (tid (hashOf a)) with (hashOf a). destruct (_ =? _)%N; auto. Qed.

  Lemma consolidate_loop_er js : forall es i num,
    consolidate_loop tid 0%N js (map hashOf es) i num = option_map (map hashOf) (consolidate_loop hashOf zeroE js es i num).
  Proof.
    induction js as [|j js IH]; intros es i num; simpl; auto. rewrite map_nth_error'.
    destruct (nth_error es j); simpl; auto. change (tid (hashOf e)) with (hashOf e). destruct (_ =? 0)%N; auto.
    rewrite map_length. destruct (i <? length es); auto.
    rewrite <- zero_hash, <- !map_upd. destruct (_ =? num); auto. rewrite zero_hash. auto.
  Qed.

  Lemma consolidate_er es size num :
    consolidate tid 0%N (map hashOf es) size num = option_map (map hashOf) (consolidate hashOf zeroE es size num).
  Proof. unfold consolidate. rewrite firstn_map, first_free_er. apply consolidate_loop_er. Qed.

  Lemma rebuild_er t : rebuild tid 0%N (er t) = option_map er (rebuild hashOf zeroE t).
  Proof.
    unfold rebuild. simpl. rewrite consolidate_er. destruct (consolidate _ _ _ _ _) as [es|]; simpl; auto.
    rewrite map_length. destruct (_ <? _); auto. rewrite firstn_map, quick_select_er.
    destruct (quick_select _ _ _ _ _) as [[pre x]|]; simpl; auto.
    rewrite skipn_map, <- map_app, map_nth_error'. destruct (nth_error _ _) as [p|]; simpl; auto.
    rewrite firstn_map, <- repeat_er, reinsert_fold_er'. destruct (fold_left _ _ _); simpl; auto.
  Qed.

  Lemma insert_er t i e : insert tid 0%N (er t) i (hashOf e) = option_map er (insert hashOf zeroE t i e).
  Proof.
    unfold insert. simpl. rewrite map_length. destruct (i <? _); auto.
    rewrite <- map_upd.
    match goal with |- context [if ?c then (if ?d then resize _ _ ?t1 else _) else _] => set (te := t1) end.
    set (t1 := mkTable (upd i e _) _ _ _ _ _ _ _).
    change te with (er t1). rewrite resize_er, rebuild_er.
    destruct (_ <? _); auto. destruct (_ <=? _)%N; auto.
  Qed.

  Lemma trim_er t : trim tid 0%N (er t) = option_map er (trim hashOf zeroE t).
  Proof. unfold trim. simpl. rewrite rebuild_er. destruct (_ <? _); auto. Qed.

  Lemma reset_er t : reset 0%N (er t) = er (reset zeroE t).
  Proof. unfold reset, er. simpl. rewrite repeat_er, map_length. auto. Qed.

  Lemma live_er es : live tid (map hashOf es) = map hashOf (live hashOf es).
  Proof. clear. unfold live. apply filter_er. reflexivity. Qed.

  Lemma tok_er lg es : tok tid lg (map hashOf es) <-> tok hashOf lg es.
  Proof.
    clear. unfold tok, table_ok. rewrite map_length.
    assert (Hk : forall e, kof tid (hashOf e) = kof hashOf e) by reflexivity.
    assert (Hocc : forall s, occ (kof tid) (map hashOf es) s <-> occ (kof hashOf) es s).
    { intros s. unfold occ. rewrite map_nth_error'. destruct (nth_error es s) as [e|]; simpl; split; intros (a & H1 & H2); try discriminate;
        inversion H1; subst; eexists; split; eauto. }
    split; intros (H1 & H2 & H3); (split; [auto|]); split.
    - intros s a k Ha Hka. destruct (H2 s (hashOf a) k) as (j & Hj & Ej & Hp); auto. { rewrite map_nth_error', Ha; auto. }
      exists j. split; auto. split; auto. intros j' Hj'. apply Hocc. auto.
    - intros a b x y k Ha Hb Hx Hy. apply (H3 a b (hashOf x) (hashOf y) k); auto; rewrite map_nth_error', ?Ha, ?Hb; auto.
    - intros s a k Ha Hka. rewrite map_nth_error' in Ha. destruct (nth_error es s) as [e|] eqn:Ee; inversion Ha; subst.
      destruct (H2 s e k) as (j & Hj & Ej & Hp); auto.
      exists j. split; auto. split; auto. intros j' Hj'. apply Hocc. auto.
    - intros a b x y k Ha Hb Hx Hy. rewrite map_nth_error' in Ha, Hb.
      destruct (nth_error es a) as [e|] eqn:Ee; inversion Ha; subst. destruct (nth_error es b) as [e'|] eqn:Ee'; inversion Hb; subst.
      eapply H3; eauto.
  Qed.

  (** ** No table operation invents an entry. *)
  Lemma upd_In {A} (l : list A) i x y : In y (upd i x l) -> y = x \/ In y l.
  Proof. clear. revert i; induction l; intros [|i]; simpl; try tauto; intros [<-|H]; auto. destruct (IHl _ H); auto. Qed.

  Lemma reinsert_fold_incl lg l : forall es es', fold_left (reinsert hashOf lg) l (Some es) = Some es' ->
    forall x, In x es' -> In x l \/ In x es.
  Proof.
    clear. assert (Hn : forall l, fold_left (reinsert hashOf lg) l None = None) by (induction l0; auto).
    induction l as [|e r IH]; intros es es' H x Hx; simpl in H.
    { inversion H; subst; auto. }
    destruct (find_index hashOf es lg (hashOf e)) as [i|]; [|rewrite Hn in H; discriminate].
    destruct (i <? length es); [|rewrite Hn in H; discriminate].
    destruct (IH _ _ H x Hx) as [Hr|Hr]; simpl; auto. apply upd_In in Hr. destruct Hr; subst; auto.
  Qed.

  Lemma consolidate_loop_incl js : forall es i num es', consolidate_loop hashOf zeroE js es i num = Some es' ->
    forall x, In x es' -> x = zeroE \/ In x es.
  Proof.
    clear. induction js as [|j js IH]; intros es i num es' H x Hx; simpl in H.
    { inversion H; subst; auto. }
    destruct (nth_error es j) as [e|] eqn:Ej; [|discriminate]. destruct (_ =? 0)%N; [eapply IH; eauto|].
    destruct (i <? length es); [|discriminate].
    assert (Hu : In x (upd j zeroE (upd i e es)) -> x = zeroE \/ In x es).
    { intros Hu. apply upd_In in Hu. destruct Hu as [?|Hu]; auto. apply upd_In in Hu. destruct Hu as [->|?]; auto.
      right. eapply nth_error_In; eauto. }
    destruct (_ =? num). { inversion H; subst; auto. }
    destruct (IH _ _ _ _ H x Hx); auto.
  Qed.

  Lemma part_loop_perm fuel (lt : E -> E -> bool) : forall arr v lo hi i j arr' k,
    part_loop lt fuel arr v lo hi i j = Some (arr', k) -> Permutation arr arr'.
  Proof.
    clear. induction fuel; intros arr v lo hi i j arr' k H; simpl in H; [discriminate|].
    destruct (scan_up _ _ _ _ _ _) as [i1|]; [|discriminate]. destruct (scan_down _ _ _ _ _ _) as [j1|]; [|discriminate].
    destruct (j1 =? 0); [discriminate|]. destruct (_ <=? _). { inversion H; subst; auto. }
    destruct (nth_error arr (i1 + 1)); [|discriminate]. destruct (nth_error arr (j1 - 1)); [|discriminate].
    apply IHfuel in H. rewrite <- H. apply swap_Permutation.
  Qed.

  Lemma qs_loop_perm fuel (lt : E -> E -> bool) : forall arr lo hi p arr' x,
    qs_loop lt fuel arr lo hi p = Some (arr', x) -> Permutation arr arr'.
  Proof.
    clear. induction fuel; intros arr lo hi p arr' x H; simpl in H; [discriminate|].
    destruct (lo <? hi).
    - destruct (partition lt arr lo hi) as [[a j]|] eqn:Ep; [|discriminate].
      assert (Hp : Permutation arr a).
      { unfold partition in Ep. destruct (nth_error arr lo); [|discriminate].
        destruct (part_loop _ _ _ _ _ _ _ _) as [[b m]|] eqn:Eb; [|discriminate]. apply part_loop_perm in Eb.
        destruct (nth_error b m); [|discriminate]. inversion Ep; subst. rewrite Eb. apply swap_Permutation. }
      rewrite Hp. destruct (j =? p). { destruct (nth_error a p); inversion H; subst; auto. }
      destruct (p <? j); eapply IHfuel; eauto.
    - destruct (nth_error arr p); inversion H; subst; auto.
  Qed.

  Lemma resize_incl t t' : resize hashOf zeroE t = Some t' ->
    forall x, In x (t_entries t') -> x = zeroE \/ In x (t_entries t).
  Proof.
    clear. unfold resize. destruct (_ =? _); [|discriminate].
    destruct (fold_left _ _ _) as [es|] eqn:E1; [|discriminate]. intros H x Hx. inversion H; subst. simpl in Hx.
    destruct (reinsert_fold_incl _ _ _ _ E1 x Hx) as [Hr|Hr].
    - apply filter_In in Hr. tauto.
    - apply repeat_spec in Hr. auto.
  Qed.

  Lemma rebuild_incl t t' : rebuild hashOf zeroE t = Some t' ->
    forall x, In x (t_entries t') -> x = zeroE \/ In x (t_entries t).
  Proof.
    clear. unfold rebuild. destruct (consolidate _ _ _ _ _) as [es|] eqn:Ec; [|discriminate].
    destruct (_ <? _); [discriminate|]. destruct (quick_select _ _ _ _ _) as [[pre y]|] eqn:Eq; [|discriminate].
    destruct (nth_error _ _); [|discriminate]. destruct (fold_left _ _ _) as [es'|] eqn:E1; [|discriminate].
    intros H x Hx. inversion H; subst. simpl in Hx.
    destruct (reinsert_fold_incl _ _ _ _ E1 x Hx) as [Hr|Hr].
    - assert (Hin : In x es).
      { apply firstn_In in Hr. apply in_app_iff in Hr. destruct Hr as [Hr|Hr].
        - apply qs_loop_perm in Eq. symmetry in Eq. eapply Permutation_in in Hr; [|exact Eq]. apply firstn_In in Hr. auto.
        - rewrite <- (firstn_skipn (t_num t) es). apply in_app_iff. auto. }
      eapply consolidate_loop_incl; eauto.
    - apply repeat_spec in Hr. auto.
  Qed.

  Lemma insert_incl t i e t' : insert hashOf zeroE t i e = Some t' ->
    forall x, In x (t_entries t') -> x = zeroE \/ x = e \/ In x (t_entries t).
  Proof.
    clear. unfold insert. destruct (i <? _); [|discriminate].
    set (t1 := mkTable (upd i e _) _ _ _ _ _ _ _). intros H x Hx.
    assert (Hm : x = zeroE \/ In x (t_entries t1) -> x = zeroE \/ x = e \/ In x (t_entries t)).
    { intros [?|Hu]; auto. simpl in Hu. apply upd_In in Hu. tauto. }
    destruct (_ <? _); [|inversion H; subst; auto]. destruct (_ <=? _)%N.
    - apply Hm. eapply resize_incl; eauto.
    - apply Hm. eapply rebuild_incl; eauto.
  Qed.

  Lemma trim_incl t t' : trim hashOf zeroE t = Some t' ->
    forall x, In x (t_entries t') -> x = zeroE \/ In x (t_entries t).
  Proof.
    clear. unfold trim. destruct (_ <? _); [apply rebuild_incl|]. intros H x Hx. inversion H; subst; auto.
  Qed.
End Erase.

Section TP.
  Context {S V : Type}.
  Variable s0 : S.
  Notation ent := (ent S).
  Notation ter := (er (E := ent) ehash).
  Notation tab := (table ent).
  Notation elive := (live (E := ent) ehash).

  Lemma zent_hash : ehash (zent s0) = 0%N.
  Proof. reflexivity. Qed.

  Lemma elive_In (x : ent) es : In x (elive es) <-> In x es /\ fst x <> 0%N.
  Proof. clear s0. apply live_In. Qed.

  Lemma set_entries_er (t : tab) i e s : nth_error (t_entries t) i = Some e ->
    ter (set_entries t (upd i (fst e, s) (t_entries t))) = ter t.
  Proof.
    clear s0. intros H. unfold er, set_entries. simpl. f_equal. rewrite map_upd. apply upd_same.
    rewrite map_nth_error', H. reflexivity.
  Qed.

  Lemma nonempty_er (t : tab) : ter (tup_nonempty t) = set_nonempty (ter t).
  Proof. clear s0. reflexivity. Qed.

  (** replacing the summary of a found entry *)
  Lemma upd_found lg (es : list ent) i e s x : tok ehash lg es -> nth_error es i = Some e -> fst e <> 0%N ->
    In x (elive (upd i (fst e, s) es)) -> x = (fst e, s) \/ (In x (elive es) /\ fst x <> fst e).
  Proof.
    clear s0. intros (_ & _ & Hu) He Hnz Hx. apply elive_In in Hx. destruct Hx as [Hx Hxz].
    apply In_nth_error in Hx. destruct Hx as [j Hj]. rewrite nth_error_upd in Hj.
    destruct (Nat.eq_dec j i) as [->|Hji].
    - rewrite Nat.eqb_refl in Hj. destruct (i <? length es); inversion Hj; auto.
    - assert (Hj' : nth_error es j = Some x).
      { destruct (i =? j) eqn:C; [apply Nat.eqb_eq in C; congruence|]. auto. }
      right. split; [apply elive_In; split; auto; eapply nth_error_In; eauto|].
      intros C. apply Hji. apply (Hu j i x e (fst e)); auto; unfold kof, ehash.
      + rewrite C. destruct (N.eqb_spec (fst e) 0); [tauto|auto].
      + destruct (N.eqb_spec (fst e) 0); [tauto|auto].
  Qed.

  (** find on a table whose erasure is well formed *)
  Lemma tfind_cases (t : tab) h : tok tid (t_lgCur t) (map ehash (t_entries t)) ->
    length (live tid (map ehash (t_entries t))) < pow2 (t_lgCur t) -> h <> 0%N ->
    (exists i s, find ehash (t_entries t) (t_lgCur t) h = PFound i /\ nth_error (t_entries t) i = Some (h, s) /\
       In (h, s) (elive (t_entries t))) \/
    (exists i, find ehash (t_entries t) (t_lgCur t) h = PEmpty i /\ (forall s, ~ In (h, s) (elive (t_entries t))) /\
       ~ In h (live tid (map ehash (t_entries t)))).
  Proof.
    intros Ht Hl Hh. apply (proj1 (tok_er ehash _ _)) in Ht. rewrite live_er, map_length in Hl.
    destruct (find_cases ehash (zent s0) zent_hash (t_lgCur t) (t_entries t) h Ht Hl) as
      [(i & e & Hf & He & Hhe & _)|(i & Hf & Hi & Hnot & _)].
    - left. destruct e as [h' s]. simpl in Hhe. subst h'. exists i, s. split; auto. split; auto.
      apply elive_In. split; auto. eapply nth_error_In; eauto.
    - right. exists i. split; auto. split.
      + intros s C. apply (Hnot _ C). reflexivity.
      + intros C. rewrite live_er in C. apply in_map_iff in C. destruct C as (e & He & Hin). apply (Hnot _ Hin He).
  Qed.

  Lemma UInv_find lgK rf th0 (t : tab) sn em h : UInv lgK rf th0 (ter t) sn em -> h <> 0%N ->
    (exists i s, find ehash (t_entries t) (t_lgCur t) h = PFound i /\ nth_error (t_entries t) i = Some (h, s) /\
       In (h, s) (elive (t_entries t))) \/
    (exists i, find ehash (t_entries t) (t_lgCur t) h = PEmpty i /\ (forall s, ~ In (h, s) (elive (t_entries t))) /\
       ~ In h (live tid (map ehash (t_entries t)))).
  Proof.
    intros I Hh. assert (Hcap := capacity_lt (t_lgCur t) (t_lgNom t)).
    pose proof (ui_num _ _ _ _ _ _ I) as Hn. pose proof (ui_cap _ _ _ _ _ _ I) as Hc. pose proof (ui_tok _ _ _ _ _ _ I) as Ht.
    cbn [er t_num t_entries t_lgCur t_lgNom] in Hn, Hc, Ht.
    apply tfind_cases; auto. lia.
  Qed.

  Lemma UInv_tok lgK rf th0 (t : tab) sn em : UInv lgK rf th0 (ter t) sn em -> tok ehash (t_lgCur t) (t_entries t).
  Proof. clear s0. intros I. apply tok_er. apply (ui_tok _ _ _ _ _ _ I). Qed.

  Lemma UInv_mem lgK rf th0 (t : tab) sn em h s : UInv lgK rf th0 (ter t) sn em -> In (h, s) (elive (t_entries t)) ->
    In h sn /\ h <> 0%N /\ (h < t_theta t)%N.
  Proof.
    clear s0. intros I Hin. apply (ui_mem _ _ _ _ _ _ I). simpl. rewrite live_er. apply in_map_iff. exists (h, s). auto.
  Qed.

  (** entries in a table after an insertion *)
  Lemma insert_elive (t : tab) i e t' : insert ehash (zent s0) t i e = Some t' ->
    forall x, In x (elive (t_entries t')) -> x = e \/ In x (elive (t_entries t)).
  Proof.
    intros H x Hx. apply elive_In in Hx. destruct Hx as [Hx Hz].
    destruct (insert_incl _ _ _ _ _ _ H x Hx) as [->|[?|?]]; auto; [simpl in Hz; tauto|]. right. apply elive_In. auto.
  Qed.

  (** ** Update sketch *)
  Definition eop (op : tupop V) : uop :=
    match op with TUpdate h _ => OpUpdate h | TEmptyString _ => OpEmptyString | TTrim => OpTrim | TReset => OpReset end.

  (** the (hash, value) pairs presented since the last Reset *)
  Definition hist_step (acc : list (N * V)) (op : tupop V) : list (N * V) :=
    match op with TUpdate h v => acc ++ [(h, v)] | TReset => [] | _ => acc end.
  Definition vals (h : N) (hist : list (N * V)) : list V := map snd (filter (fun p => (fst p =? h)%N) hist).

  Lemma vals_app h a b : vals h (a ++ b) = vals h a ++ vals h b.
  Proof. clear s0. unfold vals. rewrite filter_app, map_app. auto. Qed.
  Lemma vals_one h h' v : vals h [(h', v)] = if (h' =? h)%N then [v] else [].
  Proof. clear s0. unfold vals. simpl. destruct (h' =? h)%N; auto. Qed.
  Lemma vals_nil h hist : ~ In h (map fst hist) -> vals h hist = [].
  Proof.
    clear s0. intros H. induction hist as [|[a v] r IH]; auto. unfold vals in *. simpl in *.
    destruct (N.eqb_spec a h); [subst; tauto|]. apply IH. tauto.
  Qed.

  Variable upf : S -> V -> S.
  Variable mk : S.

  Definition SInv (t : tab) (hist : list (N * V)) : Prop :=
    forall h s, In (h, s) (elive (t_entries t)) -> s = fold_left upf (vals h hist) mk.

  Definition terr (e : uerr) : uerr := match e with UErrDuplicate => UNil | _ => e end.

  Lemma tup_update_ok lgK rf th0 t hist em h v : (MinLgK <= lgK)%N -> (rf <= 3)%N ->
    UInv lgK rf th0 (ter t) (map fst hist) em -> SInv t hist ->
    exists t' e, tup_update s0 upf mk t h v = Some (t', terr e) /\ update (ter t) h = Some (ter t', e) /\
      SInv t' (hist ++ [(h, v)]).
  Proof.
    intros HK Hrf I0 HS. pose proof (set_nonempty_inv _ _ _ _ _ _ I0) as I. rewrite <- nonempty_er in I.
    unfold tup_update, update. rewrite <- nonempty_er. cbv zeta.
    set (t1 := tup_nonempty t) in *.
    assert (Ee : t_entries t1 = t_entries t) by reflexivity.
    assert (HS1 : SInv t1 hist) by exact HS. clearbody t1.
    change (t_theta (ter t1)) with (t_theta t1). change (t_entries (ter t1)) with (map ehash (t_entries t1)).
    change (t_lgCur (ter t1)) with (t_lgCur t1).
    assert (Habs : forall h', (h' = 0 \/ t_theta t1 <= h')%N -> SInv t1 (hist ++ [(h', v)])).
    { intros h' Hh' x s Hx. rewrite (HS1 _ _ Hx), vals_app, vals_one. apply (UInv_mem _ _ _ _ _ _ _ _ I) in Hx.
      destruct (N.eqb_spec h' x); [subst; lia|]. rewrite app_nil_r. auto. }
    destruct (N.leb_spec (t_theta t1) h) as [Hge|Hlt].
    { exists t1, UErrExceedsTheta. auto. }
    destruct (N.eqb_spec h 0) as [Hz|Hnz].
    { exists t1, UErrZeroHash. auto. }
    rewrite find_er.
    destruct (UInv_find _ _ _ _ _ _ h I Hnz) as [(i & s & Hf & Hn & Hin)|(i & Hf & Hno & Hno')]; rewrite Hf.
    - rewrite Hn. eexists _, UErrDuplicate. split; [reflexivity|]. split; [rewrite (set_entries_er t1 i (h, s)) by auto; reflexivity|].
      intros x sx Hx. simpl in Hx. rewrite vals_app, vals_one.
      apply (upd_found (t_lgCur t1) _ _ (h, s)) in Hx; auto; [|eapply UInv_tok; eauto].
      destruct Hx as [E|[Hx Hne]].
      + inversion E; subst. rewrite N.eqb_refl, fold_left_app. simpl. rewrite (HS1 _ _ Hin). auto.
      + simpl in Hne. destruct (N.eqb_spec h x); [congruence|]. rewrite app_nil_r. auto.
    - pose proof (insert_er ehash (zent s0) zent_hash t1 i (h, upf mk v)) as Her. cbn [ehash fst] in Her. rewrite Her.
      destruct (insert_inv lgK rf th0 (ter t1) (map fst hist) h i) as (t'' & Hi & _ & _); auto.
      { simpl. rewrite find_er. auto. }
      rewrite Her in Hi.
      destruct (insert ehash (zent s0) t1 i (h, upf mk v)) as [t'|] eqn:Ei; [|discriminate].
      exists t', UNil. split; auto. split; auto.
      intros x sx Hx. rewrite vals_app, vals_one. destruct (insert_elive _ _ _ _ Ei _ Hx) as [E|Hx'].
      + inversion E; subst. rewrite N.eqb_refl, vals_nil; auto. intros C. apply Hno'.
        apply (ui_mem _ _ _ _ _ _ I). auto.
      + destruct (N.eqb_spec h x); [subst; exfalso; eapply Hno; eauto|]. rewrite app_nil_r. auto.
  Qed.

  Lemma tup_step_ok lgK rf th0 t hist em op : (MinLgK <= lgK)%N -> (rf <= 3)%N ->
    UInv lgK rf th0 (ter t) (map fst hist) em -> SInv t hist ->
    exists t' e em', tup_step s0 upf mk t op = Some (t', terr e) /\ ustep (ter t) (eop op) = Some (ter t', e) /\
      UInv lgK rf th0 (ter t') (map fst (hist_step hist op)) em' /\ SInv t' (hist_step hist op).
  Proof.
    intros HK Hrf I HS. destruct op as [h v|v| |]; simpl.
    - destruct (tup_update_ok lgK rf th0 t hist em h v) as (t' & e & E1 & E2 & E3); auto.
      exists t', e, false. split; auto. split; auto. split; auto.
      destruct (update_inv lgK rf th0 (ter t) (map fst hist) em h) as (t2 & e2 & E4 & I2 & _); auto.
      rewrite E2 in E4. inversion E4; subst. rewrite map_app. exact I2.
    - exists t, UErrEmptyString, em. auto.
    - rewrite (trim_er ehash (zent s0) zent_hash).
      destruct (trim_inv lgK rf th0 (ter t) (map fst hist) em) as (t2 & E1 & I2 & _); auto.
      rewrite (trim_er ehash (zent s0) zent_hash) in E1.
      destruct (trim ehash (zent s0) t) as [t'|] eqn:Et; inversion E1; subst.
      exists t', UNil, em. do 3 (split; auto).
      intros h s Hs. apply elive_In in Hs. destruct Hs as [Hs Hz].
      destruct (trim_incl _ _ _ _ Et _ Hs) as [C|Hs']; [inversion C; subst; simpl in Hz; tauto|].
      apply HS. apply elive_In. auto.
    - rewrite (reset_er ehash (zent s0) zent_hash). exists (reset (zent s0) t), UNil, true. split; auto. split; auto. split.
      + rewrite <- (reset_er ehash (zent s0) zent_hash). eapply reset_inv; eauto.
      + intros h s Hs. apply elive_In in Hs. destruct Hs as [Hs Hz]. simpl in Hs. apply repeat_spec in Hs.
        inversion Hs; subst. simpl in Hz. tauto.
  Qed.

  Lemma tup_run_ok lgK rf th0 : (MinLgK <= lgK)%N -> (rf <= 3)%N -> forall ops t hist em,
    UInv lgK rf th0 (ter t) (map fst hist) em -> SInv t hist ->
    exists t' em', tup_run s0 upf mk t ops = Some t' /\ urun (ter t) (map eop ops) = Some (ter t') /\
      UInv lgK rf th0 (ter t') (map fst (fold_left hist_step ops hist)) em' /\ SInv t' (fold_left hist_step ops hist).
  Proof.
    intros HK Hrf. induction ops as [|op r IH]; intros t hist em I HS; simpl.
    { exists t, em. auto. }
    destruct (tup_step_ok lgK rf th0 t hist em op) as (t1 & e & em1 & -> & -> & I1 & HS1); auto.
    eapply IH; eauto.
  Qed.

  Lemma tup_new_er lgK rf th0 : ter (tup_new s0 lgK rf th0) = new_update_sketch lgK rf th0.
  Proof.
    unfold er, tup_new, new_update_sketch, new_table. simpl. destruct (0 <? _)%N; auto.
    rewrite (repeat_er ehash (zent s0) zent_hash). auto.
  Qed.

  Lemma tup_new_SInv lgK rf th0 : SInv (tup_new s0 lgK rf th0) [].
  Proof.
    intros h s Hs. apply elive_In in Hs. destruct Hs as [Hs Hz]. unfold tup_new, new_table in Hs. simpl in Hs.
    destruct (0 <? _)%N; [|contradiction]. apply repeat_spec in Hs. inversion Hs; subst. simpl in Hz. tauto.
  Qed.

  (** ** Views and sorting *)
  Lemma table_all_er (t : tab) : table_all tid (ter t) = map fst (table_all ehash t).
  Proof. clear. apply (live_er ehash). Qed.

  Lemma tview_er seed (t : tab) : erase_sk (tview seed t) = view_update seed (ter t).
  Proof. clear. unfold erase_sk, tview, view_update. simpl. rewrite table_all_er. auto. Qed.

  Lemma insert_by_hash_er (x : ent) l : map fst (insert_by_hash x l) = insert_sorted (fst x) (map fst l).
  Proof. clear. induction l; simpl; auto. destruct (_ <=? _)%N; simpl; congruence. Qed.
  Lemma sort_by_hash_er (l : list ent) : map fst (sort_by_hash l) = sortN (map fst l).
  Proof. clear. induction l; simpl; auto. rewrite insert_by_hash_er. congruence. Qed.
  Lemma insert_by_hash_perm (x : ent) l : Permutation (insert_by_hash x l) (x :: l).
  Proof. clear. induction l; simpl; auto. destruct (_ <=? _)%N; auto. rewrite IHl. constructor. Qed.
  Lemma sort_by_hash_perm (l : list ent) : Permutation (sort_by_hash l) l.
  Proof. clear. induction l; simpl; auto. rewrite insert_by_hash_perm. auto. Qed.

  Lemma tcompact_er (s : tsketch S) ordered : (ts_empty s = true -> ts_entries s = []) ->
    erase_sk (tcompact s ordered) = new_compact (erase_sk s) ordered.
  Proof.
    clear. intros H. unfold erase_sk, tcompact, new_compact. simpl. f_equal. destruct (ts_empty s).
    - rewrite H by auto. simpl. destruct (ordered && _); auto.
    - destruct (ordered && _); auto. apply sort_by_hash_er.
  Qed.

  Lemma tcompact_entries_er e o seed th (l : list ent) :
    erase_sk (tcompact_entries e o seed th l) = compact_from_entries e o seed th (map fst l).
  Proof. clear. unfold erase_sk, tcompact_entries, compact_from_entries. simpl. rewrite map_length. auto. Qed.
End TP.

(** ** Set operations *)
(** the combination of the summaries of one hash, in order; the summaries given for a hash in a list of entries *)
Definition comb {S} (ap : S -> S -> S) (l : list S) : option S :=
  match l with [] => None | s :: r => Some (fold_left ap r s) end.
Definition sums {S} (h : N) (l : list (ent S)) : list S := map snd (filter (fun e => (fst e =? h)%N) l).

Section TSet.
  Context {S : Type}.
  Variable s0 : S.
  Variable ap : S -> S -> S.
  Notation ent := (ent S).
  Notation ter := (er (E := ent) ehash).
  Notation tab := (table ent).
  Notation elive := (live (E := ent) ehash).

  Lemma comb_snoc l s a : comb ap l = Some a -> comb ap (l ++ [s]) = Some (ap a s).
  Proof. clear. destruct l; simpl; [discriminate|]. intros H; inversion H; subst. rewrite fold_left_app. auto. Qed.
  Lemma sums_app h (a b : list ent) : sums h (a ++ b) = sums h a ++ sums h b.
  Proof. clear. unfold sums. rewrite filter_app, map_app. auto. Qed.
  Lemma sums_cons h (e : ent) r : sums h (e :: r) = if (fst e =? h)%N then snd e :: sums h r else sums h r.
  Proof. clear. unfold sums. simpl. destruct (_ =? _)%N; auto. Qed.
  Lemma sums_nil h (l : list ent) : ~ In h (map fst l) -> sums h l = [].
  Proof.
    clear. intros H. induction l as [|[a v] r IH]; auto. rewrite sums_cons. simpl in *.
    destruct (N.eqb_spec a h); [subst; tauto|]. apply IH. tauto.
  Qed.
  Lemma sums_In h (l : list ent) : sums h l <> [] -> In h (map fst l).
  Proof. clear. intros H. destruct (in_dec N.eq_dec h (map fst l)); auto. rewrite sums_nil in H by auto. tauto. Qed.

  Definition SU (uth : N) (t : tab) (hs : N -> list S) : Prop :=
    forall h s, In (h, s) (elive (t_entries t)) -> (h < uth)%N -> comb ap (hs h) = Some s.

  Lemma tunion_loop_ok lgK rf th0 uth ordered : (MinLgK <= lgK)%N -> (rf <= 3)%N -> forall l t sn hs,
    UInv lgK rf th0 (ter t) sn false -> (forall e, In e l -> (0 < fst e)%N) ->
    (ordered = true -> StronglySorted N.le (map fst l)) ->
    SU uth t hs -> (forall h, (h < uth)%N -> (h < t_theta t)%N -> hs h <> [] -> In h sn) ->
    exists t', tunion_loop s0 ap uth ordered l t = Some t' /\
      union_loop uth ordered (map fst l) (ter t) = Some (ter t') /\
      SU uth t' (fun h => hs h ++ sums h l).
  Proof.
    intros HK Hrf. induction l as [|[e s] r IH]; intros t sn hs I Hpos Hord HS Hcov; simpl.
    { exists t. split; auto. split; auto. intros h x Hx Hl. rewrite app_nil_r. auto. }
    change (t_theta (ter t)) with (t_theta t).
    assert (Hstop : ordered = true -> ~ ((e < uth)%N /\ (e < t_theta t)%N) -> SU uth t (fun h => hs h ++ sums h ((e, s) :: r))).
    { intros Ho Hge h x Hx Hl. rewrite sums_nil, app_nil_r; auto. intros C. specialize (Hord Ho). simpl in Hord.
      inversion Hord as [|? ? Hs Hf]; subst. rewrite Forall_forall in Hf.
      apply (UInv_mem _ _ _ _ _ _ _ _ I) in Hx. simpl in C. destruct C as [<-|C]; [lia|]. specialize (Hf _ C). lia. }
    assert (Hnext : forall t1 sn1 hs1, UInv lgK rf th0 (ter t1) sn1 false -> SU uth t1 hs1 ->
      (forall h, (h < uth)%N -> (h < t_theta t1)%N -> hs1 h <> [] -> In h sn1) ->
      exists t', tunion_loop s0 ap uth ordered r t1 = Some t' /\
        union_loop uth ordered (map fst r) (ter t1) = Some (ter t') /\
        SU uth t' (fun h => hs1 h ++ sums h r)).
    { intros t1 sn1 hs1 I1 HS1 Hc1. apply (IH t1 sn1 hs1); auto.
      - intros x Hx. apply Hpos. right; auto.
      - intros Ho. specialize (Hord Ho). simpl in Hord. inversion Hord; auto. }
    assert (Hskip : ordered = false -> ~ ((e < uth)%N /\ (e < t_theta t)%N) ->
      exists t', tunion_loop s0 ap uth ordered r t = Some t' /\
        union_loop uth ordered (map fst r) (ter t) = Some (ter t') /\ SU uth t' (fun h => hs h ++ sums h ((e, s) :: r))).
    { intros Ho Hge. destruct (Hnext t sn hs I HS Hcov) as (t' & E1 & E2 & E3). exists t'. split; auto. split; auto.
      destruct (union_loop_inv lgK rf th0 uth ordered HK Hrf (map fst r) (ter t) sn I) as (t2 & sn2 & E4 & I2 & Hle & _).
      { intros h Hh. apply in_map_iff in Hh. destruct Hh as (y & <- & Hy). apply Hpos. right; auto. }
      { intros C; congruence. }
      rewrite E2 in E4. inversion E4; subst t2.
      intros h x Hx Hl. rewrite <- (E3 h x Hx Hl). f_equal. f_equal. rewrite sums_cons. simpl.
      destruct (N.eqb_spec e h); auto. subst h. exfalso. apply (UInv_mem _ _ _ _ _ _ _ _ I2) in Hx. simpl in Hle, Hx. lia. }
    destruct ((e <? uth)%N && (e <? t_theta t)%N) eqn:Ec.
    2:{ assert (Hge : ~ ((e < uth)%N /\ (e < t_theta t)%N)).
        { intros [A B]. apply N.ltb_lt in A, B. rewrite A, B in Ec. discriminate. }
        destruct ordered; auto. exists t. auto. }
    apply andb_true_iff in Ec. rewrite !N.ltb_lt in Ec. destruct Ec as [H1 H2].
    assert (He : e <> 0%N) by (specialize (Hpos _ (or_introl eq_refl)); simpl in Hpos; lia).
    change (t_entries (ter t)) with (map ehash (t_entries t)). change (t_lgCur (ter t)) with (t_lgCur t). rewrite find_er.
    destruct (UInv_find s0 _ _ _ _ _ _ e I He) as [(i & a & Hf & Hn & Hin)|(i & Hf & Hno & Hno')]; rewrite Hf.
    - rewrite Hn. simpl.
      set (t1 := set_entries t (upd i (e, ap a s) (t_entries t))).
      assert (Et1 : ter t1 = ter t) by (apply (set_entries_er t i (e, a)); auto).
      assert (I1 : UInv lgK rf th0 (ter t1) (sn ++ [e]) false).
      { rewrite Et1. apply absorb_inv; auto. right; right. simpl. rewrite live_er. apply in_map_iff. exists (e, a). auto. }
      destruct (Hnext t1 (sn ++ [e]) (fun h => hs h ++ if (e =? h)%N then [s] else [])) as (t' & E1 & E2 & E3); auto.
      + intros h x Hx Hl. simpl in Hx. apply (upd_found (t_lgCur t) _ _ (e, a)) in Hx; auto; [|eapply UInv_tok; eauto].
        destruct Hx as [E|[Hx Hne]].
        * inversion E; subst. rewrite N.eqb_refl. apply comb_snoc. apply HS; auto.
        * simpl in Hne. destruct (N.eqb_spec e h); [congruence|]. rewrite app_nil_r. auto.
      + intros h Hl Ht Hne. apply in_app_iff. destruct (N.eqb_spec e h); [subst; simpl; auto|].
        rewrite app_nil_r in Hne. left. apply Hcov; auto.
      + exists t'. split; auto. split; [rewrite <- Et1; auto|].
        intros h x Hx Hl. rewrite <- (E3 h x Hx Hl). rewrite sums_cons, <- app_assoc. simpl.
        destruct (N.eqb_spec e h); auto.
    - pose proof (insert_er ehash (zent s0) (zent_hash s0) t i (e, s)) as Her. cbn [ehash fst] in Her. rewrite Her.
      destruct (insert_inv lgK rf th0 (ter t) sn e i) as (t'' & Hi & I1 & Hle); auto.
      { simpl. rewrite find_er. auto. }
      rewrite Her in Hi. destruct (insert ehash (zent s0) t i (e, s)) as [t1|] eqn:Ei; [|discriminate].
      simpl in Hi. inversion Hi; subst t''. simpl option_map. cbv iota. simpl in Hle.
      destruct (Hnext t1 (sn ++ [e]) (fun h => hs h ++ if (e =? h)%N then [s] else [])) as (t' & E1 & E2 & E3); auto.
      + intros h x Hx Hl. destruct (insert_elive _ _ _ _ _ Ei _ Hx) as [E|Hx'].
        * inversion E; subst. rewrite N.eqb_refl. destruct (hs e) eqn:Eh; [auto|]. exfalso. apply Hno'.
          apply (ui_mem _ _ _ _ _ _ I). split; auto. apply Hcov; auto. rewrite Eh. discriminate.
        * destruct (N.eqb_spec e h); [subst; exfalso; eapply Hno; eauto|]. rewrite app_nil_r. auto.
      + intros h Hl Ht Hne. apply in_app_iff. destruct (N.eqb_spec e h); [subst; simpl; auto|].
        rewrite app_nil_r in Hne. left. apply Hcov; auto. lia.
      + exists t'. split; auto. split; auto.
        intros h x Hx Hl. rewrite <- (E3 h x Hx Hl). rewrite sums_cons, <- app_assoc. simpl.
        destruct (N.eqb_spec e h); auto.
  Qed.

  Definition eru (u : tunion S) : union := mkUnion (ter (tu_tab u)) (tu_theta u) (tu_seed u).
  Definition hsums (ins : list (tsketch S)) (h : N) : list S := flat_map (fun s => sums h (ts_entries s)) ins.

  Record TUnInv (lgK rf th0 seed : N) (u : tunion S) (ins : list (tsketch S)) : Prop := {
    tun_inv : exists sn, UnInv lgK rf th0 seed (eru u) (map erase_sk ins) sn;
    tun_sum : SU (tu_theta u) (tu_tab u) (hsums ins);
  }.

  Lemma hsums_app ins s h : hsums (ins ++ [s]) h = hsums ins h ++ sums h (ts_entries s).
  Proof. clear. unfold hsums. rewrite flat_map_app. simpl. rewrite app_nil_r. auto. Qed.

  Lemma hsums_hash ins h : hsums ins h <> [] -> In h (all_hashes (map erase_sk ins)).
  Proof.
    clear. unfold hsums, all_hashes. intros H. apply in_flat_map.
    induction ins as [|s r IH]; simpl in *; [tauto|].
    destruct (sums h (ts_entries s)) eqn:E.
    - destruct (IH H) as (x & Hx & Hh). eauto.
    - exists (erase_sk s). split; auto. apply (sums_In h (ts_entries s)). rewrite E. discriminate.
  Qed.

  Lemma new_tunion_inv lgK rf th0 seed : (MinLgK <= lgK)%N -> (rf <= 3)%N ->
    TUnInv lgK rf th0 seed (new_tunion s0 lgK rf th0 seed) [].
  Proof.
    intros HK Hrf. constructor.
    - exists []. unfold eru, new_tunion. simpl. rewrite tup_new_er. apply new_union_inv; auto.
    - intros h s Hs. exfalso. apply elive_In in Hs. destruct Hs as [Hs Hz]. unfold new_tunion, tup_new, new_table in Hs. simpl in Hs.
      destruct (0 <? _)%N; [|contradiction]. apply repeat_spec in Hs. inversion Hs; subst. simpl in Hz. tauto.
  Qed.

  Lemma tunion_update_ok lgK rf th0 seed u ins s : (MinLgK <= lgK)%N -> (rf <= 3)%N ->
    TUnInv lgK rf th0 seed u ins -> wf_sketch (erase_sk s) -> (ts_empty s = true \/ ts_seed s = seed) ->
    exists u', tunion_update s0 ap u s = Some u' /\ union_update (eru u) (erase_sk s) = Some (eru u') /\
      TUnInv lgK rf th0 seed u' (ins ++ [s]).
  Proof.
    intros HK Hrf [[sn I] HS] W Hseed.
    destruct (union_update_inv lgK rf th0 seed (eru u) (map erase_sk ins) sn (erase_sk s)) as (u1 & sn1 & E1 & I1 & Hle); auto.
    assert (Hx : exists u', tunion_update s0 ap u s = Some u' /\ union_update (eru u) (erase_sk s) = Some (eru u') /\
       SU (tu_theta u') (tu_tab u') (hsums (ins ++ [s]))).
    2:{ destruct Hx as (u' & A & B & C). exists u'. split; auto. split; auto. constructor; auto. exists sn1.
        rewrite map_app. rewrite E1 in B. inversion B; subst. auto. }
    unfold tunion_update, union_update in *. simpl sk_empty in *. destruct (ts_empty s) eqn:Ee.
    { exists u. split; auto. split; auto. intros h x Hx Hl. rewrite hsums_app.
      destruct (wf_empty _ W Ee) as [He _]. simpl in He. rewrite (sums_nil h (ts_entries s)); [rewrite app_nil_r; auto|].
      rewrite He. auto. }
    simpl u_seed in *. simpl sk_seed in *. destruct (negb (tu_seed u =? ts_seed s)%N) eqn:Es; [discriminate|].
    simpl u_theta in *. simpl sk_theta in *. set (th := N.min (tu_theta u) (ts_theta s)) in *. cbv zeta in *.
    simpl sk_ordered in *. simpl u_tab in *. simpl sk_entries in *. rewrite <- nonempty_er in *.
    destruct (tunion_loop_ok lgK rf th0 th (ts_ordered s) HK Hrf (ts_entries s) (tup_nonempty (tu_tab u)) sn (hsums ins))
      as (t' & A & B & C).
    - rewrite nonempty_er. eapply set_nonempty_inv. apply I.
    - intros e He. apply (wf_range _ W (fst e)). simpl. apply in_map. auto.
    - apply W.
    - intros h x Hx Hl. apply HS; auto. unfold th in Hl. lia.
    - intros h Hl Ht Hne. simpl in Ht. apply (un_mem _ _ _ _ _ _ _ I); [apply hsums_hash; auto|]. simpl. unfold th in Hl. lia.
    - rewrite A, B in *. eexists. split; [reflexivity|]. split; [reflexivity|]. simpl.
      intros h x Hx Hl. rewrite hsums_app. apply C; auto. lia.
  Qed.

  Lemma tunion_reset_ok lgK rf th0 seed u ins : (MinLgK <= lgK)%N -> (rf <= 3)%N ->
    TUnInv lgK rf th0 seed u ins -> TUnInv lgK rf th0 seed (tunion_reset s0 u) [].
  Proof.
    intros HK Hrf [[sn I] HS]. constructor.
    - exists []. unfold eru, tunion_reset. simpl tu_tab. simpl tu_theta. simpl tu_seed.
      pose proof (union_reset_inv _ _ _ _ _ _ _ HK Hrf I) as J. unfold union_reset, eru in J. simpl u_tab in J. simpl u_seed in J.
      rewrite (reset_er ehash (zent s0) (zent_hash s0)) in J. exact J.
    - intros h s Hs. exfalso. apply elive_In in Hs. destruct Hs as [Hs Hz]. simpl in Hs. apply repeat_spec in Hs.
      inversion Hs; subst. simpl in Hz. tauto.
  Qed.

  Lemma tunion_result_er u ordered : option_map erase_sk (tunion_result u ordered) = union_result (eru u) ordered.
  Proof.
    clear. unfold tunion_result, union_result. simpl u_tab. simpl t_empty. destruct (t_empty (tu_tab u)); auto.
    simpl t_theta. simpl u_theta. simpl t_lgNom. simpl t_entries. cbv zeta.
    set (th := N.min _ _).
    set (es := if (_ <=? _)%N then filter _ (t_entries (tu_tab u)) else _).
    match goal with |- _ = match (if _ <? length ?x then _ else _) with _ => _ end => set (es' := x) end.
    assert (Hes : es' = map fst es).
    { unfold es', es. destruct (_ <=? _)%N; apply filter_er; reflexivity. }
    rewrite Hes. rewrite map_length. change (t_lgNom (ter (tu_tab u))) with (t_lgNom (tu_tab u)).
    set (n := pow2 (t_lgNom (tu_tab u))).
    match goal with |- option_map _ match (if ?c then _ else _) with _ => _ end = _ => set (b := c) end.
    match goal with |- _ = match (if ?c then _ else _) with _ => _ end => change c with b end.
    clearbody b. destruct b; simpl.
    - change (map fst es) with (map ehash es). rewrite quick_select_er.
      destruct (quick_select _ _ _ _ _) as [[a y]|]; simpl; auto. rewrite map_nth_error'.
      destruct (nth_error a _) as [z|]; simpl; auto. rewrite tcompact_entries_er.
      rewrite firstn_map. destruct ordered; rewrite ?sort_by_hash_er; auto.
    - rewrite tcompact_entries_er. destruct ordered; rewrite ?sort_by_hash_er; auto.
  Qed.

  Lemma tunion_result_sum lgK rf th0 seed u ins ordered r : TUnInv lgK rf th0 seed u ins ->
    tunion_result u ordered = Some r -> forall h s, In (h, s) (ts_entries r) -> comb ap (hsums ins h) = Some s.
  Proof.
    clear s0. intros [[sn I] HS] E h s Hs. 
    assert (Hin : In (h, s) (elive (t_entries (tu_tab u))) /\ (h < tu_theta u)%N).
    { unfold tunion_result in E. destruct (t_empty (tu_tab u)). { inversion E; subst. contradiction. }
      cbv zeta in E.
      set (es := if (_ <=? _)%N then filter _ (t_entries (tu_tab u)) else _) in E.
      assert (Hes : forall e, In e es -> In e (elive (t_entries (tu_tab u))) /\ (fst e < tu_theta u)%N).
      { intros e He. unfold es in He. destruct (N.leb_spec (t_theta (tu_tab u)) (tu_theta u)).
        - apply filter_In in He. destruct He as [He Hz]. destruct (N.eqb_spec (ehash e) 0); [discriminate|].
          assert (Hl : In e (elive (t_entries (tu_tab u)))) by (apply elive_In; auto). split; auto.
          destruct e as [he se]. apply (UInv_mem _ _ _ _ _ _ _ _ (un_tab _ _ _ _ _ _ _ I)) in Hl. simpl in *. lia.
        - apply filter_In in He. destruct He as [He Hz]. apply andb_true_iff in Hz. destruct Hz as [Hz Hl].
          destruct (N.eqb_spec (ehash e) 0); [discriminate|]. apply N.ltb_lt in Hl. unfold ehash in Hl.
          split; [apply elive_In; auto|]. lia. }
      assert (Hfin : forall e, (exists th l, In e l /\ (forall y, In y l -> In y es) /\
         r = tcompact_entries false ordered (tu_seed u) th (if ordered then sort_by_hash l else l)) -> In e es) by (intros e (th & l & A & B & _); auto).
      clear Hfin.
      assert (Hl : exists th l, (forall y, In y l -> In y es) /\
         r = tcompact_entries false ordered (tu_seed u) th (if ordered then sort_by_hash l else l)).
      { destruct (_ <? length es).
        - destruct (quick_select _ _ _ _ _) as [[a y]|] eqn:Eq; [|discriminate]. destruct (nth_error a _); [|discriminate].
          inversion E; subst. eexists _, _. split; [|reflexivity]. intros z Hz. apply firstn_In in Hz.
          eapply Permutation_in; [|exact Hz]. symmetry. eapply qs_loop_perm. exact Eq.
        - inversion E; subst. eexists _, _. split; [|reflexivity]. auto. }
      destruct Hl as (th & l & A & ->). simpl in Hs. apply (Hes (h, s)). apply A.
      destruct ordered; auto. eapply Permutation_in; [apply sort_by_hash_perm|exact Hs]. }
    destruct Hin. apply HS; auto.
  Qed.

  Lemma sums_single h s (l : list ent) : NoDup (map fst l) -> In (h, s) l -> sums h l = [s].
  Proof.
    clear. induction l as [|[a v] r IH]; simpl; [tauto|]. intros Hnd Hin. inversion Hnd; subst. rewrite sums_cons. simpl.
    destruct Hin as [E|Hin].
    - inversion E; subst. rewrite N.eqb_refl, sums_nil; auto.
    - destruct (N.eqb_spec a h); [|auto]. subst. exfalso. apply H1. apply in_map_iff. exists (h, s). auto.
  Qed.

  (** ** Intersection *)
  Definition eri (x : tinter S) : inter := mkInter (ter (ti_tab x)) (ti_valid x) (ti_seed x).

  Lemma new_table_er lg nom rf th th0 e : ter (new_table (zent s0) lg nom rf th th0 e) = new_table 0%N lg nom rf th th0 e.
  Proof.
    unfold er, new_table. simpl. destruct (0 <? lg)%N; auto. rewrite (repeat_er ehash (zent s0) (zent_hash s0)). auto.
  Qed.

  Lemma ins_er t i (e : ent) : insert tid 0%N (ter t) i (fst e) = option_map ter (insert ehash (zent s0) t i e).
  Proof. apply (insert_er ehash (zent s0) (zent_hash s0) t i e). Qed.

  Lemma tinter_fill_er l : forall t, option_map ter (tinter_fill s0 l t) = inter_fill (map fst l) (ter t).
  Proof.
    induction l as [|e r IH]; intros t; simpl; auto. rewrite find_er.
    destruct (find ehash _ _ _); auto; rewrite ins_er; destruct (insert ehash _ t _ e); simpl; auto.
  Qed.
  Lemma tinter_refill_er l : forall t, option_map ter (tinter_refill s0 l t) = inter_refill (map fst l) (ter t).
  Proof.
    induction l as [|e r IH]; intros t; simpl; auto. rewrite find_er.
    destruct (find ehash _ _ _); auto; rewrite ins_er; destruct (insert ehash _ t _ e); simpl; auto.
  Qed.
  Lemma tinter_match_er o m l : forall t ms c,
    option_map (fun p => (map fst (fst p), snd p)) (tinter_match ap t o m l ms c) = inter_match (ter t) o m (map fst l) (map fst ms) c.
  Proof.
    clear s0. induction l as [|[e s] r IH]; intros t ms c; simpl; auto.
    destruct (e <? t_theta t)%N; [|destruct o; auto].
    rewrite find_er. destruct (find ehash _ _ _); auto. rewrite map_length. destruct (_ =? m); auto.
    rewrite map_nth_error'. destruct (nth_error _ i) as [x|] eqn:Ex; simpl; auto.
    rewrite IH, map_app. simpl. rewrite (set_entries_er t i x) by auto. auto.
  Qed.

  Lemma tinter_update_er x s : option_map eri (tinter_update s0 ap x s) = inter_update (eri x) (erase_sk s).
  Proof.
    assert (Hlen : length (sk_entries (erase_sk s)) = length (ts_entries s)) by apply map_length.
    unfold tinter_update, inter_update. rewrite Hlen. cbv zeta. change (t_empty (i_tab (eri x))) with (t_empty (ti_tab x)).
    destruct (t_empty (ti_tab x)); auto.
    change (sk_empty (erase_sk s)) with (ts_empty s). change (sk_seed (erase_sk s)) with (ts_seed s).
    change (i_seed (eri x)) with (ti_seed x). change (i_valid (eri x)) with (ti_valid x).
    change (sk_theta (erase_sk s)) with (ts_theta s). change (t_theta (i_tab (eri x))) with (t_theta (ti_tab x)).
    change (sk_ordered (erase_sk s)) with (ts_ordered s). change (sk_entries (erase_sk s)) with (map fst (ts_entries s)).
    destruct (_ && _); auto. simpl orb.
    set (th := if ts_empty s then _ else _).
    change (set_theta_empty (i_tab (eri x)) th (ts_empty s)) with (ter (tset_theta_empty (ti_tab x) th (ts_empty s))).
    set (t := tset_theta_empty (ti_tab x) th (ts_empty s)). change (t_num (ter t)) with (t_num t).
    set (n := length (ts_entries s)).
    destruct (_ && _); auto. destruct (n =? 0). { unfold eri. simpl. rewrite <- new_table_er. auto. }
    destruct (negb (ti_valid x)).
    - rewrite <- new_table_er, <- tinter_fill_er. destruct (tinter_fill _ _ _); simpl; auto. destruct (_ =? n); auto.
    - change (inter_match (ter t) (ts_ordered s) (Nat.min (t_num t) n) (map fst (ts_entries s)) [] 0)
        with (inter_match (ter t) (ts_ordered s) (Nat.min (t_num t) n) (map fst (ts_entries s)) (map fst ([] : list ent)) 0).
      rewrite <- tinter_match_er.
      destruct (tinter_match _ _ _ _ _ _ _) as [[ms c]|]; simpl; auto.
      rewrite map_length. unfold TupleModel.ent in *. destruct (n <? c); auto. destruct (_ && _); auto.
      set (k := length ms).
      destruct (k =? 0). { unfold eri. simpl. rewrite <- new_table_er. auto. }
      rewrite <- new_table_er, <- tinter_refill_er. destruct (tinter_refill _ _ _); simpl; auto.
  Qed.

  Lemma tinter_fill_incl l : forall t t', tinter_fill s0 l t = Some t' ->
    forall x, In x (elive (t_entries t')) -> In x l \/ In x (elive (t_entries t)).
  Proof.
    induction l as [|e r IH]; intros t t' H x Hx; simpl in H. { inversion H; subst; auto. }
    destruct (find _ _ _ _); try discriminate;
    (destruct (insert _ _ _ _ _) as [t1|] eqn:Ei; [|discriminate]);
    (destruct (IH _ _ H x Hx) as [?|Hx1]; [simpl; auto|]);
    (destruct (insert_elive _ _ _ _ _ Ei _ Hx1); subst; simpl; auto).
  Qed.
  Lemma tinter_refill_incl l : forall t t', tinter_refill s0 l t = Some t' ->
    forall x, In x (elive (t_entries t')) -> In x l \/ In x (elive (t_entries t)).
  Proof.
    induction l as [|e r IH]; intros t t' H x Hx; simpl in H. { inversion H; subst; auto. }
    destruct (find _ _ _ _); try discriminate;
    (destruct (insert _ _ _ _ _) as [t1|] eqn:Ei; [|discriminate]);
    (destruct (IH _ _ H x Hx) as [?|Hx1]; [simpl; auto|]);
    (destruct (insert_elive _ _ _ _ _ Ei _ Hx1); subst; simpl; auto).
  Qed.

  Lemma tinter_match_sum o m hs l : forall t ms c ms' c',
    tok ehash (t_lgCur t) (t_entries t) -> length (elive (t_entries t)) < pow2 (t_lgCur t) ->
    NoDup (map fst l) -> (forall e, In e l -> fst e <> 0%N) ->
    (forall h s, In (h, s) (elive (t_entries t)) -> In h (map fst l) -> comb ap (hs h) = Some s) ->
    tinter_match ap t o m l ms c = Some (ms', c') ->
    forall h s, In (h, s) ms' -> In (h, s) ms \/ (In h (map fst l) /\ comb ap (hs h ++ sums h l) = Some s).
  Proof.
    induction l as [|[e s] r IH]; intros t ms c ms' c' Ht Hl Hnd Hnz HS H h x Hx; simpl in H.
    { inversion H; subst; auto. }
    inversion Hnd as [|? ? Hnin Hnd']; subst. simpl in Hnin.
    assert (Hskip : In (h, x) ms \/ (In h (map fst r) /\ comb ap (hs h ++ sums h r) = Some x) ->
      In (h, x) ms \/ (In h (map fst ((e, s) :: r)) /\ comb ap (hs h ++ sums h ((e, s) :: r)) = Some x)).
    { intros [?|[Hr Hc]]; auto. right. split; [right; auto|]. rewrite sums_cons. simpl.
      destruct (N.eqb_spec e h); [subst; tauto|auto]. }
    assert (Hnz' : forall y, In y r -> fst y <> 0%N) by (intros y Hy; apply Hnz; right; auto).
    assert (HS' : forall h s, In (h, s) (elive (t_entries t)) -> In h (map fst r) -> comb ap (hs h) = Some s)
      by (intros; apply HS; simpl; auto).
    destruct (e <? t_theta t)%N.
    2:{ destruct o; [inversion H; subst; auto|]. apply Hskip. eapply IH; eauto. }
    assert (He : e <> 0%N) by (apply (Hnz _ (or_introl eq_refl))).
    assert (Ht' : tok tid (t_lgCur t) (map ehash (t_entries t))) by (apply tok_er; auto).
    assert (Hl' : length (live tid (map ehash (t_entries t))) < pow2 (t_lgCur t)) by (rewrite live_er, map_length; auto).
    destruct (tfind_cases s0 t e Ht' Hl' He) as [(i & a & Hf & Hn & Hin)|(i & Hf & Hno & _)]; rewrite Hf in H.
    2:{ apply Hskip. eapply IH; eauto. }
    destruct (length ms =? m); [discriminate|]. rewrite Hn in H. simpl in H.
    set (t1 := set_entries t (upd i (e, ap a s) (t_entries t))) in H.
    assert (Et1 : ter t1 = ter t) by (apply (set_entries_er t i (e, a)); auto).
    assert (Ee1 : map ehash (t_entries t1) = map ehash (t_entries t)) by (apply (f_equal t_entries) in Et1; exact Et1).
    destruct (IH t1 (ms ++ [(e, ap a s)]) (c + 1) ms' c') with (h := h) (s := x) as [Hm|[Hr Hc]]; auto.
    - apply (proj1 (tok_er ehash _ _)). rewrite Ee1. auto.
    - assert (Hll : length (live tid (map ehash (t_entries t1))) < pow2 (t_lgCur t)) by (rewrite Ee1; auto).
      rewrite live_er, map_length in Hll. exact Hll.
    - intros h' s' Hin' Hr'. simpl in Hin'. apply (upd_found (t_lgCur t) _ _ (e, a)) in Hin'; auto.
      destruct Hin' as [E|[Hin' Hne]]; [inversion E; subst; tauto|]. auto.
    - apply in_app_iff in Hm. destruct Hm as [?|[E|[]]]; auto. inversion E; subst. right. split; [left; auto|].
      rewrite sums_cons. simpl. rewrite N.eqb_refl, sums_nil by auto. apply comb_snoc. apply HS; simpl; auto.
  Qed.

  Record TIInv (seed : N) (x : tinter S) (ins : list (tsketch S)) : Prop := {
    tii_inv : IInv seed (eri x) (map erase_sk ins);
    tii_sum : t_num (ti_tab x) <> 0 -> forall h s, In (h, s) (elive (t_entries (ti_tab x))) -> comb ap (hsums ins h) = Some s;
  }.

  Lemma new_tinter_inv seed : TIInv seed (new_tinter s0 seed) [].
  Proof. constructor; [apply new_inter_inv|]. simpl. tauto. Qed.

  Lemma tinter_update_ok seed x ins s : TIInv seed x ins -> wf_sketch (erase_sk s) ->
    (ts_empty s = true \/ ts_seed s = seed) ->
    exists x', tinter_update s0 ap x s = Some x' /\ inter_update (eri x) (erase_sk s) = Some (eri x') /\ TIInv seed x' (ins ++ [s]).
  Proof.
    intros [I HS] W Hseed. pose proof (tinter_update_er x s) as Her.
    destruct (inter_update_inv seed (eri x) (map erase_sk ins) (erase_sk s) I W Hseed) as (y & E1 & I1).
    rewrite E1 in Her. destruct (tinter_update s0 ap x s) as [x'|] eqn:Eu; [|discriminate]. inversion Her; subst y.
    exists x'. split; auto. split; auto. constructor. { rewrite map_app. auto. }
    intros Hn h sm Hin. clear E1 I1 Her.
    assert (Hnd : NoDup (map fst (ts_entries s))) by apply W.
    unfold tinter_update in Eu. cbv zeta in Eu.
    destruct (t_empty (ti_tab x)) eqn:Ee.
    { inversion Eu; subst. destruct (ii_empty _ _ _ I Ee) as (_ & C & _). tauto. }
    destruct (_ && _); [discriminate|]. simpl orb in Eu.
    set (th := if ts_empty s then _ else _) in Eu. simpl t_num in Eu.
    destruct (ti_valid x && (t_num (ti_tab x) =? 0)) eqn:E0.
    { inversion Eu; subst. simpl in Hn. apply andb_true_iff in E0. destruct E0 as [_ E0]. apply Nat.eqb_eq in E0. tauto. }
    destruct (length (ts_entries s) =? 0). { inversion Eu; subst. simpl in Hn. tauto. }
    destruct (ti_valid x) eqn:Ev; simpl negb in Eu; cbv iota in Eu.
    - simpl in E0. apply Nat.eqb_neq in E0. destruct (tinter_match _ _ _ _ _ _ _) as [[ms c]|] eqn:Em; [|discriminate].
      destruct (_ <? c); [discriminate|]. destruct (_ && _); [discriminate|].
      destruct (length ms =? 0). { inversion Eu; subst. simpl in Hn. tauto. }
      destruct (tinter_refill _ _ _) as [t'|] eqn:Er; [|discriminate]. inversion Eu; subst. simpl in Hin, Hn.
      destruct (tinter_refill_incl _ _ _ Er _ Hin) as [Hm|C].
      2:{ exfalso. apply elive_In in C. destruct C as [C Cz]. unfold new_table in C. simpl in C.
          destruct (0 <? _)%N; [|contradiction]. apply repeat_spec in C. inversion C; subst. simpl in Cz. tauto. }
      assert (Hins : map (@erase_sk S) ins <> []).
      { intros C. pose proof (ii_valid _ _ _ I) as Hv. rewrite C in Hv. simpl in Hv. congruence. }
      destruct (ii_tab _ _ _ I Hins) as [[C _]|(L & HL & F & HLlen & HLin)]; [simpl in C; tauto|].
      assert (Hres : In (h, sm) [] \/ (In h (map fst (ts_entries s)) /\ comb ap (hsums ins h ++ sums h (ts_entries s)) = Some sm)).
      { eapply tinter_match_sum; [| | | | |exact Em|exact Hm].
        - apply (proj1 (tok_er ehash (t_lgCur (ti_tab x)) (t_entries (ti_tab x)))). apply (fi_tok _ _ _ F).
        - pose proof (Permutation_length (fi_perm _ _ _ F)) as HLp. simpl in HLp, HLlen. rewrite live_er, map_length in HLp. simpl. lia.
        - auto.
        - intros e He. assert (0 < fst e)%N; [|lia]. apply (wf_range _ W (fst e)). simpl. apply in_map. auto.
        - intros h' s' Hin' _. apply HS; auto. }
      destruct Hres as [[]|[Hr Hc]]. rewrite hsums_app. auto.
    - destruct (tinter_fill _ _ _) as [t'|] eqn:Ef; [|discriminate]. destruct (t_num t' =? _); [|discriminate Eu]. inversion Eu; subst.
      simpl in Hin. assert (ins = []) as ->.
      { pose proof (ii_valid _ _ _ I) as Hv. destruct ins; auto. simpl in Hv. congruence. }
      destruct (tinter_fill_incl _ _ _ Ef _ Hin) as [Hm|C].
      2:{ exfalso. apply elive_In in C. destruct C as [C Cz]. unfold new_table in C. simpl in C.
          destruct (0 <? _)%N; [|contradiction]. apply repeat_spec in C. inversion C; subst. simpl in Cz. tauto. }
      simpl app. unfold hsums. simpl. rewrite app_nil_r, (sums_single h sm) by auto. auto.
  Qed.

  Lemma tinter_result_er x ordered : option_map erase_sk (tinter_result x ordered) = inter_result (eri x) ordered.
  Proof.
    clear. unfold tinter_result, inter_result. simpl i_valid. destruct (ti_valid x); auto. simpl option_map. cbv zeta.
    rewrite tcompact_entries_er. simpl t_num. f_equal. f_equal.
    assert (Hf : filter (fun e => negb (e =? 0)%N) (t_entries (i_tab (eri x))) =
                 map fst (filter (fun e => negb (ehash e =? 0)%N) (t_entries (ti_tab x)))) by (apply filter_er; reflexivity).
    rewrite Hf. destruct (0 <? _); simpl; auto. destruct ordered; rewrite ?sort_by_hash_er; auto.
  Qed.

  Lemma tinter_result_sum seed x ins ordered r : TIInv seed x ins -> tinter_result x ordered = Some r ->
    forall h s, In (h, s) (ts_entries r) -> comb ap (hsums ins h) = Some s.
  Proof.
    clear s0. intros [_ HS] E h s Hs. unfold tinter_result in E. destruct (ti_valid x); [|discriminate]. inversion E; subst. clear E.
    simpl in Hs. destruct (Nat.ltb_spec 0 (t_num (ti_tab x))) as [Hn|Hn]; [|simpl in Hs; contradiction]. simpl in Hs.
    apply HS; [lia|]. destruct ordered; auto. eapply Permutation_in; [apply sort_by_hash_perm|exact Hs].
  Qed.

  (** ** A-not-B *)
  Lemma tanotb_scan_er o th t (l : list ent) :
    option_map (map fst) (tanotb_scan o th t l) = anotb_scan o th t (map fst l).
  Proof.
    clear. induction l as [|e r IH]; simpl; auto. destruct (fst e <? th)%N; [|destruct o; auto].
    destruct (find _ _ _ _); auto. rewrite <- IH. destruct (tanotb_scan _ _ _ _); auto.
  Qed.

  Lemma tanotb_scan_incl o th t (l : list ent) : forall es, tanotb_scan o th t l = Some es -> forall x, In x es -> In x l.
  Proof.
    clear. induction l as [|e r IH]; simpl; intros es H x Hx. { inversion H; subst; auto. }
    destruct (fst e <? th)%N; [|destruct o; [inversion H; subst; contradiction|right; eapply IH; eauto]].
    destruct (find _ _ _ _); try discriminate; try (right; eapply IH; eauto; fail).
    destruct (tanotb_scan _ _ _ _) as [es'|]; [|discriminate]. inversion H; subst. destruct Hx as [<-|Hx]; [left; auto|right; eauto].
  Qed.

  Lemma tuple_a_not_theta_b_er (a : tsketch S) b seed ordered : (ts_empty a = true -> ts_entries a = []) ->
    option_map erase_sk (tuple_a_not_theta_b a b seed ordered) = a_not_b (erase_sk a) b seed ordered.
  Proof.
    clear. intros He. unfold tuple_a_not_theta_b, a_not_b.
    change (sk_empty (erase_sk a)) with (ts_empty a). change (sk_seed (erase_sk a)) with (ts_seed a).
    change (sk_theta (erase_sk a)) with (ts_theta a). change (sk_ordered (erase_sk a)) with (ts_ordered a).
    change (sk_entries (erase_sk a)) with (map fst (ts_entries a)). rewrite map_length.
    destruct (ts_empty a) eqn:Ee. { simpl. rewrite tcompact_er by auto. auto. }
    destruct (_ && _). { simpl. rewrite tcompact_er by congruence. auto. }
    destruct (negb _); auto. destruct (negb _); auto. cbv zeta. set (th := N.min _ _).
    match goal with |- option_map _ match ?o with _ => _ end = _ => set (o1 := o) end.
    match goal with |- _ = match ?o with _ => _ end => set (o2 := o) end.
    assert (Ho : o2 = option_map (map fst) o1).
    { unfold o1, o2. destruct (_ =? 0). { simpl. f_equal. apply (filter_er (E := ent) fst). reflexivity. }
      destruct (_ && _). { simpl. f_equal. apply (filter_er (E := ent) fst). reflexivity. }
      unfold tanotb_hash, anotb_hash. destruct (anotb_fill _ _ _ _); auto. symmetry. apply tanotb_scan_er. }
    rewrite Ho. destruct o1 as [es|]; simpl; auto. rewrite tcompact_entries_er, map_length. f_equal. f_equal.
    destruct (ordered && _); auto. apply sort_by_hash_er.
  Qed.

  Lemma tuple_a_not_theta_b_incl (a : tsketch S) b seed ordered r : tuple_a_not_theta_b a b seed ordered = Some r ->
    forall x, In x (ts_entries r) -> In x (ts_entries a).
  Proof.
    clear. intros H x Hx. unfold tuple_a_not_theta_b in H.
    assert (Hc : In x (ts_entries (tcompact a ordered)) -> In x (ts_entries a)).
    { simpl. destruct (ordered && _); auto. apply Permutation_in. apply sort_by_hash_perm. }
    destruct (ts_empty a). { inversion H; subst; auto. } destruct (_ && _). { inversion H; subst; auto. }
    destruct (negb _); [discriminate|]. destruct (negb _); [discriminate|]. cbv zeta in H.
    match type of H with match ?o with _ => _ end = _ => set (o1 := o) in H end.
    destruct o1 as [es|] eqn:Ho; [|discriminate]. unfold o1 in Ho. inversion H; subst. simpl in Hx.
    assert (Hx' : In x es) by (destruct (ordered && _); auto; eapply Permutation_in; [apply sort_by_hash_perm|exact Hx]).
    destruct (_ =? 0). { inversion Ho; subst. apply filter_In in Hx'. tauto. }
    destruct (_ && _). { inversion Ho; subst. apply filter_In in Hx'. tauto. }
    unfold tanotb_hash in Ho. destruct (anotb_fill _ _ _ _); [|discriminate]. eapply tanotb_scan_incl; eauto.
  Qed.
End TSet.
