From Verif Require Import Base QuickSelectModel QuickSelectProofs ProbeModel ProbeProofs HashtableModel HashtableProofs ThetaModel.
From Coq Require Import Sorted.
Local Open Scope nat_scope.

Notation tlive := (live tid).
Notation ttok := (tok tid).

Lemma tid_zero : tid 0%N = 0%N. Proof. reflexivity. Qed.

Lemma tlive_In es e : In e (tlive es) <-> In e es /\ e <> 0%N.
Proof. rewrite live_In. reflexivity. Qed.

Lemma tlive_NoDup lg es : ttok lg es -> NoDup (tlive es).
Proof. intros H. apply tok_NoDup in H. rewrite map_id in H. auto. Qed.

Lemma sub_multiple_range lgK rf : (MinLgK <= lgK)%N -> (rf <= 3)%N ->
  let lg := starting_sub_multiple (lgK + 1) MinLgK rf in
  (MinLgK <= lg <= lgK + 1)%N /\ (rf = 0%N -> lg = lgK + 1)%N.
Proof.
  unfold MinLgK, starting_sub_multiple. intros HK Hrf.
  destruct (N.leb_spec (lgK + 1) 5); [lia|].
  destruct (N.eqb_spec rf 0); [lia|].
  assert ((lgK + 1 - 5) mod rf <= lgK + 1 - 5)%N by (apply N.mod_le; lia).
  cbv zeta. lia.
Qed.

Record UInv (lgK rf th0 : N) (t : ttable) (sn : list N) (em : bool) : Prop := {
  ui_tok : ttok (t_lgCur t) (t_entries t);
  ui_num : t_num t = length (tlive (t_entries t));
  ui_cap : t_num t <= compute_capacity (t_lgCur t) (t_lgNom t);
  ui_mem : forall h, In h (tlive (t_entries t)) <-> In h sn /\ h <> 0%N /\ (h < t_theta t)%N;
  ui_th : t_theta t = th0 \/ (t_theta t < th0 /\ In (t_theta t) sn /\ N.of_nat (pow2 lgK) <= N.of_nat (t_num t))%N;
  ui_lg : (MinLgK <= t_lgCur t <= lgK + 1)%N;
  ui_rfz : rf = 0%N -> t_lgCur t = (lgK + 1)%N;
  ui_nom : t_lgNom t = lgK;
  ui_rff : t_rf t = rf;
  ui_thz : t_theta0 t = th0;
  ui_empty : t_empty t = em;
  ui_emsn : em = true -> sn = [] /\ t_theta t = th0;
}.

Lemma tlive_repeat n : tlive (repeat 0%N n) = [].
Proof. apply (live_repeat tid). reflexivity. Qed.

Lemma new_inv lgK rf th0 : (MinLgK <= lgK)%N -> (rf <= 3)%N ->
  UInv lgK rf th0 (new_update_sketch lgK rf th0) [] true.
Proof.
  intros HK Hrf. pose proof (sub_multiple_range lgK rf HK Hrf) as [H1 H2]. cbv zeta in *.
  unfold new_update_sketch, new_table.
  set (lg := starting_sub_multiple (lgK + 1) MinLgK rf) in *.
  destruct (N.ltb_spec 0 lg); [|unfold MinLgK in *; lia].
  constructor; simpl; auto.
  - apply tok_empty. reflexivity.
  - rewrite tlive_repeat. auto.
  - lia.
  - intros h. rewrite tlive_repeat. simpl. tauto.
Qed.

Lemma reset_inv lgK rf th0 t sn em : (MinLgK <= lgK)%N -> (rf <= 3)%N ->
  UInv lgK rf th0 t sn em -> UInv lgK rf th0 (reset 0%N t) [] true.
Proof.
  intros HK Hrf I. destruct I. pose proof (sub_multiple_range lgK rf HK Hrf) as [H1 H2]. cbv zeta in *.
  unfold reset. cbv zeta. rewrite ui_nom0, ui_rff0.
  set (lg := starting_sub_multiple (lgK + 1) MinLgK rf) in *.
  assert (Hlen : (if (lg =? t_lgCur t)%N then length (t_entries t) else pow2 lg) = pow2 lg).
  { destruct (N.eqb_spec lg (t_lgCur t)) as [e|e]; auto. rewrite e. eapply tok_length; eauto. }
  rewrite Hlen.
  constructor; simpl; auto.
  - apply tok_empty. reflexivity.
  - rewrite tlive_repeat. auto.
  - lia.
  - intros h. rewrite tlive_repeat. simpl. tauto.
Qed.

(** A table invariant strong enough for one insertion, weaker than UInv on membership. *)
Lemma insert_inv lgK rf th0 t sn h i :
  (MinLgK <= lgK)%N -> (rf <= 3)%N ->
  UInv lgK rf th0 t sn false -> (h < t_theta t)%N -> h <> 0%N ->
  find tid (t_entries t) (t_lgCur t) h = PEmpty i ->
  exists t', insert tid 0%N t i h = Some t' /\ UInv lgK rf th0 t' (sn ++ [h]) false /\
    (t_theta t' <= t_theta t)%N.
Proof.
  intros HK Hrf I Hlt Hnz Hf. destruct I.
  assert (Hcap := capacity_lt (t_lgCur t) (t_lgNom t)).
  destruct (insert_spec tid 0%N tid_zero t h i) as
    (t' & H1 & H2 & H3 & H4 & H5 & H6 & H7 & H8 & H9); auto; try lia.
  - intros Hle Hc. rewrite ui_nom0, ui_rff0 in *.
    assert (rf <> 0%N) by (intros C; rewrite (ui_rfz0 C) in Hle; lia).
    unfold compute_capacity in *. destruct (N.leb_spec (t_lgCur t) lgK); [|lia].
    assert (pow2 (t_lgCur t + 1) <= pow2 (N.min (t_lgCur t + rf) (lgK + 1))) by (apply pow2_mono; lia).
    rewrite pow2_succ in *.
    assert (pow2 1 <= pow2 (t_lgCur t)) by (apply pow2_mono; unfold MinLgK in *; lia).
    change (pow2 1) with 2 in *. lia.
  - intros x Hx. apply ui_mem0 in Hx. apply Hx.
  - exists t'. split; auto.
    assert (Hth : (t_theta t' <= t_theta t)%N) by (destruct H9 as [(-> & _)|(? & _)]; lia).
    split; auto.
    assert (Hmem : forall x, In x (tlive (t_entries t')) <-> In x (sn ++ [h]) /\ x <> 0%N /\ (x < t_theta t')%N).
    { intros x. rewrite H8, in_app_iff, ui_mem0. simpl. change (tid x) with x. split.
      - intros [[(Hx & Hx0 & _)| ->] Hl]; auto.
      - intros ([Hx|[->|[]]] & Hx0 & Hl); split; auto. left. split; auto. split; auto. lia. }
    constructor; auto; try congruence.
    + destruct H9 as [(Ht & Hn & [(Hc & Hl)|(Hc & Hle & Hl)])|(Ht & Hn & Hl & Hc & Hlg & _)].
      * rewrite Hl, H4. lia.
      * rewrite Hl, H4. rewrite ui_nom0, ui_rff0 in *.
        assert (rf <> 0%N) by (intros C; rewrite (ui_rfz0 C) in Hle; lia).
        unfold compute_capacity in *. destruct (N.leb_spec (t_lgCur t) lgK); [|lia].
        set (lgN := N.min (t_lgCur t + rf) (lgK + 1)).
        assert (pow2 (t_lgCur t + 1) <= pow2 lgN) by (apply pow2_mono; unfold lgN; lia).
        rewrite pow2_succ in *.
        assert (pow2 1 <= pow2 (t_lgCur t)) by (apply pow2_mono; unfold MinLgK in *; lia).
        change (pow2 1) with 2 in *. destruct (N.leb_spec lgN lgK); lia.
      * rewrite Hlg, H4, Hn. apply capacity_ge_nominal. lia.
    + destruct H9 as [(Ht & Hn & _)|(Ht & Hn & _ & _ & _ & x & Hx & Hxt)].
      * rewrite Ht, Hn. destruct ui_th0 as [?|(? & ? & ?)]; auto. right. split; auto. rewrite in_app_iff. split; auto. lia.
      * right. split. { destruct ui_th0 as [?|(? & ? & ?)]; lia. }
        change (tid x) with x in Hxt. split.
        { rewrite in_app_iff. rewrite <- Hxt. destruct Hx as [Hx| ->]; simpl; auto. apply ui_mem0 in Hx. tauto. }
        rewrite Hn, ui_nom0. lia.
    + destruct H9 as [(Ht & Hn & [(Hc & Hl)|(Hc & Hle & Hl)])|(Ht & Hn & Hl & Hc & Hlg & _)]; rewrite ?Hl, ?Hlg; auto.
      rewrite ui_nom0, ui_rff0 in *. lia.
    + intros C. specialize (ui_rfz0 C).
      destruct H9 as [(Ht & Hn & [(Hc & Hl)|(Hc & Hle & Hl)])|(Ht & Hn & Hl & Hc & Hlg & _)]; try congruence.
      rewrite ui_nom0 in *. lia.
Qed.

Lemma set_nonempty_inv lgK rf th0 t sn em : UInv lgK rf th0 t sn em -> UInv lgK rf th0 (set_nonempty t) sn false.
Proof. intros []. constructor; simpl; auto. discriminate. Qed.

(** Adding a hash that is already below nothing or present changes nothing. *)
Lemma absorb_inv lgK rf th0 t sn h :
  UInv lgK rf th0 t sn false -> (h = 0%N \/ (t_theta t <= h)%N \/ In h (tlive (t_entries t))) ->
  UInv lgK rf th0 t (sn ++ [h]) false.
Proof.
  intros [] Hc. constructor; auto.
  - intros x. rewrite ui_mem0, in_app_iff. simpl. split.
    + intros (? & ? & ?); auto.
    + intros ([?|[<-|[]]] & ? & ?); auto. destruct Hc as [?|[?|Hc]]; [tauto|lia|]. apply ui_mem0 in Hc. tauto.
  - destruct ui_th0 as [?|(? & ? & ?)]; auto. right. rewrite in_app_iff. auto.
  - discriminate.
Qed.

Inductive upd_outcome (t t' : ttable) (h : N) : uerr -> Prop :=
| uo_exceeds : (t_theta t <= h)%N -> t' = set_nonempty t -> upd_outcome t t' h UErrExceedsTheta
| uo_zero : (h < t_theta t)%N -> h = 0%N -> t' = set_nonempty t -> upd_outcome t t' h UErrZeroHash
| uo_dup : (h < t_theta t)%N -> h <> 0%N -> In h (tlive (t_entries t)) -> t' = set_nonempty t -> upd_outcome t t' h UErrDuplicate
| uo_new : (h < t_theta t)%N -> h <> 0%N -> ~ In h (tlive (t_entries t)) -> upd_outcome t t' h UNil.

Lemma update_inv lgK rf th0 t sn em h :
  (MinLgK <= lgK)%N -> (rf <= 3)%N -> UInv lgK rf th0 t sn em ->
  exists t' e, update t h = Some (t', e) /\ UInv lgK rf th0 t' (sn ++ [h]) false /\
    (t_theta t' <= t_theta t)%N /\ upd_outcome t t' h e.
Proof.
  intros HK Hrf I0. pose proof (set_nonempty_inv _ _ _ _ _ _ I0) as I.
  unfold update. cbv zeta. set (t1 := set_nonempty t) in *.
  assert (Et : t_theta t1 = t_theta t) by reflexivity.
  assert (Ee : t_entries t1 = t_entries t) by reflexivity.
  destruct (N.leb_spec (t_theta t1) h) as [Hge|Hlt].
  { exists t1, UErrExceedsTheta. split; auto. split; [apply absorb_inv; auto|]. split; [lia|]. constructor; auto. }
  destruct (N.eqb_spec h 0) as [Hz|Hnz].
  { exists t1, UErrZeroHash. split; auto. split; [apply absorb_inv; auto|]. split; [lia|]. constructor; auto. }
  assert (Hcap := capacity_lt (t_lgCur t1) (t_lgNom t1)).
  destruct (find_cases tid 0%N tid_zero (t_lgCur t1) (t_entries t1) h) as
    [(i & e & Hf & He & Hh & _)|(i & Hf & Hi & Hnot & _)].
  - apply I.
  - destruct I. lia.
  - rewrite Hf. change (tid e) with e in Hh. subst e.
    assert (Hin : In h (tlive (t_entries t1))) by (apply tlive_In; split; auto; eapply nth_error_In; eauto).
    exists t1, UErrDuplicate. split; auto. split; [apply absorb_inv; auto|]. split; [lia|].
    apply uo_dup; auto.
  - rewrite Hf. destruct (insert_inv lgK rf th0 t1 sn h i) as (t' & H1 & H2 & H3); auto.
    rewrite H1. exists t', UNil. split; auto. split; auto. split; [lia|]. apply uo_new; auto.
    intros C. rewrite <- Ee in C. apply Hnot in C. apply C. reflexivity.
Qed.

Lemma trim_inv lgK rf th0 t sn em :
  (MinLgK <= lgK)%N -> (rf <= 3)%N -> UInv lgK rf th0 t sn em ->
  exists t', trim tid 0%N t = Some t' /\ UInv lgK rf th0 t' sn em /\ (t_theta t' <= t_theta t)%N /\
    (t_num t <= pow2 lgK -> t' = t) /\
    (pow2 lgK < t_num t -> t_num t' = pow2 lgK /\ In (t_theta t') (tlive (t_entries t))).
Proof.
  intros HK Hrf I. destruct I. unfold trim. rewrite ui_nom0.
  destruct (Nat.ltb_spec (pow2 lgK) (t_num t)) as [Hl|Hl].
  2:{ exists t. split; auto. split; [|split; [lia|split; [auto|lia]]].
      constructor; auto. }
  assert (Hlg : (lgK < t_lgCur t)%N).
  { destruct (N.lt_ge_cases lgK (t_lgCur t)); auto. rewrite ui_nom0 in *.
    unfold compute_capacity in *. destruct (N.leb_spec (t_lgCur t) lgK); [|lia].
    assert (pow2 (t_lgCur t) <= pow2 lgK) by (apply pow2_mono; lia). lia. }
  destruct (rebuild_spec tid 0%N tid_zero t) as
    (t' & H1 & H2 & H3 & H4 & H5 & H6 & H7 & H8 & H9 & (e & He & Heth) & H11); auto.
  - rewrite ui_nom0; auto.
  - rewrite ui_nom0. pose proof (pow2_mono (lgK + 1) (t_lgCur t)). rewrite pow2_succ in *. pose proof (pow2_pos lgK). lia.
  - change (tid e) with e in Heth. subst e. rewrite ui_nom0 in *.
    assert (Hlt : (t_theta t' < t_theta t)%N) by (apply ui_mem0 in He; tauto).
    exists t'. split; auto. split; [|split; [lia|split; [lia|auto]]].
    constructor; auto; try congruence.
    + rewrite H4, H6, H5. apply capacity_ge_nominal. auto.
    + intros x. rewrite H11, ui_mem0. change (tid x) with x. split; intros; lia || (intuition lia).
    + right. split. { destruct ui_th0 as [?|(? & ? & ?)]; lia. }
      split; [apply ui_mem0 in He; tauto|]. lia.
    + rewrite H5; auto.
    + intros C. destruct (ui_emsn0 C) as [-> Hth]. exfalso. apply ui_mem0 in He. destruct He as ([] & _).
Qed.

(** Sorting. *)
Lemma insert_sorted_perm x l : Permutation (insert_sorted x l) (x :: l).
Proof.
  induction l as [|y r IH]; simpl; auto. destruct (x <=? y)%N; auto.
  rewrite IH. constructor.
Qed.
Lemma sortN_perm l : Permutation (sortN l) l.
Proof. induction l; simpl; auto. rewrite insert_sorted_perm. auto. Qed.
Lemma insert_sorted_sorted x l : StronglySorted N.le l -> StronglySorted N.le (insert_sorted x l).
Proof.
  induction 1 as [|y r Hs IH Hf]; simpl; [constructor; constructor|].
  destruct (N.leb_spec x y).
  - constructor; [constructor; auto|]. constructor; auto. eapply Forall_impl; [|exact Hf]. simpl. lia.
  - constructor; auto. rewrite Forall_forall in *. intros z Hz.
    apply (Permutation_in _ (insert_sorted_perm x r)) in Hz. destruct Hz as [<-|Hz]; auto. lia.
Qed.
Lemma sortN_sorted l : StronglySorted N.le (sortN l).
Proof. induction l; simpl; [constructor|]. apply insert_sorted_sorted; auto. Qed.

(** ** Well-formed sketches, as produced by the API. *)
Record wf_sketch (s : sketch) : Prop := {
  wf_nodup : NoDup (sk_entries s);
  wf_range : forall h, In h (sk_entries s) -> (0 < h /\ h < sk_theta s)%N;
  wf_theta : (sk_theta s <= MaxTheta)%N;
  wf_sorted : sk_ordered s = true -> StronglySorted N.le (sk_entries s);
  wf_empty : sk_empty s = true -> sk_entries s = [] /\ sk_theta s = MaxTheta;
}.

Lemma short_sorted (l : list N) : length l <= 1 -> StronglySorted N.le l.
Proof. destruct l as [|x [|y r]]; simpl; intros; try lia; repeat constructor. Qed.

Lemma view_update_wf lgK rf th0 t sn em seed :
  (th0 <= MaxTheta)%N -> UInv lgK rf th0 t sn em -> wf_sketch (view_update seed t).
Proof.
  intros Hth0 []. unfold view_update. constructor; simpl.
  - eapply tlive_NoDup; eauto.
  - intros h Hh. apply ui_mem0 in Hh. destruct (t_empty t) eqn:Ee.
    + subst em. destruct (ui_emsn0 eq_refl) as [-> _]. destruct Hh as ([] & _).
    + lia.
  - destruct (t_empty t); [lia|]. destruct ui_th0; lia.
  - intros Ho. apply short_sorted. unfold table_all. fold (tlive (t_entries t)). lia.
  - intros Hem. rewrite Hem. split; auto. rewrite Hem in ui_empty0. subst em.
    destruct (ui_emsn0 eq_refl) as [-> _]. unfold table_all. fold (tlive (t_entries t)).
    destruct (tlive (t_entries t)) as [|x r] eqn:E; auto. destruct (proj1 (ui_mem0 x) (or_introl eq_refl)) as ([] & _).
Qed.

Lemma new_compact_wf s ordered : wf_sketch s -> wf_sketch (new_compact s ordered).
Proof.
  intros []. unfold new_compact. destruct (sk_empty s) eqn:Ee.
  - destruct (wf_empty0 eq_refl) as [_ Hth]. constructor; simpl; auto; try tauto; try constructor.
  - constructor; simpl; auto.
    + destruct (ordered && negb (sk_ordered s)); auto. eapply Permutation_NoDup; [symmetry; apply sortN_perm|]; auto.
    + intros h Hh. apply wf_range0. destruct (ordered && negb (sk_ordered s)); auto.
      eapply Permutation_in; [apply sortN_perm|]; auto.
    + destruct (sk_ordered s) eqn:Eo; simpl.
      * rewrite andb_false_r. auto.
      * intros ->. simpl. apply sortN_sorted.
    + discriminate.
Qed.

(** ** Union *)
Lemma union_loop_inv lgK rf th0 uth ordered : (MinLgK <= lgK)%N -> (rf <= 3)%N -> forall l t sn,
  UInv lgK rf th0 t sn false -> (forall h, In h l -> (0 < h)%N) ->
  (ordered = true -> StronglySorted N.le l) ->
  exists t' sn', union_loop uth ordered l t = Some t' /\ UInv lgK rf th0 t' (sn ++ sn') false /\
    (t_theta t' <= t_theta t)%N /\ incl sn' l /\
    (forall h, In h l -> (h < uth)%N -> (h < t_theta t')%N -> In h sn').
Proof.
  intros HK Hrf. induction l as [|e r IH]; intros t sn I Hpos Hord; simpl.
  { exists t, []. rewrite app_nil_r. split; auto. split; auto. split; [lia|]. split; [apply incl_refl|]. intros h []. }
  assert (Hskip : forall t1 sn1, UInv lgK rf th0 t1 sn1 false ->
    exists t' sn', union_loop uth ordered r t1 = Some t' /\ UInv lgK rf th0 t' (sn1 ++ sn') false /\
    (t_theta t' <= t_theta t1)%N /\ incl sn' r /\
    (forall h, In h r -> (h < uth)%N -> (h < t_theta t')%N -> In h sn')).
  { intros t1 sn1 I1. apply IH; auto. { intros; apply Hpos; right; auto. } intros Ho; specialize (Hord Ho); inversion Hord; auto. }
  destruct (N.ltb_spec e uth) as [H1|H1], (N.ltb_spec e (t_theta t)) as [H2|H2]; simpl.
  - assert (Hcap := capacity_lt (t_lgCur t) (t_lgNom t)).
    assert (He : e <> 0%N) by (specialize (Hpos e (or_introl eq_refl)); lia).
    destruct (find_cases tid 0%N tid_zero (t_lgCur t) (t_entries t) e) as
      [(i & x & Hf & Hx & Hh & _)|(i & Hf & Hi & Hnot & _)].
    + apply I.
    + destruct I. lia.
    + rewrite Hf. change (tid x) with x in Hh. subst x.
      destruct (Hskip t (sn ++ [e])) as (t' & sn' & E1 & E2 & E3 & E4 & E5).
      { apply absorb_inv; auto. right; right. apply tlive_In. split; auto. eapply nth_error_In; eauto. }
      exists t', (e :: sn'). rewrite <- app_assoc in E2. split; auto. split; auto. split; auto. split.
      * intros y [<-|Hy]; [left|right]; auto.
      * intros h [<-|Hh] Ha Hb; [left; auto|right; auto].
    + rewrite Hf. destruct (insert_inv lgK rf th0 t sn e i) as (t1 & -> & I1 & Hle); auto.
      destruct (Hskip t1 (sn ++ [e])) as (t' & sn' & E1 & E2 & E3 & E4 & E5); auto.
      exists t', (e :: sn'). rewrite <- app_assoc in E2. split; auto. split; auto. split; [lia|]. split.
      * intros y [<-|Hy]; [left|right]; auto.
      * intros h [<-|Hh] Ha Hb; [left; auto|right; auto].
  - destruct ordered.
    + exists t, []. rewrite app_nil_r. split; auto. split; auto. split; [lia|]. split; [intros ? []|].
      specialize (Hord eq_refl). inversion Hord as [|? ? Hs Hf]; subst. rewrite Forall_forall in Hf.
      intros h [<-|Hh] Ha Hb; [|specialize (Hf h Hh)]; lia.
    + destruct (Hskip t sn I) as (t' & sn' & E1 & E2 & E3 & E4 & E5).
      exists t', sn'. do 3 (split; auto). split; [apply incl_tl; auto|]. intros h [<-|Hh] Ha Hb; [lia|auto].
  - destruct ordered.
    + exists t, []. rewrite app_nil_r. split; auto. split; auto. split; [lia|]. split; [intros ? []|].
      specialize (Hord eq_refl). inversion Hord as [|? ? Hs Hf]; subst. rewrite Forall_forall in Hf.
      intros h [<-|Hh] Ha Hb; [|specialize (Hf h Hh)]; lia.
    + destruct (Hskip t sn I) as (t' & sn' & E1 & E2 & E3 & E4 & E5).
      exists t', sn'. do 3 (split; auto). split; [apply incl_tl; auto|]. intros h [<-|Hh] Ha Hb; [lia|auto].
  - destruct ordered.
    + exists t, []. rewrite app_nil_r. split; auto. split; auto. split; [lia|]. split; [intros ? []|].
      specialize (Hord eq_refl). inversion Hord as [|? ? Hs Hf]; subst. rewrite Forall_forall in Hf.
      intros h [<-|Hh] Ha Hb; [|specialize (Hf h Hh)]; lia.
    + destruct (Hskip t sn I) as (t' & sn' & E1 & E2 & E3 & E4 & E5).
      exists t', sn'. do 3 (split; auto). split; [apply incl_tl; auto|]. intros h [<-|Hh] Ha Hb; [lia|auto].
Qed.

(** The smallest of [th0] and the thetas of a list of sketches. *)
Definition min_theta (th0 : N) (l : list sketch) : N := fold_left (fun a s => N.min a (sk_theta s)) l th0.
Definition nonempty_of (l : list sketch) : list sketch := filter (fun s => negb (sk_empty s)) l.

Lemma min_theta_app th0 l s : min_theta th0 (l ++ [s]) = N.min (min_theta th0 l) (sk_theta s).
Proof. unfold min_theta. rewrite fold_left_app. reflexivity. Qed.

Lemma min_theta_le : forall l th0, (min_theta th0 l <= th0)%N /\ forall s, In s l -> (min_theta th0 l <= sk_theta s)%N.
Proof.
  induction l as [|x r IH]; intros th0; unfold min_theta in *; simpl.
  - split; [lia|tauto].
  - destruct (IH (N.min th0 (sk_theta x))) as [H1 H2]. split; [lia|]. intros s [<-|Hs]; [lia|auto].
Qed.

Definition all_hashes (l : list sketch) : list N := flat_map sk_entries l.

Lemma all_hashes_In l h : In h (all_hashes l) <-> exists s, In s l /\ In h (sk_entries s).
Proof. unfold all_hashes. rewrite in_flat_map. tauto. Qed.

Record UnInv (lgK rf th0 seed : N) (u : union) (ins : list sketch) (un_sn : list N) : Prop := {
  un_tab : UInv lgK rf th0 (u_tab u) un_sn (match nonempty_of ins with [] => true | _ => false end);
  un_incl : incl un_sn (all_hashes ins);
  un_theta : u_theta u = N.min (min_theta th0 (nonempty_of ins)) (t_theta (u_tab u));
  un_mem : forall h, In h (all_hashes ins) -> (h < u_theta u)%N -> In h un_sn;
  un_pos : forall h, In h (all_hashes ins) -> (0 < h)%N;
  un_seed : u_seed u = seed;
}.

Lemma nonempty_of_app l s : nonempty_of (l ++ [s]) = nonempty_of l ++ (if sk_empty s then [] else [s]).
Proof. unfold nonempty_of. rewrite filter_app. simpl. destruct (sk_empty s); auto. Qed.

Lemma all_hashes_app l s : all_hashes (l ++ [s]) = all_hashes l ++ sk_entries s.
Proof. unfold all_hashes. rewrite flat_map_app. simpl. rewrite app_nil_r. auto. Qed.

Lemma new_union_inv lgK rf th0 seed : (MinLgK <= lgK)%N -> (rf <= 3)%N ->
  UnInv lgK rf th0 seed (new_union lgK rf th0 seed) [] [].
Proof.
  intros HK Hrf. constructor; simpl; try tauto.
  - apply new_inv; auto.
  - apply incl_refl.
  - unfold min_theta; simpl. lia.
Qed.

Lemma union_update_inv lgK rf th0 seed u ins sn s : (MinLgK <= lgK)%N -> (rf <= 3)%N ->
  UnInv lgK rf th0 seed u ins sn -> wf_sketch s -> (sk_empty s = true \/ sk_seed s = seed) ->
  exists u' sn', union_update u s = Some u' /\ UnInv lgK rf th0 seed u' (ins ++ [s]) sn' /\ (u_theta u' <= u_theta u)%N.
Proof.
  intros HK Hrf [] W Hseed. unfold union_update.
  destruct (sk_empty s) eqn:Ee.
  { exists u, sn. split; auto. split; [|lia]. destruct (wf_empty _ W Ee) as [He _].
    constructor; rewrite ?nonempty_of_app, ?all_hashes_app, ?Ee, ?He, ?app_nil_r; auto. }
  destruct Hseed as [C|Hseed]; [discriminate|]. rewrite un_seed0, Hseed, N.eqb_refl. simpl.
  set (th := N.min (u_theta u) (sk_theta s)).
  destruct (union_loop_inv lgK rf th0 th (sk_ordered s) HK Hrf (sk_entries s) (set_nonempty (u_tab u)) sn)
    as (t' & sn' & E1 & E2 & E3 & E4 & E5).
  - eapply set_nonempty_inv; eauto.
  - intros h Hh. apply (wf_range _ W h Hh).
  - apply W.
  - rewrite E1. eexists; exists (sn ++ sn'). split; [reflexivity|]. split; [|simpl; unfold th; lia].
    simpl in E3. constructor; simpl; rewrite ?nonempty_of_app, ?all_hashes_app, ?Ee; auto.
    + destruct (nonempty_of ins); auto.
    + apply incl_app; [apply incl_appl|apply incl_appr]; auto.
    + rewrite min_theta_app. unfold th. lia.
    + intros h Hh Hl. rewrite in_app_iff in *. destruct Hh as [Hh|Hh].
      * left. apply un_mem0; auto. unfold th in Hl. lia.
      * right. apply E5; auto; lia.
    + intros h Hh. rewrite in_app_iff in Hh. destruct Hh as [Hh|Hh]; auto. apply (wf_range _ W h Hh).
Qed.

Lemma union_reset_inv lgK rf th0 seed u ins sn : (MinLgK <= lgK)%N -> (rf <= 3)%N ->
  UnInv lgK rf th0 seed u ins sn -> UnInv lgK rf th0 seed (union_reset u) [] [].
Proof.
  intros HK Hrf []. pose proof (reset_inv _ _ _ _ _ _ HK Hrf un_tab0) as I.
  unfold union_reset. constructor; simpl; try tauto.
  - apply incl_refl.
  - unfold min_theta; simpl. pose proof (ui_thz _ _ _ _ _ _ un_tab0); lia.
Qed.

Record UnionSpec (k : nat) (th0 : N) (ins : list sketch) (r : sketch) : Prop := {
  us_theta_le : (sk_theta r <= min_theta th0 (nonempty_of ins))%N;
  us_nodup : NoDup (sk_entries r);
  us_mem : forall h, In h (sk_entries r) <-> (h < sk_theta r)%N /\ In h (all_hashes ins);
  us_len : length (sk_entries r) <= k;
  us_theta : sk_theta r = min_theta th0 (nonempty_of ins) \/
    (sk_theta r < min_theta th0 (nonempty_of ins))%N /\ length (sk_entries r) = k /\ In (sk_theta r) (all_hashes ins);
  us_empty : sk_empty r = true <-> (forall s, In s ins -> sk_empty s = true);
}.

Lemma nonempty_of_nil l : nonempty_of l = [] <-> (forall s, In s l -> sk_empty s = true).
Proof.
  unfold nonempty_of. induction l as [|x r IH]; simpl.
  - split; auto.
  - destruct (sk_empty x) eqn:E; simpl.
    + rewrite IH. split; intros H; [intros s [<-|Hs]; auto|auto].
    + split; [discriminate|]. intros H. rewrite (H x) in E; auto. discriminate.
Qed.

Lemma filter_live_theta th es : filter (fun e => negb (e =? 0)%N && (e <? th)%N) es = filter (fun e => (e <? th)%N) (tlive es).
Proof.
  unfold live. induction es as [|x r IH]; simpl; auto.
  change (tid x) with x. destruct (N.eqb_spec x 0); simpl; auto. destruct (x <? th)%N; simpl; rewrite IH; auto.
Qed.

Lemma firstn_In {A} (x : A) n l : In x (firstn n l) -> In x l.
Proof. revert n; induction l; intros [|n]; simpl; try tauto. intros [?|?]; eauto. Qed.

Lemma firstn_NoDup {A} n (l : list A) : NoDup l -> NoDup (firstn n l).
Proof.
  intros H; revert n; induction H; intros [|n]; simpl; try constructor; auto.
  intros C. apply firstn_In in C. auto.
Qed.

Lemma union_result_spec lgK rf th0 seed u ins sn ordered :
  UnInv lgK rf th0 seed u ins sn ->
  exists r, union_result u ordered = Some r /\ UnionSpec (pow2 lgK) th0 ins r /\ sk_seed r = seed /\
    (sk_ordered r = true -> StronglySorted N.le (sk_entries r)) /\ (ordered = true -> sk_ordered r = true).
Proof.
  intros []. pose proof (tlive_NoDup _ _ (ui_tok _ _ _ _ _ _ un_tab0)) as Hnd.
  unfold union_result. cbv zeta. destruct (t_empty (u_tab u)) eqn:Ee.
  { assert (Hne : nonempty_of ins = []).
    { rewrite (ui_empty _ _ _ _ _ _ un_tab0) in Ee. destruct (nonempty_of ins); auto. discriminate. }
    rewrite Hne in un_tab0. destruct (ui_emsn _ _ _ _ _ _ un_tab0 eq_refl) as [-> Hth].
    rewrite Hne in *. unfold min_theta in *; simpl in *.
    assert (u_theta u = th0) by lia.
    eexists. split; [reflexivity|]. simpl. split; [|repeat split; auto; constructor].
    constructor; simpl; rewrite ?Hne; unfold min_theta; simpl; auto; try lia; try constructor.
    - tauto.
    - intros (Hl & Hh). exfalso. apply (un_mem0 h Hh Hl).
    - intros _; apply nonempty_of_nil; auto.
    - auto. }
  set (th := N.min (u_theta u) (t_theta (u_tab u))).
  assert (Hth : th = u_theta u) by (unfold th; lia).
  set (es := if (t_theta (u_tab u) <=? u_theta u)%N then _ else _).
  assert (Hes : es = filter (fun e => (e <? th)%N) (tlive (t_entries (u_tab u)))).
  { unfold es. destruct (N.leb_spec (t_theta (u_tab u)) (u_theta u)).
    - fold (tlive (t_entries (u_tab u))).
      change (filter (fun e => negb (e =? 0)%N) (t_entries (u_tab u))) with (tlive (t_entries (u_tab u))).
      symmetry. rewrite (filter_ext_in _ (fun _ => true)).
      + clear. induction (tlive _); simpl; congruence.
      + intros e He. apply (ui_mem _ _ _ _ _ _ un_tab0) in He. apply N.ltb_lt. lia.
    - apply filter_live_theta. }
  clearbody es.
  assert (Hmem : forall h, In h es <-> (h < th)%N /\ In h (all_hashes ins)).
  { intros h. rewrite Hes, filter_In, (ui_mem _ _ _ _ _ _ un_tab0), N.ltb_lt. split.
    - intros ((H1 & _) & H2). auto.
    - intros (H1 & H2). split; auto. split; [apply un_mem0; auto; lia|]. specialize (un_pos0 h H2). lia. }
  assert (Hnd' : NoDup es) by (rewrite Hes; apply NoDup_filter; auto).
  rewrite (ui_nom _ _ _ _ _ _ un_tab0).
  assert (Hemp : false = true <-> (forall s, In s ins -> sk_empty s = true)).
  { rewrite <- nonempty_of_nil. split; [discriminate|]. intros C. rewrite C in un_tab0.
    rewrite (ui_empty _ _ _ _ _ _ un_tab0) in Ee. discriminate. }
  set (m := min_theta th0 (nonempty_of ins)) in *.
  assert (Hfin : forall th' es', (th' <= m)%N -> NoDup es' ->
     (forall h, In h es' <-> (h < th')%N /\ In h (all_hashes ins)) -> length es' <= pow2 lgK ->
     (th' = m \/ (th' < m)%N /\ length es' = pow2 lgK /\ In th' (all_hashes ins)) ->
     exists r, Some (compact_from_entries false ordered (u_seed u) th' (if ordered then sortN es' else es')) = Some r /\
      UnionSpec (pow2 lgK) th0 ins r /\ sk_seed r = seed /\
      (sk_ordered r = true -> StronglySorted N.le (sk_entries r)) /\ (ordered = true -> sk_ordered r = true)).
  { intros th' es' G1 G2 G3 G4 G5. eexists. split; [reflexivity|].
    assert (Hp : Permutation (if ordered then sortN es' else es') es') by (destruct ordered; auto; apply sortN_perm).
    split.
    - unfold compact_from_entries. constructor; simpl; fold m; auto.
      + eapply Permutation_NoDup; [symmetry; apply Hp|]; auto.
      + intros h. rewrite <- G3. split; apply Permutation_in; auto. symmetry; auto.
      + rewrite (Permutation_length Hp). auto.
      + rewrite (Permutation_length Hp). auto.
    - split; [simpl; auto|]. unfold compact_from_entries; simpl. split.
      + destruct (Nat.leb_spec (length (if ordered then sortN es' else es')) 1).
        * intros _. apply short_sorted; auto.
        * intros ->. apply sortN_sorted.
      + intros ->. destruct (length (sortN es') <=? 1); auto. }
  destruct (Nat.ltb_spec (pow2 lgK) (length es)) as [Hl|Hl].
  - destruct (select_smallest tid 0%N tid_zero es (pow2 lgK)) as (pre & v & -> & Hp & Hv & Hsel); auto.
    { rewrite map_id; auto. }
    rewrite Hv. change (forall e, In e es -> In e (firstn (pow2 lgK) pre) <-> (e < v)%N) in Hsel.
    assert (Hvin : In v es) by (eapply Permutation_in; [symmetry; eauto|]; eapply nth_error_In; eauto).
    pose proof (proj1 (Hmem v) Hvin) as [Hv1 Hv2].
    apply Hfin.
    + lia.
    + apply firstn_NoDup. eapply Permutation_NoDup; eauto.
    + intros h. split.
      * intros Hh. assert (In h es) by (eapply Permutation_in; [symmetry; eauto|]; eapply firstn_In; eauto).
        split; [apply Hsel; auto|]. apply Hmem; auto.
      * intros (H1 & H2). assert (In h es) by (apply Hmem; split; auto; lia). apply Hsel; auto.
    + rewrite firstn_length. lia.
    + right. split; [lia|]. split; auto. rewrite firstn_length, <- (Permutation_length Hp). lia.
  - apply Hfin; auto; try lia.
    destruct (N.lt_ge_cases (t_theta (u_tab u)) m) as [Hlt|]; [|left; lia].
    right. assert (th = t_theta (u_tab u)) by (unfold th; lia). split; [lia|].
    destruct (ui_th _ _ _ _ _ _ un_tab0) as [C|(C1 & C2 & C3)].
    { pose proof (min_theta_le (nonempty_of ins) th0). fold m in H0. lia. }
    split; [|rewrite H; apply un_incl0; auto].
    assert (es = tlive (t_entries (u_tab u))).
    { rewrite Hes. rewrite (filter_ext_in _ (fun _ => true)).
      + clear. induction (tlive _); simpl; congruence.
      + intros e He. apply (ui_mem _ _ _ _ _ _ un_tab0) in He. apply N.ltb_lt. lia. }
    pose proof (ui_num _ _ _ _ _ _ un_tab0). rewrite H0 in *. lia.
Qed.

(** Results meeting [UnionSpec] are determined by the set of inputs. *)
Lemma filter_lt_len (l : list N) a b : (a <= b)%N ->
  length (filter (fun h => h <? a)%N l) <= length (filter (fun h => h <? b)%N l).
Proof.
  intros H. induction l as [|x r IH]; simpl; auto.
  destruct (N.ltb_spec x a), (N.ltb_spec x b); simpl; lia.
Qed.

Lemma union_spec_unique k th0 ins1 ins2 r1 r2 :
  UnionSpec k th0 ins1 r1 -> UnionSpec k th0 ins2 r2 ->
  (forall s, In s ins1 <-> In s ins2) -> min_theta th0 (nonempty_of ins1) = min_theta th0 (nonempty_of ins2) ->
  sk_theta r1 = sk_theta r2 /\ Permutation (sk_entries r1) (sk_entries r2) /\ sk_empty r1 = sk_empty r2.
Proof.
  intros [] [] Hins Hm.
  assert (Hall : forall h, In h (all_hashes ins1) <-> In h (all_hashes ins2)).
  { intros h. rewrite !all_hashes_In. split; intros (s & ? & ?); exists s; split; auto; apply Hins; auto. }
  assert (Hlt : forall ra rb a b, NoDup (sk_entries ra) -> NoDup (sk_entries rb) ->
     (forall h, In h (sk_entries ra) <-> (h < a)%N /\ In h (all_hashes ins1)) ->
     (forall h, In h (sk_entries rb) <-> (h < b)%N /\ In h (all_hashes ins1)) ->
     length (sk_entries ra) = k -> length (sk_entries rb) <= k -> (a < b)%N -> In a (all_hashes ins1) -> False).
  { intros ra rb a b N1 N2 M1 M2 L1 L2 Hab Ha.
    assert (length (a :: sk_entries ra) <= length (sk_entries rb)).
    { apply NoDup_incl_length.
      - constructor; auto. intros C. apply M1 in C. lia.
      - intros x [<-|Hx]; apply M2; [auto|]. apply M1 in Hx. split; [lia|tauto]. }
    simpl in *. lia. }
  assert (Hth : sk_theta r1 = sk_theta r2).
  { assert (M2 : forall h, In h (sk_entries r2) <-> (h < sk_theta r2)%N /\ In h (all_hashes ins1)) by (intros; rewrite us_mem1, Hall; tauto).
    destruct (N.lt_trichotomy (sk_theta r1) (sk_theta r2)) as [C|[C|C]]; auto; exfalso.
    - destruct us_theta0 as [E|(E1 & E2 & E3)]; [lia|]. eapply (Hlt r1 r2); eauto.
    - destruct us_theta1 as [E|(E1 & E2 & E3)]; [lia|]. eapply (Hlt r2 r1); eauto. apply Hall; auto. }
  split; auto. split.
  - apply NoDup_Permutation; auto. intros h. rewrite us_mem0, us_mem1, Hth, Hall. tauto.
  - assert (sk_empty r1 = true <-> sk_empty r2 = true).
    { rewrite us_empty0, us_empty1. split; intros H s Hs; apply H, Hins; auto. }
    destruct (sk_empty r1), (sk_empty r2); intuition congruence.
Qed.

Lemma min_theta_perm l1 l2 th0 : Permutation l1 l2 -> min_theta th0 l1 = min_theta th0 l2.
Proof.
  intros H; revert th0; induction H; intros th0; unfold min_theta in *; simpl; auto.
  - f_equal. lia.
  - rewrite IHPermutation1; auto.
Qed.

(** ** Intersection *)
Lemma lg_size_ok n : (0 < n)%N -> let lg := lg_size_from_count n in
  (0 < lg)%N /\ (n <= 15 * 2 ^ lg / 16)%N /\ (lg <= N.log2 n + 2)%N.
Proof.
  intros Hn. unfold lg_size_from_count. cbv zeta.
  pose proof (N.log2_spec n Hn) as [H1 H2].
  destruct (N.ltb_spec (15 * 2 ^ (N.log2 n + 1) / 16) n) as [H|H].
  - split; [lia|]. split; [|lia].
    replace (N.log2 n + 2)%N with (N.succ (N.succ (N.log2 n))) by lia. rewrite N.pow_succ_r'.
    apply N.div_le_lower_bound; lia.
  - split; [lia|]. split; lia.
Qed.

Lemma lg_size_capacity n : 0 < n -> let lg := lg_size_from_count (N.of_nat n) in
  (lg - 1 < lg)%N /\ n <= compute_capacity lg (lg - 1) /\ n + 1 <= pow2 lg /\ (0 < lg)%N.
Proof.
  intros Hn lg. destruct (lg_size_ok (N.of_nat n)) as (H1 & H2 & _); [lia|]. fold lg in H1, H2.
  assert (pow2 lg <> 0) by (pose proof (pow2_pos lg); lia).
  split; [lia|]. unfold compute_capacity. destruct (N.leb_spec lg (lg - 1)); [lia|].
  assert (Hd : n <= 15 * pow2 lg / 16).
  { assert (N.to_nat (15 * 2 ^ lg / 16) = 15 * pow2 lg / 16).
    { rewrite N2Nat.inj_div, N2Nat.inj_mul. reflexivity. }
    lia. }
  split; auto. split; [|lia]. lia.
Qed.

(** A table that only ever receives [cap] insertions. *)
Record FInv (t : ttable) (th : N) (L : list N) : Prop := {
  fi_tok : ttok (t_lgCur t) (t_entries t);
  fi_num : t_num t = length (tlive (t_entries t));
  fi_perm : Permutation (tlive (t_entries t)) L;
  fi_theta : t_theta t = th;
  fi_lt : forall h, In h L -> (h < th)%N;
}.

Lemma FInv_insert t th L e lg i : FInv t th L -> t_lgCur t = lg -> t_lgNom t = (lg - 1)%N -> (0 < lg)%N ->
  length L < compute_capacity lg (lg - 1) -> e <> 0%N -> (e < th)%N -> 
  find tid (t_entries t) (t_lgCur t) e = PEmpty i ->
  exists t', insert tid 0%N t i e = Some t' /\ FInv t' th (e :: L) /\ t_lgCur t' = lg /\ t_lgNom t' = (lg - 1)%N /\
     t_empty t' = t_empty t.
Proof.
  intros [] Hlg Hnom Hlg0 Hcap He Hlt Hf.
  assert (Hc := capacity_lt lg (lg - 1)).
  pose proof (Permutation_length fi_perm0) as HL.
  destruct (insert_spec tid 0%N tid_zero t e i) as
    (t' & H1 & H2 & H3 & H4 & H5 & H6 & H7 & H8 & H9); auto; try lia.
  - rewrite Hlg; lia.
  - intros x Hx. change (tid x) with x. rewrite fi_theta0. apply fi_lt0. eapply Permutation_in; eauto.
  - change (tid e) with e. lia.
  - exists t'. split; auto. rewrite Hlg, Hnom in H9.
    destruct H9 as [(Ht & Hn & [(Hc1 & Hl)|(Hc1 & Hle & Hl)])|(Ht & Hn & Hl & Hc1 & Hlg1 & _)]; try lia.
    split; [|rewrite Hl, H4, Hnom; auto].
    constructor; auto; try congruence.
    + apply NoDup_Permutation.
      * eapply tlive_NoDup; eauto.
      * constructor.
        { intros C. destruct (find_cases tid 0%N tid_zero (t_lgCur t) (t_entries t) e) as
            [(j & x & Hf' & _)|(j & Hf' & _ & Hnot & _)]; auto; try congruence.
          - rewrite Hlg. lia.
          - apply (Hnot e); auto. eapply Permutation_in; [symmetry; apply fi_perm0|auto]. }
        eapply Permutation_NoDup; [apply fi_perm0|]. eapply tlive_NoDup; eauto.
      * intros x. rewrite H8. change (tid x) with x. simpl. split.
        { intros ([Hx| ->] & _); auto. right. eapply Permutation_in; eauto. }
        intros [<-|Hx]; [split; [auto|lia]|]. split; [left; eapply Permutation_in; [symmetry|]; eauto|].
        specialize (fi_lt0 x Hx). lia.
    + intros h [<-|Hh]; auto.
Qed.

Lemma FInv_fill_step t th L e lg : FInv t th L -> t_lgCur t = lg -> t_lgNom t = (lg - 1)%N -> (0 < lg)%N ->
  length L < compute_capacity lg (lg - 1) -> e <> 0%N -> (e < th)%N -> ~ In e L ->
  exists i t', find tid (t_entries t) (t_lgCur t) e = PEmpty i /\
     insert tid 0%N t i e = Some t' /\ FInv t' th (e :: L) /\ t_lgCur t' = lg /\ t_lgNom t' = (lg - 1)%N /\ t_empty t' = t_empty t.
Proof.
  intros I Hlg Hnom Hlg0 Hcap He Hlt Hnin. assert (Hc := capacity_lt lg (lg - 1)).
  pose proof (Permutation_length (fi_perm _ _ _ I)) as HL.
  destruct (find_cases tid 0%N tid_zero (t_lgCur t) (t_entries t) e) as
            [(j & x & Hf & Hx & Hh & _)|(j & Hf & _)].
  - apply I.
  - rewrite Hlg. lia.
  - exfalso. change (tid x) with x in Hh. subst x. apply Hnin. eapply Permutation_in; [apply I|].
    apply tlive_In. split; auto. eapply nth_error_In; eauto.
  - destruct (FInv_insert t th L e lg j) as (t' & H); auto. exists j, t'. auto.
Qed.

Lemma inter_fill_inv th lg : (0 < lg)%N -> forall l t L, FInv t th L -> t_lgCur t = lg -> t_lgNom t = (lg - 1)%N ->
  NoDup (l ++ L) -> (forall h, In h l -> (0 < h /\ h < th)%N) -> length l + length L <= compute_capacity lg (lg - 1) ->
  exists t' L', inter_fill l t = Some t' /\ inter_refill l t = Some t' /\ FInv t' th L' /\ Permutation L' (l ++ L) /\ t_empty t' = t_empty t /\ t_lgCur t' = lg.
Proof.
  intros Hlg0. induction l as [|e r IH]; intros t L I Hlg Hnom Hnd Hr Hcap; simpl in *.
  { exists t, L. do 5 (split; auto). }
  inversion Hnd as [|? ? Hnin Hnd']; subst. rewrite in_app_iff in Hnin.
  destruct (Hr e (or_introl eq_refl)).
  destruct (FInv_fill_step t th L e (t_lgCur t)) as (i & t1 & -> & -> & I1 & E1 & E2 & E3); auto; try lia.
  destruct (IH t1 (e :: L)) as (t' & L' & -> & -> & I2 & P & E4 & E5); auto.
  { eapply Permutation_NoDup; [apply Permutation_middle|]. constructor; auto. rewrite in_app_iff; auto. }
  { simpl. lia. }
  exists t', L'. do 3 (split; auto). split; [|split; congruence]. rewrite P. symmetry. apply Permutation_middle.
Qed.

Lemma FInv_new lg lgn rf th th0 e : (0 < lg)%N -> FInv (new_table 0%N lg lgn rf th th0 e) th [].
Proof.
  intros H. unfold new_table. destruct (N.ltb_spec 0 lg); [|lia].
  constructor; simpl; auto; try tauto.
  - apply tok_empty. reflexivity.
  - rewrite tlive_repeat. auto.
  - rewrite tlive_repeat. auto.
Qed.

Lemma FInv_find t th L e : FInv t th L -> length L < pow2 (t_lgCur t) ->
  (exists i, find tid (t_entries t) (t_lgCur t) e = PFound i /\ nth_error (t_entries t) i = Some e /\ In e L) \/
  (exists i, find tid (t_entries t) (t_lgCur t) e = PEmpty i /\ ~ In e L).
Proof.
  intros [] Hl. rewrite <- (Permutation_length fi_perm0) in Hl.
  destruct (find_cases tid 0%N tid_zero (t_lgCur t) (t_entries t) e) as
            [(j & x & Hf & Hx & Hh & Hnz)|(j & Hf & _ & Hnot & _)]; auto.
  - left. exists j. change (tid x) with x in Hh. subst x. split; auto. split; auto.
    eapply Permutation_in; eauto. apply tlive_In. split; auto. eapply nth_error_In; eauto.
  - right. exists j. split; auto. intros C. eapply Permutation_in in C; [|symmetry; eauto]. apply (Hnot _ C). reflexivity.
Qed.

Lemma inter_match_spec t0 th0 th em L ordered maxM : FInv t0 th0 L -> length L < pow2 (t_lgCur t0) ->
  let t := set_theta_empty t0 th em in forall l ms count,
  NoDup (ms ++ l) -> incl ms L -> (ordered = true -> StronglySorted N.le l) ->
  Nat.min (length L) (length ms + length l) <= maxM -> 
  exists ms' count', inter_match t ordered maxM l ms count = Some (ms ++ ms', count') /\
    NoDup (ms ++ ms') /\
    (forall h, In h ms' <-> In h l /\ In h L /\ (h < th)%N) /\ count' <= count + length l /\
    (ordered = false -> count' = count + length l).
Proof.
  intros I Hlen t. induction l as [|e r IH]; intros ms count Hnd Hincl Hord Hmax; simpl inter_match.
  { exists [], count. rewrite app_nil_r in *. split; auto. split; auto. split; [simpl; tauto|]. simpl; lia. }
  assert (Hnd2 : NoDup (ms ++ r) /\ ~ In e (ms ++ r)).
  { apply NoDup_remove in Hnd. auto. }
  destruct Hnd2 as [Hnd2 Hnin].
  assert (Hskip : ~ (In e L /\ (e < th)%N) -> 
    exists ms' count', inter_match t ordered maxM r ms (count + 1) = Some (ms ++ ms', count') /\
    NoDup (ms ++ ms') /\
    (forall h, In h ms' <-> In h (e :: r) /\ In h L /\ (h < th)%N) /\ count' <= count + length (e :: r) /\
    (ordered = false -> count' = count + length (e :: r))).
  { intros He. destruct (IH ms (count + 1)) as (ms' & c' & E1 & E2 & E3 & E4 & E5); auto.
    { intros Ho; specialize (Hord Ho); inversion Hord; auto. }
    { simpl in Hmax. lia. }
    exists ms', c'. split; auto. split; auto. simpl. split; [|split; [lia|intros; rewrite E5 by auto; lia]].
    intros h. rewrite E3. split; [tauto|]. intros ([<-|?] & ?); tauto. }
  change (t_theta t) with th. change (t_entries t) with (t_entries t0). change (t_lgCur t) with (t_lgCur t0).
  destruct (N.ltb_spec e th) as [Hlt|Hge].
  - destruct (FInv_find t0 th0 L e I Hlen) as [(i & -> & Hx & HeL)|(i & -> & HeL)].
    + destruct (Nat.eqb_spec (length ms) maxM) as [C|C].
      { exfalso. assert (length (e :: ms) <= length L).
        { apply NoDup_incl_length. - constructor; [rewrite in_app_iff in Hnin; tauto|].
            clear - Hnd2. induction ms; simpl in *; inversion Hnd2; subst; constructor; auto. rewrite in_app_iff in *; tauto.
          - intros y [<-|Hy]; auto. }
        simpl in *. lia. }
      rewrite Hx. destruct (IH (ms ++ [e]) (count + 1)) as (ms' & c' & E1 & E2 & E3 & E4 & E5); auto.
      { rewrite <- app_assoc. auto. }
      { intros y Hy. rewrite in_app_iff in Hy. destruct Hy as [Hy|[<-|[]]]; auto. }
      { intros Ho; specialize (Hord Ho); inversion Hord; auto. }
      { rewrite app_length. simpl in *. lia. }
      exists (e :: ms'), c'. rewrite <- app_assoc in *. simpl in *. split; auto. split; auto.
      split; [|split; [lia|intros; rewrite E5 by auto; lia]].
      intros h. rewrite E3. split; [intros [<-|?]; tauto|]. intros ([<-|?] & ?); auto.
    + apply Hskip. tauto.
  - destruct ordered.
    + exists [], count. rewrite app_nil_r. split; auto. split.
      { clear - Hnd2. induction ms; simpl in *; inversion Hnd2; subst; constructor; auto. rewrite in_app_iff in *; tauto. }
      split; [|split; [lia|discriminate]]. specialize (Hord eq_refl). inversion Hord as [|? ? Hs Hf]; subst.
      rewrite Forall_forall in Hf. intros h. split; [intros []|]. intros ([<-|Hh] & HL & Hlt); [lia|].
      specialize (Hf h Hh). lia.
    + apply Hskip. lia.
Qed.

Definition common (ins : list sketch) (h : N) : Prop := forall s, In s ins -> In h (sk_entries s).

Record IInv (seed : N) (x : inter) (ins : list sketch) : Prop := {
  ii_seed : i_seed x = seed;
  ii_valid : i_valid x = match ins with [] => false | _ => true end;
  ii_first : ins = [] -> x = new_inter seed;
  ii_empty : t_empty (i_tab x) = true -> t_theta (i_tab x) = MaxTheta /\ t_num (i_tab x) = 0 /\ forall h, ~ common ins h;
  ii_nonempty : t_empty (i_tab x) = false -> t_theta (i_tab x) = min_theta MaxTheta ins /\
     forall s, In s ins -> sk_empty s = false;
  ii_tab : ins <> [] ->
    (t_num (i_tab x) = 0 /\ forall h, (h < t_theta (i_tab x))%N -> ~ common ins h) \/
    (exists L, L <> [] /\ FInv (i_tab x) (t_theta (i_tab x)) L /\ length L < pow2 (t_lgCur (i_tab x)) /\
       forall h, In h L <-> (h < t_theta (i_tab x))%N /\ common ins h);
}.

Lemma new_inter_inv seed : IInv seed (new_inter seed) [].
Proof. constructor; simpl; auto; try discriminate; try tauto. Qed.

Lemma common_app ins s h : common (ins ++ [s]) h <-> common ins h /\ In h (sk_entries s).
Proof.
  unfold common. split.
  - intros H. split; [intros s' Hs'|]; apply H; rewrite in_app_iff; simpl; auto.
  - intros [H1 H2] s' Hs'. rewrite in_app_iff in Hs'. destruct Hs' as [?|[<-|[]]]; auto.
Qed.

Lemma inter_refill_ext l th lg e : (0 < lg)%N -> NoDup l -> (forall h, In h l -> (0 < h /\ h < th)%N) ->
  length l <= compute_capacity lg (lg - 1) ->
  exists t' , inter_fill l (new_table 0%N lg (lg - 1) 0 th MaxTheta e) = Some t' /\
    inter_refill l (new_table 0%N lg (lg - 1) 0 th MaxTheta e) = Some t' /\
    FInv t' th l /\ t_empty t' = e /\ length l < pow2 (t_lgCur t').
Proof.
  intros Hlg Hnd Hr Hc.
  destruct (inter_fill_inv th lg Hlg l (new_table 0%N lg (lg - 1) 0 th MaxTheta e) []) as (t' & L' & E1 & E2 & E3 & E4 & E5 & E6); auto.
  - apply FInv_new; auto.
  - rewrite app_nil_r; auto.
  - simpl. lia.
  - exists t'. do 2 (split; auto). rewrite app_nil_r in E4. split.
    + destruct E3. constructor; auto.
      * rewrite fi_perm0. auto.
      * intros h Hh. apply Hr; auto.
    + split; auto. rewrite E6. pose proof (capacity_lt lg (lg - 1)). lia.
Qed.

Lemma inter_update_inv seed x ins s :
  IInv seed x ins -> wf_sketch s -> (sk_empty s = true \/ sk_seed s = seed) ->
  exists x', inter_update x s = Some x' /\ IInv seed x' (ins ++ [s]).
Proof.
  intros [] W Hseed. unfold inter_update. cbv zeta.
  assert (Hne : ins ++ [s] <> []) by (destruct ins; discriminate).
  assert (Hval : true = match ins ++ [s] with [] => false | _ => true end) by (destruct ins; auto).
  destruct (t_empty (i_tab x)) eqn:Ee.
  { (* already empty: the update is ignored *)
    exists x. split; auto.
    destruct (ii_empty0 eq_refl) as (H1 & H2 & H3).
    assert (Hins : ins <> []).
    { intros C. rewrite (ii_first0 C) in Ee. discriminate. }
    constructor; auto; try congruence.
    - rewrite ii_valid0. destruct ins; auto.
    - intros _. split; auto. split; auto. intros h C. apply common_app in C. apply (H3 h). tauto.
    - intros _. left. split; auto. intros h _ C. apply common_app in C. apply (H3 h). tauto. }
  simpl orb. destruct (ii_nonempty0 eq_refl) as [Hth Hall].
  assert (Hs : negb (sk_empty s) && negb (sk_seed s =? i_seed x)%N = false).
  { destruct Hseed as [->| ->]; auto. rewrite ii_seed0, N.eqb_refl. apply andb_false_r. }
  rewrite Hs. clear Hs.
  set (th := if sk_empty s then MaxTheta else N.min (t_theta (i_tab x)) (sk_theta s)).
  assert (Hth' : sk_empty s = false -> th = min_theta MaxTheta (ins ++ [s])).
  { intros E. unfold th. rewrite E, min_theta_app, Hth. auto. }
  assert (Hall' : sk_empty s = false -> forall s', In s' (ins ++ [s]) -> sk_empty s' = false).
  { intros E s' Hs'. rewrite in_app_iff in Hs'. destruct Hs' as [?|[<-|[]]]; auto. }
  assert (HthM : sk_empty s = true -> th = MaxTheta) by (unfold th; intros ->; auto).
  assert (Hno : sk_empty s = true -> forall h, ~ common (ins ++ [s]) h).
  { intros E h C. apply common_app in C. destruct (wf_empty _ W E) as [E' _]. rewrite E' in C. apply C. }
  assert (Hthle : (th <= t_theta (i_tab x))%N \/ sk_empty s = true).
  { unfold th. destruct (sk_empty s); auto. left. lia. }
  simpl t_num.
  destruct (i_valid x && (t_num (i_tab x) =? 0)) eqn:E0.
  { apply andb_true_iff in E0. destruct E0 as [Hv Hn]. apply Nat.eqb_eq in Hn.
    assert (Hins : ins <> []) by (intros C; rewrite C in ii_valid0; congruence).
    eexists. split; [reflexivity|]. 
    assert (Hnc : forall h, (h < th)%N -> ~ common (ins ++ [s]) h).
    { intros h Hh. destruct (sk_empty s) eqn:Es; [apply Hno; auto|].
      destruct (ii_tab0 Hins) as [[_ H]|(L & HL & F & _)].
      - intros C. apply common_app in C. apply (H h); [|tauto]. destruct Hthle; [lia|discriminate].
      - destruct F. rewrite fi_num0, (Permutation_length fi_perm0) in Hn. destruct L; [tauto|discriminate]. }
    constructor; simpl; auto.
    - intros C; destruct ins; discriminate. }
  destruct (Nat.eqb_spec (length (sk_entries s)) 0) as [El|El].
  { eexists. split; [reflexivity|].
    assert (Hnc : forall h, ~ common (ins ++ [s]) h).
    { intros h C. apply common_app in C. destruct (sk_entries s); [apply C|discriminate]. }
    constructor; simpl; auto.
    - intros C; destruct ins; discriminate. }
  destruct (sk_empty s) eqn:Es.
  { exfalso. destruct (wf_empty _ W Es) as [E' _]. rewrite E' in El. apply El; auto. }
  specialize (Hth' eq_refl). specialize (Hall' eq_refl). destruct Hthle as [Hthle|]; [|discriminate].
  destruct (i_valid x) eqn:Ev; simpl negb; cbv iota.
  - (* later update *)
    simpl in E0. apply Nat.eqb_neq in E0.
    assert (Hins : ins <> []) by (intros C; rewrite C in ii_valid0; congruence).
    destruct (ii_tab0 Hins) as [[C _]|(L & HL & F & HLlen & HLin)]; [tauto|].
    (* the table with its theta lowered *)
    set (t1 := set_theta_empty (i_tab x) th false).
    assert (Hnum : t_num (i_tab x) = length L).
    { destruct F. rewrite fi_num0. apply Permutation_length; auto. }
    destruct (inter_match_spec (i_tab x) _ th false L (sk_ordered s)
      (Nat.min (t_num (i_tab x)) (length (sk_entries s))) F HLlen (sk_entries s) [] 0)
      as (ms & c & E1 & E2 & E3 & E4 & E5); simpl app in *; try lia.
    { apply W. } { intros ? []. } { apply W. } { rewrite Hnum. simpl. lia. }
    fold t1 in E1. rewrite E1. simpl in E4, E5.
    destruct (Nat.ltb_spec (length (sk_entries s)) c); [lia|].
    assert (Hchk : negb (sk_ordered s) && (c <? length (sk_entries s)) = false).
    { destruct (sk_ordered s); auto. rewrite E5 by auto. simpl. apply Nat.ltb_irrefl. }
    rewrite Hchk. clear Hchk.
    assert (Hms : forall h, In h ms <-> (h < th)%N /\ common (ins ++ [s]) h).
    { intros h. rewrite E3, common_app, HLin. split; [intuition auto|]. intros (H1 & H2 & H3). intuition auto. lia. }
    destruct (Nat.eqb_spec (length ms) 0) as [Em|Em].
    { assert (Hnc : forall h, (h < th)%N -> ~ common (ins ++ [s]) h).
      { intros h Hh C. assert (In h ms) by (apply Hms; auto). destruct ms; [contradiction|discriminate]. }
      eexists. split; [reflexivity|].
      destruct (N.eqb_spec th MaxTheta) as [ET|ET]; constructor; simpl; auto; try (intros C; destruct ins; discriminate); try discriminate.
      intros _. split; auto. split; auto. intros h C. apply (Hnc h); auto.
      apply common_app in C. destruct C as [_ C]. pose proof (wf_range _ W h C). pose proof (wf_theta _ W). lia. }
    destruct (lg_size_capacity (length ms)) as (G1 & G2 & G3 & G4); [lia|].
    destruct (inter_refill_ext ms th _ false G4 E2) as (t' & _ & -> & I' & Ee' & Hl'); auto.
    { intros h Hh. pose proof (proj1 (Hms h) Hh) as [H1 H2]. split; auto.
      apply common_app in H2. apply (wf_range _ W h). tauto. }
    eexists. split; [reflexivity|].
    constructor; simpl; auto; try (intros C; destruct ins; discriminate); try congruence.
    all: try (rewrite Ee'; discriminate); try solve [rewrite (fi_theta _ _ _ I'); auto].
    + intros _. right. exists ms. rewrite (fi_theta _ _ _ I'). split; auto. intros C; rewrite C in Em; auto.
  - (* first update *)
    destruct ins as [|s0 ins0]; [|discriminate]. simpl app in *.
    destruct (lg_size_capacity (length (sk_entries s))) as (G1 & G2 & G3 & G4); [lia|].
    assert (Hx : x = new_inter seed) by auto.
    assert (Hth2 : th = sk_theta s).
    { rewrite Hth'. unfold min_theta; simpl. pose proof (wf_theta _ W). lia. }
    destruct (inter_refill_ext (sk_entries s) th _ false G4) as (t' & -> & _ & I' & Ee' & Hl'); auto.
    { apply W. } { intros h Hh. rewrite Hth2. apply (wf_range _ W h Hh). }
    assert (Hn : t_num t' = length (sk_entries s)).
    { destruct I'. rewrite fi_num0. apply Permutation_length; auto. }
    rewrite Hn, Nat.eqb_refl. eexists. split; [reflexivity|].
    constructor; simpl; auto; try discriminate; try congruence.
    all: try (rewrite Ee'; discriminate); try solve [rewrite (fi_theta _ _ _ I'); auto].
    + intros _. right. exists (sk_entries s). rewrite (fi_theta _ _ _ I'). split; [destruct (sk_entries s); [exfalso; apply El; reflexivity|discriminate]|].
      do 2 (split; auto). intros h. unfold common. simpl. split.
      * intros Hh. split; [apply I'; auto|]. intros ? [<-|[]]. auto.
      * intros [_ H]. apply H; auto.
Qed.

Lemma inter_result_spec seed x ins ordered : IInv seed x ins -> ins <> [] ->
  exists r, inter_result x ordered = Some r /\ sk_seed r = seed /\
    (forall h, In h (sk_entries r) <-> (h < sk_theta r)%N /\ common ins h) /\ NoDup (sk_entries r) /\
    (sk_empty r = true -> sk_theta r = MaxTheta /\ sk_entries r = [] /\ forall h, ~ common ins h) /\
    (sk_empty r = false -> sk_theta r = min_theta MaxTheta ins /\ forall s, In s ins -> sk_empty s = false) /\
    (sk_ordered r = true -> StronglySorted N.le (sk_entries r)) /\ (ordered = true -> sk_ordered r = true).
Proof.
  intros [] Hins. unfold inter_result. rewrite ii_valid0. destruct ins as [|s0 ins0]; [tauto|].
  set (ins := s0 :: ins0) in *. cbv zeta.
  set (es0 := if 0 <? t_num (i_tab x) then _ else _).
  set (es := if _ && ordered then _ else _).
  eexists. split; [reflexivity|]. split; [auto|].
  assert (Hp : Permutation es es0) by (unfold es; destruct (_ && _); auto; apply sortN_perm).
  assert (Hes0 : (forall h, In h es0 <-> (h < t_theta (i_tab x))%N /\ common ins h) /\ NoDup es0 /\ (t_num (i_tab x) = 0 -> es0 = [])).
  { unfold es0. destruct (ii_tab0 Hins) as [[Hn Hc]|(L & HL & F & _ & HLin)].
    - rewrite Hn. simpl. split; [|split; [constructor|auto]]. intros h. split; [tauto|]. intros [H1 H2]. apply (Hc h H1 H2).
    - destruct F. assert (0 < t_num (i_tab x)).
      { rewrite fi_num0, (Permutation_length fi_perm0). destruct L; [tauto|simpl; lia]. }
      destruct (Nat.ltb_spec 0 (t_num (i_tab x))); [|lia]. split; [|split; [|lia]].
      + intros h. rewrite <- HLin. change (In h (tlive (t_entries (i_tab x))) <-> In h L). split; apply Permutation_in; auto. symmetry; auto.
      + change (NoDup (tlive (t_entries (i_tab x)))). eapply tlive_NoDup; eauto. }
  destruct Hes0 as (H1 & H2 & H3). simpl.
  split; [intros h; rewrite <- H1; split; apply Permutation_in; auto; symmetry; auto|].
  split; [eapply Permutation_NoDup; [symmetry; eauto|auto]|].
  split.
  { intros E. destruct (ii_empty0 E) as (? & Hn & ?). split; auto. split; auto.
    rewrite (H3 Hn) in Hp. apply Permutation_nil. symmetry; auto. }
  split; [auto|].
  split.
  - destruct (Nat.leb_spec (length es) 1); [intros; apply short_sorted; auto|]. intros ->.
    unfold es in *. rewrite andb_true_r in *. destruct (Nat.ltb_spec 0 (t_num (i_tab x))); [apply sortN_sorted|].
    rewrite H3 in * by lia. simpl in *. lia.
  - intros ->. destruct (length es <=? 1); auto.
Qed.

(** ** A-not-B *)
Lemma anotb_fill_spec ordered theta lg : forall l t,
  ttok lg (t_entries t) -> t_lgCur t = lg -> t_lgNom t = lg -> t_rf t = 0%N -> t_num t = length (tlive (t_entries t)) ->
  NoDup l -> (forall h, In h l -> (0 < h)%N /\ ~ In h (tlive (t_entries t))) ->
  (ordered = true -> StronglySorted N.le l) -> t_num t + length l < pow2 lg ->
  exists t', anotb_fill ordered theta l t = Some t' /\ ttok lg (t_entries t') /\ t_lgCur t' = lg /\
    length (tlive (t_entries t')) < pow2 lg /\
    forall h, In h (tlive (t_entries t')) <-> In h (tlive (t_entries t)) \/ (In h l /\ (h < theta)%N).
Proof.
  induction l as [|e r IH]; intros t Ht Hlg Hnom Hrf Hnum Hnd Hin Hord Hcap; simpl anotb_fill; simpl in Hcap.
  { exists t. do 3 (split; auto). split; [lia|]. intros h; simpl; tauto. }
  inversion Hnd as [|? ? Hnin Hnd']; subst.
  assert (Hord' : ordered = true -> StronglySorted N.le r) by (intros Ho; specialize (Hord Ho); inversion Hord; auto).
  destruct (N.ltb_spec e theta) as [Hlt|Hge].
  - destruct (Hin e (or_introl eq_refl)) as [He0 HeL].
    destruct (find_cases tid 0%N tid_zero (t_lgCur t) (t_entries t) e) as
            [(j & x & Hf & Hx & Hh & Hnz)|(j & Hf & Hj & Hnot & _)]; auto; try lia.
    { exfalso. apply HeL. change (tid x) with x in Hh. subst x. apply tlive_In. split; auto. eapply nth_error_In; eauto. }
    rewrite Hf.
    destruct (insert_small tid 0%N tid_zero t e j) as (t1 & -> & H1 & H2 & H3 & H4 & H5 & H6 & H7); auto; try lia.
    { change (tid e) with e. lia. }
    destruct (IH t1) as (t' & E1 & E2 & E3 & E4 & E5); auto; try lia; try congruence.
    { intros h Hh. split; [apply Hin; right; auto|]. intros C. eapply Permutation_in in C; [|exact H7].
      destruct C as [<-|C]; [tauto|]. apply (Hin h); [right|]; auto. }
    exists t'. do 4 (split; auto). intros h. rewrite E5. split.
    + intros [C|C]; [|simpl; tauto]. eapply Permutation_in in C; [|exact H7]. destruct C as [<-|C]; simpl; auto.
    + intros [C|[[<-|C] C2]]; auto; left; (eapply Permutation_in; [symmetry; exact H7|]); simpl; auto.
  - destruct ordered.
    + exists t. do 3 (split; auto). split; [lia|]. specialize (Hord eq_refl). inversion Hord as [|? ? Hs Hf]; subst.
      rewrite Forall_forall in Hf. intros h; simpl. split; [tauto|]. intros [?|[[<-|Hh] C]]; auto; [lia|].
      specialize (Hf h Hh). lia.
    + destruct (IH t) as (t' & E1 & E2 & E3 & E4 & E5); auto; try lia.
      { intros h Hh. apply Hin. right; auto. }
      exists t'. do 4 (split; auto). intros h. rewrite E5. simpl. split; [tauto|]. intros [?|[[<-|?] ?]]; auto. lia.
Qed.

Lemma anotb_scan_spec ordered theta t lg : ttok lg (t_entries t) -> t_lgCur t = lg ->
  length (tlive (t_entries t)) < pow2 lg -> forall l, (ordered = true -> StronglySorted N.le l) ->
  anotb_scan ordered theta t l = Some (filter (fun e => negb (existsb (N.eqb e) (tlive (t_entries t))) && (e <? theta)%N) l).
Proof.
  intros Ht Hlg Hlen. induction l as [|e r IH]; intros Hord; simpl; auto.
  assert (Hord' : ordered = true -> StronglySorted N.le r) by (intros Ho; specialize (Hord Ho); inversion Hord; auto).
  specialize (IH Hord').
  destruct (N.ltb_spec e theta) as [Hlt|Hge]; [rewrite andb_true_r|rewrite andb_false_r].
  - subst lg. destruct (find_cases tid 0%N tid_zero (t_lgCur t) (t_entries t) e) as
            [(j & x & Hf & Hx & Hh & Hnz)|(j & Hf & Hj & Hnot & _)]; auto.
    + rewrite Hf. change (tid x) with x in Hh. subst x.
      assert (existsb (N.eqb e) (tlive (t_entries t)) = true) as ->; auto.
      apply existsb_exists. exists e. split; [|apply N.eqb_refl]. apply tlive_In. split; auto. eapply nth_error_In; eauto.
    + rewrite Hf, IH. assert (existsb (N.eqb e) (tlive (t_entries t)) = false) as ->; auto.
      apply Bool.not_true_iff_false. intros C. apply existsb_exists in C. destruct C as (y & Hy & E). apply N.eqb_eq in E. subst y.
      apply (Hnot e Hy). reflexivity.
  - destruct ordered; auto. specialize (Hord eq_refl). inversion Hord as [|? ? Hs Hf]; subst.
    rewrite Forall_forall in Hf. f_equal. symmetry.
    rewrite (filter_ext_in _ (fun _ => false)).
    + clear. induction r; auto.
    + intros h Hh. specialize (Hf h Hh). assert ((h <? theta)%N = false) as -> by (apply N.ltb_ge; lia). apply andb_false_r.
Qed.

Lemma StronglySorted_filter f l : StronglySorted N.le l -> StronglySorted N.le (filter f l).
Proof.
  induction 1 as [|x r Hs IH Hf]; simpl; [constructor|]. destruct (f x); auto. constructor; auto.
  rewrite Forall_forall in *. intros y Hy. apply filter_In in Hy. apply Hf; tauto.
Qed.

Lemma a_not_b_spec a b seed ordered : wf_sketch a -> wf_sketch b ->
  (sk_seed a = seed /\ sk_seed b = seed) ->
  exists r, a_not_b a b seed ordered = Some r /\ sk_seed r = seed /\
    sk_theta r = (if sk_empty a then MaxTheta else N.min (sk_theta a) (sk_theta b)) /\
    (forall h, In h (sk_entries r) <-> In h (sk_entries a) /\ ~ In h (sk_entries b) /\ (h < sk_theta r)%N) /\
    NoDup (sk_entries r) /\
    (sk_empty r = true <-> sk_empty a = true \/ (sk_entries r = [] /\ sk_theta r = MaxTheta)) /\
    (sk_ordered r = true -> StronglySorted N.le (sk_entries r)) /\ (ordered = true -> sk_ordered r = true).
Proof.
  intros Wa Wb [Sa Sb]. unfold a_not_b.
  pose proof (new_compact_wf a ordered Wa) as Wc.
  destruct (sk_empty a) eqn:Ea.
  { destruct (wf_empty _ Wa Ea) as [E1 E2]. eexists. split; [reflexivity|]. unfold new_compact in *. rewrite Ea in *. simpl.
    split; auto. split; auto. split; [rewrite E1; simpl; tauto|]. split; [constructor|]. split; [tauto|].
    split; [constructor|]. intros ->. apply orb_true_r. }
  destruct ((0 <? length (sk_entries a)) && sk_empty b) eqn:Eb.
  { apply andb_true_iff in Eb. destruct Eb as [El Eb]. apply Nat.ltb_lt in El.
    destruct (wf_empty _ Wb Eb) as [E1 E2]. eexists. split; [reflexivity|].
    assert (Hp : Permutation (sk_entries (new_compact a ordered)) (sk_entries a)).
    { unfold new_compact. rewrite Ea. simpl. destruct (ordered && _); auto. apply sortN_perm. }
    split; [auto|]. split; [simpl; pose proof (wf_theta _ Wa); lia|].
    split.
    { intros h. rewrite E1. simpl (sk_theta _). split.
      - intros Hh. eapply Permutation_in in Hh; eauto. split; auto. split; [tauto|]. apply (wf_range _ Wa h Hh).
      - intros [Hh _]. eapply Permutation_in; [symmetry|]; eauto. }
    split; [apply Wc|]. split.
    { simpl (sk_empty _). rewrite Ea. split; [discriminate|]. intros [?|[C _]]; [discriminate|].
      rewrite C in Hp. apply Permutation_nil in Hp. rewrite Hp in El. simpl in El. lia. }
    split; [apply Wc|]. simpl. intros ->. apply orb_true_r. }
  rewrite Sa, Sb, N.eqb_refl. simpl negb. cbv iota zeta.
  set (theta := N.min (sk_theta a) (sk_theta b)).
  set (F := filter (fun e => negb (existsb (N.eqb e) (sk_entries b)) && (e <? theta)%N) (sk_entries a)).
  set (o := if length (sk_entries b) =? 0 then _ else _).
  assert (Ho : o = Some F).
  { unfold o, F. destruct (Nat.eqb_spec (length (sk_entries b)) 0) as [E0|E0].
    { destruct (sk_entries b); [|discriminate]. f_equal. }
    destruct (sk_ordered a && sk_ordered b); auto.
    unfold anotb_hash. cbv zeta.
    set (lg := lg_size_from_count (N.of_nat (length (sk_entries b)))).
    destruct (lg_size_capacity (length (sk_entries b))) as (G1 & G2 & G3 & G4); [lia|]. fold lg in G1, G2, G3, G4.
    assert (E1 : t_entries (new_table 0%N lg lg 0 0 0 false) = repeat 0%N (pow2 lg)).
    { unfold new_table. simpl. destruct (N.ltb_spec 0 lg); [auto|lia]. }
    destruct (anotb_fill_spec (sk_ordered b) theta lg (sk_entries b) (new_table 0%N lg lg 0 0 0 false))
      as (t' & -> & H1 & H2 & H3 & H4); rewrite ?E1, ?tlive_repeat; auto.
    - apply tok_empty. reflexivity.
    - apply Wb.
    - intros h Hh. split; [apply (wf_range _ Wb h Hh)|auto].
    - apply Wb.
    - simpl t_num. pose proof (capacity_lt lg (lg - 1)). lia.
    - rewrite (anotb_scan_spec _ _ _ lg); auto; [|apply Wa]. f_equal. apply filter_ext_in. intros h Hh.
      destruct (N.ltb_spec h theta); [|rewrite !andb_false_r; auto]. rewrite !andb_true_r. f_equal.
      apply Bool.eq_iff_eq_true. rewrite !existsb_exists. split; intros (y & Hy & E); exists y; split; auto.
      + apply H4 in Hy. rewrite E1, tlive_repeat in Hy. simpl in Hy. tauto.
      + apply H4. right. split; auto. apply N.eqb_eq in E. subst y. auto. }
  rewrite Ho. clear o Ho.
  set (es := if ordered && negb (sk_ordered a) then sortN F else F).
  assert (Hp : Permutation es F) by (unfold es; destruct (ordered && negb (sk_ordered a)); auto; apply sortN_perm).
  eexists. split; [reflexivity|]. simpl.
  split; auto. split; auto.
  split.
  { intros h. transitivity (In h F); [split; apply Permutation_in; auto; symmetry; auto|].
    unfold F. rewrite filter_In, andb_true_iff, negb_true_iff, N.ltb_lt, <- Bool.not_true_iff_false, existsb_exists.
    split; intros (H1 & H2 & H3); split; auto; split; auto.
    - intros C. apply H2. exists h. split; auto. apply N.eqb_refl.
    - intros (y & Hy & E). apply N.eqb_eq in E. subst y. auto. }
  split. { eapply Permutation_NoDup; [symmetry; eauto|]. apply NoDup_filter. apply Wa. }
  split.
  { destruct (Nat.eqb_spec (length F) 0) as [E|E].
    - assert (es = []) as -> by (destruct F; [apply Permutation_nil; symmetry; auto|discriminate]).
      simpl. destruct (N.eqb_spec theta MaxTheta); split; auto; try discriminate. intros [?|[_ ?]]; [discriminate|congruence].
    - simpl. split; [discriminate|]. intros [?|[C _]]; [discriminate|]. rewrite C in Hp. apply Permutation_nil in Hp. rewrite Hp in E. simpl in E. tauto. }
  destruct (Nat.leb_spec (length es) 1); [split; [intros; apply short_sorted; auto|auto]|].
  unfold es. destruct (sk_ordered a) eqn:Eoa; simpl.
  - rewrite andb_false_r. split; auto. intros _. apply StronglySorted_filter. apply Wa. auto.
  - rewrite andb_true_r. split; auto. intros ->. apply sortN_sorted.
Qed.
