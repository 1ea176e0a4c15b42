(** * Property C69: tuple set operations that combine summaries in place.

    The tuple package has two ways to combine summaries: merge functions (values, C42/C43) and policies, which modify
    the stored summary object. Here summaries are objects in a heap, so that sharing between sketches is visible. *)
From Coq Require Import Sorting.Sorted Permutation.
From Verif Require Import Base QuickSelectModel ProbeModel HashtableModel HashtableProofs
  ThetaModel ThetaProofs ThetaProps TupleModel TupleProofs TupleProps TupleHeapModel TupleHeapProofs.
Local Open Scope nat_scope.

(** ** Specification vocabulary *)

(** The summary objects a sketch holds. *)
Definition objects (s : tsketch nat) : list nat := map snd (ts_entries s).
Definition all_objects (l : list (tsketch nat)) : list nat := flat_map objects l.
(** Every object exists. *)
Definition exist {S} (hp : list S) (l : list (tsketch nat)) : Prop := forall a, In a (all_objects l) -> a < length hp.
(** No two entries, of one sketch or of two, hold the same object. *)
Definition separate {S} (hp : list S) (l : list (tsketch nat)) : Prop := exist hp l /\ NoDup (all_objects l).

(** A history of Updates and Resets of a union with a policy. *)
Fixpoint hunrun {S} (ap : S -> S -> S) (u : tunion nat) (hp : list S) (ops : list (tunop nat)) : option (tunion nat * list S) :=
  match ops with
  | [] => Some (u, hp)
  | TUnUpdate s :: r => match hunion_update ap u hp s with None => None | Some (u', hp') => hunrun ap u' hp' r end
  | TUnReset :: r => hunrun ap (tunion_reset 0 u) hp r
  end.
(** The same, the caller passing a copy s.Compact(false) of each sketch. *)
Fixpoint hunrun_copies {S} (ap : S -> S -> S) (u : tunion nat) (hp : list S) (ops : list (tunop nat)) : option (tunion nat * list S) :=
  match ops with
  | [] => Some (u, hp)
  | TUnUpdate s :: r =>
    match hcompact hp s false with
    | None => None
    | Some (c, hp1) => match hunion_update ap u hp1 c with None => None | Some (u', hp') => hunrun_copies ap u' hp' r end
    end
  | TUnReset :: r => hunrun_copies ap (tunion_reset 0 u) hp r
  end.
(** The sketches passed in a history, Resets or not. *)
Definition passed (ops : list (tunop nat)) : list (tsketch nat) :=
  flat_map (fun op => match op with TUnUpdate s => [s] | TUnReset => [] end) ops.

Fixpoint hinterrun {S} (ap : S -> S -> S) (x : tinter nat) (hp : list S) (l : list (tsketch nat)) : option (tinter nat * list S) :=
  match l with [] => Some (x, hp) | s :: r => match hinter_update ap x hp s with None => None | Some (x', hp') => hinterrun ap x' hp' r end end.

(** ** Supporting lemmas *)
Notation hlive := (live (E := ent nat) ehash).

Lemma all_objects_app l1 l2 : all_objects (l1 ++ l2) = all_objects l1 ++ all_objects l2.
Proof. apply flat_map_app. Qed.
Lemma all_objects_snd l : all_objects l = map snd (flat_map (@ts_entries nat) l).
Proof. unfold all_objects. induction l as [|s r IH]; cbn [flat_map]; auto. rewrite IH. symmetry. apply map_app. Qed.
Lemma passed_app a b : passed (a ++ b) = passed a ++ passed b.
Proof. apply flat_map_app. Qed.

Lemma nodup_owned (l : list (ent nat)) : NoDup (map snd l) -> owned l.
Proof.
  induction l as [|x r IH]; cbn; intros H a b Ha Hb E; [destruct Ha|]. inversion H; subst.
  destruct Ha as [<-|Ha], Hb as [<-|Hb]; auto.
  - exfalso. apply H2. rewrite E. apply in_map. auto.
  - exfalso. apply H2. rewrite <- E. apply in_map. auto.
  - apply (IH H3); auto.
Qed.

Lemma NoDup_app_l' {A} (a b : list A) : NoDup (a ++ b) -> NoDup a.
Proof. induction a; cbn; intros H; constructor; inversion H; subst; auto. intros C. apply H2. apply in_app_iff. auto. Qed.
Lemma NoDup_app_disj {A} (a b : list A) : NoDup (a ++ b) -> forall x, In x a -> In x b -> False.
Proof.
  induction a as [|y r IH]; cbn; intros H x Ha Hb; auto. inversion H; subst. destruct Ha as [->|Ha]; [|eapply IH; eauto].
  apply H2. apply in_app_iff. auto.
Qed.

Lemma tunion_result_incl (u : tunion nat) ordered r : tunion_result u ordered = Some r ->
  incl (ts_entries r) (hlive (t_entries (tu_tab u))).
Proof.
  intros E e Hs. unfold tunion_result in E. destruct (t_empty (tu_tab u)). { injection E as <-. contradiction. }
  cbv zeta in E. set (es := if (_ <=? _)%N then filter _ (t_entries (tu_tab u)) else _) in E.
  assert (Hes : forall e, In e es -> In e (hlive (t_entries (tu_tab u)))).
  { intros y He. unfold es in He. apply live_In. destruct (N.leb_spec (t_theta (tu_tab u)) (tu_theta u)); apply filter_In in He as [He Hz]; split; auto.
    - destruct (N.eqb_spec (ehash y) 0); [discriminate|auto].
    - apply andb_true_iff in Hz as [Hz _]. destruct (N.eqb_spec (ehash y) 0); [discriminate|auto]. }
  assert (Hl : exists th l, (forall y, In y l -> In y es) /\
     r = tcompact_entries false ordered (tu_seed u) th (if ordered then sort_by_hash l else l)).
  { destruct (_ <? length es).
    - destruct (quick_select _ _ _ _ _) as [[a y]|] eqn:Eq; [|discriminate]. destruct (nth_error a _); [|discriminate].
      injection E as <-. eexists _, _. split; [|reflexivity]. intros z Hz. apply firstn_In in Hz.
      eapply Permutation_in; [|exact Hz]. symmetry. eapply qs_loop_perm. exact Eq.
    - injection E as <-. eexists _, _. split; [|reflexivity]. auto. }
  destruct Hl as (th & l & A & ->). cbn in Hs. apply Hes, A.
  destruct ordered; auto. eapply Permutation_in; [apply sort_by_hash_perm|exact Hs].
Qed.

Section Runs.
  Context {S : Type}.
  Variable s0 : S.

  Lemma reported_same hp hp' s : (forall a, In a (objects s) -> nth_error hp' a = nth_error hp a) -> reported s0 hp' s = reported s0 hp s.
  Proof.
    intros H. unfold reported. f_equal. apply map_ext_in. intros e He. f_equal.
    assert (E := H (snd e) (in_map snd _ _ He)). rewrite <- !nth_default_eq. unfold nth_default. rewrite E. auto.
  Qed.
  Lemma erase_reported hp s : erase_sk (reported s0 hp s) = erase_sk s.
  Proof. unfold erase_sk, reported. cbn. rewrite map_map. auto. Qed.

  Lemma vs_rep (ap : S -> S -> S) hp s : (forall e, In e (ts_entries s) -> fst e <> 0%N) -> vs s0 hp s = reported s0 hp s.
  Proof. intros H. unfold vs, reported. f_equal. apply map_ext_in. intros e He. apply (rd_pos s0 ap). specialize (H e He). lia. Qed.

  Definition note (hp : list S) (acc : list (tsketch S)) (op : tunop nat) : list (tsketch S) :=
    match op with TUnUpdate s => acc ++ [reported s0 hp s] | TUnReset => [] end.
  Lemma note_ext hp hp' : forall ops acc, (forall s, In s (passed ops) -> reported s0 hp' s = reported s0 hp s) ->
    fold_left (note hp') ops acc = fold_left (note hp) ops acc.
  Proof.
    induction ops as [|op r IH]; intros acc H; cbn; auto. destruct op; cbn in *.
    - rewrite H by auto. apply IH. auto.
    - apply IH. auto.
  Qed.
  Lemma note_presented hp ops : fold_left (note hp) ops [] = map (reported s0 hp) (tpresented ops).
  Proof.
    assert (H : forall ops acc, fold_left (note hp) ops (map (reported s0 hp) acc) =
      map (reported s0 hp) (fold_left (fun acc op => match op with TUnUpdate s => acc ++ [s] | TUnReset => [] end) ops acc)).
    { clear ops. induction ops as [|op r IH]; intros acc; cbn; auto. destruct op; cbn.
      - rewrite <- IH, map_app. auto.
      - rewrite <- IH. auto. }
    apply (H ops []).
  Qed.

  Variable ap : S -> S -> S.
  Variables (lgK rf th0 seed : N).
  Hypothesis G : good_params lgK rf th0.

  Definition okop (op : tunop nat) : Prop := match op with TUnUpdate s => tinput seed s | TUnReset => True end.

  Lemma hunrun_inv : forall ops u hp ins seen,
    TUnInv ap lgK rf th0 seed (vu s0 hp u) ins -> incl (hlive (t_entries (tu_tab u))) seen ->
    NoDup (map snd seen ++ all_objects (passed ops)) -> (forall a, In a (map snd seen ++ all_objects (passed ops)) -> a < length hp) ->
    Forall okop ops ->
    exists u' hp', hunrun ap u hp ops = Some (u', hp') /\ TUnInv ap lgK rf th0 seed (vu s0 hp' u') (fold_left (note hp) ops ins) /\
      length hp' = length hp /\ incl (hlive (t_entries (tu_tab u'))) (seen ++ flat_map (@ts_entries nat) (passed ops)) /\
      (forall a, ~ In a (map snd seen ++ all_objects (passed ops)) -> nth_error hp' a = nth_error hp a).
  Proof.
    pose proof G as (HK & Hrf & _).
    induction ops as [|op r IH]; intros u hp ins seen I Hl Hnd Hin Hok; cbn [hunrun fold_left].
    { exists u, hp. cbn. rewrite app_nil_r. auto 10. }
    inversion Hok as [|? ? Ho Hok']; subst. destruct op as [s|].
    - destruct Ho as [W Hs]. change (passed (TUnUpdate s :: r)) with (s :: passed r) in *. cbn [all_objects flat_map] in *. fold (all_objects (passed r)) in *.
      rewrite app_assoc in Hnd, Hin.
      assert (Hm : map snd seen ++ objects s = map snd (seen ++ ts_entries s)) by (rewrite map_app; auto). rewrite Hm in *.
      assert (Hsub : incl (hlive (t_entries (tu_tab u)) ++ ts_entries s) (seen ++ ts_entries s)).
      { intros e. rewrite !in_app_iff. intros [He|He]; auto. }
      assert (O : owned (seen ++ ts_entries s)) by (apply nodup_owned; eapply NoDup_app_l'; eauto).
      assert (V : inside hp (seen ++ ts_entries s)).
      { intros e He. apply Hin. apply in_app_iff. left. apply in_map. auto. }
      destruct (hunion_update_sim s0 ap lgK rf th0 seed u hp ins s) as (u1 & hp1 & E & I1 & L1 & Hl1 & F1); auto; try lia.
      { eapply owned_incl; eauto. } { eapply inside_incl; eauto. }
      rewrite E.
      assert (Hsame : forall s', In s' (s :: passed r) -> s' <> s \/ True -> True) by auto. clear Hsame.
      assert (Hrest : forall a, In a (all_objects (passed r)) -> nth_error hp1 a = nth_error hp a).
      { intros a Ha. apply F1. intros C. apply in_map_iff in C as (e & <- & He).
        apply (NoDup_app_disj _ _ Hnd (snd e)); auto. apply in_map. apply in_app_iff. auto. }
      destruct (IH u1 hp1 (ins ++ [vs s0 hp s]) (seen ++ ts_entries s)) as (u' & hp' & E' & I' & L' & Hl' & F'); auto.
      { intros e He. apply Hsub, Hl1. auto. }
      { intros a Ha. rewrite L1. auto. }
      exists u', hp'. split; auto. split.
      { cbn [note]. rewrite <- (vs_reported s0 ap hp s W). rewrite <- (note_ext hp hp1); auto. intros s' Hs'. apply reported_same.
        intros a Ha. apply Hrest. apply in_flat_map. eauto. }
      split; [congruence|]. split. { cbn [flat_map]. rewrite app_assoc. auto. }
      intros a Ha. rewrite app_assoc, Hm in Ha. rewrite F' by auto. apply F1. intros C. apply Ha. apply in_app_iff. left.
      apply in_map_iff in C as (e & <- & He). apply in_map. apply in_app_iff. auto.
    - change (passed (TUnReset :: r)) with (passed r) in *.
      destruct (hunion_reset_sim s0 ap lgK rf th0 seed u hp ins) as [I1 Hl1]; auto; try lia.
      destruct (IH (tunion_reset 0 u) hp [] seen) as (u' & hp' & E' & I' & L' & Hl' & F'); auto.
      { rewrite Hl1. intros e []. }
      exists u', hp'. auto 10.
  Qed.

  Lemma hunrun_new hp ops : separate hp (passed ops) -> Forall okop ops ->
    exists u' hp', hunrun ap (new_tunion 0 lgK rf th0 seed) hp ops = Some (u', hp') /\
      TUnInv ap lgK rf th0 seed (vu s0 hp' u') (map (reported s0 hp) (tpresented ops)) /\
      length hp' = length hp /\ incl (hlive (t_entries (tu_tab u'))) (flat_map (@ts_entries nat) (passed ops)) /\
      (forall a, ~ In a (all_objects (passed ops)) -> nth_error hp' a = nth_error hp a).
  Proof.
    intros [Hi Hn] Hok. pose proof G as (HK & Hrf & _). destruct (new_hunion s0 ap lgK rf th0 seed hp) as [I Hl]; auto; try lia.
    destruct (hunrun_inv ops (new_tunion 0 lgK rf th0 seed) hp [] []) as (u' & hp' & A & B & C & D & F); auto.
    { rewrite Hl. intros e []. }
    exists u', hp'. rewrite <- note_presented. auto.
  Qed.

  Lemma hunresult hp u ins ordered : TUnInv ap lgK rf th0 seed (vu s0 hp u) ins ->
    exists r, tunion_result u ordered = Some r /\ incl (ts_entries r) (hlive (t_entries (tu_tab u))) /\
      UnionSpec (pow2 lgK) th0 (map erase_sk ins) (erase_sk r) /\
      (forall h x, In (h, x) (ts_entries (reported s0 hp r)) -> combined ap (summaries_for h ins) = Some x) /\
      (ordered = true -> StronglySorted N.le (thashes r)).
  Proof.
    intros I. pose proof I as [[sn J] _].
    destruct (union_result_spec _ _ _ _ _ _ _ ordered J) as (r' & Hr & Hs & Hw & Ho & Ho2).
    rewrite <- tunion_result_er in Hr. destruct (tunion_result (vu s0 hp u) ordered) as [rv|] eqn:Er; [|discriminate].
    cbn [option_map] in Hr. injection Hr as <-.
    pose proof Er as Er'. rewrite tunion_result_rd in Er'. destruct (tunion_result u ordered) as [r|] eqn:Eu; [|discriminate].
    cbn [option_map] in Er'. injection Er' as <-. exists r. rewrite erase_vs in *. split; auto.
    pose proof (tunion_result_incl _ _ _ Eu) as Hi. split; auto. split; auto.
    split. { intros h x. rewrite <- (vs_rep ap hp r).
      - intros Hx. apply (tunion_result_sum ap _ _ _ _ _ _ _ _ I Er h x Hx).
      - intros e He. apply Hi in He. apply live_In in He. apply He. }
    intros E. apply Ho. auto.
  Qed.

  Lemma tcompact_false (s : tsketch S) : tcompact s false = s.
  Proof. destruct s as [e t sd em o]. unfold tcompact. cbn. rewrite orb_false_r. auto. Qed.

  Lemma hunrun_copies_inv base : forall ops u hp ins,
    TUnInv ap lgK rf th0 seed (vu s0 hp u) ins -> owned (hlive (t_entries (tu_tab u))) -> inside hp (hlive (t_entries (tu_tab u))) ->
    (forall e, In e (hlive (t_entries (tu_tab u))) -> base <= snd e) -> base <= length hp ->
    (forall a, In a (all_objects (passed ops)) -> a < base) -> Forall okop ops ->
    exists u' hp', hunrun_copies ap u hp ops = Some (u', hp') /\ TUnInv ap lgK rf th0 seed (vu s0 hp' u') (fold_left (note hp) ops ins) /\
      (forall a, a < base -> nth_error hp' a = nth_error hp a).
  Proof.
    pose proof G as (HK & Hrf & _).
    induction ops as [|op r IH]; intros u hp ins I O V B Hb Hin Hok; cbn [hunrun_copies fold_left].
    { exists u, hp. auto. }
    inversion Hok as [|? ? Ho Hok']; subst. destruct op as [s|].
    - destruct Ho as [W Hs]. change (passed (TUnUpdate s :: r)) with (s :: passed r) in *. cbn [all_objects flat_map] in *. fold (all_objects (passed r)) in *.
      assert (Vs : inside hp (ts_entries s)).
      { intros e He. assert (snd e < base); [|lia]. apply Hin. apply in_app_iff. left. apply (in_map snd). auto. }
      destruct (hcompact_ok s0 ap hp s false Vs) as (c & hp1 & Ec & Evs & _ & (more & -> & Lm) & Hp).
      rewrite tcompact_false in Evs. rewrite Ec.
      assert (Hc : forall e, In e (ts_entries c) -> length hp <= snd e < length hp + length (ts_entries s)).
      { intros e He. apply in_seq. eapply Permutation_in; [exact Hp|]. apply in_map. auto. }
      assert (Ee : erase_sk c = erase_sk s) by (rewrite <- (erase_vs s0 (hp ++ more) c), Evs; apply erase_vs).
      assert (O1 : owned (hlive (t_entries (tu_tab u)) ++ ts_entries c)).
      { intros x y Hx Hy E. apply in_app_iff in Hx, Hy. destruct Hx as [Hx|Hx], Hy as [Hy|Hy]; auto.
        - specialize (V _ Hx). specialize (Hc _ Hy). lia.
        - specialize (V _ Hy). specialize (Hc _ Hx). lia.
        - assert (Oc : owned (ts_entries c)) by (apply nodup_owned; eapply Permutation_NoDup; [symmetry; exact Hp|apply seq_NoDup]). auto. }
      assert (V1 : inside (hp ++ more) (hlive (t_entries (tu_tab u)) ++ ts_entries c)).
      { intros e He. rewrite app_length, Lm. apply in_app_iff in He as [He|He]; [specialize (V _ He)|specialize (Hc _ He)]; lia. }
      destruct (hunion_update_sim s0 ap lgK rf th0 seed u (hp ++ more) ins c) as (u1 & hp1 & E & I1 & L1 & Hl1 & F1); auto; try lia.
      { unfold vu. rewrite vt_app by auto. auto. }
      { rewrite Ee. auto. }
      { destruct Hs as [Hs|Hs]; [left|right]; [change (ts_empty c) with (sk_empty (erase_sk c))|change (ts_seed c) with (sk_seed (erase_sk c))]; rewrite Ee; auto. }
      rewrite E. rewrite Evs in I1.
      assert (Hlow : forall a, a < base -> nth_error hp1 a = nth_error hp a).
      { intros a Ha. rewrite F1. { apply nth_error_app1. lia. }
        intros C. apply in_map_iff in C as (e & <- & He). specialize (B _ He). lia. }
      destruct (IH u1 hp1 (ins ++ [vs s0 hp s])) as (u' & hp' & E' & I' & F'); auto.
      { eapply owned_incl; eauto. } { eapply inside_incl; [exact Hl1|]. intros e He. rewrite L1. auto. }
      { intros e He. apply Hl1 in He. apply in_app_iff in He as [He|He]; auto. specialize (Hc _ He). lia. }
      { rewrite L1, app_length. lia. }
      { intros a Ha. apply Hin. apply in_app_iff. auto. }
      exists u', hp'. split; auto. split.
      { cbn [note]. rewrite <- (vs_reported s0 ap hp s W). rewrite <- (note_ext hp hp1); auto. intros s' Hs'. apply reported_same.
        intros a Ha. apply Hlow. apply Hin. apply in_app_iff. right. apply in_flat_map. eauto. }
      intros a Ha. rewrite F' by auto. auto.
    - change (passed (TUnReset :: r)) with (passed r) in *.
      destruct (hunion_reset_sim s0 ap lgK rf th0 seed u hp ins) as [I1 Hl1]; auto; try lia.
      apply (IH (tunion_reset 0 u) hp []); auto; rewrite Hl1; [intros ? ? []|intros ? []|intros ? []].
  Qed.

  Lemma hinterrun_inv : forall l x hp ins seen,
    TIInv ap seed (vi s0 hp x) ins -> incl (hlive (t_entries (ti_tab x))) seen ->
    NoDup (map snd seen ++ all_objects l) -> (forall a, In a (map snd seen ++ all_objects l) -> a < length hp) ->
    Forall (tinput seed) l ->
    exists x' hp', hinterrun ap x hp l = Some (x', hp') /\ TIInv ap seed (vi s0 hp' x') (ins ++ map (reported s0 hp) l) /\
      length hp' = length hp /\ incl (hlive (t_entries (ti_tab x'))) (seen ++ flat_map (@ts_entries nat) l) /\
      (ti_valid x = true -> incl (hlive (t_entries (ti_tab x'))) (hlive (t_entries (ti_tab x))) /\
        forall a, ~ In a (map snd (hlive (t_entries (ti_tab x)))) -> nth_error hp' a = nth_error hp a) /\
      (forall a, ~ In a (map snd seen ++ all_objects l) -> nth_error hp' a = nth_error hp a).
  Proof.
    clear G lgK rf th0. induction l as [|s r IH]; intros x hp ins seen I Hl Hnd Hin Hok; cbn [hinterrun].
    { exists x, hp. cbn. rewrite !app_nil_r. repeat (split; auto). apply incl_refl. }
    inversion Hok as [|? ? [W Hs] Hok']; subst. cbn [all_objects flat_map map] in *. fold (all_objects r) in *.
    rewrite app_assoc in Hnd, Hin.
    assert (Hm : map snd seen ++ objects s = map snd (seen ++ ts_entries s)) by (rewrite map_app; auto). rewrite Hm in *.
    assert (Hsub : incl (hlive (t_entries (ti_tab x)) ++ ts_entries s) (seen ++ ts_entries s)).
    { intros e. rewrite !in_app_iff. intros [He|He]; auto. }
    assert (O : owned (seen ++ ts_entries s)) by (apply nodup_owned; eapply NoDup_app_l'; eauto).
    assert (V : inside hp (seen ++ ts_entries s)).
    { intros e He. apply Hin. apply in_app_iff. left. apply in_map. auto. }
    destruct (hinter_update_sim s0 ap seed x hp ins s) as (x1 & hp1 & E & I1 & L1 & Hl1 & Hv1 & F1); auto.
    { eapply owned_incl; eauto. } { eapply inside_incl; eauto. }
    rewrite E.
    assert (Hrest : forall a, In a (all_objects r) -> nth_error hp1 a = nth_error hp a).
    { intros a Ha. apply F1. intros C. apply in_map_iff in C as (e & <- & He).
      apply (NoDup_app_disj _ _ Hnd (snd e)); auto. apply in_map. apply in_app_iff. auto. }
    destruct (IH x1 hp1 (ins ++ [vs s0 hp s]) (seen ++ ts_entries s)) as (x' & hp' & E' & I' & L' & Hl' & Hv' & F'); auto.
    { intros e He. apply Hsub, Hl1. auto. }
    { intros a Ha. rewrite L1. auto. }
    assert (Hvalid1 : ti_valid x1 = true).
    { pose proof (ii_valid _ _ _ (tii_inv _ _ _ _ I1)) as Hv. rewrite map_app in Hv. cbn in Hv. rewrite Hv.
      destruct (map erase_sk ins); auto. }
    destruct (Hv' Hvalid1) as [Hv2 Hv3].
    exists x', hp'. split; auto. split.
    { rewrite <- app_assoc in I'. cbn [app] in I'. rewrite <- (vs_reported s0 ap hp s W).
      rewrite (map_ext_in (reported s0 hp) (reported s0 hp1)); auto. intros s' Hs'. symmetry. apply reported_same.
      intros a Ha. apply Hrest. apply in_flat_map. eauto. }
    split; [congruence|]. split. { rewrite app_assoc. auto. }
    split.
    { intros Hv. specialize (Hv1 Hv). split. { eapply incl_tran; eauto. }
      intros a Ha. rewrite Hv3. { apply F1. auto. } intros C. apply Ha. apply in_map_iff in C as (e & <- & He). apply in_map. auto. }
    intros a Ha. rewrite app_assoc, Hm in Ha. rewrite F' by auto. apply F1. intros C. apply Ha. apply in_app_iff. left.
    apply in_map_iff in C as (e & <- & He). apply in_map. apply in_app_iff. auto.
  Qed.

  Lemma hinterrun_new hp l : separate hp l -> Forall (tinput seed) l ->
    exists x' hp', hinterrun ap (new_tinter 0 seed) hp l = Some (x', hp') /\
      TIInv ap seed (vi s0 hp' x') (map (reported s0 hp) l) /\
      length hp' = length hp /\ incl (hlive (t_entries (ti_tab x'))) (flat_map (@ts_entries nat) l) /\
      (forall a, ~ In a (all_objects (firstn 1 l)) -> nth_error hp' a = nth_error hp a).
  Proof.
    intros [Hi Hn] Hok. destruct (new_hinter s0 ap seed hp) as [I Hl].
    destruct l as [|s r].
    { exists (new_tinter 0 seed), hp. cbn [hinterrun map flat_map]. rewrite Hl. repeat (split; auto). apply incl_refl. }
    destruct (hinterrun_inv [s] (new_tinter 0 seed) hp [] []) as (x1 & hp1 & A & B & C & D & _ & F); auto.
    { rewrite Hl. intros e []. }
    { cbn. rewrite app_nil_r. eapply NoDup_app_l'. exact Hn. }
    { intros a Ha. apply Hi. cbn in Ha |- *. rewrite app_nil_r in Ha. apply in_app_iff. auto. }
    { inversion Hok; subst. auto. }
    cbn [hinterrun] in A |- *. destruct (hinter_update _ _ _ _) as [[x2 hp2]|] eqn:E; [|discriminate]. injection A as -> ->.
    cbn [app map flat_map all_objects] in *. rewrite !app_nil_r in *.
    assert (Hv : ti_valid x1 = true) by (pose proof (ii_valid _ _ _ (tii_inv _ _ _ _ B)) as Hv; cbn in Hv; auto).
    assert (Hrest : forall a, In a (all_objects r) -> nth_error hp1 a = nth_error hp a).
    { intros a Ha. apply F. intros C'. apply (NoDup_app_disj _ _ Hn a); auto. }
    destruct (hinterrun_inv r x1 hp1 [reported s0 hp s] (ts_entries s)) as (x2 & hp2 & A2 & B2 & C2 & D2 & V2 & F2); auto.
    { intros a Ha. rewrite C. apply Hi. exact Ha. }
    { inversion Hok; subst. auto. }
    exists x2, hp2. split; auto. split.
    { cbn [app] in B2. rewrite (map_ext_in (reported s0 hp) (reported s0 hp1)); auto. intros s' Hs'. symmetry. apply reported_same.
      intros a Ha. apply Hrest. apply in_flat_map. eauto. }
    split; [congruence|]. split; auto. intros a Ha. cbn in Ha. rewrite app_nil_r in Ha. destruct (V2 Hv) as [_ V3]. rewrite V3.
    { apply F. auto. } intros C'. apply Ha. apply in_map_iff in C' as (e & <- & He). apply (in_map snd). auto.
  Qed.


  Lemma hinterresult hp x (l : list (tsketch nat)) ordered ins : l <> [] -> Forall (tinput seed) l ->
    map erase_sk ins = map erase_sk l ->
    TIInv ap seed (vi s0 hp x) ins -> inside hp (hlive (t_entries (ti_tab x))) ->
    exists r hp', hinter_result x hp ordered = Some (r, hp') /\
      (exists more, hp' = hp ++ more) /\ (forall a, In a (objects r) -> length hp <= a < length hp') /\
      (forall h, In h (thashes r) <-> (h < ts_theta r)%N /\ forall s, In s l -> In h (thashes s)) /\
      NoDup (thashes r) /\
      (forall h v, In (h, v) (ts_entries (reported s0 hp' r)) -> combined ap (summaries_for h ins) = Some v) /\
      (ts_empty r = false -> ts_theta r = min_theta MaxTheta (map erase_sk l) /\ forall s, In s l -> ts_empty s = false) /\
      (ts_empty r = true -> ts_theta r = MaxTheta /\ forall h, ~ (forall s, In s l -> In h (thashes s))) /\
      (ordered = true -> StronglySorted N.le (thashes r)).
  Proof.
    intros Hne Hok Her I V. pose proof (tii_inv _ _ _ _ I) as J. rewrite Her in J.
    assert (Hne' : map (@erase_sk nat) l <> []) by (destruct l; [tauto|discriminate]).
    destruct (inter_result_spec _ _ _ ordered J Hne') as (r' & Hr & _ & H1 & H2 & H3 & H4 & H5 & H6).
    rewrite <- tinter_result_er in Hr. destruct (tinter_result (vi s0 hp x) ordered) as [rv|] eqn:Er; [|discriminate].
    cbn [option_map] in Hr. injection Hr as <-.
    destruct (hinter_result_ok s0 ap hp x ordered rv V Er) as (r & hp' & A & B & C & D).
    assert (Ee : erase_sk rv = erase_sk r) by (rewrite <- B; apply erase_reported). rewrite Ee in *.
    assert (Hall : forall (P : sketch -> Prop), (forall s, In s (map erase_sk l) -> P s) <-> (forall s, In s l -> P (erase_sk s))).
    { intros P. split; intros H s Hs.
      - apply H. apply in_map. auto.
      - apply in_map_iff in Hs. destruct Hs as (y & <- & Hy). auto. }
    exists r, hp'. split; auto. split; auto. split. { intros a Ha. apply in_map_iff in Ha as (e & <- & He). auto. }
    split. { intros h. pose proof (H1 h) as X. rewrite (Hall (fun s => In h (sk_entries s))) in X. exact X. }
    split; auto. split. { rewrite B. intros h v Hin. apply (tinter_result_sum ap _ _ _ _ _ I Er h v Hin). }
    split. { intros He. destruct (H4 He) as [X Y]. split; auto. apply (Hall (fun s => sk_empty s = false)). exact Y. }
    split; [|auto]. { intros He. destruct (H3 He) as (X & X' & Y). split; auto. intros h Z. apply (Y h).
      unfold common. apply (Hall (fun s => In h (sk_entries s))). exact Z. }
  Qed.
End Runs.

(** ** C69: unions *)

(** Union with a policy, the inputs holding separate summary objects: for every history of Updates and Resets no call
    fails, and Result reports for each key the left-to-right combination of the summaries that the inputs held for it
    before the history, although the combination is done in place. No object that is not in a passed sketch changes. *)
Theorem policy_union_correct : forall (S : Type) (s0 : S) (ap : S -> S -> S) lgK rf th0 seed hp ops ordered,
  good_params lgK rf th0 -> separate hp (passed ops) ->
  Forall (fun op => match op with TUnUpdate s => tinput seed s | TUnReset => True end) ops ->
  exists u hp' r, hunrun ap (new_tunion 0 lgK rf th0 seed) hp ops = Some (u, hp') /\ tunion_result u ordered = Some r /\
    UnionSpec (pow2 lgK) th0 (map erase_sk (tpresented ops)) (erase_sk r) /\
    (forall h x, In (h, x) (ts_entries (reported s0 hp' r)) ->
       combined ap (summaries_for h (map (reported s0 hp) (tpresented ops))) = Some x) /\
    (ordered = true -> StronglySorted N.le (thashes r)) /\
    (forall a, ~ In a (all_objects (passed ops)) -> nth_error hp' a = nth_error hp a).
Proof.
  intros S s0 ap lgK rf th0 seed hp ops ordered G Hsep Hok.
  destruct (hunrun_new s0 ap lgK rf th0 seed G hp ops Hsep Hok) as (u & hp' & E & I & L & Hl & F).
  destruct (hunresult s0 ap lgK rf th0 seed hp' u _ ordered I) as (r & Hr & Hi & Hu & Hc & Ho).
  exists u, hp', r. split; auto. split; auto. split; auto.
  rewrite map_map in Hu. erewrite map_ext in Hu; [exact Hu|]. intros s. apply erase_reported.
Qed.

(** Update leaves the sketch it is given, and every sketch not passed before, as they are. *)
Theorem policy_union_spares_input : forall (S : Type) (s0 : S) (ap : S -> S -> S) lgK rf th0 seed hp ops s,
  good_params lgK rf th0 -> separate hp (passed ops ++ [s]) ->
  Forall (fun op => match op with TUnUpdate s => tinput seed s | TUnReset => True end) ops -> tinput seed s ->
  exists u hp', hunrun ap (new_tunion 0 lgK rf th0 seed) hp (ops ++ [TUnUpdate s]) = Some (u, hp') /\
    reported s0 hp' s = reported s0 hp s /\
    (forall a, ~ In a (all_objects (passed ops)) -> nth_error hp' a = nth_error hp a).
Proof.
  intros S s0 ap lgK rf th0 seed hp ops s G [Hi Hn] Hok Hs. rewrite all_objects_app in Hn.
  assert (Hsep : separate hp (passed ops)).
  { split. { intros a Ha. apply Hi. rewrite all_objects_app. apply in_app_iff. auto. } eapply NoDup_app_l'; eauto. }
  destruct (hunrun_new s0 ap lgK rf th0 seed G hp ops Hsep Hok) as (u & hp1 & E & I & L & Hl & F).
  pose proof G as (HK & Hrf & _). destruct Hs as [W Hs].
  assert (Hm : all_objects (passed ops) ++ all_objects [s] = map snd (flat_map (@ts_entries nat) (passed ops) ++ ts_entries s)).
  { rewrite map_app, all_objects_snd. cbn. rewrite app_nil_r. auto. }
  assert (Hsub : incl (hlive (t_entries (tu_tab u)) ++ ts_entries s) (flat_map (@ts_entries nat) (passed ops) ++ ts_entries s)).
  { intros e. rewrite !in_app_iff. intros [He|He]; auto. }
  destruct (hunion_update_sim s0 ap lgK rf th0 seed u hp1 _ s (proj1 HK) Hrf I W Hs) as (u1 & hp2 & E1 & I1 & L1 & Hl1 & F1).
  { eapply owned_incl; [exact Hsub|]. apply nodup_owned. rewrite <- Hm. auto. }
  { eapply inside_incl; [exact Hsub|]. intros e He. rewrite L. apply Hi. rewrite all_objects_app, Hm. apply in_map. auto. }
  exists u1, hp2. split.
  { assert (Happ : forall ops u hp u' hp' more, hunrun ap u hp ops = Some (u', hp') -> hunrun ap u hp (ops ++ more) = hunrun ap u' hp' more).
    { clear. induction ops as [|op r IH]; intros u hp u' hp' more H; cbn [hunrun app] in *; [injection H as <- <-; auto|].
      destruct op as [s|]; [destruct (hunion_update _ _ _ _) as [[u1 hp1]|]; [|discriminate]|]; apply IH; auto. }
    rewrite (Happ _ _ _ _ _ _ E). cbn [hunrun]. rewrite E1. auto. }
  assert (Hf : forall a, ~ In a (all_objects (passed ops)) -> nth_error hp2 a = nth_error hp a).
  { intros a Ha. rewrite F1; auto. intros C. apply Ha. apply in_map_iff in C as (e & <- & He). rewrite all_objects_snd. apply in_map. auto. }
  split; auto. apply reported_same. intros a Ha. apply Hf. intros C. apply (NoDup_app_disj _ _ Hn a); auto. cbn. rewrite app_nil_r. auto.
Qed.

(** Passing copies (Compact) makes the inputs' sharing irrelevant: for sketches that share summary objects in any way,
    or are passed several times, the result is right and no existing object changes. *)
Theorem policy_union_of_copies : forall (S : Type) (s0 : S) (ap : S -> S -> S) lgK rf th0 seed hp ops ordered,
  good_params lgK rf th0 -> exist hp (passed ops) ->
  Forall (fun op => match op with TUnUpdate s => tinput seed s | TUnReset => True end) ops ->
  exists u hp' r, hunrun_copies ap (new_tunion 0 lgK rf th0 seed) hp ops = Some (u, hp') /\ tunion_result u ordered = Some r /\
    UnionSpec (pow2 lgK) th0 (map erase_sk (tpresented ops)) (erase_sk r) /\
    (forall h x, In (h, x) (ts_entries (reported s0 hp' r)) ->
       combined ap (summaries_for h (map (reported s0 hp) (tpresented ops))) = Some x) /\
    (ordered = true -> StronglySorted N.le (thashes r)) /\
    (forall a, a < length hp -> nth_error hp' a = nth_error hp a).
Proof.
  intros S s0 ap lgK rf th0 seed hp ops ordered G Hin Hok. pose proof G as (HK & Hrf & _).
  destruct (new_hunion s0 ap lgK rf th0 seed hp) as [I Hl]; auto; try lia.
  destruct (hunrun_copies_inv s0 ap lgK rf th0 seed G (length hp) ops (new_tunion 0 lgK rf th0 seed) hp []) as (u & hp' & E & I' & F); auto.
  1: (rewrite Hl; intros ? ? []). 1: (rewrite Hl; intros ? []). 1: (rewrite Hl; intros ? []).
  rewrite note_presented in I'.
  destruct (hunresult s0 ap lgK rf th0 seed hp' u _ ordered I') as (r & Hr & Hi & Hu & Hc & Ho).
  exists u, hp', r. split; auto. split; auto. split; auto.
  rewrite map_map in Hu. erewrite map_ext in Hu; [exact Hu|]. intros s. apply erase_reported.
Qed.

(** A copy (Compact) of a Result is not affected by later Updates and Resets of the union. *)
Theorem policy_union_result_copy_stable : forall (S : Type) (s0 : S) (ap : S -> S -> S) lgK rf th0 seed hp ops1 ops2 ordered o,
  good_params lgK rf th0 -> separate hp (passed (ops1 ++ ops2)) ->
  Forall (fun op => match op with TUnUpdate s => tinput seed s | TUnReset => True end) (ops1 ++ ops2) ->
  exists u1 hp1 r c hp2 u2 hp3, hunrun ap (new_tunion 0 lgK rf th0 seed) hp ops1 = Some (u1, hp1) /\
    tunion_result u1 ordered = Some r /\ hcompact hp1 r o = Some (c, hp2) /\ hunrun ap u1 hp2 ops2 = Some (u2, hp3) /\
    reported s0 hp3 c = tcompact (reported s0 hp1 r) o.
Proof.
  intros S s0 ap lgK rf th0 seed hp ops1 ops2 ordered o G [Hi Hn] Hok. rewrite passed_app, all_objects_app in Hn.
  apply Forall_app in Hok as [Hok1 Hok2].
  assert (Hi1 : forall a, In a (all_objects (passed ops1)) -> a < length hp).
  { intros a Ha. apply Hi. rewrite passed_app, all_objects_app. apply in_app_iff. auto. }
  assert (Hi2 : forall a, In a (all_objects (passed ops2)) -> a < length hp).
  { intros a Ha. apply Hi. rewrite passed_app, all_objects_app. apply in_app_iff. auto. }
  destruct (hunrun_new s0 ap lgK rf th0 seed G hp ops1) as (u & hp1 & E & I & L & Hl & F); auto.
  { split; auto. eapply NoDup_app_l'; eauto. }
  destruct (hunresult s0 ap lgK rf th0 seed hp1 u _ ordered I) as (r & Hr & Hri & _).
  assert (Vl : forall e, In e (hlive (t_entries (tu_tab u))) -> snd e < length hp).
  { intros e He. apply Hi1. rewrite all_objects_snd. apply in_map. auto. }
  assert (Vr : inside hp1 (ts_entries r)) by (intros e He; rewrite L; auto).
  destruct (hcompact_ok s0 ap hp1 r o Vr) as (c & hp2 & Ec & _ & Erep & (more & -> & Lm) & Hp).
  destruct (hunrun_inv s0 ap lgK rf th0 seed G ops2 u (hp1 ++ more) (map (reported s0 hp) (tpresented ops1)) (flat_map (@ts_entries nat) (passed ops1)))
    as (u2 & hp3 & E2 & I2 & L2 & Hl2 & F2); auto.
  { unfold vu. rewrite vt_app; auto. intros e He. rewrite L. auto. }
  { rewrite <- all_objects_snd. auto. }
  { intros a Ha. rewrite <- all_objects_snd in Ha. rewrite app_length, L. apply in_app_iff in Ha as [Ha|Ha]; [apply Hi1 in Ha|apply Hi2 in Ha]; lia. }
  exists u, hp1, r, c, (hp1 ++ more), u2, hp3. do 4 (split; auto). rewrite <- Erep. apply reported_same. intros a Ha. apply F2.
  assert (Hge : length hp1 <= a).
  { assert (In a (seq (length hp1) (length (ts_entries r)))) as Hs by (eapply Permutation_in; [exact Hp|exact Ha]). apply in_seq in Hs. lia. }
  rewrite <- all_objects_snd. intros C. apply in_app_iff in C as [C|C]; [apply Hi1 in C|apply Hi2 in C]; lia.
Qed.

(** ** C69: intersections *)

(** Intersection with a policy, the inputs holding separate objects: Result reports the left-to-right combination of what
    the inputs held before, in new objects; apart from those of the first input no object changes. *)
Theorem policy_intersection_correct : forall (S : Type) (s0 : S) (ap : S -> S -> S) seed hp l ordered, l <> [] ->
  separate hp l -> Forall (tinput seed) l ->
  exists x hp1 r hp2, hinterrun ap (new_tinter 0 seed) hp l = Some (x, hp1) /\ hinter_result x hp1 ordered = Some (r, hp2) /\
    (forall h, In h (thashes r) <-> (h < ts_theta r)%N /\ forall s, In s l -> In h (thashes s)) /\
    NoDup (thashes r) /\
    (forall h v, In (h, v) (ts_entries (reported s0 hp2 r)) -> combined ap (summaries_for h (map (reported s0 hp) l)) = Some v) /\
    (ts_empty r = false -> ts_theta r = min_theta MaxTheta (map erase_sk l) /\ forall s, In s l -> ts_empty s = false) /\
    (ts_empty r = true -> ts_theta r = MaxTheta /\ forall h, ~ (forall s, In s l -> In h (thashes s))) /\
    (ordered = true -> StronglySorted N.le (thashes r)) /\
    (forall a, In a (objects r) -> length hp <= a) /\
    (forall a, a < length hp -> ~ In a (all_objects (firstn 1 l)) -> nth_error hp2 a = nth_error hp a) /\
    (forall s, In s (tl l) -> reported s0 hp2 s = reported s0 hp s).
Proof.
  intros S s0 ap seed hp l ordered Hne Hsep Hok. pose proof Hsep as [Hi Hn].
  destruct (hinterrun_new s0 ap seed hp l Hsep Hok) as (x & hp1 & E & I & L & Hl & F).
  assert (V : inside hp1 (hlive (t_entries (ti_tab x)))).
  { intros e He. rewrite L. apply Hi. rewrite all_objects_snd. apply in_map. auto. }
  assert (Her : map erase_sk (map (reported s0 hp) l) = map erase_sk l) by (rewrite map_map; apply map_ext; intros s; apply erase_reported).
  destruct (hinterresult s0 ap seed hp1 x l ordered (map (reported s0 hp) l) Hne Hok Her I V)
    as (r & hp2 & A & (more & ->) & Ho & H1 & H2 & H3 & H4 & H5 & H6).
  assert (Fr : forall a, a < length hp -> ~ In a (all_objects (firstn 1 l)) -> nth_error (hp1 ++ more) a = nth_error hp a).
  { intros a Ha Hna. rewrite nth_error_app1 by lia. auto. }
  exists x, hp1, r, (hp1 ++ more). do 8 (split; auto). split. { intros a Ha. apply Ho in Ha. lia. } split; auto.
  intros s Hs. apply reported_same. intros a Ha.
  assert (Hain : In a (all_objects (tl l))) by (apply in_flat_map; eauto).
  assert (Hsplit : all_objects l = all_objects (firstn 1 l) ++ all_objects (tl l)) by (rewrite <- all_objects_app; destruct l; auto).
  apply Fr. { apply Hi. rewrite Hsplit. apply in_app_iff. auto. }
  intros C. rewrite Hsplit in Hn. apply (NoDup_app_disj _ _ Hn a); auto.
Qed.

(** A Result of an intersection is not affected by its later Updates. *)
Theorem policy_intersection_result_stable : forall (S : Type) (s0 : S) (ap : S -> S -> S) seed hp l1 l2 ordered, l1 <> [] ->
  separate hp (l1 ++ l2) -> Forall (tinput seed) (l1 ++ l2) ->
  exists x hp1 r hp2 x' hp3, hinterrun ap (new_tinter 0 seed) hp l1 = Some (x, hp1) /\ hinter_result x hp1 ordered = Some (r, hp2) /\
    hinterrun ap x hp2 l2 = Some (x', hp3) /\ reported s0 hp3 r = reported s0 hp2 r.
Proof.
  intros S s0 ap seed hp l1 l2 ordered Hne [Hi Hn] Hok. rewrite all_objects_app in Hn. apply Forall_app in Hok as [Hok1 Hok2].
  assert (Hi1 : forall a, In a (all_objects l1) -> a < length hp).
  { intros a Ha. apply Hi. rewrite all_objects_app. apply in_app_iff. auto. }
  assert (Hi2 : forall a, In a (all_objects l2) -> a < length hp).
  { intros a Ha. apply Hi. rewrite all_objects_app. apply in_app_iff. auto. }
  destruct (hinterrun_new s0 ap seed hp l1) as (x & hp1 & E & I & L & Hl & F); auto.
  { split; auto. eapply NoDup_app_l'; eauto. }
  assert (V : inside hp1 (hlive (t_entries (ti_tab x)))).
  { intros e He. rewrite L. apply Hi1. rewrite all_objects_snd. apply in_map. auto. }
  assert (Her : map erase_sk (map (reported s0 hp) l1) = map erase_sk l1) by (rewrite map_map; apply map_ext; intros s; apply erase_reported).
  destruct (hinterresult s0 ap seed hp1 x l1 ordered (map (reported s0 hp) l1) Hne Hok1 Her I V)
    as (r & hp2 & A & (more & ->) & Ho & _).
  destruct (hinterrun_inv s0 ap seed l2 x (hp1 ++ more) (map (reported s0 hp) l1) (flat_map (@ts_entries nat) l1))
    as (x2 & hp3 & E2 & I2 & L2 & _ & _ & F2); auto.
  { unfold vi. rewrite vt_app; auto. }
  { rewrite <- all_objects_snd. auto. }
  { intros a Ha. rewrite <- all_objects_snd in Ha. rewrite app_length, L. apply in_app_iff in Ha as [Ha|Ha]; [apply Hi1 in Ha|apply Hi2 in Ha]; lia. }
  exists x, hp1, r, (hp1 ++ more), x2, hp3. do 3 (split; auto). apply reported_same. intros a Ha. apply F2. apply Ho in Ha.
  rewrite <- all_objects_snd. intros C. apply in_app_iff in C as [C|C]; [apply Hi1 in C|apply Hi2 in C]; lia.
Qed.

(** ** C69: update sketches *)

(** An update sketch whose summaries are updated in place reports what the value model (C42) says, holds its own new
    objects, one per key, and changes no object that existed before it. *)
Theorem policy_update_sketch_correct : forall (S V : Type) (s0 : S) (upf : S -> V -> S) (mk : S) lgK rf th0 seed hp ops,
  good_params lgK rf th0 ->
  exists t hp', hup_run upf mk (tup_new 0 lgK rf th0) hp ops = Some (t, hp') /\
    let v := tview seed t in
    twf v /\ NoDup (objects v) /\ (forall a, In a (objects v) -> length hp <= a < length hp') /\
    (forall a, a < length hp -> nth_error hp' a = nth_error hp a) /\ length hp <= length hp' /\
    (ts_empty v = true -> pairs_of ops = []) /\
    (forall h, In h (thashes v) <-> In h (map fst (pairs_of ops)) /\ (0 < h)%N /\ (h < t_theta t)%N) /\
    (forall h x, In (h, x) (ts_entries (reported s0 hp' v)) -> x = fold_left upf (values_for h (pairs_of ops)) mk).
Proof.
  intros S V s0 upf mk lgK rf th0 seed hp ops G. pose proof G as (HK & Hrf & _).
  assert (Hrun : forall ops t h1 hist em, UInv lgK rf th0 (er ehash t) (map fst hist) em -> SInv upf mk (vt s0 h1 t) hist ->
    owned (hlive (t_entries t)) -> inside h1 (hlive (t_entries t)) -> length hp <= length h1 ->
    (forall e, In e (hlive (t_entries t)) -> length hp <= snd e) ->
    exists t' hp' em', hup_run upf mk t h1 ops = Some (t', hp') /\
      UInv lgK rf th0 (er ehash t') (map fst (fold_left (@hist_step V) ops hist)) em' /\ SInv upf mk (vt s0 hp' t') (fold_left (@hist_step V) ops hist) /\
      owned (hlive (t_entries t')) /\ inside hp' (hlive (t_entries t')) /\ length hp <= length hp' /\
      (forall e, In e (hlive (t_entries t')) -> length hp <= snd e) /\
      (forall a, a < length hp -> nth_error hp' a = nth_error h1 a)).
  { clear ops. induction ops as [|op r IH]; intros t h1 hist em I HS O Vi Hlen Hb; cbn [hup_run fold_left].
    { exists t, h1, em. auto 12. }
    destruct (hup_step_sim s0 upf mk lgK rf th0 t h1 hist em op (proj1 HK) Hrf I HS O Vi)
      as (t' & hp' & em' & E & I' & HS' & O' & V' & L' & Hl' & F' & _).
    rewrite E. destruct (IH t' hp' _ _ I' HS' O' V') as (t2 & hp2 & em2 & E2 & I2 & HS2 & O2 & V2 & L2 & Hl2 & F2); auto; try lia.
    { intros e He. apply Hl' in He as [He|He]; auto. lia. }
    exists t2, hp2, em2. do 7 (split; auto). intros a Ha. rewrite F2 by auto. apply F'; try lia.
    intros C. apply in_map_iff in C as (e & <- & He). specialize (Hb _ He). lia. }
  assert (Hl0 : hlive (t_entries (tup_new 0 lgK rf th0)) = []) by apply hlive_new.
  destruct (Hrun ops (tup_new 0 lgK rf th0) hp [] true) as (t & hp' & em & E & I & HS & O & Vi & L & Hb & F).
  { rewrite tup_new_er. apply new_inv; lia. }
  { replace (vt s0 hp (tup_new 0 lgK rf th0)) with (@tup_new S s0 lgK rf th0); [apply tup_new_SInv|]. apply vt_new. }
  { rewrite Hl0. intros ? ? []. } { rewrite Hl0. intros ? []. } { lia. } { rewrite Hl0. intros ? []. }
  change (fold_left (@hist_step V) ops []) with (pairs_of ops) in *.
  exists t, hp'. split; auto. cbv zeta.
  assert (Ev : ts_entries (tview seed t) = hlive (t_entries t)) by reflexivity.
  assert (W : twf (tview seed t)) by (unfold twf; rewrite tview_er; eapply view_update_wf; [apply G|eauto]).
  split; auto. split.
  { unfold objects. rewrite Ev. pose proof (wf_nodup _ W) as Hnd. change (sk_entries (erase_sk (tview seed t))) with (map fst (hlive (t_entries t))) in Hnd.
    clear - Hnd O. induction (hlive (t_entries t)) as [|e r IH]; cbn in *; constructor; inversion Hnd; subst.
    - intros C. apply in_map_iff in C as (e' & E & He'). apply H1. apply in_map_iff. exists e'. split; auto. apply O; cbn; auto.
    - apply IH; auto. intros x y Hx Hy. apply O; cbn; auto. }
  split. { intros a Ha. unfold objects in Ha. rewrite Ev in Ha. apply in_map_iff in Ha as (e & <- & He). split; [apply Hb|apply Vi]; auto. }
  split; auto. split; auto. split.
  { intros He. assert (Hem : em = true) by (rewrite <- (ui_empty _ _ _ _ _ _ I); exact He).
    destruct (ui_emsn _ _ _ _ _ _ I Hem) as [Hn _]. destruct (pairs_of ops); auto. discriminate. }
  split.
  { intros h. assert (Eh : thashes (tview seed t) = live tid (map ehash (t_entries t))) by (symmetry; apply (live_er ehash)).
    rewrite Eh, (ui_mem _ _ _ _ _ _ I). cbn [er t_theta]. split; intros (A & B & C); repeat split; auto; lia. }
  intros h x Hx. rewrite <- (vs_reported s0 (fun a _ => a) hp' _ W) in Hx.
  assert (Ex : In (h, x) (live (E := ent S) ehash (t_entries (vt s0 hp' t)))).
  { unfold vt, mt. cbn [t_entries]. unfold live. rewrite (filter_mt (rd s0 hp') (fun e => negb (ehash e =? 0)%N)) by (intros e; rewrite rd_hash; reflexivity).
    exact Hx. }
  apply (HS h x Ex).
Qed.

(** Sketches built one after another from streams of updates. *)
Fixpoint hbuild {S V} (upf : S -> V -> S) (mk : S) (lgK rf th0 seed : N) (hp : list S) (streams : list (list (tupop V)))
  : option (list (tsketch nat) * list S) :=
  match streams with
  | [] => Some ([], hp)
  | ops :: r =>
    match hup_run upf mk (tup_new 0 lgK rf th0) hp ops with
    | None => None
    | Some (t, hp1) =>
      match hbuild upf mk lgK rf th0 seed hp1 r with None => None | Some (l, hp2) => Some (tview seed t :: l, hp2) end
    end
  end.

Lemma hbuild_ok {S V} (s0 : S) (upf : S -> V -> S) mk lgK rf th0 seed : good_params lgK rf th0 -> forall streams hp,
  exists l hp', hbuild upf mk lgK rf th0 seed hp streams = Some (l, hp') /\ separate hp' l /\ Forall (tinput seed) l /\
    (forall a, In a (all_objects l) -> length hp <= a) /\ length hp <= length hp' /\
    (forall a, a < length hp -> nth_error hp' a = nth_error hp a) /\
    Forall2 (fun ops s => (ts_empty s = true -> pairs_of ops = []) /\
      (forall h, In h (thashes s) -> In h (map fst (pairs_of ops)) /\ (0 < h)%N) /\
      (ts_empty s = false -> forall h, In h (map fst (pairs_of ops)) -> (0 < h)%N -> (h < ts_theta s)%N -> In h (thashes s)) /\
      forall h x, In (h, x) (ts_entries (reported s0 hp' s)) -> x = fold_left upf (values_for h (pairs_of ops)) mk) streams l.
Proof.
  intros G. induction streams as [|ops r IH]; intros hp; cbn [hbuild].
  { exists [], hp. split; auto. split. { split; [intros a []|constructor]. } split; auto. split; [intros a []|]. auto. }
  destruct (policy_update_sketch_correct S V s0 upf mk lgK rf th0 seed hp ops G) as (t & hp1 & E & W & Hn & Ho & F & L & Hem & Hh & Hs).
  rewrite E. destruct (IH hp1) as (l & hp2 & E2 & [Hi2 Hn2] & Hok2 & Hb2 & L2 & F2 & HS2). rewrite E2.
  assert (Hrep : reported s0 hp2 (tview seed t) = reported s0 hp1 (tview seed t)).
  { apply reported_same. intros a Ha. apply F2. apply Ho in Ha. lia. }
  exists (tview seed t :: l), hp2. split; auto. split.
  { split.
    - intros a Ha. change (In a (objects (tview seed t) ++ all_objects l)) in Ha. apply in_app_iff in Ha as [Ha|Ha]; auto. apply Ho in Ha. lia.
    - change (all_objects (tview seed t :: l)) with (objects (tview seed t) ++ all_objects l). clear - Hn Hn2 Ho Hb2. revert Hn Ho. generalize (objects (tview seed t)) as k. induction k as [|a k IH]; cbn; intros Hn Ho; auto.
      inversion Hn; subst. constructor; auto. intros C. apply in_app_iff in C as [C|C]; auto. apply Hb2 in C. specialize (Ho a (or_introl eq_refl)). lia. }
  split. { constructor; auto. split; auto. }
  split. { intros a Ha. change (In a (objects (tview seed t) ++ all_objects l)) in Ha. apply in_app_iff in Ha as [Ha|Ha]; [apply Ho in Ha|apply Hb2 in Ha]; lia. }
  split; [lia|]. split. { intros a Ha. rewrite F2 by lia. auto. }
  constructor; auto. rewrite Hrep. split; auto. split. { intros h Hx. apply Hh in Hx. tauto. }
  split; auto. intros He h H1 H2 H3. apply Hh. split; auto. split; auto. cbn in He, H3. rewrite He in H3. auto.
Qed.

(** End to end: sketches fed separate streams, then united with a policy. A key of the streams is in the Result if its
    hash is below theta, with the left-to-right policy combination, over the streams that presented it, of the folded
    updates of each stream. *)
Theorem policy_union_of_streams : forall (S V : Type) (s0 : S) (upf : S -> V -> S) (mk : S) (ap : S -> S -> S) lgK rf th0 seed hp streams ordered,
  good_params lgK rf th0 ->
  exists l hp1 u hp2 r, hbuild upf mk lgK rf th0 seed hp streams = Some (l, hp1) /\
    hunrun ap (new_tunion 0 lgK rf th0 seed) hp1 (map TUnUpdate l) = Some (u, hp2) /\ tunion_result u ordered = Some r /\
    (forall h, In h (thashes r) <-> (exists ops, In ops streams /\ In h (map fst (pairs_of ops))) /\ (0 < h)%N /\ (h < ts_theta r)%N) /\
    (forall h x, In (h, x) (ts_entries (reported s0 hp2 r)) ->
       combined ap (map (fun ops => fold_left upf (values_for h (pairs_of ops)) mk)
                        (filter (fun ops => if in_dec N.eq_dec h (map fst (pairs_of ops)) then true else false) streams)) = Some x) /\
    (forall a, a < length hp -> nth_error hp2 a = nth_error hp a).
Proof.
  intros S V s0 upf mk ap lgK rf th0 seed hp streams ordered G.
  destruct (hbuild_ok s0 upf mk lgK rf th0 seed G streams hp) as (l & hp1 & E & Hsep & Hok & Hb & L & F & HS).
  assert (Ep : passed (map TUnUpdate l) = l) by (clear; induction l as [|s r IH]; cbn; f_equal; auto).
  assert (Et : tpresented (map TUnUpdate l) = l).
  { assert (H : forall l acc, fold_left (fun acc op => match op with TUnUpdate s => acc ++ [s] | TUnReset => [] end) (map (@TUnUpdate nat) l) acc = acc ++ l).
    { clear. induction l as [|s r IH]; intros acc; cbn; [rewrite app_nil_r; auto|]. rewrite IH, <- app_assoc. auto. }
    apply (H l []). }
  destruct (policy_union_correct S s0 ap lgK rf th0 seed hp1 (map TUnUpdate l) ordered G) as (u & hp2 & r & E2 & Er & Hu & Hc & Ho & Hf).
  { rewrite Ep. auto. } { rewrite Forall_map. auto. }
  rewrite Ep, Et in *. exists l, hp1, u, hp2, r. do 3 (split; auto).
  assert (Hin : forall ops s, In (ops, s) (combine streams l) -> forall h, (0 < h)%N -> (h < ts_theta r)%N ->
    (In h (thashes s) <-> In h (map fst (pairs_of ops)))).
  { intros ops s Hp h Hz Hh.
    assert (Hq : In s l) by (eapply in_combine_r; eauto).
    assert (H2 : (ts_empty s = true -> pairs_of ops = []) /\
      (forall h, In h (thashes s) -> In h (map fst (pairs_of ops)) /\ (0 < h)%N) /\
      (ts_empty s = false -> forall h, In h (map fst (pairs_of ops)) -> (0 < h)%N -> (h < ts_theta s)%N -> In h (thashes s))).
    { clear - HS Hp. induction HS as [|o k st l (A & B & C & _) H2 IH]; cbn in Hp; [tauto|]. destruct Hp as [[= -> ->]|Hp]; auto. }
    destruct H2 as (A & B & C). split; [intros X; apply B; auto|]. intros X. destruct (ts_empty s) eqn:He.
    { rewrite A in X by auto. destruct X. }
    apply C; auto. assert (Hle : (ts_theta r <= ts_theta s)%N); [|lia]. etransitivity; [apply (us_theta_le _ _ _ _ Hu)|].
    apply (proj2 (min_theta_le _ _) (erase_sk s)). unfold nonempty_of. apply filter_In. split; [apply in_map; auto|]. cbn. rewrite He. auto. }
  assert (Hlen : length streams = length l) by (clear - HS; induction HS; cbn; auto).
  assert (Hmem : forall h, In h (thashes r) <-> (exists ops, In ops streams /\ In h (map fst (pairs_of ops))) /\ (0 < h)%N /\ (h < ts_theta r)%N).
  { intros h. etransitivity; [apply (us_mem _ _ _ _ Hu)|]. change (sk_theta (erase_sk r)) with (ts_theta r). rewrite all_hashes_In. split.
    - intros (Hh & s' & Hs' & X). apply in_map_iff in Hs' as (s & <- & Hs). change (sk_entries (erase_sk s)) with (thashes s) in X.
      assert (Hz : (0 < h)%N). { rewrite Forall_forall in Hok. apply (wf_range _ (proj1 (Hok _ Hs)) h). exact X. }
      assert (exists ops, In (ops, s) (combine streams l)) as (ops & Hp).
      { clear - Hs Hlen. revert streams Hlen. induction l as [|k l IH]; intros [|o st] Hlen; try discriminate; [destruct Hs|]. cbn in *.
        destruct Hs as [<-|Hs]; [eauto|]. destruct (IH Hs st) as (ops & H); [lia|]. eauto. }
      split; auto. exists ops. split. { eapply in_combine_l; eauto. } apply (Hin _ _ Hp h); auto.
    - intros ((ops & Ho' & X) & Hz & Hh). split; auto.
      assert (exists s, In (ops, s) (combine streams l)) as (s & Hp).
      { clear - Ho' Hlen. revert l Hlen. induction streams as [|o st IH]; intros [|k l] Hlen; try discriminate; [destruct Ho'|]. cbn in *.
        destruct Ho' as [<-|Hs]; [eauto|]. destruct (IH Hs l) as (s & H); [lia|]. eauto. }
      exists (erase_sk s). split. { apply in_map. eapply in_combine_r; eauto. } apply (Hin _ _ Hp h); auto. }
  split; auto. split.
  2:{ intros a Ha. rewrite Hf; auto. intros C. apply Hb in C. lia. }
  intros h x Hx.
  assert (Hh : (0 < h)%N /\ (h < ts_theta r)%N).
  { apply (in_map fst) in Hx. cbn in Hx. rewrite map_map in Hx. cbn in Hx. apply Hmem in Hx. tauto. }
  apply Hc in Hx. rewrite <- Hx. f_equal.
  assert (Hin' : forall ops s, In (ops, s) (combine streams l) -> (In h (thashes s) <-> In h (map fst (pairs_of ops)))) by (intros; apply Hin; tauto).
  clear - HS Hok Hin'. induction HS as [|ops s streams l (_ & _ & _ & H1) H2 IH]; auto.
  inversion Hok as [|? ? [W _] Hok']; subst. cbn [map summaries_for flat_map filter].
  fold (summaries_for h (map (reported s0 hp1) l)). specialize (Hin' ops s (or_introl eq_refl)) as Hi.
  rewrite <- IH; auto. 2:{ intros o k Hk. apply Hin'. cbn. auto. }
  destruct (in_dec N.eq_dec h (map fst (pairs_of ops))) as [Hd|Hd].
  - apply Hi in Hd. apply in_map_iff in Hd as ([h' a] & Eh & Hd). cbn in Eh. subst h'.
    assert (Hd' : In (h, nth a hp1 s0) (ts_entries (reported s0 hp1 s))).
    { cbn. apply in_map_iff. exists (h, a). auto. }
    cbn [map]. rewrite <- (H1 _ _ Hd').
    assert (Ev : values_for h (ts_entries (reported s0 hp1 s)) = [nth a hp1 s0]); [|rewrite Ev; auto].
    apply (sums_single h). { cbn. rewrite map_map. apply (wf_nodup _ W). } auto.
  - assert (Hnil : values_for h (ts_entries (reported s0 hp1 s)) = []); [|rewrite Hnil; auto].
    unfold values_for.
    assert (Hn : forall p, In p (ts_entries (reported s0 hp1 s)) -> (fst p =? h)%N = false).
    { intros p Hp. apply N.eqb_neq. intros <-. apply Hd, Hi. cbn in Hp. apply in_map_iff in Hp as (e & <- & He). cbn. apply (in_map fst). auto. }
    clear - Hn. induction (ts_entries (reported s0 hp1 s)) as [|p q IHq]; cbn; auto. rewrite Hn by (cbn; auto). apply IHq. intros; apply Hn; cbn; auto.
Qed.

(** ** The findings: what sharing does *)
Definition ex_hsk (l : list (N * nat)) : tsketch nat := mkTSketch l MaxTheta 1 false true.
Lemma ex_hsk_input l : NoDup (map fst l) -> Forall (fun p => (0 < fst p /\ fst p < MaxTheta)%N) l -> StronglySorted N.le (map fst l) ->
  tinput 1 (ex_hsk l).
Proof.
  intros Hn Hf Hs. split; [|right; reflexivity]. constructor; cbn; auto; try lia; try discriminate.
  intros h Hh. apply in_map_iff in Hh. destruct Hh as (p & <- & Hp). rewrite Forall_forall in Hf. auto.
Qed.
Ltac ex_input := apply ex_hsk_input; [repeat constructor; cbn; intuition discriminate
  |repeat constructor; cbn; unfold MaxTheta; lia|repeat constructor; cbn; lia].

(** Passing a sketch to a union a second time does what it should (10 + 10), but the object is now both the union's and
    the input's: the third time the union adds 20 to 20, where the combination of the presented summaries is 30. *)
Theorem union_same_sketch_thrice_refuted : exists (hp : list N) s u hp' r,
  tinput 1 s /\ reported 0%N hp s = ex_ts [(7, 10)]%N /\
  hunrun N.add (new_tunion 0 5 0 MaxTheta 1) hp [TUnUpdate s; TUnUpdate s; TUnUpdate s] = Some (u, hp') /\
  tunion_result u true = Some r /\ ts_entries (reported 0%N hp' r) = [(7, 40)]%N /\
  combined N.add (summaries_for 7 (map (reported 0%N hp) [s; s; s])) = Some 30%N.
Proof.
  exists [10%N], (ex_hsk [(7%N, 0)]). do 3 eexists. split; [ex_input|]. split; [reflexivity|]. split; [vm_compute; reflexivity|].
  split; [vm_compute; reflexivity|]. split; vm_compute; reflexivity.
Qed.

(** A Result shares its objects with the union: a later Update of the union changes what the Result reports. *)
Theorem union_result_changes_later_refuted : exists (hp : list N) s1 s2 u1 hp1 r u2 hp2,
  tinput 1 s1 /\ tinput 1 s2 /\ separate hp [s1; s2] /\
  hunrun N.add (new_tunion 0 5 0 MaxTheta 1) hp [TUnUpdate s1] = Some (u1, hp1) /\ tunion_result u1 true = Some r /\
  hunrun N.add u1 hp1 [TUnUpdate s2] = Some (u2, hp2) /\
  ts_entries (reported 0%N hp1 r) = [(7, 10)]%N /\ ts_entries (reported 0%N hp2 r) = [(7, 11)]%N.
Proof.
  exists [10%N; 1%N], (ex_hsk [(7%N, 0)]), (ex_hsk [(7%N, 1)]). do 5 eexists. split; [ex_input|]. split; [ex_input|].
  split. { split; [|cbn; repeat constructor; cbn; intuition discriminate]. intros a [<-|[<-|[]]]; cbn; lia. }
  split; [vm_compute; reflexivity|]. split; [vm_compute; reflexivity|]. split; [vm_compute; reflexivity|]. split; vm_compute; reflexivity.
Qed.

(** An update sketch passed to a union and then updated changes what the union returns. *)
Theorem union_follows_update_sketch_refuted : exists t hp u hp1 r t2 hp2,
  hup_run N.add 0%N (tup_new 0 5 0 MaxTheta) [] [TUpdate 7 10]%N = Some (t, hp) /\
  hunrun N.add (new_tunion 0 5 0 MaxTheta 1) hp [TUnUpdate (tview 1 t)] = Some (u, hp1) /\ tunion_result u true = Some r /\
  ts_entries (reported 0%N hp1 r) = [(7, 10)]%N /\
  hup_run N.add 0%N t hp1 [TUpdate 7 5]%N = Some (t2, hp2) /\
  ts_entries (reported 0%N hp2 r) = [(7, 15)]%N.
Proof.
  do 7 eexists. split; [vm_compute; reflexivity|]. split; [vm_compute; reflexivity|]. split; [vm_compute; reflexivity|].
  split; [vm_compute; reflexivity|]. split; vm_compute; reflexivity.
Qed.

(** An intersection modifies the sketch it was given first. *)
Theorem intersection_mutates_first_input_refuted : exists (hp : list N) s1 s2 x hp',
  tinput 1 s1 /\ tinput 1 s2 /\ separate hp [s1; s2] /\
  hinterrun N.add (new_tinter 0 1) hp [s1; s2] = Some (x, hp') /\
  ts_entries (reported 0%N hp s1) = [(5, 3); (7, 10)]%N /\ ts_entries (reported 0%N hp' s1) = [(5, 3); (7, 11)]%N.
Proof.
  exists [3%N; 10%N; 1%N], (ex_hsk [(5%N, 0); (7%N, 1)]), (ex_hsk [(7%N, 2)]). do 2 eexists. split; [ex_input|]. split; [ex_input|].
  split. { split; [|cbn; repeat constructor; cbn; intuition discriminate]. intros a [<-|[<-|[<-|[]]]]; cbn; lia. }
  split; [vm_compute; reflexivity|]. split; vm_compute; reflexivity.
Qed.

(** NewCompactSketchFromThetaSketch stores the one given summary object in every entry: after a union of the result
    with a sketch that holds a single key, the summaries of all the other keys have changed too. *)
Theorem from_theta_shares_one_summary_refuted : exists (s : sketch) (hp : list N) s2 u hp' r,
  wf_sketch s /\ tinput 1 s2 /\ exist hp [tcompact_from_theta s 0 true; s2] /\
  ts_entries (reported 0%N hp (tcompact_from_theta s 0 true)) = [(3, 1); (5, 1); (7, 1)]%N /\ ts_entries (reported 0%N hp s2) = [(7, 100)]%N /\
  hunrun N.add (new_tunion 0 5 0 MaxTheta 1) hp [TUnUpdate (tcompact_from_theta s 0 true); TUnUpdate s2] = Some (u, hp') /\
  tunion_result u true = Some r /\ ts_entries (reported 0%N hp' r) = [(3, 101); (5, 101); (7, 101)]%N.
Proof.
  exists (mkSketch [3; 5; 7]%N MaxTheta 1 false true), [1%N; 100%N], (ex_hsk [(7%N, 1)]). do 3 eexists.
  split. { constructor; cbn; unfold MaxTheta; try lia; try discriminate.
    - repeat constructor; cbn; intuition discriminate.
    - intros _. repeat constructor; lia. }
  split; [ex_input|]. split. { intros a Ha. cbn in Ha. cbn. lia. }
  split; [vm_compute; reflexivity|]. split; [vm_compute; reflexivity|]. split; [vm_compute; reflexivity|]. split; vm_compute; reflexivity.
Qed.

(** ** Concrete instances *)
Definition ex_h1 := ex_hsk [(3%N, 0); (5%N, 1); (9%N, 2)].
Definition ex_h2 := ex_hsk [(5%N, 3); (9%N, 4); (11%N, 5)].
Definition ex_heap : list N := [10; 20; 30; 1; 2; 3]%N.
Example ex_separate : separate ex_heap [ex_h1; ex_h2] /\ tinput 1 ex_h1 /\ tinput 1 ex_h2.
Proof.
  split. { split; [intros a Ha; cbn in Ha; cbn; lia|]. cbn. repeat constructor; cbn; intuition discriminate. } split; ex_input.
Qed.
Example ex_policy_union : exists u hp' r, hunrun N.add (new_tunion 0 5 0 MaxTheta 1) ex_heap [TUnUpdate ex_h1; TUnUpdate ex_h2] = Some (u, hp') /\
  tunion_result u true = Some r /\ ts_entries (reported 0%N hp' r) = [(3, 10); (5, 21); (9, 32); (11, 3)]%N /\
  hp' = [10; 21; 32; 1; 2; 3]%N.
Proof. do 3 eexists. split; [vm_compute; reflexivity|]. split; [vm_compute; reflexivity|]. split; vm_compute; reflexivity. Qed.
(** the same sketch three times, as copies *)
Example ex_policy_copies : exists u hp' r,
  hunrun_copies N.add (new_tunion 0 5 0 MaxTheta 1) ex_heap [TUnUpdate ex_h1; TUnUpdate ex_h1; TUnUpdate ex_h1] = Some (u, hp') /\
  tunion_result u true = Some r /\ ts_entries (reported 0%N hp' r) = [(3, 30); (5, 60); (9, 90)]%N /\ firstn 6 hp' = ex_heap.
Proof. do 3 eexists. split; [vm_compute; reflexivity|]. split; [vm_compute; reflexivity|]. split; vm_compute; reflexivity. Qed.
Example ex_policy_intersection : exists x hp1 r hp2, hinterrun N.add (new_tinter 0 1) ex_heap [ex_h1; ex_h2] = Some (x, hp1) /\
  hinter_result x hp1 true = Some (r, hp2) /\ ts_entries (reported 0%N hp2 r) = [(5, 21); (9, 32)]%N /\ hp2 = [10; 21; 32; 1; 2; 3; 21; 32]%N.
Proof. do 4 eexists. split; [vm_compute; reflexivity|]. split; [vm_compute; reflexivity|]. split; vm_compute; reflexivity. Qed.
Example ex_policy_streams : exists l hp1 u hp2 r,
  hbuild N.add 0%N 5 0 MaxTheta 1 [] [[TUpdate 7 10; TUpdate 9 1; TUpdate 7 5]; [TUpdate 7 100; TUpdate 3 2]]%N = Some (l, hp1) /\
  hunrun N.max (new_tunion 0 5 0 MaxTheta 1) hp1 (map TUnUpdate l) = Some (u, hp2) /\ tunion_result u true = Some r /\
  ts_entries (reported 0%N hp2 r) = [(3, 2); (7, 100); (9, 1)]%N.
Proof. do 5 eexists. split; [vm_compute; reflexivity|]. split; [vm_compute; reflexivity|]. split; vm_compute; reflexivity. Qed.

Print Assumptions policy_union_correct.
Print Assumptions policy_union_spares_input.
Print Assumptions policy_union_of_copies.
Print Assumptions policy_union_result_copy_stable.
Print Assumptions policy_intersection_correct.
Print Assumptions policy_intersection_result_stable.
Print Assumptions policy_update_sketch_correct.
Print Assumptions policy_union_of_streams.
Print Assumptions union_same_sketch_thrice_refuted.
Print Assumptions union_result_changes_later_refuted.
Print Assumptions union_follows_update_sketch_refuted.
Print Assumptions intersection_mutates_first_input_refuted.
Print Assumptions from_theta_shares_one_summary_refuted.
