(** * Theta sketches: the properties C01-C09, stated for the API.

    Specification vocabulary used here (independent of the hash table):
    - [seen ops]: the hashes presented by the updates since the last Reset;
    - [touched ops]: whether any update was made since the last Reset;
    - what the API shows of a sketch: [all_of] = the values iterated by All(), [theta_of] = Theta64()
      of a non-empty sketch, NumRetained = [t_num], IsEmpty = [t_empty]. *)
From Verif Require Import Base QuickSelectModel QuickSelectProofs ProbeModel ProbeProofs HashtableModel HashtableProofs ThetaModel ThetaProofs.
From Coq Require Import Sorted.
Local Open Scope nat_scope.

(** ** Vocabulary *)
Definition seen_step (acc : list N) (op : uop) : list N :=
  match op with OpUpdate h => acc ++ [h] | OpReset => [] | OpEmptyString | OpTrim => acc end.
Definition seen (ops : list uop) : list N := fold_left seen_step ops [].

Definition touched_step (acc : bool) (op : uop) : bool :=
  match op with OpUpdate _ => true | OpReset => false | OpEmptyString | OpTrim => acc end.
Definition touched (ops : list uop) : bool := fold_left touched_step ops false.

Definition all_of (t : ttable) : list N := table_all tid t.
Definition theta_of (t : ttable) : N := t_theta t.

(** Parameters accepted by NewQuickSelectUpdateSketch / NewUnion. *)
Definition good_params (lgK rf th0 : N) : Prop :=
  (MinLgK <= lgK <= MaxLgK)%N /\ (rf <= 3)%N /\ (th0 <= MaxTheta)%N.

Lemma run_inv lgK rf th0 : good_params lgK rf th0 -> forall ops t sn em, UInv lgK rf th0 t sn em ->
  exists t', urun t ops = Some t' /\
    UInv lgK rf th0 t' (fold_left seen_step ops sn) (negb (fold_left touched_step ops (negb em))).
Proof.
  intros (HK & Hrf & _). induction ops as [|op r IH]; intros t sn em I; simpl.
  { exists t. rewrite negb_involutive. auto. }
  destruct op; simpl.
  - destruct (update_inv lgK rf th0 t sn em h) as (t' & e & -> & I' & _); [lia|lia|auto|]. apply (IH _ _ _ I').
  - apply (IH _ _ _ I).
  - destruct (trim_inv lgK rf th0 t sn em) as (t' & -> & I' & _); [lia|lia|auto|]. apply (IH _ _ _ I').
  - apply (IH _ _ _ (reset_inv _ _ _ _ _ _ (proj1 HK) Hrf I)).
Qed.

Lemma run_new lgK rf th0 ops : good_params lgK rf th0 ->
  exists t, urun (new_update_sketch lgK rf th0) ops = Some t /\ UInv lgK rf th0 t (seen ops) (negb (touched ops)).
Proof.
  intros G. pose proof G as (HK & Hrf & _). apply (run_inv _ _ _ G ops _ [] true). apply new_inv; lia.
Qed.

(** ** C01 *)
(** Every history of updates, trims and resets runs without failure, and then All() enumerates,
    each once, exactly the non-zero hashes presented (since the last Reset) that are below theta;
    NumRetained is their number; IsEmpty tells whether anything was presented. *)
Theorem theta_content : forall lgK rf th0 ops, good_params lgK rf th0 ->
  exists t, urun (new_update_sketch lgK rf th0) ops = Some t /\
    NoDup (all_of t) /\
    (forall h, In h (all_of t) <-> In h (seen ops) /\ (0 < h)%N /\ (h < theta_of t)%N) /\
    t_num t = length (all_of t) /\
    t_empty t = negb (touched ops).
Proof.
  intros lgK rf th0 ops G. destruct (run_new lgK rf th0 ops G) as (t & E & I). destruct I. exists t. split; auto.
  split; [eapply tlive_NoDup; eauto|]. split; [|split; auto].
  intros h. unfold all_of, theta_of. change (table_all tid t) with (tlive (t_entries t)). rewrite ui_mem. 
  split; intros (? & ? & ?); repeat split; auto; lia.
Qed.

(** ** C02 *)
(** Theta never exceeds its starting value, is either that value or a hash of the stream, and once it
    is smaller the sketch retains at least k entries. *)
Theorem theta_meaningful : forall lgK rf th0 ops, good_params lgK rf th0 ->
  exists t, urun (new_update_sketch lgK rf th0) ops = Some t /\
    (theta_of t = th0 \/ (theta_of t < th0)%N /\ In (theta_of t) (seen ops) /\ pow2 lgK <= length (all_of t)).
Proof.
  intros lgK rf th0 ops G. destruct (run_new lgK rf th0 ops G) as (t & E & I). destruct I. exists t. split; auto.
  destruct ui_th as [?|(? & ? & ?)]; auto. right. unfold theta_of, all_of. do 2 (split; auto).
  change (table_all tid t) with (tlive (t_entries t)). lia.
Qed.

(** No operation except Reset increases theta. *)
Theorem theta_monotone : forall lgK rf th0 ops op, good_params lgK rf th0 -> op <> OpReset ->
  exists t t', urun (new_update_sketch lgK rf th0) ops = Some t /\
    urun (new_update_sketch lgK rf th0) (ops ++ [op]) = Some t' /\ (theta_of t' <= theta_of t)%N.
Proof.
  intros lgK rf th0 ops op G Hop. destruct (run_new lgK rf th0 ops G) as (t & E & I).
  destruct (run_new lgK rf th0 (ops ++ [op]) G) as (t' & E' & _).
  exists t, t'. split; auto. split; auto.
  assert (Happ : forall l s, urun s (l ++ [op]) = match urun s l with None => None | Some s' => match ustep s' op with None => None | Some (s'', _) => Some s'' end end).
  { induction l as [|o l IH]; intros s; simpl.
    - destruct (ustep s op) as [[? ?]|]; auto.
    - destruct (ustep s o) as [[? ?]|]; auto. }
  rewrite Happ, E in E'. destruct G as (HK & Hrf & _). destruct op; simpl in E'.
  - destruct (update_inv lgK rf th0 t (seen ops) (negb (touched ops)) h) as (t1 & e & E1 & _ & Hle & _); [lia|lia|auto|]. rewrite E1 in E'. inversion E'; subst; auto.
  - inversion E'; subst. unfold theta_of; lia.
  - destruct (trim_inv lgK rf th0 t (seen ops) (negb (touched ops))) as (t1 & E1 & _ & Hle & _); [lia|lia|auto|]. rewrite E1 in E'. inversion E'; subst; auto.
  - congruence.
Qed.

(** ** C03 *)
(** The outcome of an update is completely determined by the visible content: theta screening, zero
    screening, duplicate, or inserted.  In particular ErrKeyNotFoundAndNoEmptySlots never occurs and no
    probe loop fails to stop; the table size stays in range and below full. *)
Theorem theta_update_outcome : forall lgK rf th0 ops h, good_params lgK rf th0 ->
  exists t t' e, urun (new_update_sketch lgK rf th0) ops = Some t /\ update t h = Some (t', e) /\
    e = (if (theta_of t <=? h)%N then UErrExceedsTheta
         else if (h =? 0)%N then UErrZeroHash
         else if existsb (N.eqb h) (all_of t) then UErrDuplicate else UNil) /\
    (e <> UNil -> t' = set_nonempty t) /\
    (5 <= t_lgCur t <= lgK + 1)%N /\ length (t_entries t) = pow2 (t_lgCur t) /\ length (all_of t) < pow2 (t_lgCur t).
Proof.
  intros lgK rf th0 ops h G. destruct (run_new lgK rf th0 ops G) as (t & E & I).
  destruct G as (HK & Hrf & _).
  destruct (update_inv lgK rf th0 t (seen ops) (negb (touched ops)) h) as (t' & e & E1 & _ & _ & O); [lia|lia|auto|].
  exists t, t', e. do 2 (split; auto).
  assert (Hex : forall b, (b = true <-> In h (tlive (t_entries t))) -> existsb (N.eqb h) (all_of t) = b).
  { intros b Hb. apply Bool.eq_iff_eq_true. rewrite Hb, existsb_exists. split.
    - intros (x & Hx & Ex). apply N.eqb_eq in Ex. subst. auto.
    - intros Hx. exists h. split; auto. apply N.eqb_refl. }
  split.
  - unfold theta_of. destruct O as [H1|H1 H2|H1 H2 H3|H1 H2 H3].
    + destruct (N.leb_spec (t_theta t) h); [auto|lia].
    + destruct (N.leb_spec (t_theta t) h); [lia|]. subst; auto.
    + destruct (N.leb_spec (t_theta t) h); [lia|]. destruct (N.eqb_spec h 0); [tauto|].
      rewrite (Hex true); auto. tauto.
    + destruct (N.leb_spec (t_theta t) h); [lia|]. destruct (N.eqb_spec h 0); [tauto|].
      rewrite (Hex false); auto. split; [discriminate|tauto].
  - split; [destruct O; auto; tauto|]. destruct I. split; auto. split; [eapply tok_length; eauto|].
    pose proof (capacity_lt (t_lgCur t) (t_lgNom t)).
    change (length (tlive (t_entries t)) < pow2 (t_lgCur t)). lia.
Qed.

(** The probe sequence [start, start+stride, ...] modulo a power of two visits every slot. *)
Theorem theta_probe_visits_all : forall lg key s, (s < 2 ^ lg)%N ->
  exists j, (j < 2 ^ lg)%N /\ ((key + j * compute_stride key lg) mod 2 ^ lg = s)%N.
Proof.
  intros lg key s Hs. 
  destruct (sprobe_onto lg key (compute_stride key lg) (N.to_nat s)) as (j & Hj & E).
  { apply stride_is_odd. } { lia. }
  exists (N.of_nat j). split; [lia|]. unfold sprobe in E. lia.
Qed.

(** ** C04 *)
(** Trim leaves a sketch with at most k entries untouched; otherwise it keeps exactly k of the
    previous entries, those below the new theta, which is itself one of the previous entries:
    so the k smallest are kept and theta is the (k+1)-st smallest. *)
Theorem theta_trim : forall lgK rf th0 ops, good_params lgK rf th0 ->
  exists t t', urun (new_update_sketch lgK rf th0) ops = Some t /\ urun (new_update_sketch lgK rf th0) (ops ++ [OpTrim]) = Some t' /\
    (length (all_of t) <= pow2 lgK -> t' = t) /\
    (pow2 lgK < length (all_of t) ->
       length (all_of t') = pow2 lgK /\ NoDup (all_of t') /\ In (theta_of t') (all_of t) /\
       (forall h, In h (all_of t') <-> In h (all_of t) /\ (h < theta_of t')%N)).
Proof.
  intros lgK rf th0 ops G. destruct (run_new lgK rf th0 ops G) as (t & E & I).
  pose proof G as (HK & Hrf & _).
  destruct (trim_inv lgK rf th0 t (seen ops) (negb (touched ops))) as (t' & E1 & I' & Hle & H1 & H2); [lia|lia|auto|].
  exists t, t'. split; auto. split.
  { clear - E E1. revert E. generalize (new_update_sketch lgK rf th0) as s. induction ops as [|o l IH]; intros s; simpl.
    - intros [= ->]. rewrite E1. auto.
    - destruct (ustep s o) as [[? ?]|]; [apply IH|discriminate]. }
  unfold all_of. change (table_all tid t) with (tlive (t_entries t)). change (table_all tid t') with (tlive (t_entries t')).
  rewrite <- (ui_num _ _ _ _ _ _ I), <- (ui_num _ _ _ _ _ _ I'). split; auto.
  intros Hk. destruct (H2 Hk) as [H3 H4]. split; auto. split; [eapply tlive_NoDup; apply I'|]. split; auto.
  intros h. rewrite (ui_mem _ _ _ _ _ _ I), (ui_mem _ _ _ _ _ _ I'). unfold theta_of.
  split; intros ?; [|tauto]. split; [|tauto]. split; [tauto|]. split; [tauto|]. lia.
Qed.

(** ** C05 *)
(** QuickSelect: for any strict order given by an integer key. *)
Theorem quick_select_selects : forall (A : Type) (lt : A -> A -> bool) (key : A -> Z),
  (forall a b, lt a b = (key a <? key b)%Z) ->
  forall arr lo hi pivot, lo <= pivot -> pivot <= hi -> hi < length arr ->
  exists arr' v, quick_select lt arr lo hi pivot = Some (arr', v) /\
    Permutation arr arr' /\
    (forall i, i < lo \/ hi < i -> nth_error arr' i = nth_error arr i) /\
    nth_error arr' pivot = Some v /\
    (forall i x, lo <= i < pivot -> nth_error arr' i = Some x -> (key x <= key v)%Z) /\
    (forall i x, pivot < i <= hi -> nth_error arr' i = Some x -> (key v <= key x)%Z).
Proof.
  intros A lt key Hk arr lo hi pivot H1 H2 H3.
  destruct (quick_select_correct lt key Hk arr lo hi pivot) as (a & v & Hq & Hs & Hv & HL & HR); auto.
  exists a, v. split; auto. split; [eapply swaps_perm; eauto|]. split; [|auto].
  intros i Hi. eapply swaps_outside; eauto.
Qed.

(** ** C06 *)
(** Once a hash has been presented (and no Reset followed), presenting it again changes nothing at all
    in the sketch, and is reported as an error. *)
Theorem theta_duplicate_noop : forall lgK rf th0 ops h, good_params lgK rf th0 -> In h (seen ops) ->
  exists t e, urun (new_update_sketch lgK rf th0) ops = Some t /\ update t h = Some (t, e) /\ e <> UNil.
Proof.
  intros lgK rf th0 ops h G Hin. destruct (run_new lgK rf th0 ops G) as (t & E & I).
  destruct G as (HK & Hrf & _).
  destruct (update_inv lgK rf th0 t (seen ops) (negb (touched ops)) h) as (t' & e & E1 & _ & _ & O); [lia|lia|auto|].
  exists t, e. split; auto.
  assert (Hem : t_empty t = false).
  { destruct I. rewrite ui_empty. destruct (touched ops); auto. destruct (ui_emsn eq_refl) as [C _]. rewrite C in Hin. destruct Hin. }
  assert (Hs : set_nonempty t = t) by (unfold set_nonempty; rewrite <- Hem; destruct t; auto).
  destruct O; subst; rewrite ?Hs in *; try (split; [auto|discriminate]).
  exfalso. apply H1. apply (ui_mem _ _ _ _ _ _ I). auto.
Qed.

(** A hash at or above theta, or zero, never changes a non-empty sketch. *)
Theorem theta_screened_noop : forall lgK rf th0 ops h t, good_params lgK rf th0 ->
  urun (new_update_sketch lgK rf th0) ops = Some t -> (theta_of t <= h \/ h = 0)%N ->
  exists t' e, update t h = Some (t', e) /\ e <> UNil /\ all_of t' = all_of t /\ theta_of t' = theta_of t.
Proof.
  intros lgK rf th0 ops h t G E Hh. destruct (run_new lgK rf th0 ops G) as (t1 & E1 & I).
  rewrite E in E1. inversion E1; subst t1. destruct G as (HK & Hrf & _).
  destruct (update_inv lgK rf th0 t (seen ops) (negb (touched ops)) h) as (t' & e & E2 & _ & _ & O); [lia|lia|auto|].
  exists t', e. split; auto. unfold theta_of in *.
  destruct O; subst; try (split; [discriminate|]; split; reflexivity). lia.
Qed.

(** ** Well-formed sketches reach every API source of sketches. *)

(** Every compact (or viewed) state of an update sketch is a well-formed input for the set operations. *)
Theorem theta_compact_wf : forall lgK rf th0 ops seed ordered, good_params lgK rf th0 ->
  exists t, urun (new_update_sketch lgK rf th0) ops = Some t /\
    wf_sketch (view_update seed t) /\ wf_sketch (new_compact (view_update seed t) ordered) /\
    Permutation (sk_entries (new_compact (view_update seed t) ordered)) (all_of t).
Proof.
  intros lgK rf th0 ops seed ordered G. destruct (run_new lgK rf th0 ops G) as (t & E & I).
  exists t. split; auto. assert (W : wf_sketch (view_update seed t)) by (eapply view_update_wf; [apply G|eauto]).
  split; auto. split; [apply new_compact_wf; auto|].
  unfold new_compact. simpl. destruct (t_empty t) eqn:Ee.
  - destruct (wf_empty _ W Ee) as [H _]. simpl in H. unfold all_of. rewrite H. auto.
  - destruct (ordered && _); auto. apply sortN_perm.
Qed.

(** ** C07 *)
Inductive unop := UnUpdate (s : sketch) | UnReset.
Definition unstep (u : union) (op : unop) : option union :=
  match op with UnUpdate s => union_update u s | UnReset => Some (union_reset u) end.
Fixpoint unrun (u : union) (ops : list unop) : option union :=
  match ops with [] => Some u | op :: r => match unstep u op with None => None | Some u' => unrun u' r end end.

(** The sketches presented since the last Reset. *)
Definition presented (ops : list unop) : list sketch :=
  fold_left (fun acc op => match op with UnUpdate s => acc ++ [s] | UnReset => [] end) ops [].

Definition ok_input (seed : N) (op : unop) : Prop :=
  match op with UnUpdate s => wf_sketch s /\ (sk_empty s = true \/ sk_seed s = seed) | UnReset => True end.

Lemma unrun_inv lgK rf th0 seed : good_params lgK rf th0 -> forall ops u ins sn, Forall (ok_input seed) ops ->
  UnInv lgK rf th0 seed u ins sn ->
  exists u' sn', unrun u ops = Some u' /\ UnInv lgK rf th0 seed u'
     (fold_left (fun acc op => match op with UnUpdate s => acc ++ [s] | UnReset => [] end) ops ins) sn'.
Proof.
  intros (HK & Hrf & _). induction ops as [|op r IH]; intros u ins sn Hok I; simpl.
  { exists u, sn. auto. }
  inversion Hok; subst. destruct op; simpl.
  - destruct H1 as [W Hs]. destruct (union_update_inv lgK rf th0 seed u ins sn s) as (u' & sn' & -> & I' & _); auto; try lia.
    eapply IH; eauto.
  - eapply IH; eauto. eapply union_reset_inv; eauto; lia.
Qed.

(** Result() of a union, after any history, is the set union of the inputs cut at its theta:
    [UnionSpec] says theta is at most the smallest theta of the union and its non-empty inputs; the entries
    are exactly the input hashes below theta, each once, at most k; theta is that smallest theta unless
    exactly k entries are kept and theta is an input hash (the (k+1)-st smallest); the result is empty iff
    all inputs are. *)
Theorem theta_union_correct : forall lgK rf th0 seed ops ordered, good_params lgK rf th0 ->
  Forall (ok_input seed) ops ->
  exists u r, unrun (new_union lgK rf th0 seed) ops = Some u /\ union_result u ordered = Some r /\
    UnionSpec (pow2 lgK) th0 (presented ops) r /\
    (ordered = true -> StronglySorted N.le (sk_entries r)).
Proof.
  intros lgK rf th0 seed ops ordered G Hok. pose proof G as (HK & Hrf & _).
  destruct (unrun_inv lgK rf th0 seed G ops _ [] [] Hok (new_union_inv lgK rf th0 seed (proj1 HK) Hrf)) as (u & sn & E & I).
  destruct (union_result_spec _ _ _ _ _ _ _ ordered I) as (r & Hr & Hs & _ & Ho & Ho2).
  exists u, r. split; auto.
Qed.

(** What [UnionSpec] means, spelled out. *)
Theorem theta_union_spec_meaning : forall k th0 ins r, UnionSpec k th0 ins r ->
  (forall h, In h (sk_entries r) <-> (h < sk_theta r)%N /\ exists s, In s ins /\ In h (sk_entries s)) /\
  NoDup (sk_entries r) /\ length (sk_entries r) <= k /\
  (sk_theta r <= th0)%N /\ (forall s, In s ins -> sk_empty s = false -> (sk_theta r <= sk_theta s)%N) /\
  (length (sk_entries r) < k -> sk_theta r = th0 \/ exists s, In s ins /\ sk_empty s = false /\ sk_theta r = sk_theta s) /\
  (sk_empty r = true <-> (forall s, In s ins -> sk_empty s = true)).
Proof.
  intros k th0 ins r []. split; [intros h; rewrite us_mem, all_hashes_In; tauto|].
  pose proof (min_theta_le (nonempty_of ins) th0) as [M1 M2].
  do 2 (split; [auto|]). split; [lia|]. split.
  { intros s Hs He. specialize (M2 s). assert (In s (nonempty_of ins)) by (unfold nonempty_of; apply filter_In; rewrite He; auto).
    specialize (M2 H). lia. }
  split; [|auto]. intros Hl. destruct us_theta as [E|(_ & E & _)]; [|lia]. rewrite E. clear.
  assert (G : forall l th0, min_theta th0 l = th0 \/ exists s, In s l /\ min_theta th0 l = sk_theta s).
  { induction l as [|x r IH]; intros t0; unfold min_theta in *; simpl; auto.
    destruct (IH (N.min t0 (sk_theta x))) as [H|(s & Hs & H)].
    - destruct (N.min_spec t0 (sk_theta x)) as [[_ H']|[_ H']]; [left; lia|right; exists x; split; auto; lia].
    - right. exists s. auto. }
  destruct (G (nonempty_of ins) th0) as [H|(s & Hs & H)]; auto. right. exists s.
  unfold nonempty_of in Hs. apply filter_In in Hs. destruct Hs as [Hs He]. apply negb_true_iff in He. auto.
Qed.

(** The result depends only on which sketches were presented, not on their order or multiplicity of order. *)
Theorem theta_union_order_independent : forall lgK rf1 rf2 th0 seed l1 l2 o1 o2,
  good_params lgK rf1 th0 -> good_params lgK rf2 th0 ->
  Forall (fun s => wf_sketch s /\ (sk_empty s = true \/ sk_seed s = seed)) l1 -> Permutation l1 l2 ->
  exists u1 u2 r1 r2,
    unrun (new_union lgK rf1 th0 seed) (map UnUpdate l1) = Some u1 /\ union_result u1 o1 = Some r1 /\
    unrun (new_union lgK rf2 th0 seed) (map UnUpdate l2) = Some u2 /\ union_result u2 o2 = Some r2 /\
    sk_theta r1 = sk_theta r2 /\ Permutation (sk_entries r1) (sk_entries r2) /\ sk_empty r1 = sk_empty r2.
Proof.
  intros lgK rf1 rf2 th0 seed l1 l2 o1 o2 G1 G2 Hok Hp.
  assert (Hpr : forall l, presented (map UnUpdate l) = l).
  { intros l. unfold presented. assert (forall l a, fold_left (fun acc op => match op with UnUpdate s => acc ++ [s] | UnReset => [] end) (map UnUpdate l) a = a ++ l).
    { clear. induction l; intros a0; simpl; [rewrite app_nil_r; auto|]. rewrite IHl, <- app_assoc. auto. }
    rewrite H; auto. }
  assert (K : forall l, Forall (fun s => wf_sketch s /\ (sk_empty s = true \/ sk_seed s = seed)) l -> Forall (ok_input seed) (map UnUpdate l)).
  { intros l H. rewrite Forall_map. eapply Forall_impl; [|exact H]. simpl. auto. }
  destruct (theta_union_correct lgK rf1 th0 seed (map UnUpdate l1) o1 G1 (K _ Hok)) as (u1 & r1 & A1 & A2 & A3 & _).
  assert (Hok2 : Forall (fun s => wf_sketch s /\ (sk_empty s = true \/ sk_seed s = seed)) l2).
  { rewrite Forall_forall in *. intros s Hs. apply Hok. eapply Permutation_in; [symmetry|]; eauto. }
  destruct (theta_union_correct lgK rf2 th0 seed (map UnUpdate l2) o2 G2 (K _ Hok2)) as (u2 & r2 & B1 & B2 & B3 & _).
  rewrite Hpr in *. exists u1, u2, r1, r2. do 4 (split; [auto|]).
  eapply union_spec_unique; eauto.
  - intros s. split; apply Permutation_in; auto. symmetry; auto.
  - apply min_theta_perm. unfold nonempty_of. apply filter_perm; auto.
Qed.

(** Union results are again well-formed inputs when the union starts at MaxTheta (p = 1), or is non-empty. *)
Theorem theta_union_result_wf : forall lgK rf th0 seed ops ordered u r, good_params lgK rf th0 ->
  Forall (ok_input seed) ops -> unrun (new_union lgK rf th0 seed) ops = Some u -> union_result u ordered = Some r ->
  (th0 = MaxTheta \/ sk_empty r = false) -> wf_sketch r.
Proof.
  intros lgK rf th0 seed ops ordered u r G Hok E Er Hth. pose proof G as (HK & Hrf & Hth0).
  destruct (unrun_inv lgK rf th0 seed G ops _ [] [] Hok (new_union_inv lgK rf th0 seed (proj1 HK) Hrf)) as (u' & sn & E' & I).
  rewrite E in E'. inversion E'; subst u'.
  destruct (union_result_spec _ _ _ _ _ _ _ ordered I) as (r' & Hr & US & _ & Ho & Ho2). destruct US.
  rewrite Er in Hr. inversion Hr; subst r'.
  pose proof (min_theta_le (nonempty_of (presented ops)) th0) as [M1 M2]. fold (presented ops) in *.
  constructor; auto.
  - intros h Hh. apply us_mem in Hh. split; [|tauto]. apply (un_pos _ _ _ _ _ _ _ I). tauto.
  - lia.
  - intros He. assert (Hn : nonempty_of (presented ops) = []) by (apply nonempty_of_nil; apply us_empty; auto).
    destruct Hth as [->|]; [|congruence]. rewrite Hn in *. split.
    + destruct (sk_entries r) as [|h l]; auto. exfalso. destruct (proj1 (us_mem h) (or_introl eq_refl)) as [_ C].
      apply all_hashes_In in C. destruct C as (s & Hs & Hh).
      assert (sk_empty s = true) by (apply us_empty; auto).
      assert (Hw : wf_sketch s).
      { clear - Hs Hok. unfold presented in Hs.
        assert (forall ops acc, Forall (ok_input seed) ops -> (forall s, In s acc -> wf_sketch s) -> In s (fold_left (fun acc op => match op with UnUpdate s => acc ++ [s] | UnReset => [] end) ops acc) -> wf_sketch s).
        { clear. induction ops as [|o r IH]; simpl; intros acc Hok Ha Hin; auto. inversion Hok; subst.
          eapply IH; [eauto| |exact Hin]. destruct o; simpl.
          - intros s' Hs'. rewrite in_app_iff in Hs'. destruct Hs' as [?|[<-|[]]]; auto. apply H1.
          - tauto. }
        eapply H; eauto. simpl. tauto. }
      destruct (wf_empty _ Hw H) as [C _]. rewrite C in Hh. destruct Hh.
    + unfold min_theta in us_theta. simpl in us_theta. destruct us_theta as [?|(_ & _ & C)]; auto.
      exfalso. apply all_hashes_In in C. destruct C as (s & Hs & Hh).
      assert (sk_empty s = true) by (apply us_empty; auto).
      assert (In s (nonempty_of (presented ops)) \/ sk_entries s = []).
      { destruct (sk_entries s) eqn:Es; auto. left. exfalso.
        assert (forall ops acc, Forall (ok_input seed) ops -> (forall s, In s acc -> wf_sketch s) -> In s (fold_left (fun acc op => match op with UnUpdate s => acc ++ [s] | UnReset => [] end) ops acc) -> wf_sketch s).
        { clear. induction ops as [|o r IH]; simpl; intros acc Hok Ha Hin; auto. inversion Hok; subst.
          eapply IH; [eauto| |exact Hin]. destruct o; simpl.
          - intros s' Hs'. rewrite in_app_iff in Hs'. destruct Hs' as [?|[<-|[]]]; auto. apply H1.
          - tauto. }
        assert (Hw : wf_sketch s) by (eapply H0; eauto; simpl; tauto).
        destruct (wf_empty _ Hw H) as [C _]. congruence. }
      rewrite Hn in H0. destruct H0 as [[]|H0]. rewrite H0 in Hh. destruct Hh.
Qed.

(** Finding: with a starting sampling probability p < 1 an untouched union's result claims to be empty
    with theta below MaxTheta (theta/union.go:161-164 passes u.theta for the empty sketch). *)
Theorem theta_empty_union_theta_refuted :
  exists lgK rf th0 seed r, good_params lgK rf th0 /\
    union_result (new_union lgK rf th0 seed) true = Some r /\ sk_empty r = true /\ sk_theta r <> MaxTheta.
Proof.
  exists 5%N, 0%N, (2^62)%N, 1%N. eexists. split; [unfold good_params, MinLgK, MaxLgK, MaxTheta; lia|].
  split; [vm_compute; reflexivity|]. split; [reflexivity|]. vm_compute. discriminate.
Qed.

(** ** C08 *)
Fixpoint interrun (x : inter) (l : list sketch) : option inter :=
  match l with [] => Some x | s :: r => match inter_update x s with None => None | Some x' => interrun x' r end end.

Lemma interrun_inv seed : forall l x ins, IInv seed x ins ->
  Forall (fun s => wf_sketch s /\ (sk_empty s = true \/ sk_seed s = seed)) l ->
  exists x', interrun x l = Some x' /\ IInv seed x' (ins ++ l).
Proof.
  induction l as [|s r IH]; intros x ins I Hok; simpl.
  { exists x. rewrite app_nil_r. auto. }
  inversion Hok as [|? ? [W Hs] Hok']; subst. destruct (inter_update_inv seed x ins s I W Hs) as (x' & -> & I').
  destruct (IH x' (ins ++ [s]) I' Hok') as (x2 & E & I2). rewrite <- app_assoc in I2. exists x2. auto.
Qed.

(** After intersecting any non-empty sequence of well-formed sketches: no error; the entries of Result()
    are exactly the hashes below its theta that are in every input, each once; if not flagged empty, theta is the
    minimum of the inputs' thetas and no input was empty; if flagged empty, theta is MaxTheta and no hash is
    common to all inputs. *)
Theorem theta_intersection_correct : forall seed l ordered, l <> [] ->
  Forall (fun s => wf_sketch s /\ (sk_empty s = true \/ sk_seed s = seed)) l ->
  exists x r, interrun (new_inter seed) l = Some x /\ i_valid x = true /\ inter_result x ordered = Some r /\
    (forall h, In h (sk_entries r) <-> (h < sk_theta r)%N /\ forall s, In s l -> In h (sk_entries s)) /\
    NoDup (sk_entries r) /\
    (sk_empty r = false -> sk_theta r = min_theta MaxTheta l /\ forall s, In s l -> sk_empty s = false) /\
    (sk_empty r = true -> sk_theta r = MaxTheta /\ forall h, ~ (forall s, In s l -> In h (sk_entries s))) /\
    (ordered = true -> StronglySorted N.le (sk_entries r)) /\ wf_sketch r.
Proof.
  intros seed l ordered Hne Hok.
  destruct (interrun_inv seed l _ [] (new_inter_inv seed) Hok) as (x & E & I). simpl in I.
  destruct (inter_result_spec seed x l ordered I Hne) as (r & Hr & _ & H1 & H2 & H3 & H4 & H5 & H6).
  exists x, r. split; auto. split; [destruct I; rewrite ii_valid; destruct l; auto; tauto|]. split; auto. split; [exact H1|].
  split; auto. split; auto. split; [intros e; destruct (H3 e) as (? & ? & ?); auto|]. split; auto.
  assert (Hrng : forall h, In h (sk_entries r) -> (0 < h /\ h < sk_theta r)%N).
  { intros h Hh. apply H1 in Hh. destruct Hh as [Hl Hc]. split; auto. destruct l as [|s l']; [tauto|].
    inversion Hok as [|? ? [W _] _]; subst. apply (wf_range _ W h). apply Hc. left; auto. }
  constructor; auto.
  - destruct (sk_empty r) eqn:Ee.
    + destruct (H3 eq_refl) as (-> & _). lia.
    + destruct (H4 eq_refl) as (-> & _). apply (min_theta_le l MaxTheta).
  - intros He. destruct (H3 He) as (? & ? & ?); auto.
Qed.

(** Before any update there is no result. *)
Theorem theta_intersection_no_result : forall seed ordered,
  i_valid (new_inter seed) = false /\ inter_result (new_inter seed) ordered = None.
Proof. auto. Qed.

(** ** C09 *)
(** ANotB: theta and entries, on every path, for well-formed a and b with the right seed hash. *)
Theorem theta_a_not_b_correct : forall a b seed ordered, wf_sketch a -> wf_sketch b ->
  sk_seed a = seed -> sk_seed b = seed ->
  exists r, a_not_b a b seed ordered = Some r /\ 
    sk_theta r = (if sk_empty a then MaxTheta else N.min (sk_theta a) (sk_theta b)) /\
    (forall h, In h (sk_entries r) <-> In h (sk_entries a) /\ ~ In h (sk_entries b) /\ (h < sk_theta r)%N) /\
    NoDup (sk_entries r) /\
    (sk_empty r = true <-> sk_empty a = true \/ (sk_entries r = [] /\ sk_theta r = MaxTheta)) /\
    (ordered = true -> StronglySorted N.le (sk_entries r)) /\ wf_sketch r.
Proof.
  intros a b seed ordered Wa Wb Sa Sb.
  destruct (a_not_b_spec a b seed ordered Wa Wb (conj Sa Sb)) as (r & E & _ & H1 & H2 & H3 & H4 & H5 & H6).
  exists r. do 6 (split; auto).
  pose proof (wf_theta _ Wa). constructor; auto.
  - intros h Hh. apply H2 in Hh. split; [apply (wf_range _ Wa h); tauto|tauto].
  - rewrite H1. destruct (sk_empty a); lia.
  - intros He. apply H4 in He. destruct He as [He|He]; auto. rewrite H1, He. split; auto.
    destruct (wf_empty _ Wa He) as [Ha _]. destruct (sk_entries r) as [|h l]; auto.
    destruct (proj1 (H2 h) (or_introl eq_refl)) as [C _]. rewrite Ha in C. destruct C.
Qed.

(** An empty b returns a, unchanged up to sorting. *)
Theorem theta_a_not_empty : forall a b seed ordered, sk_entries a <> [] -> sk_empty b = true ->
  a_not_b a b seed ordered = Some (new_compact a ordered).
Proof.
  intros a b seed ordered Ha Hb. unfold a_not_b. destruct (sk_empty a); auto. rewrite Hb.
  destruct (sk_entries a); [tauto|]. reflexivity.
Qed.

(** ** Concrete instances: the hypotheses above are met by non-trivial runs. *)
Definition ex_hash (i : N) : N := ((i * 5934871923847129321 + 12345) mod 2 ^ 63)%N.
Definition ex_ops (n : nat) : list uop := map (fun i => OpUpdate (ex_hash (N.of_nat i))) (seq 1 n).

Example ex_params : good_params 5 0 MaxTheta.
Proof. unfold good_params, MinLgK, MaxLgK; lia. Qed.

(** 100 distinct hashes with k = 32: theta has dropped, 33..60 hashes are retained. *)
Example ex_run : exists t, urun (new_update_sketch 5 0 MaxTheta) (ex_ops 100) = Some t /\
  (theta_of t <? MaxTheta)%N = true /\ (32 <? length (all_of t)) = true.
Proof. eexists. split; [vm_compute; reflexivity|]. vm_compute. auto. Qed.

Example ex_trim : exists t, urun (new_update_sketch 5 2 MaxTheta) (ex_ops 100 ++ [OpTrim]) = Some t /\
  length (all_of t) = 32.
Proof. eexists. split; [vm_compute; reflexivity|]. vm_compute. auto. Qed.

Definition ex_sk (lo n : nat) : sketch :=
  mkSketch (sortN (map (fun i => ex_hash (N.of_nat i)) (seq lo n))) MaxTheta 7 false true.

Lemma ex_sk_wf lo n : NoDup (map (fun i => ex_hash (N.of_nat i)) (seq lo n)) ->
  Forall (fun h => (0 < h /\ h < MaxTheta)%N) (map (fun i => ex_hash (N.of_nat i)) (seq lo n)) -> wf_sketch (ex_sk lo n).
Proof.
  intros Hn Hf. constructor; simpl; try discriminate; try lia.
  - eapply Permutation_NoDup; [symmetry; apply sortN_perm|auto].
  - intros h Hh. rewrite Forall_forall in Hf. apply Hf. eapply Permutation_in; [apply sortN_perm|auto].
  - intros _. apply sortN_sorted.
Qed.

Fixpoint nodupb (l : list N) : bool := match l with [] => true | x :: r => negb (existsb (N.eqb x) r) && nodupb r end.
Lemma nodupN_dec l : nodupb l = true -> NoDup l.
Proof.
  induction l as [|x r IH]; simpl; intros H; constructor; apply andb_true_iff in H; destruct H as [H1 H2]; auto.
  intros C. apply negb_true_iff in H1. rewrite (proj2 (existsb_exists _ _)) in H1; [discriminate|].
  exists x. split; auto. apply N.eqb_refl.
Qed.
Lemma rangeN_dec l : forallb (fun h => (0 <? h)%N && (h <? MaxTheta)%N) l = true -> Forall (fun h => (0 < h /\ h < MaxTheta)%N) l.
Proof. rewrite forallb_forall, Forall_forall. intros H x Hx. specialize (H x Hx). apply andb_true_iff in H. rewrite !N.ltb_lt in H. auto. Qed.

Example ex_sk_ok : wf_sketch (ex_sk 1 40) /\ wf_sketch (ex_sk 20 40).
Proof. split; apply ex_sk_wf; [apply nodupN_dec|apply rangeN_dec|apply nodupN_dec|apply rangeN_dec]; vm_compute; reflexivity. Qed.

Example ex_union : exists u r, unrun (new_union 5 1 MaxTheta 7) [UnUpdate (ex_sk 1 40); UnUpdate (ex_sk 20 40)] = Some u /\
  union_result u true = Some r /\ length (sk_entries r) = 32 /\ (sk_theta r <? MaxTheta)%N = true.
Proof. do 2 eexists. split; [vm_compute; reflexivity|]. split; [vm_compute; reflexivity|]. vm_compute. auto. Qed.

Example ex_inter : exists x r, interrun (new_inter 7) [ex_sk 1 40; ex_sk 20 40] = Some x /\
  inter_result x true = Some r /\ length (sk_entries r) = 21.
Proof. do 2 eexists. split; [vm_compute; reflexivity|]. split; [vm_compute; reflexivity|]. vm_compute. auto. Qed.

Example ex_anotb : exists r, a_not_b (ex_sk 1 40) (ex_sk 20 40) 7 true = Some r /\ length (sk_entries r) = 19.
Proof. eexists. split; [vm_compute; reflexivity|]. vm_compute. auto. Qed.

Print Assumptions theta_content.
Print Assumptions theta_meaningful.
Print Assumptions theta_monotone.
Print Assumptions theta_update_outcome.
Print Assumptions theta_trim.
Print Assumptions quick_select_selects.
Print Assumptions theta_duplicate_noop.
Print Assumptions theta_screened_noop.
Print Assumptions theta_compact_wf.
Print Assumptions theta_union_correct.
Print Assumptions theta_union_spec_meaning.
Print Assumptions theta_union_order_independent.
Print Assumptions theta_union_result_wf.
Print Assumptions theta_intersection_correct.
Print Assumptions theta_a_not_b_correct.
