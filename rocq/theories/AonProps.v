(** * Property C68: array-of-numbers sketches. *)
From Coq Require Import Sorting.Sorted Permutation.
From Verif Require Import Base ProbeModel HashtableModel HashtableProofs ThetaModel ThetaProofs ThetaProps TupleModel TupleProofs TupleProps AonModel.
Local Open Scope nat_scope.

(** ** Specification vocabulary *)

(** Every vector presented has at least [nv] numbers. *)
Definition long_enough {V} (nv : nat) (ops : list (tupop (list V))) : Prop :=
  forall h v, In (TUpdate h v) ops -> nv <= length v.

(** The sum of the numbers at position [i] of some vectors, added up from left to right starting from zero. *)
Definition sum_at {V} (zero : V) (add : V -> V -> V) (i : nat) (vs : list (list V)) : V :=
  fold_left add (map (fun v => nth i v zero) vs) zero.

(** Coordinatewise addition, the policy most users write. *)
Definition vadd {V} (add : V -> V -> V) (a b : list V) : list V := map (fun p => add (fst p) (snd p)) (combine a b).

(** ** Proofs *)
Section P.
  Context {V : Type}.
  Variables (zero : V) (add : V -> V -> V).

  Lemma summary_update_some : forall n s v, length s = n -> n <= length v ->
    exists r, aon_summary_update add n s v = Some r /\ length r = n /\ (forall i, i < n -> nth i r zero = add (nth i s zero) (nth i v zero)).
  Proof.
    induction n as [|n IH]; intros s v Hs Hv; cbn [aon_summary_update].
    - exists s. split; auto. split; auto. intros; lia.
    - destruct s as [|x s], v as [|y v]; cbn in Hs, Hv; try lia. destruct (IH s v) as (r & E & L & A); try lia. rewrite E.
      exists (add x y :: r). split; auto. split; [cbn; lia|]. intros [|i] Hi; cbn; auto. apply A. lia.
  Qed.

  Lemma summary_update_none : forall n s v, length s = n -> length v < n -> aon_summary_update add n s v = None.
  Proof.
    induction n as [|n IH]; intros s v Hs Hv; [lia|]. cbn [aon_summary_update]. destruct s as [|x s], v as [|y v]; cbn in Hs, Hv; auto; try lia.
    rewrite IH by lia. auto.
  Qed.

  (** The update function of the tuple sketch that the array-of-numbers sketch is. *)
  Definition aupf (nv : nat) (s v : list V) : list V := match aon_summary_update add nv s v with Some r => r | None => s end.

  Lemma aupf_length nv s v : length s = nv -> length (aupf nv s v) = nv.
  Proof.
    intros H. unfold aupf. destruct (Nat.lt_ge_cases (length v) nv) as [L|L].
    - rewrite summary_update_none by auto. auto.
    - destruct (summary_update_some nv s v H L) as (r & -> & E & _). auto.
  Qed.

  Lemma fold_aupf nv : forall vs s, length s = nv -> (forall v, In v vs -> nv <= length v) ->
    length (fold_left (aupf nv) vs s) = nv /\
    forall i, i < nv -> nth i (fold_left (aupf nv) vs s) zero = fold_left add (map (fun v => nth i v zero) vs) (nth i s zero).
  Proof.
    induction vs as [|v vs IH]; intros s Hs Hv; cbn [fold_left map]; auto.
    destruct (summary_update_some nv s v Hs) as (r & E & L & A). { apply Hv. cbn. auto. }
    assert (Er : aupf nv s v = r) by (unfold aupf; rewrite E; auto). rewrite Er.
    destruct (IH r L) as [B C]. { intros w Hw. apply Hv. cbn. auto. }
    split; auto. intros i Hi. rewrite C, A by auto. auto.
  Qed.

  Lemma fold_aupf_length nv : forall vs s, length s = nv -> length (fold_left (aupf nv) vs s) = nv.
  Proof. induction vs as [|v vs IH]; intros s Hs; cbn [fold_left]; auto using aupf_length. Qed.

  Lemma aon_step_eq nv lgK rf th0 t hist em op : UInv lgK rf th0 (er ehash t) (map fst hist) em ->
    SInv (aupf nv) (repeat zero nv) t hist -> (forall h v, op = TUpdate h v -> nv <= length v) ->
    aon_step zero add nv t op = tup_step [] (aupf nv) (repeat zero nv) t op.
  Proof.
    intros I HS Hop. destruct op as [h v|v| |]; cbn [aon_step tup_step]; auto. unfold aon_update, tup_update. cbv zeta.
    destruct (_ <=? _)%N; auto. destruct (N.eqb_spec h 0) as [Hz|Hz]; auto.
    pose proof (set_nonempty_inv _ _ _ _ _ _ I) as I'. rewrite <- nonempty_er in I'.
    specialize (Hop h v eq_refl).
    destruct (UInv_find [] _ _ _ _ _ _ h I' Hz) as [(i & s & Hf & Hn & Hin)|(i & Hf & _)]; rewrite Hf.
    - rewrite Hn. cbn [fst snd]. assert (Ls : length s = nv).
      { rewrite (HS h s Hin). apply fold_aupf_length. apply repeat_length. }
      destruct (summary_update_some nv s v Ls Hop) as (r & E & _). unfold aupf. rewrite E. auto.
    - unfold aon_new_summary. destruct (summary_update_some nv (repeat zero nv) v (repeat_length _ _) Hop) as (r & E & _).
      unfold aupf. rewrite E. change (zent (@nil V)) with (@azent V). destruct (insert ehash azent (tup_nonempty t) i (h, r)); auto.
  Qed.

  Lemma aon_run_eq nv lgK rf th0 : (MinLgK <= lgK)%N -> (rf <= 3)%N -> forall ops t hist em,
    UInv lgK rf th0 (er ehash t) (map fst hist) em -> SInv (aupf nv) (repeat zero nv) t hist -> long_enough nv ops ->
    aon_run zero add nv t ops = tup_run [] (aupf nv) (repeat zero nv) t ops.
  Proof.
    intros HK Hrf. induction ops as [|op r IH]; intros t hist em I HS Hl; cbn [aon_run tup_run]; auto.
    rewrite (aon_step_eq nv lgK rf th0 t hist em op I HS). 2:{ intros h v ->. apply (Hl h). cbn. auto. }
    destruct (tup_step_ok [] (aupf nv) (repeat zero nv) lgK rf th0 t hist em op HK Hrf I HS) as (t1 & e & em1 & E & _ & I1 & HS1).
    rewrite E. apply (IH t1 _ em1 I1 HS1). intros h v Hin. apply (Hl h). cbn. auto.
  Qed.

  Lemma aon_new_run nv lgK rf th0 ops : good_params lgK rf th0 -> long_enough nv ops ->
    aon_run zero add nv (aon_new lgK rf th0) ops = tup_run [] (aupf nv) (repeat zero nv) (tup_new [] lgK rf th0) ops.
  Proof.
    intros (HK & Hrf & _) Hl. apply (aon_run_eq nv lgK rf th0 (proj1 HK) Hrf ops _ [] true); auto.
    - unfold aon_new. rewrite (tup_new_er (@nil V)). apply new_inv; lia.
    - apply tup_new_SInv.
  Qed.
End P.

Lemma pairs_long {V} nv (ops : list (tupop (list V))) : long_enough nv ops -> forall h v, In (h, v) (pairs_of ops) -> nv <= length v.
Proof.
  intros H h v. unfold pairs_of.
  assert (G : forall (ops' : list (tupop (list V))) acc, (forall h v, In (TUpdate h v) ops' -> nv <= length v) -> (forall h (v : list V), In (h, v) acc -> nv <= length v) ->
    forall h (v : list V), In (h, v) (fold_left (fun acc op => match op with TUpdate h v => acc ++ [(h, v)] | TReset => [] | _ => acc end) ops' acc) -> nv <= length v).
  { induction ops' as [|op r IH]; intros acc H1 H2; cbn [fold_left]; [exact H2|]. apply IH.
    - intros h' v' Hin. apply (H1 h'). cbn. auto.
    - destruct op as [h' v'|v'| |]; auto.
      + intros h2 v2 Hin. apply in_app_iff in Hin as [Hin|[E|[]]]; eauto. inversion E; subst. apply (H1 h2). cbn. auto.
      + intros ? ? []. }
  apply (G ops []); auto. intros ? ? [].
Qed.

Lemma values_for_In {A} h (l : list (N * A)) v : In v (values_for h l) -> In (h, v) l.
Proof.
  unfold values_for. rewrite in_map_iff. intros ([h' v'] & E & Hin). cbn in E. subst v'. apply filter_In in Hin as [Hin E].
  cbn in E. apply N.eqb_eq in E. congruence.
Qed.

(** ** C68: update sketch *)

(** For every history of updates whose vectors have at least [nv] numbers, Trims and Resets: no failure; the retained
    hashes are those of a tuple sketch; every summary has [nv] numbers, and the one at position i is the sum of the
    numbers at position i of all vectors presented for that hash since the last Reset. *)
Theorem aon_content : forall (V : Type) (zero : V) (add : V -> V -> V) nv lgK rf th0 seed ops,
  good_params lgK rf th0 -> long_enough nv ops ->
  exists t, aon_run zero add nv (aon_new lgK rf th0) ops = Some t /\
    let v := as_sketch (aon_view nv seed t) in
    NoDup (thashes v) /\
    (forall h, In h (thashes v) <-> In h (map fst (pairs_of ops)) /\ (0 < h)%N /\ (h < t_theta t)%N) /\
    (forall h s, In (h, s) (ts_entries v) -> length s = nv /\
       forall i, i < nv -> nth_error s i = Some (sum_at zero add i (values_for h (pairs_of ops)))) /\
    (t_theta t = th0 \/ (t_theta t < th0)%N /\ pow2 lgK <= length (ts_entries v)) /\
    twf v.
Proof.
  intros V zero add nv lgK rf th0 seed ops G Hl. rewrite (aon_new_run zero add nv lgK rf th0 ops G Hl).
  destruct (tuple_content (list V) (list V) [] (aupf add nv) (repeat zero nv) lgK rf th0 seed ops G) as (t & E & H1 & H2 & H3 & H4 & H5).
  exists t. split; auto. cbn [aon_view as_sketch]. split; auto. split; auto. split; [|auto].
  intros h s Hin. rewrite (H3 h s Hin).
  destruct (fold_aupf zero add nv (values_for h (pairs_of ops)) (repeat zero nv) (repeat_length _ _)) as [A B].
  { intros v Hv. eapply pairs_long; eauto. apply values_for_In in Hv. eauto. }
  split; auto. intros i Hi. rewrite (nth_error_nth' _ i zero) by lia. f_equal. rewrite B by auto. unfold sum_at.
  f_equal. apply nth_repeat.
Qed.

(** A vector that is too short panics exactly when the key is accepted; otherwise the key's error is returned. *)
Theorem aon_short_vector : forall (V : Type) (zero : V) (add : V -> V -> V) nv lgK rf th0 ops h v,
  good_params lgK rf th0 -> long_enough nv ops -> length v < nv ->
  exists t, aon_run zero add nv (aon_new lgK rf th0) ops = Some t /\
    aon_update zero add nv t h v =
      (if (t_theta t <=? h)%N then ADone (tup_nonempty t) UErrExceedsTheta
       else if (h =? 0)%N then ADone (tup_nonempty t) UErrZeroHash
       else APanic (tup_nonempty t)).
Proof.
  intros V zero add nv lgK rf th0 ops h v G Hl Hv. rewrite (aon_new_run zero add nv lgK rf th0 ops G Hl).
  destruct (tup_run_new [] (aupf add nv) (repeat zero nv) lgK rf th0 ops G) as (t & em & E & _ & I & HS).
  exists t. split; auto. unfold aon_update. cbv zeta. change (t_theta (tup_nonempty t)) with (t_theta t).
  destruct (_ <=? _)%N; auto. destruct (N.eqb_spec h 0) as [Hz|Hz]; auto.
  pose proof (set_nonempty_inv _ _ _ _ _ _ I) as I'. rewrite <- nonempty_er in I'.
  destruct (UInv_find [] _ _ _ _ _ _ h I' Hz) as [(i & s & Hf & Hn & Hin)|(i & Hf & _)]; rewrite Hf.
  - rewrite Hn. cbn [snd]. rewrite summary_update_none; auto. rewrite (HS h s Hin). apply (fold_aupf_length zero). apply repeat_length.
  - unfold aon_new_summary. rewrite summary_update_none; auto. apply repeat_length.
Qed.

(** Numbers beyond position [nv] are ignored. *)
Theorem aon_long_vector : forall (V : Type) (zero : V) (add : V -> V -> V) nv t h v,
  aon_update zero add nv t h v = aon_update zero add nv t h (firstn nv v).
Proof.
  assert (G : forall (V : Type) (add : V -> V -> V) n s v, aon_summary_update add n s v = aon_summary_update add n s (firstn n v)).
  { induction n as [|n IH]; intros s v; cbn [aon_summary_update firstn]; auto. destruct s as [|x s]; auto. destruct v as [|y v]; auto.
    rewrite IH. auto. }
  intros V zero add nv t h v. unfold aon_update. rewrite (G _ _ nv (aon_new_summary zero nv)).
  destruct (_ <=? _)%N; auto. destruct (_ =? _)%N; auto. destruct (find _ _ _ _); auto. destruct (nth_error _ _) as [e|]; auto. rewrite (G _ _ nv (snd e)). auto.
Qed.

(** ** C68: set operations *)

Inductive aunop (V : Type) := AUnUpdate (s : asketch V) | AUnReset.
Arguments AUnUpdate {V}. Arguments AUnReset {V}.
Fixpoint aunrun {V} (ap : list V -> list V -> list V) (u : aunion V) (ops : list (aunop V)) : option (aunion V) :=
  match ops with
  | [] => Some u
  | AUnUpdate s :: r => match aunion_update ap u s with None => None | Some u' => aunrun ap u' r end
  | AUnReset :: r => aunrun ap (aunion_reset u) r
  end.
Definition tuple_op {V} (op : aunop V) : tunop (list V) := match op with AUnUpdate s => TUnUpdate (as_sketch s) | AUnReset => TUnReset end.

(** An input: well formed, empty or of the right seed, and empty or of the right number of values. *)
Definition ainput {V} (nv : nat) (seed : N) (s : asketch V) : Prop :=
  tinput seed (as_sketch s) /\ (ts_empty (as_sketch s) = true \/ as_nv s = nv).

(** A non-empty sketch with another number of values is refused, by union and intersection alike; an empty one is
    refused by the intersection only. *)
Theorem aon_wrong_number_of_values : forall (V : Type) (ap : list V -> list V -> list V) (u : aunion V) (x : ainter V) (s : asketch V),
  (as_nv s <> au_nv u -> ts_empty (as_sketch s) = false -> aunion_update ap u s = None) /\
  (ts_empty (as_sketch s) = true -> aunion_update ap u s = Some u) /\
  (as_nv s <> ai_nv x -> t_empty (ti_tab (ai_inter x)) = false -> ainter_update ap x s = None).
Proof.
  intros V ap u x s. unfold aunion_update, ainter_update. split; [|split].
  - intros Hn He. rewrite He. destruct (Nat.eqb_spec (au_nv u) (as_nv s)); [congruence|auto].
  - intros He. rewrite He. auto.
  - intros Hn He. rewrite He. destruct (Nat.eqb_spec (ai_nv x) (as_nv s)); [congruence|auto].
Qed.

Lemma aunrun_tunrun {V} ap nv seed : forall (ops : list (aunop V)) (u : aunion V), au_nv u = nv ->
  Forall (fun op => match op with AUnUpdate s => ainput nv seed s | AUnReset => True end) ops ->
  aunrun ap u ops = option_map (fun u' => mkAUnion u' nv) (tunrun [] ap (au_union u) (map tuple_op ops)).
Proof.
  induction ops as [|op r IH]; intros u Hu H; cbn [aunrun map tunrun].
  - destruct u; cbn in *; subst; auto.
  - inversion H as [|? ? Ho Hr]; subst. destruct op as [s|]; cbn [tuple_op tunrun].
    + unfold aunion_update. destruct Ho as [_ Hn]. destruct (ts_empty (as_sketch s)) eqn:Ee.
      * assert (Et : tunion_update [] ap (au_union u) (as_sketch s) = Some (au_union u)) by (unfold tunion_update; rewrite Ee; auto).
        rewrite Et. apply IH; auto.
      * destruct Hn as [Hn|Hn]; [discriminate|]. rewrite Hn, Nat.eqb_refl. cbn [negb].
        destruct (tunion_update [] ap (au_union u) (as_sketch s)) as [u'|]; auto. rewrite IH; auto.
    + rewrite IH; auto.
Qed.

(** Union.Result after any history of Updates and Resets is the tuple union of the inputs, with the number of values of
    the union. *)
Theorem aon_union_correct : forall (V : Type) (ap : list V -> list V -> list V) nv lgK rf th0 seed ops ordered,
  good_params lgK rf th0 ->
  Forall (fun op => match op with AUnUpdate s => ainput nv seed s | AUnReset => True end) ops ->
  exists u r, aunrun ap (new_aunion nv lgK rf th0 seed) ops = Some u /\ aunion_result u ordered = Some r /\ as_nv r = nv /\
    UnionSpec (pow2 lgK) th0 (map erase_sk (tpresented (map tuple_op ops))) (erase_sk (as_sketch r)) /\
    (forall h s, In (h, s) (ts_entries (as_sketch r)) -> combined ap (summaries_for h (tpresented (map tuple_op ops))) = Some s) /\
    (ordered = true -> StronglySorted N.le (thashes (as_sketch r))).
Proof.
  intros V ap nv lgK rf th0 seed ops ordered G H.
  destruct (tuple_union_correct (list V) [] ap lgK rf th0 seed (map tuple_op ops) ordered G) as (u & r & E & Er & A & B & C).
  { apply Forall_map. revert H. apply Forall_impl. intros [s|]; cbn; auto. intros [? _]; auto. }
  exists (mkAUnion u nv), (mkASketch r nv). rewrite (aunrun_tunrun ap nv seed) by auto. cbn [new_aunion au_union]. rewrite E. split; auto.
  unfold aunion_result. cbn [au_union au_nv]. rewrite Er. auto 10.
Qed.

Fixpoint ainterrun {V} (ap : list V -> list V -> list V) (x : ainter V) (l : list (asketch V)) : option (ainter V) :=
  match l with [] => Some x | s :: r => match ainter_update ap x s with None => None | Some x' => ainterrun ap x' r end end.

Lemma ainterrun_tinterrun {V} ap nv : forall (l : list (asketch V)) (x : ainter V), ai_nv x = nv -> Forall (fun s => as_nv s = nv) l ->
  ainterrun ap x l = option_map (fun x' => mkAInter x' nv) (tinterrun [] ap (ai_inter x) (map as_sketch l)).
Proof.
  induction l as [|s r IH]; intros x Hx H; cbn [ainterrun map tinterrun].
  - destruct x; cbn in *; subst; auto.
  - inversion H as [|? ? Ho Hr]; subst. unfold ainter_update.
    destruct (t_empty (ti_tab (ai_inter x))) eqn:Ee.
    + assert (Et : tinter_update [] ap (ai_inter x) (as_sketch s) = Some (ai_inter x)) by (unfold tinter_update; rewrite Ee; auto).
      rewrite Et. rewrite IH; auto.
    + rewrite Ho, Nat.eqb_refl. cbn [negb]. destruct (tinter_update [] ap (ai_inter x) (as_sketch s)); auto. rewrite IH; auto.
Qed.

(** Intersection.Result is the tuple intersection of the inputs. *)
Theorem aon_intersection_correct : forall (V : Type) (ap : list V -> list V -> list V) nv seed l ordered, l <> [] ->
  Forall (fun s => tinput seed (as_sketch s) /\ as_nv s = nv) l ->
  exists x r, ainterrun ap (new_ainter nv seed) l = Some x /\ ainter_result x ordered = Some r /\ as_nv r = nv /\
    (forall h, In h (thashes (as_sketch r)) <-> (h < ts_theta (as_sketch r))%N /\ forall s, In s l -> In h (thashes (as_sketch s))) /\
    NoDup (thashes (as_sketch r)) /\
    (forall h s, In (h, s) (ts_entries (as_sketch r)) -> combined ap (summaries_for h (map as_sketch l)) = Some s) /\
    (ts_empty (as_sketch r) = false -> ts_theta (as_sketch r) = min_theta MaxTheta (map (fun s => erase_sk (as_sketch s)) l)) /\
    (ordered = true -> StronglySorted N.le (thashes (as_sketch r))) /\ twf (as_sketch r).
Proof.
  intros V ap nv seed l ordered Hne H.
  destruct (tuple_intersection_correct (list V) [] ap seed (map as_sketch l) ordered) as (x & r & E & Er & A & B & C & D & _ & F & W).
  { destruct l; [tauto|discriminate]. }
  { apply Forall_map. revert H. apply Forall_impl. tauto. }
  exists (mkAInter x nv), (mkASketch r nv). rewrite (ainterrun_tinterrun ap nv); [|auto|revert H; apply Forall_impl; tauto].
  cbn [new_ainter ai_inter]. rewrite E. split; auto. unfold ainter_result. cbn [ai_inter ai_nv]. rewrite Er. split; auto. split; auto.
  cbn [as_sketch]. split.
  { intros h. rewrite A. split; intros [P Q]; split; auto.
    - intros s Hs. apply Q. apply in_map. auto.
    - intros s Hs. apply in_map_iff in Hs as (s' & <- & Hs'). auto. }
  split; auto. split; auto. split.
  { intros He. destruct (D He) as [Dt _]. rewrite Dt, map_map. auto. }
  auto.
Qed.

(** A-not-B keeps a's summaries for the keys of a that are not in b, and a's number of values. *)
Theorem aon_a_not_b_correct : forall (V : Type) (a b : asketch V) seed ordered,
  twf (as_sketch a) -> twf (as_sketch b) -> ts_seed (as_sketch a) = seed -> ts_seed (as_sketch b) = seed ->
  exists r, aon_a_not_b a b seed ordered = Some r /\ as_nv r = as_nv a /\
    ts_theta (as_sketch r) = (if ts_empty (as_sketch a) then MaxTheta else N.min (ts_theta (as_sketch a)) (ts_theta (as_sketch b))) /\
    (forall h s, In (h, s) (ts_entries (as_sketch r)) <->
       In (h, s) (ts_entries (as_sketch a)) /\ ~ In h (thashes (as_sketch b)) /\ (h < ts_theta (as_sketch r))%N) /\
    NoDup (thashes (as_sketch r)) /\ (ordered = true -> StronglySorted N.le (thashes (as_sketch r))) /\ twf (as_sketch r).
Proof.
  intros V a b seed ordered Wa Wb Sa Sb. destruct (tuple_a_not_b_correct (list V) (as_sketch a) (as_sketch b) seed ordered Wa Wb Sa Sb) as (r & E & H).
  exists (mkASketch r (as_nv a)). unfold aon_a_not_b. rewrite E. cbn [as_sketch as_nv]. tauto.
Qed.

Lemma values_for_none {A} h (l : list (N * A)) : ~ In h (map fst l) -> values_for h l = [].
Proof.
  unfold values_for. induction l as [|[h' v] l IH]; cbn; intros H; auto. destruct (N.eqb_spec h' h); [tauto|]. auto.
Qed.
Lemma values_for_one {A} h (s : A) : forall l, NoDup (map fst l) -> In (h, s) l -> values_for h l = [s].
Proof.
  induction l as [|[h' v] l IH]; cbn [map fst]; intros H Hin; [destruct Hin|]. inversion H as [|? ? H1 H2]; subst. unfold values_for. cbn [filter fst].
  destruct Hin as [E|Hin].
  - inversion E; subst. rewrite N.eqb_refl. cbn. f_equal. fold (values_for h l). apply values_for_none. auto.
  - destruct (N.eqb_spec h' h) as [->|Hd]. + destruct H1. apply in_map_iff. exists (h, s). auto. + apply IH; auto.
Qed.

Lemma sum_at_acc i : forall vs a, fold_left Z.add (map (fun v => nth i v 0%Z) vs) a = (a + sum_at 0 Z.add i vs)%Z.
Proof.
  unfold sum_at. induction vs as [|v vs IH]; intros a; cbn [map fold_left]; [lia|]. rewrite (IH (a + _)%Z), (IH (0 + _)%Z). lia.
Qed.
Lemma sum_at_app i a b : sum_at 0%Z Z.add i (a ++ b) = (sum_at 0 Z.add i a + sum_at 0 Z.add i b)%Z.
Proof. unfold sum_at at 1. rewrite map_app, fold_left_app, sum_at_acc. auto. Qed.

Lemma nth_vadd : forall i a b x y, nth_error a i = Some x -> nth_error b i = Some y -> nth_error (vadd Z.add a b) i = Some (x + y)%Z.
Proof.
  unfold vadd. induction i as [|i IH]; intros [|a0 a] [|b0 b] x y; cbn; try discriminate.
  - intros E1 E2. congruence.
  - apply IH.
Qed.

(** A key below the theta of the union: what an input built from a stream holds for it. *)
Lemma stream_summaries nv (s : asketch Z) (prs : list (N * list Z)) h :
  NoDup (thashes (as_sketch s)) ->
  (In h (thashes (as_sketch s)) <-> In h (map fst prs)) ->
  (forall h s', In (h, s') (ts_entries (as_sketch s)) -> length s' = nv /\
       forall i, i < nv -> nth_error s' i = Some (sum_at 0%Z Z.add i (values_for h prs))) ->
  values_for h prs = [] /\ values_for h (ts_entries (as_sketch s)) = [] \/
  exists x, values_for h (ts_entries (as_sketch s)) = [x] /\ length x = nv /\
    forall i, i < nv -> nth_error x i = Some (sum_at 0%Z Z.add i (values_for h prs)).
Proof.
  intros Hnd Hm Hs. destruct (in_dec N.eq_dec h (thashes (as_sketch s))) as [Hin|Hin].
  - right. apply in_map_iff in Hin as ([h' x] & E & Hin). cbn in E. subst h'. exists x. split; [apply values_for_one; auto|]. apply Hs. auto.
  - left. split; apply values_for_none; auto. rewrite <- Hm. auto.
Qed.

Lemma aon_stream nv lgK rf th0 seed ops : good_params lgK rf th0 -> long_enough nv ops ->
  exists t, aon_run 0%Z Z.add nv (aon_new lgK rf th0) ops = Some t /\ twf (tview seed t) /\
    (ts_empty (tview seed t) = true -> pairs_of ops = []) /\
    NoDup (thashes (tview seed t)) /\
    (forall h, In h (thashes (tview seed t)) <-> In h (map fst (pairs_of ops)) /\ (0 < h)%N /\ (h < t_theta t)%N) /\
    (forall h s, In (h, s) (ts_entries (tview seed t)) -> length s = nv /\
       forall i, i < nv -> nth_error s i = Some (sum_at 0%Z Z.add i (values_for h (pairs_of ops)))).
Proof.
  intros G Hl. destruct (aon_content Z 0%Z Z.add nv lgK rf th0 seed ops G Hl) as (t & E & A & B & C & _ & W).
  exists t. do 2 (split; auto). split; [|auto]. rewrite (aon_new_run 0%Z Z.add nv lgK rf th0 ops G Hl) in E.
  destruct (tup_run_new [] (aupf Z.add nv) (repeat 0%Z nv) lgK rf th0 ops G) as (t' & em & E' & _ & I & _).
  assert (t' = t) by congruence. subst t'. intros He. assert (Hem : em = true) by (rewrite <- (ui_empty _ _ _ _ _ _ I); exact He).
  destruct (ui_emsn _ _ _ _ _ _ I Hem) as [Hn _]. destruct (pairs_of ops); auto. discriminate.
Qed.

(** Union of two streams of updates with coordinatewise addition of integers: each retained key has, at each position,
    the sum over both streams; and a key of either stream is retained if its hash is below the result's theta. *)
Theorem aon_union_of_streams : forall nv lgK rf th0 seed ops1 ops2 ordered,
  good_params lgK rf th0 -> long_enough nv ops1 -> long_enough nv ops2 ->
  exists t1 t2 u r, aon_run 0%Z Z.add nv (aon_new lgK rf th0) ops1 = Some t1 /\ aon_run 0%Z Z.add nv (aon_new lgK rf th0) ops2 = Some t2 /\
    aunrun (vadd Z.add) (new_aunion nv lgK rf MaxTheta seed)
      [AUnUpdate (aon_compact (aon_view nv seed t1) ordered); AUnUpdate (aon_view nv seed t2)] = Some u /\
    aunion_result u ordered = Some r /\ as_nv r = nv /\
    (forall h, In h (thashes (as_sketch r)) <->
       In h (map fst (pairs_of ops1 ++ pairs_of ops2)) /\ (0 < h)%N /\ (h < ts_theta (as_sketch r))%N) /\
    forall h s, In (h, s) (ts_entries (as_sketch r)) -> length s = nv /\
      forall i, i < nv -> nth_error s i = Some (sum_at 0%Z Z.add i (values_for h (pairs_of ops1 ++ pairs_of ops2))).
Proof.
  intros nv lgK rf th0 seed ops1 ops2 ordered G L1 L2.
  destruct (aon_stream nv lgK rf th0 seed ops1 G L1) as (t1 & E1 & W1 & Em1 & A1 & B1 & C1).
  destruct (aon_stream nv lgK rf th0 seed ops2 G L2) as (t2 & E2 & W2 & Em2 & A2 & B2 & C2).
  destruct (tuple_compact _ _ ordered W1) as (Pm & W1' & Et & Ee & _).
  assert (G' : good_params lgK rf MaxTheta) by (destruct G as (? & ? & _); split; auto; split; auto; unfold MaxTheta; lia).
  set (s1 := aon_compact (aon_view nv seed t1) ordered). set (s2 := aon_view nv seed t2).
  destruct (aon_union_correct Z (vadd Z.add) nv lgK rf MaxTheta seed [AUnUpdate s1; AUnUpdate s2] ordered G') as (u & r & Eu & Er & Hn & U & Hs & _).
  { constructor; [|constructor; [|constructor]]; (split; [|right; reflexivity]); (split; [auto|right; reflexivity]). }
  exists t1, t2, u, r. do 5 (split; [assumption|]).
  assert (A1' : NoDup (thashes (as_sketch s1))).
  { eapply Permutation_NoDup; [|exact A1]. apply Permutation_map. symmetry. exact Pm. }
  assert (P1 : forall h, In h (thashes (as_sketch s1)) <-> In h (thashes (tview seed t1))).
  { intros h. split; apply Permutation_in; apply Permutation_map; [|symmetry]; exact Pm. }
  assert (C1' : forall h s', In (h, s') (ts_entries (as_sketch s1)) -> In (h, s') (ts_entries (tview seed t1))).
  { intros h s'. apply Permutation_in. exact Pm. }
  assert (Th : (ts_theta (as_sketch r) <= min_theta MaxTheta (nonempty_of [erase_sk (as_sketch s1); erase_sk (as_sketch s2)]))%N) by apply (us_theta_le _ _ _ _ U).
  assert (M1 : forall h, (0 < h)%N -> (h < ts_theta (as_sketch r))%N -> In h (thashes (as_sketch s1)) <-> In h (map fst (pairs_of ops1))).
  { intros h Hz Hh. rewrite P1, B1. split; [tauto|]. intros Hin. split; auto. split; auto.
    destruct (ts_empty (tview seed t1)) eqn:He. { rewrite (Em1 eq_refl) in Hin. destruct Hin. }
    assert (Hq : (ts_theta (as_sketch r) <= t_theta t1)%N); [|lia].
    assert (Ev : ts_theta (tview seed t1) = t_theta t1) by (cbn in He |- *; rewrite He; auto).
    rewrite <- Ev.
    rewrite <- Et.
    etransitivity; [exact Th|]. apply (proj2 (min_theta_le _ MaxTheta) (erase_sk (as_sketch s1))). unfold nonempty_of. apply filter_In. split; [cbn; auto|].
    change (sk_empty (erase_sk (as_sketch s1))) with (ts_empty (tcompact (tview seed t1) ordered)). rewrite Ee. auto. }
  assert (M2 : forall h, (0 < h)%N -> (h < ts_theta (as_sketch r))%N -> In h (thashes (as_sketch s2)) <-> In h (map fst (pairs_of ops2))).
  { intros h Hz Hh. change (as_sketch s2) with (tview seed t2). rewrite B2. split; [tauto|]. intros Hin. split; auto. split; auto.
    destruct (ts_empty (tview seed t2)) eqn:He. { rewrite (Em2 eq_refl) in Hin. destruct Hin. }
    assert (Hq : (ts_theta (as_sketch r) <= t_theta t2)%N); [|lia].
    assert (Ev : ts_theta (tview seed t2) = t_theta t2) by (cbn in He |- *; rewrite He; auto).
    rewrite <- Ev.
    etransitivity; [exact Th|]. apply (proj2 (min_theta_le _ MaxTheta) (erase_sk (as_sketch s2))). unfold nonempty_of. apply filter_In. split; [cbn; auto|].
    change (sk_empty (erase_sk (as_sketch s2))) with (ts_empty (tview seed t2)). rewrite He. auto. }
  assert (Mr : forall h, In h (thashes (as_sketch r)) <-> (h < ts_theta (as_sketch r))%N /\ (In h (thashes (as_sketch s1)) \/ In h (thashes (as_sketch s2)))).
  { intros h. etransitivity; [apply (us_mem _ _ _ _ U)|]. cbn [erase_sk sk_theta]. rewrite all_hashes_In. cbn [map tuple_op tpresented fold_left app].
    split; intros [Hh Hx]; split; auto.
    - destruct Hx as (s & [<-|[<-|[]]] & Hin); auto.
    - destruct Hx as [Hin|Hin]; [exists (erase_sk (as_sketch s1))|exists (erase_sk (as_sketch s2))]; (split; [cbn; auto|exact Hin]). }
  assert (Z1 : forall h, In h (thashes (as_sketch s1)) -> (0 < h)%N) by (intros h Hin; apply P1, B1 in Hin; tauto).
  assert (Z2 : forall h, In h (thashes (as_sketch s2)) -> (0 < h)%N) by (intros h Hin; apply B2 in Hin; tauto).
  split.
  { intros h. rewrite Mr, map_app, in_app_iff. split.
    - intros (Hh & Hx). assert (Hz : (0 < h)%N) by (destruct Hx; auto). rewrite <- (M1 h Hz Hh), <- (M2 h Hz Hh). auto.
    - intros (Hx & Hz & Hh). rewrite (M1 h Hz Hh), (M2 h Hz Hh). auto. }
  intros h s Hin. assert (Hr : In h (thashes (as_sketch r))) by (apply in_map_iff; exists (h, s); auto).
  apply Mr in Hr as [Hh Hx]. assert (Hz : (0 < h)%N) by (destruct Hx; auto).
  specialize (Hs h s Hin). unfold summaries_for in Hs. cbn [map tuple_op tpresented fold_left app flat_map] in Hs.
  assert (Ev : values_for h (pairs_of ops1 ++ pairs_of ops2) = values_for h (pairs_of ops1) ++ values_for h (pairs_of ops2)).
  { unfold values_for. rewrite filter_app, map_app. auto. }
  rewrite Ev.
  destruct (stream_summaries nv s1 (pairs_of ops1) h A1' (M1 h Hz Hh)) as [(V1 & Q1)|(x1 & Q1 & N1 & V1)]. { intros h' s' Hq. apply C1, C1'. auto. }
  - destruct (stream_summaries nv s2 (pairs_of ops2) h A2 (M2 h Hz Hh)) as [(V2 & Q2)|(x2 & Q2 & N2 & V2)]; [exact C2|..]; rewrite Q1, Q2 in Hs; cbn in Hs.
    + discriminate.
    + injection Hs as <-. rewrite V1. auto.
  - destruct (stream_summaries nv s2 (pairs_of ops2) h A2 (M2 h Hz Hh)) as [(V2 & Q2)|(x2 & Q2 & N2 & V2)]; [exact C2|..]; rewrite Q1, Q2 in Hs; cbn [app combined fold_left] in Hs; injection Hs as <-.
    + rewrite V2, app_nil_r. auto.
    + split. { unfold vadd. rewrite map_length, combine_length, N1, N2. lia. }
      intros i Hi. rewrite sum_at_app. apply nth_vadd; auto.
Qed.

(** ** The findings *)

(** A-not-B does not compare the numbers of values, although union and intersection do. *)
Theorem aon_a_not_b_mixes_sizes_refuted : exists (a b r : asketch N), as_nv a <> as_nv b /\ twf (as_sketch a) /\ twf (as_sketch b) /\
  aon_a_not_b a b 9001 true = Some r /\ ts_entries (as_sketch r) <> [].
Proof.
  exists (mkASketch (mkTSketch [(5%N, [1%N; 2%N])] MaxTheta 9001 false true) 2), (mkASketch (mkTSketch [(7%N, [3%N])] MaxTheta 9001 false true) 1).
  eexists. split; [cbn; lia|]. split.
  { constructor; cbn; try (intros; discriminate); try lia; repeat constructor; cbn; intuition; subst; try lia. all: unfold MaxTheta; try lia. }
  split.
  { constructor; cbn; try (intros; discriminate); try lia; repeat constructor; cbn; intuition; subst; try lia. all: unfold MaxTheta; try lia. }
  split; [vm_compute; reflexivity|]. vm_compute. discriminate.
Qed.

(** A vector that is too short: the caller gets a panic after the sketch has been marked non-empty, with nothing in it. *)
Theorem aon_panic_leaves_nonempty_refuted : exists t, aon_update 0%N N.add 2 (aon_new 5 0 MaxTheta) 12345 [1%N] = APanic t /\
  t_empty t = false /\ t_num t = 0 /\ t_empty (@aon_new N 5 0 MaxTheta) = true.
Proof. eexists. split; [vm_compute; reflexivity|]. vm_compute. auto. Qed.

(** ** Non-vacuity *)
Definition ex_aon_ops : list (tupop (list Z)) :=
  [TUpdate 100 [1; 10; 7]; TUpdate 200 [2; 20]; TUpdate 100 [3; 30]; TUpdate 0 [9; 9]; TUpdate 300 [5; -5]; TUpdate 100 [4; -40]]%Z.
Example ex_aon_params : good_params 5 1 MaxTheta /\ long_enough 2 ex_aon_ops.
Proof.
  split. { unfold good_params, MinLgK, MaxLgK, MaxTheta. lia. }
  unfold long_enough, ex_aon_ops. cbn. intuition; match goal with H : TUpdate _ _ = _ |- _ => inversion H; subst; cbn; lia end.
Qed.
Example ex_aon_run : exists t, aon_run 0%Z Z.add 2 (aon_new 5 1 MaxTheta) ex_aon_ops = Some t /\
  In (100%N, [8; 0]%Z) (ts_entries (tview 9001 t)) /\ length (ts_entries (tview 9001 t)) = 3.
Proof. eexists. split; [vm_compute; reflexivity|]. vm_compute. auto 10. Qed.

Print Assumptions aon_content.
Print Assumptions aon_short_vector.
Print Assumptions aon_long_vector.
Print Assumptions aon_wrong_number_of_values.
Print Assumptions aon_union_correct.
Print Assumptions aon_intersection_correct.
Print Assumptions aon_a_not_b_correct.
Print Assumptions aon_union_of_streams.
