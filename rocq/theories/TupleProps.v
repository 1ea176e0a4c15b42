(** * Properties C42, C43, C53 of the tuple package. *)
From Coq Require Import Sorting.Sorted Permutation.
From Verif Require Import Base QuickSelectModel ProbeModel HashtableModel HashtableProofs
  ThetaModel ThetaProofs ThetaProps TupleModel TupleProofs.
Local Open Scope nat_scope.

(** ** Specification vocabulary *)

(** The (hash, value) pairs presented since the last Reset, in order. *)
Definition pairs_of {V} (ops : list (tupop V)) : list (N * V) :=
  fold_left (fun acc op => match op with TUpdate h v => acc ++ [(h, v)] | TReset => [] | _ => acc end) ops [].

(** The values presented for hash [h], in order; the summaries listed for [h]. *)
Definition values_for {A} (h : N) (l : list (N * A)) : list A := map snd (filter (fun p => (fst p =? h)%N) l).

(** Combining summaries from left to right; nothing if there are none. *)
Definition combined {S} (ap : S -> S -> S) (l : list S) : option S :=
  match l with [] => None | s :: r => Some (fold_left ap r s) end.

(** The summaries that the sketches of [ins] hold for hash [h], in the order the sketches were presented. *)
Definition summaries_for {S} (h : N) (ins : list (tsketch S)) : list S :=
  flat_map (fun s => values_for h (ts_entries s)) ins.

(** A tuple sketch an API call can return: its hashes, theta and flags form a well-formed theta sketch
    (distinct hashes, in range, sorted if flagged ordered, nothing in an empty one). *)
Definition twf {S} (s : tsketch S) : Prop := wf_sketch (erase_sk s).
Definition tinput {S} (seed : N) (s : tsketch S) : Prop := twf s /\ (ts_empty s = true \/ ts_seed s = seed).

Definition thashes {S} (s : tsketch S) : list N := map fst (ts_entries s).

(** ** C42: update sketch *)

Lemma tup_run_new {S V} (s0 : S) (upf : S -> V -> S) mk lgK rf th0 ops : good_params lgK rf th0 ->
  exists t em, tup_run s0 upf mk (tup_new s0 lgK rf th0) ops = Some t /\
    urun (new_update_sketch lgK rf th0) (map eop ops) = Some (er ehash t) /\
    UInv lgK rf th0 (er ehash t) (map fst (pairs_of ops)) em /\ SInv upf mk t (pairs_of ops).
Proof.
  intros (HK & Hrf & _). rewrite <- (tup_new_er s0).
  destruct (tup_run_ok s0 upf mk lgK rf th0 (proj1 HK) Hrf ops (tup_new s0 lgK rf th0) [] true) as (t & em & E1 & E2 & I & HS).
  - rewrite tup_new_er. apply new_inv; lia.
  - apply tup_new_SInv.
  - exists t, em. auto.
Qed.

(** For every sequence of updates, Trims and Resets: no failure; the retained hashes are exactly the presented
    non-zero hashes below theta, each once; and the summary of each is the update function folded over all
    values presented for that hash since the last Reset, in order, starting from a new summary. *)
Theorem tuple_content : forall (S V : Type) (s0 : S) (upf : S -> V -> S) (mk : S) lgK rf th0 seed ops,
  good_params lgK rf th0 ->
  exists t, tup_run s0 upf mk (tup_new s0 lgK rf th0) ops = Some t /\
    let v := tview seed t in
    NoDup (thashes v) /\
    (forall h, In h (thashes v) <-> In h (map fst (pairs_of ops)) /\ (0 < h)%N /\ (h < t_theta t)%N) /\
    (forall h s, In (h, s) (ts_entries v) -> s = fold_left upf (values_for h (pairs_of ops)) mk) /\
    (t_theta t = th0 \/ (t_theta t < th0)%N /\ pow2 lgK <= length (ts_entries v)) /\
    twf v.
Proof.
  intros S V s0 upf mk lgK rf th0 seed ops G.
  destruct (tup_run_new s0 upf mk lgK rf th0 ops G) as (t & em & E1 & E2 & I & HS).
  exists t. split; auto.
  assert (Eh : thashes (tview seed t) = live tid (map ehash (t_entries t))) by (symmetry; apply (live_er ehash)).
  cbv zeta. rewrite Eh. split. { apply (tlive_NoDup (t_lgCur t)). apply (ui_tok _ _ _ _ _ _ I). }
  split. { intros h. rewrite (ui_mem _ _ _ _ _ _ I). simpl. split; intros (A & B & C); repeat split; auto; lia. }
  split. { intros h s Hs. apply (HS h s Hs). }
  split.
  - destruct (ui_th _ _ _ _ _ _ I) as [A|(A & _ & B)]; auto. right. split; auto.
    pose proof (ui_num _ _ _ _ _ _ I) as C. simpl in C, B. rewrite live_er, map_length in C. unfold tview. simpl.
    unfold table_all. fold (live (E := ent S) ehash (t_entries t)). lia.
  - unfold twf. rewrite tview_er. eapply view_update_wf; [apply G|eauto].
Qed.

(** The hashes, theta, table size and errors are those of a theta sketch given the same keys: every theorem about
    theta update sketches (C01-C06) applies to the keys of a tuple sketch. *)
Theorem tuple_keys_are_theta : forall (S V : Type) (s0 : S) (upf : S -> V -> S) (mk : S) lgK rf th0 seed ops,
  good_params lgK rf th0 ->
  exists t t', tup_run s0 upf mk (tup_new s0 lgK rf th0) ops = Some t /\
    urun (new_update_sketch lgK rf th0) (map eop ops) = Some t' /\
    thashes (tview seed t) = all_of t' /\ t_theta t = t_theta t' /\ t_empty t = t_empty t' /\ t_lgCur t = t_lgCur t'.
Proof.
  intros S V s0 upf mk lgK rf th0 seed ops G.
  destruct (tup_run_new s0 upf mk lgK rf th0 ops G) as (t & em & E1 & E2 & I & HS).
  exists t, (er ehash t). do 2 (split; auto). split; auto. symmetry. apply table_all_er.
Qed.

(** An update is accepted (nil) exactly when its hash is non-zero and below theta, whether or not it is new. *)
Theorem tuple_update_outcome : forall (S V : Type) (s0 : S) (upf : S -> V -> S) (mk : S) lgK rf th0 ops h v,
  good_params lgK rf th0 ->
  exists t t' e, tup_run s0 upf mk (tup_new s0 lgK rf th0) ops = Some t /\ tup_update s0 upf mk t h v = Some (t', e) /\
    e = (if (t_theta t <=? h)%N then UErrExceedsTheta else if (h =? 0)%N then UErrZeroHash else UNil).
Proof.
  intros S V s0 upf mk lgK rf th0 ops h v G.
  destruct (tup_run_new s0 upf mk lgK rf th0 ops G) as (t & em & E1 & E2 & I & HS).
  destruct G as (HK & Hrf & _).
  destruct (tup_update_ok s0 upf mk lgK rf th0 t (pairs_of ops) em h v (proj1 HK) Hrf I HS) as (t' & e & E3 & E4 & _).
  exists t, t', (terr e). do 2 (split; auto).
  destruct (update_inv lgK rf th0 (er ehash t) (map fst (pairs_of ops)) em h (proj1 HK) Hrf I) as (t2 & e2 & E5 & _ & _ & O).
  rewrite E4 in E5. inversion E5; subst. simpl t_theta in O.
  destruct O as [A B|A B C|A B C D|A B C]; simpl t_theta in *; simpl terr; destruct (N.leb_spec (t_theta t) h); try lia; auto;
    destruct (N.eqb_spec h 0); auto; tauto.
Qed.

(** Compact() keeps every entry with its summary; sorted by hash if ordered is asked for. *)
Theorem tuple_compact : forall (S : Type) (s : tsketch S) ordered, twf s ->
  Permutation (ts_entries (tcompact s ordered)) (ts_entries s) /\ twf (tcompact s ordered) /\
  ts_theta (tcompact s ordered) = ts_theta s /\ ts_empty (tcompact s ordered) = ts_empty s /\
  (ordered = true -> StronglySorted N.le (thashes (tcompact s ordered))).
Proof.
  intros S s ordered W.
  assert (He : ts_empty s = true -> ts_entries s = []).
  { intros E. destruct (wf_empty _ W E) as [A _]. simpl in A. destruct (ts_entries s); auto. discriminate. }
  assert (W' : twf (tcompact s ordered)) by (unfold twf; rewrite tcompact_er by auto; apply new_compact_wf; auto).
  split. { simpl. destruct (ordered && _); auto. apply sort_by_hash_perm. }
  split; auto. split; auto. split; auto. intros ->. apply (wf_sorted _ W'). simpl. apply orb_true_r.
Qed.

(** ** C53: Filter keeps exactly the entries whose summary satisfies the predicate; theta is unchanged, and the result
    is flagged empty only if nothing is kept and the sketch was not in estimation mode. *)
Theorem tuple_filter : forall (S : Type) (s : tsketch S) (p : S -> bool), twf s ->
  (forall h x, In (h, x) (ts_entries (tfilter s p)) <-> In (h, x) (ts_entries s) /\ p x = true) /\
  NoDup (thashes (tfilter s p)) /\ ts_theta (tfilter s p) = ts_theta s /\ ts_seed (tfilter s p) = ts_seed s /\
  (ts_ordered s = true -> StronglySorted N.le (thashes (tfilter s p))) /\
  (ts_empty (tfilter s p) = true <-> ts_entries (tfilter s p) = [] /\ (ts_theta s = MaxTheta \/ ts_empty s = true)) /\
  twf (tfilter s p).
Proof.
  intros S s p W. pose proof W as [W1 W2 W3 W4 W5]. unfold erase_sk in W1, W2, W3, W4, W5. simpl in *.
  assert (Hsub : forall l, NoDup (map fst l) -> NoDup (map fst (filter (fun e : ent S => p (snd e)) l))).
  { induction l as [|[h x] r IH]; simpl; intros H; auto. inversion H; subst. destruct (p x); simpl; auto. constructor; auto.
    intros C. apply H2. apply in_map_iff in C. destruct C as (y & <- & Hy). apply filter_In in Hy. apply in_map. tauto. }
  assert (Hss : forall l, StronglySorted N.le (map fst l) -> StronglySorted N.le (map fst (filter (fun e : ent S => p (snd e)) l))).
  { induction l as [|[h x] r IH]; simpl; intros H; auto. inversion H as [|? ? H1 H2]; subst. destruct (p x); simpl; auto. constructor; auto.
    rewrite Forall_forall in *. intros y Hy. apply H2. apply in_map_iff in Hy. destruct Hy as (z & <- & Hz). apply filter_In in Hz.
    apply in_map. tauto. }
  split. { intros h x. unfold tfilter. simpl. rewrite filter_In. simpl. tauto. }
  split. { unfold thashes, tfilter. simpl. auto. }
  split; auto. split; auto. split. { intros Ho. unfold thashes, tfilter. simpl. apply Hss. auto. }
  assert (Hem : ts_empty (tfilter s p) = true <-> ts_entries (tfilter s p) = [] /\ (ts_theta s = MaxTheta \/ ts_empty s = true)).
  { unfold tfilter, testimation. simpl. rewrite andb_true_iff, negb_true_iff, andb_false_iff, N.ltb_ge, negb_false_iff, Nat.eqb_eq.
    split.
    - intros [[A|A] B]; (split; [destruct (filter _ _); auto; discriminate|]); auto. left. lia.
    - intros [A [B|B]]; rewrite A; split; auto. left. lia. }
  split; auto. constructor; simpl.
  - apply Hsub. auto.
  - intros h Hh. apply W2. apply in_map_iff in Hh. destruct Hh as (y & <- & Hy). apply filter_In in Hy. apply in_map. tauto.
  - auto.
  - match goal with |- (if ?c then _ else _) = _ -> _ => destruct c eqn:Hl end.
    + intros _. apply short_sorted. rewrite map_length. apply Nat.leb_le. exact Hl.
    + intros Ho. apply Hss. auto.
  - intros E. destruct (proj1 Hem E) as [A B]. unfold tfilter in A. simpl in A. rewrite A. split; auto.
    destruct B as [B|B]; auto. apply W5. auto.
Qed.

(** NewCompactSketchFromThetaSketch pairs every hash of the theta sketch with the given summary. *)
Theorem tuple_from_theta : forall (S : Type) (s : sketch) (x : S) ordered, wf_sketch s ->
  Permutation (ts_entries (tcompact_from_theta s x ordered)) (map (fun h => (h, x)) (sk_entries s)) /\
  twf (tcompact_from_theta s x ordered) /\ ts_theta (tcompact_from_theta s x ordered) = sk_theta s.
Proof.
  intros S s x ordered W. 
  assert (Hp : Permutation (ts_entries (tcompact_from_theta s x ordered)) (map (fun h => (h, x)) (sk_entries s))).
  { simpl. destruct (ordered && _); auto. apply sort_by_hash_perm. }
  split; auto. split; auto. unfold twf.
  assert (E : erase_sk (tcompact_from_theta s x ordered) = new_compact s ordered).
  { unfold erase_sk, tcompact_from_theta, new_compact. simpl. f_equal.
    assert (Hm : map fst (map (fun h : N => (h, x)) (sk_entries s)) = sk_entries s) by (rewrite map_map; apply map_id).
    destruct (sk_empty s) eqn:Ee.
    - destruct (wf_empty _ W Ee) as [-> _]. simpl. destruct (_ && _); auto.
    - destruct (_ && _); auto. rewrite sort_by_hash_er, Hm. auto. }
  rewrite E. apply new_compact_wf; auto.
Qed.

(** ** C43: set operations *)
Inductive tunop (S : Type) := TUnUpdate (s : tsketch S) | TUnReset.
Arguments TUnUpdate {S}. Arguments TUnReset {S}.
Fixpoint tunrun {S} (s0 : S) (ap : S -> S -> S) (u : tunion S) (ops : list (tunop S)) : option (tunion S) :=
  match ops with
  | [] => Some u
  | TUnUpdate s :: r => match tunion_update s0 ap u s with None => None | Some u' => tunrun s0 ap u' r end
  | TUnReset :: r => tunrun s0 ap (tunion_reset s0 u) r
  end.
(** The sketches presented since the last Reset. *)
Definition tpresented {S} (ops : list (tunop S)) : list (tsketch S) :=
  fold_left (fun acc op => match op with TUnUpdate s => acc ++ [s] | TUnReset => [] end) ops [].

Lemma tunrun_inv {S} (s0 : S) ap lgK rf th0 seed : good_params lgK rf th0 -> forall ops u ins,
  Forall (fun op => match op with TUnUpdate s => tinput seed s | TUnReset => True end) ops ->
  TUnInv ap lgK rf th0 seed u ins ->
  exists u', tunrun s0 ap u ops = Some u' /\
    TUnInv ap lgK rf th0 seed u' (fold_left (fun acc op => match op with TUnUpdate s => acc ++ [s] | TUnReset => [] end) ops ins).
Proof.
  intros (HK & Hrf & _). induction ops as [|op r IH]; intros u ins Hok I; simpl.
  { exists u. auto. }
  inversion Hok; subst. destruct op.
  - destruct H1 as [W Hs]. destruct (tunion_update_ok s0 ap lgK rf th0 seed u ins s) as (u' & -> & _ & I'); auto; try lia.
  - apply IH; auto. eapply tunion_reset_ok; eauto; lia.
Qed.

(** Union.Result after any history of Updates and Resets: the keys are the union of the inputs' keys cut at theta, as
    for theta (C07); the summary of each key is the left-to-right combination of the summaries that the inputs hold
    for that key, in the order the inputs were presented. *)
Theorem tuple_union_correct : forall (S : Type) (s0 : S) (ap : S -> S -> S) lgK rf th0 seed ops ordered,
  good_params lgK rf th0 ->
  Forall (fun op => match op with TUnUpdate s => tinput seed s | TUnReset => True end) ops ->
  exists u r, tunrun s0 ap (new_tunion s0 lgK rf th0 seed) ops = Some u /\ tunion_result u ordered = Some r /\
    UnionSpec (pow2 lgK) th0 (map erase_sk (tpresented ops)) (erase_sk r) /\
    (forall h s, In (h, s) (ts_entries r) -> combined ap (summaries_for h (tpresented ops)) = Some s) /\
    (ordered = true -> StronglySorted N.le (thashes r)).
Proof.
  intros S s0 ap lgK rf th0 seed ops ordered G Hok. pose proof G as (HK & Hrf & _).
  destruct (tunrun_inv s0 ap lgK rf th0 seed G ops _ [] Hok (new_tunion_inv s0 ap lgK rf th0 seed (proj1 HK) Hrf)) as (u & E & I).
  fold (tpresented ops) in I. pose proof I as [[sn J] _].
  destruct (union_result_spec _ _ _ _ _ _ _ ordered J) as (r' & Hr & Hs & _ & Ho & Ho2).
  rewrite <- tunion_result_er in Hr. destruct (tunion_result u ordered) as [r|] eqn:Er; [|discriminate]. inversion Hr; subst r'.
  exists u, r. split; auto. split; auto. split; auto. split; [|auto].
  intros h s Hin. apply (tunion_result_sum ap _ _ _ _ _ _ _ _ I Er h s Hin).
Qed.

Fixpoint tinterrun {S} (s0 : S) (ap : S -> S -> S) (x : tinter S) (l : list (tsketch S)) : option (tinter S) :=
  match l with [] => Some x | s :: r => match tinter_update s0 ap x s with None => None | Some x' => tinterrun s0 ap x' r end end.

Lemma tinterrun_inv {S} (s0 : S) ap seed : forall l x ins, TIInv ap seed x ins -> Forall (tinput seed) l ->
  exists x', tinterrun s0 ap x l = Some x' /\ interrun (eri x) (map erase_sk l) = Some (eri x') /\ TIInv ap seed x' (ins ++ l).
Proof.
  induction l as [|s r IH]; intros x ins I Hok; simpl.
  { exists x. rewrite app_nil_r. auto. }
  inversion Hok as [|? ? [W Hs] Hok']; subst. destruct (tinter_update_ok s0 ap seed x ins s I W Hs) as (x' & -> & -> & I').
  destruct (IH x' (ins ++ [s]) I' Hok') as (x2 & E & E2 & I2). rewrite <- app_assoc in I2. exists x2. auto.
Qed.

(** Intersection.Result: the keys below theta common to all inputs, as for theta (C08), each with the left-to-right
    combination of all the inputs' summaries for it. *)
Theorem tuple_intersection_correct : forall (S : Type) (s0 : S) (ap : S -> S -> S) seed l ordered, l <> [] ->
  Forall (tinput seed) l ->
  exists x r, tinterrun s0 ap (new_tinter s0 seed) l = Some x /\ tinter_result x ordered = Some r /\
    (forall h, In h (thashes r) <-> (h < ts_theta r)%N /\ forall s, In s l -> In h (thashes s)) /\
    NoDup (thashes r) /\
    (forall h s, In (h, s) (ts_entries r) -> combined ap (summaries_for h l) = Some s) /\
    (ts_empty r = false -> ts_theta r = min_theta MaxTheta (map erase_sk l) /\ forall s, In s l -> ts_empty s = false) /\
    (ts_empty r = true -> ts_theta r = MaxTheta /\ forall h, ~ (forall s, In s l -> In h (thashes s))) /\
    (ordered = true -> StronglySorted N.le (thashes r)) /\ twf r.
Proof.
  intros S s0 ap seed l ordered Hne Hok.
  destruct (tinterrun_inv s0 ap seed l _ [] (new_tinter_inv s0 ap seed) Hok) as (x & E & E2 & I). simpl in I.
  assert (Hok' : Forall (fun s => wf_sketch s /\ (sk_empty s = true \/ sk_seed s = seed)) (map erase_sk l)).
  { rewrite Forall_map. exact Hok. }
  assert (Hne' : map (@erase_sk S) l <> []) by (destruct l; [tauto|discriminate]).
  destruct (theta_intersection_correct seed (map erase_sk l) ordered Hne' Hok') as (x' & r' & F1 & F2 & F3 & H1 & H2 & H3 & H4 & H5 & H6).
  assert (Hx : eri (new_tinter s0 seed) = new_inter seed) by reflexivity. rewrite Hx, F1 in E2. inversion E2; subst x'.
  rewrite <- tinter_result_er in F3. destruct (tinter_result x ordered) as [r|] eqn:Er; [|discriminate]. inversion F3; subst r'.
  assert (Hall : forall (P : sketch -> Prop), (forall s, In s (map erase_sk l) -> P s) <-> (forall s, In s l -> P (erase_sk s))).
  { intros P. split; intros H s Hs.
    - apply H. apply in_map. auto.
    - apply in_map_iff in Hs. destruct Hs as (y & <- & Hy). auto. }
  exists x, r. split; auto. split; auto. split.
  { intros h. pose proof (H1 h) as A. rewrite (Hall (fun s => In h (sk_entries s))) in A. exact A. }
  split; auto. split.
  { intros h s Hin. apply (tinter_result_sum ap _ _ _ _ _ I Er h s Hin). }
  split. { intros He. destruct (H3 He) as [A B]. split; auto. apply (Hall (fun s => sk_empty s = false)). exact B. }
  split. { intros He. destruct (H4 He) as [A B]. split; auto. intros h C. apply (B h). apply (Hall (fun s => In h (sk_entries s))). exact C. }
  split; auto.
Qed.

(** ANotB and TupleANotThetaB: the keys of a below theta that are not in b, as for theta (C09), each with a's summary. *)
Theorem tuple_a_not_theta_b_correct : forall (S : Type) (a : tsketch S) (b : sketch) seed ordered,
  twf a -> wf_sketch b -> ts_seed a = seed -> sk_seed b = seed ->
  exists r, tuple_a_not_theta_b a b seed ordered = Some r /\
    ts_theta r = (if ts_empty a then MaxTheta else N.min (ts_theta a) (sk_theta b)) /\
    (forall h s, In (h, s) (ts_entries r) <-> In (h, s) (ts_entries a) /\ ~ In h (sk_entries b) /\ (h < ts_theta r)%N) /\
    NoDup (thashes r) /\
    (ordered = true -> StronglySorted N.le (thashes r)) /\ twf r.
Proof.
  intros S a b seed ordered Wa Wb Sa Sb.
  destruct (theta_a_not_b_correct (erase_sk a) b seed ordered Wa Wb Sa Sb) as (r' & E & H1 & H2 & H3 & _ & H5 & H6).
  rewrite <- tuple_a_not_theta_b_er in E.
  2:{ intros C. destruct (wf_empty _ Wa C) as [A _]. simpl in A. destruct (ts_entries a); auto. discriminate. }
  destruct (tuple_a_not_theta_b a b seed ordered) as [r|] eqn:Er; [|discriminate]. inversion E; subst r'.
  exists r. split; auto. split; auto. split; [|split; auto].
  intros h s. split.
  - intros Hin. pose proof (tuple_a_not_theta_b_incl _ _ _ _ _ Er _ Hin) as Ha. split; auto.
    assert (Hh : In h (sk_entries (erase_sk r))) by (simpl; apply in_map_iff; exists (h, s); auto).
    apply H2 in Hh. tauto.
  - intros (Ha & Hb & Hl).
    assert (Hh : In h (sk_entries (erase_sk r))).
    { apply H2. split; auto. simpl. apply in_map_iff. exists (h, s). auto. }
    simpl in Hh. apply in_map_iff in Hh. destruct Hh as ([h' s'] & E' & Hin). simpl in E'. subst h'.
    pose proof (tuple_a_not_theta_b_incl _ _ _ _ _ Er _ Hin) as Ha'.
    pose proof (wf_nodup _ Wa) as Hnd. simpl in Hnd.
    pose proof (sums_single h s _ Hnd Ha) as A1. pose proof (sums_single h s' _ Hnd Ha') as A2. rewrite A1 in A2. inversion A2; subst. auto.
Qed.

Theorem tuple_a_not_b_correct : forall (S : Type) (a b : tsketch S) seed ordered,
  twf a -> twf b -> ts_seed a = seed -> ts_seed b = seed ->
  exists r, tuple_a_not_b a b seed ordered = Some r /\
    ts_theta r = (if ts_empty a then MaxTheta else N.min (ts_theta a) (ts_theta b)) /\
    (forall h s, In (h, s) (ts_entries r) <-> In (h, s) (ts_entries a) /\ ~ In h (thashes b) /\ (h < ts_theta r)%N) /\
    NoDup (thashes r) /\
    (ordered = true -> StronglySorted N.le (thashes r)) /\ twf r.
Proof.
  intros S a b seed ordered Wa Wb Sa Sb. apply (tuple_a_not_theta_b_correct S a (erase_sk b)); auto.
Qed.

(** ** Sharing of summary objects.
    With a Policy (no merge function) union.go:205-209 stores the input's summary object itself and :216-218 then
    calls Policy.Apply on it, which modifies it in place. Summaries become addresses into a heap; [hloop] is the
    loop of Update (union.go:200-224) in the branch [u.applyFunc == nil]. Finding: a later Update changes what the
    first input sketch reports. *)
Fixpoint hloop (ap : N -> N -> N) (utheta : N) (ordered : bool) (l : list (ent nat)) (t : table (ent nat)) (heap : list N)
  : option (table (ent nat) * list N) :=
  match l with
  | [] => Some (t, heap)
  | (h, a) :: r =>
    if (h <? utheta)%N && (h <? t_theta t)%N then
      match find ehash (t_entries t) (t_lgCur t) h with
      | PEmpty i =>
        match insert ehash (zent 0) t i (h, a) with None => None | Some t' => hloop ap utheta ordered r t' heap end
      | PFound i =>
        match nth_error (t_entries t) i with
        | None => None
        | Some e =>
          match nth_error heap (snd e), nth_error heap a with
          | Some x, Some y => hloop ap utheta ordered r t (upd (snd e) (ap x y) heap)
          | _, _ => None
          end
        end
      | _ => None
      end
    else if ordered then Some (t, heap) else hloop ap utheta ordered r t heap
  end.

(** Updating a union with [s1] and then [s2], sum policy: the summary that s1 holds for hash 7 was 10 and is 11 after. *)
Theorem tuple_union_mutates_input_refuted :
  exists (s1 s2 : list (ent nat)) (heap heap' : list N) t1 t2 h1,
    hloop N.add MaxTheta true s1 (tup_nonempty (tup_new 0 5 0 MaxTheta)) heap = Some (t1, h1) /\
    hloop N.add MaxTheta true s2 t1 h1 = Some (t2, heap') /\
    map (fun e => (fst e, nth_error heap (snd e))) s1 = [(7%N, Some 10%N)] /\
    map (fun e => (fst e, nth_error heap' (snd e))) s1 = [(7%N, Some 11%N)].
Proof.
  exists [(7%N, 0)], [(7%N, 1)], [10%N; 1%N]. do 4 eexists. split; [vm_compute; reflexivity|].
  split; [vm_compute; reflexivity|]. split; reflexivity.
Qed.

(** ** Concrete instances *)
Definition ex_tops (n : nat) : list (tupop N) :=
  map (fun i => TUpdate (ex_hash (N.of_nat (i mod 70))) (N.of_nat i)) (seq 1 n).
(** sums of the values per key; 140 updates of 70 keys with k = 32: theta has dropped. *)
Example ex_tuple : match tup_run 0%N N.add 0%N (tup_new 0%N 5 0 MaxTheta) (ex_tops 140) with
  | Some t => (t_theta t <? MaxTheta)%N && (32 <=? t_num t) &&
      forallb (fun e => (snd e =? fold_left N.add (values_for (fst e) (pairs_of (ex_tops 140))) 0)%N && (140 <? snd e)%N
                        || (snd e <? 141)%N) (ts_entries (tview 1 t))
  | None => false end = true.
Proof. vm_compute. reflexivity. Qed.

Definition ex_ts (l : list (N * N)) : tsketch N := mkTSketch l MaxTheta 1 false true.
Lemma ex_ts_input l : NoDup (map fst l) -> Forall (fun p => (0 < fst p /\ fst p < MaxTheta)%N) l -> StronglySorted N.le (map fst l) ->
  tinput 1 (ex_ts l).
Proof.
  intros Hn Hf Hs. split; [|right; reflexivity]. constructor; simpl; auto; try lia; try discriminate.
  intros h Hh. apply in_map_iff in Hh. destruct Hh as (p & <- & Hp). rewrite Forall_forall in Hf. auto.
Qed.
Definition ex_a := ex_ts [(3, 10); (5, 20); (9, 30)]%N.
Definition ex_b := ex_ts [(5, 1); (9, 2); (11, 3)]%N.
Lemma ex_inputs : tinput 1 ex_a /\ tinput 1 ex_b.
Proof. split; (apply ex_ts_input; [repeat constructor; simpl; intuition discriminate
  |repeat constructor; simpl; unfold MaxTheta; lia|repeat constructor; simpl; lia]). Qed.
Example ex_tuple_ops :
  (exists u r, tunrun 0%N N.add (new_tunion 0%N 5 0 MaxTheta 1) [TUnUpdate ex_a; TUnUpdate ex_b] = Some u /\
     tunion_result u true = Some r /\ ts_entries r = [(3, 10); (5, 21); (9, 32); (11, 3)]%N) /\
  (exists x r, tinterrun 0%N N.add (new_tinter 0%N 1) [ex_a; ex_b] = Some x /\ tinter_result x true = Some r /\
     ts_entries r = [(5, 21); (9, 32)]%N) /\
  (exists r, tuple_a_not_b ex_a ex_b 1 true = Some r /\ ts_entries r = [(3, 10)]%N) /\
  ts_entries (tfilter ex_a (fun s => (15 <? s)%N)) = [(5, 20); (9, 30)]%N.
Proof.
  split; [|split; [|split]].
  - eexists. eexists. split; [vm_compute; reflexivity|]. split; vm_compute; reflexivity.
  - eexists. eexists. split; [vm_compute; reflexivity|]. split; vm_compute; reflexivity.
  - eexists. split; vm_compute; reflexivity.
  - reflexivity.
Qed.

Print Assumptions tuple_content.
Print Assumptions tuple_union_correct.
Print Assumptions tuple_intersection_correct.
Print Assumptions tuple_a_not_b_correct.
Print Assumptions tuple_filter.
