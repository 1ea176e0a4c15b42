(** * VarOpt sampling: C39 (samples, weights, size, estimates) and C59 (union).

    Weights are exact rational numbers; [d], [ds] are the random outcomes and range over all values. *)
From Verif Require Import Base Bytes Arr BitPackModel ReservoirModel ReservoirProps VarOptModel VarOptHeap VarOptProofs VarOptSem VarOptUnion.
From Coq Require Import QArith Qabs Lqa.
Local Close Scope Q_scope.
Local Open Scope nat_scope.

(** ** Specification vocabulary *)
(** The total weight of a list of weighted items; [sampled l xs] (ReservoirProps): elements of [xs] at distinct positions. *)
Definition total {T} (ys : list (T * Q)) : Q := qsum (map snd ys).
Definition heavier {T} (t : Q) (ys : list (T * Q)) : list (T * Q) := filter (fun p => qlt t (snd p)) ys.
Definition subset {T} (P : T -> bool) (ys : list (T * Q)) : list (T * Q) := filter (fun p => P (fst p)) ys.
(** Every item of a reservoir's stream counts with weight 1. *)
Definition unit_weights {T} (xs : list T) : list (T * Q) := map (fun x => (x, 1%Q)) xs.

Section Props.
Context {T : Type}.
Variable zero : T.
Variable growcap : list T -> N -> N -> N.
Hypothesis growcap_ok : forall d c r, (r <= growcap d c r)%N.
Implicit Types (s : @vo T) (u : @vunion T) (ys zs smp : list (T * Q)).

(** The sketches built by New, Update and Reset, with the stream seen since the last Reset. *)
Inductive plain : vo -> list (T * Q) -> Prop :=
| pl_new k rf s : vo_new k rf = Ok s -> plain s []
| pl_update s ys x w d s' : plain s ys -> vo_update s x (Some w) d = Ok s' -> plain s' (ys ++ [(x, w)])
| pl_reset s ys : plain s ys -> plain (vo_reset s) [].

(** The sketches and unions a program can hold: the results of unions are sketches too and can be updated and merged again. *)
Inductive sketch : vo -> list (T * Q) -> Prop :=
| sk_new k rf s : vo_new k rf = Ok s -> sketch s []
| sk_update s ys x w d s' : sketch s ys -> vo_update s x (Some w) d = Ok s' -> sketch s' (ys ++ [(x, w)])
| sk_reset s ys : sketch s ys -> sketch (vo_reset s) []
| sk_result maxK u ys ds s : union maxK u ys -> vu_result zero u ds = Ok s -> sketch s ys
with union : N -> vunion -> list (T * Q) -> Prop :=
| un_new maxK u : vu_new maxK = Ok u -> union maxK u []
| un_update maxK u ys s zs ds u' : union maxK u ys -> sketch s zs -> vu_update u s ds = Ok u' -> union maxK u' (ys ++ zs)
| un_reservoir maxK u ys rs xs ds u' : union maxK u ys -> made growcap rs xs ->
    vu_update_reservoir u (n rs) (k rs) (samples rs) ds = Ok u' -> union maxK u' (ys ++ unit_weights xs)
| un_reset maxK u ys : union maxK u ys -> union maxK (vu_reset u) [].
Scheme sketch_mut := Induction for sketch Sort Prop with union_mut := Induction for union Sort Prop.

(** ** The invariants hold *)

Definition SInv s ys : Prop := Weak s (map slot_of ys) /\ v_gadget s = false /\ v_n s = N.of_nat (length ys).

Lemma warm_new gd k0 rf0 : 1 <= k0 -> Warm (mkVo [] gd k0 0 0 0 0 0 rf0 0) (@nil (@slot T)).
Proof. clear zero growcap growcap_ok. intros. constructor; vcbn; auto; try lia; intros; contradiction. Qed.
Lemma make_inv gd k0 rf0 s : vo_make gd k0 rf0 = Ok s -> Warm s [] /\ v_gadget s = gd /\ v_n s = 0%N /\ v_k s = N.to_nat k0 /\ (1 <= k0 <= var_opt_max_k)%N /\ v_h s = 0.
Proof. clear zero growcap growcap_ok.
  unfold vo_make. destruct (N.eqb_spec k0 0); cbn [orb]; [discriminate|]. destruct (N.ltb_spec var_opt_max_k k0); [discriminate|]. intros E. injection E as <-. vcbn.
  split; [apply warm_new; lia|]. do 3 (split; auto). split; [lia|auto].
Qed.
Lemma reset_inv s xs : Weak s xs -> Warm (vo_reset s) [].
Proof. clear zero growcap growcap_ok. intros Wk. apply warm_new. destruct Wk as [[]|(H & g & R & J & L & D & [])]; auto. lia. Qed.

Lemma weak_update s xs x w d s' : Weak s xs -> v_gadget s = false -> vo_update s x (Some w) d = Ok s' ->
  Good s' (mkSlot x w false :: xs) /\ v_gadget s' = false /\ v_n s' = (v_n s + 1)%N /\ v_k s' = v_k s.
Proof. clear zero growcap growcap_ok.
  intros Wk G E. unfold vo_update in E.
  assert (Hw : (0 < w)%Q). { cbn [update_mark] in E. destruct (Qle_bool w 0) eqn:Q; [discriminate|]. apply qle_false in Q. auto. }
  assert (Gd : Good s xs).
  { destruct Wk as [Wm|(H & g & R & J & L & D & Es)]; [left; auto|]. right. exists H, g, R, J, L, D. split; auto.
    destruct (strong_or_error _ _ _ _ _ _ _ _ x (Some w) false d Es); auto. congruence. }
  destruct (update_good s xs x w false d Gd Hw) as (s1 & E1 & G1 & (F1 & F2 & F3) & F4 & _); auto.
  rewrite E1 in E. injection E as <-. repeat split; auto; congruence.
Qed.

Lemma virt_nil : @Virt T [] [] 0 0 [] [].
Proof. clear zero growcap growcap_ok. constructor; simpl; auto; try tauto; try reflexivity. intros _. split; [reflexivity|tauto]. Qed.

Lemma both_inv : (forall s ys, sketch s ys -> SInv s ys) /\ (forall maxK u ys, union maxK u ys -> (exists vs Y D, UInv u ys vs Y D) /\ u_k u = N.to_nat maxK).
Proof.
  assert (Rst : forall maxK u ys, (exists vs Y D, UInv u ys vs Y D) /\ u_k u = N.to_nat maxK -> (exists vs Y D, UInv (vu_reset u) [] vs Y D) /\ u_k (vu_reset u) = N.to_nat maxK).
  { intros maxK u ys [(vs & Y & D & [Ug Ut Uga Uk Uk1 Un Uv Ugn Urf Umx]) Ek]. split; [|auto]. exists [], [], []. constructor; cbn [vu_reset u_g u_k u_n u_num u_den vo_reset]; vcbn; auto.
    - left. eapply reset_inv. apply good_weak. eauto.
    - left. auto.
    - apply virt_nil. }
  assert (New : forall maxK u, vu_new maxK = Ok u -> (exists vs Y D, @UInv T u [] vs Y D) /\ u_k u = N.to_nat maxK).
  { intros maxK u E. unfold vu_new in E. destruct (vo_make true maxK 3) as [g| |] eqn:Em; try discriminate. cbn [bindr] in E. injection E as <-.
    destruct (make_inv _ _ _ _ Em) as (A & B & C & F & G & Hh). split; [|auto]. exists [], [], []. constructor; cbn [u_g u_k u_n u_num u_den]; auto; try lia.
    - left. auto.
    - left. apply (wm_r _ _ A).
    - apply virt_nil.
    - unfold vo_make in Em. destruct (_ || _); [discriminate|]. injection Em as <-. auto. }
  split.
  - apply (sketch_mut (fun s ys _ => SInv s ys) (fun maxK u ys _ => (exists vs Y D, UInv u ys vs Y D) /\ u_k u = N.to_nat maxK)); auto.
    + intros k0 rf0 s E. destruct (make_inv _ _ _ _ E) as (A & B & C & _). split; [left; auto|auto].
    + intros s ys x w d s' _ (Wk & G & En) E. destruct (weak_update _ _ _ _ _ _ Wk G E) as (A & B & C & _). split; [|split; auto].
      * apply good_weak. eapply good_perm; [|exact A]. rewrite map_app. simpl. apply Permutation_cons_append.
      * rewrite C, En, app_length. simpl. lia.
    + intros s ys _ (Wk & G & En). split; [left; eapply reset_inv; eauto|auto].
    + intros maxK u ys ds s _ [(vs & Y & D & I) Ek] E. destruct (vu_result_ok zero u ys vs Y D ds I) as (s' & E' & A & B & C & F).
      rewrite E' in E. injection E as <-. split; auto.
    + intros maxK u ys s zs ds u' _ [(vs & Y & D & I) Ek] _ (Wk & G & En) E.
      destruct (vu_update_ok u ys vs Y D s zs ds I Wk G En) as (u1 & vs' & Y' & D' & E' & I' & Ek'). rewrite E' in E. injection E as <-. split; [eauto|congruence].
    + intros maxK u ys rs xs ds u' _ [(vs & Y & D & I) Ek] Hm E.
      destruct (reservoir_size growcap growcap_ok rs xs Hm) as [R1 R2]. destruct (reservoir_members growcap growcap_ok rs xs Hm) as (X & PX).
      pose proof (made_WF growcap growcap_ok rs xs Hm) as (K2 & _).
      destruct (vu_update_reservoir_ok u ys vs Y D (n rs) (k rs) (samples rs) xs X ds I) as (u1 & vs' & Y' & D' & E' & I' & Ek'); auto; try lia.
      rewrite E' in E. injection E as <-. split; [eauto|congruence].
    + intros. eapply Rst; eauto.
  - apply (union_mut (fun s ys _ => SInv s ys) (fun maxK u ys _ => (exists vs Y D, UInv u ys vs Y D) /\ u_k u = N.to_nat maxK)); auto.
    + intros k0 rf0 s E. destruct (make_inv _ _ _ _ E) as (A & B & C & _). split; [left; auto|auto].
    + intros s ys x w d s' _ (Wk & G & En) E. destruct (weak_update _ _ _ _ _ _ Wk G E) as (A & B & C & _). split; [|split; auto].
      * apply good_weak. eapply good_perm; [|exact A]. rewrite map_app. simpl. apply Permutation_cons_append.
      * rewrite C, En, app_length. simpl. lia.
    + intros s ys _ (Wk & G & En). split; [left; eapply reset_inv; eauto|auto].
    + intros maxK u ys ds s _ [(vs & Y & D & I) Ek] E. destruct (vu_result_ok zero u ys vs Y D ds I) as (s' & E' & A & B & C & F).
      rewrite E' in E. injection E as <-. split; auto.
    + intros maxK u ys s zs ds u' _ [(vs & Y & D & I) Ek] _ (Wk & G & En) E.
      destruct (vu_update_ok u ys vs Y D s zs ds I Wk G En) as (u1 & vs' & Y' & D' & E' & I' & Ek'). rewrite E' in E. injection E as <-. split; [eauto|congruence].
    + intros maxK u ys rs xs ds u' _ [(vs & Y & D & I) Ek] Hm E.
      destruct (reservoir_size growcap growcap_ok rs xs Hm) as [R1 R2]. destruct (reservoir_members growcap growcap_ok rs xs Hm) as (X & PX).
      pose proof (made_WF growcap growcap_ok rs xs Hm) as (K2 & _).
      destruct (vu_update_reservoir_ok u ys vs Y D (n rs) (k rs) (samples rs) xs X ds I) as (u1 & vs' & Y' & D' & E' & I' & Ek'); auto; try lia.
      rewrite E' in E. injection E as <-. split; [eauto|congruence].
    + intros. eapply Rst; eauto.
Qed.
Lemma sketch_inv s ys : sketch s ys -> SInv s ys. Proof. apply both_inv. Qed.
Lemma union_inv maxK u ys : union maxK u ys -> (exists vs Y D, UInv u ys vs Y D) /\ u_k u = N.to_nat maxK. Proof. apply both_inv. Qed.

Lemma plain_good s ys : plain s ys -> Good s (map slot_of ys) /\ v_gadget s = false /\ v_n s = N.of_nat (length ys).
Proof. clear zero growcap growcap_ok.
  induction 1 as [k0 rf0 s E|s ys x w d s' Hp (Gd & G & En) E|s ys Hp (Gd & G & En)].
  - destruct (make_inv _ _ _ _ E) as (A & B & C & _). split; [left; auto|auto].
  - destruct (weak_update _ _ _ _ _ _ (good_weak _ _ Gd) G E) as (A & B & C & _). split; [|split; auto].
    + eapply good_perm; [|exact A]. rewrite map_app. simpl. apply Permutation_cons_append.
    + rewrite C, En, app_length. simpl. lia.
  - split; [left; eapply reset_inv; apply good_weak; eauto|auto].
Qed.
Lemma plain_sketch s ys : plain s ys -> sketch s ys.
Proof. induction 1; [eapply sk_new|eapply sk_update|eapply sk_reset]; eauto. Qed.

(** ** C39: the sketch *)

Theorem varopt_update_never_fails s ys x w d : plain s ys -> (0 < w)%Q -> exists s', vo_update s x (Some w) d = Ok s' /\ plain s' (ys ++ [(x, w)]).
Proof. clear zero growcap growcap_ok.
  intros Hp Hw. destruct (plain_good s ys Hp) as (Gd & G & _). destruct (update_good s _ x w false d Gd Hw) as (s' & E & _); auto.
  exists s'. split; auto. eapply pl_update; eauto.
Qed.

(** Weights that are not positive, NaN or infinite are refused. *)
Theorem varopt_refuses s x w d : match w with Some w => (w <= 0)%Q | None => True end -> vo_update s x w d = Err.
Proof. unfold vo_update, update_mark. destruct w as [w|]; auto. intros A. apply Qle_bool_iff in A. rewrite A. auto. Qed.

Lemma weak_samples s ys : SInv s ys -> exists heavy light rest dropped, all_samples s = Some (heavy ++ light) /\ length (heavy ++ light) = Nat.min (length ys) (v_k s) /\
    num_samples s = Nat.min (length ys) (v_k s) /\ length light = v_r s /\
    Permutation ys (heavy ++ rest) /\ Permutation (map fst rest) (map fst light ++ dropped) /\ (total light == total rest)%Q /\
    (forall p, In p light -> snd p = tau s) /\ (forall p, In p rest -> snd p <= tau s)%Q /\ (v_r s = 0 -> length ys <= v_k s /\ rest = []) /\ (0 < v_r s -> v_k s < length ys).
Proof. clear zero growcap growcap_ok.
  intros ([Wm|(H & g & R & J & L & D & E)] & G & En).
  - destruct (warm_reads _ _ Wm) as (A & B & C & F). destruct Wm as [A1 A2 A3 A4 A5 A6 A7 A8 A9 A10].
    assert (P : Permutation ys (map pair_of (v_s s))) by (rewrite <- A3, map_pair_slot; auto).
    pose proof (Permutation_length P) as LP. rewrite map_length in LP.
    exists (map pair_of (v_s s)), [], [], []. rewrite !app_nil_r. split; auto. rewrite map_length. split; [lia|]. split; [lia|]. split; [auto|]. split; auto. split; auto.
    split; [reflexivity|]. split; [intros p []|]. split; [intros p []|]. split; [intros _; split; [lia|auto]|lia].
  - destruct (est_reads _ _ _ _ _ _ _ _ E) as (A & B & C & F). destruct E as [Es EH ER Em Ek Er1 Ehp Ep Et El Ei Ed Ec Epos Emk].
    set (light := map (fun x => (x, tau s)) (map it R)) in *.
    assert (Pz : Permutation ys (map pair_of H ++ map pair_of L)). { rewrite <- map_app, <- Ep, map_pair_slot. auto. }
    pose proof (Permutation_length Pz) as LP. rewrite app_length, !map_length in LP.
    pose proof (Permutation_length Ei) as LI. rewrite app_length, !map_length in LI.
    assert (1 <= length D) by (destruct D; [congruence|simpl; lia]).
    assert (Rp : (0 < qn (v_r s))%Q) by (apply qn_pos; lia).
    assert (Ll : length light = v_r s) by (unfold light; rewrite !map_length; auto).
    exists (map pair_of H), light, (map pair_of L), D. split; auto. rewrite app_length, map_length, Ll. split; [lia|]. split; [lia|]. split; auto. split; auto. split.
    { rewrite fst_pair_of. unfold light. rewrite map_map. cbn [fst]. rewrite map_id. auto. }
    split.
    { unfold total. rewrite snd_pair_of. fold (sw L). rewrite Et. unfold light. rewrite map_map. cbn [snd]. rewrite (qsum_const _ (tau s)).
      - rewrite !map_length, <- ER. unfold tau. field. lra.
      - intros x Hx. apply in_map_iff in Hx as (q & <- & _). reflexivity. }
    split. { intros p Hp. apply in_map_iff in Hp as (q & <- & _). auto. }
    split. { intros p Hp. apply in_map_iff in Hp as (q & <- & Hq). apply qdiv_le; auto. apply (El q Hq). }
    split; [intros; exfalso; lia|lia].
Qed.

(** The samples that All yields: all of the stream while it has at most k items, and otherwise k items. *)
Theorem varopt_size s ys : sketch s ys -> v_n s = N.of_nat (length ys) /\ num_samples s = Nat.min (length ys) (v_k s) /\
  exists smp, all_samples s = Some smp /\ length smp = Nat.min (length ys) (v_k s).
Proof.
  intros Hs. apply sketch_inv in Hs. destruct (weak_samples s ys Hs) as (heavy & light & rest & dropped & A1 & A2 & A3 & _). destruct Hs as (_ & _ & En).
  split; auto. split; auto. eauto.
Qed.

(** k never changes under updates: it is the argument of New. *)
Theorem varopt_k k0 rf0 s : vo_new (T := T) k0 rf0 = Ok s -> v_k s = N.to_nat k0.
Proof. clear zero growcap growcap_ok. intros E. apply (make_inv _ _ _ _ E). Qed.
Theorem varopt_k_constant s ys x w d s' : sketch s ys -> vo_update s x w d = Ok s' -> v_k s' = v_k s.
Proof.
  intros Hs E. apply sketch_inv in Hs as (Wk & G & _). destruct w as [w|]; [|discriminate]. apply (weak_update _ _ _ _ _ _ Wk G E).
Qed.

Theorem varopt_whole_stream s ys smp : sketch s ys -> length ys <= v_k s -> all_samples s = Some smp -> Permutation smp ys.
Proof.
  intros Hs Hk E. apply sketch_inv in Hs. destruct (weak_samples s ys Hs) as (heavy & light & rest & dropped & A1 & A2 & A3 & A4 & A5 & A6 & A7 & A8 & A9 & A10 & A11).
  rewrite A1 in E. injection E as <-. destruct (Nat.eq_dec (v_r s) 0) as [Z|Z]; [|lia]. destruct (A10 Z) as [_ ->]. rewrite app_nil_r in A5.
  destruct light; [|simpl in A4; lia]. rewrite app_nil_r. symmetry. auto.
Qed.

(** The weights of the samples add up to the weight of the stream. *)
Theorem varopt_total s ys smp : sketch s ys -> all_samples s = Some smp -> (total smp == total ys)%Q.
Proof.
  intros Hs E. apply sketch_inv in Hs. destruct (weak_samples s ys Hs) as (heavy & light & rest & dropped & A1 & A2 & A3 & A4 & A5 & A6 & A7 & A8 & A9 & A10 & A11).
  rewrite A1 in E. injection E as <-. unfold total in *. rewrite (qsum_perm _ _ (Permutation_map snd A5)), !map_app, !qsum_app, A7. reflexivity.
Qed.

(** The sampled items are items of the stream, at distinct positions. *)
Theorem varopt_members s ys smp : sketch s ys -> all_samples s = Some smp -> sampled (map fst smp) (map fst ys).
Proof.
  intros Hs E. apply sketch_inv in Hs. destruct (weak_samples s ys Hs) as (heavy & light & rest & dropped & A1 & A2 & A3 & A4 & A5 & A6 & A7 & A8 & A9 & A10 & A11).
  rewrite A1 in E. injection E as <-. exists dropped. rewrite (Permutation_map fst A5), !map_app, A6, app_assoc. auto.
Qed.

(** There is one threshold t: the samples are entries of the stream with their own weights, and items with the weight t; every entry
    heavier than t is sampled with its own weight. *)
Theorem varopt_heavy s ys smp : sketch s ys -> all_samples s = Some smp ->
  exists t heavy light, smp = heavy ++ light /\ sampled heavy ys /\ (forall p, In p light -> snd p = t) /\ sampled (heavier t ys) heavy.
Proof.
  intros Hs E. apply sketch_inv in Hs. destruct (weak_samples s ys Hs) as (heavy & light & rest & dropped & A1 & A2 & A3 & A4 & A5 & A6 & A7 & A8 & A9 & A10 & A11).
  rewrite A1 in E. injection E as <-. exists (tau s), heavy, light. split; auto. split; [exists rest; auto|]. split; auto.
  exists (filter (fun p => negb (qlt (tau s) (snd p))) heavy).
  assert (Permutation (heavier (tau s) ys) (heavier (tau s) heavy)) as ->.
  { unfold heavier. rewrite (filter_perm _ _ _ A5), filter_app. assert (filter (fun p => qlt (tau s) (snd p)) rest = []) as ->; [|rewrite app_nil_r; auto].
    clear - A9. induction rest as [|p rest IH]; simpl; auto. rewrite IH by (intros; apply A9; simpl; auto).
    destruct (qlt (tau s) (snd p)) eqn:Q; auto. apply qlt_iff in Q. specialize (A9 p (or_introl eq_refl)). lra. }
  clear. unfold heavier. induction heavy as [|p heavy IH]; simpl; auto. destruct (qlt (tau s) (snd p)); simpl; [constructor; auto|]. rewrite IH at 1. apply Permutation_middle.
Qed.

(** In a sketch that is not the result of a union no sample is lighter than t. *)
Theorem varopt_threshold s ys smp : plain s ys -> all_samples s = Some smp -> v_k s < length ys ->
  exists t heavy light, smp = heavy ++ light /\ sampled heavy ys /\ light <> [] /\ (forall p, In p light -> snd p = t) /\ (forall p, In p heavy -> t <= snd p)%Q /\ sampled (heavier t ys) heavy.
Proof. clear zero growcap growcap_ok.
  intros Hp E Hk. destruct (plain_good s ys Hp) as (Gd & G & En).
  destruct Gd as [Wm|(H & g & R & J & L & D & Es & St)].
  { destruct Wm as [A1 A2 A3 A4 A5 A6 A7 A8 A9 A10]. pose proof (Permutation_length A3) as LP. rewrite map_length in LP. lia. }
  destruct (est_reads _ _ _ _ _ _ _ _ Es) as (_ & _ & _ & F). rewrite F in E. injection E as E.
  assert (SI : SInv s ys) by (split; [right; do 6 eexists; eauto|auto]).
  destruct (weak_samples s ys SI) as (heavy & light & rest & dropped & A1 & A2 & A3 & A4 & A5 & A6 & A7 & A8 & A9 & A10 & A11).
  rewrite F in A1. injection A1 as A1.
  assert (Rp : (0 < qn (v_r s))%Q) by (apply qn_pos; destruct Es; lia).
  assert (Lr : v_r s = length R) by (destruct Es; auto).
  assert (map pair_of H = heavy /\ map (fun x => (x, tau s)) (map it R) = light) as [<- <-].
  { assert (LL : length (map (fun x => (x, tau s)) (map it R)) = length light) by (rewrite !map_length; congruence).
    apply (f_equal (@rev _)) in A1. rewrite !rev_app_distr in A1. rewrite <- (rev_length light), <- rev_length in LL.
    assert (X : forall (a b c d : list (T * Q)), a ++ b = c ++ d -> length a = length c -> a = c /\ b = d).
    { clear. induction a as [|q a IH]; intros b [|q' c] d A B; simpl in *; try lia; auto. injection A as <- A. destruct (IH _ _ _ A) as [-> ->]; auto. }
    destruct (X _ _ _ _ A1 LL) as [X1 X2]. split; [rewrite <- (rev_involutive heavy), <- X2, rev_involutive|rewrite <- (rev_involutive light), <- X1, rev_involutive]; auto. }
  exists (tau s), (map pair_of H), (map (fun x => (x, tau s)) (map it R)). split; auto. split; [exists rest; auto|]. split.
  { intros X. apply map_eq_nil in X. apply map_eq_nil in X. subst R. destruct Es. simpl in *. lia. }
  split; auto. split.
  { intros p Hpp. apply in_map_iff in Hpp as (q & <- & Hq). cbn [pair_of snd]. specialize (St q Hq). unfold tau. apply Qle_shift_div_r; auto. }
  exists (filter (fun p => negb (qlt (tau s) (snd p))) (map pair_of H)).
  assert (Permutation (heavier (tau s) ys) (heavier (tau s) (map pair_of H))) as ->.
  { unfold heavier. rewrite (filter_perm _ _ _ A5), filter_app. assert (filter (fun p => qlt (tau s) (snd p)) rest = []) as ->; [|rewrite app_nil_r; auto].
    clear - A9. induction rest as [|p rest IH]; simpl; auto. rewrite IH by (intros; apply A9; simpl; auto).
    destruct (qlt (tau s) (snd p)) eqn:Q; auto. apply qlt_iff in Q. specialize (A9 p (or_introl eq_refl)). lra. }
  clear. unfold heavier. induction (map pair_of H) as [|p heavy IH]; simpl; auto. destruct (qlt (tau s) (snd p)); simpl; [constructor; auto|]. rewrite IH at 1. apply Permutation_middle.
Qed.

(** A sketch takes an update if no sample is lighter than those of the reservoir part. (Every plain sketch is such, see above; a result
    of a union need not be.) *)
Theorem varopt_update_result s ys x w d smp : sketch s ys -> (0 < w)%Q -> all_samples s = Some smp -> (v_k s < length ys -> forall p, In p smp -> (tau s <= snd p)%Q) ->
  exists s', vo_update s x (Some w) d = Ok s'.
Proof.
  intros Hs Hw E Hl. pose proof (sketch_inv _ _ Hs) as I. destruct (weak_samples s ys I) as (hv & lt & rest & dr & _ & _ & _ & _ & _ & _ & _ & _ & _ & _ & A11).
  destruct I as ([Wm|(H & g & R & J & L & D & Es)] & G & En).
  - destruct (update_good s _ x w false d (or_introl Wm) Hw) as (s' & E' & _); eauto.
  - destruct (update_good s (map slot_of ys) x w false d) as (s' & E' & _); eauto. right. exists H, g, R, J, L, D. split; auto.
    destruct (est_reads _ _ _ _ _ _ _ _ Es) as (_ & _ & _ & F). rewrite F in E. injection E as <-.
    assert (R1 : 0 < v_r s) by (destruct Es; lia). assert (Rp : (0 < qn (v_r s))%Q) by (apply qn_pos; auto).
    intros y Hy. specialize (Hl (A11 R1) (pair_of y)). assert (X : (tau s <= wt y)%Q). { apply Hl. apply in_app_iff. left. apply in_map. auto. }
    apply (Qmult_le_compat_r _ _ (qn (v_r s))) in X; [|lra]. unfold tau in X.
    assert (v_tot s / qn (v_r s) * qn (v_r s) == v_tot s)%Q as X2 by (field; lra). lra.
Qed.

(** EstimateSubsetSum is the sum of the weights of the samples for which the predicate holds; once the stream has more than k items the
    total weight it reports is the stream's. *)
Theorem varopt_estimate s ys P smp : sketch s ys -> all_samples s = Some smp -> exists e tot, estimate_subset_sum s P = Ok (e, tot) /\
  (e == total (subset P smp))%Q /\ (v_k s < length ys -> (tot == total ys)%Q).
Proof.
  intros Hs E. pose proof (varopt_total s ys smp Hs E) as Ht. apply sketch_inv in Hs. destruct (weak_samples s ys Hs) as (hv & lt & rest & dr & _ & _ & _ & _ & _ & _ & _ & _ & _ & A10 & A11).
  destruct Hs as (Wk & G & En). unfold estimate_subset_sum. rewrite En.
  assert (Fp : forall l, map wt (filter (fun x => P (it x)) l) = map snd (subset P (map pair_of l))).
  { intros l. unfold subset. induction l as [|y l IH]; simpl; auto. destruct (P (it y)); simpl; rewrite IH; auto. }
  destruct (N.eqb_spec (N.of_nat (length ys)) 0) as [Z|Z].
  { exists 0%Q, 0%Q. split; auto. assert (ys = []) as -> by (destruct ys; auto; simpl in Z; lia).
    destruct Wk as [Wm|(H & g & R & J & L & D & Es)].
    - destruct (warm_reads _ _ Wm) as (_ & _ & _ & F). rewrite F in E. injection E as <-. destruct Wm as [A1 A2 A3 A4 A5 A6 A7 A8 A9 _]. simpl in A3. apply Permutation_nil in A3. rewrite A3.
      split; [reflexivity|]. simpl. lia.
    - pose proof (es_perm _ _ _ _ _ _ _ _ Es) as X. simpl in X. apply Permutation_nil, app_eq_nil in X as [-> ->].
      pose proof (es_items _ _ _ _ _ _ _ _ Es) as X. simpl in X. apply Permutation_nil, app_eq_nil in X as [_ X]. destruct (es_drop _ _ _ _ _ _ _ _ Es X). }
  destruct Wk as [Wm|(H & g & R & J & L & D & Es)].
  - destruct (warm_reads _ _ Wm) as (A & B & C & F). rewrite F in E. injection E as <-. unfold h_samples in A. rewrite A. cbn [of_opt bindr].
    rewrite (wm_r _ _ Wm). cbn [Nat.eqb]. do 2 eexists. split; [reflexivity|]. split; [rewrite Fp; reflexivity|]. destruct (A10 (wm_r _ _ Wm)). lia.
  - destruct (est_reads _ _ _ _ _ _ _ _ Es) as (A & B & C & F). rewrite F in E. injection E as <-. unfold h_samples in A. rewrite A. cbn [of_opt bindr].
    unfold r_samples in B. rewrite C in B. rewrite B. destruct Es as [Es EH ER Em Ek Er1 Ehp Ep Et El Ei Ed Ec Epos Emk].
    destruct (Nat.eqb_spec (v_r s) 0); [lia|]. specialize (A11 ltac:(lia)). destruct (N.ltb_spec (N.of_nat (length ys)) (N.of_nat (v_h s + v_r s))); [lia|]. cbn [of_opt bindr].
    assert (Rp : (0 < qn (v_r s))%Q) by (apply qn_pos; lia).
    do 2 eexists. split; [reflexivity|]. unfold total in *. split.
    + unfold subset. rewrite filter_app, map_app, qsum_app. rewrite Fp. unfold subset.
      assert (X : (qsum (map snd (filter (fun p => P (fst p)) (map (fun x => (x, tau s)) (map it R)))) == qn (length (filter P (map it R))) * tau s)%Q).
      { generalize (map it R). intros l. induction l as [|y l IH]; simpl; [change (qn 0) with 0%Q; lra|]. destruct (P y); simpl; [|auto]. rewrite IH, qn_S. lra. }
      rewrite X. unfold tau. field. lra.
    + intros _. rewrite <- Ht. rewrite map_app, qsum_app, snd_pair_of. rewrite map_map. cbn [snd]. rewrite (qsum_const (map _ (map it R)) (tau s)).
      * rewrite !map_length, <- ER. unfold tau. field. lra.
      * intros x Hx. apply in_map_iff in Hx as (q & <- & _). reflexivity.
Qed.

(** ** C59: the union *)

Theorem varopt_union_never_fails maxK u ys : union maxK u ys ->
  (forall s zs ds, sketch s zs -> exists u', vu_update u s ds = Ok u' /\ union maxK u' (ys ++ zs)) /\
  (forall rs xs ds, made growcap rs xs -> exists u', vu_update_reservoir u (n rs) (k rs) (samples rs) ds = Ok u' /\ union maxK u' (ys ++ unit_weights xs)) /\
  (forall ds, exists s, vu_result zero u ds = Ok s /\ sketch s ys).
Proof.
  intros Hu. destruct (union_inv _ _ _ Hu) as [(vs & Y & D & I) Ek]. split; [|split].
  - intros s zs ds Hs. destruct (sketch_inv _ _ Hs) as (Wk & G & En). destruct (vu_update_ok u ys vs Y D s zs ds I Wk G En) as (u1 & vs' & Y' & D' & E' & _).
    exists u1. split; auto. eapply un_update; eauto.
  - intros rs xs ds Hm. destruct (reservoir_size growcap growcap_ok rs xs Hm) as [R1 R2]. destruct (reservoir_members growcap growcap_ok rs xs Hm) as (X & PX).
    pose proof (made_WF growcap growcap_ok rs xs Hm) as (K2 & _).
    destruct (vu_update_reservoir_ok u ys vs Y D (n rs) (k rs) (samples rs) xs X ds I) as (u1 & vs' & Y' & D' & E' & _); auto; try lia.
    exists u1. split; auto. eapply un_reservoir; eauto.
  - intros ds. destruct (vu_result_ok zero u ys vs Y D ds I) as (s & E & _). exists s. split; auto. eapply sk_result; eauto.
Qed.

(** The result is a sketch of the concatenated streams, so C39 above holds of it, with at most maxK samples. *)
Theorem varopt_union_size maxK u ys ds s : union maxK u ys -> vu_result zero u ds = Ok s -> v_n s = N.of_nat (length ys) /\ v_k s <= N.to_nat maxK /\
  exists smp, all_samples s = Some smp /\ length smp <= N.to_nat maxK /\ (total smp == total ys)%Q /\ sampled (map fst smp) (map fst ys).
Proof.
  intros Hu E. destruct (union_inv _ _ _ Hu) as [(vs & Y & D & I) Ek]. destruct (vu_result_ok zero u ys vs Y D ds I) as (s' & E' & A & B & C & F).
  rewrite E' in E. injection E as <-. split; auto. split; [lia|]. assert (Hs : sketch s' ys) by (eapply sk_result; eauto).
  destruct (varopt_size _ _ Hs) as (_ & _ & smp & S1 & S2). exists smp. split; auto. split; [lia|]. split; [eapply varopt_total; eauto|eapply varopt_members; eauto].
Qed.
End Props.
