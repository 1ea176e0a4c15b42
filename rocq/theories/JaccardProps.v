(** * C70: Jaccard similarity and equality of theta and tuple sketches. *)
From Coq Require Import Sorting.Sorted Permutation QArith FinFun.
From Verif Require Import Base QuickSelectModel QuickSelectProofs ProbeModel ProbeProofs HashtableModel HashtableProofs
  ThetaModel ThetaProofs ThetaProps TupleModel TupleProofs TupleProps TupleHeapModel TupleHeapProofs TupleHeapProps JaccardModel.
Local Open Scope nat_scope.

(** ** Specification vocabulary *)

(** [l] lists the hashes that satisfy [P], each once. *)
Definition lists (P : N -> Prop) (l : list N) : Prop := NoDup l /\ forall h, In h l <-> P h.

(** The two sketches retain at most 2^26 different hashes together (and their counts add up to a uint32). *)
Definition fits (a b : sketch) : Prop :=
  (N.of_nat (length (sk_entries a) + length (sk_entries b)) < 2 ^ 32)%N /\
  exists d, lists (fun h => In h (sk_entries a) \/ In h (sk_entries b)) d /\ (N.of_nat (length d) <= 2 ^ 26)%N.

(** Same content: the same theta, the same hashes, both flagged empty or both not. *)
Definition same_content (a b : sketch) : Prop :=
  sk_theta a = sk_theta b /\ sk_empty a = sk_empty b /\ forall h, In h (sk_entries a) <-> In h (sk_entries b).

Definition jinput (seed : N) (s : sketch) : Prop := wf_sketch s /\ (sk_empty s = true \/ sk_seed s = seed).

(** ** Counting *)

Lemma NoDup_join {A} (l l' : list A) : NoDup l -> NoDup l' -> (forall x, In x l -> In x l' -> False) -> NoDup (l ++ l').
Proof.
  induction l as [|x r IH]; cbn; intros H H' D; auto. inversion H; subst. constructor.
  - intros C. apply in_app_iff in C as [C|C]; eauto.
  - apply IH; eauto.
Qed.

Lemma lists_length P l l' : lists P l -> lists P l' -> length l = length l'.
Proof.
  intros [N1 H1] [N2 H2]. apply Nat.le_antisymm; apply NoDup_incl_length; auto; intros h Hh.
  - apply H2, H1. auto.
  - apply H1, H2. auto.
Qed.
Lemma lists_sub P Q l l' : lists P l -> lists Q l' -> (forall h, P h -> Q h) -> length l <= length l'.
Proof. intros [N1 H1] [N2 H2] H. apply NoDup_incl_length; auto. intros h Hh. apply H2, H, H1. auto. Qed.

Lemma jaccard_lgk_range a b : (MinLgK <= jaccard_lgk a b <= MaxLgK)%N.
Proof.
  unfold jaccard_lgk. cbv zeta. set (lg := N.log2 _).
  destruct (N.ltb_spec lg MinLgK); [destruct (N.ltb_spec MaxLgK MinLgK)|destruct (N.ltb_spec MaxLgK lg)]; unfold MinLgK, MaxLgK in *; lia.
Qed.

Lemma jaccard_lgk_fits a b : (a + b < 2 ^ 32)%N -> (N.min (a + b) (2 ^ 26) <= 2 ^ jaccard_lgk a b)%N.
Proof.
  intros H. pose proof (jaccard_lgk_range a b) as R. unfold jaccard_lgk in *. cbv zeta in *. rewrite (N.mod_small (a + b)) in * by auto.
  set (n := (a + b)%N) in *. unfold MinLgK, MaxLgK in *.
  assert (Hm : forall x y, (x <= y)%N -> (2 ^ x <= 2 ^ y)%N) by (intros; apply N.pow_le_mono_r; lia).
  assert (K : (N.min n (2 ^ 30) <= 2 ^ N.log2 (ceiling_pow2 n))%N).
  { unfold ceiling_pow2. destruct (N.leb_spec n 1).
    - change (N.log2 1) with 0%N. change (2 ^ 0)%N with 1%N. lia.
    - destruct (N.leb_spec (2 ^ 30) n).
      + rewrite N.log2_pow2 by lia. lia.
      + rewrite N.log2_pow2 by lia. destruct (N.log2_spec (2 * (n - 1)) ltac:(lia)) as [_ L].
        rewrite N.pow_succ_r' in L. lia. }
  set (lg := N.log2 _) in *.
  change (2 ^ 26)%N with 67108864%N in *. change (2 ^ 30)%N with 1073741824%N in *.
  destruct (N.ltb_spec lg 5).
  - change (26 <? 5)%N with false in *. cbv iota in *. specialize (Hm lg 5%N ltac:(lia)). lia.
  - destruct (N.ltb_spec 26 lg).
    + change (2 ^ 26)%N with 67108864%N. lia.
    + lia.
Qed.

(** ** The union and the intersection that Jaccard computes *)

Lemma good_jaccard a b : good_params (jaccard_lgk a b) 3 MaxTheta.
Proof. unfold good_params. pose proof (jaccard_lgk_range a b). lia. Qed.

Lemma compute_union_ok seed a b : jinput seed a -> jinput seed b -> sk_empty a = false ->
  exists u k, k = pow2 (jaccard_lgk (N.of_nat (length (sk_entries a))) (N.of_nat (length (sk_entries b)))) /\
    compute_union a b seed = Some u /\ UnionSpec k MaxTheta [a; b] u /\ wf_sketch u /\ sk_seed u = seed /\ sk_empty u = false /\
    (N.of_nat k <= 2 ^ 26)%N /\
    ((N.of_nat (length (sk_entries a) + length (sk_entries b)) < 2 ^ 32)%N ->
     (N.min (N.of_nat (length (sk_entries a) + length (sk_entries b))) (2 ^ 26) <= N.of_nat k)%N).
Proof.
  intros Ia Ib Ea. set (ca := N.of_nat (length (sk_entries a))). set (cb := N.of_nat (length (sk_entries b))).
  pose proof (good_jaccard ca cb) as G. pose proof G as (HK & Hrf & _).
  assert (Hok : Forall (ok_input seed) [UnUpdate a; UnUpdate b]) by (constructor; [exact Ia|constructor; [exact Ib|constructor]]).
  destruct (unrun_inv _ _ _ _ G _ _ [] [] Hok (new_union_inv (jaccard_lgk ca cb) 3 MaxTheta seed (proj1 HK) Hrf)) as (u2 & sn & E & I).
  destruct (union_result_spec _ _ _ _ _ _ _ false I) as (r & Hr & US & Hsd & _).
  exists r, (pow2 (jaccard_lgk ca cb)). cbn [fold_left app] in US.
  split; [reflexivity|]. split.
  { unfold compute_union. fold ca cb. cbv zeta. cbn [unrun unstep] in E.
    destruct (union_update _ a) as [u1|]; [|discriminate]. destruct (union_update u1 b); [|discriminate]. injection E as ->. auto. }
  split; auto. split. { eapply theta_union_result_wf; eauto. }
  split; auto. split. { destruct (sk_empty r) eqn:Er; auto. rewrite (us_empty _ _ _ _ US) in Er. rewrite <- Ea. symmetry. apply Er. left; auto. }
  unfold pow2. rewrite N2Nat.id. split.
  - apply N.pow_le_mono_r; [lia|]. apply jaccard_lgk_range.
  - intros H. rewrite Nat2N.inj_add in *. apply jaccard_lgk_fits. auto.
Qed.

Lemma min_theta_pair a b : sk_empty a = false -> sk_empty b = false -> wf_sketch a -> wf_sketch b ->
  min_theta MaxTheta (nonempty_of [a; b]) = N.min (sk_theta a) (sk_theta b).
Proof. intros Ea Eb Wa Wb. unfold nonempty_of, min_theta. cbn [filter]. rewrite Ea, Eb. cbn [negb fold_left]. pose proof (wf_theta _ Wa). lia. Qed.

Lemma all_hashes_pair a b h : In h (all_hashes [a; b]) <-> In h (sk_entries a) \/ In h (sk_entries b).
Proof. unfold all_hashes. cbn [flat_map]. rewrite app_nil_r, in_app_iff. tauto. Qed.

(** With few enough hashes nothing is cut off the union. *)
Lemma union_theta_fits seed a b u k : jinput seed a -> jinput seed b -> sk_empty a = false -> sk_empty b = false -> fits a b ->
  UnionSpec k MaxTheta [a; b] u ->
  ((N.of_nat (length (sk_entries a) + length (sk_entries b)) < 2 ^ 32)%N ->
     (N.min (N.of_nat (length (sk_entries a) + length (sk_entries b))) (2 ^ 26) <= N.of_nat k)%N) ->
  sk_theta u = N.min (sk_theta a) (sk_theta b).
Proof.
  intros [Wa _] [Wb _] Ea Eb [Hs (d & Ld & Hd)] US Hk. specialize (Hk Hs). rewrite <- min_theta_pair by auto.
  destruct US. destruct us_theta as [?|(_ & El & Hin)]; auto. exfalso.
  assert (Hl : length (sk_theta u :: sk_entries u) <= length d).
  { apply NoDup_incl_length.
    - constructor; auto. intros C. apply us_mem in C. lia.
    - intros h [<-|Hh]; apply Ld; apply all_hashes_pair; auto. apply us_mem in Hh. tauto. }
  assert (Hd2 : length d <= length (sk_entries a) + length (sk_entries b)).
  { rewrite <- app_length. apply NoDup_incl_length; [apply Ld|]. intros h Hh. apply in_app_iff. apply Ld. auto. }
  cbn [length] in Hl. change (2 ^ 26)%N with 67108864%N in *. lia.
Qed.

Lemma insert_flag {E} (hashOf : E -> N) z t i e t' : insert hashOf z t i e = Some t' -> t_empty t' = t_empty t /\ t_num t' <> 0.
Proof.
  unfold insert. destruct (_ <? _); [|discriminate]. cbv zeta. cbn [t_num t_lgCur t_lgNom].
  destruct (_ <? _).
  - destruct (_ <=? _)%N; intros H.
    + unfold resize in H. cbv zeta in H. destruct (_ =? _); [|discriminate]. destruct (fold_left _ _ _); [|discriminate].
      injection H as <-. cbn. split; auto. lia.
    + unfold rebuild in H. cbv zeta in H. cbn in H.
      repeat match type of H with match ?x with _ => _ end = _ => destruct x; try discriminate end.
      all: injection H as <-; cbn; split; auto.
      all: unfold pow2; assert (0 < 2 ^ t_lgNom t)%N by (apply N.neq_0_lt_0, N.pow_nonzero; lia); lia.
  - injection 1 as <-. cbn. split; auto. lia.
Qed.

Lemma inter_fill_flag : forall l t t', inter_fill l t = Some t' -> t_empty t' = t_empty t.
Proof.
  induction l as [|e r IH]; intros t t' H; cbn [inter_fill] in H; [injection H as <-; auto|].
  destruct (find _ _ _ _) as [i|i| | |]; try discriminate.
  all: destruct (insert tid 0%N t _ e) as [t1|] eqn:Ei; [|discriminate].
  all: apply insert_flag in Ei as [Ei _]; rewrite (IH _ _ H); auto.
Qed.
Lemma inter_refill_flag : forall l t t', inter_refill l t = Some t' -> t_empty t' = t_empty t /\ (l <> [] \/ t_num t <> 0 -> t_num t' <> 0).
Proof.
  induction l as [|e r IH]; intros t t' H; cbn [inter_refill] in H; [injection H as <-; split; auto; intros [?|?]; tauto|].
  destruct (find _ _ _ _) as [i|i| | |]; try discriminate.
  all: destruct (insert tid 0%N t _ e) as [t1|] eqn:Ei; [|discriminate].
  all: apply insert_flag in Ei as [Ei En]; destruct (IH _ _ H) as [A B]; split; [congruence|auto].
Qed.

(** When a non-empty sketch turns a non-empty intersection into an empty one: only a later update, and only in exact mode. *)
Lemma inter_update_flag x s x' : inter_update x s = Some x' -> t_empty (i_tab x) = false -> sk_empty s = false ->
  (t_empty (i_tab x') = true -> i_valid x = true /\ N.min (t_theta (i_tab x)) (sk_theta s) = MaxTheta) /\
  (i_valid x = true -> t_num (i_tab x) <> 0 -> sk_entries s <> [] -> t_num (i_tab x') = 0 ->
   N.min (t_theta (i_tab x)) (sk_theta s) = MaxTheta -> t_empty (i_tab x') = true).
Proof.
  intros H Ex Es. unfold inter_update in H. cbv zeta in H. rewrite Ex, Es in H. cbn [negb andb orb] in H.
  destruct (negb (sk_seed s =? i_seed x)%N); [discriminate|].
  set (th := N.min (t_theta (i_tab x)) (sk_theta s)) in *. cbn [set_theta_empty t_num] in H.
  destruct (i_valid x && (t_num (i_tab x) =? 0)) eqn:E0.
  { injection H as <-. cbn. split; [discriminate|]. intros Hv Hn. rewrite Hv in E0. apply Nat.eqb_eq in E0. tauto. }
  destruct (length (sk_entries s) =? 0) eqn:El.
  { injection H as <-. cbn. split; [discriminate|]. intros _ _ Hne. destruct (sk_entries s); [tauto|discriminate]. }
  destruct (i_valid x) eqn:Ev; cbn [negb] in H; cbv iota in H.
  - destruct (inter_match _ _ _ _ _ _) as [[ms c]|]; [|discriminate]. destruct (_ <? c); [discriminate|].
    destruct (negb (sk_ordered s) && _); [discriminate|].
    destruct (Nat.eqb_spec (length ms) 0) as [Em|Em].
    + injection H as <-. cbn [i_tab new_table t_empty t_num]. destruct (N.eqb_spec th MaxTheta) as [Hth|Hth]; (split; [intros C; try discriminate C; auto|intros; try tauto; auto]).
    + destruct (inter_refill _ _) as [t'|] eqn:Er; [|discriminate]. injection H as <-. cbn [i_tab].
      apply inter_refill_flag in Er as [A B]. cbn in A. rewrite A. split; [intros C; discriminate C|].
      intros _ _ _ C. exfalso. apply B; auto. left. destruct ms; [tauto|discriminate].
  - destruct (inter_fill _ _) as [t'|] eqn:Er; [|discriminate]. destruct (t_num t' =? length (sk_entries s)); [|discriminate]. injection H as <-. cbn [i_tab].
    apply inter_fill_flag in Er. cbn in Er. rewrite Er. split; [intros C; discriminate C|intros C; discriminate C].
Qed.

(** Not the case in which the code fails: two disjoint sketches in exact mode with more than 2^26 hashes. *)
Definition not_huge_disjoint (a b : sketch) : Prop :=
  fits a b \/ (sk_theta a < MaxTheta)%N \/ (sk_theta b < MaxTheta)%N \/ exists h, In h (sk_entries a) /\ In h (sk_entries b).

Lemma new_inter_theta seed : t_theta (i_tab (new_inter seed)) = MaxTheta.
Proof. reflexivity. Qed.

Lemma compute_inter_ok seed a b u k : jinput seed a -> jinput seed b -> sk_empty a = false -> sk_empty b = false ->
  UnionSpec k MaxTheta [a; b] u -> wf_sketch u -> sk_seed u = seed -> sk_empty u = false ->
  exists i, compute_inter a b u seed = Some i /\
    lists (fun h => (h < sk_theta u)%N /\ In h (sk_entries a) /\ In h (sk_entries b)) (sk_entries i) /\
    (sk_theta i = sk_theta u \/ sk_theta i = MaxTheta /\ sk_entries i = []) /\
    ((sk_theta u = MaxTheta \/ (sk_theta a < MaxTheta)%N \/ (sk_theta b < MaxTheta)%N \/ exists h, In h (sk_entries a) /\ In h (sk_entries b)) ->
     sk_theta i = sk_theta u) /\
    ((sk_theta a = MaxTheta) -> (sk_theta b = MaxTheta) -> sk_entries a <> [] -> sk_entries b <> [] ->
      (forall h, In h (sk_entries a) -> In h (sk_entries b) -> False) -> sk_theta i = MaxTheta).
Proof.
  intros [Wa Sa] [Wb Sb] Ea Eb US Wu Su Eu.
  destruct (inter_update_inv seed (new_inter seed) [] a (new_inter_inv seed) Wa Sa) as (x1 & E1 & I1).
  destruct (inter_update_inv seed x1 [a] b I1 Wb Sb) as (x2 & E2 & I2). cbn [app] in I2.
  destruct (inter_update_inv seed x2 [a; b] u I2 Wu (or_intror Su)) as (x3 & E3 & I3). cbn [app] in I3.
  destruct (inter_result_spec seed x3 [a; b; u] false I3 ltac:(discriminate)) as (i & Hr & _ & Hmem & Hnd & He & Hne & _).
  assert (Hflag : sk_empty i = t_empty (i_tab x3)).
  { unfold inter_result in Hr. destruct (i_valid x3); [|discriminate]. cbv zeta in Hr. injection Hr as <-. reflexivity. }
  exists i. split; [unfold compute_inter; rewrite E1, E2, E3; auto|].
  pose proof (us_theta_le _ _ _ _ US) as Hle. rewrite min_theta_pair in Hle by auto.
  assert (Hm : min_theta MaxTheta [a; b; u] = sk_theta u).
  { unfold min_theta. cbn [fold_left]. pose proof (wf_theta _ Wa). lia. }
  assert (Hmin : sk_empty i = false -> sk_theta i = sk_theta u) by (intros e; destruct (Hne e) as [-> _]; auto).
  assert (Hcom : forall h, common [a; b; u] h <-> (h < sk_theta u)%N /\ In h (sk_entries a) /\ In h (sk_entries b)).
  { intros h. unfold common. split.
    - intros C. split; [|split; apply C; cbn; auto]. apply (wf_range _ Wu). apply C. cbn; auto.
    - intros (H & A & B) s [<-|[<-|[<-|[]]]]; auto. apply (us_mem _ _ _ _ US). split; auto. apply all_hashes_pair. auto. }
  assert (Hf1 : t_empty (i_tab x1) = false).
  { destruct (inter_update_flag _ _ _ E1 eq_refl Ea) as [F _]. destruct (t_empty (i_tab x1)); auto. destruct F; auto; discriminate. }
  assert (Ht1 : t_theta (i_tab x1) = sk_theta a).
  { destruct (ii_nonempty _ _ _ I1 Hf1) as [-> _]. unfold min_theta. cbn [fold_left app]. pose proof (wf_theta _ Wa). lia. }
  split; [|split; [|split]].
  - split; auto. intros h. rewrite Hmem, Hcom. split; [tauto|]. intros (H & A & B). split; auto.
    destruct (sk_empty i) eqn:Ei; [|rewrite Hmin; auto]. destruct (He eq_refl) as (-> & _). pose proof (wf_theta _ Wu). lia.
  - destruct (sk_empty i) eqn:Ei; auto. destruct (He eq_refl) as (-> & -> & _). auto.
  - intros Hc. destruct (sk_empty i) eqn:Ei; auto. destruct (He eq_refl) as (-> & _). symmetry.
    destruct (N.eq_dec (sk_theta u) MaxTheta) as [|Hu]; auto. exfalso.
    destruct (t_empty (i_tab x2)) eqn:Ef2.
    + destruct (inter_update_flag _ _ _ E2 Hf1 Eb) as [F _]. destruct (F Ef2) as [_ Fm]. rewrite Ht1 in Fm.
      destruct Hc as [?|[?|[?|(h & A & B)]]]; try tauto; try lia.
      destruct (ii_empty _ _ _ I2 Ef2) as (_ & _ & Hno). apply (Hno h). intros s [<-|[<-|[]]]; auto.
    + destruct (inter_update_flag _ _ _ E3 Ef2 Eu) as [F _]. destruct (F (eq_sym Hflag)) as [_ Fm]. pose proof (wf_theta _ Wu). lia.
  - intros Ta Tb Na Nb Hdis. destruct (sk_empty i) eqn:Ei; [destruct (He eq_refl) as (-> & _); auto|]. exfalso.
    assert (Hf2 : t_empty (i_tab x2) = true).
    { destruct (inter_update_flag _ _ _ E2 Hf1 Eb) as [_ F]. apply F; auto.
      - rewrite (ii_valid _ _ _ I1). auto.
      - destruct (ii_tab _ _ _ I1 ltac:(discriminate)) as [[_ C]|(L & HL & FI & _)].
        + exfalso. destruct (sk_entries a) as [|h l] eqn:El; [tauto|]. apply (C h).
          * rewrite Ht1. apply (wf_range _ Wa). rewrite El. cbn; auto.
          * intros s [<-|[]]. rewrite El. cbn; auto.
        + destruct FI. rewrite fi_num, (Permutation_length fi_perm). destruct L; [tauto|discriminate].
      - destruct (ii_tab _ _ _ I2 ltac:(discriminate)) as [[? _]|(L & HL & FI & _ & HLin)]; auto. exfalso.
        destruct L as [|h L]; [tauto|]. destruct (proj1 (HLin h) (or_introl eq_refl)) as [_ C]. apply (Hdis h); apply C; cbn; auto.
      - rewrite Ht1, Ta, Tb. lia. }
    unfold inter_update in E3. cbv zeta in E3. rewrite Hf2 in E3. injection E3 as <-. congruence.
Qed.

(** ** What the bounds functions return *)
Lemma ratio_Q b a : (0 < a)%N -> (ratio b a == inject_Z (Z.of_N b) / inject_Z (Z.of_N a))%Q.
Proof.
  intros H. unfold ratio. destruct a as [|p]; [lia|]. rewrite Qmake_Qdiv. reflexivity.
Qed.
Lemma ratio_same a : (0 < a)%N -> (ratio a a == 1)%Q.
Proof. intros H. unfold ratio. destruct a as [|p]; [lia|]. unfold Qeq. cbn. lia. Qed.
Lemma ratio_zero a : (ratio 0 a == 0)%Q.
Proof. unfold ratio, Qeq. cbn. auto. Qed.
Lemma ratio_unit b a : (0 < a)%N -> (b <= a)%N -> (0 <= ratio b a <= 1)%Q.
Proof. intros H1 H2. unfold ratio. destruct a as [|p]; [lia|]. unfold Qle. cbn [Qnum Qden]. split; lia. Qed.

Section Theta.
  Variables (lb_k1 lb_kn ub_km1 ub_k0 : N -> N -> Q) (lb_mid ub_mid : N -> N -> N -> Q).
  Variable f_is_one : N -> bool.
  Hypothesis one_at_max : f_is_one MaxTheta = true.

  Notation jac := (jaccard lb_k1 lb_kn ub_km1 ub_k0 lb_mid ub_mid f_is_one).
  Notation bounds3 := (three_bounds lb_k1 lb_kn ub_km1 ub_k0 lb_mid ub_mid f_is_one).

  (** The number of common hashes over the number of all hashes, as a rational. *)
  Definition quotient (both either : list N) : Q := (inject_Z (Z.of_nat (length both)) / inject_Z (Z.of_nat (length either)))%Q.

  Lemma ratio_quotient both either : either <> [] -> (ratio (N.of_nat (length both)) (N.of_nat (length either)) == quotient both either)%Q.
  Proof.
    intros H. unfold quotient. rewrite ratio_Q, !nat_N_Z; [reflexivity|]. destruct either; [tauto|]. cbn [length]. lia.
  Qed.

  (** What a result says about a fraction [both]/[either] observed at [theta]. *)
  Definition says (theta : N) (both either : list N) (j : jaccard_result) : Prop :=
    (either <> [] -> (j_estimate j == quotient both either)%Q /\ (0 <= j_estimate j <= 1)%Q) /\
    (either <> [] -> both = [] -> (j_lower j == 0)%Q) /\
    (either <> [] -> length both = length either -> (j_upper j == 1)%Q) /\
    (either <> [] -> theta = MaxTheta -> (j_lower j == quotient both either)%Q /\ (j_upper j == quotient both either)%Q).

  Lemma three_bounds_ok th either both : (th <= MaxTheta)%N -> (either <> [] -> (0 < th)%N) -> length both <= length either ->
    exists j, bounds3 (th, either) (th, both) = Some j /\ says th both either j /\ 
      (either = [] -> j = mkJ 0 (1 # 2) 1).
  Proof.
    intros Hth H0 Hle. unfold three_bounds, lower_sketched, estimate_sketched, upper_sketched, sketched_counts. cbn [fst snd].
    rewrite N.ltb_irrefl, N.eqb_refl. set (n := N.of_nat (length either)). set (k := N.of_nat (length both)).
    destruct (N.eqb_spec n 0) as [En|En].
    { assert (either = []) by (destruct either; [auto|cbn in En; lia]). eexists. split; [reflexivity|]. split; [|auto].
      repeat split; intros; tauto. }
    assert (Hne : either <> []) by (intros ->; apply En; reflexivity). specialize (H0 Hne).
    assert (Hk : (k <= n)%N) by (unfold k, n; lia).
    assert (Hv : valid_sampled n k th = true).
    { unfold valid_sampled. destruct (N.ltb_spec n k); [lia|]. destruct (N.ltb_spec MaxTheta th); [lia|]. destruct (N.eqb_spec th 0); [lia|]. auto. }
    unfold lower_b_over_a, upper_b_over_a. rewrite Hv. cbn [negb]. destruct (N.eqb_spec n 0); [lia|].
    assert (He : (ratio k n == quotient both either)%Q) by (apply ratio_quotient; auto).
    assert (Hu : (0 <= ratio k n <= 1)%Q) by (apply ratio_unit; lia).
    assert (Hz : both = [] -> (ratio k n == 0)%Q) by (intros ->; apply ratio_zero).
    assert (Ho : length both = length either -> (ratio k n == 1)%Q).
    { intros E. unfold k. rewrite E. fold n. apply ratio_same. lia. }
    destruct (f_is_one th) eqn:Ef.
    { eexists. split; [reflexivity|]. split; [|tauto]. unfold says. cbn [j_lower j_estimate j_upper]. auto 10. }
    unfold approx_lower, approx_upper. destruct (N.ltb_spec n k); [lia|]. destruct (N.eqb_spec n 0); [lia|].
    assert (Hmx : th <> MaxTheta) by congruence.
    assert (Hlb : exists lb, (if (k =? 0)%N then Some 0%Q else if (k =? 1)%N then Some (lb_k1 n th) else if (k =? n)%N then Some (lb_kn n th) else Some (lb_mid n k th)) = Some lb /\ (both = [] -> lb == 0)%Q).
    { destruct (N.eqb_spec k 0) as [Ek|Ek].
      - eexists. split; [reflexivity|]. intros; reflexivity.
      - destruct (k =? 1)%N; [|destruct (k =? n)%N]; (eexists; split; [reflexivity|intros ->; cbn in Ek; tauto]). }
    assert (Hub : exists ub, (if (k =? n)%N then Some 1%Q else if (k =? n - 1)%N then Some (ub_km1 n th) else if (k =? 0)%N then Some (ub_k0 n th) else Some (ub_mid n k th)) = Some ub /\ (length both = length either -> ub == 1)%Q).
    { destruct (N.eqb_spec k n) as [Ek|Ek].
      - eexists. split; [reflexivity|]. intros; reflexivity.
      - destruct (k =? n - 1)%N; [|destruct (k =? 0)%N]; (eexists; split; [reflexivity|intros E; exfalso; apply Ek; unfold k, n; congruence]). }
    destruct Hlb as (lb & -> & Hlb). destruct Hub as (ub & -> & Hub).
    eexists. split; [reflexivity|]. split; [|tauto]. unfold says. cbn [j_lower j_estimate j_upper]. repeat split; auto; try tauto; try apply Hu.
  Qed.

  Lemma says_ones th both either : (length both = length either) -> says th both either (mkJ 1 1 1).
  Proof.
    intros E. unfold says. cbn [j_lower j_estimate j_upper].
    assert (H : either <> [] -> (1 == quotient both either)%Q).
    { intros Hne. rewrite <- ratio_quotient by auto. rewrite E. symmetry. apply ratio_same. destruct either; [tauto|cbn; lia]. }
    repeat split; auto; try (cbn; unfold Qle; cbn; lia); try reflexivity.
    intros Hne ->. destruct either; [tauto|discriminate].
  Qed.

  (** The numbers of Jaccard(): on two non-empty sketches with the right seed there is a threshold, at most both thetas,
      such that with [both] the common hashes below it and [either] all hashes below it: the estimate is
      |both| / |either|, between 0 and 1; the lower bound is 0 when nothing is common and the upper bound 1 when everything
      is; when the threshold is MaxTheta the bounds equal the estimate. The threshold is the smaller of the two thetas unless there are
      more than 2^26 hashes. *)
  Theorem theta_jaccard_ratio : forall seed a b, jinput seed a -> jinput seed b -> sk_empty a = false -> sk_empty b = false ->
    not_huge_disjoint a b ->
    exists j th both either, jac false a b seed = Some j /\
      (th <= sk_theta a)%N /\ (th <= sk_theta b)%N /\ (fits a b -> th = N.min (sk_theta a) (sk_theta b)) /\
      lists (fun h => (h < th)%N /\ In h (sk_entries a) /\ In h (sk_entries b)) both /\
      lists (fun h => (h < th)%N /\ (In h (sk_entries a) \/ In h (sk_entries b))) either /\
      says th both either j /\
      (either = [] -> j = mkJ 1 1 1 \/ j = mkJ 0 (1 # 2) 1).
  Proof.
    intros seed a b Ia Ib Ea Eb Hc.
    destruct (compute_union_ok seed a b Ia Ib Ea) as (u & k & _ & Hu & US & Wu & Su & Eu & Hk & Hk2).
    destruct (compute_inter_ok seed a b u k Ia Ib Ea Eb US Wu Su Eu) as (i & Hi & Li & Hti & Hti2 & _).
    pose proof (us_theta_le _ _ _ _ US) as Hle. rewrite min_theta_pair in Hle by (auto; apply Ia || apply Ib).
    assert (Hft : fits a b -> sk_theta u = N.min (sk_theta a) (sk_theta b)).
    { intros F. eapply union_theta_fits; eauto. }
    assert (Lu : lists (fun h => (h < sk_theta u)%N /\ (In h (sk_entries a) \/ In h (sk_entries b))) (sk_entries u)).
    { split; [apply US|]. intros h. rewrite (us_mem _ _ _ _ US), all_hashes_pair. tauto. }
    assert (Hlen : length (sk_entries i) <= length (sk_entries u)) by (eapply lists_sub; eauto; cbn; tauto).
    unfold jaccard. rewrite Ea, Eb. cbn [andb orb]. rewrite Hu, Hi.
    destruct (identical_sets (view_of a) (view_of b) (view_of u)) eqn:Eq.
    { exists (mkJ 1 1 1), (sk_theta u), (sk_entries i), (sk_entries u). split; auto. do 2 (split; [lia|]). do 3 (split; [auto|]).
      split; [|auto]. apply says_ones.
      unfold identical_sets, view_of in Eq. cbn [fst snd] in Eq. apply andb_true_iff in Eq as [Eq T2]. apply andb_true_iff in Eq as [Eq T1].
      apply andb_true_iff in Eq as [L1 L2]. apply Nat.eqb_eq in L1, L2. apply N.eqb_eq in T1, T2.
      destruct Ia as [Wa _]. destruct Ib as [Wb _].
      assert (Ia' : incl (sk_entries u) (sk_entries a)).
      { apply NoDup_length_incl; [apply Wa|lia|]. intros h Hh. apply Lu. split; auto. rewrite T1. apply (wf_range _ Wa). auto. }
      assert (Ib' : incl (sk_entries u) (sk_entries b)).
      { apply NoDup_length_incl; [apply Wb|lia|]. intros h Hh. apply Lu. split; auto. rewrite T2. apply (wf_range _ Wb). auto. }
      apply Nat.le_antisymm; auto. eapply lists_sub; eauto. cbn. intros h [Hh Hh2]. split; auto.
      assert (In h (sk_entries u)) by (apply Lu; auto). auto. }
    assert (Hth : sk_theta i = sk_theta u).
    { apply Hti2. destruct Hc as [F|[?|[?|?]]]; auto.
      destruct (N.lt_ge_cases (sk_theta a) MaxTheta); auto. destruct (N.lt_ge_cases (sk_theta b) MaxTheta); auto.
      left. pose proof (Hft F). destruct Ia as [Wa _]. destruct Ib as [Wb _]. pose proof (wf_theta _ Wa). pose proof (wf_theta _ Wb). lia. }
    unfold view_of. rewrite Hth.
    destruct (three_bounds_ok (sk_theta u) (sk_entries u) (sk_entries i)) as (j & Ej & Sj & Zj); auto.
    { apply Wu. }
    { intros Hne. destruct (sk_entries u) as [|h l] eqn:El; [tauto|]. pose proof (wf_range _ Wu h) as R. rewrite El in R. specialize (R (or_introl eq_refl)). lia. }
    exists j, (sk_theta u), (sk_entries i), (sk_entries u). split; auto. do 2 (split; [lia|]). auto 10.
  Qed.

  (** In exact mode (nothing was sampled out) all three numbers are the Jaccard index of the two sets of hashes. *)
  Theorem theta_jaccard_exact : forall seed a b both either, jinput seed a -> jinput seed b -> sk_empty a = false -> sk_empty b = false ->
    sk_theta a = MaxTheta -> sk_theta b = MaxTheta -> fits a b ->
    lists (fun h => In h (sk_entries a) /\ In h (sk_entries b)) both ->
    lists (fun h => In h (sk_entries a) \/ In h (sk_entries b)) either -> either <> [] ->
    exists j, jac false a b seed = Some j /\ (j_lower j == quotient both either)%Q /\
      (j_estimate j == quotient both either)%Q /\ (j_upper j == quotient both either)%Q.
  Proof.
    intros seed a b both either Ia Ib Ea Eb Ta Tb F Lb Le Hne.
    destruct (theta_jaccard_ratio seed a b Ia Ib Ea Eb (or_introl F)) as (j & th & b' & e' & Ej & H1 & H2 & H3 & Lb' & Le' & Sj & _).
    assert (th = MaxTheta) by (rewrite (H3 F), Ta, Tb; lia). subst th.
    assert (Hlt : forall h, In h (sk_entries a) \/ In h (sk_entries b) -> (h < MaxTheta)%N).
    { destruct Ia as [Wa _]. destruct Ib as [Wb _]. intros h [Hh|Hh]; [rewrite <- Ta; apply (wf_range _ Wa)|rewrite <- Tb; apply (wf_range _ Wb)]; auto. }
    assert (E1 : length b' = length both).
    { eapply lists_length; [exact Lb'|]. destruct Lb as [Nb Hb]. split; auto. intros h. rewrite Hb. split; [|tauto]. intros [A B]. auto. }
    assert (E2 : length e' = length either).
    { eapply lists_length; [exact Le'|]. destruct Le as [Nb Hb]. split; auto. intros h. rewrite Hb. split; [|tauto]. intros A. auto. }
    assert (Eq : quotient b' e' = quotient both either) by (unfold quotient; rewrite E1, E2; auto).
    assert (Hne' : e' <> []) by (intros ->; destruct either; [tauto|discriminate]).
    destruct Sj as (S1 & _ & _ & S4). rewrite Eq in *. exists j. split; auto. destruct (S4 Hne' eq_refl). destruct (S1 Hne'). auto.
  Qed.

  (** IsExactlyEqual: true only for sketches with the same content, and true for those that retain at most 2^26 hashes;
      then Jaccard is 1. *)
  Theorem theta_equal_correct : forall seed a b, jinput seed a -> jinput seed b ->
    exists e, is_exactly_equal false a b seed = Some e /\
      (e = true -> same_content a b /\ jac false a b seed = Some (mkJ 1 1 1)) /\
      (same_content a b -> (N.of_nat (length (sk_entries a)) <= 2 ^ 26)%N -> e = true).
  Proof.
    intros seed a b Ia Ib. unfold is_exactly_equal, jaccard.
    destruct (sk_empty a) eqn:Ea; destruct (sk_empty b) eqn:Eb; cbn [andb orb].
    - exists true. split; auto. split; auto. intros _. split; auto.
      destruct Ia as [Wa _]. destruct Ib as [Wb _]. destruct (wf_empty _ Wa Ea) as [A1 A2]. destruct (wf_empty _ Wb Eb) as [B1 B2].
      unfold same_content. rewrite A1, A2, B1, B2, Ea, Eb. repeat split; auto.
    - exists false. split; auto. split; [discriminate|]. intros (_ & C & _). congruence.
    - exists false. split; auto. split; [discriminate|]. intros (_ & C & _). congruence.
    - destruct (compute_union_ok seed a b Ia Ib Ea) as (u & k & _ & Hu & US & Wu & Su & Eu & Hk & Hk2). rewrite Hu.
      exists (identical_sets (view_of a) (view_of b) (view_of u)). split; auto.
      assert (Lu : lists (fun h => (h < sk_theta u)%N /\ (In h (sk_entries a) \/ In h (sk_entries b))) (sk_entries u)).
      { split; [apply US|]. intros h. rewrite (us_mem _ _ _ _ US), all_hashes_pair. tauto. }
      split.
      + intros Eq. rewrite Eq. split; auto.
        unfold identical_sets, view_of in Eq. cbn [fst snd] in Eq. apply andb_true_iff in Eq as [Eq T2]. apply andb_true_iff in Eq as [Eq T1].
        apply andb_true_iff in Eq as [L1 L2]. apply Nat.eqb_eq in L1, L2. apply N.eqb_eq in T1, T2.
        destruct Ia as [Wa _]. destruct Ib as [Wb _].
        assert (Ja : incl (sk_entries a) (sk_entries u)).
        { intros h Hh. apply Lu. split; auto. rewrite T1. apply (wf_range _ Wa). auto. }
        assert (Jb : incl (sk_entries b) (sk_entries u)).
        { intros h Hh. apply Lu. split; auto. rewrite T2. apply (wf_range _ Wb). auto. }
        assert (Ka : incl (sk_entries u) (sk_entries a)) by (apply NoDup_length_incl; [apply Wa|lia|auto]).
        assert (Kb : incl (sk_entries u) (sk_entries b)) by (apply NoDup_length_incl; [apply Wb|lia|auto]).
        split; [congruence|]. split; [congruence|]. intros h. split; auto.
      + intros (T & _ & Hs) Hl.
        assert (Hmem : lists (fun h => In h (sk_entries a) \/ In h (sk_entries b)) (sk_entries a)).
        { split; [apply Ia|]. intros h. specialize (Hs h). tauto. }
        assert (Hlb : length (sk_entries b) = length (sk_entries a)).
        { eapply lists_length; [|exact Hmem]. split; [apply Ib|]. intros h. specialize (Hs h). tauto. }
        assert (F : fits a b).
        { split; [rewrite Hlb; change (2 ^ 26)%N with 67108864%N in Hl; change (2 ^ 32)%N with 4294967296%N; lia|]. exists (sk_entries a). auto. }
        pose proof (union_theta_fits seed a b u k Ia Ib Ea Eb F US Hk2) as Hth.
        assert (Tu : sk_theta u = sk_theta a) by lia.
        assert (Hlu : length (sk_entries u) = length (sk_entries a)).
        { eapply lists_length; [exact Lu|]. split; [apply Ia|]. intros h. rewrite Tu. specialize (Hs h). split; [|tauto].
          intros Hh. split; auto. destruct Ia as [Wa _]. apply (wf_range _ Wa). auto. }
        unfold identical_sets, view_of. cbn [fst snd]. rewrite Tu, <- T, Hlu, Hlb, Nat.eqb_refl, N.eqb_refl. auto.
  Qed.

  (** The empty sketch is equal to itself and has similarity 0 with every other sketch. *)
  Theorem theta_jaccard_empty : forall seed a b, sk_empty a = true ->
    jac false a b seed = Some (if sk_empty b then mkJ 1 1 1 else mkJ 0 0 0) /\
    jac false b a seed = Some (if sk_empty b then mkJ 1 1 1 else mkJ 0 0 0).
  Proof. intros seed a b E. unfold jaccard. rewrite E. destruct (sk_empty b); auto. Qed.

  (** A sketch compared with itself (the same pointer): 1, whatever the seed. *)
  Theorem theta_jaccard_self : forall seed a, jac true a a seed = Some (mkJ 1 1 1) /\ is_exactly_equal true a a seed = Some true.
  Proof. auto. Qed.

  (** Neither argument plays a special role. *)
  Theorem theta_jaccard_symmetric : forall seed a b, jinput seed a -> jinput seed b -> not_huge_disjoint a b ->
    jac false a b seed = jac false b a seed /\ is_exactly_equal false a b seed = is_exactly_equal false b a seed.
  Proof.
    intros seed a b Ia Ib Hc. unfold jaccard, is_exactly_equal.
    destruct (sk_empty a) eqn:Ea; destruct (sk_empty b) eqn:Eb; cbn [andb orb]; auto.
    destruct (compute_union_ok seed a b Ia Ib Ea) as (u & k & Ek & Hu & US & Wu & Su & Eu & _ & Hk2).
    destruct (compute_union_ok seed b a Ib Ia Eb) as (v & k' & Ek' & Hv & VS & Wv & Sv & Ev & _ & Hk2').
    assert (k' = k). { rewrite Ek, Ek'. unfold jaccard_lgk. rewrite (N.add_comm (N.of_nat (length (sk_entries b)))). auto. }
    clear Ek Ek'. subst k'.
    destruct (union_spec_unique k MaxTheta [a; b] [b; a] u v US VS) as (Tuv & Puv & _).
    { intros s. cbn. tauto. }
    { rewrite !min_theta_pair by (auto; apply Ia || apply Ib). lia. }
    apply Permutation_length in Puv.
    assert (Hid : identical_sets (view_of b) (view_of a) (view_of v) = identical_sets (view_of a) (view_of b) (view_of u)).
    { unfold identical_sets, view_of. cbn [fst snd]. rewrite <- Tuv, <- Puv.
      destruct (_ =? length (sk_entries b)), (_ =? length (sk_entries a)), (_ =? sk_theta a)%N, (_ =? sk_theta b)%N; auto. }
    rewrite Hu, Hv, Hid. clear Hid. split; auto. destruct (identical_sets (view_of a) (view_of b) (view_of u)); auto.
    assert (Hc2 : forall w, sk_theta w = sk_theta u -> sk_theta w = MaxTheta \/ (sk_theta a < MaxTheta)%N \/ (sk_theta b < MaxTheta)%N \/ exists h, In h (sk_entries a) /\ In h (sk_entries b)).
    { intros w Ew. destruct Hc as [F|[?|[?|?]]]; auto.
      destruct (N.lt_ge_cases (sk_theta a) MaxTheta); auto. destruct (N.lt_ge_cases (sk_theta b) MaxTheta); auto.
      left. pose proof (union_theta_fits seed a b u k Ia Ib Ea Eb F US Hk2).
      destruct Ia as [Wa _]. destruct Ib as [Wb _]. pose proof (wf_theta _ Wa). pose proof (wf_theta _ Wb). lia. }
    destruct (compute_inter_ok seed a b u k Ia Ib Ea Eb US Wu Su Eu) as (i & Hi & Li & _ & Ti & _).
    destruct (compute_inter_ok seed b a v k Ib Ia Eb Ea VS Wv Sv Ev) as (i' & Hi' & Li' & _ & Ti' & _).
    specialize (Ti (Hc2 u eq_refl)).
    assert (Ti2 : sk_theta i' = sk_theta v).
    { apply Ti'. destruct (Hc2 v (eq_sym Tuv)) as [?|[?|[?|(h & A & B)]]]; auto. right. right. right. exists h. auto. }
    rewrite Hi, Hi'.
    assert (Hlen : length (sk_entries i') = length (sk_entries i)).
    { eapply lists_length; [exact Li'|]. destruct Li as [Ni Hm]. split; auto. intros h. rewrite Hm, Tuv. tauto. }
    unfold three_bounds, lower_sketched, estimate_sketched, upper_sketched, sketched_counts, view_of. cbn [fst snd].
    rewrite Ti, Ti2, Tuv, N.ltb_irrefl, N.eqb_refl, Hlen, Puv. auto.
  Qed.

  (** IsSimilar and IsDissimilar in exact mode compare the Jaccard index itself with the threshold. *)
  Theorem theta_similar_exact : forall seed a b both either threshold, jinput seed a -> jinput seed b -> sk_empty a = false -> sk_empty b = false ->
    sk_theta a = MaxTheta -> sk_theta b = MaxTheta -> fits a b ->
    lists (fun h => In h (sk_entries a) /\ In h (sk_entries b)) both ->
    lists (fun h => In h (sk_entries a) \/ In h (sk_entries b)) either -> either <> [] ->
    exists s d, is_similar lb_k1 lb_kn ub_km1 ub_k0 lb_mid ub_mid f_is_one false a b threshold seed = Some s /\
      is_dissimilar lb_k1 lb_kn ub_km1 ub_k0 lb_mid ub_mid f_is_one false a b threshold seed = Some d /\
      (s = true <-> (threshold <= quotient both either)%Q) /\ (d = true <-> (quotient both either <= threshold)%Q).
  Proof.
    intros seed a b both either thr Ia Ib Ea Eb Ta Tb F Lb Le Hne.
    destruct (theta_jaccard_exact seed a b both either Ia Ib Ea Eb Ta Tb F Lb Le Hne) as (j & Ej & E1 & _ & E3).
    unfold is_similar, is_dissimilar. rewrite Ej. cbn [option_map]. do 2 eexists. do 2 (split; [reflexivity|]).
    rewrite !Qle_bool_iff, E1, E3. split; reflexivity.
  Qed.

  (** A sketch made with another seed: an error, unless one of the two is empty. *)
  Theorem theta_jaccard_wrong_seed : forall seed a b, sk_empty a = false -> sk_empty b = false ->
    sk_seed a <> seed -> jac false a b seed = None /\ is_exactly_equal false a b seed = None.
  Proof.
    intros seed a b Ea Eb Hs. unfold jaccard, is_exactly_equal, compute_union. rewrite Ea, Eb. cbn [andb orb]. cbv zeta.
    unfold union_update. rewrite Ea. cbn [new_union u_seed].
    destruct (N.eqb_spec seed (sk_seed a)); [congruence|]. auto.
  Qed.

  (** Two disjoint sketches in exact mode with more than 2^26 hashes together: the documentation promises J = 0, the code returns
      an error. The intersection is flagged empty before it sees the union, keeps theta = MaxTheta, and validateThetas
      compares this with the theta of the union, which was cut. *)
  Theorem theta_jaccard_huge_disjoint_fails : forall seed a b, jinput seed a -> jinput seed b -> sk_empty a = false -> sk_empty b = false ->
    sk_theta a = MaxTheta -> sk_theta b = MaxTheta -> sk_entries a <> [] -> sk_entries b <> [] ->
    (forall h, In h (sk_entries a) -> In h (sk_entries b) -> False) ->
    (2 ^ 26 < N.of_nat (length (sk_entries a) + length (sk_entries b)))%N ->
    jac false a b seed = None.
  Proof.
    intros seed a b Ia Ib Ea Eb Ta Tb Na Nb Hd Hbig.
    destruct (compute_union_ok seed a b Ia Ib Ea) as (u & k & _ & Hu & US & Wu & Su & Eu & Hk & _).
    destruct (compute_inter_ok seed a b u k Ia Ib Ea Eb US Wu Su Eu) as (i & Hi & _ & _ & _ & Ti). specialize (Ti Ta Tb Na Nb Hd).
    assert (Hlt : (sk_theta u < MaxTheta)%N).
    { pose proof (wf_theta _ Wu). destruct (N.eq_dec (sk_theta u) MaxTheta) as [E|]; [|lia]. exfalso.
      destruct Ia as [Wa _]. destruct Ib as [Wb _].
      assert (Hl : length (sk_entries a ++ sk_entries b) <= length (sk_entries u)).
      { apply NoDup_incl_length.
        - apply NoDup_join; [apply Wa|apply Wb|eauto].
        - intros h Hh. apply in_app_iff in Hh. apply (us_mem _ _ _ _ US). split; [|apply all_hashes_pair; auto]. rewrite E.
          destruct Hh as [Hh|Hh]; [rewrite <- Ta; apply (wf_range _ Wa)|rewrite <- Tb; apply (wf_range _ Wb)]; auto. }
      rewrite app_length in Hl. pose proof (us_len _ _ _ _ US). change (2 ^ 26)%N with 67108864%N in *. lia. }
    unfold jaccard. rewrite Ea, Eb. cbn [andb orb]. rewrite Hu.
    assert (Hid : identical_sets (view_of a) (view_of b) (view_of u) = false).
    { unfold identical_sets, view_of. cbn [fst snd]. destruct (N.eqb_spec (sk_theta u) (sk_theta a)); [lia|]. rewrite andb_false_r. auto. }
    rewrite Hid, Hi. unfold three_bounds, lower_sketched, sketched_counts, view_of. cbn [fst snd].
    rewrite Ti. apply N.ltb_lt in Hlt. rewrite Hlt. auto.
  Qed.
End Theta.

Definition wide (n start : nat) : sketch := mkSketch (map N.of_nat (seq start n)) MaxTheta 1 false false.
Lemma wide_ok n start : (0 < start) -> (N.of_nat (start + n) <= 2 ^ 40)%N -> jinput 1 (wide n start).
Proof.
  intros H H2. split; [|right; reflexivity]. constructor; unfold wide; cbn [sk_entries sk_theta sk_ordered sk_empty]; try discriminate; try lia.
  - apply Injective_map_NoDup; [intros x y; apply Nat2N.inj|apply seq_NoDup].
  - intros h Hh. apply in_map_iff in Hh as (x & <- & Hx). apply in_seq in Hx. unfold MaxTheta.
    change (2 ^ 40)%N with 1099511627776%N in *. lia.
Qed.

(** Finding: well-formed sketches of the same seed for which Jaccard returns an error (the documentation only warns of
    unpredictable results for such sizes). *)
Theorem theta_jaccard_total_refuted : exists seed a b, jinput seed a /\ jinput seed b /\
  forall lb_k1 lb_kn ub_km1 ub_k0 lb_mid ub_mid f_is_one, jaccard lb_k1 lb_kn ub_km1 ub_k0 lb_mid ub_mid f_is_one false a b seed = None.
Proof.
  assert (Hn : exists n, N.of_nat n = (2 ^ 26)%N) by (exists (N.to_nat (2 ^ 26)); apply N2Nat.id).
  destruct Hn as [n Hn]. change (2 ^ 26)%N with 67108864%N in Hn.
  exists 1%N, (wide n 1), (wide n (1 + n)).
  assert (I1 : jinput 1 (wide n 1)) by (apply wide_ok; [lia|]; change (2 ^ 40)%N with 1099511627776%N; lia).
  assert (I2 : jinput 1 (wide n (1 + n))) by (apply wide_ok; [lia|]; change (2 ^ 40)%N with 1099511627776%N; lia).
  split; auto. split; auto. intros. apply theta_jaccard_huge_disjoint_fails; auto; unfold wide; cbn [sk_entries].
  - destruct n; [lia|discriminate].
  - destruct n; [lia|discriminate].
  - intros h Ha Hb. apply in_map_iff in Ha as (x & <- & Hx). apply in_map_iff in Hb as (y & E & Hy).
    apply in_seq in Hx, Hy. apply Nat2N.inj in E. lia.
  - rewrite !map_length, !seq_length. change (2 ^ 26)%N with 67108864%N. lia.
Qed.

(** ** tuple *)

Lemma probe_found {A} (test : A -> ptest) fuel l mask stride idx start i :
  probe_loop fuel l test mask stride idx start = PFound i -> exists e, nth_error l i = Some e /\ test e = TMatch.
Proof.
  revert idx. induction fuel as [|f IH]; intros idx H; cbn [probe_loop] in H; [discriminate|].
  destruct (nth_error l (N.to_nat idx)) as [e|] eqn:Ee; [|discriminate]. destruct (test e) eqn:Et; try discriminate.
  - injection H as <-. eauto.
  - cbv zeta in H. destruct (_ =? start)%N; [discriminate|]. eauto.
Qed.
Lemma find_live (es : list (ent nat)) lg h i e : find ehash es lg h = PFound i -> nth_error es i = Some e -> In e (live ehash es).
Proof.
  intros H E. apply probe_found in H as (e' & E' & T). rewrite E in E'. injection E' as <-. unfold hash_test in T.
  apply live_In. split; [eapply nth_error_In; eauto|]. destruct (N.eqb_spec (ehash e) 0); [discriminate|auto].
Qed.
Lemma upd_same_id {A} (l : list A) : forall i e, nth_error l i = Some e -> upd i e l = l.
Proof. induction l as [|x r IH]; intros [|i] e H; cbn in *; try discriminate; [injection H as ->|rewrite IH]; auto. Qed.

Section TupleJaccard.
  Context {S : Type}.
  Variable ap : S -> S -> S.
  Notation hent := (ent nat).
  Notation hlive := (live (E := ent nat) ehash).
  Notation keep := (fun (x _ : nat) => x).

  Lemma keep_same (t : table hent) i e : nth_error (t_entries t) i = Some e ->
    set_entries t (upd i (fst e, snd e) (t_entries t)) = t.
  Proof. intros H. rewrite <- surjective_pairing, upd_same_id by auto. destruct t; auto. Qed.

  Lemma policy_inside (hp : list S) a b : a < length hp -> b < length hp -> exists hp', policy_apply ap hp a b = Some hp' /\ length hp' = length hp.
  Proof.
    intros Ha Hb. unfold policy_apply. destruct (nth_error hp a) eqn:Ea; [|apply nth_error_None in Ea; lia].
    destruct (nth_error hp b) eqn:Eb; [|apply nth_error_None in Eb; lia]. eexists. split; [reflexivity|]. apply upd_length.
  Qed.

  Lemma hunion_loop_keys uth ordered : forall l t (hp : list S) t', inside hp (hlive (t_entries t)) -> inside hp l ->
    tunion_loop 0 keep uth ordered l t = Some t' ->
    exists hp', hunion_loop ap uth ordered l t hp = Some (t', hp') /\ length hp' = length hp /\ inside hp' (hlive (t_entries t')).
  Proof.
    induction l as [|[h x] r IH]; intros t hp t' Vt Vl H; cbn [tunion_loop hunion_loop] in *.
    { injection H as <-. eauto. }
    assert (Vx : x < length hp) by (apply (Vl (h, x)); cbn; auto).
    assert (Vr : inside hp r) by (intros e He; apply Vl; cbn; auto).
    destruct (_ && _); [|destruct ordered; [injection H as <-; eauto|auto]].
    destruct (find ehash (t_entries t) (t_lgCur t) h) as [i|i| | |] eqn:Ef; try discriminate.
    - destruct (insert ehash (zent 0) t i (h, x)) as [t1|] eqn:Ei; [|discriminate].
      apply IH; auto. intros y Hy. destruct (insert_elive _ _ _ _ _ Ei y Hy) as [->|Hy']; auto.
    - destruct (nth_error (t_entries t) i) as [e|] eqn:Ee; [|discriminate].
      pose proof (find_live _ _ _ _ _ Ef Ee) as Hl. destruct (policy_inside hp (snd e) x) as (hp1 & E1 & L1); auto.
      rewrite E1. rewrite keep_same in H by auto.
      destruct (IH t hp1 t') as (hp' & E & L & V); auto.
      + intros y Hy. rewrite L1. auto.
      + intros y Hy. rewrite L1. auto.
      + exists hp'. split; auto. split; auto. congruence.
  Qed.

  Lemma hunion_update_keys u (hp : list S) s u' : inside hp (hlive (t_entries (tu_tab u))) -> inside hp (ts_entries s) ->
    tunion_update 0 keep u s = Some u' ->
    exists hp', hunion_update ap u hp s = Some (u', hp') /\ length hp' = length hp /\ inside hp' (hlive (t_entries (tu_tab u'))).
  Proof.
    intros Vt Vs H. unfold tunion_update, hunion_update in *. destruct (ts_empty s). { injection H as <-. eauto. }
    destruct (negb _); [discriminate|]. cbv zeta in *.
    destruct (tunion_loop _ _ _ _ _ _) as [t'|] eqn:El; [|discriminate]. injection H as <-.
    destruct (hunion_loop_keys _ _ _ (tup_nonempty (tu_tab u)) hp _ Vt Vs El) as (hp' & -> & L & V). eauto.
  Qed.

  Lemma hinter_match_keys o m : forall l t ms c (hp : list S) r, inside hp (hlive (t_entries t)) -> inside hp l -> inside hp ms ->
    tinter_match keep t o m l ms c = Some r ->
    exists hp', hinter_match ap t o m l ms c hp = Some (fst r, snd r, hp') /\ length hp' = length hp /\ inside hp' (fst r).
  Proof.
    induction l as [|[h x] r IH]; intros t ms c hp res Vt Vl Vm H; cbn [tinter_match hinter_match] in *.
    { injection H as <-. cbn. eauto. }
    assert (Vx : x < length hp) by (apply (Vl (h, x)); cbn; auto).
    assert (Vr : inside hp r) by (intros e He; apply Vl; cbn; auto).
    destruct (h <? t_theta t)%N; [|destruct o; [injection H as <-; cbn; eauto|auto]].
    destruct (find ehash (t_entries t) (t_lgCur t) h) as [i|i| | |] eqn:Ef; try discriminate; auto.
    destruct (length ms =? m); [discriminate|].
    destruct (nth_error (t_entries t) i) as [e|] eqn:Ee; [|discriminate].
    pose proof (find_live _ _ _ _ _ Ef Ee) as Hl. destruct (policy_inside hp (snd e) x) as (hp1 & E1 & L1); auto.
    rewrite E1. cbv zeta in H. rewrite keep_same in H by auto. rewrite <- surjective_pairing in H.
    destruct (IH t (ms ++ [e]) (c + 1) hp1 res) as (hp' & E & L & V); auto.
    - intros y Hy. rewrite L1. auto.
    - intros y Hy. rewrite L1. auto.
    - intros y Hy. rewrite L1. apply in_app_iff in Hy as [Hy|[<-|[]]]; auto.
    - exists hp'. split; auto. split; auto. congruence.
  Qed.

  Lemma clone_keys : forall (l : list hent) (hp : list S), inside hp l -> exists l' hp', clone_all hp l = Some (l', hp') /\ map fst l' = map fst l.
  Proof.
    induction l as [|[h x] r IH]; intros hp V; cbn [clone_all]; [eauto|].
    assert (Vx : x < length hp) by (apply (V (h, x)); cbn; auto).
    destruct (nth_error hp x) as [y|] eqn:E; [|apply nth_error_None in E; lia].
    destruct (IH (hp ++ [y])) as (l' & hp' & -> & F).
    { intros e He. rewrite app_length. assert (snd e < length hp) by (apply V; cbn; auto). lia. }
    eexists _, _. split; [reflexivity|]. cbn. congruence.
  Qed.

  Lemma hlive_empty lg nom rf th th0 e (hp : list S) : inside hp (hlive (t_entries (new_table (zent 0) lg nom rf th th0 e))).
  Proof. rewrite hlive_new. intros x []. Qed.

  Lemma hinter_update_keys x (hp : list S) s x' : inside hp (hlive (t_entries (ti_tab x))) -> inside hp (ts_entries s) ->
    tinter_update 0 keep x s = Some x' ->
    exists hp', hinter_update ap x hp s = Some (x', hp') /\ length hp' = length hp /\ inside hp' (hlive (t_entries (ti_tab x'))).
  Proof.
    intros Vt Vs H. unfold tinter_update, hinter_update in *. cbv zeta in *.
    destruct (t_empty (ti_tab x)). { injection H as <-. eauto. }
    destruct (negb (ts_empty s) && _); [discriminate|].
    destruct (ti_valid x && _). { injection H as <-. exists hp. auto. }
    destruct (length (ts_entries s) =? 0). { injection H as <-. exists hp. split; auto. split; auto. apply hlive_empty. }
    destruct (negb (ti_valid x)).
    - destruct (tinter_fill 0 (ts_entries s) _) as [t'|] eqn:Et; [|discriminate].
      destruct (t_num t' =? length (ts_entries s)); [|discriminate]. injection H as <-. exists hp. split; auto. split; auto.
      intros y Hy. cbn [ti_tab] in Hy. apply (tinter_fill_incl 0 _ _ _ Et) in Hy as [Hy|Hy]; auto. apply (hlive_empty _ _ _ _ _ _ hp y Hy).
    - match type of H with match ?q with _ => _ end = _ => destruct q as [[ms c]|] eqn:Em; [|discriminate] end.
      apply (hinter_match_keys _ _ _ _ _ _ hp) in Em; auto; [|intros y []]. destruct Em as (hp' & E & L & V). cbn [fst snd] in E, V. rewrite E.
      destruct (length (ts_entries s) <? c); [discriminate|]. destruct (negb (ts_ordered s) && _); [discriminate|].
      destruct (length ms =? 0). { injection H as <-. exists hp'. split; auto. split; auto. apply hlive_empty. }
      destruct (tinter_refill 0 ms _) as [t'|] eqn:Et; [|discriminate]. injection H as <-. exists hp'. split; auto. split; auto.
      intros y Hy. cbn [ti_tab] in Hy. apply (tinter_refill_incl 0 _ _ _ Et) in Hy as [Hy|Hy]; auto. apply (hlive_empty _ _ _ _ _ _ hp' y Hy).
  Qed.

  Variables (lb_k1 lb_kn ub_km1 ub_k0 : N -> N -> Q) (lb_mid ub_mid : N -> N -> N -> Q).
  Variable f_is_one : N -> bool.
  Notation jac := (jaccard lb_k1 lb_kn ub_km1 ub_k0 lb_mid ub_mid f_is_one).
  Notation hjac := (hjaccard lb_k1 lb_kn ub_km1 ub_k0 lb_mid ub_mid f_is_one ap).

  Lemma hcompute_union_keys (hp : list S) a b seed r : tinput seed a -> tinput seed b -> inside hp (ts_entries a) -> inside hp (ts_entries b) ->
    compute_union (erase_sk a) (erase_sk b) seed = Some r ->
    exists u hp', hcompute_union ap hp a b seed = Some (u, hp') /\ erase_sk u = r /\ length hp' = length hp /\ inside hp' (ts_entries u).
  Proof.
    intros [Wa Sa] [Wb Sb] Va Vb H. unfold compute_union, hcompute_union in *. cbv zeta in *.
    cbn [erase_sk sk_entries] in H. rewrite !map_length in H. set (lgK := jaccard_lgk _ _) in *.
    pose proof (good_jaccard (N.of_nat (length (ts_entries a))) (N.of_nat (length (ts_entries b)))) as ((HK & _) & Hrf & _). fold lgK in HK.
    destruct (tunion_update_ok 0 keep lgK 3 MaxTheta seed (new_tunion 0 lgK 3 MaxTheta seed) [] a HK Hrf) as (u1 & E1 & F1 & I1); auto.
    { apply new_tunion_inv; auto. }
    destruct (tunion_update_ok 0 keep lgK 3 MaxTheta seed u1 ([] ++ [a]) b HK Hrf I1) as (u2 & E2 & F2 & _); auto.
    destruct (hunion_update_keys (new_tunion 0 lgK 3 MaxTheta seed) hp a u1) as (hp1 & G1 & L1 & V1); auto.
    { apply hlive_empty. }
    destruct (hunion_update_keys u1 hp1 b u2) as (hp2 & G2 & L2 & V2); auto.
    { intros e He. rewrite L1. auto. }
    rewrite G1, G2.
    assert (En : eru (new_tunion 0 lgK 3 MaxTheta seed) = new_union lgK 3 MaxTheta seed).
    { unfold eru, new_tunion, new_union. cbn [tu_tab tu_theta tu_seed]. rewrite tup_new_er. auto. }
    rewrite En in F1. rewrite F1, F2, <- tunion_result_er in H.
    destruct (tunion_result u2 false) as [r'|] eqn:Er; [|discriminate]. cbn [option_map] in H. injection H as <-.
    exists r', hp2. split; auto. split; auto. split; [congruence|]. apply tunion_result_incl in Er. eapply inside_incl; eauto.
  Qed.

  Lemma hcompute_inter_keys (hp : list S) a b u seed i : inside hp (ts_entries a) -> inside hp (ts_entries b) -> inside hp (ts_entries u) ->
    compute_inter (erase_sk a) (erase_sk b) (erase_sk u) seed = Some i ->
    exists i' hp', hcompute_inter ap hp a b u seed = Some (i', hp') /\ erase_sk i' = i.
  Proof.
    intros Va Vb Vu H. unfold compute_inter, hcompute_inter in *.
    change (new_inter seed) with (eri (new_tinter 0 seed)) in H.
    rewrite <- (tinter_update_er 0 keep) in H. destruct (tinter_update 0 keep (new_tinter 0 seed) a) as [x1|] eqn:E1; [|discriminate]. cbn [option_map] in H.
    rewrite <- (tinter_update_er 0 keep) in H. destruct (tinter_update 0 keep x1 b) as [x2|] eqn:E2; [|discriminate]. cbn [option_map] in H.
    rewrite <- (tinter_update_er 0 keep) in H. destruct (tinter_update 0 keep x2 u) as [x3|] eqn:E3; [|discriminate]. cbn [option_map] in H.
    destruct (hinter_update_keys (new_tinter 0 seed) hp _ _ (hlive_empty _ _ _ _ _ _ hp) Va E1) as (hp1 & G1 & L1 & V1).
    assert (Vb' : inside hp1 (ts_entries b)) by (intros e He; rewrite L1; auto).
    destruct (hinter_update_keys _ hp1 _ _ V1 Vb' E2) as (hp2 & G2 & L2 & V2).
    assert (Vu' : inside hp2 (ts_entries u)) by (intros e He; rewrite L2, L1; auto).
    destruct (hinter_update_keys _ hp2 _ _ V2 Vu' E3) as (hp3 & G3 & L3 & V3).
    rewrite G1, G2, G3. rewrite <- tinter_result_er in H.
    unfold hinter_result, tinter_result in *. destruct (ti_valid x3); [|discriminate]. cbv zeta in *. cbn [option_map] in H.
    destruct (0 <? t_num (ti_tab x3)) eqn:En; cbn [andb] in *.
    - assert (Vl : inside hp3 (filter (fun e => negb (ehash e =? 0)%N) (t_entries (ti_tab x3)))).
      { intros e He. apply V3. exact He. }
      destruct (clone_keys _ hp3 Vl) as (l' & hp' & -> & Ef).
      eexists _, _. split; [reflexivity|]. injection H as <-. rewrite !tcompact_entries_er. f_equal. exact Ef.
    - eexists _, _. split; [reflexivity|]. injection H as <-. auto.
  Qed.

  (** The tuple versions decide by the keys alone, whatever the policy does and whatever objects are shared: their answers
      are those of the theta functions on the hashes of the two sketches. *)
  Theorem tuple_jaccard_as_theta : forall (hp : list S) same seed a b j, tinput seed a -> tinput seed b -> exist hp [a; b] ->
    jac same (erase_sk a) (erase_sk b) seed = Some j -> exists hp', hjac same hp a b seed = Some (j, hp').
  Proof.
    intros hp same seed a b j Ia Ib Hx H.
    assert (Va : inside hp (ts_entries a)).
    { intros e He. apply Hx. unfold all_objects. cbn [flat_map]. apply in_app_iff. left. apply in_map. auto. }
    assert (Vb : inside hp (ts_entries b)).
    { intros e He. apply Hx. unfold all_objects. cbn [flat_map]. rewrite app_nil_r. apply in_app_iff. right. apply in_map. auto. }
    unfold jaccard, hjaccard in *. destruct same. { injection H as <-. eauto. }
    change (sk_empty (erase_sk a)) with (ts_empty a) in H. change (sk_empty (erase_sk b)) with (ts_empty b) in H.
    destruct (ts_empty a && ts_empty b). { injection H as <-. eauto. }
    destruct (ts_empty a || ts_empty b). { injection H as <-. eauto. }
    destruct (compute_union (erase_sk a) (erase_sk b) seed) as [r|] eqn:Eu; [|discriminate].
    destruct (hcompute_union_keys hp a b seed r Ia Ib Va Vb Eu) as (u & hp1 & Hu & Er & L & V). rewrite Hu. subst r.
    change (view_of (erase_sk a)) with (tview_of a) in H. change (view_of (erase_sk b)) with (tview_of b) in H.
    change (view_of (erase_sk u)) with (tview_of u) in H.
    destruct (identical_sets _ _ _). { injection H as <-. eauto. }
    destruct (compute_inter _ _ _ seed) as [i|] eqn:Ei; [|discriminate].
    destruct (hcompute_inter_keys hp1 a b u seed i) as (i' & hp2 & -> & Ei'); auto; try (intros e He; rewrite L; auto; fail). subst i. change (view_of (erase_sk i')) with (tview_of i') in H. rewrite H. eauto.
  Qed.

  Theorem tuple_equal_as_theta : forall (hp : list S) same seed a b e, tinput seed a -> tinput seed b -> exist hp [a; b] ->
    is_exactly_equal same (erase_sk a) (erase_sk b) seed = Some e -> exists hp', his_exactly_equal ap same hp a b seed = Some (e, hp').
  Proof.
    intros hp same seed a b j Ia Ib Hx H.
    assert (Va : inside hp (ts_entries a)).
    { intros e He. apply Hx. unfold all_objects. cbn [flat_map]. apply in_app_iff. left. apply in_map. auto. }
    assert (Vb : inside hp (ts_entries b)).
    { intros e He. apply Hx. unfold all_objects. cbn [flat_map]. rewrite app_nil_r. apply in_app_iff. right. apply in_map. auto. }
    unfold is_exactly_equal, his_exactly_equal in *. destruct same. { injection H as <-. eauto. }
    change (sk_empty (erase_sk a)) with (ts_empty a) in H. change (sk_empty (erase_sk b)) with (ts_empty b) in H.
    destruct (ts_empty a && ts_empty b). { injection H as <-. eauto. }
    destruct (ts_empty a || ts_empty b). { injection H as <-. eauto. }
    destruct (compute_union (erase_sk a) (erase_sk b) seed) as [r|] eqn:Eu; [|discriminate].
    destruct (hcompute_union_keys hp a b seed r Ia Ib Va Vb Eu) as (u & hp1 & Hu & Er & L & V). rewrite Hu. subst r.
    injection H as <-. exists hp1. reflexivity.
  Qed.

  (** With a policy that leaves its first argument as it is, the comparison changes no summary. *)
  Section Quiet.
    Hypothesis quiet : forall x y, ap x y = x.

    Lemma policy_quiet (hp hp' : list S) a b : policy_apply ap hp a b = Some hp' -> hp' = hp.
    Proof.
      unfold policy_apply. destruct (nth_error hp a) eqn:Ea; [|discriminate]. destruct (nth_error hp b); [|discriminate].
      intros H. injection H as <-. rewrite quiet. apply upd_same_id. auto.
    Qed.
    Lemma hunion_loop_quiet uth o : forall l t (hp : list S) t' hp', hunion_loop ap uth o l t hp = Some (t', hp') -> hp' = hp.
    Proof.
      induction l as [|[h x] r IH]; intros t hp t' hp' H; cbn [hunion_loop] in H; [congruence|].
      destruct (_ && _) in H; [|destruct o; [congruence|eauto]].
      destruct (find ehash (t_entries t) (t_lgCur t) h) as [i|i| | |]; try discriminate.
      - destruct (insert ehash (zent 0) t i (h, x)); [eauto|discriminate].
      - destruct (nth_error (t_entries t) i); [|discriminate]. destruct (policy_apply ap hp _ x) as [hp1|] eqn:E; [|discriminate].
        apply policy_quiet in E as ->. eauto.
    Qed.
    Lemma hunion_update_quiet u (hp : list S) s u' hp' : hunion_update ap u hp s = Some (u', hp') -> hp' = hp.
    Proof.
      unfold hunion_update. destruct (ts_empty s); [congruence|]. destruct (negb _); [discriminate|]. cbv zeta.
      destruct (hunion_loop _ _ _ _ _ _) as [[t1 hp1]|] eqn:E; [|discriminate]. apply hunion_loop_quiet in E. congruence.
    Qed.
    Lemma hinter_match_quiet o m : forall l t ms c (hp : list S) r hp', hinter_match ap t o m l ms c hp = Some (r, hp') -> hp' = hp.
    Proof.
      induction l as [|[h x] r IH]; intros t ms c hp res hp' H; cbn [hinter_match] in H; [congruence|].
      destruct (h <? t_theta t)%N; [|destruct o; [congruence|eauto]].
      destruct (find ehash (t_entries t) (t_lgCur t) h) as [i|i| | |]; try discriminate; eauto.
      destruct (length ms =? m); [discriminate|]. destruct (nth_error (t_entries t) i); [|discriminate].
      destruct (policy_apply ap hp _ x) as [hp1|] eqn:E; [|discriminate]. apply policy_quiet in E as ->. eauto.
    Qed.
    Lemma hinter_update_quiet x (hp : list S) s x' hp' : hinter_update ap x hp s = Some (x', hp') -> hp' = hp.
    Proof.
      unfold hinter_update. cbv zeta. intros H.
      destruct (t_empty (ti_tab x)); [congruence|]. destruct (negb (ts_empty s) && _) in H; [discriminate|].
      destruct (ti_valid x && _) in H; [congruence|]. destruct (length (ts_entries s) =? 0); [congruence|].
      destruct (negb (ti_valid x)).
      - destruct (tinter_fill 0 _ _) as [t'|]; [|discriminate]. destruct (t_num t' =? _); congruence.
      - match type of H with match ?q with _ => _ end = _ => destruct q as [[[ms c] hp1]|] eqn:Em; [|discriminate] end.
        apply hinter_match_quiet in Em as ->.
        destruct (length (ts_entries s) <? c); [discriminate|]. destruct (negb (ts_ordered s) && _) in H; [discriminate|].
        destruct (length ms =? 0); [congruence|]. destruct (tinter_refill 0 _ _); congruence.
    Qed.
    Lemma clone_grows : forall (l : list hent) (hp : list S) l' hp', clone_all hp l = Some (l', hp') -> exists more, hp' = hp ++ more.
    Proof.
      induction l as [|[h x] r IH]; intros hp l' hp' H; cbn [clone_all] in H.
      { injection H as <- <-. exists []. rewrite app_nil_r. auto. }
      destruct (nth_error hp x); [|discriminate]. destruct (clone_all _ r) as [[l1 hp1]|] eqn:E; [|discriminate]. injection H as <- <-.
      apply IH in E as (more & ->). exists (s :: more). rewrite <- app_assoc. auto.
    Qed.

    Theorem tuple_jaccard_quiet_policy : forall (hp : list S) same seed a b j hp', hjac same hp a b seed = Some (j, hp') ->
      exists more, hp' = hp ++ more.
    Proof.
      intros hp same seed a b j hp' H. assert (Hn : exists more, hp = hp ++ more) by (exists []; rewrite app_nil_r; auto).
      unfold hjaccard in H. destruct same; [injection H as _ <-; auto|].
      destruct (ts_empty a && ts_empty b); [injection H as _ <-; auto|]. destruct (ts_empty a || ts_empty b); [injection H as _ <-; auto|].
      destruct (hcompute_union ap hp a b seed) as [[u hp1]|] eqn:Eu; [|discriminate].
      assert (hp1 = hp).
      { unfold hcompute_union in Eu. cbv zeta in Eu.
        match type of Eu with match ?q with _ => _ end = _ => destruct q as [[u1 h1]|] eqn:E1; [|discriminate] end.
        match type of Eu with match ?q with _ => _ end = _ => destruct q as [[u2 h2]|] eqn:E2; [|discriminate] end.
        destruct (tunion_result u2 false); [|discriminate]. apply hunion_update_quiet in E1, E2. congruence. }
      subst hp1. destruct (identical_sets _ _ _); [injection H as _ <-; auto|].
      destruct (hcompute_inter ap hp a b u seed) as [[i hp2]|] eqn:Ei; [|discriminate].
      destruct (three_bounds _ _ _ _ _ _ _ _ _); [|discriminate]. injection H as _ <-.
      unfold hcompute_inter in Ei.
      match type of Ei with match ?q with _ => _ end = _ => destruct q as [[u1 h1]|] eqn:E1; [|discriminate] end.
      match type of Ei with match ?q with _ => _ end = _ => destruct q as [[u2 h2]|] eqn:E2; [|discriminate] end.
      match type of Ei with match ?q with _ => _ end = _ => destruct q as [[u3 h3]|] eqn:E3; [|discriminate] end.
      apply hinter_update_quiet in E1, E2, E3. subst.
      unfold hinter_result in Ei. destruct (ti_valid u3); [|discriminate]. cbv zeta in Ei.
      destruct (0 <? t_num (ti_tab u3)).
      - destruct (clone_all hp _) as [[es hp3]|] eqn:Ec; [|discriminate]. injection Ei as _ <-. eapply clone_grows; eauto.
      - injection Ei as _ <-. auto.
    Qed.
  End Quiet.
End TupleJaccard.

(** Finding: a comparison changes the sketches it compares. IsExactlyEqual with a policy that adds: the first sketch holds key 100
    with summary 5 and, after being compared with a sketch that holds it with 7, key 100 with summary 12 (both functions
    pass the policy to a union that adopts the summary objects of its first input). *)
Theorem tuple_comparison_changes_input_refuted : exists (hp hp' : list nat) (a b : tsketch nat) seed e,
  tinput seed a /\ tinput seed b /\ separate hp [a; b] /\
  his_exactly_equal Nat.add false hp a b seed = Some (e, hp') /\
  ts_entries (reported 0 hp a) = [(100%N, 5)] /\ ts_entries (reported 0 hp' a) = [(100%N, 12)].
Proof.
  pose (a := mkTSketch [(100%N, 0)] MaxTheta 1 false true : tsketch nat).
  pose (b := mkTSketch [(100%N, 1); (200%N, 2)] MaxTheta 1 false true : tsketch nat).
  exists [5; 7; 9], [12; 7; 9], a, b, 1%N, false.
  assert (W : forall s : tsketch nat, s = a \/ s = b -> tinput 1 s).
  { intros s Hs. split; [|right; destruct Hs as [->| ->]; reflexivity]. unfold twf.
    destruct Hs as [->| ->]; constructor; cbn; try discriminate; try (unfold MaxTheta; lia).
    all: try (repeat constructor; cbn; intuition discriminate).
    all: try (intros h [<-|[]]; lia).
    all: try (intros h [<-|[<-|[]]]; lia).
    all: try (intros _; repeat constructor; lia). }
  split; [apply W; auto|]. split; [apply W; auto|].
  split. { split; [intros x [<-|[<-|[<-|[]]]]; cbn; lia|]. repeat constructor; cbn; intuition discriminate. }
  split; [vm_compute; reflexivity|]. split; reflexivity.
Qed.

(** ** Concrete cases *)
Definition ex_a : sketch := mkSketch [10; 20; 30]%N MaxTheta 7 false true.
Definition ex_b : sketch := mkSketch [20; 30; 40]%N MaxTheta 7 false true.
Definition ex_c : sketch := mkSketch [20; 30; 40]%N 50 7 false true.
Lemma ex_ok : jinput 7 ex_a /\ jinput 7 ex_b /\ jinput 7 ex_c.
Proof.
  split; [|split]; (split; [|right; reflexivity]; constructor; cbn; try discriminate; try (unfold MaxTheta; lia)).
  all: try (repeat constructor; cbn; intuition discriminate).
  all: try (intros h [<-|[<-|[<-|[]]]]; unfold MaxTheta; lia).
  all: intros _; repeat constructor; lia.
Qed.
Example ex_fits : fits ex_a ex_b.
Proof.
  split; [vm_compute; reflexivity|]. exists [10; 20; 30; 40]%N. split; [|vm_compute; discriminate].
  split; [repeat constructor; cbn; intuition discriminate|]. intros h. cbn. tauto.
Qed.
Example ex_jaccard : forall c1 c2 c3 c4 c5 c6 (one : N -> bool), one MaxTheta = true ->
  exists j, jaccard c1 c2 c3 c4 c5 c6 one false ex_a ex_b 7 = Some j /\ (j_estimate j == 2 # 4)%Q /\ (j_lower j == 2 # 4)%Q.
Proof.
  intros. destruct ex_ok as (A & B & _).
  destruct (theta_jaccard_exact c1 c2 c3 c4 c5 c6 one H 7 ex_a ex_b [20; 30]%N [10; 20; 30; 40]%N A B eq_refl eq_refl eq_refl eq_refl ex_fits)
    as (j & E & L & M & _).
  - split; [repeat constructor; cbn; intuition discriminate|]. intros h. cbn. intuition lia.
  - split; [repeat constructor; cbn; intuition discriminate|]. intros h. cbn. tauto.
  - discriminate.
  - exists j. split; auto.
Qed.
Example ex_equal : is_exactly_equal false ex_a ex_b 7 = Some false /\ is_exactly_equal false ex_b ex_b 7 = Some true /\
  is_exactly_equal false ex_b ex_c 7 = Some false.
Proof. split; [|split]; vm_compute; reflexivity. Qed.

Print Assumptions theta_jaccard_ratio.
Print Assumptions theta_jaccard_exact.
Print Assumptions theta_equal_correct.
Print Assumptions theta_jaccard_symmetric.
Print Assumptions theta_similar_exact.
Print Assumptions theta_jaccard_total_refuted.
Print Assumptions tuple_jaccard_as_theta.
Print Assumptions tuple_jaccard_quiet_policy.
Print Assumptions tuple_comparison_changes_input_refuted.
