(** * Serialization of CPC sketches: the round trip. *)
From Verif Require Import Base Bytes Arr BitPackModel BitPackProofs CpcTable CpcTableProofs CpcTableMore CpcModel CpcProofs CpcSketch CpcTables CpcCodeModel CpcCode CpcCodeTab CpcCodeRound CpcStateModel CpcStateBytes CpcStateCodec.
From Coq Require Import Sorted.
Local Open Scope nat_scope.

Lemma ss_lt l : StronglySorted N.le l -> NoDup l -> Sorted N.lt l.
Proof.
  intros S N. apply StronglySorted_Sorted. induction S as [|x l S IH F]; [constructor|]. inversion N; subst. constructor; auto.
  rewrite Forall_forall in *. intros y Hy. specialize (F y Hy). assert (x <> y) by (intros ->; auto). lia.
Qed.
Lemma sorted_ss l : Sorted N.lt l -> StronglySorted N.le l.
Proof.
  intros S. apply Sorted_StronglySorted in S; [|intros ? ? ?; apply N.lt_trans]. induction S as [|x l S IH F]; constructor; auto.
  rewrite Forall_forall in *. intros y Hy. specialize (F y Hy). lia.
Qed.
Lemma bound_lt32 lgK l : lgK <= 26 -> (forall x, In x l -> (x < 2 ^ N.of_nat (6 + lgK))%N) -> lt32 l.
Proof.
  intros H B. apply Forall_forall. intros x Hx. specialize (B x Hx). assert (2 ^ N.of_nat (6 + lgK) <= 4294967296)%N; [|lia].
  change 4294967296%N with (2 ^ 32)%N. apply N.pow_le_mono_r; lia.
Qed.
Lemma wf_count t : wf t -> (N.of_nat (t_n t) <= 67108864)%N.
Proof.
  intros W. pose proof (w_load _ W). pose proof (w_lg _ W). assert (N.of_nat (2 ^ t_lg t) <= 67108864)%N.
  { rewrite pow_N. change 67108864%N with (2 ^ 26)%N. apply N.pow_le_mono_r; lia. }
  lia.
Qed.

Section Round.
Variable F : Type.
Variable HO : hip_ops F.
Variable fbits : F -> N * N.
Variable fval : N * N -> F.
Notation cpcF := (cpc F).
Notation cst := (cstate F).
Notation rer := (reread F HO).

Definition same_pairs (t t' : option table) : Prop :=
  match t, t' with
  | None, None => True
  | Some t, Some t' => wf t' /\ t_vb t' = t_vb t /\ Permutation (pairs t') (pairs t)
  | _, _ => False
  end.
Record restored (s s' : cpcF) : Prop := {
  rs_lgK : c_lgK s' = c_lgK s; rs_n : c_n s' = c_n s; rs_merged : c_merged s' = c_merged s; rs_fi : c_fi s' = c_fi s; rs_off : c_off s' = c_off s;
  rs_win : c_win s' = c_win s; rs_tab : same_pairs (c_tab s) (c_tab s');
  rs_hip : c_hip s' = if c_merged s || (c_n s =? 0) then h_init HO (c_lgK s) else c_hip s }.

Lemma winv_perm lgK off fi w t t' cs : winv lgK off fi w t cs -> wf t' -> t_vb t' = t_vb t -> Permutation (pairs t') (pairs t) -> winv lgK off fi w t' cs.
Proof.
  intros [A1 A2 A3 A4 A5 A6 A7 A8 A9] W V P.
  assert (I : forall x, In x (pairs t') <-> In x (pairs t)) by (intros x; split; apply Permutation_in; auto; symmetry; auto).
  constructor; auto; [congruence| | |].
  - intros x H1 H2. rewrite I. auto.
  - intros x H1 H2. rewrite I. auto.
  - intros x H1 H2. rewrite I. auto.
Qed.

Lemma restored_inv s s' cs : inv s cs -> restored s s' -> inv s' cs.
Proof.
  intros [I1 I2 I3 I4] [R1 R2 R3 R4 R5 R6 R7 R8]. constructor; rewrite ?R1, ?R2, ?R4, ?R5, ?R6; auto.
  destruct I4 as [H|t H1 H2 H3 H4 H5|fi off w t H1 H2 H3 H4 H5]; cbn [same_pairs] in R7; destruct (c_tab s') as [t'|]; try tauto.
  - constructor; auto.
  - destruct R7 as (W & V & P). constructor; auto; [congruence|]. rewrite P. auto.
  - destruct R7 as (W & V & P). constructor; auto. eapply winv_perm; eauto.
Qed.

(** The surprising values stored in a state. *)
Record csv_ok (c : cst) (ps : list N) : Prop := {
  co_n : s_ncsv F c = length ps; co_ne : ps <> []; co_lim : (N.of_nat (length ps) <= 67108864)%N;
  co_s : exists arr, s_csv F c = Some arr /\ 0 < s_csvlen F c <= length arr /\ w32 (firstn (s_csvlen F c) arr) /\ (N.of_nat (s_csvlen F c) < 4294967296)%N /\
    uncompress_surprising (s_lgK F c) (length ps) (firstn (s_csvlen F c) arr) (s_csvlen F c) = Ok ps }.
Definition win_ok (c : cst) (n : nat) (w : list N) : Prop :=
  exists arr, s_cw F c = Some arr /\ 0 < s_cwlen F c <= length arr /\ w32 (firstn (s_cwlen F c) arr) /\ (N.of_nat (s_cwlen F c) < 4294967296)%N /\
    uncompress_window (s_lgK F c) n (firstn (s_cwlen F c) arr) (s_cwlen F c) = Ok w.

Lemma put_csv_ok (c : cst) (s : cpcF) ps : 4 <= c_lgK s <= 26 -> s_lgK F c = c_lgK s -> ps <> [] -> (N.of_nat (length ps) <= 67108864)%N -> (forall x, In x ps -> (x < 2 ^ N.of_nat (6 + c_lgK s))%N) ->
  (exists c', put_csv F c s ps = Ok c' /\ csv_ok c' ps /\ s_lgK F c' = s_lgK F c /\ s_hash F c' = s_hash F c /\ s_fi F c' = s_fi F c /\ s_merged F c' = s_merged F c /\
     s_n F c' = s_n F c /\ s_hip F c' = s_hip F c /\ s_cw F c' = s_cw F c /\ s_cwlen F c' = s_cwlen F c) \/
  (~ Sorted N.lt ps /\ put_csv F c s ps = Err).
Proof.
  intros H1 H2 H3 H4 H5. unfold put_csv. destruct (surprising_round (c_lgK s) ps H1 H3 H4 H5) as [(S & arr & W & E & HW & HB & HC & EU)|[S E]]; rewrite E; cbn [bindr]; [left|right; auto].
  eexists. split; [reflexivity|]. unfold set_csv. cbn [s_lgK s_hash s_fi s_merged s_n s_hip s_ncsv s_csv s_csvlen s_cw s_cwlen]. split; [|auto 10].
  constructor; auto. exists arr. cbn [s_lgK s_ncsv s_csv s_csvlen]. rewrite H2. auto.
Qed.

Lemma get_csv_ok c ps : csv_ok c ps -> get_csv F (rer c) = Ok ps.
Proof.
  intros [C1 C2 C3 (arr & E & HW & HB & HC & EU)]. unfold get_csv, reread. cbn [s_csv s_lgK s_ncsv s_csvlen]. rewrite E. cbn [option_map]. rewrite C1. auto.
Qed.

Lemma sort_small lgK qs : lgK <= 26 -> (forall x, In x qs -> (x < 2 ^ N.of_nat (6 + lgK))%N) -> NoDup qs -> ~ Sorted N.lt (isort qs) -> 17 < length qs.
Proof.
  intros H B ND NS. destruct (Nat.le_gt_cases (length qs) 17) as [L|L]; auto. exfalso. apply NS.
  pose proof (bound_lt32 lgK qs H B) as B32. apply ss_lt; [apply isort_sorted_17; auto|]. eapply Permutation_NoDup; [symmetry; apply isort_perm; auto|auto].
Qed.

Lemma from_new c seed : 4 <= s_lgK F c <= 26 -> from_state F HO (rer c) seed =
  uncompress F (rer c) (mkCpc seed (s_lgK F c) (s_n F c) (s_merged F c) (s_fi F (rer c)) (correct_offset (s_lgK F c) (s_n F c)) None None (s_hip F (rer c))).
Proof.
  intros H. unfold from_state, new_cpc. change (s_lgK F (rer c)) with (s_lgK F c). replace ((s_lgK F c <? 4) || (26 <? s_lgK F c)) with false by lia. reflexivity.
Qed.

Definition base (s : cpcF) (h : N) : cst := mkCs F (c_lgK s) h (c_fi s) (c_merged s) (c_n s) (c_hip s) 0 None 0 None 0.
Definition good (s : cpcF) (c : cst) : Prop :=
  cwf F fbits fval c /\ forall seed, exists s', from_state F HO (rer c) seed = Ok s' /\ c_seed s' = seed /\ restored s s'.
Definition outcome (s : cpcF) (h : N) : Prop :=
  (exists c, compress F (base s h) s = Ok c /\ good s c) \/
  (compress F (base s h) s = Err /\ exists t, c_tab s = Some t /\ 17 < t_n t).

Lemma n_bound (s : cpcF) cs : inv s cs -> (N.of_nat (c_n s) < 4294967296)%N /\ c_fi s <= 56.
Proof.
  intros [I1 I2 I3 I4]. pose proof (K_N _ I1). rewrite I3. inversion I4 as [H0|t H1 H2 H3 H4 H5|fi off w t H1 H2 H3 H4 H5]; subst.
  - cbn [length]. lia.
  - lia.
  - split; [|pose proof (wi_fi _ _ _ _ _ _ H5); lia]. assert (8 * length cs < 475 * 2 ^ c_lgK s) by nia. lia.
Qed.

Lemma outcome_empty s cs h : inv s cs -> (h < 65536)%N -> f64 F fbits fval (c_hip s) -> c_tab s = None -> outcome s h.
Proof.
  intros I Hh Hf Ht. destruct (n_bound s cs I) as [Bn Bf]. destruct I as [I1 I2 I3 I4]. inversion I4 as [H0|t H1 H2 H3 H4 H5|fi off w t H1 H2 H3 H4 H5]; subst; try congruence.
  cbn [length] in I3. left. exists (base s h).
  assert (FL : get_flavor F s = Empty) by (unfold get_flavor, determine_flavor; rewrite I3; reflexivity).
  split; [unfold compress; rewrite FL; auto|]. split.
  - constructor; cbn [base s_lgK s_hash s_fi s_merged s_n s_hip s_ncsv s_csv s_csvlen s_cw s_cwlen]; auto; try lia; rewrite Nat.eqb_refl; auto.
  - intros seed. rewrite from_new by (cbn [base s_lgK]; auto). unfold uncompress, get_flavor. cbn [base s_lgK s_n c_lgK c_n]. unfold determine_flavor. rewrite I3. cbn [Nat.eqb].
    eexists. split; [reflexivity|]. split; auto. constructor; cbn [c_lgK c_n c_merged c_fi c_off c_win c_tab c_hip c_seed]; auto.
    + unfold correct_offset. pose proof (pow2_pos (c_lgK s)). destruct (Nat.ltb_spec (8 * 0) (19 * 2 ^ c_lgK s)); [auto|lia].
    + rewrite Ht. exact Logic.I.
    + rewrite I3. unfold reread, base. cbn [s_hip s_merged s_ncsv s_cwlen s_lgK Nat.eqb andb]. auto.
Qed.

Lemma pairs_small t lgK : wf t -> t_vb t = 6 + lgK -> forall x, In x (pairs t) -> (x < 2 ^ N.of_nat (6 + lgK))%N.
Proof. intros W V x Hx. rewrite <- V. apply pairs_lt; auto. Qed.

Lemma from_table t lgK ps : lgK <= 26 -> wf t -> t_vb t = 6 + lgK -> Permutation ps (pairs t) ->
  exists t', from_pairs ps lgK = Ok t' /\ wf t' /\ t_vb t' = t_vb t /\ Permutation (pairs t') (pairs t).
Proof.
  intros H W V P. pose proof (w_lg _ W). pose proof (w_load _ W). pose proof (w_vb _ W).
  destruct (from_pairs_ok ps lgK (t_lg t)) as (t' & E & W' & V' & P').
  - eapply Permutation_NoDup; [symmetry; exact P|apply pairs_nodup; auto].
  - intros x Hx. eapply pairs_small; eauto. eapply Permutation_in; eauto.
  - lia.
  - lia.
  - rewrite (Permutation_length P), <- pairs_n by auto. lia.
  - exists t'. split; auto. split; auto. split; [congruence|]. rewrite P'. auto.
Qed.

Lemma csv_cwf (c : cst) ps : csv_ok c ps -> (s_ncsv F c =? 0) = false /\ exists ws, s_csv F c = Some ws /\ 0 < s_csvlen F c <= length ws /\ w32 (firstn (s_csvlen F c) ws) /\
  (N.of_nat (s_csvlen F c) < 4294967296)%N /\ (N.of_nat (s_ncsv F c) < 4294967296)%N.
Proof.
  intros [C1 C2 C3 (arr & E & HW & HB & HC & EU)]. split; [destruct ps; [congruence|]; cbn [length] in C1; lia|]. exists arr. rewrite C1. repeat split; auto; lia.
Qed.

Lemma outcome_sparse s cs t h : inv s cs -> (h < 65536)%N -> f64 F fbits fval (c_hip s) -> c_tab s = Some t -> c_win s = None -> outcome s h.
Proof.
  intros I Hh Hf Ht Hw. destruct (n_bound s cs I) as [Bn Bf]. pose proof (inv_offset s cs I) as OF. destruct I as [I1 [I2 I2b] I3 I4].
  inversion I4 as [|t0 H1 H2 H3 H4 H5 G1 G2 G3 G4|fi off w t0 H1 H2 H3 H4 H5 G1 G2 G3 G4]; try congruence. assert (t0 = t) by congruence. subst t0. rewrite <- G2 in OF.
  assert (FL : determine_flavor (c_lgK s) (c_n s) = Sparse).
  { unfold determine_flavor. rewrite I3. destruct (Nat.eqb_spec (length cs) 0); [lia|]. destruct (Nat.ltb_spec (32 * length cs) (3 * 2 ^ c_lgK s)); [auto|lia]. }
  destruct (unwrap_ok t H3) as (ps & Ep & Pp). pose proof (pairs_small t _ H3 H4) as PB.
  assert (PB' : forall x, In x ps -> (x < 2 ^ N.of_nat (6 + c_lgK s))%N) by (intros x Hx; apply PB; eapply Permutation_in; eauto).
  assert (PS : Permutation (isort ps) ps) by (apply isort_perm; apply (bound_lt32 (c_lgK s)); [lia|auto]).
  assert (ND : NoDup ps) by (eapply Permutation_NoDup; [symmetry; exact Pp|apply pairs_nodup; auto]).
  assert (LP : length ps = t_n t) by (rewrite (Permutation_length Pp), <- pairs_n; auto).
  pose proof (wf_count t H3) as WC. assert (LN : t_n t = c_n s) by (rewrite I3, pairs_n by auto; apply Permutation_length; auto).
  assert (EQ : compress F (base s h) s = put_csv F (base s h) s (isort ps)).
  { unfold compress, get_flavor. rewrite FL. unfold compress_sparse. rewrite Hw, Ht. cbn [of_opt bindr]. rewrite Ep. reflexivity. }
  destruct (put_csv_ok (base s h) s (isort ps)) as [(c & E & CO & F1 & F2 & F3 & F4 & F5 & F6 & F7 & F8)|(NS & E)]; auto.
  { intros E. apply (f_equal (@length N)) in E. rewrite (Permutation_length PS), LP, LN, I3 in E. cbn [length] in E. lia. }
  { rewrite (Permutation_length PS), LP. auto. }
  { intros x Hx. apply PB'. eapply Permutation_in; eauto. }
  - left. exists c. split; [rewrite EQ; auto|]. pose proof (csv_cwf c _ CO) as [CZ CW]. cbn [base s_lgK s_hash s_fi s_merged s_n s_hip s_cw s_cwlen] in *.
    assert (NC : s_ncsv F c = c_n s) by (rewrite (co_n _ _ CO), (Permutation_length PS); lia).
    split.
    + constructor; rewrite ?F1, ?F2, ?F3, ?F4, ?F5, ?F6, ?F7, ?F8; auto; try lia. { rewrite CZ. auto. } { cbn [Nat.eqb]. auto. }
    + intros seed. rewrite from_new by (rewrite F1; auto). unfold uncompress, get_flavor. cbn [c_lgK c_n]. rewrite F1, F5, FL. unfold uncompress_sparse.
      change (s_cw F (rer c)) with (option_map (firstn (s_cwlen F c)) (s_cw F c)). rewrite F7. cbn [option_map]. rewrite (get_csv_ok c _ CO). cbn [bindr].
      change (s_lgK F (rer c)) with (s_lgK F c). rewrite F1.
      destruct (from_table t (c_lgK s) (isort ps)) as (t' & E' & W' & V' & P'); auto; [lia|rewrite PS; auto|]. rewrite E'. cbn [bindr]. eexists. split; [reflexivity|]. split; auto.
      unfold set_data. constructor; cbn [c_lgK c_n c_merged c_fi c_off c_win c_tab c_hip c_seed]; auto.
      * unfold reread. cbn [s_fi]. rewrite F8. cbn [Nat.eqb]. auto.
      * rewrite <- G2. auto.
      * rewrite Ht. cbn [same_pairs]. auto.
      * unfold reread. cbn [s_hip]. rewrite F4, F6, F8, NC, F1. cbn [Nat.eqb]. rewrite andb_true_r. auto.
  - right. split; [rewrite EQ; auto|]. exists t. split; auto. rewrite <- LP. apply (sort_small (c_lgK s)); auto. lia.
Qed.

Lemma hybrid_cells lgK fi w t cs : winv lgK 0 fi w t cs -> okc lgK cs -> Permutation (pairs t ++ window_pairs w 0) cs.
Proof.
  intros W [ND LT]. pose proof (pairs_small t lgK (wi_wf _ _ _ _ _ _ W) (wi_vb _ _ _ _ _ _ W)) as PB.
  assert (HP : forall x, In x (pairs t) <-> In x cs /\ 8 <= col_of x).
  { intros x. split.
    - intros Hx. specialize (PB x Hx). destruct (Nat.le_gt_cases 8 (col_of x)) as [G|G]; [split; auto; apply (wi_high _ _ _ _ _ _ W); auto|].
      exfalso. apply (wi_mid _ _ _ _ _ _ W x PB); auto. lia.
    - intros [Hx G]. apply (wi_high _ _ _ _ _ _ W); auto. }
  assert (HW : forall x, In x (window_pairs w 0) <-> In x cs /\ col_of x < 8).
  { intros x. rewrite in_window_pairs, Nat.sub_0_r, (wi_len _ _ _ _ _ _ W). split.
    - intros (H1 & H2 & H3). split; auto. assert (Hx : (x < 2 ^ N.of_nat (6 + lgK))%N) by (apply row_lt; lia).
      destruct (wi_mid _ _ _ _ _ _ W x Hx) as [_ Q]; [lia|]. rewrite Nat.sub_0_r in Q. tauto.
    - intros [H1 H2]. specialize (LT x H1). pose proof (proj1 (row_lt _ _) LT). destruct (wi_mid _ _ _ _ _ _ W x LT) as [_ Q]; [lia|]. rewrite Nat.sub_0_r in Q. split; [lia|]. split; auto. tauto. }
  apply NoDup_Permutation; auto.
  - apply nodup_app; [apply pairs_nodup, (wi_wf _ _ _ _ _ _ W)|apply nodup_window_pairs|]. intros x H1 H2. apply HP in H1. apply HW in H2. lia.
  - intros x. rewrite in_app_iff, HP, HW. destruct (Nat.le_gt_cases 8 (col_of x)); intuition lia.
Qed.

Lemma hybrid_split lgK fi w t cs R : winv lgK 0 fi w t cs -> okc lgK cs -> Permutation R cs ->
  exists rest, split_hybrid R (repeat 0%N (2 ^ lgK)) = Ok (w, rest) /\ Permutation rest (pairs t).
Proof.
  intros W [ND LT] P. pose proof (pairs_small t lgK (wi_wf _ _ _ _ _ _ W) (wi_vb _ _ _ _ _ _ W)) as PB.
  assert (IR : forall x, In x R <-> In x cs) by (intros; split; apply Permutation_in; auto; symmetry; auto).
  destruct (split_hybrid_ok lgK R (repeat 0%N (2 ^ lgK))) as (w' & E & L & B & T).
  - apply repeat_length.
  - apply Forall_forall. intros y Hy. apply repeat_spec in Hy. subst. reflexivity.
  - intros x Hx. apply LT, IR; auto.
  - assert (w' = w).
    { apply win_ext; auto; [rewrite (wi_len _ _ _ _ _ _ W); auto|apply (wi_byte _ _ _ _ _ _ W)|].
      intros r c Hr Hc. assert (Hx : (mk_rc r c < 2 ^ N.of_nat (6 + lgK))%N) by (apply row_lt; rewrite row_mk by lia; lia).
      specialize (T (mk_rc r c)). destruct (wi_mid _ _ _ _ _ _ W (mk_rc r c) Hx) as [_ Q]; [rewrite col_mk by lia; lia|].
      rewrite Nat.sub_0_r in Q. rewrite row_mk, col_mk in Q, T by lia. rewrite nth_repeat, N.bits_0, IR in T. specialize (T Hc).
      destruct (N.testbit (nth r w' 0%N) (N.of_nat c)), (N.testbit (nth r w 0%N) (N.of_nat c)); intuition congruence. }
    subst w'. eexists. split; [exact E|]. apply NoDup_Permutation.
    + apply NoDup_filter. eapply Permutation_NoDup; [symmetry; exact P|auto].
    + apply pairs_nodup, (wi_wf _ _ _ _ _ _ W).
    + intros x. rewrite filter_In, IR. split.
      * intros [H1 H2]. apply (wi_high _ _ _ _ _ _ W); auto. destruct (Nat.ltb_spec (col_of x) 8); [discriminate|lia].
      * intros Hx. specialize (PB x Hx). destruct (Nat.ltb_spec (col_of x) 8) as [G|G].
        -- exfalso. apply (wi_mid _ _ _ _ _ _ W x PB); auto. lia.
        -- split; auto. apply (wi_high _ _ _ _ _ _ W); auto.
Qed.

Lemma outcome_hybrid s cs t w h : inv s cs -> (h < 65536)%N -> f64 F fbits fval (c_hip s) -> c_tab s = Some t -> c_win s = Some w -> 2 * c_n s < 2 ^ c_lgK s -> outcome s h.
Proof.
  intros I Hh Hf Ht Hw Hn. destruct (n_bound s cs I) as [Bn Bf]. pose proof (inv_offset s cs I) as OF. destruct I as [I1 OK I3 I4]. pose proof (K_N _ I1) as KN.
  inversion I4 as [|t0 H1 H2 H3 H4 H5 G1 G2 G3 G4|fi off w0 t0 H1 H2 H3 H4 H5 G1 G2 G3 G4]; try congruence. assert (t0 = t) by congruence. assert (w0 = w) by congruence. subst t0 w0.
  clear G1 G2 fi off. assert (G2 : c_off s = 0) by (destruct H3 as [H3|H3]; [exact H3|nia]). rewrite G2 in *. assert (G1 : c_fi s = 0) by (pose proof (wi_fi _ _ _ _ _ _ H5); lia).
  pose proof (wi_wf _ _ _ _ _ _ H5) as W. pose proof (wi_vb _ _ _ _ _ _ H5) as V. pose proof (wi_len _ _ _ _ _ _ H5) as WL.
  assert (FL : determine_flavor (c_lgK s) (c_n s) = Hybrid).
  { unfold determine_flavor. rewrite I3 in *. destruct (Nat.eqb_spec (length cs) 0); [nia|]. destruct (Nat.ltb_spec (32 * length cs) (3 * 2 ^ c_lgK s)); [lia|].
    destruct (Nat.ltb_spec (2 * length cs) (2 ^ c_lgK s)); [auto|lia]. }
  pose proof (hybrid_cells _ _ _ _ _ H5 OK) as HC. destruct OK as [ND LT].
  destruct (unwrap_ok t W) as (ps & Ep & Pp). pose proof (pairs_small t _ W V) as PB.
  assert (PB' : forall x, In x ps -> (x < 2 ^ N.of_nat (6 + c_lgK s))%N) by (intros x Hx; apply PB; eapply Permutation_in; eauto).
  assert (PS : Permutation (isort ps) ps) by (apply isort_perm; apply (bound_lt32 (c_lgK s)); [lia|auto]).
  assert (NDp : NoDup ps) by (eapply Permutation_NoDup; [symmetry; exact Pp|apply pairs_nodup; auto]).
  assert (LP : length ps = t_n t) by (rewrite (Permutation_length Pp), <- pairs_n; auto).
  assert (LI : length (isort ps) = t_n t) by (rewrite (Permutation_length PS); auto).
  set (wps := window_pairs w 0) in *.
  assert (LC : t_n t + length wps = c_n s) by (rewrite I3, <- (Permutation_length HC), app_length, <- pairs_n; auto).
  destruct (merge_pairs_perm (isort ps) wps (repeat 0%N (t_n t))) as (R & ER & PR & SR); [rewrite repeat_length; auto|].
  assert (PRc : Permutation R cs) by (rewrite PR, PS, Pp; auto).
  assert (EQ : compress F (base s h) s = put_csv F (base s h) s R).
  { unfold compress, get_flavor. rewrite FL. unfold compress_hybrid. rewrite Hw, Ht. cbn [of_opt bindr]. rewrite Ep. cbn [bindr]. rewrite G2. cbn [Nat.eqb negb].
    destruct (Nat.ltb_spec (c_n s) (t_n t)); [lia|]. destruct (N.leb_spec 2147483647 (N.of_nat (c_n s - t_n t))); [lia|].
    unfold tricky_get. destruct (Nat.ltb_spec (length w) (2 ^ c_lgK s)); [lia|]. rewrite <- WL, firstn_all. fold wps.
    destruct (Nat.ltb_spec (c_n s - t_n t) (length wps)); [lia|]. destruct (Nat.ltb_spec (length wps) (c_n s - t_n t)); [lia|]. cbn [bindr].
    rewrite LI in ER. replace (c_n s - t_n t) with (length wps) by lia. rewrite ER. reflexivity. }
  destruct (put_csv_ok (base s h) s R) as [(c & E & CO & F1 & F2 & F3 & F4 & F5 & F6 & F7 & F8)|(NS & E)]; auto.
  { intros E. rewrite E in PRc. apply Permutation_length in PRc. cbn [length] in PRc. nia. }
  { rewrite (Permutation_length PRc). lia. }
  { intros x Hx. apply LT. eapply Permutation_in; eauto. }
  - left. exists c. split; [rewrite EQ; auto|]. pose proof (csv_cwf c _ CO) as [CZ CW]. cbn [base s_lgK s_hash s_fi s_merged s_n s_hip s_cw s_cwlen] in *.
    assert (NC : s_ncsv F c = c_n s) by (rewrite (co_n _ _ CO), (Permutation_length PRc); lia).
    split.
    + constructor; rewrite ?F1, ?F2, ?F3, ?F4, ?F5, ?F6, ?F7, ?F8; auto; try lia. { rewrite CZ. auto. } { cbn [Nat.eqb]. auto. }
    + intros seed. rewrite from_new by (rewrite F1; auto). unfold uncompress, get_flavor. cbn [c_lgK c_n]. rewrite F1, F5, FL. unfold uncompress_hybrid.
      change (s_cw F (rer c)) with (option_map (firstn (s_cwlen F c)) (s_cw F c)). rewrite F7. cbn [option_map]. rewrite (get_csv_ok c _ CO). cbn [bindr].
      unfold window_offset. change (s_lgK F (rer c)) with (s_lgK F c). change (s_n F (rer c)) with (s_n F c). rewrite F1, F5, <- OF.
      destruct (hybrid_split _ _ _ _ _ R H5 (conj ND LT) PRc) as (rest & E2 & P2). rewrite E2. cbn [bindr Nat.eqb negb].
      destruct (from_table t (c_lgK s) rest) as (t' & E' & W' & V' & P'); auto; [lia|]. rewrite E'. cbn [bindr]. eexists. split; [reflexivity|]. split; auto.
      unfold set_data. constructor; cbn [c_lgK c_n c_merged c_fi c_off c_win c_tab c_hip c_seed]; auto.
      * unfold reread. cbn [s_fi]. rewrite F8. cbn [Nat.eqb]. auto.
      * rewrite Ht. cbn [same_pairs]. auto.
      * unfold reread. cbn [s_hip]. rewrite F4, F6, F8, NC, F1. cbn [Nat.eqb]. rewrite andb_true_r. auto.
  - right. split; [rewrite EQ; auto|]. exists t. split; auto. rewrite <- LP. apply (sort_small (c_lgK s)); auto; [lia|].
    intros S. apply NS. apply ss_lt; [|eapply Permutation_NoDup; [symmetry; exact PRc|auto]]. apply SR.
    + eapply Permutation_Forall; [symmetry; exact PS|]. apply (bound_lt32 (c_lgK s)); [lia|auto].
    + apply (bound_lt32 (c_lgK s)); [lia|]. intros x Hx. apply LT. eapply Permutation_in; [exact HC|]. apply in_app_iff; auto.
    + apply sorted_ss; auto.
    + apply sorted_ss, sorted_window_pairs.
Qed.

(** The fields that the streams do not touch. *)
Definition same_head (c c' : cst) : Prop :=
  s_lgK F c' = s_lgK F c /\ s_hash F c' = s_hash F c /\ s_fi F c' = s_fi F c /\ s_merged F c' = s_merged F c /\ s_n F c' = s_n F c /\ s_hip F c' = s_hip F c.

Lemma put_win_ok (c : cst) (s : cpcF) w : 4 <= c_lgK s <= 26 -> s_lgK F c = c_lgK s -> c_win s = Some w -> length w = 2 ^ c_lgK s -> Forall (fun b => (b < 256)%N) w ->
  exists c', put_win F c s = Ok c' /\ win_ok c' (c_n s) w /\ same_head c c' /\ s_ncsv F c' = s_ncsv F c /\ s_csv F c' = s_csv F c /\ s_csvlen F c' = s_csvlen F c.
Proof.
  intros H1 H2 H3 H4 H5. unfold put_win. rewrite H3. destruct (window_round (c_lgK s) (c_n s) w H1 H4 H5) as (arr & W & E & HW & HB & HC & EU). rewrite E. cbn [bindr].
  eexists. split; [reflexivity|]. unfold set_cw, same_head. cbn [s_lgK s_hash s_fi s_merged s_n s_hip s_ncsv s_csv s_csvlen s_cw s_cwlen]. split; [|auto 10].
  exists arr. cbn [s_lgK s_cw s_cwlen]. rewrite H2. auto.
Qed.

Lemma enc_ok (c1 : cst) (s : cpcF) t f g : 4 <= c_lgK s <= 26 -> s_lgK F c1 = c_lgK s -> wf t -> t_vb t = 6 + c_lgK s -> t_n t <> 0 ->
  (forall x, In x (pairs t) -> exists y, f x = Ok y /\ g y = Ok x /\ (y < 2 ^ N.of_nat (6 + c_lgK s))%N) ->
  exists ps qs, unwrap t (t_n t) = Ok ps /\ map_res f ps = Ok qs /\
    ((exists c' rs, put_csv F c1 s (isort qs) = Ok c' /\ csv_ok c' (isort qs) /\ same_head c1 c' /\ s_cw F c' = s_cw F c1 /\ s_cwlen F c' = s_cwlen F c1 /\
        map_res g (isort qs) = Ok rs /\ Permutation rs (pairs t)) \/
     (put_csv F c1 s (isort qs) = Err /\ 17 < t_n t)).
Proof.
  intros H1 H2 W V Hn HF. destruct (unwrap_ok t W) as (ps & Ep & Pp).
  destruct (map_res_inv f g ps) as (qs & E1 & E2 & L & IQ).
  { intros x Hx. destruct (HF x) as (y & ? & ? & _); [eapply Permutation_in; eauto|]. eauto. }
  exists ps, qs. split; auto. split; auto.
  assert (LP : length ps = t_n t) by (rewrite (Permutation_length Pp), <- pairs_n; auto).
  assert (NDp : NoDup ps) by (eapply Permutation_NoDup; [symmetry; exact Pp|apply pairs_nodup; auto]).
  assert (NDq : NoDup qs) by (eapply map_res_nodup; eauto).
  assert (QB : forall y, In y qs -> (y < 2 ^ N.of_nat (6 + c_lgK s))%N).
  { intros y Hy. destruct (IQ y Hy) as (x & Hx & Fx & _). destruct (HF x) as (y' & Fy & _ & B); [eapply Permutation_in; eauto|]. congruence. }
  assert (PS : Permutation (isort qs) qs) by (apply isort_perm; apply (bound_lt32 (c_lgK s)); [lia|auto]).
  pose proof (wf_count t W) as WC.
  destruct (put_csv_ok c1 s (isort qs)) as [(c & E & CO & F1 & F2 & F3 & F4 & F5 & F6 & F7 & F8)|(NS & E)]; auto.
  { intros E. apply (f_equal (@length N)) in E. rewrite (Permutation_length PS), L, LP in E. auto. }
  { rewrite (Permutation_length PS), L, LP. auto. }
  { intros x Hx. apply QB. eapply Permutation_in; eauto. }
  - left. destruct (map_res_perm g qs (isort qs)) with (c := ps) as (rs & E3 & P3); auto; [symmetry; auto|].
    exists c, rs. unfold same_head. rewrite <- Pp, P3. auto 20.
  - right. split; auto. rewrite <- LP, <- L. apply (sort_small (c_lgK s)); auto. lia.
Qed.

(** A state with a window. *)
Lemma win_cwf s cs c w : inv s cs -> c_win s = Some w -> same_head (base s 0) (mkCs F (s_lgK F c) 0 (s_fi F c) (s_merged F c) (s_n F c) (s_hip F c) 0 None 0 None 0) ->
  (s_hash F c < 65536)%N -> f64 F fbits fval (c_hip s) -> win_ok c (c_n s) w -> ((s_ncsv F c = 0 /\ s_csv F c = None /\ s_csvlen F c = 0) \/ exists ps, csv_ok c ps) ->
  cwf F fbits fval c /\ uncompress_window (s_lgK F (rer c)) (s_n F (rer c)) (firstn (s_cwlen F c) match s_cw F c with Some l => l | None => [] end) (s_cwlen F c) = Ok w /\
  s_cw F (rer c) = Some (firstn (s_cwlen F c) match s_cw F c with Some l => l | None => [] end) /\
  s_fi F (rer c) = c_fi s /\ s_hip F (rer c) = (if c_merged s || (c_n s =? 0) then h_init HO (c_lgK s) else c_hip s).
Proof.
  intros I Hw (F1 & _ & F3 & F4 & F5 & F6) Hh Hf (arr & E & HW & HB & HC & EU) HS. cbn [base s_lgK s_hash s_fi s_merged s_n s_hip] in *.
  destruct (n_bound s cs I) as [Bn Bf]. destruct I as [I1 OK I3 I4]. pose proof (K_N _ I1) as KN.
  assert (CN : (c_n s =? 0) = false).
  { rewrite I3. inversion I4; try congruence. destruct (Nat.eqb_spec (length cs) 0); auto. lia. }
  assert (CL : (s_cwlen F c =? 0) = false) by (destruct (Nat.eqb_spec (s_cwlen F c) 0); auto; lia).
  rewrite E. split; [|split; [|split; [|split]]].
  - constructor; rewrite ?F1, ?F3, ?F5, ?F6; auto; try lia.
    + destruct HS as [(C1 & C2 & C3)|(ps & CO)]; [rewrite C1; cbn [Nat.eqb]; auto|]. destruct (csv_cwf c ps CO) as [CZ CW]. rewrite CZ. auto.
    + rewrite CL. exists arr. repeat split; auto; lia.
  - unfold reread. cbn [s_lgK s_n]. rewrite F5. auto.
  - unfold reread. cbn [s_cw]. rewrite E. auto.
  - unfold reread. cbn [s_fi]. rewrite CL. auto.
  - unfold reread. cbn [s_hip]. rewrite CL, andb_false_r, orb_false_r, CN, orb_false_r, F4, F1, F6. auto.
Qed.

Lemma new_wf lgK : exists t, new_table 2 (6 + lgK) = Ok t /\ wf t /\ t_vb t = 6 + lgK /\ pairs t = [].
Proof.
  destruct (from_pairs_ok [] lgK 2) as (t & E & W & V & P); [constructor|intros ? []|lia|lia|cbn; lia|].
  exists t. split; [exact E|]. split; auto. split; auto. apply Permutation_nil. symmetry. auto.
Qed.

Lemma outcome_pinned s cs t w h : inv s cs -> (h < 65536)%N -> f64 F fbits fval (c_hip s) -> c_tab s = Some t -> c_win s = Some w -> 2 ^ c_lgK s <= 2 * c_n s -> 8 * c_n s < 27 * 2 ^ c_lgK s -> outcome s h.
Proof.
  intros I Hh Hf Ht Hw Hn Hn2. pose proof I as II. pose proof (inv_offset s cs I) as OF. destruct I as [I1 OK I3 I4]. pose proof (K_N _ I1) as KN.
  inversion I4 as [|t0 H1 H2 H3 H4 H5 G1 G2 G3 G4|fi off w0 t0 H1 H2 H3 H4 H5 G1 G2 G3 G4]; try congruence. assert (t0 = t) by congruence. assert (w0 = w) by congruence. subst t0 w0.
  clear G1 G2 fi off. assert (G2 : c_off s = 0) by (destruct H3 as [H3|H3]; [exact H3|nia]). rewrite G2 in *.
  pose proof (wi_wf _ _ _ _ _ _ H5) as W. pose proof (wi_vb _ _ _ _ _ _ H5) as V. pose proof (wi_len _ _ _ _ _ _ H5) as WL. pose proof (pairs_small t _ W V) as PB.
  assert (FL : determine_flavor (c_lgK s) (c_n s) = Pinned).
  { unfold determine_flavor. destruct (Nat.eqb_spec (c_n s) 0); [nia|]. destruct (Nat.ltb_spec (32 * c_n s) (3 * 2 ^ c_lgK s)); [lia|].
    destruct (Nat.ltb_spec (2 * c_n s) (2 ^ c_lgK s)); [lia|]. destruct (Nat.ltb_spec (8 * c_n s) (27 * 2 ^ c_lgK s)); [auto|lia]. }
  destruct (put_win_ok (base s h) s w) as (c1 & E1 & WO & SH & C1 & C2 & C3); auto; [apply (wi_byte _ _ _ _ _ _ H5)|].
  cbn [base s_ncsv s_csv s_csvlen] in C1, C2, C3. pose proof SH as (F1 & F2 & F3 & F4 & F5 & F6). cbn [base s_lgK s_hash s_fi s_merged s_n s_hip] in F1, F2, F3, F4, F5, F6.
  destruct (Nat.eq_dec (t_n t) 0) as [Z|Z].
  - left. exists c1. split.
    { unfold compress, get_flavor. rewrite FL. unfold compress_pinned. rewrite E1, Ht. cbn [bindr of_opt]. rewrite Z. reflexivity. }
    destruct (win_cwf s cs c1 w) as (CW & EU & ES & EF & EH); auto; [unfold same_head; cbn [base s_lgK s_hash s_fi s_merged s_n s_hip]; auto 10|rewrite F2; auto|].
    split; auto. intros seed. rewrite from_new by (rewrite F1; auto). unfold uncompress, get_flavor. cbn [c_lgK c_n]. rewrite F1, F5, FL. unfold uncompress_pinned.
    rewrite ES. change (s_cwlen F (rer c1)) with (s_cwlen F c1). rewrite EU. cbn [bindr]. change (s_ncsv F (rer c1)) with (s_ncsv F c1). rewrite C1. cbn [Nat.eqb].
    change (s_lgK F (rer c1)) with (s_lgK F c1). rewrite F1. destruct (new_wf (c_lgK s)) as (t' & Et & W' & V' & P'). rewrite Et. cbn [bindr].
    eexists. split; [reflexivity|]. split; auto. unfold set_data. constructor; cbn [c_lgK c_n c_merged c_fi c_off c_win c_tab c_hip c_seed]; auto; [congruence|].
    rewrite Ht. cbn [same_pairs]. split; auto. split; [congruence|]. rewrite P'. rewrite pairs_n in Z by auto. destruct (pairs t); [auto|discriminate].
  - destruct (enc_ok c1 s t pin_enc pin_dec) as (ps & qs & Ep & Eq & [(c & rs & E & CO & SH2 & D1 & D2 & ER & PR)|[E L]]); auto.
    { intros x Hx. specialize (PB x Hx). rewrite lim_val in *. apply pin_inv; auto.
      destruct (Nat.le_gt_cases 8 (col_of x)) as [G|G]; auto. exfalso. rewrite <- lim_val in PB. apply (wi_mid _ _ _ _ _ _ H5 x PB); auto. lia. }
    + left. exists c. split.
      { unfold compress, get_flavor. rewrite FL. unfold compress_pinned. rewrite E1, Ht. cbn [bindr of_opt]. apply Nat.eqb_neq in Z. rewrite Z, Ep. cbn [bindr]. rewrite Eq. exact E. }
      destruct SH2 as (S1 & S2 & S3 & S4 & S5 & S6). rewrite F1 in S1. rewrite F2 in S2. rewrite F3 in S3. rewrite F4 in S4. rewrite F5 in S5. rewrite F6 in S6.
      assert (WO' : win_ok c (c_n s) w) by (unfold win_ok in *; rewrite D1, D2, S1, <- F1; exact WO).
      destruct (win_cwf s cs c w) as (CW & EU & ES & EF & EH); auto; [unfold same_head; cbn [base s_lgK s_hash s_fi s_merged s_n s_hip]; auto 10|rewrite S2; auto|right; eauto|].
      split; auto. intros seed. rewrite from_new by (rewrite S1; auto). unfold uncompress, get_flavor. cbn [c_lgK c_n]. rewrite S1, S5, FL. unfold uncompress_pinned.
      rewrite ES. change (s_cwlen F (rer c)) with (s_cwlen F c). rewrite EU. cbn [bindr]. change (s_ncsv F (rer c)) with (s_ncsv F c). destruct (csv_cwf c _ CO) as [CZ _]. rewrite CZ.
      rewrite (get_csv_ok c _ CO). cbn [bindr]. rewrite ER. cbn [bindr]. change (s_lgK F (rer c)) with (s_lgK F c). rewrite S1.
      destruct (from_table t (c_lgK s) rs) as (t' & E' & W' & V' & P'); auto; [lia|]. rewrite E'. cbn [bindr].
      eexists. split; [reflexivity|]. split; auto. unfold set_data. constructor; cbn [c_lgK c_n c_merged c_fi c_off c_win c_tab c_hip c_seed]; auto; [congruence|].
      rewrite Ht. cbn [same_pairs]. auto.
    + right. split; [|eauto]. unfold compress, get_flavor. rewrite FL. unfold compress_pinned. rewrite E1, Ht. cbn [bindr of_opt]. apply Nat.eqb_neq in Z. rewrite Z, Ep. cbn [bindr]. rewrite Eq. exact E.
Qed.

Lemma outcome_sliding s cs t w h : inv s cs -> (h < 65536)%N -> f64 F fbits fval (c_hip s) -> c_tab s = Some t -> c_win s = Some w -> 27 * 2 ^ c_lgK s <= 8 * c_n s -> outcome s h.
Proof.
  intros I Hh Hf Ht Hw Hn. pose proof I as II. pose proof (inv_offset s cs I) as OF. destruct I as [I1 OK I3 I4]. pose proof (K_N _ I1) as KN.
  inversion I4 as [|t0 H1 H2 H3 H4 H5 G1 G2 G3 G4|fi off w0 t0 H1 H2 H3 H4 H5 G1 G2 G3 G4]; try congruence. assert (t0 = t) by congruence. assert (w0 = w) by congruence. subst t0 w0.
  clear G1 G2 fi off. assert (G2 : 1 <= c_off s <= 56) by (rewrite I3 in Hn; split; [|auto]; destruct (Nat.eq_dec (c_off s) 0) as [Z|Z]; [rewrite Z in *; lia|lia]).
  pose proof (wi_wf _ _ _ _ _ _ H5) as W. pose proof (wi_vb _ _ _ _ _ _ H5) as V. pose proof (wi_len _ _ _ _ _ _ H5) as WL. pose proof (pairs_small t _ W V) as PB.
  assert (FL : determine_flavor (c_lgK s) (c_n s) = Sliding).
  { unfold determine_flavor. destruct (Nat.eqb_spec (c_n s) 0); [nia|]. destruct (Nat.ltb_spec (32 * c_n s) (3 * 2 ^ c_lgK s)); [lia|].
    destruct (Nat.ltb_spec (2 * c_n s) (2 ^ c_lgK s)); [lia|]. destruct (Nat.ltb_spec (8 * c_n s) (27 * 2 ^ c_lgK s)); [lia|auto]. }
  destruct (phase_lt (c_lgK s) (c_n s)) as (p & EP & _ & P16); [lia|]. specialize (P16 Hn). destruct (perm_facts p P16) as (perm & dec & N1 & N2 & PF).
  assert (P16b : (16 <=? p) = false) by (apply Nat.leb_gt; auto).
  assert (OB : (c_off s =? 0) || (56 <? c_off s) = false) by lia.
  destruct (put_win_ok (base s h) s w) as (c1 & E1 & WO & SH & C1 & C2 & C3); auto; [apply (wi_byte _ _ _ _ _ _ H5)|].
  cbn [base s_ncsv s_csv s_csvlen] in C1, C2, C3. pose proof SH as (F1 & F2 & F3 & F4 & F5 & F6). cbn [base s_lgK s_hash s_fi s_merged s_n s_hip] in F1, F2, F3, F4, F5, F6.
  destruct (Nat.eq_dec (t_n t) 0) as [Z|Z].
  - left. exists c1. split.
    { unfold compress, get_flavor. rewrite FL. unfold compress_sliding. rewrite E1, Ht. cbn [bindr of_opt]. rewrite Z. reflexivity. }
    destruct (win_cwf s cs c1 w) as (CW & EU & ES & EF & EH); auto; [unfold same_head; cbn [base s_lgK s_hash s_fi s_merged s_n s_hip]; auto 10|rewrite F2; auto|].
    split; auto. intros seed. rewrite from_new by (rewrite F1; auto). unfold uncompress, get_flavor. cbn [c_lgK c_n]. rewrite F1, F5, FL. unfold uncompress_sliding.
    rewrite ES. change (s_cwlen F (rer c1)) with (s_cwlen F c1). rewrite EU. cbn [bindr]. change (s_ncsv F (rer c1)) with (s_ncsv F c1). rewrite C1. cbn [Nat.eqb].
    change (s_lgK F (rer c1)) with (s_lgK F c1). rewrite F1. destruct (new_wf (c_lgK s)) as (t' & Et & W' & V' & P'). rewrite Et. cbn [bindr].
    eexists. split; [reflexivity|]. split; auto. unfold set_data. constructor; cbn [c_lgK c_n c_merged c_fi c_off c_win c_tab c_hip c_seed]; auto.
    rewrite Ht. cbn [same_pairs]. split; auto. split; [congruence|]. rewrite P'. rewrite pairs_n in Z by auto. destruct (pairs t); [auto|discriminate].
  - assert (EQ : forall c1', put_win F (base s h) s = Ok c1' -> forall ps qs, unwrap t (t_n t) = Ok ps -> map_res (slide_enc perm (c_off s)) ps = Ok qs ->
       compress F (base s h) s = put_csv F c1' s (isort qs)).
    { intros c1' E1' ps qs Ep Eq. unfold compress, get_flavor. rewrite FL. unfold compress_sliding. rewrite E1', Ht. cbn [bindr of_opt].
      assert (Zb := Z). apply Nat.eqb_neq in Zb. rewrite Zb, Ep. cbn [bindr]. rewrite EP. cbn [bindr]. rewrite P16b, N1. cbn [bindr of_opt]. rewrite OB, Eq. reflexivity. }
    destruct (enc_ok c1 s t (slide_enc perm (c_off s)) (slide_dec dec (c_off s))) as (ps & qs & Ep & Eq & [(c & rs & E & CO & SH2 & D1 & D2 & ER & PR)|[E L]]); auto.
    { intros x Hx. specialize (PB x Hx). rewrite lim_val in *. apply slide_inv; auto. rewrite <- lim_val in PB.
      destruct (Nat.lt_ge_cases (col_of x) (c_off s)) as [G|G]; auto. destruct (Nat.le_gt_cases (c_off s + 8) (col_of x)) as [G'|G']; auto.
      exfalso. apply (wi_mid _ _ _ _ _ _ H5 x PB); auto. }
    + left. exists c. split; [rewrite (EQ c1 E1 ps qs); auto|].
      destruct SH2 as (S1 & S2 & S3 & S4 & S5 & S6). rewrite F1 in S1. rewrite F2 in S2. rewrite F3 in S3. rewrite F4 in S4. rewrite F5 in S5. rewrite F6 in S6.
      assert (WO' : win_ok c (c_n s) w) by (unfold win_ok in *; rewrite D1, D2, S1, <- F1; exact WO).
      destruct (win_cwf s cs c w) as (CW & EU & ES & EF & EH); auto; [unfold same_head; cbn [base s_lgK s_hash s_fi s_merged s_n s_hip]; auto 10|rewrite S2; auto|right; eauto|].
      split; auto. intros seed. rewrite from_new by (rewrite S1; auto). unfold uncompress, get_flavor. cbn [c_lgK c_n]. rewrite S1, S5, FL. unfold uncompress_sliding.
      rewrite ES. change (s_cwlen F (rer c)) with (s_cwlen F c). rewrite EU. cbn [bindr]. change (s_ncsv F (rer c)) with (s_ncsv F c). destruct (csv_cwf c _ CO) as [CZ _]. rewrite CZ.
      rewrite (get_csv_ok c _ CO). cbn [bindr]. unfold window_offset. change (s_lgK F (rer c)) with (s_lgK F c). change (s_n F (rer c)) with (s_n F c). rewrite S1, S5, EP. cbn [bindr].
      rewrite P16b, N2. cbn [bindr]. rewrite <- OF, OB, ER. cbn [bindr].
      destruct (from_table t (c_lgK s) rs) as (t' & E' & W' & V' & P'); auto; [lia|]. rewrite E'. cbn [bindr].
      eexists. split; [reflexivity|]. split; auto. unfold set_data. constructor; cbn [c_lgK c_n c_merged c_fi c_off c_win c_tab c_hip c_seed]; auto.
      rewrite Ht. cbn [same_pairs]. auto.
    + right. split; [|eauto]. rewrite (EQ c1 E1 ps qs); auto.
Qed.

Lemma compress_outcome s cs h : inv s cs -> (h < 65536)%N -> f64 F fbits fval (c_hip s) -> outcome s h.
Proof.
  intros I Hh Hf. destruct (c_tab s) as [t|] eqn:Ht; [|eapply outcome_empty; eauto]. destruct (c_win s) as [w|] eqn:Hw; [|eapply outcome_sparse; eauto].
  destruct (Nat.lt_ge_cases (2 * c_n s) (2 ^ c_lgK s)) as [G|G]; [eapply outcome_hybrid; eauto|].
  destruct (Nat.lt_ge_cases (8 * c_n s) (27 * 2 ^ c_lgK s)) as [G'|G']; [eapply outcome_pinned; eauto|eapply outcome_sliding; eauto].
Qed.
End Round.
