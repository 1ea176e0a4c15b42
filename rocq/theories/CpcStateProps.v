(** * C47: serialization of CPC sketches.

    Vocabulary.  [to_slice] is ToCompactSlice, [from_slice] is NewCpcSketchFromSlice,
    [uncompress_sketch] is uncompressSketch on a state read by importFromMemory.  The accumulators of
    the HIP estimator are an abstract type [F] whose two 64-bit patterns are [fbits] and whose reader
    is [fval]; [seed_hash] is the 16-bit hash of the seed.  [build] feeds a list of 128-bit hashes to a
    fresh sketch, [coupons] are the (row, column) pairs of those hashes (CpcProps.v). *)
From Verif Require Import Base Bytes Arr BitPackModel BitPackProofs CpcTable CpcTableProofs CpcTableMore CpcModel CpcProofs CpcSketch CpcUnion CpcProps CpcTables CpcCodeModel CpcCode CpcCodeTab CpcCodeRound CpcStateModel CpcStateBytes CpcStateCodec CpcStateProofs.
From Coq Require Import Permutation.
Local Open Scope nat_scope.

Section Serial.
Context {F : Type} (HO : hip_ops F) (fbits : F -> N * N) (fval : N * N -> F) (seed_hash : N -> res N).
Notation cpcF := (cpc F).

(** Two sketches that no reader of the API can tell apart: all scalar fields, the window and the
    represented matrix agree, and so do the estimator's registers unless the sketch is the result of a
    union, whose estimate does not use them. *)
Record same_sketch (s s' : cpcF) : Prop := {
  ss_seed : c_seed s' = c_seed s; ss_lgK : c_lgK s' = c_lgK s; ss_n : c_n s' = c_n s; ss_merged : c_merged s' = c_merged s;
  ss_fi : c_fi s' = c_fi s; ss_off : c_off s' = c_off s; ss_win : c_win s' = c_win s;
  ss_matrix : bit_matrix F s' = bit_matrix F s;
  ss_hip : c_merged s = false -> c_hip s' = c_hip s }.

(** What the round trip needs from the environment: patterns are 64 bits wide and read back, the
    16-bit hash of the seed can be computed. *)
Definition env_ok (seed : N) : Prop :=
  (forall f, (fst (fbits f) < 2 ^ 64)%N /\ (snd (fbits f) < 2 ^ 64)%N /\ fval (fbits f) = f) /\
  exists h, seed_hash seed = Ok h /\ (h < 65536)%N.
(** The number of pairs in the table that the compressor has to sort. *)
Definition table_pairs (s : cpcF) : nat := match c_tab s with Some t => t_n t | None => 0 end.

(** ** Sketches that represent the same coupons *)
Lemma shape_same (s s' : cpcF) cs : inv s cs -> inv s' cs -> c_lgK s' = c_lgK s -> c_n s' = c_n s /\ c_off s' = c_off s /\ c_win s' = c_win s.
Proof.
  intros I I' L. assert (N1 : c_n s' = c_n s) by (rewrite (i_n _ _ I), (i_n _ _ I'); auto).
  assert (O : c_off s' = c_off s) by (rewrite (inv_offset _ _ I), (inv_offset _ _ I'), L, N1; auto). split; auto. split; auto.
  pose proof (i_sh _ _ I) as SH. pose proof (i_sh _ _ I') as SH'. rewrite L, O in SH'. pose proof (K_pos (c_lgK s)).
  inversion SH as [Z1 G1 G2 G3 G4|t Z1 Z1' ? ? ? G1 G2 G3 G4|fi off w t Z1 ? ? ? W G1 G2 G3 G4]; inversion SH' as [Z2 Q1 Q2 Q3 Q4|t' Z2 Z2' ? ? ? Q1 Q2 Q3 Q4|fi' off' w' t' Z2 ? ? ? W' Q1 Q2 Q3 Q4]; auto;
    try (exfalso; try rewrite Z1 in *; try rewrite Z2 in *; cbn [length] in *; lia).
  f_equal. clear G1 G2 Q1 Q2 fi fi' off off'. apply win_ext.
  - rewrite (wi_len _ _ _ _ _ _ W'), (wi_len _ _ _ _ _ _ W). auto.
  - apply (wi_byte _ _ _ _ _ _ W').
  - apply (wi_byte _ _ _ _ _ _ W).
  - intros r c Hr Hc. rewrite (wi_len _ _ _ _ _ _ W') in Hr. assert (CB : c_off s + c < 64) by lia.
    assert (Hx : (mk_rc r (c_off s + c) < 2 ^ N.of_nat (6 + c_lgK s))%N) by (apply row_lt; rewrite row_mk by auto; lia).
    destruct (wi_mid _ _ _ _ _ _ W _ Hx) as [_ A]; [rewrite col_mk by auto; lia|]. destruct (wi_mid _ _ _ _ _ _ W' _ Hx) as [_ B]; [rewrite col_mk by auto; lia|].
    rewrite row_mk, col_mk in A, B by auto. replace (c_off s + c - c_off s) with c in A, B by lia.
    destruct (N.testbit (nth r w' 0%N) (N.of_nat c)), (N.testbit (nth r w 0%N) (N.of_nat c)); intuition congruence.
Qed.
Lemma matrix_same (s s' : cpcF) cs : inv s cs -> inv s' cs -> c_lgK s' = c_lgK s -> bit_matrix F s' = bit_matrix F s.
Proof.
  intros I I' L. destruct (bit_matrix_ok s cs I) as (m & E & M). destruct (bit_matrix_ok s' cs I') as (m' & E' & M'). rewrite E, E'. f_equal.
  rewrite L in M'. eapply matP_unique; eauto. tauto.
Qed.

(** Twins stay twins under updates. *)
Record twin (s s' : cpcF) (cs : list N) : Prop := {
  tw_i : inv s cs; tw_i' : inv s' cs; tw_seed : c_seed s' = c_seed s; tw_lgK : c_lgK s' = c_lgK s; tw_m : c_merged s' = c_merged s;
  tw_fi : c_fi s' = c_fi s; tw_hip : c_merged s = false -> c_hip s' = c_hip s }.
Lemma twin_same s s' cs : twin s s' cs -> same_sketch s s'.
Proof.
  intros [I I' T1 T2 T3 T4 T5]. destruct (shape_same s s' cs I I' T2) as (A & B & C). constructor; auto. eapply matrix_same; eauto.
Qed.
Lemma twin_step s s' cs x : twin s s' cs -> (x < 2 ^ N.of_nat (6 + c_lgK s))%N -> fits (c_lgK s) (add cs x) ->
  exists t t', row_col_update F HO s x = Ok t /\ row_col_update F HO s' x = Ok t' /\ twin t t' (add cs x) /\ c_lgK t = c_lgK s.
Proof.
  intros [I I' T1 T2 T3 T4 T5] Hx FI. unfold add in *. destruct (memb x cs) eqn:M.
  - apply memb_in in M. exists s, s'. rewrite (update_old HO s cs x), (update_old HO s' cs x) by (auto; rewrite T2; auto).
    split; auto. split; auto. split; auto. constructor; auto.
  - apply memb_false in M. destruct (update_new HO s cs x) as (t & E & It & (P1 & P2 & P3) & HA); auto.
    destruct (update_new HO s' cs x) as (t' & E' & It' & (Q1 & Q2 & Q3) & HA'); auto; try (rewrite T2; auto).
    exists t, t'. split; auto. split; auto. split; auto.
    assert (LL : c_lgK t' = c_lgK t) by congruence. destruct (shape_same t t' _ It It' LL) as (_ & OT & _). destruct (shape_same s s' _ I I' T2) as (_ & OS & _).
    destruct HA as [A1 A2], HA' as [B1 B2]. rewrite OT, OS, T2 in *. constructor; auto; try congruence.
    + destruct (Nat.eq_dec (c_off t) (c_off s)) as [Z|Z]; [destruct (A1 Z), (B1 Z); congruence|].
      destruct (A2 Z) as (m & Mm & Fm & _), (B2 Z) as (m' & Mm' & Fm' & _). assert (m = m') by (eapply matP_unique; eauto; tauto). congruence.
    + rewrite P3. intros MF. specialize (T5 MF). destruct (Nat.eq_dec (c_off t) (c_off s)) as [Z|Z]; [destruct (A1 Z), (B1 Z); congruence|].
      destruct (A2 Z) as (m & Mm & _ & Hm), (B2 Z) as (m' & Mm' & _ & Hm'). assert (m = m') by (eapply matP_unique; eauto; tauto). subst m'. rewrite Hm, Hm', T5. auto.
Qed.
Lemma twin_feed hs : forall s s' cs, twin s s' cs -> (forall i, i <= length hs -> fits (c_lgK s) (fold_left add (firstn i (coupons (c_lgK s) hs)) cs)) ->
  exists t t', feed HO s hs = Ok t /\ feed HO s' hs = Ok t' /\ twin t t' (fold_left add (coupons (c_lgK s) hs) cs).
Proof.
  induction hs as [|[h0 h1] hs IH]; intros s s' cs T FI; cbn [feed coupons map fold_left fst snd].
  - exists s, s'. auto.
  - rewrite (hash_update_eq HO s cs h0 h1 (tw_i _ _ _ T)), (hash_update_eq HO s' cs h0 h1 (tw_i' _ _ _ T)), (tw_lgK _ _ _ T).
    destruct (twin_step s s' cs (coupon (c_lgK s) (h0, h1)) T) as (t & t' & E & E' & TT & L).
    { apply coupon_lt. } { apply (FI 1). cbn [length]. lia. }
    rewrite E, E'. cbn [bindr]. destruct (IH t t' _ TT) as (v & v' & V & V' & TV).
    { intros i Hi. rewrite L. apply (FI (S i)). cbn [length]. lia. }
    exists v, v'. rewrite L in TV. auto.
Qed.

(** ** The round trip *)
(** The state of a sketch after any history of the API: it represents some coupons, and when there
    are none its registers are the initial ones. *)
Definition proper (s : cpcF) (cs : list N) : Prop := inv s cs /\ (c_merged s = false -> c_n s = 0 -> c_hip s = h_init HO (c_lgK s)).

Lemma compress_hash (c : cstate F) (s : cpcF) c' : compress F c s = Ok c' -> s_hash F c' = s_hash F c.
Proof.
  assert (P : forall c s ps c', put_csv F c s ps = Ok c' -> s_hash F c' = s_hash F c).
  { intros c0 s0 ps c1. unfold put_csv. destruct (compress_surprising (c_lgK s0) ps) as [[a b]| |]; cbn [bindr]; try discriminate. intros [= <-]. auto. }
  assert (W : forall c s c', put_win F c s = Ok c' -> s_hash F c' = s_hash F c).
  { intros c0 s0 c1. unfold put_win. destruct (compress_window _ _ _) as [[a b]| |]; cbn [bindr]; try discriminate. intros [= <-]. auto. }
  unfold compress. destruct (get_flavor F s).
  - intros [= <-]. auto.
  - unfold compress_sparse. destruct (c_win s); try discriminate. destruct (c_tab s) as [t|]; cbn [bindr of_opt]; try discriminate.
    destruct (unwrap t (t_n t)); cbn [bindr]; try discriminate. apply P.
  - unfold compress_hybrid. destruct (c_tab s) as [t|]; cbn [bindr of_opt]; try discriminate. destruct (unwrap t (t_n t)); cbn [bindr]; try discriminate.
    destruct (c_win s); try discriminate. destruct (negb _); try discriminate. destruct (_ <? _); try discriminate. destruct (_ <=? _)%N; try discriminate.
    destruct (tricky_get _ _ _ _); cbn [bindr]; try discriminate. destruct (merge_pairs _ _ _ _ _); cbn [bindr]; try discriminate. apply P.
  - unfold compress_pinned. destruct (put_win F c s) as [c1| |] eqn:E; cbn [bindr]; try discriminate. apply W in E. destruct (c_tab s) as [t|]; cbn [bindr of_opt]; try discriminate.
    destruct (t_n t =? 0). { intros [= <-]. auto. } destruct (unwrap t (t_n t)); cbn [bindr]; try discriminate. destruct (map_res _ _); cbn [bindr]; try discriminate.
    intros Q. apply P in Q. congruence.
  - unfold compress_sliding. destruct (put_win F c s) as [c1| |] eqn:E; cbn [bindr]; try discriminate. apply W in E. destruct (c_tab s) as [t|]; cbn [bindr of_opt]; try discriminate.
    destruct (t_n t =? 0). { intros [= <-]. auto. } destruct (unwrap t (t_n t)); cbn [bindr]; try discriminate. destruct (pseudo_phase _ _); cbn [bindr]; try discriminate.
    destruct (16 <=? _); try discriminate. destruct (nth_error col_perms _); cbn [bindr of_opt]; try discriminate. destruct (_ || _); try discriminate.
    destruct (map_res _ _); cbn [bindr]; try discriminate. intros Q. apply P in Q. congruence.
Qed.

Lemma slice_outcome s cs : proper s cs -> env_ok (c_seed s) ->
  (exists bytes, to_slice F fbits seed_hash s = Ok bytes /\ length bytes mod 4 = 0 /\
     (forall seed, exists s', from_slice F HO fval bytes seed = Ok s' /\ c_seed s' = seed /\ restored F HO s s') /\
     (exists c h, import F HO fval bytes = Ok c /\ seed_hash (c_seed s) = Ok h /\ s_hash F c = h)) \/
  (to_slice F fbits seed_hash s = Err /\ 17 < table_pairs s).
Proof.
  intros [I _] (B & h & Eh & Hh). unfold to_slice, state_of. rewrite Eh. cbn [bindr]. change (mkCs F (c_lgK s) h _ _ _ _ _ _ _ _ _) with (base F s h).
  destruct (compress_outcome F HO fbits fval s cs h I Hh (B (c_hip s))) as [(c & E & CW & G)|(E & t & Et & Lt)]; rewrite E; cbn [bindr].
  - left. destruct (import_export F HO fbits fval c CW) as (m & E1 & E2 & L). exists m. split; auto. split; [rewrite L, Nat.mul_comm; apply Nat.mod_mul; auto|]. split.
    + intros seed. unfold from_slice. rewrite E2. cbn [bindr]. auto.
    + exists (reread F HO c), h. split; auto. split; auto. cbn [reread s_hash]. apply compress_hash in E. exact E.
  - right. split; auto. unfold table_pairs. rewrite Et. auto.
Qed.

Lemma restored_twin s s' cs seed : proper s cs -> restored F HO s s' -> c_seed s' = seed -> seed = c_seed s -> twin s s' cs.
Proof.
  intros [I Z] R <- E. constructor; auto.
  - eapply restored_inv; eauto.
  - apply (rs_lgK _ _ _ _ R).
  - apply (rs_merged _ _ _ _ R).
  - apply (rs_fi _ _ _ _ R).
  - intros MF. rewrite (rs_hip _ _ _ _ R), MF. cbn [orb]. destruct (Nat.eqb_spec (c_n s) 0); auto. symmetry. auto.
Qed.

(** Serializing and reading back gives the same sketch, which represents the same coupons and stays
    indistinguishable from the original under every further history of updates. *)
Theorem cpc_round_trip_state s cs bytes : proper s cs -> env_ok (c_seed s) -> to_slice F fbits seed_hash s = Ok bytes ->
  exists s', from_slice F HO fval bytes (c_seed s) = Ok s' /\ same_sketch s s' /\ represents s' (fun x => In x cs) /\
    forall more, (forall i, i <= length more -> fits (c_lgK s) (fold_left add (firstn i (coupons (c_lgK s) more)) cs)) ->
      exists t t', feed HO s more = Ok t /\ feed HO s' more = Ok t' /\ same_sketch t t'.
Proof.
  intros P EN E. destruct (slice_outcome s cs P EN) as [(b & E' & _ & G & _)|[E' _]]; [|congruence]. assert (b = bytes) by congruence. subst b.
  destruct (G (c_seed s)) as (s' & Es & Sd & R). pose proof (restored_twin s s' cs _ P R Sd eq_refl) as T. exists s'. split; auto. split; [eapply twin_same; eauto|]. split.
  - apply (inv_represents s' cs); [apply T|tauto].
  - intros more FI. destruct (twin_feed more s s' cs T FI) as (t & t' & A & B & C). exists t, t'. split; auto. split; auto. eapply twin_same; eauto.
Qed.

Lemma build_proper lgK seed hs s : 4 <= lgK <= 26 -> (forall i, i <= length hs -> fits lgK (added (firstn i (coupons lgK hs)))) -> build HO lgK seed hs = Ok s ->
  proper s (added (coupons lgK hs)) /\ c_lgK s = lgK /\ c_seed s = seed /\ c_merged s = false.
Proof.
  intros LG FI E. destruct (build_inv HO lgK seed hs LG FI) as (s0 & E0 & I & L & Sd & MF). assert (s0 = s) by congruence. subst s0. split; auto. split; auto.
  intros _ Z. rewrite (i_n _ _ I) in Z. destruct hs as [|h hs].
  - unfold build, new_cpc in E. destruct ((lgK <? 4) || (26 <? lgK)); [discriminate|]. cbn [bindr feed] in E. injection E as <-. auto.
  - exfalso. assert (In (coupon lgK h) (added (coupons lgK (h :: hs)))) by (apply in_added; left; auto). destruct (added (coupons lgK (h :: hs))); [auto|discriminate].
Qed.

(** For every history: if ToCompactSlice returns bytes, they read back as the same sketch. *)
Theorem cpc_round_trip lgK seed hs s bytes : 4 <= lgK <= 26 -> env_ok seed ->
  (forall i, i <= length hs -> fits lgK (added (firstn i (coupons lgK hs)))) ->
  build HO lgK seed hs = Ok s -> to_slice F fbits seed_hash s = Ok bytes ->
  exists s', from_slice F HO fval bytes seed = Ok s' /\ same_sketch s s' /\ c_hip s' = c_hip s /\
    represents s' (fun x => exists h, In h hs /\ coupon lgK h = x) /\
    forall more, (forall i, i <= length more -> fits lgK (added (coupons lgK hs ++ firstn i (coupons lgK more)))) ->
      exists t t', build HO lgK seed (hs ++ more) = Ok t /\ feed HO s' more = Ok t' /\ same_sketch t t'.
Proof.
  intros LG EN FI E EB. destruct (build_proper lgK seed hs s LG FI E) as (P & L & Sd & MF). rewrite <- Sd in EN.
  destruct (cpc_round_trip_state s _ bytes P EN EB) as (s' & Es & SS & RP & MORE). rewrite Sd in Es. exists s'. split; auto. split; auto.
  split; [apply (ss_hip _ _ SS); auto|]. split.
  - apply (inv_represents s' (added (coupons lgK hs))).
    + destruct (slice_outcome s _ P EN) as [(b & E' & _ & G & _)|[E' _]]; [|congruence]. assert (b = bytes) by congruence. subst b.
      destruct (G seed) as (s'' & Es' & _ & R). assert (s'' = s') by congruence. subst s''. eapply restored_inv; eauto. apply P.
    + intros x. rewrite in_added. unfold coupons. rewrite in_map_iff. split; intros (h & A & B); eauto.
  - intros more FM. rewrite L in MORE. destruct (MORE more) as (t & t' & A & B & C).
    + intros i Hi. specialize (FM i Hi). unfold added in *. rewrite fold_left_app in FM. exact FM.
    + exists t, t'. split; auto. unfold build in *. destruct (new_cpc F HO lgK seed) as [f| |]; cbn [bindr] in *; try discriminate.
      clear - E A. revert f E. induction hs as [|h hs IH]; intros f E; cbn [feed app] in *; [congruence|].
      destruct (hash_update F HO f (fst h) (snd h)); cbn [bindr] in *; try discriminate. auto.
Qed.

(** The same for the results of unions. *)
Theorem cpc_round_trip_union lgK seed (l : sources) : 4 <= lgK <= 26 -> env_ok seed -> good_sources seed l ->
  2 * length (all_coupons l) <= room (6 + min_lg lgK l) ->
  exists u0 u s, new_union F HO lgK seed = Ok u0 /\ union_all HO u0 (map fst l) = Ok u /\ get_result F HO u = Ok s /\ to_slice F fbits seed_hash s <> Panic /\
    forall bytes, to_slice F fbits seed_hash s = Ok bytes -> exists s', from_slice F HO fval bytes seed = Ok s' /\ same_sketch s s' /\
      represents s' (fun y => exists s cs x, In (s, cs) l /\ In x cs /\ folds_to (min_lg lgK l) x y).
Proof.
  intros LG EN G FS. unfold new_union.
  assert (NEW : exists f, new_cpc F HO lgK seed = Ok f) by (unfold new_cpc; replace ((lgK <? 4) || (26 <? lgK)) with false by lia; eauto).
  destruct NEW as (f & Ef). rewrite Ef. cbn [bindr]. destruct (new_inv HO _ _ _ Ef) as (If & Lf & Sf & _).
  assert (U0 : uinv (mkCu F seed lgK None (Some f)) []).
  { constructor; cbn [u_lgK u_acc u_mat u_seed]; auto; [intros ? []|]. left. exists f, []. pose proof (K_pos lgK). cbn [length]. split; [auto|]. split; [auto|]. split; [exact If|]. split; [exact Lf|]. split; [exact Sf|]. split; [lia|tauto]. }
  destruct (union_all_gen HO l _ [] (min_lg lgK l) U0) as (u & E & L & Su & U); auto. cbn [u_lgK u_seed] in L, Su.
  destruct (get_result_ok HO u _ U) as (s & ds & Es & I & Q & L2 & S2 & M2).
  { right. rewrite L. apply small_fits. pose proof (added_length_le (map (fold_rc (min_lg lgK l)) ([] ++ all_coupons l))) as AL. rewrite map_length in AL. cbn [app] in *. lia. }
  assert (P : proper s ds) by (split; [auto|congruence]). assert (Sd : c_seed s = seed) by congruence. rewrite <- Sd in EN.
  exists (mkCu F seed lgK None (Some f)), u, s. split; auto. split; auto. split; auto. split.
  - destruct (slice_outcome s ds P EN) as [(b & E' & _)|[E' _]]; congruence.
  - intros bytes Eb. destruct (slice_outcome s ds P EN) as [(b & E' & _ & Gs & _)|[E' _]]; [|congruence]. assert (b = bytes) by congruence. subst b.
    destruct (Gs seed) as (s' & Es' & Sd' & R). exists s'. split; auto. split; [eapply twin_same, restored_twin; eauto|].
    apply (inv_represents s' ds); [eapply restored_inv; eauto|]. intros y. rewrite Q. cbn [app]. rewrite in_map_iff. unfold all_coupons. split.
    + intros (x & Hx & Hin). apply in_concat in Hin. destruct Hin as (cs & Hcs & Hx'). apply in_map_iff in Hcs. destruct Hcs as ([s0 cs'] & <- & Hs).
      exists s0, cs', x. split; auto. split; auto. apply fold_folds; auto.
    + intros (s0 & cs & x & Hs & Hx & Hf). exists x. split; [apply fold_folds; auto|]. apply in_concat. exists cs. split; auto.
      apply in_map_iff. exists (s0, cs). auto.
Qed.

(** Serialization never panics; the only failure is that the pairs were not sorted, which needs at
    least 18 pairs in the table. *)
Theorem cpc_serialize_total lgK seed hs s : 4 <= lgK <= 26 -> env_ok seed ->
  (forall i, i <= length hs -> fits lgK (added (firstn i (coupons lgK hs)))) -> build HO lgK seed hs = Ok s ->
  to_slice F fbits seed_hash s <> Panic /\ (table_pairs s <= 17 -> exists bytes, to_slice F fbits seed_hash s = Ok bytes /\ length bytes mod 4 = 0).
Proof.
  intros LG EN FI E. destruct (build_proper lgK seed hs s LG FI E) as (P & L & Sd & MF). rewrite <- Sd in EN.
  destruct (slice_outcome s _ P EN) as [(b & E' & Lb & _)|[E' Lt]]; rewrite E'; split; try congruence; eauto. lia.
Qed.
(** In particular sketches of at most 17 distinct coupons can always be serialized. *)
Theorem cpc_serialize_small lgK seed hs s : 4 <= lgK <= 26 -> env_ok seed -> length (added (coupons lgK hs)) <= 17 -> 32 * length (added (coupons lgK hs)) < 3 * 2 ^ lgK ->
  build HO lgK seed hs = Ok s -> exists bytes, to_slice F fbits seed_hash s = Ok bytes /\ length bytes mod 4 = 0.
Proof.
  intros LG EN L17 L32 E.
  assert (FI : forall i, i <= length hs -> fits lgK (added (firstn i (coupons lgK hs)))).
  { intros i _. apply sparse_fits; [lia|]. assert (length (added (firstn i (coupons lgK hs))) <= length (added (coupons lgK hs))); [|lia].
    apply NoDup_incl_length.
    - apply (added_ok lgK). intros x Hx. apply In_firstn_in in Hx. apply in_map_iff in Hx. destruct Hx as (h & <- & _). apply coupon_lt.
    - intros x Hx. apply (proj1 (in_added _ _)) in Hx. apply In_firstn_in in Hx. apply in_added. auto. }
  destruct (cpc_serialize_total lgK seed hs s LG EN FI E) as [_ T]. apply T.
  destruct (build_proper lgK seed hs s LG FI E) as ((I & _) & L & _). pose proof (i_sh _ _ I) as SH. rewrite L in SH. unfold table_pairs.
  inversion SH as [| t ? ? W V P |]; auto; [lia| |lia]. rewrite pairs_n by auto. rewrite (Permutation_length P). auto.
Qed.

(** uncompressSketch refuses a seed with another hash. *)
Theorem cpc_seed_checked lgK seed hs s bytes other h : 4 <= lgK <= 26 -> env_ok seed ->
  (forall i, i <= length hs -> fits lgK (added (firstn i (coupons lgK hs)))) ->
  build HO lgK seed hs = Ok s -> to_slice F fbits seed_hash s = Ok bytes -> seed_hash other = Ok h ->
  exists c, import F HO fval bytes = Ok c /\
    ((seed_hash seed <> Ok h -> uncompress_sketch F HO seed_hash c other = Err) /\
     (seed_hash seed = Ok h -> exists s', uncompress_sketch F HO seed_hash c other = Ok s' /\ c_seed s' = other /\ bit_matrix F s' = bit_matrix F s)).
Proof.
  intros LG EN FI E EB EO. destruct (build_proper lgK seed hs s LG FI E) as (P & L & Sd & MF). rewrite <- Sd in EN.
  destruct (slice_outcome s _ P EN) as [(b & E' & Lb & G & (c & h' & Ei & Eh & Hc))|[E' _]]; [|congruence]. assert (b = bytes) by congruence. subst b.
  exists c. split; auto. unfold uncompress_sketch. rewrite EO. cbn [bindr]. rewrite Hc, <- Sd, Eh. split.
  - intros NE. assert (h <> h') as Q by congruence. apply N.eqb_neq in Q. rewrite Q. auto.
  - intros [= ->]. rewrite N.eqb_refl. cbn [negb]. destruct (G other) as (s' & Es & Sd' & R). unfold from_slice in Es. rewrite Ei in Es. cbn [bindr] in Es.
    exists s'. split; auto. split; auto. eapply matrix_same; [apply P|eapply restored_inv; eauto; apply P|apply (rs_lgK _ _ _ _ R)].
Qed.
End Serial.

(** ** Concrete cases *)
(** Registers as pairs of patterns: the first is kept, the second counts novel coupons. *)
Definition toy_hip : hip_ops (N * N) :=
  mkOps (N * N) (fun lg => (4607182418800017408 + N.of_nat lg, 0)%N) (fun _ _ f => (fst f, (snd f + 1) mod 2 ^ 64)%N) (fun _ _ f => f).
Definition id_bits (f : N * N) : N * N := ((fst f) mod 2 ^ 64, (snd f) mod 2 ^ 64)%N.
Definition toy_hash (seed : N) : res N := Ok (seed mod 65536)%N.
Definition round (lgK : nat) (hs : list (N * N)) : res (list N * flavor * nat * bool) :=
  let* s := build toy_hip lgK 9001 hs in
  let* b := to_slice (N * N) id_bits toy_hash s in
  let* s' := from_slice (N * N) toy_hip (fun x => x) b 9001 in
  let* m := bit_matrix _ s in let* m' := bit_matrix _ s' in
  Ok (firstn 8 b, get_flavor _ s, length b, (length m =? length m') && forallb (fun p => (fst p =? snd p)%N) (combine m m') && (snd (c_hip s) =? snd (c_hip s'))%N).
Example cpc_round_empty : round 4 [] = Ok ([2; 1; 16; 4; 0; 6; 41; 35]%N, Empty, 8, true).
Proof. vm_compute. reflexivity. Qed.
Example cpc_round_sparse : exists p n, round 4 (grid [3] [5]) = Ok (p, Sparse, n, true).
Proof. do 2 eexists. vm_compute. reflexivity. Qed.
Example cpc_round_hybrid : exists p n, round 4 (grid [3; 9] [1; 9; 30]) = Ok (p, Hybrid, n, true).
Proof. do 2 eexists. vm_compute. reflexivity. Qed.
Example cpc_round_pinned : exists p n, round 4 (grid (seq 0 16) [0; 2] ++ grid [7; 11] [12]) = Ok (p, Pinned, n, true).
Proof. do 2 eexists. vm_compute. reflexivity. Qed.
Example cpc_round_sliding : exists p n, round 4 (grid (seq 0 16) (seq 0 5) ++ grid [7; 11] [12]) = Ok (p, Sliding, n, true).
Proof. do 2 eexists. vm_compute. reflexivity. Qed.
Example env_ok_unit : env_ok (fun _ : unit => (0, 0)%N) (fun _ => tt) toy_hash 9001.
Proof. split; [intros []; repeat split|]. exists 9001%N. split; reflexivity. Qed.
(** The round-trip theorem applied to a sliding sketch: its hypotheses hold and bytes exist. *)
Example cpc_round_trip_case : exists s bytes s', build no_hip 4 9001 (grid (seq 0 16) (seq 0 4)) = Ok s /\
  to_slice unit (fun _ => (0, 0)%N) toy_hash s = Ok bytes /\ from_slice unit no_hip (fun _ => tt) bytes 9001 = Ok s' /\ same_sketch s s'.
Proof.
  assert (E : exists s bytes, build no_hip 4 9001 (grid (seq 0 16) (seq 0 4)) = Ok s /\ to_slice unit (fun _ => (0, 0)%N) toy_hash s = Ok bytes)
    by (do 2 eexists; split; vm_compute; reflexivity).
  destruct E as (s & bytes & E & EB). destruct (cpc_round_trip no_hip (fun _ => (0, 0)%N) (fun _ => tt) toy_hash 4 9001 (grid (seq 0 16) (seq 0 4)) s bytes) as (s' & E' & SS & _); auto.
  - lia.
  - apply env_ok_unit.
  - intros i _. apply small_fits. assert (length (added (firstn i (coupons 4 (grid (seq 0 16) (seq 0 4))))) <= 64); [|change (room (6 + 4)) with 768; lia].
    rewrite added_length_le, firstn_length. apply Nat.min_le_iff. right. unfold coupons. rewrite map_length. change (length (grid (seq 0 16) (seq 0 4))) with 64. lia.
  - exists s, bytes, s'. auto.
Qed.

(** ** Limits of the code *)
(** ToCompactSlice can fail on a sketch of 24 coupons: introspectiveInsertionSort gives up after
    8 n moves and then sorts only the part of the array from the last insertion point on. *)
Definition unlucky : list (N * N) := map (fun i => hash_for (20 - i) 2) (seq 0 20) ++ [hash_for 1 3; hash_for 0 2; hash_for 0 1; hash_for 0 0].
Theorem cpc_serialize_fails_refuted : exists s, build no_hip 10 9001 unlucky = Ok s /\ c_n s = 24 /\ validate unit s = Ok true /\
  to_slice unit (fun _ => (0, 0)%N) toy_hash s = Err.
Proof. eexists. split; [vm_compute; reflexivity|]. split; [vm_compute; reflexivity|]. split; vm_compute; reflexivity. Qed.
(** NewCpcSketchFromSlice does not compare the seed's hash with the stored one. *)
Theorem cpc_wrong_seed_accepted_refuted : exists s bytes s', build no_hip 4 9001 (grid [3] [5]) = Ok s /\ toy_hash 9001 <> toy_hash 9002 /\
  to_slice unit (fun _ => (0, 0)%N) toy_hash s = Ok bytes /\ from_slice unit no_hip (fun _ => tt) bytes 9002 = Ok s' /\ c_seed s' = 9002%N.
Proof. do 3 eexists. split; [vm_compute; reflexivity|]. split; [discriminate|]. split; [vm_compute; reflexivity|]. split; [vm_compute; reflexivity|]. vm_compute. reflexivity. Qed.
(** Reading a truncated slice panics instead of returning an error. *)
Theorem cpc_truncated_panics_refuted : exists s bytes, build no_hip 4 9001 (grid [3] [5]) = Ok s /\
  to_slice unit (fun _ => (0, 0)%N) toy_hash s = Ok bytes /\ from_slice unit no_hip (fun _ => tt) (firstn 8 bytes) 9001 = Panic.
Proof. do 2 eexists. split; [vm_compute; reflexivity|]. split; [vm_compute; reflexivity|]. vm_compute. reflexivity. Qed.

Print Assumptions cpc_round_trip.
Print Assumptions cpc_round_trip_union.
Print Assumptions cpc_seed_checked.
