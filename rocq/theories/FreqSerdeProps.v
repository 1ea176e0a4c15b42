(** * C49: the byte and string forms of the frequency sketches. *)
From Verif Require Import Base ListX Bytes GoInt BitPackModel QuickSelectModel FreqModel FreqProofs FreqProps ItemSerdeModel ItemSerdeProps FreqSerdeModel.
Local Open Scope nat_scope.

(** ** Bytes *)
Definition pre0_check (p : nat) (e : bool) (a b : nat) : bool :=
  let w := pre0_of p a b e in
  (extract_pre_longs w =? N.of_nat p)%N && (extract_ser_ver w =? 1)%N && (extract_family w =? 10)%N &&
  (extract_lg_max w =? N.of_nat a)%N && (extract_lg_cur w =? N.of_nat b)%N && (extract_flags w =? if e then 5 else 0)%N &&
  (N.land w 63 =? N.of_nat p)%N && (w <? 2 ^ 64)%N.
Lemma pre0_all : forallb (fun a => forallb (fun b => pre0_check 1 true a b && pre0_check 4 false a b) (seq 0 63)) (seq 0 63) = true.
Proof. vm_compute. reflexivity. Qed.
Lemma pre0_fields p e a b : (p = 1 /\ e = true) \/ (p = 4 /\ e = false) -> a <= 62 -> b <= 62 ->
  let w := pre0_of p a b e in
  extract_pre_longs w = N.of_nat p /\ extract_ser_ver w = 1%N /\ extract_family w = 10%N /\
  extract_lg_max w = N.of_nat a /\ extract_lg_cur w = N.of_nat b /\ extract_flags w = (if e then 5 else 0)%N /\
  N.land w 63 = N.of_nat p /\ (w < 2 ^ 64)%N.
Proof.
  intros H Ha Hb w. pose proof pre0_all as A. rewrite forallb_forall in A. specialize (A a ltac:(apply in_seq; lia)).
  rewrite forallb_forall in A. specialize (A b ltac:(apply in_seq; lia)). apply andb_prop in A. destruct A as [A1 A2].
  assert (A : pre0_check p e a b = true) by (destruct H as [[-> ->]|[-> ->]]; auto). clear A1 A2.
  unfold pre0_check in A. fold w in A. rewrite !Bool.andb_true_iff, !N.eqb_eq, N.ltb_lt in A. tauto.
Qed.

Lemma ser_loop_gen w vals : forall a z, fixed_ser_loop w (length a) vals (a ++ repeat 0%N (w * length vals) ++ z) = Some (a ++ fixed_layout w vals ++ z).
Proof.
  induction vals as [|v vals IH]; intros a z; cbn [fixed_ser_loop fixed_layout flat_map length].
  - rewrite Nat.mul_0_r. reflexivity.
  - unfold put_le. rewrite put_at_boundary by (rewrite le_length, app_length, repeat_length; nia). rewrite le_length. cbn [bindo].
    replace (w * S (length vals)) with (w + w * length vals) by lia. rewrite skipn_app, repeat_length, skipn_repeat.
    replace (w - (w + w * length vals)) with 0 by lia. rewrite skipn_O.
    replace (length a + w) with (length (a ++ le w v)) by (rewrite app_length, le_length; auto). rewrite app_assoc, IH. rewrite <- !app_assoc. reflexivity.
Qed.

Lemma insert_active_0 n : (n < 2 ^ 32)%N -> insert_active n 0 = n.
Proof.
  intros H. unfold insert_active, insert_bits. rewrite N.shiftl_0_r, N.ldiff_0_l, N.lor_0_r.
  change 4294967295%N with (N.ones 32). rewrite N.land_ones. apply N.mod_small. auto.
Qed.
Lemma extract_active_small n : (n < 2 ^ 32)%N -> extract_active n = n.
Proof.
  intros H. unfold extract_active, extract_bits. rewrite N.shiftr_0_r. change 4294967295%N with (N.ones 32). rewrite N.land_ones. apply N.mod_small. auto.
Qed.
Lemma u64_back z : int64 z -> wrap64 (Z.of_N (to_u64 z)) = z.
Proof. intros. rewrite wrap64_u64. apply wrap64_id; auto. Qed.
Lemma u64_back_map l : Forall int64 l -> map (fun v => wrap64 (Z.of_N v)) (map to_u64 l) = l.
Proof. induction 1; cbn [map]; auto. rewrite u64_back by auto. congruence. Qed.

Section Bytes.
Context {K : Type}.
Implicit Types s : @sketch K.

(** The values a sketch must hold to fit the fields of its byte form. *)
Record fits s : Prop := {
  f_max : s_lgmax s <= 62; f_cur : m_lg (s_map s) <= 62;
  f_count : m_active (s_map s) = length (filter active (m_slots (s_map s)));
  f_n : (N.of_nat (m_active (s_map s)) < 2 ^ 32)%N;
  f_w : int64 (s_weight s); f_off : int64 (s_off s);
  f_vals : Forall int64 (map vl (filter active (m_slots (s_map s)))) }.

(** The layout, independent of the code. *)
Definition preamble s : list N :=
  le 8 (pre0_of 4 (s_lgmax s) (m_lg (s_map s)) false) ++ le 8 (N.of_nat (m_active (s_map s))) ++ le 8 (to_u64 (s_weight s)) ++ le 8 (to_u64 (s_off s)).
Definition counts s : list N := fixed_layout 8 (map to_u64 (map vl (filter active (m_slots (s_map s))))).
Lemma preamble_len s : length (preamble s) = 32.
Proof. unfold preamble. rewrite !app_length, !le_length. auto. Qed.
Lemma counts_len s : fits s -> length (counts s) = 8 * m_active (s_map s).
Proof. intros F. unfold counts. rewrite fixed_layout_length, !map_length, <- (f_count _ F). lia. Qed.
Lemma preamble_layout s : fits s -> preamble s = fixed_layout 8 [pre0_of 4 (s_lgmax s) (m_lg (s_map s)) false; insert_active (N.of_nat (m_active (s_map s))) 0; to_u64 (s_weight s); to_u64 (s_off s)].
Proof. intros F. unfold preamble, fixed_layout. cbn [flat_map]. rewrite insert_active_0 by apply F. rewrite app_nil_r. auto. Qed.

Lemma head_full s k : fits s -> is_empty s = false -> slice_head s k = Ok (preamble s ++ counts s ++ repeat 0%N k).
Proof.
  intros F E. unfold slice_head. rewrite E. set (n := m_active (s_map s)).
  replace (8 * (4 + n) + k) with (8 * 4 + (8 * n + k)) by lia. rewrite repeat_app.
  pose proof (ser_loop_gen 8 [pre0_of 4 (s_lgmax s) (m_lg (s_map s)) false; insert_active (N.of_nat n) 0; to_u64 (s_weight s); to_u64 (s_off s)] [] (repeat 0%N (8 * n + k))) as G0.
  cbn [app length] in G0. rewrite G0. clear G0. cbn [of_opt bindr].
  assert (PL : fixed_layout 8 [pre0_of 4 (s_lgmax s) (m_lg (s_map s)) false; insert_active (N.of_nat n) 0; to_u64 (s_weight s); to_u64 (s_off s)] = preamble s) by (symmetry; exact (preamble_layout s F)).
  rewrite PL. rewrite !map_length, <- (f_count _ F). fold n. rewrite Nat.ltb_irrefl. rewrite firstn_all2 by (rewrite map_length, <- (f_count _ F); auto).
  rewrite repeat_app.
  pose proof (ser_loop_gen 8 (map (fun c => to_u64 (vl c)) (filter active (m_slots (s_map s)))) (preamble s) (repeat 0%N k)) as G.
  rewrite map_length, <- (f_count _ F), preamble_len in G. fold n in G. rewrite G. cbn [of_opt]. unfold counts. rewrite map_map. auto.
Qed.

Lemma head_empty s k : s_lgmax s <= 62 -> is_empty s = true -> exists w, slice_head s k = Ok (le 8 w) /\ w = pre0_of 1 (s_lgmax s) (m_lg (s_map s)) true.
Proof.
  intros F E. unfold slice_head. rewrite E. eexists. split; [|reflexivity]. unfold put_le, put. rewrite le_length, repeat_length. cbn [Nat.add Nat.leb firstn app of_opt skipn repeat].
  rewrite app_nil_r. auto.
Qed.

Lemma get_le_first k v t : get_le k 0 (le k v ++ t) = Some (v mod 256 ^ N.of_nat k)%N.
Proof. exact (get_le_app_at k v [] t). Qed.

Lemma read_full s per t : fits s -> is_empty s = false -> length t >= per * m_active (s_map s) ->
  read_head per (preamble s ++ counts s ++ t) =
  Ok (HeadFull (s_lgmax s) (m_lg (s_map s)) (s_weight s) (s_off s) (map vl (filter active (m_slots (s_map s))))).
Proof.
  intros F E Ht. set (n := m_active (s_map s)) in *.
  destruct (pre0_fields 4 false (s_lgmax s) (m_lg (s_map s)) ltac:(auto) (f_max _ F) (f_cur _ F)) as (P1 & P2 & P3 & P4 & P5 & P6 & P7 & P8).
  set (w := pre0_of 4 (s_lgmax s) (m_lg (s_map s)) false) in *.
  pose proof (preamble_len s) as L1. pose proof (counts_len s F) as L2. fold n in L2.
  assert (HB : length (preamble s ++ counts s ++ t) = 32 + 8 * n + length t) by (rewrite !app_length; lia).
  unfold read_head, check_preamble_size. rewrite HB. replace (32 + 8 * n + length t <? 8) with false by (symmetry; apply Nat.ltb_ge; lia).
  assert (G0 : get_le 8 0 (preamble s ++ counts s ++ t) = Some w).
  { unfold preamble. fold w. rewrite <- !app_assoc. rewrite get_le_first. f_equal. apply N.mod_small. exact P8. }
  rewrite G0. cbn [of_opt bindr]. rewrite P7. change (8 * N.to_nat (N.of_nat 4)) with 32. change (Nat.max 32 8) with 32.
  replace (32 + 8 * n + length t <? 32) with false by (symmetry; apply Nat.ltb_ge; lia).
  cbn [bindr]. rewrite P1, P2, P3, P4, P5, P6. cbn [N.of_nat]. change (N.to_nat (N.pos (Pos.of_succ_nat 3))) with 4.
  change ((N.pos (Pos.of_succ_nat 3)) =? 1)%N with false. change ((N.pos (Pos.of_succ_nat 3)) =? 4)%N with true. change (N.land 0 5 =? 0)%N with true.
  change (1 =? 1)%N with true. change (10 =? 10)%N with true. cbn [negb andb].
  rewrite !Nat2N.id. replace (62 <? s_lgmax s) with false by (symmetry; apply Nat.ltb_ge, F).
  replace (62 <? m_lg (s_map s)) with false by (symmetry; apply Nat.ltb_ge, F).
  assert (D : fixed_deser 8 (preamble s ++ counts s ++ t) 0 4 = Some [w; N.of_nat n; to_u64 (s_weight s); to_u64 (s_off s)]).
  { pose proof (fixed_deser_ok 8 [w; N.of_nat n; to_u64 (s_weight s); to_u64 (s_off s)] [] (counts s ++ t)) as D. cbn [app length] in D.
    rewrite (preamble_layout s F), insert_active_0 by apply F. apply D. pose proof (f_n _ F). fold n in H.
    repeat constructor; try apply to_u64_lt; [exact P8|]. change (256 ^ N.of_nat 8)%N with (2 ^ 64)%N. eapply N.lt_trans; [exact H|reflexivity]. }
  rewrite D. cbn [of_opt bindr nth_error]. rewrite extract_active_small by apply F. rewrite Nat2N.id.
  replace (32 + 8 * n + length t <? 8 * 4 + 8 * n + per * n) with false by (symmetry; apply Nat.ltb_ge; lia).
  assert (DV : fixed_deser 8 (preamble s ++ counts s ++ t) (8 * 4) n = Some (map to_u64 (map vl (filter active (m_slots (s_map s)))))).
  { change (8 * 4) with 32. rewrite <- L1. unfold counts.
    pose proof (fixed_deser_ok 8 (map to_u64 (map vl (filter active (m_slots (s_map s))))) (preamble s) t) as D'. rewrite !map_length, <- (f_count _ F) in D'. apply D'.
    apply Forall_map, Forall_forall. intros x _. apply to_u64_lt. }
  rewrite DV. cbn [of_opt bindr]. rewrite !u64_back by apply F. rewrite u64_back_map by apply F. reflexivity.
Qed.

Lemma read_empty per a b t : a <= 62 -> b <= 62 -> read_head per (le 8 (pre0_of 1 a b true) ++ t) = Ok (HeadEmpty a).
Proof.
  intros Ha Hb. destruct (pre0_fields 1 true a b ltac:(auto) Ha Hb) as (P1 & P2 & P3 & P4 & P5 & P6 & P7 & P8).
  set (w := pre0_of 1 a b true) in *. unfold read_head, check_preamble_size. rewrite app_length, le_length.
  replace (8 + length t <? 8) with false by (symmetry; apply Nat.ltb_ge; lia). rewrite get_le_first, N.mod_small by exact P8. cbn [of_opt bindr].
  rewrite P7. change (Nat.max (8 * N.to_nat (N.of_nat 1)) 8) with 8. replace (8 + length t <? 8) with false by (symmetry; apply Nat.ltb_ge; lia).
  cbn [bindr]. rewrite P1, P2, P3, P4, P5, P6. change (N.of_nat 1 =? 1)%N with true. change (N.land 5 5 =? 0)%N with false. change (1 =? 1)%N with true. change (10 =? 10)%N with true.
  cbn [negb andb]. rewrite Nat2N.id. replace (62 <? a) with false by (symmetry; apply Nat.ltb_ge; lia). auto.
Qed.
End Bytes.

Definition to_res {A} (o : option A) : res A := match o with Some a => Ok a | None => Err end.

(** Longs: the constructor from a slice reads back what the field-level model of FreqModel.v says. *)
Lemma longs_bytes hash s : fits s -> Forall int64 (map ky (filter active (m_slots (s_map s)))) ->
  exists b, longs_to_slice s = Ok b /\ length b = (if is_empty s then 8 else 32 + 16 * m_active (s_map s)) /\
    longs_from_slice hash b = to_res (of_image_longs Z.eqb 0%Z hash 1024 true false (to_image s)).
Proof.
  intros F FK. unfold longs_to_slice, to_image. destruct (is_empty s) eqn:E.
  - destruct (head_empty s 0 (f_max _ F) E) as (w & -> & ->). eexists. split; [reflexivity|]. rewrite le_length. split; auto.
    unfold longs_from_slice. pose proof (read_empty 8 (s_lgmax s) (m_lg (s_map s)) [] (f_max _ F) (f_cur _ F)) as R. rewrite app_nil_r in R. rewrite R. reflexivity.
  - set (n := m_active (s_map s)). rewrite (head_full s (8 * n) F E). cbn [bindr]. rewrite map_length, <- (f_count _ F). fold n. rewrite Nat.ltb_irrefl.
    rewrite firstn_all2 by (rewrite map_length, <- (f_count _ F); auto).
    pose proof (ser_loop_gen 8 (map (fun c => to_u64 (ky c)) (filter active (m_slots (s_map s)))) (preamble s ++ counts s) []) as G.
    rewrite map_length, <- (f_count _ F), app_length, preamble_len, counts_len, app_nil_r, <- !app_assoc in G by auto. fold n in G. rewrite G. cbn [of_opt].
    rewrite app_nil_r. set (KB := fixed_layout 8 _). assert (LK : length KB = 8 * n). { unfold KB. rewrite fixed_layout_length, map_length, <- (f_count _ F). fold n. lia. }
    eexists. split; [reflexivity|]. split. { rewrite !app_length, preamble_len, counts_len, LK by auto. fold n. lia. }
    unfold longs_from_slice. rewrite (read_full s 8 KB F E) by (fold n; lia). cbn [bindr]. rewrite map_length, <- (f_count _ F). fold n.
    pose proof (fixed_deser_ok 8 (map (fun c => to_u64 (ky c)) (filter active (m_slots (s_map s)))) (preamble s ++ counts s) []) as D.
    rewrite app_nil_r, map_length, <- (f_count _ F), app_length, preamble_len, counts_len, <- app_assoc in D by auto. fold n KB in D. rewrite D.
    2:{ apply Forall_map, Forall_forall. intros x _. apply to_u64_lt. }
    cbn [of_opt bindr]. rewrite <- (map_map ky to_u64), u64_back_map by auto. unfold fill, of_image_longs.
    destruct (update_all _ _ _ _ _ _ _ _); reflexivity.
Qed.

(** Items, for a serializer whose reader gives back the items it wrote. *)
Lemma items_bytes {K} (keqb : K -> K -> bool) zeroK hash dl dlim incl ser deser s : fits s ->
  (is_empty s = false -> exists kb, ser (map ky (filter active (m_slots (s_map s)))) = Ok kb /\
     deser kb (length (filter active (m_slots (s_map s)))) = Ok (map ky (filter active (m_slots (s_map s))))) ->
  exists b, items_to_slice ser s = Ok b /\
    items_from_slice keqb zeroK hash dl dlim incl deser b = to_res (of_image_items keqb zeroK hash dl dlim incl (to_image s)).
Proof.
  intros F FK. unfold items_to_slice, to_image. destruct (is_empty s) eqn:E.
  - destruct (head_empty s 0 (f_max _ F) E) as (w & -> & ->). eexists. split; [reflexivity|].
    unfold items_from_slice. pose proof (read_empty 0 (s_lgmax s) (m_lg (s_map s)) [] (f_max _ F) (f_cur _ F)) as R. rewrite app_nil_r in R. rewrite R. reflexivity.
  - destruct (FK eq_refl) as (kb & -> & DK). cbn [bindr]. set (n := m_active (s_map s)). rewrite (head_full s _ F E). cbn [bindr].
    replace (32 + 8 * n) with (length (preamble s ++ counts s)) by (rewrite app_length, preamble_len, counts_len; auto).
    rewrite app_assoc, put_at_boundary by (rewrite repeat_length; auto). rewrite skipn_all2 by (rewrite repeat_length; auto). rewrite app_nil_r. cbn [of_opt].
    eexists. split; [reflexivity|]. unfold items_from_slice. rewrite <- app_assoc, (read_full s 0 kb F E) by lia. cbn [bindr]. rewrite map_length, <- (f_count _ F).
    fold n. replace (32 + 8 * n) with (length (preamble s ++ counts s)) by (rewrite app_length, preamble_len, counts_len; auto).
    rewrite app_assoc, skipn_app, skipn_all, Nat.sub_diag, skipn_O. cbn [app]. rewrite <- (f_count _ F) in DK. fold n in DK. rewrite DK. cbn [bindr].
    rewrite map_length, <- (f_count _ F). fold n. rewrite Nat.ltb_irrefl. unfold fill, of_image_items. destruct (update_all _ _ _ _ _ _ _ _); reflexivity.
Qed.

(** ** Lives *)
Section Life.
Context {K : Type} (keqb : K -> K -> bool) (keqb_spec : forall a b, keqb a b = true <-> a = b) (zeroK : K) (hash : K -> N) (golden : nat -> N) (q : kind).
Notation run := (run K keqb zeroK hash golden q).
Notation valid := (valid K keqb zeroK hash golden q).
Notation legal := (legal K keqb zeroK hash golden q).
Notation honest := (honest K keqb zeroK hash golden q).

(** The same answer to every query. *)
Definition same_answers (s s' : @sketch K) : Prop :=
  (forall k, lower_bound keqb hash s' k = lower_bound keqb hash s k /\ upper_bound keqb hash s' k = upper_bound keqb hash s k /\
             estimate K keqb hash q s' k = estimate K keqb hash q s k) /\
  maximum_error s' = maximum_error s /\ s_weight s' = s_weight s /\ m_active (s_map s') = m_active (s_map s).

(** Table sizes whose item count fits the 32-bit field. *)
Definition small (s : @sketch K) : Prop := s_lgmax s <= 32 /\ m_lg (s_map s) <= 32.

Lemma freq_pos_in : forall l k, (0 < freq keqb l k)%Z -> exists c, In (k, c) l.
Proof.
  induction l as [|[a b] l IH]; intros k H; cbn [freq] in H; [lia|]. destruct (keqb k a) eqn:E.
  - apply keqb_spec in E. subst. exists b. left; auto.
  - destruct (IH k ltac:(lia)) as [c Hc]. exists c. right; auto.
Qed.
Lemma tracked_in_stream l s : run l = Some s -> valid l -> (weight K l < 2 ^ 63)%Z ->
  forall k, In k (map ky (filter active (m_slots (s_map s)))) -> exists c, In (k, c) (stream K l).
Proof.
  intros HR HV HW k Hk. destruct (run_ok1 K keqb keqb_spec zeroK hash golden q l s HR HV HW) as [I _].
  apply in_map_iff in Hk. destruct Hk as (c & <- & Hc).
  assert (Hh : has zeroK (m_slots (s_map s)) (ky c) (vl c)) by (apply ents_in; unfold ents; apply in_map_iff; exists c; auto).
  pose proof (si_pos _ _ _ _ _ _ _ I _ _ Hh). pose proof (si_in _ _ _ _ _ _ _ I _ _ Hh). apply freq_pos_in. unfold truth in *. lia.
Qed.
Lemma tracked_forall (P : K -> Prop) l s : run l = Some s -> valid l -> (weight K l < 2 ^ 63)%Z ->
  Forall (fun e => P (fst e)) (stream K l) -> Forall P (map ky (filter active (m_slots (s_map s)))).
Proof.
  intros HR HV HW HP. apply Forall_forall. intros k Hk. destruct (tracked_in_stream l s HR HV HW k Hk) as [c Hc].
  rewrite Forall_forall in HP. apply (HP _ Hc).
Qed.

Lemma threshold_le n : threshold n <= n.
Proof. unfold threshold. apply Nat.div_le_upper_bound; lia. Qed.
Lemma active_lt s W T d : SI zeroK hash d 1 W T s -> (N.of_nat (m_active (s_map s)) < 2 ^ N.of_nat (m_lg (s_map s)))%N.
Proof.
  intros I. pose proof (si_map _ _ _ _ _ _ _ I) as IM. pose proof (si_act _ _ _ _ _ _ _ I). rewrite (si_cap _ _ _ _ _ _ _ I), (mi_thr _ _ _ _ IM) in H.
  assert (threshold (2 ^ m_lg (s_map s)) < 2 ^ m_lg (s_map s)).
  { unfold threshold. pose proof (Nat.pow_nonzero 2 (m_lg (s_map s)) ltac:(lia)). apply Nat.div_lt_upper_bound; lia. }
  replace (2 ^ N.of_nat (m_lg (s_map s)))%N with (N.of_nat (2 ^ m_lg (s_map s))); [lia|]. rewrite Nat2N.inj_pow. auto.
Qed.

Lemma run_fits l s : run l = Some s -> valid l -> (weight K l < 2 ^ 63)%Z -> small s -> fits s.
Proof.
  intros HR HV HW [S1 S2]. destruct (run_ok1 K keqb keqb_spec zeroK hash golden q l s HR HV HW) as [I HWt].
  destruct (SI_off_bound K keqb keqb_spec zeroK hash golden q _ _ _ HW I) as (O1 & O2 & O3). pose proof (si_map _ _ _ _ _ _ _ I) as IM.
  assert (T0 : (0 <= total (m_slots (s_map s)))%Z) by (apply (total_nonneg keqb keqb_spec zeroK hash (drift_limit q) (drift_limit2 q) golden), (si_pos _ _ _ _ _ _ _ I)).
  constructor; try lia.
  - apply (mi_count _ _ _ _ IM).
  - eapply N.lt_le_trans; [eapply active_lt; eauto|]. apply N.pow_le_mono_r; lia.
  - rewrite HWt. unfold int64. lia.
  - unfold int64. lia.
  - apply Forall_forall. intros v Hv. apply in_map_iff in Hv. destruct Hv as (c & <- & Hc).
    assert (Hh : has zeroK (m_slots (s_map s)) (ky c) (vl c)) by (apply ents_in; unfold ents; apply in_map_iff; exists c; auto).
    destruct (O3 _ _ Hh) as (A & _ & B). unfold int64. lia.
Qed.

(** A sketch that has seen nothing and any fresh sketch give the same answers. *)
Lemma fresh_answers l s s' : run l = Some s -> valid l -> weight K l = 0%Z -> is_empty s = true ->
  (exists a b c, s' = new_sketch_sample zeroK a b c) -> same_answers s s'.
Proof.
  intros HR HV HW HE (a & b & c & ->). destruct (run_ok1 K keqb keqb_spec zeroK hash golden q l s HR HV ltac:(lia)) as [I HWt].
  pose proof (si_map _ _ _ _ _ _ _ I) as IM. pose proof (si_off _ _ _ _ _ _ _ I). pose proof (si_total _ _ _ _ _ _ _ I) as TT.
  assert (T0 : (0 <= total (m_slots (s_map s)))%Z) by (apply (total_nonneg keqb keqb_spec zeroK hash (drift_limit q) (drift_limit2 q) golden), (si_pos _ _ _ _ _ _ _ I)).
  assert (O : s_off s = 0%Z) by lia. unfold is_empty in HE. apply Nat.eqb_eq in HE.
  assert (G : forall k, get keqb hash (s_map s) k = Some 0%Z).
  { intros k. destruct (get_has keqb keqb_spec zeroK hash (drift_limit q) (drift_limit2 q) (s_map s) k IM) as (v & -> & [Hv|[-> _]]); auto.
    exfalso. apply ents_in in Hv. assert (L : length (ents (m_slots (s_map s))) = 0) by (rewrite ents_length, <- (mi_count _ _ _ _ IM); auto).
    destruct (ents (m_slots (s_map s))); [destruct Hv|discriminate]. }
  assert (G' : forall k, get keqb hash (new_map zeroK (Nat.max c 3)) k = Some 0%Z).
  { intros k. destruct (get_has keqb keqb_spec zeroK hash (drift_limit q) (drift_limit2 q) (new_map zeroK (Nat.max c 3)) k) as (v & -> & [Hv|[-> _]]); auto.
    - apply (MI_new keqb keqb_spec); [apply drift_limit2|lia].
    - exfalso. destruct (new_map_wf keqb keqb_spec zeroK hash (drift_limit q) (drift_limit2 q) (Nat.max c 3)) as (_ & _ & _ & N). eapply N; eauto. }
  unfold same_answers, new_sketch_sample, maximum_error. cbn [s_map s_off s_weight maximum_error m_active new_map]. split; [|rewrite O, HWt, HE; auto].
  intros k. unfold estimate, estimate_longs, estimate_items, lower_bound, upper_bound. cbn [s_map s_off]. rewrite G, G', O. destruct q; auto.
Qed.

(** What [Serde] does to an honest sketch. *)
Lemma serde_answers l s s' : run l = Some s -> valid l -> (weight K l < 2 ^ 63)%Z -> honest l -> run (Serde K l) = Some s' -> same_answers s s'.
Proof.
  intros HR HV HW HH HS. cbn [FreqProps.run] in HS. rewrite HR in HS. cbn [bindo] in HS. destruct (is_empty s) eqn:E.
  - apply (fresh_answers l); auto. { eapply HH; eauto. }
    unfold to_image in HS. rewrite E in HS. unfold of_image in HS. destruct (is_items q); cbn [of_image_items of_image_longs] in HS; inversion HS; unfold new_items, new_longs; eauto.
  - destruct (freq_serde K keqb keqb_spec zeroK hash golden q l s s' HR HV HW E HS) as (A & B & C & D & F). split; auto.
Qed.
End Life.

Section LongsLife.
Variable hash : Z -> N.
Variable golden : nat -> N.
Notation run := (run Z Z.eqb 0%Z hash golden Longs).
Notation valid := (valid Z Z.eqb 0%Z hash golden Longs).
Notation legal := (legal Z Z.eqb 0%Z hash golden Longs).
Notation honest := (honest Z Z.eqb 0%Z hash golden Longs).

Lemma pow1024 : 1024 = drift_limit Longs. Proof. reflexivity. Qed.

(** ToSlice always succeeds, its length is the documented one, and the constructor from a slice is exactly the [Serde] step of the
    histories of C20 - C23: everything proved about histories with [Serde] holds for the bytes. *)
Theorem longs_slice_is_serde : forall l s, run l = Some s -> valid l -> (weight Z l < 2 ^ 63)%Z -> Forall (fun e => int64 (fst e)) (stream Z l) -> small s ->
  exists b, longs_to_slice s = Ok b /\ length b = (if is_empty s then 8 else 32 + 16 * m_active (s_map s)) /\
    longs_from_slice hash b = to_res (run (Serde Z l)).
Proof.
  intros l s HR HV HW HK HS. destruct (longs_bytes hash s) as (b & B1 & B2 & B3).
  - eapply (run_fits Z.eqb Z.eqb_eq); eauto.
  - eapply (tracked_forall Z.eqb Z.eqb_eq); eauto.
  - exists b. split; auto. split; auto. rewrite B3, pow1024. cbn [FreqProps.run]. rewrite HR. cbn [bindo]. reflexivity.
Qed.

Theorem longs_slice_round_trip : forall l, legal l -> honest l -> Forall (fun e => int64 (fst e)) (stream Z l) ->
  exists s b s', run l = Some s /\ longs_to_slice s = Ok b /\ longs_from_slice hash b = Ok s' /\ same_answers Z.eqb hash Longs s s' /\ s_lgmax s' = s_lgmax s.
Proof.
  intros l HL HH HK. pose proof (legal_valid _ _ _ _ _ _ _ HL) as HV. pose proof (legal_weight Z Z.eqb Z.eqb_eq _ _ _ _ _ HL) as HW.
  destruct (run_total Z Z.eqb Z.eqb_eq 0%Z hash golden Longs l HL) as (s & HR & Hs). cbn [lg_safe] in Hs.
  destruct (longs_slice_is_serde l s HR HV HW HK ltac:(split; lia)) as (b & B1 & B2 & B3).
  assert (HL' : legal (Serde Z l)) by (split; auto).
  destruct (run_total Z Z.eqb Z.eqb_eq 0%Z hash golden Longs _ HL') as (s' & HR' & _).
  exists s, b, s'. rewrite B3, HR'. split; [exact HR|]. split; [exact B1|]. split; [reflexivity|]. split.
  - eapply serde_answers; eauto. apply Z.eqb_eq.
  - cbn [FreqProps.run] in HR'. rewrite HR in HR'. cbn [bindo] in HR'. destruct (is_empty s) eqn:E.
    + unfold to_image in HR'. rewrite E in HR'. cbn in HR'. inversion HR'. cbn [new_longs new_sketch_sample s_lgmax].
      destruct (run_ok1 Z Z.eqb Z.eqb_eq 0%Z hash golden Longs l s HR HV HW) as [I _]. pose proof (si_lgmax _ _ _ _ _ _ _ I). lia.
    + eapply freq_serde in HR'; eauto; [tauto|apply Z.eqb_eq].
Qed.
(** The wire format, byte by byte. *)
Definition wire_head (s : @sketch Z) : list N :=
  if is_empty s then [1; 1; 10; N.of_nat (s_lgmax s); N.of_nat (m_lg (s_map s)); 5; 0; 0]%N
  else [4; 1; 10; N.of_nat (s_lgmax s); N.of_nat (m_lg (s_map s)); 0; 0; 0]%N ++
       le 8 (N.of_nat (m_active (s_map s))) ++ le 8 (to_u64 (s_weight s)) ++ le 8 (to_u64 (s_off s)).
Definition wire (s : @sketch Z) : list N :=
  wire_head s ++ if is_empty s then [] else
    flat_map (fun e => le 8 (to_u64 (snd e))) (ents (m_slots (s_map s))) ++ flat_map (fun e => le 8 (to_u64 (fst e))) (ents (m_slots (s_map s))).
Fixpoint leq (a b : list N) : bool := match a, b with [], [] => true | x :: a, y :: b => (x =? y)%N && leq a b | _, _ => false end.
Lemma leq_eq : forall a b, leq a b = true -> a = b.
Proof. induction a as [|x a IH]; intros [|y b] H; cbn in H; try congruence. apply andb_prop in H. destruct H as [H1 H2]. apply N.eqb_eq in H1. apply IH in H2. congruence. Qed.
Lemma pre0_bytes_all : forallb (fun a => forallb (fun b => leq (le 8 (pre0_of 1 a b true)) [1; 1; 10; N.of_nat a; N.of_nat b; 5; 0; 0]%N &&
  leq (le 8 (pre0_of 4 a b false)) [4; 1; 10; N.of_nat a; N.of_nat b; 0; 0; 0]%N) (seq 0 63)) (seq 0 63) = true.
Proof. vm_compute. reflexivity. Qed.
Lemma pre0_bytes a b : a <= 62 -> b <= 62 -> le 8 (pre0_of 1 a b true) = [1; 1; 10; N.of_nat a; N.of_nat b; 5; 0; 0]%N /\
  le 8 (pre0_of 4 a b false) = [4; 1; 10; N.of_nat a; N.of_nat b; 0; 0; 0]%N.
Proof.
  intros Ha Hb. pose proof pre0_bytes_all as A. rewrite forallb_forall in A. specialize (A a ltac:(apply in_seq; lia)).
  rewrite forallb_forall in A. specialize (A b ltac:(apply in_seq; lia)). apply andb_prop in A. destruct A as [A1 A2]. split; apply leq_eq; auto.
Qed.
Theorem longs_slice_layout : forall l s, run l = Some s -> valid l -> (weight Z l < 2 ^ 63)%Z -> small s -> longs_to_slice s = Ok (wire s).
Proof.
  intros l s HR HV HW HS. assert (F : fits s) by (eapply (run_fits Z.eqb Z.eqb_eq); eauto).
  destruct (pre0_bytes (s_lgmax s) (m_lg (s_map s)) (f_max _ F) (f_cur _ F)) as [P1 P4].
  unfold longs_to_slice, wire, wire_head. destruct (is_empty s) eqn:E.
  - destruct (head_empty s 0 (f_max _ F) E) as (w & -> & ->). rewrite P1. reflexivity.
  - set (n := m_active (s_map s)). rewrite (head_full s (8 * n) F E). cbn [bindr]. rewrite map_length, <- (f_count _ F). fold n. rewrite Nat.ltb_irrefl.
    rewrite firstn_all2 by (rewrite map_length, <- (f_count _ F); auto).
    pose proof (ser_loop_gen 8 (map (fun c => to_u64 (ky c)) (filter active (m_slots (s_map s)))) (preamble s ++ counts s) []) as G.
    rewrite map_length, <- (f_count _ F), app_length, preamble_len, counts_len, app_nil_r, <- !app_assoc in G by auto. fold n in G. rewrite G. cbn [of_opt].
    rewrite app_nil_r. f_equal. unfold preamble. rewrite P4. fold n. rewrite <- !app_assoc. do 4 f_equal. unfold counts, ents, fixed_layout.
    rewrite !flat_map_concat_map, !map_map. reflexivity.
Qed.
End LongsLife.

Section ItemsLife.
Context {K : Type} (keqb : K -> K -> bool) (keqb_spec : forall a b, keqb a b = true <-> a = b) (zeroK : K) (hash : K -> N) (golden : nat -> N).
Notation run := (run K keqb zeroK hash golden Items).
Notation valid := (valid K keqb zeroK hash golden Items).
Notation legal := (legal K keqb zeroK hash golden Items).
Notation honest := (honest K keqb zeroK hash golden Items).
(** The user's serializer: what it writes for storable items, it reads back. *)
Variable ser : list K -> res (list N).
Variable deser : list N -> nat -> res (list K).
Variable storable : K -> Prop.
Hypothesis serde_law : forall ks, Forall storable ks -> exists b, ser ks = Ok b /\ deser b (length ks) = Ok ks.
Notation from_slice := (items_from_slice keqb zeroK hash (drift_limit Items) false true deser).

Theorem items_slice_is_serde : forall l s, run l = Some s -> valid l -> (weight K l < 2 ^ 63)%Z -> Forall (fun e => storable (fst e)) (stream K l) -> small s ->
  exists b, items_to_slice ser s = Ok b /\ from_slice b = to_res (run (Serde K l)).
Proof.
  intros l s HR HV HW HK HS. destruct (items_bytes keqb zeroK hash (drift_limit Items) false true ser deser s) as (b & B1 & B2).
  - eapply (run_fits keqb keqb_spec); eauto.
  - intros _. destruct (serde_law (map ky (filter active (m_slots (s_map s))))) as (kb & K1 & K2).
    + eapply (tracked_forall keqb keqb_spec); eauto.
    + exists kb. rewrite map_length in K2. auto.
  - exists b. split; auto. rewrite B2. cbn [FreqProps.run]. rewrite HR. cbn [bindo]. reflexivity.
Qed.

Theorem items_slice_round_trip : forall l, legal l -> honest l -> Forall (fun e => storable (fst e)) (stream K l) ->
  exists s b s', run l = Some s /\ items_to_slice ser s = Ok b /\ from_slice b = Ok s' /\ same_answers keqb hash Items s s' /\
    (is_empty s = false -> s_lgmax s' = s_lgmax s).
Proof.
  intros l HL HH HK. pose proof (legal_valid _ _ _ _ _ _ _ HL) as HV. pose proof (legal_weight K keqb keqb_spec _ _ _ _ _ HL) as HW.
  destruct (run_total K keqb keqb_spec zeroK hash golden Items l HL) as (s & HR & Hs). cbn [lg_safe] in Hs.
  destruct (items_slice_is_serde l s HR HV HW HK ltac:(split; lia)) as (b & B1 & B2).
  assert (HL' : legal (Serde K l)) by (split; auto).
  destruct (run_total K keqb keqb_spec zeroK hash golden Items _ HL') as (s' & HR' & _).
  exists s, b, s'. rewrite B2, HR'. split; [exact HR|]. split; [exact B1|]. split; [reflexivity|]. split.
  - eapply serde_answers; eauto.
  - intros E. cbn [FreqProps.run] in HR'. rewrite HR in HR'. cbn [bindo] in HR'. eapply freq_serde in HR'; eauto. tauto.
Qed.
End ItemsLife.

(** ** The string form *)
Lemma parse_digits_digits : forall f n acc, (n < 2 ^ N.of_nat f)%N -> parse_digits (digits f n acc) 0 = parse_digits acc n.
Proof.
  induction f as [|f IH]; intros n acc H; cbn [digits].
  - change (2 ^ N.of_nat 0)%N with 1%N in H. replace n with 0%N by lia. auto.
  - destruct (N.ltb_spec n 10).
    + cbn [parse_digits]. replace ((48 <=? 48 + n)%N && (48 + n <=? 57)%N) with true by (symmetry; rewrite Bool.andb_true_iff, !N.leb_le; lia).
      f_equal. lia.
    + rewrite Nat2N.inj_succ, N.pow_succ_r' in H. pose proof (N.div_mod n 10 ltac:(lia)). pose proof (N.mod_lt n 10 ltac:(lia)).
      set (d := (n / 10)%N) in *. set (m := (n mod 10)%N) in *. clearbody d m. rewrite IH by lia. cbn [parse_digits].
      replace ((48 <=? 48 + m)%N && (48 + m <=? 57)%N) with true by (symmetry; rewrite Bool.andb_true_iff, !N.leb_le; lia).
      f_equal. lia.
Qed.
Lemma size_bound n : (n < 2 ^ N.of_nat (N.size_nat n))%N.
Proof.
  destruct n as [|p]; [reflexivity|]. cbn [N.size_nat]. induction p as [p IH|p IH|]; cbn [Pos.size_nat]; [| |reflexivity];
    rewrite Nat2N.inj_succ, N.pow_succ_r'; lia.
Qed.
Definition digit (c : N) : Prop := (48 <= c <= 57)%N.
Lemma digits_spec : forall f n acc, (n < 2 ^ N.of_nat f)%N -> Forall digit acc -> Forall digit (digits f n acc) /\ (0 < f -> digits f n acc <> []).
Proof.
  induction f as [|f IH]; intros n acc H HA; cbn [digits]; [split; [auto|lia]|].
  rewrite Nat2N.inj_succ, N.pow_succ_r' in H. pose proof (N.div_mod n 10 ltac:(lia)). pose proof (N.mod_lt n 10 ltac:(lia)).
  destruct (N.ltb_spec n 10).
  - split; [constructor; auto; unfold digit; lia|discriminate].
  - set (d := (n / 10)%N) in *. set (m := (n mod 10)%N) in *. clearbody d m.
    destruct (IH d ((48 + m)%N :: acc) ltac:(lia)) as [A B]. { constructor; auto. unfold digit; lia. }
    split; auto. intros _. destruct f; [|apply B; lia]. cbn. discriminate.
Qed.
Lemma show_spec n : Forall digit (show_N n) /\ show_N n <> [].
Proof. unfold show_N. pose proof (size_bound n). destruct (digits_spec (S (N.size_nat n)) n []) as [A B]; auto; [|split; [auto|apply B; lia]]. rewrite Nat2N.inj_succ, N.pow_succ_r'. lia. Qed.
Lemma parse_show bits n : (n < 2 ^ bits)%N -> parse_uint bits (show_N n) = Some n.
Proof.
  intros H. destruct (show_spec n) as [_ NE]. unfold parse_uint. destruct (show_N n) as [|c r] eqn:E; [congruence|]. rewrite <- E.
  unfold show_N. rewrite parse_digits_digits. 2:{ pose proof (size_bound n). rewrite Nat2N.inj_succ, N.pow_succ_r'. lia. }
  cbn [parse_digits bindo]. apply N.ltb_lt in H. rewrite H. auto.
Qed.
Lemma parse_int_show bits n : (0 < bits <= 64)%N -> (n < 2 ^ (bits - 1))%N -> parse_int bits (show_N n) = Some (Z.of_N n).
Proof.
  intros Hb H. destruct (show_spec n) as [D NE]. unfold parse_int. pose proof (parse_show 64 n) as P.
  destruct (show_N n) as [|c r] eqn:E; [congruence|]. inversion D as [|? ? D1 D2]; subst. unfold digit in D1.
  replace (c =? 45)%N with false by (symmetry; apply N.eqb_neq; lia). replace (c =? 43)%N with false by (symmetry; apply N.eqb_neq; lia).
  rewrite P. 2:{ eapply N.lt_trans; [exact H|]. apply N.pow_lt_mono_r; lia. } cbn [bindo].
  apply N.ltb_lt in H. rewrite H. auto.
Qed.
Lemma show_Z_nonneg z : (0 <= z)%Z -> show_Z z = show_N (Z.to_N z).
Proof. intros. unfold show_Z. destruct (Z.ltb_spec z 0); [lia|auto]. Qed.

Lemma digits_no_comma t : Forall digit t -> Forall (fun c => c <> 44%N) t.
Proof. intros H. eapply Forall_impl; [|exact H]. unfold digit. intros. lia. Qed.
Lemma split_token t : Forall (fun c => c <> 44%N) t -> forall r cur, split_comma (t ++ 44%N :: r) cur = (rev cur ++ t) :: split_comma r [].
Proof.
  induction 1 as [|c t H1 H2 IH]; intros r cur; cbn [app split_comma].
  - change (44 =? 44)%N with true. rewrite app_nil_r. auto.
  - apply N.eqb_neq in H1. rewrite H1, IH. cbn [rev]. rewrite <- app_assoc. auto.
Qed.
Lemma split_last t : Forall (fun c => c <> 44%N) t -> forall cur, split_comma t cur = [rev cur ++ t].
Proof.
  induction 1 as [|c t H1 H2 IH]; intros cur; cbn [split_comma]; [rewrite app_nil_r; auto|].
  apply N.eqb_neq in H1. rewrite H1, IH. cbn [rev]. rewrite <- app_assoc. auto.
Qed.
Definition joined (ts : list (list N)) : list N := flat_map (fun t => t ++ [44%N]) ts.
Lemma last_app_r {A} (a b : list A) d : b <> [] -> last (a ++ b) d = last b d.
Proof. intros H. destruct (exists_last H) as (b' & x & ->). rewrite app_assoc, !last_last. auto. Qed.
Lemma joined_last ts : ts <> [] -> last (joined ts) 0%N = 44%N.
Proof.
  induction ts as [|t ts IH]; [congruence|]. intros _. cbn [joined flat_map]. destruct ts as [|u ts]; [cbn [flat_map]; rewrite app_nil_r; apply last_last|].
  fold (joined (u :: ts)). rewrite <- IH at 2 by discriminate. rewrite <- app_assoc. rewrite (app_assoc t), last_app_r; auto. cbn [joined flat_map]. destruct u; discriminate.
Qed.
Lemma joined_split ts : ts <> [] -> Forall (Forall (fun c => c <> 44%N)) ts -> split_comma (removelast (joined ts)) [] = ts.
Proof.
  induction ts as [|t ts IH]; [congruence|]. intros _ H. inversion H as [|? ? H1 H2]; subst. cbn [joined flat_map]. destruct ts as [|u ts].
  - cbn [flat_map]. rewrite app_nil_r, removelast_last. apply split_last; auto.
  - fold (joined (u :: ts)). rewrite removelast_app. 2:{ cbn [joined flat_map]. destruct u; discriminate. }
    rewrite <- app_assoc. cbn [app]. rewrite split_token by auto. rewrite IH; auto. discriminate.
Qed.

Definition pairs_of (cs : list (@slot Z)) : list Z := flat_map (fun c => [ky c; vl c]) cs.
Definition u63 (z : Z) : Prop := (0 <= z < 2 ^ 63)%Z.
Lemma put_tokens_ok hash cs : Forall (fun c => u63 (ky c) /\ u63 (vl c)) cs -> Forall (fun c => active c = true) cs -> forall m,
  put_tokens hash (length cs) (map show_Z (pairs_of cs)) m = err (put_all Z.eqb hash 1024 cs m).
Proof.
  induction 1 as [|c cs [Hk Hv] H IH]; intros HA m; [reflexivity|]. inversion HA as [|? ? A1 A2]; subst.
  cbn [length pairs_of flat_map app map put_tokens put_all]. rewrite A1. unfold u63 in *.
  rewrite !show_Z_nonneg, !parse_show by lia. cbn [err bindr]. rewrite !Z2N.id by lia. rewrite !wrap64_id by (unfold int64; lia).
  destruct (adjust_or_put Z.eqb hash 1024 m (ky c) (vl c)) as [m'|]; cbn [err bindr bindo]; auto.
Qed.
Lemma put_all_filter {K} (keqb : K -> K -> bool) hash d cs : forall m, put_all keqb hash d (filter active cs) m = put_all keqb hash d cs m.
Proof.
  induction cs as [|c cs IH]; intros m; [auto|]. cbn [filter put_all]. destruct (active c) eqn:E; auto. cbn [put_all]. rewrite E.
  destruct (adjust_or_put keqb hash d m (ky c) (vl c)); cbn [bindo]; auto.
Qed.

Section StringLife.
Variable hash : Z -> N.
Variable golden : nat -> N.
Notation run := (run Z Z.eqb 0%Z hash golden Longs).
Notation valid := (valid Z Z.eqb 0%Z hash golden Longs).
Notation legal := (legal Z Z.eqb 0%Z hash golden Longs).

Lemma pow2_lg_ok lg : pow2_lg (2 ^ N.of_nat lg) = Some lg.
Proof. unfold pow2_lg. rewrite N.log2_pow2 by lia. rewrite N.eqb_refl, Nat2N.id. auto. Qed.

Lemma string_bytes l s : run l = Some s -> valid l -> (weight Z l < 2 ^ 63)%Z -> Forall (fun e => u63 (fst e)) (stream Z l) ->
  s_lgmax s <= 62 -> m_lg (s_map s) <= 31 ->
  longs_from_string hash (longs_to_string s) =
  let* m := err (put_all Z.eqb hash 1024 (m_slots (s_map s)) (new_map 0%Z (m_lg (s_map s)))) in
  let s0 := new_longs 0%Z (s_lgmax s) (m_lg (s_map s)) in Ok (mkSk (s_lgmax s0) (s_cap s0) (s_off s) (s_weight s) (s_sample s0) m).
Proof.
  intros HR HV HW HK S1 S2. destruct (run_ok1 Z Z.eqb Z.eqb_eq 0%Z hash golden Longs l s HR HV HW) as [I HWt].
  destruct (SI_off_bound Z Z.eqb Z.eqb_eq 0%Z hash golden Longs _ _ _ HW I) as (O1 & O2 & O3). pose proof (si_map _ _ _ _ _ _ _ I) as IM.
  assert (T0 : (0 <= total (m_slots (s_map s)))%Z) by (apply (total_nonneg Z.eqb Z.eqb_eq 0%Z hash (drift_limit Longs) (drift_limit2 Longs) golden), (si_pos _ _ _ _ _ _ _ I)).
  pose proof (active_lt Z.eqb Z.eqb_eq 0%Z hash golden s _ _ _ I) as HA.
  assert (HA' : (N.of_nat (m_active (s_map s)) < 2 ^ 31)%N) by (eapply N.lt_le_trans; [exact HA|apply N.pow_le_mono_r; lia]).
  set (cs := filter active (m_slots (s_map s))).
  assert (CS : Forall (fun c => u63 (ky c) /\ u63 (vl c)) cs).
  { pose proof (tracked_forall Z.eqb Z.eqb_eq 0%Z hash golden Longs u63 l s HR HV HW HK) as TK. apply Forall_forall. intros c Hc. split.
    - rewrite Forall_forall in TK. apply TK, in_map, Hc.
    - assert (Hh : has 0%Z (m_slots (s_map s)) (ky c) (vl c)) by (apply ents_in; unfold ents; apply in_map_iff; exists c; auto).
      destruct (O3 _ _ Hh) as (A & _ & B). unfold u63. lia. }
  assert (CA : Forall (fun c => active c = true) cs) by (apply Forall_forall; intros c Hc; apply filter_In in Hc; tauto).
  assert (CL : length cs = m_active (s_map s)) by (symmetry; apply (mi_count _ _ _ _ IM)).
  assert (SF : string_fields s = [1%Z; 10%Z; Z.of_nat (s_lgmax s); (if m_active (s_map s) =? 0 then 5%Z else 0%Z); s_weight s; s_off s;
     Z.of_nat (m_active (s_map s)); Z.of_nat (2 ^ m_lg (s_map s))] ++ pairs_of cs).
  { unfold string_fields. rewrite (mi_len _ _ _ _ IM). unfold pairs_of, cs. do 2 f_equal. apply filter_ext. intros c. unfold active.
    destruct (Nat.eqb_spec (st c) 0), (Nat.ltb_spec 0 (st c)); cbn; auto; lia. }
  assert (NN : Forall (fun z => (0 <= z)%Z) (string_fields s)).
  { rewrite SF. apply Forall_app. split.
    - repeat (constructor; [try lia; destruct (_ =? 0); lia|]). constructor.
    - unfold pairs_of. apply Forall_flat_map. eapply Forall_impl; [|exact CS]. intros c [Hk Hv]. unfold u63 in *. repeat constructor; lia. }
  assert (TS : longs_to_string s = joined (map show_Z (string_fields s))).
  { unfold longs_to_string, joined. rewrite !flat_map_concat_map, map_map. auto. }
  set (ts := map show_Z (string_fields s)) in *.
  assert (TN : ts <> []) by (unfold ts; rewrite SF; discriminate).
  assert (TC : Forall (Forall (fun c => c <> 44%N)) ts).
  { unfold ts. apply Forall_map. eapply Forall_impl; [|exact NN]. intros z Hz. cbn beta in Hz. rewrite show_Z_nonneg by auto. apply digits_no_comma, show_spec. }
  assert (TL : length ts = 8 + 2 * m_active (s_map s)).
  { unfold ts. rewrite map_length, SF, app_length. cbn [length]. f_equal. rewrite <- CL. unfold pairs_of. clear. induction cs; cbn [flat_map length app]; [auto|lia]. }
  unfold longs_from_string. rewrite TS, joined_last by auto. change (44 =? 44)%N with true. cbn iota. rewrite joined_split by auto.
  assert (NE : length (joined ts) <? 1 = false).
  { apply Nat.ltb_ge. destruct ts as [|t ts']; [congruence|]. cbn [joined flat_map]. rewrite !app_length. cbn [length]. lia. }
  rewrite NE, TL. replace (8 + 2 * m_active (s_map s) <? 8) with false by (symmetry; apply Nat.ltb_ge; lia).
  assert (TT : ts = map show_Z [1%Z; 10%Z; Z.of_nat (s_lgmax s); (if m_active (s_map s) =? 0 then 5%Z else 0%Z); s_weight s; s_off s;
     Z.of_nat (m_active (s_map s)); Z.of_nat (2 ^ m_lg (s_map s))] ++ map show_Z (pairs_of cs)) by (unfold ts; rewrite SF, map_app; auto).
  rewrite TT. cbn [map app nth skipn].
  assert (PI : forall bits z, (0 < bits <= 64)%N -> (0 <= z < 2 ^ Z.of_N (bits - 1))%Z -> parse_int bits (show_Z z) = Some z).
  { intros bits z Hb Hz. rewrite show_Z_nonneg by lia. rewrite parse_int_show; [rewrite Z2N.id by lia; auto|auto|].
    apply N2Z.inj_lt. rewrite Z2N.id, N2Z.inj_pow by lia. apply Hz. }
  assert (Q1 : (2 ^ Z.of_N (32 - 1) = 2147483648)%Z) by reflexivity. assert (Q2 : (2 ^ Z.of_N (64 - 1) = 2 ^ 63)%Z) by reflexivity.
  change (2 ^ 31)%N with 2147483648%N in HA'.
  rewrite !PI; try (rewrite ?Q1, ?Q2; try (destruct (m_active (s_map s) =? 0)); lia).
  cbn [err bindr]. rewrite show_Z_nonneg by lia.
  assert (P2 : Z.to_N (Z.of_nat (2 ^ m_lg (s_map s))) = (2 ^ N.of_nat (m_lg (s_map s)))%N).
  { rewrite <- nat_N_Z, N2Z.id, Nat2N.inj_pow. auto. }
  rewrite P2, parse_show by (apply N.pow_lt_mono_r; lia). cbn [err bindr].
  change (1 =? 1)%Z with true. change (10 =? 10)%Z with true. cbn [negb].
  replace (negb (0 <? (if (m_active (s_map s) =? 0)%nat then 5 else 0))%Z && (Z.of_nat (m_active (s_map s)) =? 0)%Z) with false.
  2:{ destruct (Nat.eqb_spec (m_active (s_map s)) 0); [reflexivity|]. cbn [Z.ltb negb andb]. symmetry. apply Z.eqb_neq. lia. }
  replace (2 * Z.of_nat (m_active (s_map s)) =? Z.of_nat (8 + 2 * m_active (s_map s)) - 6 - 2)%Z with true by (symmetry; apply Z.eqb_eq; lia).
  cbn [negb]. replace (62 <? Z.of_nat (s_lgmax s))%Z with false by (symmetry; apply Z.ltb_ge; lia).
  rewrite pow2_lg_ok. cbn [err bindr]. rewrite !Nat2Z.id. rewrite <- CL, put_tokens_ok by auto. unfold cs. rewrite put_all_filter. reflexivity.
Qed.

(** ToString and NewLongsSketchFromString, for non-negative keys: the constructor does not panic on the string of any reachable sketch, also
    when a purge has emptied its table, and a sketch it gives back answers every query alike. *)
Theorem longs_string_same : forall l s, run l = Some s -> valid l -> (weight Z l < 2 ^ 63)%Z -> Forall (fun e => u63 (fst e)) (stream Z l) ->
  s_lgmax s <= 62 -> m_lg (s_map s) <= 31 ->
  longs_from_string hash (longs_to_string s) <> Panic /\
  forall s', longs_from_string hash (longs_to_string s) = Ok s' -> same_answers Z.eqb hash Longs s s' /\ s_lgmax s' = s_lgmax s.
Proof.
  intros l s HR HV HW HK S1 S2. rewrite (string_bytes l s HR HV HW HK S1 S2).
  destruct (run_ok1 Z Z.eqb Z.eqb_eq 0%Z hash golden Longs l s HR HV HW) as [I HWt]. pose proof (si_map _ _ _ _ _ _ _ I) as IM. pose proof (mi_wf _ _ _ _ IM) as IW.
  destruct (put_all Z.eqb hash 1024 (m_slots (s_map s)) (new_map 0%Z (m_lg (s_map s)))) as [m|] eqn:E; cbn [err bindr]; [|split; discriminate].
  split; [discriminate|]. intros s' HS'. inversion HS'; subst s'; clear HS'. cbn [s_lgmax new_longs new_sketch_sample].
  pose proof (si_lgmax _ _ _ _ _ _ _ I). split; [|lia].
  destruct (new_map_wf Z.eqb Z.eqb_eq 0%Z hash (drift_limit Longs) (drift_limit2 Longs) (m_lg (s_map s))) as (_ & _ & _ & Hno).
  destruct (put_all_ok Z.eqb Z.eqb_eq 0%Z hash (drift_limit Longs) (drift_limit2 Longs) (m_slots (s_map s)) (new_map 0%Z (m_lg (s_map s))) m) as (M1 & M2 & M3 & M4).
  - apply (MI_new Z.eqb Z.eqb_eq); [apply drift_limit2|apply (mi_lg _ _ _ _ IM)].
  - apply (ents_keys_NoDup Z.eqb Z.eqb_eq 0%Z hash (drift_limit Longs) (drift_limit2 Longs)); auto.
  - intros k v w _ X. eapply Hno; eauto.
  - exact E.
  - assert (X : forall k, get Z.eqb hash m k = get Z.eqb hash (s_map s) k).
    { intros k. destruct (get_has Z.eqb Z.eqb_eq 0%Z hash (drift_limit Longs) (drift_limit2 Longs) (s_map s) k IM) as (v & HG & HH).
      destruct (get_has Z.eqb Z.eqb_eq 0%Z hash (drift_limit Longs) (drift_limit2 Longs) m k M1) as (v' & HG' & HH').
      assert (HE : forall v, has 0%Z (m_slots m) k v <-> has 0%Z (m_slots (s_map s)) k v).
      { intros u. rewrite M4, (ents_in 0%Z). split; [intros [Y|Y]; auto; exfalso; eapply Hno; eauto|auto]. }
      rewrite HG, HG'. f_equal. destruct HH as [Hv|[-> Hv]], HH' as [Hv'|[-> Hv']]; auto.
      - apply HE in Hv'. eapply has_fun; eauto.
      - exfalso. apply (Hv' v), HE; auto.
      - exfalso. apply (Hv v'), HE; auto. }
    unfold same_answers, maximum_error. cbn [s_map s_off s_weight]. split.
    + intros k. unfold estimate, estimate_longs, lower_bound, upper_bound. cbn [s_map s_off]. rewrite X. auto.
    + cbn [new_map m_active Nat.add] in M3. rewrite M3, (mi_count _ _ _ _ IM). auto.
Qed.

Theorem longs_string_round_trip : forall l, legal l -> Forall (fun e => u63 (fst e)) (stream Z l) ->
  exists s s', run l = Some s /\ longs_from_string hash (longs_to_string s) = Ok s' /\ same_answers Z.eqb hash Longs s s' /\ s_lgmax s' = s_lgmax s.
Proof.
  intros l HL HK. pose proof (legal_valid _ _ _ _ _ _ _ HL) as HV. pose proof (legal_weight Z Z.eqb Z.eqb_eq _ _ _ _ _ HL) as HW.
  destruct (run_total Z Z.eqb Z.eqb_eq 0%Z hash golden Longs l HL) as (s & HR & Hs). cbn [lg_safe] in Hs. exists s.
  assert (S1 : s_lgmax s <= 62) by lia. assert (S2 : m_lg (s_map s) <= 31) by lia.
  destruct (longs_string_same l s HR HV HW HK S1 S2) as [_ HS]. rewrite (string_bytes l s HR HV HW HK S1 S2) in *.
  destruct (run_ok1 Z Z.eqb Z.eqb_eq 0%Z hash golden Longs l s HR HV HW) as [I HWt]. pose proof (si_map _ _ _ _ _ _ _ I) as IM.
  destruct (new_map_wf Z.eqb Z.eqb_eq 0%Z hash (drift_limit Longs) (drift_limit2 Longs) (m_lg (s_map s))) as (_ & _ & _ & Hno).
  destruct (put_all Z.eqb hash 1024 (m_slots (s_map s)) (new_map 0%Z (m_lg (s_map s)))) as [m|] eqn:E.
  - cbn [err bindr] in *. eexists. split; [exact HR|]. split; [reflexivity|]. apply HS. reflexivity.
  - exfalso. revert E. apply (put_all_total Z.eqb Z.eqb_eq 0%Z hash (drift_limit Longs) (drift_limit2 Longs)).
    + apply (MI_new Z.eqb Z.eqb_eq); [apply drift_limit2|apply (mi_lg _ _ _ _ IM)].
    + apply (ents_keys_NoDup Z.eqb Z.eqb_eq 0%Z hash (drift_limit Longs) (drift_limit2 Longs)). apply (mi_wf _ _ _ _ IM).
    + intros k v w _ X. eapply Hno; eauto.
    + cbn [new_map m_thr]. apply (safe_threshold Z Z.eqb Z.eqb_eq 0%Z hash golden Longs). cbn [lg_safe]. lia.
    + cbn [new_map m_thr m_active]. rewrite <- (mi_count _ _ _ _ IM), <- (mi_thr _ _ _ _ IM). pose proof (mi_cap _ _ _ _ IM). lia.
Qed.
End StringLife.

(** ** Concrete cases *)
Definition hshZ (k : Z) : N := (Z.to_N (k mod 1024) * 7919 / 3)%N.
Definition upd_allZ (l : life Z) (ks : list (Z * Z)) : life Z := fold_left (fun l e => Update _ l (fst e) (snd e)) ks l.
Definition streamZ (sign : Z) : list (Z * Z) := map (fun i => (sign * (Z.of_nat i * 1000003 mod 17), Z.of_nat i + 1)%Z) (seq 0 40).
Definition lifeZ (sign : Z) : life Z := upd_allZ (New _ 3 3) (streamZ sign).
Lemma lifeZ_legal golden sign : sign = 1%Z \/ sign = (-1)%Z -> legal Z Z.eqb 0%Z hshZ golden Longs (lifeZ sign) /\ honest Z Z.eqb 0%Z hshZ golden Longs (lifeZ sign) /\
  Forall (fun e => int64 (fst e)) (stream Z (lifeZ sign)) /\ (sign = 1%Z -> Forall (fun e => u63 (fst e)) (stream Z (lifeZ sign))).
Proof.
  assert (B : Forall int64 (map fst (stream Z (lifeZ 1))) /\ Forall int64 (map fst (stream Z (lifeZ (-1)))) /\ Forall u63 (map fst (stream Z (lifeZ 1)))).
  { assert (C1 : forallb (fun z => (- 2 ^ 63 <=? z)%Z && (z <? 2 ^ 63)%Z) (map fst (stream Z (lifeZ 1)) ++ map fst (stream Z (lifeZ (-1)))) = true) by (vm_compute; reflexivity).
    assert (C2 : forallb (fun z => (0 <=? z)%Z && (z <? 2 ^ 63)%Z) (map fst (stream Z (lifeZ 1))) = true) by (vm_compute; reflexivity).
    rewrite forallb_forall in C1, C2. split; [|split]; apply Forall_forall; intros z Hz.
    - specialize (C1 z ltac:(apply in_or_app; auto)). apply andb_prop in C1. destruct C1 as [C3 C4]. apply Z.leb_le in C3. apply Z.ltb_lt in C4. split; auto.
    - specialize (C1 z ltac:(apply in_or_app; auto)). apply andb_prop in C1. destruct C1 as [C3 C4]. apply Z.leb_le in C3. apply Z.ltb_lt in C4. split; auto.
    - specialize (C2 z Hz). apply andb_prop in C2. destruct C2 as [C3 C4]. apply Z.leb_le in C3. apply Z.ltb_lt in C4. split; auto. }
  rewrite !Forall_map in B. destruct B as (B1 & B2 & B3).
  intros [-> | ->].
  - split; [vm_compute; repeat split; discriminate || lia || (intros; discriminate)|]. split; [|tauto]. intros s HR HE. exfalso.
    assert (R : match run Z Z.eqb 0%Z hshZ golden Longs (lifeZ 1) with Some s => is_empty s | None => true end = false) by (vm_compute; reflexivity).
    rewrite HR in R. congruence.
  - split; [vm_compute; repeat split; discriminate || lia || (intros; discriminate)|]. split; [|split; [auto|discriminate]]. intros s HR HE. exfalso.
    assert (R : match run Z Z.eqb 0%Z hshZ golden Longs (lifeZ (-1)) with Some s => is_empty s | None => true end = false) by (vm_compute; reflexivity).
    rewrite HR in R. congruence.
Qed.
(** A sketch that has grown past its capacity and purged: bytes, for positive and negative keys, and string, for positive ones. *)
Definition runZ := run Z Z.eqb 0%Z hshZ gold Longs.
Definition info (s : @sketch Z) := (m_active (s_map s), maximum_error s, s_weight s, s_lgmax s).
Example longs_slice_example : exists s b s', runZ (lifeZ (-1)) = Some s /\ longs_to_slice s = Ok b /\ length b = 80 /\ longs_from_slice hshZ b = Ok s' /\
  info s = (3, 168%Z, 820%Z, 3) /\ info s' = info s.
Proof.
  destruct (runZ (lifeZ (-1))) as [s|] eqn:E; [|vm_compute in E; discriminate].
  vm_compute in E. inversion E; subst; clear E. eexists. eexists. eexists. split; [reflexivity|]. split; [vm_compute; reflexivity|]. split; [vm_compute; reflexivity|].
  split; [vm_compute; reflexivity|]. split; vm_compute; reflexivity.
Qed.
Example longs_string_example : exists s s', runZ (lifeZ 1) = Some s /\ longs_from_string hshZ (longs_to_string s) = Ok s' /\
  info s = (3, 167%Z, 820%Z, 3) /\ info s' = info s.
Proof.
  destruct (runZ (lifeZ 1)) as [s|] eqn:E; [|vm_compute in E; discriminate]. vm_compute in E. inversion E; subst; clear E.
  eexists. eexists. split; [reflexivity|]. split; [vm_compute; reflexivity|]. split; vm_compute; reflexivity.
Qed.
(** "1,10,3,0,5,0,1,8,7,5," *)
Example longs_string_text : option_map longs_to_string (runZ (Update _ (New _ 3 3) 7%Z 5%Z)) =
  Some [49; 44; 49; 48; 44; 51; 44; 48; 44; 53; 44; 48; 44; 49; 44; 56; 44; 55; 44; 53; 44]%N.
Proof. vm_compute. reflexivity. Qed.

(** Items sketches of strings, with the library's string serializer. *)
Fixpoint leqb (a b : list N) : bool := match a, b with [], [] => true | x :: a, y :: b => (x =? y)%N && leqb a b | _, _ => false end.
Lemma leqb_spec : forall a b, leqb a b = true <-> a = b.
Proof.
  induction a as [|x a IH]; intros [|y b]; cbn [leqb]; split; try congruence; auto.
  - intros H. apply andb_prop in H. destruct H as [H1 H2]. apply N.eqb_eq in H1. apply IH in H2. congruence.
  - intros H. inversion H; subst. rewrite N.eqb_refl. apply IH. auto.
Qed.
Definition str_ser (ks : list (list N)) : res (list N) := of_opt (string_ser ks).
Definition str_deser (b : list N) (n : nat) : res (list (list N)) := of_opt (string_deser b 0 n).
Definition short_string (s : list N) : Prop := (N.of_nat (length s) < 2 ^ 32)%N.
Lemma str_law : forall ks, Forall short_string ks -> exists b, str_ser ks = Ok b /\ str_deser b (length ks) = Ok ks.
Proof.
  intros ks H. exists (string_layout ks). unfold str_ser, str_deser. rewrite string_ser_ok by exact H. split; auto.
  pose proof (proj1 (string_deser_ok ks H [] [])) as D. cbn [app length] in D. rewrite app_nil_r in D. rewrite D. auto.
Qed.
Theorem strings_slice_round_trip : forall hash golden l, legal (list N) leqb [] hash golden Items l -> honest (list N) leqb [] hash golden Items l ->
  Forall (fun e => short_string (fst e)) (stream (list N) l) ->
  exists s b s', run (list N) leqb [] hash golden Items l = Some s /\ items_to_slice str_ser s = Ok b /\
    items_from_slice leqb [] hash (drift_limit Items) false true str_deser b = Ok s' /\ same_answers leqb hash Items s s' /\
    (is_empty s = false -> s_lgmax s' = s_lgmax s).
Proof. intros. apply (items_slice_round_trip leqb leqb_spec [] hash golden str_ser str_deser short_string str_law); auto. Qed.
Definition hshS (k : list N) : N := fold_left (fun h c => (h * 31 + c)%N) k 7%N.
Definition lifeS : life (list N) := fold_left (fun l e => Update _ l (fst e) (snd e))
  [([97; 98], 5%Z); ([], 2%Z); ([99], 1%Z); ([97; 98], 3%Z); ([100], 9%Z); ([101; 102; 103], 4%Z); ([104], 1%Z); ([105], 6%Z)]%N (New _ 3 3).
Example strings_example : exists s b s', run (list N) leqb [] hshS gold Items lifeS = Some s /\ items_to_slice str_ser s = Ok b /\
  items_from_slice leqb [] hshS (drift_limit Items) false true str_deser b = Ok s' /\ m_active (s_map s') = 2 /\ (0 < maximum_error s')%Z.
Proof.
  destruct (run (list N) leqb [] hshS gold Items lifeS) as [s|] eqn:E; [|vm_compute in E; discriminate]. vm_compute in E. inversion E; subst; clear E.
  eexists. eexists. eexists. split; [reflexivity|]. split; [vm_compute; reflexivity|]. split; [vm_compute; reflexivity|]. split; vm_compute; reflexivity.
Qed.

(** ** What is false *)
(** A byte string of one long whose empty flag is clear is not refused: reading the offset from it panics. *)
Theorem longs_slice_short_preamble_refuted : exists b, length b = 8 /\ Forall (fun x => (x < 256)%N) b /\ forall hash, longs_from_slice hash b = Panic.
Proof. exists (le 8 (pre0_of 1 3 3 false)). split; [reflexivity|]. split; [vm_compute; repeat constructor|]. intros. vm_compute. reflexivity. Qed.
Theorem items_slice_short_preamble_refuted : exists b, length b = 8 /\ Forall (fun x => (x < 256)%N) b /\
  forall hash, items_from_slice leqb [] hash (drift_limit Items) false true str_deser b = Panic.
Proof. exists (le 8 (pre0_of 1 3 3 false)). split; [reflexivity|]. split; [vm_compute; repeat constructor|]. intros. vm_compute. reflexivity. Qed.
(** ToString writes a negative key with its sign, NewLongsSketchFromString reads keys as unsigned numbers. *)
Theorem longs_string_negative_refuted : exists l s, legal Z Z.eqb 0%Z hshZ gold Longs l /\ runZ l = Some s /\ Forall (fun e => int64 (fst e)) (stream Z l) /\
  longs_from_string hshZ (longs_to_string s) = Err.
Proof.
  exists (lifeZ (-1)). destruct (lifeZ_legal gold (-1) (or_intror eq_refl)) as (A & _ & B & _).
  destruct (runZ (lifeZ (-1))) as [s|] eqn:E; [|vm_compute in E; discriminate]. exists s. split; [exact A|]. split; [reflexivity|]. split; [exact B|].
  vm_compute in E. inversion E; subst. vm_compute. reflexivity.
Qed.

Print Assumptions longs_slice_is_serde.
Print Assumptions longs_slice_round_trip.
Print Assumptions longs_slice_layout.
Print Assumptions items_slice_is_serde.
Print Assumptions items_slice_round_trip.
Print Assumptions strings_slice_round_trip.
Print Assumptions longs_string_same.
Print Assumptions longs_string_round_trip.
