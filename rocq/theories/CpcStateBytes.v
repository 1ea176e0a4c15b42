(** * The byte form of a compressed CPC state: import after export. *)
From Verif Require Import Base Bytes Arr BitPackModel CpcTable CpcModel CpcTables CpcCodeModel CpcCode CpcStateModel.
Local Open Scope nat_scope.

Definition apart (k o k' o' : nat) : bool := (o + k <=? o') || (o' + k' <=? o).
Fixpoint disj (l : list (nat * nat)) : bool :=
  match l with [] => true | (k, o) :: r => forallb (fun '(k', o') => apart k o k' o') r && disj r end.

Lemma put_fields_ok fs : forall mem, disj (map fst fs) = true -> forallb (fun '(k, o) => o + k <=? length mem) (map fst fs) = true ->
  exists m, put_fields fs mem = Ok m /\ length m = length mem /\
    (forall k o v, In (k, o, v) fs -> get_le k o m = Some (v mod 256 ^ N.of_nat k)%N) /\
    (forall k o, forallb (fun '(k', o') => apart k' o' k o) (map fst fs) = true -> get_le k o m = get_le k o mem).
Proof.
  induction fs as [|[[k o] v] fs IH]; intros mem D L; cbn [put_fields].
  - exists mem. repeat split; auto. intros ? ? ? [].
  - cbn [map fst disj forallb] in D, L. apply andb_prop in D as [D1 D2]. apply andb_prop in L as [L1 L2]. apply Nat.leb_le in L1.
    destruct (put_le_ok k o v mem L1) as (m1 & E1 & HL). rewrite E1. cbn [of_opt bindr].
    destruct (IH m1 D2) as (m & E & HLm & G & O). { rewrite HL. auto. }
    exists m. split; auto. split; [congruence|]. split.
    + intros k' o' v' [[= <- <- <-]|Hin]; [|eapply G; eauto].
      rewrite O. { eapply get_put_same; eauto. }
      rewrite forallb_forall in D1 |- *. intros [k' o'] Hin. specialize (D1 _ Hin). cbn beta iota in *. unfold apart in *.
      apply orb_true_iff in D1. apply orb_true_iff. tauto.
    + intros k' o' Hd. cbn [map fst forallb] in Hd. apply andb_prop in Hd as [Hd1 Hd2]. rewrite O by auto.
      eapply get_put_other; eauto. unfold apart in Hd1. apply orb_true_iff in Hd1 as [H|H]; apply Nat.leb_le in H; lia.
Qed.

Lemma get_words_ext n : forall off m m', (forall i, i < n -> get_le 4 (off + 4 * i) m = get_le 4 (off + 4 * i) m') -> get_words n off m = get_words n off m'.
Proof.
  induction n as [|n IH]; intros off m m' H; cbn [get_words]; auto.
  pose proof (H 0 ltac:(lia)) as H0. rewrite Nat.mul_0_r, Nat.add_0_r in H0. rewrite H0.
  destruct (get_le 4 off m'); cbn [of_opt bindr]; auto. rewrite (IH (off + 4) m m'); auto.
  intros i Hi. specialize (H (S i) ltac:(lia)). replace (off + 4 * S i) with (off + 4 + 4 * i) in H by lia. auto.
Qed.

Lemma put_words_ok n : forall stream off mem, n <= length stream -> off + 4 * n <= length mem -> w32 (firstn n stream) ->
  exists m, put_words n stream off mem = Ok m /\ length m = length mem /\ get_words n off m = Ok (firstn n stream) /\
    (forall k o, o + k <= off \/ off + 4 * n <= o -> get_le k o m = get_le k o mem).
Proof.
  induction n as [|n IH]; intros stream off mem L B W; cbn [put_words firstn get_words].
  - exists mem. auto.
  - destruct stream as [|v r]; [simpl in L; lia|]. cbn [length] in L. cbn [firstn] in W. inversion W as [|? ? Wv Wr]; subst.
    destruct (put_le_ok 4 off v mem) as (m1 & E1 & HL); [lia|]. rewrite E1. cbn [of_opt bindr].
    destruct (IH r (off + 4) m1) as (m & E & HLm & G & O); [lia|lia|auto|].
    exists m. split; auto. split; [congruence|]. split.
    + rewrite O by lia. rewrite (get_put_same _ _ _ _ _ E1). cbn [of_opt bindr]. rewrite G. cbn [bindr].
      rewrite N.mod_small by (exact Wv). auto.
    + intros k o Ho. rewrite O by lia. eapply get_put_other; eauto. lia.
Qed.

Lemma get_le_1' i buf b : get_le 1 i buf = Some b -> nth i buf 0%N = b /\ i < length buf.
Proof.
  unfold get_le, slice. destruct (Nat.leb_spec (i + 1) (length buf)); [|discriminate]. intros E0. assert (Eb : b = unle (firstn 1 (skipn i buf))) by congruence. clear E0. split; [|lia].
  assert (E : firstn 1 (skipn i buf) = [nth i buf 0%N]).
  { clear Eb. revert buf H. induction i as [|i IH]; intros [|x buf] H; simpl in *; auto; try lia. apply IH. lia. }
  rewrite Eb, E. cbn [unle]. lia.
Qed.
Lemma get_le_2' i buf v : get_le 2 i buf = Some v -> (nth i buf 0%N + 256 * nth (S i) buf 0%N)%N = v.
Proof.
  unfold get_le, slice. destruct (Nat.leb_spec (i + 2) (length buf)); [|discriminate]. intros E0. assert (Eb : v = unle (firstn 2 (skipn i buf))) by congruence. clear E0.
  assert (E : firstn 2 (skipn i buf) = [nth i buf 0%N; nth (S i) buf 0%N]).
  { clear Eb. revert buf H. induction i as [|i IH]; intros [|x buf] H; try (cbn [length] in H; lia).
    - destruct buf; [cbn [length] in H; lia|]. reflexivity.
    - cbn [skipn nth]. apply IH. cbn [length] in H. lia. }
  rewrite Eb, E. cbn [unle]. lia.
Qed.

Section Bytes.
Variable F : Type.
Variable HO : hip_ops F.
Variable fbits : F -> N * N.
Variable fval : N * N -> F.
Notation cst := (cstate F).

Definition f64 (f : F) : Prop := (fst (fbits f) < 2 ^ 64)%N /\ (snd (fbits f) < 2 ^ 64)%N /\ fval (fbits f) = f.

(** A state as compression produces it. *)
Record cwf (c : cst) : Prop := {
  cw_lg : 4 <= s_lgK F c <= 26;
  cw_hash : (s_hash F c < 65536)%N;
  cw_fi : s_fi F c <= 63;
  cw_n : (N.of_nat (s_n F c) < 4294967296)%N;
  cw_hip : f64 (s_hip F c);
  cw_csv : if s_ncsv F c =? 0 then s_csv F c = None /\ s_csvlen F c = 0
           else exists ws, s_csv F c = Some ws /\ 0 < s_csvlen F c <= length ws /\ w32 (firstn (s_csvlen F c) ws) /\
                  (N.of_nat (s_csvlen F c) < 4294967296)%N /\ (N.of_nat (s_ncsv F c) < 4294967296)%N;
  cw_cw : if s_cwlen F c =? 0 then s_cw F c = None /\ s_ncsv F c = s_n F c
          else exists ws, s_cw F c = Some ws /\ s_cwlen F c <= length ws /\ w32 (firstn (s_cwlen F c) ws) /\ (N.of_nat (s_cwlen F c) < 4294967296)%N }.

(** What the reader returns: the used part of the streams, no first interesting column without a
    window, and fresh accumulators when they are not stored. *)
Definition reread (c : cst) : cst :=
  mkCs F (s_lgK F c) (s_hash F c) (if s_cwlen F c =? 0 then 0 else s_fi F c) (s_merged F c) (s_n F c)
    (if s_merged F c || ((s_ncsv F c =? 0) && (s_cwlen F c =? 0)) then h_init HO (s_lgK F c) else s_hip F c)
    (s_ncsv F c) (option_map (firstn (s_csvlen F c)) (s_csv F c)) (s_csvlen F c)
    (option_map (firstn (s_cwlen F c)) (s_cw F c)) (s_cwlen F c).

Lemma get_in (m : list N) fs k o v : (forall k o v, In (k, o, v) fs -> get_le k o m = Some (v mod 256 ^ N.of_nat k)%N) ->
  In (k, o, v) fs -> (v < 256 ^ N.of_nat k)%N -> get_le k o m = Some v.
Proof. intros G Hi Hv. rewrite (G _ _ _ Hi), N.mod_small; auto. Qed.

Lemma total_ok fmt pre (c : cst) : nth_error pre_ints fmt = Some pre -> get_format F c = fmt -> required_bytes F c = Ok (4 * (pre + s_csvlen F c + s_cwlen F c)).
Proof. intros H E. unfold required_bytes, pre_ints_of. rewrite E, H. reflexivity. Qed.

(** Everything the reader needs to know about the buffer. *)
Record holds (m : list N) (fmt pre : nat) (hi : list (nat * nat * N)) (c : cst) : Prop := {
  ho_len : length m = 4 * (pre + s_csvlen F c + s_cwlen F c);
  ho_lo : forall k o v, In (k, o, v) (lo_fields F fmt pre c ++ hi) -> (v < 256 ^ N.of_nat k)%N -> get_le k o m = Some v }.

Lemma export_ok c : cwf c -> forall fmt pre hi, fmt = get_format F c -> nth_error pre_ints fmt = Some pre -> hi_fields F fbits fmt c = Ok hi ->
  disj (map fst (lo_fields F fmt pre c ++ hi)) = true -> forallb (fun '(k, o) => o + k <=? 4 * pre) (map fst (lo_fields F fmt pre c ++ hi)) = true ->
  (forall m, length m = 4 * (pre + s_csvlen F c + s_cwlen F c) -> (forall k o v, In (k, o, v) (lo_fields F fmt pre c ++ hi) -> get_le k o m = Some (v mod 256 ^ N.of_nat k)%N) ->
     (has_sv fmt = true -> sv_stream_offset m = Ok (4 * (pre + s_cwlen F c))) /\ (has_win fmt = true -> w_stream_offset m = Ok (4 * pre))) ->
  (has_sv fmt = negb (s_ncsv F c =? 0)) -> (has_win fmt = negb (s_cwlen F c =? 0)) ->
  exists m, export F fbits c = Ok m /\ length m = 4 * (pre + s_csvlen F c + s_cwlen F c) /\
    (forall k o v, In (k, o, v) (lo_fields F fmt pre c ++ hi) -> get_le k o m = Some (v mod 256 ^ N.of_nat k)%N) /\
    (has_sv fmt = true -> get_words (s_csvlen F c) (4 * (pre + s_cwlen F c)) m = Ok (firstn (s_csvlen F c) (match s_csv F c with Some l => l | None => [] end))) /\
    (has_win fmt = true -> get_words (s_cwlen F c) (4 * pre) m = Ok (firstn (s_cwlen F c) (match s_cw F c with Some l => l | None => [] end))).
Proof.
  intros W fmt pre hi Hf Hp Hh D B OFF HS HW. unfold export. rewrite <- Hf, (total_ok fmt pre c Hp (eq_sym Hf)). unfold pre_ints_of. rewrite Hp. cbn [of_opt bindr].
  rewrite Hh. cbn [bindr].
  set (tot := 4 * (pre + s_csvlen F c + s_cwlen F c)) in *.
  destruct (put_fields_ok (lo_fields F fmt pre c ++ hi) (repeat 0%N tot) D) as (m1 & E1 & L1 & G1 & _).
  { rewrite repeat_length. rewrite forallb_forall in B |- *. intros [k o] Hin. specialize (B _ Hin). cbn beta iota in *. apply Nat.leb_le in B. apply Nat.leb_le. unfold tot. lia. }
  rewrite E1. cbn [bindr]. rewrite repeat_length in L1.
  assert (BL : forall k o v, In (k, o, v) (lo_fields F fmt pre c ++ hi) -> o + k <= 4 * pre).
  { intros k o v Hin. rewrite forallb_forall in B. specialize (B (k, o) (in_map fst _ (k, o, v) Hin)). cbn beta iota in B. apply Nat.leb_le in B. auto. }
  pose proof (cw_csv _ W) as WC. pose proof (cw_cw _ W) as WW.
  destruct (OFF m1 L1 G1) as [O1 _].
  assert (ST : exists m2, (if has_sv fmt then let* o := sv_stream_offset m1 in put_words (s_csvlen F c) (match s_csv F c with Some l => l | None => [] end) o m1 else Ok m1) = Ok m2 /\
    length m2 = tot /\ (forall k o, o + k <= 4 * (pre + s_cwlen F c) -> get_le k o m2 = get_le k o m1) /\
    (has_sv fmt = true -> get_words (s_csvlen F c) (4 * (pre + s_cwlen F c)) m2 = Ok (firstn (s_csvlen F c) (match s_csv F c with Some l => l | None => [] end)))).
  { destruct (has_sv fmt) eqn:EH; [|exists m1; repeat split; auto; discriminate]. rewrite O1 by auto. cbn [bindr].
    destruct (s_ncsv F c =? 0); [discriminate|]. destruct WC as (ws & -> & Hl & Hw & _ & _).
    destruct (put_words_ok (s_csvlen F c) ws (4 * (pre + s_cwlen F c)) m1) as (m2 & E2 & L2 & G2 & OO2); [lia|rewrite L1; unfold tot; lia|auto|].
    exists m2. split; auto. split; [congruence|]. split; auto. }
  destruct ST as (m2 & E2 & L2 & K2 & G2). rewrite E2. cbn [bindr].
  assert (G1' : forall k o v, In (k, o, v) (lo_fields F fmt pre c ++ hi) -> get_le k o m2 = Some (v mod 256 ^ N.of_nat k)%N).
  { intros k o v Hin. rewrite K2; auto. specialize (BL k o v Hin). lia. }
  destruct (has_win fmt) eqn:EW.
  - destruct (OFF m2 L2 G1') as [_ O2]. rewrite O2 by auto. cbn [bindr].
    destruct (s_cwlen F c =? 0); [discriminate|]. destruct WW as (ws & -> & Hl & Hw & _).
    destruct (put_words_ok (s_cwlen F c) ws (4 * pre) m2) as (m & E & L & G & O); [lia|rewrite L2; unfold tot; lia|auto|].
    exists m. split; auto. split; [congruence|]. split; [|split; auto].
    + intros k o v Hin. rewrite O; auto. left. apply (BL k o v Hin).
    + intros H. rewrite <- (G2 H). apply get_words_ext. intros i Hi. apply O. lia.
  - exists m2. repeat split; auto. discriminate.
Qed.


Definition gets (m : list N) (fs : list (nat * nat * N)) : Prop := forall k o v, In (k, o, v) fs -> get_le k o m = Some (v mod 256 ^ N.of_nat k)%N.
Lemma gets_in m fs k o v : gets m fs -> In (k, o, v) fs -> (v < 256 ^ N.of_nat k)%N -> get_le k o m = Some v.
Proof. intros G Hi Hv. rewrite (G _ _ _ Hi), N.mod_small; auto. Qed.

Lemma flag_facts fmt : fmt < 8 -> let fl := (N.of_nat fmt * 4 + 2)%N in
  (fl < 256)%N /\ N.to_nat (N.land (N.shiftr fl 2) 7) = fmt /\ (N.land fl 2 =? 0)%N = false /\
  (N.land fl 8 =? 0)%N = negb (has_sv fmt) /\ (N.land fl 16 =? 0)%N = negb (has_win fmt).
Proof. intros H. do 8 (destruct fmt as [|fmt]; [vm_compute; auto|]). lia. Qed.

Lemma lo_read fmt pre c m hi : cwf c -> fmt < 8 -> nth_error pre_ints fmt = Some pre -> gets m (lo_fields F fmt pre c ++ hi) ->
  nth 3 m 0%N = N.of_nat (s_lgK F c) /\ nth 4 m 0%N = (if has_win fmt then N.of_nat (s_fi F c) else 0%N) /\ nth 5 m 0%N = (N.of_nat fmt * 4 + 2)%N /\
  (nth 6 m 0%N + 256 * nth 7 m 0%N)%N = s_hash F c /\ get_le 1 5 m = Some (N.of_nat fmt * 4 + 2)%N /\ get_le 1 0 m = Some (N.of_nat pre) /\
  check_lo m = Ok tt.
Proof.
  intros W Hf Hp G. destruct (flag_facts fmt Hf) as (F1 & F2 & _).
  pose proof (cw_lg _ W). pose proof (cw_fi _ W). pose proof (cw_hash _ W).
  assert (Hpre : pre <= 10). { clear - Hp. unfold pre_ints in Hp. do 9 (destruct fmt as [|fmt]; [cbn in Hp; try discriminate; injection Hp as <-; lia|]). cbn in Hp. discriminate. }
  assert (G0 : get_le 1 0 m = Some (N.of_nat pre)) by (eapply gets_in; [exact G|unfold lo_fields; cbn [app In]; tauto|change (256 ^ N.of_nat 1)%N with 256%N; lia]).
  assert (G1 : get_le 1 1 m = Some 1%N) by (eapply gets_in; [exact G|unfold lo_fields; cbn [app In]; tauto|change (256 ^ N.of_nat 1)%N with 256%N; lia]).
  assert (G2 : get_le 1 2 m = Some 16%N) by (eapply gets_in; [exact G|unfold lo_fields; cbn [app In]; tauto|change (256 ^ N.of_nat 1)%N with 256%N; lia]).
  assert (G3 : get_le 1 3 m = Some (N.of_nat (s_lgK F c))) by (eapply gets_in; [exact G|unfold lo_fields; cbn [app In]; tauto|change (256 ^ N.of_nat 1)%N with 256%N; lia]).
  assert (G4 : get_le 1 4 m = Some (if has_win fmt then N.of_nat (s_fi F c) else 0%N)).
  { eapply gets_in; [exact G|unfold lo_fields; cbn [app In]; tauto|change (256 ^ N.of_nat 1)%N with 256%N; destruct (has_win fmt); lia]. }
  assert (G5 : get_le 1 5 m = Some (N.of_nat fmt * 4 + 2)%N) by (eapply gets_in; [exact G|unfold lo_fields; cbn [app In]; tauto|exact F1]).
  assert (G6 : get_le 2 6 m = Some (s_hash F c)) by (eapply gets_in; [exact G|unfold lo_fields; cbn [app In]; tauto|exact H1]).
  assert (L8 : 8 <= length m). { unfold get_le, slice in G6. destruct (Nat.leb_spec (6 + 2) (length m)); [auto|discriminate]. }
  pose proof (get_le_2' _ _ _ G6) as E6. pose proof (get_le_1' _ _ _ G0) as [E0 _]. pose proof (get_le_1' _ _ _ G1) as [E1 _].
  pose proof (get_le_1' _ _ _ G2) as [E2 _]. pose proof (get_le_1' _ _ _ G3) as [E3 _]. pose proof (get_le_1' _ _ _ G4) as [E4 _]. pose proof (get_le_1' _ _ _ G5) as [E5 _].
  repeat split; auto. unfold check_lo. rewrite E0, E1, E2, E3, E4, E5, F2. unfold pre_ints_of. rewrite Hp. cbn [of_opt bindr].
  destruct (Nat.ltb_spec (length m) 8); [lia|]. rewrite !N.eqb_refl. cbn [negb].
  replace ((N.of_nat (s_lgK F c) <? 4)%N || (26 <? N.of_nat (s_lgK F c))%N) with false by lia.
  replace (63 <? (if has_win fmt then N.of_nat (s_fi F c) else 0))%N with false by (destruct (has_win fmt); lia). auto.
Qed.

Lemma offsets_read fmt pre c m hi : cwf c -> fmt < 8 -> nth_error pre_ints fmt = Some pre -> gets m (lo_fields F fmt pre c ++ hi) ->
  has_sv fmt = negb (s_ncsv F c =? 0) -> has_win fmt = negb (s_cwlen F c =? 0) ->
  (forall o, has_sv fmt = true -> hi_offset fmt hf_svlen = Ok o -> get_le 4 o m = Some (N.of_nat (s_csvlen F c))) ->
  (forall o, has_win fmt = true -> hi_offset fmt hf_wlen = Ok o -> get_le 4 o m = Some (N.of_nat (s_cwlen F c))) ->
  (has_sv fmt = true -> exists o, hi_offset fmt hf_svlen = Ok o) -> (has_win fmt = true -> exists o, hi_offset fmt hf_wlen = Ok o) ->
  (has_sv fmt = true -> sv_stream_offset m = Ok (4 * (pre + s_cwlen F c))) /\ (has_win fmt = true -> w_stream_offset m = Ok (4 * pre)).
Proof.
  intros W Hf Hp G HS HW GS GW XS XW. destruct (flag_facts fmt Hf) as (F1 & F2 & F3 & F4 & F5).
  destruct (lo_read fmt pre c m hi W Hf Hp G) as (_ & _ & _ & _ & G5 & G0 & _).
  pose proof (cw_csv _ W) as WC.
  split; intros Hon.
  - unfold sv_stream_offset. rewrite G5. cbn [of_opt bindr]. rewrite F2, F4, F5, Hon. cbn [negb]. destruct (XS Hon) as [o Ho]. rewrite Ho. cbn [bindr].
    rewrite (GS o Hon Ho). cbn [of_opt bindr]. rewrite HS in Hon. destruct (s_ncsv F c =? 0); [discriminate|]. destruct WC as (ws & _ & Hl & _).
    replace (N.of_nat (s_csvlen F c) =? 0)%N with false by lia. rewrite G0. cbn [of_opt bindr]. destruct (has_win fmt) eqn:EW; cbn [negb].
    + destruct (XW eq_refl) as [o2 Ho2]. rewrite Ho2. cbn [bindr]. rewrite (GW o2 eq_refl Ho2). cbn [of_opt bindr].
      symmetry in HW. apply negb_true_iff, Nat.eqb_neq in HW. replace (N.of_nat (s_cwlen F c) =? 0)%N with false by lia. f_equal. lia.
    + symmetry in HW. apply negb_false_iff, Nat.eqb_eq in HW. rewrite HW. f_equal. lia.
  - unfold w_stream_offset. rewrite G5. cbn [of_opt bindr]. rewrite F2, F5, Hon. cbn [negb]. destruct (XW Hon) as [o Ho]. rewrite Ho. cbn [bindr].
    pose proof (GW o Hon Ho) as Gw. assert (o + 4 <= length m). { unfold get_le, slice in Gw. destruct (Nat.leb_spec (o + 4) (length m)); [auto|discriminate]. }
    destruct (Nat.ltb_spec (length m) (o + 4)); [lia|]. rewrite Gw. cbn [of_opt bindr]. rewrite HW in Hon. apply negb_true_iff, Nat.eqb_neq in Hon.
    replace (N.of_nat (s_cwlen F c) =? 0)%N with false by lia. rewrite G0. cbn [of_opt bindr]. f_equal. lia.
Qed.

Lemma format_bits c : has_hip (get_format F c) = negb (s_merged F c) /\ has_sv (get_format F c) = negb (s_ncsv F c =? 0) /\
  has_win (get_format F c) = negb (s_cwlen F c =? 0) /\ get_format F c < 8.
Proof.
  unfold get_format. replace (0 <? s_cwlen F c) with (negb (s_cwlen F c =? 0)) by (destruct (s_cwlen F c); reflexivity).
  replace (0 <? s_ncsv F c) with (negb (s_ncsv F c =? 0)) by (destruct (s_ncsv F c); reflexivity).
  destruct (s_cwlen F c =? 0), (s_ncsv F c =? 0), (s_merged F c); vm_compute; repeat split; auto; lia.
Qed.

(** Per-format layout facts: which hi fields exist, and that no two fields overlap. *)
Lemma layout c fmt : fmt < 8 -> exists pre hi, nth_error pre_ints fmt = Some pre /\ hi_fields F fbits fmt c = Ok hi /\
  disj (map fst (lo_fields F fmt pre c ++ hi)) = true /\ forallb (fun '(k, o) => o + k <=? 4 * pre) (map fst (lo_fields F fmt pre c ++ hi)) = true /\
  (has_sv fmt || has_win fmt = true -> exists o, hi_offset fmt hf_numcoupons = Ok o /\ In (4, o, N.of_nat (s_n F c)) hi) /\
  (has_sv fmt && has_win fmt = true -> exists o, hi_offset fmt hf_numsv = Ok o /\ In (4, o, N.of_nat (s_ncsv F c)) hi) /\
  ((has_sv fmt || has_win fmt) && has_hip fmt = true -> exists o, hi_offset fmt hf_kxp = Ok o /\ In (8, o, fst (fbits (s_hip F c))) hi) /\
  ((has_sv fmt || has_win fmt) && has_hip fmt = true -> exists o, hi_offset fmt hf_hip = Ok o /\ In (8, o, snd (fbits (s_hip F c))) hi) /\
  (has_sv fmt = true -> exists o, hi_offset fmt hf_svlen = Ok o /\ In (4, o, N.of_nat (s_csvlen F c)) hi) /\
  (has_win fmt = true -> exists o, hi_offset fmt hf_wlen = Ok o /\ In (4, o, N.of_nat (s_cwlen F c)) hi).
Proof.
  intros H. do 8 (destruct fmt as [|fmt];
    [eexists _, _; split; [reflexivity|]; split; [reflexivity|]; split; [reflexivity|]; split; [reflexivity|];
     repeat split; try discriminate; intros _; eexists; (split; [reflexivity|]); cbn [app In]; tauto|]). lia.
Qed.

Lemma import_export c : cwf c -> exists m, export F fbits c = Ok m /\ import F HO fval m = Ok (reread c) /\
  length m = 4 * (nth (get_format F c) pre_ints 0 + s_csvlen F c + s_cwlen F c).
Proof.
  intros W. destruct (format_bits c) as (BH & BS & BW & Hf). set (fmt := get_format F c) in *.
  destruct (layout c fmt Hf) as (pre & hi & Hp & Hh & D & B & LN & LSV & LX & LY & LS & LW).
  assert (XS : has_sv fmt = true -> exists o, hi_offset fmt hf_svlen = Ok o) by (intros H; destruct (LS H) as (o & Ho & _); eauto).
  assert (XW : has_win fmt = true -> exists o, hi_offset fmt hf_wlen = Ok o) by (intros H; destruct (LW H) as (o & Ho & _); eauto).
  pose proof (cw_csv _ W) as WC. pose proof (cw_cw _ W) as WW.
  assert (GS : forall m, gets m (lo_fields F fmt pre c ++ hi) -> forall o, has_sv fmt = true -> hi_offset fmt hf_svlen = Ok o -> get_le 4 o m = Some (N.of_nat (s_csvlen F c))).
  { intros m G o H Ho. destruct (LS H) as (o' & Ho' & Hin). assert (o' = o) by congruence. subst o'. eapply gets_in; [exact G|apply in_or_app; eauto|].
    rewrite BS in H. destruct (s_ncsv F c =? 0); [discriminate|]. destruct WC as (ws & _ & _ & _ & Hl & _). exact Hl. }
  assert (GW : forall m, gets m (lo_fields F fmt pre c ++ hi) -> forall o, has_win fmt = true -> hi_offset fmt hf_wlen = Ok o -> get_le 4 o m = Some (N.of_nat (s_cwlen F c))).
  { intros m G o H Ho. destruct (LW H) as (o' & Ho' & Hin). assert (o' = o) by congruence. subst o'. eapply gets_in; [exact G|apply in_or_app; eauto|].
    rewrite BW in H. destruct (s_cwlen F c =? 0); [discriminate|]. destruct WW as (ws & _ & _ & _ & Hl). exact Hl. }
  destruct (export_ok c W fmt pre hi eq_refl Hp Hh D B) as (m & E & L & G & RS & RW); auto.
  { intros m Lm Gm. eapply offsets_read; eauto. }
  exists m. split; auto. split. 2: { rewrite L. rewrite (nth_error_nth _ _ _ Hp). auto. }
  destruct (lo_read fmt pre c m hi W Hf Hp G) as (E3 & E4 & E5 & E6 & _ & _ & CK).
  destruct (flag_facts fmt Hf) as (_ & F2 & F3 & _ & _).
  destruct (offsets_read fmt pre c m hi W Hf Hp G BS BW (GS m G) (GW m G) XS XW) as [OS OW].
  unfold import. rewrite CK. cbn [bindr]. rewrite E3, E4, E5, E6, F2, F3. rewrite Nat2N.id.
  assert (CN : has_sv fmt || has_win fmt = true -> get_hi 4 fmt hf_numcoupons m = Ok (N.of_nat (s_n F c))).
  { intros H. destruct (LN H) as (o & Ho & Hin). unfold get_hi. rewrite Ho. cbn [bindr]. rewrite (gets_in m _ _ _ _ G (in_or_app _ _ _ (or_intror Hin)) (cw_n _ W)). auto. }
  destruct (cw_hip _ W) as (Wx & Wy & Wv).
  assert (CH : has_sv fmt || has_win fmt = true -> (if has_hip fmt then let* x := get_hi 8 fmt hf_kxp m in let* y := get_hi 8 fmt hf_hip m in Ok (fval (x, y)) else Ok (h_init HO (s_lgK F c))) =
    Ok (if s_merged F c then h_init HO (s_lgK F c) else s_hip F c)).
  { intros H. destruct (has_hip fmt) eqn:EH.
    - destruct LX as (o & Ho & Hin); [rewrite H; auto|]. destruct LY as (o2 & Ho2 & Hin2); [rewrite H; auto|].
      unfold get_hi. rewrite Ho, Ho2. cbn [bindr]. rewrite (gets_in m _ _ _ _ G (in_or_app _ _ _ (or_intror Hin)) Wx), (gets_in m _ _ _ _ G (in_or_app _ _ _ (or_intror Hin2)) Wy).
      cbn [of_opt bindr]. rewrite <- surjective_pairing, Wv. destruct (s_merged F c); [discriminate|auto].
    - destruct (s_merged F c); [auto|discriminate]. }
  assert (MG : negb (has_hip fmt) = s_merged F c) by (rewrite BH; apply negb_involutive).
  rewrite MG. unfold reread.
  destruct (has_sv fmt) eqn:ES; destruct (has_win fmt) eqn:EW; cbn [negb andb orb] in *.
  all: destruct (s_ncsv F c =? 0) eqn:EN; try discriminate; destruct (s_cwlen F c =? 0) eqn:EC; try discriminate; cbn [andb orb].
  - destruct WC as (ws & Ecsv & Hl & Hw & Hb & Hb2). destruct WW as (cs & Ecw & Hl' & Hw' & Hb').
    rewrite CN by auto. cbn [bindr]. destruct (LSV eq_refl) as (o & Ho & Hin). unfold get_hi at 1. rewrite Ho. cbn [bindr].
    rewrite (gets_in m _ _ _ _ G (in_or_app _ _ _ (or_intror Hin)) Hb2). cbn [of_opt bindr].
    destruct (LS eq_refl) as (o1 & Ho1 & _). unfold get_hi at 1. rewrite Ho1. cbn [bindr]. rewrite (GS m G o1 eq_refl Ho1). cbn [of_opt bindr].
    destruct (LW eq_refl) as (o2 & Ho2 & _). unfold get_hi at 1. rewrite Ho2. cbn [bindr]. rewrite (GW m G o2 eq_refl Ho2). cbn [of_opt bindr].
    rewrite CH by auto. cbn [bindr]. rewrite !Nat2N.id.
    rewrite (total_ok fmt pre); [|auto|unfold get_format; cbn [s_cwlen s_ncsv s_merged]; reflexivity]. cbn [bindr s_csvlen s_cwlen].
    destruct (Nat.ltb_spec (length m) (4 * (pre + s_csvlen F c + s_cwlen F c))); [lia|].
    unfold get_w_stream, get_sv_stream. rewrite OW, OS by auto. cbn [or_zero bindr]. rewrite RW, RS by auto. cbn [bindr]. rewrite Ecsv, Ecw.
    unfold set_csv, set_cw. cbn [s_lgK s_hash s_fi s_merged s_n s_hip s_ncsv s_csv s_csvlen s_cw s_cwlen option_map]. rewrite orb_false_r. auto.
  - destruct WC as (ws & Ecsv & Hl & Hw & Hb & Hb2). destruct WW as (Ecw & Enn). apply Nat.eqb_eq in EC.
    rewrite CN by auto. cbn [bindr].
    destruct (LS eq_refl) as (o1 & Ho1 & _). unfold get_hi at 1. rewrite Ho1. cbn [bindr]. rewrite (GS m G o1 eq_refl Ho1). cbn [of_opt bindr].
    rewrite CH by auto. cbn [bindr]. rewrite !Nat2N.id.
    rewrite (total_ok fmt pre); [|auto|unfold fmt, get_format; cbn [s_cwlen s_ncsv s_merged]; rewrite EC, Enn; reflexivity]. cbn [bindr s_csvlen s_cwlen].
    change (N.to_nat 0) with 0.
    destruct (Nat.ltb_spec (length m) (4 * (pre + s_csvlen F c + 0))); [lia|].
    unfold get_sv_stream. rewrite OS by auto. cbn [or_zero bindr]. rewrite RS by auto. cbn [bindr]. rewrite Ecsv, Ecw, EC.
    unfold set_csv, set_cw. cbn [s_lgK s_hash s_fi s_merged s_n s_hip s_ncsv s_csv s_csvlen s_cw s_cwlen option_map]. rewrite orb_false_r, Enn. auto.
  - destruct WC as (Ecsv & Hl). destruct WW as (cs & Ecw & Hl' & Hw' & Hb'). apply Nat.eqb_eq in EN.
    rewrite CN by auto. cbn [bindr].
    destruct (LW eq_refl) as (o2 & Ho2 & _). unfold get_hi at 1. rewrite Ho2. cbn [bindr]. rewrite (GW m G o2 eq_refl Ho2). cbn [of_opt bindr].
    rewrite CH by auto. cbn [bindr]. rewrite !Nat2N.id. change (N.to_nat 0) with 0.
    rewrite (total_ok fmt pre); [|auto|unfold fmt, get_format; cbn [s_cwlen s_ncsv s_merged]; rewrite EN; reflexivity]. cbn [bindr s_csvlen s_cwlen].
    destruct (Nat.ltb_spec (length m) (4 * (pre + 0 + s_cwlen F c))); [lia|].
    unfold get_w_stream. rewrite OW by auto. cbn [or_zero bindr]. rewrite RW by auto. cbn [bindr]. rewrite Ecsv, Ecw, EN, Hl.
    unfold set_csv, set_cw. cbn [s_lgK s_hash s_fi s_merged s_n s_hip s_ncsv s_csv s_csvlen s_cw s_cwlen option_map]. rewrite orb_false_r. auto.
  - destruct WC as (Ecsv & Hl). destruct WW as (Ecw & Enn). apply Nat.eqb_eq in EN. apply Nat.eqb_eq in EC.
    rewrite Ecsv, Ecw, Hl, EC, <- Enn, EN. rewrite orb_true_r. auto.
Qed.
End Bytes.
