(** * Parts of the compressed state: streams, column maps, the hybrid split. *)
From Verif Require Import Base Bytes Arr BitPackModel BitPackProofs CpcTable CpcTableProofs CpcTableMore CpcModel CpcProofs CpcSketch CpcTables CpcCodeModel CpcCode CpcCodeTab CpcCodeRound CpcStateModel.
From Coq Require Import Sorted.
Local Open Scope nat_scope.

Lemma div32_up_ge x : (x <= 32 * div32_up x)%N /\ (32 * div32_up x <= x + 31)%N.
Proof.
  unfold div32_up. rewrite N.shiftr_div_pow2, N.shiftl_mul_pow2. change (2 ^ 5)%N with 32%N.
  destruct (N.eqb_spec (x / 32 * 32) x); lia.
Qed.
Lemma K_N lgK : 4 <= lgK <= 26 -> (16 <= N.of_nat (2 ^ lgK) <= 67108864)%N.
Proof.
  intros H. rewrite pow_N. split.
  - change 16%N with (2 ^ 4)%N. apply N.pow_le_mono_r; lia.
  - change 67108864%N with (2 ^ 26)%N. apply N.pow_le_mono_r; lia.
Qed.

Lemma surprising_round lgK ps : 4 <= lgK <= 26 -> ps <> [] -> (N.of_nat (length ps) <= 67108864)%N -> (forall x, In x ps -> (x < 2 ^ N.of_nat (6 + lgK))%N) ->
  (Sorted N.lt ps /\ exists arr W, compress_surprising lgK ps = Ok (arr, W) /\ 0 < W <= length arr /\ w32 (firstn W arr) /\ (N.of_nat W < 4294967296)%N /\
    uncompress_surprising lgK (length ps) (firstn W arr) W = Ok ps) \/
  (~ Sorted N.lt ps /\ compress_surprising lgK ps = Err).
Proof.
  intros Hlg Hne Hn Hx. pose proof (K_N lgK Hlg) as HK. unfold compress_surprising, uncompress_surprising.
  assert (Hl : 0 < length ps) by (destruct ps; [congruence|simpl; lia]).
  destruct (Nat.ltb_spec (length ps) 1) as [HH|_]; [exfalso; clear - HH Hl; lia|]. unfold golomb_bits.
  replace ((2 ^ lgK + length ps <? 1) || (length ps <? 1)) with false by (symmetry; apply orb_false_iff; split; apply Nat.ltb_ge; clear - Hl; lia).
  replace (2 ^ lgK + length ps - length ps) with (2 ^ lgK) by (clear; lia).
  set (q := 2 ^ lgK / length ps). set (b := if q =? 0 then 0 else N.to_nat (N.log2 (N.of_nat q))).
  assert (Eb : (if q =? 0 then Ok 0 else Ok (N.to_nat (N.log2 (N.of_nat q)))) = Ok b) by (unfold b; destruct (q =? 0); auto). rewrite Eb. cbn [bindr].
  assert (Hb : b <= 26).
  { unfold b. destruct (q =? 0); [clear; lia|]. assert (Hq : (N.of_nat q <= 67108864)%N).
    { assert (q <= 2 ^ lgK) by (unfold q; apply Nat.div_le_upper_bound; [clear - Hl; lia|clear - Hl; nia]). clear - H HK. lia. }
    apply N.log2_le_mono in Hq. change (N.log2 67108864) with 26%N in Hq. clear - Hq. lia. }
  clearbody b. clear Eb q. unfold safe_pair_len.
  destruct (Nat.ltb_spec (length ps) 1) as [HH|_]; [exfalso; clear - HH Hl; lia|].
  set (bits := (12 * N.of_nat (length ps) + (N.of_nat (length ps) * (1 + N.of_nat b) + N.shiftr (N.of_nat (2 ^ lgK)) (N.of_nat b)) + N.of_nat (10 - b))%N).
  assert (HS : (N.shiftr (N.of_nat (2 ^ lgK)) (N.of_nat b) <= N.of_nat (2 ^ lgK))%N).
  { rewrite N.shiftr_div_pow2. apply N.div_le_upper_bound; [apply N.pow_nonzero; clear; lia|]. assert (1 <= 2 ^ N.of_nat b)%N by (change 1%N with (2 ^ 0)%N; apply N.pow_le_mono_r; clear; lia). clear - H. nia. }
  destruct (div32_up_ge bits) as [G1 G2].
  assert (HB : (bits <= 67108864 * 41)%N).
  { unfold bits. revert HS. generalize (N.shiftr (N.of_nat (2 ^ lgK)) (N.of_nat b)). intros z Hz. clear - Hz HK Hn Hb. nia. }
  destruct (N.leb_spec 2147483648 (div32_up bits)) as [HH|_]; [exfalso; clear - HH G2 HB; lia|]. cbn [bindr].
  assert (HP : forall rc, In rc ps -> (rowN rc < N.of_nat (2 ^ lgK))%N /\ (rc < p2 32)%N).
  { intros rc Hin. specialize (Hx rc Hin). rewrite rowN_div. rewrite lim_val in Hx. change (p2 32) with 4294967296%N. split; [|clear - Hx HK; lia].
    apply N.div_lt_upper_bound; [clear; lia|auto]. }
  pose proof (pairs_round ps b (N.of_nat (2 ^ lgK)) (N.to_nat (div32_up bits)) ltac:(clear - Hb; lia) HP ltac:(clear - HK; lia)) as R.
  destruct (asc ps 0 0) eqn:Ha.
  - left. split; [apply asc_sorted; auto|].
    destruct R as (arr & W & E & LA & LW & W3 & Hpos & EU).
    { assert (N.of_nat (2 ^ lgK) / p2 b = N.shiftr (N.of_nat (2 ^ lgK)) (N.of_nat b))%N as -> by (rewrite N.shiftr_div_pow2; reflexivity).
      unfold bits in G1 at 1. revert G1. generalize (div32_up bits) (N.shiftr (N.of_nat (2 ^ lgK)) (N.of_nat b)). intros d z G1. clear - G1. nia. }
    exists arr, W. split; auto. specialize (Hpos Hne). split; [rewrite LA; auto|]. split; auto. split; auto.
    clear - LW G2 HB. lia.
  - right. split; [intros S; apply asc_sorted in S; congruence|].
    apply R. assert (N.of_nat (2 ^ lgK) / p2 b = N.shiftr (N.of_nat (2 ^ lgK)) (N.of_nat b))%N as -> by (rewrite N.shiftr_div_pow2; reflexivity).
    unfold bits in G1 at 1. revert G1. generalize (div32_up bits) (N.shiftr (N.of_nat (2 ^ lgK)) (N.of_nat b)). intros d z G1. clear - G1. nia.
Qed.

Lemma phase_lt lgK C : 4 <= lgK -> exists p, pseudo_phase lgK C = Ok p /\ p < 22 /\ (27 * 2 ^ lgK <= 8 * C -> p < 16).
Proof.
  intros H. unfold pseudo_phase. rewrite <- pow_N. destruct (N.ltb_spec (1000 * N.of_nat C) (2375 * N.of_nat (2 ^ lgK))) as [G|G].
  - assert (NO : ~ 27 * 2 ^ lgK <= 8 * C) by lia.
    repeat match goal with |- context [if ?x then _ else _] => destruct x end; eexists; (split; [reflexivity|]); split; try lia; intros; exfalso; auto.
  - destruct (Nat.ltb_spec lgK 4); [lia|]. eexists. split; [reflexivity|].
    assert (N.land (N.shiftr (N.of_nat C) (N.of_nat (lgK - 4))) 15 < 16)%N. { change 15%N with (N.ones 4). rewrite N.land_ones. apply N.mod_lt. discriminate. }
    split; [|intros _]; lia.
Qed.

Local Opaque make_decoding_table byte_encs.
Lemma window_round lgK C w : 4 <= lgK <= 26 -> length w = 2 ^ lgK -> Forall (fun x => (x < 256)%N) w ->
  exists arr W, compress_window lgK C w = Ok (arr, W) /\ 0 < W <= length arr /\ w32 (firstn W arr) /\ (N.of_nat W < 4294967296)%N /\
    uncompress_window lgK C (firstn W arr) W = Ok w.
Proof.
  intros Hlg Hl Hb. pose proof (K_N lgK Hlg) as HK. destruct (phase_lt lgK C) as (p & Ep & Hp & _); [lia|].
  destruct (byte_enc_good p Hp) as (enc & Ee & Ge). unfold compress_window, uncompress_window, byte_dec. rewrite Ep. cbn [bindr]. rewrite Ee. cbn [of_opt bindr].
  destruct (Nat.ltb_spec (length w) (2 ^ lgK)); [lia|]. rewrite <- Hl, firstn_all. rewrite <- Hl in HK. unfold safe_window_len.
  destruct (div32_up_ge (12 * N.of_nat (length w) + 11)) as [G1 G2].
  destruct (bytes_round enc w (N.to_nat (div32_up (12 * N.of_nat (length w) + 11))) Ge Hb) as (dec & arr & W & Ed & E & LA & LW & Hpos & W3 & EU).
  { revert G1. generalize (div32_up (12 * N.of_nat (length w) + 11)). intros; lia. }
  exists arr, W. split; auto. split; [lia|]. split; auto. split; [lia|]. rewrite Ed. cbn [bindr]. auto.
Qed.

(** ** Column maps *)
Lemma map_res_perm f a b : Permutation a b -> forall c, map_res f a = Ok c -> exists d, map_res f b = Ok d /\ Permutation c d.
Proof.
  induction 1 as [|x a b P IH|x y a|a b e P1 IH1 P2 IH2]; intros c; cbn [map_res].
  - intros [= <-]. eauto.
  - destruct (f x) as [v| |]; cbn [bindr]; try discriminate. destruct (map_res f a) as [r| |]; cbn [bindr]; try discriminate. intros [= <-].
    destruct (IH r eq_refl) as (d & E & Pd). rewrite E. cbn [bindr]. eauto.
  - destruct (f y) as [v| |]; cbn [bindr]; try discriminate. destruct (f x) as [u| |]; cbn [bindr]; try discriminate.
    destruct (map_res f a) as [r| |]; cbn [bindr]; try discriminate. intros [= <-]. eexists. split; [reflexivity|]. apply perm_swap.
  - intros H. destruct (IH1 c H) as (d & E & Pd). destruct (IH2 d E) as (e' & E' & Pe). exists e'. split; auto. rewrite Pd. auto.
Qed.
Lemma map_res_inv f g ps : (forall x, In x ps -> exists y, f x = Ok y /\ g y = Ok x) ->
  exists qs, map_res f ps = Ok qs /\ map_res g qs = Ok ps /\ length qs = length ps /\ (forall y, In y qs -> exists x, In x ps /\ f x = Ok y /\ g y = Ok x).
Proof.
  induction ps as [|x ps IH]; intros H; cbn [map_res].
  - exists []. repeat split; auto. intros ? [].
  - destruct (H x (or_introl eq_refl)) as (y & E & G). destruct IH as (qs & E1 & E2 & L & I); [intros; apply H; right; auto|].
    exists (y :: qs). rewrite E, E1. cbn [bindr map_res]. rewrite G, E2. cbn [bindr length]. repeat split; auto.
    intros z [<-|Hz]; [exists x; split; [left; auto|auto]|]. destruct (I z Hz) as (x' & ? & ?). exists x'. split; [right; auto|auto].
Qed.
Lemma map_res_nodup g : forall qs ps, map_res g qs = Ok ps -> NoDup ps -> NoDup qs.
Proof.
  assert (I : forall qs ps y, map_res g qs = Ok ps -> In y qs -> exists x, g y = Ok x /\ In x ps).
  { induction qs as [|q qs IH]; intros ps y; cbn [map_res]; [intros _ []|].
    destruct (g q) as [v| |] eqn:E; cbn [bindr]; try discriminate. destruct (map_res g qs) as [r| |] eqn:Er; cbn [bindr]; try discriminate.
    intros [= <-] [<-|Hy]; [exists v; split; [auto|left; auto]|]. destruct (IH r y eq_refl Hy) as (x & ? & ?). exists x. split; auto. right; auto. }
  induction qs as [|q qs IH]; intros ps; cbn [map_res]; [constructor|].
  destruct (g q) as [v| |] eqn:E; cbn [bindr]; try discriminate. destruct (map_res g qs) as [r| |] eqn:Er; cbn [bindr]; try discriminate.
  intros [= <-] ND. inversion ND; subst. constructor; [|eapply IH; eauto]. intros Hq. destruct (I qs r q Er Hq) as (x & Ex & Hx). rewrite E in Ex. injection Ex as <-. auto.
Qed.

Lemma land63 x : N.land x 63 = (x mod 64)%N.
Proof. change 63%N with (N.ones 6). rewrite N.land_ones. reflexivity. Qed.
Lemma pin_inv lim x : (x < 64 * lim)%N -> 8 <= col_of x -> exists y, pin_enc x = Ok y /\ pin_dec y = Ok x /\ (y < 64 * lim)%N.
Proof.
  intros Hl Hc. rewrite col_mod in Hc. unfold pin_enc, pin_dec. rewrite land63.
  destruct (N.ltb_spec (x mod 64) 8); [lia|]. exists (x - 8)%N. split; auto. rewrite land63. destruct (N.leb_spec 56 ((x - 8) mod 64)); [lia|].
  split; [f_equal|]; lia.
Qed.

Definition perm_ok (perm dec : list N) : bool :=
  forallb (fun c => match nth_error perm c with None => false | Some d => (d <? 56)%N && match nth_error dec (N.to_nat d) with None => false | Some c' => (c' =? N.of_nat c)%N end end) (seq 0 56).
Lemma perms_ok_all : forallb (fun p => match nth_error col_perms p with None => false | Some perm => match invert_perm perm with Ok dec => perm_ok perm dec | _ => false end end) (seq 0 16) = true.
Proof. vm_compute. reflexivity. Qed.
Lemma perm_facts p : p < 16 -> exists perm dec, nth_error col_perms p = Some perm /\ col_perm_dec p = Ok dec /\
  forall c, c < 56 -> exists d, nth_error perm c = Some d /\ (d < 56)%N /\ nth_error dec (N.to_nat d) = Some (N.of_nat c).
Proof.
  intros H. pose proof perms_ok_all as P. rewrite forallb_forall in P. specialize (P p ltac:(apply in_seq; lia)). unfold col_perm_dec.
  destruct (nth_error col_perms p) as [perm|]; [|discriminate]. cbn [of_opt bindr]. destruct (invert_perm perm) as [dec| |]; try discriminate.
  exists perm, dec. split; auto. split; auto. intros c Hc. unfold perm_ok in P. rewrite forallb_forall in P. specialize (P c ltac:(apply in_seq; lia)).
  destruct (nth_error perm c) as [d|]; [|discriminate]. apply andb_prop in P as [P1 P2]. apply N.ltb_lt in P1.
  destruct (nth_error dec (N.to_nat d)) as [c'|] eqn:E; [|discriminate]. apply N.eqb_eq in P2. subst c'. eauto.
Qed.

Lemma join64 r c : (c < 64)%N -> N.lor (N.shiftl r 6) c = (64 * r + c)%N.
Proof. intros H. change 6%N with (N.of_nat 6). rewrite N.lor_comm, lor_add by exact H. change (p2 6) with 64%N. lia. Qed.

Lemma slide_inv lim off perm dec x : (x < 64 * lim)%N -> 1 <= off <= 56 -> (col_of x < off \/ off + 8 <= col_of x) ->
  (forall c, c < 56 -> exists d, nth_error perm c = Some d /\ (d < 56)%N /\ nth_error dec (N.to_nat d) = Some (N.of_nat c)) ->
  exists y, slide_enc perm off x = Ok y /\ slide_dec dec off y = Ok x /\ (y < 64 * lim)%N.
Proof.
  intros Hl Ho Hc HP. rewrite col_mod in Hc. unfold slide_enc. rewrite !land63.
  set (c := ((x mod 64 + 56 - N.of_nat off) mod 64)%N).
  assert (Hc56 : (c < 56)%N) by (unfold c; lia).
  assert (Hback : ((c + N.of_nat (off + 8)) mod 64 = x mod 64)%N) by (unfold c; lia).
  destruct (N.leb_spec 56 c); [lia|]. destruct (HP (N.to_nat c)) as (d & E & Hd & Ed); [lia|]. rewrite E. cbn [of_opt bindr].
  rewrite N.shiftr_div_pow2. change (2 ^ 6)%N with 64%N. rewrite join64 by lia. eexists. split; [reflexivity|].
  unfold slide_dec. rewrite !land63. replace ((64 * (x / 64) + d) mod 64)%N with d by lia. rewrite Ed. cbn [of_opt bindr]. rewrite N2Nat.id, land63, Hback.
  rewrite N.shiftr_div_pow2. change (2 ^ 6)%N with 64%N. rewrite join64 by lia.
  split; [f_equal|]; lia.
Qed.

(** ** Windows *)
Lemma in_window_pairs w : forall r x, In x (window_pairs w r) <->
  r <= row_of x < r + length w /\ col_of x < 8 /\ N.testbit (nth (row_of x - r) w 0%N) (N.of_nat (col_of x)) = true.
Proof.
  induction w as [|b w IH]; intros r x; cbn [window_pairs length].
  - split; [intros []|intros [? _]; lia].
  - rewrite in_app_iff, IH, in_map_iff. split.
    + intros [(c & <- & Hc)|(H1 & H2 & H3)].
      * apply filter_In in Hc. destruct Hc as [Hc Hb]. apply in_seq in Hc. rewrite row_mk, col_mk by lia. split; [lia|]. split; [lia|]. rewrite Nat.sub_diag. auto.
      * split; [lia|]. split; auto. replace (row_of x - r) with (S (row_of x - S r)) by lia. auto.
    + intros (H1 & H2 & H3). destruct (Nat.eq_dec (row_of x) r) as [E|E].
      * left. exists (col_of x). rewrite <- E, mk_row_col. split; auto. rewrite E, Nat.sub_diag in H3. apply filter_In. split; [apply in_seq; lia|auto].
      * right. split; [lia|]. split; auto. replace (row_of x - r) with (S (row_of x - S r)) in H3 by lia. auto.
Qed.
Lemma nodup_window_pairs w : forall r, NoDup (window_pairs w r).
Proof.
  induction w as [|b w IH]; intros r; cbn [window_pairs]; [constructor|]. apply nodup_app; auto.
  - apply nodup_map; [|apply NoDup_filter, seq_NoDup]. intros c c' H H' E. apply filter_In in H, H'. destruct H as [H _], H' as [H' _]. apply in_seq in H, H'.
    apply (f_equal col_of) in E. rewrite !col_mk in E by lia. auto.
  - intros x Hx Hy. apply in_window_pairs in Hy. apply in_map_iff in Hx. destruct Hx as (c & <- & Hc). apply filter_In in Hc. destruct Hc as [Hc _]. apply in_seq in Hc.
    rewrite row_mk in Hy by lia. lia.
Qed.
Lemma sorted_app (a b : list N) : Sorted N.lt a -> Sorted N.lt b -> (forall x y, In x a -> In y b -> (x < y)%N) -> Sorted N.lt (a ++ b).
Proof.
  induction a as [|x a IH]; intros Ha Hb H; cbn [app]; auto. inversion Ha as [|? ? Ha' Hd]; subst. constructor.
  - apply IH; auto. intros; apply H; auto. right; auto.
  - destruct a as [|y a]; cbn [app]; [|inversion Hd; constructor; auto]. destruct b as [|y b]; constructor. apply H; left; auto.
Qed.
Lemma sorted_window_pairs w : forall r, Sorted N.lt (window_pairs w r).
Proof.
  induction w as [|b w IH]; intros r; cbn [window_pairs]; [constructor|]. apply sorted_app; auto.
  - assert (G : forall l i, StronglySorted lt (seq i l)).
    { induction l; intros i; cbn [seq]; constructor; auto. apply Forall_forall. intros z Hz. apply in_seq in Hz. lia. }
    assert (G2 : forall l, StronglySorted lt l -> Forall (fun c => c < 64) l -> Sorted N.lt (map (fun c => mk_rc r c) (filter (fun c => N.testbit b (N.of_nat c)) l))).
    { intros l S B. apply StronglySorted_Sorted. induction S as [|c l S IS F]; cbn [filter map]; [constructor|]. inversion B; subst. destruct (N.testbit b (N.of_nat c)); [|auto].
      cbn [map]. constructor; auto. apply Forall_forall. intros y Hy. apply in_map_iff in Hy. destruct Hy as (c' & <- & Hc'). apply filter_In in Hc'. destruct Hc' as [Hc' _].
      rewrite Forall_forall in F. specialize (F c' Hc'). assert (c' < 64) by (rewrite Forall_forall in *; auto). rewrite !mk_rc_val by auto. lia. }
    apply G2; auto. apply Forall_forall. intros z Hz. apply in_seq in Hz. lia.
  - intros x y Hx Hy. apply in_window_pairs in Hy. destruct Hy as (Hy & _). apply in_map_iff in Hx. destruct Hx as (c & <- & Hc). apply filter_In in Hc. destruct Hc as [Hc _]. apply in_seq in Hc.
    rewrite mk_rc_val by lia. rewrite row_div in Hy. lia.
Qed.

Lemma win_ext w w' : length w = length w' -> Forall (fun b => (b < 256)%N) w -> Forall (fun b => (b < 256)%N) w' ->
  (forall r c, r < length w -> c < 8 -> N.testbit (nth r w 0%N) (N.of_nat c) = N.testbit (nth r w' 0%N) (N.of_nat c)) -> w = w'.
Proof.
  intros L B B' H. apply (nth_ext w w' 0%N 0%N L). intros r Hr. rewrite Forall_forall in B, B'.
  assert (B1 : (nth r w 0 < 2 ^ 8)%N) by (change (2 ^ 8)%N with 256%N; apply B, nth_In; auto).
  assert (B2 : (nth r w' 0 < 2 ^ 8)%N) by (change (2 ^ 8)%N with 256%N; apply B', nth_In; lia).
  apply N.bits_inj. intros k. destruct (N.ltb_spec k 8) as [Hk|Hk].
  - rewrite <- (N2Nat.id k). apply H; auto. lia.
  - rewrite (testbit_high _ 8), (testbit_high _ 8); auto.
Qed.

Lemma split_hybrid_ok lgK ps : forall w, length w = 2 ^ lgK -> Forall (fun b => (b < 256)%N) w -> (forall x, In x ps -> (x < 2 ^ N.of_nat (6 + lgK))%N) ->
  exists w', split_hybrid ps w = Ok (w', filter (fun x => negb (col_of x <? 8)) ps) /\ length w' = 2 ^ lgK /\ Forall (fun b => (b < 256)%N) w' /\
    forall x, col_of x < 8 -> (N.testbit (nth (row_of x) w' 0%N) (N.of_nat (col_of x)) = true <-> N.testbit (nth (row_of x) w 0%N) (N.of_nat (col_of x)) = true \/ In x ps).
Proof.
  induction ps as [|y ps IH]; intros w L B Hx; cbn [split_hybrid filter].
  - exists w. split; auto. split; auto. split; auto. intros x _. cbn [In]. tauto.
  - destruct (Nat.ltb_spec (col_of y) 8) as [Hc|Hc]; cbn [negb].
    + destruct (set_bit_ok 8 lgK w (row_of y) (col_of y) L B) as (b & w1 & E1 & _ & E2 & L1 & B1 & T1); [apply row_lt, Hx; left; auto|auto|].
      rewrite E1. cbn [of_opt bindr]. rewrite E2. cbn [of_opt bindr]. destruct (IH w1 L1 B1) as (w' & E & L' & B' & T'); [intros; apply Hx; right; auto|].
      exists w'. split; auto. split; auto. split; auto. intros x Hcx. rewrite (T' x Hcx), T1, orb_true_iff, same_cell, N.eqb_eq. cbn [In]. intuition.
    + destruct (IH w L B) as (w' & E & L' & B' & T'); [intros; apply Hx; right; auto|]. rewrite E. cbn [bindr]. exists w'. split; auto. split; auto. split; auto.
      intros x Hcx. rewrite (T' x Hcx). cbn [In]. split; [tauto|]. intros [H|[->|H]]; auto. lia.
Qed.
