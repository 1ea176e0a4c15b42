(** * CPC sketches: the matrix is exactly the set of coupons. *)
From Verif Require Import Base Bytes Arr BitPackModel BitPackProofs CpcTable CpcTableProofs CpcModel.
Local Open Scope nat_scope.

(** ** coupons as row and column *)
Lemma col_mod x : col_of x = N.to_nat (x mod 64).
Proof. unfold col_of. change 63%N with (N.ones 6). rewrite N.land_ones. reflexivity. Qed.
Lemma row_div x : row_of x = N.to_nat (x / 64).
Proof. unfold row_of. rewrite N.shiftr_div_pow2. reflexivity. Qed.
Lemma col_lt x : col_of x < 64.
Proof. rewrite col_mod. lia. Qed.
Lemma mk_rc_val r c : c < 64 -> mk_rc r c = (N.of_nat r * 64 + N.of_nat c)%N.
Proof.
  intros H. unfold mk_rc. rewrite <- N.lxor_lor.
  - rewrite <- N.add_nocarry_lxor; [rewrite N.shiftl_mul_pow2; reflexivity|].
    apply N.bits_inj. intros k. rewrite N.land_spec, N.bits_0, shiftl_testbit.
    destruct (N.leb_spec 6 k); [|auto]. rewrite (testbit_high (N.of_nat c) 6) by (auto; change (2^6)%N with 64%N; lia). apply andb_false_r.
  - apply N.bits_inj. intros k. rewrite N.land_spec, N.bits_0, shiftl_testbit.
    destruct (N.leb_spec 6 k); [|auto]. rewrite (testbit_high (N.of_nat c) 6) by (auto; change (2^6)%N with 64%N; lia). apply andb_false_r.
Qed.
Lemma row_mk r c : c < 64 -> row_of (mk_rc r c) = r.
Proof. intros H. rewrite row_div, mk_rc_val by auto. lia. Qed.
Lemma col_mk r c : c < 64 -> col_of (mk_rc r c) = c.
Proof. intros H. rewrite col_mod, mk_rc_val by auto. lia. Qed.
Lemma mk_row_col x : mk_rc (row_of x) (col_of x) = x.
Proof. rewrite mk_rc_val by apply col_lt. rewrite row_div, col_mod. lia. Qed.
Lemma rc_ext x y : row_of x = row_of y -> col_of x = col_of y -> x = y.
Proof. intros A B. rewrite <- (mk_row_col x), <- (mk_row_col y). congruence. Qed.
Lemma pow_N n : N.of_nat (2 ^ n) = (2 ^ N.of_nat n)%N.
Proof. rewrite Nat2N.inj_pow. reflexivity. Qed.
Lemma lim_val lgK : (2 ^ N.of_nat (6 + lgK) = 64 * N.of_nat (2 ^ lgK))%N.
Proof. rewrite Nat2N.inj_add, N.pow_add_r, pow_N. reflexivity. Qed.
Lemma row_lt lgK x : (x < 2 ^ N.of_nat (6 + lgK))%N <-> row_of x < 2 ^ lgK.
Proof. rewrite lim_val, row_div. split; intros; lia. Qed.

(** ** bits *)
Lemma ones_testbit n k : N.testbit (N.ones n) k = (k <? n)%N.
Proof. rewrite N.ones_equiv, <- N.sub_1_r. apply mask_testbit. Qed.
Lemma one_bit c k : N.testbit (N.shiftl 1 c) k = (k =? c)%N.
Proof. rewrite N.shiftl_1_l, N.pow2_bits_eqb. apply N.eqb_sym. Qed.
Lemma in_bits_of x c : In c (bits_of x) <-> c < 64 /\ N.testbit x (N.of_nat c) = true.
Proof. unfold bits_of. rewrite filter_In, in_seq. split; intros [? ?]; split; auto; lia. Qed.
Lemma nodup_bits_of x : NoDup (bits_of x).
Proof. apply NoDup_filter, seq_NoDup. Qed.

Lemma row_surprises_bit off p c : N.testbit (row_surprises off p) (N.of_nat c) =
  if c <? off then negb (N.testbit p (N.of_nat c)) else if c <? off + 8 then false else N.testbit p (N.of_nat c).
Proof.
  unfold row_surprises. rewrite N.lxor_spec, N.ldiff_spec, shiftl_testbit, ones_testbit.
  change 255%N with (N.ones 8). rewrite ones_testbit.
  destruct (Nat.ltb_spec c off).
  - replace (N.of_nat off <=? N.of_nat c)%N with false by lia. replace (N.of_nat c <? N.of_nat off)%N with true by lia.
    destruct (N.testbit p (N.of_nat c)); reflexivity.
  - replace (N.of_nat off <=? N.of_nat c)%N with true by lia. replace (N.of_nat c <? N.of_nat off)%N with false by lia.
    destruct (Nat.ltb_spec c (off + 8)).
    + replace (N.of_nat c - N.of_nat off <? 8)%N with true by lia. destruct (N.testbit p (N.of_nat c)); reflexivity.
    + replace (N.of_nat c - N.of_nat off <? 8)%N with false by lia. destruct (N.testbit p (N.of_nat c)); reflexivity.
Qed.

Lemma ctz_from_spec fuel : forall i x c, i <= c < ctz_from fuel i x -> N.testbit x (N.of_nat c) = false.
Proof.
  induction fuel as [|f IH]; intros i x c; cbn [ctz_from]; [lia|].
  destruct (N.testbit x (N.of_nat i)) eqn:E; [lia|]. intros H.
  destruct (Nat.eq_dec c i) as [->|]; auto. apply (IH (S i)). lia.
Qed.
Lemma ctz64_spec x c : c < ctz64 x -> N.testbit x (N.of_nat c) = false.
Proof. intros. apply (ctz_from_spec 64 0). unfold ctz64 in H. lia. Qed.

(** ** matrices *)
Fixpoint cells_of (rows : list N) (i : nat) : list N :=
  match rows with [] => [] | p :: r => map (mk_rc i) (bits_of p) ++ cells_of r (S i) end.

Lemma in_cells_of rows : forall i x, In x (cells_of rows i) <->
  i <= row_of x < i + length rows /\ N.testbit (nth (row_of x - i) rows 0%N) (N.of_nat (col_of x)) = true.
Proof.
  induction rows as [|p rows IH]; intros i x; cbn [cells_of length].
  - simpl. lia.
  - rewrite in_app_iff, IH, in_map_iff. split.
    + intros [(c & E & Hc)|(Hr & Hb)].
      * apply in_bits_of in Hc. destruct Hc as [L B]. subst x. rewrite row_mk, col_mk by auto. split; [lia|]. rewrite Nat.sub_diag. auto.
      * split; [lia|]. replace (row_of x - i) with (S (row_of x - S i)) by lia. auto.
    + intros (Hr & Hb). destruct (Nat.eq_dec (row_of x) i) as [E|E].
      * left. exists (col_of x). rewrite E, Nat.sub_diag in Hb. split; [rewrite <- E; apply mk_row_col|]. apply in_bits_of. split; auto. apply col_lt.
      * right. split; [lia|]. replace (row_of x - i) with (S (row_of x - S i)) in Hb by lia. auto.
Qed.

Lemma nodup_app {A} (l m : list A) : NoDup l -> NoDup m -> (forall x, In x l -> ~ In x m) -> NoDup (l ++ m).
Proof.
  induction l as [|a l IH]; simpl; intros H1 H2 H; auto. inversion H1; subst. constructor.
  - rewrite in_app_iff. intros [?|?]; auto. eapply H; eauto.
  - apply IH; auto.
Qed.

Lemma nodup_map {A B} (f : A -> B) l : (forall x y, In x l -> In y l -> f x = f y -> x = y) -> NoDup l -> NoDup (map f l).
Proof.
  induction l as [|a l IH]; simpl; intros Hi H; [constructor|]. inversion H; subst. constructor.
  - rewrite in_map_iff. intros (y & E & Hy). apply Hi in E; auto. subst. auto.
  - apply IH; auto.
Qed.

Lemma nodup_cells rows : forall i, NoDup (cells_of rows i).
Proof.
  induction rows as [|p rows IH]; intros i; cbn [cells_of]; [constructor|].
  apply nodup_app; auto.
  - apply nodup_map; [|apply nodup_bits_of]. intros a b Ha Hb E. apply in_bits_of in Ha, Hb.
    rewrite <- (col_mk i a), <- (col_mk i b) by lia. congruence.
  - intros x Hx Hy. apply in_map_iff in Hx. destruct Hx as (c & <- & Hc). apply in_bits_of in Hc.
    apply in_cells_of in Hy. rewrite row_mk in Hy by lia. lia.
Qed.

Lemma count_bits_cells m : count_bits m = length (cells_of m 0).
Proof.
  unfold count_bits. enough (forall i a, fold_left (fun a x => a + popcount64 x) m a = a + length (cells_of m i)) by (rewrite (H 0); lia).
  induction m as [|p m IH]; intros i a; cbn [fold_left cells_of length]; [lia|].
  rewrite (IH (S i)), app_length, map_length. unfold popcount64. lia.
Qed.

(** What a bit matrix says about a set of coupons. *)
Record matP (lgK : nat) (m : list N) (cs : list N) : Prop := {
  mp_len : length m = 2 ^ lgK;
  mp_lt : Forall (fun p => (p < 2 ^ 64)%N) m;
  mp_in : forall x, (x < 2 ^ N.of_nat (6 + lgK))%N ->
    (N.testbit (nth (row_of x) m 0%N) (N.of_nat (col_of x)) = true <-> In x cs) }.

Lemma matP_cells lgK m cs : matP lgK m cs -> (forall x, In x cs -> (x < 2 ^ N.of_nat (6 + lgK))%N) -> NoDup cs ->
  Permutation (cells_of m 0) cs.
Proof.
  intros [L _ I] Hlt ND. apply NoDup_Permutation; auto. apply nodup_cells.
  intros x. rewrite in_cells_of, Nat.sub_0_r, L. split.
  - intros ((_ & Hr) & Hb). apply I; auto. apply row_lt. auto.
  - intros Hx. pose proof (Hlt _ Hx) as Hl. split; [apply row_lt in Hl; lia|]. apply I; auto.
Qed.

Lemma matP_count lgK m cs : matP lgK m cs -> (forall x, In x cs -> (x < 2 ^ N.of_nat (6 + lgK))%N) -> NoDup cs ->
  count_bits m = length cs.
Proof. intros. rewrite count_bits_cells. apply Permutation_length. eapply matP_cells; eauto. Qed.

Lemma matP_unique lgK m m' cs cs' : matP lgK m cs -> matP lgK m' cs' -> (forall x, In x cs <-> In x cs') -> m = m'.
Proof.
  intros [L B I] [L' B' I'] H. apply (nth_ext _ _ 0%N 0%N); [congruence|]. intros r Hr.
  apply N.bits_inj. intros k. destruct (N.ltb_spec k 64) as [Hk|Hk].
  - assert (E : forall n, nth r n 0%N = nth (row_of (mk_rc r (N.to_nat k))) n 0%N) by (intros; rewrite row_mk; auto; lia).
    rewrite (E m), (E m'). replace k with (N.of_nat (col_of (mk_rc r (N.to_nat k)))) at 2 4 by (rewrite col_mk; lia).
    assert (Lx : (mk_rc r (N.to_nat k) < 2 ^ N.of_nat (6 + lgK))%N) by (apply row_lt; rewrite row_mk; lia).
    apply eq_true_iff_eq. rewrite I, I' by auto. apply H.
  - rewrite Forall_forall in B, B'. rewrite !(testbit_high _ 64); auto; [apply B'|apply B]; apply nth_In; lia.
Qed.

(** ** or_window and flip_slots *)
Lemma or_window_ok off w : forall m, length w <= length m -> exists m', or_window off w m = Ok m' /\ length m' = length m /\
  (forall r, nth r m' 0%N = if r <? length w then N.lor (nth r m 0%N) (N.shiftl (nth r w 0%N) (N.of_nat off)) else nth r m 0%N).
Proof.
  induction w as [|v w IH]; intros [|x m] H; cbn [length or_window] in *; try lia.
  - exists []. split; auto.
  - exists (x :: m). split; auto.
  - destruct (IH m) as (m' & E & L & Nh); [lia|]. rewrite E. cbn [bindr]. eexists. split; [reflexivity|]. split; [simpl; lia|].
    intros [|r]; cbn [nth]; auto. rewrite Nh. replace (S r <? S (length w)) with (r <? length w) by reflexivity. auto.
Qed.

Definition memb (x : N) (l : list N) : bool := existsb (N.eqb x) l.
Lemma memb_in x l : memb x l = true <-> In x l.
Proof. unfold memb. rewrite existsb_exists. split; [intros (y & H & E); apply N.eqb_eq in E; subst; auto|intros; exists x; split; auto; apply N.eqb_refl]. Qed.
Lemma memb_false x l : memb x l = false <-> ~ In x l.
Proof. rewrite <- memb_in. destruct (memb x l); split; congruence. Qed.

Lemma flip_slots_ok lgK slots : forall m, length m = 2 ^ lgK -> Forall (fun p => (p < 2 ^ 64)%N) m -> NoDup (somes slots) ->
  (forall x, In x (somes slots) -> (x < 2 ^ N.of_nat (6 + lgK))%N) ->
  exists m', flip_slots slots m = Ok m' /\ length m' = 2 ^ lgK /\ Forall (fun p => (p < 2 ^ 64)%N) m' /\
    forall x, (x < 2 ^ N.of_nat (6 + lgK))%N -> N.testbit (nth (row_of x) m' 0%N) (N.of_nat (col_of x)) =
      xorb (N.testbit (nth (row_of x) m 0%N) (N.of_nat (col_of x))) (memb x (somes slots)).
Proof.
  induction slots as [|[y|] slots IH]; intros m L B ND Hlt; cbn [flip_slots somes] in *.
  - exists m. split; auto. split; auto. split; auto. intros. cbn. rewrite xorb_false_r. auto.
  - inversion ND as [|? ? Hni ND']; subst.
    assert (Ly : row_of y < length m) by (rewrite L; apply row_lt; apply Hlt; left; auto).
    rewrite (nth_error_nth' m (row_of y) 0%N) by auto. cbn [bindr of_opt]. unfold wr. destruct (Nat.ltb_spec (row_of y) (length m)); [|lia]. cbn [bindr of_opt].
    set (p' := N.lxor _ _).
    destruct (IH (upd (row_of y) p' m)) as (m' & E & L' & B' & T).
    { rewrite upd_length. auto. }
    { apply Forall_forall. intros q Hq. apply In_nth_error in Hq. destruct Hq as [i Hi]. rewrite nth_error_upd in Hi.
      rewrite Forall_forall in B. destruct (Nat.eqb_spec (row_of y) i) as [Ei|Ei].
      - destruct (Nat.ltb_spec (row_of y) (length m)); [|lia]. injection Hi as <-.
        apply high_testbit. intros k Hk. unfold p'. rewrite N.lxor_spec, one_bit. rewrite (testbit_high _ 64) by (auto; apply B; apply nth_In; auto).
        pose proof (col_lt y). replace (k =? N.of_nat (col_of y))%N with false by lia. auto.
      - apply B. eapply nth_error_In; eauto. }
    { auto. } { intros; apply Hlt; right; auto. }
    exists m'. split; auto. split; auto. split; auto. intros x Hx. rewrite T by auto. cbn [memb existsb]. fold (memb x (somes slots)).
    destruct (Nat.eq_dec (row_of y) (row_of x)) as [Er|Er].
    + rewrite <- Er. rewrite nth_upd_eq by auto. unfold p'. rewrite N.lxor_spec, one_bit.
      destruct (N.eqb_spec x y) as [->|Hne].
      * replace (N.of_nat (col_of y) =? N.of_nat (col_of y))%N with true by lia.
        assert (memb y (somes slots) = false) by (apply memb_false; auto). rewrite H0. destruct (N.testbit _ _); reflexivity.
      * replace (N.of_nat (col_of x) =? N.of_nat (col_of y))%N with false.
        2:{ symmetry. apply N.eqb_neq. intros Z. apply Hne. apply rc_ext; auto. lia. }
        rewrite xorb_false_r. cbn [orb]. auto.
    + rewrite nth_upd_neq by auto. destruct (N.eqb_spec x y) as [->|]; [congruence|]. auto.
  - apply IH; auto.
Qed.

(** ** moving the window *)
Lemma insert_cols_ok row cols : forall t, wf t -> (forall c, In c cols -> c < 64 /\ (mk_rc row c < 2 ^ N.of_nat (t_vb t))%N) ->
  NoDup (map (mk_rc row) cols ++ pairs t) -> t_n t + length cols <= room (t_vb t) ->
  exists t', insert_cols t row cols = Ok (t', false) /\ wf t' /\ t_vb t' = t_vb t /\
    Permutation (pairs t') (map (mk_rc row) cols ++ pairs t).
Proof.
  induction cols as [|c cols IH]; intros t W Hc ND Hr; cbn [insert_cols map length] in *.
  - exists t. auto.
  - destruct (maybe_insert_ok t (mk_rc row c) W) as (t1 & b & E & W1 & V1 & L1 & Hf & Ht); [apply Hc; left; auto|lia|].
    rewrite E. cbn [bindr app] in *. inversion ND as [|? ? Hni ND']; subst.
    assert (b = true). { destruct b; auto. destruct (Hf eq_refl) as [Hin _]. exfalso. apply Hni. apply in_or_app. auto. }
    subst b. destruct (Ht eq_refl) as [Hn1 P].
    assert (N1 : t_n t1 = t_n t + 1) by (rewrite !pairs_n by auto; rewrite (Permutation_length P); simpl; lia).
    destruct (IH t1 W1) as (t2 & E2 & W2 & V2 & P2).
    + intros d Hd. rewrite V1. apply Hc. right. auto.
    + eapply Permutation_NoDup; [|exact ND]. rewrite P. apply Permutation_middle.
    + rewrite N1, V1. lia.
    + exists t2. split; auto. split; auto. split; [congruence|]. rewrite P2, P. symmetry. apply Permutation_middle.
Qed.

Definition byte_at (off : nat) (p : N) : N := N.land (N.shiftr p (N.of_nat off)) 255.
Definition or_all (off : nat) (rows : list N) (ors : N) : N := fold_left (fun o p => N.lor o (row_surprises off p)) rows ors.

Lemma offset_rows_cons off p rows b win i t ors : offset_rows off (p :: rows) (b :: win) i t ors =
  let* (t', stop) := insert_cols t i (bits_of (row_surprises off p)) in
  if stop then Ok (byte_at off p :: win, t', N.lor ors (row_surprises off p), true)
  else let* (w, t'', o, st) := offset_rows off rows win (S i) t' (N.lor ors (row_surprises off p)) in
       Ok (byte_at off p :: w, t'', o, st).
Proof. reflexivity. Qed.
Lemma or_all_cons off p rows ors : or_all off (p :: rows) ors = or_all off rows (N.lor ors (row_surprises off p)).
Proof. reflexivity. Qed.
Lemma cells_cons off p rows i : cells_of (map (row_surprises off) (p :: rows)) i =
  map (mk_rc i) (bits_of (row_surprises off p)) ++ cells_of (map (row_surprises off) rows) (S i).
Proof. reflexivity. Qed.

Lemma offset_rows_ok off rows : forall win i t ors lim, length win = length rows -> wf t ->
  i + length rows <= 2 ^ lim -> t_vb t = 6 + lim ->
  NoDup (cells_of (map (row_surprises off) rows) i ++ pairs t) ->
  t_n t + length (cells_of (map (row_surprises off) rows) i) <= room (t_vb t) ->
  exists t', offset_rows off rows win i t ors = Ok (map (byte_at off) rows, t', or_all off rows ors, false) /\
    wf t' /\ t_vb t' = t_vb t /\ Permutation (pairs t') (cells_of (map (row_surprises off) rows) i ++ pairs t).
Proof.
  induction rows as [|p rows IH]; intros win i t ors lim Hl W Hi Hv ND Hr; try rewrite cells_cons in *; cbn [length] in *.
  - destruct win; [|discriminate]. exists t. cbn. auto.
  - destruct win as [|b win]; [discriminate|].
    rewrite app_length, map_length in Hr. rewrite <- app_assoc in ND.
    destruct (insert_cols_ok i (bits_of (row_surprises off p)) t W) as (t1 & E1 & W1 & V1 & P1).
    + intros c Hc. apply in_bits_of in Hc. split; [lia|]. rewrite Hv. apply row_lt. rewrite row_mk by lia. lia.
    + rewrite app_assoc in ND. 
      eapply (nodup_app_r (cells_of (map (row_surprises off) rows) (S i))).
      eapply Permutation_NoDup; [|exact ND].
      rewrite app_assoc. apply Permutation_app_tail. apply Permutation_app_comm.
    + lia.
    + rewrite offset_rows_cons, E1. cbn [bindr].
      assert (N1 : t_n t1 = t_n t + length (bits_of (row_surprises off p))) by (rewrite !pairs_n by auto; rewrite (Permutation_length P1), app_length, map_length; lia).
      assert (PP : Permutation (cells_of (map (row_surprises off) rows) (S i) ++ pairs t1)
                (map (mk_rc i) (bits_of (row_surprises off p)) ++ cells_of (map (row_surprises off) rows) (S i) ++ pairs t)).
      { rewrite P1, !app_assoc. apply Permutation_app_tail. apply Permutation_app_comm. }
      destruct (IH win (S i) t1 (N.lor ors (row_surprises off p)) lim) as (t2 & E2 & W2 & V2 & P2); auto; try lia.
      * eapply Permutation_NoDup; [symmetry; exact PP|auto].
      * rewrite N1, V1. lia.
      * rewrite E2, or_all_cons. cbn [bindr]. exists t2. split; [reflexivity|]. split; [exact W2|]. split; [congruence|].
        etransitivity; [exact P2|]. etransitivity; [exact PP|]. rewrite <- app_assoc. apply Permutation_refl.
Qed.

Lemma or_all_bit off rows : forall ors k, N.testbit (or_all off rows ors) k = N.testbit ors k || existsb (fun p => N.testbit (row_surprises off p) k) rows.
Proof.
  unfold or_all. induction rows as [|p rows IH]; intros ors k; cbn [fold_left existsb]; [rewrite orb_false_r; auto|].
  rewrite IH, N.lor_spec, orb_assoc. auto.
Qed.

(** What the window and the table say about a set of coupons. *)
Record winv (lgK off fi : nat) (w : list N) (t : table) (cs : list N) : Prop := {
  wi_len : length w = 2 ^ lgK;
  wi_byte : Forall (fun b => (b < 256)%N) w;
  wi_wf : wf t;
  wi_vb : t_vb t = 6 + lgK;
  wi_low : forall x, (x < 2 ^ N.of_nat (6 + lgK))%N -> col_of x < off -> (In x (pairs t) <-> ~ In x cs);
  wi_mid : forall x, (x < 2 ^ N.of_nat (6 + lgK))%N -> off <= col_of x < off + 8 ->
    ~ In x (pairs t) /\ (N.testbit (nth (row_of x) w 0%N) (N.of_nat (col_of x - off)) = true <-> In x cs);
  wi_high : forall x, (x < 2 ^ N.of_nat (6 + lgK))%N -> off + 8 <= col_of x -> (In x (pairs t) <-> In x cs);
  wi_fi : fi <= off;
  wi_full : forall x, (x < 2 ^ N.of_nat (6 + lgK))%N -> col_of x < fi -> In x cs }.

(** Specification: the cells that a window at [off] does not represent by default. *)
Definition cells (lgK : nat) : list N := map N.of_nat (seq 0 (64 * 2 ^ lgK)).
Definition surprising (off : nat) (cs : list N) (x : N) : bool :=
  if col_of x <? off then negb (memb x cs) else if col_of x <? off + 8 then false else memb x cs.
Definition surprises (lgK off : nat) (cs : list N) : nat := length (filter (surprising off cs) (cells lgK)).

Lemma in_cells lgK x : In x (cells lgK) <-> (x < 2 ^ N.of_nat (6 + lgK))%N.
Proof.
  unfold cells. rewrite in_map_iff, lim_val. split.
  - intros (n & <- & H). apply in_seq in H. lia.
  - intros H. exists (N.to_nat x). split; [lia|]. apply in_seq. lia.
Qed.
Lemma nodup_all_cells lgK : NoDup (cells lgK).
Proof. apply nodup_map; [|apply seq_NoDup]. intros; lia. Qed.

Lemma cells_surprises lgK off m cs : matP lgK m cs ->
  (forall x, In x (cells_of (map (row_surprises off) m) 0) <-> (x < 2 ^ N.of_nat (6 + lgK))%N /\ surprising off cs x = true).
Proof.
  intros [L B I] x. rewrite in_cells_of, map_length, L, Nat.sub_0_r. rewrite row_lt.
  split.
  - intros ((_ & Hr) & Hb). split; auto.
    change 0%N with (0%N) in Hb. rewrite (nth_indep _ 0%N (row_surprises off 0)) in Hb by (rewrite map_length; lia).
    rewrite map_nth, row_surprises_bit in Hb. unfold surprising. apply row_lt in Hr. specialize (I x Hr).
    destruct (col_of x <? off).
    + apply negb_true_iff in Hb. apply negb_true_iff. apply memb_false. rewrite <- I. congruence.
    + destruct (col_of x <? off + 8); auto. apply memb_in. tauto.
  - intros (Hr & Hs). split; [lia|].
    rewrite (nth_indep _ 0%N (row_surprises off 0)) by (rewrite map_length; lia).
    rewrite map_nth, row_surprises_bit. unfold surprising in Hs. apply row_lt in Hr. specialize (I x Hr).
    destruct (col_of x <? off).
    + apply negb_true_iff in Hs. apply negb_true_iff. apply memb_false in Hs. rewrite <- I in Hs. destruct (N.testbit _ _); congruence.
    + destruct (col_of x <? off + 8); auto. apply memb_in in Hs. tauto.
Qed.

Lemma surprises_len lgK off m cs : matP lgK m cs -> length (cells_of (map (row_surprises off) m) 0) = surprises lgK off cs.
Proof.
  intros M. unfold surprises. apply Permutation_length. apply NoDup_Permutation.
  - apply nodup_cells.
  - apply NoDup_filter, nodup_all_cells.
  - intros x. rewrite (cells_surprises lgK off m cs M), filter_In, in_cells. tauto.
Qed.

Lemma byte_at_bit off p c : c < 8 -> N.testbit (byte_at off p) (N.of_nat c) = N.testbit p (N.of_nat (off + c)).
Proof.
  intros H. unfold byte_at. change 255%N with (N.ones 8). rewrite N.land_spec, ones_testbit, shiftr_testbit.
  replace (N.of_nat c <? 8)%N with true by lia. rewrite andb_true_r. f_equal. lia.
Qed.
Lemma byte_at_lt off p : (byte_at off p < 256)%N.
Proof. unfold byte_at. change 255%N with (N.ones 8). rewrite N.land_ones. apply N.mod_lt. discriminate. Qed.

(** The common core of modifyOffset and of the union's GetResult. *)
Lemma build_window lgK off m cs win t : matP lgK m cs -> length win = 2 ^ lgK -> wf t -> t_vb t = 6 + lgK -> pairs t = [] ->
  surprises lgK off cs <= room (6 + lgK) ->
  exists w t', offset_rows off m win 0 t 0 = Ok (w, t', or_all off m 0, false) /\
    winv lgK off (Nat.min (ctz64 (or_all off m 0)) off) w t' cs.
Proof.
  intros M Hw W Hv Hp Hs. pose proof M as [L B I].
  destruct (offset_rows_ok off m win 0 t 0%N lgK) as (t' & E & W' & V' & P'); auto; try lia.
  - rewrite Hp, app_nil_r. apply nodup_cells.
  - rewrite pairs_n, Hp by auto. rewrite Hv, (surprises_len lgK off m cs M). cbn [length]. lia.
  - rewrite Hp, app_nil_r in P'.
    eexists _, t'. split; [exact E|].
    assert (IP : forall x, (x < 2 ^ N.of_nat (6 + lgK))%N -> (In x (pairs t') <-> surprising off cs x = true)).
    { intros x Hx. pose proof (cells_surprises lgK off m cs M x) as Q. split; intros Hin.
      - apply Q. eapply Permutation_in; [exact P'|auto].
      - eapply Permutation_in; [symmetry; exact P'|]. apply Q. auto. }
    constructor; auto.
    + rewrite map_length. auto.
    + apply Forall_forall. intros b Hb. apply in_map_iff in Hb. destruct Hb as (p & <- & _). apply byte_at_lt.
    + congruence.
    + intros x Hx Hc. rewrite IP by auto. unfold surprising. destruct (Nat.ltb_spec (col_of x) off); [|lia].
      rewrite negb_true_iff. apply memb_false.
    + intros x Hx Hc. rewrite IP by auto. unfold surprising. destruct (Nat.ltb_spec (col_of x) off); [lia|].
      destruct (Nat.ltb_spec (col_of x) (off + 8)); [|lia]. split; [discriminate|].
      assert (row_of x < length m) by (rewrite L; apply row_lt; auto).
      rewrite (nth_indep _ 0%N (byte_at off 0)) by (rewrite map_length; auto). rewrite map_nth, byte_at_bit by lia.
      replace (off + (col_of x - off)) with (col_of x) by lia. apply I; auto.
    + intros x Hx Hc. rewrite IP by auto. unfold surprising. destruct (Nat.ltb_spec (col_of x) off); [lia|].
      destruct (Nat.ltb_spec (col_of x) (off + 8)); [lia|]. apply memb_in.
    + lia.
    + intros x Hx Hc. 
      assert (row_of x < length m) by (rewrite L; apply row_lt; auto).
      pose proof (ctz64_spec (or_all off m 0) (col_of x) ltac:(lia)) as Z. rewrite or_all_bit, N.bits_0 in Z. cbn [orb] in Z.
      apply I; auto. destruct (N.testbit (nth (row_of x) m 0%N) (N.of_nat (col_of x))) eqn:T; auto. exfalso.
      assert (existsb (fun p => N.testbit (row_surprises off p) (N.of_nat (col_of x))) m = true); [|congruence].
      apply existsb_exists. exists (nth (row_of x) m 0%N). split; [apply nth_In; auto|]. rewrite row_surprises_bit.
      destruct (Nat.ltb_spec (col_of x) off); [|lia]. rewrite T. auto.
Qed.
