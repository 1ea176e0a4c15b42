(** * The CPC union holds exactly the union of the inputs' coupons, folded to the smallest lgK. *)
From Verif Require Import Base Bytes Arr BitPackModel BitPackProofs ProbeProofs CpcTable CpcTableProofs CpcModel CpcProofs CpcSketch.
From Coq Require Import Permutation.
Local Open Scope nat_scope.

(** ** when the surprising values are known to fit *)
Definition low_cells (lgK o : nat) : list N := flat_map (fun r => map (mk_rc r) (seq 0 o)) (seq 0 (2 ^ lgK)).
Lemma low_cells_len lgK o : length (low_cells lgK o) = 2 ^ lgK * o.
Proof.
  unfold low_cells. rewrite <- (seq_length (2 ^ lgK) 0) at 2. induction (seq 0 (2 ^ lgK)) as [|r l IH]; auto.
  cbn [flat_map length]. rewrite app_length, map_length, seq_length, IH. lia.
Qed.
Lemma surprises_le lgK o cs : surprises lgK o cs <= 2 ^ lgK * o + length cs.
Proof.
  rewrite <- low_cells_len, <- app_length. unfold surprises. apply NoDup_incl_length; [apply NoDup_filter, nodup_all_cells|].
  intros x Hx. apply filter_In in Hx. destruct Hx as [Hx Hs]. apply in_cells in Hx. apply in_or_app. unfold surprising in Hs.
  destruct (Nat.ltb_spec (col_of x) o) as [C|C].
  - left. unfold low_cells. apply in_flat_map. exists (row_of x). split; [apply in_seq; apply row_lt in Hx; lia|].
    rewrite <- (mk_row_col x) at 1. apply in_map. apply in_seq. lia.
  - destruct (col_of x <? o + 8); [discriminate|]. right. apply memb_in. auto.
Qed.

Lemma room_le lgK : room (6 + lgK) <= 48 * 2 ^ lgK.
Proof.
  unfold room. assert (2 ^ (Nat.min 26 (6 + lgK) - 2) <= 2 ^ (4 + lgK)) as P by (apply Nat.pow_le_mono_r; lia).
  rewrite (Nat.pow_add_r 2 4 lgK) in P. change (2 ^ 4) with 16 in P. lia.
Qed.

Lemma offset_mul lgK C : correct_offset lgK C = 0 \/ (19 + 8 * correct_offset lgK C) * 2 ^ lgK <= 8 * C.
Proof.
  unfold correct_offset. pose proof (K_pos lgK). set (K := 2 ^ lgK) in *. destruct (Nat.ltb_spec (8 * C) (19 * K)); auto. right.
  pose proof (Nat.mul_div_le (8 * C - 19 * K) (8 * K) ltac:(lia)). nia.
Qed.

(** Half as many coupons as the pair table can hold always fit. *)
Lemma small_fits lgK cs : 2 * length cs <= room (6 + lgK) -> fits lgK cs.
Proof.
  intros H. pose proof (room_le lgK). pose proof (K_pos lgK). pose proof (offset_mul lgK (length cs)) as Q.
  set (co := correct_offset lgK (length cs)) in *. set (K := 2 ^ lgK) in *. split.
  - fold co. nia.
  - fold co. intros o Ho. pose proof (surprises_le lgK o cs) as S. fold K in S. nia.
Qed.
Lemma sparse_fits lgK cs : lgK <= 26 -> 4 * length cs <= 3 * 2 ^ lgK -> fits lgK cs.
Proof.
  intros HL H. pose proof (room_K lgK HL). pose proof (K_pos lgK).
  assert (E : correct_offset lgK (length cs) = 0) by (apply correct_offset_char; lia).
  split; rewrite E; [lia|]. intros o Ho. assert (o = 0) by lia. subst. pose proof (surprises_le lgK 0 cs). lia.
Qed.

Definition fits_sub (lgK : nat) (cs : list N) : Prop := forall l, NoDup l -> incl l cs -> fits lgK l.
Lemma small_fits_sub lgK cs : 2 * length cs <= room (6 + lgK) -> fits_sub lgK cs.
Proof. intros H l ND I. apply small_fits. pose proof (NoDup_incl_length ND I). lia. Qed.
Lemma sparse_fits_sub lgK cs : lgK <= 26 -> 4 * length cs <= 3 * 2 ^ lgK -> fits_sub lgK cs.
Proof. intros HL H l ND I. apply sparse_fits; auto. pose proof (NoDup_incl_length ND I). lia. Qed.
Lemma fits_sub_incl lgK cs ds : fits_sub lgK cs -> incl ds cs -> fits_sub lgK ds.
Proof. intros H I l ND Il. apply H; auto. eapply incl_tran; eauto. Qed.

(** ** folding coupons to fewer rows *)
Definition fold_rc (lg : nat) (x : N) : N := (x mod 2 ^ N.of_nat (6 + lg))%N.
Lemma fold_lt lg x : (fold_rc lg x < 2 ^ N.of_nat (6 + lg))%N.
Proof. apply N.mod_lt. apply N.pow_nonzero. lia. Qed.
Lemma fold_id lg x : (x < 2 ^ N.of_nat (6 + lg))%N -> fold_rc lg x = x.
Proof. apply N.mod_small. Qed.
Lemma fold_fold a b x : a <= b -> fold_rc a (fold_rc b x) = fold_rc a x.
Proof.
  intros H. unfold fold_rc. replace (2 ^ N.of_nat (6 + b))%N with (2 ^ N.of_nat (6 + a) * 2 ^ N.of_nat (b - a))%N.
  - rewrite N.mod_mul_r, N.mul_comm, N.mod_add, N.mod_mod by (apply N.pow_nonzero; lia). auto.
  - rewrite <- N.pow_add_r. f_equal. lia.
Qed.
Lemma fold_col lg x : col_of (fold_rc lg x) = col_of x.
Proof.
  unfold fold_rc. rewrite !col_mod, lim_val. pose proof (K_pos lg). rewrite N.mod_mul_r, (N.mul_comm 64 (_ mod _)), N.mod_add, N.mod_mod by lia. auto.
Qed.
Lemma fold_row lg x : row_of (fold_rc lg x) = row_of x mod 2 ^ lg.
Proof.
  unfold fold_rc. rewrite !row_div, lim_val. pose proof (K_pos lg). rewrite N.mod_mul_r, (N.mul_comm 64 (_ mod _)), N.div_add by lia.
  rewrite (N.div_small (x mod 64) 64) by (apply N.mod_lt; lia). rewrite N.add_0_l, N2Nat.inj_mod, Nat2N.id. auto.
Qed.
Lemma mask_fold lg x : N.land x (N.lor (N.shiftl (N.ones (N.of_nat lg)) 6) 63) = fold_rc lg x.
Proof.
  unfold fold_rc. rewrite <- N.land_ones. f_equal. apply N.bits_inj. intros k. change 63%N with (N.ones 6).
  rewrite N.lor_spec, shiftl_testbit, !ones_testbit. lia.
Qed.

Lemma fold_count a b ds : a <= b -> NoDup ds -> (forall x, In x ds -> (x < 2 ^ N.of_nat (6 + b))%N) ->
  length ds <= 2 ^ (b - a) * length (added (map (fold_rc a) ds)).
Proof.
  intros H ND LT. set (E := added (map (fold_rc a) ds)).
  assert (L : length (flat_map (fun y => map (fun i => (y + 2 ^ N.of_nat (6 + a) * N.of_nat i)%N) (seq 0 (2 ^ (b - a)))) E) = 2 ^ (b - a) * length E).
  { induction E as [|y E IH]; [simpl; lia|]. cbn [flat_map length]. rewrite app_length, map_length, seq_length, IH. lia. }
  rewrite <- L. apply NoDup_incl_length; auto. intros x Hx. apply in_flat_map. exists (fold_rc a x). split.
  - apply in_added. apply in_map. auto.
  - apply in_map_iff. exists (N.to_nat (x / 2 ^ N.of_nat (6 + a))). split.
    + rewrite N2Nat.id. unfold fold_rc. rewrite (N.div_mod x (2 ^ N.of_nat (6 + a))) at 3 by (apply N.pow_nonzero; lia). lia.
    + apply in_seq. split; [apply Nat.le_0_l|]. rewrite Nat.add_0_l. specialize (LT x Hx).
      replace (2 ^ N.of_nat (6 + b))%N with (2 ^ N.of_nat (6 + a) * 2 ^ N.of_nat (b - a))%N in LT by (rewrite <- N.pow_add_r; f_equal; lia).
      apply N.div_lt_upper_bound in LT; [|apply N.pow_nonzero; lia]. rewrite <- pow_N in LT. lia.
Qed.

(** ** or-ing rows and pairs into a matrix *)
Lemma or_rows_ok lg src : forall r dest, length dest = 2 ^ lg -> Forall (fun p => (p < 2 ^ 64)%N) dest -> Forall (fun p => (p < 2 ^ 64)%N) src ->
  exists d, or_rows (2 ^ lg) src r dest = Ok d /\ length d = 2 ^ lg /\ Forall (fun p => (p < 2 ^ 64)%N) d /\
    forall q c, q < 2 ^ lg -> (N.testbit (nth q d 0%N) c = true <->
      N.testbit (nth q dest 0%N) c = true \/ exists i, i < length src /\ (r + i) mod 2 ^ lg = q /\ N.testbit (nth i src 0%N) c = true).
Proof.
  pose proof (K_pos lg) as KP.
  induction src as [|x src IH]; intros r dest L B BS; cbn [or_rows].
  - exists dest. split; auto. split; auto. split; auto. intros q c Hq. cbn [length]. split; auto. intros [?|(i & Hi & _)]; auto. lia.
  - assert (Hr : r mod 2 ^ lg < length dest) by (rewrite L; apply Nat.mod_upper_bound; lia).
    rewrite (nth_error_nth' dest (r mod 2 ^ lg) 0%N Hr). cbn [of_opt bindr]. unfold wr.
    destruct (Nat.ltb_spec (r mod 2 ^ lg) (length dest)) as [_|]; [|lia]. cbn [of_opt bindr]. inversion BS as [|? ? Bx BS']; subst.
    destruct (IH (S r) (upd (r mod 2 ^ lg) (N.lor (nth (r mod 2 ^ lg) dest 0%N) x) dest)) as (d & E & Ld & Bd & T); auto.
    + rewrite upd_length. auto.
    + apply Forall_forall. intros v Hv. apply (In_nth _ _ 0%N) in Hv. destruct Hv as (i & Hi & <-). rewrite upd_length in Hi.
      rewrite Forall_forall in B. destruct (Nat.eq_dec (r mod 2 ^ lg) i) as [Ei|Hne].
      * rewrite <- Ei. rewrite nth_upd_eq by lia. apply high_testbit. intros k Hk. rewrite N.lor_spec.
        rewrite (testbit_high x 64), (testbit_high _ 64) by (auto; apply B, nth_In; auto). auto.
      * rewrite nth_upd_neq by auto. apply B, nth_In. auto.
    + exists d. split; auto. split; auto. split; auto. intros q c Hq. rewrite T by auto. clear T E.
      assert (P : N.testbit (nth q (upd (r mod 2 ^ lg) (N.lor (nth (r mod 2 ^ lg) dest 0%N) x) dest) 0%N) c = true <->
                  N.testbit (nth q dest 0%N) c = true \/ (r mod 2 ^ lg = q /\ N.testbit x c = true)).
      { destruct (Nat.eq_dec (r mod 2 ^ lg) q) as [Ei|Hne].
        - rewrite <- Ei, nth_upd_eq by lia. rewrite N.lor_spec, orb_true_iff. tauto.
        - rewrite nth_upd_neq by auto. tauto. }
      rewrite P. cbn [length]. split.
      * intros [[?|[? ?]]|(i & Hi & Hm & Hb)]; auto.
        -- right. exists 0. rewrite Nat.add_0_r. cbn [nth]. repeat split; auto. lia.
        -- right. exists (S i). cbn [nth]. repeat split; auto; [lia|]. rewrite <- Hm. f_equal. lia.
      * intros [?|(i & Hi & Hm & Hb)]; auto. destruct i as [|i].
        -- rewrite Nat.add_0_r in Hm. auto.
        -- right. exists i. cbn [nth] in Hb. repeat split; auto; [lia|]. rewrite <- Hm. f_equal. lia.
Qed.

Lemma or_table_ok lg slots : forall dest, length dest = 2 ^ lg -> Forall (fun p => (p < 2 ^ 64)%N) dest ->
  exists d, or_table (2 ^ lg) slots dest = Ok d /\ length d = 2 ^ lg /\ Forall (fun p => (p < 2 ^ 64)%N) d /\
    forall x, (x < 2 ^ N.of_nat (6 + lg))%N -> (N.testbit (nth (row_of x) d 0%N) (N.of_nat (col_of x)) = true <->
      N.testbit (nth (row_of x) dest 0%N) (N.of_nat (col_of x)) = true \/ exists y, In y (somes slots) /\ fold_rc lg y = x).
Proof.
  pose proof (K_pos lg) as KP.
  induction slots as [|[y|] slots IH]; intros dest L B; cbn [or_table somes].
  - exists dest. split; auto. split; auto. split; auto. intros x Hx. split; auto. intros [?|(y & [] & _)]; auto.
  - destruct (set_bit_ok 64 lg dest (row_of y mod 2 ^ lg) (col_of y)) as (b & w' & E1 & Nb & E2 & L' & B' & T); auto.
    { apply Nat.mod_upper_bound. lia. } { apply col_lt. }
    rewrite E1. cbn [of_opt bindr]. rewrite E2. cbn [of_opt bindr].
    destruct (IH w' L' B') as (d & E & Ld & Bd & TT). exists d. split; auto. split; auto. split; auto.
    intros x Hx. rewrite TT by auto. rewrite T.
    rewrite <- (fold_row lg y), <- (fold_col lg y), same_cell, orb_true_iff, N.eqb_eq. cbn [In]. split.
    + intros [[?| ->]|(z & Hz & <-)]; auto; right; eauto.
    + intros [?|(z & [<-|Hz] & <-)]; auto. right. eauto.
  - apply IH; auto.
Qed.

Definition union_of (lg : nat) (cs ds : list N) (x : N) : Prop := In x cs \/ In x (map (fold_rc lg) ds).

Lemma fold_bits lg lg' m ds : lg <= lg' -> matP lg' m ds -> (forall x, In x ds -> (x < 2 ^ N.of_nat (6 + lg'))%N) ->
  forall x, (x < 2 ^ N.of_nat (6 + lg))%N -> ((exists i, i < length m /\ (0 + i) mod 2 ^ lg = row_of x /\ N.testbit (nth i m 0%N) (N.of_nat (col_of x)) = true) <->
    In x (map (fold_rc lg) ds)).
Proof.
  intros H [L B I] LT x Hx. pose proof (col_lt x) as Hc. rewrite in_map_iff. split.
  - intros (i & Hi & Hm & Hb). exists (mk_rc i (col_of x)).
    assert (HH : (mk_rc i (col_of x) < 2 ^ N.of_nat (6 + lg'))%N) by (apply row_lt; rewrite row_mk; lia).
    split.
    + apply rc_ext; [rewrite fold_row, row_mk by auto; auto|rewrite fold_col, col_mk; auto].
    + apply I; auto. rewrite row_mk, col_mk by auto. auto.
  - intros (y & <- & Hy). specialize (LT y Hy). exists (row_of y). rewrite L, fold_row, fold_col. split; [apply row_lt; auto|]. split; auto. apply I; auto.
Qed.

Lemma or_matrix lg lg' m ds dest cs : lg <= lg' -> matP lg' m ds -> (forall x, In x ds -> (x < 2 ^ N.of_nat (6 + lg'))%N) -> matP lg dest cs ->
  exists d, or_rows (2 ^ lg) m 0 dest = Ok d /\ matP lg d (cs ++ map (fold_rc lg) ds).
Proof.
  intros H M LT D. destruct (or_rows_ok lg m 0 dest) as (d & E & L & B & T).
  - apply (mp_len _ _ _ D). - apply (mp_lt _ _ _ D). - apply (mp_lt _ _ _ M).
  - exists d. split; auto. constructor; auto. intros x Hx. rewrite T by (apply row_lt; auto). rewrite (mp_in _ _ _ D x Hx).
    rewrite (fold_bits lg lg' m ds H M LT x Hx), in_app_iff. tauto.
Qed.

Lemma matP_ext lg m cs ds : matP lg m cs -> (forall x, (x < 2 ^ N.of_nat (6 + lg))%N -> (In x cs <-> In x ds)) -> matP lg m ds.
Proof. intros [L B I] H. constructor; auto. intros x Hx. rewrite I, H by auto. tauto. Qed.

Lemma zero_matrix lg : matP lg (repeat 0%N (2 ^ lg)) [].
Proof.
  constructor; [apply repeat_length|apply Forall_forall; intros p Hp; apply repeat_spec in Hp; subst; reflexivity|].
  intros x Hx. rewrite nth_repeat, N.bits_0. simpl. split; [discriminate|tauto].
Qed.

(** ** walkTableUpdatingSketch visits every slot *)
Lemma stride_odd size : N.odd (N.of_nat (stride size)) = true.
Proof.
  unfold stride. set (s := N.to_nat _). clearbody s. rewrite <- N.negb_even.
  destruct (Nat.even s) eqn:E.
  - rewrite Nat2N.inj_add, N.even_add. change (N.even (N.of_nat 1)) with false.
    replace (N.even (N.of_nat s)) with true; auto. symmetry. apply Nat.even_spec in E. destruct E as [k ->]. apply N.even_spec. exists (N.of_nat k). lia.
  - assert (Nat.odd s = true) as O by (rewrite <- Nat.negb_even, E; auto). apply Nat.odd_spec in O. destruct O as [k ->].
    replace (N.of_nat (2 * k + 1)) with (1 + 2 * N.of_nat k)%N by lia. rewrite N.even_add_mul_2. auto.
Qed.

Section Union.
Context {F : Type} (HO : hip_ops F).
Notation cpcF := (cpc F).

Lemma walk_loop_ok lg slots size st : length slots = size -> 0 < size ->
  forall count (dest : cpcF) ds j, inv dest ds -> c_lgK dest = lg -> fits_sub lg (ds ++ map (fold_rc lg) (somes slots)) ->
  exists d' ds', walk_loop F HO count dest slots size st j = Ok d' /\ inv d' ds' /\ same_params dest d' /\
    forall y, In y ds' <-> In y ds \/ exists i x, i < count /\ nth_error slots ((j + i * st) mod size) = Some (Some x) /\ fold_rc lg x = y.
Proof.
  intros L Hs. induction count as [|count IH]; intros dest ds j I Hl FS; cbn [walk_loop].
  - exists dest, ds. split; auto. split; auto. split; [repeat split|]. intros y. split; auto. intros [?|(i & x & Hi & _)]; auto. lia.
  - assert (Hj : j mod size < length slots) by (rewrite L; apply Nat.mod_upper_bound; lia).
    destruct (nth_error slots (j mod size)) as [o|] eqn:E; [|apply nth_error_None in E; lia]. cbn [of_opt bindr].
    assert (SHIFT : forall i, (j mod size + st + i * st) mod size = (j + S i * st) mod size).
    { intros i. replace (j mod size + st + i * st) with (j mod size + S i * st) by lia. rewrite Nat.add_mod_idemp_l by lia. auto. }
    destruct o as [x|].
    + rewrite mask_fold, Hl.
      assert (Hx : In x (somes slots)). { apply in_somes. exists (j mod size). auto. }
      set (y0 := fold_rc lg x).
      assert (IN : In y0 (ds ++ map (fold_rc lg) (somes slots))) by (apply in_or_app; right; apply in_map; auto).
      pose proof I as [LG [ND LT] NN SH].
      destruct (update_step HO dest ds y0 I) as (d1 & E1 & I1 & (S1 & S2 & S3)).
      { rewrite Hl. apply fold_lt. }
      { rewrite Hl. unfold add. destruct (memb y0 ds) eqn:M.
        - apply FS; auto. apply incl_appl, incl_refl.
        - apply memb_false in M. apply FS; [constructor; auto|]. intros z [<-|Hz]; auto. apply in_or_app; auto. }
      rewrite E1. cbn [bindr].
      assert (AD : forall z, In z (add ds y0) <-> z = y0 \/ In z ds).
      { intros z. unfold add. destruct (memb y0 ds) eqn:M; cbn [In]; [apply memb_in in M|]; split; intuition; subst; auto. }
      destruct (IH d1 (add ds y0) (j mod size + st) I1) as (d2 & ds2 & E2 & I2 & (T1 & T2 & T3) & Q); [congruence| |].
      { eapply fits_sub_incl; [exact FS|]. intros z Hz. apply in_app_or in Hz. destruct Hz as [Hz|Hz]; [|apply in_or_app; auto].
        apply AD in Hz. destruct Hz as [->|]; auto. apply in_or_app; auto. }
      exists d2, ds2. split; auto. split; auto. split; [repeat split; congruence|].
      intros z. rewrite Q, AD. split.
      * intros [[->|?]|(i & x' & Hi & Hn & Hz)]; auto.
        -- right. exists 0, x. cbn [Nat.mul]. rewrite Nat.add_0_r. repeat split; auto. lia.
        -- right. exists (S i), x'. rewrite SHIFT in Hn. repeat split; auto. lia.
      * intros [?|(i & x' & Hi & Hn & Hz)]; auto. destruct i as [|i].
        -- cbn [Nat.mul] in Hn. rewrite Nat.add_0_r, E in Hn. injection Hn as <-. auto.
        -- right. exists i, x'. rewrite SHIFT. repeat split; auto. lia.
    + destruct (IH dest ds (j mod size + st) I Hl FS) as (d2 & ds2 & E2 & I2 & SP & Q).
      exists d2, ds2. split; auto. split; auto. split; auto. intros z. rewrite Q. split.
      * intros [?|(i & x' & Hi & Hn & Hz)]; auto. right. exists (S i), x'. rewrite SHIFT in Hn. repeat split; auto. lia.
      * intros [?|(i & x' & Hi & Hn & Hz)]; auto. destruct i as [|i].
        -- cbn [Nat.mul] in Hn. rewrite Nat.add_0_r, E in Hn. discriminate.
        -- right. exists i, x'. rewrite SHIFT. repeat split; auto. lia.
Qed.

Lemma walk_table_ok lg (dest : cpcF) ds t : wf t -> inv dest ds -> c_lgK dest = lg -> fits_sub lg (ds ++ map (fold_rc lg) (pairs t)) ->
  exists d' ds', walk_table F HO dest t = Ok d' /\ inv d' ds' /\ same_params dest d' /\
    forall y, In y ds' <-> In y ds \/ In y (map (fold_rc lg) (pairs t)).
Proof.
  intros W I Hl FS. pose proof (K_pos (t_lg t)) as Hp. pose proof (ws_len _ _ _ (w_s _ W)) as L. unfold walk_table.
  destruct (walk_loop_ok lg (t_slots t) (2 ^ t_lg t) (stride (2 ^ t_lg t)) L Hp (2 ^ t_lg t) dest ds 0 I Hl FS) as (d & ds' & E & I' & SP & Q).
  exists d, ds'. split; auto. split; auto. split; auto. intros y. rewrite Q, in_map_iff. split.
  - intros [?|(i & x & Hi & Hn & Hx)]; auto. right. exists x. split; auto. unfold pairs. apply in_somes. eauto.
  - intros [?|(x & Hx & Hin)]; auto. right. unfold pairs in Hin. apply in_somes in Hin. destruct Hin as (p & Hpn).
    assert (Hlt : p < 2 ^ t_lg t) by (rewrite <- L; apply nth_error_Some; congruence).
    destruct (sprobe_onto (N.of_nat (t_lg t)) 0 (N.of_nat (stride (2 ^ t_lg t))) p (stride_odd _)) as (i & Hi & Hs).
    { rewrite <- pow_N, Nat2N.id. auto. }
    rewrite <- pow_N, Nat2N.id in Hi. exists i, x. split; auto. split; auto.
    replace ((0 + i * stride (2 ^ t_lg t)) mod 2 ^ t_lg t) with p; auto. rewrite <- Hs. unfold sprobe.
    rewrite <- pow_N, N.add_0_l, <- Nat2N.inj_mul, N2Nat.inj_mod, !Nat2N.id. auto.
Qed.

(** [cs] lists the coupons the union holds (with possible repetitions). *)
Record uinv (u : cunion F) (cs : list N) : Prop := {
  ui_lg : 4 <= u_lgK F u <= 26;
  ui_lt : forall x, In x cs -> (x < 2 ^ N.of_nat (6 + u_lgK F u))%N;
  ui_st : (exists a ds, u_acc F u = Some a /\ u_mat F u = None /\ inv a ds /\ c_lgK a = u_lgK F u /\ c_seed a = u_seed F u /\
             32 * length ds < 3 * 2 ^ u_lgK F u /\ (forall x, In x ds <-> In x cs)) \/
          (exists m, u_acc F u = None /\ u_mat F u = Some m /\ matP (u_lgK F u) m cs /\
             3 * 2 ^ u_lgK F u <= 32 * length (added cs)) }.

Lemma uinv_ext u cs ds : uinv u cs -> (forall x, In x cs <-> In x ds) -> uinv u ds.
Proof.
  intros [LG LT ST] H. constructor; auto.
  - intros x Hx. apply LT, H. auto.
  - destruct ST as [(a & es & A1 & A2 & A3 & A4 & A5 & A6 & A7)|(m & A1 & A2 & A3 & A4)].
    + left. exists a, es. do 6 (split; auto). intros x. rewrite A7. auto.
    + right. exists m. split; auto. split; auto. split.
      * eapply matP_ext; eauto.
      * replace (length (added ds)) with (length (added cs)); auto.
        pose proof (added_ok _ _ LT) as [N1 _]. assert (L2 : forall x, In x ds -> (x < 2 ^ N.of_nat (6 + u_lgK F u))%N) by (intros; apply LT, H; auto).
        pose proof (added_ok _ _ L2) as [N2 _]. apply Permutation_length, NoDup_Permutation; auto. intros x. rewrite !in_added. auto.
Qed.

Lemma check_ok u cs : uinv u cs -> check_union F u = Ok tt.
Proof.
  intros [LG LT ST]. unfold check_union. destruct ST as [(a & es & A1 & A2 & A3 & A4 & A5 & A6 & A7)|(m & A1 & A2 & A3 & A4)].
  - rewrite A1, A2, A4, Nat.eqb_refl. destruct A3 as [_ _ NN SH]. rewrite A4 in SH. rewrite NN. inversion SH; subst; try lia; auto.
    + replace (0 <? length es) with true by lia. auto.
  - rewrite A1, A2. auto.
Qed.

Lemma flavor_sparse (s : cpcF) cs : inv s cs -> (get_flavor F s = Sparse <-> 0 < length cs /\ 32 * length cs < 3 * 2 ^ c_lgK s).
Proof.
  intros [_ _ NN _]. unfold get_flavor, determine_flavor. rewrite NN.
  destruct (Nat.eqb_spec (length cs) 0); [split; [discriminate|lia]|].
  destruct (Nat.ltb_spec (32 * length cs) (3 * 2 ^ c_lgK s)); [split; auto; split; [lia|auto]|].
  repeat match goal with |- context [if ?b then _ else _] => destruct b end; split; try discriminate; lia.
Qed.
Lemma flavor_empty (s : cpcF) cs : inv s cs -> (get_flavor F s = Empty <-> cs = []).
Proof.
  intros [_ _ NN _]. unfold get_flavor, determine_flavor. rewrite NN.
  destruct (Nat.eqb_spec (length cs) 0) as [E|E]; [destruct cs; [tauto|discriminate]|].
  split; [|intros ->; cbn in E; lia].
  repeat match goal with |- context [if ?b then _ else _] => destruct b end; discriminate.
Qed.

(** A sketch that just grew inside the union: keep it while it is sparse, else take its matrix. *)
Lemma settle (u : cunion F) (a : cpcF) ds cs lg : inv a ds -> c_lgK a = lg -> c_seed a = u_seed F u -> (forall x, In x ds <-> In x cs) ->
  ((32 * length ds < 3 * 2 ^ lg -> uinv (mkCu F (u_seed F u) lg None (Some a)) cs) /\
   (3 * 2 ^ lg <= 32 * length ds -> exists m, bit_matrix F a = Ok m /\ uinv (mkCu F (u_seed F u) lg (Some m) None) cs)).
Proof.
  intros I Hl Hs H. pose proof I as [LG [ND LT] NN SH].
  assert (LT' : forall x, In x cs -> (x < 2 ^ N.of_nat (6 + lg))%N) by (intros; rewrite <- Hl; apply LT, H; auto).
  split; intros C.
  - constructor; cbn [u_lgK u_acc u_mat u_seed]; auto; [lia|]. left. exists a, ds. do 6 (split; auto).
  - destruct (bit_matrix_ok a ds I) as (m & E & M). exists m. split; auto. rewrite Hl in M.
    constructor; cbn [u_lgK u_acc u_mat u_seed]; auto; [lia|]. right. exists m. split; auto. split; auto. split.
    + eapply matP_ext; eauto.
    + replace (length (added cs)) with (length ds); auto. apply Permutation_length, NoDup_Permutation; auto; [apply (added_ok _ _ LT')|].
      intros x. rewrite in_added. auto.
Qed.

Lemma added_fold_le a b cs : a <= b -> (forall x, In x cs -> (x < 2 ^ N.of_nat (6 + b))%N) ->
  3 * 2 ^ b <= 32 * length (added cs) -> 3 * 2 ^ a <= 32 * length (added (map (fold_rc a) cs)).
Proof.
  intros H LT C. destruct (added_ok b cs LT) as [ND L]. pose proof (fold_count a b (added cs) H ND L) as Q.
  assert (E : length (added (map (fold_rc a) (added cs))) = length (added (map (fold_rc a) cs))).
  { assert (forall l x, In x (map (fold_rc a) l) -> (x < 2 ^ N.of_nat (6 + a))%N) as LL by (intros l x Hx; apply in_map_iff in Hx; destruct Hx as (y & <- & _); apply fold_lt).
    apply Permutation_length, NoDup_Permutation; [apply (added_ok a); apply LL|apply (added_ok a); apply LL|].
    intros x. rewrite !in_added, !in_map_iff. split; intros (y & E & Hy); exists y; (split; [exact E|]); apply (in_added cs y); exact Hy. }
  rewrite E in Q. replace (2 ^ b) with (2 ^ (b - a) * 2 ^ a) in C by (rewrite <- Nat.pow_add_r; f_equal; lia).
  pose proof (K_pos (b - a)). nia.
Qed.

Lemma reduce_ok u cs lg : uinv u cs -> 4 <= lg -> lg < u_lgK F u ->
  (u_acc F u = None \/ fits_sub lg (map (fold_rc lg) cs)) ->
  exists u', reduce_union F HO u lg = Ok u' /\ uinv u' (map (fold_rc lg) cs) /\ u_lgK F u' = lg /\ u_seed F u' = u_seed F u.
Proof.
  intros U L4 Hlt FS. pose proof U as [LG LT ST]. unfold reduce_union. replace (lg <? u_lgK F u) with true by lia.
  assert (FL : forall x, In x (map (fold_rc lg) cs) -> (x < 2 ^ N.of_nat (6 + lg))%N) by (intros x Hx; apply in_map_iff in Hx; destruct Hx as (y & <- & _); apply fold_lt).
  destruct ST as [(a & es & A1 & A2 & A3 & A4 & A5 & A6 & A7)|(m & A1 & A2 & A3 & A4)].
  - rewrite A2, A1. assert (NEW : exists f, new_cpc F HO lg (c_seed a) = Ok f) by (unfold new_cpc; replace ((lg <? 4) || (26 <? lg)) with false by lia; eauto).
    destruct NEW as (f & Ef). rewrite Ef. cbn [bindr]. destruct (new_inv HO _ _ _ Ef) as (If & Lf & Sf & _).
    pose proof A3 as [_ [ND LTa] NN SH]. rewrite NN. destruct (Nat.eqb_spec (length es) 0) as [Z|Z].
    + eexists. split; [reflexivity|]. cbn [u_lgK u_seed]. split; [|auto]. destruct es; [|discriminate].
      destruct (settle u f [] (map (fold_rc lg) cs) lg If Lf) as [S _]; [congruence| |apply S; pose proof (K_pos lg); cbn [length]; lia].
      intros x. rewrite in_map_iff. split; [intros []|]. intros (y & _ & Hy). apply A7 in Hy. destruct Hy.
    + rewrite A4 in SH. inversion SH as [E0 H1 H2 H3 H4|t P1 P2 W V P H1 H2 H3 H4|fi' off' w t P1 P2 P3 P4 W H1 H2 H3 H4]; [subst; cbn in Z; lia| |lia].
      destruct (walk_table_ok lg f [] t W If Lf) as (d & ds & E & I' & (S1 & S2 & S3) & Q).
      { destruct FS as [FS|FS]; [congruence|]. eapply fits_sub_incl; [exact FS|]. cbn [app]. intros x Hx. apply in_map_iff in Hx. destruct Hx as (y & <- & Hy).
        apply in_map. apply A7. eapply Permutation_in; eauto. }
      rewrite E. cbn [bindr].
      assert (QQ : forall x, In x ds <-> In x (map (fold_rc lg) cs)).
      { intros x. rewrite Q. rewrite !in_map_iff. cbn [In]. split.
        - intros [[]|(y & Ey & Hy)]. exists y. split; auto. apply A7. eapply Permutation_in; eauto.
        - intros (y & Ey & Hy). right. exists y. split; auto. apply A7 in Hy. eapply Permutation_in; [symmetry; exact P|auto]. }
      assert (Ld : c_lgK d = lg) by congruence.
      destruct (settle u d ds (map (fold_rc lg) cs) lg I' Ld) as [SP MX]; [congruence|auto|].
      pose proof (flavor_sparse d ds I') as FSP. rewrite Ld in FSP.
      assert (POS : 0 < length ds).
      { destruct ds; [|cbn; lia]. exfalso. destruct es as [|e es]; [cbn in Z; lia|]. destruct (QQ (fold_rc lg e)) as [_ K]. apply K. apply in_map, A7. left; auto. }
      destruct (Nat.lt_ge_cases (32 * length ds) (3 * 2 ^ lg)) as [C|C].
      * destruct FSP as [_ FSP]. rewrite FSP by auto. eexists. split; [reflexivity|]. split; [auto|]. auto.
      * destruct (MX C) as (m & Em & Um). exists (mkCu F (u_seed F u) lg (Some m) None). split; [|auto].
        destruct (get_flavor F d) eqn:FL2; try (rewrite Em; reflexivity). destruct (proj1 FSP eq_refl). lia.
  - rewrite A2. destruct (or_matrix lg (u_lgK F u) m cs (repeat 0%N (2 ^ lg)) []) as (d & E & M); auto; [lia|apply zero_matrix|].
    rewrite E. cbn [bindr]. eexists. split; [reflexivity|]. split; [|auto]. constructor; cbn [u_lgK u_acc u_mat]; auto; [lia|].
    right. exists d. split; auto. split; auto. split; auto. apply added_fold_le with (u_lgK F u); auto. lia.
Qed.

Lemma added_mono lgK cs ds : (forall x, In x cs -> (x < 2 ^ N.of_nat (6 + lgK))%N) -> (forall x, In x cs -> In x ds) -> length (added cs) <= length (added ds).
Proof.
  intros LT H. apply NoDup_incl_length; [apply (added_ok lgK); auto|]. intros x Hx. apply in_added, H, in_added. auto.
Qed.

Definition result_lg (u : cunion F) (src : cpcF) (ds : list N) : nat :=
  match ds with [] => u_lgK F u | _ => Nat.min (u_lgK F u) (c_lgK src) end.

Lemma map_fold_id lg cs : (forall x, In x cs -> (x < 2 ^ N.of_nat (6 + lg))%N) -> map (fold_rc lg) cs = cs.
Proof. intros H. rewrite <- (map_id cs) at 2. apply map_ext_in. intros x Hx. apply fold_id. auto. Qed.

(** After the reduction the union's lgK is at most the source's. *)
Lemma update_core u cs (src : cpcF) ds : uinv u cs -> inv src ds -> c_seed src = u_seed F u -> ds <> [] -> u_lgK F u <= c_lgK src ->
  (u_acc F u = None \/ c_lgK src = u_lgK F u \/ fits_sub (u_lgK F u) (cs ++ map (fold_rc (u_lgK F u)) ds)) ->
  exists u', (let* u := match get_flavor F src, u_acc F u with
              | Sparse, _ => Ok u
              | _, Some a => let* m := bit_matrix F a in Ok (mkCu F (u_seed F u) (u_lgK F u) (Some m) None)
              | _, None => Ok u
              end in
    match get_flavor F src, u_mat F u with
    | Sparse, None =>
        match u_acc F u with
        | None => Panic
        | Some a =>
            if (match get_flavor F a with Empty => true | _ => false end) && (u_lgK F u =? c_lgK src) then
              let* cp := copy_cpc F HO src in Ok (mkCu F (u_seed F u) (u_lgK F u) None (Some cp))
            else match c_tab src with
                 | None => Panic
                 | Some t =>
                     let* a' := walk_table F HO a t in
                     match get_flavor F a' with
                     | Empty | Sparse => Ok (mkCu F (u_seed F u) (u_lgK F u) None (Some a'))
                     | _ => let* m := bit_matrix F a' in Ok (mkCu F (u_seed F u) (u_lgK F u) (Some m) None)
                     end
                 end
        end
    | Sparse, Some m =>
        match c_tab src with
        | None => Panic
        | Some t => let* m' := or_table (2 ^ u_lgK F u) (t_slots t) m in Ok (mkCu F (u_seed F u) (u_lgK F u) (Some m') (u_acc F u))
        end
    | Hybrid, Some m | Pinned, Some m =>
        if c_lgK src <? u_lgK F u then Err
        else match c_win src, c_tab src with
             | Some w, Some t =>
                 let* m1 := or_rows (2 ^ u_lgK F u) w 0 m in
                 let* m2 := or_table (2 ^ u_lgK F u) (t_slots t) m1 in
                 Ok (mkCu F (u_seed F u) (u_lgK F u) (Some m2) (u_acc F u))
             | _, _ => Panic
             end
    | Sliding, Some m =>
        let* sm := bit_matrix F src in
        if c_lgK src <? u_lgK F u then Err
        else let* m' := or_rows (2 ^ u_lgK F u) sm 0 m in Ok (mkCu F (u_seed F u) (u_lgK F u) (Some m') (u_acc F u))
    | _, _ => Err
    end) = Ok u' /\ uinv u' (cs ++ map (fold_rc (u_lgK F u)) ds) /\ u_lgK F u' = u_lgK F u /\ u_seed F u' = u_seed F u.
Proof.
  intros U I Hseed Hne Hle FS. pose proof U as [LG LT ST]. set (lg := u_lgK F u) in *.
  pose proof I as [LGs [ND LTs] NN SH].
  assert (RES : forall x, In x (cs ++ map (fold_rc lg) ds) -> (x < 2 ^ N.of_nat (6 + lg))%N).
  { intros x Hx. apply in_app_or in Hx. destruct Hx as [?|Hx]; auto. apply in_map_iff in Hx. destruct Hx as (y & <- & _). apply fold_lt. }
  assert (MATRIX : forall d acc, acc = None -> matP lg d (cs ++ map (fold_rc lg) ds) -> 3 * 2 ^ lg <= 32 * length (added cs) \/ 3 * 2 ^ c_lgK src <= 32 * length ds ->
            uinv (mkCu F (u_seed F u) lg (Some d) acc) (cs ++ map (fold_rc lg) ds)).
  { intros d acc -> M C. constructor; cbn [u_lgK u_acc u_mat]; auto. right. exists d. split; auto. split; auto. split; auto. destruct C as [C|C].
    - pose proof (added_mono lg cs (cs ++ map (fold_rc lg) ds) LT) as Q. specialize (Q ltac:(intros; apply in_or_app; auto)). lia.
    - assert (3 * 2 ^ lg <= 32 * length (added (map (fold_rc lg) ds))).
      { apply added_fold_le with (c_lgK src); auto. replace (length (added ds)) with (length ds); auto.
        apply Permutation_length, NoDup_Permutation; auto; [apply (added_ok _ _ LTs)|]. intros x. rewrite in_added. tauto. }
      pose proof (added_mono lg (map (fold_rc lg) ds) (cs ++ map (fold_rc lg) ds)) as Q. 
      specialize (Q ltac:(intros x Hx; apply RES, in_or_app; auto) ltac:(intros; apply in_or_app; auto)). lia. }
  destruct (Nat.lt_ge_cases (32 * length ds) (3 * 2 ^ c_lgK src)) as [SPA|WIN].
  - (* sparse source *)
    assert (POS : 0 < length ds) by (destruct ds; [congruence|cbn; lia]).
    pose proof (proj2 (flavor_sparse src ds I) (conj POS SPA)) as FL. rewrite FL. cbn [bindr]. fold lg.
    inversion SH as [E0 H1 H2 H3 H4|t P1 P2 W V P H1 H2 H3 H4|fi' off' w t P1 P2 P3 P4 W H1 H2 H3 H4]; [congruence| |lia].
    assert (PE : forall x, In x (map (fold_rc lg) (pairs t)) <-> In x (map (fold_rc lg) ds)).
    { intros x. rewrite !in_map_iff. split; intros (y & Ey & Hy); exists y; (split; [exact Ey|]); eapply Permutation_in; [exact P|exact Hy|symmetry; exact P|exact Hy]. }
    destruct ST as [(a & es & A1 & A2 & A3 & A4 & A5 & A6 & A7)|(m & A1 & A2 & A3 & A4)].
    + rewrite A2, A1. pose proof (flavor_empty a es A3) as FE.
      destruct ((match get_flavor F a with Empty => true | _ => false end) && (lg =? c_lgK src)) eqn:CP.
      * apply andb_true_iff in CP. destruct CP as [CP EQ]. apply Nat.eqb_eq in EQ.
        assert (es = []) as -> by (apply FE; destruct (get_flavor F a); congruence).
        unfold copy_cpc. unfold new_cpc. replace ((c_lgK src <? 4) || (26 <? c_lgK src)) with false by lia. cbn [bindr].
        eexists. split; [reflexivity|]. cbn [u_lgK u_seed]. split; [|auto].
        destruct (settle u src ds (cs ++ map (fold_rc lg) ds) lg I) as [S _]; auto; [|apply S; rewrite EQ; auto].
        intros x. rewrite in_app_iff, map_fold_id by (rewrite EQ; auto). rewrite <- A7. cbn [In]. tauto.
      * clear CP. destruct (walk_table_ok lg a es t W A3 A4) as (d & ds' & E & I' & (S1 & S2 & S3) & Q).
        { destruct FS as [FS|[FS|FS]]; [congruence| |].
          - apply sparse_fits_sub; [lia|]. rewrite app_length, map_length, (Permutation_length P). rewrite FS in *. lia.
          - eapply fits_sub_incl; [exact FS|]. intros x Hx. apply in_app_or in Hx. apply in_or_app. rewrite <- A7, <- PE. tauto. }
        rewrite E. cbn [bindr].
        assert (QQ : forall x, In x ds' <-> In x (cs ++ map (fold_rc lg) ds)) by (intros x; rewrite Q, in_app_iff, PE, A7; tauto).
        assert (Ld : c_lgK d = lg) by congruence.
        destruct (settle u d ds' (cs ++ map (fold_rc lg) ds) lg I' Ld) as [SP MX]; [congruence|exact QQ|].
        pose proof (flavor_sparse d ds' I') as FSP. rewrite Ld in FSP. pose proof (flavor_empty d ds' I') as FEM. pose proof (K_pos lg) as KP.
        destruct (Nat.lt_ge_cases (32 * length ds') (3 * 2 ^ lg)) as [C|C].
        -- exists (mkCu F (u_seed F u) lg None (Some d)). split; [|auto]. 
           destruct ds' as [|z ds2] eqn:EZ.
           ++ rewrite (proj2 FEM eq_refl). auto.
           ++ rewrite (proj2 FSP); [auto|]. split; [cbn; lia|auto].
        -- destruct (MX C) as (m & Em & Um). exists (mkCu F (u_seed F u) lg (Some m) None). split; [|auto].
           destruct (get_flavor F d) eqn:FL2; try (rewrite Em; reflexivity).
           ++ rewrite (proj1 FEM eq_refl) in C. cbn in C. lia.
           ++ destruct (proj1 FSP eq_refl). lia.
    + rewrite A2. destruct (or_table_ok lg (t_slots t) m) as (d & E & L & B & T); [apply A3|apply A3|].
      rewrite E. cbn [bindr]. eexists. split; [reflexivity|]. split; [|auto]. apply MATRIX; auto. constructor; auto.
      intros x Hx. rewrite T by auto. rewrite (mp_in _ _ _ A3 x Hx), in_app_iff, <- PE, in_map_iff. unfold pairs.
      split; intros [?|(y & A & C)]; eauto.
  - (* windowed source: the union goes to a matrix *)
    assert (NF : get_flavor F src <> Sparse /\ get_flavor F src <> Empty).
    { split; intros Z; [apply (flavor_sparse src ds I) in Z; lia|apply (flavor_empty src ds I) in Z; congruence]. }
    assert (EXM : exists m1 u1, match get_flavor F src, u_acc F u with
              | Sparse, _ => Ok u
              | _, Some a => let* m := bit_matrix F a in Ok (mkCu F (u_seed F u) lg (Some m) None)
              | _, None => Ok u
              end = Ok u1 /\ u_mat F u1 = Some m1 /\ u_acc F u1 = None /\ u_lgK F u1 = lg /\ u_seed F u1 = u_seed F u /\ matP lg m1 cs).
    { destruct ST as [(a & es & A1 & A2 & A3 & A4 & A5 & A6 & A7)|(m & A1 & A2 & A3 & A4)].
      - destruct (bit_matrix_ok a es A3) as (m & Em & M). exists m, (mkCu F (u_seed F u) lg (Some m) None). rewrite A1, Em. cbn [bindr].
        split; [destruct (get_flavor F src); tauto|]. do 4 (split; [auto|]). rewrite A4 in M. eapply matP_ext; eauto.
      - exists m, u. rewrite A1. split; [destruct (get_flavor F src); tauto|]. do 4 (split; [auto|]). auto. }
    destruct EXM as (m1 & u1 & E1 & Em & Ea & El & Es & M1). rewrite E1. cbn [bindr]. rewrite Em, Ea, El, Es.
    inversion SH as [E0 H1 H2 H3 H4|t P1 P2 W V P H1 H2 H3 H4|fi' off' w t P1 P2 P3 P4 W H1 H2 H3 H4]; [congruence|lia|].
    assert (FLV : get_flavor F src = Sliding \/ ((get_flavor F src = Hybrid \/ get_flavor F src = Pinned) /\ c_off src = 0)).
    { unfold get_flavor, determine_flavor. rewrite NN. pose proof (K_pos (c_lgK src)). replace (length ds =? 0) with false by lia. replace (32 * length ds <? 3 * 2 ^ c_lgK src) with false by lia.
      destruct (Nat.ltb_spec (2 * length ds) (2 ^ c_lgK src)).
      - right. split; auto. nia.
      - destruct (Nat.ltb_spec (8 * length ds) (27 * 2 ^ c_lgK src)); auto. right. split; auto. nia. }
    destruct FLV as [FL|[FL OFF]].
    + rewrite FL. destruct (bit_matrix_ok src ds I) as (sm & Esm & Msm). rewrite Esm. cbn [bindr]. replace (c_lgK src <? lg) with false by lia.
      destruct (or_matrix lg (c_lgK src) sm ds m1 cs) as (d & E & M); auto. rewrite E. cbn [bindr].
      eexists. split; [reflexivity|]. split; [|auto]. apply MATRIX; auto.
    + pose proof W as [WL WB WW WV Wlow Wmid Whigh Wfi Wfull].
      destruct (or_rows_ok lg w 0 m1) as (d1 & Ed1 & L1 & B1 & T1); [apply M1|apply M1| |].
      { eapply Forall_impl; [|exact WB]. intros b Hb. apply N.lt_trans with 256%N; [auto|reflexivity]. }
      destruct (or_table_ok lg (t_slots t) d1 L1 B1) as (d2 & Ed2 & L2 & B2 & T2).
      exists (mkCu F (u_seed F u) lg (Some d2) None). split.
      { destruct FL as [FL|FL]; rewrite FL; replace (c_lgK src <? lg) with false by lia; rewrite Ed1; cbn [bindr]; rewrite Ed2; reflexivity. }
      split; [|auto]. apply MATRIX; auto. constructor; auto. intros x Hx. rewrite T2, T1 by (auto; apply row_lt; auto).
      rewrite (mp_in _ _ _ M1 x Hx), in_app_iff, in_map_iff. pose proof (col_lt x) as Hc. rewrite OFF in *.
      split.
      * intros [[?|(i & Hi & Hm & Hb)]|(y & Hy & Ey)]; auto; right.
        -- rewrite Nat.add_0_l in Hm. rewrite WL in Hi.
           assert (C8 : col_of x < 8).
           { destruct (Nat.lt_ge_cases (col_of x) 8); auto. exfalso. rewrite (testbit_high _ 8) in Hb; [discriminate| |lia].
             rewrite Forall_forall in WB. apply WB, nth_In. lia. }
           exists (mk_rc i (col_of x)). assert (HH : (mk_rc i (col_of x) < 2 ^ N.of_nat (6 + c_lgK src))%N) by (apply row_lt; rewrite row_mk; lia).
           split.
           ++ apply rc_ext; [rewrite fold_row, row_mk by auto; auto|rewrite fold_col, col_mk; auto].
           ++ apply Wmid; auto; rewrite ?row_mk, ?col_mk by auto; [lia|]. rewrite Nat.sub_0_r. auto.
        -- exists y. split; auto. change (somes (t_slots t)) with (pairs t) in Hy. assert (HH : (y < 2 ^ N.of_nat (6 + c_lgK src))%N) by (rewrite <- WV; apply pairs_lt; auto).
           destruct (Nat.lt_ge_cases (col_of y) 8) as [C|C]; [destruct (Wmid y HH ltac:(lia)); tauto|]. apply Whigh; auto.
      * intros [?|(y & Ey & Hy)]; auto. assert (HH := LTs y Hy). destruct (Nat.lt_ge_cases (col_of y) 8) as [C|C].
        -- left. right. exists (row_of y). rewrite WL, Nat.add_0_l. split; [apply row_lt; auto|]. subst x. split; [symmetry; apply fold_row|].
           rewrite fold_col. destruct (Wmid y HH ltac:(lia)) as [_ [_ Q]]. rewrite Nat.sub_0_r in Q. auto.
        -- right. exists y. split; auto. change (somes (t_slots t)) with (pairs t). apply Whigh; auto.
Qed.
End Union.

Section Union2.
Context {F : Type} (HO : hip_ops F).
Notation cpcF := (cpc F).

Theorem union_update_ok (u : cunion F) cs (src : cpcF) ds : uinv u cs -> inv src ds -> c_seed src = u_seed F u ->
  (c_lgK src = u_lgK F u \/ fits_sub (result_lg u src ds) (map (fold_rc (result_lg u src ds)) (cs ++ ds))) ->
  exists u', union_update F HO u src = Ok u' /\ uinv u' (map (fold_rc (result_lg u src ds)) (cs ++ ds)) /\
    u_lgK F u' = result_lg u src ds /\ u_seed F u' = u_seed F u.
Proof.
  intros U I Hs FS. pose proof U as [LG LT ST]. pose proof I as [LGs [ND LTs] NN SH].
  unfold union_update. rewrite Hs, N.eqb_refl. cbn [negb].
  destruct ds as [|d0 ds0] eqn:ED.
  - rewrite (proj2 (flavor_empty src [] I) eq_refl). exists u. cbn [result_lg]. split; auto. rewrite app_nil_r, map_fold_id by auto. auto.
  - rewrite <- ED in *. assert (Hne : ds <> []) by congruence.
    assert (RL : result_lg u src ds = Nat.min (u_lgK F u) (c_lgK src)) by (rewrite ED; auto). rewrite RL in *. clear RL ED.
    assert (NE : get_flavor F src <> Empty) by (intros Z; apply (flavor_empty src ds I) in Z; auto).
    rewrite (check_ok u cs U). cbn [bindr].
    assert (RED : exists u1, (if c_lgK src <? u_lgK F u then reduce_union F HO u (c_lgK src) else Ok u) = Ok u1 /\
       uinv u1 (map (fold_rc (Nat.min (u_lgK F u) (c_lgK src))) cs) /\ u_lgK F u1 = Nat.min (u_lgK F u) (c_lgK src) /\ u_seed F u1 = u_seed F u).
    { destruct (Nat.ltb_spec (c_lgK src) (u_lgK F u)) as [C|C].
      - rewrite Nat.min_r by lia. apply reduce_ok; auto; [lia|]. right. destruct FS as [FS|FS]; [lia|]. rewrite Nat.min_r in FS by lia.
        eapply fits_sub_incl; [exact FS|]. rewrite map_app. apply incl_appl, incl_refl.
      - rewrite Nat.min_l by lia. exists u. rewrite map_fold_id by auto. auto. }
    destruct RED as (u1 & E1 & U1 & L1 & S1).
    destruct (update_core HO u1 (map (fold_rc (Nat.min (u_lgK F u) (c_lgK src))) cs) src ds U1 I) as (u2 & E2 & U2 & L2 & S2); auto; try congruence.
    { lia. }
    { right. rewrite L1. destruct FS as [FS|FS]; [left; lia|right]. rewrite <- map_app. auto. }
    exists u2. rewrite L1, <- map_app in U2. split; [|split; [exact U2|split; congruence]].
    rewrite <- E2. rewrite E1. destruct (get_flavor F src); try congruence; reflexivity.
Qed.

Theorem union_wrong_seed (u : cunion F) (src : cpcF) : c_seed src <> u_seed F u -> union_update F HO u src = Err.
Proof. intros H. unfold union_update. destruct (N.eqb_spec (u_seed F u) (c_seed src)); [congruence|auto]. Qed.

Theorem union_matrix_ok (u : cunion F) cs : uinv u cs -> exists m, union_matrix F u = Ok m /\ matP (u_lgK F u) m cs.
Proof.
  intros U. unfold union_matrix. rewrite (check_ok u cs U). cbn [bindr]. destruct U as [LG LT ST].
  destruct ST as [(a & es & A1 & A2 & A3 & A4 & A5 & A6 & A7)|(m & A1 & A2 & A3 & A4)].
  - rewrite A1, A2. destruct (bit_matrix_ok a es A3) as (m & E & M). exists m. split; auto. rewrite A4 in M. eapply matP_ext; eauto.
  - rewrite A1, A2. eauto.
Qed.

Theorem get_result_ok (u : cunion F) cs : uinv u cs -> (u_mat F u = None \/ fits (u_lgK F u) (added cs)) ->
  exists s ds, get_result F HO u = Ok s /\ inv s ds /\ (forall x, In x ds <-> In x cs) /\
    c_lgK s = u_lgK F u /\ c_seed s = u_seed F u /\ c_merged s = true.
Proof.
  intros U FI. unfold get_result. rewrite (check_ok u cs U). cbn [bindr]. destruct U as [LG LT ST].
  destruct ST as [(a & es & A1 & A2 & A3 & A4 & A5 & A6 & A7)|(m & A1 & A2 & A3 & A4)].
  - rewrite A1. pose proof A3 as [_ OKC NN SH]. rewrite NN. destruct (Nat.eqb_spec (length es) 0) as [Z|Z].
    + assert (NEW : exists f, new_cpc F HO (u_lgK F u) (c_seed a) = Ok f) by (unfold new_cpc; replace ((u_lgK F u <? 4) || (26 <? u_lgK F u)) with false by lia; eauto).
      destruct NEW as (f & Ef). rewrite Ef. cbn [bindr]. destruct (new_inv HO _ _ _ Ef) as ([B1 B2 B3 B4] & Lf & Sf & _).
      destruct es; [|discriminate]. eexists _, []. split; [reflexivity|]. split; [constructor; auto|]. split; auto.
      cbn [c_lgK c_seed c_merged]. repeat split; congruence.
    + rewrite (proj2 (flavor_sparse a es A3)) by (rewrite A4; split; [lia|auto]).
      unfold copy_cpc, new_cpc. rewrite A4. replace ((u_lgK F u <? 4) || (26 <? u_lgK F u)) with false by lia. cbn [bindr].
      eexists _, es. split; [reflexivity|]. split; [constructor; cbn; auto; lia|]. split; auto.
  - rewrite A1, A2. destruct FI as [FI|[FI1 FI2]]; [congruence|].
    assert (NEW : exists f, new_cpc F HO (u_lgK F u) (u_seed F u) = Ok f) by (unfold new_cpc; replace ((u_lgK F u <? 4) || (26 <? u_lgK F u)) with false by lia; eauto).
    destruct NEW as (f & Ef). rewrite Ef. cbn [bindr]. destruct (new_inv HO _ _ _ Ef) as ([B1 B2 B3 B4] & Lf & Sf & _).
    pose proof (added_ok _ _ LT) as [ND LTA].
    assert (MA : matP (u_lgK F u) m (added cs)) by (eapply matP_ext; [exact A3|]; intros x _; rewrite in_added; tauto).
    rewrite (matP_count _ _ _ MA LTA ND). set (C := length (added cs)) in *. set (lg := u_lgK F u) in *.
    pose proof (K_pos lg) as KP.
    assert (OFF : C = C /\ 8 * C < (27 + 8 * correct_offset lg C) * 2 ^ lg /\ (correct_offset lg C = 0 \/ (19 + 8 * correct_offset lg C) * 2 ^ lg <= 8 * C)).
    { split; auto. split; [|apply offset_mul]. unfold correct_offset. destruct (Nat.ltb_spec (8 * C) (19 * 2 ^ lg)); [lia|].
      pose proof (Nat.mul_succ_div_gt (8 * C - 19 * 2 ^ lg) (8 * 2 ^ lg) ltac:(lia)). nia. }
    destruct OFF as (_ & O1 & O2).
    destruct (wf_new (Nat.max (lg - 4) 2) (6 + lg)) as (nt & En & Wn & Vn & Pn); [lia|lia|].
    destruct (build_window lg (correct_offset lg C) m (added cs) (repeat 0%N (2 ^ lg)) nt MA) as (w & t' & Eo & W'); auto; [apply repeat_length|apply FI2; lia|].
    rewrite En. cbn [bindr]. rewrite Eo. cbn [bindr].
    exists (mkCpc (c_seed f) lg C true (Nat.min (ctz64 (or_all (correct_offset lg C) m 0)) (correct_offset lg C)) (correct_offset lg C) (Some w) (Some t') (c_hip f)), (added cs).
    split.
    + unfold determine_flavor. replace (C =? 0) with false by lia. replace (32 * C <? 3 * 2 ^ lg) with false by lia.
      destruct (2 * C <? 2 ^ lg); auto. destruct (8 * C <? 27 * 2 ^ lg); auto.
    + split; [|split; [intros x; apply in_added|auto]].
      constructor; cbn [c_seed c_lgK c_n c_merged c_fi c_off c_win c_tab c_hip]; auto; [split; auto|]. apply sh_win; auto.
Qed.

(** A whole sequence of unions. *)
Fixpoint union_all (u : cunion F) (l : list cpcF) : res (cunion F) :=
  match l with [] => Ok u | s :: r => let* u' := union_update F HO u s in union_all u' r end.
End Union2.
