(** * The CPC sketch represents exactly the set of its coupons: invariant and step theorem. *)
From Verif Require Import Base Bytes Arr BitPackModel BitPackProofs CpcTable CpcTableProofs CpcModel CpcProofs.
From Coq Require Import Permutation.
Local Open Scope nat_scope.

Definition add (cs : list N) (x : N) : list N := if memb x cs then cs else x :: cs.
(** The distinct coupons of a history. *)
Definition added (l : list N) : list N := fold_left add l [].

Definition okc (lgK : nat) (cs : list N) : Prop := NoDup cs /\ forall x, In x cs -> (x < 2 ^ N.of_nat (6 + lgK))%N.

Inductive shape (lgK : nat) (cs : list N) : nat -> nat -> option (list N) -> option table -> Prop :=
| sh_empty : cs = [] -> shape lgK cs 0 0 None None
| sh_sparse t : 0 < length cs -> 32 * length cs < 3 * 2 ^ lgK -> wf t -> t_vb t = 6 + lgK ->
    Permutation (pairs t) cs -> shape lgK cs 0 0 None (Some t)
| sh_win fi off w t : 3 * 2 ^ lgK <= 32 * length cs -> 8 * length cs < (27 + 8 * off) * 2 ^ lgK ->
    (off = 0 \/ (19 + 8 * off) * 2 ^ lgK <= 8 * length cs) -> off <= 56 ->
    winv lgK off fi w t cs -> shape lgK cs fi off (Some w) (Some t).

Record inv {F} (s : cpc F) (cs : list N) : Prop := {
  i_lg : 4 <= c_lgK s <= 26;
  i_cs : okc (c_lgK s) cs;
  i_n : c_n s = length cs;
  i_sh : shape (c_lgK s) cs (c_fi s) (c_off s) (c_win s) (c_tab s) }.

(** Room for the surprising values. *)
Definition fits (lgK : nat) (cs : list N) : Prop :=
  correct_offset lgK (length cs) <= 56 /\
  forall o, o <= correct_offset lgK (length cs) <= o + 1 -> surprises lgK o cs <= room (6 + lgK).

Lemma add_ok lgK cs x : okc lgK cs -> (x < 2 ^ N.of_nat (6 + lgK))%N -> okc lgK (add cs x).
Proof.
  intros [N1 L] Hx. unfold add. destruct (memb x cs) eqn:E; [split; auto|]. apply memb_false in E.
  split; [constructor; auto|]. intros y [<-|H]; auto.
Qed.
Lemma added_in l : forall cs x, In x (fold_left add l cs) <-> In x l \/ In x cs.
Proof.
  induction l as [|a l IH]; intros cs x; cbn [fold_left]; [simpl; tauto|].
  rewrite IH. unfold add. destruct (memb a cs) eqn:E; simpl; [|tauto].
  apply memb_in in E. split; [intuition|]. intros [[<-|]|]; auto.
Qed.
Lemma in_added l x : In x (added l) <-> In x l.
Proof. unfold added. rewrite added_in. simpl. tauto. Qed.
Lemma added_ok lgK l : (forall x, In x l -> (x < 2 ^ N.of_nat (6 + lgK))%N) -> okc lgK (added l).
Proof.
  unfold added. enough (forall cs, okc lgK cs -> (forall x, In x l -> (x < 2 ^ N.of_nat (6 + lgK))%N) -> okc lgK (fold_left add l cs)).
  { intros. apply H; auto. split; [constructor|intros ? []]. }
  induction l as [|a l IH]; intros cs H Hl; cbn [fold_left]; auto. apply IH. apply add_ok; auto. apply Hl; left; auto.
  intros; apply Hl; right; auto.
Qed.

Lemma K_pos lgK : 0 < 2 ^ lgK. Proof. apply pow2_pos. Qed.

Lemma correct_offset_char lgK C off : 8 * C < (27 + 8 * off) * 2 ^ lgK -> (off = 0 \/ (19 + 8 * off) * 2 ^ lgK <= 8 * C) ->
  correct_offset lgK C = off.
Proof.
  intros H1 H2. unfold correct_offset. pose proof (K_pos lgK). set (K := 2 ^ lgK) in *.
  destruct (Nat.ltb_spec (8 * C) (19 * K)) as [L|L]; [nia|].
  symmetry. apply Nat.div_unique with (8 * C - 19 * K - 8 * K * off); nia.
Qed.

Lemma room_K lgK : lgK <= 26 -> 3 * 2 ^ lgK <= 4 * room (6 + lgK).
Proof.
  intros H. unfold room. assert (2 ^ lgK <= 2 ^ (2 + (Nat.min 26 (6 + lgK) - 2))) as P by (apply Nat.pow_le_mono_r; lia).
  rewrite Nat.pow_add_r in P. change (2 ^ 2) with 4 in P. lia.
Qed.

Lemma pow2_ge_16 lgK : 4 <= lgK -> 16 <= 2 ^ lgK.
Proof. intros H. change 16 with (2 ^ 4). apply Nat.pow_le_mono_r; lia. Qed.

(** The rows of the matrix of a windowed sketch. *)
Lemma winv_matrix lgK off fi w t cs : winv lgK off fi w t cs -> off <= 56 ->
  exists m, (let* m := or_window off w (repeat (N.ones (N.of_nat off)) (2 ^ lgK)) in flip_slots (t_slots t) m) = Ok m /\ matP lgK m cs.
Proof.
  intros [WL WB WW WV Wlow Wmid Whigh Wfi Wfull] Ho.
  destruct (or_window_ok off w (repeat (N.ones (N.of_nat off)) (2 ^ lgK))) as (m1 & E1 & L1 & N1).
  { rewrite repeat_length. lia. }
  rewrite repeat_length in L1. rewrite E1. cbn [bindr].
  assert (NR : forall r, r < 2 ^ lgK -> nth r m1 0%N = N.lor (N.ones (N.of_nat off)) (N.shiftl (nth r w 0%N) (N.of_nat off))).
  { intros r Hr. rewrite N1, WL. destruct (Nat.ltb_spec r (2 ^ lgK)); [|lia]. f_equal.
    rewrite nth_indep with (d' := N.ones (N.of_nat off)) by (rewrite repeat_length; lia). apply nth_repeat. }
  assert (BW : forall r, (nth r w 0 < 256)%N).
  { intros r. destruct (Nat.ltb_spec r (length w)). { rewrite Forall_forall in WB. apply WB. apply nth_In. auto. }
    rewrite nth_overflow by lia. reflexivity. }
  destruct (flip_slots_ok lgK (t_slots t) m1) as (m & E & L & B & I); auto.
  - apply Forall_forall. intros p Hp. apply (In_nth _ _ 0%N) in Hp. destruct Hp as (r & Hr & <-).
    rewrite NR by lia. apply high_testbit. intros k Hk. rewrite N.lor_spec, ones_testbit, shiftl_testbit.
    rewrite (testbit_high (nth r w 0%N) 8); [|apply BW|lia]. rewrite andb_false_r, orb_false_r. lia.
  - apply pairs_nodup; auto.
  - intros x Hx. rewrite <- WV. apply pairs_lt; auto.
  - exists m. split; auto. constructor; auto. intros x Hx. rewrite I by auto. clear I.
    rewrite NR by (apply row_lt; auto). rewrite N.lor_spec, ones_testbit, shiftl_testbit.
    change (somes (t_slots t)) with (pairs t).
    destruct (Nat.lt_ge_cases (col_of x) off) as [C|C].
    + replace (N.of_nat (col_of x) <? N.of_nat off)%N with true by lia. cbn [orb].
      specialize (Wlow x Hx C). destruct (memb x (pairs t)) eqn:M; [apply memb_in in M|apply memb_false in M]; cbn [xorb].
      * split; [discriminate|]. tauto.
      * split; auto. intros _. destruct (memb x cs) eqn:M2; [apply memb_in in M2; auto|apply memb_false in M2]. tauto.
    + replace (N.of_nat (col_of x) <? N.of_nat off)%N with false by lia.
      replace (N.of_nat off <=? N.of_nat (col_of x))%N with true by lia. cbn [orb andb].
      replace (N.of_nat (col_of x) - N.of_nat off)%N with (N.of_nat (col_of x - off)) by lia.
      destruct (Nat.lt_ge_cases (col_of x) (off + 8)) as [C'|C'].
      * destruct (Wmid x Hx ltac:(lia)) as [M Q]. apply memb_false in M. rewrite M, xorb_false_r. auto.
      * rewrite (testbit_high _ 8); [|apply BW|lia]. rewrite xorb_false_l. rewrite memb_in. auto.
Qed.

(** The window's table holds exactly the surprising values. *)
Lemma winv_count lgK off fi w t cs : winv lgK off fi w t cs -> t_n t = surprises lgK off cs.
Proof.
  intros [WL WB WW WV Wlow Wmid Whigh Wfi Wfull]. rewrite pairs_n by auto. unfold surprises. apply Permutation_length.
  apply NoDup_Permutation; [apply pairs_nodup; auto|apply NoDup_filter, nodup_all_cells|].
  intros x. rewrite filter_In, in_cells. unfold surprising.
  assert (In x (pairs t) -> (x < 2 ^ N.of_nat (6 + lgK))%N) by (intros; rewrite <- WV; apply pairs_lt; auto).
  assert (forall A B : Prop, (A -> B) -> (B -> (A <-> A)) -> True) by auto.
  split.
  - intros Hi. assert (Hx := H Hi). split; auto.
    destruct (Nat.ltb_spec (col_of x) off).
    + apply negb_true_iff, memb_false. apply Wlow; auto.
    + destruct (Nat.ltb_spec (col_of x) (off + 8)). { destruct (Wmid x Hx ltac:(lia)); tauto. } apply memb_in, Whigh; auto.
  - intros [Hx Hs]. destruct (Nat.ltb_spec (col_of x) off).
    + apply negb_true_iff, memb_false in Hs. apply Wlow; auto.
    + destruct (Nat.ltb_spec (col_of x) (off + 8)); [discriminate|]. apply memb_in in Hs. apply Whigh; auto.
Qed.

Section Step.
Context {F : Type} (HO : hip_ops F).
Notation cpcF := (cpc F).

Lemma bit_matrix_ok (s : cpcF) cs : inv s cs -> exists m, bit_matrix F s = Ok m /\ matP (c_lgK s) m cs.
Proof.
  intros [LG [ND LT] NN SH]. unfold bit_matrix. destruct s as [sd lgK n mg fi off win tab hip]; cbn [c_seed c_lgK c_n c_merged c_fi c_off c_win c_tab c_hip] in *.
  assert (Z : matP lgK (repeat 0%N (2 ^ lgK)) []).
  { constructor; [apply repeat_length|apply Forall_forall; intros p Hp; apply repeat_spec in Hp; subst; reflexivity|].
    intros x Hx. rewrite nth_repeat, N.bits_0. simpl. split; [discriminate|tauto]. }
  inversion SH as [E0|t P1 P2 W V P|fi' off' w t P1 P2 P3 P4 W]; subst.
  - replace (56 <? 0) with false by lia. cbn [length Nat.eqb]. eauto.
  - replace (56 <? 0) with false by lia. destruct (Nat.eqb_spec (length cs) 0); [lia|]. cbn [bindr].
    change (N.ones (N.of_nat 0)) with 0%N.
    destruct (flip_slots_ok lgK (t_slots t) (repeat 0%N (2 ^ lgK))) as (m & E & L & B & I).
    + apply repeat_length.
    + apply (mp_lt _ _ _ Z).
    + apply pairs_nodup; auto.
    + intros x Hx. rewrite <- V. apply pairs_lt; auto.
    + exists m. split; auto. constructor; auto. intros x Hx. rewrite I by auto. rewrite nth_repeat, N.bits_0, xorb_false_l, memb_in.
      change (somes (t_slots t)) with (pairs t). split; intros; eapply Permutation_in; try eassumption. symmetry; auto.
  - destruct (Nat.ltb_spec 56 off); [lia|]. pose proof (K_pos lgK). destruct (Nat.eqb_spec (length cs) 0); [lia|].
    destruct (winv_matrix _ _ _ _ _ _ W P4) as (m & E & M). exists m. split; auto.
Qed.

Lemma inv_valid (s : cpcF) cs : inv s cs -> validate F s = Ok true.
Proof.
  intros I. destruct (bit_matrix_ok s cs I) as (m & E & M). unfold validate. rewrite E. cbn [bindr].
  destruct I as [_ [ND LT] NN _]. rewrite (matP_count _ _ _ M LT ND), NN, Nat.eqb_refl. auto.
Qed.

Lemma inv_offset (s : cpcF) cs : inv s cs -> c_off s = correct_offset (c_lgK s) (c_n s).
Proof.
  intros [LG _ NN SH]. rewrite NN. pose proof (K_pos (c_lgK s)). inversion SH; subst.
  - symmetry. apply correct_offset_char; cbn [length]; lia.
  - symmetry. apply correct_offset_char; lia.
  - symmetry. apply correct_offset_char; auto.
Qed.

(** Sparse to windowed. *)
Record promo (lgK : nat) (w : list N) (t : table) (done : list N) : Prop := {
  pr_len : length w = 2 ^ lgK;
  pr_byte : Forall (fun b => (b < 256)%N) w;
  pr_wf : wf t;
  pr_vb : t_vb t = 6 + lgK;
  pr_win : forall x, (x < 2 ^ N.of_nat (6 + lgK))%N -> col_of x < 8 ->
    ~ In x (pairs t) /\ (N.testbit (nth (row_of x) w 0%N) (N.of_nat (col_of x)) = true <-> In x done);
  pr_tab : forall x, (x < 2 ^ N.of_nat (6 + lgK))%N -> 8 <= col_of x -> (In x (pairs t) <-> In x done) }.

Lemma set_bit_ok n lgK w r c : length w = 2 ^ lgK -> Forall (fun b => (b < 2 ^ N.of_nat n)%N) w -> r < 2 ^ lgK -> c < n ->
  exists b w', nth_error w r = Some b /\ nth r w 0%N = b /\ wr r (N.lor b (N.shiftl 1 (N.of_nat c))) w = Some w' /\ length w' = 2 ^ lgK /\
    Forall (fun b => (b < 2 ^ N.of_nat n)%N) w' /\
    (forall r' c', N.testbit (nth r' w' 0%N) (N.of_nat c') = N.testbit (nth r' w 0%N) (N.of_nat c') || ((r' =? r) && (c' =? c))).
Proof.
  intros L B Hr Hc. destruct (nth_error w r) as [b|] eqn:E; [|apply nth_error_None in E; lia].
  exists b. pose proof (nth_error_nth _ _ 0%N E) as Nb. unfold wr. replace (r <? length w) with true by lia.
  eexists. split; auto. split; auto. split; [reflexivity|]. rewrite upd_length. split; auto.
  assert (Bb : (b < 2 ^ N.of_nat n)%N) by (rewrite Forall_forall in B; apply B; eapply nth_error_In; eauto).
  split.
  - apply Forall_forall. intros v Hv. apply (In_nth _ _ 0%N) in Hv. destruct Hv as (i & Hi & <-). rewrite upd_length in Hi.
    destruct (Nat.eq_dec i r) as [->|Hne].
    + rewrite nth_upd_eq by lia. apply high_testbit. intros k Hk. rewrite N.lor_spec, one_bit.
      rewrite (testbit_high b (N.of_nat n)) by auto. lia.
    + rewrite nth_upd_neq by auto. rewrite Forall_forall in B. apply B, nth_In. auto.
  - intros r' c'. destruct (Nat.eqb_spec r' r) as [Er|Hne].
    + subst r'. rewrite nth_upd_eq by lia. rewrite N.lor_spec, one_bit, Nb. cbn [andb]. f_equal. lia.
    + rewrite nth_upd_neq by auto. cbn [andb]. rewrite orb_false_r. auto.
Qed.

Lemma same_cell x y : (row_of x =? row_of y) && (col_of x =? col_of y) = (x =? y)%N.
Proof.
  destruct (N.eqb_spec x y) as [->|Hne]; [rewrite !Nat.eqb_refl; auto|].
  apply andb_false_iff. destruct (Nat.eqb_spec (row_of x) (row_of y)); auto. destruct (Nat.eqb_spec (col_of x) (col_of y)); auto.
  exfalso. apply Hne, rc_ext; auto.
Qed.

Lemma promote_slots_ok lgK slots : forall w t done, promo lgK w t done -> NoDup (somes slots ++ done) ->
  (forall x, In x (somes slots) -> (x < 2 ^ N.of_nat (6 + lgK))%N) -> t_n t + length (somes slots) <= room (6 + lgK) ->
  exists w' t', promote_slots slots w t = Ok (w', t') /\ promo lgK w' t' (somes slots ++ done).
Proof.
  induction slots as [|[y|] slots IH]; intros w t done P ND LT R; cbn [promote_slots somes app length] in *.
  - exists w, t. auto.
  - inversion ND as [|? ? Hni ND']; subst. assert (Hy : (y < 2 ^ N.of_nat (6 + lgK))%N) by (apply LT; left; auto).
    assert (ND2 : NoDup (somes slots ++ y :: done)) by (eapply Permutation_NoDup; [apply Permutation_middle|constructor; auto]).
    assert (REL : forall w' t', promo lgK w' t' (somes slots ++ y :: done) -> promo lgK w' t' (y :: somes slots ++ done)).
    { intros w' t' [A1 A2 A3 A4 A5 A6]. 
      assert (Q : forall x, In x (somes slots ++ y :: done) <-> In x (y :: somes slots ++ done)).
      { intros x. rewrite in_app_iff. cbn [In]. rewrite in_app_iff. tauto. }
      constructor; auto.
      - intros x Hx Hc. rewrite <- Q. auto.
      - intros x Hx Hc. rewrite <- Q. auto. }
    pose proof P as [A1 A2 A3 A4 A5 A6].
    destruct (Nat.ltb_spec (col_of y) 8) as [C|C].
    + destruct (set_bit_ok 8 lgK w (row_of y) (col_of y)) as (b & w' & E1 & Nb & E2 & L' & B' & T); auto; [apply row_lt; auto|].
      rewrite E1. cbn [of_opt bindr]. rewrite E2. cbn [of_opt bindr].
      destruct (IH w' t (y :: done)) as (w2 & t2 & E & P2).
      * constructor; auto.
        -- intros x Hx Hc. destruct (A5 x Hx Hc) as [Hn Hb]. split; auto. rewrite T, same_cell.
           cbn [In]. destruct (N.eqb_spec x y) as [->|Hne].
           ++ rewrite orb_true_r. tauto.
           ++ rewrite orb_false_r, Hb. split; auto. intros [<-|]; auto; congruence.
        -- intros x Hx Hc. rewrite A6 by auto. cbn [In]. split; auto. intros [<-|]; auto; lia.
      * auto.
      * intros; apply LT; right; auto.
      * lia.
      * exists w2, t2. split; auto.
    + destruct (maybe_insert_ok t y A3) as (t1 & b & E1 & W1 & V1 & L1 & Hf & Ht); [rewrite A4; auto|rewrite A4; lia|].
      rewrite E1. cbn [bindr].
      assert (b = true) as ->. { destruct b; auto. destruct (Hf eq_refl) as [Hin _]. exfalso. apply Hni. apply in_or_app. right. apply A6; auto. }
      destruct (Ht eq_refl) as [Hn1 PP].
      destruct (IH w t1 (y :: done)) as (w2 & t2 & E & P2).
      * constructor; auto; [congruence| |].
        -- intros x Hx Hc. destruct (A5 x Hx Hc) as [Hn Hb]. split.
           ++ intros Hin. apply (Permutation_in x PP) in Hin. destruct Hin as [<-|]; auto. lia.
           ++ rewrite Hb. cbn [In]. split; auto. intros [<-|]; auto; lia.
        -- intros x Hx Hc. cbn [In]. rewrite <- A6 by auto. split; intros Hin.
           ++ apply (Permutation_in x PP) in Hin. destruct Hin; auto.
           ++ eapply Permutation_in; [symmetry; exact PP|]. destruct Hin; [left|right]; auto.
      * auto.
      * intros; apply LT; right; auto.
      * rewrite (pairs_n t1), (Permutation_length PP) by auto. cbn [length]. rewrite <- pairs_n by auto. lia.
      * exists w2, t2. split; auto.
  - apply IH; auto.
Qed.

Lemma promote_sparse_ok (s : cpcF) t cs : 4 <= c_lgK s <= 26 -> okc (c_lgK s) cs -> c_tab s = Some t -> wf t -> t_vb t = 6 + c_lgK s ->
  Permutation (pairs t) cs -> 3 * 2 ^ c_lgK s <= 32 * length cs -> 8 * length cs < 3 * 2 ^ c_lgK s ->
  exists w' t', promote_sparse F s = Ok (mkCpc (c_seed s) (c_lgK s) (c_n s) (c_merged s) (c_fi s) (c_off s) (Some w') (Some t') (c_hip s)) /\
    winv (c_lgK s) 0 0 w' t' cs.
Proof.
  intros LG [ND LT] Et W V P C1 C2. unfold promote_sparse. rewrite Et.
  set (lgK := c_lgK s) in *. destruct (wf_new 2 (6 + lgK)) as (nt & En & Wn & Vn & Pn); [lia|lia|]. rewrite En. cbn [bindr].
  pose proof (room_K lgK ltac:(lia)) as RK.
  destruct (promote_slots_ok lgK (t_slots t) (repeat 0%N (2 ^ lgK)) nt []) as (w' & t' & E & Q).
  - constructor; auto.
    + apply repeat_length.
    + apply Forall_forall; intros p Hp; apply repeat_spec in Hp; subst; reflexivity.
    + intros x Hx Hc. rewrite Pn, nth_repeat, N.bits_0. cbn [In]. split; [tauto|]. split; [discriminate|tauto].
    + intros x Hx Hc. rewrite Pn. tauto.
  - rewrite app_nil_r. apply pairs_nodup; auto.
  - intros x Hx. rewrite <- V. apply pairs_lt; auto.
  - change (somes (t_slots t)) with (pairs t). rewrite pairs_n, Pn by auto. cbn [length].
    rewrite (Permutation_length P). lia.
  - rewrite E. cbn [bindr]. exists w', t'. split; auto. rewrite app_nil_r in Q. change (somes (t_slots t)) with (pairs t) in Q.
    destruct Q as [A1 A2 A3 A4 A5 A6].
    assert (I : forall x, In x (pairs t) <-> In x cs) by (intros; split; intros; eapply Permutation_in; try eassumption; symmetry; auto).
    constructor; auto; try lia.
    + intros x Hx Hc. rewrite <- I, Nat.sub_0_r. apply A5; auto. lia.
    + intros x Hx Hc. rewrite <- I. apply A6; auto.
Qed.

(** modifyOffset on the next column. *)
Lemma modify_offset_ok (s : cpcF) w t cs fi : 4 <= c_lgK s <= 26 -> c_win s = Some w -> c_tab s = Some t -> c_n s <> 0 ->
  winv (c_lgK s) (c_off s) fi w t cs -> c_off s < 56 ->
  surprises (c_lgK s) (c_off s + 1) cs <= room (6 + c_lgK s) ->
  exists m w' t' fi', bit_matrix F s = Ok m /\ matP (c_lgK s) m cs /\ fi' = Nat.min (ctz64 (or_all (c_off s + 1) m 0)) (c_off s + 1) /\
    modify_offset F HO s (c_off s + 1) =
      Ok (mkCpc (c_seed s) (c_lgK s) (c_n s) (c_merged s) fi' (c_off s + 1) (Some w') (Some t')
            (if (c_off s + 1) mod 8 =? 0 then h_refresh HO (c_lgK s) m (c_hip s) else c_hip s)) /\
    winv (c_lgK s) (c_off s + 1) fi' w' t' cs.
Proof.
  intros LG Ew Et Hn W Ho Hr. destruct (winv_matrix _ _ _ _ _ _ W ltac:(lia)) as (m & E & M).
  assert (EM : bit_matrix F s = Ok m).
  { unfold bit_matrix. replace (56 <? c_off s) with false by lia. replace (c_n s =? 0) with false by lia. rewrite Ew, Et. exact E. }
  unfold modify_offset. replace (56 <? c_off s + 1) with false by lia. rewrite Nat.eqb_refl. cbn [negb]. rewrite Ew, Et, EM. cbn [bindr].
  destruct (clear_wf t (wi_wf _ _ _ _ _ _ W)) as (Wc & Vc & Pc).
  destruct (build_window (c_lgK s) (c_off s + 1) m cs w (clear_table t) M) as (w' & t' & Eo & W'); auto.
  - apply (wi_len _ _ _ _ _ _ W).
  - rewrite Vc. apply (wi_vb _ _ _ _ _ _ W).
  - exists m, w', t', (Nat.min (ctz64 (or_all (c_off s + 1) m 0)) (c_off s + 1)). split; auto. split; auto. split; auto. rewrite Eo. cbn [bindr]. auto.
Qed.

Lemma winv_full_add lgK off fi w t cs x : winv lgK off fi w t cs -> forall y, (y < 2 ^ N.of_nat (6 + lgK))%N -> col_of y < fi -> In y (x :: cs).
Proof. intros W y Hy Hc. right. eapply wi_full; eauto. Qed.

(** Inserting a coupon that is not represented yet. *)
Lemma winv_low lgK off fi w t cs x : winv lgK off fi w t cs -> (x < 2 ^ N.of_nat (6 + lgK))%N -> col_of x < off -> ~ In x cs ->
  exists t', maybe_delete t x = Ok (t', true) /\ winv lgK off fi w t' (x :: cs).
Proof.
  intros W Hx Hc Hn. pose proof (winv_full_add _ _ _ _ _ _ x W) as FU. pose proof W as [WL WB WW WV Wlow Wmid Whigh Wfi Wfull].
  destruct (maybe_delete_ok t x WW) as (t' & b & E & W' & V' & Hf & Ht); [rewrite WV; auto|].
  assert (b = true) as ->. { destruct b; auto. destruct (Hf eq_refl) as [H _]. exfalso. apply H. apply Wlow; auto. }
  exists t'. split; auto. specialize (Ht eq_refl).
  assert (Q : forall y, In y (pairs t) <-> x = y \/ In y (pairs t')).
  { intros y. split; intros H; [apply (Permutation_in y Ht) in H; auto|eapply Permutation_in; [symmetry; exact Ht|exact H]]. }
  assert (Nx : ~ In x (pairs t')). { pose proof (Permutation_NoDup Ht (pairs_nodup t WW)) as ND. inversion ND; auto. }
  constructor; auto; [congruence| | |].
  - intros y Hy Hyc. specialize (Wlow y Hy Hyc). rewrite Q in Wlow. cbn [In]. split.
    + intros H [->|H']; [auto|]. tauto.
    + intros H. assert (In y cs \/ ~ In y cs) as [?|?] by (destruct (memb y cs) eqn:M; [apply memb_in in M|apply memb_false in M]; auto); [tauto|].
      destruct Wlow as [_ K]. destruct (K H0); auto. subst. tauto.
  - intros y Hy Hyc. destruct (Wmid y Hy Hyc) as [A B]. rewrite Q in A. split; [tauto|]. rewrite B. cbn [In].
    split; auto. intros [<-|]; auto. lia.
  - intros y Hy Hyc. specialize (Whigh y Hy Hyc). rewrite Q in Whigh. cbn [In]. split.
    + intros H. right. tauto.
    + intros [<-|H]; [lia|]. destruct Whigh as [_ K]. destruct (K H); auto. subst. lia.
Qed.

Lemma winv_mid lgK off fi w t cs x : winv lgK off fi w t cs -> (x < 2 ^ N.of_nat (6 + lgK))%N -> off <= col_of x < off + 8 -> ~ In x cs ->
  exists b w', nth_error w (row_of x) = Some b /\ N.lor b (N.shiftl 1 (N.of_nat (col_of x - off))) <> b /\
    wr (row_of x) (N.lor b (N.shiftl 1 (N.of_nat (col_of x - off)))) w = Some w' /\ winv lgK off fi w' t (x :: cs).
Proof.
  intros W Hx Hc Hn. pose proof (winv_full_add _ _ _ _ _ _ x W) as FU. pose proof W as [WL WB WW WV Wlow Wmid Whigh Wfi Wfull].
  destruct (set_bit_ok 8 lgK w (row_of x) (col_of x - off)) as (b & w' & E1 & Nb & E2 & L' & B' & T); auto; [apply row_lt; auto|lia|].
  exists b, w'. split; auto. split.
  - intros Z. destruct (Wmid x Hx Hc) as [_ [A _]]. apply Hn, A. rewrite Nb, <- Z. rewrite N.lor_spec, one_bit, N.eqb_refl, orb_true_r. auto.
  - split; auto. constructor; auto.
    + intros y Hy Hyc. rewrite Wlow by auto. cbn [In]. split; [intros H [->|]; [lia|tauto]|tauto].
    + intros y Hy Hyc. destruct (Wmid y Hy Hyc) as [A B]. split; auto. rewrite T.
      replace ((row_of y =? row_of x) && (col_of y - off =? col_of x - off)) with (y =? x)%N.
      2:{ rewrite <- same_cell. f_equal. lia. }
      cbn [In]. destruct (N.eqb_spec y x) as [->|Hne].
      * rewrite orb_true_r. tauto.
      * rewrite orb_false_r, B. split; auto. intros [<-|]; auto; congruence.
    + intros y Hy Hyc. rewrite Whigh by auto. cbn [In]. split; auto. intros [<-|]; auto. lia.
Qed.

Lemma winv_high lgK off fi w t cs x : winv lgK off fi w t cs -> (x < 2 ^ N.of_nat (6 + lgK))%N -> off + 8 <= col_of x -> ~ In x cs ->
  t_n t + 1 <= room (6 + lgK) ->
  exists t', maybe_insert t x = Ok (t', true) /\ winv lgK off fi w t' (x :: cs).
Proof.
  intros W Hx Hc Hn Hr. pose proof (winv_full_add _ _ _ _ _ _ x W) as FU. pose proof W as [WL WB WW WV Wlow Wmid Whigh Wfi Wfull].
  destruct (maybe_insert_ok t x WW) as (t' & b & E & W' & V' & _ & Hf & Ht); [rewrite WV; auto|rewrite WV; auto|].
  assert (b = true) as ->. { destruct b; auto. destruct (Hf eq_refl) as [H _]. exfalso. apply Hn. apply Whigh; auto. }
  exists t'. split; auto. destruct (Ht eq_refl) as [Nx P].
  assert (Q : forall y, In y (pairs t') <-> x = y \/ In y (pairs t)).
  { intros y. split; intros H; [apply (Permutation_in y P) in H; auto|eapply Permutation_in; [symmetry; exact P|exact H]]. }
  constructor; auto; [congruence| | |].
  - intros y Hy Hyc. rewrite Q, Wlow by auto. cbn [In]. split; [intros [->|]; [lia|]; intros [->|]; [lia|tauto]|tauto].
  - intros y Hy Hyc. destruct (Wmid y Hy Hyc) as [A B]. rewrite Q. split; [intros [->|]; [lia|tauto]|]. rewrite B. cbn [In].
    split; auto. intros [<-|]; auto. lia.
  - intros y Hy Hyc. rewrite Q, Whigh by auto. cbn [In]. tauto.
Qed.

(** The cell count of a high coupon. *)
Lemma filter_add {A} (f g : A -> bool) l x : NoDup l -> In x l -> f x = false -> g x = true -> (forall y, y <> x -> f y = g y) ->
  length (filter g l) = S (length (filter f l)).
Proof.
  intros ND Hin Hf Hg Hy. induction l as [|a l IH]; [destruct Hin|]. inversion ND as [|? ? Hni ND']; subst. destruct Hin as [->|Hin].
  - cbn [filter]. rewrite Hf, Hg. cbn [length]. f_equal. f_equal. apply filter_ext_in. intros y Hyl. symmetry. apply Hy. intros ->. auto.
  - cbn [filter]. rewrite <- (Hy a) by (intros ->; auto). destruct (f a); cbn [length]; rewrite IH; auto.
Qed.
Lemma surprises_high lgK off cs x : (x < 2 ^ N.of_nat (6 + lgK))%N -> off + 8 <= col_of x -> ~ In x cs ->
  surprises lgK off (x :: cs) = S (surprises lgK off cs).
Proof.
  intros Hx Hc Hn. unfold surprises. apply filter_add with x.
  - apply nodup_all_cells.
  - apply in_cells; auto.
  - unfold surprising. replace (col_of x <? off) with false by lia. replace (col_of x <? off + 8) with false by lia. apply memb_false; auto.
  - unfold surprising. replace (col_of x <? off) with false by lia. replace (col_of x <? off + 8) with false by lia. apply memb_in. left; auto.
  - intros y Hne. unfold surprising. cbn [memb existsb]. fold (memb y cs). replace (y =? x)%N with false by (symmetry; apply N.eqb_neq; auto). auto.
Qed.

Definition same_params (s s' : cpcF) : Prop := c_seed s' = c_seed s /\ c_lgK s' = c_lgK s /\ c_merged s' = c_merged s.

(** What a novel coupon does to the estimator's registers and to the first interesting column. *)
Definition hip_after (s s' : cpcF) (x : N) (cs : list N) : Prop :=
  let h := h_add HO (c_lgK s) (col_of x) (c_hip s) in
  (c_off s' = c_off s -> c_hip s' = h /\ c_fi s' = c_fi s) /\
  (c_off s' <> c_off s -> exists m, matP (c_lgK s) m cs /\
      c_fi s' = Nat.min (ctz64 (or_all (c_off s') m 0)) (c_off s') /\
      c_hip s' = if c_off s' mod 8 =? 0 then h_refresh HO (c_lgK s) m h else h).

Lemma update_windowed_old (s : cpcF) w t cs x : inv s cs -> c_win s = Some w -> c_tab s = Some t -> (x < 2 ^ N.of_nat (6 + c_lgK s))%N -> In x cs ->
  update_windowed F HO s x = Ok s.
Proof.
  intros [LG [ND LT] NN SH] Ew Et Hx Hin. destruct s as [sd lgK n mg fi off win tab hip]; cbn [c_seed c_lgK c_n c_merged c_fi c_off c_win c_tab c_hip] in *.
  subst win tab n. inversion SH as [| |fi' off' w' t' P1 P2 P3 P4 W]; subst. pose proof W as [WL WB WW WV Wlow Wmid Whigh Wfi Wfull].
  unfold update_windowed. cbn [c_seed c_lgK c_n c_merged c_fi c_off c_win c_tab c_hip].
  replace (56 <? off) with false by lia. replace (32 * length cs <? 3 * 2 ^ lgK) with false by lia.
  replace ((27 + 8 * off) * 2 ^ lgK <=? 8 * length cs) with false by (symmetry; apply Nat.leb_gt; auto).
  destruct (Nat.ltb_spec (col_of x) off) as [C|C].
  - destruct (maybe_delete_ok t x WW) as (t' & b & E & W' & V' & Hf & Ht); [rewrite WV; auto|]. rewrite E. cbn [bindr].
    destruct b. { specialize (Ht eq_refl). exfalso. apply (Wlow x Hx C); auto. eapply Permutation_in; [symmetry; exact Ht|left; auto]. }
    destruct (Hf eq_refl) as [_ ->]. auto.
  - destruct (Nat.ltb_spec (col_of x) (off + 8)) as [C'|C'].
    + destruct (Wmid x Hx ltac:(lia)) as [_ [_ B]]. specialize (B Hin).
      assert (Hr : row_of x < length w) by (rewrite WL; apply row_lt; auto).
      rewrite (nth_error_nth' w (row_of x) 0%N Hr). cbn [of_opt bindr].
      replace (N.lor (nth (row_of x) w 0%N) (N.shiftl 1 (N.of_nat (col_of x - off)))) with (nth (row_of x) w 0%N).
      2:{ apply N.bits_inj. intros k. rewrite N.lor_spec, one_bit. destruct (N.eqb_spec k (N.of_nat (col_of x - off))) as [->|]; [rewrite B; auto|rewrite orb_false_r; auto]. }
      rewrite N.eqb_refl. cbn [bindr]. auto.
    + rewrite maybe_insert_present by (auto; apply Whigh; auto). cbn [bindr]. auto.
Qed.

Lemma update_windowed_new (s : cpcF) w t cs x : inv s cs -> c_win s = Some w -> c_tab s = Some t -> (x < 2 ^ N.of_nat (6 + c_lgK s))%N -> ~ In x cs ->
  fits (c_lgK s) (x :: cs) ->
  exists s', update_windowed F HO s x = Ok s' /\ inv s' (x :: cs) /\ same_params s s' /\ hip_after s s' x (x :: cs).
Proof.
  intros [LG [ND LT] NN SH] Ew Et Hx Hin [FI1 FI2]. destruct s as [sd lgK n mg fi off win tab hip]; cbn [c_seed c_lgK c_n c_merged c_fi c_off c_win c_tab c_hip] in *.
  subst win tab n. inversion SH as [| |fi' off' w' t' P1 P2 P3 P4 W]; subst. pose proof W as [WL WB WW WV Wlow Wmid Whigh Wfi Wfull].
  assert (OKC : okc lgK (x :: cs)). { split; [constructor; auto|]. intros y [<-|]; auto. }
  pose proof (K_pos lgK) as KP. pose proof (pow2_ge_16 lgK ltac:(lia)) as K16.
  assert (CO : correct_offset lgK (length (x :: cs)) = off \/ correct_offset lgK (length (x :: cs)) = off + 1).
  { cbn [length]. destruct (Nat.lt_ge_cases (8 * S (length cs)) ((27 + 8 * off) * 2 ^ lgK)) as [Q|Q].
    - left. apply correct_offset_char; auto. destruct P3; auto. right. lia.
    - right. apply correct_offset_char; [nia|]. right. nia. }
  unfold update_windowed. cbn [c_seed c_lgK c_n c_merged c_fi c_off c_win c_tab c_hip].
  replace (56 <? off) with false by lia. replace (32 * length cs <? 3 * 2 ^ lgK) with false by lia.
  replace ((27 + 8 * off) * 2 ^ lgK <=? 8 * length cs) with false by (symmetry; apply Nat.leb_gt; auto).
  assert (MID : exists w' t', (if col_of x <? off
     then let* (t', b) := maybe_delete t x in Ok (Some w, Some t', b)
     else if col_of x <? off + 8
       then let* old := of_opt (nth_error w (row_of x)) in
            if (N.lor old (N.shiftl 1 (N.of_nat (col_of x - off))) =? old)%N then Ok (Some w, Some t, false)
            else let* w' := of_opt (wr (row_of x) (N.lor old (N.shiftl 1 (N.of_nat (col_of x - off)))) w) in Ok (Some w', Some t, true)
       else let* (t', b) := maybe_insert t x in Ok (Some w, Some t', b)) = Ok (Some w', Some t', true) /\ winv lgK off fi w' t' (x :: cs)).
  { destruct (Nat.ltb_spec (col_of x) off) as [C|C]; [|destruct (Nat.ltb_spec (col_of x) (off + 8)) as [C'|C']].
    - destruct (winv_low _ _ _ _ _ _ x W Hx C Hin) as (t' & E & W'). rewrite E. cbn [bindr]. eauto.
    - destruct (winv_mid _ _ _ _ _ _ x W Hx ltac:(lia) Hin) as (b & w' & E1 & Hne & E2 & W'). rewrite E1. cbn [bindr of_opt].
      apply N.eqb_neq in Hne. rewrite Hne, E2. cbn [bindr of_opt]. eauto.
    - destruct (winv_high _ _ _ _ _ _ x W Hx C' Hin) as (t' & E & W').
      + rewrite (winv_count _ _ _ _ _ _ W). rewrite Nat.add_1_r, <- (surprises_high lgK off cs x) by auto. apply FI2. lia.
      + rewrite E. cbn [bindr]. eauto. }
  destruct MID as (w' & t' & E & W'). cbv zeta. rewrite E. clear E. cbn [bindr].
  destruct (Nat.leb_spec ((27 + 8 * off) * 2 ^ lgK) (8 * (length cs + 1))) as [T|T].
  - assert (CO2 : correct_offset lgK (length (x :: cs)) = off + 1) by (apply correct_offset_char; cbn [length]; [nia|right; nia]).
    set (s1 := mkCpc sd lgK (length cs + 1) mg fi off (Some w') (Some t') _).
    destruct (modify_offset_ok s1 w' t' (x :: cs) fi) as (m & w2 & t2 & fi2 & EM & M & EF & E2 & W2); auto; cbn [c_lgK s1 c_off c_n] in *; try lia.
    { apply FI2. lia. }
    rewrite E2. cbn [bindr c_off]. replace ((off + 1 <? 1) || (56 <? off + 1)) with false by lia.
    replace ((27 + 8 * (off + 1)) * 2 ^ lgK <=? 8 * (length cs + 1)) with false by (symmetry; apply Nat.leb_gt; nia).
    eexists. split; [reflexivity|]. split; [|split].
    + constructor; cbn [c_seed c_lgK c_n c_merged c_fi c_off c_win c_tab c_hip s1]; auto; [cbn [length]; lia|].
      apply sh_win; cbn [length]; auto; try lia.
    + repeat split.
    + unfold hip_after. cbn [c_seed c_lgK c_n c_merged c_fi c_off c_win c_tab c_hip s1]. split; [lia|]. intros _. exists m. auto.
  - eexists. split; [reflexivity|]. split; [|split].
    + constructor; cbn [c_seed c_lgK c_n c_merged c_fi c_off c_win c_tab c_hip]; auto; [cbn [length]; lia|].
      apply sh_win; cbn [length]; auto; try lia.
    + repeat split.
    + unfold hip_after. cbn [c_seed c_lgK c_n c_merged c_fi c_off c_win c_tab c_hip]. split; [auto|]. congruence.
Qed.

(** Any reachable update: a coupon already present changes nothing at all. *)
Theorem update_old (s : cpcF) cs x : inv s cs -> (x < 2 ^ N.of_nat (6 + c_lgK s))%N -> In x cs -> row_col_update F HO s x = Ok s.
Proof.
  intros I Hx Hin. pose proof I as [LG [ND LT] NN SH]. unfold row_col_update.
  destruct (col_of x <? c_fi s); auto.
  assert (0 < length cs) by (destruct cs; [destruct Hin|cbn; lia]).
  replace (c_n s =? 0) with false by lia. cbn [bindr]. rewrite NN.
  inversion SH as [E0 H1 H2 H3 H4|t P1 P2 W V P H1 H2 H3 H4|fi' off' w t P1 P2 P3 P4 W H1 H2 H3 H4].
  - subst; destruct Hin.
  - replace (32 * length cs <? 3 * 2 ^ c_lgK s) with true by lia. unfold update_sparse. rewrite NN.
    replace (3 * 2 ^ c_lgK s <=? 32 * length cs) with false by lia.
    destruct s as [sd lgK n mg fi off win tab hip]; cbn [c_seed c_lgK c_n c_merged c_fi c_off c_win c_tab c_hip] in *. subst.
    rewrite maybe_insert_present; auto. eapply Permutation_in; [symmetry; exact P|auto].
  - replace (32 * length cs <? 3 * 2 ^ c_lgK s) with false by lia. symmetry in H3, H4. eapply update_windowed_old; eauto.
Qed.

Theorem update_new (s : cpcF) cs x : inv s cs -> (x < 2 ^ N.of_nat (6 + c_lgK s))%N -> ~ In x cs -> fits (c_lgK s) (x :: cs) ->
  exists s', row_col_update F HO s x = Ok s' /\ inv s' (x :: cs) /\ same_params s s' /\ hip_after s s' x (x :: cs).
Proof.
  intros I Hx Hni FI. pose proof I as [LG [ND LT] NN SH]. unfold row_col_update.
  assert (OKC : okc (c_lgK s) (x :: cs)). { split; [constructor; auto|]. intros y [<-|]; auto. }
  pose proof (pow2_ge_16 (c_lgK s) ltac:(lia)) as K16. pose proof (room_K (c_lgK s) ltac:(lia)) as RK.
  inversion SH as [E0 H1 H2 H3 H4|t P1 P2 W V P H1 H2 H3 H4|fi' off' w t P1 P2 P3 P4 W H1 H2 H3 H4].
  - subst cs. replace (col_of x <? 0) with false by lia. rewrite NN. cbn [length Nat.eqb].
    unfold promote_empty. destruct (wf_new 2 (6 + c_lgK s)) as (nt & En & Wn & Vn & Pn); [lia|lia|]. rewrite En. cbn [bindr c_n c_lgK].
    rewrite ?NN. cbn [length]. rewrite Nat.mul_0_r. replace (0 <? 3 * 2 ^ c_lgK s) with true by lia.
    unfold update_sparse. cbn [c_seed c_lgK c_n c_merged c_fi c_off c_win c_tab c_hip]. rewrite ?NN. cbn [length]. rewrite Nat.mul_0_r.
    replace (3 * 2 ^ c_lgK s <=? 0) with false by lia.
    destruct (maybe_insert_ok nt x Wn) as (t' & b & E & W' & V' & _ & Hf & Ht); [rewrite Vn; auto|rewrite Vn, pairs_n, Pn by auto; cbn [length]; lia|].
    assert (b = true) as ->. { destruct b; auto. destruct (Hf eq_refl) as [H _]. rewrite Pn in H. destruct H. }
    destruct (Ht eq_refl) as [_ P']. rewrite Pn in P'. rewrite E. cbn [bindr].
    replace (3 * 2 ^ c_lgK s <=? 32 * (0 + 1)) with false by lia.
    eexists. split; [reflexivity|]. split; [|split].
    + constructor; cbn [c_seed c_lgK c_n c_merged c_fi c_off c_win c_tab c_hip]; auto. rewrite <- H1, <- H2, <- H3.
      apply sh_sparse; auto; cbn [length]; try lia.
    + repeat split.
    + split; auto. cbn [c_off]. congruence.
  - replace (col_of x <? 0) with false by lia. replace (c_n s =? 0) with false by lia. cbn [bindr]. rewrite NN.
    replace (32 * length cs <? 3 * 2 ^ c_lgK s) with true by lia. unfold update_sparse. rewrite NN, <- H4.
    replace (3 * 2 ^ c_lgK s <=? 32 * length cs) with false by lia.
    destruct (maybe_insert_ok t x W) as (t' & b & E & W' & V' & _ & Hf & Ht); [rewrite V; auto|rewrite V, pairs_n, (Permutation_length P) by auto; lia|].
    assert (b = true) as ->. { destruct b; auto. destruct (Hf eq_refl) as [H _]. exfalso. apply Hni. eapply Permutation_in; [exact P|auto]. }
    destruct (Ht eq_refl) as [_ P']. rewrite P in P'. rewrite E. cbn [bindr].
    destruct (Nat.leb_spec (3 * 2 ^ c_lgK s) (32 * (length cs + 1))) as [T|T].
    + set (s1 := mkCpc _ _ _ _ _ _ _ _ _).
      destruct (promote_sparse_ok s1 t' (x :: cs)) as (w2 & t2 & E2 & W2); auto; try (unfold s1; cbn [c_lgK length]; try congruence; lia).
      rewrite E2. unfold s1 in *. cbn [c_seed c_lgK c_n c_merged c_fi c_off c_win c_tab c_hip] in *.
      eexists. split; [reflexivity|]. split; [|split].
      * constructor; cbn [c_seed c_lgK c_n c_merged c_fi c_off c_win c_tab c_hip]; auto; [cbn [length]; lia|]. rewrite <- H1, <- H2.
        apply sh_win; cbn [length]; auto; lia.
      * repeat split.
      * split; auto. cbn [c_off]. congruence.
    + eexists. split; [reflexivity|]. split; [|split].
      * constructor; cbn [c_seed c_lgK c_n c_merged c_fi c_off c_win c_tab c_hip]; auto; [cbn [length]; lia|]. rewrite <- H1, <- H2, <- H3.
        apply sh_sparse; auto; cbn [length]; try lia.
      * repeat split.
      * split; auto. cbn [c_off]. congruence.
  - assert (F0 : col_of x <? c_fi s = false).
    { apply Nat.ltb_ge. destruct (Nat.le_gt_cases (c_fi s) (col_of x)); auto. exfalso. apply Hni. eapply wi_full; eauto; rewrite ?H1; auto. }
    rewrite F0. replace (c_n s =? 0) with false by lia. cbn [bindr]. rewrite NN.
    replace (32 * length cs <? 3 * 2 ^ c_lgK s) with false by lia. symmetry in H3, H4. eapply update_windowed_new; eauto.
Qed.

Theorem update_step (s : cpcF) cs x : inv s cs -> (x < 2 ^ N.of_nat (6 + c_lgK s))%N -> fits (c_lgK s) (add cs x) ->
  exists s', row_col_update F HO s x = Ok s' /\ inv s' (add cs x) /\ same_params s s'.
Proof.
  intros I Hx FI. unfold add in *. destruct (memb x cs) eqn:M.
  - apply memb_in in M. exists s. rewrite (update_old s cs x) by auto. repeat split; auto; apply I.
  - apply memb_false in M. destruct (update_new s cs x) as (s' & E & I' & S & _); auto. eauto.
Qed.

(** A whole history of coupons. *)
Fixpoint updates (s : cpcF) (l : list N) : res cpcF :=
  match l with [] => Ok s | x :: r => let* s' := row_col_update F HO s x in updates s' r end.

Lemma updates_ok l : forall (s : cpcF) cs, inv s cs -> (forall x, In x l -> (x < 2 ^ N.of_nat (6 + c_lgK s))%N) ->
  (forall i, i <= length l -> fits (c_lgK s) (fold_left add (firstn i l) cs)) ->
  exists s', updates s l = Ok s' /\ inv s' (fold_left add l cs) /\ same_params s s'.
Proof.
  induction l as [|x l IH]; intros s cs I LT FI; cbn [updates fold_left].
  - exists s. repeat split; auto; apply I.
  - destruct (update_step s cs x I) as (s1 & E & I1 & (S1 & S2 & S3)).
    + apply LT; left; auto.
    + apply (FI 1). cbn [length]. lia.
    + rewrite E. cbn [bindr]. destruct (IH s1 (add cs x) I1) as (s2 & E2 & I2 & (T1 & T2 & T3)).
      * intros y Hy. rewrite S2. apply LT. right; auto.
      * intros i Hi. rewrite S2. apply (FI (S i)). cbn [length]. lia.
      * exists s2. split; auto. split; auto. repeat split; congruence.
Qed.

Lemma new_inv lgK seed s : new_cpc F HO lgK seed = Ok s -> inv s [] /\ c_lgK s = lgK /\ c_seed s = seed /\ c_merged s = false.
Proof.
  unfold new_cpc. destruct ((lgK <? 4) || (26 <? lgK)) eqn:E; [discriminate|]. intros [= <-]. apply orb_false_iff in E. split; [|auto].
  constructor; cbn [c_seed c_lgK c_n c_merged c_fi c_off c_win c_tab c_hip length]; auto; [lia| |].
  - split; [constructor|intros ? []].
  - apply sh_empty; auto.
Qed.
End Step.
