(** * CPC: the pair table is a set, the sketch represents its coupons, the union is their union.

    Vocabulary.  A coupon is the pair (row, column) of a hash: the row is hash0 modulo 2^lgK and the
    column the number of leading zeros of the 64-bit hash1, at most 63.  [room (6 + lgK)] is the number
    of pairs the pair table can hold before its growth exceeds the number of hash bits it has
    (3/4 * 2^min(26, 6+lgK)). *)
From Verif Require Import Base Bytes Arr BitPackModel BitPackProofs CpcTable CpcTableProofs CpcModel CpcProofs CpcSketch CpcUnion.
From Coq Require Import Permutation.
Local Open Scope nat_scope.

(** ** C44: the pair table *)
Inductive top := TIns (x : N) | TDel (x : N).
Definition top_key (o : top) : N := match o with TIns x | TDel x => x end.
Fixpoint run_table (t : table) (ops : list top) : res (table * list bool) :=
  match ops with
  | [] => Ok (t, [])
  | o :: r =>
      let* (t', b) := (match o with TIns x => maybe_insert t x | TDel x => maybe_delete t x end) in
      let* (t'', bs) := run_table t' r in
      Ok (t'', b :: bs)
  end.

(** Specification: a finite set as a predicate, and the answers of the operations. *)
Definition set_step (S : N -> Prop) (o : top) : N -> Prop :=
  match o with TIns x => fun y => y = x \/ S y | TDel x => fun y => y <> x /\ S y end.
Inductive answers : (N -> Prop) -> list top -> list bool -> Prop :=
| an_nil S : answers S [] []
| an_ins S x r b bs : (b = true <-> ~ S x) -> answers (set_step S (TIns x)) r bs -> answers S (TIns x :: r) (b :: bs)
| an_del S x r b bs : (b = true <-> S x) -> answers (set_step S (TDel x)) r bs -> answers S (TDel x :: r) (b :: bs).
(** The largest size the set reaches is bounded by the number of insertions. *)
Definition inserts (ops : list top) : nat := length (filter (fun o => match o with TIns _ => true | _ => false end) ops).

Lemma answers_ext S S' ops bs : (forall x, S x <-> S' x) -> answers S ops bs -> answers S' ops bs.
Proof.
  intros H A. revert S' H. induction A as [|S x r b bs Hb A IH|S x r b bs Hb A IH]; intros S' H; constructor.
  - rewrite Hb, H. tauto.
  - apply IH. intros y. cbn. rewrite H. tauto.
  - rewrite Hb. apply H.
  - apply IH. intros y. cbn. rewrite H. tauto.
Qed.

Lemma run_table_ok : forall ops t, wf t -> (forall o, In o ops -> (top_key o < 2 ^ N.of_nat (t_vb t))%N) ->
  t_n t + inserts ops <= room (t_vb t) ->
  exists t' bs, run_table t ops = Ok (t', bs) /\ wf t' /\ answers (fun y => In y (pairs t)) ops bs /\
    (forall y, In y (pairs t') <-> fold_left set_step ops (fun y => In y (pairs t)) y) /\ t_n t' = length (pairs t').
Proof.
  induction ops as [|o ops IH]; intros t W LT R; cbn [run_table].
  - exists t, []. split; auto. split; auto. split; [constructor|]. split; [cbn; tauto|]. apply pairs_n; auto.
  - assert (EXT : forall ops S S', (forall y, S y <-> S' y) -> forall y, fold_left set_step ops S y <-> fold_left set_step ops S' y).
    { clear. induction ops as [|o ops IH]; intros S S' H y; cbn [fold_left]; auto. apply IH. intros z. destruct o; cbn; rewrite H; tauto. }
    assert (Hx : (top_key o < 2 ^ N.of_nat (t_vb t))%N) by (apply LT; left; auto).
    destruct o as [x|x]; cbn [top_key] in Hx; unfold inserts in R; cbn [filter length] in R.
    + destruct (maybe_insert_ok t x W Hx ltac:(lia)) as (t1 & b & E & W1 & V1 & L1 & Hf & Ht). rewrite E. cbn [bindr].
      assert (Q : forall y, In y (pairs t1) <-> set_step (fun y => In y (pairs t)) (TIns x) y).
      { intros y. cbn. destruct b.
        - destruct (Ht eq_refl) as [_ P]. split; intros Z; [apply (Permutation_in y P) in Z; destruct Z; auto|].
          eapply Permutation_in; [symmetry; exact P|]. destruct Z; [left|right]; auto.
        - destruct (Hf eq_refl) as [Hi ->]. split; auto. intros [->|]; auto. }
      destruct (IH t1 W1) as (t2 & bs & E2 & W2 & A2 & Q2 & N2).
      { intros o Ho. rewrite V1. apply LT. right; auto. }
      { rewrite V1. assert (t_n t1 <= t_n t + 1); [|unfold inserts; lia]. rewrite !pairs_n by auto. destruct b.
        - destruct (Ht eq_refl) as [_ P]. rewrite (Permutation_length P). cbn [length]. lia.
        - destruct (Hf eq_refl) as [_ ->]. lia. }
      rewrite E2. cbn [bindr]. exists t2, (b :: bs). split; auto. split; auto. split; [|split; auto].
      * constructor.
        -- destruct b; [destruct (Ht eq_refl); tauto|destruct (Hf eq_refl)]. split; [discriminate|tauto].
        -- eapply answers_ext; [|exact A2]. exact Q.
      * intros y. rewrite Q2. cbn [fold_left]. apply EXT. exact Q.
    + destruct (maybe_delete_ok t x W Hx) as (t1 & b & E & W1 & V1 & Hf & Ht). rewrite E. cbn [bindr].
      assert (Q : forall y, In y (pairs t1) <-> set_step (fun y => In y (pairs t)) (TDel x) y).
      { intros y. cbn. destruct b.
        - specialize (Ht eq_refl). pose proof (Permutation_NoDup Ht (pairs_nodup t W)) as ND. inversion ND as [|? ? Hni _]; subst. split; intros Z.
          + split; [intros ->; auto|]. eapply Permutation_in; [symmetry; exact Ht|right; auto].
          + destruct Z as [Z1 Z2]. apply (Permutation_in y Ht) in Z2. destruct Z2; [congruence|auto].
        - destruct (Hf eq_refl) as [Hi ->]. split; [|tauto]. intros Z. split; auto. intros ->. auto. }
      destruct (IH t1 W1) as (t2 & bs & E2 & W2 & A2 & Q2 & N2).
      { intros o Ho. rewrite V1. apply LT. right; auto. }
      { rewrite V1. assert (t_n t1 <= t_n t); [|unfold inserts; lia]. rewrite !pairs_n by auto. destruct b.
        - specialize (Ht eq_refl). rewrite (Permutation_length Ht). cbn [length]. lia.
        - destruct (Hf eq_refl) as [_ ->]. lia. }
      rewrite E2. cbn [bindr]. exists t2, (b :: bs). split; auto. split; auto. split; [|split; auto].
      * constructor.
        -- destruct b; [specialize (Ht eq_refl); split; auto; intros _; eapply Permutation_in; [symmetry; exact Ht|left; auto]|destruct (Hf eq_refl)]. split; [discriminate|tauto].
        -- eapply answers_ext; [|exact A2]. exact Q.
      * intros y. rewrite Q2. cbn [fold_left]. apply EXT. exact Q.
Qed.

(** Every history of insertions and deletions on a fresh table gives the answers of a mathematical set
    and leaves exactly that set in the slots. *)
Theorem pair_table_is_a_set lg vb t ops : new_table lg vb = Ok t -> lg <= vb ->
  (forall o, In o ops -> (top_key o < 2 ^ N.of_nat vb)%N) -> inserts ops <= room vb ->
  exists t' bs, run_table t ops = Ok (t', bs) /\ answers (fun _ => False) ops bs /\
    NoDup (pairs t') /\ t_n t' = length (pairs t') /\
    forall y, In y (pairs t') <-> fold_left set_step ops (fun _ => False) y.
Proof.
  intros E Hv LT R. pose proof E as E0. unfold new_table in E0. destruct ((lg <? 2) || (26 <? lg)) eqn:B; [discriminate|]. clear E0.
  apply orb_false_iff in B. destruct (wf_new lg vb) as (t0 & E0 & W & V & P); [lia|auto|]. rewrite E0 in E. injection E as <-.
  destruct (run_table_ok ops t0 W) as (t' & bs & E & W' & A & Q & Nn).
  - rewrite V. auto.
  - rewrite V, pairs_n, P by auto. cbn [length]. lia.
  - exists t', bs. split; auto. rewrite P in A. split; [exact A|]. split; [apply pairs_nodup; auto|]. split; auto.
    intros y. rewrite Q, P. tauto.
Qed.

Example pair_table_nontrivial : exists t t' bs, new_table 2 10 = Ok t /\
  run_table t (map (fun i => TIns (N.of_nat (i * 37 mod 1024))) (seq 0 40) ++ [TDel 37; TDel 37; TIns 74]%N) = Ok (t', bs) /\
  t_n t' = 39 /\ skipn 40 bs = [true; false; false].
Proof. do 3 eexists. split; [reflexivity|]. split; [vm_compute; reflexivity|]. split; reflexivity. Qed.

(** The bound is sharp: with [room] + 1 pairs the table panics (the shift count validBits - lgSize
    becomes negative). *)
Theorem pair_table_overflow_refuted : exists t ops, new_table 2 10 = Ok t /\
  (forall o, In o ops -> (top_key o < 2 ^ 10)%N) /\ inserts ops = room 10 + 1 /\ run_table t ops = Panic.
Proof.
  eexists _, (map (fun i => TIns (N.of_nat i)) (seq 0 769)). split; [reflexivity|]. split; [|split].
  - intros o Ho. apply in_map_iff in Ho. destruct Ho as (i & <- & Hi). apply in_seq in Hi. cbn [top_key]. change (2 ^ 10)%N with 1024%N. lia.
  - vm_compute. reflexivity.
  - vm_compute. reflexivity.
Qed.

(** ** C45: the sketch *)

(** Specification of the coupon of a 128-bit hash. *)
Definition spec_row (lgK : nat) (h0 : N) : N := (h0 mod 2 ^ N.of_nat lgK)%N.
Definition spec_col (h1 : N) : N := N.min 63 (64 - N.size h1).
(** leading zeros, bit by bit *)
Lemma spec_col_meaning h1 : (h1 < 2 ^ 64)%N ->
  (forall c, (c < spec_col h1)%N -> N.testbit h1 (63 - c) = false) /\
  ((spec_col h1 < 63)%N -> N.testbit h1 (63 - spec_col h1) = true).
Proof.
  intros H. unfold spec_col. assert (HS : (N.size h1 <= 64)%N).
  { destruct (N.eq_dec h1 0) as [->|Hz]; [cbn; lia|]. rewrite N.size_log2 by auto. apply N.log2_lt_pow2 in H; lia. }
  split.
  - intros c Hc. destruct (N.eq_dec h1 0) as [->|Hz]; [apply N.bits_0|]. rewrite N.size_log2 in * by auto. apply N.bits_above_log2. lia.
  - intros Hc. destruct (N.eq_dec h1 0) as [->|Hz]; [cbn in Hc; lia|]. rewrite N.size_log2 in * by auto.
    replace (63 - N.min 63 (64 - N.succ (N.log2 h1)))%N with (N.log2 h1) by lia. apply N.bit_log2. auto.
Qed.
Definition coupon (lgK : nat) (h : N * N) : N := (64 * spec_row lgK (fst h) + spec_col (snd h))%N.

Section Sketch.
Context {F : Type} (HO : hip_ops F).
Notation cpcF := (cpc F).

Lemma coupon_eq lgK h0 h1 : coupon lgK (h0, h1) = mk_rc (N.to_nat (N.land h0 (N.ones (N.of_nat lgK)))) (let c := clz64 h1 in if 63 <? c then 63 else c).
Proof.
  unfold coupon, spec_row, spec_col, clz64. cbn [fst snd]. rewrite mk_rc_val.
  - rewrite N2Nat.id, N.land_ones, (N.mul_comm 64). f_equal. destruct (Nat.ltb_spec 63 (64 - N.to_nat (N.size h1))); lia.
  - destruct (Nat.ltb_spec 63 (64 - N.to_nat (N.size h1))); lia.
Qed.
Lemma coupon_lt lgK h : (coupon lgK h < 2 ^ N.of_nat (6 + lgK))%N.
Proof.
  rewrite lim_val. unfold coupon, spec_row, spec_col. rewrite <- pow_N. pose proof (K_pos lgK).
  pose proof (N.mod_lt (fst h) (N.of_nat (2 ^ lgK)) ltac:(lia)). lia.
Qed.
Lemma fi_le (s : cpcF) cs : inv s cs -> c_fi s <= 56.
Proof. intros [_ _ _ SH]. inversion SH as [| |fi' off' w t P1 P2 P3 P4 W]; try lia. pose proof (wi_fi _ _ _ _ _ _ W). lia. Qed.

Lemma hash_update_eq (s : cpcF) cs h0 h1 : inv s cs -> hash_update F HO s h0 h1 = row_col_update F HO s (coupon (c_lgK s) (h0, h1)).
Proof.
  intros I. pose proof (fi_le s cs I) as FI. rewrite coupon_eq. unfold hash_update, row_col_update. cbv zeta.
  set (c := if 63 <? clz64 h1 then 63 else clz64 h1).
  assert (Hc : c < 64) by (unfold c; destruct (Nat.ltb_spec 63 (clz64 h1)); lia).
  rewrite col_mk by auto.
  replace (clz64 h1 <? c_fi s) with (c <? c_fi s) by (unfold c; destruct (Nat.ltb_spec 63 (clz64 h1)); lia).
  destruct (c <? c_fi s); auto. unfold promote_empty.
  destruct (c_n s =? 0); [|reflexivity]. destruct (new_table 2 (6 + c_lgK s)); reflexivity.
Qed.

(** Updating a fresh sketch with a list of hashes (UpdateInt64 and the others hash their argument and
    call hashUpdate). *)
Fixpoint feed (s : cpcF) (hs : list (N * N)) : res cpcF :=
  match hs with [] => Ok s | h :: r => let* s' := hash_update F HO s (fst h) (snd h) in feed s' r end.
Definition build (lgK : nat) (seed : N) (hs : list (N * N)) : res cpcF :=
  let* s := new_cpc F HO lgK seed in feed s hs.

Lemma feed_updates hs : forall s cs, inv s cs -> (forall i, i <= length hs -> fits (c_lgK s) (fold_left add (firstn i (map (coupon (c_lgK s)) hs)) cs)) ->
  feed s hs = updates HO s (map (coupon (c_lgK s)) hs).
Proof.
  induction hs as [|[h0 h1] hs IH]; intros s cs I FI; cbn [feed updates map fst snd]; auto.
  rewrite (hash_update_eq s cs) by auto. destruct (update_step HO s cs (coupon (c_lgK s) (h0, h1)) I) as (s1 & E & I1 & (S1 & S2 & S3)).
  - apply coupon_lt. - apply (FI 1). cbn [length]. lia.
  - rewrite E. cbn [bindr]. rewrite <- S2. eapply IH; eauto. intros i Hi. rewrite S2. apply (FI (S i)). cbn [length]. lia.
Qed.

Definition coupons (lgK : nat) (hs : list (N * N)) : list N := map (coupon lgK) hs.
(** [cell m row col]: the bit matrix has a one there. *)
Definition cell (m : list N) (row col : nat) : Prop := N.testbit (nth row m 0%N) (N.of_nat col) = true.

Lemma build_inv lgK seed hs : 4 <= lgK <= 26 -> (forall i, i <= length hs -> fits lgK (added (firstn i (coupons lgK hs)))) ->
  exists s, build lgK seed hs = Ok s /\ inv s (added (coupons lgK hs)) /\ c_lgK s = lgK /\ c_seed s = seed /\ c_merged s = false.
Proof.
  intros LG FI. unfold build. assert (NEW : exists f, new_cpc F HO lgK seed = Ok f) by (unfold new_cpc; replace ((lgK <? 4) || (26 <? lgK)) with false by lia; eauto).
  destruct NEW as (f & Ef). rewrite Ef. cbn [bindr]. destruct (new_inv HO _ _ _ Ef) as (If & Lf & Sf & Mf).
  rewrite (feed_updates hs f [] If) by (rewrite Lf; exact FI). rewrite Lf.
  destruct (updates_ok HO (map (coupon lgK) hs) f [] If) as (s & E & I & (S1 & S2 & S3)).
  - rewrite Lf. intros x Hx. apply in_map_iff in Hx. destruct Hx as (h & <- & _). apply coupon_lt.
  - rewrite Lf, map_length. exact FI.
  - exists s. split; auto. split; [exact I|]. repeat split; congruence.
Qed.

(** Everything observable of the represented set. *)
Definition represents (s : cpcF) (S : N -> Prop) : Prop :=
  exists m, bit_matrix F s = Ok m /\ length m = 2 ^ c_lgK s /\ Forall (fun p => (p < 2 ^ 64)%N) m /\
    (forall row col, row < 2 ^ c_lgK s -> col < 64 -> (cell m row col <-> S (64 * N.of_nat row + N.of_nat col)%N)) /\
    (exists l, NoDup l /\ (forall x, In x l <-> S x) /\ c_n s = length l) /\
    validate F s = Ok true /\ c_off s = correct_offset (c_lgK s) (c_n s).

Lemma inv_represents (s : cpcF) cs S : inv s cs -> (forall x, In x cs <-> S x) -> represents s S.
Proof.
  intros I H. pose proof (bit_matrix_ok s cs I) as (m & E & M). exists m. split; auto. split; [apply M|]. split; [apply M|].
  pose proof I as [LG [ND LT] NN SH]. split; [|split; [|split]].
  - intros row col Hr Hc. unfold cell.
    assert (EQ : (64 * N.of_nat row + N.of_nat col)%N = mk_rc row col) by (rewrite mk_rc_val by auto; lia). rewrite EQ.
    rewrite <- H. assert (HH : (mk_rc row col < 2 ^ N.of_nat (6 + c_lgK s))%N) by (apply row_lt; rewrite row_mk; auto).
    pose proof (mp_in _ _ _ M _ HH) as Q. rewrite row_mk, col_mk in Q by auto. exact Q.
  - exists cs. auto.
  - eapply inv_valid; eauto.
  - eapply inv_offset; eauto.
Qed.

(** The sketch of any history whose pairs fit represents exactly the coupons of the history. *)
Theorem cpc_represents_coupons lgK seed hs : 4 <= lgK <= 26 ->
  (forall i, i <= length hs -> fits lgK (added (firstn i (coupons lgK hs)))) ->
  exists s, build lgK seed hs = Ok s /\ represents s (fun x => exists h, In h hs /\ coupon lgK h = x).
Proof.
  intros LG FI. destruct (build_inv lgK seed hs LG FI) as (s & E & I & L & _). exists s. split; auto.
  apply (inv_represents s _ _ I). intros x. rewrite in_added. unfold coupons. rewrite in_map_iff. split; intros (h & A & B); eauto.
Qed.

Lemma In_firstn_in {A} i (l : list A) x : In x (firstn i l) -> In x l.
Proof. intros H. rewrite <- (firstn_skipn i l). apply in_or_app. auto. Qed.
Lemma added_length_le l : length (added l) <= length l.
Proof.
  unfold added. enough (forall cs, length (fold_left add l cs) <= length cs + length l) by (specialize (H []); cbn [length] in H; lia).
  induction l as [|x l IH]; intros cs; cbn [fold_left length]; [lia|]. specialize (IH (add cs x)).
  assert (length (add cs x) <= S (length cs)); [|lia]. unfold add. destruct (memb x cs); cbn [length]; lia.
Qed.

(** In particular histories with at most half as many distinct coupons as the table has room for (24 * K when lgK <= 20),
    in whatever order and with whatever repetitions, never fail. *)
Theorem cpc_represents_small lgK seed hs d : 4 <= lgK <= 26 -> NoDup d -> (forall h, In h hs -> In (coupon lgK h) d) -> 2 * length d <= room (6 + lgK) ->
  exists s, build lgK seed hs = Ok s /\ represents s (fun x => exists h, In h hs /\ coupon lgK h = x).
Proof.
  intros LG ND Hd R. apply cpc_represents_coupons; auto. intros i _. apply small_fits.
  assert (length (added (firstn i (coupons lgK hs))) <= length d); [|lia].
  apply NoDup_incl_length.
  - apply (added_ok lgK). intros x Hx. apply In_firstn_in in Hx. apply in_map_iff in Hx. destruct Hx as (h & <- & _). apply coupon_lt.
  - intros x Hx. apply (proj1 (in_added _ _)) in Hx. apply In_firstn_in in Hx. apply in_map_iff in Hx. destruct Hx as (h & <- & Hh). auto.
Qed.

(** Presenting a coupon again changes nothing. *)
Theorem cpc_duplicate lgK seed hs h s : 4 <= lgK <= 26 ->
  (forall i, i <= length hs -> fits lgK (added (firstn i (coupons lgK hs)))) ->
  build lgK seed hs = Ok s -> In (coupon lgK h) (coupons lgK hs) -> hash_update F HO s (fst h) (snd h) = Ok s.
Proof.
  intros LG FI E Hin. destruct (build_inv lgK seed hs LG FI) as (s' & E' & I & L & _). rewrite E in E'. injection E' as <-.
  rewrite (hash_update_eq s _ _ _ I), <- surjective_pairing, L. apply update_old with (added (coupons lgK hs)); auto.
  - rewrite L. apply coupon_lt. - apply in_added. auto.
Qed.

(** The order of the updates and their repetitions leave no trace in the matrix, the count or the offset. *)
Theorem cpc_order_independent lgK seed hs hs' s s' : 4 <= lgK <= 26 ->
  (forall i, i <= length hs -> fits lgK (added (firstn i (coupons lgK hs)))) ->
  (forall i, i <= length hs' -> fits lgK (added (firstn i (coupons lgK hs')))) ->
  (forall x, In x (coupons lgK hs) <-> In x (coupons lgK hs')) ->
  build lgK seed hs = Ok s -> build lgK seed hs' = Ok s' ->
  bit_matrix F s = bit_matrix F s' /\ c_n s = c_n s' /\ c_off s = c_off s' /\ (c_win s = None <-> c_win s' = None).
Proof.
  intros LG FI FI' H E E'. destruct (build_inv lgK seed hs LG FI) as (s0 & E0 & I & L & _). rewrite E in E0. injection E0 as <-.
  destruct (build_inv lgK seed hs' LG FI') as (s0 & E0 & I' & L' & _). rewrite E' in E0. injection E0 as <-.
  destruct (bit_matrix_ok s _ I) as (m & Em & M). destruct (bit_matrix_ok s' _ I') as (m' & Em' & M').
  assert (NN : c_n s = c_n s').
  { rewrite (i_n _ _ I), (i_n _ _ I'). apply Permutation_length, NoDup_Permutation; [apply I|apply I'|]. intros x. rewrite !in_added. auto. }
  split; [|split; [auto|split]].
  - rewrite Em, Em'. f_equal. rewrite L in M. rewrite L' in M'. eapply matP_unique; eauto. intros x. rewrite !in_added. auto.
  - rewrite (inv_offset _ _ I), (inv_offset _ _ I'), L, L', NN. auto.
  - pose proof (i_sh _ _ I) as SH. pose proof (i_sh _ _ I') as SH'. rewrite L in SH. rewrite L' in SH'. pose proof (i_n _ _ I). pose proof (i_n _ _ I').
    pose proof (K_pos lgK). inversion SH as [Z1|? ? Z1|? ? ? ? Z1]; inversion SH' as [Z2|? ? Z2|? ? ? ? Z2]; subst; try tauto; try (split; congruence);
    exfalso; try rewrite Z1 in *; try rewrite Z2 in *; cbn [length] in *; lia.
Qed.
End Sketch.

(** ** C46: the union *)
Section UnionProps.
Context {F : Type} (HO : hip_ops F).
Notation cpcF := (cpc F).

(** Specification: a coupon seen at a resolution with fewer rows keeps its column and loses the high
    bits of its row. *)
Definition folds_to (lg : nat) (x y : N) : Prop :=
  (y mod 64 = x mod 64 /\ y / 64 = (x / 64) mod 2 ^ N.of_nat lg)%N.
Lemma fold_folds lg x y : fold_rc lg x = y <-> folds_to lg x y.
Proof.
  pose proof (fold_col lg x) as C. pose proof (fold_row lg x) as R. rewrite !col_mod in C. rewrite !row_div in R.
  assert (C' : (fold_rc lg x mod 64 = x mod 64)%N) by lia.
  assert (R' : (fold_rc lg x / 64 = (x / 64) mod 2 ^ N.of_nat lg)%N).
  { apply N2Nat.inj. rewrite R, N2Nat.inj_mod, <- pow_N, Nat2N.id. auto. }
  unfold folds_to. rewrite <- C', <- R'. split; [intros <-; auto|].
  intros [A B]. rewrite (N.div_mod y 64), (N.div_mod (fold_rc lg x) 64) by lia. congruence.
Qed.

(** Input sketches with the coupon sets they represent. *)
Definition sources := list (cpcF * list N).
Definition good_sources (seed : N) (l : sources) : Prop := Forall (fun p => inv (fst p) (snd p) /\ c_seed (fst p) = seed) l.
Definition all_coupons (l : sources) : list N := concat (map snd l).
(** The smallest lgK among the union's own and the non-empty inputs. *)
Fixpoint min_lg (lg : nat) (l : sources) : nat :=
  match l with [] => lg | (s, []) :: r => min_lg lg r | (s, _) :: r => min_lg (Nat.min lg (c_lgK s)) r end.
Definition same_lg (lg : nat) (l : sources) : Prop := Forall (fun p => c_lgK (fst p) = lg) l.

Lemma min_lg_le l : forall lg, min_lg lg l <= lg.
Proof. induction l as [|[s [|d ds]] l IH]; intros lg; cbn [min_lg]; auto. etransitivity; [apply IH|]. lia. Qed.
Lemma room_mono a b : a <= b -> room (6 + a) <= room (6 + b).
Proof. intros H. unfold room. apply Nat.mul_le_mono_l. apply Nat.pow_le_mono_r; lia. Qed.

Lemma union_all_gen l : forall (u : cunion F) cs L, uinv u cs -> good_sources (u_seed F u) l -> L = min_lg (u_lgK F u) l ->
  (same_lg (u_lgK F u) l \/ 2 * length (cs ++ all_coupons l) <= room (6 + L)) ->
  exists u', union_all HO u (map fst l) = Ok u' /\ u_lgK F u' = L /\ u_seed F u' = u_seed F u /\
    uinv u' (map (fold_rc L) (cs ++ all_coupons l)).
Proof.
  induction l as [|[s ds] l IH]; intros u cs L U G HL FS; cbn [union_all map fst].
  - exists u. cbn [min_lg] in HL. subst L. split; auto. split; auto. split; auto. unfold all_coupons. cbn [map concat].
    rewrite app_nil_r, map_fold_id; auto. apply U.
  - inversion G as [|? ? [I SD] G']; subst. cbn [fst snd] in *.
    assert (RLm : min_lg (u_lgK F u) ((s, ds) :: l) = min_lg (result_lg u s ds) l) by (destruct ds; auto).
    assert (RL : min_lg (result_lg u s ds) l <= result_lg u s ds) by apply min_lg_le.
    destruct (union_update_ok HO u cs s ds U I SD) as (u1 & E & U1 & L1 & S1).
    { destruct FS as [FS|FS]; [left; inversion FS; auto|right]. apply small_fits_sub. rewrite map_length.
      unfold all_coupons in FS. cbn [map concat snd] in FS. rewrite !app_length in *. rewrite RLm in FS.
      pose proof (room_mono _ _ RL). lia. }
    rewrite E. cbn [bindr]. destruct (IH u1 (map (fold_rc (result_lg u s ds)) (cs ++ ds)) (min_lg (result_lg u s ds) l)) as (u2 & E2 & L2 & S2 & U2); auto.
    + rewrite S1. auto.
    + rewrite L1. auto.
    + rewrite L1. destruct FS as [FS|FS].
      * left. inversion FS as [|? ? A B]; subst. cbn [fst] in A.
        replace (result_lg u s ds) with (u_lgK F u) by (destruct ds; cbn [result_lg]; lia). auto.
      * right. rewrite RLm in FS. unfold all_coupons in *. cbn [map concat snd] in FS. rewrite !app_length, map_length, app_length in *. lia.
    + exists u2. split; auto. rewrite RLm. split; auto. split; [congruence|].
      eapply uinv_ext; [exact U2|]. intros x. unfold all_coupons. cbn [map concat snd].
      set (L := min_lg (result_lg u s ds) l) in *.
      assert (FF : map (fold_rc L) (map (fold_rc (result_lg u s ds)) (cs ++ ds)) = map (fold_rc L) (cs ++ ds)) by (rewrite map_map; apply map_ext; intros; apply fold_fold; auto).
      rewrite map_app, FF, !map_app, !in_app_iff. tauto.
Qed.

(** The union's matrix and result represent exactly the folded coupons of the inputs, at the
    smallest lgK.  When every lgK is the same no size condition is needed to build the matrix. *)
Theorem cpc_union_matrix lgK seed (l : sources) : 4 <= lgK <= 26 -> good_sources seed l ->
  same_lg lgK l \/ 2 * length (all_coupons l) <= room (6 + min_lg lgK l) ->
  exists u0 u m, new_union F HO lgK seed = Ok u0 /\ union_all HO u0 (map fst l) = Ok u /\ u_lgK F u = min_lg lgK l /\
    union_matrix F u = Ok m /\ length m = 2 ^ min_lg lgK l /\
    forall row col, row < 2 ^ min_lg lgK l -> col < 64 ->
      (cell m row col <-> exists s cs x, In (s, cs) l /\ In x cs /\ folds_to (min_lg lgK l) x (64 * N.of_nat row + N.of_nat col)%N).
Proof.
  intros LG G FS. unfold new_union.
  assert (NEW : exists f, new_cpc F HO lgK seed = Ok f) by (unfold new_cpc; replace ((lgK <? 4) || (26 <? lgK)) with false by lia; eauto).
  destruct NEW as (f & Ef). rewrite Ef. cbn [bindr]. destruct (new_inv HO _ _ _ Ef) as (If & Lf & Sf & _).
  assert (U0 : uinv (mkCu F seed lgK None (Some f)) []).
  { constructor; cbn [u_lgK u_acc u_mat u_seed]; auto; [intros ? []|]. left. exists f, []. pose proof (K_pos lgK). cbn [length]. split; [auto|]. split; [auto|]. split; [exact If|]. split; [exact Lf|]. split; [exact Sf|]. split; [lia|tauto]. }
  destruct (union_all_gen l _ [] (min_lg lgK l) U0) as (u & E & L & S & U); auto.
  exists (mkCu F seed lgK None (Some f)), u. cbn [u_lgK] in L.
  destruct (union_matrix_ok u _ U) as (m & Em & M). exists m. split; auto. split; auto. split; auto. split; auto. rewrite L in M. split; [apply M|].
  intros row col Hr Hc. unfold cell.
  assert (EQ : (64 * N.of_nat row + N.of_nat col)%N = mk_rc row col) by (rewrite mk_rc_val by auto; lia). rewrite EQ.
  assert (HH : (mk_rc row col < 2 ^ N.of_nat (6 + min_lg lgK l))%N) by (apply row_lt; rewrite row_mk; auto).
  pose proof (mp_in _ _ _ M _ HH) as Q. rewrite row_mk, col_mk in Q by auto. rewrite Q. cbn [app]. rewrite in_map_iff. unfold all_coupons.
  split.
  - intros (x & Hx & Hin). apply in_concat in Hin. destruct Hin as (cs & Hcs & Hx'). apply in_map_iff in Hcs. destruct Hcs as ([s cs'] & <- & Hs).
    exists s, cs', x. split; auto. split; auto. apply fold_folds; auto.
  - intros (s & cs & x & Hs & Hx & Hf). exists x. split; [apply fold_folds; auto|]. apply in_concat. exists cs. split; auto.
    apply in_map_iff. exists (s, cs). auto.
Qed.

Theorem cpc_union_result lgK seed (l : sources) : 4 <= lgK <= 26 -> good_sources seed l ->
  2 * length (all_coupons l) <= room (6 + min_lg lgK l) ->
  exists u0 u s, new_union F HO lgK seed = Ok u0 /\ union_all HO u0 (map fst l) = Ok u /\ get_result F HO u = Ok s /\
    c_lgK s = min_lg lgK l /\ c_seed s = seed /\ c_merged s = true /\
    represents s (fun y => exists s cs x, In (s, cs) l /\ In x cs /\ folds_to (min_lg lgK l) x y).
Proof.
  intros LG G FS. unfold new_union.
  assert (NEW : exists f, new_cpc F HO lgK seed = Ok f) by (unfold new_cpc; replace ((lgK <? 4) || (26 <? lgK)) with false by lia; eauto).
  destruct NEW as (f & Ef). rewrite Ef. cbn [bindr]. destruct (new_inv HO _ _ _ Ef) as (If & Lf & Sf & _).
  assert (U0 : uinv (mkCu F seed lgK None (Some f)) []).
  { constructor; cbn [u_lgK u_acc u_mat u_seed]; auto; [intros ? []|]. left. exists f, []. pose proof (K_pos lgK). cbn [length]. split; [auto|]. split; [auto|]. split; [exact If|]. split; [exact Lf|]. split; [exact Sf|]. split; [lia|tauto]. }
  destruct (union_all_gen l _ [] (min_lg lgK l) U0) as (u & E & L & S & U); auto. cbn [u_lgK u_seed] in L, S.
  destruct (get_result_ok HO u _ U) as (s & ds & Es & I & Q & L2 & S2 & M2).
  { right. rewrite L. apply small_fits. pose proof (added_length_le (map (fold_rc (min_lg lgK l)) ([] ++ all_coupons l))) as AL. rewrite map_length in AL. cbn [app] in *. lia. }
  exists (mkCu F seed lgK None (Some f)), u, s. split; auto. split; auto. split; auto. split; [congruence|]. split; [congruence|]. split; auto.
  apply (inv_represents s ds); auto. intros y. rewrite Q. cbn [app]. rewrite in_map_iff. unfold all_coupons. split.
  - intros (x & Hx & Hin). apply in_concat in Hin. destruct Hin as (cs & Hcs & Hx'). apply in_map_iff in Hcs. destruct Hcs as ([s0 cs'] & <- & Hs).
    exists s0, cs', x. split; auto. split; auto. apply fold_folds; auto.
  - intros (s0 & cs & x & Hs & Hx & Hf). exists x. split; [apply fold_folds; auto|]. apply in_concat. exists cs. split; auto.
    apply in_map_iff. exists (s0, cs). auto.
Qed.

(** A sketch with another seed is refused. *)
Theorem cpc_union_seed (u : cunion F) (src : cpcF) : c_seed src <> u_seed F u -> union_update F HO u src = Err.
Proof. apply union_wrong_seed. Qed.
End UnionProps.

(** ** Concrete cases and limits *)
Definition no_hip : hip_ops unit := mkOps unit (fun _ => tt) (fun _ _ _ => tt) (fun _ _ _ => tt).
(** Hashes giving the coupon (row, col). *)
Definition hash_for (row col : nat) : N * N := (N.of_nat row, if col =? 63 then 0%N else (2 ^ N.of_nat (63 - col))%N).
Definition grid (rows cols : list nat) : list (N * N) := flat_map (fun c => map (fun r => hash_for r c) rows) cols.

(** A sketch that goes through all flavors, to offset 1: every coupon of the first four columns. *)
Example cpc_nontrivial : exists s, build no_hip 4 9001 (grid (seq 0 16) (seq 0 4)) = Ok s /\ c_n s = 64 /\ c_off s = 1 /\ c_fi s = 1 /\
  get_flavor unit s = Sliding /\ bit_matrix unit s = Ok (repeat 15%N 16).
Proof. eexists. split; [vm_compute; reflexivity|]. repeat split; vm_compute; reflexivity. Qed.
Example cpc_nontrivial_fits : 2 * length (grid (seq 0 16) (seq 0 4)) <= room (6 + 4).
Proof. vm_compute. repeat constructor. Qed.

(** Unlikely but possible hashes exhaust the pair table: a sketch with lgK = 4 panics on a history of 512 updates. *)
Theorem cpc_represents_all_histories_refuted : exists hs, length hs = 512 /\ build no_hip 4 9001 hs = Panic.
Proof. exists (grid (seq 0 16) (seq 32 32)). split; vm_compute; reflexivity. Qed.
(** ... and a sketch that has seen 59 3/8 * K coupons returns an error from then on. *)
Theorem cpc_offset_limit_refuted : exists hs, length hs = 950 /\ build no_hip 4 9001 hs = Err.
Proof. exists (firstn 950 (grid (seq 0 16) (seq 0 64))). split; vm_compute; reflexivity. Qed.

Example cpc_union_nontrivial : exists s1 s2 u0 u s,
  build no_hip 5 9001 (grid (seq 0 32) (seq 0 4)) = Ok s1 /\ build no_hip 4 9001 (grid [3; 7; 9] [5; 40]) = Ok s2 /\
  new_union unit no_hip 6 9001 = Ok u0 /\ union_all no_hip u0 [s2; s1] = Ok u /\ get_result unit no_hip u = Ok s /\
  c_lgK s = 4 /\ c_n s = 70 /\ get_flavor unit s1 = Sliding /\ get_flavor unit s = Sliding.
Proof.
  do 5 eexists. split; [vm_compute; reflexivity|]. split; [vm_compute; reflexivity|]. split; [vm_compute; reflexivity|].
  split; [vm_compute; reflexivity|]. split; [vm_compute; reflexivity|]. repeat split; vm_compute; reflexivity.
Qed.

Print Assumptions pair_table_is_a_set.
Print Assumptions cpc_represents_coupons.
Print Assumptions cpc_represents_small.
Print Assumptions cpc_duplicate.
Print Assumptions cpc_order_independent.
Print Assumptions cpc_union_matrix.
Print Assumptions cpc_union_result.
