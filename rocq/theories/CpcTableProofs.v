(** * The pair table is a finite set. *)
From Verif Require Import Base Bytes Arr BitPackModel CpcTable.
Local Open Scope nat_scope.

Definition at_ (s : list (option N)) (i : nat) (x : N) : Prop := nth_error s i = Some (Some x).
Definition occ (s : list (option N)) (i : nat) : Prop := exists x, at_ s i x.
Definition hm (vb lg : nat) (x : N) : nat := N.to_nat (N.shiftr x (N.of_nat (vb - lg))).
Definition reach (size h : nat) (s : list (option N)) (i : nat) : Prop :=
  exists D, D < size /\ i = (h + D) mod size /\ forall d, d < D -> occ s ((h + d) mod size).

Record wfs (vb lg : nat) (s : list (option N)) : Prop := {
  ws_len : length s = 2 ^ lg;
  ws_nodup : NoDup (somes s);
  ws_lt : forall x, In x (somes s) -> (x < 2 ^ N.of_nat vb)%N;
  ws_reach : forall i x, at_ s i x -> reach (2 ^ lg) (hm vb lg x) s i }.

Record wf (t : table) : Prop := {
  w_s : wfs (t_vb t) (t_lg t) (t_slots t);
  w_n : t_n t = length (somes (t_slots t));
  w_lg : 2 <= t_lg t <= 26;
  w_vb : t_lg t <= t_vb t;
  w_load : 4 * t_n t <= 3 * 2 ^ t_lg t }.

Definition pairs (t : table) : list N := somes (t_slots t).

Lemma pow2_pos n : 0 < 2 ^ n.
Proof. induction n; simpl; lia. Qed.

(** ** somes *)
Lemma in_somes s x : In x (somes s) <-> exists i, at_ s i x.
Proof.
  unfold at_. induction s as [|[y|] s IH]; simpl.
  - split; [tauto|]. intros [[|i] H]; discriminate.
  - rewrite IH. split.
    + intros [->|[i H]]; [exists 0|exists (S i)]; auto.
    + intros [[|i] H]; [left; simpl in H; congruence|right; exists i; auto].
  - rewrite IH. split.
    + intros [i H]. exists (S i). auto.
    + intros [[|i] H]; [simpl in H; congruence|exists i; auto].
Qed.

Lemma somes_app a b : somes (a ++ b) = somes a ++ somes b.
Proof. induction a as [|[x|] a IH]; simpl; auto. f_equal. auto. Qed.

Lemma somes_repeat n : somes (repeat None n) = [].
Proof. induction n; simpl; auto. Qed.

Lemma somes_upd_in s p x : nth_error s p = Some None -> Permutation (somes (upd p (Some x) s)) (x :: somes s).
Proof.
  intros H. pose proof (nth_error_split' s p None H) as E.
  rewrite upd_app_split by (apply nth_error_Some; congruence).
  rewrite E at 3. rewrite !somes_app. simpl. symmetry. apply Permutation_middle.
Qed.

Lemma somes_upd_out s p x : nth_error s p = Some (Some x) -> Permutation (somes s) (x :: somes (upd p None s)).
Proof.
  intros H. pose proof (nth_error_split' s p (Some x) H) as E.
  rewrite upd_app_split by (apply nth_error_Some; congruence).
  rewrite E at 1. rewrite !somes_app. simpl. symmetry. apply Permutation_middle.
Qed.

Lemma somes_le s : length (somes s) <= length s.
Proof. induction s as [|[x|] s IH]; simpl; lia. Qed.

Lemma empty_exists s : length (somes s) < length s -> exists e, nth_error s e = Some None.
Proof.
  induction s as [|[x|] s IH]; simpl; intros H; try lia.
  - destruct IH as [e He]; [lia|]. exists (S e). auto.
  - exists 0. auto.
Qed.

(** ** modular positions *)
Lemma mod_dist size a b : 0 < size -> b < size -> exists D, D < size /\ b = (a + D) mod size.
Proof.
  intros Hs Hb. exists ((b + (size - a mod size)) mod size). split; [apply Nat.mod_upper_bound; lia|].
  rewrite Nat.add_mod_idemp_r by lia.
  pose proof (Nat.div_mod a size ltac:(lia)) as E. pose proof (Nat.mod_upper_bound a size ltac:(lia)).
  replace (a + (b + (size - a mod size))) with (b + (a / size + 1) * size) by nia.
  rewrite Nat.mod_add by lia. symmetry. apply Nat.mod_small. lia.
Qed.

Lemma mod_step size a k : 0 < size -> ((a mod size) + k) mod size = (a + k) mod size.
Proof. intros. apply Nat.add_mod_idemp_l. lia. Qed.

Lemma mod_inj size a d d' : 0 < size -> d < size -> d' < size -> (a + d) mod size = (a + d') mod size -> d = d'.
Proof.
  intros Hs H1 H2 E.
  pose proof (Nat.div_mod (a + d) size ltac:(lia)) as A. pose proof (Nat.div_mod (a + d') size ltac:(lia)) as B.
  rewrite <- E in B.
  assert ((a + d) / size = (a + d') / size \/ (a + d) / size < (a + d') / size \/ (a + d') / size < (a + d) / size) by lia.
  nia.
Qed.

Lemma hm_lt vb lg x : lg <= vb -> (x < 2 ^ N.of_nat vb)%N -> hm vb lg x < 2 ^ lg.
Proof.
  intros H Hx. unfold hm. rewrite N.shiftr_div_pow2.
  assert (x / 2 ^ N.of_nat (vb - lg) < 2 ^ N.of_nat lg)%N.
  { apply N.div_lt_upper_bound; [apply N.pow_nonzero; lia|]. rewrite <- N.pow_add_r. replace (N.of_nat (vb - lg) + N.of_nat lg)%N with (N.of_nat vb) by lia. auto. }
  assert (N.to_nat (2 ^ N.of_nat lg) = 2 ^ lg).
  { rewrite N2Nat.inj_pow. rewrite Nat2N.id. reflexivity. }
  lia.
Qed.

(** ** the probe loop *)
Lemma probe_loop_ok (s : list (option N)) size h x E fuel : length s = size -> 0 < size ->
  nth_error s ((h + E) mod size) = Some None ->
  forall d, d <= E -> E - d <= fuel ->
  (forall d', d' < d -> exists y, at_ s ((h + d') mod size) y /\ y <> x) ->
  exists D, d <= D <= E /\ probe_loop fuel s size ((h + d) mod size) x = Ok ((h + D) mod size) /\
    (forall d', d' < D -> exists y, at_ s ((h + d') mod size) y /\ y <> x) /\
    (at_ s ((h + D) mod size) x \/ nth_error s ((h + D) mod size) = Some None).
Proof.
  intros Hl Hs He. induction fuel as [|f IH]; intros d Hd Hf Hp.
  - assert (d = E) by lia. subst d. exists E. split; [lia|]. cbn [probe_loop]. rewrite He. auto.
  - cbn [probe_loop].
    assert (L : (h + d) mod size < length s) by (rewrite Hl; apply Nat.mod_upper_bound; lia).
    destruct (nth_error s ((h + d) mod size)) as [[y|]|] eqn:Q; [| |apply nth_error_None in Q; lia].
    + destruct (N.eqb_spec y x) as [->|Hne].
      * exists d. split; [lia|]. split; auto.
      * assert (d <> E) by (intros ->; congruence).
        rewrite mod_step by auto. replace (h + d + 1) with (h + (d + 1)) by lia.
        destruct (IH (d + 1)) as (D & HD & HP & HH); try lia.
        { intros d' Hd'. destruct (Nat.eq_dec d' d) as [->|]; [exists y; split; auto|apply Hp; lia]. }
        exists D. split; [lia|]. auto.
    + exists d. split; [lia|]. auto.
Qed.

Lemma lookup_spec vb lg n s x : wfs vb lg s -> lg <= vb -> (x < 2 ^ N.of_nat vb)%N -> length (somes s) < 2 ^ lg ->
  exists p, lookup (mkTable lg vb n s) x = Ok p /\ p < 2 ^ lg /\
    ((at_ s p x /\ In x (somes s)) \/
     (nth_error s p = Some None /\ ~ In x (somes s) /\ reach (2 ^ lg) (hm vb lg x) s p)).
Proof.
  intros [Hl Hnd Hlt Hr] Hv Hx Hn. pose proof (pow2_pos lg) as Hs.
  unfold lookup, home. cbn [t_vb t_lg t_slots]. destruct (Nat.ltb_spec vb lg); [lia|]. cbn [bindr].
  fold (hm vb lg x). pose proof (hm_lt vb lg x Hv Hx) as Hh.
  destruct (empty_exists s) as [e He]; [lia|].
  assert (e < 2 ^ lg) by (rewrite <- Hl; apply nth_error_Some; congruence).
  destruct (mod_dist (2 ^ lg) (hm vb lg x) e Hs H0) as (E & HE & Ee).
  destruct (probe_loop_ok s (2 ^ lg) (hm vb lg x) x E (2 ^ lg) Hl Hs) with (d := 0) as (D & HD & HP & HQ & HR); try lia.
  { rewrite <- Ee. auto. }
  rewrite Nat.add_0_r in HP. rewrite Nat.mod_small in HP by auto. 
  exists ((hm vb lg x + D) mod 2 ^ lg). split; [exact HP|].
  split; [apply Nat.mod_upper_bound; lia|].
  destruct HR as [HR|HR].
  - left. split; auto. apply in_somes. eauto.
  - right. split; auto. split.
    + intros Hin. apply in_somes in Hin. destruct Hin as [i Hi]. destruct (Hr _ _ Hi) as (D' & HD' & Ei & Hocc).
      destruct (Nat.lt_trichotomy D D') as [L|[->|L]].
      * destruct (Hocc _ L) as [y Hy]. unfold at_ in Hy. congruence.
      * unfold at_ in Hi. congruence.
      * destruct (HQ _ L) as (y & Hy & Hne). rewrite <- Ei in Hy. unfold at_ in *. congruence.
    + exists D. split; [lia|]. split; auto. intros d Hd. destruct (HQ _ Hd) as (y & Hy & _). exists y. auto.
Qed.

(** ** insertion into an empty slot *)
Lemma at_upd s p v i x : p < length s -> at_ (upd p v s) i x <-> (i = p /\ v = Some x) \/ (i <> p /\ at_ s i x).
Proof.
  intros Hp. unfold at_. rewrite nth_error_upd. destruct (Nat.eqb_spec p i) as [->|Hne].
  - destruct (Nat.ltb_spec i (length s)); [|lia]. split; [intros [= ->]; auto|intros [[_ ->]|[]]; congruence].
  - split; [intros; right; split; auto; congruence|intros [[]|[]]; congruence].
Qed.

Lemma occ_upd_some s p x i : p < length s -> occ s i -> occ (upd p (Some x) s) i.
Proof.
  intros Hp [y Hy]. destruct (Nat.eq_dec i p) as [->|Hne].
  - exists x. apply at_upd; auto.
  - exists y. apply at_upd; auto.
Qed.

Lemma wfs_insert vb lg s p x : wfs vb lg s -> (x < 2 ^ N.of_nat vb)%N ->
  nth_error s p = Some None -> ~ In x (somes s) -> reach (2 ^ lg) (hm vb lg x) s p ->
  wfs vb lg (upd p (Some x) s).
Proof.
  intros [Hl Hnd Hlt Hr] Hx Hp Hni Hre.
  assert (Lp : p < length s) by (apply nth_error_Some; congruence).
  pose proof (somes_upd_in s p x Hp) as P.
  constructor.
  - rewrite upd_length. auto.
  - eapply Permutation_NoDup; [symmetry; exact P|]. constructor; auto.
  - intros y Hy. apply (Permutation_in y P) in Hy. destruct Hy as [->|Hy]; auto.
  - intros i y Hi. apply at_upd in Hi; auto.
    assert (R : reach (2 ^ lg) (hm vb lg y) s i).
    { destruct Hi as [[-> [= ->]]|[_ Hi]]; auto. }
    destruct R as (D & HD & E & HO). exists D. split; auto. split; auto. intros d Hd. apply occ_upd_some; auto.
Qed.

Lemma wfs_new vb lg : wfs vb lg (repeat None (2 ^ lg)).
Proof.
  constructor.
  - apply repeat_length.
  - rewrite somes_repeat. constructor.
  - rewrite somes_repeat. intros x [].
  - intros i x H. assert (In x (somes (repeat None (2 ^ lg)))) by (apply in_somes; eauto). rewrite somes_repeat in H0. destruct H0.
Qed.

Lemma wf_new lg vb : 2 <= lg <= 26 -> lg <= vb -> exists t, new_table lg vb = Ok t /\ wf t /\ t_vb t = vb /\ pairs t = [].
Proof.
  intros H1 H2. unfold new_table. replace ((lg <? 2) || (26 <? lg)) with false by lia.
  eexists. split; [reflexivity|]. unfold pairs. cbn [t_slots t_vb]. rewrite somes_repeat. split; [|auto].
  constructor; cbn [t_slots t_vb t_lg t_n]; auto; try lia. apply wfs_new. rewrite somes_repeat. auto.
Qed.

(** insertion that needs no growth *)
Lemma insert_small f t x : wf t -> (x < 2 ^ N.of_nat (t_vb t))%N -> 4 * (t_n t + 1) <= 3 * 2 ^ t_lg t ->
  exists t' b, insert_fuel (S f) t x = Ok (t', b) /\ wf t' /\ t_vb t' = t_vb t /\ t_lg t' = t_lg t /\
    (b = false -> In x (pairs t) /\ t' = t) /\
    (b = true -> ~ In x (pairs t) /\ Permutation (pairs t') (x :: pairs t)).
Proof.
  intros [Ws Wn Wl Wv Wo] Hx Hc. destruct t as [lg vb n s]; cbn [t_lg t_vb t_n t_slots] in *.
  pose proof (pow2_pos lg) as Hs.
  destruct (lookup_spec vb lg n s x Ws Wv Hx) as (p & HL & Hp & HC); [lia|].
  cbn [insert_fuel]. rewrite HL. cbn [bindr t_lg t_vb t_n t_slots]. unfold pairs; cbn [t_slots].
  destruct HC as [[Ha Hin]|(He & Hni & Hr)].
  - unfold at_ in Ha. rewrite Ha. eexists _, false. split; [reflexivity|]. split; [constructor; cbn; auto|]. 
    repeat split; auto; discriminate.
  - rewrite He. cbn [grow_with]. cbn [t_lg t_n].
    destruct (Nat.ltb_spec (3 * 2 ^ lg) (4 * (n + 1))); [lia|]. cbn [bindr].
    pose proof (somes_upd_in s p x He) as P.
    eexists _, true. split; [reflexivity|]. split.
    { constructor; cbn [t_lg t_vb t_n t_slots]; auto.
      - apply wfs_insert; auto.
      - rewrite (Permutation_length P). simpl. lia. }
    cbn [t_slots t_vb t_lg]. repeat split; auto; discriminate.
Qed.

Lemma reinsert_ok f old : forall t, wf t -> NoDup (pairs t ++ somes old) ->
  (forall x, In x (somes old) -> (x < 2 ^ N.of_nat (t_vb t))%N) ->
  4 * (t_n t + length (somes old)) <= 3 * 2 ^ t_lg t ->
  exists t', reinsert (insert_fuel (S f)) t old = Ok t' /\ wf t' /\ t_vb t' = t_vb t /\ t_lg t' = t_lg t /\
    Permutation (pairs t') (pairs t ++ somes old).
Proof.
  induction old as [|[x|] old IH]; intros t W ND Hlt Hc; cbn [reinsert somes].
  - exists t. rewrite app_nil_r. auto 10.
  - cbn [somes length] in *.
    destruct (insert_small f t x W) as (t1 & b & E & W1 & V1 & L1 & Hf & Ht).
    { apply Hlt. left. auto. } { lia. }
    rewrite E. cbn [bindr].
    assert (b = true).
    { destruct b; auto. destruct (Hf eq_refl) as [Hin _]. exfalso. apply NoDup_remove_2 in ND. apply ND. apply in_or_app. auto. }
    subst b. destruct (Ht eq_refl) as [Hni P]. 
    assert (N1 : t_n t1 = t_n t + 1).
    { destruct W1 as [_ -> _ _ _]. destruct W as [_ -> _ _ _]. unfold pairs in P. rewrite (Permutation_length P). simpl. lia. }
    destruct (IH t1 W1) as (t2 & E2 & W2 & V2 & L2 & P2).
    + eapply Permutation_NoDup; [|exact ND]. rewrite P. simpl. symmetry. apply Permutation_middle.
    + intros y Hy. rewrite V1. apply Hlt. right. auto.
    + rewrite N1, L1. lia.
    + exists t2. split; auto. split; auto. split; [congruence|]. split; [congruence|].
      rewrite P2, P. simpl. apply Permutation_middle.
  - destruct (IH t W ND Hlt Hc) as (t' & ?). eauto.
Qed.

Lemma rebuild_with_ok f t newlg : NoDup (pairs t) -> (forall x, In x (pairs t) -> (x < 2 ^ N.of_nat (t_vb t))%N) ->
  t_n t = length (pairs t) -> 2 <= newlg <= 26 -> newlg <= t_vb t -> 4 * t_n t <= 3 * 2 ^ newlg ->
  exists t', rebuild_with (insert_fuel (S f)) t newlg = Ok t' /\ wf t' /\ t_vb t' = t_vb t /\ t_lg t' = newlg /\
    Permutation (pairs t') (pairs t).
Proof.
  intros ND Hlt Hn Hl Hv Hc. unfold rebuild_with. replace ((newlg <? 2) || (26 <? newlg)) with false by lia.
  pose proof (pow2_pos newlg). destruct (Nat.leb_spec (2 ^ newlg) (t_n t)); [lia|].
  destruct (reinsert_ok f (t_slots t) (mkTable newlg (t_vb t) 0 (repeat None (2 ^ newlg)))) as (t' & E & W & V & L & P).
  - constructor; cbn [t_slots t_vb t_lg t_n]; auto; try lia. apply wfs_new. rewrite somes_repeat. auto.
  - unfold pairs at 1. cbn [t_slots]. rewrite somes_repeat. auto.
  - auto.
  - cbn [t_n t_lg]. unfold pairs in Hn. lia.
  - exists t'. split; auto. split; auto. split; auto. split; auto. unfold pairs at 2 in P. cbn [t_slots] in P. rewrite somes_repeat in P. auto.
Qed.

(** The number of pairs a table for [vb]-bit pairs can hold. *)
Definition room (vb : nat) : nat := 3 * 2 ^ (Nat.min 26 vb - 2).

Lemma room_min vb n : 2 <= vb -> (n <= room vb <-> 4 * n <= 3 * 2 ^ Nat.min 26 vb).
Proof.
  intros H. unfold room. replace (Nat.min 26 vb) with (2 + (Nat.min 26 vb - 2)) at 2 by lia.
  rewrite Nat.pow_add_r. change (2 ^ 2) with 4. lia.
Qed.

(** maybeInsert *)
Lemma maybe_insert_ok t x : wf t -> (x < 2 ^ N.of_nat (t_vb t))%N -> t_n t + 1 <= room (t_vb t) ->
  exists t' b, maybe_insert t x = Ok (t', b) /\ wf t' /\ t_vb t' = t_vb t /\ t_lg t <= t_lg t' /\
    (b = false -> In x (pairs t) /\ t' = t) /\
    (b = true -> ~ In x (pairs t) /\ Permutation (pairs t') (x :: pairs t)).
Proof.
  intros W Hx Hc. pose proof W as [Ws Wn Wl Wv Wo].
  rewrite room_min in Hc by lia.
  unfold maybe_insert.
  destruct (le_lt_dec (4 * (t_n t + 1)) (3 * 2 ^ t_lg t)) as [L|L].
  { destruct (insert_small 1 t x W Hx L) as (t' & b & E & W' & V & G & R). exists t', b. split; auto. split; auto. split; auto. split; [lia|]. exact R. }
  destruct t as [lg vb n s]; cbn [t_lg t_vb t_n t_slots] in *.
  assert (lg < Nat.min 26 vb). { destruct (le_lt_dec (Nat.min 26 vb) lg) as [G|G]; auto. assert (lg = Nat.min 26 vb) by lia. subst lg. lia. }
  pose proof (Nat.pow_le_mono_r 2 2 lg ltac:(lia) ltac:(lia)) as P4. change (2 ^ 2) with 4 in P4.
  destruct (lookup_spec vb lg n s x Ws Wv Hx) as (p & HL & Hp & HC); [lia|].
  unfold insert_fuel; fold insert_fuel. rewrite HL. cbn [bindr t_lg t_vb t_n t_slots]. unfold pairs; cbn [t_slots].
  destruct HC as [[Ha Hin]|(He & Hni & Hr)].
  - unfold at_ in Ha. rewrite Ha. eexists _, false. split; [reflexivity|]. split; auto. cbn [t_vb t_lg]. split; auto. split; auto. split; [auto|discriminate].
  - rewrite He. pose proof (somes_upd_in s p x He) as P. destruct Ws as [Sl Sn Slt Sr].
    unfold grow_with; fold grow_with. cbn [t_lg t_n].
    destruct (Nat.ltb_spec (3 * 2 ^ lg) (4 * (n + 1))); [|lia].
    assert (PP : 2 ^ (lg + 1) = 2 * 2 ^ lg) by (rewrite Nat.add_1_r; apply Nat.pow_succ_r').
    destruct (rebuild_with_ok 0 (mkTable lg vb (n + 1) (upd p (Some x) s)) (lg + 1)) as (t' & E & W' & V & G & PQ); cbn [t_n t_vb]; unfold pairs; cbn [t_slots]; try lia.
    { eapply Permutation_NoDup; [symmetry; exact P|]. constructor; auto. }
    { intros y Hy. apply (Permutation_in y P) in Hy. destruct Hy as [->|Hy]; auto. }
    { rewrite (Permutation_length P). simpl. lia. }
    match goal with |- context [rebuild_with ?i ?t ?l] => change (rebuild_with i t l) with (rebuild_with (insert_fuel 1) t l) end.
    rewrite E. cbn [bindr]. unfold pairs in PQ. cbn [t_slots] in PQ.
    assert (N1 : t_n t' = n + 1). { destruct W' as [_ -> _ _ _]. rewrite (Permutation_length PQ), (Permutation_length P). simpl. lia. }
    cbn [t_vb] in V.
    rewrite G, N1. destruct (Nat.ltb_spec (3 * 2 ^ (lg + 1)) (4 * (n + 1))); [lia|]. cbn [bindr].
    eexists _, true. split; [reflexivity|]. split; auto. split; auto. split; [lia|]. split; [discriminate|]. intros _. split; auto.
    rewrite PQ. auto.
Qed.

(** ** deletion *)
Lemma insert_all_ok l : forall t, wf t -> NoDup (pairs t ++ l) -> (forall x, In x l -> (x < 2 ^ N.of_nat (t_vb t))%N) ->
  t_n t + length l <= room (t_vb t) ->
  exists t', insert_all t l = Ok t' /\ wf t' /\ t_vb t' = t_vb t /\ Permutation (pairs t') (pairs t ++ l).
Proof.
  induction l as [|x l IH]; intros t W ND Hlt Hc; cbn [insert_all].
  - exists t. rewrite app_nil_r. auto 10.
  - cbn [length] in Hc.
    destruct (maybe_insert_ok t x W) as (t1 & b & E & W1 & V1 & L1 & Hf & Ht); [apply Hlt; left; auto|lia|].
    rewrite E. cbn [bindr].
    assert (b = true).
    { destruct b; auto. destruct (Hf eq_refl) as [Hin _]. exfalso. apply NoDup_remove_2 in ND. apply ND. apply in_or_app. auto. }
    subst b. destruct (Ht eq_refl) as [Hni P].
    assert (N1 : t_n t1 = t_n t + 1).
    { destruct W1 as [_ -> _ _ _]. destruct W as [_ -> _ _ _]. unfold pairs in P. rewrite (Permutation_length P). simpl. lia. }
    destruct (IH t1 W1) as (t2 & E2 & W2 & V2 & P2).
    + eapply Permutation_NoDup; [|exact ND]. rewrite P. simpl. symmetry. apply Permutation_middle.
    + intros y Hy. rewrite V1. apply Hlt. right. auto.
    + rewrite N1, V1. lia.
    + exists t2. split; auto. split; auto. split; [congruence|].
      rewrite P2, P. simpl. apply Permutation_middle.
Qed.

Lemma shrink_ok fuel : forall t, wf t -> t_lg t <= fuel + 2 ->
  exists t', shrink fuel t = Ok t' /\ wf t' /\ t_vb t' = t_vb t /\ Permutation (pairs t') (pairs t).
Proof.
  induction fuel as [|f IH]; intros t W Hf; unfold shrink; fold shrink.
  - destruct (Nat.ltb_spec 2 (t_lg t)); [lia|]. rewrite andb_false_r. exists t. auto.
  - destruct ((4 * t_n t <? 1 * 2 ^ t_lg t) && (2 <? t_lg t)) eqn:C; [|exists t; auto].
    apply andb_true_iff in C. destruct C as [C1 C2]. apply Nat.ltb_lt in C1, C2.
    pose proof W as [[Sl Sn Slt Sr] Wn Wl Wv Wo].
    assert (PP : 2 ^ t_lg t = 2 * 2 ^ (t_lg t - 1)) by (rewrite <- Nat.pow_succ_r'; f_equal; lia).
    destruct (rebuild_with_ok 1 t (t_lg t - 1)) as (t1 & E & W1 & V1 & L1 & P1); auto; try lia.
    unfold rebuild. change (maybe_insert) with (insert_fuel 2). rewrite E. cbn [bindr].
    destruct (IH t1 W1) as (t2 & E2 & W2 & V2 & P2); [lia|].
    exists t2. split; auto. split; auto. split; [congruence|]. rewrite P2. auto.
Qed.

(** The run emptied by drain. *)
Definition in_run (size q m i : nat) : Prop := exists a, a < m /\ i = (q + a) mod size.

Lemma classic_run size q m i : in_run size q m i \/ ~ in_run size q m i.
Proof.
  induction m as [|m IH]; [right; intros (a & ? & _); lia|].
  destruct IH as [(a & Ha & E)|N]; [left; exists a; split; auto|].
  destruct (Nat.eq_dec i ((q + m) mod size)) as [->|Ne]; [left; exists m; auto|].
  right. intros (a & Ha & E). destruct (Nat.eq_dec a m) as [->|]; [auto|]. apply N. exists a. split; [lia|auto].
Qed.

Lemma drain_ok (size : nat) E fuel : forall s q n acc, length s = size -> 0 < size -> q < size ->
  nth_error s ((q + E) mod size) = Some None -> E < size -> E <= fuel -> length (somes s) <= n ->
  exists s' m items, drain fuel s size q n acc = Ok (s', n - length items, acc ++ items) /\
    length s' = size /\ m <= E /\
    nth_error s ((q + m) mod size) = Some None /\
    (forall i, in_run size q m i -> occ s i) /\
    (forall i, in_run size q m i -> nth_error s' i = Some None) /\
    (forall i, ~ in_run size q m i -> nth_error s' i = nth_error s i) /\
    Permutation (somes s) (items ++ somes s').
Proof.
  revert E. induction fuel as [|f IH]; intros E s q n acc Hl Hs Hq He HE Hf Hn.
  - assert (E = 0) by lia. subst E. rewrite Nat.add_0_r, Nat.mod_small in He by auto.
    cbn [drain]. rewrite He. exists s, 0, []. rewrite app_nil_r, Nat.sub_0_r. cbn [length]. 
    split; auto. split; auto. split; auto. split; [rewrite Nat.add_0_r, Nat.mod_small; auto|].
    split; [intros i (a & ? & _); lia|]. split; [intros i (a & ? & _); lia|]. split; auto.
  - cbn [drain]. destruct (nth_error s q) as [[y|]|] eqn:Q; [| |apply nth_error_None in Q; lia].
    + assert (E <> 0). { intros ->. rewrite Nat.add_0_r, Nat.mod_small in He by auto. congruence. }
      pose proof (somes_upd_out s q y Q) as P.
      assert (Lq : q < length s) by lia.
      assert (Len : length (somes s) = S (length (somes (upd q None s)))) by (rewrite (Permutation_length P); auto).
      assert (He' : nth_error (upd q None s) ((q + E) mod size) = Some None).
      { rewrite nth_error_upd. destruct (Nat.eqb_spec q ((q + E) mod size)); auto. destruct (Nat.ltb_spec q (length s)); auto; lia. }
      assert (Ne : (q + E) mod size <> q). { intros Z. rewrite Z in He. congruence. }
      destruct (IH (E - 1) (upd q None s) ((q + 1) mod size) (n - 1) (acc ++ [y])) as (s' & m & items & Ed & L' & Hm & Hem & Ho & Hr & Hn' & HP).
      { rewrite upd_length. auto. } { auto. } { apply Nat.mod_upper_bound. lia. }
      { rewrite mod_step by auto. replace (q + 1 + (E - 1)) with (q + E) by lia. auto. } { lia. } { lia. } { lia. }
      assert (RS : forall i, in_run size q (S m) i <-> i = q \/ in_run size ((q + 1) mod size) m i).
      { intros i. split.
        - intros (a & Ha & ->). destruct a as [|a]; [left; rewrite Nat.add_0_r; apply Nat.mod_small; auto|].
          right. exists a. split; [lia|]. rewrite mod_step by auto. f_equal. lia.
        - intros [->|(a & Ha & ->)].
          + exists 0. split; [lia|]. rewrite Nat.add_0_r. symmetry. apply Nat.mod_small. auto.
          + exists (S a). split; [lia|]. rewrite mod_step by auto. f_equal. lia. }
      assert (NQ : ~ in_run size ((q + 1) mod size) m q).
      { intros (a & Ha & Eq). rewrite mod_step in Eq by auto. replace (q + 1 + a) with (q + (1 + a)) in Eq by lia.
        assert (Z : (q + 0) mod size = (q + (1 + a)) mod size) by (rewrite Nat.add_0_r, (Nat.mod_small q) by auto; auto).
        apply mod_inj in Z; lia. }
      exists s', (S m), (y :: items). split.
      { rewrite Ed. cbn [length]. replace (n - 1 - length items) with (n - S (length items)) by lia. rewrite <- app_assoc. reflexivity. }
      split; auto. split; [lia|]. split.
      { rewrite mod_step in Hem by auto. replace (q + 1 + m) with (q + S m) in Hem by lia.
        rewrite nth_error_upd in Hem. destruct (Nat.eqb_spec q ((q + S m) mod size)) as [Z|Z]; auto.
        exfalso. assert (W : (q + 0) mod size = (q + S m) mod size) by (rewrite Nat.add_0_r, (Nat.mod_small q) by auto; auto).
        apply mod_inj in W; lia. }
      split.
      { intros i Hi. apply RS in Hi. destruct Hi as [->|Hi]; [exists y; auto|].
        destruct (Ho _ Hi) as [z Hz]. apply at_upd in Hz; auto. destruct Hz as [[_ ?]|[_ Hz]]; [discriminate|exists z; auto]. }
      split.
      { intros i Hi. apply RS in Hi. destruct Hi as [->|Hi]; auto. rewrite Hn' by auto. rewrite nth_error_upd_eq; auto. }
      split.
      { intros i Hi. rewrite Hn'; [|intros Z; apply Hi; apply RS; auto]. apply nth_error_upd_neq. intros ->. apply Hi. apply RS. auto. }
      rewrite P. simpl. constructor. auto.
    + exists s, 0, []. rewrite app_nil_r, Nat.sub_0_r. cbn [length].
      split; auto. split; auto. split; [lia|]. split; [rewrite Nat.add_0_r, Nat.mod_small; auto|].
      split; [intros i (a & ? & _); lia|]. split; [intros i (a & ? & _); lia|]. split; auto.
Qed.

Lemma nodup_app_r {A} (l m : list A) : NoDup (l ++ m) -> NoDup m.
Proof. induction l; simpl; auto. intros H. inversion H; auto. Qed.
Lemma nodup_app_l {A} (l m : list A) : NoDup (l ++ m) -> NoDup l.
Proof. intros H. apply (nodup_app_r m). eapply Permutation_NoDup; [apply Permutation_app_comm|auto]. Qed.

(** Items left by the drain are still reachable: the emptied run ends at an empty slot. *)
Lemma wfs_drained vb lg s s' q m : wfs vb lg s -> length s' = 2 ^ lg -> m <= 2 ^ lg -> q < 2 ^ lg ->
  nth_error s ((q + m) mod 2 ^ lg) = Some None \/ (m = 2 ^ lg) ->
  (forall i, in_run (2 ^ lg) q m i -> nth_error s' i = Some None) ->
  (forall i, ~ in_run (2 ^ lg) q m i -> nth_error s' i = nth_error s i) ->
  (exists l, Permutation (somes s) (l ++ somes s')) -> wfs vb lg s'.
Proof.
  intros [Hl Hnd Hlt Hr] Hl' Hm Hq He Hin Hout (l & HP). pose proof (pow2_pos lg) as Hs.
  constructor; auto.
  - apply (nodup_app_r l). eapply Permutation_NoDup; [exact HP|auto].
  - intros x Hx. apply Hlt. eapply Permutation_in; [symmetry; exact HP|]. apply in_or_app. auto.
  - intros i x Hi.
    assert (NR : ~ in_run (2 ^ lg) q m i) by (intros R; apply Hin in R; unfold at_ in Hi; congruence).
    assert (Ai : at_ s i x) by (unfold at_ in *; rewrite <- Hout; auto).
    destruct (Hr _ _ Ai) as (D & HD & Ei & HO).
    exists D. split; auto. split; auto. intros d Hd.
    destruct (HO d Hd) as [z Hz]. exists z. unfold at_ in *. rewrite Hout; auto.
    intros (a & Ha & Ea). apply NR.
    (* position of i relative to q *)
    set (h := hm vb lg x) in *. set (sz := 2 ^ lg) in *.
    assert (Rel : forall k, (h + (d + k)) mod sz = (q + (a + k)) mod sz).
    { intros k. replace (h + (d + k)) with (h + d + k) by lia. rewrite <- (mod_step sz (h + d) k) by auto. rewrite Ea.
      rewrite mod_step by auto. f_equal. lia. }
    destruct He as [He|He].
    + (* the empty slot is at distance m - a from position d of the path *)
      destruct (Nat.lt_trichotomy (d + (m - a)) D) as [L|[L|L]].
      * exfalso. destruct (HO _ L) as [w Hw]. rewrite Rel in Hw. replace (a + (m - a)) with m in Hw by lia. unfold at_ in Hw. congruence.
      * exfalso. rewrite <- L in Ei. rewrite Rel in Ei. replace (a + (m - a)) with m in Ei by lia. subst i. congruence.
      * exists (a + (D - d)). split; [lia|]. rewrite <- Rel. rewrite Ei. f_equal. lia.
    + subst m. destruct (mod_dist sz q i Hs) as (A & HA & EA).
      { rewrite Ei. apply Nat.mod_upper_bound. lia. }
      exists A. split; auto.
Qed.

Lemma maybe_delete_ok t x : wf t -> (x < 2 ^ N.of_nat (t_vb t))%N ->
  exists t' b, maybe_delete t x = Ok (t', b) /\ wf t' /\ t_vb t' = t_vb t /\
    (b = false -> ~ In x (pairs t) /\ t' = t) /\
    (b = true -> Permutation (pairs t) (x :: pairs t')).
Proof.
  intros W Hx. pose proof W as [Ws Wn Wl Wv Wo]. destruct t as [lg vb n s]; cbn [t_lg t_vb t_n t_slots] in *.
  pose proof (pow2_pos lg) as Hs.
  destruct (lookup_spec vb lg n s x Ws Wv Hx) as (p & HL & Hp & HC); [lia|].
  unfold maybe_delete. rewrite HL. cbn [bindr t_lg t_vb t_n t_slots]. unfold pairs; cbn [t_slots].
  destruct HC as [[Ha Hin]|(He & Hni & Hr)].
  2: { rewrite He. eexists _, false. split; [reflexivity|]. split; auto. cbn [t_vb]. split; auto. split; [auto|discriminate]. }
  pose proof Ha as Ha'. unfold at_ in Ha'. rewrite Ha'.
  pose proof (ws_len _ _ _ Ws) as Hl.
  pose proof (somes_upd_out s p x Ha') as P.
  assert (Len : length (somes s) = S (length (somes (upd p None s)))) by (rewrite (Permutation_length P); auto).
  assert (PE : nth_error (upd p None s) p = Some None) by (rewrite nth_error_upd_eq; auto; lia).
  destruct (drain_ok (2 ^ lg) (2 ^ lg - 1) (2 ^ lg) (upd p None s) ((p + 1) mod 2 ^ lg) (n - 1) []) as (s' & m & items & Ed & L' & Hm & Hem & Ho & Hr & Hn' & HP).
  { rewrite upd_length. auto. } { auto. } { apply Nat.mod_upper_bound. lia. }
  { rewrite mod_step by auto. replace (p + 1 + (2 ^ lg - 1)) with (p + 1 * 2 ^ lg) by lia. rewrite Nat.mod_add by lia. rewrite Nat.mod_small by auto. auto. }
  { lia. } { lia. } { lia. }
  cbn [app] in Ed. rewrite Ed. cbn [bindr].
  assert (RS : forall i, in_run (2 ^ lg) p (S m) i <-> i = p \/ in_run (2 ^ lg) ((p + 1) mod 2 ^ lg) m i).
  { intros i. split.
    - intros (a & Hb & ->). destruct a as [|a]; [left; rewrite Nat.add_0_r; apply Nat.mod_small; auto|].
      right. exists a. split; [lia|]. rewrite mod_step by auto. f_equal. lia.
    - intros [->|(a & Hb & ->)].
      + exists 0. split; [lia|]. rewrite Nat.add_0_r. symmetry. apply Nat.mod_small. auto.
      + exists (S a). split; [lia|]. rewrite mod_step by auto. f_equal. lia. }
  assert (Lp : p < length s) by lia.
  assert (W' : wfs vb lg s').
  { apply (wfs_drained vb lg s s' p (S m)); auto; try lia.
    - destruct (Nat.eq_dec (S m) (2 ^ lg)) as [Z|Z]; [right; auto|left].
      rewrite mod_step in Hem by auto. replace (p + 1 + m) with (p + S m) in Hem by lia.
      rewrite nth_error_upd in Hem. destruct (Nat.eqb_spec p ((p + S m) mod 2 ^ lg)) as [Q|Q]; auto.
      exfalso. assert (Y : (p + 0) mod 2 ^ lg = (p + S m) mod 2 ^ lg) by (rewrite Nat.add_0_r, (Nat.mod_small p) by auto; auto).
      apply mod_inj in Y; lia.
    - intros i Hi. apply RS in Hi. destruct Hi as [->|Hi]; auto.
      destruct (classic_run (2 ^ lg) ((p + 1) mod 2 ^ lg) m p) as [C|C]; [auto|].
      rewrite Hn' by auto. auto.
    - intros i Hi. rewrite Hn'; [|intros Z; apply Hi; apply RS; auto]. apply nth_error_upd_neq. intros ->. apply Hi. apply RS. auto.
    - exists (x :: items). rewrite P. simpl. constructor. auto. }
  assert (PN : Permutation (somes s) (x :: items ++ somes s')) by (rewrite P; constructor; auto).
  assert (LL : n = S (length items + length (somes s'))) by (rewrite Wn, (Permutation_length PN); simpl; rewrite app_length; lia).
  assert (WT : wf (mkTable lg vb (n - 1 - length items) s')).
  { constructor; cbn [t_lg t_vb t_n t_slots]; auto; lia. }
  destruct (insert_all_ok items (mkTable lg vb (n - 1 - length items) s')) as (t1 & E1 & W1 & V1 & P1); auto.
  { unfold pairs. cbn [t_slots]. destruct Ws as [_ ND _ _]. apply (Permutation_NoDup PN) in ND. inversion ND as [|? ? ? ND']; subst.
    eapply Permutation_NoDup; [apply Permutation_app_comm|auto]. }
  { cbn [t_vb]. intros y Hy. destruct Ws as [_ _ Lt _]. apply Lt. eapply Permutation_in; [symmetry; exact PN|]. right. apply in_or_app. auto. }
  { cbn [t_n t_vb]. apply room_min; [lia|]. pose proof (Nat.pow_le_mono_r 2 lg (Nat.min 26 vb) ltac:(lia) ltac:(lia)). lia. }
  rewrite E1. cbn [bindr].
  destruct (shrink_ok 26 t1 W1) as (t2 & E2 & W2 & V2 & P2).
  { destruct W1 as [_ _ Q _ _]. lia. }
  rewrite E2. cbn [bindr]. cbn [t_vb] in V1.
  eexists _, true. split; [reflexivity|]. split; auto. split; [congruence|]. split; [discriminate|]. intros _.
  unfold pairs in P1, P2. cbn [t_slots] in P1. rewrite PN. constructor. rewrite P2, P1. apply Permutation_app_comm.
Qed.

Lemma maybe_insert_present t x : wf t -> In x (pairs t) -> maybe_insert t x = Ok (t, false).
Proof.
  intros W Hin. pose proof W as [Ws Wn Wl Wv Wo]. destruct t as [lg vb n s]; cbn [t_lg t_vb t_n t_slots] in *.
  pose proof (pow2_pos lg) as Hs. unfold pairs in Hin; cbn [t_slots] in Hin.
  destruct (lookup_spec vb lg n s x Ws Wv) as (p & HL & Hp & HC); [apply (ws_lt _ _ _ Ws); auto|lia|].
  unfold maybe_insert. cbn [insert_fuel]. rewrite HL. cbn [bindr t_slots].
  destruct HC as [[Ha _]|(_ & Hni & _)]; [|tauto]. unfold at_ in Ha. rewrite Ha. auto.
Qed.

Lemma pairs_nodup t : wf t -> NoDup (pairs t).
Proof. intros [[_ H _ _] _ _ _ _]. auto. Qed.
Lemma pairs_n t : wf t -> t_n t = length (pairs t).
Proof. intros [_ H _ _ _]. auto. Qed.
Lemma pairs_lt t x : wf t -> In x (pairs t) -> (x < 2 ^ N.of_nat (t_vb t))%N.
Proof. intros [[_ _ H _] _ _ _ _]. apply H. Qed.

Lemma clear_wf t : wf t -> wf (clear_table t) /\ t_vb (clear_table t) = t_vb t /\ pairs (clear_table t) = [].
Proof.
  intros [Ws Wn Wl Wv Wo]. unfold clear_table, pairs; cbn [t_slots t_vb]. rewrite somes_repeat. split; [|auto].
  constructor; cbn [t_slots t_vb t_lg t_n]; auto; try lia.
  - rewrite (ws_len _ _ _ Ws). apply wfs_new.
  - rewrite somes_repeat. auto.
Qed.
