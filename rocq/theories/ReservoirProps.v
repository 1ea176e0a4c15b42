(** * Reservoir sampling: C36 (size and membership), C37 (uniformity), C38 (union), serialization. *)
From Verif Require Import Base Bytes ListX ReservoirModel.
Local Open Scope N_scope.

(** ** Specification vocabulary *)
(** [sampled l xs]: [l] consists of elements of [xs] taken at distinct positions. *)
Definition sampled {T} (l xs : list T) : Prop := exists rest, Permutation xs (l ++ rest).

Lemma sampled_refl {T} (l : list T) : sampled l l.
Proof. exists []. rewrite app_nil_r. apply Permutation_refl. Qed.
Lemma sampled_trans {T} (a b c : list T) : sampled a b -> sampled b c -> sampled a c.
Proof. intros [r Hr] [q Hq]. exists (r ++ q). rewrite Hq, Hr, app_assoc. apply Permutation_refl. Qed.
Lemma sampled_app {T} (a b c d : list T) : sampled a b -> sampled c d -> sampled (a ++ c) (b ++ d).
Proof.
  intros [r Hr] [q Hq]. exists (r ++ q). rewrite Hr, Hq, <- !app_assoc. apply Permutation_app_head.
  rewrite !app_assoc. apply Permutation_app_tail. apply Permutation_app_comm.
Qed.
Lemma sampled_perm {T} (a b c : list T) : sampled a b -> Permutation b c -> sampled a c.
Proof. intros [r Hr] Hp. exists r. rewrite <- Hp. exact Hr. Qed.
Lemma sampled_left {T} (a b : list T) : sampled a (a ++ b).
Proof. exists b. apply Permutation_refl. Qed.
Lemma sampled_in {T} (l xs : list T) x : sampled l xs -> In x l -> In x xs.
Proof. intros [r Hr] H. apply (Permutation_in x (Permutation_sym Hr)). apply in_or_app. auto. Qed.
Lemma upd_sampled {T} i (x : T) l : (i < length l)%nat -> sampled (upd i x l) (l ++ [x]).
Proof.
  intros H. destruct (nth_error l i) as [y|] eqn:E; [|apply nth_error_None in E; lia]. exists [y].
  rewrite upd_app_split by auto. rewrite (nth_error_split' _ _ _ E) at 1. rewrite <- !app_assoc. apply Permutation_app_head. simpl.
  transitivity (y :: x :: skipn (S i) l); [apply perm_skip; symmetry; apply Permutation_cons_append|].
  transitivity (x :: y :: skipn (S i) l); [apply perm_swap|]. apply perm_skip. apply Permutation_cons_append.
Qed.

Section Props.
Context {T : Type}.
Variable growcap : list T -> N -> N -> N.
(** Go's slices.Grow and append return at least the requested capacity. *)
Hypothesis growcap_ok : forall d c r, r <= growcap d c r.
Notation res := (@res T).

(** The sketches a program can hold, with the stream seen since the last Reset. *)
Inductive made : res -> list T -> Prop :=
| made_new k0 rf0 s : res_new k0 rf0 = Some s -> made s []
| made_update s xs d x s' : made s xs -> res_update growcap s d x = Some s' -> made s' (xs ++ [x])
| made_reset s xs : made s xs -> made (res_reset s) [].

(** What holds of every sketch, including the gadget of a union. *)
Definition WF (s : res) : Prop :=
  2 <= k s /\ N.of_nat (length (data s)) = N.min (n s) (k s) /\ 1 <= cap s /\ n s <= max_items_seen /\ N.of_nat (length (data s)) <= cap s.

Lemma initial_cap_pos k0 rf0 : 2 <= k0 -> 1 <= initial_cap k0 rf0.
Proof. clear growcap growcap_ok.
  intros. unfold initial_cap, adjusted. set (e := starting_sub_multiple _ _ _). assert (2 ^ e <> 0) by (apply N.pow_nonzero; lia).
  destruct (N.ltb_spec k0 (2 * 2 ^ e)); lia.
Qed.

Lemma new_WF k0 rf0 s : res_new k0 rf0 = Some s -> WF s /\ k s = k0 /\ n s = 0 /\ data s = [].
Proof. clear growcap growcap_ok.
  unfold res_new. destruct (N.ltb_spec k0 2); [discriminate|]. intros E. injection E as <-. unfold WF. cbn [k n data cap length].
  pose proof (initial_cap_pos k0 rf0 H). unfold max_items_seen. repeat split; try lia.
Qed.

Lemma new_some k0 rf0 : 2 <= k0 -> exists s, res_new (T:=T) k0 rf0 = Some s.
Proof. clear growcap growcap_ok. intros. unfold res_new. destruct (N.ltb_spec k0 2); [lia|]. eauto. Qed.

Lemma update_some s d x : WF s -> n s < max_items_seen -> exists s', res_update growcap s d x = Some s'.
Proof.
  intros (Hk & Hl & Hc & Hm & Hlc) Hn. unfold res_update.
  destruct (N.eqb_spec (n s) max_items_seen) as [|Hne]; [lia|]. destruct (N.ltb_spec (n s) (k s)) as [Hnk|Hnk].
  - match goal with |- context [?c <=? n s] => match c with (if _ then _ else _) => set (c0 := c) end end. assert (Hc0 : n s < c0).
    { unfold c0. destruct (N.leb_spec (cap s) (n s)); [|lia].
      pose proof (growcap_ok (data s) (cap s) (N.of_nat (length (data s)) + adjusted (k s) (cap s * 2 ^ rf s))) as G.
      assert (1 <= adjusted (k s) (cap s * 2 ^ rf s)).
      { unfold adjusted. assert (2 ^ rf s <> 0) by (apply N.pow_nonzero; lia). destruct (N.ltb_spec (k s) (2 * (cap s * 2 ^ rf s))); nia. }
      lia. }
    destruct (N.leb_spec c0 (n s)); [lia|]. eauto.
  - destruct (N.ltb_spec (d mod (n s + 1)) (k s)); [|eauto].
    destruct (N.ltb_spec (d mod (n s + 1)) (N.of_nat (length (data s)))); [eauto|lia].
Qed.

Lemma update_WF s d x s' : WF s -> res_update growcap s d x = Some s' ->
  WF s' /\ k s' = k s /\ n s' = n s + 1 /\ sampled (data s') (data s ++ [x]) /\ (n s < k s -> data s' = data s ++ [x]).
Proof.
  intros (Hk & Hl & Hc & Hm & Hlc). unfold res_update.
  destruct (N.eqb_spec (n s) max_items_seen) as [|Hne]; [discriminate|]. destruct (N.ltb_spec (n s) (k s)) as [Hnk|Hnk].
  - match goal with |- context [?c <=? n s] => match c with (if _ then _ else _) => set (c0 := c) end end.
    destruct (N.leb_spec c0 (n s)); [discriminate|]. intros E. injection E as <-. unfold WF. cbn [k n data cap].
    rewrite app_length. cbn [length]. repeat split; try lia.
    + destruct (N.ltb_spec (N.of_nat (length (data s))) c0); [lia|].
      pose proof (growcap_ok (data s) c0 (N.of_nat (length (data s)) + 1)). lia.
    + destruct (N.ltb_spec (N.of_nat (length (data s))) c0); [lia|].
      pose proof (growcap_ok (data s) c0 (N.of_nat (length (data s)) + 1)). lia.
    + apply sampled_refl.
  - set (j := d mod (n s + 1)). destruct (N.ltb_spec j (k s)).
    + destruct (N.ltb_spec j (N.of_nat (length (data s)))); [|discriminate]. intros E. injection E as <-. unfold WF. cbn [k n data cap].
      rewrite upd_length. repeat split; try lia. apply upd_sampled. lia.
    + intros E. injection E as <-. unfold WF. cbn [k n data cap]. repeat split; try lia. apply sampled_left.
Qed.

Lemma reset_WF s : WF s -> WF (res_reset s).
Proof.
  intros (Hk & Hl & Hc & Hm & Hlc). unfold WF, res_reset. cbn [k n data cap length]. pose proof (initial_cap_pos (k s) (rf s) Hk).
  unfold max_items_seen. repeat split; lia.
Qed.

Lemma made_inv s xs : made s xs -> WF s /\ n s = N.of_nat (length xs) /\ sampled (data s) xs /\ (n s <= k s -> data s = xs).
Proof.
  induction 1 as [k0 rf0 s H|s xs d x s' H IH E|s xs H IH].
  - destruct (new_WF _ _ _ H) as (Hw & _ & Hn & Hd). rewrite Hn, Hd. repeat split; auto using sampled_refl; apply Hw.
  - destruct IH as (Hw & Hn & Hs & Hx). destruct (update_WF _ _ _ _ Hw E) as (Hw' & Hk' & Hn' & Hs' & Hx').
    split; auto. split; [rewrite app_length; cbn [length]; lia|]. split.
    + eapply sampled_trans; [exact Hs'|]. apply sampled_app; auto using sampled_refl.
    + intros Hle. rewrite Hx' by lia. rewrite Hx by lia. auto.
  - split; [apply reset_WF; apply IH|]. cbn [res_reset n data k length]. repeat split; auto using sampled_refl.
Qed.

(** ** C36: a sketch never fails below the documented limit of 2^48-1 items, it always holds min(n,k) items, n is the number of
    items seen, the items are items of the stream at distinct positions, and up to k items it is the whole stream in order. *)
Theorem reservoir_update_never_fails s xs d x : made s xs -> N.of_nat (length xs) < max_items_seen ->
  exists s', res_update growcap s d x = Some s' /\ made s' (xs ++ [x]).
Proof.
  intros H Hn. destruct (made_inv _ _ H) as (Hw & Hnn & _). destruct (update_some s d x Hw) as [s' E]; [lia|].
  exists s'. split; auto. eapply made_update; eauto.
Qed.

Theorem reservoir_size s xs : made s xs -> n s = N.of_nat (length xs) /\ N.of_nat (length (samples s)) = N.min (N.of_nat (length xs)) (k s).
Proof. intros H. destruct (made_inv _ _ H) as ((_ & Hl & _) & Hn & _). unfold samples. split; lia. Qed.

Theorem reservoir_members s xs : made s xs -> sampled (samples s) xs.
Proof. intros H. apply (made_inv _ _ H). Qed.

Theorem reservoir_whole_stream s xs : made s xs -> N.of_nat (length xs) <= k s -> samples s = xs.
Proof. intros H Hle. destruct (made_inv _ _ H) as (_ & Hn & _ & Hx). apply Hx. lia. Qed.

(** k is the one given to the constructor, whatever happens. *)
Inductive made_k (k0 : N) : res -> Prop :=
| mk_new rf0 s : res_new k0 rf0 = Some s -> made_k k0 s
| mk_update s d x s' : made_k k0 s -> res_update growcap s d x = Some s' -> made_k k0 s'
| mk_reset s : made_k k0 s -> made_k k0 (res_reset s).
Theorem reservoir_k_constant k0 s : made_k k0 s -> k s = k0 /\ 2 <= k0.
Proof.
  intros H. assert (G : WF s /\ k s = k0).
  { induction H as [rf0 s H|s d x s' H IH E|s H IH].
    - destruct (new_WF _ _ _ H) as (? & ? & _). auto.
    - destruct IH as [Hw Hk]. destruct (update_WF _ _ _ _ Hw E) as (Hw' & Hk' & _). split; auto. congruence.
    - destruct IH. split; [apply reset_WF; auto|auto]. }
  destruct G as [(Hk2 & _) Hk]. split; auto. lia.
Qed.

Lemma update_all_some l : forall s dr i, WF s -> n s + N.of_nat (length l) <= max_items_seen ->
  exists s', res_update_all growcap s dr i l = Some s' /\ WF s' /\ k s' = k s /\ n s' = n s + N.of_nat (length l)
    /\ sampled (data s') (data s ++ l) /\ (n s + N.of_nat (length l) <= k s -> data s' = data s ++ l).
Proof.
  induction l as [|x l IH]; intros s dr i Hw Hn; cbn [res_update_all length] in *.
  - exists s. rewrite app_nil_r. repeat split; auto using sampled_refl; try lia; apply Hw.
  - destruct (update_some s (dr i) x Hw) as [s1 E]; [lia|]. destruct (update_WF _ _ _ _ Hw E) as (Hw1 & Hk1 & Hn1 & Hs1 & Hx1).
    destruct (IH s1 dr (S i) Hw1) as (s2 & E2 & Hw2 & Hk2 & Hn2 & Hs2 & Hx2); [lia|].
    exists s2. rewrite E. cbn [bindo]. split; auto. split; auto. split; [congruence|]. split; [lia|]. split.
    + eapply sampled_trans; [exact Hs2|]. change (x :: l) with ([x] ++ l). rewrite app_assoc. apply sampled_app; auto using sampled_refl.
    + intros Hle. rewrite Hx2 by lia. rewrite Hx1 by lia. rewrite <- app_assoc. auto.
Qed.

Lemma downsample_some s newK dr : WF s -> 2 <= newK ->
  exists s', downsampled_copy growcap s newK dr = Some s' /\ (newK < k s -> WF s') /\ k s' = newK /\ n s' = n s /\ sampled (data s') (data s).
Proof.
  intros Hw Hk. assert (Hw' := Hw). destruct Hw as (Hks & Hl & Hc & Hm & Hlc). unfold downsampled_copy, samples. destruct (new_some newK (rf s) Hk) as [r Hr].
  rewrite Hr. cbn [bindo]. destruct (new_WF _ _ _ Hr) as (Hwr & Hkr & Hnr & Hdr).
  destruct (update_all_some (data s) r dr 0 Hwr) as (r' & E & Hw2 & Hk2 & Hn2 & Hs2 & Hx2); [lia|].
  rewrite E. cbn [bindo]. rewrite Hdr in *. cbn [app] in *. destruct (N.ltb_spec (n r') (n s)).
  - unfold force_increment. destruct (N.ltb_spec max_items_seen (n r' + (n s - n r'))); [lia|]. eexists. split; [reflexivity|].
    destruct Hw2 as (Hk3 & Hl3 & Hc3 & Hm3 & Hlc3). unfold WF. cbn [k n data cap]. repeat split; auto; try lia.
  - exists r'. split; auto. split; auto. repeat split; auto; try lia.
Qed.

(** ** The union *)
(** The inputs a union has seen since it was made: single items and sketches (with their n). *)
Inductive umade (maxK : N) : runion -> N -> list T -> Prop :=
| um_new : umade maxK (union_new maxK) 0 []
| um_item u N0 ys d x u' : umade maxK u N0 ys -> union_update growcap u d x = Some u' -> umade maxK u' (N0 + 1) (ys ++ [x])
| um_sketch u N0 ys s c u' : umade maxK u N0 ys -> WF s -> union_update_sketch growcap u s c = Some u' ->
    umade maxK u' (N0 + n s) (ys ++ samples s).

Definition UWF (maxK : N) (u : runion) (N0 : N) (ys : list T) : Prop :=
  max_k u = maxK /\
  match gadget u with
  | None => N0 = 0
  | Some g => WF g /\ k g <= maxK /\ n g = N0 /\ sampled (data g) ys
  end.

Lemma weighted_loop_ok gk (src : list T) keep slot : forall cnt i gd, (i + cnt <= length src)%nat ->
  exists gd', weighted_loop cnt i gk gd src keep slot = Some gd' /\ length gd' = length gd /\ sampled gd' (gd ++ firstn cnt (skipn i src)).
Proof.
  induction cnt as [|cnt IH]; intros i gd Hi; cbn [weighted_loop].
  - exists gd. rewrite app_nil_r. auto using sampled_refl.
  - destruct (nth_error src i) as [x|] eqn:Ex; [|apply nth_error_None in Ex; lia].
    assert (Hsk : skipn i src = x :: skipn (S i) src).
    { clear - Ex. revert i Ex. induction src as [|y src IHs]; intros i Ex; destruct i; cbn in *; try discriminate; [injection Ex as ->; auto|]. rewrite IHs; auto. }
    rewrite Hsk. cbn [firstn]. destruct (keep i).
    + cbn [bindo]. set (gd1 := if _ <? _ then _ else _).
      assert (H1 : length gd1 = length gd /\ sampled gd1 (gd ++ [x])).
      { unfold gd1. destruct (N.ltb_spec (slot i mod gk) (N.of_nat (length gd))); [rewrite upd_length; split; auto; apply upd_sampled; lia|split; auto; apply sampled_left]. }
      destruct H1 as [H1 H2]. destruct (IH (S i) gd1) as (gd2 & E & Hl & Hs); [lia|]. exists gd2. split; auto. split; [congruence|].
      eapply sampled_trans; [exact Hs|]. change (x :: firstn cnt (skipn (S i) src)) with ([x] ++ firstn cnt (skipn (S i) src)).
      rewrite app_assoc. apply sampled_app; auto using sampled_refl.
    + destruct (IH (S i) gd) as (gd2 & E & Hl & Hs); [lia|]. exists gd2. split; auto. split; auto.
      eapply sampled_trans; [exact Hs|]. apply sampled_app; [apply sampled_refl|]. exists [x]. apply Permutation_cons_append.
Qed.

Lemma merge_weighted_ok g s keep slot : WF g -> WF s -> k s <= n s -> k g <= n g -> n g + n s <= max_items_seen ->
  exists g', merge_weighted g s keep slot = Some g' /\ WF g' /\ k g' = k g /\ n g' = n g + n s /\ sampled (data g') (data g ++ data s).
Proof.
  intros (Hk & Hl & Hc & Hm & Hlc) (Hk2 & Hl2 & Hc2 & Hm2 & Hlc2) Hs Hg Hn. unfold merge_weighted.
  destruct (weighted_loop_ok (k g) (data s) keep slot (N.to_nat (k s)) 0 (data g)) as (gd & E & Hlen & Hsm); [lia|].
  rewrite E. cbn [bindo]. unfold force_increment. cbn [n k rf data cap]. destruct (N.ltb_spec max_items_seen (n g + n s)); [lia|].
  eexists. split; [reflexivity|]. unfold WF. cbn [n k rf data cap]. rewrite Hlen. repeat split; auto; try lia.
  cbn [skipn] in Hsm. rewrite firstn_all2 in Hsm by lia. exact Hsm.
Qed.

Lemma two_way_ok g s c : WF g -> WF s -> n g + n s <= max_items_seen ->
  exists g', two_way_merge growcap g s c = Some g' /\ WF g' /\ (k g' = k g \/ k g' = k s) /\ n g' = n g + n s /\ sampled (data g') (data g ++ data s).
Proof.
  intros Hg Hs Hn. assert (Hg0 := Hg). assert (Hs0 := Hs). destruct Hg0 as (Hk & Hl & Hc & Hm & Hlc). destruct Hs0 as (Hk2 & Hl2 & Hc2 & Hm2 & Hlc2). unfold two_way_merge, merge_standard, samples.
  destruct (N.leb_spec (n s) (k s)).
  - destruct (update_all_some (data s) g (c_draw c) 0 Hg) as (g' & E & Hw & Hk' & Hn' & Hs' & _); [lia|]. exists g'. repeat split; auto; try lia; apply Hw.
  - destruct (N.ltb_spec (n g) (k g)).
    + destruct (update_all_some (data g) s (c_draw c) 0 Hs) as (g' & E & Hw & Hk' & Hn' & Hs' & _); [lia|]. exists g'. split; auto. split; auto. split; auto. split; [lia|].
      eapply sampled_perm; [exact Hs'|apply Permutation_app_comm].
    + destruct (c_light c).
      * destruct (merge_weighted_ok g s (c_keep c) (c_slot c)) as (g' & E & Hw & Hk' & Hn' & Hs'); auto; [lia|]. exists g'. auto.
      * destruct (merge_weighted_ok s g (c_keep c) (c_slot c)) as (g' & E & Hw & Hk' & Hn' & Hs'); auto; try lia. exists g'. split; auto. split; auto. split; auto. split; [lia|].
        eapply sampled_perm; [exact Hs'|apply Permutation_app_comm].
Qed.

Lemma union_update_ok maxK u N0 ys d x : 2 <= maxK -> UWF maxK u N0 ys -> N0 < max_items_seen ->
  exists u', union_update growcap u d x = Some u' /\ UWF maxK u' (N0 + 1) (ys ++ [x]).
Proof.
  intros HK [Hm Hg] HN. unfold union_update. destruct (gadget u) as [g|] eqn:Eg.
  - cbn [bindo]. destruct Hg as (Hw & Hk & Hn & Hs). destruct (update_some g d x Hw) as [g' E]; [lia|]. rewrite E. cbn [bindo].
    destruct (update_WF _ _ _ _ Hw E) as (Hw' & Hk' & Hn' & Hs' & _). eexists. split; [reflexivity|]. split; auto. cbn [gadget].
    split; auto. split; [lia|]. split; [lia|]. eapply sampled_trans; [exact Hs'|]. apply sampled_app; auto using sampled_refl.
  - subst N0. destruct (new_some maxK 3 HK) as [g Hg]. rewrite Hm, Hg. cbn [bindo]. destruct (new_WF _ _ _ Hg) as (Hw & Hk & Hn & Hd).
    destruct (update_some g d x Hw) as [g' E]; [rewrite Hn; exact HN|]. rewrite E. cbn [bindo].
    destruct (update_WF _ _ _ _ Hw E) as (Hw' & Hk' & Hn' & Hs' & _). eexists. split; [reflexivity|]. split; auto. cbn [gadget].
    split; auto. split; [lia|]. split; [lia|]. rewrite Hd in Hs'. eapply sampled_trans; [exact Hs'|].
    exists ys. cbn. apply Permutation_app_comm.
Qed.

Lemma union_sketch_ok maxK u N0 ys s c : 2 <= maxK -> UWF maxK u N0 ys -> WF s -> N0 + n s <= max_items_seen ->
  exists u', union_update_sketch growcap u s c = Some u' /\ UWF maxK u' (N0 + n s) (ys ++ samples s).
Proof.
  intros HK [Hm Hg] Hs HN. unfold union_update_sketch, samples. rewrite Hm.
  assert (HR : exists r, (if maxK <? k s then downsampled_copy growcap s maxK (c_down c) else Some s) = Some r /\ WF r /\ k r <= maxK /\ n r = n s /\ sampled (data r) (data s)).
  { destruct (N.ltb_spec maxK (k s)).
    - destruct (downsample_some s maxK (c_down c) Hs HK) as (r & E & Hw & Hk & Hn & Hsm). exists r. repeat split; auto; try lia; apply Hw; auto.
    - exists s. repeat split; auto using sampled_refl; apply Hs. }
  destruct HR as (r & E & Hw & Hk & Hn & Hsm). rewrite E. cbn [bindo]. destruct (gadget u) as [g|] eqn:Eg.
  - destruct Hg as (Hwg & Hkg & Hng & Hsg). destruct (two_way_ok g r c Hwg Hw) as (g' & E2 & Hw' & Hk' & Hn' & Hs'); [lia|].
    rewrite E2. cbn [bindo]. eexists. split; [reflexivity|]. split; auto. cbn [gadget]. split; auto. split; [destruct Hk'; lia|]. split; [lia|].
    eapply sampled_trans; [exact Hs'|]. apply sampled_app; auto.
  - subst N0. unfold create_new_gadget. destruct ((k r <? maxK) && (n r <=? k r)) eqn:Eb.
    + destruct (new_some maxK 3 HK) as [g Hg]. rewrite Hg. cbn [bindo]. destruct (new_WF _ _ _ Hg) as (Hwg & Hkg & Hng & Hdg).
      destruct (two_way_ok g r c Hwg Hw) as (g' & E2 & Hw' & Hk' & Hn' & Hs'); [lia|]. rewrite E2. cbn [bindo]. eexists. split; [reflexivity|].
      split; auto. cbn [gadget]. split; auto. split; [destruct Hk'; lia|]. split; [lia|]. rewrite Hdg in Hs'. cbn [app] in Hs'.
      eapply sampled_trans; [exact Hs'|]. eapply sampled_trans; [exact Hsm|]. exists ys. apply Permutation_app_comm.
    + cbn [bindo]. eexists. split; [reflexivity|]. split; auto. cbn [gadget]. split; auto. split; auto. split; auto.
      eapply sampled_trans; [exact Hsm|]. exists ys. apply Permutation_app_comm.
Qed.

Lemma umade_inv maxK u N0 ys : 2 <= maxK -> umade maxK u N0 ys -> UWF maxK u N0 ys.
Proof.
  intros HK. induction 1 as [|u N0 ys d x u' H IH E|u N0 ys s c u' H IH Hs E].
  - split; auto. reflexivity.
  - destruct (N.lt_ge_cases N0 max_items_seen) as [Hlt|Hge].
    + destruct (union_update_ok maxK u N0 ys d x HK IH Hlt) as (u2 & E2 & Hw). congruence.
    + exfalso. revert E. destruct IH as [Hm Hg]. unfold union_update. destruct (gadget u) as [g|].
      * cbn [bindo]. destruct Hg as (Hw & Hk & Hn & _). unfold res_update. destruct Hw as (_ & _ & _ & Hmx & _).
        destruct (N.eqb_spec (n g) max_items_seen) as [|Hne]; [cbn [bindo]; discriminate|lia].
      * subst N0. unfold max_items_seen in Hge. lia.
  - destruct (N.le_gt_cases (N0 + n s) max_items_seen) as [Hle|Hgt].
    + destruct (union_sketch_ok maxK u N0 ys s c HK IH Hs Hle) as (u2 & E2 & Hw). congruence.
    + (* the call must have failed *)
      exfalso. revert E. destruct IH as [Hm Hg]. unfold union_update_sketch, samples. rewrite Hm.
      assert (HR : exists r, (if maxK <? k s then downsampled_copy growcap s maxK (c_down c) else Some s) = Some r /\ WF r /\ k r <= maxK /\ n r = n s).
      { destruct (N.ltb_spec maxK (k s)).
        - destruct (downsample_some s maxK (c_down c) Hs HK) as (r & E & Hw & Hk & Hn & Hsm). exists r. repeat split; auto; try lia; apply Hw; auto.
        - exists s. repeat split; auto; apply Hs. }
      destruct HR as (r & E & Hw & Hk & Hn). rewrite E. cbn [bindo]. destruct (gadget u) as [g|] eqn:Eg.
      2:{ subst N0. destruct Hs as (_ & _ & _ & Hmx & _). lia. }
      destruct Hg as (Hwg & Hkg & Hng & _).
      assert (Hover : forall l q dr i, WF q -> n q + N.of_nat (length l) > max_items_seen -> res_update_all growcap q dr i l = None).
      { clear -growcap_ok. induction l as [|x l IH]; intros q dr i Hq Hn; cbn [res_update_all length] in *; [destruct Hq as (_ & _ & _ & Hq & _); lia|].
        destruct (res_update growcap q (dr i) x) as [q'|] eqn:E; cbn [bindo]; auto.
        destruct (update_WF _ _ _ _ Hq E) as (Hq' & _ & Hn' & _). apply IH; auto. lia. }
      assert (Hwo : forall a b ke sl, WF a -> WF b -> n a + n b > max_items_seen -> merge_weighted a b ke sl = None).
      { clear. intros a b ke sl Ha Hb Hab. unfold merge_weighted. destruct (weighted_loop _ _ _ _ _ _ _) as [gd|]; cbn [bindo]; auto.
        unfold force_increment. cbn [n]. destruct (N.ltb_spec max_items_seen (n a + n b)); [auto|lia]. }
      unfold two_way_merge, merge_standard, samples.
      assert (Hd := Hw). destruct Hd as (_ & Hlr & _ & Hmr & _). assert (Hd := Hwg). destruct Hd as (_ & Hlg & _ & Hmg & _).
      destruct (N.leb_spec (n r) (k r)); [rewrite Hover by (auto; lia); discriminate|].
      destruct (N.ltb_spec (n g) (k g)); [rewrite Hover by (auto; lia); discriminate|].
      destruct (c_light c); rewrite Hwo by (auto; lia); discriminate.
Qed.

(** ** C38: for every sequence of items and sketches given to a union (maxK at least 2), and all random outcomes: the calls do
    not fail as long as the total number of items stays at most 2^48-1; the result's n is the total; it holds min(n, its k)
    samples with its k at most maxK; and the samples are samples of the inputs, each used at most once. *)
Theorem union_never_fails maxK u N0 ys : 2 <= maxK -> umade maxK u N0 ys ->
  (forall d x, N0 + 1 <= max_items_seen -> exists u', union_update growcap u d x = Some u') /\
  (forall s xs c, made s xs -> N0 + N.of_nat (length xs) <= max_items_seen -> exists u', union_update_sketch growcap u s c = Some u').
Proof.
  intros HK H. pose proof (umade_inv _ _ _ _ HK H) as Hu. split.
  - intros d x HN. destruct (union_update_ok maxK u N0 ys d x HK Hu) as (u' & E & _); [lia|]. eauto.
  - intros s xs c Hs HN. destruct (made_inv _ _ Hs) as (Hw & Hn & _).
    destruct (union_sketch_ok maxK u N0 ys s c HK Hu Hw) as (u' & E & _); [lia|]. eauto.
Qed.

Theorem union_result maxK u N0 ys g : 2 <= maxK -> umade maxK u N0 ys -> gadget u = Some g ->
  n g = N0 /\ N.of_nat (length (samples g)) = N.min N0 (k g) /\ 2 <= k g <= maxK /\ sampled (samples g) ys.
Proof.
  intros HK H Eg. destruct (umade_inv _ _ _ _ HK H) as [Hm Hg]. rewrite Eg in Hg. destruct Hg as ((Hk2 & Hl & _) & Hk & Hn & Hs).
  unfold samples. repeat split; auto; lia.
Qed.

(** Inputs that are all still exact (their n at most their k). *)
Inductive umade_exact (maxK : N) : runion -> N -> list T -> Prop :=
| ue_new : umade_exact maxK (union_new maxK) 0 []
| ue_item u N0 ys d x u' : umade_exact maxK u N0 ys -> union_update growcap u d x = Some u' -> umade_exact maxK u' (N0 + 1) (ys ++ [x])
| ue_sketch u N0 ys s xs c u' : umade_exact maxK u N0 ys -> made s xs -> N.of_nat (length xs) <= k s -> union_update_sketch growcap u s c = Some u' ->
    umade_exact maxK u' (N0 + N.of_nat (length xs)) (ys ++ xs).

Lemma umade_exact_inv maxK u N0 ys : 2 <= maxK -> umade_exact maxK u N0 ys ->
  umade maxK u N0 ys /\ N0 = N.of_nat (length ys) /\ (forall g, gadget u = Some g -> k g = maxK).
Proof.
  intros HK. induction 1 as [|u N0 ys d x u' H IH E|u N0 ys s xs c u' H IH Hs Hex E].
  - repeat split; [constructor|discriminate].
  - destruct IH as (IH & Hlen & Hk). split; [econstructor; eauto|]. split; [rewrite app_length; cbn [length]; lia|]. revert E. unfold union_update.
    destruct (umade_inv _ _ _ _ HK IH) as [Hm Hg]. destruct (gadget u) as [g|] eqn:Eg; cbn [bindo].
    + destruct Hg as (Hw & _). destruct (res_update growcap g d x) as [g'|] eqn:E; cbn [bindo]; [|discriminate]. intros E'. injection E' as <-. cbn [gadget].
      intros g0 E0. injection E0 as <-. destruct (update_WF _ _ _ _ Hw E) as (_ & Hk' & _). rewrite Hk'. auto.
    + destruct (res_new (max_k u) 3) as [g|] eqn:En; cbn [bindo]; [|discriminate]. destruct (new_WF _ _ _ En) as (Hw & Hkn & _).
      destruct (res_update growcap g d x) as [g'|] eqn:E; cbn [bindo]; [|discriminate]. intros E'. injection E' as <-. cbn [gadget].
      intros g0 E0. injection E0 as <-. destruct (update_WF _ _ _ _ Hw E) as (_ & Hk' & _). congruence.
  - destruct IH as (IH & Hlen & Hk). destruct (made_inv _ _ Hs) as (Hw & Hn & _ & Hx). specialize (Hx ltac:(lia)).
    split; [rewrite <- Hn, <- Hx; econstructor; eauto|]. split; [rewrite app_length; lia|].
    destruct (umade_inv _ _ _ _ HK IH) as [Hm Hg]. revert E. unfold union_update_sketch. rewrite Hm.
    assert (HR : exists r, (if maxK <? k s then downsampled_copy growcap s maxK (c_down c) else Some s) = Some r /\ WF r /\ (k r = maxK \/ (k r < maxK /\ n r <= k r))).
    { destruct (N.ltb_spec maxK (k s)).
      - destruct (downsample_some s maxK (c_down c) Hw HK) as (r & Er & Hwr & Hkr & _). exists r. repeat split; auto; apply Hwr; auto.
      - exists s. split; auto. split; auto. lia. }
    destruct HR as (r & Er & Hwr & Hkr). rewrite Er. cbn [bindo]. assert (Hdr := Hwr). destruct Hdr as (_ & _ & _ & Hmr & _).
    assert (HT : forall g0 g1, WF g0 -> k g0 = maxK -> two_way_merge growcap g0 r c = Some g1 -> k g1 = maxK).
    { intros g0 g1 Hw0 Hk0. unfold two_way_merge, merge_standard.
      assert (HA : forall l q dr i q', WF q -> res_update_all growcap q dr i l = Some q' -> k q' = k q).
      { clear -growcap_ok. induction l as [|x l IHl]; intros q dr i q' Hq; cbn [res_update_all]; [intros E; injection E as <-; auto|].
        destruct (res_update growcap q (dr i) x) as [q1|] eqn:E1; cbn [bindo]; [|discriminate]. destruct (update_WF _ _ _ _ Hq E1) as (Hq1 & Hk1 & _).
        intros E. rewrite (IHl _ _ _ _ Hq1 E). auto. }
      assert (HB : forall (a b : res) ke sl q', merge_weighted a b ke sl = Some q' -> k q' = k a).
      { clear. intros a b ke sl q'. unfold merge_weighted, force_increment. destruct (weighted_loop _ _ _ _ _ _ _); cbn [bindo n k]; [|discriminate].
        destruct (_ <? _); [discriminate|]. intros E; injection E as <-; auto. }
      destruct (N.leb_spec (n r) (k r)).
      - intros E. rewrite (HA _ _ _ _ _ Hw0 E). auto.
      - assert (Hkr' : k r = maxK) by lia. destruct (n g0 <? k g0); [intros E; rewrite (HA _ _ _ _ _ Hwr E); auto|].
        destruct (c_light c); intros E; rewrite (HB _ _ _ _ _ E); auto. }
    destruct (gadget u) as [g|] eqn:Eg.
    + destruct Hg as (Hwg & _). destruct (two_way_merge growcap g r c) as [g'|] eqn:E2; cbn [bindo]; [|discriminate]. intros E'. injection E' as <-.
      cbn [gadget]. intros g0 E0. injection E0 as <-. apply (HT g g'); auto.
    + unfold create_new_gadget. destruct ((k r <? maxK) && (n r <=? k r)) eqn:Eb.
      * destruct (res_new maxK 3) as [g|] eqn:En; cbn [bindo]; [|discriminate]. destruct (new_WF _ _ _ En) as (Hwg & Hkg & _).
        destruct (two_way_merge growcap g r c) as [g'|] eqn:E2; cbn [bindo]; [|discriminate]. intros E'. injection E' as <-. cbn [gadget].
        intros g0 E0. injection E0 as <-. eapply HT; eauto.
      * cbn [bindo]. intros E'. injection E' as <-. cbn [gadget]. intros g0 E0. injection E0 as <-. lia.
Qed.

(** A union of exact inputs loses nothing while the total is at most maxK. *)
Theorem union_exact maxK u N0 ys g : 2 <= maxK -> umade_exact maxK u N0 ys -> gadget u = Some g -> N0 <= maxK -> Permutation (samples g) ys.
Proof.
  intros HK H Eg HN. destruct (umade_exact_inv _ _ _ _ HK H) as (Hu & Hlen & Hk). specialize (Hk g Eg).
  destruct (union_result _ _ _ _ _ HK Hu Eg) as (Hn & Hl & _ & [rest Hp]). pose proof (Permutation_length Hp) as Hpl. rewrite app_length in Hpl.
  destruct rest as [|q rest]; [|cbn [length] in Hpl; lia]. rewrite app_nil_r in Hp. apply Permutation_sym. auto.
Qed.

Theorem made_WF s xs : made s xs -> WF s.
Proof. intros H. apply (made_inv _ _ H). Qed.

End Props.

(** ** C37: uniformity *)
(** The draws the program makes for a stream of [m] items, oldest first: for the item that finds [i] items seen, none that
    matters while i < k (0 stands for it), then one of 0..i (rand.Int63n(i+1)), all equally likely. *)
Definition choices (k0 : nat) (i : nat) : list N := if (i <? k0)%nat then [0] else map N.of_nat (seq 0 (S i)).
Fixpoint all_draws (k0 m : nat) : list (list N) :=
  match m with O => [[]] | S m' => flat_map (fun ds => map (fun d => ds ++ [d]) (choices k0 m')) (all_draws k0 m') end.

(** Updates of a fresh sketch by a stream, with given draws. *)
Fixpoint feed {T} growcap (s : @res T) (xs : list T) (ds : list N) : option res :=
  match xs, ds with x :: xs, d :: ds => do s <- res_update growcap s d x; feed growcap s xs ds | _, _ => Some s end.
Definition sample_of {T} growcap (k0 rf0 : N) (xs : list T) (ds : list N) : option (list T) :=
  do s <- res_new k0 rf0; do s <- feed growcap s xs ds; Some (samples s).

Definition count {A} (f : A -> bool) (l : list A) : nat := length (filter f l).

Local Open Scope nat_scope.
Lemma count_flat_map {A B} (f : B -> bool) (g : A -> list B) l : count f (flat_map g l) = list_sum (map (fun a => count f (g a)) l).
Proof. unfold count. induction l as [|a l IH]; cbn; auto. rewrite filter_app, app_length, IH. auto. Qed.
Lemma count_map {A B} (f : B -> bool) (g : A -> B) l : count f (map g l) = count (fun a => f (g a)) l.
Proof. unfold count. induction l as [|a l IH]; cbn; auto. destruct (f (g a)); cbn; auto. Qed.
Lemma count_ext {A} (f g : A -> bool) l : (forall a, In a l -> f a = g a) -> count f l = count g l.
Proof. unfold count. intros H. induction l as [|a l IH]; cbn; auto. rewrite (H a) by (left; auto). destruct (g a); cbn; rewrite IH; auto; intros; apply H; right; auto. Qed.
Lemma count_false {A} (f : A -> bool) l : (forall a, In a l -> f a = false) -> count f l = 0.
Proof. intros H. rewrite (count_ext f (fun _ => false)) by auto. unfold count. induction l; cbn; auto. apply IHl. intros. apply H. right; auto. Qed.
Lemma count_true {A} (f : A -> bool) l : (forall a, In a l -> f a = true) -> count f l = length l.
Proof. intros H. rewrite (count_ext f (fun _ => true)) by auto. unfold count. clear. induction l; cbn; auto. Qed.
Lemma count_negb {A} (f : A -> bool) l : count f l + count (fun a => negb (f a)) l = length l.
Proof. unfold count. induction l as [|a l IH]; cbn; auto. destruct (f a); cbn; lia. Qed.
Lemma count_app {A} (f : A -> bool) a b : count f (a ++ b) = count f a + count f b.
Proof. unfold count. rewrite filter_app, app_length. auto. Qed.
Lemma list_sum_ext {A} (f g : A -> nat) l : (forall a, In a l -> f a = g a) -> list_sum (map f l) = list_sum (map g l).
Proof. intros H. f_equal. apply map_ext_in. auto. Qed.
Lemma list_sum_scale {A} (f : A -> nat) c l : list_sum (map (fun a => c * f a) l) = c * list_sum (map f l).
Proof. induction l; cbn; [lia|]. unfold list_sum in *. nia. Qed.
Lemma list_sum_const {A} c (l : list A) : list_sum (map (fun _ => c) l) = c * length l.
Proof. induction l; cbn; [lia|]. unfold list_sum in *. nia. Qed.
Lemma count_as_sum {A} (f : A -> bool) l : count f l = list_sum (map (fun a => if f a then 1 else 0) l).
Proof. unfold count. induction l as [|a l IH]; cbn; auto. destruct (f a); cbn; unfold list_sum in *; lia. Qed.
Lemma list_sum_add {A} (f g : A -> nat) l : list_sum (map (fun a => f a + g a) l) = list_sum (map f l) + list_sum (map g l).
Proof. induction l; cbn; auto. unfold list_sum in *. lia. Qed.
Lemma count_swap {A B} (f : A -> B -> bool) la lb :
  list_sum (map (fun a => count (f a) lb) la) = list_sum (map (fun b => count (fun a => f a b) la) lb).
Proof.
  induction la as [|a la IH]; cbn [map].
  - unfold count. cbn. induction lb; cbn; auto.
  - change (list_sum (count (f a) lb :: map (fun a0 => count (f a0) lb) la)) with (count (f a) lb + list_sum (map (fun a0 => count (f a0) lb) la)).
    rewrite IH. rewrite count_as_sum. rewrite <- list_sum_add. apply list_sum_ext. intros b _. unfold count. cbn. destruct (f a b); cbn; auto.
Qed.
Lemma count_ltb_seq k0 m : k0 <= m -> count (fun d => d <? k0) (seq 0 m) = k0.
Proof.
  intros H. replace m with (k0 + (m - k0)) by lia. rewrite seq_app, count_app. rewrite count_true, count_false, seq_length; [lia| |].
  - intros a Ha. apply in_seq in Ha. apply Nat.ltb_ge. lia.
  - intros a Ha. apply in_seq in Ha. apply Nat.ltb_lt. lia.
Qed.
Lemma count_eqb_seq i m : i < m -> count (fun d => d =? i) (seq 0 m) = 1.
Proof.
  intros H. replace m with (i + S (m - i - 1)) by lia. rewrite seq_app. cbn [seq]. rewrite count_app. rewrite count_false.
  - unfold count. cbn [filter Nat.add]. rewrite Nat.eqb_refl. cbn [length]. fold (count (fun d => d =? i) (seq (S i) (m - i - 1))). rewrite count_false; auto.
    intros a Ha. apply in_seq in Ha. apply Nat.eqb_neq. lia.
  - intros a Ha. apply in_seq in Ha. apply Nat.eqb_neq. lia.
Qed.

Section Uniform.
Variable growcap : list nat -> N -> N -> N.
Hypothesis growcap_ok : forall d c r, (r <= growcap d c r)%N.
Variable kk : nat.
Variable rf0 : N.
Hypothesis Hkk : 2 <= kk.
Notation K := (N.of_nat kk).

Definition smp (m : nat) (ds : list N) : list nat :=
  match sample_of growcap K rf0 (seq 0 m) ds with Some l => l | None => [] end.

Lemma feed_snoc {T} gc (xs : list T) : forall s ds x d, length ds = length xs ->
  feed gc s (xs ++ [x]) (ds ++ [d]) = (do s <- feed gc s xs ds; res_update gc s d x).
Proof.
  induction xs as [|y xs IH]; intros s ds x d Hl; destruct ds as [|e ds]; cbn in Hl; try lia; cbn [app feed bindo].
  - destruct (res_update gc s d x); auto.
  - destruct (res_update gc s e y); cbn [bindo]; auto.
Qed.

Lemma all_draws_length k0 m ds : In ds (all_draws k0 m) -> length ds = m.
Proof.
  revert ds. induction m as [|m IH]; intros ds H; cbn [all_draws] in H.
  - destruct H as [<-|[]]; auto.
  - apply in_flat_map in H. destruct H as (e & He & H). apply in_map_iff in H. destruct H as (d & <- & _). rewrite app_length, (IH _ He). cbn. lia.
Qed.

Lemma all_draws_count k0 m : k0 <= m -> length (all_draws k0 (S m)) = S m * length (all_draws k0 m).
Proof.
  intros H. cbn [all_draws]. unfold choices. destruct (Nat.ltb_spec m k0); [lia|].
  induction (all_draws k0 m) as [|e l IH]; [cbn; lia|]. cbn [flat_map]. rewrite app_length, !map_length, seq_length, IH. cbn [length]. lia.
Qed.

Lemma all_draws_below k0 m : m <= k0 -> length (all_draws k0 m) = 1.
Proof.
  induction m as [|m IH]; intros H; cbn [all_draws]; auto. unfold choices. destruct (Nat.ltb_spec m k0); [|lia].
  destruct (all_draws k0 m) as [|e [|]]; cbn in *; try (exfalso; lia); auto; exfalso; assert (m <= k0) by lia; specialize (IH H1); lia.
Qed.

Lemma run_state m : (N.of_nat m <= max_items_seen)%N -> forall ds, In ds (all_draws kk m) ->
  exists s0 s, res_new K rf0 = Some s0 /\ feed growcap s0 (seq 0 m) ds = Some s /\ made growcap s (seq 0 m) /\ k s = K.
Proof.
  induction m as [|m IH]; intros Hm ds H.
  - destruct (new_some (T:=nat) K rf0) as [s0 E]; [lia|]. exists s0, s0. destruct H as [<-|[]]. cbn. destruct (new_WF (T:=nat) _ _ _ E) as (_ & Hk & _).
    repeat split; auto. eapply made_new; eauto.
  - cbn [all_draws] in H. apply in_flat_map in H. destruct H as (e & He & H). apply in_map_iff in H. destruct H as (d & <- & Hd).
    destruct (IH ltac:(lia) e He) as (s0 & s & E & F & M & Hks). exists s0. rewrite seq_S. cbn [Nat.add].
    destruct (reservoir_update_never_fails growcap growcap_ok s (seq 0 m) d m M) as (s' & E' & M'); [rewrite seq_length; lia|].
    exists s'. rewrite feed_snoc by (rewrite seq_length; eapply all_draws_length; eauto). rewrite F. cbn [bindo]. repeat split; auto.
    destruct (update_WF growcap growcap_ok _ _ _ _ (proj1 (made_inv growcap growcap_ok _ _ M)) E') as (_ & Hk' & _). congruence.
Qed.

Lemma smp_state m ds : (N.of_nat m <= max_items_seen)%N -> In ds (all_draws kk m) ->
  exists s0 s, res_new K rf0 = Some s0 /\ feed growcap s0 (seq 0 m) ds = Some s /\ made growcap s (seq 0 m) /\ k s = K /\ smp m ds = data s.
Proof.
  intros Hm H. destruct (run_state m Hm ds H) as (s0 & s & E & F & M & Hk). exists s0, s. repeat split; auto.
  unfold smp, sample_of. rewrite E. cbn [bindo]. rewrite F. reflexivity.
Qed.

Lemma smp_ok m ds : (N.of_nat m <= max_items_seen)%N -> In ds (all_draws kk m) ->
  length (smp m ds) = Nat.min m kk /\ NoDup (smp m ds) /\ (forall p, In p (smp m ds) -> p < m).
Proof.
  intros Hm H. destruct (smp_state m ds Hm H) as (s0 & s & _ & _ & M & Hk & ->).
  destruct (reservoir_size growcap growcap_ok _ _ M) as [_ Hl]. rewrite seq_length, Hk in Hl. unfold samples in Hl.
  pose proof (reservoir_members growcap growcap_ok _ _ M) as Hs. split; [lia|]. split.
  - destruct Hs as [rest Hp]. pose proof (Permutation_NoDup Hp (seq_NoDup _ _)) as Hnd. clear -Hnd. induction rest as [|q rest IHr] using rev_ind; [rewrite app_nil_r in Hnd; auto|]. apply IHr. rewrite app_assoc in Hnd. apply NoDup_remove_1 in Hnd. rewrite app_nil_r in Hnd. auto.
  - intros p Hp. apply (sampled_in _ _ _ Hs) in Hp. apply in_seq in Hp. lia.
Qed.

Lemma smp_small m : m <= kk -> (N.of_nat m <= max_items_seen)%N -> forall ds, In ds (all_draws kk m) -> smp m ds = seq 0 m.
Proof.
  intros Hmk Hm ds H. destruct (smp_state m ds Hm H) as (s0 & s & _ & _ & M & Hk & ->).
  apply (reservoir_whole_stream growcap growcap_ok _ _ M). rewrite seq_length. lia.
Qed.

Lemma smp_step m ds d : kk <= m -> (N.of_nat (S m) <= max_items_seen)%N -> In ds (all_draws kk m) -> d <= m ->
  smp (S m) (ds ++ [N.of_nat d]) = if d <? kk then upd d m (smp m ds) else smp m ds.
Proof.
  intros Hmk Hm H Hd. destruct (smp_state m ds ltac:(lia) H) as (s0 & s & E & F & M & Hk & ->).
  unfold smp, sample_of. rewrite E. cbn [bindo]. rewrite seq_S. cbn [Nat.add]. rewrite feed_snoc by (rewrite seq_length; eapply all_draws_length; eauto).
  rewrite F. cbn [bindo]. destruct (made_inv growcap growcap_ok _ _ M) as ((_ & Hl & _) & Hn & _). rewrite seq_length in Hn.
  unfold res_update. destruct (N.eqb_spec (n s) max_items_seen) as [|Hne]; [lia|]. destruct (N.ltb_spec (n s) (k s)); [lia|].
  rewrite N.mod_small by lia. destruct (Nat.ltb_spec d kk).
  - destruct (N.ltb_spec (N.of_nat d) (k s)); [|lia]. destruct (N.ltb_spec (N.of_nat d) (N.of_nat (length (data s)))); [|lia].
    cbn [bindo samples data]. rewrite Nat2N.id. auto.
  - destruct (N.ltb_spec (N.of_nat d) (k s)); [lia|]. auto.
Qed.

(** One more item: the number of outcomes with a property of the sample. *)
Lemma count_step f m : kk <= m -> (N.of_nat (S m) <= max_items_seen)%N ->
  count (fun ds => f (smp (S m) ds)) (all_draws kk (S m)) =
  list_sum (map (fun ds => count (fun d => f (if d <? kk then upd d m (smp m ds) else smp m ds)) (seq 0 (S m))) (all_draws kk m)).
Proof.
  intros Hmk Hm. cbn [all_draws]. rewrite count_flat_map. apply list_sum_ext. intros ds Hds.
  unfold choices. destruct (Nat.ltb_spec m kk); [lia|]. rewrite !count_map. apply count_ext. intros d Hd. apply in_seq in Hd.
  rewrite smp_step; auto. lia.
Qed.

Lemma in_upd_iff (R : list nat) i q x p : nth_error R i = Some q -> NoDup R -> ~ In x R -> In p (upd i x R) <-> (p = x \/ (In p R /\ p <> q)).
Proof.
  intros E Hnd Hx. rewrite upd_app_split by (eapply nth_error_Some_lt; eauto). pose proof (nth_error_split' _ _ _ E) as HR.
  set (A := firstn i R) in *. set (B := skipn (S i) R) in *. clearbody A B. subst R. apply NoDup_remove_2 in Hnd.
  rewrite !in_app_iff in *. cbn [In]. split.
  - intros [H|[H|H]]; auto; right; split; auto; intros ->; apply Hnd; auto.
  - intros [->|[[H|[H|H]] Hne]]; auto. congruence.
Qed.

Lemma existsb_eqb p l : existsb (Nat.eqb p) l = true <-> In p l.
Proof. rewrite existsb_exists. split; [intros (q & Hq & E); apply Nat.eqb_eq in E; subst; auto|]. intros H. exists p. rewrite Nat.eqb_refl. auto. Qed.

Lemma uniform_step m p : kk <= m -> (N.of_nat (S m) <= max_items_seen)%N -> p < S m ->
  (p < m -> m * count (fun ds => existsb (Nat.eqb p) (smp m ds)) (all_draws kk m) = kk * length (all_draws kk m)) ->
  S m * count (fun ds => existsb (Nat.eqb p) (smp (S m) ds)) (all_draws kk (S m)) = kk * length (all_draws kk (S m)).
Proof.
  intros Hmk Hm Hp IH. rewrite count_step by auto. rewrite all_draws_count by auto.
  destruct (Nat.eq_dec p m) as [->|Hne].
  - rewrite (list_sum_ext _ (fun _ => kk)); [rewrite list_sum_const; nia|]. intros ds Hds. destruct (smp_ok m ds ltac:(lia) Hds) as (Hl & Hnd & Hlt).
    rewrite (count_ext _ (fun d => d <? kk)); [apply count_ltb_seq; lia|]. intros d Hd. destruct (Nat.ltb_spec d kk).
    + apply existsb_eqb. destruct (nth_error (smp m ds) d) as [q|] eqn:Eq; [|apply nth_error_None in Eq; lia].
      apply (in_upd_iff _ _ q); auto. intros Hin. apply Hlt in Hin. lia.
    + destruct (existsb _ _) eqn:Ex; auto. apply existsb_eqb in Ex. apply Hlt in Ex. lia.
  - assert (Hlt : p < m) by lia. specialize (IH Hlt).
    rewrite (list_sum_ext _ (fun ds => m * (if existsb (Nat.eqb p) (smp m ds) then 1 else 0))).
    + rewrite list_sum_scale, <- count_as_sum. nia.
    + intros ds Hds. destruct (smp_ok m ds ltac:(lia) Hds) as (Hl & Hnd & Hr). destruct (existsb (Nat.eqb p) (smp m ds)) eqn:Ex.
      * apply existsb_eqb in Ex. destruct (In_nth_error _ _ Ex) as [i Ei]. assert (Hi := nth_error_Some_lt _ _ _ Ei).
        rewrite (count_ext _ (fun d => negb (d =? i))).
        { pose proof (count_negb (fun d => d =? i) (seq 0 (S m))) as Hc. rewrite count_eqb_seq, seq_length in Hc by lia. lia. }
        intros d Hd. destruct (Nat.eqb_spec d i) as [->|Hdi]; cbn [negb].
        -- destruct (Nat.ltb_spec i kk); [|lia]. destruct (existsb _ _) eqn:Ey; auto. apply existsb_eqb in Ey.
           apply (in_upd_iff _ _ p) in Ey; auto; [destruct Ey as [|[_ ?]]; congruence|]. intros Hin. apply Hr in Hin. lia.
        -- destruct (Nat.ltb_spec d kk); [|apply existsb_eqb; auto]. apply existsb_eqb.
           destruct (nth_error (smp m ds) d) as [q|] eqn:Eq; [|apply nth_error_None in Eq; lia].
           apply (in_upd_iff _ _ q); auto; [intros Hin; apply Hr in Hin; lia|]. right. split; auto. intros ->.
           apply Hdi. eapply NoDup_nth_error; eauto; [lia|congruence].
      * rewrite count_false; [lia|]. intros d Hd. destruct (Nat.ltb_spec d kk); auto.
        destruct (existsb (Nat.eqb p) (upd d m (smp m ds))) eqn:Ey; auto. apply existsb_eqb in Ey.
        destruct (nth_error (smp m ds) d) as [q|] eqn:Eq; [|apply nth_error_None in Eq; lia].
        apply (in_upd_iff _ _ q) in Ey; auto; [|intros Hin; apply Hr in Hin; lia]. destruct Ey as [|[Hin _]]; [lia|].
        apply existsb_eqb in Hin. congruence.
Qed.

Lemma uniform_all m p : kk <= m -> (N.of_nat m <= max_items_seen)%N -> p < m ->
  m * count (fun ds => existsb (Nat.eqb p) (smp m ds)) (all_draws kk m) = kk * length (all_draws kk m).
Proof.
  revert p. induction m as [|m IH]; intros p Hmk Hm Hp; [lia|]. destruct (Nat.eq_dec kk (S m)) as [E|E].
  - rewrite count_true; [rewrite E; auto|]. intros ds Hds. rewrite smp_small by (auto; lia). apply existsb_eqb. apply in_seq. lia.
  - apply uniform_step; auto; [lia|]. intros Hpm. apply IH; auto; lia.
Qed.

(** *** Every k-subset equally likely *)
Fixpoint binom (m j : nat) : nat :=
  match m, j with _, O => 1 | O, S _ => 0 | S m', S j' => binom m' j' + binom m' j end.
Lemma binom_gt m : forall j, m < j -> binom m j = 0.
Proof. induction m as [|m IH]; intros [|j] H; try lia; cbn [binom]; auto. rewrite !IH by lia. auto. Qed.
Lemma binom_diag m : binom m m = 1.
Proof. induction m as [|m IH]; cbn [binom]; auto. rewrite IH, binom_gt by lia. auto. Qed.
Lemma binom_step m : forall j, j <= S m -> binom (S m) j * (S m - j) = S m * binom m j.
Proof.
  induction m as [|m IH]; intros j Hj; [destruct j as [|[|]]; cbn; lia|].
  destruct j as [|j]; [cbn [binom]; lia|].
  change (binom (S (S m)) (S j)) with (binom (S m) j + binom (S m) (S j)).
  destruct (Nat.eq_dec j (S m)) as [->|Hne]; [rewrite binom_diag, !binom_gt by lia; lia|].
  pose proof (IH j ltac:(lia)) as H1. pose proof (IH (S j) ltac:(lia)) as H2.
  assert (Hb : binom (S m) (S j) = binom m j + binom m (S j)) by reflexivity.
  replace (S (S m) - S j) with (S m - j) by lia.
  assert (H3 : binom (S m) (S j) * (S m - j) = binom (S m) (S j) * (S m - S j) + binom (S m) (S j)) by nia.
  nia.
Qed.

Definition csub (S0 : nat -> bool) (m : nat) : nat := count (fun ds => forallb S0 (smp m ds)) (all_draws kk m).

Lemma NoDup_filter_count (R : list nat) S0 m : NoDup R -> (forall p, In p R -> p < m) -> forallb S0 R = true -> length R <= count S0 (seq 0 m).
Proof.
  intros Hnd Hlt Hf. rewrite forallb_forall in Hf. unfold count. apply NoDup_incl_length; auto. intros x Hx. apply filter_In. split; auto. apply in_seq. apply Hlt in Hx. lia.
Qed.

Lemma forallb_upd S0 m (R : list nat) i q : nth_error R i = Some q -> NoDup R -> ~ In m R ->
  forallb S0 (upd i m R) = S0 m && forallb (fun y => (y =? q) || S0 y) R.
Proof.
  intros E Hnd Hm. apply eq_true_iff_eq. rewrite andb_true_iff, !forallb_forall. split.
  - intros H. split; [apply H; apply (in_upd_iff _ _ q); auto|]. intros y Hy. destruct (Nat.eqb_spec y q); cbn; auto. apply H. apply (in_upd_iff _ _ q); auto.
  - intros [H1 H2] y Hy. apply (in_upd_iff _ _ q) in Hy; auto. destruct Hy as [->|[Hy Hne]]; auto. specialize (H2 y Hy).
    destruct (Nat.eqb_spec y q); cbn in H2; [congruence|auto].
Qed.

Lemma count_nth_map {A} (h : A -> bool) (R : list A) dflt : count (fun i => h (nth i R dflt)) (seq 0 (length R)) = count h R.
Proof.
  rewrite <- (count_map h (fun i => nth i R dflt)). f_equal. induction R as [|x R IH]; cbn; auto. f_equal. rewrite <- seq_shift, map_map. apply IH.
Qed.

Lemma subset_step_in m S0 : kk <= m -> (N.of_nat (S m) <= max_items_seen)%N -> S0 m = true -> S (count S0 (seq 0 m)) = kk ->
  csub S0 (S m) = list_sum (map (fun x => csub (fun y => (y =? x) || S0 y) m) (filter (fun x => negb (S0 x)) (seq 0 m))).
Proof.
  intros Hmk Hm HS Hc. unfold csub at 1. rewrite (count_step (forallb S0)) by auto. unfold csub.
  rewrite <- (count_swap (fun ds x => forallb (fun y => (y =? x) || S0 y) (smp m ds))). apply list_sum_ext.
  intros ds Hds. destruct (smp_ok m ds ltac:(lia) Hds) as (Hl & Hnd & Hr). set (R := smp m ds) in *.
  assert (HR : length R = kk) by lia.
  assert (HnS : forallb S0 R = false). { destruct (forallb S0 R) eqn:Ef; auto. pose proof (NoDup_filter_count R S0 m Hnd Hr Ef). lia. }
  assert (HmR : ~ In m R) by (intros H; apply Hr in H; lia).
  replace (S m) with (kk + (S m - kk)) by lia. rewrite seq_app, count_app. rewrite (count_false _ (seq (0 + kk) _)).
  2:{ intros d Hd. apply in_seq in Hd. destruct (Nat.ltb_spec d kk); [lia|auto]. }
  rewrite Nat.add_0_r. set (h := fun x => forallb (fun y => (y =? x) || S0 y) R).
  transitivity (count h R).
  - rewrite <- (count_nth_map h R 0), HR. apply count_ext. intros d Hd. apply in_seq in Hd. destruct (Nat.ltb_spec d kk); [|lia].
    rewrite (forallb_upd S0 m R d (nth d R 0)); auto; [rewrite HS; auto|]. apply nth_error_nth'. lia.
  - unfold count. apply Nat.le_antisymm; apply NoDup_incl_length; try (apply NoDup_filter; auto; apply NoDup_filter; apply seq_NoDup); intros x Hx; apply filter_In in Hx; destruct Hx as [Hx Hh]; unfold h in Hh.
    + apply filter_In. split; auto. apply filter_In. split; [apply in_seq; apply Hr in Hx; lia|]. destruct (S0 x) eqn:Ex; auto.
      exfalso. assert (forallb S0 R = true); [|congruence]. apply forallb_forall. intros y Hy. rewrite forallb_forall in Hh.
      specialize (Hh y Hy). destruct (Nat.eqb_spec y x); cbn in Hh; [congruence|auto].
    + apply filter_In in Hx. destruct Hx as [Hx Hnx]. apply filter_In. split; auto. destruct (in_dec Nat.eq_dec x R); auto. exfalso. assert (forallb S0 R = true); [|congruence].
      apply forallb_forall. intros y Hy. rewrite forallb_forall in Hh.
      specialize (Hh y Hy). destruct (Nat.eqb_spec y x); cbn in Hh; [congruence|auto].
Qed.

Lemma subset_step_out m S0 : kk <= m -> (N.of_nat (S m) <= max_items_seen)%N -> S0 m = false -> csub S0 (S m) = (S m - kk) * csub S0 m.
Proof.
  intros Hmk Hm HS. unfold csub. rewrite (count_step (forallb S0)) by auto. rewrite (count_as_sum _ (all_draws kk m)), <- list_sum_scale. apply list_sum_ext.
  intros ds Hds. destruct (smp_ok m ds ltac:(lia) Hds) as (Hl & Hnd & Hr). set (R := smp m ds) in *.
  replace (S m) with (kk + (S m - kk)) at 1 by lia. rewrite seq_app, count_app. rewrite (count_false _ (seq 0 kk)).
  - rewrite (count_ext _ (fun _ => forallb S0 R)).
    + destruct (forallb S0 R); [rewrite count_true by auto; rewrite seq_length; lia|rewrite count_false by auto; lia].
    + intros d Hd. apply in_seq in Hd. destruct (Nat.ltb_spec d kk); [lia|auto].
  - intros d Hd. apply in_seq in Hd. destruct (Nat.ltb_spec d kk); [|lia]. destruct (nth_error R d) as [q|] eqn:Eq; [|apply nth_error_None in Eq; lia].
    rewrite (forallb_upd S0 m R d q); auto; [rewrite HS; auto|]. intros Hin. apply Hr in Hin. lia.
Qed.

Lemma count_add_one S0 x m : x < m -> S0 x = false -> count (fun y => (y =? x) || S0 y) (seq 0 m) = S (count S0 (seq 0 m)).
Proof.
  intros Hx HS. assert (H : forall l, NoDup l -> In x l -> count (fun y => (y =? x) || S0 y) l = S (count S0 l)).
  { induction l as [|a l IH]; intros Hnd Hin; [destruct Hin|]. inversion Hnd as [|? ? Hna Hnl]; subst. unfold count in *. cbn [filter].
    destruct (Nat.eqb_spec a x) as [->|Hne]; cbn [orb].
    - rewrite HS. cbn [length]. f_equal. fold (count (fun y => (y =? x) || S0 y) l). fold (count S0 l). apply count_ext. intros b Hb.
      destruct (Nat.eqb_spec b x); [subst; contradiction|auto].
    - destruct Hin as [|Hin]; [congruence|]. destruct (S0 a); cbn [length]; rewrite IH; auto. }
  apply H; [apply seq_NoDup|apply in_seq; lia].
Qed.

Lemma subset_all m : kk <= m -> (N.of_nat m <= max_items_seen)%N -> forall S0, count S0 (seq 0 m) = kk ->
  binom m kk * csub S0 m = length (all_draws kk m).
Proof.
  induction m as [|m IH]; intros Hmk Hm S0 HS; [lia|]. destruct (Nat.eq_dec kk (S m)) as [E|E].
  - rewrite <- E, binom_diag. unfold csub. rewrite count_true; [lia|]. intros ds Hds. rewrite smp_small by (auto; lia). apply forallb_forall.
    intros p Hp. destruct (S0 p) eqn:Ep; auto. exfalso. rewrite <- E in HS. pose proof (count_negb S0 (seq 0 kk)) as Hn. rewrite seq_length, HS in Hn.
    assert (Hz : count (fun a => negb (S0 a)) (seq 0 kk) = 0) by lia. unfold count in Hz. apply length_zero_iff_nil in Hz.
    assert (Hin : In p (filter (fun a => negb (S0 a)) (seq 0 kk))) by (apply filter_In; rewrite Ep; auto). rewrite Hz in Hin. destruct Hin.
  - assert (Hkm : kk <= m) by lia. rewrite all_draws_count by auto. pose proof (binom_step m kk ltac:(lia)) as Hb.
    rewrite seq_S, count_app in HS. cbn [Nat.add] in HS. destruct (S0 m) eqn:ES.
    + assert (Hc : S (count S0 (seq 0 m)) = kk) by (unfold count at 2 in HS; cbn [filter] in HS; rewrite ES in HS; cbn [length] in HS; lia).
      rewrite subset_step_in by auto. pose proof (count_negb S0 (seq 0 m)) as Hn. rewrite seq_length in Hn. unfold count at 2 in Hn.
      assert (Hsum : binom m kk * list_sum (map (fun x => csub (fun y => (y =? x) || S0 y) m) (filter (fun x => negb (S0 x)) (seq 0 m)))
              = length (all_draws kk m) * length (filter (fun x => negb (S0 x)) (seq 0 m))).
      { rewrite <- list_sum_scale. rewrite (list_sum_ext _ (fun _ => length (all_draws kk m))); [apply list_sum_const|].
        intros x Hx. apply filter_In in Hx. destruct Hx as [Hx Hnx]. apply in_seq in Hx. apply IH; auto; [lia|].
        rewrite count_add_one; auto; [lia|]. destruct (S0 x); cbn in Hnx; congruence. }
      set (Q := list_sum _) in *. assert (Hlen : length (filter (fun x => negb (S0 x)) (seq 0 m)) = S m - kk) by lia. rewrite Hlen in Hsum.
      assert (Hpos : S m - kk > 0) by lia. set (t := S m - kk) in *. clearbody t.
      apply (Nat.mul_cancel_r _ _ t); [lia|]. set (L := length (all_draws kk m)) in *.
      replace (binom (S m) kk * Q * t) with (binom (S m) kk * t * Q) by ring. rewrite Hb. replace (S m * binom m kk * Q) with (S m * (binom m kk * Q)) by ring.
      rewrite Hsum. ring.
    + assert (Hc : count S0 (seq 0 m) = kk) by (unfold count at 2 in HS; cbn [filter] in HS; rewrite ES in HS; cbn [length] in HS; lia).
      rewrite subset_step_out by auto. rewrite <- (IH Hkm ltac:(lia) S0 Hc).
      replace (binom (S m) kk * ((S m - kk) * csub S0 m)) with (binom (S m) kk * (S m - kk) * csub S0 m) by ring. rewrite Hb. ring.
Qed.
End Uniform.

(** What happens does not depend on what the items are (nor on the capacities the runtime chooses): sampling the stream
    [map f xs] gives the image of sampling [xs], for the same draws. So it is enough to study the stream of positions 0,1,2,... *)
Theorem reservoir_natural {A B} (gcA : list A -> N -> N -> N) (gcB : list B -> N -> N -> N) (f : A -> B) k0 rfA rfB xs ds :
  (forall d c r, (r <= gcA d c r)%N) -> (forall d c r, (r <= gcB d c r)%N) -> (N.of_nat (length xs) <= max_items_seen)%N -> length ds = length xs ->
  sample_of gcB k0 rfB (map f xs) ds = option_map (map f) (sample_of gcA k0 rfA xs ds).
Proof.
  intros HA HB Hx Hl. unfold sample_of. destruct (N.lt_ge_cases k0 2) as [Hk|Hk].
  { unfold res_new. destruct (N.ltb_spec k0 2); [reflexivity|lia]. }
  destruct (new_some (T:=A) k0 rfA Hk) as [a Ea]. destruct (new_some (T:=B) k0 rfB Hk) as [b Eb]. rewrite Ea, Eb. cbn [bindo].
  destruct (new_WF (T:=A) _ _ _ Ea) as (Wa & Ka & Na & Da). destruct (new_WF (T:=B) _ _ _ Eb) as (Wb & Kb & Nb & Db).
  assert (G : forall xs ds (a : @res A) (b : @res B), length ds = length xs -> WF a -> WF b -> k b = k a -> n b = n a -> data b = map f (data a) ->
            (n a + N.of_nat (length xs) <= max_items_seen)%N -> exists a' b', feed gcA a xs ds = Some a' /\ feed gcB b (map f xs) ds = Some b' /\ data b' = map f (data a')).
  { clear -HA HB. induction xs as [|x xs IH]; intros [|d ds] a b Hl Wa Wb Hk Hn Hd Hm; cbn in Hl; try lia; cbn [map feed].
    - eauto.
    - cbn [length] in Hm. destruct (update_some gcA HA a d x Wa) as [a1 E1]; [lia|]. destruct (update_some gcB HB b d (f x) Wb) as [b1 E2]; [lia|].
      rewrite E1, E2. cbn [bindo]. destruct (update_WF gcA HA _ _ _ _ Wa E1) as (Wa1 & Ka1 & Na1 & _ & Xa1). destruct (update_WF gcB HB _ _ _ _ Wb E2) as (Wb1 & Kb1 & Nb1 & _ & Xb1).
      apply IH; auto; try congruence; try lia.
      destruct (N.lt_ge_cases (n a) (k a)) as [Hlt|Hge].
      + rewrite Xa1, Xb1 by lia. rewrite map_app, Hd. auto.
      + revert E1 E2. unfold res_update. rewrite Hn, Hk, Hd, map_length. destruct (N.eqb_spec (n a) max_items_seen) as [|Hne]; [discriminate|].
        destruct (N.ltb_spec (n a) (k a)); [lia|]. destruct (N.ltb_spec (d mod (n a + 1)) (k a)).
        * destruct (N.ltb_spec (d mod (n a + 1)) (N.of_nat (length (data a)))); [|discriminate].
          intros E1 E2. injection E1 as <-. injection E2 as <-. cbn [data]. generalize (N.to_nat (d mod (n a + 1))). clear. intros i. revert i.
          induction (data a) as [|y l IHl]; intros [|i]; cbn; auto. f_equal. auto.
        * intros E1 E2. injection E1 as <-. injection E2 as <-. auto. }
  destruct (G xs ds a b Hl Wa Wb) as (a' & b' & Fa & Fb & Hd); try congruence; [rewrite Da, Db; auto|lia|].
  rewrite Fa, Fb. cbn [bindo option_map samples]. unfold samples. congruence.
Qed.

Section UniformTheorems.
Variable growcap : list nat -> N -> N -> N.
Hypothesis growcap_ok : forall d c r, (r <= growcap d c r)%N.

(** "Position p of the stream is in the sample." *)
Definition retains (k0 rf0 : N) (m p : nat) (ds : list N) : bool :=
  match sample_of growcap k0 rf0 (seq 0 m) ds with Some l => existsb (Nat.eqb p) l | None => false end.
(** "The sample consists of exactly the positions selected by [S0]." *)
Definition sample_is (k0 rf0 : N) (m : nat) (S0 : nat -> bool) (ds : list N) : bool :=
  match sample_of growcap k0 rf0 (seq 0 m) ds with Some l => forallb (fun p => Bool.eqb (S0 p) (existsb (Nat.eqb p) l)) (seq 0 m) | None => false end.

(** C37. Of all equally likely outcomes of the random draws, exactly the fraction k/m retains any given position of a stream of
    m >= k items... *)
Theorem reservoir_uniform kk rf0 m p : 2 <= kk <= m -> (N.of_nat m <= max_items_seen)%N -> p < m ->
  m * count (retains (N.of_nat kk) rf0 m p) (all_draws kk m) = kk * length (all_draws kk m).
Proof.
  intros Hk Hm Hp. rewrite <- (uniform_all growcap growcap_ok kk rf0 ltac:(lia) m p) by (auto; lia). f_equal. apply count_ext. intros ds Hds.
  unfold retains, smp. destruct (sample_of _ _ _ _ _); auto.
Qed.

(** ... and any two sets of k positions are equally likely: each is the sample in exactly one in (m choose k) outcomes. *)
Theorem reservoir_uniform_sets kk rf0 m S0 : 2 <= kk <= m -> (N.of_nat m <= max_items_seen)%N -> count S0 (seq 0 m) = kk ->
  binom m kk * count (sample_is (N.of_nat kk) rf0 m S0) (all_draws kk m) = length (all_draws kk m).
Proof.
  intros Hk Hm HS. rewrite <- (subset_all growcap growcap_ok kk rf0 ltac:(lia) m ltac:(lia) Hm S0 HS). f_equal. unfold csub. apply count_ext. intros ds Hds.
  destruct (smp_ok growcap growcap_ok kk rf0 ltac:(lia) m ds Hm Hds) as (Hl & Hnd & Hr).
  destruct (smp_state growcap growcap_ok kk rf0 ltac:(lia) m ds Hm Hds) as (s0 & s & E & F & _ & _ & _). unfold sample_is.
  revert Hl Hnd Hr. unfold smp, sample_of. rewrite E. cbn [bindo]. rewrite F. cbn [bindo]. set (R := samples s). intros Hl Hnd Hr.
  apply eq_true_iff_eq. rewrite !forallb_forall. split.
  - intros H q Hq. specialize (H q ltac:(apply in_seq; apply Hr in Hq; lia)). apply Bool.eqb_prop in H. rewrite H. apply existsb_eqb. auto.
  - intros H q Hq. apply in_seq in Hq. apply Bool.eqb_true_iff. apply eq_true_iff_eq. rewrite existsb_eqb. split; [|apply H].
    intros Hs. assert (Hincl : incl (filter S0 (seq 0 m)) R).
    { apply NoDup_length_incl; auto; [unfold count in HS; lia|]. intros y Hy. apply filter_In. split; [apply in_seq; apply Hr in Hy; lia|apply H; auto]. }
    apply Hincl. apply filter_In. split; auto. apply in_seq. lia.
Qed.
End UniformTheorems.

(** The outcomes counted above are all there are: each lets the program run to the end, and their number is the product of the
    numbers of outcomes of the draws. *)
Theorem reservoir_draws_run {T} (growcap : list T -> N -> N -> N) kk rf0 (xs : list T) ds : (forall d c r, (r <= growcap d c r)%N) ->
  2 <= kk -> (N.of_nat (length xs) <= max_items_seen)%N -> In ds (all_draws kk (length xs)) -> exists l, sample_of growcap (N.of_nat kk) rf0 xs ds = Some l.
Proof.
  intros HG Hk Hm Hds. set (gn := fun (_ : list nat) (_ r : N) => r). assert (Hgn : forall d c r, (r <= gn d c r)%N) by (intros; unfold gn; lia).
  destruct (run_state gn Hgn kk rf0 Hk (length xs) Hm ds Hds) as (s0 & s & E & F & _). destruct xs as [|x0 xs'] eqn:Ex; rewrite <- Ex in *.
  - unfold sample_of. destruct (new_some (T:=T) (N.of_nat kk) rf0) as [t Et]; [lia|]. rewrite Et, Ex. cbn. eauto.
  - assert (Hmap : map (fun i => nth i xs x0) (seq 0 (length xs)) = xs).
    { clear. induction xs as [|x xs IH]; cbn [length seq map]; auto. f_equal. rewrite <- seq_shift, map_map. apply IH. }
    rewrite <- Hmap. rewrite (reservoir_natural gn growcap (fun i => nth i xs x0) (N.of_nat kk) rf0 rf0); auto.
    + unfold sample_of. rewrite E. cbn [bindo]. rewrite F. cbn [bindo option_map]. eauto.
    + rewrite seq_length; auto.
    + rewrite seq_length. eapply all_draws_length; eauto.
Qed.
Theorem reservoir_draws_number kk m : length (all_draws kk m) = fold_right Nat.mul 1 (map (fun i => length (choices kk i)) (seq 0 m)).
Proof.
  induction m as [|m IH]; auto. rewrite seq_S, map_app, fold_right_app. cbn [Nat.add map fold_right all_draws]. rewrite Nat.mul_1_r.
  assert (G : forall l c, fold_right Nat.mul c l = c * fold_right Nat.mul 1 l) by (clear; induction l as [|a l IHl]; intros c; cbn [fold_right]; [lia|rewrite IHl; nia]).
  rewrite G, <- IH. generalize (all_draws kk m). intros L. induction L as [|e L IHL]; cbn [flat_map length]; [lia|]. rewrite app_length, map_length, IHL. nia.
Qed.

(** ** Serialization: a sketch read back from ToSlice's bytes is the same sketch, given an item serde whose deserializer reads
    back what its serializer wrote (C48), for k below 2^32 and the four resize factors. *)
Local Open Scope N_scope.
Section Serde.
Context {T : Type}.
Variable growcap : list T -> N -> N -> N.
Hypothesis growcap_ok : forall d c r, r <= growcap d c r.
Variable ser : list T -> list N.
Variable deser : list N -> nat -> nat -> option (list T).
Hypothesis serde_ok : forall pre items, deser (pre ++ ser items) (length pre) (length items) = Some items.

Lemma land_sum a b : a < 4 -> b < 64 -> N.land (a * 64 + b) 63 = b /\ N.land (N.shiftr (N.land (a * 64 + b) 192) 6) 3 = a.
Proof.
  intros Ha Hb. assert (H : forallb (fun x => forallb (fun y => (N.land (x * 64 + y) 63 =? y) && (N.land (N.shiftr (N.land (x * 64 + y) 192) 6) 3 =? x)) (map N.of_nat (seq 0 64))) (map N.of_nat (seq 0 4)) = true) by (vm_compute; reflexivity).
  rewrite forallb_forall in H. specialize (H a). assert (In a (map N.of_nat (seq 0 4))) as Ia by (apply in_map_iff; exists (N.to_nat a); split; [lia|apply in_seq; lia]).
  specialize (H Ia). rewrite forallb_forall in H. specialize (H b). assert (In b (map N.of_nat (seq 0 64))) as Ib by (apply in_map_iff; exists (N.to_nat b); split; [lia|apply in_seq; lia]).
  specialize (H Ib). lia.
Qed.

Theorem reservoir_round_trip dcap s xs : made growcap s xs -> k s < 2 ^ 32 -> rf s <= 3 ->
  exists b s', res_to_slice ser s = Some b /\ res_from_slice deser dcap b = Some s' /\
    k s' = k s /\ n s' = n s /\ rf s' = rf s /\ samples s' = samples s.
Proof.
  intros Hm Hk Hr. destruct (made_inv growcap growcap_ok _ _ Hm) as ((Hk2 & Hl & _ & Hmx & _) & _). unfold res_to_slice.
  destruct (N.ltb_spec 3 (rf s)); [lia|]. destruct (land_sum (rf s) 1) as [L1 L2]; [lia|lia|]. destruct (land_sum (rf s) 2) as [L3 L4]; [lia|lia|].
  assert (Hd : n s = 0 -> data s = []). { intros E. rewrite E in Hl. destruct (data s); auto. cbn [length] in Hl. lia. }
  assert (K4 : forall z, get_le 4 4 (z ++ le 4 (k s)) = Some (k s) -> True) by auto. clear K4.
  destruct (N.eqb_spec (n s) 0) as [E0|E0].
  - eexists. destruct (new_some (T:=T) (k s) (rf s) Hk2) as [t Et]. exists t. split; [reflexivity|]. destruct (new_WF _ _ _ Et) as (_ & Ek & En & Ed).
    assert (Erf : rf t = rf s) by (revert Et; unfold res_new; destruct (k s <? 2); [discriminate|]; intros Et; injection Et as <-; auto).
    split; [|unfold samples; rewrite Ed, Hd by auto; repeat split; auto; lia]. unfold res_from_slice. rewrite app_length, le_length. cbn [length Nat.add Nat.ltb Nat.leb app nth_error bindo].
    rewrite L1, L2. change (N.land 4 4 =? 0) with false. cbn [negb andb N.eqb Pos.eqb bindo].
    pose proof (get_le_app_at 4 (k s) [rf s * 64 + 1; 2; 11; 4] []) as G. rewrite app_nil_r in G. cbn [length app] in G. rewrite G.
    change (256 ^ N.of_nat 4) with (2 ^ 32). rewrite N.mod_small by auto. cbn [bindo]. exact Et.
  - eexists. exists (mkRes (k s) (n s) (rf s) (data s) (dcap (data s))). split; [reflexivity|]. split; [|repeat split; auto]. unfold res_from_slice.
    rewrite !app_length, !le_length. cbn [length Nat.add Nat.ltb Nat.leb app nth_error bindo].
    rewrite L3, L4. change (N.land 0 4 =? 0) with true. cbn [negb andb N.eqb Pos.eqb bindo].
    set (hd := [rf s * 64 + 2; 2; 11; 0]). set (buf := rf s * 64 + 2 :: 2 :: 11 :: 0 :: le 4 (k s) ++ le 8 (n s) ++ ser (data s)).
    assert (G8 : get_le 8 8 buf = Some (n s)).
    { pose proof (get_le_app_at 8 (n s) (hd ++ le 4 (k s)) (ser (data s))) as G. rewrite app_length, le_length in G. cbn [hd length Nat.add] in G.
      rewrite <- app_assoc in G. cbn [hd app] in G. fold buf in G. rewrite G. f_equal. apply N.mod_small. unfold max_items_seen in Hmx.
      apply N.le_lt_trans with (1 := Hmx). vm_compute. reflexivity. }
    assert (G4 : get_le 4 4 buf = Some (k s)).
    { pose proof (get_le_app_at 4 (k s) hd (le 8 (n s) ++ ser (data s))) as G. cbn [hd length Nat.add app] in G. fold buf in G. rewrite G. f_equal. apply N.mod_small. exact Hk. }
    rewrite G8. cbn [bindo]. rewrite G4. cbn [bindo].
    pose proof (serde_ok (hd ++ le 4 (k s) ++ le 8 (n s)) (data s)) as G. rewrite !app_length, !le_length in G. cbn [hd length Nat.add] in G.
    rewrite <- !app_assoc in G. cbn [hd app] in G. fold buf in G. replace (N.to_nat (N.min (n s) (k s))) with (length (data s)) by lia. rewrite G. cbn [bindo].
    unfold from_states. destruct (N.ltb_spec (k s) 2); [lia|]. destruct (N.ltb_spec (k s) (N.of_nat (length (data s)))); [lia|].
    destruct ((k s <=? n s) && (N.of_nat (length (data s)) <? k s) || (n s <? k s) && (N.of_nat (length (data s)) <? n s)) eqn:Eb; [lia|]. reflexivity.
Qed.
End Serde.

(** ** Concrete cases *)
Definition gc {T} (_ : list T) (_ r : N) : N := r.
Definition case_res (k0 : N) (xs : list N) (ds : list N) : option (@res N) := do s <- res_new k0 3; feed gc s xs ds.
Example reservoir_case : exists s, case_res 3 [10; 11; 12; 13; 14] [0; 0; 0; 1; 4] = Some s /\ samples s = [10; 13; 12] /\ n s = 5
  /\ made gc s [10; 11; 12; 13; 14].
Proof.
  destruct (res_new (T:=N) 3 3) as [s0|] eqn:E0; [|discriminate]. unfold case_res. rewrite E0. cbn [bindo feed].
  assert (M0 := made_new gc _ _ _ E0). assert (Hg : forall (d : list N) c r, r <= gc d c r) by (intros; unfold gc; lia).
  destruct (reservoir_update_never_fails gc Hg s0 _ 0 10 M0) as (s1 & E1 & M1); [vm_compute; reflexivity|]. rewrite E1. cbn [bindo app] in *.
  destruct (reservoir_update_never_fails gc Hg s1 _ 0 11 M1) as (s2 & E2 & M2); [vm_compute; reflexivity|]. rewrite E2. cbn [bindo app] in *.
  destruct (reservoir_update_never_fails gc Hg s2 _ 0 12 M2) as (s3 & E3 & M3); [vm_compute; reflexivity|]. rewrite E3. cbn [bindo app] in *.
  destruct (reservoir_update_never_fails gc Hg s3 _ 1 13 M3) as (s4 & E4 & M4); [vm_compute; reflexivity|]. rewrite E4. cbn [bindo app] in *.
  destruct (reservoir_update_never_fails gc Hg s4 _ 4 14 M4) as (s5 & E5 & M5); [vm_compute; reflexivity|]. rewrite E5. cbn [bindo app] in *.
  exists s5. split; auto.
  assert (Ec : case_res 3 [10; 11; 12; 13; 14] [0; 0; 0; 1; 4] = Some s5).
  { unfold case_res. rewrite E0. cbn [bindo feed]. rewrite E1. cbn [bindo]. rewrite E2. cbn [bindo]. rewrite E3. cbn [bindo]. rewrite E4. cbn [bindo]. rewrite E5. reflexivity. }
  assert (Ed : option_map (fun s => (samples s, n s)) (case_res 3 [10; 11; 12; 13; 14] [0; 0; 0; 1; 4]) = Some ([10; 13; 12], 5)) by (vm_compute; reflexivity).
  rewrite Ec in Ed. cbn [option_map] in Ed. injection Ed as E6 E7. auto.
Qed.
(** k = 2, 4 items: 12 outcomes; every position is retained in 6 and every pair in 2 of them. *)
Example reservoir_uniform_case : length (all_draws 2 4) = 12%nat /\
  map (fun p => count (retains gc 2 3 4 p) (all_draws 2 4)) (seq 0 4) = [6; 6; 6; 6]%nat /\
  count (sample_is gc 2 3 4 (fun p => (p =? 1)%nat || (p =? 3)%nat)) (all_draws 2 4) = 2%nat.
Proof. vm_compute. auto. Qed.
Definition no_chance : chance := mkChance (fun _ => 0) (fun _ => 0) (fun _ => true) (fun _ => 0) true.
Example union_case : exists u g, 
  (do a <- case_res 4 [1; 2; 3; 4; 5; 6] [0; 0; 0; 0; 2; 5]; do b <- case_res 3 [7; 8; 9; 10] [0; 0; 0; 2];
   do u <- union_update_sketch gc (union_new 4) a no_chance; do u <- union_update_sketch gc u b no_chance; union_update gc u 10 77) = Some u
  /\ gadget u = Some g /\ n g = 11 /\ k g = 4 /\ samples g = [10; 2; 5; 4].
Proof. eexists _, _. split; [vm_compute; reflexivity|]. vm_compute. auto. Qed.

(** ** Where the code falls short *)
(** The union's constructor does not check maxK: with maxK = 1 the first Update dereferences the sketch that could not be made. *)
Theorem union_max_k_one_refuted : exists maxK x, union_update (T:=N) gc (union_new maxK) 0 x = None.
Proof. exists 1, 5. reflexivity. Qed.
(** Reset of a union nothing was given to dereferences nil. *)
Theorem union_reset_fresh_refuted : exists maxK, 2 <= maxK /\ union_reset (T:=N) (union_new maxK) = None.
Proof. exists 10. split; [lia|reflexivity]. Qed.
(** UpdateFromRaw accepts more items than n: the result then has fewer n than samples. *)
Theorem union_raw_size_refuted : exists maxK n0 k0 items u g, 2 <= maxK /\ union_update_raw (T:=N) gc (union_new maxK) n0 k0 items no_chance = Some u
  /\ gadget u = Some g /\ n g < N.of_nat (length (samples g)).
Proof. exists 3, 1, 3, [1; 2; 3]. eexists _, _. split; [lia|]. split; [vm_compute; reflexivity|]. split; [reflexivity|]. vm_compute. reflexivity. Qed.
(** FromSlice reads past the end (a panic) for an 8-byte image without the empty flag. *)
Theorem from_slice_short_refuted : exists b, (8 <= length b)%nat /\ get_le 8 8 b = None /\
  nth_error b 0 = Some 1 /\ nth_error b 1 = Some 2 /\ nth_error b 2 = Some 11 /\ nth_error b 3 = Some 0.
Proof. exists [1; 2; 11; 0; 10; 0; 0; 0]. repeat split; auto. Qed.
(** An image with n = 0 but without the empty flag is accepted, and the sketch refuses every Update (the capacity never grows). *)
Theorem decoded_zero_refuses_update_refuted : exists b s, res_from_slice (T:=N) (fun _ _ _ => Some []) (fun l => N.of_nat (length l)) b = Some s /\
  n s = 0 /\ forall d x, res_update (fun l c r => N.max c r) s d x = None.
Proof. exists ([2; 2; 11; 0; 10; 0; 0; 0] ++ le 8 0). eexists. split; [vm_compute; reflexivity|]. split; [reflexivity|]. intros. reflexivity. Qed.
(** ToSlice keeps only 32 bits of k. *)
Theorem round_trip_large_k_refuted : exists k0 s b s', res_new (T:=N) k0 3 = Some s /\ res_to_slice (fun _ => []) s = Some b /\
  res_from_slice (T:=N) (fun _ _ _ => Some []) (fun _ => 0) b = Some s' /\ k s' <> k s.
Proof. exists (2 ^ 32 + 5). eexists _, _, _. split; [vm_compute; reflexivity|]. split; [vm_compute; reflexivity|]. split; [vm_compute; reflexivity|]. vm_compute. discriminate. Qed.

Print Assumptions reservoir_update_never_fails.
Print Assumptions reservoir_size.
Print Assumptions reservoir_members.
Print Assumptions reservoir_whole_stream.
Print Assumptions reservoir_k_constant.
Print Assumptions union_never_fails.
Print Assumptions union_result.
Print Assumptions union_exact.
Print Assumptions reservoir_natural.
Print Assumptions reservoir_uniform.
Print Assumptions reservoir_uniform_sets.
Print Assumptions reservoir_draws_run.
Print Assumptions reservoir_draws_number.
Print Assumptions reservoir_round_trip.
