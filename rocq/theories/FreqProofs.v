(** * Linear probing with backward-shift deletion: the reverse-purge hash map refines a finite map. *)
From Verif Require Import Base ListX Bytes GoInt QuickSelectModel QuickSelectProofs ProbeProofs FreqModel.
From Coq Require Import Sorted.
Local Open Scope nat_scope.

(** ** Cyclic distance *)
Definition dist (n a b : nat) : nat := if a <=? b then b - a else b + n - a.

Lemma next_spec n p : p < n -> next n p = if p + 1 =? n then 0 else p + 1.
Proof.
  intros. unfold next. destruct (Nat.eqb_spec (p + 1) n) as [->|].
  - apply Nat.mod_same; lia.
  - apply Nat.mod_small; lia.
Qed.

Ltac dcase := unfold dist in *;
  repeat match goal with
  | |- context [?a <=? ?b] => destruct (Nat.leb_spec a b)
  | H : context [?a <=? ?b] |- _ => destruct (Nat.leb_spec a b)
  end; try lia.

Lemma dist_lt n a b : a < n -> b < n -> dist n a b < n.
Proof. intros. dcase. Qed.
Lemma dist_self n a : dist n a a = 0.
Proof. dcase. Qed.
Lemma dist_zero n a b : a < n -> b < n -> dist n a b = 0 -> a = b.
Proof. intros. dcase. Qed.
Lemma dist_inj n a b c : a < n -> b < n -> c < n -> dist n a b = dist n a c -> b = c.
Proof. intros. dcase. Qed.
Lemma next_lt n p : p < n -> next n p < n.
Proof. intros. rewrite next_spec by auto. destruct (Nat.eqb_spec (p + 1) n); lia. Qed.
Lemma dist_next n a b : a < n -> b < n -> dist n a (next n b) = if dist n a b + 1 =? n then 0 else dist n a b + 1.
Proof.
  intros. rewrite next_spec by auto.
  destruct (Nat.eqb_spec (b + 1) n); destruct (Nat.eqb_spec (dist n a b + 1) n); dcase.
Qed.
Lemma dist_next_le n a b c : a < n -> b < n -> c < n -> dist n a b < dist n a c -> dist n a (next n b) = dist n a b + 1.
Proof.
  intros. rewrite dist_next by auto. pose proof (dist_lt n a c).
  destruct (Nat.eqb_spec (dist n a b + 1) n); lia.
Qed.
Lemma dist_add n a b c : a < n -> b < n -> c < n -> dist n a b <= dist n a c -> dist n a c = dist n a b + dist n b c.
Proof. intros. dcase. Qed.
Lemma dist_tri n a b c : a < n -> b < n -> c < n -> 
  dist n a c = dist n a b + dist n b c \/ dist n a c + n = dist n a b + dist n b c.
Proof. intros. dcase. Qed.

Section P.
Context {K : Type}.
Variable keqb : K -> K -> bool.
Hypothesis keqb_spec : forall a b, keqb a b = true <-> a = b.
Variable zeroK : K.
Variable hash : K -> N.
Variable dlimit : nat.
Hypothesis dlimit2 : 2 <= dlimit.
Variables del_limited incl : bool.

Notation slot := (@slot K).
Notation zs := (zero_slot zeroK).
Notation "ss @ i" := (nth i ss zs) (at level 8, left associativity).
Notation home := (home hash).
Notation dlen ss := (dist (length ss)).
Notation hm ss i := (home (length ss) (ky ss@i)).

Lemma keqb_false a b : keqb a b = false <-> a <> b.
Proof. pose proof (keqb_spec a b). destruct (keqb a b); intuition congruence. Qed.

Lemma home_lt n k : 0 < n -> home n k < n.
Proof.
  intros. unfold FreqModel.home. assert ((hash k mod N.of_nat n < N.of_nat n)%N) by (apply N.mod_lt; lia). lia.
Qed.

Lemma rd_slot (ss : list slot) i : i < length ss -> nth_error ss i = Some ss@i.
Proof. intros. apply nth_error_nth'. auto. Qed.

Lemma at_upd (ss : list slot) i j x : (upd i x ss)@j = if (i =? j) && (j <? length ss) then x else ss@j.
Proof.
  destruct (Nat.eqb_spec i j) as [->|]; simpl.
  - destruct (Nat.ltb_spec j (length ss)).
    + apply nth_upd_eq; auto.
    + rewrite upd_oob by auto. auto.
  - apply nth_upd_neq; auto.
Qed.

(** ** The invariant and the contents *)
Definition act (ss : list slot) i := active ss@i = true.
Record WF (ss : list slot) : Prop := {
  wf_state : forall i, i < length ss -> act ss i -> st ss@i = dlen ss (hm ss i) i + 1;
  wf_path : forall i q, i < length ss -> q < length ss -> act ss i ->
            dlen ss (hm ss i) q < dlen ss (hm ss i) i -> act ss q;
  wf_inj : forall i j, i < length ss -> j < length ss -> act ss i -> act ss j -> ky ss@i = ky ss@j -> i = j;
  wf_lim : forall i, i < length ss -> st ss@i < dlimit }.

Definition has (ss : list slot) (k : K) (v : Z) := exists i, i < length ss /\ act ss i /\ ky ss@i = k /\ vl ss@i = v.
Definition hole_exists (ss : list slot) := exists e, e < length ss /\ active ss@e = false.

Lemma has_fun ss k v w : WF ss -> has ss k v -> has ss k w -> v = w.
Proof.
  intros W (i & Hi & Ai & Ki & Vi) (j & Hj & Aj & Kj & Vj).
  assert (i = j) by (apply (wf_inj _ W); auto; congruence). subst. auto.
Qed.

(** ** Lookup *)
Definition stop (ss : list slot) k p := active ss@p = false \/ ky ss@p = k.

Lemma hash_probe_ok ss k : WF ss -> hole_exists ss -> forall fuel p,
  p < length ss ->
  (forall q, q < length ss -> dlen ss (home (length ss) k) q < dlen ss (home (length ss) k) p -> act ss q /\ ky ss@q <> k) ->
  length ss - dlen ss (home (length ss) k) p < fuel ->
  exists p', hash_probe keqb fuel ss k p = Some p' /\ p' < length ss /\ stop ss k p' /\
    (forall q, q < length ss -> dlen ss (home (length ss) k) q < dlen ss (home (length ss) k) p' -> act ss q /\ ky ss@q <> k).
Proof.
  intros W (e & He & Ee). set (h := home (length ss) k).
  assert (Hh : h < length ss) by (apply home_lt; lia).
  induction fuel as [|fu IH]; intros p Hp Hq Hf; [lia|].
  cbn [hash_probe]. rewrite rd_slot by auto. cbn [bindo].
  destruct (active ss@p) eqn:Ea; cbn [andb].
  2:{ exists p. unfold stop. auto. }
  destruct (keqb (ky ss@p) k) eqn:Ek; cbn [negb].
  { exists p. apply keqb_spec in Ek. unfold stop. auto. }
  apply keqb_false in Ek.
  assert (Hpe : dlen ss h p < dlen ss h e).
  { destruct (Nat.lt_trichotomy (dlen ss h p) (dlen ss h e)) as [|[E|E]]; auto.
    - apply dist_inj in E; auto. subst. congruence.
    - destruct (Hq e He E) as [A _]. unfold act in A. congruence. }
  pose proof (dist_next_le (length ss) h p e Hh Hp He Hpe) as Hn.
  apply IH.
  - apply next_lt; auto.
  - intros q Hql Hqd. rewrite Hn in Hqd.
    destruct (Nat.eq_dec (dlen ss h q) (dlen ss h p)) as [E|E].
    + apply dist_inj in E; auto. subst q. auto.
    + apply Hq; auto. lia.
  - rewrite Hn. pose proof (dist_lt (length ss) h e). lia.
Qed.

Lemma stop_has ss k p : WF ss -> p < length ss -> stop ss k p ->
  (forall q, q < length ss -> dlen ss (home (length ss) k) q < dlen ss (home (length ss) k) p -> act ss q /\ ky ss@q <> k) ->
  forall v, has ss k v <-> act ss p /\ ky ss@p = k /\ vl ss@p = v.
Proof.
  intros W Hp Hs Hq v. split.
  2:{ intros (A & B & C). exists p. auto. }
  intros (i & Hi & Ai & Ki & Vi).
  assert (Hh : home (length ss) k < length ss) by (apply home_lt; lia).
  destruct (Nat.lt_trichotomy (dlen ss (home (length ss) k) i) (dlen ss (home (length ss) k) p)) as [E|[E|E]].
  - destruct (Hq i Hi E). contradiction.
  - apply dist_inj in E; auto. subst. auto.
  - assert (Ap : act ss p) by (apply (wf_path _ W i p); auto; rewrite Ki; auto).
    destruct Hs as [S|S]; [unfold act in Ap; congruence|].
    assert (i = p) by (apply (wf_inj _ W); auto; congruence). subst. auto.
Qed.

Lemma get_ok ss lg thr n k : WF ss -> hole_exists ss -> 
  exists v, get keqb hash (mkMap lg thr ss n) k = Some v /\ ((has ss k v) \/ (v = 0%Z /\ forall w, ~ has ss k w)).
Proof.
  intros W He. pose proof He as (e & Hel & _).
  unfold get. cbn [m_slots].
  destruct (hash_probe_ok ss k W He (length ss + 1) (home (length ss) k)) as (p & -> & Hp & Hs & Hq).
  - apply home_lt; lia.
  - intros q Hq Hd. rewrite dist_self in Hd. lia.
  - lia.
  - cbn [bindo]. rewrite rd_slot by auto. cbn [bindo].
    pose proof (stop_has ss k p W Hp Hs Hq) as HS.
    destruct (active ss@p) eqn:Ea.
    + destruct Hs as [S|S]; [congruence|]. rewrite (proj2 (keqb_spec _ _) S).
      eexists; split; [reflexivity|]. left. apply HS. auto.
    + eexists; split; [reflexivity|]. right. split; auto. intros w Hw. apply HS in Hw. unfold act in Hw. intuition congruence.
Qed.

(** ** Counting *)
Definition count (ss : list slot) : nat := length (filter active ss).
Definition b2n (b : bool) : nat := if b then 1 else 0.
Lemma count_upd ss i x : i < length ss -> count (upd i x ss) + b2n (active ss@i) = count ss + b2n (active x).
Proof.
  revert i; induction ss as [|s ss IH]; intros [|i] Hi; simpl in *; try lia; unfold count in *; simpl.
  - destruct (active s), (active x); simpl; lia.
  - specialize (IH i ltac:(lia)). destruct (active s); simpl; lia.
Qed.
Lemma count_le ss : count ss <= length ss.
Proof. unfold count. induction ss; simpl; [lia|]. destruct (active a); simpl; lia. Qed.
Lemma count_hole ss : count ss < length ss -> hole_exists ss.
Proof.
  unfold count, hole_exists. induction ss as [|s ss IH]; simpl; intros; [lia|].
  destruct (active s) eqn:E; simpl in *.
  - destruct IH as (e & He & Ee); [lia|]. exists (S e). split; [lia|auto].
  - exists 0. split; [lia|auto].
Qed.
Lemma count_pos_act ss i : i < length ss -> act ss i -> 0 < count ss.
Proof.
  revert i; unfold count, act; induction ss as [|s ss IH]; intros [|i] Hi Ha; simpl in *; try lia.
  - rewrite Ha. simpl. lia.
  - specialize (IH i ltac:(lia) Ha). destruct (active s); simpl; lia.
Qed.
Lemma count_zero ss : count ss = 0 -> forall k v, ~ has ss k v.
Proof. intros H k v (i & Hi & Ai & _). apply count_pos_act in Ai; auto. lia. Qed.

(** ** Insertion *)
Lemma adj_probe_ok ss k : WF ss -> 0 < length ss -> forall fuel p d p' d',
  p < length ss -> d = dlen ss (home (length ss) k) p + 1 -> d < dlimit ->
  (forall q, q < length ss -> dlen ss (home (length ss) k) q < dlen ss (home (length ss) k) p -> act ss q /\ ky ss@q <> k) ->
  hole_exists ss ->
  adj_probe keqb dlimit fuel ss k p d = Some (p', d') ->
  p' < length ss /\ stop ss k p' /\ d' = dlen ss (home (length ss) k) p' + 1 /\ d' < dlimit /\
  (forall q, q < length ss -> dlen ss (home (length ss) k) q < dlen ss (home (length ss) k) p' -> act ss q /\ ky ss@q <> k).
Proof.
  intros W Hn0 fuel. set (h := home (length ss) k).
  assert (Hh : h < length ss) by (apply home_lt; lia).
  induction fuel as [|fu IH]; intros p d p' d' Hp Hd Hdl Hq (e & He & Ee) HR; [discriminate|].
  cbn [adj_probe] in HR. rewrite rd_slot in HR by auto. cbn [bindo] in HR.
  destruct (Nat.eqb_spec (st ss@p) 0) as [E0|E0]; cbn [negb andb] in HR.
  { inversion HR; subst. repeat split; auto; try (apply Hq; auto). left. unfold active. rewrite E0. auto. }
  assert (Ap : act ss p) by (unfold act, active; apply Nat.ltb_lt; lia).
  destruct (keqb (ky ss@p) k) eqn:Ek; cbn [negb] in HR.
  { inversion HR; subst. apply keqb_spec in Ek. repeat split; auto; try (apply Hq; auto). right; auto. }
  apply keqb_false in Ek.
  destruct (Nat.leb_spec dlimit (d + 1)); [discriminate|].
  assert (Hpe : dlen ss h p < dlen ss h e).
  { destruct (Nat.lt_trichotomy (dlen ss h p) (dlen ss h e)) as [|[E|E]]; auto.
    - apply dist_inj in E; auto. subst. unfold act in Ap. congruence.
    - destruct (Hq e He E) as [A _]. unfold act in A. congruence. }
  pose proof (dist_next_le (length ss) h p e Hh Hp He Hpe) as Hn.
  apply IH in HR; auto.
  - apply next_lt; auto.
  - fold h. lia.
  - intros q Hql Hqd. fold h in Hqd. rewrite Hn in Hqd.
    destruct (Nat.eq_dec (dlen ss h q) (dlen ss h p)) as [E|E].
    + apply dist_inj in E; auto. subst q. auto.
    + apply Hq; auto. lia.
  - exists e. auto.
Qed.

(** No error from the probe when the drift limit exceeds the number of entries. *)
Lemma count_ge_list : forall ss l, NoDup l -> (forall i, In i l -> i < length ss /\ act ss i) -> length l <= count ss.
Proof.
  intros ss l ND H.
  assert (E : count ss = length (filter (fun i => active ss@i) (seq 0 (length ss)))).
  { unfold count. clear. assert (G : forall a, length (filter active ss) = length (filter (fun i => active ss@(i - a)) (seq a (length ss)))).
    { induction ss as [|s r IH]; intros a; [auto|]. cbn [length seq filter]. rewrite Nat.sub_diag. cbn [nth].
      rewrite (filter_ext_in (fun i => active (s :: r)@(i - a)) (fun i => active r@(i - S a))).
      - destruct (active s); cbn [length]; rewrite (IH (S a)); auto.
      - intros i Hi. apply in_seq in Hi. replace (i - a) with (S (i - S a)) by lia. auto. }
    rewrite (G 0). f_equal. apply filter_ext. intros. rewrite Nat.sub_0_r. auto. }
  rewrite E. apply NoDup_incl_length; auto. intros i Hi. destruct (H i Hi). apply filter_In. split; auto. apply in_seq. lia.
Qed.
Lemma dist_count ss h p : h < length ss -> p < length ss ->
  (forall q, q < length ss -> dlen ss h q < dlen ss h p -> act ss q) -> dlen ss h p <= count ss.
Proof.
  intros Hh Hp Hq. set (f := fun t => if h + t <? length ss then h + t else h + t - length ss).
  pose proof (dist_lt (length ss) h p Hh Hp) as HL.
  assert (Hf : forall t, t < dlen ss h p -> f t < length ss /\ dlen ss h (f t) = t).
  { intros t Ht. unfold f. destruct (Nat.ltb_spec (h + t) (length ss)); clear Hq; generalize dependent (dlen ss h p); intros; dcase. }
  rewrite <- (seq_length (dlen ss h p) 0), <- (map_length f). apply count_ge_list.
  - apply NoDup_nth. intros i j x Hi Hj. rewrite nth_error_map in Hi, Hj.
    destruct (nth_error (seq 0 (dlen ss h p)) i) as [a|] eqn:Ea; [|discriminate].
    destruct (nth_error (seq 0 (dlen ss h p)) j) as [b|] eqn:Eb; [|discriminate].
    assert (i < dlen ss h p) by (rewrite <- (seq_length (dlen ss h p) 0); apply nth_error_Some; congruence).
    assert (j < dlen ss h p) by (rewrite <- (seq_length (dlen ss h p) 0); apply nth_error_Some; congruence).
    apply nth_error_nth with (d := 0) in Ea, Eb. rewrite seq_nth in Ea, Eb by auto. cbn in Hi, Hj, Ea, Eb. subst a b.
    inversion Hi; inversion Hj; subst. destruct (Hf i H) as [_ E1]. destruct (Hf j H0) as [_ E2]. congruence.
  - intros i Hi. apply in_map_iff in Hi. destruct Hi as (t & <- & Ht). apply in_seq in Ht.
    destruct (Hf t ltac:(lia)) as [A B]. split; auto. apply Hq; auto. lia.
Qed.
Lemma adj_probe_total ss k : WF ss -> hole_exists ss -> count ss + 2 < dlimit -> forall fuel p d,
  p < length ss -> d = dlen ss (home (length ss) k) p + 1 ->
  (forall q, q < length ss -> dlen ss (home (length ss) k) q < dlen ss (home (length ss) k) p -> act ss q) ->
  dlimit - d < fuel ->
  adj_probe keqb dlimit fuel ss k p d <> None.
Proof.
  intros W (e & He & Ee) HL. set (h := home (length ss) k).
  assert (Hh : h < length ss) by (apply home_lt; lia).
  induction fuel as [|fu IH]; intros p d Hp Hd Hq Hf; [lia|].
  cbn [adj_probe]. rewrite rd_slot by auto. cbn [bindo].
  destruct (Nat.eqb_spec (st ss@p) 0) as [E0|E0]; cbn [negb andb]; [discriminate|].
  destruct (keqb (ky ss@p) k) eqn:Ek; cbn [negb]; [discriminate|].
  assert (Ap : act ss p) by (unfold act, active; apply Nat.ltb_lt; lia).
  assert (Hpe : dlen ss h p < dlen ss h e).
  { destruct (Nat.lt_trichotomy (dlen ss h p) (dlen ss h e)) as [|[E|E]]; auto.
    - apply dist_inj in E; auto. subst. unfold act in Ap. congruence.
    - pose proof (Hq e He E) as A. unfold act in A. congruence. }
  pose proof (dist_next_le (length ss) h p e Hh Hp He Hpe) as Hn.
  pose proof (dist_count ss h p Hh Hp Hq).
  destruct (Nat.leb_spec dlimit (d + 1)); [lia|].
  apply IH.
  - apply next_lt; auto.
  - fold h; lia.
  - intros q Hql Hqd. fold h in Hqd. rewrite Hn in Hqd.
    destruct (Nat.eq_dec (dlen ss h q) (dlen ss h p)) as [E|E].
    + apply dist_inj in E; auto. subst q. auto.
    + apply Hq; auto. lia.
  - lia.
Qed.

Lemma act_upd ss i x j : i < length ss -> act (upd i x ss) j <-> (if i =? j then active x = true else act ss j).
Proof.
  intros Hi. unfold act. rewrite at_upd. destruct (Nat.eqb_spec i j); cbn [andb]; [|tauto].
  subst. destruct (Nat.ltb_spec j (length ss)); [tauto|lia].
Qed.
Lemma at_upd_in ss i x j : i < length ss -> (upd i x ss)@j = if i =? j then x else ss@j.
Proof.
  intros Hi. rewrite at_upd. destruct (Nat.eqb_spec i j); cbn [andb]; auto.
  subst. destruct (Nat.ltb_spec j (length ss)); [auto|lia].
Qed.

Lemma adjust_ok m k a m' : WF (m_slots m) -> hole_exists (m_slots m) ->
  m_active m = count (m_slots m) ->
  adjust_or_put keqb hash dlimit m k a = Some m' ->
  WF (m_slots m') /\ m_active m' = count (m_slots m') /\ m_lg m' = m_lg m /\ m_thr m' = m_thr m /\
  length (m_slots m') = length (m_slots m) /\
  ((exists v, has (m_slots m) k v /\ has (m_slots m') k (wrap64 (v + a)) /\ m_active m' = m_active m) \/
   ((forall v, ~ has (m_slots m) k v) /\ has (m_slots m') k a /\ m_active m' = m_active m + 1 /\ m_active m <= m_thr m)) /\
  (forall k' v, k' <> k -> (has (m_slots m') k' v <-> has (m_slots m) k' v)).
Proof.
  destruct m as [lg thr ss n]. unfold adjust_or_put. cbn [m_lg m_thr m_slots m_active].
  intros W He Hn HR. pose proof He as (e & Hel & Ee).
  destruct (adj_probe keqb dlimit (dlimit + 1) ss k (home (length ss) k) 1) as [[p d]|] eqn:EP; [|discriminate].
  cbn [bindo] in HR.
  apply adj_probe_ok in EP; auto; try lia; cycle 1.
  { apply home_lt; lia. }
  { rewrite dist_self; auto. }
  { intros q Hq Hd. rewrite dist_self in Hd. lia. }
  destruct EP as (Hp & Hs & Hd & Hdl & Hq).
  pose proof (stop_has ss k p W Hp Hs Hq) as HS.
  rewrite rd_slot in HR by auto. cbn [bindo] in HR.
  destruct (Nat.eqb_spec (st ss@p) 0) as [E0|E0].
  - assert (Ap : active ss@p = false) by (unfold active; rewrite E0; auto).
    destruct (Nat.ltb_spec thr n); [discriminate|]. inversion HR; subst m'; clear HR. cbn [m_slots m_active m_lg m_thr].
    assert (Ax : forall x v, active (mkSlot d x v : slot) = true) by (intros; unfold active; cbn [st]; apply Nat.ltb_lt; lia).
    split; [constructor|].
    + intros i. rewrite upd_length. intros Hi. rewrite act_upd, at_upd_in by auto.
      destruct (Nat.eqb_spec p i) as [->|]; intros Ai; [exact Hd|]. apply (wf_state _ W); auto.
    + intros i q. rewrite upd_length. intros Hi Hql. rewrite !act_upd, at_upd_in by auto.
      destruct (Nat.eqb_spec p i) as [->|]; intros Ai Hdd; cbn [ky] in *.
      * destruct (i =? q); auto. apply Hq; auto.
      * destruct (p =? q); auto. apply (wf_path _ W i q); auto.
    + intros i j. rewrite upd_length. intros Hi Hj. rewrite !act_upd, !at_upd_in by auto.
      assert (Hno : forall i, i < length ss -> act ss i -> ky ss@i <> k).
      { intros i0 Hi0 A0 E. assert (has ss k (vl ss@i0)) by (exists i0; auto). apply HS in H0. unfold act in H0. intuition congruence. }
      destruct (Nat.eqb_spec p i) as [E1|E1], (Nat.eqb_spec p j) as [E2|E2]; cbn [ky]; intros Ai Aj E; try congruence.
      * symmetry in E. exfalso. eapply (Hno j); eauto.
      * exfalso. eapply (Hno i); eauto.
      * apply (wf_inj _ W); auto.
    + intros i. rewrite upd_length. intros Hi. rewrite at_upd_in by auto. destruct (p =? i); cbn [st]; auto. apply (wf_lim _ W); auto.
    + split. { pose proof (count_upd ss p (mkSlot d k a) Hp) as HC. rewrite Ap, Ax in HC. cbn [b2n] in HC. lia. }
      split; [auto|]. split; [auto|]. split; [apply upd_length|]. split.
      * right. split. { intros v Hv. apply HS in Hv. unfold act in Hv. intuition congruence. }
        split; [|split; [auto|lia]]. exists p. rewrite upd_length, act_upd, at_upd_in, Nat.eqb_refl by auto. auto.
      * intros k' v Hk. unfold has. rewrite upd_length. split; intros (i & Hi & Ai & Ki & Vi).
        -- rewrite act_upd, at_upd_in in * by auto. destruct (p =? i); cbn [ky] in *; [congruence|]. exists i; auto.
        -- exists i. rewrite act_upd, at_upd_in by auto. destruct (Nat.eqb_spec p i); [|auto].
           subst. unfold act in Ai. congruence.
  - assert (Ap : act ss p) by (unfold act, active; apply Nat.ltb_lt; lia).
    destruct (keqb (ky ss@p) k) eqn:Ek; cbn [negb] in HR; [|discriminate].
    apply keqb_spec in Ek. inversion HR; subst m'; clear HR. cbn [m_slots m_active m_lg m_thr].
    set (x := mkSlot (st ss@p) (ky ss@p) (wrap64 (vl ss@p + a))).
    assert (Ax : active x = active ss@p) by auto.
    assert (AE : forall i, act (upd p x ss) i <-> act ss i).
    { intros i. rewrite act_upd by auto. destruct (Nat.eqb_spec p i); [subst; unfold act; rewrite Ax|]; tauto. }
    assert (KE : forall i, ky (upd p x ss)@i = ky ss@i).
    { intros i. rewrite at_upd_in by auto. destruct (Nat.eqb_spec p i); [subst|]; auto. }
    assert (SE : forall i, st (upd p x ss)@i = st ss@i).
    { intros i. rewrite at_upd_in by auto. destruct (Nat.eqb_spec p i); [subst|]; auto. }
    split; [constructor|].
    + intros i. rewrite upd_length, AE, KE, SE. apply (wf_state _ W).
    + intros i q. rewrite upd_length, !AE, KE. apply (wf_path _ W).
    + intros i j. rewrite upd_length, !AE, !KE. apply (wf_inj _ W).
    + intros i. rewrite upd_length, SE. apply (wf_lim _ W).
    + split. { pose proof (count_upd ss p x Hp) as HC. rewrite Ax in HC. lia. }
      split; [auto|]. split; [auto|]. split; [apply upd_length|]. split.
      * left. exists (vl ss@p). split; [exists p; auto|]. split; [|auto].
        exists p. rewrite upd_length, AE, KE, at_upd_in, Nat.eqb_refl by auto. auto.
      * intros k' v Hk. unfold has. rewrite upd_length. split; intros (i & Hi & Ai & Ki & Vi); exists i; rewrite ?AE, ?KE in *;
          rewrite at_upd_in in * by auto; destruct (Nat.eqb_spec p i); subst; auto; congruence.
Qed.

Lemma adjust_total m k a : WF (m_slots m) -> hole_exists (m_slots m) -> count (m_slots m) + 2 < dlimit ->
  m_active m <= m_thr m -> adjust_or_put keqb hash dlimit m k a <> None.
Proof.
  destruct m as [lg thr ss n]. unfold adjust_or_put. cbn [m_lg m_thr m_slots m_active].
  intros W He HL Ht. pose proof He as (e & Hel & Ee).
  destruct (adj_probe keqb dlimit (dlimit + 1) ss k (home (length ss) k) 1) as [[p d]|] eqn:EP.
  - cbn [bindo]. apply adj_probe_ok in EP; auto; try lia; cycle 1.
    { apply home_lt; lia. }
    { rewrite dist_self; auto. }
    { intros q Hq Hd. rewrite dist_self in Hd. lia. }
    destruct EP as (Hp & Hs & _).
    rewrite rd_slot by auto. cbn [bindo].
    destruct (Nat.eqb_spec (st ss@p) 0) as [E0|E0].
    + destruct (Nat.ltb_spec thr n); [lia|discriminate].
    + destruct Hs as [S|S].
      * unfold active in S. apply Nat.ltb_ge in S. lia.
      * rewrite (proj2 (keqb_spec _ _) S). discriminate.
  - exfalso. eapply (adj_probe_total ss k W He HL); [| | | |exact EP].
    + apply home_lt; lia.
    + rewrite dist_self; auto.
    + intros q Hq Hd. rewrite dist_self in Hd. lia.
    + lia.
Qed.

(** ** Deletion *)
Lemma clear_slot_ok ss p : p < length ss -> clear_slot p ss = upd p (mkSlot 0 (ky ss@p) (vl ss@p)) ss.
Proof. intros. unfold clear_slot. rewrite rd_slot by auto. auto. Qed.

Record DI (ss0 : list slot) (p0 e : nat) (ss : list slot) (hole p drift : nat) : Prop := {
  d_len : length ss = length ss0;
  d_hole : hole < length ss; d_p : p < length ss; d_e : e < length ss; d_p0 : p0 < length ss;
  d_empty : active ss@hole = false;
  d_drift : drift = dlen ss hole p;
  d_hp : dlen ss p0 hole < dlen ss p0 p;
  d_pe : dlen ss p0 p <= dlen ss p0 e;
  d_e0 : active ss0@e = false;
  d_state : forall i, i < length ss -> act ss i -> st ss@i = dlen ss (hm ss i) i + 1;
  d_path : forall i q, i < length ss -> q < length ss -> act ss i -> q <> hole ->
           dlen ss (hm ss i) q < dlen ss (hm ss i) i -> act ss q;
  d_between : forall i, i < length ss -> act ss i -> dlen ss hole i < drift ->
              ~ dlen ss (hm ss i) hole < dlen ss (hm ss i) i;
  d_inj : forall i j, i < length ss -> j < length ss -> act ss i -> act ss j -> ky ss@i = ky ss@j -> i = j;
  d_lim : forall i, i < length ss -> st ss@i < dlimit;
  d_tail : forall i, i < length ss -> dlen ss p0 p <= dlen ss p0 i -> ss@i = ss0@i;
  d_head : forall i, i < length ss -> dlen ss p0 i < dlen ss p0 p -> act ss i ->
           exists j, j < length ss /\ dlen ss p0 i <= dlen ss p0 j < dlen ss p0 p /\ act ss0 j /\
                     ky ss@i = ky ss0@j /\ vl ss@i = vl ss0@j;
  d_has : forall k v, has ss k v <-> has ss0 k v;
  d_count : count ss = count ss0 }.

Definition DelPost (ss0 : list slot) (p0 e : nat) (ss : list slot) : Prop :=
  length ss = length ss0 /\ WF ss /\ active ss@e = false /\ count ss = count ss0 /\
  (forall k v, has ss k v <-> has ss0 k v) /\
  (forall i, i < length ss -> dlen ss p0 e < dlen ss p0 i -> ss@i = ss0@i) /\
  (forall i, i < length ss -> dlen ss p0 i < dlen ss p0 e -> act ss i ->
           exists j, j < length ss /\ dlen ss p0 i <= dlen ss p0 j < dlen ss p0 e /\ act ss0 j /\
                     ky ss@i = ky ss0@j /\ vl ss@i = vl ss0@j).

(** When the scan stops (at an empty cell, or past the reach of every entry) the probe paths are whole again. *)
Lemma DI_post ss0 p0 e ss hole p drift : DI ss0 p0 e ss hole p drift ->
  (active ss@p = false \/ forall i, i < length ss -> act ss i -> dlen ss (hm ss i) hole < dlen ss (hm ss i) i -> dlen ss hole i < drift) ->
  DelPost ss0 p0 e ss.
Proof.
  intros D Hstop. destruct D. unfold DelPost. rewrite <- d_len0 in *.
  assert (Hpe : p <> hole) by (intros ->; lia).
  split; [auto|]. split; [constructor; auto|].
  - intros i q Hi Hq Ai Hd. destruct (Nat.eq_dec q hole) as [->|Hne]; [|apply (d_path0 i q); auto].
    exfalso.
    assert (Hh : hm ss i < length ss) by (apply home_lt; lia).
    destruct (Nat.le_gt_cases drift (dlen ss hole i)) as [Hdi|Hdi].
    + destruct Hstop as [Hp|Hp].
      * assert (Ap : act ss p).
        { apply (d_path0 i p); auto.
          assert (i <> p) by (intros ->; unfold act in Ai; congruence).
          pose proof (dist_add (length ss) (hm ss i) hole i Hh d_hole0 Hi ltac:(lia)).
          assert (dlen ss hole p <> dlen ss hole i) by (intros E; apply dist_inj in E; auto; congruence).
          pose proof (dist_tri (length ss) (hm ss i) hole p Hh d_hole0 d_p1).
          pose proof (dist_lt (length ss) (hm ss i) i Hh Hi).
          lia. }
        unfold act in Ap. congruence.
      * specialize (Hp i Hi Ai Hd). lia.
    + apply (d_between0 i); auto.
  - assert (Ee : active ss@e = false).
    { rewrite d_tail0 by auto. auto. }
    split; [auto|]. split; [auto|]. split; [auto|]. split.
    + intros i Hi Hd. apply d_tail0; auto. lia.
    + intros i Hi Hd Ai. destruct (Nat.le_gt_cases (dlen ss p0 p) (dlen ss p0 i)) as [Hpi|Hpi].
      * rewrite (d_tail0 i Hi Hpi). exists i. split; [auto|]. split; [lia|]. split; [|auto].
        unfold act in *. rewrite <- d_tail0; auto.
      * destruct (d_head0 i Hi Hpi Ai) as (j & Hj & Hr & A & B & C). exists j. repeat split; auto; lia.
Qed.

Lemma dist_next_mid n a b : a < n -> b < n -> dist n a b + 1 < n -> dist n a (next n b) = dist n a b + 1.
Proof. intros. rewrite dist_next by auto. destruct (Nat.eqb_spec (dist n a b + 1) n); lia. Qed.

Lemma has_move ss hole p x : hole < length ss -> p < length ss -> hole <> p -> active ss@hole = false -> act ss p ->
  active x = true -> ky x = ky ss@p -> vl x = vl ss@p -> forall y, active y = false ->
  (forall k v, has (upd p y (upd hole x ss)) k v <-> has ss k v) /\ count (upd p y (upd hole x ss)) = count ss.
Proof.
  intros Hh Hp Hne Eh Ap Ax Kx Vx y Ay. split.
  - assert (AT : forall i, (upd p y (upd hole x ss))@i = if p =? i then y else if hole =? i then x else ss@i).
    { intros i. rewrite !at_upd_in by (rewrite ?upd_length; auto). auto. }
    intros k v. unfold has, act in *. rewrite !upd_length. split; intros (i & Hi & Ai & Ki & Vi).
    + rewrite !AT in *.
      destruct (Nat.eqb_spec p i); [congruence|].
      destruct (Nat.eqb_spec hole i) as [Eh2|Eh2]; [|exists i; auto]. exists p. repeat split; auto; congruence.
    + destruct (Nat.eq_dec i p) as [->|].
      * exists hole. rewrite !AT.
        rewrite (proj2 (Nat.eqb_neq p hole)) by auto. rewrite Nat.eqb_refl. repeat split; auto; congruence.
      * exists i. rewrite !AT.
        rewrite (proj2 (Nat.eqb_neq p i)) by auto.
        destruct (Nat.eqb_spec hole i); [subst; congruence|]. auto.
  - pose proof (count_upd ss hole x Hh). pose proof (count_upd (upd hole x ss) p y ltac:(rewrite upd_length; auto)) as H0.
    rewrite at_upd_in in H0 by auto. rewrite (proj2 (Nat.eqb_neq hole p)) in H0 by auto.
    unfold act in Ap. rewrite Eh, Ax in H. rewrite Ap, Ay in H0. cbn [b2n] in *. lia.
Qed.

Lemma del_loop_ok ss0 p0 e : forall fuel ss hole p drift, DI ss0 p0 e ss hole p drift ->
  dlen ss p0 e - dlen ss p0 p < fuel ->
  exists ss', del_loop dlimit del_limited fuel ss hole p drift = Some ss' /\ DelPost ss0 p0 e ss'.
Proof.
  induction fuel as [|fu IH]; intros ss hole p drift D Hf; [lia|].
  pose proof D as D0. destruct D0.
  cbn [del_loop]. rewrite rd_slot by auto. cbn [bindo].
  destruct (Nat.eqb_spec (st ss@p) 0) as [E0|E0].
  { exists ss. split; auto. eapply DI_post; eauto. left. unfold active. rewrite E0. auto. }
  assert (Ap : act ss p) by (unfold act, active; apply Nat.ltb_lt; lia).
  assert (Hpe : dlen ss p0 p < dlen ss p0 e).
  { destruct (Nat.eq_dec (dlen ss p0 p) (dlen ss p0 e)) as [E|]; [|lia].
    apply dist_inj in E; auto. subst p. unfold act in Ap. rewrite d_tail0 in Ap by auto. congruence. }
  assert (Hph : p <> hole) by (intros ->; lia).
  pose proof (dist_lt (length ss) p0 e d_p2 d_e1) as Hen.
  assert (Hn0 : dlen ss p0 (next (length ss) p) = dlen ss p0 p + 1) by (apply dist_next_mid; auto; lia).
  assert (Hhp : dlen ss p0 p = dlen ss p0 hole + drift) by (subst drift; apply dist_add; auto; lia).
  assert (Hn1 : dlen ss hole (next (length ss) p) = drift + 1) by (subst drift; apply dist_next_mid; auto; lia).
  assert (Hh : hm ss p < length ss) by (apply home_lt; lia).
  pose proof (d_state0 p d_p1 Ap) as Hst.
  destruct (Nat.ltb_spec drift (st ss@p)) as [Hmv|Hmv].
  - (* move p into the hole *)
    set (x := mkSlot (st ss@p - drift) (ky ss@p) (vl ss@p)).
    assert (Hxlen : length (upd hole x ss) = length ss) by apply upd_length.
    rewrite clear_slot_ok by (rewrite Hxlen; auto).
    rewrite at_upd_in by auto. rewrite (proj2 (Nat.eqb_neq hole p)) by auto.
    set (y := mkSlot 0 (ky ss@p) (vl ss@p)).
    set (s1 := upd p y (upd hole x ss)).
    assert (Hl1 : length s1 = length ss) by (unfold s1; rewrite !upd_length; auto).
    assert (Ax : active x = true) by (unfold active; cbn [st]; apply Nat.ltb_lt; unfold x; cbn [st]; lia).
    assert (AT : forall i, s1@i = if p =? i then y else if hole =? i then x else ss@i).
    { intros i. unfold s1. rewrite !at_upd_in by (rewrite ?upd_length; auto). auto. }
    assert (AC : forall i, act s1 i <-> (if p =? i then False else if hole =? i then True else act ss i)).
    { intros i. unfold act. rewrite AT. destruct (p =? i); [unfold y; cbn; split; [discriminate|tauto]|].
      destruct (hole =? i); [rewrite Ax; tauto|tauto]. }
    destruct (has_move ss hole p x d_hole0 d_p1 ltac:(auto) d_empty0 Ap Ax eq_refl eq_refl y eq_refl) as [HM CM].
    fold s1 in HM, CM.
    assert (D1 : DI ss0 p0 e s1 p (next (length ss) p) 1).
    { constructor; rewrite ?Hl1.
      - congruence. - auto. - apply next_lt; auto. - auto. - auto.
      - rewrite AT, Nat.eqb_refl. auto.
      - symmetry. rewrite dist_next_mid by (auto; rewrite dist_self; lia). rewrite dist_self. auto.
      - lia. - lia. - auto.
      - intros i Hi. rewrite AC, AT. destruct (Nat.eqb_spec p i); [tauto|]. destruct (Nat.eqb_spec hole i) as [<-|]; intros Ai.
        + unfold x; cbn [st ky]. rewrite Hst.
          pose proof (dist_tri (length ss) (hm ss p) hole p Hh d_hole0 d_p1) as HT.
          pose proof (dist_lt (length ss) hole p d_hole0 d_p1). pose proof (dist_lt (length ss) (hm ss p) hole Hh d_hole0).
          pose proof (dist_lt (length ss) (hm ss p) p Hh d_p1). lia.
        + apply d_state0; auto.
      - intros i q Hi Hq. rewrite !AC, AT.
        destruct (Nat.eqb_spec p i); [tauto|]. destruct (Nat.eqb_spec p q); [congruence|].
        destruct (Nat.eqb_spec hole q); [tauto|].
        destruct (Nat.eqb_spec hole i) as [<-|]; intros Ai Hqp Hd.
        + unfold x in Hd; cbn [ky] in Hd. apply (d_path0 p q); auto.
          pose proof (dist_tri (length ss) (hm ss p) hole p Hh d_hole0 d_p1) as HT.
          pose proof (dist_lt (length ss) (hm ss p) p Hh d_p1). pose proof (dist_lt (length ss) (hm ss p) hole Hh d_hole0). lia.
        + apply (d_path0 i q); auto.
      - intros i Hi Ai Hd. assert (dlen ss p i = 0) by lia. apply dist_zero in H; auto. subst i.
        rewrite AC, Nat.eqb_refl in Ai. tauto.
      - intros i j Hi Hj. rewrite !AC, !AT.
        destruct (Nat.eqb_spec p i); [tauto|]. destruct (Nat.eqb_spec p j); [tauto|].
        destruct (Nat.eqb_spec hole i) as [Ei|], (Nat.eqb_spec hole j) as [Ej|]; intros Ai Aj E; try congruence.
        + unfold x in E; cbn [ky] in E. apply d_inj0 in E; auto. congruence.
        + unfold x in E; cbn [ky] in E. apply d_inj0 in E; auto. congruence.
        + apply d_inj0; auto.
      - intros i Hi. rewrite AT. pose proof (d_lim0 p d_p1). destruct (p =? i); [unfold y; cbn [st]; lia|].
        destruct (hole =? i); [unfold x; cbn [st]; lia|auto].
      - intros i Hi Hd. rewrite Hn0 in Hd. rewrite AT.
        destruct (Nat.eqb_spec p i); [subst; lia|]. destruct (Nat.eqb_spec hole i); [subst; lia|].
        apply d_tail0; auto. lia.
      - intros i Hi Hd. rewrite Hn0 in *. rewrite AC, AT.
        destruct (Nat.eqb_spec p i); [tauto|]. destruct (Nat.eqb_spec hole i) as [<-|]; intros Ai.
        + exists p. unfold x; cbn [ky vl]. rewrite <- d_tail0 by auto.
          split; [auto|]. split; [lia|]. split; [|auto]. unfold act in *. rewrite <- d_tail0; auto.
        + assert (dlen ss p0 i <> dlen ss p0 p) by (intros E; apply dist_inj in E; auto).
          destruct (d_head0 i Hi ltac:(lia) Ai) as (j & Hj & Hr & A & B & C). exists j. repeat split; auto; lia.
      - intros k v. rewrite HM. auto.
      - congruence. }
    replace (0 + 1) with 1 by lia.
    destruct (del_limited && (dlimit <=? 1)) eqn:EL.
    { exfalso. apply andb_true_iff in EL. destruct EL as [_ EL]. apply Nat.leb_le in EL. lia. }
    replace (next (length ss) p) with (next (length ss) p) by auto.
    apply IH; auto. rewrite Hl1, Hn0. lia.
  - (* leave p where it is *)
    assert (D1 : DI ss0 p0 e ss hole (next (length ss) p) (drift + 1)).
    { constructor; auto.
      - apply next_lt; auto.
      - lia. - lia.
      - intros i Hi Ai Hd. destruct (Nat.eq_dec (dlen ss hole i) drift) as [E|E].
        + subst drift. apply dist_inj in E; auto. subst i. lazymatch goal with |- ~ ?G => intros HG end.
          pose proof (dist_add (length ss) (hm ss p) hole p Hh d_hole0 d_p1 ltac:(lia)). lia.
        + apply d_between0; auto. lia.
      - intros i Hi Hd. apply d_tail0; auto. lia.
      - intros i Hi Hd Ai. rewrite Hn0 in *.
        destruct (Nat.eq_dec (dlen ss p0 i) (dlen ss p0 p)) as [E|E].
        + apply dist_inj in E; auto. subst i. exists p. rewrite <- d_tail0 by auto. split; [auto|]. split; [lia|].
          split; [|auto]. unfold act in *. rewrite <- d_tail0; auto.
        + destruct (d_head0 i Hi ltac:(lia) Ai) as (j & Hj & Hr & A & B & C). exists j. repeat split; auto; lia. }
    destruct (del_limited && (dlimit <=? drift + 1)) eqn:EL.
    + exists ss. split; auto. eapply DI_post; eauto. right. intros i Hi Ai Hd.
      apply andb_true_iff in EL. destruct EL as [_ EL]. apply Nat.leb_le in EL.
      pose proof (d_lim0 i Hi). pose proof (d_state0 i Hi Ai).
      assert (Hh' : hm ss i < length ss) by (apply home_lt; lia).
      pose proof (dist_add (length ss) (hm ss i) hole i Hh' d_hole0 Hi ltac:(lia)). lia.
    + apply IH; auto. lia.
Qed.

(** hashDelete removes exactly the entry at [p]; the other entries survive, and the cells outside
    the cluster (between [p] and an empty cell [e]) are untouched. *)
Lemma hash_delete_ok ss p e : WF ss -> p < length ss -> act ss p -> e < length ss -> active ss@e = false ->
  exists ss', hash_delete dlimit del_limited ss p = Some ss' /\ length ss' = length ss /\ WF ss' /\ active ss'@e = false /\
    count ss' + 1 = count ss /\
    (forall k v, has ss' k v <-> has ss k v /\ k <> ky ss@p) /\
    (forall i, i < length ss -> dlen ss p e < dlen ss p i -> ss'@i = ss@i) /\
    (forall i, i < length ss -> dlen ss p i < dlen ss p e -> act ss' i ->
       exists j, j < length ss /\ j <> p /\ dlen ss p i <= dlen ss p j < dlen ss p e /\ act ss j /\
                 ky ss'@i = ky ss@j /\ vl ss'@i = vl ss@j).
Proof.
  intros W Hp Ap He Ee. unfold hash_delete. rewrite clear_slot_ok by auto.
  set (y := mkSlot 0 (ky ss@p) (vl ss@p)). set (s0 := upd p y ss).
  assert (Hl : length s0 = length ss) by apply upd_length.
  assert (AT : forall i, s0@i = if p =? i then y else ss@i) by (intros; apply at_upd_in; auto).
  assert (AC : forall i, act s0 i <-> (if p =? i then False else act ss i)).
  { intros. unfold act. rewrite AT. destruct (p =? i); [cbn; split; [discriminate|tauto]|tauto]. }
  assert (Hpe : p <> e) by (intros ->; unfold act in Ap; congruence).
  assert (Hd : 0 < dlen ss p e).
  { destruct (Nat.eq_dec (dlen ss p e) 0) as [E|]; [|lia]. apply dist_zero in E; auto. congruence. }
  pose proof (dist_lt (length ss) p e Hp He).
  assert (Hn1 : dlen ss p (next (length ss) p) = 1) by (rewrite dist_next_mid; rewrite ?dist_self; auto; lia).
  assert (D : DI s0 p e s0 p (next (length ss) p) 1).
  { constructor; rewrite ?Hl; auto.
    - apply next_lt; auto.
    - rewrite AT, Nat.eqb_refl. auto.
    - rewrite dist_self. lia.
    - lia.
    - rewrite AT. rewrite (proj2 (Nat.eqb_neq p e)) by auto. auto.
    - intros i Hi. rewrite AC, AT. destruct (p =? i); [tauto|]. apply (wf_state _ W); auto.
    - intros i q Hi Hq. rewrite !AC, AT. destruct (p =? i); [tauto|]. destruct (Nat.eqb_spec p q); [congruence|].
      intros. apply (wf_path _ W i q); auto.
    - intros i Hi Ai Hdi. assert (E : dlen ss p i = 0) by lia. apply dist_zero in E; auto. subst i.
      rewrite AC, Nat.eqb_refl in Ai. tauto.
    - intros i j Hi Hj. rewrite !AC, !AT. destruct (p =? i); [tauto|]. destruct (p =? j); [tauto|]. apply (wf_inj _ W); auto.
    - intros i Hi. rewrite AT. destruct (p =? i); [cbn [st]; unfold y; cbn [st]; lia|]. apply (wf_lim _ W); auto.
    - intros i Hi Hdi Ai. assert (E : dlen ss p i = 0) by lia. apply dist_zero in E; auto. subst i.
      rewrite AC, Nat.eqb_refl in Ai. tauto.
    - tauto. }
  destruct (del_loop_ok s0 p e (length ss + 1) s0 p (next (length ss) p) 1 D) as (ss' & HR & P).
  { rewrite Hl. lia. }
  exists ss'. split; [exact HR|]. destruct P as (L & W' & E' & C & H1 & H2 & H3). rewrite L, Hl in *.
  split; [auto|]. split; [auto|]. split; [auto|]. split; [|split; [|split]].
  - rewrite C. pose proof (count_upd ss p y Hp) as HC. unfold act in Ap. rewrite Ap in HC. cbn in HC. unfold s0. lia.
  - intros k v. rewrite H1. unfold has. rewrite Hl. split.
    + intros (i & Hi & Ai & Ki & Vi). rewrite AC, AT in *. destruct (Nat.eqb_spec p i) as [|Hne]; [tauto|]. split; [exists i; auto|].
      intros ->. apply Hne. apply (wf_inj _ W); auto.
    + intros ((i & Hi & Ai & Ki & Vi) & Hk). exists i. rewrite AC, AT. destruct (Nat.eqb_spec p i); [subst; congruence|]. auto.
  - intros i Hi Hdi. rewrite H2 by auto. rewrite AT. destruct (Nat.eqb_spec p i); [subst i; rewrite dist_self in Hdi; lia|auto].
  - intros i Hi Hdi Ai. destruct (H3 i Hi Hdi Ai) as (j & Hj & Hr & A & B & Cc). rewrite AC, AT in *.
    destruct (Nat.eqb_spec p j); [tauto|]. exists j. repeat split; auto; lia.
Qed.

(** ** Sweeping away the non-positive entries *)
Fixpoint chain (n p : nat) (cells : list nat) : Prop :=
  match cells with [] => True | c :: r => c < n /\ next n c = p /\ chain n c r end.
Fixpoint lastc (p : nat) (cells : list nat) : nat := match cells with [] => p | c :: r => lastc c r end.

Definition region_pos (ss : list slot) f p :=
  forall i, i < length ss -> act ss i -> dlen ss p i < dlen ss p f -> (0 < vl ss@i)%Z.

Lemma dist_pred n c f : c < n -> f < n -> c <> f -> dist n c f = dist n (next n c) f + 1.
Proof. intros. rewrite next_spec by auto. destruct (Nat.eqb_spec (c + 1) n); dcase. Qed.

Lemma sweep_ok f : forall cells ss p, WF ss -> f < length ss -> active ss@f = false -> p < length ss ->
  chain (length ss) p cells -> ~ In f cells -> region_pos ss f p ->
  exists ss', sweep dlimit del_limited cells ss (count ss) = Some (ss', count ss') /\
    WF ss' /\ length ss' = length ss /\ active ss'@f = false /\
    (forall k v, has ss' k v -> has ss k v) /\ (forall k v, has ss k v -> (0 < v)%Z -> has ss' k v) /\
    region_pos ss' f (lastc p cells).
Proof.
  induction cells as [|c r IH]; intros ss p W Hf Ef Hp Hch Hnf HR.
  - exists ss. cbn [sweep lastc]. auto 10.
  - destruct Hch as (Hc & Hn & Hch). assert (Hcf : c <> f) by (intros ->; apply Hnf; left; auto).
    assert (Hnf' : ~ In f r) by (intros X; apply Hnf; right; auto).
    cbn [sweep lastc]. rewrite rd_slot by auto. cbn [bindo].
    pose proof (dist_pred (length ss) c f Hc Hf Hcf) as Hdf. rewrite Hn in Hdf.
    assert (Hreg : forall i, i < length ss -> i <> c -> act ss i -> dlen ss c i < dlen ss c f -> (0 < vl ss@i)%Z).
    { intros i Hi Hic Ai Hd. apply HR; auto. pose proof (dist_pred (length ss) c i Hc Hi ltac:(auto)) as Hdi. rewrite Hn in Hdi. lia. }
    destruct (active ss@c && (vl ss@c <=? 0)%Z) eqn:EA.
    + apply andb_true_iff in EA. destruct EA as [Ac Vc]. apply Z.leb_le in Vc.
      destruct (hash_delete_ok ss c f W Hc Ac Hf Ef) as (s1 & HD & L1 & W1 & E1 & C1 & H1 & H2 & H3).
      rewrite HD. cbn [bindo]. replace (count ss - 1) with (count s1) by lia.
      destruct (IH s1 c) as (s2 & HS & W2 & L2 & E2 & G1 & G2 & G3); rewrite ?L1; auto.
      { intros i Hi Ai Hd. rewrite L1 in *. destruct (H3 i Hi Hd Ai) as (j & Hj & Hjc & Hr & Aj & Kj & Vj).
        rewrite Vj. apply Hreg; auto. lia. }
      exists s2. split; [exact HS|]. rewrite L1 in *. split; [auto|]. split; [auto|]. split; [auto|]. split; [|split; [|auto]].
      * intros k v Hv. apply G1, H1 in Hv. tauto.
      * intros k v Hv Hpos. apply G2; auto. apply H1. split; auto. intros ->.
        assert (v = vl ss@c). { apply (has_fun ss (ky ss@c)); auto. exists c; auto. } lia.
    + apply IH; auto. intros i Hi Ai Hd. destruct (Nat.eq_dec i c) as [->|]; [|apply Hreg; auto].
      unfold act in Ai. rewrite Ai in EA. cbn [andb] in EA. apply Z.leb_gt in EA. auto.
Qed.

Lemma chain_low n : forall f tl, f < n -> chain n 0 tl -> chain n f (rev (seq 0 f) ++ tl).
Proof.
  induction f as [|f IH]; intros tl Hf Ht; [exact Ht|].
  rewrite seq_S, rev_app_distr. cbn [rev app Nat.add]. split; [lia|]. split; [|apply IH; auto; lia].
  rewrite next_spec by lia. destruct (Nat.eqb_spec (f + 1) n); lia.
Qed.
Lemma chain_high n a : forall m, a + m <= n -> 0 < a ->
  chain n (if a + m =? n then 0 else a + m) (rev (seq a m)).
Proof.
  induction m as [|m IH]; intros Hm Ha; [exact I|].
  rewrite seq_S, rev_app_distr. cbn [rev app]. split; [lia|]. split.
  - rewrite next_spec by lia. replace (a + m + 1) with (a + S m) by lia. auto.
  - specialize (IH ltac:(lia) Ha). destruct (Nat.eqb_spec (a + m) n); [lia|]. auto.
Qed.
Lemma lastc_app : forall l p x, lastc p (l ++ [x]) = x.
Proof. induction l; intros; simpl; auto. Qed.
Lemma lastc_app2 : forall l p l2, lastc p (l ++ l2) = lastc (lastc p l) l2.
Proof. induction l; intros; simpl; auto. Qed.
Lemma lastc_rev_seq a m p : 0 < m -> lastc p (rev (seq a m)) = a.
Proof. destruct m; [lia|]. intros. cbn [seq rev]. apply lastc_app. Qed.

Lemma sweep_app : forall l1 l2 (ss : list slot) n, sweep dlimit del_limited (l1 ++ l2) ss n =
  (do (s1, n1) <- sweep dlimit del_limited l1 ss n; sweep dlimit del_limited l2 s1 n1).
Proof.
  induction l1 as [|c r IH]; intros; cbn [sweep app bindo]; auto.
  destruct (nth_error ss c); cbn [bindo]; auto. destruct (active s && (vl s <=? 0)%Z); auto.
  destruct (hash_delete dlimit del_limited ss c); cbn [bindo]; auto.
Qed.

Lemma first_empty_ok ss : forall n, n <= length ss -> (exists e, e < n /\ active ss@e = false) ->
  exists f, first_empty n ss = Some f /\ f < n /\ active ss@f = false.
Proof.
  induction n as [|n IH]; intros Hn (e & He & Ee); [lia|].
  cbn [first_empty]. rewrite rd_slot by lia. cbn [bindo].
  destruct (active ss@n) eqn:E.
  - destruct IH as (f & -> & Hf & Ef); [lia| |].
    { exists e. split; auto. destruct (Nat.eq_dec e n); [congruence|lia]. }
    exists f. auto.
  - exists n. auto.
Qed.

Lemma keep_positive_ok ss : WF ss -> hole_exists ss -> 2 <= length ss ->
  exists ss', keep_positive dlimit del_limited incl ss (count ss) = Some (ss', count ss') /\
    WF ss' /\ length ss' = length ss /\ hole_exists ss' /\
    (forall k v, has ss' k v <-> has ss k v /\ (0 < v)%Z).
Proof.
  intros W He Hn. unfold keep_positive.
  destruct (first_empty_ok ss (length ss)) as (f & -> & Hf & Ef); auto. cbn [bindo].
  set (l1 := rev (seq 0 f)). set (l2 := rev (seq (f + 1) (length ss - (f + 1)))).
  assert (Hch : chain (length ss) f (l1 ++ l2)).
  { apply chain_low; auto. pose proof (chain_high (length ss) (f + 1) (length ss - (f + 1)) ltac:(lia) ltac:(lia)) as H.
    replace (f + 1 + (length ss - (f + 1))) with (length ss) in H by lia. rewrite Nat.eqb_refl in H. auto. }
  assert (Hnf : ~ In f (l1 ++ l2)).
  { rewrite in_app_iff. unfold l1, l2. rewrite <- !in_rev, !in_seq. lia. }
  destruct (sweep_ok f (l1 ++ l2) ss f W Hf Ef Hf Hch Hnf) as (s' & HS & W' & L' & E' & G1 & G2 & G3).
  { intros i Hi Ai Hd. rewrite (dist_self _ f) in Hd. lia. }
  assert (HS2 : (do (ss1, n1) <- sweep dlimit del_limited l1 ss (count ss);
                 sweep dlimit del_limited (rev (seq (if incl then f else f + 1) (length ss - (if incl then f else f + 1)))) ss1 n1)
                = Some (s', count s')).
  { rewrite sweep_app in HS. destruct incl; [|exact HS].
    replace (length ss - f) with (S (length ss - (f + 1))) by lia. cbn [seq rev]. replace (S f) with (f + 1) by lia. fold l2.
    destruct (sweep dlimit del_limited l1 ss (count ss)) as [[s1 n1]|]; [|discriminate]. cbn [bindo] in *.
    rewrite sweep_app, HS. cbn [bindo sweep]. rewrite rd_slot by lia. cbn [bindo]. rewrite E'. auto. }
  exists s'. split; [exact HS2|]. split; [auto|]. split; [auto|]. split; [exists f; split; [lia|auto]|].
  assert (Hlast : lastc f (l1 ++ l2) = next (length ss) f).
  { rewrite lastc_app2, next_spec by auto. unfold l2.
    destruct (Nat.eqb_spec (f + 1) (length ss)) as [E|E].
    - replace (length ss - (f + 1)) with 0 by lia. cbn [seq rev lastc]. unfold l1. apply lastc_rev_seq. lia.
    - apply lastc_rev_seq. lia. }
  intros k v. split.
  - intros Hv. split; [apply G1; auto|]. destruct Hv as (i & Hi & Ai & Ki & <-). apply G3; auto.
    assert (i <> f) by (intros ->; unfold act in Ai; congruence).
    rewrite Hlast, L' in *. rewrite next_spec by auto. destruct (Nat.eqb_spec (f + 1) (length ss)); dcase.
  - intros [Hv Hp]. apply G2; auto.
Qed.

(** ** The entries as a list *)
Definition ents (ss : list slot) : list (K * Z) := map (fun s => (ky s, vl s)) (filter active ss).
Definition sumv (l : list (K * Z)) : Z := fold_right (fun e a => (snd e + a)%Z) 0%Z l.
Definition total (ss : list slot) : Z := sumv (ents ss).

Lemma ents_in ss k v : In (k, v) (ents ss) <-> has ss k v.
Proof.
  unfold ents, has, act. rewrite in_map_iff. split.
  - intros (s & E & Hin). apply filter_In in Hin. destruct Hin as [Hin A]. inversion E; subst.
    destruct (In_nth ss s zs Hin) as (i & Hi & <-). exists i. auto.
  - intros (i & Hi & A & <- & <-). exists ss@i. split; auto. apply filter_In. split; auto. apply nth_In; auto.
Qed.
Lemma ents_length ss : length (ents ss) = count ss.
Proof. unfold ents, count. apply map_length. Qed.
Lemma ents_keys_NoDup ss : WF ss -> NoDup (map fst (ents ss)).
Proof.
  intros W. unfold ents. rewrite map_map. cbn [fst].
  assert (H : forall i j, i < length ss -> j < length ss -> act ss i -> act ss j -> ky ss@i = ky ss@j -> i = j) by (apply (wf_inj _ W)).
  clear W. unfold act in *. induction ss as [|s ss IH]; [constructor|].
  assert (IH' : NoDup (map (fun x => ky x) (filter active ss))).
  { apply IH. intros i j Hi Hj Ai Aj E. assert (S i = S j) by (apply H; simpl; auto; lia). lia. }
  cbn [filter]. destruct (active s) eqn:E; auto. cbn [map]. constructor; auto.
  rewrite in_map_iff. intros (x & Ex & Hin). apply filter_In in Hin. destruct Hin as [Hin Ax].
  destruct (In_nth ss x zs Hin) as (i & Hi & Hx). subst x.
  assert (0 = S i) by (apply H; simpl; auto; lia). lia.
Qed.
Lemma ents_NoDup ss : WF ss -> NoDup (ents ss).
Proof. intros W. eapply NoDup_map_inv. apply ents_keys_NoDup; auto. Qed.

Lemma sumv_perm l l' : Permutation l l' -> sumv l = sumv l'.
Proof. induction 1; simpl; lia. Qed.
Lemma sumv_app l l' : sumv (l ++ l') = (sumv l + sumv l')%Z.
Proof. induction l; simpl; lia. Qed.

Lemma ents_perm ss ss' : WF ss -> WF ss' -> (forall k v, has ss k v <-> has ss' k v) -> Permutation (ents ss) (ents ss').
Proof.
  intros W W' H. apply NoDup_Permutation; try (apply ents_NoDup; auto).
  intros [k v]. rewrite !ents_in. auto.
Qed.

(** ** Resizing *)
Lemma new_map_wf lg : WF (m_slots (new_map zeroK lg)) /\ count (m_slots (new_map zeroK lg)) = 0 /\
  length (m_slots (new_map zeroK lg)) = 2 ^ lg /\ (forall k v, ~ has (m_slots (new_map zeroK lg)) k v).
Proof.
  unfold new_map. cbn [m_slots]. assert (A : forall i, (repeat zs (2 ^ lg))@i = zs).
  { intros. apply nth_repeat. }
  assert (C : count (repeat zs (2 ^ lg)) = 0).
  { unfold count. induction (2 ^ lg); simpl; auto. apply IHn. intros. apply nth_repeat. }
  split; [|split; [auto|split; [apply repeat_length|]]].
  - constructor; unfold act; intros *; rewrite ?A; try discriminate. cbn. lia.
  - apply count_zero; auto.
Qed.

(** The invariant of a map. *)
Record MI (m : @hmap K) : Prop := {
  mi_wf : WF (m_slots m);
  mi_count : m_active m = count (m_slots m);
  mi_lg : 3 <= m_lg m;
  mi_len : length (m_slots m) = 2 ^ m_lg m;
  mi_thr : m_thr m = threshold (2 ^ m_lg m);
  mi_cap : m_active m <= m_thr m + 1 }.

Lemma pow2_ge8 lg : 3 <= lg -> 8 <= 2 ^ lg.
Proof. intros. change 8 with (2 ^ 3). apply Nat.pow_le_mono_r; lia. Qed.
Lemma threshold_lt lg : 3 <= lg -> threshold (2 ^ lg) + 1 < 2 ^ lg.
Proof.
  intros H. pose proof (pow2_ge8 lg H). unfold threshold.
  assert (3 * 2 ^ lg / 4 < 2 ^ lg - 1) by (apply Nat.div_lt_upper_bound; lia). lia.
Qed.
Lemma threshold_double lg : 3 <= lg -> threshold (2 ^ lg) + 1 <= threshold (2 ^ (lg + 1)).
Proof.
  intros H. pose proof (pow2_ge8 lg H). unfold threshold. rewrite Nat.pow_add_r. change (2 ^ 1) with 2.
  assert (E : 3 * (2 ^ lg * 2) = 3 * 2 ^ lg + 3 * 2 ^ lg) by lia. rewrite E. clear E. 
  assert (3 * 2 ^ lg / 4 * 4 <= 3 * 2 ^ lg) by (pose proof (Nat.mul_div_le (3 * 2 ^ lg) 4); lia).
  apply Nat.div_le_lower_bound; lia.
Qed.
Lemma threshold_pos lg : 3 <= lg -> 6 <= threshold (2 ^ lg).
Proof.
  intros H. pose proof (pow2_ge8 lg H). unfold threshold. apply Nat.div_le_lower_bound; lia.
Qed.
Lemma threshold_mono a b : a <= b -> threshold (2 ^ a) <= threshold (2 ^ b).
Proof. intros. unfold threshold. apply Nat.div_le_mono; [lia|]. apply Nat.mul_le_mono_l. apply Nat.pow_le_mono_r; lia. Qed.

Lemma MI_hole m : MI m -> hole_exists (m_slots m).
Proof.
  intros []. apply count_hole. pose proof (threshold_lt (m_lg m) mi_lg0). lia.
Qed.

Lemma MI_new lg : 3 <= lg -> MI (new_map zeroK lg).
Proof.
  intros H. destruct (new_map_wf lg) as (W & C & L & _). constructor; auto; cbn [new_map m_active m_thr m_lg]; auto; lia.
Qed.

Lemma MI_adjust m k a m' : MI m -> adjust_or_put keqb hash dlimit m k a = Some m' -> 
  MI m' /\ m_lg m' = m_lg m /\
  ((exists v, has (m_slots m) k v /\ has (m_slots m') k (wrap64 (v + a)) /\ m_active m' = m_active m) \/
   ((forall v, ~ has (m_slots m) k v) /\ has (m_slots m') k a /\ m_active m' = m_active m + 1 /\ m_active m <= m_thr m)) /\
  (forall k' v, k' <> k -> (has (m_slots m') k' v <-> has (m_slots m) k' v)).
Proof.
  intros I HA. pose proof (MI_hole m I) as He. destruct I.
  destruct (adjust_ok m k a m' mi_wf0 He mi_count0 HA) as (W & C & L & T & Ln & Hc & Hk).
  split; [constructor; auto; try congruence|split; [auto|split; auto]].
  rewrite T. destruct Hc as [(v & _ & _ & E)|(_ & _ & E & Ht)]; lia.
Qed.

Lemma put_all_ok : forall old m m', MI m -> NoDup (map fst (ents old)) ->
  (forall k v w, In (k, v) (ents old) -> ~ has (m_slots m) k w) ->
  put_all keqb hash dlimit old m = Some m' ->
  MI m' /\ m_lg m' = m_lg m /\ m_active m' = m_active m + count old /\
  forall k v, has (m_slots m') k v <-> has (m_slots m) k v \/ In (k, v) (ents old).
Proof.
  induction old as [|s r IH]; intros m m' I ND Hd HR.
  - inversion HR; subst. split; [auto|]. split; [auto|]. split; [cbn; lia|]. cbn. tauto.
  - cbn [put_all] in HR. unfold ents, count in *. cbn [filter] in *. destruct (active s) eqn:Ea.
    + destruct (adjust_or_put keqb hash dlimit m (ky s) (vl s)) as [m1|] eqn:EA; [|discriminate]. cbn [bindo] in HR.
      destruct (MI_adjust m _ _ _ I EA) as (I1 & L1 & Hc & Hk).
      cbn [map] in ND. inversion ND as [|? ? Hnin ND']; subst.
      assert (Hno : forall w, ~ has (m_slots m) (ky s) w) by (intros w; apply (Hd (ky s) (vl s)); left; auto).
      destruct Hc as [(v & Hv & _)|(_ & Hv & Hn & _)]; [exfalso; eapply Hno; eauto|].
      assert (HE : forall k v, has (m_slots m1) k v <-> has (m_slots m) k v \/ (k, v) = (ky s, vl s)).
      { intros k v. split.
        - intros Hx. destruct (keqb k (ky s)) eqn:E.
          + apply keqb_spec in E. subst. right. f_equal. eapply has_fun; eauto. destruct I1; auto.
          + apply keqb_false in E. left. apply Hk; auto.
        - intros [Hx|Hx].
          + apply Hk; auto. intros ->. eapply Hno; eauto.
          + inversion Hx; subst. auto. }
      destruct (IH m1 m' I1 ND') as (I2 & L2 & N2 & H2); auto.
      { intros k v w Hin Hw. apply HE in Hw. destruct Hw as [Hw|Hw].
        - eapply Hd; [right; exact Hin|eauto].
        - inversion Hw; subst. apply Hnin. cbn [fst]. change (ky s) with (fst (ky s, v)). apply in_map; auto. }
      split; [auto|]. split; [congruence|]. split; [cbn [length]; lia|].
      intros k v. rewrite H2, HE. cbn [map In]. split; intros; intuition congruence.
    + apply IH; auto.
Qed.

Lemma put_all_total : forall old m, MI m -> NoDup (map fst (ents old)) ->
  (forall k v w, In (k, v) (ents old) -> ~ has (m_slots m) k w) -> m_thr m + 2 < dlimit ->
  m_active m + count old <= m_thr m + 1 ->
  put_all keqb hash dlimit old m <> None.
Proof.
  induction old as [|s r IH]; intros m I ND Hd HL HC; [discriminate|].
  cbn [put_all]. unfold ents, count in *. cbn [filter] in *. destruct (active s) eqn:Ea.
  - cbn [length] in HC. destruct (adjust_or_put keqb hash dlimit m (ky s) (vl s)) as [m1|] eqn:EA.
    + cbn [bindo]. destruct (MI_adjust m _ _ _ I EA) as (I1 & L1 & Hc & Hk).
      cbn [map] in ND. inversion ND as [|? ? Hnin ND']; subst.
      apply IH; auto.
      * intros k v w Hin Hw. assert (k <> ky s).
        { intros ->. apply Hnin. change (ky s) with (fst (ky s, v)). apply in_map; auto. }
        apply Hk in Hw; auto. eapply Hd; [right; exact Hin|eauto].
      * destruct I, I1. rewrite mi_thr1, L1, <- mi_thr0. auto.
      * destruct I, I1. rewrite mi_thr1, L1, <- mi_thr0. destruct Hc as [(v & _ & _ & E)|(_ & _ & E & _)]; lia.
    + exfalso. eapply adjust_total; [| | | |exact EA]; auto; try (destruct I; auto; lia). apply MI_hole; auto.
  - apply IH; auto.
Qed.

Lemma resize_ok m m' : MI m -> resize keqb zeroK hash dlimit m = Some m' ->
  MI m' /\ m_lg m' = m_lg m + 1 /\ m_active m' = m_active m /\
  (forall k v, has (m_slots m') k v <-> has (m_slots m) k v).
Proof.
  intros I HR. pose proof I as [W C L Ln T Cp]. unfold resize in HR.
  destruct (new_map_wf (m_lg m + 1)) as (_ & _ & _ & Hno).
  apply put_all_ok in HR; auto.
  - destruct HR as (I' & L' & N' & H'). split; [auto|]. split; [rewrite L'; auto|]. split; [rewrite N'; cbn; lia|].
    intros k v. rewrite H', ents_in. split; [intros [Hx|Hx]; auto; exfalso; eapply Hno; eauto|auto].
  - apply MI_new. lia.
  - apply ents_keys_NoDup; auto.
Qed.
Lemma resize_total m : MI m -> threshold (2 ^ (m_lg m + 1)) + 2 < dlimit -> resize keqb zeroK hash dlimit m <> None.
Proof.
  intros I HL. pose proof I as [W C L Ln T Cp]. unfold resize. apply put_all_total.
  - apply MI_new. lia.
  - apply ents_keys_NoDup; auto.
  - intros. apply new_map_wf.
  - exact HL.
  - cbn [new_map m_active m_thr]. pose proof (threshold_double (m_lg m) L). lia.
Qed.

(** ** Purging *)
Definition countge (v : Z) (l : list Z) : nat := length (filter (Z.leb v) l).
Lemma countge_perm v l l' : Permutation l l' -> countge v l = countge v l'.
Proof.
  unfold countge. induction 1; simpl; auto; try lia;
    repeat match goal with |- context [if ?b then _ else _] => destruct b end; simpl; lia.
Qed.
Lemma countge_app v l l' : countge v (l ++ l') = countge v l + countge v l'.
Proof. unfold countge. rewrite filter_app, app_length. auto. Qed.
Lemma countge_all v l : (forall x, In x l -> (v <= x)%Z) -> countge v l = length l.
Proof.
  unfold countge. induction l; simpl; intros H; auto.
  rewrite (proj2 (Z.leb_le v a)) by (apply H; auto). simpl. rewrite IHl; auto.
Qed.
Lemma countge_le v l : countge v l <= length l.
Proof. unfold countge. induction l; simpl; auto. destruct (v <=? a)%Z; simpl; lia. Qed.

Lemma adjust_all_at a ss i : i < length ss ->
  (adjust_all a ss)@i = mkSlot (st ss@i) (ky ss@i) (wrap64 (vl ss@i + a)).
Proof.
  intros. unfold adjust_all.
  rewrite (nth_indep _ zs (mkSlot (st zs) (ky zs) (wrap64 (vl zs + a)))) by (rewrite map_length; auto).
  exact (map_nth (fun s => mkSlot (st s) (ky s) (wrap64 (vl s + a))) ss zs i).
Qed.
Lemma adjust_all_wf a ss : WF ss -> WF (adjust_all a ss).
Proof.
  intros W. assert (L : length (adjust_all a ss) = length ss) by (unfold adjust_all; apply map_length).
  assert (A : forall i, i < length ss -> act (adjust_all a ss) i <-> act ss i).
  { intros. unfold act. rewrite adjust_all_at by auto. tauto. }
  constructor; rewrite L.
  - intros i Hi. rewrite A, adjust_all_at by auto. apply (wf_state _ W); auto.
  - intros i q Hi Hq. rewrite !A, adjust_all_at by auto. apply (wf_path _ W); auto.
  - intros i j Hi Hj. rewrite !A, !adjust_all_at by auto. apply (wf_inj _ W); auto.
  - intros i Hi. rewrite adjust_all_at by auto. apply (wf_lim _ W); auto.
Qed.
Lemma adjust_all_has a ss k v : has (adjust_all a ss) k v <-> exists w, has ss k w /\ v = wrap64 (w + a).
Proof.
  assert (L : length (adjust_all a ss) = length ss) by (unfold adjust_all; apply map_length).
  unfold has, act. rewrite L. split.
  - intros (i & Hi & A). rewrite adjust_all_at in A by auto. cbn in A. destruct A as (A & B & C).
    exists (vl ss@i). split; [exists i; auto|auto].
  - intros (w & (i & Hi & A & B & C) & ->). exists i. rewrite adjust_all_at by auto. cbn. rewrite C. auto.
Qed.
Lemma adjust_all_count a ss : count (adjust_all a ss) = count ss.
Proof.
  unfold count, adjust_all. induction ss as [|s r IH]; auto. cbn [map filter].
  change (active _) with (active s) at 1. destruct (active s); cbn [length]; auto.
Qed.

Definition loss (v : Z) (l : list Z) : Z := fold_right (fun x a => (Z.min x v + a)%Z) 0%Z l.
Lemma loss_ge v l : (0 <= v)%Z -> (forall x, In x l -> (0 <= x)%Z) -> (v * Z.of_nat (countge v l) <= loss v l)%Z.
Proof.
  unfold countge. intros Hv. induction l as [|x l IH]; intros H; cbn [filter loss fold_right]; [cbn; lia|].
  specialize (IH (fun y Hy => H y (or_intror Hy))). pose proof (H x (or_introl eq_refl)).
  unfold loss in IH. destruct (Z.leb_spec v x); cbn [length]; lia.
Qed.
Lemma sub_filter_sum v l : sumv (filter (fun e => (0 <? snd e)%Z) (map (fun e : K * Z => (fst e, (snd e - v)%Z)) l)) =
  (sumv l - loss v (map snd l))%Z.
Proof.
  unfold sumv, loss in *. induction l as [|[k x] l IH]; auto. cbn [map filter snd fst fold_right].
  destruct (Z.ltb_spec 0 (x - v)); cbn [fold_right snd]; lia.
Qed.

Definition values_ok (ss : list slot) := forall k v, has ss k v -> (0 < v < 2 ^ 63)%Z.

Lemma map_vl_ents ss : map vl (filter active ss) = map snd (ents ss).
Proof. unfold ents. rewrite map_map. auto. Qed.

(** Purging picks a value of the table that at least half of the sampled values reach, subtracts it from every
    entry and drops the entries that are no longer positive. *)
Lemma purge_ok m sz : MI m -> values_ok (m_slots m) -> 0 < sz -> 0 < m_active m ->
  exists m' v, purge dlimit del_limited incl m sz = Some (m', v) /\ MI m' /\ m_lg m' = m_lg m /\
    m_active m' < m_active m /\
    (exists k, has (m_slots m) k v) /\
    (forall k w, has (m_slots m') k w <-> has (m_slots m) k (w + v)%Z /\ (0 < w)%Z) /\
    (total (m_slots m') + v * Z.of_nat (Nat.min sz (m_active m) - Nat.min sz (m_active m) / 2) <= total (m_slots m))%Z.
Proof.
  intros I HV Hsz Hact. pose proof I as [W C L Ln T Cp]. pose proof (MI_hole m I) as He.
  unfold purge. set (limit := Nat.min sz (m_active m)).
  assert (Hlim : 0 < limit <= count (m_slots m)) by (unfold limit; lia).
  unfold samples. rewrite map_vl_ents, map_length, ents_length.
  destruct (Nat.ltb_spec (count (m_slots m)) limit); [lia|]. cbn [bindo].
  set (all := map snd (ents (m_slots m))).
  assert (Hall : length all = count (m_slots m)) by (unfold all; rewrite map_length; apply ents_length).
  set (smp := firstn limit all).
  assert (Hsmp : length smp = limit) by (unfold smp; rewrite firstn_length; lia).
  assert (Hhalf : limit / 2 < limit) by (apply Nat.div_lt; lia).
  destruct (quick_select_correct Z.ltb (fun x => x) (fun a b => eq_refl) smp 0 (limit - 1) (limit / 2)) as (arr & v & -> & Hs & Hv & _ & HG); try lia.
  cbn [bindo].
  pose proof (swaps_perm _ _ _ _ Hs) as HP.
  assert (Hin : In v all).
  { rewrite <- (firstn_skipn limit all). apply in_or_app. left. fold smp. eapply Permutation_in; [apply Permutation_sym, HP|]. eapply nth_error_In; eauto. }
  assert (Hk : exists k, has (m_slots m) k v).
  { unfold all in Hin. apply in_map_iff in Hin. destruct Hin as ([k v'] & E & Hin). cbn in E. subst v'.
    exists k. apply ents_in; auto. }
  assert (Hvr : (0 < v < 2 ^ 63)%Z) by (destruct Hk as [k Hk]; apply (HV k); auto).
  rewrite (wrap64_id (- v)) by (unfold int64; lia).
  set (adj := adjust_all (- v) (m_slots m)).
  assert (Hadj : forall k w, has adj k w <-> has (m_slots m) k (w + v)%Z).
  { intros k w. unfold adj. rewrite adjust_all_has. split.
    - intros (w0 & H0 & ->). pose proof (HV _ _ H0). rewrite wrap64_id by (unfold int64; lia). replace (w0 + - v + v)%Z with w0 by lia. auto.
    - intros Hw. exists (w + v)%Z. split; auto. pose proof (HV _ _ Hw). rewrite wrap64_id by (unfold int64; lia). lia. }
  assert (Lad : length adj = length (m_slots m)) by (unfold adj, adjust_all; apply map_length).
  pose proof (pow2_ge8 _ L) as Hge8.
  destruct (keep_positive_ok adj) as (ss' & HK & W' & L' & He' & H').
  { apply adjust_all_wf; auto. }
  { apply count_hole. unfold adj at 1. rewrite adjust_all_count. rewrite Lad. pose proof (threshold_lt _ L). lia. }
  { lia. }
  assert (Eca : m_active m = count adj) by (unfold adj; rewrite adjust_all_count; auto).
  rewrite <- Eca in HK. rewrite HK. cbn [bindo].
  assert (Hfin : forall k w, has ss' k w <-> has (m_slots m) k (w + v)%Z /\ (0 < w)%Z).
  { intros. rewrite H', Hadj. tauto. }
  assert (PE : Permutation (ents ss') (filter (fun e => (0 <? snd e)%Z) (map (fun e : K * Z => (fst e, (snd e - v)%Z)) (ents (m_slots m))))).
  { apply NoDup_Permutation.
    - apply ents_NoDup; auto.
    - apply NoDup_filter. apply (NoDup_map_inv fst). rewrite map_map. cbn [fst]. apply ents_keys_NoDup; auto.
    - intros [k w]. rewrite ents_in, Hfin, filter_In, in_map_iff. cbn [snd]. rewrite Z.ltb_lt. split.
      + intros [Ha Hb]. split; auto. exists (k, (w + v)%Z). cbn. split; [f_equal; lia|]. apply ents_in; auto.
      + intros [(e & E & Hin') Hb]. destruct e as [k' w']. cbn in E. inversion E; subst. split; auto.
        apply ents_in. replace (w' - v + v)%Z with w' by lia. auto. }
  exists (mkMap (m_lg m) (m_thr m) ss' (count ss')), v. split; [reflexivity|].
  assert (Hless : count ss' < m_active m).
  { rewrite <- ents_length, (Permutation_length PE), C, <- ents_length.
    rewrite <- (map_length (fun e : K * Z => (fst e, (snd e - v)%Z)) (ents (m_slots m))).
    destruct Hk as [k Hk]. apply ents_in in Hk.
    assert (Hx : In (k, 0%Z) (map (fun e : K * Z => (fst e, (snd e - v)%Z)) (ents (m_slots m)))).
    { apply in_map_iff. exists (k, v). cbn. split; auto. f_equal; lia. }
    revert Hx. clear. generalize (map (fun e : K * Z => (fst e, (snd e - v)%Z)) (ents (m_slots m))).
    intros l. induction l as [|[a b] l IH]; cbn [In filter snd length]; [tauto|].
    assert (HL : length (filter (fun e : K * Z => (0 <? snd e)%Z) l) <= length l).
    { clear. induction l as [|e l IH]; cbn; [lia|]. destruct (0 <? snd e)%Z; cbn; lia. }
    intros [E|Hin].
    - inversion E; subst. cbn. lia.
    - specialize (IH Hin). destruct (0 <? b)%Z; cbn [length]; lia. }
  split; [constructor; cbn [m_slots m_active m_lg m_thr]; auto; lia|].
  cbn [m_lg m_active m_slots]. split; [auto|]. split; [auto|]. split; [auto|]. split; [auto|].
  unfold total. rewrite (sumv_perm _ _ PE), sub_filter_sum. fold all.
  assert (Hc : limit - limit / 2 <= countge v all).
  { unfold all. rewrite <- (firstn_skipn limit (map snd (ents (m_slots m)))), countge_app. fold all. fold smp.
    rewrite (countge_perm v _ _ HP), <- (firstn_skipn (limit / 2) arr), countge_app.
    assert (Harr : length arr = limit) by (rewrite <- (Permutation_length HP); auto).
    rewrite (countge_all v (skipn (limit / 2) arr)).
    - rewrite skipn_length. lia.
    - intros x Hx. apply In_nth_error in Hx. destruct Hx as [i Hi]. rewrite nth_error_skipn' in Hi.
      destruct i as [|i].
      + rewrite Nat.add_0_r in Hi. rewrite Hv in Hi. inversion Hi. lia.
      + apply (HG (limit / 2 + S i)); auto.
        assert (limit / 2 + S i < length arr) by (apply nth_error_Some; congruence). lia. }
  pose proof (loss_ge v all ltac:(lia)) as HLs.
  assert (forall x, In x all -> (0 <= x)%Z).
  { intros x Hx. unfold all in Hx. apply in_map_iff in Hx. destruct Hx as ([k w] & <- & Hx). apply ents_in in Hx. cbn. pose proof (HV _ _ Hx). lia. }
  specialize (HLs H0). nia.
Qed.

(** ** The iterator visits every entry exactly once *)
Variable golden : nat -> N.
Notation stride := (stride golden).

Lemma stride_odd n : N.odd (N.lor (golden n) 1) = true.
Proof. rewrite <- N.bit0_odd, N.lor_spec. cbn. apply orb_true_r. Qed.

Definition ipos (n j : nat) : nat := (j * stride n) mod n.
Lemma ipos_step n j : 0 < n -> (ipos n j + stride n) mod n = ipos n (S j).
Proof. intros. unfold ipos. rewrite Nat.add_mod_idemp_l by lia. f_equal. lia. Qed.
Lemma ipos_onto lg s : s < 2 ^ lg -> exists j, j < 2 ^ lg /\ ipos (2 ^ lg) j = s.
Proof.
  intros Hs. assert (E : N.to_nat (2 ^ N.of_nat lg) = 2 ^ lg) by (rewrite N2Nat.inj_pow, Nat2N.id; auto).
  destruct (sprobe_onto (N.of_nat lg) 0 (N.lor (golden (2 ^ lg)) 1) s (stride_odd _)) as (j & Hj & Hx); [lia|].
  exists j. split; [lia|]. rewrite <- Hx. unfold sprobe, ipos, FreqModel.stride.
  rewrite N.add_0_l. rewrite N2Nat.inj_mod, N2Nat.inj_mul, Nat2N.id, E. auto.
Qed.

Lemma iter_ok ss : 0 < length ss -> forall fuel j, 
  iter golden fuel ss (ipos (length ss) j) (count (map (fun t => ss@(ipos (length ss) t)) (seq j fuel))) =
  Some (ents (map (fun t => ss@(ipos (length ss) t)) (seq j fuel))).
Proof.
  intros Hn. set (n := length ss) in *.
  assert (Z0 : forall l, count l = 0 -> ents l = []).
  { intros l H. apply length_zero_iff_nil. rewrite ents_length. auto. }
  induction fuel as [|fu IH]; intros j; [reflexivity|].
  cbn [seq map]. assert (Hp : ipos n j < n) by (apply Nat.mod_upper_bound; lia).
  destruct (count (ss@(ipos n j) :: map (fun t => ss@(ipos n t)) (seq (S j) fu))) as [|rem] eqn:EC.
  - cbn [iter]. rewrite Z0; auto.
  - cbn [iter]. rewrite rd_slot by auto. cbn [bindo]. fold n. rewrite ipos_step by auto.
    unfold count, ents in *. cbn [filter] in *. destruct (active ss@(ipos n j)).
    + cbn [length map] in *. assert (E : rem = length (filter active (map (fun t => ss@(ipos n t)) (seq (S j) fu)))) by lia.
      rewrite E, IH. auto.
    + rewrite <- EC, IH. auto.
Qed.

Lemma filter_perm {A} (f : A -> bool) l l' : Permutation l l' -> Permutation (filter f l) (filter f l').
Proof.
  induction 1; cbn; auto.
  - destruct (f x); auto.
  - destruct (f x), (f y); auto. apply perm_swap.
  - eapply perm_trans; eauto.
Qed.
Lemma map_at_seq (ss : list slot) : map (fun t => ss@t) (seq 0 (length ss)) = ss.
Proof.
  apply nth_error_ext. intros i. destruct (Nat.lt_ge_cases i (length ss)).
  - rewrite map_seq_nth by auto. symmetry. apply rd_slot; auto.
  - rewrite (proj2 (nth_error_None _ _)) by (rewrite map_length, seq_length; auto). symmetry. apply nth_error_None; auto.
Qed.

Lemma entries_ok m : MI m -> exists l, entries golden m = Some l /\ Permutation l (ents (m_slots m)).
Proof.
  intros I. destruct I. unfold entries. pose proof (pow2_ge8 _ mi_lg0) as H8. set (n := length (m_slots m)) in *.
  set (order := map (ipos n) (seq 0 n)).
  assert (PO : Permutation order (seq 0 n)).
  { apply Permutation_sym. apply NoDup_Permutation_bis.
    - apply seq_NoDup.
    - unfold order. rewrite map_length. lia.
    - intros x Hx. apply in_seq in Hx. rewrite mi_len0 in *. destruct (ipos_onto (m_lg m) x) as (j & Hj & E); [lia|].
      unfold order. apply in_map_iff. exists j. rewrite mi_len0. split; [exact E|]. apply in_seq. lia. }
  assert (PS : Permutation (map (fun t => (m_slots m)@(ipos n t)) (seq 0 n)) (m_slots m)).
  { rewrite <- (map_map (ipos n) (fun t => (m_slots m)@t)). fold order.
    apply perm_trans with (map (fun t => (m_slots m)@t) (seq 0 n)); [apply Permutation_map; auto|].
    unfold n. rewrite map_at_seq. auto. }
  pose proof (iter_ok (m_slots m) ltac:(lia) n 0) as HI. fold n in HI.
  assert (EC : count (map (fun t => (m_slots m)@(ipos n t)) (seq 0 n)) = m_active m).
  { rewrite mi_count0. unfold count. apply Permutation_length. apply filter_perm; auto. }
  rewrite EC in HI. replace (ipos n 0) with 0 in HI by (unfold ipos; rewrite Nat.mod_0_l; lia).
  eexists. split; [exact HI|]. unfold ents. apply Permutation_map. apply filter_perm; auto.
Qed.

(** * The sketches *)
Notation update_many := (update_many keqb zeroK hash dlimit del_limited incl).
Notation update_all := (update_all keqb zeroK hash dlimit del_limited incl).
Notation adjust := (adjust_or_put keqb hash dlimit).
Notation getm := (get keqb hash).
Notation mergem := (merge keqb zeroK hash dlimit del_limited incl golden).

Lemma has_dec (m : @hmap K) k : MI m -> (exists v, has (m_slots m) k v) \/ (forall v, ~ has (m_slots m) k v).
Proof.
  intros I. destruct (get_ok (m_slots m) (m_lg m) (m_thr m) (m_active m) k) as (v & _ & [H|[_ H]]).
  - destruct I; auto.
  - eapply MI_hole; eauto.
  - left. eauto.
  - right. auto.
Qed.
Lemma get_has m k : MI m -> exists v, getm m k = Some v /\ (has (m_slots m) k v \/ (v = 0%Z /\ forall w, ~ has (m_slots m) k w)).
Proof.
  intros I. destruct m as [lg thr ss n]. apply (get_ok).
  - destruct I; auto.
  - change ss with (m_slots (mkMap lg thr ss n)). eapply MI_hole; eauto.
Qed.

(** ** Sums *)
Definition others (k : K) (l : list (K * Z)) := filter (fun e => negb (keqb (fst e) k)) l.
Lemma others_in k l k' v : In (k', v) (others k l) <-> In (k', v) l /\ k' <> k.
Proof.
  unfold others. rewrite filter_In. cbn [fst]. pose proof (keqb_spec k' k). destruct (keqb k' k); cbn; intuition congruence.
Qed.
Lemma others_absent k l : (forall v, ~ In (k, v) l) -> others k l = l.
Proof.
  unfold others. induction l as [|[a b] l IH]; intros H; auto. cbn [filter fst].
  destruct (keqb a k) eqn:E.
  - apply keqb_spec in E. subst. exfalso. apply (H b). left; auto.
  - cbn. f_equal. apply IH. intros v Hv. apply (H v). right; auto.
Qed.
Lemma others_split k v l : NoDup (map fst l) -> In (k, v) l -> Permutation l ((k, v) :: others k l).
Proof.
  induction l as [|[a b] l IH]; intros ND Hin; [destruct Hin|]. cbn [map] in ND. inversion ND as [|? ? Hn ND']; subst.
  unfold others. cbn [filter fst]. destruct Hin as [E|Hin].
  - inversion E; subst. rewrite (proj2 (keqb_spec k k) eq_refl). cbn [negb].
    apply Permutation_cons; auto. fold (others k l). rewrite others_absent; auto.
    intros w Hw. apply Hn. change k with (fst (k, w)). apply in_map; auto.
  - destruct (keqb a k) eqn:E.
    + apply keqb_spec in E. subst. exfalso. apply Hn. change k with (fst (k, v)). apply in_map; auto.
    + cbn [negb]. fold (others k l). rewrite perm_swap. apply Permutation_cons; auto.
Qed.
Lemma others_NoDup k l : NoDup (map fst l) -> NoDup (others k l).
Proof. intros. apply NoDup_filter. eapply NoDup_map_inv; eauto. Qed.

Lemma total_split ss k v : WF ss -> has ss k v -> total ss = (v + sumv (others k (ents ss)))%Z.
Proof.
  intros W H. unfold total. rewrite (sumv_perm _ _ (others_split k v (ents ss) ltac:(eapply ents_keys_NoDup; eauto) ltac:(apply (ents_in); auto))).
  reflexivity.
Qed.
Lemma total_absent ss k : (forall v, ~ has ss k v) -> total ss = sumv (others k (ents ss)).
Proof.
  intros H. unfold total. rewrite others_absent; auto. intros v Hv. apply (H v). apply ents_in; auto.
Qed.
Lemma others_same ss ss' k : WF ss -> WF ss' -> (forall k' v, k' <> k -> (has ss' k' v <-> has ss k' v)) ->
  sumv (others k (ents ss')) = sumv (others k (ents ss)).
Proof.
  intros W W' H. apply sumv_perm. apply NoDup_Permutation.
  - apply others_NoDup. eapply ents_keys_NoDup; eauto.
  - apply others_NoDup. eapply ents_keys_NoDup; eauto.
  - intros [k' v]. rewrite !others_in, !(ents_in). split; intros [A B]; split; auto; apply H; auto.
Qed.
Lemma sumv_nonneg l : (forall k v, In (k, v) l -> (0 <= v)%Z) -> (0 <= sumv l)%Z.
Proof.
  induction l as [|[a b] l IH]; intros H; cbn; [lia|]. pose proof (H a b (or_introl eq_refl)).
  specialize (IH (fun k v X => H k v (or_intror X))). unfold sumv in IH. lia.
Qed.
Definition posv (ss : list slot) := forall k v, has ss k v -> (0 < v)%Z.
Lemma total_nonneg ss : posv ss -> (0 <= total ss)%Z.
Proof. intros H. apply sumv_nonneg. intros k v Hv. apply (ents_in) in Hv. specialize (H _ _ Hv). lia. Qed.
Lemma has_le_total ss k v : WF ss -> posv ss -> has ss k v -> (v <= total ss)%Z.
Proof.
  intros W P H. rewrite (total_split ss k v W H).
  assert (0 <= sumv (others k (ents ss)))%Z; [|lia].
  apply sumv_nonneg. intros k' v' Hv. apply others_in in Hv. destruct Hv as [Hv _]. apply (ents_in) in Hv. specialize (P _ _ Hv). lia.
Qed.

(** ** Map level: what adjustOrPutValue does to the contents *)
Lemma adjust_contents m k a m' : MI m -> posv (m_slots m) -> (0 < a)%Z -> (total (m_slots m) + a < 2 ^ 63)%Z ->
  adjust m k a = Some m' ->
  MI m' /\ m_lg m' = m_lg m /\ m_active m <= m_active m' <= m_active m + 1 /\ posv (m_slots m') /\
  total (m_slots m') = (total (m_slots m) + a)%Z /\
  (forall v, has (m_slots m) k v -> has (m_slots m') k (v + a)%Z) /\
  ((forall v, ~ has (m_slots m) k v) -> has (m_slots m') k a) /\
  (forall k' v, k' <> k -> (has (m_slots m') k' v <-> has (m_slots m) k' v)) /\
  (0 < m_active m').
Proof.
  intros I P Ha HT HA. destruct (MI_adjust m k a m' I HA) as (I' & L' & Hc & Hk).
  pose proof (mi_wf _ I) as W. pose proof (mi_wf _ I') as W'.
  assert (Hpos' : forall v, has (m_slots m') k v -> 0 < m_active m').
  { intros v (i & Hi & Ai & _). rewrite (mi_count _ I'). eapply count_pos_act; eauto. }
  split; [auto|]. split; [auto|].
  destruct Hc as [(v & Hv & Hv' & En)|(Hno & Hv' & En & _)].
  - pose proof (has_le_total _ _ _ W P Hv). pose proof (P _ _ Hv).
    rewrite wrap64_id in Hv' by (unfold int64; lia).
    split; [lia|]. split; [|split; [|split; [|split; [|split; [auto|eauto]]]]].
    + intros k' w Hw. destruct (keqb k' k) eqn:E.
      * apply keqb_spec in E. subst. rewrite (has_fun _ _ _ _ W' Hw Hv'). lia.
      * apply keqb_false in E. apply Hk in Hw; auto. eapply P; eauto.
    + rewrite (total_split _ _ _ W' Hv'), (total_split _ _ _ W Hv), (others_same (m_slots m) (m_slots m') k) by auto. lia.
    + intros w Hw. rewrite (has_fun _ _ _ _ W Hw Hv). auto.
    + intros Hno. exfalso. eapply Hno; eauto.
  - split; [lia|]. split; [|split; [|split; [|split; [auto|split; [auto|eauto]]]]].
    + intros k' w Hw. destruct (keqb k' k) eqn:E.
      * apply keqb_spec in E. subst. rewrite (has_fun _ _ _ _ W' Hw Hv'). lia.
      * apply keqb_false in E. apply Hk in Hw; auto. eapply P; eauto.
    + rewrite (total_split _ _ _ W' Hv'), (total_absent _ _ Hno), (others_same (m_slots m) (m_slots m') k) by auto. lia.
    + intros v Hv. exfalso. eapply Hno; eauto.
Qed.

(** ** The sketch invariant: the bounds bracket the true frequencies [T]; [W] bounds the total weight. *)
Definition half_up (x : nat) := x - x / 2.
Definition mlim (s : @sketch K) : nat := half_up (Nat.min (s_sample s) (threshold (2 ^ s_lgmax s) + 1)).

Record SI (mm : nat) (W : Z) (T : K -> Z) (s : @sketch K) : Prop := {
  si_map : MI (s_map s);
  si_cap : s_cap s = m_thr (s_map s);
  si_lgmax : 3 <= s_lgmax s;
  si_act : m_active (s_map s) <= s_cap s;
  si_sample : 0 < s_sample s;
  si_mm : 1 <= mm <= mlim s;
  si_pos : posv (m_slots (s_map s));
  si_off : (0 <= s_off s)%Z;
  si_total : (total (m_slots (s_map s)) + s_off s * Z.of_nat mm <= W)%Z;
  si_in : forall k v, has (m_slots (s_map s)) k v -> (v <= T k <= v + s_off s)%Z;
  si_out : forall k, (forall v, ~ has (m_slots (s_map s)) k v) -> (0 <= T k <= s_off s)%Z }.

Lemma half_up_mono a b : a <= b -> half_up a <= half_up b.
Proof.
  unfold half_up. intros. pose proof (Nat.div_mod a 2 ltac:(lia)). pose proof (Nat.div_mod b 2 ltac:(lia)).
  pose proof (Nat.mod_upper_bound a 2 ltac:(lia)). pose proof (Nat.mod_upper_bound b 2 ltac:(lia)).
  lia.
Qed.

Definition bump (T : K -> Z) (k : K) (c : Z) : K -> Z := fun k' => if keqb k' k then (T k' + c)%Z else T k'.

Lemma update_many_ok mm W T s k c s' : SI mm W T s -> (0 <= c)%Z -> (W + c < 2 ^ 63)%Z ->
  update_many s k c = Some s' ->
  SI mm (W + c) (bump T k c) s' /\ s_lgmax s' = s_lgmax s /\ s_sample s' = s_sample s /\
  s_weight s' = (if (c =? 0)%Z then s_weight s else wrap64 (s_weight s + c)) /\ (s_off s <= s_off s')%Z /\
  (m_active (s_map s) < s_cap s -> s_map s' = s_map s \/ adjust (s_map s) k c = Some (s_map s') /\ s_off s' = s_off s).
Proof.
  intros I Hc HW HU. pose proof I as [IM Icap Ilm Iact Isam Imm Ipos Ioff Itot Iin Iout]. unfold FreqModel.update_many in HU.
  destruct (Z.eqb_spec c 0) as [->|Hc0].
  { inversion HU; subst s'. split; [|split; [auto|split; [auto|split; [auto|split; [lia|auto]]]]].
    constructor; auto; try lia; intros.
    - unfold bump. destruct (keqb k0 k); rewrite ?Z.add_0_r; auto.
    - unfold bump. destruct (keqb k0 k); rewrite ?Z.add_0_r; auto. }
  destruct (Z.ltb_spec c 0); [lia|].
  pose proof (total_nonneg _ Ipos) as Htn.
  assert (Htot : (total (m_slots (s_map s)) + c < 2 ^ 63)%Z) by nia.
  destruct (adjust (s_map s) k c) as [m|] eqn:EA; [|discriminate]. cbn [bindo] in HU.
  assert (Hcp : (0 < c)%Z) by lia.
  destruct (adjust_contents _ _ _ _ IM Ipos Hcp Htot EA) as (I1 & L1 & N1 & P1 & T1 & Hin & Hout & Hoth & Hp1).
  (* the bounds after adjusting, before any purge *)
  assert (B1 : forall k' v, has (m_slots m) k' v -> (v <= bump T k c k' <= v + s_off s)%Z).
  { intros k' v Hv. unfold bump. destruct (keqb k' k) eqn:E.
    - apply keqb_spec in E. subst k'. destruct (has_dec (s_map s) k IM) as [[v0 H0]|H0].
      + rewrite (has_fun _ _ _ _ (mi_wf _ I1) Hv (Hin _ H0)). specialize (Iin _ _ H0). lia.
      + rewrite (has_fun _ _ _ _ (mi_wf _ I1) Hv (Hout H0)). specialize (Iout _ H0). lia.
    - apply keqb_false in E. apply Hoth in Hv; auto. }
  assert (B2 : forall k', (forall v, ~ has (m_slots m) k' v) -> (0 <= bump T k c k' <= s_off s)%Z).
  { intros k' Hv. unfold bump. destruct (keqb k' k) eqn:E.
    - apply keqb_spec in E. subst k'. exfalso. destruct (has_dec (s_map s) k IM) as [[v0 H0]|H0].
      + apply (Hv _ (Hin _ H0)).
      + apply (Hv _ (Hout H0)).
    - apply keqb_false in E. apply Iout. intros v Hx. apply (Hv v). apply Hoth; auto. }
  destruct (Nat.ltb_spec (s_cap s) (m_active m)) as [Hfull|Hfull].
  - assert (En : m_active m = s_cap s + 1) by lia.
    destruct (Nat.ltb_spec (m_lg m) (s_lgmax s)) as [Hgrow|Hgrow].
    + destruct (resize keqb zeroK hash dlimit m) as [m'|] eqn:ER; [|discriminate]. cbn [bindo] in HU. inversion HU; subst s'; clear HU.
      destruct (resize_ok m m' I1 ER) as (I2 & L2 & N2 & H2).
      cbn [s_lgmax s_sample s_weight s_off s_cap s_map].
      split; [|split; [auto|split; [auto|split; [auto|split; [lia|intros; lia]]]]].
      constructor; cbn [s_lgmax s_sample s_weight s_off s_cap s_map]; auto.
      * rewrite (mi_thr _ I2), L2. pose proof (threshold_double (m_lg m) (mi_lg _ I1)).
        rewrite N2, En, Icap, (mi_thr _ IM), <- L1. lia.
      * intros k' v Hv. apply H2 in Hv. eapply P1; eauto.
      * assert (total (m_slots m') = total (m_slots m)) as ->; [|lia].
        unfold total. apply sumv_perm. eapply ents_perm; eauto; [eapply mi_wf; eauto|eapply mi_wf; eauto].
      * intros k' v Hv. apply B1. apply H2; auto.
      * intros k' Hv. apply B2. intros v Hx. apply (Hv v). apply H2; auto.
    + destruct (purge_ok m (s_sample s) I1) as (m' & v & HP & I2 & L2 & N2 & (kv & Hkv) & H2 & T2).
      { intros k' v Hv. pose proof (P1 _ _ Hv). pose proof (has_le_total _ _ _ (mi_wf _ I1) P1 Hv). lia. }
      { auto. }
      { lia. }
      rewrite HP in HU. cbn [bindo] in HU.
      destruct (Nat.ltb_spec (threshold (2 ^ s_lgmax s)) (m_active m')); [discriminate|]. inversion HU; subst s'; clear HU.
      pose proof (P1 _ _ Hkv) as Hv0.
      assert (P2 : posv (m_slots m')) by (intros k' w Hw; apply H2 in Hw; tauto).
      assert (Hmm : (Z.of_nat mm <= Z.of_nat (Nat.min (s_sample s) (m_active m) - Nat.min (s_sample s) (m_active m) / 2))%Z).
      { apply Nat2Z.inj_le. destruct Imm as [_ Imm]. eapply Nat.le_trans; [exact Imm|].
        change (Nat.min (s_sample s) (m_active m) - Nat.min (s_sample s) (m_active m) / 2) with (half_up (Nat.min (s_sample s) (m_active m))).
        apply half_up_mono. apply Nat.min_le_compat_l. rewrite En, Icap, (mi_thr _ IM).
        apply Nat.add_le_mono_r. apply threshold_mono. rewrite <- L1. auto. }
      pose proof (total_nonneg _ P2) as Htn2.
      assert (HT2 : (total (m_slots m') + v * Z.of_nat mm <= total (m_slots m))%Z) by nia.
      assert (Ho : (s_off s + v <= W + c)%Z) by nia.
      cbn [s_lgmax s_sample s_weight s_off s_cap s_map]. rewrite wrap64_id by (unfold int64; lia).
      split; [|split; [auto|split; [auto|split; [auto|split; [lia|intros; lia]]]]].
      constructor; cbn [s_lgmax s_sample s_weight s_off s_cap s_map]; auto; try lia.
      * rewrite Icap, (mi_thr _ IM), (mi_thr _ I2), L2, L1. auto.
      * intros k' w Hw. apply H2 in Hw. destruct Hw as [Hw _]. specialize (B1 _ _ Hw). lia.
      * intros k' Hno. destruct (has_dec m k' I1) as [[w Hw]|Hw].
        -- specialize (B1 _ _ Hw). pose proof (P1 _ _ Hw). assert (~ (0 < w - v)%Z).
           { intros Hx. apply (Hno (w - v)%Z). apply H2. split; auto. replace (w - v + v)%Z with w by lia. auto. }
           lia.
        -- specialize (B2 _ Hw). lia.
  - inversion HU; subst s'; clear HU. cbn [s_lgmax s_sample s_weight s_off s_cap s_map].
    split; [|split; [auto|split; [auto|split; [auto|split; [lia|auto]]]]].
    constructor; cbn [s_lgmax s_sample s_weight s_off s_cap s_map]; auto; try lia.
    rewrite Icap, (mi_thr _ IM), (mi_thr _ I1), L1. auto.
Qed.

Lemma SI_new mm sample lgMax lgCur : 0 < sample -> 1 <= mm <= half_up (Nat.min sample (threshold (2 ^ Nat.max lgMax 3) + 1)) ->
  SI mm 0 (fun _ => 0%Z) (new_sketch_sample zeroK sample lgMax lgCur).
Proof.
  intros Hs Hm. unfold new_sketch_sample.
  assert (I : MI (new_map zeroK (Nat.max lgCur 3))) by (apply MI_new; auto; lia).
  destruct (new_map_wf (Nat.max lgCur 3)) as (_ & C & _ & Hno).
  constructor; cbn [s_lgmax s_sample s_weight s_off s_cap s_map]; auto; try lia.
  - cbn. lia.
  - intros k v Hv. exfalso. eapply Hno; eauto.
  - assert (E : ents (m_slots (new_map zeroK (Nat.max lgCur 3))) = []) by (apply length_zero_iff_nil; rewrite ents_length; auto).
    unfold total. rewrite E. cbn. lia.
  - intros k v Hv. exfalso. eapply Hno; eauto.
Qed.

Lemma SI_ext mm W W' T T' s : SI mm W T s -> (W <= W')%Z -> (forall k, T k = T' k) -> SI mm W' T' s.
Proof. intros [] HW HT. constructor; auto; try lia; intros; rewrite <- HT; auto. Qed.

Lemma SI_mm mm mm' W T s : SI mm W T s -> 1 <= mm' <= mm -> SI mm' W T s.
Proof. intros [] Hm. constructor; auto; try lia. nia. Qed.

(** ** A list of updates *)
Fixpoint freq (l : list (K * Z)) (k : K) : Z :=
  match l with [] => 0 | (k', c) :: r => ((if keqb k k' then c else 0) + freq r k)%Z end.

Lemma update_all_ok mm : forall l W T s s', SI mm W T s -> (forall k c, In (k, c) l -> (0 <= c)%Z) ->
  (W + sumv l < 2 ^ 63)%Z -> update_all s l = Some s' ->
  SI mm (W + sumv l) (fun k => (T k + freq l k)%Z) s' /\ s_lgmax s' = s_lgmax s /\ s_sample s' = s_sample s.
Proof.
  induction l as [|[k c] l IH]; intros W T s s' I Hl HW HU.
  - inversion HU; subst. split; auto. eapply SI_ext; eauto; cbn; intros; lia.
  - cbn [FreqModel.update_all] in HU. destruct (update_many s k c) as [s1|] eqn:E1; [|discriminate]. cbn [bindo] in HU.
    assert (Hc : (0 <= c)%Z) by (apply (Hl k); left; auto).
    assert (Hr : (0 <= sumv l)%Z) by (apply sumv_nonneg; intros; apply (Hl k0); right; auto).
    cbn [sumv fold_right snd] in HW |- *. fold (sumv l) in HW |- *.
    destruct (update_many_ok mm W T s k c s1 I Hc ltac:(lia) E1) as (I1 & A & B & _).
    destruct (IH (W + c)%Z (bump T k c) s1 s' I1) as (I2 & A2 & B2); auto.
    { intros. apply (Hl k0). right; auto. }
    { lia. }
    split; [|split; congruence].
    eapply SI_ext; eauto; [lia|]. intros k'. unfold bump. cbn [freq]. destruct (keqb k' k); lia.
Qed.

Lemma freq_perm l l' k : Permutation l l' -> freq l k = freq l' k.
Proof. induction 1 as [|[a b]|[a b] [c d]|]; cbn [freq]; lia. Qed.
Lemma freq_has ss k v : WF ss -> has ss k v -> freq (ents ss) k = v.
Proof.
  intros W H. rewrite (freq_perm _ _ k (others_split k v (ents ss) ltac:(eapply ents_keys_NoDup; eauto) ltac:(apply (ents_in); auto))).
  cbn [freq]. rewrite (proj2 (keqb_spec k k) eq_refl).
  assert (G : forall l, (forall v, ~ In (k, v) l) -> freq l k = 0%Z).
  { induction l as [|[a b] l IH]; intros Hn; auto. cbn [freq]. rewrite IH.
    - destruct (keqb k a) eqn:E; auto. apply keqb_spec in E. subst. exfalso. eapply Hn. left; eauto.
    - intros w Hw. apply (Hn w). right; auto. }
  rewrite G; [lia|]. intros w Hw. apply others_in in Hw. tauto.
Qed.
Lemma freq_absent ss k : (forall v, ~ has ss k v) -> freq (ents ss) k = 0%Z.
Proof.
  intros H. assert (G : forall l, (forall v, ~ In (k, v) l) -> freq l k = 0%Z).
  { induction l as [|[a b] l IH]; intros Hn; auto. cbn [freq]. rewrite IH.
    - destruct (keqb k a) eqn:E; auto. apply keqb_spec in E. subst. exfalso. eapply Hn. left; eauto.
    - intros w Hw. apply (Hn w). right; auto. }
  apply G. intros v Hv. apply (H v). apply (ents_in); auto.
Qed.

(** ** Merge *)
Lemma merge_ok mm W T s W' T' o s' : SI mm W T s -> SI mm W' T' o -> (W + W' < 2 ^ 63)%Z ->
  is_empty o = false -> mergem s o = Some s' ->
  SI mm (W + W') (fun k => (T k + T' k)%Z) s' /\ s_lgmax s' = s_lgmax s /\ s_sample s' = s_sample s /\
  s_weight s' = wrap64 (s_weight s + s_weight o).
Proof.
  intros I Io HW He HM. unfold merge in HM. rewrite He in HM.
  pose proof Io as [JM Jcap Jlm Jact Jsam Jmm Jpos Joff Jtot Jin Jout].
  destruct (entries_ok (s_map o) JM) as (es & HE & PE).
  rewrite HE in HM. cbn [bindo] in HM.
  destruct (update_all s es) as [s1|] eqn:EU; [|discriminate]. cbn [bindo] in HM. inversion HM; subst s'; clear HM.
  assert (Hsum : sumv es = total (m_slots (s_map o))) by (apply sumv_perm; auto).
  assert (Hoff : (0 <= s_off o * Z.of_nat mm)%Z) by nia.
  destruct (update_all_ok mm es W T s s1 I) as (I1 & A & B); auto.
  { intros k c Hin. apply (Permutation_in _ PE) in Hin. apply (ents_in) in Hin. specialize (Jpos _ _ Hin). lia. }
  { lia. }
  pose proof I1 as [KM Kcap Klm Kact Ksam Kmm Kpos Koff Ktot Kin Kout].
  pose proof (total_nonneg _ Kpos). pose proof (total_nonneg _ Jpos).
  assert (Ho : (s_off s1 + s_off o <= W + W')%Z) by nia.
  cbn [s_lgmax s_sample s_weight s_off s_cap s_map]. rewrite (wrap64_id (s_off s1 + s_off o)) by (unfold int64; lia).
  assert (HT' : forall k, (freq es k <= T' k <= freq es k + s_off o)%Z).
  { intros k. rewrite (freq_perm _ _ k PE). destruct (has_dec (s_map o) k JM) as [[v Hv]|Hv].
    - rewrite (freq_has _ _ v (mi_wf _ JM) Hv). apply Jin; auto.
    - rewrite (freq_absent _ _ Hv). specialize (Jout k Hv). lia. }
  split; [|auto].
  constructor; cbn [s_lgmax s_sample s_weight s_off s_cap s_map]; auto; try lia.
Qed.

(** ** No errors while the drift limit cannot be reached *)
Lemma update_lg mm W T s k c s' : SI mm W T s -> (0 <= c)%Z -> (W + c < 2 ^ 63)%Z -> m_lg (s_map s) <= s_lgmax s ->
  update_many s k c = Some s' -> m_lg (s_map s') <= s_lgmax s'.
Proof.
  intros I Hc HW HL HU. pose proof I as [IM Icap Ilm Iact Isam Imm Ipos Ioff Itot Iin Iout]. unfold FreqModel.update_many in HU.
  destruct (Z.eqb_spec c 0) as [->|Hc0]; [inversion HU; subst; auto|].
  destruct (Z.ltb_spec c 0); [lia|]. pose proof (total_nonneg _ Ipos) as Htn.
  destruct (adjust (s_map s) k c) as [m|] eqn:EA; [|discriminate]. cbn [bindo] in HU.
  destruct (MI_adjust _ _ _ _ IM EA) as (I1 & L1 & _).
  destruct (Nat.ltb_spec (s_cap s) (m_active m)) as [Hfull|Hfull].
  - destruct (Nat.ltb_spec (m_lg m) (s_lgmax s)) as [Hgrow|Hgrow].
    + destruct (resize keqb zeroK hash dlimit m) as [m'|] eqn:ER; [|discriminate]. cbn [bindo] in HU. inversion HU; subst s'; clear HU.
      destruct (resize_ok m m' I1 ER) as (I2 & L2 & N2 & H2). cbn [s_lgmax s_map]. lia.
    + unfold purge in HU.
      destruct (samples (Nat.min (s_sample s) (m_active m)) (m_slots m)) as [smp|]; [|discriminate]. cbn [bindo] in HU.
      destruct (quick_select Z.ltb smp 0 (Nat.min (s_sample s) (m_active m) - 1) (Nat.min (s_sample s) (m_active m) / 2)) as [[a v]|]; [|discriminate]. cbn [bindo] in HU.
      destruct (keep_positive dlimit del_limited incl (adjust_all (wrap64 (- v)) (m_slots m)) (m_active m)) as [[ss n]|]; [|discriminate]. cbn [bindo m_active] in HU.
      destruct (threshold (2 ^ s_lgmax s) <? n); [discriminate|]. inversion HU; subst s'. cbn [s_lgmax s_map m_lg]. lia.
  - inversion HU; subst s'. cbn [s_lgmax s_map]. lia.
Qed.

Lemma update_many_total mm W T s k c : SI mm W T s -> (0 <= c)%Z -> (W + c < 2 ^ 63)%Z -> m_lg (s_map s) <= s_lgmax s ->
  threshold (2 ^ s_lgmax s) + 2 < dlimit -> update_many s k c <> None.
Proof.
  intros I Hc HW HL HD. pose proof I as [IM Icap Ilm Iact Isam Imm Ipos Ioff Itot Iin Iout]. unfold FreqModel.update_many.
  destruct (Z.eqb_spec c 0) as [->|Hc0]; [discriminate|]. destruct (Z.ltb_spec c 0); [lia|].
  pose proof (total_nonneg _ Ipos) as Htn.
  assert (Htot : (total (m_slots (s_map s)) + c < 2 ^ 63)%Z) by nia.
  assert (Hthr : m_thr (s_map s) <= threshold (2 ^ s_lgmax s)) by (rewrite (mi_thr _ IM); apply threshold_mono; auto).
  destruct (adjust (s_map s) k c) as [m|] eqn:EA.
  2:{ exfalso. eapply adjust_total; [| | | |exact EA]; [apply (mi_wf _ IM)|apply MI_hole; auto| |lia].
      rewrite <- (mi_count _ IM). lia. }
  cbn [bindo]. assert (Hcp : (0 < c)%Z) by lia.
  destruct (adjust_contents _ _ _ _ IM Ipos Hcp Htot EA) as (I1 & L1 & N1 & P1 & T1 & Hin & Hout & Hoth & Hp1).
  destruct (Nat.ltb_spec (s_cap s) (m_active m)) as [Hfull|Hfull]; [|discriminate].
  destruct (Nat.ltb_spec (m_lg m) (s_lgmax s)) as [Hgrow|Hgrow].
  - destruct (resize keqb zeroK hash dlimit m) as [m'|] eqn:ER; [discriminate|].
    exfalso. eapply resize_total; [exact I1| |exact ER].
    pose proof (threshold_mono (m_lg m + 1) (s_lgmax s) ltac:(lia)). lia.
  - destruct (purge_ok m (s_sample s) I1) as (m' & v & HP & I2 & L2 & N2 & _).
    { intros k' v Hv. pose proof (P1 _ _ Hv). pose proof (has_le_total _ _ _ (mi_wf _ I1) P1 Hv). lia. }
    { auto. }
    { lia. }
    rewrite HP. cbn [bindo]. destruct (Nat.ltb_spec (threshold (2 ^ s_lgmax s)) (m_active m')); [|discriminate].
    exfalso. assert (m_lg m = s_lgmax s) by lia. rewrite (mi_thr _ IM), <- L1, H1 in Icap. lia.
Qed.

Lemma update_all_total mm : forall l W T s, SI mm W T s -> (forall k c, In (k, c) l -> (0 <= c)%Z) ->
  (W + sumv l < 2 ^ 63)%Z -> m_lg (s_map s) <= s_lgmax s -> threshold (2 ^ s_lgmax s) + 2 < dlimit -> 
  exists s', update_all s l = Some s' /\ m_lg (s_map s') <= s_lgmax s'.
Proof.
  induction l as [|[k c] l IH]; intros W T s I Hl HW HL HD; [exists s; auto|].
  cbn [FreqModel.update_all].
  assert (Hc : (0 <= c)%Z) by (apply (Hl k); left; auto).
  assert (Hr : (0 <= sumv l)%Z) by (apply sumv_nonneg; intros; apply (Hl k0); right; auto).
  cbn [sumv fold_right snd] in HW |- *. fold (sumv l) in HW |- *.
  destruct (update_many s k c) as [s1|] eqn:E1.
  - cbn [bindo]. destruct (update_many_ok mm W T s k c s1 I Hc ltac:(lia) E1) as (I1 & A & B & _).
    apply (IH (W + c)%Z (bump T k c)); auto.
    + intros. apply (Hl k0). right; auto.
    + lia.
    + eapply (update_lg mm W T s k c); eauto. lia.
    + rewrite A. auto.
  - exfalso. eapply update_many_total; [exact I|exact Hc| |exact HL|exact HD|exact E1]. lia.
Qed.

(** ** Serialization *)
(** Re-inserting few enough distinct items neither grows nor purges the table. *)
Lemma update_few : forall l s s', MI (s_map s) -> s_cap s = m_thr (s_map s) ->
  NoDup (map fst l) -> (forall k c, In (k, c) l -> (0 < c)%Z /\ forall w, ~ has (m_slots (s_map s)) k w) ->
  m_active (s_map s) + length l <= s_cap s -> update_all s l = Some s' ->
  MI (s_map s') /\ s_cap s' = m_thr (s_map s') /\ m_lg (s_map s') = m_lg (s_map s) /\ s_off s' = s_off s /\
  s_lgmax s' = s_lgmax s /\ s_sample s' = s_sample s /\ m_active (s_map s') = m_active (s_map s) + length l /\
  forall k v, has (m_slots (s_map s')) k v <-> has (m_slots (s_map s)) k v \/ In (k, v) l.
Proof.
  induction l as [|[k c] l IH]; intros s s' I Hcap ND Hl Hn HU.
  { inversion HU; subst s'. split; [auto|]. split; [auto|]. split; [auto|]. split; [auto|]. split; [auto|]. split; [auto|].
    split; [cbn; lia|]. cbn. tauto. }
  cbn [FreqModel.update_all] in HU. destruct (update_many s k c) as [s1|] eqn:E1; [|discriminate]. cbn [bindo] in HU.
  destruct (Hl k c (or_introl eq_refl)) as [Hc Hno]. cbn [length] in Hn.
  unfold FreqModel.update_many in E1. destruct (Z.eqb_spec c 0); [lia|]. destruct (Z.ltb_spec c 0); [lia|].
  destruct (adjust (s_map s) k c) as [m|] eqn:EA; [|discriminate]. cbn [bindo] in E1.
  destruct (MI_adjust _ _ _ _ I EA) as (I1 & L1 & Hcs & Hoth).
  destruct Hcs as [(v & Hv & _)|(_ & Hv & En & _)]; [exfalso; eapply Hno; eauto|].
  destruct (Nat.ltb_spec (s_cap s) (m_active m)); [lia|]. inversion E1; subst s1; clear E1.
  cbn [map] in ND. inversion ND as [|? ? Hnin ND']; subst. cbn [fst] in Hnin.
  assert (HE : forall k' v, has (m_slots m) k' v <-> has (m_slots (s_map s)) k' v \/ (k, c) = (k', v)).
  { intros k' v. split.
    - intros Hx. destruct (keqb k' k) eqn:E.
      + apply keqb_spec in E. subst. right. f_equal. eapply has_fun; eauto. apply (mi_wf _ I1).
      + apply keqb_false in E. left. apply Hoth; auto.
    - intros [Hx|Hx].
      + apply Hoth; auto. intros ->. eapply Hno; eauto.
      + inversion Hx; subst. auto. }
  apply IH in HU; cbn [s_map s_cap s_off s_lgmax s_sample] in *; auto.
  - destruct HU as (I2 & C2 & L2 & O2 & G2 & S2 & N2 & H2).
    split; [auto|]. split; [auto|]. split; [congruence|]. split; [auto|]. split; [auto|]. split; [auto|]. split; [cbn [length]; lia|].
    intros k' v. rewrite H2, HE. cbn [In]. tauto.
  - rewrite (mi_thr _ I1), L1, <- (mi_thr _ I). auto.
  - intros k' c' Hin. destruct (Hl k' c' (or_intror Hin)) as [Hp Hf]. split; auto.
    intros w Hw. apply HE in Hw. destruct Hw as [Hw|Hw]; [eapply Hf; eauto|]. inversion Hw; subst.
    apply Hnin. change k' with (fst (k', c')). apply in_map; auto.
  - lia.
Qed.
Lemma update_few_total : forall l s, MI (s_map s) -> s_cap s = m_thr (s_map s) ->
  (forall k c, In (k, c) l -> (0 < c)%Z) ->
  m_active (s_map s) + length l <= s_cap s -> s_cap s + 2 < dlimit -> update_all s l <> None.
Proof.
  induction l as [|[k c] l IH]; intros s I Hcap Hl Hn HD; [discriminate|].
  cbn [FreqModel.update_all]. cbn [length] in Hn. unfold FreqModel.update_many.
  pose proof (Hl k c (or_introl eq_refl)) as Hc. destruct (Z.eqb_spec c 0); [lia|]. destruct (Z.ltb_spec c 0); [lia|].
  destruct (adjust (s_map s) k c) as [m|] eqn:EA.
  2:{ exfalso. eapply adjust_total; [| | | |exact EA]; [apply (mi_wf _ I)|apply MI_hole; auto| |lia].
      rewrite <- (mi_count _ I). lia. }
  cbn [bindo]. destruct (MI_adjust _ _ _ _ I EA) as (I1 & L1 & Hcs & Hoth).
  assert (m_active m <= m_active (s_map s) + 1) by (destruct Hcs as [(v & _ & _ & E)|(_ & _ & E & _)]; lia).
  destruct (Nat.ltb_spec (s_cap s) (m_active m)); [lia|]. cbn [bindo]. apply IH; cbn [s_map s_cap]; auto.
  - rewrite (mi_thr _ I1), L1, <- (mi_thr _ I). auto.
  - intros. apply (Hl k0). right; auto.
  - lia.
Qed.

Lemma combine_ents (ss : list slot) : combine (map ky (filter active ss)) (map vl (filter active ss)) = ents ss.
Proof. unfold ents. induction (filter active ss) as [|x l IH]; auto. cbn. f_equal. auto. Qed.

Section Image.
Variable items : bool.
Definition new_sk (lgMax lgCur : nat) : sketch := if items then new_items zeroK lgMax lgCur else new_longs zeroK lgMax lgCur.
Definition of_image (i : image) : option sketch :=
  if items then of_image_items keqb zeroK hash dlimit del_limited incl i else of_image_longs keqb zeroK hash dlimit del_limited incl i.

Lemma new_sk_eq lgMax lgCur : new_sk lgMax lgCur = new_sketch_sample zeroK (s_sample (new_sk lgMax lgCur)) lgMax lgCur.
Proof. unfold new_sk. destruct items; reflexivity. Qed.
Lemma new_sk_sample lgMax lgCur : 3 <= lgMax -> s_sample (new_sk lgMax lgCur) = Nat.min 1024 (threshold (2 ^ lgMax)).
Proof. intros. unfold new_sk. destruct items; cbn [new_items new_longs new_sketch_sample s_sample]; auto. rewrite Nat.max_l by auto. auto. Qed.

Lemma of_image_full s : is_empty s = false ->
  of_image (to_image s) = 
  let s0 := new_sk (s_lgmax s) (m_lg (s_map s)) in
  do s' <- update_all (mkSk (s_lgmax s0) (s_cap s0) (s_off s) (s_weight s0) (s_sample s0) (s_map s0)) (ents (m_slots (s_map s)));
  Some (mkSk (s_lgmax s') (s_cap s') (s_off s') (s_weight s) (s_sample s') (s_map s')).
Proof.
  intros E. unfold of_image, to_image, of_image_items, of_image_longs, new_sk. rewrite E, !combine_ents. destruct items; auto.
Qed.

Lemma serde_ok mm W T s s' : SI mm W T s -> is_empty s = false -> s_sample s <= Nat.min 1024 (threshold (2 ^ s_lgmax s)) ->
  of_image (to_image s) = Some s' ->
  SI mm W T s' /\ s_weight s' = s_weight s /\ s_off s' = s_off s /\ s_lgmax s' = s_lgmax s /\
  m_lg (s_map s') = m_lg (s_map s) /\ m_active (s_map s') = m_active (s_map s) /\
  s_sample s' = Nat.min 1024 (threshold (2 ^ s_lgmax s)) /\
  (forall k v, has (m_slots (s_map s')) k v <-> has (m_slots (s_map s)) k v).
Proof.
  intros I He Hs HR. rewrite (of_image_full s He) in HR. cbn zeta in HR.
  pose proof I as [IM Icap Ilm Iact Isam Imm Ipos Ioff Itot Iin Iout].
  pose proof (mi_lg _ IM) as Hlg.
  destruct (update_all _ (ents (m_slots (s_map s)))) as [s1|] eqn:EU in HR; [|discriminate]. cbn [bindo] in HR. inversion HR; subst s'; clear HR.
  cbn [s_lgmax s_sample s_weight s_off s_cap s_map].
  rewrite new_sk_sample in EU by auto.
  assert (EM : s_map (new_sk (s_lgmax s) (m_lg (s_map s))) = new_map zeroK (m_lg (s_map s))).
  { unfold new_sk. destruct items; cbn [new_items new_longs new_sketch_sample s_map]; rewrite Nat.max_l by auto; auto. }
  assert (EC : s_cap (new_sk (s_lgmax s) (m_lg (s_map s))) = s_cap s).
  { rewrite Icap, (mi_thr _ IM). unfold new_sk. destruct items; cbn [new_items new_longs new_sketch_sample s_cap m_thr new_map]; rewrite Nat.max_l by auto; auto. }
  assert (EL : s_lgmax (new_sk (s_lgmax s) (m_lg (s_map s))) = s_lgmax s).
  { unfold new_sk. destruct items; cbn [new_items new_longs new_sketch_sample s_lgmax]; apply Nat.max_l; auto. }
  rewrite EM, EC, EL in EU.
  destruct (new_map_wf (m_lg (s_map s))) as (_ & C0 & _ & Hno).
  apply update_few in EU; cbn [s_lgmax s_sample s_weight s_off s_cap s_map] in *.
  - destruct EU as (I1 & C1 & L1 & O1 & G1 & S1 & N1 & H1). cbn [new_map m_lg m_active] in L1, N1. rewrite ents_length, <- (mi_count _ IM) in N1. cbn [Nat.add] in N1.
    assert (HH : forall k v, has (m_slots (s_map s1)) k v <-> has (m_slots (s_map s)) k v).
    { intros. rewrite H1, ents_in. split; [intros [X|X]; auto; exfalso; eapply Hno; eauto|auto]. }
    split; [|repeat split; auto; apply HH].
    assert (ET : total (m_slots (s_map s1)) = total (m_slots (s_map s))).
    { unfold total. apply sumv_perm. apply ents_perm; auto; [apply (mi_wf _ I1)|apply (mi_wf _ IM)]. }
    constructor; cbn [s_lgmax s_sample s_weight s_off s_cap s_map]; auto; try congruence.
    + rewrite C1, (mi_thr _ I1), L1, <- (mi_thr _ IM). lia.
    + rewrite S1. pose proof (threshold_pos _ Ilm). lia.
    + unfold mlim in *. cbn [s_sample s_lgmax]. rewrite G1, S1. split; [lia|]. destruct Imm as [_ Imm]. eapply Nat.le_trans; [exact Imm|].
      apply half_up_mono. lia.
    + intros k v Hv. apply HH in Hv. eapply Ipos; eauto.
    + intros k v Hv. rewrite O1. apply Iin. apply HH; auto.
    + intros k Hv. rewrite O1. apply Iout. intros v X. apply (Hv v). apply HH; auto.
  - apply MI_new. auto.
  - cbn [new_map m_thr]. rewrite Icap. apply (mi_thr _ IM).
  - apply ents_keys_NoDup. apply (mi_wf _ IM).
  - intros k c Hin. apply ents_in in Hin. split; [eapply Ipos; eauto|]. apply Hno.
  - cbn [new_map m_active]. rewrite ents_length, <- (mi_count _ IM). lia.
Qed.

Lemma serde_total mm W T s : SI mm W T s -> is_empty s = false -> m_lg (s_map s) <= s_lgmax s ->
  threshold (2 ^ s_lgmax s) + 2 < dlimit -> of_image (to_image s) <> None.
Proof.
  intros I He HL HD. rewrite (of_image_full s He). cbn zeta.
  pose proof I as [IM Icap Ilm Iact Isam Imm Ipos Ioff Itot Iin Iout].
  pose proof (mi_lg _ IM) as Hlg.
  assert (EM : s_map (new_sk (s_lgmax s) (m_lg (s_map s))) = new_map zeroK (m_lg (s_map s))).
  { unfold new_sk. destruct items; cbn [new_items new_longs new_sketch_sample s_map]; rewrite Nat.max_l by auto; auto. }
  assert (EC : s_cap (new_sk (s_lgmax s) (m_lg (s_map s))) = s_cap s).
  { rewrite Icap, (mi_thr _ IM). unfold new_sk. destruct items; cbn [new_items new_longs new_sketch_sample s_cap m_thr new_map]; rewrite Nat.max_l by auto; auto. }
  rewrite EM, EC.
  match goal with |- context [FreqModel.update_all _ _ _ _ _ _ ?a ?b] => destruct (update_all a b) eqn:EU end; [discriminate|].
  exfalso. revert EU. apply update_few_total; cbn [s_lgmax s_sample s_weight s_off s_cap s_map].
  - apply MI_new. auto.
  - cbn [new_map m_thr]. rewrite Icap. apply (mi_thr _ IM).
  - intros k c Hin. apply ents_in in Hin. eapply Ipos; eauto.
  - cbn [new_map m_active]. rewrite ents_length, <- (mi_count _ IM). lia.
  - rewrite Icap, (mi_thr _ IM). pose proof (threshold_mono _ _ HL). lia.
Qed.
End Image.

(** ** Queries *)
Lemma rows_ok (s : @sketch K) nfn thr : MI (s_map s) -> forall es, (forall k v, In (k, v) es -> has (m_slots (s_map s)) k v) ->
  exists l, rows keqb hash s nfn thr es = Some l /\
    forall r, In r l <-> exists k v, In (k, v) es /\ r = mkRow k (wrap64 (v + s_off s)) (wrap64 (v + s_off s)) v /\
                         (if nfn then (thr <= wrap64 (v + s_off s))%Z else (thr <= v)%Z).
Proof.
  intros I. induction es as [|[k v] es IH]; intros Hes.
  - exists []. split; auto. intros r. split; [intros []|intros (k & v & [] & _)].
  - cbn [rows]. destruct (IH (fun k v X => Hes k v (or_intror X))) as (l & HL & HI).
    pose proof (Hes k v (or_introl eq_refl)) as Hv.
    destruct (get_has (s_map s) k I) as (v' & HG & HV).
    assert (v' = v).
    { destruct HV as [HV|[_ HV]]; [eapply has_fun; eauto; apply (mi_wf _ I)|exfalso; eapply HV; eauto]. }
    subst v'. rewrite HG, HL. cbn [bindo].
    destruct (if nfn then (thr <=? wrap64 (v + s_off s))%Z else (thr <=? v)%Z) eqn:EB.
    + assert (EB' : if nfn then (thr <= wrap64 (v + s_off s))%Z else (thr <= v)%Z) by (destruct nfn; apply Z.leb_le; auto).
      eexists; split; [reflexivity|]. intros r. cbn [In]. rewrite HI. split.
      * intros [<-|(k' & v' & A & B)]; [exists k, v; auto|exists k', v'; auto].
      * intros (k' & v' & [A|A] & B & C); [left; inversion A; subst; auto|right; exists k', v'; auto].
    + assert (EB' : ~ (if nfn then (thr <= wrap64 (v + s_off s))%Z else (thr <= v)%Z)) by (destruct nfn; apply Z.leb_gt in EB; lia).
      exists l. split; auto. intros r. rewrite HI. split.
      * intros (k' & v' & A & B). exists k', v'. split; [right; auto|auto].
      * intros (k' & v' & [A|A] & B & C); [inversion A; subst; contradiction|exists k', v'; auto].
Qed.

Lemma Permutation_in_iff {A} (x : A) l l' : Permutation l l' -> (In x l' <-> In x l).
Proof. intros P. split; apply Permutation_in; auto. apply Permutation_sym; auto. Qed.
Lemma insert_row_perm (x : @row K) l : Permutation (insert_row x l) (x :: l).
Proof.
  induction l as [|y l IH]; cbn; auto. destruct (r_est y <? r_est x)%Z; auto.
  rewrite IH. apply perm_swap.
Qed.
Lemma sort_rows_perm (l : list (@row K)) : Permutation (sort_rows l) l.
Proof. induction l; cbn; auto. rewrite insert_row_perm. apply Permutation_cons; auto. Qed.
Definition desc (a b : @row K) : Prop := (r_est b <= r_est a)%Z.
Lemma insert_row_sorted x l : StronglySorted desc l -> StronglySorted desc (insert_row x l).
Proof.
  induction 1 as [|y l HS IH HF]; cbn.
  - constructor; constructor.
  - destruct (Z.ltb_spec (r_est y) (r_est x)).
    + constructor; [constructor; auto|]. constructor; [unfold desc; lia|].
      eapply Forall_impl; [|exact HF]. unfold desc. intros. lia.
    + constructor; auto. rewrite Forall_forall in *. intros z Hz.
      apply (Permutation_in _ (insert_row_perm x l)) in Hz. destruct Hz as [<-|Hz]; [unfold desc; lia|auto].
Qed.
Lemma sort_rows_sorted l : StronglySorted desc (sort_rows l).
Proof. induction l; cbn; [constructor|]. apply insert_row_sorted; auto. Qed.

Lemma frequent_items_ok (s : @sketch K) nfn thr : MI (s_map s) ->
  exists l, frequent_items_thr keqb hash golden s nfn thr = Some l /\ StronglySorted desc l /\
    forall r, In r l <-> exists k v, has (m_slots (s_map s)) k v /\ r = mkRow k (wrap64 (v + s_off s)) (wrap64 (v + s_off s)) v /\
                         (if nfn then (Z.max (s_off s) thr <= wrap64 (v + s_off s))%Z else (Z.max (s_off s) thr <= v)%Z).
Proof.
  intros I. unfold frequent_items_thr. destruct (entries_ok (s_map s) I) as (es & -> & PE). cbn [bindo].
  destruct (rows_ok s nfn (Z.max (maximum_error s) thr) I es) as (l & -> & HI).
  { intros k v Hin. apply ents_in. eapply Permutation_in; eauto. }
  cbn [bindo]. eexists. split; [reflexivity|]. split; [apply sort_rows_sorted|].
  intros r. rewrite <- (Permutation_in_iff r _ _ (sort_rows_perm l)), HI. unfold maximum_error.
  split; intros (k & v & A & B); exists k, v; split; auto.
  - apply ents_in. eapply Permutation_in; eauto.
  - apply ents_in in A. eapply Permutation_in; [apply Permutation_sym; exact PE|auto].
Qed.
End P.
