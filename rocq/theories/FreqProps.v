(** * Frequent items: the properties C20 - C23, for the longs and the items sketch.

    All theorems hold for every item type with decidable equality, every hash function and every
    iteration stride. *)
From Coq Require Import Sorted.
From Verif Require Import Base ListX Bytes GoInt QuickSelectModel FreqModel FreqProofs.
Local Open Scope nat_scope.

(** The two Go types. *)
Inductive kind := Longs | Items.
Definition is_items (q : kind) : bool := match q with Items => true | Longs => false end.
Definition drift_limit (q : kind) : nat := match q with Longs => 2 ^ 10 | Items => 2 ^ 15 end.
(** Largest lgMaxMapSize for which the drift limit is out of reach. *)
Definition lg_safe (q : kind) : nat := match q with Longs => 10 | Items => 15 end.

Lemma drift_limit2 q : 2 <= drift_limit q.
Proof. destruct q; apply (Nat.pow_le_mono_r 2 1); lia. Qed.

Section F.
Variable K : Type.
Variable keqb : K -> K -> bool.
Variable keqb_spec : forall a b, keqb a b = true <-> a = b.
Variable zeroK : K.
Variable hash : K -> N.
Variable golden : nat -> N.
Variable q : kind.

(** ** C21: the hash map *)
Section Map.
Notation adjustm := (adjust_or_put keqb hash (drift_limit q)).
Notation resizem := (resize keqb zeroK hash (drift_limit q)).
Notation purgem := (purge (drift_limit q) (negb (is_items q)) (is_items q)).

Inductive mop := Adjust (k : K) (amount : Z) | Grow | Purge (sampleSize : nat).
Definition apply_op (m : hmap) (o : mop) : option hmap :=
  match o with
  | Adjust k a => adjustm m k a
  | Grow => resizem m
  | Purge sz => do (m', _) <- purgem m sz; Some m'
  end.
Fixpoint run_ops (m : hmap) (ops : list mop) : option hmap :=
  match ops with [] => Some m | o :: r => do m' <- apply_op m o; run_ops m' r end.

(** Specification: a function from items to counts, 0 meaning absent. A purge subtracts one of the counts of
    the table from all of them and drops what is not positive. *)
Inductive spec_step (f : K -> Z) : mop -> (K -> Z) -> Prop :=
| SAdjust k a f' : f' k = (f k + a)%Z -> (forall k', k' <> k -> f' k' = f k') -> spec_step f (Adjust k a) f'
| SGrow f' : (forall k, f' k = f k) -> spec_step f Grow f'
| SPurge sz f' v : (0 < v)%Z -> (exists k, f k = v) -> (forall k, f' k = Z.max 0 (f k - v)) -> spec_step f (Purge sz) f'.
Inductive spec_run : (K -> Z) -> list mop -> (K -> Z) -> Prop :=
| RNil f : spec_run f [] f
| RCons f o f1 r f2 : spec_step f o f1 -> spec_run f1 r f2 -> spec_run f (o :: r) f2.

(** The sketches only add positive amounts. (A purge of an empty table or with an empty sample panics in Go and is
    [None] here, so it is excluded by [run_ops _ _ = Some _].) *)
Definition positive (o : mop) : Prop := match o with Adjust _ a => (0 < a)%Z | _ => True end.
Fixpoint amounts (ops : list mop) : Z := match ops with [] => 0 | Adjust _ a :: r => (a + amounts r)%Z | _ :: r => amounts r end.

Definition tracks (m : @hmap K) (f : K -> Z) : Prop :=
  (forall k, get keqb hash m k = Some (f k) /\ (0 <= f k)%Z) /\
  (exists keys, NoDup keys /\ length keys = m_active m /\ forall k, In k keys <-> (0 < f k)%Z).

Notation has := (has zeroK).
Notation MIq := (MI zeroK hash (drift_limit q)).
Definition ftrack (m : @hmap K) (f : K -> Z) : Prop :=
  (forall k v, has (m_slots m) k v -> f k = v) /\ (forall k, (forall v, ~ has (m_slots m) k v) -> f k = 0%Z).

Lemma ftrack_tracks m f : MIq m -> posv zeroK (m_slots m) -> ftrack m f -> tracks m f.
Proof.
  intros I P [H1 H2]. split.
  - intros k. destruct (get_has keqb keqb_spec zeroK hash (drift_limit q) (drift_limit2 q) m k I) as (v & HG & [HV|[-> HV]]).
    + rewrite HG, (H1 k v HV). split; auto. pose proof (P _ _ HV). lia.
    + rewrite HG, (H2 k HV). split; auto. lia.
  - exists (map fst (ents (m_slots m))). split; [|split].
    + apply (ents_keys_NoDup keqb keqb_spec zeroK hash (drift_limit q) (drift_limit2 q) _ (mi_wf _ _ _ _ I)).
    + rewrite map_length, ents_length. symmetry. eapply mi_count; eauto.
    + intros k. rewrite in_map_iff. split.
      * intros ([k' v] & E & Hin). cbn in E. subst k'. apply (ents_in zeroK) in Hin. rewrite (H1 _ _ Hin). eapply P; eauto.
      * intros Hf. destruct (has_dec keqb keqb_spec zeroK hash (drift_limit q) (drift_limit2 q) m k I) as [[v Hv]|Hv].
        -- exists (k, v). split; auto. apply (ents_in zeroK); auto.
        -- rewrite (H2 k Hv) in Hf. lia.
Qed.

Lemma purge_nonempty (m : @hmap K) sz m' v : purgem m sz = Some (m', v) -> 0 < sz /\ 0 < m_active m.
Proof.
  unfold purge. intros H. destruct (Nat.eq_dec (Nat.min sz (m_active m)) 0) as [E|E]; [|lia].
  exfalso. rewrite E in H. unfold samples in H.
  destruct (length (map vl (filter active (m_slots m))) <? 0); [discriminate|]. cbn [bindo firstn] in H.
  change (quick_select Z.ltb [] 0 (0 - 1) (0 / 2)) with (@None (list Z * Z)) in H. discriminate.
Qed.

Lemma run_ops_ok : forall ops m f m', MIq m -> posv zeroK (m_slots m) -> ftrack m f ->
  Forall positive ops -> (total (m_slots m) + amounts ops < 2 ^ 63)%Z -> run_ops m ops = Some m' ->
  exists f', spec_run f ops f' /\ MIq m' /\ posv zeroK (m_slots m') /\ ftrack m' f'.
Proof.
  induction ops as [|o r IH]; intros m f m' I P F HL HW HR.
  { inversion HR; subst. exists f. split; [constructor|auto]. }
  cbn [run_ops] in HR. destruct (apply_op m o) as [m1|] eqn:EA; [|discriminate]. cbn [bindo] in HR.
  inversion HL as [|? ? Hop HL']; subst.
  assert (Hr : (0 <= amounts r)%Z).
  { clear -HL'. induction r as [|o r IH]; [cbn; lia|]. inversion HL'; subst. destruct o; cbn [amounts]; auto.
    specialize (IH H2). cbn in H1. lia. }
  pose proof (total_nonneg keqb keqb_spec zeroK hash (drift_limit q) (drift_limit2 q) golden _ P) as Ht.
  pose proof F as [F1 F2].
  assert (G : exists f1, spec_step f o f1 /\ MIq m1 /\ posv zeroK (m_slots m1) /\ ftrack m1 f1 /\ (total (m_slots m1) + amounts r < 2 ^ 63)%Z).
  { destruct o as [k a| |sz]; cbn [apply_op amounts positive] in *.
    - destruct (adjust_contents keqb keqb_spec zeroK hash (drift_limit q) (drift_limit2 q) golden m k a m1 I P Hop ltac:(lia) EA)
        as (I1 & _ & _ & P1 & T1 & Hin & Hout & Hoth & _).
      exists (fun k' => if keqb k' k then (f k' + a)%Z else f k'). split; [|split; [auto|split; [auto|split; [split|lia]]]].
      + constructor.
        * rewrite (proj2 (keqb_spec k k) eq_refl). auto.
        * intros k' Hk. destruct (keqb k' k) eqn:E; auto. apply keqb_spec in E. contradiction.
      + intros k' v Hv. destruct (keqb k' k) eqn:E.
        * apply keqb_spec in E. subst k'.
          destruct (has_dec keqb keqb_spec zeroK hash (drift_limit q) (drift_limit2 q) m k I) as [[w Hw]|Hw].
          -- rewrite (F1 _ _ Hw). apply (has_fun zeroK hash (drift_limit q) _ _ _ _ (mi_wf _ _ _ _ I1) (Hin _ Hw) Hv).
          -- rewrite (F2 _ Hw). apply (has_fun zeroK hash (drift_limit q) _ _ _ _ (mi_wf _ _ _ _ I1) (Hout Hw) Hv).
        * apply F1. apply Hoth; auto. intros ->. rewrite (proj2 (keqb_spec k k) eq_refl) in E. discriminate.
      + intros k' Hv. destruct (keqb k' k) eqn:E.
        * apply keqb_spec in E. subst k'. exfalso.
          destruct (has_dec keqb keqb_spec zeroK hash (drift_limit q) (drift_limit2 q) m k I) as [[w Hw]|Hw].
          -- apply (Hv _ (Hin _ Hw)).
          -- apply (Hv _ (Hout Hw)).
        * apply F2. intros v Hx. apply (Hv v). apply Hoth; auto. intros ->. rewrite (proj2 (keqb_spec k k) eq_refl) in E. discriminate.
    - destruct (resize_ok keqb keqb_spec zeroK hash (drift_limit q) (drift_limit2 q) m m1 I EA) as (I1 & _ & _ & H1).
      exists f. split; [constructor; auto|]. split; [auto|]. split; [|split; [split|]].
      + intros k v Hv. apply H1 in Hv. eapply P; eauto.
      + intros k v Hv. apply F1, H1; auto.
      + intros k Hv. apply F2. intros v X. apply (Hv v), H1; auto.
      + assert (total (m_slots m1) = total (m_slots m)) as ->; [|lia].
        unfold total. apply (sumv_perm keqb keqb_spec zeroK hash (drift_limit q) (drift_limit2 q)). apply (ents_perm keqb keqb_spec zeroK hash (drift_limit q) (drift_limit2 q)); auto; eapply mi_wf; eauto.
    - destruct (purgem m sz) as [[m2 v]|] eqn:EP; [|discriminate]. cbn [bindo] in EA. inversion EA; subst m2.
      destruct (purge_nonempty _ _ _ _ EP) as [Hsz Hac].
      destruct (purge_ok keqb keqb_spec zeroK hash (drift_limit q) (drift_limit2 q) (negb (is_items q)) (is_items q) m sz I) as (m2 & v2 & HP & I2 & _ & _ & (kv & Hkv) & H2 & T2); auto.
      { intros k w Hw. pose proof (P _ _ Hw).
        pose proof (has_le_total keqb keqb_spec zeroK hash (drift_limit q) (drift_limit2 q) golden _ _ _ (mi_wf _ _ _ _ I) P Hw). lia. }
      rewrite HP in EP. inversion EP; subst m2 v2. pose proof (P _ _ Hkv) as Hv0.
      exists (fun k => Z.max 0 (f k - v)). split; [|split; [auto|split; [|split; [split|]]]].
      + apply SPurge with v; auto. exists kv. apply F1; auto.
      + intros k w Hw. apply H2 in Hw. tauto.
      + intros k w Hw. apply H2 in Hw. destruct Hw as [Hw Hp]. rewrite (F1 _ _ Hw). lia.
      + intros k Hno. destruct (has_dec keqb keqb_spec zeroK hash (drift_limit q) (drift_limit2 q) m k I) as [[w Hw]|Hw].
        * rewrite (F1 _ _ Hw). assert (~ (0 < w - v)%Z); [|lia].
          intros X. apply (Hno (w - v)%Z), H2. split; auto. replace (w - v + v)%Z with w by lia. auto.
        * rewrite (F2 _ Hw). lia.
      + nia. }
  destruct G as (f1 & S1 & I1 & P1 & T1 & W1).
  destruct (IH m1 f1 m' I1 P1 T1 HL' W1 HR) as (f' & A & B & C & D).
  exists f'. split; [econstructor; eauto|auto].
Qed.

(** C21. Whatever the collisions and the order, the table holds exactly what a finite map holds after the same operations:
    nothing lost, duplicated or mis-counted. *)
Theorem freq_map_refines : forall lg ops m, 3 <= lg -> Forall positive ops -> (amounts ops < 2 ^ 63)%Z ->
  run_ops (new_map zeroK lg) ops = Some m ->
  exists f, spec_run (fun _ => 0%Z) ops f /\ tracks m f.
Proof.
  intros lg ops m Hlg HP HW HR.
  destruct (new_map_wf keqb keqb_spec zeroK hash (drift_limit q) (drift_limit2 q) lg) as (_ & C & _ & Hno).
  assert (E : ents (m_slots (new_map zeroK lg)) = []) by (apply length_zero_iff_nil; rewrite ents_length; auto).
  destruct (run_ops_ok ops (new_map zeroK lg) (fun _ => 0%Z) m) as (f & A & B & D & G); auto.
  - apply (MI_new keqb keqb_spec zeroK hash (drift_limit q) (drift_limit2 q)); auto.
  - intros k v Hv. exfalso. eapply Hno; eauto.
  - split; auto. intros k v Hv. exfalso. eapply Hno; eauto.
  - unfold total. rewrite E. cbn. lia.
  - exists f. split; auto. apply ftrack_tracks; auto.
Qed.
End Map.

(** ** The sketches *)
Inductive life : Type :=
| New (lgMax lgCur : nat)
| Update (l : life) (k : K) (c : Z)
| Merge (l other : life)
| Reset (l : life)
| Serde (l : life).           (* ToSlice, then the constructor from a slice *)

Notation updatem := (update_many keqb zeroK hash (drift_limit q) (negb (is_items q)) (is_items q)).
Notation mergem := (merge keqb zeroK hash (drift_limit q) (negb (is_items q)) (is_items q) golden).
Notation of_imagem := (of_image keqb zeroK hash (drift_limit q) (negb (is_items q)) (is_items q) (is_items q)).

Fixpoint run (l : life) : option sketch :=
  match l with
  | New lgMax lgCur => Some (new_sk zeroK (is_items q) lgMax lgCur)
  | Update l k c => do s <- run l; updatem s k c
  | Merge l o => do s <- run l; do t <- run o; mergem s t
  | Reset l => do s <- run l; Some (reset zeroK s)
  | Serde l => do s <- run l; of_imagem (to_image s)
  end.

(** Specification: the updates absorbed, the true frequency of an item and the total weight. *)
Fixpoint stream (l : life) : list (K * Z) :=
  match l with
  | New _ _ => []
  | Update l k c => stream l ++ [(k, c)]
  | Merge l o => stream l ++ stream o
  | Reset _ => []
  | Serde l => stream l
  end.
Definition truth (l : life) (k : K) : Z := freq keqb (stream l) k.
Definition weight (l : life) : Z := sumv (stream l).

(** A sketch is [honest] if IsEmpty means that it has seen nothing. A purge can empty the table (see
    [freq_emptied_merge_refuted]); merging or serializing a sketch in that state forgets its past. *)
Definition honest (l : life) : Prop := forall s, run l = Some s -> is_empty s = true -> weight l = 0%Z.

Fixpoint valid (l : life) : Prop :=
  match l with
  | New lgMax _ => q = Items -> 1 <= lgMax
  | Update l _ c => valid l
  | Merge l o => valid l /\ valid o /\ honest o
  | Reset l => valid l
  | Serde l => valid l /\ honest l
  end.

(** Every sketch involved was constructed with a map of at least 2^L cells. (The longs constructor raises a smaller
    lgMaxMapSize to 3; deserializing an empty items image always gives 2^3 cells.) *)
Definition lg_of (lgMax : nat) : nat := match q with Longs => Nat.max lgMax 3 | Items => lgMax end.
Fixpoint at_least (L : nat) (l : life) : Prop :=
  match l with
  | New lgMax _ => L <= lg_of lgMax
  | Update l _ _ | Reset l => at_least L l
  | Merge l o => at_least L l /\ at_least L o
  | Serde l => at_least L l /\ (q = Items -> weight l = 0%Z -> L <= 3)
  end.
Definition share (L : nat) : nat := half_up (Nat.min 1024 (threshold (2 ^ L))).

Notation SIq := (SI zeroK hash (drift_limit q)).

Lemma freq_app l1 l2 k : freq keqb (l1 ++ l2) k = (freq keqb l1 k + freq keqb l2 k)%Z.
Proof. induction l1 as [|[a b] l1 IH]; cbn [app freq]; [lia|]. rewrite IH. lia. Qed.
Lemma sumv_cons (a : K) b l : sumv ((a, b) :: l) = (b + sumv l)%Z.
Proof. reflexivity. Qed.
Lemma sumv_app' (l1 l2 : list (K * Z)) : sumv (l1 ++ l2) = (sumv l1 + sumv l2)%Z.
Proof. induction l1 as [|[a b] l1 IH]; cbn [app]; [reflexivity|]. rewrite !sumv_cons. lia. Qed.

Definition sample_ok (s : @sketch K) := s_sample s <= Nat.min 1024 (threshold (2 ^ s_lgmax s)).

(** All the weights of a run that does not fail are non-negative. *)
Lemma run_nonneg : forall l s, run l = Some s -> Forall (fun e => (0 <= snd e)%Z) (stream l).
Proof.
  induction l; intros s HR; cbn [run stream] in *; auto.
  - destruct (run l) as [s1|]; [|discriminate]. cbn [bindo] in HR. apply Forall_app. split; [eapply IHl; eauto|].
    constructor; auto. cbn. unfold update_many in HR. destruct (Z.eqb_spec c 0); [lia|]. destruct (Z.ltb_spec c 0); [discriminate|auto].
  - destruct (run l1) as [s1|]; [|discriminate]. destruct (run l2) as [s2|]; [|discriminate]. apply Forall_app. split; [eapply IHl1|eapply IHl2]; eauto.
  - destruct (run l) as [s1|]; [|discriminate]. eapply IHl; eauto.
Qed.
Lemma sum_nonneg l : Forall (fun e : K * Z => (0 <= snd e)%Z) l -> (0 <= sumv l)%Z.
Proof. intros H. apply (sumv_nonneg keqb keqb_spec zeroK hash (drift_limit q) (drift_limit2 q) golden). intros k v Hin. rewrite Forall_forall in H. apply (H (k, v) Hin). Qed.
Lemma sum_zero_freq l k : Forall (fun e : K * Z => (0 <= snd e)%Z) l -> sumv l = 0%Z -> freq keqb l k = 0%Z.
Proof.
  induction 1 as [|[a b] l Hb Hl IH]; auto. cbn [snd] in Hb. cbn [freq]. rewrite sumv_cons. intros E.
  pose proof (sum_nonneg l Hl). rewrite IH by lia. destruct (keqb k a); lia.
Qed.

Lemma half_up_pos x : 0 < x -> 1 <= half_up x.
Proof. intros. unfold half_up. pose proof (Nat.div_lt x 2 ltac:(lia) ltac:(lia)). lia. Qed.
Lemma share_mono a b : a <= b -> share a <= share b.
Proof. intros. apply (half_up_mono keqb keqb_spec zeroK hash (drift_limit q) (drift_limit2 q) golden). pose proof (threshold_mono keqb keqb_spec zeroK hash (drift_limit q) (drift_limit2 q) a b H). lia. Qed.
Lemma threshold_pos1 lg : 1 <= lg -> 1 <= threshold (2 ^ lg).
Proof. intros. apply (threshold_mono keqb keqb_spec zeroK hash (drift_limit q) (drift_limit2 q) 1 lg); auto. Qed.

(** The parameters of a sketch, whatever its contents. *)
Definition CF (L : nat) (s : @sketch K) : Prop :=
  3 <= s_lgmax s /\ 0 < s_sample s /\ sample_ok s /\ share L <= mlim s.

Lemma CF_eq L s s' : s_lgmax s' = s_lgmax s -> s_sample s' = s_sample s -> CF L s -> CF L s'.
Proof. unfold CF, sample_ok, mlim. intros -> ->. auto. Qed.

Lemma CF_new L lgMax lgCur : 1 <= L <= lg_of lgMax -> CF L (new_sk zeroK (is_items q) lgMax lgCur).
Proof.
  intros HL. unfold CF, sample_ok, mlim, share.
  pose proof (threshold_mono keqb keqb_spec zeroK hash (drift_limit q) (drift_limit2 q) _ _ (proj2 HL)) as H1. pose proof (threshold_pos1 L (proj1 HL)) as H2.
  unfold lg_of in *. unfold new_sk. 
  destruct q; cbn [is_items new_items new_longs new_sketch_sample s_sample s_lgmax] in *.
  - split; [lia|]. split; [lia|]. split; [lia|]. apply (half_up_mono keqb keqb_spec zeroK hash (drift_limit q) (drift_limit2 q) golden). lia.
  - pose proof (threshold_mono keqb keqb_spec zeroK hash (drift_limit q) (drift_limit2 q) lgMax (Nat.max lgMax 3) ltac:(lia)).
    split; [lia|]. split; [lia|]. split; [lia|]. apply (half_up_mono keqb keqb_spec zeroK hash (drift_limit q) (drift_limit2 q) golden). lia.
Qed.

Lemma update_params s k c s' : updatem s k c = Some s' -> s_lgmax s' = s_lgmax s /\ s_sample s' = s_sample s.
Proof.
  unfold update_many. destruct (c =? 0)%Z; [intros [= <-]; auto|]. destruct (c <? 0)%Z; [discriminate|].
  destruct (adjust_or_put _ _ _ _ _ _) as [m|]; [|discriminate]. cbn [bindo].
  destruct (s_cap s <? m_active m); [|intros [= <-]; auto].
  destruct (m_lg m <? s_lgmax s).
  - destruct (resize _ _ _ _ m) as [m'|]; [|discriminate]. intros [= <-]; auto.
  - destruct (purge _ _ _ _ _) as [[m' v]|]; [|discriminate]. cbn [bindo].
    destruct (_ <? _); [discriminate|]. intros [= <-]; auto.
Qed.
Lemma update_all_params : forall l s s', update_all keqb zeroK hash (drift_limit q) (negb (is_items q)) (is_items q) s l = Some s' ->
  s_lgmax s' = s_lgmax s /\ s_sample s' = s_sample s.
Proof.
  induction l as [|[k c] l IH]; intros s s' H; cbn [update_all] in H; [inversion H; auto|].
  destruct (updatem s k c) as [s1|] eqn:E; [|discriminate]. cbn [bindo] in H.
  destruct (update_params _ _ _ _ E). destruct (IH _ _ H). split; congruence.
Qed.

Lemma run_CF L : 1 <= L -> forall l s, run l = Some s -> valid l -> at_least L l -> CF L s.
Proof.
  intros HL. induction l as [lgMax lgCur|l IH k c|l IH o IHo|l IH|l IH]; intros s HR HV HA; cbn [run valid at_least] in *.
  - inversion HR; subst s. apply CF_new; auto.
  - destruct (run l) as [s1|] eqn:E1; [|discriminate]. cbn [bindo] in HR.
    destruct (update_params _ _ _ _ HR). eapply CF_eq; eauto.
  - destruct (run l) as [s1|] eqn:E1; [|discriminate]. destruct (run o) as [s2|] eqn:E2; [|discriminate]. cbn [bindo] in HR.
    unfold merge in HR. destruct (is_empty s2); [inversion HR; subst; apply IH; tauto|].
    destruct (entries golden (s_map s2)) as [es|]; [|discriminate]. cbn [bindo] in HR.
    destruct (update_all _ _ _ _ _ _ _ _) as [s3|] eqn:E3; [|discriminate]. inversion HR; subst s.
    destruct (update_all_params _ _ _ E3). apply (CF_eq L s1); auto. apply IH; tauto.
  - destruct (run l) as [s1|] eqn:E1; [|discriminate]. cbn [bindo] in HR. inversion HR; subst s. apply (CF_eq L s1); auto.
  - destruct (run l) as [s1|] eqn:E1; [|discriminate]. cbn [bindo] in HR. destruct HV as [HV Hh]. destruct HA as [HA HA2].
    destruct (IH s1 eq_refl HV HA) as (A & B & C & D).
    assert (E : CF L (new_sk zeroK (is_items q) (s_lgmax s1) 3)).
    { unfold CF, sample_ok in *. unfold mlim in *. 
      replace (s_lgmax (new_sk zeroK (is_items q) (s_lgmax s1) 3)) with (s_lgmax s1)
        by (unfold new_sk; destruct (is_items q); cbn [new_items new_longs new_sketch_sample s_lgmax]; lia).
      rewrite new_sk_sample by auto. split; [auto|]. pose proof (threshold_pos keqb keqb_spec zeroK hash (drift_limit q) (drift_limit2 q) _ A). split; [lia|]. split; [lia|].
      eapply Nat.le_trans; [exact D|]. apply (half_up_mono keqb keqb_spec zeroK hash (drift_limit q) (drift_limit2 q) golden). lia. }
    destruct (is_empty s1) eqn:Ee.
    + pose proof (Hh s1 E1 Ee) as Hw0. unfold to_image in HR. rewrite Ee in HR. unfold of_image in HR.
      destruct q eqn:Eq; cbn [is_items of_image_items of_image_longs] in HR; inversion HR; subst s.
      * apply E.
      * specialize (HA2 eq_refl Hw0). pose proof (CF_new L 3 3) as X. unfold lg_of in X. rewrite Eq in X. apply X. lia.
    + rewrite of_image_full in HR by auto. cbn [bindo] in HR.
      destruct (update_all _ _ _ _ _ _ _ _) as [s3|] eqn:E3; [|discriminate]. inversion HR; subst s.
      destruct (update_all_params _ _ _ E3) as [X Y]. cbn [s_lgmax s_sample] in X, Y.
      apply (CF_eq L (new_sk zeroK (is_items q) (s_lgmax s1) 3)); auto; cbn [s_lgmax s_sample]; [rewrite X|rewrite Y]; unfold new_sk; destruct (is_items q); auto.
Qed.

Lemma SI_zero mm L s lg : CF L s -> 1 <= mm <= share L -> 
  SIq mm 0 (fun _ => 0%Z) (mkSk (s_lgmax s) (m_thr (new_map zeroK (Nat.max lg 3))) 0 0 (s_sample s) (new_map zeroK (Nat.max lg 3))).
Proof.
  intros (A & B & C & D) Hmm. rewrite <- (Nat.max_l (s_lgmax s) 3) by auto.
  apply (SI_new keqb keqb_spec zeroK hash (drift_limit q) (drift_limit2 q) golden mm (s_sample s) (s_lgmax s) lg B).
  unfold mlim in D. rewrite Nat.max_l by auto. lia.
Qed.

Lemma run_ok mm L : 1 <= L -> 1 <= mm <= share L -> forall l s, run l = Some s -> valid l -> at_least L l -> (weight l < 2 ^ 63)%Z ->
  SIq mm (weight l) (truth l) s /\ s_weight s = weight l.
Proof.
  intros HL Hmm. induction l as [lgMax lgCur|l IH k c|l IH o IHo|l IH|l IH]; intros s HR HV HA HW; pose proof (run_CF L HL _ _ HR HV HA) as HC; cbn [run valid at_least] in *.
  - inversion HR; subst s. split; [|unfold new_sk; destruct (is_items q); auto].
    rewrite new_sk_eq. 
    pose proof (SI_zero mm L (new_sk zeroK (is_items q) lgMax lgCur) lgCur HC Hmm) as X.
    unfold new_sketch_sample. replace (Nat.max lgMax 3) with (s_lgmax (new_sk zeroK (is_items q) lgMax lgCur)); [exact X|].
    unfold new_sk. destruct (is_items q); auto.
  - destruct (run l) as [s1|] eqn:E1; [|discriminate]. cbn [bindo] in HR.
    assert (Hc : (0 <= c)%Z).
    { unfold update_many in HR. destruct (Z.eqb_spec c 0); [lia|]. destruct (Z.ltb_spec c 0); [discriminate|auto]. }
    assert (EW : weight (Update l k c) = (weight l + c)%Z) by (unfold weight; cbn [stream]; rewrite sumv_app'; cbn; lia).
    pose proof (sum_nonneg _ (run_nonneg _ _ E1)) as Hn. fold (weight l) in Hn.
    destruct (IH s1 eq_refl HV HA ltac:(lia)) as (I1 & W1).
    destruct (update_many_ok keqb keqb_spec zeroK hash (drift_limit q) (drift_limit2 q) (negb (is_items q)) (is_items q) golden mm (weight l) (truth l) s1 k c s I1 Hc ltac:(lia) HR) as (I2 & A & B & C & _).
    split.
    + eapply (SI_ext keqb keqb_spec zeroK hash (drift_limit q) (drift_limit2 q) golden); eauto; [lia|]. intros k'. unfold bump, truth. cbn [stream]. rewrite freq_app. cbn [freq]. destruct (keqb k' k); lia.
    + rewrite C, W1, EW. destruct (Z.eqb_spec c 0); [lia|]. apply wrap64_id. unfold int64. lia.
  - destruct (run l) as [s1|] eqn:E1; [|discriminate]. destruct (run o) as [s2|] eqn:E2; [|discriminate]. cbn [bindo] in HR.
    destruct HV as (V1 & V2 & Hh). destruct HA as (A1 & A2).
    assert (EW : weight (Merge l o) = (weight l + weight o)%Z) by (unfold weight; cbn [stream]; apply sumv_app').
    pose proof (sum_nonneg _ (run_nonneg _ _ E1)) as Hn1. fold (weight l) in Hn1.
    pose proof (run_nonneg _ _ E2) as Hf2. pose proof (sum_nonneg _ Hf2) as Hn2. fold (weight o) in Hn2.
    destruct (IH s1 eq_refl V1 A1 ltac:(lia)) as (I1 & W1).
    destruct (IHo s2 eq_refl V2 A2 ltac:(lia)) as (I2 & W2).
    destruct (is_empty s2) eqn:Ee.
    + unfold merge in HR. rewrite Ee in HR. inversion HR; subst s. pose proof (Hh s2 E2 Ee) as Hw0.
      split; [|lia]. eapply (SI_ext keqb keqb_spec zeroK hash (drift_limit q) (drift_limit2 q) golden); eauto; [lia|].
      intros k'. unfold truth. cbn [stream]. rewrite freq_app, (sum_zero_freq (stream o) k' Hf2 Hw0). lia.
    + destruct (merge_ok keqb keqb_spec zeroK hash (drift_limit q) (drift_limit2 q) (negb (is_items q)) (is_items q) golden mm _ _ s1 _ _ s2 s I1 I2 ltac:(lia) Ee HR) as (I3 & A & B & C).
      split.
      * eapply (SI_ext keqb keqb_spec zeroK hash (drift_limit q) (drift_limit2 q) golden); eauto; [lia|]. intros k'. unfold truth. cbn [stream]. rewrite freq_app. auto.
      * rewrite C, W1, W2, EW. apply wrap64_id. unfold int64. lia.
  - destruct (run l) as [s1|] eqn:E1; [|discriminate]. cbn [bindo] in HR. inversion HR; subst s.
    split; [|reflexivity]. apply (SI_zero mm L s1 3 (run_CF L HL _ _ E1 HV HA) Hmm).
  - destruct (run l) as [s1|] eqn:E1; [|discriminate]. cbn [bindo] in HR. destruct HV as [HV Hh]. destruct HA as [HA HA2].
    change (weight (Serde l)) with (weight l) in *. change (truth (Serde l)) with (truth l).
    destruct (IH s1 eq_refl HV HA HW) as (I1 & W1).
    destruct (is_empty s1) eqn:Ee.
    + pose proof (Hh s1 E1 Ee) as Hw0. pose proof (run_nonneg _ _ E1) as Hf.
      assert (s_weight s = 0%Z /\ SIq mm 0 (fun _ => 0%Z) s) as [Z1 Z2].
      { unfold to_image in HR. rewrite Ee in HR. unfold of_image in HR. 
        destruct (is_items q); cbn [of_image_items of_image_longs] in HR; inversion HR; subst s; (split; [reflexivity|]); exact (SI_zero mm L _ 3 HC Hmm). }
      split; [|congruence]. eapply (SI_ext keqb keqb_spec zeroK hash (drift_limit q) (drift_limit2 q) golden); eauto; [lia|]. intros k. symmetry. apply sum_zero_freq; auto.
    + destruct (serde_ok keqb keqb_spec zeroK hash (drift_limit q) (drift_limit2 q) (negb (is_items q)) (is_items q) golden (is_items q) mm _ _ s1 s I1 Ee) as (I2 & A & _); auto.
      * apply (run_CF L HL _ _ E1 HV HA).
      * split; [auto|congruence].
Qed.
(** ** C20: the bounds *)
Definition estimate (s : sketch) (k : K) : option Z :=
  match q with Longs => estimate_longs keqb hash s k | Items => estimate_items keqb hash s k end.

Lemma valid_at_least1 : forall l, valid l -> at_least 1 l.
Proof.
  induction l; cbn [valid at_least]; try tauto.
  - unfold lg_of. intros H. destruct q; lia || (apply H; auto).
  - intros [A B]. split; auto.
Qed.
Lemma run_ok1 l s : run l = Some s -> valid l -> (weight l < 2 ^ 63)%Z -> SIq 1 (weight l) (truth l) s /\ s_weight s = weight l.
Proof.
  intros HR HV HW. apply (run_ok 1 1); auto using valid_at_least1.
Qed.

Lemma SI_off_bound W T s : (W < 2 ^ 63)%Z -> SIq 1 W T s -> (0 <= s_off s)%Z /\ (total (m_slots (s_map s)) + s_off s <= W)%Z /\
  (forall k v, has zeroK (m_slots (s_map s)) k v -> (0 < v)%Z /\ wrap64 (v + s_off s) = (v + s_off s)%Z /\ (v + s_off s <= W)%Z).
Proof.
  intros HW I. pose proof (si_off _ _ _ _ _ _ _ I) as H1. pose proof (si_total _ _ _ _ _ _ _ I) as H2.
  split; auto. split; [lia|]. intros k v Hv. pose proof (si_pos _ _ _ _ _ _ _ I _ _ Hv) as Hp.
  pose proof (has_le_total keqb keqb_spec zeroK hash (drift_limit q) (drift_limit2 q) golden _ _ _ (mi_wf _ _ _ _ (si_map _ _ _ _ _ _ _ I)) (si_pos _ _ _ _ _ _ _ I) Hv).
  split; auto. split; [|lia]. apply wrap64_id. unfold int64. lia.
Qed.

Theorem freq_bounds : forall l s, run l = Some s -> valid l -> (weight l < 2 ^ 63)%Z -> forall k,
  exists lb est ub, lower_bound keqb hash s k = Some lb /\ estimate s k = Some est /\ upper_bound keqb hash s k = Some ub /\
    (0 <= lb <= truth l k)%Z /\ (truth l k <= ub)%Z /\ (ub = lb + maximum_error s)%Z /\
    (lb <= est <= ub)%Z /\ (Z.abs (est - truth l k) <= maximum_error s)%Z.
Proof.
  intros l s HR HV HW k. destruct (run_ok1 l s HR HV HW) as [I _].
  destruct (SI_off_bound _ _ _ HW I) as (O1 & O2 & O3).
  destruct (get_has keqb keqb_spec zeroK hash (drift_limit q) (drift_limit2 q) (s_map s) k (si_map _ _ _ _ _ _ _ I)) as (v & HG & HH).
  assert (B : (0 <= v <= truth l k)%Z /\ (truth l k <= v + s_off s)%Z /\ wrap64 (v + s_off s) = (v + s_off s)%Z).
  { destruct HH as [Hv|[-> Hv]].
    - pose proof (si_in _ _ _ _ _ _ _ I _ _ Hv). destruct (O3 _ _ Hv) as (A & B & C). split; [|split]; auto; lia.
    - pose proof (si_out _ _ _ _ _ _ _ I _ Hv). split; [|split]; auto; try lia. apply wrap64_id. unfold int64.
      assert (0 <= total (m_slots (s_map s)))%Z by (apply (total_nonneg keqb keqb_spec zeroK hash (drift_limit q) (drift_limit2 q) golden), (si_pos _ _ _ _ _ _ _ I)). lia. }
  destruct B as (B1 & B2 & B3). unfold maximum_error.
  exists v, (match q with Longs => v + s_off s | Items => if 0 <? v then v + s_off s else 0 end)%Z, (v + s_off s)%Z.
  unfold estimate, estimate_longs, estimate_items, lower_bound, upper_bound. rewrite HG. cbn [bindo].
  split; [auto|]. split; [destruct q; rewrite B3; auto|]. split; [rewrite B3; auto|]. split; [lia|]. split; [lia|]. split; [lia|].
  destruct q; [lia|]. destruct (Z.ltb_spec 0 v); lia.
Qed.

(** Before the first purge (maximum error still 0) the answers are exact. *)
Theorem freq_exact : forall l s, run l = Some s -> valid l -> (weight l < 2 ^ 63)%Z -> maximum_error s = 0%Z ->
  forall k, lower_bound keqb hash s k = Some (truth l k) /\ estimate s k = Some (truth l k) /\ upper_bound keqb hash s k = Some (truth l k).
Proof.
  intros l s HR HV HW HE k. destruct (freq_bounds l s HR HV HW k) as (lb & est & ub & A & B & C & D).
  rewrite A, B, C. repeat split; f_equal; lia.
Qed.

(** ** C23: stream length and error accounting *)
Theorem freq_weight : forall l s, run l = Some s -> valid l -> (weight l < 2 ^ 63)%Z -> s_weight s = weight l.
Proof. intros l s HR HV HW. apply (run_ok1 l s HR HV HW). Qed.

Theorem freq_error_accounting : forall l s L, run l = Some s -> valid l -> (weight l < 2 ^ 63)%Z -> 1 <= L -> at_least L l ->
  exists keys, NoDup keys /\ length keys = m_active (s_map s) /\
    (forall k, In k keys <-> exists lb, lower_bound keqb hash s k = Some lb /\ (0 < lb)%Z) /\
    exists lbs, map (lower_bound keqb hash s) keys = map Some lbs /\
      (fold_right Z.add 0 lbs + maximum_error s * Z.of_nat (share L) <= weight l)%Z.
Proof.
  intros l s L HR HV HW HL HA. destruct (run_ok (share L) L HL) with (l := l) (s := s) as [I _]; auto.
  { split; auto. apply half_up_pos. pose proof (threshold_pos1 L HL). lia. }
  pose proof (si_map _ _ _ _ _ _ _ I) as IM. pose proof (mi_wf _ _ _ _ IM) as IW.
  exists (map fst (ents (m_slots (s_map s)))). split; [|split; [|split]].
  - apply (ents_keys_NoDup keqb keqb_spec zeroK hash (drift_limit q) (drift_limit2 q) _ IW).
  - rewrite map_length, ents_length. symmetry. eapply mi_count; eauto.
  - intros k. destruct (get_has keqb keqb_spec zeroK hash (drift_limit q) (drift_limit2 q) (s_map s) k IM) as (v & HG & HH). unfold lower_bound.
    rewrite HG. split.
    + intros Hin. apply in_map_iff in Hin. destruct Hin as ([k' w] & E & Hin). cbn in E. subst k'. apply (ents_in zeroK) in Hin.
      exists v. split; auto. destruct HH as [Hv|[-> Hv]]; [eapply (si_pos _ _ _ _ _ _ _ I); eauto|]. exfalso. eapply Hv; eauto.
    + intros (lb & E & Hp). inversion E; subst lb. destruct HH as [Hv|[-> Hv]]; [|lia].
      apply in_map_iff. exists (k, v). split; auto. apply (ents_in zeroK); auto.
  - exists (map snd (ents (m_slots (s_map s)))). split.
    + rewrite !map_map. apply map_ext_in. intros [k v] Hin. cbn [fst snd]. apply (ents_in zeroK) in Hin. unfold lower_bound.
      destruct (get_has keqb keqb_spec zeroK hash (drift_limit q) (drift_limit2 q) (s_map s) k IM) as (w & HG & [Hw|[-> Hw]]).
      * rewrite HG. f_equal. eapply has_fun; eauto.
      * exfalso. eapply Hw; eauto.
    + pose proof (si_total _ _ _ _ _ _ _ I) as HT. unfold maximum_error.
      assert (fold_right Z.add 0%Z (map snd (ents (m_slots (s_map s)))) = total (m_slots (s_map s))) as ->; [|lia].
      unfold total. induction (ents (m_slots (s_map s))) as [|[a b] r IH]; auto. cbn [map snd fold_right]. rewrite IH. reflexivity.
Qed.

(** The a-priori error 3.5 * weight / maxMapSize promised by GetAprioriErrorLongsSketch bounds the error for sure
    when a purge samples the whole table (lgMaxMapSize <= 10), with constant 8/3; beyond that 1/512 of the weight does. *)
Theorem freq_apriori_error : forall l s L, run l = Some s -> valid l -> (weight l < 2 ^ 63)%Z -> 3 <= L -> at_least L l ->
  (L <= 10 -> (3 * 2 ^ Z.of_nat L * maximum_error s <= 8 * weight l)%Z) /\
  (10 < L -> (512 * maximum_error s <= weight l)%Z).
Proof.
  intros l s L HR HV HW HL HA. 
  assert (X : 1 <= share L) by (apply half_up_pos; pose proof (threshold_pos1 L ltac:(lia)); lia).
  destruct (run_ok (share L) L ltac:(lia)) with (l := l) (s := s) as [I _]; auto.
  pose proof (si_total _ _ _ _ _ _ _ I) as HT. unfold maximum_error. pose proof (si_off _ _ _ _ _ _ _ I).
  assert (0 <= total (m_slots (s_map s)))%Z by (apply (total_nonneg keqb keqb_spec zeroK hash (drift_limit q) (drift_limit2 q) golden), (si_pos _ _ _ _ _ _ _ I)).
  split.
  - intros HL10. assert (E : (8 * Z.of_nat (share L) = 3 * 2 ^ Z.of_nat L)%Z).
    { clear -HL HL10. do 3 (destruct L as [|L]; [lia|]). do 8 (destruct L as [|L]; [vm_compute; reflexivity|]). lia. }
    nia.
  - intros HL10. assert (512 <= share L); [|nia]. 
    eapply Nat.le_trans; [|apply (share_mono 11 L); lia]. apply Nat.leb_le. vm_compute. reflexivity.
Qed.

(** ** C22: frequent items *)
Definition frequent (s : sketch) (noFalseNegatives : bool) (thr : Z) := frequent_items_thr keqb hash golden s noFalseNegatives thr.

Lemma rows_sub s nfn thr : forall es l, rows keqb hash s nfn thr es = Some l -> NoDup (map fst es) ->
  NoDup (map r_item l) /\ incl (map r_item l) (map fst es).
Proof.
  induction es as [|[k v] es IH]; intros l HR HN; cbn [rows] in HR.
  - inversion HR. cbn. split; [constructor|intros ? []].
  - destruct (get keqb hash (s_map s) k) as [w|]; [|discriminate]. cbn [bindo] in HR.
    destruct (rows keqb hash s nfn thr es) as [rest|]; [|discriminate]. cbn [bindo] in HR.
    cbn [map fst] in HN. inversion HN; subst. destruct (IH rest eq_refl) as [A B]; auto.
    assert (C : incl (map r_item rest) (map fst ((k, v) :: es))) by (intros x Hx; right; auto).
    destruct (if nfn then _ else _); inversion HR; subst l; auto. cbn [map r_item]. split.
    + constructor; auto.
    + intros x [<-|Hx]; [left; auto|apply C; auto].
Qed.

Theorem freq_frequent_items : forall l s, run l = Some s -> valid l -> (weight l < 2 ^ 63)%Z -> forall nfn thr,
  exists rs, frequent s nfn thr = Some rs /\
    (* every row carries the bounds of its item; rows are in descending order, one per item *)
    (forall r, In r rs -> lower_bound keqb hash s (r_item r) = Some (r_lb r) /\ upper_bound keqb hash s (r_item r) = Some (r_ub r) /\
        r_est r = r_ub r /\ (r_lb r <= truth l (r_item r) <= r_ub r)%Z) /\
    StronglySorted (fun a b => (r_est b <= r_est a)%Z) rs /\ NoDup (map r_item rs) /\
    (* no false negatives *)
    (nfn = true -> forall k, (Z.max thr (maximum_error s) < truth l k)%Z -> In k (map r_item rs)) /\
    (* no false positives *)
    (nfn = false -> forall k, In k (map r_item rs) -> (Z.max thr (maximum_error s) <= truth l k)%Z) /\
    (* what is not reported *)
    (forall k lb, lower_bound keqb hash s k = Some lb ->
       (In k (map r_item rs) <-> (0 < lb)%Z /\ (Z.max thr (maximum_error s) <= (if nfn then lb + maximum_error s else lb))%Z)).
Proof.
  intros l s HR HV HW nfn thr. destruct (run_ok1 l s HR HV HW) as [I _].
  destruct (SI_off_bound _ _ _ HW I) as (O1 & O2 & O3).
  pose proof (si_map _ _ _ _ _ _ _ I) as IM. pose proof (mi_wf _ _ _ _ IM) as IW.
  destruct (frequent_items_ok keqb keqb_spec zeroK hash (drift_limit q) (drift_limit2 q) golden s nfn thr IM) as (rs & HF & HS & HI).
  assert (HG : forall k v, has zeroK (m_slots (s_map s)) k v -> get keqb hash (s_map s) k = Some v).
  { intros k v Hv. destruct (get_has keqb keqb_spec zeroK hash (drift_limit q) (drift_limit2 q) (s_map s) k IM) as (w & HG & [Hw|[-> Hw]]).
    - rewrite HG. f_equal. eapply has_fun; eauto.
    - exfalso. eapply Hw; eauto. }
  exists rs. split; [exact HF|]. unfold lower_bound, upper_bound, maximum_error in *.
  assert (HIn : forall k lb, get keqb hash (s_map s) k = Some lb ->
     (In k (map r_item rs) <-> (0 < lb)%Z /\ (Z.max thr (s_off s) <= (if nfn then lb + s_off s else lb))%Z)).
  { intros k lb Hlb. rewrite in_map_iff. split.
    - intros (r & E & Hr). apply HI in Hr. destruct Hr as (k' & v & Hv & -> & Hc). cbn [r_item] in E. subst k'.
      rewrite (HG _ _ Hv) in Hlb. inversion Hlb; subst lb. destruct (O3 _ _ Hv) as (P1 & P2 & P3). rewrite P2 in Hc.
      split; auto. destruct nfn; lia.
    - intros (Hp & Hc). destruct (get_has keqb keqb_spec zeroK hash (drift_limit q) (drift_limit2 q) (s_map s) k IM) as (w & HG' & HH).
      rewrite HG' in Hlb. inversion Hlb; subst w. destruct HH as [Hw|[-> Hw]]; [|lia].
      exists (mkRow k (wrap64 (lb + s_off s)) (wrap64 (lb + s_off s)) lb). split; auto. apply HI. exists k, lb. split; auto. split; auto.
      destruct (O3 _ _ Hw) as (P1 & P2 & P3). rewrite P2. destruct nfn; lia. }
  split; [|split; [exact HS|split; [|split; [|split; [|exact HIn]]]]].
  - intros r Hr. apply HI in Hr. destruct Hr as (k & v & Hv & -> & _). cbn [r_item r_lb r_ub r_est].
    rewrite (HG _ _ Hv). cbn [bindo]. pose proof (si_in _ _ _ _ _ _ _ I _ _ Hv). destruct (O3 _ _ Hv) as (P1 & P2 & P3). rewrite P2.
    split; auto.
  - unfold frequent_items_thr in HF. destruct (entries_ok keqb keqb_spec zeroK hash (drift_limit q) (drift_limit2 q) golden (s_map s) IM) as (es & HE & HP).
    rewrite HE in HF. cbn [bindo] in HF. destruct (rows _ _ _ _ _ _) as [rl|] eqn:ER; [|discriminate]. inversion HF; subst rs.
    apply rows_sub in ER.
    + eapply Permutation_NoDup; [|apply ER]. apply Permutation_map, Permutation_sym, sort_rows_perm.
    + eapply Permutation_NoDup; [|apply (ents_keys_NoDup keqb keqb_spec zeroK hash (drift_limit q) (drift_limit2 q) _ IW)].
      apply Permutation_map, Permutation_sym, HP.
  - intros -> k Hk. destruct (has_dec keqb keqb_spec zeroK hash (drift_limit q) (drift_limit2 q) (s_map s) k IM) as [[v Hv]|Hv].
    + apply (HIn k v (HG _ _ Hv)). pose proof (si_in _ _ _ _ _ _ _ I _ _ Hv). destruct (O3 _ _ Hv) as (P1 & P2 & P3). lia.
    + pose proof (si_out _ _ _ _ _ _ _ I _ Hv). lia.
  - intros -> k Hk. destruct (get_has keqb keqb_spec zeroK hash (drift_limit q) (drift_limit2 q) (s_map s) k IM) as (v & HG' & HH).
    apply (HIn k v HG') in Hk. destruct HH as [Hv|[-> Hv]]; [|lia]. pose proof (si_in _ _ _ _ _ _ _ I _ _ Hv). lia.
Qed.

(** ** Serialization keeps every answer *)
Theorem freq_serde : forall l s s', run l = Some s -> valid l -> (weight l < 2 ^ 63)%Z -> is_empty s = false ->
  of_imagem (to_image s) = Some s' ->
  (forall k, lower_bound keqb hash s' k = lower_bound keqb hash s k /\ upper_bound keqb hash s' k = upper_bound keqb hash s k /\ estimate s' k = estimate s k) /\
  maximum_error s' = maximum_error s /\ s_weight s' = s_weight s /\ s_lgmax s' = s_lgmax s /\ m_active (s_map s') = m_active (s_map s).
Proof.
  intros l s s' HR HV HW HE HS. destruct (run_ok1 l s HR HV HW) as [I _].
  destruct (serde_ok keqb keqb_spec zeroK hash (drift_limit q) (drift_limit2 q) (negb (is_items q)) (is_items q) golden (is_items q) 1 _ _ s s' I HE) as (I2 & A & B & C & D & E & F & G); auto.
  { apply (run_CF 1 ltac:(lia) _ _ HR HV (valid_at_least1 l HV)). }
  assert (X : forall k, get keqb hash (s_map s') k = get keqb hash (s_map s) k).
  { intros k. pose proof (si_map _ _ _ _ _ _ _ I) as IM. pose proof (mi_wf _ _ _ _ IM) as IW.
    destruct (get_has keqb keqb_spec zeroK hash (drift_limit q) (drift_limit2 q) (s_map s) k IM) as (v & HG & HH).
    destruct (get_has keqb keqb_spec zeroK hash (drift_limit q) (drift_limit2 q) (s_map s') k (si_map _ _ _ _ _ _ _ I2)) as (v' & HG' & HH').
    rewrite HG, HG'. f_equal. destruct HH as [Hv|[-> Hv]], HH' as [Hv'|[-> Hv']]; auto.
    - apply G in Hv'. eapply has_fun; eauto.
    - exfalso. apply (Hv' v), G; auto.
    - exfalso. apply (Hv v'), G; auto. }
  split; [|unfold maximum_error; auto].
  intros k. unfold estimate, estimate_longs, estimate_items, lower_bound, upper_bound. rewrite X, B. auto.
Qed.

(** ** Nothing fails: the drift limit is out of reach *)
Fixpoint legal (l : life) : Prop :=
  match l with
  | New lgMax lgCur => lgCur <= Nat.max lgMax 3 <= lg_safe q /\ (q = Items -> 1 <= lgMax)
  | Update l _ c => legal l /\ (0 <= c)%Z /\ (weight l + c < 2 ^ 63)%Z
  | Merge l o => legal l /\ legal o /\ honest o /\ (weight l + weight o < 2 ^ 63)%Z
  | Reset l => legal l
  | Serde l => legal l /\ honest l
  end.
Lemma legal_valid : forall l, legal l -> valid l.
Proof. induction l; cbn [legal valid]; tauto. Qed.
Lemma legal_weight : forall l, legal l -> (weight l < 2 ^ 63)%Z.
Proof.
  induction l; cbn [legal]; intros H; try (unfold weight; cbn; lia).
  - unfold weight in *. cbn [stream]. rewrite sumv_app'. rewrite sumv_cons. cbn [sumv fold_right]. lia.
  - unfold weight in *. cbn [stream]. rewrite sumv_app'. lia.
  - change (weight (Serde l)) with (weight l). apply IHl. tauto.
Qed.

Lemma safe_threshold lg : lg <= lg_safe q -> threshold (2 ^ lg) + 2 < drift_limit q.
Proof.
  intros H. apply (threshold_mono keqb keqb_spec zeroK hash (drift_limit q) (drift_limit2 q)) in H.
  assert (threshold (2 ^ lg_safe q) + 2 < drift_limit q); [|lia].
  clear. unfold threshold. assert (X : drift_limit q = 2 ^ lg_safe q) by (destruct q; auto). rewrite X.
  assert (Y : 2 ^ lg_safe q = 16 * 2 ^ (lg_safe q - 4)).
  { change 16 with (2 ^ 4). rewrite <- Nat.pow_add_r. f_equal. destruct q; cbn; lia. }
  pose proof (Nat.pow_nonzero 2 (lg_safe q - 4) ltac:(lia)). rewrite Y.
  replace (3 * (16 * 2 ^ (lg_safe q - 4))) with (12 * 2 ^ (lg_safe q - 4) * 4) by lia. rewrite Nat.div_mul by lia. lia.
Qed.

Lemma run_total : forall l, legal l -> exists s, run l = Some s /\ m_lg (s_map s) <= s_lgmax s <= lg_safe q.
Proof.
  induction l as [lgMax lgCur|l IH k c|l IH o IHo|l IH|l IH]; intros HL; pose proof (legal_valid _ HL) as HV; pose proof (legal_weight _ HL) as HW; cbn [legal run] in *.
  - eexists. split; [reflexivity|]. unfold new_sk. destruct (is_items q); cbn; lia.
  - destruct HL as (L1 & Hc & Hw). destruct (IH L1) as (s & HR & Hs). rewrite HR. cbn [bindo].
    destruct (run_ok1 l s HR (legal_valid _ L1) (legal_weight _ L1)) as [I _].
    destruct (updatem s k c) as [s'|] eqn:E.
    + exists s'. split; auto. destruct (update_params _ _ _ _ E) as [X _]. rewrite X. split; [|lia].
      rewrite <- X. eapply (update_lg keqb keqb_spec zeroK hash (drift_limit q) (drift_limit2 q) (negb (is_items q)) (is_items q) golden 1 _ _ s k c s' I); auto; lia.
    + exfalso. apply (update_many_total keqb keqb_spec zeroK hash (drift_limit q) (drift_limit2 q) (negb (is_items q)) (is_items q) golden 1 _ _ s k c I) in E; auto; try lia.
      apply safe_threshold; lia.
  - destruct HL as (L1 & L2 & Hh & Hw). destruct (IH L1) as (s & HR & Hs). destruct (IHo L2) as (t & HRt & Ht). rewrite HR, HRt. cbn [bindo].
    destruct (run_ok1 l s HR (legal_valid _ L1) (legal_weight _ L1)) as [I _].
    destruct (run_ok1 o t HRt (legal_valid _ L2) (legal_weight _ L2)) as [I2 _].
    unfold merge. destruct (is_empty t); [exists s; auto|].
    destruct (entries_ok keqb keqb_spec zeroK hash (drift_limit q) (drift_limit2 q) golden (s_map t) (si_map _ _ _ _ _ _ _ I2)) as (es & HE & HP).
    rewrite HE. cbn [bindo].
    destruct (update_all_total keqb keqb_spec zeroK hash (drift_limit q) (drift_limit2 q) (negb (is_items q)) (is_items q) golden 1 es _ _ s I) as (s' & HU & Hlg); auto; try lia.
    + intros k v Hin. apply (Permutation_in _ HP) in Hin. apply (ents_in zeroK) in Hin. pose proof (si_pos _ _ _ _ _ _ _ I2 _ _ Hin). lia.
    + rewrite (sumv_perm keqb keqb_spec zeroK hash (drift_limit q) (drift_limit2 q) _ _ HP).
      destruct (SI_off_bound _ _ _ (legal_weight _ L2) I2) as (O1 & O2 & _). unfold total in O2. lia.
    + apply safe_threshold; lia.
    + rewrite HU. cbn [bindo]. eexists. split; [reflexivity|]. cbn [s_map s_lgmax]. destruct (update_all_params _ _ _ HU). lia.
  - destruct (IH HL) as (s & HR & Hs). rewrite HR. cbn [bindo]. eexists. split; [reflexivity|]. 
    pose proof (run_CF 1 ltac:(lia) _ _ HR (legal_valid _ HL) (valid_at_least1 _ (legal_valid _ HL))) as (A & _). cbn. lia.
  - destruct HL as (L1 & Hh). destruct (IH L1) as (s & HR & Hs). rewrite HR. cbn [bindo].
    destruct (run_ok1 l s HR (legal_valid _ L1) (legal_weight _ L1)) as [I _].
    destruct (is_empty s) eqn:Ee.
    + unfold to_image. rewrite Ee. unfold of_image. pose proof (si_lgmax _ _ _ _ _ _ _ I).
      destruct (is_items q) eqn:Eq; cbn [of_image_items of_image_longs]; eexists; (split; [reflexivity|]); cbn; [|lia].
      destruct q; cbn; try discriminate; lia.
    + destruct (of_imagem (to_image s)) as [s'|] eqn:E.
      * exists s'. split; auto.
        destruct (serde_ok keqb keqb_spec zeroK hash (drift_limit q) (drift_limit2 q) (negb (is_items q)) (is_items q) golden (is_items q) 1 _ _ s s' I Ee) as (I2 & A & B & C & D & _); auto; [|lia].
        apply (run_CF 1 ltac:(lia) _ _ HR (legal_valid _ L1) (valid_at_least1 l (legal_valid _ L1))).
      * exfalso. apply (serde_total keqb keqb_spec zeroK hash (drift_limit q) (drift_limit2 q) (negb (is_items q)) (is_items q) golden (is_items q) 1 _ _ s I Ee) in E; auto; try lia.
        apply safe_threshold; lia.
Qed.

Theorem freq_never_errors : forall l, legal l -> run l <> None.
Proof. intros l H. destruct (run_total l H) as (s & E & _). congruence. Qed.
End F.

(** ** Concrete cases: the hypotheses are met, by runs that grow, purge, merge and deserialize *)
Definition gold (n : nat) : N := (N.of_nat n * 5 / 8)%N.
Definition hsh (k : N) : N := (k * 7919 / 3)%N.
Definition upd_all (l : life N) (ks : list (N * Z)) : life N := fold_left (fun l e => Update _ l (fst e) (snd e)) ks l.
Definition runL := run N N.eqb 0%N hsh gold Longs.
Definition runI := run N N.eqb 0%N hsh gold Items.
Definition items1 := map (fun i => ((N.of_nat i * 1000003 mod 17)%N, (Z.of_nat i + 1)%Z)) (seq 0 40) : list (N * Z).
Definition items2 := map (fun i => ((N.of_nat i * 97 mod 23)%N, (3 * Z.of_nat i + 1)%Z)) (seq 0 30) : list (N * Z).
Definition ex_o : life N := upd_all (New _ 4 3) items2.
Definition ex_life : life N := Update _ (Serde _ (Merge _ (upd_all (New _ 3 3) items1) ex_o)) 5%N 100%Z.

Definition summary (s : option (@sketch N)) :=
  option_map (fun s => (m_active (s_map s), maximum_error s, s_weight s, s_lgmax s)) s.
Example ex_runs : (exists a e, summary (runL ex_life) = Some (a, e, 2255%Z, 3) /\ 0 < a /\ (100 < e)%Z) /\
                  (exists a e, summary (runI ex_life) = Some (a, e, 2255%Z, 3) /\ 0 < a /\ (100 < e)%Z).
Proof. split; eexists; eexists; (split; [vm_compute; reflexivity|split; vm_compute; [repeat constructor|reflexivity]]). Qed.
Lemma not_empty_honest q l : match run N N.eqb 0%N hsh gold q l with Some s => is_empty s | None => false end = false ->
  honest N N.eqb 0%N hsh gold q l.
Proof. intros H s E. rewrite E in H. congruence. Qed.
Lemma upd_all_legal q : forall ks l, legal N N.eqb 0%N hsh gold q l -> Forall (fun e => (0 <= snd e)%Z) ks ->
  (weight N l + sumv ks < 2 ^ 63)%Z -> legal N N.eqb 0%N hsh gold q (upd_all l ks).
Proof.
  induction ks as [|[k c] ks IH]; intros l HL HF HW; cbn [upd_all fold_left]; auto. inversion HF; subst. cbn [snd] in *.
  rewrite sumv_cons in HW.
  assert (0 <= sumv ks)%Z. { clear -H2. induction ks as [|[a b] ks IH]; [cbn; lia|]. rewrite sumv_cons. inversion H2; subst. cbn in H1. specialize (IH H3). lia. }
  apply IH; auto.
  - cbn [legal fst snd]. split; auto. split; auto. lia.
  - unfold weight in *. cbn [stream fst snd]. rewrite (sumv_app' N N.eqb N.eqb_eq 0%N hsh), sumv_cons. cbn [sumv fold_right]. lia.
Qed.
Example ex_legal : forall q, q = Longs \/ q = Items -> legal N N.eqb 0%N hsh gold q ex_life.
Proof.
  intros q Hq. unfold ex_life. cbn [legal].
  assert (N3 : forall lg, 3 <= lg <= 10 -> legal N N.eqb 0%N hsh gold q (New _ lg 3)) by (intros; destruct Hq as [-> | ->]; cbn; lia).
  assert (A : legal N N.eqb 0%N hsh gold q (upd_all (New _ 3 3) items1)).
  { apply upd_all_legal; [apply N3; lia| |vm_compute; reflexivity]. unfold items1. apply Forall_map, Forall_forall. intros i _. cbn [snd]. lia. }
  assert (B : legal N N.eqb 0%N hsh gold q ex_o).
  { apply upd_all_legal; [apply N3; lia| |vm_compute; reflexivity]. unfold items2. apply Forall_map, Forall_forall. intros i _. cbn [snd]. lia. }
  assert (C : honest N N.eqb 0%N hsh gold q ex_o).
  { apply not_empty_honest. destruct Hq as [-> | ->]; vm_compute; reflexivity. }
  assert (D : honest N N.eqb 0%N hsh gold q (Merge _ (upd_all (New _ 3 3) items1) ex_o)).
  { apply not_empty_honest. destruct Hq as [-> | ->]; vm_compute; reflexivity. }
  split; [split; [split; [exact A|split; [exact B|split; [exact C|vm_compute; reflexivity]]]|exact D]|split; [lia|vm_compute; reflexivity]].
Qed.
Example ex_at_least : at_least N Longs 3 ex_life.
Proof. vm_compute. repeat split; auto; lia. Qed.
Example ex_map_ops : exists m, run_ops N N.eqb 0%N hsh Longs (new_map 0%N 3)
   [Adjust _ 3%N 5; Adjust _ 11%N 2; Adjust _ 3%N 1; Grow _; Adjust _ 19%N 9; Adjust _ 27%N 1; Purge _ 4; Adjust _ 11%N 7] = Some m /\ m_active m = 2.
Proof. eexists. split; vm_compute; reflexivity. Qed.

(** ** What is false *)
(** A purge can remove every entry. IsEmpty is then true although items have been counted, and merging that sketch
    into another, or serializing it, drops its offset and its stream length: the upper bound falls below the truth. *)
Definition seven : life N := upd_all (New _ 3 3) (map (fun i => (N.of_nat i, 1%Z)) (seq 0 7)).
Theorem freq_emptied_merge_refuted : forall q, q = Longs \/ q = Items ->
  exists o s, run N N.eqb 0%N hsh gold q o = Some s /\ is_empty s = true /\ s_weight s = 7%Z /\ 
  exists t, run N N.eqb 0%N hsh gold q (Merge _ (New _ 3 3) o) = Some t /\ s_weight t = 0%Z /\ truth N N.eqb (Merge _ (New _ 3 3) o) 5%N = 1%Z /\
    upper_bound N.eqb hsh t 5%N = Some 0%Z.
Proof.
  intros q Hq. exists seven. destruct Hq as [-> | ->]; eexists; (split; [vm_compute; reflexivity|]); (split; [reflexivity|]); (split; [reflexivity|]);
    eexists; (split; [vm_compute; reflexivity|]); vm_compute; auto.
Qed.
Theorem freq_emptied_serde_refuted : forall q, q = Longs \/ q = Items ->
  exists o s, run N N.eqb 0%N hsh gold q o = Some s /\ is_empty s = true /\ upper_bound N.eqb hsh s 5%N = Some 1%Z /\
  exists t, run N N.eqb 0%N hsh gold q (Serde _ o) = Some t /\ s_weight t = 0%Z /\ truth N N.eqb (Serde _ o) 5%N = 1%Z /\
    upper_bound N.eqb hsh t 5%N = Some 0%Z.
Proof.
  intros q Hq. exists seven. destruct Hq as [-> | ->]; eexists; (split; [vm_compute; reflexivity|]); (split; [reflexivity|]); (split; [reflexivity|]);
    eexists; (split; [vm_compute; reflexivity|]); vm_compute; auto.
Qed.
(** An empty items sketch does not keep its capacity through serialization. *)
Theorem freq_items_empty_capacity_refuted : exists s t, runI (New _ 10 3) = Some s /\ runI (Serde _ (New _ 10 3)) = Some t /\
  s_lgmax s = 10 /\ s_lgmax t = 3.
Proof. eexists. eexists. split; [reflexivity|]. split; [reflexivity|]. vm_compute. auto. Qed.
(** An items sketch constructed with lgMaxMapSize = 0 gets sample size 0 and panics at its first purge. *)
Theorem freq_items_lg0_refuted : runI (upd_all (New _ 0 3) (map (fun i => (N.of_nat i, 1%Z)) (seq 0 6))) <> None /\
  runI (upd_all (New _ 0 3) (map (fun i => (N.of_nat i, 1%Z)) (seq 0 7))) = None.
Proof. split; vm_compute; congruence. Qed.
(** With lgCurMapSize larger than lgMaxMapSize an update fails although nothing is wrong with it. *)
Theorem freq_lgcur_refuted : forall q, q = Longs \/ q = Items ->
  run N N.eqb 0%N hsh gold q (upd_all (New _ 3 5) (map (fun i => (N.of_nat i, 100 - Z.of_nat i)%Z) (seq 0 25))) = None.
Proof. intros q [-> | ->]; vm_compute; reflexivity. Qed.
(** "No false positives" holds with >=, not with the > of the documentation. *)
Theorem freq_nfp_strict_refuted : exists s r, runL (Update _ (New _ 3 3) 1%N 5%Z) = Some s /\
  frequent N N.eqb hsh gold s false 5%Z = Some [r] /\ truth N N.eqb (Update _ (New _ 3 3) 1%N 5%Z) (r_item r) = 5%Z.
Proof. eexists. eexists. split; [vm_compute; reflexivity|]. split; vm_compute; reflexivity. Qed.

Print Assumptions freq_map_refines.
Print Assumptions freq_bounds.
Print Assumptions freq_exact.
Print Assumptions freq_weight.
Print Assumptions freq_error_accounting.
Print Assumptions freq_apriori_error.
Print Assumptions freq_frequent_items.
Print Assumptions freq_serde.
Print Assumptions freq_never_errors.
