(** * Bloom filter: the properties C13 - C16.

    [hashes seed x] is the pair of 64-bit hashes the code computes for item [x] (None for the items that
    every Update/Query method ignores: empty strings, slices and arrays). It is an arbitrary function: the
    theorems hold for every hash function. *)
From Verif Require Import Base Bytes BloomModel BloomProofs.
Local Open Scope nat_scope.

Section Bloom.
Context {Item : Type}.
Variable hashes : N -> Item -> option (N * N).

(** A filter's life: constructed, then any sequence of API calls, where the other operand of a union or an
    intersection has a life of its own. *)
Inductive life : Type :=
| New (numBits numHashes seed : N)
| Update (l : life) (x : Item)
| Query (l : life) (x : Item)
| QueryAndUpdate (l : life) (x : Item)
| BitsUsed (l : life)
| Union (l other : life)
| Intersect (l other : life)
| Invert (l : life)
| Reset (l : life)
| Serde (l : life).

(** The implementation runs it. None = panic or non-termination. *)
Fixpoint run (l : life) : option bloom :=
  match l with
  | New n h s => new_bloom n h s
  | Update l x => do f <- run l; bf_update hashes f x
  | Query l x => do f <- run l; do (f', _) <- bf_query hashes f x; Some f'
  | QueryAndUpdate l x => do f <- run l; do (f', _) <- bf_query_and_update hashes f x; Some f'
  | BitsUsed l => do f <- run l; Some (fst (bits_used f))
  | Union l o => do f <- run l; do g <- run o; do (f', _) <- bf_union f g; Some f'
  | Intersect l o => do f <- run l; do g <- run o; do (f', _) <- bf_intersect f g; Some f'
  | Invert l => do f <- run l; Some (bf_invert f)
  | Reset l => do f <- run l; Some (bf_reset f)
  | Serde l => do f <- run l; do b <- to_slice f; from_slice b
  end.

(** Specification: configuration of a filter - capacity rounded up to a multiple of 64, hash count, seed. *)
Fixpoint config (l : life) : N * N * N :=
  match l with
  | New n h s => ((64 * ((n + 63) / 64))%N, h, s)
  | Update l _ | Query l _ | QueryAndUpdate l _ | BitsUsed l | Union l _ | Intersect l _ | Invert l | Reset l | Serde l => config l
  end.
Definition seed_of l : N := snd (config l).

(** Specification: which constructor arguments the API documents as valid; 65535 hashes is excluded (see
    [bloom_65535_hashes_refuted]). *)
Fixpoint valid (l : life) : Prop :=
  match l with
  | New n h s => (1 <= n <= (2 ^ 31 - 1 - 4) * 64)%N /\ (1 <= h < 65535)%N /\ (s < 2 ^ 64)%N
  | Update l _ | Query l _ | QueryAndUpdate l _ | BitsUsed l | Invert l | Reset l | Serde l => valid l
  | Union l o | Intersect l o => valid l /\ valid o
  end.

(** Specification: the items the filter must report. Unions add the other side's items, intersections keep the
    items both sides must report; incompatible operands are rejected and change nothing. After Invert
    nothing is promised. *)
Fixpoint inserted (l : life) (x : Item) : Prop :=
  match l with
  | New _ _ _ => False
  | Update l y | QueryAndUpdate l y => (x = y) \/ inserted l x
  | Query l _ | BitsUsed l | Serde l => inserted l x
  | Union l o => inserted l x \/ (config l = config o /\ inserted o x)
  | Intersect l o => inserted l x /\ (config l = config o -> inserted o x)
  | Invert _ | Reset _ => False
  end.

Lemma covered_grow f f' h0 h1 g0 g1 : bf_hashes f' = bf_hashes f -> bf_cap f' = bf_cap f ->
  (forall j, bit (bf_bits f') j = true <-> bit (bf_bits f) j = true \/ exists i, (1 <= i <= bf_hashes f)%N /\ index_of f h0 h1 i = j) ->
  covered f' h0 h1 /\ (covered f g0 g1 -> covered f' g0 g1).
Proof using.
  intros E3 E4 HB. unfold covered, index_of. rewrite E3, E4. split.
  - intros i Hi. apply HB. right. exists i. auto.
  - intros H i Hi. apply HB. left. apply H. auto.
Qed.

Lemma covered_mono f f' g0 g1 : bf_hashes f' = bf_hashes f -> bf_cap f' = bf_cap f ->
  (forall j, bit (bf_bits f) j = true -> bit (bf_bits f') j = true) ->
  covered f g0 g1 -> covered f' g0 g1.
Proof using. intros E3 E4 HB H. unfold covered, index_of in *. rewrite E3, E4. auto. Qed.

Lemma life_inv l : valid l -> exists f, run l = Some f /\ wfB f /\ config l = (bf_cap f, bf_hashes f, bf_seed f) /\
  forall x h0 h1, inserted l x -> hashes (seed_of l) x = Some (h0, h1) -> covered f h0 h1.
Proof using.
  unfold seed_of. induction l; intros V; cbn [run valid config inserted] in *.
  - destruct V as (V1 & V2 & V3). destruct (new_bloom_spec numBits numHashes seed) as (f & -> & W & E1 & E2 & E3 & _); auto.
    exists f. split; auto. split; auto. split; [congruence|tauto].
  - destruct (IHl V) as (f & -> & W & C & I). cbn [bindo]. unfold bf_update. rewrite C in I |- *. simpl in I |- *.
    destruct (hashes (bf_seed f) x) as [[h0 h1]|] eqn:EH.
    + destruct (internal_update_spec f h0 h1 W) as (f' & -> & W' & E2 & E3 & E4 & _ & HB).
      exists f'. split; auto. split; auto. split; [congruence|]. intros y g0 g1 Hy Hh.
      destruct (covered_grow f f' h0 h1 g0 g1) as [C1 C2]; auto.
      destruct Hy as [->|Hy]; [|eauto]. rewrite EH in Hh. inversion Hh; subst; auto.
    + exists f. split; auto. split; auto. split; auto. intros y g0 g1 [->|Hy] Hh; [congruence|eauto].
  - destruct (IHl V) as (f & -> & W & C & I). cbn [bindo]. unfold bf_query. rewrite C in I |- *. simpl in I |- *.
    destruct (hashes (bf_seed f) x) as [[h0 h1]|] eqn:EH.
    + destruct (internal_query_spec f h0 h1 W) as (f' & b & -> & W' & E1 & E2 & E3 & E4 & _).
      exists f'. split; auto. split; auto. split; [congruence|]. intros y g0 g1 Hy Hh.
      apply covered_mono with f; auto; [|eauto]. intros. congruence.
    + exists f. auto.
  - destruct (IHl V) as (f & -> & W & C & I). cbn [bindo]. unfold bf_query_and_update. rewrite C in I |- *. simpl in I |- *.
    destruct (hashes (bf_seed f) x) as [[h0 h1]|] eqn:EH.
    + destruct (internal_qu_spec f h0 h1 W) as (f' & ex & -> & W' & E2 & E3 & E4 & _ & HB & _).
      exists f'. split; auto. split; auto. split; [congruence|]. intros y g0 g1 Hy Hh.
      destruct (covered_grow f f' h0 h1 g0 g1) as [C1 C2]; auto.
      destruct Hy as [->|Hy]; [|eauto]. rewrite EH in Hh. inversion Hh; subst; auto.
    + exists f. split; auto. split; auto. split; auto. intros y g0 g1 [->|Hy] Hh; [congruence|eauto].
  - destruct (IHl V) as (f & -> & W & C & I). cbn [bindo].
    destruct (bits_used_spec f W) as (W' & _ & E1 & E2 & E3 & E4). eexists. split; [reflexivity|]. split; auto.
    split; [congruence|]. intros y g0 g1 Hy Hh. apply covered_mono with f; auto; [|eauto]. intros. congruence.
  - destruct V as [V1 V2]. destruct (IHl1 V1) as (f & -> & W & C & I). destruct (IHl2 V2) as (g & -> & Wg & Cg & Ig).
    cbn [bindo]. unfold bf_union. destruct (compatible f g) eqn:EC.
    + apply compatible_spec in EC. destruct EC as (Ec1 & Ec2 & Ec3).
      destruct (union_with_spec (bf_bits f) (bf_bits g)) as (r & -> & L & Wr & B).
      { pose proof (wb_cap f W). pose proof (wb_cap g Wg). lia. } { apply W. } { apply Wg. }
      cbn [bindo]. eexists. split; [reflexivity|]. split; [|split; [auto|]].
      { destruct W. constructor; cbn [bf_seed bf_hashes bf_dirty bf_cap bf_nset bf_bits bf_invert]; auto; lia. }
      intros y g0 g1 Hy Hh. destruct Hy as [Hy|[_ Hy]].
      * apply covered_mono with f; simpl; auto; [|eauto]. intros j Hj. rewrite B, Hj. auto.
      * apply covered_mono with g; simpl; auto; [|apply (Ig y); auto]. { intros j Hj. rewrite B, Hj. apply orb_true_r. }
        rewrite Cg. rewrite C in Hh. simpl in *. congruence.
    + cbn [bindo]. exists f. split; auto. split; auto. split; auto. intros y g0 g1 [Hy|[HC _]] Hh; [eauto|].
      rewrite C, Cg in HC. inversion HC. assert (compatible f g = true) by (apply compatible_spec; auto). congruence.
  - destruct V as [V1 V2]. destruct (IHl1 V1) as (f & -> & W & C & I). destruct (IHl2 V2) as (g & -> & Wg & Cg & Ig).
    cbn [bindo]. unfold bf_intersect. destruct (compatible f g) eqn:EC.
    + apply compatible_spec in EC. destruct EC as (Ec1 & Ec2 & Ec3).
      destruct (intersect_with_spec (bf_bits f) (bf_bits g)) as (r & -> & L & Wr & B).
      { pose proof (wb_cap f W). pose proof (wb_cap g Wg). lia. } { apply W. } { apply Wg. }
      cbn [bindo]. eexists. split; [reflexivity|]. split; [|split; [auto|]].
      { destruct W. constructor; cbn [bf_seed bf_hashes bf_dirty bf_cap bf_nset bf_bits bf_invert]; auto; lia. }
      intros y g0 g1 [Hy Hy2] Hh. assert (HCC : config l1 = config l2) by congruence. specialize (Hy2 HCC).
      assert (K1 : covered f g0 g1) by eauto. assert (K2 : covered g g0 g1) by (apply (Ig y); auto; rewrite <- HCC; auto).
      unfold covered, index_of in *. simpl. intros i Hi. rewrite B, K1 by auto. rewrite Ec2, Ec3 in *. rewrite K2; auto.
    + cbn [bindo]. exists f. split; auto. split; auto. split; auto. intros y g0 g1 [Hy _] Hh; eauto.
  - destruct (IHl V) as (f & -> & W & C & I). cbn [bindo]. eexists. split; [reflexivity|].
    destruct (invert_spec (bf_bits f)) as (L & Wr & _); [apply W|].
    split; [|split; [auto|tauto]]. destruct W. constructor; cbn [bf_seed bf_hashes bf_dirty bf_cap bf_nset bf_bits bf_invert]; auto; lia.
  - destruct (IHl V) as (f & -> & W & C & I). cbn [bindo]. eexists. split; [reflexivity|].
    split; [apply reset_spec; auto|]. split; [auto|tauto].
  - destruct (IHl V) as (f & -> & W & C & I). cbn [bindo].
    destruct (serde_spec f W) as (b & f' & -> & E & W' & E1 & E2 & E3 & E4). cbn [bindo]. rewrite E.
    exists f'. split; auto. split; auto. split; [congruence|]. intros y g0 g1 Hy Hh.
    apply covered_mono with f; auto; [|eauto]. intros. congruence.
Qed.

(** *** C13: no false negatives, and no call in a valid life panics or loops. *)
Theorem bloom_no_false_negatives l x : valid l -> hashes (seed_of l) x <> None -> inserted l x ->
  exists f f', run l = Some f /\ bf_query hashes f x = Some (f', true).
Proof using.
  intros V Hh Hi. destruct (life_inv l V) as (f & Hr & W & C & I). exists f. unfold bf_query.
  unfold seed_of in *. rewrite C in *. simpl in *. destruct (hashes (bf_seed f) x) as [[h0 h1]|] eqn:E; [|congruence].
  destruct (internal_query_spec f h0 h1 W) as (f' & b & -> & _ & _ & _ & _ & _ & HB). exists f'. split; auto.
  assert (b = true) by (apply HB; eauto). subst. auto.
Qed.

Theorem bloom_queryAndUpdate_sees_inserted l x : valid l -> hashes (seed_of l) x <> None -> inserted l x ->
  exists f f', run l = Some f /\ bf_query_and_update hashes f x = Some (f', true).
Proof using.
  intros V Hh Hi. destruct (life_inv l V) as (f & Hr & W & C & I). exists f. unfold bf_query_and_update.
  unfold seed_of in *. rewrite C in *. simpl in *. destruct (hashes (bf_seed f) x) as [[h0 h1]|] eqn:E; [|congruence].
  destruct (internal_qu_spec f h0 h1 W) as (f' & b & -> & _ & _ & _ & _ & _ & _ & HB). exists f'. split; auto.
  assert (b = true) by (apply HB; eauto). subst. auto.
Qed.

(** QueryAndUpdate answers what Query would have answered, and the item is reported from then on. *)
Theorem bloom_queryAndUpdate_is_query_then_update l x f : valid l -> run l = Some f ->
  exists g g1 g2 b, bf_query hashes f x = Some (g, b) /\ bf_query_and_update hashes f x = Some (g1, b) /\ bf_update hashes f x = Some g2 /\ bf_bits g1 = bf_bits g2.
Proof using.
  intros V Hr. destruct (life_inv l V) as (f0 & Hr0 & W & C & I). assert (f0 = f) by congruence. subst f0.
  unfold bf_query, bf_query_and_update, bf_update. destruct (hashes (bf_seed f) x) as [[h0 h1]|]; [|exists f, f, f, false; auto].
  destruct (internal_query_spec f h0 h1 W) as (g & b & -> & _ & _ & _ & _ & _ & HB).
  destruct (internal_qu_spec f h0 h1 W) as (g1 & b1 & -> & W1 & _ & _ & _ & L1 & B1 & HB1).
  destruct (internal_update_spec f h0 h1 W) as (g2 & -> & W2 & _ & _ & _ & L2 & B2).
  exists g, g1, g2, b. split; auto. split; [|split; auto].
  - assert (b1 = b); [|congruence]. destruct b, b1; auto; [apply HB1, HB|symmetry; apply HB, HB1]; auto.
  - apply bits_ext; try apply W1; try apply W2; [congruence|]. intros j. specialize (B1 j). specialize (B2 j).
    destruct (bit (bf_bits g1) j), (bit (bf_bits g2) j); auto; [symmetry; tauto|tauto].
Qed.

Theorem bloom_never_panics l : valid l -> exists f, run l = Some f.
Proof using. intros V. destruct (life_inv l V) as (f & Hr & _). eauto. Qed.

(** A filter that holds nothing (fresh or reset) answers false: the positive answers above are not vacuous. *)
Theorem bloom_fresh_negative n h s x : valid (New n h s) ->
  exists f f', run (New n h s) = Some f /\ bf_query hashes f x = Some (f', false).
Proof using.
  intros (V1 & V2 & V3). destruct (new_bloom_spec n h s) as (f & Hr & W & _ & _ & _ & HB); auto.
  exists f. unfold bf_query. simpl. rewrite Hr. destruct (hashes (bf_seed f) x) as [[h0 h1]|]; [|eauto].
  destruct (internal_query_spec f h0 h1 W) as (f' & b & -> & _ & _ & _ & _ & _ & HC). exists f'. split; auto.
  destruct b; auto. exfalso. assert (HH : covered f h0 h1) by (apply HC; auto).
  pose proof (wb_hashes f W). specialize (HH 1%N). rewrite HB in HH. assert (false = true) by (apply HH; lia). discriminate.
Qed.

(** The query reports exactly "every probed bit is one". *)
Theorem bloom_query_exact l x h0 h1 f : valid l -> run l = Some f -> hashes (seed_of l) x = Some (h0, h1) ->
  exists f' b, bf_query hashes f x = Some (f', b) /\ bf_bits f' = bf_bits f /\
  (b = true <-> forall i, (1 <= i <= snd (fst (config l)))%N ->
     bit (bf_bits f) (((h0 + i * h1) mod 2 ^ 64) / 2 mod fst (fst (config l)))%N = true).
Proof using.
  intros V Hr Hh. destruct (life_inv l V) as (f0 & Hr0 & W & C & I). assert (f0 = f) by congruence. subst f0.
  unfold seed_of in *. rewrite C in *. simpl in *. unfold bf_query. rewrite Hh.
  destruct (internal_query_spec f h0 h1 W) as (f' & b & -> & _ & E & _ & _ & _ & HB). exists f', b. auto.
Qed.

(** *** C14: union, intersection and inversion act bitwise; incompatible filters are left alone. *)
Theorem bloom_union_bits l o f g : valid l -> valid o -> run l = Some f -> run o = Some g ->
  exists f', (config l = config o -> bf_union f g = Some (f', true) /\ length (bf_bits f') = length (bf_bits f) /\
                forall j, bit (bf_bits f') j = bit (bf_bits f) j || bit (bf_bits g) j) /\
             (config l <> config o -> bf_union f g = Some (f, false)).
Proof using.
  intros V1 V2 H1 H2. destruct (life_inv l V1) as (f0 & Hf & W & C & _). destruct (life_inv o V2) as (g0 & Hg & Wg & Cg & _).
  assert (f0 = f) by congruence. assert (g0 = g) by congruence. subst. unfold bf_union.
  destruct (compatible f g) eqn:EC.
  - apply compatible_spec in EC. destruct EC as (Ec1 & Ec2 & Ec3).
    destruct (union_with_spec (bf_bits f) (bf_bits g)) as (r & -> & L & Wr & B).
    { pose proof (wb_cap f W). pose proof (wb_cap g Wg). lia. } { apply W. } { apply Wg. }
    eexists. split; [intros _; split; [reflexivity|auto]|intros; congruence].
  - exists f. split; [|auto]. intros HC. rewrite C, Cg in HC. inversion HC.
    assert (compatible f g = true) by (apply compatible_spec; auto). congruence.
Qed.

Theorem bloom_intersect_bits l o f g : valid l -> valid o -> run l = Some f -> run o = Some g ->
  exists f', (config l = config o -> bf_intersect f g = Some (f', true) /\ length (bf_bits f') = length (bf_bits f) /\
                forall j, bit (bf_bits f') j = bit (bf_bits f) j && bit (bf_bits g) j) /\
             (config l <> config o -> bf_intersect f g = Some (f, false)).
Proof using.
  intros V1 V2 H1 H2. destruct (life_inv l V1) as (f0 & Hf & W & C & _). destruct (life_inv o V2) as (g0 & Hg & Wg & Cg & _).
  assert (f0 = f) by congruence. assert (g0 = g) by congruence. subst. unfold bf_intersect.
  destruct (compatible f g) eqn:EC.
  - apply compatible_spec in EC. destruct EC as (Ec1 & Ec2 & Ec3).
    destruct (intersect_with_spec (bf_bits f) (bf_bits g)) as (r & -> & L & Wr & B).
    { pose proof (wb_cap f W). pose proof (wb_cap g Wg). lia. } { apply W. } { apply Wg. }
    eexists. split; [intros _; split; [reflexivity|auto]|intros; congruence].
  - exists f. split; [|auto]. intros HC. rewrite C, Cg in HC. inversion HC.
    assert (compatible f g = true) by (apply compatible_spec; auto). congruence.
Qed.

Theorem bloom_invert_bits l f : valid l -> run l = Some f ->
  length (bf_bits (bf_invert f)) = length (bf_bits f) /\
  forall j, (j < fst (fst (config l)))%N -> bit (bf_bits (bf_invert f)) j = negb (bit (bf_bits f) j).
Proof using.
  intros V H. destruct (life_inv l V) as (f0 & Hf & W & C & _). assert (f0 = f) by congruence. subst.
  destruct (invert_spec (bf_bits f)) as (L & Wr & B); [apply W|]. split; auto. intros j Hj. apply B.
  rewrite C in Hj. simpl in Hj. rewrite (wb_cap f W) in Hj. auto.
Qed.

(** *** C15: BitsUsed is the number of one bits among all the filter's bits, and IsEmpty says whether it is zero. *)
Theorem bloom_bits_used_exact l f : valid l -> run l = Some f ->
  snd (bits_used f) = N.of_nat (length (filter (fun j => bit (bf_bits f) (N.of_nat j)) (seq 0 (N.to_nat (fst (fst (config l))))))) /\
  bf_bits (fst (bits_used f)) = bf_bits f /\
  (snd (is_empty f) = true <-> forall j, bit (bf_bits f) j = false).
Proof using.
  intros V H. destruct (life_inv l V) as (f0 & Hf & W & C & _). assert (f0 = f) by congruence. subst.
  destruct (bits_used_spec f W) as (W' & Hc & E1 & _). rewrite C. simpl. rewrite (wb_cap f W).
  replace (N.to_nat (64 * N.of_nat (length (bf_bits f)))) with (64 * length (bf_bits f)) by lia.
  split; [exact Hc|]. split; [auto|].
  unfold is_empty. destruct (bits_used f) as [f' c]. simpl in *. rewrite N.eqb_eq. split.
  - intros Hz j. destruct (bit (bf_bits f) j) eqn:E; auto. apply ones_zero in E. lia.
  - intros Hall. rewrite Hc. unfold ones. rewrite (filter_ext_in _ (fun _ => false)) by auto.
    clear. induction (seq _ _); auto.
Qed.

(** *** C16: serialization round trip. *)
Theorem bloom_serde_roundtrip l f : valid l -> run l = Some f ->
  exists b f', to_slice f = Some b /\ from_slice b = Some f' /\
    bf_seed f' = bf_seed f /\ bf_hashes f' = bf_hashes f /\ bf_cap f' = bf_cap f /\ bf_bits f' = bf_bits f /\
    snd (bits_used f') = snd (bits_used f) /\
    forall x, exists g g' b, bf_query hashes f x = Some (g, b) /\ bf_query hashes f' x = Some (g', b).
Proof using.
  intros V H. destruct (life_inv l V) as (f0 & Hf & W & C & _). assert (f0 = f) by congruence. subst.
  destruct (serde_spec f W) as (b & f' & H1 & H2 & W' & E1 & E2 & E3 & E4).
  exists b, f'. do 6 (split; [auto|]). split.
  - destruct (bits_used_spec f W) as (_ & Hc & _). destruct (bits_used_spec f' W') as (_ & Hc' & _). congruence.
  - intros x. unfold bf_query. rewrite E1. destruct (hashes (bf_seed f) x) as [[h0 h1]|]; [|eauto].
    destruct (internal_query_spec f h0 h1 W) as (g & c & -> & _ & _ & _ & _ & _ & HB).
    destruct (internal_query_spec f' h0 h1 W') as (g' & c' & -> & _ & _ & _ & _ & _ & HB').
    exists g, g', c. split; auto. assert (c = c' ); [|congruence].
    assert (covered f h0 h1 <-> covered f' h0 h1) by (unfold covered, index_of; rewrite E2, E3, E4; tauto).
    destruct c, c'; auto; [symmetry; apply HB'|apply HB]; tauto.
Qed.

End Bloom.

(** *** Findings *)

(** NewBloomFilterBySize accepts numHashes = 65535, but then no Update terminates: the uint16 loop counter wraps to
    0 before it can exceed 65535. *)
Lemma update_loop_65535 fuel f h0 h1 i a n : bf_hashes f = 65535%N -> (i <= 65535)%N -> update_loop fuel f h0 h1 i a n = None.
Proof.
  intros Hh. revert i a n. induction fuel as [|fu IH]; intros i a n Hi; simpl; auto. rewrite Hh.
  destruct (N.leb_spec i 65535); [|lia].
  assert (u16_next i <= 65535)%N by (unfold u16_next; pose proof (N.mod_lt (i + 1) 65536); lia).
  destruct (hash_index f h0 h1 i); auto. destruct (get_bit a n0); auto. destruct b; auto. destruct (set_bit a n0); auto.
Qed.
Theorem bloom_65535_hashes_refuted :
  exists f, new_bloom 64 65535 7 = Some f /\ forall fuel h0 h1, update_loop fuel f h0 h1 1 (bf_bits f) (bf_nset f) = None.
Proof. eexists. split; [reflexivity|]. intros. apply update_loop_65535; auto. lia. Qed.

(** NewBloomFilterFromSlice trusts the number of set bits in the image: with all bits zero and a
    positive count it says IsEmpty() = false, and with bits set and count 0 a query misses a present item. *)
Definition image (nset word : N) : list N :=
  [4;1;21;0; 1;0;0;0]%N ++ le 8 9 ++ le 4 1 ++ le 4 0 ++ le 8 nset ++ le 8 word.
Theorem bloom_decoder_trusts_count_refuted :
  exists f, from_slice (image 0 (2 ^ 64 - 1)) = Some f /\
    snd (bits_used f) <> count_bits_set (bf_bits f) /\
    (forall j, (j < 64)%N -> bit (bf_bits f) j = true) /\
    forall h0 h1, exists f', internal_query f h0 h1 = Some (f', false).
Proof.
  eexists. split; [vm_compute; reflexivity|]. split; [vm_compute; discriminate|]. split.
  - intros j Hj. unfold bit. cbn [bf_bits]. rewrite N.div_small, N.mod_small by auto. simpl nth_error. cbv iota.
    change 18446744073709551615%N with (N.ones 64). apply N.ones_spec_low. auto.
  - intros. eexists. reflexivity.
Qed.

(** An image with zero words but the "empty" flag clear is accepted, and Update on the result divides by zero. *)
Theorem bloom_zero_length_image_refuted :
  exists f, from_slice ([4;1;21;0; 1;0;0;0]%N ++ le 8 9 ++ le 4 0 ++ le 4 0 ++ le 8 0) = Some f /\
    forall h0 h1, internal_update f h0 h1 = None.
Proof. eexists. split; [vm_compute; reflexivity|]. intros. reflexivity. Qed.

(** *** Non-vacuity: a concrete life with nested union, intersection and serialization round trip. *)
Definition demo_hashes (seed : N) (x : N) : option (N * N) :=
  if (x =? 0)%N then None else Some ((x * 2654435761 + seed) mod 2 ^ 64, (x * 40503) mod 2 ^ 64)%N.
Definition demo : life :=
  Serde (Union (Update (BitsUsed (QueryAndUpdate (New 100 3 9) 5)) 6) (Intersect (Update (New 128 3 9) 7) (Update (Update (New 65 3 9) 8) 7)))%N.
Example demo_valid : @valid N demo. Proof. vm_compute. intuition discriminate. Qed.
Example demo_inserted : inserted demo 5%N /\ inserted demo 6%N /\ inserted demo 7%N /\ ~ inserted demo 8%N /\ demo_hashes (seed_of demo) 7 <> None.
Proof. vm_compute. intuition discriminate. Qed.
Example demo_run : (do f <- run demo_hashes demo; do (_, b) <- bf_query demo_hashes f 7%N; do (_, c) <- bf_query demo_hashes f 8%N; Some (b, c, snd (bits_used f)))
  = Some (true, false, 9%N). Proof. vm_compute. reflexivity. Qed.

Print Assumptions bloom_no_false_negatives.
Print Assumptions bloom_queryAndUpdate_sees_inserted.
Print Assumptions bloom_queryAndUpdate_is_query_then_update.
Print Assumptions bloom_never_panics.
Print Assumptions bloom_fresh_negative.
Print Assumptions bloom_query_exact.
Print Assumptions bloom_union_bits.
Print Assumptions bloom_intersect_bits.
Print Assumptions bloom_invert_bits.
Print Assumptions bloom_bits_used_exact.
Print Assumptions bloom_serde_roundtrip.
Print Assumptions bloom_65535_hashes_refuted.
Print Assumptions bloom_decoder_trusts_count_refuted.
Print Assumptions bloom_zero_length_image_refuted.
