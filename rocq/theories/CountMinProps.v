(** * CountMin sketch: the properties C17 - C19.

    All theorems hold for every hash function, every seed generator and every seed-hash function. *)
From Verif Require Import Base ListX Bytes GoInt CountMinModel.
Local Open Scope Z_scope.

Section CM.
Variable hash : Z -> list N -> Z.
Variable rng : Z -> nat -> Z.
Variable seedHash : Z -> option N.

(** A sketch's life; the operand of a merge has a life of its own. *)
Inductive life : Type :=
| New (numHashes numBuckets seed : Z)
| Update (l : life) (item : list N) (w : Z)
| Merge (l other : life)
| Serde (l : life).

Fixpoint config (l : life) : Z * Z * Z :=
  match l with New h b s => (h, b, s) | Update l _ _ | Merge l _ | Serde l => config l end.

Definition config_eqb (a b : Z * Z * Z) : bool :=
  match a, b with (h, n, s), (h', n', s') => (h =? h') && (n =? n') && (s =? s') end.

Fixpoint run (l : life) : option cms :=
  match l with
  | New h b s => cm_new rng h b s
  | Update l x w => do c <- run l; cm_update hash c x w
  | Merge l o => do c <- run l; do d <- run o; do (c', _) <- cm_merge c d; Some c'
  | Serde l => do c <- run l; do b <- cm_serialize seedHash c; cm_deserialize rng b (cm_seed c)
  end.

(** Specification: the (item, weight) updates the sketch has absorbed. Empty items are ignored, and so are the
    updates of an operand with other parameters, whose merge is rejected. *)
Fixpoint stream (l : life) : list (list N * Z) :=
  match l with
  | New _ _ _ => []
  | Update l x w => stream l ++ (match x with [] => [] | _ => [(x, w)] end)
  | Merge l o => stream l ++ (if config_eqb (config l) (config o) then stream o else [])
  | Serde l => stream l
  end.

Definition list_N_eqb (a b : list N) : bool := if list_eq_dec N.eq_dec a b then true else false.
Definition weight_if (P : list N -> bool) (s : list (list N * Z)) : Z :=
  fold_right (fun xw acc => (if P (fst xw) then snd xw else 0) + acc) 0 s.
(** The true frequency of an item, and the total of the absolute weights. *)
Definition frequency (s : list (list N * Z)) (x : list N) : Z := weight_if (list_N_eqb x) s.
Definition gross (s : list (list N * Z)) : Z := fold_right (fun xw acc => Z.abs (snd xw) + acc) 0 s.

Fixpoint valid (l : life) : Prop :=
  match l with
  | New h b s => 1 <= h < 128 /\ 3 <= b /\ b * h < 2 ^ 30 /\ int64 s
  | Update l x w => valid l /\ int64 w
  | Merge l o => valid l /\ valid o
  | Serde l => valid l /\ gross (stream l) < 2 ^ 63 /\ (exists sh, seedHash (snd (config l)) = Some sh)
  end.

(** The seed of row [i], and the weight absorbed by bucket [j] of row [i]. *)
Definition row_seed (seed : Z) (i : nat) : Z := wrap64 (rng seed i + seed).
Definition bucket_weight (b seed : Z) (s : list (list N * Z)) (i : nat) (j : Z) : Z :=
  weight_if (fun x => hash (row_seed seed i) x mod b =? j) s.

(** The sketch determined by parameters and stream. *)
Definition image (cfg : Z * Z * Z) (s : list (list N * Z)) : cms :=
  match cfg with (h, b, seed) =>
    mkCms b h (map (fun p => wrap64 (bucket_weight b seed s (p / Z.to_nat b)%nat (Z.of_nat (p mod Z.to_nat b)%nat)))
                   (seq 0 (Z.to_nat (b * h)))) seed (wrap64 (gross s))
          (map (row_seed seed) (seq 0 (Z.to_nat h)))
  end.

Lemma weight_if_app P s t : weight_if P (s ++ t) = weight_if P s + weight_if P t.
Proof. unfold weight_if. induction s; simpl; [lia|]. rewrite IHs. lia. Qed.
Lemma gross_app s t : gross (s ++ t) = gross s + gross t.
Proof. unfold gross. induction s; simpl; [lia|]. rewrite IHs. lia. Qed.

(** *** Locations *)
Lemma locations_nth b item : forall seeds i k h,
  nth_error (locations hash i b seeds item) k = Some h <-> exists s, nth_error seeds k = Some s /\ h = (i + Z.of_nat k) * b + hash s item mod b.
Proof.
  induction seeds as [|s r IH]; intros i k h; simpl.
  - destruct k; simpl; split; [discriminate|intros (s & ? & _); discriminate| discriminate|intros (s & ? & _); discriminate].
  - destruct k as [|k]; simpl.
    + split. { intros [= <-]. exists s. split; auto. f_equal. lia. } { intros (s' & [= ->] & ->). f_equal. f_equal. lia. }
    + rewrite IH. split; intros (s' & ? & ->); exists s'; (split; [auto|f_equal; lia]).
Qed.

Lemma locations_length b item seeds i : length (locations hash i b seeds item) = length seeds.
Proof. revert i; induction seeds; intros; simpl; auto. Qed.

Lemma add_at_spec w : forall locs a, NoDup locs -> (forall h, In h locs -> 0 <= h < Z.of_nat (length a)) ->
  exists a', add_at locs w a = Some a' /\ length a' = length a /\
    forall p v, nth_error a p = Some v ->
      (In (Z.of_nat p) locs -> nth_error a' p = Some (wrap64 (v + w))) /\
      (~ In (Z.of_nat p) locs -> nth_error a' p = Some v).
Proof.
  induction locs as [|h r IH]; intros a ND HR; simpl.
  - exists a. split; auto. split; auto. intros p v Hp. split; [tauto|auto].
  - inversion ND; subst. assert (Hh := HR h (or_introl eq_refl)).
    destruct (Z.ltb_spec h 0); [lia|].
    destruct (nth_error a (Z.to_nat h)) as [v0|] eqn:E; [|apply nth_error_None in E; lia]. cbn [bindo].
    destruct (IH (upd (Z.to_nat h) (wrap64 (v0 + w)) a)) as (a' & -> & L & HP); auto.
    { intros h' Hh'. rewrite upd_length. apply HR. right; auto. }
    rewrite upd_length in L. exists a'. split; auto. split; auto. intros p v Hp.
    destruct (Nat.eq_dec p (Z.to_nat h)) as [->|Hne].
    + rewrite Hp in E. inversion E; subst. rewrite Z2Nat.id by lia. split; [|tauto]. intros _.
      destruct (HP (Z.to_nat h) (wrap64 (v0 + w))) as [_ K].
      { apply nth_error_upd_eq. lia. } apply K. rewrite Z2Nat.id by lia. auto.
    + destruct (HP p v) as [K1 K2]. { rewrite nth_error_upd_neq by auto. auto. }
      split; intros HI.
      * apply K1. destruct HI as [->|]; auto. lia.
      * apply K2. intros C. apply HI. auto.
Qed.

Lemma row_of b k x : 0 < b -> 0 <= x < b ->
  (Z.to_nat (Z.of_nat k * b + x) / Z.to_nat b = k)%nat /\ (Z.to_nat (Z.of_nat k * b + x) mod Z.to_nat b = Z.to_nat x)%nat.
Proof.
  intros Hb Hx. assert (E : (Z.to_nat (Z.of_nat k * b + x) = k * Z.to_nat b + Z.to_nat x)%nat).
  { rewrite Z2Nat.inj_add by nia. rewrite Z2Nat.inj_mul by lia. rewrite Nat2Z.id. auto. }
  rewrite E. split.
  - rewrite Nat.div_add_l by lia. rewrite Nat.div_small by lia. lia.
  - rewrite Nat.add_comm, Nat.mod_add by lia. apply Nat.mod_small. lia.
Qed.

Lemma update_image h b seed s x w : 1 <= h -> 3 <= b -> x <> [] ->
  cm_update hash (image (h, b, seed) s) x w = Some (image (h, b, seed) (s ++ [(x, w)])).
Proof.
  intros Hh Hb Hx. unfold cm_update. destruct x as [|x0 xr]; [tauto|]. set (x := x0 :: xr) in *.
  unfold image at 3 4 5 6 7 8. unfold get_hashes. cbn [image cm_seeds cm_buckets cm_slice cm_hashes cm_seed cm_total].
  set (locs := locations hash 0 b (map (row_seed seed) (seq 0 (Z.to_nat h))) x).
  assert (HL : forall k loc, nth_error locs k = Some loc <-> (k < Z.to_nat h)%nat /\ loc = Z.of_nat k * b + hash (row_seed seed k) x mod b).
  { intros k loc. unfold locs. rewrite locations_nth. split.
    - intros (s0 & Hs & ->). assert (k < Z.to_nat h)%nat by (apply nth_error_Some_lt in Hs; rewrite map_length, seq_length in Hs; auto).
      rewrite map_seq_nth in Hs by auto. inversion Hs. split; auto.
    - intros [Hk ->]. exists (row_seed seed k). split; auto. apply map_seq_nth; auto. }
  destruct (add_at_spec w locs (map (fun p => wrap64 (bucket_weight b seed s (p / Z.to_nat b)%nat (Z.of_nat (p mod Z.to_nat b)%nat))) (seq 0 (Z.to_nat (b * h)))))
    as (a' & -> & La & Ha).
  - apply NoDup_nth. intros i j y Hi Hj. apply HL in Hi, Hj. destruct Hi as [_ ->]. destruct Hj as [_ Hj].
    pose proof (Z.mod_pos_bound (hash (row_seed seed i) x) b). pose proof (Z.mod_pos_bound (hash (row_seed seed j) x) b). nia.
  - intros loc Hloc. apply In_nth_error in Hloc. destruct Hloc as [k Hk]. apply HL in Hk. destruct Hk as [Hk ->].
    rewrite map_length, seq_length. pose proof (Z.mod_pos_bound (hash (row_seed seed k) x) b). nia.
  - cbn [bindo]. f_equal. rewrite map_length, seq_length in La. unfold image. f_equal.
    + apply nth_error_ext. intros p. destruct (Nat.ltb_spec p (Z.to_nat (b * h))) as [Hp|Hp].
      2:{ rewrite !(proj2 (nth_error_None _ _)); auto; rewrite ?map_length, ?seq_length; lia. }
      rewrite map_seq_nth by auto.
      destruct (Ha p _ (map_seq_nth _ _ p Hp)) as [H1 H2].
      assert (Hrow : (p / Z.to_nat b < Z.to_nat h)%nat).
      { apply Nat.div_lt_upper_bound; [lia|]. rewrite <- Z2Nat.inj_mul by lia. auto. }
      assert (Hin : In (Z.of_nat p) locs <-> hash (row_seed seed (p / Z.to_nat b)%nat) x mod b = Z.of_nat (p mod Z.to_nat b)%nat).
      { split.
        - intros Hi. apply In_nth_error in Hi. destruct Hi as [k Hk]. apply HL in Hk. destruct Hk as [Hk Ek].
          pose proof (Z.mod_pos_bound (hash (row_seed seed k) x) b) as Hm.
          destruct (row_of b k (hash (row_seed seed k) x mod b)) as [R1 R2]; [lia|lia|].
          assert (Ep : p = Z.to_nat (Z.of_nat k * b + hash (row_seed seed k) x mod b)) by lia.
          rewrite <- Ep in R1, R2. rewrite R1, R2. lia.
        - intros E. eapply nth_error_In with (n := (p / Z.to_nat b)%nat). apply HL. split; auto. rewrite E.
          rewrite (Nat.div_mod p (Z.to_nat b)) at 1 by lia. rewrite Nat2Z.inj_add, Nat2Z.inj_mul, Z2Nat.id by lia. ring. }
      unfold bucket_weight in *. rewrite weight_if_app. unfold weight_if at 2. cbn [fold_right fst snd].
      destruct (Z.eqb_spec (hash (row_seed seed (p / Z.to_nat b)%nat) x mod b) (Z.of_nat (p mod Z.to_nat b)%nat)) as [E|E].
      * rewrite H1 by tauto. rewrite wrap64_add_l. do 2 f_equal. lia.
      * rewrite H2 by tauto. do 2 f_equal. lia.
    + rewrite gross_app. assert (EG : gross [(x, w)] = Z.abs w) by (unfold gross; simpl; lia). rewrite EG.
      destruct (Z.ltb_spec w 0).
      * rewrite wrap64_add_l, wrap64_add_r. f_equal. lia.
      * rewrite wrap64_add_l. f_equal. lia.
Qed.

Lemma add_slices_map (f g h : nat -> Z) : (forall p, wrap64 (f p + g p) = h p) -> forall l,
  add_slices (map f l) (map g l) = Some (map h l).
Proof. intros H. induction l; simpl; auto. rewrite IHl. cbn [bindo]. rewrite H. auto. Qed.

Lemma merge_image cfg s t : cm_merge (image cfg s) (image cfg t) = Some (image cfg (s ++ t), true).
Proof.
  destruct cfg as [[h b] seed]. unfold cm_merge. cbn [image cm_hashes cm_buckets cm_seed cm_slice cm_total cm_seeds].
  rewrite !Z.eqb_refl. cbn [andb].
  erewrite add_slices_map. 2:{ intros p. reflexivity. } cbn [bindo]. unfold image. do 3 f_equal.
  - apply map_ext. intros p. rewrite wrap64_add_l, wrap64_add_r. f_equal. unfold bucket_weight. rewrite weight_if_app. auto.
  - rewrite wrap64_add_l, wrap64_add_r, gross_app. auto.
Qed.

Lemma config_eqb_spec a b : config_eqb a b = true <-> a = b.
Proof.
  destruct a as [[? ?] ?], b as [[? ?] ?]. unfold config_eqb. rewrite !andb_true_iff, !Z.eqb_eq. split.
  - intros [[-> ->] ->]. auto.
  - intros [= -> -> ->]. auto.
Qed.

Lemma new_image h b s : 1 <= h < 128 -> 3 <= b -> b * h < 2 ^ 30 -> cm_new rng h b s = Some (image (h, b, s) []).
Proof.
  intros Hh Hb Hs. unfold cm_new. rewrite wrap32_id by (unfold int32; nia).
  destruct (Z.ltb_spec b 3); [lia|]. destruct (Z.leb_spec (2 ^ 30) (b * h)); [lia|].
  destruct (Z.ltb_spec h 0); [lia|]. destruct (Z.ltb_spec (b * h) 0); [nia|]. unfold image. do 2 f_equal.
  change (map _ (seq 0 (Z.to_nat (b * h)))) with (map (fun _ : nat => 0) (seq 0 (Z.to_nat (b * h)))).
  clear. generalize 0%nat as st. induction (Z.to_nat (b * h)); intros; simpl; auto. rewrite (IHn (S st)). auto.
Qed.

(** Reader lemmas. *)
Lemma rd_le k v r : rd k (le k v ++ r) = Some ((v mod 256 ^ N.of_nat k)%N, r).
Proof.
  unfold rd. rewrite app_length, le_length. destruct (Nat.ltb_spec (k + length r) k); [lia|].
  rewrite firstn_app, le_length, Nat.sub_diag, firstn_O, app_nil_r, firstn_all2 by (rewrite le_length; auto).
  rewrite unle_le. do 2 f_equal. rewrite skipn_app, le_length, Nat.sub_diag, skipn_O.
  rewrite skipn_all2 by (rewrite le_length; auto). auto.
Qed.

Lemma rd_counters_spec : forall l fuel i a, (length l + i = length a)%nat -> (8 * length l <= fuel)%nat -> Forall int64 l ->
  rd_counters fuel (concat (map (fun h => le 8 (to_u64 h)) l)) i a = Some (firstn i a ++ l).
Proof.
  induction l as [|x l IH]; intros fuel i a HL HF HI.
  - simpl. simpl in HL. subst i. rewrite firstn_all, app_nil_r. destruct fuel; auto.
  - cbn [map concat]. inversion HI; subst. cbn [length] in HL, HF.
    set (rest := concat (map (fun h => le 8 (to_u64 h)) l)) in *.
    destruct fuel as [|fu]; [lia|].
    assert (E : exists b r', le 8 (to_u64 x) ++ rest = b :: r') by (simpl; eauto). destruct E as (b & r' & E).
    unfold rd_counters; fold rd_counters. rewrite E. rewrite <- E. rewrite rd_le. cbn [bindo].
    destruct (Nat.ltb_spec i (length a)); [|lia].
    unfold rest. rewrite IH; auto; rewrite ?upd_length; try lia.
    rewrite N.mod_small by (pose proof (to_u64_lt x); simpl; lia). rewrite wrap64_u64, wrap64_id by auto.
    f_equal. replace (x :: l) with ([x] ++ l) by auto. rewrite app_assoc. f_equal.
    apply nth_error_ext. intros n. rewrite nth_error_firstn'. destruct (Nat.ltb_spec n (S i)).
    + destruct (Nat.eq_dec n i) as [->|].
      * rewrite nth_error_upd_eq by auto. rewrite nth_error_app2 by (rewrite firstn_length; lia).
        rewrite firstn_length, Nat.min_l, Nat.sub_diag by lia. auto.
      * rewrite nth_error_upd_neq by auto. rewrite nth_error_app1 by (rewrite firstn_length; lia). rewrite nth_error_firstn'.
        destruct (Nat.ltb_spec n i); auto. lia.
    + symmetry. apply nth_error_None. rewrite app_length, firstn_length. simpl. lia.
Qed.

Lemma gross_nonneg s : 0 <= gross s.
Proof. unfold gross. induction s; simpl; lia. Qed.
Lemma gross_zero P s : gross s = 0 -> weight_if P s = 0.
Proof.
  unfold gross, weight_if. induction s as [|[x w] s IH]; simpl; auto. intros H.
  pose proof (gross_nonneg s) as G. unfold gross in G. rewrite IH by lia. destruct (P x); lia.
Qed.

Lemma serde_image h b seed s sh : 1 <= h < 128 -> 3 <= b -> b * h < 2 ^ 30 -> gross s < 2 ^ 63 -> seedHash seed = Some sh ->
  exists bs, cm_serialize seedHash (image (h, b, seed) s) = Some bs /\ cm_deserialize rng bs seed = Some (image (h, b, seed) s).
Proof.
  intros Hh Hb Hs Hg Hsh. unfold cm_serialize.
  assert (Hbb : int32 b) by (unfold int32; nia). assert (Hhh : int8 h) by (unfold int8; lia).
  assert (Egr : wrap64 (gross s) = gross s) by (apply wrap64_id; unfold int64; pose proof (gross_nonneg s); lia).
  cbn [image cm_hashes cm_buckets cm_seed cm_slice cm_total cm_seeds]. rewrite Hsh. cbn [bindo]. rewrite Egr.
  assert (U1 : wrap8 (Z.of_N (to_u8 h mod 256 ^ N.of_nat 1)) = h).
  { rewrite N.mod_small by (pose proof (to_u8_lt h); simpl; lia). rewrite wrap8_u8. apply wrap8_id; auto. }
  assert (U2 : wrap32 (Z.of_N (to_u32 b mod 256 ^ N.of_nat 4)) = b).
  { rewrite N.mod_small by (pose proof (to_u32_lt b); simpl; lia). rewrite wrap32_u32. apply wrap32_id; auto. }
  destruct (Z.eqb_spec (gross s) 0) as [Hz|Hz].
  - eexists. split; [reflexivity|]. unfold cm_deserialize. rewrite <- ?app_assoc.
    rewrite !rd_le; cbn [bindo]. rewrite !rd_le; cbn [bindo]. rewrite !rd_le; cbn [bindo]. rewrite !rd_le; cbn [bindo].
    destruct (Nat.eqb_spec (length (le 4 0 ++ le 4 (to_u32 b) ++ le 1 (to_u8 h) ++ le 2 sh ++ le 1 0)) 0) as [C|_].
    { rewrite !app_length, !le_length in C. lia. }
    cbv zeta. replace (skipn 4 (le 4 0 ++ le 4 (to_u32 b) ++ le 1 (to_u8 h) ++ le 2 sh ++ le 1 0)) with (le 4 (to_u32 b) ++ le 1 (to_u8 h) ++ le 2 sh ++ le 1 0) by reflexivity.
    rewrite rd_le; cbn [bindo]. rewrite rd_le; cbn [bindo]. rewrite rd_le; cbn [bindo].
    replace (le 1 0) with (le 1 0 ++ []) by reflexivity. rewrite rd_le; cbn [bindo].
    rewrite U1, U2, new_image by auto. cbn [bindo]. change (1 mod 256 ^ N.of_nat 1)%N with 1%N. cbn [N.land Pos.land N.eqb negb].
    f_equal. unfold image. f_equal.
    + apply map_ext. intros p. unfold bucket_weight. rewrite (gross_zero _ s) by auto. auto.
    + simpl. rewrite Hz. auto.
  - eexists. split; [reflexivity|]. unfold cm_deserialize. rewrite <- ?app_assoc.
    set (tail := le 8 _ ++ _).
    rewrite !rd_le; cbn [bindo]. rewrite !rd_le; cbn [bindo]. rewrite !rd_le; cbn [bindo]. rewrite !rd_le; cbn [bindo].
    destruct (Nat.eqb_spec (length (le 4 0 ++ le 4 (to_u32 b) ++ le 1 (to_u8 h) ++ le 2 sh ++ le 1 0 ++ tail)) 0) as [C|_].
    { rewrite !app_length, !le_length in C. lia. }
    cbv zeta. replace (skipn 4 (le 4 0 ++ le 4 (to_u32 b) ++ le 1 (to_u8 h) ++ le 2 sh ++ le 1 0 ++ tail)) with (le 4 (to_u32 b) ++ le 1 (to_u8 h) ++ le 2 sh ++ le 1 0 ++ tail) by reflexivity.
    rewrite rd_le; cbn [bindo]. rewrite rd_le; cbn [bindo]. rewrite rd_le; cbn [bindo]. rewrite rd_le; cbn [bindo].
    rewrite U1, U2, new_image by auto. cbn [bindo]. change (0 mod 256 ^ N.of_nat 1)%N with 0%N. cbn [N.land Pos.land N.eqb negb].
    unfold tail. rewrite rd_le; cbn [bindo].
    rewrite rd_counters_spec.
    + cbn [bindo firstn app]. rewrite N.mod_small by (pose proof (to_u64_lt (gross s)); simpl; lia).
      rewrite wrap64_u64. cbn [image cm_hashes cm_buckets cm_seed cm_slice cm_total cm_seeds]. rewrite ?Egr. reflexivity.
    + cbn [image cm_slice]. rewrite !map_length. lia.
    + clear. generalize (map (fun p => wrap64 (bucket_weight b seed s (p / Z.to_nat b)%nat (Z.of_nat (p mod Z.to_nat b)%nat))) (seq 0 (Z.to_nat (b * h)))).
      induction l; [simpl; lia|]. cbn [map concat]. rewrite app_length, le_length. cbn [length]. lia.
    + apply Forall_forall. intros y Hy. apply in_map_iff in Hy. destruct Hy as (p & <- & _). apply wrap64_int.
Qed.

(** *** C18 (and the base of the others): whatever the history of updates, merges and round trips, the sketch - counters,
    total weight and parameters - is a function of its parameters and of the concatenated stream. *)
Lemma config_ok l : valid l -> exists h b s, config l = (h, b, s) /\ 1 <= h < 128 /\ 3 <= b /\ b * h < 2 ^ 30.
Proof.
  induction l; simpl; try (intros [V _]; auto; fail).
  intros (? & ? & ? & ?). eauto 10.
Qed.

Theorem countmin_state_is_function_of_stream l : valid l -> run l = Some (image (config l) (stream l)).
Proof.
  induction l; intros V; cbn [run valid config stream] in *.
  - destruct V as (? & ? & ? & ?). apply new_image; auto.
  - destruct V as [V Hw]. rewrite IHl by auto. cbn [bindo]. destruct (config_ok l V) as (h & b & s & -> & ? & ? & ?).
    destruct item as [|i0 ir]; [rewrite app_nil_r; auto|]. apply update_image; auto; [lia|discriminate].
  - destruct V as [V1 V2]. rewrite IHl1, IHl2 by auto. cbn [bindo].
    destruct (config_eqb (config l1) (config l2)) eqn:E.
    + apply config_eqb_spec in E. rewrite <- E, merge_image. auto.
    + unfold cm_merge. destruct (config l1) as [[h b] s], (config l2) as [[h' b'] s']. cbn [image cm_hashes cm_buckets cm_seed].
      unfold config_eqb in E. rewrite E. cbn [bindo]. rewrite app_nil_r. auto.
  - destruct V as (V & Hg & sh & Hsh). rewrite IHl by auto. cbn [bindo].
    destruct (config_ok l V) as (h & b & s & E & ? & ? & ?). rewrite E in *. cbn [snd] in Hsh.
    destruct (serde_image h b s (stream l) sh) as (bs & -> & Hd); auto.
Qed.

(** Merge is exactly "one sketch that saw both streams". *)
Fixpoint feed (l : life) (s : list (list N * Z)) : life :=
  match s with [] => l | (x, w) :: r => feed (Update l x w) r end.
Lemma feed_config l s : config (feed l s) = config l.
Proof. revert l; induction s as [|[x w] s IH]; intros; simpl; auto. rewrite IH. auto. Qed.
Lemma feed_stream l s : (forall xw, In xw s -> fst xw <> []) -> stream (feed l s) = stream l ++ s.
Proof.
  revert l; induction s as [|[x w] s IH]; intros l H; simpl; [rewrite app_nil_r; auto|].
  rewrite IH by (intros; apply H; right; auto). simpl. rewrite <- app_assoc. f_equal.
  specialize (H (x, w) (or_introl eq_refl)). simpl in H. destruct x; [tauto|auto].
Qed.
Lemma feed_valid l s : valid l -> (forall xw, In xw s -> int64 (snd xw)) -> valid (feed l s).
Proof.
  revert l; induction s as [|[x w] s IH]; intros l V H; simpl; auto. apply IH; [|intros; apply H; right; auto].
  simpl. split; auto. apply (H (x, w)). left; auto.
Qed.
Lemma stream_ok l : valid l -> forall xw, In xw (stream l) -> fst xw <> [] /\ int64 (snd xw).
Proof.
  induction l; simpl; intros V xw Hin.
  - destruct Hin.
  - apply in_app_or in Hin. destruct Hin as [Hin|Hin]; [apply IHl; tauto|]. destruct item; [destruct Hin|].
    destruct Hin as [<-|[]]. simpl. split; [discriminate|tauto].
  - apply in_app_or in Hin. destruct Hin as [Hin|Hin]; [apply IHl1; tauto|].
    destruct (config_eqb _ _); [apply IHl2; tauto|destruct Hin].
  - apply IHl; tauto.
Qed.

Theorem countmin_merge_is_concatenation l o : valid l -> valid o -> config l = config o ->
  run (Merge l o) = run (feed l (stream o)) /\
  run (Merge l o) = run (feed (feed (New (fst (fst (config l))) (snd (fst (config l))) (snd (config l))) (stream l)) (stream o)) /\
  exists c d m, run l = Some c /\ run o = Some d /\ cm_merge c d = Some (m, true).
Proof.
  intros V1 V2 E. assert (SO1 := stream_ok l V1). assert (SO2 := stream_ok o V2).
  assert (VN : valid (New (fst (fst (config l))) (snd (fst (config l))) (snd (config l)))).
  { clear - V1. induction l; simpl in *; try tauto. }
  assert (CE : config_eqb (config l) (config o) = true) by (apply config_eqb_spec; auto).
  rewrite !countmin_state_is_function_of_stream; simpl; auto.
  - rewrite !feed_config, !feed_stream by (intros; first [solve [apply SO1; auto]|apply SO2; auto]). rewrite CE. simpl.
    split; auto. split; [destruct (config l) as [[? ?] ?]; auto|]. rewrite <- E. eexists _, _, _. split; [reflexivity|]. split; [reflexivity|].
    apply merge_image.
  - apply feed_valid; [apply feed_valid; auto|]; intros; [apply SO1|apply SO2]; auto.
  - apply feed_valid; auto; intros; apply SO2; auto.
Qed.

(** Incompatible sketches are rejected and nothing changes. *)
Theorem countmin_incompatible_merge_rejected l o : valid l -> valid o -> config l <> config o ->
  exists c d, run l = Some c /\ run o = Some d /\ cm_merge c d = Some (c, false).
Proof.
  intros V1 V2 NE. rewrite !countmin_state_is_function_of_stream by auto. eexists _, _. split; [reflexivity|]. split; [reflexivity|].
  unfold cm_merge. destruct (config_eqb (config l) (config o)) eqn:E; [apply config_eqb_spec in E; tauto|].
  destruct (config l) as [[h b] s], (config o) as [[h' b'] s']. cbn [image cm_hashes cm_buckets cm_seed].
  unfold config_eqb in E. rewrite E. auto.
Qed.

(** *** C17: with non-negative weights and a total below 2^63 the estimate is never below the true
    frequency, never above the total, and it is the least bucket weight over the rows. *)
Lemma min_at_spec : forall locs a e, (forall h, In h locs -> 0 <= h < Z.of_nat (length a)) ->
  exists m, min_at locs a e = Some m /\ m <= e /\ (forall h v, In h locs -> nth_error a (Z.to_nat h) = Some v -> m <= v) /\
    (m = e \/ exists h, In h locs /\ nth_error a (Z.to_nat h) = Some m).
Proof.
  induction locs as [|h r IH]; intros a e HR; simpl.
  - exists e. repeat split; auto; try lia.
  - assert (Hh := HR h (or_introl eq_refl)). destruct (Z.ltb_spec h 0); [lia|].
    destruct (nth_error a (Z.to_nat h)) as [v|] eqn:E; [|apply nth_error_None in E; lia]. cbn [bindo].
    destruct (IH a (Z.min e v)) as (m & -> & H1 & H2 & H3). { intros; apply HR; right; auto. }
    exists m. split; auto. split; [lia|]. split.
    + intros h' v' [->|Hin] Hv'; [|eauto]. rewrite E in Hv'. inversion Hv'; subst. lia.
    + destruct H3 as [->|(h' & ? & ?)]; [|right; exists h'; auto].
      destruct (Z.min_dec e v) as [Em|Em]; [left; auto|right; exists h; rewrite Em; auto].
Qed.

Definition nonneg (s : list (list N * Z)) : Prop := forall xw, In xw s -> 0 <= snd xw.

Lemma weight_if_bounds P s : nonneg s -> 0 <= weight_if P s <= gross s.
Proof.
  unfold weight_if, gross. induction s as [|[x w] s IH]; intros H; simpl; [lia|].
  assert (0 <= w) by (apply (H (x, w)); left; auto). assert (nonneg s) by (intros y Hy; apply H; right; auto).
  specialize (IH H1). destruct (P x); lia.
Qed.
Lemma weight_if_mono (P Q : list N -> bool) s : nonneg s -> (forall x, P x = true -> Q x = true) -> weight_if P s <= weight_if Q s.
Proof.
  intros H HPQ. unfold weight_if. induction s as [|[x w] s IH]; simpl; [lia|].
  assert (0 <= w) by (apply (H (x, w)); left; auto). assert (nonneg s) by (intros y Hy; apply H; right; auto).
  specialize (IH H1). specialize (HPQ x). destruct (P x); destruct (Q x); try lia.
Qed.

Theorem countmin_never_underestimates l x : valid l -> x <> [] -> nonneg (stream l) -> gross (stream l) < 2 ^ 63 ->
  exists c e, run l = Some c /\ cm_estimate hash c x = Some e /\
    frequency (stream l) x <= e <= gross (stream l) /\
    cm_total c = gross (stream l) /\
    (exists i, (i < Z.to_nat (fst (fst (config l))))%nat /\
       e = bucket_weight (snd (fst (config l))) (snd (config l)) (stream l) i (hash (row_seed (snd (config l)) i) x mod snd (fst (config l)))) /\
    (forall i, (i < Z.to_nat (fst (fst (config l))))%nat ->
       e <= bucket_weight (snd (fst (config l))) (snd (config l)) (stream l) i (hash (row_seed (snd (config l)) i) x mod snd (fst (config l)))).
Proof.
  intros V Hx NN HG. rewrite countmin_state_is_function_of_stream by auto.
  destruct (config_ok l V) as (h & b & seed & -> & Hh & Hb & Hs). cbn [fst snd]. set (s := stream l) in *.
  unfold cm_estimate. destruct x as [|x0 xr]; [tauto|]. set (x := x0 :: xr) in *.
  unfold get_hashes. eexists.
  set (locs := locations hash 0 b (map (row_seed seed) (seq 0 (Z.to_nat h))) x).
  assert (HL : forall k loc, nth_error locs k = Some loc <-> (k < Z.to_nat h)%nat /\ loc = Z.of_nat k * b + hash (row_seed seed k) x mod b).
  { intros k loc. unfold locs. rewrite locations_nth. split.
    - intros (s0 & Hs0 & ->). assert (k < Z.to_nat h)%nat by (apply nth_error_Some_lt in Hs0; rewrite map_length, seq_length in Hs0; auto).
      rewrite map_seq_nth in Hs0 by auto. inversion Hs0. split; auto.
    - intros [Hk ->]. exists (row_seed seed k). split; auto. apply map_seq_nth; auto. }
  assert (HV : forall k, (k < Z.to_nat h)%nat -> nth_error (cm_slice (image (h, b, seed) s)) (Z.to_nat (Z.of_nat k * b + hash (row_seed seed k) x mod b))
                 = Some (bucket_weight b seed s k (hash (row_seed seed k) x mod b))).
  { intros k Hk. pose proof (Z.mod_pos_bound (hash (row_seed seed k) x) b) as Hm. cbn [image cm_slice].
    rewrite map_seq_nth by nia.
    destruct (row_of b k (hash (row_seed seed k) x mod b)) as [R1 R2]; [lia|lia|]. rewrite R1, R2, Z2Nat.id by lia.
    f_equal. apply wrap64_id. unfold int64. pose proof (weight_if_bounds (fun y => hash (row_seed seed k) y mod b =? hash (row_seed seed k) x mod b) s NN).
    unfold bucket_weight. lia. }
  assert (HBW : forall k, frequency s x <= bucket_weight b seed s k (hash (row_seed seed k) x mod b) <= gross s).
  { intros k. split; [|apply weight_if_bounds; auto]. apply weight_if_mono; auto. intros y Hy.
    unfold list_N_eqb in Hy. destruct (list_eq_dec N.eq_dec x y); [subst; apply Z.eqb_refl|discriminate]. }
  destruct (min_at_spec locs (cm_slice (image (h, b, seed) s)) (2 ^ 63 - 1)) as (m & Hm & H1 & H2 & H3).
  { intros loc Hloc. apply In_nth_error in Hloc. destruct Hloc as [k Hk]. apply HL in Hk. destruct Hk as [Hk ->].
    cbn [image cm_slice]. rewrite map_length, seq_length. pose proof (Z.mod_pos_bound (hash (row_seed seed k) x) b). nia. }
  exists m. split; [reflexivity|]. cbn [image cm_buckets cm_seeds cm_total]. split; [exact Hm|].
  assert (HALL : forall i, (i < Z.to_nat h)%nat -> m <= bucket_weight b seed s i (hash (row_seed seed i) x mod b)).
  { intros i Hi. eapply H2; [|apply HV; auto]. eapply nth_error_In. apply HL. eauto. }
  assert (HEX : exists i, (i < Z.to_nat h)%nat /\ m = bucket_weight b seed s i (hash (row_seed seed i) x mod b)).
  { destruct H3 as [->|(loc & Hin & Hv)].
    - exists 0%nat. split; [lia|]. specialize (HALL 0%nat). specialize (HBW 0%nat). assert (0 < Z.to_nat h)%nat by lia. specialize (HALL H). lia.
    - apply In_nth_error in Hin. destruct Hin as [k Hk]. apply HL in Hk. destruct Hk as [Hk ->]. exists k. split; auto. rewrite HV in Hv by auto. congruence. }
  split; [|split; [|auto]].
  - destruct HEX as (i & Hi & ->). apply HBW.
  - apply wrap64_id. unfold int64. pose proof (gross_nonneg s). lia.
Qed.

(** One row without a collision makes the estimate exact. *)
Theorem countmin_exact_without_collision l x i : valid l -> x <> [] -> nonneg (stream l) -> gross (stream l) < 2 ^ 63 ->
  (i < Z.to_nat (fst (fst (config l))))%nat ->
  (forall y w, In (y, w) (stream l) ->
     hash (row_seed (snd (config l)) i) y mod snd (fst (config l)) = hash (row_seed (snd (config l)) i) x mod snd (fst (config l)) -> y = x) ->
  exists c, run l = Some c /\ cm_estimate hash c x = Some (frequency (stream l) x).
Proof.
  intros V Hx NN HG Hi HC. destruct (countmin_never_underestimates l x V Hx NN HG) as (c & e & Hr & He & [Hlo _] & _ & _ & HALL).
  exists c. split; auto. rewrite He. f_equal. specialize (HALL i Hi).
  assert (bucket_weight (snd (fst (config l))) (snd (config l)) (stream l) i (hash (row_seed (snd (config l)) i) x mod snd (fst (config l))) = frequency (stream l) x); [|lia].
  clear - HC. unfold bucket_weight, frequency, weight_if. revert HC. induction (stream l) as [|[y w] s IH]; intros HC; simpl; auto.
  rewrite IH by (intros; eapply HC; eauto; right; eauto). f_equal. unfold list_N_eqb.
  destruct (list_eq_dec N.eq_dec x y) as [->|Hne].
  - rewrite Z.eqb_refl. auto.
  - destruct (Z.eqb_spec (hash (row_seed (snd (config l)) i) y mod snd (fst (config l))) (hash (row_seed (snd (config l)) i) x mod snd (fst (config l)))); auto.
    exfalso. apply Hne. symmetry. eapply HC; eauto. left; auto.
Qed.

(** *** C19: serialization round trip, with or without later updates. *)
Theorem countmin_serde_roundtrip l : valid (Serde l) ->
  exists c bs, run l = Some c /\ cm_serialize seedHash c = Some bs /\ cm_deserialize rng bs (cm_seed c) = Some c.
Proof.
  intros V. assert (V' := V). destruct V' as (V1 & Hg & sh & Hsh). exists (image (config l) (stream l)).
  rewrite countmin_state_is_function_of_stream by auto.
  destruct (config_ok l V1) as (h & b & s & E & ? & ? & ?). rewrite E in *. cbn [snd] in Hsh.
  destruct (serde_image h b s (stream l) sh) as (bs & Hs & Hd); auto. exists bs. auto.
Qed.

Theorem countmin_never_panics l x : valid l -> exists c, run l = Some c /\ cm_estimate hash c x <> None.
Proof.
  intros V. rewrite countmin_state_is_function_of_stream by auto. eexists. split; [reflexivity|].
  destruct (config_ok l V) as (h & b & seed & -> & Hh & Hb & Hs).
  unfold cm_estimate. destruct x as [|x0 xr]; [discriminate|]. set (x := x0 :: xr). unfold get_hashes. cbn [image cm_buckets cm_seeds].
  destruct (min_at_spec (locations hash 0 b (map (row_seed seed) (seq 0 (Z.to_nat h))) x) (cm_slice (image (h, b, seed) (stream l))) (2 ^ 63 - 1)) as (m & Hm & _).
  - intros loc Hloc. apply In_nth_error in Hloc. destruct Hloc as [k Hk]. apply locations_nth in Hk. destruct Hk as (s0 & Hk & ->).
    apply nth_error_Some_lt in Hk. rewrite map_length, seq_length in Hk.
    cbn [image cm_slice]. rewrite map_length, seq_length. pose proof (Z.mod_pos_bound (hash s0 x) b). nia.
  - intros C. unfold image in Hm at 1. cbn [image cm_slice] in C, Hm. congruence.
Qed.
End CM.

(** *** Findings *)

(** The size check multiplies in int32: 64 hashes of 2^26+1 buckets are accepted although they need more than 2^32
    counters; the sketch has 64 counters and Update panics. *)
Theorem countmin_size_check_overflow_refuted : exists c,
  cm_new (fun _ _ => 0) 64 (2 ^ 26 + 1) 7 = Some c /\ length (cm_slice c) = 64%nat /\
  cm_update (fun _ _ => 64) c [1%N] 1 = None.
Proof. eexists. split; [vm_compute; reflexivity|]. split; vm_compute; reflexivity. Qed.

(** numHashes = 0 is accepted; every estimate is then 2^63-1. *)
Theorem countmin_zero_hashes_refuted : exists c, cm_new (fun _ _ => 0) 0 3 7 = Some c /\
  forall h x, x <> [] -> cm_estimate h c x = Some (2 ^ 63 - 1).
Proof. eexists. split; [vm_compute; reflexivity|]. intros h [|a x] H; [tauto|]. reflexivity. Qed.

(** GetLowerBound is the estimate, so it exceeds the true frequency as soon as there is a collision in each row. *)
Theorem countmin_lower_bound_refuted :
  let h := fun _ _ => 0 in let r := fun _ _ => 0 in
  exists c, run h r (fun _ => Some 1%N) (Update (New 2 3 7) [1%N] 5) = Some c /\
    cm_lower_bound h c [2%N] = Some 5 /\ frequency (stream (Update (New 2 3 7) [1%N] 5)) [2%N] = 0.
Proof. eexists. split; [vm_compute; reflexivity|]. split; vm_compute; reflexivity. Qed.

(** Deserialize ignores the stored seed hash: an image read back with another seed is accepted without error. *)
Theorem countmin_seed_hash_ignored_refuted :
  let h := fun s _ => s in let r := fun s _ => s in let sh := fun s => Some (Z.to_N s) in
  exists c bs d, run h r sh (Update (New 2 3 7) [1%N] 5) = Some c /\ cm_serialize sh c = Some bs /\
    cm_deserialize r bs 8 = Some d /\ sh 8 <> sh 7 /\ cm_estimate h d [1%N] <> cm_estimate h c [1%N].
Proof. eexists _, _, _. split; [vm_compute; reflexivity|]. split; [vm_compute; reflexivity|]. split; [vm_compute; reflexivity|]. split; vm_compute; discriminate. Qed.

(** An image with one counter too many panics instead of returning an error. *)
Theorem countmin_overlong_image_refuted :
  exists c bs, run (fun _ _ => 0) (fun _ _ => 0) (fun _ => Some 1%N) (Update (New 1 3 7) [1%N] 5) = Some c /\
    cm_serialize (fun _ => Some 1%N) c = Some bs /\ cm_deserialize (fun _ _ => 0) (bs ++ le 8 0) 7 = None.
Proof. eexists _, _. split; [vm_compute; reflexivity|]. split; [vm_compute; reflexivity|]. vm_compute; reflexivity. Qed.

(** *** Non-vacuity *)
Definition dh (s : Z) (x : list N) : Z := s * 31 + fold_right (fun b a => Z.of_N b + 17 * a) 5 x.
Definition dr (s : Z) (i : nat) : Z := s * 1000 + Z.of_nat i * 77.
Definition dsh (s : Z) : option N := Some 4242%N.
Definition demo : life :=
  Update (Merge (Serde (Update (Update (New 3 5 9) [1;2]%N 10) [3]%N 4)) (Merge (Update (New 3 5 9) [1;2]%N 7) (Update (New 3 5 10) [9]%N 1))) [7]%N 2.
Example demo_valid : valid dsh demo.
Proof. simpl. unfold int64. assert (exists sh, dsh 9 = Some sh) by (eexists; reflexivity). vm_compute gross. intuition lia. Qed.
Example demo_nonneg : nonneg (stream demo) /\ gross (stream demo) = 23 /\ frequency (stream demo) [1;2]%N = 17.
Proof.
  split; [|vm_compute; auto]. assert (H : forallb (fun xw => 0 <=? snd xw) (stream demo) = true) by (vm_compute; reflexivity).
  intros xw Hin. rewrite forallb_forall in H. apply H in Hin. lia.
Qed.
Example demo_estimate : (do c <- run dh dr dsh demo; cm_estimate dh c [1;2]%N) = Some 17. Proof. vm_compute. reflexivity. Qed.

Print Assumptions countmin_state_is_function_of_stream.
Print Assumptions countmin_merge_is_concatenation.
Print Assumptions countmin_incompatible_merge_rejected.
Print Assumptions countmin_never_underestimates.
Print Assumptions countmin_exact_without_collision.
Print Assumptions countmin_serde_roundtrip.
Print Assumptions countmin_never_panics.
Print Assumptions countmin_size_check_overflow_refuted.
Print Assumptions countmin_zero_hashes_refuted.
Print Assumptions countmin_lower_bound_refuted.
Print Assumptions countmin_seed_hash_ignored_refuted.
Print Assumptions countmin_overlong_image_refuted.
