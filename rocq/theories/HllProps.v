(** * HLL sketches and unions: the properties C24-C27.

    Specification vocabulary. Nothing below up to "Section Props" refers to the model. *)
From Coq Require Import Permutation.
From Verif Require Import Base ListX ProbeModel ProbeProofs Bytes Arr HllModel HllPack HllArrProofs HllMode HllUnion.
Local Open Scope nat_scope.

(** An item reaches a sketch as the two 64-bit words of its 128-bit hash. *)
Definition item : Type := (N * N)%type.
(** Leading zeros of the second word, plus one, at most 63. *)
Definition rank_of (x : item) : N := (N.min (64 - N.size (snd x)) 62 + 1)%N.
(** The slot is the low lgK bits of the first word. *)
Definition slot_of (lgK : N) (x : item) : nat := N.to_nat (fst x mod 2 ^ lgK).
(** Two items with the same code are indistinguishable to HLL: 26 bits of the first word and the rank. *)
Definition code (x : item) : N := (rank_of x * 2 ^ 26 + fst x mod 2 ^ 26)%N.

(** The register of slot i after the items xs: the largest rank in the slot, 0 if there is none. *)
Definition reg (lgK : N) (xs : list item) (i : nat) : N :=
  fold_right N.max 0%N (map rank_of (filter (fun x => slot_of lgK x =? i) xs)).
Definition slots (lgK : N) : list nat := seq 0 (N.to_nat (2 ^ lgK)).
(** Sum of 2^(63 - register) over all slots; slots without any item; slots of rank 15 or more. *)
Definition sum_pow (lgK : N) (xs : list item) : Z := fold_right Z.add 0%Z (map (fun i => 2 ^ (63 - Z.of_N (reg lgK xs i)))%Z (slots lgK)).
Definition empty_slots (lgK : N) (xs : list item) : nat := length (filter (fun i => (reg lgK xs i =? 0)%N) (slots lgK)).
Definition high_slots (lgK : N) (xs : list item) : nat := length (filter (fun i => (15 <=? reg lgK xs i)%N) (slots lgK)).
(** Number of distinct codes. *)
Definition distinct (xs : list item) : nat := length (nodup N.eq_dec (map code xs)).
(** Distinct codes that the coupon modes can hold: up to 7 in a list; for lgK >= 8 also up to 3/4 of 2^(lgK-3) in a set. *)
Definition in_list (xs : list item) : Prop := distinct xs < 8.
Definition in_set (lgK : N) (xs : list item) : Prop := 8 <= distinct xs /\ (8 <= lgK)%N /\ 4 * distinct xs <= 3 * N.to_nat (2 ^ (lgK - 3)).
Definition in_array (lgK : N) (xs : list item) : Prop := 8 <= distinct xs /\ ((lgK < 8)%N \/ 3 * N.to_nat (2 ^ (lgK - 3)) < 4 * distinct xs).
(** The cells of a table that are in use hold exactly the codes of xs, each once. *)
Definition exactly (arr : list N) (cnt : nat) (xs : list item) : Prop :=
  let used := filter (fun c => negb (c =? 0)%N) arr in
  NoDup used /\ length used = cnt /\ forall c, In c used <-> exists x, In x xs /\ code x = c.

Section Props.
  Context {F : Type}.
  Variable fzero : F.
  (** The HIP accumulator's next value, from lgK and the two sums; the estimate for a number of coupons;
      the composite estimate from lgK, the sum of 2^-register and the number of empty slots (hll_estimator.go:26-70). *)
  Variable hip_add : N -> Z -> Z -> F -> F.
  Variable coupon_est : nat -> F.
  Variable composite : N -> Z -> nat -> F.
  Notation harr := (harr F).
  Notation hstate := (hstate F).
  Notation hunion := (hunion F).

  (** hll_array.go:97-99 with hll_estimator.go:26-93; coupon_list.go:30-40, coupon_hash_set.go:30-40.
      kxq0 + kxq1 is the exact sum here. *)
  Definition get_composite (s : hstate) : F :=
    match s with
    | HList _ _ _ cnt | HSet _ _ _ _ cnt => coupon_est cnt
    | HArr _ h => composite (a_lgK h) (a_kxq0 h * 2 ^ 32 + a_kxq1 h)%Z (if (a_curMin h =? 0)%N then a_num h else 0)
    end.
  (** hll_array.go:89-94. *)
  Definition get_estimate (s : hstate) : F :=
    match s with HArr _ h => if a_ooo h then get_composite s else a_hip h | _ => get_composite s end.

  (** A new sketch, fed the items one by one. hll_sketch.go:267-309, coupon.go of the hash pair. *)
  Definition put (s : hstate) (x : item) : option hstate := sk_update fzero hip_add coupon_est s (coupon (fst x) (snd x)).
  Fixpoint feed_from (s : hstate) (xs : list item) : option hstate :=
    match xs with [] => Some s | x :: r => do s <- put s x; feed_from s r end.
  Definition feed (lgK : N) (t : tgt) (xs : list item) : option hstate := do s <- sk_new lgK t; feed_from s xs.

  (** The sketch s, of resolution lgK and type t, is a sketch of the set of items xs. *)
  Definition sketch_of (lgK : N) (t : tgt) (s : hstate) (xs : list item) : Prop :=
    st_lgK s = lgK /\ st_tgt s = t /\
    match s with
    | HList _ _ arr cnt => in_list xs /\ exactly arr cnt xs
    | HSet _ _ _ arr cnt => in_set lgK xs /\ exactly arr cnt xs
    | HArr _ h =>
      in_array lgK xs /\
      (forall i, i < N.to_nat (2 ^ lgK) -> slot_value t h i = Some (reg lgK xs i)) /\
      get_composite s = composite lgK (sum_pow lgK xs) (empty_slots lgK xs)
    end.

  (** ** Bridges *)
  Lemma code_coupon x : coupon (fst x) (snd x) = code x.
  Proof. try clear fzero; try clear coupon_est; try clear hip_add; try clear composite; try clear F. reflexivity. Qed.
  Lemma code_valid x : vcoupon (code x).
  Proof. try clear fzero; try clear coupon_est; try clear hip_add; try clear composite; try clear F. rewrite <- code_coupon. apply coupon_valid. Qed.
  Lemma codes_valid xs : Forall vcoupon (map code xs).
  Proof. try clear fzero; try clear coupon_est; try clear hip_add; try clear composite; try clear F. apply Forall_map, Forall_forall. intros x _. apply code_valid. Qed.
  Lemma cval_code x : cval (code x) = rank_of x.
  Proof. try clear fzero; try clear coupon_est; try clear hip_add; try clear composite; try clear F. unfold cval, code. rewrite N.div_add_l by discriminate. rewrite N.div_small by (apply N.mod_lt; discriminate). lia. Qed.
  Lemma cslot_code lgK x : (lgK <= 21)%N -> cslot lgK (code x) = slot_of lgK x.
  Proof. try clear fzero; try clear coupon_est; try clear hip_add; try clear composite; try clear F.
    intros H. unfold cslot, slot_of, code. f_equal.
    assert (Hp : (2 ^ lgK)%N <> 0%N) by (apply N.pow_nonzero; discriminate).
    replace (2 ^ 26)%N with (2 ^ (26 - lgK) * 2 ^ lgK)%N by (rewrite <- N.pow_add_r; f_equal; lia).
    rewrite N.mul_assoc, N.add_comm, N.mod_add by auto. 
    rewrite (N.mul_comm (2 ^ (26 - lgK))), N.mod_mul_r by (auto; apply N.pow_nonzero; discriminate).
    rewrite (N.mul_comm (2 ^ lgK)), N.mod_add, N.mod_mod by auto. auto.
  Qed.
  Lemma regs_reg lgK xs i : (lgK <= 21)%N -> regs lgK (map code xs) i = reg lgK xs i.
  Proof. try clear fzero; try clear coupon_est; try clear hip_add; try clear composite; try clear F.
    intros H. induction xs as [|x xs IH]; auto. unfold reg in *. cbn [map regs filter]. rewrite cslot_code, cval_code, IH by auto.
    destruct (slot_of lgK x =? i); auto.
  Qed.
  Lemma distinct_dist xs : distinct xs = dist (map code xs).
  Proof. try clear fzero; try clear coupon_est; try clear hip_add; try clear composite; try clear F. reflexivity. Qed.
  Lemma same_reg lgK xs cs i : (lgK <= 21)%N -> same cs (map code xs) -> regs lgK cs i = reg lgK xs i.
  Proof. try clear fzero; try clear coupon_est; try clear hip_add; try clear composite; try clear F. intros H E. rewrite (regs_same lgK _ _ i E). apply regs_reg; auto. Qed.
  Lemma fold_add_snoc l z : fold_right Z.add 0%Z (l ++ [z]) = (fold_right Z.add 0 l + z)%Z.
  Proof. try clear fzero; try clear coupon_est; try clear hip_add; try clear composite; try clear F. induction l; cbn [app fold_right]; lia. Qed.
  Lemma sumf_sum f r n : sumf f r n = fold_right Z.add 0%Z (map (fun i => f (r i)) (seq 0 n)).
  Proof. try clear fzero; try clear coupon_est; try clear hip_add; try clear composite; try clear F. induction n; auto. cbn [sumf]. rewrite seq_S, map_app, IHn. cbn [map plus]. rewrite fold_add_snoc. auto. Qed.
  Lemma sumf_pow lgK xs cs : (lgK <= 21)%N -> (forall i, cs i = reg lgK xs i) -> sumf wt cs (nslots lgK) = sum_pow lgK xs.
  Proof. try clear fzero; try clear coupon_est; try clear hip_add; try clear composite; try clear F. intros H E. rewrite sumf_sum. unfold sum_pow, slots, wt, nslots. f_equal. apply map_ext. intros i. rewrite E. auto. Qed.
  Lemma count_empty lgK xs cs : (forall i, cs i = reg lgK xs i) -> count 0 cs (nslots lgK) = empty_slots lgK xs.
  Proof. try clear fzero; try clear coupon_est; try clear hip_add; try clear composite; try clear F. intros E. unfold count, cnt, empty_slots, slots, nslots. f_equal. apply filter_ext. intros i. rewrite E. auto. Qed.
  Lemma exc_high lgK xs : (lgK <= 21)%N -> exc 0 (regs lgK (map code xs)) (nslots lgK) = high_slots lgK xs.
  Proof. try clear fzero; try clear coupon_est; try clear hip_add; try clear composite; try clear F. intros E. unfold exc, cnt, high_slots, slots, nslots. f_equal. apply filter_ext. intros i. rewrite regs_reg by auto. auto. Qed.

  Lemma over_array lgK xs : over lgK (dist (map code xs)) = true <-> in_array lgK xs.
  Proof. try clear fzero; try clear coupon_est; try clear hip_add; try clear composite; try clear F.
    unfold over, in_array. rewrite <- distinct_dist. destruct (N.ltb_spec lgK 8).
    - rewrite Nat.leb_le. intuition lia.
    - rewrite andb_true_iff, Nat.leb_le, Nat.ltb_lt. intuition lia.
  Qed.
  Lemma in_map_code c xs : In c (map code xs) <-> exists x, In x xs /\ code x = c.
  Proof. try clear fzero; try clear coupon_est; try clear hip_add; try clear composite; try clear F. rewrite in_map_iff. split; intros (x & A & B); eauto. Qed.

  Lemma cst_sketch lgK t s cs xs : cst lgK t s cs -> same cs (map code xs) -> sketch_of lgK t s xs.
  Proof. try clear fzero; try clear coupon_est; try clear hip_add; try clear composite; try clear F.
    intros (HK & Hv & Ho & H) Hs.
    assert (Ed : dist cs = distinct xs) by (rewrite distinct_dist; apply dist_eq_same; auto).
    assert (Hin : forall ds, same ds cs -> forall c, In c ds <-> exists x, In x xs /\ code x = c).
    { intros ds Hds c. rewrite (Hds c), (Hs c). apply in_map_code. }
    destruct s as [lgK' t' arr cnt|lgK' t' lgArr arr cnt|]; [| |contradiction]; unfold sketch_of, exactly; cbn [st_lgK st_tgt].
    - destruct H as (-> & -> & H8 & ds & (Hnd & Hz & Ea & Ec & _) & Hds). split; auto. split; auto. split; [unfold in_list; lia|].
      assert (En : filter (fun c => negb (c =? 0)%N) arr = ds) by (rewrite Ea; apply nz_app_zeros; auto). cbv zeta. rewrite En. auto.
    - destruct H as (-> & -> & H8 & (_ & _ & Ht & Ec & _) & Hds). split; auto. split; auto. split.
      + unfold in_set. unfold over in Ho. rewrite Ed in Ho. destruct (N.ltb_spec lgK 8).
        * apply Nat.leb_gt in Ho. lia.
        * destruct (Nat.leb_spec 8 (distinct xs)); [|lia]. cbn [andb] in Ho. apply Nat.ltb_ge in Ho. lia.
      + cbv zeta. fold (nz arr). split; [eapply nz_NoDup; eauto|]. split; auto.
  Qed.

  Lemma arr_sketch lgK t h d cs xs r : a_lgK h = lgK -> ainv t d h r -> est_ok h r -> a_rebuild h = false ->
    (forall i, r i = reg lgK xs i) -> same cs (map code xs) -> over lgK (dist cs) = true -> sketch_of lgK t (HArr t h) xs.
  Proof. try clear fzero; try clear coupon_est; try clear hip_add; try clear composite; try clear F.
    intros EK Hi He Hr Er Hs Ho. assert (HK : (4 <= lgK <= 21)%N) by (rewrite <- EK; apply Hi). unfold sketch_of. cbn [st_lgK st_tgt]. split; auto. split; auto. split; [|split].
    - apply over_array. rewrite <- (dist_eq_same _ _ Hs). auto.
    - intros i Hlt. rewrite <- Er. eapply slot_value_inv; eauto. unfold KK, nslots. rewrite EK. auto.
    - destruct (He Hr) as [A B]. cbn [get_composite]. unfold ktot in A. unfold unhit in B. rewrite A, B. unfold KK. rewrite EK.
      rewrite (sumf_pow lgK xs r) by (auto; lia). rewrite (count_empty lgK xs r) by auto. auto.
  Qed.

  Lemma hinv_sketch lgK t s cs xs : hinv fzero hip_add coupon_est lgK t s cs -> same cs (map code xs) -> sketch_of lgK t s xs.
  Proof. try clear fzero; try clear coupon_est; try clear hip_add; try clear composite; try clear F.
    intros Hi Hs. pose proof (repr_range _ _ _ _ (hinv_repr _ _ _ _ _ _ _ Hi)) as (HK & _). unfold hinv in Hi. destruct (over lgK (dist cs)) eqn:Eo; [|eapply cst_sketch; eauto].
    destruct Hi as (Hv & h & -> & EK & Hi & Hk & Hh & _ & Hr & _). eapply arr_sketch; eauto.
    - intros _. split; [apply kx_ktot; auto; intros i Hlt; eapply ainv_lt; eauto|eapply hits_all; eauto].
    - intros i. apply same_reg; auto. lia.
  Qed.

  Lemma feed_all s xs : feed_from s xs = sk_update_all fzero hip_add coupon_est s (map code xs).
  Proof. try clear fzero; try clear coupon_est; try clear hip_add; try clear composite; try clear F.
    revert s. induction xs as [|x xs IH]; intros s; auto. cbn [feed_from map sk_update_all]. unfold put. rewrite code_coupon.
    destruct (sk_update _ _ _ s (code x)); cbn [bindo]; auto.
  Qed.
  Lemma same_rev xs : same (rev (map code xs)) (map code xs).
  Proof. try clear fzero; try clear coupon_est; try clear hip_add; try clear composite; try clear F. intros c. rewrite <- in_rev. reflexivity. Qed.

  Lemma feed_hinv lgK t xs : (4 <= lgK <= 21)%N ->
    ((t = T4 -> 8 * high_slots lgK xs <= 3 * N.to_nat (2 ^ lgK)) -> exists s, feed lgK t xs = Some s) /\
    forall s, feed lgK t xs = Some s -> hinv fzero hip_add coupon_est lgK t s (rev (map code xs)).
  Proof. try clear fzero; try clear coupon_est; try clear hip_add; try clear composite; try clear F.
    intros HK. unfold feed. assert (En : exists s0, sk_new (F := F) lgK t = Some s0).
    { unfold sk_new. destruct (N.leb_spec 4 lgK); [|lia]. destruct (N.leb_spec lgK 21); [|lia]. cbn. eauto. }
    destruct En as (s0 & En). rewrite En. cbn [bindo]. pose proof (hinv_new fzero hip_add coupon_est lgK t s0 En) as H0.
    destruct (hinv_run fzero hip_add coupon_est lgK t (map code xs) s0 [] H0 (codes_valid xs)) as [A B]. rewrite app_nil_r in *. rewrite feed_all. split; auto.
    intros H. apply A. unfold fits4. intros Ht. specialize (H Ht). rewrite <- exc_high in H by lia. 
    rewrite (exc_ext 0 _ (regs lgK (map code xs))); [exact H|]. intros i _. apply regs_same, same_rev.
  Qed.

  (** * C24, C25: sketches *)

  (** C24/C25. HLL_6 and HLL_8 sketches accept every sequence of items, and what they then hold is determined by the set of items:
      the distinct codes while these fit the coupon modes, afterwards in every slot the largest rank. An HLL_4 sketch does
      the same whenever it accepts the sequence, and it does so if at most 3/8 of its slots have a rank of 15 or more. *)
  Theorem hll_sketch_exact lgK t xs : (4 <= lgK <= 21)%N ->
    (t <> T4 \/ 8 * high_slots lgK xs <= 3 * N.to_nat (2 ^ lgK) -> exists s, feed lgK t xs = Some s) /\
    forall s, feed lgK t xs = Some s -> sketch_of lgK t s xs.
  Proof. try clear fzero; try clear coupon_est; try clear hip_add; try clear composite; try clear F.
    intros HK. destruct (feed_hinv lgK t xs HK) as [A B]. split.
    - intros H. apply A. intros ->. destruct H as [H|H]; [congruence|auto].
    - intros s E. eapply hinv_sketch; [apply B; auto|apply same_rev].
  Qed.

  (** C24. The order of the items and repetitions do not matter for the registers and the composite estimate, nor does the type. *)
  Lemma reg_same_set lgK xs ys i : (forall x, In x xs <-> In x ys) -> reg lgK xs i = reg lgK ys i.
  Proof. try clear fzero; try clear coupon_est; try clear hip_add; try clear composite; try clear F.
    assert (Hle : forall l m, (forall v, In v l -> In v m) -> (fold_right N.max 0 l <= fold_right N.max 0 m)%N).
    { induction l as [|a l IH]; intros m H; cbn [fold_right]; [lia|]. apply N.max_lub; [|apply IH; intros; apply H; right; auto].
      specialize (H a (or_introl eq_refl)). clear -H. induction m as [|b m IH]; [contradiction|]. cbn [fold_right]. destruct H as [->|H]; [lia|]. specialize (IH H). lia. }
    intros H. unfold reg. apply N.le_antisymm; apply Hle; intros v; rewrite !in_map_iff; intros (x & E & Hx); exists x; rewrite filter_In in *; (split; [auto|split; [apply H|]; apply Hx]).
  Qed.
  Lemma distinct_same_set xs ys : (forall x, In x xs <-> In x ys) -> distinct xs = distinct ys.
  Proof. try clear fzero; try clear coupon_est; try clear hip_add; try clear composite; try clear F. intros H. rewrite !distinct_dist. apply dist_eq_same. intros c. rewrite !in_map_iff. split; intros (x & E & Hx); exists x; rewrite H in *; auto. Qed.

  (** Two sketches of one set of items: same mode, same composite estimate, same registers, same coupons. *)
  Lemma sketch_of_agree lgK t1 t2 s1 s2 xs ys : (forall x, In x xs <-> In x ys) -> sketch_of lgK t1 s1 xs -> sketch_of lgK t2 s2 ys ->
    get_composite s1 = get_composite s2 /\
    match s1, s2 with
    | HList _ _ a1 n1, HList _ _ a2 n2 | HSet _ _ _ a1 n1, HSet _ _ _ a2 n2 => n1 = n2 /\ Permutation (nz a1) (nz a2)
    | HArr _ h1, HArr _ h2 => forall i, i < N.to_nat (2 ^ lgK) -> slot_value t1 h1 i = slot_value t2 h2 i
    | _, _ => False
    end.
  Proof. try clear fzero; try clear coupon_est; try clear hip_add; try clear composite; try clear F.
    intros Hxy (A1 & B1 & C1) (A2 & B2 & C2). pose proof (distinct_same_set _ _ Hxy) as Ed. unfold in_list, in_set, in_array, exactly in *.
    assert (Hex : forall a1 n1 a2 n2, NoDup (nz a1) /\ length (nz a1) = n1 /\ (forall c, In c (nz a1) <-> exists x, In x xs /\ code x = c) ->
      NoDup (nz a2) /\ length (nz a2) = n2 /\ (forall c, In c (nz a2) <-> exists x, In x ys /\ code x = c) -> n1 = n2 /\ Permutation (nz a1) (nz a2)).
    { intros a1 n1 a2 n2 (D1 & L1 & E1) (D2 & L2 & E2). assert (P : Permutation (nz a1) (nz a2)).
      { apply NoDup_Permutation; auto. intros c. rewrite E1, E2. split; intros (x & P & Q); exists x; rewrite Hxy in *; auto. }
      split; auto. rewrite <- L1, <- L2. apply Permutation_length. auto. }
    destruct s1 as [? ? a1 n1|? ? ? a1 n1|? h1], s2 as [? ? a2 n2|? ? ? a2 n2|? h2]; cbv zeta in *; try (exfalso; lia).
    - destruct (Hex a1 n1 a2 n2) as [-> P]; [apply C1|apply C2|]. auto.
    - destruct (Hex a1 n1 a2 n2) as [-> P]; [apply C1|apply C2|]. auto.
    - destruct C1 as (_ & R1 & E1), C2 as (_ & R2 & E2). assert (Er : forall i, reg lgK xs i = reg lgK ys i) by (intros; apply reg_same_set; auto). split.
      + rewrite E1, E2. unfold sum_pow, empty_slots. f_equal; [f_equal; apply map_ext; intros; rewrite Er; auto|f_equal; apply filter_ext; intros; rewrite Er; auto].
      + intros i Hi. rewrite R1, R2, Er; auto.
  Qed.

  Theorem hll_order_and_type_free lgK t1 t2 xs ys s1 s2 : (4 <= lgK <= 21)%N -> (forall x, In x xs <-> In x ys) ->
    feed lgK t1 xs = Some s1 -> feed lgK t2 ys = Some s2 ->
    get_composite s1 = get_composite s2 /\
    match s1, s2 with
    | HList _ _ a1 n1, HList _ _ a2 n2 | HSet _ _ _ a1 n1, HSet _ _ _ a2 n2 => n1 = n2 /\ Permutation (nz a1) (nz a2)
    | HArr _ h1, HArr _ h2 => forall i, i < N.to_nat (2 ^ lgK) -> slot_value t1 h1 i = slot_value t2 h2 i
    | _, _ => False
    end.
  Proof. try clear fzero; try clear coupon_est; try clear hip_add; try clear composite; try clear F.
    intros HK Hxy E1 E2. eapply (sketch_of_agree lgK t1 t2); eauto.
    - apply (hll_sketch_exact lgK t1 xs HK); auto.
    - apply (hll_sketch_exact lgK t2 ys HK); auto.
  Qed.

  (** C24. For one sequence of items the three types give the same estimate, HIP or not. *)
  Theorem hll_types_same_estimate lgK t1 t2 xs s1 s2 : (4 <= lgK <= 21)%N ->
    feed lgK t1 xs = Some s1 -> feed lgK t2 xs = Some s2 -> get_estimate s1 = get_estimate s2.
  Proof. try clear fzero; try clear coupon_est; try clear hip_add; try clear composite; try clear F.
    intros HK E1 E2. destruct (hll_order_and_type_free lgK t1 t2 xs xs s1 s2 HK ltac:(tauto) E1 E2) as [A _].
    pose proof (proj2 (feed_hinv lgK t1 xs HK) s1 E1) as H1. pose proof (proj2 (feed_hinv lgK t2 xs HK) s2 E2) as H2. unfold hinv in *.
    destruct (over lgK (dist (rev (map code xs)))).
    - destruct H1 as (_ & h1 & -> & _ & _ & _ & _ & O1 & _ & P1). destruct H2 as (_ & h2 & -> & _ & _ & _ & _ & O2 & _ & P2).
      cbn [get_estimate]. rewrite O1, O2, P1, P2. auto.
    - destruct H1 as (_ & _ & _ & H1), H2 as (_ & _ & _ & H2). destruct s1, s2; try contradiction; auto.
  Qed.

  (** C24. CopyAs: the copy is a sketch of the same items, with the same estimate. *)
  Theorem hll_copy_as lgK t t' xs s : (4 <= lgK <= 21)%N -> feed lgK t xs = Some s ->
    (t' <> T4 \/ 8 * high_slots lgK xs <= 3 * N.to_nat (2 ^ lgK) -> exists s', copy_as fzero hip_add s t' = Some s') /\
    forall s', copy_as fzero hip_add s t' = Some s' -> sketch_of lgK t' s' xs /\ get_composite s' = get_composite s /\ get_estimate s' = get_estimate s.
  Proof. try clear fzero; try clear coupon_est; try clear hip_add; try clear composite; try clear F.
    intros HK E. pose proof (proj2 (feed_hinv lgK t xs HK) s E) as H. pose proof (same_rev xs) as Hsame.
    pose proof (proj2 (hll_sketch_exact lgK t xs HK) s E) as Hsk.
    assert (Hgoal : forall s', sketch_of lgK t' s' xs -> (get_estimate s = get_composite s /\ get_estimate s' = get_composite s' \/ get_estimate s' = get_estimate s) ->
       sketch_of lgK t' s' xs /\ get_composite s' = get_composite s /\ get_estimate s' = get_estimate s).
    { intros s' Hs' Ho. split; auto. destruct (sketch_of_agree lgK t t' s s' xs xs ltac:(tauto) Hsk Hs') as [Ec _]. split; auto. destruct Ho as [[-> ->]| ->]; auto. }
    unfold hinv in H. destruct (over lgK (dist (rev (map code xs)))) eqn:Eo.
    - destruct H as (_ & h & -> & EK & Hi & Hk & Hh & O & Rb & _).
      assert (He : est_ok h (regs lgK (rev (map code xs)))). { intros _. split; [apply kx_ktot; auto; intros i Hlt; eapply ainv_lt; eauto|eapply hits_all; eauto]. }
      destruct (copy_arr_spec fzero hip_add t 0 h _ t' Hi He) as [A B]. split.
      + intros Hc. apply A. intros Ht. destruct Hc as [Hc|Hc]; [congruence|]. unfold KK. rewrite EK. rewrite (exc_ext 0 _ (regs lgK (map code xs))) by (intros; apply regs_same; auto).
        rewrite exc_high by lia. exact Hc.
      + intros s' Es. destruct (B s' Es) as (h' & d' & -> & EK' & I' & S' & O' & P'). apply Hgoal.
        * assert (Rb' : a_rebuild h' = false).
          { cbn [copy_as] in Es. destruct (tgt_eqb t t'); [inversion Es; subst; auto|]. destruct t'.
            - destruct (convert_4 fzero hip_add t h) as [hx|] eqn:Ex; cbn [bindo] in Es; [|discriminate]. inversion Es; subst hx.
              apply (convert_4_spec fzero hip_add t 0 h _ Hi) in Ex. apply Ex.
            - destruct (convert_68_spec fzero hip_add t 0 h _ T6 ltac:(discriminate) Hi) as (hx & Ex & C). rewrite Ex in Es. cbn [bindo] in Es. inversion Es; subst hx. apply C.
            - destruct (convert_68_spec fzero hip_add t 0 h _ T8 ltac:(discriminate) Hi) as (hx & Ex & C). rewrite Ex in Es. cbn [bindo] in Es. inversion Es; subst hx. apply C. }
          eapply arr_sketch; eauto; [congruence|]. intros i. apply same_reg; auto; lia.
        * right. cbn [get_estimate]. rewrite O', O, P'. auto.
    - destruct (cst_copy fzero hip_add lgK t t' s _ H) as (s2 & E2 & C2). split; [eauto|]. intros s' Es. rewrite E2 in Es. inversion Es; subst s'. apply Hgoal.
      + eapply cst_sketch; eauto.
      + left. destruct H as (_ & _ & _ & H), C2 as (_ & _ & _ & C2). destruct s, s2; try contradiction; auto.
  Qed.

  (** * C27: unions *)

  (** What can be done to a union; sources are sketches fed with items of their own. *)
  Inductive uop :=
  | UItem (x : item)
  | USketch (lgK : N) (t : tgt) (xs : list item)
  | UResult (t : tgt).
  Definition items_of (o : uop) : list item := match o with UItem x => [x] | USketch _ _ xs => xs | UResult _ => [] end.

  Definition ustep (u : hunion) (o : uop) : option hunion :=
    match o with
    | UItem x => un_coupon fzero hip_add coupon_est u (coupon (fst x) (snd x))
    | USketch lgK t xs => do s <- feed lgK t xs; un_sketch fzero hip_add coupon_est u s
    | UResult t => do r <- un_result fzero hip_add u t; Some (fst r)
    end.
  Fixpoint urun (u : hunion) (os : list uop) : option hunion := match os with [] => Some u | o :: r => do u <- ustep u o; urun u r end.

  (** The conditions under which union steps are claimed to be exact: the source sketch exists, and if it is in array mode its lgK is
      at most the union's maximum and, if the union is in array mode as well, equal to the union's current lgK.
      (Outside them the code returns an error or merges wrongly: see the refuted theorems below.)
      A result of type HLL_4 must not have too many high slots. *)
  Definition in_arr (s : hstate) : Prop := match s with HArr _ _ => True | _ => False end.
  Definition compatible (u : hunion) (o : uop) : Prop :=
    match o with
    | UItem _ => True
    | USketch lgK t xs =>
      (4 <= lgK <= 21)%N /\ (t <> T4 \/ 8 * high_slots lgK xs <= 3 * N.to_nat (2 ^ lgK)) /\
      (in_array lgK xs -> (lgK <= u_max u)%N /\ (in_arr (u_gadget u) -> lgK = st_lgK (u_gadget u)))
    | UResult t => t <> T4
    end.
  Fixpoint all_compatible (u : hunion) (os : list uop) : Prop :=
    match os with [] => True | o :: r => compatible u o /\ forall u', ustep u o = Some u' -> all_compatible u' r end.

  (** Invariant: the gadget is a sketch of all items so far. *)
  Definition uinv (u : hunion) (xs : list item) : Prop :=
    (4 <= u_max u <= 21)%N /\
    ((~ in_arr (u_gadget u) /\ exists cs, hinv fzero hip_add coupon_est (u_max u) T8 (u_gadget u) cs /\ same cs (map code xs)) \/
     (exists gl, in_arr (u_gadget u) /\ (gl <= u_max u)%N /\ repr gl T8 (u_gadget u) (regs gl (map code xs)) /\ in_array gl xs)).

  Lemma in_array_mono lgK xs ys : (forall c, In c (map code xs) -> In c (map code ys)) -> in_array lgK xs -> in_array lgK ys.
  Proof. try clear fzero; try clear coupon_est; try clear hip_add; try clear composite; try clear F. intros H. rewrite <- !over_array. apply over_mono, dist_mono. auto. Qed.

  Lemma hinv_uinv u xs cs : hinv fzero hip_add coupon_est (u_max u) T8 (u_gadget u) cs -> same cs (map code xs) -> uinv u xs.
  Proof. try clear fzero; try clear coupon_est; try clear hip_add; try clear composite; try clear F.
    intros H Hs. pose proof (repr_range _ _ _ _ (hinv_repr _ _ _ _ _ _ _ H)) as (HK & _). split; auto.
    destruct (over (u_max u) (dist cs)) eqn:Eo.
    - right. exists (u_max u). pose proof H as H'. unfold hinv in H'. rewrite Eo in H'. destruct H' as (_ & h & Eg & _). split; [rewrite Eg; exact I|]. split; [lia|]. split.
      + eapply repr_ext; [|eapply hinv_repr; eauto]. intros i. apply regs_same. auto.
      + apply over_array. rewrite <- (dist_eq_same _ _ Hs). auto.
    - left. split; [|eauto]. unfold hinv in H. rewrite Eo in H. destruct H as (_ & _ & _ & H). destruct (u_gadget u); auto.
  Qed.

  Lemma regs_app lgK a b i : rmax2 (regs lgK b) (regs lgK a) i = regs lgK (a ++ b) i.
  Proof. try clear fzero; try clear coupon_est; try clear hip_add; try clear composite; try clear F.
    induction a as [|c a IH]; cbn [app regs]; [unfold rmax2; cbn [regs]; lia|]. rewrite <- IH. unfold rmax2. cbn [regs]. destruct (_ =? _); lia.
  Qed.

  Lemma not_arr_dec (s : hstate) : in_arr s \/ ~ in_arr s.
  Proof. try clear fzero; try clear coupon_est; try clear hip_add; try clear composite; try clear F. destruct s; cbn; auto. Qed.
  Lemma not_arr_cst lgK t (s : hstate) cs : cst lgK t s cs -> ~ in_arr s.
  Proof. try clear fzero; try clear coupon_est; try clear hip_add; try clear composite; try clear F. intros (_ & _ & _ & H). destruct s; cbn; auto. Qed.
  Lemma repr_mode lgK t s r : repr (F := F) lgK t s r -> (in_arr s /\ forall cs, ~ cst lgK t s cs) \/ (~ in_arr s /\ exists cs, cst lgK t s cs /\ forall i, r i = regs lgK cs i).
  Proof. try clear fzero; try clear coupon_est; try clear hip_add; try clear composite; try clear F.
    intros [(cs & Hc & Hr)|(h & d & -> & _)]; [right; split; eauto using not_arr_cst|]. left. split; [exact I|]. intros cs Hc. eapply not_arr_cst; eauto. exact I.
  Qed.

  Lemma repr_lgK lgK t s r : repr (F := F) lgK t s r -> st_lgK s = lgK.
  Proof. try clear fzero; try clear coupon_est; try clear hip_add; try clear composite; try clear F. intros H. apply (repr_range _ _ _ _ H). Qed.
  Lemma hinv_lgK lgK t s cs : hinv fzero hip_add coupon_est lgK t s cs -> st_lgK s = lgK.
  Proof. try clear fzero; try clear coupon_est; try clear hip_add; try clear composite; try clear F. intros H. apply (repr_lgK _ _ _ _ (hinv_repr _ _ _ _ _ _ _ H)). Qed.
  (** The resolution changes only to that of a source. *)
  Definition lgk_step (u u' : hunion) (o : uop) : Prop :=
    st_lgK (u_gadget u') = st_lgK (u_gadget u) \/ exists lgK t ys, o = USketch lgK t ys /\ st_lgK (u_gadget u') = lgK.

  Lemma merge_coupons_arr : forall arr (s s' : hstate), in_arr s -> merge_coupons fzero hip_add coupon_est arr s = Some s' -> in_arr s'.
  Proof. try clear fzero; try clear coupon_est; try clear hip_add; try clear composite; try clear F.
    induction arr as [|c arr IH]; intros s s' Hs; cbn [merge_coupons]; [intros E; inversion E; subst; auto|].
    destruct (c =? 0)%N; [eauto|]. destruct s as [| |ts hs]; try contradiction. cbn [st_update]. destruct (arr_update hip_add ts hs c) as [h'|]; cbn [bindo]; [|discriminate]. apply IH. exact I.
  Qed.

  Lemma ustep_uinv u xs o : uinv u xs -> compatible u o -> exists u', ustep u o = Some u' /\ u_max u' = u_max u /\ lgk_step u u' o /\ uinv u' (items_of o ++ xs).
  Proof. try clear fzero; try clear coupon_est; try clear hip_add; try clear composite; try clear F.
    intros (HM & Hu) Hc. destruct o as [x|lgK t ys|t]; cbn [ustep items_of compatible app] in *.
    - rewrite code_coupon. destruct Hu as [(Hna & cs & Hh & Hs)|(gl & Ha & Hle & Hr & Ho)].
      + destruct (hinv_step fzero hip_add coupon_est (u_max u) T8 (u_gadget u) cs (code x) Hh (code_valid x)) as [A B].
        destruct A as (s' & E'); [discriminate|]. unfold un_coupon. rewrite sk_update_valid by apply code_valid. rewrite E'. cbn [bindo]. eexists. split; [reflexivity|]. split; auto.
        split; [left; cbn [u_gadget]; rewrite (hinv_lgK _ _ _ _ (B s' E')), (hinv_lgK _ _ _ _ Hh); auto|].
        apply (hinv_uinv _ _ (code x :: cs)); [exact (B s' E')|]. intros c. cbn [map In]. rewrite (Hs c). reflexivity.
      + destruct (un_coupon_repr fzero hip_add coupon_est u gl _ (code x) Hr (code_valid x)) as (u' & E' & Em & R'). exists u'. split; auto. split; auto.
        split; [left; rewrite (repr_lgK _ _ _ _ R'), (repr_lgK _ _ _ _ Hr); auto|]. split; [rewrite Em; auto|].
        right. exists gl. rewrite Em. assert (Ho' : in_array gl (x :: xs)) by (eapply in_array_mono; [|exact Ho]; intros c Hx; right; auto).
        split; [|split; [auto|split; [|auto]]].
        * unfold un_coupon in E'. rewrite sk_update_valid in E' by apply code_valid. destruct (u_gadget u); try contradiction. cbn [st_update] in E'.
          destruct (arr_update hip_add t h (code x)); cbn [bindo] in E'; [|discriminate]. inversion E'; subst u'. exact I.
        * eapply repr_ext; [|exact R']. intros i. cbn [map]. rewrite regs_cons. auto.
    - destruct Hc as (HK & Hok & Harr). destruct (feed_hinv lgK t ys HK) as [A B]. destruct A as (src & Es). { intros ->. destruct Hok; [congruence|auto]. }
      rewrite Es. cbn [bindo]. specialize (B src Es). pose proof (hinv_repr _ _ _ _ _ _ _ B) as Rs.
      assert (Hsy : same (rev (map code ys)) (map code ys)) by apply same_rev.
      assert (Hmode : in_arr src <-> in_array lgK ys).
      { rewrite <- over_array, <- (dist_eq_same _ _ Hsy). unfold hinv in B. destruct (over lgK (dist (rev (map code ys)))).
        - destruct B as (_ & h & -> & _). cbn. tauto.
        - split; [|discriminate]. intros Ha. exfalso. eapply not_arr_cst; eauto. }
      destruct Hu as [(Hna & cs & Hh & Hs)|(gl & Ha & Hle & Hr & Ho)].
      + destruct (repr_mode _ _ _ _ Rs) as [(Hsa & Hsn)|(Hsa & ss & Hss & Hsr)].
        * destruct (Harr (proj1 Hmode Hsa)) as [Hmax _].
          destruct (un_sketch_repr fzero hip_add coupon_est u (u_max u) _ src lgK t _ (hinv_repr _ _ _ _ _ _ _ Hh) ltac:(lia) Rs) as (u' & gl' & E' & Em & Hl & El & R').
          { intros h gh -> Eg. exfalso. apply Hna. rewrite Eg. exact I. }
          { intros h _. auto. }
          assert (Egl : gl' = lgK) by (rewrite El; destruct src; try contradiction; destruct (u_gadget u); auto; exfalso; apply Hna; exact I). clear El. subst gl'.
          assert (Rg : repr lgK T8 (u_gadget u') (regs lgK (map code (ys ++ xs)))).
          { rewrite map_app. eapply repr_ext; [intros i; symmetry; rewrite <- regs_app; reflexivity|].
            assert (Hcg : cst (u_max u) T8 (u_gadget u) cs).
            { unfold hinv in Hh. destruct (over (u_max u) (dist cs)); auto. exfalso. destruct Hh as (_ & h & Eg & _). apply Hna. rewrite Eg. exact I. }
            assert (Hcst_same : forall cs2, cst (u_max u) T8 (u_gadget u) cs2 -> same cs2 cs).
            { intros cs2 H2. destruct (cst_cells _ _ _ _ Hcg) as (a1 & E1 & S1 & _). destruct (cst_cells _ _ _ _ H2) as (a2 & E2 & S2 & _).
              assert (a1 = a2) by congruence. subst a2. intros c. rewrite <- (S1 c), <- (S2 c). reflexivity. }
            apply R'.
            - intros cs2 H2. exfalso. eapply Hsn; eauto.
            - intros _ i. symmetry. apply regs_same; auto.
            - intros cs2 H2 i. symmetry. apply regs_same. intros c. rewrite (Hcst_same cs2 H2 c). apply Hs.
            - intros Hn. exfalso. eapply Hn; eauto. }
          exists u'. split; auto. split; auto. split; [right; exists lgK, t, ys; rewrite (repr_lgK _ _ _ _ Rg); auto|]. split; [rewrite Em; auto|]. right.
          exists lgK. rewrite Em.
          assert (Ho' : in_array lgK (ys ++ xs)). { eapply in_array_mono; [|apply Hmode; auto]. intros c. rewrite map_app, in_app_iff. auto. }
          split; [|auto]. destruct (repr_mode _ _ _ _ Rg) as [(Ha' & _)|(Hna' & cs' & Hc' & _)]; auto. exfalso.
          (* the copied array stays an array *)
          revert E'. unfold un_sketch. cbv zeta. destruct (negb _); [discriminate|]. destruct src as [| |ts hs]; [contradiction|contradiction|].
          cbn [st_empty]. destruct (u_max u <? a_lgK hs)%N eqn:Eb; destruct (st_empty (u_gadget u)) eqn:Eg; cbn [bindo]; try discriminate.
          -- destruct (u_gadget u); [discriminate|discriminate|exfalso; apply Hna; exact I].
          -- destruct (copy_as fzero hip_add (HArr ts hs) T8) as [s8|] eqn:E8; cbn [bindo]; [|discriminate]. intros Ei. inversion Ei; subst u'. cbn [u_gadget] in *. apply Hna'.
             revert E8. cbn [copy_as]. destruct (tgt_eqb ts T8); [intros E; inversion E; exact I|]. destruct (convert_68 _ _ _ _ _); cbn [bindo]; [|discriminate]. intros E; inversion E; exact I.
          -- assert (Hm : forall arr, (do s8 <- copy_as fzero hip_add (HArr ts hs) T8; merge_coupons fzero hip_add coupon_est arr s8) = Some (u_gadget u') -> in_arr (u_gadget u')).
             { intros arr. destruct (copy_as fzero hip_add (HArr ts hs) T8) as [s8|] eqn:E8; cbn [bindo]; [|discriminate].
               assert (H8 : in_arr s8). { revert E8. cbn [copy_as]. destruct (tgt_eqb ts T8); [intros E; inversion E; exact I|]. destruct (convert_68 _ _ _ _ _); cbn [bindo]; [|discriminate]. intros E; inversion E; exact I. }
               apply merge_coupons_arr; auto. }
             destruct (u_gadget u) as [? ? arr ?|? ? ? arr ?|]; [| |exfalso; apply Hna; exact I].
             ++ destruct (do s8 <- copy_as fzero hip_add (HArr ts hs) T8; merge_coupons fzero hip_add coupon_est arr s8) as [s'|] eqn:Ex; cbn [bindo]; [|discriminate].
                intros Ei. inversion Ei; subst u'. apply Hna'. apply (Hm arr). auto.
             ++ destruct (do s8 <- copy_as fzero hip_add (HArr ts hs) T8; merge_coupons fzero hip_add coupon_est arr s8) as [s'|] eqn:Ex; cbn [bindo]; [|discriminate].
                intros Ei. inversion Ei; subst u'. apply Hna'. apply (Hm arr). auto.
        * assert (Hco : cst lgK t src (rev (map code ys))).
          { unfold hinv in B. destruct (over lgK (dist (rev (map code ys)))); auto. exfalso. destruct B as (_ & h & -> & _). apply Hsa. exact I. }
          destruct (un_sketch_coupons fzero hip_add coupon_est u (u_max u) cs src lgK t _ Hh Hco) as (u' & cs' & E' & Em & H' & S').
          exists u'. split; auto. split; auto.
          split; [left; rewrite (hinv_lgK _ _ _ _ H'), (hinv_lgK _ _ _ _ Hh); auto|]. apply (hinv_uinv _ _ cs'); [rewrite Em; auto|].
          intros c. rewrite (S' c), map_app, !in_app_iff, (Hs c), (Hsy c). reflexivity.
      + destruct (un_sketch_repr fzero hip_add coupon_est u gl _ src lgK t _ Hr Hle Rs) as (u' & gl' & E' & Em & Hl & El & R').
        { intros h gh Eh Eg. destruct (Harr (proj1 Hmode ltac:(rewrite Eh; exact I))) as [_ Heq]. rewrite (Heq Ha). apply (repr_range _ _ _ _ Hr). }
        { intros h Eh. apply Harr, Hmode. rewrite Eh. exact I. }
        assert (Egl : gl' = gl) by (rewrite El; destruct src, (u_gadget u); try contradiction; auto). clear El. subst gl'.
        assert (Rg : repr gl T8 (u_gadget u') (regs gl (map code (ys ++ xs)))).
        { rewrite map_app. eapply repr_ext; [intros i; symmetry; rewrite <- regs_app; reflexivity|]. apply R'.
          - intros cs2 H2 i. symmetry. apply regs_same.
            assert (Hco : cst lgK t src (rev (map code ys))).
            { unfold hinv in B. destruct (over lgK (dist (rev (map code ys)))); auto. exfalso. destruct B as (_ & h & -> & _). eapply not_arr_cst; eauto. exact I. }
            destruct (cst_cells _ _ _ _ Hco) as (a1 & E1 & S1 & _). destruct (cst_cells _ _ _ _ H2) as (a2 & E2 & S2 & _).
            assert (a1 = a2) by congruence. subst a2. intros c. rewrite <- (S2 c), (S1 c). apply Hsy.
          - intros Hn i. assert (Hsa : in_arr src). { destruct (repr_mode _ _ _ _ Rs) as [(?&_)|(_ & ss & Hss & _)]; auto. exfalso. eapply Hn; eauto. }
            destruct (Harr (proj1 Hmode Hsa)) as [_ Heq]. specialize (Heq Ha). destruct (repr_range _ _ _ _ Hr) as (_ & Eg & _). rewrite Eg in Heq. subst lgK.
            symmetry. apply regs_same. auto.
          - intros cs2 H2. exfalso. eapply not_arr_cst; eauto.
          - intros _ i. auto. }
        exists u'. split; auto. split; auto. split; [left; rewrite (repr_lgK _ _ _ _ Rg), (repr_lgK _ _ _ _ Hr); auto|].
        split; [rewrite Em; auto|]. right. exists gl. rewrite Em.
        assert (Ho' : in_array gl (ys ++ xs)). { eapply in_array_mono; [|exact Ho]. intros c. rewrite map_app, in_app_iff. auto. }
        split; [|auto]. revert E'. unfold un_sketch. cbv zeta. destruct (negb _); [discriminate|]. destruct (st_empty src); [intros E; inversion E; subst; auto|].
        destruct (u_gadget u) as [| |tg gh] eqn:Eg; try contradiction. cbn [st_empty andb]. destruct src as [? ? arr ?|? ? ? arr ?|ts hs].
        * destruct (merge_coupons _ _ _ arr _) eqn:Ex; cbn [bindo]; [|discriminate]. intros E; inversion E; subst u'. eapply merge_coupons_arr; [|exact Ex]; exact I.
        * destruct (merge_coupons _ _ _ arr _) eqn:Ex; cbn [bindo]; [|discriminate]. intros E; inversion E; subst u'. eapply merge_coupons_arr; [|exact Ex]; exact I.
        * destruct (merge_hll ts hs gh); cbn [bindo]; [|discriminate]. intros E; inversion E; subst u'. exact I.
    - assert (Hr : exists gl, repr gl T8 (u_gadget u) (regs gl (map code xs)) /\ (in_arr (u_gadget u) -> (gl <= u_max u)%N /\ in_array gl xs)).
      { destruct Hu as [(Hna & cs & Hh & Hs)|(gl & Ha & Hle & Hr & Ho)]; [|exists gl; auto]. exists (u_max u). split; [|intros; contradiction].
        eapply repr_ext; [|eapply hinv_repr; eauto]. intros i. apply regs_same; auto. }
      destruct Hr as (gl & Hr & Hga). destruct (un_result_repr fzero hip_add u gl _ t Hr) as [A B]. destruct A as (u' & s & E); [intros; contradiction|].
      rewrite E. cbn [bindo fst]. destruct (B u' s E) as (Em & R' & _ & _ & Hcc). exists u'. split; auto. split; auto.
      split; [left; rewrite (repr_lgK _ _ _ _ R'), (repr_lgK _ _ _ _ Hr); auto|]. split; [rewrite Em; auto|].
      destruct (repr_mode _ _ _ _ Hr) as [(Ha & _)|(Hna & cs & Hcs & _)].
      + right. exists gl. rewrite Em. destruct (Hga Ha). split; auto. unfold un_result in E. destruct (u_gadget u) as [| |tg gh]; try contradiction.
        destruct (rebuild (HArr tg gh)) as [g|] eqn:Eg; cbn [bindo] in E; [|discriminate]. destruct (copy_as _ _ g t); cbn [bindo] in E; [|discriminate]. inversion E; subst u'. cbn [u_gadget].
        clear -Eg. revert Eg. cbn [rebuild]. destruct tg; try (intros E; inversion E; exact I). destruct (a_rebuild gh); [|intros E; inversion E; exact I].
        destruct (rebuild_loop _ _ _ _ _ _ _) as [[[[? ?] ?] ?]|]; cbn [bindo]; [|discriminate]. intros E; inversion E; exact I.
      + destruct (Hcc cs Hcs) as [-> _]. destruct Hu as [Hu|(gl' & Ha & _)]; [auto|contradiction].
  Qed.

  (** All items of a run. *)
  Definition all_items (os : list uop) : list item := concat (map items_of os).

  Lemma urun_uinv : forall os u xs, uinv u xs -> all_compatible u os -> exists u', urun u os = Some u' /\ u_max u' = u_max u /\ exists ys, uinv u' ys /\ forall x, In x ys <-> In x (all_items os) \/ In x xs.
  Proof. try clear fzero; try clear coupon_est; try clear hip_add; try clear composite; try clear F.
    induction os as [|o os IH]; intros u xs Hu Hc; cbn [urun].
    - exists u. split; auto. split; auto. exists xs. split; auto. intros x. cbn. tauto.
    - destruct Hc as [H1 H2]. destruct (ustep_uinv u xs o Hu H1) as (u1 & E1 & M1 & _ & U1). rewrite E1. cbn [bindo].
      destruct (IH u1 _ U1 (H2 u1 E1)) as (u' & E' & M' & ys & U' & Hys). exists u'. split; auto. split; [congruence|]. exists ys. split; auto.
      intros x. rewrite Hys, in_app_iff. unfold all_items. cbn [map concat]. rewrite in_app_iff. tauto.
  Qed.

  Lemma sketch_of_set lgK t s xs ys : (forall x, In x xs <-> In x ys) -> sketch_of lgK t s xs -> sketch_of lgK t s ys.
  Proof. try clear fzero; try clear coupon_est; try clear hip_add; try clear composite; try clear F.
    intros H (A & B & C). split; auto. split; auto. pose proof (distinct_same_set _ _ H) as Ed. unfold in_list, in_set, in_array, exactly in *. rewrite Ed in C.
    assert (Hx : forall c, (exists x, In x xs /\ code x = c) <-> (exists x, In x ys /\ code x = c)) by (intros c; split; intros (x & P & Q); exists x; rewrite H in *; auto).
    assert (Er : forall i, reg lgK xs i = reg lgK ys i) by (intros; apply reg_same_set; auto).
    destruct s; cbv zeta in *.
    - destruct C as (C1 & C2 & C3 & C4). split; auto. split; auto. split; auto. intros c. rewrite C4. auto.
    - destruct C as (C1 & C2 & C3 & C4). split; auto. split; auto. split; auto. intros c. rewrite C4. auto.
    - destruct C as (C1 & C2 & C3). split; auto. split; [intros i Hi; rewrite C2, Er; auto|]. rewrite C3. unfold sum_pow, empty_slots.
      f_equal; [f_equal; apply map_ext; intros; rewrite Er; auto|f_equal; apply filter_ext; intros; rewrite Er; auto].
  Qed.

  Lemma new_uinv lgMax u : un_new lgMax = Some u -> u_max u = lgMax /\ uinv u [].
  Proof. try clear fzero; try clear coupon_est; try clear hip_add; try clear composite; try clear F.
    unfold un_new. destruct (sk_new lgMax T8) as [g|] eqn:Eg; cbn [bindo]; [|discriminate]. intros E. inversion E; subst u. split; auto.
    apply (hinv_uinv _ _ []); [|intros c; reflexivity]. cbn [u_max u_gadget]. apply hinv_new. auto.
  Qed.

  (** C27. A union performs every compatible sequence of operations, and the result it then gives is a sketch of the set of all items
      presented to it, directly or through the sketches: with the same mode, coupons, registers and composite estimate as any
      other sketch of that set (sketch_of_agree). *)
  Theorem hll_union_exact lgMax u0 os t : un_new lgMax = Some u0 -> all_compatible u0 os ->
    exists u, urun u0 os = Some u /\
      (t <> T4 \/ 8 * high_slots (st_lgK (u_gadget u)) (all_items os) <= 3 * N.to_nat (2 ^ st_lgK (u_gadget u)) -> exists u' s, un_result fzero hip_add u t = Some (u', s)) /\
      forall u' s, un_result fzero hip_add u t = Some (u', s) -> st_lgK s = st_lgK (u_gadget u) /\ (st_lgK s <= lgMax)%N /\ sketch_of (st_lgK s) t s (all_items os).
  Proof. try clear fzero; try clear coupon_est; try clear hip_add; try clear composite; try clear F.
    intros En Hc. destruct (new_uinv lgMax u0 En) as [Em0 U0]. destruct (urun_uinv os u0 [] U0 Hc) as (u & Er & Em & ys & Hu & Hys). exists u. split; auto.
    assert (Hset : forall x, In x ys <-> In x (all_items os)) by (intros x; rewrite Hys; cbn [In]; tauto).
    destruct Hu as (HM & Hu).
    assert (Hr : exists gl, (gl <= u_max u)%N /\ repr gl T8 (u_gadget u) (regs gl (map code ys)) /\ (in_arr (u_gadget u) -> in_array gl ys) /\ (~ in_arr (u_gadget u) -> exists cs, cst gl T8 (u_gadget u) cs /\ same cs (map code ys))).
    { destruct Hu as [(Hna & cs & Hh & Hs)|(gl & Ha & Hle & Hr & Ho)].
      - exists (u_max u). split; [lia|]. split; [eapply repr_ext; [|eapply hinv_repr; eauto]; intros i; apply regs_same; auto|]. split; [intros; contradiction|]. intros _. exists cs. split; auto.
        unfold hinv in Hh. destruct (over (u_max u) (dist cs)); auto. exfalso. destruct Hh as (_ & h & Eg & _). apply Hna. rewrite Eg. exact I.
      - exists gl. split; auto. split; auto. split; auto. intros; contradiction. }
    destruct Hr as (gl & Hle & Hr & Ha & Hn). pose proof (repr_range _ _ _ _ Hr) as (HK & EK & _). rewrite EK.
    assert (Ereg : forall i, regs gl (map code ys) i = reg gl (all_items os) i) by (intros i; rewrite regs_reg by lia; apply reg_same_set; auto).
    destruct (un_result_repr fzero hip_add u gl _ t Hr) as [A B]. split.
    - intros Ht. apply A. intros Et. destruct Ht as [Ht|Ht]; [congruence|]. rewrite (exc_ext 0 _ (regs gl (map code (all_items os)))) by (intros; rewrite Ereg, regs_reg by lia; auto).
      rewrite exc_high by lia. exact Ht.
    - intros u' s E. destruct (B u' s E) as (Em' & Rg' & Rs & Hb & Hcc). destruct (repr_range _ _ _ _ Rs) as (_ & EKs & ETs). rewrite EKs. split; auto. split; [congruence|].
      apply (sketch_of_set gl t s ys); auto. destruct (not_arr_dec (u_gadget u)) as [Hia|Hia].
      + destruct Rs as [(cs & Hcs & _)|(h & d & -> & EKh & Ih & Eh)].
        * exfalso. (* an array gadget gives an array *)
          revert E. unfold un_result. destruct (u_gadget u) as [| |tg gh] eqn:Eg; try contradiction.
          destruct (rebuild (HArr tg gh)) as [g|] eqn:Eg'; cbn [bindo]; [|discriminate]. destruct (copy_as _ _ g t) as [s2|] eqn:E2; cbn [bindo]; [|discriminate]. intros E; inversion E; subst u' s2.
          assert (in_arr g). { revert Eg'. cbn [rebuild]. destruct tg; try (intros Q; inversion Q; exact I). destruct (a_rebuild gh); [|intros Q; inversion Q; exact I].
            destruct (rebuild_loop _ _ _ _ _ _ _) as [[[[? ?] ?] ?]|]; cbn [bindo]; [|discriminate]. intros Q; inversion Q; exact I. }
          destruct g as [| |tg' g]; try contradiction. apply (not_arr_cst _ _ _ _ Hcs). revert E2. cbn [copy_as]. destruct (tgt_eqb tg' t); [intros Q; inversion Q; exact I|].
          destruct t; [destruct (convert_4 _ _ _ _)|destruct (convert_68 _ _ _ _ _)|destruct (convert_68 _ _ _ _ _)]; cbn [bindo]; try discriminate; intros Q; inversion Q; exact I.
        * eapply (arr_sketch gl t h d (map code ys) ys); eauto; [intros i; rewrite regs_reg; auto; lia|intros c; reflexivity|apply over_array; auto].
      + destruct (Hn Hia) as (cs & Hcs & Hs). destruct (Hcc cs Hcs) as [_ C]. eapply cst_sketch; eauto.
  Qed.

  (** C27. In particular, sketches all of the union's lgK, of any types and in any modes, in any order, mixed with items
      and results. *)
  Definition same_k (lgMax : N) (o : uop) : Prop :=
    match o with UItem _ => True | USketch lgK t xs => lgK = lgMax /\ (t <> T4 \/ 8 * high_slots lgK xs <= 3 * N.to_nat (2 ^ lgK)) | UResult t => t <> T4 end.
  Lemma same_k_compatible lgMax : (4 <= lgMax <= 21)%N -> forall os u xs, uinv u xs -> u_max u = lgMax -> st_lgK (u_gadget u) = lgMax -> Forall (same_k lgMax) os -> all_compatible u os.
  Proof. try clear fzero; try clear coupon_est; try clear hip_add; try clear composite; try clear F.
    intros HK. induction os as [|o os IH]; intros u xs Hu Hm Hg Hs; cbn [all_compatible]; auto. inversion Hs as [|? ? Ho Hs']; subst x l.
    assert (Hc : compatible u o). { destruct o; cbn [compatible same_k] in *; auto. destruct Ho as [-> Ho]. split; auto. split; auto. intros _. split; [lia|congruence]. }
    split; auto. intros u' E. destruct (ustep_uinv u xs o Hu Hc) as (u1 & E1 & M1 & L1 & U1). assert (u1 = u') by congruence. subst u1.
    apply (IH u' (items_of o ++ xs)); auto; [congruence|]. destruct L1 as [->|(lgK & t & ys & Eo & ->)]; auto. subst o. apply Ho.
  Qed.

  Lemma same_k_run lgMax : (4 <= lgMax <= 21)%N -> forall os u u' xs, uinv u xs -> u_max u = lgMax -> st_lgK (u_gadget u) = lgMax -> Forall (same_k lgMax) os -> urun u os = Some u' ->
    st_lgK (u_gadget u') = lgMax.
  Proof. try clear fzero; try clear coupon_est; try clear hip_add; try clear composite; try clear F.
    intros HK. induction os as [|o os IH]; intros u u' xs Hu Hm Hg Hs; cbn [urun]; [intros E; inversion E; subst; auto|]. inversion Hs as [|? ? Ho Hs']; subst x l.
    assert (Hc : compatible u o). { destruct o; cbn [compatible same_k] in *; auto. destruct Ho as [-> Ho]. split; auto. split; auto. intros _. split; [lia|congruence]. }
    destruct (ustep_uinv u xs o Hu Hc) as (u1 & E1 & M1 & L1 & U1). rewrite E1. cbn [bindo]. apply (IH u1 u' (items_of o ++ xs)); auto; [congruence|].
    destruct L1 as [->|(lgK & t & ys & Eo & ->)]; auto. subst o. apply Ho.
  Qed.

  Theorem hll_union_same_lgK lgMax u0 os t : un_new lgMax = Some u0 -> Forall (same_k lgMax) os ->
    exists u, urun u0 os = Some u /\
      (t <> T4 \/ 8 * high_slots lgMax (all_items os) <= 3 * N.to_nat (2 ^ lgMax) -> exists u' s, un_result fzero hip_add u t = Some (u', s)) /\
      forall u' s, un_result fzero hip_add u t = Some (u', s) -> sketch_of lgMax t s (all_items os).
  Proof. try clear fzero; try clear coupon_est; try clear hip_add; try clear composite; try clear F.
    intros En Hs. destruct (new_uinv lgMax u0 En) as [Em U0]. assert (HK : (4 <= lgMax <= 21)%N) by (rewrite <- Em; apply U0).
    assert (Hg : st_lgK (u_gadget u0) = lgMax). { revert En. unfold un_new, sk_new. destruct ((4 <=? lgMax)%N && (lgMax <=? 21)%N); cbn [bindo]; [|discriminate]. intros E; inversion E; reflexivity. }
    destruct (hll_union_exact lgMax u0 os t En (same_k_compatible lgMax HK os u0 [] U0 Em Hg Hs)) as (u & Er & A & B). exists u. split; auto.
    pose proof (same_k_run lgMax HK os u0 u [] U0 Em Hg Hs Er) as Hl. rewrite Hl in A. split; auto. intros u' s E. destruct (B u' s E) as (Eg & _ & C).
    assert (El : st_lgK s = lgMax) by congruence.
    rewrite El in C. exact C.
  Qed.
End Props.

(** * Concrete cases. The estimators are replaced by simple integer functions. *)
Definition zhip (_ : N) (_ _ : Z) (f : Z) : Z := (f + 1)%Z.
Definition zfeed := feed (F := Z) 0%Z zhip Z.of_nat.
Definition zrun := urun (F := Z) 0%Z zhip Z.of_nat.
(** n items in the slots a, a+1, ..., all of rank k (1 <= k <= 62). *)
Definition row (a n : nat) (k : N) : list item := map (fun i => (N.of_nat i, 2 ^ (64 - k))%N) (seq a n).
Example row_rank : map rank_of (row 3 2 7) = [7; 7]%N /\ map (slot_of 4) (row 15 3 7) = [15; 0; 1].
Proof. vm_compute. auto. Qed.

(** C24: an HLL_4 sketch of 16 slots in array mode: 20 items, the minimum moves from 0 to 1, three slots are exceptions. *)
Definition xs4 : list item := row 0 16 1 ++ row 3 3 20 ++ row 9 1 4.
Example hll4_reached :
  match zfeed 4 T4 xs4 with
  | Some (HArr T4 h) => a_curMin h = 1%N /\ map (slot_value T4 h) [0; 3; 4; 9] = [Some 1; Some 20; Some 20; Some 4]%N /\ a_aux h <> None
  | _ => False
  end.
Proof. vm_compute. repeat split; discriminate. Qed.
Example hll4_bound : 8 * high_slots 4 xs4 <= 3 * N.to_nat (2 ^ 4).
Proof. vm_compute. lia. Qed.
(** The two other types on the items in another order and with repetitions. *)
Example hll_types_reached :
  match zfeed 4 T6 (rev xs4 ++ xs4), zfeed 4 T8 xs4 with
  | Some (HArr T6 h), Some (HArr T8 g) => forallb (fun i => match slot_value T6 h i, slot_value T8 g i with Some a, Some b => (a =? b)%N | _, _ => false end) (seq 0 16) = true
  | _, _ => False
  end.
Proof. vm_compute. reflexivity. Qed.
(** C25: list and set modes are reached. *)
Example hll_list_reached : match zfeed 8 T8 (row 0 5 3 ++ row 0 5 3) with Some (HList _ _ _ cnt) => cnt = 5 | _ => False end.
Proof. vm_compute. reflexivity. Qed.
Example hll_set_reached : match zfeed 8 T8 (row 0 20 3 ++ row 250 4 3) with Some (HSet _ _ _ _ cnt) => cnt = 24 | _ => False end.
Proof. vm_compute. reflexivity. Qed.
Example hll_set_then_array : match zfeed 8 T8 (row 0 25 3) with Some (HArr T8 _) => True | _ => False end.
Proof. vm_compute. exact I. Qed.

(** C27: a run that satisfies the conditions: sources in all modes and types, a result in between. *)
Definition os1 : list uop :=
  [UItem (5, 1)%N; USketch 8 T8 (row 0 20 3); USketch 4 T4 (row 2 16 5); USketch 4 T6 (row 7 9 8); UResult T6; USketch 12 T6 (row 3 9 9); USketch 4 T8 (row 0 8 4)].
(** A computable form of the conditions. *)
Definition compatb (u : hunion Z) (o : uop) : bool :=
  match o with
  | UItem _ => true
  | USketch lgK t xs =>
    (4 <=? lgK)%N && (lgK <=? 21)%N && (negb (tgt_eqb t T4) || (8 * high_slots lgK xs <=? 3 * N.to_nat (2 ^ lgK))) &&
    (negb (over lgK (distinct xs)) || (lgK <=? u_max u)%N && match u_gadget u with HArr _ h => (lgK =? a_lgK h)%N | _ => true end)
  | UResult t => negb (tgt_eqb t T4)
  end.
Fixpoint all_compatb (u : hunion Z) (os : list uop) : bool :=
  match os with [] => true | o :: r => compatb u o && match ustep 0%Z zhip Z.of_nat u o with Some u' => all_compatb u' r | None => true end end.
Lemma all_compatb_ok : forall os u, all_compatb u os = true -> all_compatible 0%Z zhip Z.of_nat u os.
Proof.
  induction os as [|o os IH]; intros u H; cbn [all_compatible all_compatb] in *; auto. apply andb_prop in H. destruct H as [H1 H2]. split.
  - clear H2. destruct o as [x|lgK t xs|t]; cbn [compatb compatible] in *; auto.
    + apply andb_prop in H1. destruct H1 as [H1 H4]. apply andb_prop in H1. destruct H1 as [H1 H3]. apply andb_prop in H1. destruct H1 as [H1 H2].
      apply N.leb_le in H1, H2. split; auto. split.
      * apply orb_prop in H3. destruct H3 as [H3|H3]; [left; intros ->; discriminate|right; apply Nat.leb_le; auto].
      * rewrite <- over_array, <- distinct_dist. intros Ho. rewrite Ho in H4. cbn [negb orb] in H4. apply andb_prop in H4. destruct H4 as [H4 H5]. apply N.leb_le in H4. split; auto.
        intros Ha. destruct (u_gadget u); try contradiction. apply N.eqb_eq; auto.
    + intros ->. discriminate.
  - intros u' E. rewrite E in H2. auto.
Qed.
Example union_compatible : exists u0, un_new (F := Z) 10 = Some u0 /\ all_compatible 0%Z zhip Z.of_nat u0 os1.
Proof. eexists. split; [reflexivity|]. apply all_compatb_ok. vm_compute. reflexivity. Qed.
Example union_reached :
  match un_new 10 with
  | Some u0 => match zrun u0 os1 with Some u => match un_result 0%Z zhip u T4 with Some (_, HArr T4 h) => a_lgK h = 4%N /\ map (slot_value T4 h) [0; 5; 11] = [Some 5; Some 63; Some 9]%N | _ => False end | None => False end
  | None => False
  end.
Proof. vm_compute. auto. Qed.
Example union_same_k_reached : Forall (same_k 4) [USketch 4 T4 xs4; UItem (7, 7)%N; USketch 4 T6 (row 0 3 2); UResult T8; USketch 4 T8 (row 1 12 30)].
Proof.
  apply Forall_forall. intros o H. cbn [In] in H. repeat destruct H as [<-|H]; try contradiction; cbn [same_k].
  - split; auto. right. exact hll4_bound.
  - exact I.
  - split; auto. left. discriminate.
  - discriminate.
  - split; auto. left. discriminate.
Qed.

(** * Where the code does not do what its documentation says *)

(** An HLL_4 sketch can refuse an item: with lgK = 4 the seventh exception makes the auxiliary table grow to 16 = 2^lgK cells, and
    findAuxHashMap fails for a table of that size (aux_hash_map.go:198-200). The other types accept the same items. *)
Theorem hll4_update_error_refuted : exists xs, zfeed 4 T4 xs = None /\ zfeed 4 T6 xs <> None /\ zfeed 4 T8 xs <> None.
Proof. exists (row 0 9 20). vm_compute. repeat split; discriminate. Qed.

(** A union whose gadget is in array mode merges an array-mode source of smaller lgK slot by slot, as if the slots were
    the same: here an item of the source is missing from the result's register for it. *)
Theorem hll_union_smaller_lgK_refuted : exists lgMax u0 os u u' h x,
  un_new (F := Z) lgMax = Some u0 /\ zrun u0 os = Some u /\ un_result 0%Z zhip u T8 = Some (u', HArr T8 h) /\
  In x (all_items os) /\ slot_value T8 h (slot_of (a_lgK h) x) = Some 0%N.
Proof.
  exists 5%N. eexists. exists [USketch 5 T8 (row 0 8 3); USketch 4 T8 (row 16 16 3)]. eexists. eexists. eexists. exists (20, 2 ^ 61)%N.
  split; [reflexivity|]. split; [vm_compute; reflexivity|]. split; [vm_compute; reflexivity|]. split; [vm_compute; tauto|vm_compute; reflexivity].
Qed.

(** After a source of smaller lgK, a union refuses array-mode sketches of the larger lgK it was created for. *)
Theorem hll_union_larger_lgK_error_refuted : exists lgMax u0 a b,
  un_new (F := Z) lgMax = Some u0 /\ zrun u0 [a; b] = None /\ zrun u0 [a] <> None /\ zrun u0 [b] <> None.
Proof.
  exists 5%N. eexists. exists (USketch 4 T8 (row 0 8 3)), (USketch 5 T8 (row 0 8 3)). split; [reflexivity|].
  split; [vm_compute; reflexivity|]. split; vm_compute; discriminate.
Qed.

(** GetEstimate of a union after merging an array is computed from the sums before the merge: asking for the result
    first changes the answer. Composite estimate here: the sum of the inverse powers. *)
Theorem hll_union_stale_estimate_refuted : exists lgMax u0 os u u' s,
  un_new (F := Z) lgMax = Some u0 /\ zrun u0 os = Some u /\ un_result 0%Z zhip u T8 = Some (u', s) /\
  get_estimate Z.of_nat (fun _ z _ => z) (u_gadget u) <> get_estimate Z.of_nat (fun _ z _ => z) (u_gadget u').
Proof.
  exists 4%N. eexists. exists [USketch 4 T8 (row 0 8 3); USketch 4 T8 (row 8 8 3)]. eexists. eexists. eexists.
  split; [reflexivity|]. split; [vm_compute; reflexivity|]. split; [vm_compute; reflexivity|]. vm_compute. discriminate.
Qed.

(** Reset does not bring a union back to its initial state: the resolution stays at that of a smaller source. *)
Theorem hll_union_reset_refuted : exists lgMax u0 os u u',
  un_new (F := Z) lgMax = Some u0 /\ zrun u0 os = Some u /\ un_reset u = Some u' /\ u' <> u0 /\ st_lgK (u_gadget u') <> lgMax.
Proof.
  exists 5%N. eexists. exists [USketch 4 T8 (row 0 8 3)]. eexists. eexists. split; [reflexivity|]. split; [vm_compute; reflexivity|]. split; [vm_compute; reflexivity|].
  vm_compute. split; discriminate.
Qed.

(** * C26 *)
(** Writing one 6-bit register changes that register only, and stays inside the array, whatever is in it. *)
Theorem hll6_get_put b slot v : Forall (fun x => x < 256)%N b -> slot * 6 / 8 + 1 < length b -> (v < 64)%N ->
  exists b', put6 b slot v = Some b' /\ length b' = length b /\ Forall (fun x => x < 256)%N b' /\
    forall s, s * 6 / 8 + 1 < length b -> get6 b' s = if s =? slot then Some v else get6 b s.
Proof. intros Hb Hl Hv. destruct (put6_spec b slot v Hb Hl Hv) as (b' & E & L & B & G). exists b'. auto. Qed.
(** Every slot of a sketch's array qualifies: 3K/4 + 1 bytes. *)
Theorem hll6_slots_inside lgK slot : (4 <= lgK)%N -> slot < N.to_nat (2 ^ lgK) -> slot * 6 / 8 + 1 < 3 * N.to_nat (2 ^ lgK) / 4 + 1.
Proof. intros HK Hs. destruct (nslots_4 lgK HK) as (m & E & _). unfold nslots in E. rewrite E in *. lia. Qed.
Example hll6_case : match put6 [255; 0; 170; 3; 0]%N 1 42 with Some b => map (get6 b) [0; 1; 2; 3] = [Some 63; Some 42; Some 32; Some 42]%N | None => False end.
Proof. vm_compute. reflexivity. Qed.

Print Assumptions hll_sketch_exact.
Print Assumptions hll_order_and_type_free.
Print Assumptions hll_types_same_estimate.
Print Assumptions hll_copy_as.
Print Assumptions hll_union_exact.
Print Assumptions hll_union_same_lgK.
Print Assumptions hll6_get_put.
