(** * LIST, SET and HLL modes: what the sketch holds after any sequence of coupons. *)
From Verif Require Import Base ListX ProbeModel ProbeProofs Bytes Arr HllModel HllPack HllArrProofs.
Local Open Scope nat_scope.

(** ** Specification vocabulary *)
Definition vcoupon (c : N) : Prop := (1 <= cval c <= 63)%N.
(** The largest value among the coupons of cs that fall into slot i. *)
Fixpoint regs (lgK : N) (cs : list N) (i : nat) : N :=
  match cs with [] => 0%N | c :: r => if cslot lgK c =? i then N.max (cval c) (regs lgK r i) else regs lgK r i end.
Definition same (a b : list N) : Prop := forall c, In c a <-> In c b.
(** Number of distinct coupons. *)
Definition dist (cs : list N) : nat := length (nodup N.eq_dec cs).
(** n distinct coupons are more than the coupon modes can hold. *)
Definition over (lgK : N) (n : nat) : bool :=
  if (lgK <? 8)%N then 8 <=? n else (8 <=? n) && (3 * N.to_nat (2 ^ (lgK - 3)) <? 4 * n).

Fixpoint sumf (f : N -> Z) (r : nat -> N) (K : nat) : Z :=
  match K with O => 0%Z | S k => (sumf f r k + f (r k))%Z end.

(** ** Lists of coupons *)
Lemma regs_ge lgK cs c : In c cs -> (cval c <= regs lgK cs (cslot lgK c))%N.
Proof.
  induction cs as [|d cs IH]; cbn [regs]; intros []; [subst|].
  - rewrite Nat.eqb_refl. lia.
  - destruct (_ =? _); [specialize (IH H); lia|auto].
Qed.
Lemma regs_attained lgK cs i : regs lgK cs i = 0%N \/ exists c, In c cs /\ cslot lgK c = i /\ cval c = regs lgK cs i.
Proof.
  induction cs as [|d cs IH]; cbn [regs]; auto.
  destruct (Nat.eqb_spec (cslot lgK d) i) as [E|E].
  - destruct (N.max_spec (cval d) (regs lgK cs i)) as [[_ ->]|[_ ->]].
    + destruct IH as [|(c & A & B & C)]; auto. right. exists c. cbn. auto.
    + right. exists d. cbn. auto.
  - destruct IH as [|(c & A & B & C)]; auto. right. exists c. cbn. auto.
Qed.
Lemma regs_mono lgK a b i : (forall c, In c a -> In c b) -> (regs lgK a i <= regs lgK b i)%N.
Proof.
  intros H. destruct (regs_attained lgK a i) as [->|(c & A & <- & <-)]; [lia|]. apply regs_ge; auto.
Qed.
Lemma regs_same lgK a b i : same a b -> regs lgK a i = regs lgK b i.
Proof. intros H. apply N.le_antisymm; apply regs_mono; intros c; apply H. Qed.
Lemma regs_lt lgK cs i : Forall vcoupon cs -> (regs lgK cs i < 64)%N.
Proof.
  intros H. destruct (regs_attained lgK cs i) as [->|(c & A & _ & <-)]; [lia|].
  rewrite Forall_forall in H. specialize (H c A). unfold vcoupon in H. lia.
Qed.

Lemma dist_same ds cs : NoDup ds -> same ds cs -> length ds = dist cs.
Proof.
  intros Hn Hs. unfold dist. apply NoDup_same_length; auto; [apply NoDup_nodup|]. intros c. rewrite nodup_In. apply Hs.
Qed.
Lemma dist_mono a b : (forall c, In c a -> In c b) -> dist a <= dist b.
Proof.
  intros H. unfold dist. apply NoDup_incl_length; [apply NoDup_nodup|]. intros c. rewrite !nodup_In. apply H.
Qed.
Lemma dist_eq_same a b : same a b -> dist a = dist b.
Proof. intros H. apply Nat.le_antisymm; apply dist_mono; intros c; apply H. Qed.
Lemma over_mono lgK a b : a <= b -> over lgK a = true -> over lgK b = true.
Proof.
  unfold over. intros H. destruct (lgK <? 8)%N; [intros; lia|]. destruct (Nat.leb_spec 8 a), (Nat.ltb_spec (3 * N.to_nat (2 ^ (lgK - 3))) (4 * a)); try discriminate.
  intros _. destruct (Nat.leb_spec 8 b), (Nat.ltb_spec (3 * N.to_nat (2 ^ (lgK - 3))) (4 * b)); auto; lia.
Qed.
Lemma vcoupon_pos c : vcoupon c -> c <> 0%N.
Proof. intros H ->. unfold vcoupon, cval in H. change (0 / 2 ^ 26)%N with 0%N in H. lia. Qed.

(** The coupon made from a 128-bit hash is always valid (and fits 32 bits). *)
Lemma coupon_valid lo hi : vcoupon (coupon lo hi).
Proof.
  unfold vcoupon, cval, coupon. rewrite N.add_comm, N.div_add, N.div_small by (try apply N.mod_lt; discriminate). lia.
Qed.

(** ** Sums over the registers *)
Lemma sumf_ext f r r' K : (forall i, i < K -> r i = r' i) -> sumf f r K = sumf f r' K.
Proof. induction K; intros H; cbn [sumf]; auto. rewrite IHK by (intros; apply H; lia). rewrite H by lia. auto. Qed.
Lemma sumf_rmax f r s v K : s < K -> (r s < v)%N -> sumf f (rmax r s v) K = (sumf f r K - f (r s) + f v)%Z.
Proof.
  intros Hs Hv. induction K; [lia|]. cbn [sumf]. destruct (Nat.eq_dec s K) as [->|].
  - rewrite rmax_at by auto. rewrite (sumf_ext f (rmax r K v) r) by (intros; apply rmax_other; lia). lia.
  - rewrite (rmax_other r s v K) by auto. rewrite IHK by lia. lia.
Qed.

Lemma upd_app_at {A} (l r : list A) x y : upd (length l) x (l ++ y :: r) = l ++ x :: r.
Proof. induction l; cbn; [auto|]. f_equal. auto. Qed.
Lemma NoDup_snoc {A} (l : list A) x : NoDup l -> ~ In x l -> NoDup (l ++ [x]).
Proof. intros H Hn. apply (Permutation_NoDup (Permutation_cons_append l x)). constructor; auto. Qed.

Section ModeProofs.
  Context {F : Type}.
  Variable fzero : F.
  Variable hip_add : N -> Z -> Z -> F -> F.
  Variable coupon_est : nat -> F.
  Notation harr := (harr F).
  Notation hstate := (hstate F).
  Implicit Types h : harr.
  Implicit Types s : hstate.

  (** Number of empty registers as the estimators see it. *)
  Definition unhit h : nat := if (a_curMin h =? 0)%N then a_num h else 0.
  Definition kx h (r : nat -> N) : Prop := a_kxq0 h = sumf inv0 r (KK h) /\ a_kxq1 h = sumf inv1 r (KK h).
  Definition hits t h (r : nat -> N) : Prop := t <> T4 -> unhit h = count 0 r (KK h).

  Lemma hits_all t d h r : ainv t d h r -> hits t h r -> unhit h = count 0 r (KK h).
  Proof. try clear fzero; try clear coupon_est; try clear hip_add; try clear F.
    intros (HK & H) Hh. destruct t; [|apply Hh; discriminate|apply Hh; discriminate].
    destruct H as ((_ & _ & Hr & _) & Hn & _). unfold unhit. destruct (N.eqb_spec (a_curMin h) 0) as [E|E].
    - rewrite Hn, E. auto.
    - symmetry. apply cnt_zero. intros i Hi. specialize (Hr i Hi). lia.
  Qed.

  Lemma est_step_lgK h h' o v : est_step hip_add h h' o v -> a_lgK h' = a_lgK h.
  Proof. try clear fzero; try clear coupon_est; try clear hip_add; try clear F. unfold est_step, est_of. destruct (o <? v)%N; intros E; inversion E; auto. Qed.
  Lemma est_step_flags h h' o v : est_step hip_add h h' o v -> a_ooo h' = a_ooo h /\ a_rebuild h' = a_rebuild h.
  Proof. try clear fzero; try clear coupon_est; try clear hip_add; try clear F. unfold est_step, est_of. destruct (o <? v)%N; intros E; inversion E; auto. Qed.

  Lemma kx_step h h' r slot v : slot < KK h -> kx h r -> est_step hip_add h h' (r slot) v -> kx h' (rmax r slot v).
  Proof. try clear fzero; try clear coupon_est; try clear hip_add; try clear F.
    intros Hs (A & B) E. pose proof (est_step_lgK _ _ _ _ E) as EK. unfold kx, KK in *. rewrite EK. unfold est_step, est_of in E.
    destruct (N.ltb_spec (r slot) v) as [Hl|Hl].
    - inversion E as [[E1 E2 E3 E4 E5 E6]]. rewrite E5, E6, EK, !sumf_rmax by auto. lia.
    - inversion E as [[E1 E2 E3 E4 E5 E6]]. rewrite E5, E6, A, B, EK. split; apply sumf_ext; intros; symmetry; apply rmax_same; auto.
  Qed.

  Lemma cslot_lt h c : cslot (a_lgK h) c < KK h.
  Proof. try clear fzero; try clear coupon_est; try clear hip_add; try clear F. pose proof (slot_lt h c) as A. rewrite land_mask_mod in A. exact A. Qed.

  Lemma num_rel t d h r : ainv t d h r -> t <> T4 -> a_num h = count 0 r (KK h) + d.
  Proof. try clear fzero; try clear coupon_est; try clear hip_add; try clear F. intros (_ & H) Ht. destruct t; [congruence| |]; apply H. Qed.

  Lemma count0_rmax_le r (s : nat) v K : count 0 (rmax r s v) K <= count 0 r K.
  Proof. try clear fzero; try clear coupon_est; try clear hip_add; try clear F.
    apply cnt_le. intros i _. unfold rmax. destruct (i =? s); [|auto]. intros Hi. apply N.eqb_eq in Hi. apply N.eqb_eq. lia.
  Qed.

  Lemma hits_step t d h h' r c : ainv t d h r -> hits t h r ->
    ainv t d h' (rmax r (cslot (a_lgK h) c) (cval c)) -> a_lgK h' = a_lgK h -> (t <> T4 -> a_curMin h' = a_curMin h) ->
    hits t h' (rmax r (cslot (a_lgK h) c) (cval c)).
  Proof. try clear fzero; try clear coupon_est; try clear hip_add; try clear F.
    intros Hi Hh Hi' EK Hm Ht. specialize (Hh Ht). specialize (Hm Ht). pose proof (num_rel _ _ _ _ Hi Ht) as A. pose proof (num_rel _ _ _ _ Hi' Ht) as B.
    pose proof (count0_rmax_le r (cslot (a_lgK h) c) (cval c) (KK h)).
    assert (EKK : KK h' = KK h) by (unfold KK; rewrite EK; auto). unfold unhit in *. rewrite Hm. rewrite EKK in *. destruct (N.eqb_spec (a_curMin h) 0); lia.
  Qed.

  (** What one update of an array does, in all its observable parts. *)
  Definition hipstep h (r : nat -> N) (c : N) : F :=
    if (r (cslot (a_lgK h) c) <? cval c)%N then hip_add (a_lgK h) (a_kxq0 h) (a_kxq1 h) (a_hip h) else a_hip h.

  Lemma arr_step t d h r c : ainv t d h r -> vcoupon c -> forall h', arr_update hip_add t h c = Some h' ->
    let r' := rmax r (cslot (a_lgK h) c) (cval c) in
    ainv t d h' r' /\ (kx h r -> kx h' r') /\ (hits t h r -> hits t h' r') /\ a_lgK h' = a_lgK h /\ a_ooo h' = a_ooo h /\ a_rebuild h' = a_rebuild h /\
    a_hip h' = hipstep h r c.
  Proof. try clear fzero; try clear coupon_est; try clear hip_add; try clear F.
    intros Hi Hv h' E. cbv zeta. destruct (arr_update_spec hip_add t d h r c Hi ltac:(unfold vcoupon in Hv; lia)) as [_ B].
    destruct (B h' E) as (I & S & M). pose proof (est_step_lgK _ _ _ _ S) as EK. destruct (est_step_flags _ _ _ _ S) as (E1 & E2).
    split; auto. split; [intros Hk; eapply kx_step; eauto; apply cslot_lt|]. split; [intros; eapply hits_step; eauto|].
    split; auto. split; auto. split; auto. unfold est_step, est_of in S. unfold hipstep. destruct (_ <? _)%N; inversion S; auto.
  Qed.

  Lemma regs_cons lgK c cs i : regs lgK (c :: cs) i = rmax (regs lgK cs) (cslot lgK c) (cval c) i.
  Proof. try clear fzero; try clear coupon_est; try clear hip_add; try clear F. cbn [regs]. unfold rmax. rewrite (Nat.eqb_sym i). destruct (_ =? _); auto. apply N.max_comm. Qed.

  Lemma arr_all t d lgK : forall cs h ps, Forall vcoupon cs -> a_lgK h = lgK -> ainv t d h (regs lgK ps) -> kx h (regs lgK ps) -> hits t h (regs lgK ps) ->
    ((t = T4 -> 8 * exc 0 (regs lgK (rev cs ++ ps)) (nslots lgK) <= 3 * nslots lgK) -> exists h', arr_update_all hip_add t h cs = Some h') /\
    forall h', arr_update_all hip_add t h cs = Some h' ->
      ainv t d h' (regs lgK (rev cs ++ ps)) /\ kx h' (regs lgK (rev cs ++ ps)) /\ hits t h' (regs lgK (rev cs ++ ps)) /\
      a_lgK h' = lgK /\ a_ooo h' = a_ooo h /\ a_rebuild h' = a_rebuild h.
  Proof. try clear fzero; try clear coupon_est; try clear hip_add; try clear F.
    induction cs as [|c cs IH]; intros h ps Hv EK Hi Hk Hh; cbn [arr_update_all].
    - cbn [rev app]. split; eauto. intros h' E. inversion E; subst. repeat (split; auto).
    - inversion Hv as [|? ? Hc Hcs]; subst x l.
      assert (Hrev : rev (c :: cs) ++ ps = rev cs ++ c :: ps) by (cbn [rev]; rewrite <- app_assoc; auto). rewrite Hrev. clear Hrev.
      assert (Hstep : forall h1, arr_update hip_add t h c = Some h1 ->
         ainv t d h1 (regs lgK (c :: ps)) /\ kx h1 (regs lgK (c :: ps)) /\ hits t h1 (regs lgK (c :: ps)) /\ a_lgK h1 = lgK /\ a_ooo h1 = a_ooo h /\ a_rebuild h1 = a_rebuild h).
      { intros h1 E1. destruct (arr_step t d h _ c Hi Hc h1 E1) as (A1 & A2 & A3 & A4 & A5 & A6 & _). rewrite EK in *.
        assert (Ex : forall i, i < KK h1 -> rmax (regs lgK ps) (cslot lgK c) (cval c) i = regs lgK (c :: ps) i) by (intros; symmetry; apply regs_cons).
        split; [eapply ainv_ext; eauto|]. split.
        - destruct (A2 Hk) as (B1 & B2). split; [rewrite B1|rewrite B2]; apply sumf_ext; auto.
        - split; [|auto]. intros Ht. rewrite (A3 Hh Ht). apply count_ext; auto. }
      destruct (arr_update_spec hip_add t d h (regs lgK ps) c Hi ltac:(unfold vcoupon in Hc; lia)) as [Hex _].
      split.
      + intros Hcap. destruct Hex as (h1 & E1).
        { intros ->. specialize (Hcap eq_refl). rewrite EK. eapply Nat.le_trans; [|unfold KK; rewrite EK; exact Hcap]. apply Nat.mul_le_mono_l. unfold exc, KK. rewrite EK. apply cnt_le.
          intros i _ Hle. rewrite <- regs_cons in Hle. pose proof (regs_mono lgK (c :: ps) (rev cs ++ c :: ps) i ltac:(intros; apply in_or_app; auto)). lia. }
        rewrite E1. cbn [bindo]. destruct (Hstep h1 E1) as (A1 & A2 & A3 & A4 & _). apply (IH h1 (c :: ps)); auto.
      + intros h' E. destruct (arr_update hip_add t h c) as [h1|] eqn:E1; cbn [bindo] in E; [|discriminate].
        destruct (Hstep h1 eq_refl) as (A1 & A2 & A3 & A4 & A5 & A6).
        destruct (proj2 (IH h1 (c :: ps) Hcs A4 A1 A2 A3) h' E) as (B1 & B2 & B3 & B4 & B5 & B6). repeat (split; auto); congruence.
  Qed.

  (** ** Coupon hash set *)
  Definition ckey (c : N) : option N := if (c =? 0)%N then None else Some c.
  Definition cstart (lg : N) (c : N) : N := N.land c (2 ^ lg - 1).
  Definition cstride (lg : N) (c : N) : N := N.lor (N.shiftr (N.land c (2 ^ 26 - 1)) lg) 1.
  Definition ctable (lg : N) (arr : list N) : Prop := table_ok ckey lg (cstart lg) (cstride lg) arr.
  Definition nz (arr : list N) : list N := filter (fun c => negb (c =? 0)%N) arr.

  Lemma nz_contents arr : contents ckey arr = nz arr.
  Proof. try clear fzero; try clear coupon_est; try clear hip_add; try clear F. unfold contents, nz. apply filter_ext. intros c. unfold isocc, isfree, ckey. destruct (c =? 0)%N; auto. Qed.
  Lemma nz_In arr c : In c (nz arr) <-> In c arr /\ c <> 0%N.
  Proof. try clear fzero; try clear coupon_est; try clear hip_add; try clear F. unfold nz. rewrite filter_In, negb_true_iff, N.eqb_neq. tauto. Qed.
  Lemma nz_NoDup lg arr : ctable lg arr -> NoDup (nz arr).
  Proof. try clear fzero; try clear coupon_est; try clear hip_add; try clear F. intros H. rewrite <- nz_contents. apply NoDup_map_inv with (f := ckey). apply uniq_NoDup. apply H. Qed.

  Lemma find_coupon_spec lg arr c : c <> 0%N -> ctable lg arr -> length (nz arr) < N.to_nat (2 ^ lg) ->
    (exists i, find_coupon arr lg c = Some (inl i) /\ In c (nz arr)) \/
    (exists i, find_coupon arr lg c = Some (inr i) /\ ~ In c (nz arr) /\ ctable lg (upd i c arr) /\ Permutation (nz (upd i c arr)) (c :: nz arr)).
  Proof. try clear fzero; try clear coupon_est; try clear hip_add; try clear F.
    intros Hc Ht Hroom.
    assert (Hl : length arr = N.to_nat (2 ^ lg)) by apply Ht.
    assert (Hfree := free_slot ckey lg arr Hl ltac:(rewrite nz_contents; auto)).
    assert (Hkc : ckey c = Some c) by (unfold ckey; destruct (N.eqb_spec c 0); [contradiction|auto]).
    assert (E : find_coupon arr lg c = match probe_loop (S (length arr)) arr (ktest ckey c) (2 ^ lg - 1) (cstride lg c) (cstart lg c) (cstart lg c) with
        | PFound i => Some (inl i) | PEmpty i => Some (inr i) | _ => None end).
    { unfold find_coupon. cbv zeta. replace (N.of_nat (length arr - 1)) with (2 ^ lg - 1)%N by (rewrite Hl; pose proof (pow2_pos_N lg); lia).
      fold (cstride lg c) (cstart lg c). rewrite (probe_loop_ext arr (coupon_test c) (ktest ckey c)); auto.
      intros a. unfold coupon_test, ktest, ckey. destruct (a =? 0)%N; auto. rewrite N.eqb_sym. auto. }
    rewrite E. clear E.
    assert (Hodd : forall k, N.odd (cstride lg k) = true) by (intros; apply lor1_odd).
    assert (Hlt : forall k, (cstart lg k < 2 ^ lg)%N) by (intros; unfold cstart; rewrite land_mask_mod; apply N.mod_lt, N.pow_nonzero; lia).
    destruct (probe_loop_spec ckey lg (cstart lg) (cstride lg) Hodd Hlt arr c (S (length arr)) Ht Hfree ltac:(lia))
      as [(i & a & E & Ha & Hk)|(i & a & j1 & E & Ha & Hk & Hj & Hs & Hocc & Hno)]; rewrite E.
    - left. exists i. split; auto. apply nz_In. split; auto. unfold ckey in Hk. destruct (a =? 0)%N; [discriminate|]. inversion Hk; subst a. eapply nth_error_In; eauto.
    - right. exists i. split; auto. split.
      + intros Hin. apply nz_In in Hin. apply (Hno c); tauto.
      + split; [eapply insert_ok; eauto|]. rewrite <- !nz_contents. eapply contents_insert; eauto. unfold isocc, isfree. rewrite Hkc. auto.
  Qed.

  Lemma grow_set_spec lg : forall old arr, NoDup (nz old) -> (forall c, In c (nz old) -> ~ In c (nz arr)) ->
    ctable lg arr -> length (nz old) + length (nz arr) < N.to_nat (2 ^ lg) ->
    exists arr', grow_set old arr lg = Some arr' /\ ctable lg arr' /\ Permutation (nz arr') (nz old ++ nz arr).
  Proof. try clear fzero; try clear coupon_est; try clear hip_add; try clear F.
    induction old as [|c old IH]; intros arr Hnd Hdis Ht Hroom; cbn [grow_set].
    - exists arr. auto.
    - cbn [nz filter] in *. fold (nz old) in *. fold (nz arr) in *. destruct (N.eqb_spec c 0) as [E0|Hc0]; cbn [negb] in *.
      + apply IH; auto.
      + cbn [length] in Hroom. inversion Hnd as [|? ? Hn Hnd']; subst.
        destruct (find_coupon_spec lg arr c Hc0 Ht) as [(i & E & Hin)|(i & E & Hni & Ht' & P)]; [lia| |].
        { exfalso. apply (Hdis c); auto. left; auto. }
        rewrite E. cbn [bindo]. destruct (IH (upd i c arr)) as (arr' & E' & Ht2 & P2); auto.
        * intros d Hd Hin. apply (Permutation_in _ P) in Hin. destruct Hin as [->|Hin]; [contradiction|]. apply (Hdis d); auto. right; auto.
        * rewrite P. cbn [length]. lia.
        * exists arr'. split; auto. split; auto. rewrite P2, P. cbn [app]. symmetry. apply Permutation_middle.
  Qed.

  Definition swf (lgK lgArr : N) (arr : list N) (cnt : nat) : Prop :=
    (8 <= lgK <= 21)%N /\ (5 <= lgArr <= lgK - 3)%N /\ ctable lgArr arr /\ cnt = length (nz arr) /\ 4 * cnt <= 3 * nslots lgArr.

  Lemma nslots_mono a b : (a <= b)%N -> nslots a <= nslots b.
  Proof. try clear fzero; try clear coupon_est; try clear hip_add; try clear F. intros H. unfold nslots. pose proof (N.pow_le_mono_r 2 a b ltac:(lia) H). lia. Qed.

  Lemma set_add_spec lgK lgArr arr cnt c : swf lgK lgArr arr cnt -> c <> 0%N ->
    exists lgArr' arr' cnt' p, set_add lgK lgArr arr cnt c = Some (lgArr', arr', cnt', p) /\
      same (nz arr') (c :: nz arr) /\ NoDup (nz arr') /\ cnt' = length (nz arr') /\
      (p = false -> swf lgK lgArr' arr' cnt') /\ p = (3 * nslots (lgK - 3) <? 4 * cnt') /\ cnt <= cnt' /\
      (4 * (cnt + 1) <= 3 * nslots lgArr -> lgArr' = lgArr /\ p = false).
  Proof. try clear fzero; try clear coupon_est; try clear hip_add; try clear F.
    intros (HK & Hlg & Ht & Hcnt & Hcap) Hc. unfold set_add.
    assert (Hpos : 0 < nslots lgArr) by (unfold nslots; pose proof (pow2_pos_N lgArr); lia).
    pose proof (nslots_mono lgArr (lgK - 3) ltac:(lia)) as Hm.
    destruct (find_coupon_spec lgArr arr c Hc Ht) as [(i & E & Hin)|(i & E & Hni & Ht' & P)]; [unfold nslots in *; lia| |]; rewrite E; cbn [bindo].
    - exists lgArr, arr, cnt, false. split; auto. split.
      { intros d. cbn [In]. split; auto. intros [<-|]; auto. }
      split; [eapply nz_NoDup; eauto|]. split; auto. split; [intros _; repeat (split; auto)|]. split; [|auto].
      symmetry. apply Nat.ltb_ge. lia.
    - cbv zeta. assert (Hlen : cnt + 1 = length (nz (upd i c arr))) by (rewrite P; cbn [length]; lia).
      assert (Hsame : same (nz (upd i c arr)) (c :: nz arr)).
      { intros d. split; intros Hd; [apply (Permutation_in _ P) in Hd|apply (Permutation_in _ (Permutation_sym P)) in Hd]; auto. }
      pose proof (nz_NoDup _ _ Ht') as Hnd.
      destruct (Nat.leb_spec (4 * (cnt + 1)) (3 * nslots lgArr)) as [Hle|Hgt].
      + exists lgArr, (upd i c arr), (cnt + 1), false. split; auto. split; auto. split; auto. split; auto. split; [intros _; repeat (split; auto)|].
        split; [symmetry; apply Nat.ltb_ge; lia|]. split; [lia|auto].
      + destruct (N.eqb_spec lgArr (lgK - 3)) as [El|El].
        * exists lgArr, (upd i c arr), (cnt + 1), true. split; auto. split; auto. split; auto. split; auto. split; [discriminate|].
          split; [symmetry; apply Nat.ltb_lt; rewrite <- El; auto|]. split; [lia|]. lia.
        * assert (E2 : nslots (lgArr + 1) = 2 * nslots lgArr) by apply pow_succ_nat.
          assert (Hnz0 : nz (repeat 0%N (nslots (lgArr + 1))) = []) by (rewrite <- nz_contents; apply contents_free; reflexivity).
          destruct (grow_set_spec (lgArr + 1) (upd i c arr) (repeat 0%N (nslots (lgArr + 1)))) as (arr' & E' & Ht2 & P2); auto.
          -- intros d _. rewrite Hnz0. auto.
          -- apply table_ok_free. reflexivity.
          -- rewrite Hnz0, <- Hlen. cbn [length]. fold (nslots (lgArr + 1)). lia.
          -- rewrite E'. cbn [bindo]. rewrite Hnz0, app_nil_r in P2. exists (lgArr + 1)%N, arr', (cnt + 1), false.
             split; auto. split.
             { intros d. rewrite <- (Hsame d). split; intros Hd; [apply (Permutation_in _ P2) in Hd|apply (Permutation_in _ (Permutation_sym P2)) in Hd]; auto. }
             split; [eapply nz_NoDup; eauto|]. split; [rewrite P2; auto|].
             pose proof (nslots_mono (lgArr + 1) (lgK - 3) ltac:(lia)).
             split; [intros _; split; [auto|]; split; [lia|]; split; [auto|]; split; [rewrite P2; auto|lia]|]. split; [symmetry; apply Nat.ltb_ge; lia|]. split; [lia|]. lia.
  Qed.

  Lemma list_to_set_spec lgK : forall cs arr cnt, swf lgK 5 arr cnt -> Forall (fun c => c <> 0%N) cs -> 4 * (cnt + length cs) <= 96 ->
    exists arr' cnt', list_to_set lgK cs 5 arr cnt = Some (5%N, arr', cnt') /\ swf lgK 5 arr' cnt' /\ same (nz arr') (cs ++ nz arr).
  Proof. try clear fzero; try clear coupon_est; try clear hip_add; try clear F.
    induction cs as [|c cs IH]; intros arr cnt Hw Hcs Hcap; cbn [list_to_set].
    - exists arr, cnt. split; auto. split; auto. intros c. reflexivity.
    - inversion Hcs as [|? ? Hc Hcs']; subst. cbn [length] in Hcap. change 96 with (3 * nslots 5) in Hcap.
      destruct (set_add_spec lgK 5 arr cnt c Hw Hc) as (lg' & arr' & cnt' & p & E & Hs & Hnd & Hl & Hw' & _ & _ & Hno).
      destruct (Hno ltac:(lia)) as (-> & ->). specialize (Hw' eq_refl). rewrite E. cbn [bindo].
      assert (cnt' <= cnt + 1).
      { rewrite Hl. destruct Hw as (_ & _ & Ht & -> & _). replace (length (nz arr) + 1) with (length (c :: nz arr)) by (cbn [length]; lia).
        apply NoDup_incl_length; auto. intros d Hd. apply Hs; auto. }
      destruct (IH arr' cnt' Hw' Hcs') as (a2 & n2 & E2 & W2 & S2). { change 96 with (3 * nslots 5). lia. }
      exists a2, n2. split; auto. split; auto. intros d. rewrite (S2 d), !in_app_iff, (Hs d). cbn [In]. tauto.
  Qed.

  (** ** The coupon list *)
  Lemma list_find_spec c : forall ds n i pre, Forall (fun d => d <> 0%N) ds -> length ds < n -> length pre = i -> c <> 0%N ->
    forall post, (exists p, post = 0%N :: p) ->
    list_find n i (pre ++ ds ++ post) c = Some (if existsb (N.eqb c) ds then inr tt else inl (i + length ds)).
  Proof. try clear fzero; try clear coupon_est; try clear hip_add; try clear F.
    induction ds as [|d ds IH]; intros n i pre Hz Hn Hi Hc post (p & ->); (destruct n as [|n]; [cbn [length] in Hn; lia|]); cbn [list_find existsb length].
    - rewrite nth_error_app2, Hi, Nat.sub_diag by lia. cbn [app nth_error bindo N.eqb]. rewrite Nat.add_0_r. auto.
    - inversion Hz as [|? ? Hd Hz']; subst. rewrite nth_error_app2, Nat.sub_diag by lia. cbn [app nth_error bindo].
      destruct (N.eqb_spec d 0); [contradiction|]. rewrite (N.eqb_sym c d). destruct (N.eqb_spec d c); cbn [orb]; auto.
      cbn [length] in Hn. replace (pre ++ d :: ds ++ 0%N :: p) with ((pre ++ [d]) ++ ds ++ 0%N :: p) by (rewrite <- app_assoc; reflexivity).
      rewrite (IH n (S (length pre)) (pre ++ [d])); auto; [|lia|rewrite app_length; cbn; lia|eauto]. destruct (existsb (N.eqb c) ds); auto. f_equal. f_equal. lia.
  Qed.

  Definition lwf (ds : list N) (arr : list N) (cnt : nat) : Prop :=
    NoDup ds /\ Forall (fun c => c <> 0%N) ds /\ arr = ds ++ repeat 0%N (8 - length ds) /\ cnt = length ds /\ length ds < 8.

  Lemma existsb_In c ds : existsb (N.eqb c) ds = true <-> In c ds.
  Proof. try clear fzero; try clear coupon_est; try clear hip_add; try clear F. rewrite existsb_exists. split; [intros (x & A & B); apply N.eqb_eq in B; subst; auto|]. intros H. exists c. split; auto. apply N.eqb_refl. Qed.

  Lemma nz_app_zeros ds n : Forall (fun c => c <> 0%N) ds -> nz (ds ++ repeat 0%N n) = ds.
  Proof. try clear fzero; try clear coupon_est; try clear hip_add; try clear F.
    intros H. induction ds as [|d ds IH]; cbn [app].
    - induction n; cbn; auto.
    - inversion H; subst. cbn [nz filter]. destruct (N.eqb_spec d 0); [contradiction|]. cbn [negb]. f_equal. apply IH. auto.
  Qed.

  (** ** States that hold exactly a set of coupons, and HLL states *)
  Definition cst (lgK : N) (t : tgt) s (cs : list N) : Prop :=
    (4 <= lgK <= 21)%N /\ Forall vcoupon cs /\ over lgK (dist cs) = false /\
    match s with
    | HList lgK' t' arr cnt => lgK' = lgK /\ t' = t /\ dist cs < 8 /\ exists ds, lwf ds arr cnt /\ same ds cs
    | HSet lgK' t' lgArr arr cnt => lgK' = lgK /\ t' = t /\ 8 <= dist cs /\ swf lgK lgArr arr cnt /\ same (nz arr) cs
    | HArr _ _ => False
    end.
  (** An HLL array just made from cs: exact registers and estimator sums, and the coupon estimate as HIP accumulator. *)
  Definition fresh (lgK : N) (t : tgt) h (cs : list N) : Prop :=
    a_lgK h = lgK /\ ainv t 0 h (regs lgK cs) /\ kx h (regs lgK cs) /\ hits t h (regs lgK cs) /\
    a_ooo h = false /\ a_rebuild h = false /\ a_hip h = coupon_est (dist cs).
  Definition fits4 (lgK : N) (t : tgt) (cs : list N) : Prop := t = T4 -> 8 * exc 0 (regs lgK cs) (nslots lgK) <= 3 * nslots lgK.

  Lemma kx_new lgK t : kx (arr_new fzero lgK t) (fun _ => 0%N).
  Proof. try clear fzero; try clear coupon_est; try clear hip_add; try clear F.
    unfold kx. change (KK _) with (nslots lgK). cbn [arr_new a_kxq0 a_kxq1]. unfold nslots.
    assert (A : forall n, sumf inv0 (fun _ => 0%N) n = (Z.of_nat n * 2 ^ 31)%Z) by (induction n; cbn [sumf]; [auto|rewrite IHn; change (inv0 0) with (2 ^ 31)%Z; lia]).
    assert (B : forall n, sumf inv1 (fun _ => 0%N) n = 0%Z) by (induction n; cbn [sumf]; [auto|rewrite IHn; reflexivity]).
    rewrite A, B. split; auto. f_equal. lia.
  Qed.
  Lemma hits_new lgK t : hits t (arr_new fzero lgK t) (fun _ => 0%N).
  Proof. try clear fzero; try clear coupon_est; try clear hip_add; try clear F. intros _. change (nslots lgK = count 0 (fun _ => 0%N) (nslots lgK)). symmetry. apply count_const. Qed.

  Lemma promote_hll_spec lgK t arr cnt cs : (4 <= lgK <= 21)%N -> Forall vcoupon (nz arr) -> same (nz arr) cs -> cnt = dist cs ->
    (fits4 lgK t cs -> exists s', promote_hll fzero hip_add coupon_est lgK t arr cnt = Some s') /\
    forall s', promote_hll fzero hip_add coupon_est lgK t arr cnt = Some s' -> exists h, s' = HArr t h /\ fresh lgK t h cs.
  Proof. try clear fzero; try clear coupon_est; try clear hip_add; try clear F.
    intros HK Hv Hs Hc. unfold promote_hll. cbv zeta. fold (nz arr).
    set (h0 := set_est (arr_new fzero lgK t) _ _ _).
    assert (E0 : h0 = arr_new fzero lgK t) by reflexivity. rewrite E0. clear h0 E0.
    assert (Hsame : forall i, regs lgK (rev (nz arr) ++ []) i = regs lgK cs i).
    { intros i. apply regs_same. intros c. rewrite app_nil_r, <- in_rev. apply Hs. }
    destruct (arr_all t 0 lgK (nz arr) (arr_new fzero lgK t) [] Hv eq_refl (arr_new_inv fzero lgK t HK) (kx_new lgK t) (hits_new lgK t)) as [A B].
    split.
    - intros Hf. destruct A as (h & E).
      { intros ->. specialize (Hf eq_refl). rewrite (exc_ext 0 _ (regs lgK cs)); auto. }
      rewrite E. cbn [bindo]. eauto.
    - intros s' E. destruct (arr_update_all hip_add t (arr_new fzero lgK t) (nz arr)) as [h|] eqn:Eh; cbn [bindo] in E; [|discriminate].
      inversion E; subst s'. destruct (B h eq_refl) as (B1 & B2 & B3 & B4 & B5 & B6). eexists. split; [reflexivity|]. 
      assert (Hext : forall i, i < KK h -> regs lgK (rev (nz arr) ++ []) i = regs lgK cs i) by auto.
      split; [exact B4|]. split.
      { pose proof (ainv_ext t 0 h _ _ Hext B1) as C. exact C. }
      split.
      { destruct B2 as (C1 & C2). split.
        - change (a_kxq0 h = sumf inv0 (regs lgK cs) (KK h)). rewrite C1. apply sumf_ext; auto.
        - change (a_kxq1 h = sumf inv1 (regs lgK cs) (KK h)). rewrite C2. apply sumf_ext; auto. }
      split.
      { intros Ht. change (unhit h = count 0 (regs lgK cs) (KK h)). rewrite (B3 Ht). apply count_ext; auto. }
      split; [reflexivity|]. split; [exact B6|]. rewrite <- Hc. reflexivity.
  Qed.

  Lemma Forall_same (P : N -> Prop) a b : same a b -> Forall P b -> Forall P a.
  Proof. try clear fzero; try clear coupon_est; try clear hip_add; try clear F. rewrite !Forall_forall. intros H Hb c Hc. apply Hb. apply H. auto. Qed.

  (** One coupon into a coupon-mode state. *)
  Lemma coupon_step lgK t s cs c : cst lgK t s cs -> vcoupon c ->
    (over lgK (dist (c :: cs)) = false -> exists s', st_update fzero hip_add coupon_est s c = Some s') /\
    (fits4 lgK t (c :: cs) -> exists s', st_update fzero hip_add coupon_est s c = Some s') /\
    forall s', st_update fzero hip_add coupon_est s c = Some s' ->
      if over lgK (dist (c :: cs)) then exists h, s' = HArr t h /\ fresh lgK t h (c :: cs) else cst lgK t s' (c :: cs).
  Proof. try clear fzero; try clear coupon_est; try clear hip_add; try clear F.
    intros (HK & Hv & Hno & Hs) Hc. pose proof (vcoupon_pos _ Hc) as Hc0.
    assert (Hv' : Forall vcoupon (c :: cs)) by (constructor; auto).
    destruct s as [lgK' t' arr cnt|lgK' t' lgArr arr cnt|]; [| |contradiction]; cbn [st_update].
    - destruct Hs as (-> & -> & Hd8 & ds & (Hnd & Hz & Earr & Ecnt & Hlt) & Hsame). unfold list_add.
      rewrite Earr. pose proof (list_find_spec c ds 8 0 [] Hz Hlt eq_refl Hc0 (repeat 0%N (8 - length ds))) as E. cbn [app] in E. rewrite E; clear E.
      2:{ destruct (8 - length ds) eqn:E8; [lia|]. cbn [repeat]. eauto. }
      destruct (existsb (N.eqb c) ds) eqn:Eex; cbn [bindo].
      + apply existsb_In in Eex. assert (Hs2 : same cs (c :: cs)). { intros d. cbn [In]. split; auto. intros [<-|]; auto. apply Hsame; auto. }
        rewrite <- (dist_eq_same _ _ Hs2), Hno. split; [eauto|]. split; [eauto|]. intros s' E. inversion E; subst s'. split; auto. split; auto.
        rewrite <- (dist_eq_same _ _ Hs2). split; auto. split; auto. split; auto. split; auto. exists ds. split; [split; auto|]. intros d. rewrite <- (Hs2 d). apply Hsame.
      + assert (Hni : ~ In c ds) by (intros Hi; apply existsb_In in Hi; congruence). cbv zeta. cbn [plus].
        assert (Eupd : upd (length ds) c (ds ++ repeat 0%N (8 - length ds)) = (ds ++ [c]) ++ repeat 0%N (8 - length (ds ++ [c]))).
        { replace (8 - length ds) with (S (7 - length ds)) by lia. cbn [repeat]. rewrite app_length. cbn [length].
          replace (8 - (length ds + 1)) with (7 - length ds) by lia. rewrite upd_app_at, <- app_assoc. reflexivity. }
        rewrite Eupd.
        assert (Hnd' : NoDup (ds ++ [c])). { apply NoDup_snoc; auto. }
        assert (Hsame' : same (ds ++ [c]) (c :: cs)). { intros d. rewrite in_app_iff. cbn [In]. rewrite (Hsame d). tauto. }
        assert (Hz' : Forall (fun c => c <> 0%N) (ds ++ [c])) by (apply Forall_app; auto).
        assert (Hlen' : length (ds ++ [c]) = dist (c :: cs)) by (apply dist_same; auto).
        assert (Ecnt' : cnt + 1 = dist (c :: cs)) by (rewrite <- Hlen', app_length; cbn [length]; lia).
        assert (Hnz : nz ((ds ++ [c]) ++ repeat 0%N (8 - length (ds ++ [c]))) = ds ++ [c]) by (apply nz_app_zeros; auto).
        rewrite Ecnt'.
        destruct (Nat.leb_spec 8 (dist (c :: cs))) as [H8|H8].
        * assert (E8 : dist (c :: cs) = 8) by lia. destruct (N.ltb_spec lgK 8) as [Hsm|Hbig].
          -- assert (Ho : over lgK (dist (c :: cs)) = true). { unfold over. destruct (N.ltb_spec lgK 8); [|lia]. apply Nat.leb_le; auto. }
             rewrite Ho. split; [discriminate|]. rewrite <- Hnz in Hsame'.
             apply (promote_hll_spec lgK t _ _ (c :: cs) HK); auto. eapply Forall_same; eauto.
          -- assert (Ho : over lgK (dist (c :: cs)) = false).
             { unfold over. destruct (N.ltb_spec lgK 8); [lia|]. destruct (Nat.leb_spec 8 (dist (c :: cs))); auto. apply Nat.ltb_ge. rewrite E8.
               pose proof (nslots_mono 5 (lgK - 3) ltac:(lia)) as Hm. unfold nslots in Hm at 2. change (nslots 5) with 32 in Hm. lia. }
             rewrite Ho. unfold promote_set. destruct (N.leb_spec lgK 7); [lia|].
             assert (Efn : firstn (dist (c :: cs)) ((ds ++ [c]) ++ repeat 0%N (8 - length (ds ++ [c]))) = ds ++ [c]).
             { rewrite <- Hlen'. rewrite firstn_app, Nat.sub_diag, firstn_all. cbn [firstn]. apply app_nil_r. }
             rewrite Efn.
             assert (Hn0 : nz (repeat 0%N 32) = []) by reflexivity.
             destruct (list_to_set_spec lgK (ds ++ [c]) (repeat 0%N 32) 0) as (a2 & n2 & E2 & W2 & S2); auto.
             { split; [lia|]. split; [lia|]. split; [apply (table_ok_free ckey 5 (cstart 5) (cstride 5) 0%N); reflexivity|]. split; [reflexivity|]. cbn. lia. }
             { rewrite Hlen', E8. cbn. lia. }
             rewrite E2. cbn [bindo]. split; [eauto|]. split; [eauto|]. intros s' E. inversion E; subst s'. split; auto. split; auto. split; auto.
             split; auto. split; auto. split; [lia|]. split; auto. intros d. rewrite (S2 d), Hn0, app_nil_r. apply Hsame'.
        * assert (Ho : over lgK (dist (c :: cs)) = false).
          { unfold over. destruct (lgK <? 8)%N; [apply Nat.leb_gt; auto|]. destruct (Nat.leb_spec 8 (dist (c :: cs))); auto; lia. }
          rewrite Ho. split; [eauto|]. split; [eauto|]. intros s' E. inversion E; subst s'. split; auto. split; auto. split; auto. split; auto. split; auto. split; auto.
          exists (ds ++ [c]). split; auto. split; auto. split; auto. split; auto. split; lia.
    - destruct Hs as (-> & -> & Hd8 & Hw & Hsame).
      destruct (set_add_spec lgK lgArr arr cnt c Hw Hc0) as (lg' & arr' & cnt' & p & E & Hs' & Hnd & Hl & Hw' & Hp & Hle & _).
      rewrite E. cbn [bindo].
      assert (Hsame' : same (nz arr') (c :: cs)). { intros d. rewrite (Hs' d). cbn [In]. rewrite (Hsame d). tauto. }
      assert (Ecnt' : cnt' = dist (c :: cs)) by (rewrite Hl; apply dist_same; auto).
      assert (Hle8 : 8 <= dist (c :: cs)). { rewrite <- Ecnt'. rewrite (dist_eq_same cs (nz arr)) in Hd8 by (intros d; symmetry; apply Hsame).
        destruct Hw as (_ & _ & Ht & Ec & _). rewrite <- (dist_same (nz arr) (nz arr)) in Hd8 by (try (intros d; reflexivity); eapply nz_NoDup; eauto). lia. }
      assert (Ho : over lgK (dist (c :: cs)) = p).
      { unfold over. destruct Hw as ((HK8 & _) & _). destruct (N.ltb_spec lgK 8); [lia|]. rewrite Hp, <- Ecnt'. fold (nslots (lgK - 3)).
        destruct (Nat.leb_spec 8 cnt'); [reflexivity|lia]. }
      rewrite Ho. destruct p.
      + split; [discriminate|]. apply (promote_hll_spec lgK t _ _ (c :: cs) HK); auto. eapply Forall_same; eauto.
      + split; [eauto|]. split; [eauto|]. intros s' E'. inversion E'; subst s'. split; auto. split; auto. split; auto. 
        split; auto.
  Qed.

  (** ** Whole histories (newest coupon first) *)
  (** The HIP accumulator as a function of the history: the coupon estimate at the moment HLL mode is entered, then one step per register rise. *)
  Fixpoint hip_spec (lgK : N) (cs : list N) : F :=
    match cs with
    | [] => fzero
    | c :: r =>
      if over lgK (dist r) then
        if (regs lgK r (cslot lgK c) <? cval c)%N
        then hip_add lgK (sumf inv0 (regs lgK r) (nslots lgK)) (sumf inv1 (regs lgK r) (nslots lgK)) (hip_spec lgK r)
        else hip_spec lgK r
      else coupon_est (dist cs)
    end.

  Definition hinv (lgK : N) (t : tgt) s (cs : list N) : Prop :=
    if over lgK (dist cs) then
      Forall vcoupon cs /\
      exists h, s = HArr t h /\ a_lgK h = lgK /\ ainv t 0 h (regs lgK cs) /\ kx h (regs lgK cs) /\ hits t h (regs lgK cs) /\
        a_ooo h = false /\ a_rebuild h = false /\ a_hip h = hip_spec lgK cs
    else cst lgK t s cs.

  Lemma hinv_step lgK t s cs c : hinv lgK t s cs -> vcoupon c ->
    (fits4 lgK t (c :: cs) -> exists s', st_update fzero hip_add coupon_est s c = Some s') /\
    forall s', st_update fzero hip_add coupon_est s c = Some s' -> hinv lgK t s' (c :: cs).
  Proof. try clear fzero; try clear coupon_est; try clear hip_add; try clear F.
    intros Hi Hc. unfold hinv in Hi. destruct (over lgK (dist cs)) eqn:Eo.
    - destruct Hi as (Hv & h & -> & EK & Hai & Hk & Hh & E1 & E2 & E3). cbn [st_update].
      assert (Eo' : over lgK (dist (c :: cs)) = true). { eapply over_mono; [|exact Eo]. apply dist_mono. intros; right; auto. }
      destruct (arr_update_spec hip_add t 0 h (regs lgK cs) c Hai ltac:(unfold vcoupon in Hc; lia)) as [A _]. split.
      + intros Hf. destruct A as (h' & E).
        { intros Ht. specialize (Hf Ht). unfold KK. rewrite EK. rewrite (exc_ext 0 _ (regs lgK (c :: cs))); auto. intros i _. rewrite regs_cons. auto. }
        rewrite E. cbn [bindo]. eauto.
      + intros s' E. destruct (arr_update hip_add t h c) as [h'|] eqn:Eh; cbn [bindo] in E; [|discriminate]. inversion E; subst s'.
        destruct (arr_step t 0 h _ c Hai Hc h' Eh) as (B1 & B2 & B3 & B4 & B5 & B6 & B7). rewrite EK in *.
        unfold hinv. rewrite Eo'. split; [constructor; auto|]. exists h'. split; auto. split; auto.
        assert (Ex : forall i, i < KK h' -> rmax (regs lgK cs) (cslot lgK c) (cval c) i = regs lgK (c :: cs) i) by (intros; symmetry; apply regs_cons).
        split; [eapply ainv_ext; eauto|]. split.
        { destruct (B2 Hk) as (C1 & C2). split; [rewrite C1|rewrite C2]; apply sumf_ext; auto. }
        split; [intros Ht; rewrite (B3 Hh Ht); apply count_ext; auto|]. split; [congruence|]. split; [congruence|].
        cbn [hip_spec]. rewrite Eo, B7. unfold hipstep. rewrite EK, E3. destruct Hk as (-> & ->). unfold KK. rewrite EK. auto.
    - destruct (coupon_step lgK t s cs c Hi Hc) as (_ & A & B). split; auto. intros s' E. specialize (B s' E). unfold hinv.
      destruct (over lgK (dist (c :: cs))) eqn:Eo'; auto. destruct B as (h & -> & F1 & F2 & F3 & F4 & F5 & F6 & F7).
      destruct Hi as (_ & Hv & _). split; [constructor; auto|].
      exists h. split; auto. split; auto. split; auto. split; auto. split; auto. split; auto. split; auto. cbn [hip_spec]. rewrite Eo. auto.
  Qed.

  Lemma hinv_new lgK t s : sk_new lgK t = Some s -> hinv lgK t s [].
  Proof. try clear fzero; try clear coupon_est; try clear hip_add; try clear F.
    unfold sk_new. destruct (N.leb_spec 4 lgK); [|discriminate]. destruct (N.leb_spec lgK 21); [|discriminate]. cbn [andb].
    intros E. inversion E; subst s. assert (Eo : over lgK (dist []) = false) by (unfold over; destruct (lgK <? 8)%N; reflexivity).
    unfold hinv. rewrite Eo. split; [auto|]. split; auto. split; auto. split; auto. split; auto. split; [cbn; lia|].
    exists []. split; [|intros c; reflexivity]. split; [constructor|]. split; [constructor|]. split; [reflexivity|]. split; [reflexivity|]. cbn; lia.
  Qed.

  Lemma sk_update_valid s c : vcoupon c -> sk_update fzero hip_add coupon_est s c = st_update fzero hip_add coupon_est s c.
  Proof. try clear fzero; try clear coupon_est; try clear hip_add; try clear F.
    intros H. unfold sk_update. rewrite N.shiftr_div_pow2. unfold vcoupon, cval in H. destruct (N.eqb_spec (c / 2 ^ 26) 0) as [E|E]; auto. rewrite E in H. lia.
  Qed.

  Lemma fits4_mono lgK t a b : (forall c, In c a -> In c b) -> fits4 lgK t b -> fits4 lgK t a.
  Proof. try clear fzero; try clear coupon_est; try clear hip_add; try clear F.
    intros H Hf Ht. specialize (Hf Ht). eapply Nat.le_trans; [|exact Hf]. apply Nat.mul_le_mono_l. apply cnt_le. intros i _ Hi.
    pose proof (regs_mono lgK a b i H). lia.
  Qed.

  Lemma hinv_run lgK t : forall cs s ps, hinv lgK t s ps -> Forall vcoupon cs ->
    (fits4 lgK t (rev cs ++ ps) -> exists s', sk_update_all fzero hip_add coupon_est s cs = Some s') /\
    forall s', sk_update_all fzero hip_add coupon_est s cs = Some s' -> hinv lgK t s' (rev cs ++ ps).
  Proof. try clear fzero; try clear coupon_est; try clear hip_add; try clear F.
    induction cs as [|c cs IH]; intros s ps Hi Hv; cbn [sk_update_all].
    - cbn [rev app]. split; eauto. intros s' E. inversion E; subst; auto.
    - inversion Hv as [|? ? Hc Hv']; subst x l. rewrite sk_update_valid by auto. cbn [rev]. rewrite <- app_assoc. cbn [app].
      destruct (hinv_step lgK t s ps c Hi Hc) as [A B]. split.
      + intros Hf. destruct A as (s1 & E1). { eapply fits4_mono; [|exact Hf]. intros d Hd. apply in_or_app. auto. }
        rewrite E1. cbn [bindo]. apply (IH s1 (c :: ps)); auto.
      + intros s' E. destruct (st_update fzero hip_add coupon_est s c) as [s1|] eqn:E1; cbn [bindo] in E; [|discriminate].
        apply (IH s1 (c :: ps)); auto.
  Qed.
End ModeProofs.
