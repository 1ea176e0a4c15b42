(** * HLL conversions between the three types, and the union. *)
From Verif Require Import Base ListX ProbeModel ProbeProofs Bytes Arr HllModel HllPack HllArrProofs HllMode.
Local Open Scope nat_scope.

(** Registers below i come from r, the others are z. *)
Definition upto (i : nat) (r : nat -> N) (z : N) : nat -> N := fun s => if s <? i then r s else z.
Lemma upto_all i r z s : s < i -> upto i r z s = r s.
Proof. unfold upto. intros H. destruct (Nat.ltb_spec s i); [auto|lia]. Qed.
Lemma upto_S i r z s : (z <= r i)%N -> rmax (upto i r z) i (r i) s = upto (S i) r z s.
Proof.
  intros H. unfold rmax, upto. destruct (Nat.eqb_spec s i) as [->|].
  - destruct (Nat.ltb_spec i i), (Nat.ltb_spec i (S i)); lia.
  - destruct (Nat.ltb_spec s i), (Nat.ltb_spec s (S i)); lia.
Qed.
Lemma upto_at i r z : upto i r z i = z.
Proof. unfold upto. rewrite Nat.ltb_irrefl. auto. Qed.

Lemma cval_mk s v : cval (mk_pair s v) = v.
Proof. apply pair_value_mk. Qed.
Lemma cslot_mk lgK s v : (lgK <= 26)%N -> s < nslots lgK -> cslot lgK (mk_pair s v) = s.
Proof. intros H Hs. unfold cslot. rewrite mk_pair_slot by (auto; apply nslots_slot; auto). lia. Qed.

(** The weight 2^(-v) in units of 2^(-63). *)
Definition wt (v : N) : Z := (2 ^ (63 - Z.of_N v))%Z.
Lemma wt_split v : (v < 64)%N -> (inv0 v * 2 ^ 32 + inv1 v)%Z = wt v.
Proof.
  intros H. unfold inv0, inv1, wt. destruct (N.ltb_spec v 32); [|lia].
  rewrite <- Z.pow_add_r, Z.add_0_r by lia. f_equal. lia.
Qed.

Lemma sumf_lin f g k r K : (sumf f r K * k + sumf g r K)%Z = sumf (fun v => f v * k + g v)%Z r K.
Proof. induction K; cbn [sumf]; lia. Qed.
Lemma sumf_fun f g r K : (forall i, i < K -> f (r i) = g (r i)) -> sumf f r K = sumf g r K.
Proof. induction K; intros H; cbn [sumf]; auto. rewrite IHK by (intros; apply H; lia). rewrite H by lia. auto. Qed.

Section UnionProofs.
  Context {F : Type}.
  Variable fzero : F.
  Variable hip_add : N -> Z -> Z -> F -> F.
  Variable coupon_est : nat -> F.
  Notation harr := (harr F).
  Notation hstate := (hstate F).
  Notation hunion := (hunion F).
  Implicit Types h g : harr.

  (** Total of 2^(-register) over all registers, in units of 2^(-63). *)
  Definition ktot h (r : nat -> N) : Prop := (a_kxq0 h * 2 ^ 32 + a_kxq1 h)%Z = sumf wt r (KK h).
  Lemma kx_ktot h r : (forall i, i < KK h -> (r i < 64)%N) -> kx h r -> ktot h r.
  Proof. try clear fzero; try clear coupon_est; try clear hip_add; try clear F.
    intros Hr (A & B). unfold ktot. rewrite A, B, sumf_lin. apply sumf_fun. intros i Hi. apply wt_split. auto.
  Qed.
  Lemma ktot_step h h' r slot v : slot < KK h -> (r slot < 64)%N -> (v < 64)%N -> ktot h r -> est_step hip_add h h' (r slot) v -> ktot h' (rmax r slot v).
  Proof. try clear fzero; try clear coupon_est; try clear hip_add; try clear F.
    intros Hs Hr Hv A E. pose proof (est_step_lgK hip_add _ _ _ _ E) as EK. unfold ktot, KK in *. rewrite EK. unfold est_step, est_of in E.
    destruct (N.ltb_spec (r slot) v) as [Hl|Hl].
    - inversion E as [[E1 E2 E3 E4 E5 E6]]. rewrite E5, E6, EK, sumf_rmax, <- A by auto. rewrite <- (wt_split (r slot)), <- (wt_split v) by auto. lia.
    - inversion E as [[E1 E2 E3 E4 E5 E6]]. rewrite E5, E6, A, EK. apply sumf_ext; intros; symmetry; apply rmax_same; auto.
  Qed.

  (** The estimator sums are those of the registers, unless a rebuild is pending. *)
  Definition est_ok h (r : nat -> N) : Prop := a_rebuild h = false -> ktot h r /\ unhit h = count 0 r (KK h).

  Lemma ainv_lt t d h r i : ainv t d h r -> i < KK h -> (r i < 64)%N.
  Proof. try clear fzero; try clear coupon_est; try clear hip_add; try clear F. intros (_ & H) Hi. destruct t; [apply H in Hi|apply H in Hi|apply H in Hi]; apply Hi. Qed.

  Lemma ktot_ext h r r' : (forall i, i < KK h -> r i = r' i) -> ktot h r -> ktot h r'.
  Proof. try clear fzero; try clear coupon_est; try clear hip_add; try clear F. intros H A. unfold ktot in *. rewrite A. apply sumf_ext; auto. Qed.
  Lemma est_ok_ext h r r' : (forall i, i < KK h -> r i = r' i) -> est_ok h r -> est_ok h r'.
  Proof. try clear fzero; try clear coupon_est; try clear hip_add; try clear F. intros H A Hb. destruct (A Hb) as (B & C). split; [eapply ktot_ext; eauto|]. rewrite C. apply count_ext; auto. Qed.

  (** One coupon into an HLL_6 or HLL_8 array never fails. *)
  Lemma arr_step_ok t d h r c : t <> T4 -> ainv t d h r -> vcoupon c -> est_ok h r ->
    let r' := rmax r (cslot (a_lgK h) c) (cval c) in
    exists h', arr_update hip_add t h c = Some h' /\ ainv t d h' r' /\ est_ok h' r' /\ a_lgK h' = a_lgK h /\ a_ooo h' = a_ooo h /\ a_rebuild h' = a_rebuild h.
  Proof. try clear fzero; try clear coupon_est; try clear hip_add; try clear F.
    intros Ht Hi Hc He. cbv zeta. assert (Hc64 : (cval c < 64)%N) by (unfold vcoupon in Hc; lia).
    destruct (arr_update_spec hip_add t d h r c Hi Hc64) as [A B]. destruct A as (h' & E); [congruence|].
    destruct (B h' E) as (I & S & M). destruct (arr_step hip_add t d h r c Hi Hc h' E) as (_ & _ & Hh & EK & E1 & E2 & _).
    exists h'. split; auto. split; auto. split; [|auto]. intros Hb. rewrite E2 in Hb. destruct (He Hb) as (C & D). split.
    - eapply ktot_step; eauto; [apply cslot_lt|]. eapply ainv_lt; eauto. apply cslot_lt.
    - apply Hh; auto. intros _. auto.
  Qed.

  (** ** convertToHll6 / convertToHll8 *)
  Lemma convert_loop_spec ts ds h r t : t <> T4 -> ainv ts ds h r -> forall n i d zeros, i + n = KK h ->
    a_lgK d = a_lgK h -> ainv t 0 d (upto i r 0) -> kx d (upto i r 0) -> a_curMin d = 0%N -> zeros = a_num d ->
    exists d', convert_loop hip_add n i ts h t d zeros = Some (d', a_num d') /\ ainv t 0 d' r /\ kx d' r /\ a_curMin d' = 0%N /\ a_lgK d' = a_lgK h /\ a_ooo d' = a_ooo d.
  Proof. try clear fzero; try clear coupon_est; try clear hip_add; try clear F.
    intros Ht Hs. induction n as [|n IH]; intros i d zeros Hn EK Hd Hk Hm Hz; cbn [convert_loop].
    - exists d. assert (Ex : forall s, s < KK d -> upto i r 0 s = r s). { intros s Hlt. apply upto_all. unfold KK in *. rewrite EK in Hlt. lia. }
      split; [subst; auto|]. split; [eapply ainv_ext; eauto|]. split.
      { destruct Hk as (A & B). split; [rewrite A|rewrite B]; apply sumf_ext; auto. }
      auto.
    - rewrite (slot_value_inv ts ds h r i Hs) by lia. cbn [bindo].
      pose proof (ainv_lt _ _ _ _ i Hs ltac:(lia)) as Hr.
      assert (Ex : forall s, s < KK d -> rmax (upto i r 0) i (r i) s = upto (S i) r 0 s) by (intros; apply upto_S; lia).
      destruct (N.eqb_spec (r i) 0) as [E0|N0].
      + assert (Ex0 : forall s, s < KK d -> upto i r 0 s = upto (S i) r 0 s).
        { intros s Hlt. rewrite <- Ex by auto. symmetry. apply rmax_same. lia. }
        apply IH; auto; [lia|eapply ainv_ext; eauto|]. destruct Hk as (A & B). split; [rewrite A|rewrite B]; apply sumf_ext; auto.
      + assert (HKs : (4 <= a_lgK h <= 21)%N) by apply Hs.
        assert (Hc : vcoupon (mk_pair i (r i))) by (unfold vcoupon; rewrite cval_mk; lia).
        destruct (arr_update_spec hip_add t 0 d (upto i r 0) (mk_pair i (r i)) Hd ltac:(rewrite cval_mk; auto)) as [A B].
        destruct A as (d1 & E1); [congruence|]. rewrite E1. cbn [bindo].
        destruct (B d1 E1) as (_ & _ & Hm1). specialize (Hm1 Ht).
        destruct (arr_step hip_add t 0 d _ _ Hd Hc d1 E1) as (I1 & K1 & _ & EK1 & O1 & _ & _).
        rewrite EK, cval_mk, cslot_mk in * by (auto; unfold KK in *; lia).
        assert (Ex1 : forall s, s < KK d1 -> rmax (upto i r 0) i (r i) s = upto (S i) r 0 s) by (intros; apply upto_S; lia).
        destruct (IH (S i) d1 (zeros - 1)) as (d' & E' & I' & K' & M' & L' & O'); try lia; auto.
        * eapply ainv_ext; eauto.
        * destruct (K1 Hk) as (A1 & B1). split; [rewrite A1|rewrite B1]; apply sumf_ext; auto.
        * rewrite Hz, (num_rel _ _ _ _ Hd Ht), (num_rel _ _ _ _ I1 Ht), !Nat.add_0_r.
          assert (EKK : KK d1 = KK d) by (unfold KK; congruence). rewrite EKK.
          assert (Hlt : (upto i r 0 i < r i)%N) by (rewrite upto_at; lia).
          pose proof (count_rmax 0 (upto i r 0) i (r i) (KK d) ltac:(unfold KK in *; rewrite EK; lia) Hlt) as C. rewrite upto_at in C. cbn [N.eqb] in C.
          destruct (N.eqb_spec (r i) 0); [contradiction|]. lia.
        * exists d'. split; auto. split; auto. split; auto. split; auto. split; auto. congruence.
  Qed.

  Definition conv_ok t h (r : nat -> N) h' : Prop :=
    a_lgK h' = a_lgK h /\ ainv t 0 h' r /\ kx h' r /\ unhit h' = count 0 r (KK h') /\ a_ooo h' = a_ooo h /\ a_rebuild h' = false /\ a_hip h' = a_hip h.

  Lemma convert_68_spec ts ds h r t : t <> T4 -> ainv ts ds h r -> exists h', convert_68 fzero hip_add ts h t = Some h' /\ conv_ok t h r h'.
  Proof. try clear fzero; try clear coupon_est; try clear hip_add; try clear F.
    intros Ht Hs. assert (HK : (4 <= a_lgK h <= 21)%N) by apply Hs. unfold convert_68.
    destruct (convert_loop_spec ts ds h r t Ht Hs (nslots (a_lgK h)) 0 (set_ooo fzero (arr_new fzero (a_lgK h) t) (a_ooo h)) (nslots (a_lgK h)))
      as (d' & E' & I' & K' & M' & L' & O'); auto.
    - pose proof (arr_new_inv fzero (a_lgK h) t HK) as A. exact A.
    - apply (kx_new fzero).
    - rewrite E'. cbn [bindo]. eexists. split; [reflexivity|]. unfold conv_ok.
      split; [exact L'|]. split; [exact I'|]. split; [exact K'|]. split.
      + change (unhit d' = count 0 r (KK d')). unfold unhit. rewrite M'. cbn [N.eqb]. rewrite (num_rel _ _ _ _ I' Ht). lia.
      + split; [|split; reflexivity]. change (a_ooo d' = a_ooo h). rewrite O'. reflexivity.
  Qed.

  (** ** convertToHll4 *)
  Lemma min_and_num_spec ts ds h r : ainv ts ds h r -> forall n i m num, i + n = KK h -> (m <= 64)%N ->
    (forall j, j < i -> (m <= r j)%N) -> num = count m r i -> (0 < i -> 0 < num) -> (i = 0 -> m = 64%N) ->
    exists m' num', min_and_num n i ts h m num = Some (m', num') /\ (forall j, j < KK h -> (m' <= r j)%N) /\ num' = count m' r (KK h) /\ 0 < num' /\ (m' < 64)%N.
  Proof. try clear fzero; try clear coupon_est; try clear hip_add; try clear F.
    intros Hs. induction n as [|n IH]; intros i m num Hn Hm Hle Hnum Hpos H0; cbn [min_and_num].
    - assert (i = KK h) by lia. subst i. pose proof (KK_pos h) as Hp. specialize (Hpos Hp).
      exists m, num. split; auto. split; auto. split; auto. split; auto.
      specialize (Hle 0 Hp). pose proof (ainv_lt _ _ _ _ 0 Hs Hp). lia.
    - rewrite (slot_value_inv ts ds h r i Hs) by lia. cbn [bindo]. pose proof (ainv_lt _ _ _ _ i Hs ltac:(lia)) as Hr.
      assert (HcS : forall m, count m r (S i) = count m r i + (if (r i =? m)%N then 1 else 0)) by (intros; apply cnt_S).
      destruct (N.ltb_spec m (r i)).
      + apply IH; auto; try lia.
        * intros j Hj. destruct (Nat.eq_dec j i) as [->|]; [lia|]. apply Hle. lia.
        * rewrite HcS. destruct (N.eqb_spec (r i) m); lia.
      + destruct (N.ltb_spec (r i) m).
        * apply IH; auto; try lia.
          -- intros j Hj. destruct (Nat.eq_dec j i) as [->|]; [lia|]. specialize (Hle j ltac:(lia)). lia.
          -- rewrite HcS, N.eqb_refl. assert (Ez : count (r i) r i = 0) by (apply cnt_zero; intros j Hj; specialize (Hle j Hj); lia). lia.
        * apply IH; auto; try lia.
          -- intros j Hj. destruct (Nat.eq_dec j i) as [->|]; [lia|]. apply Hle. lia.
          -- rewrite HcS. destruct (N.eqb_spec (r i) m); lia.
  Qed.

  (** During the second pass the array is read with minimum m although its curMin is still 0. *)
  Definition pass4 (d : harr) (m : N) (q : nat -> N) : Prop :=
    length (a_bytes d) = nslots (a_lgK d - 1) /\ bytes_ok (a_bytes d) /\
    (forall i, i < KK d -> get_nibble (a_bytes d) i = Some (nib m (q i))) /\ aux_ok (a_lgK d) m (a_aux d) q.

  Lemma pass4_ext d m q q' : (forall i, i < KK d -> q i = q' i) -> pass4 d m q -> pass4 d m q'.
  Proof. try clear fzero; try clear coupon_est; try clear hip_add; try clear F.
    intros E (L & B & H & X). split; auto. split; auto. split; [intros; rewrite <- E by auto; auto|].
    destruct (a_aux d); cbn [aux_ok] in *.
    - destruct X as (W & Hh). split; auto. intros i v. rewrite Hh. split; intros (A1 & A2 & A3); (split; [auto|]; split; [|auto]); rewrite <- A2; [symmetry|]; apply E; auto.
    - intros i Hi. rewrite <- E by auto. auto.
  Qed.

  Lemma convert4_loop_spec ts ds h r m : ainv ts ds h r -> (forall j, j < KK h -> (m <= r j)%N) -> forall n i d, i + n = KK h ->
    a_lgK d = a_lgK h -> pass4 d m (upto i r m) -> kx d (upto i r 0) ->
    (8 * exc m r (KK h) <= 3 * KK h -> exists d', convert4_loop hip_add n i ts h m d = Some d') /\
    forall d', convert4_loop hip_add n i ts h m d = Some d' -> pass4 d' m r /\ kx d' r /\ a_lgK d' = a_lgK h /\ a_ooo d' = a_ooo d.
  Proof. try clear fzero; try clear coupon_est; try clear hip_add; try clear F.
    intros Hs Hmin. induction n as [|n IH]; intros i d Hn EK Hp Hk; cbn [convert4_loop].
    - assert (Ex : forall z s, s < KK d -> upto i r z s = r s). { intros z s Hlt. apply upto_all. unfold KK in *. rewrite EK in Hlt. lia. }
      split; [eauto|]. intros d' E. inversion E; subst d'. split; [apply (pass4_ext d m (upto i r m)); auto|]. split; [|auto].
      destruct Hk as (A & B). split; [rewrite A|rewrite B]; apply sumf_ext; auto.
    - rewrite (slot_value_inv ts ds h r i Hs) by lia. cbn [bindo].
      pose proof (ainv_lt _ _ _ _ i Hs ltac:(lia)) as Hr. pose proof (Hmin i ltac:(lia)) as Hmi.
      assert (EKK : KK d = KK h) by (unfold KK; congruence).
      assert (HKd : (4 <= a_lgK d <= 21)%N) by (rewrite EK; apply Hs).
      assert (Exk : forall s, s < KK d -> rmax (upto i r 0) i (r i) s = upto (S i) r 0 s) by (intros; apply upto_S; lia).
      assert (Exm : forall s, s < KK d -> rmax (upto i r m) i (r i) s = upto (S i) r m s) by (intros; apply upto_S; lia).
      destruct (N.eqb_spec (r i) 0) as [E0|N0].
      + apply IH; auto; [lia| |].
        * eapply pass4_ext; [|exact Hp]. intros s Hlt. rewrite <- Exm by auto. symmetry. apply rmax_same. rewrite upto_at. lia.
        * destruct Hk as (A & B). split; [rewrite A|rewrite B]; apply sumf_ext; intros s Hlt; rewrite <- Exk by auto; symmetry; apply rmax_same; lia.
      + rewrite hip_kxq_eq by lia. cbn [bindo].
        set (d1 := bump hip_add d 0 (r i)).
        assert (Hk1 : kx d1 (upto (S i) r 0)).
        { assert (A : kx d1 (rmax (upto i r 0) i (r i))).
          { apply (kx_step hip_add d d1 (upto i r 0) i (r i)); auto; [lia|]. rewrite upto_at. unfold est_step. destruct (N.ltb_spec 0 (r i)); [reflexivity|lia]. }
          destruct A as (A & B). split; [rewrite A|rewrite B]; apply sumf_ext; auto. }
        assert (Hp1 : pass4 d1 m (upto i r m)) by exact Hp. assert (EK1 : a_lgK d1 = a_lgK h) by exact EK. assert (EO1 : a_ooo d1 = a_ooo d) by reflexivity.
        assert (EKK1 : KK d1 = KK d) by reflexivity. clearbody d1. clear Hk Hp.
        destruct Hp1 as (L & B & H & X). rewrite EK1 in *. fold (KK h) in *.
        assert (HL : i / 2 < length (a_bytes d1)). { rewrite L. assert (i < KK h) by lia. unfold KK in *. rewrite (nslots_even (a_lgK h)) in * by lia. lia. }
        assert (Hkx : forall b x, kx (set_aux (set_bytes d1 b) x) (upto (S i) r 0)) by (intros; exact Hk1).
        destruct (N.leb_spec (m + 15) (r i)) as [Hex|Hex].
        * destruct (put_nibble_spec (a_bytes d1) i 15 B HL ltac:(lia)) as (b' & Eb & Lb & Bb & Gb). rewrite Eb. cbn [bindo].
          destruct (add_exception (a_lgK h) m (a_aux d1) (upto i r m) i (r i)) as [A A']; auto; try lia.
          { unfold KK in *; lia. }
          { rewrite upto_at. lia. }
          rewrite (exc_ext m _ (upto (S i) r m)) in A, A' by (intros; apply upto_S; auto). fold (KK h) in A, A'.
          set (addx := (do x <- match a_aux d1 with Some x => Some x | None => new_aux (a_lgK h) end; aux_add x (a_lgK h) i (r i))) in *.
          assert (Efold : forall (k : auxmap -> option harr),
            (do x <- match a_aux d1 with Some x => Some x | None => new_aux (a_lgK h) end; do x0 <- aux_add x (a_lgK h) i (r i); k x0) = bindo addx k).
          { intros k. unfold addx. destruct (match a_aux d1 with Some x => Some x | None => new_aux (a_lgK h) end); auto. }
          rewrite Efold.
          assert (Hnext : forall x', aux_ok (a_lgK h) m (Some x') (rmax (upto i r m) i (r i)) -> pass4 (set_aux (set_bytes d1 b') (Some x')) m (upto (S i) r m)).
          { intros x' Hx'. eapply pass4_ext; [intros; apply upto_S; auto|]. split; [change (length b' = nslots (a_lgK d1 - 1)); rewrite EK1; lia|]. split; [exact Bb|]. split.
            - intros s Hlt. change (KK _) with (KK d1) in Hlt. change (a_bytes _) with b'. rewrite Gb. destruct (Nat.eqb_spec s i) as [->|Hne].
              + rewrite rmax_at by (rewrite upto_at; lia). f_equal. unfold nib. destruct (N.ltb_spec (r i) (m + 15)); lia.
              + rewrite rmax_other by auto. apply H. auto.
            - change (aux_ok (a_lgK d1) m (Some x') (rmax (upto i r m) i (r i))). rewrite EK1. exact Hx'. }
          split.
          -- intros Hcap. assert (Hle : 8 * exc m (upto (S i) r m) (KK h) <= 3 * KK h).
             { eapply Nat.le_trans; [|exact Hcap]. apply Nat.mul_le_mono_l. apply cnt_le. intros s Hlt Hse. unfold upto in Hse. destruct (s <? S i); [auto|lia]. }
             destruct (A Hle) as (x' & Ex' & Hx'). rewrite Ex'. cbn [bindo]. apply (IH (S i) (set_aux (set_bytes d1 b') (Some x'))); auto; lia.
          -- intros d' E. destruct (Nat.le_gt_cases (8 * exc m (upto (S i) r m) (KK h)) (3 * KK h)) as [Hcap|Hcap].
             ++ destruct (A Hcap) as (x' & Ex' & Hx'). rewrite Ex' in E. cbn [bindo] in E.
                destruct (proj2 (IH (S i) (set_aux (set_bytes d1 b') (Some x')) ltac:(lia) EK1 (Hnext x' Hx') (Hkx _ _)) d' E) as (C1 & C2 & C3 & C4).
                split; auto. split; auto. split; auto. rewrite C4. exact EO1.
             ++ rewrite (A' Hcap) in E. discriminate.
        * destruct (put_nibble_spec (a_bytes d1) i (r i - m)%N B HL ltac:(lia)) as (b' & Eb & Lb & Bb & Gb). rewrite Eb. cbn [bindo].
          assert (Hnext : pass4 (set_bytes d1 b') m (upto (S i) r m)).
          { eapply pass4_ext; [intros; apply upto_S; auto|]. split; [change (length b' = nslots (a_lgK d1 - 1)); rewrite EK1; lia|]. split; [exact Bb|]. split.
            - intros s Hlt. change (KK _) with (KK d1) in Hlt. change (a_bytes _) with b'. rewrite Gb. destruct (Nat.eqb_spec s i) as [->|Hne].
              + f_equal. unfold rmax. rewrite Nat.eqb_refl, upto_at. rewrite N.max_r by auto. unfold nib. destruct (N.ltb_spec (r i) (m + 15)); lia.
              + rewrite rmax_other by auto. apply H. auto.
            - change (aux_ok (a_lgK d1) m (a_aux d1) (rmax (upto i r m) i (r i))). rewrite EK1. destruct (a_aux d1) as [x|]; cbn [aux_ok] in *.
              + destruct X as (W & Hh). split; auto. intros s w. rewrite Hh. destruct (Nat.eq_dec s i) as [->|Hne].
                * unfold rmax. rewrite Nat.eqb_refl, upto_at. lia.
                * rewrite rmax_other by auto. tauto.
              + intros s Hlt. destruct (Nat.eq_dec s i) as [->|Hne]; [|rewrite rmax_other by auto; auto]. unfold rmax. rewrite Nat.eqb_refl, upto_at. lia. }
          destruct (IH (S i) (set_bytes d1 b') ltac:(lia) EK1 Hnext Hk1) as [C1 C2]. split; auto.
          intros d' E. destruct (C2 d' E) as (D1 & D2 & D3 & D4). split; auto. split; auto. split; auto. rewrite D4. exact EO1.
  Qed.

  Lemma convert_4_spec ts ds h r : ainv ts ds h r ->
    (8 * exc 0 r (KK h) <= 3 * KK h -> exists h', convert_4 fzero hip_add ts h = Some h') /\
    forall h', convert_4 fzero hip_add ts h = Some h' -> conv_ok T4 h r h'.
  Proof. try clear fzero; try clear coupon_est; try clear hip_add; try clear F.
    intros Hs. assert (HK : (4 <= a_lgK h <= 21)%N) by apply Hs. unfold convert_4.
    destruct (min_and_num_spec ts ds h r Hs (nslots (a_lgK h)) 0 64 0) as (m & num & E & Hmin & Hnum & Hpos & Hm); auto; try lia.
    rewrite E. cbn [bindo].
    set (d0 := set_ooo fzero (arr_new fzero (a_lgK h) T4) (a_ooo h)).
    assert (Hp0 : pass4 d0 m (upto 0 r m)).
    { pose proof (arr_new_inv fzero (a_lgK h) T4 HK) as (_ & ((L & B & H & X) & _)). split; [exact L|]. split; [exact B|]. split.
      - intros i Hi. unfold upto. destruct (Nat.ltb_spec i 0); [lia|]. change (a_bytes d0) with (a_bytes (arr_new fzero (a_lgK h) T4)). rewrite (proj2 (H i Hi)).
        f_equal. unfold nib. change (a_curMin _) with 0%N. destruct (N.ltb_spec m (m + 15)), (N.ltb_spec 0 (0 + 15)); lia.
      - change (aux_ok (a_lgK h) m None (upto 0 r m)). cbn [aux_ok]. intros i Hi. unfold upto. destruct (Nat.ltb_spec i 0); lia. }
    destruct (convert4_loop_spec ts ds h r m Hs Hmin (nslots (a_lgK h)) 0 d0 eq_refl eq_refl Hp0 (kx_new fzero (a_lgK h) T4)) as [A B].
    split.
    - intros Hcap. destruct A as (d' & E'). { eapply Nat.le_trans; [|exact Hcap]. apply Nat.mul_le_mono_l. apply cnt_le. intros i _ Hi. lia. }
      rewrite E'. cbn [bindo]. eauto.
    - intros h' E'. destruct (convert4_loop hip_add (nslots (a_lgK h)) 0 ts h m d0) as [d'|] eqn:Ed; cbn [bindo] in E'; [|discriminate].
      destruct (B d' eq_refl) as ((L & Bo & H & X) & Kd & EL & EO). inversion E'; subst h'. clear E'.
      assert (EKK : KK d' = KK h) by (unfold KK; congruence).
      assert (I : inv4 (set_rebuild (set_est (set_num (set_min d' m) num) (a_hip h) (a_kxq0 d') (a_kxq1 d')) false) r).
      { split; [|split].
        - split; [exact L|]. split; [exact Bo|]. split; [|exact X]. intros i Hi. change (KK _) with (KK d') in Hi. split; [|apply H; auto].
          split; [apply Hmin; rewrite <- EKK; auto|]. eapply ainv_lt; eauto. rewrite <- EKK. auto.
        - change (num = count m r (KK d')). rewrite EKK. auto.
        - exact Hpos. }
      split; [exact EL|]. split; [split; [change (4 <= a_lgK d' <= 21)%N; rewrite EL; auto|exact I]|]. split; [exact Kd|]. split.
      + change (unhit (set_num (set_min d' m) num) = count 0 r (KK d')). unfold unhit. cbn [set_num set_min a_curMin a_num]. rewrite EKK.
        destruct (N.eqb_spec m 0) as [->|Hm0]; [auto|]. symmetry. apply cnt_zero. intros i Hi. specialize (Hmin i Hi). lia.
      + split; [change (a_ooo d' = a_ooo h); rewrite EO; reflexivity|]. split; reflexivity.
  Qed.

  (** ** Copies *)
  Lemma copy_arr_spec ts ds h r t : ainv ts ds h r -> est_ok h r ->
    ((t = T4 -> 8 * exc 0 r (KK h) <= 3 * KK h) -> exists s', copy_as fzero hip_add (HArr ts h) t = Some s') /\
    forall s', copy_as fzero hip_add (HArr ts h) t = Some s' ->
      exists h' d', s' = HArr t h' /\ a_lgK h' = a_lgK h /\ ainv t d' h' r /\ est_ok h' r /\ a_ooo h' = a_ooo h /\ a_hip h' = a_hip h.
  Proof. try clear fzero; try clear coupon_est; try clear hip_add; try clear F.
    intros Hi He. cbn [copy_as].
    assert (Hconv : forall h', conv_ok t h r h' -> exists h2 d', HArr t h' = HArr t h2 /\ a_lgK h2 = a_lgK h /\ ainv t d' h2 r /\ est_ok h2 r /\ a_ooo h2 = a_ooo h /\ a_hip h2 = a_hip h).
    { intros h' (A1 & A2 & A3 & A4 & A5 & A6 & A7). exists h', 0. split; auto. split; auto. split; auto. split; [|auto].
      intros _. split; auto. apply kx_ktot; auto. intros i Hlt. eapply ainv_lt; eauto. }
    destruct (tgt_eqb ts t) eqn:Et.
    - assert (ts = t) by (destruct ts, t; auto; discriminate). subst t. split; [eauto|]. intros s' E. inversion E; subst s'. exists h, ds. auto 6.
    - destruct t.
      + destruct (convert_4_spec ts ds h r Hi) as [A B]. split.
        * intros Hcap. destruct (A (Hcap eq_refl)) as (h' & E). rewrite E. cbn [bindo]. eauto.
        * intros s' E. destruct (convert_4 fzero hip_add ts h) as [h'|] eqn:Eh; cbn [bindo] in E; [|discriminate]. inversion E; subst s'. auto.
      + destruct (convert_68_spec ts ds h r T6 ltac:(discriminate) Hi) as (h' & E & C). rewrite E. cbn [bindo]. split; [eauto|].
        intros s' E'. inversion E'; subst s'. auto.
      + destruct (convert_68_spec ts ds h r T8 ltac:(discriminate) Hi) as (h' & E & C). rewrite E. cbn [bindo]. split; [eauto|].
        intros s' E'. inversion E'; subst s'. auto.
  Qed.

  (** ** Merging an HLL array into an HLL_8 array *)
  Definition rmax2 (r q : nat -> N) : nat -> N := fun i => N.max (r i) (q i).
  (** HLL_8 bytes hold the registers q. *)
  Definition b8 (b : list N) (K : nat) (q : nat -> N) : Prop := length b = K /\ forall i, i < K -> nth_error b i = Some (q i) /\ (q i < 64)%N.

  Lemma update_nokxq_spec b K q j v : b8 b K q -> j < K -> (v < 64)%N ->
    exists b', update_nokxq b j v = Some b' /\ b8 b' K (rmax q j v).
  Proof. try clear fzero; try clear coupon_est; try clear hip_add; try clear F.
    intros (L & H) Hj Hv. destruct (H j Hj) as [E Hq]. unfold update_nokxq, get8. rewrite E. cbn [bindo]. rewrite land63_small by auto.
    rewrite N.mod_small by lia. unfold wr. rewrite L. destruct (Nat.ltb_spec j K); [|lia]. eexists. split; [reflexivity|].
    split; [rewrite upd_length; auto|]. intros i Hi. rewrite nth_error_upd, L. unfold rmax. destruct (Nat.eqb_spec j i) as [<-|Hne].
    - destruct (Nat.ltb_spec j K); [|lia]. rewrite Nat.eqb_refl. rewrite N.max_comm. split; [auto|lia].
    - destruct (Nat.eqb_spec i j); [congruence|]. auto.
  Qed.

  Lemma b8_ext b K q q' : (forall i, i < K -> q i = q' i) -> b8 b K q -> b8 b K q'.
  Proof. try clear fzero; try clear coupon_est; try clear hip_add; try clear F. intros E (L & H). split; auto. intros i Hi. rewrite <- E by auto. auto. Qed.

  (** Maxima on the slots below i only. *)
  Definition mupto (i : nat) (r q : nat -> N) : nat -> N := fun s => if s <? i then N.max (q s) (r s) else q s.
  Lemma mupto_S i r q s : rmax (mupto i r q) i (r i) s = mupto (S i) r q s.
  Proof. try clear fzero; try clear coupon_est; try clear hip_add; try clear F.
    unfold rmax, mupto. destruct (Nat.eqb_spec s i) as [->|].
    - destruct (Nat.ltb_spec i i), (Nat.ltb_spec i (S i)); lia.
    - destruct (Nat.ltb_spec s i), (Nat.ltb_spec s (S i)); lia.
  Qed.
  Lemma upd_step b K q r i : b8 b K (mupto i r q) -> i < K -> (r i < 64)%N -> exists b', update_nokxq b i (r i) = Some b' /\ b8 b' K (mupto (S i) r q).
  Proof. try clear fzero; try clear coupon_est; try clear hip_add; try clear F.
    intros Hb Hi Hr. destruct (update_nokxq_spec b K _ i (r i) Hb Hi Hr) as (b' & E & B). exists b'. split; auto.
    eapply b8_ext; [|exact B]. intros s _. apply mupto_S.
  Qed.

  Lemma max_bytes_spec : forall src tgt, length src <= length tgt -> exists b, max_bytes src tgt = Some b /\ length b = length tgt /\
    forall i, nth_error b i = match nth_error src i, nth_error tgt i with Some s, Some t => Some (N.max t s) | _, x => x end.
  Proof. try clear fzero; try clear coupon_est; try clear hip_add; try clear F.
    induction src as [|s src IH]; intros tgt Hl; cbn [max_bytes].
    - exists tgt. split; auto. split; auto. intros i. destruct i; auto.
    - destruct tgt as [|t tgt]; [cbn in Hl; lia|]. cbn [length] in *. destruct (IH tgt ltac:(lia)) as (b & E & L & H). rewrite E. cbn [bindo].
      eexists. split; [reflexivity|]. split; [cbn [length]; lia|]. intros [|i]; cbn [nth_error]; auto. f_equal. destruct (N.ltb_spec t s); lia.
  Qed.

  Lemma merge_nib_spec h r b K q j nb : inv4 h r -> (4 <= a_lgK h <= 21)%N -> get_nibble (a_bytes h) j = Some nb -> j < KK h -> j < K -> b8 b K (mupto j r q) ->
    exists b', merge_nib h nb j b = Some b' /\ b8 b' K (mupto (S j) r q).
  Proof. try clear fzero; try clear coupon_est; try clear hip_add; try clear F.
    intros ((_ & _ & H & X) & _) HK En Hj HjK Hb. destruct (H j Hj) as [Hr En']. rewrite En in En'. inversion En' as [E]. clear En'.
    destruct (upd_step b K q r j Hb HjK ltac:(lia)) as (b' & Eb & B'). exists b'. split; auto. unfold merge_nib.
    unfold nib. destruct (N.ltb_spec (r j) (a_curMin h + 15)) as [Hlt|Hge].
    - destruct (N.eqb_spec (r j - a_curMin h) 15); [lia|]. replace (r j - a_curMin h + a_curMin h)%N with (r j) by lia. auto.
    - rewrite N.eqb_refl. destruct (a_aux h) as [x|]; [|specialize (X j Hj); lia]. cbn [bindo]. destruct X as (W & Hh).
      rewrite (aux_find_spec (a_lgK h) HK x j (r j) W) by (apply Hh; auto). cbn [bindo]. auto.
  Qed.

  Lemma merge4_loop_spec h r K q : inv4 h r -> (4 <= a_lgK h <= 21)%N -> KK h <= K -> forall n i b, 2 * (i + n) = KK h -> b8 b K (mupto (2 * i) r q) ->
    exists b', merge4_loop n i h b = Some b' /\ b8 b' K (mupto (KK h) r q).
  Proof. try clear fzero; try clear coupon_est; try clear hip_add; try clear F.
    intros Hi4 HK HKK. induction n as [|n IH]; intros i b Hn Hb; cbn [merge4_loop].
    - exists b. split; auto. replace (KK h) with (2 * i) by lia. auto.
    - pose proof Hi4 as ((L & Bo & H & _) & _).
      destruct (H (2 * i) ltac:(lia)) as [_ E1]. destruct (H (2 * i + 1) ltac:(lia)) as [_ E2].
      pose proof E1 as E1'. pose proof E2 as E2'. unfold get_nibble in E1', E2'.
      replace (2 * i / 2) with i in E1' by lia. replace ((2 * i + 1) / 2) with i in E2' by lia.
      replace (Nat.odd (2 * i)) with false in E1' by (rewrite Nat.odd_mul; reflexivity).
      replace (Nat.odd (2 * i + 1)) with true in E2' by (rewrite Nat.odd_add, Nat.odd_mul; reflexivity).
      destruct (nth_error (a_bytes h) i) as [x|] eqn:Ex; cbn [bindo] in *; [|discriminate].
      assert (Hx : (x < 256)%N) by (eapply bytes_ok_nth; eauto).
      assert (Ehi : N.land (N.shiftr x 4) 15 = N.shiftr x 4).
      { change 15%N with (N.ones 4). rewrite N.land_ones, N.mod_small; auto. rewrite N.shiftr_div_pow2. apply N.div_lt_upper_bound; [discriminate|]. exact Hx. }
      rewrite Ehi in E2'.
      destruct (merge_nib_spec h r b K q (2 * i) (N.land x 15) Hi4 HK) as (b1 & Eb1 & B1); auto; try lia; [congruence|]. rewrite Eb1. cbn [bindo].
      destruct (merge_nib_spec h r b1 K q (2 * i + 1) (N.shiftr x 4) Hi4 HK) as (b2 & Eb2 & B2); auto; try lia; [congruence|replace (2 * i + 1) with (S (2 * i)) by lia; auto|].
      rewrite Eb2. cbn [bindo]. apply IH; [lia|]. replace (2 * S i) with (S (2 * i + 1)) by lia. auto.
  Qed.

  (** Four registers in three bytes. *)
  Lemma ones_bit y n k : N.testbit (N.land y (N.ones n)) k = N.testbit y k && (k <? n)%N.
  Proof. try clear fzero; try clear coupon_est; try clear hip_add; try clear F. rewrite N.land_spec. f_equal. destruct (N.ltb_spec k n); [apply N.ones_spec_low|apply N.ones_spec_high]; auto. Qed.
  Lemma six_cross x y a b c : (x < 256)%N -> (a + b = 8)%N -> (c = 6 - b)%N -> (b <= 6)%N ->
    N.land (N.shiftr (N.lor x (N.shiftl y 8)) a) 63 = N.lor (N.shiftr x a) (N.shiftl (N.land y (N.ones c)) b).
  Proof. try clear fzero; try clear coupon_est; try clear hip_add; try clear F.
    intros Hx Hab Hc Hb. apply N.bits_inj. intros k. rewrite land63_bit, N.shiftr_spec', short_bit, N.lor_spec, N.shiftr_spec' by auto.
    destruct (N.lt_ge_cases k b).
    - rewrite N.shiftl_spec_low by auto. destruct (N.ltb_spec (k + a) 8); [|lia]. destruct (N.ltb_spec k 6); [|lia]. rewrite andb_true_r, orb_false_r. auto.
    - rewrite N.shiftl_spec_high' by auto. rewrite ones_bit. destruct (N.ltb_spec (k + a) 8); [lia|].
      rewrite (testbit_small x 8 (k + a)) by (auto; lia). cbn [orb]. replace (k + a - 8)%N with (k - b)%N by lia. f_equal.
      destruct (N.ltb_spec k 6), (N.ltb_spec (k - b) c); auto; lia.
  Qed.
  Lemma six_low x y : (x < 256)%N -> N.land (N.shiftr (N.lor x (N.shiftl y 8)) 0) 63 = N.land x 63.
  Proof. try clear fzero; try clear coupon_est; try clear hip_add; try clear F.
    intros Hx. apply N.bits_inj. intros k. rewrite !land63_bit, N.shiftr_spec', short_bit, N.add_0_r by auto.
    destruct (N.ltb_spec k 6); [|rewrite !andb_false_r; auto]. destruct (N.ltb_spec k 8); [auto|lia].
  Qed.
  Lemma six_high x y : (x < 256)%N -> N.land (N.shiftr (N.lor x (N.shiftl y 8)) 2) 63 = N.shiftr x 2.
  Proof. try clear fzero; try clear coupon_est; try clear hip_add; try clear F.
    intros Hx. rewrite (six_cross x y 2 6 0) by (auto; lia). change (N.ones 0) with 0%N. rewrite N.land_0_r, N.shiftl_0_l, N.lor_0_r. auto.
  Qed.

  Lemma three_bytes b i b1 b2 b3 b4 : bytes_ok b -> nth_error b (3 * i) = Some b1 -> nth_error b (3 * i + 1) = Some b2 -> nth_error b (3 * i + 2) = Some b3 ->
    nth_error b (3 * i + 3) = Some b4 ->
    get6 b (4 * i) = Some (N.land b1 63) /\ get6 b (4 * i + 1) = Some (N.lor (N.shiftr b1 6) (N.shiftl (N.land b2 15) 2)) /\
    get6 b (4 * i + 2) = Some (N.lor (N.shiftr b2 4) (N.shiftl (N.land b3 3) 4)) /\ get6 b (4 * i + 3) = Some (N.shiftr b3 2).
  Proof. try clear fzero; try clear coupon_est; try clear hip_add; try clear F.
    intros Hb E1 E2 E3 E4. pose proof (bytes_ok_nth _ _ _ Hb E1) as H1. pose proof (bytes_ok_nth _ _ _ Hb E2) as H2. pose proof (bytes_ok_nth _ _ _ Hb E3) as H3.
    unfold get6, get_short.
    replace (4 * i * 6 / 8) with (3 * i) by lia. replace ((4 * i + 1) * 6 / 8) with (3 * i) by lia.
    replace ((4 * i + 2) * 6 / 8) with (3 * i + 1) by lia. replace ((4 * i + 3) * 6 / 8) with (3 * i + 2) by lia.
    replace (4 * i * 6 mod 8) with 0 by lia. replace ((4 * i + 1) * 6 mod 8) with 6 by lia.
    replace ((4 * i + 2) * 6 mod 8) with 4 by lia. replace ((4 * i + 3) * 6 mod 8) with 2 by lia.
    replace (3 * i + 1 + 1) with (3 * i + 2) by lia. replace (3 * i + 2 + 1) with (3 * i + 3) by lia.
    rewrite E1, E2, E3, E4. cbn [bindo]. change (N.of_nat 0) with 0%N. change (N.of_nat 6) with 6%N. change (N.of_nat 4) with 4%N. change (N.of_nat 2) with 2%N.
    change 15%N with (N.ones 4). change 3%N with (N.ones 2).
    rewrite six_low, six_high by auto. rewrite (six_cross b1 b2 6 2 4) by (auto; lia). rewrite (six_cross b2 b3 4 4 2) by (auto; lia). auto.
  Qed.

  Lemma merge6_loop_spec d h r K q : inv6 d h r -> (4 <= a_lgK h <= 21)%N -> KK h <= K -> forall n i b, 4 * (i + n) = KK h -> b8 b K (mupto (4 * i) r q) ->
    exists b', merge6_loop n i h b = Some b' /\ b8 b' K (mupto (KK h) r q).
  Proof. try clear fzero; try clear coupon_est; try clear hip_add; try clear F.
    intros (L & Bo & H & _) HK HKK. induction n as [|n IH]; intros i b Hn Hb; cbn [merge6_loop].
    - exists b. split; auto. replace (KK h) with (4 * i) by lia. auto.
    - assert (Hlen : 3 * i + 3 < length (a_bytes h)) by lia.
      assert (Hget : forall k, k < length (a_bytes h) -> exists x, nth_error (a_bytes h) k = Some x).
      { intros k Hk. destruct (nth_error (a_bytes h) k) eqn:E; eauto. apply nth_error_None in E. lia. }
      destruct (Hget (3 * i) ltac:(lia)) as (x1 & E1). destruct (Hget (3 * i + 1) ltac:(lia)) as (x2 & E2).
      destruct (Hget (3 * i + 2) ltac:(lia)) as (x3 & E3). destruct (Hget (3 * i + 3) ltac:(lia)) as (x4 & E4).
      destruct (three_bytes (a_bytes h) i x1 x2 x3 x4 Bo E1 E2 E3 E4) as (G1 & G2 & G3 & G4).
      rewrite E1, E2, E3. cbn [bindo].
      destruct (H (4 * i) ltac:(lia)) as [F1 R1]. destruct (H (4 * i + 1) ltac:(lia)) as [F2 R2].
      destruct (H (4 * i + 2) ltac:(lia)) as [F3 R3]. destruct (H (4 * i + 3) ltac:(lia)) as [F4 R4].
      rewrite F1 in G1. rewrite F2 in G2. rewrite F3 in G3. rewrite F4 in G4.
      assert (Sinj : forall a b : N, Some a = Some b -> a = b) by congruence. apply Sinj in G1, G2, G3, G4. rewrite <- G1, <- G2, <- G3, <- G4.
      destruct (upd_step b K q r (4 * i) Hb ltac:(lia) R1) as (c1 & Ec1 & B1). rewrite Ec1. cbn [bindo].
      replace (S (4 * i)) with (4 * i + 1) in B1 by lia.
      destruct (upd_step c1 K q r (4 * i + 1) B1 ltac:(lia) R2) as (c2 & Ec2 & B2). rewrite Ec2. cbn [bindo].
      replace (S (4 * i + 1)) with (4 * i + 2) in B2 by lia.
      destruct (upd_step c2 K q r (4 * i + 2) B2 ltac:(lia) R3) as (c3 & Ec3 & B3). rewrite Ec3. cbn [bindo].
      replace (S (4 * i + 2)) with (4 * i + 3) in B3 by lia.
      destruct (upd_step c3 K q r (4 * i + 3) B3 ltac:(lia) R4) as (c4 & Ec4 & B4). rewrite Ec4. cbn [bindo].
      apply IH; [lia|]. replace (4 * S i) with (S (4 * i + 3)) by lia. auto.
  Qed.

  (** What the merge computes, for a source with at most as many slots as the target. *)
  Lemma merge_hll_spec ts ds h r d g q : ainv ts ds h r -> ainv T8 d g q -> (a_lgK h <= a_lgK g)%N ->
    exists g' d', merge_hll ts h g = Some g' /\ ainv T8 d' g' (mupto (KK h) r q) /\ a_rebuild g' = true /\ a_lgK g' = a_lgK g /\ a_ooo g' = a_ooo g.
  Proof. try clear fzero; try clear coupon_est; try clear hip_add; try clear F.
    intros Hs (HKg & L & H & Hn) Hle. assert (HK : (4 <= a_lgK h <= 21)%N) by apply Hs.
    assert (HKK : KK h <= KK g) by (apply nslots_mono; auto).
    unfold merge_hll. destruct (N.ltb_spec (a_lgK g) (a_lgK h)); [lia|].
    assert (Hb0 : b8 (a_bytes g) (KK g) (mupto 0 r q)) by (apply (b8_ext _ _ q); [intros; reflexivity|split; auto]).
    assert (Hb : exists b, (match ts with
               | T8 => max_bytes (a_bytes h) (a_bytes g)
               | T4 => merge4_loop (nslots (a_lgK h) / 2) 0 h (a_bytes g)
               | T6 => merge6_loop (nslots (a_lgK h) / 4) 0 h (a_bytes g)
               end) = Some b /\ b8 b (KK g) (mupto (KK h) r q)).
    { destruct (nslots_4 (a_lgK h) ltac:(lia)) as (m4 & Em & _). fold (KK h) in *. destruct ts.
      - apply (merge4_loop_spec h r (KK g) q); auto; [apply Hs|lia].
      - apply (merge6_loop_spec ds h r (KK g) q); auto; [apply Hs|lia].
      - destruct Hs as (_ & Ls & Hs & _). destruct (max_bytes_spec (a_bytes h) (a_bytes g) ltac:(lia)) as (b & E & Lb & Hb). exists b. split; auto.
        split; [lia|]. intros i Hi. rewrite Hb. destruct (H i Hi) as [E2 R2]. rewrite E2. unfold mupto. destruct (Nat.ltb_spec i (KK h)) as [Hlt|Hge].
        + destruct (Hs i Hlt) as [E1 R1]. rewrite E1. split; [auto|lia].
        + destruct (nth_error (a_bytes h) i) eqn:En; auto. exfalso. assert (i < length (a_bytes h)) by (apply nth_error_Some; congruence). lia. }
    destruct Hb as (b & E & Lb & Hb). rewrite E. cbn [bindo].
    assert (Hz : count 0 (mupto (KK h) r q) (KK g) <= count 0 q (KK g)).
    { apply cnt_le. intros i _ Hi. apply N.eqb_eq in Hi. apply N.eqb_eq. unfold mupto in Hi. destruct (i <? KK h); lia. }
    exists (set_rebuild (set_bytes g b) true), (a_num g - count 0 (mupto (KK h) r q) (KK g)).
    split; [reflexivity|]. split; [|split; [reflexivity|split; reflexivity]]. split; [exact HKg|]. split; [exact Lb|]. split; [exact Hb|].
    change (a_num g = count 0 (mupto (KK h) r q) (KK g) + (a_num g - count 0 (mupto (KK h) r q) (KK g))). lia.
  Qed.

  (** ** Rebuild *)
  Lemma rebuild_loop_spec d h r : ainv T8 d h r -> forall n i m num k0 k1, i + n = KK h -> (m <= 64)%N ->
    (forall j, j < i -> (m <= r j)%N) -> num = count m r i -> (0 < i -> 0 < num) -> (i = 0 -> m = 64%N) ->
    (k0 * 2 ^ 32 + k1 = sumf wt r i + Z.of_nat n * 2 ^ 63)%Z ->
    exists m' num' k0' k1', rebuild_loop n i h m num k0 k1 = Some (m', num', k0', k1') /\
      (forall j, j < KK h -> (m' <= r j)%N) /\ num' = count m' r (KK h) /\ 0 < num' /\ (k0' * 2 ^ 32 + k1' = sumf wt r (KK h))%Z.
  Proof. try clear fzero; try clear coupon_est; try clear hip_add; try clear F.
    intros Hs. induction n as [|n IH]; intros i m num k0 k1 Hn Hm Hle Hnum Hpos H0 Hk; cbn [rebuild_loop].
    - assert (i = KK h) by lia. subst i. pose proof (KK_pos h) as Hp. specialize (Hpos Hp).
      exists m, num, k0, k1. split; auto. split; auto. split; auto. split; auto. lia.
    - rewrite (get8_inv d h r i (proj2 Hs)) by lia. cbn [bindo]. pose proof (ainv_lt _ _ _ _ i Hs ltac:(lia)) as Hr.
      assert (HcS : forall m, count m r (S i) = count m r i + (if (r i =? m)%N then 1 else 0)) by (intros; apply cnt_S).
      cbv zeta. set (k0' := if (0 <? r i)%N && (r i <? 32)%N then _ else k0). set (k1' := if (32 <=? r i)%N then _ else k1).
      assert (Hk' : (k0' * 2 ^ 32 + k1' = sumf wt r (S i) + Z.of_nat n * 2 ^ 63)%Z).
      { cbn [sumf]. rewrite <- (wt_split (r i) Hr). unfold k0', k1', inv0, inv1. 
        destruct (N.ltb_spec 0 (r i)), (N.ltb_spec (r i) 32), (N.leb_spec 32 (r i)); cbn [andb]; try lia.
        replace (r i) with 0%N by lia. change (Z.of_N 0) with 0%Z. rewrite Z.sub_0_r. lia. }
      clearbody k0' k1'.
      destruct (N.ltb_spec m (r i)).
      + apply IH; auto; try lia.
        * intros j Hj. destruct (Nat.eq_dec j i) as [->|]; [lia|]. apply Hle. lia.
        * rewrite HcS. destruct (N.eqb_spec (r i) m); lia.
      + destruct (N.ltb_spec (r i) m).
        * apply IH; auto; try lia.
          -- intros j Hj. destruct (Nat.eq_dec j i) as [->|]; [lia|]. specialize (Hle j ltac:(lia)). lia.
          -- rewrite HcS, N.eqb_refl. assert (Ez : count (r i) r i = 0) by (apply cnt_zero; intros j Hj; specialize (Hle j Hj); lia). lia.
        * apply IH; auto; try lia.
          -- intros j Hj. destruct (Nat.eq_dec j i) as [->|]; [lia|]. apply Hle. lia.
          -- rewrite HcS. destruct (N.eqb_spec (r i) m); lia.
  Qed.

  Lemma rebuild_spec d h r : ainv T8 d h r -> est_ok h r ->
    exists h' d', rebuild (HArr T8 h) = Some (HArr T8 h') /\ ainv T8 d' h' r /\ est_ok h' r /\ a_rebuild h' = false /\ a_lgK h' = a_lgK h /\ a_ooo h' = a_ooo h /\ a_hip h' = a_hip h.
  Proof. try clear fzero; try clear coupon_est; try clear hip_add; try clear F.
    intros Hs He. cbn [rebuild]. destruct (a_rebuild h) eqn:Er.
    - destruct (rebuild_loop_spec d h r Hs (nslots (a_lgK h)) 0 64 0 (Z.of_N (2 ^ a_lgK h) * 2 ^ 31) 0) as (m & num & k0 & k1 & E & Hmin & Hnum & Hpos & Hk); auto; try lia.
      { cbn [sumf]. unfold nslots. rewrite <- (N2Z.id (2 ^ a_lgK h)) at 2. rewrite Z_N_nat, Z2Nat.id by lia. lia. }
      rewrite E. cbn [bindo]. destruct Hs as (HK & L & H & Hn).
      assert (Hge : count 0 r (KK h) <= num).
      { rewrite Hnum. destruct (N.eq_dec m 0) as [->|Hm0]; [auto|]. replace (count 0 r (KK h)) with 0; [lia|]. symmetry. apply cnt_zero. intros i Hi. specialize (Hmin i Hi). lia. }
      eexists. exists (num - count 0 r (KK h)). split; [reflexivity|]. split; [|split; [|repeat split; reflexivity]].
      + split; [exact HK|]. split; [exact L|]. split; [exact H|]. change (num = count 0 r (KK h) + (num - count 0 r (KK h))). lia.
      + intros _. split; [exact Hk|]. change ((if (m =? 0)%N then num else 0) = count 0 r (KK h)). destruct (N.eqb_spec m 0) as [->|Hm0]; [auto|].
        symmetry. apply cnt_zero. intros i Hi. specialize (Hmin i Hi). lia.
    - exists h, d. auto 10.
  Qed.

  (** ** States and what they show *)
  (** A sketch state of resolution lgK and type t whose registers (at its own resolution) are r; est_ok as above. *)
  Definition repr (lgK : N) (t : tgt) (s : hstate) (r : nat -> N) : Prop :=
    (exists cs, cst lgK t s cs /\ forall i, r i = regs lgK cs i) \/
    (exists h d, s = HArr t h /\ a_lgK h = lgK /\ ainv t d h r /\ est_ok h r).

  Lemma repr_range lgK t s r : repr lgK t s r -> (4 <= lgK <= 21)%N /\ st_lgK s = lgK /\ st_tgt s = t.
  Proof. try clear fzero; try clear coupon_est; try clear hip_add; try clear F.
    intros [(cs & (HK & _ & _ & H) & _)|(h & d & -> & E & Hi & _)].
    - split; auto. destruct s; [destruct H as (-> & -> & _); auto|destruct H as (-> & -> & _); auto|contradiction].
    - split; [rewrite <- E; apply Hi|auto].
  Qed.

  Lemma hinv_repr lgK t s cs : hinv fzero hip_add coupon_est lgK t s cs -> repr lgK t s (regs lgK cs).
  Proof. try clear fzero; try clear coupon_est; try clear hip_add; try clear F.
    unfold hinv. destruct (over lgK (dist cs)).
    - intros (Hv & h & -> & EK & Hi & Hk & Hh & _ & Hr & _). right. exists h, 0. split; auto. split; auto. split; auto. intros _. split.
      + apply kx_ktot; auto. intros i Hlt. eapply ainv_lt; eauto.
      + eapply hits_all; eauto.
    - intros Hc. left. exists cs. auto.
  Qed.

  (** One coupon into an HLL_8 state. *)
  Lemma repr_step lgK s r c : repr lgK T8 s r -> vcoupon c ->
    exists s', st_update fzero hip_add coupon_est s c = Some s' /\ repr lgK T8 s' (rmax r (cslot lgK c) (cval c)).
  Proof. try clear fzero; try clear coupon_est; try clear hip_add; try clear F.
    intros [(cs & Hc & Hr)|(h & d & -> & EK & Hi & He)] Hv.
    - destruct (coupon_step fzero hip_add coupon_est lgK T8 s cs c Hc Hv) as (_ & A & B). destruct A as (s' & E); [discriminate|].
      exists s'. split; auto. specialize (B s' E).
      assert (Ex : forall i, rmax r (cslot lgK c) (cval c) i = regs lgK (c :: cs) i).
      { intros i. rewrite regs_cons. unfold rmax. rewrite Hr. auto. }
      destruct (over lgK (dist (c :: cs))); [|left; exists (c :: cs); auto].
      destruct B as (h & -> & EK & Hi & Hk & Hh & _). right. exists h, 0. split; auto. split; auto. split.
      { eapply ainv_ext; [|exact Hi]. intros; symmetry; auto. }
      intros _. split.
      + apply (ktot_ext h (regs lgK (c :: cs))); [intros; symmetry; auto|]. apply kx_ktot; auto. intros i Hlt. eapply ainv_lt; eauto.
      + rewrite (hits_all T8 0 h _ Hi Hh). apply count_ext. intros; symmetry; auto.
    - cbn [st_update]. destruct (arr_step_ok T8 d h r c) as (h' & E & I & S & EK' & _); auto; [discriminate|]. rewrite E. cbn [bindo].
      eexists. split; [reflexivity|]. right. exists h', d. rewrite EK in *. split; auto.
  Qed.

  Lemma rmax2_swap lgK c cs r i : rmax2 (rmax r (cslot lgK c) (cval c)) (regs lgK cs) i = rmax2 r (regs lgK (c :: cs)) i.
  Proof. try clear fzero; try clear coupon_est; try clear hip_add; try clear F. unfold rmax2, rmax. cbn [regs]. rewrite (Nat.eqb_sym i). destruct (_ =? _); lia. Qed.

  Lemma repr_ext lgK t s r r' : (forall i, r i = r' i) -> repr lgK t s r -> repr lgK t s r'.
  Proof. try clear fzero; try clear coupon_est; try clear hip_add; try clear F.
    intros E [(cs & Hc & Hr)|(h & d & -> & EK & Hi & He)].
    - left. exists cs. split; auto. intros i. rewrite <- E. auto.
    - right. exists h, d. split; auto. split; auto. split; [eapply ainv_ext; eauto|eapply est_ok_ext; eauto].
  Qed.

  Lemma merge_coupons_repr lgK : forall l s r, repr lgK T8 s r -> Forall vcoupon (nz l) ->
    exists s', merge_coupons fzero hip_add coupon_est l s = Some s' /\ repr lgK T8 s' (rmax2 r (regs lgK (nz l))).
  Proof. try clear fzero; try clear coupon_est; try clear hip_add; try clear F.
    induction l as [|c l IH]; intros s r Hs Hv; cbn [merge_coupons].
    - exists s. split; auto. eapply repr_ext; [|exact Hs]. intros i. unfold rmax2. cbn. lia.
    - cbn [nz filter] in *. fold (nz l) in *. destruct (c =? 0)%N; cbn [negb] in *; auto.
      inversion Hv as [|? ? Hc Hv']; subst x l0. destruct (repr_step lgK s r c Hs Hc) as (s1 & E1 & R1). rewrite E1. cbn [bindo].
      destruct (IH s1 _ R1 Hv') as (s' & E' & R'). exists s'. split; auto. eapply repr_ext; [|exact R']. intros i. apply rmax2_swap.
  Qed.

  (** Exact coupon sets: merging coupons is the same as feeding them. *)
  Lemma merge_coupons_hinv lgK : forall l s cs, hinv fzero hip_add coupon_est lgK T8 s cs -> Forall vcoupon (nz l) ->
    exists s', merge_coupons fzero hip_add coupon_est l s = Some s' /\ hinv fzero hip_add coupon_est lgK T8 s' (rev (nz l) ++ cs).
  Proof. try clear fzero; try clear coupon_est; try clear hip_add; try clear F.
    induction l as [|c l IH]; intros s cs Hs Hv; cbn [merge_coupons].
    - exists s. auto.
    - cbn [nz filter] in *. fold (nz l) in *. destruct (c =? 0)%N; cbn [negb] in *; auto.
      inversion Hv as [|? ? Hc Hv']; subst x l0. destruct (hinv_step fzero hip_add coupon_est lgK T8 s cs c Hs Hc) as [A B].
      destruct A as (s1 & E1); [discriminate|]. rewrite E1. cbn [bindo]. destruct (IH s1 (c :: cs) (B s1 E1) Hv') as (s' & E' & H'). exists s'. split; auto.
      cbn [rev]. rewrite <- app_assoc. auto.
  Qed.

  Lemma cst_cells lgK t (s : hstate) cs : cst lgK t s cs -> exists arr, coupon_cells s = Some arr /\ same (nz arr) cs /\ Forall vcoupon (nz arr) /\ (st_empty s = true <-> cs = []).
  Proof. try clear fzero; try clear coupon_est; try clear hip_add; try clear F.
    intros (HK & Hv & _ & H). destruct s as [lgK' t' arr cnt|lgK' t' lgArr arr cnt|]; [| |contradiction]; cbn [coupon_cells st_empty]; exists arr.
    - destruct H as (_ & _ & _ & ds & (Hnd & Hz & Ea & Ec & _) & Hs). assert (En : nz arr = ds) by (rewrite Ea; apply nz_app_zeros; auto).
      rewrite En. split; auto. split; auto. split; [eapply Forall_same; eauto|]. rewrite Ec. destruct ds as [|d ds]; cbn [length Nat.eqb].
      + split; auto. intros _. destruct cs as [|c cs]; auto. exfalso. destruct (proj2 (Hs c)). left; auto.
      + split; [discriminate|]. intros ->. exfalso. destruct (proj1 (Hs d)). left; auto.
    - destruct H as (_ & _ & H8 & (_ & _ & Ht & Ec & _) & Hs). split; auto. split; auto. split; [eapply Forall_same; eauto|].
      assert (cnt = dist cs) by (rewrite Ec; apply dist_same; auto; eapply nz_NoDup; eauto). split.
      + intros E. apply Nat.eqb_eq in E. lia.
      + intros ->. cbn in H8. lia.
  Qed.

  Lemma cst_copy lgK t t' (s : hstate) cs : cst lgK t s cs -> exists s', copy_as fzero hip_add s t' = Some s' /\ cst lgK t' s' cs.
  Proof. try clear fzero; try clear coupon_est; try clear hip_add; try clear F.
    intros (HK & Hv & Ho & H). destruct s; [| |contradiction]; cbn [copy_as]; eexists; (split; [reflexivity|]); (split; [auto|split; [auto|split; [auto|]]]).
    - destruct H as (A & _ & B). auto.
    - destruct H as (A & _ & B). auto.
  Qed.

  (** ** The union operations *)
  Lemma un_sketch_repr u gl rg src sl ts rs :
    repr gl T8 (u_gadget u) rg -> (gl <= u_max u)%N -> repr sl ts src rs ->
    (forall h gh, src = HArr ts h -> u_gadget u = HArr T8 gh -> sl = gl) ->
    (forall h, src = HArr ts h -> (sl <= u_max u)%N) ->
    exists u' gl', un_sketch fzero hip_add coupon_est u src = Some u' /\ u_max u' = u_max u /\
      (gl' <= u_max u)%N /\
      gl' = (match src, u_gadget u with HArr _ _, HArr _ _ => gl | HArr _ _, _ => sl | _, _ => gl end) /\
      forall qs qg, (forall cs, cst sl ts src cs -> forall i, qs i = regs gl' cs i) -> ((forall cs, ~ cst sl ts src cs) -> forall i, qs i = rs i) ->
        (forall cs, cst gl T8 (u_gadget u) cs -> forall i, qg i = regs gl' cs i) -> ((forall cs, ~ cst gl T8 (u_gadget u) cs) -> forall i, qg i = rg i) ->
        repr gl' T8 (u_gadget u') (rmax2 qg qs).
  Proof. try clear fzero; try clear coupon_est; try clear hip_add; try clear F.
    intros Hg Hmax Hs Hmix Hbig. destruct (repr_range _ _ _ _ Hg) as (HKg & EKg & ETg). destruct (repr_range _ _ _ _ Hs) as (HKs & EKs & ETs).
    unfold un_sketch. cbv zeta. rewrite ETg. cbn [tgt_eqb negb].
    assert (HnotA : forall lgK t h cs, ~ cst lgK t (HArr t h) cs) by (intros lgK t h cs (_ & _ & _ & []); auto).
    (* the gadget's registers under gl when the source is in coupon mode *)
    assert (Hgl : forall qg, (forall cs, cst gl T8 (u_gadget u) cs -> forall i, qg i = regs gl cs i) -> ((forall cs, ~ cst gl T8 (u_gadget u) cs) -> forall i, qg i = rg i) -> forall i, rg i = qg i).
    { intros qg A B i. destruct Hg as [(cs & Hc & Hr)|(h & d & Eg & _)].
      - rewrite Hr. symmetry. apply A. auto.
      - symmetry. apply B. intros cs. rewrite Eg. auto. }
    destruct Hs as [(cs & Hcs & Hrs)|(h & d & -> & EK & Hi & He)].
    - destruct (cst_cells _ _ _ _ Hcs) as (arr & Earr & Hsame & Hval & Hemp).
      assert (Hregs : forall qs, (forall cs, cst sl ts src cs -> forall i, qs i = regs gl cs i) -> forall i, regs gl (nz arr) i = qs i).
      { intros qs A i. rewrite (A cs Hcs i). apply regs_same; auto. }
      assert (Emode : (match src, u_gadget u with HArr _ _, HArr _ _ => gl | HArr _ _, _ => sl | _, _ => gl end) = gl) by (destruct src; auto; discriminate).
      rewrite Emode. destruct (st_empty src) eqn:Ee.
      + exists u, gl. split; auto. split; auto. split; auto. split; auto. intros qs qg A _ C D. assert (cs = []) by (apply Hemp; auto). subst cs.
        eapply repr_ext; [|exact Hg]. intros i. unfold rmax2. rewrite (A [] Hcs i), (Hgl qg C D i). cbn [regs]. lia.
      + assert (Hmerge : exists s', merge_coupons fzero hip_add coupon_est arr (u_gadget u) = Some s' /\ repr gl T8 s' (rmax2 rg (regs gl (nz arr)))) by (apply merge_coupons_repr; auto).
        assert (Hres : exists s', (match src with HList _ _ arr _ => merge_coupons fzero hip_add coupon_est arr (u_gadget u)
             | HSet lgK _ _ arr _ => if st_empty (u_gadget u) && (lgK =? st_lgK (u_gadget u))%N then copy_as fzero hip_add src T8 else merge_coupons fzero hip_add coupon_est arr (u_gadget u)
             | HArr _ _ => None end) = Some s' /\ repr gl T8 s' (rmax2 rg (regs gl (nz arr)))).
        { destruct src as [lgK' t' arr' cnt'|lgK' t' lgArr' arr' cnt'|]; cbn [coupon_cells] in Earr; [| |discriminate]; inversion Earr; subst arr'; auto.
          destruct (st_empty (u_gadget u)) eqn:Eeg; [|auto]. cbn [andb]. destruct (N.eqb_spec lgK' (st_lgK (u_gadget u))) as [El|]; auto.
          cbn [st_lgK] in EKs. assert (sl = gl) by congruence. destruct (cst_copy sl ts T8 _ cs Hcs) as (s' & E' & C'). exists s'. split; auto. left. exists cs. 
          rewrite H in C'. split; auto. intros i. unfold rmax2. rewrite (regs_same gl _ _ i Hsame).
          destruct Hg as [(gs & Hgs & Hgr)|(gh & gd & Eg & _)]; [|rewrite Eg in Eeg; discriminate].
          destruct (cst_cells _ _ _ _ Hgs) as (_ & _ & _ & _ & Hge). rewrite Hgr. replace gs with (@nil N) by (symmetry; apply Hge; auto). cbn [regs]. lia. }
        destruct Hres as (s' & E' & R').
        exists (mkUn (u_max u) s'), gl. split.
        { destruct src; [rewrite E'; reflexivity|rewrite E'; reflexivity|discriminate]. }
        split; auto. split; auto. split; auto. intros qs qg A _ C D. cbn [u_gadget]. eapply repr_ext; [|exact R'].
        intros i. unfold rmax2. rewrite (Hregs qs A i), (Hgl qg C D i). auto.
    - cbn [st_empty]. destruct (N.ltb_spec (u_max u) (a_lgK h)) as [Hb|Hb]; [specialize (Hbig h eq_refl); lia|].
      assert (Hqs : forall qs, ((forall cs, ~ cst sl ts (HArr ts h) cs) -> forall i, qs i = rs i) -> forall i, qs i = rs i) by (intros qs A; apply A; auto).
      destruct (copy_arr_spec ts d h rs T8 Hi He) as [Hcp Hcp']. destruct Hcp as (s8 & E8); [discriminate|]. destruct (Hcp' s8 E8) as (h8 & d8 & -> & EK8 & I8 & S8 & _).
      destruct Hg as [(gs & Hgs & Hgr)|(gh & gd & Eg & EKgh & Ig & Sg)].
      + destruct (cst_cells _ _ _ _ Hgs) as (garr & Egarr & Hgsame & Hgval & Hgemp).
        assert (Emode : (match u_gadget u with HArr _ _ => gl | _ => sl end) = sl) by (destruct (u_gadget u); auto; discriminate). rewrite Emode.
        destruct (st_empty (u_gadget u)) eqn:Eeg.
        * exists (mkUn (u_max u) (HArr T8 h8)), sl. rewrite E8. cbn [bindo]. split; auto. split; auto. split; [lia|]. split; auto.
          intros qs qg _ B C _. cbn [u_gadget]. right. exists h8, d8. split; auto. split; [congruence|].
          assert (Ex : forall i, rs i = rmax2 qg qs i). { intros i. unfold rmax2. rewrite (Hqs qs B i), (C gs Hgs i). replace gs with (@nil N) by (symmetry; apply Hgemp; auto). cbn [regs]. lia. }
          split; [eapply ainv_ext; eauto|eapply est_ok_ext; eauto].
        * assert (R8 : repr sl T8 (HArr T8 h8) rs) by (right; exists h8, d8; rewrite EK8; auto).
          destruct (merge_coupons_repr sl garr (HArr T8 h8) rs R8 Hgval) as (s' & E' & R').
          exists (mkUn (u_max u) s'), sl. split.
          { destruct (u_gadget u) as [? ? a ?|? ? ? a ?|]; cbn [coupon_cells] in Egarr; [| |discriminate]; inversion Egarr; subst a; rewrite E8; cbn [bindo]; rewrite E'; auto. }
          split; auto. split; [lia|]. split; auto. intros qs qg _ B C _. cbn [u_gadget]. eapply repr_ext; [|exact R'].
          intros i. unfold rmax2. rewrite (Hqs qs B i), (C gs Hgs i), (regs_same sl _ _ i Hgsame). lia.
      + rewrite Eg. cbn [st_empty]. assert (sl = gl) by (eapply Hmix; eauto). 
        destruct (merge_hll_spec ts d h rs gd gh rg Hi Ig) as (g' & d' & E' & I' & Rb & EK' & _); [rewrite EK, EKgh; lia|].
        rewrite E'. cbn [bindo]. exists (mkUn (u_max u) (HArr T8 (set_ooo fzero g' true))), gl. split; auto. split; auto. split; auto. split; auto.
        intros qs qg _ B _ D. cbn [u_gadget]. right. exists (set_ooo fzero g' true), d'. split; auto. split; [change (a_lgK g' = gl); congruence|].
        assert (EKK : KK h = KK g') by (unfold KK; congruence).
        split; [|intros Hf; change (a_rebuild g' = false) in Hf; congruence].
        assert (I2 : ainv T8 d' (set_ooo fzero g' true) (mupto (KK h) rs rg)) by exact I'.
        eapply ainv_ext; [|exact I2]. intros i Hlt. change (KK _) with (KK g') in Hlt. unfold mupto, rmax2. rewrite EKK.
        destruct (Nat.ltb_spec i (KK g')); [|lia]. rewrite (Hqs qs B i), D; auto.
  Qed.

  (** Coupon-mode gadget and coupon-mode source: exactly the union of the two coupon sets. *)
  Lemma un_sketch_coupons u gl gs src sl ts ss : hinv fzero hip_add coupon_est gl T8 (u_gadget u) gs -> cst sl ts src ss ->
    exists u' cs, un_sketch fzero hip_add coupon_est u src = Some u' /\ u_max u' = u_max u /\ hinv fzero hip_add coupon_est gl T8 (u_gadget u') cs /\ same cs (ss ++ gs).
  Proof. try clear fzero; try clear coupon_est; try clear hip_add; try clear F.
    intros Hg Hs. pose proof (repr_range _ _ _ _ (hinv_repr _ _ _ _ Hg)) as (HKg & EKg & ETg).
    destruct (cst_cells _ _ _ _ Hs) as (arr & Earr & Hsame & Hval & Hemp). unfold un_sketch. cbv zeta. rewrite ETg. cbn [tgt_eqb negb].
    destruct (st_empty src) eqn:Ee.
    - exists u, gs. split; auto. split; auto. split; auto. assert (ss = []) by (apply Hemp; auto). subst ss. intros c. reflexivity.
    - destruct (merge_coupons_hinv gl arr (u_gadget u) gs Hg Hval) as (s' & E' & H').
      assert (Hres : same (rev (nz arr) ++ gs) (ss ++ gs)). { intros c. rewrite !in_app_iff, <- in_rev, (Hsame c). tauto. }
      destruct src as [lgK' t' arr' cnt'|lgK' t' lgArr' arr' cnt'|]; cbn [coupon_cells] in Earr; [| |discriminate]; inversion Earr; subst arr'.
      + rewrite E'. cbn [bindo]. eexists. eexists. split; [reflexivity|]. split; auto. split; [exact H'|]. auto.
      + destruct (st_empty (u_gadget u) && (lgK' =? st_lgK (u_gadget u))%N) eqn:Ec.
        * apply andb_prop in Ec. destruct Ec as [Eeg El]. apply N.eqb_eq in El. pose proof Hs as (_ & _ & _ & (Ek & _)). assert (sl = gl) by congruence. clear Ek.
          destruct (cst_copy sl ts T8 _ ss Hs) as (s2 & E2 & C2). rewrite E2. cbn [bindo]. eexists. exists ss. split; [reflexivity|]. split; auto.
          rewrite H in C2. split.
          { cbn [u_gadget]. unfold hinv. destruct C2 as (A1 & A2 & A3 & A4). rewrite A3. split; auto. }
          unfold hinv in Hg. destruct (over gl (dist gs)).
          { destruct Hg as (_ & gh & Eg & _). rewrite Eg in Eeg. discriminate. }
          destruct (cst_cells _ _ _ _ Hg) as (_ & _ & _ & _ & Hge). replace gs with (@nil N) by (symmetry; apply Hge; auto). rewrite app_nil_r. intros c. reflexivity.
        * rewrite E'. cbn [bindo]. eexists. eexists. split; [reflexivity|]. split; auto. split; [exact H'|]. auto.
  Qed.

  Lemma un_result_repr u gl r t : repr gl T8 (u_gadget u) r ->
    ((t = T4 -> 8 * exc 0 r (nslots gl) <= 3 * nslots gl) -> exists u' s, un_result fzero hip_add u t = Some (u', s)) /\
    forall u' s, un_result fzero hip_add u t = Some (u', s) -> u_max u' = u_max u /\ repr gl T8 (u_gadget u') r /\ repr gl t s r /\
      (forall h, s = HArr t h -> a_rebuild h = false) /\
      (forall cs, cst gl T8 (u_gadget u) cs -> u' = u /\ cst gl t s cs).
  Proof. try clear fzero; try clear coupon_est; try clear hip_add; try clear F.
    intros [(cs & Hc & Hr)|(h & d & Eg & EK & Hi & He)]; unfold un_result.
    - destruct (cst_copy gl T8 t _ cs Hc) as (s' & E' & C').
      assert (Er : rebuild (u_gadget u) = Some (u_gadget u)) by (destruct Hc as (_ & _ & _ & H); destruct (u_gadget u); auto; contradiction).
      rewrite Er. cbn [bindo]. rewrite E'. cbn [bindo]. split; [eauto|]. intros u' s E. inversion E; subst u' s. clear E.
      split; auto. split; [left; exists cs; auto|]. split; [left; exists cs; auto|]. split.
      { intros h ->. destruct C' as (_ & _ & _ & []). }
      intros cs' Hc'. split; [destruct u; auto|]. destruct (cst_copy gl T8 t _ cs' Hc') as (s2 & E2 & C2). congruence.
    - destruct (rebuild_spec d h r Hi He) as (h1 & d1 & E1 & I1 & S1 & R1 & EK1 & _). rewrite Eg, E1. cbn [bindo].
      destruct (copy_arr_spec T8 d1 h1 r t I1 S1) as [A B]. split.
      + intros Hcap. destruct A as (s' & E'). { intros Ht. unfold KK. rewrite EK1, EK. auto. } rewrite E'. cbn [bindo]. eauto.
      + intros u' s E. destruct (copy_as fzero hip_add (HArr T8 h1) t) as [s'|] eqn:Es; cbn [bindo] in E; [|discriminate]. inversion E; subst u' s. clear E.
        destruct (B s' eq_refl) as (h2 & d2 & -> & EK2 & I2 & S2 & _). split; auto. cbn [u_gadget].
        split; [right; exists h1, d1; rewrite EK1; auto|]. split; [right; exists h2, d2; rewrite EK2, EK1; auto|]. split.
        * intros h' Eh. inversion Eh; subst h'. cbn [copy_as] in Es. destruct (tgt_eqb T8 t) eqn:Et.
          { inversion Es; subst. auto. }
          destruct t; [| |discriminate].
          -- destruct (convert_4 fzero hip_add T8 h1) as [hx|] eqn:Ex; cbn [bindo] in Es; [|discriminate]. inversion Es; subst hx.
             apply (convert_4_spec T8 d1 h1 r I1) in Ex. apply Ex.
          -- destruct (convert_68_spec T8 d1 h1 r T6 ltac:(discriminate) I1) as (hx & Ex & C). rewrite Ex in Es. cbn [bindo] in Es. inversion Es; subst hx. apply C.
        * intros cs Hc. exfalso. destruct Hc as (_ & _ & _ & []).
  Qed.

  Lemma un_coupon_repr u gl r c : repr gl T8 (u_gadget u) r -> vcoupon c ->
    exists u', un_coupon fzero hip_add coupon_est u c = Some u' /\ u_max u' = u_max u /\ repr gl T8 (u_gadget u') (rmax r (cslot gl c) (cval c)).
  Proof. try clear fzero; try clear coupon_est; try clear hip_add; try clear F.
    intros Hr Hc. unfold un_coupon. rewrite sk_update_valid by auto. destruct (repr_step gl (u_gadget u) r c Hr Hc) as (s' & E & R). rewrite E. cbn [bindo]. eauto.
  Qed.
End UnionProofs.
