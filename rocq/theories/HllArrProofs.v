(** * The three HLL array types: representation invariants and the effect of one update. *)
From Verif Require Import Base ProbeModel ProbeProofs Bytes Arr HllModel HllPack.
Local Open Scope nat_scope.

(** Registers as a function of the slot; [rmax r s v] raises slot s to at least v. *)
Definition rmax (r : nat -> N) (s : nat) (v : N) : nat -> N := fun i => if i =? s then N.max (r i) v else r i.
(** How many of the first K slots satisfy p. *)
Definition cnt (p : nat -> bool) (K : nat) : nat := length (filter p (seq 0 K)).
Definition count (m : N) (r : nat -> N) (K : nat) : nat := cnt (fun i => r i =? m)%N K.
Definition exc (m : N) (r : nat -> N) (K : nat) : nat := cnt (fun i => m + 15 <=? r i)%N K.

Lemma cnt_S p K : cnt p (S K) = cnt p K + (if p K then 1 else 0).
Proof. unfold cnt. rewrite seq_S, filter_app, app_length. cbn [filter plus]. destruct (p K); reflexivity. Qed.
Lemma cnt_ext p q K : (forall i, i < K -> p i = q i) -> cnt p K = cnt q K.
Proof. induction K; intros H; auto. rewrite !cnt_S, (IHK (fun i Hi => H i (Nat.lt_lt_succ_r _ _ Hi))), (H K) by lia. auto. Qed.
Lemma cnt_le p q K : (forall i, i < K -> p i = true -> q i = true) -> cnt p K <= cnt q K.
Proof.
  induction K; intros H; auto. rewrite !cnt_S. specialize (IHK ltac:(intros; apply H; auto; lia)).
  specialize (H K ltac:(lia)). destruct (p K), (q K); lia.
Qed.
Lemma cnt_zero p K : cnt p K = 0 <-> forall i, i < K -> p i = false.
Proof.
  induction K; [split; [lia|reflexivity]|]. rewrite cnt_S. split.
  - intros H i Hi. destruct (Nat.eq_dec i K) as [->|]; [destruct (p K); auto; lia|]. apply IHK; lia.
  - intros H. rewrite (proj2 IHK) by (intros; apply H; lia). rewrite H by lia. auto.
Qed.
Lemma cnt_upd p q s K : s < K -> (forall i, i <> s -> p i = q i) ->
  cnt p K + (if q s then 1 else 0) = cnt q K + (if p s then 1 else 0).
Proof.
  intros Hs H. induction K; [lia|]. rewrite !cnt_S. destruct (Nat.eq_dec s K) as [->|].
  - rewrite (cnt_ext p q K) by (intros; apply H; lia). destruct (p K), (q K); lia.
  - rewrite (H K) by lia. specialize (IHK ltac:(lia)). destruct (q K), (p s), (q s); lia.
Qed.
Lemma cnt_bound p K : cnt p K <= K.
Proof. unfold cnt. rewrite <- (seq_length K 0) at 2. generalize (seq 0 K). induction l; cbn; auto. destruct (p a); cbn; lia. Qed.

Lemma count_ext m r r' K : (forall i, i < K -> r i = r' i) -> count m r K = count m r' K.
Proof. intros H. apply cnt_ext. intros i Hi. rewrite H; auto. Qed.

Lemma exc_ext m r r' K : (forall i, i < K -> r i = r' i) -> exc m r K = exc m r' K.
Proof. intros H. apply cnt_ext. intros i Hi. rewrite H; auto. Qed.

Lemma nslots_even lgK : (4 <= lgK)%N -> nslots lgK = 2 * nslots (lgK - 1).
Proof. intros H. unfold nslots. replace lgK with (lgK - 1 + 1)%N at 1 by lia. apply pow_succ_nat. Qed.
Lemma nslots_4 lgK : (4 <= lgK)%N -> exists m, nslots lgK = 4 * m /\ 4 <= m.
Proof.
  intros H. exists (nslots (lgK - 2)). unfold nslots. split.
  - replace lgK with (lgK - 2 + 1 + 1)%N at 1 by lia. rewrite !pow_succ_nat. lia.
  - assert (2 ^ 2 <= 2 ^ (lgK - 2))%N by (apply N.pow_le_mono_r; lia). change (2 ^ 2)%N with 4%N in *. lia.
Qed.
Lemma nslots_slot lgK i : i < nslots lgK <-> (N.of_nat i < 2 ^ lgK)%N.
Proof. unfold nslots. lia. Qed.

Section ArrProofs.
  Context {F : Type}.
  Variable fzero : F.
  Variable hip_add : N -> Z -> Z -> F -> F.
  Notation harr := (harr F).
  Implicit Types h : harr.

  Definition est_of h := (a_lgK h, a_ooo h, a_rebuild h, a_hip h, a_kxq0 h, a_kxq1 h).
  (** The estimator registers after a slot has risen from old to v. *)
  Definition bump h (old v : N) : harr :=
    set_est h (hip_add (a_lgK h) (a_kxq0 h) (a_kxq1 h) (a_hip h)) (a_kxq0 h - inv0 old + inv0 v)%Z (a_kxq1 h - inv1 old + inv1 v)%Z.
  Definition est_step h h' (old v : N) : Prop := est_of h' = est_of (if (old <? v)%N then bump h old v else h).

  Lemma hip_kxq_eq h old v : (old < v)%N -> hip_kxq hip_add h old v = Some (bump h old v).
  Proof. try clear fzero; try clear hip_add; try clear F. intros H. unfold hip_kxq. destruct (N.leb_spec v old); [lia|]. reflexivity. Qed.

  Definition KK h := nslots (a_lgK h).

  Definition inv8 (d : nat) h (r : nat -> N) : Prop :=
    length (a_bytes h) = KK h /\ (forall i, i < KK h -> nth_error (a_bytes h) i = Some (r i) /\ (r i < 64)%N) /\
    a_num h = count 0 r (KK h) + d.
  Definition inv6 (d : nat) h (r : nat -> N) : Prop :=
    length (a_bytes h) = KK h * 3 / 4 + 1 /\ bytes_ok (a_bytes h) /\
    (forall i, i < KK h -> get6 (a_bytes h) i = Some (r i) /\ (r i < 64)%N) /\
    a_num h = count 0 r (KK h) + d.
  Definition aux_ok (lgK m : N) (x : option auxmap) (r : nat -> N) : Prop :=
    match x with
    | None => forall i, i < nslots lgK -> (r i < m + 15)%N
    | Some x => wf_aux lgK x /\ forall i v, has lgK (x_arr x) i v <-> (i < nslots lgK /\ r i = v /\ (m + 15 <= v)%N)
    end.
  Definition nib (m v : N) : N := if (v <? m + 15)%N then (v - m)%N else 15%N.
  Definition core4 h (r : nat -> N) : Prop :=
    length (a_bytes h) = nslots (a_lgK h - 1) /\ bytes_ok (a_bytes h) /\
    (forall i, i < KK h -> (a_curMin h <= r i < 64)%N /\ get_nibble (a_bytes h) i = Some (nib (a_curMin h) (r i))) /\
    aux_ok (a_lgK h) (a_curMin h) (a_aux h) r.
  Definition inv4 h (r : nat -> N) : Prop :=
    core4 h r /\ a_num h = count (a_curMin h) r (KK h) /\ 0 < a_num h.

  Definition ainv (t : tgt) (d : nat) h (r : nat -> N) : Prop :=
    (4 <= a_lgK h <= 21)%N /\
    match t with T4 => inv4 h r | T6 => inv6 d h r | T8 => inv8 d h r end.

  (** ** HLL_8 *)
  Lemma land63_small x : (x < 64)%N -> N.land x 63 = x.
  Proof. try clear fzero; try clear hip_add; try clear F. intros H. change 63%N with (N.ones 6). rewrite N.land_ones. apply N.mod_small. auto. Qed.

  Lemma get8_inv d h r i : inv8 d h r -> i < KK h -> get8 (a_bytes h) i = Some (r i).
  Proof. try clear fzero; try clear hip_add; try clear F. intros (_ & H & _) Hi. destruct (H i Hi) as [E Hr]. unfold get8. rewrite E. cbn [bindo]. rewrite land63_small; auto. Qed.

  Lemma rmax_same r s v i : (v <= r s)%N -> rmax r s v i = r i.
  Proof. try clear fzero; try clear hip_add; try clear F. intros H. unfold rmax. destruct (Nat.eqb_spec i s); subst; lia. Qed.
  Lemma rmax_at r s v : (r s < v)%N -> rmax r s v s = v.
  Proof. try clear fzero; try clear hip_add; try clear F. intros H. unfold rmax. rewrite Nat.eqb_refl. lia. Qed.
  Lemma rmax_other r s v i : i <> s -> rmax r s v i = r i.
  Proof. try clear fzero; try clear hip_add; try clear F. intros H. unfold rmax. destruct (Nat.eqb_spec i s); congruence. Qed.

  Lemma count_rmax m r s v K : s < K -> (r s < v)%N ->
    count m (rmax r s v) K + (if (r s =? m)%N then 1 else 0) = count m r K + (if (v =? m)%N then 1 else 0).
  Proof. try clear fzero; try clear hip_add; try clear F.
    intros Hs Hv. unfold count. pose proof (cnt_upd (fun i => rmax r s v i =? m)%N (fun i => r i =? m)%N s K Hs) as H. cbv beta in H.
    rewrite rmax_at in H by auto. apply H. intros i Hi. rewrite rmax_other; auto.
  Qed.

  Lemma update8_spec d h r slot v : inv8 d h r -> slot < KK h -> (v < 64)%N ->
    exists h', update8 hip_add h slot v = Some h' /\ inv8 d h' (rmax r slot v) /\ est_step h h' (r slot) v /\ a_curMin h' = a_curMin h.
  Proof. try clear fzero; try clear hip_add; try clear F.
    intros Hi Hs Hv. unfold update8. rewrite (get8_inv d h r) by auto. cbn [bindo]. unfold est_step.
    destruct (N.ltb_spec (r slot) v) as [Hlt|Hge].
    - rewrite hip_kxq_eq by auto. cbn [bindo]. unfold dec_zeros. destruct Hi as (L & H & Hnum).
      assert (Hc := count_rmax 0 r slot v (KK h) Hs Hlt). destruct (N.eqb_spec v 0); [lia|].
      assert (Hb : forall i, i < KK h -> nth_error (upd slot (N.land v 63) (a_bytes h)) i = Some (rmax r slot v i) /\ (rmax r slot v i < 64)%N).
      { intros i Hi. rewrite nth_error_upd, L. destruct (Nat.eqb_spec slot i) as [<-|Hne].
        - destruct (Nat.ltb_spec slot (KK h)); [|lia]. rewrite rmax_at, land63_small by auto. auto.
        - rewrite rmax_other by auto. apply H; auto. }
      destruct (N.eqb_spec (r slot) 0) as [E0|N0].
      + change (a_num (bump _ _ _)) with (a_num h). destruct (Nat.eqb_spec (a_num h) 0) as [En|En]; [lia|].
        eexists. split; [reflexivity|]. split; [|split; reflexivity].
        split; [|split; [exact Hb|]].
        * change (length (upd slot (N.land v 63) (a_bytes h)) = KK h). rewrite upd_length. auto.
        * change (a_num h - 1 = count 0 (rmax r slot v) (KK h) + d). lia.
      + eexists. split; [reflexivity|]. split; [|split; reflexivity].
        split; [|split; [exact Hb|]].
        * change (length (upd slot (N.land v 63) (a_bytes h)) = KK h). rewrite upd_length. auto.
        * change (a_num h = count 0 (rmax r slot v) (KK h) + d). lia.
    - exists h. split; auto. split; [|split; reflexivity]. destruct Hi as (L & H & Hnum). split; [auto|]. split.
      + intros i Hi. rewrite rmax_same by auto. auto.
      + rewrite Hnum. f_equal. apply count_ext. intros. symmetry. apply rmax_same; auto.
  Qed.

  (** ** HLL_6 *)
  Lemma slot6_bound h slot : (4 <= a_lgK h)%N -> slot < KK h -> slot * 6 / 8 + 1 < KK h * 3 / 4 + 1.
  Proof. try clear fzero; try clear hip_add; try clear F. intros H Hs. unfold KK in *. destruct (nslots_4 _ H) as (m & E & _). rewrite E in *. lia. Qed.

  Lemma update6_spec d h r slot v : (4 <= a_lgK h)%N -> inv6 d h r -> slot < KK h -> (v < 64)%N ->
    exists h', update6 hip_add h slot v = Some h' /\ inv6 d h' (rmax r slot v) /\ est_step h h' (r slot) v /\ a_curMin h' = a_curMin h.
  Proof. try clear fzero; try clear hip_add; try clear F.
    intros Hk (L & B & H & Hnum) Hs Hv. unfold update6. rewrite (proj1 (H slot Hs)). cbn [bindo]. unfold est_step.
    destruct (N.ltb_spec (r slot) v) as [Hlt|Hge].
    - destruct (put6_spec (a_bytes h) slot v B) as (b' & E & Lb & Bb & Hg); [rewrite L; apply slot6_bound; auto|auto|].
      rewrite E. cbn [bindo]. rewrite hip_kxq_eq by auto. cbn [bindo]. unfold dec_zeros.
      assert (Hc := count_rmax 0 r slot v (KK h) Hs Hlt). destruct (N.eqb_spec v 0); [lia|].
      assert (Hb : forall i, i < KK h -> get6 b' i = Some (rmax r slot v i) /\ (rmax r slot v i < 64)%N).
      { intros i Hi. rewrite Hg by (rewrite L; apply slot6_bound; auto). destruct (Nat.eqb_spec i slot) as [->|Hne].
        - rewrite rmax_at by auto. auto.
        - rewrite rmax_other by auto. auto. }
      destruct (N.eqb_spec (r slot) 0) as [E0|N0].
      + change (a_num (bump _ _ _)) with (a_num h). destruct (Nat.eqb_spec (a_num h) 0) as [En|En]; [lia|].
        eexists. split; [reflexivity|]. split; [|split; reflexivity].
        split; [|split; [exact Bb|split; [exact Hb|]]].
        * change (length b' = KK h * 3 / 4 + 1). lia.
        * change (a_num h - 1 = count 0 (rmax r slot v) (KK h) + d). lia.
      + eexists. split; [reflexivity|]. split; [|split; reflexivity].
        split; [|split; [exact Bb|split; [exact Hb|]]].
        * change (length b' = KK h * 3 / 4 + 1). lia.
        * change (a_num h = count 0 (rmax r slot v) (KK h) + d). lia.
    - exists h. split; auto. split; [|split; reflexivity]. split; [auto|]. split; [auto|]. split.
      + intros i Hi. rewrite rmax_same by auto. auto.
      + rewrite Hnum. f_equal. apply count_ext. intros. symmetry. apply rmax_same; auto.
  Qed.

  (** ** HLL_4: exceptions *)
  Lemma aux_cnt lgK m x r : (4 <= lgK <= 21)%N -> aux_ok lgK m (Some x) r -> x_cnt x = exc m r (nslots lgK).
  Proof. try clear fzero; try clear hip_add; try clear F.
    intros HK (W & H). pose proof W as (_ & Ht & Hc & _ & Hp). rewrite Hc. unfold exc, cnt. rewrite <- (map_length (fun i => mk_pair i (r i))).
    apply NoDup_same_length.
    - apply NoDup_map_inv with (f := akey lgK). apply uniq_NoDup. apply Ht.
    - assert (HN : NoDup (filter (fun i => m + 15 <=? r i)%N (seq 0 (nslots lgK)))) by (apply NoDup_filter, seq_NoDup).
      assert (HI : forall i, In i (filter (fun i => m + 15 <=? r i)%N (seq 0 (nslots lgK))) -> (N.of_nat i < 2 ^ lgK)%N).
      { intros i Hi. apply filter_In in Hi. destruct Hi as [Hi _]. apply in_seq in Hi. apply nslots_slot. lia. }
      revert HN HI. generalize (filter (fun i => m + 15 <=? r i)%N (seq 0 (nslots lgK))). induction l; intros HN HI; cbn [map]; constructor.
      + intros Hin. apply in_map_iff in Hin. destruct Hin as (j & Ej & Hj). apply (mk_pair_inj lgK HK) in Ej; try (apply HI; [right|left]; auto; fail).
        * destruct Ej as [-> _]. inversion HN; auto.
        * apply HI. right; auto.
        * apply HI. left; auto.
      + apply IHl. inversion HN; auto. intros; apply HI; right; auto.
    - intros p. rewrite in_map_iff. split.
      + intros Hin. apply contents_In in Hin. destruct Hin as (Hin & k & Hk).
        assert (p <> 0%N) by (intros ->; discriminate). destruct (Hp p Hin H0) as (s & v & -> & Hs & Hv).
        assert (Hh : has lgK (x_arr x) s v) by (split; auto). apply H in Hh. destruct Hh as (A & B & C).
        exists s. split; [congruence|]. apply filter_In. split; [apply in_seq; lia|]. rewrite B. lia.
      + intros (i & <- & Hi). apply filter_In in Hi. destruct Hi as (Hi & Hm). apply in_seq in Hi.
        assert (Hh : has lgK (x_arr x) i (r i)) by (apply H; split; [lia|]; split; [auto|lia]).
        apply (has_contents lgK HK) in Hh. apply Hh.
  Qed.

  Lemma exc_none lgK m r : aux_ok lgK m None r -> exc m r (nslots lgK) = 0.
  Proof. try clear fzero; try clear hip_add; try clear F. intros H. apply cnt_zero. intros i Hi. specialize (H i Hi). lia. Qed.

  (** Adding an exception to a possibly absent map. *)
  Lemma add_exception lgK m xo r slot v : (4 <= lgK <= 21)%N -> aux_ok lgK m xo r -> slot < nslots lgK -> (r slot < m + 15)%N -> (m + 15 <= v)%N ->
    let add := (do x <- match xo with Some x => Some x | None => new_aux lgK end; aux_add x lgK slot v) in
    (8 * exc m (rmax r slot v) (nslots lgK) <= 3 * nslots lgK ->
       exists x', add = Some x' /\ aux_ok lgK m (Some x') (rmax r slot v)) /\
    (3 * nslots lgK < 8 * exc m (rmax r slot v) (nslots lgK) -> add = None).
  Proof. try clear fzero; try clear hip_add; try clear F.
    intros HK Hx Hs Hr Hv. cbv zeta.
    assert (Hcnt : exc m (rmax r slot v) (nslots lgK) = exc m r (nslots lgK) + 1).
    { unfold exc. pose proof (cnt_upd (fun i => m + 15 <=? rmax r slot v i)%N (fun i => m + 15 <=? r i)%N slot (nslots lgK) Hs) as Hu.
      cbv beta in Hu. rewrite rmax_at in Hu by lia. specialize (Hu ltac:(intros i Hi; rewrite rmax_other; auto)).
      destruct (N.leb_spec (m + 15) v), (N.leb_spec (m + 15) (r slot)); lia. }
    assert (Hgen : forall x, wf_aux lgK x -> x_cnt x = exc m r (nslots lgK) ->
       (forall i w, has lgK (x_arr x) i w <-> (i < nslots lgK /\ r i = w /\ (m + 15 <= w)%N)) ->
       (8 * exc m (rmax r slot v) (nslots lgK) <= 3 * nslots lgK ->
         exists x', aux_add x lgK slot v = Some x' /\ aux_ok lgK m (Some x') (rmax r slot v)) /\
       (3 * nslots lgK < 8 * exc m (rmax r slot v) (nslots lgK) -> aux_add x lgK slot v = None)).
    { intros x W Hc Hh. assert (Hno : forall w, ~ has lgK (x_arr x) slot w).
      { intros w Hw. apply Hh in Hw. lia. }
      destruct (aux_add_spec lgK HK x slot v W (proj1 (nslots_slot _ _) Hs) ltac:(lia) Hno) as [A B].
      rewrite Hcnt, <- Hc. split; [|exact B]. intros Hcap. destruct (A Hcap) as (x' & E & W' & _ & Hh'). exists x'. split; [auto|].
      split; [auto|]. intros i w. rewrite Hh', Hh. destruct (Nat.eq_dec i slot) as [->|Hne].
      - rewrite rmax_at by lia. split; [intros [[_ ->]|H]; lia|]. intros H. left. split; [auto|]. lia.
      - rewrite rmax_other by auto. tauto. }
    destruct xo as [x|]; cbn [bindo].
    - apply Hgen; [apply Hx| |apply Hx]. eapply aux_cnt; eauto.
    - destruct (aux_new_wf lgK HK) as (x & E & W & Hc & _ & Hh). rewrite E. cbn [bindo]. apply Hgen; auto.
      + rewrite (exc_none lgK m r Hx). auto.
      + intros i w. split; [intros H; apply Hh in H; contradiction|]. intros (A & B & C). specialize (Hx i A). lia.
  Qed.

  (** ** HLL_4: raising curMin *)
  Lemma nib_lt m v : (nib m v < 16)%N.
  Proof. try clear fzero; try clear hip_add; try clear F. unfold nib. destruct (N.ltb_spec v (m + 15)); lia. Qed.

  Definition decn (x : N) : N := if (x <? 15)%N then (x - 1)%N else 15%N.

  Lemma shift_walk_spec : forall n i b (f : nat -> N) hasAux atMin toks,
    bytes_ok b -> (i + n) / 2 <= length b -> (i + n) = 2 * ((i + n) / 2) ->
    (forall s, i <= s < i + n -> get_nibble b s = Some (f s) /\ (0 < f s)%N /\ (hasAux = false -> f s <> 15%N)) ->
    exists b', shift_walk n i b hasAux atMin toks =
        Some (b', atMin + (cnt (fun s => f s =? 1)%N (i + n) - cnt (fun s => f s =? 1)%N i),
                  toks + (cnt (fun s => f s =? 15)%N (i + n) - cnt (fun s => f s =? 15)%N i)) /\
      length b' = length b /\ bytes_ok b' /\
      (forall s, i <= s < i + n -> get_nibble b' s = Some (decn (f s))) /\
      (forall s, ~ (i <= s < i + n) -> get_nibble b' s = get_nibble b s).
  Proof. try clear fzero; try clear hip_add; try clear F.
    induction n as [|n IH]; intros i b f hasAux atMin toks Hb Hlen Hev Hf; cbn [shift_walk].
    - exists b. rewrite Nat.add_0_r, !Nat.sub_diag, !Nat.add_0_r. repeat split; auto. intros; lia.
    - destruct (Hf i ltac:(lia)) as (E & Hpos & Hax). rewrite E. cbn [bindo].
      assert (Hmono : forall p, cnt p (S i) <= cnt p (S i + n)).
      { intros p. clear. induction n; [rewrite Nat.add_0_r; auto|]. rewrite Nat.add_succ_r, (cnt_S p (S i + n)). lia. }
      assert (M1 := Hmono (fun s => f s =? 1)%N). assert (M2 := Hmono (fun s => f s =? 15)%N). clear Hmono.
      assert (C1 := cnt_S (fun s => f s =? 1)%N i). assert (C2 := cnt_S (fun s => f s =? 15)%N i). cbv beta in C1, C2.
      destruct (N.eqb_spec (f i) 0); [lia|]. destruct (N.ltb_spec (f i) 15) as [Hl|Hg].
      + destruct (put_nibble_spec b i (f i - 1)%N Hb) as (b1 & E1 & L1 & B1 & G1); [lia|lia|]. rewrite E1. cbn [bindo].
        destruct (IH (S i) b1 f hasAux (if (f i - 1 =? 0)%N then atMin + 1 else atMin) toks) as (b' & E' & L' & B' & G' & O'); auto.
        { rewrite L1. replace (S i + n) with (i + S n) by lia. auto. }
        { replace (S i + n) with (i + S n) by lia. auto. }
        { intros s Hs. rewrite G1. destruct (Nat.eqb_spec s i); [lia|]. apply Hf. lia. }
        exists b'. split.
        * rewrite E'. replace (i + S n) with (S i + n) by lia. f_equal. f_equal; [f_equal|].
          -- rewrite C1 in *. destruct (N.eqb_spec (f i - 1) 0), (N.eqb_spec (f i) 1); lia.
          -- rewrite C2 in *. destruct (N.eqb_spec (f i) 15); lia.
        * split; [lia|]. split; [auto|]. split.
          -- intros s Hs. destruct (Nat.eq_dec s i) as [->|].
             ++ rewrite O' by lia. rewrite G1, Nat.eqb_refl. unfold decn. destruct (N.ltb_spec (f i) 15); [auto|lia].
             ++ apply G'. lia.
          -- intros s Hs. rewrite O' by lia. rewrite G1. destruct (Nat.eqb_spec s i); [lia|auto].
      + assert (Ef : f i = 15%N). { pose proof (get_nibble_lt _ _ _ E). lia. }
        assert (Ha : hasAux = true). { destruct hasAux; auto. exfalso. apply Hax; auto. }
        rewrite Ha. rewrite Ha in Hf.
        destruct (IH (S i) b f true atMin (toks + 1)) as (b' & E' & L' & B' & G' & O'); auto.
        { replace (S i + n) with (i + S n) by lia. auto. }
        { replace (S i + n) with (i + S n) by lia. auto. }
        { intros s Hs. apply Hf. lia. }
        exists b'. split.
        * rewrite E'. replace (i + S n) with (S i + n) by lia. f_equal. f_equal; [f_equal|].
          -- rewrite C1 in *. destruct (N.eqb_spec (f i) 1); lia.
          -- rewrite C2 in *. destruct (N.eqb_spec (f i) 15); lia.
        * split; [lia|]. split; [auto|]. split.
          -- intros s Hs. destruct (Nat.eq_dec s i) as [->|].
             ++ rewrite O' by lia. rewrite E, Ef. reflexivity.
             ++ apply G'. lia.
          -- intros s Hs. rewrite O' by lia. auto.
  Qed.

  Definition nx_ok (lgK nm : N) (nx : option auxmap) (r : nat -> N) (pend : nat -> Prop) : Prop :=
    match nx with
    | None => forall i, i < nslots lgK -> ~ pend i -> (r i < nm + 15)%N
    | Some x => wf_aux lgK x /\ forall i v, has lgK (x_arr x) i v <-> (i < nslots lgK /\ r i = v /\ (nm + 15 <= v)%N /\ ~ pend i)
    end.
  Definition nx_cnt (nx : option auxmap) : nat := match nx with Some x => x_cnt x | None => 0 end.

  Lemma shift_aux_spec lgK nm r : (4 <= lgK <= 21)%N -> (forall i, i < nslots lgK -> (nm <= r i)%N) -> forall l b nx toks,
    bytes_ok b -> length b = nslots (lgK - 1) ->
    (forall p, In p l -> p <> 0%N -> exists s v, p = mk_pair s v /\ s < nslots lgK /\ r s = v /\ (nm + 14 <= v)%N /\ (0 < v)%N) ->
    NoDup (map (akey lgK) (contents (akey lgK) l)) ->
    (forall s, s < nslots lgK -> (exists v, has lgK l s v) -> get_nibble b s = Some 15%N) ->
    (forall s, s < nslots lgK -> ~ (exists v, has lgK l s v) -> get_nibble b s = Some (nib nm (r s))) ->
    nx_ok lgK nm nx r (fun s => exists v, has lgK l s v) ->
    toks = length (contents (akey lgK) l) + nx_cnt nx ->
    8 * toks <= 3 * nslots lgK ->
    exists b' nx' toks', shift_aux l lgK nm b nx toks = Some (b', nx', toks') /\
      bytes_ok b' /\ length b' = nslots (lgK - 1) /\
      (forall s, s < nslots lgK -> get_nibble b' s = Some (nib nm (r s))) /\
      aux_ok lgK nm nx' r /\ toks' = nx_cnt nx'.
  Proof. try clear fzero; try clear hip_add; try clear F.
    intros HK Hmin. induction l as [|p l IH]; intros b nx toks Hb Hlen Hl Hnd Hpend Hdone Hnx Htoks Hcap; cbn [shift_aux].
    - exists b, nx, toks. split; auto. split; auto. split; auto.
      assert (Hno : forall s, ~ exists v, has lgK [] s v) by (intros s (v & _ & _ & []); auto).
      split; [intros; apply Hdone; auto|]. split; [|cbn in Htoks; lia].
      destruct nx as [x|]; cbn [nx_ok aux_ok] in *.
      + destruct Hnx as (W & H). split; auto. intros i v. rewrite H. specialize (Hno i). tauto.
      + intros i Hi. apply Hnx; auto.
    - assert (Ez : isocc (akey lgK) p = negb (p =? 0)%N) by (unfold isocc, isfree, akey; destruct (p =? 0)%N; auto).
      unfold contents in Hnd, Htoks. cbn [filter] in Hnd, Htoks. rewrite Ez in *. fold (contents (akey lgK) l) in *.
      destruct (N.eqb_spec p 0) as [Ep|Hp0]; cbn [negb] in *.
      + assert (Hh : forall s v, has lgK (p :: l) s v <-> has lgK l s v).
        { intros s v. unfold has. split; intros (A & B & C); (split; [auto|split; [auto|]]); [|right; auto].
          destruct C as [C|C]; auto. exfalso. apply (mk_pair_pos s v); auto. congruence. }
        apply IH; auto.
        * intros; apply Hl; auto. right; auto.
        * intros s Hs (v & Hv). apply Hpend; auto. exists v. apply Hh. auto.
        * intros s Hs Hn. apply Hdone; auto. intros (v & Hv). apply Hn. exists v. apply Hh. auto.
        * destruct nx as [x|]; cbn [nx_ok] in *.
          { destruct Hnx as (W & H). split; auto. intros i v. rewrite H. split; intros (A & B & C & D); (split; [auto|split; [auto|split; [auto|]]]);
              intros (w & Hw); apply D; exists w; apply Hh; auto. }
          { intros i Hi Hn. apply Hnx; auto. intros (w & Hw); apply Hn; exists w; apply Hh; auto. }
      + destruct (Hl p (or_introl eq_refl) Hp0) as (s & v & Ep & Hs & Hrs & Hv14 & Hvp).
        assert (HsN := proj1 (nslots_slot lgK s) Hs).
        assert (Hslot : N.to_nat (N.land (pair_low p) (2 ^ lgK - 1)) = s).
        { rewrite Ep, pair_low_mk by (eapply pow_lt_26; [|exact HsN]; lia). rewrite land_mask_mod, N.mod_small; lia. }
        assert (Hval : pair_value p = v) by (rewrite Ep; apply pair_value_mk).
        cbv zeta. rewrite Hslot, Hval. destruct (N.ltb_spec v nm); [lia|].
        assert (Hkp : akey lgK p = Some (N.of_nat s)) by (rewrite Ep; apply akey_pair; auto).
        assert (Hps : exists w, has lgK (p :: l) s w). { exists v. split; [auto|split; [auto|left; auto]]. }
        rewrite (Hpend s Hs Hps). cbn [bindo]. cbn [N.eqb Pos.eqb negb].
        cbn [map length] in Hnd, Htoks.
        assert (Hnl : ~ exists w, has lgK l s w).
        { intros (w & A & B & C). inversion Hnd as [|? ? Hn _]; subst. apply Hn. rewrite Hkp.
          rewrite <- (akey_pair lgK HK s w) by auto. apply in_map. apply contents_In. split; auto. rewrite (akey_pair lgK HK) by auto. eauto. }
        assert (Hh : forall s', (exists w, has lgK (p :: l) s' w) <-> s' = s \/ exists w, has lgK l s' w).
        { intros s'. split.
          - intros (w & A & B & [C|C]); [|right; exists w; split; auto]. left. rewrite Ep in C. apply (mk_pair_inj lgK HK) in C; auto. symmetry; apply C.
          - intros [->|(w & A & B & C)]; [auto|]. exists w. split; [auto|split; [auto|right; auto]]. }
        destruct (N.ltb_spec (v - nm) 15) as [Hv15|Hv15].
        * assert (v = nm + 14)%N by lia. destruct (N.eqb_spec (v - nm) 14); [|lia]. cbn [negb].
          destruct (put_nibble_spec b s (v - nm)%N Hb) as (b1 & E1 & L1 & B1 & G1).
          { rewrite Hlen. rewrite (nslots_even lgK) in Hs by lia. lia. }
          { lia. }
          rewrite E1. cbn [bindo]. rewrite sub_ok by lia. cbn [bindo].
          apply IH; auto; try lia.
          -- intros; apply Hl; auto. right; auto.
          -- inversion Hnd; auto.
          -- intros s' Hs' Hp'. rewrite G1. destruct (Nat.eqb_spec s' s) as [->|]; [contradiction|]. apply Hpend; auto. apply Hh. auto.
          -- intros s' Hs' Hp'. rewrite G1. destruct (Nat.eqb_spec s' s) as [->|Hne].
             ++ f_equal. rewrite Hrs. unfold nib. destruct (N.ltb_spec v (nm + 15)); lia.
             ++ apply Hdone; auto. intros Hc. apply Hh in Hc. tauto.
          -- destruct nx as [x|]; cbn [nx_ok] in *.
             ++ destruct Hnx as (W & H'). split; auto. intros i w. rewrite H'. split; intros (A & B & C & D); (split; [auto|split; [auto|split; [auto|]]]).
                ** intros Hc. apply D. apply Hh. auto.
                ** intros Hc. apply Hh in Hc. destruct Hc as [->|Hc]; [lia|auto].
             ++ intros i Hi Hn. destruct (Nat.eq_dec i s) as [->|]; [lia|]. apply Hnx; auto. intros Hc. apply Hh in Hc. tauto.
        * assert (Hadd : exists x', (do x <- match nx with Some x => Some x | None => new_aux lgK end; aux_add x lgK s v) = Some x' /\
             nx_ok lgK nm (Some x') r (fun s => exists v, has lgK l s v) /\ x_cnt x' = nx_cnt nx + 1).
          { assert (Hgen : forall x, wf_aux lgK x -> x_cnt x = nx_cnt nx ->
               (forall i w, has lgK (x_arr x) i w <-> (i < nslots lgK /\ r i = w /\ (nm + 15 <= w)%N /\ ~ (exists v, has lgK (p :: l) i v))) ->
               exists x', aux_add x lgK s v = Some x' /\ nx_ok lgK nm (Some x') r (fun s => exists v, has lgK l s v) /\ x_cnt x' = nx_cnt nx + 1).
            { intros x W Hc H'. assert (Hno : forall w, ~ has lgK (x_arr x) s w). { intros w Hw. apply H' in Hw. apply Hw. auto. }
              destruct (aux_add_spec lgK HK x s v W HsN Hvp Hno) as [A _].
              destruct A as (x' & E' & W' & Hc' & Hx'). { unfold nslots in Hcap. lia. }
              exists x'. split; auto. split; [|lia]. split; auto. intros i w. rewrite Hx', H'. destruct (Nat.eq_dec i s) as [->|Hne].
              - split; [intros [[_ ->]|Hc2]; [|tauto]|]. { repeat split; auto; lia. } intros (A1 & A2 & A3 & A4). left. split; auto. congruence.
              - rewrite Hh. tauto. }
            destruct nx as [x|]; cbn [bindo nx_ok nx_cnt] in *.
            - apply Hgen; [apply Hnx|auto|apply Hnx].
            - destruct (aux_new_wf lgK HK) as (x & E & W & Hc & _ & Hno). rewrite E. cbn [bindo]. apply Hgen; auto.
              intros i w. split; [intros Hw; apply Hno in Hw; contradiction|]. intros (A & B & C & D). specialize (Hnx i A D). lia. }
          destruct Hadd as (x' & Eadd & Hnx' & Hc').
          assert (Eeq : forall (k : auxmap -> option (list N * option auxmap * nat)),
             (do x <- match nx with Some x => Some x | None => new_aux lgK end; do x0 <- aux_add x lgK s v; k x0) = k x').
          { intros k. destruct (match nx with Some x => Some x | None => new_aux lgK end); cbn [bindo] in *; [|discriminate]. rewrite Eadd. auto. }
          rewrite Eeq. apply IH; auto.
          -- intros; apply Hl; auto. right; auto.
          -- inversion Hnd; auto.
          -- intros s' Hs' Hp'. apply Hpend; auto. apply Hh. auto.
          -- intros s' Hs' Hp'. destruct (Nat.eq_dec s' s) as [->|Hne].
             ++ rewrite (Hpend s Hs Hps). f_equal. rewrite Hrs. unfold nib. destruct (N.ltb_spec v (nm + 15)); lia.
             ++ apply Hdone; auto. intros Hc. apply Hh in Hc. tauto.
          -- cbn [nx_cnt]. lia.
  Qed.

  Lemma decn_nib m v : (m < v)%N -> (nib (m + 1) v = if (nib m v =? 15) then (if v =? m + 15 then 14 else 15) else decn (nib m v))%N.
  Proof. try clear fzero; try clear hip_add; try clear F.
    intros H. unfold nib, decn. destruct (N.ltb_spec v (m + 15)).
    - destruct (N.ltb_spec v (m + 1 + 15)), (N.eqb_spec (v - m) 15), (N.ltb_spec (v - m) 15); lia.
    - rewrite N.eqb_refl. destruct (N.ltb_spec v (m + 1 + 15)), (N.eqb_spec v (m + 15)); lia.
  Qed.

  Lemma exc_cap lgK x : (4 <= lgK <= 21)%N -> wf_aux lgK x -> 8 * x_cnt x <= 3 * nslots lgK.
  Proof. try clear fzero; try clear hip_add; try clear F.
    intros HK (H1 & _ & _ & H4 & _). unfold nslots.
    assert (Hp : (2 ^ (x_lg x + 1) <= 2 ^ lgK)%N) by (apply N.pow_le_mono_r; lia). pose proof (pow_succ_nat (x_lg x)). lia.
  Qed.

  Lemma shift_min_spec h r : (4 <= a_lgK h <= 21)%N -> core4 h r -> (forall i, i < KK h -> (a_curMin h < r i)%N) ->
    exists h', shift_min h = Some h' /\ core4 h' r /\ a_curMin h' = (a_curMin h + 1)%N /\ a_num h' = count (a_curMin h + 1) r (KK h) /\ est_of h' = est_of h.
  Proof. try clear fzero; try clear hip_add; try clear F.
    intros HK (L & B & H & Hax) Hgt. unfold shift_min. cbv zeta. fold (KK h).
    assert (Hlen : KK h / 2 = length (a_bytes h) /\ KK h = 2 * (KK h / 2)).
    { unfold KK. rewrite L. pose proof (nslots_even (a_lgK h)) as E. rewrite E by lia. lia. }
    set (m := a_curMin h) in *.
    destruct (shift_walk_spec (KK h) 0 (a_bytes h) (fun s => nib m (r s)) (match a_aux h with Some _ => true | None => false end) 0 0)
      as (b' & E & L' & B' & G' & _); auto; try (cbn [plus]; lia).
    { intros s Hs. split; [apply H; lia|]. specialize (Hgt s ltac:(lia)). destruct (H s ltac:(lia)) as [Hr _]. split.
      - unfold nib. destruct (N.ltb_spec (r s) (m + 15)); lia.
      - destruct (a_aux h); [discriminate|]. intros _. cbn [aux_ok] in Hax. specialize (Hax s ltac:(unfold KK in *; lia)).
        unfold nib. destruct (N.ltb_spec (r s) (m + 15)); lia. }
    rewrite E. cbn [bindo plus]. clear E. change (cnt _ 0) with 0. rewrite !Nat.sub_0_r.
    assert (C1 : cnt (fun s => nib m (r s) =? 1)%N (KK h) = count (m + 1) r (KK h)).
    { apply cnt_ext. intros i Hi. specialize (Hgt i Hi). unfold nib. destruct (N.ltb_spec (r i) (m + 15)), (N.eqb_spec (r i) (m + 1)); lia. }
    assert (C2 : cnt (fun s => nib m (r s) =? 15)%N (KK h) = exc m r (KK h)).
    { apply cnt_ext. intros i Hi. unfold nib. destruct (N.ltb_spec (r i) (m + 15)); lia. }
    rewrite C1, C2.
    assert (Hfin : forall b2 nx, bytes_ok b2 -> length b2 = nslots (a_lgK h - 1) ->
       (forall s, s < KK h -> get_nibble b2 s = Some (nib (m + 1) (r s))) -> aux_ok (a_lgK h) (m + 1) nx r ->
       core4 (set_num (set_min (set_aux (set_bytes h b2) nx) (m + 1)) (count (m + 1) r (KK h))) r).
    { intros b2 nx Hb2 Hl2 Hg2 Hn2. split; [exact Hl2|]. split; [exact Hb2|]. split; [|exact Hn2].
      intros i Hi. change (KK _) with (KK h) in Hi. split; [|apply Hg2; auto]. specialize (Hgt i Hi). destruct (H i Hi) as [Hr _].
      change (a_curMin _) with (m + 1)%N. lia. }
    destruct (a_aux h) as [x|] eqn:Eax.
    - assert (Hcx := aux_cnt _ _ _ _ HK Hax). pose proof Hax as (W & Hh). pose proof W as (_ & Ht & Hc & _ & Hp).
      destruct (shift_aux_spec (a_lgK h) (m + 1) r HK) with (l := x_arr x) (b := b') (nx := @None auxmap) (toks := exc m r (KK h))
        as (b2 & nx & toks & E2 & B2 & L2 & G2 & X2 & T2); auto.
      + intros i Hi. specialize (Hgt i Hi). lia.
      + lia.
      + intros p Hin Hne. destruct (Hp p Hin Hne) as (s & v & -> & Hs & Hv).
        assert (Hb : has (a_lgK h) (x_arr x) s v) by (split; auto). apply Hh in Hb. destruct Hb as (A1 & A2 & A3).
        exists s, v. repeat split; auto. lia.
      + apply uniq_NoDup. apply Ht.
      + intros s Hs (v & Hv). apply Hh in Hv. destruct Hv as (_ & A2 & A3). rewrite G' by (unfold KK; lia). f_equal.
        unfold nib. destruct (N.ltb_spec (r s) (m + 15)); [lia|]. reflexivity.
      + intros s Hs Hn. rewrite G' by (unfold KK; lia). f_equal. rewrite decn_nib by (apply Hgt; auto).
        destruct (N.eqb_spec (nib m (r s)) 15) as [E15|]; auto. exfalso. apply Hn. exists (r s). apply Hh. split; [auto|]. split; [auto|].
        unfold nib in E15. destruct (N.ltb_spec (r s) (m + 15)); lia.
      + cbn [nx_ok]. intros i Hi Hn. destruct (N.lt_ge_cases (r i) (m + 15)); [lia|]. exfalso. apply Hn. exists (r i). apply Hh. auto.
      + cbn [nx_cnt]. unfold acontents in Hc. unfold KK. lia.
      + unfold KK. rewrite <- Hcx. apply (exc_cap (a_lgK h)); auto.
      + rewrite E2. cbn [bindo]. assert (Hchk : (match nx with Some x => x_cnt x =? toks | None => true end) = true).
        { destruct nx; auto. cbn [nx_cnt] in T2. rewrite T2. apply Nat.eqb_refl. }
        rewrite Hchk. eexists. split; [reflexivity|]. split; [apply Hfin; auto|]. auto.
    - unfold KK. rewrite (exc_none _ _ _ Hax). cbn [Nat.eqb bindo]. fold (KK h).
      eexists. split; [reflexivity|]. split; [apply Hfin; auto|].
      + lia.
      + intros s Hs. rewrite G' by lia. f_equal. rewrite decn_nib by (apply Hgt; auto).
        destruct (N.eqb_spec (nib m (r s)) 15) as [E15|]; auto. cbn [aux_ok] in Hax. specialize (Hax s Hs).
        unfold nib in E15. destruct (N.ltb_spec (r s) (m + 15)); lia.
      + cbn [aux_ok] in *. intros i Hi. specialize (Hax i Hi). lia.
      + auto.
  Qed.

  Lemma KK_pos h : 0 < KK h.
  Proof. try clear fzero; try clear hip_add; try clear F. unfold KK, nslots. pose proof (pow2_pos_N (a_lgK h)). lia. Qed.

  Lemma shift_loop_spec : forall fuel h r, (4 <= a_lgK h <= 21)%N -> core4 h r -> a_num h = count (a_curMin h) r (KK h) ->
    64 <= fuel + N.to_nat (a_curMin h) ->
    exists h', shift_loop fuel h = Some h' /\ inv4 h' r /\ est_of h' = est_of h.
  Proof. try clear fzero; try clear hip_add; try clear F.
    induction fuel as [|fuel IH]; intros h r HK Hc Hn Hf; cbn [shift_loop].
    - exfalso. destruct Hc as (_ & _ & H & _). destruct (H 0 (KK_pos h)) as [Hr _]. lia.
    - destruct (Nat.eqb_spec (a_num h) 0) as [E0|E0].
      + destruct (shift_min_spec h r HK Hc) as (h1 & E1 & C1 & M1 & N1 & S1).
        { intros i Hi. rewrite Hn in E0. pose proof (proj1 (cnt_zero _ _) E0 i Hi) as E2. cbv beta in E2. destruct Hc as (_ & _ & H & _). destruct (H i Hi) as [Hr _]. lia. }
        rewrite E1. cbn [bindo].
        assert (EK : a_lgK h1 = a_lgK h) by (unfold est_of in S1; congruence).
        destruct (IH h1 r) as (h2 & E2 & I2 & S2); try (rewrite EK; auto; fail).
        * auto.
        * rewrite N1, M1. unfold KK. rewrite EK. auto.
        * rewrite M1. lia.
        * exists h2. split; auto. split; auto. congruence.
      + exists h. split; auto. split; auto. split; auto. split; auto. lia.
  Qed.

  Lemma finish4_spec h r old : (4 <= a_lgK h <= 21)%N -> core4 h r ->
    a_num h = count (a_curMin h) r (KK h) + (if (old =? a_curMin h)%N then 1 else 0) -> (old <> a_curMin h -> 0 < a_num h) ->
    exists h', finish4 h old (a_curMin h) = Some h' /\ inv4 h' r /\ est_of h' = est_of h.
  Proof. try clear fzero; try clear hip_add; try clear F.
    intros HK Hc Hn Hp. unfold finish4. destruct (N.eqb_spec old (a_curMin h)) as [E|E].
    - destruct (Nat.ltb_spec (a_num h) 1); [lia|].
      apply (shift_loop_spec 64 (set_num h (a_num h - 1)) r HK Hc).
      + change (a_num h - 1 = count (a_curMin h) r (KK h)). lia.
      + apply Nat.le_add_r.
    - exists h. split; auto. split; auto. split; auto. split; [lia|auto].
  Qed.

  (** ** HLL_4: one update *)
  Lemma core4_ext h r r' : (forall i, i < KK h -> r i = r' i) -> core4 h r -> core4 h r'.
  Proof. try clear fzero; try clear hip_add; try clear F.
    intros E (L & B & H & Hax). split; auto. split; auto. split.
    - intros i Hi. rewrite <- E by auto. auto.
    - destruct (a_aux h); cbn [aux_ok] in *.
      + destruct Hax as (W & Hh). split; auto. intros i v. rewrite Hh. split; intros (A1 & A2 & A3); (split; [auto|]; split; [|auto]); rewrite <- A2; [symmetry|]; apply E; auto.
      + intros i Hi. rewrite <- E by auto. auto.
  Qed.
  Lemma ainv_ext t d h r r' : (forall i, i < KK h -> r i = r' i) -> ainv t d h r -> ainv t d h r'.
  Proof. try clear fzero; try clear hip_add; try clear F.
    intros E (HK & H). split; auto. destruct t.
    - destruct H as (A & B & C). split; [eapply core4_ext; eauto|]. split; auto. rewrite B. apply count_ext; auto.
    - destruct H as (A & B & C & D). split; auto. split; auto. split; [intros; rewrite <- E by auto; auto|]. rewrite D. f_equal. apply count_ext; auto.
    - destruct H as (A & B & C). split; auto. split; [intros; rewrite <- E by auto; auto|]. rewrite C. f_equal. apply count_ext; auto.
  Qed.

  Lemma update4_spec h r slot v : (4 <= a_lgK h <= 21)%N -> inv4 h r -> slot < KK h -> (v < 64)%N ->
    (8 * exc (a_curMin h) (rmax r slot v) (KK h) <= 3 * KK h ->
       exists h', update4 hip_add h slot v = Some h') /\
    (forall h', update4 hip_add h slot v = Some h' -> inv4 h' (rmax r slot v) /\ est_step h h' (r slot) v) /\
    ((v > r slot)%N -> (r slot < a_curMin h + 15)%N -> (a_curMin h + 15 <= v)%N ->
       3 * KK h < 8 * exc (a_curMin h) (rmax r slot v) (KK h) -> update4 hip_add h slot v = None).
  Proof. try clear fzero; try clear hip_add; try clear F.
    intros HK (Hc & Hn & Hp) Hs Hv. pose proof Hc as (L & B & H & Hax). destruct (H slot Hs) as [Hr Hnib].
    set (m := a_curMin h) in *.
    assert (Hnoop : (v <= r slot)%N -> inv4 h (rmax r slot v) /\ est_step h h (r slot) v).
    { intros Hle. split.
      - assert (A : ainv T4 0 h (rmax r slot v)).
        { apply (ainv_ext T4 0 h r); [intros; symmetry; apply rmax_same; auto|]. split; [auto|]. split; auto. }
        apply A.
      - unfold est_step. destruct (N.ltb_spec (r slot) v); [lia|]. auto. }
    unfold update4. rewrite Hnib. cbn [bindo]. cbv zeta. fold m.
    destruct (N.leb_spec v (nib m (r slot) + m)) as [Hle|Hgt].
    { assert (v <= r slot)%N. { unfold nib in Hle. destruct (N.ltb_spec (r slot) (m + 15)); lia. }
      split; [eauto|]. split; [|lia]. intros h' E. inversion E; subst. auto. }
    assert (Hnlen : slot / 2 < length (a_bytes h)). { rewrite L. unfold KK in Hs. rewrite (nslots_even (a_lgK h)) in Hs by lia. lia. }
    (* count at the current minimum after raising slot *)
    assert (Hcount : forall old, (r slot < v)%N -> old = r slot ->
       a_num h = count m (rmax r slot v) (KK h) + (if (old =? m)%N then 1 else 0)).
    { intros old Hlt ->. pose proof (count_rmax m r slot v (KK h) Hs Hlt) as C. destruct (N.eqb_spec v m); [lia|]. lia. }
    destruct (N.eqb_spec (nib m (r slot)) 15) as [E15|N15].
    - (* the slot is an exception *)
      assert (Hexc : (m + 15 <= r slot)%N). { unfold nib in E15. destruct (N.ltb_spec (r slot) (m + 15)); lia. }
      destruct (a_aux h) as [x|] eqn:Eax; [|specialize (Hax slot Hs); lia].
      cbn [bindo]. pose proof Hax as (W & Hh).
      assert (Hhas : has (a_lgK h) (x_arr x) slot (r slot)) by (apply Hh; auto).
      rewrite (aux_find_spec (a_lgK h) HK x slot (r slot) W Hhas). cbn [bindo].
      destruct (N.leb_spec v (r slot)) as [Hle2|Hgt2].
      { split; [eauto|]. split; [|lia]. intros h' E. inversion E; subst. auto. }
      rewrite hip_kxq_eq by auto. cbn [bindo]. destruct (N.ltb_spec v m); [lia|]. destruct (N.leb_spec 15 (v - m)); [|lia].
      change (a_lgK (bump h (r slot) v)) with (a_lgK h).
      destruct (aux_replace_spec (a_lgK h) HK x slot (r slot) v W Hhas) as (x' & E' & W' & _ & Hh'); [lia|].
      rewrite E'. cbn [bindo].
      destruct (finish4_spec (set_aux (bump h (r slot) v) (Some x')) (rmax r slot v) (r slot)) as (h2 & E2 & I2 & S2); auto.
      + split; [exact L|]. split; [exact B|]. split.
        * intros i Hi. change (KK _) with (KK h) in Hi. change (a_curMin _) with m. change (a_bytes _) with (a_bytes h). destruct (H i Hi) as [Hri Hni].
          destruct (Nat.eq_dec i slot) as [->|Hne].
          -- rewrite rmax_at by auto. split; [lia|]. rewrite Hni. f_equal. unfold nib. destruct (N.ltb_spec (r slot) (m + 15)), (N.ltb_spec v (m + 15)); lia.
          -- rewrite rmax_other by auto. auto.
        * change (aux_ok (a_lgK h) m (Some x') (rmax r slot v)). split; auto. intros i w. rewrite Hh', Hh. destruct (Nat.eq_dec i slot) as [->|Hne].
          -- rewrite rmax_at by auto. split; [intros [[_ ->]|[C _]]; [|congruence]; split; [auto|]; split; [auto|lia]|].
             intros (A1 & A2 & A3). left. split; [auto|congruence].
          -- rewrite rmax_other by auto. split; [intros [[C _]|[_ D]]; [congruence|auto]|]. intros D. right. auto.
      + change (a_curMin (set_aux (bump h (r slot) v) (Some x'))) with m in E2. split; [eauto|]. split; [|lia].
        intros h' E. rewrite E2 in E. inversion E; subst h'. split; auto. unfold est_step. destruct (N.ltb_spec (r slot) v); [|lia]. exact S2.
    - (* the slot is not an exception *)
      assert (Hne15 : (r slot < m + 15)%N). { unfold nib in N15. destruct (N.ltb_spec (r slot) (m + 15)); [auto|congruence]. }
      assert (Elb : (nib m (r slot) + m = r slot)%N). { unfold nib. destruct (N.ltb_spec (r slot) (m + 15)); lia. }
      rewrite Elb in *. rewrite hip_kxq_eq by auto. cbn [bindo]. destruct (N.ltb_spec v m); [lia|].
      change (a_lgK (bump h (r slot) v)) with (a_lgK h). change (a_bytes (bump h (r slot) v)) with (a_bytes h). change (a_aux (bump h (r slot) v)) with (a_aux h).
      assert (Hest : forall h2, est_of h2 = est_of (bump h (r slot) v) -> est_step h h2 (r slot) v).
      { intros h2 E. unfold est_step. destruct (N.ltb_spec (r slot) v); [auto|lia]. }
      destruct (N.leb_spec 15 (v - m)) as [Hv15|Hv15].
      + destruct (put_nibble_spec (a_bytes h) slot 15 B Hnlen) as (b' & Eb & Lb & Bb & Gb); [lia|]. rewrite Eb. cbn [bindo].
        destruct (add_exception (a_lgK h) m (a_aux h) r slot v HK Hax Hs Hne15 ltac:(lia)) as [A A'].
        fold (KK h) in A, A'.
        set (addx := (do x <- match a_aux h with Some x => Some x | None => new_aux (a_lgK h) end; aux_add x (a_lgK h) slot v)) in *.
        assert (Efold : forall (k : auxmap -> option harr),
          (do x <- match a_aux h with Some x => Some x | None => new_aux (a_lgK h) end; do x0 <- aux_add x (a_lgK h) slot v; k x0) = bindo addx k).
        { intros k. unfold addx. destruct (match a_aux h with Some x => Some x | None => new_aux (a_lgK h) end); auto. }
        rewrite Efold.
        assert (Hok : forall x', addx = Some x' -> aux_ok (a_lgK h) m (Some x') (rmax r slot v) ->
          exists h2, finish4 (set_aux (set_bytes (bump h (r slot) v) b') (Some x')) (r slot) m = Some h2 /\ inv4 h2 (rmax r slot v) /\ est_of h2 = est_of (bump h (r slot) v)).
        { intros x' Ex' Hx'. apply (finish4_spec (set_aux (set_bytes (bump h (r slot) v) b') (Some x')) (rmax r slot v) (r slot)); auto.
          - split; [change (length b' = nslots (a_lgK h - 1)); lia|]. split; [exact Bb|]. split; [|exact Hx'].
            intros i Hi. change (KK _) with (KK h) in Hi. change (a_curMin _) with m. change (a_bytes _) with b'. rewrite Gb. destruct (H i Hi) as [Hri Hni].
            destruct (Nat.eqb_spec i slot) as [->|Hne].
            + rewrite rmax_at by auto. split; [lia|]. f_equal. unfold nib. destruct (N.ltb_spec v (m + 15)); lia.
            + rewrite rmax_other by auto. auto.
        }
        split; [|split].
        * intros Hcap. destruct (A Hcap) as (x' & Ex' & Hx'). rewrite Ex'. cbn [bindo]. destruct (Hok x' Ex' Hx') as (h2 & E2 & _). eauto.
        * intros h' E. destruct (Nat.le_gt_cases (8 * exc m (rmax r slot v) (KK h)) (3 * KK h)) as [Hcap|Hcap].
          -- destruct (A Hcap) as (x' & Ex' & Hx'). rewrite Ex' in E. cbn [bindo] in E. destruct (Hok x' Ex' Hx') as (h2 & E2 & I2 & S2).
             rewrite E2 in E. inversion E; subst h'. auto.
          -- rewrite (A' Hcap) in E. discriminate.
        * intros _ _ _ Hcap. rewrite (A' Hcap). auto.
      + destruct (put_nibble_spec (a_bytes h) slot (v - m)%N B Hnlen) as (b' & Eb & Lb & Bb & Gb); [lia|]. rewrite Eb. cbn [bindo].
        destruct (finish4_spec (set_bytes (bump h (r slot) v) b') (rmax r slot v) (r slot)) as (h2 & E2 & I2 & S2); auto.
        * split; [change (length b' = nslots (a_lgK h - 1)); lia|]. split; [exact Bb|]. split.
          -- intros i Hi. change (KK _) with (KK h) in Hi. change (a_curMin _) with m. change (a_bytes _) with b'. rewrite Gb. destruct (H i Hi) as [Hri Hni].
             destruct (Nat.eqb_spec i slot) as [->|Hne].
             ++ rewrite rmax_at by auto. split; [lia|]. f_equal. unfold nib. destruct (N.ltb_spec v (m + 15)); lia.
             ++ rewrite rmax_other by auto. auto.
          -- change (aux_ok (a_lgK h) m (a_aux h) (rmax r slot v)). destruct (a_aux h) as [x|]; cbn [aux_ok] in *.
             ++ destruct Hax as (W & Hh). split; auto. intros i w. rewrite Hh. destruct (Nat.eq_dec i slot) as [->|Hne]; [rewrite rmax_at by auto; lia|].
                rewrite rmax_other by auto. tauto.
             ++ intros i Hi. destruct (Nat.eq_dec i slot) as [->|Hne]; [rewrite rmax_at by auto; lia|]. rewrite rmax_other by auto. auto.
        * change (a_curMin (set_bytes (bump h (r slot) v) b')) with m in E2. split; [eauto|]. split; [|intros; lia].
          intros h' E. rewrite E2 in E. inversion E; subst h'. auto.
  Qed.

  (** ** All three types *)
  Lemma slot_value_inv t d h r i : ainv t d h r -> i < KK h -> slot_value t h i = Some (r i).
  Proof. try clear fzero; try clear hip_add; try clear F.
    intros (HK & H) Hi. destruct t; cbn [slot_value].
    - destruct H as ((L & B & Hb & Hax) & _). destruct (Hb i Hi) as [Hr Hn]. unfold get4. rewrite Hn. cbn [bindo]. unfold nib in *.
      destruct (N.ltb_spec (r i) (a_curMin h + 15)).
      + destruct (N.eqb_spec (r i - a_curMin h) 15); [lia|]. f_equal. lia.
      + cbn [N.eqb Pos.eqb]. destruct (a_aux h) as [x|]; [|specialize (Hax i Hi); lia]. cbn [bindo].
        destruct Hax as (W & Hh). apply aux_find_spec; auto. apply Hh. auto.
    - apply H. auto.
    - eapply get8_inv; eauto.
  Qed.

  Lemma slot_lt h c : N.to_nat (N.land c (2 ^ a_lgK h - 1)) < KK h.
  Proof. try clear fzero; try clear hip_add; try clear F.
    unfold KK, nslots. rewrite land_mask_mod. assert (c mod 2 ^ a_lgK h < 2 ^ a_lgK h)%N by (apply N.mod_lt, N.pow_nonzero; lia). lia.
  Qed.

  Definition cslot (lgK : N) (c : N) : nat := N.to_nat (c mod 2 ^ lgK).
  Definition cval (c : N) : N := (c / 2 ^ 26)%N.

  Lemma arr_update_spec t d h r c : ainv t d h r -> (cval c < 64)%N ->
    ((t = T4 -> 8 * exc 0 (rmax r (cslot (a_lgK h) c) (cval c)) (KK h) <= 3 * KK h) -> exists h', arr_update hip_add t h c = Some h') /\
    (forall h', arr_update hip_add t h c = Some h' ->
       ainv t d h' (rmax r (cslot (a_lgK h) c) (cval c)) /\ est_step h h' (r (cslot (a_lgK h) c)) (cval c) /\
       (t <> T4 -> a_curMin h' = a_curMin h)).
  Proof. try clear fzero; try clear hip_add; try clear F.
    intros Hinv Hv. pose proof Hinv as (HK & H). unfold arr_update. cbv zeta. rewrite N.shiftr_div_pow2. fold (cval c).
    replace (N.to_nat (N.land c (2 ^ a_lgK h - 1))) with (cslot (a_lgK h) c) by (unfold cslot; rewrite land_mask_mod; auto).
    assert (Hs : cslot (a_lgK h) c < KK h). { pose proof (slot_lt h c) as A. rewrite land_mask_mod in A. exact A. }
    assert (HlgK : forall h' o, est_step h h' o (cval c) -> a_lgK h' = a_lgK h).
    { intros h' o E. unfold est_step, est_of in E. destruct (o <? cval c)%N; inversion E; auto. }
    destruct t.
    - destruct (update4_spec h r (cslot (a_lgK h) c) (cval c) HK H Hs Hv) as (A & B & _). split.
      + intros Hcap. apply A. specialize (Hcap eq_refl). eapply Nat.le_trans; [|exact Hcap]. apply Nat.mul_le_mono_l. apply cnt_le. intros i _ Hi. lia.
      + intros h' E. destruct (B h' E) as [I S]. split; [|split; [auto|congruence]]. split; [rewrite (HlgK _ _ S); auto|auto].
    - destruct (update6_spec d h r (cslot (a_lgK h) c) (cval c) (proj1 HK) H Hs Hv) as (h' & E & I & S & M). split; [eauto|].
      intros h2 E2. rewrite E in E2. inversion E2; subst h2. split; [|auto]. split; [rewrite (HlgK _ _ S); auto|auto].
    - destruct (update8_spec d h r (cslot (a_lgK h) c) (cval c) H Hs Hv) as (h' & E & I & S & M). split; [eauto|].
      intros h2 E2. rewrite E in E2. inversion E2; subst h2. split; [|auto]. split; [rewrite (HlgK _ _ S); auto|auto].
  Qed.

  (** The empty array. *)
  Lemma nth_error_repeat_lt {A} (x : A) n i : i < n -> nth_error (repeat x n) i = Some x.
  Proof. try clear fzero; try clear hip_add; try clear F. intros H. rewrite nth_error_repeat'. destruct (Nat.ltb_spec i n); auto; lia. Qed.
  Lemma bytes_ok_zeros n : bytes_ok (repeat 0%N n).
  Proof. try clear fzero; try clear hip_add; try clear F. apply Forall_forall. intros x Hx. apply repeat_spec in Hx. subst. lia. Qed.
  Lemma count_const n : count 0 (fun _ => 0%N) n = n.
  Proof. try clear fzero; try clear hip_add; try clear F. induction n; auto. unfold count in *. rewrite cnt_S, IHn. cbn [N.eqb]. lia. Qed.

  Lemma arr_new_inv lgK t : (4 <= lgK <= 21)%N -> ainv t 0 (arr_new fzero lgK t) (fun _ => 0%N).
  Proof. try clear fzero; try clear hip_add; try clear F.
    intros HK. split; [auto|].
    assert (Hnum : forall t, a_num (arr_new fzero lgK t) = count 0 (fun _ => 0%N) (KK (arr_new fzero lgK t)) + 0).
    { intros t'. change (nslots lgK = count 0 (fun _ => 0%N) (nslots lgK) + 0). rewrite count_const. lia. }
    destruct t.
    - split; [|split].
      + split; [apply repeat_length|]. split; [apply bytes_ok_zeros|]. split.
        * intros i Hi. split; [change (0 <= 0 < 64)%N; lia|]. change (a_bytes _) with (repeat 0%N (nslots (lgK - 1))).
          unfold get_nibble. rewrite nth_error_repeat_lt.
          2:{ change (KK _) with (nslots lgK) in Hi. rewrite (nslots_even lgK) in Hi by lia. lia. }
          cbn [bindo]. destruct (Nat.odd i); reflexivity.
        * cbn [aux_ok arr_new a_aux]. intros; cbn; lia.
      + rewrite Hnum, Nat.add_0_r. reflexivity.
      + change (0 < nslots lgK). unfold nslots. pose proof (pow2_pos_N lgK). lia.
    - split; [apply repeat_length|]. split; [apply bytes_ok_zeros|]. split; [|apply Hnum].
      intros i Hi. split; [|lia]. pose proof (slot6_bound (arr_new fzero lgK T6) i (proj1 HK) Hi) as Hb. change (KK _) with (nslots lgK) in *.
      change (a_bytes _) with (repeat 0%N (nslots lgK * 3 / 4 + 1)).
      unfold get6, get_short. rewrite !nth_error_repeat_lt by lia. cbn [bindo].
      change (N.lor 0 (N.shiftl 0 8)) with 0%N. rewrite N.shiftr_0_l. reflexivity.
    - split; [apply repeat_length|]. split; [|apply Hnum]. intros i Hi. split; [|lia].
      change (a_bytes _) with (repeat 0%N (nslots lgK)). apply nth_error_repeat_lt. auto.
  Qed.
End ArrProofs.
