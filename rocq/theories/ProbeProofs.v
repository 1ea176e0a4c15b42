From Verif Require Import Base ProbeModel.
From Coq Require Import Znumtheory Zpow_facts.
Local Open Scope nat_scope.

(** ** Number theory: an odd stride visits every slot of a power-of-two table. *)
Lemma odd_rel_prime_pow2 (a : Z) (n : Z) : Z.odd a = true -> (0 <= n)%Z -> rel_prime a (2 ^ n).
Proof.
  intros Ho Hn. apply rel_prime_Zpower_r; auto.
  apply Z.odd_spec in Ho. destruct Ho as [m ->].
  apply bezout_rel_prime. apply Bezout_intro with (u := 1%Z) (v := (- m)%Z). ring.
Qed.

Lemma pow2_pos_N (lg : N) : (0 < 2 ^ lg)%N.
Proof. apply N.neq_0_lt_0. apply N.pow_nonzero. lia. Qed.

Lemma land_mask_mod (x lg : N) : N.land x (2 ^ lg - 1) = (x mod 2 ^ lg)%N.
Proof. rewrite <- N.land_ones. rewrite N.ones_equiv. rewrite N.sub_1_r. auto. Qed.

Definition sprobe (lg start stride : N) (j : nat) : nat :=
  N.to_nat ((start + N.of_nat j * stride) mod 2 ^ lg).

Lemma sprobe_lt lg start stride j : sprobe lg start stride j < N.to_nat (2 ^ lg).
Proof.
  unfold sprobe. pose proof (pow2_pos_N lg).
  assert ((start + N.of_nat j * stride) mod 2 ^ lg < 2 ^ lg)%N by (apply N.mod_lt; lia). lia.
Qed.

Lemma N_odd_Z (a : N) : N.odd a = true -> Z.odd (Z.of_N a) = true.
Proof. destruct a as [|[p|p|]]; simpl; auto. Qed.

Lemma sprobe_onto lg start stride s : N.odd stride = true -> s < N.to_nat (2 ^ lg) ->
  exists j, j < N.to_nat (2 ^ lg) /\ sprobe lg start stride j = s.
Proof.
  intros Ho Hs. pose proof (pow2_pos_N lg) as Hpos.
  set (n := Z.of_N (2 ^ lg)).
  assert (Hn : (0 < n)%Z) by lia.
  assert (RP : rel_prime (Z.of_N stride) n).
  { unfold n. rewrite N2Z.inj_pow. apply odd_rel_prime_pow2; [apply N_odd_Z; auto|lia]. }
  destruct (rel_prime_bezout _ _ RP) as [u v Huv].
  set (jz := ((u * (Z.of_nat s - Z.of_N start)) mod n)%Z).
  assert (Hj : (0 <= jz < n)%Z) by (apply Z.mod_pos_bound; lia).
  exists (Z.to_nat jz). split; [lia|].
  unfold sprobe. apply Nat2Z.inj. rewrite N_nat_Z, N2Z.inj_mod, N2Z.inj_add, N2Z.inj_mul.
  fold n. rewrite nat_N_Z, Z2Nat.id by lia. unfold jz.
  rewrite <- Z.add_mod_idemp_r by lia. rewrite Z.mul_mod_idemp_l by lia. rewrite Z.add_mod_idemp_r by lia.
  replace (Z.of_N start + u * (Z.of_nat s - Z.of_N start) * Z.of_N stride)%Z
    with (Z.of_N start + (u * Z.of_N stride) * (Z.of_nat s - Z.of_N start))%Z by ring.
  replace (u * Z.of_N stride)%Z with (1 + (- v) * n)%Z by lia.
  replace (Z.of_N start + (1 + - v * n) * (Z.of_nat s - Z.of_N start))%Z
    with (Z.of_nat s + (- v * (Z.of_nat s - Z.of_N start)) * n)%Z by ring.
  rewrite Z.mod_add by lia. apply Z.mod_small. lia.
Qed.

Lemma sprobe_return lg start stride j : N.odd stride = true -> (start < 2 ^ lg)%N ->
  0 < j < N.to_nat (2 ^ lg) -> ((start + N.of_nat j * stride) mod 2 ^ lg <> start)%N.
Proof.
  intros Ho Hs Hj E. pose proof (pow2_pos_N lg) as Hpos.
  assert (HZ : (Z.of_N (2 ^ lg) | Z.of_nat j * Z.of_N stride)%Z).
  { apply Z.mod_divide; [lia|].
    apply (f_equal Z.of_N) in E. rewrite N2Z.inj_mod, N2Z.inj_add, N2Z.inj_mul, nat_N_Z in E.
    replace (Z.of_nat j * Z.of_N stride)%Z with ((Z.of_N start + Z.of_nat j * Z.of_N stride) - Z.of_N start)%Z by ring.
    rewrite Zminus_mod, E. rewrite (Z.mod_small (Z.of_N start)) by lia. rewrite Z.sub_diag. apply Z.mod_0_l. lia. }
  rewrite Z.mul_comm in HZ. apply Gauss in HZ.
  - apply Z.divide_pos_le in HZ; lia.
  - apply rel_prime_sym. rewrite N2Z.inj_pow. apply odd_rel_prime_pow2; [apply N_odd_Z; auto|lia].
Qed.

(** ** The table invariant and the specification of the loop. *)
Section Table.
  Context {A : Type}.
  Variable key : A -> option N.        (* None: free slot *)
  Variable lg : N.
  Variable start stride : N -> N.      (* per key *)
  Hypothesis stride_odd : forall k, N.odd (stride k) = true.
  Hypothesis start_lt : forall k, (start k < 2 ^ lg)%N.

  Let size := N.to_nat (2 ^ lg).
  Let probe (k : N) (j : nat) : nat := sprobe lg (start k) (stride k) j.

  Definition isfree (a : A) : bool := match key a with None => true | Some _ => false end.
  Definition isocc (a : A) : bool := negb (isfree a).
  Definition contents (t : list A) : list A := filter isocc t.

  Definition occ (t : list A) (s : nat) := exists a, nth_error t s = Some a /\ isocc a = true.

  Definition chain (t : list A) : Prop :=
    forall s a k, nth_error t s = Some a -> key a = Some k ->
      exists j, j < size /\ probe k j = s /\ forall j', j' < j -> occ t (probe k j').
  Definition uniq (t : list A) : Prop :=
    forall s1 s2 a1 a2 k, nth_error t s1 = Some a1 -> nth_error t s2 = Some a2 ->
      key a1 = Some k -> key a2 = Some k -> s1 = s2.
  Definition table_ok (t : list A) : Prop := length t = size /\ chain t /\ uniq t.

  Definition ktest (k : N) (a : A) : ptest :=
    match key a with None => TEmpty | Some k' => if (k' =? k)%N then TMatch else TOther end.

  Lemma size_pos : 0 < size.
  Proof. unfold size. pose proof (pow2_pos_N lg). lia. Qed.

  Lemma probe_lt k j : probe k j < size.
  Proof. apply sprobe_lt. Qed.

  Lemma table_ok_free x : key x = None -> table_ok (repeat x size).
  Proof using key lg start stride.
    clear stride_odd start_lt.
    intros Hx. split; [apply repeat_length|]. split.
    - intros s a k Ha Hk. apply nth_error_In, repeat_spec in Ha. congruence.
    - intros s1 s2 a1 a2 k Ha _ Hk. apply nth_error_In, repeat_spec in Ha. congruence.
  Qed.

  (** The loop started at probe position j. *)
  Lemma probe_loop_from : forall m t k j,
    length t = size -> chain t -> uniq t ->
    (exists s, s < size /\ ~ occ t s) ->
    m = size - j -> j < size ->
    (forall j', j' < j -> exists a k', nth_error t (probe k j') = Some a /\ key a = Some k' /\ k' <> k) ->
    forall fuel, m <= fuel ->
    let r := probe_loop fuel t (ktest k) (2 ^ lg - 1) (stride k) ((start k + N.of_nat j * stride k) mod 2 ^ lg) (start k) in
    (exists s a, r = PFound s /\ nth_error t s = Some a /\ key a = Some k) \/
    (exists s a j1, r = PEmpty s /\ nth_error t s = Some a /\ key a = None /\ j1 < size /\ s = probe k j1 /\
        (forall j', j' < j1 -> occ t (probe k j')) /\
        (forall a', In a' t -> key a' <> Some k)).
  Proof.
    induction m as [m IH] using lt_wf_ind.
    intros t k j Hlen Hch Hun Hfree Hm Hj Hprev fuel Hfuel. cbv zeta.
    destruct fuel as [|fuel]; [lia|]. simpl probe_loop.
    change (N.to_nat ((start k + N.of_nat j * stride k) mod 2 ^ lg)) with (probe k j).
    destruct (nth_error t (probe k j)) as [a|] eqn:Ea.
    2:{ apply nth_error_None in Ea. pose proof (probe_lt k j). lia. }
    destruct (key a) as [k'|] eqn:Ek.
    - destruct (N.eqb_spec k' k) as [->|Hne].
      + assert (ktest k a = TMatch) as -> by (unfold ktest; rewrite Ek, N.eqb_refl; auto).
        left. eauto 6.
      + assert (ktest k a = TOther) as -> by (unfold ktest; rewrite Ek; destruct (N.eqb_spec k' k); congruence).
        set (idx' := N.land _ _).
        assert (Eidx : idx' = ((start k + N.of_nat (S j) * stride k) mod 2 ^ lg)%N).
        { unfold idx'. rewrite land_mask_mod. rewrite N.add_mod_idemp_l by (pose proof (pow2_pos_N lg); lia).
          f_equal. lia. }
        rewrite Eidx. clear idx' Eidx.
        destruct (Nat.eq_dec (S j) size) as [Hend|Hnend].
        * (* every slot was visited and occupied: contradicts the free slot *)
          exfalso. destruct Hfree as (s & Hs & Hno).
          destruct (sprobe_onto lg (start k) (stride k) s) as (j1 & Hj1 & Hp); auto.
          apply Hno. fold size in Hj1. destruct (Nat.lt_ge_cases j1 j) as [Hl|Hl].
          -- destruct (Hprev j1 Hl) as (a1 & k1 & H1 & H2 & _). exists a1.
             unfold probe in H1. rewrite Hp in H1. split; auto. unfold isocc, isfree. rewrite H2. auto.
          -- assert (j1 = j) by lia. subst j1. exists a. unfold probe in Ea. rewrite Hp in Ea. split; auto.
             unfold isocc, isfree. rewrite Ek. auto.
        * destruct (N.eqb_spec ((start k + N.of_nat (S j) * stride k) mod 2 ^ lg) (start k)) as [Er|Er].
          { exfalso. eapply sprobe_return; [apply stride_odd|apply start_lt| |exact Er]. fold size. lia. }
          eapply IH with (m := size - S j); try lia; auto.
          intros j' Hj'. destruct (Nat.eq_dec j' j) as [->|]; [|apply Hprev; lia]. eauto.
    - assert (ktest k a = TEmpty) as -> by (unfold ktest; rewrite Ek; auto).
      right. exists (probe k j), a, j. split; auto. split; auto. split; auto. split; auto. split; auto. split.
      + intros j' Hj'. destruct (Hprev j' Hj') as (a1 & k1 & H1 & H2 & _).
        exists a1. split; auto. unfold isocc, isfree. rewrite H2. auto.
      + intros a' Hin Hk'. apply In_nth_error in Hin. destruct Hin as [s Hs].
        destruct (Hch s a' k Hs Hk') as (j1 & Hj1 & Hp1 & Hocc).
        destruct (lt_eq_lt_dec j1 j) as [[Hl|He]|Hg].
        * destruct (Hprev j1 Hl) as (a1 & k1 & H1 & H2 & H3). rewrite Hp1, Hs in H1. congruence.
        * subst j1. rewrite Hp1 in Ea. congruence.
        * destruct (Hocc j Hg) as (a1 & H1 & H2). rewrite Ea in H1. inversion H1; subst a1.
          unfold isocc, isfree in H2. rewrite Ek in H2. discriminate.
  Qed.

  Theorem probe_loop_spec : forall t k fuel,
    table_ok t -> (exists s, s < size /\ ~ occ t s) -> size <= fuel ->
    let r := probe_loop fuel t (ktest k) (2 ^ lg - 1) (stride k) (start k) (start k) in
    (exists s a, r = PFound s /\ nth_error t s = Some a /\ key a = Some k) \/
    (exists s a j1, r = PEmpty s /\ nth_error t s = Some a /\ key a = None /\ j1 < size /\ s = probe k j1 /\
        (forall j', j' < j1 -> occ t (probe k j')) /\
        (forall a', In a' t -> key a' <> Some k)).
  Proof.
    intros t k fuel (Hlen & Hch & Hun) Hfree Hf.
    pose proof (probe_loop_from size t k 0 Hlen Hch Hun Hfree) as H.
    replace ((start k + N.of_nat 0 * stride k) mod 2 ^ lg)%N with (start k) in H.
    - pose proof size_pos. apply H; auto; lia.
    - simpl. rewrite N.add_0_r. symmetry. apply N.mod_small. apply start_lt.
  Qed.

  (** Inserting at the free slot the loop returned keeps the invariant. *)
  Lemma insert_ok : forall t s a j1 k x,
    table_ok t -> nth_error t s = Some a -> key a = None -> j1 < size -> s = probe k j1 ->
    (forall j', j' < j1 -> occ t (probe k j')) -> (forall a', In a' t -> key a' <> Some k) ->
    key x = Some k -> table_ok (upd s x t).
  Proof using key lg start stride.
    clear stride_odd start_lt.
    intros t s a j1 k x (Hlen & Hch & Hun) Ha Hka Hj1 Hs Hocc Hnot Hx.
    assert (Hsl : s < length t) by (eapply nth_error_Some_lt; eauto).
    assert (Hmono : forall s', occ t s' -> occ (upd s x t) s').
    { intros s' (b & Hb & Hob). destruct (Nat.eq_dec s s') as [<-|Hne].
      - exists x. rewrite nth_error_upd_eq by auto. split; auto. unfold isocc, isfree. rewrite Hx. auto.
      - exists b. rewrite nth_error_upd_neq by auto. auto. }
    split; [rewrite upd_length; auto|]. split.
    - intros s' b k' Hb Hkb. destruct (Nat.eq_dec s s') as [<-|Hne].
      + rewrite nth_error_upd_eq in Hb by auto. inversion Hb; subst b.
        assert (k' = k) by congruence. subst k'. exists j1. split; auto.
      + rewrite nth_error_upd_neq in Hb by auto. destruct (Hch s' b k' Hb Hkb) as (j & H1 & H2 & H3).
        exists j. split; auto.
    - intros s1 s2 a1 a2 k' H1 H2 Hk1 Hk2. rewrite nth_error_upd in H1, H2.
      destruct (Nat.eqb_spec s s1) as [<-|N1], (Nat.eqb_spec s s2) as [<-|N2]; auto.
      + exfalso. destruct (Nat.ltb_spec s (length t)); [|lia]. inversion H1; subst a1.
        apply (Hnot a2); [eapply nth_error_In; eauto|congruence].
      + exfalso. destruct (Nat.ltb_spec s (length t)); [|lia]. inversion H2; subst a2.
        apply (Hnot a1); [eapply nth_error_In; eauto|congruence].
      + eapply Hun; eauto.
  Qed.

  Lemma replace_ok : forall t s a x,
    table_ok t -> nth_error t s = Some a -> key x = key a -> table_ok (upd s x t).
  Proof using key lg start stride.
    clear stride_odd start_lt.
    intros t s a x (Hlen & Hch & Hun) Ha Hx.
    assert (Hsl : s < length t) by (eapply nth_error_Some_lt; eauto).
    assert (Hmono : forall s', occ t s' -> occ (upd s x t) s').
    { intros s' (b & Hb & Hob). destruct (Nat.eq_dec s s') as [<-|Hne].
      - exists x. rewrite nth_error_upd_eq by auto. split; auto. rewrite Ha in Hb. inversion Hb; subst.
        unfold isocc, isfree in *. rewrite Hx. auto.
      - exists b. rewrite nth_error_upd_neq by auto. auto. }
    assert (Hback : forall s' b, nth_error (upd s x t) s' = Some b -> exists b', nth_error t s' = Some b' /\ key b' = key b).
    { intros s' b Hb. destruct (Nat.eq_dec s s') as [<-|Hne].
      - rewrite nth_error_upd_eq in Hb by auto. inversion Hb; subst. eauto.
      - rewrite nth_error_upd_neq in Hb by auto. eauto. }
    split; [rewrite upd_length; auto|]. split.
    - intros s' b k' Hb Hkb. destruct (Hback _ _ Hb) as (b' & Hb' & E). rewrite <- E in Hkb.
      destruct (Hch s' b' k' Hb' Hkb) as (j & H1 & H2 & H3). exists j. auto.
    - intros s1 s2 a1 a2 k' H1 H2 Hk1 Hk2.
      destruct (Hback _ _ H1) as (b1 & Hb1 & E1). destruct (Hback _ _ H2) as (b2 & Hb2 & E2).
      apply (Hun s1 s2 b1 b2 k'); auto; congruence.
  Qed.

  Lemma contents_insert : forall t s a x, nth_error t s = Some a -> key a = None -> isocc x = true ->
    Permutation (contents (upd s x t)) (x :: contents t).
  Proof using key.
    clear -key.
    intros t s a x Ha Hk Hx. unfold contents.
    rewrite (nth_error_split' t s a Ha) at 2.
    rewrite upd_app_split by (eapply nth_error_Some_lt; eauto).
    rewrite !filter_app. cbn [filter]. rewrite Hx.
    assert (isocc a = false) as -> by (unfold isocc, isfree; rewrite Hk; auto).
    symmetry. apply Permutation_middle.
  Qed.

  Lemma contents_replace : forall t s a x, nth_error t s = Some a -> isocc a = true -> isocc x = true ->
    exists r, Permutation (contents t) (a :: r) /\ Permutation (contents (upd s x t)) (x :: r).
  Proof using key.
    clear -key.
    intros t s a x Ha Hoa Hx. exists (filter isocc (firstn s t) ++ filter isocc (skipn (S s) t)).
    unfold contents. split.
    - rewrite (nth_error_split' t s a Ha) at 1. rewrite filter_app. cbn [filter]. rewrite Hoa.
      symmetry. apply Permutation_middle.
    - rewrite upd_app_split by (eapply nth_error_Some_lt; eauto).
      rewrite filter_app. cbn [filter]. rewrite Hx. symmetry. apply Permutation_middle.
  Qed.

  Lemma contents_free : forall x n, key x = None -> contents (repeat x n) = [].
  Proof using key.
    clear -key.
    intros x n Hx. unfold contents. induction n; simpl; auto.
    assert (isocc x = false) as -> by (unfold isocc, isfree; rewrite Hx; auto). auto.
  Qed.

  Lemma contents_In : forall t a, In a (contents t) <-> In a t /\ exists k, key a = Some k.
  Proof using key.
    clear -key.
    intros. unfold contents. rewrite filter_In. unfold isocc, isfree.
    destruct (key a); split; intros [H1 H2]; split; eauto; try discriminate. destruct H2; discriminate.
  Qed.

  (** Fewer occupied cells than slots: there is a free slot. *)
  Lemma free_slot : forall t, length t = size -> length (contents t) < size ->
    exists s, s < size /\ ~ occ t s.
  Proof using key lg.
    clear -key lg.
    intros t Hlen Hc.
    assert (H : exists s a, nth_error t s = Some a /\ isocc a = false).
    { rewrite <- Hlen in Hc. clear Hlen. unfold contents in *. induction t as [|b t IH]; cbn [filter length] in Hc; [lia|].
      destruct (isocc b) eqn:Eb.
      - cbn [length] in Hc. destruct IH as (s & a & H1 & H2); [lia|]. exists (S s), a. auto.
      - exists 0, b. auto. }
    destruct H as (s & a & H1 & H2). exists s. split.
    - rewrite <- Hlen. eapply nth_error_Some_lt; eauto.
    - intros (b & Hb & Hob). congruence.
  Qed.

  (** No key is stored twice. *)
  Lemma uniq_NoDup : forall t, uniq t -> NoDup (map key (contents t)).
  Proof using key.
    clear -key.
    intros t. induction t as [|b t IH]; intros Hu; [constructor|].
    assert (Hu' : uniq t).
    { intros s1 s2 a1 a2 k H1 H2 K1 K2.
      assert (S s1 = S s2) by (eapply (Hu (S s1) (S s2)); eauto). lia. }
    unfold contents. cbn [filter]. destruct (isocc b) eqn:Eb; [|apply IH; auto].
    cbn [map]. constructor; [|apply IH; auto].
    intros Hin. apply in_map_iff in Hin. destruct Hin as (c & Hc & Hin).
    apply (proj1 (contents_In _ _)) in Hin. destruct Hin as (Hin & kc & Hkc).
    apply In_nth_error in Hin. destruct Hin as [s Hs].
    assert (0 = S s); [|lia]. eapply (Hu 0 (S s) b c kc); simpl; eauto. congruence.
  Qed.
End Table.
