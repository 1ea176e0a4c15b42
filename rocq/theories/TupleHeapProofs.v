(** * Proofs about the tuple package with summaries as objects: reading the addresses gives the value model. *)
From Coq Require Import Sorting.Sorted Permutation.
From Verif Require Import Base QuickSelectModel QuickSelectProofs ProbeModel ProbeProofs HashtableModel HashtableProofs
  ThetaModel ThetaProofs TupleModel TupleProofs TupleHeapModel.
Local Open Scope nat_scope.

(** ** Changing the entries of a table by a function that keeps the hashes commutes with every table operation. *)
Section MapE.
  Context {E E' : Type}.
  Variables (hE : E -> N) (hE' : E' -> N) (zE : E) (zE' : E') (f : E -> E').
  Hypothesis f_hash : forall e, hE' (f e) = hE e.
  Hypothesis f_zero : f zE = zE'.

  Definition mt (t : table E) : table E' :=
    mkTable (map f (t_entries t)) (t_theta t) (t_num t) (t_lgCur t) (t_lgNom t) (t_rf t) (t_empty t) (t_theta0 t).

  Lemma probe_loop_mt fuel es p q mask stride idx start : (forall e, q (f e) = p e) ->
    probe_loop fuel (map f es) q mask stride idx start = probe_loop fuel es p mask stride idx start.
  Proof.
    clear. intros H. revert idx. induction fuel; simpl; auto. intros idx. rewrite map_nth_error'.
    destruct (nth_error es (N.to_nat idx)); simpl; auto. rewrite H. destruct (p e); auto. rewrite IHfuel. auto.
  Qed.

  Lemma find_mt es lg k : find hE' (map f es) lg k = find hE es lg k.
  Proof. unfold find. apply probe_loop_mt. intros e. unfold hash_test. rewrite f_hash. reflexivity. Qed.

  Lemma reinsert_mt lg acc e :
    reinsert hE' lg (option_map (map f) acc) (f e) = option_map (map f) (reinsert hE lg acc e).
  Proof.
    destruct acc as [es|]; simpl; auto. unfold find_index. rewrite f_hash.
    rewrite find_mt. destruct (find hE es lg (hE e)) as [i|i| | |]; simpl; auto; rewrite ?map_length.
    - destruct (i <? length es); simpl; rewrite ?map_upd; auto.
    - destruct (i <? length es); simpl; rewrite ?map_upd; auto.
    - destruct es; simpl; auto.
  Qed.

  Lemma reinsert_fold_mt lg l : forall acc,
    fold_left (reinsert hE' lg) (map f l) (option_map (map f) acc) =
    option_map (map f) (fold_left (reinsert hE lg) l acc).
  Proof. induction l as [|e r IH]; intros acc; simpl; auto. rewrite reinsert_mt. auto. Qed.

  Lemma reinsert_fold_mt' lg l es :
    fold_left (reinsert hE' lg) (map f l) (Some (map f es)) =
    option_map (map f) (fold_left (reinsert hE lg) l (Some es)).
  Proof. apply (reinsert_fold_mt lg l (Some es)). Qed.

  Lemma filter_mt p q l : (forall e, q (f e) = p e) -> filter q (map f l) = map f (filter p l).
  Proof. clear. intros H. induction l; simpl; auto. rewrite H. destruct (p a); simpl; congruence. Qed.

  Lemma repeat_mt n : map f (repeat zE n) = repeat zE' n.
  Proof. induction n; simpl; congruence. Qed.

  Lemma resize_mt t : resize hE' zE' (mt t) = option_map mt (resize hE zE t).
  Proof.
    unfold resize. simpl. rewrite map_length. destruct (_ =? _); auto.
    rewrite (filter_mt (fun e => negb (hE e =? 0)%N)) by (intros; rewrite f_hash; reflexivity).
    rewrite <- repeat_mt. rewrite reinsert_fold_mt'.
    destruct (fold_left _ _ _); simpl; auto.
  Qed.

  Lemma hash_lt_mt a b : hash_lt hE' (f a) (f b) = hash_lt hE a b.
  Proof. unfold hash_lt. rewrite !f_hash. auto. Qed.

  Lemma scan_up_mt fuel arr v hi : forall i,
    scan_up (hash_lt hE') fuel (map f arr) (f v) hi i = scan_up (hash_lt hE) fuel arr v hi i.
  Proof.
    induction fuel; intros i; simpl; auto. rewrite map_nth_error'.
    destruct (nth_error arr (i + 1)); simpl; auto. rewrite hash_lt_mt.
    destruct (hash_lt hE e v); auto. destruct (_ =? _); auto.
  Qed.

  Lemma scan_down_mt fuel arr v lo : forall i,
    scan_down (hash_lt hE') fuel (map f arr) (f v) lo i = scan_down (hash_lt hE) fuel arr v lo i.
  Proof.
    induction fuel; intros i; simpl; auto. destruct (i =? 0); auto. rewrite map_nth_error'.
    destruct (nth_error arr (i - 1)); simpl; auto. rewrite hash_lt_mt.
    destruct (hash_lt hE v e); auto. destruct (_ =? _); auto.
  Qed.

  Lemma swap_mt i j l : map f (swap i j l) = swap i j (map f l).
  Proof.
    clear. unfold swap. rewrite !map_nth_error'. destruct (nth_error l i), (nth_error l j); simpl; auto.
    rewrite !map_upd. auto.
  Qed.

  Definition pmm (r : option (list E * nat)) : option (list E' * nat) := option_map (fun x => (map f (fst x), snd x)) r.
  Definition qmm (r : option (list E * E)) : option (list E' * E') := option_map (fun x => (map f (fst x), f (snd x))) r.

  Lemma part_loop_mt fuel : forall arr v lo hi i j,
    part_loop (hash_lt hE') fuel (map f arr) (f v) lo hi i j = pmm (part_loop (hash_lt hE) fuel arr v lo hi i j).
  Proof.
    induction fuel; intros; simpl; auto. rewrite map_length, scan_up_mt.
    destruct (scan_up _ _ _ _ _ _); simpl; auto. rewrite scan_down_mt. destruct (scan_down _ _ _ _ _ _); simpl; auto.
    destruct (n0 =? 0); auto. destruct (n0 - 1 <=? n + 1); auto. rewrite !map_nth_error'.
    destruct (nth_error arr (n + 1)), (nth_error arr (n0 - 1)); simpl; auto. rewrite <- swap_mt. auto.
  Qed.

  Lemma partition_mt arr lo hi : partition (hash_lt hE') (map f arr) lo hi = pmm (partition (hash_lt hE) arr lo hi).
  Proof.
    unfold partition. rewrite map_nth_error'. destruct (nth_error arr lo); simpl; auto.
    rewrite map_length, part_loop_mt. destruct (part_loop _ _ _ _ _ _ _ _) as [[a j]|]; simpl; auto.
    rewrite map_nth_error'. destruct (nth_error a j); simpl; auto. unfold pmm. simpl. rewrite swap_mt. auto.
  Qed.

  Lemma qs_loop_mt fuel : forall arr lo hi p,
    qs_loop (hash_lt hE') fuel (map f arr) lo hi p = qmm (qs_loop (hash_lt hE) fuel arr lo hi p).
  Proof.
    induction fuel; intros; simpl; auto. destruct (lo <? hi).
    - rewrite partition_mt. destruct (partition _ _ _ _) as [[a j]|]; simpl; auto.
      destruct (j =? p). { rewrite map_nth_error'. destruct (nth_error a p); auto. }
      destruct (p <? j); auto.
    - rewrite map_nth_error'. destruct (nth_error arr p); auto.
  Qed.

  Lemma quick_select_mt arr lo hi p :
    quick_select (hash_lt hE') (map f arr) lo hi p = qmm (quick_select (hash_lt hE) arr lo hi p).
  Proof. apply qs_loop_mt. Qed.

  Lemma first_free_mt l : forall i, first_free hE' (map f l) i = first_free hE l i.
  Proof. induction l; intros i; simpl; auto. rewrite f_hash. destruct (_ =? _)%N; auto. Qed.

  Lemma consolidate_loop_mt js : forall es i num,
    consolidate_loop hE' zE' js (map f es) i num = option_map (map f) (consolidate_loop hE zE js es i num).
  Proof.
    induction js as [|j js IH]; intros es i num; simpl; auto. rewrite map_nth_error'.
    destruct (nth_error es j); simpl; auto. rewrite f_hash. destruct (_ =? 0)%N; auto.
    rewrite map_length. destruct (i <? length es); auto.
    rewrite <- f_zero, <- !map_upd. destruct (_ =? num); auto. rewrite f_zero. auto.
  Qed.

  Lemma consolidate_mt es size num :
    consolidate hE' zE' (map f es) size num = option_map (map f) (consolidate hE zE es size num).
  Proof. unfold consolidate. rewrite firstn_map, first_free_mt. apply consolidate_loop_mt. Qed.

  Lemma rebuild_mt t : rebuild hE' zE' (mt t) = option_map mt (rebuild hE zE t).
  Proof.
    unfold rebuild. simpl. rewrite consolidate_mt. destruct (consolidate _ _ _ _ _) as [es|]; simpl; auto.
    rewrite map_length. destruct (_ <? _); auto. rewrite firstn_map, quick_select_mt.
    destruct (quick_select _ _ _ _ _) as [[pre x]|]; simpl; auto.
    rewrite skipn_map, <- map_app, map_nth_error'. destruct (nth_error _ _) as [p|]; simpl; auto.
    rewrite firstn_map, <- repeat_mt, reinsert_fold_mt', f_hash. destruct (fold_left _ _ _); simpl; auto.
  Qed.

  Lemma insert_mt t i e : insert hE' zE' (mt t) i (f e) = option_map mt (insert hE zE t i e).
  Proof.
    unfold insert. simpl. rewrite map_length. destruct (i <? _); auto.
    rewrite <- map_upd.
    match goal with |- context [if ?c then (if ?d then resize _ _ ?t1 else _) else _] => set (te := t1) end.
    set (t1 := mkTable (upd i e _) _ _ _ _ _ _ _).
    change te with (mt t1). rewrite resize_mt, rebuild_mt.
    destruct (_ <? _); auto. destruct (_ <=? _)%N; auto.
  Qed.

  Lemma trim_mt t : trim hE' zE' (mt t) = option_map mt (trim hE zE t).
  Proof. unfold trim. simpl. rewrite rebuild_mt. destruct (_ <? _); auto. Qed.

  Lemma reset_mt t : reset zE' (mt t) = mt (reset zE t).
  Proof. unfold reset, mt. simpl. rewrite repeat_mt, map_length. auto. Qed.

  Lemma new_table_mt lg nom rf th th0 e : mt (new_table zE lg nom rf th th0 e) = new_table zE' lg nom rf th th0 e.
  Proof. unfold mt, new_table. simpl. destruct (0 <? lg)%N; auto. rewrite repeat_mt. auto. Qed.
End MapE.

Section HP.
  Context {S : Type}.
  Variable s0 : S.
  Variable ap : S -> S -> S.
  Notation hent := (ent nat).
  Notation hlive := (live (E := ent nat) ehash).
  Notation ter := (er (E := ent nat) ehash).

  (** reading an entry; free slots read as free slots *)
  Definition rd (hp : list S) (e : hent) : ent S := if (fst e =? 0)%N then zent s0 else (fst e, nth (snd e) hp s0).
  Lemma rd_hash hp e : ehash (rd hp e) = ehash e.
  Proof. unfold rd, ehash. destruct (N.eqb_spec (fst e) 0); auto. Qed.
  Lemma rd_zero hp : rd hp (zent 0) = zent s0.
  Proof. reflexivity. Qed.
  Definition vt (hp : list S) (t : table hent) : table (ent S) := mt (rd hp) t.
  Lemma er_vt hp t : er (E := ent S) ehash (vt hp t) = ter t.
  Proof. unfold er, vt, mt. cbn. rewrite map_map. rewrite (map_ext (fun x => ehash (rd hp x)) ehash); auto. apply rd_hash. Qed.

  Lemma rd_pos hp e : (0 < fst e)%N -> rd hp e = (fst e, nth (snd e) hp s0).
  Proof. unfold rd. destruct (N.eqb_spec (fst e) 0); auto. lia. Qed.

  (** an address belongs to one hash only; all addresses are inside the heap *)
  Definition owned (l : list hent) : Prop := forall e e', In e l -> In e' l -> snd e = snd e' -> fst e = fst e'.
  Definition inside (hp : list S) (l : list hent) : Prop := forall e, In e l -> snd e < length hp.

  Lemma owned_incl l l' : incl l' l -> owned l -> owned l'.
  Proof. intros H O e e' H1 H2. apply O; auto. Qed.
  Lemma inside_incl hp l l' : incl l' l -> inside hp l -> inside hp l'.
  Proof. intros H O e H1. apply O; auto. Qed.

  Lemma nth_upd_eq a (x : S) hp : a < length hp -> nth a (upd a x hp) s0 = x.
  Proof. intros H. apply nth_error_nth. rewrite nth_error_upd, Nat.eqb_refl. destruct (Nat.ltb_spec a (length hp)); auto; lia. Qed.
  Lemma nth_upd_ne a b (x : S) hp : a <> b -> nth b (upd a x hp) s0 = nth b hp s0.
  Proof.
    intros H. destruct (nth_error hp b) as [y|] eqn:E.
    - rewrite (nth_error_nth _ _ s0 E). apply nth_error_nth. rewrite nth_error_upd. destruct (Nat.eqb_spec a b); [congruence|]. auto.
    - apply nth_error_None in E. rewrite !nth_overflow; auto. rewrite upd_length. auto.
  Qed.

  (** writing the object of one slot of the table *)
  Lemma vt_upd hp t i e a x : tok ehash (t_lgCur t) (t_entries t) -> owned (hlive (t_entries t)) ->
    nth_error (t_entries t) i = Some (e, a) -> e <> 0%N -> a < length hp ->
    vt (upd a x hp) t = set_entries (vt hp t) (upd i (e, x) (t_entries (vt hp t))).
  Proof.
    intros T O Hn He Ha. unfold vt, mt, set_entries. cbn [t_entries t_theta t_num t_lgCur t_lgNom t_rf t_empty t_theta0]. f_equal.
    apply nth_error_ext. intros j. rewrite nth_error_upd, !map_nth_error', map_length.
    destruct (Nat.eqb_spec i j) as [<-|Hij].
    - rewrite Hn. cbn [option_map]. assert (i < length (t_entries t)) by (apply nth_error_Some; congruence).
      destruct (Nat.ltb_spec i (length (t_entries t))); [|lia]. unfold rd. cbn [fst snd]. destruct (N.eqb_spec e 0); [tauto|].
      rewrite nth_upd_eq by auto. auto.
    - destruct (nth_error (t_entries t) j) as [[h b]|] eqn:Ej; auto. cbn [option_map]. unfold rd. cbn [fst snd].
      destruct (N.eqb_spec h 0) as [Hz|Hz]; auto. rewrite nth_upd_ne; auto. intros <-.
      assert (Eh : e = h).
      { apply (O (e, a) (h, a)); auto; apply live_In; (split; [eapply nth_error_In; eauto|]); auto. }
      subst h. apply Hij. destruct T as (_ & _ & U). apply (U i j (e, a) (e, a) e); auto; unfold kof, ehash; cbn [fst];
        (destruct (N.eqb_spec e 0); [tauto|auto]).
  Qed.

  Lemma rd_upd_others hp a x (l : list hent) : (forall e, In e l -> snd e <> a) -> map (rd (upd a x hp)) l = map (rd hp) l.
  Proof.
    intros H. apply map_ext_in. intros e He. unfold rd. destruct (fst e =? 0)%N; auto. rewrite nth_upd_ne; auto.
    intros C. apply (H e He). auto.
  Qed.

  Lemma hunion_loop_sim lgK rf th0 uth ordered : (MinLgK <= lgK)%N -> (rf <= 3)%N -> forall l t hp sn tv,
    UInv lgK rf th0 (ter t) sn false -> (forall e, In e l -> (0 < fst e)%N) -> NoDup (map fst l) ->
    owned (hlive (t_entries t) ++ l) -> inside hp (hlive (t_entries t) ++ l) ->
    tunion_loop s0 ap uth ordered (map (rd hp) l) (vt hp t) = Some tv ->
    exists t' hp', hunion_loop ap uth ordered l t hp = Some (t', hp') /\ vt hp' t' = tv /\ length hp' = length hp /\
      incl (hlive (t_entries t')) (hlive (t_entries t) ++ l) /\
      (forall a, (forall h, In (h, a) (hlive (t_entries t)) -> ~ In h (map fst l)) -> nth_error hp' a = nth_error hp a).
  Proof.
    intros HK Hrf. induction l as [|[h a] r IH]; intros t hp sn tv I Hpos Hnd O V H; cbn [map tunion_loop hunion_loop] in *.
    { injection H as <-. exists t, hp. split; auto. split; auto. split; auto. split; auto. rewrite app_nil_r. apply incl_refl. }
    inversion Hnd as [|? ? Hnin Hnd']; subst. cbn [fst] in Hnin.
    assert (Hh : (0 < h)%N) by (apply (Hpos (h, a)); cbn; auto).
    rewrite (rd_pos hp (h, a)) in H by auto. cbn [fst snd] in H. change (t_theta (vt hp t)) with (t_theta t) in H.
    assert (Hrest : forall tv', tunion_loop s0 ap uth ordered (map (rd hp) r) (vt hp t) = Some tv' ->
      exists t' hp', hunion_loop ap uth ordered r t hp = Some (t', hp') /\ vt hp' t' = tv' /\ length hp' = length hp /\
        incl (hlive (t_entries t')) (hlive (t_entries t) ++ (h, a) :: r) /\
        (forall b, (forall h', In (h', b) (hlive (t_entries t)) -> ~ In h' (h :: map fst r)) -> nth_error hp' b = nth_error hp b)).
    { intros tv' H'. destruct (IH t hp sn tv' I) as (t' & hp' & A & B & C & D & F); auto.
      - intros e He. apply Hpos. cbn. auto.
      - eapply owned_incl; [|exact O]. intros e. rewrite !in_app_iff. cbn. tauto.
      - eapply inside_incl; [|exact V]. intros e. rewrite !in_app_iff. cbn. tauto.
      - exists t', hp'. do 3 (split; auto). split.
        + intros e He. apply D in He. rewrite in_app_iff in *. cbn. tauto.
        + intros b Hb. apply F. intros h' Hin. specialize (Hb h' Hin). cbn in Hb. tauto. }
    destruct ((h <? uth)%N && (h <? t_theta t)%N) eqn:Ec.
    2:{ destruct ordered; auto. injection H as <-. exists t, hp. do 3 (split; auto). split; auto. apply incl_appl, incl_refl. }
    change (t_entries (vt hp t)) with (map (rd hp) (t_entries t)) in H at 1. change (t_lgCur (vt hp t)) with (t_lgCur t) in H.
    rewrite (find_mt ehash ehash (rd hp) (rd_hash hp)) in H.
    assert (Hz : h <> 0%N) by lia.
    destruct (UInv_find 0 _ _ _ _ _ _ h I Hz) as [(i & b & Hf & Hn & Hin)|(i & Hf & Hno & Hno')]; rewrite Hf in *.
    - rewrite Hn. change (t_entries (vt hp t)) with (map (rd hp) (t_entries t)) in H at 1. rewrite map_nth_error', Hn in H.
      cbn [option_map] in H. rewrite (rd_pos hp (h, b)) in H by auto. cbn [fst snd] in *.
      assert (Vb : b < length hp) by (apply (V (h, b)); apply in_app_iff; auto).
      assert (Va : a < length hp) by (apply (V (h, a)); apply in_app_iff; cbn; auto).
      unfold policy_apply. rewrite (nth_error_nth' hp b s0), (nth_error_nth' hp a s0) by auto.
      set (x := ap (nth b hp s0) (nth a hp s0)) in *.
      rewrite <- (vt_upd hp t i h b x) in H; auto.
      2:{ eapply UInv_tok; eauto. }
      2:{ eapply owned_incl; [|exact O]. apply incl_appl, incl_refl. }
      rewrite <- (rd_upd_others hp b x r) in H.
      2:{ intros e He C. assert (Eh : fst e = h).
          { apply (O e (h, b)); auto; apply in_app_iff; auto. cbn. auto. }
          apply Hnin. rewrite <- Eh. apply in_map. auto. }
      destruct (IH t (upd b x hp) sn tv I) as (t' & hp' & A & B & C & D & F); auto.
      + intros e He. apply Hpos. cbn. auto.
      + eapply owned_incl; [|exact O]. intros e. rewrite !in_app_iff. cbn. tauto.
      + intros e He. rewrite upd_length. apply V. revert He. rewrite !in_app_iff. cbn. tauto.
      + exists t', hp'. split; auto. split; auto. split; [rewrite C; apply upd_length|]. split.
        * intros e He. apply D in He. rewrite in_app_iff in *. cbn. tauto.
        * intros c Hc. rewrite F.
          -- rewrite nth_error_upd. destruct (Nat.eqb_spec b c) as [<-|]; auto. exfalso. apply (Hc h Hin). cbn. auto.
          -- intros h' Hin' C'. apply (Hc h' Hin'). cbn. auto.
    - replace (h, nth a hp s0) with (rd hp (h, a)) in H by (apply rd_pos; auto).
      unfold vt in H at 1. rewrite (insert_mt ehash ehash (zent 0) (zent s0) (rd hp) (rd_hash hp) (rd_zero hp)) in H.
      destruct (insert_inv lgK rf th0 (ter t) sn h i) as (t'' & Hi & I1 & _); auto.
      { apply andb_true_iff in Ec as [_ Ec]. apply N.ltb_lt in Ec. auto. }
      { cbn. rewrite find_er. auto. }
      pose proof (insert_er ehash (zent 0) (zent_hash 0) t i (h, a)) as Her. cbn [ehash fst] in Her. rewrite Her in Hi.
      destruct (insert ehash (zent 0) t i (h, a)) as [t1|] eqn:Ei; [|discriminate]. cbn [option_map] in Hi, H. injection Hi as <-.
      assert (Hl1 : forall e, In e (hlive (t_entries t1)) -> e = (h, a) \/ In e (hlive (t_entries t))) by (apply (insert_elive 0 _ _ _ _ Ei)).
      destruct (IH t1 hp (sn ++ [h]) tv I1) as (t' & hp' & A & B & C & D & F); auto.
      + intros e He. apply Hpos. cbn. auto.
      + eapply owned_incl; [|exact O]. intros e. rewrite !in_app_iff. cbn. intros [Hx|Hx]; auto. destruct (Hl1 e Hx); auto.
      + eapply inside_incl; [|exact V]. intros e. rewrite !in_app_iff. cbn. intros [Hx|Hx]; auto. destruct (Hl1 e Hx); auto.
      + exists t', hp'. do 3 (split; auto). split.
        * intros e He. apply D in He. rewrite in_app_iff in *. cbn. destruct He as [Hx|Hx]; auto. destruct (Hl1 e Hx); auto.
        * intros c Hc. apply F. intros h' Hin'. destruct (Hl1 _ Hin') as [E|Hx].
          -- injection E as -> ->. exact Hnin.
          -- specialize (Hc h' Hx). cbn in Hc. tauto.
  Qed.

  (** ** Union *)
  Definition vs (hp : list S) (s : tsketch nat) : tsketch S :=
    mkTSketch (map (rd hp) (ts_entries s)) (ts_theta s) (ts_seed s) (ts_empty s) (ts_ordered s).
  Definition vu (hp : list S) (u : tunion nat) : tunion S := mkTUnion (vt hp (tu_tab u)) (tu_theta u) (tu_seed u).

  Lemma erase_vs hp s : erase_sk (vs hp s) = erase_sk s.
  Proof. unfold erase_sk, vs. cbn. rewrite map_map. f_equal. apply map_ext. apply rd_hash. Qed.

  Lemma vs_reported hp s : wf_sketch (erase_sk s) -> vs hp s = reported s0 hp s.
  Proof.
    intros W. unfold vs, reported. f_equal. apply map_ext_in. intros e He. apply rd_pos. apply (wf_range _ W). cbn. apply in_map. auto.
  Qed.

  Lemma eru_vu hp u : eru (vu hp u) = mkUnion (ter (tu_tab u)) (tu_theta u) (tu_seed u).
  Proof. unfold eru, vu. cbn [tu_tab tu_theta tu_seed]. rewrite er_vt. auto. Qed.

  Lemma wf_pos s : wf_sketch (erase_sk s) -> forall e : hent, In e (ts_entries s) -> (0 < fst e)%N.
  Proof. intros W e He. apply (wf_range _ W). cbn. apply in_map. auto. Qed.

  Lemma hunion_update_sim lgK rf th0 seed u hp ins s : (MinLgK <= lgK)%N -> (rf <= 3)%N ->
    TUnInv ap lgK rf th0 seed (vu hp u) ins -> wf_sketch (erase_sk s) -> (ts_empty s = true \/ ts_seed s = seed) ->
    owned (hlive (t_entries (tu_tab u)) ++ ts_entries s) -> inside hp (hlive (t_entries (tu_tab u)) ++ ts_entries s) ->
    exists u' hp', hunion_update ap u hp s = Some (u', hp') /\ TUnInv ap lgK rf th0 seed (vu hp' u') (ins ++ [vs hp s]) /\
      length hp' = length hp /\
      incl (hlive (t_entries (tu_tab u'))) (hlive (t_entries (tu_tab u)) ++ ts_entries s) /\
      (forall a, ~ In a (map snd (hlive (t_entries (tu_tab u)))) -> nth_error hp' a = nth_error hp a).
  Proof.
    intros HK Hrf I W Hs O V.
    destruct (tunion_update_ok s0 ap lgK rf th0 seed (vu hp u) ins (vs hp s)) as (uv & E & _ & I'); auto.
    { rewrite erase_vs. auto. }
    unfold tunion_update in E. unfold hunion_update. cbn [vu vs ts_empty tu_seed ts_seed tu_theta ts_theta ts_ordered ts_entries tu_tab] in E.
    destruct (ts_empty s) eqn:Ee.
    { injection E as <-. exists u, hp. do 3 (split; auto). split; auto. apply incl_appl, incl_refl. }
    destruct (negb _); [discriminate|]. cbv zeta in *. set (th := N.min _ _) in *.
    change (tup_nonempty (vt hp (tu_tab u))) with (vt hp (tup_nonempty (tu_tab u))) in E.
    destruct (tunion_loop _ _ _ _ _ _) as [tv|] eqn:El; [|discriminate].
    destruct I as [[sn J] _]. pose proof (un_tab _ _ _ _ _ _ _ J) as K. rewrite eru_vu in K. cbn [u_tab] in K.
    apply set_nonempty_inv in K. rewrite <- nonempty_er in K.
    destruct (hunion_loop_sim lgK rf th0 th (ts_ordered s) HK Hrf (ts_entries s) _ hp _ tv K) as (t' & hp' & A & B & C & D & F); auto.
    { apply wf_pos. auto. }
    { apply (wf_nodup _ W). }
    rewrite A. eexists _, hp'. split; [reflexivity|]. split.
    { injection E as <-. unfold vu. cbn [tu_tab tu_theta tu_seed]. rewrite B. change (t_theta t') with (t_theta (vt hp' t')). rewrite B. exact I'. }
    split; auto. split; auto. intros a Ha. apply F. intros h Hin. destruct Ha. apply in_map_iff. exists (h, a). auto.
  Qed.

  Lemma hunion_reset_sim lgK rf th0 seed u hp ins : (MinLgK <= lgK)%N -> (rf <= 3)%N ->
    TUnInv ap lgK rf th0 seed (vu hp u) ins -> TUnInv ap lgK rf th0 seed (vu hp (tunion_reset 0 u)) [] /\
    hlive (t_entries (tu_tab (tunion_reset 0 u))) = [].
  Proof.
    intros HK Hrf I. split.
    - replace (vu hp (tunion_reset 0 u)) with (tunion_reset s0 (vu hp u)); [eapply tunion_reset_ok; eauto|].
      unfold tunion_reset, vu. cbn [tu_tab tu_theta tu_seed]. unfold vt.
      rewrite (reset_mt (zent 0) (zent s0) (rd hp) (rd_zero hp)). auto.
    - unfold tunion_reset. cbn [tu_tab]. unfold reset. cbn [t_entries]. apply (live_repeat ehash). reflexivity.
  Qed.

  Lemma new_hunion lgK rf th0 seed hp : (MinLgK <= lgK)%N -> (rf <= 3)%N ->
    TUnInv ap lgK rf th0 seed (vu hp (new_tunion 0 lgK rf th0 seed)) [] /\ hlive (t_entries (tu_tab (new_tunion 0 lgK rf th0 seed))) = [].
  Proof.
    intros HK Hrf. split.
    - replace (vu hp (new_tunion 0 lgK rf th0 seed)) with (new_tunion s0 lgK rf th0 seed); [apply new_tunion_inv; auto|].
      unfold new_tunion, vu. cbn [tu_tab tu_theta tu_seed]. f_equal. unfold vt, tup_new.
      symmetry. apply new_table_mt. apply rd_zero.
    - unfold new_tunion, tup_new, new_table. cbn [tu_tab t_entries]. destruct (0 <? _)%N; auto. apply (live_repeat ehash). reflexivity.
  Qed.

  Lemma insert_by_hash_rd hp (x : hent) : forall l, map (rd hp) (insert_by_hash x l) = insert_by_hash (rd hp x) (map (rd hp) l).
  Proof.
    induction l as [|y r IH]; cbn [insert_by_hash map]; auto. pose proof (rd_hash hp x) as Hx. pose proof (rd_hash hp y) as Hy. unfold ehash in Hx, Hy.
    rewrite Hx, Hy. destruct (_ <=? _)%N; cbn [map]; auto. rewrite IH. auto.
  Qed.
  Lemma sort_by_hash_rd hp : forall l : list hent, map (rd hp) (sort_by_hash l) = sort_by_hash (map (rd hp) l).
  Proof. induction l as [|x r IH]; cbn [sort_by_hash map]; auto. rewrite insert_by_hash_rd, IH. auto. Qed.

  Lemma tcompact_entries_rd hp e o seed th (l : list hent) : vs hp (tcompact_entries e o seed th l) = tcompact_entries e o seed th (map (rd hp) l).
  Proof. unfold vs, tcompact_entries. cbn. rewrite map_length. auto. Qed.

  Lemma tunion_result_rd hp u ordered : tunion_result (vu hp u) ordered = option_map (vs hp) (tunion_result u ordered).
  Proof.
    unfold tunion_result. cbn [vu tu_tab tu_theta tu_seed]. change (t_empty (vt hp (tu_tab u))) with (t_empty (tu_tab u)).
    destruct (t_empty (tu_tab u)); auto.
    change (t_theta (vt hp (tu_tab u))) with (t_theta (tu_tab u)). change (t_lgNom (vt hp (tu_tab u))) with (t_lgNom (tu_tab u)).
    change (t_entries (vt hp (tu_tab u))) with (map (rd hp) (t_entries (tu_tab u))). cbv zeta.
    set (th := N.min _ _).
    set (es := if (_ <=? _)%N then filter _ (t_entries (tu_tab u)) else _).
    match goal with |- match (if _ <? length ?x then _ else _) with _ => _ end = _ => set (es' := x) end.
    assert (Hes : es' = map (rd hp) es).
    { unfold es', es. destruct (_ <=? _)%N; apply (filter_mt (rd hp)); intros e; rewrite rd_hash; reflexivity. }
    rewrite Hes, map_length. set (n := pow2 _). destruct (n <? length es).
    - rewrite (quick_select_mt ehash ehash (rd hp) (rd_hash hp)).
      destruct (quick_select _ _ _ _ _) as [[a y]|]; cbn [qmm option_map fst snd]; auto. rewrite map_nth_error'.
      destruct (nth_error a n) as [z|]; cbn [option_map]; auto. rewrite tcompact_entries_rd, rd_hash, firstn_map.
      destruct ordered; rewrite ?sort_by_hash_rd; auto.
    - cbn [option_map]. rewrite tcompact_entries_rd. destruct ordered; rewrite ?sort_by_hash_rd; auto.
  Qed.

  (** ** Clones *)
  Lemma clone_all_ok : forall (l : list hent) hp, inside hp l ->
    exists l' hp', clone_all hp l = Some (l', hp' ) /\ map fst l' = map fst l /\ map snd l' = seq (length hp) (length l) /\
      (exists more, hp' = hp ++ more /\ length more = length l) /\
      map (fun e => (fst e, nth (snd e) hp' s0)) l' = map (fun e => (fst e, nth (snd e) hp s0)) l.
  Proof.
    induction l as [|[h a] r IH]; intros hp V; cbn [clone_all].
    { exists [], hp. do 3 (split; auto). split; auto. exists []. rewrite app_nil_r. auto. }
    assert (Va : a < length hp) by (apply (V (h, a)); cbn; auto).
    rewrite (nth_error_nth' hp a s0) by auto. set (x := nth a hp s0).
    destruct (IH (hp ++ [x])) as (l' & hp' & E & F1 & F2 & (more & Em & Lm) & F3).
    { intros e He. rewrite app_length. cbn. assert (snd e < length hp) by (apply V; cbn; auto). lia. }
    rewrite E. eexists _, hp'. split; [reflexivity|]. cbn [map fst snd length seq]. split; [congruence|]. split.
    { rewrite F2, app_length. cbn. f_equal. f_equal. lia. }
    split. { exists (x :: more). rewrite Em, <- app_assoc. cbn. auto. }
    f_equal.
    - f_equal. rewrite Em, app_nth1 by (rewrite app_length; cbn; lia). rewrite app_nth2, Nat.sub_diag by lia. auto.
    - rewrite F3. apply map_ext_in. intros e He. f_equal. apply app_nth1. apply V. cbn. auto.
  Qed.

  Lemma clone_vs (l l' : list hent) hp hp' : map (fun e => (fst e, nth (snd e) hp' s0)) l' = map (fun e => (fst e, nth (snd e) hp s0)) l ->
    map (rd hp') l' = map (rd hp) l.
  Proof.
    revert l. induction l' as [|e' r' IH]; intros [|e r]; cbn; intros H; try discriminate; auto. injection H as H1 H2 H3. f_equal; auto.
    unfold rd. rewrite H1, H2. auto.
  Qed.

  Lemma hcompact_ok hp s ordered : inside hp (ts_entries s) ->
    exists s' hp', hcompact hp s ordered = Some (s', hp') /\ vs hp' s' = tcompact (vs hp s) ordered /\
      reported s0 hp' s' = tcompact (reported s0 hp s) ordered /\
      (exists more, hp' = hp ++ more /\ length more = length (ts_entries s)) /\
      Permutation (map snd (ts_entries s')) (seq (length hp) (length (ts_entries s))).
  Proof.
    intros V. unfold hcompact. destruct (clone_all_ok (ts_entries s) hp V) as (l' & hp' & E & F1 & F2 & M & F3). rewrite E.
    eexists _, hp'. split; [reflexivity|].
    assert (Hsort : forall (g : hent -> ent S), (forall e, fst (g e) = fst e) -> forall l, map g (sort_by_hash l) = sort_by_hash (map g l)).
    { intros g Hg. assert (Hi : forall x l, map g (insert_by_hash x l) = insert_by_hash (g x) (map g l)).
      { intros x. induction l as [|y r IH]; cbn [insert_by_hash map]; auto. rewrite !Hg. destruct (_ <=? _)%N; cbn [map]; auto. rewrite IH. auto. }
      induction l as [|x r IH]; cbn [sort_by_hash map]; auto. rewrite Hi, IH. auto. }
    split; [|split; [|split; [auto|]]].
    - unfold vs, tcompact. cbn [ts_entries ts_theta ts_seed ts_empty ts_ordered]. f_equal. rewrite <- (clone_vs _ _ _ _ F3).
      destruct (_ && _); auto. apply sort_by_hash_rd.
    - unfold reported, tcompact. cbn [ts_entries ts_theta ts_seed ts_empty ts_ordered]. f_equal. rewrite <- F3.
      destruct (_ && _); auto.
    - cbn [ts_entries]. rewrite <- F2. destruct (_ && _); auto. apply Permutation_map. apply sort_by_hash_perm.
  Qed.

  (** ** Intersection *)
  Definition vi (hp : list S) (x : tinter nat) : tinter S := mkTInter (vt hp (ti_tab x)) (ti_valid x) (ti_seed x).
  Lemma eri_vi hp x : eri (vi hp x) = eri x.
  Proof. unfold eri, vi. cbn [ti_tab ti_valid ti_seed]. rewrite er_vt. auto. Qed.

  Lemma hinter_match_sim o m : forall l t ms c hp msv c',
    tok ehash (t_lgCur t) (t_entries t) -> length (hlive (t_entries t)) < pow2 (t_lgCur t) ->
    (forall e, In e l -> (0 < fst e)%N) -> NoDup (map fst l) ->
    owned (hlive (t_entries t) ++ l) -> inside hp (hlive (t_entries t) ++ l) ->
    incl ms (hlive (t_entries t)) -> (forall e, In e ms -> ~ In (fst e) (map fst l)) ->
    tinter_match ap (vt hp t) o m (map (rd hp) l) (map (rd hp) ms) c = Some (msv, c') ->
    exists ms' hp', hinter_match ap t o m l ms c hp = Some (ms', c', hp') /\ map (rd hp') ms' = msv /\ length hp' = length hp /\
      incl ms' (hlive (t_entries t)) /\
      (forall a, ~ In a (map snd (hlive (t_entries t))) -> nth_error hp' a = nth_error hp a).
  Proof.
    induction l as [|[h a] r IH]; intros t ms c hp msv c' T L Hpos Hnd O V Hms Hdis H; cbn [map tinter_match hinter_match] in *.
    { injection H as <- <-. exists ms, hp. auto 10. }
    inversion Hnd as [|? ? Hnin Hnd']; subst. cbn [fst] in Hnin.
    assert (Hh : (0 < h)%N) by (apply (Hpos (h, a)); cbn; auto).
    rewrite (rd_pos hp (h, a)) in H by auto. cbn [fst snd] in H. change (t_theta (vt hp t)) with (t_theta t) in H.
    assert (Hpos' : forall e, In e r -> (0 < fst e)%N) by (intros e He; apply Hpos; cbn; auto).
    assert (Hi : incl (hlive (t_entries t) ++ r) (hlive (t_entries t) ++ (h, a) :: r)) by (intros e; rewrite !in_app_iff; cbn; tauto).
    assert (O' := owned_incl _ _ Hi O). assert (V' := inside_incl hp _ _ Hi V).
    assert (Hdis' : forall e, In e ms -> ~ In (fst e) (map fst r)) by (intros e He C; apply (Hdis e He); cbn; auto).
    destruct (h <? t_theta t)%N.
    2:{ destruct o; [|apply (IH t ms (c + 1) hp msv c'); auto]. injection H as <- <-. exists ms, hp. auto 10. }
    change (t_entries (vt hp t)) with (map (rd hp) (t_entries t)) in H at 1. change (t_lgCur (vt hp t)) with (t_lgCur t) in H.
    rewrite (find_mt ehash ehash (rd hp) (rd_hash hp)) in H.
    assert (Hz : h <> 0%N) by lia.
    assert (T' : tok tid (t_lgCur t) (map ehash (t_entries t))) by (apply tok_er; auto).
    assert (L' : length (live tid (map ehash (t_entries t))) < pow2 (t_lgCur t)) by (rewrite live_er, map_length; auto).
    destruct (tfind_cases 0 t h T' L' Hz) as [(i & b & Hf & Hn & Hin)|(i & Hf & _)]; rewrite Hf in *; [|apply (IH t ms (c + 1) hp msv c'); auto].
    rewrite map_length in H. destruct (length ms =? m); [discriminate|]. rewrite Hn.
    change (t_entries (vt hp t)) with (map (rd hp) (t_entries t)) in H at 1. rewrite map_nth_error', Hn in H.
    cbn [option_map] in H. rewrite (rd_pos hp (h, b)) in H by auto. cbn [fst snd] in *. cbv zeta in H.
    assert (Vb : b < length hp) by (apply (V (h, b)); apply in_app_iff; auto).
    assert (Va : a < length hp) by (apply (V (h, a)); apply in_app_iff; cbn; auto).
    unfold policy_apply. rewrite (nth_error_nth' hp b s0), (nth_error_nth' hp a s0) by auto.
    set (x := ap (nth b hp s0) (nth a hp s0)) in *.
    assert (Ol : owned (hlive (t_entries t))) by (eapply owned_incl; [|exact O]; apply incl_appl, incl_refl).
    rewrite <- (vt_upd hp t i h b x) in H; auto.
    rewrite <- (rd_upd_others hp b x r) in H.
    2:{ intros e He C. assert (Eh : fst e = h) by (apply (O e (h, b)); auto; apply in_app_iff; cbn; auto).
        apply Hnin. rewrite <- Eh. apply in_map. auto. }
    rewrite <- (rd_upd_others hp b x ms) in H.
    2:{ intros e He C. assert (Eh : fst e = h) by (apply (Ol e (h, b)); auto).
        apply (Hdis e He). cbn. auto. }
    assert (Ex : (h, x) = rd (upd b x hp) (h, b)) by (rewrite rd_pos by auto; cbn [fst snd]; rewrite nth_upd_eq; auto).
    rewrite Ex in H. change [rd (upd b x hp) (h, b)] with (map (rd (upd b x hp)) [(h, b)]) in H. rewrite <- map_app in H.
    destruct (IH t (ms ++ [(h, b)]) (c + 1) (upd b x hp) msv c') as (ms' & hp' & A & B & C & D & F); auto.
    - intros e He. rewrite upd_length. apply V'. auto.
    - intros e He. apply in_app_iff in He as [He|[<-|[]]]; auto.
    - intros e He. apply in_app_iff in He as [He|[<-|[]]]; auto.
    - exists ms', hp'. split; auto. split; auto. split; [rewrite C; apply upd_length|]. split; auto.
      intros d Hd. rewrite F by auto. rewrite nth_error_upd. destruct (Nat.eqb_spec b d) as [<-|]; auto. exfalso. apply Hd.
      apply in_map_iff. exists (h, b). auto.
  Qed.

  Lemma tinter_fill_rd hp l : forall t, tinter_fill s0 (map (rd hp) l) (vt hp t) = option_map (vt hp) (tinter_fill 0 l t).
  Proof.
    induction l as [|e r IH]; intros t; cbn [map tinter_fill]; auto.
    pose proof (rd_hash hp e) as He. unfold ehash in He. rewrite He. unfold vt in *. change (t_entries (mt (rd hp) t)) with (map (rd hp) (t_entries t)) at 1. change (t_lgCur (mt (rd hp) t)) with (t_lgCur t).
    rewrite (find_mt ehash ehash (rd hp) (rd_hash hp)).
    destruct (find ehash _ _ _); auto; rewrite (insert_mt ehash ehash (zent 0) (zent s0) (rd hp) (rd_hash hp) (rd_zero hp));
      destruct (insert ehash _ t _ e); cbn [option_map]; auto; apply IH.
  Qed.
  Lemma tinter_refill_rd hp l : forall t, tinter_refill s0 (map (rd hp) l) (vt hp t) = option_map (vt hp) (tinter_refill 0 l t).
  Proof.
    induction l as [|e r IH]; intros t; cbn [map tinter_refill]; auto.
    pose proof (rd_hash hp e) as He. unfold ehash in He. rewrite He. unfold vt in *. change (t_entries (mt (rd hp) t)) with (map (rd hp) (t_entries t)) at 1. change (t_lgCur (mt (rd hp) t)) with (t_lgCur t).
    rewrite (find_mt ehash ehash (rd hp) (rd_hash hp)).
    destruct (find ehash _ _ _); auto; rewrite (insert_mt ehash ehash (zent 0) (zent s0) (rd hp) (rd_hash hp) (rd_zero hp));
      destruct (insert ehash _ t _ e); cbn [option_map]; auto; apply IH.
  Qed.

  Lemma hlive_new lg nom rf th th0 e : hlive (t_entries (new_table (zent 0) lg nom rf th th0 e)) = [].
  Proof. unfold new_table. cbn [t_entries]. destruct (0 <? _)%N; auto. apply (live_repeat ehash). reflexivity. Qed.
  Lemma vt_new hp lg nom rf th th0 e : new_table (zent s0) lg nom rf th th0 e = vt hp (new_table (zent 0) lg nom rf th th0 e).
  Proof. symmetry. apply new_table_mt. apply rd_zero. Qed.

  Lemma hinter_update_sim seed x hp ins s : TIInv ap seed (vi hp x) ins -> wf_sketch (erase_sk s) ->
    (ts_empty s = true \/ ts_seed s = seed) ->
    owned (hlive (t_entries (ti_tab x)) ++ ts_entries s) -> inside hp (hlive (t_entries (ti_tab x)) ++ ts_entries s) ->
    exists x' hp', hinter_update ap x hp s = Some (x', hp') /\ TIInv ap seed (vi hp' x') (ins ++ [vs hp s]) /\
      length hp' = length hp /\
      incl (hlive (t_entries (ti_tab x'))) (hlive (t_entries (ti_tab x)) ++ ts_entries s) /\
      (ti_valid x = true -> incl (hlive (t_entries (ti_tab x'))) (hlive (t_entries (ti_tab x)))) /\
      (forall a, ~ In a (map snd (hlive (t_entries (ti_tab x)))) -> nth_error hp' a = nth_error hp a).
  Proof.
    intros I W Hs O V.
    destruct (tinter_update_ok s0 ap seed (vi hp x) ins (vs hp s)) as (xv & E & _ & I'); auto.
    { rewrite erase_vs. auto. }
    assert (Hkeep : forall tb, hlive (t_entries tb) = hlive (t_entries (ti_tab x)) -> incl (hlive (t_entries tb)) (hlive (t_entries (ti_tab x)) ++ ts_entries s)).
    { intros tb ->. apply incl_appl, incl_refl. }
    assert (Hnone' : forall tb, hlive (t_entries tb) = [] -> incl (hlive (t_entries tb)) (hlive (t_entries (ti_tab x)))).
    { intros tb ->. intros e []. }
    assert (Hrefl : incl (hlive (t_entries (ti_tab x))) (hlive (t_entries (ti_tab x)))) by apply incl_refl.
    assert (Hnone : forall tb, hlive (t_entries tb) = [] -> incl (hlive (t_entries tb)) (hlive (t_entries (ti_tab x)) ++ ts_entries s)).
    { intros tb ->. intros e []. }
    unfold tinter_update in E. unfold hinter_update. cbn [vi vs ts_empty ti_seed ts_seed ts_theta ts_ordered ts_entries ti_tab ti_valid] in E.
    cbv zeta in *. change (t_empty (vt hp (ti_tab x))) with (t_empty (ti_tab x)) in E.
    change (t_theta (vt hp (ti_tab x))) with (t_theta (ti_tab x)) in E.
    destruct (t_empty (ti_tab x)) eqn:Ee. { injection E as <-. exists x, hp. auto 10. }
    destruct (_ && _); [discriminate|]. cbn [orb] in *. set (th := if ts_empty s then _ else _) in *.
    change (tset_theta_empty (vt hp (ti_tab x)) th (ts_empty s)) with (vt hp (tset_theta_empty (ti_tab x) th (ts_empty s))) in E.
    change (t_num (vt hp (tset_theta_empty (ti_tab x) th (ts_empty s)))) with (t_num (tset_theta_empty (ti_tab x) th (ts_empty s))) in E.
    destruct (ti_valid x && _) eqn:E0.
    { injection E as <-. eexists _, hp. split; [reflexivity|]. split; [exact I'|]. split; auto. }
    rewrite map_length in E. destruct (length (ts_entries s) =? 0).
    { injection E as <-. eexists _, hp. split; [reflexivity|]. split; [unfold vi; cbn [ti_tab ti_valid ti_seed]; rewrite <- vt_new; exact I'|]. split; auto. }
    destruct (ti_valid x) eqn:Ev; cbn [negb] in *.
    - cbn [andb] in E0. apply Nat.eqb_neq in E0. change (t_num (tset_theta_empty _ _ _)) with (t_num (ti_tab x)) in E0.
      destruct (tinter_match _ _ _ _ _ _ _) as [[msv c]|] eqn:Em; [|discriminate].
      assert (Hins : map (@erase_sk S) ins <> []).
      { intros C. pose proof (ii_valid _ _ _ (tii_inv _ _ _ _ I)) as Hv. rewrite C in Hv. cbn in Hv. congruence. }
      destruct (ii_tab _ _ _ (tii_inv _ _ _ _ I) Hins) as [[C _]|(Lk & HL & F & HLlen & HLin)]; rewrite eri_vi in *.
      { cbn in C. tauto. }
      destruct (hinter_match_sim (ts_ordered s) (Nat.min (t_num (tset_theta_empty (ti_tab x) th (ts_empty s))) (length (ts_entries s))) (ts_entries s)
        (tset_theta_empty (ti_tab x) th (ts_empty s)) [] 0 hp msv c) as (ms & hp' & A & B & C & D & G); auto.
      { apply (proj1 (tok_er ehash (t_lgCur (ti_tab x)) (t_entries (ti_tab x)))). apply (fi_tok _ _ _ F). }
      { pose proof (Permutation_length (fi_perm _ _ _ F)) as HLp. unfold eri, er in HLp, HLlen. cbn [i_tab t_entries t_lgCur] in HLp, HLlen. rewrite live_er, map_length in HLp. cbn [tset_theta_empty t_entries t_lgCur]. lia. }
      { apply wf_pos. auto. }
      { apply (wf_nodup _ W). }
      { intros e []. }
      cbn [tset_theta_empty t_entries] in D, G. rewrite A.
      assert (Elen : length msv = length ms) by (rewrite <- B; apply map_length). rewrite Elen in E.
      destruct (_ <? c); [discriminate|]. destruct (_ && _); [discriminate|].
      destruct (length ms =? 0).
      { injection E as <-. eexists _, hp'. split; [reflexivity|]. split; [unfold vi; cbn [ti_tab ti_valid ti_seed]; rewrite <- vt_new; exact I'|]. split; auto. }
      rewrite <- B, (vt_new hp'), tinter_refill_rd in E. destruct (tinter_refill _ _ _) as [t'|] eqn:Er; [|discriminate]. cbn [option_map] in E.
      assert (Hr : incl (hlive (t_entries t')) (hlive (t_entries (ti_tab x)))).
      { intros e He. destruct (tinter_refill_incl _ _ _ _ Er _ He) as [Hm|Hm]; auto. rewrite hlive_new in Hm. destruct Hm. }
      injection E as <-. eexists _, hp'. split; [reflexivity|]. split; [exact I'|]. split; auto. split; auto. apply incl_appl. auto.
    - rewrite (vt_new hp), tinter_fill_rd in E. destruct (tinter_fill _ _ _) as [t'|] eqn:Ef; [|discriminate]. cbn [option_map] in E.
      change (t_num (vt hp t')) with (t_num t') in E. destruct (t_num t' =? _); [|discriminate E]. injection E as <-.
      eexists _, hp. split; [reflexivity|]. split; [exact I'|]. split; auto. split; [|split; [discriminate|auto]].
      intros e He. cbn [ti_tab] in He. apply in_app_iff. destruct (tinter_fill_incl _ _ _ _ Ef _ He) as [Hm|Hm]; auto.
      rewrite hlive_new in Hm. destruct Hm.
  Qed.

  Lemma new_hinter seed hp : TIInv ap seed (vi hp (new_tinter 0 seed)) [] /\ hlive (t_entries (ti_tab (new_tinter 0 seed))) = [].
  Proof.
    split; [|apply hlive_new]. replace (vi hp (new_tinter 0 seed)) with (new_tinter s0 seed); [apply new_tinter_inv|].
    unfold new_tinter, vi. cbn [ti_tab ti_valid ti_seed]. rewrite <- vt_new. auto.
  Qed.

  Lemma hinter_result_ok hp x ordered rv : inside hp (hlive (t_entries (ti_tab x))) ->
    tinter_result (vi hp x) ordered = Some rv ->
    exists r hp', hinter_result x hp ordered = Some (r, hp') /\ reported s0 hp' r = rv /\
      (exists more, hp' = hp ++ more) /\ (forall e, In e (ts_entries r) -> length hp <= snd e < length hp').
  Proof.
    intros V E. unfold tinter_result in E. unfold hinter_result. cbn [vi ti_valid ti_tab ti_seed] in E. destruct (ti_valid x); [|discriminate].
    change (t_num (vt hp (ti_tab x))) with (t_num (ti_tab x)) in E. change (t_empty (vt hp (ti_tab x))) with (t_empty (ti_tab x)) in E.
    change (t_theta (vt hp (ti_tab x))) with (t_theta (ti_tab x)) in E. cbv zeta in *.
    change (t_entries (vt hp (ti_tab x))) with (map (rd hp) (t_entries (ti_tab x))) in E.
    rewrite (filter_mt (rd hp) (fun e => negb (ehash e =? 0)%N)) in E by (intros e; rewrite rd_hash; reflexivity).
    fold (hlive (t_entries (ti_tab x))) in *. destruct (0 <? t_num (ti_tab x)); cbn [andb] in *.
    2:{ injection E as <-. eexists _, hp. split; [reflexivity|]. split; auto. split; [exists []; rewrite app_nil_r; auto|]. intros e []. }
    destruct (clone_all_ok _ hp V) as (l' & hp' & Ec & F1 & F2 & (more & Em & Lm) & F3). rewrite Ec. eexists _, hp'. split; [reflexivity|].
    assert (Hmap : map (rd hp) (hlive (t_entries (ti_tab x))) = map (fun e => (fst e, nth (snd e) hp s0)) (hlive (t_entries (ti_tab x)))).
    { apply map_ext_in. intros e He. apply rd_pos. apply live_In in He as [_ He]. unfold ehash in He. lia. }
    injection E as <-. split.
    { unfold reported, tcompact_entries. cbn [ts_entries ts_theta ts_seed ts_empty ts_ordered]. rewrite Hmap, <- F3.
      assert (Hsort : forall l : list hent, map (fun e => (fst e, nth (snd e) hp' s0)) (sort_by_hash l) = sort_by_hash (map (fun e => (fst e, nth (snd e) hp' s0)) l)).
      { assert (Hi : forall (x0 : hent) l, map (fun e => (fst e, nth (snd e) hp' s0)) (insert_by_hash x0 l) = insert_by_hash (fst x0, nth (snd x0) hp' s0) (map (fun e => (fst e, nth (snd e) hp' s0)) l)).
        { intros x0. induction l as [|y r IH]; cbn [insert_by_hash map]; auto. cbn [fst]. destruct (_ <=? _)%N; cbn [map]; auto. rewrite IH. auto. }
        induction l as [|y r IH]; cbn [sort_by_hash map]; auto. rewrite Hi, IH. auto. }
      destruct ordered; rewrite <- ?Hsort, !map_length; auto. }
    split; [eauto|]. cbn [tcompact_entries ts_entries]. intros e He.
    assert (He' : In e l') by (destruct ordered; auto; eapply Permutation_in; [apply sort_by_hash_perm|exact He]).
    apply (in_map snd) in He'. rewrite F2 in He'. apply in_seq in He'. rewrite Em, app_length, Lm. auto.
  Qed.
End HP.

(** ** Update sketch *)
Section HUp.
  Context {S V : Type}.
  Variable s0 : S.
  Variable upf : S -> V -> S.
  Variable mk : S.
  Notation hlive := (live (E := ent nat) ehash).
  Notation ter := (er (E := ent nat) ehash).

  Lemma vt_app hp more t : inside hp (hlive (t_entries t)) -> vt s0 (hp ++ more) t = vt s0 hp t.
  Proof.
    intros I. unfold vt, mt. f_equal. apply map_ext_in. intros e He. unfold rd. destruct (N.eqb_spec (fst e) 0); auto.
    rewrite app_nth1; auto. apply I. apply live_In. auto.
  Qed.

  Lemma hup_step_sim lgK rf th0 t hp hist em op : (MinLgK <= lgK)%N -> (rf <= 3)%N ->
    UInv lgK rf th0 (ter t) (map fst hist) em -> SInv upf mk (vt s0 hp t) hist ->
    owned (hlive (t_entries t)) -> inside hp (hlive (t_entries t)) ->
    exists t' hp' em', hup_step upf mk t hp op = Some (t', hp') /\
      UInv lgK rf th0 (ter t') (map fst (hist_step hist op)) em' /\ SInv upf mk (vt s0 hp' t') (hist_step hist op) /\
      owned (hlive (t_entries t')) /\ inside hp' (hlive (t_entries t')) /\ length hp <= length hp' /\
      (forall e, In e (hlive (t_entries t')) -> In e (hlive (t_entries t)) \/ length hp <= snd e) /\
      (forall a, a < length hp -> ~ In a (map snd (hlive (t_entries t))) -> nth_error hp' a = nth_error hp a) /\
      (exists e, tup_step s0 upf mk (vt s0 hp t) op = Some (vt s0 hp' t', e)).
  Proof.
    intros HK Hrf I HS O V0.
    destruct (tup_step_ok s0 upf mk lgK rf th0 (vt s0 hp t) hist em op HK Hrf) as (tv & e & em' & E & _ & I' & HS'); auto.
    { rewrite er_vt. auto. }
    assert (Hsuff : forall t' hp', hup_step upf mk t hp op = Some (t', hp') -> vt s0 hp' t' = tv ->
      owned (hlive (t_entries t')) /\ inside hp' (hlive (t_entries t')) /\ length hp <= length hp' /\
      (forall e, In e (hlive (t_entries t')) -> In e (hlive (t_entries t)) \/ length hp <= snd e) /\
      (forall a, a < length hp -> ~ In a (map snd (hlive (t_entries t))) -> nth_error hp' a = nth_error hp a) ->
      exists t' hp' em', hup_step upf mk t hp op = Some (t', hp') /\
      UInv lgK rf th0 (ter t') (map fst (hist_step hist op)) em' /\ SInv upf mk (vt s0 hp' t') (hist_step hist op) /\
      owned (hlive (t_entries t')) /\ inside hp' (hlive (t_entries t')) /\ length hp <= length hp' /\
      (forall e, In e (hlive (t_entries t')) -> In e (hlive (t_entries t)) \/ length hp <= snd e) /\
      (forall a, a < length hp -> ~ In a (map snd (hlive (t_entries t))) -> nth_error hp' a = nth_error hp a) /\
      (exists e, tup_step s0 upf mk (vt s0 hp t) op = Some (vt s0 hp' t', e))).
    { intros t' hp' A B (C1 & C2 & C3 & C4 & C5). exists t', hp', em'. split; auto. split. { rewrite <- (er_vt s0 hp'), B. auto. }
      split. { rewrite B. auto. } rewrite B. eauto 10. }
    assert (Hsame : forall t', hlive (t_entries t') = hlive (t_entries t) ->
      owned (hlive (t_entries t')) /\ inside hp (hlive (t_entries t')) /\ length hp <= length hp /\
      (forall e, In e (hlive (t_entries t')) -> In e (hlive (t_entries t)) \/ length hp <= snd e) /\
      (forall a, a < length hp -> ~ In a (map snd (hlive (t_entries t))) -> nth_error hp a = nth_error hp a)).
    { intros t' ->. auto 10. }
    destruct op as [h v|v| |]; cbn [hup_step tup_step] in *.
    - unfold hup_update in *. unfold tup_update in E. cbv zeta in *.
      change (tup_nonempty (vt s0 hp t)) with (vt s0 hp (tup_nonempty t)) in E.
      change (t_theta (vt s0 hp (tup_nonempty t))) with (t_theta (tup_nonempty t)) in E.
      destruct (_ <=? h)%N. { injection E as <- _. eapply Hsuff; [reflexivity|reflexivity|]. apply Hsame. auto. }
      destruct (N.eqb_spec h 0) as [Hz|Hz]. { injection E as <- _. eapply Hsuff; [reflexivity|reflexivity|]. apply Hsame. auto. }
      change (t_entries (vt s0 hp (tup_nonempty t))) with (map (rd s0 hp) (t_entries (tup_nonempty t))) in E at 1.
      change (t_lgCur (vt s0 hp (tup_nonempty t))) with (t_lgCur (tup_nonempty t)) in E.
      rewrite (find_mt ehash ehash (rd s0 hp) (rd_hash s0 hp)) in E.
      pose proof (set_nonempty_inv _ _ _ _ _ _ I) as J. rewrite <- nonempty_er in J.
      destruct (UInv_find 0 _ _ _ _ _ _ h J Hz) as [(i & b & Hf & Hn & Hin)|(i & Hf & Hno & Hno')]; rewrite Hf in *.
      + rewrite Hn in *. change (t_entries (vt s0 hp (tup_nonempty t))) with (map (rd s0 hp) (t_entries (tup_nonempty t))) in E at 1.
        rewrite map_nth_error', Hn in E. cbn [option_map] in E. rewrite (rd_pos s0 (fun a _ => a) hp (h, b)) in E by (cbn; lia). cbn [fst snd] in *.
        assert (Vb : b < length hp) by (apply (V0 (h, b)); auto). rewrite (nth_error_nth' hp b s0) in * by auto.
        rewrite <- (vt_upd s0 (fun a _ => a) hp (tup_nonempty t) i h b) in E; auto. 2:{ eapply UInv_tok; eauto. }
        injection E as <- _. eapply Hsuff; [reflexivity|reflexivity|].
        change (hlive (t_entries (tup_nonempty t))) with (hlive (t_entries t)) in *. split; auto. split. { intros e' He. rewrite upd_length. auto. }
        split; [rewrite upd_length; lia|]. split; auto. intros a Ha Hna. rewrite nth_error_upd. destruct (Nat.eqb_spec b a) as [<-|]; auto.
        exfalso. apply Hna. apply in_map_iff. exists (h, b). auto.
      + assert (V1 : inside hp (hlive (t_entries (tup_nonempty t)))) by exact V0.
        rewrite <- (vt_app hp [upf mk v] (tup_nonempty t) V1) in E.
        assert (Er : (h, upf mk v) = rd s0 (hp ++ [upf mk v]) (h, length hp)).
        { rewrite (rd_pos s0 (fun a _ => a)) by (cbn; lia). cbn [fst snd]. rewrite app_nth2, Nat.sub_diag by lia. auto. }
        rewrite Er in E. unfold vt in E at 1.
        rewrite (insert_mt ehash ehash (zent 0) (zent s0) _ (rd_hash s0 _) (rd_zero s0 _)) in E.
        destruct (insert ehash (zent 0) (tup_nonempty t) i (h, length hp)) as [t1|] eqn:Ei; [|discriminate]. cbn [option_map] in E.
        injection E as <- _. eapply Hsuff; [reflexivity|reflexivity|].
        assert (Hl1 : forall e', In e' (hlive (t_entries t1)) -> e' = (h, length hp) \/ In e' (hlive (t_entries t))) by (apply (insert_elive 0 _ _ _ _ Ei)).
        split.
        { intros x y Hx Hy Exy. destruct (Hl1 x Hx) as [->|Hx'], (Hl1 y Hy) as [->|Hy']; auto; cbn [snd fst] in *.
          - specialize (V0 _ Hy'). lia.
          - specialize (V0 _ Hx'). lia. }
        split. { intros x Hx. rewrite app_length. cbn. destruct (Hl1 x Hx) as [->|Hx']; [cbn; lia|]. specialize (V0 _ Hx'). lia. }
        split. { rewrite app_length. lia. }
        split. { intros x Hx. destruct (Hl1 x Hx) as [->|Hx']; auto. }
        intros a Ha _. apply nth_error_app1. auto.
    - injection E as <- _. eapply Hsuff; [reflexivity|reflexivity|]. apply Hsame. auto.
    - unfold vt in E at 1. rewrite (trim_mt ehash ehash (zent 0) (zent s0) _ (rd_hash s0 hp) (rd_zero s0 hp)) in E.
      destruct (trim ehash (zent 0) t) as [t1|] eqn:Et; [|discriminate]. cbn [option_map] in E. injection E as <- _.
      eapply Hsuff; [reflexivity|reflexivity|].
      assert (Hl1 : forall e', In e' (hlive (t_entries t1)) -> In e' (hlive (t_entries t))).
      { intros x Hx. apply live_In in Hx as [Hx Hz]. destruct (trim_incl _ _ _ _ Et _ Hx) as [->|Hx']; [cbn in Hz; tauto|]. apply live_In. auto. }
      split. { intros x y Hx Hy. apply O; auto. } split. { intros x Hx. apply V0. auto. } split; auto.
    - unfold vt in E at 1. rewrite (reset_mt (zent 0) (zent s0) _ (rd_zero s0 hp)) in E. injection E as <- _.
      eapply Hsuff; [reflexivity|reflexivity|]. unfold reset. cbn [t_entries]. rewrite (live_repeat ehash) by reflexivity.
      split. { intros x y []. } split. { intros x []. } split; auto. split; auto. intros x [].
  Qed.
End HUp.
