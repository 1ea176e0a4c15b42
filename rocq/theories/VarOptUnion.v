(** * What a VarOpt union represents. *)
From Verif Require Import Base Bytes Arr BitPackModel ReservoirModel VarOptModel VarOptHeap VarOptProofs VarOptSem.
From Coq Require Import QArith Qabs Lqa.
Local Close Scope Q_scope.
Local Open Scope nat_scope.

Section VarOptUnion.
Context {T : Type}.
Variable zero : T.
Implicit Types (l H M R J L xs vs : list (@slot T)) (s : @vo T) (g : @slot T) (D : list T) (ys zs Y : list (T * Q)).

Definition pair_of (x : @slot T) : T * Q := (it x, wt x).
Definition slot_of (p : T * Q) : @slot T := mkSlot (fst p) (snd p) false.
Lemma pair_slot p : pair_of (slot_of p) = p. Proof. destruct p; auto. Qed.
Lemma slot_pair x : mk x = false -> slot_of (pair_of x) = x. Proof. destruct x; simpl. intros ->. auto. Qed.
Lemma unmark_slot x : unmark x = slot_of (pair_of x). Proof. destruct x; auto. Qed.
Lemma map_slot_pair l : (forall x, In x l -> mk x = false) -> map slot_of (map pair_of l) = l.
Proof. induction l as [|x l IH]; simpl; intros A; auto. rewrite slot_pair, IH; auto. Qed.
Lemma map_pair_slot ys : map pair_of (map slot_of ys) = ys.
Proof. rewrite map_map. rewrite (map_ext _ (fun x => x)) by apply pair_slot. apply map_id. Qed.
Lemma map_unmark l : map unmark l = map slot_of (map pair_of l).
Proof. rewrite map_map. apply map_ext. apply unmark_slot. Qed.
Lemma it_slot_of ys : map it (map slot_of ys) = map fst ys. Proof. rewrite map_map. apply map_ext. auto. Qed.
Lemma sw_slot_of ys : sw (map slot_of ys) = qsum (map snd ys). Proof. unfold sw. rewrite map_map. auto. Qed.

(** ** Reading a sketch *)

Lemma read_slots_ok : forall H P X, read_slots (length H) (P ++ H ++ X) (length P) = Some H.
Proof.
  induction H as [|x H IH]; intros P X; simpl; auto. rewrite nth_seg by auto. cbn [bindo].
  specialize (IH (P ++ [x]) X). rewrite app_length in IH. simpl in IH. rewrite <- app_assoc in IH. simpl in IH. rewrite IH. auto.
Qed.
Lemma read_items_ok : forall R P X, read_items (length R) (P ++ R ++ X) (length P) = Some (map it R).
Proof.
  induction R as [|x H IH]; intros P X; simpl; auto. rewrite nth_seg by auto. cbn [bindo].
  specialize (IH (P ++ [x]) X). rewrite app_length in IH. simpl in IH. rewrite <- app_assoc in IH. simpl in IH. rewrite IH. auto.
Qed.

Lemma est_reads s xs H g R J L D : Est s xs H g R J L D -> h_samples s = Some H /\ r_samples s = Some (map it R) /\ num_samples s = v_k s /\
  all_samples s = Some (map pair_of H ++ map (fun x => (x, tau s)) (map it R)).
Proof.
  intros [Es Eh Er Em Ek Er1 _ _ _ _ _ _ _ _ _].
  assert (A : h_samples s = Some H) by (unfold h_samples; rewrite Es, Eh; apply (read_slots_ok H [])).
  assert (N : num_samples s = v_k s) by (unfold num_samples; lia).
  assert (B : r_samples s = Some (map it R)).
  { unfold r_samples. rewrite N. replace (v_k s - v_h s) with (length R) by lia. rewrite Es.
    replace (H ++ g :: R ++ J) with ((H ++ [g]) ++ R ++ J) by (rewrite <- app_assoc; auto). replace (v_h s + 1) with (length (H ++ [g])) by (rewrite app_length; simpl; lia).
    apply read_items_ok. }
  repeat split; auto. unfold all_samples. unfold h_samples in A. rewrite A. cbn [bindo]. destruct (Nat.ltb_spec 0 (v_r s)); [|lia].
  unfold r_samples in B. rewrite B. cbn [bindo]. auto.
Qed.
Lemma warm_reads s xs : Warm s xs -> h_samples s = Some (v_s s) /\ r_samples s = Some [] /\ num_samples s = v_h s /\ all_samples s = Some (map pair_of (v_s s)).
Proof.
  intros [A1 A2 A3 A4 A5 A6 A7 A8 A9].
  assert (A : h_samples s = Some (v_s s)). { unfold h_samples. rewrite A4. pose proof (read_slots_ok (v_s s) [] []) as X. rewrite app_nil_r in X. exact X. }
  assert (N : num_samples s = v_h s) by (unfold num_samples; lia).
  repeat split; auto.
  - unfold r_samples. rewrite N. replace (v_h s - v_h s) with 0 by lia. auto.
  - unfold all_samples. unfold h_samples in A. rewrite A. cbn [bindo]. rewrite A1. auto.
Qed.

Lemma corrected_ok w tot : forall (l : list T) cum, l <> [] -> (tot == cum + qn (length l) * w)%Q ->
  map fst (corrected l w tot cum) = l /\ (forall p, In p (corrected l w tot cum) -> snd p == w)%Q.
Proof.
  induction l as [|x l IH]; intros cum Hl Ht; [congruence|]. destruct l as [|y l].
  - simpl. split; auto. intros p [<- | []]. cbn [length] in Ht. rewrite qn_1 in Ht. simpl. lra.
  - destruct (IH (cum + w)%Q) as [A B]; [congruence| |].
    + change (length (x :: y :: l)) with (S (length (y :: l))) in Ht. rewrite qn_S in Ht. lra.
    + change (corrected (x :: y :: l) w tot cum) with ((x, w) :: corrected (y :: l) w tot (cum + w)%Q). split.
      * rewrite map_cons, A. auto.
      * intros p [<- | Hp]; auto. simpl. lra.
Qed.
Lemma qsum_const (l : list Q) w : (forall x, In x l -> x == w)%Q -> (qsum l == qn (length l) * w)%Q.
Proof.
  induction l as [|x l IH]; intros A. { simpl. change (qn 0) with 0%Q. lra. }
  change (length (x :: l)) with (S (length l)). rewrite qn_S. change (qsum (x :: l)) with (x + qsum l)%Q. specialize (IH (fun y Hy => A y (or_intror Hy))). pose proof (A x (or_introl eq_refl)) as B. lra.
Qed.

(** ** Feeding the gadget *)

Definition marked_as (m : bool) (ps : list (T * Q)) : list slot := map (fun p => mkSlot (fst p) (snd p) m) ps.

Lemma update_list_ok m : forall ps s vs ds i, Good s vs -> v_gadget s = true -> (forall p, In p ps -> 0 < snd p)%Q ->
  exists s', update_list s ps m ds i = Ok s' /\ Good s' (marked_as m ps ++ vs) /\ same s s' /\ v_n s' = (v_n s + N.of_nat (length ps))%N /\ (tight s -> tight s').
Proof.
  induction ps as [|(x, w) ps IH]; intros s vs ds i Gd G Hp.
  - exists s. simpl. split; auto. split; auto. split; [repeat split|]. split; auto. lia.
  - cbn [update_list]. destruct (update_good s vs x w m (ds i)) as (s1 & -> & G1 & (F1 & F2 & F3) & F4 & F5); auto.
    { apply (Hp (x, w)). simpl; auto. } { congruence. }
    cbn [bindr]. destruct (IH s1 (mkSlot x w m :: vs) ds (S i)) as (s' & -> & G2 & (E1 & E2 & E3) & E4 & E5); auto; [congruence|intros; apply Hp; simpl; auto|].
    exists s'. split; auto. split.
    { eapply good_perm; [|exact G2]. simpl. symmetry. apply Permutation_middle. }
    split; [repeat split; congruence|]. split; auto. rewrite E4, F4. cbn [length]. lia.
Qed.

(** ** The stream behind the marked and unmarked items of the gadget *)

Lemma marked_as_len m ps : length (marked_as m ps) = length ps.
Proof. apply map_length. Qed.

Definition marked vs := filter mk vs.
Definition unmarked vs := filter (fun x => negb (mk x)) vs.
Lemma filter_perm {A} (f : A -> bool) (l l' : list A) : Permutation l l' -> Permutation (filter f l) (filter f l').
Proof. induction 1; simpl; auto. - destruct (f x); auto. - destruct (f x), (f y); auto. constructor. - etransitivity; eauto. Qed.
Lemma split_marks vs : Permutation vs (unmarked vs ++ marked vs).
Proof. induction vs as [|x vs IH]; simpl; auto. unfold unmarked, marked in *. simpl. destruct (mk x); simpl; [rewrite IH at 1; apply Permutation_middle|constructor; auto]. Qed.
Lemma marked_as_true ps vs : marked (marked_as true ps ++ vs) = marked_as true ps ++ marked vs /\ unmarked (marked_as true ps ++ vs) = unmarked vs.
Proof. induction ps as [|p ps [A B]]; simpl; auto. unfold marked, unmarked in *. simpl. rewrite A, B. auto. Qed.
Lemma marked_as_false ps vs : marked (marked_as false ps ++ vs) = marked vs /\ unmarked (marked_as false ps ++ vs) = marked_as false ps ++ unmarked vs.
Proof. induction ps as [|p ps [A B]]; simpl; auto. unfold marked, unmarked in *. simpl. rewrite A, B. auto. Qed.
Lemma pair_marked_as m ps : map pair_of (marked_as m ps) = ps.
Proof. unfold marked_as. rewrite map_map. rewrite (map_ext _ (fun x => x)); [apply map_id|]. intros []; auto. Qed.

Record Virt vs ys (num : Q) (den : nat) Y D : Prop := mkVirt {
  vt_perm : Permutation ys (map pair_of (unmarked vs) ++ Y);
  vt_sum : (qsum (map snd Y) == sw (marked vs))%Q;
  vt_items : Permutation (map fst Y) (map it (marked vs) ++ D);
  vt_light : forall y, In y Y -> exists v, In v (marked vs) /\ (snd y <= wt v)%Q;
  vt_drop : marked vs <> [] -> D <> [];
  vt_pos : forall y, In y ys -> (0 < snd y)%Q;
  vt_le : den <= length (marked vs); vt_zero : den = 0 -> marked vs = [];
  vt_eq : den = length (marked vs) -> (num == sw (marked vs))%Q /\ forall v, In v (marked vs) -> (wt v * qn den == num)%Q }.

Lemma virt_heavy vs ys num den Y D ps : Virt vs ys num den Y D -> (forall p, In p ps -> 0 < snd p)%Q -> Virt (marked_as false ps ++ vs) (ys ++ ps) num den Y D.
Proof.
  intros [A1 A2 A3 A4 A5 A6 A7 A8 A9] Hp. destruct (marked_as_false ps vs) as [E1 E2].
  constructor; rewrite ?E1, ?E2; auto.
  - rewrite map_app, pair_marked_as, <- (app_assoc ps). rewrite (Permutation_app_comm ys). apply Permutation_app_head. auto.
  - intros y Hy. apply in_app_iff in Hy as [Hy|Hy]; auto.
Qed.

(** A group of an input in estimation mode: its items of R, [cs], each of weight tot / r; [Yg] are the entries of the stream they stand for. *)
Lemma virt_group vs ys u Y D cs Yg Dg t tot r : Virt vs ys (u_num u) (u_den u) Y D ->
  length cs = r -> 1 <= r -> (t * qn r == tot)%Q -> (0 < t)%Q -> (forall p, In p cs -> snd p == t)%Q ->
  (qsum (map snd Yg) == tot)%Q -> (forall y, In y Yg -> 0 < snd y /\ snd y <= t)%Q -> Permutation (map fst Yg) (map fst cs ++ Dg) -> Dg <> [] ->
  Virt (marked_as true cs ++ vs) (ys ++ Yg) (fst (@new_outer T u t tot r)) (snd (new_outer u t tot r)) (Y ++ Yg) (D ++ Dg).
Proof.
  intros [A1 A2 A3 A4 A5 A6 A7 A8 A9] Hr Hr1 Ht Htp Hc Hs Hy Hi Hd. destruct (marked_as_true cs vs) as [E1 E2].
  assert (Sc : (sw (marked_as true cs) == tot)%Q).
  { unfold sw, marked_as. rewrite map_map. cbn [wt]. rewrite (qsum_const _ t); [rewrite map_length, Hr; lra|].
    intros x Hx. apply in_map_iff in Hx as (p & <- & Hp). auto. }
  assert (Wc : forall v, In v (marked_as true cs) -> (wt v == t)%Q).
  { intros v Hv. apply in_map_iff in Hv as (p & <- & Hp). simpl. auto. }
  assert (Lc : length (marked_as true cs) = r) by (unfold marked_as; rewrite map_length; auto).
  assert (Ic : map it (marked_as true cs) = map fst cs) by (unfold marked_as; rewrite map_map; apply map_ext; auto).
  assert (Ne : exists v, In v (marked_as true cs)). { destruct (marked_as true cs); simpl in Lc; [lia|]. eexists; simpl; auto. }
  constructor; rewrite ?E1, ?E2.
  - rewrite A1. rewrite <- !app_assoc. auto.
  - rewrite map_app, qsum_app, A2, Hs, sw_app, Sc. lra.
  - rewrite !map_app, A3, Hi, Ic. rewrite <- !app_assoc.
    transitivity (map fst cs ++ Dg ++ map it (marked vs) ++ D). { rewrite (Permutation_app_comm (map it (marked vs))), <- !app_assoc.
      rewrite (Permutation_app_comm D). rewrite <- !app_assoc. auto. }
    apply Permutation_app_head. rewrite Permutation_app_comm, <- app_assoc. auto.
  - intros y Hy'. apply in_app_iff in Hy' as [Hy'|Hy'].
    + destruct (A4 y Hy') as (v & B1 & B2). exists v. split; auto. apply in_app_iff; auto.
    + destruct Ne as (v & Hv). exists v. split; [apply in_app_iff; auto|]. rewrite (Wc v Hv). apply Hy; auto.
  - intros _ X. apply app_eq_nil in X. tauto.
  - intros y Hy'. apply in_app_iff in Hy' as [Hy'|Hy']; auto. apply Hy; auto.
  - rewrite app_length, Lc. unfold new_outer. destruct (Nat.eqb_spec (u_den u) 0); simpl; [lia|]. destruct (qlt _ _); simpl; [lia|]. destruct (Qeq_bool _ _); simpl; lia.
  - unfold new_outer. destruct (Nat.eqb_spec (u_den u) 0); simpl; [lia|]. destruct (qlt _ _); simpl; [lia|]. destruct (Qeq_bool _ _); simpl; lia.
  - rewrite app_length, Lc. unfold new_outer. destruct (Nat.eqb_spec (u_den u) 0) as [Z|Z]; cbn [fst snd].
    + rewrite (A8 Z), app_nil_r. intros _. split; [symmetry; auto|]. intros v Hv. rewrite (Wc v Hv). auto.
    + destruct (qlt (outer_tau u) t) eqn:Q1; cbn [fst snd]; [lia|].
      destruct (Qeq_bool t (outer_tau u)) eqn:Q2; cbn [fst snd]; [|lia].
      intros X. destruct A9 as [B1 B2]; [lia|]. apply Qeq_bool_iff in Q2. unfold outer_tau in Q2. apply Nat.eqb_neq in Z. rewrite Z in Q2. apply Nat.eqb_neq in Z.
      assert (Dp : (0 < qn (u_den u))%Q) by (apply qn_pos; lia).
      assert (Nm : (t * qn (u_den u) == u_num u)%Q) by (rewrite Q2; field; lra).
      split; [rewrite sw_app, Sc, B1; lra|]. intros v Hv. rewrite qn_add. apply in_app_iff in Hv as [Hv|Hv].
      * rewrite (Wc v Hv). rewrite Qmult_plus_distr_r, Nm, Ht. lra.
      * specialize (B2 v Hv). assert (wt v == t)%Q. { rewrite <- Nm in B2. apply Qmult_inj_r in B2; auto. lra. }
        rewrite H. rewrite Qmult_plus_distr_r, Nm, Ht. lra.
Qed.

(** ** The coercions of the gadget *)

Lemma marked_perm vs vs' : Permutation vs vs' -> Permutation (marked vs) (marked vs') /\ Permutation (unmarked vs) (unmarked vs').
Proof. intros P. split; apply filter_perm; auto. Qed.
Lemma marked_app l l' : marked (l ++ l') = marked l ++ marked l' /\ unmarked (l ++ l') = unmarked l ++ unmarked l'.
Proof. unfold marked, unmarked. rewrite !filter_app. auto. Qed.
Lemma nmark_zero l : nmark l = 0%Z -> marked l = [] /\ unmarked l = l.
Proof.
  unfold nmark, marked, unmarked. induction l as [|x l IH]; simpl; auto. destruct (mk x); simpl; [intros; lia|].
  intros A. destruct IH as [B C]; auto. rewrite B, C. auto.
Qed.

Lemma W_unmark l i : W (map unmark l) i = W l i.
Proof. unfold W. rewrite nth_error_map. destruct (nth_error l i); auto. Qed.
Lemma heap_unmark l h : heap l h 0 -> heap (map unmark l) h 0.
Proof. intros A i c B C E. rewrite !W_unmark. apply A; auto. Qed.

Definition out s n : @vo T := mkVo (map unmark (v_s s)) false (v_k s) n (v_h s) 0 (v_r s) (v_tot s) (v_rf s) 0.

Lemma est_out s n vs ys num den Y D' H g R J L D : Est s vs H g R J L D -> v_nm s = 0%Z -> Virt vs ys num den Y D' ->
  exists H' g' R' J' L' D'', Est (out s n) (map slot_of ys) H' g' R' J' L' D'' /\ (Strong s H -> Strong (out s n) H').
Proof.
  intros [Es Eh Er Em Ek Er1 Ehp Ep Et El Ei Ed Ec Epos Emk] Hn [A1 A2 A3 A4 A5 A6 A7 A8 A9].
  destruct Ec as [Ec _]. rewrite Hn in Ec. destruct (nmark_zero H (eq_sym Ec)) as [MH UH].
  destruct (marked_perm _ _ Ep) as [P1 P2]. destruct (marked_app H L) as [Q1 Q2]. rewrite Q1, MH in P1. rewrite Q2, UH in P2. simpl in P1.
  exists (map unmark H), (unmark g), (map unmark R), (map unmark J), (map slot_of (map pair_of (unmarked L) ++ Y)), (D ++ D').
  assert (Itu : forall l, map it (map unmark l) = map it l) by (intros l; rewrite map_map; apply map_ext; auto).
  assert (Yl : forall y, In y Y -> (snd y * qn (v_r s) <= v_tot s)%Q).
  { intros y Hy. destruct (A4 y Hy) as (v & B1 & B2). rewrite P1 in B1. apply filter_In in B1 as [B1 _]. specialize (El v B1).
    assert (Rp : (0 < qn (v_r s))%Q) by (apply qn_pos; lia). pose proof (Qmult_le_compat_r _ _ (qn (v_r s)) B2). lra. }
  split.
  2:{ intros St y Hy. apply in_map_iff in Hy as (x & <- & Hx). unfold out; vcbn. apply (St x Hx). }
  constructor; unfold out; vcbn; auto; rewrite ?map_length; auto.
  - rewrite Es, map_app. simpl. rewrite map_app. auto.
  - apply heap_unmark; auto.
  - rewrite map_unmark, <- map_app. apply Permutation_map. rewrite A1, P2, map_app, <- app_assoc. auto.
  - rewrite sw_slot_of, map_app, qsum_app, A2, (sw_perm _ _ P1). rewrite <- Et. rewrite (sw_perm _ _ (split_marks L)), sw_app. unfold sw. rewrite map_map. reflexivity.
  - intros x Hx. rewrite map_app, map_map in Hx. apply in_app_iff in Hx as [Hx|Hx].
    + apply in_map_iff in Hx as (z & <- & Hz). apply filter_In in Hz as [Hz _]. apply (El z Hz).
    + apply in_map_iff in Hx as (z & <- & Hz). apply (Yl z Hz).
  - rewrite it_slot_of, map_app, A3. rewrite map_map. change (map (fun x : slot => fst (pair_of x)) (unmarked L)) with (map it (unmarked L)).
    rewrite P1. rewrite app_assoc, <- map_app, <- split_marks, Ei, Itu, <- app_assoc. auto.
  - intros X. apply app_eq_nil in X. tauto.
  - split; vcbn. { symmetry. apply nmark_none. intros x Hx. apply in_map_iff in Hx as (z & <- & _). auto. }
    intros _ x Hx. apply in_map_iff in Hx as (z & <- & _). auto.
  - intros x Hx. apply in_map_iff in Hx as (z & <- & Hz). apply (A6 z Hz).
  - intros _ x Hx. apply in_map_iff in Hx as (z & <- & Hz). auto.
Qed.

Lemma warm_out s n vs ys num den Y D' : Warm s vs -> v_nm s = 0%Z -> Virt vs ys num den Y D' -> Warm (out s n) (map slot_of ys).
Proof.
  intros [W1 W2 W3 W4 W5 W6 W7 W8 W9 W10] Hn [A1 A2 A3 A4 A5 A6 A7 A8 A9].
  rewrite W7 in Hn. destruct (nmark_zero _ Hn) as [M U]. destruct (marked_perm _ _ W3) as [P1 P2]. rewrite M in P1. rewrite U in P2.
  assert (Y = []) as ->. { destruct Y as [|y Y]; auto. destruct (A4 y) as (v & B & _); [simpl; auto|]. rewrite P1 in B. destruct B. }
  rewrite app_nil_r in A1.
  constructor; unfold out; vcbn; auto; rewrite ?map_length; auto.
  - rewrite map_unmark. apply Permutation_map. rewrite A1. apply Permutation_map. auto.
  - symmetry. apply nmark_none. intros x Hx. apply in_map_iff in Hx as (z & <- & _). auto.
  - intros x Hx. apply in_map_iff in Hx as (z & <- & Hz). apply (A6 z Hz).
  - intros _ x Hx. apply in_map_iff in Hx as (z & <- & Hz). auto.
Qed.

Lemma good_out s n vs ys num den Y D' : Good s vs -> v_nm s = 0%Z -> Virt vs ys num den Y D' -> Good (out s n) (map slot_of ys).
Proof.
  intros [Wm|(H & g & R & J & L & D & E & St)] Hn V; [left; eapply warm_out; eauto|right].
  destruct (est_out s n vs ys num den Y D' H g R J L D E Hn V) as (H' & g' & R' & J' & L' & D'' & E' & St'). exists H', g', R', J', L', D''. auto.
Qed.

(** *** Reducing k until nothing is marked *)

Lemma good_k1 s vs : Good s vs -> 0 < v_r s -> v_k s <= 1 -> v_nm s = 0%Z.
Proof.
  intros [Wm|(H & g & R & J & L & D & E & St)] Hr Hk; [destruct Wm; lia|].
  destruct E as [Es Eh Er Em Ek Er1 _ _ _ _ _ _ Ec _ _]. destruct Ec as [-> _]. destruct H; [auto|simpl in Eh; lia].
Qed.
Lemma good_nm s vs : Good s vs -> (0 <= v_nm s)%Z.
Proof. intros [[_ _ _ _ _ _ E _ _]|(H & g & R & J & L & D & [_ _ _ _ _ _ _ _ _ _ _ _ [E _] _ _] & St)]; rewrite E; unfold nmark; lia. Qed.

Lemma decrease_until_ok : forall fuel s vs ds i, Good s vs -> 0 < v_r s -> v_gadget s = true -> (1 <= v_n s)%N -> v_k s <= fuel + 1 ->
  exists s', decrease_until fuel s ds i = Ok s' /\ Good s' vs /\ 0 < v_r s' /\ v_k s' <= v_k s /\ v_n s' = v_n s /\ v_nm s' = 0%Z.
Proof.
  induction fuel as [|f IH]; intros s vs ds i Gd Hr Hg Hn Hk; simpl.
  - rewrite (good_k1 s vs) by (auto; lia). simpl. exists s. repeat split; auto. apply (good_k1 s vs); auto.
  - pose proof (good_nm s vs Gd) as N0. destruct (Z.ltb_spec 0 (v_nm s)) as [Hm|Hm].
    + assert (2 <= v_k s). { destruct (Nat.le_gt_cases 2 (v_k s)); auto. rewrite (good_k1 s vs) in Hm by (auto; lia). lia. }
      destruct (decrease_good s vs (ds i) Gd) as (s1 & -> & G1 & F1 & F2 & F3 & F4 & F5); auto. cbn [bindr].
      destruct (IH s1 vs ds (S i)) as (s' & -> & B1 & B2 & B3 & B4 & B5); auto; try congruence; try lia.
      exists s'. split; auto. split; auto. split; auto. split; [lia|]. split; [congruence|auto].
    + exists s. repeat split; auto. lia.
Qed.

(** *** Moving the marked items to the reservoir *)

Lemma move_h_ok : forall l U Z Rv trans, length Z = length l + 1 ->
  exists z trans', move_h l (U ++ Z ++ Rv) (length U + length l) (length Rv) (length U) trans =
    Some (U ++ map unmark (unmarked l) ++ z :: map (fun x => r_slot (it x)) (rev (marked l)) ++ Rv, length (marked l) + length Rv, length U + length (unmarked l), trans') /\
    (trans' == trans + sw (marked l))%Q.
Proof.
  induction l as [|x l IH]; intros U Z Rv trans Lz.
  - destruct Z as [|z [|? ?]]; simpl in Lz; try lia. exists z, trans. simpl. rewrite Nat.add_0_r. split; auto. unfold sw. simpl. lra.
  - cbn [move_h]. unfold marked, unmarked in *. cbn [filter]. destruct (mk x) eqn:Mx.
    + destruct (snoc_cases Z) as [-> | (Z0 & z & ->)]; [simpl in Lz; lia|]. rewrite app_length in Lz; simpl in Lz.
      replace (U ++ (Z0 ++ [z]) ++ Rv) with ((U ++ Z0) ++ z :: Rv) by (repeat (rewrite <- app_assoc; simpl); auto).
      rewrite wr_seg by (rewrite app_length; simpl; lia). cbn [bindo negb].
      destruct (IH U Z0 (r_slot (it x) :: Rv) (trans + wt x)%Q) as (z' & t' & E & Et); [lia|].
      replace (length U + length (x :: l) - 1) with (length U + length l) by (simpl; lia).
      rewrite <- app_assoc. replace (length Rv + 1) with (length (r_slot (it x) :: Rv)) by (simpl; lia). rewrite E.
      exists z', t'. split.
      * f_equal. f_equal. f_equal. f_equal; [|simpl; lia]. simpl. rewrite map_app, <- app_assoc. auto.
      * rewrite Et, sw_cons. lra.
    + destruct Z as [|z Z]; [simpl in Lz; lia|]. simpl app at 2.
      rewrite wr_seg by auto. cbn [bindo negb].
      destruct (IH (U ++ [unmark x]) Z Rv trans) as (z' & t' & E & Et); [simpl in Lz; lia|].
      rewrite app_length in E. simpl (length [_]) in E.
      replace (length U + 1 + length l) with (length U + length (x :: l)) in E by (simpl; lia).
      replace (U ++ mkSlot (it x) (wt x) false :: Z ++ Rv) with ((U ++ [unmark x]) ++ Z ++ Rv) by (rewrite <- app_assoc; auto).
      rewrite E. exists z', t'. split; auto. f_equal. f_equal. f_equal; [|simpl; lia]. f_equal. rewrite <- app_assoc. auto.
Qed.

Record UInv (u : @vunion T) ys vs Y D : Prop := mkUInv {
  ui_good : Good (u_g u) vs; ui_tight : tight (u_g u); ui_gadget : v_gadget (u_g u) = true; ui_k : v_k (u_g u) = u_k u; ui_k1 : 1 <= u_k u;
  ui_n : u_n u = N.of_nat (length ys); ui_virt : Virt vs ys (u_num u) (u_den u) Y D;
  ui_gn : v_n (u_g u) = N.of_nat (length vs); ui_rf : v_rf (u_g u) = 3%N; ui_max : (N.of_nat (u_k u) <= var_opt_max_k)%N }.

Lemma good_len s vs : Good s vs -> tight s -> gadget_len_ok s = true.
Proof.
  intros [Wm|(H & g & R & J & L & D & E & St)] Tg; unfold gadget_len_ok.
  - destruct Wm as [A1 A2 A3 A4 A5 A6 A7 A8 A9 A10]. rewrite A1, A4, !Nat.eqb_refl. auto.
  - destruct E as [Es Eh Er Em Ek Er1 _ _ _ _ _ _ _ _ _]. destruct Tg as [A|A]; [lia|]. rewrite A, Nat.eqb_refl.
    destruct (Nat.ltb_spec 0 (v_r s)); [|lia]. apply orb_true_r.
Qed.
Lemma good_kr s vs : Good s vs -> v_r s = 0 \/ v_k s = v_h s + v_r s.
Proof. intros [[]|(H & g & R & J & L & D & [] & St)]; [left; auto|right; lia]. Qed.
Lemma warm_resize s vs k n : Warm s vs -> v_h s <= k -> 1 <= k -> Warm (mkVo (v_s s) (v_gadget s) k n (v_h s) 0 (v_r s) (v_tot s) (v_rf s) (v_nm s)) vs.
Proof. intros [A1 A2 A3 A4 A5 A6 A7 A8 A9 A10] Hk H1. constructor; vcbn; auto. Qed.
Lemma good_m0 s vs n : Good s vs -> Good (mkVo (v_s s) (v_gadget s) (v_k s) n (v_h s) 0 (v_r s) (v_tot s) (v_rf s) (v_nm s)) vs.
Proof.
  intros [Wm|(H & g & R & J & L & D & [E1 E2 E3 E4 E5 E6 E7 E8 E9 E10 E11 E12 E13 E14 E15] & St)].
  - left. destruct Wm. apply warm_resize; auto. constructor; auto.
  - right. exists H, g, R, J, L, D. split; [constructor; vcbn; auto|auto].
Qed.

Lemma virt_nonempty vs ys num den Y D : Virt vs ys num den Y D -> marked vs <> [] -> 1 <= length ys.
Proof.
  intros [A1 A2 A3 A4 A5 A6 A7 A8 A9] Hm. pose proof (Permutation_length A1) as X. rewrite app_length in X.
  pose proof (Permutation_length A3) as X3. rewrite app_length, !map_length in X3. destruct (marked vs); [congruence|simpl in X3; lia].
Qed.
Lemma marked_nonempty vs H L : Permutation vs (H ++ L) -> (0 < nmark H)%Z -> marked vs <> [].
Proof.
  intros P Hn E. destruct (marked_perm _ _ P) as [Q _]. rewrite E in Q. apply Permutation_nil in Q. destruct (marked_app H L) as [Q1 _]. rewrite Q1 in Q.
  apply app_eq_nil in Q as [Q _]. unfold nmark, marked in *. rewrite Q in Hn. simpl in Hn. lia.
Qed.
Lemma good_marked s vs : Good s vs -> (0 < v_nm s)%Z -> marked vs <> [].
Proof.
  intros [Wm|(H & g & R & J & L & D & E & St)] Hn.
  - destruct Wm as [A1 A2 A3 A4 A5 A6 A7 A8 A9 A10]. apply (marked_nonempty _ (v_s s) []); [rewrite app_nil_r; auto|congruence].
  - destruct (es_cnt _ _ _ _ _ _ _ _ E) as [Ec _]. apply (marked_nonempty _ H L); [apply (es_perm _ _ _ _ _ _ _ _ E)|congruence].
Qed.

Lemma migrate_ok u ys vs Y D ds : UInv u ys vs Y D -> (0 < v_nm (u_g u))%Z -> (v_r (u_g u) = 0 -> v_nm (u_g u) <> Z.of_nat (u_den u)) ->
  exists s, migrate u ds = Ok s /\ Good s (map slot_of ys) /\ v_k s <= u_k u /\ v_n s = N.of_nat (length ys) /\ v_gadget s = false /\ 0 < v_r s.
Proof.
  intros [Ug Ut Uga Uk Uk1 Un Uv Ugn Urf Umx] Hm Hd. unfold migrate. pose proof (good_marked _ _ Ug Hm) as Hmk. pose proof (virt_nonempty _ _ _ _ _ _ Uv Hmk) as Hy.
  assert (K2 : 2 <= v_k (u_g u) /\ (v_r (u_g u) = 0 -> 2 <= v_h (u_g u))).
  { destruct Ug as [Wm|(H & g & R & J & L & D0 & E & St)].
    - destruct Wm as [A1 A2 A3 A4 A5 A6 A7 A8 A9 A10]. assert (2 <= v_h (u_g u)); [|lia].
      destruct (marked_perm _ _ A3) as [P1 _]. pose proof (Permutation_length P1) as Lp. specialize (Hd A1). rewrite A7 in Hd. unfold nmark in Hd. fold (marked (v_s (u_g u))) in Hd.
      pose proof (vt_le _ _ _ _ _ _ Uv). pose proof (vt_zero _ _ _ _ _ _ Uv) as Z0.
      assert (u_den u <> 0) by (intros X; auto).
      assert (length (marked (v_s (u_g u))) <= length (v_s (u_g u))). { pose proof (Permutation_length (split_marks (v_s (u_g u)))) as X. rewrite app_length in X. lia. }
      lia.
    - destruct E as [Es Eh Er Em Ek Er1 _ _ _ _ _ _ [Ec _] _ _]. split; [|lia]. rewrite Ec in Hm. destruct H; [simpl in Hm; unfold nmark in Hm; simpl in Hm; lia|]. simpl in Eh. lia. }
  destruct K2 as [K2 H2]. destruct (Nat.ltb_spec (v_k (u_g u)) 2) as [X|_]; [lia|]. rewrite (good_len _ _ Ug Ut). cbn [negb].
  assert (Ekr : (v_r (u_g u) =? 0) || (v_k (u_g u) =? v_h (u_g u) + v_r (u_g u)) = true).
  { destruct (good_kr _ _ Ug) as [A|A]; [rewrite A; auto|rewrite <- A, Nat.eqb_refl; apply orb_true_r]. }
  rewrite Ekr. cbn [negb]. clear Ekr. cbv zeta.
  set (k := if (v_r (u_g u) =? 0) && (v_h (u_g u) <? v_k (u_g u)) then v_h (u_g u) else v_k (u_g u)).
  assert (Hk : 2 <= k /\ k <= v_k (u_g u) /\ (v_r (u_g u) = 0 -> v_h (u_g u) = k) /\ (0 < v_r (u_g u) -> k = v_k (u_g u))).
  { unfold k. destruct (Nat.eqb_spec (v_r (u_g u)) 0) as [A|A]; cbn [andb].
    - specialize (H2 A). destruct (Nat.ltb_spec (v_h (u_g u)) (v_k (u_g u))).
      + repeat split; try lia.
      + repeat split; try lia. intros _. destruct Ug as [Wm|(H' & g & R & J & L & D0 & E & St)]; [destruct Wm; lia|pose proof (es_r1 _ _ _ _ _ _ _ _ E); lia].
    - repeat split; try lia. }
  destruct Hk as (Hk2 & Hkk & Hk0 & Hk1). clearbody k. destruct (Nat.ltb_spec k 2) as [X|_]; [lia|].
  set (s0 := mkVo (v_s (u_g u)) (v_gadget (u_g u)) k (u_n u) (v_h (u_g u)) 0 (v_r (u_g u)) (v_tot (u_g u)) (v_rf (u_g u)) (v_nm (u_g u))).
  assert (G0 : Good s0 vs).
  { destruct (Nat.eq_dec (v_r (u_g u)) 0) as [A|A].
    - destruct Ug as [Wm|(H' & g & R & J & L & D0 & E & St)]; [|pose proof (es_r1 _ _ _ _ _ _ _ _ E); lia].
      left. apply warm_resize; auto; specialize (Hk0 A); lia.
    - unfold s0. rewrite Hk1 by lia. apply good_m0; auto. }
  destruct (decrease_good s0 vs (ds 0) G0) as (s1 & -> & G1 & F1 & F2 & F3 & F4 & F5); auto; [unfold s0; vcbn; lia|].
  unfold s0 in F1, F2, F3, F4, F5. vcbn_in F1. vcbn_in F2. vcbn_in F3. vcbn_in F4. vcbn_in F5. cbn [bindr].
  assert (R1 : 0 < v_r s1). { apply F5. destruct (Nat.eq_dec (v_r (u_g u)) 0); [left; auto|right; lia]. }
  destruct (Nat.eqb_spec (v_r s1) 0) as [X|_]; [lia|].
  assert (T1 : Qeq_bool (tau s1) 0 = false).
  { destruct (Qeq_bool (tau s1) 0) eqn:Q; auto. apply Qeq_bool_iff in Q. exfalso.
    destruct G1 as [Wm|(H' & g & R & J & L & D0 & E & St)]; [destruct Wm; lia|]. pose proof (est_tot_pos _ _ _ _ _ _ _ _ E) as Tp.
    unfold tau in Q. assert (Rp : (0 < qn (v_r s1))%Q) by (apply qn_pos; lia).
    assert (v_tot s1 == (v_tot s1 / qn (v_r s1)) * qn (v_r s1))%Q by (field; lra). rewrite Q in H. lra. }
  rewrite T1.
  destruct (decrease_until_ok (v_k s1) s1 vs ds 1) as (s2 & -> & G2 & R2 & K2' & N2 & M2); auto; try congruence; try lia.
  cbn [bindr].
  pose proof (good_out s2 (v_n s2) vs ys _ _ Y D G2 M2 Uv) as G3.
  assert (M0 : v_m s2 = 0). { destruct G2 as [[]|(H' & g & R & J & L & D0 & E & St)]; auto. apply (es_m _ _ _ _ _ _ _ _ E). }
  unfold out in G3. rewrite M0. eexists. split; [reflexivity|]. split; auto. vcbn. repeat split; auto; try lia.
Qed.

Lemma simple_ok u ys vs Y D : UInv u ys vs Y D -> v_nm (u_g u) = 0%Z ->
  exists s, simple_coercer u = Ok s /\ Good s (map slot_of ys) /\ v_k s = u_k u /\ v_n s = N.of_nat (length ys) /\ v_gadget s = false.
Proof.
  intros [Ug Ut Uga Uk Uk1 Un Uv Ugn Urf Umx] Hm. unfold simple_coercer. rewrite (good_len _ _ Ug Ut). cbn [negb].
  eexists. split; [reflexivity|]. vcbn. split; auto. apply (good_out (u_g u) (u_n u) vs ys _ _ Y D Ug Hm Uv).
Qed.

Lemma mark_moving_ok u ys vs Y D : UInv u ys vs Y D -> (0 < v_nm (u_g u))%Z -> v_r (u_g u) = 0 -> v_nm (u_g u) = Z.of_nat (u_den u) ->
  exists s, mark_moving zero u = Ok s /\ Weak s (map slot_of ys) /\ v_k s <= u_k u /\ v_n s = N.of_nat (length ys) /\ v_gadget s = false /\ 0 < v_r s.
Proof.
  intros [Ug Ut Uga Uk Uk1 Un Uv Ugn Urf Umx] Hm Hr Hd. pose proof (good_marked _ _ Ug Hm) as Hmk.
  destruct Ug as [Wm|(H' & g & R & J & L & D0 & E & St)]; [|pose proof (es_r1 _ _ _ _ _ _ _ _ E); lia].
  destruct (warm_reads _ _ Wm) as (Eh & Er & _ & _). destruct Wm as [A1 A2 A3 A4 A5 A6 A7 A8 A9 A10].
  unfold mark_moving. rewrite Er, Eh. cbn [of_opt bindr move_r].
  set (l := v_s (u_g u)) in *. rewrite A1, Nat.add_0_r, A4.
  destruct (move_h_ok l [] (repeat (mkSlot zero 0 false) (length l + 1)) [] 0%Q) as (z & trans & E & Et); [apply repeat_length|].
  rewrite !app_nil_r in E. simpl app in E. simpl length in E. rewrite Nat.add_0_l, !Nat.add_0_r in E. rewrite E. cbn [of_opt bindr].
  assert (Ll : length (unmarked l) + length (marked l) = length l). { pose proof (Permutation_length (split_marks l)) as X. rewrite app_length in X. lia. }
  destruct (marked_perm _ _ A3) as [P1 P2]. pose proof (Permutation_length P1) as Lm.
  unfold nmark in A7. fold (marked l) in A7. rewrite A7 in Hd. assert (Hde : u_den u = length (marked vs)) by lia.
  destruct (vt_eq _ _ _ _ _ _ Uv Hde) as [Sn Sw].
  assert (Etn : (trans == u_num u)%Q). { rewrite Et, Sn, (sw_perm _ _ P1). lra. }
  replace (0 + length (unmarked l)) with (length (unmarked l)) by auto. rewrite Ll, Nat.eqb_refl. cbn [negb].
  destruct (Qle_bool (1 # 10000000000) (Qabs (trans - u_num u))) eqn:Q.
  { apply Qle_bool_iff in Q. assert (X : (Qabs (trans - u_num u) == 0)%Q). { rewrite Etn. setoid_replace (u_num u - u_num u)%Q with 0%Q by lra. reflexivity. } lra. }
  clear Q. rewrite wr_seg by (rewrite map_length; auto). cbn [of_opt bindr].
  set (gap := mkSlot zero (-1) false). set (U := map unmark (unmarked l)). set (Rv := map (fun x => r_slot (it x)) (rev (marked l))).
  assert (LU : length U = length (unmarked l)) by (unfold U; rewrite map_length; auto).
  assert (LR : length Rv = length (marked l)) by (unfold Rv; rewrite map_length, rev_length; auto).
  destruct (heapify_ok (length (unmarked l)) (U ++ gap :: Rv)) as (l0 & -> & HP & Hh0); [rewrite app_length; lia|]. cbn [bindr].
  destruct HP as (Ua & H0 & X & EA & -> & LA & P). assert (Ua = U /\ X = gap :: Rv) as [-> ->].
  { assert (LE : length Ua = length U) by lia. clear - EA LE. revert Ua EA LE. induction U as [|q U IH]; intros [|q' Ua] EA LE; simpl in *; try lia; auto.
    injection EA as <- EA. destruct (IH Ua EA) as [-> ->]; auto. }
  assert (Lm1 : 1 <= length (marked l)). { destruct (marked vs); [congruence|]. simpl in Lm. lia. }
  eexists. split; [reflexivity|]. split; [|vcbn; repeat split; auto; lia].
  right. exists H0, gap, Rv, [], (map slot_of Y), D.
  destruct Uv as [B1 B2 B3 B4 B5 B6 B7 B8 B9].
  assert (PH : Permutation H0 (map slot_of (map pair_of (unmarked vs)))).
  { rewrite <- P. unfold U. rewrite map_unmark. symmetry. apply Permutation_map, Permutation_map. auto. }
  pose proof (Permutation_length P) as LH0.
  constructor; vcbn; auto; try lia.
  - rewrite app_nil_r. auto.
  - rewrite B1, map_app. apply Permutation_app_tail. symmetry. auto.
  - rewrite A10, Etn, sw_slot_of, B2, Sn. lra.
  - intros x Hx. apply in_map_iff in Hx as (q & <- & Hq). destruct (B4 q Hq) as (v & C1 & C2). cbn [slot_of wt].
    rewrite A10, Etn, <- (Sw v C1), Hde, Lm. pose proof (qn_nonneg (length (marked l))) as Np. pose proof (Qmult_le_compat_r _ _ _ C2 Np). lra.
  - rewrite it_slot_of, B3. apply Permutation_app_tail. unfold Rv. rewrite map_map. rewrite map_rev. change (map (fun x : slot => it (r_slot (it x))) (marked l)) with (map it (marked l)).
    rewrite <- Permutation_rev. apply Permutation_map. auto.
  - split; vcbn; [|intros _ x Hx]; [symmetry; apply nmark_none; intros x Hx|]; rewrite PH in Hx; apply in_map_iff in Hx as (q & <- & _); auto.
  - intros x Hx. apply in_map_iff in Hx as (q & <- & Hq). apply (B6 q Hq).
  - intros _ x Hx. apply in_map_iff in Hx as (q & <- & Hq). auto.
Qed.

(** ** Updates of the union *)

Lemma virt_ys vs ys ys' num den Y D : Permutation ys ys' -> Virt vs ys num den Y D -> Virt vs ys' num den Y D.
Proof. intros P [B1 B2 B3 B4 B5 B6 B7 B8 B9]. constructor; auto; [rewrite <- P; auto|]. intros y Hy. apply B6. rewrite P. auto. Qed.

Lemma fst_pair_of l : map fst (map pair_of l) = map it l. Proof. rewrite map_map. apply map_ext. auto. Qed.
Lemma snd_pair_of l : map snd (map pair_of l) = map wt l. Proof. rewrite map_map. apply map_ext. auto. Qed.

Lemma vu_update_ok u ys vs Y D s zs ds : UInv u ys vs Y D -> Weak s (map slot_of zs) -> v_gadget s = false -> v_n s = N.of_nat (length zs) ->
  exists u' vs' Y' D', vu_update u s ds = Ok u' /\ UInv u' (ys ++ zs) vs' Y' D' /\ u_k u' = u_k u.
Proof.
  intros [Ug Ut Uga Uk Uk1 Un Uv Ugn Urf Umx] Wk Gs Hn. unfold vu_update. rewrite Hn. destruct (N.eqb_spec (N.of_nat (length zs)) 0) as [Z|Z].
  { destruct zs; [|simpl in Z; lia]. exists u, vs, Y, D. rewrite app_nil_r. split; auto. split; auto. constructor; auto. }
  destruct Wk as [Wm|(H & g & R & J & L & D0 & E)].
  - destruct (warm_reads _ _ Wm) as (Eh & Er & _). destruct Wm as [A1 A2 A3 A4 A5 A6 A7 A8 A9 A10].
    rewrite Eh. unfold corrected_r_samples. rewrite Er. cbn [of_opt bindr bindo corrected].
    assert (Pz : Permutation zs (map pair_of (v_s s))). { rewrite <- A3, map_pair_slot. auto. }
    assert (Pos : forall p, In p (map pair_of (v_s s)) -> (0 < snd p)%Q).
    { intros p Hp. rewrite <- Pz in Hp. apply (A8 (slot_of p)). apply in_map. auto. }
    destruct (update_list_ok false (map (fun x => (it x, wt x)) (v_s s)) (u_g u) vs ds 0 Ug Uga Pos) as (g1 & -> & G1 & (F1 & F2 & F3) & F4 & F5).
    cbn [bindr update_list]. rewrite A1. cbn [Nat.ltb Nat.leb].
    exists (mkVu g1 (u_k u) (u_n u + N.of_nat (length zs)) (u_num u) (u_den u)), (marked_as false (map pair_of (v_s s)) ++ vs), Y, D. split; auto. split; auto.
    constructor; cbn [u_g u_k u_n u_num u_den]; auto; try congruence.
    + rewrite Un, app_length. lia.
    + eapply virt_ys; [|apply virt_heavy; eauto]. apply Permutation_app_head. symmetry. auto.
    + rewrite F4, Ugn, app_length, marked_as_len, !map_length. lia.
  - destruct (est_reads _ _ _ _ _ _ _ _ E) as (Eh & Er & _). pose proof (est_tot_pos _ _ _ _ _ _ _ _ E) as Tp.
    destruct E as [Es EH ER Em Ek Er1 Ehp Ep Et El Ei Ed Ec Epos Emk].
    rewrite Eh. unfold corrected_r_samples. rewrite Er. cbn [of_opt bindr bindo].
    assert (Pz : Permutation zs (map pair_of H ++ map pair_of L)). { rewrite <- map_app, <- Ep, map_pair_slot. auto. }
    assert (Pos : forall p, In p (map pair_of H) \/ In p (map pair_of L) -> (0 < snd p)%Q).
    { intros p Hp. rewrite <- in_app_iff, <- Pz in Hp. apply (Epos (slot_of p)). apply in_map. auto. }
    destruct (update_list_ok false (map (fun x => (it x, wt x)) H) (u_g u) vs ds 0 Ug Uga) as (g1 & -> & G1 & (F1 & F2 & F3) & F4 & F5).
    { intros p Hp. apply Pos. auto. }
    cbn [bindr]. assert (Rp : (0 < qn (v_r s))%Q) by (apply qn_pos; lia).
    assert (Ttp : (0 < tau s)%Q). { apply qdiv_lt; [exact Rp|lra]. }
    assert (Tr : (tau s * qn (v_r s) == v_tot s)%Q) by (unfold tau; field; lra).
    destruct (corrected_ok (tau s) (v_tot s) (map it R) 0%Q) as [C1 C2].
    { destruct R; simpl in *; [lia|congruence]. } { rewrite map_length, <- ER. rewrite Qplus_0_l, Qmult_comm. symmetry. exact Tr. }
    set (cs := corrected (map it R) (tau s) (v_tot s) 0%Q) in *.
    destruct (update_list_ok true cs g1 _ ds (v_h s) G1) as (g2 & -> & G2 & (E1 & E2 & E3) & E4 & E5).
    { congruence. } { intros p Hp. pose proof (C2 p Hp). lra. }
    cbn [bindr]. destruct (Nat.ltb_spec 0 (v_r s)); [|lia].
    destruct (new_outer u (tau s) (v_tot s) (v_r s)) as [num den] eqn:No.
    exists (mkVu g2 (u_k u) (u_n u + N.of_nat (length zs)) num den), (marked_as true cs ++ marked_as false (map pair_of H) ++ vs), (Y ++ map pair_of L), (D ++ D0).
    split; auto. split; auto. constructor; cbn [u_g u_k u_n u_num u_den]; auto; try congruence.
    + rewrite Un, app_length. lia.
    + replace num with (fst (new_outer u (tau s) (v_tot s) (v_r s))) by (rewrite No; auto). replace den with (snd (new_outer u (tau s) (v_tot s) (v_r s))) by (rewrite No; auto).
      apply virt_ys with (ys := (ys ++ map pair_of H) ++ map pair_of L). { rewrite Pz, app_assoc. auto. }
      apply virt_group; auto.
      * apply virt_heavy; auto.
      * rewrite <- (map_length fst), C1, map_length. auto.
      * rewrite snd_pair_of. auto.
      * intros y Hy. split; [apply Pos; auto|]. apply in_map_iff in Hy as (x & <- & Hx). apply qdiv_le; auto. apply (El x Hx).
      * rewrite fst_pair_of, C1. auto.
    + rewrite E4, F4, Ugn, !app_length, !marked_as_len, !map_length. lia.
Qed.

(** A reservoir sample of the items [zs]: all of them, or k of them. *)
Lemma vu_update_reservoir_ok u ys vs Y D n k items (zs : list T) X ds : UInv u ys vs Y D -> n = N.of_nat (length zs) -> (1 <= k)%N ->
  Permutation zs (items ++ X) -> N.of_nat (length items) = N.min n k ->
  exists u' vs' Y' D', vu_update_reservoir u n k items ds = Ok u' /\ UInv u' (ys ++ map (fun x => (x, 1%Q)) zs) vs' Y' D' /\ u_k u' = u_k u.
Proof.
  intros [Ug Ut Uga Uk Uk1 Un Uv Ugn Urf Umx] Hn Hk P Hl. unfold vu_update_reservoir. pose proof (Permutation_length P) as LP. rewrite app_length in LP.
  set (one := fun x : T => (x, 1%Q)). assert (P1 : forall (l : list T) p, In p (map one l) -> (0 < snd p)%Q). { intros l p Hp. apply in_map_iff in Hp as (q & <- & _). simpl. lra. }
  destruct (N.eqb_spec n 0) as [Z|Z].
  { destruct zs; [|simpl in Hn; lia]. exists u, vs, Y, D. rewrite app_nil_r. split; auto. split; auto. constructor; auto. }
  destruct (N.leb_spec n k) as [Hnk|Hnk].
  - assert (X = []) as -> by (destruct X; auto; simpl in LP; lia). rewrite app_nil_r in P.
    destruct (update_list_ok false (map one items) (u_g u) vs ds 0 Ug Uga) as (g1 & E & G1 & (F1 & F2 & F3) & F4 & F5). { apply P1. }
    rewrite E. cbn [bindr].
    exists (mkVu g1 (u_k u) (u_n u + n) (u_num u) (u_den u)), (marked_as false (map one items) ++ vs), Y, D. split; auto. split; auto.
    constructor; cbn [u_g u_k u_n u_num u_den]; auto; try congruence.
    + rewrite Un, app_length, map_length. lia.
    + eapply virt_ys; [|apply virt_heavy; eauto]. apply Permutation_app_head. apply Permutation_map. symmetry. auto.
    + rewrite F4, Ugn, app_length, marked_as_len, !map_length. lia.
  - assert (Li : length items = N.to_nat k) by lia. rewrite Li, Nat.ltb_irrefl. rewrite firstn_all2 by lia.
    set (qN := inject_Z (Z.of_N n)). set (t := (qN / inject_Z (Z.of_N k))%Q).
    assert (Ek : inject_Z (Z.of_N k) = qn (N.to_nat k)) by (unfold qn; f_equal; lia). assert (En : qN = qn (length zs)) by (unfold qN, qn; f_equal; lia).
    assert (Kp : (0 < qn (N.to_nat k))%Q) by (apply qn_pos; lia).
    assert (T1 : (t * qn (N.to_nat k) == qN)%Q) by (unfold t; rewrite Ek; field; lra).
    assert (T2 : (1 <= t)%Q). { unfold t. rewrite Ek. apply qdiv_le; auto. rewrite En. assert (qn (N.to_nat k) <= qn (length zs))%Q by (apply qn_le; lia). lra. }
    destruct (corrected_ok t qN items 0%Q) as [C1 C2].
    { destruct items; simpl in *; [lia|congruence]. } { rewrite Li. lra. }
    set (cs := corrected items t qN 0%Q) in *.
    destruct (update_list_ok true cs (u_g u) vs ds 0 Ug Uga) as (g2 & -> & G2 & (E1 & E2 & E3) & E4 & E5).
    { intros p Hp. pose proof (C2 p Hp). lra. }
    cbn [bindr]. destruct (new_outer u t qN (N.to_nat k)) as [num den] eqn:No.
    exists (mkVu g2 (u_k u) (u_n u + n) num den), (marked_as true cs ++ vs), (Y ++ map one zs), (D ++ X).
    split; auto. split; auto. constructor; cbn [u_g u_k u_n u_num u_den]; auto; try congruence.
    + rewrite Un, app_length, map_length. lia.
    + replace num with (fst (new_outer u t qN (N.to_nat k))) by (rewrite No; auto). replace den with (snd (new_outer u t qN (N.to_nat k))) by (rewrite No; auto).
      apply virt_group; auto; try lia; try lra.
      * rewrite <- (map_length fst), C1. auto.
      * rewrite map_map. cbn [one snd]. rewrite (qsum_const _ 1%Q), map_length, En; [lra|]. intros x Hx. apply in_map_iff in Hx as (q & <- & _). reflexivity.
      * intros y Hy. split; [apply (P1 zs); auto|]. apply in_map_iff in Hy as (q & <- & _). auto.
      * rewrite map_map, C1. cbn [one fst]. rewrite map_id. auto.
      * intros ->. simpl in LP. lia.
    + rewrite E4, Ugn, !app_length, !marked_as_len. lia.
Qed.

Lemma vu_result_ok u ys vs Y D ds : UInv u ys vs Y D ->
  exists s, vu_result zero u ds = Ok s /\ Weak s (map slot_of ys) /\ v_k s <= u_k u /\ v_n s = N.of_nat (length ys) /\ v_gadget s = false.
Proof.
  intros I. unfold vu_result. pose proof (good_nm _ _ (ui_good _ _ _ _ _ I)) as N0.
  destruct (Z.eqb_spec (v_nm (u_g u)) 0) as [Z|Z].
  - destruct (simple_ok u ys vs Y D I Z) as (s & A & B & C & E & F). exists s. split; auto. split; [apply good_weak; auto|]. split; [lia|auto].
  - destruct (negb _) eqn:Q.
    + destruct (migrate_ok u ys vs Y D ds I) as (s & A & B & C & E & F & _); [lia| |].
      * intros Hr Hd. rewrite Hr, Hd, Z.eqb_refl in Q. simpl in Q. destruct (Z.ltb_spec 0 (Z.of_nat (u_den u))); [discriminate|lia].
      * exists s. split; auto. split; [apply good_weak; auto|auto].
    + apply negb_false_iff, andb_true_iff in Q as [Q Q3]. apply andb_true_iff in Q as [Q1 Q2].
      apply Nat.eqb_eq in Q1. apply Z.eqb_eq in Q3.
      destruct (mark_moving_ok u ys vs Y D I) as (s & A & B & C & E & F & _); auto; [lia|]. exists s. auto.
Qed.
End VarOptUnion.
