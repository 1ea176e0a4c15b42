(** * Proofs about the VarOpt sketch: candidate sets, downsampling, updates, reduction of k. *)
From Verif Require Import Base Bytes Arr BitPackModel ReservoirModel VarOptModel VarOptHeap.
From Coq Require Import QArith Qabs Lqa.
Local Close Scope Q_scope.
Local Open Scope nat_scope.

Lemma qn_add a b : (qn (a + b) == qn a + qn b)%Q.
Proof. unfold qn. rewrite Nat2Z.inj_add, inject_Z_plus. lra. Qed.
Lemma qn_S a : (qn (S a) == qn a + 1)%Q.
Proof. replace (S a) with (a + 1) by lia. rewrite qn_add. reflexivity. Qed.
Lemma qn_nonneg a : (0 <= qn a)%Q.
Proof. unfold qn. change 0%Q with (inject_Z 0). rewrite <- Zle_Qle. lia. Qed.
Lemma qn_pos a : 0 < a -> (0 < qn a)%Q.
Proof. intros. unfold qn. change 0%Q with (inject_Z 0). rewrite <- Zlt_Qlt. lia. Qed.
Lemma qn_le a b : a <= b -> (qn a <= qn b)%Q.
Proof. intros. unfold qn. rewrite <- Zle_Qle. lia. Qed.
Lemma qn_1 : (qn 1 == 1)%Q. Proof. reflexivity. Qed.
Lemma qn_sub1 a : 0 < a -> (qn (a - 1) == qn a - 1)%Q.
Proof. intros. replace a with (S (a - 1)) at 2 by lia. rewrite qn_S. lra. Qed.
(** Cancelling a positive factor. *)
Lemma qcancel a b c : (0 < c)%Q -> (a * c <= b * c)%Q -> (a <= b)%Q.
Proof. intros Hc H. apply Qmult_le_r in H; auto. Qed.
Lemma qdiv_le a b c : (0 < c)%Q -> (a <= b / c)%Q <-> (a * c <= b)%Q.
Proof.
  intros Hc. split; intros H.
  - apply Qmult_le_r with (z := c) in H; auto. setoid_replace (b / c * c)%Q with b in H; auto. field. lra.
  - apply (qcancel _ _ c); auto. setoid_replace (b / c * c)%Q with b; auto. field. lra.
Qed.
Lemma qdiv_lt a b c : (0 < c)%Q -> (a < b / c)%Q <-> (a * c < b)%Q.
Proof.
  intros Hc. split; intros H.
  - apply Qmult_lt_r with (z := c) in H; auto. setoid_replace (b / c * c)%Q with b in H; auto. field. lra.
  - apply Qmult_lt_r with (z := c); auto. setoid_replace (b / c * c)%Q with b; auto. field. lra.
Qed.

Lemma qsum_app l l' : (qsum (l ++ l') == qsum l + qsum l')%Q.
Proof. induction l; simpl; lra. Qed.
Lemma qsum_perm l l' : Permutation l l' -> (qsum l == qsum l')%Q.
Proof. induction 1; simpl; lra. Qed.
Lemma qsum_pos l : (forall x, In x l -> 0 < x)%Q -> l <> [] -> (0 < qsum l)%Q.
Proof.
  induction l as [|a l IH]; intros H N; [congruence|]. simpl. pose proof (H a (or_introl eq_refl)).
  destruct l; [simpl; lra|]. assert (0 < qsum (q :: l))%Q by (apply IH; [intros; apply H; right; auto|congruence]). lra.
Qed.
Lemma qsum_nonneg l : (forall x, In x l -> 0 <= x)%Q -> (0 <= qsum l)%Q.
Proof. induction l; simpl; intros H; [lra|]. pose proof (H a (or_introl eq_refl)). assert (0 <= qsum l)%Q by auto. lra. Qed.

Ltac vcbn := cbn [v_s v_gadget v_k v_n v_h v_m v_r v_tot v_rf v_nm it wt mk length app].
Ltac vcbn_in H := cbn [v_s v_gadget v_k v_n v_h v_m v_r v_tot v_rf v_nm it wt mk length app] in H.

Section VarOptProofs.
Context {T : Type}.
Implicit Types (l H M R J L xs : list (@slot T)) (s : @vo T).

Definition sw l : Q := qsum (map wt l).
Lemma sw_app l l' : (sw (l ++ l') == sw l + sw l')%Q.
Proof. unfold sw. rewrite map_app. apply qsum_app. Qed.
Lemma sw_perm l l' : Permutation l l' -> (sw l == sw l')%Q.
Proof. intros. apply qsum_perm, Permutation_map; auto. Qed.
Lemma sw_cons x l : (sw (x :: l) == wt x + sw l)%Q. Proof. unfold sw. simpl. lra. Qed.

Definition nmark l : Z := Z.of_nat (length (filter mk l)).
Lemma nmark_app l l' : nmark (l ++ l') = (nmark l + nmark l')%Z.
Proof. unfold nmark. rewrite filter_app_eq, app_length. lia. Qed.
Lemma nmark_perm l l' : Permutation l l' -> nmark l = nmark l'.
Proof. intros P. unfold nmark. rewrite (Permutation_length (filter_perm mk _ _ P)). auto. Qed.
Lemma nmark_cons x l : nmark (x :: l) = ((if mk x then 1 else 0) + nmark l)%Z.
Proof. unfold nmark. simpl. destruct (mk x); simpl length; lia. Qed.
Lemma nmark_none l : (forall x, In x l -> mk x = false) -> nmark l = 0%Z.
Proof. induction l; intros Hl; auto. rewrite nmark_cons, Hl by (left; auto). rewrite IHl; auto. intros; apply Hl; right; auto. Qed.

(** ** Candidate sets *)

Lemma heap_min l H X : l = H ++ X -> heap l (length H) 0 -> forall x, In x H -> (W l 0 <= wt x)%Q.
Proof.
  intros E Hh x Hx. apply In_nth_error in Hx. destruct Hx as (i & Hi).
  assert (Li : i < length H) by (apply nth_error_Some; congruence).
  replace (wt x) with (W l i). { apply (heap_root _ _ Hh); auto. }
  unfold W. rewrite E, nth_error_app1 by auto. rewrite Hi. auto.
Qed.

Record Seg s H M R J : Prop := mkSeg {
  sg_s : v_s s = H ++ M ++ R ++ J; sg_h : v_h s = length H; sg_m : v_m s = length M; sg_r : v_r s = length R;
  sg_k : v_h s + v_m s + v_r s = v_k s + 1; sg_heap : heap (v_s s) (v_h s) 0 }.

Definition count_ok s H : Prop := v_nm s = nmark H /\ (v_gadget s = false -> forall x, In x H -> mk x = false).

Lemma pop_ok s H M R J : Seg s H M R J -> count_ok s H -> 0 < v_h s ->
  exists s' x H', pop_min s = Ok s' /\ Seg s' H' (x :: M) R J /\ count_ok s' H' /\ Permutation H (x :: H') /\ wt x = W (v_s s) 0
    /\ v_gadget s' = v_gadget s /\ v_k s' = v_k s /\ v_n s' = v_n s /\ v_h s' = v_h s - 1 /\ v_m s' = v_m s + 1 /\ v_r s' = v_r s
    /\ v_tot s' = v_tot s /\ v_rf s' = v_rf s.
Proof.
  intros [Es Eh Em Er Ek Hp] [Cn Cg] Hh. unfold pop_min.
  destruct (Nat.eqb_spec (v_h s) 0); [lia|]. rewrite Ek, Nat.eqb_refl. cbn [orb negb].
  assert (exists l' x H', (if v_h s =? 1 then Ok (v_s s) else let* l := of_opt (swap (v_s s) 0 (v_h s - 1)) in restore_leaves l (v_h s - 1) 0) = Ok l'
    /\ l' = H' ++ (x :: M) ++ R ++ J /\ length H' = v_h s - 1 /\ Permutation H (x :: H') /\ wt x = W (v_s s) 0 /\ heap l' (v_h s - 1) 0) as (l' & x & H' & E & El & Lh & P & Wx & Hh').
  { destruct (Nat.eqb_spec (v_h s) 1) as [E1|E1].
    - destruct H as [|x [|y H]]; simpl in Eh; try lia. exists (v_s s), x, []. repeat split; auto; try (simpl; lia).
      + rewrite Es. unfold W. simpl. auto.
      + rewrite E1. intros i c _ A. lia.
    - assert (Ll : v_h s <= length (v_s s)) by (rewrite Es, app_length; lia).
      destruct (swap_ok (v_s s) (v_h s) 0 (v_h s - 1)) as (l1 & -> & HP & HW); try lia. cbn [of_opt bindr].
      destruct (restore_ok 0 (v_h s - 1) l1) as (l2 & -> & HP2 & Hh2); try lia.
      { rewrite (hperm_length _ _ _ HP). lia. }
      { intros i c A B C. rewrite !HW. unfold child in C.
        destruct (Nat.eqb_spec i (v_h s - 1)); [lia|]. destruct (Nat.eqb_spec i 0); [lia|].
        destruct (Nat.eqb_spec c (v_h s - 1)); [lia|]. destruct (Nat.eqb_spec c 0); [lia|]. apply Hp; unfold child; lia. }
      destruct HP as (A1 & B1 & X1 & EA & -> & LA & P1).
      assert (A1 = H /\ X1 = M ++ R ++ J) as [-> ->].
      { rewrite Es in EA. assert (E2 := f_equal (firstn (v_h s)) EA). assert (E3 := f_equal (skipn (v_h s)) EA).
        rewrite !firstn_seg in E2 by auto. rewrite !skipn_seg in E3 by auto. auto. }
      destruct (snoc_cases B1) as [-> | (B0 & x & ->)]. { apply Permutation_length in P1. simpl in P1. lia. }
      assert (LB : length B0 = v_h s - 1) by (apply Permutation_length in P1; rewrite app_length in P1; simpl in P1; lia).
      destruct HP2 as (A2 & B2 & X2 & EA2 & -> & LA2 & P2).
      assert (A2 = B0 /\ X2 = x :: M ++ R ++ J) as [-> ->].
      { rewrite <- app_assoc in EA2. simpl in EA2. assert (E2 := f_equal (firstn (v_h s - 1)) EA2). assert (E3 := f_equal (skipn (v_h s - 1)) EA2).
        rewrite !firstn_seg in E2 by auto. rewrite !skipn_seg in E3 by auto. auto. }
      exists (B2 ++ x :: M ++ R ++ J), x, B2. repeat split; auto.
      + apply Permutation_length in P2. lia.
      + rewrite P1. rewrite Permutation_app_comm. simpl. constructor. auto.
      + specialize (HW (v_h s - 1)). rewrite Nat.eqb_refl in HW. rewrite <- HW. unfold W. rewrite <- app_assoc. simpl.
        rewrite nth_seg by auto. auto. }
  rewrite E. cbn [bindr]. 
  assert (En : nth_error l' (v_h s - 1) = Some x) by (rewrite El; simpl; apply nth_seg; auto). rewrite En. cbn [of_opt bindr].
  eexists _, x, H'. split; [reflexivity|]. split; [constructor; cbn; auto; try lia; simpl; lia|].
  split; [|repeat split; auto].
  split; cbn.
  - rewrite (nmark_perm _ _ P), nmark_cons in Cn. rewrite Cn. destruct (v_gadget s) eqn:G; cbn [andb].
    + destruct (mk x); lia.
    + rewrite (Cg eq_refl x). { lia. } rewrite P. left; auto.
  - intros G y Hy. apply Cg; auto. rewrite P. right; auto.
Qed.

(** The candidates, and what there is to know about their weights: [Wc] is their total, [L] the items R stands for. *)
Record Cand s H M (Wc : Q) : Prop := mkCand {
  cd_n : 2 <= v_m s + v_r s;
  cd_r : 1 <= v_r s;
  cd_tot : (0 < v_tot s)%Q;
  cd_pos : forall x, In x (H ++ M) -> (0 < wt x)%Q;
  cd_sum : (Wc == sw M + v_tot s)%Q;
  cd_m : forall x, In x M -> (wt x * qn (v_m s + v_r s - 1) < Wc)%Q;
  cd_mh : forall x y, In x M -> In y H -> (wt x <= wt y)%Q;
  cd_tau : (v_tot s * qn (v_m s + v_r s - 1) <= Wc * qn (v_r s))%Q;
  cd_h : forall y, In y H -> (v_tot s <= wt y * qn (v_r s))%Q }.

Definition rest_eq s s' : Prop :=
  v_gadget s' = v_gadget s /\ v_k s' = v_k s /\ v_n s' = v_n s /\ v_r s' = v_r s /\ v_tot s' = v_tot s /\ v_rf s' = v_rf s.

Lemma grow_ok R J : forall fuel s H M Wc, v_h s < fuel -> Seg s H M R J -> count_ok s H -> Cand s H M Wc ->
  exists s1 H1 M1 W1, Seg s1 H1 M1 R J /\ count_ok s1 H1 /\ Cand s1 H1 M1 W1 /\ rest_eq s s1 /\ Permutation (H ++ M) (H1 ++ M1)
    /\ (forall y, In y H1 -> W1 <= wt y * qn (v_m s1 + v_r s1 - 1))%Q
    /\ forall d, grow_loop fuel s Wc (v_m s + v_r s) d = downsample s1 W1 (v_m s1 + v_r s1) d.
Proof.
  induction fuel as [|fuel IH]; intros s H M Wc Hf Sg Ct Cd; [lia|].
  cbn [grow_loop]. destruct (Nat.ltb_spec 0 (v_h s)) as [H0|H0].
  2:{ exists s, H, M, Wc. do 3 (split; auto). split; [repeat split|]. split; auto. split; auto.
      intros y Hy. rewrite (sg_h _ _ _ _ _ Sg) in H0. destruct H; simpl in *; [tauto|lia]. }
  pose proof Sg as [Es Eh Em Er Ek Hp].
  assert (Hx : exists x0, nth_error (v_s s) 0 = Some x0 /\ wt x0 = W (v_s s) 0 /\ In x0 H).
  { destruct H as [|x0 H]; simpl in Eh; [lia|]. exists x0. rewrite Es. unfold W. simpl. auto. }
  destruct Hx as (x0 & E0 & W0 & In0). rewrite E0. cbn [of_opt bindr]. cbv zeta.
  assert (Hmin : forall y, In y H -> (wt x0 <= wt y)%Q).
  { intros y Hy. rewrite W0. eapply heap_min; [exact Es| |auto]. rewrite <- Eh. auto. }
  assert (Hc : (qn (v_m s + v_r s - 1) == qn (v_m s + v_r s) - 1)%Q) by (apply qn_sub1; destruct Cd; lia).
  destruct (qlt (wt x0 * qn (v_m s + v_r s)) (Wc + wt x0)) eqn:E.
  - apply qlt_iff in E.
    destruct (pop_ok s H M R J Sg Ct H0) as (s' & x & H' & -> & Sg' & Ct' & P & Wx & F1 & F2 & F3 & F4 & F5 & F6 & F7 & F8).
    cbn [bindr].
    assert (Ex : wt x = wt x0) by congruence.
    replace (v_m s + v_r s + 1) with (v_m s' + v_r s') by lia.
    destruct Cd as [C1 C2 C3 C4 C5 C6 C7 C8 C9].
    assert (InxH : In x H) by (rewrite P; left; auto).
    destruct (IH s' H' (x :: M) (Wc + wt x0)%Q) as (s1 & H1 & M1 & W1 & A1 & A2 & A3 & A4 & A5 & A6 & A7); auto; [lia| |].
    + constructor; rewrite ?F5, ?F6, ?F7; auto; try lia.
      * intros y Hy. apply C4. apply in_app_iff in Hy. destruct Hy as [Hy|[<- | Hy]]; apply in_app_iff; auto.
        left. rewrite P. right; auto.
      * rewrite sw_cons, Ex, C5. lra.
      * replace (v_m s + 1 + v_r s - 1) with (v_m s + v_r s) by lia. intros y [<- | Hy].
        -- rewrite Ex. auto.
        -- assert (A : (wt y <= wt x0)%Q) by (rewrite <- Ex; apply C7; auto).
           apply Qle_lt_trans with (wt x0 * qn (v_m s + v_r s))%Q; auto.
           apply Qmult_le_compat_r; auto. apply qn_nonneg.
      * intros a b [<- | Ha] Hb.
        -- rewrite Ex. apply Hmin. rewrite P. right; auto.
        -- apply C7; auto. rewrite P. right; auto.
      * replace (v_m s + 1 + v_r s - 1) with (v_m s + v_r s) by lia. pose proof (C9 x0 In0). rewrite Hc in C8.
        setoid_replace (qn (v_m s + v_r s)) with ((qn (v_m s + v_r s) - 1) + 1)%Q by lra. lra.
      * intros y Hy. apply C9. rewrite P. right; auto.
    + exists s1, H1, M1, W1. do 3 (split; auto). split.
      { unfold rest_eq in *. destruct A4 as (B1 & B2 & B3 & B4 & B5 & B6). repeat split; congruence. }
      split; [|split; auto]. rewrite <- A5, P. simpl. apply Permutation_middle.
  - apply qlt_false in E. exists s, H, M, Wc. do 3 (split; auto). split; [repeat split|]. split; auto. split; auto.
    intros y Hy. rewrite Hc. pose proof (Hmin y Hy).
    assert (A : (wt x0 * (qn (v_m s + v_r s) - 1) <= wt y * (qn (v_m s + v_r s) - 1))%Q).
    { apply Qmult_le_compat_r; auto. rewrite <- Hc. apply qn_nonneg. }
    lra.
Qed.

(** ** Downsampling *)

Lemma weighted_range Wc keep : forall cnt l i a b, i + cnt <= length l ->
  exists j, weighted_loop cnt l i Wc keep a b = Some j /\ i <= j <= i + cnt.
Proof.
  induction cnt as [|cnt IH]; intros l i a b Hl; cbn [weighted_loop]; [exists i; split; auto; lia|].
  destruct (nth_error l i) eqn:E; [|apply nth_error_None in E; lia]. cbn [bindo].
  destruct (qlt _ _); [exists i; split; auto; lia|].
  destruct (IH l (i + 1) (a + qn keep * wt s)%Q (b + Wc)%Q) as (j & -> & Hj); [lia|]. exists j. split; auto. lia.
Qed.

Lemma pick_range s d : 1 <= v_r s -> exists j, pick_in_r s d = Ok j /\ v_h s + v_m s <= j < v_h s + v_m s + v_r s.
Proof.
  intros Hr. unfold pick_in_r. destruct (Nat.eqb_spec (v_r s) 0); [lia|]. destruct (Nat.eqb_spec (v_r s) 1).
  - eexists; split; [reflexivity|]. lia.
  - eexists; split; [reflexivity|]. pose proof (Nat.mod_upper_bound (d_i d) (v_r s) ltac:(lia)). lia.
Qed.

Lemma choose_range s H M R J Wc nc d : Seg s H M R J -> 1 <= v_r s ->
  exists del, choose_delete_slot s Wc nc d = Ok del /\ v_h s <= del <= v_k s.
Proof.
  intros [Es Eh Em Er Ek _] Hr. unfold choose_delete_slot. destruct (Nat.eqb_spec (v_r s) 0); [lia|].
  assert (Ll : length (v_s s) >= v_k s + 1) by (rewrite Es, !app_length; lia).
  destruct (pick_range s d Hr) as (j & Ej & Hj).
  destruct (v_m s) as [|[|m]] eqn:E.
  - exists j. split; auto. lia.
  - destruct (nth_error (v_s s) (v_h s)) eqn:E0; [|apply nth_error_None in E0; lia]. cbn [of_opt bindr].
    destruct (qlt _ _); [exists j; split; auto; lia|]. eexists; split; [reflexivity|]. lia.
  - unfold choose_weighted. destruct (weighted_range Wc (nc - 1) (v_m s) (v_s s) (v_h s) 0%Q (- Wc * d_u d)%Q) as (i & -> & Hi); [lia|].
    cbn [of_opt bindr]. destruct (Nat.eqb_spec i (v_h s + S (S m))); [exists j; split; auto; lia|]. eexists; split; [reflexivity|]. lia.
Qed.

Lemma clear_ok : forall M A B, exists M1, clear_weights (length M) (A ++ M ++ B) (length A) = Some (A ++ M1 ++ B) /\ length M1 = length M /\ map it M1 = map it M.
Proof.
  induction M as [|x M IH]; intros A B; [exists []; auto|].
  cbn [length clear_weights]. simpl ((x :: M) ++ B). rewrite nth_seg by auto. cbn [bindo]. rewrite upd_seg by auto.
  destruct (IH (A ++ [mkSlot (it x) (-1) (mk x)]) B) as (M1 & E & L1 & E1).
  rewrite <- !app_assoc in E. simpl in E. rewrite app_length in E. simpl in E. rewrite E.
  exists (mkSlot (it x) (-1) (mk x) :: M1). simpl. rewrite L1, E1. auto.
Qed.

Lemma downsample_ok s H M R J Wc d : Seg s H M R J -> 1 <= v_r s -> 2 <= v_m s + v_r s ->
  exists s' g R' A x B, downsample s Wc (v_m s + v_r s) d = Ok s'
    /\ v_s s' = H ++ g :: R' ++ J /\ M ++ R = A ++ x :: B /\ length R' = v_m s + v_r s - 1
    /\ Permutation (map it R') (map it (A ++ B)) /\ choose_delete_slot s Wc (v_m s + v_r s) d = Ok (v_h s + length A)
    /\ v_gadget s' = v_gadget s /\ v_k s' = v_k s /\ v_n s' = v_n s /\ v_h s' = v_h s /\ v_m s' = 0 /\ v_r s' = v_m s + v_r s - 1
    /\ v_tot s' = Wc /\ v_rf s' = v_rf s /\ v_nm s' = v_nm s.
Proof.
  intros Sg Hr Hc. destruct (choose_range s H M R J Wc (v_m s + v_r s) d Sg Hr) as (del & Ed & Hd).
  destruct Sg as [Es Eh Em Er Ek Hp]. unfold downsample.
  destruct (Nat.ltb_spec (v_m s + v_r s) 2); [lia|]. rewrite Nat.add_assoc, Ek, Nat.eqb_refl. cbn [orb negb]. rewrite Ed. cbn [bindr].
  destruct (Nat.ltb_spec del (v_h s)); [lia|]. destruct (Nat.ltb_spec (v_k s) del); [lia|]. cbn [orb].
  destruct (clear_ok M H (R ++ J)) as (M1 & Ec & LM & EM).
  assert (Ec' : clear_weights (v_m s) (v_s s) (v_h s) = Some (H ++ M1 ++ R ++ J)) by (rewrite Em, Eh, Es; auto).
  rewrite Ec'. cbn [bindo].
  assert (LC : length (M1 ++ R) = v_m s + v_r s) by (rewrite app_length; lia).
  destruct (M1 ++ R) as [|z C'] eqn:EC; [simpl in LC; lia|].
  assert (Ez : exists z0 C0, M ++ R = z0 :: C0 /\ it z0 = it z /\ map it C0 = map it C').
  { assert (E1 : map it (M ++ R) = map it (z :: C')) by (rewrite <- EC, !map_app, EM; auto).
    destruct (M ++ R) as [|z0 C0]; simpl in E1; [discriminate|]. injection E1. eauto. }
  destruct Ez as (z0 & C0 & E0 & Iz & IC).
  replace (H ++ M1 ++ R ++ J) with (H ++ z :: C' ++ J) by (f_equal; rewrite (app_assoc M1), EC; auto).
  rewrite nth_seg by auto. cbn [bindo].
  destruct (Nat.eq_dec del (v_h s)) as [->|Nd].
  - rewrite nth_seg by auto. cbn [bindo of_opt].
    eexists _, z, C', [], z0, C0. split; [reflexivity|]. vcbn.
    rewrite upd_seg by auto. destruct z. rewrite <- IC, Nat.add_0_r. simpl in LC. repeat split; auto; lia.
  - destruct (split_cons C' (del - length H - 1)) as (A & y & B & -> & LA); [simpl in LC; lia|].
    replace (H ++ z :: (A ++ y :: B) ++ J) with ((H ++ z :: A) ++ y :: (B ++ J)) by (repeat (rewrite <- !app_assoc; simpl); auto).
    assert (Ld : del = length (H ++ z :: A)) by (rewrite app_length; simpl; lia).
    rewrite (nth_seg (H ++ z :: A)) by auto. cbn [bindo of_opt].
    rewrite map_app in IC. symmetry in IC. rewrite map_cons in IC.
    assert (ES : exists A0 y0 B0, C0 = A0 ++ y0 :: B0 /\ map it A0 = map it A /\ map it B0 = map it B).
    { clear -IC. revert C0 IC. induction A as [|a A IH]; intros [|c C0] E; simpl in E; try discriminate.
      - injection E as E1 E2. exists [], c, C0. auto.
      - injection E as E1 E2. destruct (IH _ E2) as (A0 & y0 & B0 & -> & F1 & F2). exists (c :: A0), y0, B0. simpl. rewrite F1. repeat split; auto; congruence. }
    destruct ES as (A0 & y0 & B0 & -> & F1 & F2).
    assert (LA0 : length A0 = length A) by (rewrite <- (map_length it A0), F1, map_length; auto).
    eexists _, z, (A ++ mkSlot (it z) (wt y) (mk y) :: B), (z0 :: A0), y0, B0.
    split; [reflexivity|]. vcbn. rewrite upd_seg by auto. simpl in LC. rewrite app_length in LC. simpl in LC.
    split. { repeat (rewrite <- !app_assoc; simpl). auto. }
    split; auto. split. { rewrite app_length. simpl. lia. }
    split. { simpl. rewrite !map_app. simpl. rewrite F1, F2, Iz. symmetry. apply Permutation_middle. }
    split. { f_equal. rewrite Ld, app_length. simpl. lia. }
    repeat split; auto; lia.
Qed.

(** ** States *)

(** A sketch in estimation mode that has taken the weighted items [xs]: [H] the heavy ones, [L] those that R stands for, [D] the
    items dropped. *)
Record Est s xs H (g : slot) R J L (D : list T) : Prop := mkEst {
  es_s : v_s s = H ++ g :: R ++ J; es_h : v_h s = length H; es_r : v_r s = length R; es_m : v_m s = 0;
  es_k : v_h s + v_r s = v_k s; es_r1 : 1 <= v_r s; es_heap : heap (v_s s) (v_h s) 0;
  es_perm : Permutation xs (H ++ L); es_tot : (sw L == v_tot s)%Q;
  es_light : forall x, In x L -> (wt x * qn (v_r s) <= v_tot s)%Q;
  es_items : Permutation (map it L) (map it R ++ D); es_drop : D <> [];
  es_cnt : count_ok s H; es_pos : forall x, In x xs -> (0 < wt x)%Q; es_marks : v_gadget s = false -> forall x, In x xs -> mk x = false }.
(** No heavy item is lighter than tau. *)
Definition Strong s H : Prop := forall y, In y H -> (v_tot s <= wt y * qn (v_r s))%Q.

(** The state just before downsampling. *)
Record Ready s xs H M R J (Wc : Q) L (D : list T) : Prop := mkReady {
  rd_seg : Seg s H M R J; rd_cnt : count_ok s H; rd_cand : Cand s H M Wc;
  rd_h : forall y, In y H -> (Wc <= wt y * qn (v_m s + v_r s - 1))%Q;
  rd_perm : Permutation xs ((H ++ M) ++ L); rd_tot : (sw L == v_tot s)%Q;
  rd_light : forall x, In x L -> (wt x * qn (v_r s) <= v_tot s)%Q;
  rd_items : Permutation (map it L) (map it R ++ D);
  rd_pos : forall x, In x xs -> (0 < wt x)%Q; rd_marks : v_gadget s = false -> forall x, In x xs -> mk x = false }.

Lemma est_tot_pos s xs H g R J L D : Est s xs H g R J L D -> (0 < v_tot s)%Q.
Proof.
  intros E. rewrite <- (es_tot _ _ _ _ _ _ _ _ E). apply qsum_pos.
  - intros q Hq. apply in_map_iff in Hq. destruct Hq as (x & <- & Hx). eapply es_pos; eauto.
    rewrite (es_perm _ _ _ _ _ _ _ _ E). apply in_app_iff. auto.
  - pose proof (Permutation_length (es_items _ _ _ _ _ _ _ _ E)) as P. rewrite app_length, !map_length in P.
    pose proof (es_r _ _ _ _ _ _ _ _ E). pose proof (es_r1 _ _ _ _ _ _ _ _ E). destruct L; simpl in *; [lia|congruence].
Qed.

Lemma grow_ready s xs H M R J Wc L D : Seg s H M R J -> count_ok s H -> Cand s H M Wc -> v_m s <= 1 ->
  Permutation xs ((H ++ M) ++ L) -> (sw L == v_tot s)%Q -> (forall x, In x L -> wt x * qn (v_r s) <= v_tot s)%Q ->
  Permutation (map it L) (map it R ++ D) -> (forall x, In x xs -> 0 < wt x)%Q -> (v_gadget s = false -> forall x, In x xs -> mk x = false) ->
  exists s1 H1 M1 W1, Ready s1 xs H1 M1 R J W1 L D /\ rest_eq s s1 /\ forall d, grow_candidates s Wc (v_m s + v_r s) d = downsample s1 W1 (v_m s1 + v_r s1) d.
Proof.
  intros Sg Ct Cd Hm P1 P2 P3 P4 P5 P6.
  destruct (grow_ok R J (v_h s + 1) s H M Wc) as (s1 & H1 & M1 & W1 & A1 & A2 & A3 & A4 & A5 & A6 & A7); auto; [lia|].
  exists s1, H1, M1, W1. pose proof A4 as (B1 & B2 & B3 & B4 & B5 & B6). split; [constructor; auto|split; auto].
  - rewrite P1, A5. auto.
  - rewrite B5. auto.
  - rewrite B4, B5. auto.
  - rewrite B1. auto.
  - intros d. unfold grow_candidates. rewrite (sg_k _ _ _ _ _ Sg), !Nat.eqb_refl.
    destruct (Nat.ltb_spec (v_m s + v_r s) 1); [pose proof (cd_n _ _ _ _ Cd); lia|]. destruct (Nat.leb_spec 2 (v_m s)); [lia|]. cbn [negb orb]. auto.
Qed.

Lemma ready_down s xs H M R J Wc L D d : Ready s xs H M R J Wc L D ->
  exists s' g R' A x B, downsample s Wc (v_m s + v_r s) d = Ok s' /\ Est s' xs H g R' J (M ++ L) (it x :: D) /\ Strong s' H /\
    M ++ R = A ++ x :: B /\ Permutation (map it R') (map it (A ++ B)) /\ choose_delete_slot s Wc (v_m s + v_r s) d = Ok (v_h s + length A) /\
    v_gadget s' = v_gadget s /\ v_k s' = v_k s /\ v_n s' = v_n s /\ v_rf s' = v_rf s /\ v_h s' = v_h s /\ v_r s' = v_m s + v_r s - 1 /\ v_tot s' = Wc.
Proof.
  intros [Sg Ct Cd Rh Rp Rt Rl Ri Rpos Rm]. pose proof Cd as [C1 C2 C3 C4 C5 C6 C7 C8 C9].
  destruct (downsample_ok s H M R J Wc d Sg C2 C1) as (s' & g & R' & A & x & B & E & Es & EC & LR & PR & Ech & F1 & F2 & F3 & F4 & F5 & F6 & F7 & F8 & F9).
  exists s', g, R', A, x, B. split; auto. split; [|split].
  - destruct Sg as [Ss Sh Sm Sr Sk Shp]. constructor; auto; try congruence; try lia.
    + rewrite F4. assert (HW : forall i, i < v_h s -> W (v_s s') i = W (v_s s) i).
      { intros i Hi. unfold W. rewrite Es, Ss, !nth_error_app1 by lia. auto. }
      intros i c A0 B0 C0. rewrite !HW; auto; unfold child in C0; lia.
    + rewrite Rp. rewrite <- app_assoc. auto.
    + rewrite sw_app, Rt, F7, C5. lra.
    + rewrite F6, F7. intros y Hy. apply in_app_iff in Hy. destruct Hy as [Hy|Hy].
      * apply Qlt_le_weak. auto.
      * pose proof (Rl y Hy) as A1. apply (qcancel _ _ (qn (v_r s))); [apply qn_pos; auto|].
        apply Qle_trans with (v_tot s * qn (v_m s + v_r s - 1))%Q; auto.
        setoid_replace (wt y * qn (v_m s + v_r s - 1) * qn (v_r s))%Q with (wt y * qn (v_r s) * qn (v_m s + v_r s - 1))%Q by ring.
        apply Qmult_le_compat_r; auto. apply qn_nonneg.
    + rewrite map_app, Ri, app_assoc, <- map_app, EC.
      rewrite (map_app it A (x :: B)). simpl. rewrite <- Permutation_middle. simpl. rewrite <- map_app, <- PR. apply Permutation_middle.
    + destruct Ct as [N1 N2]. split; [congruence|]. rewrite F1. auto.
    + rewrite F1. auto.
  - intros y Hy. rewrite F6, F7. auto.
  - repeat split; auto.
Qed.

(** ** Warming up *)

Lemma transition_ready s : v_r s = 0 -> v_m s = 0 -> v_h s = v_k s + 1 -> length (v_s s) = v_h s -> 1 <= v_k s ->
  v_nm s = nmark (v_s s) -> (forall x, In x (v_s s) -> 0 < wt x)%Q -> (v_gadget s = false -> forall x, In x (v_s s) -> mk x = false) ->
  exists s1 H M R W1 x, Ready s1 (v_s s) H M R [] W1 [x] [] /\ v_gadget s1 = v_gadget s /\ v_k s1 = v_k s /\ v_n s1 = v_n s /\ v_rf s1 = v_rf s /\
    v_r s1 = 1 /\ v_tot s1 = wt x /\ map it R = [it x] /\
    forall d, transition s d = downsample s1 W1 (v_m s1 + v_r s1) d.
Proof.
  intros Hr Hm Hh Hl Hk Hn Hpos Hmk. unfold transition.
  destruct (heapify_ok (v_h s) (v_s s)) as (l0 & -> & HP & Hh0); [lia|]. cbn [bindr].
  set (s0 := mkVo l0 (v_gadget s) (v_k s) (v_n s) (v_h s) (v_m s) (v_r s) (v_tot s) (v_rf s) (v_nm s)).
  assert (P0 : Permutation (v_s s) l0 /\ length l0 = v_h s).
  { destruct HP as (A & B & X & EA & -> & LA & P). rewrite EA in Hl. rewrite app_length in Hl. assert (X = []) as -> by (destruct X; simpl in *; auto; lia).
    rewrite EA, !app_nil_r. split; auto. apply Permutation_length in P. lia. }
  destruct P0 as [P0 L0].
  assert (Sg0 : Seg s0 l0 [] [] []) by (constructor; unfold s0; vcbn; rewrite ?app_nil_r; auto; lia).
  assert (Ct0 : count_ok s0 l0).
  { split; unfold s0; vcbn. { rewrite Hn. apply nmark_perm; auto. } intros G x Hx. apply Hmk; auto. rewrite P0. auto. }
  destruct (pop_ok s0 _ _ _ _ Sg0 Ct0) as (s1 & x1 & H1 & -> & Sg1 & Ct1 & P1 & Wx1 & F1 & F2 & F3 & F4 & F5 & F6 & F7 & F8); [unfold s0; vcbn; lia|].
  cbn [bindr]. unfold s0 in F1, F2, F3, F4, F5, F6, F7, F8, Wx1. vcbn_in F1. vcbn_in F2. vcbn_in F3. vcbn_in F4. vcbn_in F5. vcbn_in F6. vcbn_in F7. vcbn_in F8. vcbn_in Wx1. clear s0 Sg0 Ct0.
  assert (M1 : forall y, In y l0 -> (wt x1 <= wt y)%Q).
  { intros y Hy. rewrite Wx1. eapply heap_min; [symmetry; apply app_nil_r| |auto]. rewrite L0. auto. }
  destruct (pop_ok s1 _ _ _ _ Sg1 Ct1) as (s2 & x2 & H2 & -> & Sg2 & Ct2 & P2 & Wx2 & G1 & G2 & G3 & G4 & G5 & G6 & G7 & G8); [lia|].
  cbn [bindr]. cbv zeta.
  assert (M2 : forall y, In y H1 -> (wt x2 <= wt y)%Q).
  { intros y Hy. rewrite Wx2. eapply heap_min; [exact (sg_s _ _ _ _ _ Sg1)| |auto]. rewrite <- (sg_h _ _ _ _ _ Sg1). apply (sg_heap _ _ _ _ _ Sg1). }
  destruct Sg2 as [Ss Sh Sm Sr Sk Shp].
  destruct (Nat.eqb_spec (v_h s2) (v_k s2 - 1)); [|lia]. destruct (Nat.eqb_spec (v_m s2 - 1) 1); [|lia]. destruct (Nat.eqb_spec (v_r s2 + 1) 1); [|lia]. cbn [negb orb].
  assert (El : v_s s2 = (H2 ++ [x2]) ++ x1 :: []) by (rewrite Ss; rewrite <- app_assoc; auto).
  assert (Lk : v_k s2 = length (H2 ++ [x2])) by (rewrite app_length; simpl; lia).
  rewrite El. rewrite (nth_seg _ x1 [] _ Lk). cbn [of_opt bindr]. rewrite (upd_seg (H2 ++ [x2]) _ x1 [] _ Lk).
  rewrite sub_ok by lia. cbn [bindo]. rewrite <- app_assoc. simpl ([x2] ++ _). rewrite nth_seg by lia. cbn [of_opt bindr].
  match goal with |- context [grow_candidates ?s3 _ _ _] => set (sR := s3) end.
  assert (Hx2 : In x2 l0) by (rewrite P1, P2; right; left; auto).
  assert (Pos0 : forall y, In y l0 -> (0 < wt y)%Q) by (intros; apply Hpos; rewrite P0; auto).
  assert (Hx1 : In x1 l0) by (rewrite P1; left; auto).
  assert (HH2 : forall y, In y H2 -> In y l0 /\ In y H1).
  { intros y Hy. split; [rewrite P1, P2; right; right; auto|rewrite P2; right; auto]. }
  pose proof (Pos0 _ Hx1) as Qa. pose proof (Pos0 _ Hx2) as Qb. pose proof (M1 _ Hx2) as Qc.
  destruct (grow_ready sR (v_s s) H2 [x2] [mkSlot (it x1) (-1) (mk x1)] [] (wt x2 + wt x1)%Q [x1] []) as (s3 & H3 & M3 & W3 & Rd & (K1 & K2 & K3 & K4 & K5 & K6) & E3).
  - constructor; unfold sR; vcbn; auto; try lia.
    intros i c A B C. assert (HW : forall i, i < v_h s2 -> W (H2 ++ [x2; {| it := it x1; wt := -1; mk := mk x1 |}]) i = W (v_s s2) i).
    { intros j Hj. unfold W. rewrite Ss, !nth_error_app1 by lia. auto. }
    rewrite !HW; unfold child in C; try lia. apply Shp; auto.
  - unfold sR. destruct Ct2 as [N1 N2]. split; vcbn; auto.
  - assert (Q1 : (qn 1 == 1)%Q) by reflexivity.
    constructor; unfold sR; vcbn; rewrite ?e0, ?e1; try lia; auto.
    + intros y Hy. apply Pos0. apply in_app_iff in Hy. destruct Hy as [Hy|[<- | []]]; auto. apply HH2; auto.
    + unfold sw. simpl. lra.
    + intros y [<- | []]. change (qn (1 + 1 - 1)) with 1%Q. lra.
    + intros a b [<- | []] Hb. apply M2. apply HH2; auto.
    + change (qn (1 + 1 - 1)) with 1%Q. change (qn 1) with 1%Q. lra.
    + intros y Hy. change (qn 1) with 1%Q. pose proof (M1 y (proj1 (HH2 _ Hy))). lra.
  - unfold sR; vcbn. lia.
  - rewrite P0, P1, P2. rewrite <- app_assoc. simpl. rewrite perm_swap. etransitivity; [apply (Permutation_app_comm [x2; x1] H2)|]. auto.
  - unfold sR, sw; vcbn. simpl. lra.
  - unfold sR; vcbn. rewrite e1. intros y [<- | []]. change (qn 1) with 1%Q. lra.
  - simpl. auto.
  - auto.
  - unfold sR; vcbn. rewrite G1, F1. auto.
  - exists s3, H3, M3, [mkSlot (it x1) (-1) (mk x1)], W3, x1. unfold sR in K1, K2, K3, K4, K5, K6. vcbn_in K1. vcbn_in K2. vcbn_in K3. vcbn_in K4. vcbn_in K5. vcbn_in K6.
    split; auto. do 4 (split; [congruence|]). split; [congruence|]. split; [congruence|]. split; [reflexivity|].
    intros d. rewrite <- E3. f_equal. unfold sR; vcbn. lia.
Qed.

(** ** Pushing *)

Lemma push_ok s H g R J x w mark : v_s s = H ++ g :: R ++ J -> v_h s = length H -> heap (v_s s) (v_h s) 0 -> count_ok s H ->
  exists s' H', push s x w mark = Some s' /\ v_s s' = H' ++ R ++ J /\ Permutation H' (mkSlot x w (v_gadget s && mark) :: H) /\
    heap (v_s s') (v_h s') 0 /\ count_ok s' H' /\ v_h s' = v_h s + 1 /\ length H' = v_h s + 1 /\
    v_gadget s' = v_gadget s /\ v_k s' = v_k s /\ v_n s' = v_n s /\ v_m s' = v_m s /\ v_r s' = v_r s /\ v_tot s' = v_tot s /\ v_rf s' = v_rf s.
Proof.
  intros Es Eh Hp [Cn Cg]. unfold push. rewrite Es, wr_seg by auto. cbn [bindo].
  set (y := mkSlot x w (v_gadget s && mark)).
  assert (HW : forall i, i < v_h s -> W (H ++ y :: R ++ J) i = W (v_s s) i).
  { intros i Hi. unfold W. rewrite Es, !nth_error_app1 by lia. auto. }
  destruct (sift_up_ok (v_h s + 1) (v_h s + 1) (H ++ y :: R ++ J) (v_h s)) as (l' & -> & HP & Hh); try lia.
  - rewrite app_length. simpl. lia.
  - intros i c A B C. unfold child in C. rewrite !HW by lia. apply Hp; auto; lia.
  - intros gp c A B C. unfold child in *. lia.
  - cbn [bindo]. destruct HP as (A & B & X & EA & -> & LA & P).
    assert (A = H ++ [y] /\ X = R ++ J) as [-> ->].
    { replace (H ++ y :: R ++ J) with ((H ++ [y]) ++ R ++ J) in EA by (rewrite <- app_assoc; auto).
      assert (Ln : length (H ++ [y]) = v_h s + 1) by (rewrite app_length; simpl; lia).
      assert (E2 := f_equal (firstn (v_h s + 1)) EA). assert (E3 := f_equal (skipn (v_h s + 1)) EA).
      rewrite !firstn_seg in E2 by auto. rewrite !skipn_seg in E3 by auto. auto. }
    assert (PB : Permutation B (y :: H)) by (rewrite <- P; apply Permutation_app_comm).
    eexists _, B. split; [reflexivity|]. vcbn. split; auto. split; auto. split; auto. split; [|].
    + split; vcbn.
      * rewrite (nmark_perm _ _ PB), nmark_cons. unfold y; cbn [mk]. rewrite Cn. destruct (v_gadget s && mark); lia.
      * intros G z Hz. rewrite PB in Hz. destruct Hz as [<- | Hz]; [unfold y; cbn [mk]; rewrite G; auto|auto].
    + apply Permutation_length in PB. simpl in PB. repeat split; auto; lia.
Qed.

(** ** Updates in estimation mode *)

Lemma strong_or_error s xs H g R J L D x w mark d : Est s xs H g R J L D -> Strong s H \/ update_mark s x w mark d = Err.
Proof.
  intros E. pose proof E as [Es Eh Er Em Ek Er1 Ehp Ep Et El Ei Ed Ec Epos Emk].
  destruct (Nat.eq_dec (v_h s) 0) as [H0|H0].
  - left. intros y Hy. destruct H; simpl in *; [tauto|lia].
  - assert (exists y, nth_error (v_s s) 0 = Some y /\ wt y = W (v_s s) 0) as (y & Ey & Wy).
    { destruct H as [|y H]; simpl in Eh; [lia|]. exists y. rewrite Es. unfold W. auto. }
    destruct (qlt (wt y) (tau s)) eqn:Q.
    + right. destruct w as [w|]; auto. cbn [update_mark]. destruct (Qle_bool w 0); auto. cbv zeta. vcbn.
      destruct (Nat.eqb_spec (v_r s) 0); [lia|]. destruct (Nat.eqb_spec (v_h s) 0); [lia|]. rewrite Ey. cbn [of_opt bindr negb].
      unfold tau in *. vcbn. rewrite Q. auto.
    + left. apply qlt_false in Q. unfold tau in Q. intros z Hz.
      assert (A : (wt y <= wt z)%Q). { rewrite Wy. eapply heap_min; [exact Es| |auto]. rewrite <- Eh. auto. }
      assert (Rp : (0 < qn (v_r s))%Q) by (apply qn_pos; lia).
      assert (B : (v_tot s / qn (v_r s) * qn (v_r s) <= wt z * qn (v_r s))%Q) by (apply Qmult_le_compat_r; lra).
      setoid_replace (v_tot s / qn (v_r s) * qn (v_r s))%Q with (v_tot s) in B; auto. field. lra.
Qed.

Lemma update_ready s xs H g R J L D x w mark : Est s xs H g R J L D -> Strong s H -> (0 < w)%Q -> (v_gadget s = false -> mark = false) ->
  exists s1 H1 M1 W1, Ready s1 (mkSlot x w mark :: xs) H1 M1 R J W1 L D /\ v_gadget s1 = v_gadget s /\ v_k s1 = v_k s /\ v_n s1 = (v_n s + 1)%N /\ v_rf s1 = v_rf s /\
    v_r s1 = v_r s /\ v_tot s1 = v_tot s /\ Permutation (H1 ++ M1) (mkSlot x w mark :: H) /\
    forall d, update_mark s x (Some w) mark d = downsample s1 W1 (v_m s1 + v_r s1) d.
Proof.
  intros E St Hw Hmk. pose proof (est_tot_pos _ _ _ _ _ _ _ _ E) as Tp. pose proof E as [Es Eh Er Em Ek Er1 Ehp Ep Et El Ei Ed Ec Epos Emk].
  assert (Gm : v_gadget s && mark = mark). { destruct (v_gadget s); auto. rewrite Hmk; auto. }
  cbn [update_mark]. destruct (Qle_bool w 0) eqn:Q0; [apply Qle_bool_iff in Q0; lra|]. clear Q0. cbv zeta. vcbn.
  destruct (Nat.eqb_spec (v_r s) 0); [lia|].
  set (s0 := mkVo (v_s s) (v_gadget s) (v_k s) (v_n s + 1) (v_h s) (v_m s) (v_r s) (v_tot s) (v_rf s) (v_nm s)).
  assert (Rp : (0 < qn (v_r s))%Q) by (apply qn_pos; lia).
  assert (exists minW, (if v_h s =? 0 then Ok 0%Q else let* y := of_opt (nth_error (v_s s) 0) in Ok (wt y)) = Ok minW /\
     (v_h s <> 0 -> (v_tot s <= minW * qn (v_r s))%Q /\ forall y, In y H -> (minW <= wt y)%Q)) as (minW & -> & HM).
  { destruct (Nat.eqb_spec (v_h s) 0); [exists 0%Q; split; auto; lia|].
    destruct H as [|y H]; simpl in Eh; [lia|]. rewrite Es. simpl. exists (wt y). split; auto. intros _. split; [apply St; left; auto|].
    intros z Hz. replace (wt y) with (W (v_s s) 0) by (rewrite Es; auto). eapply (heap_min _ (y :: H)); [exact Es| |auto]. rewrite Eh in Ehp. auto. }
  cbn [bindr].
  assert (HT : negb (v_h s =? 0) && qlt minW (tau s0) = false).
  { destruct (Nat.eqb_spec (v_h s) 0); auto. cbn [negb andb]. apply qlt_false. destruct (HM n0) as [A _]. unfold tau, s0. vcbn.
    apply (qcancel _ _ (qn (v_r s))); auto. setoid_replace (v_tot s / qn (v_r s) * qn (v_r s))%Q with (v_tot s); auto. field. lra. }
  rewrite HT. clear HT.
  assert (Hden : (qn (v_r s + 1) - 1 == qn (v_r s))%Q) by (rewrite qn_add, qn_1; lra).
  set (y := mkSlot x w mark).
  assert (Hxs : forall z, In z (y :: xs) -> (0 < wt z)%Q) by (intros z [<- | Hz]; auto).
  assert (Hmks : v_gadget s = false -> forall z, In z (y :: xs) -> mk z = false) by (intros G z [<- | Hz]; simpl; auto).
  assert (HHin : forall z, In z H -> In z xs) by (intros z Hz; rewrite Ep; apply in_app_iff; auto).
  set (hyp := ((w + v_tot s) / (qn (v_r s + 1) - 1))%Q).
  assert (Hhyp : (w < hyp)%Q <-> (w * qn (v_r s) < w + v_tot s)%Q).
  { unfold hyp. rewrite qdiv_lt by lra. setoid_replace (w * (qn (v_r s + 1) - 1))%Q with (w * qn (v_r s))%Q by (rewrite Hden; lra). tauto. }
  assert (Hnew : ((v_h s =? 0) || Qle_bool w minW) && qlt w hyp = false -> (v_tot s <= w * qn (v_r s))%Q).
  { intros F. apply andb_false_iff in F. destruct F as [F|F].
    - apply orb_false_iff in F. destruct F as [F1 F2]. apply Nat.eqb_neq in F1. apply qle_false in F2. destruct (HM F1) as [A _].
      apply Qle_trans with (minW * qn (v_r s))%Q; auto. apply Qmult_le_compat_r; lra.
    - apply qlt_false in F. assert (B : ~ (w * qn (v_r s) < w + v_tot s)%Q) by (rewrite <- Hhyp; lra). lra. }
  destruct (((v_h s =? 0) || Qle_bool w minW) && qlt w hyp) eqn:Cnd.
  - (* light *)
    clear Hnew. apply andb_true_iff in Cnd. destruct Cnd as [C1 C2]. apply qlt_iff in C2. apply Hhyp in C2.
    unfold update_light, s0. vcbn. clear s0. destruct (Nat.eqb_spec (v_r s) 0); [lia|]. destruct (Nat.eqb_spec (v_r s + v_h s) (v_k s)); [|lia]. cbn [orb negb].
    rewrite Gm, Es, wr_seg by auto. cbn [of_opt bindr]. fold y.
    match goal with |- context [grow_candidates ?s3 ?w3 _ _] => set (sR := s3); set (wR := w3) end.
    destruct (grow_ready sR (y :: xs) H [y] R J wR L D) as (s3 & H3 & M3 & W3 & Rd & (K1 & K2 & K3 & K4 & K5 & K6) & E3); auto; try (unfold sR; vcbn; auto; fail).
    + constructor; unfold sR; vcbn; auto; try lia.
      assert (HW : forall i, i < v_h s -> W (H ++ y :: R ++ J) i = W (v_s s) i).
      { intros i Hi. unfold W. rewrite Es, !nth_error_app1 by lia. auto. }
      intros i c A B C. unfold child in C. rewrite !HW by lia. apply Ehp; auto; unfold child; lia.
    + constructor; unfold sR, wR; vcbn; try lia; auto; replace (v_m s + 1 + v_r s - 1) with (v_r s) by lia.
      * intros z Hz. apply in_app_iff in Hz. destruct Hz as [Hz|[<- | []]]; auto.
      * unfold sw, y; simpl. lra.
      * intros z [<- | []]. unfold y; cbn [wt]. lra.
      * intros a b [<- | []] Hb. unfold y; cbn [wt]. apply orb_true_iff in C1. destruct C1 as [C1|C1].
        { apply Nat.eqb_eq in C1. destruct H; simpl in *; [tauto|lia]. }
        apply Qle_bool_iff in C1. assert (v_h s <> 0) by (destruct H; simpl in *; [tauto|lia]).
        eapply Qle_trans; [exact C1|]. apply HM; auto.
      * apply Qmult_le_compat_r; lra.
    + unfold sR; vcbn. lia.
    + rewrite Ep. rewrite <- app_assoc. simpl. apply Permutation_middle.
    + exists s3, H3, M3, W3. unfold sR in K1, K2, K3, K4, K5, K6. vcbn_in K1. vcbn_in K2. vcbn_in K3. vcbn_in K4. vcbn_in K5. vcbn_in K6.
      split; auto. do 6 (split; [auto|]). split.
      { pose proof (rd_perm _ _ _ _ _ _ _ _ _ Rd) as P. rewrite Ep in P. apply (Permutation_app_inv_r L). symmetry. exact P. }
      intros d. rewrite <- E3. f_equal. unfold sR; vcbn. lia.
  - specialize (Hnew eq_refl).
    destruct (push_ok s0 H g R J x w mark) as (s4 & H4 & Ep4 & Es4 & P4 & Hh4 & Ct4 & F1 & F2 & F3 & F4 & F5 & F6 & F7 & F8 & F9); auto.
    unfold s0 in F1, F2, F3, F4, F5, F6, F7, F8, F9, P4. vcbn_in F1. vcbn_in F2. vcbn_in F3. vcbn_in F4. vcbn_in F5. vcbn_in F6. vcbn_in F7. vcbn_in F8. vcbn_in F9. vcbn_in P4.
    rewrite Gm in P4. fold y in P4.
    assert (St4 : forall z, In z H4 -> (v_tot s <= wt z * qn (v_r s))%Q).
    { intros z Hz. rewrite P4 in Hz. destruct Hz as [<- | Hz]; auto. }
    assert (Pos4 : forall z, In z H4 -> (0 < wt z)%Q).
    { intros z Hz. rewrite P4 in Hz. destruct Hz as [<- | Hz]; auto. }
    assert (Sg4 : Seg s4 H4 [] R J) by (constructor; vcbn; auto; lia).
    destruct (Nat.eqb_spec (v_r s) 1) as [R1|R1].
    + unfold update_heavy_r1. replace (v_r s0) with 1 by (unfold s0; auto). replace (v_m s0) with 0 by (unfold s0; auto). change (v_h s0) with (v_h s). change (v_k s0) with (v_k s). destruct (Nat.eqb_spec (1 + v_h s) (v_k s)); [|lia]. cbn [Nat.eqb negb orb].
      rewrite Ep4. cbn [of_opt bindr].
      destruct (pop_ok s4 _ _ _ _ Sg4 Ct4) as (s5 & z & H5 & -> & Sg5 & Ct5 & P5 & Wz & G1 & G2 & G3 & G4 & G5 & G6 & G7 & G8); [lia|].
      cbn [bindr]. rewrite sub_ok by lia. cbn [bindo].
      assert (En : nth_error (v_s s5) (v_k s5 - 1) = Some z).
      { rewrite (sg_s _ _ _ _ _ Sg5). simpl. apply nth_seg. pose proof (sg_h _ _ _ _ _ Sg5). lia. }
      rewrite En. cbn [of_opt bindr].
      assert (Minz : forall b, In b H4 -> (wt z <= wt b)%Q).
      { intros b Hb. rewrite Wz. eapply heap_min; [exact Es4| |auto]. rewrite F2, <- F1. auto. }
      assert (Inz : In z H4) by (rewrite P5; left; auto).
      assert (Sub5 : forall b, In b H5 -> In b H4) by (intros b Hb; rewrite P5; right; auto).
      pose proof (Pos4 _ Inz) as Qz.
      destruct (grow_ready s5 (y :: xs) H5 [z] R J (wt z + v_tot s5)%Q L D) as (s3 & H3 & M3 & W3 & Rd & (K1 & K2 & K3 & K4 & K5 & K6) & E3); auto.
      * constructor; rewrite ?G5, ?G6, ?G7, ?F6, ?F7, ?F8, ?R1, ?Em; try lia; auto; change (qn (0 + 1 + 1 - 1)) with 1%Q; change (qn 1) with 1%Q.
        -- intros b Hb. apply in_app_iff in Hb. destruct Hb as [Hb|[<- | []]]; auto.
        -- unfold sw; simpl. lra.
        -- intros b [<- | []]. lra.
        -- intros a b [<- | []] Hb. auto.
        -- lra.
        -- intros b Hb. pose proof (St4 b (Sub5 _ Hb)) as A. rewrite R1 in A. exact A.
      * lia.
      * rewrite Ep. transitivity ((y :: H) ++ L); auto. apply Permutation_app_tail. rewrite <- P4, P5. apply Permutation_cons_append.
      * rewrite G7, F8. auto.
      * rewrite G6, G7, F7, F8. auto.
      * rewrite G1, F3. auto.
      * exists s3, H3, M3, W3. split; auto. do 6 (split; [congruence|]). split.
        { pose proof (rd_perm _ _ _ _ _ _ _ _ _ Rd) as P. rewrite Ep in P. apply (Permutation_app_inv_r L). symmetry. exact P. }
        intros d. rewrite <- E3. f_equal. lia.
    + unfold update_heavy. change (v_r s0) with (v_r s). replace (v_m s0) with 0 by (unfold s0; auto). change (v_h s0) with (v_h s). change (v_k s0) with (v_k s). destruct (Nat.ltb_spec (v_r s) 2); [lia|]. destruct (Nat.eqb_spec (v_r s + v_h s) (v_k s)); [|lia]. cbn [Nat.eqb negb orb].
      rewrite Ep4. cbn [of_opt bindr].
      destruct (grow_ready s4 (y :: xs) H4 [] R J (v_tot s4) L D) as (s3 & H3 & M3 & W3 & Rd & (K1 & K2 & K3 & K4 & K5 & K6) & E3); auto.
      * constructor; rewrite ?F6, ?F7, ?F8, ?Em; try lia; auto.
        -- intros b Hb. rewrite app_nil_r in Hb. auto.
        -- unfold sw; simpl. lra.
        -- intros b [].
        -- intros a b [].
        -- assert (A : (qn (0 + v_r s - 1) <= qn (v_r s))%Q) by (apply qn_le; lia).
           assert (B : (qn (0 + v_r s - 1) * v_tot s <= qn (v_r s) * v_tot s)%Q) by (apply Qmult_le_compat_r; lra). lra.
      * lia.
      * rewrite app_nil_r, P4. rewrite Ep. auto.
      * rewrite F8. auto.
      * rewrite F7, F8. auto.
      * rewrite F3. auto.
      * exists s3, H3, M3, W3. split; auto. do 6 (split; [congruence|]). split.
        { pose proof (rd_perm _ _ _ _ _ _ _ _ _ Rd) as P. rewrite Ep in P. apply (Permutation_app_inv_r L). symmetry. exact P. }
        intros d. rewrite <- E3. f_equal. lia.
Qed.
End VarOptProofs.
