(** * What a VarOpt sketch and union represent. *)
From Verif Require Import Base Bytes Arr BitPackModel ReservoirModel VarOptModel VarOptHeap VarOptProofs.
From Coq Require Import QArith Qabs Lqa.
Local Close Scope Q_scope.
Local Open Scope nat_scope.

Section VarOptSem.
Context {T : Type}.
Variable zero : T.
Implicit Types (l H M R J L xs vs : list (@slot T)) (s : @vo T) (g : @slot T) (D : list T).

(** A sketch in exact mode. *)
Record Warm s xs : Prop := mkWarm {
  wm_r : v_r s = 0; wm_m : v_m s = 0; wm_perm : Permutation xs (v_s s); wm_h : v_h s = length (v_s s); wm_k : v_h s <= v_k s; wm_k1 : 1 <= v_k s;
  wm_cnt : v_nm s = nmark (v_s s); wm_pos : forall x, In x xs -> (0 < wt x)%Q; wm_marks : v_gadget s = false -> forall x, In x xs -> mk x = false; wm_tot : v_tot s = 0%Q }.

Definition Weak s xs : Prop := Warm s xs \/ exists H g R J L D, Est s xs H g R J L D.
Definition Good s xs : Prop := Warm s xs \/ exists H g R J L D, Est s xs H g R J L D /\ Strong s H.

Lemma good_weak s xs : Good s xs -> Weak s xs.
Proof. intros [E|(H & g & R & J & L & D & E & _)]; [left; auto|right]. do 6 eexists. eauto. Qed.

Lemma est_perm s xs xs' H g R J L D : Permutation xs xs' -> Est s xs H g R J L D -> Est s xs' H g R J L D.
Proof.
  intros P [Es Eh Er Em Ek Er1 Ehp Ep Et El Ei Ed Ec Epos Emk]. constructor; auto.
  - rewrite <- P. auto.
  - intros x Hx. apply Epos. rewrite P. auto.
  - intros G x Hx. apply Emk; auto. rewrite P. auto.
Qed.
Lemma warm_perm s xs xs' : Permutation xs xs' -> Warm s xs -> Warm s xs'.
Proof.
  intros P [A1 A2 A3 A4 A5 A6 A7 A8 A9 A10]. constructor; auto.
  - rewrite <- P. auto.
  - intros x Hx. apply A8. rewrite P. auto.
  - intros G x Hx. apply A9; auto. rewrite P. auto.
Qed.
Lemma good_perm s xs xs' : Permutation xs xs' -> Good s xs -> Good s xs'.
Proof. intros P [E|(H & g & R & J & L & D & E & S)]; [left; eapply warm_perm; eauto|right]. exists H, g, R, J, L, D. split; auto. eapply est_perm; eauto. Qed.

(** Nothing lies beyond the last item of R. *)
Definition tight s : Prop := v_r s = 0 \/ length (v_s s) = v_k s + 1.
Lemma est_tight s xs H g R J L D : Est s xs H g R J L D -> tight s -> J = [].
Proof.
  intros [Es Eh Er Em Ek Er1 _ _ _ _ _ _ _ _ _] [A|A]; [lia|]. rewrite Es, !app_length in A. simpl in A. rewrite app_length in A. destruct J; auto. simpl in A. lia.
Qed.
Lemma est_tight_nil s xs H g R L D : Est s xs H g R [] L D -> tight s.
Proof. intros [Es Eh Er Em Ek Er1 _ _ _ _ _ _ _ _ _]. right. rewrite Es, !app_length. simpl. rewrite app_nil_r. lia. Qed.

Definition same s s' : Prop := v_gadget s' = v_gadget s /\ v_k s' = v_k s /\ v_rf s' = v_rf s.

Lemma transition_good s xs d : v_r s = 0 -> v_m s = 0 -> v_h s = v_k s + 1 -> length (v_s s) = v_h s -> 1 <= v_k s -> Permutation xs (v_s s) ->
  v_nm s = nmark (v_s s) -> (forall x, In x xs -> 0 < wt x)%Q -> (v_gadget s = false -> forall x, In x xs -> mk x = false) ->
  exists s' H g R L D, transition s d = Ok s' /\ Est s' xs H g R [] L D /\ Strong s' H /\ same s s' /\ v_n s' = v_n s.
Proof.
  intros A1 A2 A3 A4 A5 P A6 A7 A8.
  destruct (transition_ready s) as (s1 & H & M & R & W1 & x & Rd & F1 & F2 & F3 & F4 & F5 & F6 & F7 & Ed); auto.
  { intros z Hz. apply A7. rewrite P. auto. } { intros G z Hz. apply A8; auto. rewrite P. auto. }
  rewrite Ed.
  destruct (ready_down _ _ _ _ _ _ _ _ _ d Rd) as (s' & g & R' & A & y & B & -> & E & St & _ & _ & _ & G1 & G2 & G3 & G4 & _).
  exists s', H, g, R', (M ++ [x]), (it y :: []). split; auto. split. { eapply est_perm; [symmetry; exact P|exact E]. }
  split; auto. split; [repeat split; congruence|congruence].
Qed.

Lemma update_good s xs x w mark d : Good s xs -> (0 < w)%Q -> (v_gadget s = false -> mark = false) ->
  exists s', update_mark s x (Some w) mark d = Ok s' /\ Good s' (mkSlot x w mark :: xs) /\ same s s' /\ v_n s' = (v_n s + 1)%N /\ (tight s -> tight s').
Proof.
  intros [Wm|(H & g & R & J & L & D & E & St)] Hw Hm.
  - destruct Wm as [A1 A2 A3 A4 A5 A6 A7 A8 A9 A10]. cbn [update_mark]. destruct (Qle_bool w 0) eqn:Q; [apply Qle_bool_iff in Q; lra|]. clear Q.
    cbv zeta. vcbn. rewrite A1. cbn [Nat.eqb]. unfold update_warmup. vcbn.
    assert (Gm : v_gadget s && mark = mark). { destruct (v_gadget s); auto. rewrite Hm; auto. }
    rewrite Gm. set (y := mkSlot x w mark).
    assert (Nm : (if mark then (v_nm s + 1)%Z else v_nm s) = nmark (v_s s ++ [y])).
    { rewrite nmark_app, <- A7. change (nmark [y]) with (nmark (y :: [])). rewrite nmark_cons. unfold y; cbn [mk]. change (nmark (@nil (@slot T))) with 0%Z. destruct mark; lia. }
    assert (Pm : Permutation (y :: xs) (v_s s ++ [y])) by (rewrite A3; apply Permutation_cons_append).
    assert (Ps : forall z, In z (y :: xs) -> (0 < wt z)%Q) by (intros z [<- | Hz]; auto).
    assert (Mk : v_gadget s = false -> forall z, In z (y :: xs) -> mk z = false) by (intros G z [<- | Hz]; simpl; auto).
    destruct (Nat.ltb_spec (v_k s) (v_h s + 1)) as [Hlt|Hlt].
    + match goal with |- context [transition ?s1 d] => destruct (transition_good s1 (y :: xs) d) as (s' & H & g & R & L & D & -> & E & St & Sm & En) end; vcbn; auto; try lia.
      { rewrite app_length. simpl. lia. }
      exists s'. split; auto. split. { right. exists H, g, R, [], L, D. auto. } split; auto. split; auto. intros _. eapply est_tight_nil; eauto.
    + eexists. split; [reflexivity|]. split.
      { left. constructor; vcbn; auto. all: rewrite ?app_length; simpl; lia. }
      split; [repeat split|]. split; [reflexivity|]. intros _. left. auto.
  - destruct (update_ready s xs H g R J L D x w mark E St Hw Hm) as (s1 & H1 & M1 & W1 & Rd & F1 & F2 & F3 & F4 & F5 & F6 & F7 & Ed).
    rewrite Ed. destruct (ready_down _ _ _ _ _ _ _ _ _ d Rd) as (s' & g' & R' & A & y & B & -> & E' & St' & _ & _ & _ & G1 & G2 & G3 & G4 & _).
    exists s'. split; auto. split. { right. exists H1, g', R', J, (M1 ++ L), (it y :: D). auto. }
    split; [repeat split; congruence|]. split; [congruence|]. intros Tg. rewrite (est_tight _ _ _ _ _ _ _ _ E Tg) in E'. eapply est_tight_nil; eauto.
Qed.

(** ** Reducing k *)

Lemma decrease_good s xs d : Good s xs -> 2 <= v_k s -> v_gadget s = true -> (1 <= v_n s)%N ->
  exists s', decrease_k s d = Ok s' /\ Good s' xs /\ v_gadget s' = v_gadget s /\ v_k s' = v_k s - 1 /\ v_rf s' = v_rf s /\ v_n s' = v_n s /\
    (v_h s = v_k s \/ 0 < v_r s -> 0 < v_r s').
Proof.
  intros Gd Hk Hg Hn. unfold decrease_k. destruct (Nat.leb_spec (v_k s) 1) as [Hle|Hle]; [lia|]. cbv zeta. vcbn.
  destruct Gd as [Wm|(H & g & R & J & L & D & E & St)].
  - destruct Wm as [A1 A2 A3 A4 A5 A6 A7 A8 A9 A10]. rewrite A1. cbn [Nat.eqb andb].
    destruct (Nat.eqb_spec (v_h s) 0) as [H0|H0]; cbn [andb].
    + eexists. split; [reflexivity|]. vcbn. split; [left; constructor; vcbn; auto; lia|]. repeat split; auto. lia.
    + destruct (Nat.ltb_spec (v_k s - 1) (v_h s)) as [Hlt|Hlt].
      * match goal with |- context [transition ?s1 d] => destruct (transition_good s1 xs d) as (s' & H1 & g & R & L & D & -> & E & St & (Sm1 & Sm2 & Sm3) & En) end; vcbn; auto; try lia.
        exists s'. split; auto. vcbn_in Sm1. vcbn_in Sm2. vcbn_in Sm3. vcbn_in En. split. { right. exists H1, g, R, [], L, D. auto. }
        do 4 (split; auto). intros _. pose proof (es_r1 _ _ _ _ _ _ _ _ E). lia.
      * eexists. split; [reflexivity|]. split; [left; constructor; vcbn; auto; lia|]. vcbn. repeat split; auto. lia.
  - pose proof E as [Es Eh Er Em Ek Er1 Ehp Ep Et El Ei Ed Ec Epos Emk].
    destruct (Nat.eqb_spec (v_r s) 0); [lia|]. rewrite andb_false_r.
    destruct (Nat.ltb_spec 0 (v_h s)) as [H0|H0].
    + replace (v_h s + 1 + v_r s - 1) with (v_h s + v_r s) by lia. rewrite Ek, Nat.eqb_refl. cbn [negb].
      destruct (snoc_cases H) as [-> | (H1 & x & ->)]; [simpl in Eh; lia|].
      destruct (snoc_cases R) as [-> | (R0 & y & ->)]; [simpl in Er; lia|].
      assert (Lh : length H1 = v_h s - 1) by (rewrite app_length in Eh; simpl in Eh; lia).
      assert (Lr : length R0 = v_r s - 1) by (rewrite app_length in Er; simpl in Er; lia).
      assert (El1 : v_s s = (H1 ++ x :: g :: R0) ++ y :: J) by (rewrite Es; repeat (rewrite <- app_assoc; simpl); auto).
      assert (Lk : v_k s = length (H1 ++ x :: g :: R0)) by (rewrite app_length; simpl; lia).
      unfold swap. rewrite El1. rewrite (nth_seg _ y J _ Lk). cbn [bindo].
      assert (En : nth_error ((H1 ++ x :: g :: R0) ++ y :: J) (v_h s) = Some g).
      { replace ((H1 ++ x :: g :: R0) ++ y :: J) with ((H1 ++ [x]) ++ g :: R0 ++ y :: J) by (repeat (rewrite <- app_assoc; simpl); auto).
        apply nth_seg. auto. }
      rewrite En. cbn [bindo of_opt bindr]. rewrite (upd_seg _ g y J _ Lk).
      assert (Eu : upd (v_h s) y ((H1 ++ x :: g :: R0) ++ g :: J) = H1 ++ x :: (y :: R0) ++ g :: J).
      { replace ((H1 ++ x :: g :: R0) ++ g :: J) with ((H1 ++ [x]) ++ g :: R0 ++ g :: J) by (repeat (rewrite <- app_assoc; simpl); auto).
        rewrite upd_seg by auto. repeat (rewrite <- app_assoc; simpl). auto. }
      rewrite Eu. rewrite nth_seg by auto. cbn [of_opt bindr]. rewrite upd_seg by auto.
      rewrite Hg. cbn [negb].
      match goal with |- context [update_mark ?sx _ _ _ _] => set (s1 := sx) end.
      assert (Wx : (0 < wt x)%Q) by (apply Epos; rewrite Ep; apply in_app_iff; left; apply in_app_iff; right; left; auto).
      assert (E1 : Est s1 (H1 ++ L) H1 (mkSlot (it x) (-1) (mk x)) (y :: R0) (g :: J) L D).
      { constructor; unfold s1; vcbn; auto; try lia.
        - intros i c A B C. assert (HW : forall i, i < v_h s - 1 -> W (H1 ++ mkSlot (it x) (-1) (mk x) :: y :: R0 ++ g :: J) i = W (v_s s) i).
          { intros j Hj. unfold W. rewrite El1, <- app_assoc, !nth_error_app1 by lia. auto. }
          rewrite !HW; unfold child in C; try lia. apply Ehp; auto. lia.
        - rewrite Ei. apply Permutation_app_tail. simpl. rewrite map_app. simpl. symmetry. apply Permutation_cons_append.
        - destruct Ec as [N1 N2]. split; vcbn; [|discriminate].
          rewrite N1, nmark_app, nmark_cons. change (nmark (@nil (@slot T))) with 0%Z. destruct (mk x); lia.
        - intros z Hz. apply Epos. rewrite Ep. apply in_app_iff in Hz. rewrite !in_app_iff. tauto.
        }
      assert (St1 : Strong s1 H1) by (intros z Hz; unfold s1; vcbn; apply St; apply in_app_iff; auto).
      destruct (update_good s1 (H1 ++ L) (it x) (wt x) (mk x) d) as (s' & -> & Gd' & (F1 & F2 & F3) & F4 & _).
      { right. do 6 eexists. eauto. } { auto. } { unfold s1; vcbn. discriminate. }
      unfold s1 in F1, F2, F3, F4. vcbn_in F1. vcbn_in F2. vcbn_in F3. vcbn_in F4.
      assert (G2 : Good s' xs).
      { eapply good_perm; [|exact Gd']. rewrite Ep. destruct x as [xi xw xm]; cbn [it wt mk]. rewrite <- app_assoc. simpl. apply Permutation_middle. }
      exists s'. split; auto. split; auto. split; [congruence|]. split; auto. split; auto. split; [lia|].
      intros _. destruct G2 as [Wm|(H2 & g2 & R2 & J2 & L2 & D2 & E2 & _)]; [|pose proof (es_r1 _ _ _ _ _ _ _ _ E2); lia].
      exfalso. pose proof (wm_k _ _ Wm) as A1. pose proof (wm_h _ _ Wm) as A2. pose proof (Permutation_length (wm_perm _ _ Wm)) as A3.
      rewrite (Permutation_length Ep), !app_length in A3. pose proof (Permutation_length Ei) as A4. rewrite app_length, !map_length, app_length in A4. simpl in *. lia.
    + destruct (Nat.ltb_spec (v_r s) 2) as [Hlt|Hlt]; [lia|].
      destruct H; [|simpl in Eh; lia]. simpl in Es.
      set (a := d_i d mod v_r s). assert (Ha : a < v_r s) by (apply Nat.mod_upper_bound; lia).
      replace (1 + v_r s - 1) with (v_r s) by lia.
      assert (Sw : exists l2, swap (v_s s) (1 + a) (v_r s) = Some l2 /\ exists R2 z, l2 = g :: R2 ++ z :: J /\ Permutation R (R2 ++ [z]) /\ length R2 = v_r s - 1).
      { unfold swap. rewrite Es. simpl (1 + a).
        destruct (snoc_cases R) as [-> | (R0 & y & ->)]; [simpl in Er; lia|]. rewrite app_length in Er; simpl in Er.
        assert (Ey : g :: (R0 ++ [y]) ++ J = (g :: R0) ++ y :: J) by (rewrite <- app_assoc; auto).
        rewrite Ey. rewrite (nth_seg (g :: R0) y J (v_r s)) by (simpl; lia).
        destruct (Nat.eq_dec a (length R0)) as [Ea|Ea].
        - rewrite (nth_seg (g :: R0) y J (S a)) by (simpl; lia). cbn [bindo].
          rewrite (upd_seg (g :: R0)) by (simpl; lia). rewrite (upd_seg (g :: R0)) by (simpl; lia).
          eexists; split; [reflexivity|]. exists R0, y. simpl. split; auto. split; auto. lia.
        - destruct (split_cons R0 a) as (P & z & Q & -> & LP); [lia|].
          assert (Ez : (g :: P ++ z :: Q) ++ y :: J = (g :: P) ++ z :: (Q ++ y :: J)) by (simpl; rewrite <- app_assoc; auto).
          rewrite Ez. rewrite (nth_seg (g :: P) z) by (simpl; lia). cbn [bindo]. rewrite (upd_seg (g :: P)) by (simpl; lia).
          rewrite app_length in Er; simpl in Er.
          assert (Ez2 : (g :: P) ++ y :: Q ++ y :: J = (g :: P ++ y :: Q) ++ y :: J) by (simpl; rewrite <- app_assoc; auto).
          rewrite Ez2. rewrite (upd_seg (g :: P ++ y :: Q)) by (simpl; rewrite app_length; simpl; lia).
          eexists; split; [reflexivity|]. exists (P ++ y :: Q), z. simpl. split; auto. split; [|rewrite app_length; simpl; lia].
          rewrite <- !app_assoc. simpl. apply perm_swap_at. }
      destruct Sw as (l2 & -> & R2 & z & -> & PR & LR). cbn [of_opt bindr].
      replace (g :: R2 ++ z :: J) with ((g :: R2) ++ z :: J) by auto. rewrite nth_seg by (simpl; lia). cbn [of_opt bindr]. rewrite upd_seg by (simpl; lia).
      eexists. split; [reflexivity|]. vcbn. split; [|repeat split; auto; lia].
      right. exists [], g, R2, (mkSlot (it z) (-1) (mk z) :: J), L, (it z :: D). split; [|intros q []].
      pose proof (est_tot_pos _ _ _ _ _ _ _ _ E) as Tp.
      constructor; vcbn; auto; try lia.
      * rewrite Eh. intros i c _ A. simpl in A. lia.
      * intros q Hq. pose proof (El q Hq) as A. assert (Wq : (0 < wt q)%Q) by (apply Epos; rewrite Ep; simpl; auto).
        apply Qle_trans with (wt q * qn (v_r s))%Q; auto.
        assert (B : (qn (v_r s - 1) * wt q <= qn (v_r s) * wt q)%Q) by (apply Qmult_le_compat_r; [apply qn_le; lia|lra]). lra.
      * rewrite Ei, PR, map_app. simpl. rewrite <- app_assoc. simpl. auto.
      * discriminate.
Qed.
End VarOptSem.
