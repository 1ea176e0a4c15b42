(** * Extraction, sorting, merging and rebuilding of the pairs of a table. *)
From Verif Require Import Base Bytes Arr BitPackModel CpcTable CpcTableProofs.
From Coq Require Import Sorted.
Local Open Scope nat_scope.

(** ** unwrap *)
Lemma wr_seg {A} (P : list A) x y Q i : i = length P -> wr i x (P ++ y :: Q) = Some (P ++ x :: Q).
Proof.
  intros ->. unfold wr. rewrite app_length. cbn [length]. destruct (Nat.ltb_spec (length P) (length P + S (length Q))); [|lia].
  rewrite upd_seg; auto.
Qed.

Lemma unwrap2_ok s : forall A M B l r1, l = length A -> r1 = length A + length M -> length M = length (somes s) ->
  exists A' B', unwrap2 s (A ++ M ++ B) l r1 = Ok (A' ++ B', length A', length A') /\ Permutation (A' ++ B') (A ++ B ++ somes s).
Proof.
  induction s as [|[x|] s IH]; intros A M B l r1 Hl Hr Hm; cbn [unwrap2 somes length] in *; subst l r1.
  - destruct M; [|discriminate]. cbn [app length]. rewrite Nat.add_0_r, app_nil_r. exists A, B. auto.
  - destruct M as [|m M]; [discriminate|]. cbn [app length] in *. rewrite wr_seg by auto. cbn [of_opt bindr].
    destruct (IH (A ++ [x]) M B (length A + 1) (length A + S (length M))) as (A' & B' & E & P).
    { rewrite app_length. auto. } { rewrite app_length. simpl. lia. } { lia. }
    exists A', B'. rewrite <- app_assoc in E. cbn [app] in E. split; auto. rewrite P, <- !app_assoc. cbn [app].
    apply Permutation_app_head. rewrite <- Permutation_middle. auto.
  - destruct (IH A M B (length A) (length A + length M)) as (A' & B' & E & P); eauto.
Qed.

Lemma unwrap1_ok vb s : forall A M B l r1, l = length A -> r1 = length A + length M -> length M = length (somes s) ->
  exists A' B', unwrap1 vb s (A ++ M ++ B) l r1 = Ok (A' ++ B', length A', length A') /\ Permutation (A' ++ B') (A ++ B ++ somes s).
Proof.
  induction s as [|[x|] s IH]; intros A M B l r1 Hl Hr Hm; cbn [unwrap1].
  - apply (unwrap2_ok []); auto.
  - cbn [somes length] in Hm. subst l r1. destruct (N.testbit x (N.of_nat (vb - 1))).
    + destruct (exists_last (l := M)) as (M' & m & ->); [destruct M; [discriminate|congruence]|].
      rewrite app_length in Hm |- *. cbn [length] in *. replace (length A + (length M' + 1)) with (S (length (A ++ M'))) by (rewrite app_length; lia).
      rewrite <- !app_assoc. cbn [app]. rewrite app_assoc, wr_seg by auto. cbn [of_opt bindr].
      destruct (IH A M' (x :: B) (length A) (length (A ++ M'))) as (A' & B' & E & P); auto. { rewrite app_length. auto. } { lia. }
      exists A', B'. rewrite <- app_assoc. split; auto. rewrite P. apply Permutation_app_head. cbn [app somes]. rewrite <- Permutation_middle. auto.
    + destruct M as [|m M]; [discriminate|]. cbn [app length] in *. rewrite wr_seg by auto. cbn [of_opt bindr].
      destruct (IH (A ++ [x]) M B (length A + 1) (length A + S (length M))) as (A' & B' & E & P).
      { rewrite app_length. auto. } { rewrite app_length. simpl. lia. } { lia. }
      exists A', B'. rewrite <- app_assoc in E. cbn [app] in E. split; auto. rewrite P, <- !app_assoc. cbn [app somes].
      apply Permutation_app_head. rewrite <- Permutation_middle. auto.
  - apply (unwrap2_ok (None :: s)); auto.
Qed.

Lemma unwrap_ok t : wf t -> exists out, unwrap t (t_n t) = Ok out /\ Permutation out (pairs t).
Proof.
  intros W. unfold unwrap. rewrite pairs_n by auto. unfold pairs. destruct (Nat.ltb_spec (length (somes (t_slots t))) 1) as [L|L].
  - destruct (somes (t_slots t)); [eauto|simpl in L; lia].
  - destruct (unwrap1_ok (t_vb t) (t_slots t) [] (repeat 0%N (length (somes (t_slots t)))) [] 0 (length (somes (t_slots t)))) as (A & B & E & P); auto.
    { rewrite repeat_length. auto. } { apply repeat_length. }
    cbn [app] in E. rewrite app_nil_r in E. rewrite E. cbn [bindr]. rewrite Nat.eqb_refl. eauto.
Qed.

(** ** The sort: always a permutation, and sorted when few moves are needed *)
Definition lt32 (l : list N) : Prop := Forall (fun x => (x < 4294967296)%N) l.
Lemma m32_small x : (x < 4294967296)%N -> m32 x = x.
Proof. intros. unfold m32. change 4294967295%N with (N.ones 32). rewrite N.land_ones. apply N.mod_small. auto. Qed.
Lemma map_m32 l : lt32 l -> map m32 l = l.
Proof. induction 1; simpl; auto. rewrite m32_small by auto. f_equal; auto. Qed.

Lemma shift_in_perm v rp : Permutation (fst (shift_in v rp)) (v :: rp).
Proof.
  induction rp as [|y rp IH]; cbn [shift_in]; auto. destruct (v <? m32 y)%N; [|auto]. destruct (shift_in v rp) as [q d]. cbn [fst] in *.
  rewrite IH. apply perm_swap.
Qed.
Lemma sins_perm x l : Permutation (sins x l) (x :: l).
Proof. induction l as [|y l IH]; simpl; auto. destruct (x <=? y)%N; auto. rewrite IH. apply perm_swap. Qed.
Lemma ssort_perm l : Permutation (ssort l) l.
Proof. induction l as [|x l IH]; simpl; auto. rewrite sins_perm, IH. auto. Qed.
Lemma isort_loop_perm limit rest : forall cost i rp, lt32 rp -> lt32 rest -> Permutation (isort_loop limit cost i rp rest) (rp ++ rest).
Proof.
  induction rest as [|x rest IH]; intros cost i rp Hr Hs; cbn [isort_loop].
  - rewrite app_nil_r. symmetry. apply Permutation_rev.
  - inversion Hs as [|? ? Hx Hs']; subst. rewrite m32_small by auto. pose proof (shift_in_perm x rp) as P.
    destruct (shift_in x rp) as [rp' d]. cbn [fst] in P.
    assert (Hr' : lt32 rp'). { eapply Permutation_Forall; [symmetry; exact P|]. constructor; auto. }
    assert (PR : Permutation (rev rp' ++ rest) (rp ++ x :: rest)).
    { rewrite <- Permutation_rev, P. cbn [app]. apply Permutation_middle. }
    destruct (limit <? cost + d).
    + rewrite map_m32. 2: { apply Forall_app; split; auto. apply Forall_rev; auto. }
      rewrite ssort_perm, firstn_skipn. auto.
    + rewrite IH by auto. rewrite P. cbn [app]. apply Permutation_middle.
Qed.
Lemma isort_perm a : lt32 a -> Permutation (isort a) a.
Proof.
  destruct a as [|x a]; cbn [isort]; auto. intros H. inversion H; subst. apply isort_loop_perm; auto. constructor; auto.
Qed.

(** Number of out-of-order pairs. *)
Fixpoint above (v : N) (l : list N) : nat := match l with [] => 0 | y :: r => (if (v <? y)%N then 1 else 0) + above v r end.
Fixpoint inversions (pre l : list N) : nat := match l with [] => 0 | x :: r => above x pre + inversions (x :: pre) r end.
Lemma above_perm v a b : Permutation a b -> above v a = above v b.
Proof. induction 1; simpl; lia. Qed.
Lemma inversions_perm l : forall a b, Permutation a b -> inversions a l = inversions b l.
Proof. induction l as [|x l IH]; intros a b P; cbn [inversions]; auto. rewrite (above_perm x a b P). f_equal. apply IH. auto. Qed.
Definition desc (l : list N) : Prop := StronglySorted (fun a b => (b <= a)%N) l.

Lemma above_desc_zero v l : desc l -> (forall y, In y l -> (y <= v)%N) -> above v l = 0.
Proof. induction l as [|y l IH]; intros D H; cbn [above]; auto. inversion D; subst. destruct (N.ltb_spec v y); [specialize (H y (or_introl eq_refl)); lia|]. apply IH; auto. intros; apply H; right; auto. Qed.
Lemma shift_in_spec v rp : lt32 rp -> desc rp -> desc (fst (shift_in v rp)) /\ snd (shift_in v rp) = above v rp.
Proof.
  induction rp as [|y rp IH]; intros L D; cbn [shift_in].
  - cbn. split; auto. constructor; constructor.
  - inversion L as [|? ? Ly L']; subst. inversion D as [|? ? D' Dy]; subst. rewrite m32_small by auto. cbn [above]. destruct (N.ltb_spec v y) as [G|G].
    + specialize (IH L' D'). pose proof (shift_in_perm v rp) as P. destruct (shift_in v rp) as [q d]. cbn [fst snd] in *. destruct IH as [I1 I2].
      split; [|lia]. constructor; auto. eapply Permutation_Forall; [symmetry; exact P|]. constructor; [lia|auto].
    + cbn [fst snd]. split.
      * constructor; [constructor; auto|]. constructor; [lia|]. rewrite Forall_forall in *. intros z Hz. specialize (Dy z Hz). lia.
      * rewrite above_desc_zero; auto. rewrite Forall_forall in Dy. intros z Hz. specialize (Dy z Hz). lia.
Qed.
Lemma rev_sorted l : desc l -> StronglySorted N.le (rev l).
Proof.
  induction 1 as [|x l H IH F]; cbn [rev]; [constructor|].
  assert (G : forall a b, StronglySorted N.le a -> Forall (fun y => (y <= b)%N) a -> StronglySorted N.le (a ++ [b])).
  { induction 1 as [|y a Hs Ha Hf]; intros Hb; cbn [app]. { constructor; constructor. } inversion Hb; subst. constructor; auto.
    apply Forall_app; split; auto. }
  apply G; auto. apply Forall_rev. auto.
Qed.
Lemma isort_loop_sorted limit rest : forall cost i rp, lt32 rp -> lt32 rest -> desc rp -> cost + inversions rp rest <= limit ->
  StronglySorted N.le (isort_loop limit cost i rp rest).
Proof.
  induction rest as [|x rest IH]; intros cost i rp Lr Ls D H; cbn [isort_loop inversions] in *.
  - apply rev_sorted; auto.
  - inversion Ls as [|? ? Lx Ls']; subst. rewrite m32_small by auto. pose proof (shift_in_perm x rp) as P.
    destruct (shift_in_spec x rp Lr D) as [D' A]. destruct (shift_in x rp) as [rp' d]. cbn [fst snd] in *. subst d.
    destruct (Nat.ltb_spec limit (cost + above x rp)); [lia|]. apply IH; auto.
    + eapply Permutation_Forall; [symmetry; exact P|]. constructor; auto.
    + rewrite (inversions_perm rest rp' (x :: rp)) by auto. lia.
Qed.
Lemma isort_sorted a : lt32 a -> inversions [] a <= 8 * length a -> StronglySorted N.le (isort a).
Proof.
  destruct a as [|x a]; cbn [isort]; [constructor|]. intros L H. inversion L; subst. apply isort_loop_sorted; auto.
  - constructor; auto.
  - constructor; constructor.
Qed.
Lemma above_le v l : above v l <= length l.
Proof. induction l as [|y l IH]; simpl; auto. destruct (v <? y)%N; lia. Qed.
Lemma inversions_le l : forall pre, 2 * inversions pre l <= length l * (2 * length pre + length l - 1).
Proof.
  induction l as [|x l IH]; intros pre; cbn [inversions length]; [lia|]. specialize (IH (x :: pre)). pose proof (above_le x pre). cbn [length] in IH.
  replace (2 * S (length pre) + length l - 1) with (2 * length pre + length l + 1) in IH by lia.
  replace (2 * length pre + S (length l) - 1) with (2 * length pre + length l) by lia. nia.
Qed.
Lemma isort_sorted_17 a : lt32 a -> length a <= 17 -> StronglySorted N.le (isort a).
Proof. intros L H. apply isort_sorted; auto. pose proof (inversions_le a []). cbn [length] in *. nia. Qed.

(** ** The in-place merge *)
Lemma ss_snoc (a : list N) b : StronglySorted N.le a -> Forall (fun y => (y <= b)%N) a -> StronglySorted N.le (a ++ [b]).
Proof.
  induction 1 as [|y a Hs Ha Hf]; intros Hb; cbn [app]. { constructor; constructor. } inversion Hb; subst. constructor; auto.
  apply Forall_app; split; auto.
Qed.
(** Both inputs sorted, and what is already written is below them. *)
Record msort (C As Bs : list N) : Prop := {
  ms_a : lt32 As; ms_b : lt32 Bs; ms_c : StronglySorted N.le C; ms_sa : StronglySorted N.le As; ms_sb : StronglySorted N.le Bs;
  ms_ca : forall c y, In c C -> In y As -> (c <= y)%N; ms_cb : forall c y, In c C -> In y Bs -> (c <= y)%N }.
Lemma msort_a C a As Bs : msort C (a :: As) Bs -> (forall y, In y Bs -> (a <= y)%N) -> msort (C ++ [a]) As Bs.
Proof.
  intros [H1 H2 H3 H4 H5 H6 H7] Hb. inversion H1; subst. inversion H4 as [|? ? S Fa]; subst. rewrite Forall_forall in Fa. constructor; auto.
  - apply ss_snoc; auto. apply Forall_forall. intros c Hc. apply H6; auto. left; auto.
  - intros c y Hc Hy. apply in_app_iff in Hc. destruct Hc as [Hc|[<-|[]]]; [apply H6; auto; right; auto|auto].
  - intros c y Hc Hy. apply in_app_iff in Hc. destruct Hc as [Hc|[<-|[]]]; auto.
Qed.
Lemma msort_b C b As Bs : msort C As (b :: Bs) -> (forall y, In y As -> (b <= y)%N) -> msort (C ++ [b]) As Bs.
Proof.
  intros [H1 H2 H3 H4 H5 H6 H7] Hb. inversion H2; subst. inversion H5 as [|? ? S Fa]; subst. rewrite Forall_forall in Fa. constructor; auto.
  - apply ss_snoc; auto. apply Forall_forall. intros c Hc. apply H7; auto. left; auto.
  - intros c y Hc Hy. apply in_app_iff in Hc. destruct Hc as [Hc|[<-|[]]]; auto.
  - intros c y Hc Hy. apply in_app_iff in Hc. destruct Hc as [Hc|[<-|[]]]; [apply H7; auto; right; auto|auto].
Qed.

Lemma merge_loop_perm fuel : forall A0 As C J Bs, length J = length As -> fuel = length As + length Bs ->
  exists R, merge_loop fuel (A0 ++ As) (C ++ J ++ Bs) (length A0) (length A0 + length As) (length C + length J) (length C + length J + length Bs) (length C) = Ok R /\
    Permutation R (C ++ As ++ Bs) /\ (msort C As Bs -> StronglySorted N.le R).
Proof.
  induction fuel as [|f IH]; intros A0 As C J Bs HJ Hf; cbn [merge_loop].
  - destruct As; [|simpl in Hf; lia]. destruct Bs; [|simpl in Hf; lia]. destruct J; [|discriminate]. eexists. split; [reflexivity|]. split; [auto|].
    intros M. cbn [app]. rewrite app_nil_r. apply (ms_c _ _ _ M).
  - assert (TA : forall a As' j J', As = a :: As' -> J = j :: J' -> (msort C As Bs -> forall y, In y Bs -> (a <= y)%N) ->
      exists R, merge_loop f (A0 ++ As) (C ++ a :: J' ++ Bs) (length A0 + 1) (length A0 + length As) (length C + length J) (length C + length J + length Bs) (length C + 1) = Ok R /\
        Permutation R (C ++ As ++ Bs) /\ (msort C As Bs -> StronglySorted N.le R)).
    { intros a As' j J' -> -> HO. cbn [length] in *. destruct (IH (A0 ++ [a]) As' (C ++ [a]) J' Bs) as (R & E & P & S); [lia|lia|].
      exists R. rewrite <- !app_assoc, !app_length in E. cbn [app length] in E.
      replace (length A0 + Datatypes.S (length As')) with (length A0 + 1 + length As') by lia. replace (length C + Datatypes.S (length J')) with (length C + 1 + length J') by lia.
      split; auto. split; [rewrite P, <- !app_assoc; auto|]. intros M. apply S. apply msort_a; auto. }
    assert (TB : forall b Bs', Bs = b :: Bs' -> (msort C As Bs -> forall y, In y As -> (b <= y)%N) ->
      exists bc R, wr (length C) b (C ++ J ++ Bs) = Some bc /\
        merge_loop f (A0 ++ As) bc (length A0) (length A0 + length As) (length C + length J + 1) (length C + length J + length Bs) (length C + 1) = Ok R /\
        Permutation R (C ++ As ++ Bs) /\ (msort C As Bs -> StronglySorted N.le R)).
    { intros b Bs' -> HO. cbn [length] in *. destruct J as [|j J'].
      - cbn [app length] in *. rewrite wr_seg by auto. destruct As; [|discriminate]. destruct (IH A0 [] (C ++ [b]) [] Bs') as (R & E & P & S); [auto|simpl in *; lia|].
        exists (C ++ b :: Bs'), R. split; auto. rewrite !app_length in E. rewrite <- app_assoc in E. cbn [app length] in *.
        replace (length C + 0 + 1) with (length C + 1 + 0) by lia. replace (length C + 0 + Datatypes.S (length Bs')) with (length C + 1 + 0 + length Bs') by lia.
        split; auto. split; [rewrite P, <- app_assoc; auto|]. intros M. apply S. apply msort_b; auto.
      - cbn [app length] in *. rewrite wr_seg by auto. destruct (IH A0 As (C ++ [b]) (J' ++ [b]) Bs') as (R & E & P & S).
        { rewrite app_length. simpl. lia. } { lia. }
        eexists _, R. split; [reflexivity|]. rewrite !app_length in E. rewrite <- !app_assoc in E. cbn [app length] in *.
        replace (length C + Datatypes.S (length J') + 1) with (length C + 1 + (length J' + 1)) by lia.
        replace (length C + Datatypes.S (length J') + Datatypes.S (length Bs')) with (length C + 1 + (length J' + 1) + length Bs') by lia.
        split; auto. split; [|intros M; apply S; apply msort_b; auto]. rewrite P, <- app_assoc. cbn [app]. apply Permutation_app_head. rewrite <- Permutation_middle. auto. }
    assert (NB : forall b Bs', Bs = b :: Bs' -> nth_error (C ++ J ++ Bs) (length C + length J) = Some b).
    { intros b Bs' ->. rewrite app_assoc. apply nth_seg. rewrite app_length. auto. }
    assert (WA : forall a j J', J = j :: J' -> wr (length C) a (C ++ J ++ Bs) = Some (C ++ a :: J' ++ Bs)).
    { intros a j J' ->. cbn [app]. apply wr_seg. auto. }
    assert (NA : forall a As', As = a :: As' -> nth_error (A0 ++ As) (length A0) = Some a).
    { intros a As' ->. apply nth_seg. auto. }
    destruct (Nat.leb_spec (length C + length J + length Bs) (length C + length J)) as [G|G].
    + destruct Bs; [|simpl in G; lia]. destruct As as [|a As']; [simpl in Hf; lia|]. destruct J as [|j J']; [discriminate|].
      rewrite (NA _ _ eq_refl). cbn [of_opt bindr]. rewrite (WA a _ _ eq_refl). cbn [of_opt bindr]. apply (TA a As' j J'); auto. intros _ y [].
    + destruct Bs as [|b Bs']; [simpl in G; lia|].
      destruct (Nat.leb_spec (length A0 + length As) (length A0)) as [GA|GA].
      * destruct (TB b Bs' eq_refl) as (bc & R & EW & E & P & S). { destruct As; [|simpl in GA; lia]. intros _ y []. }
        rewrite (NB _ _ eq_refl). cbn [of_opt bindr]. rewrite EW. cbn [of_opt bindr]. eauto.
      * destruct As as [|a As']; [simpl in GA; lia|]. destruct J as [|j J']; [discriminate|].
        rewrite (NA _ _ eq_refl), (NB _ _ eq_refl). cbn [of_opt bindr]. destruct (N.ltb_spec (m32 a) (m32 b)) as [Q|Q].
        -- rewrite (WA a _ _ eq_refl). cbn [of_opt bindr]. apply (TA a As' j J'); auto. intros M y Hy. destruct M as [Ma Mb _ _ Msb _ _].
           inversion Ma; subst. inversion Mb; subst. inversion Msb as [|? ? _ Fb]; subst. rewrite !m32_small in Q by auto. destruct Hy as [<-|Hy]; [lia|]. rewrite Forall_forall in Fb. specialize (Fb y Hy). lia.
        -- destruct (TB b Bs' eq_refl) as (bc & R & EW & E & P & S).
           { intros M y Hy. destruct M as [Ma Mb _ Msa _ _ _].
             inversion Ma; subst. inversion Mb; subst. inversion Msa as [|? ? _ Fb]; subst. rewrite !m32_small in Q by auto. destruct Hy as [<-|Hy]; [lia|]. rewrite Forall_forall in Fb. specialize (Fb y Hy). lia. }
           rewrite EW. cbn [of_opt bindr]. eauto.
Qed.
Lemma merge_pairs_perm A B J : length J = length A -> exists R, merge_pairs A (J ++ B) (length A) (length A) (length B) = Ok R /\ Permutation R (A ++ B) /\
  (lt32 A -> lt32 B -> StronglySorted N.le A -> StronglySorted N.le B -> StronglySorted N.le R).
Proof.
  intros HJ. unfold merge_pairs. destruct (merge_loop_perm (length A + length B) [] A [] J B HJ eq_refl) as (R & E & P & S).
  cbn [app length plus] in E. rewrite HJ in E. exists R. split; auto. split; auto. intros. apply S. constructor; auto; [constructor|intros ? ? []|intros ? ? []].
Qed.

(** ** Rebuilding the table *)
Lemma must_insert_all_ok l : forall vb lg n s, wfs vb lg s -> lg <= vb -> NoDup (somes s ++ l) -> (forall x, In x l -> (x < 2 ^ N.of_nat vb)%N) ->
  length (somes s) + length l < 2 ^ lg ->
  exists s', must_insert_all (mkTable lg vb n s) l = Ok (mkTable lg vb n s') /\ wfs vb lg s' /\ Permutation (somes s') (somes s ++ l).
Proof.
  induction l as [|x l IH]; intros vb lg n s W Hv ND Hlt Hc; cbn [must_insert_all].
  - exists s. rewrite app_nil_r. auto.
  - cbn [length] in Hc. unfold must_insert. destruct (lookup_spec vb lg n s x W Hv) as (p & HL & Hp & HC); [apply Hlt; left; auto|lia|].
    rewrite HL. cbn [bindr t_slots t_lg t_vb t_n]. destruct HC as [[Ha Hin]|(He & Hni & Hr)].
    + exfalso. apply NoDup_remove_2 in ND. apply ND. apply in_or_app. auto.
    + rewrite He. cbn [bindr]. pose proof (somes_upd_in s p x He) as P.
      assert (W' : wfs vb lg (upd p (Some x) s)) by (apply wfs_insert; auto; apply Hlt; left; auto).
      destruct (IH vb lg n (upd p (Some x) s) W' Hv) as (s' & E & Ws & Ps).
      * eapply Permutation_NoDup; [|exact ND]. rewrite P. cbn [app]. symmetry. apply Permutation_middle.
      * intros y Hy. apply Hlt. right; auto.
      * rewrite (Permutation_length P). cbn [length]. lia.
      * exists s'. split; auto. split; auto. rewrite Ps, P. cbn [app]. apply Permutation_middle.
Qed.

Lemma choose_lg_ok n L : 4 * n <= 3 * 2 ^ L -> forall fuel lg, lg <= L -> L - lg <= fuel -> exists r, choose_lg fuel lg n = Ok r /\ lg <= r <= L /\ 4 * n <= 3 * 2 ^ r.
Proof.
  intros HL. induction fuel as [|f IH]; intros lg H1 H2; cbn [choose_lg]; destruct (Nat.ltb_spec (3 * 2 ^ lg) (4 * n)) as [G|G]; eauto.
  - assert (lg = L) by lia. subst. lia.
  - assert (lg <> L) by (intros ->; lia). destruct (IH (lg + 1)) as (r & E & Hr & Hc); [lia|lia|]. exists r. split; auto. split; auto. lia.
Qed.

Lemma from_pairs_ok ps lgK L : NoDup ps -> (forall x, In x ps -> (x < 2 ^ N.of_nat (6 + lgK))%N) -> 2 <= L <= 26 -> L <= 6 + lgK -> 4 * length ps <= 3 * 2 ^ L ->
  exists t, from_pairs ps lgK = Ok t /\ wf t /\ t_vb t = 6 + lgK /\ Permutation (pairs t) ps.
Proof.
  intros ND Hlt HL Hv Hc. unfold from_pairs. destruct (choose_lg_ok (length ps) L Hc 64 2) as (lg & E & Hr & Hl); [lia|lia|].
  rewrite E. cbn [bindr]. unfold new_table. replace ((lg <? 2) || (26 <? lg)) with false by lia. cbn [bindr].
  destruct (must_insert_all_ok ps (6 + lgK) lg 0 (repeat None (2 ^ lg))) as (s & Es & Ws & Ps); auto.
  - apply wfs_new.
  - lia.
  - rewrite somes_repeat. auto.
  - rewrite somes_repeat. cbn [length]. pose proof (pow2_pos lg). lia.
  - rewrite Es. cbn [bindr t_lg t_vb t_slots]. eexists. split; [reflexivity|]. unfold pairs. cbn [t_slots t_vb].
    rewrite somes_repeat in Ps. cbn [app] in Ps. split; [|auto]. constructor; cbn [t_lg t_vb t_n t_slots]; auto; try lia.
    symmetry. apply Permutation_length. auto.
Qed.
