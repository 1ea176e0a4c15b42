(** * Proofs about KllModel: the array code refines operations on a list of levels. *)
From Verif Require Import Base Bytes Arr SearchModel KllModel.
Local Open Scope nat_scope.

Section KP.
Context {C : Type}.
Variables less ceq : C -> C -> bool.
Variable zero : C.
Variable sort : list C -> list C.
Variable coin : nat -> bool.
Hypothesis sort_perm : forall l, Permutation l (sort l).
Implicit Types (P Q R G D A B M : list C).

(** Every other element, from position 0 ([false]) or 1 ([true]). *)
Fixpoint sel (o : bool) (l : list C) : list C :=
  match l with a :: b :: t => (if o then b else a) :: sel o t | _ => [] end.

Fixpoint mergel (A : list C) : list C -> list C :=
  match A with
  | [] => fun B => B
  | x :: A' =>
    fix mb (B : list C) : list C :=
      match B with
      | [] => x :: A'
      | y :: B' => if less x y then x :: mergel A' (y :: B') else y :: mb B'
      end
  end.

Lemma mergel_nil_l B : mergel [] B = B.
Proof. destruct B; auto. Qed.
Lemma mergel_nil_r A : mergel A [] = A.
Proof. destruct A; auto. Qed.
Lemma mergel_cons x A y B : mergel (x :: A) (y :: B) = if less x y then x :: mergel A (y :: B) else y :: mergel (x :: A) B.
Proof. reflexivity. Qed.

Lemma mergel_perm A : forall B, Permutation (A ++ B) (mergel A B).
Proof.
  induction A as [|x A IH]; intros B; [rewrite mergel_nil_l; auto|].
  induction B as [|y B IHB]; [rewrite mergel_nil_r, app_nil_r; auto|].
  rewrite mergel_cons. destruct (less x y).
  - simpl. constructor. apply IH.
  - eapply perm_trans; [symmetry; apply Permutation_middle|]. constructor. auto.
Qed.

Lemma even_ind (T : list C -> Prop) : T [] -> (forall a b l, T l -> T (a :: b :: l)) -> forall c l, length l = 2 * c -> T l.
Proof.
  intros H0 H1. induction c; intros l H.
  - destruct l; auto; simpl in H; lia.
  - destruct l as [|a [|b l]]; simpl in H; try lia. apply H1. apply IHc. lia.
Qed.

Lemma sel_length o c l : length l = 2 * c -> length (sel o l) = c.
Proof. revert l; induction c; intros l H; destruct l as [|a [|b l]]; simpl in *; try lia. f_equal. apply IHc. lia. Qed.

Lemma sel_app o c l l' : length l = 2 * c -> sel o (l ++ l') = sel o l ++ sel o l'.
Proof. revert l; induction c; intros l H; destruct l as [|a [|b l]]; simpl in *; try lia; auto. f_equal. apply IHc. lia. Qed.

Lemma sel_perm o c l : length l = 2 * c -> Permutation l (sel o l ++ sel (negb o) l).
Proof.
  revert l; induction c; intros l H; destruct l as [|a [|b l]]; simpl in H; try lia; auto.
  specialize (IHc l ltac:(lia)). cbn [sel]. destruct o; cbn [negb].
  - simpl. eapply perm_trans; [apply perm_swap|]. constructor. apply Permutation_cons_app. auto.
  - simpl. constructor. apply Permutation_cons_app. auto.
Qed.

(** ** Loops *)

Lemma snoc_split (l : list C) : 0 < length l -> exists l' x, l = l' ++ [x] /\ length l' = length l - 1.
Proof.
  intros H. destruct (snoc_cases l) as [->|(l' & x & ->)]; [simpl in H; lia|]. exists l', x. split; auto. rewrite app_length. simpl. lia.
Qed.

Lemma halve_down_spec (o : bool) : forall c P D G R Q i j, length G = length D -> length R = 2 * c -> i = length P + length D ->
  j = length P + 2 * length D + (if o then 1 else 0) ->
  exists G', halve_down_loop c (P ++ D ++ G ++ R ++ Q) i j = Some (P ++ (D ++ sel o R) ++ G' ++ Q) /\ length G' = length D + c.
Proof.
  induction c as [|c IH]; intros P D G R Q i j HG HR Hi Hj.
  - destruct R; [|simpl in HR; lia]. exists G. cbn [halve_down_loop sel]. rewrite ?app_nil_r, <- ?app_assoc. split; [auto|lia].
  - destruct R as [|a [|b R]]; simpl in HR; try lia. cbn [halve_down_loop].
    assert (Hx : nth_error (P ++ D ++ G ++ (a :: b :: R) ++ Q) j = Some (if o then b else a)).
    { destruct o.
      - replace (P ++ D ++ G ++ (a :: b :: R) ++ Q) with ((P ++ D ++ G ++ [a]) ++ b :: R ++ Q) by (rewrite <- !app_assoc; auto).
        apply nth_seg. rewrite !app_length. simpl. lia.
      - replace (P ++ D ++ G ++ (a :: b :: R) ++ Q) with ((P ++ D ++ G) ++ a :: b :: R ++ Q) by (rewrite <- !app_assoc; auto).
        apply nth_seg. rewrite !app_length. lia. }
    rewrite Hx. cbn [bindo].
    destruct (G ++ [a; b]) as [|g G1] eqn:EG; [destruct G; discriminate|].
    assert (HG1 : length G1 = S (length D)). { apply (f_equal (@length C)) in EG. rewrite app_length in EG. simpl in EG. lia. }
    replace (P ++ D ++ G ++ (a :: b :: R) ++ Q) with ((P ++ D) ++ g :: G1 ++ R ++ Q).
    2:{ change (g :: G1 ++ R ++ Q) with ((g :: G1) ++ R ++ Q). rewrite <- EG, <- !app_assoc. auto. }
    rewrite wr_seg by (rewrite app_length; auto). cbn [bindo].
    replace ((P ++ D) ++ (if o then b else a) :: G1 ++ R ++ Q) with (P ++ (D ++ [if o then b else a]) ++ G1 ++ R ++ Q) by (rewrite <- !app_assoc; auto).
    destruct (IH P (D ++ [if o then b else a]) G1 R Q (i + 1) (j + 2)) as (G' & HE & HL); rewrite ?app_length; simpl length; try lia.
    exists G'. rewrite HE. split; [|rewrite app_length in HL; simpl in HL; lia]. cbn [sel]. rewrite <- !app_assoc. auto.
Qed.

Lemma halve_up_spec (o : bool) : forall c P R G D Q i (j : Z), length G = length D -> length R = 2 * c ->
  i = length P + length R + length G - 1 -> j = (Z.of_nat (length P + length R) - 1 - (if o then 0 else 1))%Z ->
  exists G', halve_up_loop c (P ++ R ++ G ++ D ++ Q) i j = Some (P ++ G' ++ sel o R ++ D ++ Q) /\ length G' = length D + c.
Proof.
  induction c as [|c IH]; intros P R G D Q i j HG HR Hi Hj.
  - destruct R; [|simpl in HR; lia]. exists G. cbn. split; [auto|lia].
  - destruct (snoc_split R ltac:(lia)) as (R1 & b & -> & HR1). destruct (snoc_split R1 ltac:(lia)) as (R2 & a & -> & HR2).
    rewrite !app_length in *. simpl length in *. cbn [halve_up_loop].
    assert (Hx : at_ (P ++ ((R2 ++ [a]) ++ [b]) ++ G ++ D ++ Q) j = Some (if o then b else a)).
    { unfold at_. destruct (Z.ltb_spec j 0); [destruct o; lia|]. destruct o.
      - replace (P ++ ((R2 ++ [a]) ++ [b]) ++ G ++ D ++ Q) with ((P ++ R2 ++ [a]) ++ b :: G ++ D ++ Q) by (rewrite <- !app_assoc; auto).
        apply nth_seg. rewrite !app_length. simpl. lia.
      - replace (P ++ ((R2 ++ [a]) ++ [b]) ++ G ++ D ++ Q) with ((P ++ R2) ++ a :: b :: G ++ D ++ Q) by (rewrite <- !app_assoc; auto).
        apply nth_seg. rewrite !app_length. simpl. lia. }
    rewrite Hx. cbn [bindo].
    destruct (snoc_split ([a; b] ++ G)) as (G1 & g & EG & HG1); [rewrite app_length; simpl; lia|].
    rewrite app_length in HG1. simpl length in HG1.
    replace (P ++ ((R2 ++ [a]) ++ [b]) ++ G ++ D ++ Q) with ((P ++ R2 ++ G1) ++ g :: D ++ Q).
    2:{ replace ((P ++ R2 ++ G1) ++ g :: D ++ Q) with (P ++ R2 ++ (G1 ++ [g]) ++ D ++ Q) by (rewrite <- !app_assoc; auto).
        rewrite <- EG, <- !app_assoc. auto. }
    rewrite wr_seg by (rewrite !app_length; lia). cbn [bindo].
    replace ((P ++ R2 ++ G1) ++ (if o then b else a) :: D ++ Q) with (P ++ R2 ++ G1 ++ ((if o then b else a) :: D) ++ Q) by (rewrite <- !app_assoc; auto).
    destruct (IH P R2 G1 ((if o then b else a) :: D) Q (i - 1) (j - 2)%Z) as (G' & HE & HL); simpl length; try lia.
    exists G'. rewrite HE. split; [|simpl in HL; lia].
    rewrite <- (app_assoc R2). rewrite (sel_app o c) by lia. cbn [sel app]. rewrite <- !app_assoc. auto.
Qed.

Lemma merge_ip_spec : forall cnt P Ad Ar M G Br Q, length G = length Ar -> cnt = length Ar + length Br ->
  merge_loop less (@nth_error C) (@nth_error C) cnt (P ++ Ad ++ Ar ++ M ++ G ++ Br ++ Q)
    (length P + length Ad) (length P + length Ad + length Ar)
    (length P + length Ad + length Ar + length M + length G) (length P + length Ad + length Ar + length M + length G + length Br)
    (length P + length Ad + length Ar + length M) = Some (P ++ Ad ++ Ar ++ M ++ mergel Ar Br ++ Q).
Proof.
  (* the buffer after writing [v] at the end of [M] *)
  assert (W : forall P Ad Ar M G Br Q v, length G = length Ar -> (Ar <> [] \/ Br <> []) -> 
     wr (length P + length Ad + length Ar + length M) v (P ++ Ad ++ Ar ++ M ++ G ++ Br ++ Q) =
     Some (P ++ Ad ++ Ar ++ (M ++ [v]) ++ skipn 1 (G ++ Br ++ Q))).
  { intros P Ad Ar M G Br Q v HG HN. destruct (G ++ Br ++ Q) as [|g T] eqn:E.
    - destruct G; [|discriminate]. destruct Br; [|discriminate]. destruct Ar; [|simpl in HG; lia]. destruct HN; congruence.
    - replace (P ++ Ad ++ Ar ++ M ++ g :: T) with ((P ++ Ad ++ Ar ++ M) ++ g :: T) by (rewrite <- !app_assoc; auto).
      rewrite wr_seg by (rewrite !app_length; lia). f_equal. rewrite <- !app_assoc. auto. }
  assert (TakeB : forall cnt P Ad Ar M G y Br Q, length G = length Ar -> 
     (forall P Ad Ar M G Br Q, length G = length Ar -> cnt = length Ar + length Br ->
        merge_loop less (@nth_error C) (@nth_error C) cnt (P ++ Ad ++ Ar ++ M ++ G ++ Br ++ Q)
        (length P + length Ad) (length P + length Ad + length Ar)
        (length P + length Ad + length Ar + length M + length G) (length P + length Ad + length Ar + length M + length G + length Br)
        (length P + length Ad + length Ar + length M) = Some (P ++ Ad ++ Ar ++ M ++ mergel Ar Br ++ Q)) ->
     cnt = length Ar + length Br ->
     merge_loop less (@nth_error C) (@nth_error C) cnt (P ++ Ad ++ Ar ++ (M ++ [y]) ++ skipn 1 (G ++ (y :: Br) ++ Q))
        (length P + length Ad) (length P + length Ad + length Ar)
        (length P + length Ad + length Ar + length M + length G + 1) (length P + length Ad + length Ar + length M + length G + length (y :: Br))
        (length P + length Ad + length Ar + length M + 1) = Some (P ++ Ad ++ Ar ++ M ++ (y :: mergel Ar Br) ++ Q)).
  { intros cnt P Ad Ar M G y Br Q HG IH Hc.
    assert (E : exists G', skipn 1 (G ++ (y :: Br) ++ Q) = G' ++ Br ++ Q /\ length G' = length G).
    { destruct G as [|g G]; [exists []; auto|]. exists (G ++ [y]). split; [simpl; rewrite <- app_assoc; auto|rewrite app_length; simpl; lia]. }
    destruct E as (G' & -> & HG').
    specialize (IH P Ad Ar (M ++ [y]) G' Br Q ltac:(lia) Hc). rewrite app_length in IH. simpl length in IH.
    etransitivity; [|etransitivity; [exact IH|f_equal; rewrite <- !app_assoc; auto]].
      f_equal; first [lia | simpl; lia | rewrite <- ?app_assoc; auto]. }
  induction cnt as [|cnt IH]; intros P Ad Ar M G Br Q HG Hc.
  - destruct Ar; [|simpl in Hc; lia]. destruct Br; [|simpl in Hc; lia]. destruct G; [|simpl in HG; lia]. cbn. auto.
  - cbn [merge_loop].
    destruct (Nat.eqb_spec (length P + length Ad) (length P + length Ad + length Ar)) as [EA|EA].
    { destruct Ar as [|? ?]; [|simpl in EA; lia]. destruct G; [|simpl in HG; lia]. destruct Br as [|y Br]; [simpl in Hc; lia|].
      assert (Hy : nth_error (P ++ Ad ++ [] ++ M ++ [] ++ (y :: Br) ++ Q) (length P + length Ad + length (@nil C) + length M + length (@nil C)) = Some y).
      { replace (P ++ Ad ++ [] ++ M ++ [] ++ (y :: Br) ++ Q) with ((P ++ Ad ++ M) ++ y :: Br ++ Q) by (rewrite <- !app_assoc; auto).
        apply nth_seg. rewrite !app_length. simpl. lia. }
      rewrite Hy. cbn [bindo]. rewrite W by (auto; right; discriminate). cbn [bindo].
      rewrite TakeB by (auto; simpl in Hc; simpl; lia). auto. }
    destruct (Nat.eqb_spec (length P + length Ad + length Ar + length M + length G) (length P + length Ad + length Ar + length M + length G + length Br)) as [EB|EB].
    { destruct Br as [|? ?]; [|simpl in EB; lia]. destruct Ar as [|x Ar]; [simpl in EA; lia|].
      assert (Hx : nth_error (P ++ Ad ++ (x :: Ar) ++ M ++ G ++ [] ++ Q) (length P + length Ad) = Some x).
      { rewrite app_assoc. apply nth_seg. rewrite app_length. auto. }
      rewrite Hx. cbn [bindo]. rewrite W by (auto; left; discriminate). cbn [bindo].
      destruct G as [|g G]; [simpl in HG; lia|]. cbn [skipn app].
      specialize (IH P (Ad ++ [x]) Ar (M ++ [x]) G [] Q ltac:(simpl in HG; lia) ltac:(simpl in Hc; simpl; lia)).
      rewrite !app_length in IH. simpl length in IH. simpl length. rewrite mergel_nil_r in *.
      etransitivity; [|etransitivity; [exact IH|f_equal; rewrite <- !app_assoc; auto]].
      f_equal; first [lia | simpl; lia | rewrite <- ?app_assoc; auto]. }
    destruct Ar as [|x Ar]; [simpl in EA; lia|]. destruct Br as [|y Br]; [simpl in EB; lia|].
    assert (Hx : nth_error (P ++ Ad ++ (x :: Ar) ++ M ++ G ++ (y :: Br) ++ Q) (length P + length Ad) = Some x).
    { rewrite app_assoc. apply nth_seg. rewrite app_length. auto. }
    assert (Hy : nth_error (P ++ Ad ++ (x :: Ar) ++ M ++ G ++ (y :: Br) ++ Q) (length P + length Ad + length (x :: Ar) + length M + length G) = Some y).
    { replace (P ++ Ad ++ (x :: Ar) ++ M ++ G ++ (y :: Br) ++ Q) with ((P ++ Ad ++ (x :: Ar) ++ M ++ G) ++ y :: Br ++ Q) by (rewrite <- !app_assoc; auto).
      apply nth_seg. rewrite !app_length. simpl. lia. }
    rewrite Hx, Hy. cbn [bindo]. rewrite !W by (auto; left; discriminate). cbn [bindo]. rewrite mergel_cons.
    destruct (less x y).
    + destruct G as [|g G]; [simpl in HG; lia|]. cbn [skipn app].
      specialize (IH P (Ad ++ [x]) Ar (M ++ [x]) G (y :: Br) Q ltac:(simpl in HG; lia) ltac:(simpl in Hc; simpl; lia)).
      rewrite !app_length in IH. simpl length in IH. simpl length.
      etransitivity; [|etransitivity; [exact IH|f_equal; rewrite <- !app_assoc; auto]].
      f_equal; first [lia | simpl; lia | rewrite <- ?app_assoc; auto].
    + apply TakeB; auto. simpl in Hc. simpl. lia.
Qed.

Lemma merge_sep_spec : forall cnt PA Ar QA PB Br QB D G Q, cnt = length Ar + length Br -> length G = cnt ->
  merge_loop less (fun _ => nth_error (PA ++ Ar ++ QA)) (fun _ => nth_error (PB ++ Br ++ QB)) cnt (D ++ G ++ Q)
    (length PA) (length PA + length Ar) (length PB) (length PB + length Br) (length D) = Some (D ++ mergel Ar Br ++ Q).
Proof.
  induction cnt as [|cnt IH]; intros PA Ar QA PB Br QB D G Q Hc HG.
  - destruct Ar; [|simpl in Hc; lia]. destruct Br; [|simpl in Hc; lia]. destruct G; [|simpl in HG; lia]. auto.
  - destruct G as [|g G]; [simpl in HG; lia|]. simpl in HG.
    assert (TA : forall x Ar', cnt = length Ar' + length Br ->
      merge_loop less (fun _ => nth_error (PA ++ (x :: Ar') ++ QA)) (fun _ => nth_error (PB ++ Br ++ QB)) cnt (D ++ x :: G ++ Q)
        (length PA + 1) (length PA + length (x :: Ar')) (length PB) (length PB + length Br) (length D + 1) = Some (D ++ x :: mergel Ar' Br ++ Q)).
    { intros x Ar' Hx. specialize (IH (PA ++ [x]) Ar' QA PB Br QB (D ++ [x]) G Q Hx ltac:(lia)).
      rewrite !app_length in IH. simpl length in *. rewrite <- !app_assoc in IH. simpl app in IH. simpl app.
      replace (length PA + S (length Ar')) with (length PA + 1 + length Ar') by lia. exact IH. }
    assert (TB : forall y Br', cnt = length Ar + length Br' ->
      merge_loop less (fun _ => nth_error (PA ++ Ar ++ QA)) (fun _ => nth_error (PB ++ (y :: Br') ++ QB)) cnt (D ++ y :: G ++ Q)
        (length PA) (length PA + length Ar) (length PB + 1) (length PB + length (y :: Br')) (length D + 1) = Some (D ++ y :: mergel Ar Br' ++ Q)).
    { intros y Br' Hy. specialize (IH PA Ar QA (PB ++ [y]) Br' QB (D ++ [y]) G Q Hy ltac:(lia)).
      rewrite !app_length in IH. simpl length in *. rewrite <- !app_assoc in IH. simpl app in IH. simpl app.
      replace (length PB + S (length Br')) with (length PB + 1 + length Br') by lia. exact IH. }
    cbn [merge_loop]. change ((g :: G) ++ Q) with (g :: G ++ Q).
    destruct (Nat.eqb_spec (length PA) (length PA + length Ar)) as [EA|EA].
    { destruct Ar as [|? ?]; [|simpl in EA; lia]. destruct Br as [|y Br]; [simpl in Hc; lia|]. simpl in Hc.
      rewrite (nth_seg PB y (Br ++ QB)) by auto. cbn [bindo]. rewrite wr_seg by auto. cbn [bindo]. rewrite TB by (simpl; lia). auto. }
    destruct (Nat.eqb_spec (length PB) (length PB + length Br)) as [EB|EB].
    { destruct Br as [|? ?]; [|simpl in EB; lia]. destruct Ar as [|x Ar]; [simpl in EA; lia|]. simpl in Hc.
      rewrite (nth_seg PA x (Ar ++ QA)) by auto. cbn [bindo]. rewrite wr_seg by auto. cbn [bindo]. rewrite TA by (simpl; lia). rewrite !mergel_nil_r. auto. }
    destruct Ar as [|x Ar]; [simpl in EA; lia|]. destruct Br as [|y Br]; [simpl in EB; lia|]. simpl in Hc.
    rewrite (nth_seg PA x (Ar ++ QA)), (nth_seg PB y (Br ++ QB)) by auto. cbn [bindo]. rewrite !wr_seg by auto. cbn [bindo].
    rewrite mergel_cons. destruct (less x y).
    + rewrite TA by (simpl; lia). auto.
    + rewrite TB by (simpl; lia). auto.
Qed.

Lemma copy_sep_spec : forall R PS QS D G Q, length G = length R ->
  copy_loop (fun _ => nth_error (PS ++ R ++ QS)) (length R) (D ++ G ++ Q) (length D) (length PS) = Some (D ++ R ++ Q).
Proof.
  induction R as [|x R IH]; intros PS QS D G Q HG.
  - destruct G; [|simpl in HG; lia]. auto.
  - destruct G as [|g G]; [simpl in HG; lia|]. cbn [length copy_loop]. rewrite (nth_seg PS x (R ++ QS)) by auto. cbn [bindo].
    change ((g :: G) ++ Q) with (g :: G ++ Q). rewrite wr_seg by auto. cbn [bindo].
    specialize (IH (PS ++ [x]) QS (D ++ [x]) G Q ltac:(simpl in HG; lia)). rewrite !app_length in IH. simpl length in IH.
    rewrite <- !app_assoc in IH. simpl app in IH. simpl app. rewrite IH. auto.
Qed.

Lemma copy_ip_spec : forall R D G Q,
  exists G', copy_loop (@nth_error C) (length R) (D ++ G ++ R ++ Q) (length D) (length D + length G) = Some (D ++ R ++ G' ++ Q) /\ length G' = length G.
Proof.
  induction R as [|x R IH]; intros D G Q.
  - exists G. auto.
  - cbn [length copy_loop].
    replace (D ++ G ++ (x :: R) ++ Q) with ((D ++ G) ++ x :: R ++ Q) by (rewrite <- !app_assoc; auto).
    rewrite nth_seg by (rewrite app_length; auto). cbn [bindo].
    destruct (G ++ [x]) as [|g G1] eqn:EG; [destruct G; discriminate|].
    assert (HG1 : length G1 = length G). { apply (f_equal (@length C)) in EG. rewrite app_length in EG. simpl in EG. lia. }
    replace ((D ++ G) ++ x :: R ++ Q) with (D ++ g :: G1 ++ R ++ Q).
    2:{ change (g :: G1 ++ R ++ Q) with ((g :: G1) ++ R ++ Q). rewrite <- EG, <- !app_assoc. auto. }
    rewrite wr_seg by auto. cbn [bindo].
    destruct (IH (D ++ [x]) G1 Q) as (G' & HE & HL). exists G'. split; [|lia].
    rewrite app_length in HE. simpl length in HE. rewrite <- !app_assoc in HE. simpl app in HE. simpl app.
    replace (length D + length G + 1) with (length D + 1 + length G1) by lia. exact HE.
Qed.

Lemma shift_right_spec : forall c P R G Q, length R = c ->
  exists G', shift_right_loop c (P ++ R ++ G ++ Q) (length P) (length G) = Some (P ++ G' ++ R ++ Q) /\ length G' = length G.
Proof.
  induction c as [|c IH]; intros P R G Q HR.
  - destruct R; [|simpl in HR; lia]. exists G. auto.
  - destruct (snoc_split R ltac:(lia)) as (R1 & x & -> & HR1). rewrite app_length in HR. simpl in HR. cbn [shift_right_loop].
    replace (P ++ (R1 ++ [x]) ++ G ++ Q) with ((P ++ R1) ++ x :: G ++ Q) by (rewrite <- !app_assoc; auto).
    rewrite nth_seg by (rewrite app_length; lia). cbn [bindo].
    destruct (snoc_split (x :: G)) as (G1 & g & EG & HG1); [simpl; lia|]. simpl length in HG1.
    replace ((P ++ R1) ++ x :: G ++ Q) with ((P ++ R1 ++ G1) ++ g :: Q).
    2:{ change (x :: G ++ Q) with ((x :: G) ++ Q). rewrite EG, <- !app_assoc. auto. }
    rewrite wr_seg by (rewrite !app_length; lia). cbn [bindo].
    destruct (IH P R1 G1 (x :: Q) ltac:(lia)) as (G' & HE & HL). exists G'. split; [|lia].
    replace (length G) with (length G1) by lia. rewrite <- !app_assoc. simpl app. rewrite HE. auto.
Qed.

(** ** Halving a level and merging it into the one above *)

Definition halves (o dosort : bool) (S La : list C) : list C :=
  let S := if dosort then sort S else S in
  match La with [] => sel (negb o) S | _ => mergel (sel o S) La end.

Lemma halve_and_merge_spec dosort P S La Q adjBeg adjPop half rawEnd popAbove r h :
  length S = 2 * h -> 0 < h -> adjBeg = length P -> adjPop = length S -> half = h -> rawEnd = length P + length S -> popAbove = length La ->
  exists G, halve_and_merge less sort coin dosort (P ++ S ++ La ++ Q) adjBeg adjPop half rawEnd popAbove r =
     Some (P ++ G ++ halves (coin r) dosort S La ++ Q, Datatypes.S r) /\ length G = h.
Proof.
  intros HS Hh -> -> -> -> ->. unfold halve_and_merge.
  set (S' := if dosort then sort S else S).
  assert (HS' : length S' = length S). { unfold S'. destruct dosort; auto. symmetry. apply Permutation_length, sort_perm. }
  assert (E : (if dosort then sort_slice sort (P ++ S ++ La ++ Q) (length P) (length S) else Some (P ++ S ++ La ++ Q)) = Some (P ++ S' ++ La ++ Q)).
  { unfold S', sort_slice. destruct dosort; auto. rewrite get_seg by auto. cbn [bindo]. apply put_seg; auto; symmetry; apply Permutation_length, sort_perm. }
  rewrite E. cbn [bindo]. unfold halves. fold S'. clearbody S'. clear E.
  assert (Hdiv : length S / 2 = h) by (rewrite HS, Nat.mul_comm, Nat.div_mul; lia).
  destruct La as [|y La].
  - change (length (@nil C) =? 0) with true. cbn iota. unfold randomly_halve_up. rewrite Hdiv. rewrite sub_ok by lia. cbn [bindo].
    destruct (halve_up_spec (negb (coin r)) h P S' [] [] Q (length P + length S - 1) (Z.of_nat (length P + length S) - 1 - (if coin r then 1 else 0))%Z)
      as (G' & HE & HL); simpl; try lia. { destruct (coin r); simpl; lia. }
    replace (length S - h) with h by lia. cbn [app] in HE |- *. rewrite HE. cbn [bindo]. exists G'. split; auto.
  - destruct (Nat.eqb_spec (length (y :: La)) 0); [simpl in *; lia|]. unfold randomly_halve_down. rewrite Hdiv.
    destruct (halve_down_spec (coin r) h P [] [] S' ((y :: La) ++ Q) (length P) (length P + (if coin r then 1 else 0))) as (G' & HE & HL); simpl; try lia.
    cbn [app] in HE |- *. rewrite HE. cbn [bindo]. clear HE.
    set (A := sel (coin r) S'). assert (HA : length A = h) by (apply sel_length; lia).
    unfold merge_sorted_in_place.
    pose proof (merge_ip_spec (h + length (y :: La)) P [] A [] G' (y :: La) Q ltac:(simpl in HL; lia) ltac:(lia)) as HM. cbn [app] in HM.
    simpl in HL. match goal with |- context [merge_loop ?a ?b ?c ?d ?e ?f ?g ?h ?i ?j] =>
      assert (HM' : merge_loop a b c d e f g h i j = Some (P ++ A ++ mergel A (y :: La) ++ Q)) end.
    { etransitivity; [|exact HM]. f_equal; simpl length; lia. }
    rewrite HM'. cbn [bindo]. exists A. split; auto.
Qed.

(** ** Levels *)

Implicit Types Ls : list (list C).
Lemma add_delta_pb d Ls X : forall b, add_delta d (length Ls) (pb b Ls ++ X) = pb (b + d) Ls ++ X.
Proof.
  induction Ls as [|L Ls IH]; intros b; cbn [length pb app add_delta].
  - destruct X; auto.
  - f_equal. etransitivity; [apply IH|]. f_equal. f_equal. lia.
Qed.
Lemma halves_length o d S La h : length S = 2 * h -> length (halves o d S La) = h + length La.
Proof.
  intros H. unfold halves. set (S' := if d then sort S else S).
  assert (HS' : length S' = 2 * h). { unfold S'. destruct d; auto. rewrite <- H. symmetry. apply Permutation_length, sort_perm. }
  destruct La as [|y La]; [rewrite (sel_length _ h); simpl; auto|].
  rewrite <- (Permutation_length (mergel_perm _ _)), app_length, (sel_length _ h); auto.
Qed.

(** The arrays of [s] lay out the levels [Ls] at the end of an item array of length [T]. *)
Definition Rep (s : kll) (T : nat) (Ls : list (list C)) : Prop :=
  exists pre, items s = pre ++ concat Ls /\ levels s = pb (length pre) Ls ++ [length pre + csum Ls] /\
    num_levels s = length Ls /\ T = length pre + csum Ls.

Lemma compact_level_spec s T lower L La upper r : Rep s T (lower ++ L :: La :: upper) -> 2 <= length L ->
  exists lv it, compact_level less sort coin s (length lower) r = Some (set_levels_items s (num_levels s) lv it, length lower :: r) /\
    Rep (set_levels_items s (num_levels s) lv it) T
      (lower ++ odd_lo L :: halves (coin (length r)) (length lower =? 0) (even_part L) La :: upper).
Proof.
  intros (pre & Hit & Hlv & Hnl & HT) HL.
  set (h := length L / 2). assert (Hh : 0 < h) by (unfold h; lia).
  pose proof (even_part_length L) as HE. fold h in HE. pose proof (odd_lo_length L) as HO. pose proof (odd_even L) as HOE.
  assert (HLlen : length L = length (odd_lo L) + 2 * h) by (rewrite HOE at 1; rewrite app_length; lia).
  set (b0 := length pre + csum lower).
  assert (Hlv' : levels s = pb (length pre) lower ++ b0 :: b0 + length L :: b0 + length L + length La :: skipn 1 (pb (b0 + length L + length La) upper ++ [b0 + length L + length La + csum upper])).
  { rewrite Hlv, pb_app. fold b0. rewrite <- app_assoc. f_equal. cbn [pb app]. f_equal. f_equal.
    destruct upper as [|U upper]; cbn [pb app skipn].
    - f_equal. rewrite csum_app, !csum_cons, csum_nil. unfold b0. lia.
    - f_equal. f_equal. f_equal. rewrite csum_app, !csum_cons. unfold b0. lia. }
  unfold compact_level.
  assert (Hn0 : nth_error (levels s) (length lower) = Some b0).
  { rewrite Hlv'. apply nth_seg. rewrite pb_length; auto. }
  assert (Hn1 : nth_error (levels s) (length lower + 1) = Some (b0 + length L)).
  { rewrite Hlv', <- (pb_length (length pre) lower). rewrite nth_after. auto. }
  assert (Hn2 : nth_error (levels s) (length lower + 2) = Some (b0 + length L + length La)).
  { rewrite Hlv', <- (pb_length (length pre) lower). rewrite nth_after. auto. }
  rewrite Hn0, Hn1, Hn2. cbn [bindo]. rewrite !sub_ok by lia. cbn [bindo].
  replace (b0 + length L + length La - (b0 + length L)) with (length La) by lia.
  replace (b0 + length L - b0) with (length L) by lia.
  set (odd := length L mod 2 =? 1).
  assert (Hadj : (if odd then b0 + 1 else b0) = b0 + length (odd_lo L)).
  { rewrite HO. unfold odd. pose proof (Nat.mod_upper_bound (length L) 2 ltac:(lia)). destruct (Nat.eqb_spec (length L mod 2) 1); lia. }
  assert (Hpop : (if odd then length L - 1 else length L) = 2 * h).
  { unfold odd. pose proof (Nat.mod_upper_bound (length L) 2 ltac:(lia)). destruct (Nat.eqb_spec (length L mod 2) 1); rewrite HO in HLlen; lia. }
  rewrite Hadj, Hpop. replace (2 * h / 2) with h by (rewrite Nat.mul_comm, Nat.div_mul; lia).
  (* the buffer *)
  assert (Hbuf : items s = (pre ++ concat lower ++ odd_lo L) ++ even_part L ++ La ++ concat upper).
  { rewrite Hit, concat_app. cbn [concat]. rewrite HOE at 1. rewrite <- !app_assoc. auto. }
  assert (HP : length (pre ++ concat lower ++ odd_lo L) = b0 + length (odd_lo L)) by (rewrite !app_length; unfold b0, csum; lia).
  rewrite Hbuf.
  destruct (halve_and_merge_spec (length lower =? 0) (pre ++ concat lower ++ odd_lo L) (even_part L) La (concat upper)
    (b0 + length (odd_lo L)) (2 * h) h (b0 + length L) (length La) (length r) h) as (G & HEq & HG); try lia.
  rewrite HEq. cbn [bindo]. clear HEq Hbuf.
  set (H' := halves (coin (length r)) (length lower =? 0) (even_part L) La).
  assert (HH : length H' = h + length La) by (apply halves_length; auto).
  rewrite sub_ok by lia. cbn [bindo].
  rewrite Hlv', wr_pb1. cbn [bindo]. set (tl := skipn 1 _) in *.
  (* leftover *)
  assert (HG1 : exists g G', G = g :: G' /\ length G' = h - 1) by (destruct G as [|g G']; simpl in HG; [lia|exists g, G'; split; auto; lia]).
  match goal with |- context [bindo (if odd then ?a else ?b) _] =>
    assert (HLO : exists G2, length G2 = h /\ (if odd then a else b) =
      Some (pb (length pre) lower ++ (b0 + length L - h - length (odd_lo L)) :: (b0 + length L - h) :: b0 + length L + length La :: tl,
            pre ++ concat lower ++ G2 ++ odd_lo L ++ H' ++ concat upper)) end.
  { unfold odd. pose proof (Nat.mod_upper_bound (length L) 2 ltac:(lia)). unfold odd_lo in *.
    destruct (Nat.eqb_spec (length L mod 2) 1) as [EO|EO].
    - destruct L as [|x L]; [simpl in HL; lia|]. cbn [firstn length] in *. rewrite sub_ok by lia. cbn [bindo].
      rewrite wr_pb0. cbn [bindo].
      replace ((pre ++ concat lower ++ [x]) ++ G ++ H' ++ concat upper) with ((pre ++ concat lower) ++ x :: G ++ H' ++ concat upper) by (rewrite <- !app_assoc; auto).
      rewrite nth_seg by (rewrite app_length; unfold b0, csum; lia). cbn [bindo].
      destruct (snoc_split (x :: G)) as (G2 & g & EG & HG2); [simpl; lia|]. simpl in HG2. exists G2. split; [lia|].
      replace ((pre ++ concat lower) ++ x :: G ++ H' ++ concat upper) with ((pre ++ concat lower ++ G2) ++ g :: H' ++ concat upper).
      2:{ change (x :: G ++ H' ++ concat upper) with ((x :: G) ++ H' ++ concat upper). rewrite EG, <- !app_assoc. auto. }
      rewrite wr_seg by (rewrite !app_length; unfold b0, csum in *; lia). cbn [bindo]. f_equal. f_equal. rewrite <- !app_assoc. auto.
    - exists G. split; auto. rewrite wr_pb0.
      cbn [option_map bindo length app]. rewrite Nat.sub_0_r. f_equal. f_equal. rewrite <- !app_assoc. auto. }
  destruct HLO as (G2 & HG2 & ->). cbn [bindo]. clear HG1.
  (* shift of the lower levels *)
  match goal with |- context [bindo (if 0 <? length lower then ?a else ?b) _] =>
    assert (HSH : exists G3, length G3 = h /\ (if 0 <? length lower then a else b) =
       Some (pre ++ G3 ++ concat lower ++ odd_lo L ++ H' ++ concat upper)) end.
  { destruct (Nat.ltb_spec 0 (length lower)) as [Hl|Hl].
    - destruct lower as [|L0 lower]; [simpl in Hl; lia|]. cbn [pb app nth_error bindo]. rewrite sub_ok by (unfold b0; lia). cbn [bindo].
      replace (b0 - length pre) with (length (concat (L0 :: lower))) by (unfold b0, csum; lia).
      destruct (shift_right_spec (length (concat (L0 :: lower))) pre (concat (L0 :: lower)) G2 (odd_lo L ++ H' ++ concat upper) eq_refl) as (G3 & HE3 & HL3).
      rewrite HG2 in HE3. exists G3. split; [lia|]. exact HE3.
    - destruct lower; [|simpl in Hl; lia]. exists G2. split; auto. }
  destruct HSH as (G3 & HG3 & ->). cbn [bindo].
  rewrite add_delta_pb. eexists _, _. split; [reflexivity|].
  exists (pre ++ G3). cbn [items levels num_levels set_levels_items]. split; [|split; [|split]].
  - rewrite concat_app. cbn [concat]. rewrite <- !app_assoc. auto.
  - rewrite app_length, HG3. rewrite pb_app. rewrite <- app_assoc. f_equal. cbn [pb app]. f_equal; [unfold b0 in *; lia|].
    f_equal; [unfold b0 in *; lia|]. unfold tl. rewrite HH.
    replace (length pre + h + csum lower + length (odd_lo L) + (h + length La)) with (b0 + length L + length La) by (unfold b0; lia).
    destruct upper as [|U upper]; cbn [pb app skipn].
    + f_equal. rewrite csum_app, !csum_cons, csum_nil. unfold b0. lia.
    + f_equal. f_equal. f_equal. rewrite csum_app, !csum_cons. unfold b0. lia.
  - rewrite Hnl, !app_length. auto.
  - rewrite HT, app_length, HG3, !csum_app, !csum_cons. lia.
Qed.

(** ** Capacities *)

Definition dcap (k0 : N) (m0 d : nat) : nat := match int_cap_aux k0 d with Some c => Nat.max m0 (N.to_nat c) | None => 0 end.
Fixpoint tot (k0 : N) (m0 c : nat) : nat := match c with O => 0 | S c' => dcap k0 m0 c' + tot k0 m0 c' end.

Lemma icaa_some k0 d : d <= 30 -> exists c, int_cap_aux_aux k0 d = Some c /\ (c <= k0)%N.
Proof.
  intros H. unfold int_cap_aux_aux. destruct (Nat.ltb_spec 30 d); [lia|]. eexists. split; [reflexivity|].
  match goal with |- context [(?a <=? k0)%N] => destruct (N.leb_spec a k0) end; lia.
Qed.
Lemma ica_some k0 d : d <= 60 -> exists c, int_cap_aux k0 d = Some c /\ (c <= k0)%N.
Proof.
  intros H. unfold int_cap_aux. destruct (Nat.leb_spec d 30); [apply icaa_some; auto|].
  destruct (icaa_some k0 (d / 2) ltac:(lia)) as (t & -> & Ht). cbn [bindo].
  destruct (icaa_some (t mod 65536) (d - d / 2) ltac:(lia)) as (c & -> & Hc). exists c. split; auto.
  assert (t mod 65536 <= t)%N by (apply N.mod_le; lia). lia.
Qed.
Lemma dcap_m k0 m0 d : d <= 60 -> m0 <= dcap k0 m0 d.
Proof. intros H. unfold dcap. destruct (ica_some k0 d H) as (c & -> & _). lia. Qed.
Lemma dcap_le k0 m0 d : m0 <= N.to_nat k0 -> dcap k0 m0 d <= N.to_nat k0.
Proof. intros H. unfold dcap. destruct (int_cap_aux k0 d) as [c|] eqn:E; [|lia]. destruct (le_lt_dec d 60) as [Hd|Hd].
  - destruct (ica_some k0 d Hd) as (c' & E' & Hc). rewrite E in E'. injection E' as <-. lia.
  - unfold int_cap_aux in E. destruct (Nat.leb_spec d 30); [lia|]. unfold bindo, int_cap_aux_aux in E.
    destruct (30 <? d / 2); [discriminate|]. destruct (30 <? d - d / 2) eqn:E2; [discriminate|]. apply Nat.ltb_ge in E2. lia.
Qed.
Lemma level_capacity_ok k0 nl lvl m0 : lvl < nl -> nl - lvl - 1 <= 60 -> level_capacity k0 nl lvl m0 = Some (dcap k0 m0 (nl - lvl - 1)).
Proof.
  intros H1 H2. unfold level_capacity, dcap. rewrite sub_ok by lia. cbn [bindo].
  destruct (ica_some k0 (nl - lvl - 1) H2) as (c & -> & _). reflexivity.
Qed.
Lemma total_capacity_ok k0 m0 nl : nl <= 61 -> compute_total_item_capacity k0 m0 nl = Some (tot k0 m0 nl).
Proof.
  intros H. unfold compute_total_item_capacity.
  assert (G : forall cnt t, cnt <= nl -> total_cap_loop k0 m0 nl (nl - cnt) cnt t = Some (t + tot k0 m0 cnt)).
  { induction cnt as [|cnt IH]; intros t Hc; cbn [total_cap_loop tot]; [f_equal; lia|].
    rewrite level_capacity_ok by lia. cbn [bindo]. replace (S (nl - S cnt)) with (nl - cnt) by lia. rewrite IH by lia.
    replace (nl - (nl - S cnt) - 1) with cnt by lia. f_equal. lia. }
  specialize (G nl 0 (le_n _)). rewrite Nat.sub_diag in G. auto.
Qed.

(** ** List-level operations *)

Fixpoint lfind (k0 : N) (m0 nl lvl : nat) (Ls : list (list C)) : option nat :=
  match Ls with
  | [] => None
  | L :: t => if dcap k0 m0 (nl - lvl - 1) <=? length L then Some lvl else lfind k0 m0 nl (lvl + 1) t
  end.

Definition l_compress (k0 : N) (m0 T : nat) (Ls : list (list C)) (r : list nat) : option (nat * list (list C) * list nat) :=
  match lfind k0 m0 (length Ls) 0 Ls with
  | None => None
  | Some level =>
    let top := level =? length Ls - 1 in
    let Ls1 := if top then Ls ++ [[]] else Ls in
    let T1 := if top then T + dcap k0 m0 (length Ls) else T in
    match skipn level Ls1 with
    | L :: La :: upper => Some (T1, firstn level Ls1 ++ odd_lo L :: halves (coin (length r)) (level =? 0) (even_part L) La :: upper, level :: r)
    | _ => None
    end
  end.

Definition l_update (k0 : N) (m0 T : nat) (Ls : list (list C)) (r : list nat) (x : C) : option (nat * list (list C) * list nat) :=
  do (T, Ls, r) <- (if csum Ls =? T then l_compress k0 m0 T Ls r else Some (T, Ls, r));
  match Ls with
  | L0 :: t => Some (T, (x :: L0) :: t, r)
  | [] => None
  end.

Fixpoint zipm (A B : list (list C)) : list (list C) :=
  match A, B with
  | a :: A', b :: B' => mergel a b :: zipm A' B'
  | [], _ => B
  | _, [] => A
  end.

Fixpoint lgen (fuel : nat) (k0 : N) (m0 nl cur target lvl : nat) (rest : list (list C)) (sorted : bool) (r : list nat)
    : option (list (list C) * nat * nat * nat * list nat) :=
  match fuel with
  | O => None
  | S f =>
    match rest with
    | [] => None
    | L :: rest' =>
      if (cur <? target) || (length L <? dcap k0 m0 (nl - lvl - 1)) then
        if lvl =? nl - 1 then Some ([L], nl, target, cur, r)
        else
          do (out, nl', target', cur', r') <- lgen f k0 m0 nl cur target (lvl + 1) rest' sorted r;
          Some (L :: out, nl', target', cur', r')
      else
        let H := halves (coin (length r)) ((lvl =? 0) && negb sorted) (even_part L) (hd [] rest') in
        let top := lvl =? nl - 1 in
        do (out, nl', target', cur', r') <-
          lgen f k0 m0 (if top then nl + 1 else nl) (cur - length L / 2) (if top then target + dcap k0 m0 nl else target)
            (lvl + 1) (H :: tl rest') sorted (lvl :: r);
        Some (odd_lo L :: out, nl', target', cur', r')
    end
  end.

Lemma lfind_none k0 m0 nl : forall Ls lvl, lvl + length Ls = nl -> lfind k0 m0 nl lvl Ls = None -> csum Ls + length Ls <= tot k0 m0 (length Ls).
Proof.
  induction Ls as [|L Ls IH]; intros lvl H HN; [rewrite csum_nil; auto|]. cbn [lfind length] in *.
  destruct (Nat.leb_spec (dcap k0 m0 (nl - lvl - 1)) (length L)); [discriminate|]. specialize (IH (lvl + 1) ltac:(lia) HN).
  rewrite csum_cons. cbn [tot]. replace (nl - lvl - 1) with (length Ls) in * by lia. lia.
Qed.
Lemma lfind_some k0 m0 nl : forall Ls lvl level, lfind k0 m0 nl lvl Ls = Some level ->
  exists lower L upper, Ls = lower ++ L :: upper /\ level = lvl + length lower /\ dcap k0 m0 (nl - level - 1) <= length L.
Proof.
  induction Ls as [|L Ls IH]; intros lvl level H; [discriminate|]. cbn [lfind] in H.
  destruct (Nat.leb_spec (dcap k0 m0 (nl - lvl - 1)) (length L)).
  - injection H as <-. exists [], L, Ls. split; [auto|]. split; [simpl; lia|auto].
  - apply IH in H. destruct H as (lower & L' & upper & -> & -> & Hc). exists (L :: lower), L', upper. split; [auto|]. split; [simpl; lia|auto].
Qed.

Lemma find_level_ok k0 m0 nl : forall Ls X b lvl fuel level, length X = lvl -> lvl + length Ls = nl -> nl <= 61 -> length Ls <= fuel ->
  lfind k0 m0 nl lvl Ls = Some level -> find_level_loop fuel k0 m0 nl (X ++ pb b Ls ++ [b + csum Ls]) lvl = Some level.
Proof.
  induction Ls as [|L Ls IH]; intros X b lvl fuel level HX HN H61 HF H; [discriminate|]. destruct fuel as [|f]; [simpl in HF; lia|].
  cbn [find_level_loop pb app]. cbn [lfind length] in *. subst lvl.
  rewrite nth_after. rewrite nth_seg by auto.
  assert (E : nth_error (b :: pb (b + length L) Ls ++ [b + csum (L :: Ls)]) 1 = Some (b + length L)).
  { destruct Ls; cbn [pb app nth_error]; auto. rewrite csum_cons, csum_nil. f_equal. lia. }
  rewrite E. cbn [bindo]. rewrite level_capacity_ok by lia. cbn [bindo]. replace (b + length L - b) with (length L) by lia.
  destruct (dcap k0 m0 (nl - length X - 1) <=? length L); auto.
  specialize (IH (X ++ [b]) (b + length L) (length X + 1) f level). rewrite app_length in IH. simpl length in IH.
  rewrite <- app_assoc in IH. simpl app in IH. replace (b + csum (L :: Ls)) with (b + length L + csum Ls) by (rewrite csum_cons; lia).
  apply IH; auto; lia.
Qed.

Lemma add_empty_top_ok s T Ls : Rep s T Ls -> length Ls <= 60 ->
  exists lv it, add_empty_top_level zero s = Some (set_levels_items s (length Ls + 1) lv it) /\
    Rep (set_levels_items s (length Ls + 1) lv it) (T + dcap (k s) (m s) (length Ls)) (Ls ++ [[]]).
Proof.
  intros (pre & Hit & Hlv & Hnl & HT) HL. unfold add_empty_top_level. rewrite Hnl, Hlv.
  rewrite nth_seg by (rewrite pb_length; auto). cbn [bindo]. rewrite level_capacity_ok by lia. cbn [bindo].
  replace (length Ls + 1 - 0 - 1) with (length Ls) by lia. set (delta := dcap (k s) (m s) (length Ls)).
  rewrite app_length, pb_length. cbn [length]. destruct (Nat.ltb_spec (length Ls + 1) (length Ls + 2)); [|lia].
  replace (length Ls + 2 - (length Ls + 1)) with 1 by lia. cbn [repeat].
  rewrite firstn_all2 by (rewrite !app_length, pb_length; simpl; lia).
  rewrite !app_length, pb_length. cbn [length]. destruct (Nat.ltb_spec (length Ls + 1 + 1) (length Ls + 1)); [lia|].
  replace ((pb (length pre) Ls ++ [length pre + csum Ls]) ++ [0]) with (pb (length pre) (Ls ++ [[]]) ++ [0]).
  2:{ rewrite pb_app. cbn [pb]. auto. }
  replace (length Ls + 1) with (length (Ls ++ [[]])) by (rewrite app_length; auto). rewrite add_delta_pb.
  rewrite wr_pb0. cbn [bindo]. unfold sl_get. rewrite Hit, app_length. cbn [Nat.add].
  destruct (Nat.leb_spec (length pre + csum Ls) (length pre + length (concat Ls))); [|unfold csum in *; lia].
  cbn [bindo skipn]. rewrite firstn_all2 by (rewrite app_length; unfold csum; lia).
  eexists _, _. split; [reflexivity|]. exists (repeat zero delta ++ pre). cbn [items levels num_levels set_levels_items].
  rewrite app_length, repeat_length. split; [|split; [|split]].
  - rewrite concat_app. cbn [concat]. rewrite !app_nil_r. first [apply app_assoc|rewrite app_assoc; auto].
  - rewrite (Nat.add_comm delta). f_equal. f_equal. rewrite csum_app, csum_cons, csum_nil. simpl. lia.
  - auto.
  - rewrite csum_app, csum_cons, csum_nil. simpl. lia.
Qed.

Lemma split_level (Ls : list (list C)) level L La upper : skipn level Ls = L :: La :: upper ->
  Ls = firstn level Ls ++ L :: La :: upper /\ length (firstn level Ls) = level.
Proof.
  intros H. rewrite <- H, firstn_skipn. split; auto. rewrite firstn_length.
  assert (length (skipn level Ls) >= 1) by (rewrite H; simpl; lia). rewrite skipn_length in H0. lia.
Qed.

(** What makes the code run without panic: the capacity of the item array, and m. *)
Definition Fit (k0 : N) (m0 T : nat) (Ls : list (list C)) : Prop := Ls <> [] /\ (tot k0 m0 (length Ls) <= T /\ ((k0 < 32768)%N -> tot k0 m0 (length Ls) = T)) /\ 2 <= m0.

Lemma l_compress_some k0 m0 T Ls r : Fit k0 m0 T Ls -> csum Ls = T -> length Ls <= 60 ->
  exists T' Ls' lower L La upper Ls1, l_compress k0 m0 T Ls r = Some (T', Ls', length lower :: r) /\ Fit k0 m0 T' Ls' /\
    (Ls1 = Ls \/ (Ls1 = Ls ++ [[]] /\ La = [] /\ upper = [])) /\ Ls1 = lower ++ L :: La :: upper /\ 2 <= length L /\
    Ls' = lower ++ odd_lo L :: halves (coin (length r)) (length lower =? 0) (even_part L) La :: upper /\
    csum Ls' < T' /\ (length Ls <= length Ls').
Proof.
  intros (HN & HC & Hm) HT HL. unfold l_compress.
  destruct (lfind k0 m0 (length Ls) 0 Ls) as [level|] eqn:EF.
  2:{ apply lfind_none in EF; auto. destruct Ls; [congruence|]. simpl length in *. lia. }
  apply lfind_some in EF. destruct EF as (lower & L & upper0 & E & Hlev & Hcap). simpl in Hlev.
  assert (Hlen : length Ls = length lower + 1 + length upper0) by (rewrite E, app_length; simpl; lia).
  assert (Hm2 : 2 <= length L). { pose proof (dcap_m k0 m0 (length Ls - level - 1) ltac:(lia)). lia. }
  set (top := level =? length Ls - 1).
  assert (HL1 : exists La upper, (if top then Ls ++ [[]] else Ls) = lower ++ L :: La :: upper /\ (top = true -> La = [] /\ upper = [])).
  { unfold top. destruct (Nat.eqb_spec level (length Ls - 1)) as [Et|Et].
    - destruct upper0; [|simpl in Hlen; lia]. exists [], []. rewrite E, <- app_assoc. auto.
    - destruct upper0 as [|La upper0]; [simpl in Hlen; lia|]. exists La, upper0. split; auto. discriminate. }
  destruct HL1 as (La & upper & E1 & Htop). rewrite E1. rewrite skipn_seg, firstn_seg by auto.
  exists (if top then T + dcap k0 m0 (length Ls) else T), (lower ++ odd_lo L :: halves (coin (length r)) (level =? 0) (even_part L) La :: upper), lower, L, La, upper, (if top then Ls ++ [[]] else Ls).
  split; [rewrite <- Hlev; reflexivity|]. subst level.
  assert (Hlen' : length (lower ++ odd_lo L :: halves (coin (length r)) (length lower =? 0) (even_part L) La :: upper) = length (if top then Ls ++ [[]] else Ls)).
  { rewrite E1, !app_length. simpl. auto. }
  assert (Hs : csum (lower ++ odd_lo L :: halves (coin (length r)) (length lower =? 0) (even_part L) La :: upper) + length L / 2 = csum (if top then Ls ++ [[]] else Ls)).
  { rewrite E1, !csum_app, !csum_cons. rewrite (halves_length _ _ _ _ _ (even_part_length L)), odd_lo_length. lia. }
  split; [|split; [|split; [exact E1|split; [auto|split; [auto|split]]]]].
  - split; [destruct lower; discriminate|]. split; [|auto]. rewrite Hlen'. destruct top; [|auto]. rewrite app_length. simpl. rewrite Nat.add_1_r. cbn [tot]. lia.
  - destruct top; [right|left]; auto.
  - assert (csum (Ls ++ [[]]) = csum Ls) by (rewrite csum_app; unfold csum at 2; simpl; lia).
    assert (1 <= length L / 2) by lia. destruct top; lia.
  - rewrite Hlen'. destruct top; [rewrite app_length; simpl|]; lia.
Qed.

Lemma compress_ok s T Ls r : Rep s T Ls -> Fit (k s) (m s) T Ls -> csum Ls = T -> length Ls <= 60 ->
  exists T' Ls' lv it r', l_compress (k s) (m s) T Ls r = Some (T', Ls', r') /\
    compress_while_updating less zero sort coin s r = Some (set_levels_items s (length Ls') lv it, r') /\
    Rep (set_levels_items s (length Ls') lv it) T' Ls'.
Proof.
  intros HR HF HT HL. destruct (l_compress_some _ _ _ _ r HF HT HL) as (T' & Ls' & low & _ & _ & _ & _ & HC & _).
  exists T', Ls'. unfold compress_while_updating, find_level_to_compact.
  destruct HR as (pre & Hit & Hlv & Hnl & HTT). assert (HR : Rep s T Ls) by (exists pre; auto).
  pose proof HC as HC'. unfold l_compress in HC'. destruct (lfind (k s) (m s) (length Ls) 0 Ls) as [level|] eqn:EF; [|discriminate].
  assert (EF' : find_level_loop (length (levels s)) (k s) (m s) (num_levels s) (levels s) 0 = Some level).
  { rewrite Hnl, Hlv. apply (find_level_ok (k s) (m s) (length Ls) Ls []); auto; try lia. rewrite app_length, pb_length. lia. }
  rewrite EF'. cbn [bindo]. rewrite Hnl.
  destruct (level =? length Ls - 1) eqn:Et.
  - destruct (add_empty_top_ok s T Ls HR HL) as (lv1 & it1 & E1 & R1). rewrite E1. cbn [bindo].
    destruct (skipn level (Ls ++ [[]])) as [|L [|La upper]] eqn:ES; try discriminate. injection HC' as <- <- HC'.
    apply split_level in ES. destruct ES as [ES1 ES2]. rewrite ES1 in R1.
    assert (H2 : 2 <= length L).
    { destruct (lfind_some _ _ _ _ _ _ EF) as (lo & L' & up & E' & Elev & Hcap). simpl in Elev.
      pose proof (dcap_m (k s) (m s) (length Ls - level - 1) ltac:(lia)). destruct HF as (_ & _ & Hm).
      assert (L = L'); [|subst; lia]. pose proof (nth_seg (firstn level (Ls ++ [[]])) L (La :: upper) level (eq_sym ES2)) as HA.
      rewrite <- ES1, E', <- app_assoc in HA. cbn [app] in HA. rewrite (nth_seg lo) in HA by auto. congruence. }
    destruct (compact_level_spec _ _ _ _ _ _ r R1 H2) as (lv & it & E2 & R2). rewrite ES2 in E2, R2. rewrite E2.
    set (Ls' := firstn level (Ls ++ [[]]) ++ _) in *. exists lv, it, (level :: r).
    assert (Hl : length Ls' = length Ls + 1).
    { unfold Ls'. apply (f_equal (@length _)) in ES1. rewrite !app_length in *. simpl length in *. lia. }
    rewrite Hl. split; [congruence|]. split; [reflexivity|]. exact R2.
  - cbn [bindo]. destruct (skipn level Ls) as [|L [|La upper]] eqn:ES; try discriminate. injection HC' as <- <- HC'.
    apply split_level in ES. destruct ES as [ES1 ES2]. pose proof HR as R1. rewrite ES1 in R1.
    assert (H2 : 2 <= length L).
    { destruct (lfind_some _ _ _ _ _ _ EF) as (lo & L' & up & E' & Elev & Hcap). simpl in Elev.
      pose proof (dcap_m (k s) (m s) (length Ls - level - 1) ltac:(lia)). destruct HF as (_ & _ & Hm).
      assert (L = L'); [|subst; lia]. pose proof (nth_seg (firstn level Ls) L (La :: upper) level (eq_sym ES2)) as HA.
      rewrite <- ES1, E' in HA. rewrite (nth_seg lo) in HA by auto. congruence. }
    destruct (compact_level_spec _ _ _ _ _ _ r R1 H2) as (lv & it & E2 & R2). rewrite ES2 in E2, R2. rewrite E2.
    set (Ls' := firstn level Ls ++ _) in *. exists lv, it, (level :: r).
    assert (Hl : length Ls' = length Ls).
    { unfold Ls'. apply (f_equal (@length _)) in ES1. rewrite !app_length in *. simpl length in *. lia. }
    rewrite Hl, <- Hnl. split; [congruence|]. split; [reflexivity|]. exact R2.
Qed.

Definition upd_min (s : kll) (x : C) : C := if negb (has_min_max s) then x else if less x (min_item s) then x else min_item s.
Definition upd_max (s : kll) (x : C) : C := if negb (has_min_max s) then x else if less (max_item s) x then x else max_item s.

Lemma update_ok s T Ls r x : Rep s T Ls -> Fit (k s) (m s) T Ls -> length Ls <= 60 ->
  exists T' Ls' r' lv it, l_update (k s) (m s) T Ls r x = Some (T', Ls', r') /\ Fit (k s) (m s) T' Ls' /\ 
    let s' := mkKll (k s) (m s) (min_k s) (length Ls') false (n s + 1) lv it (upd_min s x) (upd_max s x) true in
    kll_update less zero sort coin s r x = Some (s', r') /\ Rep s' T' Ls'.
Proof.
  intros HR HF HL. unfold kll_update, l_update. fold (upd_min s x) (upd_max s x).
  destruct HR as (pre & Hit & Hlv & Hnl & HTT). assert (HR : Rep s T Ls) by (exists pre; auto).
  cbn [levels]. assert (E0 : nth_error (levels s) 0 = Some (length pre)).
  { rewrite Hlv. destruct Ls; [exfalso; apply (proj1 HF); auto|]. reflexivity. }
  rewrite E0. cbn [bindo].
  set (s1 := mkKll (k s) (m s) (min_k s) (num_levels s) (l0_sorted s) (n s) (levels s) (items s) (upd_min s x) (upd_max s x) true).
  assert (HR1 : Rep s1 T Ls) by (exists pre; auto).
  (* make room *)
  assert (HM : exists T1 Ls1 r1 lv1 it1,
     (if csum Ls =? T then l_compress (k s) (m s) T Ls r else Some (T, Ls, r)) = Some (T1, Ls1, r1) /\
     (if length pre =? 0 then compress_while_updating less zero sort coin s1 r else Some (s1, r)) = Some (set_levels_items s1 (length Ls1) lv1 it1, r1) /\
     Rep (set_levels_items s1 (length Ls1) lv1 it1) T1 Ls1 /\ Fit (k s) (m s) T1 Ls1 /\ csum Ls1 < T1).
  { destruct (Nat.eqb_spec (csum Ls) T) as [Ef|Ef].
    - destruct (Nat.eqb_spec (length pre) 0); [|lia]. destruct (compress_ok s1 T Ls r HR1 HF Ef HL) as (T' & Ls' & lv & it & r' & H1 & H2 & H3).
      destruct (l_compress_some _ _ _ _ r HF Ef HL) as (T2 & Ls2 & low & _ & _ & _ & _ & HC & HF2 & _ & _ & _ & _ & Hlt & _).
      change (k s1) with (k s) in H1. change (m s1) with (m s) in H1. rewrite H1 in HC. injection HC as <- <- HC.
      exists T', Ls', r', lv, it. rewrite H1. cbn [bindo]. auto.
    - destruct (Nat.eqb_spec (length pre) 0); [lia|]. exists T, Ls, r, (levels s1), (items s1). split; auto. split.
      + unfold s1, set_levels_items. cbn. rewrite <- Hnl. auto.
      + split; [|split; [auto|lia]]. exists pre. cbn. auto. }
  destruct HM as (T1 & Ls1 & r1 & lv1 & it1 & -> & -> & R1 & F1 & Hlt). cbn [bindo]. clear HR1 E0.
  destruct R1 as (pre1 & Hit1 & Hlv1 & Hnl1 & HT1). cbn [levels items num_levels set_levels_items] in *. subst lv1 it1.
  destruct Ls1 as [|L0 Ls1]; [exfalso; apply (proj1 F1); auto|]. cbn [pb app nth_error bindo].
  destruct (snoc_split pre1 ltac:(lia)) as (pre2 & g & -> & Hp2). rewrite app_length in *. cbn [length] in *.
  rewrite sub_ok by lia. cbn [bindo]. unfold wr at 1. cbn [length Nat.ltb Nat.leb upd bindo].
  rewrite <- (app_assoc pre2 [g]). cbn [app]. rewrite wr_seg by lia. cbn [bindo].
  exists T1, ((x :: L0) :: Ls1), r1. eexists _, _. split; [reflexivity|]. split.
  { destruct F1 as (F1 & F2 & F3). split; [discriminate|]. split; auto. }
  cbn zeta. split; [reflexivity|]. exists pre2. cbn [items levels num_levels]. split; [|split; [|split]].
  - reflexivity.
  - cbn [pb app]. f_equal; [lia|]. f_equal.
    + f_equal. simpl. lia.
    + f_equal. rewrite !csum_cons. simpl. lia.
  - reflexivity.
  - rewrite csum_cons in *. simpl. lia.
Qed.

(** ** Weights *)

Fixpoint wt (Ls : list (list C)) : N := match Ls with [] => 0 | L :: t => N.of_nat (length L) + 2 * wt t end%N.
(** The top level is not empty, unless it is the only one. *)
Definition Top (Ls : list (list C)) : Prop := length Ls = 1 \/ (Ls <> [] /\ last Ls [] <> []).

Lemma wt_app Ls Ls' : wt (Ls ++ Ls') = (wt Ls + 2 ^ N.of_nat (length Ls) * wt Ls')%N.
Proof.
  induction Ls as [|L Ls IH]; cbn [wt app length]; [change (N.of_nat 0) with 0%N; rewrite N.pow_0_r; lia|].
  rewrite IH, Nat2N.inj_succ, N.pow_succ_r'. nia.
Qed.
Lemma wt_last Ls : Ls <> [] -> last Ls [] <> [] -> (2 ^ N.of_nat (length Ls - 1) <= wt Ls)%N.
Proof.
  induction Ls as [|L [|L' Ls] IH]; intros H0 H; [congruence| |].
  - cbn [last] in H. destruct L; [congruence|]. cbn [wt length Nat.sub]. change (N.of_nat 0) with 0%N. rewrite N.pow_0_r. lia.
  - specialize (IH ltac:(discriminate) H). cbn [wt length] in *. replace (S (S (length Ls)) - 1) with (S (S (length Ls) - 1)) by lia.
    rewrite Nat2N.inj_succ, N.pow_succ_r'. lia.
Qed.
Lemma top_levels Ls q : Ls <> [] -> last Ls [] <> [] -> (wt Ls < 2 ^ N.of_nat q)%N -> length Ls <= q.
Proof.
  intros H0 H1 H2. pose proof (wt_last Ls H0 H1) as H. assert (HH : (2 ^ N.of_nat (length Ls - 1) < 2 ^ N.of_nat q)%N) by lia.
  apply N.pow_lt_mono_r_iff in HH; lia.
Qed.
Lemma Top_levels Ls q : Top Ls -> (wt Ls < 2 ^ N.of_nat q)%N -> 0 < q -> length Ls <= q.
Proof. intros [H|[H1 H2]] HW Hq; [lia|]. apply top_levels; auto. Qed.

(** ** generalItemsCompress *)

Lemma last_cons_ne (L : list C) Ls : Ls <> [] -> last (L :: Ls) [] = last Ls [].
Proof. destruct Ls; [congruence|auto]. Qed.

Lemma general_ok k0 m0 sorted (NN : N) ub : 2 <= m0 -> (NN < 2 ^ 60)%N -> ub = ub_on_num_levels NN ->
  forall fuel outs G rest X Z Y nl cur target lvl r,
  length outs = lvl -> nl = lvl + length rest -> rest <> [] -> last rest [] <> [] -> (2 ^ N.of_nat lvl * wt rest <= NN)%N ->
  ub + 2 <= fuel + lvl -> length X = lvl -> length Z = ub + 1 - nl -> length Y = ub + 1 - lvl -> cur = csum outs + csum rest ->
  exists out nl' target' cur' r' G' Y', lgen fuel k0 m0 nl cur target lvl rest sorted r = Some (out, nl', target', cur', r') /\
    general_loop less sort coin fuel k0 m0 nl cur target lvl (concat outs ++ G ++ concat rest)
      (X ++ pb (csum outs + length G) rest ++ [csum outs + length G + csum rest] ++ Z) (pb 0 outs ++ [csum outs] ++ Y) sorted r =
    Some (nl', target', cur', concat (outs ++ out) ++ G', pb 0 (outs ++ out) ++ [csum (outs ++ out)] ++ Y', r') /\
    nl' = length (outs ++ out) /\ cur' = csum (outs ++ out) /\ length Y' = ub + 1 - nl' /\ nl' <= ub.
Proof.
  intros Hm HNN Hub. induction fuel as [|f IH]; intros outs G rest X Z Y nl cur target lvl r Hlvl Hnl Hne Hlast Hw Hfuel HX HZ HY Hcur.
  { assert (length rest <= 1 + N.to_nat (N.log2 NN) - lvl) as Hb; [|destruct rest; [congruence|cbn [length] in Hb; unfold ub_on_num_levels in Hub; lia]].
    pose proof (wt_last rest Hne Hlast) as Hwl.
    assert (HP : (2 ^ N.of_nat (lvl + (length rest - 1)) <= NN)%N) by (rewrite Nat2N.inj_add, N.pow_add_r; nia).
    apply N.log2_le_mono in HP. rewrite N.log2_pow2 in HP by lia. lia. }
  assert (Hub2 : nl <= ub).
  { pose proof (wt_last rest Hne Hlast) as Hwl.
    assert (HP : (2 ^ N.of_nat (lvl + (length rest - 1)) <= NN)%N) by (rewrite Nat2N.inj_add, N.pow_add_r; nia).
    apply N.log2_le_mono in HP. rewrite N.log2_pow2 in HP by lia. unfold ub_on_num_levels in Hub. destruct rest; [congruence|simpl length in *; lia]. }
  assert (Hub60 : ub <= 60).
  { unfold ub_on_num_levels in Hub. destruct (N.eq_dec NN 0) as [->|Hz]; [simpl in Hub; lia|].
    pose proof (proj1 (N.log2_lt_pow2 NN 60 ltac:(lia)) HNN). lia. }
  destruct rest as [|L rest']; [congruence|].
  cbn [general_loop lgen]. set (b := csum outs + length G) in *.
  (* the levels after the convenience write *)
  set (istop := lvl =? nl - 1).
  assert (HIn : exists La upper Z2, (if istop then do b0 <- nth_error (X ++ pb b (L :: rest') ++ [b + csum (L :: rest')] ++ Z) (lvl + 1);
                    wr (lvl + 2) b0 (X ++ pb b (L :: rest') ++ [b + csum (L :: rest')] ++ Z)
              else Some (X ++ pb b (L :: rest') ++ [b + csum (L :: rest')] ++ Z)) =
              Some (X ++ pb b (L :: La :: upper) ++ [b + csum (L :: La :: upper)] ++ Z2) /\
              La = hd [] rest' /\ upper = tl rest' /\ concat rest' = La ++ concat upper /\ csum rest' = length La + csum upper /\
              (istop = true -> rest' = []) /\ (istop = false -> rest' = La :: upper) /\ length Z2 = ub + 1 - (lvl + 2 + length upper)).
  { unfold istop. subst lvl. cbn [length] in *. destruct (Nat.eqb_spec (length outs) (nl - 1)) as [E|E].
    - destruct rest' as [|? ?]; [|simpl in Hnl; lia]. destruct Z as [|z Z]; [simpl in HZ; simpl in *; lia|].
      exists [], [], Z. split.
      + rewrite <- HX. cbn [pb app]. rewrite nth_after. cbn [nth_error bindo]. rewrite wr_after. unfold wr. cbn [length Nat.ltb Nat.leb upd option_map].
        rewrite !csum_cons, csum_nil. cbn [length pb app]. repeat (f_equal; try lia).
      + rewrite csum_nil. cbn [length hd tl concat app] in *. repeat split; auto; try discriminate. lia.
    - destruct rest' as [|La upper]; [simpl in Hnl; lia|]. exists La, upper, Z. split; [auto|].
      rewrite csum_cons. cbn [length hd tl concat app] in *. repeat split; auto; try discriminate. lia. }
  destruct HIn as (La & upper & Z2 & HIn & HLa & Hup & Hcc & Hcs & Ht1 & Ht2 & HZ2).
  change (nth_error (X ++ pb b (L :: rest') ++ [b + csum (L :: rest')] ++ Z)) with (nth_error (X ++ pb b (L :: rest') ++ [b + csum (L :: rest')] ++ Z)) in HIn.
  rewrite HIn. cbn [bindo]. clear HIn.
  assert (HI0 : nth_error (X ++ pb b (L :: La :: upper) ++ [b + csum (L :: La :: upper)] ++ Z2) lvl = Some b) by (cbn [pb app]; apply nth_seg; auto).
  assert (HI1 : nth_error (X ++ pb b (L :: La :: upper) ++ [b + csum (L :: La :: upper)] ++ Z2) (lvl + 1) = Some (b + length L)) by (rewrite <- HX, nth_after; auto).
  assert (HI2 : nth_error (X ++ pb b (L :: La :: upper) ++ [b + csum (L :: La :: upper)] ++ Z2) (lvl + 2) = Some (b + length L + length La)).
  { rewrite <- HX, nth_after. destruct upper; cbn [pb app nth_error]; auto. rewrite !csum_cons, csum_nil. f_equal. lia. }
  rewrite HI0, HI1. cbn [bindo]. rewrite sub_ok by lia. cbn [bindo]. replace (b + length L - b) with (length L) by lia.
  rewrite level_capacity_ok by (simpl in Hnl; lia). cbn [bindo].
  assert (HO : nth_error (pb 0 outs ++ [csum outs] ++ Y) lvl = Some (csum outs)) by (apply nth_seg; rewrite pb_length; auto).
  rewrite HO. cbn [bindo].
  destruct Y as [|y0 Y]; [simpl in HY; lia|]. cbn [length] in HY.
  assert (HWO : forall v, wr (lvl + 1) v (pb 0 outs ++ [csum outs] ++ y0 :: Y) = Some (pb 0 outs ++ [csum outs] ++ v :: Y)).
  { intros v. rewrite <- Hlvl. apply wr_pb1. }
  assert (HWX : forall v x0 y1 W, wr (lvl + 1) v (X ++ x0 :: y1 :: W) = Some (X ++ x0 :: v :: W)).
  { intros v x0 y1 W. rewrite <- HX, wr_after. reflexivity. }
  destruct ((cur <? target) || (length L <? dcap k0 m0 (nl - lvl - 1))) eqn:EC.
  - (* copied *)
    cbn [concat]. rewrite Hcc.
    destruct (copy_ip_spec L (concat outs) G (La ++ concat upper)) as (G1 & HE1 & HG1).
    change (length (concat outs)) with (csum outs) in HE1. fold b in HE1. rewrite HE1. cbn [bindo].
    rewrite HWO. cbn [bindo]. fold istop.
    assert (HpO : forall W, pb 0 outs ++ csum outs :: csum outs + length L :: W = pb 0 (outs ++ [L]) ++ csum (outs ++ [L]) :: W).
    { intros W. rewrite pb_app. cbn [pb]. rewrite <- app_assoc. cbn [app]. f_equal. f_equal. f_equal. rewrite csum_app, csum_cons, csum_nil. lia. }
    destruct istop eqn:Eis.
    + rewrite (Ht1 eq_refl) in *. exists [L], nl, target, cur, r, G1, Y. cbn [hd tl] in *. subst La upper. cbn [concat] in *.
      split; [auto|]. split.
      * f_equal. f_equal. f_equal; [f_equal|].
        -- rewrite concat_app. cbn [concat]. rewrite !app_nil_r, <- !app_assoc. auto.
        -- cbn [app]. apply HpO.
      * rewrite app_length, csum_app, csum_cons, csum_nil in *. cbn [length] in *. repeat split; lia.
    + assert (Er : rest' = La :: upper) by auto.
      destruct (IH (outs ++ [L]) G1 rest' (X ++ [b]) Z2 Y nl cur target (lvl + 1) r) as (out & nl' & target' & cur' & r' & G' & Y' & HL' & HG' & Hn' & Hc' & HY' & Hb'); auto.
      { rewrite app_length. simpl. lia. } { simpl in Hnl. lia. } { rewrite Er; discriminate. } { rewrite <- (last_cons_ne L); auto. rewrite Er; discriminate. }
      { rewrite Nat.add_1_r, Nat2N.inj_succ, N.pow_succ_r'. cbn [wt] in Hw. nia. } { lia. } { rewrite app_length. simpl. lia. }
      { rewrite HZ2, Hnl, Er. simpl. lia. } { lia. } { rewrite csum_app, csum_cons, csum_nil. rewrite csum_cons in Hcur. lia. }
      exists (L :: out), nl', target', cur', r', G', Y'. rewrite HL'. cbn [bindo]. rewrite <- !app_assoc in *. cbn [app] in *.
      split; [auto|]. split; [|auto].
      rewrite <- HG'. f_equal.
      * rewrite concat_app. cbn [concat]. rewrite app_nil_r, <- !app_assoc, Hcc. auto.
      * rewrite Er. cbn [pb app]. f_equal. f_equal.
        rewrite (csum_app outs), !csum_cons, csum_nil. f_equal; [unfold b; lia|].
        replace (csum outs + (length L + 0) + length G1 + length La) with (b + length L + length La) by (unfold b; lia). f_equal. f_equal. unfold b. lia.
      * apply HpO.
  - (* compacted *)
    apply orb_false_iff in EC. destruct EC as [_ EC]. apply Nat.ltb_ge in EC.
    assert (HL2 : 2 <= length L). { pose proof (dcap_m k0 m0 (nl - lvl - 1) ltac:(simpl in Hnl; lia)). lia. }
    set (h := length L / 2). assert (Hh : 0 < h) by (unfold h; lia).
    pose proof (even_part_length L) as HEp. fold h in HEp. pose proof (odd_lo_length L) as HOl. pose proof (odd_even L) as HOE.
    assert (HLlen : length L = length (odd_lo L) + 2 * h) by (rewrite HOE at 1; rewrite app_length; lia).
    rewrite HI2. cbn [bindo]. rewrite sub_ok by lia. cbn [bindo]. replace (b + length L + length La - (b + length L)) with (length La) by lia.
    set (odd := length L mod 2 =? 1).
    assert (Hadj : (if odd then b + 1 else b) = b + length (odd_lo L)).
    { rewrite HOl. unfold odd. pose proof (Nat.mod_upper_bound (length L) 2 ltac:(lia)). destruct (Nat.eqb_spec (length L mod 2) 1); lia. }
    assert (Hpop : (if odd then length L - 1 else length L) = 2 * h).
    { unfold odd. pose proof (Nat.mod_upper_bound (length L) 2 ltac:(lia)). destruct (Nat.eqb_spec (length L mod 2) 1); rewrite HOl in HLlen; lia. }
    rewrite Hadj, Hpop. replace (2 * h / 2) with h by (rewrite Nat.mul_comm, Nat.div_mul; lia).
    cbn [concat]. rewrite Hcc.
    match goal with |- context [bindo (if odd then ?a else ?b0) _] =>
      assert (HLO : exists G1, length G1 = length G /\ (if odd then a else b0) =
        Some ((concat outs ++ odd_lo L ++ G1) ++ even_part L ++ La ++ concat upper, pb 0 outs ++ [csum outs] ++ csum outs + length (odd_lo L) :: Y)) end.
    { unfold odd. pose proof (Nat.mod_upper_bound (length L) 2 ltac:(lia)). unfold odd_lo, even_part in *.
      destruct (Nat.eqb_spec (length L mod 2) 1) as [EO|EO].
      - destruct L as [|x L]; [simpl in HL2; lia|]. cbn [firstn skipn length] in *.
        replace (concat outs ++ G ++ (x :: L) ++ La ++ concat upper) with ((concat outs ++ G) ++ x :: L ++ La ++ concat upper) by (rewrite <- !app_assoc; auto).
        rewrite nth_seg by (rewrite app_length; reflexivity). cbn [bindo].
        destruct (G ++ [x]) as [|g G1] eqn:EG; [destruct G; discriminate|].
        assert (HG1 : length G1 = length G). { apply (f_equal (@length C)) in EG. rewrite app_length in EG. simpl in EG. lia. }
        replace ((concat outs ++ G) ++ x :: L ++ La ++ concat upper) with (concat outs ++ g :: G1 ++ L ++ La ++ concat upper).
        2:{ change (g :: G1 ++ L ++ La ++ concat upper) with ((g :: G1) ++ L ++ La ++ concat upper). rewrite <- EG, <- !app_assoc. auto. }
        rewrite wr_seg by reflexivity. cbn [bindo]. rewrite HWO. cbn [bindo]. exists G1. split; auto. f_equal. f_equal. rewrite <- !app_assoc. auto.
      - exists G. split; auto. rewrite HWO. cbn [bindo length app]. rewrite Nat.add_0_r. f_equal. f_equal. rewrite <- !app_assoc. auto. }
    destruct HLO as (G1 & HG1 & ->). cbn [bindo].
    destruct (halve_and_merge_spec ((lvl =? 0) && negb sorted) (concat outs ++ odd_lo L ++ G1) (even_part L) La (concat upper)
      (b + length (odd_lo L)) (2 * h) h (b + length L) (length La) (length r) h) as (Gh & HEq & HGh); auto.
    { rewrite !app_length. unfold b, csum. lia. } { rewrite !app_length. unfold b, csum in *. lia. }
    rewrite HEq. cbn [bindo]. clear HEq.
    rewrite <- HLa, <- Hup. set (H' := halves (coin (length r)) ((lvl =? 0) && negb sorted) (even_part L) La).
    assert (HH : length H' = h + length La) by (apply halves_length; auto).
    rewrite csum_cons in Hcur. rewrite sub_ok by lia. cbn [bindo]. rewrite sub_ok by lia. cbn [bindo].
    cbn [pb app]. rewrite HWX. cbn [bindo].
    fold istop.
    assert (Hnl' : (if istop then nl + 1 else nl) = lvl + 1 + length (H' :: upper)).
    { destruct istop eqn:Eis; cbn [length] in *; [rewrite Hnl, (Ht1 eq_refl) in *; subst upper; simpl; lia|rewrite Hnl, (Ht2 eq_refl); simpl; lia]. }
    assert (HTA : (if istop then do c <- level_capacity k0 (nl + 1) 0 m0; Some (nl + 1, target + c) else Some (nl, target)) =
                  Some (if istop then nl + 1 else nl, if istop then target + dcap k0 m0 nl else target)).
    { destruct istop; auto. rewrite level_capacity_ok by lia. cbn [bindo]. replace (nl + 1 - 0 - 1) with nl by lia. auto. }
    rewrite HTA. cbn [bindo]. rewrite Hnl'.
    destruct (Nat.eqb_spec lvl (lvl + 1 + length (H' :: upper) - 1)) as [Ex|_]; [simpl in Ex; lia|].
    destruct (IH (outs ++ [odd_lo L]) (G1 ++ Gh) (H' :: upper) (X ++ [b]) Z2 Y (lvl + 1 + length (H' :: upper)) (cur - h)
       (if istop then target + dcap k0 m0 nl else target) (lvl + 1) (lvl :: r)) as (out & nl' & target' & cur' & r' & G' & Y' & HL' & HG' & Hn' & Hc' & HY' & Hb'); auto.
    { rewrite app_length. simpl. lia. } { discriminate. }
    { destruct upper as [|U upper]; [cbn [last]; destruct H'; [simpl in HH; lia|discriminate]|].
      rewrite last_cons_ne by discriminate. destruct istop eqn:Eis; [rewrite (Ht1 eq_refl) in Hup; discriminate|].
      rewrite (Ht2 eq_refl) in Hlast. rewrite !last_cons_ne in Hlast by discriminate. auto. }
    { rewrite Nat.add_1_r, Nat2N.inj_succ, N.pow_succ_r'. cbn [wt] in *. rewrite HH.
      assert (HwR : (wt rest' = N.of_nat (length La) + 2 * wt upper)%N). { destruct istop; [rewrite (Ht1 eq_refl) in *; subst La upper; reflexivity|rewrite (Ht2 eq_refl); reflexivity]. }
      rewrite HwR in Hw. assert (HLN : N.of_nat (length L) = (N.of_nat (length (odd_lo L)) + 2 * N.of_nat h)%N) by lia.
      rewrite HLN in Hw. rewrite Nat2N.inj_add. nia. }
    { lia. } { rewrite app_length. simpl. lia. } { rewrite HZ2. cbn [length]. lia. } { lia. }
    { rewrite csum_app, !csum_cons, csum_nil. lia. }
    exists (odd_lo L :: out), nl', target', cur', r', G', Y'. rewrite HL'. cbn [bindo]. rewrite <- (app_assoc outs) in *. cbn [app] in *.
    split; [auto|]. split; [|auto].
    rewrite <- HG'. f_equal.
    + rewrite concat_app. cbn [concat]. rewrite app_nil_r, <- !app_assoc. auto.
    + cbn [pb app]. rewrite <- !app_assoc. cbn [app]. f_equal. f_equal.
      rewrite (csum_app outs), !csum_cons, csum_nil, app_length. f_equal; [lia|].
      replace (csum outs + (length (odd_lo L) + 0) + (length G1 + length Gh) + length H') with (b + length L + length La) by (unfold b; lia).
      f_equal. f_equal. unfold b in *. lia.
    + rewrite pb_app. cbn [pb]. rewrite <- !app_assoc. cbn [app]. f_equal. f_equal. f_equal. rewrite csum_app, csum_cons, csum_nil. lia.
Qed.

Lemma lgen_mono k0 m0 sorted : forall f nl cur target lvl rest r out nl' target' cur' r',
  lgen f k0 m0 nl cur target lvl rest sorted r = Some (out, nl', target', cur', r') -> nl <= nl'.
Proof.
  induction f as [|f IHf]; intros nl cur target lvl rest r out nl' target' cur' r' H; [discriminate|]. cbn [lgen] in H. destruct rest as [|L rest]; [discriminate|].
  destruct ((cur <? target) || (length L <? dcap k0 m0 (nl - lvl - 1))).
  - destruct (lvl =? nl - 1); [injection H as <- <- <- <- <-; auto|].
    destruct (lgen f k0 m0 nl cur target (lvl + 1) rest sorted r) as [[[[[? ?] ?] ?] ?]|] eqn:E; [|discriminate]. cbn [bindo] in H. injection H as <- <- <- <- <-. eapply IHf; eauto.
  - match type of H with bindo ?x _ = _ => destruct x as [[[[[? ?] ?] ?] ?]|] eqn:E; [|discriminate] end. cbn [bindo] in H. injection H as <- <- <- <- <-.
    apply IHf in E. destruct (lvl =? nl - 1); lia.
Qed.

(** After generalItemsCompress the items fit in the capacity it computed. *)
Lemma lgen_fits k0 m0 sorted : 2 <= m0 -> forall fuel nl cur target lvl rest r out nl' target' cur' r' oc,
  lgen fuel k0 m0 nl cur target lvl rest sorted r = Some (out, nl', target', cur', r') ->
  nl = lvl + length rest -> cur = oc + csum rest -> target = tot k0 m0 nl -> nl' <= 60 ->
  (cur < target \/ oc + tot k0 m0 (nl - lvl) <= tot k0 m0 nl) ->
  target' = tot k0 m0 nl' /\ cur' <= target' /\ nl <= nl' /\ cur' = oc + csum out /\ nl' = lvl + length out.
Proof.
  intros Hm. induction fuel as [|f IH]; intros nl cur target lvl rest r out nl' target' cur' r' oc H Hnl Hcur Ht H60 HI; [discriminate|].
  cbn [lgen] in H. destruct rest as [|L rest']; [discriminate|]. cbn [length] in Hnl. rewrite csum_cons in Hcur.
  destruct ((cur <? target) || (length L <? dcap k0 m0 (nl - lvl - 1))) eqn:EC.
  - destruct (Nat.eqb_spec lvl (nl - 1)) as [Et|Et].
    + injection H as <- <- <- <- <-. destruct rest'; [|simpl in Hnl; lia]. rewrite csum_nil in Hcur. rewrite csum_cons, csum_nil. cbn [length] in *.
      split; [auto|]. split; [|split; [lia|split; lia]].
      apply orb_true_iff in EC. destruct EC as [EC|EC]; apply Nat.ltb_lt in EC; [lia|].
      destruct HI as [HI|HI]; [lia|]. replace (nl - lvl) with 1 in HI by lia. replace (nl - lvl - 1) with 0 in EC by lia. cbn [tot] in HI. lia.
    + destruct (lgen f k0 m0 nl cur target (lvl + 1) rest' sorted r) as [[[[[out1 a] b] c] d]|] eqn:EL; [|discriminate].
      cbn [bindo] in H. injection H as <- <- <- <- <-.
      destruct (IH _ _ _ _ _ _ _ _ _ _ _ (oc + length L) EL) as (A & B & D & E & F); auto; try lia.
      { apply orb_true_iff in EC. destruct EC as [EC|EC]; apply Nat.ltb_lt in EC; [left; lia|]. destruct HI as [HI|HI]; [left; lia|right].
        replace (nl - lvl) with (S (nl - lvl - 1)) in HI by lia. cbn [tot] in HI. replace (nl - (lvl + 1)) with (nl - lvl - 1) by lia. lia. }
      rewrite csum_cons. cbn [length]. repeat split; auto; lia.
  - apply orb_false_iff in EC. destruct EC as [EC1 EC]. apply Nat.ltb_ge in EC, EC1.
    destruct (lgen f k0 m0 (if lvl =? nl - 1 then nl + 1 else nl) (cur - length L / 2) (if lvl =? nl - 1 then target + dcap k0 m0 nl else target) (lvl + 1)
       (halves (coin (length r)) ((lvl =? 0) && negb sorted) (even_part L) (hd [] rest') :: tl rest') sorted (lvl :: r)) as [[[[[out1 a] b] c] d]|] eqn:EL; [|discriminate].
    cbn [bindo] in H. injection H as <- <- <- <- <-.
    assert (Hc : csum rest' = length (hd [] rest') + csum (tl rest')) by (destruct rest'; [reflexivity|apply csum_cons]).
    assert (HM : a <= 60 -> nl <= 60) by (intros Ha; apply lgen_mono in EL; destruct (lvl =? nl - 1); lia).
    assert (Hd : forall d, d <= 60 -> 1 <= dcap k0 m0 d) by (intros d0 Hd0; pose proof (dcap_m k0 m0 d0 Hd0); lia).
    pose proof (odd_lo_length L) as HOl. pose proof (even_part_length L) as HEp.
    pose proof (Nat.mod_upper_bound (length L) 2 ltac:(lia)) as Hmod. pose proof (Nat.div_mod_eq (length L) 2) as Hdm.
    destruct (IH _ _ _ _ _ _ _ _ _ _ _ (oc + length (odd_lo L)) EL) as (A & B & D & E & F); auto.
    { cbn [length]. destruct (Nat.eqb_spec lvl (nl - 1)); destruct rest'; simpl length in *; simpl tl; simpl length; lia. }
    { rewrite csum_cons, (halves_length _ _ _ _ _ HEp). lia. }
    { destruct (lvl =? nl - 1); [rewrite Nat.add_1_r; cbn [tot]; lia|auto]. }
    { destruct HI as [HI|HI]; [lia|right].
      destruct (Nat.eqb_spec lvl (nl - 1)) as [Et|Et].
      - rewrite Nat.add_1_r. cbn [tot]. replace (S nl - (lvl + 1)) with 1 by lia. replace (nl - lvl) with 1 in HI by lia. specialize (Hd nl ltac:(lia)). lia.
      - replace (nl - lvl) with (S (nl - lvl - 1)) in HI by lia. cbn [tot] in HI. replace (nl - (lvl + 1)) with (nl - lvl - 1) by lia. specialize (Hd (nl - lvl - 1) ltac:(lia)). lia. }
    rewrite csum_cons. cbn [length]. split; [auto|]. split; [auto|]. split; [destruct (lvl =? nl - 1); lia|]. split; lia.
Qed.

(** ** populateItemWorkArrays *)

Lemma zipm_nil_r (A : list (list C)) : zipm A [] = A.
Proof. destruct A; auto. Qed.
Lemma zipm_step (A B : list (list C)) : (A <> [] \/ B <> []) -> zipm A B = mergel (hd [] A) (hd [] B) :: zipm (tl A) (tl B).
Proof.
  intros H. destruct A as [|a A], B as [|b B]; cbn [zipm hd tl]; auto.
  all: try solve [destruct H; congruence].
  all: rewrite ?mergel_nil_l, ?mergel_nil_r, ?zipm_nil_r; auto.
Qed.
Lemma zipm_length (A : list (list C)) : forall B : list (list C), length (zipm A B) = Nat.max (length A) (length B).
Proof. induction A as [|a A IH]; intros [|b B]; cbn [zipm length]; auto; try lia. rewrite IH. auto. Qed.
Lemma mergel_length A B : length (mergel A B) = length A + length B.
Proof. rewrite <- (Permutation_length (mergel_perm A B)), app_length. auto. Qed.
Lemma zipm_csum (A : list (list C)) : forall B : list (list C), csum (zipm A B) = csum A + csum B.
Proof. induction A as [|a A IH]; intros [|b B]; cbn [zipm]; rewrite ?csum_cons, ?csum_nil; auto. rewrite IH, mergel_length. lia. Qed.

(** [Ar] are the levels from [lvl] on. *)
Definition from (lvl : nat) (Ad Ar : list (list C)) : Prop := length Ad = lvl \/ (length Ad <= lvl /\ Ar = []).

Lemma level_size_ok lvl Ad Ar b : from lvl Ad Ar ->
  current_level_size lvl (length (Ad ++ Ar)) (pb b (Ad ++ Ar) ++ [b + csum (Ad ++ Ar)]) = Some (length (hd [] Ar)).
Proof.
  intros HF. unfold current_level_size. rewrite app_length. destruct Ar as [|L Ar].
  - destruct (Nat.leb_spec (length Ad + length (@nil (list C))) lvl) as [_|Hc]; auto. destruct HF as [HF|[HF _]]; simpl in Hc; lia.
  - destruct HF as [HF|[_ HF]]; [|discriminate]. destruct (Nat.leb_spec (length Ad + length (L :: Ar)) lvl) as [Hc|_]; [simpl in Hc; lia|].
    rewrite pb_app, <- app_assoc. subst lvl. rewrite <- (pb_length b Ad). rewrite nth_after.
    replace (nth_error (pb b Ad ++ pb (b + csum Ad) (L :: Ar) ++ [b + csum (Ad ++ L :: Ar)]) (length (pb b Ad))) with (Some (b + csum Ad)).
    2:{ symmetry. cbn [pb app]. apply nth_seg. auto. }
    assert (E : nth_error (pb (b + csum Ad) (L :: Ar) ++ [b + csum (Ad ++ L :: Ar)]) 1 = Some (b + csum Ad + length L)).
    { destruct Ar; cbn [pb app nth_error]; auto. rewrite csum_app, !csum_cons, csum_nil. f_equal. lia. }
    rewrite E. cbn [bindo hd]. rewrite sub_ok by lia. f_equal. lia.
Qed.
Lemma level_pos_ok lvl Ad L Ar b X : from lvl Ad (L :: Ar) -> nth_error (pb b (Ad ++ L :: Ar) ++ X) lvl = Some (b + csum Ad).
Proof.
  intros [HF|[_ HF]]; [|discriminate]. rewrite pb_app, <- app_assoc. cbn [pb app]. apply nth_seg. rewrite pb_length. auto.
Qed.

Lemma populate_ok (preA preB : list C) (myLv otLv : list nat) (myIt otIt : list C) (A B : list (list C)) : 
  myIt = preA ++ concat A -> myLv = pb (length preA) A ++ [length preA + csum A] ->
  otIt = preB ++ concat B -> otLv = pb (length preB) B ++ [length preB + csum B] ->
  forall cnt (Ad Ar Bd Br : list (list C)) (D G : list C) (X Z : list nat) lvl, A = Ad ++ Ar -> B = Bd ++ Br -> from lvl Ad Ar -> from lvl Bd Br -> cnt = Nat.max (length Ar) (length Br) ->
  length G = csum (zipm Ar Br) -> length X = lvl -> cnt <= length Z ->
  populate_loop less cnt lvl (D ++ G) (X ++ [length D] ++ Z) (length A) myLv myIt (length B) otLv otIt =
  Some (D ++ concat (zipm Ar Br), X ++ pb (length D) (zipm Ar Br) ++ [length D + csum (zipm Ar Br)] ++ skipn cnt Z).
Proof.
  intros HmyIt HmyLv HotIt HotLv. induction cnt as [|cnt IH]; intros Ad Ar Bd Br D G X Z lvl HA HB HfA HfB Hc HG HX HZ.
  - destruct Ar; [|cbn [length] in Hc; lia]. destruct Br; [|cbn [length] in Hc; lia]. cbn [zipm] in *. rewrite csum_nil in HG. destruct G; [|simpl in HG; lia].
    cbn [populate_loop concat pb app skipn]. rewrite csum_nil, Nat.add_0_r. auto.
  - assert (Hne : Ar <> [] \/ Br <> []). { destruct Ar, Br; cbn [length] in Hc; try lia; (left; discriminate) || (right; discriminate). }
    rewrite (zipm_step Ar Br Hne) in *. cbn [populate_loop].
    rewrite HmyLv at 1. rewrite HA at 1 2 3. rewrite level_size_ok by auto. cbn [bindo].
    rewrite HotLv at 1. rewrite HB at 1 2 3. rewrite level_size_ok by auto. cbn [bindo].
    destruct Z as [|z Z]; [simpl in HZ; lia|].
    cbn [app]. rewrite nth_seg by auto. cbn [bindo].
    replace (wr (lvl + 1) (length D + length (hd [] Ar) + length (hd [] Br)) (X ++ length D :: z :: Z)) with
      (Some (X ++ length D :: (length D + length (hd [] Ar) + length (hd [] Br)) :: Z)).
    2:{ rewrite <- HX, wr_after. reflexivity. }
    cbn [bindo]. rewrite csum_cons in HG.
    set (L := hd [] Ar) in *. set (M := hd [] Br) in *.
    destruct (split_at G (length L + length M)) as (G1 & G2 & -> & HG1); [rewrite HG, mergel_length; lia|].
    rewrite app_length, mergel_length in HG.
    (* the item copies *)
    match goal with |- bindo ?e _ = _ => assert (HE : e = Some (D ++ mergel L M ++ G2)) end.
    { destruct (Nat.ltb_spec 0 (length L)) as [HL|HL]; destruct (Nat.eqb_spec (length M) 0) as [HM|HM]; cbn [andb].
      - destruct M; [|simpl in HM; lia]. rewrite mergel_nil_r. unfold L in *. destruct Ar as [|L0 Ar]; [simpl in HL; lia|]. cbn [hd] in *.
        rewrite HmyLv, HA, level_pos_ok by auto. cbn [bindo]. rewrite HmyIt, HA, concat_app. cbn [concat].
        replace (preA ++ concat Ad ++ L0 ++ concat Ar) with ((preA ++ concat Ad) ++ L0 ++ concat Ar) by (rewrite <- !app_assoc; auto).
        pose proof (copy_sep_spec L0 (preA ++ concat Ad) (concat Ar) D G1 G2 ltac:(simpl in HG1; lia)) as HCp. rewrite app_length in HCp. exact HCp.
      - destruct (Nat.eqb_spec (length L) 0); [lia|]. destruct (Nat.ltb_spec 0 (length M)); [|lia]. cbn [andb].
        unfold L, M in *. destruct Ar as [|L0 Ar]; [simpl in HL; lia|]. destruct Br as [|M0 Br]; [simpl in HM; lia|]. cbn [hd] in *.
        rewrite HmyLv, HA, level_pos_ok by auto. cbn [bindo]. rewrite HotLv, HB, level_pos_ok by auto. cbn [bindo].
        rewrite HmyIt, HA, HotIt, HB, !concat_app. cbn [concat]. unfold merge_sorted.
        replace (preA ++ concat Ad ++ L0 ++ concat Ar) with ((preA ++ concat Ad) ++ L0 ++ concat Ar) by (rewrite <- !app_assoc; auto).
        replace (preB ++ concat Bd ++ M0 ++ concat Br) with ((preB ++ concat Bd) ++ M0 ++ concat Br) by (rewrite <- !app_assoc; auto).
        pose proof (merge_sep_spec (length L0 + length M0) (preA ++ concat Ad) L0 (concat Ar) (preB ++ concat Bd) M0 (concat Br) D G1 G2 eq_refl HG1) as HMs.
        rewrite !app_length in HMs. exact HMs.
      - destruct (Nat.eqb_spec (length L) 0); [|lia]. destruct (Nat.ltb_spec 0 (length M)); [lia|]. cbn [andb].
        destruct L; [|simpl in HL; lia]. destruct M; [|simpl in HM; lia]. destruct G1; [|simpl in HG1; lia]. auto.
      - destruct (Nat.eqb_spec (length L) 0); [|lia]. destruct (Nat.ltb_spec 0 (length M)); [|lia]. cbn [andb].
        destruct L; [|simpl in HL; lia]. rewrite mergel_nil_l. unfold M in *. destruct Br as [|M0 Br]; [simpl in HM; lia|]. cbn [hd] in *.
        rewrite HotLv, HB, level_pos_ok by auto. cbn [bindo]. rewrite HotIt, HB, concat_app. cbn [concat].
        replace (preB ++ concat Bd ++ M0 ++ concat Br) with ((preB ++ concat Bd) ++ M0 ++ concat Br) by (rewrite <- !app_assoc; auto).
        pose proof (copy_sep_spec M0 (preB ++ concat Bd) (concat Br) D G1 G2 ltac:(simpl in HG1; lia)) as HCp. rewrite app_length in HCp. exact HCp. }
    rewrite HE. cbn [bindo]. clear HE.
    assert (HsA : exists Ad', A = Ad' ++ tl Ar /\ from (lvl + 1) Ad' (tl Ar)).
    { destruct Ar as [|L0 Ar]; [exists Ad; split; auto; right; destruct HfA as [|[? _]]; split; auto; lia|].
      exists (Ad ++ [L0]). rewrite <- app_assoc. split; [auto|]. left. rewrite app_length. destruct HfA as [|[_ ?]]; [simpl; lia|discriminate]. }
    assert (HsB : exists Bd', B = Bd' ++ tl Br /\ from (lvl + 1) Bd' (tl Br)).
    { destruct Br as [|L0 Br]; [exists Bd; split; auto; right; destruct HfB as [|[? _]]; split; auto; lia|].
      exists (Bd ++ [L0]). rewrite <- app_assoc. split; [auto|]. left. rewrite app_length. destruct HfB as [|[_ ?]]; [simpl; lia|discriminate]. }
    destruct HsA as (Ad' & HA' & HfA'), HsB as (Bd' & HB' & HfB').
    specialize (IH Ad' (tl Ar) Bd' (tl Br) (D ++ mergel L M) G2 (X ++ [length D]) Z (lvl + 1) HA' HB' HfA' HfB').
    rewrite !app_length, mergel_length in IH. rewrite <- !app_assoc in IH. cbn [app length] in IH |- *.
    rewrite Nat.add_assoc in IH. rewrite IH; auto; try lia.
    + cbn [concat pb app skipn]. rewrite csum_cons, mergel_length. rewrite <- ?app_assoc. cbn [app]. rewrite !Nat.add_assoc. reflexivity.
    + destruct Ar, Br; cbn [tl length] in *; lia.
    + simpl in HZ. lia.
Qed.

(** ** What happens to the levels, as a relation *)

(** One compaction of level [c]: half of its items go up; an odd one stays. Level 0 is sorted first. *)
Inductive step : list (list C) -> nat -> list (list C) -> Prop :=
| step_mid lower L La upper b : 2 <= length L ->
    step (lower ++ L :: La :: upper) (length lower) (lower ++ odd_lo L :: halves b (length lower =? 0) (even_part L) La :: upper)
| step_top lower L b : 2 <= length L ->
    step (lower ++ [L]) (length lower) (lower ++ [odd_lo L; halves b (length lower =? 0) (even_part L) []]).

(** Compactions (levels in [cs], most recent first) and arrivals (items [xs], most recent first), interleaved. *)
Inductive grows (Ls : list (list C)) : list C -> list nat -> list (list C) -> Prop :=
| grows_refl : grows Ls [] [] Ls
| grows_step xs cs Ls1 c Ls2 : grows Ls xs cs Ls1 -> step Ls1 c Ls2 -> grows Ls xs (c :: cs) Ls2
| grows_add xs cs x L0 t : grows Ls xs cs (L0 :: t) -> grows Ls (x :: xs) cs ((x :: L0) :: t).

Lemma grows_trans (A : list (list C)) xs cs (B : list (list C)) ys ds (D : list (list C)) : grows A xs cs B -> grows B ys ds D -> grows A (ys ++ xs) (ds ++ cs) D.
Proof. intros H. induction 1; cbn [app]; auto; [eapply grows_step; eauto|apply grows_add; auto]. Qed.

Lemma l_compress_step k0 m0 T Ls r T' Ls' r' : Fit k0 m0 T Ls -> csum Ls = T -> length Ls <= 60 ->
  l_compress k0 m0 T Ls r = Some (T', Ls', r') -> exists c, r' = c :: r /\ step Ls c Ls'.
Proof.
  intros HF HT HL H. destruct (l_compress_some _ _ _ _ r HF HT HL) as (T2 & Ls2 & lower & L & La & upper & Ls1 & HC & _ & HLs1 & E & H2 & HLs2 & _).
  rewrite H in HC. injection HC as <- <- ->. exists (length lower). split; auto. subst Ls'.
  destruct HLs1 as [->|(E1 & -> & ->)].
  - subst Ls. constructor; auto.
  - assert (Ls = lower ++ [L]) as ->.
    { rewrite E1 in E. change (lower ++ [L; []]) with (lower ++ [L] ++ [[]]) in E. rewrite app_assoc in E. apply app_inj_tail in E. tauto. }
    constructor; auto.
Qed.

Lemma lgen_grows k0 m0 : 2 <= m0 -> forall f nl cur target lvl rest r out nl' target' cur' r' outs,
  lgen f k0 m0 nl cur target lvl rest false r = Some (out, nl', target', cur', r') -> nl = lvl + length rest -> nl' <= 60 -> length outs = lvl ->
  exists cs, r' = cs ++ r /\ grows (outs ++ rest) [] cs (outs ++ out).
Proof.
  intros Hm. induction f as [|f IH]; intros nl cur target lvl rest r out nl' target' cur' r' outs H Hnl H60 Hout; [discriminate|].
  pose proof (lgen_mono _ _ _ _ _ _ _ _ _ _ _ _ _ _ _ H) as Hmono.
  cbn [lgen] in H. destruct rest as [|L rest']; [discriminate|]. cbn [length] in Hnl.
  destruct ((cur <? target) || (length L <? dcap k0 m0 (nl - lvl - 1))) eqn:EC.
  - destruct (Nat.eqb_spec lvl (nl - 1)) as [Et|Et].
    + injection H as <- <- <- <- <-. destruct rest'; [|cbn [length] in Hnl; lia]. exists []. split; auto. constructor.
    + destruct (lgen f k0 m0 nl cur target (lvl + 1) rest' false r) as [[[[[out1 a] b] c] d]|] eqn:EL; [|discriminate].
      cbn [bindo] in H. injection H as <- <- <- <- <-.
      destruct (IH _ _ _ _ _ _ _ _ _ _ _ (outs ++ [L]) EL) as (cs & -> & HG); try lia; [rewrite app_length; cbn [length]; lia|].
      exists cs. split; auto. rewrite <- !app_assoc in HG. exact HG.
  - apply orb_false_iff in EC. destruct EC as [_ EC]. apply Nat.ltb_ge in EC.
    match type of H with bindo ?x _ = _ => destruct x as [[[[[out1 a] b] c] d]|] eqn:EL; [|discriminate] end.
    cbn [bindo] in H. injection H as <- <- <- <- <-.
    assert (H2 : 2 <= length L) by (pose proof (dcap_m k0 m0 (nl - lvl - 1) ltac:(lia)); lia).
    destruct (IH _ _ _ _ _ _ _ _ _ _ _ (outs ++ [odd_lo L]) EL) as (cs & -> & HG); auto.
    { cbn [length]. destruct (Nat.eqb_spec lvl (nl - 1)); destruct rest'; cbn [length tl] in *; lia. }
    { rewrite app_length. cbn [length]. lia. }
    exists (cs ++ [lvl]). split; [rewrite <- app_assoc; auto|]. rewrite <- !app_assoc in HG. cbn [app] in HG.
    change (@nil C) with (@nil C ++ []). eapply grows_trans; [|exact HG]. eapply grows_step; [constructor|].
    rewrite andb_true_r. subst lvl. destruct rest' as [|La up]; cbn [hd tl]; constructor; auto.
Qed.

(** Weight, number of levels and the shape of the top level. *)
Lemma halves_nonempty b d L La : 2 <= length L -> halves b d (even_part L) La <> [].
Proof.
  intros H E. apply (f_equal (@length C)) in E. rewrite (halves_length _ _ _ _ _ (even_part_length L)) in E. cbn [length] in E.
  assert (1 <= length L / 2) by lia. lia.
Qed.
Lemma step_wt (A : list (list C)) c (B : list (list C)) : step A c B -> wt B = wt A /\ (Top A -> Top B) /\ length A <= length B /\ A <> [] /\ B <> [] /\ c + 1 < length B /\ length B <= length A + 1.
Proof.
  intros [lower L La upper b H2|lower L b H2]; pose proof (even_part_length L) as HE; pose proof (odd_lo_length L) as HO;
    pose proof (Nat.div_mod_eq (length L) 2) as HD; rewrite !wt_app; cbn [wt]; rewrite (halves_length _ _ _ _ _ HE), HO;
    assert (HLN : N.of_nat (length L) = (2 * N.of_nat (length L / 2) + N.of_nat (length L mod 2))%N) by lia.
  - split; [rewrite HLN, Nat2N.inj_add; nia|]. split; [|repeat split; rewrite ?app_length; cbn [length]; try lia; try (destruct lower; discriminate)].
    intros [HT|[_ HT]]; [rewrite app_length in HT; cbn [length] in HT; lia|]. right. split; [destruct lower; discriminate|].
    destruct upper as [|U upper].
    + change (lower ++ odd_lo L :: halves b (length lower =? 0) (even_part L) La :: []) with (lower ++ [odd_lo L] ++ [halves b (length lower =? 0) (even_part L) La]).
      rewrite app_assoc, last_last. apply halves_nonempty; auto.
    + destruct (snoc_cases (U :: upper)) as [E|(up & z & E)]; [discriminate|]. rewrite E in *.
      replace (lower ++ L :: La :: up ++ [z]) with ((lower ++ L :: La :: up) ++ [z]) in HT by (rewrite <- app_assoc; auto).
      match goal with |- last (lower ++ ?x :: ?y :: up ++ [z]) [] <> [] => replace (lower ++ x :: y :: up ++ [z]) with ((lower ++ x :: y :: up) ++ [z]) by (rewrite <- app_assoc; auto) end.
      rewrite last_last in *. auto.
  - split; [rewrite HLN, Nat2N.inj_add; change (N.of_nat (length (@nil C))) with 0%N; nia|]. split; [|repeat split; rewrite ?app_length; cbn [length]; try lia; try (destruct lower; discriminate)].
    intros _. right. split; [destruct lower; discriminate|].
    change (lower ++ [odd_lo L; halves b (length lower =? 0) (even_part L) []]) with (lower ++ [odd_lo L] ++ [halves b (length lower =? 0) (even_part L) []]).
    rewrite app_assoc, last_last. apply halves_nonempty; auto.
Qed.

Lemma grows_wt (A : list (list C)) xs cs (B : list (list C)) : grows A xs cs B -> wt B = (wt A + N.of_nat (length xs))%N /\ (Top A -> Top B) /\ length A <= length B /\
  Forall (fun c => c + 1 < length B) cs.
Proof.
  induction 1 as [|xs cs Ls1 c Ls2 H IH HS|xs cs x L0 t H IH].
  - cbn [length]. repeat split; auto. lia.
  - destruct IH as (I1 & I2 & I3 & I4). apply step_wt in HS. destruct HS as (S1 & S2 & S3 & S4 & S5 & S6 & _). repeat split; auto; try congruence; try lia.
    constructor; auto. eapply Forall_impl; [|exact I4]. simpl. intros. lia.
  - destruct IH as (I1 & I2 & I3 & I4). repeat split; auto.
    + cbn [wt length] in *. lia.
    + intros HT. specialize (I2 HT). destruct I2 as [I2|[_ I2]]; [left; auto|right]. split; [discriminate|]. destruct t; [discriminate|]. auto.
Qed.

Record Inv (s : kll) (T : nat) (Ls : list (list C)) : Prop := mkInv {
  i_rep : Rep s T Ls; i_fit : Fit (k s) (m s) T Ls; i_top : Top Ls; i_wt : wt Ls = n s; i_flag : l0_sorted s = false;
  i_zero : n s = 0%N -> T = N.to_nat (k s) }.

Lemma inv_levels s T Ls : Inv s T Ls -> (n s < 2 ^ 60)%N -> length Ls <= 60.
Proof. intros I H. apply Top_levels; [apply (i_top _ _ _ I)|rewrite (i_wt _ _ _ I); exact H|lia]. Qed.

Lemma update_full s T Ls r x : Inv s T Ls -> (n s + 1 < 2 ^ 60)%N ->
  exists T' Ls' cs lv it, let s' := mkKll (k s) (m s) (min_k s) (length Ls') false (n s + 1) lv it (upd_min s x) (upd_max s x) true in
    kll_update less zero sort coin s r x = Some (s', cs ++ r) /\ Inv s' T' Ls' /\ grows Ls [x] cs Ls' /\
    l_update (k s) (m s) T Ls r x = Some (T', Ls', cs ++ r).
Proof.
  intros I Hn. pose proof (inv_levels _ _ _ I ltac:(lia)) as HL.
  destruct (update_ok s T Ls r x (i_rep _ _ _ I) (i_fit _ _ _ I) HL) as (T' & Ls' & r' & lv & it & HU & HF & HK & HR).
  assert (HG : exists cs, r' = cs ++ r /\ grows Ls [x] cs Ls').
  { unfold l_update in HU. destruct (Nat.eqb_spec (csum Ls) T) as [E|E].
    - destruct (l_compress (k s) (m s) T Ls r) as [[[T1 Ls1] r1]|] eqn:EL; [|discriminate]. cbn [bindo] in HU.
      apply l_compress_step in EL; auto; [|apply (i_fit _ _ _ I)]. destruct EL as (c & -> & HS). destruct Ls1; [discriminate|]. injection HU as <- <- <-.
      exists [c]. split; auto. apply grows_add. eapply grows_step; eauto. constructor.
    - cbn [bindo] in HU. destruct Ls; [discriminate|]. injection HU as <- <- <-. exists []. split; auto. apply grows_add. constructor. }
  destruct HG as (cs & -> & HG). exists T', Ls', cs, lv, it. cbn zeta in *. split; auto. split; [|split; auto].
  apply grows_wt in HG as HW. destruct HW as (W1 & W2 & W3 & _). constructor; auto.
  - apply W2, (i_top _ _ _ I).
  - cbn [n]. rewrite W1, (i_wt _ _ _ I). reflexivity.
  - cbn [n]. lia.
Qed.

Lemma update_inv s T Ls r x : Inv s T Ls -> (n s + 1 < 2 ^ 60)%N ->
  exists T' Ls' cs lv it, let s' := mkKll (k s) (m s) (min_k s) (length Ls') false (n s + 1) lv it (upd_min s x) (upd_max s x) true in
    kll_update less zero sort coin s r x = Some (s', cs ++ r) /\ Inv s' T' Ls' /\ grows Ls [x] cs Ls'.
Proof. intros I Hn. destruct (update_full s T Ls r x I Hn) as (T' & Ls' & cs & lv & it & H1 & H2 & H3 & _). exists T', Ls', cs, lv, it. auto. Qed.

Fixpoint l_update_all (k0 : N) (m0 T : nat) (Ls : list (list C)) (r : list nat) (xs : list C) : option (nat * list (list C) * list nat) :=
  match xs with
  | [] => Some (T, Ls, r)
  | x :: t => do (T, Ls, r) <- l_update k0 m0 T Ls r x; l_update_all k0 m0 T Ls r t
  end.
Definition l_merge (k0 : N) (m0 T : nat) (Ls Os : list (list C)) (total : N) (r : list nat) : option (nat * list (list C) * list nat) :=
  do (T, Ls, r) <- l_update_all k0 m0 T Ls r (hd [] Os);
  if 1 <? length Os then
    let Z := hd [] Ls :: zipm (tl Ls) (tl Os) in
    do (out, nl, target, cur, r) <- lgen (ub_on_num_levels total + 2) k0 m0 (length Z) (csum Z) (tot k0 m0 (length Z)) 0 Z false r;
    Some (target, out, r)
  else Some (T, Ls, r).

Lemma update_all_inv : forall xs s T Ls r, Inv s T Ls -> (n s + N.of_nat (length xs) < 2 ^ 60)%N ->
  exists s' T' Ls' cs, update_all less zero sort coin s r xs = Some (s', cs ++ r) /\ Inv s' T' Ls' /\ grows Ls (rev xs) cs Ls' /\
    k s' = k s /\ m s' = m s /\ min_k s' = min_k s /\ (n s' = n s + N.of_nat (length xs))%N /\
    l_update_all (k s) (m s) T Ls r xs = Some (T', Ls', cs ++ r).
Proof.
  induction xs as [|x xs IH]; intros s T Ls r I Hn; cbn [update_all].
  - exists s, T, Ls, []. repeat split; auto; try apply I; [constructor|cbn [length]; lia].
  - cbn [length] in Hn. destruct (update_full s T Ls r x I ltac:(lia)) as (T1 & Ls1 & cs1 & lv & it & HU & I1 & G1 & HLU). cbn zeta in *. rewrite HU. cbn [bindo].
    destruct (IH _ T1 Ls1 (cs1 ++ r) I1) as (s' & T' & Ls' & cs & HU' & I' & G' & F1 & F2 & F3 & F4 & F5); [cbn [n]; lia|].
    exists s', T', Ls', (cs ++ cs1). rewrite HU', app_assoc. cbn [k m min_k n] in *. repeat split; auto; try apply I'; [|cbn [length]; lia|].
    + cbn [rev]. eapply grows_trans; eauto.
    + cbn [l_update_all]. rewrite HLU. cbn [bindo]. rewrite F5, app_assoc. reflexivity.
Qed.

Lemma wt_zipm (A : list (list C)) : forall B : list (list C), wt (zipm A B) = (wt A + wt B)%N.
Proof. induction A as [|a A IH]; intros [|b B]; cbn [zipm wt]; rewrite ?IH, ?mergel_length; lia. Qed.
Lemma mergel_ne A B : A <> [] \/ B <> [] -> mergel A B <> [].
Proof. intros H E. apply (f_equal (@length C)) in E. rewrite mergel_length in E. destruct A, B; simpl in E; try lia. destruct H; congruence. Qed.
Lemma zipm_last (A : list (list C)) : forall B : list (list C), (A = [] \/ last A [] <> []) -> B <> [] -> last B [] <> [] -> zipm A B <> [] /\ last (zipm A B) [] <> [].
Proof.
  induction A as [|a A IH]; intros B HA HB HL; [destruct B; auto|]. destruct B as [|b B]; [congruence|]. cbn [zipm]. split; [discriminate|].
  destruct HA as [HA|HA]; [discriminate|].
  destruct A as [|a' A]; destruct B as [|b' B].
  - cbn [zipm last] in *. apply mergel_ne. auto.
  - cbn [zipm]. rewrite last_cons_ne in * by discriminate. auto.
  - cbn [zipm]. rewrite last_cons_ne in * by discriminate. auto.
  - rewrite last_cons_ne in HA, HL by discriminate. destruct (IH (b' :: B) (or_intror HA) ltac:(discriminate) HL) as [H0 H]. rewrite last_cons_ne by exact H0. exact H.
Qed.

(** ** Merge *)

Lemma inv_empty s T Ls : Inv s T Ls -> n s = 0%N -> Ls = [[]].
Proof.
  intros I H0. pose proof (i_wt _ _ _ I) as HW. rewrite H0 in HW. destruct (i_top _ _ _ I) as [H1|[H1 H2]].
  - destruct Ls as [|L [|]]; try discriminate. cbn [wt] in HW. destruct L; auto. cbn [length] in HW. lia.
  - pose proof (wt_last Ls H1 H2). pose proof (N.pow_nonzero 2 (N.of_nat (length Ls - 1)) ltac:(lia)). lia.
Qed.
Lemma total_items_rep s T Ls : Inv s T Ls -> exists pre, total_items_array zero s = pre ++ concat Ls /\ levels s = pb (length pre) Ls ++ [length pre + csum Ls] /\
    num_levels s = length Ls /\ T = length pre + csum Ls.
Proof.
  intros I. destruct (i_rep _ _ _ I) as (pre & H1 & H2 & H3 & H4). unfold total_items_array, is_empty. destruct (N.eqb_spec (n s) 0) as [E|E]; [|exists pre; auto].
  pose proof (inv_empty _ _ _ I E). subst Ls. exists (repeat zero (N.to_nat (k s))). cbn [concat]. rewrite app_nil_r. split; auto.
  pose proof (i_zero _ _ _ I E) as HT. rewrite repeat_length. rewrite csum_cons, csum_nil in *. cbn [length] in *.
  assert (length pre = N.to_nat (k s)) by lia. rewrite H2. rewrite H in *. repeat split; auto; lia.
Qed.

Lemma rep_head s T Ls : Rep s T Ls -> Ls <> [] -> exists b, nth_error (levels s) 0 = Some b /\ nth_error (levels s) 1 = Some (b + length (hd [] Ls)) /\
  nth_error (levels s) (num_levels s) = Some (b + csum Ls) /\ length (levels s) = length Ls + 1.
Proof.
  intros (pre & _ & HL & HN & _) Hne. exists (length pre). rewrite HL, HN.
  split; [destruct Ls; [congruence|reflexivity]|]. split.
  - destruct Ls as [|a [|b Ls]]; [congruence| |]; cbn [pb app nth_error hd]; auto. rewrite csum_cons, csum_nil, Nat.add_0_r. auto.
  - split; [|rewrite app_length, pb_length; auto]. apply nth_seg. rewrite pb_length. auto.
Qed.

Lemma map_pb d b (Ls : list (list C)) : map (fun x => x + d) (pb b Ls) = pb (b + d) Ls.
Proof. revert b; induction Ls as [|L Ls IH]; intros b; cbn [pb map]; auto. rewrite IH. f_equal. f_equal. lia. Qed.

Lemma merge_full s T Ls o To Os r : Inv s T Ls -> Inv o To Os -> (n s + n o < 2 ^ 60)%N -> n o <> 0%N ->
  exists s' T' Ls' cs cs1 Ls1, kll_merge less zero sort coin s o r = Some (s', cs ++ cs1 ++ r) /\ Inv s' T' Ls' /\
    l_merge (k s) (m s) T Ls Os (n s + n o) r = Some (T', Ls', cs ++ cs1 ++ r) /\
    grows Ls (rev (hd [] Os)) cs1 Ls1 /\ grows (hd [] Ls1 :: zipm (tl Ls1) (tl Os)) [] cs Ls' /\
    k s' = k s /\ m s' = m s /\ (n s' = n s + n o)%N /\ min_k s' = (if is_estimation_mode o then N.min (min_k s) (min_k o) else min_k s) /\
    (min_item s', max_item s', has_min_max s') =
      (if is_empty s then (min_item o, max_item o, has_min_max o)
       else (if less (min_item s) (min_item o) then min_item s else min_item o,
             if less (max_item o) (max_item s) then max_item s else max_item o, true)).
Proof.
  intros I Io Hn Ho. unfold kll_merge. unfold is_empty at 1. destruct (N.eqb_spec (n o) 0) as [E|_]; [congruence|].
  destruct (total_items_rep _ _ _ Io) as (preO & HOi & HOl & HOn & HOT).
  destruct (i_fit _ _ _ Io) as (HOne & _ & _). destruct (rep_head _ _ _ (i_rep _ _ _ Io) HOne) as (bo & B0 & B1 & Bn & Blen).
  rewrite B0, B1. cbn [bindo]. assert (Hbo : bo = length preO). { rewrite HOl in B0. destruct Os; [congruence|]. cbn [pb app nth_error] in B0. congruence. } subst bo.
  replace (length preO + length (hd [] Os) - length preO) with (length (hd [] Os)) by lia.
  destruct Os as [|O0 Os']; [congruence|]. cbn [hd tl].
  assert (HG0 : sl_get (length preO) (length O0) (total_items_array zero o) = Some O0).
  { rewrite HOi. cbn [concat]. apply get_seg; auto. }
  rewrite HG0. cbn [bindo]. pose proof (i_wt _ _ _ Io) as HWo. cbn [wt] in HWo.
  destruct (update_all_inv O0 s T Ls r I ltac:(lia)) as (s1 & T1 & Ls1 & cs1 & HU & I1 & G1 & K1 & M1 & MK1 & N1 & HLU).
  rewrite HU. cbn [bindo]. unfold l_merge. cbn [hd tl]. rewrite HLU. cbn [bindo].
  pose proof (i_wt _ _ _ I1) as HW1.
  destruct (i_fit _ _ _ I1) as (HLne & HFt & Hm2).
  destruct (total_items_rep _ _ _ I1) as (pre1 & HSi & HSl & HSn & HST).
  destruct (rep_head _ _ _ (i_rep _ _ _ I1) HLne) as (b1 & A0 & A1 & An & Alen).
  assert (Hb1 : b1 = length pre1). { rewrite HSl in A0. destruct Ls1; [congruence|]. cbn [pb app nth_error] in A0. congruence. } subst b1.
  destruct Ls1 as [|L0 t]; [congruence|]. cbn [hd tl].
  (* the shape of the new fields *)
  match goal with |- context [(if 1 <? length (O0 :: Os') then ?a else ?b) = _] => set (LM := if 1 <? length (O0 :: Os') then a else b) end.
  match goal with |- context [bindo ?e _] => assert (HE : exists nl lv it T' Ls' cs, e = Some (nl, lv, it, cs ++ cs1 ++ r) /\
     LM = Some (T', Ls', cs ++ cs1 ++ r) /\ grows (L0 :: zipm t Os') [] cs Ls' /\ nl = length Ls' /\ Fit (k s1) (m s1) T' Ls' /\
     (exists pre, it = pre ++ concat Ls' /\ lv = pb (length pre) Ls' ++ [length pre + csum Ls'] /\ T' = length pre + csum Ls')) end.
  { rewrite HOn. unfold LM. clear LM. destruct (Nat.ltb_spec 1 (length (O0 :: Os'))) as [H1|H1].
    2:{ destruct Os'; [|cbn [length] in H1; lia]. rewrite zipm_nil_r. exists (num_levels s1), (levels s1), (total_items_array zero s1), T1, (L0 :: t), [].
        split; [reflexivity|]. split; [reflexivity|]. split; [constructor|]. split; [auto|]. split; [split; auto|]. exists pre1. auto. }
    unfold get_num_retained. rewrite A0, An. cbn [bindo]. rewrite sub_ok by lia. cbn [bindo].
    rewrite <- HOn, Bn. cbn [bindo hd]. rewrite csum_cons. rewrite sub_ok by lia. cbn [bindo].
    replace (length pre1 + csum (L0 :: t) - length pre1) with (csum (L0 :: t)) by lia.
    replace (length preO + (length O0 + csum Os') - (length preO + length O0)) with (csum Os') by lia.
    cbn zeta. set (Z := L0 :: zipm t Os'). set (fN := (n s + n o)%N) in *. set (ub := ub_on_num_levels fN).
    assert (HWZ : wt Z = fN). { unfold Z. cbn [wt] in *. rewrite wt_zipm. unfold fN. lia. }
    assert (HZl : length Z = Nat.max (length (L0 :: t)) (length (O0 :: Os'))). { unfold Z. cbn [length]. rewrite zipm_length. lia. }
    assert (HTl : zipm t Os' <> [] /\ last (zipm t Os') [] <> []).
    { apply zipm_last.
      - destruct (i_top _ _ _ I1) as [Ht|[_ Ht]]; [left; destruct t; auto; cbn [length] in Ht; lia|].
        destruct t; [left; auto|right]. rewrite last_cons_ne in Ht by discriminate. auto.
      - destruct Os'; [cbn [length] in H1; lia|discriminate].
      - destruct (i_top _ _ _ Io) as [Ht|[_ Ht]]; [lia|]. destruct Os'; [cbn [length] in H1; lia|]. rewrite last_cons_ne in Ht by discriminate. auto. }
    assert (HlZ : last Z [] <> []). { unfold Z. rewrite last_cons_ne; tauto. }
    assert (HZub : length Z <= ub).
    { pose proof (wt_last Z ltac:(discriminate) HlZ) as HX. rewrite HWZ in HX. unfold ub, ub_on_num_levels.
      apply N.log2_le_mono in HX. rewrite N.log2_pow2 in HX by lia. lia. }
    assert (HN0 : n s1 <> 0%N \/ concat (L0 :: t) = []).
    { destruct (N.eq_dec (n s1) 0) as [E|E]; auto. right. pose proof (inv_empty _ _ _ I1 E) as HI. injection HI as -> ->. reflexivity. }
    (* populateItemWorkArrays *)
    unfold populate_work_arrays.
    replace (repeat 0 (ub + 2)) with (0 :: 0 :: repeat 0 ub) by (rewrite Nat.add_comm; reflexivity).
    replace (wr 0 0 (0 :: 0 :: repeat 0 ub)) with (Some (0 :: 0 :: repeat 0 ub)) by reflexivity. cbn [bindo].
    rewrite HSn, HSl. pose proof (level_size_ok 0 [] (L0 :: t) (length pre1) (or_introl eq_refl)) as HLS. cbn [app] in HLS. rewrite HLS. clear HLS. cbn [bindo hd]. cbn [pb app nth_error bindo].
    rewrite HSi.
    assert (HRep : repeat zero (csum (L0 :: t) + csum Os') = repeat zero (length L0) ++ repeat zero (csum (zipm t Os'))).
    { rewrite <- repeat_app, zipm_csum, csum_cons. f_equal. lia. }
    rewrite HRep.
    pose proof (copy_sep_spec L0 pre1 (concat t) [] (repeat zero (length L0)) (repeat zero (csum (zipm t Os'))) ltac:(apply repeat_length)) as HCp.
    cbn [app length] in HCp. cbn [concat]. rewrite HCp. cbn [bindo].
    replace (wr 1 (length L0) (0 :: 0 :: repeat 0 ub)) with (Some (0 :: length L0 :: repeat 0 ub)) by reflexivity. cbn [bindo].
    assert (Hpop : populate_loop less (Nat.max (length (L0 :: t)) (num_levels o) - 1) 1 (L0 ++ repeat zero (csum (zipm t Os'))) (0 :: length L0 :: repeat 0 ub)
        (length (L0 :: t)) (length pre1 :: pb (length pre1 + length L0) t ++ [length pre1 + csum (L0 :: t)]) (pre1 ++ L0 ++ concat t)
        (num_levels o) (levels o) (total_items_array zero o) =
        Some (concat Z, pb 0 Z ++ [csum Z] ++ skipn (Nat.max (length t) (length Os')) (repeat 0 ub))).
    { pose proof (populate_ok pre1 preO (length pre1 :: pb (length pre1 + length L0) t ++ [length pre1 + csum (L0 :: t)]) (levels o) (pre1 ++ L0 ++ concat t)
        (total_items_array zero o) (L0 :: t) (O0 :: Os') eq_refl eq_refl HOi HOl (Nat.max (length t) (length Os')) [L0] t [O0] Os' L0 (repeat zero (csum (zipm t Os'))) [0] (repeat 0 ub) 1) as HP.
      rewrite HOn. replace (Nat.max (length (L0 :: t)) (length (O0 :: Os')) - 1) with (Nat.max (length t) (length Os')) by (cbn [length]; lia).
      cbn [app] in HP. rewrite HP; auto.
      - unfold Z. cbn [concat pb app]. rewrite csum_cons. f_equal.
      - left. reflexivity.
      - left. reflexivity.
      - apply repeat_length.
      - rewrite repeat_length. rewrite HZl in HZub. cbn [length] in HZub. lia. }
    rewrite Hpop. cbn [bindo]. clear Hpop HCp HRep.
    (* generalItemsCompress *)
    unfold general_items_compress. rewrite HOn. rewrite <- HZl.
    set (Zz := skipn (Nat.max (length t) (length Os')) (repeat 0 ub)).
    assert (HZz : length Zz = ub + 1 - length Z). { unfold Zz. rewrite skipn_length, repeat_length, HZl. cbn [length]. lia. }
    assert (HA1 : nth_error (pb 0 Z ++ [csum Z] ++ Zz) (length Z) = Some (csum Z)) by (cbn [app]; apply nth_seg; rewrite pb_length; auto).
    assert (HA0 : nth_error (pb 0 Z ++ [csum Z] ++ Zz) 0 = Some 0) by reflexivity.
    rewrite HA1, HA0. cbn [bindo]. rewrite sub_ok by lia. cbn [bindo]. rewrite Nat.sub_0_r.
    rewrite total_capacity_ok.
    2:{ assert (HUB : ub <= 60); [|lia]. unfold ub, ub_on_num_levels. destruct (N.eq_dec fN 0) as [->|]; [simpl; lia|]. apply N.log2_lt_pow2 in Hn; lia. }
    cbn [bindo]. replace (wr 0 0 (0 :: 0 :: repeat 0 ub)) with (Some (0 :: 0 :: repeat 0 ub)) by reflexivity. cbn [bindo].
    assert (Hfuel : length (pb 0 Z ++ [csum Z] ++ Zz) = ub + 2). { rewrite !app_length, pb_length, HZz. cbn [length]. lia. }
    rewrite Hfuel, (i_flag _ _ _ I1).
    destruct (general_ok (k s1) (m s1) false fN ub Hm2 Hn eq_refl (ub + 2) [] [] Z [] Zz (0 :: repeat 0 ub) (length Z) (csum Z) (tot (k s1) (m s1) (length Z)) 0 (cs1 ++ r))
      as (out & nl' & target' & cur' & r' & G' & Y' & HL' & HG' & Hn' & Hc' & HY' & Hb'); auto; try discriminate; try lia.
   { cbn [length]. rewrite repeat_length. lia. }
    cbn [concat pb app length] in HG'. change (csum []) with 0 in HG'. cbn [Nat.add] in HG'.
    cbn [app]. cbn [app] in HG'. rewrite HG'. cbn [bindo]. clear HG'. cbn [app] in Hn', Hc'.
    assert (HUB : ub <= 60). { unfold ub, ub_on_num_levels. destruct (N.eq_dec fN 0) as [->|]; [simpl; lia|]. apply N.log2_lt_pow2 in Hn; lia. }
    destruct (lgen_fits _ _ _ Hm2 _ _ _ _ _ _ _ _ _ _ _ _ 0 HL') as (F1 & F2 & F3 & F4 & F5); auto; try lia.
    destruct (lgen_grows _ _ Hm2 _ _ _ _ _ _ _ _ _ _ _ _ [] HL') as (cs & -> & HGr); auto; try lia. cbn [app] in HGr.
    rewrite sub_ok by lia. cbn [bindo].
    assert (Hout : out <> []). { intros ->. cbn [length] in F5. unfold Z in F3. cbn [length] in F3. lia. }
    assert (Ho0 : nth_error (pb 0 out ++ csum out :: Y') 0 = Some 0). { destruct out; [congruence|reflexivity]. }
    replace (match pb 0 out ++ csum out :: Y' with [] => None | x :: _ => Some x end) with (Some 0) by (destruct out; [congruence|reflexivity]). clear Ho0. cbn [bindo].
    match goal with |- context [copy_loop _ _ ?b _ _] => assert (HB : exists P Q, b = P ++ Q /\ length P = target' - cur' /\ length Q = cur') end.
    { match goal with |- exists P Q, ?b = _ /\ _ => assert (Hlb : length b = target') end.
      { destruct (Nat.eqb_spec target' (length (pre1 ++ L0 ++ concat t))); [auto|apply repeat_length]. }
      match goal with |- exists P Q, ?b = _ /\ _ => destruct (split_at b (target' - cur')) as (P & Q & EE & HP); [lia|]; exists P, Q; rewrite EE in *; rewrite app_length in Hlb end.
      repeat split; auto. lia. }
    destruct HB as (P & Q & -> & HP & HQ).
    pose proof (copy_sep_spec (concat out) [] G' P Q [] ltac:(rewrite HQ, Hc'; reflexivity)) as HCp. rewrite !app_nil_r in HCp. cbn [length] in HCp. change (length (concat out)) with (csum out) in HCp.
    rewrite HP, <- Hc' in HCp. cbn [app] in HCp. rewrite HCp. cbn [bindo]. rewrite sub_ok by lia. cbn [bindo]. rewrite Nat.sub_0_r.
    assert (Hlen1 : length (length pre1 :: pb (length pre1 + length L0) t ++ [length pre1 + csum (L0 :: t)]) = length t + 2) by (cbn [length]; rewrite app_length, pb_length; cbn [length]; lia).
    rewrite Hlen1.
    assert (Hlen2 : (if length t + 2 <? nl' + 1 then nl' + 1 else length t + 2) = nl' + 1).
    { destruct (Nat.ltb_spec (length t + 2) (nl' + 1)); auto. rewrite HZl in F3. cbn [length] in F3. lia. }
    rewrite Hlen2.
    assert (Hol : sl_get 0 (nl' + 1) (pb 0 out ++ csum out :: Y') = Some (pb 0 out ++ [csum out])).
    { change (pb 0 out ++ csum out :: Y') with (pb 0 out ++ [csum out] ++ Y'). rewrite app_assoc. apply (get_seg [] (pb 0 out ++ [csum out]) Y'); auto.
      rewrite app_length, pb_length. cbn [length]. lia. }
    rewrite Hol. cbn [bindo]. rewrite Nat.ltb_irrefl, Nat.sub_diag. cbn [repeat]. rewrite app_nil_r, map_app, map_pb. cbn [map Nat.add].
    eexists nl', _, _, target', out, cs. split; [reflexivity|]. split; [rewrite K1, M1 in HL'; rewrite HL'; reflexivity|]. split; [auto|]. split; [auto|]. split.
    { split; [auto|]. split; [rewrite F1, Hn'; auto|auto]. }
    exists P. split; [reflexivity|]. split; [rewrite HP; f_equal; f_equal; lia|rewrite HP; lia]. }
  destruct HE as (nl & lv & it & T' & Ls' & cs & -> & HLM & HGr & Hnl & HF & (pre & Hit & Hlv & HT')). cbn [bindo].
  destruct (grows_wt _ _ _ _ HGr) as (W1 & W2 & W3 & _).
  assert (HTopZ : Top (L0 :: zipm t Os')).
  { destruct (Nat.eq_dec (length (O0 :: Os')) 1) as [E1|E1].
    - destruct Os'; [|cbn [length] in E1; lia]. rewrite zipm_nil_r. apply (i_top _ _ _ I1).
    - right. split; [discriminate|]. destruct (zipm_last t Os') as [Hz1 Hz2]; [| | |rewrite last_cons_ne; auto].
      + destruct (i_top _ _ _ I1) as [Ht|[_ Ht]]; [left; destruct t; auto; cbn [length] in Ht; lia|].
        destruct t; [left; auto|right]. rewrite last_cons_ne in Ht by discriminate. auto.
      + destruct Os'; [cbn [length] in E1; lia|discriminate].
      + destruct (i_top _ _ _ Io) as [Ht|[_ Ht]]; [lia|]. destruct Os'; [cbn [length] in E1; lia|]. rewrite last_cons_ne in Ht by discriminate. auto. }
  destruct (is_empty s) eqn:Ee.
  all: eexists _, T', Ls', cs, cs1, (L0 :: t); split; [reflexivity|]; split;
    [constructor; cbn [k m n l0_sorted]; auto; [exists pre; cbn [items levels num_levels]; auto|rewrite W1; cbn [wt length] in *; rewrite wt_zipm; lia|apply (i_flag _ _ _ I1)|lia]|].
  all: split; [exact HLM|]; split; [exact G1|]; split; [exact HGr|]; cbn [k m n min_k min_item max_item has_min_max]; rewrite MK1; auto 10.
Qed.
Lemma merge_ok s T Ls o To Os r : Inv s T Ls -> Inv o To Os -> (n s + n o < 2 ^ 60)%N -> n o <> 0%N ->
  exists s' T' Ls' cs cs1 Ls1, kll_merge less zero sort coin s o r = Some (s', cs ++ cs1 ++ r) /\ Inv s' T' Ls' /\
    grows Ls (rev (hd [] Os)) cs1 Ls1 /\ grows (hd [] Ls1 :: zipm (tl Ls1) (tl Os)) [] cs Ls' /\
    k s' = k s /\ m s' = m s /\ (n s' = n s + n o)%N /\ min_k s' = (if is_estimation_mode o then N.min (min_k s) (min_k o) else min_k s) /\
    (min_item s', max_item s', has_min_max s') =
      (if is_empty s then (min_item o, max_item o, has_min_max o)
       else (if less (min_item s) (min_item o) then min_item s else min_item o,
             if less (max_item o) (max_item s) then max_item s else max_item o, true)).
Proof.
  intros I Io Hn Ho. destruct (merge_full s T Ls o To Os r I Io Hn Ho) as (s' & T' & Ls' & cs & cs1 & Ls1 & H1 & H2 & _ & H3).
  exists s', T', Ls', cs, cs1, Ls1. auto.
Qed.
End KP.
