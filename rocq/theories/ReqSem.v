(** * Proofs about the REQ sketch: the levels as lists, the data they stand for, and the sorted view. *)
From Coq Require Import Sorting.Sorted.
From Verif Require Import Base Bytes Arr BitPackModel SearchModel SearchProps KllProofs KllSem ReqModel ReqProofs.
Local Open Scope nat_scope.

Section S.
Context {C : Type}.
Variables less ceq : C -> C -> bool.
Variable zero : C.
Variable sort : list C -> list C.
Variable rnd : nat -> bool.
Context {F : Type}.
Variable f_of : nat -> F.
Variable f_shrink : F -> F.
Variable f_half : F -> nat.
Hypothesis order : strict_total less ceq.
Hypothesis sort_perm : forall l, Permutation l (sort l).
Hypothesis sort_sorted : forall l, StronglySorted (fun a b => less b a = false) (sort l).
Hypothesis f_of_ok : forall j, j <= 512 -> f_half (f_of (2 * j)) = j.
Hypothesis f_shrink_ok : forall f, f_half f <= 512 -> 2 <= f_half (f_shrink f) -> f_half f <= 2 * f_half (f_shrink f) /\ f_half (f_shrink f) <= f_half f.
Notation comp := (compactor (C := C) (F := F)).
Notation srt := (sortedl less).
Notation conf := (conf f_half).
Implicit Types (c : comp) (L M : list C) (Ls Ds Rs : list (list C)).

Definition Sel_length := sel_length less ceq zero sort (fun _ => false) sort_perm.
Definition Sel_perm := sel_perm less ceq zero sort (fun _ => false) sort_perm.
Definition Sel_rank := sel_rank less sort sort_perm sort_sorted.
Definition RR_app := R_app less sort sort_perm sort_sorted.
Definition Cnt_app := cnt_app less sort sort_perm sort_sorted.
Definition Cnt_cons := cnt_cons less sort sort_perm sort_sorted.
Definition Cnt_nonneg := cnt_nonneg less sort sort_perm sort_sorted.

(** ** The data a list of levels stands for *)
Definition up (q : C -> bool) : Prop := down less (fun x => negb (q x)).
(** The predicates that select the accurate end: an upper end in high-rank-accuracy mode, else a lower end. *)
Definition sided (h : bool) (q : C -> bool) : Prop := if h then up q else down less q.

Record D (h : bool) (K : nat) (xs : list C) (cs : list nat) Ls : Prop := mkD {
  d_total : R (fun _ => true) Ls = Z.of_nat (length xs);
  d_sub : sub_multiset (concat Ls) xs;
  d_rank : forall p, down less p -> (Z.abs (R p Ls - cnt p xs) <= pow_sum cs)%Z;
  d_exact : forall q, sided h q -> (cnt q xs <= Z.of_nat (3 * K))%Z -> cnt q (hd [] Ls) = cnt q xs /\ Forall (fun L => cnt q L = 0%Z) (tl Ls);
  d_low : forall q, sided h q -> (Z.min (cnt q xs) (Z.of_nat (3 * K)) <= R q Ls)%Z }.

Lemma cnt_all (l : list C) : cnt (fun _ => true) l = Z.of_nat (length l).
Proof. unfold cnt. induction l; auto. cbn [filter length] in *. lia. Qed.
Lemma cnt_zero q (l : list C) : cnt q l = 0%Z <-> forall x, In x l -> q x = false.
Proof.
  induction l as [|a l IH]; [split; [intros _ x []|reflexivity]|]. rewrite Cnt_cons. pose proof (Cnt_nonneg q l). split.
  - intros E x [<-|Hx]; destruct (q a) eqn:Ea; try lia; auto; apply IH; auto; lia.
  - intros Hx. rewrite (Hx a) by (left; auto). rewrite (proj2 IH); [lia|]. intros; apply Hx; right; auto.
Qed.
Lemma cnt_full q (l : list C) : (forall x, In x l -> q x = true) -> cnt q l = Z.of_nat (length l).
Proof. induction l as [|a l IH]; intros H; auto. rewrite Cnt_cons, (H a) by (left; auto). rewrite IH by (intros; apply H; right; auto). cbn [length]. lia. Qed.
Lemma cnt_permr q (A B : list C) : Permutation A B -> cnt q A = cnt q B.
Proof. intros H. unfold cnt. f_equal. apply Permutation_length. induction H; cbn [filter]; auto; try (destruct (q x)); try (destruct (q y)); auto; try constructor; auto. eapply perm_trans; eauto. Qed.
Lemma cnt_compl q (l : list C) : (cnt q l + cnt (fun x => negb (q x)) l)%Z = Z.of_nat (length l).
Proof. induction l as [|a l IH]; auto. rewrite !Cnt_cons. cbn [length]. destruct (q a); cbn [negb]; lia. Qed.
Lemma R_compl q Ls : (R q Ls + R (fun x => negb (q x)) Ls)%Z = R (fun _ => true) Ls.
Proof. induction Ls as [|L t IH]; auto. cbn [R]. rewrite cnt_all, <- (cnt_compl q L), <- IH. lia. Qed.
Lemma R_nonneg q Ls : (0 <= R q Ls)%Z.
Proof. induction Ls as [|L t IH]; cbn [R]; [lia|]. pose proof (Cnt_nonneg q L). lia. Qed.

Definition lastly (h : bool) (lo keep : list C) : list C := if h then lo ++ keep else keep ++ lo.

Lemma sel_cnt0 q b (l : list C) : cnt q l = 0%Z -> cnt q (sel b l) = 0%Z.
Proof. intros H. apply cnt_zero. intros x Hx. apply sel_in in Hx. revert x Hx. apply cnt_zero. auto. Qed.

Lemma sided_full h q lo keep : sided h q -> srt (lastly h lo keep) -> cnt q lo <> 0%Z -> cnt q keep = Z.of_nat (length keep).
Proof.
  intros Hq HS HN. unfold lastly, sided, up in *.
  assert (HE : exists x, In x lo /\ q x = true).
  { clear HS. induction lo as [|a l IH]; [cbn in HN; lia|]. rewrite Cnt_cons in HN. destruct (q a) eqn:E; [exists a; split; auto; left; auto|].
    destruct IH as (x & Hx & E'); [lia|]. exists x. split; auto. right; auto. }
  destruct HE as (x & Hx & Ex).
  destruct h; apply (sorted_app less) in HS; destruct HS as (_ & _ & HF).
  - apply cnt_full. intros y Hy. rewrite Forall_forall in HF. specialize (HF x Hx). rewrite Forall_forall in HF. specialize (HF y Hy).
    destruct (q y) eqn:E; auto. specialize (Hq x y HF). cbn beta in Hq. rewrite E, Ex in Hq. specialize (Hq eq_refl). discriminate.
  - apply cnt_full. intros y Hy. rewrite Forall_forall in HF. specialize (HF y Hy). rewrite Forall_forall in HF. specialize (HF x Hx).
    apply (Hq y x HF). auto.
Qed.
Lemma sided_cut h q lo keep : sided h q -> srt (lastly h lo keep) -> cnt q lo <> 0%Z -> (Z.of_nat (length keep) < cnt q (lastly h lo keep))%Z.
Proof.
  intros Hq HS HN. pose proof (sided_full h q lo keep Hq HS HN). pose proof (Cnt_nonneg q lo). unfold lastly. destruct h; rewrite Cnt_app; lia.
Qed.

(** One compaction of the level at position [length Pre]. *)
Lemma D_step h K xs cs Pre L M Post S lo keep b hh M' : D h K xs cs (Pre ++ L :: M :: Post) ->
  Permutation L S -> srt S -> S = lastly h lo keep -> length lo = 2 * hh -> 3 * K <= length keep -> Permutation (sel b lo ++ M) M' ->
  D h K xs (length Pre :: cs) (Pre ++ keep :: M' :: Post).
Proof.
  intros [D1 D2 D3 D4 D5] PS SS ES Hlo HK PM.
  assert (HC : forall p, cnt p L = (cnt p lo + cnt p keep)%Z). { intros p. rewrite (cnt_permr p _ _ PS), ES. unfold lastly. destruct h; rewrite Cnt_app; lia. }
  assert (HM : forall p, cnt p M' = (cnt p (sel b lo) + cnt p M)%Z) by (intros p; rewrite <- (cnt_permr p _ _ PM), Cnt_app; auto).
  assert (Slo : srt lo). { rewrite ES in SS. unfold lastly in SS. destruct h; apply (sorted_app less) in SS; tauto. }
  assert (HR : forall p, (R p (Pre ++ keep :: M' :: Post) - R p (Pre ++ L :: M :: Post) = 2 ^ Z.of_nat (length Pre) * (2 * cnt p (sel b lo) - cnt p lo))%Z).
  { intros p. rewrite !RR_app. cbn [R]. rewrite HC, HM. ring. }
  constructor.
  - pose proof (HR (fun _ => true)) as H. rewrite !cnt_all, (Sel_length b hh lo Hlo), Hlo in H. replace (2 * Z.of_nat hh - Z.of_nat (2 * hh))%Z with 0%Z in H by lia. lia.
  - eapply sub_trans; [|exact D2]. rewrite !concat_app. apply sub_app; [apply sub_refl; auto|]. cbn [concat].
    exists (sel (negb b) lo). rewrite <- !app_assoc.
    assert (P1 : Permutation L (sel b lo ++ sel (negb b) lo ++ keep)).
    { eapply perm_trans; [exact PS|]. rewrite ES. unfold lastly. rewrite app_assoc, <- (Sel_perm b hh lo Hlo). destruct h; [auto|apply Permutation_app_comm]. }
    rewrite P1, <- PM. rewrite <- !app_assoc.
    apply Permutation_trans with (keep ++ sel b lo ++ sel (negb b) lo ++ M ++ concat Post).
    + apply Permutation_app_head, Permutation_app_head. rewrite (app_assoc M), (Permutation_app_comm (M ++ concat Post)). auto.
    + rewrite (Permutation_app_comm keep), <- !app_assoc. apply Permutation_app_head, Permutation_app_head. rewrite (app_assoc M), (Permutation_app_comm (M ++ concat Post)). auto.
  - intros p Hp. specialize (D3 p Hp). specialize (HR p). pose proof (Sel_rank p b Hp lo hh Hlo Slo) as HS. cbn [pow_sum fold_right]. fold (pow_sum cs).
    assert (0 < 2 ^ Z.of_nat (length Pre))%Z by (apply Z.pow_pos_nonneg; lia). set (w := (2 ^ Z.of_nat (length Pre))%Z) in *. set (d := (2 * cnt p (sel b lo) - cnt p lo)%Z) in *.
    assert (Z.abs (w * d) <= w)%Z by (rewrite Z.abs_mul; nia). lia.
  - intros q Hq Hc. destruct (D4 q Hq Hc) as [E1 E2]. destruct Pre as [|P0 Pre]; cbn [app hd tl] in *.
    + assert (Z : cnt q lo = 0%Z).
      { destruct (Z.eq_dec (cnt q lo) 0) as [|N]; auto. exfalso. rewrite ES in SS. pose proof (sided_cut h q lo keep Hq SS N) as HL. rewrite <- ES, <- (cnt_permr q _ _ PS) in HL. lia. }
      rewrite HC, Z in E1. split; [lia|]. inversion E2; subst. constructor; auto. rewrite HM, (sel_cnt0 q b lo Z). lia.
    + split; auto. apply Forall_app in E2. destruct E2 as [E2 E3]. inversion E3 as [|? ? E4 E5]; inversion E5; subst. rewrite HC in E4. pose proof (Cnt_nonneg q lo). pose proof (Cnt_nonneg q keep).
      apply Forall_app. split; auto. constructor; [lia|]. constructor; auto. rewrite HM, (sel_cnt0 q b lo) by lia. lia.
  - intros q Hq. specialize (D5 q Hq). destruct (Z.eq_dec (cnt q lo) 0) as [Z|N].
    + specialize (HR q). rewrite Z, (sel_cnt0 q b lo Z) in HR. lia.
    + rewrite ES in SS. pose proof (sided_full h q lo keep Hq SS N) as HL. rewrite RR_app. cbn [R]. pose proof (R_nonneg q Pre). pose proof (R_nonneg q Post). pose proof (Cnt_nonneg q M').
      assert (0 < 2 ^ Z.of_nat (length Pre))%Z by (apply Z.pow_pos_nonneg; lia). nia.
Qed.

Lemma D_head h K xs cs L L' t : D h K xs cs (L :: t) -> Permutation L L' -> D h K xs cs (L' :: t).
Proof.
  intros [D1 D2 D3 D4 D5] P. constructor.
  - cbn [R] in *. rewrite <- (cnt_permr _ _ _ P). auto.
  - eapply sub_trans; [|exact D2]. apply sub_refl. cbn [concat]. apply Permutation_app_tail. symmetry. auto.
  - intros p Hp. specialize (D3 p Hp). cbn [R] in *. rewrite <- (cnt_permr _ _ _ P). auto.
  - intros q Hq Hc. destruct (D4 q Hq Hc). cbn [hd tl] in *. rewrite <- (cnt_permr _ _ _ P). auto.
  - intros q Hq. specialize (D5 q Hq). cbn [R] in *. rewrite <- (cnt_permr _ _ _ P). auto.
Qed.

Lemma D_add h K xs cs L t x : D h K xs cs (L :: t) -> D h K (x :: xs) cs ((x :: L) :: t).
Proof.
  intros [D1 D2 D3 D4 D5]. constructor.
  - cbn [R length] in *. rewrite Cnt_cons. lia.
  - cbn [concat app] in *. destruct D2 as [E HE]. exists E. cbn [app]. constructor. auto.
  - intros p Hp. specialize (D3 p Hp). cbn [R] in *. rewrite !Cnt_cons. lia.
  - intros q Hq Hc. rewrite !Cnt_cons in Hc. destruct (D4 q Hq) as [E1 E2]; [destruct (q x); lia|]. cbn [hd tl] in *. rewrite !Cnt_cons. split; auto. lia.
  - intros q Hq. specialize (D5 q Hq). cbn [R] in *. rewrite !Cnt_cons. destruct (q x); lia.
Qed.

Lemma D_nil h K L : L = [] -> D h K [] [] [L].
Proof.
  intros ->. constructor; auto.
  - exists []. reflexivity.
  - intros p _. reflexivity.
  - intros q _ _. split; auto. constructor.
  - intros q _. cbn. lia.
Qed.

Lemma D_pad h K xs cs Ls n : D h K xs cs Ls -> D h K xs cs (Ls ++ repeat [] n).
Proof.
  assert (HR : forall p m, R p (repeat (@nil C) m) = 0%Z) by (intros p; induction m; cbn [repeat R]; auto; rewrite IHm; auto).
  assert (HC : concat (repeat (@nil C) n) = []) by (induction n; auto).
  intros [D1 D2 D3 D4 D5]. constructor.
  - rewrite RR_app, HR. lia.
  - rewrite concat_app, HC, app_nil_r. auto.
  - intros p Hp. rewrite RR_app, HR. specialize (D3 p Hp). lia.
  - intros q Hq Hc. destruct (D4 q Hq Hc) as [E1 E2].
    assert (HF : forall m, Forall (fun L => cnt q L = 0%Z) (repeat [] m)) by (induction m; cbn [repeat]; constructor; auto).
    destruct Ls as [|L t]; cbn [app hd tl] in *; [|split; auto; apply Forall_app; auto].
    destruct n; cbn [repeat hd tl]; auto.
  - intros q Hq. rewrite RR_app, HR. specialize (D5 q Hq). lia.
Qed.

Inductive zipped : list (list C) -> list (list C) -> list (list C) -> Prop :=
| zip_nil A : zipped A [] A
| zip_cons a b m A B (M : list (list C)) : Permutation (a ++ b) m -> zipped A B M -> zipped (a :: A) (b :: B) (m :: M).

Lemma zipped_R p A B (M : list (list C)) : zipped A B M -> R p M = (R p A + R p B)%Z.
Proof. induction 1 as [|a b m A B M P H IH]; cbn [R]; [lia|]. rewrite <- (cnt_permr p _ _ P), Cnt_app, IH. lia. Qed.
Lemma zipped_concat A B (M : list (list C)) : zipped A B M -> Permutation (concat M) (concat A ++ concat B).
Proof.
  induction 1 as [|a b m A B M P H IH]; cbn [concat]; [rewrite app_nil_r; auto|]. rewrite IH, <- P, <- !app_assoc. apply Permutation_app_head.
  rewrite !app_assoc. apply Permutation_app_tail, Permutation_app_comm.
Qed.
Lemma pow_sum_app cs ds : pow_sum (cs ++ ds) = (pow_sum cs + pow_sum ds)%Z.
Proof. induction cs as [|a cs IH]; auto. cbn [app pow_sum fold_right]. fold (pow_sum (cs ++ ds)). fold (pow_sum cs). lia. Qed.

Lemma D_merge h K xs ys cs ds A B (M : list (list C)) : D h K xs cs A -> D h K ys ds B -> zipped A B M -> D h K (ys ++ xs) (cs ++ ds) M.
Proof.
  intros [A1 A2 A3 A4 A5] [B1 B2 B3 B4 B5] Z. constructor.
  - rewrite (zipped_R _ _ _ _ Z), app_length. lia.
  - eapply sub_trans; [apply sub_refl, (zipped_concat _ _ _ Z)|]. eapply sub_trans; [apply sub_refl, Permutation_app_comm|]. apply sub_app; auto.
  - intros p Hp. specialize (A3 p Hp). specialize (B3 p Hp). rewrite (zipped_R _ _ _ _ Z), Cnt_app, pow_sum_app. lia.
  - intros q Hq Hc. rewrite Cnt_app in *. pose proof (Cnt_nonneg q xs). pose proof (Cnt_nonneg q ys).
    destruct (A4 q Hq) as [E1 E2]; [lia|]. destruct (B4 q Hq) as [E3 E4]; [lia|].
    assert (HT : forall A B (M : list (list C)), zipped A B M -> Forall (fun L => cnt q L = 0%Z) A -> Forall (fun L => cnt q L = 0%Z) B -> Forall (fun L => cnt q L = 0%Z) M).
    { induction 1 as [|a b m A' B' M' P H' IH]; auto. intros HA HB. inversion HA; inversion HB; subst. constructor; [rewrite <- (cnt_permr q _ _ P), Cnt_app; lia|auto]. }
    inversion Z as [|a b m A' B' M' P H']; subst.
    + cbn [hd tl] in *. unfold cnt in E3 at 1. cbn in E3. split; [lia|auto].
    + cbn [hd tl] in *. rewrite <- (cnt_permr q _ _ P), Cnt_app. split; [lia|]. eapply HT; eauto.
  - intros q Hq. specialize (A5 q Hq). specialize (B5 q Hq). rewrite (zipped_R _ _ _ _ Z), Cnt_app. pose proof (Cnt_nonneg q xs). pose proof (Cnt_nonneg q ys). lia.
Qed.

(** ** The compactors of a sketch *)
Record lv (h : bool) (K i : nat) c L : Prop := mkLv {
  l_rep : rep c L; l_conf : conf c; l_hra : c_hra c = h; l_lgw : c_lgw c = i; l_keep : 3 * K <= c_nsec c * c_ssize c;
  l_sorted : c_sorted c = true -> srt L; l_flag : i <> 0 -> c_sorted c = true }.
Fixpoint lvs (h : bool) (K i : nat) (cs : list comp) Ls : Prop :=
  match cs, Ls with
  | [], [] => True
  | c :: cs, L :: Ls => lv h K i c L /\ lvs h K (S i) cs Ls
  | _, _ => False
  end.
Lemma lvs_length h K : forall cs i Ls, lvs h K i cs Ls -> length cs = length Ls.
Proof. induction cs as [|c cs IH]; intros i [|L Ls] H; cbn [lvs length] in *; try tauto. f_equal. destruct H. eauto. Qed.
Lemma lvs_app h K : forall cs1 i Ls1 cs2 Ls2, lvs h K i cs1 Ls1 -> lvs h K (i + length cs1) cs2 Ls2 -> lvs h K i (cs1 ++ cs2) (Ls1 ++ Ls2).
Proof.
  induction cs1 as [|c cs IH]; intros i [|L Ls] cs2 Ls2 H1 H2; cbn [lvs app length] in *; try tauto; [rewrite Nat.add_0_r in H2; auto|].
  destruct H1. split; auto. apply IH; auto. replace (S i + length cs) with (i + S (length cs)) by lia. auto.
Qed.
Definition states (cs : list comp) : N := fold_right (fun c a => c_state c + a)%N 0%N cs.
Lemma states_app a b : states (a ++ b) = (states a + states b)%N.
Proof. induction a as [|c a IH]; auto. cbn [app states fold_right]. fold (states (a ++ b)). fold (states a). lia. Qed.
Lemma nom_app (a b : list comp) : compute_max_nom (a ++ b) = (compute_max_nom a + compute_max_nom b)%Z.
Proof. induction a as [|c a IH]; auto. cbn [app compute_max_nom fold_right]. fold (compute_max_nom (a ++ b)). fold (compute_max_nom a). lia. Qed.
Lemma retained_ok h K : forall cs i Ls, lvs h K i cs Ls -> compute_retained cs = Z.of_nat (csum Ls).
Proof.
  induction cs as [|c cs IH]; intros i [|L Ls] H; cbn [lvs] in *; try tauto; auto. destruct H as [H1 H2]. rewrite csum_cons. cbn [compute_retained fold_right]. fold (compute_retained cs).
  rewrite (IH _ _ H2). rewrite (proj1 (l_rep _ _ _ _ _ H1)). lia.
Qed.
Lemma Csum_app Ls Ls' : csum (Ls ++ Ls') = csum Ls + csum Ls'.
Proof. induction Ls as [|L t IH]; auto. cbn [app]. rewrite !csum_cons, IH. lia. Qed.

Definition nonempty (L : list C) : Prop := L <> [].
Lemma levels_weight Ls : Forall nonempty Ls -> Ls <> [] -> (2 ^ Z.of_nat (length Ls - 1) <= R (fun _ => true) Ls)%Z.
Proof.
  induction Ls as [|L t IH]; [congruence|]. intros HF _. inversion HF as [|? ? H1 H2]; subst. cbn [R length]. rewrite cnt_all. destruct L as [|x L]; [exfalso; apply H1; auto|]. cbn [length].
  destruct t as [|L' t]; [cbn; lia|]. specialize (IH H2 ltac:(discriminate)). cbn [length] in *.
  replace (S (S (length t)) - 1) with (S (S (length t) - 1)) by lia. rewrite Nat2Z.inj_succ, Z.pow_succ_r by lia. lia.
Qed.
Lemma levels_47 Ls : Forall nonempty Ls -> (R (fun _ => true) Ls < 2 ^ 47)%Z -> length Ls <= 47.
Proof.
  intros H HR. destruct Ls as [|L t]; [cbn; lia|]. pose proof (levels_weight _ H ltac:(discriminate)) as HW.
  assert (H2 : (2 ^ Z.of_nat (length (L :: t) - 1) < 2 ^ 47)%Z) by lia. apply Z.pow_lt_mono_r_iff in H2; lia.
Qed.
Lemma R_csum Ls : (Z.of_nat (csum Ls) <= R (fun _ => true) Ls)%Z.
Proof. induction Ls as [|L t IH]; [cbn; lia|]. rewrite csum_cons. cbn [R]. rewrite cnt_all. lia. Qed.

Notation grown := (grown zero f_of).
Definition valid_k (k : nat) : Prop := Nat.odd k = false /\ 4 <= k <= 1024.
Lemma grown_ok h K i k : valid_k k -> K <= k -> i < 256 -> lv h K i (grown i h k) [] /\ c_state (grown i h k) = 0%N /\ c_count (grown i h k) = 0.
Proof.
  intros [V1 V2] HK Hi. unfold ReqModel.grown, new_compactor. rewrite Nat.mod_small by auto.
  assert (exists q, k = 2 * q) as [q ->]. { rewrite <- Nat.negb_even in V1. apply negb_false_iff, Nat.even_spec in V1. exact V1. }
  split; [|split; reflexivity]. constructor; cbn [c_hra c_lgw c_nsec c_ssize c_sorted]; auto; try lia; try discriminate.
  - split; [reflexivity|]. cbn [c_items c_hra]. eexists. destruct h; [symmetry; apply app_nil_r|reflexivity].
  - constructor; cbn [c_nsec c_ssize c_szf]; [left; auto| |lia]. rewrite f_of_ok by lia. auto.
  - intros _. constructor.
Qed.

(** ** compress *)
Notation cloop := (compress_loop less zero sort rnd f_of f_shrink f_half).
Definition below (c : comp) L : Prop := length L < nom_cap c.

Lemma compress_ok h K k xs n : valid_k k -> K <= k -> (Z.of_N n < 2 ^ 47)%Z -> Z.of_nat (length xs) = Z.of_N n -> forall fuel done rest Ds Rs ret nom r cs,
  lvs h K 0 done Ds -> lvs h K (length done) rest Rs -> D h K xs cs (Ds ++ Rs) -> Forall nonempty (Ds ++ Rs) -> Forall2 below done Ds ->
  ret = Z.of_nat (csum (Ds ++ Rs)) -> nom = compute_max_nom (done ++ rest) -> (states (done ++ rest) + N.of_nat (csum (Ds ++ Rs)) <= n)%N ->
  (Z.of_nat (csum (Ds ++ Rs)) < 2 ^ 31)%Z -> length Rs + csum Rs < fuel ->
  exists fin Ls l, cloop fuel h k done rest ret nom r = Ok (fin, Z.of_nat (csum Ls), compute_max_nom fin, l ++ r) /\
    lvs h K 0 fin Ls /\ D h K xs (l ++ cs) Ls /\ Forall nonempty Ls /\ Forall2 below fin Ls /\ (states fin + N.of_nat (csum Ls) <= n)%N.
Proof.
  intros HV HKk Hn Hxs. induction fuel as [|fuel IH]; intros done rest Ds Rs ret nom r cs HD HR HDD HN HB Hret Hnom Hst H31 Hf; [lia|].
  cbn [compress_loop]. destruct rest as [|c above].
  { destruct Rs; [|destruct HR]. rewrite !app_nil_r in *. exists done, Ds, []. cbn [app]. subst. do 5 (split; auto). }
  destruct Rs as [|L Rs]; [destruct HR|]. destruct HR as [HL HR].
  pose proof (l_rep _ _ _ _ _ HL) as HLr. pose proof (proj1 HLr) as HLc.
  destruct (Nat.leb_spec (nom_cap c) (c_count c)) as [E|E].
  2: { destruct (IH (done ++ [c]) above (Ds ++ [L]) Rs ret nom r cs) as (fin & Ls & l & HE & HP); rewrite <- ?app_assoc; cbn [app]; auto.
       - apply lvs_app; auto. cbn [lvs]. auto.
       - rewrite app_length. cbn [length]. rewrite Nat.add_1_r. auto.
       - apply Forall2_app; auto. constructor; auto. unfold below. lia.
       - cbn [length] in Hf. rewrite csum_cons in Hf. lia.
       - exists fin, Ls, l. auto. }
  pose proof (conf_pos _ _ (l_conf _ _ _ _ _ HL)) as Hp1. pose proof (cf_range _ _ (l_conf _ _ _ _ _ HL)) as Hp2.
  assert (HLn : 24 <= nom_cap c) by (unfold nom_cap; nia).
  assert (HDl : length done = length Ds) by (eapply lvs_length; eauto).
  (* the level above, added when there is none *)
  assert (GR : exists next above' M Post,
      (match above with [] => ([grown (length done + 1) h k], compute_max_nom (done ++ [c; grown (length done + 1) h k])) | _ => (above, nom) end) = (next :: above', compute_max_nom (done ++ c :: next :: above')) /\
      lv h K (length done + 1) next M /\ lvs h K (S (S (length done))) above' Post /\ D h K xs cs (Ds ++ L :: M :: Post) /\ Forall nonempty Post /\
      (states (next :: above') = states above) /\ csum (M :: Post) = csum Rs /\ length Post + 2 <= length (L :: Rs) + 1 /\ (length Post + 2 <= length (L :: Rs) \/ csum (M :: Post) = 0)).
  { destruct above as [|next above'].
    - destruct Rs; [|destruct HR]. 
      assert (H47 : length (Ds ++ [L]) <= 47) by (apply levels_47; auto; rewrite (d_total _ _ _ _ _ HDD); lia). rewrite app_length in H47. cbn [length] in H47.
      destruct (grown_ok h K (length done + 1) k HV HKk ltac:(lia)) as (G1 & G2 & G3).
      exists (grown (length done + 1) h k), [], [], []. split; [reflexivity|]. split; auto. split; [exact I|].
      split; [|split; [constructor|split; [cbn [states fold_right]; rewrite G2; auto|split; [auto|split; [cbn [length]; lia|right; auto]]]]].
      pose proof (D_pad _ _ _ _ _ 1 HDD) as HP. cbn [repeat] in HP. rewrite <- app_assoc in HP. exact HP.
    - destruct Rs as [|M Post]; [destruct HR|]. cbn [lvs] in HR. destruct HR as [HR1 HR2]. rewrite Nat.add_1_r.
      exists next, above', M, Post. subst nom. split; [reflexivity|]. split; auto. split; auto. split; auto.
      apply Forall_app in HN. destruct HN as [_ HN]. inversion HN as [|? ? _ HN2]; inversion HN2; subst. split; auto. split; auto. split; auto. cbn [length]. split; [lia|left; lia]. }
  destruct GR as (next & above' & M & Post & -> & HM & HPost & HD' & HNP & Hs & Hcs & Hl1 & Hl2).
  rewrite states_app, Csum_app, csum_cons, <- Hcs, csum_cons in Hst. cbn [states fold_right] in Hst. fold (states above) in Hst. rewrite <- Hs in Hst. cbn [states fold_right] in Hst. fold (states above') in Hst.
  rewrite Csum_app, csum_cons in H31.
  destruct (compact_ok less ceq zero sort f_of f_shrink f_half order sort_perm sort_sorted f_of_ok f_shrink_ok c next L M (rnd (length r)) HLr (l_conf _ _ _ _ _ HL) (l_sorted _ _ _ _ _ HL) (l_rep _ _ _ _ _ HM))
    as (c' & itn & lo & keep & S & hh & b & M' & HE & PS & SS & ES & Hlo & Hhh & Hkp & HR' & HS' & HC' & Hh' & Hw' & Hst' & Hns' & HRM & PM & SM).
  { apply (l_flag _ _ _ _ _ HM). lia. }
  { apply (l_sorted _ _ _ _ _ HM). apply (l_flag _ _ _ _ _ HM). lia. }
  { lia. } { lia. } { lia. }
  rewrite HE. cbn [bindr].
  assert (LL : length L = 2 * hh + length keep). { rewrite (Permutation_length PS), ES. destruct (c_hra c); rewrite app_length; lia. }
  assert (LM : length M' = hh + length M). { rewrite <- (Permutation_length PM), app_length, (Sel_length b hh lo Hlo). auto. }
  rewrite (l_hra _ _ _ _ _ HL) in ES.
  pose proof (l_keep _ _ _ _ _ HL) as HK3.
  destruct (IH (done ++ [c']) (set_items next itn (length M + hh) true :: above') (Ds ++ [keep]) (M' :: Post) (ret + - Z.of_nat hh)%Z
     (compute_max_nom (done ++ c :: next :: above') + (Z.of_nat (nom_cap c') - Z.of_nat (nom_cap c)))%Z (length done :: r) (length done :: cs)) as (fin & Ls & l & HE' & HP); rewrite <- ?app_assoc; cbn [app].
  - apply lvs_app; auto. cbn [lvs]. split; [|exact I]. constructor; auto; try congruence; try lia.
    + rewrite Hh'. apply HL.
    + rewrite Hw'. apply HL.
    + intros _. rewrite ES in SS. destruct h; apply (sorted_app less) in SS; tauto.
  - rewrite app_length. cbn [length]. rewrite Nat.add_1_r in *. cbn [lvs]. split; auto.
    constructor; auto.
    + destruct (l_conf _ _ _ _ _ HM). constructor; auto.
    + cbn [set_items c_hra]. apply HM.
    + cbn [set_items c_lgw]. apply HM.
    + cbn [set_items c_nsec c_ssize]. apply HM.
  - rewrite HDl. eapply D_step; eauto. lia.
  - apply Forall_app in HN. apply Forall_app. split; [tauto|]. constructor; [intros ->; cbn [length] in Hkp; nia|]. constructor; auto. intros ->. cbn [length] in LM. lia.
  - apply Forall2_app; auto. constructor; auto. unfold below. unfold nom_cap in *. nia.
  - subst ret. rewrite !Csum_app, !csum_cons, <- Hcs, csum_cons. lia.
  - rewrite !nom_app. cbn [compute_max_nom fold_right]. fold (compute_max_nom above'). change (nom_cap (set_items next itn (length M + hh) true)) with (nom_cap next). lia.
  - rewrite states_app, Csum_app, !csum_cons. cbn [states fold_right]. fold (states above'). rewrite Hst'. cbn [set_items c_state]. lia.
  - rewrite Csum_app, !csum_cons. rewrite <- Hcs, csum_cons in H31. lia.
  - cbn [length] in *. rewrite !csum_cons in *. destruct Hl2; lia.
  - exists fin, Ls, (l ++ [length done]). rewrite <- !app_assoc. cbn [app]. exact (conj HE' HP).
Qed.
(** ** The sketch *)
Notation sk := (sketch (C := C) (F := F)).
Implicit Types (s : sk).

Record Good (h : bool) (K : nat) s (xs : list C) (cs : list nat) Ls : Prop := mkGood {
  g_lv : lvs h K 0 (r_comps s) Ls; g_D : D h K xs cs Ls; g_one : xs = [] -> Ls = [[]]; g_ne : xs <> [] -> Forall nonempty Ls;
  g_n : r_n s = N.of_nat (length xs); g_ret : r_ret s = Z.of_nat (csum Ls); g_nom : r_nom s = compute_max_nom (r_comps s); g_lt : (r_ret s < r_nom s)%Z;
  g_st : (states (r_comps s) + N.of_nat (csum Ls) <= r_n s)%N; g_k : valid_k (r_k s); g_K : K <= r_k s; g_hra : r_hra s = h }.

Lemma nom_bound h K : forall cs i Ls, lvs h K i cs Ls -> (compute_max_nom cs <= 98304 * Z.of_nat (length Ls))%Z.
Proof.
  induction cs as [|c cs IH]; intros i [|L Ls] H; cbn [lvs] in H; try tauto; [cbn; lia|]. destruct H as [H1 H2]. specialize (IH _ _ H2). cbn [compute_max_nom fold_right length]. fold (compute_max_nom cs).
  pose proof (conf_pos _ _ (l_conf _ _ _ _ _ H1)) as E1. pose proof (cf_range _ _ (l_conf _ _ _ _ _ H1)) as E2. unfold nom_cap. assert (Z.of_nat (2 * c_nsec c * c_ssize c) <= 98304)%Z; [|lia]. rewrite !Nat2Z.inj_mul. assert (Z.of_nat (c_nsec c) <= 48)%Z by lia. assert (Z.of_nat (c_ssize c) <= 1024)%Z by lia. nia.
Qed.
Lemma below_lt h K : forall cs i Ls, lvs h K i cs Ls -> Forall2 below cs Ls -> (Z.of_nat (csum Ls) + Z.of_nat (length Ls) <= compute_max_nom cs)%Z.
Proof.
  induction cs as [|c cs IH]; intros i [|L Ls] H HB; cbn [lvs] in H; try tauto; [cbn; lia|]. destruct H as [H1 H2]. inversion HB; subst. specialize (IH _ _ H2 ltac:(auto)). cbn [compute_max_nom fold_right length]. fold (compute_max_nom cs).
  rewrite csum_cons. unfold below in *. lia.
Qed.

Lemma good_levels h K s xs cs Ls : Good h K s xs cs Ls -> (Z.of_nat (length xs) < 2 ^ 47)%Z -> length Ls <= 47.
Proof.
  intros G Hn. destruct xs as [|x xs]; [rewrite (g_one _ _ _ _ _ _ G eq_refl); cbn; lia|]. apply levels_47; [apply (g_ne _ _ _ _ _ _ G); discriminate|]. rewrite (d_total _ _ _ _ _ (g_D _ _ _ _ _ _ G)). auto.
Qed.
Lemma good_csum h K s xs cs Ls : Good h K s xs cs Ls -> (Z.of_nat (length xs) < 2 ^ 47)%Z -> (Z.of_nat (csum Ls) < 98304 * 47)%Z.
Proof.
  intros G Hn. pose proof (good_levels _ _ _ _ _ _ G Hn). pose proof (nom_bound _ _ _ _ _ (g_lv _ _ _ _ _ _ G)). pose proof (g_lt _ _ _ _ _ _ G). rewrite (g_ret _ _ _ _ _ _ G), (g_nom _ _ _ _ _ _ G) in *. lia.
Qed.
Lemma good_cons h K s xs cs Ls : Good h K s xs cs Ls -> exists c cs' L t, r_comps s = c :: cs' /\ Ls = L :: t.
Proof.
  intros G. destruct Ls as [|L t].
  - exfalso. pose proof (g_lv _ _ _ _ _ _ G). destruct xs; [pose proof (g_one _ _ _ _ _ _ G eq_refl); discriminate|]. pose proof (d_total _ _ _ _ _ (g_D _ _ _ _ _ _ G)) as E. cbn in E. lia.
  - pose proof (g_lv _ _ _ _ _ _ G) as H. destruct (r_comps s) as [|c cs']; [destruct H|]. exists c, cs', L, t. auto.
Qed.

Notation cmpr := (compress less zero sort rnd f_of f_shrink f_half).
Lemma compress_good h K s r xs cs Ls : lvs h K 0 (r_comps s) Ls -> D h K xs cs Ls -> Ls <> [] -> Forall nonempty Ls -> r_n s = N.of_nat (length xs) -> (Z.of_nat (length xs) < 2 ^ 47)%Z ->
  r_ret s = Z.of_nat (csum Ls) -> r_nom s = compute_max_nom (r_comps s) -> (states (r_comps s) + N.of_nat (csum Ls) <= r_n s)%N -> (Z.of_nat (csum Ls) < 2 ^ 31)%Z ->
  valid_k (r_k s) -> K <= r_k s -> r_hra s = h ->
  exists s' l Ls', cmpr s r = Ok (s', l ++ r) /\ Good h K s' xs (l ++ cs) Ls' /\ r_min s' = r_min s /\ r_max s' = r_max s /\ r_k s' = r_k s.
Proof.
  intros HL HD H0 HN Hn H47 Hret Hnom Hst H31 HV HK Hh. unfold compress. rewrite Hh.
  destruct (compress_ok h K (r_k s) xs (r_n s) HV HK ltac:(lia) ltac:(lia)
    (length (r_comps s) + Z.to_nat (compute_retained (r_comps s)) + 1) [] (r_comps s) [] Ls (r_ret s) (r_nom s) r cs) as (fin & Ls' & l & -> & P1 & P2 & P3 & P4 & P5); auto.
  - exact I.
  - rewrite (retained_ok _ _ _ _ _ HL), (lvs_length _ _ _ _ _ HL). lia.
  - cbn [bindr]. eexists _, l, Ls'. split; [reflexivity|]. split; [|cbn [r_min r_max r_k]; auto].
    assert (Hx : xs <> []). { intros ->. pose proof (d_total _ _ _ _ _ HD) as E. pose proof (levels_weight _ HN H0) as W. rewrite E in W. cbn [length] in W. assert (0 < 2 ^ Z.of_nat (length Ls - 1))%Z by (apply Z.pow_pos_nonneg; lia). lia. }
    constructor; cbn [r_comps r_n r_ret r_nom r_k r_hra]; auto; [congruence|]. pose proof (below_lt _ _ _ _ _ P1 P4).
    assert (length Ls' <> 0); [|lia]. destruct Ls'; [|discriminate]. pose proof (d_total _ _ _ _ _ P2) as E. destruct xs; [congruence|]. cbn in E. lia.
Qed.

Lemma lv_sort h K i c L S it : lv h K i c L -> rep (set_items c it (c_count c) true) S -> srt S -> lv h K i (set_items c it (c_count c) true) S.
Proof. intros [H1 H2 H3 H4 H5 H6 H7] HR HS. constructor; auto. destruct H2; constructor; auto. Qed.

Notation upd_ := (req_update less zero sort rnd f_of f_shrink f_half).
Definition new_min (x : C) s : option C := if is_empty s then Some x else f_min less x (r_min s).
Definition new_max (x : C) s : option C := if is_empty s then Some x else f_max less x (r_max s).

Lemma update_good h K s r xs cs Ls x : Good h K s xs cs Ls -> (Z.of_nat (length xs) + 1 < 2 ^ 47)%Z ->
  exists s' l Ls', upd_ s r (Some x) = Ok (s', l ++ r) /\ Good h K s' (x :: xs) (l ++ cs) Ls' /\ r_min s' = new_min x s /\ r_max s' = new_max x s /\ r_k s' = r_k s.
Proof.
  intros G Hn. destruct (good_cons _ _ _ _ _ _ G) as (c & cs' & L & t & EC & EL). subst Ls. unfold req_update. rewrite EC.
  pose proof (g_lv _ _ _ _ _ _ G) as HL. rewrite EC in HL. destruct HL as [HL HT].
  destruct (append_ok less zero sort f_of f_half sort_perm sort_sorted f_of_ok c L x (l_rep _ _ _ _ _ HL)) as (it & -> & HR). cbn [of_opt bindr].
  set (c1 := set_items c it (length L + 1) false) in *. rewrite (l_hra _ _ _ _ _ HL) in HR. set (L1 := if h then x :: L else L ++ [x]) in *.
  assert (PL : Permutation (x :: L) L1) by (unfold L1; destruct h; [auto|apply Permutation_cons_append]).
  assert (LL : length L1 = length L + 1) by (rewrite <- (Permutation_length PL); cbn [length]; lia).
  assert (HL1 : lv h K 0 c1 L1).
  { destruct HL as [H1 H2 H3 H4 H5 H6 H7]. constructor; auto; try discriminate; try congruence. destruct H2; constructor; auto. }
  assert (D1 : D h K (x :: xs) cs (L1 :: t)).
  { apply D_head with (x :: L); auto. apply D_add. apply G. }
  assert (N1 : Forall nonempty (L1 :: t)).
  { destruct xs as [|y xs].
    - pose proof (g_one _ _ _ _ _ _ G eq_refl) as E. inversion E; subst. constructor; [|constructor]. intros ->. discriminate.
    - pose proof (g_ne _ _ _ _ _ _ G ltac:(discriminate)) as E. inversion E; subst. constructor; auto. intros ->. cbn [length] in LL. lia. }
  assert (CS : csum (L1 :: t) = csum (L :: t) + 1) by (rewrite !csum_cons; lia).
  assert (ST : states (c1 :: cs') = states (c :: cs')) by reflexivity.
  pose proof (g_st _ _ _ _ _ _ G) as Gst. rewrite EC in Gst. pose proof (g_ret _ _ _ _ _ _ G) as Gret. pose proof (g_nom _ _ _ _ _ _ G) as Gnom. rewrite EC in Gnom.
  pose proof (good_csum _ _ _ _ _ _ G ltac:(lia)) as Gcs. pose proof (g_n _ _ _ _ _ _ G) as Gn.
  fold (new_min x s). fold (new_max x s).
  destruct (Z.leb_spec (r_nom s) (r_ret s + 1)) as [E|E].
  - destruct (sort_ok less sort sort_perm sort_sorted c1 L1 HR ltac:(discriminate)) as (it2 & S & -> & RS & PS & SS & _). cbn [of_opt bindr].
    set (c2 := set_items c1 it2 (c_count c1) true) in *.
    assert (CS2 : csum (S :: t) = csum (L1 :: t)) by (rewrite !csum_cons, (Permutation_length PS); auto).
    destruct (compress_good h K (mkReq (r_n s + 1) (c2 :: cs') (r_ret s + 1) (r_nom s) (new_min x s) (new_max x s) (r_k s) (r_hra s)) r (x :: xs) cs (S :: t)) as (s' & l & Ls' & HE & HG & E1 & E2 & E3);
      cbn [r_n r_comps r_ret r_nom r_min r_max r_k r_hra] in *.
    + cbn [lvs]. split; auto. apply lv_sort with L1; auto.
    + apply D_head with L1; auto.
    + discriminate.
    + inversion N1; subst. constructor; auto. intros ->. rewrite (Permutation_length PS) in LL. cbn [length] in LL. lia.
    + cbn [length]. lia.
    + cbn [length]. lia.
    + rewrite CS2, CS. lia.
    + auto.
    + rewrite CS2, CS. change (states (c2 :: cs')) with (states (c :: cs')). lia.
    + rewrite CS2, CS. lia.
    + apply G.
    + apply G.
    + apply G.
    + exists s', l, Ls'. auto.
  - eexists _, [], (L1 :: t). split; [reflexivity|]. cbn [app r_min r_max r_k]. split; [|auto].
    constructor; cbn [r_comps r_n r_ret r_nom r_k r_hra length]; auto; try apply G; try congruence; try lia; try (rewrite ?ST, ?CS; lia).
    cbn [lvs]. auto.
Qed.

(** ** Merge *)
Notation mlevels := (merge_levels less zero sort f_shrink f_half).
Lemma merge_levels_ok h K : forall os i (cs : list comp) A B, lvs h K i cs A -> lvs h K i os B -> length B <= length A -> (states cs + states os < 2 ^ 47)%N ->
  exists cs' (M : list (list C)), mlevels cs os = Ok cs' /\ lvs h K i cs' M /\ zipped A B M /\ (states cs' <= states cs + states os)%N.
Proof.
  induction os as [|o os IH]; intros i cs A [|b B] HA HB Hl Hs; cbn [lvs] in HB; try tauto.
  - exists cs, A. split; [destruct cs; reflexivity|]. split; auto. split; [constructor|]. cbn [states fold_right]. lia.
  - destruct cs as [|c cs]; destruct A as [|a A]; cbn [lvs] in HA; try tauto; [cbn [length] in Hl; lia|]. destruct HA as [HA1 HA2], HB as [HB1 HB2]. cbn [merge_levels length] in *.
    cbn [states fold_right] in *. fold (states cs) in *. fold (states os) in *.
    destruct (c_merge_ok less ceq zero sort f_of f_shrink f_half order sort_perm sort_sorted f_of_ok f_shrink_ok c o a b (l_rep _ _ _ _ _ HA1) (l_conf _ _ _ _ _ HA1) (l_sorted _ _ _ _ _ HA1) (l_rep _ _ _ _ _ HB1) (l_sorted _ _ _ _ _ HB1))
      as (c' & M & -> & R1 & P1 & S1 & F1 & C1 & H1 & W1 & T1 & N1).
    { rewrite (l_hra _ _ _ _ _ HA1), (l_hra _ _ _ _ _ HB1). auto. } { rewrite (l_lgw _ _ _ _ _ HA1), (l_lgw _ _ _ _ _ HB1). auto. } { lia. }
    cbn [bindr]. destruct (IH (S i) cs A B HA2 HB2 ltac:(lia) ltac:(lia)) as (cs' & Ms & -> & R2 & Z2 & T2). cbn [bindr].
    exists (c' :: cs'), (M :: Ms). split; auto. split; [|split; [constructor; auto|]].
    + cbn [lvs]. split; auto. constructor; auto; try (rewrite H1; apply HA1); try (rewrite W1; apply HA1). pose proof (l_keep _ _ _ _ _ HA1). lia.
    + cbn [states fold_right]. fold (states cs'). rewrite T1. pose proof (lor_le (c_state c) (c_state o)). lia.
Qed.

Lemma zipped_csum A B (M : list (list C)) : zipped A B M -> csum M = csum A + csum B.
Proof. induction 1 as [|a b m A B M P H IH]; [rewrite csum_nil; lia|]. rewrite !csum_cons, IH, <- (Permutation_length P), app_length. lia. Qed.
Lemma zipped_ne A B (M : list (list C)) : zipped A B M -> Forall nonempty B -> Forall nonempty (skipn (length B) A) -> Forall nonempty M.
Proof.
  induction 1 as [|a b m A B M P H IH]; intros HB HA; [exact HA|]. inversion HB as [|? ? N1 N2]; subst. cbn [length skipn] in HA. constructor; auto.
  intros ->. apply N1. apply Permutation_sym, Permutation_nil, app_eq_nil in P. tauto.
Qed.

Lemma grow_times_ok h K : forall m s A, lvs h K 0 (r_comps s) A -> valid_k (r_k s) -> K <= r_k s -> r_hra s = h -> length A + m <= 256 ->
  exists s', grow_times zero f_of m s = s' /\ lvs h K 0 (r_comps s') (A ++ repeat [] m) /\ states (r_comps s') = states (r_comps s) /\ r_n s' = r_n s /\ r_k s' = r_k s /\ r_hra s' = r_hra s.
Proof.
  induction m as [|m IH]; intros s A HL HV HK Hh Hm.
  - exists s. cbn [grow_times repeat]. rewrite app_nil_r. auto 10.
  - cbn [grow_times repeat]. pose proof (lvs_length _ _ _ _ _ HL) as EL.
    destruct (grown_ok h K (length (r_comps s)) (r_k s) HV HK ltac:(lia)) as (G1 & G2 & _).
    destruct (IH (grow zero f_of s) (A ++ [[]])) as (s' & E & H1 & H2 & H3 & H4 & H5); cbn [grow r_comps r_k r_hra]; auto.
    + apply lvs_app; auto. cbn [lvs Nat.add]. rewrite Hh. auto.
    + rewrite app_length. cbn [length]. lia.
    + exists s'. split; auto. rewrite <- app_assoc in H1. cbn [app] in H1. split; auto. split; [|auto]. rewrite H2. cbn [grow r_comps]. rewrite states_app. cbn [states fold_right]. rewrite Hh, G2. lia.
Qed.

Notation mrg := (req_merge less zero sort rnd f_of f_shrink f_half).
Definition merged_min s (o : sk) : option C := if (match r_min s with None => true | _ => false end) || f_less less (r_min o) (r_min s) then r_min o else r_min s.
Definition merged_max s (o : sk) : option C := if (match r_max s with None => true | _ => false end) || f_less less (r_max s) (r_max o) then r_max o else r_max s.

Lemma merge_good h K s (o : sk) r xs ys cs ds A B : Good h K s xs cs A -> Good h K o ys ds B -> ys <> [] -> (Z.of_nat (length xs) + Z.of_nat (length ys) < 2 ^ 47)%Z ->
  exists s' l Ls', mrg s o r = Ok (s', l ++ r) /\ Good h K s' (ys ++ xs) (l ++ (cs ++ ds)) Ls' /\ r_min s' = merged_min s o /\ r_max s' = merged_max s o /\ r_k s' = r_k s.
Proof.
  intros G G' Hy Hn. unfold req_merge. assert (EO : is_empty o = false). { unfold is_empty. rewrite (g_n _ _ _ _ _ _ G'). destruct ys; [congruence|]. apply N.eqb_neq. cbn [length]. lia. }
  rewrite EO, (g_hra _ _ _ _ _ _ G), (g_hra _ _ _ _ _ _ G'), Bool.eqb_reflx. cbn [negb]. fold (merged_min s o). fold (merged_max s o).
  pose proof (good_levels _ _ _ _ _ _ G ltac:(lia)) as HA47. pose proof (good_levels _ _ _ _ _ _ G' ltac:(lia)) as HB47.
  rewrite (lvs_length _ _ _ _ _ (g_lv _ _ _ _ _ _ G)), (lvs_length _ _ _ _ _ (g_lv _ _ _ _ _ _ G')).
  set (m := length B - length A) in *.
  destruct (grow_times_ok h K m s A (g_lv _ _ _ _ _ _ G) (g_k _ _ _ _ _ _ G) (g_K _ _ _ _ _ _ G) (g_hra _ _ _ _ _ _ G) ltac:(lia)) as (s1 & -> & HL1 & HS1 & Hn1 & Hk1 & Hh1).
  pose proof (g_st _ _ _ _ _ _ G) as St1. pose proof (g_st _ _ _ _ _ _ G') as St2. pose proof (g_n _ _ _ _ _ _ G) as Gn1. pose proof (g_n _ _ _ _ _ _ G') as Gn2.
  destruct (merge_levels_ok h K (r_comps o) 0 (r_comps s1) (A ++ repeat [] m) B HL1 (g_lv _ _ _ _ _ _ G')) as (cs' & M & -> & HLM & HZ & HT).
  { rewrite app_length, repeat_length. lia. } { lia. }
  cbn [bindr]. set (s2 := mkReq _ _ _ _ _ _ _ _).
  assert (CM : csum M = csum A + csum B).
  { rewrite (zipped_csum _ _ _ HZ), Csum_app. assert (csum (repeat (@nil C) m) = 0) by (clear; induction m; auto). lia. }
  assert (DM : D h K (ys ++ xs) (cs ++ ds) M).
  { eapply D_merge; [|apply G'|exact HZ]. apply D_pad. apply G. }
  assert (NM : Forall nonempty M).
  { eapply zipped_ne; [exact HZ|apply (g_ne _ _ _ _ _ _ G'); auto|]. destruct (Nat.leb_spec (length B) (length A)) as [E|E].
    - unfold m. replace (length B - length A) with 0 by lia. cbn [repeat]. rewrite app_nil_r. destruct xs as [|x xs].
      + rewrite (g_one _ _ _ _ _ _ G eq_refl) in *. destruct (good_cons _ _ _ _ _ _ G') as (? & ? & ? & ? & _ & ->). cbn [length skipn]. rewrite skipn_nil. constructor.
      + pose proof (g_ne _ _ _ _ _ _ G ltac:(discriminate)) as HF. rewrite <- (firstn_skipn (length B) A) in HF. apply Forall_app in HF. tauto.
    - rewrite skipn_all2 by (rewrite app_length, repeat_length; lia). constructor. }
  assert (N0 : M <> []). { destruct (good_cons _ _ _ _ _ _ G') as (? & ? & ? & ? & _ & ->). inversion HZ; discriminate. }
  pose proof (good_csum _ _ _ _ _ _ G ltac:(lia)) as C1. pose proof (good_csum _ _ _ _ _ _ G' ltac:(lia)) as C2.
  assert (RM : compute_retained cs' = Z.of_nat (csum M)) by (eapply retained_ok; eauto).
  destruct (Z.leb_spec (r_nom s2) (r_ret s2)) as [E|E].
  - destruct (compress_good h K s2 r (ys ++ xs) (cs ++ ds) M) as (s' & l & Ls' & HE & HG & E1 & E2 & E3); cbn [s2 r_n r_comps r_ret r_nom r_min r_max r_k r_hra] in *; auto.
    + rewrite app_length. lia.
    + rewrite app_length. lia.
    + lia.
    + lia.
    + rewrite Hk1. apply G.
    + rewrite Hk1. apply G.
    + rewrite Hh1. apply G.
    + fold s2. rewrite HE. cbn [bindr]. pose proof (g_lt _ _ _ _ _ _ HG). destruct (Z.leb_spec (r_nom s') (r_ret s')); [lia|]. exists s', l, Ls'. split; auto. split; auto. split; auto. split; auto. congruence.
  - cbn [bindr]. destruct (Z.leb_spec (r_nom s2) (r_ret s2)); [lia|]. exists s2, [], M. split; [reflexivity|]. split; [|split; [reflexivity|split; [reflexivity|auto]]]. cbn [app].
    constructor; auto; cbn [s2 r_n r_comps r_ret r_nom r_min r_max r_k r_hra]; auto.
    + intros E0. apply app_eq_nil in E0. destruct E0; congruence.
    + rewrite app_length. lia.
    + lia.
    + rewrite Hk1. apply G.
    + rewrite Hk1. apply G.
    + rewrite Hh1. apply G.
Qed.

Lemma new_good k h K : valid_k k -> K <= k -> exists s, req_new zero f_of k h = Ok s /\ Good h K s [] [] [[]] /\ r_min s = Some zero /\ r_max s = Some zero /\ r_k s = k.
Proof.
  intros HV HK. unfold req_new. destruct (HV) as [V1 V2]. rewrite V1. destruct (Nat.ltb_spec k 4); [lia|]. destruct (Nat.ltb_spec 1024 k); [lia|]. cbn [orb]. eexists. split; [reflexivity|]. unfold grow. cbn [ r_min r_max r_k r_comps r_hra length app]. split; [|auto].
  destruct (grown_ok h K 0 k HV HK ltac:(lia)) as (G1 & G2 & G3).
  unfold grow; constructor; cbn [r_n r_comps r_ret r_nom r_min r_max r_k r_hra]; auto; try congruence.
  - cbn [lvs]. auto.
  - apply D_nil; auto.
  - cbn [compute_max_nom fold_right]. pose proof (conf_pos _ _ (l_conf _ _ _ _ _ G1)) as E1. pose proof (cf_range _ _ (l_conf _ _ _ _ _ G1)) as E2. unfold nom_cap in *. set (x := c_nsec _) in *. set (y := c_ssize _) in *. assert (0 < 2 * x * y) by nia. lia.
  - cbn [states fold_right]. rewrite G2. cbn. lia.
Qed.

Lemma reset_good s h K xs cs Ls : Good h K s xs cs Ls -> Good h K (req_reset zero f_of s) [] [] [[]] /\ r_min (req_reset zero f_of s) = None /\ r_max (req_reset zero f_of s) = None /\ r_k (req_reset zero f_of s) = r_k s.
Proof.
  intros G. destruct (new_good (r_k s) h K (g_k _ _ _ _ _ _ G) (g_K _ _ _ _ _ _ G)) as (s0 & E & G0 & _).
  split; [|auto]. unfold req_new in E. destruct (Nat.odd (r_k s) || (r_k s <? 4) || (1024 <? r_k s)); inversion E; subst s0.
  unfold req_reset. rewrite (g_hra _ _ _ _ _ _ G). destruct G0; constructor; auto.
Qed.

Lemma queried_good s h K xs cs Ls : Good h K s xs cs Ls -> exists s' Ls', queried sort s = Some s' /\ Good h K s' xs cs Ls' /\ r_min s' = r_min s /\ r_max s' = r_max s /\ r_k s' = r_k s.
Proof.
  intros G. destruct (good_cons _ _ _ _ _ _ G) as (c & cs' & L & t & EC & EL). subst Ls. unfold queried. rewrite EC.
  pose proof (g_lv _ _ _ _ _ _ G) as HL. rewrite EC in HL. destruct HL as [HL HT].
  assert (HS : forall cs i Ls, i <> 0 -> lvs h K i cs Ls -> sort_comps sort cs = Some cs).
  { induction cs0 as [|c0 cs0 IH]; intros i [|L0 Ls] Hi H; cbn [lvs] in H; try tauto; auto. destruct H as [H1 H2]. cbn [sort_comps]. unfold c_sort. rewrite (l_flag _ _ _ _ _ H1 Hi). cbn [bindo]. rewrite (IH (S i) Ls) by auto. auto. }
  cbn [sort_comps]. destruct (sort_ok less sort sort_perm sort_sorted c L (l_rep _ _ _ _ _ HL) (l_sorted _ _ _ _ _ HL)) as (it & S & -> & RS & PS & SS & _). cbn [bindo]. rewrite (HS cs' 1 t) by auto. cbn [bindo].
  eexists _, (S :: t). split; [reflexivity|]. split; [|auto]. set (c2 := set_items c it (c_count c) true) in *.
  assert (CS2 : csum (S :: t) = csum (L :: t)) by (rewrite !csum_cons, (Permutation_length PS); auto).
  destruct G as [G1 G2 G3 G4 G5 G6 G7 G8 G9 G10 G11 G12]. rewrite EC in *.
  constructor; cbn [r_n r_comps r_ret r_nom r_min r_max r_k r_hra]; auto.
  - cbn [lvs]. split; auto. apply lv_sort with L; auto.
  - apply D_head with L; auto.
  - intros E. specialize (G3 E). inversion G3; subst. apply Permutation_nil in PS. subst. auto.
  - intros E. specialize (G4 E). inversion G4; subst. constructor; auto. intros ->. apply Permutation_sym, Permutation_nil in PS. contradiction.
  - rewrite CS2. auto.
  - rewrite CS2. auto.
Qed.
End S.
