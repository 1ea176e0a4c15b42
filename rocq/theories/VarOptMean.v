(** * The estimates of VarOpt sampling are unbiased.

    One update draws a number u, uniform in (0, 1), and an integer, uniform below the number of items in the reservoir part. The estimate
    after the update is a step function of u; its mean is the sum over the steps. *)
From Verif Require Import Base Bytes Arr BitPackModel ReservoirModel ReservoirProps VarOptModel VarOptHeap VarOptProofs VarOptSem VarOptUnion VarOptProps.
From Coq Require Import QArith Qabs Lqa.
Local Close Scope Q_scope.
Local Open Scope nat_scope.

(** ** Specification vocabulary *)
(** The integral of a step function from a to b. *)
Inductive integral (f : Q -> Q) : Q -> Q -> Q -> Prop :=
| int_step a b v i : (a <= b)%Q -> (forall u, (a <= u)%Q -> (u < b)%Q -> (f u == v)%Q) -> (i == v * (b - a))%Q -> integral f a b i
| int_join a c b i j t : integral f a c i -> integral f c b j -> (t == i + j)%Q -> integral f a b t.
(** The mean over u uniform in [0, 1) and i uniform in 0, ..., r-1. *)
Definition mean (r : nat) (F : draw -> Q) (E : Q) : Prop :=
  exists e : nat -> Q, (forall i, i < r -> integral (fun u => F (mkDraw u i)) 0 1 (e i)) /\ (E * qn r == qsum (map e (seq 0 r)))%Q.

(** *** The integral and the mean are unique *)
Lemma integral_le f a b i : integral f a b i -> (a <= b)%Q.
Proof. induction 1; auto. lra. Qed.
Lemma integral_split f a b i : integral f a b i -> forall c, (a <= c <= b)%Q -> exists i1 i2, integral f a c i1 /\ integral f c b i2 /\ (i == i1 + i2)%Q.
Proof.
  induction 1 as [a b v i Hab Hf Hi|a c b i j t H1 IH1 H2 IH2 Ht]; intros c' Hc.
  - exists (v * (c' - a))%Q, (v * (b - c'))%Q. split; [|split].
    + apply int_step with v; try lra. intros; apply Hf; lra.
    + apply int_step with v; try lra. intros; apply Hf; lra.
    + rewrite Hi. lra.
  - destruct (Qlt_le_dec c' c) as [A|A].
    + destruct (IH1 c') as (i1 & i2 & B1 & B2 & B3); [lra|]. exists i1, (i2 + j)%Q. split; auto. split; [|rewrite Ht, B3; lra]. eapply int_join; eauto. reflexivity.
    + destruct (IH2 c') as (i1 & i2 & B1 & B2 & B3); [pose proof (integral_le _ _ _ _ H2); lra|]. exists (i + i1)%Q, i2. split; [eapply int_join; eauto; reflexivity|]. split; auto. rewrite Ht, B3. lra.
Qed.
Lemma integral_step_le f v a b : (forall u, (a <= u)%Q -> (u < b)%Q -> (f u == v)%Q) -> forall g j, integral g a b j ->
  (forall u, (a <= u)%Q -> (u < b)%Q -> (f u <= g u)%Q) -> (v * (b - a) <= j)%Q.
Proof.
  intros Hf g j Hj. revert Hf. induction Hj as [a b w j Hab Hg Hj|a c b i j t H1 IH1 H2 IH2 Ht]; intros Hf Hle.
  - rewrite Hj. destruct (Qlt_le_dec a b) as [A|A].
    + assert (v <= w)%Q. { rewrite <- (Hf a), <- (Hg a) by lra. apply Hle; lra. } apply Qmult_le_compat_r; lra.
    + setoid_replace (b - a)%Q with 0%Q by lra. lra.
  - pose proof (integral_le _ _ _ _ H1). pose proof (integral_le _ _ _ _ H2).
    assert (v * (c - a) <= i)%Q by (apply IH1; intros; [apply Hf|apply Hle]; lra).
    assert (v * (b - c) <= j)%Q by (apply IH2; intros; [apply Hf|apply Hle]; lra). rewrite Ht. lra.
Qed.
Theorem integral_mono f g a b i j : integral f a b i -> integral g a b j -> (forall u, (a <= u)%Q -> (u < b)%Q -> (f u <= g u)%Q) -> (i <= j)%Q.
Proof.
  intros Hi. revert g j. induction Hi as [a b v i Hab Hf Hi|a c b i1 i2 t H1 IH1 H2 IH2 Ht]; intros g j Hj Hle.
  - rewrite Hi. eapply integral_step_le; eauto.
  - pose proof (integral_le _ _ _ _ H1). pose proof (integral_le _ _ _ _ H2).
    destruct (integral_split _ _ _ _ Hj c) as (j1 & j2 & B1 & B2 & B3); [lra|].
    assert (i1 <= j1)%Q by (eapply IH1; eauto; intros; apply Hle; lra). assert (i2 <= j2)%Q by (eapply IH2; eauto; intros; apply Hle; lra). lra.
Qed.
Theorem integral_unique f a b i j : integral f a b i -> integral f a b j -> (i == j)%Q.
Proof. intros A B. apply Qle_antisym; eapply integral_mono; eauto; intros; lra. Qed.

Lemma qsum_ext (e e' : nat -> Q) l : (forall i, In i l -> (e i == e' i)%Q) -> (qsum (map e l) == qsum (map e' l))%Q.
Proof. induction l as [|x l IH]; intros A; simpl; [reflexivity|]. rewrite IH, (A x); simpl; auto; [reflexivity|]. intros; apply A; simpl; auto. Qed.
Theorem mean_unique r F G E E' : 0 < r -> mean r F E -> mean r G E' -> (forall d, (F d == G d)%Q) -> (E == E')%Q.
Proof.
  intros Hr (e & A1 & A2) (e' & B1 & B2) He. assert (X : (qsum (map e (seq 0 r)) == qsum (map e' (seq 0 r)))%Q).
  { apply qsum_ext. intros i Hi. apply in_seq in Hi. apply Qle_antisym; eapply integral_mono; try apply A1; try apply B1; try lia; intros; rewrite He; lra. }
  rewrite X, <- B2 in A2. apply qn_pos in Hr. apply Qmult_inj_r in A2; auto. lra.
Qed.

Lemma integral_ext f g a b i : integral f a b i -> (forall u, (a <= u)%Q -> (u < b)%Q -> (g u == f u)%Q) -> integral g a b i.
Proof.
  induction 1 as [a b v i Hab Hf Hi|a c b i j t H1 IH1 H2 IH2 Ht]; intros A.
  - apply int_step with v; auto. intros. rewrite A; auto.
  - pose proof (integral_le _ _ _ _ H1). pose proof (integral_le _ _ _ _ H2). apply int_join with c i j; auto; [apply IH1|apply IH2]; intros; apply A; lra.
Qed.
Lemma integral_eq f a b i j : integral f a b i -> (i == j)%Q -> integral f a b j.
Proof. intros [a0 b0 v i0 A B C|a0 c b0 i0 j0 t A B C] E; [apply int_step with v; auto; rewrite <- E; auto|apply int_join with c i0 j0; auto; rewrite <- E; auto]. Qed.
Lemma integral_affine f a b i c : integral f a b i -> integral (fun u => f u + c)%Q a b (i + c * (b - a))%Q.
Proof.
  induction 1 as [a b v i Hab Hf Hi|a m b i j t H1 IH1 H2 IH2 Ht].
  - apply int_step with (v + c)%Q; auto; [|rewrite Hi; lra]. intros. rewrite Hf; auto. reflexivity.
  - eapply int_join; eauto. rewrite Ht. lra.
Qed.
Lemma qsum_add (e : nat -> Q) c l : (qsum (map (fun i => e i + c) l) == qsum (map e l) + c * qn (length l))%Q.
Proof. induction l as [|x l IH]; [simpl; change (qn 0) with 0%Q; lra|]. cbn [map length]. rewrite qn_S. change (qsum (?a :: ?b)) with (a + qsum b)%Q. cbn [qsum fold_right] in *. fold (qsum (map (fun i => (e i + c)%Q) l)). fold (qsum (map e l)). rewrite IH. lra. Qed.
Lemma mean_add r F E c : mean r F E -> mean r (fun d => F d + c)%Q (E + c)%Q.
Proof.
  intros (e & A & B). exists (fun i => e i + c)%Q. split.
  - intros i Hi. eapply integral_eq; [apply integral_affine; apply A; auto|lra].
  - rewrite qsum_add, seq_length, Qmult_plus_distr_l, B. reflexivity.
Qed.
Lemma mean_ext r F G E E' : mean r F E -> (forall d, (G d == F d)%Q) -> (E == E')%Q -> mean r G E'.
Proof. intros (e & A & B) HG HE. exists e. split; [|rewrite <- HE; auto]. intros i Hi. eapply integral_ext; [apply A; auto|]. intros; apply HG. Qed.
Lemma mean_const r F v : 0 < r -> (forall d, (F d == v)%Q) -> mean r F v.
Proof.
  intros Hr A. exists (fun _ => v). split.
  - intros i _. apply int_step with v; try lra. intros; apply A.
  - rewrite (qsum_const _ v); [rewrite map_length, seq_length; lra|]. intros x Hx. apply in_map_iff in Hx as (q & <- & _). reflexivity.
Qed.

(** The estimate of the weight of the items with a property: the sum over the samples that have it, as EstimateSubsetSum computes it
    (varopt_estimate). *)
Definition est {T} (P : T -> bool) (s : @vo T) : Q := match all_samples s with Some smp => total (subset P smp) | None => 0%Q end.

(** ** Choosing the slot to delete *)
Section Mean.
Context {T : Type}.
Variable P : T -> bool.
Implicit Types (l H M R J L xs vs A B : list (@slot T)) (s : @vo T) (g : @slot T) (D : list T).

Lemma loop_ext Wc keep : forall cnt l i a a' b b', (a == a')%Q -> (b == b')%Q -> weighted_loop cnt l i Wc keep a b = weighted_loop cnt l i Wc keep a' b'.
Proof.
  induction cnt as [|c IH]; intros l i a a' b b' Ha Hb; simpl; auto. destruct (nth_error l i) as [x|]; cbn [bindo]; auto.
  assert (qlt (a + qn keep * wt x) (b + Wc) = qlt (a' + qn keep * wt x) (b' + Wc)) as ->.
  { destruct (qlt (a + _) _) eqn:Q1, (qlt (a' + _) _) eqn:Q2; auto; rewrite ?qlt_iff, ?qlt_false in *; lra. }
  destruct (qlt _ _); auto. apply IH; rewrite ?Ha, ?Hb; reflexivity.
Qed.

(** The chance of being deleted. *)
Definition pdel (Wc : Q) (keep : nat) (x : @slot T) : Q := (1 - qn keep * wt x / Wc)%Q.
Definition psum Wc keep (V : slot -> Q) l : Q := qsum (map (fun x => V x * pdel Wc keep x)%Q l).

Lemma loop_integral Wc keep (V : slot -> Q) (Vr : Q) : (0 < Wc)%Q -> forall M A B f a left rt, (forall x, In x M -> (qn keep * wt x <= Wc)%Q) ->
  (a * Wc == rt - left)%Q -> (a + psum Wc keep (fun _ => 1%Q) M <= 1)%Q ->
  (forall u, (a <= u)%Q -> (u < 1)%Q -> exists j, weighted_loop (length M) (A ++ M ++ B) (length A) Wc keep left (rt - Wc * u)%Q = Some j /\
     (j < length A + length M -> exists x, nth_error (A ++ M ++ B) j = Some x /\ (f u == V x)%Q) /\ (j = length A + length M -> (f u == Vr)%Q)) ->
  integral f a 1 (psum Wc keep V M + Vr * (1 - a - psum Wc keep (fun _ => 1%Q) M))%Q.
Proof.
  intros HW. induction M as [|x M IH]; intros A B f a left rt HM Ha Hs Hf.
  - unfold psum in *. cbn [map qsum fold_right] in *. apply int_step with Vr; [lra| |lra].
    intros u U1 U2. destruct (Hf u U1 U2) as (j & E & _ & F). simpl in E. injection E as <-. apply F. simpl. lia.
  - unfold psum in *. cbn [map] in *. change (qsum (?a :: ?b)) with (a + qsum b)%Q in *.
    assert (Hx : (qn keep * wt x <= Wc)%Q) by (apply HM; simpl; auto).
    assert (Px : (pdel Wc keep x * Wc == Wc - qn keep * wt x)%Q) by (unfold pdel; field; lra).
    assert (P0 : (0 <= pdel Wc keep x)%Q). { destruct (Qlt_le_dec (pdel Wc keep x) 0) as [X|X]; auto. exfalso. assert (pdel Wc keep x * Wc < 0)%Q by (apply Qmult_lt_0_compat_neg || nra). lra. }
    assert (PM : (0 <= qsum (map (fun x => 1 * pdel Wc keep x) M))%Q).
    { apply qsum_nonneg. intros q Hq. apply in_map_iff in Hq as (y & <- & Hy). assert (Hy2 : (qn keep * wt y <= Wc)%Q) by (apply HM; simpl; auto).
      assert (Py : (pdel Wc keep y * Wc == Wc - qn keep * wt y)%Q) by (unfold pdel; field; lra). nra. }
    set (c := (a + pdel Wc keep x)%Q).
    assert (Hc : (c * Wc == rt + Wc - (left + qn keep * wt x))%Q) by (unfold c; lra).
    apply int_join with c (V x * pdel Wc keep x)%Q (psum Wc keep V M + Vr * (1 - c - psum Wc keep (fun _ => 1%Q) M))%Q.
    + apply int_step with (V x); [unfold c; lra| |unfold c; lra].
      intros u U1 U2. destruct (Hf u U1) as (j & E & F & _); [unfold c in *; lra|].
      cbn [length weighted_loop] in E. simpl app in E. rewrite nth_seg in E by auto. cbn [bindo] in E.
      assert (Q : qlt (left + qn keep * wt x) (rt - Wc * u + Wc) = true) by (apply qlt_iff; nra). rewrite Q in E. injection E as <-.
      destruct F as (y & E & F); [cbn [length]; lia|]. simpl app in E. rewrite nth_seg in E by auto. injection E as <-. auto.
    + apply (IH (A ++ [x]) B f c (left + qn keep * wt x)%Q (rt + Wc)%Q); auto.
      * intros y Hy. apply HM. simpl. auto.
      * unfold c, psum. lra.
      * intros u U1 U2. destruct (Hf u) as (j & E & F & G); [unfold c in *; lra|auto|].
        cbn [length weighted_loop] in E. simpl app in E. rewrite nth_seg in E by auto. cbn [bindo] in E.
        assert (Q : qlt (left + qn keep * wt x) (rt - Wc * u + Wc) = false) by (apply qlt_false; nra). rewrite Q in E.
        exists j. rewrite <- app_assoc. simpl app. rewrite app_length. cbn [length] in *. split.
        { rewrite <- E. apply loop_ext; [reflexivity|lra]. }
        simpl app in F. split; intros; [apply F; lia|apply G; lia].
    + unfold psum, c. lra.
Qed.

Definition b2q (b : bool) : Q := if b then 1%Q else 0%Q.
Definition psel l : Q := qsum (map wt (filter (fun x => P (it x)) l)).
Definition pcnt l : Q := qn (length (filter (fun x => P (it x)) l)).

Lemma psel_app l l' : (psel (l ++ l') == psel l + psel l')%Q.
Proof. unfold psel. rewrite filter_app, map_app, qsum_app. reflexivity. Qed.
Lemma psel_cons (x : @slot T) l : (psel (x :: l) == (if P (it x) then wt x else 0) + psel l)%Q.
Proof. unfold psel. cbn [filter]. destruct (P (it x)); cbn [map]; [reflexivity|lra]. Qed.
Lemma psel_perm l l' : Permutation l l' -> (psel l == psel l')%Q.
Proof. intros E. unfold psel. apply qsum_perm, Permutation_map, filter_perm, E. Qed.
Lemma pcnt_app l l' : (pcnt (l ++ l') == pcnt l + pcnt l')%Q.
Proof. unfold pcnt. rewrite filter_app, app_length, qn_add. reflexivity. Qed.
Lemma pcnt_cons (x : @slot T) l : (pcnt (x :: l) == b2q (P (it x)) + pcnt l)%Q.
Proof. unfold pcnt, b2q. cbn [filter]. destruct (P (it x)); cbn [length]; rewrite ?qn_S; lra. Qed.
Lemma pcnt_items l l' : Permutation (map it l) (map it l') -> pcnt l = pcnt l'.
Proof.
  intros E. unfold pcnt. f_equal. assert (X : forall l, length (filter (fun x => P (it x)) l) = length (filter P (map it l))).
  { clear. induction l as [|x l IH]; simpl; auto. destruct (P (it x)); simpl; auto. }
  rewrite !X. apply Permutation_length, filter_perm, E.
Qed.

Lemma subset_pairs l : (total (subset P (map pair_of l)) == psel l)%Q.
Proof. unfold total, psel, subset. induction l as [|x l IH]; simpl; [reflexivity|]. destruct (P (it x)); simpl; rewrite IH; reflexivity. Qed.
Lemma est_est s xs H g R J L D : Est s xs H g R J L D -> (est P s == psel H + pcnt R * tau s)%Q.
Proof.
  intros E. unfold est. destruct (est_reads _ _ _ _ _ _ _ _ E) as (_ & _ & _ & ->). unfold total, subset. rewrite filter_app, map_app, qsum_app.
  fold (subset P (map pair_of H)). fold (total (subset P (map pair_of H))). rewrite subset_pairs. apply Qplus_comp; [reflexivity|].
  clear E. induction R as [|y R IH]; [cbn; unfold pcnt; cbn; change (qn 0) with 0%Q; lra|]. rewrite pcnt_cons. unfold b2q. cbn [map filter fst]. destruct (P (it y)); cbn [map].
  - change (qsum (?a :: ?b)) with (a + qsum b)%Q. rewrite IH. cbn [snd]. lra.
  - rewrite IH. lra.
Qed.
Lemma est_warm s xs : Warm s xs -> (est P s == psel xs)%Q.
Proof. intros E. unfold est. destruct (warm_reads _ _ E) as (_ & _ & _ & ->). rewrite subset_pairs. symmetry. apply psel_perm. apply (wm_perm _ _ E). Qed.

Lemma psum_add Wc keep (V V' : slot -> Q) l : (psum Wc keep (fun x => V x + V' x)%Q l == psum Wc keep V l + psum Wc keep V' l)%Q.
Proof. unfold psum. induction l as [|x l IH]; [cbn; lra|]. cbn [map]. change (qsum (?a :: ?b)) with (a + qsum b)%Q. rewrite IH. lra. Qed.
Lemma psum_one Wc keep l : (0 < Wc)%Q -> (psum Wc keep (fun _ => 1) l == qn (length l) - qn keep * sw l / Wc)%Q.
Proof.
  intros HW. unfold psum. induction l as [|x l IH]; [cbn; change (qn 0) with 0%Q; unfold sw; cbn; field; lra|]. cbn [map length]. change (qsum (?a :: ?b)) with (a + qsum b)%Q.
  rewrite IH, qn_S, sw_cons. unfold pdel. field. lra.
Qed.
Lemma psum_val Wc keep (a t : Q) l : (0 < Wc)%Q ->
  (psum Wc keep (fun x => a - t * b2q (P (it x))) l == a * psum Wc keep (fun _ => 1) l - t * (pcnt l - qn keep * psel l / Wc))%Q.
Proof.
  intros HW. unfold psum. induction l as [|x l IH].
  - unfold pcnt, psel. cbn. change (qn 0) with 0%Q. field. lra.
  - cbn [map]. change (qsum (?a :: ?b)) with (a + qsum b)%Q. rewrite IH, pcnt_cons, psel_cons. unfold b2q, pdel. destruct (P (it x)); field; lra.
Qed.
Lemma qsum_val (a t : Q) l : (qsum (map (fun x => a - t * b2q (P (it x))) l) == a * qn (length l) - t * pcnt l)%Q.
Proof.
  induction l as [|x l IH]; [unfold pcnt; cbn; change (qn 0) with 0%Q; lra|]. cbn [map length]. change (qsum (?a :: ?b)) with (a + qsum b)%Q. rewrite IH, pcnt_cons, qn_S. lra.
Qed.

Lemma qsum_nths (V : slot -> Q) c q d : forall R, (qsum (map (fun i => c + V (nth i R d) * q) (seq 0 (length R))) == c * qn (length R) + q * qsum (map V R))%Q.
Proof.
  induction R as [|x R IH]; [cbn; change (qn 0) with 0%Q; lra|]. cbn [length seq map]. rewrite <- seq_shift, map_map. change (qsum (?a :: ?b)) with (a + qsum b)%Q. cbn [nth].
  rewrite IH, qn_S. lra.
Qed.

Lemma pick_ok s d : 1 <= v_r s -> pick_in_r s d = Ok (v_h s + v_m s + d_i d mod v_r s).
Proof.
  intros Hr. unfold pick_in_r. destruct (Nat.eqb_spec (v_r s) 0); [lia|]. destruct (Nat.eqb_spec (v_r s) 1) as [E|E]; auto. rewrite E.
  assert (d_i d mod 1 = 0) by (pose proof (Nat.mod_upper_bound (d_i d) 1); lia). f_equal. lia.
Qed.

Lemma ready_mean s xs H M R J Wc L D : Ready s xs H M R J Wc L D ->
  mean (v_r s) (fun d => match downsample s Wc (v_m s + v_r s) d with Ok s' => est P s' | _ => 0%Q end) (psel H + psel M + pcnt R * (v_tot s / qn (v_r s)))%Q.
Proof.
  intros Rd. pose proof Rd as [Sg Ct Cd Rh Rp Rt Rl Ri Rpos Rm]. destruct Cd as [C1 C2 C3 C4 C5 C6 C7 C8 _]. destruct Sg as [S1 S2 S3 S4 S5 S6].
  assert (Hz : exists z : T, True) by (destruct R as [|y0 R0]; [simpl in S4; lia|exists (it y0); auto]). destruct Hz as [zero _].
  set (keep := v_m s + v_r s - 1) in *.
  assert (Kp : (0 < qn keep)%Q) by (apply qn_pos; unfold keep; lia). assert (Rq : (0 < qn (v_r s))%Q) by (apply qn_pos; lia).
  assert (Mp : (0 <= sw M)%Q). { apply qsum_nonneg. intros q Hq. apply in_map_iff in Hq as (y & <- & Hy). assert (0 < wt y)%Q by (apply C4, in_app_iff; auto). lra. }
  assert (Wp : (0 < Wc)%Q) by lra.
  set (t := (Wc / qn keep)%Q). set (a := (psel H + t * pcnt (M ++ R))%Q). set (V := fun x : @slot T => (a - t * b2q (P (it x)))%Q).
  set (F := fun d => match downsample s Wc (v_m s + v_r s) d with Ok s' => est P s' | _ => 0%Q end).
  assert (HF : forall d j, choose_delete_slot s Wc (v_m s + v_r s) d = Ok (v_h s + j) -> exists x, nth_error (M ++ R) j = Some x /\ (F d == V x)%Q).
  { intros d j Hj. destruct (ready_down _ _ _ _ _ _ _ _ _ d Rd) as (s' & g & R' & A & x & B & E1 & E2 & E3 & E4 & E5 & E6 & E7 & E8 & E9 & E10 & E11 & E12 & E13).
    rewrite E6 in Hj. injection Hj as Hj. assert (j = length A) as -> by lia. exists x. rewrite E4. split; [apply nth_seg; auto|].
    unfold F. rewrite E1. rewrite (est_est _ _ _ _ _ _ _ _ E2). unfold tau. rewrite E12, E13. fold keep. fold t.
    unfold V, a. rewrite E4. rewrite pcnt_app, pcnt_cons. rewrite (pcnt_items R' (A ++ B) E5), pcnt_app. lra. }
  assert (Hm : forall x, In x M -> (qn keep * wt x <= Wc)%Q). { intros x Hx. specialize (C6 x Hx). lra. }
  assert (P1 : (psum Wc keep (fun _ => 1) M == 1 - qn (v_r s) + qn keep * v_tot s / Wc)%Q).
  { rewrite psum_one by auto. rewrite <- S3. assert (qn keep == qn (v_m s) + qn (v_r s) - 1)%Q as EK by (unfold keep; rewrite qn_sub1, qn_add by lia; reflexivity).
    setoid_replace (sw M) with (Wc - v_tot s)%Q by (rewrite C5; lra). rewrite EK at 1. setoid_replace (qn (v_m s))%Q with (qn keep - qn (v_r s) + 1)%Q by (rewrite EK; lra). rewrite EK. field. lra. }
  assert (P1b : (psum Wc keep (fun _ => 1) M <= 1)%Q).
  { rewrite P1. assert (qn keep * v_tot s / Wc <= qn (v_r s))%Q; [|lra]. apply Qle_shift_div_r; auto. lra. }
  exists (fun i => psum Wc keep V M + V (nth i R (mkSlot zero 0 false)) * (1 - psum Wc keep (fun _ => 1) M))%Q. split.
  - intros i Hi. assert (Im : i mod v_r s = i) by (apply Nat.mod_small; auto).
    set (xr := nth i R (mkSlot zero 0 false)).
    assert (Nr : nth_error R i = Some xr) by (apply nth_error_nth'; lia).
    assert (Nmr : nth_error (M ++ R) (v_m s + i) = Some xr) by (rewrite S3, nth_after; auto).
    assert (Hr : forall u, choose_delete_slot s Wc (v_m s + v_r s) (mkDraw u i) = pick_in_r s (mkDraw u i) -> (F (mkDraw u i) == V xr)%Q).
    { intros u E. rewrite pick_ok in E by lia. cbn [d_i] in E. rewrite Im in E. replace (v_h s + v_m s + i) with (v_h s + (v_m s + i)) in E by lia.
      destruct (HF _ _ E) as (x & A1 & A2). rewrite Nmr in A1. injection A1 as <-. auto. }
    destruct M as [|x M'].
    + apply int_step with (V xr); [lra| |unfold psum; cbn; lra]. intros u _ _. apply Hr. unfold choose_delete_slot. destruct (Nat.eqb_spec (v_r s) 0); [lia|]. rewrite S3. auto.
    + destruct M' as [|x2 M'].
      * assert (Nx : nth_error (v_s s) (v_h s) = Some x) by (rewrite S1; apply nth_seg; auto).
        set (c := (qn keep * wt x / Wc)%Q). assert (Cw : (c * Wc == qn keep * wt x)%Q) by (unfold c; field; lra).
        assert (Pp : (psum Wc keep (fun _ => 1) [x] == 1 - c)%Q) by (unfold psum, pdel, c; cbn; lra).
        assert (Hx0 : (0 < wt x)%Q) by (apply C4, in_app_iff; right; simpl; auto).
        assert (C0 : (0 <= c <= 1)%Q). { specialize (Hm x (or_introl eq_refl)). assert (0 < qn keep * wt x)%Q by (apply Qmult_lt_0_compat; auto). split; nra. }
        assert (Ch : forall u, choose_delete_slot s Wc (v_m s + v_r s) (mkDraw u i) = if qlt (Wc * u) (qn keep * wt x) then pick_in_r s (mkDraw u i) else Ok (v_h s)).
        { intros u. unfold choose_delete_slot. destruct (Nat.eqb_spec (v_r s) 0); [lia|]. rewrite S3. cbn [length]. rewrite Nx. cbn [of_opt bindr d_u]. replace (1 + v_r s - 1) with keep by (unfold keep; rewrite S3; simpl; lia). auto. }
        apply int_join with c (V xr * c)%Q (V x * (1 - c))%Q.
        -- apply int_step with (V xr); [lra| |lra]. intros u U1 U2. apply Hr. rewrite Ch. assert (qlt (Wc * u) (qn keep * wt x) = true) as -> by (apply qlt_iff; nra). auto.
        -- apply int_step with (V x); [lra| |lra]. intros u U1 U2. destruct (HF (mkDraw u i) 0) as (y & A1 & A2).
           { rewrite Ch. assert (qlt (Wc * u) (qn keep * wt x) = false) as -> by (apply qlt_false; nra). f_equal. lia. }
           simpl in A1. injection A1 as <-. auto.
        -- rewrite Pp. unfold psum. cbn. unfold pdel. fold c. lra.
      * set (M := x :: x2 :: M') in *. eapply integral_eq.
        -- apply (loop_integral Wc keep V (V xr) Wp M H (R ++ J) _ 0%Q 0%Q 0%Q); auto; [lra|lra|].
           intros u U1 U2. rewrite <- S1, <- S2, <- S3.
           destruct (weighted_range Wc keep (v_m s) (v_s s) (v_h s) 0%Q (0 - Wc * u)%Q) as (j & Ej & Hj).
           { rewrite S1, S2, S3, !app_length. lia. }
           exists j. split; auto.
           assert (Ch : choose_delete_slot s Wc (v_m s + v_r s) (mkDraw u i) = if j =? v_h s + v_m s then pick_in_r s (mkDraw u i) else Ok j).
           { unfold choose_delete_slot. destruct (Nat.eqb_spec (v_r s) 0); [lia|]. unfold choose_weighted. cbn [d_u]. fold keep.
             assert (Ec : weighted_loop (v_m s) (v_s s) (v_h s) Wc keep 0 (- Wc * u)%Q = Some j) by (rewrite <- Ej; apply loop_ext; [reflexivity|lra]).
             assert (Em : exists m', v_m s = S (S m')) by (rewrite S3; unfold M; simpl; eauto). destruct Em as (m' & Em). rewrite Em in *. rewrite Ec. cbn [of_opt bindr]. auto. }
           split.
           ++ intros Hlt. destruct (Nat.eqb_spec j (v_h s + v_m s)); [lia|]. replace j with (v_h s + (j - v_h s)) in Ch by lia.
              destruct (HF _ _ Ch) as (y & A1 & A2). exists y. split; auto. rewrite S1. replace j with (length H + (j - v_h s)) by lia. rewrite nth_after.
              rewrite nth_error_app1 in A1 by lia. rewrite nth_error_app1 by lia. auto.
           ++ intros ->. rewrite Nat.eqb_refl in Ch. apply Hr. auto.
        -- lra.
  - assert (Ef : (qsum (map (fun i => psum Wc keep V M + V (nth i R (mkSlot zero 0 false)) * (1 - psum Wc keep (fun _ => 1) M)) (seq 0 (v_r s))) ==
        psum Wc keep V M * qn (v_r s) + (1 - psum Wc keep (fun _ => 1) M) * qsum (map V R))%Q).
    { rewrite S4. generalize (psum Wc keep V M), (1 - psum Wc keep (fun _ => 1) M)%Q. intros c q. apply qsum_nths. }
    rewrite Ef. unfold V. rewrite psum_val, qsum_val by auto. rewrite <- S4. rewrite P1. unfold a. rewrite pcnt_app. unfold t. field. repeat split; lra.
Qed.

Definition est_of (r : res vo) : Q := match r with Ok s' => est P s' | _ => 0%Q end.

Lemma transition_mean s : v_r s = 0 -> v_m s = 0 -> v_h s = v_k s + 1 -> length (v_s s) = v_h s -> 1 <= v_k s ->
  v_nm s = nmark (v_s s) -> (forall x, In x (v_s s) -> 0 < wt x)%Q -> (v_gadget s = false -> forall x, In x (v_s s) -> mk x = false) ->
  mean 1 (fun d => est_of (transition s d)) (psel (v_s s)).
Proof.
  intros A1 A2 A3 A4 A5 A6 A7 A8.
  destruct (transition_ready s) as (s1 & H & M & R & W1 & x & Rd & F1 & F2 & F3 & F4 & F5 & F6 & F7 & Ed); auto.
  pose proof (ready_mean _ _ _ _ _ _ _ _ _ Rd) as Mn. rewrite F5 in Mn. rewrite F5 in Ed. eapply mean_ext; [exact Mn| |].
  - intros d. unfold est_of. rewrite Ed. reflexivity.
  - rewrite F6, (psel_perm _ _ (rd_perm _ _ _ _ _ _ _ _ _ Rd)), !psel_app. rewrite (pcnt_items R [x]) by (rewrite F7; auto). rewrite pcnt_cons, psel_cons.
    change (qn 1) with 1%Q. change (pcnt []) with 0%Q. change (psel []) with 0%Q. unfold b2q. destruct (P (it x)); field.
Qed.

Lemma update_mean s xs (x : T) w mark : Good s xs -> (0 < w)%Q -> (v_gadget s = false -> mark = false) ->
  mean (Nat.max 1 (v_r s)) (fun d => est_of (update_mark s x (Some w) mark d)) (est P s + (if P x then w else 0))%Q.
Proof.
  intros Gd Hw Hm. destruct Gd as [Wm|(H & g & R & J & L & D & E & St)].
  - pose proof (est_warm _ _ Wm) as Ew. pose proof Wm as [A1 A2 A3 A4 A5 A6 A7 A8 A9 A10].
    set (y := mkSlot x w mark).
    assert (Gm : v_gadget s && mark = mark). { destruct (v_gadget s); auto. rewrite Hm; auto. }
    set (s1 := mkVo (v_s s ++ [y]) (v_gadget s) (v_k s) (v_n s + 1) (v_h s + 1) (v_m s) 0 (v_tot s) (v_rf s) (if mark then v_nm s + 1 else v_nm s)%Z).
    assert (Eu : forall d, update_mark s x (Some w) mark d = if v_k s <? v_h s + 1 then transition s1 d else Ok s1).
    { intros d. cbn [update_mark]. destruct (Qle_bool w 0) eqn:Q; [apply Qle_bool_iff in Q; lra|]. cbv zeta. vcbn. rewrite A1. cbn [Nat.eqb]. unfold update_warmup. vcbn. rewrite Gm. auto. }
    assert (Nm : v_nm s1 = nmark (v_s s1)).
    { unfold s1; vcbn. rewrite nmark_app, <- A7. change (nmark [y]) with (nmark (y :: [])). rewrite nmark_cons. unfold y; cbn [mk]. change (nmark (@nil (@slot T))) with 0%Z. destruct mark; lia. }
    assert (Ps : (psel (v_s s1) == est P s + (if P x then w else 0))%Q).
    { unfold s1; vcbn. rewrite psel_app, psel_cons, Ew, (psel_perm _ _ A3). cbn [it wt y]. change (psel []) with 0%Q. lra. }
    rewrite A1. cbn [Nat.max]. destruct (Nat.ltb_spec (v_k s) (v_h s + 1)) as [Hlt|Hlt].
    + eapply mean_ext; [apply (transition_mean s1); auto| |exact Ps]; unfold s1; vcbn; try lia.
      * rewrite app_length. simpl. lia.
      * intros z Hz. apply in_app_iff in Hz as [Hz|[<- |[]]]; auto. apply A8. rewrite A3. auto.
      * intros G z Hz. apply in_app_iff in Hz as [Hz|[<- |[]]]; simpl; auto. apply A9; auto. rewrite A3. auto.
      * intros d. unfold est_of. rewrite Eu. reflexivity.
    + apply mean_const; [lia|]. intros d. unfold est_of. rewrite Eu. rewrite <- Ps.
      assert (W1 : Warm s1 (y :: xs)).
      { constructor; unfold s1 in *; vcbn; auto; try lia.
        - rewrite A3. apply Permutation_cons_append.
        - rewrite app_length. simpl. lia.
        - intros z [<- | Hz]; auto.
        - intros G z [<- | Hz]; simpl; auto. }
      rewrite (est_warm _ _ W1). apply psel_perm. apply (wm_perm _ _ W1).
  - destruct (update_ready s xs H g R J L D x w mark E St Hw Hm) as (s1 & H1 & M1 & W1 & Rd & F1 & F2 & F3 & F4 & F5 & F6 & F7 & Ed).
    pose proof (ready_mean _ _ _ _ _ _ _ _ _ Rd) as Mn. rewrite F5, F6 in Mn. replace (Nat.max 1 (v_r s)) with (v_r s) by (destruct E; lia).
    eapply mean_ext; [exact Mn| |].
    + intros d. unfold est_of. rewrite Ed, F5. reflexivity.
    + rewrite (est_est _ _ _ _ _ _ _ _ E). unfold tau. rewrite <- psel_app, (psel_perm _ _ F7), psel_cons. cbn [it wt]. lra.
Qed.

(** ** C60 *)

(** The expected value of the final estimate when the entries [ys] are fed to the sketch [s], over independent random outcomes. *)
Inductive expected : @vo T -> list (T * Q) -> Q -> Prop :=
| ex_done s e : (e == est P s)%Q -> expected s [] e
| ex_update s x w ys (F : draw -> Q) e : (forall d, exists s', vo_update s x (Some w) d = Ok s' /\ expected s' ys (F d)) ->
    mean (Nat.max 1 (v_r s)) F e -> expected s ((x, w) :: ys) e.

Theorem varopt_expected_unique s ys e e' : expected s ys e -> expected s ys e' -> (e == e')%Q.
Proof.
  revert s e e'. induction ys as [|(x, w) ys IH]; intros s e e' A B; inversion A as [? ? E|? ? ? ? F ? EF MF]; inversion B as [? ? E'|? ? ? ? F' ? EF' MF']; subst.
  - rewrite E, E'. reflexivity.
  - eapply mean_unique; [|exact MF|exact MF'|]; [lia|]. intros d. destruct (EF d) as (s1 & E1 & X1). destruct (EF' d) as (s2 & E2 & X2).
    rewrite E1 in E2. injection E2 as <-. eapply IH; eauto.
Qed.

Lemma expected_good : forall ys s xs, Good s xs -> v_gadget s = false -> (forall p, In p ys -> 0 < snd p)%Q ->
  exists e, expected s ys e /\ (e == est P s + total (subset P ys))%Q.
Proof.
  induction ys as [|(x, w) ys IH]; intros s xs Gd G Hp.
  - exists (est P s). split; [constructor; reflexivity|]. unfold total. simpl. lra.
  - assert (Hw : (0 < w)%Q) by (apply (Hp (x, w)); simpl; auto).
    pose proof (update_mean s xs x w false Gd Hw (fun _ => eq_refl)) as Mn.
    set (F := fun d => (est_of (update_mark s x (Some w) false d) + total (subset P ys))%Q).
    exists (est P s + total (subset P ((x, w) :: ys)))%Q. split; [|reflexivity].
    apply ex_update with F.
    + intros d. destruct (update_good s xs x w false d Gd Hw) as (s' & E & G' & (F1 & F2 & F3) & _); auto. exists s'. split; auto.
      destruct (IH s' _ G') as (e & E1 & E2); [congruence|intros; apply Hp; simpl; auto|].
      unfold F. rewrite E. cbn [est_of]. destruct ys as [|(y, w') ys].
      * inversion E1; subst. constructor. rewrite <- E2. auto.
      * inversion E1 as [|? ? ? ? F0 ? EF MF]; subst. apply ex_update with F0; auto. eapply mean_ext; [exact MF|reflexivity|auto].
    + eapply mean_ext; [apply (mean_add _ _ _ (total (subset P ys)) Mn)|reflexivity|].
      unfold total, subset. cbn [filter fst]. destruct (P x); cbn [map]; [change (qsum (?a :: ?b)) with (a + qsum b)%Q; cbn [snd]|]; lra.
Qed.

(** The expected estimate of a subset's weight is the weight of that subset of the stream. *)
Theorem varopt_unbiased k0 rf0 s ys : vo_new k0 rf0 = Ok s -> (forall p, In p ys -> 0 < snd p)%Q -> exists e, expected s ys e /\ (e == total (subset P ys))%Q.
Proof.
  intros E Hp. destruct (make_inv _ _ _ _ E) as (A & B & C & _). destruct (expected_good ys s [] (or_introl A) B Hp) as (e & E1 & E2). exists e. split; auto.
  rewrite E2, (est_warm _ _ A). change (psel []) with 0%Q. lra.
Qed.
(** From any sketch: the estimate is a martingale around the added weight. *)
Theorem varopt_unbiased_from s zs ys : plain s zs -> (forall p, In p ys -> 0 < snd p)%Q -> exists e, expected s ys e /\ (e == est P s + total (subset P ys))%Q.
Proof. intros Hs Hp. destruct (plain_good s zs Hs) as (Gd & G & _). apply (expected_good ys s _ Gd G Hp). Qed.
End Mean.
