(** * Averages of the weighted ranks of a KLL sketch over its coin flips. *)
From Verif Require Import Base Bytes Arr KllModel KllProofs KllSem.
Local Open Scope nat_scope.

(** ** Sums over all outcomes of [F] coin flips *)
Definition coinv (v : list bool) (i : nat) : bool := nth i v false.
Fixpoint sumv (F : nat) (h : list bool -> Z) : Z :=
  match F with O => h [] | S F => (sumv F (fun v => h (false :: v)) + sumv F (fun v => h (true :: v)))%Z end.
Fixpoint flipv (i : nat) (v : list bool) : list bool :=
  match v, i with [], _ => [] | b :: v, O => negb b :: v | b :: v, S i => b :: flipv i v end.

Lemma sumv_ext F : forall h h', (forall v, length v = F -> h v = h' v) -> sumv F h = sumv F h'.
Proof.
  induction F as [|F IH]; intros h h' H; cbn [sumv]; [apply H; auto|]. rewrite (IH (fun v => h (false :: v)) (fun v => h' (false :: v))), (IH (fun v => h (true :: v)) (fun v => h' (true :: v))); auto; intros v Hv; apply H; cbn [length]; auto.
Qed.
Lemma sumv_add F : forall h h', sumv F (fun v => h v + h' v)%Z = (sumv F h + sumv F h')%Z.
Proof. induction F as [|F IH]; intros h h'; cbn [sumv]; auto. rewrite !IH. lia. Qed.
Lemma sumv_scale F z : forall h, sumv F (fun v => z * h v)%Z = (z * sumv F h)%Z.
Proof. induction F as [|F IH]; intros h; cbn [sumv]; auto. rewrite !IH. lia. Qed.
Lemma sumv_const F z : sumv F (fun _ => z) = (2 ^ Z.of_nat F * z)%Z.
Proof. induction F as [|F IH]; [cbn [sumv]; rewrite Z.mul_1_l; auto|]. cbn [sumv]. rewrite !IH, Nat2Z.inj_succ, Z.pow_succ_r by lia. lia. Qed.
Lemma sumv_flip F : forall i h, i < F -> sumv F (fun v => h (flipv i v)) = sumv F h.
Proof.
  induction F as [|F IH]; intros i h Hi; [lia|]. cbn [sumv]. destruct i as [|i]; cbn [flipv negb]; [lia|].
  rewrite (IH i (fun v => h (false :: v))), (IH i (fun v => h (true :: v))) by lia. auto.
Qed.
Lemma flipv_nth : forall v i j, i < length v -> coinv (flipv i v) j = if j =? i then negb (coinv v j) else coinv v j.
Proof.
  unfold coinv. induction v as [|b v IH]; intros i j Hi; cbn [length] in Hi; [lia|]. destruct i as [|i], j as [|j]; cbn [flipv nth Nat.eqb]; auto. apply IH. lia.
Qed.

Section Mean.
Context {C : Type}.
Variables less ceq : C -> C -> bool.
Variable zero : C.
Variable sort : list C -> list C.
Hypothesis sort_perm : forall l, Permutation l (sort l).
Hypothesis sort_sorted : forall l, sortedl less (sort l).
Let cnt_perm' := cnt_perm less sort sort_perm sort_sorted.
Let cnt_app' := cnt_app less sort sort_perm sort_sorted.
Let cnt_cons' := cnt_cons less sort sort_perm sort_sorted.
Let R_app' := R_app less sort sort_perm sort_sorted.
Let sel_perm' := sel_perm less ceq zero sort (fun _ => false) sort_perm.
Let sel_length' := sel_length less ceq zero sort (fun _ => false) sort_perm.
Notation coins := (nat -> bool).
Notation halves := (halves less sort).

Definition agree (f : nat) (c c' : coins) : Prop := forall i, i < f -> c i = c' i.
Definition dep {X} (f : nat) (g : coins -> X) : Prop := forall c c', agree f c c' -> g c = g c'.
Lemma agree_le f g c c' : g <= f -> agree f c c' -> agree g c c'.
Proof. intros H A i Hi. apply A. lia. Qed.
Lemma dep_le {X} f g (h : coins -> X) : g <= f -> dep g h -> dep f h.
Proof. intros H D c c' A. apply D. eapply agree_le; eauto. Qed.
Definition lens (Ls : list (list C)) : list nat := map (@length C) Ls.
Record fam (f : nat) (Lf : coins -> list (list C)) : Prop := mkFam {
  f_dep : dep f Lf; f_shape : forall c c', lens (Lf c) = lens (Lf c') }.
Definition mean (F : nat) (p : C -> bool) (Lf : coins -> list (list C)) : Z := sumv F (fun v => R p (Lf (coinv v))).
Definition smean (f : nat) (A B : coins -> list (list C)) : Prop := forall p F, f <= F -> mean F p A = mean F p B.

Lemma lens_nth Ls i : length (nth i Ls []) = nth i (lens Ls) 0.
Proof. unfold lens. change 0 with (length (@nil C)). rewrite map_nth. auto. Qed.
Lemma lens_length A B : lens A = lens B -> length A = length B.
Proof. intros H. unfold lens in H. apply (f_equal (@length nat)) in H. rewrite !map_length in H. auto. Qed.
Lemma lens_csum A : csum A = list_sum (lens A).
Proof. induction A as [|a A IH]; [reflexivity|]. rewrite csum_cons, IH. reflexivity. Qed.

Lemma cnt_halves p b d S La h : length S = 2 * h -> (cnt p (halves b d S La) + cnt p (halves (negb b) d S La) = cnt p S + 2 * cnt p La)%Z.
Proof.
  intros HS. unfold KllProofs.halves. set (S' := if d then sort S else S). assert (HP : Permutation S S') by (unfold S'; destruct d; auto).
  assert (HL : length S' = 2 * h) by (rewrite <- (Permutation_length HP); auto).
  assert (HC : (cnt p S = cnt p (sel b S') + cnt p (sel (negb b) S'))%Z).
  { rewrite (cnt_perm' p _ _ HP), (cnt_perm' p _ _ (sel_perm' b h S' HL)), cnt_app'. auto. }
  destruct La as [|y La].
  - rewrite cnt_nil, negb_involutive. lia.
  - rewrite <- !(cnt_perm' p _ _ (mergel_perm less _ _)), !cnt_app'. lia.
Qed.
Lemma halves_len b d S La h : length S = 2 * h -> length (halves b d S La) = h + length La.
Proof.
  intros HS. unfold KllProofs.halves. set (S' := if d then sort S else S). assert (HP : Permutation S S') by (unfold S'; destruct d; auto).
  assert (HL : length S' = 2 * h) by (rewrite <- (Permutation_length HP); auto).
  destruct La as [|y La]; [rewrite (sel_length' _ h) by auto; cbn [length]; lia|].
  rewrite <- (Permutation_length (mergel_perm less _ _)), app_length, (sel_length' _ h) by auto. auto.
Qed.

(** Halving a pair of levels with the next coin keeps the mean. *)
Definition halve (level : nat) (d : bool) (f : nat) (A : coins -> list (list C)) (c : coins) : list (list C) :=
  firstn level (A c) ++ odd_lo (nth level (A c) []) :: halves (c f) d (even_part (nth level (A c) [])) (nth (S level) (A c) []) :: skipn (S (S level)) (A c).
Lemma split2 (A : list (list C)) level : S level < length A -> A = firstn level A ++ nth level A [] :: nth (S level) A [] :: skipn (S (S level)) A.
Proof.
  revert A. induction level as [|l IH]; intros A H.
  - destruct A as [|a [|b A]]; cbn [length] in H; try lia. reflexivity.
  - destruct A as [|a A]; cbn [length] in H; [lia|]. cbn [firstn nth skipn app]. f_equal. apply IH. lia.
Qed.
Lemma lens_app A B : lens (A ++ B) = lens A ++ lens B.
Proof. apply map_app. Qed.
Lemma lens_firstn l A : lens (firstn l A) = firstn l (lens A).
Proof. unfold lens. rewrite firstn_map. auto. Qed.
Lemma lens_skipn l A : lens (skipn l A) = skipn l (lens A).
Proof. unfold lens. rewrite skipn_map. auto. Qed.
Lemma halve_fam level d f A : fam f A -> fam (S f) (halve level d f A).
Proof.
  intros [HD HS]. constructor.
  - intros c c' Ag. unfold halve. rewrite (HD c c' (agree_le (Datatypes.S f) f _ _ ltac:(lia) Ag)), (Ag f) by lia. reflexivity.
  - intros c c'. unfold halve. rewrite !lens_app, !lens_firstn, (HS c c'). f_equal. unfold lens. cbn [map]. fold (lens (skipn (S (S level)) (A c))). fold (lens (skipn (S (S level)) (A c'))).
    rewrite !lens_skipn, (HS c c'), !odd_lo_length. rewrite !(halves_len _ _ _ _ _ (even_part_length _)). rewrite !lens_nth, (HS c c'). reflexivity.
Qed.
Lemma halve_mean level d f A : fam f A -> (forall c, S level < length (A c)) -> smean (S f) (halve level d f A) A.
Proof.
  intros [HD HS] HL p F HF. unfold mean.
  assert (E : (2 * sumv F (fun v => R p (halve level d f A (coinv v))) = 2 * sumv F (fun v => R p (A (coinv v))))%Z); [|lia].
  rewrite <- (sumv_scale F 2 (fun v => R p (A (coinv v)))). rewrite <- Z.add_diag.
  rewrite <- (sumv_flip F f (fun v => R p (halve level d f A (coinv v)))) at 2 by lia. rewrite <- sumv_add. apply sumv_ext. intros v Hv.
  unfold halve at 1 2. assert (EA : A (coinv (flipv f v)) = A (coinv v)).
  { apply HD. intros i Hi. rewrite flipv_nth by lia. destruct (Nat.eqb_spec i f); [lia|auto]. }
  rewrite EA, flipv_nth, Nat.eqb_refl by lia. pose proof (HL (coinv v)) as HL1. 
  assert (ER : R p (A (coinv v)) = R p (firstn level (A (coinv v)) ++ nth level (A (coinv v)) [] :: nth (S level) (A (coinv v)) [] :: skipn (S (S level)) (A (coinv v)))) by (f_equal; apply split2; auto).
  rewrite ER. rewrite !R_app'. cbn [R]. set (X := nth level (A (coinv v)) []). pose proof (cnt_halves p (coinv v f) d (even_part X) (nth (S level) (A (coinv v)) []) _ (even_part_length X)) as HC.
  assert (HO : (cnt p X = cnt p (odd_lo X) + cnt p (even_part X))%Z) by (rewrite (odd_even X) at 1; apply cnt_app').
  rewrite HO. nia.
Qed.

(** Adding an empty top level, consing onto a family of tails. *)
Lemma R_top p (A : list (list C)) : R p (A ++ [[]]) = R p A.
Proof. rewrite R_app'. cbn [R]. rewrite cnt_nil. lia. Qed.
Lemma cons_fam f (h : coins -> list C) t : dep f h -> (forall c c', length (h c) = length (h c')) -> fam f t -> fam f (fun c => h c :: t c).
Proof.
  intros Dh Lh [Dt St]. constructor; [intros c c' A; rewrite (Dh c c' A), (Dt c c' A); auto|]. intros c c'. unfold lens. cbn [map]. rewrite (Lh c c'). f_equal. apply St.
Qed.
Lemma cons_mean F p (h : coins -> list C) t : mean F p (fun c => h c :: t c) = (sumv F (fun v => cnt p (h (coinv v))) + 2 * mean F p t)%Z.
Proof. unfold mean. cbn [R]. rewrite sumv_add, sumv_scale. auto. Qed.
Lemma fam_le f g A : f <= g -> fam f A -> fam g A.
Proof. intros H [D S]. constructor; auto. eapply dep_le; eauto. Qed.

Lemma lfind_shape k0 m0 nl A : forall B lvl, lens A = lens B -> lfind k0 m0 nl lvl A = lfind k0 m0 nl lvl B.
Proof.
  induction A as [|a A IH]; intros [|b B] lvl H; try discriminate; auto. unfold lens in H. cbn [map] in H. injection H as H1 H2. cbn [lfind]. rewrite H1. destruct (_ <=? _); auto.
Qed.

Lemma compress_fam k0 m0 T r Lf c0 T' L0 r' : fam (length r) Lf -> l_compress less sort c0 k0 m0 T (Lf c0) r = Some (T', L0, r') ->
  exists Lf', (forall c, l_compress less sort c k0 m0 T (Lf c) r = Some (T', Lf' c, r')) /\ fam (length r') Lf' /\ smean (length r') Lf' Lf /\ length r' = S (length r).
Proof.
  intros HF H0. pose proof H0 as H1. unfold l_compress in H0. destruct (lfind k0 m0 (length (Lf c0)) 0 (Lf c0)) as [level|] eqn:EF; [|discriminate].
  set (top := level =? length (Lf c0) - 1) in *. set (A := fun c => if top then Lf c ++ [[]] else Lf c).
  assert (HLen : forall c, length (Lf c) = length (Lf c0)) by (intros c; apply lens_length, (f_shape _ _ HF)).
  assert (FA : fam (length r) A).
  { constructor; intros c c'; unfold A; [intros Ag; rewrite (f_dep _ _ HF c c' Ag); auto|]. destruct top; [|apply HF]. rewrite !lens_app, (f_shape _ _ HF c c'). auto. }
  assert (HL : S level < length (A c0)).
  { fold (A c0) in H0. destruct (skipn level (A c0)) as [|L [|La up]] eqn:ES; try discriminate. apply (f_equal (@length _)) in ES. rewrite skipn_length in ES. cbn [length] in ES. lia. }
  assert (HL' : forall c, S level < length (A c)) by (intros c; rewrite (lens_length (A c) (A c0)); [auto|apply FA]).
  assert (EQ : forall c, l_compress less sort c k0 m0 T (Lf c) r = Some (if top then T + dcap k0 m0 (length (Lf c0)) else T, halve level (level =? 0) (length r) A c, level :: r)).
  { intros c. unfold l_compress. rewrite (lfind_shape _ _ _ (Lf c) (Lf c0)) by apply HF. rewrite HLen, EF. fold top. cbn zeta. fold (A c).
    pose proof (split2 (A c) level (HL' c)) as E2. assert (ES : skipn level (A c) = nth level (A c) [] :: nth (S level) (A c) [] :: skipn (S (S level)) (A c)).
    { rewrite E2 at 1. rewrite skipn_app, skipn_all2 by (rewrite firstn_length; lia). rewrite firstn_length, Nat.min_l by (specialize (HL' c); lia). rewrite Nat.sub_diag. reflexivity. }
    rewrite ES. unfold halve. reflexivity. }
  exists (halve level (level =? 0) (length r) A). rewrite EQ in H1. injection H1 as <- _ <-. cbn [length].
  split; [auto|]. split; [apply halve_fam; auto|]. split; [|auto].
  intros p F HFl. rewrite (halve_mean level (level =? 0) (length r) A FA HL' p F HFl). unfold mean, A. destruct top; auto. apply sumv_ext. intros v _. apply R_top.
Qed.

(** One update by an item that may depend on the earlier coins. *)
Definition add1 (p : C -> bool) (x : C) : Z := if p x then 1%Z else 0%Z.
Lemma update_fam k0 m0 T r Lf xf c0 T' L0 r' : fam (length r) Lf -> dep (length r) xf -> l_update less sort c0 k0 m0 T (Lf c0) r (xf c0) = Some (T', L0, r') ->
  exists Lf', (forall c, l_update less sort c k0 m0 T (Lf c) r (xf c) = Some (T', Lf' c, r')) /\ fam (length r') Lf' /\ length r <= length r' /\
    forall p F, length r' <= F -> mean F p Lf' = (mean F p Lf + sumv F (fun v => add1 p (xf (coinv v))))%Z.
Proof.
  intros HF Dx H0. unfold l_update in H0.
  assert (HC : forall c, csum (Lf c) = csum (Lf c0)) by (intros c; rewrite !lens_csum, (f_shape _ _ HF c c0); auto).
  assert (HX : exists T1 r1 L1, (forall c, (if csum (Lf c) =? T then l_compress less sort c k0 m0 T (Lf c) r else Some (T, Lf c, r)) = Some (T1, L1 c, r1)) /\ fam (length r1) L1 /\ length r <= length r1 /\
    smean (length r1) L1 Lf).
  { destruct (csum (Lf c0) =? T) eqn:EC.
    - destruct (l_compress less sort c0 k0 m0 T (Lf c0) r) as [[[T1 L1] r1]|] eqn:E1; [|discriminate].
      destruct (compress_fam _ _ _ _ _ _ _ _ _ HF E1) as (Lf1 & A1 & A2 & A3 & A4). exists T1, r1, Lf1. split; [intros c; rewrite HC, EC; auto|]. split; auto. split; [lia|auto].
    - exists T, r, Lf. split; [intros c; rewrite HC, EC; auto|]. split; auto. split; auto. intros p F _. auto. }
  destruct HX as (T1 & r1 & L1 & A1 & A2 & A3 & A4). rewrite A1 in H0. cbn [bindo] in H0.
  destruct (L1 c0) as [|l0 t0] eqn:E0; [discriminate|]. injection H0 as <- _ <-.
  assert (HN : forall c, L1 c = hd [] (L1 c) :: tl (L1 c)). { intros c. pose proof (lens_length _ _ (f_shape _ _ A2 c c0)) as E. rewrite E0 in E. destruct (L1 c); [discriminate|reflexivity]. }
  exists (fun c => (xf c :: hd [] (L1 c)) :: tl (L1 c)). split; [|split; [|split]]; auto.
  - intros c. unfold l_update. rewrite A1. cbn [bindo]. rewrite (HN c) at 1. reflexivity.
  - constructor.
    + intros c c' Ag. rewrite (f_dep _ _ A2 c c' Ag), (Dx c c'); auto. eapply agree_le; eauto.
    + intros c c'. pose proof (f_shape _ _ A2 c c') as E. rewrite (HN c), (HN c') in E. unfold lens in *. cbn [map length] in *. injection E as E1 E2. rewrite E1, E2. auto.
  - intros p F HFl. rewrite <- (A4 p F HFl). unfold mean. rewrite <- sumv_add. apply sumv_ext. intros v _. rewrite (HN (coinv v)) at 3. cbn [R]. rewrite cnt_cons'. unfold add1. lia.
Qed.

Lemma update_all_fam k0 m0 : forall q T r Lf xs c0 T' L0 r', fam (length r) Lf -> dep (length r) xs -> (forall c, length (xs c) = q) ->
  l_update_all less sort c0 k0 m0 T (Lf c0) r (xs c0) = Some (T', L0, r') ->
  exists Lf', (forall c, l_update_all less sort c k0 m0 T (Lf c) r (xs c) = Some (T', Lf' c, r')) /\ fam (length r') Lf' /\ length r <= length r' /\
    forall p F, length r' <= F -> mean F p Lf' = (mean F p Lf + sumv F (fun v => cnt p (xs (coinv v))))%Z.
Proof.
  induction q as [|q IH]; intros T r Lf xs c0 T' L0 r' HF Dx HL H0.
  - assert (E : forall c, xs c = []) by (intros c; apply length_zero_iff_nil; auto). rewrite E in H0. cbn [l_update_all] in H0. injection H0 as <- _ <-.
    exists Lf. split; [intros c; rewrite E; reflexivity|]. split; auto. split; auto. intros p F _. rewrite (sumv_ext F _ (fun _ => 0%Z)), sumv_const by (intros v _; rewrite E; reflexivity). lia.
  - assert (EX : forall c, xs c = hd zero (xs c) :: tl (xs c)) by (intros c; specialize (HL c); destruct (xs c); [discriminate|reflexivity]).
    rewrite EX in H0. cbn [l_update_all] in H0. destruct (l_update less sort c0 k0 m0 T (Lf c0) r (hd zero (xs c0))) as [[[T1 L1] r1]|] eqn:E1; [|discriminate]. cbn [bindo] in H0.
    destruct (update_fam _ _ _ _ _ (fun c => hd zero (xs c)) _ _ _ _ HF ltac:(intros c c' Ag; rewrite (Dx c c' Ag); auto) E1) as (Lf1 & A1 & A2 & A3 & A4).
    rewrite A1 in E1. injection E1 as <-.
    destruct (IH T1 r1 Lf1 (fun c => tl (xs c)) c0 T' L0 r' A2) as (Lf2 & B1 & B2 & B3 & B4); auto.
    { intros c c' Ag. rewrite (Dx c c'); auto. eapply agree_le; eauto. }
    { intros c. specialize (HL c). rewrite (EX c) in HL. cbn [length] in HL. lia. }
    exists Lf2. split; [|split; [auto|split; [lia|]]].
    + intros c. rewrite (EX c). cbn [l_update_all]. rewrite A1. cbn [bindo]. apply B1.
    + intros p F HFl. rewrite B4, A4 by lia. rewrite <- Z.add_assoc, <- sumv_add. f_equal. apply sumv_ext. intros v _. rewrite (EX (coinv v)) at 3. rewrite cnt_cons'. reflexivity.
Qed.

Lemma lgen_fam k0 m0 sorted c0 : forall fuel nl cur target lvl rest r out nl' target' cur' r', fam (length r) rest -> lvl + length (rest c0) = nl ->
  lgen less sort c0 fuel k0 m0 nl cur target lvl (rest c0) sorted r = Some (out, nl', target', cur', r') ->
  exists outf, (forall c, lgen less sort c fuel k0 m0 nl cur target lvl (rest c) sorted r = Some (outf c, nl', target', cur', r')) /\ fam (length r') outf /\ length r <= length r' /\
    smean (length r') outf rest.
Proof.
  induction fuel as [|fuel IH]; intros nl cur target lvl rest r out nl' target' cur' r' HF HNl H0; [discriminate|]. cbn [lgen] in H0.
  destruct (rest c0) as [|L0 t0] eqn:E0; [discriminate|].
  assert (HN : forall c, rest c = hd [] (rest c) :: tl (rest c)). { intros c. pose proof (lens_length _ _ (f_shape _ _ HF c c0)) as E. rewrite E0 in E. destruct (rest c); [discriminate|reflexivity]. }
  assert (HH : forall c c', length (hd [] (rest c)) = length (hd [] (rest c')) /\ lens (tl (rest c)) = lens (tl (rest c'))).
  { intros c c'. pose proof (f_shape _ _ HF c c') as E. rewrite (HN c), (HN c') in E. unfold lens in *. cbn [map] in E. injection E as E1 E2. auto. }
  assert (FT : fam (length r) (fun c => tl (rest c))). { constructor; [intros c c' Ag; rewrite (f_dep _ _ HF c c' Ag); auto|intros c c'; apply HH]. }
  assert (DH : dep (length r) (fun c => hd [] (rest c))) by (intros c c' Ag; rewrite (f_dep _ _ HF c c' Ag); auto).
  assert (EL : forall c, length (hd [] (rest c)) = length L0) by (intros c; rewrite (proj1 (HH c c0)), E0; auto).
  assert (ES : forall c, lgen less sort c (S fuel) k0 m0 nl cur target lvl (rest c) sorted r =
    (let L := hd [] (rest c) in let rest' := tl (rest c) in
      if (cur <? target) || (length L0 <? dcap k0 m0 (nl - lvl - 1)) then
        if lvl =? nl - 1 then Some ([L], nl, target, cur, r)
        else
          do (out, nl', target', cur', r') <- lgen less sort c fuel k0 m0 nl cur target (lvl + 1) rest' sorted r;
          Some (L :: out, nl', target', cur', r')
      else
        let H := halves (c (length r)) ((lvl =? 0) && negb sorted) (even_part L) (hd [] rest') in
        let top := lvl =? nl - 1 in
        do (out, nl', target', cur', r') <-
          lgen less sort c fuel k0 m0 (if top then nl + 1 else nl) (cur - length L0 / 2) (if top then target + dcap k0 m0 nl else target)
            (lvl + 1) (H :: tl rest') sorted (lvl :: r);
        Some (odd_lo L :: out, nl', target', cur', r'))).
  { intros c. rewrite (HN c) at 1. cbn [lgen]. rewrite EL. reflexivity. }
  assert (HT0 : t0 = tl (rest c0)) by (rewrite E0; auto). assert (HL0 : L0 = hd [] (rest c0)) by (rewrite E0; auto).
  destruct ((cur <? target) || (length L0 <? dcap k0 m0 (nl - lvl - 1))) eqn:EC.
  - destruct (Nat.eqb_spec lvl (nl - 1)) as [ET|ET].
    + injection H0 as _ <- <- <- <-. exists rest. assert (HT : forall c, tl (rest c) = []).
      { intros c. apply length_zero_iff_nil. rewrite (lens_length _ _ (proj2 (HH c c0))). rewrite E0. cbn [length tl] in *. lia. }
      split; [|split; [auto|split; [auto|intros p F _; auto]]].
      intros c. rewrite ES. cbn zeta. rewrite (HN c) at 2. rewrite HT. reflexivity.
    + destruct (lgen less sort c0 fuel k0 m0 nl cur target (lvl + 1) t0 sorted r) as [[[[[o1 n1] t1] u1] r1]|] eqn:E1; [|discriminate]. cbn [bindo] in H0. injection H0 as <- <- <- <- <-.
      rewrite HT0 in E1. destruct (IH nl cur target (lvl + 1) (fun c => tl (rest c)) r o1 n1 t1 u1 r1 FT) as (outf & A1 & A2 & A3 & A4); auto.
      { rewrite <- HT0. cbn [length] in HNl. lia. }
      exists (fun c => hd [] (rest c) :: outf c). split; [|split; [|split]]; auto.
      * intros c. rewrite ES. cbn zeta. rewrite A1. reflexivity.
      * apply cons_fam; auto; [eapply dep_le; eauto|]. intros c c'. apply HH.
      * intros p F HFl. transitivity (mean F p (fun c => hd [] (rest c) :: tl (rest c))); [rewrite !cons_mean, (A4 p F HFl); reflexivity|]. unfold mean. apply sumv_ext. intros v _. rewrite <- (HN (coinv v)). auto.
  - set (top := lvl =? nl - 1) in *. set (d := (lvl =? 0) && negb sorted) in *. set (A := fun c => if top then rest c ++ [[]] else rest c).
    assert (FA : fam (length r) A).
    { constructor; intros c c'; unfold A; [intros Ag; rewrite (f_dep _ _ HF c c' Ag); auto|]. destruct top; [|apply HF]. rewrite !lens_app, (f_shape _ _ HF c c'). auto. }
    assert (HTop : forall c, if top then tl (rest c) = [] else 1 <= length (tl (rest c))).
    { intros c. assert (E : length (tl (rest c)) = nl - lvl - 1) by (rewrite (lens_length _ _ (proj2 (HH c c0))), <- HT0; cbn [length] in HNl; lia).
      unfold top. destruct (Nat.eqb_spec lvl (nl - 1)); [apply length_zero_iff_nil; lia|]. rewrite E. cbn [length] in HNl. lia. }
    assert (HA : forall c, nth 0 (A c) [] = hd [] (rest c) /\ nth 1 (A c) [] = hd [] (tl (rest c)) /\ skipn 2 (A c) = tl (tl (rest c)) /\ 1 < length (A c)).
    { intros c. specialize (HTop c). unfold A. rewrite (HN c). cbn [hd tl]. destruct top.
      - rewrite HTop. cbn [app nth hd tl skipn length]. auto.
      - destruct (tl (rest c)) as [|b u]; cbn [length] in HTop; [lia|]. cbn [nth hd tl skipn length]. split; auto. split; auto. split; auto. lia. }
    set (B := fun c => halves (c (length r)) d (even_part (hd [] (rest c))) (hd [] (tl (rest c))) :: tl (tl (rest c))).
    assert (HB : forall c, halve 0 d (length r) A c = odd_lo (hd [] (rest c)) :: B c).
    { intros c. unfold halve, B. cbn [firstn app]. destruct (HA c) as (-> & -> & -> & _). reflexivity. }
    assert (FB : fam (length (lvl :: r)) B).
    { pose proof (halve_fam 0 d _ _ FA) as [D1 S1]. cbn [length]. constructor.
      - intros c c' Ag. specialize (D1 c c' Ag). rewrite !HB in D1. exact (f_equal (@tl _) D1).
      - intros c c'. specialize (S1 c c'). rewrite !HB in S1. exact (f_equal (@tl _) S1). }
    rewrite HL0, HT0 in H0. rewrite (EL c0) in H0.
    match type of H0 with bindo ?X _ = _ => destruct X as [[[[[o1 n1] t1] u1] r1]|] eqn:E1; [|discriminate] end. cbn [bindo] in H0. injection H0 as _ <- <- <- <-.
    change (lgen less sort c0 fuel k0 m0 (if top then nl + 1 else nl) (cur - length L0 / 2) (if top then target + dcap k0 m0 nl else target) (lvl + 1) (B c0) sorted (lvl :: r) = Some (o1, n1, t1, u1, r1)) in E1.
    assert (HB0 : lvl + 1 + length (B c0) = (if top then nl + 1 else nl)).
    { unfold B. cbn [length]. specialize (HTop c0). rewrite <- HT0 in *. cbn [length] in HNl. unfold top in *. destruct (Nat.eqb_spec lvl (nl - 1)); [rewrite HTop; cbn [tl length]; lia|].
      destruct t0; cbn [length tl] in *; lia. }
    destruct (IH _ _ _ _ B _ _ _ _ _ _ FB HB0 E1) as (outf & A1 & A2 & A3 & A4).
    cbn [length] in A3. exists (fun c => odd_lo (hd [] (rest c)) :: outf c). split; [|split; [|split]]; [| |lia|].
    + intros c. rewrite ES. cbn zeta. fold (B c). rewrite A1. reflexivity.
    + apply cons_fam; auto; [|intros c c'; rewrite !odd_lo_length, (proj1 (HH c c')); auto]. intros c c' Ag. rewrite (f_dep _ _ HF c c'); auto. apply (agree_le (length r1) (length r)); auto; lia.
    + intros p F HFl. transitivity (mean F p (fun c => odd_lo (hd [] (rest c)) :: B c)); [rewrite !(cons_mean F p (fun c => odd_lo (hd [] (rest c)))), (A4 p F HFl); reflexivity|].
      assert (EM : mean F p (fun c => odd_lo (hd [] (rest c)) :: B c) = mean F p (halve 0 d (length r) A)) by (unfold mean; apply sumv_ext; intros v _; rewrite HB; auto).
      rewrite EM, (halve_mean 0 d (length r) A FA) by (try lia; intros c; apply HA). unfold mean, A. destruct top; auto. apply sumv_ext. intros v _. apply R_top.
Qed.

(** A merge with a sketch that used earlier coins. *)
Lemma zipm_lens A : forall A' B B', lens A = lens A' -> lens B = lens B' -> lens (zipm less A B) = lens (zipm less A' B').
Proof.
  induction A as [|a A IH]; intros [|a' A'] [|b B] [|b' B'] HA HB; try discriminate; cbn [zipm]; auto. unfold lens in *. cbn [map] in *. injection HA as HA1 HA2. injection HB as HB1 HB2.
  rewrite <- !(Permutation_length (mergel_perm less _ _)), !app_length, HA1, HB1. f_equal. apply IH; auto.
Qed.
Lemma merge_fam k0 m0 T r Lf Of total c0 T' L0 r' : fam (length r) Lf -> fam (length r) Of -> (forall c, Of c <> []) ->
  l_merge less sort c0 k0 m0 T (Lf c0) (Of c0) total r = Some (T', L0, r') ->
  exists Lf', (forall c, l_merge less sort c k0 m0 T (Lf c) (Of c) total r = Some (T', Lf' c, r')) /\ fam (length r') Lf' /\ length r <= length r' /\
    forall p F, length r' <= F -> mean F p Lf' = (mean F p Lf + mean F p Of)%Z.
Proof.
  intros HF HO HOn H0. unfold l_merge in H0.
  assert (HNo : forall c, Of c = hd [] (Of c) :: tl (Of c)) by (intros c; specialize (HOn c); destruct (Of c); [congruence|reflexivity]).
  assert (HHo : forall c c', length (hd [] (Of c)) = length (hd [] (Of c')) /\ lens (tl (Of c)) = lens (tl (Of c'))).
  { intros c c'. pose proof (f_shape _ _ HO c c') as E. rewrite (HNo c), (HNo c') in E. unfold lens in *. cbn [map] in E. injection E as E1 E2. auto. }
  destruct (l_update_all less sort c0 k0 m0 T (Lf c0) r (hd [] (Of c0))) as [[[T1 L1] r1]|] eqn:E1; [|discriminate]. cbn [bindo] in H0.
  destruct (update_all_fam k0 m0 (length (hd [] (Of c0))) T r Lf (fun c => hd [] (Of c)) c0 T1 L1 r1 HF) as (Lf1 & A1 & A2 & A3 & A4); auto.
  { intros c c' Ag. rewrite (f_dep _ _ HO c c' Ag); auto. } { intros c. apply HHo. }
  rewrite A1 in E1. injection E1 as <-.
  assert (EO : forall c, length (Of c) = length (Of c0)) by (intros c; apply lens_length, HO).
  destruct (1 <? length (Of c0)) eqn:EL.
  - set (Z := fun c => hd [] (Lf1 c) :: zipm less (tl (Lf1 c)) (tl (Of c))).
    assert (HS1 : forall c c', length (hd [] (Lf1 c)) = length (hd [] (Lf1 c')) /\ lens (tl (Lf1 c)) = lens (tl (Lf1 c'))).
    { intros c c'. pose proof (f_shape _ _ A2 c c') as E. destruct (Lf1 c), (Lf1 c'); try discriminate; auto. unfold lens in *. cbn [map] in E. injection E as E1 E2. auto. }
    assert (FZ : fam (length r1) Z).
    { constructor.
      - intros c c' Ag. unfold Z. rewrite (f_dep _ _ A2 c c' Ag), (f_dep _ _ HO c c'); auto. eapply agree_le; eauto.
      - intros c c'. unfold Z, lens. cbn [map]. rewrite (proj1 (HS1 c c')). f_equal. apply zipm_lens; [apply HS1|apply HHo]. }
    fold (Z c0) in H0.
    match type of H0 with bindo ?X _ = _ => destruct X as [[[[[o1 n1] t1] u1] r2]|] eqn:E2; [|discriminate] end. cbn [bindo] in H0. injection H0 as <- _ <-.
    destruct (lgen_fam _ _ _ _ _ (length (Z c0)) _ _ 0 Z _ _ _ _ _ _ FZ eq_refl E2) as (outf & B1 & B2 & B3 & B4).
    assert (EZ : forall c, length (Z c) = length (Z c0) /\ csum (Z c) = csum (Z c0)). { intros c. pose proof (f_shape _ _ FZ c c0) as E. split; [apply lens_length; auto|rewrite !lens_csum, E; auto]. }
    exists outf. split; [|split; [auto|split; [lia|]]].
    + intros c. unfold l_merge. rewrite A1. cbn [bindo]. rewrite EO, EL. fold (Z c). destruct (EZ c) as (-> & ->). rewrite B1. reflexivity.
    + intros p F HFl. rewrite (B4 p F HFl).
      assert (EM : mean F p Z = (mean F p Lf1 + sumv F (fun v => 2 * R p (tl (Of (coinv v)))))%Z).
      { unfold mean. rewrite <- sumv_add. apply sumv_ext. intros v _. unfold Z. cbn [R]. rewrite (R_zipm less zero sort sort_perm sort_sorted). destruct (Lf1 (coinv v)); cbn [hd tl R]; rewrite ?cnt_nil; lia. }
      rewrite EM, A4 by lia. rewrite <- Z.add_assoc, <- sumv_add. f_equal. unfold mean. apply sumv_ext. intros v _. rewrite (HNo (coinv v)) at 3. reflexivity.
  - injection H0 as <- _ <-. exists Lf1. split; [|split; [auto|split; [auto|]]].
    + intros c. unfold l_merge. rewrite A1. cbn [bindo]. rewrite EO, EL. reflexivity.
    + intros p F HFl. rewrite A4 by auto. f_equal. unfold mean. apply sumv_ext. intros v _. rewrite (HNo (coinv v)) at 2. cbn [R].
      assert (ET : tl (Of (coinv v)) = []). { apply length_zero_iff_nil. specialize (EO (coinv v)). apply Nat.ltb_ge in EL. rewrite (HNo (coinv v)) in EO. cbn [length] in EO. lia. }
      rewrite ET. cbn [R]. lia.
Qed.
End Mean.
