(** * C34: FindWithInequality. *)
From Verif Require Import Base Bytes SearchModel.
Local Open Scope Z_scope.

Section S.
Context {C : Type}.
Variables less ceq : C -> C -> bool.

(** What a caller must provide: [less] is a strict total order and [ceq] is equality. *)
Record strict_total : Prop := {
  st_eq : forall a b, ceq a b = true <-> a = b;
  st_irrefl : forall a, less a a = false;
  st_trans : forall a b c, less a b = true -> less b c = true -> less a c = true;
  st_total : forall a b, less a b = true \/ a = b \/ less b a = true }.

(** The criterion, as the mathematical relation between an array element and the value searched. *)
Definition holds (crit : inequality) (x v : C) : Prop :=
  match crit with
  | LT => less x v = true
  | LE => less x v = true \/ x = v
  | GE => less v x = true \/ x = v
  | GT => less v x = true
  end.
(** For < and <= the last element that satisfies the criterion is wanted, for > and >= the first. *)
Definition wants_last (crit : inequality) : bool := match crit with LT | LE => true | GE | GT => false end.

Definition sorted_on (arr : list C) (lo hi : Z) : Prop :=
  forall i j x y, lo <= i -> i <= j -> j <= hi -> at_ arr i = Some x -> at_ arr j = Some y -> less y x = false.

Definition is_answer (arr : list C) (lo hi : Z) (v : C) (crit : inequality) (r : Z) : Prop :=
  (r = -1 /\ forall i x, lo <= i <= hi -> at_ arr i = Some x -> ~ holds crit x v) \/
  (lo <= r <= hi /\ (exists x, at_ arr r = Some x /\ holds crit x v) /\
   forall i x, lo <= i <= hi -> at_ arr i = Some x -> holds crit x v -> if wants_last crit then i <= r else r <= i).

Hypothesis T : strict_total.

Lemma asym a b : less a b = true -> less b a = false.
Proof. intros H. destruct (less b a) eqn:E; auto. pose proof (st_trans T _ _ _ H E). rewrite (st_irrefl T) in H0. discriminate. Qed.
Lemma le_lt a b c : less b a = false -> less b c = true -> less a c = true.
Proof.
  intros H H1. destruct (st_total T a b) as [H2|[->|H2]]; [eapply st_trans; eauto| |congruence]. auto.
Qed.
Lemma lt_le a b c : less a b = true -> less c b = false -> less a c = true.
Proof. intros H H1. destruct (st_total T b c) as [H2|[->|H2]]; [eapply st_trans; eauto| |congruence]. auto. Qed.

Lemma holds_dec crit x v : holds crit x v <->
  match crit with
  | LT => negb (less v x) && negb (ceq v x)
  | LE => negb (less v x)
  | GE => less v x || ceq v x
  | GT => less v x
  end = true.
Proof.
  destruct crit; cbn [holds].
  - rewrite andb_true_iff, !negb_true_iff. split.
    + intros H. split; [apply asym; auto|]. destruct (ceq v x) eqn:E; auto. apply (st_eq T) in E. subst. rewrite (st_irrefl T) in H. discriminate.
    + intros [H1 H2]. destruct (st_total T x v) as [H|[->|H]]; auto; [|congruence]. rewrite (proj2 (st_eq T v v) eq_refl) in H2. discriminate.
  - rewrite negb_true_iff. split.
    + intros [H| ->]; [apply asym; auto|apply (st_irrefl T)].
    + intros H. destruct (st_total T x v) as [H1|[->|H1]]; auto. congruence.
  - rewrite orb_true_iff, (st_eq T). split; (intros [H|H]; [left; auto|right; auto]).
  - reflexivity.
Qed.

(** The criterion is monotone along a sorted array. *)
Lemma holds_mono crit x y v : less y x = false -> if wants_last crit then holds crit y v -> holds crit x v else holds crit x v -> holds crit y v.
Proof.
  intros H. destruct crit; cbn [wants_last holds].
  - intros H1. eapply le_lt; eauto.
  - intros [H1| ->]; [left; eapply le_lt; eauto|]. destruct (st_total T x v) as [H2|[->|H2]]; auto. congruence.
  - intros [H1| ->]; [left; eapply lt_le; eauto|]. destruct (st_total T v y) as [H2|[->|H2]]; auto. congruence.
  - intros H1. eapply lt_le; eauto.
Qed.

Lemma at_bound (arr : list C) i : 0 <= i < Z.of_nat (length arr) -> exists x, at_ arr i = Some x.
Proof.
  intros H. unfold at_. destruct (Z.ltb_spec i 0); [lia|]. destruct (nth_error arr (Z.to_nat i)) eqn:E; eauto.
  apply nth_error_None in E. lia.
Qed.

Lemma resolve_ok arr lo hi v crit : lo <= hi <= lo + 1 -> 0 <= lo -> hi < Z.of_nat (length arr) -> sorted_on arr lo hi ->
  exists r, resolve less ceq arr lo hi v crit = Some r /\ is_answer arr lo hi v crit r.
Proof.
  intros H1 H2 H3 HS. destruct (at_bound arr lo ltac:(lia)) as [a Ha]. destruct (at_bound arr hi ltac:(lia)) as [b Hb].
  unfold resolve. rewrite Ha, Hb. cbn [bindo].
  assert (HM := holds_mono crit a b v (HS lo hi a b ltac:(lia) ltac:(lia) ltac:(lia) Ha Hb)).
  pose proof (holds_dec crit a v) as Da. pose proof (holds_dec crit b v) as Db.
  assert (Cov : forall i x, lo <= i <= hi -> at_ arr i = Some x -> (i = lo /\ x = a) \/ (i = hi /\ x = b)).
  { intros i x Hi Hx. assert (i = lo \/ i = hi) as [->| ->] by lia; [left|right]; split; congruence. }
  destruct (Z.eqb_spec lo hi) as [E|E].
  { subst hi. assert (b = a) by congruence. subst b. clear HM Db.
    destruct crit; (match goal with |- exists r, Some (if ?c then _ else _) = Some r /\ _ => destruct c eqn:EC end;
      eexists; (split; [reflexivity|]);
      [ right; split; [lia|]; split; [exists a; split; auto; apply Da; auto|]; intros i x Hi Hx Hh; cbn [wants_last]; lia
      | left; split; auto; intros i x Hi Hx Hh; destruct (Cov i x Hi Hx) as [[-> ->]|[-> ->]]; apply Da in Hh; congruence ]). }
  destruct crit; cbn [wants_last] in HM; cbn beta iota in Da, Db;
    repeat match goal with |- exists r, Some (if ?c then _ else _) = Some r /\ _ => destruct c eqn:?EC end;
    eexists; (split; [reflexivity|]);
    first [ left; split; [reflexivity|]; intros i x Hi Hx Hh; destruct (Cov i x Hi Hx) as [[-> ->]|[-> ->]]; [apply Da in Hh|apply Db in Hh]; congruence
          | right; split; [lia|]; split; [first [exists a; split; [exact Ha|apply Da; first [assumption|reflexivity]]|exists b; split; [exact Hb|apply Db; first [assumption|reflexivity]]]|];
            intros i x Hi Hx Hh; cbn [wants_last]; destruct (Cov i x Hi Hx) as [[-> ->]|[-> ->]]; try lia; apply Da in Hh || apply Db in Hh; congruence ].
Qed.

Lemma sorted_sub arr lo hi lo' hi' : lo <= lo' -> hi' <= hi -> sorted_on arr lo hi -> sorted_on arr lo' hi'.
Proof. intros A B H i j x y H1 H2 H3. apply H; lia. Qed.

Lemma search_ok : forall fuel arr lo hi v crit, (Z.to_nat (hi - lo) < fuel)%nat -> 0 <= lo -> hi < Z.of_nat (length arr) -> sorted_on arr lo hi ->
  exists r, search_loop less ceq fuel arr lo hi v crit = Some r /\ is_answer arr lo hi v crit r.
Proof.
  induction fuel as [|f IH]; intros arr lo hi v crit HF H0 H1 HS; [lia|]. cbn [search_loop].
  destruct (Z.leb_spec lo hi) as [L|L].
  2:{ eexists; split; [reflexivity|]. left. split; auto. intros. lia. }
  destruct (Z.leb_spec (hi - lo) 1) as [L1|L1].
  { apply resolve_ok; auto; lia. }
  rewrite Z.quot_div_nonneg by lia. set (mid := lo + (hi - lo) / 2).
  assert (Hmid : lo < mid /\ mid + 1 <= hi). { unfold mid. pose proof (Z.div_mod (hi - lo) 2 ltac:(lia)). pose proof (Z.mod_pos_bound (hi - lo) 2 ltac:(lia)). lia. }
  clearbody mid.
  destruct (at_bound arr mid ltac:(lia)) as [x Hx]. destruct (at_bound arr (mid + 1) ltac:(lia)) as [y Hy].
  unfold compare. rewrite Hx, Hy. cbn [bindo].
  pose proof (holds_dec crit x v) as Dx. pose proof (holds_dec crit y v) as Dy.
  assert (Up : forall i z, mid <= i <= hi -> at_ arr i = Some z -> less z x = false) by (intros i z Hi Hz; apply (HS mid i x z); auto; lia).
  assert (Up' : forall i z, mid + 1 <= i <= hi -> at_ arr i = Some z -> less z y = false) by (intros i z Hi Hz; apply (HS (mid + 1) i y z); auto; lia).
  assert (Dn : forall i z, lo <= i <= mid -> at_ arr i = Some z -> less x z = false) by (intros i z Hi Hz; apply (HS i mid z x); auto; lia).
  assert (Dn' : forall i z, lo <= i <= mid + 1 -> at_ arr i = Some z -> less y z = false) by (intros i z Hi Hz; apply (HS i (mid + 1) z y); auto; lia).
  (* the three outcomes, in terms of [holds] *)
  assert (R : exists ret, 
     match crit with LT | GE => Some (if less v x || ceq x v then -1 else if less y v then 1 else 0) | LE | GT => Some (if less v x then -1 else if less y v || ceq y v then 1 else 0) end = Some ret /\
     ((ret = -1 /\ if wants_last crit then ~ holds crit x v else holds crit x v) \/
      (ret = 1 /\ if wants_last crit then holds crit y v else ~ holds crit y v) \/
      (ret = 0 /\ if wants_last crit then holds crit x v /\ ~ holds crit y v else ~ holds crit x v /\ holds crit y v))).
  { assert (Ex : ceq x v = ceq v x). { destruct (ceq x v) eqn:A, (ceq v x) eqn:B; auto; [apply (st_eq T) in A; subst; rewrite (proj2 (st_eq T v v) eq_refl) in B|apply (st_eq T) in B; subst; rewrite (proj2 (st_eq T x x) eq_refl) in A]; discriminate. }
    destruct crit; cbn [wants_last holds] in *; rewrite ?Ex; eexists; (split; [reflexivity|]).
    - destruct (less v x || ceq v x) eqn:A; [left|destruct (less y v) eqn:B; right; [left|right]]; split; auto.
      + rewrite Dx. apply orb_true_iff in A. destruct A as [-> | ->]; [cbn; discriminate|]. rewrite andb_false_r. discriminate.
      + apply orb_false_iff in A. destruct A as [A1 A2]. split; [apply Dx; rewrite A1, A2; auto|congruence].
    - destruct (less v x) eqn:A; [left|destruct (less y v || ceq y v) eqn:B; right; [left|right]]; split; auto.
      + rewrite Dx. discriminate.
      + apply orb_true_iff in B. destruct B as [B|B]; [auto|right; apply (st_eq T); auto].
      + split; [apply Dx; auto|]. apply orb_false_iff in B. destruct B as [B1 B2]. intros [B| ->]; [congruence|]. rewrite (proj2 (st_eq T v v) eq_refl) in B2. discriminate.
    - destruct (less v x || ceq v x) eqn:A; [left|destruct (less y v) eqn:B; right; [left|right]]; split; auto.
      + apply Dx; auto.
      + intros H. assert (L2 : less v y = true \/ y = v) by auto. destruct L2 as [L2|L2]; [rewrite (asym _ _ L2) in B; discriminate|subst; rewrite (st_irrefl T) in B; discriminate].
      + split; [rewrite Dx; congruence|]. destruct (st_total T v y) as [H|[H|H]]; auto. congruence.
    - destruct (less v x) eqn:A; [left|destruct (less y v || ceq y v) eqn:B; right; [left|right]]; split; auto.
      + apply orb_true_iff in B. destruct B as [B|B]; [rewrite (asym _ _ B); discriminate|]. apply (st_eq T) in B. subst. rewrite (st_irrefl T). discriminate.
      + split; [congruence|]. apply orb_false_iff in B. destruct B as [B1 B2]. destruct (st_total T v y) as [H|[<-|H]]; auto; [|congruence].
        rewrite (proj2 (st_eq T v v) eq_refl) in B2. discriminate. }
  destruct R as (ret & -> & R). cbn [bindo].
  destruct R as [[-> R]|[[-> R]|[-> R]]].
  - rewrite Z.eqb_refl. destruct (IH arr lo mid v crit) as (r & HR & HA); try lia.
    { eapply sorted_sub; [..|exact HS]; lia. }
    exists r. split; auto. destruct HA as [[-> HA]|(Hr & (z & Hz & Hz') & HA)].
    + left. split; auto. intros i z Hi Hz Hh. destruct (Z.leb_spec i mid); [apply (HA i z); auto; lia|].
      destruct (wants_last crit) eqn:EW.
      * apply R. pose proof (holds_mono crit x z v (Up i z ltac:(lia) Hz)) as HM. rewrite EW in HM. auto.
      * apply (HA mid x); auto. lia.
    + right. split; [lia|]. split; [eauto|]. intros i w Hi Hw Hh. destruct (wants_last crit) eqn:EW.
      * destruct (Z.leb_spec i mid); [apply (HA i w); auto; lia|]. exfalso. apply R.
        pose proof (holds_mono crit x w v (Up i w ltac:(lia) Hw)) as HM. rewrite EW in HM. auto.
      * destruct (Z.leb_spec i mid); [apply (HA i w); auto; lia|]. lia.
  - change (1 =? -1) with false. rewrite Z.eqb_refl. cbn iota. destruct (IH arr (mid + 1) hi v crit) as (r & HR & HA); try lia.
    { eapply sorted_sub; [..|exact HS]; lia. }
    exists r. split; auto. destruct HA as [[-> HA]|(Hr & (z & Hz & Hz') & HA)].
    + left. split; auto. intros i z Hi Hz Hh. destruct (Z.leb_spec (mid + 1) i); [apply (HA i z); auto; lia|].
      destruct (wants_last crit) eqn:EW.
      * apply (HA (mid + 1) y); auto. lia.
      * apply R. pose proof (holds_mono crit z y v (Dn' i z ltac:(lia) Hz)) as HM. rewrite EW in HM. auto.
    + right. split; [lia|]. split; [eauto|]. intros i w Hi Hw Hh. destruct (wants_last crit) eqn:EW.
      * destruct (Z.leb_spec (mid + 1) i); [apply (HA i w); auto; lia|]. lia.
      * destruct (Z.leb_spec (mid + 1) i); [apply (HA i w); auto; lia|]. exfalso. apply R.
        pose proof (holds_mono crit w y v (Dn' i w ltac:(lia) Hw)) as HM. rewrite EW in HM. auto.
  - change (0 =? -1) with false. change (0 =? 1) with false. cbn iota. eexists. split; [reflexivity|]. right.
    destruct (wants_last crit) eqn:EW; destruct R as [R1 R2].
    + assert (E : get_index mid (mid + 1) crit = mid) by (destruct crit; cbn in EW; try discriminate; auto). rewrite E.
      split; [lia|]. split; [eauto|]. intros i w Hi Hw Hh. destruct (Z.leb_spec i mid); auto. exfalso. apply R2.
      pose proof (holds_mono crit y w v (Up' i w ltac:(lia) Hw)) as HM. rewrite EW in HM. auto.
    + assert (E : get_index mid (mid + 1) crit = mid + 1) by (destruct crit; cbn in EW; try discriminate; auto). rewrite E.
      split; [lia|]. split; [eauto|]. intros i w Hi Hw Hh. destruct (Z.leb_spec (mid + 1) i); auto. exfalso. apply R1.
      pose proof (holds_mono crit w x v (Dn i w ltac:(lia) Hw)) as HM. rewrite EW in HM. auto.
Qed.

(** C34. For every array, range, value and criterion: the search terminates without panic and returns the last (resp. first)
    index of the range whose element satisfies the criterion, or -1 if there is none. *)
Theorem find_with_inequality_correct : forall arr lo hi v crit, arr <> [] -> 0 <= lo -> hi < Z.of_nat (length arr) -> sorted_on arr lo hi ->
  exists r, find_with_inequality less ceq arr lo hi v crit = Some r /\ is_answer arr lo hi v crit r.
Proof.
  intros arr lo hi v crit HN H0 H1 HS. unfold find_with_inequality. destruct arr as [|a arr]; [contradiction|]. apply search_ok; auto. lia.
Qed.

(** The specification determines the result. *)
Theorem is_answer_unique : forall arr lo hi v crit r r', 0 <= lo -> is_answer arr lo hi v crit r -> is_answer arr lo hi v crit r' -> r = r'.
Proof.
  intros arr lo hi v crit r r' H0 [[-> A]|(A1 & (x & A2 & A3) & A4)] [[-> B]|(B1 & (y & B2 & B3) & B4)]; auto.
  - exfalso. apply (A r' y); auto.
  - exfalso. apply (B r x); auto.
  - specialize (A4 r' y B1 B2 B3). specialize (B4 r x A1 A2 A3). destruct (wants_last crit); lia.
Qed.
End S.

Lemma Z_total : strict_total Z.ltb Z.eqb.
Proof.
  constructor.
  - intros. apply Z.eqb_eq.
  - intros. apply Z.ltb_irrefl.
  - intros a b c H1 H2. apply Z.ltb_lt in H1, H2. apply Z.ltb_lt. lia.
  - intros a b. rewrite !Z.ltb_lt. lia.
Qed.
Example search_case : map (find_with_inequality Z.ltb Z.eqb [10; 20; 20; 30; 40; 50] 0 5 20) [LT; LE; GE; GT] = map Some [0; 2; 1; 3] /\
  sorted_on Z.ltb [10; 20; 20; 30; 40; 50] 0 5.
Proof.
  split; [reflexivity|]. intros i j x y H1 H2 H3 Hx Hy.
  assert (Hi : i = 0 \/ i = 1 \/ i = 2 \/ i = 3 \/ i = 4 \/ i = 5) by lia. assert (Hj : j = 0 \/ j = 1 \/ j = 2 \/ j = 3 \/ j = 4 \/ j = 5) by lia.
  destruct Hi as [->|[->|[->|[->|[->| ->]]]]], Hj as [->|[->|[->|[->|[->| ->]]]]]; try lia; inversion Hx; inversion Hy; subst; reflexivity.
Qed.
Print Assumptions find_with_inequality_correct.
Print Assumptions is_answer_unique.
