(** * C64 and C77 together: in binary64, the byte images of HLL sketches do not change any answer.

    The journeys of C64 (items put into a sketch, and the sketch written and replaced by what is read back) over float64 accumulators stored by
    their IEEE bit patterns ([float_bits], [float_from]); the queries are those of C77. *)
From Coq Require Import ZArith Reals Bool Psatz.
From Flocq Require Import Core BinarySingleNaN.
From Verif Require Import Base Bytes Arr BitPackModel FloatModel FloatProofs FloatBits HllModel HllPack HllArrProofs HllMode HllUnion HllProps HllSerdeModel HllSerdeProofs HllSerdeProps HllEstTables HllEstModel HllEstProofs HllEstCoupon HllEstHip HllEstComp HllEstProps.
Local Open Scope R_scope.

Definition journeyF := journey (F := f64) f_zero hip_f coupon_est float_bits float_from.
(** Two sketches that give the same answers: estimate, composite estimate and bounds, bit for bit (a call that panics or fails is [None]). *)
Definition same_answers (flog : f64 -> f64) (s s' : hstate f64) : Prop :=
  st_lgK s' = st_lgK s /\ q_estimate flog s' = q_estimate flog s /\ q_composite flog s' = q_composite flog s /\
  forall sd, q_lower flog s' sd = q_lower flog s sd /\ q_upper flog s' sd = q_upper flog s sd.

(** ** Proofs *)
Lemma hinv_view lgK t xs s : (4 <= lgK <= 21)%N -> hinv f_zero hip_f coupon_est lgK t s (rev (map code xs)) ->
  (in_array lgK xs /\ exists h, s = HArr t h /\ a_lgK h = lgK /\ a_ooo h = false /\ a_hip h = hipF lgK (rev (map code xs)) /\ unhit_of h = empty_slots lgK xs /\ kx h (regs lgK (rev (map code xs)))) \/
  (~ in_array lgK xs /\ ((exists arr, s = HList lgK t arr (distinct xs)) \/ exists lg arr, s = HSet lgK t lg arr (distinct xs))).
Proof.
  intros HK Hi. unfold hinv in Hi. rewrite dist_rev, distinct_dist in Hi.
  destruct (over lgK (dist (map code xs))) eqn:Eo.
  - left. split; [apply over_array; auto|]. destruct Hi as (Hv & h & -> & EK & Hai & Hk & Hh & E1 & E2 & E3). exists h. repeat split; auto; try apply Hk.
    change (unhit h = empty_slots lgK xs). rewrite (hits_all _ _ _ _ Hai Hh). unfold KK. rewrite EK. apply count_empty. intros i. rewrite (regs_same lgK _ _ i (same_rev xs)). apply regs_reg. lia.
  - right. split; [intros H; apply over_array in H; congruence|].
    pose proof Hi as Hi'. pose proof (cst_sketch coupon_est (fun _ _ _ => f_zero) lgK t s _ xs Hi (same_rev xs)) as (El & Et & S).
    destruct s as [lg' t' arr cnt|lg' t' la arr cnt|]; cbn [st_lgK st_tgt] in *.
    + left. exists arr. destruct S as (_ & Hn & Hl & Hin). replace cnt with (distinct xs); [congruence|]. rewrite distinct_dist. rewrite <- Hl. symmetry. apply dist_same; auto. intros c. rewrite Hin. symmetry. apply in_map_code.
    + right. exists la, arr. destruct S as (_ & Hn & Hl & Hin). replace cnt with (distinct xs); [congruence|]. rewrite distinct_dist. rewrite <- Hl. symmetry. apply dist_same; auto. intros c. rewrite Hin. symmetry. apply in_map_code.
    + destruct Hi' as (_ & _ & _ & []).
Qed.
Lemma sub_zero k : (0 < Z.of_nat k <= 2 ^ 52)%Z -> fsub (f_of_Z (Z.of_nat k)) (f_of_Z (Z.of_nat 0)) = f_of_Z (Z.of_nat k).
Proof.
  intros H. destruct (sub_exact (Z.of_nat k) (Z.of_nat 0)) as (F1 & V1); [lia|lia|]. destruct (of_Z_exact (Z.of_nat k)) as (F2 & V2); [lia|]. replace (Z.of_nat k - Z.of_nat 0)%Z with (Z.of_nat k) in V1 by lia.
  assert (P : 0 < IZR (Z.of_nat k)) by (apply IZR_lt; lia).
  assert (S : forall x : f64, is_finite x = true -> B2R x = IZR (Z.of_nat k) -> is_finite_strict x = true) by (intros x F V; destruct x; try discriminate; auto; cbn [B2R] in V; lra).
  apply B2R_inj; auto. congruence.
Qed.
Lemma non_zeros_same lgK h h' n : (4 <= lgK <= 21)%N -> a_lgK h = lgK -> a_lgK h' = lgK -> unhit_of h = n -> unhit_of h' = n -> non_zeros h' = non_zeros h.
Proof.
  intros HK E E' U U'. pose proof (nslots_inv lgK HK) as BK. unfold non_zeros, unhit_of in *. rewrite E, E'.
  assert (Z : forall m, m = 0%nat -> fsub (f_of_Z (Z.of_nat (nslots lgK))) (f_of_Z (Z.of_nat m)) = f_of_Z (Z.of_nat (nslots lgK))) by (intros m ->; apply sub_zero; lia).
  destruct (a_curMin h =? 0)%N, (a_curMin h' =? 0)%N; auto; [congruence|symmetry|]; apply Z; congruence.
Qed.
Lemma twins_answer flog lgK t xs s s' : (4 <= lgK <= 21)%N -> hinv f_zero hip_f coupon_est lgK t s (rev (map code xs)) -> hinv f_zero hip_f coupon_est lgK t s' (rev (map code xs)) -> same_answers flog s s'.
Proof.
  intros HK H H'. destruct (hinv_view lgK t xs s HK H) as [(A & h & -> & K1 & O1 & P1 & U1 & X1 & Y1)|(A & C)], (hinv_view lgK t xs s' HK H') as [(A' & h' & -> & K2 & O2 & P2 & U2 & X2 & Y2)|(A' & C')]; try contradiction.
  - unfold same_answers. assert (N : non_zeros h' = non_zeros h) by (eapply non_zeros_same; eauto). assert (Q : kxq_sum h' = kxq_sum h) by (unfold kxq_sum, KK in *; rewrite X1, X2, Y1, Y2, K1, K2; auto).
    cbn [st_lgK q_estimate q_composite q_lower q_upper]. rewrite N, Q, O1, O2, P1, P2, U1, U2, K1, K2. auto.
  - destruct C as [(arr & ->)|(lg & arr & ->)], C' as [(arr' & ->)|(lg' & arr' & ->)]; repeat split.
Qed.

(** ** Theorems *)
(** A sketch sent through its byte image at any points of its life answers every query exactly like one that was never sent. *)
Theorem hll_shipped_answers flog lgK t ops : (4 <= lgK <= 21)%N ->
  match feedF lgK t (items ops) with
  | Some s => exists s', journeyF lgK t ops = Ok s' /\ same_answers flog s s'
  | None => journeyF lgK t ops = Err
  end.
Proof.
  intros HK. pose proof (journey_hinv f_zero hip_f coupon_est (fun _ _ _ => f_zero) float_bits float_from float_bits_lt float_bits_back lgK t ops HK) as W. fold (feedF lgK t (items ops)) in W. fold (journeyF lgK t ops) in W.
  destruct (feedF lgK t (items ops)) as [s|]; auto. destruct W as (s' & E & H & H' & _). exists s'. split; auto. eapply twins_answer; eauto.
Qed.
(** So its bounds enclose the estimate as those of C77 do. *)
Theorem hll_shipped_bounds flog lgK t ops s' n sd : log_ok flog -> (4 <= lgK <= 21)%N -> journeyF lgK t ops = Ok s' -> seen lgK (items ops) n -> (1 <= sd <= 3)%Z ->
  exists e lo up, q_estimate flog s' = Some e /\ q_lower flog s' sd = Some lo /\ q_upper flog s' sd = Some up /\
    finite e /\ finite lo /\ finite up /\ le64 (int64f n) lo /\ le64 lo e /\ le64 e up.
Proof.
  intros HL HK E Hn Hs. pose proof (hll_shipped_answers flog lgK t ops HK) as W. destruct (feedF lgK t (items ops)) as [s|] eqn:Ef; [|congruence]. destruct W as (s2 & E2 & _ & Q1 & _ & Q2). assert (s2 = s') by congruence. subst s2.
  destruct (Q2 sd) as (Q3 & Q4). rewrite Q1, Q3, Q4. eapply hll_bounds_enclose; eauto.
Qed.

(** ** A concrete case: ten items in array mode, sent twice on the way *)
Definition trip : list hop := map Put (firstn 4 ten) ++ [Ship true false] ++ map Put (skipn 4 ten) ++ [Ship false true].
Example ex_trip : items trip = ten /\ forall t flog, log_ok flog -> exists s', journeyF 4 t trip = Ok s' /\ exists e lo up, q_estimate flog s' = Some e /\ q_lower flog s' 2 = Some lo /\ q_upper flog s' 2 = Some up /\
  finite e /\ finite lo /\ finite up /\ le64 (int64f 10) lo /\ le64 lo e /\ le64 e up.
Proof.
  assert (I : items trip = ten) by (vm_compute; reflexivity). split; auto. intros t flog HL. destruct ex_array as (_ & Hf & Hs & _). destruct (Hf t) as (s & E). pose proof (hll_shipped_answers flog 4 t trip ltac:(lia)) as W. rewrite I, E in W. destruct W as (s' & Es & _). exists s'. split; auto.
  apply (hll_shipped_bounds flog 4 t trip s' 10 2 HL); auto; lia.
Qed.
Print Assumptions hll_shipped_answers.
Print Assumptions hll_shipped_bounds.
