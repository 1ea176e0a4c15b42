(** * C78: the estimate of a CPC union's result is the number of items that explains its coupons.

    Specification vocabulary.  [expected_coupons lgK n] is the expected number of distinct coupons (row, column) of n distinct items
    (Poisson arrivals) in a sketch with 2^lgK rows and 64 columns, a coupon of column c having probability 2^-(c+1) / 2^lgK.
    The estimator of union results (ICON) is meant to be its inverse: [inverts lgK c e] says that e items are expected to
    leave c coupons, to within a sixteenth of c.  [pow_ok] is the assumption on math.Pow of CpcEstProps. *)
From Coq Require Import ZArith Reals Rpower Bool Psatz Permutation.
From Flocq Require Import Core BinarySingleNaN.
From Verif Require Import Base Bytes Arr BitPackModel FloatModel FloatProofs CpcTable CpcTableProofs CpcModel CpcProofs CpcSketch CpcUnion CpcProps HllEstModel HllEstProofs HllEstCoupon HllEstHip HllEstComp CpcEstTables CpcEstModel CpcEstKxp CpcEstHip CpcEstConf CpcEstValue CpcEstProps CpcIconBands CpcIcon CpcIconInv CpcIconVal CpcIconExp.
From Coq Require Import Rdefinitions.
Local Open Scope R_scope.

Definition expected_coupons (lgK : nat) (n : R) : R :=
  2 ^ lgK * fold_right Rplus 0 (map (fun col => 1 - exp (- (n / (2 ^ lgK * 2 ^ (col + 1))))) (seq 0 64)).
Definition inverts (lgK : nat) (c e : R) : Prop := Rabs (expected_coupons lgK e - c) <= c / 16.

Lemma sum_snoc l x : fold_right Rplus 0 (l ++ [x]) = fold_right Rplus 0 l + x.
Proof. induction l as [|a l IH]; cbn [app fold_right]; [ring|]. rewrite IH. ring. Qed.
Lemma cov_sum K n : 0 < K -> forall k, fold_right Rplus 0 (map (fun col => 1 - exp (- (n / (K * 2 ^ (col + 1))))) (seq 0 k)) = cov k (n / K).
Proof.
  intros P. induction k as [|k IH]; [reflexivity|]. rewrite seq_S, map_app. cbn [map app Nat.add]. rewrite sum_snoc, IH. cbn [cov]. replace (k + 1)%nat with (S k) by lia. replace (n / K / 2 ^ S k) with (n / (K * 2 ^ S k)); auto. pose proof (two_pos (S k)). field. lra.
Qed.
Lemma expected_cov lgK n : expected_coupons lgK n = bpow radix2 (Z.of_nat lgK) * cov 64 (n / bpow radix2 (Z.of_nat lgK)).
Proof. unfold expected_coupons. replace (bpow radix2 (Z.of_nat lgK)) with (2 ^ lgK) by (rewrite bpow_powerRZ; cbn [radix_val]; rewrite <- pow_powerRZ; reflexivity). rewrite cov_sum by (apply pow_lt; lra). reflexivity. Qed.

(** The estimator itself: any number of coupons up to 32 per row *)
Theorem cpc_icon_inverts fpow lgK c : pow_ok fpow -> (4 <= lgK <= 26)%nat -> (0 <= c <= 32 * 2 ^ Z.of_nat lgK)%Z -> exists e, icon_estimate fpow lgK c = Some e /\ inverts lgK (IZR c) (real e).
Proof.
  intros HP LG Hc. destruct (icon_inverts fpow lgK c HP LG Hc) as (e & E & B). exists e. split; auto. unfold inverts. rewrite expected_cov. fold (real e) in B. set (K := bpow radix2 (Z.of_nat lgK)) in *. assert (PK : 0 < K) by apply bpow_gt_0. apply Rabs_le_inv in B. set (r := cov 64 (real e / K)) in *. clearbody r.
  assert (Ec : IZR c = K * (IZR c / K)) by (field; lra). set (y := IZR c / K) in *. clearbody y. rewrite Ec. apply Rabs_le. destruct B as [B1 B2]. apply (Rmult_le_compat_l K) in B1, B2; lra.
Qed.
(** The estimate of the result of a union *)
Theorem cpc_union_estimate_inverts fpow lgK seed (l : sources (F := f64 * f64)) : pow_ok fpow -> (4 <= lgK <= 26)%nat -> good_sources seed l -> (2 * length (all_coupons l) <= room (6 + min_lg lgK l))%nat ->
  exists u0 u s e, new_union _ cpc_hip lgK seed = Ok u0 /\ union_all cpc_hip u0 (map fst l) = Ok u /\ get_result _ cpc_hip u = Ok s /\ cpc_estimate fpow s = Some e /\
    inverts (min_lg lgK l) (INR (c_n s)) (real e).
Proof.
  intros HP LG G FS. destruct (cpc_union_result cpc_hip lgK seed l LG G FS) as (u0 & u & s & E1 & E2 & E3 & L & S & M & R). exists u0, u, s.
  assert (LB : (4 <= min_lg lgK l <= 26)%nat). { pose proof (min_lg_le l lgK). split; [|lia]. apply min_lg_ge; [lia|]. eapply Forall_impl; [|exact G]. intros p Hp. apply Hp. }
  assert (NB : (c_n s <= length (all_coupons l))%nat).
  { destruct R as (m & _ & _ & _ & _ & (cs & ND & In' & Nn) & _). rewrite Nn.
    rewrite <- (map_length (fold_rc (min_lg lgK l)) (all_coupons l)). apply (NoDup_incl_length ND).
    intros y Hy. apply In' in Hy. destruct Hy as (s' & cs' & x & H1 & H2 & H3). apply in_map_iff. exists x. split; [apply fold_folds; exact H3|]. unfold all_coupons. apply in_concat. exists cs'. split; auto. apply in_map_iff. exists (s', cs'). auto. }
  assert (RM : (Z.of_nat (c_n s) <= 32 * 2 ^ Z.of_nat (min_lg lgK l))%Z).
  { apply room_min in FS; [|lia]. assert (Q : (2 ^ Nat.min 26 (6 + min_lg lgK l) <= 2 ^ (6 + min_lg lgK l))%nat) by (apply Nat.pow_le_mono_r; lia). rewrite Nat.pow_add_r in Q. change (2 ^ 6)%nat with 64%nat in Q. apply Nat2Z.inj_le in Q. rewrite Nat2Z.inj_mul, K_Z in Q. lia. }
  destruct (cpc_icon_inverts fpow (min_lg lgK l) (Z.of_nat (c_n s)) HP LB ltac:(lia)) as (e & Ee & I). exists e. split; auto. split; auto. split; auto. unfold cpc_estimate. rewrite M, L. split; auto. rewrite INR_IZR_INZ. exact I.
Qed.
(** The hypotheses are met: by a correctly rounded math.Pow, and by 134 coupons under a union of lgK 6 (CpcEstProps.ex_union). *)
Example ex_union_inverts : exists l : sources (F := f64 * f64), length (all_coupons l) = 134%nat /\ exists u0 u s e, new_union _ cpc_hip 6 9001 = Ok u0 /\ union_all cpc_hip u0 (map fst l) = Ok u /\ get_result _ cpc_hip u = Ok s /\
  cpc_estimate rounded_pow s = Some e /\ inverts 4 (INR (c_n s)) (real e).
Proof.
  destruct ex_union as (l & G & R & A & M). exists l. split; auto. destruct (cpc_union_estimate_inverts rounded_pow 6 9001 l rounded_pow_spec ltac:(lia) G R) as (u0 & u & s & e & H). rewrite M in H. exists u0, u, s, e. exact H.
Qed.
Print Assumptions cpc_union_estimate_inverts.
