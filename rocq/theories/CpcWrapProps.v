(** * C79: a wrapped CPC image answers like the sketch that was written.

    Vocabulary.  [to_slice] is ToCompactSlice and [from_slice] NewCpcSketchFromSlice (C47), over float64 accumulators stored by
    their IEEE bit patterns; [new_wrapper] is NewCpcWrapperFromBytes.  [cpc_estimate], [cpc_lower], [cpc_upper] are the queries of a
    sketch (C78), [w_lgK], [w_estimate], [w_lower], [w_upper] those of the wrapper; [None] is a panic.  math.Log and math.Pow are
    arbitrary functions.  An image without surprising values and without a window is that of an empty sketch ([no_data]). *)
From Coq Require Import ZArith.
From Flocq Require Import BinarySingleNaN.
From Verif Require Import Base Bytes Arr BitPackModel CpcTable CpcTableProofs CpcModel CpcProofs CpcSketch CpcUnion CpcProps CpcTables CpcCodeModel CpcStateModel CpcStateBytes CpcStateCodec CpcStateProofs CpcStateProps FloatModel FloatBits CpcEstTables CpcEstModel CpcWrapModel.
Local Open Scope nat_scope.

Notation sk := (cpc (f64 * f64)).
Definition read (bytes : list N) (seed : N) : res sk := from_slice _ cpc_hip hip_from bytes seed.
Definition write (seed_hash : N -> res N) (s : sk) : res (list N) := to_slice _ hip_bits seed_hash s.
Definition no_data (bytes : list N) : Prop := N.land (nth 5 bytes 0%N) 24 = 0%N.
(** The view of the image gives the answers of the sketch. *)
Definition same_answers (flog : f64 -> f64) (fpow : f64 -> f64 -> f64) (bytes : list N) (s : sk) : Prop :=
  new_wrapper bytes = Ok bytes /\ w_lgK bytes = c_lgK s /\ w_estimate fpow bytes = cpc_estimate fpow s /\
  forall kappa, w_lower flog fpow bytes kappa = cpc_lower flog fpow s kappa /\ w_upper flog fpow bytes kappa = cpc_upper flog fpow s kappa.

(** ** Proofs *)
Lemma land7 x : (N.land x 7 < 8)%N.
Proof. change 7%N with (N.ones 3). rewrite N.land_ones. apply N.mod_lt. discriminate. Qed.
Lemma land_pow x k : (N.land x (2 ^ k) =? 0)%N = negb (N.testbit x k).
Proof.
  destruct (N.testbit x k) eqn:T; cbn [negb].
  - apply N.eqb_neq. intros E. assert (H : N.testbit (N.land x (2 ^ k)) k = true) by (rewrite N.land_spec, T, N.pow2_bits_true; reflexivity). rewrite E, N.bits_0 in H. discriminate.
  - apply N.eqb_eq. apply N.bits_inj. intros i. rewrite N.land_spec, N.bits_0, N.pow2_bits_eqb. destruct (N.eqb_spec k i) as [<-|]; [rewrite T; reflexivity|apply andb_false_r].
Qed.
Lemma small_bits y i : (y < 8)%N -> i < 3 -> Nat.testbit (N.to_nat y) i = N.testbit y (N.of_nat i).
Proof.
  intros H Hi. assert (C : forallb (fun a => forallb (fun b => Bool.eqb (Nat.testbit a b) (N.testbit (N.of_nat a) (N.of_nat b))) (seq 0 3)) (seq 0 8) = true) by (vm_compute; reflexivity).
  rewrite forallb_forall in C. specialize (C (N.to_nat y) ltac:(apply in_seq; lia)). rewrite forallb_forall in C. specialize (C i ltac:(apply in_seq; lia)). apply Bool.eqb_prop in C. rewrite C, N2Nat.id. reflexivity.
Qed.
Lemma fmt_bit x i : i < 3 -> Nat.testbit (N.to_nat (N.land (N.shiftr x 2) 7)) i = N.testbit x (N.of_nat i + 2).
Proof.
  intros Hi. rewrite small_bits by (auto; apply land7). change 7%N with (N.ones 3). rewrite N.land_spec, N.shiftr_spec by lia. rewrite N.ones_spec_low by lia. apply andb_true_r.
Qed.
Lemma bit_hip x : negb (N.land x 4 =? 0)%N = has_hip (N.to_nat (N.land (N.shiftr x 2) 7)).
Proof. unfold has_hip. rewrite fmt_bit by lia. change 4%N with (2 ^ 2)%N. rewrite land_pow, negb_involutive. reflexivity. Qed.
Lemma land_pow_iff x k : N.land x (2 ^ k) = 0%N <-> N.testbit x k = false.
Proof. rewrite <- N.eqb_eq, land_pow. destruct (N.testbit x k); split; auto; discriminate. Qed.
Lemma bit_data x : N.land x 24 <> 0%N <-> has_sv (N.to_nat (N.land (N.shiftr x 2) 7)) || has_win (N.to_nat (N.land (N.shiftr x 2) 7)) = true.
Proof.
  unfold has_sv, has_win. rewrite !fmt_bit by lia. change (N.of_nat 1 + 2)%N with 3%N. change (N.of_nat 2 + 2)%N with 4%N. change 24%N with (N.lor (2 ^ 3) (2 ^ 4)). rewrite N.land_lor_distr_r.
  rewrite N.lor_eq_0_iff, !land_pow_iff. destruct (N.testbit x 3), (N.testbit x 4); cbn [orb]; intuition congruence.
Qed.
Ltac step E := match type of E with (let* _ := ?x in _) = Ok _ => destruct x eqn:?; cbn [bindr] in E; try discriminate E end.
Ltac crush := repeat (cbv zeta; cbn [bindr]; match goal with
  | |- Ok _ = Ok _ -> _ => solve [eauto]
  | |- ?x = _ -> _ => match x with
    | Err => discriminate
    | Panic => discriminate
    | context [match ?y with _ => _ end] => match y with context [match _ with _ => _ end] => fail 1 | _ => destruct y end
    | bindr ?y _ => destruct y
    end end).
Lemma uncompress_fields (c : cstate (f64 * f64)) (s s' : sk) : uncompress _ c s = Ok s' -> c_lgK s' = c_lgK s /\ c_n s' = c_n s /\ c_merged s' = c_merged s /\ c_hip s' = c_hip s.
Proof.
  assert (SD : forall off w t, Ok (set_data (f64 * f64) s off w t) = Ok s' -> c_lgK s' = c_lgK s /\ c_n s' = c_n s /\ c_merged s' = c_merged s /\ c_hip s' = c_hip s) by (intros off w t [= <-]; repeat split).
  unfold uncompress. destruct (get_flavor _ s).
  - intros [= <-]. auto.
  - unfold uncompress_sparse. crush.
  - unfold uncompress_hybrid. crush.
  - unfold uncompress_pinned. crush.
  - unfold uncompress_sliding. crush.
Qed.
Lemma read_fields bytes seed s : read bytes seed = Ok s -> exists c, import _ cpc_hip hip_from bytes = Ok c /\ c_lgK s = s_lgK _ c /\ c_n s = s_n _ c /\ c_merged s = s_merged _ c /\ c_hip s = s_hip _ c.
Proof.
  unfold read, from_slice. intros E. step E. exists a. split; auto. unfold from_state in E. step E. unfold new_cpc in Heqr0. destruct (_ || _); [discriminate|]. injection Heqr0 as <-. apply uncompress_fields in E. exact E.
Qed.
Lemma import_fields bytes c : import _ cpc_hip hip_from bytes = Ok c -> new_wrapper bytes = Ok bytes /\ w_lgK bytes = s_lgK _ c /\ w_has_hip bytes = negb (s_merged _ c) /\
  (no_data bytes -> s_n _ c = 0) /\
  (~ no_data bytes -> w_coupons bytes = Some (Z.of_nat (s_n _ c)) /\ (s_merged _ c = false -> w_hip bytes = Some (snd (s_hip _ c)))).
Proof.
  unfold import, new_wrapper, no_data, w_flags. intros E. step E. cbn [bindr]. destruct (N.land (nth 5 bytes 0%N) 2 =? 0)%N; [discriminate|]. split; auto. cbv zeta in E.
  pose proof (bit_hip (nth 5 bytes 0%N)) as BH. pose proof (bit_data (nth 5 bytes 0%N)) as BD. unfold w_coupons, w_hip, w_field, w_has_hip, w_format, w_lgK, w_flags. rewrite BH. set (fmt := N.to_nat (N.land (N.shiftr (nth 5 bytes 0%N) 2) 7)) in *.
  destruct (negb (has_sv fmt) && negb (has_win fmt)) eqn:ND.
  { injection E as <-. cbn [s_lgK s_merged s_n]. rewrite negb_involutive. split; auto. split; auto. split; auto. intros H. apply BD in H. destruct (has_sv fmt), (has_win fmt); discriminate. }
  assert (DD : N.land (nth 5 bytes 0%N) 24 <> 0%N) by (apply BD; destruct (has_sv fmt), (has_win fmt); auto; discriminate).
  unfold get_hi in E. destruct (hi_offset fmt hf_numcoupons) as [o| |] eqn:O1; cbn [bindr] in E; try discriminate E. destruct (get_le 4 o bytes) as [n|] eqn:G1; cbn [of_opt bindr] in E; try discriminate E.
  step E. step E. step E.
  destruct (has_hip fmt) eqn:HH.
  - destruct (hi_offset fmt hf_kxp) as [ox| |]; cbn [bindr] in E; try discriminate E. destruct (get_le 8 ox bytes) as [x|]; cbn [of_opt bindr] in E; try discriminate E. destruct (hi_offset fmt hf_hip) as [oy| |] eqn:O2; cbn [bindr] in E; try discriminate E. destruct (get_le 8 oy bytes) as [y|] eqn:G2; cbn [of_opt bindr] in E; try discriminate E.
    step E. destruct (length bytes <? _); [discriminate|]. match type of E with (let* _ := ?x in _) = Ok _ => destruct x as [c1| |] eqn:C1; cbn [bindr] in E; try discriminate E end.
    assert (Q : exists fi a' b' k l m m', c = mkCs _ (N.to_nat (nth 3 bytes 0%N)) a' fi false (N.to_nat n) (hip_from (x, y)) b' k l m m').
    { assert (Q1 : exists fi a' b' k l m m', c1 = mkCs _ (N.to_nat (nth 3 bytes 0%N)) a' fi false (N.to_nat n) (hip_from (x, y)) b' k l m m').
      { destruct (has_win fmt); [step C1; injection C1 as <-|injection C1 as <-]; unfold set_cw; cbn; repeat eexists. }
      destruct Q1 as (fi & a' & b' & k & l & m & m' & ->). destruct (has_sv fmt); [step E; injection E as <-|injection E as <-]; unfold set_csv; cbn; repeat eexists. }
    destruct Q as (fi & a' & b' & k & l & m & m' & ->). cbn [s_lgK s_merged s_n s_hip negb bindo hip_from snd]. split; auto. split; auto. split; [tauto|]. intros _. rewrite N_nat_Z. split; auto.
  - cbn [bindr] in E. step E. destruct (length bytes <? _); [discriminate|]. match type of E with (let* _ := ?x in _) = Ok _ => destruct x as [c1| |] eqn:C1; cbn [bindr] in E; try discriminate E end.
    assert (Q : exists fi a' h b' k l m m', c = mkCs _ (N.to_nat (nth 3 bytes 0%N)) a' fi true (N.to_nat n) h b' k l m m').
    { assert (Q1 : exists fi a' h b' k l m m', c1 = mkCs _ (N.to_nat (nth 3 bytes 0%N)) a' fi true (N.to_nat n) h b' k l m m').
      { destruct (has_win fmt); [step C1; injection C1 as <-|injection C1 as <-]; unfold set_cw; cbn; repeat eexists. }
      destruct Q1 as (fi & a' & h & b' & k & l & m & m' & ->). destruct (has_sv fmt); [step E; injection E as <-|injection E as <-]; unfold set_csv; cbn; repeat eexists. }
    destruct Q as (fi & a' & h & b' & k & l & m & m' & ->). cbn [s_lgK s_merged s_n s_hip negb bindo]. split; auto. split; auto. split; [tauto|]. intros _. rewrite N_nat_Z. split; [auto|discriminate].
Qed.

(** ** Theorems *)
(** Any bytes that can be read as a sketch and hold data: the view gives the answers of the sketch read. *)
Theorem cpc_wrapper_reads flog fpow bytes seed s : read bytes seed = Ok s -> ~ no_data bytes -> same_answers flog fpow bytes s.
Proof.
  intros E ND. destruct (read_fields _ _ _ E) as (c & Ei & L & Nn & M & H). destruct (import_fields _ _ Ei) as (W & WL & WH & _ & D). destruct (D ND) as (DN & DH). unfold same_answers, w_estimate, w_lower, w_upper, cpc_estimate, cpc_lower, cpc_upper. rewrite WH, WL, DN, L, Nn, M, H.
  split; auto. split; auto. destruct (s_merged _ c); cbn [negb bindo]; auto. rewrite (DH eq_refl). cbn [bindo]. auto.
Qed.
Lemma same_est flog fpow (s s' : sk) : same_sketch s s' -> cpc_estimate fpow s' = cpc_estimate fpow s /\ forall kappa, cpc_lower flog fpow s' kappa = cpc_lower flog fpow s kappa /\ cpc_upper flog fpow s' kappa = cpc_upper flog fpow s kappa.
Proof.
  intros S. unfold cpc_estimate, cpc_lower, cpc_upper. rewrite (ss_merged _ _ S), (ss_lgK _ _ S), (ss_n _ _ S). destruct (c_merged s) eqn:M; auto. rewrite (ss_hip _ _ S M). auto.
Qed.
Lemma wrapper_same flog fpow bytes seed (s s' : sk) : read bytes seed = Ok s' -> same_sketch s s' -> 0 < c_n s -> same_answers flog fpow bytes s.
Proof.
  intros E S Hn. assert (ND : ~ no_data bytes). { intros Z. destruct (read_fields _ _ _ E) as (c & Ei & _ & Nn & _). destruct (import_fields _ _ Ei) as (_ & _ & _ & D & _). rewrite (D Z) in Nn. rewrite (ss_n _ _ S) in Nn. lia. }
  destruct (cpc_wrapper_reads flog fpow _ _ _ E ND) as (A & B & C & D). destruct (same_est flog fpow s s' S) as (G & H). split; auto. split; [rewrite B; apply (ss_lgK _ _ S)|]. split; [congruence|]. intros kappa. destruct (D kappa). destruct (H kappa). split; congruence.
Qed.
Lemma hip_env seed_hash seed h : seed_hash seed = Ok h -> (h < 65536)%N -> env_ok hip_bits hip_from seed_hash seed.
Proof.
  intros E L. split; [|exists h; auto]. intros [a b]. unfold hip_bits, hip_from. cbn [fst snd]. rewrite !float_bits_back. auto using float_bits_lt.
Qed.
(** The image of a sketch built from any non-empty stream *)
Theorem cpc_wrapper_stream flog fpow seed_hash lgK seed hs s bytes h : 4 <= lgK <= 26 -> seed_hash seed = Ok h -> (h < 65536)%N ->
  (forall i, i <= length hs -> fits lgK (added (firstn i (coupons lgK hs)))) -> hs <> [] ->
  build cpc_hip lgK seed hs = Ok s -> write seed_hash s = Ok bytes -> same_answers flog fpow bytes s.
Proof.
  intros LG EH Hh FI NE E W. destruct (cpc_round_trip cpc_hip hip_bits hip_from seed_hash lgK seed hs s bytes LG (hip_env _ _ _ EH Hh) FI E W) as (s' & Es & S & _ & R & _).
  apply (wrapper_same flog fpow bytes seed s s'); auto. rewrite <- (ss_n _ _ S). destruct R as (m & _ & _ & _ & _ & (l & _ & HI & ->) & _). destruct hs as [|h0 hs]; [congruence|]. destruct l as [|x l]; [|cbn; lia]. exfalso. apply (HI (coupon lgK h0)). exists h0. split; [left; auto|auto].
Qed.
(** The image of the result of a union of sketches that are not all empty *)
Theorem cpc_wrapper_union flog fpow seed_hash lgK seed (l : sources (F := f64 * f64)) h : 4 <= lgK <= 26 -> seed_hash seed = Ok h -> (h < 65536)%N -> good_sources seed l ->
  2 * length (all_coupons l) <= room (6 + min_lg lgK l) -> all_coupons l <> [] ->
  exists u0 u s, new_union _ cpc_hip lgK seed = Ok u0 /\ union_all cpc_hip u0 (map fst l) = Ok u /\ get_result _ cpc_hip u = Ok s /\
    forall bytes, write seed_hash s = Ok bytes -> same_answers flog fpow bytes s.
Proof.
  intros LG EH Hh G FS NE. destruct (cpc_round_trip_union cpc_hip hip_bits hip_from seed_hash lgK seed l LG (hip_env _ _ _ EH Hh) G FS) as (u0 & u & s & E1 & E2 & E3 & _ & R). exists u0, u, s. split; auto. split; auto. split; auto.
  intros bytes W. destruct (R bytes W) as (s' & Es & S & RP). apply (wrapper_same flog fpow bytes seed s s'); auto. rewrite <- (ss_n _ _ S). destruct RP as (m & _ & _ & _ & _ & (cs & _ & HI & ->) & _).
  destruct (all_coupons l) as [|x xs] eqn:A; [congruence|]. assert (Hx : In x (all_coupons l)) by (rewrite A; left; auto). unfold all_coupons in Hx. apply in_concat in Hx. destruct Hx as (c0 & Hc0 & Hx). apply in_map_iff in Hc0. destruct Hc0 as ((s0 & c0') & <- & Hs).
  destruct cs as [|y cs]; [|cbn; lia]. exfalso. apply (HI (fold_rc (min_lg lgK l) x)). exists s0, c0', x. split; auto. split; auto. apply fold_folds. auto.
Qed.

(** Reading the image back and going on: after any further items the sketch answers like one that was never written. *)
Theorem cpc_read_back_answers flog fpow seed_hash lgK seed hs more s bytes h : 4 <= lgK <= 26 -> seed_hash seed = Ok h -> (h < 65536)%N ->
  (forall i, i <= length hs -> fits lgK (added (firstn i (coupons lgK hs)))) ->
  (forall i, i <= length more -> fits lgK (added (coupons lgK hs ++ firstn i (coupons lgK more)))) ->
  build cpc_hip lgK seed hs = Ok s -> write seed_hash s = Ok bytes ->
  exists s' t t', read bytes seed = Ok s' /\ feed cpc_hip s' more = Ok t' /\ build cpc_hip lgK seed (hs ++ more) = Ok t /\
    c_lgK t' = c_lgK t /\ cpc_estimate fpow t' = cpc_estimate fpow t /\
    forall kappa, cpc_lower flog fpow t' kappa = cpc_lower flog fpow t kappa /\ cpc_upper flog fpow t' kappa = cpc_upper flog fpow t kappa.
Proof.
  intros LG EH Hh FI FM E W. destruct (cpc_round_trip cpc_hip hip_bits hip_from seed_hash lgK seed hs s bytes LG (hip_env _ _ _ EH Hh) FI E W) as (s' & Es & _ & _ & _ & R).
  destruct (R more FM) as (t & t' & Et & Et' & S). exists s', t, t'. split; auto. split; auto. split; auto. split; [apply (ss_lgK _ _ S)|]. apply same_est; auto.
Qed.

(** ** Concrete cases *)
(** The hash of the default seed 9001 *)
Definition hash9001 (seed : N) : res N := Ok 37836%N.
Definition is_ok {A} (r : res A) : bool := match r with Ok _ => true | _ => false end.
(** A sliding sketch of 64 coupons: bytes exist and the hypotheses hold. *)
Example ex_wrap_stream : exists s bytes, build cpc_hip 4 9001 (grid (seq 0 16) (seq 0 4)) = Ok s /\ write hash9001 s = Ok bytes /\ forall flog fpow, same_answers flog fpow bytes s.
Proof.
  assert (C : is_ok (let* s := build cpc_hip 4 9001 (grid (seq 0 16) (seq 0 4)) in write hash9001 s) = true) by (vm_compute; reflexivity).
  destruct (build cpc_hip 4 9001 (grid (seq 0 16) (seq 0 4))) as [s| |] eqn:E; try discriminate C. cbn [bindr] in C. destruct (write hash9001 s) as [bytes| |] eqn:W; try discriminate C. exists s, bytes. split; [exact eq_refl|]. split; [exact W|]. intros flog fpow.
  refine (cpc_wrapper_stream flog fpow hash9001 4 9001 (grid (seq 0 16) (seq 0 4)) s bytes 37836 _ _ _ _ _ E W); [lia|reflexivity|reflexivity| |discriminate]. clear E W C.
  intros i _. apply small_fits. assert (length (added (firstn i (coupons 4 (grid (seq 0 16) (seq 0 4))))) <= 64); [|change (room (6 + 4)) with 768; lia].
  rewrite added_length_le, firstn_length. apply Nat.min_le_iff. right. unfold coupons. rewrite map_length. change (length (grid (seq 0 16) (seq 0 4))) with 64. lia.
Qed.
(** A union of two sketches of lgK 5 and 4 (its hypotheses: CpcEstProps.ex_union): bytes exist. *)
Example ex_wrap_union : is_ok (let* a := build cpc_hip 5 9001 (grid (seq 0 32) (seq 0 4)) in let* b := build cpc_hip 4 9001 (grid [3; 7; 9] [5; 40]) in
  let* u0 := new_union _ cpc_hip 6 9001 in let* u := union_all cpc_hip u0 [a; b] in let* s := get_result _ cpc_hip u in write hash9001 s) = true.
Proof. vm_compute. reflexivity. Qed.

(** ** The image of an empty sketch *)
(** The preamble of an empty sketch has no field for the estimate or the number of coupons; the view reads the first bytes of
    the image instead.  The estimate of an empty sketch is 0, that of its view is a negative number. *)
Theorem cpc_wrapper_empty_refuted : exists s bytes, build cpc_hip 11 9001 [] = Ok s /\ write hash9001 s = Ok bytes /\ (forall fpow, cpc_estimate fpow s = Some f_zero) /\ new_wrapper bytes = Ok bytes /\ exists e, (forall fpow, w_estimate fpow bytes = Some e) /\ flt e f_zero = true.
Proof.
  eexists. exists [2; 1; 16; 11; 0; 6; 204; 147]%N. split; [reflexivity|]. split; [vm_compute; reflexivity|]. split; [reflexivity|]. split; [vm_compute; reflexivity|].
  exists (float_from 0x93cc06000b100102%N). split; [intros fpow|vm_compute; reflexivity]. reflexivity.
Qed.
(** The empty result of a union has no coupons; its view of lgK 4 counts 68157698 of them and computes its estimate from those. *)
Theorem cpc_wrapper_empty_union_refuted : exists u s bytes, new_union _ cpc_hip 4 9001 = Ok u /\ get_result _ cpc_hip u = Ok s /\ write hash9001 s = Ok bytes /\ c_n s = 0 /\ (forall fpow, cpc_estimate fpow s = Some f_zero) /\ new_wrapper bytes = Ok bytes /\ w_coupons bytes = Some 68157698%Z /\ forall fpow, w_estimate fpow bytes = icon_estimate fpow 4 68157698.
Proof.
  do 2 eexists. exists [2; 1; 16; 4; 0; 2; 204; 147]%N. split; [reflexivity|]. split; [reflexivity|]. split; [vm_compute; reflexivity|]. split; [reflexivity|]. split; [reflexivity|]. split; [vm_compute; reflexivity|]. split; [vm_compute; reflexivity|]. intros fpow. unfold w_estimate. change (w_has_hip _) with false. cbv iota. change (w_coupons _) with (Some 68157698%Z). reflexivity.
Qed.
Print Assumptions cpc_read_back_answers.
Print Assumptions cpc_wrapper_reads.
Print Assumptions cpc_wrapper_stream.
Print Assumptions cpc_wrapper_union.
Print Assumptions cpc_wrapper_empty_refuted.
Print Assumptions cpc_wrapper_empty_union_refuted.
