(** * VarOpt: concrete cases that meet the theorems' hypotheses, findings, and what the theorems rest on. *)
From Verif Require Import Base Bytes Arr BitPackModel ReservoirModel ReservoirProps VarOptModel VarOptHeap VarOptProofs VarOptSem VarOptUnion VarOptProps VarOptMean VarOptSerde.
From Coq Require Import QArith Qabs Lqa.
Local Close Scope Q_scope.
Local Open Scope nat_scope.

Definition gcap {T} (_ : list T) (_ r : N) : N := r.
Definition half : nat -> draw := fun i => mkDraw (1 # 2) i.
Fixpoint feed (s : @vo N) (ys : list (N * Q)) (i : nat) : res vo :=
  match ys with [] => Ok s | (x, w) :: ys => let* s := vo_update s x (Some w) (half i) in feed s ys (S i) end.
Definition of_stream (k : N) (ys : list (N * Q)) : res vo := let* s := vo_new k 3 in feed s ys 0.

Lemma feed_plain : forall ys s zs i s', plain s zs -> feed s ys i = Ok s' -> plain s' (zs ++ ys).
Proof.
  induction ys as [|(x, w) ys IH]; intros s zs i s' Hp E; cbn [feed] in E.
  - injection E as <-. rewrite app_nil_r. auto.
  - destruct (vo_update s x (Some w) (half i)) as [s1| |] eqn:E1; try discriminate. cbn [bindr] in E. replace (zs ++ (x, w) :: ys) with ((zs ++ [(x, w)]) ++ ys) by (rewrite <- app_assoc; auto).
    eapply IH; [|exact E]. eapply pl_update; eauto.
Qed.
Lemma of_stream_plain k ys s : of_stream k ys = Ok s -> plain s ys.
Proof. unfold of_stream. destruct (vo_new k 3) as [s0| |] eqn:E; try discriminate. cbn [bindr]. intros F. apply (feed_plain ys s0 [] 0 s); auto. eapply pl_new; eauto. Qed.

Definition wst (l : list (N * N)) : list (N * Q) := map (fun p => (fst p, inject_Z (Z.of_N (snd p)))) l.
Definition stream1 : list (N * Q) := (wst [(10, 5); (11, 1); (12, 20); (13, 2); (14, 3); (15, 1)]%N).
Definition get {A} (d : A) (r : res A) : A := match r with Ok x => x | _ => d end.
Definition dummy : @vo N := mkVo [] false 0 0 0 0 0 0 0 0.
Definition sk1 : vo := get dummy (of_stream 3 stream1).
Example case_plain : plain sk1 stream1. Proof. apply (of_stream_plain 3). vm_compute. reflexivity. Qed.
(** k = 3 items of 6: 12 keeps its weight 20, the two others stand for the 12 units of the rest. *)
Example case_samples : exists smp, all_samples sk1 = Some smp /\ map (fun p => (fst p, Qred (snd p))) smp = (wst [(12, 20); (10, 6); (13, 6)]%N).
Proof. vm_compute. eexists. split; reflexivity. Qed.
Example case_threshold : v_k sk1 < length stream1. Proof. vm_compute. lia. Qed.
Example case_unbiased : exists s e, vo_new 3 3 = Ok s /\ expected (fun x => (x <? 13)%N) s stream1 e /\ (e == 26)%Q.
Proof.
  destruct (varopt_unbiased (fun x => (x <? 13)%N) 3%N 3%N (get dummy (vo_new 3 3)) stream1) as (e & A & B); [reflexivity| |].
  - intros p Hp. repeat (destruct Hp as [<-|Hp]; [reflexivity|]). destruct Hp.
  - exists (get dummy (vo_new 3 3)), e. split; [reflexivity|]. split; auto.
Qed.

(** ** Unions *)
Definition udummy : @vunion N := mkVu dummy 0 0 0 0.
Definition merge2 (maxK : N) (a b : @vo N) : res (@vunion N) := let* u := vu_new maxK in let* u := vu_update u a half in vu_update u b half.
Lemma merge2_union maxK a ya b yb u : plain a ya -> plain b yb -> merge2 maxK a b = Ok u -> union 0%N gcap maxK u (ya ++ yb).
Proof.
  intros Ha Hb. unfold merge2. destruct (vu_new maxK) as [u0| |] eqn:E0; try discriminate. cbn [bindr]. destruct (vu_update u0 a half) as [u1| |] eqn:E1; try discriminate. cbn [bindr]. intros E2.
  eapply un_update; [|apply plain_sketch; exact Hb|exact E2]. change ya with ([] ++ ya). eapply un_update; [eapply un_new; eauto|apply plain_sketch; exact Ha|exact E1].
Qed.
Definition stream2 : list (N * Q) := (wst [(20, 1); (21, 2)]%N).
Definition sk2 : vo := get dummy (of_stream 3 stream2).
Example case_plain2 : plain sk2 stream2. Proof. apply (of_stream_plain 3). vm_compute. reflexivity. Qed.
(** The gadget is full: its items are made into the result by lowering k. *)
Definition un1 : vunion := get udummy (merge2 4 sk1 sk2).
Example case_union : union 0%N gcap 4 un1 (stream1 ++ stream2). Proof. apply (merge2_union 4 sk1 stream1 sk2 stream2); [exact case_plain|exact case_plain2|vm_compute; reflexivity]. Qed.
Example case_union_result : exists s smp, vu_result 0%N un1 half = Ok s /\ all_samples s = Some smp /\ (total smp == 35)%Q /\ v_n s = 8%N.
Proof. vm_compute. eexists; eexists. repeat split; reflexivity. Qed.
(** Nothing dropped: the items are moved. *)
Definition un2 : vunion := get udummy (merge2 9 sk1 sk2).
Example case_union2 : union 0%N gcap 9 un2 (stream1 ++ stream2). Proof. apply (merge2_union 9 sk1 stream1 sk2 stream2); [exact case_plain|exact case_plain2|vm_compute; reflexivity]. Qed.
Example case_union2_result : exists s smp, vu_result 0%N un2 half = Ok s /\ all_samples s = Some smp /\ length smp = 5 /\ (total smp == 35)%Q.
Proof. vm_compute. eexists; eexists. repeat split; reflexivity. Qed.

(** ** Serialization: 8-byte items, and integers below 2^64 for the weights. *)
Definition ser8 (l : list N) : list N := concat (map (le 8) l).
Definition size8 (_ : list N) (_ cnt : nat) : option nat := Some (8 * cnt).
Fixpoint deser8 (b : list N) (off cnt : nat) : option (list N) := match cnt with O => Some [] | S c => do x <- get_le 8 off b; do l <- deser8 b (off + 8) c; Some (x :: l) end.
Definition bitsZ (q : Q) : N := (Z.to_N (Qnum (Qred q)) mod 2 ^ 64)%N.
Definition of_bitsZ (n : N) : Q := inject_Z (Z.of_N n).
Definition sk3 : vo := get dummy (of_stream 2 (wst [(10, 6); (11, 1); (12, 20); (13, 2)]%N)).
Example case_encode : exists b s', vo_encode ser8 bitsZ sk3 = Ok b /\ vo_decode 0%N size8 deser8 of_bitsZ b = Ok s' /\ all_samples s' = all_samples sk3 /\ length b = 56 /\
  is_float bitsZ of_bitsZ (v_tot sk3) /\ vo_update s' 5%N (Some 1%Q) (half 0) = Err /\ exists s'', vo_update sk3 5%N (Some 1%Q) (half 0) = Ok s''.
Proof. vm_compute. eexists; eexists. do 6 (split; [reflexivity|]). eexists. reflexivity. Qed.

Example ser8_size pre l post : size8 (pre ++ ser8 l ++ post) (length pre) (length l) = Some (length (ser8 l)).
Proof. unfold size8. f_equal. induction l as [|x l IH]; auto. unfold ser8 in *. cbn [map concat length]. rewrite app_length, le_length, <- IH. lia. Qed.
Lemma ser8_small l : (forall x, In x l -> (x < 2 ^ 64)%N) -> forall pre post, deser8 (pre ++ ser8 l ++ post) (length pre) (length l) = Some l.
Proof.
  induction l as [|x l IH]; intros Hl pre post; auto. unfold ser8 in *. cbn [map concat length deser8]. rewrite <- app_assoc, get_le_app_at. change (256 ^ N.of_nat 8)%N with (2 ^ 64)%N.
  rewrite N.mod_small by (apply Hl; simpl; auto). cbn [bindo]. specialize (IH (fun y Hy => Hl y (or_intror Hy)) (pre ++ le 8 x) post). rewrite app_length, le_length, <- app_assoc in IH. rewrite IH. auto.
Qed.
(** The theorem applied: strings of 0 and 1, each as 8 bytes. *)
Definition serb (l : list bool) : list N := ser8 (map N.b2n l).
Definition deserb (b : list N) (off cnt : nat) : option (list bool) := do l <- deser8 b off cnt; Some (map (fun x => negb (x =? 0)%N) l).
Lemma serb_ok pre l post : deserb (pre ++ serb l ++ post) (length pre) (length l) = Some l.
Proof.
  unfold deserb, serb. rewrite <- (map_length N.b2n l), ser8_small.
  - cbn [bindo]. rewrite map_map. f_equal. rewrite <- (map_id l) at 2. apply map_ext. intros []; auto.
  - intros x Hx. apply in_map_iff in Hx as ([] & <- & _); reflexivity.
Qed.
Definition skb : vo := get (mkVo [] false 0 0 0 0 0 0 0 0) (let* s := vo_new 2 3 in let* s := vo_update s true (Some 6%Q) (half 0) in let* s := vo_update s false (Some 1%Q) (half 1) in vo_update s true (Some 9%Q) (half 2)).
Example case_round_trip : exists b s', vo_encode serb bitsZ skb = Ok b /\ vo_decode true size8 deserb of_bitsZ b = Ok s' /\ all_samples s' = all_samples skb.
Proof.
  destruct (varopt_round_trip true serb size8 deserb bitsZ of_bitsZ) with (s := skb) (ys := [(true, 6); (false, 1); (true, 9)]%Q) as (b & s' & A & B & _ & _ & _ & _ & C & _).
  - intros pre l post. unfold serb. rewrite <- (map_length N.b2n l). apply ser8_size.
  - apply serb_ok.
  - intros q. unfold bitsZ. apply N.mod_lt. discriminate.
  - eapply (pl_update _ [(true, 6%Q); (false, 1%Q)] _ _ (half 2)); [eapply (pl_update _ [(true, 6%Q)] _ _ (half 1)); [eapply (pl_update _ [] _ _ (half 0)); [apply (pl_new 2%N 3%N); vm_compute; reflexivity|vm_compute; reflexivity]|vm_compute; reflexivity]|vm_compute; reflexivity].
  - reflexivity.
  - reflexivity.
  - intros p Hp. repeat (destruct Hp as [<-|Hp]; [reflexivity|]). destruct Hp.
  - vm_compute. reflexivity.
  - exists b, s'. auto.
Qed.

(** ** Findings *)

(** "Encode works on every sketch": false of the result of a union that lowered k more than once. *)
Definition s3a := wst [(1, 1); (2, 1); (3, 1)]%N.
Definition s3b := wst [(4, 100); (5, 90); (6, 80); (7, 1)]%N.
Definition un3 : vunion := get udummy (merge2 5 (get dummy (of_stream 2 s3a)) (get dummy (of_stream 3 s3b))).
Theorem varopt_encode_result_refuted : exists u ys s, union 0%N gcap 5 u ys /\ vu_result 0%N u half = Ok s /\ vo_encode ser8 bitsZ s = Err.
Proof.
  exists un3. eexists; eexists. split.
  - apply (merge2_union 5 (get dummy (of_stream 2 s3a)) s3a (get dummy (of_stream 3 s3b)) s3b); [apply (of_stream_plain 2); vm_compute; reflexivity|apply (of_stream_plain 3); vm_compute; reflexivity|vm_compute; reflexivity].
  - split; vm_compute; reflexivity.
Qed.

(** "The result of a union can be updated like any sketch": false when an unmarked item is lighter than the outer threshold. *)
Definition s4a := wst [(1, 10); (2, 10); (3, 10)]%N.
Definition s4b := wst [(4, 1)]%N.
Definition un4 : vunion := get udummy (merge2 9 (get dummy (of_stream 2 s4a)) (get dummy (of_stream 2 s4b))).
Theorem varopt_update_after_union_refuted : exists u ys s, union 0%N gcap 9 u ys /\ vu_result 0%N u half = Ok s /\ forall x w d, vo_update s x w d = Err.
Proof.
  exists un4. eexists; eexists. split.
  - apply (merge2_union 9 (get dummy (of_stream 2 s4a)) s4a (get dummy (of_stream 2 s4b)) s4b); [apply (of_stream_plain 2); vm_compute; reflexivity|apply (of_stream_plain 2); vm_compute; reflexivity|vm_compute; reflexivity].
  - split; [vm_compute; reflexivity|]. intros x [w|] d; [|reflexivity]. unfold vo_update, update_mark. destruct (Qle_bool w 0); reflexivity.
Qed.

(** "TotalSketchWeight is the weight of the stream": false as long as no item has been dropped, where it is the weight of the subset. *)
Theorem varopt_total_weight_refuted : exists (s : @vo N) (ys : list (N * Q)) P e tot, plain s ys /\ estimate_subset_sum s P = Ok (e, tot) /\ ~ (tot == total ys)%Q.
Proof.
  exists sk2, stream2, (fun x => (x =? 20)%N). eexists; eexists. split; [exact case_plain2|]. split; [vm_compute; reflexivity|]. vm_compute. discriminate.
Qed.

Print Assumptions varopt_update_never_fails.
Print Assumptions varopt_refuses.
Print Assumptions varopt_size.
Print Assumptions varopt_whole_stream.
Print Assumptions varopt_total.
Print Assumptions varopt_members.
Print Assumptions varopt_heavy.
Print Assumptions varopt_threshold.
Print Assumptions varopt_estimate.
Print Assumptions varopt_update_result.
Print Assumptions varopt_union_never_fails.
Print Assumptions varopt_union_size.
Print Assumptions varopt_unbiased.
Print Assumptions varopt_expected_unique.
Print Assumptions varopt_unbiased_from.
Print Assumptions varopt_round_trip.
Print Assumptions varopt_union_round_trip.
Print Assumptions varopt_reloaded_updates_refuted.
Print Assumptions varopt_encode_result_refuted.
Print Assumptions varopt_update_after_union_refuted.
Print Assumptions varopt_total_weight_refuted.
