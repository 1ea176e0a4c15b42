(** * t-digests: concrete cases, and what does not hold. *)
From Verif Require Import Base Arr Bytes BitPackModel TdigestModel TdigestProofs TdigestSem TdigestRank TdigestProps TdigestExact
  TdigestSerdeModel TdigestSerde.
From Coq Require Import QArith Qabs Permutation.
Local Close Scope Q_scope.
Local Open Scope nat_scope.

Definition ln0 : Q -> Q := fun _ => 0%Q.
Definition q (n : Z) : Q := inject_Z n.
Fixpoint updates (ln : Q -> Q) (s : td) (vs : list Q) : option td :=
  match vs with [] => Some s | v :: vs' => match update ln s v with Some s' => updates ln s' vs' | None => None end end.
Lemma made_updates ln k0 vs : forall s xs s', made ln k0 s xs -> updates ln s vs = Some s' -> made ln k0 s' (xs ++ vs).
Proof.
  induction vs as [|v vs IH]; intros s xs s' M E; cbn [updates] in E.
  - injection E as <-. rewrite app_nil_r. exact M.
  - destruct (update ln s v) as [s1|] eqn:U; [|discriminate]. change (v :: vs) with ([v] ++ vs). rewrite app_assoc.
    eapply IH; [|exact E]. eapply made_update; eassumption.
Qed.
Definition new10 : td := mkTd PInf NInf [] [] 0 10 false.
Definition up (k : N) (vs : list Q) : td := match updates ln0 (mkTd PInf NInf [] [] 0 k false) vs with Some s => s | None => new10 end.
Lemma made_up k0 k vs : (k0 <= k)%N -> (10 <= k)%N -> updates ln0 (mkTd PInf NInf [] [] 0 k false) vs <> None -> made ln0 k0 (up k vs) vs.
Proof.
  intros L K NN. unfold up. destruct (updates ln0 (mkTd PInf NInf [] [] 0 k false) vs) as [s|] eqn:E; [|congruence].
  refine (made_updates ln0 k0 vs _ [] s _ E). eapply made_new; [exact L|]. unfold td_new. destruct (N.ltb_spec k 10); [lia|reflexivity].
Qed.

Definition one_to (n : nat) : list Q := map (fun i => q (Z.of_nat i)) (seq 1 n).
Definition twenty : td := up 10 (one_to 20).
Example made_twenty : made ln0 10 twenty (one_to 20).
Proof. apply made_up; [lia|lia|]. vm_compute. discriminate. Qed.
(** A merge of two sketches with different k, a reload, and queries. *)
Definition merged : td := match merge_in ln0 twenty (up 20 (map q [5; -3; 40; 5])%Z) with Val s => s | _ => new10 end.
Example made_merged : made ln0 10 merged (one_to 20 ++ map q [5; -3; 40; 5]%Z).
Proof.
  apply (made_merge ln0 10 twenty (one_to 20) (up 20 (map q [5; -3; 40; 5])%Z) _ merged); [apply made_twenty|apply made_up; [lia|lia|vm_compute; discriminate]|].
  vm_compute. reflexivity.
Qed.
Example merged_answers :
  total_weight merged = 24%N /\ min_value merged = Val (Fin (q (-3))) /\ max_value merged = Val (Fin (q 40)) /\
  (length (t_cs merged) <? 24) = true /\ (exists s r, rank ln0 merged (q 10) = (s, Val r) /\ Qle_bool (4 # 10) r && Qle_bool r (6 # 10) = true) /\
  snd (rank ln0 merged (q (-4))) = Val 0%Q /\ snd (rank ln0 merged (q 41)) = Val 1%Q.
Proof.
  repeat split; try (vm_compute; reflexivity).
  eexists _, _. split; [vm_compute; reflexivity|vm_compute; reflexivity].
Qed.
Example merged_cdf : valid_splits (map q [0; 5; 20])%Z = true /\ exists s ps, pmf ln0 merged (map q [0; 5; 20])%Z = (s, Val ps) /\ length ps = 4.
Proof. split; [vm_compute; reflexivity|]. eexists _, _. split; vm_compute; reflexivity. Qed.

(** A small stream for the exactness theorems: 6 values, k = 10; 3 * 6 < 2 * 10. *)
Example small_exact : made ln0 10 (up 10 (map q [4; 1; 3; 1; 9; 4])%Z) (map q [4; 1; 3; 1; 9; 4])%Z /\
  (3 * N.of_nat (length (map q [4; 1; 3; 1; 9; 4]%Z)) < 2 * 10)%N /\
  (exists s r, rank ln0 (up 10 (map q [4; 1; 3; 1; 9; 4])%Z) (q 4) = (s, Val r) /\ (r == 2 # 3)%Q) /\
  (exists s, quantile ln0 (up 10 (map q [4; 1; 3; 1; 9; 4])%Z) (1 # 2) = (s, Val (q 4))) /\
  (forall x, (0 < x)%Q -> (x <= 1)%Q -> (ln0 x <= 0)%Q).
Proof.
  split; [apply made_up; [lia|lia|vm_compute; discriminate]|]. split; [cbn [length map]; lia|]. split; [|split].
  - eexists _, _. split; vm_compute; reflexivity.
  - eexists _. vm_compute. reflexivity.
  - intros. unfold ln0. discriminate.
Qed.

(** ** Quantile is not monotone

    Whatever math.Log is, as long as it maps 1 to 0. Only the argument 20 / (2 * 10) is used. *)
Lemma fits_ext ln ln' k W : ln (qw W / (2 * qw k))%Q = ln' (qw W / (2 * qw k))%Q -> forall sf cw bw, fits ln k W sf cw bw = fits ln' k W sf cw bw.
Proof. intros E sf cw bw. unfold fits, sf_normalizer, sf_z. rewrite E. reflexivity. Qed.
Lemma squash_ext ln ln' k W l : ln (qw W / (2 * qw k))%Q = ln' (qw W / (2 * qw k))%Q -> forall first sf cur, squash ln k W first sf cur l = squash ln' k W first sf cur l.
Proof.
  intros E. induction l as [|b l IH]; intros first sf cur; cbn [squash]; [reflexivity|].
  rewrite (fits_ext ln ln' k W E). cbv zeta. rewrite !IH. reflexivity.
Qed.
Lemma quantile_ext ln ln' s r : ln (qw (total_weight s) / (2 * qw (t_k s)))%Q = ln' (qw (total_weight s) / (2 * qw (t_k s)))%Q ->
  quantile ln s r = quantile ln' s r.
Proof.
  intro E. assert (C : compress ln s = compress ln' s).
  { unfold compress, merge. destruct (t_buf s) as [|v b] eqn:B; [reflexivity|]. rewrite <- B. cbv zeta.
    destruct (if t_rev s then rev (ssort (singles (t_buf s) ++ t_cs s)) else ssort (singles (t_buf s) ++ t_cs s)) as [|c l]; [reflexivity|].
    rewrite (squash_ext ln ln' (t_k s) _ l E). reflexivity. }
  unfold quantile. rewrite C. reflexivity.
Qed.
Lemma updates_twenty ln : updates ln new10 (one_to 20) = Some twenty.
Proof. vm_compute. reflexivity. Qed.

Theorem tdigest_quantile_monotone_refuted ln : (forall x, (x == 1)%Q -> ln x = 0%Q) ->
  exists s xs p1 p2 v1 v2, made ln 10 s xs /\ (0 <= p1 /\ p1 < p2 /\ p2 <= 1)%Q /\
    snd (quantile ln s p1) = Val v1 /\ snd (quantile ln s p2) = Val v2 /\ (v2 < v1)%Q.
Proof.
  intro H. exists twenty, (one_to 20).
  assert (E : forall r, quantile ln twenty r = quantile ln0 twenty r) by (intro r; apply quantile_ext; apply H; vm_compute; reflexivity).
  set (val := fun r => match snd (quantile ln0 twenty r) with Val v => v | _ => 0%Q end).
  exists (59 # 120)%Q, (61 # 120)%Q, (val (59 # 120)%Q), (val (61 # 120)%Q). split.
  - refine (made_updates ln 10 (one_to 20) new10 [] _ _ (updates_twenty ln)). eapply made_new; [apply N.le_refl|reflexivity].
  - rewrite !E. split; [split; [vm_compute; discriminate|split; [vm_compute; reflexivity|vm_compute; discriminate]]|].
    split; [vm_compute; reflexivity|]. split; [vm_compute; reflexivity|]. vm_compute. reflexivity.
Qed.

(** ** Bytes

    [ieee] is the value of a float64's bits (IEEE 754 binary64), [ieee_bits] the bits of a float64 that is an integer. *)
Definition ieee (n : N) : ext :=
  let neg := N.testbit n 63 in
  let e := ((n / 2 ^ 52) mod 2048)%N in
  let m := (n mod 2 ^ 52)%N in
  if (e =? 2047)%N then if (m =? 0)%N then (if neg then NInf else PInf) else NaN
  else
    let mant := Z.of_N (if (e =? 0)%N then m else 2 ^ 52 + m) in
    let sgn := if neg then (- mant)%Z else mant in
    let ex := (Z.of_N (if (e =? 0)%N then 1 else e) - 1075)%Z in
    Fin (if (0 <=? ex)%Z then inject_Z (sgn * 2 ^ ex) else Qred (sgn # Z.to_pos (2 ^ (- ex)))).
Definition ieee_bits (x : ext) : N :=
  match x with
  | PInf => (2047 * 2 ^ 52)%N
  | NInf => (2 ^ 63 + 2047 * 2 ^ 52)%N
  | NaN => (2047 * 2 ^ 52 + 1)%N
  | Fin v =>
      let z := Qnum v in
      if (z =? 0)%Z then 0%N
      else let a := Z.abs_N z in
           let e := N.log2 a in
           ((if (z <? 0)%Z then 2 ^ 63 else 0) + (1023 + e) * 2 ^ 52 + (a * 2 ^ (52 - e) - 2 ^ 52))%N
  end.
Definition no_u (x : ext) : N := 0%N.
Definition dec := decode ieee ieee no_u no_u.
Definition dec_stream := decode_stream ieee (fun _ => Err).
Definition enc := encode ln0 ieee_bits.

Example ieee_ten : ieee 4621819117588971520 = Fin (q 10) /\ ieee_bits (Fin (q 10)) = 4621819117588971520%N /\ ieee 0 = Fin 0%Q.
Proof. repeat split; vm_compute; reflexivity. Qed.

Lemma float64_int z : (Z.abs_N z < 2 ^ 6)%N -> float64 ieee_bits ieee (Fin (q z)).
Proof.
  intro B.
  assert (H : forallb (fun z => (ieee_bits (Fin (q z)) <? 2 ^ 64)%N &&
    match ieee (ieee_bits (Fin (q z))) with Fin v => (Qnum v =? z)%Z && (Qden v =? 1)%positive | _ => false end)
    (map (fun i => (Z.of_nat i - 64)%Z) (seq 0 128)) = true) by (vm_compute; reflexivity).
  rewrite forallb_forall in H. specialize (H z). destruct (ieee (ieee_bits (Fin (q z)))) as [v| | |] eqn:E;
    (assert (I : In z (map (fun i => (Z.of_nat i - 64)%Z) (seq 0 128)));
     [apply in_map_iff; exists (Z.to_nat (z + 64)); split; [lia|apply in_seq; lia]|specialize (H I); apply andb_prop in H; destruct H as [H1 H2]]);
    try discriminate H2.
  apply andb_prop in H2. destruct H2 as [H2 H3]. split; [apply N.ltb_lt; exact H1|]. rewrite E.
  apply Z.eqb_eq in H2. apply Pos.eqb_eq in H3. destruct v as [n d]. cbn [Qnum Qden] in *. subst. reflexivity.
Qed.

(** A sketch with both centroids and buffered values, which the round-trip theorem applies to. *)
Definition mixed : td :=
  match compress ln0 (up 10 (map q [4; 2; 9; 30; -7])%Z) with
  | Some s => match updates ln0 s (map q [8; -1])%Z with Some s' => s' | None => new10 end
  | None => new10
  end.
Example mixed_storable : storable ieee_bits ieee mixed /\ coherent mixed /\ length (t_cs mixed) = 5 /\ length (t_buf mixed) = 2.
Proof.
  assert (F : forall z, (Z.abs_N z < 2 ^ 6)%N -> float64 ieee_bits ieee (Fin (q z))) by exact float64_int.
  set (m := mixed). vm_compute in m. subst m. split; [|split; [|split; reflexivity]].
  - split; cbn [t_k t_min t_max t_cs t_buf t_w length].
    + split; [discriminate|reflexivity].
    + right. apply (F (-7)%Z). reflexivity.
    + right. apply (F 30%Z). reflexivity.
    + intros c H. repeat (destruct H as [<-|H]; [cbn [c_mean c_wt]; split; [|reflexivity]; first [apply (F (-7)%Z); reflexivity|apply (F 2%Z); reflexivity|apply (F 4%Z); reflexivity|apply (F 9%Z); reflexivity|apply (F 30%Z); reflexivity]|]).
      destruct H.
    + intros v [<-|[<-|[]]]; [apply (F 8%Z)|apply (F (-1)%Z)]; reflexivity.
    + reflexivity.
    + reflexivity.
    + reflexivity.
  - split; cbn [t_min t_max t_cs t_w].
    + intros c H. repeat (destruct H as [<-|H]; [reflexivity|]). destruct H.
    + reflexivity.
    + right. eexists. reflexivity.
    + right. discriminate.
Qed.
Example mixed_bytes : exists data, enc mixed true = Ok (mixed, data) /\ length data = 32 + 16 * 5 + 8 * 2 /\ dec data = Ok mixed /\
  dec_stream data = Ok mixed.
Proof. eexists. split; [vm_compute; reflexivity|]. repeat split; vm_compute; reflexivity. Qed.

(** ** Sketches that other writers made

    The format allows a first or last centroid of any weight, with the smallest and largest value beside it. *)
Definition b8 (z : Z) : list N := le 8 (ieee_bits (Fin (q z))).
Definition foreign (mn mx : list N) (cs : list (Z * N)) : list N :=
  [2; 1; 20; 10; 0; 0; 0; 0]%N ++ le 4 (N.of_nat (length cs)) ++ le 4 0 ++ mn ++ mx ++ flat_map (fun c => b8 (fst c) ++ le 8 (snd c)) cs.

(** Quantile of a sketch whose last centroid stands for 4 values can exceed the largest value. *)
Theorem tdigest_foreign_quantile_in_range_refuted :
  exists data s mx r v, dec data = Ok s /\ max_value s = Val (Fin mx) /\ (0 <= r /\ r <= 1)%Q /\ snd (quantile ln0 s r) = Val v /\ (mx < v)%Q.
Proof.
  exists (foreign (b8 1) (b8 12) [(1, 1%N); (10, 4%N)]%Z), (mkTd (Fin (q 1)) (Fin (q 12)) [mkC (q 1) 1; mkC (q 10) 4] [] 5 10 false).
  exists (q 12), (7 # 10)%Q. eexists. split; [vm_compute; reflexivity|]. split; [reflexivity|].
  split; [split; vm_compute; discriminate|]. split; [vm_compute; reflexivity|]. vm_compute. reflexivity.
Qed.
(** If it stands for 2 values, the answer can be infinite or NaN. *)
Theorem tdigest_foreign_quantile_finite_refuted :
  exists data s r, dec data = Ok s /\ (0 <= r /\ r <= 1)%Q /\ snd (quantile ln0 s r) = NotFinite.
Proof.
  exists (foreign (b8 1) (b8 12) [(1, 1%N); (10, 2%N)]%Z), (mkTd (Fin (q 1)) (Fin (q 12)) [mkC (q 1) 1; mkC (q 10) 2] [] 3 10 false).
  exists (2 # 3)%Q. split; [vm_compute; reflexivity|]. split; [split; vm_compute; discriminate|]. vm_compute. reflexivity.
Qed.
(** Merging such a sketch loses its smallest value. *)
Theorem tdigest_foreign_merge_min_refuted :
  exists data o s m1 m2, dec data = Ok o /\ min_value o = Val (Fin m1) /\ merge_in ln0 (up 10 [q 20]) o = Val s /\
    min_value s = Val (Fin m2) /\ (m1 < m2)%Q.
Proof.
  exists (foreign (b8 1) (b8 30) [(10, 4%N); (30, 1%N)]%Z), (mkTd (Fin (q 1)) (Fin (q 30)) [mkC (q 10) 4; mkC (q 30) 1] [] 5 10 false).
  eexists _, (q 1), (q 10). split; [vm_compute; reflexivity|]. split; [reflexivity|]. split; [vm_compute; reflexivity|].
  split; [reflexivity|]. vm_compute. reflexivity.
Qed.
(** The stream decoder accepts a largest value that is NaN. *)
Theorem tdigest_stream_checks_max_refuted :
  exists data s, dec_stream data = Ok s /\ max_value s = Val NaN /\ dec data = Err.
Proof.
  exists (foreign (b8 1) (le 8 (ieee_bits NaN)) [(1, 1%N); (10, 1%N)]%Z), (mkTd (Fin (q 1)) NaN [mkC (q 1) 1; mkC (q 10) 1] [] 2 10 false).
  repeat split; vm_compute; reflexivity.
Qed.
(** DecodeDouble panics on 28 bytes. *)
Theorem tdigest_decode_panics_refuted : exists data, Forall (fun b => (b < 256)%N) data /\ dec data = Panic.
Proof. refine (tdigest_decode_total_refuted ieee ieee no_u no_u _). exists 0%N. split; [reflexivity|]. vm_compute. discriminate. Qed.

Print Assumptions tdigest_never_fails.
Print Assumptions tdigest_accounts.
Print Assumptions tdigest_min_max_exact.
Print Assumptions tdigest_rank_range.
Print Assumptions tdigest_rank_monotone.
Print Assumptions tdigest_quantile_range.
Print Assumptions tdigest_queries_stable.
Print Assumptions tdigest_cdf_monotone.
Print Assumptions tdigest_pmf_distribution.
Print Assumptions tdigest_small_rank_exact.
Print Assumptions tdigest_small_quantile_exact.
Print Assumptions tdigest_made_roundtrip.
Print Assumptions tdigest_decode_total.
Print Assumptions tdigest_decoders_agree.
Print Assumptions tdigest_quantile_monotone_refuted.
