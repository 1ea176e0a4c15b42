(** * Serialization of t-digests: round trips, sizes, and what the decoders do with arbitrary bytes. *)
From Verif Require Import Base Arr Bytes BitPackModel TdigestModel TdigestProofs TdigestSem TdigestRank TdigestProps TdigestSerdeModel.
From Coq Require Import QArith Permutation.
Local Close Scope Q_scope.
Local Open Scope nat_scope.

Lemma slice_some off k (buf : list N) : off + k <= length buf -> exists bs, slice off k buf = Some bs.
Proof. intro H. unfold slice. destruct (Nat.leb_spec (off + k) (length buf)); [eauto|lia]. Qed.
Lemma get_le_some k off buf : off + k <= length buf -> exists v, get_le k off buf = Some v.
Proof. intro H. unfold get_le. destruct (slice_some off k buf H) as (bs & ->). eauto. Qed.
Lemma get_le_some_inv k off buf v : get_le k off buf = Some v -> off + k <= length buf.
Proof. unfold get_le, slice. destruct (Nat.leb_spec (off + k) (length buf)); [auto|discriminate]. Qed.
Lemma get_le_1 i buf b : nth_error buf i = Some b -> get_le 1 i buf = Some b.
Proof.
  intro H. destruct (nth_error_split _ _ H) as (l1 & l2 & -> & <-).
  unfold get_le. change (b :: l2) with ([b] ++ l2). change 1 with (length [b]). rewrite slice_app_at. cbn [unle]. f_equal. lia.
Qed.
Lemma get_le_at k v a b : (v < 256 ^ N.of_nat k)%N -> get_le k (length a) (a ++ le k v ++ b) = Some v.
Proof. intro H. rewrite get_le_app_at. f_equal. apply N.mod_small. exact H. Qed.

Section Serde.
Variable ln : Q -> Q.
Variable bits : ext -> N.
Variable of_bits of_bits32 : N -> ext.
Variable to_u16 to_u64 : ext -> N.

(** [e] is a float64: its bits are a uint64 and give [e] back. *)
Definition float64 (e : ext) : Prop := (bits e < 2 ^ 64)%N /\ of_bits (bits e) = e.

(** Everything stored in the sketch is a float64, uint16 or uint64, and its slices have fewer than 2^32 elements. *)
Record storable (s : td) : Prop := {
  so_k : (10 <= t_k s < 2 ^ 16)%N;
  so_min : is_empty s = true \/ float64 (t_min s);
  so_max : is_empty s = true \/ float64 (t_max s);
  so_cs : forall c, In c (t_cs s) -> float64 (Fin (c_mean c)) /\ (c_wt c < 2 ^ 64)%N;
  so_buf : forall v, In v (t_buf s) -> float64 (Fin v);
  so_ncs : (N.of_nat (length (t_cs s)) < 2 ^ 32)%N;
  so_nbuf : (N.of_nat (length (t_buf s)) < 2 ^ 32)%N;
  so_w : (t_w s < 2 ^ 64)%N }.

(** A reader that reads what is there. *)
Definition reads (data : list N) (R : nat -> nat -> res N) : Prop := forall k off v, get_le k off data = Some v -> R k off = Ok v.
Lemma reads_rd data : reads data (rd data).
Proof. intros k off v H. unfold rd. rewrite H. reflexivity. Qed.
Lemma reads_rds data : reads data (rds data).
Proof. intros k off v H. unfold rds. rewrite H. reflexivity. Qed.

Fixpoint wsum (cs : list cent) : N := match cs with [] => 0%N | c :: cs' => (c_wt c + wsum cs')%N end.

Lemma enc_cents_length cs : length (enc_cents bits cs) = 16 * length cs.
Proof. induction cs as [|c cs IH]; [reflexivity|]. unfold enc_cents in *. cbn [flat_map length]. rewrite !app_length, !le_length, IH. lia. Qed.
Lemma enc_vals_length vs : length (enc_vals bits vs) = 8 * length vs.
Proof. induction vs as [|c cs IH]; [reflexivity|]. unfold enc_vals in *. cbn [flat_map length]. rewrite !app_length, !le_length, IH. lia. Qed.

Lemma read_cents_ok cs : forall pre post tot R, reads (pre ++ enc_cents bits cs ++ post) R ->
  (forall c, In c cs -> float64 (Fin (c_mean c)) /\ (c_wt c < 2 ^ 64)%N) -> (forall c, In c cs -> (0 < c_wt c)%N) ->
  (tot + wsum cs < 2 ^ 64)%N ->
  read_cents of_bits R (length cs) (length pre) tot = Ok (cs, (tot + wsum cs)%N).
Proof.
  induction cs as [|c cs IH]; intros pre post tot R HR F P W; cbn [length read_cents wsum].
  - rewrite N.add_0_r. reflexivity.
  - destruct (F c (or_introl eq_refl)) as [[B O] WB]. pose proof (P c (or_introl eq_refl)) as P0.
    cbn [wsum] in W. unfold enc_cents in HR. cbn [flat_map] in HR. rewrite <- !app_assoc in HR. fold (enc_cents bits cs) in HR.
    rewrite (HR 8 (length pre) (bits (Fin (c_mean c)))) by (apply get_le_at; exact B).
    cbn [bindr]. rewrite O. cbn [finite bindr].
    rewrite (HR 8 (length pre + 8) (c_wt c)).
    2: { replace (length pre + 8) with (length (pre ++ le 8 (bits (Fin (c_mean c))))) by (rewrite app_length, le_length; reflexivity).
         rewrite (app_assoc pre). apply get_le_at. exact WB. }
    cbn [bindr]. destruct (N.eqb_spec (c_wt c) 0) as [Z|_]; [lia|].
    set (pre' := pre ++ le 8 (bits (Fin (c_mean c))) ++ le 8 (c_wt c)).
    replace (length pre + 16) with (length pre') by (unfold pre'; rewrite !app_length, !le_length; lia).
    assert (A : add64 tot (c_wt c) = (tot + c_wt c)%N) by (unfold add64; apply N.mod_small; lia). rewrite A.
    rewrite (IH pre' post (tot + c_wt c)%N R).
    + cbn [bindr]. destruct c as [m w]. cbn [c_mean c_wt]. rewrite N.add_assoc. reflexivity.
    + unfold pre'. rewrite <- !app_assoc. exact HR.
    + intros c' H. apply F. right. exact H.
    + intros c' H. apply P. right. exact H.
    + lia.
Qed.

Lemma read_vals_ok vs : forall pre post R, reads (pre ++ enc_vals bits vs ++ post) R -> (forall v, In v vs -> float64 (Fin v)) ->
  read_vals of_bits R (length vs) (length pre) = Ok vs.
Proof.
  induction vs as [|v vs IH]; intros pre post R HR F; cbn [length read_vals]; [reflexivity|].
  destruct (F v (or_introl eq_refl)) as [B O].
  unfold enc_vals in HR. cbn [flat_map] in HR. rewrite <- !app_assoc in HR. fold (enc_vals bits vs) in HR.
  rewrite (HR 8 (length pre) (bits (Fin v))) by (apply get_le_at; exact B).
  cbn [bindr]. rewrite O. cbn [finite bindr].
  set (pre' := pre ++ le 8 (bits (Fin v))).
  replace (length pre + 8) with (length pre') by (unfold pre'; rewrite !app_length, !le_length; lia).
  rewrite (IH pre' post R).
  - reflexivity.
  - unfold pre'. rewrite <- !app_assoc. exact HR.
  - intros v' H. apply F. right. exact H.
Qed.

Lemma flags_bits s : N.testbit (flags_byte s) 0 = is_empty s /\ N.testbit (flags_byte s) 1 = is_single s /\
  N.testbit (flags_byte s) 2 = t_rev s.
Proof. unfold flags_byte. destruct (is_empty s), (is_single s), (t_rev s); repeat split; reflexivity. Qed.

Lemma empty_not_single s : t_w s = wsum (t_cs s) -> is_empty s = true -> is_single s = false.
Proof.
  unfold is_empty, is_single, total_weight. intros W. destruct (t_cs s); [|discriminate]. destruct (t_buf s); [|discriminate].
  intros _. rewrite W. reflexivity.
Qed.

Lemma weights_sum_pos cs : (forall c, In c cs -> (0 < c_wt c)%N) -> (N.of_nat (length cs) <= wsum cs)%N.
Proof.
  induction cs as [|c cs IH]; intro P; cbn [length wsum]; [lia|]. pose proof (P c (or_introl eq_refl)).
  assert (N.of_nat (length cs) <= wsum cs)%N by (apply IH; intros c' H'; apply P; right; exact H'). lia.
Qed.

(** What the sketch must satisfy besides: the weights are positive and add up, and the smallest and largest value are finite. *)
Record coherent (s : td) : Prop := {
  co_pos : forall c, In c (t_cs s) -> (0 < c_wt c)%N;
  co_w : t_w s = wsum (t_cs s);
  co_min : is_empty s = true \/ exists m, t_min s = Fin m;
  co_max : is_empty s = true \/ t_max s <> NaN }.

Section Decode.
Variable s : td.
Variable tail : list N.
Hypothesis St : storable s.
Hypothesis Co : coherent s.
Let data := body bits s ++ tail.

Lemma body_length : length (body bits s) =
  if is_empty s then 8 else if is_single s then 16 else 32 + 16 * length (t_cs s) + 8 * length (t_buf s).
Proof.
  unfold body. rewrite !app_length, le_length. cbn [length].
  destruct (is_empty s); [reflexivity|]. destruct (is_single s); [rewrite le_length; reflexivity|].
  rewrite !app_length, !le_length, enc_cents_length, enc_vals_length. lia.
Qed.

Lemma header R : reads data R -> R 1 0 = Ok (preamble_longs s) /\ R 1 1 = Ok 1%N /\ R 1 2 = Ok 20%N /\ R 2 3 = Ok (t_k s) /\
  R 1 5 = Ok (flags_byte s) /\ R 2 6 = Ok 0%N.
Proof.
  intro HR. split; [|split; [|split; [|split; [|split]]]]; apply HR.
  - apply get_le_1. reflexivity.
  - apply get_le_1. reflexivity.
  - apply get_le_1. reflexivity.
  - unfold data, body. rewrite <- !app_assoc. apply (get_le_at 2 (t_k s) [preamble_longs s; 1%N; 20%N]). exact (proj2 (so_k _ St)).
  - apply get_le_1. reflexivity.
  - unfold data, body. rewrite <- !app_assoc.
    rewrite (app_assoc [preamble_longs s; 1%N; 20%N]).
    change ([flags_byte s; 0%N; 0%N] ++ ?r) with ([flags_byte s] ++ le 2 0 ++ r).
    rewrite (app_assoc _ [flags_byte s]). apply (get_le_at 2 0 (([preamble_longs s; 1%N; 20%N] ++ le 2 (t_k s)) ++ [flags_byte s])). reflexivity.
Qed.

Lemma single_value R : is_empty s = false -> is_single s = true -> reads data R -> R 8 8 = Ok (bits (t_min s)).
Proof.
  intros E Sg HR. apply HR. unfold data, body. rewrite E, Sg. rewrite <- !app_assoc.
  rewrite (app_assoc [_; _; _]), (app_assoc _ [_; _; _]).
  apply (get_le_at 8 (bits (t_min s)) (([preamble_longs s; 1%N; 20%N] ++ le 2 (t_k s)) ++ [flags_byte s; 0%N; 0%N])).
  destruct (so_min _ St) as [X|[B _]]; [congruence|exact B].
Qed.

Lemma full R : is_empty s = false -> is_single s = false -> reads data R ->
  R 4 8 = Ok (N.of_nat (length (t_cs s))) /\ R 4 12 = Ok (N.of_nat (length (t_buf s))) /\
  R 8 16 = Ok (bits (t_min s)) /\ R 8 24 = Ok (bits (t_max s)) /\
  read_cents of_bits R (length (t_cs s)) 32 0 = Ok (t_cs s, t_w s) /\
  read_vals of_bits R (length (t_buf s)) (32 + 16 * length (t_cs s)) = Ok (t_buf s).
Proof.
  intros E Sg HR.
  set (h := ([preamble_longs s; 1%N; 20%N] ++ le 2 (t_k s)) ++ [flags_byte s; 0%N; 0%N]).
  set (lc := le 4 (N.of_nat (length (t_cs s)))). set (lb := le 4 (N.of_nat (length (t_buf s)))).
  set (mn := le 8 (bits (t_min s))). set (mx := le 8 (bits (t_max s))).
  assert (D : data = h ++ lc ++ lb ++ mn ++ mx ++ enc_cents bits (t_cs s) ++ enc_vals bits (t_buf s) ++ tail).
  { unfold data, body, h. rewrite E, Sg. rewrite <- !app_assoc. reflexivity. }
  rewrite D in HR.
  assert (L8 : length h = 8) by reflexivity.
  destruct (so_min _ St) as [X|[Bn On]]; [congruence|]. destruct (so_max _ St) as [X|[Bx Ox]]; [congruence|].
  split; [|split; [|split; [|split; [|split]]]].
  - apply HR. exact (get_le_at 4 _ h _ (so_ncs _ St)).
  - apply HR. rewrite (app_assoc h). replace 12 with (length (h ++ lc)) by reflexivity. exact (get_le_at 4 _ (h ++ lc) _ (so_nbuf _ St)).
  - apply HR. rewrite (app_assoc h), (app_assoc (h ++ lc)). replace 16 with (length ((h ++ lc) ++ lb)) by reflexivity.
    exact (get_le_at 8 _ ((h ++ lc) ++ lb) _ Bn).
  - apply HR. rewrite (app_assoc h), (app_assoc (h ++ lc)), (app_assoc ((h ++ lc) ++ lb)).
    replace 24 with (length (((h ++ lc) ++ lb) ++ mn)) by reflexivity. exact (get_le_at 8 _ (((h ++ lc) ++ lb) ++ mn) _ Bx).
  - set (pre := (((h ++ lc) ++ lb) ++ mn) ++ mx).
    change 32 with (length pre). rewrite (co_w _ Co), <- (N.add_0_l (wsum (t_cs s))).
    apply (read_cents_ok _ pre (enc_vals bits (t_buf s) ++ tail)).
    + unfold pre. rewrite <- !app_assoc. exact HR.
    + exact (so_cs _ St).
    + exact (co_pos _ Co).
    + rewrite N.add_0_l, <- (co_w _ Co). exact (so_w _ St).
  - set (pre := ((((h ++ lc) ++ lb) ++ mn) ++ mx) ++ enc_cents bits (t_cs s)).
    replace (32 + 16 * length (t_cs s)) with (length pre).
    2: { unfold pre. rewrite app_length, enc_cents_length. reflexivity. }
    apply (read_vals_ok _ pre tail).
    + unfold pre. rewrite <- !app_assoc. exact HR.
    + exact (so_buf _ St).
Qed.

Lemma from_ok rv mn mx cs w buf : from_states rv (t_k s) mn mx cs w buf = Ok (mkTd mn mx cs buf w (t_k s) rv).
Proof. unfold from_states. pose proof (so_k _ St). destruct (N.ltb_spec (t_k s) 10); [lia|reflexivity]. Qed.
Lemma new_ok : td_new (t_k s) = Some (mkTd PInf NInf [] [] 0 (t_k s) false).
Proof. unfold td_new. pose proof (so_k _ St). destruct (N.ltb_spec (t_k s) 10); [lia|reflexivity]. Qed.

Lemma decode_body : decode of_bits of_bits32 to_u16 to_u64 data = Ok (reload s).
Proof.
  unfold decode. destruct (header (rd data) (reads_rd data)) as (H0 & H1 & H2 & H3 & H5 & _).
  destruct (flags_bits s) as (F0 & F1 & F2).
  assert (L : length data = length (body bits s) + length tail) by (unfold data; apply app_length).
  assert (L' := body_length).
  destruct (Nat.ltb_spec (length data) 8) as [X|_].
  { exfalso. rewrite L, L' in X. destruct (is_empty s), (is_single s); lia. }
  rewrite H0, H1, H2. cbn [bindr]. change (negb (20 =? 20)%N) with false. cbn iota. change (negb (1 =? 1)%N) with false. cbn iota.
  rewrite H3, H5. cbn [bindr]. rewrite F0, F1, F2. cbv zeta.
  fold (preamble_longs s). rewrite N.eqb_refl. cbn [negb]. cbn iota.
  unfold reload. fold (is_single s). destruct (is_empty s) eqn:E.
  - rewrite new_ok. reflexivity.
  - destruct (is_single s) eqn:Sg.
    + destruct (Nat.ltb_spec (length data) 16) as [X|_]; [exfalso; lia|].
      rewrite (single_value _ E Sg (reads_rd data)). cbn [bindr].
      destruct (so_min _ St) as [X|[_ O]]; [congruence|]. rewrite O.
      destruct (co_min _ Co) as [X|(m & M)]; [congruence|]. rewrite M. cbn [finite bindr]. apply from_ok.
    + destruct (Nat.ltb_spec (length data) 16) as [X|_]; [exfalso; lia|].
      destruct (full _ E Sg (reads_rd data)) as (P1 & P2 & P3 & P4 & P5 & P6). rewrite P1, P2. cbn [bindr].
      destruct (N.ltb_spec (N.of_nat (length data)) (16 + 16 + N.of_nat (length (t_cs s)) * 16 + N.of_nat (length (t_buf s)) * 8)) as [X|_].
      { exfalso. lia. }
      rewrite P3, P4. cbn [bindr]. rewrite !Nat2N.id, P5, P6.
      destruct (so_min _ St) as [X|[_ On]]; [congruence|]. rewrite On.
      destruct (so_max _ St) as [X|[_ Ox]]; [congruence|]. rewrite Ox.
      destruct (co_min _ Co) as [X|(m & M)]; [congruence|]. destruct (co_max _ Co) as [X|NX]; [congruence|].
      assert (NN : not_nan (t_max s) = Ok (t_max s)) by (destruct (t_max s); [reflexivity|reflexivity|reflexivity|congruence]).
      rewrite M. cbn [not_nan bindr]. rewrite NN. cbn [bindr]. rewrite from_ok, <- M. destruct s; reflexivity.
Qed.
End Decode.

(** ** The properties *)

(** The two encoders write the same bytes and leave the sketch the same (for withBuffer = false: compressed); the bytes are as many
    as SerializedSizeBytes announces; both decoders give the sketch back ([reload], TdigestProps.v), and DecodeDouble ignores what
    follows. *)
Theorem tdigest_roundtrip compat s wb s1 : settle ln s wb = Some s1 -> storable s1 -> coherent s1 ->
  (wb = false -> t_buf s1 = []) ->
  exists data,
    encode ln bits s wb = Ok (s1, data) /\ encode_stream ln bits s wb = Ok (s1, data) /\
    serialized_size ln s wb = Some (s1, length data) /\
    (forall tail, decode of_bits of_bits32 to_u16 to_u64 (data ++ tail) = Ok (reload s1)) /\
    (forall tail, decode_stream of_bits compat (data ++ tail) = Ok (reload s1)).
Proof.
  intros E St Co Z.
  assert (E2 : settle ln s1 wb = Some s1).
  { destruct wb; [reflexivity|]. cbn [settle]. unfold compress. rewrite (Z eq_refl). reflexivity. }
  assert (Sz : serialized_size ln s1 wb = Some (s1, length (body bits s1))).
  { unfold serialized_size. rewrite E2. do 2 f_equal. rewrite body_length.
    unfold preamble_longs. destruct (is_empty s1); [reflexivity|]. destruct (is_single s1); [reflexivity|].
    change (N.to_nat ((if false || false then 1 else 2) * 8)) with 16.
    destruct wb; [lia|]. rewrite (Z eq_refl). cbn [length]. lia. }
  exists (body bits s1). split; [|split; [|split; [|split]]].
  - unfold encode. rewrite E, Sz. cbv zeta. rewrite Nat.leb_refl, Nat.sub_diag, app_nil_r. reflexivity.
  - unfold encode_stream. rewrite E. reflexivity.
  - transitivity (serialized_size ln s1 wb); [|exact Sz]. unfold serialized_size. rewrite E, E2. reflexivity.
  - intro tail. apply decode_body; assumption.
  - intro tail. set (data := body bits s1 ++ tail).
    assert (HR := reads_rds data).
    destruct (header s1 tail St _ HR) as (H0 & H1 & H2 & H3 & H5 & H6).
    destruct (flags_bits s1) as (F0 & F1 & F2).
    unfold decode_stream. rewrite H0, H1, H2. cbn [bindr]. change (negb (20 =? 20)%N) with false. cbn iota.
    change (negb (1 =? 1)%N) with false. cbn iota. rewrite H3, H5. cbn [bindr]. rewrite F0, F1, F2. cbv zeta.
    fold (preamble_longs s1). rewrite N.eqb_refl. cbn [negb]. cbn iota. rewrite H6. cbn [bindr].
    unfold reload. fold (is_single s1). destruct (is_empty s1) eqn:Em.
    + rewrite (new_ok s1 St). reflexivity.
    + destruct (is_single s1) eqn:Sg.
      * rewrite (single_value s1 tail St _ Em Sg HR). cbn [bindr].
        destruct (so_min _ St) as [X|[_ O]]; [congruence|]. rewrite O.
        destruct (co_min _ Co) as [X|(m & M)]; [congruence|]. rewrite M. cbn [finite bindr]. apply (from_ok s1 St).
      * destruct (full s1 tail St Co _ Em Sg HR) as (P1 & P2 & P3 & P4 & P5 & P6). rewrite P1, P2. cbn [bindr].
        rewrite P3, P4. cbn [bindr]. rewrite !Nat2N.id, P5, P6.
        destruct (so_min _ St) as [X|[_ On]]; [congruence|]. rewrite On.
        destruct (so_max _ St) as [X|[_ Ox]]; [congruence|]. rewrite Ox.
        destruct (co_min _ Co) as [X|(m & M)]; [congruence|].
        rewrite M. cbn [not_nan bindr]. rewrite (from_ok s1 St), <- M. destruct s1; reflexivity.
Qed.

Lemma TInv_coherent s xs : TInv s xs -> coherent s.
Proof.
  intros H. pose proof (TInv_empty _ _ H) as TE.
  destruct H as [K (ys & P & [F _ _ _] & W) _ Mn Mx _].
  destruct F as (groups & F2 & Eys).
  assert (A : (forall c, In c (t_cs s) -> (0 < c_wt c)%N) /\ wsum (t_cs s) = N.of_nat (length (concat groups))).
  { clear - F2. induction F2 as [|c g cs gs ST F2 [IH1 IH2]]; [split; [intros c []|reflexivity]|].
    destruct ST as (NE & WT & _). split.
    - intros c' [<-|I]; [|auto]. rewrite WT. destruct g; [congruence|cbn [length]; lia].
    - cbn [wsum concat]. rewrite IH2, WT, app_length. lia. }
  destruct A as [A1 A2]. split.
  - exact A1.
  - rewrite W, A2. f_equal. apply Permutation_length. rewrite Eys. reflexivity.
  - destruct (is_empty s) eqn:E; [left; reflexivity|right]. destruct (t_min s); cbn [min_ok] in Mn; [eauto| |contradiction|contradiction].
    apply TE in Mn. congruence.
  - destruct (is_empty s) eqn:E; [left; reflexivity|right]. destruct (t_max s); cbn [max_ok] in Mx; [discriminate|discriminate|discriminate|contradiction].
Qed.

(** A sketch made by the API can be encoded, and if what it stores fits the field widths, decoding gives a sketch of the same values. *)
Theorem tdigest_made_roundtrip compat k0 s xs wb : made ln k0 s xs ->
  exists s1, settle ln s wb = Some s1 /\ made ln k0 s1 xs /\
    (storable s1 -> exists data s2,
      encode ln bits s wb = Ok (s1, data) /\ encode_stream ln bits s wb = Ok (s1, data) /\
      serialized_size ln s wb = Some (s1, length data) /\
      (forall tail, decode of_bits of_bits32 to_u16 to_u64 (data ++ tail) = Ok s2) /\
      (forall tail, decode_stream of_bits compat (data ++ tail) = Ok s2) /\
      made ln k0 s2 xs /\ t_k s2 = t_k s1 /\ total_weight s2 = total_weight s1 /\
      (2 <= length xs -> s2 = s1)).
Proof.
  intro M. destruct (made_inv _ _ _ _ M) as [H _].
  assert (S1 : exists s1, settle ln s wb = Some s1 /\ made ln k0 s1 xs /\ (wb = false -> t_buf s1 = [])).
  { destruct wb; cbn [settle].
    - exists s. split; [reflexivity|]. split; [exact M|discriminate].
    - destruct (compress_ok ln s xs H) as (s1 & C & T & B & K). exists s1. split; [exact C|]. split; [|intros _; exact B].
      eapply made_compress; [exact M|exact C]. }
  destruct S1 as (s1 & E & M1 & Z). exists s1. split; [exact E|]. split; [exact M1|]. intro St.
  destruct (made_inv _ _ _ _ M1) as [H1 _].
  destruct (tdigest_roundtrip compat s wb s1 E St (TInv_coherent _ _ H1) Z) as (data & P1 & P2 & P3 & P4 & P5).
  assert (M2 : made ln k0 (reload s1) xs) by (apply made_reload; exact M1). destruct (made_inv _ _ _ _ M2) as [H2 _].
  exists data, (reload s1). split; [exact P1|]. split; [exact P2|]. split; [exact P3|]. split; [exact P4|]. split; [exact P5|].
  split; [exact M2|]. split; [|split].
  - unfold reload. destruct (is_empty s1); [reflexivity|]. destruct (total_weight s1 =? 1)%N; reflexivity.
  - rewrite (TInv_total _ _ H1), (TInv_total _ _ H2). reflexivity.
  - intro L. unfold reload. destruct (is_empty s1) eqn:Em.
    + apply (TInv_empty _ _ H1) in Em. subst xs. cbn [length] in L. lia.
    + pose proof (TInv_total _ _ H1) as T. destruct (N.eqb_spec (total_weight s1) 1); [lia|reflexivity].
Qed.

End Serde.

(** ** Arbitrary bytes *)
Section Any.
Variable of_bits of_bits32 : N -> ext.
Variable to_u16 to_u64 : ext -> N.


Lemma rd_total data k off : off + k <= length data -> exists v, rd data k off = Ok v.
Proof. intro H. unfold rd. destruct (get_le_some k off data H) as (v & ->). exists v. reflexivity. Qed.
Lemma rd_be_total data k off : off + k <= length data -> exists v, rd_be data k off = Ok v.
Proof. intro H. unfold rd_be. destruct (slice_some off k data H) as (v & ->). eauto. Qed.
Lemma finite_total e : finite e <> Panic.
Proof. destruct e; discriminate. Qed.
Lemma not_nan_total e : not_nan e <> Panic.
Proof. destruct e; discriminate. Qed.
Lemma from_states_total rv k mn mx cs w buf : from_states rv k mn mx cs w buf <> Panic.
Proof. unfold from_states. destruct (k <? 10)%N; discriminate. Qed.

Lemma read_cents_total data n : forall off tot, off + 16 * n <= length data -> read_cents of_bits (rd data) n off tot <> Panic.
Proof.
  induction n as [|n IH]; intros off tot L; cbn [read_cents]; [discriminate|].
  destruct (rd_total data 8 off) as (m & ->); [lia|]. cbn [bindr].
  pose proof (finite_total (of_bits m)). destruct (finite (of_bits m)) as [q| |]; [|discriminate|congruence]. cbn [bindr].
  destruct (rd_total data 8 (off + 8)) as (w & ->); [lia|]. cbn [bindr]. destruct (w =? 0)%N; [discriminate|].
  specialize (IH (off + 16) (add64 tot w) ltac:(lia)).
  destruct (read_cents of_bits (rd data) n (off + 16) (add64 tot w)) as [[cs t]| |]; [discriminate|discriminate|congruence].
Qed.
Lemma read_vals_total data n : forall off, off + 8 * n <= length data -> read_vals of_bits (rd data) n off <> Panic.
Proof.
  induction n as [|n IH]; intros off L; cbn [read_vals]; [discriminate|].
  destruct (rd_total data 8 off) as (m & ->); [lia|]. cbn [bindr].
  pose proof (finite_total (of_bits m)). destruct (finite (of_bits m)) as [q| |]; [|discriminate|congruence]. cbn [bindr].
  specialize (IH (off + 8) ltac:(lia)). destruct (read_vals of_bits (rd data) n (off + 8)); [discriminate|discriminate|congruence].
Qed.
Lemma read_compat_total data width ofb n : forall off tot, off + 2 * width * n <= length data ->
  read_compat to_u64 data width ofb n off tot <> Panic.
Proof.
  induction n as [|n IH]; intros off tot L; cbn [read_compat]; [discriminate|].
  destruct (rd_be_total data width off) as (wb & ->); [lia|]. cbn [bindr]. cbv zeta.
  destruct (match ofb wb with Fin q => Qeq_bool q 0 | _ => false end); [discriminate|].
  destruct (rd_be_total data width (off + width)) as (mb & ->); [lia|]. cbn [bindr].
  pose proof (finite_total (ofb mb)). destruct (finite (ofb mb)) as [q| |]; [|discriminate|congruence]. cbn [bindr].
  specialize (IH (off + 2 * width) (add64 tot (to_u64 (ofb wb))) ltac:(nia)).
  destruct (read_compat to_u64 data width ofb n (off + 2 * width) (add64 tot (to_u64 (ofb wb)))) as [[cs t]| |];
    [discriminate|discriminate|congruence].
Qed.

Lemma compat_total data : ~ (nth_error data 0 = Some 2%N /\ 25 <= length data <= 26) ->
  decode_compat of_bits of_bits32 to_u16 to_u64 data <> Panic.
Proof.
  intro NP. unfold decode_compat. destruct (Nat.ltb_spec (length data) 1) as [_|L]; [discriminate|].
  assert (T : exists ty, nth_error data 0 = Some ty /\ rd data 1 0 = Ok ty).
  { destruct data as [|ty r]; [cbn [length] in L; lia|]. exists ty. split; [reflexivity|]. unfold rd. rewrite (get_le_1 0 _ ty); reflexivity. }
  destruct T as (ty & T0 & ->). cbn [bindr].
  destruct (N.eqb_spec ty 1) as [_|_].
  - destruct (Nat.ltb_spec (length data) (1 + 28)) as [_|L2]; [discriminate|].
    destruct (rd_be_total data 8 1) as (b & ->); [lia|]. cbn [bindr].
    pose proof (not_nan_total (of_bits b)). destruct (not_nan (of_bits b)) as [mn| |]; [|discriminate|congruence]. cbn [bindr].
    destruct (rd_be_total data 8 9) as (b2 & ->); [lia|]. cbn [bindr].
    pose proof (not_nan_total (of_bits b2)). destruct (not_nan (of_bits b2)) as [mx| |]; [|discriminate|congruence]. cbn [bindr].
    destruct (rd_be_total data 8 17) as (kb & ->); [lia|]. cbn [bindr].
    destruct (rd_be_total data 4 25) as (nc & ->); [lia|]. cbn [bindr].
    destruct (N.ltb_spec (N.of_nat (length data)) (29 + nc * 16)) as [_|L3]; [discriminate|].
    pose proof (read_compat_total data 8 of_bits (N.to_nat nc) 29 0 ltac:(lia)) as R.
    destruct (read_compat to_u64 data 8 of_bits (N.to_nat nc) 29 0) as [[cs t]| |]; [|discriminate|congruence]. cbn [bindr].
    apply from_states_total.
  - destruct (N.eqb_spec ty 2) as [->|_]; [|discriminate].
    destruct (Nat.ltb_spec (length data) (1 + 24)) as [_|L2]; [discriminate|].
    assert (L27 : 27 <= length data) by (destruct (Nat.le_gt_cases 27 (length data)) as [G|G]; [exact G|exfalso; apply NP; split; [exact T0|lia]]).
    destruct (rd_be_total data 8 1) as (b & ->); [lia|]. cbn [bindr].
    pose proof (not_nan_total (of_bits b)). destruct (not_nan (of_bits b)) as [mn| |]; [|discriminate|congruence]. cbn [bindr].
    destruct (rd_be_total data 8 9) as (b2 & ->); [lia|]. cbn [bindr].
    pose proof (not_nan_total (of_bits b2)). destruct (not_nan (of_bits b2)) as [mx| |]; [|discriminate|congruence]. cbn [bindr].
    destruct (rd_be_total data 4 17) as (kb & ->); [lia|]. cbn [bindr].
    destruct (rd_be_total data 2 25) as (nc & ->); [lia|]. cbn [bindr].
    destruct (N.ltb_spec (N.of_nat (length data)) (27 + nc * 8)) as [_|L3]; [discriminate|].
    pose proof (read_compat_total data 4 of_bits32 (N.to_nat nc) 27 0 ltac:(lia)) as R.
    destruct (read_compat to_u64 data 4 of_bits32 (N.to_nat nc) 27 0) as [[cs t]| |]; [|discriminate|congruence]. cbn [bindr].
    apply from_states_total.
Qed.

Lemma rds_inv data k off v : rds data k off = Ok v -> off + k <= length data /\ rd data k off = Ok v.
Proof.
  unfold rds, rd. destruct (get_le k off data) as [x|] eqn:E; [|discriminate]. intro H. split; [|exact H].
  eapply get_le_some_inv. exact E.
Qed.
Lemma rd_rds data k off v : rd data k off = Ok v -> rds data k off = Ok v.
Proof. unfold rds, rd. destruct (get_le k off data); [auto|discriminate]. Qed.

Lemma read_cents_mono R R' n : (forall k off v, R k off = Ok v -> R' k off = Ok v) -> forall off tot r,
  read_cents of_bits R n off tot = Ok r -> read_cents of_bits R' n off tot = Ok r.
Proof.
  intro M. induction n as [|n IH]; intros off tot r; cbn [read_cents]; [auto|].
  destruct (R 8 off) as [m| |] eqn:E1; try discriminate. rewrite (M _ _ _ E1). cbn [bindr].
  destruct (finite (of_bits m)) as [q| |]; try discriminate. cbn [bindr].
  destruct (R 8 (off + 8)) as [w| |] eqn:E2; try discriminate. rewrite (M _ _ _ E2). cbn [bindr].
  destruct (w =? 0)%N; [discriminate|].
  destruct (read_cents of_bits R n (off + 16) (add64 tot w)) as [[cs t]| |] eqn:E3; try discriminate. rewrite (IH _ _ _ E3). auto.
Qed.
Lemma read_vals_mono R R' n : (forall k off v, R k off = Ok v -> R' k off = Ok v) -> forall off r,
  read_vals of_bits R n off = Ok r -> read_vals of_bits R' n off = Ok r.
Proof.
  intro M. induction n as [|n IH]; intros off r; cbn [read_vals]; [auto|].
  destruct (R 8 off) as [m| |] eqn:E1; try discriminate. rewrite (M _ _ _ E1). cbn [bindr].
  destruct (finite (of_bits m)) as [q| |]; try discriminate. cbn [bindr].
  destruct (read_vals of_bits R n (off + 8)) as [vs| |] eqn:E3; try discriminate. rewrite (IH _ _ E3). auto.
Qed.
Lemma read_cents_span data n : forall off tot r, off <= length data -> read_cents of_bits (rds data) n off tot = Ok r ->
  off + 16 * n <= length data.
Proof.
  induction n as [|n IH]; intros off tot r L; cbn [read_cents]; [lia|].
  destruct (rds data 8 off) as [m| |]; try discriminate. cbn [bindr].
  destruct (finite (of_bits m)) as [q| |]; try discriminate. cbn [bindr].
  destruct (rds data 8 (off + 8)) as [w| |] eqn:E2; try discriminate. cbn [bindr].
  destruct (w =? 0)%N; [discriminate|].
  destruct (read_cents of_bits (rds data) n (off + 16) (add64 tot w)) as [r'| |] eqn:E3; try discriminate.
  intros _. apply rds_inv in E2. destruct E2 as [E2 _]. apply IH in E3; lia.
Qed.
Lemma read_vals_span data n : forall off r, off <= length data -> read_vals of_bits (rds data) n off = Ok r ->
  off + 8 * n <= length data.
Proof.
  induction n as [|n IH]; intros off r L; cbn [read_vals]; [lia|].
  destruct (rds data 8 off) as [m| |] eqn:E2; try discriminate. cbn [bindr].
  destruct (finite (of_bits m)) as [q| |]; try discriminate. cbn [bindr].
  destruct (read_vals of_bits (rds data) n (off + 8)) as [r'| |] eqn:E3; try discriminate.
  intros _. apply rds_inv in E2. destruct E2 as [E2 _]. apply IH in E3; lia.
Qed.

(** DecodeDouble refuses or accepts any bytes without a panic, except 28 or 29 bytes that begin 0, 0, 0, 2. *)
Theorem tdigest_decode_total data :
  ~ (firstn 4 data = [0; 0; 0; 2]%N /\ 28 <= length data <= 29) -> decode of_bits of_bits32 to_u16 to_u64 data <> Panic.
Proof.
  intro NP. unfold decode. destruct (Nat.ltb_spec (length data) 8) as [_|L]; [discriminate|].
  destruct data as [|b0 [|b1 [|b2 r]]]; try (cbn [length] in L; lia).
  set (data := b0 :: b1 :: b2 :: r) in *.
  assert (R0 : rd data 1 0 = Ok b0) by (unfold rd; rewrite (get_le_1 0 _ b0); reflexivity).
  assert (R1 : rd data 1 1 = Ok b1) by (unfold rd; rewrite (get_le_1 1 _ b1); reflexivity).
  assert (R2 : rd data 1 2 = Ok b2) by (unfold rd; rewrite (get_le_1 2 _ b2); reflexivity).
  rewrite R0, R1, R2. cbn [bindr]. clear R0 R1 R2.
  destruct (negb (b2 =? 20)%N) eqn:Ty.
  - destruct ((b0 =? 0) && (b1 =? 0) && (b2 =? 0))%N eqn:Z; [|discriminate].
    apply andb_prop in Z. destruct Z as [Z Z2]. apply andb_prop in Z. destruct Z as [Z0 Z1].
    apply N.eqb_eq in Z0, Z1, Z2. subst b0 b1 b2. change (skipn 3 data) with r. apply compat_total.
    intros [H0 HL]. apply NP. unfold data. destruct r as [|b3 r]; [discriminate|]. cbn [nth_error] in H0. injection H0 as ->.
    split; [reflexivity|]. cbn [length] in *. lia.
  - destruct (negb (b1 =? 1)%N); [discriminate|].
    destruct (rd_total data 2 3) as (k & ->); [lia|]. cbn [bindr].
    destruct (rd_total data 1 5) as (fl & ->); [lia|]. cbn [bindr]. cbv zeta.
    destruct (negb (b0 =? (if N.testbit fl 0 || N.testbit fl 1 then 1 else 2))%N); [discriminate|].
    destruct (N.testbit fl 0); [destruct (td_new k); discriminate|].
    destruct (N.testbit fl 1).
    + destruct (Nat.ltb_spec (length data) 16) as [_|L2]; [discriminate|].
      destruct (rd_total data 8 8) as (b & ->); [lia|]. cbn [bindr].
      pose proof (finite_total (of_bits b)). destruct (finite (of_bits b)); [|discriminate|congruence]. cbn [bindr]. apply from_states_total.
    + destruct (Nat.ltb_spec (length data) 16) as [_|L2]; [discriminate|].
      destruct (rd_total data 4 8) as (nc & ->); [lia|]. cbn [bindr].
      destruct (rd_total data 4 12) as (nb & ->); [lia|]. cbn [bindr].
      destruct (N.ltb_spec (N.of_nat (length data)) (16 + 16 + nc * 16 + nb * 8)) as [_|L3]; [discriminate|].
      destruct (rd_total data 8 16) as (mn & ->); [lia|]. cbn [bindr].
      pose proof (not_nan_total (of_bits mn)). destruct (not_nan (of_bits mn)); [|discriminate|congruence]. cbn [bindr].
      destruct (rd_total data 8 24) as (mx & ->); [lia|]. cbn [bindr].
      pose proof (not_nan_total (of_bits mx)). destruct (not_nan (of_bits mx)); [|discriminate|congruence]. cbn [bindr].
      pose proof (read_cents_total data (N.to_nat nc) 32 0 ltac:(lia)) as RC.
      destruct (read_cents of_bits (rd data) (N.to_nat nc) 32 0) as [[cs t]| |]; [|discriminate|congruence]. cbn [bindr].
      pose proof (read_vals_total data (N.to_nat nb) (32 + 16 * N.to_nat nc) ltac:(lia)) as RV.
      destruct (read_vals of_bits (rd data) (N.to_nat nb) (32 + 16 * N.to_nat nc)) as [vs| |]; [|discriminate|congruence]. cbn [bindr].
      apply from_states_total.
Qed.

(** On those bytes it does panic (when the two float64 values in them are not NaN). *)
Theorem tdigest_decode_total_refuted : (exists b, (b < 256)%N /\ of_bits (unle (repeat b 8)) <> NaN) ->
  exists data, Forall (fun b => (b < 256)%N) data /\ decode of_bits of_bits32 to_u16 to_u64 data = Panic.
Proof.
  intros (b & B & NN). exists ([0; 0; 0; 2]%N ++ repeat b 16 ++ repeat 0%N 8). split.
  - repeat constructor; lia.
  - cbn [repeat app]. set (x := of_bits (unle (repeat b 8))) in NN.
    unfold decode. cbn [length Nat.ltb Nat.leb].
    unfold rd at 1 2 3. rewrite (get_le_1 0 _ 0), (get_le_1 1 _ 0), (get_le_1 2 _ 0) by reflexivity. cbn [of_opt bindr N.eqb negb andb skipn].
    unfold decode_compat. cbn [length Nat.ltb Nat.leb]. unfold rd. rewrite (get_le_1 0 _ 2) by reflexivity. cbn [of_opt bindr].
    change (2 =? 1)%N with false. change (2 =? 2)%N with true. cbn iota.
    match goal with |- context [rd_be ?d 8 1] =>
      change (rd_be d 8 1) with (Ok (unle (repeat b 8))); change (rd_be d 8 9) with (Ok (unle (repeat b 8)));
      change (rd_be d 4 17) with (Ok (unle (repeat 0%N 4))); change (rd_be d 2 25) with (@Panic N) end.
    cbn [bindr]. fold x. destruct x; [reflexivity|reflexivity|reflexivity|congruence].
Qed.

(** The sketch DecodeDouble accepts from bytes of its own format (third byte 20) is the one the stream decoder gives, and the stream
    decoder accepts more only when the largest value is NaN. *)
Theorem tdigest_decoders_agree compat data s : nth_error data 2 = Some 20%N ->
  (decode of_bits of_bits32 to_u16 to_u64 data = Ok s <-> decode_stream of_bits compat data = Ok s /\ t_max s <> NaN).
Proof.
  intro T2. destruct data as [|b0 [|b1 [|b2 r]]]; try discriminate. cbn [nth_error] in T2. injection T2 as ->.
  set (data := b0 :: b1 :: 20%N :: r) in *.
  assert (R0 : get_le 1 0 data = Some b0) by (apply get_le_1; reflexivity).
  assert (R1 : get_le 1 1 data = Some b1) by (apply get_le_1; reflexivity).
  assert (R2 : get_le 1 2 data = Some 20%N) by (apply get_le_1; reflexivity).
  unfold decode, decode_stream.
  rewrite (reads_rd _ _ _ _ R0), (reads_rd _ _ _ _ R1), (reads_rd _ _ _ _ R2), (reads_rds _ _ _ _ R0), (reads_rds _ _ _ _ R1), (reads_rds _ _ _ _ R2).
  cbn [bindr]. change (negb (20 =? 20)%N) with false. cbn iota.
  assert (M : forall k off v, rd data k off = Ok v -> rds data k off = Ok v) by (intros; apply rd_rds; assumption).
  assert (M' : forall k off v, rds data k off = Ok v -> rd data k off = Ok v) by (intros k off v H; apply rds_inv in H; apply H).
  clearbody data. clear R0 R1 R2.
  destruct (negb (b1 =? 1)%N); [destruct (length data <? 8); split; [discriminate|intros [X _]; discriminate|discriminate|intros [X _]; discriminate]|].
  destruct (Nat.ltb_spec (length data) 8) as [L|L].
  { split; [discriminate|]. intros [H _].
    destruct (rds data 2 3) as [k| |]; try discriminate. cbn [bindr] in H.
    destruct (rds data 1 5) as [fl| |]; try discriminate. cbn [bindr] in H. cbv zeta in H.
    destruct (negb (b0 =? (if N.testbit fl 0 || N.testbit fl 1 then 1 else 2))%N); [discriminate|].
    destruct (rds data 2 6) as [u| |] eqn:E; try discriminate. apply rds_inv in E. destruct E as [E _]. lia. }
  destruct (rd_total data 2 3) as (k & K); [lia|]. rewrite K, (M _ _ _ K). cbn [bindr].
  destruct (rd_total data 1 5) as (fl & FL); [lia|]. rewrite FL, (M _ _ _ FL). cbn [bindr]. cbv zeta.
  destruct (negb (b0 =? (if N.testbit fl 0 || N.testbit fl 1 then 1 else 2))%N); [split; [discriminate|intros [X _]; discriminate]|].
  destruct (rd_total data 2 6) as (u & U); [lia|]. rewrite (M _ _ _ U). cbn [bindr].
  destruct (N.testbit fl 0).
  { unfold td_new. destruct (k <? 10)%N; [split; [discriminate|intros [X _]; discriminate]|].
    split; [|intros [X _]; exact X]. intro X. split; [exact X|]. injection X as <-. discriminate. }
  assert (FS : forall rv mn mx cs w buf, from_states rv k mn mx cs w buf = Ok s -> t_max s = mx).
  { intros rv mn mx cs w buf. unfold from_states. destruct (k <? 10)%N; [discriminate|]. intro X. injection X as <-. reflexivity. }
  destruct (N.testbit fl 1).
  { destruct (Nat.ltb_spec (length data) 16) as [L2|L2].
    - split; [discriminate|]. intros [H _]. destruct (rds data 8 8) as [u'| |] eqn:E; try discriminate. apply rds_inv in E. destruct E as [E _]. lia.
    - destruct (rd_total data 8 8) as (b & B); [lia|]. rewrite B, (M _ _ _ B). cbn [bindr].
      destruct (finite (of_bits b)) as [v| |]; cbn [bindr]; [|split; [discriminate|intros [X _]; discriminate]..].
      split; [|intros [X _]; exact X]. intro X. split; [exact X|]. apply FS in X. rewrite X. discriminate. }
  destruct (Nat.ltb_spec (length data) 16) as [L2|L2].
  { split; [discriminate|]. intros [H _]. destruct (rds data 4 8) as [u'| |]; try discriminate. cbn [bindr] in H.
    destruct (rds data 4 12) as [u''| |] eqn:E; try discriminate. apply rds_inv in E. destruct E as [E _]. lia. }
  destruct (rd_total data 4 8) as (nc & NC); [lia|]. rewrite NC, (M _ _ _ NC). cbn [bindr].
  destruct (rd_total data 4 12) as (nb & NB); [lia|]. rewrite NB, (M _ _ _ NB). cbn [bindr].
  destruct (N.ltb_spec (N.of_nat (length data)) (16 + 16 + nc * 16 + nb * 8)) as [L3|L3].
  { split; [discriminate|]. intros [H _]. exfalso.
    destruct (rds data 8 16) as [mnb| |]; try discriminate. cbn [bindr] in H.
    destruct (not_nan (of_bits mnb)); try discriminate. cbn [bindr] in H.
    destruct (rds data 8 24) as [mxb| |] eqn:E2; try discriminate. cbn [bindr] in H.
    destruct (read_cents of_bits (rds data) (N.to_nat nc) 32 0) as [[cs t]| |] eqn:E3; try discriminate. cbn [bindr] in H.
    destruct (read_vals of_bits (rds data) (N.to_nat nb) (32 + 16 * N.to_nat nc)) as [vs| |] eqn:E4; try discriminate.
    apply rds_inv in E2. destruct E2 as [E2 _]. apply read_cents_span in E3; [|lia]. apply read_vals_span in E4; lia. }
  destruct (rd_total data 8 16) as (mnb & MN); [lia|]. rewrite MN, (M _ _ _ MN). cbn [bindr].
  destruct (not_nan (of_bits mnb)) as [mn| |]; cbn [bindr]; [|split; [discriminate|intros [X _]; discriminate]..].
  destruct (rd_total data 8 24) as (mxb & MX); [lia|]. rewrite MX, (M _ _ _ MX). cbn [bindr].
  assert (NNX : forall e, not_nan e = Ok e /\ e <> NaN \/ e = NaN /\ not_nan e = Err) by (intros []; [left|left|left|right]; split; (reflexivity || discriminate)).
  split.
  - intro H. destruct (NNX (of_bits mxb)) as [[N1 N2]|[N1 N2]]; rewrite N2 in H || rewrite N1 in H; [|discriminate]. cbn [bindr] in H.
    destruct (read_cents of_bits (rd data) (N.to_nat nc) 32 0) as [[cs t]| |] eqn:E3; try discriminate. cbn [bindr] in H.
    destruct (read_vals of_bits (rd data) (N.to_nat nb) (32 + 16 * N.to_nat nc)) as [vs| |] eqn:E4; try discriminate. cbn [bindr] in H.
    rewrite (read_cents_mono _ _ _ M _ _ _ E3). cbn [bindr]. rewrite (read_vals_mono _ _ _ M _ _ E4). cbn [bindr].
    split; [exact H|]. rewrite (FS _ _ _ _ _ _ H). exact N2.
  - intros [H NX].
    destruct (read_cents of_bits (rds data) (N.to_nat nc) 32 0) as [[cs t]| |] eqn:E3; try discriminate. cbn [bindr] in H.
    destruct (read_vals of_bits (rds data) (N.to_nat nb) (32 + 16 * N.to_nat nc)) as [vs| |] eqn:E4; try discriminate. cbn [bindr] in H.
    rewrite (read_cents_mono _ _ _ M' _ _ _ E3), (read_vals_mono _ _ _ M' _ _ E4).
    rewrite (FS _ _ _ _ _ _ H) in NX. destruct (NNX (of_bits mxb)) as [[N1 N2]|[N1 N2]]; [|congruence]. rewrite N1. exact H.
Qed.
End Any.
