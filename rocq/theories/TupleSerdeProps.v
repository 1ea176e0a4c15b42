(** * Property C67: the byte images of tuple and array-of-numbers sketches. *)
From Coq Require Import Sorting.Sorted Permutation.
From Verif Require Import Base Bytes BitPackModel HashtableModel HashtableProofs ThetaModel ThetaProofs ThetaProps
  TupleModel TupleProofs TupleProps TupleSerdeModel TupleSerdeProofs.
Local Open Scope nat_scope.

(** ** Specification vocabulary *)

Definition is_bytes (b : list N) : Prop := Forall (fun x => (x < 256)%N) b.

(** A summary writer and reader that belong together, on the summaries satisfying [P]: what the writer produces for [x]
    is read back as [x], leaving whatever follows in the stream unread, and no strict prefix of it is read. *)
Definition codec {S} (wr : S -> res (list N)) (rd : list N -> res (S * list N)) (P : S -> Prop) : Prop :=
  forall x, P x -> exists b, wr x = Ok b /\ is_bytes b /\
    (forall rest, rd (b ++ rest) = Ok (x, rest)) /\
    (forall n, n < length b -> rd (firstn n b) = Err).

(** A sketch the encoder can hold: one an API call can return, its count and seed hash fitting their fields. *)
Definition storable {S} (s : tsketch S) : Prop :=
  twf s /\ (N.of_nat (length (ts_entries s)) < 2 ^ 32)%N /\ (ts_seed s < 2 ^ 16)%N.

(** The same set, summaries, theta, seed hash and flags; a sketch of at most one entry comes back flagged ordered. *)
Definition same_sketch {S} (s s' : tsketch S) : Prop :=
  ts_entries s' = ts_entries s /\ ts_theta s' = ts_theta s /\ ts_seed s' = ts_seed s /\ ts_empty s' = ts_empty s /\
  ts_ordered s' = (length (ts_entries s) <=? 1) || ts_ordered s.

(** The stored format, from the datasketches specification: preamble longs, version 3, family 9, type 1, a zero, flags
    (2 read only, 4 empty, 8 compact, 16 ordered), seed hash; then count and padding; then theta; then the rows. *)
Definition image_head {S} (pre : N) (s : tsketch S) : list N :=
  [pre; 3; 9; 1; 0; 2 + 8 + (if ts_empty s then 4 else 0) + (if ts_ordered s then 16 else 0)]%N ++ le 2 (ts_seed s).
Definition image_count {S} (s : tsketch S) : list N := le 4 (N.of_nat (length (ts_entries s))) ++ [0; 0; 0; 0]%N.
Definition image_rows {S} (rows : list (N * S)) (sums : list (list N)) : list N :=
  concat (map (fun p => le 8 (fst (fst p)) ++ snd p) (combine rows sums)).

Definition image {S} (s : tsketch S) (sums : list (list N)) : list N :=
  (if ts_empty s then image_head 1 s
   else if (ts_theta s <? MaxTheta)%N then image_head 3 s ++ image_count s ++ le 8 (ts_theta s)
   else match ts_entries s with [_] => image_head 1 s | _ => image_head 2 s ++ image_count s end)
  ++ image_rows (ts_entries s) sums.

Lemma codec_reads {S} wr rd (P : S -> Prop) : codec wr rd P -> forall es : list (N * S), (forall e, In e es -> P (snd e)) ->
  exists bs, Forall2 (fun e b => wr (snd e) = Ok b) es bs /\ Forall2 (fun e b => reads rd b (snd e)) es bs /\ Forall is_bytes bs.
Proof.
  intros C. induction es as [|e es IH]; intros H.
  - exists []. repeat constructor.
  - destruct IH as (bs & A & B & D). { intros e' He'. apply H. cbn. auto. }
    destruct (C (snd e)) as (b & E & Hb & R & T). { apply H. cbn. auto. }
    exists (b :: bs). split; [constructor; auto|]. split; [constructor; auto; split; auto|constructor; auto].
Qed.

Lemma head_image {S} (s : tsketch S) bs : storable s -> tup_head s ++ tup_rows (ts_entries s) bs = image s bs.
Proof.
  intros (W & _). unfold tup_head, image, image_head, image_count, tup_flags, tup_preamble_longs, testimation.
  change (tup_rows (ts_entries s) bs) with (image_rows (ts_entries s) bs). f_equal.
  destruct (ts_empty s) eqn:E.
  - rewrite andb_false_r. cbn [orb]. change (1 <? 1)%N with false. rewrite !app_nil_r. destruct (ts_ordered s); reflexivity.
  - rewrite andb_true_r. destruct (ts_theta s <? MaxTheta)%N.
    + change (1 <? 3)%N with true. rewrite <- !app_assoc. destruct (ts_ordered s); reflexivity.
    + cbn [orb]. destruct (ts_entries s) as [|e [|e' r]]; cbn [length Nat.eqb].
      * change (1 <? 2)%N with true. rewrite <- !app_assoc, app_nil_r. destruct (ts_ordered s); reflexivity.
      * change (1 <? 1)%N with false. rewrite !app_nil_r. destruct (ts_ordered s); reflexivity.
      * change (1 <? 2)%N with true. rewrite <- !app_assoc, app_nil_r. destruct (ts_ordered s); reflexivity.
Qed.

Lemma concat_bytes l : Forall is_bytes l -> is_bytes (concat l).
Proof. induction 1; cbn; [constructor|apply Forall_app; auto]. Qed.

Lemma image_rows_bytes {S} (es : list (N * S)) bs : Forall is_bytes bs -> is_bytes (image_rows es bs).
Proof.
  intros H. apply concat_bytes. apply Forall_map. revert bs H. induction es as [|e es IH]; intros [|b bs] H; cbn [combine]; constructor.
  - inversion H; subst. apply Forall_app. split; auto. apply le_bytes.
  - apply IH. inversion H; auto.
Qed.

Lemma image_bytes {S} (s : tsketch S) bs : Forall is_bytes bs -> is_bytes (image s bs).
Proof.
  intros H. unfold image. apply Forall_app. split; [|apply image_rows_bytes; auto].
  assert (Hh : forall p, (p < 256)%N -> is_bytes (image_head p s)).
  { intros p Hp. unfold image_head. apply Forall_app. split; [|apply le_bytes].
    repeat constructor; auto; try lia. destruct (ts_empty s), (ts_ordered s); reflexivity. }
  assert (Hc : is_bytes (image_count s)). { apply Forall_app. split; [apply le_bytes|repeat constructor]. }
  destruct (ts_empty s); [apply Hh; lia|]. destruct (_ <? _)%N.
  - apply Forall_app. split; [apply Hh; lia|]. apply Forall_app. split; [auto|apply le_bytes].
  - destruct (ts_entries s) as [|e [|e' r]]; [apply Forall_app; split; [apply Hh; lia|auto]|apply Hh; lia|apply Forall_app; split; [apply Hh; lia|auto]].
Qed.

Lemma tnorm_same {S} (s : tsketch S) : same_sketch s (tnorm s).
Proof. repeat split. Qed.

(** ** C67: tuple sketches *)

(** Encoding succeeds and gives exactly the documented bytes. *)
Theorem tuple_image : forall (S : Type) wr rd (P : S -> Prop) (s : tsketch S), codec wr rd P -> storable s ->
  (forall h x, In (h, x) (ts_entries s) -> P x) ->
  exists sums b, Forall2 (fun e sb => wr (snd e) = Ok sb) (ts_entries s) sums /\ tup_encode wr s = Ok b /\
    b = image s sums /\ is_bytes b.
Proof.
  intros S wr rd P s C H HP. destruct (codec_reads wr rd P C (ts_entries s)) as (bs & A & B & D). { intros [h x] He. eapply HP; eauto. }
  exists bs, (image s bs). split; auto. rewrite (tup_encode_ok wr s bs A), head_image by auto. split; auto. split; auto. apply image_bytes; auto.
Qed.

(** The image decodes to the same sketch, from a stream that may continue after it. *)
Theorem tuple_round_trip : forall (S : Type) wr rd (P : S -> Prop) (s : tsketch S) want, codec wr rd P -> storable s ->
  (forall h x, In (h, x) (ts_entries s) -> P x) -> (ts_empty s = true \/ want = Some (ts_seed s)) ->
  exists b, tup_encode wr s = Ok b /\
    forall rest, exists s', tup_decode want rd (b ++ rest) = Ok (s', rest) /\ same_sketch s s' /\ twf s'.
Proof.
  intros S wr rd P s want C H HP Hw. destruct (codec_reads wr rd P C (ts_entries s)) as (bs & A & B & D). { intros [h x] He. eapply HP; eauto. }
  exists (tup_head s ++ tup_rows (ts_entries s) bs). split; [apply tup_encode_ok; auto|]. intros rest. exists (tnorm s).
  destruct H as (W & H1 & H2). destruct (tup_decode_reads rd want s bs 3 1) as [R _]; auto. split; [exact (R rest)|].
  split; [apply tnorm_same|]. destruct W as [W1 W2 W3 W4 W5]. constructor; auto. cbn. intros Ho. apply orb_prop in Ho as [Ho|Ho]; auto.
  apply short_sorted. apply Nat.leb_le in Ho. rewrite map_length. auto.
Qed.

(** Two sketches with the same image have the same content. *)
Theorem tuple_image_injective : forall (S : Type) wr rd (P : S -> Prop) (s1 s2 : tsketch S), codec wr rd P -> storable s1 -> storable s2 ->
  (forall h x, In (h, x) (ts_entries s1) \/ In (h, x) (ts_entries s2) -> P x) -> tup_encode wr s1 = tup_encode wr s2 ->
  ts_entries s1 = ts_entries s2 /\ ts_theta s1 = ts_theta s2 /\ ts_empty s1 = ts_empty s2 /\ ts_seed s1 = ts_seed s2.
Proof.
  intros S wr rd P s1 s2 C H1 H2 HP E.
  assert (Hseed : ts_seed s1 = ts_seed s2).
  { destruct (tuple_image S wr rd P s1 C H1) as (b1 & i1 & _ & E1 & I1 & _); [eauto|].
    destruct (tuple_image S wr rd P s2 C H2) as (b2 & i2 & _ & E2 & I2 & _); [eauto|].
    rewrite E1, E2 in E. inversion E as [Ei]. rewrite I1, I2 in Ei.
    assert (G : forall (s : tsketch S) b, exists p f r, image s b = [p; 3; 9; 1; 0; f]%N ++ le 2 (ts_seed s) ++ r).
    { intros s b. unfold image, image_head. destruct (ts_empty s); [|destruct (_ <? _)%N; [|destruct (ts_entries s) as [|? [|? ?]]]]; rewrite <- ?app_assoc; eauto. }
    destruct (G s1 b1) as (p1 & f1 & r1 & G1), (G s2 b2) as (p2 & f2 & r2 & G2). rewrite G1, G2 in Ei. cbn [app] in Ei.
    assert (El : le 2 (ts_seed s1) = le 2 (ts_seed s2)). { cbn [le app] in Ei. cbn [le]. congruence. }
    destruct H1 as (_ & _ & B1), H2 as (_ & _ & B2). rewrite <- (unle_le_small 2 (ts_seed s1) B1), <- (unle_le_small 2 (ts_seed s2) B2). f_equal. auto. }
  destruct (tuple_round_trip S wr rd P s1 (Some (ts_seed s1)) C H1) as (b1 & E1 & D1); [eauto|auto|].
  destruct (tuple_round_trip S wr rd P s2 (Some (ts_seed s1)) C H2) as (b2 & E2 & D2); [eauto|right; congruence|].
  rewrite E1, E2 in E. inversion E; subst b2.
  destruct (D1 []) as (s1' & F1 & (A1 & A2 & A3 & A4 & _) & _), (D2 []) as (s2' & F2 & (A1' & A2' & A3' & A4' & _) & _).
  rewrite F1 in F2. inversion F2; subst s2'. repeat split; congruence.
Qed.

(** A truncated image is refused with an error. *)
Theorem tuple_truncated_refused : forall (S : Type) wr rd (P : S -> Prop) (s : tsketch S) want b n, codec wr rd P -> storable s ->
  (forall h x, In (h, x) (ts_entries s) -> P x) -> (ts_empty s = true \/ want = Some (ts_seed s)) ->
  tup_encode wr s = Ok b -> n < length b -> tup_decode want rd (firstn n b) = Err.
Proof.
  intros S wr rd P s want b n C H HP Hw E Hn. destruct (codec_reads wr rd P C (ts_entries s)) as (bs & A & B & D). { intros [h x] He. eapply HP; eauto. }
  rewrite (tup_encode_ok wr s bs A) in E. inversion E; subst b. destruct H as (W & H1 & H2).
  destruct (tup_decode_reads rd want s bs 3 1) as [_ T]; auto.
Qed.

Lemma bindr_rd_le {A} k b (K : N * list N -> res A) y : bindr (rd_le k b) K = Ok y -> k <= length b /\ K (unle (firstn k b), skipn k b) = Ok y.
Proof. unfold rd_le. destruct (Nat.leb_spec k (length b)); cbn [bindr]; try discriminate. auto. Qed.

(** What Decode checks before it accepts bytes: version 3 or 1, family 9, type 1 or 5, and for a non-empty sketch the
    decoder's seed hash. *)
Theorem tuple_header_checked : forall (S : Type) want (rd : list N -> res (S * list N)) b s rest, tup_decode want rd b = Ok (s, rest) ->
  exists pre version family type unused flags lo hi r, b = pre :: version :: family :: type :: unused :: flags :: lo :: hi :: r /\
    (version = 3 \/ version = 1)%N /\ family = 9%N /\ (type = 1 \/ type = 5)%N /\ ts_seed s = (lo + 256 * hi)%N /\
    ts_empty s = N.testbit flags 2 /\ (ts_empty s = true \/ want = Some (ts_seed s)).
Proof.
  intros S want rd b s rest. unfold tup_decode. intros H.
  do 7 (apply bindr_rd_le in H as [? H]; cbn beta iota in H).
  destruct b as [|b0 [|b1 [|b2 [|b3 [|b4 [|b5 [|b6 [|b7 r]]]]]]]]; cbn [length skipn] in *; try lia.
  exists b0, b1, b2, b3, b4, b5, b6, b7, r. split; auto. cbn [firstn skipn unle] in H. rewrite !N.mul_0_r, !N.add_0_r in H.
  destruct (N.eqb_spec b1 TupleSerialVersion) as [V|V]; cbn [orb negb] in H.
  2: destruct (N.eqb_spec b1 SerialVersionLegacy) as [V'|V']; cbn [negb] in H; [|discriminate].
  all: destruct (N.eqb_spec b2 FamilyTuple) as [F|F]; cbn [negb] in H; [|discriminate].
  all: destruct (N.eqb_spec b3 TypeCompactTuple) as [T|T]; cbn [orb negb] in H.
  all: try (destruct (N.eqb_spec b3 TypeCompactTupleLegacy) as [T'|T']; cbn [negb] in H; [|discriminate]).
  all: match type of H with (if negb ?c then _ else _) = _ => destruct c eqn:Es; cbn [negb] in H; [|discriminate] end.
  all: match type of H with bindr ?c _ = _ => destruct c as [[[n th] b']| |]; cbn [bindr] in H; try discriminate end.
  all: match type of H with bindr ?c _ = _ => destruct c as [[es b'']| |]; cbn [bindr] in H; try discriminate end.
  all: inversion H; subst s rest; clear H; cbn [ts_seed ts_empty tcompact_entries].
  all: split; [auto|]; split; [auto|]; split; [auto|]; split; [auto|]; split; [auto|].
  all: apply orb_prop in Es as [Es|Es]; auto; right; destruct want as [w|]; [|discriminate]; apply N.eqb_eq in Es; f_equal; symmetry; exact Es.
Qed.

(** A non-empty image is refused by a decoder with another seed. *)
Theorem tuple_wrong_seed_refused : forall (S : Type) wr rd (P : S -> Prop) (s : tsketch S) want b, codec wr rd P -> storable s ->
  (forall h x, In (h, x) (ts_entries s) -> P x) -> ts_empty s = false -> want <> Some (ts_seed s) ->
  tup_encode wr s = Ok b -> forall r, tup_decode want rd b <> Ok r.
Proof.
  intros S wr rd P s want b C H HP He Hw E [s' rest] D. destruct (tuple_image S wr rd P s C H HP) as (bs & b' & _ & E' & I & _).
  rewrite E in E'. injection E' as Eb'. rewrite <- Eb' in I. clear Eb'. pose proof H as (W & Hc & Hsd).
  apply tuple_header_checked in D as (pre & v & f & t & u & fl & lo & hi & r & Eb & _ & _ & _ & Es & Ee & Hok).
  assert (G : exists p r', b = [p; 3; 9; 1; 0; 2 + 8 + 0 + (if ts_ordered s then 16 else 0)]%N ++ le 2 (ts_seed s) ++ r').
  { rewrite I. unfold image, image_head. rewrite He. destruct (_ <? _)%N; [|destruct (ts_entries s) as [|? [|? ?]]]; rewrite <- ?app_assoc; eauto. }
  destruct G as (p & r' & G). rewrite Eb in G. cbn [app le] in G. injection G as -> -> -> -> -> -> -> -> ->.
  assert (Hs : ts_seed s' = ts_seed s). { rewrite Es. rewrite <- (unle_le_small 2 (ts_seed s)) by auto. cbn [le unle]. lia. }
  destruct Hok as [Hok|Hok]; [|congruence]. rewrite Ee in Hok. destruct (ts_ordered s); discriminate Hok.
Qed.

(** Images with the legacy version or the legacy type decode in the same way. *)
Theorem tuple_legacy_image : forall (S : Type) wr rd (P : S -> Prop) (s : tsketch S) want version type, codec wr rd P -> storable s ->
  (forall h x, In (h, x) (ts_entries s) -> P x) -> (ts_empty s = true \/ want = Some (ts_seed s)) ->
  (version = 3 \/ version = 1)%N -> (type = 1 \/ type = 5)%N ->
  exists pre r, tup_encode wr s = Ok (pre :: 3%N :: 9%N :: 1%N :: r) /\
    exists s', tup_decode want rd (pre :: version :: 9%N :: type :: r) = Ok (s', []) /\ same_sketch s s'.
Proof.
  intros S wr rd P s want v t C H HP Hw Hv Ht. destruct (codec_reads wr rd P C (ts_entries s)) as (bs & A & B & D). { intros [h x] He. eapply HP; eauto. }
  rewrite (tup_encode_ok wr s bs A). unfold tup_head. cbn [app]. eexists _, _. split; [reflexivity|]. exists (tnorm s). split; [|apply tnorm_same].
  destruct H as (W & H1 & H2). destruct (tup_decode_reads rd want s bs v t) as [R _]; auto. specialize (R []). rewrite app_nil_r in R. exact R.
Qed.

(** Encoding fails exactly when some summary's writer fails. *)
Theorem tuple_encode_error : forall (S : Type) (wr : S -> res (list N)) (s : tsketch S), (forall x, wr x <> Panic) ->
  (tup_encode wr s = Err <-> exists h x, In (h, x) (ts_entries s) /\ wr x = Err) /\ tup_encode wr s <> Panic.
Proof.
  intros S wr s Hp. assert (Hp' : forall e, wr_entry wr e <> Panic). { intros e. unfold wr_entry. specialize (Hp (snd e)). destruct (wr (snd e)); cbn [bindr]; congruence. }
  assert (Hm : wr_many (wr_entry wr) (ts_entries s) <> Panic).
  { induction (ts_entries s) as [|e l IH]; cbn [wr_many]; [discriminate|]. specialize (Hp' e). destruct (wr_entry wr e); cbn [bindr]; try congruence.
    destruct (wr_many (wr_entry wr) l); cbn [bindr]; congruence. }
  unfold tup_encode. cbv zeta. split.
  - split.
    + intros H. assert (E : wr_many (wr_entry wr) (ts_entries s) = Err) by (destruct (wr_many (wr_entry wr) (ts_entries s)); cbn [bindr] in H; congruence).
      apply (wr_many_err _ _ Hp') in E as ([h x] & Hin & Ex). exists h, x. split; auto. unfold wr_entry in Ex. cbn [snd] in Ex. destruct (wr x); cbn [bindr] in Ex; congruence.
    + intros (h & x & Hin & Ex). assert (E : wr_many (wr_entry wr) (ts_entries s) = Err).
      { apply (wr_many_err _ _ Hp'). exists (h, x). split; auto. unfold wr_entry. cbn [snd]. rewrite Ex. auto. }
      rewrite E. auto.
  - destruct (wr_many (wr_entry wr) (ts_entries s)); cbn [bindr]; congruence.
Qed.

Ltac no_panic H :=
  repeat match goal with
  | |- rd_le _ _ <> Panic => apply rd_le_no_panic
  | |- rd_many _ _ _ <> Panic => apply rd_many_no_panic; intros ?
  | |- rd_numbers _ _ _ <> Panic => unfold rd_numbers
  | |- rd_entry _ _ <> Panic => unfold rd_entry
  | |- bindr _ _ <> Panic => apply bindr_no_panic; [|intros ?]
  | |- (let (_, _) := ?p in _) <> Panic => destruct p
  | |- (if ?c then _ else _) <> Panic => destruct c
  | |- Ok _ <> Panic => discriminate
  | |- Err <> Panic => discriminate
  | |- _ => apply H
  end.

(** On any bytes whatsoever Decode returns a sketch or an error: it never panics. *)
Theorem tuple_decode_no_panic : forall (S : Type) want (rd : list N -> res (S * list N)) b, (forall c, rd c <> Panic) -> tup_decode want rd b <> Panic.
Proof. intros S want rd b H. unfold tup_decode. cbv zeta. no_panic H. Qed.

(** From the updates to the decoded sketch: after any sequence of updates, Trims and Resets, compacting, storing and
    loading gives every retained hash with the fold of the values presented for it, in increasing hash order. *)
Theorem tuple_stored_content : forall (S V : Type) (s0 : S) (upf : S -> V -> S) (mk : S) wr rd (P : S -> Prop) lgK rf th0 seed ops,
  good_params lgK rf th0 -> codec wr rd P -> (seed < 2 ^ 16)%N -> (forall vs, P (fold_left upf vs mk)) ->
  exists t, tup_run s0 upf mk (tup_new s0 lgK rf th0) ops = Some t /\
    ((N.of_nat (length (ts_entries (tview seed t))) < 2 ^ 32)%N ->
     exists b s', tup_encode wr (tcompact (tview seed t) true) = Ok b /\ tup_decode (Some seed) rd b = Ok (s', []) /\
       NoDup (thashes s') /\ StronglySorted N.le (thashes s') /\
       (forall h, In h (thashes s') <-> In h (map fst (pairs_of ops)) /\ (0 < h)%N /\ (h < t_theta t)%N) /\
       (forall h x, In (h, x) (ts_entries s') -> x = fold_left upf (values_for h (pairs_of ops)) mk) /\
       ts_theta s' = ts_theta (tview seed t) /\ ts_empty s' = ts_empty (tview seed t)).
Proof.
  intros S V s0 upf mk wr rd P lgK rf th0 seed ops G C Hs HP.
  destruct (tuple_content S V s0 upf mk lgK rf th0 seed ops G) as (t & E & Hn & Hk & Hx & _ & W). exists t. split; auto. intros Hl.
  destruct (tuple_compact S (tview seed t) true W) as (Pm & W' & Et & Ee & So).
  destruct (tuple_round_trip S wr rd P (tcompact (tview seed t) true) (Some seed) C) as (b & Eb & D).
  - split; auto. split; [|exact Hs]. rewrite (Permutation_length Pm). auto.
  - intros h x Hin. apply (Permutation_in _ Pm) in Hin. rewrite (Hx h x Hin). apply HP.
  - right. reflexivity.
  - destruct (D []) as (s' & D' & (A1 & A2 & A3 & A4 & A5) & W''). rewrite app_nil_r in D'. exists b, s'. split; auto. split; auto.
    assert (Hp : Permutation (thashes s') (thashes (tview seed t))). { unfold thashes. rewrite A1. apply Permutation_map. exact Pm. }
    split. { apply (Permutation_NoDup (Permutation_sym Hp)). auto. }
    split. { unfold thashes. rewrite A1. apply So. auto. }
    split. { intros h. rewrite <- Hk. split; apply Permutation_in; auto using Permutation_sym. }
    split. { intros h x Hin. rewrite A1 in Hin. apply Hx. apply (Permutation_in _ Pm); auto. }
    split; congruence.
Qed.

(** Decode does not check the rows: bytes flagged ordered whose hashes are not in order, or repeat, are accepted, and
    the sketch returned is not one the other operations are specified for. *)
Theorem tuple_decode_unchecked_rows_refuted : exists b (s : tsketch N), is_bytes b /\ tup_decode (Some 7%N) (rd_le 1) b = Ok (s, []) /\ ~ twf s.
Proof.
  exists ([2; 3; 9; 1; 0; 26; 7; 0; 2; 0; 0; 0; 0; 0; 0; 0] ++ [5; 0; 0; 0; 0; 0; 0; 0; 1] ++ [5; 0; 0; 0; 0; 0; 0; 0; 2])%N.
  eexists. split; [repeat constructor|]. split; [vm_compute; reflexivity|]. intros [Hn _ _ _ _]. cbn in Hn. inversion Hn as [|? ? Hi]. apply Hi. cbn. auto.
Qed.

(** ** C67: array-of-numbers sketches *)

(** An array-of-numbers sketch whose summaries hold [an_num_values] numbers of [w] bytes each. *)
Definition aon_storable (w : nat) (a : aon) : Prop :=
  storable (an_sketch a) /\ (an_num_values a < 256)%N /\
  forall h vs, In (h, vs) (ts_entries (an_sketch a)) -> N.of_nat (length vs) = an_num_values a /\ Forall (fun v => (v < 256 ^ N.of_nat w)%N) vs.

Lemma aon_storable_wf w a : aon_storable w a -> aon_wf w a.
Proof.
  intros ((W & _) & Hn & H). constructor; auto.
  - intros h vs Hin. destruct (H h vs Hin) as [L _]. lia.
  - intros h vs v Hin Hv. destruct (H h vs Hin) as [_ F]. rewrite Forall_forall in F. auto.
Qed.

(** The stored format: 1, version 1, family 9, type 3, flags (4 empty, 8 has entries, 16 ordered), the number of values,
    seed hash, theta; then, if there are entries, count, padding, all hashes, all summaries. *)
Theorem aon_image_bytes : forall w a, aon_storable w a ->
  let s := an_sketch a in
  exists b, aon_encode w a = Ok b /\ is_bytes b /\
    b = [1; 1; 9; 3; (if ts_empty s then 4 else 0) + (match ts_entries s with [] => 0 | _ => 8 end) + (if ts_ordered s then 16 else 0); an_num_values a]%N ++
        le 2 (ts_seed s) ++ le 8 (ts_theta s) ++
        match ts_entries s with
        | [] => []
        | es => le 4 (N.of_nat (length es)) ++ [0; 0; 0; 0]%N ++ flat_map (fun e => le 8 (fst e)) es ++ flat_map (fun e => flat_map (le w) (snd e)) es
        end.
Proof.
  intros w a (_ & Hn & _) s. exists (aon_image w a). split; [apply aon_encode_eq|].
  assert (E : aon_image w a = [1; 1; 9; 3; (if ts_empty s then 4 else 0) + (match ts_entries s with [] => 0 | _ => 8 end) + (if ts_ordered s then 16 else 0); an_num_values a]%N ++
        le 2 (ts_seed s) ++ le 8 (ts_theta s) ++
        match ts_entries s with
        | [] => []
        | es => le 4 (N.of_nat (length es)) ++ [0; 0; 0; 0]%N ++ flat_map (fun e => le 8 (fst e)) es ++ flat_map (fun e => flat_map (le w) (snd e)) es
        end).
  { unfold aon_image, aon_flags. fold s. replace (le 1 (an_num_values a)) with [an_num_values a] by (cbn [le]; rewrite N.mod_small; auto).
    destruct (ts_entries s) as [|e es] eqn:Ees.
    - destruct (ts_empty s), (ts_ordered s); reflexivity.
    - change (0 <? length (e :: es)) with true. cbn match. rewrite !flat_map_concat_map.
      rewrite (map_ext (fun e0 : N * list N => concat (map (le w) (snd e0))) (fun e0 => flat_map (le w) (snd e0))) by (intros; rewrite flat_map_concat_map; auto).
      destruct (ts_empty s), (ts_ordered s); reflexivity. }
  split; [|exact E]. rewrite E. cbn [app].
  assert (Hc : forall (A : Type) (f : A -> list N) l, (forall x, is_bytes (f x)) -> is_bytes (flat_map f l)).
  { intros A f l Hf. rewrite flat_map_concat_map. apply concat_bytes. apply Forall_map. apply Forall_forall. auto. }
  repeat (constructor; [lia|]). constructor. { destruct (ts_empty s), (ts_ordered s), (ts_entries s); reflexivity. }
  constructor; auto. apply Forall_app. split; [apply le_bytes|]. apply Forall_app. split; [apply le_bytes|].
  destruct (ts_entries s); [constructor|]. apply Forall_app. split; [apply le_bytes|]. repeat (constructor; [lia|]).
  apply Forall_app. split; apply Hc; intros; [apply le_bytes|apply Hc; intros; apply le_bytes].
Qed.

Theorem aon_round_trip : forall w a want, aon_storable w a -> (ts_entries (an_sketch a) = [] \/ want = Some (ts_seed (an_sketch a))) ->
  exists b, aon_encode w a = Ok b /\
    forall rest, exists a', aon_decode w want (b ++ rest) = Ok (a', rest) /\ same_sketch (an_sketch a) (an_sketch a') /\ an_num_values a' = an_num_values a.
Proof.
  intros w a want H Hw. exists (aon_image w a). split; [apply aon_encode_eq|]. intros rest. exists (anorm a).
  destruct (aon_decode_reads w want a) as [R _]; auto using aon_storable_wf; try apply H. split; [apply R|]. split; auto. apply tnorm_same.
Qed.

Theorem aon_truncated_refused : forall w a want b n, aon_storable w a -> (ts_entries (an_sketch a) = [] \/ want = Some (ts_seed (an_sketch a))) ->
  aon_encode w a = Ok b -> n < length b -> aon_decode w want (firstn n b) = Err.
Proof.
  intros w a want b n H Hw E Hn. rewrite aon_encode_eq in E. inversion E; subst b.
  destruct (aon_decode_reads w want a) as [_ T]; auto using aon_storable_wf; apply H.
Qed.

(** An image with entries is refused by a decoder with another seed. *)
Theorem aon_wrong_seed_refused : forall w a want b, aon_storable w a -> ts_entries (an_sketch a) <> [] -> want <> Some (ts_seed (an_sketch a)) ->
  aon_encode w a = Ok b -> aon_decode w want b = Err.
Proof.
  intros w a want b H He Hw E. destruct (aon_image_bytes w a H) as (b' & E' & _ & I). rewrite E in E'. injection E' as Eb'. rewrite <- Eb' in I. clear Eb'.
  cbv zeta in I. set (s := an_sketch a) in *. destruct (ts_entries s) as [|e es] eqn:Ees; [congruence|]. clear E. cbn [le app] in I. rewrite I. clear I.
  unfold aon_decode, rd_le. cbn [length Nat.leb bindr firstn skipn unle]. rewrite !N.mul_0_r, !N.add_0_r.
  change (1 =? AonSerialVersion)%N with true. change (9 =? FamilyTuple)%N with true. change (3 =? TypeArrayOfNumbers)%N with true. cbn [negb].
  assert (T : N.testbit ((if ts_empty s then 4 else 0) + 8 + (if ts_ordered s then 16 else 0)) 3 = true) by (destruct (ts_empty s), (ts_ordered s); reflexivity).
  rewrite T. cbn [negb orb].
  assert (Hs : (ts_seed s mod 256 + 256 * (ts_seed s / 256 mod 256))%N = ts_seed s).
  { destruct H as ((_ & _ & B) & _). rewrite <- (unle_le_small 2 (ts_seed s)) at 3 by exact B. cbn [le unle]. lia. }
  rewrite Hs. destruct want as [x|]; cbn [negb]; auto. destruct (N.eqb_spec (ts_seed s) x); [congruence|]. auto.
Qed.

Theorem aon_decode_no_panic : forall w want b, aon_decode w want b <> Panic.
Proof. intros w want b. unfold aon_decode. cbv zeta. no_panic Logic.I. Qed.

(** A non-empty image without entries is accepted whatever the decoder's seed (unlike the tuple decoder). *)
Theorem aon_wrong_seed_no_entries_refuted : exists a b a', aon_storable 8 a /\ ts_empty (an_sketch a) = false /\
  aon_encode 8 a = Ok b /\ aon_decode 8 (Some 1%N) b = Ok (a', []) /\ ts_seed (an_sketch a') = 7%N.
Proof.
  exists (mkAon (mkTSketch [] 1000 7 false true) 2). eexists _, _. split.
  { split; [|split; [reflexivity|cbn; tauto]]. split; [|split; reflexivity]. constructor; cbn; try constructor; try tauto; try discriminate. }
  split; [reflexivity|]. split; [vm_compute; reflexivity|]. split; [vm_compute; reflexivity|]. reflexivity.
Qed.

(** ** C67: summaries *)

(** Fixed-width numbers, one summary of [k] numbers after the other, are a codec. *)
Theorem numbers_codec : forall w k, codec (wr_numbers w) (rd_numbers w (N.of_nat k)) (fun vs => length vs = k /\ Forall (fun v => (v < 256 ^ N.of_nat w)%N) vs).
Proof.
  intros w k vs [Hl Hv]. unfold wr_numbers. rewrite wr_many_map. eexists. split; [reflexivity|]. split.
  - apply concat_bytes. apply Forall_map. apply Forall_forall. intros; apply le_bytes.
  - rewrite Forall_forall in Hv. destruct (reads_numbers w vs Hv) as [R T]. rewrite Hl in R, T. auto.
Qed.

(** The string summaries of up to 127 strings, each shorter than 4 GiB, are a codec; longer slices are refused. *)
Theorem strings_summary_codec : codec wr_strings rd_strings
  (fun vs => length vs <= 127 /\ Forall (fun v => is_bytes v /\ (N.of_nat (length v) < 2 ^ 32)%N) vs).
Proof.
  intros vs [Hl Hv]. rewrite Forall_forall in Hv. destruct (strings_codec vs Hl) as (b & E & R & T). { intros v Hin. apply (Hv v Hin). }
  exists b. split; auto. split; auto. revert E. unfold wr_strings. destruct (maxStringSliceLength <? length vs); [discriminate|].
  unfold wr_string. rewrite (wr_many_map (fun v => le 4 (N.of_nat (length v)) ++ v)). cbn [bindr]. intros E. match type of E with Ok ?x = Ok b => assert (Eb : b = x) by (inversion E; reflexivity) end. rewrite Eb. clear E Eb.
  apply Forall_app. split; [apply le_bytes|]. apply Forall_app. split; [apply le_bytes|]. apply concat_bytes. apply Forall_map. apply Forall_forall. intros v Hin.
  apply Forall_app. split; [apply le_bytes|]. apply (Hv v Hin).
Qed.

Theorem strings_too_many_refused : forall vs, 127 < length vs -> wr_strings vs = Err.
Proof. intros vs H. unfold wr_strings, maxStringSliceLength. destruct (Nat.ltb_spec 127 (length vs)); [auto|lia]. Qed.

Theorem strings_read_no_panic : forall b, rd_strings b <> Panic.
Proof.
  intros b. unfold rd_strings. apply bindr_no_panic; [apply rd_le_no_panic|intros [? ?]]. apply bindr_no_panic; [apply rd_le_no_panic|intros [? ?]].
  destruct (_ <? _)%N; [discriminate|]. apply rd_many_no_panic. intros c. unfold rd_string. apply bindr_no_panic; [apply rd_le_no_panic|intros [? ?]; apply rd_bytes_no_panic].
Qed.

(** The length field a writer stores is the number of bytes it writes (below 4 GiB), though no reader looks at it. *)
Theorem strings_total_is_length : forall vs b, wr_strings vs = Ok b -> (N.of_nat (length b) < 2 ^ 32)%N -> unle (firstn 4 b) = N.of_nat (length b).
Proof.
  intros vs b. unfold wr_strings. destruct (maxStringSliceLength <? length vs); [discriminate|].
  unfold wr_string. rewrite (wr_many_map (fun v => le 4 (N.of_nat (length v)) ++ v)). cbn [bindr]. intros E. match type of E with Ok ?x = Ok b => assert (Eb : b = x) by (inversion E; reflexivity) end. rewrite Eb. clear E Eb.
  rewrite !app_length, !le_length.
  assert (L : length (concat (map (fun v => le 4 (N.of_nat (length v)) ++ v) vs)) = 4 * length vs + fold_right (fun v t => length v + t) 0 vs).
  { induction vs as [|v vs IH]; cbn [map concat length fold_right]; auto. rewrite !app_length, le_length, IH. lia. }
  rewrite L. intros H. rewrite firstn_app, le_length, Nat.sub_diag. rewrite firstn_all2 by (rewrite le_length; lia). cbn [firstn]. rewrite app_nil_r.
  rewrite unle_le_small.
  - assert (G : forall (vs : list (list N)) t, (t + N.of_nat (fold_right (fun v t => length v + t)%nat 0%nat vs) < 2 ^ 32)%N ->
      fold_left (fun t v => (t + N.of_nat (length v)) mod 2 ^ 32)%N vs t = (t + N.of_nat (fold_right (fun v t => length v + t)%nat 0%nat vs))%N).
    { clear. induction vs as [|v vs IH]; cbn [fold_left fold_right]; intros t Ht; [lia|]. rewrite N.mod_small by lia. rewrite IH by lia. lia. }
    unfold strings_total_bytes. rewrite N.mod_small by lia. rewrite G by lia. lia.
  - unfold strings_total_bytes. clear. set (x := N.of_nat _). assert (Hx : (x mod 2 ^ 32 < 256 ^ N.of_nat 4)%N) by (apply N.mod_lt; discriminate).
    revert Hx. generalize (x mod 2 ^ 32)%N. clear x. induction vs as [|v vs IH]; cbn [fold_left]; auto. intros t Ht. apply IH. apply N.mod_lt. discriminate.
Qed.

(** Different string slices can have the same key: ["a,b"] and ["a"; "b"] feed the same bytes to the hash. *)
Theorem string_keys_collide_refuted : exists s1 s2, s1 <> s2 /\ strings_key_bytes s1 = strings_key_bytes s2.
Proof. exists [[97; 44; 98]]%N, [[97]; [98]]%N. split; [discriminate|reflexivity]. Qed.

(** ** Non-vacuity *)

Definition ex_store : tsketch (list (list N)) := mkTSketch [(3, [[104; 105]; []]); (5, [[44]])]%N 1000 7 false true.
Example ex_store_ok : storable ex_store /\
  (forall h x, In (h, x) (ts_entries ex_store) -> length x <= 127 /\ Forall (fun v => is_bytes v /\ (N.of_nat (length v) < 2 ^ 32)%N) x) /\
  tup_encode wr_strings ex_store =
    Ok ([3; 3; 9; 1; 0; 26; 7; 0; 2; 0; 0; 0; 0; 0; 0; 0; 232; 3; 0; 0; 0; 0; 0; 0;
         3; 0; 0; 0; 0; 0; 0; 0; 15; 0; 0; 0; 2; 2; 0; 0; 0; 104; 105; 0; 0; 0; 0;
         5; 0; 0; 0; 0; 0; 0; 0; 10; 0; 0; 0; 1; 1; 0; 0; 0; 44]%N).
Proof.
  split; [|split; [|vm_compute; reflexivity]].
  - split; [|split; reflexivity]. constructor; cbn; try discriminate.
    + repeat constructor; cbn; intuition discriminate.
    + intros h [<-|[<-|[]]]; lia.
    + intros _. repeat constructor; lia.
  - cbn [ts_entries ex_store In]. intros h x [E|[E|[]]]; inversion E; subst; cbn [length]; (split; [lia|]); repeat constructor; cbn [length]; lia.
Qed.

Definition ex_aon : aon := mkAon (mkTSketch [(3, [1; 2]); (5, [3; 65535])]%N MaxTheta 7 false true) 2.
Example ex_aon_ok : aon_storable 2 ex_aon /\ ts_entries (an_sketch ex_aon) <> [].
Proof.
  split; [|discriminate]. split; [|split; [reflexivity|]].
  - split; [|split; reflexivity]. constructor; cbn [erase_sk sk_entries sk_theta sk_ordered sk_empty an_sketch ex_aon ts_entries ts_theta ts_ordered ts_empty map fst].
    + repeat constructor; cbn; intuition discriminate.
    + intros h [<-|[<-|[]]]; unfold MaxTheta; lia.
    + lia.
    + intros _. repeat constructor; lia.
    + discriminate.
  - cbn [ex_aon an_sketch ts_entries In]. intros h x [E|[E|[]]]; inversion E; subst; (split; [reflexivity|]); repeat constructor; reflexivity.
Qed.

Print Assumptions tuple_image.
Print Assumptions tuple_round_trip.
Print Assumptions tuple_image_injective.
Print Assumptions tuple_truncated_refused.
Print Assumptions tuple_header_checked.
Print Assumptions tuple_wrong_seed_refused.
Print Assumptions tuple_legacy_image.
Print Assumptions tuple_encode_error.
Print Assumptions tuple_decode_no_panic.
Print Assumptions tuple_stored_content.
Print Assumptions tuple_decode_unchecked_rows_refuted.
Print Assumptions aon_image_bytes.
Print Assumptions aon_round_trip.
Print Assumptions aon_truncated_refused.
Print Assumptions aon_wrong_seed_refused.
Print Assumptions aon_decode_no_panic.
Print Assumptions aon_wrong_seed_no_entries_refuted.
Print Assumptions numbers_codec.
Print Assumptions strings_summary_codec.
Print Assumptions strings_too_many_refused.
Print Assumptions strings_read_no_panic.
Print Assumptions strings_total_is_length.
Print Assumptions string_keys_collide_refuted.
