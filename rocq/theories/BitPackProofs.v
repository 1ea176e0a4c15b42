(** * Proofs about bit packing: a verified bit-level symbolic checker for the unrolled functions,
    and direct proofs for packBits / unpackBits. *)
From Coq Require Import ZArith ZifyNat ZifyN.
From Verif Require Import Base Bytes Arr BitPackData BitPackModel.
Local Open Scope nat_scope.

(** ** Bits of a byte buffer, most significant bit of each byte first *)
Definition bitat (buf : list N) (p : nat) : bool := N.testbit (nth (p / 8) buf 0%N) (N.of_nat (7 - p mod 8)).

(** The [n]-bit unsigned number at bit position [p]. *)
Fixpoint word (buf : list N) (p n : nat) : N :=
  match n with 0 => 0%N | S n' => (2 * word buf p n' + N.b2n (bitat buf (p + n')))%N end.

Lemma word_testbit buf p n b : N.testbit (word buf p n) b = (b <? N.of_nat n)%N && bitat buf (p + n - 1 - N.to_nat b).
Proof.
  revert b; induction n as [|n IH]; intros b; cbn [word].
  - rewrite N.bits_0. destruct (N.ltb_spec b (N.of_nat 0)); auto; lia.
  - destruct b as [|b] using N.peano_ind.
    + rewrite N.testbit_0_r. destruct (N.ltb_spec 0 (N.of_nat (S n))); [|lia]. simpl. f_equal. lia.
    + clear IHb. rewrite N.testbit_succ_r, IH.
      destruct (N.ltb_spec b (N.of_nat n)), (N.ltb_spec (N.succ b) (N.of_nat (S n))); try lia; auto. simpl. f_equal. lia.
Qed.

Lemma word_lt buf p n : (word buf p n < 2 ^ N.of_nat n)%N.
Proof.
  induction n as [|n IH]; cbn [word]; [simpl; lia|]. replace (N.of_nat (S n)) with (N.succ (N.of_nat n)) by lia.
  rewrite N.pow_succ_r'. destruct (bitat buf (p + n)); simpl N.b2n; lia.
Qed.

Lemma testbit_high a n : (a < 2 ^ n)%N -> forall k, (n <= k)%N -> N.testbit a k = false.
Proof.
  intros H k Hk. destruct (N.eq_dec a 0) as [->|Ha]; [apply N.bits_0|]. apply N.bits_above_log2.
  apply N.lt_le_trans with n; auto. apply N.log2_lt_pow2; lia.
Qed.
Lemma high_testbit a n : (forall k, (n <= k)%N -> N.testbit a k = false) -> (a < 2 ^ n)%N.
Proof.
  intros H. destruct (N.eq_dec a 0) as [->|Ha]. { apply N.neq_0_lt_0. apply N.pow_nonzero. lia. }
  apply N.log2_lt_pow2; [lia|]. destruct (N.lt_ge_cases (N.log2 a) n); auto.
  pose proof (N.bit_log2 a Ha) as C. rewrite H in C by auto. discriminate.
Qed.

(** The word read back from the bits of a value. *)
Lemma word_of_bits buf p n v : (v < 2 ^ N.of_nat n)%N -> (forall q, q < n -> bitat buf (p + q) = N.testbit v (N.of_nat (n - 1 - q))) ->
  word buf p n = v.
Proof.
  intros Hv H. apply N.bits_inj. intros b. rewrite word_testbit. destruct (N.ltb_spec b (N.of_nat n)) as [Hb|Hb]; simpl.
  - replace (p + n - 1 - N.to_nat b) with (p + (n - 1 - N.to_nat b)) by lia. rewrite H by lia. f_equal. lia.
  - symmetry. eapply testbit_high; eauto.
Qed.

Lemma word_ext buf buf' p p' n : (forall q, q < n -> bitat buf (p + q) = bitat buf' (p' + q)) -> word buf p n = word buf' p' n.
Proof. induction n as [|n IH]; intros H; cbn [word]; auto. rewrite IH, H; auto. Qed.

Lemma u8_testbit x k : N.testbit (u8 x) k = (k <? 8)%N && N.testbit x k.
Proof.
  unfold u8. change 256%N with (2 ^ 8)%N. destruct (N.ltb_spec k 8); cbn [andb].
  - apply N.mod_pow2_bits_low; auto.
  - apply N.mod_pow2_bits_high; auto.
Qed.
Lemma u64_testbit x k : N.testbit (u64 x) k = (k <? 64)%N && N.testbit x k.
Proof.
  unfold u64. destruct (N.ltb_spec k 64); cbn [andb].
  - apply N.mod_pow2_bits_low; auto.
  - apply N.mod_pow2_bits_high; auto.
Qed.
Lemma shiftl_testbit x n k : N.testbit (N.shiftl x n) k = (n <=? k)%N && N.testbit x (k - n).
Proof.
  destruct (N.leb_spec n k); simpl.
  - apply N.shiftl_spec_high'; auto.
  - apply N.shiftl_spec_low; auto.
Qed.
Lemma shiftr_testbit x n k : N.testbit (N.shiftr x n) k = N.testbit x (k + n).
Proof. apply N.shiftr_spec'. Qed.
Lemma mask_testbit n k : N.testbit (2 ^ n - 1) k = (k <? n)%N.
Proof.
  replace (2 ^ n - 1)%N with (N.ones n). 2:{ rewrite N.ones_equiv. lia. }
  destruct (N.ltb_spec k n); [apply N.ones_spec_low|apply N.ones_spec_high]; auto.
Qed.

(** ** The symbolic checker: where each bit of each target comes from *)
Definition src := option (nat * N).
Record gst := G { g_or : bool; g_t : nat; g_s : nat; g_f : N -> option N }.

Definition sbits (nb : nat) (f : N -> option N) (s : nat) : list src :=
  map (fun k => match f (N.of_nat k) with Some b => Some (s, b) | None => None end) (seq 0 nb).
Definition src_eqb (a b : nat * N) : bool := (fst a =? fst b) && (snd a =? snd b)%N.
Fixpoint merge (a b : list src) : option (list src) :=
  match a, b with
  | [], [] => Some []
  | None :: r, y :: s => do m <- merge r s ; Some (y :: m)
  | x :: r, None :: s => do m <- merge r s ; Some (x :: m)
  | Some x :: r, Some y :: s => if src_eqb x y then do m <- merge r s ; Some (Some x :: m) else None
  | _, _ => None
  end.
Definition gstep (nsrc nb : nat) (st : list (option (list src))) (g : gst) : option (list (option (list src))) :=
  if g_s g <? nsrc then
    match nth_error st (g_t g) with
    | None => None
    | Some old =>
      if g_or g then do bs <- old ; do m <- merge bs (sbits nb (g_f g) (g_s g)) ; Some (upd (g_t g) (Some m) st)
      else Some (upd (g_t g) (Some (sbits nb (g_f g) (g_s g))) st)
    end
  else None.
Fixpoint grun nsrc nb st (l : list gst) : option (list (option (list src))) :=
  match l with [] => Some st | g :: r => do st' <- gstep nsrc nb st g ; grun nsrc nb st' r end.

Definition ev (vs : list N) (s : src) : bool := match s with None => false | Some (i, b) => N.testbit (nth i vs 0%N) b end.
Definition evf (v : N) (o : option N) : bool := match o with None => false | Some b => N.testbit v b end.

(** A concrete target [x] has the bits named by [bs]. *)
Definition has (nb : nat) (vs : list N) (bs : list src) (x : N) : Prop :=
  length bs = nb /\ (forall k, k < nb -> N.testbit x (N.of_nat k) = ev vs (nth k bs None)) /\
  (forall k, nb <= k -> N.testbit x (N.of_nat k) = false).

Definition matches (nb : nat) (vs init cur : list N) (st : list (option (list src))) : Prop :=
  length cur = length init /\ length st <= length init /\
  forall t, match nth_error st t with
            | Some (Some bs) => exists x, nth_error cur t = Some x /\ has nb vs bs x
            | _ => nth_error cur t = nth_error init t
            end.

Lemma sbits_nth nb f s k : k < nb -> nth k (sbits nb f s) None = match f (N.of_nat k) with Some b => Some (s, b) | None => None end.
Proof.
  intros H. unfold sbits. apply nth_error_nth. apply map_nth_error with (f := fun k => match f (N.of_nat k) with Some b => Some (s, b) | None => None end).
  rewrite (nth_error_nth' _ _ 0) by (rewrite seq_length; lia). rewrite seq_nth; auto.
Qed.

Lemma merge_spec vs : forall a b m, merge a b = Some m -> length a = length b /\ length m = length a /\
  forall k, ev vs (nth k m None) = ev vs (nth k a None) || ev vs (nth k b None).
Proof.
  induction a as [|x r IH]; intros b m H.
  { destruct b; [|discriminate]. inversion H; subst. split; auto. split; auto. intros [|k]; auto. }
  assert (Hd : forall y s z m', merge r s = Some m' -> (ev vs z = ev vs x || ev vs y) ->
    length (x :: r) = length (y :: s) /\ length (z :: m') = length (x :: r) /\
    forall k, ev vs (nth k (z :: m') None) = ev vs (nth k (x :: r) None) || ev vs (nth k (y :: s) None)).
  { intros y s z m' E Hz. destruct (IH s m' E) as (A & B & C). simpl. split; auto. split; auto. intros [|k]; auto. }
  destruct x as [x|], b as [|[y|] s]; cbn [merge] in H; try discriminate.
  - destruct (src_eqb x y) eqn:E; [|discriminate]. destruct (merge r s) as [m'|] eqn:Em; [|discriminate]. inversion H; subst.
    eapply Hd; eauto. unfold src_eqb in E. apply andb_prop in E as [E1 E2]. apply Nat.eqb_eq in E1. apply N.eqb_eq in E2.
    destruct x, y; simpl in *; subst. rewrite orb_diag. auto.
  - destruct (merge r s) as [m'|] eqn:Em; [|discriminate]. inversion H; subst. eapply Hd; eauto. simpl. rewrite orb_false_r. auto.
  - destruct (merge r s) as [m'|] eqn:Em; [|discriminate]. inversion H; subst. eapply Hd; eauto.
  - destruct (merge r s) as [m'|] eqn:Em; [|discriminate]. inversion H; subst. eapply Hd; eauto.
Qed.

(** One concrete write agrees with the symbolic one. *)
Lemma has_sbits nb vs f s v x : nth_error vs s = Some v -> (forall k, (k < N.of_nat nb)%N -> N.testbit x k = evf v (f k)) ->
  (forall k, (N.of_nat nb <= k)%N -> N.testbit x k = false) -> has nb vs (sbits nb f s) x.
Proof.
  intros Hv Hx Hx2. split; [unfold sbits; rewrite map_length, seq_length; auto|]. split.
  - intros k Hk. rewrite sbits_nth, Hx by lia. unfold evf, ev. destruct (f (N.of_nat k)); auto. rewrite (nth_error_nth _ _ _ Hv). auto.
  - intros k Hk. apply Hx2. lia.
Qed.

Lemma matches_set nb vs init cur st t bs x : matches nb vs init cur st -> t < length st -> has nb vs bs x ->
  wr t x cur = Some (upd t x cur) /\ matches nb vs init (upd t x cur) (upd t (Some bs) st).
Proof.
  intros (H1 & H2 & H3) Ht Hh. split.
  { unfold wr. destruct (Nat.ltb_spec t (length cur)); auto; lia. }
  split; [rewrite upd_length; auto|]. split; [rewrite upd_length; auto|]. intros t'.
  rewrite !nth_error_upd. destruct (Nat.eqb_spec t t') as [->|Hne].
  - destruct (Nat.ltb_spec t' (length st)); [|lia]. destruct (Nat.ltb_spec t' (length cur)); [|lia]. exists x. auto.
  - apply H3.
Qed.

(** The pack statement as a symbolic one, for values below 2^w. *)
Definition pf (w : N) (s : shift) (k : N) : option N :=
  match s with
  | L n => if (k <? n)%N then None else if (k - n <? w)%N then Some (k - n)%N else None
  | R n => if (k + n <? w)%N then Some (k + n)%N else None
  end.
Definition psym (w : N) (st : pst) : gst := match st with PS j i s => G false j i (pf w s) | PO j i s => G true j i (pf w s) end.

Lemma shifted_spec w s v : (v < 2 ^ w)%N -> (forall k, (k < 8)%N -> N.testbit (shifted s v) k = evf v (pf w s k)) /\
  (forall k, (8 <= k)%N -> N.testbit (shifted s v) k = false).
Proof.
  intros Hv. split; intros k Hk.
  - destruct s as [n|n]; unfold shifted, pf; rewrite u8_testbit; destruct (N.ltb_spec k 8); try lia; simpl.
    + rewrite u64_testbit, shiftl_testbit. destruct (N.ltb_spec k 64); [|lia]. simpl.
      destruct (N.ltb_spec k n), (N.leb_spec n k); simpl; try lia; auto. destruct (N.ltb_spec (k - n) w); simpl; auto.
      eapply testbit_high; eauto.
    + rewrite shiftr_testbit. destruct (N.ltb_spec (k + n) w); simpl; auto. eapply testbit_high; eauto.
  - destruct s as [n|n]; unfold shifted; rewrite u8_testbit; destruct (N.ltb_spec k 8); try lia; auto.
Qed.

Lemma gstep_some nsrc nb st g st' : gstep nsrc nb st g = Some st' -> g_s g < nsrc /\ g_t g < length st.
Proof.
  unfold gstep. destruct (Nat.ltb_spec (g_s g) nsrc); [|discriminate]. destruct (nth_error st (g_t g)) eqn:E; [|discriminate].
  intros _. split; auto. eapply nth_error_Some_lt; eauto.
Qed.

(** Shared by both directions: a write of [y] into target [t] with [|=] or [=]. *)
Lemma gstep_sound nsrc nb vs init cur st g st' v y : nsrc <= length vs -> matches nb vs init cur st -> gstep nsrc nb st g = Some st' ->
  nth_error vs (g_s g) = Some v ->
  (forall k, (k < N.of_nat nb)%N -> N.testbit y k = evf v (g_f g k)) -> (forall k, (N.of_nat nb <= k)%N -> N.testbit y k = false) ->
  exists x, nth_error cur (g_t g) = Some x /\
    let z := if g_or g then N.lor x y else y in wr (g_t g) z cur = Some (upd (g_t g) z cur) /\ matches nb vs init (upd (g_t g) z cur) st'.
Proof.
  intros Hn HM Hg Hv Hy Hy2. pose proof (gstep_some _ _ _ _ _ Hg) as [Hs Ht].
  pose proof (has_sbits nb vs _ _ _ _ Hv Hy Hy2) as Hh. pose proof HM as (H1 & H2 & H3).
  unfold gstep in Hg. destruct (Nat.ltb_spec (g_s g) nsrc); [|lia].
  destruct (nth_error st (g_t g)) as [old|] eqn:Eo; [|discriminate].
  destruct (nth_error cur (g_t g)) as [x|] eqn:Ex. 2:{ apply nth_error_None in Ex. lia. }
  exists x. split; auto. cbv zeta. destruct (g_or g).
  - destruct old as [bs|]; [|discriminate]. simpl in Hg. destruct (merge bs _) as [m|] eqn:Em; [|discriminate].
    simpl in Hg. inversion Hg; subst. specialize (H3 (g_t g)). rewrite Eo in H3. destruct H3 as (x' & Ex' & Hh').
    rewrite Ex in Ex'. inversion Ex'; subst x'. apply matches_set; auto.
    destruct (merge_spec vs _ _ _ Em) as (L1 & L2 & L3). destruct Hh as (A1 & A2 & A3), Hh' as (B1 & B2 & B3).
    split; [lia|]. split; intros k Hk; rewrite N.lor_spec.
    + rewrite L3, A2, B2 by auto. auto.
    + rewrite A3, B3 by auto. auto.
  - inversion Hg; subst. apply matches_set; auto.
Qed.

Lemma pstep_sound w vs init cur st g st' : length vs = 8 -> Forall (fun v => (v < 2 ^ w)%N) vs -> matches 8 vs init cur st ->
  gstep 8 8 st (psym w g) = Some st' -> exists cur', pstep vs cur g = Some cur' /\ matches 8 vs init cur' st'.
Proof.
  intros Hl Hw HM Hg. pose proof (gstep_some _ _ _ _ _ Hg) as [Hs Ht].
  assert (Hx : exists v, nth_error vs (g_s (psym w g)) = Some v /\ (v < 2 ^ w)%N).
  { destruct (nth_error vs (g_s (psym w g))) as [v|] eqn:E. 2:{ apply nth_error_None in E. lia. }
    exists v. split; auto. rewrite Forall_forall in Hw. apply Hw. eapply nth_error_In; eauto. }
  destruct Hx as (v & Ev & Hv).
  destruct g as [j i s|j i s]; simpl in Ev.
  - destruct (shifted_spec w s v Hv) as [S1 S2].
    destruct (gstep_sound 8 8 vs init cur st _ st' v (shifted s v) ltac:(lia) HM Hg Ev S1 S2) as (x & Ex & Ewr & HM').
    simpl in *. rewrite Ev. simpl. rewrite Ewr. eauto.
  - destruct (shifted_spec w s v Hv) as [S1 S2].
    destruct (gstep_sound 8 8 vs init cur st _ st' v (shifted s v) ltac:(lia) HM Hg Ev S1 S2) as (x & Ex & Ewr & HM').
    simpl in *. rewrite Ev, Ex. simpl. rewrite Ewr. eauto.
Qed.

Lemma pexec_sound w vs init : length vs = 8 -> Forall (fun v => (v < 2 ^ w)%N) vs -> forall prog cur st st', matches 8 vs init cur st ->
  grun 8 8 st (map (psym w) prog) = Some st' -> exists cur', pexec vs prog cur = Some cur' /\ matches 8 vs init cur' st'.
Proof.
  intros Hl Hw. induction prog as [|g r IH]; intros cur st st' HM Hg; cbn [map grun pexec] in *.
  { inversion Hg; subst. eauto. }
  destruct (gstep 8 8 st (psym w g)) as [st1|] eqn:E; [|discriminate]. cbn [bindo] in Hg.
  destruct (pstep_sound w vs init cur st g st1 Hl Hw HM E) as (cur1 & -> & HM1). simpl. eauto.
Qed.

(** The unpack statement as a symbolic one. *)
Definition uf (r m l k : N) : option N :=
  if (k <? l)%N then None else if N.testbit m (k - l) && (k - l + r <? 8)%N then Some (k - l + r)%N else None.
Definition usym (st : ust) : gst :=
  match st with US i j r m l => G false i j (uf r m l) | UO i j r m l => G true i j (uf r m l) end.

Lemma taken_spec r m l b : (b < 256)%N -> (forall k, (k < 64)%N -> N.testbit (taken r m l b) k = evf b (uf r m l k)) /\
  (forall k, (64 <= k)%N -> N.testbit (taken r m l b) k = false).
Proof.
  intros Hb. split; intros k Hk; unfold taken, uf; rewrite u64_testbit; destruct (N.ltb_spec k 64); try lia; auto. simpl.
  rewrite shiftl_testbit. destruct (N.ltb_spec k l), (N.leb_spec l k); simpl; try lia; auto.
  rewrite N.land_spec, shiftr_testbit. destruct (N.testbit m (k - l)); simpl; [|apply andb_false_r].
  rewrite andb_true_r. destruct (N.ltb_spec (k - l + r) 8); simpl; auto. apply (testbit_high b 8); auto.
Qed.

Lemma ustep_sound n buf init cur st g st' : n <= length buf -> Forall (fun b => (b < 256)%N) buf -> matches 64 buf init cur st ->
  gstep n 64 st (usym g) = Some st' -> exists cur', ustep buf cur g = Some cur' /\ matches 64 buf init cur' st'.
Proof.
  intros Hl Hw HM Hg. pose proof (gstep_some _ _ _ _ _ Hg) as [Hs Ht].
  assert (Hx : exists v, nth_error buf (g_s (usym g)) = Some v /\ (v < 256)%N).
  { destruct (nth_error buf (g_s (usym g))) as [v|] eqn:E. 2:{ apply nth_error_None in E. lia. }
    exists v. split; auto. rewrite Forall_forall in Hw. apply Hw. eapply nth_error_In; eauto. }
  destruct Hx as (v & Ev & Hv).
  destruct g as [i j r m l|i j r m l]; simpl in Ev.
  - destruct (taken_spec r m l v Hv) as [S1 S2].
    destruct (gstep_sound n 64 buf init cur st _ st' v (taken r m l v) ltac:(lia) HM Hg Ev S1 S2) as (x & Ex & Ewr & HM').
    simpl in *. rewrite Ev. simpl. rewrite Ewr. eauto.
  - destruct (taken_spec r m l v Hv) as [S1 S2].
    destruct (gstep_sound n 64 buf init cur st _ st' v (taken r m l v) ltac:(lia) HM Hg Ev S1 S2) as (x & Ex & Ewr & HM').
    simpl in *. rewrite Ev. simpl. rewrite Ex. simpl. rewrite Ewr. eauto.
Qed.

Lemma uexec_sound n buf init : n <= length buf -> Forall (fun b => (b < 256)%N) buf -> forall prog cur st st', matches 64 buf init cur st ->
  grun n 64 st (map usym prog) = Some st' -> exists cur', uexec buf prog cur = Some cur' /\ matches 64 buf init cur' st'.
Proof.
  intros Hl Hw. induction prog as [|g r IH]; intros cur st st' HM Hg; cbn [map grun uexec] in *.
  { inversion Hg; subst. eauto. }
  destruct (gstep n 64 st (usym g)) as [st1|] eqn:E; [|discriminate]. cbn [bindo] in Hg.
  destruct (ustep_sound n buf init cur st g st1 Hl Hw HM E) as (cur1 & -> & HM1). simpl. eauto.
Qed.

(** ** The checks on the 126 programs *)
Definition src_list_eqb (a b : list src) : bool :=
  (length a =? length b) &&
  forallb (fun p => match p with (None, None) => true | (Some x, Some y) => src_eqb x y | _ => false end) (combine a b).
Lemma src_list_eqb_eq a b : src_list_eqb a b = true -> a = b.
Proof.
  unfold src_list_eqb. intros H. apply andb_prop in H as [H1 H2]. apply Nat.eqb_eq in H1. revert b H1 H2.
  induction a as [|x r IH]; intros [|y s] H1 H2; try discriminate; auto. simpl in *. apply andb_prop in H2 as [H2 H3].
  f_equal; [|apply IH; auto]. destruct x as [[i b]|], y as [[j c]|]; try discriminate; auto.
  unfold src_eqb in H2. simpl in H2. apply andb_prop in H2 as [E1 E2]. apply Nat.eqb_eq in E1. apply N.eqb_eq in E2. subst. auto.
Qed.

(** Bit k of byte t is bit p = 8t + 7 - k of the stream: bit (w - 1 - p mod w) of value p / w. *)
Definition want_pack (w t : nat) : list src :=
  map (fun k => let p := 8 * t + (7 - k) in Some (p / w, N.of_nat (w - 1 - p mod w))) (seq 0 8).
Definition want_unpack (w t : nat) : list src :=
  map (fun k => if k <? w then let p := t * w + (w - 1 - k) in Some (p / 8, N.of_nat (7 - p mod 8)) else None) (seq 0 64).

Definition all_want (want : nat -> list src) (st : list (option (list src))) (n : nat) : bool :=
  forallb (fun t => match nth_error st t with Some (Some bs) => src_list_eqb bs (want t) | _ => false end) (seq 0 n).
Definition check_pack (w : nat) : bool :=
  match assoc (N.of_nat w) pack_switch with
  | None => false
  | Some prog => match grun 8 8 (repeat None w) (map (psym (N.of_nat w)) prog) with None => false | Some st => all_want (want_pack w) st w end
  end.
Definition check_unpack (w : nat) : bool :=
  match assoc (N.of_nat w) unpack_switch with
  | None => false
  | Some prog => match grun w 64 (repeat None 8) (map usym prog) with None => false | Some st => all_want (want_unpack w) st 8 end
  end.
Lemma check_pack_all : forallb check_pack (seq 1 63) = true.
Proof. vm_compute. reflexivity. Qed.
Lemma check_unpack_all : forallb check_unpack (seq 1 63) = true.
Proof. vm_compute. reflexivity. Qed.

Lemma all_want_nth want st n t : all_want want st n = true -> t < n -> nth_error st t = Some (Some (want t)).
Proof.
  intros H Ht. unfold all_want in H. rewrite forallb_forall in H. specialize (H t ltac:(apply in_seq; lia)).
  destruct (nth_error st t) as [[bs|]|]; try discriminate. apply src_list_eqb_eq in H. subst. auto.
Qed.

Lemma matches_init nb vs init n : n <= length init -> matches nb vs init init (repeat None n).
Proof.
  intros H. split; auto. split; [rewrite repeat_length; auto|]. intros t. rewrite nth_error_repeat'. destruct (t <? n); auto.
Qed.

Lemma grun_length nsrc nb : forall l st st', grun nsrc nb st l = Some st' -> length st' = length st.
Proof.
  induction l as [|g r IH]; intros st st' H; cbn [grun] in H. { inversion H; auto. }
  destruct (gstep nsrc nb st g) as [st1|] eqn:E; [|discriminate]. cbn [bindo] in H. rewrite (IH _ _ H).
  unfold gstep in E. destruct (_ <? _); [|discriminate]. destruct (nth_error st (g_t g)) as [old|]; [|discriminate].
  destruct (g_or g).
  - destruct old; [|discriminate]. cbn [bindo] in E. destruct (merge _ _); [|discriminate]. inversion E. apply upd_length.
  - inversion E. apply upd_length.
Qed.

Lemma bits_lt256 x : (forall k, 8 <= k -> N.testbit x (N.of_nat k) = false) -> (x < 256)%N.
Proof.
  intros H. change 256%N with (2 ^ 8)%N. apply high_testbit. intros k Hk. rewrite <- (N2Nat.id k). apply H. lia.
Qed.

(** packBitsBlock8, every width: the first w bytes become the big-endian concatenation of the eight w-bit values. *)
Lemma pack_block8_spec w vals buf : 1 <= w <= 63 -> length vals = 8 -> Forall (fun v => (v < 2 ^ N.of_nat w)%N) vals ->
  w <= length buf -> Forall (fun b => (b < 256)%N) buf ->
  exists buf', pack_block8 vals buf (N.of_nat w) = Ok buf' /\ length buf' = length buf /\ Forall (fun b => (b < 256)%N) buf' /\
    (forall p, p < 8 * w -> bitat buf' p = N.testbit (nth (p / w) vals 0%N) (N.of_nat (w - 1 - p mod w))) /\
    (forall t, w <= t -> nth_error buf' t = nth_error buf t).
Proof.
  intros Hw Hl Hv Hb Hbb. pose proof check_pack_all as HC. rewrite forallb_forall in HC. specialize (HC w ltac:(apply in_seq; lia)).
  unfold check_pack in HC. unfold pack_block8. destruct (assoc (N.of_nat w) pack_switch) as [prog|]; [|discriminate].
  destruct (grun 8 8 (repeat None w) (map (psym (N.of_nat w)) prog)) as [st|] eqn:Eg; [|discriminate].
  destruct (pexec_sound (N.of_nat w) vals buf Hl Hv prog buf _ st (matches_init 8 vals buf w Hb) Eg) as (buf' & -> & M1 & M2 & M3).
  pose proof (grun_length _ _ _ _ _ Eg) as Hst. rewrite repeat_length in Hst.
  exists buf'. split; auto. split; auto.
  assert (HT : forall t, t < w -> exists x, nth_error buf' t = Some x /\ has 8 vals (want_pack w t) x).
  { intros t Ht. specialize (M3 t). rewrite (all_want_nth _ _ _ _ HC Ht) in M3. auto. }
  assert (HO : forall t, w <= t -> nth_error buf' t = nth_error buf t).
  { intros t Ht. specialize (M3 t). assert (E : nth_error st t = None) by (apply nth_error_None; lia). rewrite E in M3. auto. }
  split.
  { rewrite Forall_forall. intros x Hx. apply In_nth_error in Hx. destruct Hx as (t & Ht). destruct (Nat.lt_ge_cases t w) as [A|A].
    - destruct (HT t A) as (x' & Ex & (_ & _ & C)). rewrite Ex in Ht. inversion Ht; subst. apply bits_lt256. auto.
    - rewrite HO in Ht by auto. rewrite Forall_forall in Hbb. apply Hbb. eapply nth_error_In; eauto. }
  split; auto. intros p Hp. unfold bitat.
  assert (Hd : p / 8 < w) by (apply Nat.div_lt_upper_bound; lia).
  destruct (HT (p / 8) Hd) as (x & Ex & (_ & C & _)). rewrite (nth_error_nth _ _ _ Ex).
  pose proof (Nat.mod_upper_bound p 8 ltac:(lia)) as Hm. rewrite C by lia.
  unfold want_pack. set (g := fun k => let p0 := 8 * (p / 8) + (7 - k) in Some (p0 / w, N.of_nat (w - 1 - p0 mod w))).
  assert (E : nth_error (map g (seq 0 8)) (7 - p mod 8) = Some (g (7 - p mod 8))).
  { apply map_nth_error. rewrite (nth_error_nth' _ _ 0) by (rewrite seq_length; lia). rewrite seq_nth; auto. lia. }
  rewrite (nth_error_nth _ _ _ E). unfold g. cbv zeta.
  replace (8 * (p / 8) + (7 - (7 - p mod 8))) with p by (pose proof (Nat.div_mod p 8 ltac:(lia)); lia). auto.
Qed.

(** unpackBitsBlock8, every width: value i becomes the w-bit number at bit position i*w. *)
Lemma unpack_block8_spec w vals buf : 1 <= w <= 63 -> length vals = 8 -> w <= length buf -> Forall (fun b => (b < 256)%N) buf ->
  unpack_block8 vals buf (N.of_nat w) = Ok (map (fun i => word buf (i * w) w) (seq 0 8)).
Proof.
  intros Hw Hl Hb Hbb. pose proof check_unpack_all as HC. rewrite forallb_forall in HC. specialize (HC w ltac:(apply in_seq; lia)).
  unfold check_unpack in HC. unfold unpack_block8. destruct (assoc (N.of_nat w) unpack_switch) as [prog|]; [|discriminate].
  destruct (grun w 64 (repeat None 8) (map usym prog)) as [st|] eqn:Eg; [|discriminate].
  destruct (uexec_sound w buf vals Hb Hbb prog vals _ st (matches_init 64 buf vals 8 ltac:(lia)) Eg) as (vals' & -> & M1 & M2 & M3).
  cbn [of_opt]. f_equal. apply nth_error_ext. intros i. 
  destruct (Nat.lt_ge_cases i 8) as [Hi|Hi].
  2:{ rewrite (proj2 (nth_error_None vals' i)) by lia. rewrite (proj2 (nth_error_None _ i)); auto. }
  assert (E : nth_error (map (fun i => word buf (i * w) w) (seq 0 8)) i = Some (word buf (i * w) w)).
  { apply (map_nth_error (fun i => word buf (i * w) w)). rewrite (nth_error_nth' _ _ 0) by (rewrite seq_length; lia). rewrite seq_nth; auto. }
  rewrite E. specialize (M3 i). rewrite (all_want_nth _ _ _ _ HC Hi) in M3. destruct M3 as (x & -> & (_ & C1 & C2)). f_equal.
  apply N.bits_inj. intros b. rewrite word_testbit. rewrite <- (N2Nat.id b). set (k := N.to_nat b). rewrite Nat2N.id.
  destruct (Nat.lt_ge_cases k 64) as [Hk|Hk].
  - rewrite C1 by auto. unfold want_unpack.
    set (g := fun k => if k <? w then let p := i * w + (w - 1 - k) in Some (p / 8, N.of_nat (7 - p mod 8)) else None).
    assert (E2 : nth_error (map g (seq 0 64)) k = Some (g k)).
    { apply map_nth_error. rewrite (nth_error_nth' _ _ 0) by (rewrite seq_length; lia). rewrite seq_nth; auto. }
    rewrite (nth_error_nth _ _ _ E2). unfold g. destruct (Nat.ltb_spec k w), (N.ltb_spec (N.of_nat k) (N.of_nat w)); try lia; cbn [andb ev]; auto.
    unfold bitat. cbv zeta. replace (i * w + w - 1 - k) with (i * w + (w - 1 - k)) by lia. auto.
  - rewrite C2 by auto. destruct (N.ltb_spec (N.of_nat k) (N.of_nat w)); auto. lia.
Qed.

(** ** packBits / unpackBits *)
Lemma divmod8 p : exists a b, p = 8 * a + b /\ b < 8 /\ p / 8 = a /\ p mod 8 = b.
Proof.
  exists (p / 8), (p mod 8). split; [apply Nat.div_mod; lia|]. split; auto. apply Nat.mod_upper_bound. lia.
Qed.
Lemma bitat_at buf a b : b < 8 -> bitat buf (8 * a + b) = N.testbit (nth a buf 0%N) (N.of_nat (7 - b)).
Proof.
  intros H. unfold bitat. destruct (divmod8 (8 * a + b)) as (a' & b' & E1 & E2 & -> & ->).
  assert (a = a') by lia. subst. replace b' with b by lia. auto.
Qed.

Lemma bitat_upd buf i x a b : b < 8 -> i < length buf ->
  bitat (upd i x buf) (8 * a + b) = if a =? i then N.testbit x (N.of_nat (7 - b)) else bitat buf (8 * a + b).
Proof.
  intros Hb Hi. rewrite !bitat_at by auto. destruct (Nat.eqb_spec a i) as [->|Hn].
  - rewrite nth_upd_eq by auto. auto.
  - rewrite nth_upd_neq by auto. auto.
Qed.

Lemma Forall_upd {A} (P : A -> Prop) i x l : P x -> Forall P l -> Forall P (upd i x l).
Proof.
  intros Hx. revert i. induction l as [|y r IH]; intros [|i] H; simpl; auto; inversion H; subst; constructor; auto.
Qed.
Lemma u8_lt x : (u8 x < 256)%N. Proof. unfold u8. apply N.mod_lt. lia. Qed.
Lemma lor_lt a b : (a < 256)%N -> (b < 256)%N -> (N.lor a b < 256)%N.
Proof.
  intros Ha Hb. apply (high_testbit _ 8). intros k Hk. rewrite N.lor_spec, (testbit_high a 8), (testbit_high b 8); auto.
Qed.

(** What writing the [n] bits of [value] at bit position [pos] means. *)
Record wrote (buf : list N) (pos : nat) (value : N) (n : nat) (buf' : list N) (idx' off' : nat) : Prop := {
  wt_len : length buf' = length buf;
  wt_pos : 8 * idx' + off' = pos + n /\ off' < 8;
  wt_before : forall p, p < pos -> bitat buf' p = bitat buf p;
  wt_bits : forall q, q < n -> bitat buf' (pos + q) = N.testbit value (N.of_nat (n - 1 - q));
  wt_zero : forall q, 0 < off' -> off' <= q < 8 -> bitat buf' (8 * idx' + q) = false;
  wt_after : forall p, 8 * idx' + (if 0 <? off' then 8 else 0) <= p -> bitat buf' p = bitat buf p;
  wt_byte : Forall (fun b => (b < 256)%N) buf';
}.

Lemma pack_whole_spec value : forall fuel bits buf idx, bits / 8 < fuel -> 8 * idx + bits <= 8 * length buf ->
  Forall (fun b => (b < 256)%N) buf ->
  exists buf' idx' off', pack_whole fuel value bits buf idx = Some (buf', idx', off') /\ wrote buf (8 * idx) value bits buf' idx' off'.
Proof.
  induction fuel as [|f IH]; intros bits buf idx Hf Hl Hb; [lia|]. cbn [pack_whole].
  destruct (Nat.leb_spec 8 bits) as [H8|H8].
  - set (x := u8 (N.shiftr value (N.of_nat (bits - 8)))).
    assert (Hi : idx < length buf) by lia. unfold wr. destruct (Nat.ltb_spec idx (length buf)); [|lia]. cbn [bindo].
    destruct (IH (bits - 8) (upd idx x buf) (idx + 1)) as (buf' & idx' & off' & -> & W).
    { replace bits with (bits - 8 + 1 * 8) in Hf by lia. rewrite Nat.div_add in Hf by lia. lia. }
    { rewrite upd_length. lia. }
    { apply Forall_upd; auto. apply u8_lt. }
    exists buf', idx', off'. split; auto. destruct W as [W1 [W2 W2'] W3 W4 W5 W6 W7]. constructor; auto; try lia.
    + rewrite W1, upd_length. auto.
    + intros p Hp. rewrite W3 by lia. destruct (divmod8 p) as (a & b & -> & Hb' & _). rewrite bitat_upd by auto.
      destruct (Nat.eqb_spec a idx); auto. lia.
    + intros q Hq. destruct (Nat.lt_ge_cases q 8) as [Hq8|Hq8].
      * rewrite W3 by lia. rewrite bitat_upd by auto. rewrite Nat.eqb_refl. unfold x. rewrite u8_testbit, shiftr_testbit.
        destruct (N.ltb_spec (N.of_nat (7 - q)) 8); [|lia]. cbn [andb]. f_equal. lia.
      * replace (8 * idx + q) with (8 * (idx + 1) + (q - 8)) by lia. rewrite W4 by lia. f_equal. lia.
    + intros p Hp. rewrite W6 by lia. destruct (divmod8 p) as (a & b & -> & Hb' & _). rewrite bitat_upd by auto.
      destruct (Nat.eqb_spec a idx); auto. lia.
  - destruct (Nat.ltb_spec 0 bits) as [H0|H0].
    + set (x := u8 (u64 (N.shiftl value (N.of_nat (8 - bits))))).
      assert (Hi : idx < length buf) by lia. unfold wr. destruct (Nat.ltb_spec idx (length buf)); [|lia]. cbn [bindo].
      exists (upd idx x buf), idx, bits. split; auto. 
      assert (Hx : forall q, q < 8 -> N.testbit x (N.of_nat (7 - q)) = (q <? bits) && N.testbit value (N.of_nat (bits - 1 - q))).
      { intros q Hq. unfold x. rewrite u8_testbit, u64_testbit, shiftl_testbit.
        destruct (N.ltb_spec (N.of_nat (7 - q)) 8); [|lia]. destruct (N.ltb_spec (N.of_nat (7 - q)) 64); [|lia]. cbn [andb].
        destruct (N.leb_spec (N.of_nat (8 - bits)) (N.of_nat (7 - q))), (Nat.ltb_spec q bits); try lia; auto. cbn [andb]. f_equal. lia. }
      constructor; auto.
      * apply upd_length.
      * intros p Hp. destruct (divmod8 p) as (a & b & -> & Hb' & _). rewrite bitat_upd by auto. destruct (Nat.eqb_spec a idx); auto. lia.
      * intros q Hq. rewrite bitat_upd by lia. rewrite Nat.eqb_refl, Hx by lia. destruct (Nat.ltb_spec q bits); [|lia]. auto.
      * intros q _ Hq. rewrite bitat_upd by lia. rewrite Nat.eqb_refl, Hx by lia. destruct (Nat.ltb_spec q bits); [lia|]. auto.
      * destruct (Nat.ltb_spec 0 bits); [|lia]. intros p Hp. destruct (divmod8 p) as (a & b & -> & Hb' & _). rewrite bitat_upd by auto.
        destruct (Nat.eqb_spec a idx); auto. lia.
      * apply Forall_upd; auto. apply u8_lt.
    + exists buf, idx, 0. split; auto. constructor; auto; try lia.
Qed.

(** packBits at any bit offset whose byte is still zero after the offset. *)
Lemma pack_bits_spec value bits buf idx off : off < 8 -> 8 * idx + off + bits <= 8 * length buf ->
  Forall (fun b => (b < 256)%N) buf ->
  (0 < off -> idx < length buf /\ forall q, off <= q < 8 -> bitat buf (8 * idx + q) = false) ->
  exists buf' idx' off', pack_bits value bits buf idx off = Some (buf', idx', off') /\ wrote buf (8 * idx + off) value bits buf' idx' off'.
Proof.
  intros Ho Hl Hb Hz. unfold pack_bits. destruct (Nat.ltb_spec 0 off) as [H0|H0].
  2:{ destruct (pack_whole_spec value (S (bits / 8)) bits buf idx) as (b' & i' & o' & E & W); auto; try lia.
      replace (8 * idx + off) with (8 * idx) by lia. eauto. }
  destruct (Hz H0) as [Hi Hzz]. rewrite (nth_error_nth' _ _ 0%N) by auto. cbn [bindo].
  set (b := nth idx buf 0%N).
  assert (Hbb : (b < 256)%N) by (rewrite Forall_forall in Hb; apply Hb; apply nth_In; auto).
  set (c := 8 - off). unfold wr. destruct (Nat.ltb_spec idx (length buf)); [|lia].
  assert (Hbit : forall q, q < off -> N.testbit b (N.of_nat (7 - q)) = bitat buf (8 * idx + q)).
  { intros q Hq. rewrite bitat_at by lia. auto. }
  assert (Hbz : forall q, off <= q < 8 -> N.testbit b (N.of_nat (7 - q)) = false).
  { intros q Hq. rewrite <- (Hzz q Hq), bitat_at by lia. auto. }
  destruct (Nat.ltb_spec bits c) as [Hc|Hc]; cbn [bindo].
  - set (y := u8 (N.land (u64 (N.shiftl value (N.of_nat (c - bits)))) (2 ^ N.of_nat c - 1))).
    assert (Hy : forall q, q < 8 -> N.testbit y (N.of_nat (7 - q)) = (off <=? q) && (q <? off + bits) && N.testbit value (N.of_nat (off + bits - 1 - q))).
    { intros q Hq. unfold y. rewrite u8_testbit, N.land_spec, u64_testbit, shiftl_testbit, mask_testbit.
      destruct (N.ltb_spec (N.of_nat (7 - q)) 8); [|lia]. destruct (N.ltb_spec (N.of_nat (7 - q)) 64); [|lia]. cbn [andb].
      destruct (N.leb_spec (N.of_nat (c - bits)) (N.of_nat (7 - q))), (Nat.leb_spec off q), (Nat.ltb_spec q (off + bits)),
        (N.ltb_spec (N.of_nat (7 - q)) (N.of_nat c)); unfold c in *; try lia; cbn [andb]; auto; try apply andb_false_r.
      rewrite andb_true_r. f_equal. lia. }
    eexists _, _, _. split; [reflexivity|]. constructor; auto.
    + apply upd_length.
    + unfold c in *. lia.
    + intros p Hp. destruct (divmod8 p) as (a & r & -> & Hr & _). rewrite bitat_upd by auto. destruct (Nat.eqb_spec a idx); auto. subst a.
      rewrite N.lor_spec, Hy, Hbit by lia. destruct (Nat.leb_spec off r); [lia|]. cbn [andb]. apply orb_false_r.
    + intros q Hq. unfold c in Hc. replace (8 * idx + off + q) with (8 * idx + (off + q)) by lia. rewrite bitat_upd by lia. rewrite Nat.eqb_refl.
      rewrite N.lor_spec, Hy, Hbz by lia. destruct (Nat.leb_spec off (off + q)); [|lia]. destruct (Nat.ltb_spec (off + q) (off + bits)); [|lia].
      cbn [andb orb]. f_equal. lia.
    + intros q _ Hq. rewrite bitat_upd by lia. rewrite Nat.eqb_refl. rewrite N.lor_spec, Hy, Hbz by lia.
      destruct (Nat.ltb_spec q (off + bits)); [lia|]. rewrite andb_false_r. auto.
    + destruct (Nat.ltb_spec 0 (off + bits)); [|lia]. intros p Hp. destruct (divmod8 p) as (a & r & -> & Hr & _). rewrite bitat_upd by auto.
      destruct (Nat.eqb_spec a idx); auto. lia.
    + apply Forall_upd; auto. apply lor_lt; auto. apply u8_lt.
  - set (y := u8 (N.land (N.shiftr value (N.of_nat (bits - c))) (2 ^ N.of_nat c - 1))).
    assert (Hy : forall q, q < 8 -> N.testbit y (N.of_nat (7 - q)) = (off <=? q) && N.testbit value (N.of_nat (off + bits - 1 - q))).
    { intros q Hq. unfold y. rewrite u8_testbit, N.land_spec, shiftr_testbit, mask_testbit.
      destruct (N.ltb_spec (N.of_nat (7 - q)) 8); [|lia]. cbn [andb].
      destruct (Nat.leb_spec off q), (N.ltb_spec (N.of_nat (7 - q)) (N.of_nat c)); unfold c in *; try lia; cbn [andb]; auto; try apply andb_false_r.
      rewrite andb_true_r. f_equal. lia. }
    assert (Hbu : Forall (fun b => (b < 256)%N) (upd idx (N.lor b y) buf)) by (apply Forall_upd; auto; apply lor_lt; auto; apply u8_lt).
    destruct (pack_whole_spec value (S (bits / 8)) (bits - c) (upd idx (N.lor b y) buf) (idx + 1)) as (b' & i' & o' & -> & W); auto.
    { apply Nat.lt_succ_r. apply Nat.div_le_mono; lia. }
    { rewrite upd_length. unfold c in *. lia. }
    exists b', i', o'. split; auto. destruct W as [W1 [W2 W2'] W3 W4 W5 W6 W7]. constructor; auto.
    + rewrite W1. apply upd_length.
    + unfold c in *. lia.
    + intros p Hp. rewrite W3 by lia. destruct (divmod8 p) as (a & r & -> & Hr & _). rewrite bitat_upd by auto. destruct (Nat.eqb_spec a idx); auto. subst a.
      rewrite N.lor_spec, Hy, Hbit by lia. destruct (Nat.leb_spec off r); [lia|]. cbn [andb]. apply orb_false_r.
    + intros q Hq. destruct (Nat.lt_ge_cases q c) as [Hqc|Hqc].
      * rewrite W3 by (unfold c in *; lia). replace (8 * idx + off + q) with (8 * idx + (off + q)) by lia.
        rewrite bitat_upd by (unfold c in *; lia). rewrite Nat.eqb_refl. unfold c in *.
        rewrite N.lor_spec, Hy, Hbz by lia. destruct (Nat.leb_spec off (off + q)); [|lia].
        cbn [andb orb]. f_equal. lia.
      * unfold c in *. replace (8 * idx + off + q) with (8 * (idx + 1) + (q - (8 - off))) by lia. rewrite W4 by lia. f_equal. lia.
    + intros p Hp. rewrite W6 by lia. destruct (divmod8 p) as (a & r & -> & Hr & _). rewrite bitat_upd by auto. destruct (Nat.eqb_spec a idx); auto.
      subst. unfold c in *. destruct (0 <? o'); lia.
Qed.

Lemma word_app buf p n m : (n + m <= 64) -> N.lor (u64 (N.shiftl (word buf p n) (N.of_nat m))) (word buf (p + n) m) = word buf p (n + m).
Proof.
  intros H. apply N.bits_inj. intros b. rewrite N.lor_spec, u64_testbit, shiftl_testbit, !word_testbit.
  destruct (N.ltb_spec b 64), (N.leb_spec (N.of_nat m) b), (N.ltb_spec b (N.of_nat m)), (N.ltb_spec (b - N.of_nat m) (N.of_nat n)),
    (N.ltb_spec b (N.of_nat (n + m))); try lia; cbn [andb orb]; auto; rewrite ?orb_false_r; f_equal; lia.
Qed.

Lemma word_byte buf idx off m : off + m <= 8 -> idx < length buf -> Forall (fun b => (b < 256)%N) buf ->
  word buf (8 * idx + off) m = N.land (N.shiftr (nth idx buf 0%N) (N.of_nat (8 - off - m))) (2 ^ N.of_nat m - 1).
Proof.
  intros H Hi Hb. apply N.bits_inj. intros b. rewrite word_testbit, N.land_spec, shiftr_testbit, mask_testbit.
  destruct (N.ltb_spec b (N.of_nat m)); [|rewrite andb_false_r; auto]. cbn [andb]. rewrite andb_true_r.
  replace (8 * idx + off + m - 1 - N.to_nat b) with (8 * idx + (off + m - 1 - N.to_nat b)) by lia. rewrite bitat_at by lia. f_equal. lia.
Qed.

Lemma nth_byte buf idx : idx < length buf -> Forall (fun b => (b < 256)%N) buf -> (nth idx buf 0 < 256)%N.
Proof. intros Hi Hb. rewrite Forall_forall in Hb. apply Hb. apply nth_In; auto. Qed.

Lemma unpack_whole_spec buf pos : Forall (fun b => (b < 256)%N) buf -> forall fuel done bits idx off, bits / 8 < fuel -> done + bits <= 64 ->
  pos + done = 8 * idx + (if 0 <? bits then 0 else off) -> (8 <= bits -> off = 0) -> 8 * idx + bits <= 8 * length buf -> off < 8 ->
  exists idx' off', unpack_whole fuel (word buf pos done) bits buf idx off = Some (word buf pos (done + bits), idx', off') /\
    8 * idx' + off' = pos + done + bits /\ off' < 8.
Proof.
  intros Hb. induction fuel as [|f IH]; intros done bits idx off Hf H64 Hp Hoff Hl Ho; [lia|]. cbn [unpack_whole].
  destruct (Nat.leb_spec 8 bits) as [H8|H8].
  - destruct (Nat.ltb_spec 0 bits); [|lia]. rewrite (nth_error_nth' _ _ 0%N) by lia. cbn [bindo].
    replace (nth idx buf 0%N) with (word buf (pos + done) 8).
    2:{ replace (pos + done) with (8 * idx + 0) by lia. rewrite word_byte by (auto; lia). change (N.of_nat (8 - 0 - 8)) with 0%N. rewrite N.shiftr_0_r.
        change (2 ^ N.of_nat 8 - 1)%N with (N.ones 8). rewrite N.land_ones. apply N.mod_small. apply nth_byte; auto. lia. }
    change 8%N with (N.of_nat 8). rewrite word_app by lia.
    destruct (IH (done + 8) (bits - 8) (idx + 1) off) as (i' & o' & E & Hp' & Ho'); try lia.
    { rewrite (Hoff H8). destruct (0 <? bits - 8); lia. }
    exists i', o'. rewrite E. replace (done + 8 + (bits - 8)) with (done + bits) by lia. split; auto. lia.
  - destruct (Nat.ltb_spec 0 bits) as [H0|H0].
    + rewrite (nth_error_nth' _ _ 0%N) by lia. cbn [bindo].
      replace (N.shiftr (nth idx buf 0%N) (N.of_nat (8 - bits))) with (word buf (pos + done) bits).
      2:{ replace (pos + done) with (8 * idx + 0) by lia. rewrite word_byte by (auto; lia). replace (8 - 0 - bits) with (8 - bits) by lia.
          rewrite N.sub_1_r, <- N.ones_equiv, N.land_ones. apply N.mod_small. rewrite N.shiftr_div_pow2. apply N.div_lt_upper_bound.
          { apply N.pow_nonzero. lia. }
          rewrite <- N.pow_add_r. replace (N.of_nat (8 - bits) + N.of_nat bits)%N with 8%N by lia. apply nth_byte; auto. lia. }
      rewrite word_app by lia. exists idx, bits. split; auto. lia.
    + exists idx, off. replace (done + bits) with done by lia. split; auto. lia.
Qed.

(** unpackBits reads the [bits]-bit number at bit position 8*idx + off and moves past it. *)
Lemma unpack_bits_spec bits buf idx off : 1 <= bits <= 64 -> off < 8 -> 8 * idx + off + bits <= 8 * length buf ->
  Forall (fun b => (b < 256)%N) buf ->
  exists idx' off', unpack_bits bits buf idx off = Some (word buf (8 * idx + off) bits, idx', off') /\
    8 * idx' + off' = 8 * idx + off + bits /\ off' < 8.
Proof.
  intros Hbits Ho Hl Hb. unfold unpack_bits. rewrite (nth_error_nth' _ _ 0%N) by lia. cbn [bindo].
  set (chunk := Nat.min (8 - off) bits). rewrite <- word_byte by (auto; lia).
  assert (Hc : chunk <= bits /\ off + chunk <= 8 /\ (bits - chunk > 0 -> off + chunk = 8)) by lia.
  assert (Hcc : 8 - off = chunk \/ (off + chunk < 8 /\ chunk = bits)) by lia.
  destruct (unpack_whole_spec buf (8 * idx + off) Hb (S (bits / 8)) chunk (bits - chunk)
    (if 8 - off =? chunk then idx + 1 else idx) ((off + chunk) mod 8)) as (i' & o' & E & Hp & Ho').
  - apply Nat.lt_succ_r. apply Nat.div_le_mono; lia.
  - lia.
  - destruct (Nat.eqb_spec (8 - off) chunk) as [A|A].
    + replace (off + chunk) with 8 by lia. change (8 mod 8) with 0. destruct (0 <? bits - chunk); lia.
    + rewrite Nat.mod_small by lia. destruct (Nat.ltb_spec 0 (bits - chunk)); lia.
  - intros A. replace (off + chunk) with 8 by lia. reflexivity.
  - destruct (Nat.eqb_spec (8 - off) chunk); lia.
  - apply Nat.mod_upper_bound. lia.
  - exists i', o'. rewrite E. replace (chunk + (bits - chunk)) with bits by lia. split; auto. lia.
Qed.
