(** * The byte images of HLL sketches: property C64.

    Specification vocabulary: [item], [rank_of], [slot_of], [code], [reg], [distinct], [in_list], [in_set], [in_array], [sketch_of], [feed]
    come from HllProps.v. *)
From Coq Require Import Permutation.
From Verif Require Import Base Bytes Arr ProbeModel ProbeProofs BitPackModel ItemSerdeModel ItemSerdeProps FreqSerdeProps HllModel HllPack HllArrProofs HllMode HllUnion HllProps HllSerdeModel HllSerdeProofs.
Local Open Scope nat_scope.

(** What can happen to a sketch: an item is put into it, or it is written (in compact form or not) and replaced by what is read from the
    bytes (asking for a rebuild or not). *)
Inductive hop := Put (x : item) | Ship (compact checkRebuild : bool).
Fixpoint items (ops : list hop) : list item :=
  match ops with [] => [] | Put x :: r => x :: items r | Ship _ _ :: r => items r end.

(** Sums over the slots: of 2^(31 - register) for registers below 32, and of 2^(63 - register) for the others. *)
Definition sum_low (lgK : N) (xs : list item) : Z :=
  fold_right Z.add 0%Z (map (fun i => if (reg lgK xs i <? 32)%N then 2 ^ (31 - Z.of_N (reg lgK xs i)) else 0)%Z (slots lgK)).
Definition sum_high (lgK : N) (xs : list item) : Z :=
  fold_right Z.add 0%Z (map (fun i => if (reg lgK xs i <? 32)%N then 0 else 2 ^ (63 - Z.of_N (reg lgK xs i)))%Z (slots lgK)).
(** The smallest register and the number of slots that have it. *)
Definition is_min (lgK : N) (xs : list item) (m : N) (n : nat) : Prop :=
  (forall i, In i (slots lgK) -> (m <= reg lgK xs i)%N) /\ 0 < n /\ n = length (filter (fun i => (reg lgK xs i =? m)%N) (slots lgK)).
(** The cells of a hash table of exceptions: those in use are the pairs of a slot and its register, for the registers of at least m + 15. *)
Definition exceptions (lgK : N) (xs : list item) (m : N) (cells : list N) : Prop :=
  NoDup (used cells) /\ forall p, In p (used cells) <-> exists i, In i (slots lgK) /\ (m + 15 <= reg lgK xs i)%N /\ p = (reg lgK xs i * 2 ^ 26 + N.of_nat i)%N.
Definition words (cs : list N) : list N := flat_map (le 4) cs.
Definition bit (b : bool) (v : N) : N := if b then v else 0%N.
Definition type_bits (t : tgt) : N := match t with T4 => 0 | T6 => 4 | T8 => 8 end%N.

Section SerdeProps.
  Context {F : Type}.
  Variable fzero : F.
  Variable hip_add : N -> Z -> Z -> F -> F.
  Variable coupon_est : nat -> F.
  Variable composite : N -> Z -> nat -> F.
  (** math.Float64bits and math.Float64frombits of the HIP accumulator. *)
  Variable hip_bits : F -> N.
  Variable hip_of : N -> F.
  Hypothesis hip_bits_u64 : forall f, (hip_bits f < 2 ^ 64)%N.
  Hypothesis hip_back : forall f, hip_of (hip_bits f) = f.
  Notation harr := (harr F).
  Notation hstate := (hstate F).
  Notation hinv := (hinv fzero hip_add coupon_est).
  Notation feed := (feed fzero hip_add coupon_est).
  Notation put := (put fzero hip_add coupon_est).
  Notation sketch_of := (sketch_of coupon_est composite).
  Notation get_estimate := (get_estimate coupon_est composite).
  Notation get_composite := (get_composite coupon_est composite).

  Definition hstep (s : hstate) (o : hop) : res hstate :=
    match o with
    | Put x => of_err (put s x)
    | Ship compact ck => let* b := to_slice hip_bits compact s in from_slice hip_of b ck
    end.
  Fixpoint journey_from (s : hstate) (ops : list hop) : res hstate :=
    match ops with [] => Ok s | o :: r => let* s := hstep s o in journey_from s r end.
  Definition journey (lgK : N) (t : tgt) (ops : list hop) : res hstate := let* s := of_err (sk_new lgK t) in journey_from s ops.

  Lemma journey_twin lgK t : forall ops s s' cs, hinv lgK t s cs -> hinv lgK t s' cs -> (is_list s -> s' = s) -> tidy s' ->
    match feed_from fzero hip_add coupon_est s (items ops) with
    | Some u => exists u', journey_from s' ops = Ok u' /\ hinv lgK t u (rev (map code (items ops)) ++ cs) /\ hinv lgK t u' (rev (map code (items ops)) ++ cs) /\ tidy u'
    | None => journey_from s' ops = Err
    end.
  Proof.
    induction ops as [|o ops IH]; intros s s' cs H H' Hl Ht; [cbn [items feed_from journey_from map rev app]; eauto|].
    destruct o as [x|compact ck]; cbn [items feed_from journey_from hstep].
    - unfold HllProps.put. rewrite code_coupon, !sk_update_valid by apply code_valid. cbn [map rev]. rewrite <- app_assoc. cbn [app].
      pose proof (twin_step fzero hip_add coupon_est lgK t s s' cs (code x) H H' Hl (code_valid x)) as W.
      destruct (st_update fzero hip_add coupon_est s (code x)) as [u|], (st_update fzero hip_add coupon_est s' (code x)) as [u'|] eqn:E'; try contradiction; cbn [bindo of_err bindr]; auto.
      destruct W as (W1 & W2 & W3). apply IH; auto. eapply tidy_step; eauto.
    - destruct (ship_ok fzero hip_add coupon_est hip_bits hip_of hip_bits_u64 hip_back lgK t s' cs compact ck H' Ht) as (E1 & s2 & E2 & H2 & T2 & L2).
      rewrite E1. cbn [bindr]. rewrite E2. cbn [bindr]. apply IH; auto. intros Hs. specialize (Hl Hs). subst s'. auto.
  Qed.

  Lemma journey_hinv lgK t ops : (4 <= lgK <= 21)%N ->
    match feed lgK t (items ops) with
    | Some u => exists u', journey lgK t ops = Ok u' /\ hinv lgK t u (rev (map code (items ops))) /\ hinv lgK t u' (rev (map code (items ops))) /\ tidy u'
    | None => journey lgK t ops = Err
    end.
  Proof.
    intros HK. unfold HllProps.feed, journey. assert (En : sk_new (F := F) lgK t = Some (HList lgK t (repeat 0%N 8) 0)).
    { unfold sk_new. destruct (N.leb_spec 4 lgK); [|lia]. destruct (N.leb_spec lgK 21); [|lia]. reflexivity. }
    rewrite En. cbn [bindo of_err bindr]. pose proof (hinv_new fzero hip_add coupon_est lgK t _ En) as H0.
    pose proof (journey_twin lgK t ops _ _ [] H0 H0 (fun _ => eq_refl) I) as W. rewrite app_nil_r in W. exact W.
  Qed.

  Lemma hinv_estimate lgK t s s' cs xs : hinv lgK t s cs -> hinv lgK t s' cs -> same cs (map code xs) ->
    get_estimate s' = get_estimate s /\ get_composite s' = get_composite s.
  Proof.
    intros H H' Hs. pose proof (hinv_sketch fzero hip_add coupon_est composite lgK t s cs xs H Hs) as S1. pose proof (hinv_sketch fzero hip_add coupon_est composite lgK t s' cs xs H' Hs) as S2.
    destruct (sketch_of_agree coupon_est composite lgK t t s s' xs xs ltac:(tauto) S1 S2) as [Ec _]. split; auto.
    unfold HllMode.hinv in *. destruct (over lgK (dist cs)).
    - destruct H as (_ & h1 & -> & _ & _ & _ & _ & O1 & _ & P1). destruct H' as (_ & h2 & -> & _ & _ & _ & _ & O2 & _ & P2). cbn [HllProps.get_estimate]. rewrite O1, O2, P1, P2. auto.
    - destruct H as (_ & _ & _ & H), H' as (_ & _ & _ & H'). destruct s, s'; try contradiction; auto.
  Qed.

  (** C64. Writing and reading back never shows: a sketch that was sent through its byte image any number of times, at any points of
      its life and in any of the forms, is a sketch of the items put into it and gives the same estimates as one that was never sent;
      it accepts an item exactly when that one does, and writing and reading themselves never fail. *)
  Theorem hll_images_are_invisible lgK t ops : (4 <= lgK <= 21)%N ->
    match feed lgK t (items ops) with
    | Some s => exists s', journey lgK t ops = Ok s' /\ sketch_of lgK t s' (items ops) /\ get_estimate s' = get_estimate s /\ get_composite s' = get_composite s
    | None => journey lgK t ops = Err
    end.
  Proof.
    intros HK. pose proof (journey_hinv lgK t ops HK) as W. destruct (feed lgK t (items ops)) as [s|]; auto. destruct W as (s' & E & H & H' & _). exists s'. split; auto. split.
    - eapply hinv_sketch; eauto. apply same_rev.
    - eapply hinv_estimate; eauto. apply same_rev.
  Qed.

  (** The 32 bytes 8-39 of an image in HLL mode. *)
  Definition numbers (hip : N) (low high : Z) (num aux : nat) : list N :=
    le 8 hip ++ le 8 (kx_bits 31 low) ++ le 8 (kx_bits 63 high) ++ le 4 (N.of_nat num) ++ le 4 (N.of_nat aux).
  (** The image of a sketch of lgK, type t and items xs, whose HIP accumulator has the bits hip. *)
  Definition image_of (lgK : N) (t : tgt) (xs : list item) (hip : N) (compact : bool) (b : list N) : Prop :=
    (in_list xs -> exists arr, length arr = 8 /\ exactly arr (distinct xs) xs /\ (forall i, i < distinct xs -> nth i arr 0%N <> 0%N) /\
       b = [2; 1; 7; lgK; 3; bit (distinct xs =? 0)%nat 4 + bit compact 8; N.of_nat (distinct xs); type_bits t]%N ++ words (if compact then firstn (distinct xs) arr else arr)) /\
    (in_set lgK xs -> exists lg arr, length arr = N.to_nat (2 ^ lg) /\ 4 * distinct xs <= 3 * length arr /\ exactly arr (distinct xs) xs /\
       b = [3; 1; 7; lgK; lg; bit compact 8; 0; 1 + type_bits t]%N ++ le 4 (N.of_nat (distinct xs)) ++ words (if compact then used arr else arr)) /\
    (in_array lgK xs ->
       match t with
       | T8 => b = [10; 1; 7; lgK; 0; 0; 0; 10]%N ++ numbers hip (sum_low lgK xs) (sum_high lgK xs) (empty_slots lgK xs) 0 ++ map (reg lgK xs) (slots lgK)
       | T6 => exists regs6, length regs6 = 3 * N.to_nat (2 ^ lgK) / 4 + 1 /\ (forall i, In i (slots lgK) -> get6 regs6 i = Some (reg lgK xs i)) /\
               b = [10; 1; 7; lgK; 0; 0; 0; 6]%N ++ numbers hip (sum_low lgK xs) (sum_high lgK xs) (empty_slots lgK xs) 0 ++ regs6
       | T4 => exists m n lg cells regs4, is_min lgK xs m n /\ exceptions lgK xs m cells /\ length regs4 = N.to_nat (2 ^ (lgK - 1)) /\
               (forall i, In i (slots lgK) -> get_nibble regs4 i = Some (N.min (reg lgK xs i - m) 15)) /\
               b = [10; 1; 7; lgK; lg; bit compact 8; m; 2]%N ++ numbers hip (sum_low lgK xs) (sum_high lgK xs) n (length (used cells)) ++ regs4 ++
                   words (if compact then used cells else cells)
       end).

  Lemma hinv_image lgK t s cs xs compact : hinv lgK t s cs -> tidy s -> same cs (map code xs) ->
    image_of lgK t xs (match s with HArr _ h => hip_bits (a_hip h) | _ => 0%N end) compact (wire hip_bits compact s).
  Proof.
    intros H Ht Hs. pose proof (hinv_sketch fzero hip_add coupon_est composite lgK t s cs xs H Hs) as Sk.
    assert (Ed : dist cs = distinct xs) by (rewrite distinct_dist; apply dist_eq_same; auto).
    assert (HmodeL : in_list xs -> ~ in_set lgK xs /\ ~ in_array lgK xs) by (unfold in_list, in_set, in_array; lia).
    assert (HmodeS : in_set lgK xs -> ~ in_array lgK xs) by (unfold in_set, in_array; lia).
    assert (Hty : forall m, mode_byte m t = (m + type_bits t)%N) by (intros; destruct t; reflexivity).
    pose proof Sk as (_ & _ & Sk'). unfold HllMode.hinv in H. destruct (over lgK (dist cs)) eqn:Eo.
    - destruct H as (Hv & h & -> & EK & Hi & Hk & Hh & E1 & E2 & E3). destruct Sk' as (Ha & _).
      split; [intros Hc; destruct (HmodeL Hc); contradiction|]. split; [intros Hc; specialize (HmodeS Hc); contradiction|]. intros _.
      pose proof Hi as (HK & Hi'). rewrite EK in HK.
      assert (Er : forall i, regs lgK cs i = reg lgK xs i) by (intros; apply same_reg; auto; lia).
      assert (Hslots : forall i, In i (slots lgK) <-> i < KK h) by (intros i; unfold slots, KK, nslots; rewrite EK, in_seq; lia).
      assert (EKK : KK h = N.to_nat (2 ^ lgK)) by (unfold KK, nslots; rewrite EK; auto).
      assert (K0 : a_kxq0 h = sum_low lgK xs).
      { destruct Hk as (-> & _). rewrite sumf_sum. unfold sum_low, slots. rewrite EKK. f_equal. apply map_ext. intros i. rewrite Er. reflexivity. }
      assert (K1 : a_kxq1 h = sum_high lgK xs).
      { destruct Hk as (_ & ->). rewrite sumf_sum. unfold sum_high, slots. rewrite EKK. f_equal. apply map_ext. intros i. rewrite Er. reflexivity. }
      assert (Hcount : forall m, count m (regs lgK cs) (KK h) = length (filter (fun i => (reg lgK xs i =? m)%N) (slots lgK))).
      { intros m. unfold count, cnt, slots. rewrite EKK. f_equal. apply filter_ext. intros i. rewrite Er. auto. }
      cbn [tidy] in Ht. cbn [wire]. unfold hll_wire, hll_head, numbers. rewrite EK, E1, E2, K0, K1, Hty. destruct t.
      + destruct Hi' as ((Lb & Hb & Hr & Hax) & Hn & Hp). rewrite EK in *.
        assert (Hmin : is_min lgK xs (a_curMin h) (a_num h)).
        { split; [intros i Hin; rewrite <- Er; apply Hr; apply Hslots; auto|]. split; auto. rewrite Hn. apply Hcount. }
        set (cells := match a_aux h with Some x => x_arr x | None => repeat 0%N (nslots (nth (N.to_nat (a_lgK h)) lg_aux_ints 0%N)) end).
        assert (Hu0 : forall n, used (repeat 0%N n) = []) by (induction n; auto).
        assert (Hax2 : exceptions lgK xs (a_curMin h) cells /\ (match a_aux h with Some x => N.of_nat (x_cnt x) | None => 0%N end = N.of_nat (length (used cells)))).
        { unfold cells. destruct (a_aux h) as [x|].
          - destruct Hax as (W & Hhas). pose proof W as (_ & Htb & Hcx & _ & Hp'). split; [split|].
            + replace (used (x_arr x)) with (acontents lgK (x_arr x)) by (unfold acontents, used, contents; apply filter_ext; intros c; unfold isocc, isfree, akey; destruct (c =? 0)%N; auto).
              apply NoDup_map_inv with (f := akey lgK). apply uniq_NoDup. apply Htb.
            + intros p. rewrite used_nz, nz_In. split.
              * intros (Hin & Hp0). destruct (Hp' p Hin Hp0) as (i & v & -> & Hlt & Hv0). destruct (proj1 (Hhas i v)) as (A & B & C); [split; auto|].
                exists i. split; [apply Hslots; unfold KK; rewrite EK; auto|]. rewrite <- Er, B. split; auto. unfold mk_pair. rewrite N.mod_small; auto.
                eapply N.lt_trans; [exact Hlt|]. apply N.pow_lt_mono_r; lia.
              * intros (i & Hi0 & Hge & ->). apply Hslots in Hi0. rewrite <- Er in *.
                assert (Hi1 : i < nslots lgK) by (unfold KK in Hi0; rewrite EK in Hi0; auto).
                destruct (proj2 (Hhas i (regs lgK cs i)) (conj Hi1 (conj eq_refl Hge))) as (A & B & C).
                unfold mk_pair in C. rewrite N.mod_small in C; [split; [exact C|lia]|]. eapply N.lt_trans; [exact B|]. apply N.pow_lt_mono_r; lia.
            + rewrite Hcx. f_equal. unfold acontents, used, contents. f_equal. apply filter_ext. intros c. unfold isocc, isfree, akey. destruct (c =? 0)%N; auto.
          - split; [|rewrite Hu0; auto]. split; rewrite Hu0; [constructor|]. intros p. split; [intros []|]. intros (i & Hi0 & Hge & _). apply Hslots in Hi0. rewrite <- Er in Hge.
            unfold KK in Hi0. rewrite EK in Hi0. specialize (Hax i Hi0). lia. }
        destruct Hax2 as (Hex & Hac).
        exists (a_curMin h), (a_num h), (match a_aux h with Some x => x_lg x | None => 0%N end), cells, (a_bytes h).
        split; auto. split; auto. split; [auto|]. split.
        * intros i Hin. destruct (Hr i (proj1 (Hslots i) Hin)) as (A & ->). rewrite Er in *. f_equal. unfold nib. destruct (N.ltb_spec (reg lgK xs i) (a_curMin h + 15)); lia.
        * rewrite Hac. unfold flagb, bit. change (if false then 16%N else 0%N) with 0%N. change (if false then 32%N else 0%N) with 0%N. rewrite !N.add_0_r.
          rewrite <- !app_assoc. do 8 f_equal. unfold aux_cells, cells, words, fixed_layout. destruct (a_aux h); auto. destruct compact; auto. rewrite Hu0. reflexivity.
      + destruct (Ht ltac:(discriminate)) as (Ha0 & Hm0). rewrite Ha0, Hm0. destruct Hi' as (Lb & Hb & Hr & Hn).
        exists (a_bytes h). split; [rewrite Lb, EKK; f_equal; f_equal; lia|]. split; [intros i Hin; rewrite <- Er; apply Hr, Hslots; auto|].
        assert (En : a_num h = empty_slots lgK xs) by (rewrite Hn, Nat.add_0_r; apply count_empty in Er; rewrite EKK; exact Er).
        rewrite En. unfold aux_cells. cbn [fixed_layout flat_map]. rewrite app_nil_r, <- !app_assoc. reflexivity.
      + destruct (Ht ltac:(discriminate)) as (Ha0 & Hm0). rewrite Ha0, Hm0. destruct Hi' as (Lb & Hr & Hn).
        assert (En : a_num h = empty_slots lgK xs) by (rewrite Hn, Nat.add_0_r; apply count_empty in Er; rewrite EKK; exact Er).
        assert (Eb : a_bytes h = map (reg lgK xs) (slots lgK)).
        { apply nth_error_ext. intros i. destruct (Nat.lt_ge_cases i (KK h)) as [Hlt|Hge].
          - rewrite (proj1 (Hr i Hlt)), nth_error_map. unfold slots. rewrite <- EKK. assert (Eseq : nth_error (seq 0 (KK h)) i = Some i) by (rewrite (nth_error_nth' (seq 0 (KK h)) i 0), seq_nth by (rewrite ?seq_length; auto); auto). rewrite Eseq. cbn [option_map plus]. rewrite Er. auto.
          - rewrite (proj2 (nth_error_None _ _)) by lia. symmetry. apply nth_error_None. rewrite map_length. unfold slots. rewrite seq_length. lia. }
        rewrite En, Eb. unfold aux_cells. cbn [fixed_layout flat_map]. rewrite app_nil_r, <- !app_assoc. reflexivity.
    - destruct H as (HK & Hv & _ & Hm). destruct s as [lK lt arr n|lK lt lg arr n|lt h]; [| |contradiction]; cbn [wire].
      + destruct Hm as (-> & -> & H8 & ds & (Hnd & Hz & Ea & Ec & Hlt) & Hds). destruct Sk' as (Hl & Hex). destruct (HmodeL Hl) as (N1 & N2).
        split; [|split; intros Hc; contradiction]. intros _.
        assert (En : n = distinct xs) by (rewrite Ec; rewrite (dist_same ds cs Hnd Hds); auto).
        exists arr. split; [rewrite Ea, app_length, repeat_length; lia|]. split; [rewrite <- En; auto|]. split.
        * intros i Hi. rewrite Ea, app_nth1 by lia. apply (proj1 (Forall_forall _ _) Hz). apply nth_In. lia.
        * unfold list_wire. rewrite Hty, En. f_equal. unfold words, fixed_layout. f_equal. destruct compact; auto.
          rewrite used_nz, <- En, Ec, Ea, nz_app_zeros, firstn_app, Nat.sub_diag, firstn_all by auto. cbn [firstn]. rewrite app_nil_r. auto.
      + destruct Hm as (-> & -> & H8 & (HK8 & Hlg & Htb & Ec & Hcap) & Hsm). destruct Sk' as (Hl & Hex).
        split; [intros Hc; destruct (HmodeL Hc); contradiction|]. split; [|intros Hc; specialize (HmodeS Hl); contradiction]. intros _.
        assert (En : n = distinct xs) by (destruct Hex as (A & <- & _); rewrite <- Ed; apply dist_same; auto).
        exists lg, arr. split; [apply Htb|]. split. { assert (El : length arr = nslots lg) by apply Htb. rewrite El, <- En. exact Hcap. }
        split; [rewrite <- En; auto|].
        unfold set_wire. rewrite Hty, En. destruct (Nat.eqb_spec (distinct xs) 0); [lia|]. reflexivity.
  Qed.

  (** C64. The image, byte by byte, and its announced length. *)
  Theorem hll_image_bytes lgK t ops s compact : (4 <= lgK <= 21)%N -> journey lgK t ops = Ok s ->
    exists b, to_slice hip_bits compact s = Ok b /\
      image_of lgK t (items ops) (hip_bits (get_estimate s)) compact b /\
      (compact = false -> updatable_bytes s = Some (length b)).
  Proof.
    intros HK E. pose proof (journey_hinv lgK t ops HK) as W. destruct (feed lgK t (items ops)) as [s0|]; [|congruence]. destruct W as (s' & E' & _ & H & Ht).
    assert (s' = s) by congruence. subst s'. destruct (ship_ok fzero hip_add coupon_est hip_bits hip_of hip_bits_u64 hip_back lgK t s _ compact true H Ht) as (Ew & _).
    exists (wire hip_bits compact s). split; auto. pose proof (hinv_image lgK t s _ (items ops) compact H Ht (same_rev (items ops))) as Im.
    pose proof (hinv_sketch fzero hip_add coupon_est composite lgK t s _ (items ops) H (same_rev (items ops))) as (_ & _ & Sk). split.
    - unfold HllMode.hinv in H. destruct (over lgK _) eqn:Eo.
      + destruct H as (_ & h & -> & _ & _ & _ & _ & E1 & _). cbn [HllProps.get_estimate]. rewrite E1. exact Im.
      + destruct H as (_ & _ & _ & H). destruct s as [lK lt arr n|lK lt lg arr n|lt h]; [| |contradiction]; destruct Im as (I1 & I2 & I3); (split; [auto|split; [auto|]]).
        * destruct Sk as (Sk & _). intros Ha. exfalso. unfold in_list, in_array in *. lia.
        * destruct Sk as (Sk & _). intros Ha. exfalso. unfold in_set, in_array in *. lia.
    - intros ->. unfold HllMode.hinv in H. destruct (over lgK _) eqn:Eo.
      + destruct H as (_ & h & -> & EK & (HK' & Hi) & _). cbn [updatable_bytes wire].
        assert (Ec : (match t with T4 => false | _ => false end) = false) by (destruct t; auto). rewrite Ec. unfold hll_wire. rewrite !app_length, hll_head_length, fixed_layout_length.
        assert (Ea : aux_bytes t h false = Some (4 * length (aux_cells t h false))).
        { unfold aux_bytes, aux_cells. destruct t; auto. destruct (a_aux h) as [x|] eqn:Ex.
          - destruct Hi as ((_ & _ & _ & Hax) & _). rewrite Ex in Hax. destruct Hax as ((_ & Htb & _) & _). f_equal. f_equal. symmetry. apply Htb.
          - destruct (nth_error lg_aux_ints (N.to_nat (a_lgK h))) eqn:El; cbn [bindo]; [rewrite (nth_error_nth _ _ _ El), repeat_length; auto|]. apply nth_error_None in El. cbn [length lg_aux_ints] in El. lia. }
        rewrite Ea. cbn [bindo]. f_equal. lia.
      + destruct H as (_ & _ & _ & H). destruct s as [lK lt arr n|lK lt lg arr n|lt h]; [| |contradiction]; cbn [updatable_bytes wire].
        * destruct H as (_ & _ & _ & ds & (_ & _ & Ea & _ & Hlt) & _). unfold list_wire. rewrite app_length, fixed_layout_length, Ea, app_length, repeat_length. cbn [length]. change (nslots 3) with 8. f_equal. lia.
        * destruct H as (_ & _ & _ & (_ & _ & Htb & _) & _). unfold set_wire. rewrite !app_length, le_length, fixed_layout_length. assert (El : length arr = nslots lg) by apply Htb. rewrite El. cbn [length]. f_equal. lia.
  Qed.
End SerdeProps.

(** * Concrete cases. float64 is replaced by 64-bit numbers, the estimators by simple functions. *)
From Coq Require Import Eqdep_dec.
Record u64 := U64 { val : N; val_small : (val <? 2 ^ 64)%N = true }.
Lemma mod_small64 n : ((n mod 2 ^ 64) <? 2 ^ 64)%N = true.
Proof. apply N.ltb_lt, N.mod_lt. discriminate. Qed.
Definition u64_of (n : N) : u64 := U64 (n mod 2 ^ 64) (mod_small64 n).
Lemma u64_small (f : u64) : (val f < 2 ^ 64)%N.
Proof. apply N.ltb_lt, val_small. Qed.
Lemma u64_back (f : u64) : u64_of (val f) = f.
Proof.
  destruct f as (n & H). unfold u64_of. cbn [val]. assert (E : (n mod 2 ^ 64 = n)%N) by (apply N.mod_small, N.ltb_lt; exact H).
  generalize (mod_small64 n). rewrite E. intros H'. f_equal. apply UIP_dec. decide equality.
Qed.
Definition uhip (_ : N) (_ _ : Z) (f : u64) : u64 := u64_of (val f + 1).
Definition uest (n : nat) : u64 := u64_of (N.of_nat n).
Definition ucomp (_ : N) (z : Z) (_ : nat) : u64 := u64_of (Z.to_N z).
Definition ujourney := journey (u64_of 0) uhip uest val u64_of.
Definition uimages := hll_images_are_invisible (u64_of 0) uhip uest ucomp val u64_of u64_small u64_back.

(** One life through all modes (list, set, HLL_4 with exceptions), sent after every few items in both forms: it succeeds, and so
    the theorem's first case applies. *)
Definition ship2 : list hop := [Ship true false; Ship false true].
Definition life : list hop :=
  map Put (row 0 5 3) ++ ship2 ++ map Put (row 5 10 4) ++ ship2 ++ map Put (row 15 40 20) ++ ship2 ++ map Put (row 0 8 30) ++ ship2.
Example life_reached : forall t, match ujourney 8 t life with Ok (HArr t' h) => t' = t /\ (t = T4 -> a_aux h <> None) | _ => False end.
Proof. intros t. destruct t; vm_compute; (split; [reflexivity|intros; discriminate]). Qed.
Example life_modes : match ujourney 8 T6 (firstn 7 life), ujourney 8 T6 (firstn 19 life) with Ok (HList _ _ _ 5), Ok (HSet _ _ _ _ 15) => True | _, _ => False end.
Proof. vm_compute. exact I. Qed.
(** The other case: the HLL_4 sketch that refuses an item refuses it after it was sent, too. *)
Definition full : list hop := map Put (row 0 6 20 ++ row 8 4 1) ++ ship2.
Example refused : match ujourney 4 T4 full with Ok _ => True | _ => False end /\ match ujourney 4 T4 (full ++ map Put (row 6 1 20)) with Err => True | _ => False end.
Proof. vm_compute. split; exact I. Qed.

(** * Where the code does not do what its documentation says *)
Definition uread := from_slice u64_of.

(** "this slice is not modified and is not retained by the sketch" (hll_sketch.go:180). In HLL mode the registers of the new sketch
    are the window b[40 : 40 + n] of the caller's slice (hll_array.go:320), so later items are written into it: [seen_by_caller] is the
    caller's slice when the sketch has the registers of h. After one item the caller's slice is no longer the image it was, nor an image of the changed sketch:
    read again, it gives a sketch that has the new register but estimates from the old sums. *)
Definition seen_by_caller (b : list N) (h : harr u64) : list N := firstn 40 b ++ a_bytes h ++ skipn (40 + length (a_bytes h)) b.
Theorem hll_from_slice_retains_slice_refuted : exists b s x h s2 h2,
  uread b true = Ok s /\ HllProps.put (u64_of 0) uhip uest s x = Some (HArr T8 h) /\ seen_by_caller b h <> b /\
  uread (seen_by_caller b h) true = Ok s2 /\ s2 = HArr T8 h2 /\ a_bytes h2 = a_bytes h /\
  HllProps.get_composite uest ucomp s2 <> HllProps.get_composite uest ucomp (HArr T8 h).
Proof.
  pose (sk := ujourney 4 T8 (map Put (row 0 8 3))). pose (b0 := match sk with Ok s => to_slice val true s | _ => Err end). 
  let b1 := eval vm_compute in (match b0 with Ok b => b | _ => [] end) in exists b1.
  eexists. exists (9, 2 ^ 60)%N. eexists. eexists. eexists.
  split; [vm_compute; reflexivity|]. split; [vm_compute; reflexivity|]. split; [vm_compute; discriminate|]. split; [vm_compute; reflexivity|]. split; [reflexivity|]. split; [vm_compute; reflexivity|].
  intros E. apply (f_equal val) in E. vm_compute in E. discriminate.
Qed.

(** A slice that is cut short makes the reader panic instead of returning an error, in every mode: here the image of a list, a set and an
    array without its last byte. So does a list whose count is above 8. *)
Definition image_or_nil (r : res (hstate u64)) : list N := match r with Ok s => match to_slice val true s with Ok b => b | _ => [] end | _ => [] end.
Theorem hll_truncated_image_panics_refuted : exists b1 b2 b3, 8 < length b1 /\ 12 < length b2 /\ 40 < length b3 /\
  (exists s, uread b1 true = Ok s) /\ (exists s, uread b2 true = Ok s) /\ (exists s, uread b3 true = Ok s) /\
  uread (removelast b1) true = Panic /\ uread (removelast b2) true = Panic /\ uread (removelast b3) true = Panic.
Proof.
  exists (image_or_nil (ujourney 8 T6 (map Put (row 0 5 3)))), (image_or_nil (ujourney 8 T6 (map Put (row 0 12 3)))), (image_or_nil (ujourney 4 T6 (map Put (row 0 12 3)))).
  split; [apply Nat.ltb_lt; vm_compute; reflexivity|]. split; [apply Nat.ltb_lt; vm_compute; reflexivity|]. split; [apply Nat.ltb_lt; vm_compute; reflexivity|].
  split; [eexists; vm_compute; reflexivity|]. split; [eexists; vm_compute; reflexivity|]. split; [eexists; vm_compute; reflexivity|].
  split; [vm_compute; reflexivity|]. split; vm_compute; reflexivity.
Qed.
Theorem hll_list_count_panics_refuted : exists b, nth_error b 6 = Some 9%N /\ uread b true = Panic.
Proof. exists ([2; 1; 7; 12; 3; 0; 9; 8] ++ repeat 1 36)%N. split; [reflexivity|vm_compute; reflexivity]. Qed.
(** The reader accepts a resolution that NewHllSketch refuses. *)
Theorem hll_bad_lgK_accepted_refuted : exists b s, uread b true = Ok s /\ sk_new (F := u64) (st_lgK s) (st_tgt s) = None.
Proof. exists [2; 1; 7; 40; 3; 4; 0; 8]%N. eexists. split; vm_compute; reflexivity. Qed.

Print Assumptions hll_images_are_invisible.
Print Assumptions hll_image_bytes.
Print Assumptions hll_from_slice_retains_slice_refuted.
Print Assumptions hll_truncated_image_panics_refuted.
