(** * Proofs about the byte images of HLL sketches: what is written, and what reading it back gives. *)
From Coq Require Import Permutation.
From Verif Require Import Base Bytes Arr ProbeModel ProbeProofs BitPackModel ItemSerdeModel ItemSerdeProps FreqSerdeProps HllModel HllPack HllArrProofs HllMode HllUnion HllSerdeModel.
Local Open Scope nat_scope.

(** ** Numbers *)
Lemma kx_back u k : (0 <= u <= 100)%Z -> (0 <= k <= 2 ^ 53)%Z -> kx_of u (kx_bits u k) = k /\ (kx_bits u k < 2 ^ 64)%N.
Proof.
  intros Hu Hk. unfold kx_bits. destruct (Z.leb_spec k 0) as [H0|H0]. { assert (k = 0)%Z by lia. subst. vm_compute. auto. }
  pose proof (Z.log2_spec k H0) as (L1 & L2). pose proof (Z.log2_nonneg k) as L0.
  assert (L3 : (Z.log2 k <= 53)%Z). { pose proof (Z.log2_le_mono k (2 ^ 53) ltac:(lia)) as L. rewrite Z.log2_pow2 in L by lia. lia. }
  set (e := Z.log2 k) in *. rewrite Z.pow_succ_r in L2 by lia.
  assert (Em : (k * 2 ^ 53 / 2 ^ (e + 1) * 2 ^ (e + 1) = k * 2 ^ 53)%Z).
  { destruct (Z.eq_dec e 53) as [E|E].
    - assert (Hk2 : k = (2 ^ 53)%Z) by (rewrite E in L1; lia). rewrite E, Hk2. reflexivity.
    - replace (2 ^ 53)%Z with (2 ^ (52 - e) * 2 ^ (e + 1))%Z by (rewrite <- Z.pow_add_r by lia; f_equal; lia).
      rewrite Z.mul_assoc, Z.div_mul by (apply Z.pow_nonzero; lia). auto. }
  set (m := (k * 2 ^ 53 / 2 ^ (e + 1))%Z) in *.
  assert (Hp : (0 < 2 ^ e)%Z) by (apply Z.pow_pos_nonneg; lia).
  assert (Ep : (2 ^ (e + 1) = 2 * 2 ^ e)%Z) by (rewrite Z.pow_add_r by lia; lia).
  assert (Hm : (2 ^ 52 <= m < 2 ^ 53)%Z).
  { rewrite Ep in Em. split.
    - apply (Z.mul_le_mono_pos_r _ _ (2 * 2 ^ e)); [lia|]. rewrite Em. replace (2 ^ 53)%Z with (2 * 2 ^ 52)%Z by reflexivity. nia.
    - apply (Z.mul_lt_mono_pos_r (2 * 2 ^ e)); [lia|]. rewrite Em. nia. }
  set (w := ((e + 1023 - u) * 2 ^ 52 + (m - 2 ^ 52))%Z).
  assert (Hw : (0 < w < 2 ^ 64)%Z). { unfold w. replace (2 ^ 64)%Z with (4096 * 2 ^ 52)%Z by reflexivity. replace (2 ^ 53)%Z with (2 * 2 ^ 52)%Z in Hm by reflexivity. nia. }
  split.
  - unfold kx_of. destruct (N.eqb_spec (Z.to_N w) 0); [lia|]. rewrite Z2N.id by lia.
    assert (D : (w / 2 ^ 52 = e + 1023 - u)%Z) by (unfold w; rewrite Z.div_add_l by discriminate; rewrite Z.div_small; [lia|]; replace (2 ^ 53)%Z with (2 * 2 ^ 52)%Z in Hm by reflexivity; lia).
    assert (M : (w mod 2 ^ 52 = m - 2 ^ 52)%Z). { unfold w. rewrite Z.add_comm, Z.mod_add by discriminate. apply Z.mod_small. replace (2 ^ 53)%Z with (2 * 2 ^ 52)%Z in Hm by reflexivity. lia. }
    rewrite D, M. replace (e + 1023 - u - 1023 + u + 1)%Z with (e + 1)%Z by lia. replace (m - 2 ^ 52 + 2 ^ 52)%Z with m by lia. rewrite Em. apply Z.div_mul. discriminate.
  - lia.
Qed.

Lemma lg_ceil_spec n : (1 <= n)%N -> (n <= 2 ^ lg_ceil n)%N /\ (2 ^ lg_ceil n < 2 * n)%N.
Proof.
  intros H. unfold lg_ceil. destruct (N.leb_spec n 1). { assert (n = 1)%N by lia. subst. cbn. lia. }
  pose proof (N.log2_spec (n - 1) ltac:(lia)) as (A & B). rewrite N.pow_add_r, N.pow_succ_r' in *. change (2 ^ 1)%N with 2%N. lia.
Qed.
Lemma lg_for_spec n : (1 <= n)%N -> (4 * n <= 3 * 2 ^ lg_for n)%N /\ (3 * 2 ^ lg_for n < 8 * n)%N.
Proof.
  intros H. destruct (lg_ceil_spec n H) as (A & B). unfold lg_for. destruct (N.ltb_spec (3 * 2 ^ lg_ceil n) (4 * n)); [|lia].
  rewrite N.pow_add_r. change (2 ^ 1)%N with 2%N. lia.
Qed.

(** ** Buffers *)
Lemma put_mid P bs old Q : length bs = length old -> put (length P) bs (P ++ old ++ Q) = Some (P ++ bs ++ Q).
Proof.
  intros H. rewrite put_at_boundary by (rewrite app_length; lia). f_equal. f_equal. f_equal. rewrite H, skipn_app, skipn_all, Nat.sub_diag. reflexivity.
Qed.
Lemma put_le_mid k P v old Q : k = length old -> put_le k (length P) v (P ++ old ++ Q) = Some (P ++ le k v ++ Q).
Proof. intros H. apply put_mid. rewrite le_length. auto. Qed.
Lemma get_le_mid k P v Q off : off = length P -> (v < 256 ^ N.of_nat k)%N -> get_le k off (P ++ le k v ++ Q) = Some v.
Proof. intros -> H. rewrite get_le_app_at, N.mod_small by auto. auto. Qed.

Lemma wr_cons0 {A} (x y : A) l : wr 0 x (y :: l) = Some (x :: l).
Proof. reflexivity. Qed.
Lemma wr_consS {A} i (x y : A) l : wr (S i) x (y :: l) = (do l' <- wr i x l; Some (y :: l')).
Proof. unfold wr. cbn [length Nat.ltb]. change (S i <? S (length l)) with (i <? length l). destruct (i <? length l); reflexivity. Qed.
Ltac wrs := repeat first [rewrite wr_consS | rewrite wr_cons0 | progress cbn [bindo nth_error]].

Lemma used_nz arr : used arr = nz arr. Proof. reflexivity. Qed.
Lemma used_le arr : length (used arr) <= length arr.
Proof. unfold used. induction arr; cbn [filter length]; auto. destruct (negb _); cbn [length]; lia. Qed.

Definition flagb (mask : N) (b : bool) : N := if b then mask else 0%N.
Definition mode_byte (mode : N) (t : tgt) : N := (mode + 4 * tgt_code t)%N.

Lemma common_layout pre lgK lgArr e mode t z : (pre < 64)%N -> (lgK < 256)%N -> (lgArr < 256)%N -> (mode < 4)%N ->
  put_common pre lgK lgArr e mode t (repeat 0%N 8 ++ z) = Some ([pre; 1; 7; lgK; lgArr; flagb 4 e; 0; mode_byte mode t]%N ++ z).
Proof.
  intros Hp Hk Ha Hm. unfold put_common, ins_flag, ins_mode, ins_tgt. cbn [repeat app]. wrs.
  change 63%N with (N.ones 6). rewrite N.land_ones, !N.mod_small by auto.
  assert (E1 : N.land (if e then N.lor 0 4 else N.land 0 (255 - 4)) (255 - 16) = flagb 4 e) by (destruct e; reflexivity). rewrite E1.
  assert (E2 : (N.lor (N.land (N.lor (N.land 0 (255 - 3)) (N.land mode 3)) (255 - 12)) (N.land (N.shiftl (tgt_code t) 2) 12)) = mode_byte mode t).
  { assert (Hin : In mode [0;1;2;3]%N) by (cbn [In]; lia). cbn [In] in Hin. destruct Hin as [<-|[<-|[<-|[<-|[]]]]]; destruct t; reflexivity. }
  rewrite E2. reflexivity.
Qed.

(** ** What is written, coupon modes *)
Definition list_wire (lgK : N) (t : tgt) (arr : list N) (cnt : nat) (compact : bool) : list N :=
  [2; 1; 7; lgK; 3; flagb 4 (cnt =? 0)%nat + flagb 8 compact; N.of_nat cnt; mode_byte 0 t]%N ++ fixed_layout 4 (if compact then used arr else arr).
Definition set_wire (lgK : N) (t : tgt) (lgArr : N) (arr : list N) (cnt : nat) (compact : bool) : list N :=
  [3; 1; 7; lgK; lgArr; flagb 4 (cnt =? 0)%nat + flagb 8 compact; 0; mode_byte 1 t]%N ++ le 4 (N.of_nat cnt) ++ fixed_layout 4 (if compact then used arr else arr).

Lemma ser_at start vals P : start = length P -> fixed_ser_loop 4 start vals (P ++ repeat 0%N (4 * length vals)) = Some (P ++ fixed_layout 4 vals).
Proof. intros ->. apply fixed_ser_loop_ok. Qed.

Lemma list_slice lgK t arr cnt compact : (lgK < 256)%N -> length arr = 8 -> length (used arr) = cnt ->
  coupon_slice true lgK t 3 arr cnt compact = Some (list_wire lgK t arr cnt compact).
Proof.
  intros HK Hl Hu. pose proof (used_le arr) as Hle. unfold coupon_slice, list_wire.
  assert (Hc : (N.of_nat cnt mod 256)%N = N.of_nat cnt) by (apply N.mod_small; lia). destruct compact.
  - rewrite repeat_app, common_layout by lia. cbn [bindo]. unfold ins_flag. cbn [app]. wrs.
    rewrite <- Hu. pose proof (ser_at 8 (used arr) [2; 1; 7; lgK; 3; N.lor (flagb 4 (length (used arr) =? 0)%nat) 8; 0; mode_byte 0 t]%N eq_refl) as E.
    cbn [app] in E. rewrite E. cbn [bindo app]. wrs. rewrite Hu, Hc. replace (N.lor (flagb 4 (cnt =? 0)%nat) 8) with (flagb 4 (cnt =? 0)%nat + flagb 8 true)%N by (destruct (cnt =? 0); reflexivity). reflexivity.
  - replace (4 * nslots 3) with (4 * length arr) by (rewrite Hl; reflexivity). rewrite repeat_app, common_layout by lia. cbn [bindo].
    pose proof (ser_at 8 arr [2; 1; 7; lgK; 3; flagb 4 (cnt =? 0)%nat; 0; mode_byte 0 t]%N eq_refl) as E. cbn [app] in *. rewrite E.
    cbn [bindo app]. wrs. rewrite Hc, N.add_0_r. reflexivity.
Qed.

Lemma set_slice lgK t lgArr arr cnt compact : (lgK < 256)%N -> (lgArr < 256)%N -> length arr = nslots lgArr -> length (used arr) = cnt ->
  coupon_slice false lgK t lgArr arr cnt compact = Some (set_wire lgK t lgArr arr cnt compact).
Proof.
  intros HK Ha Hl Hu. unfold coupon_slice, set_wire. cbv zeta iota. destruct compact.
  - replace (12 + 4 * cnt) with (8 + (4 + 4 * cnt)) by lia. rewrite repeat_app, common_layout by lia. cbn [bindo]. unfold ins_flag. cbn [app]. wrs.
    rewrite <- Hu. set (f := N.lor (flagb 4 (length (used arr) =? 0)%nat) 8).
    pose proof (ser_at 12 (used arr) [3; 1; 7; lgK; lgArr; f; 0; mode_byte 1 t; 0; 0; 0; 0]%N eq_refl) as E. rewrite repeat_app. cbn [repeat app] in *. rewrite E. cbn [bindo].
    pose proof (put_le_mid 4 [3; 1; 7; lgK; lgArr; f; 0; mode_byte 1 t]%N (N.of_nat (length (used arr))) [0; 0; 0; 0]%N (fixed_layout 4 (used arr)) eq_refl) as E2.
    cbn [length app] in E2. rewrite E2. assert (Ef : f = (flagb 4 (length (used arr) =? 0)%nat + flagb 8 true)%N) by (unfold f; destruct (length (used arr) =? 0); reflexivity).
    rewrite Ef. reflexivity.
  - rewrite <- Hl. replace (12 + 4 * length arr) with (8 + (4 + 4 * length arr)) by lia. rewrite repeat_app, common_layout by lia. cbn [bindo].
    pose proof (ser_at 12 arr [3; 1; 7; lgK; lgArr; flagb 4 (cnt =? 0)%nat; 0; mode_byte 1 t; 0; 0; 0; 0]%N eq_refl) as E. rewrite repeat_app. cbn [repeat app] in *. rewrite E. cbn [bindo].
    pose proof (put_le_mid 4 [3; 1; 7; lgK; lgArr; flagb 4 (cnt =? 0)%nat; 0; mode_byte 1 t]%N (N.of_nat cnt) [0; 0; 0; 0]%N (fixed_layout 4 arr) eq_refl) as E2.
    cbn [length app] in E2. rewrite E2. rewrite N.add_0_r. reflexivity.
Qed.

(** ** What is written, HLL mode *)
Section HllWire.
  Context {F : Type}.
  Variable hip_bits : F -> N.
  Variable hip_of : N -> F.
  Notation harr := (harr F).
  Implicit Types h : harr.

  Definition hll_head (t : tgt) h (compact : bool) : list N :=
    [10; 1; 7; a_lgK h; match a_aux h with Some x => x_lg x | None => 0 end; flagb 8 compact + flagb 16 (a_ooo h) + flagb 32 (a_rebuild h); a_curMin h; mode_byte 2 t]%N ++
    le 8 (hip_bits (a_hip h)) ++ le 8 (kx_bits 31 (a_kxq0 h)) ++ le 8 (kx_bits 63 (a_kxq1 h)) ++ le 4 (N.of_nat (a_num h)) ++
    le 4 (match a_aux h with Some x => N.of_nat (x_cnt x) | None => 0%N end).
  (** The image: 40 bytes of preamble, the packed registers, and for HLL_4 the pairs of the exceptions. *)
  Definition hll_wire (t : tgt) h (compact : bool) (auxpart : list N) : list N := hll_head t h compact ++ a_bytes h ++ auxpart.
  Lemma hll_head_length t h compact : length (hll_head t h compact) = 40.
  Proof. unfold hll_head. rewrite !app_length, !le_length. reflexivity. Qed.

  Lemma common_hll_layout t h compact z : (a_lgK h < 256)%N -> (a_curMin h < 256)%N ->
    put_common_hll hip_bits t h compact (repeat 0%N 40 ++ z) =
    Some ([10; 1; 7; a_lgK h; 0; flagb 8 compact + flagb 16 (a_ooo h) + flagb 32 (a_rebuild h); a_curMin h; mode_byte 2 t]%N ++
      (le 8 (hip_bits (a_hip h)) ++ le 8 (kx_bits 31 (a_kxq0 h)) ++ le 8 (kx_bits 63 (a_kxq1 h)) ++ le 4 (N.of_nat (a_num h))) ++ repeat 0%N 4 ++ z).
  Proof.
    intros HK HM. unfold put_common_hll, ins_flag, ins_mode, ins_tgt.
    change (repeat 0%N 40 ++ z) with (0 :: 0 :: 0 :: 0 :: 0 :: 0 :: 0 :: 0 :: repeat 0 8 ++ repeat 0 8 ++ repeat 0 8 ++ repeat 0 4 ++ repeat 0 4 ++ z)%N.
    set (Z8 := repeat 0%N 8). set (Z4 := repeat 0%N 4). wrs. rewrite !N.mod_small by auto.
    set (f := if a_ooo h then _ else _). set (md := N.lor (N.land _ (255 - 12)) _).
    set (P := [10; 1; 7; a_lgK h; 0; f; a_curMin h; md]%N).
    set (H8 := le 8 (hip_bits (a_hip h))). set (K0 := le 8 (kx_bits 31 (a_kxq0 h))). set (K1 := le 8 (kx_bits 63 (a_kxq1 h))). set (N4 := le 4 (N.of_nat (a_num h))).
    assert (L8 : length H8 = 8 /\ length K0 = 8 /\ length K1 = 8 /\ length N4 = 4 /\ length P = 8) by (unfold H8, K0, K1, N4; rewrite !le_length; auto). destruct L8 as (LH & L0 & L1 & LN & LP).
    pose proof (put_le_mid 8 P (hip_bits (a_hip h)) Z8 (Z8 ++ Z8 ++ Z4 ++ Z4 ++ z) eq_refl) as E. cbn [P length app] in E. rewrite E. clear E. cbn [bindo]. fold P H8.
    pose proof (put_le_mid 8 (P ++ H8) (kx_bits 31 (a_kxq0 h)) Z8 (Z8 ++ Z4 ++ Z4 ++ z) eq_refl) as E. rewrite app_length, LH, LP in E. rewrite <- !app_assoc in E. cbn [P app plus] in E. rewrite E. clear E. cbn [bindo]. fold K0.
    pose proof (put_le_mid 8 (P ++ H8 ++ K0) (kx_bits 63 (a_kxq1 h)) Z8 (Z4 ++ Z4 ++ z) eq_refl) as E. rewrite !app_length, LH, LP, L0 in E. rewrite <- !app_assoc in E. cbn [P app plus] in E. rewrite E. clear E. cbn [bindo]. fold K1.
    pose proof (put_le_mid 4 (P ++ H8 ++ K0 ++ K1) (N.of_nat (a_num h)) Z4 (Z4 ++ z) eq_refl) as E. rewrite !app_length, LH, LP, L0, L1 in E. rewrite <- !app_assoc in E. cbn [P app plus] in E. rewrite E. clear E. cbn [bindo]. fold N4.
    wrs. cbn [app]. rewrite <- !app_assoc.
    assert (Ef : (if a_rebuild h then N.lor f 32 else N.land f (255 - 32)) = (flagb 8 compact + flagb 16 (a_ooo h) + flagb 32 (a_rebuild h))%N)
      by (unfold f; destruct compact, (a_ooo h), (a_rebuild h); reflexivity).
    assert (Em : md = mode_byte 2 t) by (unfold md; destruct t; reflexivity).
    rewrite Ef, Em. reflexivity.
  Qed.

  (** The bytes after the registers. *)
  Definition aux_cells (t : tgt) h (compact : bool) : list N :=
    match t, a_aux h with
    | T4, Some x => if compact then used (x_arr x) else x_arr x
    | T4, None => if compact then [] else repeat 0%N (nslots (nth (N.to_nat (a_lgK h)) lg_aux_ints 0%N))
    | _, _ => []
    end.

  Lemma fixed_layout_zeros n : fixed_layout 4 (repeat 0%N n) = repeat 0%N (4 * n).
  Proof. unfold fixed_layout. induction n; auto. cbn [repeat flat_map]. rewrite IHn. replace (4 * S n) with (4 + 4 * n) by lia. reflexivity. Qed.

  Lemma hll_slice_ok t h compact : (4 <= a_lgK h <= 21)%N -> (a_curMin h < 256)%N ->
    match t with
    | T4 => length (a_bytes h) = nslots (a_lgK h - 1) /\
            match a_aux h with Some x => (x_lg x < 256)%N /\ length (x_arr x) = nslots (x_lg x) /\ length (used (x_arr x)) = x_cnt x | None => True end
    | _ => a_aux h = None
    end ->
    hll_slice hip_bits t h compact = Ok (hll_wire t h compact (fixed_layout 4 (aux_cells t h compact))).
  Proof.
    intros HK HM Ht. unfold hll_slice.
    assert (En : aux_bytes t h compact = Some (4 * length (aux_cells t h compact))).
    { unfold aux_bytes, aux_cells. destruct t; [|reflexivity|reflexivity]. destruct (a_aux h) as [x|].
      - destruct Ht as (_ & _ & L & U). destruct compact; f_equal; f_equal; auto.
      - destruct compact; auto. destruct (nth_error lg_aux_ints (N.to_nat (a_lgK h))) eqn:E.
        + cbn [bindo]. rewrite (nth_error_nth _ _ _ E), repeat_length. auto.
        + apply nth_error_None in E. cbn [length lg_aux_ints] in E. lia. }
    rewrite En. cbn [of_opt bindr]. set (cells := aux_cells t h compact) in *.
    replace (40 + length (a_bytes h) + 4 * length cells) with (40 + (length (a_bytes h) + 4 * length cells)) by lia. rewrite repeat_app, common_hll_layout by lia.
    cbn [of_opt bindr]. rewrite (repeat_app _ (length (a_bytes h))).
    set (R := le 8 _ ++ le 8 _ ++ le 8 _ ++ le 4 _). assert (LR : length R = 28) by (unfold R; rewrite !app_length, !le_length; auto).
    set (f := (_ + flagb 32 _)%N). set (P := [10; 1; 7; a_lgK h; 0; f; a_curMin h; mode_byte 2 t]%N).
    pose proof (put_mid (P ++ R ++ repeat 0%N 4) (a_bytes h) (repeat 0%N (length (a_bytes h))) (repeat 0%N (4 * length cells)) ltac:(rewrite repeat_length; auto)) as E.
    rewrite !app_length, LR, repeat_length in E. change (length P + (28 + 4)) with 40 in E. rewrite <- !app_assoc in E. rewrite E. clear E. cbn [of_opt bindr].
    assert (E4 : forall v, put_le 4 36 v (P ++ R ++ repeat 0%N 4 ++ a_bytes h ++ repeat 0%N (4 * length cells)) = Some (P ++ R ++ le 4 v ++ a_bytes h ++ repeat 0%N (4 * length cells))).
    { intros v. pose proof (put_le_mid 4 (P ++ R) v (repeat 0%N 4) (a_bytes h ++ repeat 0%N (4 * length cells)) eq_refl) as E. rewrite !app_length, LR in E.
      change (length P + 28) with 36 in E. rewrite <- !app_assoc in E. exact E. }
    unfold hll_wire, hll_head. destruct (a_aux h) as [x|] eqn:Ex.
    - assert (t = T4) by (destruct t; [auto|discriminate|discriminate]). subst t. destruct Ht as (LB & Hx & L & U). unfold put_aux. rewrite E4. cbn [of_opt bindr].
      unfold P. cbn [app]. wrs. cbn [of_opt bindr]. rewrite (N.mod_small (x_lg x)) by auto.
      set (Q := 10%N :: 1%N :: 7%N :: a_lgK h :: x_lg x :: f :: a_curMin h :: mode_byte 2 T4 :: R ++ le 4 (N.of_nat (x_cnt x)) ++ a_bytes h).
      assert (LQ : aux_start h = length Q).
      { unfold Q, aux_start. cbn [length]. rewrite !app_length, LR, le_length, LB. lia. }
      assert (EQ : 10%N :: 1%N :: 7%N :: a_lgK h :: x_lg x :: f :: a_curMin h :: mode_byte 2 T4 :: R ++ le 4 (N.of_nat (x_cnt x)) ++ a_bytes h ++ repeat 0%N (4 * length cells) = Q ++ repeat 0%N (4 * length cells)).
      { unfold Q. cbn [app]. rewrite <- !app_assoc. auto. }
      rewrite EQ. assert (Ec : cells = if compact then used (x_arr x) else x_arr x) by (unfold cells, aux_cells; try rewrite Ex; reflexivity).
      clearbody cells. subst cells. destruct compact.
      + rewrite (ser_at _ _ Q LQ). cbn [of_opt bindr]. rewrite U, Nat.eqb_refl. unfold Q. cbn [app]. unfold R. rewrite <- !app_assoc. auto.
      + assert (Eg : sl_get 0 (nslots (x_lg x)) (x_arr x) = Some (x_arr x)). { rewrite <- L. pose proof (get_seg [] (x_arr x) [] 0 (length (x_arr x)) eq_refl eq_refl) as G. rewrite app_nil_r in G. exact G. }
        rewrite Eg. cbn [bindo]. rewrite (ser_at _ _ Q LQ). cbn [of_opt]. unfold Q. cbn [app]. unfold R. rewrite <- !app_assoc. auto.
    - rewrite E4. cbn [of_opt]. unfold R. rewrite <- !app_assoc. do 8 f_equal. unfold cells, aux_cells. try rewrite Ex. f_equal.
      destruct t; [destruct compact; [reflexivity|rewrite fixed_layout_zeros, repeat_length; auto]|reflexivity|reflexivity].
  Qed.
End HllWire.

(** ** Reading the loops back *)
Definition u32s (l : list N) : Prop := Forall (fun v => (v < 2 ^ 32)%N) l.
Lemma get_le_cons v vals P Q off : off = length P -> (v < 2 ^ 32)%N -> get_le 4 off (P ++ fixed_layout 4 (v :: vals) ++ Q) = Some v.
Proof. intros E H. cbn [fixed_layout flat_map]. rewrite <- app_assoc. apply get_le_mid; auto. Qed.
Lemma layout_shift v vals P Q : P ++ fixed_layout 4 (v :: vals) ++ Q = (P ++ le 4 v) ++ fixed_layout 4 vals ++ Q.
Proof. cbn [fixed_layout flat_map]. rewrite <- !app_assoc. reflexivity. Qed.

Lemma read_list_ok : forall ds i P Q a0 tail, u32s ds -> length P = 8 + 4 * i -> length a0 = i -> length ds <= length tail ->
  read_list (length ds) i (P ++ fixed_layout 4 ds ++ Q) (a0 ++ tail) = Some (a0 ++ ds ++ skipn (length ds) tail).
Proof.
  induction ds as [|d ds IH]; intros i P Q a0 tail Hu HP Ha Hl; cbn [length read_list].
  - reflexivity.
  - inversion Hu as [|? ? Hd Hu']; subst. rewrite get_le_cons by auto. cbn [bindo]. destruct tail as [|y tail]; [cbn [length] in Hl; lia|].
    rewrite wr_seg by auto. cbn [bindo]. rewrite layout_shift. cbn [length] in Hl. replace (a0 ++ d :: tail) with ((a0 ++ [d]) ++ tail) by (rewrite <- app_assoc; auto).
    rewrite IH; auto; [|rewrite app_length, le_length; lia|rewrite app_length; cbn [length]; lia|lia].
    cbn [skipn]. rewrite <- !app_assoc. reflexivity.
Qed.

Lemma read_coupons_ok lgK : forall cs P Q lg arr cnt, u32s cs ->
  read_coupons (length cs) (length P) (P ++ fixed_layout 4 cs ++ Q) lgK lg arr cnt = of_err (list_to_set lgK cs lg arr cnt).
Proof.
  induction cs as [|c cs IH]; intros P Q lg arr cnt Hu; cbn [length read_coupons list_to_set]; auto.
  inversion Hu as [|? ? Hd Hu']; subst. rewrite get_le_cons by auto. cbn [bindr of_opt].
  destruct (set_add lgK lg arr cnt c) as [[[[lg' arr'] cnt'] p]|]; cbn [of_err bindr bindo]; auto.
  rewrite layout_shift. replace (length P + 4) with (length (P ++ le 4 c)) by (rewrite app_length, le_length; auto). apply IH. auto.
Qed.

Fixpoint add_pairs (ps : list N) (lgK : N) (x : auxmap) : option auxmap :=
  match ps with
  | [] => Some x
  | p :: r => do x <- aux_add x lgK (N.to_nat (N.land (pair_low p) (2 ^ lgK - 1))) (pair_value p); add_pairs r lgK x
  end.
Lemma read_pairs_ok (skip : bool) lgK : forall ps P Q x, u32s ps ->
  read_pairs (length ps) (length P) (P ++ fixed_layout 4 ps ++ Q) skip lgK x = of_err (add_pairs (if skip then used ps else ps) lgK x).
Proof.
  induction ps as [|p ps IH]; intros P Q x Hu; cbn [length read_pairs]; [destruct skip; auto|].
  inversion Hu as [|? ? Hd Hu']; subst. rewrite get_le_cons by auto. cbn [bindr of_opt].
  assert (IH' : forall x, read_pairs (length ps) (length P + 4) (P ++ fixed_layout 4 (p :: ps) ++ Q) skip lgK x = of_err (add_pairs (if skip then used ps else ps) lgK x)).
  { intros y. rewrite layout_shift. replace (length P + 4) with (length (P ++ le 4 p)) by (rewrite app_length, le_length; auto). apply IH. auto. }
  assert (Estep : (let* x := of_err (aux_add x lgK (N.to_nat (N.land (pair_low p) (2 ^ lgK - 1))) (pair_value p)) in read_pairs (length ps) (length P + 4) (P ++ fixed_layout 4 (p :: ps) ++ Q) skip lgK x)
    = of_err (add_pairs (p :: (if skip then used ps else ps)) lgK x)).
  { cbn [add_pairs]. destruct (aux_add _ _ _ _); cbn [of_err bindr bindo]; auto. }
  destruct skip; cbn [andb]; auto. cbn [used filter]. destruct (p =? 0)%N; cbn [negb]; auto.
Qed.

(** Rebuilding the exceptions of an HLL_4 array gives a map with the same bindings. *)
Lemma add_pairs_spec lgK : (4 <= lgK <= 21)%N -> forall ps x, wf_aux lgK x -> NoDup (map (akey lgK) ps) ->
  Forall (fun p => exists s v, p = mk_pair s v /\ (N.of_nat s < 2 ^ lgK)%N /\ (0 < v)%N) ps ->
  (forall s v w, In (mk_pair s v) ps -> (0 < v)%N -> (N.of_nat s < 2 ^ lgK)%N -> ~ has lgK (x_arr x) s w) -> 8 * (x_cnt x + length ps) <= 3 * nslots lgK ->
  exists x', add_pairs ps lgK x = Some x' /\ wf_aux lgK x' /\ x_cnt x' = x_cnt x + length ps /\
    forall s v, has lgK (x_arr x') s v <-> has lgK (x_arr x) s v \/ has lgK ps s v.
Proof.
  intros HK. induction ps as [|p ps IH]; intros x W Hnd Hp Hno Hcap; cbn [add_pairs].
  - exists x. split; auto. split; auto. split; [cbn [length]; lia|]. intros s v. split; auto. intros [H|(_ & _ & [])]; auto.
  - inversion Hp as [|? ? (s & v & -> & Hs & Hv) Hp']; subst. cbn [map] in Hnd. inversion Hnd as [|? ? Hn Hnd']; subst. cbn [length] in Hcap.
    assert (E1 : N.to_nat (N.land (pair_low (mk_pair s v)) (2 ^ lgK - 1)) = s).
    { rewrite pair_low_mk by (eapply N.lt_le_trans; [exact Hs|apply N.pow_le_mono_r; lia]). rewrite land_mask_mod, N.mod_small; lia. }
    rewrite E1, pair_value_mk.
    destruct (aux_add_spec lgK HK x s v W Hs Hv) as (A & _). { intros w. apply (Hno s v w); auto. left; auto. }
    destruct A as (x1 & E & W1 & C1 & H1). { unfold nslots in Hcap. lia. }
    rewrite E. cbn [bindo]. destruct (IH x1 W1 Hnd' Hp') as (x' & E' & W' & C' & H').
    + intros s2 v2 w Hin Hv2 Hs2 Hh. apply H1 in Hh. destruct Hh as [(-> & ->)|Hh].
      * apply Hn. apply in_map_iff. exists (mk_pair s v2). split; auto. rewrite !(akey_pair lgK HK); auto.
      * apply (Hno s2 v2 w); auto. right; auto.
    + lia.
    + exists x'. split; auto. split; auto. split; [cbn [length]; lia|]. intros s2 v2. rewrite H', H1.
      assert (Hc : has lgK (mk_pair s v :: ps) s2 v2 <-> (s2 = s /\ v2 = v) \/ has lgK ps s2 v2).
      { unfold has. cbn [In]. split.
        - intros (Ha & Hb & [Hc|Hc]); [left|right; auto]. apply (mk_pair_inj lgK HK) in Hc; auto. destruct Hc; auto.
        - intros [(-> & ->)|(Ha & Hb & Hc)]; auto. }
      rewrite Hc. tauto.
Qed.

Lemma aux_new_empty lgK lg : (4 <= lgK <= 21)%N -> (2 <= lg < lgK)%N -> wf_aux lgK (aux_new lg) /\ forall s v, ~ has lgK (x_arr (aux_new lg)) s v.
Proof.
  intros HK Hl. unfold aux_new. split.
  - split; [cbn [x_lg]; lia|]. cbn [x_lg x_cnt x_arr]. split; [apply table_ok_free; reflexivity|].
    split; [unfold acontents; rewrite contents_free by reflexivity; auto|]. split; [lia|]. intros p Hp Hne. apply repeat_spec in Hp. congruence.
  - intros s v (H3 & H4 & H5). cbn [x_arr] in H5. apply repeat_spec in H5. apply (mk_pair_pos s v); auto.
Qed.

Lemma rebuild_aux lgK m x r lg : (4 <= lgK <= 21)%N -> aux_ok lgK m (Some x) r -> (2 <= lg < lgK)%N ->
  exists x', add_pairs (used (x_arr x)) lgK (aux_new lg) = Some x' /\ aux_ok lgK m (Some x') r.
Proof.
  intros HK (W & Hh) Hlg. destruct (aux_new_empty lgK lg HK Hlg) as (W0 & H0). pose proof W as (Hx & Ht & Hc & Hcap & Hp).
  assert (Eu : used (x_arr x) = contents (akey lgK) (x_arr x)). { unfold used, contents. apply filter_ext. intros c. unfold isocc, isfree, akey. destruct (c =? 0)%N; auto. }
  destruct (add_pairs_spec lgK HK (used (x_arr x)) (aux_new lg) W0) as (x' & E & W' & C' & H').
  - rewrite Eu. apply uniq_NoDup. apply Ht.
  - apply Forall_forall. intros p Hin. apply filter_In in Hin. destruct Hin as (Hin & Hne). apply Hp; auto. intros ->. discriminate.
  - intros; auto.
  - pose proof (exc_cap lgK x HK W). rewrite Eu. fold (acontents lgK (x_arr x)). rewrite <- Hc. cbn [aux_new x_cnt]. lia.
  - exists x'. split; auto. split; auto. intros i v. rewrite H', <- Hh. unfold has. split.
    + intros [H|(A & B & C)]; [exfalso; exact (H0 _ _ H)|]. split; auto. split; auto. apply filter_In in C. apply C.
    + intros (A & B & C). right. split; auto. split; auto. apply filter_In. split; auto. pose proof (mk_pair_pos i v A). destruct (N.eqb_spec (mk_pair i v) 0); [contradiction|auto].
Qed.

Lemma mk_pair_u32 s v : (v < 64)%N -> (mk_pair s v < 2 ^ 32)%N.
Proof. intros H. unfold mk_pair. pose proof (N.mod_lt (N.of_nat s) (2 ^ 26) ltac:(discriminate)). change (2 ^ 32)%N with (64 * 2 ^ 26)%N. nia. Qed.
Lemma aux_u32 lgK m x r : aux_ok lgK m (Some x) r -> (forall i, i < nslots lgK -> (r i < 64)%N) -> u32s (x_arr x).
Proof.
  intros (W & Hh) Hr. pose proof W as (_ & _ & _ & _ & Hp). apply Forall_forall. intros p Hin. destruct (N.eq_dec p 0) as [->|Hne]; [lia|].
  destruct (Hp p Hin Hne) as (s & v & -> & Hs & Hv). apply mk_pair_u32. destruct (proj1 (Hh s v)) as (A & <- & _); [split; auto|]. apply Hr. auto.
Qed.

(** ** Reading the images back *)
Lemma tgt_back mode t : (mode < 4)%N -> tgt_of (N.shiftr (N.land (mode_byte mode t) 12) 2) = t /\ N.land (mode_byte mode t) 3 = mode.
Proof.
  intros Hm. assert (Hin : In mode [0;1;2;3]%N) by (cbn [In]; lia). cbn [In] in Hin. destruct Hin as [<-|[<-|[<-|[<-|[]]]]]; destruct t; split; reflexivity.
Qed.

Section ReadBack.
  Context {F : Type}.
  Variable hip_bits : F -> N.
  Variable hip_of : N -> F.
  Hypothesis hip_bits_u64 : forall f, (hip_bits f < 2 ^ 64)%N.
  Hypothesis hip_back : forall f, hip_of (hip_bits f) = f.
  Notation harr := (harr F).
  Notation hstate := (hstate F).
  Implicit Types h : harr.

  Lemma from_list_ok lgK t ds arr cnt compact ck : lwf ds arr cnt -> u32s ds ->
    from_slice hip_of (list_wire lgK t arr cnt compact) ck = Ok (HList lgK t arr cnt).
  Proof.
    intros (_ & Hz & Earr & Ec & Hlt) Hu. destruct (tgt_back 0 t eq_refl) as (T1 & T2).
    assert (El : exists Q, list_wire lgK t arr cnt compact = [2; 1; 7; lgK; 3; flagb 4 (cnt =? 0)%nat + flagb 8 compact; N.of_nat cnt; mode_byte 0 t]%N ++ fixed_layout 4 ds ++ Q).
    { unfold list_wire. destruct compact.
      - exists []. rewrite app_nil_r, Earr, used_nz, nz_app_zeros; auto.
      - exists (fixed_layout 4 (repeat 0%N (8 - length ds))). rewrite Earr. unfold fixed_layout. rewrite flat_map_app. auto. }
    destruct El as (Q & ->). set (f := (_ + _)%N). set (P := [2; 1; 7; lgK; 3; f; N.of_nat cnt; mode_byte 0 t]%N).
    unfold from_slice. change (length (P ++ fixed_layout 4 ds ++ Q)) with (8 + length (fixed_layout 4 ds ++ Q)).
    assert (Ep : check_preamble (P ++ fixed_layout 4 ds ++ Q) = Ok 0%N).
    { unfold check_preamble. change (length (P ++ fixed_layout 4 ds ++ Q)) with (8 + length (fixed_layout 4 ds ++ Q)). cbn [P app nth_error of_opt bindr].
      rewrite T2. reflexivity. }
    rewrite Ep. cbn [bindr]. change (8 + length (fixed_layout 4 ds ++ Q) <? 8) with false. cbv iota. change (0 =? 2)%N with false. change (0 =? 0)%N with true. cbv iota.
    unfold read_coupon_list, rd_tgt. cbn [P app nth_error of_opt bindr]. rewrite T1, Nat2N.id.
    assert (Er : read_list cnt 0 (P ++ fixed_layout 4 ds ++ Q) (repeat 0%N 8) = Some arr).
    { rewrite Ec. pose proof (read_list_ok ds 0 P Q [] (repeat 0%N 8) Hu eq_refl eq_refl ltac:(rewrite repeat_length; lia)) as R. cbn [app] in R. cbn [app]. rewrite R. f_equal.
      rewrite Earr. f_equal. replace 8 with (length ds + (8 - length ds)) at 1 by lia. apply skipn_repeat. }
    cbn [P app] in Er. rewrite Er. reflexivity.
  Qed.

  Lemma list_to_set_all lgK : forall cs lg arr cnt, swf lgK lg arr cnt -> Forall (fun c => c <> 0%N) cs -> 4 * (cnt + length cs) <= 3 * nslots (lgK - 3) ->
    exists lg' arr' cnt', list_to_set lgK cs lg arr cnt = Some (lg', arr', cnt') /\ swf lgK lg' arr' cnt' /\ same (nz arr') (cs ++ nz arr).
  Proof.
    induction cs as [|c cs IH]; intros lg arr cnt Hw Hcs Hcap; cbn [list_to_set].
    - exists lg, arr, cnt. split; auto. split; auto. intros c. reflexivity.
    - inversion Hcs as [|? ? Hc Hcs']; subst. cbn [length] in Hcap.
      destruct (set_add_spec lgK lg arr cnt c Hw Hc) as (lg' & arr' & cnt' & p & E & Hs & Hnd & Hl & Hw' & Hp & _ & _).
      assert (Hle : cnt' <= cnt + 1).
      { rewrite Hl. destruct Hw as (_ & _ & Ht & -> & _). replace (length (nz arr) + 1) with (length (c :: nz arr)) by (cbn [length]; lia).
        apply NoDup_incl_length; auto. intros d Hd. apply Hs; auto. }
      destruct p; [destruct (Nat.ltb_spec (3 * nslots (lgK - 3)) (4 * cnt')); [lia|discriminate]|]. specialize (Hw' eq_refl). rewrite E. cbn [bindo].
      destruct (IH lg' arr' cnt' Hw' Hcs') as (l2 & a2 & n2 & E2 & W2 & S2); [lia|].
      exists l2, a2, n2. split; auto. split; auto. intros d. rewrite (S2 d), !in_app_iff, (Hs d). cbn [In]. tauto.
  Qed.

  Lemma set_preamble lgK t lgArr f cnt Z : check_preamble ([3; 1; 7; lgK; lgArr; f; 0; mode_byte 1 t]%N ++ le 4 cnt ++ Z) = Ok 1%N /\
    length ([3; 1; 7; lgK; lgArr; f; 0; mode_byte 1 t]%N ++ le 4 cnt ++ Z) <? 8 = false.
  Proof.
    destruct (tgt_back 1 t eq_refl) as (T1 & T2).
    assert (El : length ([3; 1; 7; lgK; lgArr; f; 0; mode_byte 1 t]%N ++ le 4 cnt ++ Z) = 12 + length Z) by (rewrite !app_length, le_length; cbn [length]; lia).
    split; [|rewrite El; reflexivity]. unfold check_preamble. rewrite El. cbn [app nth_error of_opt bindr]. rewrite T2. reflexivity.
  Qed.

  Lemma from_set_ok lgK t lgArr arr cnt compact ck : swf lgK lgArr arr cnt -> u32s arr ->
    exists lgArr' arr', from_slice hip_of (set_wire lgK t lgArr arr cnt compact) ck = Ok (HSet lgK t lgArr' arr' cnt) /\
      swf lgK lgArr' arr' cnt /\ same (nz arr') (nz arr) /\ (compact = false -> lgArr' = lgArr /\ arr' = arr).
  Proof.
    intros Hw Hu. pose proof Hw as (HK & Hlg & Ht & Hc & Hcap). destruct (tgt_back 1 t eq_refl) as (T1 & T2).
    assert (Hlen : length arr = nslots lgArr) by apply Ht.
    pose proof (nslots_mono lgArr (lgK - 3) ltac:(lia)) as Hm.
    assert (Hcnt : (N.of_nat cnt < 2 ^ 32)%N).
    { assert (Hb : nslots (lgK - 3) <= nslots 18) by (apply nslots_mono; lia). assert (E18 : N.of_nat (nslots 18) = (2 ^ 18)%N) by (unfold nslots; apply N2Nat.id). change (2 ^ 32)%N with (16384 * 2 ^ 18)%N. lia. }
    unfold set_wire. set (f := (_ + _)%N). set (cells := if compact then used arr else arr).
    set (P := [3; 1; 7; lgK; lgArr; f; 0; mode_byte 1 t]%N).
    assert (H0 : cnt =? 0 = false \/ cnt = 0) by (destruct (Nat.eqb_spec cnt 0); auto).
    unfold from_slice. destruct (set_preamble lgK t lgArr f (N.of_nat cnt) (fixed_layout 4 cells)) as (Ep & El). fold P in Ep, El. rewrite El, Ep. cbn [bindr].
    change (1 =? 2)%N with false. change (1 =? 0)%N with false. cbv iota. unfold read_coupon_set, rd_tgt.
    assert (Eg : get_le 4 8 (P ++ le 4 (N.of_nat cnt) ++ fixed_layout 4 cells) = Some (N.of_nat cnt)) by (apply get_le_mid; auto).
    change (nth_error (P ++ le 4 (N.of_nat cnt) ++ fixed_layout 4 cells) 3) with (Some lgK).
    change (nth_error (P ++ le 4 (N.of_nat cnt) ++ fixed_layout 4 cells) 4) with (Some lgArr).
    change (nth_error (P ++ le 4 (N.of_nat cnt) ++ fixed_layout 4 cells) 5) with (Some f).
    change (nth_error (P ++ le 4 (N.of_nat cnt) ++ fixed_layout 4 cells) 7) with (Some (mode_byte 1 t)).
    rewrite Eg. cbn [of_opt bindr]. rewrite T1, T2. cbn [bindr]. change (1 =? 1)%N with true. cbv iota.
    destruct (N.leb_spec lgK 7); [lia|]. rewrite Nat2N.id. destruct (N.ltb_spec lgArr 5); [lia|].
    assert (Ef : flag 8 f = compact). { unfold f, flag. destruct (cnt =? 0), compact; reflexivity. } rewrite Ef.
    rewrite app_assoc. set (P12 := P ++ le 4 (N.of_nat cnt)). assert (L12 : length P12 = 12) by reflexivity.
    destruct compact; unfold cells in *.
    - assert (Eq : cnt = length (used arr)) by auto.
      assert (Huu : u32s (used arr)). { apply Forall_forall. intros c Hin. apply filter_In in Hin. exact (proj1 (Forall_forall _ _) Hu c (proj1 Hin)). }
      pose proof (read_coupons_ok lgK (used arr) P12 [] 5%N (repeat 0%N 32) 0 Huu) as R. rewrite app_nil_r, L12, <- Eq in R. rewrite R.
      destruct (list_to_set_all lgK (used arr) 5 (repeat 0%N 32) 0) as (lg' & arr' & cnt' & E & W' & S').
      + split; [lia|]. split; [lia|]. split; [apply table_ok_free; reflexivity|]. split; [reflexivity|]. apply Nat.le_0_l.
      + apply Forall_forall. intros c Hin. apply filter_In in Hin. intros ->. destruct Hin; discriminate.
      + lia.
      + rewrite E. cbn [of_err bindr]. exists lg', arr'. assert (S2 : same (nz arr') (nz arr)). { intros c. rewrite (S' c), in_app_iff. change (nz (repeat 0%N 32)) with (@nil N). cbn [In]. tauto. }
        assert (cnt' = cnt).
        { destruct W' as (_ & _ & Ht' & -> & _). rewrite Hc. apply Nat.le_antisymm; apply NoDup_incl_length; try (eapply nz_NoDup; eassumption); intros c Hin; apply S2; auto. }
        subst cnt'. split; auto. split; auto. split; auto. discriminate.
    - destruct (N.leb_spec 62 lgArr); [lia|]. rewrite <- Hlen, <- L12. rewrite <- (app_nil_r (fixed_layout 4 arr)). rewrite fixed_deser_ok by auto. cbn [of_opt bindr].
      exists lgArr, arr. split; auto. split; auto. split; [intros c; tauto|auto].
  Qed.

  Definition nbytes (t : tgt) (lgK : N) : nat := match t with T4 => nslots (lgK - 1) | T6 => nslots lgK * 3 / 4 + 1 | T8 => nslots lgK end.
  (** The counters fit their fields. *)
  Definition fields_ok h : Prop :=
    (4 <= a_lgK h <= 21)%N /\ (a_curMin h < 256)%N /\ (N.of_nat (a_num h) < 2 ^ 32)%N /\ (0 <= a_kxq0 h <= 2 ^ 53)%Z /\ (0 <= a_kxq1 h <= 2 ^ 53)%Z.

  Lemma hll_preamble t h compact Z : check_preamble (hll_wire hip_bits t h compact Z) = Ok 2%N /\ length (hll_wire hip_bits t h compact Z) <? 8 = false.
  Proof.
    destruct (tgt_back 2 t eq_refl) as (T1 & T2).
    assert (El : length (hll_wire hip_bits t h compact Z) = 40 + length (a_bytes h ++ Z)) by (unfold hll_wire; rewrite app_length, hll_head_length; auto).
    split; [|rewrite El; reflexivity]. unfold check_preamble. rewrite El. unfold hll_wire, hll_head. cbn [app nth_error of_opt bindr]. rewrite T2. reflexivity.
  Qed.

  Lemma read_common_ok t h compact Z : fields_ok h -> length (a_bytes h) = nbytes t (a_lgK h) ->
    read_common hip_of t (hll_wire hip_bits t h compact Z) = Ok (set_aux h None).
  Proof.
    intros (HK & HM & HN & H0 & H1) Hb. destruct (kx_back 31 (a_kxq0 h) ltac:(lia) H0) as (K0 & K0'). destruct (kx_back 63 (a_kxq1 h) ltac:(lia) H1) as (K1 & K1').
    unfold hll_wire, hll_head. set (f := (_ + _)%N). set (P := [10; 1; 7; a_lgK h; _; f; a_curMin h; mode_byte 2 t]%N).
    set (A4 := le 4 (match a_aux h with Some x => N.of_nat (x_cnt x) | None => 0%N end)). rewrite <- !app_assoc. unfold read_common.
    set (W := P ++ _).
    change (nth_error W 3) with (Some (a_lgK h)). change (nth_error W 5) with (Some f). change (nth_error W 6) with (Some (a_curMin h)).
    cbn [of_opt bindr]. destruct (N.leb_spec 62 (a_lgK h)); [lia|]. destruct (N.eqb_spec (a_lgK h) 0); [lia|]. cbn [andb].
    assert (E8 : get_le 8 8 W = Some (hip_bits (a_hip h))) by (apply get_le_mid; auto; apply hip_bits_u64).
    assert (E16 : get_le 8 16 W = Some (kx_bits 31 (a_kxq0 h))).
    { unfold W. rewrite (app_assoc P). apply get_le_mid; [rewrite app_length, le_length; reflexivity|]. exact K0'. }
    assert (E24 : get_le 8 24 W = Some (kx_bits 63 (a_kxq1 h))).
    { unfold W. rewrite (app_assoc P), (app_assoc (P ++ _)). apply get_le_mid; [rewrite !app_length, !le_length; reflexivity|]. exact K1'. }
    assert (E32 : get_le 4 32 W = Some (N.of_nat (a_num h))).
    { unfold W. rewrite (app_assoc P), (app_assoc (P ++ _)), (app_assoc ((P ++ _) ++ _)). apply get_le_mid; [rewrite !app_length, !le_length; reflexivity|]. exact HN. }
    assert (E40 : slice 40 (nbytes t (a_lgK h)) W = Some (a_bytes h)).
    { unfold W. rewrite (app_assoc P), (app_assoc (P ++ _)), (app_assoc ((P ++ _) ++ _)), (app_assoc (((P ++ _) ++ _) ++ _)), (app_assoc ((((P ++ _) ++ _) ++ _) ++ _)).
      set (PP := (((((P ++ _) ++ _) ++ _) ++ _) ++ A4)). assert (LP : length PP = 40) by (unfold PP, A4; rewrite !app_length, !le_length; reflexivity).
      rewrite <- LP, <- Hb. apply slice_app_at. }
    rewrite E8, E16, E24, E32. cbn [of_opt bindr]. fold (nbytes t (a_lgK h)). rewrite E40. cbn [of_opt bindr]. unfold set_aux.
    assert (F1 : flag 16 f = a_ooo h) by (unfold f, flag; destruct compact, (a_ooo h), (a_rebuild h); reflexivity).
    assert (F2 : flag 32 f = a_rebuild h) by (unfold f, flag; destruct compact, (a_ooo h), (a_rebuild h); reflexivity).
    rewrite F1, F2, hip_back, K0, K1, Nat2N.id. reflexivity.
  Qed.

  (** The aux map of an HLL_4 array comes back with the same bindings. *)
  Lemma read_hll4_ok h r compact : fields_ok h -> inv4 h r ->
    exists x', read_hll hip_of T4 (hll_wire hip_bits T4 h compact (fixed_layout 4 (aux_cells T4 h compact))) = Ok (set_aux h x') /\ aux_ok (a_lgK h) (a_curMin h) x' r.
  Proof.
    intros Hf ((Lb & Hby & Hr & Hax) & Hn & Hp). pose proof Hf as (HK & HM & HN & H0 & H1). unfold read_hll. rewrite read_common_ok by auto. cbn [bindr].
    set (cells := aux_cells T4 h compact). set (Wt := hll_wire hip_bits T4 h compact _).
    assert (E5 : nth_error Wt 5 = Some (flagb 8 compact + flagb 16 (a_ooo h) + flagb 32 (a_rebuild h))%N) by reflexivity.
    assert (Fc : flag 8 (flagb 8 compact + flagb 16 (a_ooo h) + flagb 32 (a_rebuild h)) = compact) by (unfold flag; destruct compact, (a_ooo h), (a_rebuild h); reflexivity).
    assert (E4 : nth_error Wt 4 = Some (match a_aux h with Some x => x_lg x | None => 0 end)%N) by reflexivity.
    set (ac := match a_aux h with Some x => N.of_nat (x_cnt x) | None => 0%N end).
    assert (Hac : (ac < 2 ^ 32)%N).
    { unfold ac. destruct (a_aux h) as [x|] eqn:Ex; [|lia]. pose proof (exc_cap (a_lgK h) x HK (proj1 Hax)) as Hcap.
      assert (Hb : nslots (a_lgK h) <= nslots 21) by (apply nslots_mono; lia). assert (E21 : N.of_nat (nslots 21) = (2 ^ 21)%N) by (unfold nslots; apply N2Nat.id). change (2 ^ 32)%N with (2048 * 2 ^ 21)%N. lia. }
    assert (E36 : get_le 4 36 Wt = Some ac).
    { unfold Wt, hll_wire, hll_head. fold ac. rewrite <- !app_assoc. set (P := [10%N; _; _; _; _; _; _; _]).
      rewrite (app_assoc P), (app_assoc (P ++ _)), (app_assoc ((P ++ _) ++ _)), (app_assoc (((P ++ _) ++ _) ++ _)). apply get_le_mid; auto. }
    rewrite E36, E5. cbn [of_opt bindr]. rewrite Fc.
    assert (EW : Wt = (hll_head hip_bits T4 h compact ++ a_bytes h) ++ fixed_layout 4 cells ++ []) by (unfold Wt, hll_wire; rewrite app_nil_r, <- app_assoc; reflexivity).
    assert (LS : aux_start h = length (hll_head hip_bits T4 h compact ++ a_bytes h)) by (rewrite app_length, hll_head_length, Lb; reflexivity).
    change (aux_start (set_aux h None)) with (aux_start h). change (a_lgK (set_aux h None)) with (a_lgK h).
    destruct (a_aux h) as [x|] eqn:Ex.
    - assert (Hcells : cells = if compact then used (x_arr x) else x_arr x) by (unfold cells, aux_cells; rewrite Ex; reflexivity).
      pose proof (aux_u32 _ _ _ _ Hax (fun i Hi => proj2 (proj1 (Hr i Hi)))) as Hu.
      assert (Huu : u32s (used (x_arr x))). { apply Forall_forall. intros c Hin. apply filter_In in Hin. exact (proj1 (Forall_forall _ _) Hu c (proj1 Hin)). }
      pose proof Hax as (Wx & _). pose proof Wx as (Hlg & Htb & Hcx & Hcapx & _).
      assert (Eu : length (used (x_arr x)) = x_cnt x).
      { rewrite Hcx. unfold acontents. f_equal. unfold used, contents. apply filter_ext. intros c. unfold isocc, isfree, akey. destruct (c =? 0)%N; auto. }
      unfold ac in *. destruct (N.ltb_spec 0 (N.of_nat (x_cnt x))) as [Hpos|Hpos].
      + unfold read_aux. destruct compact.
        * destruct (nth_error lg_aux_ints (N.to_nat (a_lgK h))) as [l|] eqn:El.
          2:{ apply nth_error_None in El. cbn [length lg_aux_ints] in El. lia. }
          cbn [of_opt bindr]. rewrite EW, LS, Hcells, Nat2N.id, <- Eu. rewrite read_pairs_ok by auto. rewrite Eu.
          assert (Hl2 : (2 <= l /\ l + 2 <= a_lgK h)%N).
          { destruct (aux_new_wf (a_lgK h) HK) as (y & Ey & Wy & _ & Hy & _). unfold new_aux in Ey. rewrite El in Ey. cbn [bindo] in Ey. inversion Ey; subst y.
            destruct Wy as (Wy & _). cbn [aux_new x_lg] in *. lia. }
          destruct (lg_for_spec (N.of_nat (x_cnt x)) ltac:(lia)) as (F1 & F2).
          assert (Hlf : (lg_for (N.of_nat (x_cnt x)) < a_lgK h)%N).
          { pose proof (exc_cap (a_lgK h) x HK Wx) as Hcap. unfold nslots in Hcap. apply (N.pow_lt_mono_r_iff 2); lia. }
          destruct (rebuild_aux (a_lgK h) (a_curMin h) x r (N.max l (lg_for (N.of_nat (x_cnt x)))) HK Hax ltac:(lia)) as (x' & Ex' & Hax').
          rewrite Ex'. cbn [of_err bindr]. exists (Some x'). split; auto.
        * rewrite E4. cbn [of_opt bindr]. destruct (N.leb_spec 62 (x_lg x)); [lia|]. rewrite EW, LS, Hcells.
          assert (Ln : nslots (x_lg x) = length (x_arr x)) by (symmetry; apply Htb). rewrite Ln. rewrite read_pairs_ok by auto.
          destruct (rebuild_aux (a_lgK h) (a_curMin h) x r (x_lg x) HK Hax ltac:(lia)) as (x' & Ex' & Hax').
          rewrite Ex'. cbn [of_err bindr]. exists (Some x'). split; auto.
      + exists None. split; auto. cbn [aux_ok]. intros i Hi. assert (Hz : x_cnt x = 0) by lia. rewrite (aux_cnt (a_lgK h) (a_curMin h) x r HK Hax) in Hz.
        pose proof (proj1 (cnt_zero _ _) Hz i Hi) as E. cbv beta in E. lia.
    - unfold ac. change (0 <? 0)%N with false. cbv iota. exists None. split; auto.
  Qed.

  Lemma from_hll_ok t d h r compact ck : fields_ok h -> ainv t d h r -> (t <> T4 -> a_aux h = None) ->
    exists x', from_slice hip_of (hll_wire hip_bits t h compact (fixed_layout 4 (aux_cells t h compact))) ck =
        (if tgt_eqb t T8 && ck then of_err (rebuild (HArr t (set_aux h x'))) else Ok (HArr t (set_aux h x'))) /\ ainv t d (set_aux h x') r /\ (t <> T4 -> x' = None).
  Proof.
    intros Hf Hai Hx. pose proof Hai as (HK & Hi). unfold from_slice. destruct (hll_preamble t h compact (fixed_layout 4 (aux_cells t h compact))) as (Ep & El). rewrite El, Ep. cbn [bindr].
    change (2 =? 2)%N with true. cbv iota. unfold rd_tgt.
    change (nth_error (hll_wire hip_bits t h compact (fixed_layout 4 (aux_cells t h compact))) 7) with (Some (mode_byte 2 t)). cbn [of_opt bindr].
    destruct (tgt_back 2 t eq_refl) as (T1 & T2). rewrite T1. cbn [bindr]. destruct t.
    - destruct (read_hll4_ok h r compact Hf Hi) as (x' & E & Hax). rewrite E. cbn [bindr tgt_eqb andb]. exists x'. split; auto. split; [|intros C; contradiction].
      split; auto. destruct Hi as ((A1 & A2 & A3 & A4) & A5 & A6). split; [split; [auto|split; [auto|split; auto]]|split; auto].
    - unfold read_hll. rewrite read_common_ok by (auto; destruct Hi; auto). cbn [bindr tgt_eqb andb]. exists None. split; auto.
    - unfold read_hll. rewrite read_common_ok by (auto; destruct Hi; auto). cbn [bindr tgt_eqb andb]. exists None. split; auto.
  Qed.
End ReadBack.

(** ** Sketches with the same history *)
Lemma exc_dist lgK cs : exc 0 (regs lgK cs) (nslots lgK) <= dist cs.
Proof.
  unfold exc, cnt, dist. rewrite <- (map_length (cslot lgK) (nodup N.eq_dec cs)). apply NoDup_incl_length; [apply NoDup_filter, seq_NoDup|].
  intros i Hi. apply filter_In in Hi. destruct Hi as (_ & Hi). apply N.leb_le in Hi. destruct (regs_attained lgK cs i) as [E|(c & Hc & Es & _)]; [lia|].
  rewrite <- Es. apply in_map, nodup_In. auto.
Qed.
Lemma dist_cons c cs : dist (c :: cs) <= S (dist cs).
Proof. unfold dist. cbn [nodup]. destruct (in_dec N.eq_dec c cs); cbn [length]; lia. Qed.
Lemma vcoupon_u32 c : vcoupon c -> (c < 2 ^ 32)%N.
Proof. unfold vcoupon, cval. intros H. pose proof (N.div_mod c (2 ^ 26) ltac:(discriminate)). pose proof (N.mod_lt c (2 ^ 26) ltac:(discriminate)). change (2 ^ 32)%N with (64 * 2 ^ 26)%N. lia. Qed.
Lemma sumf_bound f r K b : (forall i, (i < K)%nat -> (0 <= f (r i) <= b)%Z) -> (0 <= sumf f r K <= Z.of_nat K * b)%Z.
Proof. intros H. induction K; cbn [sumf]; [lia|]. pose proof (IHK (fun i Hi => H i ltac:(lia))). pose proof (H K ltac:(lia)). lia. Qed.
Lemma inv0_bound v : (0 <= inv0 v <= 2 ^ 31)%Z.
Proof. unfold inv0. destruct (N.ltb_spec v 32); [|lia]. split; [apply Z.pow_nonneg; lia|]. apply Z.pow_le_mono_r; lia. Qed.
Lemma inv1_bound v : (v < 64)%N -> (0 <= inv1 v <= 2 ^ 31)%Z.
Proof. intros Hv. unfold inv1. destruct (N.ltb_spec v 32); [lia|]. split; [apply Z.pow_nonneg; lia|]. apply Z.pow_le_mono_r; lia. Qed.

Section Twins.
  Context {F : Type}.
  Variable fzero : F.
  Variable hip_add : N -> Z -> Z -> F -> F.
  Variable coupon_est : nat -> F.
  Notation harr := (harr F).
  Notation hstate := (hstate F).
  Implicit Types h : harr.
  Implicit Types s : hstate.
  Notation hinv := (hinv fzero hip_add coupon_est).
  Notation st_update := (st_update fzero hip_add coupon_est).

  (** update4 succeeds exactly if the exceptions still fit the aux map. *)
  Lemma update4_iff h r slot v : (4 <= a_lgK h <= 21)%N -> inv4 h r -> slot < KK h -> (v < 64)%N ->
    (update4 hip_add h slot v = None <-> 3 * KK h < 8 * exc (a_curMin h) (rmax r slot v) (KK h)).
  Proof.
    intros HK Hi Hs Hv. destruct (update4_spec hip_add h r slot v HK Hi Hs Hv) as (A & _ & C). split.
    - intros E. destruct (Nat.le_gt_cases (8 * exc (a_curMin h) (rmax r slot v) (KK h)) (3 * KK h)) as [Hle|]; auto. destruct (A Hle) as (h' & E'). congruence.
    - intros Hgt.
      assert (Hcap : 8 * exc (a_curMin h) r (KK h) <= 3 * KK h).
      { destruct Hi as ((_ & _ & _ & Hax) & _). unfold KK. destruct (a_aux h) as [x|].
        - rewrite <- (aux_cnt (a_lgK h) _ x r HK Hax). apply exc_cap; auto. apply Hax.
        - rewrite (exc_none (a_lgK h) (a_curMin h) r Hax). lia. }
      assert (Hnew : exc (a_curMin h) (rmax r slot v) (KK h) <> exc (a_curMin h) r (KK h)) by lia.
      assert (Hcase : (v > r slot /\ r slot < a_curMin h + 15 /\ a_curMin h + 15 <= v)%N).
      { destruct (N.le_gt_cases v (r slot)); [exfalso; apply Hnew; apply exc_ext; intros; apply rmax_same; auto|].
        assert (Hsame : (a_curMin h + 15 <= r slot \/ v < a_curMin h + 15)%N -> exc (a_curMin h) (rmax r slot v) (KK h) = exc (a_curMin h) r (KK h)).
        { intros Hor. apply cnt_ext. intros i _. unfold rmax. destruct (Nat.eqb_spec i slot) as [->|]; auto.
          destruct (N.leb_spec (a_curMin h + 15) (N.max (r slot) v)), (N.leb_spec (a_curMin h + 15) (r slot)); auto; lia. }
        destruct (N.le_gt_cases (a_curMin h + 15) (r slot)); [exfalso; apply Hnew, Hsame; auto|]. destruct (N.le_gt_cases (a_curMin h + 15) v); [lia|exfalso; apply Hnew, Hsame; auto]. }
      destruct Hcase as (C1 & C2 & C3). apply C; auto.
  Qed.

  Lemma min_unique h h' r : a_lgK h = a_lgK h' -> inv4 h r -> inv4 h' r -> a_curMin h = a_curMin h'.
  Proof.
    intros EK ((_ & _ & A & _) & B & C) ((_ & _ & A' & _) & B' & C').
    assert (Ex : forall (g : harr), 0 < count (a_curMin g) r (KK g) -> exists i, i < KK g /\ r i = a_curMin g).
    { intros g Hg. unfold count, cnt in Hg. destruct (filter _ (seq 0 (KK g))) as [|i l] eqn:El; [cbn in Hg; lia|].
      assert (Hin : In i (filter (fun i => (r i =? a_curMin g)%N) (seq 0 (KK g)))) by (rewrite El; left; auto). apply filter_In in Hin. destruct Hin as (Hs & He).
      apply in_seq in Hs. apply N.eqb_eq in He. exists i. split; auto. lia. }
    rewrite B in C. rewrite B' in C'. destruct (Ex h C) as (i & Hi & Ei). destruct (Ex h' C') as (j & Hj & Ej). unfold KK in *. rewrite <- EK in Hj. pose proof (A j Hj). rewrite EK in Hi. pose proof (A' i Hi). lia.
  Qed.

  Definition is_list s : Prop := match s with HList _ _ _ _ => True | _ => False end.
  Definition tidy s : Prop := match s with HArr t h => t <> T4 -> a_aux h = None /\ a_curMin h = 0%N | _ => True end.

  Lemma twin_step lgK t s s' cs c : hinv lgK t s cs -> hinv lgK t s' cs -> (is_list s -> s' = s) -> vcoupon c ->
    match st_update s c, st_update s' c with
    | Some u, Some u' => hinv lgK t u (c :: cs) /\ hinv lgK t u' (c :: cs) /\ (is_list u -> u' = u)
    | None, None => True
    | _, _ => False
    end.
  Proof.
    intros H H' Hl Hc. destruct (hinv_step fzero hip_add coupon_est lgK t s cs c H Hc) as (A & B). destruct (hinv_step fzero hip_add coupon_est lgK t s' cs c H' Hc) as (A' & B').
    assert (Hsame : (st_update s c = None <-> st_update s' c = None) /\ (forall u u', st_update s c = Some u -> st_update s' c = Some u' -> is_list u -> u' = u)).
    { destruct (over lgK (dist cs)) eqn:Eo.
      - unfold HllMode.hinv in H, H'. rewrite Eo in *. destruct H as (Hv & h & -> & EK & Hi & _). destruct H' as (_ & h' & -> & EK' & Hi' & _). split.
        + assert (Hf : t <> T4 -> fits4 lgK t (c :: cs)) by (intros Ht Ht'; contradiction).
          destruct t.
          * cbn [HllModel.st_update]. destruct Hi as (HK & Hi), Hi' as (HK' & Hi'). pose proof (min_unique h h' _ ltac:(congruence) Hi Hi') as Em.
            assert (Hvc : (cval c < 64)%N) by (unfold vcoupon in Hc; lia).
            pose proof (cslot_lt h c) as S1. pose proof (cslot_lt h' c) as S2.
            pose proof (update4_iff h _ (cslot (a_lgK h) c) (cval c) HK Hi S1 Hvc) as I1. pose proof (update4_iff h' _ (cslot (a_lgK h') c) (cval c) HK' Hi' S2 Hvc) as I2.
            assert (U : forall g : harr, arr_update hip_add T4 g c = update4 hip_add g (cslot (a_lgK g) c) (cval c)).
            { intros g. unfold arr_update. cbv zeta. rewrite N.shiftr_div_pow2. fold (cval c). rewrite land_mask_mod. reflexivity. }
            rewrite !U. unfold KK in *. rewrite Em, EK in I1. rewrite EK' in I2. rewrite EK, EK'.
            destruct (update4 hip_add h (cslot lgK c) (cval c)), (update4 hip_add h' (cslot lgK c) (cval c)); cbn [bindo]; split; intros E; try discriminate; auto.
            -- pose proof (proj1 I2 eq_refl) as E3. apply (proj2 I1) in E3. discriminate.
            -- pose proof (proj1 I1 eq_refl) as E3. apply (proj2 I2) in E3. discriminate.
          * destruct (A (Hf ltac:(discriminate))) as (u & ->). destruct (A' (Hf ltac:(discriminate))) as (u' & ->). split; discriminate.
          * destruct (A (Hf ltac:(discriminate))) as (u & ->). destruct (A' (Hf ltac:(discriminate))) as (u' & ->). split; discriminate.
        + intros u u' E _ Hu. cbn [HllModel.st_update] in E. destruct (arr_update hip_add t h c); inversion E; subst u. contradiction.
      - pose proof H as Hcst. pose proof H' as Hcst'. unfold HllMode.hinv in Hcst, Hcst'. rewrite Eo in Hcst, Hcst'.
        pose proof Hcst as (HK & _ & _ & Hm). destruct s as [lK lt arr n|lK lt lg arr n|lt h]; [| |contradiction].
        + rewrite (Hl I). split; [tauto|]. congruence.
        + destruct Hm as (_ & _ & H8 & Hw & _). split.
          * destruct (coupon_step fzero hip_add coupon_est lgK t _ cs c Hcst Hc) as (S1 & S2 & _). destruct (coupon_step fzero hip_add coupon_est lgK t _ cs c Hcst' Hc) as (S1' & S2' & _).
            assert (Hf : fits4 lgK t (c :: cs)).
            { intros _. pose proof (exc_dist lgK (c :: cs)) as D1. pose proof (dist_cons c cs) as D2. destruct Hw as ((HK8 & _) & _).
              unfold over in Eo. destruct (N.ltb_spec lgK 8); [lia|]. destruct (Nat.leb_spec 8 (dist cs)); [|lia]. cbn [andb] in Eo. apply Nat.ltb_ge in Eo. fold (nslots (lgK - 3)) in Eo.
              assert (E8 : nslots lgK = 8 * nslots (lgK - 3)).
              { unfold nslots. replace lgK with (lgK - 3 + 3)%N at 1 by lia. rewrite N.pow_add_r. change (2 ^ 3)%N with 8%N. lia. }
              lia. }
            destruct (S2 Hf) as (u & ->). destruct (S2' Hf) as (u' & ->). split; discriminate.
          * intros u u' E _ Hu. cbn [HllModel.st_update] in E. destruct (set_add lK lg arr n c) as [[[[lg2 a2] n2] p]|]; cbn [bindo] in E; [|discriminate]. destruct p.
            -- unfold promote_hll in E. destruct (arr_update_all _ _ _ _); cbn [bindo] in E; inversion E; subst u; contradiction.
            -- inversion E; subst u. contradiction. }
    destruct Hsame as (Hn & Heq). destruct (st_update s c) as [u|] eqn:E, (st_update s' c) as [u'|] eqn:E'.
    - split; auto.
    - assert (E2 : @None hstate = None) by auto. apply Hn in E2. discriminate.
    - assert (E2 : @None hstate = None) by auto. apply Hn in E2. discriminate.
    - auto.
  Qed.

  Lemma dec_zeros_tidy h o h' : dec_zeros h o = Some h' -> a_aux h' = a_aux h /\ a_curMin h' = a_curMin h.
  Proof. unfold dec_zeros. destruct (o =? 0)%N; [destruct (a_num h =? 0); [discriminate|]|]; intros E; inversion E; auto. Qed.
  Lemma arr_update_tidy t h c h' : t <> T4 -> arr_update hip_add t h c = Some h' -> a_aux h' = a_aux h /\ a_curMin h' = a_curMin h.
  Proof.
    intros Ht. unfold arr_update. cbv zeta. set (sl := N.to_nat _). set (v := N.shiftr c 26). destruct t; [contradiction| |].
    - unfold update6. destruct (get6 (a_bytes h) sl) as [o|]; cbn [bindo]; [|discriminate]. destruct (o <? v)%N; [|intros E; inversion E; auto].
      destruct (put6 (a_bytes h) sl v); cbn [bindo]; [|discriminate]. unfold hip_kxq. destruct (v <=? o)%N; cbn [bindo]; [discriminate|]. intros E. apply dec_zeros_tidy in E. exact E.
    - unfold update8. destruct (get8 (a_bytes h) sl) as [o|]; cbn [bindo]; [|discriminate]. destruct (o <? v)%N; [|intros E; inversion E; auto].
      unfold hip_kxq. destruct (v <=? o)%N; cbn [bindo]; [discriminate|]. intros E. apply dec_zeros_tidy in E. exact E.
  Qed.
  Lemma arr_all_tidy t : t <> T4 -> forall cs h h', arr_update_all hip_add t h cs = Some h' -> a_aux h' = a_aux h /\ a_curMin h' = a_curMin h.
  Proof.
    intros Ht. induction cs as [|c cs IH]; intros h h' E; cbn [arr_update_all] in E; [inversion E; auto|].
    destruct (arr_update hip_add t h c) as [h1|] eqn:E1; cbn [bindo] in E; [|discriminate]. apply arr_update_tidy in E1; auto. apply IH in E. destruct E1, E. split; congruence.
  Qed.
  Lemma promote_tidy lgK t arr n s : promote_hll fzero hip_add coupon_est lgK t arr n = Some s -> tidy s.
  Proof.
    unfold promote_hll. cbv zeta. destruct (arr_update_all hip_add t _ _) as [h|] eqn:E; cbn [bindo]; [|discriminate]. intros E2. inversion E2; subst s. intros Ht.
    apply arr_all_tidy in E; auto.
  Qed.
  Lemma tidy_step s c u : tidy s -> st_update s c = Some u -> tidy u.
  Proof.
    intros Hs E. destruct s as [lK lt arr n|lK lt lg arr n|lt h]; cbn [HllModel.st_update] in E.
    - unfold list_add in E. destruct (list_find 8 0 arr c) as [[i|[]]|]; cbn [bindo] in E; [|inversion E; exact I|discriminate].
      destruct (8 <=? n + 1); [|inversion E; exact I]. destruct (lK <? 8)%N; [eapply promote_tidy; eauto|].
      unfold promote_set in E. destruct (lK <=? 7)%N; [discriminate|]. destruct (list_to_set _ _ _ _ _) as [[[? ?] ?]|]; cbn [bindo] in E; inversion E; exact I.
    - destruct (set_add lK lg arr n c) as [[[[lg2 a2] n2] p]|]; cbn [bindo] in E; [|discriminate]. destruct p; [eapply promote_tidy; eauto|inversion E; exact I].
    - destruct (arr_update hip_add lt h c) as [h'|] eqn:E1; cbn [bindo] in E; [|discriminate]. inversion E; subst u. intros Ht. destruct (arr_update_tidy _ _ _ _ Ht E1) as (-> & ->). apply Hs; auto.
  Qed.

  Variable hip_bits : F -> N.
  Variable hip_of : N -> F.
  Hypothesis hip_bits_u64 : forall f, (hip_bits f < 2 ^ 64)%N.
  Hypothesis hip_back : forall f, hip_of (hip_bits f) = f.

  (** The image of a sketch, by mode. *)
  Definition wire (compact : bool) s : list N :=
    match s with
    | HList lgK t arr cnt => list_wire lgK t arr cnt compact
    | HSet lgK t lgArr arr cnt => set_wire lgK t lgArr arr cnt compact
    | HArr t h => let c := match t with T4 => compact | _ => false end in hll_wire hip_bits t h c (fixed_layout 4 (aux_cells t h c))
    end.

  Lemma hinv_fields t h r : ainv t 0 h r -> kx h r -> (t <> T4 -> a_curMin h = 0%N) -> fields_ok h.
  Proof.
    intros Hi (K0 & K1) Hm. pose proof Hi as (HK & Hi'). assert (Hr : forall i, i < KK h -> (r i < 64)%N) by (intros; eapply ainv_lt; eauto).
    assert (HKK : N.of_nat (KK h) = (2 ^ a_lgK h)%N) by (unfold KK, nslots; apply N2Nat.id).
    assert (HP : (2 ^ a_lgK h <= 2 ^ 21)%N) by (apply N.pow_le_mono_r; lia).
    split; auto. split; [|split; [|split]].
    - destruct t; [|rewrite Hm by discriminate; reflexivity|rewrite Hm by discriminate; reflexivity].
      destruct Hi' as ((_ & _ & A & _) & _). specialize (A 0 (KK_pos h)). lia.
    - assert (Hn : a_num h <= KK h).
      { destruct t; [destruct Hi' as (_ & -> & _)|destruct Hi' as (_ & _ & _ & ->)|destruct Hi' as (_ & _ & ->)]; unfold count; rewrite ?Nat.add_0_r; apply cnt_bound. }
      change (2 ^ 32)%N with (2048 * 2 ^ 21)%N. lia.
    - pose proof (sumf_bound inv0 r (KK h) (2 ^ 31) (fun i _ => inv0_bound (r i))) as B. rewrite <- K0 in B. change (2 ^ 53)%Z with (4 * 2 ^ 20 * 2 ^ 31)%Z. change (2 ^ 21)%N with (2097152)%N in HP. change (2 ^ 31)%Z with 2147483648%Z in *. change (2 ^ 20)%Z with 1048576%Z. lia.
    - pose proof (sumf_bound inv1 r (KK h) (2 ^ 31) (fun i Hx => inv1_bound (r i) (Hr i Hx))) as B. rewrite <- K1 in B. change (2 ^ 53)%Z with (4 * 2 ^ 20 * 2 ^ 31)%Z. change (2 ^ 21)%N with (2097152)%N in HP. change (2 ^ 31)%Z with 2147483648%Z in *. change (2 ^ 20)%Z with 1048576%Z. lia.
  Qed.

  (** Writing a sketch and reading the image back: the image is [wire]; the sketch read has the same history. *)
  Lemma ship_ok lgK t s cs compact ck : hinv lgK t s cs -> tidy s ->
    to_slice hip_bits compact s = Ok (wire compact s) /\
    exists s', from_slice hip_of (wire compact s) ck = Ok s' /\ hinv lgK t s' cs /\ tidy s' /\ (is_list s -> s' = s).
  Proof.
    intros H Ht. unfold HllMode.hinv in *. destruct (over lgK (dist cs)) eqn:Eo.
    - destruct H as (Hv & h & -> & EK & Hi & Hk & Hh & E1 & E2 & E3). cbn [tidy] in Ht.
      assert (Hf : fields_ok h) by (eapply hinv_fields; eauto; intros; apply Ht; auto). pose proof Hi as (HK & Hi').
      assert (Hc : (a_curMin h < 256)%N) by apply Hf.
      cbn [wire]. set (cc := match t with T4 => compact | _ => false end).
      assert (Es : to_slice hip_bits compact (HArr t h) = hll_slice hip_bits t h cc) by (destruct t; reflexivity). rewrite Es. split.
      + apply hll_slice_ok; auto. destruct t; [|apply Ht; discriminate|apply Ht; discriminate].
        destruct Hi' as ((Lb & _ & _ & Hax) & _). split; auto. destruct (a_aux h) as [x|]; auto. destruct Hax as ((Hlg & Htb & Hcx & _) & _).
        split; [lia|]. split; [apply Htb|]. rewrite Hcx. unfold acontents. f_equal. unfold used, contents. apply filter_ext. intros c. unfold isocc, isfree, akey. destruct (c =? 0)%N; auto.
      + destruct (from_hll_ok hip_bits hip_of hip_bits_u64 hip_back t 0 h (regs lgK cs) cc ck Hf Hi (fun A => proj1 (Ht A))) as (x' & E & Hi2 & Hx').
        exists (HArr t (set_aux h x')). split.
        * rewrite E. destruct (tgt_eqb t T8 && ck) eqn:Eb; auto. assert (t = T8) by (destruct t; [discriminate|discriminate|auto]). subst t.
          unfold rebuild. cbn [set_aux a_rebuild]. rewrite E2. reflexivity.
        * split; [split; auto; exists (set_aux h x'); split; auto; split; auto; split; auto; split; auto; split; auto|].
          split; [|intros []]. cbn [tidy]. intros A. split; [cbn [set_aux a_aux]; auto|]. exact (proj2 (Ht A)).
    - pose proof H as (HK & Hv & _ & Hm). destruct s as [lK lt arr n|lK lt lg arr n|lt h]; [| |contradiction].
      + destruct Hm as (-> & -> & H8 & ds & Hl & Hs). pose proof Hl as (Hnd & Hz & Ea & Ec & Hlt).
        assert (Hu : u32s ds). { apply Forall_forall. intros c Hc. apply Hs in Hc. apply vcoupon_u32. exact (proj1 (Forall_forall _ _) Hv c Hc). }
        cbn [to_slice wire]. split.
        * rewrite list_slice; [reflexivity|lia| |].
          -- rewrite Ea, app_length, repeat_length. lia.
          -- rewrite used_nz, Ea, nz_app_zeros; auto.
        * exists (HList lgK t arr n). split; [eapply from_list_ok; eauto|]. split; auto.
      + destruct Hm as (-> & -> & H8 & Hw & Hs). pose proof Hw as (HK8 & Hlg & Htb & Hc & _).
        assert (Hu : u32s arr).
        { apply Forall_forall. intros c Hin. destruct (N.eq_dec c 0) as [->|Hc0]; [reflexivity|]. apply vcoupon_u32. apply (proj1 (Forall_forall _ _) Hv). apply Hs. apply nz_In. auto. }
        cbn [to_slice wire]. split.
        * rewrite set_slice; [reflexivity|lia|lia|apply Htb|rewrite used_nz; auto].
        * destruct (from_set_ok hip_of lgK t lg arr n compact ck Hw Hu) as (lg' & arr' & E & Hw' & Hs' & _).
          exists (HSet lgK t lg' arr' n). split; auto. split; [|split; [exact I|intros []]]. split; auto. split; auto. split; auto. split; auto. split; auto. split; auto. split; auto.
          intros c. rewrite (Hs' c). apply Hs.
  Qed.
End Twins.
