(** * C65: KLL sketches survive their byte images, for every history, every coin outcome and every item serializer. *)
From Verif Require Import Base Bytes Arr GoInt BitPackModel HllSerdeModel ItemSerdeModel ItemSerdeProps KllModel KllProofs KllSem KllProps KllSerdeModel KllSerdeProofs.
Local Open Scope nat_scope.

(** ** Specification *)

(** The byte image of a sketch with the serialized items [enc]: what a reader in another language expects. [its] are the
    retained items, level by level. *)
Definition image {C} (enc : C -> list N) (s : kll (C := C)) (its : list C) : list N :=
  if (n s =? 0)%N then [2; 1; 15; 1]%N ++ le 2 (k s) ++ [N.of_nat (m s); 0%N]
  else if (n s =? 1)%N then [2; 2; 15; 4]%N ++ le 2 (k s) ++ [N.of_nat (m s); 0%N] ++ flat_map enc its
  else [5; 1; 15; 0]%N ++ le 2 (k s) ++ [N.of_nat (m s); 0%N] ++ le 8 (n s) ++ le 2 (min_k s) ++ [N.of_nat (num_levels s); 0%N] ++
       flat_map (fun start => le 4 (N.of_nat start)) (removelast (levels s)) ++ enc (min_item s) ++ enc (max_item s) ++ flat_map enc its.

(** Histories of a sketch: [Ship] serializes it and continues with what the bytes are read back to. *)
Inductive life (C : Type) :=
| New (k0 : N) (m0 : nat)
| Put (l : life C) (x : C)
| Join (l o : life C)
| Clear (l : life C)
| Ship (l : life C).
Arguments New {C}. Arguments Put {C}. Arguments Join {C}. Arguments Clear {C}. Arguments Ship {C}.
(** The same history without the byte images. *)
Fixpoint strip {C} (l : life C) : life C :=
  match l with New k0 m0 => New k0 m0 | Put l x => Put (strip l) x | Join l o => Join (strip l) (strip o) | Clear l => Clear (strip l) | Ship l => strip l end.
Fixpoint puts {C} (l : life C) : N :=
  match l with New _ _ => 0 | Put l _ => puts l + 1 | Join l o => puts l + puts o | Clear l => puts l | Ship l => puts l end%N.
Fixpoint clear_free {C} (l : life C) : Prop :=
  match l with New _ _ => True | Put l _ => clear_free l | Join l o => clear_free l /\ clear_free o | Clear _ => False | Ship l => clear_free l end.
(** k below 32768, m as the readers allow, and items the serializer can write. *)
Fixpoint sane {C} (ok : C -> Prop) (l : life C) : Prop :=
  match l with New k0 m0 => (8 <= k0 < 32768)%N /\ In m0 [2; 4; 6; 8] | Put l x => sane ok l /\ ok x
  | Join l o => sane ok l /\ sane ok o | Clear l => sane ok l | Ship l => sane ok l end.

Section Run.
Context {C : Type}.
Variable less : C -> C -> bool.
Variable zero : C.
Variable sort : list C -> list C.
Variable coin : nat -> bool.
Variable sd : serde C.
(** Run a history; the second component records the compactions so far, and so numbers the coin flips. *)
Fixpoint run (l : life C) (log : list nat) : option (kll * list nat) :=
  match l with
  | New k0 m0 => do s <- kll_new zero k0 m0; Some (s, log)
  | Put l x => do (s, log) <- run l log; kll_update less zero sort coin s log x
  | Join l o => do (s, log) <- run l log; do (t, log) <- run o log; kll_merge less zero sort coin s t log
  | Clear l => do (s, log) <- run l log; Some (kll_reset zero s, log)
  | Ship l => do (s, log) <- run l log;
      match to_slice zero sd s with
      | Ok b => match from_slice zero sd b with Ok s' => Some (s', log) | _ => None end
      | _ => None
      end
  end.
End Run.

(** Two sketches that answer every question alike. (The queries of C30-C33 read the sorted view.) *)
Definition alike {C} (less ceq : C -> C -> bool) (zero : C) (sort : list C -> list C) (s t : kll (C := C)) : Prop :=
  k t = k s /\ m t = m s /\ n t = n s /\ num_levels t = num_levels s /\ levels t = levels s /\ get_num_retained t = get_num_retained s /\
  get_min_item t = get_min_item s /\ get_max_item t = get_max_item s /\ iterate zero t = iterate zero s /\
  sorted_view less ceq zero sort t = sorted_view less ceq zero sort s.

(** ** Proofs *)
Section Lives.
Context {C : Type}.
Variables less ceq : C -> C -> bool.
Variable zero : C.
Variable sort : list C -> list C.
Variable coin : nat -> bool.
Hypothesis sort_perm : forall l, Permutation l (sort l).
Variable sd : serde C.
Variable enc : C -> list N.
Variable ok : C -> Prop.
Hypothesis codec_ok : codec sd enc ok.
Notation St := (St (C := C) ok).
Notation run := (run less zero sort coin sd).

Lemma wl_items (Ls : list (list C)) : forall w, map fst (wl w Ls) = concat Ls.
Proof.
  induction Ls as [|L Ls IH]; intros w; cbn [wl concat map]; auto. rewrite map_app, IH, map_map. cbn [fst]. rewrite map_id. reflexivity.
Qed.

Lemma image_st s T Ls : St s T Ls -> (n s < 2 ^ 58)%N -> to_slice zero sd s = Ok (image enc s (concat Ls)) /\ serialized_size sd s = Ok (length (image enc s (concat Ls))).
Proof.
  intros H Hn. pose proof (s_inv _ _ _ _ H) as I. destruct (i_rep _ _ _ I) as (pre & Hit & Hlv & Hnl & HT). pose proof (i_flag _ _ _ I) as Hfl.
  assert (Hne : Ls <> []) by apply (i_fit _ _ _ I). pose proof (s_k _ _ _ _ H) as Hk. unfold image.
  destruct (N.eqb_spec (n s) 0) as [E0|E0].
  - destruct (empty_image zero sd enc ok codec_ok s E0 Hfl (s_m _ _ _ _ H) Hk) as (H1 & H2 & _). auto.
  - destruct (N.eqb_spec (n s) 1) as [E1|E1].
    + destruct (s_one _ _ _ _ H E1) as (HL & HM). subst Ls. cbn [concat app flat_map] in *. set (x := min_item s) in *.
      assert (Hp : length pre + 1 = N.to_nat (k s)).
      { pose proof (st_cap ok _ _ _ H) as Hc. cbn [length] in Hc. rewrite csum_cons, csum_nil in HT. cbn [length] in HT.
        pose proof (st_m less ceq zero coin ok _ _ _ H). pose proof (cap_one' less ceq zero coin (k s) (m s) ltac:(lia)) as Hc1. rewrite Hc1 in Hc by lia. lia. }
      destruct (single_image zero sd enc ok codec_ok s pre x E1 Hfl (s_m _ _ _ _ H) Hk Hit Hp) as (H1 & H2 & _). { apply (s_min _ _ _ _ H). lia. }
      unfold head_bytes in *. rewrite <- !app_assoc in H1, H2. rewrite app_nil_r. auto.
    + pose proof (st_levels less ceq zero sort coin sort_perm ok _ _ _ H Hn) as HL. destruct (s_min _ _ _ _ H E0) as (Hmin & Hmax).
      destruct (to_slice_full zero sd enc ok codec_ok s T Ls pre Hit Hlv Hnl HT Hfl Hne ltac:(lia) HL (s_items _ _ _ _ H) Hmin Hmax) as (H1 & H2).
      unfold full_bytes, head_bytes in *. rewrite <- !app_assoc in H1, H2. rewrite Hlv, removelast_last. unfold fixed_layout in *.
      rewrite flat_map_concat_map, map_map, <- flat_map_concat_map in H1, H2. auto.
Qed.

Lemma fresh_st k0 m0 mk : (8 <= k0 < 32768)%N -> In m0 [2; 4; 6; 8] -> (mk < 65536)%N ->
  St (mkKll k0 m0 mk 1 false 0 [N.to_nat k0; N.to_nat k0] (repeat zero (N.to_nat k0)) zero zero false) (N.to_nat k0) [[]].
Proof.
  intros Hk Hm Hmk. assert (Hm' : 2 <= m0 <= 8) by (cbn [In] in Hm; lia).
  constructor; cbn [k m n min_k has_min_max min_item max_item concat]; auto; try lia.
  - constructor; try (cbn [n k m l0_sorted]; auto; fail).
    + exists (repeat zero (N.to_nat k0)). cbn [items levels num_levels concat pb length app]. rewrite app_nil_r, repeat_length, csum_cons, csum_nil. cbn [length]. rewrite !Nat.add_0_r. auto.
    + cbn [k m]. pose proof (cap_one' less ceq zero coin k0 m0 ltac:(lia) ltac:(lia)) as E. unfold Fit. cbn [length]. rewrite E. repeat split; auto; try lia; discriminate.
    + left. auto.
  - constructor.
Qed.

Lemma st_small s T Ls : St s T Ls -> (n s <= 1)%N -> is_estimation_mode s = false.
Proof.
  intros H Hn. assert (E : n s = 0%N \/ n s = 1%N) by lia. assert (EL : length Ls = 1).
  { destruct E as [E|E]; [|destruct (s_one _ _ _ _ H E) as (-> & _); reflexivity].
    assert (Ls = [[]]) as -> by (eapply (inv_empty less ceq zero sort coin sort_perm); [apply H|auto]). reflexivity. }
  unfold is_estimation_mode. destruct (i_rep _ _ _ (s_inv _ _ _ _ H)) as (p & _ & _ & -> & _). rewrite EL. reflexivity.
Qed.

Lemma run_ok l : sane ok l -> (puts l < 2 ^ 58)%N -> forall log, exists s s0 T Ls log', run l log = Some (s, log') /\ run (strip l) log = Some (s0, log') /\
  St s T Ls /\ St s0 T Ls /\ same s0 s /\ (n s0 <= puts l)%N /\ (clear_free l -> min_k s = min_k s0 /\ ((n s0 <= 1)%N -> min_k s0 = k s0)).
Proof.
  induction l as [k0 m0|l IH x|l IH o IHo|l IH|l IH]; cbn [sane puts strip run clear_free]; intros HS HP log.
  - destruct HS as (Hk & Hm). unfold kll_new. destruct (N.ltb_spec k0 8) as [|_]; [lia|]. destruct (N.ltb_spec 65535 k0) as [|_]; [lia|]. cbn [orb bindo].
    pose proof (fresh_st k0 m0 k0 Hk Hm ltac:(lia)) as F. eexists _, _, _, _, _. split; [reflexivity|]. split; [reflexivity|]. split; [exact F|]. split; [exact F|].
    split; [unfold same; auto|]. split; [cbn [n]; lia|]. cbn [min_k k]. auto.
  - destruct HS as (HS & Hx). destruct (IH HS ltac:(lia) log) as (s & s0 & T & Ls & log' & R1 & R2 & S1 & S2 & SM & Hn & HC). rewrite R1, R2. cbn [bindo].
    destruct (update_st less ceq zero sort coin sort_perm ok s0 T Ls log' x S2 ltac:(lia) Hx) as (t0 & _ & _ & r & HU & _).
    destruct (update_same less ceq zero sort coin sort_perm ok s0 s T Ls log' x t0 r S2 S1 SM ltac:(lia) Hx HU) as (t & T' & Ls' & HU' & A1 & A2 & A3 & A4 & A5 & A6 & A7).
    exists t, t0, T', Ls', r. do 6 (split; [auto; lia|]). intros Hc. destruct (HC Hc) as (B1 & B2). split; [congruence|]. intros ?. rewrite A5, A7. apply B2. lia.
  - destruct HS as (HS & HSo). destruct (IH HS ltac:(lia) log) as (s & s0 & T & Ls & log1 & R1 & R2 & S1 & S2 & SM & Hn & HC). rewrite R1, R2. cbn [bindo].
    destruct (IHo HSo ltac:(lia) log1) as (t & t0 & To & Os & log2 & Q1 & Q2 & P1 & P2 & PM & Pn & PC). rewrite Q1, Q2. cbn [bindo].
    assert (HM : exists u0 r, kll_merge less zero sort coin s0 t0 log2 = Some (u0, r)).
    { destruct (N.eq_dec (n t0) 0) as [E|E]; [unfold kll_merge, is_empty; rewrite E; cbn [N.eqb]; eauto|].
      destruct (merge_st less ceq zero sort coin sort_perm ok s0 T Ls t0 To Os log2 S2 P2 ltac:(lia) E) as (u0 & _ & _ & r & HM & _). eauto. }
    destruct HM as (u0 & r & HM).
    destruct (merge_same less ceq zero sort coin sort_perm ok s0 s T Ls t0 t To Os log2 u0 r S2 S1 SM P2 P1 PM ltac:(lia) HM) as (u & T' & Ls' & HM' & A1 & A2 & A3 & A4 & A5 & A6 & A7 & _ & _).
    exists u, u0, T', Ls', r. do 6 (split; [auto; lia|]). intros (Hc & Ho). destruct (HC Hc) as (B1 & B2). destruct (PC Ho) as (B3 & B4). split.
    + rewrite A6, A7, B1, B3. reflexivity.
    + intros ?. rewrite A6, A5, (st_small _ _ _ P2) by lia. apply B2. lia.
  - destruct (IH HS HP log) as (s & s0 & T & Ls & log' & R1 & R2 & S1 & S2 & SM & Hn & HC). rewrite R1, R2. cbn [bindo]. unfold kll_reset. destruct SM as (SK & Sm & _).
    eexists _, _, _, _, _. split; [reflexivity|]. split; [reflexivity|]. split; [apply fresh_st; apply S1|]. split; [rewrite SK; apply fresh_st; apply S2|].
    split; [unfold same; cbn [k m n min_item max_item]; auto|]. split; [cbn [n]; lia|]. intros [].
  - destruct (IH HS HP log) as (s & s0 & T & Ls & log' & R1 & R2 & S1 & S2 & SM & Hn & HC). rewrite R1, R2. cbn [bindo].
    assert (Hns : n s = n s0) by apply SM.
    destruct (ship_ok less ceq zero sort coin sort_perm sd enc ok codec_ok s T Ls S1 ltac:(lia)) as (b & s' & W1 & _ & W2 & S3 & SM' & HK). rewrite W1, W2.
    exists s', s0, T, Ls, log'. do 4 (split; [auto|]). split.
    { destruct SM as (C1 & C2 & C3 & C4), SM' as (D1 & D2 & D3 & D4). unfold same. split; [congruence|]. split; [congruence|]. split; [congruence|]. intros E. destruct (C4 E), (D4 ltac:(congruence)). split; congruence. }
    split; auto. intros Hc. destruct (HC Hc) as (B1 & B2). split; auto. rewrite HK, Hns. destruct (N.leb_spec (n s0) 1) as [E|E]; auto. rewrite B2 by auto. apply SM.
Qed.

Lemma st_alike s0 s T Ls : St s0 T Ls -> St s T Ls -> same s0 s -> alike less ceq zero sort s0 s.
Proof.
  intros H0 H SM. pose proof SM as (A1 & A2 & A3 & A4). destruct (st_levels_same less ceq zero sort coin sort_perm ok _ _ _ _ H0 H) as (B1 & B2 & _). unfold alike.
  do 5 (split; [auto|]). unfold get_num_retained, get_min_item, get_max_item, is_empty. rewrite B1, B2, A3. split; [reflexivity|].
  split; [destruct (N.eqb_spec (n s0) 0) as [E|E]; auto; destruct (A4 E); congruence|]. split; [destruct (N.eqb_spec (n s0) 0) as [E|E]; auto; destruct (A4 E); congruence|].
  split; [eapply (iterate_same less ceq zero sort coin sort_perm ok); eauto|eapply (view_same less ceq zero sort coin sort_perm ok); eauto].
Qed.

(** ** C65. Serializing a sketch and going on with what the bytes read back to changes nothing that can be observed later,
    whatever happened to the sketch before and happens to it afterwards. *)
Theorem kll_images_are_invisible : forall l log, sane ok l -> (puts l < 2 ^ 58)%N ->
  exists s0 s log', run (strip l) log = Some (s0, log') /\ run l log = Some (s, log') /\ alike less ceq zero sort s0 s /\
    (clear_free l -> min_k s = min_k s0).
Proof.
  intros l log HS HP. destruct (run_ok l HS HP log) as (s & s0 & T & Ls & log' & R1 & R2 & S1 & S2 & SM & Hn & HC).
  exists s0, s, log'. split; auto. split; auto. split; [apply st_alike with T Ls; auto|]. intros Hc. apply HC. auto.
Qed.

(** The image is the documented one, of the announced size. *)
Theorem kll_image_bytes : forall l log s log', sane ok l -> (puts l < 2 ^ 58)%N -> run l log = Some (s, log') ->
  exists its, iterate zero s = Some its /\ to_slice zero sd s = Ok (image enc s (map fst its)) /\
    serialized_size sd s = Ok (length (image enc s (map fst its))).
Proof.
  intros l log s log' HS HP HR. destruct (run_ok l HS HP log) as (s1 & s0 & T & Ls & log1 & R1 & R2 & S1 & S2 & SM & Hn & HC).
  rewrite HR in R1. injection R1 as <- <-. exists (wl 1 Ls). assert (Hns : n s = n s0) by apply SM. split; [apply (iterate_st less ceq zero sort coin sort_perm ok _ _ _ S1)|].
  rewrite wl_items. apply image_st with T; auto. lia.
Qed.
End Lives.

(** ** The serializers of the common package. *)
Definition str_ok (s : list N) : Prop := s <> [] /\ (N.of_nat (length s) < 2 ^ 32)%N.
Lemma long_codec : codec long_serde (fun x => le 8 (to_u64 x)) int64.
Proof.
  assert (HL : forall xs, fixed_layout 8 (map to_u64 xs) = flat_map (fun x => le 8 (to_u64 x)) xs) by (intros xs; unfold fixed_layout; rewrite !flat_map_concat_map, map_map; auto).
  constructor; cbn [size_of size_of_many ser_one ser_many deser long_serde].
  - intros x _. rewrite le_length. reflexivity.
  - intros x H. destruct (long_one x) as (E & _). destruct (long_round_trip [x] [] [] ltac:(auto)) as (b & E1 & _ & E2 & _). rewrite E, E1, E2, HL. cbn [of_opt flat_map]. rewrite app_nil_r. reflexivity.
  - intros xs H. destruct (long_round_trip xs [] [] H) as (b & E1 & _ & E2 & _). rewrite E1, E2, HL. reflexivity.
  - intros xs P Q H. destruct (long_round_trip xs P Q H) as (b & _ & _ & E2 & E3). rewrite <- HL, <- E2, E3. reflexivity.
  - intros xs P Q H. eauto.
Qed.
Lemma float_codec w : 1 <= w -> codec (float_serde w) (le w) (fun x => (x < 256 ^ N.of_nat w)%N).
Proof.
  intros Hw. constructor; cbn [size_of size_of_many ser_one ser_many deser float_serde].
  - intros x _. rewrite le_length. reflexivity.
  - intros x H. destruct (float_one w x Hw) as (E & _). destruct (float_round_trip w [x] [] [] ltac:(auto)) as (b & E1 & _ & E2 & _). rewrite E, E1, E2. unfold fixed_layout. cbn [of_opt flat_map]. rewrite app_nil_r. reflexivity.
  - intros xs H. destruct (float_round_trip w xs [] [] H) as (b & E1 & _ & E2 & _). rewrite E1, E2. reflexivity.
  - intros xs P Q H. destruct (float_round_trip w xs P Q H) as (b & _ & _ & E2 & E3). fold (fixed_layout w xs). rewrite <- E2, E3. reflexivity.
  - intros xs P Q H. eauto.
Qed.
Lemma string_codec : codec string_serde (fun s => le 4 (N.of_nat (length s)) ++ s) str_ok.
Proof.
  assert (HF : forall xs, Forall str_ok xs -> Forall (fun s => (N.of_nat (length s) < 2 ^ 32)%N) xs) by (intros xs H; eapply Forall_impl; [|exact H]; intros a []; auto).
  constructor; cbn [size_of size_of_many ser_one ser_many deser string_serde].
  - intros x _. rewrite app_length, le_length. unfold string_size_of. lia.
  - intros x (H1 & H2). destruct (string_one x H1 H2) as (E & _). rewrite E, string_ser_ok by auto. unfold string_layout. cbn [of_opt flat_map]. rewrite app_nil_r. reflexivity.
  - intros xs H. rewrite string_ser_ok by auto. reflexivity.
  - intros xs P Q H. destruct (string_deser_ok xs (HF _ H) P Q) as (E & _). fold (string_layout xs). rewrite E. reflexivity.
  - intros xs P Q H. destruct (string_round_trip xs P Q (HF _ H)) as (b & _ & E2 & _ & E3 & _). fold (string_layout xs). rewrite <- E2, E3. cbn [of_err]. eauto.
Qed.

(** What C65 says for one serializer, in one statement. *)
Definition images_are_safe {C} (less ceq : C -> C -> bool) (zero : C) (sort : list C -> list C) (sd : serde C) (enc : C -> list N) (ok : C -> Prop) : Prop :=
  forall coin l log, sane ok l -> (puts l < 2 ^ 58)%N ->
  exists s0 s log' its, run less zero sort coin sd (strip l) log = Some (s0, log') /\ run less zero sort coin sd l log = Some (s, log') /\
    alike less ceq zero sort s0 s /\ (clear_free l -> min_k s = min_k s0) /\
    iterate zero s = Some its /\ to_slice zero sd s = Ok (image enc s (map fst its)) /\ serialized_size sd s = Ok (length (image enc s (map fst its))).
Lemma safe {C} less ceq zero sort sd enc ok : (forall l : list C, Permutation l (sort l)) -> codec sd enc ok -> images_are_safe less ceq zero sort sd enc ok.
Proof.
  intros HP HC coin l log HS HN. destruct (kll_images_are_invisible less ceq zero sort coin HP sd enc ok HC l log HS HN) as (s0 & s & log' & R0 & R1 & HA & HK).
  destruct (kll_image_bytes less ceq zero sort coin HP sd enc ok HC l log s log' HS HN R1) as (its & H1 & H2 & H3). exists s0, s, log', its. auto 10.
Qed.
Theorem kll_long_images : forall less ceq sort, (forall l, Permutation l (sort l)) ->
  images_are_safe less ceq 0%Z sort long_serde (fun x => le 8 (to_u64 x)) int64.
Proof. intros. apply safe; auto. apply long_codec. Qed.
Theorem kll_double_images : forall less ceq zero sort, (forall l, Permutation l (sort l)) ->
  images_are_safe less ceq zero sort (float_serde 8) (le 8) (fun bits => (bits < 2 ^ 64)%N).
Proof. intros. apply safe; auto. apply (float_codec 8). lia. Qed.
Theorem kll_float_images : forall less ceq zero sort, (forall l, Permutation l (sort l)) ->
  images_are_safe less ceq zero sort (float_serde 4) (le 4) (fun bits => (bits < 2 ^ 32)%N).
Proof. intros. apply safe; auto. apply (float_codec 4). lia. Qed.
Theorem kll_string_images : forall less ceq sort, (forall l, Permutation l (sort l)) ->
  images_are_safe less ceq [] sort string_serde (fun s => le 4 (N.of_nat (length s)) ++ s) (fun s => s <> [] /\ (N.of_nat (length s) < 2 ^ 32)%N).
Proof. intros. apply safe; auto. apply string_codec. Qed.

(** ** A case: 40 longs, shipped, 20 more, joined with a shipped sketch of 19 of a smaller k, shipped again; 3 levels. *)
Fixpoint many (c : nat) (l : life Z) : life Z := match c with O => l | S c => Put (many c l) (Z.of_nat ((c * 7) mod 41) - 9)%Z end.
Definition a_life : life Z := Ship (Join (many 20 (Ship (many 40 (New 12 4)))) (Ship (many 19 (New 8 2)))).
Example a_life_sane : sane int64 a_life /\ (puts a_life < 2 ^ 58)%N /\ clear_free a_life.
Proof. split; [|split; [reflexivity|]]; cbv; repeat split; auto; intros E; discriminate. Qed.
Example a_life_runs : match run Z.ltb 0%Z isort Nat.even long_serde a_life [] with
  | Some (s, log) => num_levels s = 3 /\ n s = 79%N /\ min_k s = 8%N /\ log = [1; 0; 0; 0; 1; 0; 0; 0; 1; 0; 0]
  | None => False end.
Proof. vm_compute. auto. Qed.

(** ** The limits of C65. *)
(** A strings sketch that has seen the empty string cannot be shipped: its minimum is written as no bytes at all, and what
    is read back has another minimum and has lost the item that was there. *)
Definition shorter (a b : list N) : bool := (length a <? length b).
Theorem kll_empty_string_image_refuted : exists l s s', run shorter [] (fun l => l) Nat.even string_serde l [] = Some (s, []) /\
  run shorter [] (fun l => l) Nat.even string_serde (Ship l) [] = Some (s', []) /\
  get_min_item s = Some [] /\ get_min_item s' = Some [97%N] /\ iterate [] s = Some [([97%N], 1%N); ([], 1%N)] /\ iterate [] s' = Some [([], 1%N); ([], 1%N)].
Proof. exists (Put (Put (New 8 2) []) [97%N]). eexists _, _. split; [vm_compute; reflexivity|]. split; [vm_compute; reflexivity|]. repeat split; vm_compute; reflexivity. Qed.
(** The constructor takes any m, the reader only even ones up to 8: the image of a working sketch is refused. *)
Theorem kll_any_m_image_refuted : exists l s log b, run Z.ltb 0%Z isort Nat.even long_serde l [] = Some (s, log) /\ n s = 20%N /\
  to_slice 0%Z long_serde s = Ok b /\ from_slice 0%Z long_serde b = Err.
Proof. exists (many 20 (New 8 3)). eexists _, _, _. split; [vm_compute; reflexivity|]. split; [vm_compute; reflexivity|]. split; [vm_compute; reflexivity|]. vm_compute. reflexivity. Qed.
(** Reset keeps the smallest k of the sketches merged in, the image of an empty sketch does not: shipping a sketch that was
    reset changes the rank error it reports later. *)
Theorem kll_reset_image_refuted : exists l s s' log, run Z.ltb 0%Z isort Nat.even long_serde l [] = Some (s, log) /\
  run Z.ltb 0%Z isort Nat.even long_serde (Ship l) [] = Some (s', log) /\ min_k s = 8%N /\ min_k s' = 12%N.
Proof. exists (Clear (Join (New 12 4) (many 19 (New 8 2)))). eexists _, _, _. split; [vm_compute; reflexivity|]. split; [vm_compute; reflexivity|]. split; [vm_compute; reflexivity|]. vm_compute. reflexivity. Qed.
(** A truncated image is not an error: reading it panics. *)
Theorem kll_truncated_image_refuted : exists l s log b, run Z.ltb 0%Z isort Nat.even long_serde l [] = Some (s, log) /\
  to_slice 0%Z long_serde s = Ok b /\ from_slice 0%Z long_serde (firstn (length b - 1) b) = Panic.
Proof. exists (many 3 (New 8 4)). eexists _, _, _. split; [vm_compute; reflexivity|]. split; [vm_compute; reflexivity|]. vm_compute. reflexivity. Qed.
(** The level array of an image is not checked: with one byte of it changed, reading succeeds, and the iterator and the sorted
    view of the sketch panic. *)
Theorem kll_corrupt_levels_refuted : exists l s log b s', run Z.ltb 0%Z isort Nat.even long_serde l [] = Some (s, log) /\
  to_slice 0%Z long_serde s = Ok b /\ from_slice 0%Z long_serde (upd 24 255%N b) = Ok s' /\ n s' = n s /\
  iterate 0%Z s' = None /\ sorted_view Z.ltb Z.eqb 0%Z isort s' = None.
Proof.
  exists (many 20 (New 8 4)). eexists _, _, _, _. split; [vm_compute; reflexivity|]. split; [vm_compute; reflexivity|]. split; [vm_compute; reflexivity|].
  split; [reflexivity|]. split; [vm_compute; reflexivity|]. vm_compute. reflexivity.
Qed.

Print Assumptions kll_images_are_invisible.
Print Assumptions kll_image_bytes.
Print Assumptions kll_long_images.
Print Assumptions kll_double_images.
Print Assumptions kll_float_images.
Print Assumptions kll_string_images.
