(** * C64 for the results of unions: their byte images do not change any answer either.

    A union result in a coupon mode, or asked for as HLL_4 or HLL_6.  (An HLL_8 result in array mode is a copy of the union's gadget and is not covered.) *)
From Coq Require Import ZArith Bool Psatz.
From Verif Require Import Base Bytes Arr ProbeModel ProbeProofs BitPackModel FloatModel FloatBits ItemSerdeModel HllModel HllPack HllArrProofs HllMode HllUnion HllProps HllSerdeModel HllSerdeProofs HllSerdeProps HllEstTables HllEstModel HllEstProps HllShipProps.
Local Open Scope nat_scope.

(** ** Proofs *)
Lemma convert_loop_tidy src (h : harr f64) t : t <> T4 -> forall n i d z d' z', convert_loop hip_f n i src h t d z = Some (d', z') -> a_aux d' = a_aux d /\ a_curMin d' = a_curMin d.
Proof.
  intros Ht. induction n as [|n IH]; intros i d z d' z' E; cbn [convert_loop] in E; [injection E as <- <-; auto|].
  destruct (slot_value src h i) as [v|]; cbn [bindo] in E; [|discriminate]. destruct (v =? 0)%N; [eapply IH; eauto|].
  destruct (arr_update hip_f t d (mk_pair i v)) as [d1|] eqn:E1; cbn [bindo] in E; [|discriminate]. apply arr_update_tidy in E1; auto. apply IH in E. destruct E1, E. split; congruence.
Qed.
Lemma convert_68_tidy src (h h' : harr f64) t : t <> T4 -> convert_68 f_zero hip_f src h t = Some h' -> a_aux h' = None /\ a_curMin h' = 0%N.
Proof.
  intros Ht. unfold convert_68. destruct (convert_loop _ _ _ _ _ _ _ _) as [[d z]|] eqn:E; cbn [bindo]; [|discriminate]. apply convert_loop_tidy in E; auto. intros E2. injection E2 as <-. exact E.
Qed.
Lemma arr_ship t (h : harr f64) r compact ck : ainv t 0 h r -> kx h r -> (t <> T4 -> a_aux h = None /\ a_curMin h = 0%N) -> a_rebuild h = false ->
  exists b x', to_slice float_bits compact (HArr t h) = Ok b /\ from_slice float_from b ck = Ok (HArr t (set_aux h x')) /\ ainv t 0 (set_aux h x') r.
Proof.
  intros Hi Hk Ht E2. assert (Hf : fields_ok h) by (apply (hinv_fields f_zero float_bits float_from float_bits_lt float_bits_back t h r); auto; intros A; apply (Ht A)). pose proof Hi as (HK & Hi'). assert (Hc : (a_curMin h < 256)%N) by apply Hf.
  set (cc := match t with T4 => compact | _ => false end).
  assert (Es : to_slice float_bits compact (HArr t h) = hll_slice float_bits t h cc) by (destruct t; reflexivity).
  destruct (from_hll_ok float_bits float_from float_bits_lt float_bits_back t 0 h r cc ck Hf Hi (fun A => proj1 (Ht A))) as (x' & E & Hi2 & Hx'). eexists. exists x'. split; [|split; [|exact Hi2]].
  - rewrite Es. apply (hll_slice_ok float_bits float_from); auto. destruct t; [|apply Ht; discriminate|apply Ht; discriminate].
    destruct Hi' as ((Lb & _ & _ & Hax) & _). split; auto. destruct (a_aux h) as [x|]; auto. destruct Hax as ((Hlg & Htb & Hcx & _) & _).
    split; [lia|]. split; [apply Htb|]. rewrite Hcx. unfold acontents. f_equal. unfold used, contents. apply filter_ext. intros c. unfold isocc, isfree, akey. destruct (c =? 0)%N; auto.
  - rewrite E. destruct (tgt_eqb t T8 && ck) eqn:Eb; auto. assert (t = T8) by (destruct t; [discriminate|discriminate|auto]). subst t.
    unfold rebuild. cbn [set_aux a_rebuild]. rewrite E2. reflexivity.
Qed.
Lemma cst_view lgK t (s : hstate f64) cs xs : cst lgK t s cs -> same cs (map code xs) -> (exists arr, s = HList lgK t arr (distinct xs)) \/ exists lg arr, s = HSet lgK t lg arr (distinct xs).
Proof.
  intros Hi Hs. pose proof (cst_sketch coupon_est (fun _ _ _ => f_zero) lgK t s _ xs Hi Hs) as (El & Et & S).
  destruct s as [lg' t' arr cnt|lg' t' la arr cnt|]; cbn [st_lgK st_tgt] in *.
  + left. exists arr. destruct S as (_ & Hn & Hl & Hin). replace cnt with (distinct xs); [congruence|]. rewrite distinct_dist. rewrite <- Hl. symmetry. apply dist_same; auto. intros c. rewrite Hin. symmetry. apply in_map_code.
  + right. exists la, arr. destruct S as (_ & Hn & Hl & Hin). replace cnt with (distinct xs); [congruence|]. rewrite distinct_dist. rewrite <- Hl. symmetry. apply dist_same; auto. intros c. rewrite Hin. symmetry. apply in_map_code.
  + destruct Hi as (_ & _ & _ & []).
Qed.
Lemma cst_hinv lgK t (s : hstate f64) cs : cst lgK t s cs <-> (hinv f_zero hip_f coupon_est lgK t s cs /\ over lgK (dist cs) = false).
Proof. unfold hinv. split; [intros H; pose proof H as (_ & _ & -> & _); auto|intros (H & E); rewrite E in H; auto]. Qed.
Lemma cst_ship lgK t (s : hstate f64) cs compact ck : cst lgK t s cs -> exists b s', to_slice float_bits compact s = Ok b /\ from_slice float_from b ck = Ok s' /\ cst lgK t s' cs.
Proof.
  intros H. assert (Ht : tidy s) by (destruct s; [exact I|exact I|destruct H as (_ & _ & _ & [])]). apply cst_hinv in H. destruct H as (H & Eo).
  destruct (ship_ok f_zero hip_f coupon_est float_bits float_from float_bits_lt float_bits_back lgK t s cs compact ck H Ht) as (E1 & s' & E2 & H2 & _). eexists. exists s'. split; [exact E1|]. split; [exact E2|]. apply cst_hinv. auto.
Qed.

(** ** Theorem *)
Theorem hll_union_result_image flog lgMax u0 os u t u' s compact ck : un_new lgMax = Some u0 -> compatibleF u0 os -> urunF u0 os = Some u -> un_result f_zero hip_f u t = Some (u', s) ->
  t <> T8 \/ ~ in_array (st_lgK s) (all_items os) ->
  exists b s', to_slice float_bits compact s = Ok b /\ from_slice float_from b ck = Ok s' /\
    sketch_of coupon_est (compF flog) (st_lgK s) t s' (all_items os) /\ same_answers flog s s'.
Proof.
  intros En Hc Er E HT. destruct (new_uinv f_zero hip_f coupon_est lgMax u0 En) as [Em0 U0]. destruct (urun_uinv f_zero hip_f coupon_est os u0 [] U0 Hc) as (u1 & Er1 & Em & ys & Hu & Hys).
  assert (u1 = u) by (unfold urunF in Er; congruence). subst u1. clear Er1.
  assert (Hset : forall x, In x ys <-> In x (all_items os)) by (intros x; rewrite Hys; cbn [In]; tauto).
  destruct Hu as (HM & [(Hna & cs & Hh & Hs)|(gl & Ha & Hle & Hr & Hin)]).
  - assert (Hcs : cst (u_max u) T8 (u_gadget u) cs). { unfold hinv in Hh. destruct (over (u_max u) (dist cs)); auto. exfalso. destruct Hh as (_ & h & Eg & _). apply Hna. rewrite Eg. exact I. }
    assert (Hs' : cst (u_max u) t s cs).
    { assert (Eg : rebuild (u_gadget u) = Some (u_gadget u)) by (destruct (u_gadget u); auto; destruct Hcs as (_ & _ & _ & [])). unfold un_result in E. rewrite Eg in E. cbn [bindo] in E.
      destruct (cst_copy f_zero hip_f (u_max u) T8 t (u_gadget u) cs Hcs) as (s2 & E2 & C2). rewrite E2 in E. cbn [bindo] in E. injection E as <- <-. auto. }
    destruct (cst_ship _ _ _ _ compact ck Hs') as (b & s' & E1 & E2 & C2). exists b, s'. split; auto. split; auto.
    destruct (cst_view _ _ _ _ ys Hs' Hs) as [(a & ->)|(lg & a & ->)], (cst_view _ _ _ _ ys C2 Hs) as [(a' & ->)|(lg' & a' & ->)];
      (split; [cbn [st_lgK]; eapply sketch_of_set; [exact Hset|]; eapply cst_sketch; eauto|repeat split]).
  - pose proof E as E'. unfold un_result in E'. destruct (un_result_repr f_zero hip_f u gl _ t Hr) as [_ B]. destruct (B u' s E) as (_ & Rg & Rs & _). destruct (repr_range _ _ _ _ Rs) as (HK & EKs & _). rewrite EKs in *.
    assert (Hia : in_array gl (all_items os)). { apply (in_array_mono gl ys); auto. intros c. rewrite !in_map_iff. intros (x & P & Q). exists x. rewrite <- Hset. auto. }
    assert (T : t <> T8) by (destruct HT; auto; contradiction).
    destruct (rebuild (u_gadget u)) as [g|] eqn:Eg; cbn [bindo] in E'; [|discriminate]. destruct (copy_as f_zero hip_f g t) as [s2|] eqn:E2; cbn [bindo] in E'; [|discriminate]. injection E' as <- <-. cbn [u_gadget] in Rg.
    assert (Ag : in_arr g). { destruct (u_gadget u) as [| |tg gh]; try contradiction. revert Eg. cbn [rebuild]. destruct tg; try (intros Q; inversion Q; exact I). destruct (a_rebuild gh); [|intros Q; inversion Q; exact I].
      destruct (rebuild_loop _ _ _ _ _ _ _) as [[[[? ?] ?] ?]|]; cbn [bindo]; [|discriminate]. intros Q; inversion Q; exact I. }
    destruct Rg as [(cs & Hcs & _)|(h & d & -> & EKh & Ih & Eh)]; [exfalso; apply (not_arr_cst _ _ _ _ Hcs); auto|].
    assert (CV : exists h', s2 = HArr t h' /\ conv_ok t h (regs gl (map code ys)) h' /\ (t <> T4 -> a_aux h' = None /\ a_curMin h' = 0%N)).
    { cbn [copy_as] in E2. destruct t; [| |contradiction]; cbn [tgt_eqb] in E2.
      - destruct (convert_4 f_zero hip_f T8 h) as [h'|] eqn:Ec; cbn [bindo] in E2; [|discriminate]. injection E2 as <-. exists h'. split; auto. split; [eapply convert_4_spec; eauto|congruence].
      - destruct (convert_68_spec f_zero hip_f T8 d h _ T6 ltac:(discriminate) Ih) as (h' & Ec & C). rewrite Ec in E2. cbn [bindo] in E2. injection E2 as <-. exists h'. split; auto. split; auto. intros _. eapply convert_68_tidy; [|exact Ec]. discriminate. }
    destruct CV as (h' & -> & (C1 & C2 & C3 & C4 & C5 & C6 & C7) & TD). destruct (arr_ship t h' _ compact ck C2 C3 TD C6) as (b & x' & B1 & B2 & B3). exists b, (HArr t (set_aux h' x')). split; auto. split; auto. split.
    + eapply sketch_of_set; [exact Hset|]. apply (arr_sketch coupon_est (compF flog) gl t (set_aux h' x') 0 (map code ys) ys (regs gl (map code ys))).
      * change (a_lgK h' = gl). rewrite C1. exact EKh.
      * exact B3.
      * intros _. split; [apply kx_ktot; [intros i Hlt; eapply ainv_lt; eauto|exact C3]|exact C4].
      * exact C6.
      * intros i. apply regs_reg. lia.
      * intros c. reflexivity.
      * apply over_array. auto.
    + repeat split.
Qed.

(** ** A concrete case: a union of two HLL_8 sketches in array mode, asked for as HLL_4 *)
Example ex_union_image : exists u0 u u' s, un_new 4 = Some u0 /\ compatibleF u0 [USketch 4 T8 ten; USketch 4 T8 ten] /\ urunF u0 [USketch 4 T8 ten; USketch 4 T8 ten] = Some u /\ un_result f_zero hip_f u T4 = Some (u', s) /\
  in_array 4 (all_items [USketch 4 T8 ten; USketch 4 T8 ten]).
Proof.
  destruct ex_union as (u0 & E & C & A). assert (R : match un_new 4 with Some v => match urunF v [USketch 4 T8 ten; USketch 4 T8 ten] with Some u => match un_result f_zero hip_f u T4 with Some _ => true | None => false end | None => false end | None => false end = true) by (vm_compute; reflexivity).
  rewrite E in R. destruct (urunF u0 _) as [u|] eqn:Eu; [|discriminate]. destruct (un_result f_zero hip_f u T4) as [[u' s]|] eqn:Es; [|discriminate]. exists u0, u, u', s. auto.
Qed.
Print Assumptions hll_union_result_image.
