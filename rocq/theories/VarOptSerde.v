(** * Serialization of VarOpt sketches and unions: C61. *)
From Verif Require HllPack.
From Verif Require Import Base Bytes Arr BitPackModel ReservoirModel ReservoirProps VarOptModel VarOptHeap VarOptProofs VarOptSem VarOptUnion VarOptProps.
From Coq Require Import QArith Qabs Lqa.
Local Close Scope Q_scope.
Local Open Scope nat_scope.

Lemma mark_byte_bit : forall l j, N.testbit (mark_byte l) (N.of_nat j) = nth j l false.
Proof.
  induction l as [|b l IH]; intros j; [destruct j; apply N.bits_0|]. cbn [mark_byte]. rewrite N.add_comm. destruct j as [|j]; cbn [nth].
  - destruct b; [apply N.testbit_odd_0|rewrite N.add_0_r; apply N.testbit_even_0].
  - rewrite Nat2N.inj_succ. destruct b; [rewrite N.testbit_odd_succ|rewrite N.add_0_r, N.testbit_even_succ]; auto; lia.
Qed.

Section Marks.
Implicit Types (l : list bool) (b pre post : list N).

Lemma read_rest val b index cnt : forall l i j, i mod 8 = j -> 0 < j -> j + length l <= 8 -> (forall t, t < length l -> N.testbit val (N.of_nat (j + t)) = nth t l false) ->
  read_marks (length l + cnt) i val b index = let* (m, index') := read_marks cnt (i + length l) val b index in Ok (l ++ m, index').
Proof.
  induction l as [|x l IH]; intros i j Hj Hp Hl Hb.
  - simpl. rewrite Nat.add_0_r. destruct (read_marks cnt i val b index) as [[m i']| |]; auto.
  - cbn [length Nat.add read_marks]. rewrite Hj. destruct (Nat.eqb_spec j 0); [lia|]. cbn [bindr].
    assert (E0 : N.testbit val (N.of_nat j) = x). { specialize (Hb 0). rewrite Nat.add_0_r in Hb. apply Hb. simpl. lia. } rewrite E0.
    destruct l as [|y l].
    + cbn [length Nat.add]. destruct (read_marks cnt (i + 1) val b index) as [[m i']| |]; auto.
    + simpl length in *. assert (Hm : (i + 1) mod 8 = j + 1). { rewrite Nat.add_mod, Hj by lia. change (1 mod 8) with 1. apply Nat.mod_small. lia. }
      rewrite (IH (i + 1) (j + 1)); try lia.
      * replace (i + 1 + S (length l)) with (i + S (S (length l))) by lia. destruct (read_marks cnt _ val b index) as [[m i']| |]; auto.
      * intros t Ht. replace (j + 1 + t) with (j + S t) by lia. rewrite Hb by (simpl; lia). auto.
Qed.

Lemma read_marks_ok : forall f l i val pre post, i mod 8 = 0 -> length l <= f ->
  read_marks (length l) i val (pre ++ mark_bytes f l ++ post) (length pre) = Ok (l, length pre + length (mark_bytes f l)).
Proof.
  induction f as [|f IH]; intros l i val pre post Hi Hl.
  - destruct l; [|simpl in Hl; lia]. simpl. rewrite Nat.add_0_r. auto.
  - destruct l as [|x l]; [simpl; rewrite Nat.add_0_r; auto|].
    change (mark_bytes (S f) (x :: l)) with (mark_byte (firstn 8 (x :: l)) :: mark_bytes f (skipn 8 (x :: l))).
    set (v := mark_byte (firstn 8 (x :: l))). set (rest := mark_bytes f (skipn 8 (x :: l))).
    assert (Hv : forall t, t < length (firstn 7 l) -> N.testbit v (N.of_nat (1 + t)) = nth t (firstn 7 l) false).
    { intros t Ht. unfold v. rewrite mark_byte_bit. change (firstn 8 (x :: l)) with (x :: firstn 7 l). auto. }
    assert (H0 : N.testbit v (N.of_nat 0) = x) by (unfold v; rewrite mark_byte_bit; auto).
    cbn [length read_marks]. rewrite Hi. cbn [Nat.eqb].
    assert (Hlt : (length (pre ++ (v :: rest) ++ post) <? length pre + 1) = false) by (apply Nat.ltb_ge; rewrite !app_length; cbn [length]; lia).
    rewrite Hlt. cbn [app]. rewrite nth_seg by auto. cbn [of_opt bindr].
    assert (Ll : length l = length (firstn 7 l) + length (skipn 7 l)) by (rewrite <- (firstn_skipn 7 l) at 1; apply app_length).
    assert (L7 : length (firstn 7 l) <= 7) by apply firstn_le_length.
    rewrite Ll at 1. rewrite (read_rest v _ _ (length (skipn 7 l)) (firstn 7 l) (i + 1) 1); [|rewrite Nat.add_mod, Hi by lia; reflexivity|lia|lia|exact Hv].
    assert (E : read_marks (length (skipn 7 l)) (i + 1 + length (firstn 7 l)) v (pre ++ v :: rest ++ post) (length pre + 1) = Ok (skipn 7 l, length pre + 1 + length rest)).
    { unfold rest. change (skipn 8 (x :: l)) with (skipn 7 l). destruct (skipn 7 l) as [|y l'] eqn:Es.
      - cbn [length read_marks]. f_equal. f_equal. destruct f; simpl; lia.
      - assert (L8 : length (firstn 7 l) = 7). { rewrite firstn_length. assert (Hs7 : length (skipn 7 l) > 0) by (rewrite Es; simpl; lia). rewrite skipn_length in Hs7. lia. }
        rewrite L8. rewrite <- Es. specialize (IH (skipn 7 l) (i + 1 + 7) v (pre ++ [v]) post). rewrite app_length, <- app_assoc in IH. cbn [length app] in IH. rewrite IH; auto.
        + replace (i + 1 + 7) with (i + 1 * 8) by lia. rewrite Nat.mod_add by lia. auto.
        + rewrite skipn_length. simpl in Hl. lia. }
    rewrite E. cbn [bindr]. rewrite firstn_skipn. change (0 mod 8) with 0. rewrite H0. f_equal. f_equal. lia.
Qed.
End Marks.

Lemma alloc_ge k h rf : (h <= k)%N -> (1 <= k <= var_opt_max_k)%N ->
  (h <= (let a := adjusted k (2 ^ starting_sub_multiple (ceiling_lg k) rf (ceiling_lg h)) in if a =? k then a + 1 else a))%N.
Proof.
  intros Hh Hk. cbv zeta. set (e := starting_sub_multiple _ _ _).
  assert (He : (ceiling_lg h <= e)%N).
  { unfold e, starting_sub_multiple. destruct (N.leb_spec (ceiling_lg k) (ceiling_lg h)); [lia|]. destruct (N.eqb_spec rf 0); lia. }
  assert (Hp : (2 ^ ceiling_lg h <= 2 ^ e)%N) by (apply N.pow_le_mono_r; lia).
  assert (Ha : (h <= adjusted k (2 ^ e))%N).
  { unfold adjusted. destruct (N.ltb_spec k (2 * 2 ^ e)) as [A|A]; auto. unfold ceiling_lg in Hp. destruct (N.leb_spec h 1) as [B|B].
    - change (2 ^ 0)%N with 1%N in Hp. lia.
    - destruct (N.leb_spec 1073741824 h) as [C|C].
      + change (2 ^ 30)%N with 1073741824%N in Hp. unfold var_opt_max_k in Hk. lia.
      + destruct (N.log2_spec (2 * (h - 1))) as [_ X]; [lia|]. rewrite N.pow_succ_r' in X. lia. }
  destruct (_ =? k)%N; lia.
Qed.

Section Serde.
Context {T : Type}.
Variable zero : T.
Variable growcap : list T -> N -> N -> N.
Hypothesis growcap_ok : forall d c r, (r <= growcap d c r)%N.
Variable ser : list T -> list N.
Variable size_many : list N -> nat -> nat -> option nat.
Variable deser : list N -> nat -> nat -> option (list T).
Variable bits : Q -> N.
Variable of_bits : N -> Q.
(** The item serializer reads back what it wrote, whatever is before and after; the bits of a float64 have 64 bits. *)
Hypothesis size_ok : forall pre l post, size_many (pre ++ ser l ++ post) (length pre) (length l) = Some (length (ser l)).
Hypothesis deser_ok : forall pre l post, deser (pre ++ ser l ++ post) (length pre) (length l) = Some l.
Hypothesis bits_lt : forall q, (bits q < 2 ^ 64)%N.
(** [q] is a float64 value. *)
Definition is_float (q : Q) : Prop := of_bits (bits q) = q.
Implicit Types (s : @vo T) (H R L : list (@slot T)).
Notation encode := (vo_encode ser bits).
Notation decode := (vo_decode zero size_many deser of_bits).

Lemma read_weights_ok : forall H pre post, (forall x, In x H -> is_float (wt x) /\ (0 < wt x)%Q) ->
  read_weights of_bits (length H) (pre ++ concat (map (fun x => le 8 (bits (wt x))) H) ++ post) (length pre) = Ok (map wt H).
Proof.
  clear size_ok deser_ok growcap growcap_ok.
  induction H as [|x H IH]; intros pre post HH; cbn [length read_weights map concat]; auto.
  rewrite <- app_assoc. rewrite get_le_app_at. change (256 ^ N.of_nat 8)%N with (2 ^ 64)%N. rewrite N.mod_small by auto. cbn [of_opt bindr].
  destruct (HH x) as [F P]; [simpl; auto|]. unfold is_float in F. rewrite F. destruct (Qle_bool (wt x) 0) eqn:Q; [apply Qle_bool_iff in Q; lra|].
  specialize (IH (pre ++ le 8 (bits (wt x))) post). rewrite app_length, le_length, <- app_assoc in IH. rewrite IH by (intros; apply HH; simpl; auto). cbn [bindr]. auto.
Qed.

Definition pre_of s : N := if ((v_n s =? 0)%N && (v_r s =? 0)) then 1%N else if v_r s =? 0 then 3%N else 4%N.
Definition b0_of s : N := N.lor (pre_of s) (N.shiftl (v_rf s) 6 mod 256).
Lemma b0_ok s : (v_rf s < 4)%N -> N.land (b0_of s) 63 = pre_of s /\ N.land (N.shiftr (b0_of s) 6) 3 = v_rf s.
Proof.
  intros Hr. unfold b0_of. assert (Hp : pre_of s = 1%N \/ pre_of s = 3%N \/ pre_of s = 4%N) by (unfold pre_of; destruct (_ && _), (v_r s =? 0); auto).
  assert (Hc : v_rf s = 0%N \/ v_rf s = 1%N \/ v_rf s = 2%N \/ v_rf s = 3%N) by lia.
  destruct Hp as [-> |[-> | ->]]; destruct Hc as [-> |[-> |[-> | ->]]]; vm_compute; auto.
Qed.

Lemma zip_slots : forall H, map (fun p : T * Q * bool => mkSlot (fst (fst p)) (snd (fst p)) (snd p)) (combine (combine (map it H) (map wt H)) (map mk H)) = H.
Proof. induction H as [|[x w m] H IH]; simpl; auto. rewrite IH. auto. Qed.
Lemma combine_len {A B} (a : list A) (b : list B) : length a = length b -> length (combine a b) = length a.
Proof. intros. rewrite combine_length. lia. Qed.

(** What decoding gives back: the heavy part with its weights and marks, the gap, the reservoir part. *)
Definition reread s H (rs : list T) : vo :=
  mkVo (H ++ (if 0 <? v_r s then mkSlot zero (-1) false :: map r_slot rs else [])) (v_gadget s) (v_k s) (v_n s) (v_h s) (if 0 <? v_r s then 1 else 0) (v_r s) (v_tot s) (v_rf s) (v_nm s).

Lemma codec s H (rs : list T) : h_samples s = Some H -> length H = v_h s -> (0 < v_r s -> read_items (v_r s) (v_s s) (v_h s + 1) = Some rs) -> length rs = v_r s ->
  length (v_s s) = v_h s + (if 0 <? v_r s then v_r s + 1 else 0) ->
  (v_n s = 0%N -> v_h s = 0 /\ v_r s = 0 /\ v_nm s = 0%Z /\ v_tot s = 0%Q) -> (v_r s = 0 -> v_n s = N.of_nat (v_h s) /\ v_h s <= v_k s /\ v_tot s = 0%Q) ->
  (0 < v_r s -> (N.of_nat (v_k s) < v_n s)%N /\ v_h s + v_r s = v_k s /\ is_float (v_tot s) /\ (0 < v_tot s)%Q) ->
  1 <= v_k s -> (N.of_nat (v_k s) <= var_opt_max_k)%N -> (v_n s < 2 ^ 64)%N -> (v_rf s < 4)%N -> v_nm s = nmark H ->
  (v_gadget s = false -> forall x, In x H -> mk x = false) -> (forall x, In x H -> is_float (wt x) /\ (0 < wt x)%Q) ->
  exists b, encode s = Ok b /\ decode b = Ok (reread s H rs).
Proof.
  intros EH LH ER LR Lv E0 Ew Ef Hk1 Hk Hn Hrf Hnm Hg Hw. clear growcap growcap_ok.
  unfold vo_encode. fold (pre_of s). fold (b0_of s). destruct (b0_ok s Hrf) as [B1 B2].
  assert (Kl : (N.of_nat (v_k s) < 2 ^ 32)%N) by (unfold var_opt_max_k in Hk; change (2 ^ 32)%N with 4294967296%N; lia).
  rewrite (N.mod_small _ _ Kl).
  destruct ((v_n s =? 0)%N && (v_r s =? 0)) eqn:Emp.
  - apply andb_true_iff in Emp as [A1 A2]. apply N.eqb_eq in A1. apply Nat.eqb_eq in A2. destruct (E0 A1) as (A3 & _ & A4 & A5).
    eexists. split; [reflexivity|]. unfold vo_decode, short. cbn [app length nth_error]. rewrite le_length. cbn [Nat.ltb Nat.leb of_opt bindr]. rewrite B1, B2.
    pose proof (get_le_app_at 4 (N.of_nat (v_k s)) [b0_of s; 2; 13; N.lor (if v_gadget s then 128 else 0) 4]%N []) as G. rewrite app_nil_r in G. cbn [length app] in G. rewrite G.
    change (256 ^ N.of_nat 4)%N with (2 ^ 32)%N. rewrite N.mod_small by auto. cbn [of_opt bindr].
    unfold pre_of. rewrite A1, A2. cbn [N.eqb Nat.eqb andb].
    assert (Fl : (N.land (N.lor (if v_gadget s then 128 else 0) 4) 4 =? 0)%N = false /\ negb (N.land (N.lor (if v_gadget s then 128 else 0) 4) 128 =? 0)%N = v_gadget s) by (destruct (v_gadget s); auto).
    destruct Fl as [F1 F2]. rewrite F1, F2. cbn [negb orb N.eqb Pos.eqb]. unfold vo_make. destruct (N.eqb_spec (N.of_nat (v_k s)) 0); [lia|]. cbn [orb].
    destruct (N.ltb_spec var_opt_max_k (N.of_nat (v_k s))); [lia|]. rewrite Nat2N.id.
    unfold reread. rewrite A2. cbn [Nat.ltb Nat.leb]. rewrite A1, A3, A4, A5. destruct H; [auto|simpl in LH; lia].
  - assert (N0 : v_n s <> 0%N). { intros X. destruct (E0 X) as (_ & Y & _). rewrite X, Y in Emp. discriminate. }
    unfold h_samples in EH. rewrite EH. cbn [of_opt bindr]. rewrite Lv, Nat.eqb_refl. cbn [negb].
    assert (Er : of_opt (if 0 <? v_r s then read_items (v_r s) (v_s s) (v_h s + 1) else Some []) = Ok (if 0 <? v_r s then rs else [])).
    { destruct (Nat.ltb_spec 0 (v_r s)); auto. rewrite ER; auto. }
    rewrite Er. cbn [bindr]. clear Er. eexists. split; [reflexivity|].
    set (fl := N.lor (if v_gadget s then 128 else 0) 0). set (hd := [b0_of s; 2; 13; fl]%N ++ le 4 (N.of_nat (v_k s))).
    assert (Hhr : (N.of_nat (v_h s) < 2 ^ 32)%N /\ (N.of_nat (v_r s) < 2 ^ 32)%N).
    { destruct (Nat.eq_dec (v_r s) 0) as [X|X]; [destruct (Ew X) as (_ & Y & _); rewrite X; split; [lia|vm_compute; auto]|destruct Ef as (_ & Y & _); lia]. }
    destruct Hhr as [Hh Hr]. rewrite (N.mod_small _ _ Hh), (N.mod_small _ _ Hr).
    set (tb := if 0 <? v_r s then le 8 (bits (v_tot s)) else []).
    set (ws := concat (map (fun x => le 8 (bits (wt x))) H)). set (mb := if v_gadget s then mark_bytes (v_h s) (map mk H) else []).
    set (sh := ser (map it H)). set (sr := if 0 <? v_r s then ser (if 0 <? v_r s then rs else []) else []).
    set (b := hd ++ le 8 (v_n s) ++ le 4 (N.of_nat (v_h s)) ++ le 4 (N.of_nat (v_r s)) ++ tb ++ ws ++ mb ++ sh ++ sr).
    assert (Lws : length ws = v_h s * 8). { unfold ws. rewrite <- LH. clear. induction H as [|x H IH]; cbn [map concat length]; auto. rewrite app_length, le_length, IH. lia. }
    assert (Lb : length b = 24 + length tb + length ws + length mb + length sh + length sr).
    { unfold b, hd. rewrite !app_length, !le_length. cbn [length]. lia. }
    assert (Gk : get_le 4 4 b = Some (N.of_nat (v_k s))).
    { pose proof (get_le_app_at 4 (N.of_nat (v_k s)) [b0_of s; 2; 13; fl]%N (le 8 (v_n s) ++ le 4 (N.of_nat (v_h s)) ++ le 4 (N.of_nat (v_r s)) ++ tb ++ ws ++ mb ++ sh ++ sr)) as G.
      change (length [b0_of s; 2%N; 13%N; fl]) with 4 in G. unfold b, hd. rewrite <- app_assoc. rewrite G. change (256 ^ N.of_nat 4)%N with (2 ^ 32)%N. rewrite N.mod_small; auto. }
    assert (Gn : get_le 8 8 b = Some (v_n s)).
    { pose proof (get_le_app_at 8 (v_n s) hd (le 4 (N.of_nat (v_h s)) ++ le 4 (N.of_nat (v_r s)) ++ tb ++ ws ++ mb ++ sh ++ sr)) as G.
      change (length hd) with 8 in G. unfold b. rewrite G. change (256 ^ N.of_nat 8)%N with (2 ^ 64)%N. rewrite N.mod_small; auto. }
    assert (Gh : get_le 4 16 b = Some (N.of_nat (v_h s))).
    { pose proof (get_le_app_at 4 (N.of_nat (v_h s)) (hd ++ le 8 (v_n s)) (le 4 (N.of_nat (v_r s)) ++ tb ++ ws ++ mb ++ sh ++ sr)) as G.
      change (length (hd ++ le 8 (v_n s))) with 16 in G. rewrite <- app_assoc in G. unfold b. rewrite G. change (256 ^ N.of_nat 4)%N with (2 ^ 32)%N. rewrite N.mod_small; auto. }
    assert (Gr : get_le 4 20 b = Some (N.of_nat (v_r s))).
    { pose proof (get_le_app_at 4 (N.of_nat (v_r s)) (hd ++ le 8 (v_n s) ++ le 4 (N.of_nat (v_h s))) (tb ++ ws ++ mb ++ sh ++ sr)) as G.
      change (length (hd ++ le 8 (v_n s) ++ le 4 (N.of_nat (v_h s)))) with 20 in G. rewrite <- !app_assoc in G. unfold b. rewrite G. change (256 ^ N.of_nat 4)%N with (2 ^ 32)%N. rewrite N.mod_small; auto. }
    set (P24 := hd ++ le 8 (v_n s) ++ le 4 (N.of_nat (v_h s)) ++ le 4 (N.of_nat (v_r s))).
    assert (LP24 : length P24 = 24) by reflexivity.
    assert (Eb : b = P24 ++ tb ++ ws ++ mb ++ sh ++ sr) by (unfold b, P24; rewrite <- !app_assoc; auto).
    unfold vo_decode, short.
    destruct (Nat.ltb_spec (length b) 8); [lia|]. change (nth_error b 0) with (Some (b0_of s)). change (nth_error b 1) with (Some 2%N). change (nth_error b 2) with (Some 13%N). change (nth_error b 3) with (Some fl).
    cbn [of_opt bindr]. rewrite B1, B2, Gk. cbn [of_opt bindr].
    assert (Fl : (N.land fl 4 =? 0)%N = true /\ negb (N.land fl 128 =? 0)%N = v_gadget s) by (unfold fl; destruct (v_gadget s); auto).
    destruct Fl as [F1 F2]. rewrite F1, F2. cbn [negb orb N.eqb Pos.eqb].
    assert (Epre : pre_of s = if v_r s =? 0 then 3%N else 4%N) by (unfold pre_of; rewrite Emp; auto). rewrite Epre.
    assert (Ep2 : negb ((if (v_r s =? 0)%nat then 3 else 4) =? 3)%N && negb ((if (v_r s =? 0)%nat then 3 else 4) =? 4)%N = false) by (destruct (v_r s =? 0); auto). rewrite Ep2.
    destruct (Nat.ltb_spec (length b) 16); [lia|]. rewrite Gn. cbn [of_opt bindr]. destruct (Nat.ltb_spec (length b) 20); [lia|]. rewrite Gh. cbn [of_opt bindr].
    destruct (Nat.ltb_spec (length b) 24); [lia|]. rewrite Gr. cbn [of_opt bindr].
    assert (Ds : exists alloc, data_size (if v_r s =? 0 then 3%N else 4%N) (N.of_nat (v_k s)) (v_n s) (N.of_nat (v_h s)) (N.of_nat (v_r s)) (v_rf s) = Ok alloc /\
       (N.of_nat (v_h s) <= alloc)%N /\ (0 < v_r s -> alloc = N.of_nat (v_k s + 1))).
    { unfold data_size. destruct (N.eqb_spec (N.of_nat (v_k s)) 0); [lia|]. cbn [orb]. destruct (N.ltb_spec var_opt_max_k (N.of_nat (v_k s))); [lia|].
      destruct (Nat.eqb_spec (v_r s) 0) as [X|X].
      - destruct (Ew X) as (Y1 & Y2 & Y3). destruct (N.leb_spec (v_n s) (N.of_nat (v_k s))); [|lia]. cbn [N.eqb Pos.eqb negb]. rewrite Y1, N.eqb_refl. cbn [negb]. rewrite X. cbn [N.of_nat N.ltb].
        eexists. split; [reflexivity|]. split; [|lia]. apply alloc_ge; lia.
      - destruct Ef as (Y1 & Y2 & Y3 & Y4); [lia|]. destruct (N.leb_spec (v_n s) (N.of_nat (v_k s))); [lia|]. cbn [N.eqb Pos.eqb negb].
        rewrite <- Nat2N.inj_add, Y2, (N.mod_small _ _ Kl), N.eqb_refl. cbn [negb]. eexists. split; [reflexivity|]. split; lia. }
    destruct Ds as (alloc & -> & Al1 & Al2). cbn [bindr].
    assert (Et : (if ((if (v_r s =? 0)%nat then 3 else 4) =? 4)%N then if length b <? 32 then Err else let* v := of_opt (get_le 8 24 b) in if (N.of_nat (v_r s) =? 0)%N || Qle_bool (of_bits v) 0 then Err else Ok (of_bits v, 32) else Ok (0%Q, 24)) = Ok (v_tot s, length (P24 ++ tb))).
    { rewrite app_length, LP24. unfold tb. destruct (Nat.eqb_spec (v_r s) 0) as [X|X].
      - rewrite X. cbn [N.eqb Pos.eqb Nat.ltb Nat.leb length]. destruct (Ew X) as (_ & _ & ->). auto.
      - destruct Ef as (Y1 & Y2 & Y3 & Y4); [lia|]. cbn [N.eqb Pos.eqb]. unfold tb in Lb. destruct (Nat.ltb_spec 0 (v_r s)); [|lia]. rewrite le_length in *.
        destruct (Nat.ltb_spec (length b) 32); [lia|].
        assert (Gt : get_le 8 24 b = Some (bits (v_tot s))).
        { rewrite Eb. unfold tb. destruct (Nat.ltb_spec 0 (v_r s)); [|lia]. pose proof (get_le_app_at 8 (bits (v_tot s)) P24 (ws ++ mb ++ sh ++ sr)) as G. rewrite LP24 in G. rewrite G.
          change (256 ^ N.of_nat 8)%N with (2 ^ 64)%N. rewrite N.mod_small; auto. }
        rewrite Gt. cbn [of_opt bindr]. unfold is_float in Y3. rewrite Y3. destruct (N.eqb_spec (N.of_nat (v_r s)) 0); [lia|]. destruct (Qle_bool (v_tot s) 0) eqn:Q; [apply Qle_bool_iff in Q; lra|]. auto. }
    rewrite Et. cbn [bindr]. clear Et.
    set (P1 := P24 ++ tb) in *. assert (Eb1 : b = P1 ++ ws ++ mb ++ sh ++ sr) by (unfold P1; rewrite <- app_assoc; auto).
    assert (LP1 : length P1 = 24 + length tb) by (unfold P1; rewrite app_length; lia).
    assert (Ln : N.to_nat (if (N.of_nat (v_r s) =? 0)%N then N.of_nat (v_h s) else alloc) = length (v_s s)).
    { rewrite Lv. destruct (N.eqb_spec (N.of_nat (v_r s)) 0); destruct (Nat.ltb_spec 0 (v_r s)); try lia. }
    rewrite Ln. assert (La : length (v_s s) <= N.to_nat alloc). { rewrite Lv. destruct (Nat.ltb_spec 0 (v_r s)); [rewrite Al2 by lia; destruct Ef as (_ & Y & _); lia|lia]. }
    destruct (Nat.ltb_spec (N.to_nat alloc) (length (v_s s))); [lia|]. rewrite !Nat2N.id. destruct (Nat.ltb_spec (length b) (length P1 + v_h s * 8)); [lia|].
    rewrite Eb1 at 1. rewrite <- LH at 1. unfold ws at 1. rewrite read_weights_ok by auto. cbn [bindr].
    destruct (Nat.ltb_spec (length (v_s s)) (v_h s)); [lia|]. rewrite <- Lws, <- app_length.
    set (P2 := P1 ++ ws). assert (Eb2 : b = P2 ++ mb ++ sh ++ sr) by (unfold P2; rewrite <- app_assoc; auto).
    assert (Em : (if v_gadget s then read_marks (v_h s) 0 0%N b (length P2) else Ok (repeat false (v_h s), length P2)) = Ok (map mk H, length (P2 ++ mb))).
    { rewrite app_length. unfold mb in *. destruct (v_gadget s) eqn:Eg.
      - rewrite Eb2. replace (v_h s) with (length (map mk H)) at 1 by (rewrite map_length; auto). rewrite read_marks_ok; auto. rewrite map_length. lia.
      - rewrite Nat.add_0_r. f_equal. f_equal. rewrite <- LH. specialize (Hg eq_refl). clear - Hg. induction H as [|x H IH]; simpl; auto. rewrite (Hg x), IH; simpl; auto. intros; apply Hg; simpl; auto. }
    rewrite Em. cbn [bindr]. set (P3 := P2 ++ mb). assert (Eb3 : b = P3 ++ sh ++ sr) by (unfold P3; rewrite <- app_assoc; auto).
    assert (Lb3 : length b = length P3 + length sh + length sr) by (rewrite Eb3, !app_length; lia).
    pose proof (size_ok P3 (map it H) sr) as Sz. pose proof (deser_ok P3 (map it H) sr) as Dz. fold sh in Sz, Dz. rewrite <- Eb3, map_length, LH in Sz, Dz. rewrite Sz, Dz.
    destruct (Nat.ltb_spec (length b) (length P3 + length sh)); [lia|]. rewrite map_length, LH, Nat.eqb_refl. cbn [negb].
    rewrite <- app_length. set (P4 := P3 ++ sh). rewrite zip_slots.
    assert (Erest : (if (0 <? N.of_nat (v_r s))%N then match size_many b (length P4) (v_r s) with None => Err | Some rBytes => if length b <? length P4 + rBytes then Err else
         match deser b (length P4) (v_r s) with None => Err | Some rd => if negb (length rd =? v_r s) || negb (v_h s + 1 + v_r s =? length (v_s s)) then Panic else Ok (mkSlot zero (-1) false :: map r_slot rd) end end else Ok []) =
       Ok (if 0 <? v_r s then mkSlot zero (-1) false :: map r_slot rs else [])).
    { destruct (N.ltb_spec 0 (N.of_nat (v_r s))); destruct (Nat.ltb_spec 0 (v_r s)) as [X|X]; try lia; auto.
      assert (Eb4 : b = P4 ++ ser rs ++ []). { unfold P4. rewrite app_nil_r, Eb3. unfold sr. destruct (Nat.ltb_spec 0 (v_r s)); [rewrite <- app_assoc; auto|lia]. }
      pose proof (size_ok P4 rs []) as Sz2. pose proof (deser_ok P4 rs []) as Dz2. rewrite <- Eb4, LR in Sz2, Dz2. rewrite Sz2, Dz2.
      assert (Lb4 : length b = length P4 + length (ser rs)) by (rewrite Eb4, !app_length; simpl; lia).
      destruct (Nat.ltb_spec (length b) (length P4 + length (ser rs))); [lia|]. rewrite LR, Nat.eqb_refl. cbn [negb orb].
      destruct (Nat.eqb_spec (v_h s + 1 + v_r s) (length (v_s s))) as [Y|Y]; [auto|]. exfalso. apply Y. rewrite Lv. lia. }
    rewrite Erest. cbn [bindr]. unfold reread. f_equal.
    assert (Eif : (if (0 <? N.of_nat (v_r s))%N then 1 else 0) = if 0 <? v_r s then 1 else 0) by (destruct (N.ltb_spec 0 (N.of_nat (v_r s))); destruct (Nat.ltb_spec 0 (v_r s)); auto; lia).
    rewrite Eif. f_equal. rewrite Hnm. unfold nmark. f_equal. clear. induction H as [|x H IH]; simpl; auto. destruct (mk x); simpl; auto.
Qed.

(** What reading back gives, seen through the API. *)
Lemma reread_same s H rs : h_samples s = Some H -> length H = v_h s -> length rs = v_r s -> (0 < v_r s -> v_h s + v_r s = v_k s) ->
  (0 < v_r s -> read_items (v_r s) (v_s s) (v_h s + 1) = Some rs) ->
  let s' := reread s H rs in h_samples s' = Some H /\ num_samples s' = num_samples s /\ all_samples s' = all_samples s /\ (forall P, estimate_subset_sum s' P = estimate_subset_sum s P).
Proof.
  clear size_ok deser_ok growcap growcap_ok bits_lt ser size_many deser bits of_bits.
  intros EH LH LR Ek ER s'. pose proof (read_slots_ok H [] (if 0 <? v_r s then mkSlot zero (-1) false :: map r_slot rs else [])) as A. cbn [app length] in A.
  assert (EH' : read_slots (v_h s) (v_s s') 0 = Some H) by (rewrite <- LH; exact A).
  unfold h_samples in EH. split; [exact EH'|]. split; [auto|].
  assert (Er : 0 < v_r s -> read_items (v_r s) (v_s s') (v_h s + 1) = Some rs).
  { intros X. unfold s', reread. cbn [v_s]. destruct (Nat.ltb_spec 0 (v_r s)); [|lia].
    pose proof (read_items_ok (map r_slot rs) (H ++ [mkSlot zero (-1) false]) []) as B. rewrite map_length, app_length, <- app_assoc, app_nil_r, map_map in B. cbn [length app r_slot it] in B.
    rewrite map_id, LH, LR in B. exact B. }
  split.
  - unfold all_samples. change (v_h s') with (v_h s). change (v_r s') with (v_r s). change (num_samples s') with (num_samples s). change (tau s') with (tau s). rewrite EH, EH'. cbn [bindo].
    destruct (Nat.ltb_spec 0 (v_r s)) as [X|X]; auto. replace (num_samples s - v_h s) with (v_r s) by (unfold num_samples; specialize (Ek X); lia). rewrite Er, ER by auto. auto.
  - intros P. unfold estimate_subset_sum. change (v_h s') with (v_h s). change (v_r s') with (v_r s). change (v_n s') with (v_n s). change (v_k s') with (v_k s). change (v_tot s') with (v_tot s). rewrite EH, EH'. cbn [of_opt bindr].
    destruct (v_n s =? 0)%N; auto. destruct (Nat.eqb_spec (v_r s) 0); auto. destruct (v_n s <? N.of_nat (v_h s + v_r s))%N; auto.
    replace (v_k s - v_h s) with (v_r s) by (specialize (Ek ltac:(lia)); lia). rewrite Er, ER by lia. auto.
Qed.

Lemma weak_codec s xs : Weak s xs -> tight s -> v_n s = N.of_nat (length xs) -> (N.of_nat (v_k s) <= var_opt_max_k)%N -> (v_n s < 2 ^ 64)%N -> (v_rf s < 4)%N ->
  (forall H x, h_samples s = Some H -> In x H -> is_float (wt x)) -> is_float (v_tot s) ->
  exists H rs b, h_samples s = Some H /\ length H = v_h s /\ length rs = v_r s /\ (0 < v_r s -> v_h s + v_r s = v_k s) /\ (0 < v_r s -> read_items (v_r s) (v_s s) (v_h s + 1) = Some rs) /\
    encode s = Ok b /\ decode b = Ok (reread s H rs) /\ (v_r s = 0 -> reread s H rs = s).
Proof.
  clear growcap growcap_ok.
  intros [Wm|(H & g & R & J & L & D & E)] Tg En Hk Hn Hrf Hf Ht.
  - destruct (warm_reads _ _ Wm) as (A & _). destruct Wm as [A1 A2 A3 A4 A5 A6 A7 A8 A9 A10]. pose proof (Permutation_length A3) as LP.
    destruct (codec s (v_s s) []) as (b & E1 & E2); auto; try (rewrite A1; simpl; lia); try lia.
    { intros X. rewrite X in En. assert (length xs = 0) as Z by lia. assert (v_s s = []) as Zs by (destruct (v_s s); auto; simpl in LP; lia). rewrite A7, Zs. repeat split; auto. rewrite A4, Zs. auto. }
    { intros _. split; [lia|auto]. }
    { intros G x Hx. apply A9; auto. rewrite A3. auto. }
    { intros x Hx. split; [eapply Hf; eauto|]. apply A8. rewrite A3. auto. }
    exists (v_s s), [], b. do 2 (split; auto). split; [simpl; lia|]. split; [lia|]. split; [lia|]. split; auto. split; auto.
    intros _. unfold reread. rewrite A1. cbn [Nat.ltb Nat.leb]. rewrite app_nil_r. destruct s; cbn in *. congruence.
  - destruct (est_reads _ _ _ _ _ _ _ _ E) as (A & B & _). pose proof (est_tight _ _ _ _ _ _ _ _ E Tg). subst J. pose proof (est_tot_pos _ _ _ _ _ _ _ _ E) as Tp.
    destruct E as [Es EH ER Em Ek Er1 Ehp Ep Et El Ei Ed Ec Epos Emk].
    assert (Er : read_items (v_r s) (v_s s) (v_h s + 1) = Some (map it R)).
    { unfold r_samples, num_samples in B. replace (Nat.min (v_k s) (v_h s + v_r s) - v_h s) with (v_r s) in B by lia. auto. }
    pose proof (Permutation_length Ep) as LP. rewrite app_length in LP. pose proof (Permutation_length Ei) as LI. rewrite app_length, !map_length in LI.
    assert (1 <= length D) by (destruct D; [congruence|simpl; lia]).
    destruct (codec s H (map it R)) as (b & E1 & E2); auto; try (rewrite ?map_length; lia).
    { rewrite Es, app_nil_r, app_length. cbn [length]. destruct (Nat.ltb_spec 0 (v_r s)); lia. }
    { intros _. split; [lia|]. repeat split; auto. } { apply Ec. } { apply Ec. } { intros x Hx. split; [eapply Hf; eauto|]. apply Epos. rewrite Ep. apply in_or_app; auto. }
    exists H, (map it R), b. do 2 (split; auto). split; [rewrite map_length; auto|]. do 4 (split; auto). lia.
Qed.

Lemma plain_k s ys : @plain T s ys -> (N.of_nat (v_k s) <= var_opt_max_k)%N /\ tight s.
Proof.
  clear - T. induction 1 as [k0 rf0 s E|s ys x w d s' Hp [IH1 IH2] E|s ys Hp [IH1 IH2]].
  - destruct (make_inv _ _ _ _ E) as (A & B & C & F & G & Hh). rewrite F. split; [lia|]. left. apply (wm_r _ _ A).
  - destruct (plain_good s ys Hp) as (Gd & G & _).
    assert (Hw : (0 < w)%Q). { unfold vo_update, update_mark in E. destruct (Qle_bool w 0) eqn:Q; [discriminate|]. apply qle_false in Q. auto. }
    destruct (update_good s _ x w false d Gd Hw) as (s1 & E1 & G1 & (F1 & F2 & F3) & F4 & F5); auto. unfold vo_update in E. rewrite E1 in E. injection E as <-. rewrite F2. auto.
  - split; auto. left. auto.
Qed.

(** C61. Encoding then decoding gives a sketch with the same k, n, resize factor, samples and estimates, and while no item has been
    dropped exactly the same sketch. *)
Theorem varopt_round_trip s ys : plain s ys -> (N.of_nat (length ys) < 2 ^ 64)%N -> (v_rf s < 4)%N ->
  (forall p, In p ys -> is_float (snd p)) -> is_float (v_tot s) ->
  exists b s', encode s = Ok b /\ decode b = Ok s' /\ v_k s' = v_k s /\ v_n s' = v_n s /\ v_rf s' = v_rf s /\ num_samples s' = num_samples s /\
    all_samples s' = all_samples s /\ (forall P, estimate_subset_sum s' P = estimate_subset_sum s P) /\ (length ys <= v_k s -> s' = s).
Proof.
  clear growcap growcap_ok.
  intros Hp Hn Hrf Hf Ht. destruct (plain_good s ys Hp) as (Gd & G & En). destruct (plain_k s ys Hp) as [Hk Tg]. pose proof (good_weak _ _ Gd) as Wk.
  destruct (weak_codec s _ Wk Tg) as (H & rs & b & E1 & E2 & E3 & E4 & E5 & E6 & E7 & E8); auto.
  { rewrite map_length. auto. } { rewrite En. auto. }
  { intros H x EH Hx. assert (Hin : In x (map slot_of ys)).
    { destruct Wk as [Wm|(H' & g & R & J & L & D & E)].
      - destruct (warm_reads _ _ Wm) as (A & _). rewrite A in EH. injection EH as <-. rewrite (wm_perm _ _ Wm). auto.
      - destruct (est_reads _ _ _ _ _ _ _ _ E) as (A & _). rewrite A in EH. injection EH as <-. rewrite (es_perm _ _ _ _ _ _ _ _ E). apply in_or_app. auto. }
    apply in_map_iff in Hin as (p & <- & Hq). apply (Hf p). auto. }
  destruct (reread_same s H rs E1 E2 E3 E4 E5) as (_ & R1 & R2 & R3).
  exists b, (reread s H rs). do 5 (split; auto). do 3 (split; auto). intros Hl. apply E8.
  destruct (weak_samples s ys) as (heavy & light & rest & dropped & _ & _ & _ & _ & _ & _ & _ & _ & _ & _ & Z); [split; auto|]. destruct (Nat.eq_dec (v_r s) 0); auto. specialize (Z ltac:(lia)). lia.
Qed.

Lemma reloaded_refuses s x w d : v_m s = 1 -> 0 < v_r s -> v_h s + v_r s = v_k s -> v_h s < length (v_s s) -> vo_update s x w d = Err.
Proof.
  clear - T. intros A1 A2 A3 A4. unfold vo_update, update_mark. destruct w as [w|]; auto. destruct (Qle_bool w 0); auto. vcbn.
  destruct (Nat.eqb_spec (v_r s) 0); [lia|]. destruct (v_h s =? 0) eqn:Eh.
  - cbn [negb andb orb bindr]. destruct (qlt w _); cbn [andb].
    + unfold update_light, grow_candidates. vcbn. destruct (Nat.eqb_spec (v_r s) 0); [lia|]. destruct (Nat.eqb_spec (v_r s + v_h s) (v_k s)); [|lia]. cbn [negb orb].
      rewrite HllPack.wr_ok by auto.
      cbn [of_opt bindr]. vcbn. destruct (Nat.eqb_spec (v_h s + (v_m s + 1) + v_r s) (v_k s + 1)); [lia|]. auto.
    + unfold update_heavy_r1, update_heavy. vcbn. rewrite A1. cbn [Nat.eqb negb orb]. rewrite !orb_true_r. cbn [orb]. destruct (v_r s =? 1); auto.
  - cbn [negb andb orb]. destruct (nth_error (v_s s) 0) as [y|] eqn:Ey; [|apply nth_error_None in Ey; lia]. cbn [of_opt bindr].
    destruct (qlt (wt y) _); auto. destruct (_ && _).
    + unfold update_light, grow_candidates. vcbn. destruct (Nat.eqb_spec (v_r s) 0); [lia|]. destruct (Nat.eqb_spec (v_r s + v_h s) (v_k s)); [|lia]. cbn [negb orb].
      rewrite HllPack.wr_ok by auto.
      cbn [of_opt bindr]. vcbn. destruct (Nat.eqb_spec (v_h s + (v_m s + 1) + v_r s) (v_k s + 1)); [lia|]. auto.
    + unfold update_heavy_r1, update_heavy. vcbn. rewrite A1. cbn [Nat.eqb negb orb]. rewrite !orb_true_r. cbn [orb]. destruct (v_r s =? 1); auto.
Qed.

(** A finding. "A decoded sketch can be used like the one it came from" is false: once items have been dropped, the decoded sketch refuses every
    update, whatever the item and the weight (the decoder sets the middle region's size to 1, and updates require 0). *)
Theorem varopt_reloaded_updates_refuted s ys : plain s ys -> (N.of_nat (length ys) < 2 ^ 64)%N -> (v_rf s < 4)%N ->
  (forall p, In p ys -> is_float (snd p)) -> is_float (v_tot s) -> v_k s < length ys ->
  exists b s', encode s = Ok b /\ decode b = Ok s' /\ forall x w d, vo_update s' x w d = Err.
Proof.
  clear growcap growcap_ok.
  intros Hp Hn Hrf Hf Ht Hl. destruct (varopt_round_trip s ys Hp Hn Hrf Hf Ht) as (b & s' & E & E' & _). exists b, s'. split; auto. split; auto.
  destruct (plain_good s ys Hp) as (Gd & G & En). destruct (plain_k s ys Hp) as [Hk Tg]. pose proof (good_weak _ _ Gd) as Wk.
  destruct (weak_codec s _ Wk Tg) as (H & rs & b' & E1 & E2 & E3 & E4 & E5 & E6 & E7 & E8); auto.
  { rewrite map_length. auto. } { rewrite En. auto. }
  { intros H x EH Hx. assert (Hin : In x (map slot_of ys)).
    { destruct Wk as [Wm|(H' & g & R & J & L & D & Es)].
      - destruct (warm_reads _ _ Wm) as (A & _). rewrite A in EH. injection EH as <-. rewrite (wm_perm _ _ Wm). auto.
      - destruct (est_reads _ _ _ _ _ _ _ _ Es) as (A & _). rewrite A in EH. injection EH as <-. rewrite (es_perm _ _ _ _ _ _ _ _ Es). apply in_or_app. auto. }
    apply in_map_iff in Hin as (p & <- & Hq). apply (Hf p). auto. }
  rewrite E in E6. injection E6 as <-. rewrite E' in E7. injection E7 as ->.
  assert (Hr : 0 < v_r s).
  { destruct (weak_samples s ys) as (heavy & light & rest & dropped & _ & _ & _ & _ & _ & _ & _ & _ & _ & Z & _); [split; auto|]. destruct (Nat.eq_dec (v_r s) 0); [|lia]. destruct (Z e). lia. }
  intros x w d. apply reloaded_refuses; unfold reread; vcbn; destruct (Nat.ltb_spec 0 (v_r s)); auto; try lia. rewrite app_length. cbn [length]. lia.
Qed.

(** ** The union *)

(** Encoding then decoding a union gives the same union, as long as its own sample has dropped nothing; and otherwise one that holds the same samples. *)
Theorem varopt_union_round_trip maxK u ys : union zero growcap maxK u ys -> (u_n u < 2 ^ 64)%N -> (v_n (u_g u) < 2 ^ 64)%N -> (N.of_nat (u_den u) < 2 ^ 64)%N ->
  (forall H x, h_samples (u_g u) = Some H -> In x H -> is_float (wt x)) -> is_float (v_tot (u_g u)) -> is_float (u_num u) ->
  exists b u', vu_encode ser bits u = Ok b /\ vu_decode zero size_many deser of_bits b = Ok u' /\ u_k u' = u_k u /\ u_n u' = u_n u /\
    (0 < num_samples (u_g u) -> u_num u' = u_num u /\ u_den u' = u_den u) /\
    all_samples (u_g u') = all_samples (u_g u) /\ (0 < num_samples (u_g u) -> v_r (u_g u) = 0 -> u' = u).
Proof.
  intros Hu Hn Hgn Hdn Hf Ht Hfn. destruct (union_inv zero growcap growcap_ok _ _ _ Hu) as [(vs & Y & D & [Ug Ut Uga Uk Uk1 Un Uv Ugn Urf Umx]) Ek]. clear Hu growcap growcap_ok.
  assert (Kl : (N.of_nat (u_k u) < 2 ^ 32)%N) by (unfold var_opt_max_k in Umx; change (2 ^ 32)%N with 4294967296%N; lia).
  destruct (weak_codec (u_g u) vs (good_weak _ _ Ug) Ut Ugn) as (H & rs & g & E1 & E2 & E3 & E4 & E5 & E6 & E7 & E8); auto. { rewrite Uk. auto. } { rewrite Urf. reflexivity. }
  destruct (reread_same (u_g u) H rs E1 E2 E3 E4 E5) as (_ & R1 & R2 & R3).
  unfold vu_encode. rewrite (N.mod_small _ _ Kl). destruct (Nat.eqb_spec (num_samples (u_g u)) 0) as [Z|Z].
  - assert (Z0 : v_h (u_g u) + v_r (u_g u) = 0) by (unfold num_samples in Z; lia).
    assert (Zv : vs = []).
    { destruct Ug as [Wm|(H' & g' & R & J & L & D' & E & _)].
      - pose proof (Permutation_length (wm_perm _ _ Wm)) as X. pose proof (wm_h _ _ Wm). destruct vs; auto. simpl in X. lia.
      - pose proof (es_r1 _ _ _ _ _ _ _ _ E). lia. }
    assert (Zy : ys = []).
    { subst vs. destruct Uv as [V1 _ _ V4 _ _ _ _ _]. assert (Y = []) as ->. { destruct Y as [|y Y]; auto. destruct (V4 y) as (v & [] & _); simpl; auto. } simpl in V1. apply Permutation_nil. symmetry. auto. }
    eexists; eexists. split; [reflexivity|]. split.
    { unfold vu_decode, short. cbn [app length nth_error]. rewrite le_length. cbn [Nat.ltb Nat.leb of_opt bindr N.eqb Pos.eqb negb andb].
      pose proof (get_le_app_at 4 (N.of_nat (u_k u)) [1; 2; 14; 4]%N []) as G. rewrite app_nil_r in G. cbn [length app] in G. rewrite G.
      change (256 ^ N.of_nat 4)%N with (2 ^ 32)%N. rewrite N.mod_small by auto. cbn [of_opt bindr]. change (negb (N.land 4 4 =? 0)%N) with true.
      cbv iota. unfold vu_new, vo_make. destruct (N.eqb_spec (N.of_nat (u_k u)) 0); [lia|]. cbn [orb]. destruct (N.ltb_spec var_opt_max_k (N.of_nat (u_k u))); [lia|]. cbn [bindr]. reflexivity. }
    cbn [u_k u_n u_num u_den u_g]. rewrite Nat2N.id. split; auto. split. { rewrite Un, Zy. auto. } split; [lia|]. split; [|lia].
    rewrite <- R2. unfold all_samples, reread. vcbn. assert (v_r (u_g u) = 0) as -> by lia. assert (v_h (u_g u) = 0) as -> by lia. auto.
  - rewrite E6. cbn [bindr]. eexists; eexists. split; [reflexivity|].
    set (hd := [4; 2; 14; 0]%N ++ le 4 (N.of_nat (u_k u))). set (b := [4; 2; 14; 0]%N ++ _).
    assert (Eb : b = hd ++ le 8 (u_n u) ++ le 8 (bits (u_num u)) ++ le 8 (N.of_nat (u_den u)) ++ g) by (unfold b, hd; rewrite <- app_assoc; auto).
    assert (Gk : get_le 4 4 b = Some (N.of_nat (u_k u))).
    { pose proof (get_le_app_at 4 (N.of_nat (u_k u)) [4; 2; 14; 0]%N (le 8 (u_n u) ++ le 8 (bits (u_num u)) ++ le 8 (N.of_nat (u_den u)) ++ g)) as G. cbn [length] in G. unfold b. rewrite G.
      change (256 ^ N.of_nat 4)%N with (2 ^ 32)%N. rewrite N.mod_small; auto. }
    assert (Gn : get_le 8 8 b = Some (u_n u)).
    { rewrite Eb. pose proof (get_le_app_at 8 (u_n u) hd (le 8 (bits (u_num u)) ++ le 8 (N.of_nat (u_den u)) ++ g)) as G. change (length hd) with 8 in G. rewrite G.
      change (256 ^ N.of_nat 8)%N with (2 ^ 64)%N. rewrite N.mod_small; auto. }
    assert (Gm : get_le 8 16 b = Some (bits (u_num u))).
    { rewrite Eb. pose proof (get_le_app_at 8 (bits (u_num u)) (hd ++ le 8 (u_n u)) (le 8 (N.of_nat (u_den u)) ++ g)) as G. change (length (hd ++ le 8 (u_n u))) with 16 in G. rewrite <- app_assoc in G. rewrite G.
      change (256 ^ N.of_nat 8)%N with (2 ^ 64)%N. rewrite N.mod_small; auto. }
    assert (Gd : get_le 8 24 b = Some (N.of_nat (u_den u))).
    { rewrite Eb. pose proof (get_le_app_at 8 (N.of_nat (u_den u)) (hd ++ le 8 (u_n u) ++ le 8 (bits (u_num u))) g) as G. change (length (hd ++ le 8 (u_n u) ++ le 8 (bits (u_num u)))) with 24 in G. rewrite <- !app_assoc in G. rewrite G.
      change (256 ^ N.of_nat 8)%N with (2 ^ 64)%N. rewrite N.mod_small; auto. }
    assert (Gs : skipn 32 b = g). { rewrite Eb. change 32 with (length (hd ++ le 8 (u_n u) ++ le 8 (bits (u_num u)) ++ le 8 (N.of_nat (u_den u)))). rewrite !app_assoc. apply skipn_seg. auto. }
    assert (Lb : length b = 32 + length g). { rewrite Eb. unfold hd. rewrite !app_length, !le_length. cbn [length]. lia. }
    split.
    { unfold vu_decode, short. destruct (Nat.ltb_spec (length b) 1); [lia|]. change (nth_error b 0) with (Some 4%N). change (nth_error b 1) with (Some 2%N). change (nth_error b 2) with (Some 14%N). change (nth_error b 3) with (Some 0%N).
      cbn [of_opt bindr N.eqb Pos.eqb negb andb].
      destruct (Nat.ltb_spec (length b) 2); [lia|]. destruct (Nat.ltb_spec (length b) 3); [lia|]. destruct (Nat.ltb_spec (length b) 4); [lia|]. destruct (Nat.ltb_spec (length b) 8); [lia|].
      rewrite Gk. cbn [of_opt bindr]. change (negb (N.land 0 4 =? 0)%N) with false. cbv iota.
      destruct (Nat.ltb_spec (length b) 16); [lia|]. rewrite Gn. cbn [of_opt bindr]. destruct (Nat.ltb_spec (length b) 24); [lia|]. rewrite Gm. cbn [of_opt bindr]. destruct (Nat.ltb_spec (length b) 32); [lia|]. rewrite Gd. cbn [of_opt bindr].
      rewrite Gs, E7. cbn [bindr]. reflexivity. }
    cbn [u_k u_n u_num u_den u_g]. rewrite !Nat2N.id. unfold is_float in Hfn. rewrite Hfn. do 4 (split; auto). intros _ X. rewrite E8 by auto. destruct u; auto.
Qed.
End Serde.
