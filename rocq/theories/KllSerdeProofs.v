(** * Proofs about the byte images of KLL sketches. *)
From Coq Require Import Sorting.Sorted.
From Verif Require Import Base Bytes Arr GoInt BitPackModel HllSerdeModel HllSerdeProofs ItemSerdeModel ItemSerdeProps SearchModel KllModel KllProofs KllSem KllProps KllSerdeModel.
Local Open Scope nat_scope.

Lemma u8_small x : x < 256 -> u8 x = x.
Proof. intros H. unfold u8. rewrite N.mod_small by lia. lia. Qed.

Lemma copy_at_mid P bs old Q off : off = length P -> length bs = length old -> copy_at off bs (P ++ old ++ Q) = Some (P ++ bs ++ Q).
Proof.
  intros -> H. unfold copy_at. rewrite !app_length. destruct (Nat.leb_spec (length P) (length P + (length old + length Q))); [|lia].
  rewrite firstn_app, firstn_all, Nat.sub_diag, firstn_O, app_nil_r. rewrite firstn_all2 by lia.
  rewrite skipn_app. rewrite (skipn_all2 P) by lia. cbn [app]. replace (length P + length bs - length P) with (length bs) by lia.
  rewrite skipn_app, H, skipn_all, Nat.sub_diag. reflexivity.
Qed.

Lemma put_levels_ok : forall vs i done P Q, length P = 20 + i * 4 -> length done = i -> 20 + (i + length vs) * 4 <= 256 ->
  put_levels (length vs) i (done ++ vs) (P ++ repeat 0%N (4 * length vs) ++ Q) = Some (P ++ fixed_layout 4 (map N.of_nat vs) ++ Q).
Proof.
  induction vs as [|v vs IH]; intros i done P Q HP HD HB; cbn [put_levels length map].
  - reflexivity.
  - cbn [length] in HB. rewrite nth_seg by auto. cbn [bindo]. rewrite u8_small by lia. rewrite <- HP.
    replace (4 * S (length vs)) with (4 + 4 * length vs) by lia. rewrite repeat_app, <- app_assoc. rewrite put_le_mid by reflexivity. cbn [bindo].
    specialize (IH (i + 1) (done ++ [v]) (P ++ le 4 (N.of_nat v)) Q). rewrite <- !app_assoc in IH. cbn [app] in IH. rewrite IH.
    + cbn [fixed_layout flat_map]. rewrite <- app_assoc. reflexivity.
    + rewrite app_length, le_length. lia.
    + rewrite app_length. cbn [length]. lia.
    + lia.
Qed.
Lemma put_levels_ok' vs X P Q : length P = 20 -> 20 + length vs * 4 <= 256 ->
  put_levels (length vs) 0 (vs ++ X) (P ++ repeat 0%N (4 * length vs) ++ Q) = Some (P ++ fixed_layout 4 (map N.of_nat vs) ++ Q).
Proof.
  assert (G : forall c i lv lv' b, (forall j, j < i + c -> nth_error lv j = nth_error lv' j) -> put_levels c i lv b = put_levels c i lv' b).
  { induction c; intros i lv lv' b H; cbn [put_levels]; auto. rewrite (H i) by lia. destruct (nth_error lv' i); cbn [bindo]; auto.
    destruct (put_le _ _ _ _); cbn [bindo]; auto. apply IHc. intros. apply H. lia. }
  intros HP HB. rewrite (G _ _ _ vs); [apply (put_levels_ok vs 0 []); auto|]. intros j Hj. apply nth_error_app1. lia.
Qed.

Lemma get_levels_ok : forall vs i done P Q, length P = 20 + i * 4 -> length done = i -> 20 + (i + length vs) * 4 < 256 ->
  Forall (fun v => (N.of_nat v < 2 ^ 32)%N) vs ->
  get_levels (length vs) i (P ++ fixed_layout 4 (map N.of_nat vs) ++ Q) (done ++ repeat 0 (length vs + 1)) = Some (done ++ vs ++ [0]).
Proof.
  induction vs as [|v vs IH]; intros i done P Q HP HD HB HF; cbn [get_levels length map].
  - reflexivity.
  - cbn [length] in HB. inversion HF; subst. rewrite !u8_small by lia. destruct (Nat.ltb_spec (20 + length done * 4 + 4) (20 + length done * 4)); [lia|].
    cbn [fixed_layout flat_map]. rewrite <- app_assoc. rewrite get_le_mid by auto. cbn [bindo]. rewrite Nat2N.id.
    cbn [Nat.add repeat]. rewrite wr_seg by auto. cbn [bindo].
    specialize (IH (length done + 1) (done ++ [v]) (P ++ le 4 (N.of_nat v)) Q). rewrite <- !app_assoc in IH. cbn [app] in IH. unfold fixed_layout in IH. rewrite IH; auto.
    + rewrite app_length, le_length. lia.
    + rewrite app_length. cbn [length]. lia.
    + lia.
Qed.

Section Codec.
Context {C : Type}.
Variable zero : C.
Variable sd : serde C.
Variable enc : C -> list N.
Variable ok : C -> Prop.

Lemma place_ok : forall (src : list C) i done it pre, length done = i -> length it = length src -> 
  place (length src) i (length pre) (done ++ src) (pre ++ done ++ it) = Some (pre ++ done ++ src).
Proof.
  induction src as [|x src IH]; intros i done it pre HD HL; cbn [place length].
  - destruct it; [|discriminate]. reflexivity.
  - destruct it as [|y it]; [discriminate|]. rewrite nth_seg by auto. cbn [bindo].
    rewrite (app_assoc pre). rewrite wr_seg by (rewrite app_length; lia). cbn [bindo].
    specialize (IH (i + 1) (done ++ [x]) it pre). rewrite <- !app_assoc in *. cbn [app] in IH. apply IH.
    + rewrite app_length. cbn [length]. lia.
    + cbn [length] in HL. lia.
Qed.

(** The serializer writes [enc x] for an item [x] with [ok x], and reads back what it wrote. *)
Record codec : Prop := mkCodec {
  c_size : forall x, ok x -> size_of sd x = length (enc x);
  c_one : forall x, ok x -> ser_one sd x = Ok (enc x);
  c_many : forall xs, Forall ok xs -> ser_many sd xs = Ok (flat_map enc xs);
  c_read : forall xs P Q, Forall ok xs -> deser sd (P ++ flat_map enc xs ++ Q) (length P) (length xs) = Ok xs;
  c_sizes : forall xs P Q, Forall ok xs -> exists v, size_of_many sd (P ++ flat_map enc xs ++ Q) (length P) (length xs) = Ok v }.

Lemma put_head_ok pre ser s z7 b : put_head pre ser s (repeat 0%N 7 ++ z7 :: b) =
  Some ([pre; ser; 15%N; ((if (n s =? 0)%N then 1 else 0) + (if l0_sorted s then 2 else 0) + (if (n s =? 1)%N then 4 else 0))%N] ++ le 2 (k (C := C) s) ++ [N.of_nat (m s); z7] ++ b).
Proof.
  unfold put_head. cbn [repeat app].
  rewrite wr_cons0. cbn [bindo]. repeat (rewrite wr_consS || rewrite wr_cons0 || (progress cbn [bindo])).
  pose proof (put_le_mid 2 [pre; ser; 15%N; ((if (n s =? 0)%N then 1 else 0) + (if l0_sorted s then 2 else 0) + (if (n s =? 1)%N then 4 else 0))%N] (k s) [0%N; 0%N] (0%N :: z7 :: b) eq_refl) as E.
  cbn [app length] in E. rewrite E. cbn [bindo]. cbn [le app]. repeat (rewrite wr_consS || rewrite wr_cons0 || (progress cbn [bindo])). reflexivity.
Qed.

(** ** The image of a sketch, in terms of its levels *)
Definition head_bytes (pre ser flags : N) (s : kll (C := C)) : list N := [pre; ser; 15%N; flags] ++ le 2 (k s) ++ [N.of_nat (m s); 0%N].
Definition full_bytes (s : kll) (starts : list nat) (ret : list C) : list N :=
  head_bytes 5 1 0 s ++ le 8 (n s) ++ le 2 (min_k s) ++ [N.of_nat (num_levels s); 0%N] ++ fixed_layout 4 (map N.of_nat starts) ++
  enc (min_item s) ++ enc (max_item s) ++ flat_map enc ret.

Lemma sizes_loop_ok : codec -> forall xs P Q acc, Forall ok xs -> sizes_loop sd (length xs) (length P) (P ++ xs ++ Q) acc = Some (acc + length (flat_map enc xs)).
Proof.
  intros K. induction xs as [|x xs IH]; intros P Q acc H; cbn [length sizes_loop flat_map].
  - f_equal. lia.
  - inversion H; subst. cbn [app]. rewrite nth_seg by auto. cbn [bindo]. specialize (IH (P ++ [x]) Q (acc + size_of sd x)).
    rewrite app_length in IH. rewrite <- app_assoc in IH. cbn [app length] in IH. rewrite IH by auto. rewrite (c_size K) by auto. rewrite app_length. f_equal. lia.
Qed.

Lemma to_slice_full : codec -> forall s T Ls pre, items s = pre ++ concat Ls -> levels s = pb (length pre) Ls ++ [length pre + csum Ls] ->
  num_levels s = length Ls -> T = length pre + csum Ls -> l0_sorted s = false -> Ls <> [] -> (1 < n s)%N -> length Ls <= 58 ->
  Forall ok (concat Ls) -> ok (min_item s) -> ok (max_item s) ->
  let b := full_bytes s (pb (length pre) Ls) (concat Ls) in
  to_slice zero sd s = Ok b /\ serialized_size sd s = Ok (length b).
Proof.
  intros K s T Ls pre Hit Hlv Hnl HT Hfl Hne Hn HL HF Hmin Hmax b.
  assert (E0 : (n s =? 0)%N = false) by (apply N.eqb_neq; lia). assert (E1 : (n s =? 1)%N = false) by (apply N.eqb_neq; lia).
  assert (HL0 : nth_error (levels s) 0 = Some (length pre)). { rewrite Hlv. destruct Ls; [congruence|]. reflexivity. }
  assert (HLn : nth_error (levels s) (num_levels s) = Some (length pre + csum Ls)). { rewrite Hlv, Hnl. apply nth_seg. rewrite pb_length. auto. }
  assert (Hrs : retained_size sd s = Some (length (flat_map enc (concat Ls)))).
  { unfold retained_size. rewrite HL0, HLn. cbn [bindo]. replace (length pre + csum Ls - length pre) with (csum Ls) by lia. rewrite Hit.
    pose proof (sizes_loop_ok K (concat Ls) pre [] 0 HF) as E. rewrite app_nil_r in E. exact E. }
  assert (Hsz : serialized_size sd s = Ok (length b)).
  { unfold serialized_size. rewrite E0, E1, Hrs. cbn [of_opt bindr]. rewrite !(c_size K) by auto. f_equal. unfold b, full_bytes, head_bytes. rewrite Hlv, !app_length, !le_length, fixed_layout_length, map_length, pb_length.
    cbn [length]. lia. }
  split; [|exact Hsz]. unfold to_slice. rewrite Hsz. cbn [bindr]. rewrite E0, E1.
  set (starts := pb (length pre) Ls) in *. assert (Hls : length starts = length Ls) by apply pb_length.
  set (e1 := enc (min_item s)) in *. set (e2 := enc (max_item s)) in *. set (e3 := flat_map enc (concat Ls)) in *.
  assert (Hb : length b = 8 + (8 + (2 + (2 + (4 * length starts + (length (e1 ++ e2) + length e3)))))).
  { unfold b, full_bytes, head_bytes. fold e1 e2 e3. rewrite !app_length, !le_length, fixed_layout_length, map_length. cbn [length]. lia. }
  rewrite Hb. rewrite !repeat_app. change (repeat 0%N 8) with (repeat 0%N 7 ++ [0%N]) at 1. rewrite <- (app_assoc (repeat 0%N 7)). cbn [app].

  match goal with |- context [put_head _ _ _ ?l] => assert (Hl : exists tlb, l = repeat 0%N 7 ++ 0%N :: tlb /\
     tlb = repeat 0%N 8 ++ repeat 0%N 2 ++ repeat 0%N 2 ++ repeat 0%N (4 * length starts) ++ repeat 0%N (length (e1 ++ e2)) ++ repeat 0%N (length e3)) end.
  { eexists. split; [|reflexivity]. rewrite ?app_assoc. reflexivity. }
  destruct Hl as (tlb & -> & Etl). rewrite put_head_ok. cbn [of_opt bindr]. rewrite E0, E1, Hfl. change ((0 + 0 + 0)%N) with 0%N.
  rewrite !(c_one K) by auto. cbn [bindr]. unfold retained_array, get_num_retained. rewrite HL0, HLn. cbn [bindo]. rewrite sub_ok by lia. cbn [bindo].
  rewrite Hit, app_length. destruct (Nat.ltb_spec (length pre + length (concat Ls)) (length pre)); [lia|].
  replace (length pre + csum Ls - length pre) with (csum Ls) by lia. rewrite skipn_seg by auto. rewrite firstn_all2 by (unfold csum; lia).
  unfold csum at 1. rewrite Nat.sub_diag. cbn [repeat]. rewrite app_nil_r. cbn [of_opt bindr]. rewrite (c_many K) by auto. cbn [bindr]. fold e1 e2 e3.
  subst tlb.
  set (H8 := [5; 1; 15; 0]%N ++ le 2 (k s) ++ [N.of_nat (m s); 0%N]).
  assert (HH : length H8 = 8) by (unfold H8; rewrite !app_length, le_length; reflexivity).
  match goal with |- context [put_le 8 8 (n s) ?l] => replace l with (H8 ++ repeat 0%N 8 ++ repeat 0%N 2 ++ repeat 0%N 2 ++ repeat 0%N (4 * length starts) ++ repeat 0%N (length (e1 ++ e2)) ++ repeat 0%N (length e3)) by (unfold H8; rewrite <- !app_assoc; reflexivity) end.
  match goal with |- context [put_le 8 8 (n s) (H8 ++ repeat 0%N 8 ++ ?Q)] => pose proof (put_le_mid 8 H8 (n s) (repeat 0%N 8) Q eq_refl) as P1 end.
  rewrite HH in P1. rewrite P1. cbn [bindo]. clear P1. rewrite (app_assoc H8).
  match goal with |- context [put_le 2 16 _ (_ ++ repeat 0%N 2 ++ ?Q)] => pose proof (put_le_mid 2 (H8 ++ le 8 (n s)) (min_k s) (repeat 0%N 2) Q eq_refl) as P1 end.
  rewrite app_length, HH, le_length in P1. cbn [Nat.add] in P1. rewrite P1. cbn [bindo]. clear P1.
  change (repeat 0%N 2 ++ ?x) with (0%N :: 0%N :: x). rewrite (app_assoc (H8 ++ le 8 (n s))). rewrite wr_seg by (rewrite !app_length, HH, !le_length; reflexivity). cbn [bindo].
  set (H20 := H8 ++ le 8 (n s) ++ le 2 (min_k s) ++ [N.of_nat (num_levels s); 0%N]).
  assert (HH2 : length H20 = 20) by (unfold H20; rewrite !app_length, HH, !le_length; reflexivity).
  match goal with |- context [put_levels _ _ _ ?l] => replace l with (H20 ++ repeat 0%N (4 * length starts) ++ repeat 0%N (length (e1 ++ e2)) ++ repeat 0%N (length e3)) by (unfold H20; rewrite <- !app_assoc; reflexivity) end.
  replace (put_levels (num_levels s)) with (put_levels (length starts)) by congruence. rewrite Hlv. rewrite put_levels_ok' by (auto; lia). cbn [bindo].
  rewrite !u8_small by lia.
  rewrite (app_assoc H20). rewrite copy_at_mid; [|rewrite app_length, fixed_layout_length, map_length, HH2; lia|rewrite repeat_length; reflexivity]. cbn [bindo].
  rewrite (app_assoc (H20 ++ _)). pose proof (copy_at_mid ((H20 ++ fixed_layout 4 (map N.of_nat starts)) ++ e1 ++ e2) e3 (repeat 0%N (length e3)) [] (20 + num_levels s * 4 + length (e1 ++ e2))) as E.
  rewrite !app_nil_r in E. rewrite E; [|rewrite !app_length, fixed_layout_length, map_length, HH2; lia|rewrite repeat_length; reflexivity].
  cbn [of_opt]. f_equal. unfold b, full_bytes, head_bytes, H20, H8. fold e1 e2 e3. rewrite <- !app_assoc. reflexivity.
Qed.

Lemma even_m m0 : In m0 [2; 4; 6; 8] -> ((N.of_nat m0 <? 2) || (8 <? N.of_nat m0) || (N.land (N.of_nat m0) 1 =? 1))%N = false.
Proof. intros [<-|[<-|[<-|[<-|[]]]]]; reflexivity. Qed.

Lemma from_slice_full : codec -> forall s Ls (pre : list C),
  In (m s) [2; 4; 6; 8] -> (8 <= k s < 32768)%N -> (min_k s < 65536)%N -> (1 < n s < 2 ^ 64)%N -> num_levels s = length Ls -> Ls <> [] -> length Ls <= 58 ->
  compute_total_item_capacity (k s) (m s) (length Ls) = Some (length pre + csum Ls) -> (N.of_nat (length pre + csum Ls) < 2 ^ 32)%N ->
  Forall ok (concat Ls) -> ok (min_item s) -> ok (max_item s) ->
  from_slice zero sd (full_bytes s (pb (length pre) Ls) (concat Ls)) =
    Ok (mkKll (k s) (m s) (min_k s) (length Ls) false (n s) (pb (length pre) Ls ++ [length pre + csum Ls]) (repeat zero (length pre) ++ concat Ls) (min_item s) (max_item s) true).
Proof.
  intros K s Ls pre Hm Hk Hmk Hn Hnl Hne HL Hcap HT HF Hmin Hmax.
  set (starts := pb (length pre) Ls) in *. assert (Hls : length starts = length Ls) by apply pb_length.
  set (e1 := enc (min_item s)) in *. set (e2 := enc (max_item s)) in *. set (e3 := flat_map enc (concat Ls)) in *.
  set (mem := full_bytes s starts (concat Ls)).
  set (H20 := head_bytes 5 1 0 s ++ le 8 (n s) ++ le 2 (min_k s) ++ [N.of_nat (num_levels s); 0%N]).
  assert (HH2 : length H20 = 20) by (unfold H20, head_bytes; rewrite !app_length, !le_length; reflexivity).
  set (fl := fixed_layout 4 (map N.of_nat starts)) in *. assert (Hfl : length fl = length Ls * 4) by (unfold fl; rewrite fixed_layout_length, map_length, Hls; reflexivity).
  assert (Hmem : mem = H20 ++ fl ++ e1 ++ e2 ++ e3). { unfold mem, full_bytes, H20. fold fl e1 e2 e3. rewrite <- !app_assoc. reflexivity. }
  assert (Hlen : 8 <= length mem) by (rewrite Hmem, app_length; lia).
  unfold from_slice. destruct (Nat.ltb_spec (length mem) 8); [lia|]. clear Hlen H.
  assert (E0 : nth_error mem 0 = Some 5%N) by reflexivity. assert (E1 : nth_error mem 1 = Some 1%N) by reflexivity.
  assert (E2 : nth_error mem 2 = Some 15%N) by reflexivity. assert (E3 : nth_error mem 3 = Some 0%N) by reflexivity.
  assert (E6 : nth_error mem 6 = Some (N.of_nat (m s))) by reflexivity.
  assert (E4 : get_le 2 4 mem = Some (k s)).
  { unfold mem, full_bytes, head_bytes. rewrite <- !app_assoc. apply (get_le_mid 2 [5; 1; 15; 0]%N); [reflexivity|]. change (256 ^ N.of_nat 2)%N with 65536%N. lia. }
  rewrite E0, E1, E2, E3, E4, E6. cbn [of_opt bindr]. 
  change ((5 =? 5)%N && (1 =? 1)%N) with true. cbn [orb negb]. change (15 =? 15)%N with true. cbn [negb]. rewrite even_m by auto.
  destruct (N.ltb_spec (k s) (N.of_nat (m s))); [cbn [In] in Hm; lia|]. clear H.
  change (N.land 0 1 =? 0)%N with true. change (N.land 0 2 =? 0)%N with true. cbn [negb].
  assert (E8 : get_le 8 8 mem = Some (n s)).
  { unfold mem, full_bytes. apply get_le_mid; [reflexivity|]. change (256 ^ N.of_nat 8)%N with (2 ^ 64)%N. lia. }
  assert (E16 : get_le 2 16 mem = Some (min_k s)).
  { unfold mem, full_bytes. rewrite (app_assoc (head_bytes 5 1 0 s)). apply get_le_mid; [reflexivity|]. change (256 ^ N.of_nat 2)%N with 65536%N. lia. }
  assert (E18 : nth_error mem 18 = Some (N.of_nat (num_levels s))) by reflexivity.
  rewrite E8, E16, E18. cbn [of_opt bindr]. rewrite !Nat2N.id, Hnl.
  rewrite u8_small by lia.
  assert (HFs : Forall (fun v => (N.of_nat v < 2 ^ 32)%N) starts).
  { apply Forall_forall. intros v Hv. assert (v <= length pre + csum Ls); [|lia].
    unfold starts in Hv. clear - Hv. revert Hv. generalize (length pre). induction Ls as [|L Ls IH]; intros p; cbn [pb In]; [tauto|]. rewrite csum_cons. intros [<-|Hv]; [lia|]. apply IH in Hv. lia. }
  assert (EL : get_levels (length Ls) 0 mem (repeat 0 (length Ls + 1)) = Some (starts ++ [0])).
  { rewrite Hmem, <- Hls. apply (get_levels_ok starts 0 [] H20 (e1 ++ e2 ++ e3)); auto. lia. }
  rewrite EL. cbn [of_opt bindr]. rewrite Hcap. cbn [of_opt bindr]. rewrite wr_seg by auto. cbn [of_opt bindr].
  assert (Hl0 : nth_error (starts ++ [length pre + csum Ls]) 0 = Some (length pre)). { unfold starts. destruct Ls; [congruence|]. reflexivity. }
  rewrite Hl0. cbn [of_opt bindr].
  assert (HR : N.to_nat ((N.of_nat (length pre + csum Ls) + 2 ^ 32 - N.of_nat (length pre)) mod 2 ^ 32) = length (concat Ls)).
  { replace (N.of_nat (length pre + csum Ls) + 2 ^ 32 - N.of_nat (length pre))%N with (N.of_nat (csum Ls) + 1 * 2 ^ 32)%N by lia.
    rewrite N.mod_add by lia. rewrite N.mod_small by lia. unfold csum. lia. }
  rewrite HR. rewrite !app_length, Hls. cbn [length]. replace (length Ls + 1 - 1) with (length Ls) by lia. rewrite u8_small by lia.
  assert (Hoff : 20 + length Ls * 4 = length (H20 ++ fl)) by (rewrite app_length; lia). rewrite Hoff.
  assert (Hm1 : mem = (H20 ++ fl) ++ flat_map enc (min_item s :: max_item s :: concat Ls) ++ []).
  { rewrite Hmem. cbn [flat_map]. fold e1 e2 e3. rewrite app_nil_r, <- !app_assoc. reflexivity. }
  destruct (c_sizes K (min_item s :: max_item s :: concat Ls) (H20 ++ fl) []) as (v & Hv); [auto|]. rewrite <- Hm1 in Hv. cbn [length] in Hv.
  replace (length (concat Ls) + 2) with (S (S (length (concat Ls)))) by lia. rewrite Hv. cbn [bindr].
  pose proof (c_read K [min_item s] (H20 ++ fl) (e2 ++ e3) ltac:(auto)) as R1. cbn [flat_map length] in R1. fold e1 in R1. rewrite app_nil_r in R1.
  rewrite <- !app_assoc in R1. rewrite <- Hmem in R1. rewrite R1. cbn [bindr nth_error of_opt]. rewrite (c_size K) by auto. fold e1.
  replace (length (H20 ++ fl) + length e1) with (length (H20 ++ fl ++ e1)) by (rewrite !app_length; lia).
  pose proof (c_read K [max_item s] (H20 ++ fl ++ e1) e3 ltac:(auto)) as R2. cbn [flat_map length] in R2. fold e2 in R2. rewrite app_nil_r in R2.
  rewrite <- !app_assoc in R2. rewrite <- Hmem in R2. rewrite R2. cbn [bindr nth_error of_opt]. rewrite (c_size K) by auto. fold e2.
  replace (length (H20 ++ fl ++ e1) + length e2) with (length (H20 ++ fl ++ e1 ++ e2)) by (rewrite !app_length; lia).
  pose proof (c_read K (concat Ls) (H20 ++ fl ++ e1 ++ e2) [] HF) as R3. fold e3 in R3. rewrite app_nil_r in R3.
  rewrite <- !app_assoc in R3. rewrite <- Hmem in R3. rewrite R3. cbn [bindr].
  rewrite repeat_app. pose proof (place_ok (concat Ls) 0 [] (repeat zero (csum Ls)) (repeat zero (length pre)) eq_refl (repeat_length _ _)) as P. cbn [app] in P. rewrite repeat_length in P.
  rewrite P. cbn [of_opt bindr]. reflexivity.
Qed.

Lemma empty_image : codec -> forall s, n s = 0%N -> l0_sorted s = false -> In (m s) [2; 4; 6; 8] -> (8 <= k s < 32768)%N ->
  let b := head_bytes 2 1 1 s in
  to_slice zero sd s = Ok b /\ serialized_size sd s = Ok (length b) /\
  from_slice zero sd b = Ok (mkKll (k s) (m s) (k s) 1 false 0 [N.to_nat (k s); N.to_nat (k s)] (repeat zero (N.to_nat (k s))) zero zero false).
Proof.
  intros K s Hn Hs Hm Hk b. split; [|split].
  - unfold to_slice, serialized_size. rewrite Hn. cbn [bindr N.eqb]. pose proof (put_head_ok 2 1 s 0%N []) as P. cbn [app repeat] in *. rewrite P, Hn, Hs. reflexivity.
  - unfold serialized_size. rewrite Hn. reflexivity.
  - unfold from_slice. change (length b <? 8) with false. change (nth_error b 0) with (Some 2%N). change (nth_error b 1) with (Some 1%N). change (nth_error b 2) with (Some 15%N).
    change (nth_error b 3) with (Some 1%N). change (nth_error b 6) with (Some (N.of_nat (m s))).
    assert (E4 : get_le 2 4 b = Some (k s)) by (apply (get_le_mid 2 [2; 1; 15; 1]%N); [reflexivity|change (256 ^ N.of_nat 2)%N with 65536%N; lia]).
    rewrite E4. cbn [of_opt bindr]. change ((2 =? 5)%N && (1 =? 1)%N) with false. change ((2 =? 2)%N && (1 =? 1)%N) with true. cbn [orb negb]. change (15 =? 15)%N with true. cbn [negb].
    rewrite even_m by auto. destruct (N.ltb_spec (k s) (N.of_nat (m s))); [cbn [In] in Hm; lia|]. rewrite Nat2N.id. reflexivity.
Qed.

Lemma single_image : codec -> forall s (pre : list C) x, n s = 1%N -> l0_sorted s = false -> In (m s) [2; 4; 6; 8] -> (8 <= k s < 32768)%N ->
  items s = pre ++ [x] -> length pre + 1 = N.to_nat (k s) -> ok x ->
  let b := head_bytes 2 2 4 s ++ enc x in
  to_slice zero sd s = Ok b /\ serialized_size sd s = Ok (length b) /\
  from_slice zero sd b = Ok (mkKll (k s) (m s) (k s) 1 false 1 [N.to_nat (k s) - 1; N.to_nat (k s)] (repeat zero (length pre) ++ [x]) x x true).
Proof.
  intros K s pre x Hn Hs Hm Hk Hit Hp Hx b.
  assert (HS : single_item s = Ok x). { unfold single_item. rewrite Hn. cbn [N.eqb Pos.eqb negb]. rewrite Hit. rewrite nth_error_app2 by lia. replace (N.to_nat (k s) - 1 - length pre) with 0 by lia. reflexivity. }
  assert (HZ : serialized_size sd s = Ok (length b)).
  { unfold serialized_size. rewrite HS. rewrite Hn. cbn [N.eqb Pos.eqb bindr]. rewrite (c_size K) by auto. unfold b. rewrite app_length. reflexivity. }
  split; [|split; [exact HZ|]].
  - unfold to_slice. rewrite HZ. rewrite Hn. cbn [bindr N.eqb Pos.eqb]. unfold b. rewrite app_length. change (length (head_bytes 2 2 4 s)) with 8.
    pose proof (put_head_ok 2 2 s 0%N (repeat 0%N (length (enc x)))) as P. cbn [app repeat] in *. cbn [Nat.add repeat]. rewrite P, Hn, Hs. cbn [of_opt bindr]. rewrite HS. cbn [bindr].
    rewrite (c_one K) by auto. cbn [bindr]. pose proof (copy_at_mid (head_bytes 2 2 4 s) (enc x) (repeat 0%N (length (enc x))) [] 8 eq_refl ltac:(rewrite repeat_length; reflexivity)) as Q.
    rewrite !app_nil_r in Q. unfold head_bytes in Q at 1. cbn [app] in Q. rewrite <- ?app_assoc in Q. cbn [app] in Q. cbn [N.add N.eqb] in *.
    match goal with |- of_opt (copy_at _ _ ?l) = _ => match type of Q with copy_at _ _ ?l' = _ => replace l with l' by reflexivity end end. rewrite Q. reflexivity.
  - unfold from_slice. destruct (Nat.ltb_spec (length b) 8); [unfold b in *; rewrite app_length in *; change (length (head_bytes 2 2 4 s)) with 8 in *; lia|].
    change (nth_error b 0) with (Some 2%N). change (nth_error b 1) with (Some 2%N). change (nth_error b 2) with (Some 15%N).
    change (nth_error b 3) with (Some 4%N). change (nth_error b 6) with (Some (N.of_nat (m s))).
    assert (E4 : get_le 2 4 b = Some (k s)).
    { unfold b, head_bytes. rewrite <- !app_assoc. apply (get_le_mid 2 [2; 2; 15; 4]%N); [reflexivity|change (256 ^ N.of_nat 2)%N with 65536%N; lia]. }
    rewrite E4. cbn [of_opt bindr]. change ((2 =? 5)%N && (2 =? 1)%N) with false. change ((2 =? 2)%N && (2 =? 1)%N) with false. change ((2 =? 2)%N && (2 =? 2)%N) with true.
    cbn [orb negb]. change (15 =? 15)%N with true. cbn [negb].
    rewrite even_m by auto. destruct (N.ltb_spec (k s) (N.of_nat (m s))); [cbn [In] in Hm; lia|]. change (N.land 4 1 =? 0)%N with true. change (N.land 4 2 =? 0)%N with true. cbn [negb].
    assert (Hb : b = head_bytes 2 2 4 s ++ flat_map enc [x] ++ []) by (cbn [flat_map]; rewrite !app_nil_r; reflexivity).
    destruct (c_sizes K [x] (head_bytes 2 2 4 s) []) as (v & Hv); [auto|]. rewrite <- Hb in Hv. cbn [length] in Hv. change (length (head_bytes 2 2 4 s)) with 8 in Hv. 
    pose proof (c_read K [x] (head_bytes 2 2 4 s) [] ltac:(auto)) as R1. rewrite <- Hb in R1. cbn [length] in R1. 
    change (size_of_many sd b 8 1) with (size_of_many sd b (length (head_bytes 2 2 4 s)) 1). change (deser sd b 8 1) with (deser sd b (length (head_bytes 2 2 4 s)) 1).
    change (length (head_bytes 2 2 4 s)) with 8 in *. rewrite Hv. cbn [bindr]. rewrite R1. cbn [bindr nth_error of_opt].
    replace (repeat zero (N.to_nat (k s))) with (repeat zero (length pre) ++ [zero]) by (rewrite <- Hp, repeat_app; reflexivity).
    rewrite wr_seg by (rewrite repeat_length; lia). cbn [of_opt bindr]. rewrite Nat2N.id. reflexivity.
Qed.
End Codec.

(** ** Sketches with the same visible content *)
Section Twins.
Context {C : Type}.
Variables less ceq : C -> C -> bool.
Variable zero : C.
Variable sort : list C -> list C.
Variable coin : nat -> bool.
Hypothesis sort_perm : forall l, Permutation l (sort l).
Variable sd : serde C.
Variable enc : C -> list N.
Variable ok : C -> Prop.
Hypothesis codec_ok : codec sd enc ok.

Record St (s : kll (C := C)) (T : nat) (Ls : list (list C)) : Prop := mkSt {
  s_inv : Inv s T Ls; s_k : (8 <= k s < 32768)%N; s_m : In (m s) [2; 4; 6; 8]; s_mk : (min_k s < 65536)%N;
  s_items : Forall ok (concat Ls); s_hmm : has_min_max s = negb (n s =? 0)%N;
  s_min : n s <> 0%N -> ok (min_item s) /\ ok (max_item s);
  s_one : n s = 1%N -> Ls = [[min_item s]] /\ max_item s = min_item s }.

Lemma st_m s T Ls : St s T Ls -> 2 <= m s /\ m s <= 8.
Proof. intros H. pose proof (s_m _ _ _ H) as M. cbn [In] in M. lia. Qed.
Lemma st_levels s T Ls : St s T Ls -> (n s < 2 ^ 58)%N -> length Ls <= 58.
Proof. intros H Hn. apply (Top_levels less ceq zero sort coin sort_perm); [apply (i_top _ _ _ (s_inv _ _ _ H))|rewrite (i_wt _ _ _ (s_inv _ _ _ H)); exact Hn|lia]. Qed.
Lemma st_cap s T Ls : St s T Ls -> tot (k s) (m s) (length Ls) = T.
Proof. intros H. apply (i_fit _ _ _ (s_inv _ _ _ H)). apply (s_k _ _ _ H). Qed.
Lemma tot_le k0 m0 c : m0 <= N.to_nat k0 -> tot k0 m0 c <= c * N.to_nat k0.
Proof. intros H. induction c; cbn [tot]; [lia|]. pose proof (dcap_le less ceq zero coin k0 m0 c H). lia. Qed.
Lemma st_bound s T Ls : St s T Ls -> (n s < 2 ^ 58)%N -> (N.of_nat T < 2 ^ 32)%N.
Proof.
  intros H Hn. rewrite <- (st_cap _ _ _ H). pose proof (st_levels _ _ _ H Hn). pose proof (s_k _ _ _ H). pose proof (st_m _ _ _ H).
  pose proof (tot_le (k s) (m s) (length Ls) ltac:(lia)) as HT.
  assert (HN : (N.of_nat (tot (k s) (m s) (length Ls)) <= N.of_nat (length Ls) * k s)%N) by lia. nia.
Qed.

Lemma cap_one' k0 m0 : (N.of_nat m0 <= k0)%N -> (k0 < 32768)%N -> tot k0 m0 1 = N.to_nat k0.
Proof.
  intros Hm H. cbn [tot]. unfold dcap.
  assert (E : int_cap_aux k0 0 = Some (let r := ((((2 * k0) mod 65536) * 2 ^ 0 / 3 ^ 0 + 1) / 2)%N in if (r <=? k0)%N then r else k0)) by reflexivity.
  rewrite E. clear E. cbn zeta. rewrite !N.pow_0_r, N.mul_1_r, N.div_1_r.
  rewrite (N.mod_small (2 * k0)) by lia. replace ((2 * k0 + 1) / 2)%N with k0 by (rewrite N.add_comm, N.mul_comm, N.div_add by lia; reflexivity).
  rewrite N.leb_refl. lia.
Qed.

Definition same (s s' : kll (C := C)) : Prop := k s' = k s /\ m s' = m s /\ n s' = n s /\ (n s <> 0%N -> min_item s' = min_item s /\ max_item s' = max_item s).

Lemma inv_change s s' T Ls pre : Inv s T Ls -> k s' = k s -> m s' = m s -> n s' = n s -> l0_sorted s' = false -> num_levels s' = length Ls ->
  levels s' = pb (length (A := C) pre) Ls ++ [length pre + csum Ls] -> items s' = pre ++ concat Ls -> T = length pre + csum Ls -> Inv s' T Ls.
Proof.
  intros I Hk Hm Hn Hl Hnl Hlv Hit HT. destruct I as [_ F Tp W _ Z]. constructor; rewrite ?Hk, ?Hm, ?Hn; auto. exists pre. auto.
Qed.

(** Writing and reading a sketch gives a sketch with the same content. *)
Lemma ship_ok s T Ls : St s T Ls -> (n s < 2 ^ 58)%N ->
  exists b s', to_slice zero sd s = Ok b /\ serialized_size sd s = Ok (length b) /\ from_slice zero sd b = Ok s' /\ St s' T Ls /\ same s s' /\
    min_k s' = (if (n s <=? 1)%N then k s else min_k s).
Proof.
  intros H Hn. pose proof (s_inv _ _ _ H) as I. destruct (i_rep _ _ _ I) as (pre & Hit & Hlv & Hnl & HT). pose proof (i_flag _ _ _ I) as Hfl.
  assert (Hne : Ls <> []) by apply (i_fit _ _ _ I). pose proof (s_k _ _ _ H) as Hk.
  destruct (N.leb_spec (n s) 1) as [E|E].
  - assert (E' : n s = 0%N \/ n s = 1%N) by lia. destruct E' as [E0|E1].
    + destruct (empty_image zero sd enc ok codec_ok s E0 Hfl (s_m _ _ _ H) Hk) as (H1 & H2 & H3). eexists _, _. split; [exact H1|]. split; [exact H2|]. split; [exact H3|].
      assert (Ls = [[]]) as -> by (eapply (inv_empty less ceq zero sort coin sort_perm); eauto). pose proof (i_zero _ _ _ I E0) as HT0.
      split; [|split; [repeat split; cbn [k m n min_item max_item]; auto; lia|reflexivity]].
      constructor; cbn [k m n min_k has_min_max min_item max_item]; auto; try apply H; try lia.
      apply (inv_change s _ T [[]] (repeat zero T)); cbn [k m n l0_sorted num_levels levels items pb app concat]; auto; rewrite ?repeat_length, ?HT0, ?app_nil_r; auto.
      * cbn [pb app]. rewrite csum_cons, csum_nil. cbn [length]. rewrite !Nat.add_0_r. reflexivity.
    + destruct (s_one _ _ _ H E1) as (HL & HM). subst Ls. cbn [concat app] in *. set (x := min_item s) in *.
      assert (Hp : length pre + 1 = N.to_nat (k s)).
      { pose proof (st_cap _ _ _ H) as Hc. cbn [length] in Hc. rewrite csum_cons, csum_nil in HT. cbn [length] in HT.
        pose proof (st_m _ _ _ H). pose proof (cap_one' (k s) (m s) ltac:(lia)) as Hc1. rewrite Hc1 in Hc by lia. lia. }
      destruct (single_image zero sd enc ok codec_ok s pre x E1 Hfl (s_m _ _ _ H) Hk Hit Hp) as (H1 & H2 & H3). { apply (s_min _ _ _ H). lia. }
      eexists _, _. split; [exact H1|]. split; [exact H2|]. split; [exact H3|].
      split; [|split; [repeat split; cbn [k m n min_item max_item]; auto|reflexivity]].
      constructor; cbn [k m n min_k has_min_max min_item max_item]; auto; try apply H; try lia.
      * apply (inv_change s _ T [[x]] (repeat zero (length pre))); cbn [k m n l0_sorted num_levels levels items pb app concat]; auto; rewrite ?repeat_length; auto.
        cbn [pb app]. rewrite csum_cons, csum_nil. cbn [length]. replace (N.to_nat (k s) - 1) with (length pre) by lia. replace (length pre + (1 + 0)) with (N.to_nat (k s)) by lia. reflexivity.
      * intros _. assert (ok x) by (apply (s_min _ _ _ H); lia). auto.
  - pose proof (st_levels _ _ _ H Hn) as HL. destruct (s_min _ _ _ H ltac:(lia)) as (Hmin & Hmax).
    destruct (to_slice_full zero sd enc ok codec_ok s T Ls pre Hit Hlv Hnl HT Hfl Hne E HL (s_items _ _ _ H) Hmin Hmax) as (H1 & H2).
    eexists _, _. split; [exact H1|]. split; [exact H2|]. split.
    { apply (from_slice_full zero sd enc ok codec_ok); auto; try apply H; try lia.
      - rewrite (total_capacity_ok less ceq zero coin) by lia. rewrite (st_cap _ _ _ H). congruence.
      - rewrite <- HT. apply (st_bound _ _ _ H Hn). }
    split; [|split; [repeat split; auto|reflexivity]].
    constructor; cbn [k m n min_k has_min_max min_item max_item]; auto; try apply H; try lia.
    + apply (inv_change s _ T Ls (repeat zero (length pre))); cbn [k m n l0_sorted num_levels levels items]; auto; rewrite ?repeat_length; auto.
Qed.

Lemma st_levels_same s s' T Ls : St s T Ls -> St s' T Ls -> levels s' = levels s /\ num_levels s' = num_levels s /\ length (items s') = length (items s).
Proof.
  intros H H'. destruct (i_rep _ _ _ (s_inv _ _ _ H)) as (p & A1 & A2 & A3 & A4). destruct (i_rep _ _ _ (s_inv _ _ _ H')) as (p' & B1 & B2 & B3 & B4).
  assert (length p' = length p) by lia. rewrite A1, A2, A3, B1, B2, B3, !app_length. rewrite H0. auto.
Qed.

Lemma sub_forall A B : @sub_multiset C A B -> Forall ok B -> Forall ok A.
Proof. intros [D HP] HB. rewrite <- HP in HB. apply Forall_app in HB. apply HB. Qed.

(** Updates and merges keep two such sketches alike, and draw the same coins. *)
Lemma update_st s T Ls r x : St s T Ls -> (n s + 1 < 2 ^ 60)%N -> ok x ->
  exists s' T' Ls' r', kll_update less zero sort coin s r x = Some (s', r') /\ l_update less sort coin (k s) (m s) T Ls r x = Some (T', Ls', r') /\ St s' T' Ls' /\
    k s' = k s /\ m s' = m s /\ min_k s' = min_k s /\ n s' = (n s + 1)%N /\ min_item s' = upd_min less s x /\ max_item s' = upd_max less s x /\ length Ls <= length Ls'.
Proof.
  intros H Hn Hx. destruct (update_full less ceq zero sort coin sort_perm s T Ls r x (s_inv _ _ _ H) Hn) as (T' & Ls' & cs & lv & it & HU & I' & HG & HLU). cbn zeta in *.
  eexists _, T', Ls', _. split; [exact HU|]. split; [exact HLU|].
  pose proof (grows_sub less ceq zero sort sort_perm _ _ _ _ HG) as HS.
  assert (HF : Forall ok (concat Ls')). { eapply sub_forall; eauto. apply Forall_app. split; [auto|apply H]. }
  destruct (grows_wt less ceq zero sort coin sort_perm _ _ _ _ HG) as (_ & _ & HL & _).
  split; [|repeat split; auto].
  constructor; cbn [k m n min_k has_min_max min_item max_item]; auto; try apply H.
  - destruct (N.eqb_spec (n s + 1) 0); [lia|reflexivity].
  - intros _. pose proof (s_hmm _ _ _ H) as HH. unfold upd_min, upd_max. rewrite HH. destruct (N.eqb_spec (n s) 0) as [E|E]; cbn [negb]; [auto|].
    destruct (s_min _ _ _ H E). split; [destruct (less x (min_item s))|destruct (less (max_item s) x)]; auto.
  - intros E. assert (E0 : n s = 0%N) by lia. assert (Ls = [[]]) as -> by (eapply (inv_empty less ceq zero sort coin sort_perm); [apply H|auto]).
    pose proof (i_zero _ _ _ (s_inv _ _ _ H) E0) as HT. unfold upd_min, upd_max. rewrite (s_hmm _ _ _ H), E0. cbn [N.eqb negb]. split; auto.
    unfold l_update in HLU. rewrite csum_cons, csum_nil in HLU. cbn [length] in HLU. pose proof (s_k _ _ _ H). destruct (Nat.eqb_spec (0 + 0) T); [lia|]. cbn [bindo] in HLU. injection HLU as _ HLU _. congruence.
Qed.

Lemma update_same s s' T Ls r x t r1 : St s T Ls -> St s' T Ls -> same s s' -> (n s + 1 < 2 ^ 60)%N -> ok x ->
  kll_update less zero sort coin s r x = Some (t, r1) ->
  exists t' T' Ls', kll_update less zero sort coin s' r x = Some (t', r1) /\ St t T' Ls' /\ St t' T' Ls' /\ same t t' /\ n t = (n s + 1)%N /\
    min_k t = min_k s /\ min_k t' = min_k s' /\ k t = k s.
Proof.
  intros H H' (Sk & Sm & Sn & Smm) Hn Hx HU.
  destruct (update_st s T Ls r x H Hn Hx) as (u & T1 & Ls1 & q & HU1 & HL1 & A1 & A2 & A3 & A4 & A5 & A6 & A7 & A8).
  rewrite HU in HU1. injection HU1 as <- <-.
  destruct (update_st s' T Ls r x H' ltac:(rewrite Sn; lia) Hx) as (u' & T2 & Ls2 & q' & HU2 & HL2 & B1 & B2 & B3 & B4 & B5 & B6 & B7 & B8).
  rewrite Sk, Sm, HL1 in HL2. injection HL2 as <- <- <-. exists u', T1, Ls1. split; [exact HU2|]. split; auto. split; auto. split; [|repeat split; auto; congruence].
  split; [congruence|]. split; [congruence|]. split; [congruence|]. intros _. rewrite A6, A7, B6, B7. unfold upd_min, upd_max. rewrite (s_hmm _ _ _ H), (s_hmm _ _ _ H'), Sn.
  destruct (N.eqb_spec (n s) 0) as [E|E]; cbn [negb]; auto. destruct (Smm E) as [-> ->]. auto.
Qed.

Lemma merge_st s T Ls o To Os r : St s T Ls -> St o To Os -> (n s + n o < 2 ^ 60)%N -> n o <> 0%N ->
  exists s' T' Ls' r', kll_merge less zero sort coin s o r = Some (s', r') /\ l_merge less sort coin (k s) (m s) T Ls Os (n s + n o) r = Some (T', Ls', r') /\ St s' T' Ls' /\
    k s' = k s /\ m s' = m s /\ min_k s' = (if is_estimation_mode o then N.min (min_k s) (min_k o) else min_k s) /\ n s' = (n s + n o)%N /\ 
    min_item s' = (if (n s =? 0)%N then min_item o else if less (min_item s) (min_item o) then min_item s else min_item o) /\
    max_item s' = (if (n s =? 0)%N then max_item o else if less (max_item o) (max_item s) then max_item s else max_item o) /\
    length Os <= length Ls' /\ length Ls <= length Ls'.
Proof.
  intros H Ho Hn HN. destruct (merge_full less ceq zero sort coin sort_perm s T Ls o To Os r (s_inv _ _ _ H) (s_inv _ _ _ Ho) Hn HN)
    as (s' & T' & Ls' & cs & cs1 & Ls1 & HM & I' & HL & G1 & G2 & Hk & Hm & Hn' & Hmk & HMM).
  exists s', T', Ls'. eexists. split; [exact HM|]. split; [exact HL|].
  assert (HOne : Os <> []) by apply (i_fit _ _ _ (s_inv _ _ _ Ho)). destruct Os as [|O0 Ot]; [congruence|]. cbn [hd tl] in *.
  assert (HLne : Ls <> []) by apply (i_fit _ _ _ (s_inv _ _ _ H)).
  pose proof (grows_sub less ceq zero sort sort_perm _ _ _ _ G1) as HS1. pose proof (grows_sub less ceq zero sort sort_perm _ _ _ _ G2) as HS2.
  destruct (grows_wt less ceq zero sort coin sort_perm _ _ _ _ G1) as (_ & _ & HL1 & _). destruct (grows_wt less ceq zero sort coin sort_perm _ _ _ _ G2) as (_ & _ & HL2 & _).
  destruct Ls1 as [|A0 At]; [destruct Ls; [congruence|cbn [length] in HL1; lia]|]. cbn [hd tl] in *. cbn [length] in HL2. rewrite KllProps.zipm_length in HL2.
  pose proof (s_items _ _ _ Ho) as FO. cbn [concat] in FO. apply Forall_app in FO. destruct FO as [FO1 FO2].
  assert (F1 : Forall ok (concat (A0 :: At))). { eapply sub_forall; eauto. apply Forall_app. split; [apply Forall_rev; auto|apply H]. }
  cbn [concat] in F1. apply Forall_app in F1. destruct F1 as [F1 F2].
  assert (F3 : Forall ok (concat Ls')). { eapply sub_forall; eauto. cbn [app concat]. apply Forall_app. split; auto. rewrite zipm_concat. apply Forall_app. auto. }
  unfold is_empty in HMM.
  assert (Hmin : min_item s' = (if (n s =? 0)%N then min_item o else if less (min_item s) (min_item o) then min_item s else min_item o)) by (destruct (n s =? 0)%N; injection HMM; auto).
  assert (Hmax : max_item s' = (if (n s =? 0)%N then max_item o else if less (max_item o) (max_item s) then max_item s else max_item o)) by (destruct (n s =? 0)%N; injection HMM; auto).
  destruct (s_min _ _ _ Ho HN) as (Q1 & Q2).
  split; [|repeat split; auto; cbn [length] in *; lia].
  constructor; rewrite ?Hk, ?Hm; auto; try apply H.
  - rewrite Hmk. pose proof (s_mk _ _ _ H). destruct (is_estimation_mode o); lia.
  - rewrite Hn'. destruct (N.eqb_spec (n s + n o) 0) as [Ez|_]; [lia|]. cbn [negb]. destruct (n s =? 0)%N; injection HMM as _ _ ->; auto. rewrite (s_hmm _ _ _ Ho). destruct (N.eqb_spec (n o) 0) as [Ez|_]; [congruence|reflexivity].
  - intros _. rewrite Hmin, Hmax. destruct (N.eqb_spec (n s) 0) as [E|E]; auto. destruct (s_min _ _ _ H E).
    split; [destruct (less (min_item s) (min_item o))|destruct (less (max_item o) (max_item s))]; auto.
  - rewrite Hn', Hmin, Hmax. intros E1. assert (E0 : n s = 0%N) by lia. assert (Eo : n o = 1%N) by lia. rewrite E0. cbn [N.eqb]. destruct (s_one _ _ _ Ho Eo) as (E2 & E3). split; auto.
    injection E2 as -> ->. assert (Ls = [[]]) as -> by (eapply (inv_empty less ceq zero sort coin sort_perm); [apply H|auto]).
    unfold l_merge in HL. cbn [hd tl l_update_all length Nat.ltb Nat.leb] in HL. pose proof (i_zero _ _ _ (s_inv _ _ _ H) E0) as HT. pose proof (s_k _ _ _ H).
    unfold l_update in HL. rewrite csum_cons, csum_nil in HL. cbn [length] in HL. destruct (Nat.eqb_spec (0 + 0) T); [lia|]. cbn [bindo] in HL. injection HL as _ HL _. congruence.
Qed.

Lemma merge_same s s' T Ls o o' To Os r t r1 : St s T Ls -> St s' T Ls -> same s s' -> St o To Os -> St o' To Os -> same o o' -> (n s + n o < 2 ^ 60)%N ->
  kll_merge less zero sort coin s o r = Some (t, r1) ->
  exists t' T' Ls', kll_merge less zero sort coin s' o' r = Some (t', r1) /\ St t T' Ls' /\ St t' T' Ls' /\ same t t' /\ n t = (n s + n o)%N /\ k t = k s /\
    min_k t = (if is_estimation_mode o then N.min (min_k s) (min_k o) else min_k s) /\ min_k t' = (if is_estimation_mode o then N.min (min_k s') (min_k o') else min_k s') /\
    length Os <= length Ls' /\ length Ls <= length Ls'.
Proof.
  intros H H' (Sk & Sm & Sn & Smm) Ho Ho' (Ok' & Om & On & Omm) Hn HM.
  destruct (N.eq_dec (n o) 0) as [E|E].
  - assert (Os = [[]]) as -> by (eapply (inv_empty less ceq zero sort coin sort_perm); [apply Ho|auto]).
    assert (HE : is_estimation_mode o = false). { unfold is_estimation_mode. destruct (i_rep _ _ _ (s_inv _ _ _ Ho)) as (p & _ & _ & -> & _). reflexivity. }
    unfold kll_merge in *. unfold is_empty in *. rewrite On, E in *. cbn [N.eqb] in *. injection HM as <- <-. rewrite HE.
    assert (HL1 : 1 <= length Ls). { destruct (i_fit _ _ _ (s_inv _ _ _ H)) as (F & _). destruct Ls; [congruence|cbn [length]; lia]. }
    exists s', T, Ls. rewrite N.add_0_r. cbn [length]. split; [reflexivity|]. split; [exact H|]. split; [exact H'|]. split; [unfold same; auto|]. auto 10.
  - destruct (merge_st s T Ls o To Os r H Ho Hn E) as (u & T1 & Ls1 & q & HU1 & HL1 & A1 & A2 & A3 & A4 & A5 & A6 & A7 & A8 & A9).
    rewrite HM in HU1. injection HU1 as <- <-.
    destruct (merge_st s' T Ls o' To Os r H' Ho' ltac:(rewrite Sn, On; lia) ltac:(rewrite On; auto)) as (u' & T2 & Ls2 & q' & HU2 & HL2 & B1 & B2 & B3 & B4 & B5 & B6 & B7 & B8 & B9).
    rewrite Sk, Sm, Sn, On, HL1 in HL2. injection HL2 as <- <- <-. exists u', T1, Ls1. split; [exact HU2|]. split; auto. split; auto.
    assert (HE : is_estimation_mode o' = is_estimation_mode o). { unfold is_estimation_mode. destruct (st_levels_same _ _ _ _ Ho Ho') as (_ & -> & _). reflexivity. }
    rewrite HE in B4.
    split; [|repeat split; auto; congruence].
    split; [congruence|]. split; [congruence|]. split; [congruence|]. intros _. rewrite A6, A7, B6, B7, Sn.
    destruct (Omm E) as [-> ->]. destruct (N.eqb_spec (n s) 0) as [Ez|Ez]; auto. destruct (Smm Ez) as [-> ->]. auto.
Qed.

(** Two such sketches look the same. *)
Lemma view_same s s' T Ls : St s T Ls -> St s' T Ls -> same s s' -> sorted_view less ceq zero sort s' = sorted_view less ceq zero sort s.
Proof.
  intros H H' (_ & _ & Sn & _). unfold sorted_view. unfold is_empty. rewrite Sn. destruct (N.eqb_spec (n s) 0) as [E|E]; auto.
  destruct (total_items_rep less ceq zero sort coin sort_perm _ _ _ (s_inv _ _ _ H)) as (p & A1 & A2 & A3 & A4).
  destruct (total_items_rep less ceq zero sort coin sort_perm _ _ _ (s_inv _ _ _ H')) as (p' & B1 & B2 & B3 & B4).
  destruct (st_levels_same _ _ _ _ H H') as (-> & -> & _). rewrite (i_flag _ _ _ (s_inv _ _ _ H)), (i_flag _ _ _ (s_inv _ _ _ H')). rewrite A1, B1.
  assert (Hp : length p' = length p) by lia. assert (Hne : Ls <> []) by apply (i_fit _ _ _ (s_inv _ _ _ H)). rewrite A2, A3. destruct Ls as [|L Ls]; [congruence|].
  cbn [pb app nth_error bindo]. clear A1 B1 B2.
  destruct (match pb (length p + length L) Ls ++ [length p + csum (L :: Ls)] with [] => None | x :: _ => Some x end) as [l1|] eqn:E1; cbn [bindo]; auto.
  assert (El : l1 = length p + length L). { destruct Ls; cbn [pb app] in E1; injection E1 as <-; auto. rewrite csum_cons, csum_nil. lia. } subst l1.
  rewrite sub_ok by lia. cbn [bindo]. replace (length p + length L - length p) with (length L) by lia. cbn [concat]. unfold sort_slice.
  rewrite (get_seg p') by auto. rewrite (get_seg p) by auto. cbn [bindo].
  assert (HSP : length (sort L) = length L) by (symmetry; apply Permutation_length, sort_perm).
  rewrite !put_seg by auto. cbn [bindo]. 
  destruct (nth_error _ (length (L :: Ls))) as [tp|]; cbn [bindo]; auto. destruct (sub tp (length p)) as [num|]; cbn [bindo]; auto.
  unfold sl_get. rewrite !app_length, Hp. destruct (_ <=? _); cbn [bindo]; auto. rewrite !skipn_seg by auto. reflexivity.
Qed.
Lemma iterate_st s T Ls : St s T Ls -> iterate zero s = Some (wl 1 Ls).
Proof.
  intros H. unfold iterate. destruct (total_items_rep less ceq zero sort coin sort_perm _ _ _ (s_inv _ _ _ H)) as (p & A1 & A2 & A3 & A4).
  rewrite A1, A2, !app_length, !pb_length. cbn [length]. replace (length Ls + 1 - 1) with (length Ls) by lia.
  assert (HS : forall l : list C, sortedl (fun _ _ => false) l).
  { induction l; constructor; auto. apply Forall_forall. intros. reflexivity. }
  exact (iterate_levels_ok (fun _ _ => false) (fun l => l) (@Permutation_refl C) HS Ls [] p 1).
Qed.
Lemma iterate_same s s' T Ls : St s T Ls -> St s' T Ls -> iterate zero s' = iterate zero s.
Proof. intros H H'. rewrite (iterate_st _ _ _ H), (iterate_st _ _ _ H'). reflexivity. Qed.
End Twins.
