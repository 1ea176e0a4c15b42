(** * C48: the item serializers round-trip at every offset, in any surrounding bytes. *)
From Verif Require Import Base Bytes GoInt ItemSerdeModel.
Local Open Scope nat_scope.

(** The layouts, independent of the code. *)
Definition fixed_layout (w : nat) (vals : list N) : list N := flat_map (le w) vals.
Definition string_layout (items : list (list N)) : list N := flat_map (fun s => le 4 (N.of_nat (length s)) ++ s) items.

Lemma put_at_boundary a bs z : length bs <= length z -> put (length a) bs (a ++ z) = Some (a ++ bs ++ skipn (length bs) z).
Proof.
  intros H. unfold put. rewrite app_length. destruct (Nat.leb_spec (length a + length bs) (length a + length z)); [|lia].
  rewrite firstn_app, firstn_all, Nat.sub_diag, firstn_O, app_nil_r. rewrite skipn_app. rewrite skipn_all2 by lia.
  replace (length a + length bs - length a) with (length bs) by lia. reflexivity.
Qed.
Lemma skipn_repeat {A} (x : A) m q : skipn m (repeat x (m + q)) = repeat x q.
Proof. induction m; cbn; auto. Qed.

Lemma fixed_ser_loop_ok w vals : forall a, fixed_ser_loop w (length a) vals (a ++ repeat 0%N (w * length vals)) = Some (a ++ fixed_layout w vals).
Proof.
  induction vals as [|v vals IH]; intros a; cbn [fixed_ser_loop fixed_layout flat_map length].
  - rewrite Nat.mul_0_r. reflexivity.
  - unfold put_le. rewrite put_at_boundary by (rewrite le_length, repeat_length; nia). rewrite le_length. cbn [bindo].
    replace (w * S (length vals)) with (w + w * length vals) by lia. rewrite skipn_repeat.
    replace (length a + w) with (length (a ++ le w v)) by (rewrite app_length, le_length; auto). rewrite app_assoc, IH. rewrite <- app_assoc. reflexivity.
Qed.
Lemma fixed_ser_ok w vals : fixed_ser w vals = Some (fixed_layout w vals).
Proof. unfold fixed_ser. destruct vals as [|v vals]; [reflexivity|]. cbn [length Nat.eqb]. apply (fixed_ser_loop_ok w (v :: vals) []). Qed.
Lemma fixed_layout_length w vals : length (fixed_layout w vals) = length vals * w.
Proof. unfold fixed_layout. induction vals; cbn [flat_map length]; auto. rewrite app_length, le_length, IHvals. lia. Qed.

Lemma fixed_deser_ok w vals : forall pre post, Forall (fun v => (v < 256 ^ N.of_nat w)%N) vals ->
  fixed_deser w (pre ++ fixed_layout w vals ++ post) (length pre) (length vals) = Some vals.
Proof.
  induction vals as [|v vals IH]; intros pre post H; cbn [fixed_layout flat_map length fixed_deser]; auto. inversion H as [|? ? Hv Hvs]; subst.
  rewrite <- app_assoc. rewrite get_le_app_at. rewrite N.mod_small by auto. cbn [bindo].
  replace (length pre + w) with (length (pre ++ le w v)) by (rewrite app_length, le_length; auto). rewrite (app_assoc pre).
  fold (fixed_layout w vals). rewrite IH; auto.
Qed.

Theorem long_round_trip xs pre post : Forall int64 xs -> exists b, long_ser xs = Some b /\ length b = long_size_of_many (length xs)
  /\ b = fixed_layout 8 (map to_u64 xs) /\ long_deser (pre ++ b ++ post) (length pre) (length xs) = Some xs.
Proof.
  intros H. exists (fixed_layout 8 (map to_u64 xs)). unfold long_ser. rewrite fixed_ser_ok. split; auto. rewrite fixed_layout_length, map_length. split; auto. split; auto.
  unfold long_deser. rewrite <- (map_length to_u64 xs). rewrite fixed_deser_ok.
  - cbn [bindo]. f_equal. rewrite map_map. induction H as [|x xs Hx Hxs IH]; cbn [map]; auto. rewrite IH, wrap64_u64, wrap64_id by auto. auto.
  - apply Forall_map, Forall_forall. intros x _. apply to_u64_lt.
Qed.

Theorem float_round_trip w xs pre post : Forall (fun v => (v < 256 ^ N.of_nat w)%N) xs -> exists b, float_ser w xs = Some b /\
  length b = float_size_of_many w (length xs) /\ b = fixed_layout w xs /\ float_deser w (pre ++ b ++ post) (length pre) (length xs) = Some xs.
Proof.
  intros H. exists (fixed_layout w xs). unfold float_ser, float_deser. rewrite fixed_ser_ok, fixed_layout_length. repeat split; auto. apply fixed_deser_ok. auto.
Qed.

Lemma string_layout_length items : length (string_layout items) = list_sum (map (fun s => length s + 4) items).
Proof. unfold string_layout. induction items; cbn [flat_map map]; auto. rewrite !app_length, le_length, IHitems. cbn [list_sum fold_right]. unfold list_sum. cbn [fold_right]. lia. Qed.

Lemma string_ser_loop_ok items : Forall (fun s => (N.of_nat (length s) < 2 ^ 32)%N) items -> forall a,
  string_ser_loop (length a) items (a ++ repeat 0%N (list_sum (map (fun s => length s + 4) items))) = Some (a ++ string_layout items).
Proof.
  induction 1 as [|s items Hs H IH]; intros a; cbn [string_ser_loop map].
  - reflexivity.
  - change (list_sum (length s + 4 :: map (fun s => length s + 4) items)) with (length s + 4 + list_sum (map (fun s => length s + 4) items)).
    set (q := list_sum _) in *. unfold put_le. rewrite put_at_boundary by (rewrite le_length, repeat_length; lia). rewrite le_length. cbn [bindo].
    replace (length s + 4 + q) with (4 + (length s + q)) by lia. rewrite skipn_repeat. rewrite app_assoc.
    rewrite N.mod_small by auto. set (L := le 4 (N.of_nat (length s))).
    replace (length a + 4) with (length (a ++ L)) by (unfold L; rewrite app_length, le_length; auto).
    rewrite put_at_boundary by (rewrite repeat_length; lia). cbn [bindo]. rewrite skipn_repeat.
    replace (length (a ++ L) + length s) with (length ((a ++ L) ++ s)) by (rewrite !app_length; lia). rewrite (app_assoc (a ++ L)), IH.
    unfold string_layout. cbn [flat_map]. fold L. rewrite <- !app_assoc. reflexivity.
Qed.
Lemma string_ser_ok items : Forall (fun s => (N.of_nat (length s) < 2 ^ 32)%N) items -> string_ser items = Some (string_layout items).
Proof. intros H. unfold string_ser. destruct items as [|s items]; [reflexivity|]. cbn [length Nat.eqb]. apply (string_ser_loop_ok _ H []). Qed.

Lemma string_deser_ok items : Forall (fun s => (N.of_nat (length s) < 2 ^ 32)%N) items -> forall pre post,
  string_deser (pre ++ string_layout items ++ post) (length pre) (length items) = Some items /\
  string_size_loop (pre ++ string_layout items ++ post) (length pre) (length items) = Some (length pre + length (string_layout items)).
Proof.
  induction 1 as [|s items Hs H IH]; intros pre post; cbn [string_deser string_size_loop length].
  - split; auto.
  - unfold string_layout in *. cbn [flat_map]. set (L := le 4 (N.of_nat (length s))). set (R := flat_map _ items) in *.
    assert (HL : length L = 4) by apply le_length.
    set (mem := pre ++ ((L ++ s) ++ R) ++ post).
    assert (Hlen : length mem = length pre + (4 + length s + length R) + length post) by (unfold mem; rewrite !app_length, HL; lia).
    assert (HG : get_le 4 (length pre) mem = Some (N.of_nat (length s))).
    { unfold mem. rewrite <- !app_assoc. unfold L. rewrite get_le_app_at. f_equal. apply N.mod_small. exact Hs. }
    rewrite HG. cbn [bindo]. rewrite Nat2N.id. unfold check_bounds. rewrite Hlen.
    destruct (Nat.leb_spec (length pre + 4) (length pre + (4 + length s + length R) + length post)) as [|]; [|lia]. cbn [negb].
    destruct (Nat.leb_spec (length pre + 4 + length s) (length pre + (4 + length s + length R) + length post)); [|lia]. cbn [negb].
    destruct (Nat.ltb_spec (length pre + (4 + length s + length R) + length post) (length pre + 4 + length s)); [lia|].
    assert (HS : slice (length pre + 4) (length s) mem = Some s).
    { replace (length pre + 4) with (length (pre ++ L)) by (rewrite app_length; lia). unfold mem.
      replace (pre ++ ((L ++ s) ++ R) ++ post) with ((pre ++ L) ++ s ++ (R ++ post)) by (rewrite <- !app_assoc; auto). apply slice_app_at. }
    rewrite HS. cbn [bindo]. replace (length pre + 4 + length s) with (length (pre ++ L ++ s)) by (rewrite !app_length; lia).
    replace mem with ((pre ++ L ++ s) ++ R ++ post) by (unfold mem; rewrite <- !app_assoc; auto).
    destruct (IH (pre ++ L ++ s) post) as [I1 I2]. rewrite I1, I2. cbn [bindo]. split; auto. f_equal. rewrite !app_length. lia.
Qed.

Theorem string_round_trip items pre post : Forall (fun s => (N.of_nat (length s) < 2 ^ 32)%N) items ->
  exists b, string_ser items = Some b /\ b = string_layout items /\ length b = list_sum (map string_size_of items) /\
    string_size_of_many (pre ++ b ++ post) (length pre) (length items) = Some (length b) /\
    string_deser (pre ++ b ++ post) (length pre) (length items) = Some items.
Proof.
  intros H. exists (string_layout items). destruct (string_deser_ok items H pre post) as [H1 H2]. repeat split; auto.
  - apply string_ser_ok; auto.
  - apply string_layout_length.
  - unfold string_size_of_many. destruct items as [|s items]; [reflexivity|]. cbn [length Nat.eqb]. cbn [length] in H2. rewrite H2. cbn [bindo]. f_equal. lia.
Qed.

Lemma sum_cons s l : list_sum (map string_size_of (s :: l)) = length s + 4 + list_sum (map string_size_of l).
Proof. reflexivity. Qed.
(** On arbitrary bytes, SizeOfMany gives a size exactly when the strings can be read, it is the size of these strings,
    and it lies inside the bytes. *)
Theorem string_size_is_readable mem off num n : off <= length mem ->
  string_size_of_many mem off num = Some n <->
  exists items, string_deser mem off num = Some items /\ n = list_sum (map string_size_of items) /\ off + n <= length mem.
Proof.
  assert (Hloop : forall num off o, off <= length mem -> (string_size_loop mem off num = Some o <->
    exists items, string_deser mem off num = Some items /\ o = off + list_sum (map string_size_of items) /\ o <= length mem)).
  { clear. induction num as [|num IH]; intros off o Ho; cbn [string_size_loop string_deser].
    - split; [intros E; inversion E; subst; exists []; cbn; repeat split; auto; lia|]. intros (items & E & -> & _). inversion E; subst. cbn. f_equal. lia.
    - unfold check_bounds. destruct (Nat.leb_spec (off + 4) (length mem)) as [H4|H4]; cbn [negb]; [|split; [discriminate|intros (? & E & _); discriminate]].
      destruct (get_le 4 off mem) as [len|]; cbn [bindo]; [|split; [discriminate|intros (? & E & _); discriminate]].
      destruct (Nat.ltb_spec (length mem) (off + 4 + N.to_nat len)), (Nat.leb_spec (off + 4 + N.to_nat len) (length mem)); cbn [negb]; try lia.
      + split; [discriminate|intros (? & E & _); discriminate].
      + unfold slice. destruct (Nat.leb_spec (off + 4 + N.to_nat len) (length mem)); [|lia]. cbn [bindo].
        assert (Hl : length (firstn (N.to_nat len) (skipn (off + 4) mem)) = N.to_nat len) by (rewrite firstn_length, skipn_length; lia).
        rewrite IH by lia. split.
        * intros (items & E & -> & Hle). rewrite E. cbn [bindo]. eexists. split; [reflexivity|]. rewrite sum_cons, Hl. lia.
        * intros (items & E & -> & Hle). destruct (string_deser mem (off + 4 + N.to_nat len) num) as [r|]; cbn [bindo] in E; [|discriminate]. inversion E; subst items. exists r. split; auto.
          rewrite sum_cons, Hl in *. lia. }
  intros Ho. unfold string_size_of_many. destruct num as [|num].
  - cbn. split; [intros E; inversion E; subst; exists []; cbn; repeat split; auto; lia|]. intros (items & E & -> & _). inversion E; subst. reflexivity.
  - cbn [Nat.eqb]. destruct (string_size_loop mem off (S num)) as [o|] eqn:E; cbn [bindo].
    + apply Hloop in E; auto. destruct E as (items & E & -> & Hle). split.
      * intros En. inversion En; subst n. exists items. repeat split; auto; lia.
      * intros (items' & E' & -> & _). f_equal. assert (items' = items) by congruence. subst. lia.
    + split; [discriminate|]. intros (items & E' & -> & Hle). assert (Hx : string_size_loop mem off (S num) = Some (off + list_sum (map string_size_of items))) by (apply Hloop; auto; exists items; auto). congruence.
Qed.
Example string_size_truncated : string_size_of_many [5; 0; 0; 0; 1; 2]%N 0 1 = None /\ string_size_of_many [2; 0; 0; 0; 1; 2]%N 0 1 = Some 6.
Proof. split; reflexivity. Qed.

(** SerializeOneToSlice writes what SerializeManyToSlice writes for one item, of the size SizeOf announces... *)
Theorem long_one x : long_ser_one x = long_ser [x] /\ exists b, long_ser_one x = Some b /\ length b = long_size_of x.
Proof. unfold long_ser_one, long_ser, fixed_ser. cbn [map length Nat.eqb fixed_ser_loop Nat.mul Nat.add]. split; [destruct (put_le _ _ _ _); auto|]. eexists. split; [reflexivity|]. reflexivity. Qed.
Theorem float_one w x : 1 <= w -> float_ser_one w x = float_ser w [x] /\ exists b, float_ser_one w x = Some b /\ length b = float_size_of w x.
Proof.
  intros Hw. unfold float_ser_one, float_ser. rewrite fixed_ser_ok. unfold put_le, put. cbn [Nat.add]. rewrite le_length, repeat_length, Nat.leb_refl. cbn [firstn app].
  rewrite skipn_all2 by (rewrite repeat_length; lia). split; [reflexivity|]. eexists. split; [reflexivity|]. rewrite app_nil_r, le_length. reflexivity.
Qed.
Theorem string_one s : s <> [] -> (N.of_nat (length s) < 2 ^ 32)%N -> string_ser_one s = string_ser [s] /\ exists b, string_ser_one s = Some b /\ length b = string_size_of s.
Proof.
  intros Hs Hl. unfold string_ser_one. destruct (Nat.eqb_spec (length s) 0); [destruct s; [congruence|discriminate]|].
  rewrite string_ser_ok by auto. assert (E : (do b <- put_le 4 0 (N.of_nat (length s) mod 2 ^ 32)%N (repeat 0%N (length s + 4)); put 4 s b) = Some (string_layout [s])).
  { rewrite N.mod_small by auto. unfold put_le. pose proof (put_at_boundary [] (le 4 (N.of_nat (length s))) (repeat 0%N (length s + 4))) as P. rewrite le_length, repeat_length in P.
    cbn [length app] in P. rewrite P by lia. cbn [bindo]. rewrite Nat.add_comm, skipn_repeat. pose proof (put_at_boundary (le 4 (N.of_nat (length s))) s (repeat 0%N (length s))) as Q.
    rewrite le_length, repeat_length in Q. rewrite Q by lia. rewrite skipn_all2 by (rewrite repeat_length; lia). unfold string_layout. cbn [flat_map]. rewrite !app_nil_r. auto. }
  rewrite E. split; auto. eexists. split; [reflexivity|]. rewrite string_layout_length. unfold list_sum, string_size_of. cbn. lia.
Qed.
(** ... except for the empty string: nothing is written, although SizeOf says 4 and the reader expects a length. *)
Theorem string_one_empty_refuted : exists s b, string_ser_one s = Some b /\ length b <> string_size_of s /\ string_ser [s] <> Some b /\ string_deser b 0 1 = None.
Proof. exists [], []. repeat split; cbn; try discriminate. Qed.
(** A fixed-width reader panics, where the string reader reports an error, on a short slice: it has no bounds check. *)
Theorem fixed_deser_short_refuted : exists mem, long_deser mem 0 1 = None.
Proof. exists [1%N]. reflexivity. Qed.

Example long_case : exists b, long_ser [-1; 5]%Z = Some b /\ b = [255;255;255;255;255;255;255;255;5;0;0;0;0;0;0;0]%N /\ long_deser ([9; 9]%N ++ b ++ [7]%N) 2 2 = Some [-1; 5]%Z.
Proof. eexists. split; [vm_compute; reflexivity|]. split; vm_compute; reflexivity. Qed.
Example string_case : exists b, string_ser [[104; 105]; []; [33]]%N = Some b /\ b = [2;0;0;0;104;105;0;0;0;0;1;0;0;0;33]%N
  /\ string_deser ([1]%N ++ b ++ [2; 3]%N) 1 3 = Some [[104; 105]; []; [33]]%N /\ string_size_of_many ([1]%N ++ b ++ [2; 3]%N) 1 3 = Some 15.
Proof. eexists. split; [vm_compute; reflexivity|]. repeat split; vm_compute; reflexivity. Qed.

Print Assumptions long_round_trip.
Print Assumptions float_round_trip.
Print Assumptions string_round_trip.
Print Assumptions long_one.
Print Assumptions float_one.
Print Assumptions string_one.
Print Assumptions string_size_is_readable.
