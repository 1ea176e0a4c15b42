(** * Proofs about theta serialization. *)
From Coq Require Import ZArith ZifyNat ZifyN Sorting.Sorted.
From Verif Require Import Base Bytes Arr BitPackData BitPackModel BitPackProofs HashtableModel ThetaModel ThetaSerdeModel.
Local Open Scope nat_scope.

Lemma put_app_zero a bs k : length bs <= k -> put (length a) bs (a ++ repeat 0%N k) = Some ((a ++ bs) ++ repeat 0%N (k - length bs)).
Proof.
  intros H. unfold put. rewrite app_length, repeat_length. destruct (Nat.leb_spec (length a + length bs) (length a + k)); [|lia].
  f_equal. rewrite firstn_app, Nat.sub_diag, firstn_all. simpl. rewrite app_nil_r. rewrite <- app_assoc. f_equal. f_equal.
  rewrite skipn_app, skipn_all2 by lia. simpl. replace (length a + length bs - length a) with (length bs) by lia.
  replace k with (length bs + (k - length bs)) at 1 by lia. rewrite repeat_app, skipn_app, skipn_all2 by (rewrite repeat_length; lia).
  rewrite repeat_length, Nat.sub_diag. auto.
Qed.
Lemma put_le_app_zero a n v k : n <= k -> put_le n (length a) v (a ++ repeat 0%N k) = Some ((a ++ le n v) ++ repeat 0%N (k - n)).
Proof. intros H. unfold put_le. rewrite put_app_zero; rewrite le_length; auto. Qed.

Lemma flat_le_length es : length (flat_map (le 8) es) = 8 * length es.
Proof. induction es; cbn [flat_map length]; auto. rewrite app_length, le_length. lia. Qed.

Lemma put_entries_zero : forall es a off, off = length a ->
  put_entries off es (a ++ repeat 0%N (8 * length es)) = Some (a ++ flat_map (le 8) es).
Proof.
  induction es as [|e r IH]; intros a off ->; cbn [put_entries].
  { cbn. rewrite !app_nil_r. auto. }
  rewrite put_le_app_zero by (cbn [length]; lia). cbn [bindo]. replace (8 * length (e :: r) - 8) with (8 * length r) by (cbn [length]; lia).
  rewrite IH by (rewrite app_length, le_length; auto). cbn [flat_map]. rewrite app_assoc. auto.
Qed.

Definition flags_of (s : sketch) : N :=
  (2 ^ 3 + 2 ^ 1 + (if sk_empty s then 2 ^ 2 else 0) + (if sk_ordered s then 2 ^ 4 else 0))%N.
Definition sec (c : bool) (l : list N) : list N := if c then l else [].

(** The bytes of an uncompressed sketch. *)
Definition plain_bytes (s : sketch) : list N :=
  ([N.of_nat (preamble_longs s false); 3; 3; 0; 0; flags_of s]%N ++ le 2 (sk_seed s)) ++
  sec (1 <? preamble_longs s false) (le 4 (u32 (N.of_nat (length (sk_entries s)))) ++ [0; 0; 0; 0]%N) ++
  sec (est s) (le 8 (sk_theta s)) ++ flat_map (le 8) (sk_entries s).

Lemma preamble_ge s c : 1 <= preamble_longs s c <= 3.
Proof. unfold preamble_longs. destruct c, (est s); try lia. destruct (_ || _); lia. Qed.
Lemma pre_est s : est s = true -> preamble_longs s false = 3.
Proof. unfold preamble_longs. intros ->. auto. Qed.
Lemma pre_not_est s : est s = false -> preamble_longs s false = if sk_empty s || (length (sk_entries s) =? 1) then 1 else 2.
Proof. unfold preamble_longs. intros ->. auto. Qed.

Lemma encode_plain_eq s : encode_plain s = Some (plain_bytes s).
Proof.
  unfold encode_plain, serialized_size. cbn [andb]. fold (flags_of s). set (pre := preamble_longs s false).
  assert (Hp : 1 <= pre <= 3) by apply preamble_ge.
  replace (pre * 8 + length (sk_entries s) * 8) with (8 + (8 * (pre - 1) + 8 * length (sk_entries s))) by lia.
  set (m := 8 * (pre - 1) + 8 * length (sk_entries s)). rewrite repeat_app.
  change (repeat 0%N 8) with [0%N;0%N;0%N;0%N;0%N;0%N;0%N;0%N].
  pose proof (le_length 2 (sk_seed s)) as HL. unfold plain_bytes. fold pre. remember (1 <? pre) as c1 eqn:Hc1. symmetry in Hc1. unfold put_le at 1. set (sd := le 2 (sk_seed s)) in *.
  destruct sd as [|x [|y [|? ?]]]; try discriminate HL.
  unfold wr. cbn [app length Nat.ltb Nat.leb bindo upd]. unfold put at 1. cbn [app length Nat.add Nat.leb firstn skipn bindo].
  set (h := [N.of_nat pre; 3%N; 3%N; 0%N; 0%N; flags_of s; x; y]).
  change (N.of_nat pre :: 3%N :: 3%N :: 0%N :: 0%N :: flags_of s :: x :: y :: repeat 0%N m) with (h ++ repeat 0%N m).
  change ([N.of_nat pre; 3%N; 3%N; 0%N; 0%N; flags_of s; x; y] ++ ?z) with (h ++ z).
  set (n := u32 (N.of_nat (length (sk_entries s)))).
  assert (E1 : (if c1 then do buf <- put_le 4 8 n (h ++ repeat 0%N m); Some (buf, 16) else Some (h ++ repeat 0%N m, 8)) =
    Some ((h ++ sec c1 (le 4 n ++ [0;0;0;0]%N)) ++ repeat 0%N (if c1 then m - 8 else m), if c1 then 16 else 8)).
  { destruct c1; [apply Nat.ltb_lt in Hc1|apply Nat.ltb_ge in Hc1]; cbn [sec].
    - change 8 with (length h) at 1. rewrite put_le_app_zero by (unfold m; lia). cbn [bindo]. f_equal. f_equal.
      replace (m - 4) with (4 + (m - 8)) by (unfold m; lia). rewrite repeat_app, <- !app_assoc. auto.
    - rewrite app_nil_r. auto. }
  cbn [Nat.add]. rewrite E1. cbn [bindo].
  set (h2 := h ++ sec c1 (le 4 n ++ [0;0;0;0]%N)).
  assert (L2 : length h2 = if c1 then 16 else 8).
  { unfold h2. rewrite app_length. destruct c1; cbn [sec]; [rewrite app_length, le_length|]; auto. }
  rewrite <- L2. set (m2 := if c1 then m - 8 else m).
  assert (Hm2 : m2 = (if est s then 8 else 0) + 8 * length (sk_entries s)).
  { unfold m2, m. destruct (est s) eqn:E.
    - assert (pre = 3) by (unfold pre; apply pre_est; auto). rewrite H in *. subst c1. cbn. lia.
    - assert (pre = if sk_empty s || (length (sk_entries s) =? 1) then 1 else 2) by (unfold pre; apply pre_not_est; auto).
      destruct (_ || _); rewrite H in *; subst c1; cbn; lia. }
  assert (E2 : (if est s then do buf <- put_le 8 (length h2) (sk_theta s) (h2 ++ repeat 0%N m2); Some (buf, length h2 + 8)
                else Some (h2 ++ repeat 0%N m2, length h2)) =
    Some ((h2 ++ sec (est s) (le 8 (sk_theta s))) ++ repeat 0%N (8 * length (sk_entries s)), length (h2 ++ sec (est s) (le 8 (sk_theta s))))).
  { rewrite Hm2. destruct (est s); cbn [sec].
    - rewrite put_le_app_zero by lia. cbn [bindo]. f_equal. rewrite (app_length h2), le_length. f_equal. f_equal. f_equal. lia.
    - rewrite app_nil_r. auto. }
  rewrite E2. cbn [bindo]. rewrite put_entries_zero by auto. f_equal. unfold h2. rewrite <- !app_assoc. reflexivity.
Qed.

Lemma le_byte_Forall k v : Forall (fun b => (b < 256)%N) (le k v). Proof. apply le_bytes. Qed.

Lemma flat_le_Forall es : Forall (fun b => (b < 256)%N) (flat_map (le 8) es).
Proof. induction es; cbn [flat_map]; auto. apply Forall_app. split; auto. apply le_bytes. Qed.

Lemma plain_bytes_length s : length (plain_bytes s) = serialized_size s false.
Proof.
  unfold plain_bytes, serialized_size. cbn [andb]. rewrite !app_length, le_length, flat_le_length. cbn [length].
  destruct (est s) eqn:E.
  - rewrite (pre_est s E). cbn [Nat.ltb Nat.leb sec]. rewrite app_length, !le_length. cbn [length]. lia.
  - rewrite (pre_not_est s E). destruct (_ || _); cbn [Nat.ltb Nat.leb sec]; try (rewrite app_length, le_length); cbn [length]; lia.
Qed.

Lemma plain_bytes_Forall s : Forall (fun b => (b < 256)%N) (plain_bytes s).
Proof.
  unfold plain_bytes. rewrite !Forall_app. repeat split; try apply le_bytes; try apply flat_le_Forall.
  - repeat constructor; try lia.
    + pose proof (preamble_ge s false). lia.
    + unfold flags_of. destruct (sk_empty s), (sk_ordered s); cbn; lia.
  - destruct (1 <? _); cbn [sec]; auto. apply Forall_app. split; [apply le_bytes|repeat constructor; lia].
  - destruct (est s); cbn [sec]; auto. apply le_bytes.
Qed.

Lemma read_entries_app : forall es a b off, off = length a -> Forall (fun e => (e < 2 ^ 64)%N) es ->
  read_entries (length es) off (a ++ flat_map (le 8) es ++ b) = Ok es.
Proof.
  induction es as [|e r IH]; intros a b off -> He; cbn [length read_entries flat_map]; auto.
  inversion He; subst. unfold rd. rewrite <- (app_assoc (le 8 e)). rewrite get_le_app_at. cbn [of_opt bindr].
  rewrite N.mod_small by (change (256 ^ N.of_nat 8)%N with (2 ^ 64)%N; auto).
  rewrite (app_assoc a). rewrite IH; auto. rewrite app_length, le_length. auto.
Qed.

(** What a serializable sketch is: everything a 64-bit hash table can hold. *)
Record serializable (s : sketch) : Prop := {
  se_entries : Forall (fun e => (e < 2 ^ 63)%N) (sk_entries s);
  se_num : (N.of_nat (length (sk_entries s)) < 2 ^ 32)%N;
  se_theta : (sk_theta s <= MaxTheta)%N;
  se_seed : (sk_seed s < 2 ^ 16)%N;
  se_empty : sk_empty s = true -> sk_entries s = [] /\ sk_theta s = MaxTheta;
}.

Lemma small_entries s : serializable s -> Forall (fun e => (e < 2 ^ 64)%N) (sk_entries s).
Proof.
  intros H. apply Forall_impl with (2 := se_entries s H). intros e He. eapply N.lt_trans; [exact He|]. reflexivity.
Qed.
Lemma u32_small x : (x < 2 ^ 32)%N -> u32 x = x. Proof. apply N.mod_small. Qed.

Definition norm (s : sketch) : sketch :=
  mkSketch (sk_entries s) (sk_theta s) (sk_seed s) (sk_empty s) (sk_ordered s || (length (sk_entries s) <=? 1)).

(** The decoded header of an uncompressed image. *)
Definition plain_csd (s : sketch) : csd :=
  mkCsd (sk_theta s) (if sk_empty s then 0 else 8 * preamble_longs s false) (N.of_nat (length (sk_entries s))) (sk_seed s) 64 (sk_empty s)
    (sk_ordered s || (preamble_longs s false =? 1)).

Lemma rd_at k v a b : (v < 256 ^ N.of_nat k)%N -> rd k (length a) (a ++ le k v ++ b) = Ok v.
Proof. intros H. unfold rd. rewrite get_le_app_at, N.mod_small; auto. Qed.
Lemma rd_at' k v a b off : off = length a -> (v < 256 ^ N.of_nat k)%N -> rd k off (a ++ le k v ++ b) = Ok v.
Proof. intros ->. apply rd_at. Qed.
Lemma need_ok buf n : n <= length buf -> need buf n = Ok tt.
Proof. intros H. unfold need. destruct (Nat.ltb_spec (length buf) n); auto; lia. Qed.

Lemma plain_decode_data s want : serializable s -> (sk_empty s = true \/ want = Some (sk_seed s)) ->
  decode_data want (plain_bytes s) = Ok (plain_csd s).
Proof.
  intros H Hw. pose proof (plain_bytes_length s) as HL. unfold serialized_size in HL. cbn [andb] in HL.
  pose proof (preamble_ge s false) as Hp.
  unfold decode_data. rewrite need_ok by lia. cbn [bindr].
  assert (A : forall i, i < 6 -> at_ i (plain_bytes s) = of_opt (nth_error [N.of_nat (preamble_longs s false); 3; 3; 0; 0; flags_of s]%N i)).
  { intros i Hi. unfold at_, plain_bytes. f_equal. rewrite !nth_error_app1; auto. rewrite app_length, le_length. cbn [length]. lia. }
  rewrite !A by lia. cbn [nth_error of_opt bindr N.eqb negb]. change (3 =? 3)%N with true. cbn [negb].
  change (3 =? 4)%N with false. cbn iota. change (Pos.eqb 3 4) with false. change (Pos.eqb 3 3) with true. cbn iota.
  unfold decode_v3.
  assert (Hsd : rd 2 6 (plain_bytes s) = Ok (sk_seed s)).
  { unfold plain_bytes. rewrite <- !app_assoc. apply rd_at'; auto. apply (se_seed s H). }
  rewrite Hsd. cbn [bindr]. rewrite !A by lia. cbn [nth_error of_opt bindr].
  assert (F2 : N.testbit (flags_of s) 2 = sk_empty s) by (unfold flags_of; destruct (sk_empty s), (sk_ordered s); reflexivity).
  assert (F4 : N.testbit (flags_of s) 4 = sk_ordered s) by (unfold flags_of; destruct (sk_empty s), (sk_ordered s); reflexivity).
  rewrite F2, F4. destruct (sk_empty s) eqn:Ee.
  { destruct (se_empty s H Ee) as [E1 E2]. unfold plain_csd, preamble_longs, est. rewrite E1, E2, Ee, N.ltb_irrefl. cbn [length].
    rewrite orb_true_r. auto. }
  destruct Hw as [Hw|Hw]; [discriminate|]. subst want. cbn [check_seed]. rewrite N.eqb_refl. cbn [bindr].
  assert (Hth : (sk_theta s < 256 ^ N.of_nat 8)%N).
  { change (256 ^ N.of_nat 8)%N with (2 ^ 64)%N. pose proof (se_theta s H). eapply N.le_lt_trans; eauto. reflexivity. }
  pose proof (se_num s H) as Hn.
  assert (Hnum : 1 < preamble_longs s false -> rd 4 8 (plain_bytes s) = Ok (N.of_nat (length (sk_entries s)))).
  { intros Hp1. unfold plain_bytes. destruct (Nat.ltb_spec 1 (preamble_longs s false)); [|lia]. cbn [sec]. rewrite u32_small by auto.
    rewrite <- (app_assoc (le 4 _)). apply rd_at'; auto. }
  destruct (est s) eqn:E.
  - assert (Hrt : rd 8 16 (plain_bytes s) = Ok (sk_theta s)).
    { unfold plain_bytes. rewrite E, (pre_est s E). cbn [Nat.ltb Nat.leb sec]. rewrite app_assoc. apply rd_at'; auto.
    }
    rewrite (pre_est s E) in *. change (2 <? N.of_nat 3)%N with true. cbn iota. rewrite need_ok by lia. cbn [bindr].
    rewrite Hrt. cbn [bindr]. change (N.of_nat 3 =? 1)%N with false. cbn iota. rewrite Hnum by lia. cbn [bindr].
    rewrite need_ok by lia. cbn [bindr]. unfold plain_csd. rewrite (pre_est s E), Ee. cbn [Nat.eqb]. rewrite orb_false_r. auto.
  - assert (Hmax : sk_theta s = MaxTheta).
    { unfold est in E. rewrite Ee in E. cbn [negb] in E. rewrite andb_true_r in E. apply N.ltb_ge in E. pose proof (se_theta s H). lia. }
    pose proof (pre_not_est s E) as Hpre. rewrite Ee in Hpre. cbn [orb] in Hpre.
    unfold plain_csd. rewrite Ee, Hmax. destruct (Nat.eqb_spec (length (sk_entries s)) 1) as [H1|H1]; rewrite Hpre in *.
    + change (2 <? N.of_nat 1)%N with false. cbn [bindr]. change (N.of_nat 1 =? 1)%N with true. cbn iota. rewrite need_ok by lia. cbn [bindr].
      rewrite H1. cbn [Nat.eqb]. rewrite orb_true_r. auto.
    + change (2 <? N.of_nat 2)%N with false. cbn [bindr]. change (N.of_nat 2 =? 1)%N with false. cbn iota. rewrite Hnum by lia. cbn [bindr].
      rewrite need_ok by lia. cbn [bindr Nat.eqb]. rewrite orb_false_r. auto.
Qed.

Lemma plain_round_trip s want : serializable s -> (sk_empty s = true \/ want = Some (sk_seed s)) ->
  decode want (plain_bytes s) = Ok (norm s).
Proof.
  intros H Hw. unfold decode. rewrite plain_decode_data by auto. cbn [bindr plain_csd d_bits d_num d_start N.eqb]. change (Pos.eqb 64 64) with true. cbn iota.
  rewrite Nat2N.id. pose proof (small_entries s H) as He.
  assert (Hr : read_entries (length (sk_entries s)) (if sk_empty s then 0 else 8 * preamble_longs s false) (plain_bytes s) = Ok (sk_entries s)).
  { destruct (sk_empty s) eqn:Ee. { destruct (se_empty s H Ee) as [-> _]. auto. }
    unfold plain_bytes. rewrite !app_assoc. rewrite <- (app_nil_r (flat_map (le 8) (sk_entries s))). apply read_entries_app; auto.
    rewrite !app_length, le_length. cbn [length]. destruct (est s) eqn:E.
    - rewrite (pre_est s E). cbn [Nat.ltb Nat.leb sec]. rewrite app_length, !le_length. auto.
    - rewrite (pre_not_est s E). destruct (_ || _); cbn [Nat.ltb Nat.leb sec]; try (rewrite app_length, le_length); auto. }
  rewrite Hr. cbn [bindr]. unfold from_entries, norm, plain_csd. cbn [d_theta d_seed d_empty d_ordered]. f_equal. f_equal.
  destruct (Nat.leb_spec (length (sk_entries s)) 1) as [H1|H1]; [rewrite orb_true_r; auto|]. rewrite orb_false_r.
  unfold preamble_longs. destruct (est s); cbn [Nat.eqb]; [apply orb_false_r|].
  destruct (sk_empty s) eqn:Ee; [destruct (se_empty s H Ee) as [E1 _]; rewrite E1 in H1; cbn in H1; lia|].
  destruct (Nat.eqb_spec (length (sk_entries s)) 1); [lia|]. cbn. apply orb_false_r.
Qed.

(** ** Compressed format *)
Notation bytes_ok l := (Forall (fun b => (b < 256)%N) l).

(** [n] consecutive w-bit numbers from bit position [base]. *)
Fixpoint words (buf : list N) (base w n : nat) : list N :=
  match n with 0 => [] | S n' => word buf base w :: words buf (base + w) w n' end.

Lemma words_length buf base w n : length (words buf base w n) = n.
Proof. revert base; induction n; intros; cbn [words length]; auto. Qed.
Lemma words_app buf w n m : forall base, words buf base w (n + m) = words buf base w n ++ words buf (base + n * w) w m.
Proof.
  induction n as [|n IH]; intros base; cbn [words Nat.add app].
  - replace (base + 0 * w) with base by lia. auto.
  - f_equal. rewrite IH. f_equal. f_equal. lia.
Qed.
Lemma words_ext buf buf' w n : forall base base', (forall q, q < n * w -> bitat buf (base + q) = bitat buf' (base' + q)) ->
  words buf base w n = words buf' base' w n.
Proof.
  induction n as [|n IH]; intros base base' H; cbn [words]; auto. f_equal.
  - apply word_ext. intros q Hq. apply H. lia.
  - apply IH. intros q Hq. rewrite <- !Nat.add_assoc. apply H. lia.
Qed.

Lemma nth_skipn' {A} n i (l : list A) d : nth i (skipn n l) d = nth (n + i) l d.
Proof. revert l; induction n; intros [|x l]; simpl; auto. destruct i; auto. Qed.
Lemma bitat_skipn off buf p : bitat (skipn off buf) p = bitat buf (8 * off + p).
Proof.
  destruct (divmod8 p) as (a & b & -> & Hb & _). replace (8 * off + (8 * a + b)) with (8 * (off + a) + b) by lia.
  rewrite !bitat_at, nth_skipn' by auto. auto.
Qed.
Lemma words_skipn off buf base w n : words (skipn off buf) base w n = words buf (8 * off + base) w n.
Proof. apply words_ext. intros q _. rewrite bitat_skipn. f_equal. lia. Qed.

Lemma words_map8 buf w : map (fun i => word buf (i * w) w) (seq 0 8) = words buf 0 w 8.
Proof. cbn [seq map words]. repeat (f_equal; try lia). Qed.

Lemma Forall_skipn' {A} (P : A -> Prop) n l : Forall P l -> Forall P (skipn n l).
Proof. revert l; induction n; intros [|x l] H; simpl; auto. inversion H; auto. Qed.
Lemma Forall_firstn' {A} (P : A -> Prop) n l : Forall P l -> Forall P (firstn n l).
Proof. revert l; induction n; intros [|x l] H; simpl; auto. inversion H; auto. Qed.

Lemma last_cons {A} (z : A) l d : last (z :: l) d = last l z.
Proof. revert z d. induction l as [|y l IH]; intros z d; auto. change (last (y :: l) d = last (y :: l) z). rewrite !IH. auto. Qed.
Lemma undelta_app : forall a b p, undelta p (a ++ b) = undelta p a ++ undelta (last (undelta p a) p) b.
Proof.
  induction a as [|x a IHa]; intros b p; cbn [app undelta]; auto. rewrite last_cons, IHa. auto.
Qed.

(** Decoder side. *)
Lemma dec_blocks_spec w : 1 <= w <= 63 -> forall fuel n ptr, n < fuel -> bytes_ok ptr -> w * n <= 8 * length ptr ->
  exists ds n' p', dec_blocks fuel (N.of_nat w) n ptr = Ok (ds, n', p') /\ words ptr 0 w n = ds ++ words p' 0 w n' /\
    n' < 8 /\ w * n' <= 8 * length p' /\ bytes_ok p'.
Proof.
  intros Hw. induction fuel as [|f IH]; intros n ptr Hf Hb Hl; [lia|]. cbn [dec_blocks]. destruct (Nat.leb_spec 8 n) as [H8|H8].
  - rewrite unpack_block8_spec by (auto; nia). cbn [bindr]. rewrite Nat2N.id. destruct (Nat.leb_spec w (length ptr)); [|nia]. cbn [of_opt bindr].
    destruct (IH (n - 8) (skipn w ptr)) as (ds & n' & p' & -> & E & H1 & H2 & H3); [lia|apply Forall_skipn'; auto|rewrite skipn_length; nia|].
    cbn [bindr]. rewrite words_map8. eexists _, _, _. split; [reflexivity|]. split; auto.
    rewrite <- app_assoc, <- E, words_skipn. replace n with (8 + (n - 8)) at 1 by lia. rewrite words_app. f_equal. f_equal. lia.
  - exists [], n, ptr. auto.
Qed.

Lemma dec_rest_spec w : 1 <= w <= 63 -> forall n ptr idx boff, boff < 8 -> bytes_ok ptr -> 8 * idx + boff + w * n <= 8 * length ptr ->
  dec_rest w n ptr idx boff = Ok (words ptr (8 * idx + boff) w n).
Proof.
  intros Hw. induction n as [|n IH]; intros ptr idx boff Ho Hb Hl; cbn [dec_rest words]; auto.
  destruct (unpack_bits_spec w ptr idx boff) as (i' & o' & -> & E & Ho'); auto; try lia. cbn [of_opt bindr].
  rewrite IH by (auto; lia). cbn [bindr]. rewrite E. auto.
Qed.

Lemma wrap_blocks_spec w : 1 <= w <= 63 -> forall fuel n bytes bidx prev, n < fuel -> bytes_ok bytes -> 8 * bidx + w * n <= 8 * length bytes ->
  exists es n' b' p', wrap_blocks fuel (N.of_nat w) n bytes bidx prev = Ok (es, n', b', p') /\
    undelta prev (words bytes (8 * bidx) w n) = es ++ undelta p' (words bytes (8 * b') w n') /\ 8 * b' + w * n' <= 8 * length bytes.
Proof.
  intros Hw. induction fuel as [|f IH]; intros n bytes bidx prev Hf Hb Hl; [lia|]. cbn [wrap_blocks]. destruct (Nat.leb_spec 8 n) as [H8|H8].
  - unfold on_tail. destruct (Nat.leb_spec bidx (length bytes)); [|nia].
    rewrite unpack_block8_spec by (auto; try (apply Forall_skipn'; auto); rewrite skipn_length; nia). cbn [bindr]. rewrite words_map8, words_skipn, Nat2N.id.
    set (vs := words bytes (8 * bidx + 0) w 8).
    destruct (IH (n - 8) bytes (bidx + w) (last (undelta prev vs) prev)) as (es & n' & b' & p' & -> & E & HL); [lia|auto|nia|].
    cbn [bindr]. eexists _, _, _, _. split; [reflexivity|]. split; auto. rewrite <- app_assoc, <- E.
    replace n with (8 + (n - 8)) at 1 by lia. rewrite words_app. replace (8 * bidx) with (8 * bidx + 0) at 1 by lia. fold vs.
    rewrite undelta_app. f_equal. f_equal. f_equal. lia.
  - exists [], n, bidx, prev. split; auto.
Qed.

Lemma wrap_rest_spec w : 1 <= w <= 63 -> forall n bytes idx boff prev, boff < 8 -> bytes_ok bytes -> 8 * idx + boff + w * n <= 8 * length bytes ->
  wrap_rest w n bytes idx boff prev = Ok (undelta prev (words bytes (8 * idx + boff) w n)).
Proof.
  intros Hw. induction n as [|n IH]; intros ptr idx boff prev Ho Hb Hl; cbn [wrap_rest words undelta]; auto.
  destruct (unpack_bits_spec w ptr idx boff) as (i' & o' & -> & E & Ho'); auto; try lia. cbn [of_opt bindr].
  rewrite IH by (auto; lia). cbn [bindr]. rewrite E. auto.
Qed.

(** ** Encoder side *)
Lemma deltas_app : forall a b p, deltas p (a ++ b) = deltas p a ++ deltas (last a p) b.
Proof. induction a as [|x a IH]; intros b p; cbn [app deltas]; auto. rewrite last_cons, IH. auto. Qed.
Lemma deltas_length : forall es p, length (deltas p es) = length es.
Proof. induction es; intros; cbn [deltas length]; auto. Qed.

Lemma sub_add64 e p : (e < 2 ^ 64)%N -> (p < 2 ^ 64)%N -> add64 (sub64 e p) p = e.
Proof.
  intros He Hp. unfold add64, sub64, u64. rewrite N.add_mod_idemp_l by (apply N.pow_nonzero; lia).
  replace (e + (2 ^ 64 - p) + p)%N with (e + 1 * 2 ^ 64)%N by lia. rewrite N.mod_add by (apply N.pow_nonzero; lia). apply N.mod_small. auto.
Qed.
Lemma undelta_deltas : forall es p, (p < 2 ^ 64)%N -> Forall (fun e => (e < 2 ^ 64)%N) es -> undelta p (deltas p es) = es.
Proof.
  induction es as [|e r IH]; intros p Hp He; cbn [deltas undelta]; auto. inversion He; subst. rewrite sub_add64, IH; auto.
Qed.

Lemma enc_rest_spec w : 1 <= w <= 63 -> forall es prev idx boff t, boff < 8 -> bytes_ok t ->
  Forall (fun d => (d < 2 ^ N.of_nat w)%N) (deltas prev es) ->
  8 * idx + boff + w * length es <= 8 * length t ->
  (0 < boff -> idx < length t /\ forall q, boff <= q < 8 -> bitat t (8 * idx + q) = false) ->
  exists t', enc_rest w prev es idx boff t = Some t' /\ length t' = length t /\ bytes_ok t' /\
    (forall p, p < 8 * idx + boff -> bitat t' p = bitat t p) /\ words t' (8 * idx + boff) w (length es) = deltas prev es.
Proof.
  intros Hw. induction es as [|e r IH]; intros prev idx boff t Ho Hb Hd Hl Hz; cbn [enc_rest deltas length words].
  { exists t. auto. }
  cbn [deltas length] in Hd, Hl. inversion Hd as [|? ? Hd1 Hd2]; subst.
  destruct (pack_bits_spec (sub64 e prev) w t idx boff Ho ltac:(nia) Hb Hz) as (t1 & i1 & o1 & -> & W).
  destruct W as [W1 [W2 W2'] W3 W4 W5 W6 W7]. cbn [bindo].
  destruct (IH e i1 o1 t1 W2' W7 Hd2) as (t2 & -> & L2 & B2 & P2 & E2).
  { rewrite W1. nia. }
  { intros H0. split; [rewrite W1; nia|]. intros q Hq. apply W5; auto. }
  exists t2. split; auto. split; [lia|]. split; auto. split.
  { intros p Hp. rewrite P2 by nia. apply W3. auto. }
  f_equal.
  - apply word_of_bits; auto. intros q Hq. rewrite P2 by nia. apply W4. auto.
  - rewrite <- W2. exact E2.
Qed.

Lemma bitat_firstn_app off buf t p : length t = length buf - off -> off <= length buf ->
  bitat (firstn off buf ++ t) p = if p <? 8 * off then bitat buf p else bitat t (p - 8 * off).
Proof.
  intros Ht Ho. destruct (divmod8 p) as (a & b & -> & Hb & _).
  assert (Hlen : length (firstn off buf) = off) by (rewrite firstn_length; lia).
  destruct (Nat.ltb_spec (8 * a + b) (8 * off)) as [H|H].
  - rewrite !bitat_at by auto. rewrite app_nth1 by lia. rewrite <- (firstn_skipn off buf) at 2. rewrite app_nth1 by lia. auto.
  - replace (8 * a + b - 8 * off) with (8 * (a - off) + b) by lia. rewrite !bitat_at by auto. rewrite app_nth2 by lia. rewrite Hlen. auto.
Qed.

Lemma firstn_firstn_app {A} n off (buf t : list A) : n <= off -> off <= length buf -> firstn n (firstn off buf ++ t) = firstn n buf.
Proof.
  intros H Ho. rewrite firstn_app, firstn_firstn, firstn_length.
  replace (n - Nat.min off (length buf)) with 0 by lia. cbn [firstn]. rewrite app_nil_r. f_equal. lia.
Qed.

Lemma enc_blocks_spec w : 1 <= w <= 63 -> forall fuel es prev off buf, length es < fuel -> bytes_ok buf ->
  Forall (fun d => (d < 2 ^ N.of_nat w)%N) (deltas prev es) -> 8 * off + w * length es <= 8 * length buf ->
  exists buf' off' prev' es' done, enc_blocks fuel (N.of_nat w) prev es off buf = Ok (buf', off', prev', es') /\
    es = done ++ es' /\ prev' = last done prev /\ 8 * off' = 8 * off + w * length done /\ off <= off' /\
    length buf' = length buf /\ bytes_ok buf' /\ firstn off buf' = firstn off buf /\
    words buf' (8 * off) w (length done) = deltas prev done.
Proof.
  intros Hw. induction fuel as [|f IH]; intros es prev off buf Hf Hb Hd Hl; [lia|]. cbn [enc_blocks].
  destruct (Nat.leb_spec 8 (length es)) as [H8|H8].
  2:{ exists buf, off, prev, es, []. cbn [length app last words deltas]. repeat (split; auto). lia. }
  set (blk := firstn 8 es). assert (Hblk : length blk = 8) by (unfold blk; rewrite firstn_length; lia).
  assert (Hes : es = blk ++ skipn 8 es) by (symmetry; apply firstn_skipn).
  rewrite Hes, deltas_app, Forall_app in Hd. destruct Hd as [Hd1 Hd2].
  unfold on_tail. destruct (Nat.leb_spec off (length buf)); [|nia].
  destruct (pack_block8_spec w (deltas prev blk) (skipn off buf)) as (t & -> & Lt & Bt & Wt & At); auto.
  { rewrite deltas_length. auto. }
  { rewrite skipn_length. nia. }
  { apply Forall_skipn'. auto. }
  cbn [bindr]. rewrite skipn_length in Lt. rewrite Nat2N.id.
  assert (Hls : length (skipn 8 es) = length es - 8) by apply skipn_length.
  assert (Hlb : length (firstn off buf ++ t) = length buf) by (rewrite app_length, firstn_length; lia).
  destruct (IH (skipn 8 es) (last blk prev) (off + w) (firstn off buf ++ t)) as (b' & o' & p' & es' & dn & -> & E1 & E2 & E3 & E4 & E5 & E6 & E7 & E8).
  { lia. }
  { apply Forall_app. split; auto. apply Forall_firstn'. auto. }
  { auto. }
  { rewrite Hls, Hlb. nia. }
  exists b', o', p', es', (blk ++ dn). split; auto. split; [rewrite <- app_assoc, <- E1; auto|].
  split. { rewrite E2. clear. induction blk as [|x r IHr] using rev_ind; auto. rewrite <- app_assoc. 
    assert (G : forall (a : list N) x b d, last (a ++ x :: b) d = last b x). { clear. induction a as [|y a IH]; intros; cbn [app]; rewrite last_cons; auto. }
    rewrite (G r x [] prev). cbn [app last]. rewrite (G r x dn prev). auto. }
  split. { rewrite app_length, Hblk. lia. }
  split; [lia|]. split; [lia|]. split; auto. split.
  { rewrite <- (firstn_firstn_app off off buf t) by lia.
    assert (E : firstn off (firstn (off + w) b') = firstn off (firstn (off + w) (firstn off buf ++ t))) by (rewrite E7; auto).
    rewrite !firstn_firstn in E. rewrite !Nat.min_l in E by lia. auto. }
  rewrite app_length, words_app, deltas_app, Hblk. f_equal.
  - assert (Hpre : forall p, p < 8 * (off + w) -> bitat b' p = bitat (firstn off buf ++ t) p).
    { intros p Hp. destruct (divmod8 p) as (a & b & -> & Hbb & _). rewrite !bitat_at by auto. f_equal.
      rewrite <- (firstn_skipn (off + w) b'), <- (firstn_skipn (off + w) (firstn off buf ++ t)), E7.
      rewrite !app_nth1; auto; rewrite firstn_length; nia. }
    assert (Hq : forall i, i < 8 -> word b' (8 * off + i * w) w = nth i (deltas prev blk) 0%N).
    { intros i Hi. apply word_of_bits.
      - rewrite Forall_forall in Hd1. apply Hd1. apply nth_In. rewrite deltas_length. lia.
      - intros q Hq. rewrite Hpre by nia. rewrite bitat_firstn_app by auto. destruct (Nat.ltb_spec (8 * off + i * w + q) (8 * off)); [nia|].
        replace (8 * off + i * w + q - 8 * off) with (i * w + q) by lia. rewrite Wt by nia.
        rewrite (Nat.add_comm (i * w)), Nat.div_add, Nat.mod_add, Nat.div_small, Nat.mod_small by lia. auto. }
    pose proof (deltas_length blk prev) as Hdl. rewrite Hblk in Hdl.
    apply nth_error_ext. intros i. destruct (Nat.lt_ge_cases i 8) as [Hi|Hi].
    + rewrite (nth_error_nth' (deltas prev blk) i 0%N) by lia. rewrite <- Hq by auto.
      replace (words b' (8 * off) w 8) with (map (fun i => word b' (8 * off + i * w) w) (seq 0 8)) by (cbn [seq map words]; repeat (f_equal; try lia)).
      apply (map_nth_error (fun i => word b' (8 * off + i * w) w)). rewrite (nth_error_nth' _ _ 0) by (rewrite seq_length; lia). rewrite seq_nth; auto.
    + rewrite !(proj2 (nth_error_None _ i)); auto; rewrite ?words_length; lia.
  - rewrite <- E8. f_equal. lia.
Qed.

(** ** Widths *)
Lemma ored_bits : forall es prev acc k, N.testbit (ored prev acc es) k = N.testbit acc k || existsb (fun d => N.testbit d k) (deltas prev es).
Proof.
  induction es as [|e r IH]; intros prev acc k; cbn [ored deltas existsb]. { rewrite orb_false_r. auto. }
  rewrite IH, N.lor_spec, orb_assoc. auto.
Qed.
Lemma size_gt' a : (a < 2 ^ N.size a)%N.
Proof. destruct a; [simpl; lia|]. apply N.size_gt. Qed.
Lemma size_le' a n : (a < 2 ^ n)%N -> (N.size a <= n)%N.
Proof.
  intros H. destruct (N.eq_dec a 0) as [->|Ha]; [simpl; lia|]. rewrite N.size_log2 by auto. apply N.le_succ_l. apply N.log2_lt_pow2; auto. lia.
Qed.
Lemma size_pos a : (0 < a)%N -> (1 <= N.size a)%N.
Proof. intros H. rewrite N.size_log2 by lia. lia. Qed.

Lemma deltas_below_size es : Forall (fun d => (d < 2 ^ N.size (ored 0 0 es))%N) (deltas 0 es).
Proof.
  rewrite Forall_forall. intros d Hd. apply high_testbit. intros k Hk.
  pose proof (testbit_high _ _ (size_gt' (ored 0 0 es)) k Hk) as H. rewrite ored_bits in H. apply orb_false_iff in H. destruct H as [_ H].
  destruct (N.testbit d k) eqn:E; auto. assert (C : existsb (fun d => N.testbit d k) (deltas 0 es) = true) by (apply existsb_exists; eauto).
  rewrite C in H. discriminate.
Qed.
Lemma ored_lt n es : Forall (fun d => (d < 2 ^ n)%N) (deltas 0 es) -> (ored 0 0 es < 2 ^ n)%N.
Proof.
  intros H. apply high_testbit. intros k Hk. rewrite ored_bits, N.bits_0. cbn [orb].
  destruct (existsb _ _) eqn:E; auto. apply existsb_exists in E. destruct E as (d & Hd & Hb). rewrite Forall_forall in H.
  rewrite (testbit_high d n (H d Hd) k Hk) in Hb. discriminate.
Qed.

(** Strictly increasing entries below 2^63: the deltas are positive and below 2^63. *)
Lemma deltas_sorted : forall es prev, (prev < 2 ^ 63)%N -> Forall (fun e => (e < 2 ^ 63)%N) es -> StronglySorted N.lt (prev :: es) ->
  Forall (fun d => (0 < d /\ d < 2 ^ 63)%N) (deltas prev es).
Proof.
  induction es as [|e r IH]; intros prev Hp He Hs; cbn [deltas]; auto. inversion He; subst. inversion Hs as [|? ? Hs1 Hs2]; subst.
  inversion Hs2; subst. constructor; [|apply IH; auto].
  assert (Hx : sub64 e prev = (e - prev)%N).
  { unfold sub64, u64. replace (e + (2 ^ 64 - prev))%N with ((e - prev) + 1 * 2 ^ 64)%N.
    2:{ assert (2 ^ 63 < 2 ^ 64)%N by reflexivity. lia. }
    rewrite N.mod_add by (apply N.pow_nonzero; lia). apply N.mod_small. assert (2 ^ 63 < 2 ^ 64)%N by reflexivity. lia. }
  rewrite Hx. lia.
Qed.

Lemma whole_bytes_spec b : (8 * whole_bytes b >= b /\ 8 * whole_bytes b < b + 8)%N.
Proof.
  unfold whole_bytes. rewrite N.shiftr_div_pow2. change (2 ^ 3)%N with 8%N.
  assert (E : N.land b 7 = (b mod 8)%N) by (change 7%N with (N.ones 3); rewrite N.land_ones; auto). rewrite E.
  pose proof (N.div_mod b 8 ltac:(lia)) as D. pose proof (N.mod_lt b 8 ltac:(lia)) as M. destruct (N.ltb_spec 0 (b mod 8)); lia.
Qed.

Record packable (s : sketch) : Prop := {
  pk_ser : serializable s;
  pk_sorted : sk_ordered s = true -> StronglySorted N.lt (0%N :: sk_entries s);
}.

Lemma suitable_parts s : suitable s = true -> sk_ordered s = true /\ 1 <= length (sk_entries s) /\ (length (sk_entries s) = 1 -> est s = true).
Proof.
  unfold suitable. rewrite negb_true_iff, !orb_false_iff, negb_false_iff. intros ((A & B) & C). split; auto.
  apply Nat.eqb_neq in B. split; [lia|]. intros E. rewrite E in C. cbn in C. destruct (est s); auto.
Qed.

Lemma entry_bits_range s : packable s -> suitable s = true -> exists w, entry_bits s = N.of_nat w /\ 1 <= w <= 63.
Proof.
  intros [Hs Ho] Hu. apply suitable_parts in Hu. destruct Hu as (Hor & Hl & _). exists (N.to_nat (entry_bits s)). rewrite N2Nat.id. split; auto.
  pose proof (deltas_sorted (sk_entries s) 0%N ltac:(reflexivity) (se_entries s Hs) (Ho Hor)) as Hd.
  assert (H1 : (entry_bits s <= 63)%N).
  { apply size_le'. apply ored_lt. apply Forall_impl with (2 := Hd). intros d H; apply H. }
  assert (H2 : (1 <= entry_bits s)%N).
  { apply size_pos. destruct (N.eq_dec (ored 0 0 (sk_entries s)) 0) as [E|E]; [|lia]. exfalso.
    pose proof (deltas_below_size (sk_entries s)) as Hb. rewrite E in Hb. change (2 ^ N.size 0)%N with 1%N in Hb.
    destruct (sk_entries s) as [|e r]; [cbn in Hl; lia|]. cbn [deltas] in *. inversion Hd; inversion Hb; subst. lia. }
  lia.
Qed.

Lemma num_bytes_range s : serializable s -> 1 <= length (sk_entries s) ->
  exists nb, num_entries_bytes s = N.of_nat nb /\ 1 <= nb <= 4 /\ (N.of_nat (length (sk_entries s)) < 256 ^ N.of_nat nb)%N.
Proof.
  intros Hs Hl. unfold num_entries_bytes. rewrite u32_small by apply (se_num s Hs). set (n := N.of_nat (length (sk_entries s))).
  destruct (N.eqb_spec n 0) as [E|E]; [lia|]. exists (N.to_nat (whole_bytes (N.size n))). rewrite N2Nat.id. split; auto.
  destruct (whole_bytes_spec (N.size n)) as [A B]. pose proof (size_pos n ltac:(lia)) as C. pose proof (size_le' n 32 (se_num s Hs)) as D.
  split; [lia|]. change 256%N with (2 ^ 8)%N. rewrite <- N.pow_mul_r. eapply N.lt_le_trans; [apply size_gt'|]. apply N.pow_le_mono_r; lia.
Qed.

(** The header part of a compressed image. *)
Definition v4_head (s : sketch) (w nb : nat) : list N :=
  ([N.of_nat (preamble_longs s true); 4; 3; N.of_nat w; N.of_nat nb; 2 ^ 3 + 2 ^ 1 + 2 ^ 4]%N ++ le 2 (sk_seed s)) ++
  sec (est s) (le 8 (sk_theta s)) ++ le nb (N.of_nat (length (sk_entries s))).

Lemma v4_head_length s w nb : length (v4_head s w nb) = 8 * preamble_longs s true + nb.
Proof.
  unfold v4_head, preamble_longs. rewrite !app_length, !le_length. cbn [length]. destruct (est s); cbn [sec]; rewrite ?le_length; cbn [length]; lia.
Qed.

Lemma encode_v4_ok s w nb : serializable s -> 1 <= w <= 63 -> 1 <= nb <= 4 ->
  Forall (fun d => (d < 2 ^ N.of_nat w)%N) (deltas 0 (sk_entries s)) ->
  exists t, encode_v4 s (N.of_nat w) (N.of_nat nb) = Ok (v4_head s w nb ++ t) /\
    length t = N.to_nat (whole_bytes (N.of_nat w * N.of_nat (length (sk_entries s)))) /\ bytes_ok t /\
    words t 0 w (length (sk_entries s)) = deltas 0 (sk_entries s).
Proof.
  intros Hs Hw Hnb Hd. unfold encode_v4. rewrite u32_small by apply (se_num s Hs).
  set (n := length (sk_entries s)). set (k := N.to_nat (whole_bytes (N.of_nat w * N.of_nat n))).
  assert (Hk : w * n <= 8 * k).
  { destruct (whole_bytes_spec (N.of_nat w * N.of_nat n)) as [A _]. unfold k. lia. }
  assert (Hsz : compressed_size s (N.of_nat w) (N.of_nat nb) = 8 + ((if est s then 8 else 0) + nb + k)).
  { unfold compressed_size, preamble_longs. fold n. fold k. rewrite Nat2N.id. destruct (est s); lia. }
  rewrite Hsz, repeat_app. set (m := (if est s then 8 else 0) + nb + k).
  change (repeat 0%N 8) with [0%N;0%N;0%N;0%N;0%N;0%N;0%N;0%N].
  assert (Hh : forall (X : Type) (f : list N -> option X), (do buf <- wr 0 (N.of_nat (preamble_longs s true)) ([0%N;0%N;0%N;0%N;0%N;0%N;0%N;0%N] ++ repeat 0%N m) ;
    do buf <- wr 1 4%N buf ; do buf <- wr 2 3%N buf ; do buf <- wr 3 (N.of_nat w) buf ; do buf <- wr 4 (N.of_nat nb) buf ;
    do buf <- wr 5 (2 ^ 3 + 2 ^ 1 + 2 ^ 4)%N buf ; do buf <- put_le 2 6 (sk_seed s) buf ; f buf) =
    f (([N.of_nat (preamble_longs s true); 4; 3; N.of_nat w; N.of_nat nb; 2 ^ 3 + 2 ^ 1 + 2 ^ 4]%N ++ le 2 (sk_seed s)) ++ repeat 0%N m)).
  { intros X f. pose proof (le_length 2 (sk_seed s)) as HL. unfold put_le. set (sd := le 2 (sk_seed s)) in *.
    destruct sd as [|x [|y [|? ?]]]; try discriminate HL. unfold wr. cbn [app length Nat.ltb Nat.leb bindo upd]. unfold put.
    cbn [app length Nat.add Nat.leb firstn skipn bindo]. auto. }
  rewrite Hh. clear Hh.
  set (h := [N.of_nat (preamble_longs s true); 4; 3; N.of_nat w; N.of_nat nb; 2 ^ 3 + 2 ^ 1 + 2 ^ 4]%N ++ le 2 (sk_seed s)).
  assert (Lh : length h = 8) by (unfold h; rewrite app_length, le_length; auto).
  assert (E2 : (if est s then do buf <- put_le 8 8 (sk_theta s) (h ++ repeat 0%N m); Some (buf, 16) else Some (h ++ repeat 0%N m, 8)) =
    Some ((h ++ sec (est s) (le 8 (sk_theta s))) ++ repeat 0%N (nb + k), length (h ++ sec (est s) (le 8 (sk_theta s))))).
  { unfold m. destruct (est s); cbn [sec].
    - pose proof (put_le_app_zero h 8 (sk_theta s) (8 + nb + k) ltac:(lia)) as X. rewrite Lh in X. rewrite X. cbn [bindo]. f_equal. rewrite (app_length h), le_length, Lh. f_equal. f_equal. f_equal. lia.
    - rewrite app_nil_r, Lh. auto. }
  rewrite E2. cbn [bindo]. rewrite Nat2N.id. rewrite put_le_app_zero by lia. cbn [bindo of_opt bindr].
  replace (nb + k - nb) with k by lia.
  replace ((h ++ sec (est s) (le 8 (sk_theta s))) ++ le nb (N.of_nat n)) with (v4_head s w nb) by (unfold v4_head; fold h; rewrite <- app_assoc; auto).
  replace (length (h ++ sec (est s) (le 8 (sk_theta s))) + nb) with (length (v4_head s w nb)).
  2:{ unfold v4_head. fold h. rewrite !app_length, le_length. lia. }
  set (H0 := v4_head s w nb).
  assert (HB : bytes_ok (H0 ++ repeat 0%N k)).
  { apply Forall_app. split; [|apply Forall_forall; intros x Hx; apply repeat_spec in Hx; subst; lia].
    unfold H0, v4_head. rewrite !Forall_app. repeat split; try apply le_bytes.
    - repeat constructor; try lia. unfold preamble_longs. destruct (est s); cbn; lia.
    - destruct (est s); cbn [sec]; auto. apply le_bytes. }
  assert (HLk : length (H0 ++ repeat 0%N k) = length H0 + k) by (rewrite app_length, repeat_length; auto).
  destruct (enc_blocks_spec w Hw (S n) (sk_entries s) 0%N (length H0) (H0 ++ repeat 0%N k)) as (b' & o' & p' & es' & dn & -> & E1 & E3 & E4 & E5 & E6 & E7 & E8 & E9); auto.
  { fold n. rewrite HLk. lia. }
  cbn [bindr]. unfold on_tail. rewrite E1, deltas_app, Forall_app in Hd. destruct Hd as [_ Hd]. rewrite <- E3 in Hd.
  assert (Hn : n = length dn + length es') by (unfold n; rewrite E1, app_length; auto).
  assert (Ho' : o' <= length b') by nia.
  destruct (Nat.leb_spec o' (length b')); [|lia]. rewrite Nat2N.id.
  destruct (enc_rest_spec w Hw es' p' 0 0 (skipn o' b')) as (t & -> & Lt & Bt & _ & Wt); auto.
  { lia. }
  { apply Forall_skipn'. auto. }
  { rewrite skipn_length. nia. }
  { intros C. lia. }
  cbn [of_opt bindr]. exists (skipn (length H0) (firstn o' b' ++ t)).
  rewrite skipn_length in Lt.
  assert (Hfin : firstn (length H0) (firstn o' b' ++ t) = H0).
  { rewrite firstn_firstn_app by lia. rewrite E8. rewrite firstn_app, Nat.sub_diag, firstn_all. apply app_nil_r. }
  split. { pose proof (firstn_skipn (length H0) (firstn o' b' ++ t)) as X. rewrite Hfin in X. rewrite X. auto. }
  split. { rewrite skipn_length, app_length, firstn_length. fold k. lia. }
  split. { apply Forall_skipn'. apply Forall_app. split; auto. apply Forall_firstn'. auto. }
  fold n. rewrite words_skipn, Hn, words_app. rewrite E1, deltas_app. f_equal.
  - rewrite <- E9. apply words_ext. intros q Hq. rewrite bitat_firstn_app by lia. replace (8 * length H0 + 0 + q) with (8 * length H0 + q) by lia.
    destruct (Nat.ltb_spec (8 * length H0 + q) (8 * o')); [auto|nia].
  - rewrite <- E3, <- Wt. apply words_ext. intros q Hq. rewrite bitat_firstn_app by lia.
    destruct (Nat.ltb_spec (8 * length H0 + 0 + length dn * w + q) (8 * o')); [nia|]. f_equal. nia.
Qed.

Lemma read_num_spec : forall k v i a c acc off, off = length a -> (i + N.of_nat k <= 31)%N ->
  read_num k i off (a ++ le k v ++ c) acc = Ok (N.lor acc (u32 (N.shiftl (v mod 256 ^ N.of_nat k) (8 * i)))).
Proof.
  induction k as [|k IH]; intros v i a c acc off -> Hi.
  - cbn [read_num]. rewrite N.mod_1_r, N.shiftl_0_l. change (u32 0) with 0%N. rewrite N.lor_0_r. auto.
  - cbn [read_num le app]. unfold at_. rewrite nth_seg by auto. cbn [of_opt bindr].
    replace (a ++ (v mod 256)%N :: le k (v / 256) ++ c) with ((a ++ [(v mod 256)%N]) ++ le k (v / 256) ++ c) by (rewrite <- app_assoc; auto).
    rewrite IH by (rewrite ?app_length; cbn [length]; lia). f_equal.
    apply N.bits_inj. intros b. rewrite !N.lor_spec, <- orb_assoc. f_equal.
    assert (U : forall x, N.testbit (u32 x) b = (b <? 32)%N && N.testbit x b).
    { intros x. unfold u32. destruct (N.ltb_spec b 32); cbn [andb]; [apply N.mod_pow2_bits_low|apply N.mod_pow2_bits_high]; auto. }
    rewrite !U, !shiftl_testbit.
    assert (Hu8 : u8 (8 * i) = (8 * i)%N) by (unfold u8; apply N.mod_small; lia). rewrite Hu8.
    assert (P : forall x j n, N.testbit (x mod 256 ^ n) j = (j <? 8 * n)%N && N.testbit x j).
    { intros x j n. change 256%N with (2 ^ 8)%N. rewrite <- N.pow_mul_r. destruct (N.ltb_spec j (8 * n)); cbn [andb]; [apply N.mod_pow2_bits_low|apply N.mod_pow2_bits_high]; auto. }
    rewrite !P. replace (v mod 256)%N with (v mod 256 ^ 1)%N by (rewrite N.pow_1_r; auto). rewrite P.
    change (v / 256)%N with (v / 2 ^ 8)%N. rewrite N.div_pow2_bits.
    destruct (N.ltb_spec b 32); cbn [andb]; auto.
    destruct (N.leb_spec (8 * i) b), (N.leb_spec (8 * (i + 1)) b), (N.ltb_spec (b - 8 * i) (8 * 1)), (N.ltb_spec (b - 8 * (i + 1)) (8 * N.of_nat k)),
      (N.ltb_spec (b - 8 * i) (8 * N.of_nat (S k))); try lia; cbn [andb orb]; auto; rewrite ?orb_false_r; auto; f_equal; lia.
Qed.

Definition v4_csd (s : sketch) (w nb : nat) : csd :=
  mkCsd (sk_theta s) (8 * preamble_longs s true + nb) (N.of_nat (length (sk_entries s))) (sk_seed s) (N.of_nat w) false true.

Lemma v4_decode_data s w nb t : serializable s -> sk_empty s = false -> 1 <= w <= 63 -> 1 <= nb <= 4 ->
  (N.of_nat (length (sk_entries s)) < 256 ^ N.of_nat nb)%N ->
  length t = N.to_nat (whole_bytes (N.of_nat w * N.of_nat (length (sk_entries s)))) ->
  decode_data (Some (sk_seed s)) (v4_head s w nb ++ t) = Ok (v4_csd s w nb).
Proof.
  intros Hs He Hw Hnb Hn Ht. set (b := v4_head s w nb ++ t).
  assert (HL : length b = 8 * preamble_longs s true + nb + length t) by (unfold b; rewrite app_length, v4_head_length; auto).
  pose proof (preamble_ge s true) as Hp. unfold decode_data. rewrite need_ok by lia. cbn [bindr].
  assert (A : forall i, i < 6 -> at_ i b = of_opt (nth_error [N.of_nat (preamble_longs s true); 4; 3; N.of_nat w; N.of_nat nb; 2 ^ 3 + 2 ^ 1 + 2 ^ 4]%N i)).
  { intros i Hi. unfold at_, b, v4_head. f_equal. rewrite !nth_error_app1; auto; rewrite !app_length, ?le_length; cbn [length]; lia. }
  rewrite !A by lia. cbn [nth_error of_opt bindr]. change (3 =? 3)%N with true. cbn [negb]. change (4 =? 4)%N with true. cbn iota.
  unfold decode_v4.
  assert (Hsd : rd 2 6 b = Ok (sk_seed s)).
  { unfold b, v4_head. rewrite <- !app_assoc. apply rd_at'; auto. apply (se_seed s Hs). }
  rewrite Hsd. cbn [bindr check_seed]. rewrite N.eqb_refl. cbn [bindr]. rewrite !A by lia. cbn [nth_error of_opt bindr].
  assert (Hth : (sk_theta s < 256 ^ N.of_nat 8)%N).
  { change (256 ^ N.of_nat 8)%N with (2 ^ 64)%N. pose proof (se_theta s Hs). eapply N.le_lt_trans; eauto. reflexivity. }
  assert (HT : (if (1 <? N.of_nat (preamble_longs s true))%N then let* _ := need b 16 in rd 8 8 b else Ok MaxTheta) = Ok (sk_theta s) /\
    (if (1 <? N.of_nat (preamble_longs s true))%N then 16 else 8) = 8 * preamble_longs s true).
  { destruct (est s) eqn:E.
    - assert (Hpp : preamble_longs s true = 2) by (unfold preamble_longs; rewrite E; auto). rewrite Hpp in *. change (1 <? N.of_nat 2)%N with true. cbn iota.
      split; auto. rewrite need_ok by lia. cbn [bindr]. unfold b, v4_head. rewrite E. cbn [sec]. rewrite <- app_assoc, <- (app_assoc (le 8 _)).
      apply rd_at'; auto. 
    - assert (Hpp : preamble_longs s true = 1) by (unfold preamble_longs; rewrite E; auto). rewrite Hpp. change (1 <? N.of_nat 1)%N with false. cbn iota.
      split; auto. f_equal. unfold est in E. rewrite He in E. cbn [negb] in E. rewrite andb_true_r in E. apply N.ltb_ge in E.
      pose proof (se_theta s Hs). lia. }
  destruct HT as [HT1 HT2]. rewrite HT1, HT2. cbn [bindr]. rewrite Nat2N.id. rewrite need_ok by lia. cbn [bindr].
  assert (Hnum : read_num nb 0 (8 * preamble_longs s true) b 0%N = Ok (N.of_nat (length (sk_entries s)))).
  { unfold b, v4_head. rewrite (app_assoc _ (sec (est s) (le 8 (sk_theta s)))), <- app_assoc. rewrite read_num_spec by (try lia;
      rewrite !app_length, !le_length; cbn [length]; unfold preamble_longs; destruct (est s); cbn [sec]; rewrite ?le_length; auto).
    rewrite N.mod_small by auto. cbn [N.lor]. rewrite N.mul_0_r, N.shiftl_0_r, u32_small by apply (se_num s Hs). auto. }
  rewrite Hnum. cbn [bindr]. cbn [nth_error of_opt bindr]. rewrite need_ok by (rewrite <- Ht; lia). cbn [bindr]. auto.
Qed.

Lemma v4_round_trip s w nb t : serializable s -> sk_empty s = false -> 1 <= w <= 63 -> 1 <= nb <= 4 ->
  (N.of_nat (length (sk_entries s)) < 256 ^ N.of_nat nb)%N ->
  length t = N.to_nat (whole_bytes (N.of_nat w * N.of_nat (length (sk_entries s)))) -> bytes_ok t ->
  words t 0 w (length (sk_entries s)) = deltas 0 (sk_entries s) -> sk_ordered s = true ->
  decode (Some (sk_seed s)) (v4_head s w nb ++ t) = Ok s.
Proof.
  intros Hs He Hw Hnb Hn Ht Hb Hd Ho. unfold decode. rewrite v4_decode_data by auto. cbn [bindr]. unfold v4_csd at 1. cbn [d_bits].
  destruct (N.eqb_spec (N.of_nat w) 64); [lia|]. unfold v4_csd at 1 2 3 4 5 6. cbn [d_start d_num d_bits].
  rewrite app_length, v4_head_length. destruct (Nat.leb_spec (8 * preamble_longs s true + nb) (8 * preamble_longs s true + nb + length t)); [|lia].
  cbn [of_opt bindr]. rewrite skipn_seg by (rewrite v4_head_length; auto). rewrite !Nat2N.id.
  assert (Hk : w * length (sk_entries s) <= 8 * length t).
  { destruct (whole_bytes_spec (N.of_nat w * N.of_nat (length (sk_entries s)))) as [A _]. lia. }
  destruct (dec_blocks_spec w Hw (S (length (sk_entries s))) (length (sk_entries s)) t) as (ds & n' & p' & -> & E & H1 & H2 & H3); auto.
  cbn [bindr]. rewrite dec_rest_spec by (auto; lia). cbn [bindr Nat.mul Nat.add]. rewrite <- E, Hd, undelta_deltas.
  2:{ reflexivity. } 2:{ apply small_entries; auto. }
  unfold from_entries. cbn [v4_csd d_theta d_seed d_empty d_ordered]. destruct s as [es th sd em or]. cbn in *. subst. f_equal. f_equal. destruct (length es <=? 1); auto.
Qed.
