(** * Proofs about the byte images of tuple sketches. *)
From Verif Require Import Base Bytes BitPackModel HashtableModel ThetaModel ThetaProofs TupleModel TupleProofs TupleProps TupleSerdeModel.
Local Open Scope nat_scope.

(** [rd] reads the bytes [b] as [x]: it consumes exactly them, and refuses every strict prefix. *)
Definition reads {A} (rd : list N -> res (A * list N)) (b : list N) (x : A) : Prop :=
  (forall rest, rd (b ++ rest) = Ok (x, rest)) /\ (forall n, n < length b -> rd (firstn n b) = Err).

Lemma reads_bind {A B} (r : list N -> res (A * list N)) (K : A * list N -> res (B * list N)) b1 b2 x y :
  reads r b1 x -> reads (fun b => K (x, b)) b2 y -> reads (fun b => bindr (r b) K) (b1 ++ b2) y.
Proof.
  intros [H1 T1] [H2 T2]. split.
  - intros rest. rewrite <- app_assoc, H1. cbn [bindr]. apply H2.
  - intros n Hn. rewrite app_length in Hn. rewrite firstn_app. destruct (Nat.lt_ge_cases n (length b1)) as [L|L].
    + replace (n - length b1) with 0 by lia. rewrite firstn_O, app_nil_r, T1 by auto. auto.
    + rewrite firstn_all2 by lia. rewrite H1. cbn [bindr]. apply T2. lia.
Qed.

Lemma reads_ret {A} (x : A) : reads (fun b => Ok (x, b)) [] x.
Proof. split; auto. cbn. lia. Qed.

Lemma reads_bind_ret {A B} (r : list N -> res (A * list N)) (K : A * list N -> res (B * list N)) b x y :
  reads r b x -> (forall b', K (x, b') = Ok (y, b')) -> reads (fun b => bindr (r b) K) b y.
Proof.
  intros H1 H2. rewrite <- (app_nil_r b). apply reads_bind with (x := x); auto. split; [intros rest; rewrite H2; auto|cbn; lia].
Qed.

Lemma reads_le k v : (v < 256 ^ N.of_nat k)%N -> reads (rd_le k) (le k v) v.
Proof.
  intros H. unfold rd_le. split.
  - intros rest. rewrite app_length, le_length. destruct (Nat.leb_spec k (k + length rest)); [|lia].
    rewrite firstn_app, skipn_app, le_length, Nat.sub_diag. rewrite firstn_all2, skipn_all2 by (rewrite le_length; lia).
    cbn [firstn skipn app]. rewrite app_nil_r, unle_le_small; auto.
  - intros n Hn. rewrite le_length in Hn. rewrite firstn_length, le_length, Nat.min_l by lia.
    destruct (Nat.leb_spec k n); [lia|auto].
Qed.

Lemma reads_bytes l : reads (rd_bytes (length l)) l l.
Proof.
  unfold rd_bytes. split.
  - intros rest. rewrite app_length. destruct (Nat.leb_spec (length l) (length l + length rest)); [|lia].
    rewrite firstn_app, skipn_app, Nat.sub_diag. rewrite firstn_all, skipn_all. cbn [firstn skipn app]. rewrite app_nil_r. auto.
  - intros n Hn. rewrite firstn_length, Nat.min_l by lia. destruct (Nat.leb_spec (length l) n); [lia|auto].
Qed.

Lemma reads_many {A} (rd : list N -> res (A * list N)) (xs : list A) (bs : list (list N)) :
  Forall2 (reads rd) bs xs -> reads (rd_many rd (length xs)) (concat bs) xs.
Proof.
  induction 1 as [|b x bs xs Hb Hr IH]; cbn [rd_many length concat]; [apply reads_ret|].
  apply reads_bind with (x := x); auto. cbn beta iota. apply reads_bind_ret with (x := xs); auto.
Qed.

Lemma reads_firstn_app {A} (rd : list N -> res (A * list N)) b x n : reads rd b x -> n < length b -> rd (firstn n b) = Err.
Proof. intros [_ H]; auto. Qed.

Lemma wr_many_ok {A} (wr : A -> res (list N)) l bs : Forall2 (fun x b => wr x = Ok b) l bs -> wr_many wr l = Ok (concat bs).
Proof. induction 1 as [|x b l bs E H IH]; cbn [wr_many concat]; auto. rewrite E. cbn [bindr]. rewrite IH. auto. Qed.

Lemma wr_many_map {A} (f : A -> list N) l : wr_many (fun x => Ok (f x)) l = Ok (concat (map f l)).
Proof. induction l as [|x l IH]; cbn [wr_many map concat bindr]; auto. rewrite IH. auto. Qed.

Lemma wr_many_err {A} (wr : A -> res (list N)) l : (forall x, wr x <> Panic) -> ((exists x, In x l /\ wr x = Err) <-> wr_many wr l = Err).
Proof.
  intros Hp. induction l as [|y l IH]; cbn [wr_many].
  - split; [intros (x & [] & _)|discriminate].
  - destruct (wr y) as [b| |] eqn:E; cbn [bindr].
    + assert (Hl : (exists x, In x (y :: l) /\ wr x = Err) <-> wr_many wr l = Err).
      { rewrite <- IH. split; intros (x & Hx & Ex). destruct Hx as [->|Hx]; [congruence|eauto]. exists x. cbn. auto. }
      rewrite Hl. destruct (wr_many wr l); cbn [bindr]; split; congruence.
    + split; auto. intros _. exists y. cbn. auto.
    + exfalso. apply (Hp y); auto.
Qed.

Lemma rd_many_length {A} (rd : list N -> res (A * list N)) n b xs r : rd_many rd n b = Ok (xs, r) -> length xs = n.
Proof.
  revert b xs r. induction n as [|n IH]; cbn [rd_many]; intros b xs r.
  - intros [= <- <-]. auto.
  - destruct (rd b) as [[x b1]| |]; cbn [bindr]; try discriminate. destruct (rd_many rd n b1) as [[ys b2]| |] eqn:E; cbn [bindr]; try discriminate.
    intros [= <- <-]. cbn. f_equal. eauto.
Qed.

Lemma rd_le_no_panic k b : rd_le k b <> Panic.
Proof. unfold rd_le. destruct (k <=? length b); discriminate. Qed.
Lemma rd_bytes_no_panic k b : rd_bytes k b <> Panic.
Proof. unfold rd_bytes. destruct (k <=? length b); discriminate. Qed.
Lemma rd_many_no_panic {A} (rd : list N -> res (A * list N)) n b : (forall b, rd b <> Panic) -> rd_many rd n b <> Panic.
Proof.
  intros H. revert b. induction n as [|n IH]; intros b; cbn [rd_many]; [discriminate|].
  destruct (rd b) as [[x b1]| |] eqn:E; cbn [bindr]; try discriminate; [|exfalso; eapply H; eauto].
  specialize (IH b1). destruct (rd_many rd n b1) as [[ys b2]| |]; cbn [bindr]; try discriminate. congruence.
Qed.
Lemma bindr_no_panic {A B} (a : res A) (f : A -> res B) : a <> Panic -> (forall x, f x <> Panic) -> bindr a f <> Panic.
Proof. destruct a; cbn [bindr]; auto; congruence. Qed.

(** ** Tuple sketches *)

Section T.
  Context {S : Type}.
  Variables (wr : S -> res (list N)) (rd : list N -> res (S * list N)).

  (** The bytes of a sketch whose summaries are written as [bs]. *)
  Definition tup_flags (s : @tsketch S) : N := (10 + (if ts_empty s then 4 else 0) + (if ts_ordered s then 16 else 0))%N.

  Definition tup_head (s : @tsketch S) : list N :=
    [tup_preamble_longs s; 3; 9; 1; 0; tup_flags s]%N ++ le 2 (ts_seed s) ++
    (if (1 <? tup_preamble_longs s)%N then le 4 (N.of_nat (length (ts_entries s))) ++ le 4 0 else []) ++
    (if testimation s then le 8 (ts_theta s) else []).

  Definition tup_rows (es : list (N * S)) (bs : list (list N)) : list N :=
    concat (map (fun p => le 8 (fst (fst p)) ++ snd p) (combine es bs)).

  Lemma tup_encode_ok s bs : Forall2 (fun e b => wr (snd e) = Ok b) (ts_entries s) bs ->
    tup_encode wr s = Ok (tup_head s ++ tup_rows (ts_entries s) bs).
  Proof.
    intros H. unfold tup_encode. rewrite (wr_many_ok _ _ (map (fun p => le 8 (fst (fst p)) ++ snd p) (combine (ts_entries s) bs))).
    2:{ clear - H. induction H as [|e b es bs E H IH]; cbn [combine map]; constructor; auto. unfold wr_entry. rewrite E. auto. }
    cbn [bindr]. f_equal. unfold tup_head, tup_rows, tup_flags, flag.
    assert (Hp : (tup_preamble_longs s < 256)%N) by (unfold tup_preamble_longs; destruct (testimation s); [|destruct (_ || _)]; reflexivity).
    replace (le 1 (tup_preamble_longs s)) with [tup_preamble_longs s] by (cbn [le]; rewrite N.mod_small; auto).
    destruct (ts_empty s), (ts_ordered s); cbn [app]; rewrite <- ?app_assoc; reflexivity.
  Qed.

  Lemma rows_read es bs : Forall2 (fun e b => reads rd b (snd e)) es bs -> (forall e, In e es -> (fst e < 2 ^ 64)%N) ->
    reads (rd_many (rd_entry rd) (length es)) (tup_rows es bs) es.
  Proof.
    intros H Hh. apply reads_many. clear - H Hh. induction H as [|[h x] b es bs E H IH]; cbn [combine map]; constructor.
    - cbn [fst snd] in *. unfold rd_entry. apply reads_bind with (x := h). { apply reads_le. apply (Hh (h, x)). cbn. auto. }
      cbn beta iota. apply reads_bind_ret with (x := x); auto.
    - apply IH. intros e He. apply Hh. cbn. auto.
  Qed.

  Definition tnorm (s : @tsketch S) : @tsketch S :=
    mkTSketch (ts_entries s) (ts_theta s) (ts_seed s) (ts_empty s) ((length (ts_entries s) <=? 1) || ts_ordered s).

  (** The version and type bytes may also be the legacy ones. *)
  Definition tup_head' (v t : N) (s : @tsketch S) : list N :=
    [tup_preamble_longs s; v; 9; t; 0; tup_flags s]%N ++ le 2 (ts_seed s) ++
    (if (1 <? tup_preamble_longs s)%N then le 4 (N.of_nat (length (ts_entries s))) ++ le 4 0 else []) ++
    (if testimation s then le 8 (ts_theta s) else []).

  Lemma tup_decode_reads want s bs v t : (v = 3 \/ v = 1)%N -> (t = 1 \/ t = 5)%N -> twf s -> (N.of_nat (length (ts_entries s)) < 2 ^ 32)%N -> (ts_seed s < 2 ^ 16)%N ->
    (ts_empty s = true \/ want = Some (ts_seed s)) -> Forall2 (fun e b => reads rd b (snd e)) (ts_entries s) bs ->
    reads (tup_decode want rd) (tup_head' v t s ++ tup_rows (ts_entries s) bs) (tnorm s).
  Proof.
    intros Hv Ht Hwf Hn Hs Hw Hbs. unfold tup_head'.
    assert (Hp : (tup_preamble_longs s < 256)%N) by (unfold tup_preamble_longs; destruct (testimation s); [|destruct (_ || _)]; reflexivity).
    assert (Hf : (tup_flags s < 256)%N) by (unfold tup_flags; destruct (ts_empty s), (ts_ordered s); reflexivity).
    assert (B1 : forall x, (x < 256)%N -> reads (rd_le 1) [x] x).
    { intros x Hx. replace [x] with (le 1 x) by (cbn [le]; rewrite N.mod_small; auto). apply reads_le. auto. }
    rewrite <- !app_assoc. cbn [app].
    change (?a :: ?b :: ?c :: ?d :: ?e :: ?f :: ?r) with ([a] ++ [b] ++ [c] ++ [d] ++ [e] ++ [f] ++ r).
    unfold tup_decode.
    eapply reads_bind; [apply B1; auto|]. cbn beta iota.
    eapply reads_bind; [apply (B1 v); lia|]. cbn beta iota.
    eapply reads_bind; [apply (B1 9%N); reflexivity|]. cbn beta iota.
    eapply reads_bind; [apply (B1 t); lia|]. cbn beta iota.
    eapply reads_bind; [apply (B1 0%N); reflexivity|]. cbn beta iota.
    eapply reads_bind; [apply B1; auto|]. cbn beta iota.
    eapply reads_bind; [apply reads_le; auto|]. cbn beta iota.
    assert (E1 : ((v =? TupleSerialVersion) || (v =? SerialVersionLegacy))%N = true) by (destruct Hv; subst; reflexivity). rewrite E1.
    assert (E2 : ((t =? TypeCompactTuple) || (t =? TypeCompactTupleLegacy))%N = true) by (destruct Ht; subst; reflexivity). rewrite E2.
    change (9 =? FamilyTuple)%N with true. cbn [negb].
    assert (E3 : N.testbit (tup_flags s) 2 = ts_empty s) by (unfold tup_flags; destruct (ts_empty s), (ts_ordered s); reflexivity). rewrite E3.
    assert (E4 : N.testbit (tup_flags s) 4 = ts_ordered s) by (unfold tup_flags; destruct (ts_empty s), (ts_ordered s); reflexivity). rewrite E4.
    assert (E5 : ts_empty s || match want with Some w => (ts_seed s =? w)%N | None => false end = true).
    { destruct Hw as [-> | ->]; auto. rewrite N.eqb_refl, orb_true_r. auto. }
    rewrite E5. cbn [negb].
    assert (Hth : (ts_theta s <= MaxTheta)%N) by (apply (wf_theta _ Hwf)).
    assert (HM : (MaxTheta < 2 ^ 64)%N) by reflexivity.
    assert (Hrows : reads (rd_many (rd_entry rd) (length (ts_entries s))) (tup_rows (ts_entries s) bs) (ts_entries s)).
    { apply rows_read; auto. intros e He. destruct (wf_range _ Hwf (fst e)) as [_ L]; [|cbn in L; lia].
      unfold erase_sk. cbn. apply in_map. auto. }
    assert (Hend : forall th n, N.to_nat n = length (ts_entries s) -> th = ts_theta s ->
      reads (fun b => let* (entries, b) := rd_many (rd_entry rd) (N.to_nat n) b in Ok (tcompact_entries (ts_empty s) (ts_ordered s) (ts_seed s) th entries, b))
            (tup_rows (ts_entries s) bs) (tnorm s)).
    { intros th n En Eth. rewrite En, Eth. apply reads_bind_ret with (x := ts_entries s); auto. }
    destruct (ts_empty s) eqn:Ee.
    - destruct (wf_empty _ Hwf Ee) as [He Hm]. cbn in He, Hm.
      assert (Hnil : ts_entries s = []) by (destruct (ts_entries s); auto; discriminate He).
      assert (Hpre : tup_preamble_longs s = 1%N). { unfold tup_preamble_longs, testimation. rewrite Ee, andb_false_r. auto. }
      assert (Hest : testimation s = false). { unfold testimation. rewrite Ee, andb_false_r. auto. }
      rewrite Hpre, Hest. change (1 <? 1)%N with false. cbn [app bindr]. apply Hend; auto. rewrite Hnil. auto.
    - unfold tup_preamble_longs. destruct (testimation s) eqn:Ees.
      + change (3 =? 1)%N with false. change (2 <? 3)%N with true. change (1 <? 3)%N with true. cbn [app bindr].
        rewrite (app_assoc (le 4 _ ++ le 4 0)). rewrite <- (app_nil_r ((le 4 _ ++ le 4 0) ++ le 8 (ts_theta s))), <- !app_assoc. rewrite app_assoc. rewrite (app_assoc _ (le 8 _)).
        rewrite (app_assoc _ []).
        apply reads_bind with (x := (N.of_nat (length (ts_entries s)), ts_theta s)).
        * rewrite <- !app_assoc. eapply reads_bind; [apply reads_le; auto|]. cbn beta iota. eapply reads_bind; [apply (reads_le 4 0); reflexivity|]. cbn beta iota.
          eapply reads_bind; [apply (reads_le 8); cbn; lia|]. cbn beta iota. apply reads_ret.
        * cbn beta iota. apply Hend; auto. rewrite Nat2N.id. auto.
      + assert (Hmax : MaxTheta = ts_theta s). { unfold testimation in Ees. rewrite Ee, andb_true_r in Ees. apply N.ltb_ge in Ees. lia. }
        rewrite Ee. cbn [orb]. destruct (Nat.eqb_spec (length (ts_entries s)) 1) as [E|E].
        * change (1 =? 1)%N with true. change (1 <? 1)%N with false. cbn [app bindr]. apply Hend; auto.
        * change (2 =? 1)%N with false. change (1 <? 2)%N with true. change (2 <? 2)%N with false. cbn [app bindr].
          rewrite <- (app_nil_r (le 4 _ ++ le 4 0)). rewrite <- !app_assoc. rewrite (app_assoc (le 4 0)), (app_assoc (le 4 _)). 
          apply reads_bind with (x := (N.of_nat (length (ts_entries s)), MaxTheta)).
          { eapply reads_bind; [apply reads_le; auto|]. cbn beta iota. eapply reads_bind; [apply (reads_le 4 0); reflexivity|]. cbn beta iota. apply reads_ret. }
          cbn beta iota. apply Hend; auto. rewrite Nat2N.id. auto.
  Qed.
End T.

(** ** Array-of-numbers sketches *)

Lemma reads_eq {A} (rd rd' : list N -> res (A * list N)) b x : (forall b, rd b = rd' b) -> reads rd b x -> reads rd' b x.
Proof. intros E [H T]. split; intros; rewrite <- E; auto. Qed.

Lemma Forall2_map_r {A B} (P : A -> B -> Prop) (f : B -> A) l : (forall x, In x l -> P (f x) x) -> Forall2 P (map f l) l.
Proof. induction l as [|x l IH]; cbn; intros H; constructor; auto. Qed.

Lemma reads_numbers w vs : (forall v, In v vs -> (v < 256 ^ N.of_nat w)%N) -> reads (rd_numbers w (N.of_nat (length vs))) (concat (map (le w) vs)) vs.
Proof.
  intros H. unfold rd_numbers. rewrite Nat2N.id. apply reads_many. apply Forall2_map_r. intros x Hx. apply reads_le; auto.
Qed.

Definition aon_flags (s : @tsketch (list N)) : N :=
  ((if ts_empty s then 4 else 0) + (if ts_ordered s then 16 else 0) + (if (0 <? length (ts_entries s))%nat then 8 else 0))%N.

Definition aon_image (w : nat) (a : aon) : list N :=
  let s := an_sketch a in
  [1; 1; 9; 3; aon_flags s]%N ++ le 1 (an_num_values a) ++ le 2 (ts_seed s) ++ le 8 (ts_theta s) ++
  (if 0 <? length (ts_entries s)
   then le 4 (N.of_nat (length (ts_entries s))) ++ le 4 0 ++ concat (map (fun e => le 8 (fst e)) (ts_entries s)) ++
        concat (map (fun e => concat (map (le w) (snd e))) (ts_entries s))
   else []).

Lemma aon_encode_eq w a : aon_encode w a = Ok (aon_image w a).
Proof.
  unfold aon_encode, aon_image, aon_flags, flag.
  rewrite (wr_many_ok _ _ (map (fun e => concat (map (le w) (snd e))) (ts_entries (an_sketch a)))).
  2:{ induction (ts_entries (an_sketch a)) as [|e l IH]; cbn [map]; constructor; auto. unfold wr_numbers. apply wr_many_map. }
  cbn [bindr]. f_equal. destruct (ts_empty (an_sketch a)), (ts_ordered (an_sketch a)), (0 <? length (ts_entries (an_sketch a))); reflexivity.
Qed.

Definition anorm (a : aon) : aon := mkAon (tnorm (an_sketch a)) (an_num_values a).

Record aon_wf (w : nat) (a : aon) : Prop := {
  aw_wf : twf (an_sketch a);
  aw_nv : (an_num_values a < 256)%N;
  aw_len : forall h vs, In (h, vs) (ts_entries (an_sketch a)) -> length vs = N.to_nat (an_num_values a);
  aw_val : forall h vs v, In (h, vs) (ts_entries (an_sketch a)) -> In v vs -> (v < 256 ^ N.of_nat w)%N;
}.

Lemma combine_fst_snd {A B} (l : list (A * B)) : combine (map fst l) (map snd l) = l.
Proof. induction l as [|[a b] l IH]; cbn; f_equal; auto. Qed.

Lemma aon_decode_reads w want a : aon_wf w a -> (N.of_nat (length (ts_entries (an_sketch a))) < 2 ^ 32)%N -> (ts_seed (an_sketch a) < 2 ^ 16)%N ->
  (ts_entries (an_sketch a) = [] \/ want = Some (ts_seed (an_sketch a))) -> reads (aon_decode w want) (aon_image w a) (anorm a).
Proof.
  intros [Hwf Hnv Hlen Hval] Hn Hs Hw. set (s := an_sketch a) in *. unfold aon_image. fold s.
  assert (Hf : (aon_flags s < 256)%N) by (unfold aon_flags; destruct (ts_empty s), (ts_ordered s), (0 <? length (ts_entries s)); reflexivity).
  assert (B1 : forall x, (x < 256)%N -> reads (rd_le 1) [x] x).
  { intros x Hx. replace [x] with (le 1 x) by (cbn [le]; rewrite N.mod_small; auto). apply reads_le. auto. }
  cbn [app]. change (?a :: ?b :: ?c :: ?d :: ?e :: ?r) with ([a] ++ [b] ++ [c] ++ [d] ++ [e] ++ r). unfold aon_decode.
  eapply reads_bind; [apply (B1 1%N); reflexivity|]. cbn beta iota.
  eapply reads_bind; [apply (B1 1%N); reflexivity|]. cbn beta iota.
  eapply reads_bind; [apply (B1 9%N); reflexivity|]. cbn beta iota.
  eapply reads_bind; [apply (B1 3%N); reflexivity|]. cbn beta iota.
  eapply reads_bind; [apply B1; auto|]. cbn beta iota.
  eapply reads_bind; [apply (reads_le 1); exact Hnv|]. cbn beta iota.
  eapply reads_bind; [apply (reads_le 2); exact Hs|]. cbn beta iota.
  change (1 =? AonSerialVersion)%N with true. change (9 =? FamilyTuple)%N with true. change (3 =? TypeArrayOfNumbers)%N with true. cbn [negb].
  assert (E2 : N.testbit (aon_flags s) 2 = ts_empty s) by (unfold aon_flags; destruct (ts_empty s), (ts_ordered s), (0 <? length (ts_entries s)); reflexivity).
  assert (E3 : N.testbit (aon_flags s) 3 = (0 <? length (ts_entries s))) by (unfold aon_flags; destruct (ts_empty s), (ts_ordered s), (0 <? length (ts_entries s)); reflexivity).
  assert (E4 : N.testbit (aon_flags s) 4 = ts_ordered s) by (unfold aon_flags; destruct (ts_empty s), (ts_ordered s), (0 <? length (ts_entries s)); reflexivity).
  rewrite E2, E3, E4.
  assert (E5 : negb (0 <? length (ts_entries s)) || match want with Some x => (ts_seed s =? x)%N | None => false end = true).
  { destruct Hw as [-> | ->]; auto. rewrite N.eqb_refl, orb_true_r. auto. }
  rewrite E5. cbn [negb].
  assert (Hth : (ts_theta s <= MaxTheta)%N) by (apply (wf_theta _ Hwf)).
  assert (HM : (MaxTheta < 2 ^ 64)%N) by reflexivity.
  eapply reads_bind; [apply (reads_le 8); cbn; lia|]. cbn beta iota.
  assert (Hend : forall b' : list N, Ok (mkAon (tcompact_entries (ts_empty s) (ts_ordered s) (ts_seed s) (ts_theta s) (ts_entries s)) (an_num_values a), b') = Ok (anorm a, b')).
  { reflexivity. }
  destruct (Nat.ltb_spec 0 (length (ts_entries s))) as [L|L].
  - apply reads_bind_ret with (x := ts_entries s); auto.
    eapply reads_bind; [apply (reads_le 4); auto|]. cbn beta iota. eapply reads_bind; [apply (reads_le 4 0); reflexivity|]. cbn beta iota. rewrite Nat2N.id.
    apply reads_bind with (x := map fst (ts_entries s)).
    + replace (length (ts_entries s)) with (length (map fst (ts_entries s))) by apply map_length. rewrite <- (map_map fst (le 8)).
      apply reads_many. apply Forall2_map_r. intros x Hx. apply reads_le. destruct (wf_range _ Hwf x) as [_ Lx]; [exact Hx|cbn in Lx |- *; lia].
    + cbn beta iota. apply reads_bind_ret with (x := map snd (ts_entries s)).
      * replace (length (ts_entries s)) with (length (map snd (ts_entries s))) by apply map_length.
        rewrite <- (map_map snd (fun vs => concat (map (le w) vs))). apply reads_many. apply Forall2_map_r. intros vs Hvs.
        apply in_map_iff in Hvs as ([h vs'] & <- & Hin). cbn [snd].
        apply (reads_eq (rd_numbers w (N.of_nat (length vs')))). { intros b. unfold rd_numbers. rewrite (Hlen h vs' Hin), Nat2N.id. auto. }
        apply reads_numbers. intros v Hv. eapply Hval; eauto.
      * intros b'. rewrite combine_fst_snd. auto.
  - cbn [bindr]. assert (Hnil : ts_entries s = []) by (destruct (ts_entries s); auto; cbn in L; lia). rewrite Hnil in Hend.
    split; [intros rest; apply Hend|cbn; lia].
Qed.

(** ** Strings *)

Lemma strings_codec vs : length vs <= 127 -> (forall v, In v vs -> (N.of_nat (length v) < 2 ^ 32)%N) ->
  exists b, wr_strings vs = Ok b /\ reads rd_strings b vs.
Proof.
  intros Hl Hv. unfold wr_strings, maxStringSliceLength. destruct (Nat.ltb_spec 127 (length vs)); [lia|].
  unfold wr_string. rewrite (wr_many_map (fun v => le 4 (N.of_nat (length v)) ++ v)). cbn [bindr]. eexists. split; [reflexivity|].
  unfold rd_strings. eapply reads_bind.
  { apply reads_le. unfold strings_total_bytes. clear.
    set (x := N.of_nat _). assert (Hx : (x mod 2 ^ 32 < 256 ^ N.of_nat 4)%N) by (apply N.mod_lt; discriminate). revert Hx. generalize (x mod 2 ^ 32)%N.
    clear x. induction vs as [|v vs IH]; cbn [fold_left]; auto. intros t Ht. apply IH. apply N.mod_lt. discriminate. }
  cbn beta iota. eapply reads_bind. { apply (reads_le 1). change (256 ^ N.of_nat 1)%N with 256%N. lia. }
  cbn beta iota. destruct (N.ltb_spec (N.of_nat maxStringSliceLength) (N.of_nat (length vs))) as [L|L].
  { unfold maxStringSliceLength in L. lia. }
  rewrite Nat2N.id. apply reads_many. apply Forall2_map_r. intros v Hin. unfold rd_string.
  eapply reads_bind; [apply (reads_le 4); apply (Hv v Hin)|]. cbn beta iota. rewrite Nat2N.id. apply reads_bytes.
Qed.
