(** * The decoding tables invert the encoding tables. *)
From Verif Require Import Base Bytes Arr BitPackModel BitPackProofs CpcTable CpcTableProofs CpcModel CpcProofs CpcTables CpcCodeModel CpcCode.
Local Open Scope nat_scope.

Definition code_of (e : N) : N := N.land e 4095.
Definition len_of (e : N) : nat := N.to_nat (N.shiftr e 12).
(** The 12-bit pattern [p] begins with the code word of [e]. *)
Definition begins (p : N) (e : N) : Prop := (p mod p2 (len_of e) = code_of e)%N.

Definition entry_ok (e : N) : bool := (1 <=? len_of e) && (len_of e <=? 12) && (code_of e <? p2 (len_of e))%N.
Definition clash (e f : N) : bool :=
  let l := p2 (Nat.min (len_of e) (len_of f)) in (code_of e mod l =? code_of f mod l)%N.
Fixpoint prefix_free (l : list N) : bool :=
  match l with [] => true | e :: r => forallb (fun f => negb (clash e f)) r && prefix_free r end.
Definition good_code (n : nat) (enc : list N) : bool :=
  (length enc =? n) && forallb entry_ok enc && prefix_free enc.

Lemma unary_good : good_code 65 unary_enc = true. Proof. vm_compute. reflexivity. Qed.
Lemma byte_good : forallb (good_code 256) byte_encs = true. Proof. vm_compute. reflexivity. Qed.
Lemma byte_encs_length : length byte_encs = 22. Proof. reflexivity. Qed.
Lemma byte_enc_good phase : phase < 22 -> exists enc, nth_error byte_encs phase = Some enc /\ good_code 256 enc = true.
Proof.
  intros H. destruct (nth_error byte_encs phase) as [enc|] eqn:E; [|apply nth_error_None in E; rewrite byte_encs_length in E; lia].
  exists enc. split; auto. pose proof byte_good as G. rewrite forallb_forall in G. apply G. eapply nth_error_In; eauto.
Qed.

Lemma begins_clash p e f : begins p e -> begins p f -> clash e f = true.
Proof.
  unfold begins, clash. intros <- <-. apply N.eqb_eq. rewrite !mod_mod_p2 by lia. auto.
Qed.
Lemma prefix_free_nth l : prefix_free l = true -> forall i j e f, i <> j -> nth_error l i = Some e -> nth_error l j = Some f -> clash e f = false.
Proof.
  induction l as [|x l IH]; cbn [prefix_free]; [intros _ [|i] j e f _ H; discriminate|].
  intros H. apply andb_prop in H. destruct H as [H1 H2]. rewrite forallb_forall in H1.
  assert (Sym : forall a b, clash a b = clash b a).
  { intros a b. unfold clash. rewrite Nat.min_comm. apply N.eqb_sym. }
  intros [|i] [|j] e f Hne Hi Hj; cbn [nth_error] in *; try lia.
  - injection Hi as ->. apply nth_error_In in Hj. apply H1 in Hj. apply negb_true_iff in Hj. auto.
  - injection Hj as ->. apply nth_error_In in Hi. apply H1 in Hi. apply negb_true_iff in Hi. rewrite Sym. auto.
  - eapply (IH H2 i j); eauto.
Qed.

Section Fill.
Variables (code : N) (l : nat) (entry : N).
Hypothesis (Hl : l <= 12) (Hcode : (code < p2 l)%N).

Lemma fill_copies_ok n : forall g tbl, g + n <= 2 ^ (12 - l) -> length tbl = 2 ^ 12 ->
  exists tbl', fill_copies n g code (N.of_nat l) entry tbl = Ok tbl' /\ length tbl' = 2 ^ 12 /\
    forall p, p < 2 ^ 12 -> nth_error tbl' p =
      if (N.of_nat p mod p2 l =? code)%N && (N.of_nat g <=? N.of_nat p / p2 l)%N && (N.of_nat p / p2 l <? N.of_nat (g + n))%N
      then Some entry else nth_error tbl p.
Proof.
  induction n as [|n IH]; intros g tbl Hg Ht; cbn [fill_copies].
  - exists tbl. repeat split; auto. intros p Hp. rewrite Nat.add_0_r.
    destruct (N.leb_spec (N.of_nat g) (N.of_nat p / p2 l)), (N.ltb_spec (N.of_nat p / p2 l) (N.of_nat g)); rewrite ?andb_false_r; auto; lia.
  - rewrite lor_add by auto. rewrite land12.
    assert (Hext : (code + p2 l * N.of_nat g < p2 12)%N).
    { replace 12 with (l + (12 - l)) by lia. apply add_p2_lt; auto. unfold p2. rewrite <- pow_N. lia. }
    rewrite N.mod_small by auto. set (q := N.to_nat (code + p2 l * N.of_nat g)).
    assert (Hq : q < 2 ^ 12). { unfold q. assert (p2 12 = N.of_nat (2 ^ 12)) as E by reflexivity. lia. }
    rewrite wr_ok by lia. cbn [of_opt bindr].
    destruct (IH (S g) (upd q entry tbl)) as (tbl' & E & L & Nth); [lia|rewrite upd_length; auto|].
    exists tbl'. split; [auto|]. split; auto. intros p Hp. rewrite Nth by auto. clear Nth IH E.
    rewrite nth_error_upd. assert (Qv : N.of_nat q = (code + p2 l * N.of_nat g)%N) by (unfold q; lia).
    replace (S g + n) with (g + S n) by lia.
    destruct (Nat.eqb_spec q p) as [->|Hne].
    + rewrite Qv, add_p2_mod, add_p2_div by auto. rewrite N.eqb_refl. cbn [andb].
      replace (N.of_nat g <=? N.of_nat g)%N with true by lia. replace (N.of_nat g <? N.of_nat (g + S n))%N with true by lia. cbn [andb].
      destruct (Nat.ltb_spec p (length tbl)); [|lia]. destruct ((N.of_nat (S g) <=? N.of_nat g)%N); auto.
    + destruct (N.eqb_spec (N.of_nat p mod p2 l) code) as [Em|]; auto. cbn [andb].
      assert (N.of_nat p / p2 l <> N.of_nat g)%N.
      { intros Ed. apply Hne. pose proof (N.div_mod (N.of_nat p) (p2 l) (p2_nz l)) as D. rewrite Em, Ed in D. lia. }
      destruct (N.leb_spec (N.of_nat (S g)) (N.of_nat p / p2 l)), (N.leb_spec (N.of_nat g) (N.of_nat p / p2 l)); auto; lia.
Qed.
End Fill.

Definition dec_entry (e : N) (s : nat) : N := N.lor (N.shiftl (N.shiftr e 12) 8) (N.of_nat s).

Lemma fill_table_ok enc : forallb entry_ok enc = true -> forall n v tbl, v + n <= length enc -> length tbl = 2 ^ 12 ->
  exists tbl', fill_table n v enc tbl = Ok tbl' /\ length tbl' = 2 ^ 12 /\
    forall p, p < 2 ^ 12 ->
      ((forall s e, v <= s < v + n -> nth_error enc s = Some e -> ~ begins (N.of_nat p) e) -> nth_error tbl' p = nth_error tbl p) /\
      (forall s e, v <= s < v + n -> nth_error enc s = Some e -> begins (N.of_nat p) e ->
         (forall s' e', s' <> s -> nth_error enc s' = Some e' -> ~ begins (N.of_nat p) e') -> nth_error tbl' p = Some (dec_entry e s)).
Proof.
  intros Hok. rewrite forallb_forall in Hok. induction n as [|n IH]; intros v tbl Hv Ht; cbn [fill_table].
  - exists tbl. repeat split; auto. intros; lia.
  - destruct (nth_error enc v) as [e|] eqn:E; [|apply nth_error_None in E; lia]. cbn [of_opt bindr].
    assert (Ho := Hok e (nth_error_In _ _ E)). unfold entry_ok in Ho. rewrite !andb_true_iff in Ho. destruct Ho as [[H1 H2] H3].
    fold (code_of e). assert (N.shiftr e 12 = N.of_nat (len_of e)) as El by (unfold len_of; lia).
    fold (dec_entry e v). rewrite El. destruct (N.ltb_spec 12 (N.of_nat (len_of e))); [lia|]. rewrite Nat2N.id.
    destruct (fill_copies_ok (code_of e) (len_of e) (dec_entry e v) ltac:(lia) ltac:(lia) (2 ^ (12 - len_of e)) 0 tbl) as (t1 & E1 & L1 & N1); auto.
    rewrite E1. cbn [bindr]. destruct (IH (S v) t1) as (t2 & E2 & L2 & N2); auto; [lia|]. exists t2. split; auto. split; auto.
    assert (Nv : forall p, p < 2 ^ 12 -> (begins (N.of_nat p) e -> nth_error t1 p = Some (dec_entry e v)) /\ (~ begins (N.of_nat p) e -> nth_error t1 p = nth_error tbl p)).
    { intros p Hp. rewrite N1 by auto. unfold begins. 
      assert (N.of_nat p / p2 (len_of e) < N.of_nat (0 + 2 ^ (12 - len_of e)))%N.
      { apply N.div_lt_upper_bound; [apply p2_nz|]. cbn [plus]. rewrite pow_N. fold (p2 (12 - len_of e)). rewrite <- p2_add.
        replace (len_of e + (12 - len_of e)) with 12 by lia. assert (p2 12 = N.of_nat (2 ^ 12)) as -> by reflexivity. lia. }
      split; intros B.
      - rewrite B, N.eqb_refl. cbn [andb]. replace (N.of_nat 0 <=? N.of_nat p / p2 (len_of e))%N with true by (symmetry; apply N.leb_le, N.le_0_l).
        replace (N.of_nat p / p2 (len_of e) <? N.of_nat (0 + 2 ^ (12 - len_of e)))%N with true by (symmetry; apply N.ltb_lt; auto). auto.
      - apply N.eqb_neq in B. rewrite B. auto. }
    intros p Hp. destruct (N2 p Hp) as [NA NB]. destruct (Nv p Hp) as [VA VB]. split.
    + intros H'. rewrite NA. { apply VB. apply (H' v e); auto. lia. } intros s f Hs Hf. apply (H' s f); auto. lia.
    + intros s f Hs Hf Hb Huniq. destruct (Nat.eq_dec s v) as [->|Hne].
      * assert (f = e) by congruence. subst f. rewrite NA; [apply VA; auto|]. intros s' f' Hs' Hf'. apply (Huniq s' f'); auto. lia.
      * apply NB; auto. lia.
Qed.

Lemma decoding_table_ok n enc : good_code n enc = true -> exists dec, make_decoding_table enc n = Ok dec /\
  forall s e p, nth_error enc s = Some e -> (p < p2 12)%N -> begins p e -> nth_error dec (N.to_nat p) = Some (dec_entry e s).
Proof.
  unfold good_code. rewrite !andb_true_iff. intros [[Hn Hok] Hpf]. apply Nat.eqb_eq in Hn.
  unfold make_decoding_table. destruct (fill_table_ok enc Hok n 0 (repeat 0%N (2 ^ 12))) as (dec & E & L & Nd).
  { lia. } { apply repeat_length. }
  exists dec. split; auto. intros s e p Hs Hp Hb. assert (p2 12 = N.of_nat (2 ^ 12)) as E12 by reflexivity.
  destruct (Nd (N.to_nat p)) as [_ NB]; [lia|]. rewrite N2Nat.id in NB. apply NB; auto.
  - assert (s < length enc) by (apply nth_error_Some; congruence). lia.
  - intros s' e' Hne Hs' Hb'. pose proof (prefix_free_nth enc Hpf s' s e' e Hne Hs' Hs). pose proof (begins_clash p e' e Hb' Hb). congruence.
Qed.

Lemma dec_entry_len e s : (N.of_nat s < 256)%N -> N.to_nat (N.shiftr (dec_entry e s) 8) = len_of e.
Proof.
  intros H. unfold dec_entry, len_of. f_equal. rewrite N.lor_comm. change 8%N with (N.of_nat 8). rewrite lor_add by auto. rewrite shiftr_p2.
  apply add_p2_div. auto.
Qed.
Lemma dec_entry_sym e s : (N.of_nat s < 256)%N -> N.land (dec_entry e s) 255 = N.of_nat s.
Proof.
  intros H. unfold dec_entry. rewrite N.lor_comm. change (N.shiftl (N.shiftr e 12) 8) with (N.shiftl (N.shiftr e 12) (N.of_nat 8)).
  rewrite lor_add by auto. change 255%N with (p2 8 - 1)%N. rewrite land_p2. apply add_p2_mod. auto.
Qed.

Lemma good_entry n enc s e : good_code n enc = true -> nth_error enc s = Some e -> 1 <= len_of e <= 12 /\ (code_of e < p2 (len_of e))%N.
Proof.
  unfold good_code. rewrite !andb_true_iff. intros [[_ H] _] Hs. rewrite forallb_forall in H. apply nth_error_In in Hs.
  apply H in Hs. unfold entry_ok in Hs. rewrite !andb_true_iff in Hs. lia.
Qed.
Lemma good_get n enc s : good_code n enc = true -> s < n -> exists e, nth_error enc s = Some e.
Proof.
  unfold good_code. rewrite !andb_true_iff. intros [[H _] _] Hs. apply Nat.eqb_eq in H.
  destruct (nth_error enc s) eqn:E; eauto. apply nth_error_None in E. lia.
Qed.

(** One symbol is read back: the decoded entry and the position after its code word. *)
Lemma decode_symbol n enc dec words r P s e rest : good_code n enc = true -> n <= 256 -> make_decoding_table enc n = Ok dec ->
  w32 words -> rrel words r P -> nth_error enc s = Some e -> (wval words / p2 P = code_of e + p2 (len_of e) * rest)%N ->
  P + 12 <= 32 * length words ->
  exists r1, refill words 12 r = Ok r1 /\ nth_error dec (N.to_nat (N.land (r_buf r1) 4095)) = Some (dec_entry e s) /\
    rrel words (drop (len_of e) r1) (P + len_of e) /\ (N.of_nat s < 256)%N /\ (wval words / p2 (P + len_of e) = rest)%N.
Proof.
  intros G Hn Hd H32 R Hs HV Hl. destruct (good_entry n enc s e G Hs) as [B1 B2].
  destruct (refill_rel words r P 12 H32 R) as (r1 & E1 & R1 & Bt); [lia|lia|]. exists r1. split; auto.
  assert (Hsn : s < n). { unfold good_code in G. rewrite !andb_true_iff in G. destruct G as [[G _] _]. apply Nat.eqb_eq in G.
    rewrite <- G. apply nth_error_Some. congruence. }
  split; [|split; [apply drop_rel; auto; lia|split; [lia|rewrite div_p2, HV; apply add_p2_div; auto]]].
  destruct (decoding_table_ok n enc G) as (dec' & Ed & Nd). assert (dec' = dec) by congruence. subst dec'.
  change 4095%N with (p2 12 - 1)%N. rewrite (peek_rel words r1 P 12 R1 Bt). apply Nd; auto.
  - apply N.mod_lt, p2_nz.
  - unfold begins. rewrite mod_mod_p2 by lia. rewrite HV. apply add_p2_mod; auto.
Qed.
