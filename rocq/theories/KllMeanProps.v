(** * The property C66: over the coin flips of a KLL sketch, the weight of the retained items that satisfy any predicate, and so
    every rank it answers, is on average exactly the number of such items in the stream. *)
From Coq Require Import Sorting.Sorted.
From Verif Require Import Base Bytes Arr SearchModel SearchProps KllModel KllProofs KllSem KllMeanProofs.
From Verif Require KllProps.
Local Open Scope nat_scope.

(** ** Specification *)
(** Histories: creation, updates, merges with a sketch that has a history of its own, resets. *)
Inductive hist (C : Type) :=
| New (k0 : N) (m0 : nat)
| Put (h : hist C) (x : C)
| Join (h o : hist C)
| Clear (h : hist C).
Arguments New {C}. Arguments Put {C}. Arguments Join {C}. Arguments Clear {C}.
(** The parameters the constructors allow. *)
Fixpoint sane {C} (h : hist C) : Prop :=
  match h with New k0 m0 => (8 <= k0 <= 65535)%N /\ 2 <= m0 /\ (N.of_nat m0 <= k0)%N | Put h _ => sane h | Join h o => sane h /\ sane o | Clear h => sane h end.
(** The number of updates, including those later cleared. *)
Fixpoint puts {C} (h : hist C) : N :=
  match h with New _ _ => 0 | Put h _ => puts h + 1 | Join h o => puts h + puts o | Clear h => puts h end%N.
(** The stream a sketch stands for. *)
Fixpoint stream {C} (h : hist C) : list C :=
  match h with New _ _ => [] | Put h x => x :: stream h | Join h o => stream h ++ stream o | Clear _ => [] end.
(** The number of stream items that satisfy [p]. *)
Definition count {C} (p : C -> bool) (xs : list C) : Z := Z.of_nat (length (filter p xs)).
(** All outcomes of [F] coin flips, and the coin that comes up with such an outcome. *)
Fixpoint outcomes (F : nat) : list (list bool) :=
  match F with O => [[]] | S F => map (cons false) (outcomes F) ++ map (cons true) (outcomes F) end.
Definition coin_of (v : list bool) (i : nat) : bool := nth i v false.
Definition total {X} (f : X -> Z) (l : list X) : Z := fold_right (fun x t => f x + t)%Z 0%Z l.

Section Run.
Context {C : Type}.
Variables less ceq : C -> C -> bool.
Variable zero : C.
Variable sort : list C -> list C.
(** Run a history; the second component logs the compactions so far, the coin is flipped once for each, and its [i]-th flip is
    [coin i]. *)
Fixpoint run (coin : nat -> bool) (h : hist C) (log : list nat) : option (kll * list nat) :=
  match h with
  | New k0 m0 => do s <- kll_new zero k0 m0; Some (s, log)
  | Put h x => do (s, log) <- run coin h log; kll_update less zero sort coin s log x
  | Join h o => do (s, log) <- run coin h log; do (t, log) <- run coin o log; kll_merge less zero sort coin s t log
  | Clear h => do (s, log) <- run coin h log; Some (kll_reset zero s, log)
  end.
(** The total weight of the retained items that satisfy [p], and the weight a rank query counts, at the end of a run. *)
Definition weight (p : C -> bool) (l : list (C * N)) : N := fold_right (fun a t => (if p (fst a) then snd a else 0) + t)%N 0%N l.
Definition retained (p : C -> bool) (coin : nat -> bool) (h : hist C) : option N :=
  do (s, _) <- run coin h []; do l <- iterate zero s; Some (weight p l).
Definition rank (x : C) (inclusive : bool) (coin : nat -> bool) (h : hist C) : option N :=
  do (s, _) <- run coin h []; do v <- sorted_view less ceq zero sort s; get_rank less ceq v x inclusive.
Definition value (o : option N) : Z := match o with Some w => Z.of_N w | None => 0%Z end.
(** The items a rank query counts: those at most [x], or those below [x]. *)
Definition below (x : C) (inclusive : bool) (y : C) : bool := if inclusive then negb (less x y) else less y x.
End Run.

Lemma total_app {X} (f : X -> Z) A B : total f (A ++ B) = (total f A + total f B)%Z.
Proof. unfold total. induction A as [|a A IH]; cbn [app fold_right]; [lia|]. rewrite IH. lia. Qed.
Lemma total_map {X Y} (f : Y -> Z) (g : X -> Y) l : total f (map g l) = total (fun x => f (g x)) l.
Proof. unfold total. induction l as [|a l IH]; cbn [map fold_right]; congruence. Qed.
Lemma total_sumv F : forall h, total h (outcomes F) = sumv F h.
Proof. induction F as [|F IH]; intros h; cbn [outcomes sumv]; [unfold total; cbn [fold_right]; lia|]. rewrite total_app, !total_map, !IH. reflexivity. Qed.

Section Props.
Context {C : Type}.
Variables less ceq : C -> C -> bool.
Variable zero : C.
Variable sort : list C -> list C.
Hypothesis sort_perm : forall l, Permutation l (sort l).
Hypothesis sort_sorted : forall l, StronglySorted (fun a b => less b a = false) (sort l).
Notation run := (run less zero sort).
Notation fam := (@fam C).

(** The state after a history, whatever the coin: same shape, same log; the levels are a function of the coin. *)
Record ends (h : hist C) (log : list nat) (log' : list nat) (k0 : N) (m0 : nat) (T : nat) (Lf : (nat -> bool) -> list (list C)) (N0 : N) : Prop := mkEnds {
  e_run : forall c, exists s, run c h log = Some (s, log') /\ Inv s T (Lf c) /\ k s = k0 /\ m s = m0 /\ n s = N0 /\ (strict_total less ceq -> LvS less (Lf c));
  e_fam : fam (length log') Lf; e_log : length log <= length log';
  e_n : N0 = N.of_nat (length (stream h)); e_puts : (N0 <= puts h)%N;
  e_k : (8 <= k0 <= 65535)%N; e_m : 2 <= m0 /\ (N.of_nat m0 <= k0)%N;
  e_mean : forall p F, length log' <= F -> mean F p Lf = (2 ^ Z.of_nat F * count p (stream h))%Z }.

Lemma fam_const f L : fam f (fun _ => L).
Proof. constructor; intros c c'; auto. Qed.
Lemma mean_empty F p : mean F p (fun _ => [@nil C]) = 0%Z.
Proof. unfold mean. rewrite sumv_const. cbn [R]. rewrite cnt_nil. lia. Qed.

Lemma fresh_inv k0 m0 mk : (8 <= k0 <= 65535)%N -> 2 <= m0 -> (N.of_nat m0 <= k0)%N ->
  Inv (mkKll k0 m0 mk 1 false 0 [N.to_nat k0; N.to_nat k0] (repeat zero (N.to_nat k0)) zero zero false) (N.to_nat k0) [[]].
Proof.
  intros Hk Hm Hmk. constructor; try (cbn [n k m l0_sorted]; auto; fail).
  - exists (repeat zero (N.to_nat k0)). cbn [items levels num_levels concat pb length app]. rewrite app_nil_r, repeat_length, csum_cons, csum_nil. cbn [length]. rewrite !Nat.add_0_r. auto.
  - cbn [k m]. split; [discriminate|]. split; auto. cbn [length]. apply (KllProps.cap_one less ceq zero sort sort_perm sort_sorted); auto.
  - left. auto.
Qed.

Lemma run_ends h : sane h -> (puts h < 2 ^ 60)%N -> forall log, exists log' k0 m0 T Lf N0, ends h log log' k0 m0 T Lf N0.
Proof.
  induction h as [k0 m0|h IH x|h IH o IHo|h IH]; cbn [sane puts]; intros HS HP log.
  - destruct HS as (Hk & Hm & Hmk). exists log, k0, m0, (N.to_nat k0), (fun _ => [[]]), 0%N. constructor; auto; [|apply fam_const| |].
    + intros c. cbn [KllMeanProps.run]. unfold kll_new. destruct (N.ltb_spec k0 8) as [|_]; [lia|]. destruct (N.ltb_spec 65535 k0) as [|_]; [lia|]. cbn [orb bindo].
      eexists. split; [reflexivity|]. split; [apply fresh_inv; auto|]. cbn [k m n]. do 3 (split; auto). intros _. constructor.
    + cbn [puts]. lia.
    + intros p F _. rewrite mean_empty. unfold count. cbn [stream filter length]. lia.
  - destruct (IH HS ltac:(lia) log) as (log1 & k0 & m0 & T & Lf & N0 & E). set (c0 := fun _ : nat => false).
    destruct (e_run _ _ _ _ _ _ _ _ E c0) as (s0 & R0 & I0 & K0 & M0 & n0 & _). pose proof (e_puts _ _ _ _ _ _ _ _ E) as HPu.
    destruct (update_full less ceq zero sort c0 sort_perm s0 T (Lf c0) log1 x I0 ltac:(lia)) as (T' & L0' & cs & lv & it & HU & _ & _ & HL). cbn zeta in HU. rewrite K0, M0 in HL.
    destruct (update_fam less ceq zero sort sort_perm sort_sorted k0 m0 T log1 Lf (fun _ => x) c0 T' L0' (cs ++ log1) (e_fam _ _ _ _ _ _ _ _ E) ltac:(intros c c' _; auto) HL) as (Lf' & A1 & A2 & A3 & A4).
    exists (cs ++ log1), k0, m0, T', Lf', (N0 + 1)%N. pose proof (e_log _ _ _ _ _ _ _ _ E) as HLg. constructor; [|exact A2|lia| | |apply E|apply E|].
    + intros c. destruct (e_run _ _ _ _ _ _ _ _ E c) as (s & Rs & Is & Ks & Ms & Ns & Ss). cbn [KllMeanProps.run]. rewrite Rs. cbn [bindo].
      destruct (update_full less ceq zero sort c sort_perm s T (Lf c) log1 x Is ltac:(lia)) as (T2 & L2 & cs2 & lv2 & it2 & HU2 & I2 & G2 & HL2). cbn zeta in *.
      rewrite Ks, Ms, A1 in HL2. injection HL2 as <- <- Ec. rewrite HU2, <- Ec. eexists. split; [reflexivity|]. split; [exact I2|]. cbn [k m n]. do 2 (split; auto). split; [lia|].
      intros Ho. eapply grows_sorted; eauto.
    + cbn [stream length]. rewrite (e_n _ _ _ _ _ _ _ _ E). lia.
    + cbn [puts]. lia.
    + intros p F HF. rewrite (A4 p F HF), (e_mean _ _ _ _ _ _ _ _ E) by lia. rewrite sumv_const. unfold count, add1. cbn [stream filter]. destruct (p x); cbn [length]; lia.
  - destruct HS as (HS & HSo). destruct (IH HS ltac:(lia) log) as (log1 & k0 & m0 & T & Lf & N0 & E). destruct (IHo HSo ltac:(lia) log1) as (log2 & ko & mo & To & Of & No & Eo).
    set (c0 := fun _ : nat => false).
    destruct (e_run _ _ _ _ _ _ _ _ E c0) as (s0 & R0 & I0 & K0 & M0 & n0 & _). pose proof (e_puts _ _ _ _ _ _ _ _ E) as HPu.
    destruct (e_run _ _ _ _ _ _ _ _ Eo c0) as (o0 & Ro0 & Io0 & Ko0 & Mo0 & no0 & _). pose proof (e_puts _ _ _ _ _ _ _ _ Eo) as HPo.
    pose proof (e_log _ _ _ _ _ _ _ _ E) as HLg. pose proof (e_log _ _ _ _ _ _ _ _ Eo) as HLo.
    pose proof (fam_le less ceq zero sort sort_perm sort_sorted _ _ _ HLo (e_fam _ _ _ _ _ _ _ _ E)) as HF2. pose proof (e_fam _ _ _ _ _ _ _ _ Eo) as HFo.
    destruct (N.eq_dec No 0) as [E0|E0].
    + assert (ESo : stream o = []). { rewrite (e_n _ _ _ _ _ _ _ _ Eo) in E0. destruct (stream o); auto. cbn [length] in E0. lia. }
      exists log2, k0, m0, T, Lf, N0. constructor; [|exact HF2|lia| | |apply E|apply E|].
      * intros c. destruct (e_run _ _ _ _ _ _ _ _ E c) as (s & Rs & Is & Ks & Ms & Ns & Ss). destruct (e_run _ _ _ _ _ _ _ _ Eo c) as (t & Rt & _ & _ & _ & Nt & _).
        cbn [KllMeanProps.run]. rewrite Rs. cbn [bindo]. rewrite Rt. cbn [bindo]. unfold kll_merge, is_empty. rewrite Nt, E0. cbn [N.eqb]. exists s. split; [auto|]. split; [exact Is|]. auto.
      * cbn [stream]. rewrite ESo, app_nil_r. apply E.
      * cbn [puts]. lia.
      * intros p F HF. cbn [stream]. rewrite ESo, app_nil_r. apply E. lia.
    + destruct (merge_full less ceq zero sort c0 sort_perm s0 T (Lf c0) o0 To (Of c0) log2 I0 Io0 ltac:(lia) ltac:(lia)) as (s1 & T' & L0' & cs & cs1 & _ & _ & _ & HL & _).
      rewrite K0, M0, n0, no0 in HL.
      assert (HOn : forall c, Of c <> []). { intros c. destruct (e_run _ _ _ _ _ _ _ _ Eo c) as (t & _ & It & _). apply (i_fit _ _ _ It). }
      destruct (merge_fam less ceq zero sort sort_perm sort_sorted k0 m0 T log2 Lf Of (N0 + No) c0 T' L0' (cs ++ cs1 ++ log2) HF2 HFo HOn HL) as (Lf' & A1 & A2 & A3 & A4).
      exists (cs ++ cs1 ++ log2), k0, m0, T', Lf', (N0 + No)%N. constructor; [|exact A2|lia| | |apply E|apply E|].
      * intros c. destruct (e_run _ _ _ _ _ _ _ _ E c) as (s & Rs & Is & Ks & Ms & Ns & Ss). destruct (e_run _ _ _ _ _ _ _ _ Eo c) as (t & Rt & It & Kt & Mt & Nt & St).
        cbn [KllMeanProps.run]. rewrite Rs. cbn [bindo]. rewrite Rt. cbn [bindo].
        destruct (merge_full less ceq zero sort c sort_perm s T (Lf c) t To (Of c) log2 Is It ltac:(lia) ltac:(lia)) as (u & T2 & L2 & c2 & c21 & Ls1 & HM & I2 & HL2 & G1 & G2 & Ku & Mu & Nu & _).
        rewrite Ks, Ms, Ns, Nt, A1 in HL2. injection HL2 as <- <- Ec. rewrite HM, <- Ec. exists u. split; [reflexivity|]. split; [exact I2|]. do 2 (split; [congruence|]). split; [lia|].
        intros Ho. eapply grows_sorted; [exact Ho|exact sort_sorted|exact G2|]. unfold LvS. cbn [tl]. apply (zipm_sorted less ceq Ho).
        -- eapply grows_sorted in G1; eauto.
        -- apply St. auto.
      * cbn [stream]. rewrite app_length, (e_n _ _ _ _ _ _ _ _ E), (e_n _ _ _ _ _ _ _ _ Eo). lia.
      * cbn [puts]. lia.
      * intros p F HF. rewrite (A4 p F HF), (e_mean _ _ _ _ _ _ _ _ E), (e_mean _ _ _ _ _ _ _ _ Eo) by lia. unfold count. cbn [stream]. rewrite filter_app, app_length. lia.
  - destruct (IH HS HP log) as (log1 & k0 & m0 & T & Lf & N0 & E). pose proof (e_k _ _ _ _ _ _ _ _ E) as Hk. pose proof (e_m _ _ _ _ _ _ _ _ E) as (Hm & Hmk).
    exists log1, k0, m0, (N.to_nat k0), (fun _ => [[]]), 0%N. constructor; auto; [|apply fam_const|apply E| |].
    + intros c. destruct (e_run _ _ _ _ _ _ _ _ E c) as (s & Rs & Is & Ks & Ms & Ns & Ss). cbn [KllMeanProps.run]. rewrite Rs. cbn [bindo]. unfold kll_reset. rewrite Ks, Ms.
      eexists. split; [reflexivity|]. split; [apply fresh_inv; auto|]. cbn [k m n]. do 3 (split; auto). intros _. constructor.
    + lia.
    + intros p F _. rewrite mean_empty. unfold count. cbn [stream filter length]. lia.
Qed.

(** The number of coin flips and the levels compacted do not depend on the outcomes of the flips; nothing panics; and over all
    equally likely outcomes of the [F] flips, the weight of the retained items that satisfy [p] is on average the number of
    stream items that satisfy [p]. *)
Theorem kll_weights_unbiased : forall h, sane h -> (puts h < 2 ^ 60)%N -> exists log,
  (forall coin, exists s, run coin h [] = Some (s, log)) /\
  (forall p coin, exists w, retained less zero sort p coin h = Some w) /\
  forall p, total (fun v => value (retained less zero sort p (coin_of v) h)) (outcomes (length log)) = (2 ^ Z.of_nat (length log) * count p (stream h))%Z.
Proof.
  intros h HS HP. destruct (run_ends h HS HP []) as (log & k0 & m0 & T & Lf & N0 & E). exists log.
  assert (HR : forall p c, retained less zero sort p c h = Some (wsum p (wl 1 (Lf c)))).
  { intros p c. unfold retained. destruct (e_run _ _ _ _ _ _ _ _ E c) as (s & Rs & Is & _). rewrite Rs. cbn [bindo]. rewrite (iterate_ok less ceq zero sort sort_perm sort_sorted s T (Lf c) Is). reflexivity. }
  split; [intros c; destruct (e_run _ _ _ _ _ _ _ _ E c) as (s & Rs & _); eauto|]. split; [eauto|].
  intros p. rewrite total_sumv, <- (e_mean _ _ _ _ _ _ _ _ E) by auto. unfold mean. apply sumv_ext. intros v _. rewrite HR. cbn [value]. change (coin_of v) with (coinv v).
  rewrite (wsum_wl less zero sort sort_perm sort_sorted). lia.
Qed.

Hypothesis order : strict_total less ceq.
(** The numerator of every rank answer is unbiased (GetRank divides it by the number of stream items). *)
Theorem kll_ranks_unbiased : forall h, sane h -> (puts h < 2 ^ 60)%N -> stream h <> [] -> exists log,
  (forall coin, exists s, run coin h [] = Some (s, log) /\ n s = N.of_nat (length (stream h))) /\
  (forall x inclusive coin, exists w, rank less ceq zero sort x inclusive coin h = Some w) /\
  forall x inclusive, total (fun v => value (rank less ceq zero sort x inclusive (coin_of v) h)) (outcomes (length log)) =
    (2 ^ Z.of_nat (length log) * count (below less x inclusive) (stream h))%Z.
Proof.
  intros h HS HP Hne. destruct (run_ends h HS HP []) as (log & k0 & m0 & T & Lf & N0 & E). exists log.
  assert (HN : N0 <> 0%N) by (rewrite (e_n _ _ _ _ _ _ _ _ E); destruct (stream h); [congruence|cbn [length]; lia]).
  assert (HR : forall x incl c, rank less ceq zero sort x incl c h = Some (wsum (below less x incl) (wl 1 (Lf c)))).
  { intros x incl c. unfold rank. destruct (e_run _ _ _ _ _ _ _ _ E c) as (s & Rs & Is & _ & _ & Ns & Ss). rewrite Rs. cbn [bindo].
    destruct (sorted_view_ok less ceq zero sort order sort_perm sort_sorted s T (Lf c) Is (Ss order) ltac:(lia)) as (res & HV & HSw & HPm). rewrite HV. cbn [bindo].
    assert (Hres : res <> []).
    { intros ->. apply Permutation_sym, Permutation_nil in HPm. pose proof (i_wt _ _ _ Is) as HW. assert (HZ : forall (Ls : list (list C)) w, wl w Ls = [] -> wt Ls = 0%N).
      { clear. induction Ls as [|L Ls IH]; intros w H; cbn [wl wt] in *; auto. apply app_eq_nil in H. destruct H as (H1 & H2). apply map_eq_nil in H1. subst. rewrite (IH _ H2). reflexivity. }
      rewrite (HZ _ _ HPm) in HW. lia. }
    rewrite (rank_ok less ceq order) by auto. f_equal. symmetry. exact (wsum_perm zero (upto less x incl) _ _ HPm). }
  split; [intros c; destruct (e_run _ _ _ _ _ _ _ _ E c) as (s & Rs & _ & _ & _ & Ns & _); exists s; split; auto; rewrite Ns; apply E|]. split; [eauto|].
  intros x incl. rewrite total_sumv, <- (e_mean _ _ _ _ _ _ _ _ E) by auto. unfold mean. apply sumv_ext. intros v _. rewrite HR. cbn [value]. change (coin_of v) with (coinv v).
  rewrite (wsum_wl less zero sort sort_perm sort_sorted). lia.
Qed.
End Props.

(** ** Non-vacuity: a history with merges of compacted sketches and a reset; 6 flips, so 64 outcomes; the answers do depend on the flips. *)
Fixpoint ins (x : Z) (l : list Z) : list Z := match l with [] => [x] | y :: t => if (x <=? y)%Z then x :: l else y :: ins x t end.
Definition isort (l : list Z) : list Z := fold_right ins [] l.
Fixpoint many (c : nat) (h : hist Z) : hist Z := match c with O => h | S c => Put (many c h) ((Z.of_nat c * 7) mod 23)%Z end.
Definition a_hist : hist Z := Join (many 17 (New 8 2)) (many 13 (Put (Clear (many 10 (New 9 2))) 3%Z)).
Example a_hist_runs : sane a_hist /\ puts a_hist = 41%N /\ (exists s log, run Z.ltb 0%Z isort (fun _ => true) a_hist [] = Some (s, log) /\ log = [1; 0; 0; 0; 0; 0]) /\
  map (fun v => value (rank Z.ltb Z.eqb 0%Z isort 12%Z true (coin_of v) a_hist)) (firstn 10 (outcomes 6)) = [14; 18; 14; 18; 14; 18; 14; 18; 18; 18]%Z /\
  count (below Z.ltb 12%Z true) (stream a_hist) = 18%Z /\
  total (fun v => value (rank Z.ltb Z.eqb 0%Z isort 12%Z true (coin_of v) a_hist)) (outcomes 6) = (64 * 18)%Z.
Proof.
  split; [cbn; lia|]. split; [vm_compute; reflexivity|]. split; [eexists _, _; split; [vm_compute; reflexivity|reflexivity]|].
  split; [vm_compute; reflexivity|]. split; vm_compute; reflexivity.
Qed.
Print Assumptions kll_weights_unbiased.
Print Assumptions kll_ranks_unbiased.
