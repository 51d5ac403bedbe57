(** * Split-and-merge: final forms of the ratio and reversibility facts. *)
From Coq Require Import String.
From Coq Require Import Bool List Arith ZArith Reals Lra Lia Permutation.
From Verif Require Import Base Hier Algos SplitMerge Run Spec MargFacts NealFacts InitFacts MargMore MargProps SMFacts SMProps.
From Verif Require Import PartSpec MixFacts GibbsSpec GibbsComb GibbsPost GibbsFacts SMPost SMRatio SMSim SMBalance.
Import ListNotations.
Local Open Scope R_scope.
Arguments prodR l : simpl never.
Arguments sumR l : simpl never.

(** [val] is the exponential on log-weights. *)
Definition log_weights (I : Iface) (val : W I -> R) : Prop :=
  (forall a b, val (wadd I a b) = val a * val b) /\ val (w0 I) = 1 /\
  (forall w, 0 < val w -> val (wneg I w) = / val w) /\
  (forall x y c, 0 < val x -> 0 < val y -> (c < 2)%nat -> 0 < val (log_softmax I [x; y] c)).

(** A state of the sampler with consistent clusters and saved posteriors. *)
Definition sm_state (I : Iface) (data : list (Datum I)) (a : alg I) : Prop :=
  proper (length data) (a_alloc a) (view (a_uv a)) /\ caches_ok data (covs0 I data) (a_uv a) /\
  (forall h, In h (a_uv a) -> saved_matches data (covs0 I data) (a_hyp a) h).

Section Rev.
Variable I : Iface.
Variable L : laws I.
Variable data : list (Datum I).
Notation n := (length data).
Hypothesis Hnc : no_cov_ok I data.
Hypothesis Hcj : conj I = true.
Hypothesis Hod : other_draw I = None.
Variable val : W I -> R.
Hypothesis HV : log_weights I val.
Variables t d : R.
Hypothesis Hd : 0 <= d < 1.
Hypothesis Ht : - d < t.
Variable M : list nat -> R.
Let Hrows := @no_cov_rows I data Hnc.
Notation post_ := (posterior (fun l => ewens_pitman t d (sizes_of l)) M).

Lemma st_GS : forall a, sm_state I data a <-> @GS I data true a.
Proof. intros a. unfold sm_state. rewrite (GSt L data Hcj a). tauto. Qed.

Lemma launch_state_ok : forall n_restr (a : alg I) f s r, sm_state I data a -> @sm_masses_ok I data (a_mix a) ->
  (f < n)%nat -> (s < n)%nat -> f <> s ->
  exists idx g r', restricted_idx f s a = Ok idx /\ @IdxOK I data f s a idx /\
    launch_state I data n_restr f s a r = Ok (g, r') /\ @RInv I data (a_hyp a) f s g /\ g_idx g = idx.
Proof.
  intros n_restr a f s r Ha Hm Hf Hs Hfs. apply st_GS in Ha. unfold launch_state.
  destruct (@restricted_idx_ok I data true a f s) as (idx & E1 & HX); auto. rewrite E1. cbn [rbind].
  destruct (@launch_ok I L data Hrows Hcj Hod true a f s idx r) as (g & r3 & E2 & R2 & I2); auto. rewrite E2. cbn [rbind].
  destruct (@rfold_inv_simple _ _ (fun st (_ : nat) =>
      '((g', _), r') <- restricted_gs data a f false (fst st) (snd st) ;; Ok (g', r'))
    (fun st => @RInv I data (a_hyp a) f s (fst st) /\ g_idx (fst st) = idx) (seq 0 n_restr) (g, r3))
    as ([g1 r4] & E3 & R3 & I3); simpl; auto.
  - intros _ [g1 r4] _ [R1 I1]. cbn [fst snd] in *.
    destruct (@restricted_gs_ok I L data Hrows Hcj Hod true a f s false g1 r4) as (g' & lp & r' & E & R' & I'); auto.
    { rewrite I1; auto. }
    rewrite E. cbn [rbind]. exists (g', r'). split; auto. cbn [fst]. split; auto. congruence.
  - exists idx, g1, r4. auto.
Qed.

Lemma idx_sorted : forall (a : alg I) f s idx, @GS I data true a -> restricted_idx f s a = Ok idx -> ssorted idx.
Proof.
  intros a f s idx (Hl & [H1 H2] & _) H. unfold restricted_idx in H.
  apply rb in H. destruct H as (cf & _ & H). apply rb in H. destruct H as (cs & _ & H). apply rb in H. destruct H as (hf & Ef & H).
  assert (S : forall c h, at_ (a_uv a) c = Ok h -> ssorted (h_ids h)).
  { intros c h E. assert (N : nth_error (a_uv a) c = Some h) by (unfold at_ in E; destruct (nth_error (a_uv a) c); congruence).
    destruct (H2 c h N) as (((S & _) & _) & _). exact S. }
  apply rb in H. destruct H as (tmp & Et & H). injection H as <-. apply ssorted_remove, ssorted_remove.
  destruct (cf =? cs)%nat; [injection Et as <-; eauto|]. apply rb in Et. destruct Et as (hs & Es & Et). injection Et as <-. apply ssorted_union. eauto.
Qed.

Lemma split_or_merge_eq : forall (a : alg I) f s g r cf cs g2 lp r2 ll lpr a',
  at_ (a_alloc a) f = Ok cf -> at_ (a_alloc a) s = Ok cs ->
  restricted_gs data a f (negb (cf =? cs)%nat) g r = Ok ((g2, lp), r2) ->
  compute_log_ratios data a g2 f s (cf =? cs)%nat = Ok (ll, lpr) ->
  proposal_update data f s (cf =? cs)%nat g2 a = Ok a' ->
  split_or_merge data f s g a r =
    (let '(acc, r3) := accept I (wadd I (wadd I (if (cf =? cs)%nat then wneg I lp else lp) lpr) ll) r2 in
     Ok (if acc then a' else a, r3)).
Proof.
  intros a f s g r cf cs g2 lp r2 ll lpr a' E1 E2 E3 E4 E5. unfold split_or_merge. rewrite E1, E2. cbn [rbind]. rewrite E3. cbn [rbind]. rewrite E4. cbn [rbind].
  destruct (accept I _ r2) as [acc r3]. destruct acc; [rewrite E5|]; reflexivity.
Qed.

Lemma post_pos : forall hy l, marginal_likelihood I data (covs0 I data) val hy M -> l <> [] -> 0 < post_ l.
Proof. intros hy l HM Hl. apply posterior_pos; [apply (ep_prior t d Hd Ht)|apply (proj1 HM)|exact Hl]. Qed.

Lemma tK_pos : forall l : list nat, l <> [] -> 0 < t + d * INR (length (distinct l)).
Proof.
  intros l Hl. pose proof (distinct_nonempty _ Hl) as H. assert (1 <= INR (length (distinct l))) by (apply (le_INR 1); lia).
  assert (d * 1 <= d * INR (length (distinct l))) by (apply Rmult_le_compat_l; lra). lra.
Qed.

(** Merge proposals. *)
Theorem merge_accept : forall n_restr (a : alg I) f s r,
  sm_state I data a -> @sm_masses_ok I data (a_mix a) -> pair_masses I val (a_mix a) n t d ->
  marginal_likelihood I data (covs0 I data) val (a_hyp a) M ->
  (f < n)%nat -> (s < n)%nat -> nth_error (a_alloc a) f <> nth_error (a_alloc a) s ->
  exists g r1 g2 lp ll lpr a',
    launch_state I data n_restr f s a r = Ok (g, r1) /\
    restricted_gs data a f true g r1 = Ok ((g2, lp), r1) /\
    split_or_merge data f s g a r1 =
      (let '(acc, r3) := accept I (wadd I (wadd I lp lpr) ll) r1 in Ok (if acc then a' else a, r3)) /\
    sm_state I data a' /\ splits n (a_alloc a') (a_alloc a) /\ 0 < val lp /\
    val (wadd I (wadd I lp lpr) ll) * ((t + 2 * d) * post_ (a_alloc a)) =
    val lp * ((t + d * INR (length (distinct (a_alloc a')))) * post_ (a_alloc a')).
Proof.
  intros n_restr a f s r Ha Hm Hp HM Hf Hs Hne. destruct HV as (V1 & V2 & V3 & V4).
  assert (Hfs : f <> s) by congruence.
  destruct (launch_state_ok n_restr a f s r Ha Hm Hf Hs Hfs) as (idx & g & r1 & _ & HX & EL & HR & Ei).
  pose proof (proj1 (st_GS a) Ha) as G. subst idx.
  destruct (@restricted_gs_ok I L data Hrows Hcj Hod true a f s true g r1) as (g2 & lp & r2 & E1 & _); auto.
  assert (r2 = r1).
  { clear - E1. unfold restricted_gs in E1. revert E1. generalize (w0 I). generalize (seq 0 (length (g_idx g))). intros ks. revert g.
    induction ks as [|k ks IH]; intros g w E; cbn [rfold] in E; [congruence|]. apply rb in E. destruct E as ([[g1 w1] r3] & E1 & E).
    unfold rgs_step in E1. repeat (apply rb in E1; destruct E1 as (? & ? & E1)).
    match type of E1 with (let '(_, _) := ?p in _) = _ => destruct p as [cn rr] end.
    apply rb in E1. destruct E1 as (? & ? & E1). injection E1 as <- <- <-.
    match goal with H : rbind (at_ (a_alloc a) _) _ = Ok (cn, rr) |- _ => apply rb in H; destruct H as (? & _ & H); apply rb in H; destruct H as (? & _ & H); injection H as _ <- end.
    eapply IH; exact E. }
  subst r2.
  destruct (scan_pos I L data Hrows Hcj Hod val V1 V2 V4 t d Hd (a_hyp a) M HM true a f s true g r1 g2 lp r1) as (Pl & R2 & I2); auto.
  pose proof G as (Hl & _). assert (Hf' : (f < length (a_alloc a))%nat) by lia. assert (Hs' : (s < length (a_alloc a))%nat) by lia.
  destruct (at_ok _ Hf') as (cf & Ecf & Ncf). destruct (at_ok _ Hs') as (cs & Ecs & Ncs).
  assert (Ecc : (cf =? cs)%nat = false) by (apply Nat.eqb_neq; congruence).
  destruct (@proposal_ok I L data Hrows Hcj Hod true a f s g2 false) as (a' & Ep & G' & Mv & _); auto.
  { rewrite I2; auto. } { discriminate. }
  destruct (merge_ratio I L data Hrows Hcj Hod val V1 V2 V3 t d Hd Ht (a_hyp a) M HM true a f s g2 a' G eq_refl Hf Hs Hp Hne Ep)
    as (ll & lpr & Er & Pll & Plr & Eq).
  exists g, r1, g2, lp, ll, lpr, a'. split; [exact EL|]. split; [exact E1|]. split; [|split; [|split; [|split]]].
  - pose proof (split_or_merge_eq a f s g r1 cf cs g2 lp r1 ll lpr a' Ecf Ecs) as K. rewrite Ecc in K. apply K; auto.
  - apply st_GS. exact G'.
  - exact Mv.
  - exact Pl.
  - rewrite !V1, <- Eq. ring.
Qed.

(** Split proposals, and the merge that undoes them. *)
Theorem split_reversible : forall n_restr (a : alg I) f s r,
  sm_state I data a -> @sm_masses_ok I data (a_mix a) -> pair_masses I val (a_mix a) n t d ->
  marginal_likelihood I data (covs0 I data) val (a_hyp a) M ->
  (f < n)%nat -> (s < n)%nat -> f <> s -> nth_error (a_alloc a) f = nth_error (a_alloc a) s ->
  exists g r1 g2 lp r2 ll lpr a' g' g2' ll' lpr' a'',
    launch_state I data n_restr f s a r = Ok (g, r1) /\
    restricted_gs data a f false g r1 = Ok ((g2, lp), r2) /\
    split_or_merge data f s g a r1 =
      (let '(acc, r3) := accept I (wadd I (wadd I (wneg I lp) lpr) ll) r2 in Ok (if acc then a' else a, r3)) /\
    sm_state I data a' /\ splits n (a_alloc a) (a_alloc a') /\
    a_hyp a' = a_hyp a /\ a_mix a' = a_mix a /\
    launch_state I data n_restr f s a' r = Ok (g', r1) /\
    restricted_gs data a' f true g' r1 = Ok ((g2', lp), r1) /\
    split_or_merge data f s g' a' r1 =
      (let '(acc, r3) := accept I (wadd I (wadd I lp lpr') ll') r1 in Ok (if acc then a'' else a', r3)) /\
    sm_state I data a'' /\ a_alloc a'' = a_alloc a /\
    0 < val lp /\
    val (wadd I (wadd I (wneg I lp) lpr) ll) * val (wadd I (wadd I lp lpr') ll') = 1 /\
    val (wadd I (wadd I (wneg I lp) lpr) ll) * val lp * ((t + d * INR (length (distinct (a_alloc a)))) * post_ (a_alloc a)) =
    (t + 2 * d) * post_ (a_alloc a').
Proof.
  intros n_restr a f s r Ha Hm Hp HM Hf Hs Hfs Heq. destruct HV as (V1 & V2 & V3 & V4).
  destruct (launch_state_ok n_restr a f s r Ha Hm Hf Hs Hfs) as (idx & g & r1 & Eidx & HX & EL & HR & Ei).
  pose proof (proj1 (st_GS a) Ha) as G. subst idx.
  destruct (@restricted_gs_ok I L data Hrows Hcj Hod true a f s false g r1) as (g2 & lp & r2 & E1 & _); auto.
  destruct (scan_pos I L data Hrows Hcj Hod val V1 V2 V4 t d Hd (a_hyp a) M HM true a f s false g r1 g2 lp r2) as (Pl & R2 & I2); auto.
  assert (HX2 : @IdxOK I data f s a (g_idx g2)) by (rewrite I2; exact HX).
  pose proof G as (Hl & HInv & _). assert (Hf' : (f < length (a_alloc a))%nat) by lia. assert (Hs' : (s < length (a_alloc a))%nat) by lia.
  destruct (at_ok _ Hf') as (cf & Ecf & Ncf). destruct (at_ok _ Hs') as (cs & Ecs & Ncs).
  assert (cs = cf) by congruence. subst cs.
  destruct (@proposal_ok I L data Hrows Hcj Hod true a f s g2 true) as (a' & Ep & G' & Mv & Hh' & Hm' & _); auto. { congruence. }
  destruct (split_ratio I L data Hrows Hcj Hod val V1 V2 V3 t d Hd Ht (a_hyp a) M HM true a f s g2 a' G eq_refl Hf Hs Hfs Hp R2 HX2 Heq Ep)
    as (ll & lpr & Er & Pll & Plr & Eq).
  destruct (split_alloc I L data Hrows Hcj Hod (a_hyp a) true a f s g2 a' G eq_refl Hf Hs Hfs R2 HX2 Heq Ep)
    as (g0 & g1 & cf' & E0 & E1' & Ecf' & A4 & Mem & Lt & S0 & S1 & If & Is & Dis).
  assert (cf' = cf) by congruence. subst cf'.
  assert (Ha' : sm_state I data a') by (apply st_GS; exact G').
  set (K := length (a_uv a)) in *.
  assert (HcK : (cf < K)%nat) by (apply Lt; eapply nth_error_In; eauto).
  assert (Nf' : nth_error (a_alloc a') f = Some K). { rewrite A4. unfold move_fun. destruct (in_dec Nat.eq_dec f (h_ids g0)); tauto. }
  assert (Ns' : nth_error (a_alloc a') s = Some cf).
  { rewrite A4. unfold move_fun. destruct (in_dec Nat.eq_dec s (h_ids g0)) as [X|X]; [destruct (Dis s X Is)|exact Ncs]. }
  assert (Hne' : nth_error (a_alloc a') f <> nth_error (a_alloc a') s) by (rewrite Nf', Ns'; intros X; injection X as X; lia).
  assert (Hl' : length (a_alloc a') = n) by apply G'.
  assert (Hsm' : @sm_masses_ok I data (a_mix a')) by (rewrite Hm'; exact Hm).
  (* the same data to reassign *)
  destruct (@restricted_idx_ok I data true a' f s) as (idx' & Eidx' & HX'); auto.
  assert (Ei : idx' = g_idx g).
  { apply ssorted_ext; [exact (idx_sorted a' f s idx' G' Eidx')|exact (idx_sorted a f s _ G Eidx)|]. intros j.
    destruct HX as (_ & X2 & X3 & X4 & X5). destruct HX' as (_ & Y2 & Y3 & Y4 & Y5). split; intros Hj.
    - apply X5; try congruence; [apply Y4 in Hj; tauto|]. destruct (Y4 j Hj) as [Hjn Z]. left. rewrite Ncf.
      rewrite Nf', Ns', A4 in Z. unfold move_fun in Z. destruct (in_dec Nat.eq_dec j (h_ids g0)) as [W|W]; [apply Mem, in_or_app; auto|].
      destruct Z as [Z|Z]; [|exact Z]. exfalso. assert (In K (a_alloc a)) by (eapply nth_error_In; exact Z). apply Lt in H. lia.
    - apply Y5; try congruence; [apply X4 in Hj; tauto|]. destruct (X4 j Hj) as [Hjn Z]. rewrite Nf', Ns', A4. unfold move_fun.
      destruct (in_dec Nat.eq_dec j (h_ids g0)) as [W|W]; [auto|]. right. destruct Z; congruence. }
  subst idx'.
  (* the same launch state *)
  assert (EL' : exists g', launch_state I data n_restr f s a' r = Ok (g', r1) /\ gsim I g g').
  { unfold launch_state in *. rewrite Eidx'. rewrite Eidx in EL. cbn [rbind] in *. apply rb in EL. destruct EL as ([ga ra] & Ela & EL).
    assert (Hu' : a_uv a' <> []).
    { destruct G' as (_ & [H1 _] & _). intros X. apply H1 in Nf'. rewrite X in Nf'. simpl in Nf'. lia. }
    destruct (launch_sim I L data Hcj f s (g_idx g) a a' r ga ra Ela Hh' Hu') as (ga' & -> & Sa). cbn [rbind].
    exact (scans_sim I L data Hcj a a' f (seq 0 n_restr) ga ga' ra g r1 Hh' Hm' EL Sa). }
  destruct EL' as (g' & EL' & Sg).
  (* the forced scan *)
  assert (E2 : exists g2', restricted_gs data a' f true g' r1 = Ok ((g2', lp), r1) /\ gsim I g2 g2').
  { unfold restricted_gs in *. rewrite (proj1 Sg). apply (fold_forced I L data Hcj a a' f _ g g' (w0 I) r1 r1 g2 lp r2 Hh' Hm' (seq_NoDup _ _) E1 Sg).
    intros k i c _ Hi Hc. destruct R2 as (gf & [Q1 Q2] & Lg & Gf & Gs & Mm & La & Hk).
    rewrite I2 in Hk. pose proof (Hk k i c Hi Hc) as Gi.
    assert (Ng0 : nth_error (g_uv g2) 0 = Some g0) by (unfold at_ in E0; destruct (nth_error (g_uv g2) 0); congruence).
    destruct (Q2 _ _ Ng0) as (_ & _ & M0).
    assert (Hin : In i (g_idx g)) by (eapply nth_error_In; eauto).
    assert (Hi_cf : nth_error (a_alloc a) i = Some cf).
    { destruct HX as (_ & _ & _ & X4 & _). destruct (X4 i Hin) as [_ [Z|Z]]; congruence. }
    unfold at_. rewrite A4, Nf'. unfold move_fun. destruct (in_dec Nat.eq_dec i (h_ids g0)) as [W|W].
    - exists K, K. split; [reflexivity|]. split; [reflexivity|]. rewrite Nat.eqb_refl. apply M0 in W. congruence.
    - rewrite Hi_cf. exists cf, K. split; [reflexivity|]. split; [reflexivity|].
      replace (cf =? K)%nat with false by (symmetry; apply Nat.eqb_neq; lia).
      destruct (Q1 i c Gi) as [_ Hc2]. rewrite Lg in Hc2. destruct c as [|[|c]]; [|reflexivity|lia]. exfalso. apply W, M0. exact Gi. }
  destruct E2 as (g2' & E2 & S2).
  assert (HR' : @RInv I data (a_hyp a') f s g' /\ @IdxOK I data f s a' (g_idx g')).
  { destruct (launch_state_ok n_restr a' f s r Ha' Hsm' Hf Hs Hfs) as (idx3 & g3 & r3 & Ex & HX3 & EL3 & HR3 & Ei3).
    rewrite EL' in EL3. injection EL3 as <- <-. rewrite Ei3. auto. }
  destruct HR' as [HR' HX3].
  assert (HM' : marginal_likelihood I data (covs0 I data) val (a_hyp a') M) by (rewrite Hh'; exact HM).
  assert (Hp' : pair_masses I val (a_mix a') n t d) by (rewrite Hm'; exact Hp).
  destruct (scan_pos I L data Hrows Hcj Hod val V1 V2 V4 t d Hd (a_hyp a') M HM' true a' f s true g' r1 g2' lp r1) as (_ & R2' & I2'); auto.
  destruct (@proposal_ok I L data Hrows Hcj Hod true a' f s g2' false) as (a'' & Ep' & G'' & _); auto.
  { rewrite I2'; auto. } { discriminate. }
  destruct (merge_ratio I L data Hrows Hcj Hod val V1 V2 V3 t d Hd Ht (a_hyp a') M HM' true a' f s g2' a'' G' eq_refl Hf Hs Hp' Hne' Ep')
    as (ll' & lpr' & Er' & Pll' & Plr' & Eq').
  destruct (merge_alloc I L data Hrows Hcj Hod true a' f s g2' a'' G' Hf Hs Hne' Ep')
    as (hf & hs & cf2 & cs2 & Ef2 & Es2 & Ehf & Ehs & Hcc & Hl'' & A5 & M0 & M1 & _).
  assert (cf2 = K) by (unfold at_ in Ef2; rewrite Nf' in Ef2; congruence). assert (cs2 = cf) by (unfold at_ in Es2; rewrite Ns' in Es2; congruence). subst cf2 cs2.
  assert (Eal : a_alloc a'' = a_alloc a).
  { apply list_ext; [congruence|]. intros j Hj. rewrite A5. unfold move_fun.
    destruct (in_dec Nat.eq_dec j (h_ids hf)) as [W|W].
    - apply M0 in W. rewrite A4 in W. unfold move_fun in W. destruct (in_dec Nat.eq_dec j (h_ids g0)) as [W'|W'].
      + cbn [option_map]. replace (K <? cf)%nat with false by (symmetry; apply Nat.ltb_ge; lia). symmetry. apply Mem, in_or_app. auto.
      + exfalso. apply nth_error_In, Lt in W. lia.
    - rewrite M0 in W. rewrite A4 in *. unfold move_fun in *. destruct (in_dec Nat.eq_dec j (h_ids g0)) as [W'|W']; [congruence|].
      destruct (nth_error (a_alloc a) j) as [x|] eqn:Ex; [|reflexivity]. cbn [option_map]. apply nth_error_In, Lt in Ex.
      replace (K <? x)%nat with false by (symmetry; apply Nat.ltb_ge; lia). reflexivity. }
  exists g, r1, g2, lp, r2, ll, lpr, a', g', g2', ll', lpr', a''.
  split; [exact EL|]. split; [exact E1|]. split.
  { pose proof (split_or_merge_eq a f s g r1 cf cf g2 lp r2 ll lpr a' Ecf Ecs) as Q. rewrite Nat.eqb_refl in Q. apply Q; auto. }
  split; [exact Ha'|]. split; [exact Mv|]. split; [exact Hh'|]. split; [exact Hm'|]. split; [exact EL'|]. split; [exact E2|]. split.
  { pose proof (split_or_merge_eq a' f s g' r1 K cf g2' lp r1 ll' lpr' a'') as Q.
    replace (K =? cf)%nat with false in Q by (symmetry; apply Nat.eqb_neq; lia). apply Q; auto. }
  split; [apply st_GS; exact G''|]. split; [exact Eal|]. split; [exact Pl|].
  assert (Na : a_alloc a <> []) by (intros X; rewrite X in Ncf; destruct f; discriminate).
  assert (Na' : a_alloc a' <> []) by (intros X; rewrite X in Nf'; destruct f; discriminate).
  pose proof (post_pos _ _ HM Na) as Pa. pose proof (post_pos _ _ HM Na') as Pa'. pose proof (tK_pos _ Na) as PK.
  rewrite Eal in Eq'. rewrite !V1, (V3 lp Pl). split.
  - assert (T2 : 0 < t + 2 * d) by lra.
    assert (AB : (val lpr * val ll) * (val lpr' * val ll') = 1).
    { apply Rmult_eq_reg_r with ((t + d * INR (length (distinct (a_alloc a)))) * post_ (a_alloc a)); [|apply Rgt_not_eq, Rmult_lt_0_compat; auto].
      rewrite Rmult_1_l. rewrite <- Eq' at 2. rewrite <- Eq. ring. }
    transitivity ((val lpr * val ll) * (val lpr' * val ll')); [field; lra|exact AB].
  - rewrite <- Eq. field. lra.
Qed.

(** Detailed balance of the pair of moves, with probabilities of acceptance
    [min 1 w]. *)
Theorem split_balance : forall (a a' : alg I) (lp A B : R), 0 < lp -> A * B = 1 ->
  0 < post_ (a_alloc a) -> 0 < post_ (a_alloc a') -> a_alloc a <> [] ->
  A * lp * ((t + d * INR (length (distinct (a_alloc a)))) * post_ (a_alloc a)) = (t + 2 * d) * post_ (a_alloc a') ->
  (post_ (a_alloc a) * (lp * Rmin 1 A) = post_ (a_alloc a') * Rmin 1 B <-> d = 0 \/ length (distinct (a_alloc a)) = 2%nat).
Proof.
  intros a a' lp A B Hlp HAB Pa Pa' Na E. pose proof (tK_pos _ Na) as PK. set (k := length (distinct (a_alloc a))) in *.
  assert (T2 : 0 < t + 2 * d) by lra. set (pa := post_ (a_alloc a)) in *. set (pb := post_ (a_alloc a')) in *. clearbody pa pb k.
  assert (PA : 0 < A).
  { apply Rmult_lt_reg_r with (lp * ((t + d * INR k) * pa)); [repeat apply Rmult_lt_0_compat; auto|].
    rewrite Rmult_0_l, <- Rmult_assoc, E. apply Rmult_lt_0_compat; auto. }
  assert (PB : B = / A) by (apply Rmult_eq_reg_l with A; [rewrite HAB; field; lra|lra]).
  assert (Key : t + 2 * d = t + d * INR k <-> d = 0 \/ k = 2%nat).
  { split.
    - intros H. destruct (Req_dec d 0) as [->|X]; [auto|]. right. apply INR_eq. simpl. apply Rmult_eq_reg_l with d; lra.
    - intros [-> | ->]; simpl; lra. }
  rewrite <- Key. destruct (Rle_lt_dec A 1) as [HA|HA].
  - rewrite (Rmin_right 1 A) by exact HA. rewrite (Rmin_left 1 B).
    2: { rewrite PB. rewrite <- Rinv_1. apply Rinv_le_contravar; lra. }
    rewrite Rmult_1_r. assert (E' : pa * (lp * A) * (t + d * INR k) = (t + 2 * d) * pb) by (rewrite <- E; ring). split.
    + intros H. rewrite H in E'. apply Rmult_eq_reg_r with pb; [rewrite <- E'; ring|lra].
    + intros H. rewrite H in E'. apply Rmult_eq_reg_r with (t + d * INR k); [rewrite E'; ring|lra].
  - rewrite (Rmin_left 1 A) by lra. assert (HB : B <= 1) by (rewrite PB, <- Rinv_1; apply Rinv_le_contravar; lra). rewrite (Rmin_right 1 B) by exact HB.
    rewrite Rmult_1_r. assert (E' : pa * lp * (t + d * INR k) = (t + 2 * d) * (pb * B)).
    { transitivity (A * lp * ((t + d * INR k) * pa) * B); [|rewrite E; ring]. transitivity (pa * lp * (t + d * INR k) * (A * B)); [rewrite HAB; ring|ring]. }
    assert (PBp : 0 < B) by (rewrite PB; apply Rinv_0_lt_compat; exact PA). split.
    + intros H. rewrite H in E'. apply Rmult_eq_reg_r with (pb * B); [rewrite <- E'; ring|apply Rgt_not_eq, Rmult_lt_0_compat; auto].
    + intros H. rewrite H in E'. apply Rmult_eq_reg_r with (t + d * INR k); [rewrite E'; ring|lra].
Qed.
End Rev.
