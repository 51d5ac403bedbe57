(** * Split-and-merge acceptance for the normal model over the reals. *)
From Coq Require Import String.
From Coq Require Import Bool List Arith ZArith Reals Lra Lia Permutation.
From Verif Require Import Base Hier Algos SplitMerge Run Spec MargFacts NealFacts InitFacts MargMore MargProps SMFacts SMProps.
From Verif Require Import PartSpec XReal Mixings MixFacts GibbsSpec GibbsComb GibbsPost GibbsFacts GibbsState SMPost SMRatio SMSim SMBalance SMReverse.
From Verif Require Import Univ UnivFacts RealInst RealFacts.
Import ListNotations.
Local Open Scope R_scope.
Arguments prodR l : simpl never.
Arguments sumR l : simpl never.

(** The test [log u < w] accepts exactly when [u < exp w]. *)
Lemma xltb_iff : forall u w, 0 <= u -> (xltb u w = true <-> u < xexp w).
Proof.
  intros u w Hu. unfold xltb, xlog. destruct (Rlt_dec 0 u) as [P|P].
  - destruct w as [|b]; simpl; [split; [discriminate|lra]|]. unfold gtb. destruct (Rlt_dec (ln u) b) as [Q|Q].
    + split; [intros _|reflexivity]. apply ln_lt_inv; [exact P|apply exp_pos|]. rewrite ln_exp. lra.
    + split; [discriminate|]. intros H. exfalso. apply Q. apply ln_increasing in H; [|exact P]. rewrite ln_exp in H. lra.
  - assert (u = 0) by lra. subst u. destruct w as [|b]; simpl; [split; [discriminate|lra]|]. split; [intros _; apply exp_pos|reflexivity].
Qed.

Lemma nnig_log_weights : forall lg G p, log_weights (nnig_iface lg G p) xexp.
Proof.
  intros lg G p. split; [intros; apply xexp_add|]. split; [simpl; apply exp_0|]. split.
  - intros [|x] H; simpl in *; [lra|]. apply exp_Ropp.
  - intros x y c Hx Hy Hc. cbn [log_softmax nnig_iface]. unfold softmax, sum_exp. cbn [map fold_right].
    assert (S : 0 < xexp x + (xexp y + 0)) by lra.
    assert (Q : 0 < nth c [xexp x / (xexp x + (xexp y + 0)); xexp y / (xexp x + (xexp y + 0))] 0).
    { destruct c as [|[|c]]; [apply Rdiv_lt_0_compat; auto|apply Rdiv_lt_0_compat; auto|lia]. }
    rewrite xexp_log by lra. exact Q.
Qed.

Lemma nnig_no_cov : forall lg G p (data : list R), no_cov_ok (nnig_iface lg G p) data.
Proof. intros lg G p data y _. reflexivity. Qed.

Lemma nnig_covs0 : forall lg G p (data : list R), covs0 (nnig_iface lg G p) data = repeat tt (length data).
Proof. intros lg G p data. unfold covs0. induction data as [|x l IH]; [reflexivity|]. cbn [map length repeat]. rewrite IH. reflexivity. Qed.

Lemma nnig_pair_masses : forall lg G p m k t d, strength m = Some (t, d) -> 0 <= d < 1 -> - d < t ->
  pair_masses (nnig_iface lg G p) xexp m k t d.
Proof.
  intros lg G p m k t d Hm Hd Ht. split.
  - intros j card _ Hc. destruct m as [pr s|pr s]; simpl in Hm.
    + destruct (dp_log s) as [[|l]|] eqn:El; try discriminate. injection Hm as <- <-.
      exists (xlog (IZR card)). split; [reflexivity|]. rewrite xexp_log by (apply IZR_le; lia). lra.
    + injection Hm as <- <-. exists (xlog (IZR card - py_dis s)). simpl. unfold py_mass_ex.
      replace (Z.eqb card 0) with false by (symmetry; apply Z.eqb_neq; lia).
      assert (1 <= IZR card) by (apply IZR_le; lia). rewrite xexp_log by lra. auto.
  - destruct m as [pr s|pr s]; simpl in Hm.
    + destruct (dp_log s) as [[|l]|] eqn:El; try discriminate. injection Hm as <- <-.
      exists (Fin l). split; [simpl; unfold dp_mass_new; rewrite El; reflexivity|]. simpl. lra.
    + injection Hm as <- <-. exists (xlog (py_str s + py_dis s * INR 2)). split; [reflexivity|]. rewrite xexp_log; simpl; lra.
Qed.

Lemma nnig_sm_masses : forall lg G p (data : list R) m t d, strength m = Some (t, d) ->
  @sm_masses_ok (nnig_iface lg G p) data m.
Proof.
  intros lg G p data m t d Hm.
  assert (E : forall k j c, (1 <= c)%Z -> exists w, mass_ex (nnig_iface lg G p) m k j c = Ok w).
  { intros k j c Hc. destruct m as [pr s|pr s]; simpl; [eexists; reflexivity|]. unfold py_mass_ex.
    replace (Z.eqb c 0) with false by (symmetry; apply Z.eqb_neq; lia). eexists; reflexivity. }
  assert (N : forall k j, exists w, mass_new (nnig_iface lg G p) m k j = Ok w).
  { intros k j. destruct m as [pr s|pr s]; [|simpl; unfold py_mass_new; eexists; reflexivity]. simpl in Hm. destruct (dp_log s) as [[|l]|] eqn:El; try discriminate.
    exists (Fin l). simpl. unfold dp_mass_new. rewrite El. reflexivity. }
  split; [|split]; [intros k _; split; [intros; apply E; auto|apply N]|intros; apply E; auto|apply N].
Qed.

(** Split moves and the merges undoing them, for the normal model. *)
Theorem nnig_split : forall lg G p (data : list R) n_restr (a : alg (nnig_iface lg G p)) f s r t d,
  let M := fun ids => exp (log_marg lg (a_hyp a) (pick data ids)) in
  let post_ := posterior (fun l => ewens_pitman t d (sizes_of l)) M in
  let k := length (distinct (a_alloc a)) in
  gen_ok G -> valid (a_hyp a) -> strength (a_mix a) = Some (t, d) -> 0 <= d < 1 -> - d < t ->
  sm_state (nnig_iface lg G p) data a ->
  (f < length data)%nat -> (s < length data)%nat -> f <> s -> nth_error (a_alloc a) f = nth_error (a_alloc a) s ->
  exists g r1 g2 lp r2 w a' g' g2' w' a'',
    launch_state (nnig_iface lg G p) data n_restr f s a r = Ok (g, r1) /\
    @restricted_gs (nnig_iface lg G p) data a f false g r1 = Ok ((g2, lp), r2) /\
    @split_or_merge (nnig_iface lg G p) data f s g a r1 =
      (let '(u, r3) := g_unif G 0 1 r2 in Ok (if xltb u w then a' else a, r3)) /\
    splits (length data) (a_alloc a) (a_alloc a') /\
    launch_state (nnig_iface lg G p) data n_restr f s a' r = Ok (g', r1) /\
    @restricted_gs (nnig_iface lg G p) data a' f true g' r1 = Ok ((g2', lp), r1) /\
    @split_or_merge (nnig_iface lg G p) data f s g' a' r1 =
      (let '(u, r3) := g_unif G 0 1 r1 in Ok (if xltb u w' then a'' else a', r3)) /\
    a_alloc a'' = a_alloc a /\ 0 < xexp lp /\
    xexp w * xexp lp * (post_ (a_alloc a) * (t + d * INR k)) = post_ (a_alloc a') * (t + 2 * d) /\
    xexp w * xexp w' = 1 /\
    (post_ (a_alloc a) * (xexp lp * Rmin 1 (xexp w)) = post_ (a_alloc a') * Rmin 1 (xexp w') <-> d = 0 \/ k = 2%nat).
Proof.
  intros lg G p data n_restr a f s r t d M post_ k HG Hv Hst Hd Ht Ha Hf Hs Hfs Heq.
  assert (HM : marginal_likelihood (nnig_iface lg G p) data (covs0 (nnig_iface lg G p) data) xexp (a_hyp a) M).
  { rewrite nnig_covs0. apply nnig_marginal. exact Hv. }
  destruct (split_reversible (nnig_iface lg G p) (nnig_laws lg G p HG) data (nnig_no_cov lg G p data) eq_refl eq_refl xexp (nnig_log_weights lg G p)
    t d Hd Ht M n_restr a f s r Ha (nnig_sm_masses lg G p data _ t d Hst) (nnig_pair_masses lg G p _ _ t d Hst Hd Ht) HM Hf Hs Hfs Heq)
    as (g & r1 & g2 & lp & r2 & ll & lpr & a' & g' & g2' & ll' & lpr' & a'' & E1 & E2 & E3 & S' & Sp & Hh & Hm & E4 & E5 & E6 & S'' & Eal & Pl & AB & EA).
  set (w := wadd (nnig_iface lg G p) (wadd (nnig_iface lg G p) (wneg (nnig_iface lg G p) lp) lpr) ll) in *.
  set (w' := wadd (nnig_iface lg G p) (wadd (nnig_iface lg G p) lp lpr') ll') in *.
  exists g, r1, g2, lp, r2, w, a', g', g2', w', a''.
  split; [exact E1|]. split; [exact E2|]. split; [rewrite E3; simpl; destruct (g_unif G 0 1 r2); reflexivity|]. split; [exact Sp|].
  split; [exact E4|]. split; [exact E5|]. split; [rewrite E6; simpl; destruct (g_unif G 0 1 r1); reflexivity|].
  split; [exact Eal|]. split; [exact Pl|].
  assert (Na : a_alloc a <> []) by (destruct Ha as (((HL & _) & _) & _); intros X; rewrite X in HL; change (0%nat = length data) in HL; lia).
  assert (Na' : a_alloc a' <> []) by (destruct S' as (((HL & _) & _) & _); intros X; rewrite X in HL; change (0%nat = length data) in HL; lia).
  split; [|split; [exact AB|]].
  - unfold post_, k. rewrite (Rmult_comm (posterior _ M (a_alloc a'))). rewrite (Rmult_comm (posterior _ M (a_alloc a))). exact EA.
  - unfold post_, k. apply (split_balance (nnig_iface lg G p) t d Hd Ht M a a' (xexp lp) (xexp w) (xexp w')); auto.
    + apply (post_pos (nnig_iface lg G p) data xexp t d Hd Ht M (a_hyp a)); auto.
    + apply (post_pos (nnig_iface lg G p) data xexp t d Hd Ht M (a_hyp a)); auto.
Qed.

(** Merge moves. *)
Theorem nnig_merge : forall lg G p (data : list R) n_restr (a : alg (nnig_iface lg G p)) f s r t d,
  let M := fun ids => exp (log_marg lg (a_hyp a) (pick data ids)) in
  let post_ := posterior (fun l => ewens_pitman t d (sizes_of l)) M in
  gen_ok G -> valid (a_hyp a) -> strength (a_mix a) = Some (t, d) -> 0 <= d < 1 -> - d < t ->
  sm_state (nnig_iface lg G p) data a ->
  (f < length data)%nat -> (s < length data)%nat -> nth_error (a_alloc a) f <> nth_error (a_alloc a) s ->
  exists g r1 g2 lp w a',
    launch_state (nnig_iface lg G p) data n_restr f s a r = Ok (g, r1) /\
    @restricted_gs (nnig_iface lg G p) data a f true g r1 = Ok ((g2, lp), r1) /\
    @split_or_merge (nnig_iface lg G p) data f s g a r1 =
      (let '(u, r3) := g_unif G 0 1 r1 in Ok (if xltb u w then a' else a, r3)) /\
    splits (length data) (a_alloc a') (a_alloc a) /\ 0 < xexp lp /\
    xexp w * (post_ (a_alloc a) * (t + 2 * d)) =
    xexp lp * (post_ (a_alloc a') * (t + d * INR (length (distinct (a_alloc a'))))).
Proof.
  intros lg G p data n_restr a f s r t d M post_ HG Hv Hst Hd Ht Ha Hf Hs Hne.
  assert (HM : marginal_likelihood (nnig_iface lg G p) data (covs0 (nnig_iface lg G p) data) xexp (a_hyp a) M).
  { rewrite nnig_covs0. apply nnig_marginal. exact Hv. }
  destruct (merge_accept (nnig_iface lg G p) (nnig_laws lg G p HG) data (nnig_no_cov lg G p data) eq_refl eq_refl xexp (nnig_log_weights lg G p)
    t d Hd Ht M n_restr a f s r Ha (nnig_sm_masses lg G p data _ t d Hst) (nnig_pair_masses lg G p _ _ t d Hst Hd Ht) HM Hf Hs Hne)
    as (g & r1 & g2 & lp & ll & lpr & a' & E1 & E2 & E3 & S' & Sp & Pl & EA).
  exists g, r1, g2, lp, (wadd (nnig_iface lg G p) (wadd (nnig_iface lg G p) lp lpr) ll), a'.
  split; [exact E1|]. split; [exact E2|]. split; [rewrite E3; simpl; destruct (g_unif G 0 1 r1); reflexivity|]. split; [exact Sp|]. split; [exact Pl|].
  unfold post_. rewrite (Rmult_comm (posterior _ M (a_alloc a'))). rewrite (Rmult_comm (posterior _ M (a_alloc a))). exact EA.
Qed.
