(** * Property theorems: univariate hierarchies. *)
From Coq Require Import String.
From Coq Require Import Bool List Arith ZArith Reals Lra Lia Permutation.
From Verif Require Import Base PartSpec Mixings MixFacts Univ UnivFacts UnivMore UnivInit.
Import ListNotations.
Local Open Scope R_scope.

(** Valid hyperparameters and data used in the examples. *)
Definition uh : nig := mkNIG 1 (/ 2) 2 3.
Lemma uh_valid : valid uh.
Proof. unfold valid, uh; simpl; lra. Qed.
Definition uys : list R := [1; -2; 4].
Definition us : uni_ls := mkLS (-1) 2.
Definition uxh : nxig := mkNxIG 1 4 2 3.
Definition uG : gen := mkGen nat (fun m s r => (m + s, S r)) (fun a b r => (b / (a + 1), S r)) (fun a b r => (a / b, S r))
  (fun a b r => ((a + b) / 2, S r)) (fun ps r => (0%nat, S r)).

(** ** C16 *)
Theorem C16_nnig_bayes :
  forall lg h ys s, valid h -> 0 < ls_var s ->
  nig_lpdf lg h s + sumR (map (norm_lpdf s) ys) =
  log_marg lg h ys + nig_lpdf lg (nnig_post h (cardZ ys) (stats_of ys)) s.
Proof. exact nnig_bayes. Qed.
Print Assumptions C16_nnig_bayes.

Example ex_C16 : forall lg, nig_lpdf lg uh us + sumR (map (norm_lpdf us) uys) =
  log_marg lg uh uys + nig_lpdf lg (mkNIG 1 (7 / 2) (7 / 2) 12) us.
Proof.
  intros lg. rewrite (C16_nnig_bayes lg uh uys us uh_valid) by (simpl; lra). f_equal. f_equal.
  unfold nnig_post, stats_of, cardZ, uys, uh; simpl. rewrite !half. f_equal; field.
Qed.

(** ** C17 *)
Theorem C17_nnig_predictive :
  forall lg h y s, valid h -> 0 < ls_var s ->
  nnig_marg_lpdf lg h y = nig_lpdf lg h s + norm_lpdf s y - nig_lpdf lg (nnig_post h 1 (norm_op y true norm_stats0)) s.
Proof. exact nnig_predictive. Qed.
Print Assumptions C17_nnig_predictive.

(** Chained predictive densities give the marginal likelihood of the batch (C16). *)
Theorem C17_predictive_chain :
  forall lg h ys y, valid h ->
  nnig_marg_lpdf lg (nnig_post h (cardZ ys) (stats_of ys)) y + log_marg lg h ys = log_marg lg h (y :: ys).
Proof. exact marg_chain. Qed.
Print Assumptions C17_predictive_chain.

Example ex_C17 : forall lg, nnig_marg_lpdf lg uh 3 = nig_lpdf lg uh us + norm_lpdf us 3 - nig_lpdf lg (mkNIG (7 / 3) (3 / 2) (5 / 2) (11 / 3)) us.
Proof.
  intros lg. rewrite (C17_nnig_predictive lg uh 3 us uh_valid) by (simpl; lra). f_equal. f_equal.
  unfold nnig_post, uh; simpl. rewrite !half. f_equal; field.
Qed.

(** ** C18 *)
Theorem C18_nnig_valid :
  forall h ys, valid h -> valid (nnig_post h (cardZ ys) (stats_of ys)).
Proof. exact nnig_post_valid. Qed.
Print Assumptions C18_nnig_valid.

Example ex_C18 : valid (nnig_post uh (cardZ uys) (stats_of uys)).
Proof. apply C18_nnig_valid, uh_valid. Qed.

(** ** C19 *)
Theorem C19_nnig_compose :
  forall h a b, valid h ->
  nnig_post (nnig_post h (cardZ a) (stats_of a)) (cardZ b) (stats_of b) = nnig_post h (cardZ (a ++ b)) (stats_of (a ++ b)).
Proof. exact nnig_compose. Qed.
Print Assumptions C19_nnig_compose.

Theorem C19_nnig_perm :
  forall h a b, Permutation a b -> nnig_post h (cardZ a) (stats_of a) = nnig_post h (cardZ b) (stats_of b).
Proof. exact nnig_perm. Qed.
Print Assumptions C19_nnig_perm.

Example ex_C19 : nnig_post (nnig_post uh (cardZ [1]) (stats_of [1])) (cardZ [-2; 4]) (stats_of [-2; 4])
  = nnig_post uh (cardZ [4; 1; -2]) (stats_of [4; 1; -2]).
Proof.
  rewrite (C19_nnig_compose uh [1] [-2; 4] uh_valid). apply C19_nnig_perm. simpl.
  apply perm_trans with [1; 4; -2]; [apply perm_skip, perm_swap|apply perm_swap].
Qed.

(** ** C20 *)
Theorem C20_nxig_mean :
  forall h ys s, 0 < nx_var h -> 0 < ls_var s ->
  exists C, forall m,
    normal_lpdf m (nx_mean h) (sqrt (nx_var h)) + sumR (map (norm_lpdf (mkLS m (ls_var s))) ys) =
    C + normal_lpdf m (nx_mean (nnxig_post h (cardZ ys) (stats_of ys) s)) (sqrt (nx_var (nnxig_post h (cardZ ys) (stats_of ys) s))).
Proof. exact nxig_mean_conditional. Qed.
Print Assumptions C20_nxig_mean.

Theorem C20_nxig_variance :
  forall lg h ys s, 
  exists C, forall v, 0 < v ->
    inv_gamma_lpdf lg v (nx_shape h) (nx_scale h) + sumR (map (norm_lpdf (mkLS (ls_mean s) v)) ys) =
    C + inv_gamma_lpdf lg v (nx_shape (nnxig_post h (cardZ ys) (stats_of ys) s)) (nx_scale (nnxig_post h (cardZ ys) (stats_of ys) s)).
Proof. exact nxig_var_conditional. Qed.
Print Assumptions C20_nxig_variance.

(** The variance is drawn given the old mean [ls_mean s], not the new one [m]. *)
Theorem C20_nxig_draw :
  forall G h ys s r, ys <> [] ->
  exists m v r1 r2,
    g_norm G (nx_mean (nnxig_post h (cardZ ys) (stats_of ys) s)) (sqrt (nx_var (nnxig_post h (cardZ ys) (stats_of ys) s))) r = (m, r1) /\
    g_invgamma G (nx_shape h + INR (length ys) / 2) (nx_scale h + sumR (map (fun y => sq (y - ls_mean s)) ys) / 2) r1 = (v, r2) /\
    nxig_sample G (nnxig_post h (cardZ ys) (stats_of ys) s) r = (mkLS m v, r2).
Proof. exact nxig_draw. Qed.
Print Assumptions C20_nxig_draw.

Example ex_C20 : exists v r2, nxig_sample uG (nnxig_post uxh (cardZ uys) (stats_of uys) us) 0%nat
    = (mkLS (1 + sqrt (4 / 7)) v, r2) /\ v = (3 + sumR (map (fun y => sq (y - (-1))) uys) / 2) / (2 + INR 3 / 2 + 1).
Proof.
  destruct (C20_nxig_draw uG uxh uys us 0%nat ltac:(discriminate)) as (m & v & r1 & r2 & E1 & E2 & E3).
  exists v, r2. rewrite E3. cbn in E1, E2. injection E1 as <- <-. injection E2 as <- <-. split; [|reflexivity].
  do 2 f_equal. f_equal; [field|]. f_equal. field.
Qed.

(** ** C23 *)
Theorem C23_cluster_shortcut :
  forall ys m v, 0 < v ->
  norm_cluster_lpdf (cardZ ys) (stats_of ys) (to_unconstrained (m, v)) = sumR (map (norm_lpdf (mkLS m v)) ys).
Proof. exact cluster_shortcut. Qed.
Print Assumptions C23_cluster_shortcut.

Theorem C23_laplace_cluster :
  forall ys m v, 0 < v ->
  lap_cluster_lpdf ys (to_unconstrained (m, v)) = sumR (map (lap_lpdf (mkLS m v)) ys).
Proof. exact lap_cluster_sum. Qed.
Print Assumptions C23_laplace_cluster.

Example ex_C23 : norm_cluster_lpdf 3 (3, 21) (5, ln 2) = sumR (map (norm_lpdf (mkLS 5 2)) uys).
Proof.
  rewrite <- (C23_cluster_shortcut uys 5 2) by lra. f_equal. unfold stats_of, uys; simpl. f_equal; ring.
Qed.

(** ** C24 *)
Theorem C24_round_trip :
  (forall s, 0 < ls_var s -> ls_set_unconstrained (ls_get_unconstrained s) = s) /\
  (forall u, ls_get_unconstrained (ls_set_unconstrained u) = u /\ 0 < ls_var (ls_set_unconstrained u)).
Proof. exact ls_round. Qed.
Print Assumptions C24_round_trip.

Theorem C24_jacobian :
  forall u, derivable_pt_lim (fun x => snd (to_constrained (fst u, x))) (snd u)
    (exp (ls_log_det_jac (ls_set_unconstrained u))).
Proof. exact jac_derivative. Qed.
Print Assumptions C24_jacobian.

(** Change of variables for the prior density. *)
Theorem C24_unconstrained_prior :
  forall lg h u,
  nig_lpdf_unconstrained lg h u = nig_lpdf lg h (ls_set_unconstrained u) + ls_log_det_jac (ls_set_unconstrained u).
Proof. exact nig_unconstrained. Qed.
Print Assumptions C24_unconstrained_prior.

Example ex_C24 : ls_set_unconstrained (ls_get_unconstrained us) = us.
Proof. apply (proj1 C24_round_trip). simpl; lra. Qed.

(** ** C28 *)
Theorem C28_mean_conditional :
  forall mu00 sig200 vs states, 0 < sig200 -> 0 < vs -> List.Forall (fun s => 0 < ls_var s) states ->
  exists C, forall m,
    normal_lpdf m mu00 (sqrt sig200) + sumR (map (fun s => normal_lpdf (ls_mean s) m (sqrt (ls_var s / vs))) states) =
    C + normal_lpdf m (fst (nig_mean_update mu00 sig200 vs states)) (sqrt (snd (nig_mean_update mu00 sig200 vs states))).
Proof. exact nig_mean_exact. Qed.
Print Assumptions C28_mean_conditional.

Theorem C28_mean_draw :
  forall G mu00 sig200 vs a b h states r,
  nig_update_hypers G (NIGMean mu00 sig200 vs a b) h states r =
  (let '(m, r1) := g_norm G (fst (nig_mean_update mu00 sig200 vs states)) (sqrt (snd (nig_mean_update mu00 sig200 vs states))) r in
   (mkNIG m (ng_vs h) (ng_shape h) (ng_scale h), r1)).
Proof. exact nig_mean_draw. Qed.
Print Assumptions C28_mean_draw.

Example ex_C28 : exists C, forall m,
  normal_lpdf m 0 (sqrt 4) + sumR (map (fun s => normal_lpdf (ls_mean s) m (sqrt (ls_var s / 3))) [mkLS 1 2; mkLS (-5) 1]) =
  C + normal_lpdf m (- 54 / 19) (sqrt (4 / 19)).
Proof.
  destruct (C28_mean_conditional 0 4 3 [mkLS 1 2; mkLS (-5) 1]) as [C H]; [lra|lra|repeat constructor; simpl; lra|].
  exists C. intros m. rewrite H. unfold nig_mean_update; simpl. f_equal. f_equal; [field|f_equal; field].
Qed.

(** ** C29 *)
(** [gg_sig] is the exact conditional variance of the location; passed as a standard
    deviation it gives the exact conditional iff it is 1. *)
Theorem C29_ngg_location :
  forall mu00 sig200 alpha00 beta00 a00 b00 h states,
  0 < sig200 -> 0 < ng_vs h -> List.Forall (fun s => 0 < ls_var s) states ->
  let p := ngg_update mu00 sig200 alpha00 beta00 a00 b00 h states in
  0 < gg_sig p /\
  (exists C, forall m,
    normal_lpdf m mu00 (sqrt sig200) + sumR (map (fun s => normal_lpdf (ls_mean s) m (sqrt (ls_var s / ng_vs h))) states) =
    C + normal_lpdf m (gg_mu p) (sqrt (gg_sig p))) /\
  ((exists C, forall m,
    normal_lpdf m mu00 (sqrt sig200) + sumR (map (fun s => normal_lpdf (ls_mean s) m (sqrt (ls_var s / ng_vs h))) states) =
    C + normal_lpdf m (gg_mu p) (gg_sig p)) <-> gg_sig p = 1).
Proof. exact ngg_location. Qed.
Print Assumptions C29_ngg_location.

(** The other two conditionals, given the location before the update. *)
Theorem C29_ngg_scaling :
  forall lg mu00 sig200 alpha00 beta00 a00 b00 h states,
  List.Forall (fun s => 0 < ls_var s) states ->
  let p := ngg_update mu00 sig200 alpha00 beta00 a00 b00 h states in
  exists C, forall v, 0 < v ->
    gamma_lpdf lg v alpha00 beta00 + sumR (map (fun s => normal_lpdf (ls_mean s) (ng_mean h) (sqrt (ls_var s / v))) states) =
    C + gamma_lpdf lg v (gg_alpha p) (gg_beta p).
Proof. exact ngg_scaling. Qed.
Print Assumptions C29_ngg_scaling.

Theorem C29_ngg_rate :
  forall lg mu00 sig200 alpha00 beta00 a00 b00 h states,
  let p := ngg_update mu00 sig200 alpha00 beta00 a00 b00 h states in
  exists C, forall v, 0 < v ->
    gamma_lpdf lg v a00 b00 + sumR (map (fun s => inv_gamma_lpdf lg (ls_var s) (ng_shape h) v) states) =
    C + gamma_lpdf lg v (gg_a p) (gg_b p).
Proof. exact ngg_rate. Qed.
Print Assumptions C29_ngg_rate.

Theorem C29_ngg_draw :
  forall G mu00 sig200 alpha00 beta00 a00 b00 al0 h states r,
  let p := ngg_update mu00 sig200 alpha00 beta00 a00 b00 h states in
  exists m v s r1 r2 r3,
    g_norm G (gg_mu p) (gg_sig p) r = (m, r1) /\ g_gamma G (gg_alpha p) (gg_beta p) r1 = (v, r2) /\
    g_gamma G (gg_a p) (gg_b p) r2 = (s, r3) /\
    nig_update_hypers G (NIGNgg mu00 sig200 alpha00 beta00 a00 b00 al0) h states r = (mkNIG m v (ng_shape h) s, r3).
Proof. exact ngg_draw. Qed.
Print Assumptions C29_ngg_draw.

Theorem C29_ngg_exact_refuted :
  exists mu00 sig200 alpha00 beta00 a00 b00 h states,
  0 < sig200 /\ 0 < ng_vs h /\ List.Forall (fun s => 0 < ls_var s) states /\
  let p := ngg_update mu00 sig200 alpha00 beta00 a00 b00 h states in
  ~ exists C, forall m,
    normal_lpdf m mu00 (sqrt sig200) + sumR (map (fun s => normal_lpdf (ls_mean s) m (sqrt (ls_var s / ng_vs h))) states) =
    C + normal_lpdf m (gg_mu p) (gg_sig p).
Proof.
  exists 0, 1, 1, 1, 1, 1, uh, [mkLS 1 1]. assert (HV : 0 < ng_vs uh) by (simpl; lra).
  assert (HF : List.Forall (fun s => 0 < ls_var s) [mkLS 1 1]) by (repeat constructor; simpl; lra).
  split; [lra|]. split; [exact HV|]. split; [exact HF|]. intros p H.
  destruct (ngg_location 0 1 1 1 1 1 uh [mkLS 1 1] ltac:(lra) HV HF) as (_ & _ & E). apply E in H.
  unfold ngg_update in H; simpl in H. 
  assert (2 / 3 = 1); [|lra]. rewrite <- H. field.
Qed.
Print Assumptions C29_ngg_exact_refuted.

Example ex_C29 : 0 < gg_sig (ngg_update 0 1 1 1 1 1 uh [mkLS 1 1; mkLS 2 3]).
Proof. apply (C29_ngg_location 0 1 1 1 1 1 uh); [lra|simpl; lra|repeat constructor; simpl; lra]. Qed.

(** ** C30 *)
Theorem C30_metropolis :
  forall (P : Type) (like prior : P -> R) (q : P -> P -> R) (x y : P),
  exp (like x + prior x) * exp (q y x) * acc (metropolis_log_arate like q q x y) =
  exp (like y + prior y) * exp (q x y) * acc (metropolis_log_arate like q q y x)
  <-> prior x = prior y.
Proof. exact metropolis_balance. Qed.
Print Assumptions C30_metropolis.

(** With the uninitialised accumulators [j1], [j2] of the two proposal densities. *)
Theorem C30_metropolis_uninitialised :
  forall (P : Type) (like : P -> R) (q : P -> P -> R) (j1 j2 : R) (x y : P),
  exp (like x) * exp (q y x) * acc (metropolis_log_arate like (fun a b => j1 + q a b) (fun a b => j2 + q a b) x y) =
  exp (like y) * exp (q x y) * acc (metropolis_log_arate like (fun a b => j1 + q a b) (fun a b => j2 + q a b) y x)
  <-> j1 = j2 \/ like x + q y x = like y + q x y.
Proof. exact metropolis_junk. Qed.
Print Assumptions C30_metropolis_uninitialised.

Theorem C30_random_walk_symmetric :
  forall j step x y, rw_proposal_lpdf j step x y = rw_proposal_lpdf j step y x.
Proof. exact rw_symmetric. Qed.
Print Assumptions C30_random_walk_symmetric.

Theorem C30_posterior_balance_refuted :
  exists (like prior : R * R -> R) (q : R * R -> R * R -> R) x y,
  exp (like x + prior x) * exp (q y x) * acc (metropolis_log_arate like q q x y) <>
  exp (like y + prior y) * exp (q x y) * acc (metropolis_log_arate like q q y x).
Proof.
  exists (norm_cluster_lpdf (cardZ uys) (stats_of uys)), (nig_lpdf_unconstrained (fun _ => 0) uh), (rw_proposal_lpdf 0 1), (0, 0), (1, 0).
  intros H. apply C30_metropolis in H. revert H.
  unfold nig_lpdf_unconstrained, normal_lpdf, to_constrained, log_det_jac, uh; simpl. rewrite exp_0.
  replace (1 / / 2) with 2 by field. intros H.
  set (q := sqrt 2) in *. assert (Hq : q * q = 2) by (apply sqrt_sqrt; lra).
  assert (Hq0 : 0 < q) by (apply sqrt_lt_R0; lra). 
  assert (E : - ((0 - 1) / q) * ((0 - 1) / q) / 2 = - / 4).
  { replace (- ((0 - 1) / q) * ((0 - 1) / q) / 2) with (- / (q * q) / 2) by (field; lra). rewrite Hq. field. }
  assert (E2 : - ((1 - 1) / q) * ((1 - 1) / q) / 2 = 0) by (field; lra).
  rewrite E, E2 in H. lra.
Qed.
Print Assumptions C30_posterior_balance_refuted.

Example ex_C30 : exp (norm_cluster_lpdf 3 (3, 21) (0, 0)) * exp (rw_proposal_lpdf 7 1 (1, 2) (0, 0)) *
    acc (metropolis_log_arate (norm_cluster_lpdf 3 (3, 21)) (rw_proposal_lpdf 7 1) (rw_proposal_lpdf 7 1) (0, 0) (1, 2)) =
  exp (norm_cluster_lpdf 3 (3, 21) (1, 2)) * exp (rw_proposal_lpdf 7 1 (0, 0) (1, 2)) *
    acc (metropolis_log_arate (norm_cluster_lpdf 3 (3, 21)) (rw_proposal_lpdf 7 1) (rw_proposal_lpdf 7 1) (1, 2) (0, 0)).
Proof.
  pose proof (C30_metropolis _ (norm_cluster_lpdf 3 (3, 21)) (fun _ => 0) (rw_proposal_lpdf 7 1) (0, 0) (1, 2)) as [_ H].
  rewrite !Rplus_0_r in H. apply H. reflexivity.
Qed.

(** ** C70 *)
Theorem C70_lapnig_throws :
  forall G step j1 j2 ys h deriv s r,
  mala_draw G step j1 j2 (lap_cluster_lpdf ys) (nxig_lpdf_unconstrained h) deriv s r
  = Throw "lpdf_from_unconstrained() not yet implemented".
Proof. exact lapnig_throws. Qed.
Print Assumptions C70_lapnig_throws.

Example ex_C70 : mala_draw uG (/ 2) 0 0 (lap_cluster_lpdf uys) (nxig_lpdf_unconstrained uxh) (fun u => u) us 0%nat
  = Throw "lpdf_from_unconstrained() not yet implemented".
Proof. apply C70_lapnig_throws. Qed.

(** ** C71 *)
Theorem C71_nig_sample :
  forall lg G h r,
  exists v m r1 r2,
    g_invgamma G (ng_shape h) (ng_scale h) r = (v, r1) /\ g_norm G (ng_mean h) (sqrt (v / ng_vs h)) r1 = (m, r2) /\
    nig_sample G h r = (mkLS m v, r2) /\
    inv_gamma_lpdf lg v (ng_shape h) (ng_scale h) + normal_lpdf m (ng_mean h) (sqrt (v / ng_vs h)) =
    nig_lpdf lg h (fst (nig_sample G h r)).
Proof. exact nig_sample_law. Qed.
Print Assumptions C71_nig_sample.

Theorem C71_nxig_sample :
  forall lg G h r,
  exists v m r1 r2,
    g_norm G (nx_mean h) (sqrt (nx_var h)) r = (m, r1) /\ g_invgamma G (nx_shape h) (nx_scale h) r1 = (v, r2) /\
    nxig_sample G h r = (mkLS m v, r2) /\
    normal_lpdf m (nx_mean h) (sqrt (nx_var h)) + inv_gamma_lpdf lg v (nx_shape h) (nx_scale h) =
    nxig_lpdf lg h (fst (nxig_sample G h r)).
Proof. exact nxig_sample_law. Qed.
Print Assumptions C71_nxig_sample.

Example ex_C71 : forall lg, exists v m, fst (nig_sample uG uh 0%nat) = mkLS m v /\
  inv_gamma_lpdf lg v 2 3 + normal_lpdf m 1 (sqrt (v / / 2)) = nig_lpdf lg uh (mkLS m v).
Proof.
  intros lg. destruct (C71_nig_sample lg uG uh 0%nat) as (v & m & r1 & r2 & E1 & E2 & E3 & E4).
  exists v, m. rewrite E3 in *. auto.
Qed.

(** ** C72 *)
Theorem C72_accepted_valid :
  forall p h, nig_init p = Ok h -> valid h.
Proof. exact nig_init_valid. Qed.
Print Assumptions C72_accepted_valid.

Theorem C72_updates_valid :
  forall G p h states r,
  (forall a b r, 0 < a -> 0 < b -> 0 < fst (g_gamma G a b r)) ->
  nig_init p = Ok h \/ valid h -> (forall mu s al be a b a0, p = NIGNgg mu s al be a b a0 -> 0 < al /\ 0 < be /\ 0 < a /\ 0 < b) ->
  List.Forall (fun s => 0 < ls_var s) states ->
  valid (fst (nig_update_hypers G p h states r)).
Proof. exact nig_update_valid. Qed.
Print Assumptions C72_updates_valid.

Theorem C72_ngg_variance :
  forall mu00 sig200 al be a b al0 h,
  nig_init (NIGNgg mu00 sig200 al be a b al0) = Ok h -> 0 < sig200.
Proof. exact nig_init_variance. Qed.
Print Assumptions C72_ngg_variance.

Theorem C72_mean_variance_iff :
  forall mu00 sig200 vs states,
  let prec := 1 / sig200 + vs * sumR (map (fun s => 1 / ls_var s) states) in
  prec <> 0 -> (0 < snd (nig_mean_update mu00 sig200 vs states) <-> 0 < prec).
Proof. exact nig_mean_variance_iff. Qed.
Print Assumptions C72_mean_variance_iff.

(** An accepted normal prior on the mean with a negative variance: the variance of
    the conditional draw is negative. *)
Theorem C72_mean_variance_refuted :
  exists mu00 sig200 vs a b h states,
    nig_init (NIGMean mu00 sig200 vs a b) = Ok h /\ List.Forall (fun s => 0 < ls_var s) states /\
    states <> [] /\ snd (nig_mean_update mu00 sig200 vs states) < 0.
Proof. exact nig_mean_variance_refuted. Qed.
Print Assumptions C72_mean_variance_refuted.

Example ex_C72 : nig_init (NIGNgg 0 1 2 3 4 5 6) = Ok (mkNIG 0 (2 / 3) 6 (4 / 5)).
Proof. simpl. rewrite !(proj2 (lteb_false _ _)) by lra. reflexivity. Qed.
Example ex_C72_update : valid (fst (nig_update_hypers uG (NIGNgg 0 1 2 3 4 5 6) (mkNIG 0 (2 / 3) 6 (4 / 5)) [us; mkLS 2 2] 0%nat)).
Proof.
  apply C72_updates_valid.
  - intros a b r Ha Hb. simpl. apply Rdiv_lt_0_compat; auto.
  - left. exact ex_C72.
  - intros mu s al be a b a0 E. injection E as <- <- <- <- <- <- <-. lra.
  - repeat constructor; simpl; lra.
Qed.

