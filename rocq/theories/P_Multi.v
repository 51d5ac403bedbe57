(** * Property theorems: multivariate hierarchies. *)
From Coq Require Import String ZArith Reals Classical_Pred_Type.
From mathcomp Require Import all_ssreflect all_algebra.
From mathcomp.algebra_tactics Require Import ring.
From Verif Require Import Base Mixings Univ RealField MatLib Multi MultiFacts NnwFacts LinFacts Fa FaFacts NwHyper.
Set Implicit Arguments.
Unset Strict Implicit.
Unset Printing Implicit Defensive.
Import Order.TTheory GRing.Theory Num.Theory.
Local Open Scope ring_scope.

(** Concrete hyperparameters, data and generators used in the examples. *)
Definition mS : 'M[R]_2 := 1%:M + const_mx 1 *m (const_mx 1 : 'cV[R]_2)^T.
Lemma mS_spd : spd mS.
Proof. apply: spd_add; [exact: spd1 | exact: psd_outer]. Qed.
Lemma mS_offdiag : mS 0 1 = 1.
Proof. by rewrite !mxE big_ord1 !mxE /= mul1r add0r. Qed.
Definition mh : nw 2 := mkNW (const_mx 1) 2%:R 3%:R mS (invmx mS) (llt_U mS).
Lemma mh_valid : nw_valid mh.
Proof.
  split; first by rewrite ltr0n. split; last by split; [exact: mS_spd | split].
  by rewrite /= ltr_subl_addr -[1]/(1%:R) -natrD ltr_nat.
Qed.
Definition mo : 'cV[R]_2 := const_mx 1.
Definition mi : 'cV[R]_2 := \col_i i%:R.
Definition mys : seq 'cV[R]_2 := [:: mo; mi; 0].
Definition lh : mnig 2 := mkMNIG (const_mx 1) mS 2%:R 3%:R.
Lemma lh_valid : mnig_valid lh.
Proof. by split; [exact: mS_spd | rewrite /= !ltr0n]. Qed.
Definition lys : seq (R * 'cV[R]_2) := [:: (1, mo); (2%:R, mi); (0, 0)].
(** Generators that return their location parameter, or 2. *)
Definition mG : gen := mkGen nat (fun m _ r => (m, S r)) (fun _ _ r => (2%:R, S r)) (fun _ _ r => (2%:R, S r))
  (fun _ _ r => (1, S r)) (fun _ r => (0%N, S r)).
Definition mM : mgen mG := @mkMgen mG (fun d _ S r => (S, r)) (fun d _ S r => (S, r)) (fun d m _ r => (m, r)) (fun d m _ r => (m, r)).
Definition fpsi : 'cV[R]_2 := const_mx 2%:R.
Definition flam : 'M[R]_(2, 1) := const_mx 1.
Lemma fpsi_pos : pos_vec fpsi.
Proof. by move=> j; rewrite mxE ltr0n. Qed.
Definition fh : fa_hyp 2 := mkFAH 0 (const_mx 1) 2%:R 3%:R.

(** ** C18 *)
Theorem C18_nnw_valid : forall d (h : nw d) ys, nw_valid h ->
  exists h', nw_set_proto (nnw_post h (cardZ' ys) (mstats_of ys)) = Ok h' /\ nw_valid h'.
Proof. exact nnw_post_valid. Qed.
Print Assumptions C18_nnw_valid.
Theorem C18_linreg_valid : forall d (h : mnig d) ys, mnig_valid h ->
  mnig_valid (mnig_post h (cardZ' ys) (lin_stats_of ys)).
Proof. exact mnig_post_valid. Qed.
Print Assumptions C18_linreg_valid.
Example ex_C18_nnw : exists h', nw_set_proto (nnw_post mh (cardZ' mys) (mstats_of mys)) = Ok h' /\ spd (nw_scale h').
Proof. have [h' [E [_ [_ [H _]]]]] := C18_nnw_valid mys mh_valid. by exists h'. Qed.
Example ex_C18_linreg : 0 < mg_scale (mnig_post lh (cardZ' lys) (lin_stats_of lys)).
Proof. by have [_ []] := C18_linreg_valid lys lh_valid. Qed.

(** ** C19 *)
Theorem C19_nnw_compose : forall d (h h' : nw d) a b, nw_valid h ->
  nw_set_proto (nnw_post h (cardZ' a) (mstats_of a)) = Ok h' ->
  nnw_post h' (cardZ' b) (mstats_of b) = nnw_post h (cardZ' (a ++ b)) (mstats_of (a ++ b)).
Proof. exact nnw_compose. Qed.
Print Assumptions C19_nnw_compose.
Theorem C19_nnw_perm : forall d (h : nw d) a b, perm_eq a b ->
  nnw_post h (cardZ' a) (mstats_of a) = nnw_post h (cardZ' b) (mstats_of b).
Proof. exact nnw_perm. Qed.
Print Assumptions C19_nnw_perm.
Theorem C19_linreg_compose : forall d (h : mnig d) a b, mnig_valid h ->
  mnig_post (mnig_post h (cardZ' a) (lin_stats_of a)) (cardZ' b) (lin_stats_of b) =
  mnig_post h (cardZ' (a ++ b)) (lin_stats_of (a ++ b)).
Proof. exact lin_compose. Qed.
Print Assumptions C19_linreg_compose.
Theorem C19_linreg_perm : forall d (h : mnig d) a b, perm_eq a b ->
  mnig_post h (cardZ' a) (lin_stats_of a) = mnig_post h (cardZ' b) (lin_stats_of b).
Proof. exact lin_perm. Qed.
Print Assumptions C19_linreg_perm.
Example ex_C19_nnw : exists h', nw_set_proto (nnw_post mh (cardZ' [:: mo]) (mstats_of [:: mo])) = Ok h' /\
  nnw_post h' (cardZ' [:: 0; mi]) (mstats_of [:: 0; mi]) = nnw_post mh (cardZ' mys) (mstats_of mys).
Proof.
  have [h' [E _]] := C18_nnw_valid [:: mo] mh_valid. exists h'; split; first exact: E.
  rewrite (C19_nnw_compose [:: 0; mi] mh_valid E). apply: C19_nnw_perm.
  by rewrite /= perm_cons -[[:: 0; _]]/([:: 0] ++ [:: mi]) -[[:: _; 0]]/([:: mi] ++ [:: 0]) perm_catC.
Qed.
Example ex_C19_linreg : mnig_post (mnig_post lh (cardZ' (take 1 lys)) (lin_stats_of (take 1 lys)))
    (cardZ' (drop 1 lys)) (lin_stats_of (drop 1 lys)) = mnig_post lh (cardZ' lys) (lin_stats_of lys).
Proof. by rewrite (C19_linreg_compose (take 1 lys) (drop 1 lys) lh_valid) cat_take_drop. Qed.

(** ** C21 *)
Theorem C21_nnw_quadratic : forall d (h : nw d) (ys : seq 'cV[R]_d) (m : 'cV[R]_d) (P : 'M[R]_d),
  0 < nw_vs h -> P^T = P -> (0 < size ys)%N ->
  let n := (size ys)%:R in
  let hn := nnw_post h (cardZ' ys) (mstats_of ys) in
  nw_vs h * quad P (m - nw_mean h) + \sum_(y <- ys) quad P (y - m) + \tr (nw_sinv h *m P) =
  np_vs hn * quad P (m - np_mean hn) + \tr (nnw_scale_inv h n (mstats_of ys) *m P).
Proof. exact nnw_quadratic. Qed.
Print Assumptions C21_nnw_quadratic.
(** With the normalising constants: prior times likelihood is the marginal
    likelihood times the density with the posterior hyperparameters. *)
Theorem C21_nnw_bayes : forall lg d (h h' : nw d) (ys : seq 'cV[R]_d) (m : 'cV[R]_d) (P : 'M[R]_d),
  nw_valid h -> spd P -> nw_set_proto (nnw_post h (cardZ' ys) (mstats_of ys)) = Ok h' ->
  nw_lpdf lg h m P + \sum_(y <- ys) stan_mvn_prec_lpdf y m P = nw_log_marg lg h ys + nw_lpdf lg h' m P.
Proof. exact nnw_bayes. Qed.
Print Assumptions C21_nnw_bayes.
Example ex_C21 : forall lg, exists h', nw_set_proto (nnw_post mh 3 (mstats_of mys)) = Ok h' /\ nw_vs h' = 5%:R /\
  nw_lpdf lg mh 0 mS + \sum_(y <- mys) stan_mvn_prec_lpdf y 0 mS = nw_log_marg lg mh mys + nw_lpdf lg h' 0 mS.
Proof.
  move=> lg. have [h' [E _]] := C18_nnw_valid mys mh_valid. exists h'. split; first exact: E. split.
  - have := E. rewrite /nnw_post /= /nw_set_proto /=. case: (inverse_spd _) => [B|m||] //= [<-] /=.
    by rewrite -[IZR _]/(IZR (cardZ' mys)) IZR_size -natrD.
  - exact: (C21_nnw_bayes lg 0 mh_valid mS_spd E).
Qed.

(** ** C22 *)
Theorem C22_linreg_quadratic : forall d (h : mnig d) ys (b : 'cV[R]_d), spd (mg_vs h) ->
  let hn := mnig_post h (cardZ' ys) (lin_stats_of ys) in
  quad (mg_vs h) (b - mg_mean h) + \sum_(o <- ys) (o.1 - dot b o.2) ^+ 2 =
  quad (mg_vs hn) (b - mg_mean hn) + 2%:R * (mg_scale hn - mg_scale h).
Proof. exact lin_quadratic. Qed.
Print Assumptions C22_linreg_quadratic.
Theorem C22_linreg_bayes : forall lg d (h : mnig d) ys (s : lrs d), mnig_valid h -> 0 < lr_var s ->
  mnig_lpdf lg h s + \sum_(o <- ys) lin_lpdf s o.1 o.2 =
  lin_log_marg lg h ys + mnig_lpdf lg (mnig_post h (cardZ' ys) (lin_stats_of ys)) s.
Proof. exact lin_bayes. Qed.
Print Assumptions C22_linreg_bayes.
Example ex_C22 : forall lg, mnig_lpdf lg lh (mkLRS 0 2%:R) + \sum_(o <- lys) lin_lpdf (mkLRS 0 2%:R) o.1 o.2 =
  lin_log_marg lg lh lys + mnig_lpdf lg (mnig_post lh 3 (lin_stats_of lys)) (mkLRS 0 2%:R).
Proof. move=> lg. apply: (C22_linreg_bayes lg lys lh_valid). by rewrite ltr0n. Qed.

(** ** C73 *)
Theorem C73_nnw_predictive : forall lg d (h : nw d) (y : 'cV[R]_d), (0 < d)%N -> nw_valid h ->
  nnw_marg_lpdf lg (nw_proto h) y = nw_log_marg lg h [:: y].
Proof. exact nnw_predictive. Qed.
Print Assumptions C73_nnw_predictive.
Theorem C73_nnw_chain : forall lg d (h h' : nw d) (ys : seq 'cV[R]_d) (y : 'cV[R]_d), (0 < d)%N -> nw_valid h ->
  nw_set_proto (nnw_post h (cardZ' ys) (mstats_of ys)) = Ok h' ->
  nnw_marg_lpdf lg (nnw_post h (cardZ' ys) (mstats_of ys)) y + nw_log_marg lg h ys = nw_log_marg lg h (y :: ys).
Proof. exact nnw_chain. Qed.
Print Assumptions C73_nnw_chain.
Theorem C73_linreg_predictive : forall lg d (h : mnig d) (y : R) (x : 'cV[R]_d), mnig_valid h ->
  lin_marg_lpdf lg h y x = lin_log_marg lg h [:: (y, x)].
Proof. exact lin_predictive. Qed.
Print Assumptions C73_linreg_predictive.
Theorem C73_linreg_chain : forall lg d (h : mnig d) ys y x, mnig_valid h ->
  lin_marg_lpdf lg (mnig_post h (cardZ' ys) (lin_stats_of ys)) y x + lin_log_marg lg h ys = lin_log_marg lg h ((y, x) :: ys).
Proof. exact lin_chain. Qed.
Print Assumptions C73_linreg_chain.
(** The grid versions return the same values row by row. *)
Theorem C73_grid : forall lg n d (data : 'M[R]_(n, d)) df m C ld i,
  mst_lpdf_grid lg data df m C ld i 0 = mst_lpdf lg (row i data)^T df m C ld.
Proof. exact mst_grid_row. Qed.
Print Assumptions C73_grid.
Example ex_C73_nnw : forall lg (y : 'cV[R]_2),
  nnw_marg_lpdf lg (nnw_post mh (cardZ' mys) (mstats_of mys)) y + nw_log_marg lg mh mys = nw_log_marg lg mh (y :: mys).
Proof. move=> lg y. have [h' [E _]] := C18_nnw_valid mys mh_valid. exact: (C73_nnw_chain lg y _ mh_valid E). Qed.
Example ex_C73_linreg : forall lg, lin_marg_lpdf lg lh 1 mo = lin_log_marg lg lh [:: (1, mo)].
Proof. move=> lg. exact: C73_linreg_predictive lh_valid. Qed.

(** ** C25 *)
Theorem C25_density_factor : forall d (y m : 'cV[R]_d) (C P : 'M[R]_d) ld, C *m C^T = P -> ld = ln (\det P) ->
  mvn_prec_lpdf y m C ld = stan_mvn_prec_lpdf y m P.
Proof. exact mvn_prec_factor. Qed.
Print Assumptions C25_density_factor.
(** States set from unconstrained parameters follow this convention. *)
Theorem C25_constrained_state : forall d (m y : 'cV[R]_d) (P : 'M[R]_d), spd P ->
  mnorm_lpdf (mls_set_constrained m P) y = stan_mvn_prec_lpdf y m P.
Proof. exact set_constrained_density. Qed.
Print Assumptions C25_constrained_state.
Theorem C25_grid : forall n d (data : 'M[R]_(n, d)) m C ld i,
  mvn_prec_lpdf_grid data m C ld i 0 = mvn_prec_lpdf (row i data)^T m C ld.
Proof. exact mvn_grid_row. Qed.
Print Assumptions C25_grid.
(** States written by the normal-Wishart prior give the right density exactly
    when the precision is diagonal. *)
Theorem C25_prior_state_iff : forall d (P : 'M[R]_d), spd P ->
  (forall m y, mnorm_lpdf (write_prec_to_state m P) y = stan_mvn_prec_lpdf y m P) <->
  (forall i j, i != j -> P i j = 0).
Proof. exact write_prec_right_iff. Qed.
Print Assumptions C25_prior_state_iff.
Lemma prior_sample_wrong : exists (G : gen) (M : mgen G) d (p : nwp d) (r : Gs G) (y : 'cV[R]_d),
  let s := (nw_sample M p r).1 in
  spd (ml_prec s) /\ mnorm_lpdf s y <> stan_mvn_prec_lpdf y (ml_mean s) (ml_prec s).
Proof.
  have H : ~ (forall m y, mnorm_lpdf (write_prec_to_state m mS) y = stan_mvn_prec_lpdf y m mS).
  { move/(C25_prior_state_iff mS_spd)/(_ 0 1 isT); rewrite mS_offdiag => /eqP. by rewrite oner_eq0. }
  have [m Hm] := not_all_ex_not _ _ H. have [y Hy] := not_all_ex_not _ _ Hm.
  exists mG, mM, 2%N, (mkNWP m 1 3%:R mS 0), 0%N, y. split=> //=. exact: mS_spd.
Qed.
Theorem C25_prior_sample_density_refuted : exists (G : gen) (M : mgen G) d (p : nwp d) (r : Gs G) (y : 'cV[R]_d),
  let s := (nw_sample M p r).1 in
  spd (ml_prec s) /\ mnorm_lpdf s y <> stan_mvn_prec_lpdf y (ml_mean s) (ml_prec s).
Proof. exact prior_sample_wrong. Qed.
Print Assumptions C25_prior_sample_density_refuted.
Example ex_C25 : mnorm_lpdf (mls_set_constrained (const_mx 1) mS) 0 = stan_mvn_prec_lpdf 0 (const_mx 1) mS.
Proof. exact: C25_constrained_state mS_spd. Qed.
Example ex_C25_diag : forall m y, mnorm_lpdf (write_prec_to_state m (2%:R%:M : 'M[R]_2)) y = stan_mvn_prec_lpdf y m 2%:R%:M.
Proof.
  apply/C25_prior_state_iff; last by move=> i j /negbTE H; rewrite mxE H.
  have -> : 2%:R%:M = 2%:R *: 1%:M :> 'M[R]_2 by rewrite scalemx1. apply: spd_scale; [by rewrite ltr0n | exact: spd1].
Qed.

(** ** C26 *)
Theorem C26_woodbury : forall p q (psi : 'cV[R]_p) (lambda : 'M[R]_(p, q)), pos_vec psi ->
  forall y mu : 'cV[R]_p, mvn_woodbury_lpdf y mu psi lambda = stan_mvn_lpdf y mu (fa_cov psi lambda).
Proof. exact woodbury. Qed.
Print Assumptions C26_woodbury.
Theorem C26_logdet : forall p q (psi : 'cV[R]_p) (lambda : 'M[R]_(p, q)), pos_vec psi ->
  (wood_chol_and_logdet (cwise_inv psi) lambda).2 = ln (\det (fa_cov psi lambda)).
Proof. exact wood_logdet. Qed.
Print Assumptions C26_logdet.
Example ex_C26 : mvn_woodbury_lpdf 0 (const_mx 1) fpsi flam = stan_mvn_lpdf 0 (const_mx 1) (fa_cov fpsi flam).
Proof. exact: C26_woodbury fpsi_pos _ _. Qed.

(** ** C27 *)
Theorem C27_psi_exact_iff_even : forall lg p q (h : fa_hyp p) (mu : 'cV[R]_p) (lambda : 'M[R]_(p, q)) (eta : seq 'cV[R]_q)
    (ys : seq 'cV[R]_p) j, size eta = size ys ->
  (exists C : R, forall v : R, 0 < v -> fa_psi_target lg h mu lambda eta ys j v =
      C + inv_gamma_lpdf lg v (fa_psi_shape h (size ys)) (fa_psi_scale h mu lambda eta ys j))
  <-> ~~ odd (size ys).
Proof. exact fa_psi_iff. Qed.
Print Assumptions C27_psi_exact_iff_even.
(** After a draw the density still uses the old [psi] and [lambda]. *)
Theorem C27_stale_density : forall (G : gen) p q (h : fa_hyp p) ys ds (s : fa_st p q) (r r' : Gs G) s', (0 < size ys)%N ->
  fa_consistent s -> pos_vec (fa_psi s) -> fa_draw h ys ds s r = Ok (s', r') ->
  forall y, fa_lpdf s' y = Ok (stan_mvn_lpdf y (fa_mu s') (fa_cov (fa_psi s) (fa_lambda s))).
Proof. exact fa_draw_stale. Qed.
Print Assumptions C27_stale_density.
Definition f1 : fa_st 1 1 := fa_cache 0 (const_mx 1) [::] 0.
Definition fh1 : fa_hyp 1 := mkFAH 0 (const_mx 1) 1 1.
Lemma draw_psi_const : forall (G : gen) p q (h : fa_hyp p) (mu : 'cV[R]_p) (lambda : 'M[R]_(p, q)) eta ys js c (r : Gs G),
  (forall a b r, (g_invgamma G a b r).1 = c) -> (fa_draw_psi h mu lambda eta ys js r).1 = nseq (size js) c.
Proof.
  move=> G p q h mu lambda eta ys js c r Hc. elim: js r => [|j js IH] r //=.
  have := Hc (fa_psi_shape h (size ys)) (fa_psi_scale h mu lambda eta ys j) r.
  case: (g_invgamma _ _ _ _) => v r1 /= ->. have := IH r1. by case: (fa_draw_psi _ _ _ _ _ _ _) => vs r2 /= ->.
Qed.
Lemma draw_const : forall (G : gen) p q (h : fa_hyp p) ys ds (s : fa_st p q) c (r : Gs G) pinv,
  fa_pinv s = Some pinv -> (0 < size ys)%N -> (forall a b r, (g_invgamma G a b r).1 = c) ->
  exists s' r', fa_draw h ys ds s r = Ok (s', r') /\ fa_psi s' = const_mx c.
Proof.
  move=> G p q h ys ds s c r pinv Hp Hn Hc. rewrite /fa_draw Hp. have -> : (size ys == 0)%N = false by case: (size ys) Hn.
  case: (fa_draw_eta _ _ _ _ _) => eta r1. case: (mvn_diag_rng _ _ _) => mu r2.
  have := draw_psi_const h mu (fa_lambda s) eta ys (enum 'I_p) r2 Hc.
  case: (fa_draw_psi _ _ _ _ _ _ _) => psi r3 /= ->. case: (fa_draw_lambda _ _ _ _ _ _) => lam r4.
  do 2 eexists; split; first by []. apply/matrixP => i j; rewrite !mxE nth_nseq size_enum_ord. by rewrite ltn_ord.
Qed.
Lemma density_stale : exists (G : gen) p q (h : fa_hyp p) ys (s s' : fa_st p q) (r r' : Gs G) y,
  fa_consistent s /\ pos_vec (fa_psi s) /\ fa_draw h ys (\sum_(x <- ys) x) s r = Ok (s', r') /\
  fa_lpdf s' y <> Ok (stan_mvn_lpdf y (fa_mu s') (fa_cov (fa_psi s') (fa_lambda s'))).
Proof.
  have Hp : pos_vec (fa_psi f1) by move=> j; rewrite mxE ltr01.
  have Hc : forall (a b : R) r, (g_invgamma mG a b r).1 = 2%:R by [].
  have Hn : (0 < size [:: (0%R : 'cV[R]_1)])%N by [].
  have Hf : fa_consistent f1 by [].
  have [s' [r' [E Epsi]]] := @draw_const mG 1 1 fh1 [:: 0] (\sum_(x <- [:: 0]) x) f1 2%:R 0%N _ erefl Hn Hc.
  exists mG, 1%N, 1%N, fh1, [:: 0], f1, s', 0%N, r', (fa_mu s').
  split; first exact: Hf. split; first exact: Hp. split; first exact: E.
  rewrite (C27_stale_density Hn Hf Hp E) Epsi => -[].
  rewrite /stan_mvn_lpdf subrr /quad !mulmx0 !dot0r !mulr0 !subr0.
  have D1 : \det (fa_cov (const_mx 1) (0 : 'M[R]_(1, 1))) = 1.
  { by rewrite det_mx11 !mxE big_ord1 !mxE mul0r addr0 mulr1n. }
  have D2 : 1 < \det (fa_cov (const_mx 2%:R) (fa_lambda s')).
  { rewrite det_mx11 !mxE big_ord1 !mxE mulr1n -expr2. apply: (@lt_le_trans _ _ 2%:R); first by rewrite ltr1n.
    by rewrite ler_addl sqr_ge0. }
  rewrite D1 ln1 mulr0 subr0 => /eqP. rewrite -subr_eq0 opprD addrA subrr add0r opprK mulf_eq0 invr_eq0 pnatr_eq0 /=.
  move: D2 => /RltE D2. move/eqP. have := ln_increasing 1 _ Rlt_0_1 D2. rewrite ln_1 => H E0.
  by move: H; rewrite E0 => /Rlt_irrefl.
Qed.
Theorem C27_density_after_draw_refuted : exists (G : gen) p q (h : fa_hyp p) ys (s s' : fa_st p q) (r r' : Gs G) y,
  fa_consistent s /\ pos_vec (fa_psi s) /\ fa_draw h ys (\sum_(x <- ys) x) s r = Ok (s', r') /\
  fa_lpdf s' y <> Ok (stan_mvn_lpdf y (fa_mu s') (fa_cov (fa_psi s') (fa_lambda s'))).
Proof. exact density_stale. Qed.
Print Assumptions C27_density_after_draw_refuted.
Example ex_C27 : forall lg, exists C : R, forall v : R, 0 < v ->
  fa_psi_target lg fh (const_mx 1) flam [:: 0; const_mx 1] [:: 0; const_mx 1] 1 v =
  C + inv_gamma_lpdf lg v 4%:R (fa_psi_scale fh (const_mx 1) flam [:: 0; const_mx 1] [:: 0; const_mx 1] 1).
Proof.
  move=> lg. have [_ H] := @C27_psi_exact_iff_even lg 2 1 fh (const_mx 1) flam [:: 0; const_mx 1] [:: 0; const_mx 1] 1 erefl.
  have := H isT. by rewrite /fa_psi_shape /= -natrD.
Qed.

(** ** C74 *)
Theorem C74_scores_exact : forall p q (mu psi : 'cV[R]_p) (lambda : 'M[R]_(p, q)) y e, pos_vec psi ->
  std_lpdf e + fa_obs_lpdf mu psi lambda y e =
  stan_mvn_lpdf y mu (fa_cov psi lambda)
  + stan_mvn_prec_lpdf e (fa_eta_mean lambda (cwise_inv psi) mu y) (fa_eta_prec lambda (cwise_inv psi)).
Proof. exact fa_eta_exact. Qed.
Print Assumptions C74_scores_exact.
Theorem C74_loadings_exact : forall p q (mu psi : 'cV[R]_p) (eta : seq 'cV[R]_q) (ys : seq 'cV[R]_p) j,
  0 < psi j 0 -> size eta = size ys ->
  exists C : R, forall l : 'cV[R]_q,
    std_lpdf l + \sum_(oe <- zip ys eta) normal_lpdf (oe.1 j 0) (mu j 0 + dot l oe.2) (sqrt (psi j 0)) =
    C + stan_mvn_prec_lpdf l (fa_lambda_mean mu psi eta ys j) (fa_lambda_prec psi eta j).
Proof. exact fa_lambda_exact. Qed.
Print Assumptions C74_loadings_exact.
(** [tau] is the prior variance of the mean. *)
Theorem C74_mean_exact_iff : forall p q (h : fa_hyp p) tau (psi : 'cV[R]_p) (lambda : 'M[R]_(p, q)) (eta : seq 'cV[R]_q)
  (ys : seq 'cV[R]_p) j, size eta = size ys -> pos_vec psi -> 0 < tau -> 0 < fh_phi h ->
  let m := fa_mu_mean h (cwise_inv psi) lambda eta (size ys) (\sum_(y <- ys) y) in
  let c := fa_mu_cov (cwise_inv psi) (fh_phi h) (size ys) in
  (exists C : R, forall t : R, fa_mu_target h tau psi lambda eta ys j t = C + normal_lpdf t (m j 0) (sqrt (c j 0)))
  <-> tau * fh_phi h = 1.
Proof. exact fa_mu_iff. Qed.
Print Assumptions C74_mean_exact_iff.
Lemma mean_wrong : exists (p q : nat) (h : fa_hyp p) (psi : 'cV[R]_p) (lambda : 'M[R]_(p, q)) eta ys j,
  [/\ size eta = size ys, pos_vec psi, 0 < fh_phi h &
   ~ exists C : R, forall t : R, fa_mu_target h (fh_phi h) psi lambda eta ys j t =
      C + normal_lpdf t (fa_mu_mean h (cwise_inv psi) lambda eta (size ys) (\sum_(y <- ys) y) j 0)
                        (sqrt (fa_mu_cov (cwise_inv psi) (fh_phi h) (size ys) j 0))].
Proof.
  exists 2%N, 1%N, fh, fpsi, flam, [:: 0; const_mx 1], [:: 0; const_mx 1], 1.
  have H2 : (0 : R) < 2%:R by rewrite ltr0n.
  split=> //; first exact: fpsi_pos.
  move/(@C74_mean_exact_iff 2 1 fh (fh_phi fh) fpsi flam [:: 0; const_mx 1] [:: 0; const_mx 1] 1 erefl fpsi_pos H2 H2).
  by move=> /eqP; rewrite -natrM -[1]/(1%:R) eqr_nat.
Qed.
(** The prior density and the prior draw use the variance [phi]; the draw given
    the data uses [phi] as a precision. *)
Theorem C74_mean_draw_refuted : exists (p q : nat) (h : fa_hyp p) (psi : 'cV[R]_p) (lambda : 'M[R]_(p, q)) eta ys j,
  [/\ size eta = size ys, pos_vec psi, 0 < fh_phi h &
   ~ exists C : R, forall t : R, fa_mu_target h (fh_phi h) psi lambda eta ys j t =
      C + normal_lpdf t (fa_mu_mean h (cwise_inv psi) lambda eta (size ys) (\sum_(y <- ys) y) j 0)
                        (sqrt (fa_mu_cov (cwise_inv psi) (fh_phi h) (size ys) j 0))].
Proof. exact mean_wrong. Qed.
Print Assumptions C74_mean_draw_refuted.
Example ex_C74 : std_lpdf (const_mx 1 : 'cV[R]_1) + fa_obs_lpdf 0 fpsi flam (const_mx 1) (const_mx 1) =
  stan_mvn_lpdf (const_mx 1) 0 (fa_cov fpsi flam)
  + stan_mvn_prec_lpdf (const_mx 1) (fa_eta_mean flam (cwise_inv fpsi) 0 (const_mx 1)) (fa_eta_prec flam (cwise_inv fpsi)).
Proof. exact: C74_scores_exact fpsi_pos. Qed.

(** ** C75 *)
Theorem C75_prior_draw_unusable : forall (G : gen) p q (h : fa_hyp p) (r : Gs G) y,
  fa_lpdf (fa_sample q h r).1 y = UB.
Proof. exact fa_sample_unset. Qed.
Print Assumptions C75_prior_draw_unusable.
Theorem C75_draw_after_prior_draw : forall (G : gen) p q (h : fa_hyp p) ys ds (r r' : Gs G), (0 < size ys)%N ->
  fa_draw h ys ds (fa_sample q h r).1 r' = UB.
Proof. exact fa_sample_draw. Qed.
Print Assumptions C75_draw_after_prior_draw.
Theorem C75_initial_state : forall p q (pr : fa_prior p) h y, fa_init q pr = Ok h ->
  pos_vec (fa_psi (fa_init_state q h)) /\ fa_consistent (fa_init_state q h) /\
  fa_lpdf (fa_init_state q h) y =
    Ok (stan_mvn_lpdf y (fh_mutilde h) (diag_mx ((fh_alpha0 h + 1)^-1 *: fh_beta h)^T)).
Proof. exact fa_init_state_ok. Qed.
Print Assumptions C75_initial_state.
Theorem C75_through_message : forall p q (s : fa_st p q) y, pos_vec (fa_psi s) ->
  fa_lpdf (fa_through_proto s) y = Ok (stan_mvn_lpdf y (fa_mu s) (fa_cov (fa_psi s) (fa_lambda s))).
Proof. exact fa_lpdf_proto. Qed.
Print Assumptions C75_through_message.
Lemma fh_init : fa_init 1 (FAFixed 0 (const_mx 1) 2%:R 3%:R) = Ok fh.
Proof.
  have L : forall x : R, 0 < x -> lteb x 0 = false.
  { move=> x Hx; apply/negbTE/negP => /lteb_true0. by rewrite leNgt Hx. }
  rewrite /fa_init. case: existsP => [[j]|_]; first by rewrite mxE L ?ltr01.
  by rewrite !L ?ltr0n.
Qed.
Example ex_C75 : fa_lpdf (fa_init_state 1 fh) 0 = Ok (stan_mvn_lpdf 0 0 (diag_mx ((3%:R + 1)^-1 *: (const_mx 1 : 'cV[R]_2))^T)).
Proof. by have [_ [_ ->]] := C75_initial_state 0 fh_init. Qed.

(** ** C76 *)
Theorem C76_accepted_nw : forall d (mean : 'cV[R]_d) vs df scale,
  (exists h, nw_init (NWFixed mean vs df scale) = Ok h) <-> [/\ 0 < vs, d%:R - 1 < df & spd scale].
Proof. exact nw_init_fixed. Qed.
Print Assumptions C76_accepted_nw.
Theorem C76_initial_nw_valid : forall d (p : nw_prior d) h, nw_init p = Ok h -> nw_valid h.
Proof. exact nw_init_valid. Qed.
Print Assumptions C76_initial_nw_valid.
Theorem C76_accepted_mnig : forall d (mean : 'cV[R]_d) vs a b, (0 < d)%N ->
  (exists h, mnig_init (MNIGFixed mean vs a b) = Ok h) <-> [/\ spd vs, 0 < a & 0 < b].
Proof. exact mnig_init_fixed. Qed.
Print Assumptions C76_accepted_mnig.
Theorem C76_initial_mnig_valid : forall d (p : mnig_prior d) h, mnig_init p = Ok h -> mnig_valid h.
Proof. exact mnig_init_valid. Qed.
Print Assumptions C76_initial_mnig_valid.
Theorem C76_update_valid : forall (G : gen) (M : mgen G) d (p : nw_prior d) (h h' : nw d) states r r',
  (forall a b s, 0 < (g_gamma G a b s).1) -> nw_valid h ->
  nw_update_hypers M p h states r = Ok (h', r') -> nw_valid h'.
Proof. exact nw_update_valid. Qed.
Print Assumptions C76_update_valid.
Example ex_C76 : exists h, nw_init (NWFixed (const_mx 1) 2%:R 3%:R mS) = Ok h /\ nw_valid h.
Proof.
  have [_ H] := C76_accepted_nw (const_mx 1) 2%:R 3%:R mS. have [_ [Hd _]] := mh_valid.
  have [|h E] := H; first by split; [rewrite ltr0n | exact: Hd | exact: mS_spd].
  exists h; split=> //. exact: C76_initial_nw_valid E.
Qed.
Example ex_C76_mnig : exists h, mnig_init (MNIGFixed (const_mx 1) mS 2%:R 3%:R) = Ok h.
Proof. apply/C76_accepted_mnig => //. by split; [exact: mS_spd | rewrite ltr0n | rewrite ltr0n]. Qed.

(** ** C77 *)
Theorem C77_mean_update : forall d (mu00 : 'cV[R]_d) sigma00 vs (states : seq (mls d)), spd sigma00 -> 0 < vs ->
  states_spd states ->
  let u := nw_mean_update mu00 (invmx sigma00) vs states in
  spd u.2 /\ exists C : R, forall m,
    stan_mvn_lpdf m mu00 sigma00 + \sum_(s <- states) stan_mvn_prec_lpdf (ml_mean s) m (vs *: ml_prec s) =
    C + stan_mvn_prec_lpdf m u.1 u.2.
Proof. exact nw_mean_exact. Qed.
Print Assumptions C77_mean_update.
Theorem C77_ngiw_mean : forall d (mu00 : 'cV[R]_d) sigma00 a b nu tau (h : nw d) states, spd sigma00 -> 0 < nw_vs h ->
  states_spd states ->
  let q := ngiw_update mu00 (invmx sigma00) a b nu tau h states in
  nw_mean_update mu00 (invmx sigma00) (nw_vs h) states = (gi_mu q, gi_prec q).
Proof. exact ngiw_mean_same. Qed.
Print Assumptions C77_ngiw_mean.
Theorem C77_scale_update : forall lg d (mu00 : 'cV[R]_d) si a b nu tau (h : nw d) states,
  let q := ngiw_update mu00 si a b nu tau h states in
  exists C : R, forall S0, spd S0 ->
    stan_inv_wishart_lpdf lg S0 nu tau + \sum_(s <- states) stan_wishart_lpdf lg (ml_prec s) (nw_df h) S0 =
    C + stan_inv_wishart_lpdf lg S0 (gi_nu q) (gi_tau q).
Proof. exact ngiw_scale_exact. Qed.
Print Assumptions C77_scale_update.
(** The shape adds half the number of clusters instead of half that number
    times the dimension. *)
Theorem C77_scaling_exact_iff : forall lg d (mu00 : 'cV[R]_d) si a b nu tau (h : nw d) states, states_spd states ->
  let q := ngiw_update mu00 si a b nu tau h states in
  (exists C : R, forall v, 0 < v -> ngiw_vs_target lg a b h states v = C + gamma_lpdf lg v (gi_alpha q) (gi_beta q))
  <-> (d = 1%N \/ size states = 0%N).
Proof. exact ngiw_vs_iff. Qed.
Print Assumptions C77_scaling_exact_iff.
Definition mst : seq (mls 2) := [:: mls_set_constrained (const_mx 1) mS; mls_set_constrained 0 1%:M].
Lemma mst_spd : states_spd mst.
Proof. apply/states_spd_cons; split; first exact: mS_spd. apply/states_spd_cons; split=> //. exact: spd1. Qed.
Lemma scaling_wrong : exists lg d (mu00 : 'cV[R]_d) si a b nu tau (h : nw d) states, states_spd states /\
  let q := ngiw_update mu00 si a b nu tau h states in
  ~ exists C : R, forall v, 0 < v -> ngiw_vs_target lg a b h states v = C + gamma_lpdf lg v (gi_alpha q) (gi_beta q).
Proof.
  exists (fun _ => 0), 2%N, 0, (invmx mS), 1, 1, 3%:R, mS, mh, mst. split; first exact: mst_spd.
  by move=> q /(C77_scaling_exact_iff _ _ _ _ _ _ _ _ mst_spd) [].
Qed.
Theorem C77_scaling_update_refuted : exists lg d (mu00 : 'cV[R]_d) si a b nu tau (h : nw d) states, states_spd states /\
  let q := ngiw_update mu00 si a b nu tau h states in
  ~ exists C : R, forall v, 0 < v -> ngiw_vs_target lg a b h states v = C + gamma_lpdf lg v (gi_alpha q) (gi_beta q).
Proof. exact scaling_wrong. Qed.
Print Assumptions C77_scaling_update_refuted.
Example ex_C77 : exists C : R, forall m, stan_mvn_lpdf m 0 mS +
  \sum_(s <- mst) stan_mvn_prec_lpdf (ml_mean s) m (2%:R *: ml_prec s) =
  C + stan_mvn_prec_lpdf m (nw_mean_update 0 (invmx mS) 2%:R mst).1 (nw_mean_update 0 (invmx mS) 2%:R mst).2.
Proof. have [_ H] := C77_mean_update 0 mS_spd (two_gt0) mst_spd. exact: H. Qed.

(** ** C78 *)
Theorem C78_diag_generator : forall (G : gen) d (mean cov : 'cV[R]_d) (r : Gs G), pos_vec cov ->
  exists A : 'M[R]_d, A *m A^T = diag_mx cov^T /\
    mvn_diag_rng mean cov r = (mean + A *m colv d (std_normals d r).1, (std_normals d r).2).
Proof. exact diag_rng_ok. Qed.
Print Assumptions C78_diag_generator.
Theorem C78_precision_generator : forall (G : gen) d (mean : 'cV[R]_d) (P : 'M[R]_d) (r : Gs G), spd P ->
  exists A : 'M[R]_d, A *m A^T = invmx P /\
    mvn_prec_chol_rng mean P r = (mean + A *m colv d (std_normals d r).1, (std_normals d r).2).
Proof. exact prec_rng_ok. Qed.
Print Assumptions C78_precision_generator.
Example ex_C78 : exists A : 'M[R]_2, A *m A^T = invmx mS /\
  mvn_prec_chol_rng (const_mx 1) mS (0%N : Gs mG) = (const_mx 1 + A *m colv 2 [:: 0; 0], 2%N : Gs mG).
Proof. exact: (@C78_precision_generator mG 2 (const_mx 1) mS 0%N mS_spd). Qed.
