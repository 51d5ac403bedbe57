(** * Facts about the Woodbury density, the affine generators and the factor analytic hierarchy. *)
From Coq Require Import ZArith Reals Lra Lia.
From mathcomp Require Import all_ssreflect all_algebra.
From mathcomp.algebra_tactics Require Import ring.
From Verif Require Import Base Mixings Univ RealField MatLib Multi MultiFacts NnwFacts LinFacts Fa.
Set Implicit Arguments.
Unset Strict Implicit.
Unset Printing Implicit Defensive.
Import Order.TTheory GRing.Theory Num.Theory.
Local Open Scope ring_scope.

(** ** Specification vocabulary *)

Definition pos_vec p (v : 'cV[R]_p) : Prop := forall j, 0 < v j 0.
(** Covariance of the observations: diagonal plus low rank. *)
Definition fa_cov p q (psi : 'cV[R]_p) (lambda : 'M[R]_(p, q)) : 'M[R]_p := diag_mx psi^T + lambda *m lambda^T.
(** Log density of an observation given its factor scores. *)
Definition fa_obs_lpdf p q (mu psi : 'cV[R]_p) (lambda : 'M[R]_(p, q)) (y : 'cV[R]_p) (e : 'cV[R]_q) : R :=
  \sum_j normal_lpdf (y j 0) (mu j 0 + (lambda *m e) j 0) (sqrt (psi j 0)).
(** Log density of standard normal scores. *)
Definition std_lpdf q (e : 'cV[R]_q) : R := \sum_k normal_lpdf (e k 0) 0 1.

(** ** Triangular and diagonal matrices *)

Lemma inv_lower : forall d (L : 'M[R]_d), (forall i j : 'I_d, (i < j)%N -> L i j = 0) -> (forall i, 0 < L i i) ->
  L \in unitmx -> (forall i j : 'I_d, (i < j)%N -> invmx L i j = 0) /\ (forall i, invmx L i i = (L i i)^-1).
Proof.
  move=> d L HL HD HU; have E := mulVmx HU; set M := invmx L in E *.
  have K : forall k (i j : 'I_d), (d - j <= k)%N -> (i < j)%N -> M i j = 0.
  { elim=> [|k IH] i j Hk Hij; first by move: Hk; rewrite leqn0 subn_eq0 leqNgt ltn_ord.
    have Eij := congr1 (fun A : 'M[R]_d => A i j) E; rewrite !mxE (bigD1 j) //= in Eij.
    rewrite big1 ?addr0 in Eij.
    - have /eqP -> // : M i j == 0.
      have Hn : (i == j) = false by apply/negbTE; apply: contraTN Hij => /eqP ->; rewrite ltnn.
      rewrite Hn /= in Eij.
      move/eqP: Eij; rewrite mulf_eq0 => /orP [//|/eqP H0]. by move: (HD j); rewrite H0 ltxx.
    - move=> l Hl; case: (ltngtP l j) => [H1|H1|/val_inj H1].
      + by rewrite (HL l j H1) mulr0.
      + rewrite IH ?mul0r //; last exact: ltn_trans H1.
        by move: Hk H1 (ltn_ord l); clear; lia.
      + by rewrite H1 eqxx in Hl. }
  have K' : forall i j : 'I_d, (i < j)%N -> M i j = 0 by move=> i j; apply: (K (d - j)%N).
  split=> // i. have Ei := congr1 (fun A : 'M[R]_d => A i i) E; rewrite !mxE (bigD1 i) //= eqxx in Ei.
  rewrite big1 ?addr0 in Ei.
  - have H0 : L i i != 0 by rewrite gt_eqF.
    by apply: (mulIf H0); rewrite Ei mulVf.
  - move=> l Hl; case: (ltngtP l i) => [H1|H1|/val_inj H1].
    + by rewrite (HL l i H1) mulr0.
    + by rewrite (K' i l H1) mul0r.
    + by rewrite H1 eqxx in Hl.
Qed.

Lemma quad_diag : forall p (v x : 'cV[R]_p), quad (diag_mx v^T) x = \sum_j v j 0 * x j 0 ^+ 2.
Proof.
  move=> p v x; rewrite /quad dotE; apply: eq_bigr => j _; rewrite mul_diag_mx !mxE expr2 mulrCA //.
Qed.
Lemma spd_diag : forall p (v : 'cV[R]_p), pos_vec v -> spd (diag_mx v^T).
Proof.
  move=> p v Hv; split; first by rewrite tr_diag_mx.
  move=> x Hx; rewrite quad_diag.
  have Hj : exists j, x j 0 != 0.
  { apply/existsP; rewrite -[X in is_true X]negbK negb_exists; apply: contra Hx => /forallP H.
    apply/eqP/matrixP => i k; rewrite (ord1 k) mxE; apply/eqP. by rewrite -[_ == _]negbK. }
  case: Hj => j Hj; rewrite (bigD1 j) //=; apply: ltr_paddr.
  - by apply: sumr_ge0 => i _; rewrite mulr_ge0 ?sqr_ge0 // ltW.
  - by rewrite mulr_gt0 // exprn_even_gt0.
Qed.
Lemma inv_diag : forall p (v : 'cV[R]_p), pos_vec v -> diag_mx v^T *m diag_mx (cwise_inv v)^T = 1%:M.
Proof.
  move=> p v Hv; apply/matrixP => i j. rewrite mul_diag_mx !mxE.
  case: eqP => [->|_]; last by rewrite !mulr0n mulr0. by rewrite !mulr1n mulfV // gt_eqF.
Qed.
Lemma pos_cwise : forall p (v : 'cV[R]_p), pos_vec v -> pos_vec (cwise_inv v).
Proof. by move=> p v H j; rewrite mxE invr_gt0. Qed.
Lemma det_diagE : forall p (v : 'cV[R]_p), \det (diag_mx v^T) = \prod_j v j 0.
Proof. by move=> p v; rewrite det_diag; apply: eq_bigr => j _; rewrite mxE. Qed.

(** ** Woodbury (C26) *)

Section Wood.
  Variables (p q : nat) (psi : 'cV[R]_p) (lambda : 'M[R]_(p, q)).
  Hypothesis Hpsi : pos_vec psi.
  Let D := diag_mx (cwise_inv psi)^T.
  Let M := lambda^T *m D *m lambda + 1%:M.

  Lemma wood_M_spd : spd M.
  Proof.
    rewrite /M addrC; apply: spd_add; first exact: spd1.
    have HD := spd_psd (spd_diag (pos_cwise Hpsi)). rewrite -/D in HD. case: HD => HD1 HD2.
    split; first by rewrite !trmx_mul trmxK HD1 mulmxA.
    by move=> v; rewrite /quad -!mulmxA dot_mul trmxK; exact: HD2.
  Qed.
  Lemma fa_cov_spd : spd (fa_cov psi lambda).
  Proof.
    apply: spd_add; first exact: spd_diag.
    by have := psd_gram lambda^T; rewrite trmxK.
  Qed.
  Lemma wood_inv : invmx (fa_cov psi lambda) = D - D *m lambda *m invmx M *m lambda^T *m D.
  Proof.
    have HU := spd_unit fa_cov_spd. have HM := spd_unit wood_M_spd.
    apply: (can_inj (mulKmx HU)); rewrite mulmxV //.
    have EPD : diag_mx psi^T *m D = 1%:M by apply: inv_diag.
    rewrite /fa_cov mulmxBr !mulmxDl EPD.
    rewrite !mulmxA EPD mul1mx.
    have EM : lambda^T *m D *m lambda = M - 1%:M by rewrite /M addrK.
    have E2 : lambda *m lambda^T *m D *m lambda *m invmx M = lambda - lambda *m invmx M.
    { have -> : lambda *m lambda^T *m D *m lambda = lambda *m (M - 1%:M) by rewrite -EM !mulmxA.
      by rewrite mulmxBr mulmx1 mulmxBl -mulmxA mulmxV // mulmx1. }
    rewrite E2 !mulmxBl. set a := _ *m D. set b := _ *m D. by rewrite [b + _]addrC subrK addrK.
  Qed.
  Lemma wood_det : \det (fa_cov psi lambda) = \det (diag_mx psi^T) * \det M.
  Proof.
    have EPD : diag_mx psi^T *m D = 1%:M by apply: inv_diag.
    have -> : fa_cov psi lambda = diag_mx psi^T *m (1%:M + (D *m lambda) *m lambda^T).
    { by rewrite mulmxDr mulmx1 !mulmxA EPD mul1mx. }
    by rewrite det_mulmx det_sylvester mulmxA /M addrC.
  Qed.
  Lemma wood_logdet : (wood_chol_and_logdet (cwise_inv psi) lambda).2 = ln (\det (fa_cov psi lambda)).
  Proof.
    have [_ [HL HD]] := llt_L_ok wood_M_spd. have HU := llt_L_unit wood_M_spd.
    have [_ Hd] := inv_lower HL HD HU.
    rewrite wood_det lnM ?spd_det_gt0 //; [|exact: spd_diag|exact: wood_M_spd].
    rewrite det_diagE ln_prod //= -(logdet_L wood_M_spd) /diag_logsum -/D -/M.
    have -> : \sum_i ln (invmx (llt_L M) i i) = - \sum_i ln (llt_L M i i).
    { by rewrite -sumrN; apply: eq_bigr => i _; rewrite Hd lnV. }
    have -> : \sum_i ln (cwise_inv psi i 0) = - \sum_i ln (psi i 0).
    { by rewrite -sumrN; apply: eq_bigr => i _; rewrite mxE lnV. }
    set a := \sum_i _. set b := \sum_i _. ring.
  Qed.
  Lemma wood_quad : forall x : 'cV[R]_p,
    dot x (D *m x) - sqnorm ((wood_chol_and_logdet (cwise_inv psi) lambda).1 *m x) = quad (invmx (fa_cov psi lambda)) x.
  Proof.
    move=> x; rewrite wood_inv quadDl -[- (_ *m _)]scaleN1r quadZl mulN1r -/(quad D x). congr (_ - _).
    rewrite /sqnorm -quad_gram; congr (quad _ _). rewrite /= -/D -/M !trmx_mul trmxK.
    have HD : D^T = D by rewrite tr_diag_mx.
    have EM : invmx M = (invmx (llt_L M))^T *m invmx (llt_L M).
    { have [E1 _] := llt_L_ok wood_M_spd. have HU := llt_L_unit wood_M_spd.
      apply: (can_inj (mulKmx (spd_unit wood_M_spd))); rewrite mulmxV ?(spd_unit wood_M_spd) //.
      rewrite -{1}E1 trmx_inv -mulmxA (mulKVmx); last by rewrite unitmx_tr.
      by rewrite mulmxV. }
    by rewrite HD EM !mulmxA.
  Qed.
  Lemma woodbury_chol : forall y m,
    mvn_woodbury_chol_lpdf y m (cwise_inv psi) (wood_chol_and_logdet (cwise_inv psi) lambda).1
       (wood_chol_and_logdet (cwise_inv psi) lambda).2 = stan_mvn_lpdf y m (fa_cov psi lambda).
  Proof.
    move=> y m; rewrite /mvn_woodbury_chol_lpdf /stan_mvn_lpdf -/D wood_logdet wood_quad lnorm2pi.
    set a := ln (\det _). set b := quad _ _. set c := ln (_ * PI). ring.
  Qed.
  Lemma woodbury : forall y m, mvn_woodbury_lpdf y m psi lambda = stan_mvn_lpdf y m (fa_cov psi lambda).
  Proof.
    move=> y m; rewrite /mvn_woodbury_lpdf -/(cwise_inv psi). rewrite -woodbury_chol.
    by case: (wood_chol_and_logdet _ _).
  Qed.
End Wood.

(** ** Affine generators *)

Lemma std_normals_size : forall (G : gen) n (r : Gs G), size (std_normals n r).1 = n.
Proof.
  move=> G; elim=> [|n IH] r //=. case: (g_norm G 0 1 r) => z r1. have := IH r1.
  by case: (std_normals n r1) => zs r2 /= ->.
Qed.
Lemma diag_rng_ok : forall (G : gen) d (mean cov : 'cV[R]_d) (r : Gs G), pos_vec cov ->
  exists A : 'M[R]_d, A *m A^T = diag_mx cov^T /\
    mvn_diag_rng mean cov r = (mean + A *m colv d (std_normals d r).1, (std_normals d r).2).
Proof.
  move=> G d mean cov r Hc; exists (diag_mx (\row_j sqrt (cov j 0))); split.
  - apply/matrixP => i j. rewrite tr_diag_mx mul_diag_mx !mxE. case: eqP => [->|_]; last by rewrite mulr0n mulr0.
    by rewrite !mulr1n sqrtR_sq.
  - rewrite /mvn_diag_rng; case: (std_normals d r) => zs r1 /=; congr (_, _).
    apply/matrixP => i j; rewrite (ord1 j) mul_diag_mx !mxE addrC. by rewrite [_ * sqrt _]mulrC.
Qed.
Lemma prec_rng_ok : forall (G : gen) d (mean : 'cV[R]_d) (P : 'M[R]_d) (r : Gs G), spd P ->
  exists A : 'M[R]_d, A *m A^T = invmx P /\
    mvn_prec_chol_rng mean P r = (mean + A *m colv d (std_normals d r).1, (std_normals d r).2).
Proof.
  move=> G d mean P r HP; exists (invmx (llt_U P)); split.
  - have [E1 _] := llt_U_ok HP. have HU := llt_U_unit HP.
    apply: (can_inj (mulKmx (spd_unit HP))); rewrite mulmxV ?(spd_unit HP) // trmx_inv.
    by rewrite -{1}E1 -mulmxA (mulKVmx HU) mulmxV // unitmx_tr.
  - by rewrite /mvn_prec_chol_rng; case: (std_normals d r).
Qed.

(** ** The four draws (C27) *)

Lemma std_lpdfE : forall q (e : 'cV[R]_q), std_lpdf e = - (q%:R * hf * ln (2%:R * PI)) - hf * dot e e.
Proof.
  move=> q e; rewrite /std_lpdf.
  have -> : \sum_k normal_lpdf (e k 0) 0 1 = \sum_(k : 'I_q) (- (hf * ln (2%:R * PI)) - hf * (e k 0 * e k 0)).
  { apply: eq_bigr => k _. have Es : sqrt (1 : R) = 1 by exact: sqrt_1.
    have -> : normal_lpdf (e k 0) 0 1 = normal_lpdf (e k 0) 0 (sqrt (1 : R)) by rewrite Es.
    rewrite normal_lpdfE ?ltr01 // ln1.
    move: (ln _) (e k 0) => a b. rewrite subr0 divr1. ring. }
  rewrite big_split /= sumr_const card_ord sumrN -mulr_sumr dotE. 
  rewrite -[_ *+ q]mulr_natr. set a := ln _. set b := \sum_i _. ring.
Qed.
Lemma fa_obs_lpdfE : forall p q (mu psi : 'cV[R]_p) (lambda : 'M[R]_(p, q)) y e, pos_vec psi ->
  fa_obs_lpdf mu psi lambda y e =
  - (p%:R * hf * ln (2%:R * PI)) - hf * (\sum_j ln (psi j 0))
  - hf * quad (diag_mx (cwise_inv psi)^T) (y - mu - lambda *m e).
Proof.
  move=> p q mu psi lambda y e H; rewrite /fa_obs_lpdf quad_diag.
  transitivity (\sum_(j < p) (- (hf * ln (2%:R * PI)) - hf * ln (psi j 0)
                       - hf * (cwise_inv psi j 0 * (y - mu - lambda *m e) j 0 ^+ 2))).
  { apply: eq_bigr => j _. rewrite normal_lpdfE ?H //. rewrite ![in RHS]mxE -/((lambda *m e) j 0) [in LHS]mxE.
    set s := \sum_k _. move: (ln _) (ln _) (y j 0) (mu j 0) s => a b c d s. ring. }
  rewrite !big_split /= !sumrN !mulr_sumr sumr_const card_ord -[_ *+ p]mulr_natr.
  set a := ln _. set b := \sum_i _. set c := \sum_i _. ring.
Qed.

(** Joint density = marginal density (Woodbury) times the density drawn from. *)
Lemma fa_eta_exact : forall p q (mu psi : 'cV[R]_p) (lambda : 'M[R]_(p, q)) y e, pos_vec psi ->
  std_lpdf e + fa_obs_lpdf mu psi lambda y e =
  stan_mvn_lpdf y mu (fa_cov psi lambda)
  + stan_mvn_prec_lpdf e (fa_eta_mean lambda (cwise_inv psi) mu y) (fa_eta_prec lambda (cwise_inv psi)).
Proof.
  move=> p q mu psi lambda y e H.
  have HM := wood_M_spd lambda H. rewrite addrC -/(fa_eta_prec lambda (cwise_inv psi)) in HM.
  have HMs : (fa_eta_prec lambda (cwise_inv psi))^T = fa_eta_prec lambda (cwise_inv psi) by case: HM.
  set D := diag_mx (cwise_inv psi)^T in HM *.
  have HD : D^T = D by rewrite tr_diag_mx.
  rewrite std_lpdfE fa_obs_lpdfE // /stan_mvn_lpdf /stan_mvn_prec_lpdf -/D.
  have Hd1 := spd_det_gt0 (spd_diag H). have Hd2 := spd_det_gt0 (wood_M_spd lambda H).
  rewrite (wood_det lambda H) (lnM Hd1 Hd2).
  rewrite [_ + 1%:M]addrC -/D -/(fa_eta_prec lambda (cwise_inv psi)) det_diagE ln_prod //.
  rewrite (wood_inv lambda H) -/D [_ + 1%:M]addrC -/(fa_eta_prec lambda (cwise_inv psi)).
  set x := y - mu. set P := fa_eta_prec _ _ in HM HMs *.
  rewrite /fa_eta_mean -/P -/D -/x llt_solveE //. clearbody x. rewrite !quadB //.
  set w := invmx P *m _ *m x.
  have EPw : P *m w = lambda^T *m (D *m x) by rewrite /w !mulmxA mulmxV ?(spd_unit HM) // mul1mx.
  have Q1 : quad P w = quad (D *m lambda *m invmx P *m lambda^T *m D) x.
  { rewrite /quad EPw /w dotC -!mulmxA [RHS]dot_mul HD [RHS]dot_mul. by []. }
  have Q2 : quad P e = dot e e + quad D (lambda *m e).
  { by rewrite /P /fa_eta_prec quadDl quad1 -/D /quad -!mulmxA [in LHS]dot_mul trmxK. }
  have Q3 : dot e (P *m w) = dot x (D *m (lambda *m e)).
  { rewrite EPw dot_mul trmxK. by rewrite (dot_sym _ _ HD). }
  have Q4 : quad (D - D *m lambda *m invmx P *m lambda^T *m D) x = quad D x - quad P w.
  { by rewrite quadDl -[- (_ *m _)]scaleN1r quadZl mulN1r Q1. }
  rewrite Q4 Q2 Q3.
  move: (quad D x) (quad P w) (dot e e) (quad D _) (dot x _) (ln (\det P)) (\sum_j _) (ln _)
   => a1 a2 a3 a4 a5 a6 a7 a8. rewrite /hf. field. by [].
Qed.

(** Row [j] of the loadings. *)
Lemma eta_gram_psd : forall q (eta : seq 'cV[R]_q), psd (eta_gram eta).
Proof.
  move=> q; elim=> [|o ys IH]; rewrite /eta_gram ?big_nil ?big_cons; first exact: psd0.
  apply: psd_add => //; exact: psd_outer.
Qed.
Lemma fa_lambda_prec_spd : forall p q (psi : 'cV[R]_p) (eta : seq 'cV[R]_q) j, 0 < psi j 0 -> spd (fa_lambda_prec psi eta j).
Proof.
  move=> p q psi eta j H; apply: spd_add; first exact: spd1.
  by apply: psd_scale; [rewrite invr_ge0 ltW | exact: eta_gram_psd].
Qed.
Lemma zip_gram : forall p q (ys : seq 'cV[R]_p) (eta : seq 'cV[R]_q), size eta = size ys ->
  eta_gram eta = \sum_(oe <- zip ys eta) oe.2 *m oe.2^T.
Proof.
  move=> p q; elim=> [|y ys IH] [|e eta] //= H; rewrite /eta_gram ?big_nil // !big_cons -IH //; by case: H.
Qed.
Lemma fa_lambda_exact : forall p q (mu psi : 'cV[R]_p) (eta : seq 'cV[R]_q) (ys : seq 'cV[R]_p) j, 0 < psi j 0 -> size eta = size ys ->
  exists C : R, forall l : 'cV[R]_q,
    std_lpdf l + \sum_(oe <- zip ys eta) normal_lpdf (oe.1 j 0) (mu j 0 + dot l oe.2) (sqrt (psi j 0)) =
    C + stan_mvn_prec_lpdf l (fa_lambda_mean mu psi eta ys j) (fa_lambda_prec psi eta j).
Proof.
  move=> p q mu psi eta ys j H Hs.
  have HP := fa_lambda_prec_spd eta H. have HPs : (fa_lambda_prec psi eta j)^T = fa_lambda_prec psi eta j by case: HP.
  set P := fa_lambda_prec psi eta j in HP HPs *.
  set v := psi j 0 in H *. have Hv0 : v != 0 by rewrite gt_eqF.
  set zs := [seq ((oe : 'cV[R]_p * 'cV[R]_q).1 j 0 - mu j 0, oe.2) | oe <- zip ys eta].
  set w := fa_lambda_mean mu psi eta ys j.
  have EPw : P *m w = v^-1 *: \sum_(o <- zs) o.1 *: o.2.
  { rewrite /w /fa_lambda_mean llt_solveE // mulmxA mulmxV ?(spd_unit HP) // mul1mx /zs big_map /= scaler_sumr.
    by apply: eq_bigr => o _; rewrite scalerA [v^-1 * _]mulrC. }
  have EP : P = 1%:M + v^-1 *: \sum_(o <- zs) o.2 *m o.2^T.
  { by rewrite /P /fa_lambda_prec (zip_gram Hs) /zs big_map. }
  set n := size zs.
  exists (- (n%:R * (hf * ln v + hf * ln (2%:R * PI))) - hf * (v^-1 * \sum_(o <- zs) o.1 ^+ 2) - hf * ln (\det P)
           + hf * quad P w) => l.
  have -> : \sum_(oe <- zip ys eta) normal_lpdf (oe.1 j 0) (mu j 0 + dot l oe.2) (sqrt v) =
     n%:R * (- (hf * ln v) - hf * ln (2%:R * PI)) - hf * \sum_(o <- zs) (v^-1 * (o.1 - dot l o.2) ^+ 2).
  { rewrite -big_const_sum /zs !big_map. apply: eq_bigr => o _. rewrite normal_lpdfE //=.
    move: (ln v) (ln _) (o.1 j 0) (mu j 0) (dot l _) => a1 a2 a3 a4 a5. rewrite opprD addrA. ring. }
  have EQ : quad P l = dot l l + v^-1 * quad (\sum_(o <- zs) o.2 *m o.2^T) l by rewrite EP quadDl quadZl quad1.
  rewrite -mulr_sumr sum_resid std_lpdfE /stan_mvn_prec_lpdf quadB // EPw dotZr EQ.
  set a1 := quad _ l. set a2 := \sum_(o <- zs) _ ^+ 2. set a3 := dot l (\sum_(o <- zs) _). set a4 := quad P w.
  set a5 := dot l l. set a6 := ln (\det _). set a7 := ln v. set a8 := ln _. rewrite /hf. field. by rewrite Hv0.
Qed.

(** The diagonal of the noise covariance. *)
Lemma fa_psi_sumE : forall p q (mu : 'cV[R]_p) (lambda : 'M[R]_(p, q)) (eta : seq 'cV[R]_q) (ys : seq 'cV[R]_p) j,
  foldl (fun (a : R) (oe : 'cV[R]_p * 'cV[R]_q) => a + (oe.1 j 0 - mu j 0 - dot (row j lambda)^T oe.2) ^+ 2) 0 (zip ys eta)
  = \sum_(oe <- zip ys eta) (oe.1 j 0 - mu j 0 - dot (row j lambda)^T oe.2) ^+ 2.
Proof.
  move=> p q mu lambda eta ys j.
  have K : forall l (a : R),
    foldl (fun (a : R) (oe : 'cV[R]_p * 'cV[R]_q) => a + (oe.1 j 0 - mu j 0 - dot (row j lambda)^T oe.2) ^+ 2) a l
    = a + \sum_(oe <- l) (oe.1 j 0 - mu j 0 - dot (row j lambda)^T oe.2) ^+ 2.
  { by elim=> [|o l IH] a /=; rewrite ?big_nil ?addr0 // big_cons IH addrA. }
  by rewrite K add0r.
Qed.
Definition fa_psi_target lg p q (h : fa_hyp p) (mu : 'cV[R]_p) (lambda : 'M[R]_(p, q)) (eta : seq 'cV[R]_q) (ys : seq 'cV[R]_p) j (v : R) : R :=
  inv_gamma_lpdf lg v (fh_alpha0 h) (fh_beta h j 0)
  + \sum_(oe <- zip ys eta) normal_lpdf (oe.1 j 0) (mu j 0 + dot (row j lambda)^T oe.2) (sqrt v).
Lemma fa_psi_cond : forall lg p q (h : fa_hyp p) (mu : 'cV[R]_p) (lambda : 'M[R]_(p, q)) (eta : seq 'cV[R]_q) (ys : seq 'cV[R]_p) j, size eta = size ys ->
  exists C : R, forall v : R, 0 < v ->
    fa_psi_target lg h mu lambda eta ys j v =
    C - (fh_alpha0 h + (size ys)%:R / 2%:R + 1) * ln v - fa_psi_scale h mu lambda eta ys j / v.
Proof.
  move=> lg p q h mu lambda eta ys j Hs.
  exists (fh_alpha0 h * ln (fh_beta h j 0) - lg (fh_alpha0 h) - (size ys)%:R * (hf * ln (2%:R * PI))) => v Hv.
  have Hv0 : v != 0 by rewrite gt_eqF.
  rewrite /fa_psi_target /fa_psi_scale fa_psi_sumE inv_gamma_lpdfE.
  have -> : \sum_(oe <- zip ys eta) normal_lpdf (oe.1 j 0) (mu j 0 + dot (row j lambda)^T oe.2) (sqrt v) =
     (size ys)%:R * (- (hf * ln v) - hf * ln (2%:R * PI))
     - hf * \sum_(oe <- zip ys eta) (v^-1 * (oe.1 j 0 - mu j 0 - dot (row j lambda)^T oe.2) ^+ 2).
  { have <- : size (zip ys eta) = size ys by rewrite size_zip Hs minnn.
    rewrite -big_const_sum. apply: eq_bigr => o _. rewrite normal_lpdfE //.
    move: (ln v) (ln _) (o.1 j 0) (mu j 0) (dot _ _) => a1 a2 a3 a4 a5. rewrite opprD addrA. ring. }
  rewrite -mulr_sumr. set S' := \sum_(oe <- _) _.
  move: (fh_alpha0 h) (fh_beta h j 0) (ln _) (lg _) (ln v) (ln (2%:R * PI)) => a1 a2 a3 a4 a5 a6. rewrite /hf. field.
  by rewrite Hv0.
Qed.
Lemma psi_aux : forall C0 C a k h s l u w : R,
  C0 - (a + (k + h) + 1) * 0 - u = C + (s - (a + k + 1) * 0 - u) ->
  C0 - (a + (k + h) + 1) * l - w = C + (s - (a + k + 1) * l - w) -> h * l = 0.
Proof. move=> C0 C a k h s l u w. rewrite ?RmulE ?RaddE ?RoppE ?R0E ?R1E. lra. Qed.
Lemma fa_psi_iff : forall lg p q (h : fa_hyp p) (mu : 'cV[R]_p) (lambda : 'M[R]_(p, q)) (eta : seq 'cV[R]_q) (ys : seq 'cV[R]_p) j, size eta = size ys ->
  (exists C : R, forall v : R, 0 < v -> fa_psi_target lg h mu lambda eta ys j v =
      C + inv_gamma_lpdf lg v (fa_psi_shape h (size ys)) (fa_psi_scale h mu lambda eta ys j))
  <-> ~~ odd (size ys).
Proof.
  move=> lg p q h mu lambda eta ys j Hs. have [C0 HC0] := fa_psi_cond lg h mu lambda j Hs.
  set b := fa_psi_scale _ _ _ _ _ _ in HC0 *. set n := size ys in HC0 *.
  have En : n%:R / 2%:R = (n %/ 2)%:R + (odd n)%:R / 2%:R :> R.
  { rewrite divn2 -{1}(odd_double_half n) natrD -muln2 natrM. move: ((odd n)%:R) (n./2%:R : R) => u w. field. by []. }
  split.
  - case=> C HC. case Ho: (odd n) => //. exfalso.
    have E1 := HC 1 ltr01; have E2 := HC 2%:R two_gt0. rewrite HC0 ?ltr01 // in E1. rewrite HC0 ?two_gt0 // in E2.
    rewrite !inv_gamma_lpdfE ln1 in E1. rewrite !inv_gamma_lpdfE in E2.
    rewrite /fa_psi_shape En Ho in E1 E2.
    have Hl : 0 < ln (2%:R : R).
    { rewrite -ln1. apply/RltE. apply: ln_increasing; apply/RltE; [exact: ltr01 | by rewrite ltr1n]. }
    have E3 : 2%:R^-1 * ln (2%:R : R) = 0.
    { rewrite mul1r in E1 E2. exact: (psi_aux E1 E2). }
    move/eqP: E3; rewrite mulf_eq0 invr_eq0 pnatr_eq0 /= => /eqP E3. by rewrite E3 ltxx in Hl.
  - move=> /negbTE Ho. exists (C0 - (fa_psi_shape h n * ln b - lg (fa_psi_shape h n))) => v Hv.
    rewrite HC0 // inv_gamma_lpdfE {1}/fa_psi_shape En Ho mul0r addr0 -/(fa_psi_shape h n).
    set a := fa_psi_shape _ _. move: (ln v) (ln b) (lg a) (b / v) => a1 a2 a3 a4. ring.
Qed.

(** The mean, one coordinate; [tau] is the prior variance. *)
Definition fa_mu_target p q (h : fa_hyp p) (tau : R) (psi : 'cV[R]_p) (lambda : 'M[R]_(p, q)) (eta : seq 'cV[R]_q)
    (ys : seq 'cV[R]_p) (j : 'I_p) (t : R) : R :=
  normal_lpdf t (fh_mutilde h j 0) (sqrt tau)
  + \sum_(oe <- zip ys eta) normal_lpdf (oe.1 j 0) (t + (lambda *m oe.2) j 0) (sqrt (psi j 0)).

Lemma foldl_sum : forall q (eta : seq 'cV[R]_q), foldl +%R 0 eta = \sum_(e <- eta) e.
Proof.
  move=> q eta. have K : forall l (a : 'cV[R]_q), foldl +%R a l = a + \sum_(e <- l) e.
  { by elim=> [|o l IH] a /=; rewrite ?big_nil ?addr0 // big_cons IH addrA. }
  by rewrite K add0r.
Qed.
Lemma fa_mu_cond : forall p q (h : fa_hyp p) tau (psi : 'cV[R]_p) (lambda : 'M[R]_(p, q)) (eta : seq 'cV[R]_q)
  (ys : seq 'cV[R]_p) j, size eta = size ys -> 0 < psi j 0 -> 0 < tau ->
  exists C : R, forall t : R, fa_mu_target h tau psi lambda eta ys j t =
    C - hf * ((size ys)%:R / psi j 0 + tau^-1) * t ^+ 2
    + t * (fh_mutilde h j 0 / tau + (\sum_(y <- ys) y - lambda *m \sum_(e <- eta) e) j 0 / psi j 0).
Proof.
  move=> p q h tau psi lambda eta ys j Hs Hp Ht. have Ht0 : tau != 0 by rewrite gt_eqF.
  set v := psi j 0 in Hp *. have Hv0 : v != 0 by rewrite gt_eqF.
  have -> : (\sum_(y <- ys) y - lambda *m \sum_(e <- eta) e) j 0 = \sum_(oe <- zip ys eta) (oe.1 j 0 - (lambda *m oe.2) j 0).
  { elim: ys eta Hs => [|y ys IH] [|e eta] // Hs; first by rewrite !big_nil mulmx0 subr0 mxE.
    rewrite /= !big_cons mulmxDr opprD addrACA mxE IH; last by case: Hs. by rewrite [(y - _) j 0]mxE [(- (_ *m _)) j 0]mxE. }
  set S1 := \sum_(oe <- zip ys eta) (oe.1 j 0 - (lambda *m oe.2) j 0).
  set S2 := \sum_(oe <- zip ys eta) (oe.1 j 0 - (lambda *m oe.2) j 0) ^+ 2.
  have -> : size ys = size (zip ys eta) by rewrite size_zip Hs minnn.
  have Esum : forall t, \sum_(oe <- zip ys eta) normal_lpdf (oe.1 j 0) (t + (lambda *m oe.2) j 0) (sqrt v) =
    (size (zip ys eta))%:R * (- (hf * ln v) - hf * ln (2%:R * PI) - hf * t ^+ 2 / v) + t * S1 / v - hf * S2 / v.
  { move=> t; rewrite /S1 /S2. elim: (zip ys eta) => [|o l IH]; first by rewrite !big_nil mul0r !mulr0 !mul0r addr0 subr0.
    rewrite !big_cons IH normal_lpdfE //= -[(size l).+1]addn1 natrD.
    set a1 := \sum_(i <- l) _. set a2 := \sum_(i <- l) _ ^+ 2.
    move: (ln v) (ln _) (o.1 j 0) ((lambda *m o.2) j 0) ((size l)%:R : R) => a3 a4 a5 a6 a7. rewrite /hf. field. by rewrite Hv0. }
  exists ((size (zip ys eta))%:R * (- (hf * ln v) - hf * ln (2%:R * PI)) - hf * S2 / v
     - hf * fh_mutilde h j 0 ^+ 2 / tau - hf * ln tau - hf * ln (2%:R * PI)) => t.
  rewrite /fa_mu_target -/v Esum normal_lpdfE //.
  clear Esum. move: (ln v) (ln tau) (ln _) (fh_mutilde h j 0) S1 S2 ((size _)%:R : R) => a1 a2 a3 a4 a5 a6 a7. rewrite /hf. field.
  by rewrite Hv0 Ht0.
Qed.
Lemma mu_aux : forall C0 C A B P m g : R,
  C0 - g * A * (1 * 1) + 1 * B = C + - (g * P * ((1 - m) * (1 - m))) ->
  C0 - g * A * (-1 * -1) + -1 * B = C + - (g * P * ((-1 - m) * (-1 - m))) ->
  C0 - g * A * (0 * 0) + 0 * B = C + - (g * P * ((0 - m) * (0 - m))) -> g * A = g * P.
Proof. move=> C0 C A B P m g. rewrite ?RmulE ?RaddE ?RoppE ?R0E ?R1E. nra. Qed.
Lemma fa_mu_iff : forall p q (h : fa_hyp p) tau (psi : 'cV[R]_p) (lambda : 'M[R]_(p, q)) (eta : seq 'cV[R]_q)
  (ys : seq 'cV[R]_p) j, size eta = size ys -> pos_vec psi -> 0 < tau -> 0 < fh_phi h ->
  let m := fa_mu_mean h (cwise_inv psi) lambda eta (size ys) (\sum_(y <- ys) y) in
  let c := fa_mu_cov (cwise_inv psi) (fh_phi h) (size ys) in
  (exists C : R, forall t : R, fa_mu_target h tau psi lambda eta ys j t = C + normal_lpdf t (m j 0) (sqrt (c j 0)))
  <-> tau * fh_phi h = 1.
Proof.
  move=> p q h tau psi lambda eta ys j Hs Hpos Ht Hf m c. have Hp := Hpos j.
  have [C0 HC0] := fa_mu_cond h lambda Hs Hp Ht.
  have Ht0 : tau != 0 by rewrite gt_eqF. have Hv0 : psi j 0 != 0 by rewrite gt_eqF.
  set P := (size ys)%:R / psi j 0 + fh_phi h.
  have HP : 0 < P by rewrite ltr_paddl // mulr_ge0 ?ler0n // invr_ge0 ltW.
  have HP0 : P != 0 by rewrite gt_eqF.
  have Ec : c j 0 = P^-1 by rewrite /c /fa_mu_cov !mxE.
  have Hc : 0 < c j 0 by rewrite Ec invr_gt0.
  have Em : m j 0 = P^-1 * (fh_phi h * fh_mutilde h j 0 + (\sum_(y <- ys) y - lambda *m \sum_(e <- eta) e) j 0 / psi j 0).
  { rewrite /m /fa_mu_mean foldl_sum. set w := _ - lambda *m _. clearbody w.
    rewrite !mul_diag_mx !mxE. rewrite -/P. congr (_ * (_ + _)). by rewrite mulrC. }
  set B := (\sum_(y <- ys) y - lambda *m \sum_(e <- eta) e) j 0 in HC0 Em.
  have EN : forall t, normal_lpdf t (m j 0) (sqrt (c j 0)) =
    - (hf * P * ((t - m j 0) * (t - m j 0))) + (hf * ln P - hf * ln (2%:R * PI)).
  { move=> t; rewrite normal_lpdfE // Ec invrK lnV //. move: (ln P) (ln _) (m j 0) => a1 a2 a3. ring. }
  split.
  - case=> C HC.
    have K : forall t : R, C0 - hf * ((size ys)%:R / psi j 0 + tau^-1) * (t * t) + t * (fh_mutilde h j 0 / tau + B / psi j 0)
       = C + (hf * ln P - hf * ln (2%:R * PI)) + - (hf * P * ((t - m j 0) * (t - m j 0))).
    { move=> t; rewrite -expr2 -HC0 HC EN -[in RHS]addrA. congr (_ + _). by rewrite addrC. }
    have E := mu_aux (K 1) (K (-1)) (K 0).
    have Hh : hf != 0 by rewrite /hf invr_eq0 pnatr_eq0.
    move/(mulfI Hh): E; rewrite /P => /addrI <-. by rewrite mulfV.
  - move=> E. have Ef : fh_phi h = tau^-1 by rewrite -[fh_phi h](mulKf Ht0) E mulr1.
    have EP : P = (size ys)%:R / psi j 0 + tau^-1 by rewrite /P Ef.
    exists (C0 + hf * P * m j 0 ^+ 2 - (hf * ln P - hf * ln (2%:R * PI))) => t. rewrite HC0 EN -EP.
    have -> : fh_mutilde h j 0 / tau + B / psi j 0 = P * m j 0.
    { by rewrite Em (mulVKf HP0) Ef [_^-1 * _]mulrC. }
    move: (m j 0) (ln P) (ln _) => a1 a2 a3. rewrite /hf. field. by [].
Qed.

(** ** Cached factors *)

Definition fa_consistent p q (s : fa_st p q) : Prop := s = fa_through_proto s.

Lemma fa_lpdf_proto : forall p q (s : fa_st p q) y, pos_vec (fa_psi s) ->
  fa_lpdf (fa_through_proto s) y = Ok (stan_mvn_lpdf y (fa_mu s) (fa_cov (fa_psi s) (fa_lambda s))).
Proof.
  move=> p q s y H; rewrite /fa_lpdf /fa_through_proto /fa_cache; cbn [fa_pinv fa_wood fa_mu].
  by have := woodbury_chol (fa_lambda s) H y (fa_mu s); case: (wood_chol_and_logdet _ _) => a b /= ->.
Qed.
Lemma fa_draw_stale : forall (G : gen) p q (h : fa_hyp p) ys ds (s : fa_st p q) (r r' : Gs G) s', (0 < size ys)%N ->
  fa_consistent s -> pos_vec (fa_psi s) -> fa_draw h ys ds s r = Ok (s', r') ->
  forall y, fa_lpdf s' y = Ok (stan_mvn_lpdf y (fa_mu s') (fa_cov (fa_psi s) (fa_lambda s))).
Proof.
  move=> G p q h ys ds s r r' s' Hn Hc Hp HD y. move: HD. rewrite /fa_draw.
  have -> : (size ys == 0)%N = false by case: (size ys) Hn.
  have Ep : fa_pinv s = Some (cwise_inv (fa_psi s)) by rewrite {1}Hc.
  have Ew : fa_wood s = Some (wood_chol_and_logdet (cwise_inv (fa_psi s)) (fa_lambda s)) by rewrite {1}Hc.
  rewrite Ep Ew. case: (fa_draw_eta _ _ _ _ _) => eta r1. case: (mvn_diag_rng _ _ _) => mu r2.
  case: (fa_draw_psi _ _ _ _ _ _ _) => psi r3. case: (fa_draw_lambda _ _ _ _ _ _) => lam r4 [<- _].
  rewrite /fa_lpdf; cbn [fa_pinv fa_wood fa_mu]. by have := woodbury_chol (fa_lambda s) Hp y mu; case: (wood_chol_and_logdet _ _) => a b /= ->.
Qed.
Lemma fa_sample_unset : forall (G : gen) p q (h : fa_hyp p) (r : Gs G) y,
  fa_lpdf (fa_sample q h r).1 y = UB.
Proof. by move=> G p q h r y; rewrite /fa_sample; case: (fa_sample_rows _ _ _ _). Qed.
Lemma fa_sample_draw : forall (G : gen) p q (h : fa_hyp p) ys ds (r r' : Gs G), (0 < size ys)%N ->
  fa_draw h ys ds (fa_sample q h r).1 r' = UB.
Proof.
  move=> G p q h ys ds r r' Hn; rewrite /fa_draw. have -> : (size ys == 0)%N = false by case: (size ys) Hn.
  by rewrite /fa_sample; case: (fa_sample_rows _ _ _ _).
Qed.

Lemma fa_init_ok : forall p q (pr : fa_prior p) h, fa_init q pr = Ok h ->
  pos_vec (fh_beta h) /\ 0 < fh_alpha0 h /\ 0 < fh_phi h /\ (0 < q)%N.
Proof.
  move=> p q [mt b f a|] h //=. case E1: [exists j, _] => //. case E2: (lteb a 0) => //. case E3: (lteb f 0) => //.
  case E4: (q <= 0)%N => //= -[<-] /=.
  have K : forall x : R, lteb x 0 = false -> 0 < x.
  { move=> x; rewrite /lteb; case: Rle_dec => // H _. apply/RltE. exact: Rnot_le_lt. }
  split; [|by rewrite (K _ E2) (K _ E3) ltnNge E4].
  move=> j; apply: K. apply: negbTE. by move/negbT: E1; rewrite negb_exists => /forallP.
Qed.
Lemma fa_init_state_ok : forall p q (pr : fa_prior p) h y, fa_init q pr = Ok h ->
  pos_vec (fa_psi (fa_init_state q h)) /\ fa_consistent (fa_init_state q h) /\
  fa_lpdf (fa_init_state q h) y =
    Ok (stan_mvn_lpdf y (fh_mutilde h) (diag_mx ((fh_alpha0 h + 1)^-1 *: fh_beta h)^T)).
Proof.
  move=> p q pr h y /fa_init_ok [Hb [Ha [Hf Hq]]].
  have Hp : pos_vec ((fh_alpha0 h + 1)^-1 *: fh_beta h).
  { by move=> j; rewrite mxE mulr_gt0 // invr_gt0 addr_gt0 ?ltr01. }
  split=> //; split=> //.
  have -> : fa_init_state q h = fa_through_proto (fa_init_state q h) by [].
  rewrite fa_lpdf_proto //=. by rewrite /fa_cov mul0mx addr0.
Qed.
