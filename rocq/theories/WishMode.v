(** * The mode of an inverse-Wishart law. *)
From Coq Require Import ZArith Reals Lra Lia.
From mathcomp Require Import all_ssreflect all_algebra.
From mathcomp.algebra_tactics Require Import ring.
From Verif Require Import Base Mixings Univ RealField MatLib Multi MultiFacts NnwFacts LinFacts.
Set Implicit Arguments.
Unset Strict Implicit.
Unset Printing Implicit Defensive.
Import Order.TTheory GRing.Theory Num.Theory.
Local Open Scope ring_scope.

Lemma ln_le_sub1 : forall x : R, 0 < x -> ln x <= x - 1.
Proof.
  move=> x Hx. apply/RleE. have H := exp_ineq1_le (ln x).
  have E : exp (ln x) = x by apply: exp_ln; apply/RltE. rewrite E in H.
  change (Rle (ln x) (Rminus x 1)). change (Rle (Rplus 1 (ln x)) x) in H. lra.
Qed.

(** The log determinant is at most the trace minus the dimension. *)
Lemma ln_det_trace : forall d (Y : 'M[R]_d), spd Y -> ln (\det Y) <= \tr Y - d%:R.
Proof.
  move=> d Y HY. have [E [_ P]] := llt_L_ok HY.
  rewrite (det_chol sqrtR_gt0 sqrtR_sq HY) -/(llt_L Y) -prodrXl ln_prod; last by move=> i; rewrite exprn_gt0.
  have -> : \tr Y - d%:R = \sum_i (Y i i - 1).
  { rewrite sumrB /mxtrace; congr (_ - _). by rewrite sumr_const card_ord. }
  apply: ler_sum => i _. apply: le_trans (ln_le_sub1 _) _; first by rewrite exprn_gt0.
  rewrite ler_sub // -{2}E mxE (bigD1 i) //= mxE -expr2 ler_addl sumr_ge0 // => j _.
  by rewrite mxE -expr2 sqr_ge0.
Qed.

Lemma spd_congr : forall d (A Y : 'M[R]_d), A \in unitmx -> spd Y -> spd (A^T *m Y *m A).
Proof.
  move=> d A Y HA [S P]. split; first by rewrite !trmx_mul trmxK S mulmxA.
  move=> v Hv. have H : A *m v != 0.
  { apply: contra Hv => /eqP Z. by rewrite -[v](mulKmx HA) Z mulmx0. }
  have := P _ H. by rewrite /quad /dot trmx_mul !mulmxA.
Qed.

(** The log density at [S / c] exceeds the one at [X] by [c / 2] times the
    trace minus the dimension minus the log determinant of [L' X^-1 L / c]. *)
Lemma iw_gap : forall lg d nu (S X : 'M[R]_d), 0 < nu + d%:R + 1 -> spd S -> spd X ->
  let c : R := nu + d%:R + 1 in
  let Y : 'M[R]_d := c^-1 *: ((llt_L S)^T *m invmx X *m llt_L S) in
  [/\ 0 < c, spd Y & stan_inv_wishart_lpdf lg (c^-1 *: S) nu S - stan_inv_wishart_lpdf lg X nu S = c * hf * (\tr Y - d%:R - ln (\det Y))].
Proof.
  move=> lg d nu S X Hnu HS HX c Y'. have [E [_ _]] := llt_L_ok HS. have HL := llt_L_unit HS.
  have Hc : 0 < c by [].
  have Hc0 : c != 0 by rewrite gt_eqF.
  have HXi := spd_inv HX.
  have HY := spd_congr HL HXi.
  have Hci : 0 < c^-1 by rewrite invr_gt0.
  have HcY : spd Y' by apply: spd_scale.
  split=> //. rewrite /Y'.
  set L := llt_L S in E HL HY *. set Y := L^T *m invmx X *m L in HY *.
  have DS := spd_det_gt0 HS. have DX := spd_det_gt0 HX.
  have tY : \tr Y = \tr (S *m invmx X) by rewrite /Y -mulmxA mxtrace_mulC -mulmxA E mxtrace_mulC.
  have dY : \det Y = \det S / \det X.
  { have dS : \det S = \det L * \det L by rewrite -[in LHS]E det_mulmx det_tr.
    rewrite /Y !det_mulmx det_tr det_inv dS mulrAC. by []. }
  rewrite detZ lnM ?exprn_gt0 // ?spd_det_gt0 // lnX // dY lnM ?invr_gt0 // lnV // lnV // mxtraceZ tY.
  rewrite /stan_inv_wishart_lpdf -/c.
  have -> : \det (c^-1 *: S) = c^-1 ^+ d * \det S by rewrite detZ.
  rewrite lnM ?exprn_gt0 // lnX // lnV //.
  have -> : \tr (S *m invmx (c^-1 *: S)) = c * d%:R.
  { have U : c^-1 *: S \in unitmx by apply: spd_unit; apply: spd_scale.
    rewrite (invmxZ U) invrK -scalemxAr mxtraceZ mulmxV ?spd_unit // mxtrace1. by []. }
  set T := \tr _. set dd := d%:R. set e := ln c. set a := ln (\det S). set b := ln (\det X).
  have -> : c * hf * (c^-1 * T - dd - (dd * - e + (a - b))) = c * c^-1 * (hf * T) - c * hf * dd - c * hf * (dd * - e + (a - b)) by ring.
  rewrite mulfV // mul1r. ring.
Qed.

Lemma iw_coef : forall d (nu : R), 0 < nu -> 0 < nu + d%:R + 1.
Proof. move=> d nu Hnu. apply: addr_gt0; last exact: ltr01. by apply: ltr_paddr; first exact: ler0n. Qed.

(** [S / (nu + d + 1)] is the only point of largest density. *)
Lemma iw_mode : forall lg d nu (S X : 'M[R]_d), 0 < nu + d%:R + 1 -> spd S -> spd X ->
  stan_inv_wishart_lpdf lg X nu S <= stan_inv_wishart_lpdf lg ((nu + d%:R + 1)^-1 *: S) nu S.
Proof.
  move=> lg d nu S X Hnu HS HX. have [Hc HY E] := iw_gap lg Hnu HS HX.
  rewrite -subr_ge0 E. apply: mulr_ge0; first by rewrite mulr_ge0 ?ltW // /hf invr_gt0 two_gt0.
  rewrite subr_ge0. exact: ln_det_trace.
Qed.

Lemma ln_eq_sub1 : forall x : R, 0 < x -> x - 1 <= ln x -> x = 1.
Proof.
  move=> x Hx H. case: (Req_dec (ln x) 0) => [E|N].
  - have : exp (ln x) = x by apply: exp_ln; apply/RltE. by rewrite E exp_0.
  - exfalso. have K := exp_ineq1 (ln x) N. have E : exp (ln x) = x by apply: exp_ln; apply/RltE.
    rewrite E in K. move/RleE: H => H. change (Rle (Rminus x 1) (ln x)) in H. change (Rlt (Rplus 1 (ln x)) x) in K. lra.
Qed.

Lemma ln_det_trace_eq : forall d (Y : 'M[R]_d), spd Y -> \tr Y - d%:R <= ln (\det Y) -> Y = 1%:M.
Proof.
  move=> d Y HY H. have [E [T P]] := llt_L_ok HY.
  have Ld : forall i, Y i i = llt_L Y i i ^+ 2 + \sum_(j | j != i) llt_L Y i j ^+ 2.
  { move=> i. rewrite -[in LHS]E mxE (bigD1 i) //= mxE -expr2; congr (_ + _). apply: eq_bigr => j _. by rewrite mxE -expr2. }
  have S0 : forall i, 0 <= \sum_(j | j != i) llt_L Y i j ^+ 2 by move=> i; apply: sumr_ge0 => j _; exact: sqr_ge0.
  have G : forall i, ln (llt_L Y i i ^+ 2) <= Y i i - 1.
  { move=> i. apply: le_trans (ln_le_sub1 _) _; first by rewrite exprn_gt0. by rewrite ler_sub // Ld ler_addl. }
  have Q : forall i, Y i i - 1 <= ln (llt_L Y i i ^+ 2).
  { move: H. rewrite (det_chol sqrtR_gt0 sqrtR_sq HY) -/(llt_L Y) -prodrXl ln_prod; last by move=> i; rewrite exprn_gt0.
    have -> : \tr Y - d%:R = \sum_i (Y i i - 1).
    { rewrite sumrB /mxtrace; congr (_ - _). by rewrite sumr_const card_ord. }
    rewrite -subr_ge0 -sumrB => H i.
    have H2 : \sum_i0 (Y i0 i0 - 1 - ln (llt_L Y i0 i0 ^+ 2)) <= 0.
    { have := H. rewrite -oppr_le0 -sumrN => H3. apply: le_trans H3. apply: ler_sum => j _. by rewrite opprB. }
    have H3 : 0 <= \sum_(i0 | i0 != i) (Y i0 i0 - 1 - ln (llt_L Y i0 i0 ^+ 2)) by apply: sumr_ge0 => j _; rewrite subr_ge0.
    rewrite (bigD1 i) //= in H2.
    have : Y i i - 1 - ln (llt_L Y i i ^+ 2) <= 0 by apply: le_trans H2; rewrite ler_addl.
    by rewrite subr_le0. }
  have D : forall i, llt_L Y i i ^+ 2 = 1.
  { move=> i. apply: ln_eq_sub1; first by rewrite exprn_gt0. apply: le_trans (Q i). by rewrite ler_sub // Ld ler_addl. }
  have O : forall i, \sum_(j | j != i) llt_L Y i j ^+ 2 = 0.
  { move=> i. apply/eqP. rewrite eq_le S0 andbT. have := Q i. rewrite D ln_1 Ld D addrC addKr. by []. }
  have L1 : llt_L Y = 1%:M.
  { apply/matrixP => i j. rewrite mxE. case: (eqVneq i j) => [<-|N].
    - have Pi := P i. have := D i. move/eqP. rewrite sqrf_eq1 => /orP [/eqP -> //|/eqP K]. by move: Pi; rewrite K oppr_gt0 ltr10.
    - have := O i. move/eqP. rewrite psumr_eq0; last by move=> k _; exact: sqr_ge0.
      move/allP => /(_ j (mem_index_enum _)). rewrite eq_sym N /= sqrf_eq0 => /eqP ->. by []. }
  by rewrite -E L1 trmx1 mulmx1.
Qed.

Lemma iw_mode_eq : forall lg d nu (S X : 'M[R]_d), 0 < nu + d%:R + 1 -> spd S -> spd X ->
  stan_inv_wishart_lpdf lg ((nu + d%:R + 1)^-1 *: S) nu S <= stan_inv_wishart_lpdf lg X nu S ->
  X = (nu + d%:R + 1)^-1 *: S.
Proof.
  move=> lg d nu S X Hnu HS HX. have [Hc HY E] := iw_gap lg Hnu HS HX.
  rewrite -subr_le0 E. have H2 : 0 < (nu + d%:R + 1) * hf by rewrite mulr_gt0 // /hf invr_gt0 two_gt0.
  rewrite (pmulr_rle0 _ H2) subr_le0 => K. have := ln_det_trace_eq HY K.
  set c := nu + d%:R + 1 in Hc *. have [EL _] := llt_L_ok HS. have HL := llt_L_unit HS. set L := llt_L S in EL HL *.
  have Hc0 : c != 0 by rewrite gt_eqF.
  move/(congr1 (fun M => c *: M)). rewrite scalerA mulfV // scale1r => K2.
  have K3 : invmx X = c *: (invmx L^T *m invmx L).
  { move/(congr1 (fun M => invmx L^T *m M *m invmx L)): K2. rewrite -!mulmxA (mulKmx _) ?unitmx_tr //.
    rewrite mulmxV // mulmx1 => ->. by rewrite -scalemxAl mul1mx -scalemxAr. }
  have HXU := spd_unit HX.
  apply: (can_inj (mulKmx (spd_unit (spd_inv HX)))). rewrite mulVmx // K3 -scalemxAl -scalemxAr scalerA mulfV // scale1r.
  rewrite -[in X in _ *m X]EL -mulmxA (mulKmx HL) mulVmx // unitmx_tr //.
Qed.
