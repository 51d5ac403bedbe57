(** * C125: initial states of the multivariate, regression and factor hierarchies. *)
From Coq Require Import ZArith Reals Lia.
From mathcomp Require Import all_ssreflect all_algebra.
From mathcomp.algebra_tactics Require Import ring.
From Verif Require Import Base Mixings Univ RealField MatLib Multi MultiFacts NnwFacts LinFacts NwHyper Fa FaFacts WishMode MDistFacts MultiInt P_Multi.
From Verif Require Import P_StartMulti.
From Verif Require GammaInt UnivInt MeanFacts P_Init.
Set Implicit Arguments.
Unset Strict Implicit.
Unset Printing Implicit Defensive.
Import Order.TTheory GRing.Theory Num.Theory.
Local Open Scope ring_scope.

Lemma quad0r : forall d (A : 'M[R]_d), quad A (0 : 'cV[R]_d) = 0.
Proof. move=> d A. by rewrite /quad mulmx0 /dot mulmx0 mxE. Qed.

Lemma mvn_prec_top : forall d (y m : 'cV[R]_d) (P : 'M[R]_d), spd P -> stan_mvn_prec_lpdf y m P <= stan_mvn_prec_lpdf m m P.
Proof.
  move=> d y m P HP. rewrite /stan_mvn_prec_lpdf ler_sub // subrr quad0r mulr0 mulr_ge0 //; first by rewrite /hf invr_ge0 ler0n.
  by have [_ Q] := spd_psd HP.
Qed.
Lemma mvn_prec_top_eq : forall d (y m : 'cV[R]_d) (P : 'M[R]_d), spd P -> stan_mvn_prec_lpdf m m P <= stan_mvn_prec_lpdf y m P -> y = m.
Proof.
  move=> d y m P HP. rewrite /stan_mvn_prec_lpdf subrr quad0r mulr0 subr0 ler_addl oppr_ge0.
  rewrite pmulr_rle0; last by rewrite /hf invr_gt0 ltr0n. move=> H. apply/eqP. rewrite -subr_eq0. apply/negPn/negP => N.
  case: HP => _ /(_ _ N). by rewrite ltNge H.
Qed.

(** Regression: marginal mode of the variance, conditional mode of the coefficients. *)
Theorem C125_regression : forall d p (h : mnig d), mnig_init p = Ok h ->
  (exists dens, (forall v, 0 < v -> is_space_int (fun b => exp (mnig_lpdf lgam h (mkLRS b v))) (dens v)) /\
                P_Init.only_mode_pos dens (lr_var (lin_init_state h))) /\
  (forall v b, 0 < v -> mnig_lpdf lgam h (mkLRS b v) <= mnig_lpdf lgam h (mkLRS (lr_coef (lin_init_state h)) v)) /\
  (forall v b, 0 < v -> mnig_lpdf lgam h (mkLRS (lr_coef (lin_init_state h)) v) <= mnig_lpdf lgam h (mkLRS b v) ->
     b = lr_coef (lin_init_state h)).
Proof.
  move=> d p h H. have [HS [Ha Hb]] := mnig_init_valid H.
  have HP : forall v : R, 0 < v -> spd (v^-1 *: mg_vs h) by move=> v Hv; apply: spd_scale => //; rewrite invr_gt0.
  split; last split.
  - exists (fun v => exp (inv_gamma_lpdf lgam v (mg_shape h) (mg_scale h))). split.
    + move=> v Hv. exact: (mvn_shift (mg_mean h) (inv_gamma_lpdf lgam v (mg_shape h) (mg_scale h)) (HP v Hv)).
    + apply: P_Init.exp_mode. apply: P_Init.inv_gamma_mode; by apply/RltE.
  - move=> v b Hv. rewrite /mnig_lpdf /= ler_add2r. exact: mvn_prec_top (HP v Hv).
  - move=> v b Hv. rewrite /mnig_lpdf /= ler_add2r. exact: mvn_prec_top_eq (HP v Hv).
Qed.
Print Assumptions C125_regression.

Lemma sum_le_eq : forall n (f g : 'I_n -> R), (forall i, f i <= g i) -> \sum_i g i <= \sum_i f i -> forall i, f i = g i.
Proof.
  move=> n f g H L i. have P : forall k, 0 <= g k - f k by move=> k; rewrite subr_ge0.
  have Z : \sum_k (g k - f k) = 0.
  { apply/eqP. rewrite eq_le sumr_ge0 // andbT sumrB subr_le0. exact: L. }
  move/eqP: Z. rewrite psumr_eq0 // => /allP /(_ i (mem_index_enum _)) /= /eqP /eqP. by rewrite subr_eq0 => /eqP ->.
Qed.
Lemma sum3_le_eq : forall a b c a' b' c' : R, a <= a' -> b <= b' -> c <= c' -> a + b + c = a' + b' + c' -> [/\ a = a', b = b' & c = c'].
Proof.
  move=> a b c a' b' c' A B C E. have X : forall x y z x' y' z' : R, x <= x' -> y <= y' -> z <= z' -> x + y + z = x' + y' + z' -> x = x'.
  { move=> x y z x' y' z' Hx Hy Hz Es. apply/eqP. rewrite eq_le Hx /=. have : x' + (y + z) <= x + (y + z).
    { rewrite !addrA Es. apply: ler_add => //. by rewrite ler_add2l. }
    by rewrite ler_add2r. }
  split.
  - exact: X A B C E.
  - apply: X B A C _. by rewrite [b + a]addrC [b' + a']addrC.
  - apply: X C A B _. rewrite -[c + a + b]addrA -[c' + a' + b']addrA [c + _]addrC [c' + _]addrC. exact: E.
Qed.

(** Factor analysers: the only mode of the joint prior density. *)
Theorem C125_factors : forall lg p q (pr : fa_prior p) h, fa_init q pr = Ok h ->
  let s := fa_init_state q h in
  [/\ pos_vec (fa_psi s),
      forall mu psi (lambda : 'M[R]_(p, q)), pos_vec psi -> fa_prior_lpdf lg h mu psi lambda <= fa_prior_lpdf lg h (fa_mu s) (fa_psi s) (fa_lambda s) &
      forall mu psi (lambda : 'M[R]_(p, q)), pos_vec psi -> fa_prior_lpdf lg h (fa_mu s) (fa_psi s) (fa_lambda s) <= fa_prior_lpdf lg h mu psi lambda ->
        [/\ mu = fa_mu s, psi = fa_psi s & lambda = fa_lambda s]].
Proof.
  move=> lg p q pr h H s. have [Hb [Ha [Hphi _]]] := fa_init_ok H.
  have Hs : Rlt 0 (sqrt (fh_phi h)) by apply: sqrt_lt_R0; apply/RltE.
  have M : forall j, P_Init.only_mode_pos (fun v => inv_gamma_lpdf lg v (fh_alpha0 h) (fh_beta h j 0)) (fa_psi s j 0).
  { move=> j. have -> : fa_psi s j 0 = Rdiv (fh_beta h j 0) (Rplus (fh_alpha0 h) 1) by rewrite /s /= mxE mulrC.
    by apply: P_Init.inv_gamma_mode; apply/RltE. }
  have T : forall (mu psi : 'cV[R]_p) (lambda : 'M[R]_(p, q)) j, pos_vec psi ->
    [/\ normal_lpdf (mu j 0 : R) (fh_mutilde h j 0) (sqrt (fh_phi h)) <= normal_lpdf (fa_mu s j 0) (fh_mutilde h j 0) (sqrt (fh_phi h)),
        inv_gamma_lpdf lg (psi j 0) (fh_alpha0 h) (fh_beta h j 0) <= inv_gamma_lpdf lg (fa_psi s j 0) (fh_alpha0 h) (fh_beta h j 0) &
        forall i, normal_lpdf (lambda j i) 0 1 <= normal_lpdf (fa_lambda s j i) 0 1].
  { move=> mu psi lambda j Hp. split.
    - apply/RleE. exact: P_Init.normal_lpdf_top.
    - apply/RleE. case: (M j) => _ [U _]. apply: U. apply/RltE. exact: Hp.
    - move=> i. apply/RleE. rewrite mxE. apply: P_Init.normal_lpdf_top. exact: Rlt_0_1. }
  split.
  - move=> j. apply/RltE. by case: (M j).
  - move=> mu psi lambda Hp. apply: ler_sum => j _. have [A B C] := T mu psi lambda j Hp.
    apply: ler_add; first exact: ler_add. apply: ler_sum => i _. exact: C.
  - move=> mu psi lambda Hp L.
    have E : forall j, normal_lpdf (mu j 0 : R) (fh_mutilde h j 0) (sqrt (fh_phi h)) + inv_gamma_lpdf lg (psi j 0) (fh_alpha0 h) (fh_beta h j 0)
          + \sum_i normal_lpdf (lambda j i) 0 1 =
        normal_lpdf (fa_mu s j 0) (fh_mutilde h j 0) (sqrt (fh_phi h)) + inv_gamma_lpdf lg (fa_psi s j 0) (fh_alpha0 h) (fh_beta h j 0)
          + \sum_i normal_lpdf (fa_lambda s j i) 0 1.
    { apply: sum_le_eq => [j|//]. have [A B C] := T mu psi lambda j Hp. apply: ler_add; first exact: ler_add. apply: ler_sum => i _. exact: C. }
    have F : forall j, [/\ mu j 0 = fa_mu s j 0, psi j 0 = fa_psi s j 0 & forall i, lambda j i = fa_lambda s j i].
    { move=> j. have [A B C] := T mu psi lambda j Hp. have D : \sum_i normal_lpdf (lambda j i) 0 1 <= \sum_i normal_lpdf (fa_lambda s j i) 0 1 by apply: ler_sum => i _; exact: C.
      have [A' B' D'] := sum3_le_eq A B D (E j). split.
      - apply: (@P_Init.normal_lpdf_top_eq _ _ _ Hs). apply/RleE. by rewrite -[X in _ <= X]/(normal_lpdf (mu j 0) (fh_mutilde h j 0) (sqrt (fh_phi h))) A'.
      - case: (M j) => _ [_ U]. apply: U; first by apply/RltE; exact: Hp. apply/RleE. by rewrite B'.
      - move=> i. have C' : forall k, normal_lpdf (lambda j k) 0 1 = normal_lpdf (fa_lambda s j k) 0 1.
        { apply: sum_le_eq => [k|]; first exact: C. by rewrite D'. }
        rewrite [RHS]mxE. apply: (@P_Init.normal_lpdf_top_eq _ _ _ Rlt_0_1). apply/RleE. by rewrite C' mxE. }
    split; first by apply/colP => j; case: (F j).
    + by apply/colP => j; case: (F j).
    + by apply/matrixP => j i; case: (F j).
Qed.
Print Assumptions C125_factors.

(** ** Normal-Wishart *)

(** The mean is the mode of its law given the precision. *)
Theorem C125_nnw_mean : forall lg d p (h : nw d), nw_init p = Ok h ->
  (forall m P, spd P -> nw_lpdf lg h m P <= nw_lpdf lg h (ml_mean (nnw_init_state h)) P) /\
  (forall m P, spd P -> nw_lpdf lg h (ml_mean (nnw_init_state h)) P <= nw_lpdf lg h m P -> m = ml_mean (nnw_init_state h)).
Proof.
  move=> lg d p h H. have [Hv _] := nw_init_valid H. split=> m P HP; rewrite /nw_lpdf /= ler_add2r.
  - apply: mvn_prec_top. exact: spd_scale.
  - apply: mvn_prec_top_eq. exact: spd_scale.
Qed.
Print Assumptions C125_nnw_mean.

Lemma spd_scalar : forall d (x : R), 0 < x -> spd (x%:M : 'M[R]_d).
Proof. move=> d x Hx. rewrite -scalemx1. exact: spd_scale (@spd1 _ _). Qed.

Lemma wishart_as_inverse : forall d (nu : R) (S W : 'M[R]_d), spd S -> spd W -> forall lg,
  stan_wishart_lpdf lg W nu S = stan_inv_wishart_lpdf (fun _ => 0) (invmx W) (nu - 2%:R * d%:R - 2%:R) (invmx S) +
    (- (d%:R * hf * nu * ln 2%:R) - lmgamma lg d (nu * hf) - nu * hf * ln (\det S)
     - ((nu - 2%:R * d%:R - 2%:R) * hf * ln (\det (invmx S)) - d%:R * hf * (nu - 2%:R * d%:R - 2%:R) * ln 2%:R
        - lmgamma (fun _ => 0) d ((nu - 2%:R * d%:R - 2%:R) * hf))).
Proof.
  move=> d nu S W HS HW lg. rewrite /stan_wishart_lpdf /stan_inv_wishart_lpdf invmxK.
  have -> : ln (\det (invmx W)) = - ln (\det W) by rewrite det_inv lnV // spd_det_gt0.
  set a := lmgamma _ _ _. set b := lmgamma _ _ _. set t := \tr _. set w := ln (\det W). set x := ln (\det (invmx S)).
  set y := ln (\det S). ring.
Qed.

(** When the Wishart density has a mode, at [(df - d - 1) * scale], the initial
    precision [var_scaling * I] is that mode only if the two are equal. *)
Theorem C125_nnw_precision_iff : forall lg d p (h : nw d), nw_init p = Ok h -> d%:R + 1 < nw_df h ->
  (forall W, spd W -> stan_wishart_lpdf lg W (nw_df h) (nw_scale h) <= stan_wishart_lpdf lg (ml_prec (nnw_init_state h)) (nw_df h) (nw_scale h)) <->
  (nw_df h - d%:R - 1) *: nw_scale h = (nw_vs h)%:M.
Proof.
  move=> lg d p h H Hdf. have [Hv [_ [HS _]]] := nw_init_valid H. have Hc : 0 < nw_df h - d%:R - 1 by rewrite -addrA -opprD subr_gt0.
  have HI : spd ((nw_vs h)%:M : 'M[R]_d) by exact: spd_scalar.
  have HM : spd ((nw_df h - d%:R - 1) *: nw_scale h) by exact: spd_scale.
  set nu' := nw_df h - 2%:R * d%:R - 2%:R. have Ec : nu' + d%:R + 1 = nw_df h - d%:R - 1 by rewrite /nu'; ring.
  have Hc' : 0 < nu' + d%:R + 1 by rewrite Ec.
  have Einv : forall W : 'M[R]_d, spd W -> (nw_df h - d%:R - 1) *: nw_scale h = W <-> invmx W = (nu' + d%:R + 1)^-1 *: invmx (nw_scale h).
  { move=> W HW. rewrite Ec -invmxZ ?spd_unit //. split=> [<- //|E]. by rewrite -[W]invmxK E invmxK. }
  rewrite /= (Einv _ HI). split=> [T|E W HW].
  - apply: (iw_mode_eq (lg := fun _ => 0) Hc' (spd_inv HS) (spd_inv HI)).
    have := T _ HM. rewrite (wishart_as_inverse _ HS HM) (wishart_as_inverse _ HS HI) ler_add2r -/nu'. by rewrite (proj1 (Einv _ HM) erefl).
  - rewrite (wishart_as_inverse _ HS HW) (wishart_as_inverse _ HS HI) ler_add2r -/nu' E. exact: iw_mode (spd_inv HS) (spd_inv HW).
Qed.
Print Assumptions C125_nnw_precision_iff.

Lemma wishart_one : forall (nu s x : R), 0 < s -> 0 < x ->
  stan_wishart_lpdf lgam (x%:M : 'M[R]_1) nu s%:M = gamma_lpdf lgam x (nu * hf) (hf / s).
Proof.
  move=> nu s x Hs Hx. rewrite /stan_wishart_lpdf /gamma_lpdf /lmgamma !det_scalar !expr1 big_ord1 muln0 !mul0r add0r subr0.
  have -> : invmx (s%:M : 'M[R]_1) = s^-1%:M by rewrite invmx_scalar.
  rewrite -scalar_mxM mxtrace_scalar mulr1n.
  change (- (1 * hf * nu * ln 2%:R) - lgam (nu * hf) - nu * hf * ln s - hf * (s^-1 * x) + (nu - 1 - 1) * hf * ln x =
          nu * hf * ln (hf / s) - lgam (nu * hf) + (nu * hf - 1) * ln x - hf / s * x).
  have -> : ln (hf / s) = - ln 2%:R - ln s by rewrite lnM ?invr_gt0 ?two_gt0 // !lnV ?two_gt0.
  have E2 : hf * 2%:R = 1 by rewrite /hf mulVf // pnatr_eq0.
  have -> : (nu * hf - 1) * ln x = (nu * hf - hf * 2%:R) * ln x by rewrite E2.
  ring.
Qed.

(** Neither the mode nor the mean: degrees of freedom 4, scale 1 and
    [var_scaling] 1 in dimension one, where the mode is 2 and the mean 4. *)
Theorem C125_nnw_precision_refuted : exists (h : nw 1), nw_init (NWFixed 0 1 4%:R 1%:M) = Ok h /\
  (exists W, spd W /\ forall lg, stan_wishart_lpdf lg (ml_prec (nnw_init_state h)) (nw_df h) (nw_scale h) < stan_wishart_lpdf lg W (nw_df h) (nw_scale h)) /\
  (forall l, is_spd_int (fun W => W 0 0 * exp (stan_wishart_lpdf lgam W (nw_df h) (nw_scale h))) l -> ml_prec (nnw_init_state h) 0 0 <> l).
Proof.
  have V : [/\ 0 < (1 : R), (1%:R : R) - 1 < 4%:R & spd (1%:M : 'M[R]_1)] by split; [exact: ltr01|rewrite subrr ltr0n|exact: spd1].
  have [h Hh] := proj2 (C76_accepted_nw (0 : 'cV[R]_1) 1 4%:R 1%:M) V. exists h. split=> //.
  have [F _] := C116_multi_fixed 1. have [E1 E2 E3 E4] := F _ _ _ _ _ Hh. rewrite /= E2 E3 E4. split.
  - exists 2%:R%:M. split; first by apply: spd_scalar; rewrite ltr0n. move=> lg. rewrite /stan_wishart_lpdf -subr_gt0 invmx1 !mul1mx !det1 det_scalar expr1.
    rewrite mxtrace1 mxtrace_scalar mulr1n ln_1 !mulr0.
    have E5 : hf * 2%:R = 1 :> R by rewrite /hf mulVf // pnatr_eq0.
    have L : hf < ln (2%:R : R).
    { rewrite ltNge. apply/negP => K.
      have P2 : 0 < hf by rewrite /hf invr_gt0 two_gt0.
      have E : hf = 1. { apply: ln_eq_sub1 => //. rewrite /hf lnV ?two_gt0 // -/hf. have E6 : hf - 1 = - hf :> R by rewrite -E5; ring. by rewrite E6 ler_opp2. }
      move/eqP: E. rewrite /hf invr_eq1 -subr_eq0. have -> : 2%:R - 1 = 1 :> R by ring. by rewrite oner_eq0. }
    set a := lmgamma _ _ _. set b := ln 2%:R in L *. set g := (_ * _ * _ * b).
    have -> : - g - a - 0 - hf * 2%:R + (4%:R - 1 - 1) * hf * b - (- g - a - 0 - hf * 1 + 0) = (hf * 2%:R) * b - hf * 2%:R + hf by ring.
    rewrite E5 mul1r. have -> : b - 1 + hf = b - (hf * 2%:R - hf) by rewrite E5; ring.
    have -> : hf * 2%:R - hf = hf by ring. by rewrite subr_gt0.
  - move=> l Hl. rewrite mxE eqxx mulr1n => El.
    have Hh' : GammaInt.is_half_int (fun a => Rmult a (exp (gamma_lpdf lgam a (4%:R * hf) (hf / 1)))) l.
    { have HW : is_spd_int (fun W : 'M[R]_1 => (fun a : R => a * exp (stan_wishart_lpdf lgam (a%:M : 'M[R]_1) 4%:R 1%:M)) (W 0 0)) l.
      { apply: (spd_ext (f := fun W : 'M[R]_1 => W 0 0 * exp (stan_wishart_lpdf lgam W 4%:R 1%:M)) _ Hl) => W HW. by rewrite -mx11_scalar. }
      have HW' := proj1 (spd_int_one (fun a : R => a * exp (stan_wishart_lpdf lgam (a%:M : 'M[R]_1) 4%:R 1%:M)) l) HW.
      apply: GammaInt.half_ext HW' => a /RltE Ha. by rewrite wishart_one ?ltr01. }
    have P1 : Rlt 0 (4%:R * hf : R) by apply/RltE; rewrite mulr_gt0 ?ltr0n // /hf invr_gt0 two_gt0.
    have P2 : Rlt 0 (hf / 1 : R) by apply/RltE; rewrite divr1 /hf invr_gt0 two_gt0.
    have G := MeanFacts.gamma_mean _ _ P1 P2. have U := GammaInt.half_unique _ _ _ Hh' G.
    move: U. rewrite -El. change (Rdiv (4%:R * hf) (hf / 1)) with ((4%:R * hf) / (hf / 1) : R).
    rewrite divr1 mulfK; last by rewrite gt_eqF // /hf invr_gt0 two_gt0. move/eqP. by rewrite eq_sym -subr_eq0 -[1]/(1%:R) -natrB // pnatr_eq0.
Qed.
Print Assumptions C125_nnw_precision_refuted.

Example ex_C125_factors : forall mu psi (lambda : 'M[R]_(2, 1)), pos_vec psi ->
  fa_prior_lpdf lgam fh mu psi lambda <= fa_prior_lpdf lgam fh 0 (const_mx 4%:R^-1) (0 : 'M[R]_(2, 1)).
Proof.
  move=> mu psi lambda Hp. have [_ H _] := C125_factors lgam fh_init. have -> : const_mx 4%:R^-1 = fa_psi (fa_init_state 1 fh).
  { apply/colP => j. rewrite !mxE mulr1 /=. have -> : 3%:R + 1 = 4%:R :> R by ring. by []. }
  exact: H.
Qed.
Example ex_C125_regression : exists h : mnig 2, mnig_init (MNIGFixed (const_mx 1) mS 3%:R 8%:R) = Ok h /\
  forall v b, 0 < v -> mnig_lpdf lgam h (mkLRS b v) <= mnig_lpdf lgam h (mkLRS (const_mx 1) v).
Proof.
  have [h Hh] : exists h : mnig 2, mnig_init (MNIGFixed (const_mx 1) mS 3%:R 8%:R) = Ok h.
  { apply/C76_accepted_mnig => //. by split; [exact: mS_spd|rewrite ltr0n|rewrite ltr0n]. }
  exists h. split=> //. have [_ [H _]] := C125_regression Hh. have [_ F] := C116_multi_fixed 2. have [E _ _ _] := F _ _ _ _ _ Hh.
  move: H. by rewrite /= E.
Qed.
Example ex_C125_nnw : exists h : nw 2, nw_init (NWFixed 0 2%:R 5%:R 1%:M) = Ok h /\
  forall lg W, spd W -> stan_wishart_lpdf lg W (nw_df h) (nw_scale h) <= stan_wishart_lpdf lg (ml_prec (nnw_init_state h)) (nw_df h) (nw_scale h).
Proof.
  have [h Hh] : exists h : nw 2, nw_init (NWFixed 0 2%:R 5%:R 1%:M) = Ok h.
  { apply/C76_accepted_nw. split; [by rewrite ltr0n| |exact: spd1]. by rewrite ltr_subl_addr -[1]/(1%:R) -natrD ltr_nat. }
  exists h. split=> // lg W HW. have [F _] := C116_multi_fixed 2. have [E1 E2 E3 E4] := F _ _ _ _ _ Hh.
  apply: (proj2 (C125_nnw_precision_iff lg Hh _)) HW.
  - by rewrite E3 -[1]/(1%:R) -natrD ltr_nat.
  - rewrite E2 E3 E4. have -> : 5%:R - 2%:R - 1 = 2%:R :> R by ring. by rewrite scalemx1.
Qed.
