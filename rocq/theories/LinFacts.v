(** * Linear regression hierarchy: statistics, validity, Bayes' rule, predictive density. *)
From Coq Require Import ZArith Reals Lra Lia.
From mathcomp Require Import all_ssreflect all_algebra.
From mathcomp.algebra_tactics Require Import ring.
From Verif Require Import Base Mixings Univ RealField MatLib Multi MultiFacts NnwFacts.
Set Implicit Arguments.
Unset Strict Implicit.
Unset Printing Implicit Defensive.
Import Order.TTheory GRing.Theory Num.Theory.
Local Open Scope ring_scope.

(** ** Specification vocabulary *)

(** An observation: response and covariates. *)
Definition lin_stats_of d (ys : seq (R * 'cV[R]_d)) : lin_stats d :=
  (\sum_(o <- ys) o.1 ^+ 2, \sum_(o <- ys) o.2 *m o.2^T, \sum_(o <- ys) o.1 *: o.2).
Definition mnig_valid d (h : mnig d) : Prop := spd (mg_vs h) /\ 0 < mg_shape h /\ 0 < mg_scale h.

(** Log marginal likelihood of a batch. *)
Definition lin_log_marg (lg : R -> R) d (h : mnig d) (ys : seq (R * 'cV[R]_d)) : R :=
  let hn := mnig_post h (cardZ' ys) (lin_stats_of ys) in
  - ((size ys)%:R * hf * ln (2%:R * PI)) + hf * (ln (\det (mg_vs h)) - ln (\det (mg_vs hn)))
  + lg (mg_shape hn) - lg (mg_shape h) + mg_shape h * ln (mg_scale h) - mg_shape hn * ln (mg_scale hn).

(** ** Scalar densities in ring notation *)

Lemma two_IZR : IZR 2 = 2%:R :> R.
Proof. by rewrite mulr2n. Qed.
Lemma normal_lpdfE : forall y m v : R, 0 < v ->
  normal_lpdf y m (sqrt v) = - (hf * (y - m) ^+ 2 / v) - hf * ln v - hf * ln (2%:R * PI).
Proof.
  move=> y m v Hv. have Hs := sqrtR_gt0 Hv. have Hs0 : sqrt v != 0 by rewrite gt_eqF.
  have E2 := sqrtR_sq Hv.
  have -> : hf * (y - m) ^+ 2 / v = hf * (y - m) ^+ 2 / (sqrt v * sqrt v) by rewrite E2.
  rewrite /normal_lpdf -?RmulE -?RdivE -?RsubE -?RoppE two_IZR ln_sqrt //.
  move: (ln v) (ln (2 * PI)) (sqrt v) Hs0 => a b s Hs0. rewrite /hf. field. by rewrite Hs0.
Qed.
Lemma inv_gamma_lpdfE : forall lg (y a b : R),
  inv_gamma_lpdf lg y a b = a * ln b - lg a - (a + 1) * ln y - b / y.
Proof. by []. Qed.
Lemma student_t_lpdfE : forall lg (y nu m s : R), student_t_lpdf lg y nu m s =
  lg ((nu + 1) / 2%:R) - lg (nu / 2%:R) - ln nu / 2%:R - ln PI / 2%:R - ln s
  - (nu + 1) / 2%:R * ln (1 + (y - m) / s * ((y - m) / s) / nu).
Proof. by move=> lg y nu m s; rewrite /student_t_lpdf -two_IZR. Qed.

(** ** Statistics (C15) *)

Lemma lstats_nil : forall d, lin_stats_of [::] = lin_stats0 d.
Proof. by move=> d; rewrite /lin_stats_of !big_nil. Qed.
Lemma lstats_cons : forall d (y : R) (x : 'cV[R]_d) ys, lin_stats_of ((y, x) :: ys) = lin_op y x true (lin_stats_of ys).
Proof.
  move=> d y x ys; rewrite /lin_stats_of /lin_op !big_cons /= expr2.
  congr (_, _, _); by rewrite addrC.
Qed.
Lemma lstats_remove : forall d (y : R) (x : 'cV[R]_d) ys, lin_op y x false (lin_stats_of ((y, x) :: ys)) = lin_stats_of ys.
Proof.
  move=> d y x ys; rewrite lstats_cons /lin_op.
  case: (lin_stats_of ys) => [[a b] c] /=. by rewrite !addrK.
Qed.
Lemma lstats_perm : forall d (a b : seq (R * 'cV[R]_d)), perm_eq a b -> lin_stats_of a = lin_stats_of b.
Proof. by move=> d a b H; rewrite /lin_stats_of; congr (_, _, _); exact: perm_big. Qed.

(** ** The update *)

Lemma covar_psd : forall d (ys : seq (R * 'cV[R]_d)), psd (\sum_(o <- ys) o.2 *m o.2^T).
Proof.
  move=> d; elim=> [|o ys IH]; first by rewrite big_nil; exact: psd0.
  rewrite big_cons; apply: psd_add => //; exact: psd_outer.
Qed.

(** One description of the update that covers the empty cluster. *)
Lemma mnig_postE : forall d (h : mnig d) ys, spd (mg_vs h) ->
  let hn := mnig_post h (cardZ' ys) (lin_stats_of ys) in
  [/\ mg_vs hn = \sum_(o <- ys) o.2 *m o.2^T + mg_vs h,
      mg_vs hn *m mg_mean hn = \sum_(o <- ys) o.1 *: o.2 + mg_vs h *m mg_mean h,
      mg_shape hn = mg_shape h + hf * (size ys)%:R &
      mg_scale hn = mg_scale h + hf * (\sum_(o <- ys) o.1 ^+ 2 + quad (mg_vs h) (mg_mean h) - quad (mg_vs hn) (mg_mean hn))].
Proof.
  move=> d h ys HS; rewrite /mnig_post cardZ_eq0; case: eqP => Hn.
  - rewrite (size0nil Hn) !big_nil !add0r subrr !mulr0 !addr0; split=> //.
  - rewrite IZR_size /=; split=> //.
    have HP : spd (\sum_(o <- ys) o.2 *m o.2^T + mg_vs h) by rewrite addrC; apply: spd_add => //; exact: covar_psd.
    rewrite llt_solveE // mulmxA mulmxV ?spd_unit // mul1mx //.
Qed.

Lemma sum_resid : forall d (ys : seq (R * 'cV[R]_d)) (b : 'cV[R]_d),
  \sum_(o <- ys) (o.1 - dot b o.2) ^+ 2 =
  \sum_(o <- ys) o.1 ^+ 2 - 2%:R * dot b (\sum_(o <- ys) o.1 *: o.2) + quad (\sum_(o <- ys) o.2 *m o.2^T) b.
Proof.
  move=> d ys b; elim: ys => [|o ys IH].
  - by rewrite !big_nil dot0r /quad mul0mx dot0r mulr0 subr0 addr0.
  - rewrite !big_cons IH dotDr dotZr quadDl quad_outer [dot o.2 b]dotC.
    move: (dot b (\sum_(o <- ys) _)) (dot b o.2) (quad _ b) (\sum_(o <- ys) o.1 ^+ 2) (o.1) => a1 a2 a3 a4 a5. ring.
Qed.

(** The exponent (C22). *)
Lemma lin_quadratic : forall d (h : mnig d) ys (b : 'cV[R]_d), spd (mg_vs h) ->
  let hn := mnig_post h (cardZ' ys) (lin_stats_of ys) in
  quad (mg_vs h) (b - mg_mean h) + \sum_(o <- ys) (o.1 - dot b o.2) ^+ 2 =
  quad (mg_vs hn) (b - mg_mean hn) + 2%:R * (mg_scale hn - mg_scale h).
Proof.
  move=> d h ys b HS hn. have [E1 E2 E3 E4] := mnig_postE ys HS. rewrite -/hn in E1 E2 E3 E4.
  have HSn : (mg_vs hn)^T = mg_vs hn by rewrite E1; case: (spd_add HS (covar_psd ys)); rewrite addrC.
  have HS0 : (mg_vs h)^T = mg_vs h by case: HS.
  rewrite sum_resid !quadB // E2 E4 {1}E1 dotDr quadDl.
  move: (quad (mg_vs h) b) (dot b _) (dot b _) (quad (mg_vs h) _) (quad (\sum_(o <- ys) _) b) (\sum_(o <- ys) o.1 ^+ 2) (quad (mg_vs hn) _)
   => a1 a2 a3 a4 a5 a6 a7. rewrite /hf. field. by [].
Qed.

(** Validity (C18). *)
Lemma mnig_post_valid : forall d (h : mnig d) ys, mnig_valid h -> mnig_valid (mnig_post h (cardZ' ys) (lin_stats_of ys)).
Proof.
  move=> d h ys [HS [Ha Hb]]. have [E1 E2 E3 E4] := mnig_postE ys HS.
  have Q := lin_quadratic ys (mg_mean (mnig_post h (cardZ' ys) (lin_stats_of ys))) HS. cbv zeta in Q.
  set hn := mnig_post _ _ _ in E1 E2 E3 E4 Q *.
  split; [|split].
  - by rewrite E1 addrC; apply: spd_add => //; exact: covar_psd.
  - by rewrite E3 ltr_paddr // mulr_ge0 ?ler0n // /hf invr_ge0 ler0n.
  - have E0 : quad (mg_vs hn) (mg_mean hn - mg_mean hn) = 0 by rewrite subrr /quad mulmx0 dot0r.
    have HG : 0 <= 2%:R * (mg_scale hn - mg_scale h).
    { rewrite E0 add0r in Q. rewrite -Q addr_ge0 //; first by have [_] := spd_psd HS; apply.
      by apply: sumr_ge0 => o _; rewrite sqr_ge0. }
    move: HG; rewrite pmulr_rge0 ?two_gt0 // subr_ge0 => HG. exact: lt_le_trans HG.
Qed.

(** Bayes' rule (C22). *)
Lemma lin_bayes : forall lg d (h : mnig d) ys (s : lrs d), mnig_valid h -> 0 < lr_var s ->
  mnig_lpdf lg h s + \sum_(o <- ys) lin_lpdf s o.1 o.2 =
  lin_log_marg lg h ys + mnig_lpdf lg (mnig_post h (cardZ' ys) (lin_stats_of ys)) s.
Proof.
  move=> lg d h ys [b v] HV /= Hv. have [HSn [Han Hbn]] := mnig_post_valid ys HV. case: HV => HS [Ha Hb].
  have Q := lin_quadratic ys b HS. cbv zeta in Q. have [E1 E2 E3 E4] := mnig_postE ys HS.
  rewrite /lin_log_marg. set hn := mnig_post _ _ _ in E1 E2 E3 E4 Q HSn Han Hbn *.
  have Hv0 : v != 0 by rewrite gt_eqF.
  have -> : \sum_(o <- ys) lin_lpdf (mkLRS b v) o.1 o.2 =
     (size ys)%:R * (- (hf * ln v) - hf * ln (2%:R * PI)) - hf * \sum_(o <- ys) (v^-1 * (o.1 - dot b o.2) ^+ 2).
  { rewrite -big_const_sum; apply: eq_bigr => o _. rewrite /lin_lpdf /= normal_lpdfE //. 
    move: (ln v) (ln _) ((_ - _) ^+ 2) => a1 a2 a3. ring. }
  rewrite -mulr_sumr.
  have -> : \sum_(o <- ys) (o.1 - dot b o.2) ^+ 2 =
     quad (mg_vs hn) (b - mg_mean hn) + 2%:R * (mg_scale hn - mg_scale h) - quad (mg_vs h) (b - mg_mean h) by rewrite -Q; ring.
  rewrite /mnig_lpdf /stan_mvn_prec_lpdf /= !ln_det_scale ?invr_gt0 // lnV // !quadZl !inv_gamma_lpdfE E3.
  set a1 := quad (mg_vs h) _; set a2 := quad (mg_vs hn) _; set a3 := ln (\det (mg_vs h)); set a4 := ln (\det (mg_vs hn)).
  set a5 := ln (2 * PI); set a6 := ln v; set a7 := ln (mg_scale h); set a8 := ln (mg_scale hn).
  set a9 := lg (mg_shape h); set b1 := lg (mg_shape h + _); set b2 := mg_scale h; set b3 := mg_scale hn.
  rewrite /hf. field. exact: Hv0.
Qed.

(** Updating in two steps (C19). *)
Lemma lin_compose : forall d (h : mnig d) a b, mnig_valid h ->
  mnig_post (mnig_post h (cardZ' a) (lin_stats_of a)) (cardZ' b) (lin_stats_of b) =
  mnig_post h (cardZ' (a ++ b)) (lin_stats_of (a ++ b)).
Proof.
  move=> d h a b HV. have HV1 := mnig_post_valid a HV. have HV2 := mnig_post_valid b HV1. have HV3 := mnig_post_valid (a ++ b) HV.
  have [E1 E2 E3 E4] := mnig_postE a (proj1 HV). have [F1 F2 F3 F4] := mnig_postE b (proj1 HV1).
  have [G1 G2 G3 G4] := mnig_postE (a ++ b) (proj1 HV).
  set ha := mnig_post h (cardZ' a) _ in E1 E2 E3 E4 F1 F2 F3 F4 HV1 HV2 *.
  set hb := mnig_post ha _ _ in F1 F2 F3 F4 HV2 *. set hc := mnig_post h _ _ in G1 G2 G3 G4 HV3 *.
  have HS : mg_vs hb = mg_vs hc by rewrite F1 G1 E1 big_cat /= addrA [X in X + _]addrC.
  have HM : mg_mean hb = mg_mean hc.
  { apply: (can_inj (mulKmx (spd_unit (proj1 HV3)))). by rewrite G2 -HS F2 E2 big_cat /= addrA [X in X + _]addrC. }
  have HA : mg_shape hb = mg_shape hc by rewrite F3 G3 E3 size_cat natrD mulrDr addrA.
  have HB : mg_scale hb = mg_scale hc.
  { rewrite F4 G4 E4 HS HM big_cat /=. 
    move: (quad _ _) (quad _ _) (quad _ _) (\sum_(o <- a) _) (\sum_(o <- b) _) (mg_scale h) => a1 a2 a3 a4 a5 a6. ring. }
  by case: hb HS HM HA HB {F1 F2 F3 F4 HV2} => ? ? ? ? /=; case: hc {G1 G2 G3 G4 HV3} => ? ? ? ? /= -> -> -> ->.
Qed.
Lemma lin_perm : forall d (h : mnig d) a b, perm_eq a b ->
  mnig_post h (cardZ' a) (lin_stats_of a) = mnig_post h (cardZ' b) (lin_stats_of b).
Proof. by move=> d h a b H; rewrite (lstats_perm H) /cardZ' (perm_size H). Qed.

(** *** Predictive density *)
Lemma lin_one_scale : forall d (h : mnig d) (y : R) (x : 'cV[R]_d), mnig_valid h ->
  mg_scale (mnig_post h (cardZ' [:: (y, x)]) (lin_stats_of [:: (y, x)])) =
  mg_scale h + hf * (y - dot x (mg_mean h)) ^+ 2 / (1 + quad (invmx (mg_vs h)) x).
Proof.
  move=> d h y x HV. have [HSn _] := mnig_post_valid [:: (y, x)] HV. case: HV => HS [Ha Hb].
  have [E1 E2 E3 E4] := mnig_postE [:: (y, x)] HS.
  have Q := lin_quadratic [:: (y, x)] (mg_mean (mnig_post h (cardZ' [:: (y, x)]) (lin_stats_of [:: (y, x)]))) HS. cbv zeta in Q.
  set hn := mnig_post _ _ _ in E1 E2 E3 E4 Q HSn *. clearbody hn. rewrite !big_seq1 /= in E1 E2 Q.
  have E0 : quad (mg_vs hn) (mg_mean hn - mg_mean hn) = 0 by rewrite subrr /quad mulmx0 dot0r.
  rewrite E0 add0r in Q.
  set q := quad (invmx (mg_vs h)) x.
  have Hq : 0 <= q by have [_] := spd_psd (spd_inv HS); apply.
  have Hq1 : 1 + q != 0 by rewrite gt_eqF // ltr_paddr ?ltr01.
  set t := (y - dot x (mg_mean h)) / (1 + q).
  have EM : mg_mean hn = mg_mean h + t *: (invmx (mg_vs h) *m x).
  { apply: (can_inj (mulKmx (spd_unit HSn))). have D1 : forall w : 'cV[R]_d, x *m x^T *m w = dot x w *: x.
    { move=> w; rewrite -mulmxA. have -> : x^T *m w = (dot x w)%:M by apply/matrixP => i j; rewrite !ord1 /dot [RHS]mxE eqxx mulr1n.
      by rewrite mul_mx_scalar. }
    rewrite E2 E1 mulmxDl D1 dotDr dotZr -/(quad _ x) -/q mulmxDr -scalemxAr (mulKVmx (spd_unit HS)) [X in _ = _ + X]addrC addrA -scalerDl.
    congr (_ *: _ + _).
    rewrite /t. move: (dot x _) q Hq1 {Hq t} => a1 q Hq1. field. exact: Hq1. }
  have D2 : mg_mean hn - mg_mean h = t *: (invmx (mg_vs h) *m x) by rewrite EM addrAC subrr add0r.
  have D3 : dot (mg_mean hn) x = dot x (mg_mean h) + t * q.
  { rewrite EM dotDl dotZl [dot (mg_mean h) x]dotC [dot (_ *m x) x]dotC //. }
  have D4 : quad (mg_vs h) (t *: (invmx (mg_vs h) *m x)) = t ^+ 2 * q.
  { rewrite quadZ [quad (mg_vs h) _]/quad mulmxA mulmxV ?spd_unit // mul1mx dotC //. }
  rewrite D2 D3 D4 in Q.
  have -> : mg_scale hn = mg_scale h + hf * (2%:R * (mg_scale hn - mg_scale h)) by rewrite mulrA half2 mul1r addrC subrK.
  rewrite -Q /t. move: (dot x _) q Hq1 {Hq t EM D2 D3 D4 Q} => a1 q Hq1. field. exact: Hq1.
Qed.

Lemma lin_predictive : forall lg d (h : mnig d) (y : R) (x : 'cV[R]_d), mnig_valid h ->
  lin_marg_lpdf lg h y x = lin_log_marg lg h [:: (y, x)].
Proof.
  move=> lg d h y x HV. have ES := lin_one_scale y x HV. have [HSn [Han Hbn]] := mnig_post_valid [:: (y, x)] HV.
  case: (HV) => HS [Ha Hb]. have [E1 E2 E3 E4] := mnig_postE [:: (y, x)] HS.
  rewrite /lin_log_marg. set hn := mnig_post _ _ _ in E1 E2 E3 E4 ES HSn Han Hbn *. clearbody hn. rewrite big_seq1 /= in E1.
  rewrite /lin_marg_lpdf llt_solveE // mulmx1.
  set q := quad (invmx (mg_vs h)) x in ES *.
  have Hq : 0 <= q by have [_] := spd_psd (spd_inv HS); apply.
  have Hq1 : 0 < 1 + q by rewrite ltr_paddr ?ltr01.
  have ED : ln (\det (mg_vs hn)) = ln (\det (mg_vs h)) + ln (1 + q).
  { have -> : mg_vs hn = mg_vs h + 1 *: (x *m x^T) by rewrite E1 scale1r addrC.
    rewrite det_rank1 ?spd_unit // mul1r lnM ?spd_det_gt0 //. }
  rewrite ED student_t_lpdfE.
  set s2 := (1 + q) * mg_scale h / mg_shape h. have Hs2 : 0 < s2 by rewrite divr_gt0 // mulr_gt0.
  have Hs := sqrtR_gt0 Hs2. have Hs0 : sqrt s2 != 0 by rewrite gt_eqF.
  set r := y - dot x (mg_mean h) in ES *.
  have -> : r / sqrt s2 * (r / sqrt s2) = r ^+ 2 / s2.
  { rewrite -{3}(sqrtR_sq Hs2). set s := sqrt s2 in Hs0 *. field. exact: Hs0. }
  rewrite ln_sqrt //.
  have Hb0 : mg_scale h != 0 by rewrite gt_eqF. have Ha0 : mg_shape h != 0 by rewrite gt_eqF.
  have Hq10 : 1 + q != 0 by rewrite gt_eqF.
  have EB : mg_scale hn = mg_scale h * (1 + r ^+ 2 / s2 / (2%:R * mg_shape h)).
  { rewrite ES /s2 /hf. move: (mg_scale h) (mg_shape h) q r Hb0 Ha0 Hq10 {ES Hq Hq1 ED s2 Hs2 Hs Hs0 Ha Hb Hbn E1 E2 E3 E4} => b a q r Hb0 Ha0 Hq10.
    field. by rewrite ?Hb0 ?Ha0 ?Hq10. }
  have Hz : 0 < 1 + r ^+ 2 / s2 / (2%:R * mg_shape h).
  { rewrite ltr_paddr ?ltr01 // divr_ge0 ?divr_ge0 ?sqr_ge0 ?ltW // mulr_gt0 ?two_gt0 //. }
  rewrite EB (lnM Hb Hz) E3 /= (lnM two_gt0 PI_gt0) (lnM two_gt0 Ha).
  have -> : ln s2 = ln (1 + q) + ln (mg_scale h) - ln (mg_shape h).
  { by rewrite /s2 (@lnM _ (mg_shape h)^-1) ?invr_gt0 ?mulr_gt0 // lnV // (lnM Hq1 Hb). }
  have -> : 2%:R * mg_shape h / 2%:R = mg_shape h by field.
  have -> : (2%:R * mg_shape h + 1) / 2%:R = mg_shape h + hf * 1 by rewrite /hf; field.
  set a1 := ln (1 + q); set a2 := ln (mg_scale h); set a3 := ln (mg_shape h); set a4 := ln 2; set a5 := ln PI; set a6 := ln (1 + _);
  set a7 := lg _; set a8 := lg _; set a9 := ln (\det _).
  rewrite /hf. field. by [].
Qed.

Lemma lin_chain : forall lg d (h : mnig d) ys y x, mnig_valid h ->
  lin_marg_lpdf lg (mnig_post h (cardZ' ys) (lin_stats_of ys)) y x + lin_log_marg lg h ys = lin_log_marg lg h ((y, x) :: ys).
Proof.
  move=> lg d h ys y x HV. have HV1 := mnig_post_valid ys HV. rewrite lin_predictive //.
  have E : mnig_post h (cardZ' ((y, x) :: ys)) (lin_stats_of ((y, x) :: ys)) =
           mnig_post (mnig_post h (cardZ' ys) (lin_stats_of ys)) (cardZ' [:: (y, x)]) (lin_stats_of [:: (y, x)]).
  { rewrite lin_compose //. apply: lin_perm. by rewrite -[(y, x) :: ys]cat1s perm_catC. }
  rewrite /lin_log_marg E. cbv zeta. set h1 := mnig_post h _ _. set h2 := mnig_post h1 _ _. clearbody h1 h2.
  have -> : (size ((y, x) :: ys))%:R = (size ys)%:R + 1 :> R by rewrite /= -addn1 natrD.
  have -> : (size [:: (y, x)])%:R = 1 :> R by [].
  set a1 := ln (\det (mg_vs h)); set a2 := ln (\det (mg_vs h1)); set a3 := ln (\det (mg_vs h2)); set a4 := ln (2 * PI).
  set a5 := lg (mg_shape h); set a6 := lg (mg_shape h1); set a7 := lg (mg_shape h2). ring.
Qed.
