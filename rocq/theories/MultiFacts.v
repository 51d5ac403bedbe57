(** * Facts about the multivariate model: factorisations, densities, Bayes' rule. *)
From Coq Require Import ZArith Reals Lra.
From mathcomp Require Import all_ssreflect all_algebra.
From mathcomp.algebra_tactics Require Import ring.
From Verif Require Import Base Mixings Univ RealField MatLib Multi.
Set Implicit Arguments.
Unset Strict Implicit.
Unset Printing Implicit Defensive.
Import Order.TTheory GRing.Theory Num.Theory.
Local Open Scope ring_scope.

(** ** Real functions in ring notation *)

Lemma sqrtR_gt0 : forall a : R, 0 < a -> 0 < sqrt a.
Proof. by move=> a /RltE H; apply/RltE; exact: sqrt_lt_R0. Qed.
Lemma sqrtR_sq : forall a : R, 0 < a -> sqrt a * sqrt a = a.
Proof. by move=> a /RltE H; apply: sqrt_sqrt; exact: Rlt_le. Qed.
Lemma lnM : forall a b : R, 0 < a -> 0 < b -> ln (a * b) = ln a + ln b.
Proof. by move=> a b /RltE Ha /RltE Hb; exact: ln_mult. Qed.
Lemma ln1 : ln (1 : R) = 0.
Proof. exact: ln_1. Qed.
Lemma lnV : forall a : R, 0 < a -> ln a^-1 = - ln a.
Proof. by move=> a /RltE Ha; exact: ln_Rinv. Qed.
Lemma lnX : forall (a : R) n, 0 < a -> ln (a ^+ n) = n%:R * ln a.
Proof.
  move=> a n Ha; elim: n => [|n IH]; first by rewrite expr0 ln1 mul0r.
  by rewrite exprS lnM ?exprn_gt0 // IH -[n.+1]addn1 natrD mulrDl mul1r addrC.
Qed.
Lemma ln_prod : forall n (f : 'I_n -> R), (forall i, 0 < f i) -> ln (\prod_i f i) = \sum_i ln (f i).
Proof.
  elim=> [|n IH] f Hf; first by rewrite !big_ord0 ln1.
  by rewrite !big_ord_recl lnM ?prodr_gt0 // IH.
Qed.
Lemma ln_sqrt : forall a : R, 0 < a -> ln (sqrt a) = hf * ln a.
Proof.
  move=> a Ha. have Hs := sqrtR_gt0 Ha.
  rewrite -{2}(sqrtR_sq Ha) lnM // /hf. field. by [].
Qed.
Lemma PI_gt0 : (0 : R) < PI.
Proof. by apply/RltE; exact: PI_RGT_0. Qed.
Lemma two_gt0 : (0 : R) < 2%:R.
Proof. by rewrite ltr0n. Qed.
Lemma lnorm2pi : neg_log_sqrt_two_pi = - (hf * ln (2%:R * PI)).
Proof. by rewrite /neg_log_sqrt_two_pi ln_sqrt // mulr_gt0 ?two_gt0 ?PI_gt0. Qed.
Lemma half2 : hf * 2%:R = 1.
Proof. by rewrite /hf mulVf // pnatr_eq0. Qed.

(** ** Factorisations *)

Lemma llt_L_ok : forall d (A : 'M[R]_d), spd A ->
  llt_L A *m (llt_L A)^T = A /\ (forall i j : 'I_d, (i < j)%N -> llt_L A i j = 0) /\ (forall i, 0 < llt_L A i i).
Proof. move=> d A HA. exact: (chol_ok sqrtR_gt0 sqrtR_sq HA). Qed.
Lemma llt_U_ok : forall d (A : 'M[R]_d), spd A -> (llt_U A)^T *m llt_U A = A /\ (forall i, 0 < llt_U A i i).
Proof. by move=> d A HA; have [E1 [_ E3]] := llt_L_ok HA; rewrite /llt_U trmxK; split=> // i; rewrite mxE. Qed.
Lemma spd_det_gt0 : forall d (A : 'M[R]_d), spd A -> 0 < \det A.
Proof. move=> d A HA. exact: (spd_det sqrtR_gt0 sqrtR_sq HA). Qed.
Lemma llt_L_unit : forall d (A : 'M[R]_d), spd A -> llt_L A \in unitmx.
Proof.
  move=> d A HA; have HU := spd_unit HA; have [E1 _] := llt_L_ok HA.
  by move: HU; rewrite -{1}E1 unitmx_mul => /andP [].
Qed.
Lemma llt_U_unit : forall d (A : 'M[R]_d), spd A -> llt_U A \in unitmx.
Proof. by move=> d A HA; rewrite /llt_U unitmx_tr llt_L_unit. Qed.
Lemma llt_solveE : forall d e (A : 'M[R]_d) (B : 'M[R]_(d, e)), spd A -> llt_solve A B = invmx A *m B.
Proof.
  move=> d e A B HA; have HL := llt_L_unit HA; have HU := llt_U_unit HA; have [E1 _] := llt_L_ok HA.
  rewrite /llt_solve. apply: (can_inj (mulKmx (spd_unit HA))).
  by rewrite (mulKVmx (spd_unit HA)) -{1}E1 -/(llt_U A) -mulmxA (mulKVmx HU) (mulKVmx HL).
Qed.
Lemma logdet_L : forall d (A : 'M[R]_d), spd A -> 2%:R * diag_logsum (llt_L A) = ln (\det A).
Proof.
  move=> d A HA; have [_ [_ E3]] := llt_L_ok HA.
  by rewrite (det_chol sqrtR_gt0 sqrtR_sq HA) lnX ?prodr_gt0 // ln_prod.
Qed.
Lemma logdet_U : forall d (A : 'M[R]_d), spd A -> 2%:R * diag_logsum (llt_U A) = ln (\det A).
Proof.
  move=> d A HA; rewrite -logdet_L // /diag_logsum; congr (_ * _); apply: eq_bigr => i _; by rewrite mxE.
Qed.
Lemma det_inv_ln : forall d (A : 'M[R]_d), spd A -> ln (\det (invmx A)) = - ln (\det A).
Proof. by move=> d A HA; rewrite det_inv lnV // spd_det_gt0. Qed.

Lemma spd_of_pivots : forall d (A : 'M[R]_d), A^T = A -> pivots_pos A -> spd A.
Proof.
  elim=> [|d IH] A HA; first by move=> _; split=> // v /eqP []; apply/matrixP => -[].
  move=> /=; set a := ulsubmx (A : 'M_(1 + d)) 0 0; set b := dlsubmx (A : 'M_(1 + d)) => /andP [Ha HP].
  have Hul : ulsubmx (A : 'M_(1 + d)) = a%:M by apply/matrixP => i j; rewrite !ord1 /a [RHS]mxE eqxx mulr1n.
  have Hur : ursubmx (A : 'M_(1 + d)) = b^T by rewrite /b trmx_dlsub; congr ursubmx.
  have Hdr : (drsubmx (A : 'M_(1 + d)))^T = drsubmx (A : 'M_(1 + d)) by rewrite trmx_drsub; congr drsubmx.
  have [HS1 HS2] : spd (drsubmx (A : 'M_(1 + d)) - a^-1 *: (b *m b^T)).
  { by apply: IH => //; rewrite linearB /= linearZ /= trmx_mul trmxK Hdr. }
  have EA : A = block_mx a%:M b^T b (drsubmx (A : 'M_(1 + d))) :> 'M_(1 + d) by rewrite -Hul -Hur submxK.
  have Ha0 : a != 0 by rewrite gt_eqF.
  split=> // v Hv.
  set v1 := usubmx (v : 'cV_(1 + d)); set v2 := dsubmx (v : 'cV_(1 + d)).
  set x := v1 0 0.
  have Ev1 : v1 = x%:M by apply/matrixP => i j; rewrite !ord1 /x [RHS]mxE eqxx mulr1n.
  have Ev : v = col_mx v1 v2 :> 'cV_(1 + d) by rewrite vsubmxK.
  have Eq : quad A v = a * (x + a^-1 * dot b v2) ^+ 2 + quad (drsubmx (A : 'M_(1 + d)) - a^-1 *: (b *m b^T)) v2.
  { have -> : quad A v = quad (block_mx a%:M b^T b (drsubmx (A : 'M_(1 + d)))) (col_mx v1 v2) by rewrite -EA -Ev.
    rewrite [LHS]/quad mul_block_col dot_block Ev1.
    have Eb : b^T *m v2 = (dot b v2)%:M by apply/matrixP => i j; rewrite !ord1 /dot [RHS]mxE eqxx mulr1n.
    rewrite Eb -scalar_mxM mul_mx_scalar quadDl -scaleNr quadZl quad_outer. rewrite !dotDr dotZr [dot v2 b]dotC /quad.
    have D1 : forall y z : R, dot (y%:M : 'cV[R]_1) z%:M = y * z.
    { by move=> y z; rewrite dotE big_ord1 !mxE eqxx !mulr1n. }
    rewrite !D1. field. exact: Ha0. }
  rewrite Eq. case: (eqVneq v2 0) => [E0|Hv2].
  - have Hx : x != 0.
    { apply: contra Hv => /eqP Ex. by rewrite Ev E0 Ev1 Ex -scalemx1 scale0r col_mx0. }
    rewrite E0 dot0r mulr0 addr0 /quad mulmx0 dot0r addr0. by rewrite pmulr_rgt0 // exprn_even_gt0.
  - apply: ltr_paddl; last exact: HS2. by rewrite mulr_ge0 ?sqr_ge0 // ltW.
Qed.
Lemma pivots_of_spd : forall d (A : 'M[R]_d), spd A -> pivots_pos A.
Proof.
  elim=> [|d IH] A HA //=; have [Ha [_ HS]] := @spd_schur _ d A HA. by rewrite Ha IH.
Qed.
Lemma inverse_spd_ok : forall d (A B : 'M[R]_d), inverse_spd A = Ok B <-> spd A /\ B = invmx A.
Proof.
  move=> d A B; rewrite /inverse_spd; case: eqP => HA; case E: (pivots_pos A) => //=; split.
  - by case=> <-; split=> //; apply: spd_of_pivots.
  - by case=> _ ->.
  - by [].
  - by case=> /pivots_of_spd; rewrite E.
  - by [].
  - by case=> -[].
  - by [].
  - by case=> -[].
Qed.
Lemma check_spd_ok : forall d (A : 'M[R]_d), check_spd A = Ok tt <-> (0 < d)%N /\ spd A.
Proof.
  move=> d A; rewrite /check_spd; case: eqP => HA /=; last by split=> // -[_ []].
  case: d A HA => [|d] A HA /=; first by split=> // -[].
  case E: (pivots_pos A); rewrite /= in E; rewrite E; split=> //.
  - by move=> _; split=> //; apply: spd_of_pivots.
  - by case=> _ /pivots_of_spd /=; rewrite E.
Qed.

(** ** Multivariate normal density (C25) *)

Lemma mvn_prec_factor : forall d (y m : 'cV[R]_d) (C P : 'M[R]_d) ld, C *m C^T = P -> ld = ln (\det P) ->
  mvn_prec_lpdf y m C ld = stan_mvn_prec_lpdf y m P.
Proof.
  move=> d y m C P ld HC Hld; rewrite /mvn_prec_lpdf /stan_mvn_prec_lpdf lnorm2pi Hld /sqnorm -quad_gram trmxK HC. ring.
Qed.

Lemma set_constrained_density : forall d (m y : 'cV[R]_d) (P : 'M[R]_d), spd P ->
  mnorm_lpdf (mls_set_constrained m P) y = stan_mvn_prec_lpdf y m P.
Proof.
  move=> d m y P HP; have [E1 _] := llt_L_ok HP; rewrite /mnorm_lpdf /=; apply: mvn_prec_factor => //; exact: logdet_L.
Qed.

Lemma write_prec_gap : forall d (m y : 'cV[R]_d) (P : 'M[R]_d), spd P ->
  mnorm_lpdf (write_prec_to_state m P) y =
  stan_mvn_prec_lpdf y m P - hf * (quad ((llt_L P)^T *m llt_L P) (y - m) - quad P (y - m)).
Proof.
  move=> d m y P HP; rewrite /mnorm_lpdf /= /mvn_prec_lpdf /stan_mvn_prec_lpdf lnorm2pi logdet_U // /llt_U trmxK.
  rewrite /sqnorm -quad_gram. set q1 := quad (_ *m _) _. set q2 := quad P _. ring.
Qed.

Lemma quad_eq_mx : forall d (A B : 'M[R]_d), A^T = A -> B^T = B -> (forall v, quad A v = quad B v) -> A = B.
Proof.
  move=> d A B HA HB H.
  have HD : (A - B)^T = A - B by rewrite linearB /= HA HB.
  have Q0 : forall v, quad (A - B) v = 0 by move=> v; rewrite quadDl -scaleN1r quadZl H; ring.
  have D0 : forall u v, dot u ((A - B) *m v) = 0.
  { move=> u v. have := quadD u v HD. rewrite !Q0 add0r addr0 => /esym /eqP. rewrite mulf_eq0 pnatr_eq0 /= => /eqP //. }
  apply/eqP; rewrite -subr_eq0; apply/eqP/matrixP => i j; rewrite [RHS]mxE.
  have := D0 (delta_mx i 0) (delta_mx j 0). rewrite /dot trmx_delta -rowE -colE. by rewrite !mxE.
Qed.

(** A lower-triangular matrix commuting with its transpose is diagonal. *)
Lemma normal_lower_diag : forall d (L : 'M[R]_d), (forall i j : 'I_d, (i < j)%N -> L i j = 0) ->
  L^T *m L = L *m L^T -> forall i j, i != j -> L i j = 0.
Proof.
  move=> d L HL HN.
  have K : forall k (i j : 'I_d), (j <= k)%N -> i != j -> L i j = 0.
  { elim=> [|k IH] i j; [rewrite leqn0 | rewrite leq_eqVlt] => Hj Hij.
    all: try (case/orP: Hj => [Hj|Hj]; last by apply: IH).
    all: case: (ltngtP i j) => [Hlt|Hgt|/val_inj E]; try (by apply: HL); try (by rewrite E eqxx in Hij).
    all: have E := congr1 (fun M : 'M[R]_d => M j j) HN; rewrite !mxE in E.
    all: have EL : \sum_k L^T j k * L k j = L j j ^+ 2 + \sum_(k | k != j) L k j ^+ 2
         by rewrite (bigD1 j) //= mxE; congr (_ + _); apply: eq_bigr => l _; rewrite mxE expr2.
    all: have ER : \sum_k L j k * L^T k j = L j j ^+ 2
         by rewrite (bigD1 j) //= mxE -expr2 big1 ?addr0 // => l Hl; rewrite mxE;
            (have -> : L j l = 0; [ | by rewrite mul0r ]);
            case: (ltngtP j l) => [H1|H1|/val_inj H1];
            [ exact: HL
            | first [ by rewrite (eqP Hj) ltn0 in H1 | by apply: IH; [rewrite -ltnS -(eqP Hj) | rewrite eq_sym] ]
            | by rewrite H1 eqxx in Hl ].
    all: rewrite EL ER in E.
    all: have Z : \sum_(k | k != j) L k j ^+ 2 = 0 by apply: (addrI (L j j ^+ 2)); rewrite E addr0.
    all: have := psumr_eq0P (fun l _ => sqr_ge0 (L l j)) Z Hij; move/eqP; rewrite sqrf_eq0 => /eqP //. }
  by move=> i j Hij; apply: (K j).
Qed.

Lemma write_prec_right_iff : forall d (P : 'M[R]_d), spd P ->
  (forall m y, mnorm_lpdf (write_prec_to_state m P) y = stan_mvn_prec_lpdf y m P) <->
  (forall i j, i != j -> P i j = 0).
Proof.
  move=> d P HP; have [E1 [E2 E3]] := llt_L_ok HP; split.
  - move=> H.
    have HN : (llt_L P)^T *m llt_L P = P.
    { apply: quad_eq_mx; [by rewrite trmx_mul trmxK | by case: HP | ].
      move=> v. have := H 0 v. rewrite write_prec_gap // subr0 => /eqP. rewrite subr_eq addrC -subr_eq subrr eq_sym mulf_eq0.
      case/orP; first by rewrite /hf invr_eq0 pnatr_eq0. by rewrite subr_eq0 => /eqP. }
    have D := normal_lower_diag E2 (etrans HN (esym E1)).
    move=> i j Hij. rewrite -E1 mxE big1 // => k _. rewrite mxE.
    case: (eqVneq i k) => [<-|Hik]; last by rewrite (D _ _ Hik) mul0r.
    by rewrite (D j i) ?mulr0 // eq_sym.
  - move=> HD m y.
    rewrite write_prec_gap //.
    suff -> : (llt_L P)^T *m llt_L P = P by rewrite subrr mulr0 subr0.
    (* entries below the diagonal vanish column by column *)
    have K : forall k (i j : 'I_d), (j <= k)%N -> i != j -> llt_L P i j = 0.
    { elim=> [|k IH] i j; [rewrite leqn0 | rewrite leq_eqVlt] => Hj Hij.
      all: try (case/orP: Hj => [Hj|Hj]; last by apply: IH).
      all: case: (ltngtP i j) => [Hlt|Hgt|/val_inj E]; try (by apply: E2); try (by rewrite E eqxx in Hij).
      all: have E := HD i j Hij; rewrite -E1 mxE (bigD1 j) //= mxE big1 ?addr0 in E;
           [ by move/eqP: E; rewrite mulf_eq0 => /orP [/eqP //|]; rewrite gt_eqF | ].
      all: move=> l Hl; rewrite mxE; (have -> : llt_L P j l = 0; [ | by rewrite mulr0 ]);
            case: (ltngtP j l) => [H1|H1|/val_inj H1];
            [ exact: E2
            | first [ by rewrite (eqP Hj) ltn0 in H1 | by apply: IH; [rewrite -ltnS -(eqP Hj) | rewrite eq_sym] ]
            | by rewrite H1 eqxx in Hl ]. }
    have DL : forall i j, i != j -> llt_L P i j = 0 by move=> i j; apply: K.
    rewrite -[RHS]E1; apply/matrixP => i j; rewrite !mxE; apply: eq_bigr => l _; rewrite !mxE.
    case: (eqVneq l i) => [->|Hl]; last by rewrite (DL l i Hl) (DL i l) ?mul0r // eq_sym.
    case: (eqVneq i j) => [->//|Hij]. by rewrite (DL i j Hij) (DL j i) ?mulr0 // eq_sym.
Qed.

(** The grid versions agree with the pointwise ones, row by row. *)
Lemma mvn_grid_row : forall n d (data : 'M[R]_(n, d)) m C ld i,
  mvn_prec_lpdf_grid data m C ld i 0 = mvn_prec_lpdf (row i data)^T m C ld.
Proof.
  move=> n d data m C ld i; rewrite /mvn_prec_lpdf_grid /mvn_prec_lpdf !mxE.
  have -> : (row i ((\matrix_(i0, j) (data i0 j - m j 0)) *m C))^T = C^T *m ((row i data)^T - m).
  { rewrite row_mul trmx_mul; congr (_ *m _); apply/matrixP => a b; rewrite !mxE (ord1 b) //. }
  ring.
Qed.
Lemma mst_grid_row : forall lg n d (data : 'M[R]_(n, d)) df m C ld i,
  mst_lpdf_grid lg data df m C ld i 0 = mst_lpdf lg (row i data)^T df m C ld.
Proof.
  move=> lg n d data df m C ld i; rewrite /mst_lpdf_grid /mst_lpdf !mxE.
  have -> : (row i ((\matrix_(i0, j) (data i0 j - m j 0)) *m C^T))^T = C *m ((row i data)^T - m).
  { rewrite row_mul trmx_mul trmxK; congr (_ *m _); apply/matrixP => a b; rewrite !mxE (ord1 b) //. }
  set q := sqnorm _. rewrite [q / df + 1]addrC. set l := ln (1 + q / df). ring.
Qed.
