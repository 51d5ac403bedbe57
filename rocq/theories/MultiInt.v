(** * Integrals of the multivariate densities. *)
From Coq Require Import ZArith Reals Lra Lia.
From Coq Require List.
From mathcomp Require Import all_ssreflect all_algebra.
From mathcomp.algebra_tactics Require Import ring.
From Verif Require Import Base Mixings PartSpec Univ RealField MatLib Multi MultiFacts NnwFacts LinFacts Fa FaFacts.
From Verif Require GaussInt Dist DistFacts GammaInt UnivInt StudentInt ConeInt.
From Verif Require Import MDist MDistFacts.
Set Implicit Arguments.
Unset Strict Implicit.
Unset Printing Implicit Defensive.
Import Order.TTheory GRing.Theory Num.Theory.
Local Open Scope ring_scope.
Notation lgam := UnivInt.lgam.

(** ** Specification: integrals over symmetric positive definite matrices.

    A matrix is given by its first pivot [a > 0], the rest [b] of its first
    column and the Schur complement [S], in turn a symmetric positive definite
    matrix.  For given [a] and [b] the lower right block is [S] translated, so the
    iterated integral is the one over the entries on and below the diagonal. *)
Definition spd_join d (a : R) (b : 'cV[R]_d) (S : 'M[R]_d) : 'M[R]_(1 + d) :=
  block_mx a%:M b^T b (S + a^-1 *: (b *m b^T)).
Fixpoint is_spd_int (d : nat) : ('M[R]_d -> R) -> R -> Prop :=
  match d return ('M[R]_d -> R) -> R -> Prop with
  | 0%N => fun f l => f 0 = l
  | d'.+1 => fun (f : 'M[R]_(1 + d') -> R) l =>
      exists (g : R -> 'cV[R]_d' -> R) (k : R -> R),
        [/\ forall a b, 0 < a -> is_spd_int (fun S => f (spd_join a b S)) (g a b),
            forall a, 0 < a -> is_space_int (g a) (k a) & GammaInt.is_half_int k l]
  end.

(** Mean vector and precision matrix; regression coefficients and variance. *)
Definition is_mls_int d (f : 'cV[R]_d -> 'M[R]_d -> R) (l : R) : Prop :=
  exists g, (forall P, spd P -> is_space_int (fun m => f m P) (g P)) /\ is_spd_int g l.
Definition is_lrs_int d (f : 'cV[R]_d -> R -> R) (l : R) : Prop :=
  exists g, (forall v, 0 < v -> is_space_int (fun b => f b v) (g v)) /\ GammaInt.is_half_int g l.

(** ** Linearity and uniqueness *)
Lemma spd_joinP : forall d (a : R) (b : 'cV[R]_d) S, 0 < a -> spd S -> spd (spd_join a b S).
Proof.
  move=> d a b S Ha HS. apply: (@spd_of_pivots d.+1).
  - rewrite (@tr_block_mx _ 1 d 1 d) tr_scalar_mx trmxK trD trZ trmx_mul trmxK. by case: HS => ->.
  - rewrite /= /spd_join (@block_mxKul _ 1 d 1 d) (@block_mxKdl _ 1 d 1 d) (@block_mxKdr _ 1 d 1 d) mxE eqxx mulr1n.
    by rewrite Ha addrK pivots_of_spd.
Qed.
Lemma spd0 : spd (0 : 'M[R]_0).
Proof. split; first by rewrite trmx0. move=> v /eqP []. by apply/matrixP => -[]. Qed.

Lemma spd_ext : forall d (f g : 'M[R]_d -> R) l, (forall W, spd W -> f W = g W) -> is_spd_int f l -> is_spd_int g l.
Proof.
  elim=> [|d IH] f g l E /=; first by rewrite E //; exact: spd0.
  case=> h [k [H1 H2 H3]]. exists h, k; split=> // a b Ha.
  apply: IH (H1 a b Ha) => S HS. apply: E. exact: spd_joinP.
Qed.
Lemma spd_scal : forall d (f : 'M[R]_d -> R) c a, is_spd_int f a -> is_spd_int (fun W => c * f W) (c * a).
Proof.
  elim=> [|d IH] f c l /=; first by move=> ->.
  case=> h [k [H1 H2 H3]]. exists (fun a b => c * h a b), (fun a => c * k a); split.
  - move=> a b Ha. exact: IH (H1 a b Ha).
  - move=> a Ha. exact: space_scal (H2 a Ha).
  - exact: GammaInt.half_scal.
Qed.
Lemma spd_int_unique : forall d (f : 'M[R]_d -> R) a b, is_spd_int f a -> is_spd_int f b -> a = b.
Proof.
  elim=> [|d IH] f l l' /=; first by move=> -> ->.
  case=> h [k [H1 H2 H3]] [h' [k' [G1 G2 G3]]].
  apply: (GammaInt.half_unique _ _ _ H3). apply: GammaInt.half_ext G3 => a /RltE Ha.
  apply: (@space_unique _ (h' a) _ _ (G2 a Ha)). apply: space_ext (H2 a Ha) => b. exact: IH (H1 a b Ha) (G1 a b Ha).
Qed.

(** ** Student's t *)
Definition mst_spec d (nu : R) (m : 'cV[R]_d) (Q : 'M[R]_d) (y : 'cV[R]_d) : R :=
  lgam ((nu + d%:R) * hf) - lgam (nu * hf) - hf * d%:R * ln nu - hf * d%:R * ln PI + hf * ln (\det Q)
  - hf * (nu + d%:R) * ln (1 + quad Q (y - m) / nu).

Lemma one_half : (1 / 2)%coqR = hf.
Proof. rewrite -RdivE two_IZR. by rewrite /hf -[RHS]mul1r. Qed.
Lemma student_stepE : forall s a t c : R, 0 < s -> 0 < a -> 0 < t ->
  GaussInt.is_line_int (fun x => exp (lgam (s + hf) - lgam s - hf * ln PI + hf * ln a - hf * ln t
                                      - (s + hf) * ln (1 + a * ((x - c) * (x - c)) / t))) 1.
Proof.
  move=> s a t c /RltE Hs /RltE Ha /RltE Ht. have := ConeInt.student_step s a t c Hs Ha Ht.
  apply: DistFacts.line_ext => x. congr exp.
  rewrite one_half. 
  have E2 : forall u : R, (u / 2)%coqR = hf * u by move=> u; rewrite -RdivE two_IZR mulrC.
  by rewrite !E2.
Qed.

Lemma mst_mass : forall d (nu : R) (m : 'cV[R]_d) (Q : 'M[R]_d), 0 < nu -> spd Q ->
  is_space_int (fun y => exp (mst_spec nu m Q y)) 1.
Proof.
  elim=> [|d IH] nu m Q Hnu HQ.
  - rewrite /= /mst_spec. rewrite addr0 !mulr0 !mul0r !subr0 subrr det_mx00 ln1 mulr0 addr0 add0r.
    have -> : quad Q (0 - m) = 0 by rewrite /quad dotE big_ord0.
    by rewrite mul0r addr0 ln1 mulr0 oppr0 exp_0.
  - have [Ha [_ HS]] := @spd_schur _ d Q HQ.
    set a := ulsubmx (Q : 'M_(1 + d)) 0 0 in Ha HS *. set b := dlsubmx (Q : 'M_(1 + d)) in HS *.
    set S := drsubmx (Q : 'M_(1 + d)) - a^-1 *: (b *m b^T) in HS *.
    set m0 := usubmx (m : 'cV_(1 + d)) 0 0. set mr := dsubmx (m : 'cV_(1 + d)).
    have Em : m = col_mx (m0%:M : 'cV[R]_1) mr :> 'cV_(1 + d).
    { rewrite -[LHS](@vsubmxK _ 1 d 1). congr col_mx. apply/matrixP => i j. by rewrite !ord1 [RHS]mxE eqxx mulr1n. }
    exists (fun v => exp (mst_spec nu mr S v)); split; last exact: IH.
    move=> v. set q := quad S (v - mr). have Hq : 0 <= q by have [_] := spd_psd HS; apply.
    have Ht : 0 < nu + q by rewrite ltr_paddr.
    have Hs : 0 < (nu + d%:R) * hf by rewrite mulr_gt0 ?invr_gt0 ?two_gt0 // ltr_paddr // ler0n.
    have := student_stepE (m0 - a^-1 * dot b (v - mr)) Hs Ha Ht.
    move/(DistFacts.line_scal _ (exp (mst_spec nu mr S v))).
    rewrite Rmult_1_r. apply: DistFacts.line_ext => x.
    rewrite -[LHS]expD. congr exp.
    rewrite /mst_spec (@det_head d Q HQ) -/a -/b -/S.
    have HD := spd_det_gt0 HS. rewrite (lnM Ha HD).
    have -> : (@col_mx R 1 d 1 x%:M v : 'cV[R]_(1 + d)) - m = col_mx ((x - m0)%:M : 'cV[R]_1) (v - mr) :> 'cV_(1 + d).
    { rewrite {1}Em. rewrite (@opp_col_mx _ 1 d 1) (@add_col_mx _ 1 d 1). by rewrite -raddfN -raddfD. }
    rewrite (@quad_head d Q _ _ HQ) -/a -/b -/S -/q -[d.+1]addn1 natrD.
    have -> : x - m0 + a^-1 * dot b (v - mr) = x - (m0 - a^-1 * dot b (v - mr)) by rewrite opprB addrA addrAC.
    move: (x - _) => e. have He : 0 <= a * (e * e) by apply: mulr_ge0; [exact: ltW|rewrite -expr2 sqr_ge0].
    set w := a * (e * e) in He *. have Hnu0 : nu != 0 by rewrite gt_eqF. have Ht0 : nu + q != 0 by rewrite gt_eqF.
    have H1 : 0 < 1 + q / nu by rewrite ltr_paddr ?ltr01 // divr_ge0 // (ltW Hnu).
    have H2 : 0 < 1 + w / (nu + q) by rewrite ltr_paddr ?ltr01 // divr_ge0 // (ltW Ht).
    have E1 : nu + q = nu * (1 + q / nu) by field.
    have E2 : 1 + (w + q) / nu = (1 + q / nu) * (1 + w / (nu + q)) by field; rewrite Ht0 Hnu0.
    rewrite E2 (lnM H1 H2). have -> : ln (nu + q) = ln nu + ln (1 + q / nu) by rewrite {1}E1 lnM.
    have -> : (nu + (d%:R + 1)) * hf = (nu + d%:R) * hf + hf by ring.
    move: (lgam ((nu + d%:R) * hf + hf)) (lgam ((nu + d%:R) * hf)) (lgam (nu * hf)) (ln nu) (ln PI) (ln a) (ln (\det S)) (ln (1 + q / nu)) (ln (1 + w / (nu + q))) => l1 l2 l3 l4 l5 l6 l7 l8 l9.
    ring.
Qed.

Lemma mst_lpdf_spec : forall d nu (m : 'cV[R]_d) (C Q : 'M[R]_d) ld y, C^T *m C = Q -> ld = ln (\det Q) ->
  mst_lpdf lgam y nu m C ld = mst_spec nu m Q y.
Proof. move=> d nu m C Q ld y HC Hl. by rewrite /mst_lpdf /mst_spec /sqnorm -quad_gram HC Hl. Qed.

(** The predictive density of the Normal-Wishart hierarchy. *)
Lemma nnw_predictive_mass : forall d (h : nw d), nw_valid h ->
  is_space_int (fun y => exp (nnw_marg_lpdf lgam (nw_proto h) y)) 1.
Proof.
  move=> d h [Hk [Hdf [HS [HI HC]]]].
  have Hnu : 0 < nw_df h - d%:R + 1 by move: Hdf; rewrite -subr_gt0 opprB addrA addrAC.
  set nu := nw_df h - d%:R + 1 in Hnu.
  set c := (nw_vs h + 1) / (nw_vs h * nu).
  have Hc : 0 < c by rewrite divr_gt0 ?mulr_gt0 // addr_gt0 // ltr01.
  have Hsc := sqrtR_gt0 Hc. have [EU PU] := llt_U_ok HS.
  have HQ : spd (c^-1 *: nw_scale h) by apply: spd_scale => //; rewrite invr_gt0.
  apply: space_ext (mst_mass (nw_mean h) Hnu HQ) => y. congr exp. symmetry.
  rewrite /nnw_marg_lpdf /= -/nu -/c. apply: mst_lpdf_spec.
  - by rewrite HC trZ -scalemxAl -scalemxAr scalerA EU -invfM sqrtR_sq.
  - rewrite HC (ln_det_scale _ HS) ?invr_gt0 // -(logdet_U HS) /diag_logsum.
    have -> : \sum_i ln (((sqrt c)^-1 *: llt_U (nw_scale h)) i i) = \sum_i (ln (llt_U (nw_scale h) i i) - hf * ln c).
    { apply: eq_bigr => i _. rewrite mxE lnM ?invr_gt0 // lnV // ln_sqrt // addrC //. }
    rewrite sumrB sumr_const card_ord -mulr_natl lnV // /hf. move: (\sum_i _) => a. field. by [].
Qed.

(** ** Wishart *)
(** Schur complement of the lower right block. *)
Lemma spd_tail : forall d (A : 'M[R]_(1 + d)), spd A ->
  let al := ulsubmx A 0 0 in let be := dlsubmx A in let De := drsubmx A in
  [/\ A = block_mx al%:M be^T be De, spd De, 0 < al - quad (invmx De) be & \det A = \det De * (al - quad (invmx De) be)].
Proof.
  move=> d A HA al be De. have [_ [Hur _]] := spd_schur HA. rewrite -/be in Hur.
  have Hul : ulsubmx A = al%:M by apply/matrixP => i j; rewrite !ord1 /al [RHS]mxE eqxx mulr1n.
  have EA : A = block_mx al%:M be^T be De by rewrite -Hul -Hur submxK.
  have HD : spd De.
  { case: (HA) => HT HP. split.
    - have := congr1 drsubmx HT. by rewrite -trmx_drsub.
    - move=> v Hv. have Hc : (col_mx (0 : 'cV[R]_1) v : 'cV_(1 + d)) != 0.
      { apply: contra Hv => /eqP E. have := congr1 dsubmx E. by rewrite col_mxKd linear0 => ->. }
      have := HP _ Hc. by rewrite /quad {1}EA mul_block_col dot_block !mulmx0 !add0r dot0l add0r. }
  have UD := spd_unit HD.
  set u := invmx De *m be.
  have Eq : quad (invmx De) be = dot be u by [].
  have Eu : De *m u = be by rewrite /u mulmxA mulmxV // mul1mx.
  have Esc : be^T *m u = (dot be u)%:M by apply/matrixP => i j; rewrite !ord1 /dot [RHS]mxE eqxx mulr1n.
  have Hpos : 0 < al - quad (invmx De) be.
  { case: (HA) => HT HP.
    have Hc : (col_mx (1%:M : 'cV[R]_1) (- u) : 'cV_(1 + d)) != 0.
    { apply/eqP => E. have := congr1 usubmx E. rewrite col_mxKu linear0 => /matrixP /(_ 0 0). rewrite !mxE eqxx mulr1n. move/eqP. by rewrite oner_eq0. }
    have := HP _ Hc. rewrite /quad {1}EA mul_block_col dot_block !mulmxN Eu !mulmx1 subrr dot0r addr0 Esc.
    rewrite -raddfB /=.
    by rewrite dotE big_ord1 !mxE eqxx !mulr1n mul1r. }
  split=> //.
  have DT : De^T = De by case: HD.
  have EM : A = block_mx 1%:M u^T 0 1%:M *m block_mx ((al - dot be u)%:M : 'M[R]_1) 0 be De.
  { rewrite mulmx_block !mul1mx !mul0mx ?mulmx0 !add0r.
    have -> : u^T *m be = (dot be u)%:M by rewrite -[LHS]trmxK trmx_mul trmxK Esc tr_scalar_mx.
    have -> : u^T *m De = be^T by rewrite -{1}DT -trmx_mul Eu.
    by rewrite -raddfD /= subrK. }
  by rewrite {1}EM det_mulmx det_ublock det_lblock !det1 !mul1r det_scalar1 mulrC Eq.
Qed.

Lemma join_head : forall d (a : R) (b : 'cV[R]_d) S, 0 < a -> spd S -> \det (spd_join a b S) = a * \det S.
Proof.
  move=> d a b S Ha HS. rewrite (det_head (spd_joinP b Ha HS)) /spd_join.
  by rewrite block_mxKul block_mxKdl block_mxKdr mxE eqxx mulr1n addrK.
Qed.

Lemma join_trace : forall d al (be : 'cV[R]_d) (De : 'M[R]_d) (a : R) (b : 'cV[R]_d) S,
  \tr (block_mx (al%:M : 'M[R]_1) be^T be De *m spd_join a b S) =
  al * a + 2%:R * dot be b + a^-1 * quad De b + \tr (De *m S).
Proof.
  move=> d al be De a b S. rewrite /spd_join mulmx_block mxtrace_block -scalar_mxM.
  have Eb : be^T *m b = (dot be b)%:M by apply/matrixP => i j; rewrite !ord1 /dot [RHS]mxE eqxx mulr1n.
  have E2 : \tr (be *m b^T) = dot be b.
  { by rewrite mxtrace_mulC /mxtrace big_ord1 dotC. }
  rewrite Eb -raddfD /= mxtrace_scalar mulmxDr !mxtraceD E2 -scalemxAr mxtraceZ.
  have -> : \tr (De *m (b *m b^T)) = quad De b by rewrite mxtrace_mulC trace_outer.
  ring.
Qed.

Definition wish_kernel d (nu : R) (B W : 'M[R]_d) : R := (nu - d%:R - 1) * hf * ln (\det W) - hf * \tr (B *m W).
Definition wish_const d (nu : R) (B : 'M[R]_d) : R :=
  d%:R * hf * nu * ln 2%:R + lmgamma lgam d (nu * hf) - nu * hf * ln (\det B).

Lemma lmgamma_succ : forall lg d x, lmgamma lg d.+1 x = lg x + lmgamma lg d (x - hf) + d%:R * hf * ln PI.
Proof.
  move=> lg d x. rewrite /lmgamma big_ord_recl /= mul0r subr0.
  have -> : \sum_(i < d) lg (x - (bump 0 i)%:R * hf) = \sum_(j < d) lg (x - hf - j%:R * hf).
  { apply: eq_bigr => i _. congr lg. rewrite /bump /= add1n -addn1 natrD. ring. }
  have -> : (d.+1 * d)%:R / 4%:R = (d * d.-1)%:R / 4%:R + d%:R * hf :> R.
  { rewrite /hf. case: d => [|d] /=; first by rewrite muln0 !mul0r addr0.
    rewrite !natrM -[d.+2]addn2 -[d.+1]addn1 !natrD. field. by []. }
  move: (\sum_(j < d) _) (ln PI) (_ / 4%:R) => a b c. ring.
Qed.

Lemma wishart_mass : forall d (nu : R) (B : 'M[R]_d), d%:R - 1 < nu -> spd B ->
  is_spd_int (fun W => exp (wish_kernel nu B W)) (exp (wish_const nu B)).
Proof.
  elim=> [|d IH] nu B Hnu HB.
  - rewrite /= /wish_kernel /wish_const /lmgamma big_ord0 !det_mx00 ln1 /mxtrace big_ord0 !mul0r !mulr0 !subr0 !addr0 //.
  - have [EB HD Hq Edet] := @spd_tail d B HB.
    set al := ulsubmx (B : 'M_(1 + d)) 0 0 in EB Hq Edet. set be := dlsubmx (B : 'M_(1 + d)) in EB Hq Edet.
    set De := drsubmx (B : 'M_(1 + d)) in EB HD Hq Edet. set q := quad (invmx De) be in Hq Edet.
    have Hd : d%:R < nu by move: Hnu; rewrite -[d.+1]addn1 natrD addrK.
    have HI := IH (nu - 1) De _ HD. 
    have {}HI : is_spd_int (fun W => exp (wish_kernel (nu - 1) De W)) (exp (wish_const (nu - 1) De)).
    { apply: HI. by rewrite ltr_add2r. }
    set cI := wish_const (nu - 1) De in HI.
    set cb := d%:R * hf * ln (2%:R * PI) - hf * ln (\det De).
    have Hdet := spd_det_gt0 HD.
    exists (fun a b => exp (cI + (nu - d%:R - 2%:R) * hf * ln a - hf * (al * a + 2%:R * dot be b + a^-1 * quad De b))).
    exists (fun a => exp (cI + cb + (nu * hf - 1) * ln a - hf * (al - q) * a)).
    split.
    + move=> a b Ha. have H := spd_scal (exp ((nu - d%:R - 2%:R) * hf * ln a - hf * (al * a + 2%:R * dot be b + a^-1 * quad De b))) HI.
      have E3 : forall x y z : R, z + x - y = x - y + z by move=> x y z; ring.
      rewrite E3 expD. apply: spd_ext H => S HS. rewrite -expD. congr exp.
      rewrite /wish_kernel (@join_head d a b S Ha HS) (lnM Ha (spd_det_gt0 HS)).
      have -> : \tr (B *m spd_join a b S) = al * a + 2%:R * dot be b + a^-1 * quad De b + \tr (De *m S).
      { rewrite {1}EB. exact: join_trace. }
      rewrite -[d.+1]addn1 natrD. move: (ln a) (ln (\det S)) (\tr _) (quad _ _) => l1 l2 t qq. ring.
    + move=> a Ha. have Ha0 : a != 0 by rewrite gt_eqF. have HP : spd (a^-1 *: De) by apply: spd_scale => //; rewrite invr_gt0.
      set m := - a *: (invmx De *m be).
      have := space_scal (exp (cI + cb + (nu * hf - 1) * ln a - hf * (al - q) * a)) (mvn_mass m HP).
      rewrite mulr1. apply: space_ext => b. rewrite -expD. congr exp.
      rewrite /stan_mvn_prec_lpdf. rewrite (ln_det_scale (d:=d) _ HD) ?invr_gt0 // lnV //.
      rewrite quadB; last by case: HP.
      have EP : a^-1 *: De *m m = - be.
      { rewrite /m -scalemxAr -scalemxAl scalerA mulNr divff // scaleN1r mulmxA mulmxV ?mul1mx //. exact: spd_unit. }
      have E1 : dot b (a^-1 *: De *m m) = - dot be b by rewrite EP dotNr dotC.
      have E2 : quad (a^-1 *: De) m = a * q.
      { rewrite /quad EP /m dotNr dotZl mulNr opprK dotC. by []. }
      rewrite E1 E2 quadZl /cb. move: (ln (2%:R * PI)) (ln (\det De)) (ln a) (dot be b) (quad De b) => l1 l2 l3 t1 t2.
      rewrite /hf. clear EB Edet E1 E2 EP HI. clearbody cI. clear Hq. clearbody q al. field. by rewrite Ha0.
    + have Hs : 0 < nu * hf by rewrite mulr_gt0 ?invr_gt0 ?two_gt0 //; apply: le_lt_trans Hd; rewrite ler0n.
      have Hr : 0 < hf * (al - q) by rewrite mulr_gt0 ?invr_gt0 ?two_gt0.
      have := ConeInt.pivot_step (nu * hf) (hf * (al - q)) (cI + cb) (proj1 (RltE _ _) Hs) (proj1 (RltE _ _) Hr).
      set e1 := (X in GammaInt.is_half_int _ (exp X)). set e2 := (X in _ -> GammaInt.is_half_int _ (exp X)).
      have -> : e1 = e2 => //. rewrite /e1 /e2 /wish_const Edet (lnM Hdet Hq) lmgamma_succ.
      have -> : (nu * hf - hf) = (nu - 1) * hf by ring.
      rewrite -!RsubE -!RaddE -!RmulE /cI /cb /wish_const.
      rewrite (lnM _ Hq) ?invr_gt0 ?two_gt0 // (lnM two_gt0 PI_gt0) -[d.+1]addn1 natrD.
      have -> : ln hf = - ln 2%:R by rewrite /hf lnV // two_gt0.
      move: (ln PI) (ln 2%:R) (ln (\det De)) (ln (al - q)) (lmgamma _ _ _) (lgam _) => l1 l2 l3 l4 l5 l6. rewrite /hf. field. by [].
Qed.

Lemma wishart_normalised : forall d (nu : R) (S : 'M[R]_d), d%:R - 1 < nu -> spd S ->
  is_spd_int (fun W => exp (stan_wishart_lpdf lgam W nu S)) 1.
Proof.
  move=> d nu S Hnu HS. have H := spd_scal (exp (- wish_const nu (invmx S))) (wishart_mass Hnu (spd_inv HS)).
  rewrite -expD addNr exp_0 in H. apply: spd_ext H => W HW. rewrite -expD. congr exp.
  rewrite /wish_const /wish_kernel /stan_wishart_lpdf det_inv_ln //.
  move: (lmgamma _ _ _) (\tr _) (ln _) (ln _) (ln _) => a b c e f. ring.
Qed.

Lemma mvn_shift : forall d (P : 'M[R]_d) (m : 'cV[R]_d) c, spd P ->
  is_space_int (fun x => exp (stan_mvn_prec_lpdf x m P + c)) (exp c).
Proof.
  move=> d P m c HP. have := space_scal (exp c) (mvn_mass m HP). rewrite mulr1. apply: space_ext => x. by rewrite expD mulrC.
Qed.

(** ** Normal-Wishart *)
Lemma nw_normalised : forall d (h : nw d), nw_valid h -> is_mls_int (fun m P => exp (nw_lpdf lgam h m P)) 1.
Proof.
  move=> d h [Hk [Hdf [HS _]]]. exists (fun P => exp (stan_wishart_lpdf lgam P (nw_df h) (nw_scale h))).
  split; last exact: wishart_normalised. move=> P HP. apply: mvn_shift. exact: spd_scale.
Qed.
Lemma mls_scal : forall d (f : 'cV[R]_d -> 'M[R]_d -> R) c l, is_mls_int f l -> is_mls_int (fun m P => c * f m P) (c * l).
Proof.
  move=> d f c l [g [Hg Hl]]. exists (fun P => c * g P). split; last exact: spd_scal.
  move=> P HP. exact: space_scal (Hg P HP).
Qed.
Lemma mls_ext : forall d (f f' : 'cV[R]_d -> 'M[R]_d -> R) l, (forall m P, spd P -> f m P = f' m P) ->
  is_mls_int f l -> is_mls_int f' l.
Proof.
  move=> d f f' l E [g [Hg Hl]]. exists g. split=> // P HP. apply: space_ext (Hg P HP) => m. exact: E.
Qed.
Lemma mls_unique : forall d (f : 'cV[R]_d -> 'M[R]_d -> R) l l', is_mls_int f l -> is_mls_int f l' -> l = l'.
Proof.
  move=> d f l l' [g [Hg Hl]] [g' [Hg' Hl']]. apply: (spd_int_unique Hl). apply: spd_ext Hl' => P HP.
  exact: space_unique (Hg' P HP) (Hg P HP).
Qed.
Lemma nnw_marginal_integral : forall d (h : nw d) ys, nw_valid h ->
  is_mls_int (fun m P => exp (nw_lpdf lgam h m P + \sum_(y <- ys) stan_mvn_prec_lpdf y m P)) (exp (nw_log_marg lgam h ys)).
Proof.
  move=> d h ys HV. have [h' [E HV']] := nnw_post_valid ys HV.
  have := mls_scal (exp (nw_log_marg lgam h ys)) (nw_normalised HV'). rewrite mulr1.
  apply: mls_ext => m P HP. by rewrite (nnw_bayes lgam m HV HP E) expD.
Qed.

(** ** Normal-inverse-gamma for regressions *)
Lemma mnig_normalised : forall d (h : mnig d), mnig_valid h -> is_lrs_int (fun b v => exp (mnig_lpdf lgam h (mkLRS b v))) 1.
Proof.
  move=> d h [HS [Ha Hb]]. exists (fun v => exp (inv_gamma_lpdf lgam v (mg_shape h) (mg_scale h))).
  split; last by apply: UnivInt.inv_gamma_normalised; apply/RltE.
  move=> v Hv. have HP : spd (v^-1 *: mg_vs h) by apply: spd_scale => //; rewrite invr_gt0.
  exact: (mvn_shift (mg_mean h) (inv_gamma_lpdf lgam v (mg_shape h) (mg_scale h)) HP).
Qed.
Lemma lrs_scal : forall d (f : 'cV[R]_d -> R -> R) c l, is_lrs_int f l -> is_lrs_int (fun b v => c * f b v) (c * l).
Proof.
  move=> d f c l [g [Hg Hl]]. exists (fun v => c * g v). split; last exact: GammaInt.half_scal.
  move=> v Hv. exact: space_scal (Hg v Hv).
Qed.
Lemma lrs_ext : forall d (f f' : 'cV[R]_d -> R -> R) l, (forall b v, 0 < v -> f b v = f' b v) ->
  is_lrs_int f l -> is_lrs_int f' l.
Proof.
  move=> d f f' l E [g [Hg Hl]]. exists g. split=> // v Hv. apply: space_ext (Hg v Hv) => b. exact: E.
Qed.
Lemma lrs_unique : forall d (f : 'cV[R]_d -> R -> R) l l', is_lrs_int f l -> is_lrs_int f l' -> l = l'.
Proof.
  move=> d f l l' [g [Hg Hl]] [g' [Hg' Hl']]. apply: (GammaInt.half_unique _ _ _ Hl). apply: GammaInt.half_ext Hl' => v /RltE Hv.
  exact: space_unique (Hg' v Hv) (Hg v Hv).
Qed.
Lemma lin_marginal_integral : forall d (h : mnig d) ys, mnig_valid h ->
  is_lrs_int (fun b v => exp (mnig_lpdf lgam h (mkLRS b v) + \sum_(o <- ys) lin_lpdf (mkLRS b v) o.1 o.2))
    (exp (lin_log_marg lgam h ys)).
Proof.
  move=> d h ys HV. have := lrs_scal (exp (lin_log_marg lgam h ys)) (mnig_normalised (mnig_post_valid ys HV)). rewrite mulr1.
  apply: lrs_ext => b v Hv. by rewrite lin_bayes // expD.
Qed.
Lemma lin_predictive_mass : forall d (h : mnig d) x, mnig_valid h ->
  GaussInt.is_line_int (fun y => exp (lin_marg_lpdf lgam h y x)) 1.
Proof.
  move=> d h x [HS [Ha Hb]]. apply: StudentInt.student_normalised; apply/RltE; first by rewrite mulr_gt0 ?two_gt0.
  apply: sqrtR_gt0. rewrite llt_solveE // mulmx1 divr_gt0 // mulr_gt0 // ltr_paddr ?ltr01 //.
  have [_] := spd_psd (spd_inv HS). by apply.
Qed.
Lemma lin_like_mass : forall d (s : lrs d) x, 0 < lr_var s -> GaussInt.is_line_int (fun y => exp (lin_lpdf s y x)) 1.
Proof.
  move=> d s x Hv. have Hs : 0 < sqrt (lr_var s) by exact: sqrtR_gt0.
  have := UnivInt.normal_line (dot (lr_coef s) x) (sqrt (lr_var s)) 0%R (proj1 (RltE _ _) Hs).
  rewrite exp_0. apply: DistFacts.line_ext => y. by rewrite Rplus_0_r.
Qed.

(** ** The likelihood of a written state.  Whatever factor the state holds, the
    density is a normal one, with precision [C C']. *)
Lemma factor_mass : forall d (m : 'cV[R]_d) (C : 'M[R]_d) (ld : R), C \in unitmx -> ld = ln (\det (C *m C^T)) ->
  is_space_int (fun y => exp (mvn_prec_lpdf y m C ld)) 1.
Proof.
  move=> d m C ld HC Hl. have HP : spd (C *m C^T).
  { split; first by rewrite trmx_mul trmxK.
    move=> v Hv. have -> : C *m C^T = (C^T)^T *m C^T by rewrite trmxK. rewrite quad_gram. apply: dot_gt0.
    have HT : C^T \in unitmx by rewrite unitmx_tr.
    apply: contra Hv => /eqP E. apply/eqP. by rewrite -[v](mulKmx HT) E mulmx0. }
  apply: space_ext (mvn_mass m HP) => y. by rewrite (mvn_prec_factor y m (C:=C) (P:=C *m C^T)).
Qed.
Lemma write_prec_mass : forall d (m : 'cV[R]_d) (P : 'M[R]_d), spd P ->
  is_space_int (fun y => exp (mnorm_lpdf (write_prec_to_state m P) y)) 1.
Proof.
  move=> d m P HP. apply: factor_mass; first exact: llt_U_unit.
  have [E _] := llt_U_ok HP. by rewrite /= logdet_U // det_mulmx mulrC -det_mulmx E.
Qed.
Lemma set_constrained_mass : forall d (m : 'cV[R]_d) (P : 'M[R]_d), spd P ->
  is_space_int (fun y => exp (mnorm_lpdf (mls_set_constrained m P) y)) 1.
Proof. move=> d m P HP. apply: space_ext (mvn_mass m HP) => y. by rewrite set_constrained_density. Qed.

(** ** Factor analysis *)
Lemma stan_mvn_mass : forall d (m : 'cV[R]_d) (S : 'M[R]_d), spd S -> is_space_int (fun y => exp (stan_mvn_lpdf y m S)) 1.
Proof.
  move=> d m S HS. apply: space_ext (mvn_mass m (spd_inv HS)) => y. by rewrite -mvn_prec_cov ?invmxK //; exact: spd_inv.
Qed.
Lemma fa_mass : forall p q (mu psi : 'cV[R]_p) (lambda : 'M[R]_(p, q)), pos_vec psi ->
  is_space_int (fun y => exp (mvn_woodbury_lpdf y mu psi lambda)) 1.
Proof.
  move=> p q mu psi lambda Hp. apply: space_ext (stan_mvn_mass mu (fa_cov_spd lambda Hp)) => y. by rewrite woodbury.
Qed.
Lemma fa_scores_integral : forall p q (mu psi : 'cV[R]_p) (lambda : 'M[R]_(p, q)) y, pos_vec psi ->
  is_space_int (fun e => exp (std_lpdf e + fa_obs_lpdf mu psi lambda y e)) (exp (mvn_woodbury_lpdf y mu psi lambda)).
Proof.
  move=> p q mu psi lambda y Hp.
  have HM : spd (fa_eta_prec lambda (cwise_inv psi)) by have := wood_M_spd lambda Hp; rewrite /fa_eta_prec addrC.
  have := mvn_shift (fa_eta_mean lambda (cwise_inv psi) mu y) (stan_mvn_lpdf y mu (fa_cov psi lambda)) HM.
  rewrite woodbury //. apply: space_ext => e. by rewrite fa_eta_exact // addrC.
Qed.

(** ** Evaluated mixtures: the two sample spaces *)
Definition is_response_int d (f : R * 'cV[R]_d -> R) (l : R) : Prop := forall x, GaussInt.is_line_int (fun y => f (y, x)) l.
Lemma response_ext : forall d (f g : R * 'cV[R]_d -> R) l, (forall x, f x = g x) -> is_response_int f l -> is_response_int g l.
Proof. move=> d f g l E H x. apply: DistFacts.line_ext (H x) => y. exact: E. Qed.
Lemma response_plus : forall d (f g : R * 'cV[R]_d -> R) a b, is_response_int f a -> is_response_int g b ->
  is_response_int (fun x => f x + g x) (a + b).
Proof. move=> d f g a b H K x. exact: (DistFacts.line_plus _ _ _ _ (H x) (K x)). Qed.
Lemma response_scal : forall d (f : R * 'cV[R]_d -> R) c a, is_response_int f a -> is_response_int (fun x => c * f x) (c * a).
Proof. move=> d f c a H x. exact: (DistFacts.line_scal _ c _ (H x)). Qed.
Lemma response_zero : forall d, is_response_int (fun _ : R * 'cV[R]_d => 0) 0.
Proof. move=> d x. exact: DistFacts.line_zero. Qed.

(** In dimension one the integral over matrices is the one over the half line. *)
Lemma spd_int_one : forall (f : R -> R) l, is_spd_int (fun W : 'M[R]_1 => f (W 0 0)) l <-> GammaInt.is_half_int f l.
Proof.
  have E : forall a (b : 'cV[R]_0) S, (spd_join a b S : 'M_(1 + 0)) 0 0 = a.
  { move=> a b S. rewrite /spd_join. have -> : (0 : 'I_(1 + 0)) = lshift 0 0 by apply: val_inj. by rewrite block_mxEul mxE eqxx mulr1n. }
  move=> f l; split.
  - case=> g [k [H1 H2 H3]]. apply: GammaInt.half_ext H3 => a /RltE Ha. rewrite -(H2 a Ha) -(H1 a 0 Ha). congr f. exact: E.
  - move=> H. exists (fun a _ => f a), f. split=> //= a b Ha. congr f. exact: E.
Qed.
