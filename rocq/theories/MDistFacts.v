(** * Facts about the distance between multivariate Gaussian mixtures. *)
From Coq Require Import ZArith Reals Lra Lia.
From Coq Require List.
From mathcomp Require Import all_ssreflect all_algebra.
From mathcomp.algebra_tactics Require Import ring.
From Verif Require Import Base Mixings PartSpec Univ RealField MatLib Multi MultiFacts NnwFacts LinFacts.
From Verif Require GaussInt Dist DistFacts.
From Verif Require Import MDist.
Set Implicit Arguments.
Unset Strict Implicit.
Unset Printing Implicit Defensive.
Import Order.TTheory GRing.Theory Num.Theory.
Local Open Scope ring_scope.

(** ** Specification: iterated integrals over [R^d], first coordinate innermost. *)
Fixpoint is_space_int (d : nat) : ('cV[R]_d -> R) -> R -> Prop :=
  match d return ('cV[R]_d -> R) -> R -> Prop with
  | 0%N => fun f l => f 0 = l
  | d'.+1 => fun (f : 'cV[R]_(1 + d') -> R) l =>
      exists g : 'cV[R]_d' -> R,
        (forall v, GaussInt.is_line_int (fun x => f (@col_mx R 1 d' 1 x%:M v)) (g v)) /\ is_space_int g l
  end.

Lemma space_ext : forall d (f g : 'cV[R]_d -> R) l, (forall v, f v = g v) -> is_space_int f l -> is_space_int g l.
Proof.
  elim=> [|d IH] f g l E /=; first by rewrite E.
  case=> h [Hh Hl]. exists h; split=> // v. apply: DistFacts.line_ext (Hh v) => x. exact: E.
Qed.
Lemma space_plus : forall d (f g : 'cV[R]_d -> R) a b, is_space_int f a -> is_space_int g b ->
  is_space_int (fun v => f v + g v) (a + b).
Proof.
  elim=> [|d IH] f g a b /=; first by move=> -> ->.
  case=> h [Hh Ha] [k [Hk Hb]]. exists (fun v => h v + k v); split; last exact: IH.
  move=> v. exact: (DistFacts.line_plus (fun x => f (@col_mx R 1 d 1 x%:M v)) (fun x => g (@col_mx R 1 d 1 x%:M v)) _ _ (Hh v) (Hk v)).
Qed.
Lemma space_scal : forall d (f : 'cV[R]_d -> R) c a, is_space_int f a -> is_space_int (fun v => c * f v) (c * a).
Proof.
  elim=> [|d IH] f c a /=; first by move=> ->.
  case=> h [Hh Ha]. exists (fun v => c * h v); split; last exact: IH.
  move=> v. exact: (DistFacts.line_scal (fun x => f (@col_mx R 1 d 1 x%:M v)) c _ (Hh v)).
Qed.
Lemma space_zero : forall d, is_space_int (fun _ : 'cV[R]_d => 0) 0.
Proof.
  elim=> [|d IH] //=. exists (fun=> 0); split=> // v. exact: DistFacts.line_zero.
Qed.
Lemma space_sum : forall d A (f : A -> 'cV[R]_d -> R) (l : A -> R) (xs : seq A),
  (forall a, List.In a xs -> is_space_int (f a) (l a)) ->
  is_space_int (fun v => \sum_(a <- xs) f a v) (\sum_(a <- xs) l a).
Proof.
  move=> d A f l. elim=> [|a xs IH] H.
  - rewrite big_nil. apply: (space_ext _ (space_zero d)) => v. by rewrite big_nil.
  - rewrite big_cons. apply: (@space_ext _ (fun v => f a v + \sum_(b <- xs) f b v)) => [v|]; first by rewrite big_cons.
    apply: space_plus; first by apply: H; left. apply: IH => b Hb. by apply: H; right.
Qed.
Lemma space_unique : forall d (f : 'cV[R]_d -> R) a b, is_space_int f a -> is_space_int f b -> a = b.
Proof.
  elim=> [|d IH] f a b /=; first by move=> -> ->.
  case=> h [Hh Ha] [k [Hk Hb]]. apply: (IH h) => //. apply: (space_ext _ Hb) => v.
  exact: (DistFacts.line_unique _ _ _ (Hk v) (Hh v)).
Qed.
Lemma space_nonneg : forall d (f : 'cV[R]_d -> R) a, (forall v, 0 <= f v) -> is_space_int f a -> 0 <= a.
Proof.
  elim=> [|d IH] f a Hf /=; first by move=> <-.
  case=> h [Hh Ha]. apply: IH Ha => v. apply/RleE.
  apply: (DistFacts.line_nonneg (fun x => f (@col_mx R 1 d 1 x%:M v)) (h v) _ (Hh v)) => x. by apply/RleE.
Qed.

(** ** The multivariate normal density has mass one. *)
Lemma expD : forall a b : R, exp (a + b) = exp a * exp b.
Proof. exact: exp_plus. Qed.
Lemma gaussE : forall m a x : R, 0 < a ->
  GaussInt.gauss m a^-1 x = exp (- (hf * ln (2%:R * PI)) + hf * ln a - hf * (a * ((x - m) * (x - m)))).
Proof.
  move=> m a x Ha. have Ha' : Rlt 0 a by apply/RltE.
  have Hi : Rlt 0 (Rinv a) by exact: Rinv_0_lt_compat.
  rewrite -[LHS]exp_ln; last exact: DistFacts.gauss_pos. congr exp.
  rewrite DistFacts.ln_gauss // ln_Rinv // -?RmulE -?RdivE -?RsubE -?RoppE two_IZR.
  move: (ln a) (ln (2 * PI)) => b c. have Ha0 : a != 0 by rewrite gt_eqF.
  rewrite -?RinvE /hf -?RplusE. field. exact: Ha0.
Qed.

Lemma quad_head : forall d (A : 'M[R]_(1 + d)) (x : R) (u : 'cV[R]_d), spd A ->
  let a := ulsubmx A 0 0 in let b := dlsubmx A in
  quad A (col_mx (x%:M : 'cV[R]_1) u) =
  a * ((x + a^-1 * dot b u) * (x + a^-1 * dot b u)) + quad (drsubmx A - a^-1 *: (b *m b^T)) u.
Proof.
  move=> d A x u HA a b. have [Ha [Hur _]] := spd_schur HA. rewrite -/a -/b in Ha Hur.
  have Hul : ulsubmx A = a%:M by apply/matrixP => i j; rewrite !ord1 /a [RHS]mxE eqxx mulr1n.
  have EA : A = block_mx a%:M b^T b (drsubmx A) by rewrite -Hul -Hur submxK.
  have Ea : a != 0 by rewrite gt_eqF.
  rewrite {1}/quad {1}EA mul_block_col dot_block.
  have Eb : b^T *m u = (dot b u)%:M by apply/matrixP => i j; rewrite !ord1 /dot [RHS]mxE eqxx mulr1n.
  rewrite Eb -scalar_mxM -raddfD /= mul_mx_scalar.
  have -> : dot (x%:M : 'cV[R]_1) ((a * x + dot b u)%:M) = x * (a * x + dot b u).
  { by rewrite dotE big_ord1 !mxE eqxx !mulr1n. }
  rewrite dotDr dotZr (dotC u b) quadDl -scaleNr quadZl quad_outer /quad.
  field. exact: Ea.
Qed.

Lemma det_head : forall d (A : 'M[R]_(1 + d)), spd A ->
  let a := ulsubmx A 0 0 in let b := dlsubmx A in
  \det A = a * \det (drsubmx A - a^-1 *: (b *m b^T)).
Proof.
  move=> d A HA a b. have [Ha [Hur _]] := spd_schur HA. rewrite -/a -/b in Ha Hur.
  have Hul : ulsubmx A = a%:M by apply/matrixP => i j; rewrite !ord1 /a [RHS]mxE eqxx mulr1n.
  have EA : A = block_mx a%:M b^T b (drsubmx A) by rewrite -Hul -Hur submxK.
  have Ea : a != 0 by rewrite gt_eqF.
  set S := drsubmx A - _.
  have EM : A = block_mx 1%:M 0 (a^-1 *: b) 1%:M *m block_mx a%:M b^T 0 S.
  { rewrite /S mulmx_block !mul1mx !mul0mx ?mulmx0 !addr0 mul_mx_scalar scalerA divff // scale1r -scalemxAl addrC subrK. exact: EA. }
  by rewrite {1}EM det_mulmx det_lblock det_ublock !det1 !mul1r det_scalar1.
Qed.

Lemma mvn_mass : forall d (P : 'M[R]_d) (m : 'cV[R]_d), spd P ->
  is_space_int (fun x => exp (stan_mvn_prec_lpdf x m P)) 1.
Proof.
  elim=> [|d IH] P m HP.
  - rewrite /= /stan_mvn_prec_lpdf. rewrite mul0r mul0r oppr0 add0r det_mx00 ln1 mulr0.
    have -> : quad P (0 - m) = 0 by rewrite /quad dotE big_ord0.
    by rewrite mulr0 subr0 exp_0.
  - have [Ha [_ HS]] := @spd_schur _ d P HP.
    set a := ulsubmx (P : 'M_(1 + d)) 0 0 in Ha HS *. set b := dlsubmx (P : 'M_(1 + d)) in HS *.
    set S := drsubmx (P : 'M_(1 + d)) - a^-1 *: (b *m b^T) in HS *.
    set m0 := usubmx (m : 'cV_(1 + d)) 0 0. set mr := dsubmx (m : 'cV_(1 + d)).
    have Em : m = col_mx (m0%:M : 'cV[R]_1) mr :> 'cV_(1 + d).
    { rewrite -[LHS](@vsubmxK _ 1 d 1). congr col_mx. apply/matrixP => i j. by rewrite !ord1 [RHS]mxE eqxx mulr1n. }
    exists (fun v => exp (stan_mvn_prec_lpdf v mr S)); split; last exact: IH.
    move=> v.
    have Hi : (0 : R) < a^-1 by rewrite invr_gt0.
    have := GaussInt.gauss_mass (m0 - a^-1 * dot b (v - mr)) a^-1 (proj1 (RltE _ _) Hi).
    move/(DistFacts.line_scal _ (exp (stan_mvn_prec_lpdf v mr S))).
    rewrite Rmult_1_r. apply: DistFacts.line_ext => x.
    rewrite gaussE //. rewrite -[LHS]expD. congr exp.
    rewrite /stan_mvn_prec_lpdf (@det_head d P HP) -/a -/b -/S.
    have HD := spd_det_gt0 HS. rewrite (lnM Ha HD).
    have -> : (@col_mx R 1 d 1 x%:M v : 'cV[R]_(1 + d)) - m = col_mx ((x - m0)%:M : 'cV[R]_1) (v - mr) :> 'cV_(1 + d).
    { rewrite {1}Em. rewrite (@opp_col_mx _ 1 d 1) (@add_col_mx _ 1 d 1). by rewrite -raddfN -raddfD. }
    rewrite (@quad_head d P _ _ HP) -/a -/b -/S -[d.+1]addn1 natrD.
    have -> : x - m0 + a^-1 * dot b (v - mr) = x - (m0 - a^-1 * dot b (v - mr)) by rewrite opprB addrA addrAC.
    move: (x - _) (quad S _) (ln a) (ln (\det S)) (ln (2%:R * PI)) => e q la lS lp. rewrite !mulrDl !mulrDr mul1r. 
    ring.
Qed.

(** ** Products of two normal densities *)
Lemma mvn_prec_cov : forall d (x m : 'cV[R]_d) (P : 'M[R]_d), spd P ->
  stan_mvn_lpdf x m (invmx P) = stan_mvn_prec_lpdf x m P.
Proof.
  move=> d x m P HP. by rewrite /stan_mvn_lpdf /stan_mvn_prec_lpdf invmxK det_inv_ln // mulrN opprK.
Qed.

Lemma sum_inv : forall d (P1 P2 : 'M[R]_d), spd P1 -> spd P2 ->
  invmx P1 + invmx P2 = invmx P1 *m (P1 + P2) *m invmx P2.
Proof.
  move=> d P1 P2 H1 H2. have U1 := spd_unit H1. have U2 := spd_unit H2.
  by rewrite mulmxDr mulVmx // mulmxDl mul1mx -mulmxA mulmxV // mulmx1 addrC.
Qed.

Lemma mvn_prod : forall d (P1 P2 : 'M[R]_d) (m1 m2 x : 'cV[R]_d), spd P1 -> spd P2 ->
  let Q := P1 + P2 in
  stan_mvn_prec_lpdf x m1 P1 + stan_mvn_prec_lpdf x m2 P2 =
  stan_mvn_lpdf m1 m2 (invmx P1 + invmx P2) + stan_mvn_prec_lpdf x (m1 + invmx Q *m (P2 *m (m2 - m1))) Q.
Proof.
  move=> d P1 P2 m1 m2 x H1 H2 Q.
  have HQ : spd Q by apply: spd_add => //; exact: spd_psd.
  have U1 := spd_unit H1. have U2 := spd_unit H2. have UQ := spd_unit HQ.
  have HI : invmx (invmx P1 + invmx P2) = P2 - P2 *m invmx Q *m P2.
  { have US : invmx P1 + invmx P2 \in unitmx.
    { rewrite sum_inv // !unitmx_mul !unitmx_inv. by rewrite U1 UQ U2. }
    apply: (can_inj (mulKmx US)). rewrite mulmxV // sum_inv // -/Q.
    have -> : P2 - P2 *m invmx Q *m P2 = P2 *m invmx Q *m P1.
    { have -> : P1 = Q - P2 by rewrite /Q addrK. by rewrite mulmxBr -(mulmxA P2 _ Q) mulVmx // mulmx1. }
    rewrite !mulmxA -(mulmxA _ (invmx P2) P2) mulVmx // mulmx1 -(mulmxA (invmx P1)) mulmxV // mulmx1. by rewrite mulVmx. }
  have HD : ln (\det (invmx P1 + invmx P2)) = ln (\det Q) - ln (\det P1) - ln (\det P2).
  { have D1 := spd_det_gt0 (spd_inv H1). have D2 := spd_det_gt0 (spd_inv H2). have DQ := spd_det_gt0 HQ.
    rewrite sum_inv // -/Q !det_mulmx (lnM (mulr_gt0 D1 DQ) D2) (lnM D1 DQ) !det_inv_ln //.
    by move: (ln (\det P1)) (ln (\det P2)) (ln (\det Q)) => a b c; ring. }
  rewrite /stan_mvn_lpdf /stan_mvn_prec_lpdf HI HD.
  set z := x - m1. set dl := m2 - m1.
  have -> : x - m2 = z - dl by rewrite /z /dl opprB addrA subrK.
  have -> : x - (m1 + invmx Q *m (P2 *m dl)) = z - invmx Q *m (P2 *m dl) by rewrite opprD addrA.
  have -> : quad (P2 - P2 *m invmx Q *m P2) (m1 - m2) = quad P2 dl - dot (P2 *m dl) (invmx Q *m (P2 *m dl)).
  { rewrite quadBC -/dl quadDl. congr (_ + _). rewrite -scaleN1r quadZl mulN1r. congr (- _).
    rewrite /quad -!mulmxA dot_mul. by case: H2 => ->. }
  have [S2 _] := H2. have [SQ _] := HQ.
  rewrite (quadB z dl S2) (quadB z _ SQ).
  have -> : quad Q (invmx Q *m (P2 *m dl)) = dot (invmx Q *m (P2 *m dl)) (P2 *m dl) by rewrite /quad mulKVmx.
  rewrite mulKVmx //.
  have -> : quad Q z = quad P1 z + quad P2 z by rewrite /Q quadDl.
  rewrite (dotC (P2 *m dl) (invmx Q *m _)).
  move: (quad P1 z) (quad P2 z) (dot z _) (dot (invmx Q *m _) _) (quad P2 dl) (ln (\det P1)) (ln (\det P2)) (ln (\det Q)) (ln _) => a b c e f g h i j.
  rewrite /hf. by field.
Qed.

Lemma space_overlap : forall d (P1 P2 : 'M[R]_d) (m1 m2 : 'cV[R]_d), spd P1 -> spd P2 ->
  is_space_int (fun x => exp (stan_mvn_prec_lpdf x m1 P1) * exp (stan_mvn_prec_lpdf x m2 P2))
               (exp (stan_mvn_lpdf m1 m2 (invmx P1 + invmx P2))).
Proof.
  move=> d P1 P2 m1 m2 H1 H2.
  have HQ : spd (P1 + P2) by apply: spd_add => //; exact: spd_psd.
  have := space_scal (exp (stan_mvn_lpdf m1 m2 (invmx P1 + invmx P2)))
            (mvn_mass (m1 + invmx (P1 + P2) *m (P2 *m (m2 - m1))) HQ).
  rewrite mulr1. apply: space_ext => x. by rewrite -!expD mvn_prod.
Qed.

(** ** Mixtures *)
Record mcomp (d : nat) : Type := mkMComp { mc_mean : 'cV[R]_d; mc_prec : 'M[R]_d; mc_w : R }.
Definition mmix_pdf d (cs : seq (mcomp d)) (x : 'cV[R]_d) : R :=
  \sum_(c <- cs) mc_w c * exp (stan_mvn_prec_lpdf x (mc_mean c) (mc_prec c)).
Definition mgood d (cs : seq (mcomp d)) : Prop := forall c, List.In c cs -> spd (mc_prec c).
Definition mov d (cs ds : seq (mcomp d)) : R :=
  \sum_(c <- cs) \sum_(e <- ds)
    mc_w c * mc_w e * exp (stan_mvn_lpdf (mc_mean c) (mc_mean e) (invmx (mc_prec c) + invmx (mc_prec e))).

Lemma space_mix : forall d (cs ds : seq (mcomp d)), mgood cs -> mgood ds ->
  is_space_int (fun x => mmix_pdf cs x * mmix_pdf ds x) (mov cs ds).
Proof.
  move=> d cs ds Hc Hd.
  apply: (@space_ext _ (fun x => \sum_(c <- cs) \sum_(e <- ds) mc_w c * mc_w e *
     (exp (stan_mvn_prec_lpdf x (mc_mean c) (mc_prec c)) * exp (stan_mvn_prec_lpdf x (mc_mean e) (mc_prec e))))).
  { move=> x. rewrite /mmix_pdf mulr_suml. apply: eq_bigr => c _. rewrite mulr_sumr. apply: eq_bigr => e _. by rewrite mulrACA. }
  apply: space_sum => c Ic. apply: space_sum => e Ie. apply: space_scal. by apply: space_overlap; [apply: Hc|apply: Hd].
Qed.
Lemma space_dist : forall d (cs ds : seq (mcomp d)), mgood cs -> mgood ds ->
  is_space_int (fun x => (mmix_pdf cs x - mmix_pdf ds x) ^+ 2) (mov cs cs + mov ds ds - 2%:R * mov cs ds).
Proof.
  move=> d cs ds Hc Hd.
  apply: (@space_ext _ (fun x => mmix_pdf cs x * mmix_pdf cs x + mmix_pdf ds x * mmix_pdf ds x + (- 2%:R) * (mmix_pdf cs x * mmix_pdf ds x))).
  { move=> x. ring. }
  rewrite -mulNr. apply: space_plus; [apply: space_plus|apply: space_scal]; exact: space_mix.
Qed.
Lemma space_mix_mass : forall d (cs : seq (mcomp d)), mgood cs -> is_space_int (mmix_pdf cs) (\sum_(c <- cs) mc_w c).
Proof.
  move=> d cs Hc. apply: space_sum => c Ic. have := space_scal (mc_w c) (mvn_mass (mc_mean c) (Hc _ Ic)). by rewrite mulr1.
Qed.

(** ** What the code computes *)
Lemma multi_normal_ok : forall d (y m : 'cV[R]_d) S, spd S -> multi_normal_lpdf y m S = Ok (stan_mvn_lpdf y m S).
Proof. move=> d y m S HS. rewrite /multi_normal_lpdf. case: (HS) => -> _. by rewrite eqxx pivots_of_spd. Qed.

Lemma invert_ok : forall d (cs : seq (mcomp d)), mgood cs ->
  invert_all (List.map (@mc_prec d) cs) = Ok (List.map (fun c => invmx (mc_prec c)) cs).
Proof.
  move=> d. elim=> [|c cs IH] H //; rewrite /invert_all /=.
  have -> : inverse_spd (mc_prec c) = Ok (invmx (mc_prec c)) by apply/inverse_spd_ok; split=> //; apply: H; left.
  have := IH (fun e He => H e (or_intror He)). rewrite /invert_all /= => ->. by [].
Qed.

Lemma rfold_seqm : forall A (f : R -> nat -> res R) (h : A -> R) (l : seq A),
  (forall pre d suf acc, l = List.app pre (d :: suf) -> f acc (List.length pre) = Ok (acc + h d)) ->
  forall acc, rfold f (List.seq 0 (List.length l)) acc = Ok (acc + \sum_(a <- l) h a).
Proof.
  move=> A f h l H acc. have := @DistFacts.rfold_seq A f h l H acc. move=> ->. congr (Ok (_ + _)).
  elim: l {H} => [|a l IH] /=; first by rewrite big_nil. by rewrite big_cons -IH.
Qed.

Lemma mcross_ok : forall d (cs ds : seq (mcomp d)), mgood cs -> mgood ds ->
  mcross (List.map (@mc_mean d) cs) (List.map (fun c => invmx (mc_prec c)) cs) (List.map (@mc_w d) cs)
         (List.map (@mc_mean d) ds) (List.map (fun c => invmx (mc_prec c)) ds) (List.map (@mc_w d) ds) = Ok (mov cs ds).
Proof.
  move=> d cs ds Hc Hd. rewrite /mcross /mov !List.map_length.
  rewrite (@rfold_seqm _ _ (fun c => \sum_(e <- ds) mc_w c * mc_w e *
     exp (stan_mvn_lpdf (mc_mean c) (mc_mean e) (invmx (mc_prec c) + invmx (mc_prec e))))) ?add0r //.
  move=> pre c suf acc E. apply: rfold_seqm => pre' e suf' acc' E'.
  have Hs : spd (invmx (mc_prec c) + invmx (mc_prec e)).
  { apply: spd_add; first by apply: spd_inv; apply: Hc; rewrite E; exact: List.in_elt.
    apply: spd_psd. apply: spd_inv. apply: Hd. rewrite E'. exact: List.in_elt. }
  rewrite E E' !DistFacts.at_split /= multi_normal_ok //.
Qed.

Lemma multi_dist_ok : forall d (cs ds : seq (mcomp d)), mgood cs -> mgood ds ->
  multi_mixture_dist (List.map (@mc_mean d) cs) (List.map (@mc_prec d) cs) (List.map (@mc_w d) cs)
    (List.map (@mc_mean d) ds) (List.map (@mc_prec d) ds) (List.map (@mc_w d) ds)
  = Ok (mov cs cs + mov ds ds - 2%:R * mov cs ds).
Proof.
  move=> d cs ds Hc Hd. rewrite /multi_mixture_dist !invert_ok //=. by rewrite !mcross_ok.
Qed.

Lemma multi_distance : forall d (cs ds : seq (mcomp d)), mgood cs -> mgood ds ->
  exists D : R, is_space_int (fun x => (mmix_pdf cs x - mmix_pdf ds x) ^+ 2) D /\ 0 <= D /\
    multi_mixture_dist (List.map (@mc_mean d) cs) (List.map (@mc_prec d) cs) (List.map (@mc_w d) cs)
      (List.map (@mc_mean d) ds) (List.map (@mc_prec d) ds) (List.map (@mc_w d) ds) = Ok D.
Proof.
  move=> d cs ds Hc Hd. exists (mov cs cs + mov ds ds - 2%:R * mov cs ds).
  have H := space_dist Hc Hd. split=> //. split; last exact: multi_dist_ok.
  apply: space_nonneg H => v. exact: sqr_ge0.
Qed.

Lemma invert_throw : forall d (ps : seq 'M[R]_d), (exists P, List.In P ps /\ ~ spd P) ->
  exists msg, invert_all ps = Throw msg.
Proof.
  move=> d. elim=> [|P ps IH] /= [Q []] //.
  rewrite /invert_all /=. case E: (inverse_spd P) => [V|msg| |] /=.
  - move=> [<-|Hin] Hn; first by case/inverse_spd_ok: E => /Hn.
    have [|msg] := IH; first by exists Q. by rewrite /invert_all => ->; exists msg.
  - by move=> _ _; exists msg.
  - by move: E; rewrite /inverse_spd; case: eqP => //; case: (pivots_pos _).
  - by move: E; rewrite /inverse_spd; case: eqP => //; case: (pivots_pos _).
Qed.
(** An improper precision anywhere throws. *)
Lemma multi_throw : forall d (cs ds : seq (mcomp d)),
  (exists c, List.In c (List.app cs ds) /\ ~ spd (mc_prec c)) <->
  exists msg, multi_mixture_dist (List.map (@mc_mean d) cs) (List.map (@mc_prec d) cs) (List.map (@mc_w d) cs)
      (List.map (@mc_mean d) ds) (List.map (@mc_prec d) ds) (List.map (@mc_w d) ds) = Throw msg.
Proof.
  move=> d cs ds.
  have L : forall es : seq (mcomp d), (exists e, List.In e es /\ ~ spd (mc_prec e)) \/ mgood es.
  { elim=> [|e es [[f [Hf Hn]]|IH]]; [by right|by left; exists f; split; [right|]|].
    case: (Classical_Prop.classic (spd (mc_prec e))) => He; last by left; exists e; split; [left|].
    right=> f [<-|Hf] //. exact: IH. }
  have T : forall es : seq (mcomp d), (exists e, List.In e es /\ ~ spd (mc_prec e)) ->
    exists msg, invert_all (List.map (@mc_prec d) es) = Throw msg.
  { move=> es [e [He Hn]]. apply: invert_throw. exists (mc_prec e). split=> //. exact: List.in_map. }
  split.
  - case=> c [Hc Hn]. rewrite /multi_mixture_dist. case: (L cs) => [/T [msg ->]|Hcs]; first by exists msg.
    rewrite invert_ok //=. have [|msg ->] := T ds; last by exists msg.
    exists c. split=> //. case: (List.in_app_or _ _ _ Hc) => // H. by case: Hn; apply: Hcs.
  - case=> msg E. case: (L (List.app cs ds)) => // H. exfalso.
    have Hc : mgood cs by move=> c Ic; apply: H; apply: List.in_or_app; left.
    have Hd : mgood ds by move=> c Ic; apply: H; apply: List.in_or_app; right.
    by move: E; rewrite multi_dist_ok.
Qed.
