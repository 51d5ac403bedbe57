(** * Matrices over a real field: quadratic forms, Cholesky factor, determinants. *)
From mathcomp Require Import all_ssreflect all_algebra.
From mathcomp.algebra_tactics Require Import ring.
Set Implicit Arguments.
Unset Strict Implicit.
Unset Printing Implicit Defensive.
Import Order.TTheory GRing.Theory Num.Theory.
Local Open Scope ring_scope.

Section Defs.
Variable F : realFieldType.

(** [u . v], [v' A v]. *)
Definition dot d (u v : 'cV[F]_d) : F := (u^T *m v) 0 0.
Definition quad d (A : 'M[F]_d) (v : 'cV[F]_d) : F := dot v (A *m v).

(** Symmetric positive definite. *)
Definition spd d (A : 'M[F]_d) : Prop := A^T = A /\ forall v, v != 0 -> 0 < quad A v.
(** Symmetric positive semidefinite. *)
Definition psd d (A : 'M[F]_d) : Prop := A^T = A /\ forall v, 0 <= quad A v.

(** Lower-triangular factor of [A = L L'], by the textbook recursion on the first
    row and column; [sq] is the square root. *)
Fixpoint chol (sq : F -> F) (d : nat) : 'M[F]_d -> 'M[F]_d :=
  match d return 'M[F]_d -> 'M[F]_d with
  | 0%N => fun A => A
  | d'.+1 => fun A : 'M[F]_(1 + d') =>
      let a := ulsubmx A 0 0 in
      let b := dlsubmx A in
      let C := drsubmx A in
      @block_mx F 1 d' 1 d' (sq a)%:M 0 ((sq a)^-1 *: b) (chol sq (C - a^-1 *: (b *m b^T)))
  end.
End Defs.

Section Facts.
Variable F : realFieldType.

Lemma trZ : forall m n (a : F) (A : 'M[F]_(m, n)), (a *: A)^T = a *: A^T.
Proof. by move=> m n a A; rewrite linearZ. Qed.
Lemma trD : forall m n (A B : 'M[F]_(m, n)), (A + B)^T = A^T + B^T.
Proof. by move=> m n A B; rewrite linearD. Qed.
Lemma trN : forall m n (A : 'M[F]_(m, n)), (- A)^T = - A^T.
Proof. by move=> m n A; rewrite linearN. Qed.

Lemma dotE : forall d (u v : 'cV[F]_d), dot u v = \sum_i u i 0 * v i 0.
Proof. by move=> d u v; rewrite /dot mxE; apply: eq_bigr => i _; rewrite mxE. Qed.

Lemma dotC : forall d (u v : 'cV[F]_d), dot u v = dot v u.
Proof. by move=> d u v; rewrite !dotE; apply: eq_bigr => i _; rewrite mulrC. Qed.

Lemma dotDl : forall d (u v w : 'cV[F]_d), dot (u + v) w = dot u w + dot v w.
Proof. by move=> d u v w; rewrite /dot linearD /= mulmxDl mxE. Qed.
Lemma dotDr : forall d (u v w : 'cV[F]_d), dot u (v + w) = dot u v + dot u w.
Proof. by move=> d u v w; rewrite /dot mulmxDr mxE. Qed.
Lemma dotNl : forall d (u v : 'cV[F]_d), dot (- u) v = - dot u v.
Proof. by move=> d u v; rewrite /dot linearN /= mulNmx mxE. Qed.
Lemma dotNr : forall d (u v : 'cV[F]_d), dot u (- v) = - dot u v.
Proof. by move=> d u v; rewrite /dot mulmxN mxE. Qed.
Lemma dotBl : forall d (u v w : 'cV[F]_d), dot (u - v) w = dot u w - dot v w.
Proof. by move=> d u v w; rewrite dotDl dotNl. Qed.
Lemma dotBr : forall d (u v w : 'cV[F]_d), dot u (v - w) = dot u v - dot u w.
Proof. by move=> d u v w; rewrite dotDr dotNr. Qed.
Lemma dotZl : forall d a (u v : 'cV[F]_d), dot (a *: u) v = a * dot u v.
Proof. by move=> d a u v; rewrite /dot linearZ /= -scalemxAl mxE. Qed.
Lemma dotZr : forall d a (u v : 'cV[F]_d), dot u (a *: v) = a * dot u v.
Proof. by move=> d a u v; rewrite /dot -scalemxAr mxE. Qed.
Lemma dot0l : forall d (v : 'cV[F]_d), dot 0 v = 0.
Proof. by move=> d v; rewrite /dot trmx0 mul0mx mxE. Qed.
Lemma dot0r : forall d (v : 'cV[F]_d), dot v 0 = 0.
Proof. by move=> d v; rewrite /dot mulmx0 mxE. Qed.

Lemma dot_mul : forall d e (A : 'M[F]_(d, e)) u v, dot u (A *m v) = dot (A^T *m u) v.
Proof. by move=> d e A u v; rewrite /dot trmx_mul trmxK mulmxA. Qed.

Lemma dot_sym : forall d (A : 'M[F]_d) u v, A^T = A -> dot u (A *m v) = dot v (A *m u).
Proof. by move=> d A u v HA; rewrite dot_mul HA dotC. Qed.

Lemma dot_ge0 : forall d (v : 'cV[F]_d), 0 <= dot v v.
Proof. by move=> d v; rewrite dotE; apply: sumr_ge0 => i _; rewrite -expr2 sqr_ge0. Qed.

Lemma dot_gt0 : forall d (v : 'cV[F]_d), v != 0 -> 0 < dot v v.
Proof.
  move=> d v Hv; rewrite lt_neqAle dot_ge0 andbT eq_sym; apply: contra Hv; rewrite dotE => /eqP H.
  apply/eqP/matrixP => i j; rewrite mxE (ord1 j).
  have K : v i 0 * v i 0 = 0.
  { apply: (psumr_eq0P _ H) => // k _. by rewrite -expr2 sqr_ge0. }
  by apply/eqP; rewrite -[_ == 0]orbb -mulf_eq0 K.
Qed.

Lemma quadDl : forall d (A B : 'M[F]_d) v, quad (A + B) v = quad A v + quad B v.
Proof. by move=> d A B v; rewrite /quad mulmxDl dotDr. Qed.
Lemma quadZl : forall d a (A : 'M[F]_d) v, quad (a *: A) v = a * quad A v.
Proof. by move=> d a A v; rewrite /quad -scalemxAl dotZr. Qed.
Lemma quad_outer : forall d (u v : 'cV[F]_d), quad (u *m u^T) v = dot u v ^+ 2.
Proof.
  move=> d u v; rewrite /quad -mulmxA.
  have -> : u^T *m v = (dot u v)%:M by apply/matrixP => i j; rewrite !ord1 /dot [RHS]mxE eqxx mulr1n.
  by rewrite mul_mx_scalar dotZr dotC expr2.
Qed.
Lemma quad_gram : forall d e (C : 'M[F]_(e, d)) v, quad (C^T *m C) v = dot (C *m v) (C *m v).
Proof. by move=> d e C v; rewrite /quad -mulmxA dot_mul trmxK. Qed.
Lemma quadB : forall d (A : 'M[F]_d) u v, A^T = A -> quad A (u - v) = quad A u - 2%:R * dot u (A *m v) + quad A v.
Proof.
  move=> d A u v HA; rewrite /quad !mulmxBr !dotBl !dotBr (dot_sym v u HA). ring.
Qed.
Lemma quadD : forall d (A : 'M[F]_d) u v, A^T = A -> quad A (u + v) = quad A u + 2%:R * dot u (A *m v) + quad A v.
Proof.
  move=> d A u v HA; rewrite /quad !mulmxDr !dotDl !dotDr (dot_sym v u HA). ring.
Qed.
Lemma quadN : forall d (A : 'M[F]_d) v, quad A (- v) = quad A v.
Proof. by move=> d A v; rewrite /quad mulmxN dotNl dotNr opprK. Qed.
Lemma quadBC : forall d (A : 'M[F]_d) u v, quad A (u - v) = quad A (v - u).
Proof. by move=> d A u v; rewrite -quadN opprB. Qed.
Lemma quadZ : forall d (A : 'M[F]_d) a v, quad A (a *: v) = a ^+ 2 * quad A v.
Proof. by move=> d A a v; rewrite /quad -scalemxAr dotZl dotZr mulrA expr2. Qed.
Lemma quad1 : forall d (v : 'cV[F]_d), quad 1%:M v = dot v v.
Proof. by move=> d v; rewrite /quad mul1mx. Qed.

Lemma trace_outer : forall d (P : 'M[F]_d) (u : 'cV[F]_d), \tr (u *m u^T *m P) = quad P u.
Proof.
  move=> d P u; rewrite -mulmxA mxtrace_mulC /quad /dot /mxtrace big_ord1 -mulmxA; congr (_ _ _).
Qed.

(** *** Positive definite matrices *)

Lemma spd_psd : forall d (A : 'M[F]_d), spd A -> psd A.
Proof.
  move=> d A [HA Hp]; split=> // v; case: (eqVneq v 0) => [->|/Hp /ltW //].
  by rewrite /quad mulmx0 dot0r.
Qed.
Lemma spd_add : forall d (A B : 'M[F]_d), spd A -> psd B -> spd (A + B).
Proof.
  move=> d A B [HA PA] [HB PB]; split; first by rewrite linearD /= HA HB.
  by move=> v Hv; rewrite quadDl ltr_paddr // ?PA.
Qed.
Lemma psd_add : forall d (A B : 'M[F]_d), psd A -> psd B -> psd (A + B).
Proof.
  move=> d A B [HA PA] [HB PB]; split; first by rewrite linearD /= HA HB.
  by move=> v; rewrite quadDl addr_ge0.
Qed.
Lemma psd_scale : forall d a (A : 'M[F]_d), 0 <= a -> psd A -> psd (a *: A).
Proof.
  move=> d a A Ha [HA PA]; split; first by rewrite linearZ /= HA.
  by move=> v; rewrite quadZl mulr_ge0.
Qed.
Lemma spd_scale : forall d a (A : 'M[F]_d), 0 < a -> spd A -> spd (a *: A).
Proof.
  move=> d a A Ha [HA PA]; split; first by rewrite linearZ /= HA.
  by move=> v Hv; rewrite quadZl mulr_gt0 // PA.
Qed.
Lemma psd0 : forall d, psd (0 : 'M[F]_d).
Proof. by move=> d; split; [rewrite trmx0 | move=> v; rewrite /quad mul0mx dot0r]. Qed.
Lemma psd_outer : forall d (u : 'cV[F]_d), psd (u *m u^T).
Proof. by move=> d u; split; [rewrite trmx_mul trmxK | move=> v; rewrite quad_outer sqr_ge0]. Qed.
Lemma psd_gram : forall d e (C : 'M[F]_(e, d)), psd (C^T *m C).
Proof. by move=> d e C; split; [rewrite trmx_mul trmxK | move=> v; rewrite quad_gram dot_ge0]. Qed.
Lemma spd1 : forall d, spd (1%:M : 'M[F]_d).
Proof. by move=> d; split; [rewrite trmx1 | move=> v Hv; rewrite quad1 dot_gt0]. Qed.

Lemma spd_unit : forall d (A : 'M[F]_d), spd A -> A \in unitmx.
Proof.
  move=> d A [HA HP]; rewrite -unitmx_tr -row_free_unit.
  rewrite -kermx_eq0; apply/negPn/negP => /rowV0Pn [v /sub_kermxP Hk Hv].
  have Hv' : v^T != 0 by rewrite -trmx0 (inj_eq (can_inj (@trmxK _ _ _))).
  have := HP _ Hv'. rewrite /quad.
  have -> : A *m v^T = 0 by rewrite -[A]trmxK -trmx_mul Hk trmx0.
  by rewrite dot0r ltxx.
Qed.
Lemma spd_inv : forall d (A : 'M[F]_d), spd A -> spd (invmx A).
Proof.
  move=> d A HA; have HU := spd_unit HA; case: HA => HS HP; split; first by rewrite trmx_inv HS.
  move=> v Hv; have E : v = A *m (invmx A *m v) by rewrite mulmxA mulmxV // mul1mx.
  have Hw : invmx A *m v != 0 by apply: contra Hv => /eqP W; rewrite E W mulmx0.
  by have := HP _ Hw; rewrite /quad -E dotC.
Qed.

(** *** Cholesky factor *)

Variable sq : F -> F.
Hypothesis sq_pos : forall a, 0 < a -> 0 < sq a.
Hypothesis sq_sq : forall a, 0 < a -> sq a * sq a = a.

Lemma dot_block : forall d e (u1 v1 : 'cV[F]_d) (u2 v2 : 'cV[F]_e),
  dot (col_mx u1 u2) (col_mx v1 v2) = dot u1 v1 + dot u2 v2.
Proof. by move=> d e u1 v1 u2 v2; rewrite /dot tr_col_mx mul_row_col mxE. Qed.

Lemma spd_schur : forall d (A : 'M[F]_(1 + d)), spd A ->
  let a := ulsubmx A 0 0 in let b := dlsubmx A in
  0 < a /\ ursubmx A = b^T /\ spd (drsubmx A - a^-1 *: (b *m b^T)).
Proof.
  move=> d A [HA HP] a b.
  have Hul : ulsubmx A = a%:M by apply/matrixP => i j; rewrite !ord1 /a [RHS]mxE eqxx mulr1n.
  have Hur : ursubmx A = b^T by rewrite /b trmx_dlsub HA.
  have Hdr : (drsubmx A)^T = drsubmx A by rewrite trmx_drsub HA.
  have EA : A = block_mx a%:M b^T b (drsubmx A) by rewrite -Hul -Hur submxK.
  have Ha : 0 < a.
  { have H : col_mx (1%:M : 'cV[F]_1) (0 : 'cV[F]_d) != 0.
    { apply/negP => /eqP /matrixP /(_ (lshift d 0) 0). rewrite col_mxEu !mxE eqxx /= => /eqP. by rewrite oner_eq0. }
    have := HP _ H. rewrite /quad EA mul_block_col !mulmx0 !addr0 dot_block dot0l addr0 mulmx1.
    by rewrite /dot trmx1 mul1mx [X in 0 < X]mxE eqxx mulr1n. }
  split=> //; split=> //; split.
  - by rewrite linearB /= linearZ /= trmx_mul trmxK Hdr.
  - move=> v Hv.
    set w : 'cV[F]_1 := - (a^-1 * dot b v)%:M.
    have H : col_mx w v != 0.
    { apply: contra Hv => /eqP E. by rewrite -[v](col_mxKd w) E linear0. }
    have := HP _ H. rewrite /quad EA mul_block_col dot_block.
    have Eb : b^T *m v = (dot b v)%:M by apply/matrixP => i j; rewrite !ord1 /dot [RHS]mxE eqxx mulr1n.
    have Ew : a%:M *m w + b^T *m v = 0.
    { rewrite Eb /w mulmxN -scalar_mxM mulrA divff ?mul1r ?addNr //. by rewrite gt_eqF. }
    rewrite Ew dot0r add0r mulmxBl -scalemxAl -mulmxA Eb /w mulmxN !mul_mx_scalar scalerA.
    by rewrite addrC block_mxKdr.
Qed.

Lemma chol_ok : forall d (A : 'M[F]_d), spd A ->
  let L := chol sq A in
  L *m L^T = A /\ (forall i j : 'I_d, (i < j)%N -> L i j = 0) /\ (forall i, 0 < L i i).
Proof.
  elim=> [|d IH] A HA L.
  - by split; [apply/matrixP => -[] | split; [move=> [] | move=> []]].
  - have [Ha [Hur HS]] := @spd_schur d A HA.
    have [E1 [E2 E3]] := IH _ HS.
    set a := ulsubmx (A : 'M_(1 + d)) 0 0 in Ha HS E1 E2 E3 *.
    have Hul : ulsubmx (A : 'M_(1 + d)) = a%:M by apply/matrixP => i j; rewrite !ord1 /a [RHS]mxE eqxx mulr1n.
    rewrite /L /=. rewrite -/a. set b := dlsubmx (A : 'M_(1 + d)) in Hur HS E1 E2 E3 *.
    set M := chol sq _ in E1 E2 E3 *.
    have Hq := sq_pos Ha. have Hqq := sq_sq Ha.
    have Hq0 : sq a != 0 by rewrite gt_eqF.
    split; [|split].
    + rewrite (@tr_block_mx _ 1 d 1 d) (@mulmx_block _ 1 d 1 d 1 d) !trmx0 !mulmx0 !mul0mx !addr0 tr_scalar_mx -scalar_mxM Hqq.
      rewrite linearZ /= mul_scalar_mx scalerA divff // scale1r.
      rewrite mul_mx_scalar scalerA divff // scale1r.
      rewrite -scalemxAl -scalemxAr scalerA E1.
      have -> : (sq a)^-1 * (sq a)^-1 = a^-1 by rewrite -invfM Hqq.
      rewrite addrC subrK -Hul -Hur. exact: (submxK (A : 'M_(1 + d))).
    + move=> i j. rewrite -[i](@splitK 1 d) -[j](@splitK 1 d).
      case: (@split 1 d i) => i'; case: (@split 1 d j) => j' /=; rewrite ?ord1 //= => Hij.
      * by rewrite (@block_mxEur _ 1 d 1 d) mxE.
      * by rewrite (@block_mxEdr _ 1 d 1 d) E2 // -(ltn_add2l 1).
    + move=> i. rewrite -[i](@splitK 1 d). case: (@split 1 d i) => i' /=.
      * by rewrite (@block_mxEul _ 1 d 1 d) ord1 mxE eqxx mulr1n.
      * by rewrite (@block_mxEdr _ 1 d 1 d).
Qed.

Lemma det_chol : forall d (A : 'M[F]_d), spd A -> \det A = (\prod_i chol sq A i i) ^+ 2.
Proof.
  move=> d A HA; have [E1 [E2 E3]] := chol_ok HA.
  rewrite -{1}E1 det_mulmx det_tr det_trig ?expr2 //.
  by apply/is_trig_mxP.
Qed.
Lemma spd_det : forall d (A : 'M[F]_d), spd A -> 0 < \det A.
Proof.
  move=> d A HA; rewrite det_chol // exprn_gt0 // prodr_gt0 // => i _. by have [_ [_ ->]] := chol_ok HA.
Qed.

End Facts.

(** Sylvester's determinant identity. *)
Lemma det_sylvester : forall (F : fieldType) m n (u : 'M[F]_(m, n)) (v : 'M[F]_(n, m)),
  \det (1%:M + u *m v) = \det (1%:M + v *m u).
Proof.
  move=> F m n u v.
  have E1 : block_mx 1%:M (- u) v 1%:M *m block_mx 1%:M u 0 1%:M = block_mx 1%:M 0 v (1%:M + v *m u).
  { rewrite mulmx_block !mulmx1 !mulmx0 !mul1mx ?addr0 ?subrr ?addNr; congr block_mx; by rewrite ?subrr ?addrN // addrC. }
  have E2 : block_mx 1%:M (- u) v 1%:M *m block_mx 1%:M 0 (- v) 1%:M = block_mx (1%:M + u *m v) (- u) 0 1%:M.
  { rewrite mulmx_block !mulmx1 !mulmx0 !mul1mx ?addr0 ?add0r mulNmx mulmxN opprK; congr block_mx; by rewrite ?subrr. }
  have := congr1 determinant E1. have := congr1 determinant E2.
  rewrite !det_mulmx !det_lblock !det_ublock !det1 !mulr1 !mul1r => <- <- //.
Qed.
