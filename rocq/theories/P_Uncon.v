(** * C130: unconstrained representations of regression and multivariate states. *)
From Coq Require Import String ZArith Reals Lra Lia Eqdep_dec.
From mathcomp Require Import all_ssreflect all_algebra.
From mathcomp.algebra_tactics Require Import ring.
From Verif Require Import Base Univ RealField MatLib Multi MultiFacts Uncon UnconFacts P_Multi.
Set Implicit Arguments.
Unset Strict Implicit.
Unset Printing Implicit Defensive.
Import Order.TTheory GRing.Theory Num.Theory.
Local Open Scope ring_scope.

(** ** Regression state *)

Lemma vec_size : forall d (v : 'cV[R]_d), size [seq v i 0 | i <- enum 'I_d] = d.
Proof. by move=> d v; rewrite size_map size_enum_ord. Qed.
Lemma vec_nth : forall d (v : 'cV[R]_d) (i : 'I_d), nth 0 [seq v i 0 | i <- enum 'I_d] i = v i 0.
Proof. by move=> d v i; rewrite (nth_map i) ?size_enum_ord // nth_ord_enum. Qed.
Lemma colv_vec : forall d (v : 'cV[R]_d) t, colv d ([seq v i 0 | i <- enum 'I_d] ++ t) = v.
Proof. by move=> d v t; apply/matrixP => i j; rewrite !mxE ord1 nth_cat vec_size ltn_ord vec_nth. Qed.
Lemma vec_colv : forall d (u : seq R), (d <= size u)%N -> [seq (colv d u) i 0 | i <- enum 'I_d] = take d u.
Proof.
  move=> d u H; apply: (@eq_from_nth _ 0); first by rewrite vec_size size_takel.
  rewrite vec_size => i Hi; by rewrite -[i]/(nat_of_ord (Ordinal Hi)) vec_nth mxE nth_take.
Qed.

(** Transforming a state and reading it back gives the same state. *)
Theorem C130_regression_roundtrip : forall d (s : lrs d), 0 < lr_var s ->
  exists u, lr_get_unconstrained s = Ok u /\ size u = d.+1 /\ lr_set_unconstrained u = Ok (existT _ d s).
Proof.
  move=> d s Hv; rewrite /lr_get_unconstrained /lr_to_unconstrained /lr_vec.
  set c := [seq _ | i <- _]. have Sc : size c = d by rewrite vec_size.
  have Et : forall x, take d (rcons c x) = c by move=> x; rewrite -cats1 take_cat Sc ltnn subnn take0 cats0.
  have En : forall x, nth 0 (rcons c x) d = x by move=> x; rewrite nth_rcons Sc ltnn eqxx.
  rewrite size_rcons Sc Et En.
  exists (rcons c (ln (lr_var s))); split=> //; split; first by rewrite size_rcons Sc.
  rewrite /lr_set_unconstrained /lr_to_constrained size_rcons Sc Et En exp_ln; last by apply/RltE.
  rewrite /rbind [_.-1]/= En -cats1 colv_vec. by case: s {Hv c Sc Et En}.
Qed.
Print Assumptions C130_regression_roundtrip.

(** Every non-empty vector represents a state, and that state only. *)
Theorem C130_regression_onto : forall u : seq R, u <> [::] ->
  exists d (s : lrs d), lr_set_unconstrained u = Ok (existT _ d s) /\ 0 < lr_var s /\ lr_get_unconstrained s = Ok u.
Proof.
  move=> u Hu; rewrite /lr_set_unconstrained /lr_to_constrained.
  case E : (size u) => [|n]; first by case: u Hu E.
  have St : size (take n u) = n by rewrite size_takel // E.
  rewrite /=; eexists n, _; split; first by [].
  have En : nth 0 (rcons (take n u) (exp (nth 0 u n))) n = exp (nth 0 u n) by rewrite nth_rcons St ltnn eqxx.
  split; first by rewrite /= En; apply/RltE; apply: exp_pos.
  rewrite /lr_get_unconstrained /lr_vec /= vec_colv; last by rewrite size_rcons St.
  have Tr : forall x, take n (rcons (take n u) x) = take n u by move=> x; rewrite -cats1 take_cat St ltnn subnn take0 cats0.
  rewrite En Tr /lr_to_unconstrained size_rcons St Tr En ln_exp.
  congr Ok; rewrite -[RHS](cat_take_drop n) -cats1; congr (_ ++ _).
  apply: (@eq_from_nth _ 0); first by rewrite size_drop E subSnn.
  by case=> [|k] //= _; rewrite nth_drop addn0.
Qed.
Print Assumptions C130_regression_onto.

Example ex_C130_regression : exists s : lrs 2,
  lr_set_unconstrained [:: 5%:R; 7%:R; 0] = Ok (existT _ 2%N s) /\
  lr_coef s 0 0 = 5%:R /\ lr_coef s 1 0 = 7%:R /\ lr_var s = 1 /\ lr_get_unconstrained s = Ok [:: 5%:R; 7%:R; 0].
Proof.
  eexists; split; first by [].
  rewrite /lr_get_unconstrained /lr_vec /lr_to_unconstrained /=.
  rewrite !mxE /= exp_0; do 3 (split; first by []).
  rewrite size_rcons vec_size vec_colv //= ln_1. by [].
Qed.
Example ex_C130_regression_empty : lr_set_unconstrained [::] = UB.
Proof. by []. Qed.

(** The constrained vector that a representation stands for. *)
Definition constrained (u : seq R) : seq R := if lr_to_constrained u is Ok c then c else [::].

(** [log_det_jac] is the logarithm of the determinant of the matrix of partial
    derivatives of the map to the constrained vector. *)
Theorem C130_regression_jacobian : forall n (u : seq R), size u = n.+1 ->
  exists J : 'M[R]_n.+1,
    (forall i j : 'I_n.+1, derivable_pt_lim (fun x => nth 0 (constrained (set_nth 0 u j x)) i) (nth 0 u j) (J i j)) /\
    exp (lr_log_det_jac (constrained u)) = \det J.
Proof.
  move=> n u Su.
  have E : forall v : seq R, size v = n.+1 -> constrained v = rcons (take n v) (exp (nth 0 v n)).
  { by move=> v Sv; rewrite /constrained /lr_to_constrained Sv. }
  have Es : forall (j : 'I_n.+1) x, size (set_nth 0 u j x) = n.+1.
  { by move=> j x; rewrite size_set_nth Su; apply/maxn_idPr; apply: ltn_ord. }
  exists (diag_mx (\row_i (if (i < n)%N then 1 else exp (nth 0 u n)))); split.
  - move=> i j.
    have F : forall x, nth 0 (constrained (set_nth 0 u j x)) i =
        (if (i < n)%N then nth 0 (set_nth 0 u j x) i else exp (nth 0 (set_nth 0 u j x) n)).
    { move=> x; rewrite E // nth_rcons size_takel ?Es //; case: ltnP => H; first by rewrite nth_take.
      by rewrite ifT // eqn_leq H -ltnS ltn_ord. }
    have Hin : (n <= i)%N -> nat_of_ord i = n by move=> H; apply/eqP; rewrite eqn_leq H -ltnS ltn_ord.
    rewrite !mxE.
    apply: (derivable_pt_lim_ext _ _ _ _ (fun x => esym (F x))).
    case: ltnP => Hi.
    + case: (eqVneq i j) => [<-|Hij].
      * rewrite mulr1n; apply: (derivable_pt_lim_ext id); last exact: derivable_pt_lim_id.
        by move=> x; rewrite nth_set_nth /= eqxx.
      * rewrite mulr0n; apply: (derivable_pt_lim_ext (fct_cte (nth 0 u i))); last exact: derivable_pt_lim_const.
        move=> x; rewrite nth_set_nth /= ifF //; apply/eqP => Q; move/eqP: Hij; apply; by apply: val_inj.
    + have Ei := Hin Hi.
      case: (eqVneq i j) => [Ej|Hij].
      * rewrite mulr1n; apply: (derivable_pt_lim_ext exp).
        { by move=> x; rewrite nth_set_nth /= -Ej Ei eqxx. }
        rewrite -Ej Ei; exact: derivable_pt_lim_exp.
      * rewrite mulr0n; apply: (derivable_pt_lim_ext (fct_cte (exp (nth 0 u n)))); last exact: derivable_pt_lim_const.
        move=> x; rewrite nth_set_nth /= ifF //; apply/eqP => Q; move/eqP: Hij; apply; apply: val_inj; by rewrite /= Ei.
  - rewrite det_diag big_ord_recr /= mxE /= ltnn big1; last by move=> i _; rewrite mxE /= ltn_ord.
    rewrite mul1r /lr_log_det_jac E // size_rcons /= nth_rcons ltnn eqxx ln_exp.
    by rewrite add0r.
Qed.
Print Assumptions C130_regression_jacobian.

(** At [(5, ln 2)] the determinant is 2. *)
Example ex_C130_jacobian : exp (lr_log_det_jac (constrained [:: 5%:R; ln 2%:R])) = 2%:R.
Proof.
  rewrite /lr_log_det_jac /constrained /= ln_exp add0r exp_ln // RnatE /=; lra.
Qed.

(** ** Multivariate state *)

(** A vector is accepted exactly when its length is [d (d + 3) / 2]; otherwise the
    assertion fails. *)
Theorem C130_multi_sizes : forall u : seq R,
  ((exists r, mls_set_unconstrained u = Ok r) <-> exists d, (2 * size u = d * (d + 3))%N) /\
  (mls_set_unconstrained u = Abort <-> ~ exists d, (2 * size u = d * (d + 3))%N).
Proof.
  move=> u.
  have A : forall d, (2 * size u = d * (d + 3))%N -> exists r, mls_set_unconstrained u = Ok r.
  { by move=> d H; eexists; apply: set_ok; rewrite -mul2n H. }
  have B : (~ exists d, (2 * size u = d * (d + 3))%N) -> mls_set_unconstrained u = Abort.
  { by move=> H; apply: set_abort => d Hd; apply: H; exists d; rewrite mul2n. }
  have C : forall r, mls_set_unconstrained u = Ok r -> exists d, (2 * size u = d * (d + 3))%N.
  { move=> r; rewrite /mls_set_unconstrained /ml_to_constrained; case: eqP => //= /dim_of_only [d Hd] _.
    by exists d; rewrite mul2n. }
  split; split.
  - by case=> r /C.
  - by case=> d /A.
  - by move=> H [d /A [r Hr]]; rewrite H in Hr.
  - exact: B.
Qed.
Print Assumptions C130_multi_sizes.

Example ex_C130_sizes : mls_set_unconstrained [:: 1; 1; 1] = Abort /\ exists r, mls_set_unconstrained [:: 1; 1; 1; 1; 1] = Ok r.
Proof.
  split.
  - apply/(C130_multi_sizes _).2 => -[[|[|d]]] //= H.
    move: H; rewrite -!multE -!plusE; lia.
  - apply/(C130_multi_sizes _).1. by exists 2%N.
Qed.

Lemma get_ok : forall d (s : mls d), (0 < d)%N -> spd (ml_prec s) ->
  mls_get_unconstrained s =
    Ok ([seq ml_mean s i 0 | i <- enum 'I_d] ++ flatten (mkseq (free_row (llt_L (ml_prec s))) d)).
Proof.
  move=> d s Hd Hs; rewrite /mls_get_unconstrained /ml_to_unconstrained /cov_matrix_free ifF; last by case: d Hd s Hs.
  rewrite ifT //; apply/forallP => i; case: Hs => _ /(_ (delta_mx i 0)) H.
  have : 0 < quad (ml_prec s) (delta_mx i 0).
  { apply: H; apply/eqP => /matrixP /(_ i 0); rewrite !mxE !eqxx /= => /eqP; by rewrite oner_eq0. }
  rewrite /quad /dot trmx_delta -colE -rowE; by rewrite !mxE.
Qed.

(** Transforming a state and reading it back restores the mean and the precision,
    with the lower-triangular factor and the log determinant of the precision. *)
Theorem C130_multi_roundtrip : forall d (s : mls d), (0 < d)%N -> spd (ml_prec s) ->
  exists u s', mls_get_unconstrained s = Ok u /\ (2 * size u = d * (d + 3))%N /\
    mls_set_unconstrained u = Ok (existT _ d s') /\
    ml_mean s' = ml_mean s /\ ml_prec s' = ml_prec s /\
    (forall i j : 'I_d, (i < j)%N -> ml_chol s' i j = 0) /\ (forall i, 0 < ml_chol s' i i) /\
    ml_chol s' *m (ml_chol s')^T = ml_prec s /\ ml_logdet s' = ln (\det (ml_prec s)).
Proof.
  move=> d s Hd Hs; have [E1 [E2 E3]] := llt_L_ok Hs.
  set u := [seq ml_mean s i 0 | i <- enum 'I_d] ++ flatten (mkseq (free_row (llt_L (ml_prec s))) d).
  have Su : ((size u).*2 = d * (d + 3))%N.
  { by rewrite size_cat vec_size size_free_rows doubleD tri_double -muln2 -mulnDr addn3. }
  exists u, (mls_set_constrained (ml_mean s) (ml_prec s)); split; first exact: get_ok.
  split; first by rewrite mul2n.
  have Dr : drop d u = flatten (mkseq (free_row (llt_L (ml_prec s))) d).
  { by rewrite /u drop_cat vec_size ltnn subnn drop0. }
  split; first by rewrite (set_ok Su) Dr constrain_free // E1 /u colv_vec.
  do 5 (split; first by []).
  by rewrite /= logdet_L.
Qed.
Print Assumptions C130_multi_roundtrip.

(** Every vector of such a length represents a positive definite state, and that
    state only. *)
Theorem C130_multi_onto : forall d (u : seq R), (0 < d)%N -> (2 * size u = d * (d + 3))%N ->
  exists s : mls d, mls_set_unconstrained u = Ok (existT _ d s) /\ spd (ml_prec s) /\
    mls_get_unconstrained s = Ok u.
Proof.
  move=> d u Hd; rewrite mul2n => Su; rewrite (set_ok Su).
  set L := constrain_L d (drop d u).
  have HL : forall i j : 'I_d, (i < j)%N -> L i j = 0 by apply: constrain_lower.
  have HP : forall i, 0 < L i i by apply: constrain_diag.
  have Hs := lower_spd HL HP.
  eexists; split; first by []. split=> //.
  rewrite get_ok //= chol_unique //.
  have Ssz : size u = (d + tri d)%N.
  { apply: double_inj; by rewrite Su doubleD tri_double -muln2 -mulnDr addn3. }
  rewrite vec_colv; last by rewrite Ssz leq_addr.
  rewrite free_constrain_take //; last by rewrite size_drop Ssz addKn.
  by rewrite [take (tri d) _]take_oversize ?size_drop ?Ssz ?addKn // cat_take_drop.
Qed.
Print Assumptions C130_multi_onto.

(** Mean [(7, 8)], factor [[1, 0], [3, 1]], precision [[1, 3], [3, 10]]. *)
Example ex_C130_multi : exists s : mls 2,
  mls_set_unconstrained [:: 7%:R; 8%:R; 0; 3%:R; 0] = Ok (existT _ 2%N s) /\
  ml_mean s 1 0 = 8%:R /\ ml_prec s 0 0 = 1 /\ ml_prec s 0 1 = 3%:R /\ ml_prec s 1 1 = 10%:R /\
  mls_get_unconstrained s = Ok [:: 7%:R; 8%:R; 0; 3%:R; 0].
Proof.
  have [s [E [_ G]]] := @C130_multi_onto 2 [:: 7%:R; 8%:R; 0; 3%:R; 0] isT (erefl _).
  exists s; split=> //.
  have Es : s = mls_set_constrained (colv 2 [:: 7%:R; 8%:R; 0; 3%:R; 0])
     (constrain_L 2 [:: 0; 3%:R; 0] *m (constrain_L 2 [:: 0; 3%:R; 0])^T).
  { have := E; rewrite (@set_ok 2) // => -[] H; symmetry; exact: (inj_pair2_eq_dec _ PeanoNat.Nat.eq_dec _ _ _ _ H). }
  rewrite {1 2 3 4}Es /=.
  split; first by rewrite mxE.
  have e0 : exp (0 : R) = 1 by exact: exp_0.
  rewrite !mxE !big_ord_recl !big_ord0 !mxE /= !e0; split; [ring | split; [ring | split; [ring | by []]]].
Qed.
Example ex_C130_get : exists u, mls_get_unconstrained (mls_set_constrained (const_mx 1) mS) = Ok u /\ size u = 5%N.
Proof.
  have [u [s' [E [S _]]]] := @C130_multi_roundtrip 2 (mls_set_constrained (const_mx 1) mS) isT mS_spd.
  exists u; split=> //; apply/eqP; by rewrite -(eqn_pmul2l (isT : 0 < 2)%N) S.
Qed.

(** The Jacobian of the multivariate transformation is never computed: the running
    total is passed where the dimension is expected. *)
Theorem C130_multi_jacobian_throws : forall d (s : mls d), exists msg, mls_log_det_jac s = Throw msg.
Proof.
  move=> d s; rewrite /mls_log_det_jac /ml_log_det_jac /cov_matrix_free.
  case: eqP => Hd; first by eexists.
  case: ifP => _ /=; last by eexists.
  rewrite /cov_matrix_constrain size_free_rows ifF; first by eexists.
  by case: d Hd s => // d _ _; rewrite /= addnS.
Qed.
Print Assumptions C130_multi_jacobian_throws.

Theorem C130_multi_jacobian_refuted : exists d (s : mls d), (0 < d)%N /\ spd (ml_prec s) /\ exists msg, mls_log_det_jac s = Throw msg.
Proof.
  exists 1%N, (mls_set_constrained 0 1%:M); split=> //; split; first exact: spd1.
  exact: C130_multi_jacobian_throws.
Qed.
Print Assumptions C130_multi_jacobian_refuted.
