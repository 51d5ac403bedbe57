(** * Property theorems: the distance between multivariate Gaussian mixtures. *)
From Coq Require Import String ZArith Reals.
From mathcomp Require Import all_ssreflect all_algebra.
From Verif Require Import Base Mixings Univ RealField MatLib Multi MultiFacts MDist MDistFacts.
Set Implicit Arguments.
Unset Strict Implicit.
Unset Printing Implicit Defensive.
Import Order.TTheory GRing.Theory Num.Theory.
Local Open Scope ring_scope.

Definition dS : 'M[R]_2 := 1%:M + const_mx 1 *m (const_mx 1 : 'cV[R]_2)^T.
Lemma dS_spd : spd dS.
Proof. apply: spd_add; [exact: spd1 | exact: psd_outer]. Qed.
Definition ex_one : seq (mcomp 2) := [:: mkMComp 0 dS 2%:R^-1; mkMComp (const_mx 1) 1%:M 2%:R^-1].
Definition ex_two : seq (mcomp 2) := [:: mkMComp (const_mx 1) dS 1].
Lemma ex_one_good : mgood ex_one.
Proof. by move=> c [<-|[<-|[]]]; [exact: dS_spd | exact: spd1]. Qed.
Lemma ex_two_good : mgood ex_two.
Proof. by move=> c [<-|[]]; exact: dS_spd. Qed.

(** ** C63 *)
(** The multivariate normal density has mass one over the whole space. *)
Theorem C63_normal_mass : forall d (P : 'M[R]_d) (m : 'cV[R]_d), spd P ->
  is_space_int (fun x => exp (stan_mvn_prec_lpdf x m P)) 1.
Proof. exact: mvn_mass. Qed.
Print Assumptions C63_normal_mass.

(** The multivariate distance is the integral of the squared difference. *)
Theorem C63_multi_distance : forall d (cs ds : seq (mcomp d)), mgood cs -> mgood ds ->
  exists D : R, is_space_int (fun x => (mmix_pdf cs x - mmix_pdf ds x) ^+ 2) D /\ 0 <= D /\
    multi_mixture_dist (List.map (@mc_mean d) cs) (List.map (@mc_prec d) cs) (List.map (@mc_w d) cs)
      (List.map (@mc_mean d) ds) (List.map (@mc_prec d) ds) (List.map (@mc_w d) ds) = Ok D.
Proof. exact: multi_distance. Qed.
Print Assumptions C63_multi_distance.

Example C63_multi_distance_ex : mgood ex_one /\ mgood ex_two.
Proof. split; [exact: ex_one_good | exact: ex_two_good]. Qed.

(** It throws iff some precision matrix is not symmetric positive definite. *)
Theorem C63_multi_throws_iff : forall d (cs ds : seq (mcomp d)),
  (exists c, List.In c (List.app cs ds) /\ ~ spd (mc_prec c)) <->
  exists msg, multi_mixture_dist (List.map (@mc_mean d) cs) (List.map (@mc_prec d) cs) (List.map (@mc_w d) cs)
      (List.map (@mc_mean d) ds) (List.map (@mc_prec d) ds) (List.map (@mc_w d) ds) = Throw msg.
Proof. exact: multi_throw. Qed.
Print Assumptions C63_multi_throws_iff.

Example C63_multi_throws_ex : exists c : mcomp 2, List.In c (List.app ex_one [:: mkMComp 0 0 1]) /\ ~ spd (mc_prec c).
Proof.
  exists (mkMComp 0 0 1). split; first by right; right; left. move/spd_unit => /=. by rewrite unitmxE det0 unitr0.
Qed.
