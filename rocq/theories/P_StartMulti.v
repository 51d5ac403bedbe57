(** * C116: the hyperparameters of the multivariate hierarchies start at the centres of their priors. *)
From Coq Require Import ZArith Reals Lia.
From mathcomp Require Import all_ssreflect all_algebra.
From mathcomp.algebra_tactics Require Import ring.
From Verif Require Import Base Mixings Univ RealField MatLib Multi MultiFacts NnwFacts LinFacts NwHyper WishMode P_Multi.
From Verif Require GammaInt UnivInt MeanFacts P_Start.
Set Implicit Arguments.
Unset Strict Implicit.
Unset Printing Implicit Defensive.
Import Order.TTheory GRing.Theory Num.Theory.
Local Open Scope ring_scope.

(** [x] has the largest density among all points. *)
Definition normal_mode d (mu : 'cV[R]_d) (S : 'M[R]_d) (x : 'cV[R]_d) : Prop :=
  forall y, stan_mvn_lpdf y mu S <= stan_mvn_lpdf x mu S.
Definition inv_wishart_mode d (nu : R) (S X : 'M[R]_d) : Prop :=
  spd X /\ forall lg W, spd W -> stan_inv_wishart_lpdf lg W nu S <= stan_inv_wishart_lpdf lg X nu S.

Lemma normal_mode_mean : forall d (mu : 'cV[R]_d) S, spd S -> normal_mode mu S mu.
Proof.
  move=> d mu S HS y. rewrite /stan_mvn_lpdf ler_sub // subrr.
  have -> : quad (invmx S) (0 : 'cV[R]_d) = 0 by rewrite /quad mulmx0 /dot mulmx0 mxE.
  rewrite mulr0 mulr_ge0 //; first by rewrite /hf invr_ge0 ler0n.
  by have [_ P] := spd_psd (spd_inv HS).
Qed.

Lemma nw_finish_eq : forall d (mean : 'cV[R]_d) vs df scale h, nw_finish mean vs df scale = Ok h ->
  [/\ nw_mean h = mean, nw_vs h = vs, nw_df h = df, nw_scale h = scale & spd scale].
Proof.
  move=> d mean vs df scale h; rewrite /nw_finish. case E: (inverse_spd scale) => [B|m||] //= -[<-].
  by move/inverse_spd_ok: E => [HS _].
Qed.

Theorem C116_ngiw : forall d (mu00 : 'cV[R]_d) sigma00 alpha00 beta00 nu00 tau00 nu0 h,
  nw_init (NWNgiw mu00 sigma00 alpha00 beta00 nu00 tau00 nu0) = Ok h ->
  [/\ normal_mode mu00 sigma00 (nw_mean h), P_Start.gamma_mean_is alpha00 beta00 (nw_vs h),
      nw_df h = nu0 & inv_wishart_mode nu00 tau00 (nw_scale h)].
Proof.
  move=> d mu00 sigma00 a b nu00 tau00 nu0 h /=.
  case E0: (check_spd sigma00) => [[]|m||] //=. case E1: (lteb a 0) => //. case E2: (lteb b 0) => //.
  case E3: (lteb nu00 0) => //. case E4: (check_spd tau00) => [[]|m||] //=. case E5: (lteb nu0 _) => //.
  move/nw_finish_eq => [-> -> -> -> HS]. move/check_spd_ok: E0 => [_ HS0]. move/check_spd_ok: E4 => [_ HT].
  have Ha := lteb_false0 E1. have Hb := lteb_false0 E2. have Hn := lteb_false0 E3.
  split=> //; first exact: normal_mode_mean.
  - apply: MeanFacts.gamma_mean; by apply/RltE.
  - split=> // lg W HW. apply: iw_mode => //. exact: iw_coef.
Qed.
Print Assumptions C116_ngiw.

Theorem C116_multi_mean : forall d (mu00 : 'cV[R]_d) sigma00 vs df scale h,
  nw_init (NWMean mu00 sigma00 vs df scale) = Ok h ->
  [/\ normal_mode mu00 sigma00 (nw_mean h), nw_vs h = vs, nw_df h = df & nw_scale h = scale].
Proof.
  move=> d mu00 sigma00 vs df scale h /=. case E0: (check_spd sigma00) => [[]|m||] //=. case E1: (lteb vs 0) => //.
  case E2: (check_spd scale) => [[]|m||] //=. case E3: (lteb df _) => //.
  move/nw_finish_eq => [-> -> -> -> HS]. move/check_spd_ok: E0 => [_ HS0]. split=> //. exact: normal_mode_mean.
Qed.
Print Assumptions C116_multi_mean.

Theorem C116_multi_fixed : forall d,
  (forall (m : 'cV[R]_d) vs df sc h, nw_init (NWFixed m vs df sc) = Ok h ->
     [/\ nw_mean h = m, nw_vs h = vs, nw_df h = df & nw_scale h = sc]) /\
  (forall (m : 'cV[R]_d) vs a b h, mnig_init (MNIGFixed m vs a b) = Ok h ->
     [/\ mg_mean h = m, mg_vs h = vs, mg_shape h = a & mg_scale h = b]).
Proof.
  move=> d; split.
  - move=> m vs df sc h /=. case: (lteb vs 0) => //. case: (lteb df _) => //. by move/nw_finish_eq => [-> -> -> -> _].
  - move=> m vs a b h /=. case: (inverse_spd vs) => [B|e||] //=. case: (check_spd vs) => [[]|e||] //=.
    case: (lteb a 0) => //. by case: (lteb b 0) => //= -[<-].
Qed.
Print Assumptions C116_multi_fixed.

(** The mode of an inverse-Wishart law is one point. *)
Theorem C116_mode_unique : forall d nu (S X Y : 'M[R]_d), 0 < nu -> spd S ->
  inv_wishart_mode nu S X -> inv_wishart_mode nu S Y -> X = Y.
Proof.
  move=> d nu S X Y Hn HS [HX MX] [HY MY].
  have E : forall Z, spd Z -> inv_wishart_mode nu S Z -> Z = (nu + d%:R + 1)^-1 *: S.
  { move=> Z HZ [_ MZ]. apply: (iw_mode_eq (lg := fun _ => 0)) => //; first exact: iw_coef. apply: MZ.
    apply: spd_scale => //. by rewrite invr_gt0 -addrA ltr_paddr // addr_ge0 // ?ler0n. }
  by rewrite (E X) // (E Y).
Qed.
Print Assumptions C116_mode_unique.

Example C116_multi_example : exists h,
  nw_init (NWNgiw (const_mx 1) mS 3%:R 2%:R 4%:R mS 5%:R) = Ok h /\ nw_vs h = 3%:R / 2%:R /\
  nw_scale h = 7%:R^-1 *: mS /\ nw_mean h = const_mx 1.
Proof.
  have P : forall n, lteb (n.+1%:R : R) 0 = false.
  { move=> n. apply/negbTE/negP => /lteb_true0. by rewrite leNgt ltr0n. }
  have C : check_spd mS = Ok tt by apply/check_spd_ok; split=> //; exact: mS_spd.
  eexists; split.
  - rewrite /= C /= !P.
    have -> : lteb (5%:R : R) (2%:R - 1) = false.
    { apply/negbTE/negP => /lteb_true0. have -> : (2%:R - 1 : R) = 1 by rewrite -[2%N]/(1 + 1)%N natrD addrK. by rewrite leNgt ltr1n. }
    rewrite /nw_finish.
    have -> : inverse_spd ((4%:R + 2%:R + 1)^-1 *: mS) = Ok (invmx ((4%:R + 2%:R + 1)^-1 *: mS)).
    { apply/inverse_spd_ok; split=> //. apply: spd_scale; last exact: mS_spd. rewrite invr_gt0. have -> : (4%:R + 2%:R + 1 : R) = 7%:R by ring. by rewrite ltr0n. }
    reflexivity.
  - split=> //. split=> //=. by have -> : (4%:R + 2%:R + 1 : R) = 7%:R by ring.
Qed.
