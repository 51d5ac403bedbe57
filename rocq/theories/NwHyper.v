(** * Hyperparameters of the multivariate hierarchies: initialization and hyperprior updates. *)
From Coq Require Import ZArith Reals Lra Lia.
From mathcomp Require Import all_ssreflect all_algebra.
From mathcomp.algebra_tactics Require Import ring.
From Verif Require Import Base Mixings Univ RealField MatLib Multi MultiFacts NnwFacts LinFacts.
Set Implicit Arguments.
Unset Strict Implicit.
Unset Printing Implicit Defensive.
Import Order.TTheory GRing.Theory Num.Theory.
Local Open Scope ring_scope.

Lemma lteb_false0 : forall x y : R, lteb x y = false -> y < x.
Proof. by move=> x y; rewrite /lteb; case: Rle_dec => // H _; apply/RltE; exact: Rnot_le_lt. Qed.
Lemma lteb_true0 : forall x y : R, lteb x y = true -> x <= y.
Proof. by move=> x y; rewrite /lteb; case: Rle_dec => // H _; apply/RleE. Qed.

(** ** Initialization *)

Lemma nw_finish_ok : forall d (mean : 'cV[R]_d) vs df scale h, nw_finish mean vs df scale = Ok h ->
  0 < vs -> d%:R - 1 < df -> nw_valid h.
Proof.
  move=> d mean vs df scale h; rewrite /nw_finish. case E: (inverse_spd scale) => [B|m||] //= -[<-] Hv Hd.
  by move/inverse_spd_ok: E => [HS ->].
Qed.
Lemma nw_init_valid : forall d (p : nw_prior d) h, nw_init p = Ok h -> nw_valid h.
Proof.
  move=> d [mean vs df scale|mu00 sigma00 vs df scale|mu00 sigma00 a b nu00 tau00 nu0|] h //=.
  - case E1: (lteb vs 0) => //. case E2: (lteb df _) => //. move=> H.
    apply: (nw_finish_ok H); exact: lteb_false0.
  - case E0: (check_spd sigma00) => [[]|m||] //=. case E1: (lteb vs 0) => //.
    case E2: (check_spd scale) => [[]|m||] //=. case E3: (lteb df _) => //. move=> H.
    apply: (nw_finish_ok H); exact: lteb_false0.
  - case E0: (check_spd sigma00) => [[]|m||] //=. case E1: (lteb a 0) => //. case E2: (lteb b 0) => //.
    case E3: (lteb nu00 0) => //. case E4: (check_spd tau00) => [[]|m||] //=. case E5: (lteb nu0 _) => //. move=> H.
    apply: (nw_finish_ok H); last exact: lteb_false0.
    by rewrite divr_gt0 // lteb_false0.
Qed.
Lemma mnig_init_valid : forall d (p : mnig_prior d) h, mnig_init p = Ok h -> mnig_valid h.
Proof.
  move=> d [mean vs a b|] h //=. case E0: (inverse_spd vs) => [B|m||] //=. case E1: (check_spd vs) => [[]|m||] //=.
  case E2: (lteb a 0) => //. case E3: (lteb b 0) => //= -[<-].
  move/check_spd_ok: E1 => [_ HS]. split=> //=. by split; apply: lteb_false0.
Qed.

(** Accepted configurations, described without the checks. *)
Lemma nw_init_fixed : forall d (mean : 'cV[R]_d) vs df scale, 
  (exists h, nw_init (NWFixed mean vs df scale) = Ok h) <-> [/\ 0 < vs, d%:R - 1 < df & spd scale].
Proof.
  move=> d mean vs df scale; split.
  - case=> h H. have [H1 [H2 [H3 _]]] := nw_init_valid H. move: H => /=.
    case E1: (lteb vs 0) => //. case E2: (lteb df _) => //. rewrite /nw_finish.
    case E: (inverse_spd scale) => [B|m||] //= _. move/inverse_spd_ok: E => [HS _].
    by split=> //; exact: lteb_false0.
  - case=> H1 H2 H3. eexists; rewrite /=.
    have -> : lteb vs 0 = false by apply/negbTE/negP => /lteb_true0; rewrite leNgt H1.
    have -> : lteb df (d%:R - 1) = false by apply/negbTE/negP => /lteb_true0; rewrite leNgt H2.
    rewrite /nw_finish. have -> : inverse_spd scale = Ok (invmx scale) by apply/inverse_spd_ok. by [].
Qed.
Lemma mnig_init_fixed : forall d (mean : 'cV[R]_d) vs a b, (0 < d)%N ->
  (exists h, mnig_init (MNIGFixed mean vs a b) = Ok h) <-> [/\ spd vs, 0 < a & 0 < b].
Proof.
  move=> d mean vs a b Hd; split.
  - case=> h /=. case E0: (inverse_spd vs) => [B|m||] //=. case E1: (check_spd vs) => [[]|m||] //=.
    case E2: (lteb a 0) => //. case E3: (lteb b 0) => //= _.
    move/check_spd_ok: E1 => [_ HS]. by split=> //; exact: lteb_false0.
  - case=> H1 H2 H3. eexists; rewrite /=.
    have -> : inverse_spd vs = Ok (invmx vs) by apply/inverse_spd_ok. rewrite /=.
    have -> : check_spd vs = Ok tt by apply/check_spd_ok. rewrite /=.
    have -> : lteb a 0 = false by apply/negbTE/negP => /lteb_true0; rewrite leNgt H2.
    have -> : lteb b 0 = false by apply/negbTE/negP => /lteb_true0; rewrite leNgt H3. by [].
Qed.

(** ** Hyperprior updates *)

Lemma foldl_addr : forall (V : zmodType) (A : Type) (f : A -> V) l, foldl (fun a s => a + f s) 0 l = \sum_(s <- l) f s.
Proof.
  move=> V A f l. have K : forall l a, foldl (fun a s => a + f s) a l = a + \sum_(s <- l) f s.
  { by elim=> [|o l' IH] a /=; rewrite ?big_nil ?addr0 // big_cons IH addrA. }
  by rewrite K add0r.
Qed.
Definition states_spd d (states : seq (mls d)) : Prop := forall s, s \in [seq ml_prec x | x <- states] -> spd s.
Lemma states_spd_cons : forall d (s : mls d) l, states_spd (s :: l) <-> spd (ml_prec s) /\ states_spd l.
Proof.
  move=> d s l; split.
  - move=> H; split; first by apply: H; rewrite inE eqxx.
    by move=> x Hx; apply: H; rewrite inE Hx orbT.
  - case=> H1 H2 x; rewrite inE => /orP [/eqP -> //|]; exact: H2.
Qed.
Lemma sum_prec_psd : forall d (states : seq (mls d)), states_spd states -> psd (\sum_(s <- states) ml_prec s).
Proof.
  move=> d; elim=> [|s l IH]; first by rewrite big_nil => _; exact: psd0.
  move=> /states_spd_cons [H1 H2]; rewrite big_cons; apply: psd_add; [exact: spd_psd | exact: IH].
Qed.

(** Log density of the cluster means given the prior mean. *)
Lemma states_meanE : forall d (states : seq (mls d)) vs, 0 < vs -> states_spd states ->
  exists C : R, forall m, \sum_(s <- states) stan_mvn_prec_lpdf (ml_mean s) m (vs *: ml_prec s) =
    C - hf * (quad (vs *: \sum_(s <- states) ml_prec s) m - 2%:R * dot m (vs *: \sum_(s <- states) (ml_prec s *m ml_mean s))).
Proof.
  move=> d; elim=> [|s l IH] vs Hv Hs.
  - exists 0 => m. rewrite !big_nil !scaler0 /quad mul0mx !dot0r. ring.
  - case/states_spd_cons: Hs => H1 /(IH vs Hv) [C HC].
    exists (C - (d%:R * hf * ln (2%:R * PI)) + hf * ln (\det (vs *: ml_prec s)) - hf * (vs * quad (ml_prec s) (ml_mean s))) => m.
    have HS : (ml_prec s)^T = ml_prec s by case: H1.
    rewrite !big_cons HC /stan_mvn_prec_lpdf !quadZl quadBC quadB // !scalerDr !dotDr !dotZr quadDl.
    set a1 := quad _ _. set a2 := dot _ _. set a3 := quad _ _. set a4 := dot _ _. set a5 := quad _ _.
    set a6 := ln (\det _). set a7 := ln _. rewrite /hf. field. by [].
Qed.
Lemma nw_mean_exact : forall d (mu00 : 'cV[R]_d) sigma00 vs (states : seq (mls d)), spd sigma00 -> 0 < vs ->
  states_spd states ->
  let u := nw_mean_update mu00 (invmx sigma00) vs states in
  spd u.2 /\ exists C : R, forall m,
    stan_mvn_lpdf m mu00 sigma00 + \sum_(s <- states) stan_mvn_prec_lpdf (ml_mean s) m (vs *: ml_prec s) =
    C + stan_mvn_prec_lpdf m u.1 u.2.
Proof.
  move=> d mu00 sigma00 vs states H0 Hv Hs u. have [C HC] := states_meanE Hv Hs.
  rewrite /u /nw_mean_update !foldl_addr /=. have HI := spd_inv H0. have HIs : (invmx sigma00)^T = invmx sigma00 by case: HI.
  set P := vs *: _ + _. set b := vs *: _ + _.
  have HP : spd P. { rewrite /P addrC; apply: spd_add => //. apply: psd_scale; [exact: ltW | exact: sum_prec_psd]. }
  have HPs : P^T = P by case: HP.
  split=> //. exists (C - hf * ln (\det sigma00) - hf * quad (invmx sigma00) mu00 - hf * ln (\det P)
                      + hf * quad P (llt_solve P b)) => m.
  rewrite HC llt_solveE // /stan_mvn_lpdf /stan_mvn_prec_lpdf !quadB // (mulKVmx (spd_unit HP)).
  have -> : quad P m = quad (vs *: \sum_(s <- states) ml_prec s) m + quad (invmx sigma00) m by rewrite /P quadDl.
  have -> : dot m b = dot m (vs *: \sum_(s <- states) ml_prec s *m ml_mean s) + dot m (invmx sigma00 *m mu00) by rewrite /b dotDr.
  set a1 := quad _ _. set a2 := dot _ _. set a3 := quad _ _. set a4 := quad _ _. set a5 := dot _ _. set a6 := quad P _.
  set a7 := ln (\det _). set a8 := ln (\det _). set a9 := ln _. rewrite /hf. field. by [].
Qed.
Lemma ngiw_mean_same : forall d (mu00 : 'cV[R]_d) sigma00 a b nu tau (h : nw d) states, spd sigma00 -> 0 < nw_vs h ->
  states_spd states ->
  let q := ngiw_update mu00 (invmx sigma00) a b nu tau h states in
  nw_mean_update mu00 (invmx sigma00) (nw_vs h) states = (gi_mu q, gi_prec q).
Proof.
  move=> d mu00 sigma00 a b nu tau h states H0 Hv Hs q.
  have [HP _] := nw_mean_exact mu00 H0 Hv Hs. move: HP; rewrite /nw_mean_update /= => HP.
  by rewrite llt_solveE.
Qed.

(** The variance scaling. *)
Definition ngiw_vs_target (lg : R -> R) d (a b : R) (h : nw d) (states : seq (mls d)) (v : R) : R :=
  gamma_lpdf lg v a b + \sum_(s <- states) stan_mvn_prec_lpdf (ml_mean s) (nw_mean h) (v *: ml_prec s).
Lemma ngiw_vs_cond : forall lg d (mu00 : 'cV[R]_d) si a b nu tau (h : nw d) states, states_spd states ->
  let q := ngiw_update mu00 si a b nu tau h states in
  exists C : R, forall v, 0 < v ->
    ngiw_vs_target lg a b h states v = C + (a + (d * size states)%:R / 2%:R - 1) * ln v - gi_beta q * v.
Proof.
  move=> lg d mu00 si a b nu tau h states Hs q.
  have [C HC] : exists C : R, forall v, 0 < v -> \sum_(s <- states) stan_mvn_prec_lpdf (ml_mean s) (nw_mean h) (v *: ml_prec s) =
    C + (d * size states)%:R / 2%:R * ln v - hf * (\sum_(s <- states) quad (ml_prec s) (nw_mean h - ml_mean s)) * v.
  { elim: states Hs {q} => [|s l IH] Hs; first by exists 0 => v Hv; rewrite !big_nil muln0; ring.
    case/states_spd_cons: Hs => H1 /IH [C HC].
    exists (C - (d%:R * hf * ln (2%:R * PI)) + hf * ln (\det (ml_prec s))) => v Hv.
    rewrite !big_cons HC // /stan_mvn_prec_lpdf (ln_det_scale Hv H1) quadZl quadBC /= mulnS natrD.
    set a1 := quad _ _. set a2 := \sum_(s <- l) _. set a3 := ln (\det _). set a4 := ln _. set a5 := ln v. rewrite /hf. field. by []. }
  exists (a * ln b - lg a + C) => v Hv. rewrite /ngiw_vs_target HC // /gi_beta /= foldl_addr.
  rewrite /gamma_lpdf -?RmulE -?RaddE -?RsubE -?RoppE -?R1E.
  set a1 := \sum_(s <- states) _. set a2 := ln v. set a3 := ln b. set a4 := lg a. rewrite /hf. field. by [].
Qed.
Lemma vs_aux : forall C D a x y c l u w : R,
  C + (a + x - 1) * 0 - u = D + (c + (a + y - 1) * 0 - u) ->
  C + (a + x - 1) * l - w = D + (c + (a + y - 1) * l - w) -> (x - y) * l = 0.
Proof. move=> C D a x y c l u w. rewrite ?RmulE ?RaddE ?RoppE ?R0E ?R1E. lra. Qed.
Lemma ngiw_vs_iff : forall lg d (mu00 : 'cV[R]_d) si a b nu tau (h : nw d) states, states_spd states ->
  let q := ngiw_update mu00 si a b nu tau h states in
  (exists C : R, forall v, 0 < v -> ngiw_vs_target lg a b h states v = C + gamma_lpdf lg v (gi_alpha q) (gi_beta q))
  <-> (d = 1%N \/ size states = 0%N).
Proof.
  move=> lg d mu00 si a b nu tau h states Hs q. have [C0 HC0] := ngiw_vs_cond lg mu00 si a b nu tau h Hs.
  rewrite -/q in HC0.
  have EG : forall v, gamma_lpdf lg v (gi_alpha q) (gi_beta q) =
     gi_alpha q * ln (gi_beta q) - lg (gi_alpha q) + (a + hf * (size states)%:R - 1) * ln v - gi_beta q * v by [].
  set n := size states in HC0 EG *. split.
  - case=> C HC. have E1 := HC 1 ltr01. have E2 := HC _ two_gt0. rewrite HC0 ?ltr01 // EG ln1 in E1.
    rewrite HC0 ?two_gt0 // EG in E2.
    have := vs_aux E1 E2 => /eqP. rewrite mulf_eq0 => /orP [|/eqP Hl]; last first.
    { have : 0 < ln (2%:R : R).
      { rewrite -ln1. apply/RltE. apply: ln_increasing; apply/RltE; [exact: ltr01 | by rewrite ltr1n]. }
      by rewrite Hl ltxx. }
    rewrite subr_eq0 /hf mulrC => /eqP /(mulfI _) H.
    have : (d * n)%:R = n%:R :> R by apply: H; rewrite invr_eq0 pnatr_eq0.
    move/eqP; rewrite eqr_nat => /eqP. case: n {EG HC0 HC H E1 E2} => [|n]; first by right.
    move=> E; left. move: E; clear; nia.
  - move=> H. have E : (d * n)%:R / 2%:R = hf * n%:R :> R.
    { case: H => [->|->]; first by rewrite mul1n mulrC. by rewrite muln0 mul0r mulr0. }
    exists (C0 - (gi_alpha q * ln (gi_beta q) - lg (gi_alpha q))) => v Hv. rewrite HC0 // EG E.
    set a1 := ln v. set a2 := ln _. set a3 := lg _. set a4 := gi_alpha q. set a5 := gi_beta q. ring.
Qed.

(** The scale matrix. *)
Lemma ngiw_scale_exact : forall lg d (mu00 : 'cV[R]_d) si a b nu tau (h : nw d) states,
  let q := ngiw_update mu00 si a b nu tau h states in
  exists C : R, forall S0, spd S0 ->
    stan_inv_wishart_lpdf lg S0 nu tau + \sum_(s <- states) stan_wishart_lpdf lg (ml_prec s) (nw_df h) S0 =
    C + stan_inv_wishart_lpdf lg S0 (gi_nu q) (gi_tau q).
Proof.
  move=> lg d mu00 si a b nu tau h states q.
  have [C HC] : exists C : R, forall S0, spd S0 -> \sum_(s <- states) stan_wishart_lpdf lg (ml_prec s) (nw_df h) S0 =
    C - (size states)%:R * nw_df h * hf * ln (\det S0) - hf * \tr ((\sum_(s <- states) ml_prec s) *m invmx S0).
  { elim: states {q} => [|s l [C HC]]; first by exists 0 => S0 _; rewrite !big_nil mul0mx mxtrace0 !mul0r mulr0 !subr0.
    exists (C - (d%:R * hf * nw_df h * ln 2%:R) - lmgamma lg d (nw_df h * hf)
            + (nw_df h - d%:R - 1) * hf * ln (\det (ml_prec s))) => S0 HS.
    rewrite !big_cons HC // /stan_wishart_lpdf mulmxDl mxtraceD [\tr (invmx _ *m _)]mxtrace_mulC /= -[(size l).+1]addn1 natrD.
    set a1 := \tr _. set a2 := \tr _. set a3 := ln (\det _). set a4 := ln (\det _). set a5 := ln _. set a6 := lmgamma _ _ _. ring. }
  exists (nu * hf * ln (\det tau) - d%:R * hf * nu * ln 2%:R - lmgamma lg d (nu * hf) + C
     - (gi_nu q * hf * ln (\det (gi_tau q)) - d%:R * hf * gi_nu q * ln 2%:R - lmgamma lg d (gi_nu q * hf))) => S0 HS.
  rewrite HC // /stan_inv_wishart_lpdf.
  have -> : \tr (gi_tau q *m invmx S0) = \tr ((\sum_(s <- states) ml_prec s) *m invmx S0) + \tr (tau *m invmx S0).
  { by rewrite /gi_tau /= foldl_addr mulmxDl mxtraceD. }
  have -> : (gi_nu q + d%:R + 1) = nu + (size states)%:R * nw_df h + d%:R + 1 by [].
  set a1 := \tr _. set a2 := \tr _. set a3 := ln (\det S0). set a4 := ln (\det _). set a5 := ln _. set a6 := lmgamma _ _ _.
  set a7 := gi_nu q. set a8 := lmgamma _ _ _. set a9 := ln (\det (gi_tau q)). ring.
Qed.

(** Validity is kept. *)
Lemma nw_update_valid : forall (G : gen) (M : mgen G) d (p : nw_prior d) (h h' : nw d) states r r',
  (forall a b s, 0 < (g_gamma G a b s).1) -> nw_valid h ->
  nw_update_hypers M p h states r = Ok (h', r') -> nw_valid h'.
Proof.
  move=> G M d p h h' states r r' Hg HV. case: (HV) => Hk [Hd [HS [HI HC]]].
  case: p => [mean vs df scale|mu00 sigma00 vs df scale|mu00 sigma00 a b nu00 tau00 nu0|] //=.
  - by case=> <-.
  - case: (inverse_spd sigma00) => [inv|m||] //=. case: (g_mvn_prec _ _ _) => mean r1 [<- _]. by [].
  - case: (inverse_spd sigma00) => [inv|m||] //=. case: (inverse_spd _) => [sg|m||] //=.
    case: (g_mvn _ _ _) => mean r1. have := Hg (a + hf * (size states)%:R).
    match goal with |- context [g_gamma G ?u ?w r1] => move/(_ w r1); case: (g_gamma G u w r1) => vs r2 end. move=> /= Hvs.
    case: (g_inv_wishart _ _ _) => sc r3. case E: (inverse_spd sc) => [B|m||] //= -[<- _].
    by move/inverse_spd_ok: E => [HSc ->].
Qed.
