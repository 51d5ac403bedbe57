(** * C123: convergence of Neal3's programs on multivariate data and regressions. *)
From Coq Require Import ZArith Reals Lra Lia.
From Coq Require List.
From mathcomp Require Import all_ssreflect all_algebra.
From mathcomp.algebra_tactics Require Import ring.
From Verif Require Import Base Hier Algos Run Spec MargFacts NealFacts MargMore InitFacts MargProps CovInst.
From Verif Require Import PartSpec XReal Mixings MixFacts GibbsSpec GibbsComb GibbsPost GibbsFacts GibbsSweep ConvSpec GibbsConv.
From Verif Require Import Univ RealInst RealFacts RealField MatLib Multi MultiFacts NnwFacts LinFacts NwHyper MultiInst MultiReal.
From Verif Require Import GammaInt UnivInt UnivInst UnivRun MultiRun P_Multi P_MultiAlg P_Conv ConvProg.
From Verif Require P_Valid P_ValidMulti.
Set Implicit Arguments.
Unset Strict Implicit.
Unset Printing Implicit Defensive.
Import Order.TTheory GRing.Theory Num.Theory.
Local Open Scope ring_scope.

(** Geometric convergence of the law [P n] over clusterings of [k] observations to [post]. *)
Definition tends (k : nat) (P : nat -> list nat -> R) (post : list nat -> R) : Prop :=
  (exists e : R, (0 < e)%coqR /\ (e <= 1)%coqR /\
     forall n, (sumR (List.map (fun u => Rabs (P n u - post u)) (clusterings k)) <= 2 * Rpow_def.pow (1 - e) n)%coqR) /\
  forall u, List.In u (clusterings k) -> Un_cv (fun n => P n u) (post u).

Theorem C123_normal_wishart : forall G (M : mgen G) d mean vs df scale (hy : nw d) mp mx t e (data : seq 'cV[R]_d) k pos st r,
  let p := NWFixed mean vs df scale in
  gen_ok G -> (0 < d)%N -> nw_init p = Ok hy -> mixing_start mp = Ok mx -> partition_law mp = Some (t, e) ->
  (2 <= length data)%coq_nat -> P_Valid.fits k pos (length data) ->
  exists (ml : list nat -> R) a0 r0,
    (forall ids mu P h', spd P ->
       nw_set_proto (nnw_post hy (Z.of_nat (length ids)) (mstats_of (pickv data ids))) = Ok h' ->
       exp (nw_lpdf lgam hy mu P) * prodR (List.map (fun j => exp (stan_mvn_prec_lpdf (List.nth j data 0) mu P)) ids) =
       ml ids * exp (nw_lpdf lgam h' mu P)) /\
    cov_start (nnw_iface lgam M p) (nw_init p) (mixing_start mp) data (List.repeat tt (length data)) k pos st true r = Ok (a0, r0) /\
    forall pick0 rest,
      tends (length data) (fun n => chain_prob (nnw_iface lgam M p) xexp data (List.repeat tt (length data)) pick0 rest n a0)
        (normalised (length data) (posterior (fun al => ewens_pitman t e (sizes_of al)) ml)).
Proof.
  move=> G M d mean vs df scale hy mp mx t e data k pos st r p HG D Eh Em El Hn HF.
  have [Hs [He [Ht Hu]]] := @fixed_strength mp mx t e El Em. have HV : nw_valid hy by exact: nw_init_valid Eh.
  rewrite Eh Em. exists (fun ids => exp (nw_log_marg lgam hy (pickv data ids))).
  have HR : rows_ok (nnw_iface lgam M p) data (at_ (List.repeat tt (length data))) by exact: (@unit_rows (nnw_iface lgam M p) data tt).
  have [] := @program_chain (nnw_iface lgam M p) (nnw_laws lgam M p HG) data (List.repeat tt (length data)) xexp t e (fun ids => exp (nw_log_marg lgam hy (pickv data ids))) hy mx k pos st r
    HR (List.repeat_length _ _) (fun x y => xexp_add x y) erefl erefl Hn He Ht
    (real_masses lgam G (NIGFixed 0 1 1 1) mx (length data) t e Hs He Ht) (@nnw_marginal lgam G M d p data hy D HV) _ _ HF.
  - by move=> sts q; exists q.
  - by move=> cards al q; exists q; exact: Hu.
  - move=> a0 [r0 [E HC]]. exists a0, r0. split; [|split=> //].
    + move=> ids mu P h' HP. rewrite (cardZ_pick (fun j => List.nth j data 0)) -/(pickv data ids) => E'.
      rewrite -exp_sum -!expD -(nnw_bayes lgam mu HV HP E'). by rewrite /pickv big_map.
    + move=> pick0 rest. have [[e0 [[E1 E2] HC1]] HC2] := HC pick0 rest. split=> //. by exists e0.
Qed.
Print Assumptions C123_normal_wishart.

Theorem C123_regression : forall G (M : mgen G) d (p : mnig_prior d) hy mp mx t e (data : seq R) (xs : seq 'cV[R]_d) k pos st r,
  gen_ok G -> length xs = length data -> mnig_init p = Ok hy -> mixing_start mp = Ok mx -> partition_law mp = Some (t, e) ->
  (2 <= length data)%coq_nat -> P_Valid.fits k pos (length data) ->
  exists (ml : list nat -> R) a0 r0,
    (forall ids th, 0 < lr_var th ->
       exp (mnig_lpdf lgam hy th) * prodR (List.map (fun j => exp (lin_lpdf th (List.nth j data 0) (List.nth j xs 0))) ids) =
       ml ids * exp (mnig_lpdf lgam (mnig_post hy (Z.of_nat (length ids)) (lin_stats_of (pickx data xs ids))) th)) /\
    cov_start (lin_iface lgam M d) (mnig_init p) (mixing_start mp) data (List.map Some xs) k pos st true r = Ok (a0, r0) /\
    forall pick0 rest,
      tends (length data) (fun n => chain_prob (lin_iface lgam M d) xexp data (List.map Some xs) pick0 rest n a0)
        (normalised (length data) (posterior (fun al => ewens_pitman t e (sizes_of al)) ml)).
Proof.
  move=> G M d p hy mp mx t e data xs k pos st r HG EL Eh Em El Hn HF.
  have [Hs [He [Ht Hu]]] := @fixed_strength mp mx t e El Em. have HV : mnig_valid hy by exact: mnig_init_valid Eh.
  rewrite Eh Em. exists (fun ids => exp (lin_log_marg lgam hy (pickx data xs ids))).
  have HL : length (List.map Some xs) = length data by rewrite List.map_length.
  have [] := @program_chain (lin_iface lgam M d) (@lin_laws lgam G M d HG) data (List.map Some xs) xexp t e (fun ids => exp (lin_log_marg lgam hy (pickx data xs ids))) hy mx k pos st r
    (@lin_rows lgam G M d data xs EL) HL (fun x y => xexp_add x y) erefl erefl Hn He Ht
    (real_masses lgam G (NIGFixed 0 1 1 1) mx (length data) t e Hs He Ht) (@lin_marginal lgam G M d data xs hy EL HV) _ _ HF.
  - by move=> sts q; exists q.
  - by move=> cards al q; exists q; exact: Hu.
  - move=> a0 [r0 [E HC]]. exists a0, r0. split; [|split=> //].
    + move=> ids th Hth. rewrite (cardZ_pick (fun j => (List.nth j data 0, List.nth j xs 0))) -/(pickx data xs ids).
      rewrite -exp_sum -!expD -(lin_bayes lgam (pickx data xs ids) HV Hth). by rewrite /pickx big_map.
    + move=> pick0 rest. have [[e0 [[E1 E2] HC1]] HC2] := HC pick0 rest. split=> //. by exists e0.
Qed.
Print Assumptions C123_regression.

(** Three vectors of dimension two, and three responses with two covariates. *)
Example C123_example_wishart : forall pick0 rest, exists (ml : list nat -> R) a0 r0,
  cov_start (nnw_iface lgam mM mpr) (nw_init mpr) (mixing_start (PriPY (PYFixed 1%coqR (/ 2)%coqR))) mys (List.repeat tt 3) 2 (fun i => PeanoNat.Nat.modulo i 2)
    (init_state wI mh) true 0%N = Ok (a0, r0) /\
  tends 3 (fun n => chain_prob (nnw_iface lgam mM mpr) xexp mys (List.repeat tt 3) pick0 rest n a0)
    (normalised 3 (posterior (fun al => ewens_pitman 1%coqR (/ 2)%coqR (sizes_of al)) ml)).
Proof.
  move=> pick0 rest. have [h [E _]] := ex_C76.
  have Hf : prior_fixed (PriPY (PYFixed 1%coqR (/ 2)%coqR)) by rewrite /=; lra.
  have [m [Em _]] := prior_fixed_start _ Hf.
  have [ml [a0 [r0 [_ [R K]]]]] := @C123_normal_wishart mG mM 2 _ _ _ _ h _ m _ _ mys 2 _ (init_state wI mh) 0%N mG_ok isT E Em erefl (le_S 2 2 (le_n 2)) P_ValidMulti.two_fit.
  exists ml, a0, r0. split; [exact: R|exact: K].
Qed.
Example C123_example_regression : forall pick0 rest, exists (ml : list nat -> R) a0 r0,
  cov_start (lin_iface lgam mM 2) (mnig_init (MNIGFixed (const_mx 1) mS 2%:R 3%:R)) (mixing_start (PriDP (DPFixed 2%coqR))) lyy (List.map Some lxs) 2 (fun i => PeanoNat.Nat.modulo i 2)
    (init_state lI lh) true 0%N = Ok (a0, r0) /\
  tends 3 (fun n => chain_prob (lin_iface lgam mM 2) xexp lyy (List.map Some lxs) pick0 rest n a0)
    (normalised 3 (posterior (fun al => ewens_pitman 1%coqR 0%coqR (sizes_of al)) ml)).
Proof.
  move=> pick0 rest. have [h E] := ex_C76_mnig.
  have Hf : prior_fixed (PriDP (DPFixed 2%coqR)) by rewrite /=; lra.
  have [m [Em _]] := prior_fixed_start _ Hf.
  have [ml [a0 [r0 [_ [R K]]]]] := @C123_regression mG mM 2 _ h _ m _ _ lyy lxs 2 _ (init_state lI lh) 0%N mG_ok erefl E Em erefl (le_S 2 2 (le_n 2)) P_ValidMulti.two_fit.
  exists ml, a0, r0. split; [exact: R|exact: K].
Qed.
