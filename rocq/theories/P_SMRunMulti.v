(** * C120: complete programs of the split-and-merge algorithm on multivariate and regression data. *)
From Coq Require Import ZArith Reals Lra Lia.
From Coq Require List.
From mathcomp Require Import all_ssreflect all_algebra.
From mathcomp.algebra_tactics Require Import ring.
From Verif Require Import Base Hier Algos SplitMerge Run Spec MargFacts NealFacts MargMore InitFacts MargProps SMFacts SMProps ValidRun CovInst CovRun CovCond SMInst SMRun.
From Verif Require Import XReal Mixings Univ RealInst RealFacts RealField MatLib Multi MultiFacts NnwFacts LinFacts NwHyper MultiInst MultiReal.
From Verif Require Import MDistFacts MultiInt Eval EvalFacts EvalInt UnivInst UnivRun P_Multi P_MultiAlg P_MultiInt MultiRun P_ValidMulti P_SMRun.
From Verif Require P_Valid GamFacts.
Set Implicit Arguments.
Unset Strict Implicit.
Unset Printing Implicit Defensive.
Import Order.TTheory GRing.Theory Num.Theory.
Local Open Scope ring_scope.

Lemma nnw_covs0 : forall G (M : mgen G) d (p : nw_prior d) data, covs0 (nnw_iface lgam M p) data = List.repeat tt (length data).
Proof. move=> G M d p. by elim=> //= y ys <-. Qed.
Lemma nnw_no_cov : forall G (M : mgen G) d (p : nw_prior d) data, no_cov_ok (nnw_iface lgam M p) data.
Proof. by []. Qed.
Lemma nnw_sm_valid : forall G (M : mgen G) d (p : nw_prior d) data m, mixing_valid m -> @sm_masses_ok (nnw_iface lgam M p) data m.
Proof.
  move=> G M d p data m V. split; first exact: (mixing_masses m (length data) V).
  split=> [k c _ Hc|]; first exact: (proj1 (mixing_sm_masses m k 2 V) c Hc). exact: (proj2 (mixing_sm_masses m (length data) 2 V)).
Qed.

(** ** Multivariate normal likelihood, normal-Wishart prior *)
Theorem C120_normal_wishart : forall G (M : mgen G) d (p : nw_prior d) mp data k pos st n_restr n_mh n_full maxiter burnin r s out,
  gen_ok G -> gen_pos G -> mgen_pos M -> (0 < d)%N -> (2 <= length data)%coq_nat -> P_Valid.fits k pos (length data) ->
  sm_run (nnw_iface lgam M p) (nw_init p) (mixing_start mp) data (List.repeat tt (length data)) k pos st n_restr n_mh n_full maxiter burnin r = Ok (s, out) ->
  length out = (maxiter - burnin)%coq_nat /\ forall snap, List.In snap out ->
    saved_in_space (@written d) (@nw_valid d) (length data) (s_alloc snap) (s_clusters snap) (s_hyp snap) (s_mix snap) /\
    density_over (@is_space_int d) (fun s y => Fin (mnorm_lpdf s y)) (fun y => Fin (nnw_marg_lpdf lgam (nw_proto (s_hyp snap)) y))
      (length data) (s_clusters snap) (s_mix snap).
Proof.
  move=> G M d p mp data k pos st n_restr n_mh n_full maxiter burnin r s out HG HP HM D Hn [Hk Hpos] R.
  case E: (nw_init p) R => [hy|msg||] R; try by move: R; rewrite /sm_run /cov_start /run /=; case: (mixing_start mp).
  have HC := @nnw_closed lgam G M d p data HP HM (nw_prior_checked E) D.
  have [L K] := @sm_saved_ (nnw_iface lgam M p) (nnw_laws lgam M p HG) data (List.repeat tt (length data)) (@nnw_covs0 G M d p data) (@nnw_no_cov G M d p data) erefl erefl Hn _ _ _ HC (@nnw_sm_valid G M d p data)
    (Ok hy) (mixing_start mp) k pos st n_restr n_mh n_full maxiter burnin r s out ltac:(move=> h' [<-]; exact: nw_init_valid E) (fun m Em => mixing_start_valid mp m Em) Hk Hpos R.
  split=> // snap Hin. have V := K snap Hin. split; first by case: V => C [H [M' [A _]]].
  have Hq : forall (h : nw d) q, nw_valid h -> written (nw_sample M (nw_proto h) q).1 by (intros h q H; exact (@cl_sample _ _ _ _ _ _ HC h q H)).
  have Hx : forall x, Neal2 = Neal8 x -> (1 <= x)%coq_nat by [].
  have H1 : (1 <= length data)%coq_nat by lia.
  refine (@saved_evaluates (nnw_iface lgam M p) _ _ _ (@written d) (fun h y => Fin (nnw_marg_lpdf lgam (nw_proto h) y)) data (@nw_valid d) mixing_valid Neal2 snap id (fun _ H => H)
    _ (fun _ _ => FamNorm d) Hq H1 Hx V) => h H. exact: ConjNnw.
Qed.
Print Assumptions C120_normal_wishart.

Theorem C120_normal_wishart_ends : forall G (M : mgen G) d (p : nw_prior d) h mp data k pos st n_restr n_mh n_full maxiter burnin r,
  gen_ok G -> nw_init p = Ok h -> prior_fixed mp -> (2 <= length data)%coq_nat -> P_Valid.fits k pos (length data) ->
  exists s out, sm_run (nnw_iface lgam M p) (nw_init p) (mixing_start mp) data (List.repeat tt (length data)) k pos st n_restr n_mh n_full maxiter burnin r = Ok (s, out).
Proof.
  move=> G M d p h mp data k pos st n_restr n_mh n_full maxiter burnin r HG E Hf Hn [Hk Hpos]. have [m [Em Hm]] := prior_fixed_start mp Hf. rewrite E Em.
  exact: (@sm_complete_ (nnw_iface lgam M p) (nnw_laws lgam M p HG) data (List.repeat tt (length data)) (@nnw_covs0 G M d p data) (@nnw_no_cov G M d p data) erefl erefl Hn
    h m k pos st mixing_fixed (fun x Hx => @nnw_sm_valid G M d p data x (proj1 Hx)) (fun x cards al q Hx => mixing_fixed_update G x cards al q Hx) Hm Hk Hpos).
Qed.
Print Assumptions C120_normal_wishart_ends.

Theorem C120_normal_wishart_never_undefined : forall G (M : mgen G) d (p : nw_prior d) h mp m data k pos st n_restr n_mh n_full maxiter burnin r,
  gen_ok G -> gen_pos G -> nw_init p = Ok h -> mixing_start mp = Ok m -> (2 <= length data)%coq_nat -> P_Valid.fits k pos (length data) ->
  ends (sm_run (nnw_iface lgam M p) (nw_init p) (mixing_start mp) data (List.repeat tt (length data)) k pos st n_restr n_mh n_full maxiter burnin r).
Proof.
  move=> G M d p h mp m data k pos st n_restr n_mh n_full maxiter burnin r HG HP E Em Hn [Hk Hpos]. rewrite E Em.
  exact: (@sm_ends_ (nnw_iface lgam M p) (nnw_laws lgam M p HG) data (List.repeat tt (length data)) (@nnw_covs0 G M d p data) (@nnw_no_cov G M d p data) erefl erefl Hn
    h m k pos st mixing_valid (fun x Hx => @nnw_sm_valid G M d p data x Hx) (fun x cards al q _ => mixing_update_ends G x cards al q)
    (fun x cards al q x' q' Hv E' => mixing_update_valid G x cards al q x' q' HP Hv E') (mixing_start_valid mp m Em) Hk Hpos).
Qed.
Print Assumptions C120_normal_wishart_never_undefined.

(** ** Linear regression: the moves never pass the covariates, so a program which
    makes at least one move has undefined behaviour whatever covariates were given *)
Theorem C120_regression_undefined : forall G (M : mgen G) d (p : mnig_prior d) h mp m data xs k pos st n_restr n_mh n_full maxiter burnin r,
  gen_ok G -> mnig_init p = Ok h -> mixing_start mp = Ok m -> length xs = length data -> (2 <= length data)%coq_nat -> P_Valid.fits k pos (length data) ->
  (1 <= n_mh + n_full)%coq_nat -> (1 <= maxiter)%coq_nat ->
  sm_run (lin_iface lgam M d) (mnig_init p) (mixing_start mp) data (List.map Some xs) k pos st n_restr n_mh n_full maxiter burnin r = UB.
Proof.
  move=> G M d p h mp m data xs k pos st n_restr n_mh n_full maxiter burnin r HG E Em EL Hn [Hk Hpos] Hh Hx. rewrite E Em.
  have Vm := mixing_start_valid mp m Em.
  exact: (@covariates_undefined (lin_iface lgam M d) (@lin_laws lgam G M d HG) data (List.map Some xs) (@lin_rows lgam G M d data xs EL) erefl erefl h m k pos st
    (mixing_masses m (length data) Vm) Hk Hpos n_restr n_mh n_full maxiter burnin r (fun _ _ => erefl) Hn Hh Hx).
Qed.
Print Assumptions C120_regression_undefined.

(** Non-vacuity: three bivariate observations; three observations with covariates. *)
Example C120_example : exists s out,
  sm_run (nnw_iface lgam mM mpm) (nw_init mpm) (mixing_start (PriDP (DPFixed 1))) mys (List.repeat tt 3) 2 (fun i => PeanoNat.Nat.modulo i 2)
    (init_state wI mh) 2 2 1 4 1 0%N = Ok (s, out) /\ length out = 3%N /\ forall snap, List.In snap out ->
    saved_in_space (@written 2) (@nw_valid 2) 3 (s_alloc snap) (s_clusters snap) (s_hyp snap) (s_mix snap).
Proof.
  have [h E] := mpm_init.
  have Hf : prior_fixed (PriDP (DPFixed 1)) by rewrite /=; exact: Rlt_0_1.
  have H2 : (2 <= length mys)%coq_nat by rewrite /=; lia.
  have [s [out R]] := @C120_normal_wishart_ends mG mM 2 mpm h (PriDP (DPFixed 1)) mys 2 (fun i => PeanoNat.Nat.modulo i 2) (init_state wI mh) 2 2 1 4 1 0%N mG_ok E Hf H2 two_fit.
  exists s, out. split; first exact: R.
  have [L V] := @C120_normal_wishart mG mM 2 mpm (PriDP (DPFixed 1)) mys 2 _ _ 2 2 1 4 1 0%N s out mG_ok mG_pos mM_pos isT H2 two_fit R. split; first exact: L.
  move=> snap Hin. exact: (proj1 (V snap Hin)).
Qed.
Example C120_example_regression :
  sm_run (lin_iface lgam mM 2) (mnig_init (MNIGFixed (const_mx 1) mS 2%:R 3%:R)) (mixing_start (PriPY (PYFixed 1%coqR (/ 2)%coqR))) lyy (List.map Some lxs) 2 (fun i => PeanoNat.Nat.modulo i 2)
    (init_state lI lh) 5 1 1 10 3 0%N = UB.
Proof.
  have [h E] := ex_C76_mnig.
  have Hf : prior_fixed (PriPY (PYFixed 1%coqR (/ 2)%coqR)) by rewrite /=; lra.
  have [m [Em _]] := prior_fixed_start _ Hf.
  have H2 : (2 <= length lyy)%coq_nat by rewrite /=; lia.
  apply: (@C120_regression_undefined mG mM 2 _ h _ m lyy lxs 2 _ _ 5 1 1 10 3 0%N mG_ok E Em erefl H2 two_fit); lia.
Qed.
