(** * C118: programs of the blocked Gibbs algorithm on multivariate and regression data. *)
From Coq Require Import ZArith Reals Lra Lia.
From Coq Require List.
From mathcomp Require Import all_ssreflect all_algebra.
From mathcomp.algebra_tactics Require Import ring.
From Verif Require Import Base Hier Algos Run Spec MargFacts NealFacts MargMore InitFacts ValidRun CovInst CovRun CovCond.
From Verif Require Import XReal Univ RealInst RealFacts RealField MatLib Multi MultiFacts NnwFacts LinFacts NwHyper MultiInst MultiReal.
From Verif Require Import MDistFacts MultiInt Eval EvalFacts EvalInt UnivInst UnivRun P_Multi P_MultiAlg P_MultiInt MultiRun P_ValidMulti.
From Verif Require Stick Cond CondInst CondRun CondStick P_Blocked P_Valid.
Import CondInst CondRun CondStick.
Set Implicit Arguments.
Unset Strict Implicit.
Unset Printing Implicit Defensive.
Import Order.TTheory GRing.Theory Num.Theory.
Local Open Scope ring_scope.

(** The function computed afterwards from the components and the log-weights
    integrates to [mass]. *)
Definition mass_over {X S : Type} (Int : (X -> R) -> R -> Prop) (like : S -> X -> xreal) (clusters : list (S * Z)) (lw : list xreal) (mass : R) : Prop :=
  forall uv : list S, uv <> nil -> exists dens, Int dens mass /\
    forall grid, exists out, cond_eval like uv lw (List.map fst clusters) grid = Ok out /\ List.map xexp out = List.map dens grid.

(** A saved state in its space: [nc] components, weights above zero. *)
Definition blocked_in_space {S H : Type} (Sok : S -> Prop) (Hok : H -> Prop) (n nc : nat) (labels : list nat) (clusters : list (S * Z)) (hyp : H) (weights : list R) : Prop :=
  saved_components n nc labels clusters /\ Hok hyp /\ (forall p, List.In p clusters -> Sok p.1) /\
  length weights = nc /\ List.Forall (fun w => (0 < w)%coqR) weights.

Lemma blocked_conclude : forall X Int S like ok H (Hok : H -> Prop) n nc labels (clusters : list (S * Z)) (hy : H) (m : Stick.sb Stick.numR),
  @family X Int S like ok -> (1 <= nc)%coq_nat ->
  saved_components n nc labels clusters /\ Hok hy /\ (forall q, List.In q clusters -> ok q.1) /\ sb_end false nc m /\ sb_logweights m = Stick.logweights_from_sticks (Stick.sb_sticks m) ->
  let w := List.map xexp (sb_logweights m) in
  blocked_in_space ok Hok n nc labels clusters hy w /\ List.fold_right Rplus 0%coqR w = 1%coqR /\ mass_over Int like clusters (sb_logweights m) 1.
Proof.
  move=> X Int S like ok H Hok n nc labels clusters hy m HF Hnc [C [HH [A [D E]]]] w.
  have [W1 [W2 [W3 W4]]] := P_Blocked.end_weights false nc m Hnc D. rewrite -E in W1 W2 W3. rewrite W4 Rminus_0_r in W3.
  split; first by split. split=> // uv U. rewrite E. case: D => [L [F [_ Q]]]. case: (C) => [_ [Lc _]].
  apply: (@C108_blocked_density _ Int _ like ok uv (Stick.sb_sticks m) (List.map fst clusters) HF U) => //.
  - by rewrite List.map_length Lc L.
  - apply: List.Forall_impl F => v [H0 H1]. split; apply/RleE; [exact: Rlt_le|exact: H1].
  - move=> F0. rewrite F0 /= in L. lia.
  - move=> s /List.in_map_iff [q [<- Hq]]. exact: A.
Qed.

Theorem C118_normal_wishart : forall G (M : mgen G) d (p : nw_prior d) hy sp m nc data pos st (bet : R -> R -> Gs G -> R * Gs G) maxiter burnin r,
  gen_ok G -> gen_pos G -> mgen_pos M -> beta_ok bet -> (0 < d)%N -> nw_init p = Ok hy -> Stick.sb_init sp false nc = Ok m -> proper_shapes sp ->
  (1 <= nc)%coq_nat -> (nc <= length data)%coq_nat -> (forall i, (pos i < nc)%coq_nat) ->
  exists s out, cov_blocked_run (sb_iface (nnw_iface lgam M p) id bet) (nw_init p) (Stick.sb_init sp false nc) data (List.repeat tt (length data)) pos st
    (fun m : Stick.sb Stick.numR => Stick.sb_nc m) maxiter burnin r = Ok (s, out) /\
  length out = (maxiter - burnin)%coq_nat /\ forall snap, List.In snap out ->
    let w := List.map xexp (sb_logweights (Run.s_mix snap)) in
    blocked_in_space (@written d) (@nw_valid d) (length data) nc (s_alloc snap) (s_clusters snap) (s_hyp snap) w /\ List.fold_right Rplus 0%coqR w = 1%coqR /\
    mass_over (@is_space_int d) (fun s y => Fin (mnorm_lpdf s y)) (s_clusters snap) (sb_logweights (Run.s_mix snap)) 1.
Proof.
  move=> G M d p hy sp m nc data pos st bet maxiter burnin r HG HP HM Hb D Eh Em Hs H1 H2 Hpos. rewrite Eh Em.
  have HR : rows_ok (nnw_iface lgam M p) data (at_ (List.repeat tt (length data))) by exact: (@unit_rows (nnw_iface lgam M p) data tt).
  have [s [out [R [L K]]]] := @cov_sb_program (nnw_iface lgam M p) (nnw_laws lgam M p HG) id data (List.repeat tt (length data)) HR (@nw_valid d) (@written d) _
    (@nnw_closed lgam G M d p data HP HM (nw_prior_checked Eh) D) bet Hb hy (nw_init_valid Eh) sp false nc m Em Hs (Logic.conj H1 H2) pos Hpos st maxiter burnin r.
  exists s, out. split; first exact: R. split; first exact: L. move=> snap Hin.
  exact: (@blocked_conclude _ _ _ _ _ _ (@nw_valid d) (length data) nc (s_alloc snap) (s_clusters snap) (s_hyp snap) (Run.s_mix snap) (FamNorm d) H1 (K snap Hin)).
Qed.
Print Assumptions C118_normal_wishart.

Theorem C118_regression : forall G (M : mgen G) d (p : mnig_prior d) hy sp m nc data xs pos st (bet : R -> R -> Gs G -> R * Gs G) maxiter burnin r,
  gen_ok G -> gen_pos G -> beta_ok bet -> length xs = length data -> mnig_init p = Ok hy -> Stick.sb_init sp false nc = Ok m -> proper_shapes sp ->
  (1 <= nc)%coq_nat -> (nc <= length data)%coq_nat -> (forall i, (pos i < nc)%coq_nat) ->
  exists s out, cov_blocked_run (sb_iface (lin_iface lgam M d) id bet) (mnig_init p) (Stick.sb_init sp false nc) data (List.map Some xs) pos st
    (fun m : Stick.sb Stick.numR => Stick.sb_nc m) maxiter burnin r = Ok (s, out) /\
  length out = (maxiter - burnin)%coq_nat /\ forall snap, List.In snap out ->
    let w := List.map xexp (sb_logweights (Run.s_mix snap)) in
    blocked_in_space (fun s : lrs d => 0 < lr_var s) (@mnig_valid d) (length data) nc (s_alloc snap) (s_clusters snap) (s_hyp snap) w /\ List.fold_right Rplus 0%coqR w = 1%coqR /\
    mass_over (@is_response_int d) (fun s o => Fin (lin_lpdf s o.1 o.2)) (s_clusters snap) (sb_logweights (Run.s_mix snap)) 1.
Proof.
  move=> G M d p hy sp m nc data xs pos st bet maxiter burnin r HG HP Hb EL Eh Em Hs H1 H2 Hpos. rewrite Eh Em.
  have [s [out [R [L K]]]] := @cov_sb_program (lin_iface lgam M d) (@lin_laws lgam G M d HG) id data (List.map Some xs) (@lin_rows lgam G M d data xs EL) (@mnig_valid d) (fun s => 0 < lr_var s) _
    (@lin_closed lgam G M d data xs HP EL) bet Hb hy (mnig_init_valid Eh) sp false nc m Em Hs (Logic.conj H1 H2) pos Hpos st maxiter burnin r.
  exists s, out. split; first exact: R. split; first exact: L. move=> snap Hin.
  exact: (@blocked_conclude _ _ _ _ _ _ (@mnig_valid d) (length data) nc (s_alloc snap) (s_clusters snap) (s_hyp snap) (Run.s_mix snap) (FamLin d) H1 (K snap Hin)).
Qed.
Print Assumptions C118_regression.

(** Non-vacuity: three observations, two components, a Dirichlet process prior. *)
Lemma mod2 : forall i, (PeanoNat.Nat.modulo i 2 < 2)%coq_nat.
Proof. move=> i. exact: (PeanoNat.Nat.mod_upper_bound i 2). Qed.
Example C118_example : exists s out,
  cov_blocked_run (sb_iface (nnw_iface lgam mM mpm) id (P_Blocked.half (T:=nat))) (nw_init mpm) (Stick.sb_init (Stick.DpPrior Stick.numR 1%coqR) false 2) mys (List.repeat tt 3)
    (fun i => PeanoNat.Nat.modulo i 2) (init_state wI mh) (fun m : Stick.sb Stick.numR => Stick.sb_nc m) 4 1 0%N = Ok (s, out) /\ length out = 3%N /\
  forall snap, List.In snap out -> saved_components 3 2 (s_alloc snap) (s_clusters snap) /\ nw_valid (s_hyp snap) /\ (forall q, List.In q (s_clusters snap) -> written q.1).
Proof.
  have [h E] := mpm_init. have [m [Em Hs]] := P_Blocked.dp_starts false 2.
  have [s [out [R [L K]]]] := @C118_normal_wishart mG mM 2 mpm h _ m 2 mys _ (init_state wI mh) _ 4 1 0%N mG_ok mG_pos mM_pos (P_Blocked.half_ok _) isT E Em Hs (le_S _ _ (le_n 1)) (le_S _ _ (le_n 2)) mod2.
  exists s, out. split; first exact: R. split; first exact: L. move=> snap Hin. have [[C [H [A _]]] _] := K snap Hin. by split.
Qed.
Example C118_example_regression : exists s out,
  cov_blocked_run (sb_iface (lin_iface lgam mM 2) id (P_Blocked.half (T:=nat))) (mnig_init (MNIGFixed (const_mx 1) mS 2%:R 3%:R)) (Stick.sb_init (Stick.DpPrior Stick.numR 1%coqR) false 2) lyy (List.map Some lxs)
    (fun i => PeanoNat.Nat.modulo i 2) (init_state lI lh) (fun m : Stick.sb Stick.numR => Stick.sb_nc m) 4 1 0%N = Ok (s, out) /\ length out = 3%N /\
  forall snap, List.In snap out -> List.fold_right Rplus 0%coqR (List.map xexp (sb_logweights (Run.s_mix snap))) = 1%coqR.
Proof.
  have [h E] := ex_C76_mnig. have [m [Em Hs]] := P_Blocked.dp_starts false 2.
  have [s [out [R [L K]]]] := @C118_regression mG mM 2 _ h _ m 2 lyy lxs _ (init_state lI lh) _ 4 1 0%N mG_ok mG_pos (P_Blocked.half_ok _) erefl E Em Hs (le_S _ _ (le_n 1)) (le_S _ _ (le_n 2)) mod2.
  exists s, out. split; first exact: R. split; first exact: L. move=> snap Hin. by have [_ [W _]] := K snap Hin.
Qed.
