(** * C117: complete programs on multivariate and regression data keep every saved state in its space. *)
From Coq Require Import ZArith Reals Lra Lia.
From Coq Require List.
From mathcomp Require Import all_ssreflect all_algebra.
From mathcomp.algebra_tactics Require Import ring.
From Verif Require Import Base Hier Algos Run Spec MargFacts NealFacts MargMore InitFacts MargProps ValidRun CovInst CovRun CovCond.
From Verif Require Import XReal Mixings Univ RealInst RealFacts RealField MatLib Multi MultiFacts NnwFacts LinFacts NwHyper MultiInst MultiReal.
From Verif Require Import MDistFacts MultiInt Eval EvalFacts EvalInt UnivInst UnivRun P_Multi P_MultiAlg P_MultiInt MultiRun.
From Verif Require P_Valid GamFacts.
Set Implicit Arguments.
Unset Strict Implicit.
Unset Printing Implicit Defensive.
Import Order.TTheory GRing.Theory Num.Theory.
Local Open Scope ring_scope.

(** A saved state in its space. *)
Definition saved_in_space {S H : Type} (Sok : S -> Prop) (Hok : H -> Prop) (n : nat) (labels : list nat) (clusters : list (S * Z)) (hyp : H) (m : mixing) : Prop :=
  saved_clustering n labels clusters /\ Hok hyp /\ mixing_valid m /\ forall p, List.In p clusters -> Sok p.1.

(** The density the program computes afterwards from a saved state integrates to one. *)
Definition density_over {X S : Type} (Int : (X -> R) -> R -> Prop) (like : S -> X -> xreal) (comp : X -> xreal) (n : nat) (clusters : list (S * Z)) (m : mixing) : Prop :=
  forall uv : list S, uv <> nil -> exists dens, Int dens 1 /\
    match m with
    | MixDP _ s => forall grid o, exists out o', marg_eval like dp_mixer uv comp (mkSaved n clusters (dp_tot s)) grid o = Ok (out, o') /\ List.map xexp out = List.map dens grid
    | MixPY _ s => forall grid o, exists out o', marg_eval like py_mixer uv comp (mkSaved n clusters s) grid o = Ok (out, o') /\ List.map xexp out = List.map dens grid
    end.
(** Neal2 and Neal3 use the predictive density, Neal8 an average over draws of the prior. *)
Definition evaluates {X S H T : Type} (Int : (X -> R) -> R -> Prop) (like : S -> X -> xreal) (pred : H -> X -> xreal) (sample : H -> T -> S * T)
    (al : marginal_algorithm) (n : nat) (clusters : list (S * Z)) (h : H) (m : mixing) : Prop :=
  match al with
  | Neal8 n_aux => forall draws, length draws = n_aux -> P_Valid.prior_draws sample h draws -> density_over Int like (aux_component like draws) n clusters m
  | _ => density_over Int like (pred h) n clusters m
  end.

Lemma pred_density : forall X Int St like ok comp, @conjugate X Int St like ok comp -> forall n clusters m, mixing_valid m -> saved_ok St (mkSaved n clusters tt) ->
  clusters <> nil -> all_ok St ok clusters -> density_over Int like comp n clusters m.
Proof.
  move=> X Int St like ok comp HC n clusters [p s|p s] Hm S N A uv U.
  - refine (@C108_conjugate_dirichlet _ _ _ _ _ comp uv (mkSaved n clusters (dp_tot s)) HC U S _ A). by apply/RltE; case: Hm.
  - case: Hm => [[/RleE D0 /RltE D1] /RltE T]. exact: (@C108_conjugate_pitman_yor _ _ _ _ _ comp uv (mkSaved n clusters s) HC U S D0 D1 T N A).
Qed.
Lemma aux_density : forall X Int St like ok, @family X Int St like ok -> forall draws n clusters m, draws <> nil -> (forall s, List.In s draws -> ok s) ->
  mixing_valid m -> saved_ok St (mkSaved n clusters tt) -> clusters <> nil -> all_ok St ok clusters -> density_over Int like (aux_component like draws) n clusters m.
Proof.
  move=> X Int St like ok HF draws n clusters [p s|p s] Nd Hd Hm S N A uv U.
  - refine (@C108_auxiliary_dirichlet _ _ _ _ _ draws uv (mkSaved n clusters (dp_tot s)) HF Nd Hd U S _ A). by apply/RltE; case: Hm.
  - case: Hm => [[/RleE D0 /RltE D1] /RltE T]. exact: (@C108_auxiliary_pitman_yor _ _ _ _ _ draws uv (mkSaved n clusters s) HF Nd Hd U S D0 D1 T N A).
Qed.
Lemma saved_evaluates : forall (I : Iface) X Int like (ok : St I -> Prop) (pred : Hyp I -> X -> xreal) (data : list (Datum I)) (GH : Hyp I -> Prop) (GM : Mix I -> Prop)
    (al : marginal_algorithm) (snap : snapshot I) (toM : Mix I -> mixing), (forall m, GM m -> mixing_valid (toM m)) ->
  (forall h, GH h -> @conjugate X Int (St I) like ok (pred h)) -> (forall h, GH h -> family Int like ok) -> (forall h r, GH h -> ok (prior_sample I h r).1) ->
  (1 <= length data)%coq_nat -> (forall x, al = Neal8 x -> (1 <= x)%coq_nat) -> saved_valid I data GH ok GM snap ->
  evaluates Int like pred (prior_sample I) al (length data) (s_clusters snap) (s_hyp snap) (toM (s_mix snap)).
Proof.
  move=> I X Int like ok pred data GH GM al snap toM Hm HC HF Hp Hn Hx V.
  have N := @P_Valid.clusters_nonempty I data GH ok GM snap Hn V.
  case: V => C [H [M [A [uv [P E]]]]].
  have S : saved_ok (St I) (mkSaved (length data) (s_clusters snap) tt).
  { rewrite E. exact: (GamFacts.proper_saved I data (s_alloc snap) uv unit tt P). }
  case: al Hx => [| |x] Hx /=; try exact: (pred_density (HC _ H) (Hm _ M) S N A).
  move=> draws L D. apply: (aux_density (HF _ H) _ _ (Hm _ M) S N A).
  - move=> F. move: L (Hx x erefl). rewrite F /= => <-. lia.
  - move=> s /D [r ->]. exact: Hp.
Qed.
Lemma usable_pos : forall al n b, usable al n b -> (1 <= n)%coq_nat /\ forall x, al = Neal8 x -> (1 <= x)%coq_nat.
Proof. move=> [| |x] n b /=; [|case|case] => H; split; try lia; try by []. by move=> y [<-]. Qed.

(** ** Multivariate normal likelihood, normal-Wishart prior *)
Theorem C117_normal_wishart : forall G (M : mgen G) d (p : nw_prior d) mp data k pos st al maxiter burnin r s out,
  gen_ok G -> gen_pos G -> mgen_pos M -> (0 < d)%N -> usable al (length data) true -> P_Valid.fits k pos (length data) ->
  marginal_run (nnw_iface lgam M p) (nw_init p) (mixing_start mp) data (List.repeat tt (length data)) k pos st al maxiter burnin r = Ok (s, out) ->
  length out = (maxiter - burnin)%coq_nat /\ forall snap, List.In snap out ->
    saved_in_space (@written d) (@nw_valid d) (length data) (s_alloc snap) (s_clusters snap) (s_hyp snap) (s_mix snap) /\
    evaluates (@is_space_int d) (fun s y => Fin (mnorm_lpdf s y)) (fun h y => Fin (nnw_marg_lpdf lgam (nw_proto h) y)) (fun h q => nw_sample M (nw_proto h) q)
      al (length data) (s_clusters snap) (s_hyp snap) (s_mix snap).
Proof.
  move=> G M d p mp data k pos st al maxiter burnin r s out HG HP HM D Hu [Hk Hpos] R. have [Hn Hx] := usable_pos Hu.
  case E: (nw_init p) R => [hy|msg||] R; try by case: al R {Hu Hx}; rewrite /marginal_run /cov_start /run /=; case: (mixing_start mp).
  have HC := @nnw_closed lgam G M d p data HP HM (nw_prior_checked E) D.
  have HR : rows_ok (nnw_iface lgam M p) data (at_ (List.repeat tt (length data))) by exact: (@unit_rows (nnw_iface lgam M p) data tt).
  have [L K] := @cov_saved (nnw_iface lgam M p) (nnw_laws lgam M p HG) data _ HR _ _ _ HC (fun m Hm => mixing_masses m _ Hm) (Ok hy) (mixing_start mp) k pos st
    ltac:(move=> h' [<-]; exact: nw_init_valid E) (fun m Em => mixing_start_valid mp m Em) Hk Hpos (fun _ => erefl) al Hu maxiter burnin r s out R.
  split=> // snap Hin. have V := K snap Hin. split; first by case: V => C [H [M' [A _]]].
  have Hq : forall (h : nw d) q, nw_valid h -> written (nw_sample M (nw_proto h) q).1 by (intros h q H; exact (@cl_sample _ _ _ _ _ _ HC h q H)).
  refine (@saved_evaluates (nnw_iface lgam M p) _ _ _ (@written d) (fun h y => Fin (nnw_marg_lpdf lgam (nw_proto h) y)) data (@nw_valid d) mixing_valid al snap id (fun _ H => H)
    _ (fun _ _ => FamNorm d) Hq Hn Hx V) => h H. exact: ConjNnw.
Qed.
Print Assumptions C117_normal_wishart.

(** The update of the hyperparameters does not fail on the clusters of an
    iteration: the case in which the interface keeps them unchanged is not reached. *)
Theorem C117_hyperparameters_updated : forall G (M : mgen G) d (p : nw_prior d) mp data k pos st al maxiter burnin r s out,
  gen_ok G -> gen_pos G -> mgen_pos M -> (0 < d)%N -> usable al (length data) true -> P_Valid.fits k pos (length data) ->
  marginal_run (nnw_iface lgam M p) (nw_init p) (mixing_start mp) data (List.repeat tt (length data)) k pos st al maxiter burnin r = Ok (s, out) ->
  forall snap h q, List.In snap out -> nw_valid h ->
    exists h' q', nw_update_hypers M p h (map fst (s_clusters snap)) q = Ok (h', q') /\ nw_valid h'.
Proof.
  move=> G M d p mp data k pos st al maxiter burnin r s out HG HP HM D Hu HF R snap h q Hin Hh. have [Hn _] := usable_pos Hu.
  have [_ K] := C117_normal_wishart HG HP HM D Hu HF R. have [[C [_ [_ A]]] _] := K snap Hin.
  case E: (nw_init p) R => [hy|msg||] R; try by case: al R {Hu K}; rewrite /marginal_run /cov_start /run /=; case: (mixing_start mp).
  apply: (nw_update_ok q D HP HM (nw_prior_checked E) Hh).
  - move=> x. rewrite -mapE => /List.in_map_iff [y [<- Hy]]. exact: A.
  - case: C => L1 [L2 _]. case: (s_clusters snap) L2 => //= L2 _. case: (s_alloc snap) L1 L2 => [|c l] /= L1 L2; first by rewrite -L1 in Hn; lia.
    have [H _] := L2 c. have := H (or_introl erefl). lia.
Qed.
Print Assumptions C117_hyperparameters_updated.

(** ** Linear regression, multivariate normal-inverse-gamma prior *)
Theorem C117_regression : forall G (M : mgen G) d (p : mnig_prior d) mp data xs k pos st al maxiter burnin r s out,
  gen_ok G -> gen_pos G -> length xs = length data -> usable al (length data) true -> P_Valid.fits k pos (length data) ->
  marginal_run (lin_iface lgam M d) (mnig_init p) (mixing_start mp) data (List.map Some xs) k pos st al maxiter burnin r = Ok (s, out) ->
  length out = (maxiter - burnin)%coq_nat /\ forall snap, List.In snap out ->
    saved_in_space (fun s : lrs d => 0 < lr_var s) (@mnig_valid d) (length data) (s_alloc snap) (s_clusters snap) (s_hyp snap) (s_mix snap) /\
    evaluates (@is_response_int d) (fun s o => Fin (lin_lpdf s o.1 o.2)) (fun h o => Fin (lin_marg_lpdf lgam h o.1 o.2)) (fun h q => mnig_sample M h q)
      al (length data) (s_clusters snap) (s_hyp snap) (s_mix snap).
Proof.
  move=> G M d p mp data xs k pos st al maxiter burnin r s out HG HP EL Hu [Hk Hpos] R. have [Hn Hx] := usable_pos Hu.
  case E: (mnig_init p) R => [hy|msg||] R; try by case: al R {Hu Hx}; rewrite /marginal_run /cov_start /run /=; case: (mixing_start mp).
  have HC := @lin_closed lgam G M d data xs HP EL.
  have [L K] := @cov_saved (lin_iface lgam M d) (@lin_laws lgam G M d HG) data _ (@lin_rows lgam G M d data xs EL) _ _ _ HC (fun m Hm => mixing_masses m _ Hm) (Ok hy) (mixing_start mp) k pos st
    ltac:(move=> h' [<-]; exact: mnig_init_valid E) (fun m Em => mixing_start_valid mp m Em) Hk Hpos (fun _ => erefl) al Hu maxiter burnin r s out R.
  split=> // snap Hin. have V := K snap Hin. split; first by case: V => C [H [M' [A _]]].
  have Hq : forall (h : mnig d) q, mnig_valid h -> 0 < lr_var (mnig_sample M h q).1 by (intros h q H; exact (@cl_sample _ _ _ _ _ _ HC h q H)).
  refine (@saved_evaluates (lin_iface lgam M d) _ _ _ (fun s : lrs d => 0 < lr_var s) (fun h o => Fin (lin_marg_lpdf lgam h o.1 o.2)) data (@mnig_valid d) mixing_valid al snap id (fun _ H => H)
    _ (fun _ _ => FamLin d) Hq Hn Hx V) => h H. exact: ConjLin.
Qed.
Print Assumptions C117_regression.

(** ** Programs end *)
Theorem C117_programs_end : forall G (M : mgen G) mp k pos maxiter burnin r al n, gen_ok G -> P_Valid.fits k pos n -> usable al n true -> prior_fixed mp ->
  (forall d (p : nw_prior d) h data st, length data = n -> nw_init p = Ok h ->
     exists s out, marginal_run (nnw_iface lgam M p) (nw_init p) (mixing_start mp) data (List.repeat tt n) k pos st al maxiter burnin r = Ok (s, out)) /\
  (forall d (p : mnig_prior d) h data xs st, length data = n -> length xs = n -> mnig_init p = Ok h ->
     exists s out, marginal_run (lin_iface lgam M d) (mnig_init p) (mixing_start mp) data (List.map Some xs) k pos st al maxiter burnin r = Ok (s, out)).
Proof.
  move=> G M mp k pos maxiter burnin r al n HG [Hk Hpos] Hu Hf. have [m [Em Hm]] := prior_fixed_start mp Hf. split.
  - move=> d p h data st Hl E. rewrite E Em. subst n.
    have HR : rows_ok (nnw_iface lgam M p) data (at_ (List.repeat tt (length data))) by exact: (@unit_rows (nnw_iface lgam M p) data tt).
    refine (@cov_complete (nnw_iface lgam M p) (nnw_laws lgam M p HG) data h m k pos st _ HR mixing_fixed _ Hm Hk Hpos (fun _ => erefl) al Hu maxiter burnin r).
    split=> [x Hx j Hj|x cards al0 q Hx]; first exact: (mixing_masses x (length data) (proj1 Hx)).
    exists x, q. split=> //. exact: mixing_fixed_update.
  - move=> d p h data xs st Hl Hx E. rewrite E Em. subst n.
    refine (@cov_complete (lin_iface lgam M d) (@lin_laws lgam G M d HG) data h m k pos st _ (@lin_rows lgam G M d data xs Hx) mixing_fixed _ Hm Hk Hpos (fun _ => erefl) al Hu maxiter burnin r).
    split=> [x Hy j Hj|x cards al0 q Hy]; first exact: (mixing_masses x (length data) (proj1 Hy)).
    exists x, q. split=> //. exact: mixing_fixed_update.
Qed.
Print Assumptions C117_programs_end.

(** Accepted priors: the program ends normally or by an exception. *)
Theorem C117_never_undefined : forall G (M : mgen G) mp m k pos maxiter burnin r al n, gen_ok G -> gen_pos G -> P_Valid.fits k pos n -> usable al n true ->
  mixing_start mp = Ok m ->
  (forall d (p : nw_prior d) h data st, length data = n -> nw_init p = Ok h ->
     ends (marginal_run (nnw_iface lgam M p) (nw_init p) (mixing_start mp) data (List.repeat tt n) k pos st al maxiter burnin r)) /\
  (forall d (p : mnig_prior d) h data xs st, length data = n -> length xs = n -> mnig_init p = Ok h ->
     ends (marginal_run (lin_iface lgam M d) (mnig_init p) (mixing_start mp) data (List.map Some xs) k pos st al maxiter burnin r)).
Proof.
  move=> G M mp m k pos maxiter burnin r al n HG HP [Hk Hpos] Hu Em. have Vm := mixing_start_valid mp m Em. split.
  - move=> d p h data st Hl E. rewrite E Em. subst n.
    have HR : rows_ok (nnw_iface lgam M p) data (at_ (List.repeat tt (length data))) by exact: (@unit_rows (nnw_iface lgam M p) data tt).
    refine (@cov_ends (nnw_iface lgam M p) (nnw_laws lgam M p HG) data h m k pos st _ HR mixing_valid (fun x Hv => mixing_masses x _ Hv) _ _ Vm Hk Hpos (fun _ => erefl) al Hu maxiter burnin r).
    + move=> x cards al0 q _. exact: mixing_update_ends.
    + move=> x cards al0 q x' q' Hv E'. exact: (mixing_update_valid G x cards al0 q x' q' HP Hv E').
  - move=> d p h data xs st Hl Hx E. rewrite E Em. subst n.
    refine (@cov_ends (lin_iface lgam M d) (@lin_laws lgam G M d HG) data h m k pos st _ (@lin_rows lgam G M d data xs Hx) mixing_valid (fun x Hv => mixing_masses x _ Hv) _ _ Vm Hk Hpos (fun _ => erefl) al Hu maxiter burnin r).
    + move=> x cards al0 q _. exact: mixing_update_ends.
    + move=> x cards al0 q x' q' Hv E'. exact: (mixing_update_valid G x cards al0 q x' q' HP Hv E').
Qed.
Print Assumptions C117_never_undefined.

(** The checks before the run do not ask a regression for its covariates: without
    them every program has undefined behaviour at the first observation. *)
Theorem C117_missing_covariates : forall G (M : mgen G) d (h : mnig d) m data k pos st al maxiter burnin r,
  gen_ok G -> (1 <= length data)%coq_nat -> (k <= length data)%coq_nat ->
  marginal_run (lin_iface lgam M d) (Ok h) (Ok m) data (List.repeat None (length data)) k pos st al maxiter burnin r = UB.
Proof.
  move=> G M d h m data k pos st al maxiter burnin r HG Hn Hk.
  exact: (@run_missing (lin_iface lgam M d) (@lin_laws lgam G M d HG) data (fun _ => erefl) Hn h m k pos st r al maxiter burnin Hk).
Qed.
Print Assumptions C117_missing_covariates.

(** Non-vacuity: Neal8 under a normal-Wishart prior whose mean has a prior,
    Neal2 for the regression; three observations, two initial clusters. *)
Lemma mG_pos : gen_pos mG.
Proof. by split=> [a b r|a b r] _ _ /=; apply/RltE; rewrite ltr0n. Qed.
Lemma mM_pos : mgen_pos mM.
Proof. by split. Qed.
Lemma two_fit : P_Valid.fits 2 (fun i => PeanoNat.Nat.modulo i 2) 3.
Proof. split; first by lia. move=> i. exact: (PeanoNat.Nat.mod_upper_bound i 2). Qed.
Definition mpm : nw_prior 2 := @NWMean 2 mo mS 2%:R 3%:R mS.
Lemma mpm_init : exists h, nw_init mpm = Ok h.
Proof.
  have [_ [Hd _]] := mh_valid. have C : check_spd mS = Ok tt by apply/check_spd_ok; split; [|exact: mS_spd].
  eexists; rewrite /mpm /= C /=.
  have -> : lteb 2%:R 0 = false by apply/negbTE/negP => /lteb_true0; rewrite leNgt ltr0n.
  have -> : lteb 3%:R (2%:R - 1) = false by apply/negbTE/negP => /lteb_true0; rewrite leNgt Hd.
  rewrite /nw_finish. have -> : inverse_spd mS = Ok (invmx mS) by apply/inverse_spd_ok; split; [exact: mS_spd|]. by [].
Qed.
Example C117_example : exists s out,
  marginal_run (nnw_iface lgam mM mpm) (nw_init mpm) (mixing_start (PriDP (DPFixed 1))) mys (List.repeat tt 3) 2 (fun i => PeanoNat.Nat.modulo i 2)
    (init_state wI mh) (Neal8 3) 4 1 0%N = Ok (s, out) /\ length out = 3%N /\ forall snap, List.In snap out ->
    saved_in_space (@written 2) (@nw_valid 2) 3 (s_alloc snap) (s_clusters snap) (s_hyp snap) (s_mix snap).
Proof.
  have [h E] := mpm_init.
  have U : usable (Neal8 3) 3 true by rewrite /=; lia.
  have Hf : prior_fixed (PriDP (DPFixed 1)) by rewrite /=; exact: Rlt_0_1.
  have [K _] := @C117_programs_end mG mM (PriDP (DPFixed 1)) 2 (fun i => PeanoNat.Nat.modulo i 2) 4 1 0%N (Neal8 3) 3 mG_ok two_fit U Hf.
  have [s [out R]] := K 2%N mpm h mys (init_state wI mh) erefl E. exists s, out. split; first exact: R.
  have [L V] := @C117_normal_wishart mG mM 2 mpm (PriDP (DPFixed 1)) mys 2 _ _ (Neal8 3) 4 1 0%N s out mG_ok mG_pos mM_pos isT U two_fit R. split; first exact: L.
  move=> snap Hin. exact: (proj1 (V snap Hin)).
Qed.
Example C117_example_regression : exists s out,
  marginal_run (lin_iface lgam mM 2) (mnig_init (MNIGFixed (const_mx 1) mS 2%:R 3%:R)) (mixing_start (PriPY (PYFixed 1%coqR (/ 2)%coqR))) lyy (List.map Some lxs) 2 (fun i => PeanoNat.Nat.modulo i 2)
    (init_state lI lh) Neal2 4 1 0%N = Ok (s, out) /\ length out = 3%N /\ forall snap, List.In snap out ->
    saved_in_space (fun s : lrs 2 => 0 < lr_var s) (@mnig_valid 2) 3 (s_alloc snap) (s_clusters snap) (s_hyp snap) (s_mix snap).
Proof.
  have [h E] := ex_C76_mnig.
  have U : usable Neal2 3 true by rewrite /=; lia.
  have Hf : prior_fixed (PriPY (PYFixed 1%coqR (/ 2)%coqR)) by rewrite /=; lra.
  have [_ K] := @C117_programs_end mG mM (PriPY (PYFixed 1%coqR (/ 2)%coqR)) 2 (fun i => PeanoNat.Nat.modulo i 2) 4 1 0%N Neal2 3 mG_ok two_fit U Hf.
  have [s [out R]] := K 2%N (MNIGFixed (const_mx 1) mS 2%:R 3%:R) h lyy lxs (init_state lI lh) erefl erefl E. exists s, out. split; first exact: R.
  have [L V] := @C117_regression mG mM 2 _ _ lyy lxs 2 _ _ Neal2 4 1 0%N s out mG_ok mG_pos erefl U two_fit R. split; first exact: L.
  move=> snap Hin. exact: (proj1 (V snap Hin)).
Qed.
