(** * C107, C108: multivariate and regression densities as integrals. *)
From Coq Require Import ZArith Reals Lia.
From Coq Require List.
From mathcomp Require Import all_ssreflect all_algebra.
From mathcomp.algebra_tactics Require Import ring.
From Verif Require Import Base XReal Mixings PartSpec Univ RealField MatLib Multi MultiFacts NnwFacts LinFacts Fa FaFacts.
From Verif Require GaussInt GammaInt UnivInt Stick StickFacts Collect Utils MixFacts.
From Verif Require Import MDistFacts MultiInt Eval EvalFacts EvalMore EvalInt P_Multi.
From Verif Require P_MargInt.
Set Implicit Arguments.
Unset Strict Implicit.
Unset Printing Implicit Defensive.
Import Order.TTheory GRing.Theory Num.Theory.
Local Open Scope ring_scope.

(** ** C107 *)
Theorem C107_wishart_normalised : forall d (nu : R) (S : 'M[R]_d), d%:R - 1 < nu -> spd S ->
  is_spd_int (fun W => exp (stan_wishart_lpdf lgam W nu S)) 1.
Proof. exact wishart_normalised. Qed.
Print Assumptions C107_wishart_normalised.
Theorem C107_nw_normalised : forall d (h : nw d), nw_valid h -> is_mls_int (fun m P => exp (nw_lpdf lgam h m P)) 1.
Proof. exact nw_normalised. Qed.
Print Assumptions C107_nw_normalised.
(** The marginal likelihood of C21 is the integral of likelihood times prior. *)
Theorem C107_nnw_marginal_integral : forall d (h : nw d) ys, nw_valid h ->
  is_mls_int (fun m P => exp (nw_lpdf lgam h m P + \sum_(y <- ys) stan_mvn_prec_lpdf y m P)) (exp (nw_log_marg lgam h ys)).
Proof. exact nnw_marginal_integral. Qed.
Print Assumptions C107_nnw_marginal_integral.
Theorem C107_nnw_predictive_integral : forall d (h : nw d) y, (0 < d)%N -> nw_valid h ->
  is_mls_int (fun m P => exp (nw_lpdf lgam h m P + stan_mvn_prec_lpdf y m P)) (exp (nnw_marg_lpdf lgam (nw_proto h) y)).
Proof.
  move=> d h y Hd HV. rewrite nnw_predictive //. apply: mls_ext (nnw_marginal_integral [:: y] HV) => m P HP. by rewrite big_seq1.
Qed.
Print Assumptions C107_nnw_predictive_integral.
(** With the updated hyperparameters: the conditional density of the next datum
    given those of the cluster, a ratio of two integrals. *)
Theorem C107_nnw_posterior_predictive : forall d (h : nw d) ys y J1 J0, (0 < d)%N -> nw_valid h ->
  is_mls_int (fun m P => exp (nw_lpdf lgam h m P + \sum_(z <- y :: ys) stan_mvn_prec_lpdf z m P)) J1 ->
  is_mls_int (fun m P => exp (nw_lpdf lgam h m P + \sum_(z <- ys) stan_mvn_prec_lpdf z m P)) J0 ->
  0 < J0 /\ exp (nnw_marg_lpdf lgam (nnw_post h (cardZ' ys) (mstats_of ys)) y) = J1 / J0.
Proof.
  move=> d h ys y J1 J0 Hd HV H1 H0. have [h' [E _]] := nnw_post_valid ys HV.
  rewrite (mls_unique H1 (nnw_marginal_integral (y :: ys) HV)) (mls_unique H0 (nnw_marginal_integral ys HV)).
  have P : 0 < exp (nw_log_marg lgam h ys) by apply/RltE; exact: exp_pos.
  split=> //. rewrite -(nnw_chain lgam y Hd HV E) expD mulfK // gt_eqF //.
Qed.
Print Assumptions C107_nnw_posterior_predictive.
Theorem C107_nnw_predictive_normalised : forall d (h : nw d) ys, nw_valid h ->
  is_space_int (fun y => exp (nnw_marg_lpdf lgam (nnw_post h (cardZ' ys) (mstats_of ys)) y)) 1.
Proof.
  move=> d h ys HV. have [h' [E HV']] := nnw_post_valid ys HV.
  have -> : nnw_post h (cardZ' ys) (mstats_of ys) = nw_proto h'.
  { move: E; rewrite /nw_set_proto; case: (inverse_spd _) => //= B [<-] /=. by case: (nnw_post _ _ _). }
  exact: nnw_predictive_mass.
Qed.
Print Assumptions C107_nnw_predictive_normalised.
Theorem C107_mnig_normalised : forall d (h : mnig d), mnig_valid h -> is_lrs_int (fun b v => exp (mnig_lpdf lgam h (mkLRS b v))) 1.
Proof. exact mnig_normalised. Qed.
Print Assumptions C107_mnig_normalised.
Theorem C107_linreg_marginal_integral : forall d (h : mnig d) ys, mnig_valid h ->
  is_lrs_int (fun b v => exp (mnig_lpdf lgam h (mkLRS b v) + \sum_(o <- ys) lin_lpdf (mkLRS b v) o.1 o.2)) (exp (lin_log_marg lgam h ys)).
Proof. exact lin_marginal_integral. Qed.
Print Assumptions C107_linreg_marginal_integral.
Theorem C107_linreg_predictive_integral : forall d (h : mnig d) y x, mnig_valid h ->
  is_lrs_int (fun b v => exp (mnig_lpdf lgam h (mkLRS b v) + lin_lpdf (mkLRS b v) y x)) (exp (lin_marg_lpdf lgam h y x)).
Proof.
  move=> d h y x HV. rewrite lin_predictive //. apply: lrs_ext (lin_marginal_integral [:: (y, x)] HV) => b v Hv. by rewrite big_seq1.
Qed.
Print Assumptions C107_linreg_predictive_integral.
Theorem C107_linreg_posterior_predictive : forall d (h : mnig d) ys y x J1 J0, mnig_valid h ->
  is_lrs_int (fun b v => exp (mnig_lpdf lgam h (mkLRS b v) + \sum_(o <- (y, x) :: ys) lin_lpdf (mkLRS b v) o.1 o.2)) J1 ->
  is_lrs_int (fun b v => exp (mnig_lpdf lgam h (mkLRS b v) + \sum_(o <- ys) lin_lpdf (mkLRS b v) o.1 o.2)) J0 ->
  0 < J0 /\ exp (lin_marg_lpdf lgam (mnig_post h (cardZ' ys) (lin_stats_of ys)) y x) = J1 / J0.
Proof.
  move=> d h ys y x J1 J0 HV H1 H0.
  rewrite (lrs_unique H1 (lin_marginal_integral ((y, x) :: ys) HV)) (lrs_unique H0 (lin_marginal_integral ys HV)).
  have P : 0 < exp (lin_log_marg lgam h ys) by apply/RltE; exact: exp_pos.
  split=> //. rewrite -(lin_chain lgam ys y x HV) expD mulfK // gt_eqF //.
Qed.
Print Assumptions C107_linreg_posterior_predictive.
Theorem C107_linreg_predictive_normalised : forall d (h : mnig d) x, mnig_valid h ->
  GaussInt.is_line_int (fun y => exp (lin_marg_lpdf lgam h y x)) 1.
Proof. exact lin_predictive_mass. Qed.
Print Assumptions C107_linreg_predictive_normalised.
(** Likelihoods of the states the code writes.  The state of a Normal-Wishart
    draw holds the transposed factor (C25), which is another normal density. *)
Theorem C107_likelihoods_normalised :
  (forall d (m : 'cV[R]_d) P, spd P -> is_space_int (fun y => exp (mnorm_lpdf (mls_set_constrained m P) y)) 1 /\
                                      is_space_int (fun y => exp (mnorm_lpdf (write_prec_to_state m P) y)) 1) /\
  (forall d (s : lrs d) x, 0 < lr_var s -> GaussInt.is_line_int (fun y => exp (lin_lpdf s y x)) 1) /\
  (forall p q (mu psi : 'cV[R]_p) (lambda : 'M[R]_(p, q)), pos_vec psi ->
     is_space_int (fun y => exp (mvn_woodbury_lpdf y mu psi lambda)) 1).
Proof.
  split; [|split].
  - move=> d m P HP. split; [exact: set_constrained_mass|exact: write_prec_mass].
  - move=> d s x Hv. exact: lin_like_mass.
  - move=> p q mu psi lambda Hp. exact: fa_mass.
Qed.
Print Assumptions C107_likelihoods_normalised.
(** The likelihood of a factor analyser is the integral over the factor scores. *)
Theorem C107_fa_scores_integral : forall p q (mu psi : 'cV[R]_p) (lambda : 'M[R]_(p, q)) y, pos_vec psi ->
  is_space_int (fun e => exp (std_lpdf e + fa_obs_lpdf mu psi lambda y e)) (exp (mvn_woodbury_lpdf y mu psi lambda)).
Proof. exact fa_scores_integral. Qed.
Print Assumptions C107_fa_scores_integral.
(** In dimension one, integrals over matrices are integrals over the half line. *)
Theorem C107_matrix_integral_one : forall (f : R -> R) l, is_spd_int (fun W : 'M[R]_1 => f (W 0 0)) l <-> GammaInt.is_half_int f l.
Proof. exact spd_int_one. Qed.
Print Assumptions C107_matrix_integral_one.

Example ex_C107_wishart : is_spd_int (fun W => exp (stan_wishart_lpdf lgam W 3%:R mS)) 1.
Proof. apply: C107_wishart_normalised; last exact: mS_spd. by rewrite ltr_subl_addr -[1]/(1%:R) -natrD ltr_nat. Qed.
Example ex_C107_nw : is_mls_int (fun m P => exp (nw_lpdf lgam mh m P)) 1.
Proof. exact: C107_nw_normalised mh_valid. Qed.
Example ex_C107_nnw_predictive : exp (nnw_marg_lpdf lgam (nnw_post mh (cardZ' mys) (mstats_of mys)) mi) =
  exp (nw_log_marg lgam mh (mi :: mys)) / exp (nw_log_marg lgam mh mys).
Proof.
  exact (proj2 (C107_nnw_posterior_predictive (h:=mh) (ys:=mys) (y:=mi) isT mh_valid
    (C107_nnw_marginal_integral _ mh_valid) (C107_nnw_marginal_integral _ mh_valid))).
Qed.
Example ex_C107_nnw_mass : is_space_int (fun y => exp (nnw_marg_lpdf lgam (nnw_post mh (cardZ' mys) (mstats_of mys)) y)) 1.
Proof. exact: C107_nnw_predictive_normalised mh_valid. Qed.
Example ex_C107_linreg : is_lrs_int (fun b v => exp (mnig_lpdf lgam lh (mkLRS b v) + \sum_(o <- lys) lin_lpdf (mkLRS b v) o.1 o.2)) (exp (lin_log_marg lgam lh lys)).
Proof. exact: C107_linreg_marginal_integral lh_valid. Qed.
Example ex_C107_linreg_predictive : GaussInt.is_line_int (fun y => exp (lin_marg_lpdf lgam (mnig_post lh (cardZ' lys) (lin_stats_of lys)) y mi)) 1.
Proof. apply: C107_linreg_predictive_normalised. exact: C18_linreg_valid lh_valid. Qed.
Example ex_C107_fa : is_space_int (fun e => exp (std_lpdf e + fa_obs_lpdf mo fpsi flam mi e)) (exp (mvn_woodbury_lpdf mi mo fpsi flam)).
Proof. exact: C107_fa_scores_integral fpsi_pos. Qed.
Example ex_C107_written : is_space_int (fun y => exp (mnorm_lpdf (write_prec_to_state mo mS) y)) 1.
Proof. exact (proj2 (proj1 C107_likelihoods_normalised 2%N mo mS mS_spd)). Qed.

(** ** C108

    The sample space [X] with its integral, the likelihood and the states the code
    writes: vectors for the normal likelihood and the factor analyser, pairs of a
    response and covariates for the regression, integrated over the response. *)
Definition written d (s : mls d) : Prop := exists m P, spd P /\ (s = mls_set_constrained m P \/ s = write_prec_to_state m P).
Definition fa_like p q (s : fa_st p q) (y : 'cV[R]_p) : xreal := match fa_lpdf s y with Ok v => Fin v | _ => Fin 0 end.
Inductive family : forall X, ((X -> R) -> R -> Prop) -> forall St, (St -> X -> xreal) -> (St -> Prop) -> Prop :=
| FamNorm d : family (@is_space_int d) (fun s y => Fin (mnorm_lpdf s y)) (@written d)
| FamFa p q : family (@is_space_int p) (@fa_like p q) (fun s => fa_consistent s /\ pos_vec (fa_psi s))
| FamLin d : family (@is_response_int d) (fun s o => Fin (lin_lpdf s o.1 o.2)) (fun s => 0 < lr_var s).
(** Conjugate hierarchies: with the density of a new component. *)
Inductive conjugate : forall X, ((X -> R) -> R -> Prop) -> forall St, (St -> X -> xreal) -> (St -> Prop) -> (X -> xreal) -> Prop :=
| ConjNnw d h : nw_valid h ->
    conjugate (@is_space_int d) (fun s y => Fin (mnorm_lpdf s y)) (@written d) (fun y => Fin (nnw_marg_lpdf lgam (nw_proto h) y))
| ConjLin d h : mnig_valid h ->
    conjugate (@is_response_int d) (fun s o => Fin (lin_lpdf s o.1 o.2)) (fun s => 0 < lr_var s)
      (fun o => Fin (lin_marg_lpdf lgam h o.1 o.2)).

Record space X (Int : (X -> R) -> R -> Prop) : Prop := mkSpace {
  sp_ext : forall f g l, (forall x, f x = g x) -> Int f l -> Int g l;
  sp_plus : forall f g a b, Int f a -> Int g b -> Int (fun x => Rplus (f x) (g x)) (Rplus a b);
  sp_scal : forall f c a, Int f a -> Int (fun x => Rmult c (f x)) (Rmult c a);
  sp_zero : Int (fun _ => 0%coqR) 0%coqR }.
Lemma vector_space : forall d, space (@is_space_int d).
Proof. move=> d. split; [exact: space_ext|exact: space_plus|exact: space_scal|exact: space_zero]. Qed.
Lemma response_space : forall d, space (@is_response_int d).
Proof. move=> d. split; [exact: response_ext|exact: response_plus|exact: response_scal|exact: response_zero]. Qed.
Lemma family_ok : forall X Int St like ok, @family X Int St like ok ->
  space Int /\ forall s, ok s -> Int (fun y => xexp (like s y)) 1.
Proof.
  move=> X Int St like ok [d|p q|d]; split; try exact: vector_space; try exact: response_space.
  - move=> s [m [P [HP [->| ->]]]]; [exact: set_constrained_mass|exact: write_prec_mass].
  - move=> s [Hc Hp]. apply: space_ext (stan_mvn_mass (fa_mu s) (fa_cov_spd (fa_lambda s) Hp)) => y.
    have HL : fa_lpdf s y = Ok (stan_mvn_lpdf y (fa_mu s) (fa_cov (fa_psi s) (fa_lambda s))) by rewrite {1}Hc fa_lpdf_proto.
    by rewrite /fa_like HL.
  - move=> s Hv x. exact: lin_like_mass.
Qed.
Lemma conjugate_ok : forall X Int St like ok comp, @conjugate X Int St like ok comp ->
  family Int like ok /\ Int (fun y => xexp (comp y)) 1.
Proof.
  move=> X Int St like ok comp [d h H|d h H]; split; try exact: FamNorm; try exact: FamLin.
  - exact: nnw_predictive_mass.
  - move=> x. exact: lin_predictive_mass.
Qed.

Section Statements.
  Variables (X : Type) (Int : (X -> R) -> R -> Prop) (St : Type) (like : St -> X -> xreal) (ok : St -> Prop).
  (** The exponentials of the returned values are the values on the grid of one
      function, whose integral is one. *)
  Theorem C108_conjugate_dirichlet : forall comp uv (sv : saved St R), conjugate Int like ok comp -> uv <> nil -> saved_ok St sv ->
    0 < sv_mix sv -> all_ok St ok (sv_clusters sv) ->
    exists dens, Int dens 1 /\ forall grid o, exists out o',
      marg_eval like dp_mixer uv comp sv grid o = Ok (out, o') /\ List.map xexp out = List.map dens grid.
  Proof.
    move=> comp uv sv /conjugate_ok [/family_ok [HI HL] HC] U S /RltE M A. case: (HI) => E P C Z.
    exact: (dp_proper X Int E P C Z St like ok HL uv comp sv U S M A HC).
  Qed.
  Theorem C108_conjugate_pitman_yor : forall comp uv (sv : saved St py_state), conjugate Int like ok comp -> uv <> nil -> saved_ok St sv ->
    0 <= py_dis (sv_mix sv) -> py_dis (sv_mix sv) < 1 -> - py_dis (sv_mix sv) < py_str (sv_mix sv) -> sv_clusters sv <> nil ->
    all_ok St ok (sv_clusters sv) ->
    exists dens, Int dens 1 /\ forall grid o, exists out o',
      marg_eval like py_mixer uv comp sv grid o = Ok (out, o') /\ List.map xexp out = List.map dens grid.
  Proof.
    move=> comp uv sv /conjugate_ok [/family_ok [HI HL] HC] U S /RleE D0 /RltE D1 /RltE T N A. case: (HI) => E P C Z.
    exact: (py_proper X Int E P C Z St like ok HL uv comp sv U S (Logic.conj D0 D1) T N A HC).
  Qed.
  Theorem C108_conjugate_finite : forall series comp uv (sv : saved St (R * R)) grid o V1 V2 s1 s2, conjugate Int like ok comp ->
    uv <> nil -> saved_ok St sv ->
    let K := List.length (sv_clusters sv) in
    0 < snd (sv_mix sv) -> mfm_get_V series K (sv_n sv) (mfm_load (fst (sv_mix sv)) (snd (sv_mix sv)) o) = Ok (V1, s1) ->
    mfm_get_V series (K + 1) (sv_n sv) s1 = Ok (V2, s2) -> 0 < V1 -> 0 <= V2 -> (0 < K)%coq_nat -> all_ok St ok (sv_clusters sv) ->
    exists dens, Int dens 1 /\ exists out o',
      marg_eval like (mfm_mixer series) uv comp sv grid o = Ok (out, o') /\ List.map xexp out = List.map dens grid.
  Proof.
    move=> series comp uv sv grid o V1 V2 s1 s2 /conjugate_ok [/family_ok [HI HL] HC] U S K /RltE G E1 E2 /RltE P1 /RleE P2 HK A.
    case: (HI) => E P C Z.
    exact: (mfm_proper X Int E P C Z St like ok HL series uv comp sv grid o V1 V2 s1 s2 U S G E1 E2 P1 P2 HK A HC).
  Qed.

  (** Neal8: the new component is an average over prior draws. *)
  Theorem C108_auxiliary_dirichlet : forall draws uv (sv : saved St R), family Int like ok -> draws <> nil ->
    (forall s, List.In s draws -> ok s) -> uv <> nil -> saved_ok St sv -> 0 < sv_mix sv -> all_ok St ok (sv_clusters sv) ->
    exists dens, Int dens 1 /\ forall grid o, exists out o',
      marg_eval like dp_mixer uv (aux_component like draws) sv grid o = Ok (out, o') /\ List.map xexp out = List.map dens grid.
  Proof.
    move=> draws uv sv /family_ok [HI HL] N D U S /RltE M A. case: (HI) => E P C Z.
    exact: (dp_proper X Int E P C Z St like ok HL uv _ sv U S M A (aux_int X Int E P C Z St like ok HL draws N D)).
  Qed.
  Theorem C108_auxiliary_pitman_yor : forall draws uv (sv : saved St py_state), family Int like ok -> draws <> nil ->
    (forall s, List.In s draws -> ok s) -> uv <> nil -> saved_ok St sv ->
    0 <= py_dis (sv_mix sv) -> py_dis (sv_mix sv) < 1 -> - py_dis (sv_mix sv) < py_str (sv_mix sv) -> sv_clusters sv <> nil ->
    all_ok St ok (sv_clusters sv) ->
    exists dens, Int dens 1 /\ forall grid o, exists out o',
      marg_eval like py_mixer uv (aux_component like draws) sv grid o = Ok (out, o') /\ List.map xexp out = List.map dens grid.
  Proof.
    move=> draws uv sv /family_ok [HI HL] N D U S /RleE D0 /RltE D1 /RltE T Ne A. case: (HI) => E P C Z.
    exact: (py_proper X Int E P C Z St like ok HL uv _ sv U S (Logic.conj D0 D1) T Ne A (aux_int X Int E P C Z St like ok HL draws N D)).
  Qed.

  (** Conditional algorithms: one minus the weight left after the last stick. *)
  Theorem C108_stick_density : forall uv sticks states, family Int like ok -> uv <> nil -> List.length states = List.length sticks ->
    List.Forall (fun v : R => 0 <= v /\ v <= 1) sticks -> (forall s, List.In s states -> ok s) ->
    exists dens, Int dens (1 - List.fold_right Rmult 1 (List.map (fun v : R => 1 - v) sticks)) /\
      forall grid, exists out, cond_eval like uv (Stick.logweights_from_sticks sticks) states grid = Ok out /\
        List.map xexp out = List.map dens grid.
  Proof.
    move=> uv sticks states /family_ok [HI HL] U L H A. case: (HI) => E P C Z.
    have H' : List.Forall (fun v => (0 <= v <= 1)%coqR) sticks.
    { apply: List.Forall_impl H => v [/RleE H0 /RleE H1]. by split. }
    have -> : 1 - List.fold_right Rmult 1 (List.map (fun v : R => 1 - v) sticks) = EvalFacts.total (List.map xexp (Stick.logweights_from_sticks sticks)).
    { symmetry. exact: P_MargInt.stick_mass. }
    have L2 : List.length (Stick.logweights_from_sticks sticks) = List.length sticks.
    { rewrite /Stick.logweights_from_sticks. move: (Fin 0). elim: sticks {L H H'} => [|v t IH] c //=. by rewrite IH. }
    exact: (cond_mass X Int E P C Z St like ok HL uv _ states U (eq_trans L (esym L2)) A).
  Qed.
  Theorem C108_blocked_density : forall uv sticks states, family Int like ok -> uv <> nil -> List.length states = List.length sticks ->
    List.Forall (fun v : R => 0 <= v /\ v <= 1) sticks -> sticks <> nil -> List.last sticks 0 = 1 -> (forall s, List.In s states -> ok s) ->
    exists dens, Int dens 1 /\
      forall grid, exists out, cond_eval like uv (Stick.logweights_from_sticks sticks) states grid = Ok out /\
        List.map xexp out = List.map dens grid.
  Proof.
    move=> uv sticks states HF U L H N La A. have [dens [I E]] := C108_stick_density HF U L H A.
    exists dens. split=> //. move: I. have -> : List.fold_right Rmult 1 (List.map (fun v : R => 1 - v) sticks) = 0.
    { exact: (@StickFacts.rest_last_one sticks N La). }
    by rewrite subr0.
  Qed.
  (** Slice sampler: the integral is below one for every state. *)
  Theorem C108_slice_mass_below_one : forall uv sticks states, family Int like ok -> uv <> nil -> List.length states = List.length sticks ->
    List.Forall (fun v : R => 0 < v /\ v < 1) sticks -> (forall s, List.In s states -> ok s) ->
    exists dens mass, mass < 1 /\ Int dens mass /\
      forall grid, exists out, cond_eval like uv (Stick.logweights_from_sticks sticks) states grid = Ok out /\
        List.map xexp out = List.map dens grid.
  Proof.
    move=> uv sticks states HF U L H A.
    have H' : List.Forall (fun v : R => 0 <= v /\ v <= 1) sticks.
    { apply: List.Forall_impl H => v [H0 H1]. by rewrite !ltW. }
    have [dens [I E]] := C108_stick_density HF U L H' A. exists dens. eexists. split; last by split; [exact: I|].
    rewrite ltr_subl_addr ltr_addl. elim: H {L H' I E A} => [|v t [H0 H1] _ IH] /=; first exact: ltr01.
    apply: mulr_gt0 => //. by rewrite subr_gt0.
  Qed.
End Statements.
Print Assumptions C108_conjugate_dirichlet.
Print Assumptions C108_conjugate_pitman_yor.
Print Assumptions C108_conjugate_finite.
Print Assumptions C108_auxiliary_dirichlet.
Print Assumptions C108_auxiliary_pitman_yor.
Print Assumptions C108_stick_density.
Print Assumptions C108_blocked_density.
Print Assumptions C108_slice_mass_below_one.

Definition xcl : list (mls 2 * Z) := [:: (mls_set_constrained mo mS, Zpos 3); (write_prec_to_state mi mS, Zpos 1)].
Lemma xcl_saved : forall Msg (m : Msg), saved_ok (mls 2) (mkSaved 4 xcl m).
Proof. move=> Msg m. split; last by []. move=> p [<-|[<-|[]]] /=; lia. Qed.
Lemma written_c : forall m, written (mls_set_constrained m mS).
Proof. move=> m. exists m, mS. split; [exact: mS_spd|by left]. Qed.
Lemma xcl_ok : all_ok (mls 2) (@written 2) xcl.
Proof. move=> p [<-|[<-|[]]] /=; first exact: written_c. exists mi, mS. split; [exact: mS_spd|by right]. Qed.
Example ex_C108_dirichlet : exists dens, is_space_int dens 1 /\ forall grid o, exists out o',
    marg_eval (fun s y => Fin (mnorm_lpdf s y)) dp_mixer [:: mls_set_constrained mo mS] (fun y => Fin (nnw_marg_lpdf lgam (nw_proto mh) y)) (mkSaved 4 xcl 2%:R) grid o =
      Ok (out, o') /\ List.map xexp out = List.map dens grid.
Proof.
  refine (@C108_conjugate_dirichlet _ _ _ _ _ _ _ _ (ConjNnw mh_valid) _ _ _ _); [by []|exact: xcl_saved|exact: ltr0Sn|exact: xcl_ok].
Qed.
Definition rcl : list (lrs 2 * Z) := [:: (mkLRS mi 1, Zpos 3); (mkLRS mo 2%:R, Zpos 1)].
Lemma rcl_ok : all_ok (lrs 2) (fun s => 0 < lr_var s) rcl.
Proof. move=> p [<-|[<-|[]]] /=; [exact: ltr01|exact: ltr0Sn]. Qed.
Lemma rcl_saved : forall Msg (m : Msg), saved_ok (lrs 2) (mkSaved 4 rcl m).
Proof. move=> Msg m. split; last by []. move=> p [<-|[<-|[]]] /=; lia. Qed.
Example ex_C108_pitman_yor : exists dens, is_response_int dens 1 /\ forall grid o, exists out o',
    marg_eval (fun s o => Fin (lin_lpdf s o.1 o.2)) py_mixer [:: mkLRS mi 1] (fun o => Fin (lin_marg_lpdf lgam lh o.1 o.2)) (mkSaved 4 rcl (mkPy 1 0)) grid o =
      Ok (out, o') /\ List.map xexp out = List.map dens grid.
Proof.
  refine (@C108_conjugate_pitman_yor _ _ _ _ _ _ _ _ (ConjLin lh_valid) _ _ _ _ _ _ _);
    [by []|exact: rcl_saved|exact: lexx|exact: ltr01|by rewrite oppr0 ltr01|by []|exact: rcl_ok].
Qed.
Example ex_C108_finite : exists dens, is_space_int dens 1 /\ exists out o',
    marg_eval (fun s y => Fin (mnorm_lpdf s y)) (mfm_mixer (fun _ _ _ t _ => Rdiv 1 (pow 2 t))) [:: mls_set_constrained mo mS]
      (fun y => Fin (nnw_marg_lpdf lgam (nw_proto mh) y)) (mkSaved 4 xcl (1, 1)) [:: mo; mi] (mkMfm 1 1 None 0) = Ok (out, o') /\
    List.map xexp out = List.map dens [:: mo; mi].
Proof.
  have H24 : (2 + 1 <= 4)%coq_nat by lia.
  have [s1 [s2 [E1 [E2 _]]]] := EvalMore.fresh_two (fun _ _ _ t _ => Rdiv 1 (pow 2 t)) 1 1 0 4 2 H24.
  refine (@C108_conjugate_finite _ _ _ _ _ _ _ _ (mkSaved 4 xcl (1, 1)) [:: mo; mi] (mkMfm 1 1 None 0) _ _ s1 s2 (ConjNnw mh_valid) _ _ _ E1 E2 _ _ _ _);
    [by []|exact: xcl_saved|exact: ltr01| | |by rewrite /=; lia|exact: xcl_ok];
    [apply/RltE|apply/RleE; apply: Rlt_le]; apply: Rdiv_lt_0_compat; try exact: Rlt_0_1; apply: pow_lt; exact: Rlt_0_2.
Qed.
Example ex_C108_auxiliary : exists dens, is_space_int dens 1 /\ forall grid o, exists out o',
    marg_eval (@fa_like 2 1) dp_mixer [:: fa_cache mo fpsi [::] flam] (aux_component (@fa_like 2 1) [:: fa_cache mi fpsi [::] flam; fa_cache mo fpsi [::] flam])
      (mkSaved 4 [:: (fa_cache mi fpsi [::] flam, Zpos 4)] 2%:R) grid o = Ok (out, o') /\ List.map xexp out = List.map dens grid.
Proof.
  have K : forall m, fa_consistent (fa_cache m fpsi [::] flam) /\ pos_vec (fa_psi (fa_cache m fpsi [::] flam)) by move=> m; split; [|exact: fpsi_pos].
  refine (@C108_auxiliary_dirichlet _ _ _ _ _ _ _ _ (FamFa 2 1) _ _ _ _ _ _) => //.
  - move=> s [<-|[<-|[]]]; exact: K.
  - split=> //. move=> p [<-|[]] /=; lia.
  - exact: ltr0Sn.
  - move=> p [<-|[]]; exact: K.
Qed.
Example ex_C108_auxiliary_pitman_yor : exists dens, is_response_int dens 1 /\ forall grid o, exists out o',
    marg_eval (fun s o => Fin (lin_lpdf s o.1 o.2)) py_mixer [:: mkLRS mi 1] (aux_component (fun s o => Fin (lin_lpdf s o.1 o.2)) [:: mkLRS mo 1; mkLRS mi 1])
      (mkSaved 4 rcl (mkPy 1 0)) grid o = Ok (out, o') /\ List.map xexp out = List.map dens grid.
Proof.
  refine (@C108_auxiliary_pitman_yor _ _ _ _ _ _ _ _ (FamLin 2) _ _ _ _ _ _ _ _ _);
    [by []| |by []|exact: rcl_saved|exact: lexx|exact: ltr01|by rewrite oppr0 ltr01|by []|exact: rcl_ok].
  move=> s [<-|[<-|[]]]; exact: ltr01.
Qed.
Example ex_C108_blocked : exists dens, is_space_int dens 1 /\
    forall grid, exists out, cond_eval (fun s y => Fin (mnorm_lpdf s y)) [:: mls_set_constrained mo mS] (Stick.logweights_from_sticks [:: 0; 1])
      [:: mls_set_constrained mo mS; mls_set_constrained mi mS] grid = Ok out /\ List.map xexp out = List.map dens grid.
Proof.
  refine (@C108_blocked_density _ _ _ _ _ _ _ _ (FamNorm 2) _ _ _ _ _ _) => //.
  - repeat constructor; by rewrite ?lexx ?ler01.
  - move=> s [<-|[<-|[]]]; exact: written_c.
Qed.
Example ex_C108_slice : exists dens mass, mass < 1 /\ is_space_int dens mass /\
    forall grid, exists out, cond_eval (fun s y => Fin (mnorm_lpdf s y)) [:: mls_set_constrained mo mS] (Stick.logweights_from_sticks [:: 2%:R^-1; 3%:R^-1])
      [:: mls_set_constrained mo mS; mls_set_constrained mi mS] grid = Ok out /\ List.map xexp out = List.map dens grid.
Proof.
  refine (@C108_slice_mass_below_one _ _ _ _ _ _ _ _ (FamNorm 2) _ _ _ _) => //.
  - have H : forall n, (1 < n)%N -> 0 < n%:R^-1 :> R /\ n%:R^-1 < 1 :> R.
    { move=> [|n] // Hn. by rewrite invr_gt0 ltr0Sn invf_lt1 ?ltr0Sn // ltr1n. }
    apply: List.Forall_cons; first exact: H. apply: List.Forall_cons; first exact: H. exact: List.Forall_nil.
  - move=> s [<-|[<-|[]]]; exact: written_c.
Qed.
