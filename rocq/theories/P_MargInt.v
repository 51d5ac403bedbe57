(** * C105, C106: densities as integrals. *)
From Coq Require Import Bool List Arith ZArith Reals Lra Lia.
From Verif Require Import Base XReal Mixings PartSpec MixFacts Univ UnivFacts GaussInt GammaInt DistFacts UnivInt StudentInt Stick StickFacts Collect Utils Eval EvalFacts EvalMore EvalInt.
From Verif Require Import P_Univ P_Eval.
Import ListNotations.
Local Open Scope R_scope.

(** ** C105 *)

(** The log-gamma function of the statements is the logarithm of Euler's integral. *)
Theorem C105_gamma_function : forall a, 0 < a -> is_half_int (fun t => exp ((a - 1) * ln t - t)) (exp (lgam a)).
Proof. intros a Ha. rewrite exp_lgam. exact (Gamma_int a Ha). Qed.
Print Assumptions C105_gamma_function.
Theorem C105_nig_normalised : forall h, valid h -> is_half_plane_int (fun m v => exp (nig_lpdf lgam h (mkLS m v))) 1.
Proof. exact nig_normalised. Qed.
Print Assumptions C105_nig_normalised.
Theorem C105_nxig_normalised : forall h, 0 < nx_var h -> 0 < nx_shape h -> 0 < nx_scale h ->
  is_half_plane_int (fun m v => exp (nxig_lpdf lgam h (mkLS m v))) 1.
Proof. exact nxig_normalised. Qed.
Print Assumptions C105_nxig_normalised.
(** Prior of the total mass and of the random scale hyperparameter. *)
Theorem C105_gamma_normalised : forall a b, 0 < a -> 0 < b -> is_half_int (fun y => exp (gamma_lpdf lgam y a b)) 1.
Proof. exact gamma_normalised. Qed.
Print Assumptions C105_gamma_normalised.
(** The marginal likelihood of C16 is the integral of likelihood times prior. *)
Theorem C105_marginal_integral : forall h ys, valid h ->
  is_half_plane_int (fun m v => exp (nig_lpdf lgam h (mkLS m v) + sumR (map (norm_lpdf (mkLS m v)) ys))) (exp (log_marg lgam h ys)).
Proof. exact marginal_integral. Qed.
Print Assumptions C105_marginal_integral.
Theorem C105_predictive_integral : forall h y, valid h ->
  is_half_plane_int (fun m v => exp (nig_lpdf lgam h (mkLS m v) + norm_lpdf (mkLS m v) y)) (exp (nnig_marg_lpdf lgam h y)).
Proof. exact predictive_integral. Qed.
Print Assumptions C105_predictive_integral.
(** With the updated hyperparameters: the conditional density of the next datum
    given the data of the cluster, as a ratio of two integrals. *)
Theorem C105_posterior_predictive : forall h ys y J1 J0, valid h ->
  is_half_plane_int (fun m v => exp (nig_lpdf lgam h (mkLS m v) + sumR (map (norm_lpdf (mkLS m v)) (y :: ys)))) J1 ->
  is_half_plane_int (fun m v => exp (nig_lpdf lgam h (mkLS m v) + sumR (map (norm_lpdf (mkLS m v)) ys))) J0 ->
  0 < J0 /\ exp (nnig_marg_lpdf lgam (nnig_post h (cardZ ys) (stats_of ys)) y) = J1 / J0.
Proof. exact posterior_predictive_ratio. Qed.
Print Assumptions C105_posterior_predictive.
Theorem C105_predictive_normalised : forall h, valid h -> is_line_int (fun y => exp (nnig_marg_lpdf lgam h y)) 1.
Proof. exact nnig_predictive_normalised. Qed.
Print Assumptions C105_predictive_normalised.
Theorem C105_likelihoods_normalised : forall s, 0 < ls_var s ->
  is_line_int (fun y => exp (norm_lpdf s y)) 1 /\ is_line_int (fun y => exp (lap_lpdf s y)) 1.
Proof. intros s Hs. split; [now apply norm_like_normalised|now apply lap_like_normalised]. Qed.
Print Assumptions C105_likelihoods_normalised.

Example ex_C105_gamma : lgam 1 = 0 /\ is_half_int (fun t => exp ((1 - 1) * ln t - t)) (exp (lgam 1)).
Proof. split; [exact lgam_one|]. apply C105_gamma_function. lra. Qed.
Example ex_C105_nig : is_half_plane_int (fun m v => exp (nig_lpdf lgam uh (mkLS m v))) 1.
Proof. apply C105_nig_normalised, uh_valid. Qed.
Example ex_C105_nxig : is_half_plane_int (fun m v => exp (nxig_lpdf lgam uxh (mkLS m v))) 1.
Proof. apply C105_nxig_normalised; simpl; lra. Qed.
Example ex_C105_marginal : is_half_plane_int (fun m v => exp (nig_lpdf lgam uh (mkLS m v) + sumR (map (norm_lpdf (mkLS m v)) uys))) (exp (log_marg lgam uh uys)).
Proof. apply C105_marginal_integral, uh_valid. Qed.
Example ex_C105_predictive : is_line_int (fun y => exp (nnig_marg_lpdf lgam (nnig_post uh (cardZ uys) (stats_of uys)) y)) 1.
Proof. apply C105_predictive_normalised, C18_nnig_valid, uh_valid. Qed.
Example ex_C105_posterior_predictive : exp (nnig_marg_lpdf lgam (nnig_post uh (cardZ uys) (stats_of uys)) 3) = exp (log_marg lgam uh (3 :: uys)) / exp (log_marg lgam uh uys).
Proof.
  apply (C105_posterior_predictive uh uys 3); [exact uh_valid|apply C105_marginal_integral, uh_valid|apply C105_marginal_integral, uh_valid].
Qed.
Example ex_C105_likelihoods : is_line_int (fun y => exp (lap_lpdf us y)) 1.
Proof. apply (proj2 (C105_likelihoods_normalised us ltac:(simpl; lra))). Qed.

(** ** C106

    [dens] is one density; whatever the grid, the exponentials of the returned
    values are its values there. *)
Definition positive_states (cl : list (uni_ls * Z)) : Prop := forall p, In p cl -> 0 < ls_var (fst p).
Definition fin_like (f : uni_ls -> R -> R) (s : uni_ls) (y : R) : xreal := Fin (f s y).
Definition univariate_like (f : uni_ls -> R -> R) : Prop := f = norm_lpdf \/ f = lap_lpdf.

Lemma fin_like_int : forall f, univariate_like f -> forall s, 0 < ls_var s -> is_line_int (fun y => xexp (fin_like f s y)) 1.
Proof. intros f [->| ->] s Hs; [exact (proj1 (C105_likelihoods_normalised s Hs))|exact (proj2 (C105_likelihoods_normalised s Hs))]. Qed.

Theorem C106_conjugate_dirichlet : forall h uv (sv : saved uni_ls R), valid h -> uv <> [] -> saved_ok uni_ls sv -> 0 < sv_mix sv ->
  positive_states (sv_clusters sv) ->
  exists dens, is_line_int dens 1 /\ forall grid o, exists out o',
    marg_eval (fin_like norm_lpdf) dp_mixer uv (fun y => Fin (nnig_marg_lpdf lgam h y)) sv grid o = Ok (out, o') /\ map xexp out = map dens grid.
Proof.
  intros h uv sv Hh U S M A. apply (dp_proper R is_line_int line_ext line_plus line_scal line_zero uni_ls _ (fun s => 0 < ls_var s) (fin_like_int _ (or_introl eq_refl))); try assumption.
  now apply C105_predictive_normalised.
Qed.
Print Assumptions C106_conjugate_dirichlet.
Theorem C106_conjugate_pitman_yor : forall h uv (sv : saved uni_ls py_state), valid h -> uv <> [] -> saved_ok uni_ls sv ->
  0 <= py_dis (sv_mix sv) < 1 -> - py_dis (sv_mix sv) < py_str (sv_mix sv) -> sv_clusters sv <> [] -> positive_states (sv_clusters sv) ->
  exists dens, is_line_int dens 1 /\ forall grid o, exists out o',
    marg_eval (fin_like norm_lpdf) py_mixer uv (fun y => Fin (nnig_marg_lpdf lgam h y)) sv grid o = Ok (out, o') /\ map xexp out = map dens grid.
Proof.
  intros h uv sv Hh U S D T N A. apply (py_proper R is_line_int line_ext line_plus line_scal line_zero uni_ls _ (fun s => 0 < ls_var s) (fin_like_int _ (or_introl eq_refl))); try assumption.
  now apply C105_predictive_normalised.
Qed.
Print Assumptions C106_conjugate_pitman_yor.
Theorem C106_conjugate_finite : forall series h uv (sv : saved uni_ls (R * R)) grid o V1 V2 s1 s2, valid h -> uv <> [] -> saved_ok uni_ls sv ->
  let K := length (sv_clusters sv) in
  0 < snd (sv_mix sv) -> mfm_get_V series K (sv_n sv) (mfm_load (fst (sv_mix sv)) (snd (sv_mix sv)) o) = Ok (V1, s1) ->
  mfm_get_V series (K + 1) (sv_n sv) s1 = Ok (V2, s2) -> 0 < V1 -> 0 <= V2 -> (0 < K)%nat -> positive_states (sv_clusters sv) ->
  exists dens, is_line_int dens 1 /\ exists out o',
    marg_eval (fin_like norm_lpdf) (mfm_mixer series) uv (fun y => Fin (nnig_marg_lpdf lgam h y)) sv grid o = Ok (out, o') /\ map xexp out = map dens grid.
Proof.
  intros series h uv sv grid o V1 V2 s1 s2 Hh U S K G E1 E2 P1 P2 HK A.
  apply (mfm_proper R is_line_int line_ext line_plus line_scal line_zero uni_ls _ (fun s => 0 < ls_var s) (fin_like_int _ (or_introl eq_refl)) series uv _ sv grid o V1 V2 s1 s2); try assumption.
  now apply C105_predictive_normalised.
Qed.
Print Assumptions C106_conjugate_finite.
(** Neal8: the new component is an average over prior draws. *)
Theorem C106_auxiliary_dirichlet : forall f draws uv (sv : saved uni_ls R), univariate_like f -> draws <> [] -> (forall s, In s draws -> 0 < ls_var s) ->
  uv <> [] -> saved_ok uni_ls sv -> 0 < sv_mix sv -> positive_states (sv_clusters sv) ->
  exists dens, is_line_int dens 1 /\ forall grid o, exists out o',
    marg_eval (fin_like f) dp_mixer uv (aux_component (fin_like f) draws) sv grid o = Ok (out, o') /\ map xexp out = map dens grid.
Proof.
  intros f draws uv sv Hf N Hd U S M A. apply (dp_proper R is_line_int line_ext line_plus line_scal line_zero uni_ls _ (fun s => 0 < ls_var s) (fin_like_int f Hf)); try assumption.
  apply (aux_int R is_line_int line_ext line_plus line_scal line_zero uni_ls _ (fun s => 0 < ls_var s) (fin_like_int f Hf)); assumption.
Qed.
Print Assumptions C106_auxiliary_dirichlet.
Theorem C106_auxiliary_pitman_yor : forall f draws uv (sv : saved uni_ls py_state), univariate_like f -> draws <> [] -> (forall s, In s draws -> 0 < ls_var s) ->
  uv <> [] -> saved_ok uni_ls sv -> 0 <= py_dis (sv_mix sv) < 1 -> - py_dis (sv_mix sv) < py_str (sv_mix sv) -> sv_clusters sv <> [] ->
  positive_states (sv_clusters sv) ->
  exists dens, is_line_int dens 1 /\ forall grid o, exists out o',
    marg_eval (fin_like f) py_mixer uv (aux_component (fin_like f) draws) sv grid o = Ok (out, o') /\ map xexp out = map dens grid.
Proof.
  intros f draws uv sv Hf N Hd U S D T Ne A. apply (py_proper R is_line_int line_ext line_plus line_scal line_zero uni_ls _ (fun s => 0 < ls_var s) (fin_like_int f Hf)); try assumption.
  apply (aux_int R is_line_int line_ext line_plus line_scal line_zero uni_ls _ (fun s => 0 < ls_var s) (fin_like_int f Hf)); assumption.
Qed.
Print Assumptions C106_auxiliary_pitman_yor.

Lemma stick_mass : forall sticks, Forall (fun v => 0 <= v <= 1) sticks ->
  total (map xexp (logweights_from_sticks sticks)) = 1 - fold_right Rmult 1 (map (fun v => 1 - v) sticks).
Proof.
  intros l H. unfold logweights_from_sticks. rewrite log_scale by exact H. cbn [xexp]. rewrite exp_0.
  change (fold_right Rplus 0 (weights_go numR 1 l) = 1 - fold_right Rmult 1 (map (fun v => 1 - v) l)). pose proof (weights_sum l 1) as W. rewrite Rmult_1_l in W. exact W.
Qed.

(** Conditional algorithms with a stick-breaking mixing: the integral is one
    minus the weight left after the last stick. *)
Theorem C106_stick_density : forall f uv sticks states, univariate_like f -> uv <> [] -> length states = length sticks ->
  Forall (fun v => 0 <= v <= 1) sticks -> (forall s, In s states -> 0 < ls_var s) ->
  exists dens, is_line_int dens (1 - fold_right Rmult 1 (map (fun v => 1 - v) sticks)) /\
    forall grid, exists out, cond_eval (fin_like f) uv (logweights_from_sticks sticks) states grid = Ok out /\ map xexp out = map dens grid.
Proof.
  intros f uv sticks states Hf U L H A. rewrite <- stick_mass by exact H.
  assert (L2 : length (logweights_from_sticks sticks) = length sticks).
  { clear. unfold logweights_from_sticks. generalize (Fin 0). induction sticks as [|v t IH]; intro c; [reflexivity|]. cbn. f_equal. apply IH. }
  exact (cond_mass R is_line_int line_ext line_plus line_scal line_zero uni_ls _ (fun s => 0 < ls_var s) (fin_like_int f Hf) uv _ states U (eq_trans L (eq_sym L2)) A).
Qed.
Print Assumptions C106_stick_density.
(** Blocked Gibbs: the last stick is one. *)
Theorem C106_blocked_density : forall f uv sticks states, univariate_like f -> uv <> [] -> length states = length sticks ->
  Forall (fun v => 0 <= v <= 1) sticks -> sticks <> [] -> last sticks 0 = 1 -> (forall s, In s states -> 0 < ls_var s) ->
  exists dens, is_line_int dens 1 /\
    forall grid, exists out, cond_eval (fin_like f) uv (logweights_from_sticks sticks) states grid = Ok out /\ map xexp out = map dens grid.
Proof.
  intros f uv sticks states Hf U L H N La A. destruct (C106_stick_density f uv sticks states Hf U L H A) as (dens & I & E).
  exists dens. split; [|exact E]. assert (Z : fold_right Rmult 1 (map (fun v => 1 - v) sticks) = 0) by exact (@rest_last_one sticks N La). rewrite Z, Rminus_0_r in I. exact I.
Qed.
Print Assumptions C106_blocked_density.
(** Slice sampler: every stick is below one, so the evaluated function is never
    a density. *)
Theorem C106_slice_density_refuted : exists uv sticks states, uv <> [] /\ length states = length sticks /\
  Forall (fun v => 0 < v < 1) sticks /\ (forall s, In s states -> 0 < ls_var s) /\
  ~ exists dens, is_line_int dens 1 /\
    forall grid, exists out, cond_eval (fin_like norm_lpdf) uv (logweights_from_sticks sticks) states grid = Ok out /\ map xexp out = map dens grid.
Proof.
  exists [us], [/ 2; / 2], [us; us]. split; [discriminate|]. split; [reflexivity|].
  assert (F : Forall (fun v => 0 < v < 1) [/ 2; / 2]) by (repeat constructor; lra). split; [exact F|].
  assert (A : forall s, In s [us; us] -> 0 < ls_var s) by (intros s [<-|[<-|[]]]; simpl; lra). split; [exact A|].
  intros (dens & I & E).
  destruct (C106_stick_density norm_lpdf [us] [/ 2; / 2] [us; us] (or_introl eq_refl) ltac:(discriminate) eq_refl ltac:(repeat constructor; lra) A) as (d2 & I2 & E2).
  assert (X : forall y, dens y = d2 y).
  { intro y. destruct (E [y]) as (o1 & Q1 & M1). destruct (E2 [y]) as (o2 & Q2 & M2). rewrite Q1 in Q2. injection Q2 as <-.
    rewrite M1 in M2. now injection M2. }
  apply (DistFacts.line_ext _ _ _ X) in I. pose proof (DistFacts.line_unique _ _ _ I I2) as Z. cbn in Z. lra.
Qed.
Print Assumptions C106_slice_density_refuted.
(** And so for every state of the slice sampler. *)
Theorem C106_slice_mass_below_one : forall f uv sticks states, univariate_like f -> uv <> [] -> length states = length sticks ->
  Forall (fun v => 0 < v < 1) sticks -> (forall s, In s states -> 0 < ls_var s) ->
  exists dens mass, mass < 1 /\ is_line_int dens mass /\
    forall grid, exists out, cond_eval (fin_like f) uv (logweights_from_sticks sticks) states grid = Ok out /\ map xexp out = map dens grid.
Proof.
  intros f uv l states Hf U L H A.
  destruct (C106_stick_density f uv l states Hf U L) as (dens & I & E); [|exact A|].
  { revert H. apply Forall_impl. intros v Hv. lra. }
  exists dens. eexists. split; [|split; [exact I|exact E]].
  assert (P : 0 < fold_right Rmult 1 (map (fun v => 1 - v) l)); [|lra].
  clear -H. induction H as [|v t Hv Ht IH]; [simpl; lra|]. cbn [map fold_right]. apply Rmult_lt_0_compat; lra.
Qed.
Print Assumptions C106_slice_mass_below_one.

Definition ex_cl : list (uni_ls * Z) := [(mkLS 0 1, 3%Z); (mkLS 5 2, 1%Z)].
Lemma ex_cl_saved : forall Msg (m : Msg), saved_ok uni_ls (mkSaved 4 ex_cl m).
Proof. intros Msg m. split; [|reflexivity]. intros p [<-|[<-|[]]]; simpl; lia. Qed.
Lemma ex_cl_pos : positive_states ex_cl.
Proof. intros p [<-|[<-|[]]]; simpl; lra. Qed.
Example ex_C106_dirichlet : exists dens, is_line_int dens 1 /\ forall grid o, exists out o',
    marg_eval (fin_like norm_lpdf) dp_mixer [us] (fun y => Fin (nnig_marg_lpdf lgam uh y)) (mkSaved 4 ex_cl 2) grid o = Ok (out, o') /\ map xexp out = map dens grid.
Proof. apply C106_conjugate_dirichlet; [exact uh_valid|discriminate|apply ex_cl_saved|simpl; lra|exact ex_cl_pos]. Qed.
Example ex_C106_pitman_yor : exists dens, is_line_int dens 1 /\ forall grid o, exists out o',
    marg_eval (fin_like lap_lpdf) py_mixer [us] (aux_component (fin_like lap_lpdf) [us; mkLS 0 3]) (mkSaved 4 ex_cl (mkPy 1 (1 / 2))) grid o = Ok (out, o') /\ map xexp out = map dens grid.
Proof.
  apply C106_auxiliary_pitman_yor; [now right|discriminate| |discriminate|apply ex_cl_saved|simpl; lra|simpl; lra|discriminate|exact ex_cl_pos].
  intros s [<-|[<-|[]]]; simpl; lra.
Qed.
Example ex_C106_finite : exists dens, is_line_int dens 1 /\ exists out o',
    marg_eval (fin_like norm_lpdf) (mfm_mixer (fun _ _ _ t _ => 1 / 2 ^ t)) [us] (fun y => Fin (nnig_marg_lpdf lgam uh y)) (mkSaved 4 ex_cl (1, 1)) [0; 1] (mkMfm 1 1 None 0) = Ok (out, o') /\
    map xexp out = map dens [0; 1].
Proof.
  destruct (fresh_two (fun _ _ _ t _ => 1 / 2 ^ t) 1 1 0 4 2 ltac:(lia)) as (s1 & s2 & E1 & E2 & _).
  apply (C106_conjugate_finite (fun _ _ _ t _ => 1 / 2 ^ t) uh [us] (mkSaved 4 ex_cl (1, 1)) [0; 1] (mkMfm 1 1 None 0) (1 / 2 ^ 2) (1 / 2 ^ 3) s1 s2);
    [exact uh_valid|discriminate|apply ex_cl_saved|simpl; lra|exact E1|exact E2|simpl; lra|simpl; lra|simpl; lia|exact ex_cl_pos].
Qed.
Example ex_C106_blocked : exists dens, is_line_int dens 1 /\
    forall grid, exists out, cond_eval (fin_like norm_lpdf) [us] (logweights_from_sticks [/ 3; 1]) [us; mkLS 0 3] grid = Ok out /\ map xexp out = map dens grid.
Proof.
  apply C106_blocked_density; [now left|discriminate|reflexivity|repeat constructor; lra|discriminate|reflexivity|].
  intros s [<-|[<-|[]]]; simpl; lra.
Qed.
