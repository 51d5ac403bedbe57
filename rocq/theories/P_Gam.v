(** * Property theorems: the gamma hierarchy of the examples and its program. *)
From Coq Require Import Bool List Arith ZArith Reals Lra Lia Permutation.
From Verif Require Import Base XReal Hier Algos Run Spec MargFacts NealFacts MargMore Mixings MixFacts PartSpec Univ UnivFacts GammaInt UnivInt.
From Verif Require Import MainFacts RealInst RealFacts Eval EvalFacts EvalInt Gam GamFacts.
From Verif Require MeanFacts.
Import ListNotations.
Local Open Scope R_scope.

(** ** C109: the hierarchy *)

(** Prior times likelihood is posterior times marginal likelihood, at every rate. *)
Theorem C109_bayes : forall lg h ys rate,
  gam_prior_lpdf lg h (mkGam (gp_shape h) rate) + sumR (map (gam_lpdf lg (mkGam (gp_shape h) rate)) ys) =
  gam_prior_lpdf lg (gam_post h (cardZ ys) (gam_stats_of ys)) (mkGam (gp_shape h) rate) + gam_log_marg lg h ys.
Proof. exact gam_bayes. Qed.
Print Assumptions C109_bayes.

Theorem C109_posterior_valid : forall h ys, gam_valid h -> Forall (fun y => 0 < y) ys -> gam_valid (gam_post h (cardZ ys) (gam_stats_of ys)).
Proof. exact gam_post_valid. Qed.
Print Assumptions C109_posterior_valid.

Theorem C109_marginal_integral : forall h ys, gam_valid h -> Forall (fun y => 0 < y) ys ->
  is_half_int (fun rate => exp (gam_prior_lpdf lgam h (mkGam (gp_shape h) rate) + sumR (map (gam_lpdf lgam (mkGam (gp_shape h) rate)) ys)))
    (exp (gam_log_marg lgam h ys)).
Proof. exact gam_marginal. Qed.
Print Assumptions C109_marginal_integral.

(** Statistics depend on the data left, not on the order of operations. *)
Theorem C109_statistics : forall ys zs ws, Permutation ys (zs ++ ws) ->
  fold_left (fun s y => gam_op y false s) zs (fold_left (fun s y => gam_op y true s) ys gam_stats0) = gam_stats_of ws.
Proof. exact gam_history. Qed.
Print Assumptions C109_statistics.

Theorem C109_init_iff : forall shape alpha beta,
  (0 < shape /\ 0 < alpha /\ 0 < beta -> gam_init shape alpha beta = Ok (mkGP shape alpha beta)) /\
  (~ (0 < shape /\ 0 < alpha /\ 0 < beta) -> exists msg, gam_init shape alpha beta = Throw msg).
Proof.
  intros s a b. unfold gam_init. split.
  - intros (H1 & H2 & H3). rewrite !(proj2 (lteb_false _ _)) by lra. reflexivity.
  - intro H. destruct (lteb s 0) eqn:E1; [eauto|]. destruct (lteb a 0) eqn:E2; [eauto|]. destruct (lteb b 0) eqn:E3; [eauto|].
    apply lteb_false in E1, E2, E3. tauto.
Qed.
Print Assumptions C109_init_iff.

(** Messages: what is written is read back; a message with fewer than two values
    is read out of range; further values are ignored. *)
Theorem C109_messages :
  (forall s, gam_of_msg (gam_to_msg s) = Ok s) /\ (forall h, gam_set_hyp h (gam_hyp_msg h) = Ok h) /\
  (forall l, (length l < 2)%nat -> gam_of_msg l = UB /\ forall h, gam_set_hyp h l = UB) /\
  (forall s l, gam_of_msg (gam_to_msg s ++ l) = Ok s).
Proof.
  split; [intros [a b]; reflexivity|]. split; [intros [a b c]; reflexivity|]. split; [|intros [a b] l; reflexivity].
  intros [|x [|y l]] H; [split; reflexivity..|simpl in H; lia].
Qed.
Print Assumptions C109_messages.

(** Loading the stored hyperparameters does not reproduce the prior: the shape is
    not part of the message, so another object keeps its own. *)
Theorem C109_hypers_complete_refuted : exists h h', gam_valid h /\ gam_valid h' /\ gam_hyp_msg h = gam_hyp_msg h' /\
  gam_set_hyp h' (gam_hyp_msg h) = Ok h' /\ forall G r, gm_shape (fst (gam_sample G h r)) <> gm_shape (fst (gam_sample G h' r)).
Proof.
  exists (mkGP 1 2 2), (mkGP 3 2 2). unfold gam_valid. cbn [gp_shape gp_alpha gp_beta].
  split; [lra|]. split; [lra|]. split; [reflexivity|]. split; [reflexivity|].
  intros G r. unfold gam_sample. cbn [gp_shape gp_alpha gp_beta]. destruct (g_gamma G 2 2 r) as [v q]. cbn. lra.
Qed.
Print Assumptions C109_hypers_complete_refuted.

(** A new component starts at the shape of its prior and the mean of the rate. *)
Theorem C109_initial_state : forall h, gam_valid h ->
  gm_shape (gam_init_state h) = gp_shape h /\ 0 < gm_rate (gam_init_state h) /\
  is_half_int (fun rate => rate * exp (gam_prior_lpdf lgam h (mkGam (gp_shape h) rate))) (gm_rate (gam_init_state h)).
Proof.
  intros h (_ & Ha & Hb). split; [reflexivity|]. split; [exact (Rdiv_lt_0_compat _ _ Ha Hb)|]. exact (MeanFacts.gamma_mean _ _ Ha Hb).
Qed.
Print Assumptions C109_initial_state.

Example ex_C109_initial_state : is_half_int (fun rate => rate * exp (gam_prior_lpdf lgam (mkGP 1 3 2) (mkGam 1 rate))) (3 / 2).
Proof. apply (C109_initial_state (mkGP 1 3 2)). repeat split; cbn; lra. Qed.

(** The hierarchy reports that it is conjugate, so the algorithms that need the
    marginal density accept it; the density throws for every datum although it
    has a value. *)
Theorem C109_conjugate_without_marginal : forall lg G h y, gam_valid h -> 0 < y ->
  conj (gam_iface lg G) = true /\ (exists msg, gam_marg h y = Throw msg) /\
  is_half_int (fun rate => exp (gam_prior_lpdf lgam h (mkGam (gp_shape h) rate) + gam_lpdf lgam (mkGam (gp_shape h) rate) y))
    (exp (gam_log_marg lgam h [y])).
Proof.
  intros lg G h y Hh Hy. split; [reflexivity|]. split; [eexists; reflexivity|].
  apply (half_ext (fun rate => exp (gam_prior_lpdf lgam h (mkGam (gp_shape h) rate) + sumR (map (gam_lpdf lgam (mkGam (gp_shape h) rate)) [y])))).
  - intros rate _. unfold sumR. cbn [map fold_right]. now rewrite Rplus_0_r.
  - apply gam_marginal; [exact Hh|repeat constructor; exact Hy].
Qed.
Print Assumptions C109_conjugate_without_marginal.

(** Evaluated mixtures (Neal8, Dirichlet process) are densities on the half line. *)
Definition gam_like (s : gam_st) (y : R) : xreal := Fin (gam_lpdf lgam s y).
Definition gam_pos (s : gam_st) : Prop := 0 < gm_shape s /\ 0 < gm_rate s.
Theorem C109_evaluated_density : forall draws uv (sv : saved gam_st R), draws <> [] -> (forall s, In s draws -> gam_pos s) ->
  uv <> [] -> saved_ok gam_st sv -> 0 < sv_mix sv -> (forall p, In p (sv_clusters sv) -> gam_pos (fst p)) ->
  exists dens, is_half_int dens 1 /\ forall grid o, exists out o',
    marg_eval gam_like dp_mixer uv (aux_component gam_like draws) sv grid o = Ok (out, o') /\ map xexp out = map dens grid.
Proof.
  intros draws uv sv N Hd U S M A.
  apply (dp_proper R is_half_int (fun f g l E => half_ext f g l (fun x _ => E x)) half_plus half_scal half_zero gam_st gam_like gam_pos gam_like_int); try assumption.
  apply (aux_int R is_half_int (fun f g l E => half_ext f g l (fun x _ => E x)) half_plus half_scal half_zero gam_st gam_like gam_pos gam_like_int); assumption.
Qed.
Print Assumptions C109_evaluated_density.

(** Three data under the prior of the program. *)
Lemma ex_h_valid : gam_valid (mkGP 1 2 2).
Proof. unfold gam_valid; cbn; lra. Qed.
Example ex_C109_posterior : gam_post (mkGP 1 2 2) (cardZ [1; 2; 4]) (gam_stats_of [1; 2; 4]) = mkGP 1 5 9.
Proof. unfold gam_post, gam_stats_of, cardZ, sumR; simpl. f_equal; lra. Qed.
Example ex_C109_marginal : is_half_int (fun rate => exp (gam_prior_lpdf lgam (mkGP 1 2 2) (mkGam 1 rate) + sumR (map (gam_lpdf lgam (mkGam 1 rate)) [1; 2; 4])))
  (exp (gam_log_marg lgam (mkGP 1 2 2) [1; 2; 4])).
Proof. apply (C109_marginal_integral (mkGP 1 2 2)); [exact ex_h_valid|]. repeat constructor; lra. Qed.
Example ex_C109_statistics : fold_left (fun s y => gam_op y false s) [2] (fold_left (fun s y => gam_op y true s) [1; 2; 4] gam_stats0) = (1 + (4 + 0), 2%Z).
Proof. apply (C109_statistics [1; 2; 4] [2] [1; 4]). apply perm_swap. Qed.
Example ex_C109_init : (exists msg, gam_init 1 0 2 = Throw msg) /\ gam_init 1 2 2 = Ok (mkGP 1 2 2).
Proof. split; [apply (proj2 (C109_init_iff 1 0 2)); lra|apply (proj1 (C109_init_iff 1 2 2)); lra]. Qed.
Example ex_C109_density : exists dens, is_half_int dens 1 /\ forall grid o, exists out o',
  marg_eval gam_like dp_mixer [mkGam 1 1] (aux_component gam_like [mkGam 1 1]) (mkSaved 3 [(mkGam 1 2, 2%Z); (mkGam 1 5, 1%Z)] 1) grid o = Ok (out, o') /\ map xexp out = map dens grid.
Proof.
  apply C109_evaluated_density; [discriminate| |discriminate| |cbn; lra|].
  - intros s [<-|[]]. unfold gam_pos; cbn; lra.
  - split; [|reflexivity]. intros p [<-|[<-|[]]]; cbn; lia.
  - intros p [<-|[<-|[]]]; unfold gam_pos; cbn; lra.
Qed.

(** ** C110: the program *)

(** Every saved state: a clustering of the data, the constants of the program,
    and states drawn from the posterior of their data or, for at most one
    cluster, from the prior. *)
Theorem C110_run : forall lg G (data : list R) pos st r maxiter burnin, gen_ok G -> (10 <= length data)%nat -> (forall i, (pos i < 10)%nat) ->
  exists s out, gam_run lg G data pos st r maxiter burnin = Ok (s, out) /\ length out = (maxiter - burnin)%nat /\
  forall snap, In snap out ->
    length (s_alloc snap) = length data /\ length (s_clusters snap) = length (nodup Nat.eq_dec (s_alloc snap)) /\
    s_hyp snap = mkGP 1 2 2 /\ s_mix snap = MixDP (DPFixed 1) (mkDp 1 (Some (Fin 0))) /\
    exists old : option nat, forall c st card, nth_error (s_clusters snap) c = Some (st, card) ->
      let ys := labelled data (s_alloc snap) c in
      card = Z.of_nat (length ys) /\ (1 <= length ys)%nat /\ gm_shape st = 1 /\ exists r0 r1,
      (if match old with Some c0 => Nat.eqb c0 c | None => false end then g_gamma G 2 2 r0
       else g_gamma G (2 + INR (length ys)) (2 + sumR ys) r0) = (gm_rate st, r1).
Proof.
  intros lg G data pos st r maxiter burnin HG Hn Hp.
  destruct (gam_run_ok lg G HG data ltac:(lia) pos Hp Hn st r maxiter burnin) as (s & out & E & L & K).
  exists s, out. split; [exact E|]. split; [exact L|]. intros snap Hs.
  destruct (K snap Hs) as (a & ([G0 _] & _) & (old & D) & Ea & Ec & Eh & Em).
  pose proof (proj1 (@GInv_iff (gam_iface lg G) data _ a) G0) as [PR _]. pose proof PR as [C N].
  split; [rewrite Ea; apply C|]. split.
  { rewrite Ec, map_length, Ea. rewrite <- (proper_count _ _ _ PR). unfold view. now rewrite map_length. }
  split; [exact Eh|]. split; [exact Em|]. exists old. intros c st' card Hc ys.
  rewrite Ec, nth_error_map in Hc. destruct (nth_error (a_uv a) c) as [h|] eqn:Hh; [|discriminate]. injection Hc as <- <-.
  assert (Hv : nth_error (view (a_uv a)) c = Some (h_ids h, h_card h)) by (apply nth_view; eexists; eauto).
  pose proof (labelled_ids _ _ _ _ _ _ data eq_refl C Hv) as P. apply Permutation_length in P. unfold pick in P at 1. rewrite map_length in P.
  destruct (D c h Hh) as (r0 & r1 & D1 & D2). rewrite <- Ea in P, D2. destruct C as (_ & _ & C). destruct (C c _ _ Hv) as (_ & _ & E1).
  split; [rewrite E1; unfold ys; now rewrite <- P|]. split; [unfold ys; rewrite <- P; pose proof (N c _ _ Hv); destruct (h_ids h); [congruence|simpl; lia]|].
  split; [exact D1|]. exists r0, r1. exact D2.
Qed.
Print Assumptions C110_run.

(** Gamma variates with valid parameters are positive. *)
Definition gamma_positive (G : gen) : Prop := forall a b r, 0 < a -> 0 < b -> 0 < fst (g_gamma G a b r).

(** The density of every saved state is a density. *)
Theorem C110_density : forall lg G (data : list R) pos st r maxiter burnin s out snap draws uv,
  gen_ok G -> gamma_positive G -> (10 <= length data)%nat -> (forall i, (pos i < 10)%nat) -> Forall (fun y => 0 < y) data ->
  gam_run lg G data pos st r maxiter burnin = Ok (s, out) -> In snap out ->
  draws <> [] -> (forall s, In s draws -> gam_pos s) -> uv <> [] ->
  (forall p, In p (s_clusters snap) -> gam_pos (fst p)) /\
  exists dens, is_half_int dens 1 /\ forall grid o, exists out o',
    marg_eval gam_like dp_mixer uv (aux_component gam_like draws) (mkSaved (length (s_alloc snap)) (s_clusters snap) 1) grid o = Ok (out, o') /\
    map xexp out = map dens grid.
Proof.
  intros lg G data pos st r maxiter burnin s out snap draws uv HG HP Hn Hp Hy E Hs N Hd U.
  destruct (gam_run_ok lg G HG data ltac:(lia) pos Hp Hn st r maxiter burnin) as (s' & out' & E' & _ & K).
  rewrite E in E'. injection E' as <- <-.
  destruct (K snap Hs) as (a & ([G0 _] & _) & (old & D) & Ea & Ec & _ & _).
  pose proof (proj1 (@GInv_iff (gam_iface lg G) data _ a) G0) as [PR _].
  assert (A : forall p, In p (s_clusters snap) -> gam_pos (fst p)).
  { intros p Hin. rewrite Ec in Hin. apply in_map_iff in Hin. destruct Hin as (h & <- & Hh). apply In_nth_error in Hh. destruct Hh as (c & Hc).
    destruct (D c h Hc) as (r0 & r1 & D1 & D2). cbn [fst]. unfold gam_pos. rewrite D1. split; [lra|].
    replace (gm_rate (h_state h)) with (fst (gm_rate (h_state h), r1)) by reflexivity. rewrite <- D2.
    assert (P : 0 <= sumR (labelled data (a_alloc a) c)).
    { apply sumR_pos. unfold labelled, pick. apply Forall_forall. intros y Hin. apply in_map_iff in Hin. destruct Hin as (j & <- & Hj).
      apply filter_In in Hj. destruct Hj as [Hj _]. apply in_seq in Hj. rewrite Forall_forall in Hy. apply Hy. apply nth_In. lia. }
    pose proof (pos_INR (length (labelled data (a_alloc a) c))).
    destruct (match old with Some c0 => Nat.eqb c0 c | None => false end); apply HP; lra. }
  split; [exact A|]. apply C109_evaluated_density; try assumption; [|cbn; lra].
  rewrite Ea, Ec. destruct PR as [C N']. pose proof C as (-> & _). exact (proper_saved (gam_iface lg G) data (a_alloc a) (a_uv a) R 1 (Logic.conj C N')).
Qed.
Print Assumptions C110_density.

(** The first cluster keeps the prior saved when it was initialised. *)
Theorem C110_first_cluster : forall lg G data pos st r a r1, gen_ok G -> (forall i, (pos i < 10)%nat) -> (10 <= length data)%nat ->
  gam_start lg G data pos st r = Ok (a, r1) ->
  exists uv r2 h, sample_unique_values (I:=gam_iface lg G) false (a, r1) = Ok (set_uv a uv, r2) /\ nth_error uv 0 = Some h /\
    gm_shape (h_state h) = 1 /\ gm_rate (h_state h) = fst (g_gamma G 2 2 r1).
Proof. intros lg G data pos st r a r1 HG. exact (gam_first lg G HG data pos st r a r1). Qed.
Print Assumptions C110_first_cluster.

Definition gamG : gen := mkGen unit (fun m _ r => (m, r)) (fun a b r => (b / a, r)) (fun a b r => (a / b, r)) (fun a _ r => (a, r)) (fun ps r => (0%nat, r)).
Lemma gamG_ok : gen_ok gamG.
Proof. intros [|p ps] r H; [congruence|simpl; lia]. Qed.
Lemma gamG_pos : gamma_positive gamG.
Proof. intros a b r Ha Hb. cbn. now apply Rdiv_lt_0_compat. Qed.
Definition gamdata : list R := repeat 3 50.
Lemma gamdata_pos : Forall (fun y => 0 < y) gamdata.
Proof. apply Forall_forall. intros y Hy. apply repeat_spec in Hy. subst. lra. Qed.
Lemma labelled_const : forall n x al c y, In y (labelled (repeat x n) al c) -> y = x.
Proof.
  intros n x al c y Hy. unfold labelled, pick in Hy. apply in_map_iff in Hy. destruct Hy as (j & <- & Hj). apply filter_In in Hj. destruct Hj as [Hj _].
  apply in_seq in Hj. apply (repeat_spec n x). apply nth_In. exact (proj2 Hj).
Qed.
Lemma const_sum : forall x l, (forall y, In y l -> y = x) -> sumR l = x * INR (length l).
Proof.
  intros x l K. induction l as [|y l IH]; [unfold sumR; simpl; lra|]. cbn [length]. rewrite S_INR. unfold sumR in *. cbn [fold_right].
  rewrite IH by (intros; apply K; now right). rewrite (K y) by now left. lra.
Qed.
Lemma gamdata_sum : forall al c, sumR (labelled gamdata al c) = 3 * INR (length (labelled gamdata al c)).
Proof. intros al c. apply const_sum. intros y Hy. exact (labelled_const _ _ _ _ _ Hy). Qed.
Lemma gamdata_length : length gamdata = 50%nat.
Proof. apply repeat_length. Qed.
Lemma gamdata_long : (10 <= length gamdata)%nat.
Proof. rewrite gamdata_length. lia. Qed.
Lemma mod10 : forall i, (i mod 10 < 10)%nat.
Proof. intro i. apply Nat.mod_upper_bound. lia. Qed.

Example ex_C110_run : exists s out, gam_run (fun _ => 0) gamG gamdata (fun i => i mod 10) (mkGam 0 0) tt 20 10 = Ok (s, out) /\ length out = 10%nat.
Proof.
  destruct (C110_run (fun _ => 0) gamG gamdata (fun i => i mod 10) (mkGam 0 0) tt 20 10 gamG_ok) as (s & out & E & L & _);
    [exact gamdata_long|exact mod10|]. exists s, out. split; [exact E|exact L].
Qed.
Example ex_C110_density : forall s out snap, gam_run (fun _ => 0) gamG gamdata (fun i => i mod 10) (mkGam 0 0) tt 20 10 = Ok (s, out) -> In snap out ->
  exists dens, is_half_int dens 1 /\ forall grid o, exists out o',
    marg_eval gam_like dp_mixer [mkGam 1 1] (aux_component gam_like [mkGam 1 1]) (mkSaved (length (s_alloc snap)) (s_clusters snap) 1) grid o = Ok (out, o') /\
    map xexp out = map dens grid.
Proof.
  intros s out snap E Hs.
  apply (proj2 (C110_density (fun _ => 0) gamG gamdata (fun i => i mod 10) (mkGam 0 0) tt 20 10 s out snap [mkGam 1 1] [mkGam 1 1] gamG_ok gamG_pos
    gamdata_long mod10 gamdata_pos E Hs ltac:(discriminate) ltac:(intros q [<-|[]]; unfold gam_pos; cbn; lra) ltac:(discriminate))).
Qed.

(** "Every cluster redraws its rate from its posterior" is false of the program:
    with all data equal to 3 and a generator that returns means, the first
    cluster gets rate 1, its posterior mean being (2 + m) / (2 + 3 m). *)
Theorem C110_redraw_refuted : exists G data pos st r a r1 uv r2 h, gen_ok G /\ gamma_positive G /\ length data = 50%nat /\ (forall i, (pos i < 10)%nat) /\
  Forall (fun y => 0 < y) data /\ gam_start lgam G data pos st r = Ok (a, r1) /\
  sample_unique_values (I:=gam_iface lgam G) false (a, r1) = Ok (set_uv a uv, r2) /\ nth_error uv 0 = Some h /\
  let ys := labelled data (a_alloc a) 0 in
  gm_rate (h_state h) <> fst (g_gamma G (2 + INR (length ys)) (2 + sumR ys) r1).
Proof.
  pose proof mod10 as Hp. pose proof gamdata_long as Hl.
  destruct (gam_start_ok lgam gamG gamG_ok gamdata ltac:(lia) _ Hp Hl (mkGam 0 0) tt) as (a & r1 & E & ([G0 _] & _)).
  destruct (C110_first_cluster lgam gamG gamdata _ (mkGam 0 0) tt a r1 gamG_ok Hp Hl E) as (uv & r2 & h & E2 & Hh & _ & Hr).
  exists gamG, gamdata, (fun i => i mod 10)%nat, (mkGam 0 0), tt, a, r1, uv, r2, h.
  split; [exact gamG_ok|]. split; [exact gamG_pos|]. split; [exact gamdata_length|]. split; [exact Hp|]. split; [exact gamdata_pos|].
  split; [exact E|]. split; [exact E2|]. split; [exact Hh|]. cbn zeta. rewrite Hr, gamdata_sum. cbn [g_gamma gamG fst].
  pose proof (proj1 (@GInv_iff (gam_iface lgam gamG) gamdata _ a) G0) as [[C N] _].
  destruct (a_uv a) as [|h0 t] eqn:Eu.
  { unfold sample_unique_values in E2. rewrite Eu in E2. cbn in E2. injection E2 as E2 _. subst uv. discriminate. }
  assert (Hv : nth_error (view (h0 :: t)) 0 = Some (h_ids h0, h_card h0)) by reflexivity.
  pose proof (labelled_ids _ _ _ _ _ _ gamdata eq_refl C Hv) as P. apply Permutation_length in P. unfold pick in P at 1. rewrite map_length in P.
  rewrite <- P. pose proof (N 0%nat _ _ Hv) as Ne. destruct (h_ids h0) as [|j l]; [congruence|]. cbn [length]. rewrite S_INR. pose proof (pos_INR (length l)) as Q.
  intro F. apply (f_equal (fun x => x * (2 + 3 * (INR (length l) + 1)))) in F. unfold Rdiv in F. rewrite (Rmult_assoc (2 + _)), Rinv_l in F by lra. lra.
Qed.
Print Assumptions C110_redraw_refuted.
