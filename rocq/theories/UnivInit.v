(** * Accepted priors, sampling from the priors. *)
From Coq Require Import String.
From Coq Require Import Bool List Arith ZArith Reals Lra Lia.
From Verif Require Import Base Mixings PartSpec MixFacts Univ UnivFacts UnivMore.
Import ListNotations.
Local Open Scope R_scope.


Lemma nig_init_valid : forall p h, nig_init p = Ok h -> valid h.
Proof.
  intros p h H. destruct p as [m v a b|m s v a b|mu s al be a b a0|]; simpl in H; try discriminate;
    unfold nig_check in H; cbn [ng_vs ng_shape ng_scale] in H;
    repeat match type of H with
    | (if lteb ?x 0 then _ else _) = _ => destruct (lteb x 0) eqn:?; [discriminate|]
    end; injection H as <-;
    repeat match goal with E : lteb _ _ = false |- _ => apply lteb_false in E end;
    unfold valid; cbn [ng_vs ng_shape ng_scale]; repeat split; try lra; apply Rdiv_lt_0_compat; lra.
Qed.

(** The hyperprior variance is checked with the normal-gamma-gamma prior only. *)
Lemma nig_init_variance : forall mu00 sig200 al be a b al0 h,
  nig_init (NIGNgg mu00 sig200 al be a b al0) = Ok h -> 0 < sig200.
Proof.
  intros mu00 sig200 al be a b al0 h H. simpl in H. destruct (lteb sig200 0) eqn:E; [discriminate|].
  apply lteb_false in E. lra.
Qed.

Lemma nig_mean_variance_refuted :
  exists mu00 sig200 vs a b h states,
    nig_init (NIGMean mu00 sig200 vs a b) = Ok h /\ List.Forall (fun s => 0 < ls_var s) states /\
    states <> [] /\ snd (nig_mean_update mu00 sig200 vs states) < 0.
Proof.
  exists 0, (- / 2), 1, 2, 2, (mkNIG 0 1 2 2), [mkLS 0 1; mkLS 3 4]. split; [|split; [|split]].
  - simpl. unfold nig_check; simpl. rewrite !(proj2 (lteb_false _ _)) by lra. reflexivity.
  - repeat constructor; simpl; lra.
  - discriminate.
  - unfold nig_mean_update. simpl. apply (Rmult_lt_reg_l 3); [lra|].
    replace (3 * (1 / (1 / - / 2 + 1 * (0 + 1 / 1 + 1 / 4)))) with (3 * (1 / - (3 / 4))) by (do 2 f_equal; field).
    replace (3 * (1 / - (3 / 4))) with (- 4) by field. lra.
Qed.

(** Exactly when the variance used is positive. *)
Lemma nig_mean_variance_iff : forall mu00 sig200 vs states,
  let prec := 1 / sig200 + vs * sumR (map (fun s => 1 / ls_var s) states) in
  prec <> 0 -> (0 < snd (nig_mean_update mu00 sig200 vs states) <-> 0 < prec).
Proof.
  intros mu00 sig200 vs states prec Hp. unfold nig_mean_update. cbn [snd]. rewrite fold_sum, Rplus_0_l. fold prec.
  split; intros H.
  - destruct (Rlt_or_le 0 prec) as [|[Hn|Hn]]; auto; [|congruence]. 
    apply Rinv_lt_0_compat in Hn. unfold Rdiv in H. lra.
  - apply Rdiv_lt_0_compat; lra.
Qed.

(** Hyperparameters stay valid when the generator returns positive gamma draws. *)
Lemma nig_update_valid : forall G p h states r,
  (forall a b r, 0 < a -> 0 < b -> 0 < fst (g_gamma G a b r)) ->
  nig_init p = Ok h \/ valid h -> (forall mu s al be a b a0, p = NIGNgg mu s al be a b a0 -> 0 < al /\ 0 < be /\ 0 < a /\ 0 < b) ->
  List.Forall (fun s => 0 < ls_var s) states ->
  valid (fst (nig_update_hypers G p h states r)).
Proof.
  intros G p h states r HG Hh Hp Hs.
  assert (HV : valid h) by (destruct Hh; [eapply nig_init_valid; eauto|auto]). clear Hh.
  destruct p as [m v a b|m s v a b|mu s al be a b a0|]; simpl; auto.
  - destruct (g_norm G _ _ r) as [x r1]. exact HV.
  - destruct (Hp _ _ _ _ _ _ _ eq_refl) as (H1 & H2 & H3 & H4). destruct HV as (V1 & V2 & V3).
    destruct (g_norm G _ _ r) as [x r1].
    pose proof (prec_pos states Hs) as Hpp.
    assert (Hb : 0 <= sumR (map (fun s => (ng_mean h - ls_mean s) * (ng_mean h - ls_mean s) / ls_var s) states)).
    { clear - Hs. induction Hs as [|s l Hs Hl IH]; [unfold sumR; simpl; lra|]. cbn [map]. rewrite sumR_cons.
      assert (0 <= (ng_mean h - ls_mean s) * (ng_mean h - ls_mean s) / ls_var s); [|lra].
      apply Rmult_le_pos; [apply Rle_0_sqr|]. left. apply Rinv_0_lt_compat. auto. }
    rewrite !fold_sum, !Rplus_0_l.
    match goal with |- context [g_gamma G ?u ?v ?z] => pose proof (HG u v z) as P1; destruct (g_gamma G u v z) as [y1 r2] end.
    match goal with |- context [g_gamma G ?u ?v ?z] => pose proof (HG u v z) as P2; destruct (g_gamma G u v z) as [y2 r3] end.
    pose proof (pos_INR (length states)). rewrite half in *. cbn [fst] in *.
    assert (0 <= INR (length states) * ng_shape h) by (apply Rmult_le_pos; lra).
    unfold valid; cbn [ng_vs ng_shape ng_scale]. repeat split; [apply P1; lra|auto|apply P2; lra].
Qed.

(** A draw from the prior: the log-densities of the numbers drawn add up to the
    prior's log-density at the new state. *)
Lemma nig_sample_law : forall lg G h r,
  exists v m r1 r2,
    g_invgamma G (ng_shape h) (ng_scale h) r = (v, r1) /\ g_norm G (ng_mean h) (sqrt (v / ng_vs h)) r1 = (m, r2) /\
    nig_sample G h r = (mkLS m v, r2) /\
    inv_gamma_lpdf lg v (ng_shape h) (ng_scale h) + normal_lpdf m (ng_mean h) (sqrt (v / ng_vs h)) =
    nig_lpdf lg h (fst (nig_sample G h r)).
Proof.
  intros lg G h r. unfold nig_sample. destruct (g_invgamma G _ _ r) as [v r1] eqn:E1.
  destruct (g_norm G _ _ r1) as [m r2] eqn:E2. exists v, m, r1, r2. repeat split; auto.
  unfold nig_lpdf; simpl. lra.
Qed.

Lemma nxig_sample_law : forall lg G h r,
  exists v m r1 r2,
    g_norm G (nx_mean h) (sqrt (nx_var h)) r = (m, r1) /\ g_invgamma G (nx_shape h) (nx_scale h) r1 = (v, r2) /\
    nxig_sample G h r = (mkLS m v, r2) /\
    normal_lpdf m (nx_mean h) (sqrt (nx_var h)) + inv_gamma_lpdf lg v (nx_shape h) (nx_scale h) =
    nxig_lpdf lg h (fst (nxig_sample G h r)).
Proof.
  intros lg G h r. unfold nxig_sample. destruct (g_norm G _ _ r) as [m r1] eqn:E1.
  destruct (g_invgamma G _ _ r1) as [v r2] eqn:E2. exists v, m, r1, r2. repeat split; auto.
Qed.
