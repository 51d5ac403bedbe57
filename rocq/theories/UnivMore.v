(** * Hyperprior updates and Metropolis updaters. *)
From Coq Require Import String.
From Coq Require Import Bool List Arith ZArith Reals Lra Lia Permutation.
From Verif Require Import Base Mixings PartSpec MixFacts Univ UnivFacts.
Import ListNotations.
Local Open Scope R_scope.
Arguments sumR l : simpl never.

Lemma fold_sum : forall A (f : A -> R) l a, fold_left (fun a x => a + f x) l a = a + sumR (map f l).
Proof.
  intros A f. induction l as [|x l IH]; intros a; [unfold sumR; simpl; lra|].
  cbn [fold_left map]. rewrite IH, sumR_cons. lra.
Qed.

Lemma normal_var : forall y m v, 0 < v -> normal_lpdf y m (sqrt v) = - sq (y - m) / (2 * v) - ln v / 2 - ln (2 * PI) / 2.
Proof. intros y m v H. exact (norm_lpdf_eq (mkLS m v) y H). Qed.

(** Log-density of cluster means given the prior mean [m] and scaling [vs]. *)
Lemma means_quad : forall states vs m, 0 < vs -> List.Forall (fun s => 0 < ls_var s) states ->
  sumR (map (fun s => normal_lpdf (ls_mean s) m (sqrt (ls_var s / vs))) states) =
  - vs * (sumR (map (fun s => sq (ls_mean s) / ls_var s) states) - 2 * m * sumR (map (fun s => ls_mean s / ls_var s) states)
          + m * m * sumR (map (fun s => 1 / ls_var s) states)) / 2
  - sumR (map (fun s => ln (ls_var s)) states) / 2 + INR (length states) * (ln vs / 2 - ln (2 * PI) / 2).
Proof.
  intros states vs m Hv H. induction H as [|s l Hs Hl IH]; [unfold sumR; simpl; lra|].
  cbn [map length]. rewrite !sumR_cons, IH, S_INR, normal_var, ln_div by (auto; apply Rdiv_lt_0_compat; auto).
  unfold sq. field. lra.
Qed.

Lemma prec_pos : forall states, List.Forall (fun s => 0 < ls_var s) states -> 0 <= sumR (map (fun s => 1 / ls_var s) states).
Proof.
  intros l H. induction H as [|s l Hs Hl IH]; [unfold sumR; simpl; lra|]. cbn [map]. rewrite sumR_cons.
  assert (0 < 1 / ls_var s) by (apply Rdiv_lt_0_compat; lra). lra.
Qed.

(** Normal prior times the means' density is a normal density. *)
Lemma mean_conditional : forall mu00 sig200 vs states, 0 < sig200 -> 0 < vs -> List.Forall (fun s => 0 < ls_var s) states ->
  let prec := 1 / sig200 + vs * sumR (map (fun s => 1 / ls_var s) states) in
  let num := mu00 / sig200 + vs * sumR (map (fun s => ls_mean s / ls_var s) states) in
  0 < prec /\ exists C, forall m,
    normal_lpdf m mu00 (sqrt sig200) + sumR (map (fun s => normal_lpdf (ls_mean s) m (sqrt (ls_var s / vs))) states) =
    C + normal_lpdf m (num / prec) (sqrt (1 / prec)).
Proof.
  intros mu00 sig200 vs states Hs Hv HF prec num. pose proof (prec_pos states HF) as Hp.
  assert (Pp : 0 < prec).
  { unfold prec. assert (0 < 1 / sig200) by (apply Rdiv_lt_0_compat; lra).
    assert (0 <= vs * sumR (map (fun s => 1 / ls_var s) states)) by (apply Rmult_le_pos; lra). lra. }
  split; auto.
  exists (- sq mu00 / (2 * sig200) - ln sig200 / 2 - vs * sumR (map (fun s => sq (ls_mean s) / ls_var s) states) / 2
          - sumR (map (fun s => ln (ls_var s)) states) / 2 + INR (length states) * (ln vs / 2 - ln (2 * PI) / 2)
          + sq (num / prec) * prec / 2 + ln (1 / prec) / 2).
  intros m. rewrite means_quad, !normal_var by (auto; apply Rdiv_lt_0_compat; lra).
  set (L1 := ln sig200). set (L2 := ln (2 * PI)). set (L3 := ln (1 / prec)). set (L4 := ln vs).
  set (B := sumR (map (fun s => 1 / ls_var s) states)) in *. set (A := sumR (map (fun s => ls_mean s / ls_var s) states)) in *.
  set (Q := sumR (map (fun s => sq (ls_mean s) / ls_var s) states)). set (LL := sumR (map (fun s => ln (ls_var s)) states)).
  transitivity (- (m * m * prec - 2 * m * num) / 2 - sq mu00 / (2 * sig200) - L1 / 2 - L2 / 2 - vs * Q / 2 - LL / 2
                + INR (length states) * (L4 / 2 - L2 / 2)).
  - unfold prec, num, sq. field. lra.
  - clearbody prec num. unfold sq. field. lra.
Qed.

(** C28. *)
Lemma nig_mean_exact : forall mu00 sig200 vs states, 0 < sig200 -> 0 < vs -> List.Forall (fun s => 0 < ls_var s) states ->
  exists C, forall m,
    normal_lpdf m mu00 (sqrt sig200) + sumR (map (fun s => normal_lpdf (ls_mean s) m (sqrt (ls_var s / vs))) states) =
    C + normal_lpdf m (fst (nig_mean_update mu00 sig200 vs states)) (sqrt (snd (nig_mean_update mu00 sig200 vs states))).
Proof.
  intros mu00 sig200 vs states Hs Hv HF. destruct (mean_conditional mu00 sig200 vs states Hs Hv HF) as (_ & C & HC).
  exists C. intros m. rewrite HC. unfold nig_mean_update. rewrite !fold_sum, !Rplus_0_l. reflexivity.
Qed.

Lemma nig_mean_draw : forall G mu00 sig200 vs a b h states r,
  nig_update_hypers G (NIGMean mu00 sig200 vs a b) h states r =
  (let '(m, r1) := g_norm G (fst (nig_mean_update mu00 sig200 vs states)) (sqrt (snd (nig_mean_update mu00 sig200 vs states))) r in
   (mkNIG m (ng_vs h) (ng_shape h) (ng_scale h), r1)).
Proof. intros. unfold nig_update_hypers. destruct (nig_mean_update mu00 sig200 vs states). reflexivity. Qed.

(** C29. *)
Lemma normal_same_iff : forall m0 s1 s2, 0 < s1 -> 0 < s2 ->
  (exists C, forall m, normal_lpdf m m0 s1 = C + normal_lpdf m m0 s2) <-> s1 = s2.
Proof.
  intros m0 s1 s2 H1 H2. split.
  - intros (C & HC). pose proof (HC m0) as E0. pose proof (HC (m0 + 1)) as E1. unfold normal_lpdf in E0, E1.
    assert (E : / s1 * / s1 = / s2 * / s2).
    { replace ((m0 - m0) / s1) with 0 in E0 by (field; lra). replace ((m0 - m0) / s2) with 0 in E0 by (field; lra).
      replace ((m0 + 1 - m0) / s1) with (/ s1) in E1 by (field; lra). replace ((m0 + 1 - m0) / s2) with (/ s2) in E1 by (field; lra).
      lra. }
    assert (P1 : 0 < / s1) by (apply Rinv_0_lt_compat; auto). assert (P2 : 0 < / s2) by (apply Rinv_0_lt_compat; auto).
    assert (/ s1 = / s2). { apply Rsqr_inj; unfold Rsqr; lra. }
    rewrite <- (Rinv_inv s1), <- (Rinv_inv s2), H. reflexivity.
  - intros ->. exists 0. intros; lra.
Qed.

Lemma ngg_location : forall mu00 sig200 alpha00 beta00 a00 b00 h states,
  0 < sig200 -> 0 < ng_vs h -> List.Forall (fun s => 0 < ls_var s) states ->
  let p := ngg_update mu00 sig200 alpha00 beta00 a00 b00 h states in
  0 < gg_sig p /\
  (exists C, forall m,
    normal_lpdf m mu00 (sqrt sig200) + sumR (map (fun s => normal_lpdf (ls_mean s) m (sqrt (ls_var s / ng_vs h))) states) =
    C + normal_lpdf m (gg_mu p) (sqrt (gg_sig p))) /\
  ((exists C, forall m,
    normal_lpdf m mu00 (sqrt sig200) + sumR (map (fun s => normal_lpdf (ls_mean s) m (sqrt (ls_var s / ng_vs h))) states) =
    C + normal_lpdf m (gg_mu p) (gg_sig p)) <-> gg_sig p = 1).
Proof.
  intros mu00 sig200 alpha00 beta00 a00 b00 h states Hs Hv HF p.
  destruct (mean_conditional mu00 sig200 (ng_vs h) states Hs Hv HF) as (Pp & C & HC).
  assert (Em : gg_mu p = (mu00 / sig200 + ng_vs h * sumR (map (fun s => ls_mean s / ls_var s) states))
                / (1 / sig200 + ng_vs h * sumR (map (fun s => 1 / ls_var s) states))).
  { unfold p, ngg_update. cbn [gg_mu]. rewrite !fold_sum, !Rplus_0_l. f_equal; apply Rplus_comm. }
  assert (Ev : gg_sig p = 1 / (1 / sig200 + ng_vs h * sumR (map (fun s => 1 / ls_var s) states))).
  { unfold p, ngg_update. cbn [gg_sig]. rewrite !fold_sum, !Rplus_0_l. f_equal. apply Rplus_comm. }
  set (prec := 1 / sig200 + ng_vs h * sumR (map (fun s => 1 / ls_var s) states)) in *.
  assert (Ps : 0 < gg_sig p) by (rewrite Ev; apply Rdiv_lt_0_compat; lra).
  rewrite <- Em, <- Ev in HC. split; auto. split; [exists C; exact HC|].
  assert (Pq : 0 < sqrt (gg_sig p)) by (apply sqrt_lt_R0; auto).
  split.
  - intros (C' & HC'). assert (E : sqrt (gg_sig p) = gg_sig p).
    { apply (proj1 (normal_same_iff (gg_mu p) (sqrt (gg_sig p)) (gg_sig p) Pq Ps)). exists (C' - C). intros m.
      specialize (HC m). specialize (HC' m). lra. }
    assert (E2 : gg_sig p * gg_sig p = gg_sig p) by (rewrite <- E at 1 2; apply sqrt_sqrt; lra).
    apply (Rmult_eq_reg_l (gg_sig p)); lra.
  - intros E. exists C. intros m. rewrite HC, E, sqrt_1. reflexivity.
Qed.

(** The other two updates of the normal-gamma-gamma hyperprior. *)
Lemma ngg_scaling : forall lg mu00 sig200 alpha00 beta00 a00 b00 h states,
  List.Forall (fun s => 0 < ls_var s) states ->
  let p := ngg_update mu00 sig200 alpha00 beta00 a00 b00 h states in
  exists C, forall v, 0 < v ->
    gamma_lpdf lg v alpha00 beta00 + sumR (map (fun s => normal_lpdf (ls_mean s) (ng_mean h) (sqrt (ls_var s / v))) states) =
    C + gamma_lpdf lg v (gg_alpha p) (gg_beta p).
Proof.
  intros lg mu00 sig200 alpha00 beta00 a00 b00 h states HF p.
  assert (Eb : gg_beta p = beta00 + 0.5 * sumR (map (fun s => sq (ng_mean h - ls_mean s) / ls_var s) states)).
  { unfold p, ngg_update. cbn [gg_beta]. rewrite !fold_sum, !Rplus_0_l. reflexivity. }
  assert (Ea : gg_alpha p = alpha00 + 0.5 * INR (length states)) by reflexivity.
  exists (alpha00 * ln beta00 - lg alpha00 - (gg_alpha p * ln (gg_beta p) - lg (gg_alpha p))
          - sumR (map (fun s => ln (ls_var s)) states) / 2 - INR (length states) * (ln (2 * PI) / 2)).
  intros v Hv. rewrite means_quad by auto. unfold gamma_lpdf. set (LB := ln (gg_beta p)). rewrite Eb, Ea.
  assert (E : sumR (map (fun s => sq (ng_mean h - ls_mean s) / ls_var s) states) =
              sumR (map (fun s => sq (ls_mean s) / ls_var s) states) - 2 * ng_mean h * sumR (map (fun s => ls_mean s / ls_var s) states)
              + ng_mean h * ng_mean h * sumR (map (fun s => 1 / ls_var s) states)).
  { clear - HF. induction HF as [|s l Hs Hl IH]; [unfold sumR; simpl; lra|]. cbn [map]. rewrite !sumR_cons, IH. unfold sq. field. lra. }
  rewrite E, half. field.
Qed.

Lemma ngg_rate : forall lg mu00 sig200 alpha00 beta00 a00 b00 h states,
  let p := ngg_update mu00 sig200 alpha00 beta00 a00 b00 h states in
  exists C, forall v, 0 < v ->
    gamma_lpdf lg v a00 b00 + sumR (map (fun s => inv_gamma_lpdf lg (ls_var s) (ng_shape h) v) states) =
    C + gamma_lpdf lg v (gg_a p) (gg_b p).
Proof.
  intros lg mu00 sig200 alpha00 beta00 a00 b00 h states p.
  assert (Eb : gg_b p = sumR (map (fun s => 1 / ls_var s) states) + b00).
  { unfold p, ngg_update. cbn [gg_b]. rewrite !fold_sum, !Rplus_0_l. reflexivity. }
  assert (Ea : gg_a p = a00 + INR (length states) * ng_shape h) by reflexivity.
  exists (a00 * ln b00 - lg a00 - (gg_a p * ln (gg_b p) - lg (gg_a p)) - INR (length states) * lg (ng_shape h)
          - (ng_shape h + 1) * sumR (map (fun s => ln (ls_var s)) states)).
  intros v Hv. unfold gamma_lpdf at 1 2. set (LB := ln (gg_b p)). rewrite Eb, Ea.
  assert (E : sumR (map (fun s => inv_gamma_lpdf lg (ls_var s) (ng_shape h) v) states) =
              INR (length states) * (ng_shape h * ln v - lg (ng_shape h)) - (ng_shape h + 1) * sumR (map (fun s => ln (ls_var s)) states)
              - v * sumR (map (fun s => 1 / ls_var s) states)).
  { clear. induction states as [|s l IH]; [unfold sumR; simpl; lra|]. cbn [map length]. rewrite !sumR_cons, IH, S_INR.
    unfold inv_gamma_lpdf, Rdiv. ring. }
  rewrite E. ring.
Qed.

Lemma ngg_draw : forall G mu00 sig200 alpha00 beta00 a00 b00 al0 h states r,
  let p := ngg_update mu00 sig200 alpha00 beta00 a00 b00 h states in
  exists m v s r1 r2 r3,
    g_norm G (gg_mu p) (gg_sig p) r = (m, r1) /\ g_gamma G (gg_alpha p) (gg_beta p) r1 = (v, r2) /\
    g_gamma G (gg_a p) (gg_b p) r2 = (s, r3) /\
    nig_update_hypers G (NIGNgg mu00 sig200 alpha00 beta00 a00 b00 al0) h states r = (mkNIG m v (ng_shape h) s, r3).
Proof.
  intros. unfold nig_update_hypers. fold p. destruct (g_norm G (gg_mu p) (gg_sig p) r) as [m r1].
  destruct (g_gamma G (gg_alpha p) (gg_beta p) r1) as [v r2] eqn:E2. destruct (g_gamma G (gg_a p) (gg_b p) r2) as [s r3] eqn:E3.
  exists m, v, s, r1, r2, r3. auto.
Qed.

(** ** Metropolis (C30) *)

(** Probability of accepting when the logarithm of a uniform number on (0,1) is
    compared with [x]. *)
Definition acc (x : R) : R := Rmin 1 (exp x).

Lemma balance_log : forall a b u w, exp a * acc u = exp b * acc w <-> a + Rmin 0 u = b + Rmin 0 w.
Proof.
  intros a b u w. assert (E : forall x, acc x = exp (Rmin 0 x)).
  { intros x. unfold acc, Rmin. destruct (Rle_dec 0 x) as [H|H].
    - rewrite exp_0. destruct (Rle_dec 1 (exp x)); auto. exfalso. apply n.
      destruct H as [H| <-]; [left; rewrite <- exp_0; apply exp_increasing; auto|rewrite exp_0; lra].
    - destruct (Rle_dec 1 (exp x)); auto. exfalso. assert (exp x < 1) by (rewrite <- exp_0; apply exp_increasing; lra). lra. }
  rewrite !E, <- !exp_plus. split; [apply exp_inv|congruence].
Qed.

Lemma min_diff : forall u, Rmin 0 u - Rmin 0 (- u) = u.
Proof. intros u. unfold Rmin. destruct (Rle_dec 0 u), (Rle_dec 0 (- u)); lra. Qed.

Lemma metropolis_balance : forall (P : Type) (like prior : P -> R) (q : P -> P -> R) (x y : P),
  exp (like x + prior x) * exp (q y x) * acc (metropolis_log_arate like q q x y) =
  exp (like y + prior y) * exp (q x y) * acc (metropolis_log_arate like q q y x)
  <-> prior x = prior y.
Proof.
  intros P like prior q x y. rewrite <- !exp_plus, balance_log. unfold metropolis_log_arate.
  set (u := like y - like x + q x y - q y x).
  replace (like x - like y + q y x - q x y) with (- u) by (unfold u; ring).
  pose proof (min_diff u) as D. split; intros H.
  - assert (like x + prior x + q y x + u = like y + prior y + q x y) by lra. unfold u in *. lra.
  - assert (like x + prior x + q y x + u = like y + prior y + q x y) by (unfold u; lra). lra.
Qed.

(** With the uninitialised accumulators [j1] and [j2]. *)
Lemma metropolis_junk : forall (P : Type) (like : P -> R) (q : P -> P -> R) (j1 j2 : R) (x y : P),
  exp (like x) * exp (q y x) * acc (metropolis_log_arate like (fun a b => j1 + q a b) (fun a b => j2 + q a b) x y) =
  exp (like y) * exp (q x y) * acc (metropolis_log_arate like (fun a b => j1 + q a b) (fun a b => j2 + q a b) y x)
  <-> j1 = j2 \/ like x + q y x = like y + q x y.
Proof.
  intros P like q j1 j2 x y. rewrite <- !exp_plus, balance_log. unfold metropolis_log_arate.
  set (a := like x + q y x). set (b := like y + q x y).
  replace (like y - like x + (j1 + q x y) - (j2 + q y x)) with (b - a + (j1 - j2)) by (unfold a, b; ring).
  replace (like x - like y + (j1 + q y x) - (j2 + q x y)) with (a - b + (j1 - j2)) by (unfold a, b; ring).
  unfold Rmin. destruct (Rle_dec 0 (b - a + (j1 - j2))), (Rle_dec 0 (a - b + (j1 - j2))); split; intros H;
    try (destruct H; lra); try (right; lra); left; lra.
Qed.

(** The random walk's proposal is symmetric. *)
Lemma rw_symmetric : forall j step x y, rw_proposal_lpdf j step x y = rw_proposal_lpdf j step y x.
Proof.
  intros j step x y. unfold rw_proposal_lpdf, normal_lpdf, Rdiv. ring.
Qed.

(** The Laplace hierarchy. *)
Lemma lapnig_throws : forall G step j1 j2 ys h deriv s r,
  mala_draw G step j1 j2 (lap_cluster_lpdf ys) (nxig_lpdf_unconstrained h) deriv s r
  = Throw "lpdf_from_unconstrained() not yet implemented".
Proof.
  intros. unfold mala_draw. destruct (g_norm G 0 (sqrt (2 * step)) r) as [n1 r1].
  destruct (g_norm G 0 (sqrt (2 * step)) r1) as [n2 r2]. reflexivity.
Qed.
