(** * Bayes' rule for the univariate hierarchies. *)
From Coq Require Import String.
From Coq Require Import Bool List Arith ZArith Reals Lra Lia Permutation.
From Verif Require Import Base Mixings PartSpec MixFacts Univ.
Import ListNotations.
Local Open Scope R_scope.
Arguments sumR l : simpl never.

Lemma half : 0.5 = 1 / 2.
Proof. lra. Qed.

Definition sq (x : R) : R := x * x.
Definition stats_of (ys : list R) : norm_stats := fold_left (fun s y => norm_op y true s) ys norm_stats0.
Definition cardZ (ys : list R) : Z := Z.of_nat (length ys).
Definition valid (h : nig) : Prop := 0 < ng_vs h /\ 0 < ng_shape h /\ 0 < ng_scale h.

Lemma sumR_app2 : forall a b, sumR (a ++ b) = sumR a + sumR b.
Proof. induction a as [|x a IH]; intros b; [unfold sumR; simpl; lra|]. rewrite <- app_comm_cons, !sumR_cons, IH. lra. Qed.

Lemma stats_from : forall ys s, fold_left (fun s y => norm_op y true s) ys s = (fst s + sumR ys, snd s + sumR (map sq ys)).
Proof.
  induction ys as [|y ys IH]; intros [a b].
  - simpl. unfold sumR; simpl. f_equal; lra.
  - cbn [fold_left map]. rewrite IH, !sumR_cons. unfold norm_op, sq. simpl. f_equal; lra.
Qed.

Lemma stats_of_sums : forall ys, stats_of ys = (sumR ys, sumR (map sq ys)).
Proof. intros ys. unfold stats_of. rewrite stats_from. unfold norm_stats0. simpl. f_equal; lra. Qed.

Lemma sumR_const_mult : forall A (c : R) (f : A -> R) l, sumR (map (fun x => c * f x) l) = c * sumR (map f l).
Proof. intros A c f. induction l; [unfold sumR; simpl; lra|]. cbn [map]. rewrite !sumR_cons, IHl. lra. Qed.

(** The sum of squared deviations from [m], from the statistics. *)
Lemma dev_sum : forall ys m, sumR (map (fun y => sq (y - m)) ys) = sumR (map sq ys) - 2 * m * sumR ys + INR (length ys) * m * m.
Proof.
  induction ys as [|y ys IH]; intros m; [unfold sumR; simpl; lra|].
  cbn [map length]. rewrite !sumR_cons, IH, S_INR. unfold sq. lra.
Qed.

Lemma norm_lpdf_eq : forall s y, 0 < ls_var s ->
  norm_lpdf s y = - sq (y - ls_mean s) / (2 * ls_var s) - ln (ls_var s) / 2 - ln (2 * PI) / 2.
Proof.
  intros s y H. unfold norm_lpdf, normal_lpdf.
  assert (Hq : 0 < sqrt (ls_var s)) by (apply sqrt_lt_R0; auto).
  assert (E : ls_var s = sqrt (ls_var s) * sqrt (ls_var s)) by (symmetry; apply sqrt_sqrt; lra).
  set (q := sqrt (ls_var s)) in *. clearbody q. rewrite E, (ln_mult q q) by auto. unfold sq. rewrite ?half; field. lra.
Qed.

Lemma norm_sum : forall s ys, 0 < ls_var s ->
  sumR (map (norm_lpdf s) ys) =
  - sumR (map (fun y => sq (y - ls_mean s)) ys) / (2 * ls_var s)
  - INR (length ys) * (ln (ls_var s) / 2 + ln (2 * PI) / 2).
Proof.
  intros s ys H. induction ys as [|y ys IH]; [unfold sumR; simpl; field; lra|].
  cbn [map length]. rewrite !sumR_cons, IH, norm_lpdf_eq, S_INR by auto. rewrite ?half; field. lra.
Qed.

(** C23. *)
Lemma cluster_shortcut : forall ys m v, 0 < v ->
  norm_cluster_lpdf (cardZ ys) (stats_of ys) (to_unconstrained (m, v)) = sumR (map (norm_lpdf (mkLS m v)) ys).
Proof.
  intros ys m v H. rewrite norm_sum by auto. unfold norm_cluster_lpdf, to_unconstrained. simpl.
  rewrite exp_ln, stats_of_sums, dev_sum by auto. simpl. unfold cardZ. rewrite <- INR_IZR_INZ.
  replace (2 * PI * v) with ((2 * PI) * v) by ring. pose proof PI_RGT_0. rewrite (ln_mult (2 * PI)) by lra. rewrite ?half; field. lra.
Qed.

Lemma lap_cluster_sum : forall ys m v, 0 < v ->
  lap_cluster_lpdf ys (to_unconstrained (m, v)) = sumR (map (lap_lpdf (mkLS m v)) ys).
Proof.
  intros ys m v H. unfold lap_cluster_lpdf, to_unconstrained. cbn [fst snd]. rewrite exp_ln by auto.
  assert (G : forall l a, fold_left (fun out y => out + double_exponential_lpdf y m (sqrt (v / 2))) l a
                = a + sumR (map (lap_lpdf (mkLS m v)) l)).
  { induction l as [|y l IH]; intros a; [unfold sumR; simpl; lra|]. cbn [fold_left map]. rewrite IH, sumR_cons.
    unfold lap_lpdf. simpl. lra. }
  rewrite G. lra.
Qed.

(** ** NNIG *)

Lemma ln_div : forall x y, 0 < x -> 0 < y -> ln (x / y) = ln x - ln y.
Proof. intros x y H1 H2. unfold Rdiv. rewrite ln_mult, ln_Rinv by (auto using Rinv_0_lt_compat). lra. Qed.

Lemma ln_sqrt : forall x, 0 < x -> ln (sqrt x) = ln x / 2.
Proof.
  intros x H. assert (Hq : 0 < sqrt x) by (apply sqrt_lt_R0; auto).
  assert (E : x = sqrt x * sqrt x) by (symmetry; apply sqrt_sqrt; lra).
  set (q := sqrt x) in *. clearbody q. rewrite E, ln_mult by auto. lra.
Qed.

Lemma nig_lpdf_eq : forall lg h s, 0 < ng_vs h -> 0 < ls_var s ->
  nig_lpdf lg h s = - ng_vs h * sq (ls_mean s - ng_mean h) / (2 * ls_var s)
    - (ln (ls_var s) - ln (ng_vs h)) / 2 - ln (2 * PI) / 2
    + ng_shape h * ln (ng_scale h) - lg (ng_shape h) - (ng_shape h + 1) * ln (ls_var s) - ng_scale h / ls_var s.
Proof.
  intros lg h s H1 H2. unfold nig_lpdf, normal_lpdf, inv_gamma_lpdf.
  assert (Hq : 0 < ls_var s / ng_vs h) by (apply Rdiv_lt_0_compat; auto).
  assert (0 < sqrt (ls_var s / ng_vs h)) by (apply sqrt_lt_R0; auto).
  rewrite ln_sqrt, ln_div by auto.
  assert (E : - ((ls_mean s - ng_mean h) / sqrt (ls_var s / ng_vs h)) * ((ls_mean s - ng_mean h) / sqrt (ls_var s / ng_vs h)) / 2
              = - ng_vs h * sq (ls_mean s - ng_mean h) / (2 * ls_var s)).
  { transitivity (- sq (ls_mean s - ng_mean h) / (2 * (sqrt (ls_var s / ng_vs h) * sqrt (ls_var s / ng_vs h)))).
    - unfold sq. rewrite ?half; field. lra.
    - rewrite sqrt_sqrt by lra. rewrite ?half; field. lra. }
  rewrite E. rewrite ?half; field. lra.
Qed.

(** Log marginal likelihood of [ys], closed form. *)
Definition log_marg (lg : R -> R) (h : nig) (ys : list R) : R :=
  let p := nnig_post h (cardZ ys) (stats_of ys) in
  lg (ng_shape p) - lg (ng_shape h) + ng_shape h * ln (ng_scale h) - ng_shape p * ln (ng_scale p)
  + (ln (ng_vs h) - ln (ng_vs p)) / 2 - INR (length ys) * (ln (2 * PI) / 2).

Lemma cardZ_cons : forall y ys, (cardZ (y :: ys) =? 0)%Z = false.
Proof. intros. apply Z.eqb_neq. unfold cardZ. simpl. lia. Qed.

Lemma post_fields : forall h ys, ys <> [] ->
  let S1 := sumR ys in let S2 := sumR (map sq ys) in let n := INR (length ys) in
  nnig_post h (cardZ ys) (stats_of ys) =
  mkNIG ((ng_vs h * ng_mean h + S1) / (ng_vs h + n)) (ng_vs h + n) (ng_shape h + 0.5 * n)
        (ng_scale h + 0.5 * (S2 - n * (S1 / (1 * n)) * (S1 / (1 * n)))
         + 0.5 * ng_vs h * n * (S1 / (1 * n) - ng_mean h) * (S1 / (1 * n) - ng_mean h) / (n + ng_vs h)).
Proof.
  intros h ys Hy S1 S2 n. destruct ys as [|y ys]; [congruence|]. unfold nnig_post. rewrite cardZ_cons, stats_of_sums.
  unfold cardZ. rewrite <- INR_IZR_INZ. reflexivity.
Qed.

Lemma post_nil : forall h, nnig_post h (cardZ []) (stats_of []) = h.
Proof. reflexivity. Qed.

Lemma INR_len_pos : forall A (l : list A), l <> [] -> 0 < INR (length l).
Proof. intros A l H. destruct l; [congruence|]. simpl length. apply lt_0_INR. lia. Qed.

(** The scale in expanded form. *)
Lemma post_scale : forall h ys, 0 < ng_vs h -> ys <> [] ->
  let S1 := sumR ys in let S2 := sumR (map sq ys) in let n := INR (length ys) in
  ng_scale (nnig_post h (cardZ ys) (stats_of ys)) =
  ng_scale h + (S2 + ng_vs h * sq (ng_mean h) - sq (ng_vs h * ng_mean h + S1) / (ng_vs h + n)) / 2.
Proof.
  intros h ys Hv Hy S1 S2 n. rewrite post_fields by auto. cbn [ng_scale]. fold S1 S2 n.
  pose proof (INR_len_pos _ ys Hy) as Hn. fold n in Hn. unfold sq. rewrite ?half; field. split; lra.
Qed.

(** C18 (NNIG). *)
Lemma ss_nonneg : forall ys, ys <> [] -> 0 <= sumR (map sq ys) - INR (length ys) * (sumR ys / INR (length ys)) * (sumR ys / INR (length ys)).
Proof.
  intros ys Hy. pose proof (INR_len_pos _ ys Hy) as Hn.
  replace (sumR (map sq ys) - INR (length ys) * (sumR ys / INR (length ys)) * (sumR ys / INR (length ys)))
    with (sumR (map (fun y => sq (y - sumR ys / INR (length ys))) ys)).
  - assert (G : forall l m, 0 <= sumR (map (fun y => sq (y - m)) l)).
    { induction l as [|y l IH]; intros m; [unfold sumR; simpl; lra|]. cbn [map]. rewrite sumR_cons. specialize (IH m).
      unfold sq at 1. pose proof (Rle_0_sqr (y - m)) as Q. unfold Rsqr in Q. lra. }
    apply G.
  - rewrite dev_sum. rewrite ?half; field. lra.
Qed.

Lemma nnig_post_valid : forall h ys, valid h -> valid (nnig_post h (cardZ ys) (stats_of ys)).
Proof.
  intros h ys (H1 & H2 & H3). destruct ys as [|y ys]; [rewrite post_nil; split; auto|].
  set (l := y :: ys). assert (Hl : l <> []) by discriminate. rewrite post_fields by auto.
  pose proof (INR_len_pos _ l Hl) as Hn. pose proof (ss_nonneg l Hl) as Hs.
  unfold valid; cbn [ng_vs ng_shape ng_scale]. rewrite !Rmult_1_l.
  split; [lra|]. split; [lra|].
  set (yb := sumR l / INR (length l)) in *.
  assert (0 <= 0.5 * ng_vs h * INR (length l) * (yb - ng_mean h) * (yb - ng_mean h) / (INR (length l) + ng_vs h)).
  { replace (0.5 * ng_vs h * INR (length l) * (yb - ng_mean h) * (yb - ng_mean h) / (INR (length l) + ng_vs h))
      with (ng_vs h * INR (length l) / (2 * (INR (length l) + ng_vs h)) * Rsqr (yb - ng_mean h))
      by (unfold Rsqr; rewrite ?half; field; lra).
    apply Rmult_le_pos; [|apply Rle_0_sqr]. left. apply Rdiv_lt_0_compat; [apply Rmult_lt_0_compat|]; lra. }
  lra.
Qed.

(** C16. *)
Lemma nnig_bayes : forall lg h ys s, valid h -> 0 < ls_var s ->
  nig_lpdf lg h s + sumR (map (norm_lpdf s) ys) =
  log_marg lg h ys + nig_lpdf lg (nnig_post h (cardZ ys) (stats_of ys)) s.
Proof.
  intros lg h ys s HV Hs. destruct HV as (H1 & H2 & H3).
  destruct ys as [|y ys].
  - unfold log_marg. rewrite post_nil. unfold sumR. simpl. lra.
  - set (l := y :: ys). assert (Hl : l <> []) by discriminate.
    assert (HV' : valid (nnig_post h (cardZ l) (stats_of l))) by (apply nnig_post_valid; split; auto).
    pose proof (post_scale h l H1 Hl) as Esc. cbv zeta in Esc.
    pose proof (INR_len_pos _ l Hl) as Hn.
    assert (Em : ng_mean (nnig_post h (cardZ l) (stats_of l)) = (ng_vs h * ng_mean h + sumR l) / (ng_vs h + INR (length l))) by (rewrite post_fields by auto; reflexivity).
    assert (Ev : ng_vs (nnig_post h (cardZ l) (stats_of l)) = ng_vs h + INR (length l)) by (rewrite post_fields by auto; reflexivity).
    assert (Ea : ng_shape (nnig_post h (cardZ l) (stats_of l)) = ng_shape h + 0.5 * INR (length l)) by (rewrite post_fields by auto; reflexivity).
    unfold log_marg. set (p := nnig_post h (cardZ l) (stats_of l)) in *. destruct HV' as (V1 & V2 & V3).
    rewrite !nig_lpdf_eq, norm_sum, dev_sum by auto.
    set (LP := ln (ng_scale p)). rewrite Esc. rewrite Em, Ev, Ea.
    set (LV := ln (ls_var s)). set (L2 := ln (2 * PI)). set (Lb := ln (ng_scale h)).
    set (L1 := ln (ng_vs h)). set (Ln := ln (ng_vs h + INR (length l))).
    set (G1 := lg (ng_shape h)). set (G2 := lg (ng_shape h + 0.5 * INR (length l))).
    unfold sq. set (S1 := sumR l). set (S2 := sumR (map (fun x => x * x) l)). set (n := INR (length l)) in *.
    rewrite ?half; field. split; lra.
Qed.

(** C19. *)
Lemma stats_app : forall a b, stats_of (a ++ b) = (fst (stats_of a) + fst (stats_of b), snd (stats_of a) + snd (stats_of b)).
Proof. intros. rewrite !stats_of_sums, map_app, !sumR_app2. reflexivity. Qed.

Lemma nnig_compose : forall h a b, valid h ->
  nnig_post (nnig_post h (cardZ a) (stats_of a)) (cardZ b) (stats_of b) = nnig_post h (cardZ (a ++ b)) (stats_of (a ++ b)).
Proof.
  intros h a b HV. destruct a as [|x a]; [reflexivity|]. destruct b as [|y b]; [rewrite app_nil_r; reflexivity|].
  set (la := x :: a). set (lb := y :: b).
  assert (Ha : la <> []) by discriminate. assert (Hb : lb <> []) by discriminate.
  assert (Hab : la ++ lb <> []) by discriminate.
  destruct HV as (H1 & H2 & H3).
  pose proof (INR_len_pos _ la Ha) as Pa. pose proof (INR_len_pos _ lb Hb) as Pb.
  assert (E : forall p q, ng_mean p = ng_mean q -> ng_vs p = ng_vs q -> ng_shape p = ng_shape q -> ng_scale p = ng_scale q -> p = q).
  { intros [] []; simpl; intros; congruence. }
  assert (Ev : ng_vs (nnig_post h (cardZ la) (stats_of la)) = ng_vs h + INR (length la)) by (rewrite post_fields by auto; reflexivity).
  apply E.
  - rewrite !post_fields by auto. cbn [ng_mean ng_vs]. rewrite sumR_app2, app_length, plus_INR. rewrite ?half; field. repeat split; lra.
  - rewrite !post_fields by auto. cbn [ng_vs]. rewrite app_length, plus_INR. lra.
  - rewrite !post_fields by auto. cbn [ng_shape]. rewrite app_length, plus_INR. lra.
  - rewrite (post_scale (nnig_post h (cardZ la) (stats_of la)) lb) by (auto; rewrite Ev; lra).
    rewrite (post_scale h (la ++ lb)) by auto. rewrite Ev. rewrite (post_scale h la) by auto.
    replace (ng_mean (nnig_post h (cardZ la) (stats_of la))) with ((ng_vs h * ng_mean h + sumR la) / (ng_vs h + INR (length la)))
      by (rewrite post_fields by auto; reflexivity).
    rewrite map_app, !sumR_app2, app_length, plus_INR. unfold sq. rewrite ?half; field. repeat split; lra.
Qed.

Lemma stats_perm : forall a b, Permutation a b -> stats_of a = stats_of b.
Proof.
  intros a b P. rewrite !stats_of_sums, (sumR_perm _ _ P), (sumR_perm _ _ (Permutation_map sq P)). reflexivity.
Qed.

Lemma nnig_perm : forall h a b, Permutation a b -> nnig_post h (cardZ a) (stats_of a) = nnig_post h (cardZ b) (stats_of b).
Proof. intros h a b P. unfold cardZ. rewrite (stats_perm a b P), (Permutation_length P). reflexivity. Qed.

(** C17. *)
Lemma marg_one : forall lg h y, valid h -> nnig_marg_lpdf lg h y = log_marg lg h [y].
Proof.
  intros lg h y HV. assert (HV0 := HV). destruct HV as (H1 & H2 & H3).
  unfold nnig_marg_lpdf, student_t_lpdf. set (sg2 := ng_scale h * (ng_vs h + 1) / (ng_shape h * ng_vs h)).
  assert (P2 : 0 < sg2).
  { unfold sg2. apply Rdiv_lt_0_compat; apply Rmult_lt_0_compat; lra. }
  assert (Ps : 0 < sqrt sg2) by (apply sqrt_lt_R0; auto).
  unfold log_marg. set (p := nnig_post h (cardZ [y]) (stats_of [y])).
  assert (Esc : ng_scale p = ng_scale h + (sq y + ng_vs h * sq (ng_mean h) - sq (ng_vs h * ng_mean h + y) / (ng_vs h + 1)) / 2).
  { unfold p. rewrite post_scale by (auto; discriminate). unfold sumR; simpl. rewrite !Rplus_0_r. reflexivity. }
  assert (Ev : ng_vs p = ng_vs h + 1) by reflexivity.
  assert (Ea : ng_shape p = ng_shape h + 1 / 2) by (unfold p; rewrite post_fields by discriminate; simpl; lra).
  destruct (nnig_post_valid h [y] HV0) as (_ & _ & Hp). fold p in Hp.
  assert (E1 : 1 + (y - ng_mean h) / sqrt sg2 * ((y - ng_mean h) / sqrt sg2) / (2 * ng_shape h) = ng_scale p / ng_scale h).
  { transitivity (1 + (y - ng_mean h) * (y - ng_mean h) / (sqrt sg2 * sqrt sg2) / (2 * ng_shape h)).
    - rewrite ?half; field. repeat split; lra.
    - rewrite sqrt_sqrt by lra. rewrite Esc. unfold sg2, sq. rewrite ?half; field. repeat split; lra. }
  rewrite E1, ln_div by auto. rewrite ln_sqrt by auto. unfold sg2.
  pose proof PI_RGT_0. rewrite ln_div, (ln_mult (ng_scale h)), (ln_mult (ng_shape h)), (ln_mult 2 (ng_shape h)), (ln_mult 2 PI)
    by first [lra | apply Rmult_lt_0_compat; lra].
  rewrite Ea, Ev.
  replace ((2 * ng_shape h + 1) / 2) with (ng_shape h + 1 / 2) by (rewrite ?half; field).
  replace (2 * ng_shape h / 2) with (ng_shape h) by (rewrite ?half; field). simpl INR. rewrite ?half; field.
Qed.

Lemma nnig_predictive : forall lg h y s, valid h -> 0 < ls_var s ->
  nnig_marg_lpdf lg h y = nig_lpdf lg h s + norm_lpdf s y - nig_lpdf lg (nnig_post h 1 (norm_op y true norm_stats0)) s.
Proof.
  intros lg h y s HV Hs. pose proof (nnig_bayes lg h [y] s HV Hs) as B. rewrite (marg_one lg h y HV).
  cbn [map] in B. unfold sumR in B; simpl in B. unfold cardZ, stats_of in B. simpl in B. simpl. lra.
Qed.

(** The chain rule for predictions. *)
Lemma marg_chain : forall lg h ys y, valid h ->
  nnig_marg_lpdf lg (nnig_post h (cardZ ys) (stats_of ys)) y + log_marg lg h ys = log_marg lg h (y :: ys).
Proof.
  intros lg h ys y HV. rewrite (marg_one lg _ y (nnig_post_valid h ys HV)).
  set (s := mkLS 0 1). assert (Hs : 0 < ls_var s) by (simpl; lra).
  pose proof (nnig_bayes lg h ys s HV Hs) as B1.
  pose proof (nnig_bayes lg (nnig_post h (cardZ ys) (stats_of ys)) [y] s (nnig_post_valid h ys HV) Hs) as B2.
  pose proof (nnig_bayes lg h (y :: ys) s HV Hs) as B3.
  rewrite nnig_compose in B2 by auto.
  rewrite (nnig_perm h (ys ++ [y]) (y :: ys)) in B2 by (symmetry; apply Permutation_cons_append).
  cbn [map] in B2, B3. rewrite sumR_cons in B3. rewrite sumR_cons in B2. change (sumR []) with 0 in B2. lra.
Qed.

Lemma log_marg_perm : forall lg h a b, Permutation a b -> log_marg lg h a = log_marg lg h b.
Proof. intros lg h a b P. unfold log_marg. rewrite (nnig_perm h a b P), (Permutation_length P). reflexivity. Qed.

(** ** Semi-conjugate (C20) *)

Lemma nxig_sum_eq : forall h ys s, 0 < nx_var h -> 0 < ls_var s ->
  normal_lpdf (ls_mean s) (nx_mean h) (sqrt (nx_var h)) =
  - sq (ls_mean s - nx_mean h) / (2 * nx_var h) - ln (nx_var h) / 2 - ln (2 * PI) / 2 /\
  sumR (map (norm_lpdf s) ys) =
  - (sumR (map sq ys) - 2 * ls_mean s * sumR ys + INR (length ys) * ls_mean s * ls_mean s) / (2 * ls_var s)
  - INR (length ys) * (ln (ls_var s) / 2 + ln (2 * PI) / 2).
Proof.
  intros h ys s H1 H2. split; [|rewrite norm_sum, dev_sum by auto; reflexivity].
  exact (norm_lpdf_eq (mkLS (nx_mean h) (nx_var h)) (ls_mean s) H1).
Qed.

Lemma nxig_fields : forall h ys s, ys <> [] ->
  nnxig_post h (cardZ ys) (stats_of ys) s =
  mkNxIG ((nx_var h * sumR ys + ls_var s * nx_mean h) / (INR (length ys) * nx_var h + ls_var s))
         ((ls_var s * nx_var h) / (INR (length ys) * nx_var h + ls_var s))
         (nx_shape h + 0.5 * INR (length ys))
         (nx_scale h + 0.5 * (sumR (map sq ys) - 2 * ls_mean s * sumR ys + INR (length ys) * ls_mean s * ls_mean s)).
Proof.
  intros h ys s Hy. destruct ys as [|y ys]; [congruence|]. unfold nnxig_post. rewrite cardZ_cons, stats_of_sums.
  unfold cardZ. rewrite <- INR_IZR_INZ. reflexivity.
Qed.

(** Given the variance of [s], the density of the mean. *)
Lemma nxig_mean_conditional : forall h ys s, 0 < nx_var h -> 0 < ls_var s ->
  exists C, forall m,
    normal_lpdf m (nx_mean h) (sqrt (nx_var h)) + sumR (map (norm_lpdf (mkLS m (ls_var s))) ys) =
    C + normal_lpdf m (nx_mean (nnxig_post h (cardZ ys) (stats_of ys) s)) (sqrt (nx_var (nnxig_post h (cardZ ys) (stats_of ys) s))).
Proof.
  intros h ys s H1 H2. destruct ys as [|y ys].
  - exists 0. intros m. change (nnxig_post h (cardZ []) (stats_of []) s) with h. cbn [map]. change (sumR []) with 0. ring.
  - set (l := y :: ys). assert (Hl : l <> []) by discriminate.
    pose proof (INR_len_pos _ l Hl) as Hn. rewrite nxig_fields by auto. cbn [nx_mean nx_var].
    set (n := INR (length l)) in *. set (S1 := sumR l). set (S2 := sumR (map sq l)).
    assert (Hd : 0 < n * nx_var h + ls_var s) by (apply Rplus_lt_0_compat; auto; apply Rmult_lt_0_compat; auto).
    set (vn := ls_var s * nx_var h / (n * nx_var h + ls_var s)).
    assert (Hv : 0 < vn) by (apply Rdiv_lt_0_compat; auto; apply Rmult_lt_0_compat; auto).
    set (mn := (nx_var h * S1 + ls_var s * nx_mean h) / (n * nx_var h + ls_var s)).
    exists (- (S2 / ls_var s + sq (nx_mean h) / nx_var h - sq mn / vn) / 2 - ln (nx_var h) / 2 + ln vn / 2
            - n * (ln (ls_var s) / 2 + ln (2 * PI) / 2)).
    intros m.
    destruct (nxig_sum_eq h l (mkLS m (ls_var s)) H1 H2) as [E1 E2]. cbn [ls_mean ls_var] in E1, E2.
    rewrite E1, E2. fold S1 S2 n.
    pose proof (norm_lpdf_eq (mkLS mn vn) m Hv) as E3. unfold norm_lpdf in E3. cbn [ls_mean ls_var] in E3. rewrite E3.
    set (LV := ln (ls_var s)). set (L2 := ln (2 * PI)). set (L1 := ln (nx_var h)). set (Lv := ln vn).
    unfold mn, vn, sq. rewrite ?half; field. repeat split; lra.
Qed.

(** Given the mean of [s], the density of the variance. *)
Lemma nxig_var_conditional : forall lg h ys s, 
  exists C, forall v, 0 < v ->
    inv_gamma_lpdf lg v (nx_shape h) (nx_scale h) + sumR (map (norm_lpdf (mkLS (ls_mean s) v)) ys) =
    C + inv_gamma_lpdf lg v (nx_shape (nnxig_post h (cardZ ys) (stats_of ys) s)) (nx_scale (nnxig_post h (cardZ ys) (stats_of ys) s)).
Proof.
  intros lg h ys s. destruct ys as [|y ys].
  - exists 0. intros v Hv. change (nnxig_post h (cardZ []) (stats_of []) s) with h. cbn [map]. change (sumR []) with 0. ring.
  - set (l := y :: ys). assert (Hl : l <> []) by discriminate.
    rewrite nxig_fields by auto. cbn [nx_shape nx_scale].
    set (n := INR (length l)). set (S1 := sumR l). set (S2 := sumR (map sq l)).
    exists (nx_shape h * ln (nx_scale h) - lg (nx_shape h) - n * (ln (2 * PI) / 2)
      - ((nx_shape h + 0.5 * n) * ln (nx_scale h + 0.5 * (S2 - 2 * ls_mean s * S1 + n * ls_mean s * ls_mean s)) - lg (nx_shape h + 0.5 * n))).
    intros v Hv. rewrite norm_sum, dev_sum by auto. cbn [ls_mean ls_var]. fold n S1 S2. unfold inv_gamma_lpdf.
    set (LV := ln v). set (L2 := ln (2 * PI)). set (Lb := ln (nx_scale h)).
    set (LN := ln (nx_scale h + 0.5 * (S2 - 2 * ls_mean s * S1 + n * ls_mean s * ls_mean s))).
    rewrite ?half; field. lra.
Qed.

(** Both parameters are drawn from the old state. *)
Lemma nxig_draw : forall G h ys s r, ys <> [] ->
  exists m v r1 r2,
    g_norm G (nx_mean (nnxig_post h (cardZ ys) (stats_of ys) s)) (sqrt (nx_var (nnxig_post h (cardZ ys) (stats_of ys) s))) r = (m, r1) /\
    g_invgamma G (nx_shape h + INR (length ys) / 2) (nx_scale h + sumR (map (fun y => sq (y - ls_mean s)) ys) / 2) r1 = (v, r2) /\
    nxig_sample G (nnxig_post h (cardZ ys) (stats_of ys) s) r = (mkLS m v, r2).
Proof.
  intros G h ys s r Hy. set (p := nnxig_post h (cardZ ys) (stats_of ys) s).
  destruct (g_norm G (nx_mean p) (sqrt (nx_var p)) r) as [m r1] eqn:E1.
  destruct (g_invgamma G (nx_shape p) (nx_scale p) r1) as [v r2] eqn:E2.
  exists m, v, r1, r2. split; auto. unfold nxig_sample. rewrite E1, E2. split; auto.
  rewrite <- E2. unfold p. rewrite nxig_fields by auto. cbn [nx_shape nx_scale]. rewrite dev_sum. f_equal; lra.
Qed.

(** ** Unconstrained parameters (C24) *)

Lemma ls_round : (forall s, 0 < ls_var s -> ls_set_unconstrained (ls_get_unconstrained s) = s) /\
  (forall u, ls_get_unconstrained (ls_set_unconstrained u) = u /\ 0 < ls_var (ls_set_unconstrained u)).
Proof.
  split.
  - intros [m v] H. unfold ls_set_unconstrained, ls_get_unconstrained, to_constrained, to_unconstrained. simpl in *.
    rewrite exp_ln; auto.
  - intros [a b]. unfold ls_set_unconstrained, ls_get_unconstrained, to_constrained, to_unconstrained. simpl.
    rewrite ln_exp. split; auto. apply exp_pos.
Qed.

Lemma jac_derivative : forall u, derivable_pt_lim (fun x => snd (to_constrained (fst u, x))) (snd u)
    (exp (ls_log_det_jac (ls_set_unconstrained u))).
Proof.
  intros [a b]. unfold ls_log_det_jac, log_det_jac, ls_set_unconstrained, to_constrained. simpl.
  rewrite Rplus_0_l, ln_exp. apply derivable_pt_lim_exp.
Qed.

Lemma nig_unconstrained : forall lg h u,
  nig_lpdf_unconstrained lg h u = nig_lpdf lg h (ls_set_unconstrained u) + ls_log_det_jac (ls_set_unconstrained u).
Proof. reflexivity. Qed.
