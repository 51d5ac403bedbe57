(** * The Gaussian integral (used as the specification of mixture overlaps). *)
From Coq Require Import Reals Lra Lia Psatz.
From Coquelicot Require Import Coquelicot.
Local Open Scope R_scope.

Definition bell (x : R) : R := exp (- (x * x)).

Lemma bell_derive : forall x, is_derive bell x (- (2 * x) * bell x).
Proof. intros x. unfold bell. auto_derive; [trivial|]. ring. Qed.

Lemma bell_cont : forall x, continuous bell x.
Proof. intros x. apply (ex_derive_continuous (K:=R_AbsRing) (V:=R_NormedModule)). exists (- (2 * x) * bell x). apply bell_derive. Qed.

Lemma bell_int : forall a b, ex_RInt bell a b.
Proof. intros a b. apply (ex_RInt_continuous (V:=R_CompleteNormedModule)). intros; apply bell_cont. Qed.

Definition area (t : R) : R := RInt bell 0 t.

Lemma area_derive : forall t, is_derive area t (bell t).
Proof.
  intros t. unfold area. apply (is_derive_RInt (V:=R_CompleteNormedModule) bell (RInt bell 0) 0 t).
  - exists (mkposreal 1 Rlt_0_1). intros y _. apply (RInt_correct (V:=R_CompleteNormedModule)), bell_int.
  - apply bell_cont.
Qed.

(** The companion integral. *)
Definition comp_f (t x : R) : R := exp (- (t * t * (1 + x * x))) / (1 + x * x).
Definition comp (t : R) : R := RInt (comp_f t) 0 1.

Lemma one_sq : forall x, 0 < 1 + x * x.
Proof. intros; nra. Qed.

Lemma comp_f_d1 : forall t x, is_derive (fun u => comp_f u x) t (- (2 * t) * exp (- (t * t * (1 + x * x)))).
Proof.
  intros t x. unfold comp_f. pose proof (one_sq x). auto_derive; [trivial|]. field. lra.
Qed.

Lemma comp_f_cont : forall t x, continuous (comp_f t) x.
Proof.
  intros t x. unfold comp_f. pose proof (one_sq x).
  apply (ex_derive_continuous (K:=R_AbsRing) (V:=R_NormedModule)). auto_derive. lra.
Qed.

Lemma comp_derive : forall t, is_derive comp t (RInt (fun x => - (2 * t) * exp (- (t * t * (1 + x * x)))) 0 1).
Proof.
  intros t. unfold comp.
  replace (RInt (fun x => - (2 * t) * exp (- (t * t * (1 + x * x)))) 0 1)
    with (RInt (fun x => Derive (fun u => comp_f u x) t) 0 1).
  2:{ apply RInt_ext. intros x _. apply is_derive_unique, comp_f_d1. }
  apply (is_derive_RInt_param comp_f 0 1 t).
  - exists (mkposreal 1 Rlt_0_1). intros y _ x _. eexists. apply comp_f_d1.
  - intros x _.
    apply (continuity_2d_pt_ext (fun u v => - (2 * u) * exp (- (u * u * (1 + v * v))))).
    { intros u v. symmetry. apply is_derive_unique, comp_f_d1. }
    apply continuity_2d_pt_mult.
    + apply continuity_2d_pt_opp, continuity_2d_pt_mult; [apply continuity_2d_pt_const|apply continuity_2d_pt_id1].
    + apply continuity_1d_2d_pt_comp with (f := exp).
      * apply derivable_continuous_pt, derivable_pt_exp.
      * apply continuity_2d_pt_opp, continuity_2d_pt_mult.
        -- apply continuity_2d_pt_mult; apply continuity_2d_pt_id1.
        -- apply continuity_2d_pt_plus; [apply continuity_2d_pt_const|].
           apply continuity_2d_pt_mult; apply continuity_2d_pt_id2.
  - exists (mkposreal 1 Rlt_0_1). intros y _. apply (ex_RInt_continuous (V:=R_CompleteNormedModule)).
    intros; apply comp_f_cont.
Qed.

Lemma area_scaled : forall t, RInt (fun x => t * bell (t * x + 0)) 0 1 = area t.
Proof.
  intros t. unfold area.
  pose proof (RInt_comp_lin (V:=R_CompleteNormedModule) bell t 0 0 1) as H.
  replace (t * 0 + 0) with 0 in H by ring. replace (t * 1 + 0) with t in H by ring.
  apply H. apply bell_int.
Qed.

Lemma comp_derive' : forall t, is_derive comp t (- (2 * bell t * area t)).
Proof.
  intros t. evar_last; [apply comp_derive|].
  rewrite <- area_scaled.
  rewrite (RInt_ext (V:=R_CompleteNormedModule) (fun x => - (2 * t) * exp (- (t * t * (1 + x * x))))
             (fun x => scal (- (2 * bell t)) (t * bell (t * x + 0)))).
  2:{ intros x _. unfold scal; simpl; unfold mult; simpl. unfold bell.
      replace (- (t * t * (1 + x * x))) with (- (t * t) + - ((t * x + 0) * (t * x + 0))) by ring.
      rewrite exp_plus. ring. }
  rewrite (RInt_scal (V:=R_CompleteNormedModule)).
  - unfold scal; simpl; unfold mult; simpl. ring.
  - apply (ex_RInt_continuous (V:=R_CompleteNormedModule)). intros z _.
    apply (ex_derive_continuous (K:=R_AbsRing) (V:=R_NormedModule)). unfold bell. auto_derive. trivial.
Qed.

Lemma square_const : forall t, area t * area t + comp t = comp 0.
Proof.
  assert (Hd : forall t, is_derive (fun t => area t * area t + comp t) t 0).
  { intros t. evar_last.
    - apply (is_derive_plus (K:=R_AbsRing) (V:=R_NormedModule)).
      + apply (is_derive_mult area area t (bell t) (bell t)); [apply area_derive|apply area_derive|].
        intros; apply Rmult_comm.
      + apply comp_derive'.
    - unfold plus; simpl; unfold mult; simpl. ring. }
  intros t.
  replace (comp 0) with (area 0 * area 0 + comp 0).
  2:{ unfold area. rewrite RInt_point. unfold zero; simpl. ring. }
  destruct (MVT_gen (fun t => area t * area t + comp t) 0 t (fun _ => 0)) as (c & _ & Hc).
  - intros x _. apply Hd.
  - intros x _. apply continuity_pt_filterlim.
    apply (ex_derive_continuous (K:=R_AbsRing) (V:=R_NormedModule) (fun t => area t * area t + comp t) x).
    exists 0. apply Hd.
  - lra.
Qed.

Lemma comp_0 : comp 0 = PI / 4.
Proof.
  unfold comp.
  rewrite (RInt_ext (V:=R_CompleteNormedModule) (comp_f 0) (Derive atan)).
  2:{ intros x _. unfold comp_f. rewrite Rmult_0_l, Rmult_0_l, Ropp_0, exp_0. symmetry. apply is_derive_unique.
      evar_last; [apply is_derive_atan|]. unfold Rsqr, Rdiv. rewrite ?Rmult_1_l. reflexivity. }
  rewrite RInt_Derive.
  - rewrite atan_1, atan_0. ring.
  - intros x _. eexists. apply is_derive_atan.
  - intros x _. apply (continuous_ext (fun x => / (1 + x * x))).
    + intros y. symmetry. apply is_derive_unique. evar_last; [apply is_derive_atan|]. unfold Rsqr. f_equal.
    + pose proof (one_sq x). apply (ex_derive_continuous (K:=R_AbsRing) (V:=R_NormedModule)). auto_derive. lra.
Qed.

Lemma comp_bounds : forall t, 0 <= comp t <= exp (- (t * t)).
Proof.
  intros t. unfold comp. 
  assert (Hi : ex_RInt (comp_f t) 0 1).
  { apply (ex_RInt_continuous (V:=R_CompleteNormedModule)). intros; apply comp_f_cont. }
  assert (Hc : forall c : R, RInt (V:=R_CompleteNormedModule) (fun _ => c) 0 1 = c).
  { intros c. rewrite RInt_const. unfold scal; simpl; unfold mult; simpl. ring. }
  split.
  - rewrite <- (Hc 0) at 1. apply RInt_le; [lra|apply ex_RInt_const|exact Hi|].
    intros x _. unfold comp_f. pose proof (one_sq x). apply Rlt_le, Rdiv_lt_0_compat; [apply exp_pos|lra].
  - rewrite <- (Hc (exp (- (t * t)))). apply RInt_le; [lra|exact Hi|apply ex_RInt_const|].
    intros x _. unfold comp_f. pose proof (one_sq x).
    apply (Rmult_le_reg_r (1 + x * x)); [lra|]. unfold Rdiv. rewrite Rmult_assoc, Rinv_l, Rmult_1_r by lra.
    rewrite <- (Rmult_1_r (exp (- (t * t * (1 + x * x))))).
    apply Rmult_le_compat; [apply Rlt_le, exp_pos|lra| |nra].
    destruct (Req_dec (t * t * (1 + x * x)) (t * t)) as [->|Hne]; [lra|]. apply Rlt_le, exp_increasing. nra.
Qed.

Lemma area_pos : forall t, 0 <= t -> 0 <= area t.
Proof.
  intros t Ht. unfold area. apply RInt_ge_0; [exact Ht|apply bell_int|].
  intros; apply Rlt_le, exp_pos.
Qed.

Lemma area_odd : forall t, area (- t) = - area t.
Proof.
  intros t. unfold area. pose proof (RInt_comp_lin (V:=R_CompleteNormedModule) bell (-1) 0 0 t) as H.
  replace (-1 * 0 + 0) with 0 in H by ring. replace (-1 * t + 0) with (- t) in H by ring.
  rewrite <- H by apply bell_int.
  rewrite (RInt_ext (V:=R_CompleteNormedModule) _ (fun y => opp (bell y))).
  - rewrite (RInt_opp (V:=R_CompleteNormedModule)) by apply bell_int. reflexivity.
  - intros x _. unfold scal, opp; simpl; unfold mult; simpl. unfold bell.
    replace ((-1 * x + 0) * (-1 * x + 0)) with (x * x) by ring. ring.
Qed.

Lemma bell_lim : is_lim bell p_infty 0.
Proof.
  unfold bell. apply (is_lim_comp exp (fun x => - (x * x)) p_infty 0 m_infty).
  - apply is_lim_exp_m.
  - apply (is_lim_opp (fun x => x * x) p_infty p_infty).
    apply (is_lim_mult (fun x => x) (fun x => x) p_infty p_infty p_infty); try apply is_lim_id. simpl. trivial.
  - exists 0. intros; discriminate.
Qed.

Lemma area_lim : is_lim area p_infty (sqrt PI / 2).
Proof.
  assert (Hc : is_lim comp p_infty 0).
  { apply (is_lim_le_le_loc (fun _ => 0) bell).
    - exists 0. intros x _. apply comp_bounds.
    - apply is_lim_const.
    - apply bell_lim. }
  apply (is_lim_ext_loc (fun t => sqrt (PI / 4 - comp t))).
  - exists 0. intros t Ht. rewrite <- comp_0, <- (square_const t).
    replace (area t * area t + comp t - comp t) with (area t * area t) by ring.
    apply sqrt_square, area_pos. lra.
  - replace (Finite (sqrt PI / 2)) with (Finite (sqrt (PI / 4))).
    2:{ f_equal. unfold Rdiv. rewrite sqrt_mult_alt by (apply Rlt_le, PI_RGT_0). f_equal.
        replace (/ 4) with (/ 2 * / 2) by lra. apply sqrt_square. lra. }
    apply (is_lim_comp_continuous (fun t => PI / 4 - comp t) sqrt p_infty (PI / 4)).
    + replace (Finite (PI / 4)) with (Finite (PI / 4 - 0)) by (f_equal; ring).
      apply (is_lim_minus' (fun _ => PI / 4) comp); [apply is_lim_const|exact Hc].
    + apply continuous_sqrt.
Qed.

Lemma area_lim_m : is_lim area m_infty (- (sqrt PI / 2)).
Proof.
  apply (is_lim_ext (fun t => - area (- t))).
  { intros t. rewrite area_odd. ring. }
  apply (is_lim_opp (fun t => area (- t)) m_infty (sqrt PI / 2)).
  apply (is_lim_comp area (fun t => - t) m_infty (sqrt PI / 2) p_infty).
  - apply area_lim.
  - apply (is_lim_opp (fun t => t) m_infty m_infty), is_lim_id.
  - exists 0. intros; discriminate.
Qed.

(** The normal density with mean [m] and variance [v]. *)
Definition gauss (m v x : R) : R := exp (- ((x - m) * (x - m) / (2 * v))) / sqrt (2 * PI * v).

Definition cdf (m v x : R) : R := area ((x - m) / sqrt (2 * v)) / sqrt PI.

Lemma sqrt_2v : forall v, 0 < v -> 0 < sqrt (2 * v) /\ sqrt (2 * v) * sqrt (2 * v) = 2 * v.
Proof. intros v Hv. split; [apply sqrt_lt_R0; lra|apply sqrt_sqrt; lra]. Qed.

Lemma cdf_derive : forall m v x, 0 < v -> is_derive (cdf m v) x (gauss m v x).
Proof.
  intros m v x Hv. destruct (sqrt_2v v Hv) as (Hs & Hss). pose proof PI_RGT_0 as Hpi.
  assert (Hp : 0 < sqrt PI) by (apply sqrt_lt_R0; lra).
  unfold cdf. evar_last.
  - apply (is_derive_ext (fun x => / sqrt PI * area ((x - m) / sqrt (2 * v)))).
    { intros t. unfold Rdiv. apply Rmult_comm. }
    apply (is_derive_scal (fun x => area ((x - m) / sqrt (2 * v)))).
    apply (is_derive_comp area (fun x => (x - m) / sqrt (2 * v)) x (bell ((x - m) / sqrt (2 * v))) (/ sqrt (2 * v))).
    + apply area_derive.
    + auto_derive; [trivial|]. field. lra.
  - unfold scal; simpl; unfold mult; simpl. unfold gauss, bell.
    replace (2 * PI * v) with (PI * (2 * v)) by ring. rewrite (sqrt_mult_alt PI (2 * v)) by lra.
    replace ((x - m) / sqrt (2 * v) * ((x - m) / sqrt (2 * v))) with ((x - m) * (x - m) / (2 * v)).
    2:{ set (s := sqrt (2 * v)) in *. rewrite <- Hss. field. lra. }
    field. lra.
Qed.

Lemma gauss_cont : forall m v x, 0 < v -> continuous (gauss m v) x.
Proof.
  intros m v x Hv. apply (ex_derive_continuous (K:=R_AbsRing) (V:=R_NormedModule)). unfold gauss.
  assert (0 < sqrt (2 * PI * v)). { apply sqrt_lt_R0. pose proof PI_RGT_0. nra. }
  auto_derive. repeat split; lra.
Qed.

Lemma cdf_lim_p : forall m v, 0 < v -> is_lim (cdf m v) p_infty (1 / 2).
Proof.
  intros m v Hv. destruct (sqrt_2v v Hv) as (Hs & Hss). pose proof PI_RGT_0 as Hpi.
  assert (Hp : 0 < sqrt PI) by (apply sqrt_lt_R0; lra).
  unfold cdf. apply (is_lim_ext (fun x => / sqrt PI * area (/ sqrt (2 * v) * x + - (m / sqrt (2 * v))))).
  { intros x. unfold Rdiv. rewrite Rmult_comm. f_equal. f_equal. ring. }
  replace (Finite (1 / 2)) with (Rbar_mult (/ sqrt PI) (sqrt PI / 2)) by (simpl; f_equal; field; lra).
  apply is_lim_scal_l.
  apply (is_lim_comp area _ p_infty (sqrt PI / 2) p_infty).
  - apply area_lim.
  - apply (is_lim_plus (fun x => / sqrt (2 * v) * x) (fun _ => - (m / sqrt (2 * v))) p_infty p_infty (- (m / sqrt (2 * v)))).
    + evar_last; [apply is_lim_scal_l, is_lim_id|].
      { simpl. pose proof (Rinv_0_lt_compat _ Hs). destruct (Rle_dec 0 (/ sqrt (2 * v))) as [h|h]; [|lra].
          destruct (Rle_lt_or_eq_dec 0 (/ sqrt (2 * v)) h); [reflexivity|lra]. }
    + apply is_lim_const.
    + reflexivity.
  - exists 0. intros; discriminate.
Qed.

Lemma cdf_lim_m : forall m v, 0 < v -> is_lim (cdf m v) m_infty (- (1 / 2)).
Proof.
  intros m v Hv. apply (is_lim_ext (fun x => - cdf (- m) v (- x))).
  { intros x. unfold cdf. replace ((- x - - m) / sqrt (2 * v)) with (- ((x - m) / sqrt (2 * v))) by (unfold Rdiv; ring).
    rewrite area_odd. unfold Rdiv. ring. }
  apply (is_lim_opp (fun x => cdf (- m) v (- x)) m_infty (1 / 2)).
  apply (is_lim_comp (cdf (- m) v) (fun x => - x) m_infty (1 / 2) p_infty).
  - apply cdf_lim_p, Hv.
  - apply (is_lim_opp (fun t => t) m_infty m_infty), is_lim_id.
  - exists 0. intros; discriminate.
Qed.

(** Integrals over the whole line. *)
Definition is_line_int (f : R -> R) (l : R) : Prop :=
  is_RInt_gen f (Rbar_locally m_infty) (Rbar_locally p_infty) l.

Lemma gauss_mass : forall m v, 0 < v -> is_line_int (gauss m v) 1.
Proof.
  intros m v Hv. unfold is_line_int. replace 1 with (1 / 2 - - (1 / 2)) by field.
  assert (HD : forall x, Derive (cdf m v) x = gauss m v x) by (intros; apply is_derive_unique, cdf_derive, Hv).
  apply (is_RInt_gen_ext (Derive (cdf m v))).
  { apply filter_forall. intros ab x _. apply HD. }
  apply is_RInt_gen_Derive.
  - apply filter_forall. intros ab x _. eexists. apply cdf_derive, Hv.
  - apply filter_forall. intros ab x _. apply (continuous_ext (gauss m v)); [intros; symmetry; apply HD|].
    apply gauss_cont, Hv.
  - apply (cdf_lim_m m v Hv).
  - apply (cdf_lim_p m v Hv).
Qed.
