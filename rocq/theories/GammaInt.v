(** * The Gamma function as an integral, and integrals over the positive half line
    (used as the specification of normalising constants). *)
From Coq Require Import Reals Lra Lia Psatz.
From Coquelicot Require Import Coquelicot.
Local Open Scope R_scope.

(** Integral over the positive half line. *)
Definition is_half_int (f : R -> R) (l : R) : Prop :=
  forall eps, 0 < eps -> exists e0 b0, 0 < e0 < b0 /\
    forall e b, 0 < e -> e < e0 -> b0 < b -> exists y, is_RInt f e b y /\ Rabs (y - l) < eps.

Lemma half_ext : forall f g l, (forall x, 0 < x -> f x = g x) -> is_half_int f l -> is_half_int g l.
Proof.
  intros f g l E H eps He. destruct (H eps He) as (e0 & b0 & H0 & K). exists e0, b0. split; [exact H0|].
  intros e b P1 P2 P3. destruct (K e b P1 P2 P3) as (y & I & D). exists y. split; [|exact D].
  apply (is_RInt_ext f); [|exact I]. intros x Hx. rewrite Rmin_left in Hx by lra. apply E. lra.
Qed.

Lemma half_scal : forall f c l, is_half_int f l -> is_half_int (fun x => c * f x) (c * l).
Proof.
  intros f c l H eps He.
  destruct (H (eps / (Rabs c + 1))) as (e0 & b0 & H0 & K).
  { apply Rdiv_lt_0_compat; [exact He|]. pose proof (Rabs_pos c). lra. }
  exists e0, b0. split; [exact H0|]. intros e b P1 P2 P3. destruct (K e b P1 P2 P3) as (y & I & D).
  exists (c * y). split.
  - apply (is_RInt_scal f e b c y I).
  - replace (c * y - c * l) with (c * (y - l)) by ring. rewrite Rabs_mult. pose proof (Rabs_pos c). pose proof (Rabs_pos (y - l)).
    assert (E : Rabs (y - l) * (Rabs c + 1) < eps).
    { apply (Rmult_lt_compat_r (Rabs c + 1)) in D; [|lra]. unfold Rdiv in D. rewrite Rmult_assoc, Rinv_l in D; lra. }
    nra.
Qed.

Lemma half_unique : forall f l m, is_half_int f l -> is_half_int f m -> l = m.
Proof.
  intros f l m Hl Hm. apply cond_eq. intros eps He.
  destruct (Hl (eps / 2)) as (e1 & b1 & [P1 Q1] & K1); [lra|]. destruct (Hm (eps / 2)) as (e2 & b2 & [P2 Q2] & K2); [lra|].
  set (e := Rmin e1 e2 / 2). set (b := Rmax b1 b2 + 1).
  assert (0 < Rmin e1 e2) by (apply Rmin_glb_lt; assumption).
  pose proof (Rmin_l e1 e2). pose proof (Rmin_r e1 e2). pose proof (Rmax_l b1 b2). pose proof (Rmax_r b1 b2).
  destruct (K1 e b) as (y1 & I1 & D1); try (unfold e, b; lra). destruct (K2 e b) as (y2 & I2 & D2); try (unfold e, b; lra).
  pose proof (is_RInt_unique _ _ _ _ I1). pose proof (is_RInt_unique _ _ _ _ I2).
  assert (y1 = y2) by congruence. subst y2.
  apply Rabs_def2 in D1, D2. apply Rabs_def1; lra.
Qed.

(** Euler's integrand, on the positive half line t^(a-1) e^(-t). *)
Definition euler (a t : R) : R := exp ((a - 1) * ln t - t).

Lemma euler_cont : forall a t, 0 < t -> continuous (euler a) t.
Proof.
  intros a t Ht. apply (ex_derive_continuous (K:=R_AbsRing) (V:=R_NormedModule)). unfold euler. auto_derive. exact Ht.
Qed.
Lemma euler_pos : forall a t, 0 < euler a t.
Proof. intros; apply exp_pos. Qed.
Lemma euler_int : forall a e b, 0 < e -> 0 < b -> ex_RInt (euler a) e b.
Proof.
  intros a e b He Hb. apply (ex_RInt_continuous (V:=R_CompleteNormedModule)). intros x Hx. apply euler_cont.
  pose proof (Rmin_glb_lt e b 0 He Hb). lra.
Qed.

(** Monotone bounded integrals converge. *)
Definition bounded_int (f : R -> R) (B : R) : Prop := forall e b, 0 < e -> e <= b -> RInt f e b <= B.

Lemma half_ex : forall f B, (forall t, 0 < t -> continuous f t) -> (forall t, 0 < t -> 0 <= f t) -> bounded_int f B ->
  { l | is_half_int f l /\ forall e b, 0 < e -> e <= b -> RInt f e b <= l }.
Proof.
  intros f B Cf Pf Bf.
  assert (Ex : forall e b, 0 < e -> 0 < b -> ex_RInt f e b).
  { intros e b He Hb. apply (ex_RInt_continuous (V:=R_CompleteNormedModule)). intros x Hx. apply Cf.
    pose proof (Rmin_glb_lt e b 0 He Hb). lra. }
  set (E := fun x => exists e b, 0 < e /\ e <= b /\ x = RInt f e b).
  destruct (completeness E) as (l & Ub & Lu).
  - exists B. intros x (e & b & He & Hb & ->). apply Bf; assumption.
  - exists (RInt f 1 1), 1, 1. repeat split; lra.
  - exists l. assert (Le : forall e b, 0 < e -> e <= b -> RInt f e b <= l).
    { intros e b He Hb. apply Ub. exists e, b. auto. }
    split; [|exact Le]. intros eps Heps.
    assert (exists e b, 0 < e /\ e <= b /\ l - eps < RInt f e b) as (e1 & b1 & He1 & Hb1 & HI).
    { apply Classical_Prop.NNPP. intro N.
      assert (l <= l - eps); [|lra]. apply Lu. intros x (e & b & He & Hb & ->).
      destruct (Rle_lt_dec (RInt f e b) (l - eps)) as [L|L]; [exact L|]. exfalso. apply N. exists e, b. auto. }
    exists e1, (b1 + 1). split; [lra|]. intros e b H1 H2 H3. exists (RInt f e b). split.
    { apply (RInt_correct (V:=R_CompleteNormedModule)), Ex; lra. }
    assert (RInt f e1 b1 <= RInt f e b).
    { rewrite <- (RInt_Chasles (V:=R_CompleteNormedModule) f e e1 b), <- (RInt_Chasles (V:=R_CompleteNormedModule) f e1 b1 b)
        by (apply Ex; lra).
      assert (0 <= RInt f e e1) by (apply RInt_ge_0; [lra|apply Ex; lra|intros; apply Pf; lra]).
      assert (0 <= RInt f b1 b) by (apply RInt_ge_0; [lra|apply Ex; lra|intros; apply Pf; lra]).
      change (RInt f e1 b1 <= RInt f e e1 + (RInt f e1 b1 + RInt f b1 b)). lra. }
    specialize (Le e b H1 ltac:(lra)). apply Rabs_def1; lra.
Qed.

Lemma exp_le : forall x y, x <= y -> exp x <= exp y.
Proof. intros x y [H| ->]; [left; apply exp_increasing, H|lra]. Qed.

Lemma ln_le_sub1 : forall x, 0 < x -> ln x <= x - 1.
Proof.
  intros x Hx. rewrite <- (ln_exp (x - 1)). destruct (Rle_lt_dec x (exp (x - 1))) as [L|L].
  - destruct L as [L|E]; [left; apply ln_increasing; assumption|rewrite <- E; lra].
  - pose proof (exp_ineq1_le (x - 1)). lra.
Qed.

Lemma euler_low : forall a e, 0 < a -> 0 < e -> e <= 1 -> RInt (euler a) e 1 <= / a.
Proof.
  intros a e Ha He H1.
  assert (D : is_RInt (fun t => exp ((a - 1) * ln t)) e 1 (minus (exp (a * ln 1) / a) (exp (a * ln e) / a))).
  { apply (is_RInt_derive (V:=R_CompleteNormedModule) (fun t => exp (a * ln t) / a)).
    - intros x Hx. rewrite Rmin_left in Hx by lra. auto_derive; [lra|].
      replace ((a - 1) * ln x) with (a * ln x - ln x) by ring. unfold Rminus. rewrite exp_plus, exp_Ropp, exp_ln by lra. field. lra.
    - intros x Hx. rewrite Rmin_left in Hx by lra. apply (ex_derive_continuous (K:=R_AbsRing) (V:=R_NormedModule)). auto_derive. lra. }
  apply Rle_trans with (RInt (fun t => exp ((a - 1) * ln t)) e 1).
  - apply RInt_le; [exact H1|apply euler_int; lra|eexists; exact D|].
    intros x Hx. unfold euler. apply exp_le. lra.
  - rewrite (is_RInt_unique _ _ _ _ D). rewrite ln_1, Rmult_0_r, exp_0. change (1 / a - exp (a * ln e) / a <= / a).
    pose proof (exp_pos (a * ln e)). assert (0 < exp (a * ln e) / a) by (apply Rdiv_lt_0_compat; lra). unfold Rdiv at 1. lra.
Qed.

Lemma euler_high : forall a b, 1 <= b ->
  RInt (euler a) 1 b <= 2 * exp ((Rabs (a - 1) + 1) * ln (2 * (Rabs (a - 1) + 1))).
Proof.
  intros a b Hb. set (c := Rabs (a - 1) + 1). pose proof (Rabs_pos (a - 1)) as Hc.
  set (K := exp (c * ln (2 * c))).
  assert (D : is_RInt (fun t => K * exp (- (t / 2))) 1 b (minus (-2 * K * exp (- (b / 2))) (-2 * K * exp (- (1 / 2))))).
  { apply (is_RInt_derive (V:=R_CompleteNormedModule) (fun t => -2 * K * exp (- (t / 2)))).
    - intros x Hx. auto_derive; [trivial|]. unfold Rdiv. field.
    - intros x Hx. apply (ex_derive_continuous (K:=R_AbsRing) (V:=R_NormedModule)). auto_derive. trivial. }
  apply Rle_trans with (RInt (fun t => K * exp (- (t / 2))) 1 b).
  - apply RInt_le; [exact Hb|apply euler_int; lra|eexists; exact D|].
    intros x Hx. unfold euler, K. rewrite <- exp_plus. apply exp_le.
    assert (0 <= ln x) by (rewrite <- ln_1; apply ln_le; lra).
    assert (L : ln x <= x / (2 * c) + ln (2 * c)).
    { replace x with (x / (2 * c) * (2 * c)) at 1 by (field; unfold c; lra).
      assert (0 < x / (2 * c)) by (apply Rdiv_lt_0_compat; unfold c; lra).
      rewrite ln_mult by (try assumption; unfold c; lra). pose proof (ln_le_sub1 _ H0). lra. }
    assert ((a - 1) * ln x <= c * ln x).
    { apply Rmult_le_compat_r; [exact H|]. unfold c. pose proof (Rle_abs (a - 1)). lra. }
    assert (c * ln x <= c * (x / (2 * c) + ln (2 * c))) by (apply Rmult_le_compat_l; [unfold c; lra|exact L]).
    replace (c * (x / (2 * c) + ln (2 * c))) with (x / 2 + c * ln (2 * c)) in H1 by (field; unfold c; lra). lra.
  - rewrite (is_RInt_unique _ _ _ _ D). change (-2 * K * exp (- (b / 2)) - (-2 * K * exp (- (1 / 2))) <= 2 * K).
    pose proof (exp_pos (c * ln (2 * c))) as HK. fold K in HK. pose proof (exp_pos (- (b / 2))).
    pose proof (exp_le (- (1 / 2)) 0 ltac:(lra)) as X. rewrite exp_0 in X. nra.
Qed.

Lemma euler_bounded : forall a, 0 < a ->
  bounded_int (euler a) (/ a + 2 * exp ((Rabs (a - 1) + 1) * ln (2 * (Rabs (a - 1) + 1)))).
Proof.
  intros a Ha e b He Hb. set (e' := Rmin e 1). set (b' := Rmax b 1).
  assert (He' : 0 < e' /\ e' <= e /\ e' <= 1) by (unfold e'; repeat split; [apply Rmin_glb_lt; lra|apply Rmin_l|apply Rmin_r]).
  assert (Hb' : b <= b' /\ 1 <= b') by (split; [apply Rmax_l|apply Rmax_r]).
  assert (RInt (euler a) e b <= RInt (euler a) e' b').
  { rewrite <- (RInt_Chasles (V:=R_CompleteNormedModule) (euler a) e' e b'), <- (RInt_Chasles (V:=R_CompleteNormedModule) (euler a) e b b')
      by (apply euler_int; lra).
    assert (0 <= RInt (euler a) e' e) by (apply RInt_ge_0; [lra|apply euler_int; lra|intros; left; apply euler_pos]).
    assert (0 <= RInt (euler a) b b') by (apply RInt_ge_0; [lra|apply euler_int; lra|intros; left; apply euler_pos]).
    change (RInt (euler a) e b <= RInt (euler a) e' e + (RInt (euler a) e b + RInt (euler a) b b')). lra. }
  rewrite <- (RInt_Chasles (V:=R_CompleteNormedModule) (euler a) e' 1 b') in H by (apply euler_int; lra).
  pose proof (euler_low a e' Ha ltac:(lra) ltac:(lra)). pose proof (euler_high a b' ltac:(lra)). change (RInt (euler a) e b <= RInt (euler a) e' 1 + RInt (euler a) 1 b') in H. lra.
Qed.

Definition Gamma (a : R) : R :=
  match Rlt_dec 0 a with
  | left H => proj1_sig (half_ex (euler a) _ (euler_cont a) (fun t _ => Rlt_le _ _ (euler_pos a t)) (euler_bounded a H))
  | right _ => 1
  end.

Lemma Gamma_int : forall a, 0 < a -> is_half_int (euler a) (Gamma a).
Proof.
  intros a Ha. unfold Gamma. destruct (Rlt_dec 0 a) as [H|N]; [|contradiction].
  exact (proj1 (proj2_sig (half_ex (euler a) _ (euler_cont a) (fun t _ => Rlt_le _ _ (euler_pos a t)) (euler_bounded a H)))).
Qed.

Lemma Gamma_pos : forall a, 0 < Gamma a.
Proof.
  intros a. unfold Gamma. destruct (Rlt_dec 0 a) as [H|N]; [|lra].
  pose proof (proj2 (proj2_sig (half_ex (euler a) _ (euler_cont a) (fun t _ => Rlt_le _ _ (euler_pos a t)) (euler_bounded a H))) 1 2 ltac:(lra) ltac:(lra)).
  assert (0 < RInt (euler a) 1 2); [|lra]. apply RInt_gt_0; [lra|intros; apply euler_pos|intros; apply euler_cont; lra].
Qed.

(** Substitution v = beta / t. *)
Lemma inv_subst : forall a beta e b, 0 < beta -> 0 < e -> e <= b ->
  is_RInt (fun v => exp (a * ln beta - (a + 1) * ln v - beta / v)) e b (RInt (euler a) (beta / b) (beta / e)).
Proof.
  intros a beta e b Hbe He Hb.
  assert (I : is_RInt (fun v => scal (- (beta / (v * v))) (euler a (beta / v))) e b (RInt (euler a) (beta / e) (beta / b))).
  { apply (is_RInt_comp (V:=R_CompleteNormedModule) (euler a) (fun v => beta / v) (fun v => - (beta / (v * v)))).
    - intros x Hx. rewrite Rmin_left in Hx by lra. apply euler_cont. apply Rdiv_lt_0_compat; lra.
    - intros x Hx. rewrite Rmin_left in Hx by lra. split.
      + auto_derive; [lra|]. field. lra.
      + apply (ex_derive_continuous (K:=R_AbsRing) (V:=R_NormedModule)). auto_derive. nra. }
  rewrite <- (opp_RInt_swap (V:=R_CompleteNormedModule)).
  2:{ apply euler_int; apply Rdiv_lt_0_compat; lra. }
  apply (is_RInt_ext (fun v => opp (scal (- (beta / (v * v))) (euler a (beta / v))))).
  - intros x Hx. rewrite Rmin_left in Hx by lra. unfold scal, opp; cbn. unfold mult; cbn. unfold euler.
    rewrite ln_div by lra.
    replace (- (- (beta / (x * x)) * exp ((a - 1) * (ln beta - ln x) - beta / x)))
      with (exp (ln beta) * / exp (ln x) * / exp (ln x) * exp ((a - 1) * (ln beta - ln x) - beta / x)).
    2:{ rewrite !exp_ln by lra. field. lra. }
    rewrite <- !exp_Ropp, <- !exp_plus. f_equal. field. lra.
  - apply (is_RInt_opp (V:=R_NormedModule)). exact I.
Qed.

Lemma inv_gamma_mass : forall a beta, 0 < a -> 0 < beta ->
  is_half_int (fun v => exp (a * ln beta - (a + 1) * ln v - beta / v)) (Gamma a).
Proof.
  intros a beta Ha Hb eps Heps. destruct (Gamma_int a Ha eps Heps) as (e0 & b0 & [H0 H1] & K).
  exists (Rmin (beta / b0) (beta / e0) / 2), (beta / e0 + 1).
  assert (P1 : 0 < beta / e0) by (apply Rdiv_lt_0_compat; lra). assert (P2 : 0 < beta / b0) by (apply Rdiv_lt_0_compat; lra).
  pose proof (Rmin_l (beta / b0) (beta / e0)). pose proof (Rmin_r (beta / b0) (beta / e0)).
  assert (0 < Rmin (beta / b0) (beta / e0)) by (apply Rmin_glb_lt; lra). split; [lra|].
  intros e b Q1 Q2 Q3.
  assert (D : forall x y, 0 < x -> 0 < y -> beta / x < y -> beta / y < x).
  { intros x y Hx Hy L. apply (Rmult_lt_compat_r x) in L; [|exact Hx]. unfold Rdiv in L. rewrite Rmult_assoc, Rinv_l in L by lra.
    apply (Rmult_lt_reg_r y); [exact Hy|]. unfold Rdiv. rewrite Rmult_assoc, Rinv_l by lra. lra. }
  assert (D' : forall x y, 0 < x -> 0 < y -> y < beta / x -> x < beta / y).
  { intros x y Hx Hy L. apply (Rmult_lt_compat_r x) in L; [|exact Hx]. unfold Rdiv in L. rewrite Rmult_assoc, Rinv_l in L by lra.
    apply (Rmult_lt_reg_r y); [exact Hy|]. unfold Rdiv. rewrite Rmult_assoc, Rinv_l by lra. lra. }
  destruct (K (beta / b) (beta / e)) as (y & I & Dy).
  - apply Rdiv_lt_0_compat; lra.
  - apply D; lra.
  - apply D'; lra.
  - exists y. split; [|exact Dy]. rewrite <- (is_RInt_unique _ _ _ _ I). apply inv_subst; lra.
Qed.

(** Substitution t = rate * y. *)
Lemma gamma_mass : forall a rate, 0 < a -> 0 < rate ->
  is_half_int (fun y => exp (a * ln rate + (a - 1) * ln y - rate * y)) (Gamma a).
Proof.
  intros a r Ha Hr eps Heps. destruct (Gamma_int a Ha eps Heps) as (e0 & b0 & [H0 H1] & K).
  assert (P1 : 0 < e0 / r) by (apply Rdiv_lt_0_compat; lra).
  assert (P2 : e0 / r < b0 / r) by (apply Rmult_lt_compat_r; [apply Rinv_0_lt_compat|]; lra).
  exists (e0 / r), (b0 / r). split; [lra|]. intros e b Q1 Q2 Q3.
  assert (E1 : r * (e0 / r) = e0) by (field; lra). assert (E2 : r * (b0 / r) = b0) by (field; lra).
  destruct (K (r * e) (r * b)) as (y & I & Dy); [nra|nra|nra|].
  exists y. split; [|exact Dy].
  pose proof (is_RInt_comp_lin (V:=R_NormedModule) (euler a) r 0 e b y) as C.
  rewrite !Rplus_0_r in C. specialize (C I).
  apply (is_RInt_ext (fun v => scal r (euler a (r * v + 0)))); [|exact C].
  intros x Hx. rewrite Rmin_left in Hx by lra. unfold scal; cbn. unfold mult; cbn. unfold euler. rewrite Rplus_0_r, ln_mult by lra.
  rewrite <- (exp_ln r Hr) at 1. rewrite <- exp_plus. f_equal. ring.
Qed.
