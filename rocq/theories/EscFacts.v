(** * The Gamma recursion and the auxiliary variable of the total mass. *)
From Coq Require Import Bool List Arith ZArith Reals Lra Lia Psatz.
From Coquelicot Require Import Coquelicot.
From Verif Require Import Base XReal Mixings MixFacts MixMore PartSpec Univ UnivFacts GammaInt UnivInt RealInst GamFacts.
Import ListNotations.
Local Open Scope R_scope.

(** ** Gamma (a + 1) = a Gamma a *)
Definition tpow (a t : R) : R := exp (a * ln t - t).

Lemma tpow_deriv : forall a t, 0 < t -> is_derive (tpow a) t (a * euler a t - euler (a + 1) t).
Proof.
  intros a t Ht. unfold tpow, euler. auto_derive; [exact Ht|].
  replace (a + 1 - 1) with a by ring. replace ((a - 1) * ln t - t) with ((a * ln t - t) + - ln t) by ring. rewrite (exp_plus (a * ln t - t)), exp_Ropp, exp_ln by exact Ht.
  unfold Rminus. field. lra.
Qed.

Lemma tpow_small : forall a eps, 0 < a -> 0 < eps -> exists e0, 0 < e0 /\ forall e, 0 < e -> e < e0 -> tpow a e < eps.
Proof.
  intros a eps Ha He. exists (exp (ln eps / a)). split; [apply exp_pos|]. intros e Pe L.
  assert (ln e < ln eps / a) by (rewrite <- (ln_exp (ln eps / a)); apply ln_increasing; assumption).
  rewrite <- (exp_ln eps He). apply exp_increasing. apply (Rmult_lt_compat_l a) in H; [|exact Ha]. replace (a * (ln eps / a)) with (ln eps) in H by (field; lra). lra.
Qed.
Lemma tpow_large : forall a eps, 0 < a -> 0 < eps -> exists b0, 0 < b0 /\ forall b, b0 < b -> tpow a b < eps.
Proof.
  intros a eps Ha He. set (c := a * ln (2 * a) - a). exists (Rmax 1 (2 * (c - ln eps))). split; [apply Rlt_le_trans with (2 := Rmax_l _ _); lra|].
  intros b L. assert (L1 : 1 < b) by (apply Rle_lt_trans with (2 := L), Rmax_l). assert (L2 : 2 * (c - ln eps) < b) by (apply Rle_lt_trans with (2 := L), Rmax_r).
  rewrite <- (exp_ln eps He). apply exp_increasing.
  assert (K : ln (b / (2 * a)) <= b / (2 * a) - 1) by (apply ln_le_sub1, Rdiv_lt_0_compat; lra).
  unfold Rdiv in K at 1. rewrite ln_mult, ln_Rinv in K by (try apply Rinv_0_lt_compat; lra). apply (Rmult_le_compat_l a) in K; [|lra].
  replace (a * (b / (2 * a) - 1)) with (b / 2 - a) in K by (field; lra). unfold c in L2. lra.
Qed.

Lemma tpow_half : forall a, 0 < a -> is_half_int (fun t => a * euler a t - euler (a + 1) t) 0.
Proof.
  intros a Ha eps He. destruct (tpow_small a (eps / 2) Ha ltac:(lra)) as (e0 & P0 & K0). destruct (tpow_large a (eps / 2) Ha ltac:(lra)) as (b0 & P1 & K1).
  exists (Rmin e0 1), (Rmax b0 2). split.
  { split; [apply Rmin_glb_lt; lra|]. apply Rle_lt_trans with 1; [apply Rmin_r|]. apply Rlt_le_trans with 2; [lra|apply Rmax_r]. }
  intros e b Pe Le Lb. pose proof (Rmin_l e0 1). pose proof (Rmin_r e0 1). pose proof (Rmax_l b0 2). pose proof (Rmax_r b0 2).
  exists (minus (tpow a b) (tpow a e)). split.
  - apply (is_RInt_derive (V:=R_CompleteNormedModule)).
    + intros x Hx. rewrite Rmin_left in Hx by lra. apply tpow_deriv. lra.
    + intros x Hx. rewrite Rmin_left in Hx by lra. apply (continuous_minus (V:=R_NormedModule)).
      * apply (continuous_scal_r (V:=R_NormedModule) a). apply euler_cont. lra.
      * apply euler_cont. lra.
  - change (minus (tpow a b) (tpow a e)) with (tpow a b - tpow a e). rewrite Rminus_0_r.
    specialize (K0 e Pe ltac:(lra)). specialize (K1 b ltac:(lra)). unfold tpow in *. pose proof (exp_pos (a * ln e - e)). pose proof (exp_pos (a * ln b - b)).
    apply Rabs_def1; lra.
Qed.

Lemma Gamma_succ : forall a, 0 < a -> Gamma (a + 1) = a * Gamma a.
Proof.
  intros a Ha. pose proof (half_plus _ _ _ _ (tpow_half a Ha) (Gamma_int (a + 1) ltac:(lra))) as H. rewrite Rplus_0_l in H.
  apply (half_unique (fun t => a * euler a t)).
  - apply (half_ext (fun x => a * euler a x - euler (a + 1) x + euler (a + 1) x)); [intros x _; ring|exact H].
  - exact (half_scal _ a _ (Gamma_int a Ha)).
Qed.

Lemma Gamma_one : Gamma 1 = 1.
Proof.
  apply (half_unique (euler 1)); [apply Gamma_int; lra|].
  intros eps He. exists (Rmin (/ 2) (eps / 2)), (Rmax 1 (- ln (eps / 2))).
  pose proof (Rmin_l (/ 2) (eps / 2)). pose proof (Rmin_r (/ 2) (eps / 2)). pose proof (Rmax_l 1 (- ln (eps / 2))). pose proof (Rmax_r 1 (- ln (eps / 2))).
  split; [split; [apply Rmin_glb_lt; lra|lra]|]. intros e b Pe Le Lb.
  exists (minus ((fun t => - exp (- t)) b) ((fun t => - exp (- t)) e)). split.
  - apply (is_RInt_ext (fun t => exp (- t))).
    + intros x Hx. rewrite Rmin_left in Hx by lra. unfold euler. f_equal. ring.
    + apply (is_RInt_derive (V:=R_CompleteNormedModule) (fun t => - exp (- t))).
      * intros x _. auto_derive; [exact I|ring].
      * intros x _. apply (ex_derive_continuous (V:=R_NormedModule)). auto_derive. exact I.
  - change (minus ?x ?y) with (x - y). cbn beta.
    assert (B : exp (- b) < eps / 2) by (rewrite <- (exp_ln (eps / 2)) by lra; apply exp_increasing; lra). pose proof (exp_pos (- b)).
    assert (E : 1 + - e < exp (- e)) by (apply exp_ineq1; lra). assert (exp (- e) < 1) by (rewrite <- exp_0; apply exp_increasing; lra).
    apply Rabs_def1; lra.
Qed.

Lemma Gamma_fact : forall n, Gamma (INR n + 1) = INR (fact n).
Proof.
  induction n as [|n IH]; [simpl; rewrite Rplus_0_l; apply Gamma_one|].
  rewrite S_INR, Gamma_succ, IH by (pose proof (pos_INR n); lra). rewrite fact_simpl, mult_INR, S_INR. reflexivity.
Qed.

(** ** The beta integral with an integer second parameter *)
Definition is_unit_int (f : R -> R) (l : R) : Prop :=
  forall eps, 0 < eps -> exists e0, 0 < e0 < 1 /\ forall e, 0 < e -> e < e0 -> exists y, is_RInt f e 1 y /\ Rabs (y - l) < eps.

Lemma unit_ext : forall f g l, (forall x, 0 < x < 1 -> f x = g x) -> is_unit_int f l -> is_unit_int g l.
Proof.
  intros f g l E H eps He. destruct (H eps He) as (e0 & P & K). exists e0. split; [exact P|]. intros e P1 P2. destruct (K e P1 P2) as (y & I & D).
  exists y. split; [|exact D]. apply (is_RInt_ext f); [|exact I]. intros x Hx. rewrite Rmin_left, Rmax_right in Hx by lra. apply E. lra.
Qed.
Lemma unit_minus : forall f g a b, is_unit_int f a -> is_unit_int g b -> is_unit_int (fun x => f x - g x) (a - b).
Proof.
  intros f g a b Hf Hg eps He. destruct (Hf (eps / 2)) as (e1 & P1 & K1); [lra|]. destruct (Hg (eps / 2)) as (e2 & P2 & K2); [lra|].
  exists (Rmin e1 e2). pose proof (Rmin_l e1 e2). pose proof (Rmin_r e1 e2). split; [split; [apply Rmin_glb_lt; lra|lra]|]. intros e Q1 Q2.
  destruct (K1 e Q1) as (y1 & I1 & D1); [lra|]. destruct (K2 e Q1) as (y2 & I2 & D2); [lra|].
  exists (y1 - y2). split; [exact (is_RInt_minus f g e 1 y1 y2 I1 I2)|].
  replace (y1 - y2 - (a - b)) with ((y1 - a) + - (y2 - b)) by ring. pose proof (Rabs_triang (y1 - a) (- (y2 - b))). rewrite Rabs_Ropp in H1. lra.
Qed.
Lemma unit_scal : forall f c l, is_unit_int f l -> is_unit_int (fun x => c * f x) (c * l).
Proof.
  intros f c l H eps He. destruct (H (eps / (Rabs c + 1))) as (e0 & P & K).
  { apply Rdiv_lt_0_compat; [exact He|]. pose proof (Rabs_pos c). lra. }
  exists e0. split; [exact P|]. intros e P1 P2. destruct (K e P1 P2) as (y & I & D). exists (c * y). split; [exact (is_RInt_scal f e 1 c y I)|].
  replace (c * y - c * l) with (c * (y - l)) by ring. rewrite Rabs_mult. pose proof (Rabs_pos c). pose proof (Rabs_pos (y - l)).
  apply Rle_lt_trans with ((Rabs c + 1) * Rabs (y - l)); [nra|].
  apply (Rmult_lt_compat_l (Rabs c + 1)) in D; [|lra]. replace ((Rabs c + 1) * (eps / (Rabs c + 1))) with eps in D by (field; lra). exact D.
Qed.

(** phi^M (1 - phi)^(n-1). *)
Definition beta_kernel (M : R) (n : nat) (phi : R) : R := exp (M * ln phi) * (1 - phi) ^ (n - 1).

Lemma beta_one : forall M, 0 < M -> is_unit_int (beta_kernel M 1) (/ (M + 1)).
Proof.
  intros M HM eps He. destruct (tpow_small (M + 1) ((M + 1) * eps / exp 1) ltac:(lra)) as (e0 & P0 & K0).
  { apply Rdiv_lt_0_compat; [nra|apply exp_pos]. }
  exists (Rmin e0 (/ 2)). pose proof (Rmin_l e0 (/ 2)). pose proof (Rmin_r e0 (/ 2)). split; [split; [apply Rmin_glb_lt; lra|lra]|].
  intros e P1 P2. specialize (K0 e P1 ltac:(lra)).
  exists (minus ((fun t => exp ((M + 1) * ln t) / (M + 1)) 1) ((fun t => exp ((M + 1) * ln t) / (M + 1)) e)). split.
  - apply (is_RInt_derive (V:=R_CompleteNormedModule) (fun t => exp ((M + 1) * ln t) / (M + 1))).
    + intros x Hx. rewrite Rmin_left in Hx by lra. unfold beta_kernel. auto_derive; [lra|]. cbn [Nat.sub pow].
      replace ((M + 1) * ln x) with (M * ln x + ln x) by ring. rewrite exp_plus, exp_ln by lra. field. lra.
    + intros x Hx. rewrite Rmin_left in Hx by lra. apply (ex_derive_continuous (V:=R_NormedModule)). unfold beta_kernel. auto_derive. lra.
  - change (minus ?x ?y) with (x - y). cbn beta. rewrite ln_1, Rmult_0_r, exp_0.
    replace (1 / (M + 1) - exp ((M + 1) * ln e) / (M + 1) - / (M + 1)) with (- (exp ((M + 1) * ln e) / (M + 1))) by (field; lra).
    rewrite Rabs_Ropp, Rabs_pos_eq by (apply Rlt_le, Rdiv_lt_0_compat; [apply exp_pos|lra]).
    unfold tpow in K0. unfold Rminus in K0. rewrite exp_plus in K0.
    assert (L : exp ((M + 1) * ln e) < (M + 1) * eps).
    { assert (H1 : / exp 1 < exp (- e)) by (rewrite <- exp_Ropp; apply exp_increasing; lra).
      pose proof (exp_pos ((M + 1) * ln e)) as H2. pose proof (exp_pos 1) as H3.
      assert (H4 : exp ((M + 1) * ln e) * / exp 1 < (M + 1) * eps * / exp 1) by (unfold Rdiv in K0; nra).
      apply Rmult_lt_reg_r in H4; [exact H4|]. now apply Rinv_0_lt_compat. }
    apply (Rmult_lt_reg_r (M + 1)); [lra|]. unfold Rdiv. rewrite Rmult_assoc, Rinv_l by lra. lra.
Qed.

Lemma rising_S : forall x n, rising x (S n) = rising x n * (x + INR n).
Proof.
  intros x n. unfold rising. rewrite seq_S, map_app. cbn [map Nat.add]. unfold prodR. rewrite fold_right_app. cbn [fold_right].
  rewrite Rmult_1_r. generalize (map (fun i => x + INR i) (seq 0 n)) as l. intro l. generalize (x + INR n) as y. intro y.
  induction l as [|z l IH]; cbn [fold_right]; [ring|]. rewrite IH. ring.
Qed.
Lemma rising_shift : forall x n, rising x (S n) = x * rising (x + 1) n.
Proof.
  intros x n. induction n as [|n IH]; [unfold rising, prodR; simpl; ring|].
  rewrite rising_S, IH, rising_S, S_INR. ring.
Qed.
Lemma rising_pos' : forall x n, 0 < x -> 0 < rising x n.
Proof.
  intros x n Hx. induction n as [|n IH]; [unfold rising, prodR; simpl; lra|]. rewrite rising_S. apply Rmult_lt_0_compat; [exact IH|].
  pose proof (pos_INR n). lra.
Qed.

Lemma beta_int : forall n M, 0 < M -> is_unit_int (beta_kernel M (S n)) (INR (fact n) / rising (M + 1) (S n)).
Proof.
  induction n as [|n IH]; intros M HM.
  - replace (INR (fact 0) / rising (M + 1) 1) with (/ (M + 1)) by (unfold rising, prodR; simpl; field; lra). exact (beta_one M HM).
  - pose proof (unit_minus _ _ _ _ (IH M HM) (IH (M + 1) ltac:(lra))) as H.
    replace (INR (fact (S n)) / rising (M + 1) (S (S n))) with (INR (fact n) / rising (M + 1) (S n) - INR (fact n) / rising (M + 1 + 1) (S n)).
    + apply (unit_ext (fun x => beta_kernel M (S n) x - beta_kernel (M + 1) (S n) x)); [|exact H].
      intros x Hx. unfold beta_kernel. cbn [Nat.sub]. rewrite Nat.sub_0_r. cbn [pow].
      replace ((M + 1) * ln x) with (M * ln x + ln x) by ring. rewrite exp_plus, exp_ln by lra. ring.
    + pose proof (rising_pos' (M + 1) (S n) ltac:(lra)) as P1. pose proof (rising_pos' (M + 1 + 1) (S n) ltac:(lra)) as P2.
      pose proof (rising_S (M + 1) (S n)) as E1. pose proof (rising_shift (M + 1) (S n)) as E2.
      rewrite fact_simpl, mult_INR, E1. rewrite E1 in E2. 
      assert (E3 : rising (M + 1 + 1) (S n) = rising (M + 1) (S n) * (M + 1 + INR (S n)) / (M + 1)) by (rewrite E2; field; lra).
      rewrite E3. rewrite S_INR in *. pose proof (pos_INR n). field. repeat split; lra.
Qed.

(** ** The joint law of the total mass and its auxiliary variable *)
Lemma ewens_dirichlet : forall sizes M, sizes <> [] ->
  ewens_pitman M 0 sizes = M ^ (length sizes - 1) / rising (M + 1) (list_sum sizes - 1) * prodR (map (fun m => rising 1 (m - 1)) sizes).
Proof.
  intros sizes M _. unfold ewens_pitman. f_equal.
  - f_equal. replace (length (A:=nat) sizes - 1)%nat with (length (seq 1 (length sizes - 1))) at 2 by apply seq_length.
    induction (seq 1 (length sizes - 1)) as [|i l IH]; [reflexivity|]. unfold prodR in *. cbn [map fold_right length pow]. rewrite IH. ring.
  - f_equal. apply map_ext. intro m. now rewrite Rminus_0_r.
Qed.

Lemma augmentation : forall sizes M, sizes <> [] -> List.Forall (fun m => (1 <= m)%nat) sizes -> 0 < M ->
  let n := list_sum sizes in
  is_unit_int (fun phi => M ^ (length sizes - 1) * (M + INR n) * beta_kernel M n phi)
    (INR (fact (n - 1)) / prodR (map (fun m => rising 1 (m - 1)) sizes) * ewens_pitman M 0 sizes).
Proof.
  intros sizes M Hne Hs HM n.
  assert (Hn : (1 <= n)%nat).
  { subst n. destruct sizes as [|m t]; [congruence|]. inversion Hs; subst. unfold list_sum. cbn [fold_right]. lia. }
  destruct n as [|k] eqn:En; [lia|].
  assert (HP : 0 < prodR (map (fun m => rising 1 (m - 1)) sizes)).
  { clear. induction sizes as [|m t IH]; unfold prodR in *; cbn [map fold_right]; [lra|]. apply Rmult_lt_0_compat; [apply rising_pos'; lra|exact IH]. }
  rewrite ewens_dirichlet by exact Hne. fold n. rewrite En. cbn [Nat.sub]. rewrite Nat.sub_0_r.
  pose proof (unit_scal _ (M ^ (length sizes - 1) * (M + INR (S k))) _ (beta_int k M HM)) as H.
  rewrite rising_S in H. pose proof (rising_pos' (M + 1) k ltac:(lra)). pose proof (pos_INR k).
  replace (INR (fact k) / prodR (map (fun m => rising 1 (m - 1)) sizes) * (M ^ (length sizes - 1) / rising (M + 1) k * prodR (map (fun m => rising 1 (m - 1)) sizes)))
    with (M ^ (length sizes - 1) * (M + INR (S k)) * (INR (fact k) / (rising (M + 1) k * (M + 1 + INR k)))); [exact H|].
  rewrite S_INR. field. repeat split; lra.
Qed.

(** ** The draw given the auxiliary variable *)
Lemma mass_given_phi : forall alpha beta k n phi, 0 < alpha -> 0 < beta -> (1 <= k)%nat -> (1 <= n)%nat -> 0 < phi -> phi < exp beta ->
  let b := beta - ln phi in
  let p := dp_prob alpha beta k n phi in
  0 < p < 1 /\ exists C, 0 < C /\ forall M, 0 < M ->
    p * exp (gamma_lpdf lgam M (alpha + INR k) b) + (1 - p) * exp (gamma_lpdf lgam M (alpha + INR k - 1) b) =
    C * (exp (gamma_lpdf lgam M alpha beta) * (M ^ (k - 1) * (M + INR n) * exp (M * ln phi))).
Proof.
  intros al be k n phi Ha Hb Hk Hn Hp Hl b p.
  assert (Hb' : 0 < b). { unfold b. assert (ln phi < be) by (rewrite <- (ln_exp be); apply ln_increasing; assumption). lra. }
  destruct k as [|k]; [lia|]. cbn [Nat.sub]. rewrite Nat.sub_0_r.
  set (a0 := al + INR k). pose proof (pos_INR k) as Pk. assert (P0 : 0 < a0) by (unfold a0; lra).
  assert (Pn : 1 <= INR n) by (apply (le_INR 1); exact Hn).
  assert (E1 : al + INR (S k) = a0 + 1) by (unfold a0; rewrite S_INR; ring). rewrite E1. replace (a0 + 1 - 1) with a0 by ring.
  assert (Pb : 0 < INR n * b) by (apply Rmult_lt_0_compat; lra).
  assert (Ep : p = a0 / (a0 + INR n * b)).
  { unfold p, dp_prob. fold b. rewrite E1. replace (a0 + 1 - 1) with a0 by ring. field. repeat split; lra. }
  assert (Hp1 : 0 < p < 1).
  { rewrite Ep. split; [apply Rdiv_lt_0_compat; lra|]. apply (Rmult_lt_reg_r (a0 + INR n * b)); [lra|]. unfold Rdiv. rewrite Rmult_assoc, Rinv_l by lra. lra. }
  split; [exact Hp1|].
  assert (G1 : lgam (a0 + 1) = ln a0 + lgam a0) by (unfold lgam; rewrite Gamma_succ by exact P0; apply ln_mult; [exact P0|apply Gamma_pos]).
  exists (b / (a0 + INR n * b) * exp (a0 * ln b - lgam a0 - al * ln be + lgam al)).
  split. { apply Rmult_lt_0_compat; [apply Rdiv_lt_0_compat; lra|apply exp_pos]. }
  intros M HM. unfold gamma_lpdf. rewrite G1.
  assert (EM : exp (INR k * ln M) = M ^ k) by (rewrite <- Rpower_pow by exact HM; reflexivity).
  replace ((a0 + 1) * ln b - (ln a0 + lgam a0) + (a0 + 1 - 1) * ln M - b * M)
    with (ln b + - ln a0 + ln M + (a0 * ln b - lgam a0 + (a0 - 1) * ln M - b * M)) by ring.
  rewrite exp_plus, (exp_plus (ln b + - ln a0)), (exp_plus (ln b)), exp_Ropp, !exp_ln by lra.
  set (X := exp (a0 * ln b - lgam a0 + (a0 - 1) * ln M - b * M)).
  assert (EX : exp (a0 * ln b - lgam a0 - al * ln be + lgam al) * (exp (al * ln be - lgam al + (al - 1) * ln M - be * M) * exp (M * ln phi) * M ^ k) = X).
  { rewrite <- EM, <- !exp_plus. unfold X. f_equal. unfold b, a0. ring. }
  rewrite <- EX at 2. rewrite <- EX. rewrite Ep.
  generalize (exp (a0 * ln b - lgam a0 - al * ln be + lgam al)) as A. generalize (exp (al * ln be - lgam al + (al - 1) * ln M - be * M)) as B.
  generalize (exp (M * ln phi)) as D. generalize (M ^ k) as Q. intros. field. repeat split; lra.
Qed.

(** ** The law of the auxiliary variable *)
Lemma auxiliary_law : forall M n, 0 < M -> (1 <= n)%nat -> ~ exists C, forall phi, 0 < phi < 1 ->
  exp (gamma_lpdf lgam phi (M + 1) (INR n)) = C * beta_kernel M n phi.
Proof.
  intros M n HM Hn (C & H). assert (Pn : 1 <= INR n) by (apply (le_INR 1); exact Hn).
  set (N := INR n) in *. set (K := (M + 1) * ln N - lgam (M + 1)).
  assert (E : forall phi, 0 < phi < 1 -> exp (K - N * phi) = C * (1 - phi) ^ (n - 1)).
  { intros phi Hphi. specialize (H phi Hphi). unfold gamma_lpdf, beta_kernel in H. fold K in H.
    replace (K + (M + 1 - 1) * ln phi - N * phi) with (M * ln phi + (K - N * phi)) in H by ring. rewrite exp_plus in H.
    pose proof (exp_pos (M * ln phi)) as P. apply (Rmult_eq_reg_l (exp (M * ln phi))); [|lra]. rewrite H. ring. }
  assert (Q : 0 < / N) by (apply Rinv_0_lt_compat; lra). assert (Q1 : / N <= 1) by (rewrite <- Rinv_1; apply Rinv_le_contravar; lra).
  set (x := / N / 4). set (y := / N / 2). assert (Hx : 0 < x < y) by (unfold x, y; lra). assert (Hy : y <= / 2) by (unfold y; lra).
  assert (Ny : N * y = / 2) by (unfold y; field; lra).
  pose proof (E x ltac:(lra)) as Ex. pose proof (E y ltac:(lra)) as Ey.
  assert (PC : 0 < C).
  { pose proof (exp_pos (K - N * x)) as P. rewrite Ex in P. pose proof (pow_lt (1 - x) (n - 1) ltac:(lra)). destruct (Rlt_le_dec 0 C); [assumption|nra]. }
  apply (f_equal ln) in Ex. apply (f_equal ln) in Ey. rewrite ln_exp, ln_mult in Ex by (try exact PC; apply pow_lt; lra).
  rewrite ln_exp, ln_mult in Ey by (try exact PC; apply pow_lt; lra).
  rewrite <- Rpower_pow in Ex, Ey by lra. unfold Rpower in Ex, Ey. rewrite ln_exp in Ex, Ey.
  assert (EN : INR (n - 1) = N - 1) by (rewrite minus_INR by exact Hn; reflexivity). rewrite EN in Ex, Ey.
  assert (D : N * (y - x) = (N - 1) * (ln (1 - x) - ln (1 - y))) by lra.
  assert (L : ln (1 - x) - ln (1 - y) <= (y - x) / (1 - y)).
  { replace (ln (1 - x) - ln (1 - y)) with (ln ((1 - x) / (1 - y))).
    - eapply Rle_trans; [apply ln_le_sub1, Rdiv_lt_0_compat; lra|]. apply Req_le. field. lra.
    - unfold Rdiv. rewrite ln_mult, ln_Rinv by (try apply Rinv_0_lt_compat; lra). ring. }
  assert (S : (N - 1) / (1 - y) < N).
  { apply (Rmult_lt_reg_r (1 - y)); [lra|]. unfold Rdiv. rewrite Rmult_assoc, Rinv_l by lra. nra. }
  assert (T : (N - 1) * (ln (1 - x) - ln (1 - y)) <= (N - 1) * ((y - x) / (1 - y))) by (apply Rmult_le_compat_l; lra).
  replace ((N - 1) * ((y - x) / (1 - y))) with ((N - 1) / (1 - y) * (y - x)) in T by (field; lra). nra.
Qed.

(** ** The update in terms of its draws *)
Lemma update_draws : forall G alpha beta s cards (alloc : list nat) r phi r1 u r2 v r3,
  0 < alpha -> 0 < beta -> 0 < dp_tot s -> cards <> [] -> alloc <> [] ->
  let k := length cards in let n := length alloc in
  g_gamma G (dp_tot s + 1) (INR n) r = (phi, r1) -> 0 < phi ->
  g_unif G 0 1 r1 = (u, r2) ->
  (u <= dp_prob alpha beta k n phi -> g_gamma G (alpha + INR k) (beta - ln phi) r2 = (v, r3)) ->
  (dp_prob alpha beta k n phi < u -> g_gamma G (alpha + INR k - 1) (beta - ln phi) r2 = (v, r3)) ->
  (phi < exp beta -> mixing_update G (MixDP (DPGamma alpha beta) s) cards alloc r = Ok (MixDP (DPGamma alpha beta) (mkDp v (dp_log s)), r3)) /\
  (exp beta <= phi -> exists msg, mixing_update G (MixDP (DPGamma alpha beta) s) cards alloc r = Throw msg).
Proof.
  intros G al be s cards alloc r phi r1 u r2 v r3 Ha Hb Hs Hc Hal k n E1 Pp E2 E3 E4.
  assert (Pn : 1 <= INR n) by (apply (le_INR 1); subst n; destruct alloc; [congruence|cbn [length]; lia]).
  assert (Pk : 1 <= INR k) by (apply (le_INR 1); subst k; destruct cards; [congruence|cbn [length]; lia]).
  assert (Hsh : 0 < dp_shape al k (dp_prob al be k n phi) u) by (unfold dp_shape; destruct (lteb _ _); lra).
  assert (E5 : g_gamma G (dp_shape al k (dp_prob al be k n phi) u) (be - ln phi) r2 = (v, r3)).
  { unfold dp_shape, lteb. destruct (Rle_dec u (dp_prob al be k n phi)); [apply E3; assumption|apply E4; lra]. }
  unfold mixing_update. fold k n. rewrite E1, E2, E5. unfold dp_update, gamma_rng.
  rewrite (proj2 (gtb_true (dp_tot s + 1) 0)), (proj2 (gtb_true (INR n) 0)) by lra. cbn [andb rbind].
  rewrite (proj2 (gtb_true (dp_shape al k (dp_prob al be k n phi) u) 0)) by exact Hsh. cbn [andb].
  split; intro L.
  - apply ln_lt_exp in L; [|exact Pp]. rewrite (proj2 (gtb_true (be - ln phi) 0)) by lra. reflexivity.
  - assert (be - ln phi <= 0) by (destruct (Rle_lt_dec (be - ln phi) 0) as [?|L2]; [assumption|apply ln_lt_exp in L2; lra]).
    rewrite (proj2 (gtb_false (be - ln phi) 0)) by lra. eexists. reflexivity.
Qed.
