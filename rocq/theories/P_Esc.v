(** * Property theorems: the update of the total mass of the Dirichlet process. *)
From Coq Require Import Bool List Arith ZArith Reals Lra Lia Psatz.
From Verif Require Import Base XReal Mixings MixFacts MixMore PartSpec Univ UnivFacts GammaInt UnivInt RealInst EscFacts.
Import ListNotations.
Local Open Scope R_scope.

(** The function used for the normalising constants extends the factorial. *)
Theorem C111_gamma_recursion : (forall a, 0 < a -> Gamma (a + 1) = a * Gamma a) /\ (forall n, Gamma (INR n + 1) = INR (fact n)).
Proof. split; [exact Gamma_succ|exact Gamma_fact]. Qed.
Print Assumptions C111_gamma_recursion.

(** The joint kernel of the total mass M and the auxiliary variable of Escobar and West. *)
Definition esc_joint (alpha beta : R) (k n : nat) (M phi : R) : R :=
  exp (gamma_lpdf lgam M alpha beta) * (M ^ (k - 1) * (M + INR n) * (exp (M * ln phi) * (1 - phi) ^ (n - 1))).

(** The weight of the first of its two components, and the same as the program computes it. *)
Definition esc_prob (alpha : R) (k n : nat) (b : R) : R := (alpha + INR k - 1) / (alpha + INR k - 1 + INR n * b).
Lemma prob_is : forall alpha beta k n phi, 0 < alpha -> (1 <= k)%nat -> (1 <= n)%nat -> 0 < beta - ln phi ->
  dp_prob alpha beta k n phi = esc_prob alpha k n (beta - ln phi).
Proof.
  intros al be k n phi Ha Hk Hn Hb. apply (le_INR 1) in Hk. apply (le_INR 1) in Hn. cbn [INR] in *. unfold dp_prob, esc_prob.
  assert (0 < INR n * (be - ln phi)) by (apply Rmult_lt_0_compat; lra). field. repeat split; lra.
Qed.

(** Integrating the auxiliary variable out leaves prior times probability of the
    partition, up to a factor free of M. *)
Theorem C111_augmentation : forall alpha beta sizes, sizes <> [] -> Forall (fun m => (1 <= m)%nat) sizes ->
  exists c, 0 < c /\ forall M, 0 < M ->
    is_unit_int (esc_joint alpha beta (length sizes) (list_sum sizes) M)
      (c * (exp (gamma_lpdf lgam M alpha beta) * ewens_pitman M 0 sizes)).
Proof.
  intros al be sizes Hne Hs. eexists (INR (fact (list_sum sizes - 1)) / prodR (map (fun m => rising 1 (m - 1)) sizes)). split.
  - apply Rdiv_lt_0_compat; [apply lt_0_INR, lt_O_fact|].
    clear. induction sizes as [|m t IH]; unfold prodR in *; cbn [map fold_right]; [lra|]. apply Rmult_lt_0_compat; [apply rising_pos'; lra|exact IH].
  - intros M HM. pose proof (unit_scal _ (exp (gamma_lpdf lgam M al be)) _ (augmentation sizes M Hne Hs HM)) as H. cbn zeta in H.
    match type of H with is_unit_int ?f ?l => replace (_ / _ * (_ * _)) with l by (cbn beta; ring) end.
    exact H.
Qed.
Print Assumptions C111_augmentation.

(** Given the auxiliary variable, the law the last two draws of the update give
    the total mass (a branch probability, two gamma densities; see [C111_update]) is the
    full conditional: its density is a constant times the joint kernel. *)
Theorem C111_mass_given_auxiliary : forall alpha beta k n phi, 0 < alpha -> 0 < beta -> (1 <= k)%nat -> (1 <= n)%nat -> 0 < phi < 1 ->
  let b := beta - ln phi in
  let p := esc_prob alpha k n b in
  0 < p < 1 /\ exists C, 0 < C /\ forall M, 0 < M ->
    p * exp (gamma_lpdf lgam M (alpha + INR k) b) + (1 - p) * exp (gamma_lpdf lgam M (alpha + INR k - 1) b) = C * esc_joint alpha beta k n M phi.
Proof.
  intros al be k n phi Ha Hb Hk Hn Hp. assert (1 < exp be) by (pose proof (exp_ineq1 be ltac:(lra)); lra).
  destruct (mass_given_phi al be k n phi Ha Hb Hk Hn ltac:(lra) ltac:(lra)) as (H1 & C & PC & H2).
  rewrite prob_is in H1, H2 by (try assumption; apply ln_lt_exp; lra). split; [exact H1|].
  pose proof (pow_lt (1 - phi) (n - 1) ltac:(lra)) as Q.
  exists (C / (1 - phi) ^ (n - 1)). split; [apply Rdiv_lt_0_compat; assumption|]. intros M HM. rewrite (H2 M HM). unfold esc_joint. field. lra.
Qed.
Print Assumptions C111_mass_given_auxiliary.

(** That law has total mass one. *)
Theorem C111_mass_normalised : forall alpha beta k n phi, 0 < alpha -> 0 < beta -> (1 <= k)%nat -> (1 <= n)%nat -> 0 < phi -> phi < exp beta ->
  let b := beta - ln phi in
  let p := esc_prob alpha k n b in
  is_half_int (fun M => p * exp (gamma_lpdf lgam M (alpha + INR k) b) + (1 - p) * exp (gamma_lpdf lgam M (alpha + INR k - 1) b)) 1.
Proof.
  intros al be k n phi Ha Hb Hk Hn Hp Hl b p. assert (0 < b) by (unfold b; apply ln_lt_exp; assumption). apply (le_INR 1) in Hk. cbn [INR] in Hk.
  pose proof (GamFacts.half_plus _ _ _ _ (half_scal _ p _ (gamma_normalised (al + INR k) b ltac:(lra) H)) (half_scal _ (1 - p) _ (gamma_normalised (al + INR k - 1) b ltac:(lra) H))) as K.
  replace (p * 1 + (1 - p) * 1) with 1 in K by ring. exact K.
Qed.
Print Assumptions C111_mass_normalised.

(** What the update of the mixing computes from its draws. *)
Theorem C111_update : forall G alpha beta s cards (alloc : list nat) r phi r1,
  0 < alpha -> 0 < beta -> 0 < dp_tot s -> cards <> [] -> alloc <> [] ->
  let k := length cards in let n := length alloc in
  let b := beta - ln phi in
  g_gamma G (dp_tot s + 1) (INR n) r = (phi, r1) -> 0 < phi ->
  (phi < exp beta -> forall u r2 v r3, g_unif G 0 1 r1 = (u, r2) ->
    (u <= esc_prob alpha k n b -> g_gamma G (alpha + INR k) b r2 = (v, r3)) ->
    (esc_prob alpha k n b < u -> g_gamma G (alpha + INR k - 1) b r2 = (v, r3)) ->
    mixing_update G (MixDP (DPGamma alpha beta) s) cards alloc r = Ok (MixDP (DPGamma alpha beta) (mkDp v (dp_log s)), r3)) /\
  (exp beta <= phi -> exists msg, mixing_update G (MixDP (DPGamma alpha beta) s) cards alloc r = Throw msg).
Proof.
  intros G al be s cards alloc r phi r1 Ha Hb Hs Hc Hal k n b E1 Pp.
  assert (Hk : (1 <= k)%nat) by (subst k; destruct cards; [congruence|cbn [length]; lia]).
  assert (Hn : (1 <= n)%nat) by (subst n; destruct alloc; [congruence|cbn [length]; lia]).
  split.
  - intros L u r2 v r3 E2 E3 E4. assert (Pb : 0 < be - ln phi) by (apply ln_lt_exp; assumption).
    apply (proj1 (update_draws G al be s cards alloc r phi r1 u r2 v r3 Ha Hb Hs Hc Hal E1 Pp E2
      ltac:(rewrite prob_is by assumption; exact E3) ltac:(rewrite prob_is by assumption; exact E4))). exact L.
  - intros L. destruct (g_unif G 0 1 r1) as [u r2] eqn:E2.
    destruct (g_gamma G (dp_shape al k (dp_prob al be k n phi) u) (be - ln phi) r2) as [v r3] eqn:E3.
    refine (proj2 (update_draws G al be s cards alloc r phi r1 u r2 v r3 Ha Hb Hs Hc Hal E1 Pp E2 _ _) L).
    + intro Q. unfold dp_shape in E3. fold k n in Q. rewrite (proj2 (lteb_true u _) Q) in E3. exact E3.
    + intro Q. unfold dp_shape in E3. fold k n in Q. rewrite (proj2 (lteb_false u _) Q) in E3. exact E3.
Qed.
Print Assumptions C111_update.

(** Two clusters of sizes 2 and 1, prior Gamma(2, 1), generator with phi = 1/2,
    u = 1/3 and third value 5 at the first shape: the branch weight is
    3 / (3 + 3 (1 + ln 2)) > 1/3. *)
Definition escG (u : R) : gen :=
  {| Gs := bool; g_norm := fun m _ r => (m, r); g_invgamma := fun a b r => (b / a, r);
     g_gamma := fun a b (r : bool) => (if r then (if Rle_dec a 3 then 4 else 5) else / 2, true);
     g_unif := fun _ _ r => (u, r); g_cat := fun _ r => (0%nat, r) |}.
Lemma ln2 : 0 < ln 2 < 1.
Proof.
  split; [rewrite <- ln_1; apply ln_increasing; lra|]. apply Rlt_le_trans with (ln (exp 1)); [|rewrite ln_exp; lra]. apply ln_increasing; [lra|].
  pose proof (exp_ineq1 1 ltac:(lra)). lra.
Qed.
Example ex_C111_update : forall lg,
  mixing_update (escG (/ 3)) (MixDP (DPGamma 2 1) (mkDp 2 lg)) [2; 1]%Z [0; 0; 1]%nat false = Ok (MixDP (DPGamma 2 1) (mkDp 5 lg), true) /\
  mixing_update (escG 1) (MixDP (DPGamma 2 1) (mkDp 2 lg)) [2; 1]%Z [0; 0; 1]%nat false = Ok (MixDP (DPGamma 2 1) (mkDp 4 lg), true).
Proof.
  intro lg. pose proof ln2. assert (E : ln (/ 2) = - ln 2) by (apply ln_Rinv; lra).
  assert (L : / 2 < exp 1) by (pose proof (exp_ineq1 1 ltac:(lra)); lra).
  assert (W : esc_prob 2 2 3 (1 - ln (/ 2)) = 3 / (3 + 3 * (1 + ln 2))) by (unfold esc_prob; rewrite E; simpl INR; f_equal; ring).
  assert (W1 : / 3 <= 3 / (3 + 3 * (1 + ln 2))).
  { apply (Rmult_le_reg_r (3 + 3 * (1 + ln 2))); [lra|]. unfold Rdiv. rewrite (Rmult_assoc 3 (/ _)), Rinv_l by lra. lra. }
  assert (W2 : 3 / (3 + 3 * (1 + ln 2)) < 1).
  { apply (Rmult_lt_reg_r (3 + 3 * (1 + ln 2))); [lra|]. unfold Rdiv. rewrite (Rmult_assoc 3 (/ _)), Rinv_l by lra. lra. }
  split.
  - refine (proj1 (C111_update (escG (/ 3)) 2 1 (mkDp 2 lg) [2; 1]%Z [0; 0; 1]%nat false (/ 2) true ltac:(lra) ltac:(lra) ltac:(cbn; lra) _ _ eq_refl ltac:(lra)) L
      (/ 3) true 5 true eq_refl _ _); try discriminate; cbn [length g_gamma escG].
    + intros _. destruct (Rle_dec (2 + INR 2) 3) as [Q|Q]; [simpl INR in Q; lra|reflexivity].
    + rewrite W. intro. lra.
  - refine (proj1 (C111_update (escG 1) 2 1 (mkDp 2 lg) [2; 1]%Z [0; 0; 1]%nat false (/ 2) true ltac:(lra) ltac:(lra) ltac:(cbn; lra) _ _ eq_refl ltac:(lra)) L
      1 true 4 true eq_refl _ _); try discriminate; cbn [length g_gamma escG].
    + rewrite W. intro. lra.
    + intros _. destruct (Rle_dec (2 + INR 2 - 1) 3) as [Q|Q]; [reflexivity|simpl INR in Q; lra].
Qed.

(** Sizes 2 and 1: the auxiliary variable integrates out to M / ((M+1)(M+2)). *)
Example ex_C111_augmentation : exists c, 0 < c /\ forall M, 0 < M ->
  is_unit_int (esc_joint 2 1 2 3 M) (c * (exp (gamma_lpdf lgam M 2 1) * (M / ((M + 1) * (M + 2))))).
Proof.
  destruct (C111_augmentation 2 1 [2; 1]%nat ltac:(discriminate) ltac:(repeat constructor)) as (c & Pc & H). exists c. split; [exact Pc|]. intros M HM.
  specialize (H M HM). replace (M / ((M + 1) * (M + 2))) with (ewens_pitman M 0 [2; 1]%nat); [exact H|].
  unfold ewens_pitman, rising, prodR. simpl. field. lra.
Qed.

(** "The auxiliary variable is drawn from its full conditional" is false: at no
    total mass and no sample size is the density of the first draw proportional
    to the joint kernel, on the interval the kernel lives on. *)
Theorem C111_auxiliary_refuted : exists alpha beta k M n, 0 < alpha /\ 0 < beta /\ (1 <= k <= n)%nat /\ 0 < M /\
  ~ exists C, forall phi, 0 < phi < 1 -> exp (gamma_lpdf lgam phi (M + 1) (INR n)) = C * esc_joint alpha beta k n M phi.
Proof.
  exists 2, 1, 2%nat, 2, 3%nat. repeat (split; [try lra; lia|]). intros (C & H). apply (auxiliary_law 2 3 ltac:(lra) ltac:(lia)).
  exists (C * (exp (gamma_lpdf lgam 2 2 1) * (2 ^ (2 - 1) * (2 + INR 3)))). intros phi Hp. rewrite (H phi Hp). unfold esc_joint, beta_kernel. ring.
Qed.
Print Assumptions C111_auxiliary_refuted.

Theorem C111_auxiliary_never : forall alpha beta k M n, 0 < M -> (1 <= n)%nat ->
  ~ exists C, forall phi, 0 < phi < 1 -> exp (gamma_lpdf lgam phi (M + 1) (INR n)) = C * esc_joint alpha beta k n M phi.
Proof.
  intros al be k M n HM Hn (C & H). apply (auxiliary_law M n HM Hn).
  exists (C * (exp (gamma_lpdf lgam M al be) * (M ^ (k - 1) * (M + INR n)))). intros phi Hp. rewrite (H phi Hp). unfold esc_joint, beta_kernel. ring.
Qed.
Print Assumptions C111_auxiliary_never.
