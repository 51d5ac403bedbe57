(** * Scales, histories, finite mixtures and logit stick-breaking: proofs. *)
From Coq Require Import String.
From Coq Require Import Bool List Arith ZArith Lia Reals Lra Permutation.
From Verif Require Import Base XReal Mixings PartSpec MixFacts.
Import ListNotations.
Local Open Scope R_scope.
Arguments prodR l : simpl never.
Arguments sumR l : simpl never.

(** ** Scales *)

(** The logarithmic value is the logarithm of the (positive) linear one. *)
Definition log_of (lg li : res xreal) : Prop :=
  exists v, 0 < v /\ li = Ok (Fin v) /\ lg = Ok (Fin (ln v)).

(** [norm] is [prop] divided by [c] (linear scale). *)
Definition scaled (c : R) (norm prop : res xreal) : Prop :=
  exists v, prop = Ok (Fin v) /\ norm = Ok (Fin (v / c)).

Lemma xlog_pos : forall x, 0 < x -> xlog x = Fin (ln x).
Proof. intros x H. unfold xlog. destruct (Rlt_dec 0 x); [auto|contradiction]. Qed.

Lemma xsublog_fin : forall x d, 0 < x -> 0 < d -> xsublog (Fin (ln x)) d = Fin (ln (x / d)).
Proof.
  intros x d Hx Hd. unfold xsublog. simpl. f_equal. unfold Rdiv. rewrite ln_mult; auto.
  - rewrite ln_Rinv; auto.
  - apply Rinv_0_lt_compat; auto.
Qed.

Lemma card_pos : forall c, (1 <= c)%Z -> 1 <= IZR c.
Proof. intros c H. apply IZR_le in H. auto. Qed.

Lemma py_scales : forall p s n k propto, py_init p = Ok s -> (1 <= n)%nat -> (1 <= k)%nat ->
  (forall card, (1 <= card)%Z -> log_of (py_mass_ex s n k true propto card) (py_mass_ex s n k false propto card)) /\
  log_of (py_mass_new s n k true propto) (py_mass_new s n k false propto) /\
  0 < INR n + py_str s /\
  (forall card, (1 <= card)%Z ->
     scaled (INR n + py_str s) (py_mass_ex s n k false false card) (py_mass_ex s n k false true card)) /\
  scaled (INR n + py_str s) (py_mass_new s n k false false) (py_mass_new s n k false true).
Proof.
  intros p s n k propto Hi Hn Hk. destruct (py_init_ok _ _ Hi) as [Hd Ht].
  pose proof (py_den_pos s n Hd Ht (or_introl Hn)) as Hden.
  pose proof (py_new_pos s k Hd Ht (or_introl Hk)) as Hnew.
  split; [|split; [|split; [auto|split]]].
  - intros card Hc. pose proof (card_pos _ Hc). unfold py_mass_ex.
    destruct (Z.eqb_spec card 0); [lia|]. rewrite xlog_pos by lra.
    destruct propto.
    + exists (IZR card - py_dis s). repeat split; lra.
    + rewrite xsublog_fin by lra. exists ((IZR card - py_dis s) / (INR n + py_str s)).
      repeat split; auto. apply Rdiv_lt_0_compat; lra.
  - unfold py_mass_new. rewrite xlog_pos by lra. destruct propto.
    + eexists. repeat split; auto.
    + rewrite xsublog_fin by lra. eexists. split; [|split; reflexivity]. apply Rdiv_lt_0_compat; lra.
  - intros card Hc. unfold py_mass_ex. destruct (Z.eqb_spec card 0); [lia|]. eexists. split; reflexivity.
  - eexists. split; reflexivity.
Qed.

Lemma dp_scales : forall p s0 s n k propto, dp_init p s0 = Ok s ->
  (forall card, (1 <= card)%Z -> log_of (dp_mass_ex s n k true propto card) (dp_mass_ex s n k false propto card)) /\
  (log_of (dp_mass_new s n k true propto) (dp_mass_new s n k false propto) <->
     dp_log s = Some (Fin (ln (dp_tot s)))) /\
  0 < INR n + dp_tot s /\
  (forall card, (1 <= card)%Z ->
     scaled (INR n + dp_tot s) (dp_mass_ex s n k false false card) (dp_mass_ex s n k false true card)) /\
  scaled (INR n + dp_tot s) (dp_mass_new s n k false false) (dp_mass_new s n k false true).
Proof.
  intros p s0 s n k propto Hi. pose proof (dp_init_pos _ _ _ Hi) as Hm.
  assert (Hden : 0 < INR n + dp_tot s) by (pose proof (pos_INR n); lra).
  split; [|split; [|split; [auto|split]]].
  - intros card Hc. pose proof (card_pos _ Hc). unfold dp_mass_ex. rewrite xlog_pos by lra.
    rewrite Rmult_1_l. destruct propto.
    + eexists. repeat split; lra.
    + rewrite xsublog_fin by lra. eexists. split; [|split; reflexivity]. apply Rdiv_lt_0_compat; lra.
  - unfold dp_mass_new. destruct (dp_log s) as [out|]; split.
    + intros (v & Hv & E1 & E2). destruct propto.
      * injection E1 as <-. injection E2 as ->. auto.
      * injection E1 as <-. injection E2 as E2. unfold xsublog in E2. destruct out as [|y]; [discriminate|].
        simpl in E2. injection E2 as E2. unfold Rdiv in E2. rewrite ln_mult in E2; auto; [|apply Rinv_0_lt_compat; auto].
        rewrite ln_Rinv in E2 by auto. do 2 f_equal. lra.
    + intros E. injection E as ->. destruct propto.
      * eexists. repeat split; auto.
      * rewrite xsublog_fin by lra. eexists. split; [|split; reflexivity]. apply Rdiv_lt_0_compat; lra.
    + intros (v & _ & _ & E). discriminate.
    + discriminate.
  - intros card Hc. unfold dp_mass_ex. eexists. split; reflexivity.
  - eexists. split; reflexivity.
Qed.

(** ** Histories of a Dirichlet mixing object *)

Inductive dp_op : Type :=
| OpInit (p : dp_prior)
| OpLoad (m : R)
| OpUpdate (p : dp_prior) (k n : nat) (phi u v : R).

Definition dp_apply (s : dp_state) (o : dp_op) : res dp_state :=
  match o with
  | OpInit p => dp_init p s
  | OpLoad m => Ok (dp_load m s)
  | OpUpdate p k n phi u v => dp_update p k n phi u v s
  end.

Definition is_load (o : dp_op) : bool := match o with OpLoad _ => true | _ => false end.

Lemma dp_apply_keeps : forall o s s', is_load o = false -> dp_apply s o = Ok s' -> dp_log s' = dp_log s.
Proof.
  intros [p|m|p k n phi u v] s s' Hl H; simpl in *; try discriminate.
  - destruct p as [m|a b|]; simpl in H; try discriminate.
    + destruct (lteb m 0); [discriminate|]. injection H as <-. auto.
    + destruct (lteb a 0); [discriminate|]. destruct (lteb b 0); [discriminate|]. injection H as <-. auto.
  - destruct p as [m|a b|]; simpl in H; try discriminate.
    + injection H as <-. auto.
    + destruct (gamma_rng (dp_tot s + 1) (INR n) phi) as [ph| | |]; simpl in H; try discriminate.
      match type of H with rbind ?b _ = _ => destruct b as [m| | |]; try discriminate end.
      simpl in H. injection H as <-. auto.
Qed.

Lemma dp_history_none : forall ops s s', forallb (fun o => negb (is_load o)) ops = true ->
  rfold dp_apply ops s = Ok s' -> dp_log s' = dp_log s.
Proof.
  induction ops as [|o ops IH]; intros s s' Hl H; simpl in *; [injection H as <-; auto|].
  apply andb_prop in Hl. destruct Hl as [Ho Hl].
  destruct (dp_apply s o) as [s1| | |] eqn:E; try discriminate. simpl in H.
  rewrite (IH _ _ Hl H). eapply dp_apply_keeps; eauto. destruct (is_load o); auto; discriminate.
Qed.

Lemma dp_history : forall ops s s', rfold dp_apply ops s = Ok s' ->
  (forallb (fun o => negb (is_load o)) ops = true -> dp_log s' = dp_log s) /\
  (forall pre m post, ops = pre ++ OpLoad m :: post ->
     forallb (fun o => negb (is_load o)) post = true ->
     dp_log s' = Some (xlog m) /\ (post = [] -> dp_tot s' = m)).
Proof.
  intros ops s s' H. split.
  - intros Hl. eapply dp_history_none; eauto.
  - intros pre m post -> Hl. rewrite rfold_app in H.
    destruct (rfold dp_apply pre s) as [s1| | |] eqn:E; try discriminate. simpl in H.
    split.
    + rewrite (dp_history_none _ _ _ Hl H). auto.
    + intros ->. simpl in H. injection H as <-. auto.
Qed.

Lemma dp_log_mass_history : forall ops s s' n k, rfold dp_apply ops s = Ok s' ->
  forallb (fun o => negb (is_load o)) ops = true ->
  (dp_log s = None -> dp_mass_new s' n k true true = UB) /\
  (s = dp_make_shared -> dp_mass_new s' n k true true = Ok (Fin 0)).
Proof.
  intros ops s s' n k H Hl. pose proof (dp_history_none _ _ _ Hl H) as E. unfold dp_mass_new. rewrite E.
  split; [intros ->; auto|]. intros ->. auto.
Qed.

(** ** Resampling the total mass *)

Lemma ln_lt_exp : forall b phi, 0 < phi -> (0 < b - ln phi <-> phi < exp b).
Proof.
  intros b phi H. split; intros E.
  - apply ln_lt_inv; auto; [apply exp_pos|]. rewrite ln_exp. lra.
  - apply ln_increasing in E; auto. rewrite ln_exp in E. lra.
Qed.

Lemma dp_update_throws : forall a b s0 s k n phi u v,
  dp_init (DPGamma a b) s0 = Ok s -> (1 <= k)%nat -> (1 <= n)%nat -> 0 < phi ->
  (phi < exp b -> dp_update (DPGamma a b) k n phi u v s = Ok (mkDp v (dp_log s))) /\
  (exp b <= phi -> exists msg, dp_update (DPGamma a b) k n phi u v s = Throw msg).
Proof.
  intros a b s0 s k n phi u v Hi Hk Hn Hphi. pose proof (dp_init_pos _ _ _ Hi) as Hm.
  assert (Ha : 0 < a /\ 0 < b).
  { simpl in Hi. destruct (lteb a 0) eqn:E1; [discriminate|]. destruct (lteb b 0) eqn:E2; [discriminate|].
    apply lteb_false in E1. apply lteb_false in E2. auto. }
  assert (Hk' : 1 <= INR k) by (apply (le_INR 1); auto).
  assert (Hn' : 1 <= INR n) by (apply (le_INR 1); auto).
  unfold dp_update. assert (E : gamma_rng (dp_tot s + 1) (INR n) phi = Ok phi).
  { unfold gamma_rng. rewrite (proj2 (gtb_true _ _)) by lra. rewrite (proj2 (gtb_true _ _)) by lra. auto. }
  rewrite E. cbn [rbind]. split; intros H.
  - apply ln_lt_exp in H; auto. unfold gamma_rng.
    rewrite (proj2 (gtb_true (b - ln phi) 0)) by lra.
    rewrite (proj2 (gtb_true (dp_shape _ _ _ _) 0)) by (unfold dp_shape; destruct (lteb _ _); lra). reflexivity.
  - assert (Hr : b - ln phi <= 0).
    { destruct (Rle_lt_dec (b - ln phi) 0); auto. apply ln_lt_exp in r; auto. lra. }
    unfold gamma_rng. rewrite (proj2 (gtb_false (b - ln phi) 0)) by lra. rewrite andb_false_r. eexists; reflexivity.
Qed.

(** ** Logit stick-breaking weights *)

Lemma sigmoid_pos : forall x, 0 < sigmoid x.
Proof. intros x. unfold sigmoid. pose proof (exp_pos (- x)). apply Rdiv_lt_0_compat; lra. Qed.
Lemma sigmoid_neg : forall x, sigmoid (- x) = 1 - sigmoid x.
Proof.
  intros x. unfold sigmoid. rewrite Ropp_involutive, exp_Ropp. pose proof (exp_pos x). field. lra.
Qed.
Lemma sigmoid_lt1 : forall x, sigmoid x < 1.
Proof. intros x. pose proof (sigmoid_pos (- x)). rewrite sigmoid_neg in H. lra. Qed.

Lemma logit_go_sum : forall eta c,
  sumR (map exp (logit_go c eta)) = exp c * (1 - prodR (map (fun e => 1 - sigmoid e) eta)).
Proof.
  induction eta as [|e t IH]; intros c; simpl.
  - unfold sumR, prodR. simpl. lra.
  - rewrite sumR_cons, IH, !exp_plus, !exp_ln by apply sigmoid_pos.
    rewrite prodR_cons, sigmoid_neg. ring.
Qed.

Lemma logit_go_nth : forall eta c h e, nth_error eta h = Some e ->
  exists w, nth_error (logit_go c eta) h = Some w /\
    exp w = exp c * (sigmoid e * prodR (map (fun e => 1 - sigmoid e) (firstn h eta))).
Proof.
  induction eta as [|e0 t IH]; intros c [|h] e H; simpl in *; try discriminate.
  - injection H as <-. eexists. split; eauto. rewrite exp_plus, exp_ln by apply sigmoid_pos.
    unfold prodR. simpl. ring.
  - destruct (IH (c + ln (sigmoid (- e0))) h e H) as (w & E1 & E2). exists w. split; auto.
    rewrite E2, exp_plus, exp_ln by apply sigmoid_pos. rewrite prodR_cons, sigmoid_neg. ring.
Qed.

Lemma prod_compl_pos : forall eta, 0 < prodR (map (fun e => 1 - sigmoid e) eta).
Proof.
  induction eta as [|e t IH]; simpl; [unfold prodR; simpl; lra|]. rewrite prodR_cons.
  apply Rmult_lt_0_compat; auto. pose proof (sigmoid_lt1 e). lra.
Qed.

Lemma logit_sum : forall betas x,
  length (logit_weights false betas x) = S (length betas) /\
  Forall (fun w => 0 < w) (logit_weights false betas x) /\
  sumR (logit_weights false betas x) =
    1 - prodR (map (fun b => 1 - sigmoid (dot x b)) betas) * (1 - sigmoid 1) /\
  sumR (logit_weights false betas x) < 1 /\
  logit_weights false betas x = map exp (logit_weights true betas x).
Proof.
  intros betas x. unfold logit_weights.
  assert (L : forall eta c, length (logit_go c eta) = length eta) by (induction eta; intros; simpl; auto).
  assert (E : sumR (map exp (logit_go 0 (map (dot x) betas ++ [1]))) =
     1 - prodR (map (fun b => 1 - sigmoid (dot x b)) betas) * (1 - sigmoid 1)).
  { rewrite logit_go_sum, exp_0, map_app, prodR_app, map_map. simpl map. unfold prodR at 2. simpl. ring. }
  split; [|split; [|split; [|split]]]; auto.
  - rewrite map_length, L, app_length, map_length. simpl. lia.
  - apply Forall_forall. intros w Hw. apply in_map_iff in Hw. destruct Hw as (y & <- & _). apply exp_pos.
  - rewrite E. assert (0 < prodR (map (fun b => 1 - sigmoid (dot x b)) betas) * (1 - sigmoid 1)).
    { rewrite <- (map_map (dot x) (fun e => 1 - sigmoid e)).
      apply Rmult_lt_0_compat; [apply prod_compl_pos|]. pose proof (sigmoid_lt1 1). lra. }
    lra.
Qed.

(** The full conditional: the likelihood of the allocations under the weights,
    as a function of the coefficients of component [h]. *)
Lemma logit_lpdf_acc : forall alpha clust rows alloc c d,
  let f := (fun like p =>
      let '(x, c) := p in
      if (clust <=? c)%nat then
        let cur := if (c =? clust)%nat then 1 else 0 in
        let prob := sigmoid (dot x alpha) in
        like + (cur * ln prob + (1 - cur) * ln (1 - prob))
      else like) in
  fold_left f (combine rows alloc) (c + d) = fold_left f (combine rows alloc) c + d.
Proof.
  intros alpha clust rows alloc c d f. revert c. induction (combine rows alloc) as [|[x a] l IH]; intros c; simpl; auto.
  destruct (clust <=? a)%nat; auto. rewrite <- IH. f_equal. lra.
Qed.

Lemma nth_upd_other : forall A (l : list A) i j x, i <> j -> nth_error (upd l i x) j = nth_error l j.
Proof. intros. apply nth_error_upd_other. auto. Qed.

Lemma logit_weight_nth : forall betas x c b, nth_error betas c = Some b ->
  exists w, nth_error (logit_weights true betas x) c = Some w /\
    w = ln (sigmoid (dot x b)) + sumR (map (fun b' => ln (1 - sigmoid (dot x b'))) (firstn c betas)).
Proof.
  intros betas x c b H. unfold logit_weights.
  assert (G : forall eta d h e, nth_error eta h = Some e ->
    nth_error (logit_go d eta) h = Some (ln (sigmoid e) + (d + sumR (map (fun e => ln (1 - sigmoid e)) (firstn h eta))))).
  { induction eta as [|e0 t IH]; intros d [|h] e He; simpl in *; try discriminate.
    - injection He as <-. unfold sumR. simpl. f_equal. lra.
    - rewrite (IH _ _ _ He). rewrite sumR_cons, sigmoid_neg. f_equal. lra. }
  assert (Hc : nth_error (map (dot x) betas ++ [1]) c = Some (dot x b)).
  { rewrite nth_error_app1; [apply map_nth_error; auto|]. rewrite map_length.
    apply nth_error_Some. congruence. }
  rewrite (G _ 0 _ _ Hc). eexists. split; [reflexivity|].
  rewrite firstn_app. replace (c - length (map (dot x) betas))%nat with 0%nat.
  - simpl. rewrite app_nil_r, firstn_map, map_map. lra.
  - rewrite map_length. assert (c < length betas)%nat by (apply nth_error_Some; congruence). lia.
Qed.
