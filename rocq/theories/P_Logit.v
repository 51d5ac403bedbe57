(** * The logit stick-breaking mixing as a whole: C113. *)
From Coq Require Import String.
From Coq Require Import Bool List Arith ZArith Lia Reals Lra Classical.
From Coquelicot Require Import Coquelicot.
From Verif Require Import Base XReal Mixings Univ Multi PartSpec MixFacts MixMore LogitFacts LogitLib LogitLibFacts LogitUp LogitUpFacts.
Import ListNotations.
Local Open Scope R_scope.

(** ** Initialisation *)

(** With at least one component and a normal prior, the mixing starts exactly
    when the prior covariance is symmetric positive definite and of the size of
    the mean, and the step is positive.  Every column is then the prior mean, the
    precision is the inverse of the covariance, and no step has been counted. *)
Theorem C113_initialised : forall p mean var,
  (1 <= lp_H p)%nat -> lp_normal p = Some (mean, var) ->
  (lspd var /\ length mean = length var /\ 0 < lp_step p ->
   exists s, lg_init p = Ok s /\ lg_H s = lp_H p /\ lg_cols s = repeat mean (lp_H p - 1) /\
     linv var = Ok (lg_prec s) /\ lg_acc s = repeat 0%nat (lp_H p - 1) /\ lg_iter s = 0%nat /\
     lg_ok mean s /\ sq_sym (lg_prec s)) /\
  (~ (lspd var /\ length mean = length var /\ 0 < lp_step p) -> exists msg, lg_init p = Throw msg).
Proof.
  intros p mean var HH Hn. unfold lg_init. rewrite (proj2 (Nat.eqb_neq _ _)) by lia. rewrite Hn. split.
  - intros [Hv [Hl Hs]]. pose proof (proj2 (linv_ok var _) (Logic.conj Hv eq_refl)) as E. rewrite E. cbn [rbind].
    pose proof (linv_shape E) as [L1 [L2 L3]].
    rewrite L1, Hl, Nat.eqb_refl. cbn [negb]. unfold lteb. destruct (Rle_dec (lp_step p) 0) as [K|K]; [lra|].
    eexists. split; [reflexivity|]. cbn [lg_H lg_cols lg_prec lg_acc lg_iter].
    do 5 (split; [auto|]). split.
    + constructor; cbn [lg_H lg_cols lg_prec lg_acc lg_iter]; rewrite ?repeat_length; auto; [|congruence].
      rewrite List.Forall_forall. intros b Hb. apply repeat_spec in Hb. subst. auto.
    + split; auto.
  - intros Hno. destruct (linv var) as [P|msg| |] eqn:E; cbn [rbind].
    + pose proof (linv_shape E) as [L1 _]. apply linv_ok in E. destruct (length mean =? length P)%nat eqn:EL; cbn [negb]; [|eauto].
      unfold lteb. destruct (Rle_dec (lp_step p) 0) as [K|K]; [eauto|]. exfalso. apply Hno.
      split; [apply E|]. split; [apply Nat.eqb_eq in EL; congruence|lra].
    + eauto.
    + exfalso. revert E. clear. apply linv_no_abort.
    + exfalso. revert E. clear. apply linv_no_ub.
Qed.
Print Assumptions C113_initialised.

(** ** Weights *)

(** Component [c] below the last has the probability of the stick-breaking
    construction; the last one only the part [logistic 1] of what is left. *)
Theorem C113_weights : forall mean s x, lg_ok mean s -> length x = length mean ->
  exists w, lg_weights false s x = Ok w /\ length w = lg_H s /\
  let v := map (fun b => logistic (dot x b)) (lg_cols s) in
  (forall c, (c < lg_H s - 1)%nat -> nth c w 0 = stick_prob v c) /\
  nth (lg_H s - 1) w 0 = logistic 1 * stick_prob v (lg_H s - 1).
Proof.
  intros mean s x Hs Hx. unfold lg_weights. pose proof (lo_H Hs) as HH. pose proof (lo_cols Hs) as Lc.
  rewrite (proj2 (Nat.eqb_neq _ _)) by lia.
  assert (E : rmap (fun h => b <- lg_col s h ;; edot x b) (seq 0 (lg_H s - 1)) = Ok (map (dot x) (lg_cols s))).
  { rewrite <- Lc. unfold lg_col. pose proof (lo_col Hs) as F. revert F. generalize (lg_cols s) as l. clear -Hx.
    intros l F.
    assert (K : forall l2 l1, List.Forall (fun b => length b = length mean) l2 ->
      rmap (fun h => b <- match nth_error (l1 ++ l2) h with Some b => Ok b | None => Abort end;; edot x b) (seq (length l1) (length l2)) = Ok (map (dot x) l2)).
    { induction l2 as [|b l2 IH]; intros l1 F2; [reflexivity|]. cbn [length seq rmap map].
      rewrite nth_error_app2, Nat.sub_diag by lia. cbn [nth_error rbind]. inversion F2; subst.
      unfold edot at 1. rewrite Hx, H1, Nat.eqb_refl. cbn [rbind].
      specialize (IH (l1 ++ [b])). rewrite app_length, <- app_assoc in IH. simpl in IH.
      replace (length l1 + 1)%nat with (S (length l1)) in IH by lia. rewrite IH by auto. reflexivity. }
    apply (K l []); auto. }
  rewrite E. cbn [rbind]. eexists. split; [reflexivity|].
  assert (L : forall eta c, length (logit_go c eta) = length eta) by (induction eta; intros; simpl; auto).
  split. { rewrite map_length, L, app_length, map_length. simpl. lia. }
  cbv zeta.
  assert (Ln : forall (etas : list R) d c, (c < length (etas ++ [1%R]))%nat ->
    nth c (map exp (logit_go d (etas ++ [1]))) 0 =
    exp d * (if (c =? length etas)%nat then logistic 1 else 1) * stick_prob (map logistic etas) c).
  { induction etas as [|y t IH]; intros d c Hc; simpl in Hc.
    - destruct c as [|c]; [|lia]. cbn. rewrite exp_plus, exp_ln by apply sigmoid_01. rewrite logistic_sigmoid. ring.
    - destruct c as [|c]; cbn [app logit_go map nth length Nat.eqb stick_prob].
      + rewrite exp_plus, exp_ln by apply sigmoid_01. rewrite logistic_sigmoid. ring.
      + rewrite IH by lia. rewrite exp_plus, exp_ln by apply sigmoid_01. rewrite sigmoid_neg, !logistic_sigmoid. ring. }
  split.
  - intros c Hc. rewrite Ln by (rewrite app_length, map_length; simpl; lia). rewrite exp_0, map_map.
    rewrite (proj2 (Nat.eqb_neq _ _)) by (rewrite map_length; lia). ring.
  - rewrite Ln by (rewrite app_length, map_length; simpl; lia). rewrite exp_0, map_map.
    rewrite (proj2 (Nat.eqb_eq _ _)) by (rewrite map_length; lia). ring.
Qed.
Print Assumptions C113_weights.

(** ** The update *)

(** From a well-formed state, on covariates of the right shape, the update always
    returns.  It adds one iteration, keeps the precision, and treats every column
    on its own: a proposal around a gradient step of the log-posterior, either
    kept, and counted, or dropped. *)
Theorem C113_update : forall (G : gen) (M : mgen G) p mean var rows alloc s r,
  lp_normal p = Some (mean, var) -> 0 < lp_step p ->
  lg_ok mean s -> sq_sym (lg_prec s) -> covers (length mean) rows alloc ->
  exists s' r', lg_update M p rows alloc (s, r) = Ok (s', r') /\
    lg_H s' = lg_H s /\ lg_prec s' = lg_prec s /\ lg_iter s' = S (lg_iter s) /\ lg_ok mean s' /\
    forall h, (h < lg_H s - 1)%nat -> exists b a out (hit : bool),
      nth_error (lg_cols s) h = Some b /\ nth_error (lg_acc s) h = Some a /\
      nth_error (lg_cols s') h = Some out /\ nth_error (lg_acc s') h = Some (if hit then S a else a) /\
      proposed M p mean (lg_prec s) rows alloc (lg_cols s) h b out hit.
Proof.
  intros G M p mean var rows alloc s r Hn Hst Hs Hp Hc. unfold lg_update. pose proof (lo_H Hs) as HH.
  rewrite (proj2 (Nat.eqb_neq _ _)) by lia. rewrite Hn.
  set (s1 := mkLG (lg_H s) (lg_dim s) (lg_cols s) (lg_prec s) (lg_acc s) (S (lg_iter s))).
  assert (Hs1 : lg_ok mean s1) by (destruct Hs; constructor; auto).
  destruct (@lg_loop G M p mean rows alloc (lg_cols s) (lg_H s - 1) 0 s1 r Hst Hs1 Hp Hc ltac:(cbn; lia) eq_refl)
    as (s' & r' & E & A1 & A2 & A3 & A4 & A5 & _ & A7).
  exists s', r'. split; [exact E|]. split; [exact A1|]. split; [exact A3|]. split; [exact A4|]. split; [exact A5|].
  intros h Hh. apply A7. lia.
Qed.
Print Assumptions C113_update.

(** A whole chain of updates returns, and the acceptance rates are then numbers
    between zero and one, one per column. *)
Theorem C113_rates : forall (G : gen) (M : mgen G) p mean var rows allocs s r,
  (1 <= lp_H p)%nat -> lp_normal p = Some (mean, var) -> lg_init p = Ok s ->
  List.Forall (covers (length mean) rows) allocs ->
  exists s' r', lg_run M p rows allocs (s, r) = Ok (s', r') /\ lg_iter s' = length allocs /\
    lg_ok mean s' /\ lg_prec s' = lg_prec s /\
    (allocs <> [] -> exists q, lg_rates s' = Some q /\ length q = (lp_H p - 1)%nat /\ List.Forall (fun x => 0 <= x <= 1) q).
Proof.
  intros G M p mean var rows allocs s r HH Hn E Hal.
  destruct (C113_initialised p mean var HH Hn) as [I1 I2].
  assert (Hpre : lspd var /\ length mean = length var /\ 0 < lp_step p).
  { destruct (classic (lspd var /\ length mean = length var /\ 0 < lp_step p)) as [K|K]; auto.
    destruct (I2 K) as [msg Em]. congruence. }
  destruct (I1 Hpre) as (s0 & E0 & H0 & _ & _ & Ha0 & Hi0 & Hok & Hsq). rewrite E in E0. injection E0 as <-.
  destruct Hpre as [_ [_ Hst]].
  assert (R : forall allocs s r, List.Forall (covers (length mean) rows) allocs -> lg_ok mean s -> sq_sym (lg_prec s) ->
     List.Forall (fun a => (a <= lg_iter s)%nat) (lg_acc s) ->
     exists s' r', lg_run M p rows allocs (s, r) = Ok (s', r') /\ lg_iter s' = (lg_iter s + length allocs)%nat /\
       lg_ok mean s' /\ lg_prec s' = lg_prec s /\ lg_H s' = lg_H s /\ List.Forall (fun a => (a <= lg_iter s')%nat) (lg_acc s')).
  { clear -Hn Hst. induction allocs as [|al allocs IH]; intros s r F Hs Hp Ha.
    - exists s, r. simpl. split; [auto|]. split; [lia|]. auto.
    - pose proof (List.Forall_inv F) as F1. pose proof (List.Forall_inv_tail F) as F2. unfold lg_run. cbn [rfold].
      destruct (C113_update G M p mean var rows al s r Hn Hst Hs Hp F1) as (s1 & r1 & E1 & B1 & B2 & B3 & B4 & B5).
      rewrite E1. cbn [rbind].
      assert (Ha1 : List.Forall (fun a => (a <= lg_iter s1)%nat) (lg_acc s1)).
      { rewrite List.Forall_forall. intros x Hx. apply In_nth_error in Hx. destruct Hx as [h Hx].
        assert (Hh : (h < lg_H s - 1)%nat).
        { assert (h < length (lg_acc s1))%nat by (apply nth_error_Some; congruence).
          rewrite (lo_acc B4) in H. lia. }
        destruct (B5 h Hh) as (b & a & out & hit & K1 & K2 & K3 & K4 & _). rewrite Hx in K4. injection K4 as ->.
        rewrite List.Forall_forall in Ha. pose proof (Ha a (nth_error_In _ _ K2)). rewrite B3. destruct hit; lia. }
      assert (Hp1 : sq_sym (lg_prec s1)) by (rewrite B2; auto).
      destruct (IH s1 r1 F2 B4 Hp1 Ha1) as (s2 & r2 & E2 & C1 & C2 & C3 & C4 & C5).
      exists s2, r2. split; [exact E2|]. simpl. split; [lia|]. split; [auto|]. split; [congruence|]. split; [congruence|auto]. }
  assert (Ha : List.Forall (fun a => (a <= lg_iter s)%nat) (lg_acc s)).
  { rewrite Ha0, List.Forall_forall. intros x Hx. apply repeat_spec in Hx. lia. }
  destruct (R allocs s r Hal Hok Hsq Ha) as (s' & r' & E' & C1 & C2 & C3 & C4 & C5).
  exists s', r'. split; [auto|]. split; [lia|]. split; [auto|]. split; [auto|].
  intros Hne. unfold lg_rates.
  assert (Hpos : (0 < lg_iter s')%nat) by (rewrite C1; destruct allocs; [congruence|simpl; lia]).
  rewrite (proj2 (Nat.eqb_neq _ _)) by lia. eexists. split; [reflexivity|]. split.
  - rewrite map_length, (lo_acc C2). congruence.
  - rewrite List.Forall_forall in *. intros x Hx. apply in_map_iff in Hx. destruct Hx as [a [<- Hx]].
    pose proof (C5 a Hx) as Hle. apply le_INR in Hle. assert (0 < INR (lg_iter s')) by (apply lt_0_INR; auto).
    pose proof (pos_INR a). split.
    + apply Rmult_le_pos; [auto|]. apply Rlt_le, Rinv_0_lt_compat; auto.
    + apply Rmult_le_reg_r with (INR (lg_iter s')); auto. unfold Rdiv. rewrite Rmult_assoc, Rinv_l; lra.
Qed.
Print Assumptions C113_rates.

(** Before the first update there are no rates: the accessor divides by zero. *)
Theorem C113_rates_refuted : exists p s, lg_init p = Ok s /\ lg_rates s = None.
Proof.
  exists (mkLP 3 1 (Some ([0; 0], [[4; 0]; [0; 4]]))).
  destruct (C113_initialised (mkLP 3 1 (Some ([0; 0], [[4; 0]; [0; 4]]))) _ _ ltac:(cbn; lia) eq_refl) as [I _].
  destruct I as (s & E & _ & _ & _ & _ & Hi & _).
  { split; [apply lspd_four|]. split; [reflexivity|]. cbn. lra. }
  exists s. split; [exact E|]. unfold lg_rates. rewrite Hi. reflexivity.
Qed.
Print Assumptions C113_rates_refuted.

(** ** The acceptance step *)

(** Log-density, up to a constant, of the proposal from [b] whose gradient is [g]. *)
Definition log_prop (step v : R) (g b b' : list R) : R :=
  let m := vaxpy b step g in - dot (vsub b' m) (vsub b' m) / (2 * v).

(** The threshold is that of Metropolis and Hastings exactly when the current
    column is as far from the forward mean as from the reverse mean. *)
Theorem C113_threshold : forall step v g g' b b' fc fc', 0 < v ->
  let m := vaxpy b step g in let m' := vaxpy b' step g' in
  (lg_log_accept fc fc' v m b b' = (fc' + log_prop step v g' b' b) - (fc + log_prop step v g b b') <->
   dot (vsub b m) (vsub b m) = dot (vsub b m') (vsub b m')).
Proof.
  intros step v g g' b b' fc fc' Hv m m'. unfold lg_log_accept, log_prop. fold m m'. cbv zeta.
  set (A := dot (vsub b' m) (vsub b' m)). set (B := dot (vsub b m) (vsub b m)). set (C := dot (vsub b m') (vsub b m')).
  assert (E1 : -0.5 / v * (A - B) = B / (2 * v) - A / (2 * v)) by (replace (-0.5) with (- / 2) by lra; field; lra).
  rewrite E1. replace (- C / (2 * v)) with (- (C / (2 * v))) by (field; lra). replace (- A / (2 * v)) with (- (A / (2 * v))) by (field; lra).
  split; intros H.
  - assert (D : B / (2 * v) = C / (2 * v)) by lra. apply Rmult_eq_reg_r with (/ (2 * v)); auto. apply Rinv_neq_0_compat. lra.
  - rewrite H. lra.
Qed.
Print Assumptions C113_threshold.

(** The covariance of the proposal is not that of the discretised Langevin
    dynamics with this step, [2 * step * Identity], unless the step is a half. *)
Theorem C113_langevin_refuted : exists (G : gen) (M : mgen G) m r step, 0 < step /\
  mvn_list M m (sqrt (2 * step)) r <> mvn_list M m (2 * step) r.
Proof.
  exists covG, covM, [0], tt, 2. split; [lra|]. rewrite !cov_shown. intros H. injection H as H.
  replace (2 * 2) with (2 * 2) in H by lra. rewrite sqrt_square in H by lra. lra.
Qed.
Print Assumptions C113_langevin_refuted.
Theorem C113_langevin_scale : forall step, 0 < step -> (sqrt (2 * step) = 2 * step <-> step = / 2).
Proof.
  intros step H. split; intros E.
  - assert (K : 2 * step = (2 * step) * (2 * step)) by (rewrite <- (sqrt_sqrt (2 * step)) at 1 by lra; rewrite E; ring). nra.
  - subst. replace (2 * / 2) with 1 by field. apply sqrt_1.
Qed.
Print Assumptions C113_langevin_scale.

(** ** Covariates *)

(** Without covariates (the algorithm supplies rows of size zero) the update
    stops on an assertion as soon as there are coefficients and data. *)
Theorem C113_no_covariates : forall (G : gen) (M : mgen G) p mean var rows alloc s r,
  lp_normal p = Some (mean, var) -> lg_ok mean s -> (2 <= lg_H s)%nat -> (0 < length mean)%nat -> alloc <> [] ->
  List.Forall (fun x => length x = 0%nat) rows ->
  lg_update M p rows alloc (s, r) = Abort.
Proof.
  intros G M p mean var rows alloc s r Hn Hs HH Hm Ha Hr. unfold lg_update.
  rewrite (proj2 (Nat.eqb_neq _ _)) by lia. rewrite Hn.
  destruct (lg_H s - 1)%nat as [|k] eqn:EH; [lia|]. cbn [seq rfold]. unfold lg_step at 1. unfold lg_col. cbn [lg_cols].
  pose proof (lo_cols Hs) as Lc.
  destruct (nth_error (lg_cols s) 0) as [b|] eqn:Eb; [|reflexivity]. cbn [rbind].
  assert (Lb : length b = length mean).
  { pose proof (lo_col Hs) as F. rewrite List.Forall_forall in F. apply F. apply nth_error_In with 0%nat. auto. }
  unfold lg_grad. rewrite Lb.
  assert (K : rows_used (length mean) 0 rows alloc = false).
  { apply rows_used_missing; auto. destruct alloc as [|c al]; [congruence|]. exists c. simpl. split; [auto|lia]. }
  rewrite K, andb_false_r. reflexivity.
Qed.
Print Assumptions C113_no_covariates.

(** ** Stored states *)

(** A stored state gives back the weights to a mixing with as many components. *)
Theorem C113_stored : forall log s s0 x, lg_H s0 = lg_H s ->
  lg_weights log (lg_set_proto (lg_get_proto s) s0) x = lg_weights log s x.
Proof. intros log s s0 x E. unfold lg_weights, lg_set_proto, lg_get_proto, lg_col. cbn [lg_H lg_cols]. rewrite E. reflexivity. Qed.
Print Assumptions C113_stored.

(** The number of components does not follow the stored state. *)
Theorem C113_stored_refuted : exists mean s s0 x, lg_ok mean s /\ lg_ok mean s0 /\ length x = length mean /\
  (exists w, lg_weights false s x = Ok w) /\ lg_weights false (lg_set_proto (lg_get_proto s) s0) x = Abort.
Proof.
  exists [0], (mkLG 2 1 [[1]] [[1]] [0%nat] 0), (mkLG 3 1 [[1]; [2]] [[1]] [0%nat; 0%nat] 0), [1].
  assert (O1 : lg_ok [0] (mkLG 2 1 [[1]] [[1]] [0%nat] 0)) by (constructor; cbn; auto).
  split; [auto|]. split; [constructor; cbn; auto|]. split; [reflexivity|]. split.
  - destruct (C113_weights [0] _ [1] O1 eq_refl) as (w & E & _). exists w. exact E.
  - reflexivity.
Qed.
Print Assumptions C113_stored_refuted.

(** ** Example *)

Definition lgP : lgprior := mkLP 3 (/ 2) (Some ([0; 0], [[4; 0]; [0; 4]])).
Example C113_example : exists s, lg_init lgP = Ok s /\
  (exists w, lg_weights false s [1; 5] = Ok w /\ length w = 3%nat) /\
  exists s' r', lg_run covM lgP [[1; 5]; [1; 2]; [1; 0]] [[0; 1; 2]; [0; 0; 2]]%nat (s, tt) = Ok (s', r') /\
    lg_iter s' = 2%nat /\ exists q, lg_rates s' = Some q /\ length q = 2%nat.
Proof.
  destruct (C113_initialised lgP _ _ ltac:(cbn; lia) eq_refl) as [I _].
  destruct I as (s & E & HH & _ & _ & _ & Hi & Hok & Hsq).
  { split; [apply lspd_four|]. split; [reflexivity|]. cbn. lra. }
  exists s. split; [exact E|]. split.
  - destruct (C113_weights _ s [1; 5] Hok eq_refl) as (w & Ew & Lw & _). exists w. split; [auto|]. rewrite Lw, HH. reflexivity.
  - destruct (C113_rates covG covM lgP _ _ [[1; 5]; [1; 2]; [1; 0]] [[0; 1; 2]; [0; 0; 2]]%nat s tt ltac:(cbn; lia) eq_refl E)
      as (s' & r' & E' & Hit & _ & _ & Hq).
    { repeat constructor; cbn; auto; intros x [<-|[<-|[<-|[]]]]; reflexivity. }
    exists s', r'. split; [exact E'|]. split; [exact Hit|]. destruct (Hq ltac:(discriminate)) as (q & Eq & Lq & _). exists q. auto.
Qed.
