(** * Reallocation weights under a mixture of finite mixtures: proofs. *)
From Coq Require Import String.
From Coq Require Import Bool List Arith ZArith Lia Reals Lra Permutation.
From Verif Require Import Base Hier Algos Run Spec MargFacts NealFacts MargMore MargProps XReal Mixings PartSpec MixFacts MfmFacts.
From Verif Require Import GibbsSpec GibbsComb GibbsPost GibbsFacts MfmInst MfmRun MfmProg.
Import ListNotations.
Local Open Scope R_scope.

Lemma gibbs_prior : forall V g, 0 < g -> (forall n k, 0 < V n k) -> partition_prior (fun al => gibbs_type V g (sizes_of al)).
Proof.
  intros V g Hg HV. split; [|split].
  - intros al _. unfold gibbs_type. apply Rmult_lt_0_compat; [apply HV|]. apply prodR_pos. apply Forall_forall. intros x Hx.
    apply in_map_iff in Hx. destruct Hx as (m & <- & _). now apply rising_pos.
  - intros al al' H. apply gibbs_perm, sizes_perm, H.
  - intros f al H. rewrite sizes_rename; auto.
Qed.

(** The coefficients used with [n] observations in all, [t] clusters. *)
Definition mfm_V (series : R -> R -> R -> nat -> nat -> R) (m : mfm_state) (n t : nat) : R := series (mf_lam m) (mf_gam m) (mf_C (mfm_init_VC n m)) t n.
(** They are what the loop computes. *)
Definition computed (series : R -> R -> R -> nat -> nat -> R) (m : mfm_state) (n : nat) : Prop :=
  forall t, (1 <= t <= n)%nat -> exists fuel, mfm_loop fuel (mf_lam m) (mf_gam m) (mf_C (mfm_init_VC n m)) t n 1 0 1 = Some (mfm_V series m n t).

Section Weights.
  Variable series : R -> R -> R -> nat -> nat -> R.
  Variable I : Iface.
  Variable ofx : xreal -> W I.
  Variable val : W I -> R.
  Hypothesis Hval : forall x, val (ofx x) = xexp x.
  Local Notation J := (with_mfm series I ofx).
  Variable m : mfm_state.
  Hypothesis Hm : mfm_valid m.
  Variable n : nat.
  Hypothesis Hn : (2 <= n)%nat.
  Hypothesis HZ : (Z.of_nat n <= 2 ^ 32)%Z.
  Hypothesis Hcomp : computed series m n.

  Lemma V_pos : forall t, (1 <= t <= n)%nat -> 0 < mfm_V series m n t.
  Proof.
    intros t Ht. destruct (Hcomp t Ht) as (fuel & E). destruct Hm as (_ & Hl & Hg).
    refine (loop_positive (mf_lam m) (mf_gam m) _ t n fuel _ Hl Hg _ _ _ E); lia.
  Qed.
  Definition V_guard (k j : nat) : R := if Rlt_dec 0 (mfm_V series m k j) then mfm_V series m k j else 1.
  Lemma V_guard_pos : forall k j, 0 < V_guard k j.
  Proof. intros k j. unfold V_guard. destruct (Rlt_dec 0 (mfm_V series m k j)); lra. Qed.
  Lemma V_guard_eq : forall t, (1 <= t <= n)%nat -> V_guard n t = mfm_V series m n t.
  Proof. intros t Ht. unfold V_guard. destruct (Rlt_dec 0 (mfm_V series m n t)) as [H|H]; [reflexivity|]. exfalso. apply H, V_pos, Ht. Qed.
  Definition guarded (al : list nat) : R := gibbs_type V_guard (mf_gam m) (sizes_of al).
  Lemma guarded_eq : forall al, length al = n -> guarded al = gibbs_type (mfm_V series m) (mf_gam m) (sizes_of al).
  Proof.
    intros al La. unfold guarded, gibbs_type. rewrite sizes_sum, sizes_length, La. f_equal. apply V_guard_eq.
    pose proof (distinct_le al). assert (Ha : al <> []) by (intros ->; cbn in La; lia). pose proof (distinct_nonempty al Ha). lia.
  Qed.
  Lemma guarded_prior : partition_prior guarded.
  Proof. apply gibbs_prior; [apply Hm|apply V_guard_pos]. Qed.

  Lemma mfm_mass_at : forall rest, length rest = (n - 1)%nat -> ~ NoDup rest -> mass_at J val m guarded rest.
  Proof.
    intros rest Hr Hd. destruct Hm as (H0 & _ & Hg).
    assert (Hne : rest <> []) by (intros ->; cbn in Hr; lia). pose proof (distinct_nonempty rest Hne) as D1. pose proof (distinct_le rest) as D2.
    assert (D3 : length (distinct rest) <> length rest) by (intro F; apply Hd, distinct_full, F).
    set (t := length (distinct rest)) in *.
    assert (P1 : 0 < mfm_V series m n t) by (apply V_pos; lia). assert (P2 : 0 < mfm_V series m n (t + 1)) by (apply V_pos; lia).
    assert (Q : 0 < prodR (map (fun m0 => rising (mf_gam m) m0) (sizes_of rest))).
    { apply prodR_pos. apply Forall_forall. intros x Hx. apply in_map_iff in Hx. destruct Hx as (z & <- & _). now apply rising_pos. }
    set (pr := prodR (map (fun m0 => rising (mf_gam m) m0) (sizes_of rest))) in *.
    destruct (masses_filled series m (n - 1) m t true true H0 (filled_refl series m (n - 1) H0)) as [A _]. destruct (A ltac:(lia)) as [A1 (u & A2 & _)]. clear A.
    assert (EV : forall j, coef series m (n - 1) j = mfm_V series m n j) by (intro j; unfold coef, mfm_V; now replace (S (n - 1)) with n by lia).
    rewrite !EV in A2.
    exists (mfm_V series m n t * pr). split; [now apply Rmult_lt_0_compat|]. rewrite Hr. fold t. split.
    - intros x Hx. destruct (A1 (Z.of_nat (count_occ Nat.eq_dec rest x))) as (u' & E & _). exists (ofx (xlog (IZR (Z.of_nat (count_occ Nat.eq_dec rest x)) + mf_gam m))).
      cbn [mass_ex with_mfm]. rewrite E. cbn [rbind]. split; [reflexivity|]. unfold guarded. rewrite gibbs_old by assumption. fold t. fold pr.
      replace (S (length rest)) with n by lia. rewrite V_guard_eq by lia. rewrite Hval, <- INR_IZR_INZ, xexp_log by (pose proof (pos_INR (count_occ Nat.eq_dec rest x)); lra). ring.
    - exists (ofx (xlog (mfm_V series m n (t + 1) / mfm_V series m n t * mf_gam m))). cbn [mass_new with_mfm]. rewrite A2. cbn [rbind]. split; [reflexivity|].
      intros x Hx. unfold guarded. rewrite gibbs_new by assumption. fold t. fold pr. replace (S (length rest)) with n by lia. rewrite V_guard_eq by lia. rewrite Hval.
      replace (S t) with (t + 1)%nat by lia. rewrite xexp_log; [field; lra|]. left. apply Rmult_lt_0_compat; [now apply Rdiv_lt_0_compat|assumption].
  Qed.
End Weights.

Lemma mfm_neal3_weights : forall series (I : Iface) (L : laws I) (ofx : xreal -> W I) data covs (val : W I -> R) M (a : alg (with_mfm series I ofx)) i,
  rows_ok I data (at_ covs) -> (forall x y, val (wadd I x y) = val x * val y) -> (forall x, val (ofx x) = xexp x) ->
  conj I = true -> other_draw I = None -> (2 <= length data)%nat -> (Z.of_nat (length data) <= 2 ^ 32)%Z -> (i < length data)%nat ->
  proper (length data) (a_alloc a) (view (a_uv a)) -> @caches_ok (with_mfm series I ofx) data covs (a_uv a) ->
  (forall h, In h (a_uv a) -> @saved_matches (with_mfm series I ofx) data covs (a_hyp a) h) ->
  mfm_valid (a_mix a) -> computed series (a_mix a) (length data) -> marginal_likelihood I data covs val (a_hyp a) M ->
  ~ NoDup (del (a_alloc a) i) ->
  exists a1 pm lk C,
    @unassign (with_mfm series I ofx) data true (at_ covs) i a = Ok a1 /\ @neal2_prior_mass (with_mfm series I ofx) data a1 = Ok pm /\
    @neal3_lpdf (with_mfm series I ofx) data covs a1 i = Ok lk /\ length (wsum (with_mfm series I ofx) pm lk) = S (length (a_uv a1)) /\ 0 < C /\
    (forall r, @neal_step (with_mfm series I ofx) data covs true (@neal3_lpdf (with_mfm series I ofx) data covs) (a, r) i =
       ('(c, r1) <- cat (with_mfm series I ofx) (wsum (with_mfm series I ofx) pm lk) r ;; @assign (with_mfm series I ofx) data true (at_ covs) i c a1 r1)) /\
    forall c w r, nth_error (wsum (with_mfm series I ofx) pm lk) c = Some w ->
    exists a' r', @assign (with_mfm series I ofx) data true (at_ covs) i c a1 r = Ok (a', r') /\
      val w = C * posterior (fun al => gibbs_type (mfm_V series (a_mix a)) (mf_gam (a_mix a)) (sizes_of al)) M (a_alloc a').
Proof.
  intros series I L ofx data covs val M a i Hrows Hv Hx Hcj Hod Hn HZ Hi Hp Hc Hs Hm Hcp HML Hd.
  set (J := with_mfm series I ofx) in *.
  destruct (neal3_weights_at J (mfm_laws series I L ofx) data covs Hrows val Hv Hcj Hod a i (guarded series (a_mix a)) M Hn Hi) as
    (al & uv & pm & lk & C & Eu & HL & HS & HC & Ep & El & HCp & Ew & Ea); auto.
  { split; [split; auto|auto]. } { apply guarded_prior; auto. }
  { intros rest Hr Hrc. apply (mfm_mass_at series I ofx val Hx (a_mix a) Hm (length data) Hn HZ Hcp rest Hr). intro N. apply Hd. exact (canon_nodup rest _ (eq_sym Hrc) N). }
  assert (Lw : length (wsum J pm lk) = S (length uv)).
  { rewrite <- (map_length val). transitivity (length (map (fun c => C * posterior (guarded series (a_mix a)) M (upd al i c)) (seq 0 (S (length uv))))); [now f_equal|]. now rewrite map_length, seq_length. }
  exists (set_uv (set_alloc a al) uv), pm, lk, C. split; auto. split; auto. split; auto. split; [exact Lw|]. split; auto.
  split.
  - intros r. unfold neal_step. rewrite Eu. cbn [rbind]. rewrite Ep. cbn [rbind]. rewrite El. cbn [rbind]. reflexivity.
  - intros c w r Hw. assert (Hcl : (c < S (length uv))%nat) by (rewrite <- Lw; apply nth_error_Some; congruence).
    destruct (Ea c r ltac:(lia)) as (uv' & r' & E & _). eexists _, r'. split; [exact E|]. cbn [a_alloc set_uv set_alloc].
    assert (E2 : nth_error (map val (wsum J pm lk)) c = Some (val w)) by (exact (map_nth_error val c _ Hw)).
    assert (E3 : nth_error (map (fun c => C * posterior (guarded series (a_mix a)) M (upd al i c)) (seq 0 (S (length uv)))) c = Some (val w)) by (rewrite <- E2; now f_equal).
    rewrite nth_error_map, (nth_error_nth' _ 0%nat) in E3 by (rewrite seq_length; lia).
    rewrite seq_nth in E3 by lia. simpl in E3. injection E3 as <-. unfold posterior.
    rewrite (guarded_eq series (a_mix a) Hm (length data) Hn HZ Hcp) by (rewrite upd_length; exact HL). reflexivity.
Qed.

Lemma mfm_neal2_weights : forall series (I : Iface) (L : laws I) (ofx : xreal -> W I) data covs (val : W I -> R) (a : alg (with_mfm series I ofx)) i y cv,
  rows_ok I data (at_ covs) -> (forall x y, val (wadd I x y) = val x * val y) -> (forall x, val (ofx x) = xexp x) ->
  (2 <= length data)%nat -> (Z.of_nat (length data) <= 2 ^ 32)%Z -> (i < length data)%nat ->
  proper (length data) (a_alloc a) (view (a_uv a)) -> @caches_ok (with_mfm series I ofx) data covs (a_uv a) ->
  mfm_valid (a_mix a) -> computed series (a_mix a) (length data) ->
  at_ data i = Ok y -> at_ covs i = Ok cv -> ~ NoDup (del (a_alloc a) i) ->
  exists a1 pm lk C,
    @unassign (with_mfm series I ofx) data false (at_ covs) i a = Ok a1 /\ @neal2_prior_mass (with_mfm series I ofx) data a1 = Ok pm /\
    @neal2_lpdf (with_mfm series I ofx) data covs a1 i = Ok lk /\ length (wsum (with_mfm series I ofx) pm lk) = S (length (a_uv a1)) /\ 0 < C /\
    (forall r, @neal_step (with_mfm series I ofx) data covs false (@neal2_lpdf (with_mfm series I ofx) data covs) (a, r) i =
       ('(c, r1) <- cat (with_mfm series I ofx) (wsum (with_mfm series I ofx) pm lk) r ;; @assign (with_mfm series I ofx) data false (at_ covs) i c a1 r1)) /\
    forall c w r, nth_error (wsum (with_mfm series I ofx) pm lk) c = Some w ->
    exists a' r', @assign (with_mfm series I ofx) data false (at_ covs) i c a1 r = Ok (a', r') /\
      exists f, val w = C * gibbs_type (mfm_V series (a_mix a)) (mf_gam (a_mix a)) (sizes_of (a_alloc a')) * f /\
        ((c < length (a_uv a1))%nat -> exists st, param a' i = Some st /\ f = val (like_lpdf I st y cv)) /\
        (c = length (a_uv a1) -> f = val (marg_lpdf I (a_hyp a) y cv)).
Proof.
  intros series I L ofx data covs val a i y cv Hrows Hv Hx Hn HZ Hi Hp Hc Hm Hcp Ey Ecv Hd.
  set (J := with_mfm series I ofx) in *.
  destruct (neal2_weights_at J (mfm_laws series I L ofx) data covs Hrows val Hv a i (guarded series (a_mix a)) y cv Hn Hi) as
    (a1 & pm & lk & C & Eu & Ep & El & Lw & HC & Hw); auto.
  { split; auto. } { apply guarded_prior; auto. }
  { intros rest Hr Hrc. apply (mfm_mass_at series I ofx val Hx (a_mix a) Hm (length data) Hn HZ Hcp rest Hr). intro N. apply Hd. exact (canon_nodup rest _ (eq_sym Hrc) N). }
  exists a1, pm, lk, C. split; auto. split; auto. split; auto. split; auto. split; auto. split.
  - intros r. unfold neal_step. rewrite Eu. cbn [rbind]. rewrite Ep. cbn [rbind]. rewrite El. cbn [rbind]. reflexivity.
  - intros c w r Hcw. destruct (Hw c w r Hcw) as (a' & r' & E & f & Ef & Hf). exists a', r'. split; auto. exists f. split; [|exact Hf].
    rewrite Ef. unfold J. rewrite (guarded_eq series (a_mix a) Hm (length data) Hn HZ Hcp); [reflexivity|].
    assert (Hg : @GInv J data covs false a) by (apply GInv_iff; split; auto).
    destruct Hg as (HL & HI & Hne).
    destruct (@unassign_ok J (mfm_laws series I L ofx) data (at_ covs) Hrows false (uhp_false J) false (fun H => H) a i HL Hi HI Hne) as (al & uv & Eu' & HL1 & HI1 & Hne1 & _).
    pose proof (eq_trans (eq_sym Eu) Eu') as X0. injection X0 as ->.
    assert (Hcl : (c <= length uv)%nat).
    { assert (c < S (length uv))%nat; [|lia]. change (length uv) with (length (a_uv (set_uv (set_alloc a al) uv))). rewrite <- Lw. apply nth_error_Some. congruence. }
    destruct (choice_labels J (mfm_laws series I L ofx) data covs Hrows false false (uhp_false J) (fun H => H) (set_uv (set_alloc a al) uv) i c r Hn HL1 Hi HI1 Hne1 Hcl) as (uv' & r2 & E2 & _).
    pose proof (eq_trans (eq_sym E2) E) as X. injection X as X _. rewrite <- X. cbn. now rewrite upd_length.
Qed.
