(** * What density evaluation leaves behind in the mixing object. *)
From Coq Require Import String.
From Coq Require Import List Arith ZArith Bool Lia Reals Lra.
From Verif Require Import Base XReal Mixings Collect Utils UtilsFacts Eval EvalFacts.
Import ListNotations.
Local Open Scope R_scope.

(** A Dirichlet process with fixed mass [M]: before any evaluation a new cluster
    weighs 1, after an evaluation it weighs [M]. *)
Theorem dp_trace : forall St Pt (like : St -> Pt -> xreal) M s0 uv comp (sv : saved St R) grid n k, uv <> [] -> saved_ok St sv -> 0 < M ->
  dp_init (DPFixed M) dp_make_shared = Ok s0 -> sv_mix sv = M ->
  exists out s1, marg_eval like dp_mixer uv comp sv grid s0 = Ok (out, s1) /\ dp_tot s1 = dp_tot s0 /\
    dp_mass_new s0 n k true true = Ok (Fin 0) /\ dp_mass_new s1 n k true true = Ok (Fin (ln M)) /\
    dp_init (DPFixed M) s1 = Ok s1 /\ (Fin 0 = Fin (ln M) <-> M = 1).
Proof.
  intros St Pt like M s0 uv comp sv grid n k U S HM I0 E.
  assert (L : lteb M 0 = false). { unfold lteb. destruct (Rle_dec M 0); [lra|reflexivity]. }
  unfold dp_init in *. rewrite L in *. injection I0 as <-.
  destruct (dp_density St Pt like uv comp sv grid (mkDp M (dp_log dp_make_shared)) U S ltac:(rewrite E; exact HM)) as (out & Ev & _).
  rewrite E in Ev. exists out, (mkDp M (Some (Fin (ln M)))). split; [exact Ev|]. repeat split.
  - intros H. injection H as H. rewrite <- ln_1 in H. apply ln_inv; lra.
  - intros ->. rewrite ln_1. reflexivity.
Qed.

Section Mfm.
  Variable series : R -> R -> R -> nat -> nat -> R.
  Hypothesis nonneg : forall l g C t n, 0 <= series l g C t n.
  (** [C] after [init_V_C] called with [n]. *)
  Definition C_of (l g : R) (n : nat) : R := mf_C (mfm_init_VC (S n) (mkMfm l g None 0)).

  Lemma gtb_nonneg : forall v, 0 <= v -> gtb 0 v = false.
  Proof. intros v H. unfold gtb. destruct (Rlt_dec v 0); [lra|reflexivity]. Qed.
  Lemma gtb_neg : gtb 0 (-1) = true. Proof. unfold gtb. destruct (Rlt_dec (-1) 0); [reflexivity|lra]. Qed.

  Lemma fresh_two : forall l g c n k, (k + 1 <= n)%nat ->
    exists s1 s2, mfm_get_V series k n (mkMfm l g None c) = Ok (series l g (C_of l g n) k (S n), s1) /\
      mfm_get_V series (k + 1) n s1 = Ok (series l g (C_of l g n) (k + 1) (S n), s2) /\
      mf_lam s2 = l /\ mf_gam s2 = g /\
      exists tab, mf_tab s2 = Some tab /\ length tab = S n /\
        nth_error tab k = Some (series l g (C_of l g n) k (S n)) /\ nth_error tab (k + 1) = Some (series l g (C_of l g n) (k + 1) (S n)).
  Proof.
    intros l g c n k H. unfold mfm_get_V at 1. cbn [mf_tab]. unfold mfm_init_VC at 1. cbn [mf_tab].
    assert (A : forall j, (j < S n)%nat -> nth_error (repeat (-1) (S n)) j = Some (-1)) by (intros; apply nth_error_repeat; assumption).
    unfold at_ at 1. rewrite A by lia. cbn [rbind]. rewrite gtb_neg. do 2 eexists. split; [reflexivity|].
    unfold mfm_get_V. cbn [mf_tab]. unfold at_.
    rewrite nth_error_upd_other by lia. rewrite A by lia. cbn [rbind]. rewrite gtb_neg.
    split; [reflexivity|]. split; [reflexivity|]. split; [reflexivity|].
    eexists. split; [reflexivity|]. split; [rewrite !upd_length, repeat_length; reflexivity|].
    split.
    - rewrite nth_error_upd_other by lia. apply nth_error_upd_same. rewrite repeat_length. lia.
    - apply nth_error_upd_same. rewrite upd_length, repeat_length. lia.
  Qed.

  (** The ratio of coefficients of a new cluster among [n] observations in [k]
      clusters, for an object that has not computed any. *)
  Definition fresh_ratio (l g : R) (n k : nat) : R :=
    series l g (C_of l g n) (k + 1) (S n) / series l g (C_of l g n) k (S n).

  Lemma mass_new_fresh : forall l g c n k, (k + 1 <= n)%nat -> exists s,
    mfm_mass_new series n k true true (mkMfm l g None c) = Ok (xlog (fresh_ratio l g n k * g), s) /\
    mf_lam s = l /\ mf_gam s = g /\
    exists tab, mf_tab s = Some tab /\ length tab = S n /\
        nth_error tab k = Some (series l g (C_of l g n) k (S n)) /\ nth_error tab (k + 1) = Some (series l g (C_of l g n) (k + 1) (S n)).
  Proof.
    intros l g c n k H. destruct (fresh_two l g c n k H) as (s1 & s2 & E1 & E2 & L & G & T). exists s2. unfold mfm_mass_new.
    rewrite E1. cbn [rbind]. rewrite E2. cbn [rbind]. cbv zeta. rewrite G. auto.
  Qed.

  (** After a sampling step with [m] observations in [k] clusters, the weight
      of a new cluster for any other number [n] of observations still comes from
      the coefficients of [m]. *)
  Theorem mfm_stale : forall l g c m n k, (k + 1 <= m)%nat -> (k + 1 <= n)%nat -> exists w s,
    mfm_mass_new series m k true true (mkMfm l g None c) = Ok (w, s) /\
    (exists s', mfm_mass_new series n k true true (mfm_load l g s) = Ok (xlog (fresh_ratio l g m k * g), s')) /\
    (exists s', mfm_mass_new series n k true true (mkMfm l g None c) = Ok (xlog (fresh_ratio l g n k * g), s')).
  Proof.
    intros l g c m n k Hm Hn. destruct (mass_new_fresh l g c m k Hm) as (s & E & L & G & tab & T & Len & T1 & T2).
    eexists. exists s. split; [exact E|]. split.
    - exists (mfm_load l g s). unfold mfm_mass_new.
      rewrite (get_V_read series k n (mfm_load l g s) tab _ T T1 (nonneg _ _ _ _ _)). cbn [rbind].
      rewrite (get_V_read series (k + 1) n (mfm_load l g s) tab _ T T2 (nonneg _ _ _ _ _)). cbn [rbind]. reflexivity.
    - destruct (mass_new_fresh l g c n k Hn) as (s' & E' & _). exists s'. exact E'.
  Qed.

  (** A state with as many clusters as one less than the observations: a fresh
      object evaluates it, the object used for sampling reads out of range. *)
  Theorem mfm_stale_ub : forall l g c m k, (k + 1 <= m)%nat -> exists w s,
    mfm_mass_new series m k true true (mkMfm l g None c) = Ok (w, s) /\
    mfm_mass_new series (S m) m true true (mfm_load l g s) = UB /\
    exists r, mfm_mass_new series (S m) m true true (mkMfm l g None c) = Ok r.
  Proof.
    intros l g c m k Hm. destruct (mass_new_fresh l g c m k Hm) as (s & E & L & G & tab & T & Len & _).
    eexists. exists s. split; [exact E|]. split.
    - unfold mfm_mass_new.
      assert (B : forall v s', mfm_get_V series m (S m) (mfm_load l g s) = Ok (v, s') -> mfm_get_V series (m + 1) (S m) s' = UB).
      { intros v s' H. unfold mfm_get_V in H. cbn [mf_tab mfm_load] in H. rewrite T in H. cbn [mf_tab mfm_load] in H. rewrite T in H. unfold at_ in H.
        destruct (nth_error tab m) as [x|]; [|discriminate]. cbn [rbind] in H.
        assert (Q : exists t', mf_tab s' = Some t' /\ length t' = S m).
        { destruct (gtb 0 x); injection H as <- <-; cbn [mf_tab mfm_load]; eexists; (split; [first [reflexivity|exact T]|]); rewrite ?upd_length; exact Len. }
        destruct Q as (t' & T' & Len'). unfold mfm_get_V. rewrite T'. rewrite T'. unfold at_. rewrite (proj2 (nth_error_None t' (m + 1))) by lia. reflexivity. }
      destruct (mfm_get_V series m (S m) (mfm_load l g s)) as [[v s']|?|?|] eqn:Q; cbn [rbind].
      + rewrite (B _ _ eq_refl). reflexivity.
      + exfalso. unfold mfm_get_V in Q. cbn [mf_tab mfm_load] in Q. rewrite T in Q. cbn [mf_tab mfm_load] in Q. rewrite T in Q. unfold at_ in Q.
        destruct (nth_error tab m) as [x|]; cbn [rbind] in Q; [destruct (gtb 0 x)|]; discriminate.
      + exfalso. unfold mfm_get_V in Q. cbn [mf_tab mfm_load] in Q. rewrite T in Q. cbn [mf_tab mfm_load] in Q. rewrite T in Q. unfold at_ in Q.
        destruct (nth_error tab m) as [x|]; cbn [rbind] in Q; [destruct (gtb 0 x)|]; discriminate.
      + reflexivity.
    - destruct (mass_new_fresh l g c (S m) m ltac:(lia)) as (s' & E' & _). eexists. exact E'.
  Qed.
End Mfm.
