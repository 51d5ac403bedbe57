(** * C119: complete programs of the split-and-merge algorithm on univariate data. *)
From Coq Require Import Bool List Arith ZArith Reals Lra Lia.
From Verif Require Import Base Hier Algos SplitMerge Run Spec MargFacts NealFacts MargMore InitFacts MargProps SMFacts SMProps ValidRun UnivRun CovInst CovRun SMInst SMRun.
From Verif Require Import PartSpec XReal Mixings MixFacts Univ UnivFacts UnivInit RealInst RealFacts UnivInst.
From Verif Require Import Eval EvalFacts EvalInt GaussInt GammaInt UnivInt GamFacts P_MargInt P_Esc SMReal P_Valid.
Import ListNotations.
Local Open Scope R_scope.

Lemma mixing_sm_masses : forall m k j, mixing_valid m ->
  (forall c, (1 <= c)%Z -> exists w, mixing_mass_ex m k j c = Ok w) /\ exists w, mixing_mass_new m k j = Ok w.
Proof.
  intros [p s|p s] k j V; cbn [mixing_mass_ex mixing_mass_new].
  - destruct V as (_ & (l & El) & _). split; [intros; unfold dp_mass_ex; eauto|]. unfold dp_mass_new. rewrite El. eauto.
  - split; [intros; unfold py_mass_ex; eauto|]. unfold py_mass_new. eauto.
Qed.
Lemma nnig_sm_valid : forall G p data m, mixing_valid m -> @sm_masses_ok (nnig_iface lgam G p) data m.
Proof.
  intros G p data m V. split; [exact (mixing_masses m _ V)|]. split; [intros k c _ Hc; exact (proj1 (mixing_sm_masses m k 2 V) c Hc)|exact (proj2 (mixing_sm_masses m _ 2 V))].
Qed.

(** ** Normal likelihood, normal-inverse-gamma prior: the saved states *)
Theorem C119_normal : forall G p mp data k pos st n_restr n_mh n_full maxiter burnin r s out,
  gen_ok G -> gen_pos G -> (2 <= length data)%nat -> fits k pos (length data) ->
  sm_run (nnig_iface lgam G p) (nig_init p) (mixing_start mp) data (repeat tt (length data)) k pos st n_restr n_mh n_full maxiter burnin r = Ok (s, out) ->
  length out = (maxiter - burnin)%nat /\ forall snap, In snap out ->
    state_ok valid (length data) (s_alloc snap) (s_clusters snap) (s_hyp snap) (s_mix snap) /\
    evaluated_density (fin_like norm_lpdf) (fun y => Fin (nnig_marg_lpdf lgam (s_hyp snap) y)) (length data) (s_clusters snap) (s_mix snap).
Proof.
  intros G p mp data k pos st n_restr n_mh n_full maxiter burnin r s out HG HP Hn [Hk Hpos] R.
  destruct (nig_init p) as [hy| | |] eqn:Eh; [|unfold sm_run, cov_start, run in R; destruct (mixing_start mp); cbn [rbind] in R; discriminate..].
  destruct (sm_saved_ (nnig_iface lgam G p) (nnig_laws lgam G p HG) data (repeat tt (length data)) (nnig_covs0 lgam G p data) (nnig_no_cov lgam G p data) eq_refl eq_refl Hn valid ls_valid mixing_valid
    (nnig_closed lgam G p data HP (nig_prior_checked p hy Eh)) (nnig_sm_valid G p data)
    (Ok hy) (mixing_start mp) k pos st n_restr n_mh n_full maxiter burnin r s out) as [L K];
    [intros h E; injection E as <-; exact (nig_init_valid p hy Eh)|exact (mixing_start_valid mp)|exact Hk|exact Hpos|exact R|].
  split; [exact L|]. intros snap Hin. pose proof (K snap Hin) as V. pose proof (clusters_nonempty (nnig_iface lgam G p) data valid ls_valid mixing_valid snap ltac:(lia) V) as N.
  destruct V as (C & H & M & A & uv & P & E). split; [split; [exact C|]; split; [exact H|]; split; [exact M|exact A]|].
  apply predictive_density; [exact H|exact M| |exact N|exact A]. pose proof (proper_saved (nnig_iface lgam G p) data (s_alloc snap) uv unit tt P) as Q. rewrite <- E in Q. exact Q.
Qed.
Print Assumptions C119_normal.

(** ** With fixed parameters of the mixing, two observations are enough for the program to end normally *)
Theorem C119_normal_ends : forall G p hy mp data k pos st n_restr n_mh n_full maxiter burnin r,
  gen_ok G -> nig_init p = Ok hy -> prior_fixed mp -> (2 <= length data)%nat -> fits k pos (length data) ->
  exists s out, sm_run (nnig_iface lgam G p) (nig_init p) (mixing_start mp) data (repeat tt (length data)) k pos st n_restr n_mh n_full maxiter burnin r = Ok (s, out).
Proof.
  intros G p hy mp data k pos st n_restr n_mh n_full maxiter burnin r HG Eh Hp Hn [Hk Hpos]. destruct (prior_fixed_start mp Hp) as (m & -> & Hm). rewrite Eh.
  apply (sm_complete_ (nnig_iface lgam G p) (nnig_laws lgam G p HG) data (repeat tt (length data)) (nnig_covs0 lgam G p data) (nnig_no_cov lgam G p data) eq_refl eq_refl Hn hy m k pos st mixing_fixed); auto.
  - intros x [V _]. now apply nnig_sm_valid.
  - intros x cards al q F. exact (mixing_fixed_update G x cards al q F).
Qed.
Print Assumptions C119_normal_ends.

(** ** With any accepted prior it ends normally or by an exception *)
Theorem C119_normal_never_undefined : forall G p mp data k pos st n_restr n_mh n_full maxiter burnin r,
  gen_ok G -> gen_pos G -> (2 <= length data)%nat -> fits k pos (length data) ->
  ends (sm_run (nnig_iface lgam G p) (nig_init p) (mixing_start mp) data (repeat tt (length data)) k pos st n_restr n_mh n_full maxiter burnin r).
Proof.
  intros G p mp data k pos st n_restr n_mh n_full maxiter burnin r HG HP Hn [Hk Hpos].
  assert (E0 : (exists msg, mixing_start mp = Throw msg) \/ exists m, mixing_start mp = Ok m).
  { destruct mp as [[t|a b|]|[t d|]]; cbn [mixing_start dp_init py_init]; repeat match goal with |- context [if ?c then _ else _] => destruct c end; cbn [rbind]; eauto. }
  destruct E0 as [(msg & Em)|(m & Em)]; rewrite Em.
  { unfold sm_run, cov_start, run, ends. cbn [rbind]. eauto. }
  assert (E1 : (exists msg, nig_init p = Throw msg) \/ exists hy, nig_init p = Ok hy).
  { destruct p; cbn [nig_init]; unfold nig_check; repeat match goal with |- context [if ?c then _ else _] => destruct c end; eauto. }
  destruct E1 as [(msg & Eh)|(hy & Eh)]; rewrite Eh.
  { unfold sm_run, cov_start, run, ends. cbn [rbind]. eauto. }
  apply (sm_ends_ (nnig_iface lgam G p) (nnig_laws lgam G p HG) data (repeat tt (length data)) (nnig_covs0 lgam G p data) (nnig_no_cov lgam G p data) eq_refl eq_refl Hn hy m k pos st mixing_valid); auto.
  - intros x V. now apply nnig_sm_valid.
  - intros x cards al q _. apply mixing_update_ends.
  - intros x cards al q x' q' V E. exact (mixing_update_valid G x cards al q x' q' HP V E).
  - exact (mixing_start_valid mp m Em).
Qed.
Print Assumptions C119_normal_never_undefined.

(** ** A single observation: an exception with Metropolis-Hastings steps, undefined
    behaviour with full Gibbs scans only, in the first iteration *)
Theorem C119_single : forall G p hy mp m data k pos st n_restr n_mh n_full maxiter burnin r,
  gen_ok G -> nig_init p = Ok hy -> mixing_start mp = Ok m -> length data = 1%nat -> fits k pos (length data) -> (1 <= maxiter)%nat ->
  ((1 <= n_mh)%nat -> exists msg, sm_run (nnig_iface lgam G p) (nig_init p) (mixing_start mp) data (repeat tt (length data)) k pos st n_restr n_mh n_full maxiter burnin r = Throw msg) /\
  ((1 <= n_full)%nat -> sm_run (nnig_iface lgam G p) (nig_init p) (mixing_start mp) data (repeat tt (length data)) k pos st n_restr 0 n_full maxiter burnin r = UB).
Proof.
  intros G p hy mp m data k pos st n_restr n_mh n_full maxiter burnin r HG Eh Em Hn [Hk Hpos] Hx. rewrite Eh, Em.
  pose proof (mixing_masses m (length data) (mixing_start_valid mp m Em)) as Hm. split; intro Hy.
  - exact (single_throws (nnig_iface lgam G p) (nnig_laws lgam G p HG) data (repeat tt (length data)) (nnig_rows lgam G p data) eq_refl eq_refl hy m k pos st Hm Hk Hpos n_restr n_mh n_full maxiter burnin r Hn Hy Hx).
  - exact (single_undefined (nnig_iface lgam G p) (nnig_laws lgam G p HG) data (repeat tt (length data)) (nnig_rows lgam G p data) eq_refl eq_refl hy m k pos st Hm Hk Hpos n_restr n_full maxiter burnin r Hn Hy Hx).
Qed.
Print Assumptions C119_single.

(** Non-vacuity: four observations, two initial clusters, moves and full scans. *)
Example C119_example : exists s out,
  sm_run (nnig_iface lgam g1 (NIGNgg 0 1 2 2 3 3 2)) (nig_init (NIGNgg 0 1 2 2 3 3 2)) (mixing_start (PriPY (PYFixed 1 (/ 2)))) [0; 1; 5; 7] (repeat tt 4) 2 (fun i => i mod 2)
    (mkLS 0 0) 3 2 1 5 2 0%nat = Ok (s, out) /\ length out = 3%nat /\ forall snap, In snap out ->
    state_ok valid 4 (s_alloc snap) (s_clusters snap) (s_hyp snap) (s_mix snap) /\
    evaluated_density (fin_like norm_lpdf) (fun y => Fin (nnig_marg_lpdf lgam (s_hyp snap) y)) 4 (s_clusters snap) (s_mix snap).
Proof.
  assert (F : fits 2 (fun i => i mod 2) 4) by (split; [lia|]; intro i; apply (Nat.mod_upper_bound i 2); discriminate).
  assert (E : nig_init (NIGNgg 0 1 2 2 3 3 2) = Ok (mkNIG 0 (2 / 2) 2 (3 / 3))) by (unfold nig_init; rewrite !(proj2 (lteb_false _ _)) by lra; reflexivity).
  destruct (C119_normal_ends g1 _ _ (PriPY (PYFixed 1 (/ 2))) [0; 1; 5; 7] 2 (fun i => i mod 2) (mkLS 0 0) 3 2 1 5 2 0%nat (proj1 g1_ok) E ltac:(cbn; lra) ltac:(cbn; lia) F) as (s & out & R).
  exists s, out. split; [exact R|].
  refine (C119_normal g1 _ _ [0; 1; 5; 7] _ _ _ _ _ _ 5 2 _ s out (proj1 g1_ok) (proj2 g1_ok) _ F R). cbn. lia.
Qed.
Example C119_example_single : exists msg,
  sm_run (nnig_iface lgam g1 (NIGFixed 0 1 2 2)) (nig_init (NIGFixed 0 1 2 2)) (mixing_start (PriDP (DPFixed 1))) [3] (repeat tt 1) 1 (fun _ => 0%nat) (mkLS 0 0) 3 2 1 5 2 0%nat = Throw msg.
Proof.
  assert (E : nig_init (NIGFixed 0 1 2 2) = Ok (mkNIG 0 1 2 2)) by (unfold nig_init, nig_check; cbn [ng_vs ng_shape ng_scale]; rewrite !(proj2 (lteb_false _ _)) by lra; reflexivity).
  destruct (prior_fixed_start (PriDP (DPFixed 1)) ltac:(cbn; lra)) as (m & Em & _).
  refine (proj1 (C119_single g1 (NIGFixed 0 1 2 2) _ (PriDP (DPFixed 1)) m [3] 1 (fun _ => 0%nat) (mkLS 0 0) 3 2 1 5 2 0%nat (proj1 g1_ok) E Em eq_refl _ _) _); [split; [cbn; lia|intro; cbn; lia]|lia|lia].
Qed.
