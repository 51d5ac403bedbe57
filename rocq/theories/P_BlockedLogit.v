(** * C114, second part: blocked Gibbs with the logit stick-breaking mixing. *)
From Coq Require Import String.
From Coq Require Import Bool List Arith ZArith Reals Lra Lia.
From Coquelicot Require Import Coquelicot.
From Verif Require Import Base Hier Algos Run Spec MargFacts NealFacts MargMore InitFacts MargProps ValidRun.
From Verif Require Import PartSpec XReal Stick Cond CondFacts CondProps Mixings MixFacts Univ UnivFacts UnivInit RealInst RealFacts UnivInst UnivRun.
From Verif Require Import Eval EvalFacts EvalInt GaussInt GammaInt DistFacts UnivInt GamFacts P_MargInt P_Valid.
From Verif Require Import Multi LogitLib LogitLibFacts LogitUp LogitUpFacts P_Logit CondInst CondLgInst CondRun CondLogit P_Blocked.
Import ListNotations.
Local Open Scope R_scope.

(** The total weight at [x] of the components of a mixing with coefficients
    [cols]: what the sticks leave, times one minus the logistic function at one,
    is lost. *)
Definition logit_mass (cols : list (list R)) (x : list R) : R :=
  1 - (1 - logistic 1) * fold_right Rmult 1 (map (fun b => 1 - logistic (dot x b)) cols).

Lemma logit_mass_eq : forall cols x, logit_mass cols x = 1 - (1 - sigmoid 1) * fold_right Rmult 1 (map (fun b => 1 - sigmoid (dot x b)) cols).
Proof. intros cols x. unfold logit_mass. rewrite logistic_sigmoid. do 3 f_equal. apply map_ext. intro b. now rewrite logistic_sigmoid. Qed.

Lemma lg_snap_mass : forall f n p mean labels (clusters : list (uni_ls * Z)) m x, univariate_like f -> saved_components n (lp_H p) labels clusters ->
  (forall q, In q clusters -> ls_valid (fst q)) -> lg_good p mean m -> length x = length mean ->
  evaluated_mass (fin_like f) clusters (lg_logweights m x) (logit_mass (lg_cols m) x) /\ 0 < logit_mass (lg_cols m) x < 1 /\
  length (lg_logweights m x) = lp_H p /\ List.Forall (fun w => 0 < w) (map xexp (lg_logweights m x)).
Proof.
  intros f n p mean labels clusters m x Hf (_ & Lc & _) A (O & _ & EH) Hx.
  destruct (lg_mass mean m x O Hx) as (P & S & T). rewrite logit_mass_eq, <- S.
  pose proof (lg_logweights_length mean m x O Hx) as Ll. rewrite EH in Ll. split; [|split; [|split; [exact Ll|exact P]]].
  - intros uv U.
    apply (cond_mass R is_line_int line_ext line_plus line_scal line_zero uni_ls _ (fun s => 0 < ls_var s) (fin_like_int f Hf) uv _ (map fst clusters) U).
    + rewrite map_length. exact (eq_trans Lc (eq_sym Ll)).
    + intros s Hs. apply in_map_iff in Hs. destruct Hs as (q & <- & Hq). now apply A.
  - split; [|exact T]. pose proof (lo_H O). rewrite <- EH in *. clear S T.
    assert (N : map xexp (lg_logweights m x) <> []). { intro E. apply (f_equal (@length R)) in E. rewrite map_length, Ll in E. cbn in E. lia. }
    revert P N. generalize (map xexp (lg_logweights m x)) as l. induction l as [|a l IH]; intros P N; [congruence|]. cbn [fold_right].
    pose proof (List.Forall_inv P). cbn beta in *. destruct l as [|b l]; [cbn; lra|]. specialize (IH (List.Forall_inv_tail P) ltac:(discriminate)). lra.
Qed.

Theorem C114_logit : forall G (M : mgen G) ph hy p mean var m rows data pos st maxiter burnin r,
  gen_ok G -> gen_pos G -> nig_init ph = Ok hy -> lp_normal p = Some (mean, var) -> lg_init p = Ok m ->
  length rows = length data -> (forall x, In x rows -> length x = length mean) ->
  (lp_H p <= length data)%nat -> (forall i, (pos i < lp_H p)%nat) ->
  exists s out, blocked_run (lg_iface (nnig_iface lgam G ph) (fun w => w) rows (fun s al r => lg_update M p rows al (s, r)))
      (nig_init ph) (lg_init p) lg_H data pos st maxiter burnin r = Ok (s, out) /\
  length out = (maxiter - burnin)%nat /\ forall snap, In snap out -> forall x, length x = length mean ->
    blocked_state_ok valid (length data) (lp_H p) (s_alloc snap) (s_clusters snap) (s_hyp snap) (map xexp (lg_logweights (Run.s_mix snap) x)) /\
    evaluated_mass (fin_like norm_lpdf) (s_clusters snap) (lg_logweights (Run.s_mix snap) x) (logit_mass (lg_cols (Run.s_mix snap)) x) /\
    0 < logit_mass (lg_cols (Run.s_mix snap)) x < 1.
Proof.
  intros G M ph hy p mean var m rows data pos st maxiter burnin r HG HP Eh Hn Em Hr Hx Hle Hpos. rewrite Eh, Em.
  destruct (lg_start p mean var m Hn Em) as (Gm & Hst & H1).
  destruct (lg_program (nnig_iface lgam G ph) (nnig_laws lgam G ph HG) (fun w => w) data (nnig_rows lgam G ph data) valid ls_valid mixing_valid
    (nnig_closed lgam G ph data HP (nig_prior_checked ph hy Eh)) (fun s al r => lg_update M p rows al (s, r)) p mean rows m (Logic.conj Hr Hx)
    (fun s al r Hs Hc => lg_up_good G M p mean var rows al s r Hn Hst Hs Hc) hy (nig_init_valid ph hy Eh) (Logic.conj H1 Hle) pos Hpos st Gm maxiter burnin r) as (s & out & R & L & K).
  exists s, out. split; [exact R|]. split; [exact L|]. intros snap Hin x Lx. destruct (K snap Hin) as (A & B & C & D).
  destruct (lg_snap_mass norm_lpdf (length data) p mean _ _ _ x (or_introl eq_refl) A C D Lx) as (Q1 & Q2 & Q3 & Q4).
  split; [|split; [exact Q1|exact Q2]]. split; [exact A|]. split; [exact B|]. split; [exact C|]. split; [rewrite map_length; exact Q3|exact Q4].
Qed.
Print Assumptions C114_logit.

(** ** The evaluated function is never a density *)
Theorem C114_logit_never : forall G (M : mgen G) ph hy p mean var m rows data pos st maxiter burnin r s out snap x,
  gen_ok G -> gen_pos G -> nig_init ph = Ok hy -> lp_normal p = Some (mean, var) -> lg_init p = Ok m ->
  length rows = length data -> (forall x, In x rows -> length x = length mean) ->
  (lp_H p <= length data)%nat -> (forall i, (pos i < lp_H p)%nat) ->
  blocked_run (lg_iface (nnig_iface lgam G ph) (fun w => w) rows (fun s al r => lg_update M p rows al (s, r)))
      (nig_init ph) (lg_init p) lg_H data pos st maxiter burnin r = Ok (s, out) -> In snap out -> length x = length mean ->
  ~ evaluated_mass (fin_like norm_lpdf) (s_clusters snap) (lg_logweights (Run.s_mix snap) x) 1.
Proof.
  intros G M ph hy p mean var m rows data pos st maxiter burnin r s out snap x HG HP Eh Hn Em Hr Hx Hle Hpos R Hin Lx N.
  destruct (C114_logit G M ph hy p mean var m rows data pos st maxiter burnin r HG HP Eh Hn Em Hr Hx Hle Hpos) as (s2 & out2 & R2 & _ & K).
  pose proof (eq_trans (eq_sym R) R2) as Q. injection Q as <- <-. destruct (K snap Hin x Lx) as (_ & Q & B).
  pose proof (mass_unique _ _ _ _ _ N Q). lra.
Qed.
Print Assumptions C114_logit_never.

Definition m1 : mgen g1 := @mkMgen g1 (fun d _ A r => (A, r)) (fun d _ A r => (A, r)) (fun d m _ r => (m, S r)) (fun d m _ r => (m, S r)).
Definition lp2 : lgprior := mkLP 2 1 (Some ([0; 0], [[4; 0]; [0; 4]])).

(** A run with two components, three data and a covariate each. *)
Example C114_logit_example : exists m s out, lg_init lp2 = Ok m /\
  blocked_run (lg_iface (nnig_iface lgam g1 (NIGFixed 0 1 2 2)) (fun w => w) [[1; 5]; [1; 2]; [1; 0]] (fun s al r => lg_update m1 lp2 [[1; 5]; [1; 2]; [1; 0]] al (s, r)))
    (nig_init (NIGFixed 0 1 2 2)) (lg_init lp2) lg_H [0; 1; 5] (fun i => i mod 2)%nat (mkLS 0 0) 3 1 0%nat = Ok (s, out) /\ length out = 2%nat /\
  forall snap, In snap out -> 0 < logit_mass (lg_cols (Run.s_mix snap)) [1; 3] < 1.
Proof.
  assert (E : nig_init (NIGFixed 0 1 2 2) = Ok (mkNIG 0 1 2 2)) by (cbn [nig_init]; unfold nig_check; cbn; rewrite !(proj2 (lteb_false _ _)) by lra; reflexivity).
  assert (P : forall i, (i mod 2 < 2)%nat) by (intro i; apply Nat.mod_upper_bound; discriminate).
  destruct (C113_initialised lp2 _ _ ltac:(cbn; lia) eq_refl) as [Q _].
  destruct Q as (m & Em & _). { split; [apply lspd_four|]. split; [reflexivity|]. cbn. lra. }
  destruct (C114_logit g1 m1 (NIGFixed 0 1 2 2) _ lp2 _ _ m [[1; 5]; [1; 2]; [1; 0]] [0; 1; 5] (fun i => i mod 2)%nat (mkLS 0 0) 3 1 0%nat (proj1 g1_ok) (proj2 g1_ok) E eq_refl Em
    eq_refl ltac:(cbn; intuition (subst; reflexivity)) ltac:(cbn; lia) P) as (s & out & R & L & K).
  exists m, s, out. split; [exact Em|]. split; [exact R|]. split; [exact L|]. intros snap Hin. exact (proj2 (proj2 (K snap Hin [1; 3] eq_refl))).
Qed.
Theorem C114_logit_density_refuted : exists s out snap,
  blocked_run (lg_iface (nnig_iface lgam g1 (NIGFixed 0 1 2 2)) (fun w => w) [[1; 5]; [1; 2]; [1; 0]] (fun s al r => lg_update m1 lp2 [[1; 5]; [1; 2]; [1; 0]] al (s, r)))
    (nig_init (NIGFixed 0 1 2 2)) (lg_init lp2) lg_H [0; 1; 5] (fun i => i mod 2)%nat (mkLS 0 0) 3 1 0%nat = Ok (s, out) /\ In snap out /\
  ~ evaluated_mass (fin_like norm_lpdf) (s_clusters snap) (lg_logweights (Run.s_mix snap) [1; 3]) 1.
Proof.
  destruct C114_logit_example as (m & s & out & Em & R & L & _). destruct out as [|snap out]; [discriminate|]. exists s, (snap :: out), snap.
  split; [exact R|]. split; [now left|].
  assert (E : nig_init (NIGFixed 0 1 2 2) = Ok (mkNIG 0 1 2 2)) by (cbn [nig_init]; unfold nig_check; cbn; rewrite !(proj2 (lteb_false _ _)) by lra; reflexivity).
  apply (C114_logit_never g1 m1 (NIGFixed 0 1 2 2) _ lp2 [0; 0] [[4; 0]; [0; 4]] m [[1; 5]; [1; 2]; [1; 0]] [0; 1; 5] (fun i => i mod 2)%nat (mkLS 0 0) 3 1 0%nat s (snap :: out) snap [1; 3]
    (proj1 g1_ok) (proj2 g1_ok) E eq_refl Em eq_refl); [cbn; intuition (subst; reflexivity)|cbn; lia|intro i; apply Nat.mod_upper_bound; discriminate|exact R|now left|reflexivity].
Qed.
Print Assumptions C114_logit_density_refuted.
