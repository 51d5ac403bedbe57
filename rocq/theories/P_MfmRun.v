(** * C121, C122: programs with a mixture of finite mixtures. *)
From Coq Require Import String.
From Coq Require Import Bool List Arith ZArith Reals Lra Lia.
From Verif Require Import Base Hier Algos Run Spec MargFacts NealFacts MargMore InitFacts MargProps ValidRun CovInst CovRun.
From Verif Require Import XReal Mixings PartSpec MixFacts MfmFacts Univ UnivFacts UnivInit RealInst RealFacts UnivInst UnivRun.
From Verif Require Import GibbsSpec GibbsComb GibbsPost GibbsFacts GibbsState GammaInt UnivInt MfmInst MfmRun MfmProg MfmGibbs P_Gibbs.
From Verif Require P_Valid.
Import ListNotations.
Local Open Scope R_scope.

(** ** C121 *)

(** The table is filled on demand and outlives the calls that fill it: with the
    same number of observations every later answer is the one of a fresh object. *)
Theorem C121_table_transparent : forall series s n cs s' c, mf_tab s = None -> List.Forall (fun c => call_n c = n) (c :: cs) ->
  rfold (do_call series) cs s = Ok s' -> call_value series s' c = call_value series s c.
Proof. exact calls_transparent. Qed.
Print Assumptions C121_table_transparent.

(** A reallocation is undefined exactly when all other observations are alone. *)
Theorem C121_step : forall series (I : Iface) (L : laws I) (ofx : xreal -> W I) data covs (a : alg (with_mfm series I ofx)) r i,
  rows_ok I data (at_ covs) -> (i < length data)%nat -> mfm_valid (a_mix a) ->
  proper (length data) (a_alloc a) (view (a_uv a)) -> @caches_ok (with_mfm series I ofx) data covs (a_uv a) ->
  ((NoDup (del (a_alloc a) i) -> @neal_step (with_mfm series I ofx) data covs false (@neal2_lpdf (with_mfm series I ofx) data covs) (a, r) i = UB) /\
   ((2 <= length data)%nat -> ~ NoDup (del (a_alloc a) i) -> exists a' r', @neal_step (with_mfm series I ofx) data covs false (@neal2_lpdf (with_mfm series I ofx) data covs) (a, r) i = Ok (a', r') /\
      proper (length data) (a_alloc a') (view (a_uv a')))) /\
  (conj I = true -> other_draw I = None ->
   (NoDup (del (a_alloc a) i) -> @neal_step (with_mfm series I ofx) data covs true (@neal3_lpdf (with_mfm series I ofx) data covs) (a, r) i = UB) /\
   ((2 <= length data)%nat -> ~ NoDup (del (a_alloc a) i) -> exists a' r', @neal_step (with_mfm series I ofx) data covs true (@neal3_lpdf (with_mfm series I ofx) data covs) (a, r) i = Ok (a', r') /\
      proper (length data) (a_alloc a') (view (a_uv a')))) /\
  (forall n_aux, (1 <= n_aux)%nat -> length (a_aux a) = n_aux -> (forall h, In h (a_aux a) -> h_ids h = [] /\ h_stats h = stats0 I) ->
   (NoDup (del (a_alloc a) i) -> @neal8_step (with_mfm series I ofx) data covs n_aux (a, r) i = UB) /\
   (~ NoDup (del (a_alloc a) i) -> exists a' r', @neal8_step (with_mfm series I ofx) data covs n_aux (a, r) i = Ok (a', r') /\
      proper (length data) (a_alloc a') (view (a_uv a')))).
Proof.
  intros series I L ofx data covs a r i Hrows Hi Hm Hp Hc. set (J := with_mfm series I ofx) in *.
  assert (G : @GInv J data covs false a) by (apply GInv_iff; split; auto).
  pose proof (mfm_laws series I L ofx) as LJ. pose proof (mfm_small series I ofx data) as Hs. pose proof (mfm_full series I ofx data) as Hf.
  split; [|split].
  - split; [intro D|intros Hn D].
    + exact (step_full J LJ data covs Hrows mfm_valid Hf false false (uhp_false J) ltac:(discriminate) _ a r i Hi G Hm D).
    + destruct (step_small J LJ data covs Hrows mfm_valid Hs false false (uhp_false J) ltac:(discriminate) (@neal2_lpdf J data covs) (lp2 J data covs Hrows) a r i Hn Hi G Hm D)
        as (a' & r' & al & ws & E & G' & _). exists a', r'. split; [exact E|exact (@GInv_proper J data covs false a' G')].
  - intros Hcj Ho. assert (Hu : true = true -> conj J = true /\ other_draw J = None) by (split; assumption). split; [intro D|intros Hn D].
    + exact (step_full J LJ data covs Hrows mfm_valid Hf true false Hu ltac:(discriminate) _ a r i Hi G Hm D).
    + destruct (step_small J LJ data covs Hrows mfm_valid Hs true false Hu ltac:(discriminate) (@neal3_lpdf J data covs) (lp3 J data covs Hrows Ho) a r i Hn Hi G Hm D)
        as (a' & r' & al & ws & E & G' & _). exists a', r'. split; [exact E|exact (@GInv_proper J data covs false a' G')].
  - intros x Hx Lx Hax. assert (G8 : @GInv8 J data covs x a) by (split; [exact G|apply aux_iff; auto]). split; intro D.
    + exact (step8_full J LJ data covs Hrows mfm_valid Hf x a r i Hx Hi G8 Hm D).
    + destruct (step8_small J LJ data covs Hrows mfm_valid Hs x a r i Hx Hi G8 Hm D) as (a' & r' & al & ws & r1 & E & [G' _] & _). exists a', r'. split; [exact E|exact (@GInv_proper J data covs false a' G')].
Qed.
Print Assumptions C121_step.

(** Complete programs, for every hierarchy: they end normally or are undefined. *)
Theorem C121_outcome : forall series (I : Iface) (ofx : xreal -> W I) data covs, laws I -> rows_ok I data (at_ covs) -> (conj I = true -> other_draw I = None) ->
  forall (hyp0 : res (Hyp I)) p hy m k pos st al maxiter burnin r, hyp0 = Ok hy -> mfm_start p = Ok m -> P_Valid.fits k pos (length data) -> usable al (length data) (conj I) ->
  (exists v, marginal_run (with_mfm series I ofx) hyp0 (mfm_start p) data covs k pos st al maxiter burnin r = Ok v) \/
  marginal_run (with_mfm series I ofx) hyp0 (mfm_start p) data covs k pos st al maxiter burnin r = UB.
Proof.
  intros series I ofx data covs L Hrows Ho hyp0 p hy m k pos st al maxiter burnin r Eh Em [Hk Hpos] Hu.
  exact (mfm_outcome series I L ofx data covs Hrows Ho hyp0 p hy m Eh Em k pos st Hk Hpos al Hu maxiter burnin r).
Qed.
Print Assumptions C121_outcome.

(** When they end, every saved state is in its space. *)
Theorem C121_saved : forall series (I : Iface) (ofx : xreal -> W I) data covs GH GS GM, laws I -> rows_ok I data (at_ covs) -> (conj I = true -> other_draw I = None) ->
  closed I data covs GH GS GM ->
  forall (hyp0 : res (Hyp I)) p hy m k pos st al maxiter burnin r s out, hyp0 = Ok hy -> GH hy -> mfm_start p = Ok m -> P_Valid.fits k pos (length data) -> usable al (length data) (conj I) ->
  marginal_run (with_mfm series I ofx) hyp0 (mfm_start p) data covs k pos st al maxiter burnin r = Ok (s, out) ->
  length out = (maxiter - burnin)%nat /\ forall snap, In snap out ->
    saved_clustering (length data) (s_alloc snap) (s_clusters snap) /\ GH (s_hyp snap) /\
    (0 < mf_lam (s_mix snap) /\ 0 < mf_gam (s_mix snap)) /\ forall c, In c (s_clusters snap) -> GS (fst c).
Proof.
  intros series I ofx data covs GH GS GM L Hrows Ho HC hyp0 p hy m k pos st al maxiter burnin r s out Eh Hh Em [Hk Hpos] Hu R.
  destruct (mfm_saved series I L ofx data covs Hrows Ho GH GS GM HC hyp0 p hy m Eh Em Hh k pos st Hk Hpos al Hu maxiter burnin r s out R) as [A B].
  split; [exact A|]. intros snap Hin. destruct (B snap Hin) as (C & H & (_ & M) & Q & _). auto.
Qed.
Print Assumptions C121_saved.

(** One starting cluster per datum (the default), or two observations: undefined
    at the first observation. *)
Theorem C121_alone_undefined : forall series (I : Iface) (ofx : xreal -> W I) data covs, laws I -> rows_ok I data (at_ covs) -> (conj I = true -> other_draw I = None) ->
  forall (hyp0 : res (Hyp I)) p hy m k pos st al maxiter burnin r, hyp0 = Ok hy -> mfm_start p = Ok m -> P_Valid.fits k pos (length data) -> usable al (length data) (conj I) ->
  (1 <= maxiter)%nat -> k = 0%nat \/ k = length data \/ (length data <= 2)%nat ->
  marginal_run (with_mfm series I ofx) hyp0 (mfm_start p) data covs k pos st al maxiter burnin r = UB.
Proof.
  intros series I ofx data covs L Hrows Ho hyp0 p hy m k pos st al maxiter burnin r Eh Em [Hk Hpos] Hu Hit Hc.
  apply (mfm_alone series I L ofx data covs Hrows Ho hyp0 p hy m Eh Em k pos st Hk Hpos al Hu maxiter burnin r Hit).
  destruct Hc as [-> | [-> | Hc]]; [left; reflexivity|left; destruct (length data =? 0)%nat; lia|right; exact Hc].
Qed.
Print Assumptions C121_alone_undefined.

(** Whatever the start, some draws lead there within the first iteration; others
    never do. *)
Theorem C121_last_undefined : forall series (I : Iface) (ofx : xreal -> W I) data covs, laws I -> rows_ok I data (at_ covs) -> (conj I = true -> other_draw I = None) ->
  forall (hyp0 : res (Hyp I)) p hy m k pos st al maxiter burnin r, hyp0 = Ok hy -> mfm_start p = Ok m -> P_Valid.fits k pos (length data) -> usable al (length data) (conj I) ->
  (1 <= maxiter)%nat -> (forall ws r, ws <> [] -> fst (categorical I ws r) = (length ws - 1)%nat) ->
  marginal_run (with_mfm series I ofx) hyp0 (mfm_start p) data covs k pos st al maxiter burnin r = UB.
Proof.
  intros series I ofx data covs L Hrows Ho hyp0 p hy m k pos st al maxiter burnin r Eh Em [Hk Hpos] Hu Hit Hc.
  exact (mfm_last series I L ofx data covs Hrows Ho hyp0 p hy m Eh Em k pos st Hk Hpos al Hu Hc maxiter burnin r Hit).
Qed.
Print Assumptions C121_last_undefined.
Theorem C121_first_completes : forall series (I : Iface) (ofx : xreal -> W I) data covs, laws I -> rows_ok I data (at_ covs) -> (conj I = true -> other_draw I = None) ->
  forall (hyp0 : res (Hyp I)) p hy m pos st al maxiter burnin r, hyp0 = Ok hy -> mfm_start p = Ok m -> P_Valid.fits 1 pos (length data) -> usable al (length data) (conj I) ->
  (3 <= length data)%nat -> (forall ws r, ws <> [] -> fst (categorical I ws r) = 0%nat) ->
  exists s out, marginal_run (with_mfm series I ofx) hyp0 (mfm_start p) data covs 1 pos st al maxiter burnin r = Ok (s, out).
Proof.
  intros series I ofx data covs L Hrows Ho hyp0 p hy m pos st al maxiter burnin r Eh Em [Hk Hpos] Hu Hn Hc.
  exact (mfm_first series I L ofx data covs Hrows Ho hyp0 p hy m Eh Em 1 pos st Hk Hpos al Hu Hc Hn eq_refl maxiter burnin r).
Qed.
Print Assumptions C121_first_completes.

(** ** The three univariate hierarchies *)
Section Univariate.
  Variable series : R -> R -> R -> nat -> nat -> R.
  Variable G : gen.
  Variable data : list R.
  Local Notation covs := (repeat tt (length data)).
  Definition nnig_mfm (p : nig_prior) : Iface := with_mfm series (nnig_iface lgam G p) (fun w => w).
  Definition nnxig_mfm : Iface := with_mfm series (nnxig_iface G) (fun w => w).
  Definition lap_mfm (step : R) (junk : Gs G -> R * R) : Iface := with_mfm series (lap_iface G step junk data) (fun w => w).
End Univariate.

Definition mfm_state_ok {H : Type} (Hok : H -> Prop) (n : nat) (labels : list nat) (clusters : list (uni_ls * Z)) (hyp : H) (m : mfm_state) : Prop :=
  saved_clustering n labels clusters /\ Hok hyp /\ (0 < mf_lam m /\ 0 < mf_gam m) /\ forall p, In p clusters -> 0 < ls_var (fst p).

Theorem C121_normal : forall series G ph p data k pos st al maxiter burnin r s out,
  gen_ok G -> gen_pos G -> P_Valid.fits k pos (length data) -> usable al (length data) true ->
  marginal_run (nnig_mfm series G ph) (nig_init ph) (mfm_start p) data (repeat tt (length data)) k pos st al maxiter burnin r = Ok (s, out) ->
  length out = (maxiter - burnin)%nat /\ forall snap, In snap out -> mfm_state_ok valid (length data) (s_alloc snap) (s_clusters snap) (s_hyp snap) (s_mix snap).
Proof.
  intros series G ph p data k pos st al maxiter burnin r s out HG HP HF Hu R.
  destruct (mfm_start p) as [m| | |] eqn:Em; [|destruct al; unfold marginal_run, cov_start, run in R; cbn [rbind] in R; discriminate..].
  destruct (nig_init ph) as [hy| | |] eqn:Eh; [|destruct al; unfold marginal_run, cov_start, run in R; cbn [rbind] in R; discriminate..].
  rewrite <- Em in R.
  exact (C121_saved series (nnig_iface lgam G ph) (fun w => w) data (repeat tt (length data)) valid ls_valid mixing_valid (nnig_laws lgam G ph HG) (nnig_rows lgam G ph data) (fun _ => eq_refl)
    (nnig_closed lgam G ph data HP (nig_prior_checked ph hy Eh)) (Ok hy) p hy m k pos st al maxiter burnin r s out eq_refl (nig_init_valid ph hy Eh) Em HF Hu R).
Qed.
Print Assumptions C121_normal.
Theorem C121_semiconjugate : forall series G ph p data k pos st x maxiter burnin r s out,
  gen_ok G -> gen_pos G -> P_Valid.fits k pos (length data) -> (1 <= length data)%nat -> (1 <= x)%nat ->
  marginal_run (nnxig_mfm series G) (nxig_init ph) (mfm_start p) data (repeat tt (length data)) k pos st (Neal8 x) maxiter burnin r = Ok (s, out) ->
  length out = (maxiter - burnin)%nat /\ forall snap, In snap out -> mfm_state_ok nx_valid (length data) (s_alloc snap) (s_clusters snap) (s_hyp snap) (s_mix snap).
Proof.
  intros series G ph p data k pos st x maxiter burnin r s out HG HP HF Hn Hx R.
  destruct (mfm_start p) as [m| | |] eqn:Em; [|unfold marginal_run, cov_start, run in R; cbn [rbind] in R; discriminate..].
  destruct (nxig_init ph) as [hy| | |] eqn:Eh; [|unfold marginal_run, cov_start, run in R; cbn [rbind] in R; discriminate..].
  rewrite <- Em in R.
  exact (C121_saved series (nnxig_iface G) (fun w => w) data (repeat tt (length data)) nx_valid ls_valid mixing_valid (nnxig_laws G HG) (nnxig_rows G data) ltac:(discriminate)
    (nnxig_closed G data HP) (Ok hy) p hy m k pos st (Neal8 x) maxiter burnin r s out eq_refl (P_Valid.nxig_init_valid ph hy Eh) Em HF (Logic.conj Hn Hx) R).
Qed.
Print Assumptions C121_semiconjugate.
Theorem C121_laplace : forall series G ph p data step junk k pos st x maxiter burnin r s out,
  gen_ok G -> gen_pos G -> P_Valid.fits k pos (length data) -> (1 <= length data)%nat -> (1 <= x)%nat ->
  marginal_run (lap_mfm series G data step junk) (nxig_init ph) (mfm_start p) data (repeat tt (length data)) k pos st (Neal8 x) maxiter burnin r = Ok (s, out) ->
  length out = (maxiter - burnin)%nat /\ forall snap, In snap out -> mfm_state_ok nx_valid (length data) (s_alloc snap) (s_clusters snap) (s_hyp snap) (s_mix snap).
Proof.
  intros series G ph p data step junk k pos st x maxiter burnin r s out HG HP HF Hn Hx R.
  destruct (mfm_start p) as [m| | |] eqn:Em; [|unfold marginal_run, cov_start, run in R; cbn [rbind] in R; discriminate..].
  destruct (nxig_init ph) as [hy| | |] eqn:Eh; [|unfold marginal_run, cov_start, run in R; cbn [rbind] in R; discriminate..].
  rewrite <- Em in R.
  exact (C121_saved series (lap_iface G step junk data) (fun w => w) data (repeat tt (length data)) nx_valid ls_valid mixing_valid (lap_laws G step junk data HG) (lap_rows G step junk data) ltac:(discriminate)
    (lap_closed G step junk data HP) (Ok hy) p hy m k pos st (Neal8 x) maxiter burnin r s out eq_refl (P_Valid.nxig_init_valid ph hy Eh) Em HF (Logic.conj Hn Hx) R).
Qed.
Print Assumptions C121_laplace.

(** Witnesses.  Generators that always draw the last, or the first, weight. *)
Definition g_last : gen := mkGen nat (fun m _ r => (m + INR r, S r)) (fun _ _ r => (1, S r)) (fun _ _ r => (1, S r)) (fun _ _ r => (/ 2, S r)) (fun ps r => ((length ps - 1)%nat, S r)).
Definition g_first : gen := mkGen nat (fun m _ r => (m + INR r, S r)) (fun _ _ r => (1, S r)) (fun _ _ r => (1, S r)) (fun _ _ r => (/ 2, S r)) (fun ps r => (0%nat, S r)).
Lemma g_last_ok : gen_ok g_last.
Proof. intros ps r N. cbn. destruct ps; [congruence|cbn; lia]. Qed.
Lemma g_first_ok : gen_ok g_first /\ gen_pos g_first.
Proof. split; [|split; cbn; intros; lra]. intros ps r N. cbn. destruct ps; [congruence|cbn; lia]. Qed.
Lemma softmax_len : forall ws, length (softmax ws) = length ws.
Proof. intro ws. unfold softmax. now rewrite map_length. Qed.
Lemma fit1 : P_Valid.fits 1 (fun _ => 0%nat) 3.
Proof. split; [lia|]. intros i. cbn. lia. Qed.
Definition mfm_ph : nig_prior := NIGFixed 0 1 2 2.
Lemma mfm_ph_init : nig_init mfm_ph = Ok (mkNIG 0 1 2 2).
Proof. unfold mfm_ph. cbn [nig_init]. unfold nig_check. cbn. rewrite !(proj2 (lteb_false _ _)) by lra. reflexivity. Qed.
Lemma mfm_p_init : mfm_start (MFMFixed 2 1) = Ok (mkMfm 2 1 None 0).
Proof. unfold mfm_start, mfm_init. rewrite !(proj2 (lteb_false _ _)) by lra. reflexivity. Qed.

(** Accepted priors and enough observations do not make the program defined. *)
Theorem C121_defined_refuted : exists series G ph p (data : list R) k pos st al hy m (r : Gs G), gen_ok G /\ nig_init ph = Ok hy /\ mfm_start p = Ok m /\
  P_Valid.fits k pos (length data) /\ usable al (length data) true /\ k = 1%nat /\ length data = 3%nat /\
  marginal_run (nnig_mfm series G ph) (nig_init ph) (mfm_start p) data (repeat tt (length data)) k pos st al 1 0 r = UB.
Proof.
  exists (fun _ _ _ _ _ => 1), g_last, mfm_ph, (MFMFixed 2 1), [0; 1; 5], 1%nat, (fun _ => 0%nat), (mkLS 0 0), Neal3, (mkNIG 0 1 2 2), (mkMfm 2 1 None 0), 0%nat.
  assert (U : usable Neal3 3 true) by (cbn; lia || (split; [lia|reflexivity])).
  split; [exact g_last_ok|]. split; [exact mfm_ph_init|]. split; [exact mfm_p_init|]. split; [exact fit1|]. split; [exact U|]. do 2 (split; [reflexivity|]).
  apply (C121_last_undefined (fun _ _ _ _ _ => 1) (nnig_iface lgam g_last mfm_ph) (fun w => w) [0; 1; 5] (repeat tt 3) (nnig_laws lgam g_last mfm_ph g_last_ok) (nnig_rows lgam g_last mfm_ph [0; 1; 5]) (fun _ => eq_refl)
    _ _ _ _ 1 _ _ Neal3 1 0 0%nat mfm_ph_init mfm_p_init fit1 U (le_n 1)).
  intros ws r N. cbn [categorical nnig_iface g_cat g_last fst]. now rewrite softmax_len.
Qed.
Print Assumptions C121_defined_refuted.

(** Three observations, one starting cluster, a generator that keeps it: Neal3
    ends and its three saved states are in their space.  From one cluster per
    datum the same program is undefined. *)
Example C121_example : forall series, exists s out,
  marginal_run (nnig_mfm series g_first mfm_ph) (nig_init mfm_ph) (mfm_start (MFMFixed 2 1)) [0; 1; 5] (repeat tt 3) 1 (fun _ => 0%nat) (mkLS 0 0) Neal3 5 2 0%nat = Ok (s, out) /\
  length out = 3%nat /\ (forall snap, In snap out -> mfm_state_ok valid 3 (s_alloc snap) (s_clusters snap) (s_hyp snap) (s_mix snap)) /\
  marginal_run (nnig_mfm series g_first mfm_ph) (nig_init mfm_ph) (mfm_start (MFMFixed 2 1)) [0; 1; 5] (repeat tt 3) 0 (fun _ => 0%nat) (mkLS 0 0) Neal3 5 2 0%nat = UB.
Proof.
  intro series. assert (U : usable Neal3 3 true) by (cbn; lia || (split; [lia|reflexivity])).
  destruct (C121_first_completes series (nnig_iface lgam g_first mfm_ph) (fun w => w) [0; 1; 5] (repeat tt 3) (nnig_laws lgam g_first mfm_ph (proj1 g_first_ok)) (nnig_rows lgam g_first mfm_ph [0; 1; 5]) (fun _ => eq_refl)
    _ _ _ _ (fun _ => 0%nat) (mkLS 0 0) Neal3 5 2 0%nat mfm_ph_init mfm_p_init fit1 U (le_n 3) (fun _ _ _ => eq_refl)) as (s & out & R).
  exists s, out. split; [exact R|].
  destruct (C121_normal series g_first mfm_ph (MFMFixed 2 1) [0; 1; 5] 1 (fun _ => 0%nat) (mkLS 0 0) Neal3 5 2 0%nat s out (proj1 g_first_ok) (proj2 g_first_ok) fit1 U R) as [A B].
  split; [exact A|]. split; [exact B|].
  refine (C121_alone_undefined series (nnig_iface lgam g_first mfm_ph) (fun w => w) [0; 1; 5] (repeat tt 3) (nnig_laws lgam g_first mfm_ph (proj1 g_first_ok)) (nnig_rows lgam g_first mfm_ph [0; 1; 5]) (fun _ => eq_refl)
    _ _ _ _ 0 _ _ Neal3 5 2 0%nat mfm_ph_init mfm_p_init _ U _ (or_introl eq_refl)); [|lia]. split; [lia|]. intros i. cbn. lia.
Qed.
(** Neal8 with a Laplace likelihood. *)
Example C121_example_laplace : forall series, exists s out,
  marginal_run (lap_mfm series g_first [0; 1; 5] (/ 2) (fun _ => (7, 9))) (nxig_init (NxIGFixed 0 1 2 2)) (mfm_start (MFMFixed 2 1)) [0; 1; 5] (repeat tt 3) 1 (fun _ => 0%nat) (mkLS 0 0) (Neal8 2) 4 1 0%nat = Ok (s, out) /\
  length out = 3%nat /\ forall snap, In snap out -> mfm_state_ok nx_valid 3 (s_alloc snap) (s_clusters snap) (s_hyp snap) (s_mix snap).
Proof.
  intro series. assert (U : usable (Neal8 2) 3 false) by (cbn; lia).
  assert (E : nxig_init (NxIGFixed 0 1 2 2) = Ok (mkNxIG 0 1 2 2)) by (unfold nxig_init; rewrite !(proj2 (lteb_false _ _)) by lra; reflexivity).
  destruct (C121_first_completes series (lap_iface g_first (/ 2) (fun _ => (7, 9)) [0; 1; 5]) (fun w => w) [0; 1; 5] (repeat tt 3) (lap_laws g_first _ _ _ (proj1 g_first_ok)) (lap_rows g_first _ _ [0; 1; 5]) ltac:(discriminate)
    _ _ _ _ (fun _ => 0%nat) (mkLS 0 0) (Neal8 2) 4 1 0%nat E mfm_p_init fit1 U (le_n 3) (fun _ _ _ => eq_refl)) as (s & out & R).
  exists s, out. split; [exact R|].
  exact (C121_laplace series g_first _ (MFMFixed 2 1) [0; 1; 5] _ _ 1 (fun _ => 0%nat) (mkLS 0 0) 2 4 1 0%nat s out (proj1 g_first_ok) (proj2 g_first_ok) fit1 (le_S _ _ (le_S _ _ (le_n 1))) (le_S _ _ (le_n 1)) R).
Qed.
(** Calls of a sweep over three observations. *)
Example C121_example_table : forall series, exists s',
  rfold (do_call series) [CallEx 2 1 true true 2; CallNew 2 1 true true; CallEx 2 1 true true 2] (mkMfm 2 1 None 0) = Ok s' /\
  call_value series s' (CallNew 2 1 true true) = call_value series (mkMfm 2 1 None 0) (CallNew 2 1 true true).
Proof.
  intro series. destruct (masses_filled series (mkMfm 2 1 None 0) 2 (mkMfm 2 1 None 0) 1 true true eq_refl (filled_refl series (mkMfm 2 1 None 0) 2 eq_refl)) as [A _]. destruct (A ltac:(lia)) as [A1 _]. destruct (A1 2%Z) as (s1 & E1 & F1).
  destruct (masses_filled series (mkMfm 2 1 None 0) 2 s1 1 true true eq_refl F1) as [B _]. destruct (B ltac:(lia)) as [_ (s2 & E2 & F2)].
  destruct (masses_filled series (mkMfm 2 1 None 0) 2 s2 1 true true eq_refl F2) as [D _]. destruct (D ltac:(lia)) as [D1 _]. destruct (D1 2%Z) as (s3 & E3 & _).
  exists s3. assert (R : rfold (do_call series) [CallEx 2 1 true true 2; CallNew 2 1 true true; CallEx 2 1 true true 2] (mkMfm 2 1 None 0) = Ok s3).
  { cbn [rfold do_call]. rewrite E1. cbn [rbind]. rewrite E2. cbn [rbind]. rewrite E3. reflexivity. }
  split; [exact R|]. refine (C121_table_transparent series (mkMfm 2 1 None 0) 2 _ s3 _ eq_refl _ R). repeat constructor.
Qed.

(** ** C122 *)

(** When the other observations are not all alone the weights are the full
    conditional of the clustering under the Gibbs-type law of the coefficients the
    loop computes. *)
Theorem C122_neal3_weights : forall series (I : Iface) (L : laws I) (ofx : xreal -> W I) data covs (val : W I -> R) M (a : alg (with_mfm series I ofx)) i,
  rows_ok I data (at_ covs) -> (forall x y, val (wadd I x y) = val x * val y) -> (forall x, val (ofx x) = xexp x) ->
  conj I = true -> other_draw I = None -> (2 <= length data)%nat -> (Z.of_nat (length data) <= 2 ^ 32)%Z -> (i < length data)%nat ->
  proper (length data) (a_alloc a) (view (a_uv a)) -> @caches_ok (with_mfm series I ofx) data covs (a_uv a) ->
  (forall h, In h (a_uv a) -> @saved_matches (with_mfm series I ofx) data covs (a_hyp a) h) ->
  mfm_valid (a_mix a) -> computed series (a_mix a) (length data) -> marginal_likelihood I data covs val (a_hyp a) M ->
  ~ NoDup (del (a_alloc a) i) ->
  exists a1 pm lk C,
    @unassign (with_mfm series I ofx) data true (at_ covs) i a = Ok a1 /\ @neal2_prior_mass (with_mfm series I ofx) data a1 = Ok pm /\
    @neal3_lpdf (with_mfm series I ofx) data covs a1 i = Ok lk /\ length (wsum (with_mfm series I ofx) pm lk) = S (length (a_uv a1)) /\ 0 < C /\
    (forall r, @neal_step (with_mfm series I ofx) data covs true (@neal3_lpdf (with_mfm series I ofx) data covs) (a, r) i =
       ('(c, r1) <- cat (with_mfm series I ofx) (wsum (with_mfm series I ofx) pm lk) r ;; @assign (with_mfm series I ofx) data true (at_ covs) i c a1 r1)) /\
    forall c w r, nth_error (wsum (with_mfm series I ofx) pm lk) c = Some w ->
    exists a' r', @assign (with_mfm series I ofx) data true (at_ covs) i c a1 r = Ok (a', r') /\
      val w = C * posterior (fun al => gibbs_type (mfm_V series (a_mix a)) (mf_gam (a_mix a)) (sizes_of al)) M (a_alloc a').
Proof. exact mfm_neal3_weights. Qed.
Print Assumptions C122_neal3_weights.

Theorem C122_neal2_weights : forall series (I : Iface) (L : laws I) (ofx : xreal -> W I) data covs (val : W I -> R) (a : alg (with_mfm series I ofx)) i y cv,
  rows_ok I data (at_ covs) -> (forall x y, val (wadd I x y) = val x * val y) -> (forall x, val (ofx x) = xexp x) ->
  (2 <= length data)%nat -> (Z.of_nat (length data) <= 2 ^ 32)%Z -> (i < length data)%nat ->
  proper (length data) (a_alloc a) (view (a_uv a)) -> @caches_ok (with_mfm series I ofx) data covs (a_uv a) ->
  mfm_valid (a_mix a) -> computed series (a_mix a) (length data) ->
  at_ data i = Ok y -> at_ covs i = Ok cv -> ~ NoDup (del (a_alloc a) i) ->
  exists a1 pm lk C,
    @unassign (with_mfm series I ofx) data false (at_ covs) i a = Ok a1 /\ @neal2_prior_mass (with_mfm series I ofx) data a1 = Ok pm /\
    @neal2_lpdf (with_mfm series I ofx) data covs a1 i = Ok lk /\ length (wsum (with_mfm series I ofx) pm lk) = S (length (a_uv a1)) /\ 0 < C /\
    (forall r, @neal_step (with_mfm series I ofx) data covs false (@neal2_lpdf (with_mfm series I ofx) data covs) (a, r) i =
       ('(c, r1) <- cat (with_mfm series I ofx) (wsum (with_mfm series I ofx) pm lk) r ;; @assign (with_mfm series I ofx) data false (at_ covs) i c a1 r1)) /\
    forall c w r, nth_error (wsum (with_mfm series I ofx) pm lk) c = Some w ->
    exists a' r', @assign (with_mfm series I ofx) data false (at_ covs) i c a1 r = Ok (a', r') /\
      exists f, val w = C * gibbs_type (mfm_V series (a_mix a)) (mf_gam (a_mix a)) (sizes_of (a_alloc a')) * f /\
        ((c < length (a_uv a1))%nat -> exists st, param a' i = Some st /\ f = val (like_lpdf I st y cv)) /\
        (c = length (a_uv a1) -> f = val (marg_lpdf I (a_hyp a) y cv)).
Proof. exact mfm_neal2_weights. Qed.
Print Assumptions C122_neal2_weights.

(** Coefficients the loop computes exist for every accepted prior and every size. *)
Theorem C122_coefficients_exist : exists series, forall p m n, mfm_start p = Ok m -> (1 <= n)%nat -> (Z.of_nat n <= 2 ^ 32)%Z -> computed series m n /\
  forall t, (1 <= t <= n)%nat -> 0 < mfm_V series m n t.
Proof.
  destruct series_exists as (series & _ & H). exists series. intros p m n E Hn HZ. pose proof (mfm_start_valid p m E) as Hm.
  assert (C : computed series m n) by (intros t Ht; apply H; [apply Hm|apply Hm|lia|lia|exact Hn]).
  split; [exact C|]. intros t Ht. destruct (C t Ht) as (fuel & Ef). destruct Hm as (_ & Hl & Hg). refine (loop_positive (mf_lam m) (mf_gam m) _ t n fuel _ Hl Hg _ _ _ Ef); lia.
Qed.
Print Assumptions C122_coefficients_exist.

(** The normal / normal-inverse-gamma program on the state of C34's example: the
    third observation, the first two together. *)
Example C122_example : exists series M, (forall ids, 0 < M ids) /\
  let J := with_mfm series exI (fun w => w) in
  let m := mkMfm 2 1 None 0 in
  let a := rep_state J exdata excovs exhy m [0; 0; 2]%nat in
  exists a1 pm lk C, @unassign J exdata true (at_ excovs) 2 a = Ok a1 /\ @neal2_prior_mass J exdata a1 = Ok pm /\
    @neal3_lpdf J exdata excovs a1 2 = Ok lk /\ length (wsum J pm lk) = S (length (a_uv a1)) /\ 0 < C /\
    forall c w r, nth_error (wsum J pm lk) c = Some w ->
    exists a' r', @assign J exdata true (at_ excovs) 2 c a1 r = Ok (a', r') /\
      xexp w = C * posterior (fun al => gibbs_type (mfm_V series m) 1 (sizes_of al)) M (a_alloc a').
Proof.
  destruct C122_coefficients_exist as (series & Hs). exists series, (fun ids => exp (log_marg (fun _ => 0) exhy (pick exdata ids))). split; [intros; apply exp_pos|].
  cbv zeta. set (m := mkMfm 2 1 None 0). set (J := with_mfm series exI (fun w => w)).
  destruct (rep_state_ok J exdata excovs exhy m [0; 0; 2]%nat exst_in) as (H1 & H2 & H3 & H4 & H5 & H6).
  destruct (C122_neal3_weights series exI (nnig_laws _ _ _ exG_ok) (fun w => w) exdata excovs xexp
    (fun ids => exp (log_marg (fun _ => 0) exhy (pick exdata ids))) (rep_state J exdata excovs exhy m [0; 0; 2]%nat) 2)
    as (a1 & pm & lk & C & E1 & E2 & E3 & E4 & E5 & _ & E6); auto.
  - apply (nnig_rows (fun _ => 0) exG exprior).
  - intros. apply xexp_add.
  - cbn. lia.
  - cbn. lia.
  - exact (mfm_start_valid _ _ mfm_p_init).
  - apply (Hs _ _ 3%nat mfm_p_init); cbn; lia.
  - apply (nnig_marginal (fun _ => 0) exG exprior exdata exhy exhy_valid).
  - cbn. intro N. inversion N as [|? ? F _]; subst. apply F. now left.
  - exists a1, pm, lk, C. auto 10.
Qed.
