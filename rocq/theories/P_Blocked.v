(** * C114: programs of the blocked Gibbs algorithm on univariate data. *)
From Coq Require Import String.
From Coq Require Import Bool List Arith ZArith Reals Lra Lia.
From Coquelicot Require Import Coquelicot.
From Verif Require Import Base Hier Algos Run Spec MargFacts NealFacts MargMore InitFacts MargProps ValidRun.
From Verif Require Import PartSpec XReal Stick SliceFacts StickFacts Cond CondFacts CondProps Mixings MixFacts Univ UnivFacts UnivInit RealInst RealFacts UnivInst UnivRun CondInst CondRun CondStick.
From Verif Require Import Eval EvalFacts EvalInt GaussInt GammaInt UnivInt GamFacts P_MargInt P_Esc P_Valid.
Import ListNotations.
Local Open Scope R_scope.

(** The function computed afterwards from the components and the log-weights
    integrates to [mass]. *)
Definition evaluated_mass (like : uni_ls -> R -> xreal) (clusters : list (uni_ls * Z)) (lw : list xreal) (mass : R) : Prop :=
  forall uv : list uni_ls, uv <> [] -> exists dens, is_line_int dens mass /\
    forall grid, exists out, cond_eval like uv lw (map fst clusters) grid = Ok out /\ map xexp out = map dens grid.

(** A saved state in its space: [nc] components, weights above zero. *)
Definition blocked_state_ok {H : Type} (Hok : H -> Prop) (n nc : nat) (labels : list nat) (clusters : list (uni_ls * Z)) (hyp : H) (weights : list R) : Prop :=
  saved_components n nc labels clusters /\ Hok hyp /\ (forall p, In p clusters -> 0 < ls_var (fst p)) /\
  length weights = nc /\ List.Forall (fun w => 0 < w) weights.

Lemma end_weights : forall inf nc m, (1 <= nc)%nat -> sb_end inf nc m ->
  let w := map xexp (logweights_from_sticks (sb_sticks m)) in
  length w = nc /\ List.Forall (fun x => 0 < x) w /\
  fold_right Rplus 0 w = 1 - fold_right Rmult 1 (map (fun v => 1 - v) (sb_sticks m)) /\
  (if inf then 0 < fold_right Rmult 1 (map (fun v => 1 - v) (sb_sticks m)) else fold_right Rmult 1 (map (fun v => 1 - v) (sb_sticks m)) = 0).
Proof.
  intros inf nc m Hnc (L & F & Q). cbv zeta. split; [rewrite map_length, logweights_length; exact L|].
  assert (F2 : List.Forall (fun v => 0 <= v <= 1) (sb_sticks m)) by (eapply Forall_impl; [|exact F]; cbn; intros; lra).
  split; [|split].
  - unfold logweights_from_sticks. rewrite log_scale by exact F2. cbn [xexp]. rewrite exp_0.
    assert (R1 : List.Forall (fun v => v < 1) (removelast (sb_sticks m))).
    { destruct inf; [|apply Q]. apply Forall_forall. intros v Hv. apply In_removelast in Hv. rewrite Forall_forall in Q. auto. }
    clear -F R1. revert F R1. generalize (sb_sticks m) as l. cut (forall (l : list R) x, 0 < x -> List.Forall (fun v => 0 < v <= 1) l -> List.Forall (fun v => v < 1) (removelast l) -> List.Forall (fun w => 0 < w) (weights_go numR x l)).
    { intros H l. apply H. lra. }
    induction l as [|v l IH]; intros x Hx F R1; cbn [weights_go]; constructor.
    + apply (List.Forall_inv) in F. cbn in *. apply Rmult_lt_0_compat; lra.
    + destruct l as [|w l]; [constructor|]. apply IH.
      * pose proof (List.Forall_inv R1). cbn in *. apply Rmult_lt_0_compat; lra.
      * now apply List.Forall_inv_tail in F.
      * now apply List.Forall_inv_tail in R1.
  - apply stick_mass. exact F2.
  - destruct inf.
    + clear -F Q. revert F Q. generalize (sb_sticks m) as l. induction l as [|v l IH]; intros F Q; cbn; [lra|].
      pose proof (List.Forall_inv Q) as Qv. cbn beta in Qv. apply Rmult_lt_0_compat; [lra|]. apply IH; [now apply List.Forall_inv_tail in F|now apply List.Forall_inv_tail in Q].
    + apply (@rest_last_one (sb_sticks m)); [|apply Q]. intro E. rewrite E in L. cbn in L. lia.
Qed.

Lemma snap_mass : forall f inf nc n labels (clusters : list (uni_ls * Z)) m, univariate_like f -> (1 <= nc)%nat -> saved_components n nc labels clusters ->
  (forall q, In q clusters -> ls_valid (fst q)) -> sb_end inf nc m -> sb_logweights m = logweights_from_sticks (sb_sticks m) ->
  evaluated_mass (fin_like f) clusters (sb_logweights m) (1 - fold_right Rmult 1 (map (fun v => 1 - v) (sb_sticks m))).
Proof.
  intros f inf nc n labels clusters m Hf Hnc (_ & Lc & _) A (L & F & _) E uv U. rewrite E.
  apply C106_stick_density; [exact Hf|exact U|rewrite map_length; exact (eq_trans Lc (eq_sym L))| |].
  - eapply Forall_impl; [|exact F]; cbn; intros; lra.
  - intros s Hs. apply in_map_iff in Hs. destruct Hs as (q & <- & Hq). now apply A.
Qed.

(** ** Programs end; saved states are in their space; the evaluated function is a density *)
Lemma conclude : forall (J : Iface) (H : Type) (Hok : H -> Prop) f n nc maxiter burnin (out : list (snapshot J)) (cl : snapshot J -> list (uni_ls * Z)) (hy : snapshot J -> H) (mx : snapshot J -> sb numR),
  univariate_like f -> (1 <= nc)%nat ->
  length out = (maxiter - burnin)%nat /\ (forall snap, In snap out -> saved_components n nc (s_alloc snap) (cl snap) /\ Hok (hy snap) /\ (forall q, In q (cl snap) -> ls_valid (fst q)) /\
    sb_end false nc (mx snap) /\ sb_logweights (mx snap) = logweights_from_sticks (sb_sticks (mx snap))) ->
  length out = (maxiter - burnin)%nat /\ forall snap, In snap out ->
    let w := map xexp (sb_logweights (mx snap)) in
    blocked_state_ok Hok n nc (s_alloc snap) (cl snap) (hy snap) w /\ fold_right Rplus 0 w = 1 /\
    evaluated_mass (fin_like f) (cl snap) (sb_logweights (mx snap)) 1.
Proof.
  intros J H Hok f n nc maxiter burnin out cl hy mx Hf Hnc [L K]. split; [exact L|]. intros snap Hin. destruct (K snap Hin) as (A & B & C & D & E). cbv zeta.
  pose proof (snap_mass f false nc n _ _ _ Hf Hnc A C D E) as M.
  destruct (end_weights false nc (mx snap) Hnc D) as (W1 & W2 & W3 & W4). rewrite <- E in W1, W2, W3. rewrite W4, Rminus_0_r in W3, M.
  split; [|split; [exact W3|exact M]]. split; [exact A|]. split; [exact B|]. split; [exact C|]. split; [exact W1|exact W2].
Qed.

Theorem C114_normal : forall G p hy sp m nc data pos st (bet : R -> R -> Gs G -> R * Gs G) maxiter burnin r,
  gen_ok G -> gen_pos G -> beta_ok bet -> nig_init p = Ok hy -> sb_init sp false nc = Ok m -> proper_shapes sp ->
  (1 <= nc <= length data)%nat -> (forall i, (pos i < nc)%nat) ->
  exists s out, blocked_run (sb_iface (nnig_iface lgam G p) (fun w => w) bet) (nig_init p) (sb_init sp false nc) (fun m : sb numR => sb_nc m) data pos st maxiter burnin r = Ok (s, out) /\
  length out = (maxiter - burnin)%nat /\ forall snap, In snap out ->
    let w := map xexp (sb_logweights (Run.s_mix snap)) in
    blocked_state_ok valid (length data) nc (s_alloc snap) (s_clusters snap) (s_hyp snap) w /\ fold_right Rplus 0 w = 1 /\
    evaluated_mass (fin_like norm_lpdf) (s_clusters snap) (sb_logweights (Run.s_mix snap)) 1.
Proof.
  intros G p hy sp m nc data pos st bet maxiter burnin r HG HP Hb Eh Em Hs Hnc Hpos. rewrite Eh, Em.
  destruct (sb_program (nnig_iface lgam G p) (nnig_laws lgam G p HG) (fun w => w) data (nnig_rows lgam G p data) valid ls_valid mixing_valid
    (nnig_closed lgam G p data HP (nig_prior_checked p hy Eh)) bet Hb hy (nig_init_valid p hy Eh) sp false nc m Em Hs Hnc pos Hpos st maxiter burnin r) as (s & out & R & K).
  exists s, out. split; [exact R|].
  exact (conclude (sb_iface (nnig_iface lgam G p) (fun w => w) bet) _ valid norm_lpdf (length data) nc maxiter burnin out (@s_clusters _) (@s_hyp _) (@Run.s_mix _) (or_introl eq_refl) (proj1 Hnc) K).
Qed.
Print Assumptions C114_normal.

Theorem C114_semiconjugate : forall G p hy sp m nc data pos st (bet : R -> R -> Gs G -> R * Gs G) maxiter burnin r,
  gen_ok G -> gen_pos G -> beta_ok bet -> nxig_init p = Ok hy -> sb_init sp false nc = Ok m -> proper_shapes sp ->
  (1 <= nc <= length data)%nat -> (forall i, (pos i < nc)%nat) ->
  exists s out, blocked_run (sb_iface (nnxig_iface G) (fun w => w) bet) (nxig_init p) (sb_init sp false nc) (fun m : sb numR => sb_nc m) data pos st maxiter burnin r = Ok (s, out) /\
  length out = (maxiter - burnin)%nat /\ forall snap, In snap out ->
    let w := map xexp (sb_logweights (Run.s_mix snap)) in
    blocked_state_ok nx_valid (length data) nc (s_alloc snap) (s_clusters snap) (s_hyp snap) w /\ fold_right Rplus 0 w = 1 /\
    evaluated_mass (fin_like norm_lpdf) (s_clusters snap) (sb_logweights (Run.s_mix snap)) 1.
Proof.
  intros G p hy sp m nc data pos st bet maxiter burnin r HG HP Hb Eh Em Hs Hnc Hpos. rewrite Eh, Em.
  destruct (sb_program (nnxig_iface G) (nnxig_laws G HG) (fun w => w) data (nnxig_rows G data) nx_valid ls_valid mixing_valid
    (nnxig_closed G data HP) bet Hb hy (nxig_init_valid p hy Eh) sp false nc m Em Hs Hnc pos Hpos st maxiter burnin r) as (s & out & R & K).
  exists s, out. split; [exact R|].
  exact (conclude (sb_iface (nnxig_iface G) (fun w => w) bet) _ nx_valid norm_lpdf (length data) nc maxiter burnin out (@s_clusters _) (@s_hyp _) (@Run.s_mix _) (or_introl eq_refl) (proj1 Hnc) K).
Qed.
Print Assumptions C114_semiconjugate.

Theorem C114_laplace : forall G p hy step junk sp m nc data pos st (bet : R -> R -> Gs G -> R * Gs G) maxiter burnin r,
  gen_ok G -> gen_pos G -> beta_ok bet -> nxig_init p = Ok hy -> sb_init sp false nc = Ok m -> proper_shapes sp ->
  (1 <= nc <= length data)%nat -> (forall i, (pos i < nc)%nat) ->
  exists s out, blocked_run (sb_iface (lap_iface G step junk data) (fun w => w) bet) (nxig_init p) (sb_init sp false nc) (fun m : sb numR => sb_nc m) data pos st maxiter burnin r = Ok (s, out) /\
  length out = (maxiter - burnin)%nat /\ forall snap, In snap out ->
    let w := map xexp (sb_logweights (Run.s_mix snap)) in
    blocked_state_ok nx_valid (length data) nc (s_alloc snap) (s_clusters snap) (s_hyp snap) w /\ fold_right Rplus 0 w = 1 /\
    evaluated_mass (fin_like lap_lpdf) (s_clusters snap) (sb_logweights (Run.s_mix snap)) 1.
Proof.
  intros G p hy step junk sp m nc data pos st bet maxiter burnin r HG HP Hb Eh Em Hs Hnc Hpos. rewrite Eh, Em.
  destruct (sb_program (lap_iface G step junk data) (lap_laws G step junk data HG) (fun w => w) data (lap_rows G step junk data) nx_valid ls_valid mixing_valid
    (lap_closed G step junk data HP) bet Hb hy (nxig_init_valid p hy Eh) sp false nc m Em Hs Hnc pos Hpos st maxiter burnin r) as (s & out & R & K).
  exists s, out. split; [exact R|].
  exact (conclude (sb_iface (lap_iface G step junk data) (fun w => w) bet) _ nx_valid lap_lpdf (length data) nc maxiter burnin out (@s_clusters _) (@s_hyp _) (@Run.s_mix _) (or_intror eq_refl) (proj1 Hnc) K).
Qed.
Print Assumptions C114_laplace.

(** ** The infinite version of the mixing leaves the last weight open *)
Theorem C114_infinite : forall G p hy sp m nc data pos st (bet : R -> R -> Gs G -> R * Gs G) maxiter burnin r,
  gen_ok G -> gen_pos G -> beta_ok bet -> nig_init p = Ok hy -> sb_init sp true nc = Ok m -> proper_shapes sp ->
  (1 <= nc <= length data)%nat -> (forall i, (pos i < nc)%nat) ->
  exists s out, blocked_run (sb_iface (nnig_iface lgam G p) (fun w => w) bet) (nig_init p) (sb_init sp true nc) (fun m : sb numR => sb_nc m) data pos st maxiter burnin r = Ok (s, out) /\
  length out = (maxiter - burnin)%nat /\ forall snap, In snap out ->
    let w := map xexp (sb_logweights (Run.s_mix snap)) in
    blocked_state_ok valid (length data) nc (s_alloc snap) (s_clusters snap) (s_hyp snap) w /\ fold_right Rplus 0 w < 1 /\
    evaluated_mass (fin_like norm_lpdf) (s_clusters snap) (sb_logweights (Run.s_mix snap)) (fold_right Rplus 0 w).
Proof.
  intros G p hy sp m nc data pos st bet maxiter burnin r HG HP Hb Eh Em Hs Hnc Hpos. rewrite Eh, Em.
  destruct (sb_program (nnig_iface lgam G p) (nnig_laws lgam G p HG) (fun w => w) data (nnig_rows lgam G p data) valid ls_valid mixing_valid
    (nnig_closed lgam G p data HP (nig_prior_checked p hy Eh)) bet Hb hy (nig_init_valid p hy Eh) sp true nc m Em Hs Hnc pos Hpos st maxiter burnin r) as (s & out & R & L & K).
  exists s, out. split; [exact R|]. split; [exact L|]. intros snap Hin. destruct (K snap Hin) as (A & B & C & D & E). cbv zeta.
  pose proof (snap_mass norm_lpdf true nc _ _ _ _ (or_introl eq_refl) (proj1 Hnc) A C D E) as M.
  destruct (end_weights true nc (Run.s_mix snap) (proj1 Hnc) D) as (W1 & W2 & W3 & W4). rewrite <- E in W1, W2, W3.
  split; [|split; [rewrite W3; lra|rewrite W3; exact M]]. split; [exact A|]. split; [exact B|]. split; [exact C|]. split; [exact W1|exact W2].
Qed.
Print Assumptions C114_infinite.

Lemma mass_unique : forall like clusters lw a b, evaluated_mass like clusters lw a -> evaluated_mass like clusters lw b -> a = b.
Proof.
  intros like clusters lw a b A B. destruct (A [mkLS 0 1] ltac:(discriminate)) as (d1 & I1 & E1). destruct (B [mkLS 0 1] ltac:(discriminate)) as (d2 & I2 & E2).
  assert (X : forall y, d1 y = d2 y).
  { intro y. destruct (E1 [y]) as (o1 & Q1 & M1). destruct (E2 [y]) as (o2 & Q2 & M2). rewrite Q1 in Q2. injection Q2 as <-.
    rewrite M1 in M2. now injection M2. }
  apply (DistFacts.line_ext _ _ _ X) in I1. exact (DistFacts.line_unique _ _ _ I1 I2).
Qed.

Definition half {T : Type} (a b : R) (r : T) : R * T := (/ 2, r).
Lemma half_ok : forall T, beta_ok (@half T).
Proof. intros T a b r _ _. cbn. lra. Qed.

Lemma dp_starts : forall inf nc, exists m, sb_init (DpPrior numR 1) inf nc = Ok m /\ proper_shapes (DpPrior numR 1).
Proof.
  intros inf nc. unfold sb_init. assert (T : nltb numR (n0 numR) 1 = true) by (apply ltb_R; cbn; lra). rewrite T. cbn [rbind].
  destruct (good_shapes (mkSb (DpPrior numR 1) inf nc [] [])) as (sh & E & L & _); [cbn; lra|]. rewrite E. cbn [rbind].
  unfold weights_from_sticks. rewrite map_length. cbn [sb_nc] in L. rewrite L, Nat.leb_refl. cbn [rbind]. eexists. split; [reflexivity|exact Logic.I].
Qed.

Theorem C114_infinite_refuted : exists G p hy sp m nc data pos st (bet : R -> R -> Gs G -> R * Gs G) maxiter burnin r s out snap,
  gen_ok G /\ gen_pos G /\ beta_ok bet /\ nig_init p = Ok hy /\ sb_init sp true nc = Ok m /\ proper_shapes sp /\
  (1 <= nc <= length data)%nat /\ (forall i, (pos i < nc)%nat) /\
  blocked_run (sb_iface (nnig_iface lgam G p) (fun w => w) bet) (nig_init p) (sb_init sp true nc) (fun m : sb numR => sb_nc m) data pos st maxiter burnin r = Ok (s, out) /\
  In snap out /\ ~ evaluated_mass (fin_like norm_lpdf) (s_clusters snap) (sb_logweights (Run.s_mix snap)) 1.
Proof.
  destruct (dp_starts true 2) as (m & Em & Hs).
  assert (E : nig_init (NIGFixed 0 1 2 2) = Ok (mkNIG 0 1 2 2)) by (cbn [nig_init]; unfold nig_check; cbn; rewrite !(proj2 (lteb_false _ _)) by lra; reflexivity).
  assert (P : forall i, (i mod 2 < 2)%nat) by (intro i; apply Nat.mod_upper_bound; discriminate).
  destruct (C114_infinite g1 (NIGFixed 0 1 2 2) _ _ _ 2 [0; 1; 5] (fun i => i mod 2)%nat (mkLS 0 0) half 1 0 0%nat (proj1 g1_ok) (proj2 g1_ok) (half_ok _) E Em Hs ltac:(cbn; lia) P) as (s & out & R & L & K).
  destruct out as [|snap out]; [discriminate|]. destruct (K snap (or_introl eq_refl)) as (_ & W & M).
  exists g1, (NIGFixed 0 1 2 2), (mkNIG 0 1 2 2), (DpPrior numR 1), m, 2%nat, [0; 1; 5], (fun i => i mod 2)%nat, (mkLS 0 0), half, 1%nat, 0%nat, 0%nat, s, (snap :: out), snap.
  repeat (split; [first [exact (proj1 g1_ok)|exact (proj2 g1_ok)|exact (half_ok _)|exact E|exact Em|exact Hs|cbn; lia|exact P|exact R|now left]|]).
  intro N. pose proof (mass_unique _ _ _ _ _ N M) as Q. lra.
Qed.
Print Assumptions C114_infinite_refuted.

(** ** Numbers of components the program does not survive *)
Theorem C114_no_components : forall G p hy sp inf m data pos st (bet : R -> R -> Gs G -> R * Gs G) maxiter burnin r,
  gen_ok G -> nig_init p = Ok hy -> sb_init sp inf 0 = Ok m -> (1 <= length data)%nat -> (forall i, (pos i < length data)%nat) -> (1 <= maxiter)%nat ->
  blocked_run (sb_iface (nnig_iface lgam G p) (fun w => w) bet) (nig_init p) (sb_init sp inf 0) (fun m : sb numR => sb_nc m) data pos st maxiter burnin r = UB.
Proof.
  intros G p hy sp inf m data pos st bet maxiter burnin r HG Eh Em Hn Hpos Hk. rewrite Eh, Em. unfold blocked_run. cbn [rbind].
  destruct (sb_init_spec _ _ _ Em) as (_ & _ & _ & D & _). rewrite D.
  apply (no_weights_ub (sb_iface (nnig_iface lgam G p) (fun w => w) bet) (with_mixing_laws _ _ _ _ (nnig_laws lgam G p HG)) data _ (with_mixing_rows _ _ _ _ data _ (nnig_rows lgam G p data)));
    [reflexivity|apply repeat_length|exact Hn|exact Hpos|apply Nat.le_0_l| |exact Hk].
  change (map (fun w : xreal => w) (sb_logweights m) = []). unfold sb_logweights. now rewrite D.
Qed.
Print Assumptions C114_no_components.

Theorem C114_more_components : forall G p hy sp inf m nc data pos st (bet : R -> R -> Gs G -> R * Gs G) maxiter burnin r,
  gen_ok G -> nig_init p = Ok hy -> sb_init sp inf nc = Ok m -> (length data < nc)%nat ->
  blocked_run (sb_iface (nnig_iface lgam G p) (fun w => w) bet) (nig_init p) (sb_init sp inf nc) (fun m : sb numR => sb_nc m) data pos st maxiter burnin r = UB.
Proof.
  intros G p hy sp inf m nc data pos st bet maxiter burnin r HG Eh Em Hn. rewrite Eh, Em. unfold blocked_run. cbn [rbind].
  destruct (sb_init_spec _ _ _ Em) as (_ & _ & _ & D & _). rewrite D.
  apply (too_many_ub (sb_iface (nnig_iface lgam G p) (fun w => w) bet) (with_mixing_laws _ _ _ _ (nnig_laws lgam G p HG)) data _ (with_mixing_rows _ _ _ _ data _ (nnig_rows lgam G p data))); [reflexivity|exact Hn].
Qed.
Print Assumptions C114_more_components.

(** ** A prior of the sticks that [initialize] accepts and every update rejects *)
Theorem C114_last_shape : forall G p hy l a b inf m data pos st (bet : R -> R -> Gs G -> R * Gs G) maxiter burnin r,
  gen_ok G -> nig_init p = Ok hy -> sb_init (BetaPriors numR (l ++ [(a, b)])) inf (S (length l)) = Ok m ->
  b <= 0 -> (S (length l) <= length data)%nat -> (forall i, (pos i < S (length l))%nat) -> (1 <= maxiter)%nat -> exists msg,
  blocked_run (sb_iface (nnig_iface lgam G p) (fun w => w) bet) (nig_init p) (sb_init (BetaPriors numR (l ++ [(a, b)])) inf (S (length l)))
    (fun m : sb numR => sb_nc m) data pos st maxiter burnin r = Throw msg.
Proof.
  intros G p hy l a b inf m data pos st bet maxiter burnin r HG Eh Em Hb Hn Hpos Hk. rewrite Eh, Em. unfold blocked_run. cbn [rbind].
  destruct (sb_init_spec _ _ _ Em) as (A & B & C & D & _). rewrite D.
  apply (blocked_throws (sb_iface (nnig_iface lgam G p) (fun w => w) bet) (with_mixing_laws _ _ _ _ (nnig_laws lgam G p HG)) data _ (with_mixing_rows _ _ _ _ data _ (nnig_rows lgam G p data)));
    [| |split; [exact (le_n_S _ _ (Nat.le_0_l _))|exact Hn]|exact Hpos|reflexivity|exact Hk].
  - intros i _. change (length (map (fun w : xreal => w) (sb_logweights m)) = S (length l)). rewrite map_length.
    exact (proj1 (start_logweights (BetaPriors numR (l ++ [(a, b)])) inf (S (length l)) m (Logic.conj A (Logic.conj B (Logic.conj C D))))).
  - intros ns al r' Ln. change (exists msg, sb_update (K:=numR) bet m (map Z.of_nat ns) r' = Throw msg).
    apply (sb_update_last (Gs G) bet m (l ++ [(a, b)]) a b ns r' A B); [| |apply last_last|exact Hb|exact (eq_trans Ln (eq_sym D))].
    + rewrite D, app_length. cbn. lia.
    + destruct l; discriminate.
Qed.
Print Assumptions C114_last_shape.

(** Such priors exist: the last pair is never looked at. *)
Theorem C114_last_shape_refuted : exists l m (bet : R -> R -> nat -> R * nat) maxiter burnin msg,
  sb_init (BetaPriors numR l) false (length l) = Ok m /\ beta_ok bet /\
  blocked_run (sb_iface (nnig_iface lgam g1 (NIGFixed 0 1 2 2)) (fun w => w) bet) (nig_init (NIGFixed 0 1 2 2)) (sb_init (BetaPriors numR l) false (length l))
    (fun m : sb numR => sb_nc m) [0; 1; 5] (fun i => i mod 2)%nat (mkLS 0 0) maxiter burnin 0%nat = Throw msg.
Proof.
  assert (E : nig_init (NIGFixed 0 1 2 2) = Ok (mkNIG 0 1 2 2)) by (cbn [nig_init]; unfold nig_check; cbn; rewrite !(proj2 (lteb_false _ _)) by lra; reflexivity).
  assert (P : forall i, (i mod 2 < 2)%nat) by (intro i; apply Nat.mod_upper_bound; discriminate).
  assert (Em : exists m, sb_init (BetaPriors numR ([(1, 1)] ++ [(1, 0)])) false 2 = Ok m).
  { unfold sb_init. cbn [length app Nat.eqb negb Nat.sub firstn forallb fst snd]. assert (T : nltb numR (n0 numR) 1 = true) by (apply ltb_R; cbn; lra). rewrite T. cbn [andb rbind].
    eexists. reflexivity. }
  destruct Em as (m & Em).
  destruct (C114_last_shape g1 (NIGFixed 0 1 2 2) _ [(1, 1)] 1 0 false m [0; 1; 5] (fun i => i mod 2)%nat (mkLS 0 0) half 1 0 0%nat (proj1 g1_ok) E Em ltac:(lra) ltac:(cbn; lia) P ltac:(lia)) as (msg & Q).
  exists [(1, 1); (1, 0)], m, half, 1%nat, 0%nat, msg. split; [exact Em|]. split; [apply half_ok|exact Q].
Qed.
Print Assumptions C114_last_shape_refuted.

(** Both ends of the range of component numbers. *)
Theorem C114_any_components_refuted :
  (exists m, sb_init (DpPrior numR 1) false 0 = Ok m /\
     blocked_run (sb_iface (nnig_iface lgam g1 (NIGFixed 0 1 2 2)) (fun w => w) half) (nig_init (NIGFixed 0 1 2 2)) (sb_init (DpPrior numR 1) false 0)
       (fun m : sb numR => sb_nc m) [0; 1; 5] (fun i => i mod 3)%nat (mkLS 0 0) 1 0 0%nat = UB) /\
  (exists m, sb_init (DpPrior numR 1) false 4 = Ok m /\
     blocked_run (sb_iface (nnig_iface lgam g1 (NIGFixed 0 1 2 2)) (fun w => w) half) (nig_init (NIGFixed 0 1 2 2)) (sb_init (DpPrior numR 1) false 4)
       (fun m : sb numR => sb_nc m) [0; 1; 5] (fun i => i mod 4)%nat (mkLS 0 0) 1 0 0%nat = UB).
Proof.
  assert (E : nig_init (NIGFixed 0 1 2 2) = Ok (mkNIG 0 1 2 2)) by (cbn [nig_init]; unfold nig_check; cbn; rewrite !(proj2 (lteb_false _ _)) by lra; reflexivity).
  split.
  - destruct (dp_starts false 0) as (m & Em & _). exists m. split; [exact Em|].
    apply (C114_no_components g1 (NIGFixed 0 1 2 2) _ _ _ m [0; 1; 5] (fun i => i mod 3)%nat (mkLS 0 0) half 1 0 0%nat (proj1 g1_ok) E Em); [cbn; lia|intro i; apply Nat.mod_upper_bound; discriminate|lia].
  - destruct (dp_starts false 4) as (m & Em & _). exists m. split; [exact Em|].
    apply (C114_more_components g1 (NIGFixed 0 1 2 2) _ _ _ m 4 [0; 1; 5] (fun i => i mod 4)%nat (mkLS 0 0) half 1 0 0%nat (proj1 g1_ok) E Em). cbn; lia.
Qed.
Print Assumptions C114_any_components_refuted.

(** A run of two components on three data meets every hypothesis. *)
Example C114_example : exists m s out, sb_init (DpPrior numR 1) false 2 = Ok m /\
  blocked_run (sb_iface (nnig_iface lgam g1 (NIGFixed 0 1 2 2)) (fun w => w) half) (nig_init (NIGFixed 0 1 2 2)) (sb_init (DpPrior numR 1) false 2)
    (fun m : sb numR => sb_nc m) [0; 1; 5] (fun i => i mod 2)%nat (mkLS 0 0) 3 1 0%nat = Ok (s, out) /\ length out = 2%nat /\
  forall snap, In snap out -> length (s_clusters snap) = 2%nat /\ fold_right Rplus 0 (map xexp (sb_logweights (Run.s_mix snap))) = 1.
Proof.
  assert (E : nig_init (NIGFixed 0 1 2 2) = Ok (mkNIG 0 1 2 2)) by (cbn [nig_init]; unfold nig_check; cbn; rewrite !(proj2 (lteb_false _ _)) by lra; reflexivity).
  assert (P : forall i, (i mod 2 < 2)%nat) by (intro i; apply Nat.mod_upper_bound; discriminate).
  destruct (dp_starts false 2) as (m & Em & Hs).
  destruct (C114_normal g1 (NIGFixed 0 1 2 2) _ _ _ 2 [0; 1; 5] (fun i => i mod 2)%nat (mkLS 0 0) half 3 1 0%nat (proj1 g1_ok) (proj2 g1_ok) (half_ok _) E Em Hs ltac:(cbn; lia) P) as (s & out & R & L & K).
  exists m, s, out. split; [exact Em|]. split; [exact R|]. split; [exact L|]. intros snap Hin. destruct (K snap Hin) as (((_ & C & _) & _) & W & _). split; [|exact W].
  exact C.
Qed.
