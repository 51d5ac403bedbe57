(** * C112: complete programs on univariate data keep every saved state in its space. *)
From Coq Require Import Bool List Arith ZArith Reals Lra Lia.
From Coquelicot Require Import Coquelicot.
From Verif Require Import Base Hier Algos Run Spec MargFacts NealFacts MargMore InitFacts MargProps ValidRun.
From Verif Require Import PartSpec XReal Mixings MixFacts Univ UnivFacts UnivInit RealInst RealFacts UnivInst UnivRun.
From Verif Require Import Eval EvalFacts EvalInt GaussInt GammaInt UnivInt GamFacts P_MargInt P_Esc.
Import ListNotations.
Local Open Scope R_scope.

(** The density the program computes afterwards from a saved state (the mixing
    message is the total mass, or the two parameters) is a probability density. *)
Definition evaluated_density (like : uni_ls -> R -> xreal) (comp : R -> xreal) (n : nat) (clusters : list (uni_ls * Z)) (m : mixing) : Prop :=
  forall uv : list uni_ls, uv <> [] -> exists dens, is_line_int dens 1 /\
    match m with
    | MixDP _ s => forall grid o, exists out o', marg_eval like dp_mixer uv comp (mkSaved n clusters (dp_tot s)) grid o = Ok (out, o') /\ map xexp out = map dens grid
    | MixPY _ s => forall grid o, exists out o', marg_eval like py_mixer uv comp (mkSaved n clusters s) grid o = Ok (out, o') /\ map xexp out = map dens grid
    end.

(** A saved state in its space. *)
Definition state_ok {H : Type} (Hok : H -> Prop) (n : nat) (labels : list nat) (clusters : list (uni_ls * Z)) (hyp : H) (m : mixing) : Prop :=
  saved_clustering n labels clusters /\ Hok hyp /\ mixing_valid m /\ (forall p, In p clusters -> 0 < ls_var (fst p)).

Lemma clusters_nonempty : forall (I : Iface) (data : list (Datum I)) GH GS GM (snap : snapshot I), (1 <= length data)%nat ->
  saved_valid I data GH GS GM snap -> s_clusters snap <> [].
Proof.
  intros I data GH GS GM snap Hn ((L1 & L2 & _) & _) E. rewrite E in L2. destruct (s_alloc snap) as [|c al]; [cbn in L1; lia|].
  destruct (L2 c) as [H _]. specialize (H (or_introl eq_refl)). cbn in H. lia.
Qed.

Lemma predictive_density : forall h n clusters m, valid h -> mixing_valid m -> saved_ok uni_ls (mkSaved n clusters tt) -> clusters <> [] ->
  (forall p, In p clusters -> 0 < ls_var (fst p)) ->
  evaluated_density (fin_like norm_lpdf) (fun y => Fin (nnig_marg_lpdf lgam h y)) n clusters m.
Proof.
  intros h n clusters m Hh Hm S N A uv U. destruct m as [p s|p s].
  - exact (C106_conjugate_dirichlet h uv (mkSaved n clusters (dp_tot s)) Hh U S (proj1 Hm) A).
  - exact (C106_conjugate_pitman_yor h uv (mkSaved n clusters s) Hh U S (proj1 Hm) (proj2 Hm) N A).
Qed.
Lemma auxiliary_density : forall f draws n clusters m, univariate_like f -> draws <> [] -> (forall s, In s draws -> 0 < ls_var s) -> mixing_valid m ->
  saved_ok uni_ls (mkSaved n clusters tt) -> clusters <> [] -> (forall p, In p clusters -> 0 < ls_var (fst p)) ->
  evaluated_density (fin_like f) (aux_component (fin_like f) draws) n clusters m.
Proof.
  intros f draws n clusters m Hf Nd Hd Hm S N A uv U. destruct m as [p s|p s].
  - exact (C106_auxiliary_dirichlet f draws uv (mkSaved n clusters (dp_tot s)) Hf Nd Hd U S (proj1 Hm) A).
  - exact (C106_auxiliary_pitman_yor f draws uv (mkSaved n clusters s) Hf Nd Hd U S (proj1 Hm) (proj2 Hm) N A).
Qed.

(** Draws of Neal8's evaluation: from the prior with the saved hyperparameters. *)
Definition prior_draws {H S T : Type} (sample : H -> T -> S * T) (h : H) (l : list S) : Prop :=
  forall s, In s l -> exists r, s = fst (sample h r).

(** The initial number of clusters: zero stands for one per datum. *)
Definition fits (k : nat) (pos : nat -> nat) (n : nat) : Prop :=
  (k <= n)%nat /\ forall i, (pos i < if k =? 0 then n else k)%nat.

(** ** Normal likelihood, normal-inverse-gamma prior *)
Theorem C112_neal2_normal : forall G p mp data k pos st maxiter burnin r s out,
  gen_ok G -> gen_pos G -> (2 <= length data)%nat -> fits k pos (length data) ->
  neal2_run (nnig_iface lgam G p) (nig_init p) (mixing_start mp) data k pos st maxiter burnin r = Ok (s, out) ->
  length out = (maxiter - burnin)%nat /\ forall snap, In snap out ->
    state_ok valid (length data) (s_alloc snap) (s_clusters snap) (s_hyp snap) (s_mix snap) /\
    evaluated_density (fin_like norm_lpdf) (fun y => Fin (nnig_marg_lpdf lgam (s_hyp snap) y)) (length data) (s_clusters snap) (s_mix snap).
Proof.
  intros G p mp data k pos st maxiter burnin r s out HG HP Hn [Hk Hpos] R. unfold neal2_run, start in R.
  destruct (mixing_start mp) as [m| | |] eqn:Em; [|unfold run in R; cbn [rbind] in R; discriminate..]. destruct (nig_init p) as [hy| | |] eqn:Eh; [|unfold run in R; cbn [rbind] in R; discriminate..]. cbn [rbind] in R.
  destruct (@neal2_saved (nnig_iface lgam G p) (nnig_laws lgam G p HG) data (repeat tt (length data)) (nnig_rows lgam G p data) valid ls_valid mixing_valid
    (nnig_closed lgam G p data HP (nig_prior_checked p hy Eh)) (fun m Hm => mixing_masses m _ Hm) hy m k pos
    (mkHier (nnig_iface lgam G p) [] 0%Z norm_stats0 st false None) (nig_init_valid p hy Eh) (mixing_start_valid mp m Em) Hk Hpos ltac:(discriminate) ltac:(discriminate)
    r maxiter burnin s out Hn R) as [L K].
  split; [exact L|]. intros snap Hin. pose proof (K snap Hin) as V. pose proof (clusters_nonempty (nnig_iface lgam G p) data valid ls_valid mixing_valid snap ltac:(lia) V) as N.
  destruct V as (C & H & M & A & uv & P & E). split; [split; [exact C|]; split; [exact H|]; split; [exact M|exact A]|].
  apply predictive_density; [exact H|exact M| |exact N|exact A]. pose proof (proper_saved (nnig_iface lgam G p) data (s_alloc snap) uv unit tt P) as Q. rewrite <- E in Q. exact Q.
Qed.
Print Assumptions C112_neal2_normal.

Theorem C112_neal3_normal : forall G p mp data k pos st maxiter burnin r s out,
  gen_ok G -> gen_pos G -> (2 <= length data)%nat -> fits k pos (length data) ->
  neal3_run (nnig_iface lgam G p) (nig_init p) (mixing_start mp) data k pos st maxiter burnin r = Ok (s, out) ->
  length out = (maxiter - burnin)%nat /\ forall snap, In snap out ->
    state_ok valid (length data) (s_alloc snap) (s_clusters snap) (s_hyp snap) (s_mix snap) /\
    evaluated_density (fin_like norm_lpdf) (fun y => Fin (nnig_marg_lpdf lgam (s_hyp snap) y)) (length data) (s_clusters snap) (s_mix snap).
Proof.
  intros G p mp data k pos st maxiter burnin r s out HG HP Hn [Hk Hpos] R. unfold neal3_run, start in R.
  destruct (mixing_start mp) as [m| | |] eqn:Em; [|unfold run in R; cbn [rbind] in R; discriminate..]. destruct (nig_init p) as [hy| | |] eqn:Eh; [|unfold run in R; cbn [rbind] in R; discriminate..]. cbn [rbind] in R.
  destruct (@neal3_saved (nnig_iface lgam G p) (nnig_laws lgam G p HG) data (repeat tt (length data)) (nnig_rows lgam G p data) valid ls_valid mixing_valid
    (nnig_closed lgam G p data HP (nig_prior_checked p hy Eh)) (fun m Hm => mixing_masses m _ Hm) hy m k pos
    (mkHier (nnig_iface lgam G p) [] 0%Z norm_stats0 st false None) (nig_init_valid p hy Eh) (mixing_start_valid mp m Em) Hk Hpos ltac:(discriminate) ltac:(discriminate)
    r maxiter burnin s out eq_refl eq_refl Hn R) as [L K].
  split; [exact L|]. intros snap Hin. pose proof (K snap Hin) as V. pose proof (clusters_nonempty (nnig_iface lgam G p) data valid ls_valid mixing_valid snap ltac:(lia) V) as N.
  destruct V as (C & H & M & A & uv & P & E). split; [split; [exact C|]; split; [exact H|]; split; [exact M|exact A]|].
  apply predictive_density; [exact H|exact M| |exact N|exact A]. pose proof (proper_saved (nnig_iface lgam G p) data (s_alloc snap) uv unit tt P) as Q. rewrite <- E in Q. exact Q.
Qed.
Print Assumptions C112_neal3_normal.

(** Neal8: a single observation is enough. *)
Theorem C112_neal8_normal : forall G p mp data k pos st n_aux maxiter burnin r s out,
  gen_ok G -> gen_pos G -> (1 <= length data)%nat -> fits k pos (length data) -> (1 <= n_aux)%nat ->
  neal8_run (nnig_iface lgam G p) (nig_init p) (mixing_start mp) data k pos st n_aux maxiter burnin r = Ok (s, out) ->
  length out = (maxiter - burnin)%nat /\ forall snap, In snap out ->
    state_ok valid (length data) (s_alloc snap) (s_clusters snap) (s_hyp snap) (s_mix snap) /\
    forall draws, draws <> [] -> prior_draws (nig_sample G) (s_hyp snap) draws ->
      evaluated_density (fin_like norm_lpdf) (aux_component (fin_like norm_lpdf) draws) (length data) (s_clusters snap) (s_mix snap).
Proof.
  intros G p mp data k pos st n_aux maxiter burnin r s out HG HP Hn [Hk Hpos] Hx R. unfold neal8_run, start in R.
  destruct (mixing_start mp) as [m| | |] eqn:Em; [|unfold run in R; cbn [rbind] in R; discriminate..]. destruct (nig_init p) as [hy| | |] eqn:Eh; [|unfold run in R; cbn [rbind] in R; discriminate..]. cbn [rbind] in R.
  destruct (@neal8_saved (nnig_iface lgam G p) (nnig_laws lgam G p HG) data (repeat tt (length data)) (nnig_rows lgam G p data) valid ls_valid mixing_valid
    (nnig_closed lgam G p data HP (nig_prior_checked p hy Eh)) (fun m Hm => mixing_masses m _ Hm) hy m k pos
    (mkHier (nnig_iface lgam G p) [] 0%Z norm_stats0 st false None) (nig_init_valid p hy Eh) (mixing_start_valid mp m Em) Hk Hpos ltac:(discriminate) ltac:(discriminate)
    n_aux r maxiter burnin s out Hx Hn R) as [L K].
  split; [exact L|]. intros snap Hin. pose proof (K snap Hin) as V. pose proof (clusters_nonempty (nnig_iface lgam G p) data valid ls_valid mixing_valid snap Hn V) as N.
  destruct V as (C & H & M & A & uv & P & E). split; [split; [exact C|]; split; [exact H|]; split; [exact M|exact A]|].
  intros draws Nd Hd. apply auxiliary_density; [now left|exact Nd| |exact M| |exact N|exact A].
  - intros x Hxd. destruct (Hd x Hxd) as (q & ->). now apply nig_sample_valid.
  - pose proof (proper_saved (nnig_iface lgam G p) data (s_alloc snap) uv unit tt P) as Q. rewrite <- E in Q. exact Q.
Qed.
Print Assumptions C112_neal8_normal.

(** ** Normal likelihood, independent normal and inverse-gamma priors *)
Lemma nxig_init_valid : forall p h, nxig_init p = Ok h -> nx_valid h.
Proof.
  intros [m v a b|] h E; [|discriminate]. cbn [nxig_init] in E.
  repeat match type of E with context [if lteb ?x 0 then _ else _] => let Q := fresh in destruct (lteb x 0) eqn:Q; [discriminate|apply lteb_false in Q] end.
  injection E as <-. repeat split; assumption.
Qed.
Theorem C112_neal8_semiconjugate : forall G p mp data k pos st n_aux maxiter burnin r s out,
  gen_ok G -> gen_pos G -> (1 <= length data)%nat -> fits k pos (length data) -> (1 <= n_aux)%nat ->
  neal8_run (nnxig_iface G) (nxig_init p) (mixing_start mp) data k pos st n_aux maxiter burnin r = Ok (s, out) ->
  length out = (maxiter - burnin)%nat /\ forall snap, In snap out ->
    state_ok nx_valid (length data) (s_alloc snap) (s_clusters snap) (s_hyp snap) (s_mix snap) /\
    forall draws, draws <> [] -> prior_draws (nxig_sample G) (s_hyp snap) draws ->
      evaluated_density (fin_like norm_lpdf) (aux_component (fin_like norm_lpdf) draws) (length data) (s_clusters snap) (s_mix snap).
Proof.
  intros G p mp data k pos st n_aux maxiter burnin r s out HG HP Hn [Hk Hpos] Hx R. unfold neal8_run, start in R.
  destruct (mixing_start mp) as [m| | |] eqn:Em; [|unfold run in R; cbn [rbind] in R; discriminate..]. destruct (nxig_init p) as [hy| | |] eqn:Eh; [|unfold run in R; cbn [rbind] in R; discriminate..]. cbn [rbind] in R.
  destruct (@neal8_saved (nnxig_iface G) (nnxig_laws G HG) data (repeat tt (length data)) (nnxig_rows G data) nx_valid ls_valid mixing_valid
    (nnxig_closed G data HP) (fun m Hm => mixing_masses m _ Hm) hy m k pos
    (mkHier (nnxig_iface G) [] 0%Z norm_stats0 st false None) (nxig_init_valid p hy Eh) (mixing_start_valid mp m Em) Hk Hpos ltac:(discriminate) ltac:(discriminate)
    n_aux r maxiter burnin s out Hx Hn R) as [L K].
  split; [exact L|]. intros snap Hin. pose proof (K snap Hin) as V. pose proof (clusters_nonempty (nnxig_iface G) data nx_valid ls_valid mixing_valid snap Hn V) as N.
  destruct V as (C & H & M & A & uv & P & E). split; [split; [exact C|]; split; [exact H|]; split; [exact M|exact A]|].
  intros draws Nd Hd. apply auxiliary_density; [now left|exact Nd| |exact M| |exact N|exact A].
  - intros x Hxd. destruct (Hd x Hxd) as (q & ->). now apply nxig_sample_valid.
  - pose proof (proper_saved (nnxig_iface G) data (s_alloc snap) uv unit tt P) as Q. rewrite <- E in Q. exact Q.
Qed.
Print Assumptions C112_neal8_semiconjugate.

(** ** Laplace likelihood, random-walk updater, whatever the uninitialised variables hold *)
Theorem C112_neal8_laplace : forall G p mp data step junk k pos st n_aux maxiter burnin r s out,
  gen_ok G -> gen_pos G -> (1 <= length data)%nat -> fits k pos (length data) -> (1 <= n_aux)%nat ->
  neal8_run (lap_iface G step junk data) (nxig_init p) (mixing_start mp) data k pos st n_aux maxiter burnin r = Ok (s, out) ->
  length out = (maxiter - burnin)%nat /\ forall snap, In snap out ->
    state_ok nx_valid (length data) (s_alloc snap) (s_clusters snap) (s_hyp snap) (s_mix snap) /\
    forall draws, draws <> [] -> prior_draws (nxig_sample G) (s_hyp snap) draws ->
      evaluated_density (fin_like lap_lpdf) (aux_component (fin_like lap_lpdf) draws) (length data) (s_clusters snap) (s_mix snap).
Proof.
  intros G p mp data step junk k pos st n_aux maxiter burnin r s out HG HP Hn [Hk Hpos] Hx R. unfold neal8_run, start in R.
  destruct (mixing_start mp) as [m| | |] eqn:Em; [|unfold run in R; cbn [rbind] in R; discriminate..]. destruct (nxig_init p) as [hy| | |] eqn:Eh; [|unfold run in R; cbn [rbind] in R; discriminate..]. cbn [rbind] in R.
  destruct (@neal8_saved (lap_iface G step junk data) (lap_laws G step junk data HG) data (repeat tt (length data)) (lap_rows G step junk data) nx_valid ls_valid mixing_valid
    (lap_closed G step junk data HP) (fun m Hm => mixing_masses m _ Hm) hy m k pos
    (mkHier (lap_iface G step junk data) [] 0%Z tt st false None) (nxig_init_valid p hy Eh) (mixing_start_valid mp m Em) Hk Hpos ltac:(discriminate) ltac:(discriminate)
    n_aux r maxiter burnin s out Hx Hn R) as [L K].
  split; [exact L|]. intros snap Hin. pose proof (K snap Hin) as V. pose proof (clusters_nonempty (lap_iface G step junk data) data nx_valid ls_valid mixing_valid snap Hn V) as N.
  destruct V as (C & H & M & A & uv & P & E). split; [split; [exact C|]; split; [exact H|]; split; [exact M|exact A]|].
  intros draws Nd Hd. apply auxiliary_density; [now right|exact Nd| |exact M| |exact N|exact A].
  - intros x Hxd. destruct (Hd x Hxd) as (q & ->). now apply nxig_sample_valid.
  - pose proof (proper_saved (lap_iface G step junk data) data (s_alloc snap) uv unit tt P) as Q. rewrite <- E in Q. exact Q.
Qed.
Print Assumptions C112_neal8_laplace.

(** ** With a fixed total mass, or fixed strength and discount, the programs end normally *)
Theorem C112_programs_end : forall G mp data k pos st maxiter burnin r,
  gen_ok G -> prior_fixed mp -> (2 <= length data)%nat -> fits k pos (length data) ->
  (forall p hy, nig_init p = Ok hy ->
    (exists s out, neal2_run (nnig_iface lgam G p) (Ok hy) (mixing_start mp) data k pos st maxiter burnin r = Ok (s, out)) /\
    (exists s out, neal3_run (nnig_iface lgam G p) (Ok hy) (mixing_start mp) data k pos st maxiter burnin r = Ok (s, out)) /\
    (forall n_aux, (1 <= n_aux)%nat -> exists s out, neal8_run (nnig_iface lgam G p) (Ok hy) (mixing_start mp) data k pos st n_aux maxiter burnin r = Ok (s, out))) /\
  (forall hy n_aux, (1 <= n_aux)%nat ->
    (exists s out, neal8_run (nnxig_iface G) (Ok hy) (mixing_start mp) data k pos st n_aux maxiter burnin r = Ok (s, out)) /\
    (forall step junk, exists s out, neal8_run (lap_iface G step junk data) (Ok hy) (mixing_start mp) data k pos st n_aux maxiter burnin r = Ok (s, out))).
Proof.
  intros G mp data k pos st maxiter burnin r HG Hp Hn [Hk Hpos]. destruct (prior_fixed_start mp Hp) as (m & -> & Hm).
  assert (S1 : forall p, @mixing_safe (nnig_iface lgam G p) data mixing_fixed).
  { intro p. split; [intros x [Vx _]; exact (mixing_masses x _ Vx)|]. intros x cards al q Fx. exists x, q. split; [now apply mixing_fixed_update|exact Fx]. }
  assert (S2 : @mixing_safe (nnxig_iface G) data mixing_fixed).
  { split; [intros x [Vx _]; exact (mixing_masses x _ Vx)|]. intros x cards al q Fx. exists x, q. split; [now apply mixing_fixed_update|exact Fx]. }
  assert (S3 : forall step junk, @mixing_safe (lap_iface G step junk data) data mixing_fixed).
  { intros step junk. split; [intros x [Vx _]; exact (mixing_masses x _ Vx)|]. intros x cards al q Fx. exists x, q. split; [now apply mixing_fixed_update|exact Fx]. }
  split.
  - intros p hy _. split; [|split; [|intros n_aux Hx]].
    + exact (@neal2_complete (nnig_iface lgam G p) (nnig_laws lgam G p HG) data hy m k pos st (nnig_rows lgam G p data) mixing_fixed (S1 p) Hm Hk Hpos maxiter burnin r Hn).
    + exact (@neal3_complete (nnig_iface lgam G p) (nnig_laws lgam G p HG) data hy m k pos st (nnig_rows lgam G p data) mixing_fixed (S1 p) Hm Hk Hpos maxiter burnin r eq_refl eq_refl Hn).
    + exact (@neal8_complete (nnig_iface lgam G p) (nnig_laws lgam G p HG) data hy m k pos st (nnig_rows lgam G p data) mixing_fixed (S1 p) Hm Hk Hpos n_aux maxiter burnin r Hx (Nat.le_trans _ _ _ (le_S _ _ (le_n 1)) Hn)).
  - intros hy n_aux Hx. split; [|intros step junk].
    + exact (@neal8_complete (nnxig_iface G) (nnxig_laws G HG) data hy m k pos st (nnxig_rows G data) mixing_fixed S2 Hm Hk Hpos n_aux maxiter burnin r Hx (Nat.le_trans _ _ _ (le_S _ _ (le_n 1)) Hn)).
    + exact (@neal8_complete (lap_iface G step junk data) (lap_laws G step junk data HG) data hy m k pos st (lap_rows G step junk data) mixing_fixed (S3 step junk) Hm Hk Hpos n_aux maxiter burnin r Hx (Nat.le_trans _ _ _ (le_S _ _ (le_n 1)) Hn)).
Qed.
Print Assumptions C112_programs_end.

(** With any accepted priors the programs end normally or by an exception, never
    by undefined behaviour. *)
Theorem C112_never_undefined : forall G mp data k pos st maxiter burnin r,
  gen_ok G -> gen_pos G -> (2 <= length data)%nat -> fits k pos (length data) ->
  (forall p, ends (neal2_run (nnig_iface lgam G p) (nig_init p) (mixing_start mp) data k pos st maxiter burnin r) /\
    ends (neal3_run (nnig_iface lgam G p) (nig_init p) (mixing_start mp) data k pos st maxiter burnin r) /\
    (forall n_aux, (1 <= n_aux)%nat -> ends (neal8_run (nnig_iface lgam G p) (nig_init p) (mixing_start mp) data k pos st n_aux maxiter burnin r))) /\
  (forall p n_aux, (1 <= n_aux)%nat ->
    ends (neal8_run (nnxig_iface G) (nxig_init p) (mixing_start mp) data k pos st n_aux maxiter burnin r) /\
    (forall step junk, ends (neal8_run (lap_iface G step junk data) (nxig_init p) (mixing_start mp) data k pos st n_aux maxiter burnin r))).
Proof.
  intros G mp data k pos st maxiter burnin r HG HP Hn [Hk Hpos].
  assert (E0 : (exists msg, mixing_start mp = Throw msg) \/ exists m, mixing_start mp = Ok m).
  { destruct mp as [[t|a b|]|[t d|]]; cbn [mixing_start dp_init py_init]; repeat match goal with |- context [if ?c then _ else _] => destruct c end; cbn [rbind]; eauto. }
  destruct E0 as [(msg & Em)|(m & Em)].
  { unfold neal2_run, neal3_run, neal8_run, start. rewrite Em. unfold run, ends. cbn [rbind].
    split; [intro p; split; [eauto|split; eauto]|]. intros p n_aux _. split; [eauto|intros; eauto]. }
  pose proof (mixing_start_valid mp m Em) as Vm. rewrite Em.
  assert (V1 : forall m cards al (r : Gs G) m' r', mixing_valid m -> mixing_update G m cards al r = Ok (m', r') -> mixing_valid m') by (intros; eapply mixing_update_valid; eauto).
  split.
  - intro p. assert (E1 : (exists msg, nig_init p = Throw msg) \/ exists hy, nig_init p = Ok hy).
    { destruct p; cbn [nig_init]; unfold nig_check; repeat match goal with |- context [if ?c then _ else _] => destruct c end; eauto. }
    destruct E1 as [(msg & Eh)|(hy & Eh)]; rewrite Eh.
    { unfold neal2_run, neal3_run, neal8_run, start, run, ends. cbn [rbind]. split; [eauto|]. split; eauto. }
    assert (Up : forall m cards al (r : Gs G), mixing_valid m -> ends (mixing_update G m cards al r)) by (intros; apply mixing_update_ends).
    split; [|split; [|intros n_aux Hx]].
    + exact (@neal2_ends (nnig_iface lgam G p) (nnig_laws lgam G p HG) data hy m k pos st (nnig_rows lgam G p data) mixing_valid (fun x Hv => mixing_masses x _ Hv) Up V1 Vm Hk Hpos maxiter burnin r Hn).
    + exact (@neal3_ends (nnig_iface lgam G p) (nnig_laws lgam G p HG) data hy m k pos st (nnig_rows lgam G p data) mixing_valid (fun x Hv => mixing_masses x _ Hv) Up V1 Vm Hk Hpos maxiter burnin r eq_refl eq_refl Hn).
    + exact (@neal8_ends (nnig_iface lgam G p) (nnig_laws lgam G p HG) data hy m k pos st (nnig_rows lgam G p data) mixing_valid (fun x Hv => mixing_masses x _ Hv) Up V1 Vm Hk Hpos n_aux maxiter burnin r Hx (Nat.le_trans _ _ _ (le_S _ _ (le_n 1)) Hn)).
  - intros p n_aux Hx. assert (E1 : (exists msg, nxig_init p = Throw msg) \/ exists hy, nxig_init p = Ok hy).
    { destruct p; cbn [nxig_init]; repeat match goal with |- context [if ?c then _ else _] => destruct c end; eauto. }
    destruct E1 as [(msg & Eh)|(hy & Eh)]; rewrite Eh.
    { unfold neal8_run, start, run, ends. cbn [rbind]. split; [eauto|intros; eauto]. }
    assert (Up : forall m cards al (r : Gs G), mixing_valid m -> ends (mixing_update G m cards al r)) by (intros; apply mixing_update_ends).
    split; [|intros step junk].
    + exact (@neal8_ends (nnxig_iface G) (nnxig_laws G HG) data hy m k pos st (nnxig_rows G data) mixing_valid (fun x Hv => mixing_masses x _ Hv) Up V1 Vm Hk Hpos n_aux maxiter burnin r Hx (Nat.le_trans _ _ _ (le_S _ _ (le_n 1)) Hn)).
    + exact (@neal8_ends (lap_iface G step junk data) (lap_laws G step junk data HG) data hy m k pos st (lap_rows G step junk data) mixing_valid (fun x Hv => mixing_masses x _ Hv) Up V1 Vm Hk Hpos n_aux maxiter burnin r Hx (Nat.le_trans _ _ _ (le_S _ _ (le_n 1)) Hn)).
Qed.
Print Assumptions C112_never_undefined.

(** With a gamma prior on the total mass a program can end by an exception although
    every prior was accepted and every generator returned a value of its law's
    support: a first auxiliary value above the exponential of the rate is enough. *)
Theorem C112_gamma_mass_throws : forall G p hy alpha beta data k pos st maxiter burnin r,
  gen_ok G -> nig_init p = Ok hy -> 0 < alpha -> 0 < beta -> (2 <= length data)%nat -> fits k pos (length data) -> (1 <= maxiter)%nat ->
  (forall q, exp beta <= fst (g_gamma G (alpha / beta + 1) (INR (length data)) q)) ->
  exists msg, neal2_run (nnig_iface lgam G p) (nig_init p) (mixing_start (PriDP (DPGamma alpha beta))) data k pos st maxiter burnin r = Throw msg.
Proof.
  intros G p hy al be data k pos st maxiter burnin r HG Eh Ha Hb Hn [Hk Hpos] Hi Hbig.
  assert (Em : mixing_start (PriDP (DPGamma al be)) = Ok (MixDP (DPGamma al be) (mkDp (al / be) (Some (Fin 0))))).
  { cbn [mixing_start]. unfold dp_init. rewrite !(proj2 (lteb_false _ _)) by lra. reflexivity. }
  pose proof (mixing_start_valid _ _ Em) as Vm. rewrite Em, Eh.
  refine (@neal2_throws (nnig_iface lgam G p) (nnig_laws lgam G p HG) data hy (MixDP (DPGamma al be) (mkDp (al / be) (Some (Fin 0)))) k pos st (nnig_rows lgam G p data)
    mixing_valid (fun x Hv => mixing_masses x _ Hv) Vm Hk Hpos maxiter burnin r Hn Hi _).
  intros cards al0 q Nc La. change (length al0 = length data) in La. change (exists msg, mixing_update G (MixDP (DPGamma al be) (mkDp (al / be) (Some (Fin 0)))) cards al0 q = Throw msg).
  assert (Na : al0 <> []) by (intros ->; destruct data; [cbn in Hn; lia|discriminate]).
  destruct (g_gamma G (al / be + 1) (INR (length data)) q) as [phi r4] eqn:Eg. pose proof (Hbig q) as Hp. rewrite Eg in Hp. cbn [fst] in Hp.
  assert (Pm : 0 < al / be) by now apply Rdiv_lt_0_compat.
  destruct (C111_update G al be (mkDp (al / be) (Some (Fin 0))) cards al0 q phi r4 Ha Hb Pm Nc Na) as [_ T].
  { rewrite La. exact Eg. }
  { pose proof (exp_pos be). lra. }
  exact (T Hp).
Qed.
Print Assumptions C112_gamma_mass_throws.
Definition g10 : gen := mkGen nat (fun m _ r => (m + INR r, S r)) (fun _ _ r => (1, S r)) (fun _ _ r => (10, S r)) (fun _ _ r => (/ 2, S r))
  (fun ps r => (Nat.modulo r (length ps), S r)).
Theorem C112_gamma_mass_ends_refuted : exists G p mp data k pos st maxiter burnin r msg hy m,
  gen_ok G /\ gen_pos G /\ nig_init p = Ok hy /\ mixing_start mp = Ok m /\ (2 <= length data)%nat /\ fits k pos (length data) /\
  neal2_run (nnig_iface lgam G p) (nig_init p) (mixing_start mp) data k pos st maxiter burnin r = Throw msg.
Proof.
  assert (H1 : gen_ok g10) by (intros ps r N; cbn; apply Nat.mod_upper_bound; destruct ps; [congruence|discriminate]).
  assert (H2 : gen_pos g10) by (split; cbn; intros; lra).
  assert (E : nig_init (NIGFixed 0 1 2 2) = Ok (mkNIG 0 1 2 2)) by (cbn [nig_init]; unfold nig_check; cbn; rewrite !(proj2 (lteb_false _ _)) by lra; reflexivity).
  assert (F : fits 0 (fun i => i mod 2) 2) by (split; [lia|]; intro i; apply (Nat.mod_upper_bound i 2); discriminate).
  destruct (C112_gamma_mass_throws g10 (NIGFixed 0 1 2 2) _ 2 1 [0; 1] 0 (fun i => i mod 2) (mkLS 0 0) 1 0 0%nat H1 E ltac:(lra) ltac:(lra) ltac:(cbn; lia) F ltac:(lia)) as (msg & R).
  { intro q. cbn. pose proof exp_le_3. lra. }
  exists g10, (NIGFixed 0 1 2 2), (PriDP (DPGamma 2 1)), [0; 1], 0%nat, (fun i => i mod 2)%nat, (mkLS 0 0), 1%nat, 0%nat, 0%nat, msg. eexists. eexists.
  split; [exact H1|]. split; [exact H2|]. split; [exact E|]. split; [|split; [cbn; lia|split; [exact F|exact R]]].
  cbn [mixing_start]. unfold dp_init. rewrite !(proj2 (lteb_false _ _)) by lra. reflexivity.
Qed.
Print Assumptions C112_gamma_mass_ends_refuted.

(** Non-vacuity: constant generators, three observations, two initial clusters,
    a Pitman-Yor mixing, three saved states. *)
Definition g1 : gen := mkGen nat (fun m _ r => (m + INR r, S r)) (fun _ _ r => (1, S r)) (fun _ _ r => (1, S r)) (fun _ _ r => (/ 2, S r))
  (fun ps r => (Nat.modulo r (length ps), S r)).
Lemma g1_ok : gen_ok g1 /\ gen_pos g1.
Proof.
  split; [|split; cbn; intros; lra]. intros ps r N. cbn. apply Nat.mod_upper_bound. destruct ps; [congruence|discriminate].
Qed.
Example C112_example : exists s out,
  neal2_run (nnig_iface lgam g1 (NIGNgg 0 1 2 2 3 3 2)) (nig_init (NIGNgg 0 1 2 2 3 3 2)) (mixing_start (PriPY (PYFixed 1 (/ 2)))) [0; 1; 5] 2 (fun i => i mod 2) (mkLS 0 0) 5 2 0%nat = Ok (s, out) /\
  length out = 3%nat /\ forall snap, In snap out ->
    state_ok valid 3 (s_alloc snap) (s_clusters snap) (s_hyp snap) (s_mix snap) /\
    evaluated_density (fin_like norm_lpdf) (fun y => Fin (nnig_marg_lpdf lgam (s_hyp snap) y)) 3 (s_clusters snap) (s_mix snap).
Proof.
  assert (F : fits 2 (fun i => i mod 2) 3) by (split; [lia|]; intro i; apply (Nat.mod_upper_bound i 2); discriminate).
  assert (E : nig_init (NIGNgg 0 1 2 2 3 3 2) = Ok (mkNIG 0 (2 / 2) 2 (3 / 3))) by (unfold nig_init; rewrite !(proj2 (lteb_false _ _)) by lra; reflexivity).
  destruct (C112_programs_end g1 (PriPY (PYFixed 1 (/ 2))) [0; 1; 5] 2 (fun i => i mod 2) (mkLS 0 0) 5 2 0%nat (proj1 g1_ok) ltac:(cbn; lra) ltac:(cbn; lia) F) as [Q _].
  destruct (Q _ _ E) as [(s & out & R) _]. exists s, out. rewrite E. split; [exact R|].
  rewrite <- E in R. refine (C112_neal2_normal g1 _ _ [0; 1; 5] _ _ _ 5 2 _ s out (proj1 g1_ok) (proj2 g1_ok) _ F R). cbn. lia.
Qed.
Example C112_example_laplace : exists s out,
  neal8_run (lap_iface g1 (/ 2) (fun _ => (7, 9)) [0; 1; 5]) (nxig_init (NxIGFixed 0 1 2 2)) (mixing_start (PriDP (DPFixed 2))) [0; 1; 5] 0 (fun i => i mod 3) (mkLS 0 0) 2 4 1 0%nat = Ok (s, out) /\
  length out = 3%nat /\ forall snap, In snap out -> state_ok nx_valid 3 (s_alloc snap) (s_clusters snap) (s_hyp snap) (s_mix snap) /\
    evaluated_density (fin_like lap_lpdf) (aux_component (fin_like lap_lpdf) [fst (nxig_sample g1 (s_hyp snap) 3%nat)]) 3 (s_clusters snap) (s_mix snap).
Proof.
  assert (F : fits 0 (fun i => i mod 3) 3) by (split; [lia|]; intro i; apply Nat.mod_upper_bound; discriminate).
  assert (E : nxig_init (NxIGFixed 0 1 2 2) = Ok (mkNxIG 0 1 2 2)) by (unfold nxig_init; rewrite !(proj2 (lteb_false _ _)) by lra; reflexivity).
  destruct (C112_programs_end g1 (PriDP (DPFixed 2)) [0; 1; 5] 0 (fun i => i mod 3) (mkLS 0 0) 4 1 0%nat (proj1 g1_ok) ltac:(cbn; lra) ltac:(cbn; lia) F) as [_ Q].
  destruct (Q (mkNxIG 0 1 2 2) 2%nat ltac:(lia)) as [_ Q3]. destruct (Q3 (/ 2) (fun _ => (7, 9))) as (s & out & R). exists s, out.
  assert (R2 : neal8_run (lap_iface g1 (/ 2) (fun _ => (7, 9)) [0; 1; 5]) (nxig_init (NxIGFixed 0 1 2 2)) (mixing_start (PriDP (DPFixed 2))) [0; 1; 5] 0 (fun i => i mod 3) (mkLS 0 0) 2 4 1 0%nat = Ok (s, out)) by (rewrite E; exact R).
  split; [exact R2|]. destruct (C112_neal8_laplace g1 _ _ [0; 1; 5] _ _ _ _ _ _ 4 1 _ s out (proj1 g1_ok) (proj2 g1_ok) ltac:(cbn; lia) F (le_S _ _ (le_n 1)) R2) as [L K].
  split; [exact L|]. intros snap Hin. destruct (K snap Hin) as [K1 K2]. split; [exact K1|]. apply K2; [discriminate|]. intros x [<-|[]]. eauto.
Qed.
