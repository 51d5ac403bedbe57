(** * C45, C52, C80: predictive densities and their evaluation on chains. *)
From Coq Require Import String.
From Coq Require Import List Arith ZArith Bool Lia Reals Lra Permutation.
From Verif Require Import Base XReal Mixings Collect Utils UtilsFacts Eval EvalFacts EvalMore.
Import ListNotations.
Local Open Scope R_scope.

(** ** C45 *)
Theorem C45_dirichlet_mixture : forall St Pt (like : St -> Pt -> xreal) uv comp (sv : saved St R) grid o,
  uv <> [] -> saved_ok St sv -> 0 < sv_mix sv ->
  let n := INR (sv_n sv) in
  let M := sv_mix sv in
  exists out, marg_eval like dp_mixer uv comp sv grid o = Ok (out, mkDp M (Some (Fin (ln M)))) /\
    Forall2 (density_of St Pt like (map (fun p => IZR (snd p) / (n + M)) (sv_clusters sv)) (M / (n + M)) (sv_clusters sv) comp) grid out /\
    total (map (fun p => IZR (snd p) / (n + M)) (sv_clusters sv)) + M / (n + M) = 1.
Proof. exact dp_density. Qed.
Print Assumptions C45_dirichlet_mixture.
Theorem C45_pitman_yor_mixture : forall St Pt (like : St -> Pt -> xreal) uv comp (sv : saved St py_state) grid o,
  uv <> [] -> saved_ok St sv ->
  let n := INR (sv_n sv) in
  let t := py_str (sv_mix sv) in
  let d := py_dis (sv_mix sv) in
  let K := INR (length (sv_clusters sv)) in
  0 <= d < 1 -> - d < t -> sv_clusters sv <> [] ->
  exists out, marg_eval like py_mixer uv comp sv grid o = Ok (out, sv_mix sv) /\
    Forall2 (density_of St Pt like (map (fun p => (IZR (snd p) - d) / (n + t)) (sv_clusters sv)) ((t + d * K) / (n + t)) (sv_clusters sv) comp) grid out /\
    total (map (fun p => (IZR (snd p) - d) / (n + t)) (sv_clusters sv)) + (t + d * K) / (n + t) = 1.
Proof. exact py_density. Qed.
Print Assumptions C45_pitman_yor_mixture.
Theorem C45_finite_mixture : forall St Pt (like : St -> Pt -> xreal) series uv comp (sv : saved St (R * R)) grid o V1 V2 s1 s2,
  uv <> [] -> saved_ok St sv ->
  let n := INR (sv_n sv) in
  let g := snd (sv_mix sv) in
  let K := length (sv_clusters sv) in
  let den := n + INR K * g + V2 / V1 * g in
  0 < g -> mfm_get_V series K (sv_n sv) (mfm_load (fst (sv_mix sv)) g o) = Ok (V1, s1) -> mfm_get_V series (K + 1) (sv_n sv) s1 = Ok (V2, s2) ->
  0 < V1 -> 0 <= V2 -> (0 < K)%nat ->
  exists out o', marg_eval like (mfm_mixer series) uv comp sv grid o = Ok (out, o') /\
    Forall2 (density_of St Pt like (map (fun p => (IZR (snd p) + g) / den) (sv_clusters sv)) (V2 / V1 * g / den) (sv_clusters sv) comp) grid out /\
    total (map (fun p => (IZR (snd p) + g) / den) (sv_clusters sv)) + V2 / V1 * g / den = 1.
Proof. exact mfm_density. Qed.
Print Assumptions C45_finite_mixture.
Theorem C45_auxiliary_component : forall St Pt (like : St -> Pt -> xreal) draws x, draws <> [] ->
  xexp (aux_component like draws x) = total (map (fun s => xexp (like s x)) draws) / INR (length draws).
Proof. exact aux_average. Qed.
Print Assumptions C45_auxiliary_component.
Theorem C45_conditional_mixture : forall St Pt (like : St -> Pt -> xreal) uv lw states grid, uv <> [] -> (length states <= length lw)%nat ->
  exists out, cond_eval like uv lw states grid = Ok out /\
    Forall2 (fun x v => xexp v = mixture (map xexp lw) (map (fun s => xexp (like s x)) states)) grid out.
Proof. exact cond_density. Qed.
Print Assumptions C45_conditional_mixture.
Theorem C45_conditional_short_weights : forall St Pt (like : St -> Pt -> xreal) uv lw states x grid, uv <> [] -> (length lw < length states)%nat ->
  cond_eval like uv lw states (x :: grid) = UB.
Proof. exact cond_short. Qed.
Print Assumptions C45_conditional_short_weights.
Definition ex_like (s x : R) : xreal := Fin (- (x - s) * (x - s)).
Definition ex_clusters : list (R * Z) := [(0, 3%Z); (5, 1%Z)].
Example ex_saved : forall Msg (m : Msg), saved_ok R (mkSaved 4 ex_clusters m).
Proof. intros Msg m. split; [|reflexivity]. intros p [<-|[<-|[]]]; simpl; lia. Qed.
Example ex_C45_dirichlet : exists v o', marg_eval ex_like dp_mixer [0] (fun _ => Fin 0) (mkSaved 4 ex_clusters 2) [1] dp_make_shared = Ok ([v], o') /\
  xexp v = 3 / 6 * exp (- 1) + 1 / 6 * exp (- 16) + 2 / 6 * 1.
Proof.
  destruct (C45_dirichlet_mixture R R ex_like [0] (fun _ => Fin 0) (mkSaved 4 ex_clusters 2) [1] dp_make_shared) as (out & E & F & _);
    [discriminate|apply ex_saved|simpl; lra|].
  inversion F as [|x v gs vs Hv Hn]; subst. inversion Hn; subst. exists v. eexists. split; [exact E|].
  rewrite Hv. unfold mixture, total, ex_clusters, ex_like. simpl. rewrite exp_0.
  replace (- (1 - 0) * (1 - 0)) with (-1) by lra. replace (- (1 - 5) * (1 - 5)) with (-16) by lra. lra.
Qed.
Example ex_C45_pitman_yor : exists v o', marg_eval ex_like py_mixer [0] (fun _ => Fin 0) (mkSaved 4 ex_clusters (mkPy 1 (1 / 2))) [1] (mkPy 7 0) = Ok ([v], o') /\
  xexp v = 5 / 2 / 5 * exp (- 1) + 1 / 2 / 5 * exp (- 16) + 2 / 5 * 1.
Proof.
  destruct (C45_pitman_yor_mixture R R ex_like [0] (fun _ => Fin 0) (mkSaved 4 ex_clusters (mkPy 1 (1 / 2))) [1] (mkPy 7 0)) as (out & E & F & _);
    [discriminate|apply ex_saved|simpl; lra|simpl; lra|discriminate|].
  inversion F as [|x v gs vs Hv Hn]; subst. inversion Hn; subst. exists v. eexists. split; [exact E|].
  rewrite Hv. unfold mixture, total, ex_clusters, ex_like. simpl. rewrite exp_0.
  replace (- (1 - 0) * (1 - 0)) with (-1) by lra. replace (- (1 - 5) * (1 - 5)) with (-16) by lra. lra.
Qed.
Example ex_C45_finite : exists v o', marg_eval ex_like (mfm_mixer (fun _ _ _ t _ => 1 / 2 ^ t)) [0] (fun _ => Fin 0) (mkSaved 4 ex_clusters (1, 1)) [1] (mkMfm 1 1 None 0) = Ok ([v], o') /\
  xexp v = 4 / (13 / 2) * exp (- 1) + 2 / (13 / 2) * exp (- 16) + 1 / 2 / (13 / 2) * 1.
Proof.
  destruct (fresh_two (fun _ _ _ t _ => 1 / 2 ^ t) 1 1 0 4 2 ltac:(lia)) as (s1 & s2 & E1 & E2 & _).
  destruct (C45_finite_mixture R R ex_like (fun _ _ _ t _ => 1 / 2 ^ t) [0] (fun _ => Fin 0) (mkSaved 4 ex_clusters (1, 1)) [1] (mkMfm 1 1 None 0) (1 / 2 ^ 2) (1 / 2 ^ 3) s1 s2) as (out & o' & E & F & _);
    [discriminate|apply ex_saved|simpl; lra|exact E1|exact E2|simpl; lra|simpl; lra|simpl; lia|].
  inversion F as [|x v gs vs Hv Hn]; subst. inversion Hn; subst. exists v. eexists. split; [exact E|].
  rewrite Hv. unfold mixture, total, ex_clusters, ex_like. simpl. rewrite exp_0.
  replace (- (1 - 0) * (1 - 0)) with (-1) by lra. replace (- (1 - 5) * (1 - 5)) with (-16) by lra. lra.
Qed.
Example ex_C45_auxiliary : xexp (aux_component ex_like [0; 2] 1) = exp (- 1).
Proof.
  rewrite C45_auxiliary_component by discriminate. unfold total, ex_like. simpl.
  replace (- (1 - 0) * (1 - 0)) with (-1) by lra. replace (- (1 - 2) * (1 - 2)) with (-1) by lra. lra.
Qed.
Example ex_C45_conditional : exists v, cond_eval ex_like [0] [Fin 0; XInf] [0; 5] [1] = Ok [v] /\ xexp v = exp (- 1).
Proof.
  destruct (C45_conditional_mixture R R ex_like [0] [Fin 0; XInf] [0; 5] [1]) as (out & E & F); [discriminate|simpl; lia|].
  inversion F as [|x v gs vs Hv Hn]; subst. inversion Hn; subst. exists v. split; [exact E|]. rewrite Hv. unfold mixture, total, ex_like. simpl. rewrite exp_0.
  replace (- (1 - 0) * (1 - 0)) with (-1) by lra. lra.
Qed.
Example ex_C45_short : cond_eval ex_like [0] [Fin 0] [0; 5] [1] = UB.
Proof. apply C45_conditional_short_weights; [discriminate|simpl; lia]. Qed.

(** ** C52 *)
Theorem C52_sequential_rows : forall Alg M V (eval : Alg -> M -> res (list V * Alg)) g f,
  (forall a m, exists a', eval a m = Ok (f m, a')) -> (forall m, length (f m) = g) ->
  forall a ms, eval_seq eval a ms = if (length ms =? 0)%nat then UB else Ok (g, map Some (map f ms)).
Proof. exact seq_rows. Qed.
Print Assumptions C52_sequential_rows.
Theorem C52_low_memory_same : forall Alg M V (eval : Alg -> M -> res (list V * Alg)) g f,
  (forall a m, exists a', eval a m = Ok (f m, a')) -> (forall m, length (f m) = g) ->
  forall a chunks, eval_low eval a chunks = eval_seq eval a (concat chunks).
Proof. exact low_rows. Qed.
Print Assumptions C52_low_memory_same.
Theorem C52_full_memory_rows : forall Alg M V (eval : Alg -> M -> res (list V * Alg)) g f,
  (forall a m, exists a', eval a m = Ok (f m, a')) -> (forall m, length (f m) = g) ->
  forall a ms njobs, (0 < njobs)%nat -> eval_full eval g a ms njobs = Ok (g, map Some (map f (interleaved M njobs ms))).
Proof. exact full_rows. Qed.
Print Assumptions C52_full_memory_rows.
Theorem C52_same_rows_permuted : forall T (x : list T) num, (0 < num)%nat -> Permutation (interleaved T num x) x.
Proof. exact interleaved_perm. Qed.
Print Assumptions C52_same_rows_permuted.
Theorem C52_order_kept_iff : forall T (x : list T) num, (0 < num)%nat -> NoDup x ->
  (interleaved T num x = x <-> num = 1%nat \/ (length x <= num)%nat).
Proof. exact interleaved_order. Qed.
Print Assumptions C52_order_kept_iff.
Theorem C52_no_jobs : forall Alg M V (eval : Alg -> M -> res (list V * Alg)) g (a : Alg) ms, eval_full eval g a ms 0 = UB.
Proof. exact full_zero. Qed.
Print Assumptions C52_no_jobs.
Theorem C52_values_independent_of_object : forall St Pt (like : St -> Pt -> xreal) uv comp grid,
  (forall sv o o', marg_eval like dp_mixer uv comp sv grid o = marg_eval like dp_mixer uv comp sv grid o') /\
  (forall sv o o', marg_eval like py_mixer uv comp sv grid o = marg_eval like py_mixer uv comp sv grid o').
Proof. exact dp_py_pure. Qed.
Print Assumptions C52_values_independent_of_object.
Definition ex_eval (a m : nat) : res (list nat * nat) := Ok ([m; m * m]%nat, S a).
Theorem C52_parallel_order_refuted : exists Alg M V (eval : Alg -> M -> res (list V * Alg)) g a ms njobs r,
  (0 < njobs)%nat /\ eval_full eval g a ms njobs = Ok r /\ eval_seq eval a ms <> Ok r.
Proof.
  exists nat, nat, nat, ex_eval, 2%nat, 0%nat, [1; 2; 3]%nat, 2%nat, (2%nat, [Some [1; 1]; Some [3; 9]; Some [2; 4]]%nat).
  split; [lia|]. split; [reflexivity|]. discriminate.
Qed.
Print Assumptions C52_parallel_order_refuted.
Example ex_C52_pure : (forall a m, exists a', ex_eval a m = Ok ([m; m * m]%nat, a')) /\ (forall m, length [m; m * m]%nat = 2%nat).
Proof. split; [intros; eexists; reflexivity|reflexivity]. Qed.
Example ex_C52_full : eval_full ex_eval 2 0%nat [1; 2; 3; 4; 5]%nat 2 = Ok (2%nat, map (fun m => Some [m; m * m]%nat) [1; 3; 5; 2; 4]%nat).
Proof. rewrite (C52_full_memory_rows _ _ _ ex_eval 2 (fun m => [m; m * m]%nat) (proj1 ex_C52_pure) (proj2 ex_C52_pure)) by lia. reflexivity. Qed.
Example ex_C52_seq : eval_seq ex_eval 0%nat [1; 2; 3]%nat = eval_low ex_eval 0%nat [[1; 2]; [3]]%nat.
Proof. rewrite (C52_low_memory_same _ _ _ ex_eval 2 (fun m => [m; m * m]%nat) (proj1 ex_C52_pure) (proj2 ex_C52_pure)). reflexivity. Qed.
Example ex_C52_order : interleaved nat 3 [7; 8; 9]%nat = [7; 8; 9]%nat.
Proof. apply C52_order_kept_iff; [lia| |right; simpl; lia]. repeat constructor; simpl; intuition discriminate. Qed.

(** ** C80 *)
Theorem C80_dirichlet_evaluation_changes_mass : forall St Pt (like : St -> Pt -> xreal) M s0 uv comp (sv : saved St R) grid n k,
  uv <> [] -> saved_ok St sv -> 0 < M -> dp_init (DPFixed M) dp_make_shared = Ok s0 -> sv_mix sv = M ->
  exists out s1, marg_eval like dp_mixer uv comp sv grid s0 = Ok (out, s1) /\ dp_tot s1 = dp_tot s0 /\
    dp_mass_new s0 n k true true = Ok (Fin 0) /\ dp_mass_new s1 n k true true = Ok (Fin (ln M)) /\
    dp_init (DPFixed M) s1 = Ok s1 /\ (Fin 0 = Fin (ln M) <-> M = 1).
Proof. exact dp_trace. Qed.
Print Assumptions C80_dirichlet_evaluation_changes_mass.
Theorem C80_finite_mixture_stale_coefficients : forall series, (forall l g C t n, 0 <= series l g C t n) ->
  forall l g c m n k, (k + 1 <= m)%nat -> (k + 1 <= n)%nat -> exists w s,
    mfm_mass_new series m k true true (mkMfm l g None c) = Ok (w, s) /\
    (exists s', mfm_mass_new series n k true true (mfm_load l g s) = Ok (xlog (fresh_ratio series l g m k * g), s')) /\
    (exists s', mfm_mass_new series n k true true (mkMfm l g None c) = Ok (xlog (fresh_ratio series l g n k * g), s')).
Proof. exact mfm_stale. Qed.
Print Assumptions C80_finite_mixture_stale_coefficients.
Theorem C80_finite_mixture_stale_table : forall series l g c m k, (k + 1 <= m)%nat -> exists w s,
  mfm_mass_new series m k true true (mkMfm l g None c) = Ok (w, s) /\
  mfm_mass_new series (S m) m true true (mfm_load l g s) = UB /\
  exists r, mfm_mass_new series (S m) m true true (mkMfm l g None c) = Ok r.
Proof. exact mfm_stale_ub. Qed.
Print Assumptions C80_finite_mixture_stale_table.
Theorem C80_evaluation_leaves_no_trace_refuted : exists M s0 sv out s1,
  dp_init (DPFixed M) dp_make_shared = Ok s0 /\ marg_eval ex_like dp_mixer [0] (fun _ => Fin 0) sv [1] s0 = Ok (out, s1) /\ sv_mix sv = M /\
  dp_mass_new s1 3 2 true true <> dp_mass_new s0 3 2 true true.
Proof.
  assert (I0 : dp_init (DPFixed 2) dp_make_shared = Ok (mkDp 2 (Some (Fin 0)))) by (unfold dp_init, lteb; destruct (Rle_dec 2 0); [lra|reflexivity]).
  destruct (C80_dirichlet_evaluation_changes_mass R R ex_like 2 (mkDp 2 (Some (Fin 0))) [0] (fun _ => Fin 0) (mkSaved 4 ex_clusters 2) [1] 3 2) as (out & s1 & E & _ & A & B & _ & D);
    [discriminate|apply ex_saved|lra|exact I0|reflexivity|].
  exists 2, (mkDp 2 (Some (Fin 0))), (mkSaved 4 ex_clusters 2), out, s1. split; [exact I0|]. split; [exact E|]. split; [reflexivity|].
  rewrite A, B. intros H. injection H as H. assert (2 = 1) by (apply D; congruence). lra.
Qed.
Print Assumptions C80_evaluation_leaves_no_trace_refuted.
Example ex_C80 : exists out s1, marg_eval ex_like dp_mixer [0] (fun _ => Fin 0) (mkSaved 4 ex_clusters 2) [1] (mkDp 2 (Some (Fin 0))) = Ok (out, s1) /\
  dp_mass_new s1 3 2 true true = Ok (Fin (ln 2)) /\ dp_mass_new (mkDp 2 (Some (Fin 0))) 3 2 true true = Ok (Fin 0).
Proof.
  destruct (C80_dirichlet_evaluation_changes_mass R R ex_like 2 (mkDp 2 (Some (Fin 0))) [0] (fun _ => Fin 0) (mkSaved 4 ex_clusters 2) [1] 3 2) as (out & s1 & E & _ & A & B & _);
    [discriminate|apply ex_saved|lra| |reflexivity|].
  - unfold dp_init, lteb. destruct (Rle_dec 2 0); [lra|reflexivity].
  - exists out, s1. auto.
Qed.
Example ex_C80_finite : exists w s, mfm_mass_new (fun _ _ _ t n => / INR (t + n)) 3 1 true true (mkMfm 1 1 None 0) = Ok (w, s) /\
  (exists s', mfm_mass_new (fun _ _ _ t n => / INR (t + n)) 4 1 true true (mfm_load 1 1 s) = Ok (xlog (5 / 6), s')) /\
  (exists s', mfm_mass_new (fun _ _ _ t n => / INR (t + n)) 4 1 true true (mkMfm 1 1 None 0) = Ok (xlog (6 / 7), s')).
Proof.
  destruct (C80_finite_mixture_stale_coefficients (fun _ _ _ t n => / INR (t + n))) with (l := 1) (g := 1) (c := 0) (m := 3%nat) (n := 4%nat) (k := 1%nat) as (w & s & E & (s' & A) & (s'' & B)).
  - intros _ _ _ t n. destruct (t + n)%nat as [|k]; [simpl; rewrite Rinv_0; lra|]. left. apply Rinv_0_lt_compat, lt_0_INR. lia.
  - lia.
  - lia.
  - exists w, s. split; [exact E|]. split; eexists; [rewrite A|rewrite B]; unfold fresh_ratio; simpl; do 3 f_equal; field.
Qed.
