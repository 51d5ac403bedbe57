(** * Property theorems: marginal samplers, initialisation, main loop.

    Only statements, each closed by an already proved fact, with its
    assumptions and a concrete instance. *)
From Coq Require Import String.
From Coq Require Import Bool List Arith ZArith Lia Sorting.Sorted Permutation.
From Verif Require Import Base Hier Algos Run Spec MargFacts NealFacts InitFacts MargMore MargProps Demo.
Import ListNotations.
Set Implicit Arguments.

(** ** C01 *)
Theorem C01_neal2_sweep_proper :
  forall (I : Iface) (L : laws I) (data : list (Datum I)) (covs : list (Cov I)) (a : alg I) r,
  rows_ok I data (at_ covs) -> 2 <= length data -> masses_ok I (a_mix a) (length data) ->
  proper (length data) (a_alloc a) (view (a_uv a)) -> caches_ok data covs (a_uv a) ->
  exists a' r', neal2_sample_allocations data covs (a, r) = Ok (a', r') /\
    proper (length data) (a_alloc a') (view (a_uv a')) /\ caches_ok data covs (a_uv a').
Proof. exact neal2_sweep_proper. Qed.
Print Assumptions C01_neal2_sweep_proper.

Theorem C01_neal3_sweep_proper :
  forall (I : Iface) (L : laws I) (data : list (Datum I)) (covs : list (Cov I)) (a : alg I) r,
  conj I = true -> other_draw I = None ->
  rows_ok I data (at_ covs) -> 2 <= length data -> masses_ok I (a_mix a) (length data) ->
  proper (length data) (a_alloc a) (view (a_uv a)) -> caches_ok data covs (a_uv a) ->
  exists a' r', neal3_sample_allocations data covs (a, r) = Ok (a', r') /\
    proper (length data) (a_alloc a') (view (a_uv a')) /\ caches_ok data covs (a_uv a').
Proof. exact neal3_sweep_proper. Qed.
Print Assumptions C01_neal3_sweep_proper.

(** Any number of complete iterations (sweep, parameters, hyperparameters,
    mixing). *)
Theorem C01_neal2_iterations_proper :
  forall (I : Iface) (L : laws I) (data : list (Datum I)) (covs : list (Cov I)) (P : Mix I -> Prop) k (a : alg I) r,
  rows_ok I data (at_ covs) -> 2 <= length data -> @mixing_safe I data P -> P (a_mix a) ->
  proper (length data) (a_alloc a) (view (a_uv a)) -> caches_ok data covs (a_uv a) ->
  exists a' r', iter (base_step (neal2_sample_allocations data covs) false) k (a, r) = Ok (a', r') /\
    proper (length data) (a_alloc a') (view (a_uv a')) /\ caches_ok data covs (a_uv a').
Proof. exact neal2_iter_proper. Qed.
Print Assumptions C01_neal2_iterations_proper.

Theorem C01_neal3_iterations_proper :
  forall (I : Iface) (L : laws I) (data : list (Datum I)) (covs : list (Cov I)) (P : Mix I -> Prop) k (a : alg I) r,
  conj I = true -> other_draw I = None ->
  rows_ok I data (at_ covs) -> 2 <= length data -> @mixing_safe I data P -> P (a_mix a) ->
  proper (length data) (a_alloc a) (view (a_uv a)) -> caches_ok data covs (a_uv a) ->
  exists a' r', iter (base_step (neal3_sample_allocations data covs) true) k (a, r) = Ok (a', r') /\
    proper (length data) (a_alloc a') (view (a_uv a')) /\ caches_ok data covs (a_uv a').
Proof. exact neal3_iter_proper. Qed.
Print Assumptions C01_neal3_iterations_proper.

(** One reallocation touches only the chosen observation: the others keep
    their grouping and their parameters. *)
Theorem C01_step_local :
  forall (I : Iface) (L : laws I) (data : list (Datum I)) (covs : list (Cov I)) (a a' : alg I) r r' i,
  rows_ok I data (at_ covs) -> 2 <= length data -> i < length data -> masses_ok I (a_mix a) (length data) ->
  proper (length data) (a_alloc a) (view (a_uv a)) -> caches_ok data covs (a_uv a) ->
  neal_step data covs false (neal2_lpdf data covs) (a, r) i = Ok (a', r') ->
  same_grouping (fun j => j <> i /\ j < length data) (a_alloc a) (a_alloc a') /\
  (forall j, j <> i -> param a' j = param a j).
Proof. exact neal2_step_local. Qed.
Print Assumptions C01_step_local.

(** Non-vacuity: four data, initialised as four singletons, then a Neal2 sweep
    that opens and closes clusters. *)
Definition ex_data : list Z := [5; 7; 1; 4]%Z.
Definition ex_covs : list unit := repeat tt 4.
Definition ex_h0 (cj : bool) (f : Z -> Z) : hier (demo cj f) := mkHier (demo cj f) [] 0%Z 0%Z 0%Z false None.
Definition ex_init (cj uhp : bool) (f : Z -> Z) (k : nat) : res (alg (demo cj f) * list nat) :=
  init_clusters (I := demo cj f) ex_data ex_covs uhp 3%Z tt k (fun i => i mod k) [ex_h0 cj f]
    [1; 2; 0; 3; 1; 1; 0; 2].

Example C01_example :
  (s <- ex_init true false (fun z => z) 0 ;;
   s' <- neal2_sample_allocations (I := demo true (fun z => z)) ex_data ex_covs s ;;
   Ok (a_alloc (fst s), a_alloc (fst s'), view (a_uv (fst s')))) =
  Ok ([0; 1; 2; 3], [0; 1; 0; 0], [([0; 2; 3], 3%Z); ([1], 1%Z)]).
Proof. vm_compute. reflexivity. Qed.

(** ** C02 *)
Theorem C02_neal8_sweep_proper :
  forall (I : Iface) (L : laws I) (data : list (Datum I)) (covs : list (Cov I)) n_aux (a : alg I) r,
  rows_ok I data (at_ covs) -> 1 <= n_aux -> masses_ok I (a_mix a) (length data) ->
  proper (length data) (a_alloc a) (view (a_uv a)) -> caches_ok data covs (a_uv a) ->
  length (a_aux a) = n_aux -> (forall h, In h (a_aux a) -> h_ids h = [] /\ h_stats h = stats0 I) ->
  exists a' r', neal8_sample_allocations data covs n_aux (a, r) = Ok (a', r') /\
    proper (length data) (a_alloc a') (view (a_uv a')) /\ caches_ok data covs (a_uv a') /\
    length (a_aux a') = n_aux /\ (forall h, In h (a_aux a') -> h_ids h = [] /\ h_stats h = stats0 I).
Proof. exact neal8_sweep_proper. Qed.
Print Assumptions C02_neal8_sweep_proper.

Theorem C02_neal8_iterations_proper :
  forall (I : Iface) (L : laws I) (data : list (Datum I)) (covs : list (Cov I)) n_aux (P : Mix I -> Prop) k (a : alg I) r,
  rows_ok I data (at_ covs) -> 1 <= n_aux -> 1 <= length data -> @mixing_safe I data P -> P (a_mix a) ->
  proper (length data) (a_alloc a) (view (a_uv a)) -> caches_ok data covs (a_uv a) ->
  length (a_aux a) = n_aux -> (forall h, In h (a_aux a) -> h_ids h = [] /\ h_stats h = stats0 I) ->
  exists a' r', iter (base_step (neal8_sample_allocations data covs n_aux) false) k (a, r) = Ok (a', r') /\
    proper (length data) (a_alloc a') (view (a_uv a')) /\ caches_ok data covs (a_uv a') /\
    length (a_aux a') = n_aux /\ (forall h, In h (a_aux a') -> h_ids h = [] /\ h_stats h = stats0 I).
Proof. exact neal8_iter_proper. Qed.
Print Assumptions C02_neal8_iterations_proper.

(** [Neal8Algorithm::initialize] creates the auxiliary components. *)
Theorem C02_neal8_init_aux :
  forall (I : Iface) n_aux (a : alg I), a_uv a <> [] ->
  exists aux, neal8_init_aux n_aux a = Ok (set_aux a aux) /\ length aux = n_aux /\
    (forall h, In h aux -> h_ids h = [] /\ h_stats h = stats0 I).
Proof. exact neal8_init_aux_ok. Qed.
Print Assumptions C02_neal8_init_aux.

Theorem C02_neal8_no_aux_UB :
  forall (I : Iface) (data : list (Datum I)) (covs : list (Cov I)) (a : alg I) r i c h,
  a_aux a = [] -> nth_error (a_alloc a) i = Some c -> nth_error (a_uv a) c = Some h -> (h_card h <= 1)%Z ->
  neal8_step data covs 0 (a, r) i = UB.
Proof. exact neal8_no_aux. Qed.
Print Assumptions C02_neal8_no_aux_UB.

Example C02_example :
  ('(a, r) <- ex_init true false (fun z => z) 0 ;;
   a1 <- neal8_init_aux 2 a ;;
   s' <- neal8_sample_allocations (I := demo true (fun z => z)) ex_data ex_covs 2 (a1, r) ;;
   Ok (a_alloc (fst s'), view (a_uv (fst s')))) =
  Ok ([0; 1; 0; 2], [([0; 2], 2%Z); ([1], 1%Z); ([3], 1%Z)]).
Proof. vm_compute. reflexivity. Qed.

Example C02_no_aux_example :
  ('(a, r) <- ex_init true false (fun z => z) 0 ;; Ok (length (a_aux a), h_card (nth 0 (a_uv a) (ex_h0 true (fun z => z))))) = Ok (0, 1%Z) /\
  (s <- ex_init true false (fun z => z) 0 ;;
   neal8_sample_allocations (I := demo true (fun z => z)) ex_data ex_covs 0 s) = UB.
Proof. vm_compute. split; reflexivity. Qed.

(** ** C06 *)
Theorem C06_init_proper :
  forall (I : Iface) (L : laws I) (data : list (Datum I)) (covs : list (Cov I)) uhp hy m k gen h0 r,
  rows_ok I data (at_ covs) ->
  (uhp = true -> conj I = true /\ other_draw I = None) ->
  1 <= length data -> k <= length data ->
  (forall i, gen i < if k =? 0 then length data else k) ->
  (h_saved h0 = true -> h_ph h0 <> None) ->
  exists a r', init_clusters data covs uhp hy m k gen [h0] r = Ok (a, r') /\
    proper (length data) (a_alloc a) (view (a_uv a)) /\ caches_ok data covs (a_uv a) /\
    length (a_uv a) = (if k =? 0 then length data else k).
Proof. exact init_proper. Qed.
Print Assumptions C06_init_proper.

Theorem C06_init_too_many_UB :
  forall (I : Iface) (L : laws I) (data : list (Datum I)) (covs : list (Cov I)) uhp hy m k gen h0 r,
  rows_ok I data (at_ covs) -> (h_saved h0 = true -> h_ph h0 <> None) -> length data < k ->
  init_clusters data covs uhp hy m k gen [h0] r = UB.
Proof. exact init_too_many. Qed.
Print Assumptions C06_init_too_many_UB.

Example C06_example :
  (s <- ex_init false false (fun z => z) 2 ;; Ok (a_alloc (fst s), view (a_uv (fst s)))) =
  Ok ([0; 1; 0; 1], [([0; 2], 2%Z); ([1; 3], 2%Z)]).
Proof. vm_compute. reflexivity. Qed.

Example C06_too_many_example : ex_init false false (fun z => z) 5 = UB.
Proof. vm_compute. reflexivity. Qed.

(** ** C07 *)
Theorem C07_run_saves :
  forall (I : Iface) (init : res (alg I * Rng I)) step maxiter burnin s out,
  run init step maxiter burnin = Ok (s, out) ->
  exists s0, init = Ok s0 /\ iter step maxiter s0 = Ok s /\
  length out = maxiter - burnin /\
  (forall i, i < maxiter - burnin -> exists ar snap,
     iter step (burnin + i + 1) s0 = Ok ar /\ nth_error out i = Some snap /\
     s_iter snap = burnin + i /\ s_alloc snap = a_alloc (fst ar) /\
     s_clusters snap = map (fun h => (h_state h, h_card h)) (a_uv (fst ar)) /\
     s_hyp snap = a_hyp (fst ar) /\ s_mix snap = a_mix (fst ar)).
Proof. exact run_saves. Qed.
Print Assumptions C07_run_saves.

(** Whole Neal2 / Neal8 runs complete. *)
Theorem C07_neal2_run_completes :
  forall (I : Iface) (L : laws I) (data : list (Datum I)) (covs : list (Cov I)) (P : Mix I -> Prop)
    hy m k gen h0 r maxiter burnin,
  rows_ok I data (at_ covs) -> 2 <= length data -> k <= length data ->
  (forall i, gen i < if k =? 0 then length data else k) ->
  (h_saved h0 = true -> h_ph h0 <> None) ->
  @mixing_safe I data P -> P m ->
  exists s out, run (init_clusters data covs false hy m k gen [h0] r)
      (base_step (neal2_sample_allocations data covs) false) maxiter burnin = Ok (s, out) /\
    length out = maxiter - burnin.
Proof. exact neal2_run_completes. Qed.
Print Assumptions C07_neal2_run_completes.

Example C07_example :
  ('(s, out) <- run (ex_init true false (fun z => z) 0)
      (base_step (neal2_sample_allocations (I := demo true (fun z => z)) ex_data ex_covs) false) 5 2 ;;
   Ok (map (@s_iter _) out)) = Ok [2; 3; 4].
Proof. vm_compute. reflexivity. Qed.

(** ** C08 *)
Theorem C08_checks_iff_well_formed :
  forall c, (checks c = Ok tt <-> well_formed c) /\ (~ well_formed c -> exists msg, checks c = Throw msg).
Proof. exact checks_iff. Qed.
Print Assumptions C08_checks_iff_well_formed.

(** An ill-formed configuration makes the whole initialisation throw, whatever
    the mixing, hierarchy, data and generator. *)
Theorem C08_initialize_throws :
  forall (I : Iface) cfg data covs uhp hy mixinit k gen (uv0 : list (hier I)) r,
  ~ well_formed cfg ->
  exists msg, initialize cfg data covs uhp hy mixinit k gen uv0 r = Throw msg.
Proof. exact initialize_throws. Qed.
Print Assumptions C08_initialize_throws.

Example C08_example :
  well_formed (mkConfig 10 1 true true false false 0 true false false 0 false true) /\
  ~ well_formed (mkConfig 10 2 true true false false 0 true false false 0 false true).
Proof. unfold well_formed; simpl; intuition (try lia; try congruence). Qed.

(** ** C09 *)
Theorem C09_drop_cluster :
  forall (I : Iface) c (a a' : alg I), remove_singleton c a = Ok a' ->
  length (a_uv a') = length (a_uv a) - 1 /\
  length (a_alloc a') = length (a_alloc a) /\
  (forall j l, nth_error (a_alloc a) j = Some l -> l <> c ->
     exists l', nth_error (a_alloc a') j = Some l' /\ nth_error (a_uv a') l' = nth_error (a_uv a) l) /\
  same_grouping (fun j => exists l, nth_error (a_alloc a) j = Some l /\ l <> c) (a_alloc a) (a_alloc a') /\
  ((forall l, l < length (a_uv a) -> l <> c -> exists j, nth_error (a_alloc a) j = Some l) ->
   (forall l', l' < length (a_uv a') -> exists j, nth_error (a_alloc a') j = Some l')).
Proof. exact drop_cluster. Qed.
Print Assumptions C09_drop_cluster.

Theorem C09_drop_defined :
  forall (I : Iface) c (a : alg I), c < length (a_uv a) -> exists a', remove_singleton c a = Ok a'.
Proof. exact drop_defined. Qed.
Print Assumptions C09_drop_defined.

Example C09_example :
  ('(a, r) <- ex_init true false (fun z => z) 0 ;;
   a' <- remove_singleton 1 a ;; Ok (a_alloc a', view (a_uv a'))) =
  Ok ([0; 1; 1; 2], [([0], 1%Z); ([2], 1%Z); ([3], 1%Z)]).
Proof. vm_compute. reflexivity. Qed.

(** ** C10 *)
Theorem C10_neal2_single_UB :
  forall (I : Iface) (data : list (Datum I)) (covs : list (Cov I)) (a : alg I) r,
  rows_ok I data (at_ covs) -> length data = 1 -> masses_ok I (a_mix a) 1 ->
  proper 1 (a_alloc a) (view (a_uv a)) -> caches_ok data covs (a_uv a) ->
  neal2_sample_allocations data covs (a, r) = UB.
Proof. exact neal2_single. Qed.
Print Assumptions C10_neal2_single_UB.

Theorem C10_neal3_single_UB :
  forall (I : Iface) (data : list (Datum I)) (covs : list (Cov I)) (a : alg I) r,
  rows_ok I data (at_ covs) -> length data = 1 -> masses_ok I (a_mix a) 1 ->
  proper 1 (a_alloc a) (view (a_uv a)) -> caches_ok data covs (a_uv a) ->
  neal3_sample_allocations data covs (a, r) = UB.
Proof. exact neal3_single. Qed.
Print Assumptions C10_neal3_single_UB.

Example C10_example :
  let s := init_clusters (I := demo true (fun z => z)) [5%Z] [tt] false 3%Z tt 0 (fun i => 0)
     [ex_h0 true (fun z => z)] [1; 2] in
  (x <- s ;; Ok (a_alloc (fst x), view (a_uv (fst x)))) = Ok ([0], [([0], 1%Z)]) /\
  (x <- s ;; neal2_sample_allocations (I := demo true (fun z => z)) [5%Z] [tt] x) = UB /\
  (x <- s ;; neal3_sample_allocations (I := demo true (fun z => z)) [5%Z] [tt] x) = UB.
Proof. vm_compute. repeat split. Qed.

(** ** C11 *)
Theorem C11_second_run_inconsistent :
  forall (I : Iface) (data : list (Datum I)) (covs : list (Cov I)) uhp hy m k gen h0 rest r,
  (exists h, In h rest /\ h_ids h <> []) ->
  forall a r', init_clusters data covs uhp hy m k gen (h0 :: rest) r = Ok (a, r') ->
    ~ consistent (length data) (a_alloc a) (view (a_uv a)).
Proof. exact second_init_bad. Qed.
Print Assumptions C11_second_run_inconsistent.

(** The hypothesis holds after any run that ends with two clusters or more. *)
Theorem C11_leftover :
  forall (I : Iface) (data : list (Datum I)) (a : alg I) h0 rest,
  proper (length data) (a_alloc a) (view (a_uv a)) -> a_uv a = h0 :: rest -> rest <> [] ->
  exists h, In h rest /\ h_ids h <> [].
Proof. exact leftover. Qed.
Print Assumptions C11_leftover.

Example C11_example :
  ('(a, r) <- ex_init true false (fun z => z) 2 ;;
   s' <- init_clusters (I := demo true (fun z => z)) ex_data ex_covs false 3%Z tt 1 (fun i => 0) (a_uv a) r ;;
   Ok (a_alloc (fst s'), view (a_uv (fst s')))) =
  Ok ([0; 0; 0; 0], [([0; 1; 2; 3], 4%Z); ([1; 3], 2%Z)]).
Proof. vm_compute. reflexivity. Qed.

(** ** C12 *)
(** In every state reached by Neal2 from initialisation: a cluster either
    redraws its parameters from the posterior of its current data, or it is
    the only cluster holding a saved "posterior", which is the initial prior. *)
Theorem C12_neal2_redraw :
  forall (I : Iface) (L : laws I) (data : list (Datum I)) (covs : list (Cov I)) (P : Mix I -> Prop)
    hy0 m k gen h0 r steps a r' uv' r'',
  other_draw I = None ->
  rows_ok I data (at_ covs) -> 2 <= length data -> k <= length data ->
  (forall i, gen i < if k =? 0 then length data else k) ->
  h_saved h0 = false -> @mixing_safe I data P -> P m ->
  (s0 <- init_clusters data covs false hy0 m k gen [h0] r ;;
   iter (base_step (neal2_sample_allocations data covs) false) steps s0) = Ok (a, r') ->
  sample_unique_values false (a, r') = Ok (set_uv a uv', r'') ->
  length (filter (@h_saved I) (a_uv a)) <= 1 /\
  forall c h h', nth_error (a_uv a) c = Some h -> nth_error uv' c = Some h' ->
    exists r0 r1, prior_sample I
       (if h_saved h then hy0
        else post I (a_hyp a) (Z.of_nat (length (h_ids h))) (batch I data (at_ covs) (h_ids h)) (h_state h)) r0
       = (h_state h', r1).
Proof. exact neal2_redraw. Qed.
Print Assumptions C12_neal2_redraw.

Theorem C12_neal8_redraw :
  forall (I : Iface) (L : laws I) (data : list (Datum I)) (covs : list (Cov I)) n_aux (P : Mix I -> Prop)
    hy0 m k gen h0 r steps a r' uv' r'',
  other_draw I = None ->
  rows_ok I data (at_ covs) -> 1 <= n_aux -> 1 <= length data -> k <= length data ->
  (forall i, gen i < if k =? 0 then length data else k) ->
  h_saved h0 = false -> @mixing_safe I data P -> P m ->
  ('(a0, r0) <- init_clusters data covs false hy0 m k gen [h0] r ;;
   a1 <- neal8_init_aux n_aux a0 ;;
   iter (base_step (neal8_sample_allocations data covs n_aux) false) steps (a1, r0)) = Ok (a, r') ->
  sample_unique_values false (a, r') = Ok (set_uv a uv', r'') ->
  length (filter (@h_saved I) (a_uv a)) <= 1 /\
  forall c h h', nth_error (a_uv a) c = Some h -> nth_error uv' c = Some h' ->
    exists r0 r1, prior_sample I
       (if h_saved h then hy0
        else post I (a_hyp a) (Z.of_nat (length (h_ids h))) (batch I data (at_ covs) (h_ids h)) (h_state h)) r0
       = (h_state h', r1).
Proof. exact neal8_redraw. Qed.
Print Assumptions C12_neal8_redraw.

(** With a conjugate hierarchy the first initial cluster is such a cluster. *)
Theorem C12_first_cluster_saved :
  forall (I : Iface) (data : list (Datum I)) (covs : list (Cov I)) hy0 m k gen h0 r a r',
  h_saved h0 = false ->
  init_clusters data covs false hy0 m k gen [h0] r = Ok (a, r') ->
  exists h, nth_error (a_uv a) 0 = Some h /\ h_saved h = conj I /\ (conj I = true -> h_ph h = Some hy0).
Proof. exact first_cluster_saved. Qed.
Print Assumptions C12_first_cluster_saved.

(** "Every cluster redraws from its posterior" is false of the code: the first
    cluster, holding data 5 and 1, redraws from the prior (3) instead of the
    posterior of its data (306), the second one from its posterior (311). *)
Theorem C12_every_cluster_refuted :
  exists a r uv' r', ex_init true false (fun z => z) 2 = Ok (a, r) /\
    sample_unique_values (I := demo true (fun z => z)) false (a, r) = Ok (set_uv a uv', r') /\
    view (a_uv a) = [([0; 2], 2%Z); ([1; 3], 2%Z)] /\
    map (@h_state _) uv' = [3%Z; 311%Z] /\
    map (fun h => post (demo true (fun z => z)) 3%Z (h_card h) (h_stats h) (h_state h)) (a_uv a) = [306%Z; 311%Z].
Proof. eapply ex_intro, ex_intro, ex_intro, ex_intro. split; [vm_compute; reflexivity|]. split; [vm_compute; reflexivity|]. vm_compute. repeat split. Qed.
Print Assumptions C12_every_cluster_refuted.

(** ** C13 *)
Theorem C13_neal3_fresh :
  forall (I : Iface) (L : laws I) (data : list (Datum I)) (covs : list (Cov I)) (a : alg I) r k,
  conj I = true -> other_draw I = None ->
  rows_ok I data (at_ covs) -> 2 <= length data -> masses_ok I (a_mix a) (length data) ->
  proper (length data) (a_alloc a) (view (a_uv a)) -> caches_ok data covs (a_uv a) ->
  (forall h, In h (a_uv a) -> saved_matches data covs (a_hyp a) h) ->
  k <= length data ->
  exists ak rk, rfold (neal_step data covs true (neal3_lpdf data covs)) (seq 0 k) (a, r) = Ok (ak, rk) /\
    (forall h, In h (a_uv ak) -> saved_matches data covs (a_hyp a) h) /\
    (k < length data -> exists a1 d cv,
       unassign data true (at_ covs) k ak = Ok a1 /\ at_ data k = Ok d /\ at_ covs k = Ok cv /\
       neal3_lpdf data covs a1 k =
       Ok (map (fun h => marg_lpdf I (post I (a_hyp a) (Z.of_nat (length (h_ids h)))
                  (batch I data (at_ covs) (h_ids h)) (init_state I (a_hyp a))) d cv) (a_uv a1)
           ++ [marg_lpdf I (a_hyp a) d cv])).
Proof. exact neal3_fresh. Qed.
Print Assumptions C13_neal3_fresh.

(** Initialisation establishes the hypothesis. *)
Theorem C13_neal3_init_fresh :
  forall (I : Iface) (L : laws I) (data : list (Datum I)) (covs : list (Cov I)) hy m k gen h0 r,
  conj I = true -> other_draw I = None ->
  rows_ok I data (at_ covs) -> 1 <= length data -> k <= length data ->
  (forall i, gen i < if k =? 0 then length data else k) ->
  (h_saved h0 = true -> h_ph h0 <> None) ->
  exists a r', init_clusters data covs true hy m k gen [h0] r = Ok (a, r') /\ a_hyp a = hy /\
    forall h, In h (a_uv a) -> saved_matches data covs hy h.
Proof. exact neal3_init_fresh. Qed.
Print Assumptions C13_neal3_init_fresh.

(** After a hyperparameter update (3 to 4) the next sweep starts with saved
    posteriors of the old hyperparameters. *)
Theorem C13_hyper_update_stale_refuted :
  exists a r a' r', ex_init true true Z.succ 2 = Ok (a, r) /\
    base_step (neal3_sample_allocations (I := demo true Z.succ) ex_data ex_covs) true (a, r) = Ok (a', r') /\
    a_hyp a' = 4%Z /\
    map (@h_ph _) (a_uv a') = [Some 310%Z; Some 307%Z] /\
    map (fun h => post (demo true Z.succ) (a_hyp a') (h_card h) (h_stats h) (h_state h)) (a_uv a') = [410%Z; 407%Z].
Proof. eapply ex_intro, ex_intro, ex_intro, ex_intro. split; [vm_compute; reflexivity|]. split; [vm_compute; reflexivity|]. vm_compute. repeat split. Qed.
Print Assumptions C13_hyper_update_stale_refuted.

(** ** C14 *)
Theorem C14_neal8_aux :
  forall (I : Iface) (L : laws I) (data : list (Datum I)) (covs : list (Cov I)) n_aux (a : alg I) r i a' r',
  rows_ok I data (at_ covs) -> 1 <= n_aux -> i < length data ->
  proper (length data) (a_alloc a) (view (a_uv a)) -> caches_ok data covs (a_uv a) ->
  length (a_aux a) = n_aux -> (forall h, In h (a_aux a) -> h_ids h = [] /\ h_stats h = stats0 I) ->
  neal8_step data covs n_aux (a, r) i = Ok (a', r') ->
  (forall j, j <> i -> j < length data -> param a' j = param a j) /\
  exists c h l' hn,
    nth_error (a_alloc a) i = Some c /\ nth_error (a_uv a) c = Some h /\
    nth_error (a_alloc a') i = Some l' /\ nth_error (a_uv a') l' = Some hn /\
    length (a_aux a') = n_aux /\
    (h_ids h = [i] ->
       option_map (@h_state I) (nth_error (a_aux a') 0) = Some (h_state h) /\
       (forall j, 1 <= j < n_aux -> exists x, nth_error (a_aux a') j = Some x /\ prior_draw I (a_hyp a) (h_state x))) /\
    (h_ids h <> [i] ->
       forall j, j < n_aux -> exists x, nth_error (a_aux a') j = Some x /\ prior_draw I (a_hyp a) (h_state x)) /\
    (h_ids hn = [i] -> exists j x, nth_error (a_aux a') j = Some x /\ h_state hn = h_state x).
Proof. exact neal8_aux. Qed.
Print Assumptions C14_neal8_aux.

(** Observation 1 is alone in its cluster (parameter 307): its parameter becomes
    the first auxiliary one, the others are redrawn from the prior (3), and a
    draw of index 3 gives it back to the observation. *)
Example C14_example :
  ('(a, r) <- ex_init true false (fun z => z) 0 ;;
   '(a0, r0) <- sample_unique_values (I := demo true (fun z => z)) false (a, r) ;;
   a1 <- neal8_init_aux 2 a0 ;;
   '(a2, _) <- neal8_step (I := demo true (fun z => z)) ex_data ex_covs 2 (a1, [3]) 1 ;;
   Ok (map (@h_state _) (a_uv a0), map (@h_state _) (a_aux a2), a_alloc a2, map (@h_state _) (a_uv a2))) =
  Ok ([3; 307; 301; 304]%Z, [307; 3]%Z, [0; 3; 1; 2], [3; 301; 304; 307]%Z).
Proof. vm_compute. reflexivity. Qed.

(** The interface of the examples satisfies the hypotheses of the theorems. *)
Example hypotheses_met : forall cj f,
  laws (demo cj f) /\ rows_ok (demo cj f) ex_data (at_ ex_covs) /\
  @mixing_safe (demo cj f) ex_data (fun _ => True).
Proof. intros cj f. split; [apply demo_laws|split; [apply (@demo_rows cj f ex_data)|apply demo_mixing_safe]]. Qed.
