(** * Property theorems: split-and-merge. *)
From Coq Require Import String.
From Coq Require Import Bool List Arith ZArith Lia Sorting.Sorted Permutation.
From Verif Require Import Base Hier Algos SplitMerge Run Spec MargFacts NealFacts MargMore MargProps SMFacts SMProps Demo P_Marginal.
Import ListNotations.
Set Implicit Arguments.

(** ** C03 *)
Theorem C03_split_merge_sweep_proper :
  forall (I : Iface) (L : laws I) (data : list (Datum I)) n_restr n_mh n_full (a : alg I) r,
  no_cov_ok I data -> conj I = true -> other_draw I = None ->
  2 <= length data -> @sm_masses_ok I data (a_mix a) ->
  proper (length data) (a_alloc a) (view (a_uv a)) -> caches_ok data (covs0 I data) (a_uv a) ->
  exists a' r', sm_sample_allocations data n_restr n_mh n_full (a, r) = Ok (a', r') /\
    proper (length data) (a_alloc a') (view (a_uv a')) /\ caches_ok data (covs0 I data) (a_uv a').
Proof. exact sm_sweep_proper. Qed.
Print Assumptions C03_split_merge_sweep_proper.

Theorem C03_split_merge_iterations_proper :
  forall (I : Iface) (L : laws I) (data : list (Datum I)) n_restr n_mh n_full (P : Mix I -> Prop) k (a : alg I) r,
  no_cov_ok I data -> conj I = true -> other_draw I = None ->
  2 <= length data -> sm_mixing_safe I data P -> P (a_mix a) ->
  proper (length data) (a_alloc a) (view (a_uv a)) -> caches_ok data (covs0 I data) (a_uv a) ->
  exists a' r', iter (base_step (sm_sample_allocations data n_restr n_mh n_full) true) k (a, r) = Ok (a', r') /\
    proper (length data) (a_alloc a') (view (a_uv a')) /\ caches_ok data (covs0 I data) (a_uv a').
Proof. exact sm_iter_proper. Qed.
Print Assumptions C03_split_merge_iterations_proper.

(** One Metropolis-Hastings update does nothing, cuts one cluster in two, or
    joins two clusters; all other observations keep their grouping. *)
Theorem C03_one_move :
  forall (I : Iface) (L : laws I) (data : list (Datum I)) n_restr (a : alg I) r,
  no_cov_ok I data -> conj I = true -> other_draw I = None ->
  2 <= length data -> @sm_masses_ok I data (a_mix a) ->
  proper (length data) (a_alloc a) (view (a_uv a)) -> caches_ok data (covs0 I data) (a_uv a) ->
  exists a' r', mh_update data n_restr (a, r) = Ok (a', r') /\
    (a' = a \/ splits (length data) (a_alloc a) (a_alloc a') \/ splits (length data) (a_alloc a') (a_alloc a)).
Proof. exact sm_one_move. Qed.
Print Assumptions C03_one_move.

(** Rejected proposals leave the state untouched. *)
Theorem C03_reject_unchanged :
  forall (I : Iface) (data : list (Datum I)) n_restr n_mh (a a' : alg I) r r',
  (forall w r, fst (accept I w r) = false) ->
  sm_sample_allocations data n_restr n_mh 0 (a, r) = Ok (a', r') -> a' = a.
Proof. exact sm_reject. Qed.
Print Assumptions C03_reject_unchanged.

(** Cached posteriors stay those of the clusters' data. *)
Theorem C03_caches_fresh :
  forall (I : Iface) (L : laws I) (data : list (Datum I)) n_restr n_mh n_full (a : alg I) r,
  no_cov_ok I data -> conj I = true -> other_draw I = None ->
  2 <= length data -> @sm_masses_ok I data (a_mix a) ->
  proper (length data) (a_alloc a) (view (a_uv a)) -> caches_ok data (covs0 I data) (a_uv a) ->
  (forall h, In h (a_uv a) -> saved_matches data (covs0 I data) (a_hyp a) h) ->
  exists a' r', sm_sample_allocations data n_restr n_mh n_full (a, r) = Ok (a', r') /\ a_hyp a' = a_hyp a /\
    (forall h, In h (a_uv a') -> saved_matches data (covs0 I data) (a_hyp a) h).
Proof. exact sm_fresh. Qed.
Print Assumptions C03_caches_fresh.

Definition D := demo true (fun z => z).
Definition sm_init (k : nat) (t : list nat) : res (alg D * list nat) :=
  '(a, _) <- init_clusters (I := D) ex_data (covs0 D ex_data) true 3%Z tt k (fun i => i mod k) [ex_h0 true (fun z => z)] [] ;;
  Ok (a, t).

(** From two clusters: an accepted split of {0,2}, an accepted merge, a
    rejected proposal, then a full scan. *)
Example C03_split_example :
  (s <- sm_init 2 [0; 1; 0; 0] ;; s' <- mh_update (I := D) ex_data 0 s ;;
   Ok (a_alloc (fst s), a_alloc (fst s'), view (a_uv (fst s')))) =
  Ok ([0; 1; 0; 1], [2; 1; 0; 1], [([2], 1%Z); ([1; 3], 2%Z); ([0], 1%Z)]).
Proof. vm_compute. reflexivity. Qed.

Example C03_merge_example :
  (s <- sm_init 2 [0; 0; 1; 1; 1; 0; 0] ;; s' <- mh_update (I := D) ex_data 1 s ;;
   Ok (a_alloc (fst s), a_alloc (fst s'), view (a_uv (fst s')))) =
  Ok ([0; 1; 0; 1], [0; 0; 0; 0], [([0; 1; 2; 3], 4%Z)]).
Proof. vm_compute. reflexivity. Qed.

Example C03_sweep_example :
  (s <- sm_init 2 [0; 1; 0; 0; 1; 1; 0; 1; 3; 2; 0; 1; 1; 1; 2] ;;
   s' <- sm_sample_allocations (I := D) ex_data 1 2 1 s ;;
   Ok (a_alloc (fst s'), view (a_uv (fst s')), map (@h_ph D) (a_uv (fst s')))) =
  Ok ([0; 1; 0; 2], [([0; 2], 2%Z); ([1], 1%Z); ([3], 1%Z)], [Some 306%Z; Some 307%Z; Some 304%Z]).
Proof. vm_compute. reflexivity. Qed.

(** ** C10 *)
Theorem C10_split_merge_single_throws :
  forall (I : Iface) (data : list (Datum I)) n_restr n_mh n_full (a : alg I) r,
  length data = 1 -> 1 <= n_mh ->
  exists msg, sm_sample_allocations data n_restr n_mh n_full (a, r) = Throw msg.
Proof. exact sm_single_throw0. Qed.
Print Assumptions C10_split_merge_single_throws.

Theorem C10_split_merge_single_UB :
  forall (I : Iface) (data : list (Datum I)) n_restr n_full (a : alg I) r,
  length data = 1 -> 1 <= n_full -> masses_ok I (a_mix a) 1 -> proper 1 (a_alloc a) (view (a_uv a)) ->
  sm_sample_allocations data n_restr 0 n_full (a, r) = UB.
Proof. exact sm_single_UB0. Qed.
Print Assumptions C10_split_merge_single_UB.

Example C10_split_merge_example :
  let s := init_clusters (I := D) [5%Z] [tt] true 3%Z tt 0 (fun i => 0) [ex_h0 true (fun z => z)] [1; 2] in
  (x <- s ;; Ok (a_alloc (fst x), view (a_uv (fst x)))) = Ok ([0], [([0], 1%Z)]) /\
  (x <- s ;; sm_sample_allocations (I := D) [5%Z] 3 0 1 x) = UB /\
  (x <- s ;; sm_sample_allocations (I := D) [5%Z] 3 1 1 x) = Throw "categorical_rng: empty simplex".
Proof. vm_compute. repeat split. Qed.

(** ** C47 *)
Theorem C47_covariates_discarded_mh :
  forall (I : Iface) (data : list (Datum I)),
  (forall d, In d data -> row_ok I d (cov0 I) = false) ->
  forall (L : laws I) n_restr n_mh n_full (a : alg I) r, 2 <= length data -> 1 <= n_mh ->
  proper (length data) (a_alloc a) (view (a_uv a)) ->
  sm_sample_allocations data n_restr n_mh n_full (a, r) = UB.
Proof. exact sm_bad0. Qed.
Print Assumptions C47_covariates_discarded_mh.

Theorem C47_covariates_discarded_full :
  forall (I : Iface) (data : list (Datum I)),
  (forall d, In d data -> row_ok I d (cov0 I) = false) ->
  forall (L : laws I) n_restr n_full (a : alg I) r, 2 <= length data -> 1 <= n_full ->
  conj I = true -> other_draw I = None -> masses_ok I (a_mix a) (length data) ->
  (forall h, In h (a_uv a) -> h_saved h = true -> h_ph h <> None) ->
  proper (length data) (a_alloc a) (view (a_uv a)) ->
  sm_sample_allocations data n_restr 0 n_full (a, r) = UB.
Proof. exact full_bad0. Qed.
Print Assumptions C47_covariates_discarded_full.

(** One covariate column: rows must have length one. *)
Definition demo_cov : Iface := mkIface
  ([] : list Z) true
  (fun (_ : Z) (c : list Z) => length c =? 1)
  0%Z
  (fun (d : Z) (c : list Z) (add : bool) (s : Z) => if add then (s + d * hd 0 c)%Z else (s - d * hd 0 c)%Z)
  (fun (hy k s st : Z) => (hy * 100 + s)%Z)
  (fun (hy : Z) (r : list nat) => (hy, r))
  None
  (fun hy : Z => hy)
  (fun (st d : Z) (_ : list Z) => (st + d)%Z)
  (fun (hy d : Z) (_ : list Z) => (hy + d)%Z)
  (fun (_ : unit) (_ _ : nat) (c : Z) => Ok c)
  (fun (_ : unit) (_ _ : nat) => Ok 1%Z)
  (fun (_ : unit) (_ : nat) => [0%Z])
  (fun (_ : unit) (_ : list Z) (_ : list nat) (r : list nat) => Ok (tt, r))
  (fun (hy : Z) (_ : list (Z * Z)) (r : list nat) => (hy, r))
  0%Z Z.add Z.opp
  (fun (w : Z) (_ : nat) => w)
  (fun (_ : list Z) (_ : nat) => 0%Z)
  (fun (ws : list Z) (r : list nat) => tape_pick (length ws) r)
  tape_pick
  (fun (w : Z) (r : list nat) => match r with [] => (true, []) | x :: t => (Nat.even x, t) end).

Definition cov_init : res (alg demo_cov * list nat) :=
  init_clusters (I := demo_cov) ex_data [[1]; [2]; [0]; [3]]%Z true 3%Z tt 2 (fun i => i mod 2)
    [mkHier demo_cov [] 0%Z 0%Z 0%Z false None] [1; 0; 2; 1; 1].

Example C47_example :
  (s <- cov_init ;; Ok (a_alloc (fst s), view (a_uv (fst s)))) = Ok ([0; 1; 0; 1], [([0; 2], 2%Z); ([1; 3], 2%Z)]) /\
  (s <- cov_init ;; s' <- neal3_sample_allocations (I := demo_cov) ex_data [[1]; [2]; [0]; [3]]%Z s ;; Ok (a_alloc (fst s')))
    = Ok [1; 0; 2; 1] /\
  (s <- cov_init ;; sm_sample_allocations (I := demo_cov) ex_data 1 1 1 s) = UB /\
  (s <- cov_init ;; sm_sample_allocations (I := demo_cov) ex_data 1 0 1 s) = UB.
Proof. vm_compute. repeat split. Qed.
