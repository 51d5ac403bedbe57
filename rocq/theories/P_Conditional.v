(** * Property theorems: blocked Gibbs, slice sampler, stick-breaking mixing. *)
From Coq Require Import String.
From Coq Require Import Bool List Arith ZArith QArith Reals Lra Lia.
From Verif Require Import Base Hier Algos Spec MargFacts NealFacts Run MargMore Demo XReal Stick Cond CondFacts SliceFacts StickFacts CondProps CondDraws P_Marginal.
Import ListNotations.
Set Implicit Arguments.
Local Close Scope Q_scope.
Local Open Scope nat_scope.

(** ** C04 *)
Theorem C04_blocked_init :
  forall (I : Iface) (L : laws I) (data : list (Datum I)) (covs : list (Cov I)), rows_ok I data (at_ covs) ->
  forall hy m nc gen h0 r, 1 <= nc <= length data -> (forall i, gen i < nc) -> h_saved h0 = false ->
  exists a r', init_clusters data covs false hy m nc gen [h0] r = Ok (a, r') /\
    consistent (length data) (a_alloc a) (view (a_uv a)) /\ caches_ok data covs (a_uv a) /\
    length (a_uv a) = nc /\ a_mix a = m.
Proof. exact blocked_init. Qed.
Print Assumptions C04_blocked_init.

Theorem C04_blocked_sweep :
  forall (I : Iface) (L : laws I) (data : list (Datum I)) (covs : list (Cov I)), rows_ok I data (at_ covs) ->
  forall nc (a : alg I) r,
  1 <= nc -> length (a_uv a) = nc -> logweights_ok I data (a_mix a) nc ->
  consistent (length data) (a_alloc a) (view (a_uv a)) -> caches_ok data covs (a_uv a) ->
  exists a' r', blocked_sample_allocations data covs nc (a, r) = Ok (a', r') /\
    consistent (length data) (a_alloc a') (view (a_uv a')) /\ caches_ok data covs (a_uv a') /\
    length (a_uv a') = nc /\ a_hyp a' = a_hyp a /\ a_mix a' = a_mix a /\
    map (@h_state I) (a_uv a') = map (@h_state I) (a_uv a).
Proof. exact blocked_sweep_spec. Qed.
Print Assumptions C04_blocked_sweep.

(** One observation: the new label is drawn from prior weight plus likelihood
    of every component, and no other label moves. *)
Theorem C04_blocked_one :
  forall (I : Iface) (L : laws I) (data : list (Datum I)) (covs : list (Cov I)), rows_ok I data (at_ covs) ->
  forall nc (a a' : alg I) r r' i d cv,
  1 <= nc -> length (a_uv a) = nc -> logweights_ok I data (a_mix a) nc ->
  consistent (length data) (a_alloc a) (view (a_uv a)) -> caches_ok data covs (a_uv a) ->
  at_ data i = Ok d -> at_ covs i = Ok cv ->
  blocked_step data covs nc (a, r) i = Ok (a', r') ->
  exists c, cat I (map (fun p => wadd I (fst p) (like_lpdf I (h_state (snd p)) d cv))
                       (combine (mix_logweights I (a_mix a) i) (a_uv a))) r = Ok (c, r') /\
    a_alloc a' = upd (a_alloc a) i c.
Proof. exact blocked_step_spec. Qed.
Print Assumptions C04_blocked_one.

Theorem C04_blocked_iterations :
  forall (I : Iface) (L : laws I) (data : list (Datum I)) (covs : list (Cov I)), rows_ok I data (at_ covs) ->
  forall nc P k (a : alg I) r,
  cmixing_safe I data nc P -> 1 <= nc -> length (a_uv a) = nc -> P (a_mix a) ->
  consistent (length data) (a_alloc a) (view (a_uv a)) -> caches_ok data covs (a_uv a) ->
  exists a' r', iter (base_step (blocked_sample_allocations data covs nc) false) k (a, r) = Ok (a', r') /\
    consistent (length data) (a_alloc a') (view (a_uv a')) /\ caches_ok data covs (a_uv a') /\
    length (a_uv a') = nc /\ P (a_mix a').
Proof. exact blocked_iter_spec. Qed.
Print Assumptions C04_blocked_iterations.

(** All labels of a sweep: one categorical draw per observation, in order, each
    from prior weight plus likelihood under the weights and parameters before
    the sweep. *)
Theorem C04_blocked_labels_drawn :
  forall (I : Iface) (L : laws I) (data : list (Datum I)) (covs : list (Cov I)), rows_ok I data (at_ covs) ->
  forall nc (a a' : alg I) r r',
  1 <= nc -> length (a_uv a) = nc -> logweights_ok I data (a_mix a) nc ->
  consistent (length data) (a_alloc a) (view (a_uv a)) -> caches_ok data covs (a_uv a) ->
  blocked_sample_allocations data covs nc (a, r) = Ok (a', r') ->
  draws I (vecs I data covs (blocked_vec I (mix_logweights I (a_mix a)) (map (@h_state I) (a_uv a)))) (a_alloc a') r r'.
Proof. exact blocked_draws. Qed.
Print Assumptions C04_blocked_labels_drawn.

(** The demo interface with a weight vector of length [nc]. *)
Definition demo_nc (cj : bool) (nc : nat) : Iface :=
  let D := demo cj (fun z => z) in
  mkIface (cov0 D) cj (row_ok D) (stats0 D) (stats_op D) (post D) (prior_sample D) None
    (init_state D) (like_lpdf D) (marg_lpdf D) (mass_ex D) (mass_new D) (fun (_ : unit) (_ : nat) => repeat 0%Z nc)
    (mix_update D) (hyp_update D) (w0 D) (wadd D) (wneg D) (wsublog D) (log_softmax D) (categorical D) (uniform D) (accept D).

Lemma demo_nc_laws : forall cj nc, laws (demo_nc cj nc).
Proof. intros cj nc. destruct (demo_laws cj (fun z => z)). constructor; assumption. Qed.
Lemma demo_nc_rows : forall cj nc, rows_ok (demo_nc cj nc) ex_data (at_ ex_covs).
Proof. intros cj nc. exact (@demo_rows cj (fun z => z) ex_data). Qed.
Lemma demo_nc_safe : forall cj nc, cmixing_safe (demo_nc cj nc) ex_data nc (fun _ => True).
Proof.
  intros cj nc. split; [intros m _ i _; simpl; apply repeat_length|]. intros m cards al r _ _. simpl. eauto.
Qed.

Definition nc_h0 (cj : bool) (nc : nat) : hier (demo_nc cj nc) := mkHier (demo_nc cj nc) [] 0%Z 0%Z 0%Z false None.
Definition nc_init (cj : bool) (nc : nat) (t : list nat) : res (alg (demo_nc cj nc) * list nat) :=
  init_clusters (I := demo_nc cj nc) ex_data ex_covs false 3%Z tt nc (fun i => i mod nc) [nc_h0 cj nc] t.

(** Component 1 loses its last observation and stays. *)
Example C04_example :
  (s <- nc_init true 3 [2; 0; 0; 2] ;;
   s' <- blocked_sample_allocations (I := demo_nc true 3) ex_data ex_covs 3 s ;;
   Ok (a_alloc (fst s), a_alloc (fst s'), view (a_uv (fst s')))) =
  Ok ([0; 1; 2; 0], [2; 0; 0; 2], [([1; 2], 2%Z); ([], 0%Z); ([0; 3], 2%Z)]).
Proof. vm_compute. reflexivity. Qed.

(** ** C05 *)
Theorem C05_slice_init :
  forall (I : Iface) (L : laws I) (data : list (Datum I)) (covs : list (Cov I)), rows_ok I data (at_ covs) ->
  1 <= length data ->
  forall (K : Num) unif01 tiny hy mx (m : sb K) gen h0 r,
  1 <= sb_nc m <= length data -> (forall i, gen i < sb_nc m) -> h_saved h0 = false -> sb_ok m ->
  safe (fun p => slice_ok data covs (fst p) /\ s_mix (fst p) = m /\ only0 hy (a_uv (s_alg (fst p))))
    (slice_initialize data covs unif01 tiny hy mx m gen [h0] r).
Proof. exact slice_init_spec. Qed.
Print Assumptions C05_slice_init.

(** Weights step: no component owning observations is discarded; new ones are
    empty. *)
Theorem C05_weights_keep_occupied :
  forall (I : Iface) (data : list (Datum I)) (covs : list (Cov I)), 1 <= length data ->
  forall (K : Num) beta junk fuel (s s' : slicer I K) r r', slice_ok data covs s ->
  slice_sample_weights beta junk fuel s r = Some (Ok (s', r')) ->
  slice_ok data covs s' /\ a_alloc (s_alg s') = a_alloc (s_alg s) /\ s_u s' = s_u s /\
  (forall c h, nth_error (a_uv (s_alg s)) c = Some h -> h_ids h <> [] ->
     nth_error (a_uv (s_alg s')) c = Some h) /\
  (forall c h, nth_error (a_uv (s_alg s')) c = Some h ->
     nth_error (a_uv (s_alg s)) c = Some h \/ (length (a_uv (s_alg s)) <= c /\ h_ids h = [])).
Proof. exact slice_weights_spec. Qed.
Print Assumptions C05_weights_keep_occupied.

(** Allocation step: succeeds exactly when every observation has a candidate,
    and then moves every observation to a component exceeding its slice. *)
Theorem C05_allocations :
  forall (I : Iface) (L : laws I) (data : list (Datum I)) (covs : list (Cov I)), rows_ok I data (at_ covs) ->
  1 <= length data ->
  forall (K : Num) (beta : N K -> N K -> Rng I -> N K * Rng I) (unif01 : N K -> Rng I -> N K * Rng I) (tiny : N K)
    (s : slicer I K) r, slice_ok data covs s ->
  ((exists s' r', slice_sample_allocations data covs s r = Ok (s', r')) <->
   (forall i, i < length data -> exists j w u, nth_error (sb_w (s_mix s)) j = Some w /\ nth_error (s_u s) i = Some u /\ nltb K u w = true)) /\
  (forall s' r', slice_sample_allocations data covs s r = Ok (s', r') ->
     slice_ok data covs s' /\ s_mix s' = s_mix s /\ s_u s' = s_u s /\
     (forall i c, nth_error (a_alloc (s_alg s')) i = Some c -> exists w u,
        nth_error (sb_w (s_mix s)) c = Some w /\ nth_error (s_u s) i = Some u /\ nltb K u w = true)) /\
  slice_sample_allocations data covs s r <> UB /\ slice_sample_allocations data covs s r <> Abort.
Proof. exact slice_alloc_spec. Qed.
Print Assumptions C05_allocations.

(** Every observation's label is drawn among the components exceeding its slice,
    with the likelihoods as weights. *)
Theorem C05_labels_drawn :
  forall (I : Iface) (L : laws I) (data : list (Datum I)) (covs : list (Cov I)), rows_ok I data (at_ covs) ->
  forall (K : Num) (s s' : slicer I K) r r', slice_ok data covs s ->
  slice_sample_allocations data covs s r = Ok (s', r') ->
  exists cs, draws I (vecs I data covs (slice_vec I (map (@h_state I) (a_uv (s_alg s))) (cand_of s))) cs r r' /\ length cs = length data /\
    forall i c, nth_error cs i = Some c -> exists j, nth_error (cand_of s i) c = Some j /\ nth_error (a_alloc (s_alg s')) i = Some j.
Proof. exact slice_draws. Qed.
Print Assumptions C05_labels_drawn.

(** Any number of iterations: the state stays coherent; the only abnormal
    outcome is an exception. *)
Theorem C05_slice_iterations :
  forall (I : Iface) (L : laws I) (data : list (Datum I)) (covs : list (Cov I)), rows_ok I data (at_ covs) ->
  1 <= length data ->
  forall (K : Num) beta unif01 tiny junk fuel k (s : slicer I K) r, slice_ok data covs s ->
  match slice_iter data covs beta unif01 tiny junk fuel k s r with
  | None => True
  | Some (Ok (s', _)) => slice_ok data covs s' /\ a_hyp (s_alg s') = a_hyp (s_alg s)
  | Some (Throw _) => True
  | Some Abort => False
  | Some UB => False
  end.
Proof. exact slice_iter_spec. Qed.
Print Assumptions C05_slice_iterations.

(** Over the reals, with a prior able to produce any number of sticks: when its
    stick-breaking loop ends, an iteration completes, unless an occupied
    component's weight has dropped to 1e-16. *)
Theorem C05_slice_step_completes :
  forall (I : Iface) (L : laws I) (data : list (Datum I)) (covs : list (Cov I)), rows_ok I data (at_ covs) ->
  1 <= length data ->
  forall (beta : R -> R -> Rng I -> R * Rng I) (unif01 : R -> Rng I -> R * Rng I) (tiny junk : R),
  (forall a b r, (0 < a)%R -> (0 < b)%R -> (0 < fst (beta a b r) < 1)%R) ->
  (forall w r, (0 < w)%R -> (0 <= fst (unif01 w r) < w)%R) -> (0 < tiny)%R ->
  forall fuel (s : slicer I numR) r x,
  slice_ok data covs s -> open_prior (sb_prior (s_mix s)) -> Forall (fun u => (0 < u)%R) (s_u s) ->
  slice_step data covs (K:=numR) beta unif01 tiny junk fuel s r = Some x ->
  exists a r1 s2 r2, sample_unique_values false (s_alg s, r) = Ok (a, r1) /\
    slice_sample_weights (K:=numR) beta junk fuel (mkSlice a (s_mix s) (s_u s)) r1 = Some (Ok (s2, r2)) /\
    ((exists i c w, nth_error (a_alloc (s_alg s2)) i = Some c /\ nth_error (sb_w (s_mix s2)) c = Some w /\ (w <= tiny)%R) \/
     exists s' r', x = Ok (s', r') /\ slice_ok data covs s' /\ open_prior (sb_prior (s_mix s')) /\ Forall (fun u => (0 < u)%R) (s_u s')).
Proof. exact slice_step_progress. Qed.
Print Assumptions C05_slice_step_completes.

Theorem C05_slice_init_positive :
  forall (I : Iface) (L : laws I) (data : list (Datum I)) (covs : list (Cov I)), rows_ok I data (at_ covs) ->
  1 <= length data ->
  forall (unif01 : R -> Rng I -> R * Rng I) (tiny : R), (0 < tiny)%R ->
  forall hy mx (m : sb numR) gen h0 r s r',
  1 <= sb_nc m <= length data -> (forall i, gen i < sb_nc m) -> h_saved h0 = false -> sb_ok m ->
  slice_initialize data covs (K:=numR) unif01 tiny hy mx m gen [h0] r = Ok (s, r') ->
  slice_ok data covs s /\ s_mix s = m /\ Forall (fun u => (0 < u)%R) (s_u s).
Proof. exact slice_init_pos. Qed.
Print Assumptions C05_slice_init_positive.

(** Rational draws read from a tape of percentages. *)
Definition pct (r : list nat) : Q * list nat :=
  match r with [] => ((1 # 2)%Q, []) | x :: t => (Qmake (Z.of_nat x) 100, t) end.
Definition qbeta (a b : Q) (r : list nat) : Q * list nat := pct r.
Definition qunif (w : Q) (r : list nat) : Q * list nat := let '(u, t) := pct r in (Qred (Qmult w u), t).
Definition qtiny : Q := Qmake 1 10000000000000000.
Notation DQ := (demo true (fun z => z)).
Definition q_init (n : nat) (nc : nat) (t : list nat) : res (slicer DQ numQ * list nat) :=
  m <- sb_init (K:=numQ) (DpPrior numQ 1%Q) true nc ;;
  slice_initialize (I := DQ) (firstn n ex_data) (firstn n ex_covs) (K:=numQ) qunif qtiny 3%Z tt m (fun i => i mod nc) [ex_h0 true (fun z => z)] t.
Definition show (s : slicer DQ numQ) : list nat * list (list nat * Z) * list Q * list Q :=
  (a_alloc (s_alg s), view (a_uv (s_alg s)), map Qred (sb_w (s_mix s)), map Qred (s_u s)).

Definition q_step (n : nat) (x : slicer DQ numQ * list nat) : res (slicer DQ numQ * list nat) :=
  match slice_step (I := DQ) (firstn n ex_data) (firstn n ex_covs) (K:=numQ) qbeta qunif qtiny 0%Q 10 (fst x) (snd x) with
  | Some y => y
  | None => Throw "out of fuel"
  end.

(** Two components become six; component 1 loses its data. *)
Example C05_example :
  (s <- q_init 4 2 [10; 20; 30; 40; 50; 50; 30; 30; 30; 80; 90; 20; 10; 5; 10; 3; 2; 2] ;;
   s' <- q_step 4 s ;; Ok (show (fst s), show (fst s'))) =
  Ok (([0; 1; 0; 1], [([0; 2], 2%Z); ([1; 3], 2%Z)], [1 # 2; 1 # 4]%Q, [1 # 20; 1 # 20; 3 # 20; 1 # 10]%Q),
      ([0; 3; 2; 2], [([0], 1%Z); ([], 0%Z); ([2; 3], 2%Z); ([1], 1%Z); ([], 0%Z); ([], 0%Z)],
       [1 # 2; 1 # 4; 3 # 40; 21 # 400; 147 # 4000; 343 # 5000]%Q, [9 # 20; 1 # 20; 1 # 20; 1 # 80]%Q)).
Proof. vm_compute. reflexivity. Qed.

(** A drawn stick of zero gives the occupied component weight zero: the slice
    step throws. *)
Example C05_throw_example :
  (s <- q_init 1 1 [50; 0; 70] ;; q_step 1 s) = Throw "uniform_rng: upper bound must exceed lower bound".
Proof. vm_compute. reflexivity. Qed.

(** ** C12, conditional algorithms *)
Theorem C12_blocked_redraw :
  forall (I : Iface) (L : laws I) (data : list (Datum I)) (covs : list (Cov I)), rows_ok I data (at_ covs) ->
  forall nc (P : Mix I -> Prop) hy0 m gen h0 r steps a r' uv' r'',
  other_draw I = None -> 1 <= nc <= length data -> (forall i, gen i < nc) ->
  h_saved h0 = false -> cmixing_safe I data nc P -> P m ->
  (s0 <- init_clusters data covs false hy0 m nc gen [h0] r ;;
   iter (base_step (blocked_sample_allocations data covs nc) false) steps s0) = Ok (a, r') ->
  sample_unique_values false (a, r') = Ok (set_uv a uv', r'') ->
  forall c h h', nth_error (a_uv a) c = Some h -> nth_error uv' c = Some h' ->
    exists r0 r1, prior_sample I
       (if length (h_ids h) =? 0 then a_hyp a
        else if conj I && (c =? 0) then hy0
        else post I (a_hyp a) (Z.of_nat (length (h_ids h))) (batch I data (at_ covs) (h_ids h)) (h_state h)) r0
       = (h_state h', r1).
Proof. exact blocked_redraw. Qed.
Print Assumptions C12_blocked_redraw.

Theorem C12_slice_redraw :
  forall (I : Iface) (L : laws I) (data : list (Datum I)) (covs : list (Cov I)), rows_ok I data (at_ covs) ->
  1 <= length data ->
  forall (K : Num) beta unif01 tiny junk fuel hy0 mx (m : sb K) gen h0 r s0 r0 steps s r' uv' r'',
  other_draw I = None -> 1 <= sb_nc m <= length data -> (forall i, gen i < sb_nc m) -> h_saved h0 = false -> sb_ok m ->
  slice_initialize data covs unif01 tiny hy0 mx m gen [h0] r = Ok (s0, r0) ->
  slice_iter data covs beta unif01 tiny junk fuel steps s0 r0 = Some (Ok (s, r')) ->
  sample_unique_values false (s_alg s, r') = Ok (set_uv (s_alg s) uv', r'') ->
  forall c h h', nth_error (a_uv (s_alg s)) c = Some h -> nth_error uv' c = Some h' ->
    exists q0 q1, prior_sample I
       (if length (h_ids h) =? 0 then a_hyp (s_alg s)
        else if conj I && (c =? 0) then hy0
        else post I (a_hyp (s_alg s)) (Z.of_nat (length (h_ids h))) (batch I data (at_ covs) (h_ids h)) (h_state h)) q0
       = (h_state h', q1).
Proof. exact slice_redraw. Qed.
Print Assumptions C12_slice_redraw.

(** After a sweep the first component holds data 7 and 1 (sum 8) and redraws
    from the initial prior 3; the third holds 5 and 4 and draws from 309. *)
Example C12_blocked_example :
  (s <- nc_init true 3 [2; 0; 0; 2] ;;
   s' <- base_step (blocked_sample_allocations (I := demo_nc true 3) ex_data ex_covs 3) false s ;;
   Ok (view (a_uv (fst s')), map (@h_state _) (a_uv (fst s')))) =
  Ok ([([1; 2], 2%Z); ([], 0%Z); ([0; 3], 2%Z)], [3; 3; 309]%Z).
Proof. vm_compute. reflexivity. Qed.

Example C12_slice_example :
  (s <- q_init 4 2 [10; 20; 30; 40; 50; 50; 30; 30; 30; 80; 90; 20; 10; 5; 10; 3; 2; 2] ;;
   s' <- q_step 4 s ;;
   s'' <- sample_unique_values (I := DQ) false (s_alg (fst s'), []) ;;
   Ok (view (a_uv (fst s'')), map (@h_state _) (a_uv (fst s'')))) =
  Ok ([([0], 1%Z); ([], 0%Z); ([2; 3], 2%Z); ([1], 1%Z); ([], 0%Z); ([], 0%Z)], [3; 3; 305; 307; 3; 3]%Z).
Proof. vm_compute. reflexivity. Qed.

(** ** C41 *)
Local Open Scope R_scope.
Theorem C41_weight_value :
  forall (l : list R) (x : R) h v, nth_error l h = Some v ->
  nth_error (weights_go numR x l) h = Some (v * (x * fold_right Rmult 1 (map (fun v => 1 - v) (firstn h l)))).
Proof. exact weights_nth. Qed.
Print Assumptions C41_weight_value.

Theorem C41_weight_sum :
  forall (l : list R) (x : R), fold_right Rplus 0 (weights_go numR x l) = x * (1 - fold_right Rmult 1 (map (fun v => 1 - v) l)).
Proof. exact weights_sum. Qed.
Print Assumptions C41_weight_sum.

Theorem C41_weights_nonneg :
  forall (l : list R) (x : R), 0 <= x -> Forall (fun v => 0 <= v <= 1) l -> Forall (fun w => 0 <= w) (weights_go numR x l).
Proof. exact weights_nonneg. Qed.
Print Assumptions C41_weights_nonneg.

Theorem C41_sum_one :
  forall l : list R, l <> [] -> last l 0 = 1 -> fold_right Rplus 0 (weights_go numR 1 l) = 1.
Proof. exact weights_sum_one. Qed.
Print Assumptions C41_sum_one.

(** The log-scale computation of the code exponentiates to these weights. *)
Theorem C41_log_scale :
  forall l c, Forall (fun v => 0 <= v <= 1) l -> map xexp (logweights_go c l) = weights_go numR (xexp c) l.
Proof. exact log_scale. Qed.
Print Assumptions C41_log_scale.

Example C41_example :
  map Qred (weights_go numQ 1%Q [1 # 2; 1 # 3; 1]%Q) = [1 # 2; 1 # 6; 1 # 3]%Q.
Proof. vm_compute. reflexivity. Qed.

(** ** C42 *)
(** Likelihood of the allocations times prior density = updated density. *)
Theorem C42_full_conditional :
  forall (vs : list R) sh ns, length vs = length ns -> length sh = length ns ->
  Forall (fun v => 0 < v < 1) vs ->
  alloc_like (weights_go numR 1 vs) ns * beta_kernels sh vs = beta_kernels (shapes_after sh ns) vs.
Proof. exact full_conditional. Qed.
Print Assumptions C42_full_conditional.

(** The update draws every stick from that updated density. *)
Theorem C42_update_draws :
  forall (Rng : Type) (beta : R -> R -> Rng -> R * Rng) (m : sb numR) ns r m' r', sb_ok m -> (1 <= sb_nc m)%nat -> length ns = sb_nc m ->
  sb_update (K:=numR) beta m (map Z.of_nat ns) r = Ok (m', r') ->
  exists sh vs, rmap (get_beta_params m) (seq 0 (sb_nc m)) = Ok sh /\ length sh = sb_nc m /\ length vs = sb_nc m /\
    drawn beta (shapes_after sh ns) vs r r' /\
    sb_sticks m' = (if sb_inf m then vs else upd vs (sb_nc m - 1) 1) /\
    sb_w m' = weights_go numR 1 (sb_sticks m').
Proof. exact sb_update_spec. Qed.
Print Assumptions C42_update_draws.

(** Counts 2,0,1 with shapes (1,1),(1,2),(1,3): the draws use (3,2),(1,3),(2,3);
    the test generator returns the mean of the distribution. *)
Definition qmean (a b : Q) (r : list nat) : Q * list nat := (Qred (Qdiv a (Qplus a b)), r).
Example C42_example :
  (m <- sb_init (K:=numQ) (BetaPriors numQ [(1, 1); (1, 2); (1, 3)]%Q) true 3 ;;
   '(m', _) <- sb_update (K:=numQ) qmean m [2; 0; 1]%Z [] ;; Ok (map Qred (sb_sticks m'), map Qred (sb_w m'))) =
  Ok ([3 # 5; 1 # 4; 2 # 5]%Q, [3 # 5; 1 # 10; 3 # 25]%Q).
Proof. vm_compute. reflexivity. Qed.

(** ** C43 *)
Theorem C43_init_sum_below_one :
  forall p inf nc (m : sb numR), sb_init p inf nc = Ok m ->
  (forall i a b, (i < nc)%nat -> get_beta_params m i = Ok (a, b) -> 0 < a /\ 0 < b) ->
  fold_right Rplus 0 (sb_w m) < 1 /\ Forall (fun w => 0 < w) (sb_w m).
Proof. exact init_sum_lt1. Qed.
Print Assumptions C43_init_sum_below_one.

(** The positivity hypothesis holds of every accepted total-mass prior. *)
Theorem C43_dp_init_sum_below_one :
  forall mass inf nc (m : sb numR), sb_init (DpPrior numR mass) inf nc = Ok m -> fold_right Rplus 0 (sb_w m) < 1.
Proof. exact dp_init_sum_lt1. Qed.
Print Assumptions C43_dp_init_sum_below_one.

(** Accepted priors without it: the last listed shape is not checked, and a
    strength in (-discount, 0] gives a first stick of at least one. *)
Theorem C43_accepted_prior_refuted :
  exists p p' m m', sb_init (K:=numQ) p false 1 = Ok m /\ map Qred (sb_w m) = [1%Q] /\
    sb_init (K:=numQ) p' false 1 = Ok m' /\ map Qred (sb_w m') = [5 # 4]%Q.
Proof.
  exists (BetaPriors numQ [(1, 0)]%Q), (PyPrior numQ (-1 # 10)%Q (1 # 2)%Q). eapply ex_intro, ex_intro.
  split; [vm_compute; reflexivity|]. split; [vm_compute; reflexivity|]. split; vm_compute; reflexivity.
Qed.
Print Assumptions C43_accepted_prior_refuted.

Theorem C43_keep_breaking_throws :
  forall Rng (beta : R -> R -> Rng -> R * Rng) junk (m : sb numR) r l,
  sb_prior m = BetaPriors numR l -> sb_ok m ->
  exists m' e, keep_breaking1 (K:=numR) beta junk m r = (m', Throw e) /\
    sb_nc m' = sb_nc m /\ length (sb_sticks m') = S (sb_nc m) /\ sb_w m' = sb_w m.
Proof. exact keep_breaking_beta_throws. Qed.
Print Assumptions C43_keep_breaking_throws.

Example C43_example :
  (m <- sb_init (K:=numQ) (BetaPriors numQ [(1, 1); (1, 3)]%Q) false 2 ;;
   let '(m', x) := keep_breaking1 (K:=numQ) qbeta 7%Q m [] in
   Ok (map Qred (sb_w m), x, sb_nc m', map Qred (sb_sticks m'))) =
  Ok ([1 # 2; 1 # 8]%Q, Throw "Requested stick exceeds fixed upper bound", 2%nat, [1 # 2; 1 # 4; 7]%Q).
Proof. vm_compute. reflexivity. Qed.

(** ** C64 *)
(** Right after the slices are drawn every observation's own component is a
    candidate, unless its weight is at most 1e-16. *)
Theorem C64_own_component_candidate :
  forall (I : Iface) (L : laws I) (data : list (Datum I)) (covs : list (Cov I)), rows_ok I data (at_ covs) ->
  (1 <= length data)%nat ->
  forall (beta : R -> R -> Rng I -> R * Rng I) (unif01 : R -> Rng I -> R * Rng I) (tiny junk : R),
  (forall w r, 0 < w -> 0 <= fst (unif01 w r) < w) ->
  forall (s : slicer I numR) r,
  SInv data covs s -> Forall (fun w => 0 < w) (sb_w (s_mix s)) ->
  exists s3 r3, sample_slice data (K:=numR) unif01 tiny s r = Ok (s3, r3) /\ SInv data covs s3 /\
    s_alg s3 = s_alg s /\ s_mix s3 = s_mix s /\
    (forall i u, nth_error (s_u s3) i = Some u -> tiny <= u) /\
    ((forall i c w, nth_error (a_alloc (s_alg s)) i = Some c -> nth_error (sb_w (s_mix s)) c = Some w -> tiny < w) ->
     (forall i c w u, nth_error (a_alloc (s_alg s)) i = Some c -> nth_error (sb_w (s_mix s)) c = Some w ->
        nth_error (s_u s3) i = Some u -> u < w) /\
     exists s4 r4, slice_sample_allocations data covs s3 r3 = Ok (s4, r4) /\ SInv data covs s4).
Proof. exact slice_alloc_open. Qed.
Print Assumptions C64_own_component_candidate.

(** Components not represented after the weights step could not exceed the
    slices that step has read, whatever their sticks. *)
Theorem C64_truncation_for_slices_read :
  forall (I : Iface) (data : list (Datum I)) (covs : list (Cov I)),
  (1 <= length data)%nat ->
  forall (beta : R -> R -> Rng I -> R * Rng I) (junk : R),
  (forall a b r, 0 < a -> 0 < b -> 0 < fst (beta a b r) < 1) ->
  forall fuel (s : slicer I numR) r s2 r2,
  slice_ok data covs s -> open_prior (sb_prior (s_mix s)) -> Forall (fun u => 0 < u) (s_u s) ->
  slice_sample_weights (K:=numR) beta junk fuel s r = Some (Ok (s2, r2)) ->
  forall more i u j w, Forall (fun v => 0 <= v <= 1) more ->
    nth_error (s_u s) i = Some u -> (sb_nc (s_mix s2) <= j)%nat ->
    nth_error (weights_go numR 1 (sb_sticks (s_mix s2) ++ more)) j = Some w -> w < u.
Proof. exact truncation. Qed.
Print Assumptions C64_truncation_for_slices_read.

(** ... but the allocation step uses slices drawn afterwards, and these can be
    smaller: here one component of weight 3/4 is kept for the old slice 2/5, the
    new slice is 3/40, and a next stick of 9/10 would have had weight 9/40. *)
Theorem C64_truncation_for_slices_used_refuted :
  exists x x', q_init 1 1 [80; 75; 10; 0]%nat = Ok x /\ q_step 1 x = Ok x' /\
    show (fst x) = ([0%nat], [([0%nat], 1%Z)], [1 # 2]%Q, [2 # 5]%Q) /\
    show (fst x') = ([0%nat], [([0%nat], 1%Z)], [3 # 4]%Q, [3 # 40]%Q) /\
    exists v w, (0 < v)%Q /\ (v < 1)%Q /\
      map Qred (weights_go numQ 1%Q (sb_sticks (s_mix (fst x')) ++ [v])) = [3 # 4; w]%Q /\
      nltb numQ (3 # 40)%Q w = true.
Proof.
  eapply ex_intro, ex_intro. split; [vm_compute; reflexivity|]. split; [vm_compute; reflexivity|].
  split; [vm_compute; reflexivity|]. split; [vm_compute; reflexivity|].
  exists (9 # 10)%Q, (9 # 40)%Q. split; [reflexivity|]. split; [reflexivity|]. split; vm_compute; reflexivity.
Qed.
Print Assumptions C64_truncation_for_slices_used_refuted.

(** ** C65 *)
(** A Pitman-Yor process has sticks Beta(1 - d, strength + k d), k = 1, 2, ...;
    the code's k-th stick uses k - 1. *)
Theorem C65_py_shapes :
  forall (m : sb numR) st d k, sb_prior m = PyPrior numR st d ->
  get_beta_params m k = Ok (1 - d, st + INR k * d).
Proof. exact py_shapes. Qed.
Print Assumptions C65_py_shapes.

(** Hence the first weight at initialisation (its prior mean) is not the
    probability (1 - d)/(strength + 1) that two observations share a cluster's
    first component: with strength 1 and discount 1/2 it is 1/3, not 1/4. *)
Theorem C65_py_first_weight_refuted :
  exists m, sb_init (K:=numQ) (PyPrior numQ 1%Q (1 # 2)%Q) true 1 = Ok m /\
    map Qred (sb_w m) = [1 # 3]%Q /\ ~ ((1 # 3) == (1 - (1 # 2)) / (1 + 1))%Q.
Proof.
  eapply ex_intro. split; [vm_compute; reflexivity|]. split; [vm_compute; reflexivity|]. intros H. vm_compute in H. discriminate.
Qed.
Print Assumptions C65_py_first_weight_refuted.
