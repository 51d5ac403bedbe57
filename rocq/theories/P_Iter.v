(** * C131: what one iteration does after the labels. *)
From Coq Require Import String.
From Coq Require Import Bool List Arith ZArith Lia Reals Lra.
From Verif Require Import Base Hier Algos Run Spec MargFacts NealFacts InitFacts MargMore MargProps Demo IterSpec IterFacts IterCond.
From Verif Require Import Stick StickFacts Cond CondFacts SliceFacts CondProps SplitMerge SMFacts SMProps P_Marginal.
From Verif Require Import XReal Mixings Univ UnivFacts RealInst RealFacts.
Import ListNotations.

(** Neal2: given the labels, the parameters are drawn one cluster after the
    other, each from the posterior of its data (or, for at most one cluster,
    from the first hyperparameters, C12); the hyperparameters are then updated
    with the new parameters and the sizes of the clusters, and the mixing last,
    all from one generator. *)
Theorem C131_neal2 :
  forall (I : Iface) (L : laws I) (data : list (Datum I)) (covs : list (Cov I)), rows_ok I data (at_ covs) ->
  forall (P : Mix I -> Prop) hy0 m k gen h0 r steps a r' b q,
  2 <= length data -> k <= length data -> (forall i, gen i < if k =? 0 then length data else k) ->
  h_saved h0 = false -> @mixing_safe I data P -> P m ->
  (s0 <- init_clusters data covs false hy0 m k gen [h0] r ;;
   iter (base_step (neal2_sample_allocations data covs) false) steps s0) = Ok (a, r') ->
  base_step (neal2_sample_allocations data covs) false (a, r') = Ok (b, q) ->
  exists a1 r1, neal2_sample_allocations data covs (a, r') = Ok (a1, r1) /\
  length (filter (@h_saved I) (a_uv a1)) <= 1 /\
  rest_of_iteration (fun h => match other_draw I with
    | Some f => f (a_hyp a) (Z.of_nat (length (h_ids h))) (batch I data (at_ covs) (h_ids h)) (h_ids h) (h_state h)
    | None => prior_sample I (if h_saved h then hy0
                else post I (a_hyp a) (Z.of_nat (length (h_ids h))) (batch I data (at_ covs) (h_ids h)) (h_state h))
    end) (a_hyp a) (a_mix a) a1 r1 b q.
Proof. intros I L data covs Hr P hy0 m k gen h0 r steps a r' b q. exact (@neal2_iteration I L data covs Hr P hy0 m k gen h0 r steps a r' b q). Qed.
Print Assumptions C131_neal2.

Theorem C131_neal8 :
  forall (I : Iface) (L : laws I) (data : list (Datum I)) (covs : list (Cov I)), rows_ok I data (at_ covs) ->
  forall n_aux (P : Mix I -> Prop) hy0 m k gen h0 r steps a r' b q,
  1 <= n_aux -> 1 <= length data -> k <= length data -> (forall i, gen i < if k =? 0 then length data else k) ->
  h_saved h0 = false -> @mixing_safe I data P -> P m ->
  ('(a0, r0) <- init_clusters data covs false hy0 m k gen [h0] r ;;
   a1 <- neal8_init_aux n_aux a0 ;;
   iter (base_step (neal8_sample_allocations data covs n_aux) false) steps (a1, r0)) = Ok (a, r') ->
  base_step (neal8_sample_allocations data covs n_aux) false (a, r') = Ok (b, q) ->
  exists a1 r1, neal8_sample_allocations data covs n_aux (a, r') = Ok (a1, r1) /\
  length (filter (@h_saved I) (a_uv a1)) <= 1 /\
  rest_of_iteration (fun h => match other_draw I with
    | Some f => f (a_hyp a) (Z.of_nat (length (h_ids h))) (batch I data (at_ covs) (h_ids h)) (h_ids h) (h_state h)
    | None => prior_sample I (if h_saved h then hy0
                else post I (a_hyp a) (Z.of_nat (length (h_ids h))) (batch I data (at_ covs) (h_ids h)) (h_state h))
    end) (a_hyp a) (a_mix a) a1 r1 b q.
Proof. intros I L data covs Hr n_aux P hy0 m k gen h0 r steps a r' b q. exact (@neal8_iteration I L data covs Hr n_aux P hy0 m k gen h0 r steps a r' b q). Qed.
Print Assumptions C131_neal8.

(** Neal3, from every proper state, even when the saved posteriors are those of
    older hyperparameters (C13): the sweep refreshes all of them, and every
    cluster draws from the posterior of its data given the current
    hyperparameters. *)
Theorem C131_neal3 :
  forall (I : Iface) (L : laws I) (data : list (Datum I)) (covs : list (Cov I)), rows_ok I data (at_ covs) ->
  conj I = true -> other_draw I = None ->
  forall (a : alg I) r b q,
  2 <= length data -> masses_ok I (a_mix a) (length data) ->
  proper (length data) (a_alloc a) (view (a_uv a)) -> caches_ok data covs (a_uv a) ->
  base_step (neal3_sample_allocations data covs) true (a, r) = Ok (b, q) ->
  exists a1 r1, neal3_sample_allocations data covs (a, r) = Ok (a1, r1) /\
  rest_of_iteration (fun h => prior_sample I
      (post I (a_hyp a) (Z.of_nat (length (h_ids h))) (batch I data (at_ covs) (h_ids h)) (init_state I (a_hyp a))))
    (a_hyp a) (a_mix a) a1 r1 b q.
Proof. intros I L data covs Hr Hcj Hod. exact (@neal3_iteration I L data covs Hr Hcj Hod). Qed.
Print Assumptions C131_neal3.

(** The same for split-merge when each iteration ends with a full scan. *)
Theorem C131_split_merge :
  forall (I : Iface) (L : laws I) (data : list (Datum I)), no_cov_ok I data -> conj I = true -> other_draw I = None ->
  forall n_restr n_mh n_full (a : alg I) r b q,
  2 <= length data -> @sm_masses_ok I data (a_mix a) ->
  proper (length data) (a_alloc a) (view (a_uv a)) -> caches_ok data (covs0 I data) (a_uv a) -> 1 <= n_full ->
  base_step (sm_sample_allocations data n_restr n_mh n_full) true (a, r) = Ok (b, q) ->
  exists a1 r1, sm_sample_allocations data n_restr n_mh n_full (a, r) = Ok (a1, r1) /\
  rest_of_iteration (fun h => prior_sample I
      (post I (a_hyp a) (Z.of_nat (length (h_ids h))) (batch I data (at_ (covs0 I data)) (h_ids h)) (init_state I (a_hyp a))))
    (a_hyp a) (a_mix a) a1 r1 b q.
Proof. intros I L data Hr Hcj Hod. exact (@sm_iteration I L data Hr Hcj Hod). Qed.
Print Assumptions C131_split_merge.

(** Without full scans it is false: two iterations of one split-merge move each;
    in the second one the clusters draw from the posteriors under the first
    hyperparameters (306, 304, 307), not under the current ones (406, 404, 407). *)
Theorem C131_split_merge_no_scan_refuted :
  exists a r b q a1 r1, ex_init true true Z.succ 2 = Ok (a, r) /\
    base_step (sm_sample_allocations (I := demo true Z.succ) ex_data 1 1 0) true (a, r) = Ok (b, q) /\
    base_step (sm_sample_allocations (I := demo true Z.succ) ex_data 1 1 0) true (b, q) = Ok (a1, r1) /\
    a_hyp b = 4%Z /\
    map (@h_state _) (a_uv a1) = [306; 304; 307]%Z /\
    map (fun h => post (demo true Z.succ) (a_hyp b) (h_card h) (h_stats h) (h_state h)) (a_uv a1) = [406; 404; 407]%Z.
Proof.
  eapply ex_intro, ex_intro, ex_intro, ex_intro, ex_intro, ex_intro. split; [vm_compute; reflexivity|]. split; [vm_compute; reflexivity|].
  split; [vm_compute; reflexivity|]. split; [vm_compute; reflexivity|]. split; vm_compute; reflexivity.
Qed.
Print Assumptions C131_split_merge_no_scan_refuted.

(** Blocked Gibbs: empty components draw from the prior and are left out of the
    update of the hyperparameters; only the first component can hold a saved
    posterior. *)
Theorem C131_blocked :
  forall (I : Iface) (L : laws I) (data : list (Datum I)) (covs : list (Cov I)), rows_ok I data (at_ covs) ->
  forall nc (P : Mix I -> Prop) hy0 m gen h0 r steps a r' b q,
  1 <= nc <= length data -> (forall i, gen i < nc) -> h_saved h0 = false -> cmixing_safe I data nc P -> P m ->
  (s0 <- init_clusters data covs false hy0 m nc gen [h0] r ;;
   iter (base_step (blocked_sample_allocations data covs nc) false) steps s0) = Ok (a, r') ->
  base_step (blocked_sample_allocations data covs nc) false (a, r') = Ok (b, q) ->
  exists a1 r1, blocked_sample_allocations data covs nc (a, r') = Ok (a1, r1) /\
  (forall c h, nth_error (a_uv a1) c = Some h -> h_saved h = (conj I && (c =? 0))) /\
  rest_of_iteration (fun h => match other_draw I with
    | Some f => f (a_hyp a) (Z.of_nat (length (h_ids h))) (batch I data (at_ covs) (h_ids h)) (h_ids h) (h_state h)
    | None => prior_sample I (if length (h_ids h) =? 0 then a_hyp a else if h_saved h then hy0
                else post I (a_hyp a) (Z.of_nat (length (h_ids h))) (batch I data (at_ covs) (h_ids h)) (h_state h))
    end) (a_hyp a) (a_mix a) a1 r1 b q.
Proof. intros I L data covs Hr. exact (@blocked_iteration I L data covs Hr). Qed.
Print Assumptions C131_blocked.

(** Slice sampler: the parameters come first, then the weights, the slices and
    the labels; the hyperparameters stay the first ones. *)
Theorem C131_slice :
  forall (I : Iface) (L : laws I) (data : list (Datum I)) (covs : list (Cov I)), rows_ok I data (at_ covs) ->
  1 <= length data -> forall (K : Num) beta unif01 tiny junk fuel hy0 mx (m : sb K) gen h0 r s0 r0 steps s r' s' r'',
  1 <= sb_nc m <= length data -> (forall i, gen i < sb_nc m) -> h_saved h0 = false -> sb_ok m ->
  slice_initialize data covs unif01 tiny hy0 mx m gen [h0] r = Ok (s0, r0) ->
  slice_iter data covs beta unif01 tiny junk fuel steps s0 r0 = Some (Ok (s, r')) ->
  slice_step data covs beta unif01 tiny junk fuel s r' = Some (Ok (s', r'')) ->
  a_hyp (s_alg s') = hy0 /\
  (forall c h, nth_error (a_uv (s_alg s)) c = Some h -> h_saved h = (conj I && (c =? 0))) /\
  exists uv r1 s2 r2 s3 r3,
    threaded (fun h => match other_draw I with
      | Some f => f hy0 (Z.of_nat (length (h_ids h))) (batch I data (at_ covs) (h_ids h)) (h_ids h) (h_state h)
      | None => prior_sample I (if length (h_ids h) =? 0 then hy0 else if h_saved h then hy0
                  else post I hy0 (Z.of_nat (length (h_ids h))) (batch I data (at_ covs) (h_ids h)) (h_state h))
      end) (a_uv (s_alg s)) r' (map (@h_state I) uv) r1 /\
    map (@h_ids I) uv = map (@h_ids I) (a_uv (s_alg s)) /\
    slice_sample_weights beta junk fuel (mkSlice (set_uv (s_alg s) uv) (s_mix s) (s_u s)) r1 = Some (Ok (s2, r2)) /\
    sample_slice data unif01 tiny s2 r2 = Ok (s3, r3) /\ slice_sample_allocations data covs s3 r3 = Ok (s', r'').
Proof. intros I L data covs Hr Hn. exact (@slice_iteration I L data covs Hr Hn). Qed.
Print Assumptions C131_slice.

(** The program "normal data, Dirichlet process with a gamma prior on the total
    mass, Neal3", over the reals: [ys] are the data of a cluster. *)
Local Open Scope R_scope.
Theorem C131_normal :
  forall lg (G : gen) (p : nig_prior) (data : list R) (a : alg (nnig_iface lg G p)) r b q al be s,
  gen_ok G -> (2 <= length data)%nat ->
  a_mix a = MixDP (DPGamma al be) s -> (exists l, dp_log s = Some l) ->
  proper (length data) (a_alloc a) (view (a_uv a)) ->
  @caches_ok (nnig_iface lg G p) data (repeat tt (length data)) (a_uv a) ->
  base_step (@neal3_sample_allocations (nnig_iface lg G p) data (repeat tt (length data))) true (a, r) = Ok (b, q) ->
  exists a1 r1 r2 r3 phi q1 u q2 v,
    @neal3_sample_allocations (nnig_iface lg G p) data (repeat tt (length data)) (a, r) = Ok (a1, r1) /\
    a_alloc b = a_alloc a1 /\ map (fun h => h_ids h) (a_uv b) = map (fun h => h_ids h) (a_uv a1) /\
    threaded (fun h => let ys := map (fun j => nth j data 0) (h_ids h) in
                nig_sample G (nnig_post (a_hyp a) (Z.of_nat (length ys)) (stats_of ys)))
      (a_uv a1) r1 (map (fun h => h_state h) (a_uv b)) r2 /\
    nig_update_hypers G p (a_hyp a) (map (fun h => h_state h) (a_uv b)) r2 = (a_hyp b, r3) /\
    g_gamma G (dp_tot s + 1) (INR (length data)) r3 = (phi, q1) /\
    g_unif G 0 1 q1 = (u, q2) /\
    g_gamma G (dp_shape al (length (a_uv b)) (dp_prob al be (length (a_uv b)) (length data) phi) u) (be - ln phi) q2 = (v, q) /\
    a_mix b = MixDP (DPGamma al be) (mkDp v (dp_log s)).
Proof.
  intros lg G p data a r b q al be s HG Hn Hm (l & Hl) Hp Hc H.
  destruct (@C131_neal3 (nnig_iface lg G p) (nnig_laws lg G p HG) data (repeat tt (length data)) (nnig_rows lg G p data) eq_refl eq_refl a r b q Hn) as
    (a1 & r1 & Ea & A & B & r2 & r3 & D & E & F); auto.
  { rewrite Hm. intros k Hk. cbn. split; [intros c Hc1; eexists; reflexivity|]. unfold dp_mass_new. rewrite Hl. eexists. reflexivity. }
  rewrite Hm in F. cbn [mix_update nnig_iface mixing_update] in F. rewrite map_length in F.
  assert (G0 : @GInv (nnig_iface lg G p) data (repeat tt (length data)) false a) by (apply GInv_iff; auto).
  destruct (@neal3_all_fresh (nnig_iface lg G p) (nnig_laws lg G p HG) data (repeat tt (length data)) (nnig_rows lg G p data) eq_refl eq_refl a a1 r r1 Hn) as (G1 & _); auto.
  { rewrite Hm. intros k Hk. cbn. split; [intros c Hc1; eexists; reflexivity|]. unfold dp_mass_new. rewrite Hl. eexists. reflexivity. }
  assert (La : length (a_alloc b) = length data) by (rewrite A; apply G1).
  rewrite La in F.
  destruct (g_gamma G (dp_tot s + 1) (INR (length data)) r3) as [phi q1] eqn:E1.
  destruct (g_unif G 0 1 q1) as [u q2] eqn:E2.
  match type of F with context [g_gamma G ?x ?y ?z] => destruct (g_gamma G x y z) as [v q3] eqn:E3 end.
  cbn [dp_update] in F. unfold gamma_rng in F.
  destruct (gtb (dp_tot s + 1) 0 && gtb (INR (length data)) 0); [|discriminate]. cbn [rbind] in F.
  destruct (_ && _) in F; [|discriminate]. cbn [rbind] in F. injection F as Fm Fq. subst q3.
  exists a1, r1, r2, r3, phi, q1, u, q2, v. split; [exact Ea|]. split; [exact A|]. split; [exact B|].
  assert (Hids : forall h, In h (a_uv a1) -> (forall j, In j (h_ids h) -> (j < length data)%nat)).
  { intros h Hh j Hj. apply In_nth_error in Hh. destruct Hh as (c & Hc'). destruct G1 as (Hl1 & [_ G1] & _). destruct (G1 c h Hc') as (_ & _ & M). apply M in Hj. apply nth_error_lt in Hj. exact (eq_ind _ (fun k => (j < k)%nat) Hj _ Hl1). }
  split.
  { eapply threaded_ext; [|exact D]. intros h x Hh. cbn [prior_sample post nnig_iface].
    pose proof (nnig_batch lg G p data (h_ids h) (Hids h Hh)) as Eb. unfold pick in Eb. cbv zeta. rewrite map_length. rewrite <- Eb. reflexivity. }
  split.
  { refine (eq_trans _ E). cbn [hyp_update nnig_iface]. f_equal. rewrite map_map. cbn [fst].
    assert (Hne : forall h, In h (a_uv b) -> h_ids h <> []).
    { intros h Hh Hz. assert (Hin : In [] (map (fun h : hier (nnig_iface lg G p) => h_ids h) (a_uv b))) by (rewrite <- Hz; apply in_map; exact Hh).
      assert (B' : map (fun h : hier (nnig_iface lg G p) => h_ids h) (a_uv b) = map (fun h : hier (nnig_iface lg G p) => h_ids h) (a_uv a1)) by exact B.
      rewrite B' in Hin. apply in_map_iff in Hin. destruct Hin as (g & Eg & Hg). apply (proj2 (proj2 (GInv_cards G1 g Hg)) Eg). }
    clear - Hne. induction (a_uv b) as [|h uv IH]; [reflexivity|]. cbn [filter].
    assert (Hh := Hne h (or_introl eq_refl)). destruct (h_ids h) as [|j ids] eqn:Ei; [congruence|]. cbn [length Nat.eqb negb map].
    f_equal. apply IH. intros g Hg. apply Hne. right. exact Hg. }
  auto.
Qed.
Print Assumptions C131_normal.
Local Close Scope R_scope.

(** Two, then three clusters under Neal3 with a hyperparameter that grows by one per
    iteration (3, 4, 5): in the second iteration all draw under 4, although the
    posteriors saved before it are under 3. *)
Example C131_example :
  (s <- ex_init true true Z.succ 2 ;;
   s1 <- base_step (neal3_sample_allocations (I := demo true Z.succ) ex_data ex_covs) true s ;;
   s2 <- base_step (neal3_sample_allocations (I := demo true Z.succ) ex_data ex_covs) true s1 ;;
   Ok (map (@h_ph _) (a_uv (fst s1)), a_hyp (fst s1), map (@h_ids _) (a_uv (fst s2)), map (@h_state _) (a_uv (fst s2)), a_hyp (fst s2))) =
  Ok ([Some 310; Some 307]%Z, 4%Z, [[2]; [0; 1]; [3]], [401; 412; 404]%Z, 5%Z).
Proof. vm_compute. reflexivity. Qed.
