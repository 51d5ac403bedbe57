(** * Property theorems: acceptance ratio of the split-and-merge sampler. *)
From Coq Require Import String.
From Coq Require Import Bool List Arith ZArith Reals Lra Lia Permutation.
From Verif Require Import Base Hier Algos SplitMerge Run Spec MargFacts NealFacts InitFacts MargMore MargProps SMFacts SMProps.
From Verif Require Import PartSpec XReal Mixings MixFacts GibbsSpec GibbsComb GibbsPost GibbsFacts GibbsState SMPost SMRatio SMSim SMBalance SMReverse.
From Verif Require Import Univ UnivFacts RealInst RealFacts SMReal SMRealEx.
Import ListNotations.
Local Open Scope R_scope.

(** ** C46 *)
Theorem C46_split_ratio :
  forall lg G p (data : list R) n_restr (a : alg (nnig_iface lg G p)) f s r t d,
  let post_ := posterior (fun l => ewens_pitman t d (sizes_of l)) (fun ids => exp (log_marg lg (a_hyp a) (pick data ids))) in
  let k := length (distinct (a_alloc a)) in
  gen_ok G -> valid (a_hyp a) -> strength (a_mix a) = Some (t, d) -> 0 <= d < 1 -> - d < t ->
  sm_state (nnig_iface lg G p) data a ->
  (f < length data)%nat -> (s < length data)%nat -> f <> s -> nth_error (a_alloc a) f = nth_error (a_alloc a) s ->
  exists g r1 g2 lp r2 w a',
    launch_state (nnig_iface lg G p) data n_restr f s a r = Ok (g, r1) /\
    @restricted_gs (nnig_iface lg G p) data a f false g r1 = Ok ((g2, lp), r2) /\
    @split_or_merge (nnig_iface lg G p) data f s g a r1 =
      (let '(u, r3) := g_unif G 0 1 r2 in Ok (if xltb u w then a' else a, r3)) /\
    splits (length data) (a_alloc a) (a_alloc a') /\ 0 < xexp lp /\
    xexp w * xexp lp * (post_ (a_alloc a) * (t + d * INR k)) = post_ (a_alloc a') * (t + 2 * d) /\
    (xexp w * xexp lp * post_ (a_alloc a) = post_ (a_alloc a') <-> d = 0 \/ k = 2%nat).
Proof. exact nnig_split_ratio. Qed.
Print Assumptions C46_split_ratio.

Theorem C46_merge_ratio :
  forall lg G p (data : list R) n_restr (a : alg (nnig_iface lg G p)) f s r t d,
  let post_ := posterior (fun l => ewens_pitman t d (sizes_of l)) (fun ids => exp (log_marg lg (a_hyp a) (pick data ids))) in
  gen_ok G -> valid (a_hyp a) -> strength (a_mix a) = Some (t, d) -> 0 <= d < 1 -> - d < t ->
  sm_state (nnig_iface lg G p) data a ->
  (f < length data)%nat -> (s < length data)%nat -> nth_error (a_alloc a) f <> nth_error (a_alloc a) s ->
  exists g r1 g2 lp w a',
    launch_state (nnig_iface lg G p) data n_restr f s a r = Ok (g, r1) /\
    @restricted_gs (nnig_iface lg G p) data a f true g r1 = Ok ((g2, lp), r1) /\
    @split_or_merge (nnig_iface lg G p) data f s g a r1 =
      (let '(u, r3) := g_unif G 0 1 r1 in Ok (if xltb u w then a' else a, r3)) /\
    splits (length data) (a_alloc a') (a_alloc a) /\ 0 < xexp lp /\
    xexp w * (post_ (a_alloc a) * (t + 2 * d)) =
    xexp lp * (post_ (a_alloc a') * (t + d * INR (length (distinct (a_alloc a'))))).
Proof. exact nnig_merge. Qed.
Print Assumptions C46_merge_ratio.

(** The acceptance test: a uniform variate is below the exponential of the log-ratio. *)
Theorem C46_accept_test : forall u w, 0 <= u -> (xltb u w = true <-> u < xexp w).
Proof. exact xltb_iff. Qed.
Print Assumptions C46_accept_test.

(** What one update does, from the two uniform indices on. *)
Theorem C46_update_structure : forall (I : Iface) (data : list (Datum I)) n_restr a r,
  mh_update data n_restr (a, r) =
  ('(f, r1) <- unif I (length data) r ;;
   '(s0, r2) <- unif I (length data - 1) r1 ;;
   let s := if (f <=? s0)%nat then S s0 else s0 in
   '(g, r3) <- launch_state I data n_restr f s a r2 ;;
   split_or_merge data f s g a r3).
Proof. exact mh_update_eq. Qed.
Print Assumptions C46_update_structure.

(** Pitman-Yor, one cluster of three data: wrong ratio. *)
Theorem C46_pitman_yor_refuted :
  exists (data : list R) (a : alg smI) t d g g2 lp w a',
    sm_state smI data a /\ strength (a_mix a) = Some (t, d) /\ 0 < d < 1 /\ - d < t /\
    launch_state smI data 1 0 1 a tt = Ok (g, tt) /\
    @restricted_gs smI data a 0 false g tt = Ok ((g2, lp), tt) /\
    @split_or_merge smI data 0 1 g a tt = Ok (if xltb 0 w then a' else a, tt) /\
    xexp w * xexp lp * posterior (fun l => ewens_pitman t d (sizes_of l)) (fun ids => exp (log_marg (fun _ => 0) (a_hyp a) (pick data ids))) (a_alloc a)
    <> posterior (fun l => ewens_pitman t d (sizes_of l)) (fun ids => exp (log_marg (fun _ => 0) (a_hyp a) (pick data ids))) (a_alloc a').
Proof. exact py_split_wrong. Qed.
Print Assumptions C46_pitman_yor_refuted.

(** ** C81 *)
Theorem C81_split_undone_by_merge :
  forall (I : Iface) (L : laws I) (data : list (Datum I)), no_cov_ok I data -> conj I = true -> other_draw I = None ->
  forall (val : W I -> R), log_weights I val ->
  forall t d, 0 <= d < 1 -> - d < t ->
  forall M n_restr (a : alg I) f s r,
  let post_ := posterior (fun l => ewens_pitman t d (sizes_of l)) M in
  sm_state I data a -> @sm_masses_ok I data (a_mix a) -> pair_masses I val (a_mix a) (length data) t d ->
  marginal_likelihood I data (covs0 I data) val (a_hyp a) M ->
  (f < length data)%nat -> (s < length data)%nat -> f <> s -> nth_error (a_alloc a) f = nth_error (a_alloc a) s ->
  exists g r1 g2 lp r2 ll lpr a' g' g2' ll' lpr' a'',
    launch_state I data n_restr f s a r = Ok (g, r1) /\
    restricted_gs data a f false g r1 = Ok ((g2, lp), r2) /\
    split_or_merge data f s g a r1 =
      (let '(acc, r3) := accept I (wadd I (wadd I (wneg I lp) lpr) ll) r2 in Ok (if acc then a' else a, r3)) /\
    sm_state I data a' /\ splits (length data) (a_alloc a) (a_alloc a') /\
    a_hyp a' = a_hyp a /\ a_mix a' = a_mix a /\
    launch_state I data n_restr f s a' r = Ok (g', r1) /\
    restricted_gs data a' f true g' r1 = Ok ((g2', lp), r1) /\
    split_or_merge data f s g' a' r1 =
      (let '(acc, r3) := accept I (wadd I (wadd I lp lpr') ll') r1 in Ok (if acc then a'' else a', r3)) /\
    sm_state I data a'' /\ a_alloc a'' = a_alloc a /\
    0 < val lp /\
    val (wadd I (wadd I (wneg I lp) lpr) ll) * val (wadd I (wadd I lp lpr') ll') = 1 /\
    val (wadd I (wadd I (wneg I lp) lpr) ll) * val lp * ((t + d * INR (length (distinct (a_alloc a)))) * post_ (a_alloc a)) =
    (t + 2 * d) * post_ (a_alloc a').
Proof.
  exact (fun I L data H1 H2 H3 val H4 t d H5 H6 M => split_reversible I L data H1 H2 H3 val H4 t d H5 H6 M).
Qed.
Print Assumptions C81_split_undone_by_merge.

Theorem C81_detailed_balance :
  forall lg G p (data : list R) n_restr (a : alg (nnig_iface lg G p)) f s r t d,
  let M := fun ids => exp (log_marg lg (a_hyp a) (pick data ids)) in
  let post_ := posterior (fun l => ewens_pitman t d (sizes_of l)) M in
  let k := length (distinct (a_alloc a)) in
  gen_ok G -> valid (a_hyp a) -> strength (a_mix a) = Some (t, d) -> 0 <= d < 1 -> - d < t ->
  sm_state (nnig_iface lg G p) data a ->
  (f < length data)%nat -> (s < length data)%nat -> f <> s -> nth_error (a_alloc a) f = nth_error (a_alloc a) s ->
  exists g r1 g2 lp r2 w a' g' g2' w' a'',
    launch_state (nnig_iface lg G p) data n_restr f s a r = Ok (g, r1) /\
    @restricted_gs (nnig_iface lg G p) data a f false g r1 = Ok ((g2, lp), r2) /\
    @split_or_merge (nnig_iface lg G p) data f s g a r1 =
      (let '(u, r3) := g_unif G 0 1 r2 in Ok (if xltb u w then a' else a, r3)) /\
    splits (length data) (a_alloc a) (a_alloc a') /\
    launch_state (nnig_iface lg G p) data n_restr f s a' r = Ok (g', r1) /\
    @restricted_gs (nnig_iface lg G p) data a' f true g' r1 = Ok ((g2', lp), r1) /\
    @split_or_merge (nnig_iface lg G p) data f s g' a' r1 =
      (let '(u, r3) := g_unif G 0 1 r1 in Ok (if xltb u w' then a'' else a', r3)) /\
    a_alloc a'' = a_alloc a /\ 0 < xexp lp /\
    xexp w * xexp lp * (post_ (a_alloc a) * (t + d * INR k)) = post_ (a_alloc a') * (t + 2 * d) /\
    xexp w * xexp w' = 1 /\
    (post_ (a_alloc a) * (xexp lp * Rmin 1 (xexp w)) = post_ (a_alloc a') * Rmin 1 (xexp w') <-> d = 0 \/ k = 2%nat).
Proof. exact nnig_split. Qed.
Print Assumptions C81_detailed_balance.

(** Three data in one cluster, Dirichlet process with mass 2: all hypotheses
    hold and the split of data 0 and 1 balances with its merge. *)
Example ex_C81 : exists g g2 lp w a' g' g2' w' a'',
  launch_state smI smdata 1 0 1 smdp tt = Ok (g, tt) /\
  @restricted_gs smI smdata smdp 0 false g tt = Ok ((g2, lp), tt) /\
  @split_or_merge smI smdata 0 1 g smdp tt = Ok (if xltb 0 w then a' else smdp, tt) /\
  splits 3 (a_alloc smdp) (a_alloc a') /\
  launch_state smI smdata 1 0 1 a' tt = Ok (g', tt) /\
  @restricted_gs smI smdata a' 0 true g' tt = Ok ((g2', lp), tt) /\
  @split_or_merge smI smdata 0 1 g' a' tt = Ok (if xltb 0 w' then a'' else a', tt) /\
  a_alloc a'' = a_alloc smdp /\ xexp w * xexp w' = 1 /\
  smpost 2 0 (a_alloc smdp) * (xexp lp * Rmin 1 (xexp w)) = smpost 2 0 (a_alloc a') * Rmin 1 (xexp w').
Proof. exact dp_balance. Qed.

(** A merge from three clusters under the Pitman-Yor process. *)
Example ex_C46_merge : exists g g2 lp w a',
  launch_state smI smdata 1 0 1 smpy3 tt = Ok (g, tt) /\
  @restricted_gs smI smdata smpy3 0 true g tt = Ok ((g2, lp), tt) /\
  @split_or_merge smI smdata 0 1 g smpy3 tt = Ok (if xltb 0 w then a' else smpy3, tt) /\
  splits 3 (a_alloc a') (a_alloc smpy3) /\
  xexp w * (smpost (- / 4) (/ 2) (a_alloc smpy3) * (- / 4 + 2 * / 2)) =
  xexp lp * (smpost (- / 4) (/ 2) (a_alloc a') * (- / 4 + / 2 * INR (length (distinct (a_alloc a'))))).
Proof. exact py_merge. Qed.
