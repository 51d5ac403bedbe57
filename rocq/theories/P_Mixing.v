(** * Property theorems: marginal mixings and the logit stick-breaking mixing. *)
From Coq Require Import String.
From Coq Require Import Bool List Arith ZArith Reals Lra Lia Permutation.
From Coquelicot Require Import Coquelicot.
From Verif Require Import Base XReal Mixings PartSpec MixFacts MixMore LogitFacts MfmFacts.
Import ListNotations.
Local Open Scope R_scope.

(** ** C31 *)
Theorem C31_py_masses_sum :
  forall p s sizes, py_init p = Ok s ->
  List.Forall (fun m => (1 <= m)%nat) sizes -> sizes <> [] \/ 0 < py_str s ->
  exists ws, masses (fun n k => py_mass_ex s n k false false) (fun n k => py_mass_new s n k false false) sizes
             = map (fun w => Ok (Fin w)) ws /\ List.Forall (fun w => 0 < w) ws /\ sumR ws = 1.
Proof. exact py_masses_sum. Qed.
Print Assumptions C31_py_masses_sum.

Theorem C31_dp_masses_sum :
  forall p s0 s sizes, dp_init p s0 = Ok s ->
  List.Forall (fun m => (1 <= m)%nat) sizes ->
  exists ws, masses (fun n k => dp_mass_ex s n k false false) (fun n k => dp_mass_new s n k false false) sizes
             = map (fun w => Ok (Fin w)) ws /\ List.Forall (fun w => 0 < w) ws /\ sumR ws = 1.
Proof. exact dp_masses_sum. Qed.
Print Assumptions C31_dp_masses_sum.

(** Accepted parameters: a negative strength with a larger discount. *)
Lemma ex_py_init : py_init (PYFixed (- / 4) (/ 2)) = Ok (mkPy (- / 4) (/ 2)).
Proof.
  unfold py_init. rewrite (proj2 (lteb_false _ _)) by lra.
  rewrite (proj2 (gtb_false _ _)) by lra. rewrite (proj2 (lteb_false _ _)) by lra. reflexivity.
Qed.

Lemma ex_dp_init : dp_init (DPGamma 2 4) dp_make_shared = Ok (mkDp (2 / 4) (Some (Fin 0))).
Proof.
  unfold dp_init. rewrite (proj2 (lteb_false _ _)) by lra. rewrite (proj2 (lteb_false _ _)) by lra. reflexivity.
Qed.

Example ex_C31_py : exists ws,
  masses (fun n k => py_mass_ex (mkPy (- / 4) (/ 2)) n k false false)
         (fun n k => py_mass_new (mkPy (- / 4) (/ 2)) n k false false) [3; 1]%nat
  = map (fun w => Ok (Fin w)) ws /\ List.Forall (fun w => 0 < w) ws /\ sumR ws = 1.
Proof.
  apply (C31_py_masses_sum (PYFixed (- / 4) (/ 2))); [apply ex_py_init| |left; discriminate].
  repeat constructor.
Qed.

Example ex_C31_dp : exists ws,
  masses (fun n k => dp_mass_ex (mkDp (2 / 4) (Some (Fin 0))) n k false false)
         (fun n k => dp_mass_new (mkDp (2 / 4) (Some (Fin 0))) n k false false) [2; 1; 5]%nat
  = map (fun w => Ok (Fin w)) ws /\ List.Forall (fun w => 0 < w) ws /\ sumR ws = 1.
Proof. apply (C31_dp_masses_sum (DPGamma 2 4) dp_make_shared); [apply ex_dp_init|]. repeat constructor. Qed.

(** ** C32 *)
Theorem C32_py_exchangeable :
  forall p0 s order order', py_init p0 = Ok s -> order <> [] -> Permutation order order' ->
  exists p,
    seating (fun n k => py_mass_ex s n k false false) (fun n k => py_mass_new s n k false false) order p /\
    seating (fun n k => py_mass_ex s n k false false) (fun n k => py_mass_new s n k false false) order' p /\
    p = ewens_pitman (py_str s) (py_dis s) (sizes_of order).
Proof. exact py_exchangeable. Qed.
Print Assumptions C32_py_exchangeable.

Theorem C32_dp_exchangeable :
  forall p0 s0 s order order', dp_init p0 s0 = Ok s -> order <> [] -> Permutation order order' ->
  exists p,
    seating (fun n k => dp_mass_ex s n k false false) (fun n k => dp_mass_new s n k false false) order p /\
    seating (fun n k => dp_mass_ex s n k false false) (fun n k => dp_mass_new s n k false false) order' p /\
    p = ewens_pitman (dp_tot s) 0 (sizes_of order).
Proof. exact dp_exchangeable. Qed.
Print Assumptions C32_dp_exchangeable.

(** The product along an order has no other value. *)
Theorem C32_py_unique :
  forall p0 s order p, py_init p0 = Ok s ->
  seating (fun n k => py_mass_ex s n k false false) (fun n k => py_mass_new s n k false false) order p ->
  p = ewens_pitman (py_str s) (py_dis s) (sizes_of order).
Proof. exact py_seating. Qed.
Print Assumptions C32_py_unique.

Theorem C32_dp_unique :
  forall p0 s0 s order p, dp_init p0 s0 = Ok s ->
  seating (fun n k => dp_mass_ex s n k false false) (fun n k => dp_mass_new s n k false false) order p ->
  p = ewens_pitman (dp_tot s) 0 (sizes_of order).
Proof. exact dp_seating. Qed.
Print Assumptions C32_dp_unique.

Example ex_C32 : exists p,
  seating (fun n k => py_mass_ex (mkPy (- / 4) (/ 2)) n k false false)
          (fun n k => py_mass_new (mkPy (- / 4) (/ 2)) n k false false) [0; 1; 0]%nat p /\
  seating (fun n k => py_mass_ex (mkPy (- / 4) (/ 2)) n k false false)
          (fun n k => py_mass_new (mkPy (- / 4) (/ 2)) n k false false) [1; 0; 0]%nat p /\
  p = ewens_pitman (- / 4) (/ 2) [1; 2]%nat.
Proof.
  destruct (C32_py_exchangeable (PYFixed (- / 4) (/ 2)) (mkPy (- / 4) (/ 2)) [0; 1; 0]%nat [1; 0; 0]%nat)
    as (p & A & B & C); [apply ex_py_init|discriminate|apply perm_swap|].
  exists p. split; [exact A|]. split; [exact B|]. exact C.
Qed.

(** ** C33 *)
Theorem C33_py_scales :
  forall p s n k propto, py_init p = Ok s -> (1 <= n)%nat -> (1 <= k)%nat ->
  (forall card, (1 <= card)%Z -> log_of (py_mass_ex s n k true propto card) (py_mass_ex s n k false propto card)) /\
  log_of (py_mass_new s n k true propto) (py_mass_new s n k false propto) /\
  0 < INR n + py_str s /\
  (forall card, (1 <= card)%Z ->
     scaled (INR n + py_str s) (py_mass_ex s n k false false card) (py_mass_ex s n k false true card)) /\
  scaled (INR n + py_str s) (py_mass_new s n k false false) (py_mass_new s n k false true).
Proof. exact py_scales. Qed.
Print Assumptions C33_py_scales.

(** Dirichlet process: the log mass of a new cluster is right exactly when the
    cached logarithm is in sync. *)
Theorem C33_dp_scales :
  forall p s0 s n k propto, dp_init p s0 = Ok s ->
  (forall card, (1 <= card)%Z -> log_of (dp_mass_ex s n k true propto card) (dp_mass_ex s n k false propto card)) /\
  (log_of (dp_mass_new s n k true propto) (dp_mass_new s n k false propto) <->
     dp_log s = Some (Fin (ln (dp_tot s)))) /\
  0 < INR n + dp_tot s /\
  (forall card, (1 <= card)%Z ->
     scaled (INR n + dp_tot s) (dp_mass_ex s n k false false card) (dp_mass_ex s n k false true card)) /\
  scaled (INR n + dp_tot s) (dp_mass_new s n k false false) (dp_mass_new s n k false true).
Proof. exact dp_scales. Qed.
Print Assumptions C33_dp_scales.

Theorem C33_mfm_scales :
  forall series s tab k V1 V2, mf_tab s = Some tab -> nth_error tab k = Some V1 -> nth_error tab (k + 1) = Some V2 ->
  0 < V1 -> 0 < V2 -> forall n pr, 0 < mf_gam s ->
  (forall card, (1 <= card)%Z ->
     log_of (r <- mfm_mass_ex series n k true pr card s ;; Ok (fst r)) (r <- mfm_mass_ex series n k false pr card s ;; Ok (fst r))) /\
  log_of (r <- mfm_mass_new series n k true pr s ;; Ok (fst r)) (r <- mfm_mass_new series n k false pr s ;; Ok (fst r)) /\
  exists c, 0 < c /\
  (forall card, (1 <= card)%Z ->
     scaled c (r <- mfm_mass_ex series n k false false card s ;; Ok (fst r)) (r <- mfm_mass_ex series n k false true card s ;; Ok (fst r))) /\
  scaled c (r <- mfm_mass_new series n k false false s ;; Ok (fst r)) (r <- mfm_mass_new series n k false true s ;; Ok (fst r)).
Proof. exact mfm_scales. Qed.
Print Assumptions C33_mfm_scales.

Example ex_C33_py : log_of (py_mass_new (mkPy (- / 4) (/ 2)) 5 2 true false) (py_mass_new (mkPy (- / 4) (/ 2)) 5 2 false false).
Proof. apply (C33_py_scales _ _ 5 2 false ex_py_init); lia. Qed.

(** The object as the factory builds it, initialised with total mass 1/2: the
    log mass of a new cluster is that of total mass one. *)
Example ex_C33_dp : ~ log_of (dp_mass_new (mkDp (2 / 4) (Some (Fin 0))) 5 2 true true)
                             (dp_mass_new (mkDp (2 / 4) (Some (Fin 0))) 5 2 false true).
Proof.
  intros H. apply (C33_dp_scales _ _ _ 5 2 true ex_dp_init) in H. cbn in H. injection H as H.
  assert (ln (2 / 4) < ln 1) by (apply ln_increasing; lra). rewrite ln_1 in *. lra.
Qed.

Definition ex_mfm : mfm_state := mkMfm 1 2 (Some [-1; 4; 3; 1; -1]) 0.
Example ex_C33_mfm : forall series,
  log_of (r <- mfm_mass_new series 4 2 true false ex_mfm ;; Ok (fst r)) (r <- mfm_mass_new series 4 2 false false ex_mfm ;; Ok (fst r)).
Proof. intros series. apply (C33_mfm_scales series ex_mfm _ 2 3 1 eq_refl eq_refl eq_refl); cbn; lra. Qed.

(** ** C37 *)
Theorem C37_dp_log_history :
  forall ops s s', rfold dp_apply ops s = Ok s' ->
  (forallb (fun o => negb (is_load o)) ops = true -> dp_log s' = dp_log s) /\
  (forall pre m post, ops = pre ++ OpLoad m :: post ->
     forallb (fun o => negb (is_load o)) post = true ->
     dp_log s' = Some (xlog m) /\ (post = [] -> dp_tot s' = m)).
Proof. exact dp_history. Qed.
Print Assumptions C37_dp_log_history.

(** Without a load the log mass of a new cluster is an uninitialised read, or,
    for the zero-initialised object of the factory, zero whatever the total
    mass. *)
Theorem C37_dp_log_mass :
  forall ops s s' n k, rfold dp_apply ops s = Ok s' ->
  forallb (fun o => negb (is_load o)) ops = true ->
  (dp_log s = None -> dp_mass_new s' n k true true = UB) /\
  (s = dp_make_shared -> dp_mass_new s' n k true true = Ok (Fin 0)).
Proof. exact dp_log_mass_history. Qed.
Print Assumptions C37_dp_log_mass.

(** Initialised with total mass 7: log mass 0 instead of log 7. *)
Theorem C37_dp_log_mass_refuted :
  exists s, rfold dp_apply [OpInit (DPFixed 7); OpUpdate (DPFixed 7) 2 5 1 1 1] dp_make_shared = Ok s /\
    dp_tot s = 7 /\ dp_mass_new s 5 2 true true = Ok (Fin 0) /\ 0 <> ln (dp_tot s).
Proof.
  assert (E : lteb 7 0 = false) by (apply lteb_false; lra).
  exists (mkDp 7 (Some (Fin 0))). split; [cbn; rewrite E; reflexivity|]. split; [reflexivity|].
  split; [reflexivity|]. cbn. assert (ln 1 < ln 7) by (apply ln_increasing; lra). rewrite ln_1 in *. lra.
Qed.
Print Assumptions C37_dp_log_mass_refuted.

(** ** C38 *)
Theorem C38_dp_update_throws :
  forall a b s0 s k n phi u v,
  dp_init (DPGamma a b) s0 = Ok s -> (1 <= k)%nat -> (1 <= n)%nat -> 0 < phi ->
  (phi < exp b -> dp_update (DPGamma a b) k n phi u v s = Ok (mkDp v (dp_log s))) /\
  (exp b <= phi -> exists msg, dp_update (DPGamma a b) k n phi u v s = Throw msg).
Proof. exact dp_update_throws. Qed.
Print Assumptions C38_dp_update_throws.

Example ex_C38 : exists msg, dp_update (DPGamma 2 4) 3 10 (exp 5) (/ 2) 1 (mkDp (2 / 4) (Some (Fin 0))) = Throw msg.
Proof.
  apply (C38_dp_update_throws 2 4 dp_make_shared _ 3 10 (exp 5) (/ 2) 1 ex_dp_init); [lia|lia|apply exp_pos|].
  left. apply exp_increasing. lra.
Qed.

(** ** C39 *)
(** From a fresh object, a sequence of mass evaluations stays within the table
    iff every number of clusters is smaller than the sample size of the first
    call; each coefficient is computed by the first call that needs it, with
    that call's sample size. *)
Theorem C39_mfm_table :
  forall series, (forall l g C t n, 0 <= series l g C t n) ->
  forall s0 c0 cs, mf_tab s0 = None ->
  (List.Forall (fun c => (call_k c < call_n c0)%nat) (c0 :: cs) ->
     exists s', rfold (do_call series) (c0 :: cs) s0 = Ok s' /\
       exists tab, mf_tab s' = Some tab /\ length tab = S (call_n c0) /\
       forall t, (t <= call_n c0)%nat ->
         nth_error tab t = Some (match find (touches t) (c0 :: cs) with
                                 | Some c => series (mf_lam s0) (mf_gam s0) (mf_C s') t (S (call_n c))
                                 | None => -1 end)) /\
  (~ List.Forall (fun c => (call_k c < call_n c0)%nat) (c0 :: cs) -> rfold (do_call series) (c0 :: cs) s0 = UB).
Proof. exact mfm_calls. Qed.
Print Assumptions C39_mfm_table.

(** All four conditioning observations alone in their clusters. *)
Example ex_C39 : exists series, (forall l g C t n, 0 <= series l g C t n) /\
  rfold (do_call series) [CallNew 4 2 true true; CallNew 4 4 true true] (mkMfm 1 2 None 0) = UB.
Proof.
  exists (fun _ _ _ _ _ => 1). split; [intros; lra|].
  apply C39_mfm_table; [intros; lra|reflexivity|].
  intros F. inversion F as [|? ? _ F']. inversion F' as [|? ? E _]. cbn in E. lia.
Qed.

(** ** C40 *)
Theorem C40_mfm_masses_sum :
  forall series s tab k V1 V2, mf_tab s = Some tab -> nth_error tab k = Some V1 -> nth_error tab (k + 1) = Some V2 ->
  0 < V1 -> 0 < V2 -> forall sizes, 0 < mf_gam s -> length sizes = k ->
  exists ws,
    map (fun m => r <- mfm_mass_ex series (list_sum sizes) k false false (Z.of_nat m) s ;; Ok (fst r)) sizes
    ++ [r <- mfm_mass_new series (list_sum sizes) k false false s ;; Ok (fst r)]
    = map (fun w => Ok (Fin w)) ws /\ List.Forall (fun w => 0 < w) ws /\ sumR ws = 1.
Proof. exact mfm_sum. Qed.
Print Assumptions C40_mfm_masses_sum.

Example ex_C40 : forall series, exists ws,
  map (fun m => r <- mfm_mass_ex series 4 2 false false (Z.of_nat m) ex_mfm ;; Ok (fst r)) [3; 1]%nat
  ++ [r <- mfm_mass_new series 4 2 false false ex_mfm ;; Ok (fst r)]
  = map (fun w => Ok (Fin w)) ws /\ List.Forall (fun w => 0 < w) ws /\ sumR ws = 1.
Proof.
  intros series. apply (C40_mfm_masses_sum series ex_mfm _ 2 3 1 eq_refl eq_refl eq_refl) with (sizes := [3; 1]%nat); cbn; lra || reflexivity.
Qed.

(** ** C44 *)
Theorem C44_logit_sum :
  forall betas x,
  length (logit_weights false betas x) = S (length betas) /\
  List.Forall (fun w => 0 < w) (logit_weights false betas x) /\
  sumR (logit_weights false betas x) =
    1 - prodR (map (fun b => 1 - sigmoid (dot x b)) betas) * (1 - sigmoid 1) /\
  sumR (logit_weights false betas x) < 1 /\
  logit_weights false betas x = map exp (logit_weights true betas x).
Proof. exact logit_sum. Qed.
Print Assumptions C44_logit_sum.

Example ex_C44 : sumR (logit_weights false [[1; 2]; [-3; 1]] [1; / 2]) < 1.
Proof. apply C44_logit_sum. Qed.

(** ** C66 *)
(** The full conditional of one coefficient vector is, up to a constant, the
    log-probability of the allocations under the mixing's own weights plus the
    Gaussian prior. *)
Theorem C66_logit_full_conditional :
  forall betas h a a' rows alloc, (h < length betas)%nat ->
  List.Forall (fun c => (c <= length betas)%nat) alloc ->
  alloc_loglik (upd betas h a) rows alloc - alloc_loglik (upd betas h a') rows alloc =
  logit_lpdf 0 a h rows alloc - logit_lpdf 0 a' h rows alloc.
Proof. exact logit_full_cond. Qed.
Print Assumptions C66_logit_full_conditional.

(** The gradient function is the gradient of that full conditional. *)
Theorem C66_logit_gradient :
  forall m mean alpha j h rows alloc,
  length alpha = length m -> length mean = length m -> (j < length m)%nat ->
  (forall row, In row m -> length row = length m) ->
  (forall i k, nth k (nth i m []) 0 = nth i (nth k m []) 0) ->
  (forall x, In x rows -> length x = length m) ->
  is_derive (fun u => let a' := upd alpha j (nth j alpha 0 + u) in
                      logit_lpdf (quad_form m (vsub a' mean)) a' h rows alloc) 0
            (logit_grad (nth j (matvec m (vsub mean alpha)) 0) j alpha h rows alloc).
Proof. exact logit_gradient. Qed.
Print Assumptions C66_logit_gradient.

Example ex_C66 :
  let m := [[2; 1]; [1; 3]] in let alpha := [1; -1] in let mean := [0; 4] in
  is_derive (fun u => let a' := upd alpha 1 (nth 1 alpha 0 + u) in
                      logit_lpdf (quad_form m (vsub a' mean)) a' 1 [[1; 5]; [1; 2]; [1; 0]] [1; 2; 0]%nat) 0
            (logit_grad (nth 1 (matvec m (vsub mean alpha)) 0) 1 alpha 1 [[1; 5]; [1; 2]; [1; 0]] [1; 2; 0]%nat).
Proof.
  apply C66_logit_gradient; try reflexivity; try (cbn; lia).
  - intros row [<- | [<- | []]]; reflexivity.
  - intros [|[|[|i]]] [|[|[|k]]]; cbn; try reflexivity; try (destruct k; reflexivity); destruct i; reflexivity.
  - intros x [<- | [<- | [<- | []]]]; reflexivity.
Qed.

Example ex_C66_cond :
  alloc_loglik (upd [[1; 2]; [0; 1]] 1 [3; 3]) [[1; 5]; [1; 2]] [1; 2]%nat
  - alloc_loglik (upd [[1; 2]; [0; 1]] 1 [4; 0]) [[1; 5]; [1; 2]] [1; 2]%nat =
  logit_lpdf 0 [3; 3] 1 [[1; 5]; [1; 2]] [1; 2]%nat - logit_lpdf 0 [4; 0] 1 [[1; 5]; [1; 2]] [1; 2]%nat.
Proof. apply C66_logit_full_conditional; [cbn; lia|]. repeat constructor. Qed.

(** ** C67 *)
(** The acceptance ratio is the Metropolis-Hastings ratio of the proposal the
    code uses (normal, mean b + step * gradient, variance sqrt(2 step)) exactly
    when the current point is as far from the forward mean as from the mean of
    the reverse proposal. *)
Theorem C67_logit_accept :
  forall fc gr step b b', 0 < step ->
  (logit_log_accept fc gr step b b' =
     (fc b' + log_q gr step b' b) - (fc b + log_q gr step b b') <->
   (b - (b + step * gr b)) ^ 2 = (b - (b' + step * gr b')) ^ 2).
Proof. exact logit_accept. Qed.
Print Assumptions C67_logit_accept.

(** A standard normal full conditional: not the Metropolis-Hastings ratio. *)
Theorem C67_logit_accept_refuted :
  exists fc gr step b b', 0 < step /\ (forall x, is_derive fc x (gr x)) /\
    logit_log_accept fc gr step b b' <> (fc b' + log_q gr step b' b) - (fc b + log_q gr step b b').
Proof.
  exists (fun x => - x ^ 2 / 2), (fun x => - x), (/ 2), 0, 1. split; [lra|]. split.
  - intros x. auto_derive; [trivial|]. field.
  - intros H. apply (proj1 (C67_logit_accept (fun x => - x ^ 2 / 2) (fun x => - x) (/ 2) 0 1 ltac:(lra))) in H. nra.
Qed.
Print Assumptions C67_logit_accept_refuted.

(** ** C68 *)
(** The series loop ends, and its value is a partial sum of Miller and
    Harrison's coefficient (scaled by [exp (- C)]) with at least [t] terms, the
    last of which is below the tolerance relative to the sum before it. *)
Theorem C68_mfm_loop :
  forall l g C t n, 0 < l -> 0 < g -> (1 <= t)%nat -> (Z.of_nat t <= 2 ^ 32)%Z -> (1 <= n)%nat ->
  exists K, (t <= K)%nat /\
    (forall fuel, (K <= fuel)%nat -> mfm_loop fuel l g C t n 1 0 1 = Some (partial l g t n K * exp (- C))) /\
    mh_term l g t n K <= tol * partial l g t n (K - 1).
Proof. exact loop_ends. Qed.
Print Assumptions C68_mfm_loop.

(** Hence the value of a coefficient is positive, as C40 needs. *)
Theorem C68_mfm_loop_positive :
  forall l g C t n fuel v, 0 < l -> 0 < g -> (1 <= t)%nat -> (Z.of_nat t <= 2 ^ 32)%Z -> (1 <= n)%nat ->
  mfm_loop fuel l g C t n 1 0 1 = Some v -> 0 < v.
Proof. exact loop_positive. Qed.
Print Assumptions C68_mfm_loop_positive.

Example ex_C68 : exists K, (3 <= K)%nat /\
  (forall fuel, (K <= fuel)%nat -> mfm_loop fuel 2 1 0 3 10 1 0 1 = Some (partial 2 1 3 10 K * exp (- 0))) /\
  mh_term 2 1 3 10 K <= tol * partial 2 1 3 10 (K - 1).
Proof. apply C68_mfm_loop; lra || lia || (cbn; lia). Qed.

(** ** C69 *)
(** With coefficients truncated at a common number of terms, the sequential
    masses of the mixture of finite mixtures give the Gibbs-type partition law,
    which depends on the cluster sizes only. *)
Theorem C69_mfm_partition_law :
  forall series l g C K order p, 0 < l -> 0 < g -> (length order <= K)%nat ->
  seating (fun n k card => r <- mfm_mass_ex series n k false false card (mfm_with l g C K n) ;; Ok (fst r))
          (fun n k => r <- mfm_mass_new series n k false false (mfm_with l g C K n) ;; Ok (fst r)) order p ->
  p = gibbs_type (fun n k => partial l g k n K) g (sizes_of order)
      / gibbs_type (fun n k => partial l g k n K) g [1%nat].
Proof. exact mfm_seating. Qed.
Print Assumptions C69_mfm_partition_law.

Theorem C69_mfm_exchangeable :
  forall series l g C K order order', 0 < l -> 0 < g -> (length order <= K)%nat -> order <> [] ->
  Permutation order order' ->
  exists p,
    seating (fun n k card => r <- mfm_mass_ex series n k false false card (mfm_with l g C K n) ;; Ok (fst r))
            (fun n k => r <- mfm_mass_new series n k false false (mfm_with l g C K n) ;; Ok (fst r)) order p /\
    seating (fun n k card => r <- mfm_mass_ex series n k false false card (mfm_with l g C K n) ;; Ok (fst r))
            (fun n k => r <- mfm_mass_new series n k false false (mfm_with l g C K n) ;; Ok (fst r)) order' p.
Proof. exact mfm_exchangeable. Qed.
Print Assumptions C69_mfm_exchangeable.

Example ex_C69 : forall series, exists p,
  seating (fun n k card => r <- mfm_mass_ex series n k false false card (mfm_with 1 2 0 9 n) ;; Ok (fst r))
          (fun n k => r <- mfm_mass_new series n k false false (mfm_with 1 2 0 9 n) ;; Ok (fst r)) [0; 1; 0]%nat p /\
  seating (fun n k card => r <- mfm_mass_ex series n k false false card (mfm_with 1 2 0 9 n) ;; Ok (fst r))
          (fun n k => r <- mfm_mass_new series n k false false (mfm_with 1 2 0 9 n) ;; Ok (fst r)) [1; 0; 0]%nat p.
Proof. intros series. apply C69_mfm_exchangeable; [lra|lra|cbn; lia|discriminate|apply perm_swap]. Qed.
