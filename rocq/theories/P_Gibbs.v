(** * Property theorems: reallocation probabilities of the marginal samplers. *)
From Coq Require Import String.
From Coq Require Import Bool List Arith ZArith Reals Lra Lia Permutation.
From Verif Require Import Base Hier Algos Spec MargFacts NealFacts MargMore MargProps.
From Verif Require Import PartSpec XReal Mixings MixFacts GibbsSpec GibbsComb GibbsPost GibbsFacts GibbsSweep GibbsState Gibbs8.
From Verif Require Import Univ UnivFacts RealInst RealFacts RealMore.
Import ListNotations.
Local Open Scope R_scope.

(** A concrete program for the examples: NNIG, Pitman-Yor(-1/4, 1/2), three data. *)
Definition exG : gen := mkGen unit (fun m _ r => (m, r)) (fun a b r => (b / a, r)) (fun a b r => (a / b, r))
  (fun a _ r => (a, r)) (fun ps r => (0%nat, r)).
Definition exhy : nig := mkNIG 0 1 2 2.
Definition exprior : nig_prior := NIGFixed 0 1 2 2.
Definition exI : Iface := nnig_iface (fun _ => 0) exG exprior.
Definition exdata : list (Datum exI) := [1; 2; 4].
Definition excovs : list (Cov exI) := repeat tt 3.
Definition exmix : Mix exI := MixPY (PYFixed (- / 4) (/ 2)) (mkPy (- / 4) (/ 2)).
Definition exst : alg exI := rep_state exI exdata excovs exhy exmix [0; 0; 2]%nat.

Lemma exG_ok : gen_ok exG.
Proof. intros [|p ps] r H; [congruence|simpl; lia]. Qed.
Lemma exhy_valid : valid exhy.
Proof. unfold valid, exhy; simpl; lra. Qed.
Lemma exst_in : In [0; 0; 2]%nat (clusterings 3).
Proof. vm_compute. tauto. Qed.
Lemma ex_masses : py_masses exI xexp exmix 3 (- / 4) (/ 2).
Proof. apply real_masses; [reflexivity| |]; lra. Qed.

(** ** C34 *)
Theorem C34_neal3_weights :
  forall (I : Iface) (L : laws I) data covs (val : W I -> R) t d M (a : alg I) i,
  rows_ok I data (at_ covs) -> (forall x y, val (wadd I x y) = val x * val y) ->
  conj I = true -> other_draw I = None -> (2 <= length data)%nat -> (i < length data)%nat ->
  proper (length data) (a_alloc a) (view (a_uv a)) -> caches_ok data covs (a_uv a) ->
  (forall h, In h (a_uv a) -> saved_matches data covs (a_hyp a) h) ->
  0 <= d < 1 -> - d < t -> py_masses I val (a_mix a) (length data) t d ->
  marginal_likelihood I data covs val (a_hyp a) M ->
  exists a1 pm lk C,
    unassign data true (at_ covs) i a = Ok a1 /\ neal2_prior_mass data a1 = Ok pm /\
    neal3_lpdf data covs a1 i = Ok lk /\ length (wsum I pm lk) = S (length (a_uv a1)) /\ 0 < C /\
    (forall r, neal_step data covs true (neal3_lpdf data covs) (a, r) i =
       ('(c, r1) <- cat I (wsum I pm lk) r ;; assign data true (at_ covs) i c a1 r1)) /\
    forall c w r, nth_error (wsum I pm lk) c = Some w ->
    exists a' r', assign data true (at_ covs) i c a1 r = Ok (a', r') /\
      val w = C * posterior (fun al => ewens_pitman t d (sizes_of al)) M (a_alloc a').
Proof. exact neal3_weights. Qed.
Print Assumptions C34_neal3_weights.

Theorem C34_neal2_weights :
  forall (I : Iface) (L : laws I) data covs (val : W I -> R) t d (a : alg I) i y cv,
  rows_ok I data (at_ covs) -> (forall x y, val (wadd I x y) = val x * val y) ->
  (2 <= length data)%nat -> (i < length data)%nat ->
  proper (length data) (a_alloc a) (view (a_uv a)) -> caches_ok data covs (a_uv a) ->
  0 <= d < 1 -> - d < t -> py_masses I val (a_mix a) (length data) t d ->
  at_ data i = Ok y -> at_ covs i = Ok cv ->
  exists a1 pm lk C,
    unassign data false (at_ covs) i a = Ok a1 /\ neal2_prior_mass data a1 = Ok pm /\
    neal2_lpdf data covs a1 i = Ok lk /\ length (wsum I pm lk) = S (length (a_uv a1)) /\ 0 < C /\
    (forall r, neal_step data covs false (neal2_lpdf data covs) (a, r) i =
       ('(c, r1) <- cat I (wsum I pm lk) r ;; assign data false (at_ covs) i c a1 r1)) /\
    forall c w r, nth_error (wsum I pm lk) c = Some w ->
    exists a' r', assign data false (at_ covs) i c a1 r = Ok (a', r') /\
      exists f, val w = C * ewens_pitman t d (sizes_of (a_alloc a')) * f /\
        ((c < length (a_uv a1))%nat -> exists st, param a' i = Some st /\ f = val (like_lpdf I st y cv)) /\
        (c = length (a_uv a1) -> f = val (marg_lpdf I (a_hyp a) y cv)).
Proof. exact neal2_weights. Qed.
Print Assumptions C34_neal2_weights.

Example ex_C34_neal3 : exists a1 pm lk C,
  unassign exdata true (at_ excovs) 2 exst = Ok a1 /\ neal2_prior_mass exdata a1 = Ok pm /\
  neal3_lpdf exdata excovs a1 2 = Ok lk /\ length (wsum exI pm lk) = S (length (a_uv a1)) /\ 0 < C /\
  forall c w r, nth_error (wsum exI pm lk) c = Some w ->
    exists a' r', assign exdata true (at_ excovs) 2 c a1 r = Ok (a', r') /\
      xexp w = C * posterior (fun al => ewens_pitman (- / 4) (/ 2) (sizes_of al))
                     (fun ids => exp (log_marg (fun _ => 0) exhy (pick exdata ids))) (a_alloc a').
Proof.
  destruct (rep_state_ok exI exdata excovs exhy exmix _ exst_in) as (H1 & H2 & H3 & H4 & H5 & H6).
  destruct (C34_neal3_weights exI (nnig_laws _ _ _ exG_ok) exdata excovs xexp (- / 4) (/ 2)
    (fun ids => exp (log_marg (fun _ => 0) exhy (pick exdata ids))) exst 2)
    as (a1 & pm & lk & C & E1 & E2 & E3 & E4 & E5 & _ & E6); simpl; auto; try lia; try lra.
  - apply (nnig_rows (fun _ => 0) exG exprior).
  - intros. apply xexp_add.
  - apply ex_masses.
  - apply (nnig_marginal (fun _ => 0) exG exprior exdata exhy exhy_valid).
  - exists a1, pm, lk, C. auto 10.
Qed.

(** The first datum leaves its cluster of two: two choices with data and a new cluster. *)
Example ex_C34_neal2 : exists a1 pm lk,
  unassign exdata false (at_ excovs) 0 exst = Ok a1 /\ neal2_prior_mass exdata a1 = Ok pm /\
  neal2_lpdf exdata excovs a1 0 = Ok lk /\ length (wsum exI pm lk) = 3%nat /\
  map xexp pm = [1 - / 2; 1 - / 2; - / 4 + / 2 * 2].
Proof.
  destruct (rep_state_ok exI exdata excovs exhy exmix _ exst_in) as (H1 & H2 & H3 & H4 & H5 & H6).
  destruct (C34_neal2_weights exI (nnig_laws _ _ _ exG_ok) exdata excovs xexp (- / 4) (/ 2) exst 0 1 tt)
    as (a1 & pm & lk & C & E1 & E2 & E3 & E4 & E5 & _ & E6); simpl; auto; try lia; try lra.
  - apply (nnig_rows (fun _ => 0) exG exprior).
  - intros. apply xexp_add.
  - apply ex_masses.
  - exists a1, pm, lk. split; [exact E1|]. split; [exact E2|]. split; [exact E3|].
    cbn in E1. injection E1 as <-. split; [exact E4|].
    cbn in E2. injection E2 as <-. cbn [map].
    rewrite !xexp_log; [repeat f_equal; lra|lra..].
Qed.

(** ** C35 *)
Theorem C35_neal3_sweep_law :
  forall (I : Iface) (L : laws I) data covs (val : W I -> R) t d M pick is (a : alg I),
  rows_ok I data (at_ covs) -> (forall x y, val (wadd I x y) = val x * val y) ->
  conj I = true -> other_draw I = None -> (2 <= length data)%nat -> (forall i, In i is -> (i < length data)%nat) ->
  proper (length data) (a_alloc a) (view (a_uv a)) -> caches_ok data covs (a_uv a) ->
  (forall h, In h (a_uv a) -> saved_matches data covs (a_hyp a) h) ->
  0 <= d < 1 -> - d < t -> py_masses I val (a_mix a) (length data) t d ->
  marginal_likelihood I data covs val (a_hyp a) M ->
  (forall u, 0 <= sweep_prob I val data covs pick is a u) /\
  sumR (map (sweep_prob I val data covs pick is a) (clusterings (length data))) = 1 /\
  (forall i u, is = [i] -> In u (clusterings (length data)) ->
     sweep_prob I val data covs pick is a u =
     (if alike_off i (a_alloc a) u then posterior (fun al => ewens_pitman t d (sizes_of al)) M u else 0)
     / sumR (map (posterior (fun al => ewens_pitman t d (sizes_of al)) M)
                 (filter (alike_off i (a_alloc a)) (clusterings (length data))))).
Proof. exact neal3_sweep_law. Qed.
Print Assumptions C35_neal3_sweep_law.

Theorem C35_neal3_sweep_invariant :
  forall (I : Iface) (L : laws I) data covs (val : W I -> R) t d M pick is
    (A : list nat -> alg I) hy m,
  rows_ok I data (at_ covs) -> (forall x y, val (wadd I x y) = val x * val y) ->
  conj I = true -> other_draw I = None -> (2 <= length data)%nat -> (forall i, In i is -> (i < length data)%nat) ->
  (forall s, In s (clusterings (length data)) ->
     proper (length data) (a_alloc (A s)) (view (a_uv (A s))) /\ caches_ok data covs (a_uv (A s)) /\
     (forall h, In h (a_uv (A s)) -> saved_matches data covs (a_hyp (A s)) h) /\
     a_hyp (A s) = hy /\ a_mix (A s) = m /\ canon (a_alloc (A s)) = s) ->
  0 <= d < 1 -> - d < t -> py_masses I val m (length data) t d ->
  marginal_likelihood I data covs val hy M ->
  forall u, In u (clusterings (length data)) ->
  sumR (map (fun s => posterior (fun al => ewens_pitman t d (sizes_of al)) M s *
                      sweep_prob I val data covs pick is (A s) u) (clusterings (length data)))
  = posterior (fun al => ewens_pitman t d (sizes_of al)) M u.
Proof. exact neal3_sweep_invariant. Qed.
Print Assumptions C35_neal3_sweep_invariant.

(** Such a family of states exists for every data set. *)
Theorem C35_states_exist :
  forall (I : Iface) data covs hy (m : Mix I) s, In s (clusterings (length data)) ->
  let a := rep_state I data covs hy m s in
  proper (length data) (a_alloc a) (view (a_uv a)) /\ caches_ok data covs (a_uv a) /\
  (forall h, In h (a_uv a) -> saved_matches data covs (a_hyp a) h) /\
  a_hyp a = hy /\ a_mix a = m /\ canon (a_alloc a) = s.
Proof. exact rep_state_ok. Qed.
Print Assumptions C35_states_exist.

(** The normal / normal-inverse-gamma program with a Dirichlet or Pitman-Yor mixing. *)
Theorem C35_nnig_sweep_invariant :
  forall lg G p (data : list R) pick0 (A : list nat -> alg (nnig_iface lg G p)) hy m t d is,
  gen_ok G -> valid hy -> strength m = Some (t, d) -> 0 <= d < 1 -> - d < t -> (2 <= length data)%nat ->
  (forall i, In i is -> (i < length data)%nat) ->
  (forall s, In s (clusterings (length data)) ->
     proper (length data) (a_alloc (A s)) (view (a_uv (A s))) /\
     @caches_ok (nnig_iface lg G p) data (repeat tt (length data)) (a_uv (A s)) /\
     (forall h, In h (a_uv (A s)) -> @saved_matches (nnig_iface lg G p) data (repeat tt (length data)) (a_hyp (A s)) h) /\
     a_hyp (A s) = hy /\ a_mix (A s) = m /\ canon (a_alloc (A s)) = s) ->
  exists M,
    (forall ids theta, 0 < ls_var theta ->
       exp (nig_lpdf lg hy theta) * prodR (map (fun j => exp (norm_lpdf theta (nth j data 0))) ids) =
       M ids * exp (nig_lpdf lg (nnig_post hy (Z.of_nat (length ids)) (stats_of (pick data ids))) theta)) /\
    forall u, In u (clusterings (length data)) ->
    sumR (map (fun s => posterior (fun al => ewens_pitman t d (sizes_of al)) M s *
                        sweep_prob (nnig_iface lg G p) xexp data (repeat tt (length data)) pick0 is (A s) u)
              (clusterings (length data)))
    = posterior (fun al => ewens_pitman t d (sizes_of al)) M u.
Proof. exact nnig_sweep_invariant. Qed.
Print Assumptions C35_nnig_sweep_invariant.

(** With the Dirichlet mixing as the factory builds it the invariant law is that
    of total mass 1, whatever total mass is configured ... *)
Theorem C35_factory_dirichlet :
  forall lg G p (data : list R) pick0 hy pr s0 is,
  gen_ok G -> valid hy -> dp_init pr dp_make_shared = Ok s0 -> (2 <= length data)%nat ->
  (forall i, In i is -> (i < length data)%nat) ->
  exists M,
    (forall ids theta, 0 < ls_var theta ->
       exp (nig_lpdf lg hy theta) * prodR (map (fun j => exp (norm_lpdf theta (nth j data 0))) ids) =
       M ids * exp (nig_lpdf lg (nnig_post hy (Z.of_nat (length ids)) (stats_of (pick data ids))) theta)) /\
    forall u, In u (clusterings (length data)) ->
    sumR (map (fun s => posterior (fun al => ewens_pitman 1 0 (sizes_of al)) M s *
                        sweep_prob (nnig_iface lg G p) xexp data (repeat tt (length data)) pick0 is
                          (rep_state (nnig_iface lg G p) data (repeat tt (length data)) hy (MixDP pr s0) s) u)
              (clusterings (length data)))
    = posterior (fun al => ewens_pitman 1 0 (sizes_of al)) M u.
Proof. exact factory_sweep_invariant. Qed.
Print Assumptions C35_factory_dirichlet.

(** ... and, for two observations, no other. *)
Theorem C35_factory_dirichlet_mass :
  forall lg G p x y pick0 hy T s0 M,
  gen_ok G -> valid hy -> dp_init (DPFixed T) dp_make_shared = Ok s0 ->
  (forall ids theta, 0 < ls_var theta ->
       exp (nig_lpdf lg hy theta) * prodR (map (fun j => exp (norm_lpdf theta (nth j [x; y] 0))) ids) =
       M ids * exp (nig_lpdf lg (nnig_post hy (Z.of_nat (length ids)) (stats_of (pick [x; y] ids))) theta)) ->
  ((forall u, In u (clusterings 2) ->
     sumR (map (fun s => posterior (fun al => ewens_pitman T 0 (sizes_of al)) M s *
                        sweep_prob (nnig_iface lg G p) xexp [x; y] (repeat tt 2) pick0 [0; 1]%nat
                          (rep_state (nnig_iface lg G p) [x; y] (repeat tt 2) hy (MixDP (DPFixed T) s0) s) u)
              (clusterings 2))
     = posterior (fun al => ewens_pitman T 0 (sizes_of al)) M u) <-> T = 1).
Proof. exact factory_two. Qed.
Print Assumptions C35_factory_dirichlet_mass.

Theorem C35_configured_mass_refuted :
  exists lg G p (data : list R) pick0 hy T s0 M u,
  gen_ok G /\ valid hy /\ dp_init (DPFixed T) dp_make_shared = Ok s0 /\ In u (clusterings (length data)) /\
  (forall ids theta, 0 < ls_var theta ->
     exp (nig_lpdf lg hy theta) * prodR (map (fun j => exp (norm_lpdf theta (nth j data 0))) ids) =
     M ids * exp (nig_lpdf lg (nnig_post hy (Z.of_nat (length ids)) (stats_of (pick data ids))) theta)) /\
  sumR (map (fun s => posterior (fun al => ewens_pitman T 0 (sizes_of al)) M s *
                        sweep_prob (nnig_iface lg G p) xexp data (repeat tt (length data)) pick0 (seq 0 (length data))
                          (rep_state (nnig_iface lg G p) data (repeat tt (length data)) hy (MixDP (DPFixed T) s0) s) u)
              (clusterings (length data)))
    <> posterior (fun al => ewens_pitman T 0 (sizes_of al)) M u.
Proof.
  assert (Hi : dp_init (DPFixed 3) dp_make_shared = Ok (mkDp 3 (Some (Fin 0)))).
  { simpl. rewrite (proj2 (lteb_false _ _)) by lra. reflexivity. }
  destruct (factory_sweep_invariant (fun _ => 0) exG exprior [1; 2] (fun _ _ _ => tt) exhy (DPFixed 3) _ []
              exG_ok exhy_valid Hi) as (M & HM & _); [simpl; lia|intros i []|].
  pose proof (factory_two (fun _ => 0) exG exprior 1 2 (fun _ _ _ => tt) exhy 3 _ M exG_ok exhy_valid Hi HM) as [H _].
  exists (fun _ => 0), exG, exprior, [1; 2], (fun _ _ _ => tt), exhy, 3, (mkDp 3 (Some (Fin 0))), M.
  set (lhs := fun u => sumR (map (fun s => posterior (fun al => ewens_pitman 3 0 (sizes_of al)) M s *
                        sweep_prob (nnig_iface (fun _ => 0) exG exprior) xexp [1; 2] (repeat tt 2) (fun _ _ _ => tt) [0; 1]%nat
                          (rep_state (nnig_iface (fun _ => 0) exG exprior) [1; 2] (repeat tt 2) exhy (MixDP (DPFixed 3) (mkDp 3 (Some (Fin 0)))) s) u)
              (clusterings 2))) in *.
  set (rhs := fun u => posterior (fun al => ewens_pitman 3 0 (sizes_of al)) M u) in *.
  assert (E : exists u, In u (clusterings 2) /\ lhs u <> rhs u).
  { destruct (Req_dec (lhs [0; 0]%nat) (rhs [0; 0]%nat)) as [E0|]; [|exists [0; 0]%nat; split; auto; left; reflexivity].
    destruct (Req_dec (lhs [0; 1]%nat) (rhs [0; 1]%nat)) as [E1|]; [|exists [0; 1]%nat; split; auto; right; left; reflexivity].
    exfalso. assert (3 = 1); [|lra]. apply H. intros u Hu. destruct Hu as [<-|[<-|[]]]; assumption. }
  destruct E as (u & Hu & Hne). exists u. split; [exact exG_ok|]. split; [exact exhy_valid|]. split; [exact Hi|].
  split; [exact Hu|]. split; [exact HM|exact Hne].
Qed.
Print Assumptions C35_configured_mass_refuted.

Example ex_C35 : forall pick0 u, In u (clusterings 3) ->
  exists M, (forall ids, 0 < M ids) /\
  sumR (map (fun s => posterior (fun al => ewens_pitman (- / 4) (/ 2) (sizes_of al)) M s *
                      sweep_prob exI xexp exdata excovs pick0 (seq 0 3) (rep_state exI exdata excovs exhy exmix s) u)
            (clusterings 3))
  = posterior (fun al => ewens_pitman (- / 4) (/ 2) (sizes_of al)) M u.
Proof.
  intros pick0 u Hu. exists (fun ids => exp (log_marg (fun _ => 0) exhy (pick exdata ids))). split; [intros; apply exp_pos|].
  apply (C35_neal3_sweep_invariant exI (nnig_laws _ _ _ exG_ok) exdata excovs xexp (- / 4) (/ 2)
    (fun ids => exp (log_marg (fun _ => 0) exhy (pick exdata ids))) pick0 (seq 0 3) (rep_state exI exdata excovs exhy exmix) exhy exmix);
    auto; try lra; try (simpl; lia).
  - apply (nnig_rows (fun _ => 0) exG exprior).
  - intros. apply xexp_add.
  - intros s Hs. exact (rep_state_ok exI exdata excovs exhy exmix s Hs).
  - apply ex_masses.
  - apply (nnig_marginal (fun _ => 0) exG exprior exdata exhy exhy_valid).
Qed.
Example ex_C35_states : length (clusterings 3) = 5%nat.
Proof. reflexivity. Qed.

(** ** C36 *)
Theorem C36_neal8_weights :
  forall (I : Iface) (L : laws I) data covs (val : W I -> R) t d n_aux (a : alg I) i y cv r,
  rows_ok I data (at_ covs) -> (forall x y, val (wadd I x y) = val x * val y) ->
  (forall x k, (1 <= k)%nat -> val (wsublog I x k) = val x / INR k) ->
  (2 <= length data)%nat -> (i < length data)%nat -> (1 <= n_aux)%nat ->
  proper (length data) (a_alloc a) (view (a_uv a)) -> caches_ok data covs (a_uv a) ->
  length (a_aux a) = n_aux -> (forall h, In h (a_aux a) -> h_ids h = [] /\ h_stats h = stats0 I) ->
  0 <= d < 1 -> - d < t -> py_masses I val (a_mix a) (length data) t d ->
  at_ data i = Ok y -> at_ covs i = Ok cv ->
  exists a2 r1 pm lk C,
    neal8_prior_mass data n_aux a2 = Ok pm /\ neal8_lpdf data covs n_aux a2 i = Ok lk /\
    length (a_aux a2) = n_aux /\ length (wsum I pm lk) = (length (a_uv a2) + n_aux)%nat /\ 0 < C /\
    neal8_step data covs n_aux (a, r) i =
      ('(c, r2) <- cat I (wsum I pm lk) r1 ;; a3 <- neal8_assign data covs i c a2 ;; Ok (a3, r2)) /\
    forall c w, nth_error (wsum I pm lk) c = Some w ->
    exists a' st, neal8_assign data covs i c a2 = Ok a' /\ param a' i = Some st /\
      a_alloc a' = upd (a_alloc a2) i (min c (length (a_uv a2))) /\
      canon (del (a_alloc a') i) = canon (del (a_alloc a) i) /\
      ((length (a_uv a2) <= c)%nat -> exists x, nth_error (a_aux a2) (c - length (a_uv a2)) = Some x /\ st = h_state x) /\
      val w = C * ewens_pitman t d (sizes_of (a_alloc a')) * val (like_lpdf I st y cv)
              / (if (c <? length (a_uv a2))%nat then 1 else INR n_aux).
Proof. exact neal8_weights. Qed.
Print Assumptions C36_neal8_weights.

Definition exst8 : alg exI :=
  set_aux exst (repeat (@mkHier exI [] 0 norm_stats0 (mkLS 1 3) false None) 3).

Example ex_C36 : exists a2 r1 pm lk C,
    neal8_prior_mass exdata 3 a2 = Ok pm /\ neal8_lpdf exdata excovs 3 a2 2 = Ok lk /\
    length (wsum exI pm lk) = (length (a_uv a2) + 3)%nat /\ 0 < C /\
    neal8_step exdata excovs 3 (exst8, tt) 2 =
      ('(c, r2) <- cat exI (wsum exI pm lk) r1 ;; a3 <- neal8_assign exdata excovs 2 c a2 ;; Ok (a3, r2)).
Proof.
  destruct (rep_state_ok exI exdata excovs exhy exmix _ exst_in) as (H1 & H2 & H3 & H4 & H5 & H6).
  destruct (C36_neal8_weights exI (nnig_laws _ _ _ exG_ok) exdata excovs xexp (- / 4) (/ 2) 3 exst8 2 4 tt tt)
    as (a2 & r1 & pm & lk & C & E1 & E2 & E3 & E4 & E5 & E6 & _); simpl; auto; try lia; try lra.
  - apply (nnig_rows (fun _ => 0) exG exprior).
  - intros. apply xexp_add.
  - intros x k Hk. simpl. unfold xsublog. rewrite xexp_add. simpl xexp at 2. rewrite exp_Ropp, exp_ln; [reflexivity|]. apply lt_0_INR. lia.
  - intros h [<-|[<-|[<-|[]]]]; auto.
  - apply ex_masses.
  - exists a2, r1, pm, lk, C. auto 10.
Qed.
