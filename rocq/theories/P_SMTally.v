(** * Property theorems: the proposal probability of the split-and-merge sampler. *)
From Coq Require Import String.
From Coq Require Import Bool List Arith ZArith Reals Lra Lia Permutation.
From Verif Require Import Base Hier Algos SplitMerge Run Spec MargFacts NealFacts InitFacts MargMore MargProps SMFacts SMProps.
From Verif Require Import PartSpec XReal Mixings MixFacts GibbsSpec GibbsComb GibbsPost GibbsFacts GibbsState SMPost SMRatio SMSim SMBalance SMReverse.
From Verif Require Import Univ UnivFacts RealInst RealFacts SMReal SMRealEx SMTally P_SMRatio Demo P_Marginal P_SplitMerge.
Import ListNotations.
Local Open Scope R_scope.

(** ** C46 *)

(** The log-probability of a scan is that of its draws: with a generator that
    multiplies up the probabilities of the values it draws, the product grows by
    its exponential. *)
Theorem C46_scan_probability :
  forall lg G p (data : list R) (a : alg (nnig_iface lg (tally G) p)) f g r q g2 lp r2 q2,
  @restricted_gs (nnig_iface lg (tally G) p) data a f false g (r, q) = Ok ((g2, lp), (r2, q2)) ->
  q2 = q * xexp lp.
Proof.
  intros lg G p data a f g r q g2 lp r2 q2 H. unfold restricted_gs in H.
  eapply fold_tally; [exact H|]. cbn. rewrite exp_0. ring.
Qed.
Print Assumptions C46_scan_probability.

(** The split is accepted with the ratio of the posteriors over the probability
    of the draws. *)
Theorem C46_split_draws :
  forall lg G p (data : list R) n_restr (a : alg (nnig_iface lg (tally G) p)) f s r q t d,
  let post_ := posterior (fun l => ewens_pitman t d (sizes_of l)) (fun ids => exp (log_marg lg (a_hyp a) (pick data ids))) in
  let k := length (distinct (a_alloc a)) in
  gen_ok G -> valid (a_hyp a) -> strength (a_mix a) = Some (t, d) -> 0 <= d < 1 -> - d < t ->
  sm_state (nnig_iface lg (tally G) p) data a ->
  (f < length data)%nat -> (s < length data)%nat -> f <> s -> nth_error (a_alloc a) f = nth_error (a_alloc a) s ->
  exists g r1 q1 g2 lp r2 pr w a',
    launch_state (nnig_iface lg (tally G) p) data n_restr f s a (r, q) = Ok (g, (r1, q1)) /\
    @restricted_gs (nnig_iface lg (tally G) p) data a f false g (r1, q1) = Ok ((g2, lp), (r2, q1 * pr)) /\
    @split_or_merge (nnig_iface lg (tally G) p) data f s g a (r1, q1) =
      (let '(u, r3) := g_unif (tally G) 0 1 (r2, q1 * pr) in Ok (if xltb u w then a' else a, r3)) /\
    splits (length data) (a_alloc a) (a_alloc a') /\ 0 < pr /\
    xexp w * pr * (post_ (a_alloc a) * (t + d * INR k)) = post_ (a_alloc a') * (t + 2 * d).
Proof.
  intros lg G p data n_restr a f s r q t d post_ k HG Hv Hs Hd Ht Hst Hf Hs' Hfs Hn.
  destruct (C46_split_ratio lg (tally G) p data n_restr a f s (r, q) t d (tally_ok G HG) Hv Hs Hd Ht Hst Hf Hs' Hfs Hn)
    as [g [[r1 q1] [g2 [lp [[r2 q2] [w [a' [E1 [E2 [E3 [E4 [E5 [E6 _]]]]]]]]]]]]].
  pose proof (C46_scan_probability lg G p data a f g r1 q1 g2 lp r2 q2 E2) as Hq. subst q2.
  exists g, r1, q1, g2, lp, r2, (xexp lp), w, a'. repeat split; assumption.
Qed.
Print Assumptions C46_split_draws.

(** For a merge the scan draws nothing and reports the probability of drawing
    the clusters the data are in: a scan, by any generator, that ends in these
    clusters reports the same number. *)
Theorem C46_merge_draws : forall (I : Iface) (data : list (Datum I)) (a : alg I) f g r g2 lp r2 r0,
  (f < length (a_alloc a))%nat -> (forall i, In i (g_idx g) -> (i < length (a_alloc a))%nat) ->
  restricted_gs data a f false g r = Ok ((g2, lp), r2) ->
  (forall k i, nth_error (g_idx g) k = Some i ->
     nth_error (g_alloc g2) k = Some 0%nat /\ nth_error (a_alloc a) i = nth_error (a_alloc a) f \/
     nth_error (g_alloc g2) k = Some 1%nat /\ nth_error (a_alloc a) i <> nth_error (a_alloc a) f) ->
  restricted_gs data a f true g r0 = Ok ((g2, lp), r0).
Proof.
  intros I data a f g r g2 lp r2 r0 Hf Hi H Hc. unfold restricted_gs in *. eapply fold_replay; [apply seq_NoDup|exact H|].
  intros k i _ Hk. unfold code.
  destruct (nth_error (a_alloc a) f) as [y|] eqn:Ey; [|apply nth_error_None in Ey; lia].
  destruct (nth_error (a_alloc a) i) as [x|] eqn:Ex;
    [|apply nth_error_None in Ex; specialize (Hi i (nth_error_In _ _ Hk)); lia].
  destruct (Hc k i Hk) as [[H1 H2]|[H1 H2]]; rewrite Ex in H2.
  - injection H2 as ->. rewrite Nat.eqb_refl. eauto.
  - destruct (Nat.eqb_spec x y) as [->|]; [congruence|eauto].
Qed.
Print Assumptions C46_merge_draws.

(** Four data in two clusters: the coins put the other two data into the wrong
    clusters, a scan draws them back. *)
Definition two_scans :=
  s <- sm_init 2 [] ;; let a := fst s in
  '(g, _) <- launch_state D ex_data 0 0 1 a [1; 0]%nat ;;
  '((g2, lp), _) <- restricted_gs (I := D) ex_data a 0 false g [0; 1]%nat ;;
  '((g3, lp3), _) <- restricted_gs (I := D) ex_data a 0 true g [] ;;
  Ok ((a_alloc a, g_idx g, g_alloc g), (g_alloc g2, lp), (g_alloc g3, lp3)).
Example C46_merge_draws_example : two_scans =
  Ok (([0; 1; 0; 1], [2; 3], [1; 0])%nat, ([0; 1]%nat, 0%Z), ([0; 1]%nat, 0%Z)).
Proof. vm_compute. reflexivity. Qed.
(** The probabilities of two draws. *)
Definition first_gen : gen := mkGen unit (fun _ _ r => (0, r)) (fun _ _ r => (1, r)) (fun _ _ r => (1, r)) (fun _ _ r => (0, r)) (fun _ r => (0%nat, r)).
Example C46_tally_example : gen_ok (tally first_gen) /\
  snd (snd (g_cat (tally first_gen) [/ 2; / 2] (snd (g_cat (tally first_gen) [/ 4; 3 / 4] (tt, 1))))) = / 8.
Proof.
  split; [apply tally_ok; intros ps r H; cbn; destruct ps; [congruence|cbn; lia]|]. cbn. lra.
Qed.
