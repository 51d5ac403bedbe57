(** * Property theorems: the distance between Gaussian mixtures. *)
From Coq Require Import String.
From Coq Require Import Bool List Arith ZArith Reals Lra Lia Psatz Permutation.
From Coquelicot Require Import Coquelicot.
From Verif Require Import Base Mixings PartSpec MixFacts Univ UnivFacts GaussInt Dist DistFacts.
Import ListNotations.
Local Open Scope R_scope.

Lemma lteb_pos : forall s, 0 < s -> lteb s 0 = false.
Proof. intros s H. unfold lteb. destruct (Rle_dec s 0); [lra|reflexivity]. Qed.

(** ** C63 *)
(** The term the loops add up is the overlap of the two components exactly when
    the variances sum to one, or at one special distance of the means. *)
Theorem C63_overlap_iff :
  forall m1 v1 m2 v2 t, 0 < v1 -> 0 < v2 -> overlap_term m1 m2 (v1 + v2) = Ok t ->
  let s := v1 + v2 in
  (is_line_int (fun x => gauss m1 v1 x * gauss m2 v2 x) t <->
   s = 1 \/ (m1 - m2) * (m1 - m2) = s * s * ln s / (s - 1)).
Proof. exact overlap_iff. Qed.
Print Assumptions C63_overlap_iff.

Example C63_overlap_iff_ex : exists t, overlap_term 0 3 (1 + 1) = Ok t /\
  ~ is_line_int (fun x => gauss 0 1 x * gauss 3 1 x) t.
Proof.
  eexists. split; [unfold overlap_term; rewrite lteb_pos by lra; reflexivity|].
  rewrite (C63_overlap_iff 0 1 3 1) by (try lra; unfold overlap_term; rewrite lteb_pos by lra; reflexivity).
  intros [H|H]; [lra|]. replace ((0 - 3) * (0 - 3)) with 9 in H by ring.
  assert (L : ln (1 + 1) < 1 + 1).
  { rewrite <- (ln_exp (1 + 1)) at 2. apply ln_increasing; [lra|]. pose proof (exp_ineq1 (1 + 1)). lra. }
  replace ((1 + 1) * (1 + 1) * ln (1 + 1) / (1 + 1 - 1)) with (4 * ln (1 + 1)) in H by field. lra.
Qed.
Example C63_overlap_right_ex : exists t, overlap_term 0 3 (/ 2 + / 2) = Ok t /\
  is_line_int (fun x => gauss 0 (/ 2) x * gauss 3 (/ 2) x) t.
Proof.
  eexists. split; [unfold overlap_term; rewrite lteb_pos by lra; reflexivity|].
  apply (C63_overlap_iff 0 (/ 2) 3 (/ 2)); try lra. unfold overlap_term. rewrite lteb_pos by lra. reflexivity.
Qed.

(** Whole mixtures: right when every variance is one half. *)
Theorem C63_half_distance :
  forall cs ds, (forall c, In c (cs ++ ds) -> c_var c = / 2) ->
  exists D, is_line_int (fun x => (mix_pdf cs x - mix_pdf ds x) ^ 2) D /\
            mixture_dist (as_mix cs) (as_mix ds) = Ok D.
Proof. exact dist_half. Qed.
Print Assumptions C63_half_distance.

Example C63_half_distance_ex : forall c,
  In c ([mkComp 0 (/ 2) (1 / 3); mkComp 1 (/ 2) (2 / 3)] ++ [mkComp 4 (/ 2) 1]) -> c_var c = / 2.
Proof. intros c H. simpl in H. decompose [or] H; subst; try reflexivity; contradiction. Qed.

(** It is zero on equal mixtures, symmetric, and blind to the order of the
    components. *)
Theorem C63_self : forall cs, good cs -> mixture_dist (as_mix cs) (as_mix cs) = Ok 0.
Proof. exact dist_self. Qed.
Print Assumptions C63_self.
Theorem C63_symmetric :
  forall cs ds, good cs -> good ds -> mixture_dist (as_mix cs) (as_mix ds) = mixture_dist (as_mix ds) (as_mix cs).
Proof. exact dist_sym. Qed.
Print Assumptions C63_symmetric.
Theorem C63_order :
  forall cs cs' ds, good cs -> good ds -> Permutation cs cs' ->
  mixture_dist (as_mix cs') (as_mix ds) = mixture_dist (as_mix cs) (as_mix ds).
Proof. exact dist_perm. Qed.
Print Assumptions C63_order.

Example C63_good_ex : good two_humps /\ good one_hump /\ Permutation two_humps (rev two_humps) /\ two_humps <> rev two_humps.
Proof.
  split; [repeat constructor; simpl; lra|]. split; [repeat constructor; simpl; lra|]. split; [apply Permutation_rev|].
  unfold two_humps. cbn [rev app]. intros E. injection E. intros. lra.
Qed.

(** "The result is the integral of the squared difference", and even "the result
    is not negative" (test/distributions.cc), are false. *)
Theorem C63_distance_refuted :
  exists cs ds d, good cs /\ good ds /\ (forall c, In c (cs ++ ds) -> 0 < c_w c) /\
  sumR (map c_w cs) = 1 /\ sumR (map c_w ds) = 1 /\
  mixture_dist (as_mix cs) (as_mix ds) = Ok d /\ d < 0 /\
  ~ is_line_int (fun x => (mix_pdf cs x - mix_pdf ds x) ^ 2) d.
Proof. exact dist_wrong. Qed.
Print Assumptions C63_distance_refuted.

(** What is computed, and what should be, for two centred normals. *)
Theorem C63_single :
  forall m v1 v2, 0 < v1 -> 0 < v2 ->
  mixture_dist (as_mix [mkComp m v1 1]) (as_mix [mkComp m v2 1]) =
    Ok ((/ (2 * v1) + / (2 * v2) - 2 / (v1 + v2)) / sqrt (2 * PI)) /\
  is_line_int (fun x => (gauss m v1 x - gauss m v2 x) ^ 2)
    ((/ sqrt (2 * v1) + / sqrt (2 * v2) - 2 / sqrt (v1 + v2)) / sqrt (2 * PI)).
Proof. exact dist_single. Qed.
Print Assumptions C63_single.

Example C63_single_ex : mixture_dist (as_mix [mkComp 5 1 1]) (as_mix [mkComp 5 3 1]) = Ok (/ 6 / sqrt (2 * PI)).
Proof. destruct (C63_single 5 1 3) as (-> & _); try lra. do 2 f_equal. field. Qed.

(** The program is terminated iff some variance is not positive. *)
Theorem C63_terminates_iff :
  forall cs ds, (exists c, In c (cs ++ ds) /\ c_var c <= 0) <-> mixture_dist (as_mix cs) (as_mix ds) = Abort.
Proof. exact dist_abort. Qed.
Print Assumptions C63_terminates_iff.

Example C63_terminates_ex : exists c, In c (one_hump ++ [mkComp 1 0 1]) /\ c_var c <= 0.
Proof. exists (mkComp 1 0 1). split; [simpl; auto|simpl; lra]. Qed.

(** Messages: univariate states are read off; one multivariate state among them
    terminates the program. *)
Theorem C63_states :
  forall multi c1 w1 c2 w2, c1 <> [] -> length c1 = length w1 -> length c2 = length w2 ->
  (forall c, In c c1 -> is_uni c) ->
  states_dist multi c1 w1 c2 w2 = mixture_dist (as_mix (comps_of c1 w1)) (as_mix (comps_of c2 w2)).
Proof. exact states_uni. Qed.
Print Assumptions C63_states.
Theorem C63_mixed_states :
  forall multi c1 w1 c2 w2 c, length c1 = length w1 -> length c2 = length w2 ->
  hd_error c1 = Some c -> is_uni c -> (exists d, In d (c1 ++ c2) /\ ~ is_uni d) ->
  states_dist multi c1 w1 c2 w2 = Abort.
Proof. exact states_mixed. Qed.
Print Assumptions C63_mixed_states.

Example C63_states_ex : comps_of [CUni 0 1; CUni 2 3] [/ 2; / 2] = [mkComp 0 1 (/ 2); mkComp 2 3 (/ 2)].
Proof. reflexivity. Qed.
Example C63_mixed_states_ex : forall multi, states_dist multi [CUni 0 1; CUni 2 3] [/ 2; / 2] [CMulti] [1] = Abort.
Proof.
  intros multi. apply (C63_mixed_states multi _ _ _ _ (CUni 0 1)); try reflexivity; try exact Logic.I.
  exists CMulti. split; [simpl; auto|intros H; exact H].
Qed.
