(** * Facts about the real instance. *)
From Coq Require Import String.
From Coq Require Import Bool List Arith ZArith Reals Lra Lia Permutation.
From Verif Require Import Base Hier Algos Spec MargFacts NealFacts MargMore MargProps.
From Verif Require Import PartSpec XReal Mixings MixFacts GibbsSpec GibbsComb GibbsPost GibbsFacts GibbsSweep.
From Verif Require Import Univ UnivFacts RealInst.
Import ListNotations.
Local Open Scope R_scope.
Arguments sumR l : simpl never.

(** [categorical_rng] returns an index of its argument. *)
Definition gen_ok (G : gen) : Prop := forall ps r, ps <> [] -> (fst (g_cat G ps r) < length ps)%nat.

Lemma nnig_laws : forall lg G p, gen_ok G -> laws (nnig_iface lg G p).
Proof.
  intros lg G p HG. constructor; simpl; intros.
  - unfold softmax. rewrite <- (map_length (fun w => xexp w / sum_exp ws) ws). apply HG. destruct ws; simpl; congruence.
  - pose proof (HG (repeat (/ INR n) n) r) as H2. rewrite repeat_length in H2. apply H2.
    destruct n; [lia|discriminate].
  - destruct s as [a b]. unfold norm_op; simpl. f_equal; ring.
  - destruct s as [a b]. unfold norm_op; simpl. f_equal; ring.
  - reflexivity.
Qed.

Lemma nnig_rows : forall lg G p (data : list R), rows_ok (nnig_iface lg G p) data (at_ (repeat tt (length data))).
Proof.
  intros lg G p data j Hj. destruct (at_ok data Hj) as (d & Ed & _).
  assert (Hj' : (j < length (repeat tt (length data)))%nat) by (rewrite repeat_length; auto).
  destruct (at_ok (repeat tt (length data)) Hj') as (c & Ec & _). exists d, c. auto.
Qed.

(** The strength and discount a mixing object works with on the log scale; the
    Dirichlet process reads [logtotmass] (see C37). *)
Definition strength (m : mixing) : option (R * R) :=
  match m with
  | MixDP _ s => match dp_log s with Some (Fin l) => Some (exp l, 0) | _ => None end
  | MixPY _ s => Some (py_str s, py_dis s)
  end.

Lemma real_masses : forall lg G p m n t d, strength m = Some (t, d) -> 0 <= d < 1 -> - d < t ->
  py_masses (nnig_iface lg G p) xexp m n t d.
Proof.
  intros lg G p m n t d Hm Hd Ht k Hk. destruct m as [pr s|pr s]; simpl in Hm.
  - destruct (dp_log s) as [[|l]|] eqn:El; try discriminate. injection Hm as <- <-. split.
    + intros card Hc. exists (xlog (IZR card)). split; [reflexivity|]. rewrite xexp_log by (apply IZR_le; lia). lra.
    + exists (Fin l). split; [simpl; unfold dp_mass_new; rewrite El; reflexivity|]. simpl. lra.
  - injection Hm as <- <-. split.
    + intros card Hc. exists (xlog (IZR card - py_dis s)). simpl. unfold py_mass_ex.
      replace (Z.eqb card 0) with false by (symmetry; apply Z.eqb_neq; lia).
      assert (1 <= IZR card) by (apply IZR_le; lia). rewrite xexp_log by lra. auto.
    + exists (xlog (py_str s + py_dis s * INR k)). split; [reflexivity|]. assert (1 <= INR k) by (apply (le_INR 1); lia).
      rewrite xexp_log; [reflexivity|]. assert (py_dis s * 1 <= py_dis s * INR k) by (apply Rmult_le_compat_l; lra). lra.
Qed.

(** Data of a set of observations. *)
Definition pick (data : list R) (ids : list nat) : list R := map (fun j => nth j data 0) ids.

Lemma at_nth : forall A (l : list A) j d x, at_ l j = Ok x -> nth j l d = x.
Proof. intros A l j d x H. unfold at_ in H. destruct (nth_error l j) eqn:E; [|discriminate]. injection H as ->. apply nth_error_nth; auto. Qed.

Lemma nnig_batch : forall lg G p (data : list R) ids, (forall j, In j ids -> (j < length data)%nat) ->
  batch (nnig_iface lg G p) data (at_ (repeat tt (length data))) ids = stats_of (pick data ids).
Proof.
  intros lg G p data ids H. unfold batch, stats_of, pick. simpl stats0. generalize norm_stats0. revert H.
  induction ids as [|j ids IH]; intros H s; [reflexivity|]. cbn [fold_left map].
  destruct (nnig_rows lg G p data j (H j (or_introl eq_refl))) as (d & c & Ed & Ec & _).
  assert (E : batch_step (nnig_iface lg G p) data (at_ (repeat tt (length data))) s j = norm_op (nth j data 0) true s).
  { unfold batch_step. rewrite Ec. simpl in Ed |- *. rewrite Ed, (at_nth _ _ _ 0 _ Ed). reflexivity. }
  rewrite E. apply IH. intros; apply H; right; auto.
Qed.

Lemma nnig_marginal : forall lg G p (data : list R) hy, valid hy ->
  marginal_likelihood (nnig_iface lg G p) data (repeat tt (length data)) xexp hy (fun ids => exp (log_marg lg hy (pick data ids))).
Proof.
  intros lg G p data hy HV. split; [intros; apply exp_pos|]. split; [|split].
  - intros ids ids' P. f_equal. apply log_marg_perm. unfold pick. apply Permutation_map. exact P.
  - intros i d cv Ed _. simpl. f_equal. rewrite (marg_one lg hy d HV). unfold pick. simpl. rewrite (at_nth _ _ _ 0 _ Ed). reflexivity.
  - intros i d cv ids Ed _ _ _ Hlt. rewrite nnig_batch by auto. simpl. rewrite <- exp_plus. f_equal.
    replace (Z.of_nat (length ids)) with (cardZ (pick data ids)) by (unfold cardZ, pick; rewrite map_length; reflexivity).
    rewrite marg_chain by auto. unfold pick. simpl. rewrite (at_nth _ _ _ 0 _ Ed). reflexivity.
Qed.

(** C35 for the program: the invariant distribution. *)
Lemma nnig_sweep_invariant : forall lg G p (data : list R) pick0 (A : list nat -> alg (nnig_iface lg G p)) hy m t d is,
  gen_ok G -> valid hy -> strength m = Some (t, d) -> 0 <= d < 1 -> - d < t -> (2 <= length data)%nat ->
  (forall i, In i is -> (i < length data)%nat) ->
  (forall s, In s (clusterings (length data)) ->
     proper (length data) (a_alloc (A s)) (view (a_uv (A s))) /\
     @caches_ok (nnig_iface lg G p) data (repeat tt (length data)) (a_uv (A s)) /\
     (forall h, In h (a_uv (A s)) -> @saved_matches (nnig_iface lg G p) data (repeat tt (length data)) (a_hyp (A s)) h) /\
     a_hyp (A s) = hy /\ a_mix (A s) = m /\ canon (a_alloc (A s)) = s) ->
  exists M,
    (forall ids theta, 0 < ls_var theta ->
       exp (nig_lpdf lg hy theta) * prodR (map (fun j => exp (norm_lpdf theta (nth j data 0))) ids) =
       M ids * exp (nig_lpdf lg (nnig_post hy (Z.of_nat (length ids)) (stats_of (pick data ids))) theta)) /\
    forall u, In u (clusterings (length data)) ->
    sumR (map (fun s => posterior (fun al => ewens_pitman t d (sizes_of al)) M s *
                        sweep_prob (nnig_iface lg G p) xexp data (repeat tt (length data)) pick0 is (A s) u)
              (clusterings (length data)))
    = posterior (fun al => ewens_pitman t d (sizes_of al)) M u.
Proof.
  intros lg G p data pick0 A hy m t d is HG HV Hm Hd Ht Hn His HA.
  exists (fun ids => exp (log_marg lg hy (pick data ids))). split.
  - intros ids theta Hth. 
    assert (E : prodR (map (fun j => exp (norm_lpdf theta (nth j data 0))) ids) = exp (sumR (map (norm_lpdf theta) (pick data ids)))).
    { unfold pick. rewrite map_map. induction ids as [|j l IH]; [unfold prodR, sumR; simpl; symmetry; apply exp_0|].
      cbn [map]. rewrite sumR_cons, exp_plus, <- IH. reflexivity. }
    rewrite E, <- !exp_plus. f_equal.
    replace (Z.of_nat (length ids)) with (cardZ (pick data ids)) by (unfold cardZ, pick; rewrite map_length; reflexivity).
    apply nnig_bayes; auto.
  - intros u Hu. apply (neal3_sweep_invariant (nnig_iface lg G p) (nnig_laws lg G p HG) data (repeat tt (length data)) xexp t d _ pick0 is A hy m); auto.
    + apply nnig_rows.
    + intros. apply xexp_add.
    + apply real_masses; auto.
    + apply nnig_marginal; auto.
Qed.
