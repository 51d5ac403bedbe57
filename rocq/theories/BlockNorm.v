(** * Blocked Gibbs on normal data: each block against the joint density. *)
From Coq Require Import String.
From Coq Require Import Bool List Arith ZArith Reals Lra Lia Permutation.
From Verif Require Import Base Hier Algos Run Spec MargFacts XReal Univ UnivFacts UnivInit RealInst RealFacts GamFacts.
From Verif Require Import Stick SliceFacts StickFacts Cond CondDraws PartSpec BlockSpec BlockFacts.
Import ListNotations.
Local Open Scope R_scope.

(** ** Weights *)
Lemma nth_ext_R : forall (l k : list R), length l = length k -> (forall j, (j < length l)%nat -> nth j l 0 = nth j k 0) -> l = k.
Proof. intros l k H E. apply (nth_ext l k 0 0 H E). Qed.

Lemma weights_go_length : forall (l : list R) x, length (weights_go numR x l) = length l.
Proof. induction l as [|v l IH]; intro x; cbn; [reflexivity|]. now rewrite IH. Qed.

Lemma stick_weights_go : forall vs, stick_weights vs = weights_go numR 1 vs.
Proof.
  intro vs. apply nth_ext_R; unfold stick_weights; rewrite ?weights_go_length, map_length, seq_length; [reflexivity|].
  intros j Hj. rewrite (nth_indep _ 0 (nth 0 vs 0 * prodR (map (fun v => 1 - v) (firstn 0 vs)))) by (rewrite map_length, seq_length; exact Hj).
  rewrite (map_nth (fun j => nth j vs 0 * prodR (map (fun v => 1 - v) (firstn j vs)))), seq_nth by exact Hj. cbn [Nat.add].
  symmetry. apply nth_error_nth. refine (eq_trans (weights_nth vs 1 j (v := nth j vs 0) _) _); [apply nth_error_nth'; exact Hj|].
  f_equal. unfold rest, StickFacts.prodR, prodR. ring.
Qed.

Lemma stick_weights_pos : forall vs j, Forall (fun v => 0 < v < 1) vs -> (j < S (length vs))%nat -> 0 < nth j (stick_weights (vs ++ [1])) 0.
Proof.
  intros vs j H. rewrite stick_weights_go. cut (forall x, 0 < x -> (j < S (length vs))%nat -> 0 < nth j (weights_go numR x (vs ++ [1])) 0); [intros Q; apply Q; lra|]. revert j.
  induction H as [|v vs Hv H IH]; intros j x Q Hj; cbn [app weights_go length] in *.
  - destruct j; [|lia]. cbn. lra.
  - destruct j; cbn [nth]; [cbn; apply Rmult_lt_0_compat; lra|]. apply IH; [cbn; apply Rmult_lt_0_compat; lra|lia].
Qed.

(** ** Sticks *)
Lemma stick_like_end : forall vs sh ns, length ns = S (length vs) -> length sh = S (length vs) -> Forall (fun v => 0 < v < 1) vs ->
  stick_like (vs ++ [1]) ns * beta_kernels sh vs = beta_kernels (shapes_after sh ns) vs.
Proof.
  induction vs as [|v vs IH]; intros [|[a b] sh] [|k ns] H1 H2 HF; cbn [length] in *; try discriminate.
  - destruct ns; [|discriminate]. cbn. rewrite pow1. destruct sh; cbn; lra.
  - inversion HF as [|? ? Hv HF']; subst. cbn [app stick_like beta_kernels shapes_after]. rewrite <- (IH sh ns) by (auto; lia).
    unfold beta_kernel.
    replace (a + INR k - 1) with (INR k + (a - 1)) by lra.
    replace (b + INR (list_sum ns) - 1) with (INR (list_sum ns) + (b - 1)) by lra.
    rewrite (Rpower_plus (INR k)), (Rpower_plus (INR (list_sum ns))).
    rewrite !Rpower_pow by lra. ring.
Qed.

Lemma alloc_like_prod : forall nc (w : list R) ns, length w = nc -> length ns = nc ->
  alloc_like w ns = prodR (map (fun j => nth j w 0 ^ nth j ns 0%nat) (seq 0 nc)).
Proof.
  induction nc as [|nc IH]; intros [|x w] [|k ns] H1 H2; cbn [length] in *; try discriminate; [reflexivity|].
  cbn [alloc_like seq map]. rewrite (IH w ns) by lia. rewrite <- seq_shift, map_map. reflexivity.
Qed.

Lemma sticks_exact : forall vs sh cs ns nc, nc = S (length vs) -> length sh = nc -> ns = map (count_occ Nat.eq_dec cs) (seq 0 nc) ->
  Forall (fun c => (c < nc)%nat) cs -> Forall (fun v => 0 < v < 1) vs ->
  beta_kernels sh vs * prodR (map (fun c => nth c (stick_weights (vs ++ [1])) 0) cs) = beta_kernels (shapes_after sh ns) vs.
Proof.
  intros vs sh cs ns nc En Es Ens Hc Hv.
  assert (Hn : length ns = nc) by (now rewrite Ens, map_length, seq_length).
  assert (Hw : length (stick_weights (vs ++ [1])) = nc) by (unfold stick_weights; rewrite map_length, seq_length, app_length; cbn; lia).
  rewrite (prod_counts cs nc _ Hw Hc). rewrite <- (stick_like_end vs sh ns) by (auto; lia).
  assert (E : stick_like (vs ++ [1]) ns = alloc_like (stick_weights (vs ++ [1])) ns).
  { rewrite stick_weights_go. pose proof (alloc_like_sticks (vs ++ [1]) ns 1 ltac:(rewrite app_length; cbn; lia)) as Q. rewrite pow1, Rmult_1_l in Q. symmetry. exact Q. }
  rewrite E, (alloc_like_prod nc _ ns Hw Hn). rewrite Rmult_comm. f_equal. f_equal. apply map_ext_in. intros j Hj. apply in_seq in Hj.
  f_equal. rewrite Ens. rewrite (nth_indep _ 0%nat (count_occ Nat.eq_dec cs 0%nat)) by (rewrite map_length, seq_length; lia).
  rewrite map_nth, seq_nth by lia. reflexivity.
Qed.

(** ** Observations of a component *)
Lemma combine_seq : forall (cs : list nat) (xs : list R), length cs = length xs ->
  combine cs xs = map (fun i => (nth i cs 0%nat, nth i xs 0)) (seq 0 (length xs)).
Proof.
  induction cs as [|c cs IH]; intros [|x xs] H; cbn [length] in *; try discriminate; [reflexivity|].
  cbn [combine seq map]. rewrite IH by lia. rewrite <- seq_shift, map_map. reflexivity.
Qed.

Lemma filter_map_comm : forall A B (g : A -> B) (P : B -> bool) l, filter P (map g l) = map g (filter (fun x => P (g x)) l).
Proof. induction l as [|x l IH]; cbn; [reflexivity|]. destruct (P (g x)); cbn; now rewrite IH. Qed.

Lemma with_label_labelled : forall (xs : list R) cs c, length cs = length xs -> with_label xs cs c = labelled xs cs c.
Proof.
  intros xs cs c H. unfold with_label, labelled, pick. rewrite (combine_seq cs xs H), filter_map_comm, map_map. cbn [fst snd].
  f_equal. apply filter_ext_in. intros i Hi. apply in_seq in Hi.
  rewrite (nth_error_nth' cs 0%nat) by lia. reflexivity.
Qed.

Lemma with_label_count : forall (xs : list R) cs c, length cs = length xs -> length (with_label xs cs c) = count_occ Nat.eq_dec cs c.
Proof.
  intros xs cs c H. unfold with_label. rewrite map_length. revert xs H. induction cs as [|a cs IH]; intros [|x xs] H; cbn [length] in *; try discriminate; [reflexivity|].
  cbn [combine filter fst count_occ]. destruct (Nat.eq_dec a c) as [->|N].
  - rewrite Nat.eqb_refl. cbn [length]. now rewrite IH by lia.
  - apply Nat.eqb_neq in N. rewrite N. apply IH. lia.
Qed.

(** ** Parameters *)
Lemma prod_exp : forall A (g : A -> R) l, prodR (map (fun x => exp (g x)) l) = exp (sumR (map g l)).
Proof. intros A g. unfold prodR, sumR. induction l as [|x l IH]; cbn; [now rewrite exp_0|]. now rewrite IH, exp_plus. Qed.

Lemma prod_upd : forall A (g : A -> R) l j, (forall x, 0 < g x) -> (j < length l)%nat -> exists K, 0 < K /\ forall x, prodR (map g (upd l j x)) = K * g x.
Proof.
  intros A g l j Hg. revert j. induction l as [|y l IH]; intros [|j] H; cbn [length] in H; try lia.
  - exists (prodR (map g l)). split; [|intro x; unfold prodR; cbn; ring]. clear -Hg. unfold prodR. induction l as [|x l IH]; cbn; [lra|]. apply Rmult_lt_0_compat; auto.
  - destruct (IH j ltac:(lia)) as (K & P & E). exists (g y * K). split; [apply Rmult_lt_0_compat; auto|]. intro x. cbn [upd map].
    change (prodR (g y :: map g (upd l j x))) with (g y * prodR (map g (upd l j x))). rewrite E. ring.
Qed.

(** Joint density of sticks, component parameters, labels and observations under
    a truncated mixture of normals; [sh] are the shapes of the sticks' Beta laws,
    up to their normalising constants. *)
Definition joint (lg : R -> R) (hy : nig) (sh : list (R * R)) (data : list R) (th : list uni_ls) (vs : list R) (cs : list nat) : R :=
  beta_kernels sh vs * prodR (map (fun s => exp (nig_lpdf lg hy s)) th) *
  complete uni_ls R (fun s y => exp (norm_lpdf s y)) (fun _ => stick_weights (vs ++ [1])) (mkLS 0 1) th data cs.

Lemma kernels_pos : forall sh vs, 0 < beta_kernels sh vs.
Proof.
  induction sh as [|[a b] sh IH]; intros [|v vs]; cbn; try lra. apply Rmult_lt_0_compat; [|apply IH].
  unfold beta_kernel, Rpower. apply Rmult_lt_0_compat; apply exp_pos.
Qed.

Lemma parameters_exact : forall lg hy sh data th vs cs c ys, valid hy -> length th = S (length vs) -> Forall (fun v => 0 < v < 1) vs ->
  Forall (fun c => (c < length th)%nat) cs -> (c < length th)%nat -> Permutation ys (with_label data cs c) ->
  exists K, 0 < K /\ forall x, 0 < ls_var x -> joint lg hy sh data (upd th c x) vs cs = K * exp (nig_lpdf lg (nnig_post hy (cardZ ys) (stats_of ys)) x).
Proof.
  intros lg hy sh data th vs cs c ys HV Hl Hv Hc Hlt Hp.
  destruct (prod_upd _ (fun s => exp (nig_lpdf lg hy s)) th c (fun x => exp_pos _) Hlt) as (K1 & P1 & E1).
  destruct (complete_param uni_ls R (fun s y => exp (norm_lpdf s y)) (fun _ => stick_weights (vs ++ [1])) (mkLS 0 1) th c data cs Hlt) as (K2 & E2 & P2).
  assert (Q2 : 0 < K2).
  { apply P2; [|intros; apply exp_pos]. intros x d _ Hd. rewrite Forall_forall in Hc. specialize (Hc d Hd). apply stick_weights_pos; [exact Hv|lia]. }
  exists (beta_kernels sh vs * K1 * K2 * exp (log_marg lg hy ys)). split.
  { repeat apply Rmult_lt_0_compat; auto using exp_pos, kernels_pos. }
  intros x Hx. unfold joint. rewrite E1, E2, prod_exp.
  rewrite <- (sumR_perm _ _ (Permutation_map (norm_lpdf x) Hp)).
  rewrite !Rmult_assoc, <- exp_plus, <- nnig_bayes, exp_plus by auto. ring.
Qed.

Lemma joint_sticks : forall lg hy sh data th cs ns nc, length cs = length data -> length sh = nc -> (1 <= nc)%nat -> ns = map (count_occ Nat.eq_dec cs) (seq 0 nc) ->
  Forall (fun c => (c < nc)%nat) cs ->
  exists K, 0 < K /\ forall vs, S (length vs) = nc -> Forall (fun v => 0 < v < 1) vs -> joint lg hy sh data th vs cs = K * beta_kernels (shapes_after sh ns) vs.
Proof.
  intros lg hy sh data th cs ns nc Hl Hs Hn En Hc.
  destruct (complete_weights uni_ls R (fun s y => exp (norm_lpdf s y)) (mkLS 0 1) th data cs) as (K & E & P).
  exists (prodR (map (fun s => exp (nig_lpdf lg hy s)) th) * K). split.
  { apply Rmult_lt_0_compat; [rewrite prod_exp; apply exp_pos|]. apply P. intros; apply exp_pos. }
  intros vs Hv F. unfold joint. rewrite E by exact Hl. rewrite <- (sticks_exact vs sh cs ns nc) by (auto; lia). ring.
Qed.

(** Labels drawn one after the other with probabilities [ps]. *)
Fixpoint cat_draws (G : gen) (ps : list (list R)) (cs : list nat) (r r' : Gs G) : Prop :=
  match ps, cs with
  | [], [] => r = r'
  | p :: ps', c :: cs' => exists q, g_cat G p r = (c, q) /\ cat_draws G ps' cs' q r'
  | _, _ => False
  end.
