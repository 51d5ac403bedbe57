(** * Conditional invariance with auxiliary parameters: discrete laws. *)
From Coq Require Import Bool List Arith ZArith Reals Lra Lia Permutation.
From Verif Require Import Base PartSpec GibbsSpec GibbsPost GibbsSweep Aux8 Aux8Facts.
Import ListNotations.
Local Open Scope R_scope.

Section Disc.
Variable St : Type.
Variable law : list (St * R).
Notation mean1 := (mean1 law).
Notation meanm := (meanm law).

Lemma mean1_ext : forall g h, (forall x, g x = h x) -> mean1 g = mean1 h.
Proof. intros g h H. unfold Aux8.mean1. apply sumR_map_ext. intros x _. now rewrite H. Qed.

Lemma mean1_lin : forall g h c, mean1 (fun x => g x + c * h x) = mean1 g + c * mean1 h.
Proof.
  intros g h c. unfold Aux8.mean1. induction law as [|[x p] t IH]; unfold sumR; cbn [map fold_right fst snd]; [lra|]. unfold sumR in IH. rewrite IH. lra.
Qed.

Lemma mean1_scale : forall h c, mean1 (fun x => c * h x) = c * mean1 h.
Proof.
  intros h c. unfold Aux8.mean1. induction law as [|[x p] t IH]; unfold sumR; cbn [map fold_right fst snd]; [lra|]. unfold sumR in IH. rewrite IH. lra.
Qed.

Lemma sum_swap : forall (t u : list (St * R)) (g : St -> St -> R),
  sumR (map (fun xp => snd xp * sumR (map (fun yq => snd yq * g (fst xp) (fst yq)) u)) t) =
  sumR (map (fun yq => snd yq * sumR (map (fun xp => snd xp * g (fst xp) (fst yq)) t)) u).
Proof.
  intros t u g. induction t as [|[x p] t IH].
  - cbn [map]. unfold sumR at 1 3. cbn [fold_right]. induction u as [|y u IH]; unfold sumR; cbn [map fold_right]; [reflexivity|]. unfold sumR in IH. lra.
  - cbn [map fst snd].
    unfold sumR at 1. cbn [fold_right]. fold (sumR (map (fun xp => snd xp * sumR (map (fun yq => snd yq * g (fst xp) (fst yq)) u)) t)). rewrite IH.
    clear IH. unfold sumR. cbn [fold_right]. induction u as [|y u IH]; cbn [map fold_right]; [lra|]. rewrite <- IH. ring.
Qed.

Lemma mean1_swap : forall (g : St -> St -> R), mean1 (fun x => mean1 (fun y => g x y)) = mean1 (fun y => mean1 (fun x => g x y)).
Proof.
  intros g. exact (sum_swap law law g).
Qed.

Lemma meanm_ext : forall m g h, (forall xs, length xs = m -> g xs = h xs) -> meanm m g = meanm m h.
Proof.
  induction m as [|m IH]; intros g h H; cbn [Aux8.meanm]; [apply H; reflexivity|].
  apply mean1_ext. intros x. apply IH. intros xs Hx. apply H. cbn. congruence.
Qed.

Lemma meanm_lin : forall m g h c, meanm m (fun xs => g xs + c * h xs) = meanm m g + c * meanm m h.
Proof.
  induction m as [|m IH]; intros g h c; cbn [Aux8.meanm]; [reflexivity|]. rewrite <- mean1_lin. apply mean1_ext. intros x. apply IH.
Qed.

Lemma meanm_scale : forall m h c, meanm m (fun xs => c * h xs) = c * meanm m h.
Proof.
  induction m as [|m IH]; intros h c; cbn [Aux8.meanm]; [reflexivity|]. rewrite <- mean1_scale. apply mean1_ext. intros x. apply IH.
Qed.

Lemma meanm_one : mean1 (fun _ => 1) = 1 -> forall m, meanm m (fun _ => 1) = 1.
Proof. intros H. induction m as [|m IH]; cbn [Aux8.meanm]; [reflexivity|]. rewrite <- H. apply mean1_ext. intros _. rewrite H. exact IH. Qed.

Lemma meanm_swap : forall k m (d : St) g, (k < m)%nat ->
  mean1 (fun x => meanm m (fun ys => g (nth k ys d :: upd ys k x))) = mean1 (fun x => meanm m (fun ys => g (x :: ys))).
Proof.
  induction k as [|k IH]; intros [|m] d g Hk; try lia; cbn [Aux8.meanm].
  - cbn [nth upd]. apply (mean1_swap (fun x y => meanm m (fun xs => g (y :: x :: xs)))).
  - cbn [nth upd].
    rewrite (mean1_swap (fun x y => meanm m (fun xs => g (nth k xs d :: y :: upd xs k x)))).
    rewrite (mean1_swap (fun x y => meanm m (fun xs => g (x :: y :: xs)))). apply mean1_ext. intros y.
    set (g' := fun zs => match zs with z :: t => g (z :: y :: t) | [] => 0 end). exact (IH m d g' ltac:(lia)).
Qed.

Lemma swap0_cons : forall k (d x : St) ys, (k < length ys)%nat -> swap0 (S k) (x :: ys) = nth k ys d :: upd ys k x.
Proof. intros k d x ys Hk. unfold swap0. cbn [nth_error]. rewrite (nth_error_nth' ys d Hk). reflexivity. Qed.

Lemma meanm_swap0 : forall m k g, (k < m)%nat -> meanm m (fun xs => g (swap0 k xs)) = meanm m g.
Proof.
  intros m [|k] g Hk.
  - apply meanm_ext. intros [|x xs] _; reflexivity.
  - destruct m as [|m]; [lia|]. cbn [Aux8.meanm]. destruct law as [|[d p] t] eqn:El; [reflexivity|]. rewrite <- El in *.
    rewrite <- (meanm_swap k m d g) by lia. apply mean1_ext. intros x. apply meanm_ext. intros ys Hy. now rewrite (swap0_cons k d) by lia.
Qed.

Lemma meanm_iid : mean1 (fun _ => 1) = 1 -> forall m, iid_mean m (fun _ => True) (meanm m).
Proof.
  intros H1 m. constructor.
  - intros g h E _. split; [exact Logic.I|]. symmetry. apply meanm_ext, E.
  - split; [exact Logic.I|]. now apply meanm_one.
  - intros g h c _ _. split; [exact Logic.I|]. apply meanm_lin.
  - intros g k Hk _ sw. split; [exact Logic.I|]. exact (meanm_swap0 m k g Hk).
Qed.

Variables (pi : list nat -> R) (lik : St -> R) (i : nat) (l : list nat) (ps : list (option St)).
Notation wsit := (w_sit pi lik i l ps).
Notation wown := (w_own pi lik i l).
Notation mean := (mean8 pi lik i l ps).

Lemma total_pos : partition_prior pi -> (forall x, 0 < lik x) -> (i < length l)%nat ->
  forall xs, xs <> [] -> 0 < total8 pi lik i l ps xs (fun _ => 1).
Proof.
  intros (Hp & _) Hl Hi xs Hx.
  assert (P : forall v, 0 < pi (upd l i v)).
  { intros v. apply Hp. intros E. apply (f_equal (@length nat)) in E. rewrite upd_length in E. cbn in E. lia. }
  unfold total8.
  assert (A : 0 <= sumR (map (fun j => wsit j * 1) (reps i l))).
  { unfold sumR. induction (reps i l) as [|j t IH]; cbn [map fold_right]; [lra|]. assert (0 <= wsit j).
    { unfold w_sit. apply Rmult_le_pos; [left; apply P|]. destruct (nth j ps None); [left; apply Hl|lra]. } lra. }
  assert (Hm : 0 < INR (length xs)) by (apply lt_0_INR; destruct xs; [congruence|cbn; lia]).
  assert (B : forall t, 0 <= sumR (map (fun x => wown x / INR (length xs) * 1) t)).
  { unfold sumR. induction t as [|x t IH]; cbn [map fold_right]; [lra|]. assert (0 < wown x / INR (length xs)); [|lra].
    unfold w_own. apply Rdiv_lt_0_compat; [apply Rmult_lt_0_compat; [apply P|apply Hl]|exact Hm]. }
  destruct xs as [|x t]; [congruence|]. cbn [map]. specialize (B t). unfold sumR in *. cbn [fold_right].
  assert (0 < wown x / INR (length (x :: t))); [|lra].
  unfold w_own. apply Rdiv_lt_0_compat; [apply Rmult_lt_0_compat; [apply P|apply Hl]|exact Hm].
Qed.

Lemma kernel_invariant : forall m f, mean1 (fun _ => 1) = 1 -> partition_prior pi -> (forall x, 0 < lik x) -> (i < length l)%nat ->
  sumR (map (fun j => wsit j * meanm (S m) (fun xs => mean xs f)) (reps i l)) +
  mean1 (fun x => wown x * meanm m (fun ys => mean (x :: ys) f)) =
  sumR (map (fun j => wsit j * f (sit i l ps j)) (reps i l)) + mean1 (fun x => wown x * f (own i l ps x)).
Proof.
  intros m f H1 Hp Hl Hi.
  assert (Hd : exists d : St, True).
  { destruct law as [|[d p] t]; [|now exists d]. unfold Aux8.mean1, sumR in H1. cbn in H1. lra. }
  destruct Hd as (d & _).
  pose proof (mean_invariant St pi lik i l ps (S m) (fun _ => True) (meanm (S m)) d (meanm_iid H1 (S m)) f ltac:(lia)) as K.
  rewrite (sumR_map_ext _ (fun j => wsit j * meanm (S m) (fun xs => mean xs f)) (fun j => meanm (S m) (fun xs => mean xs f) * wsit j)) by (intros; ring).
  rewrite sumR_mult, Rmult_comm.
  assert (A : meanm (S m) (fun xs => wown (hd d xs) * mean xs f) = mean1 (fun x => wown x * meanm m (fun ys => mean (x :: ys) f))).
  { cbn [Aux8.meanm hd]. apply mean1_ext. intros x. apply meanm_scale. }
  assert (B : meanm (S m) (fun xs => wown (hd d xs) * f (own i l ps (hd d xs))) = mean1 (fun x => wown x * f (own i l ps x))).
  { cbn [Aux8.meanm hd]. apply mean1_ext. intros x. transitivity (wown x * f (own i l ps x) * meanm m (fun _ => 1)); [|rewrite (meanm_one H1 m); ring].
    rewrite <- meanm_scale. apply meanm_ext. intros; ring. }
  rewrite <- A, <- B. apply K; auto. intros xs Hx. apply Rgt_not_eq. apply total_pos; auto. intros ->. discriminate.
Qed.
End Disc.
