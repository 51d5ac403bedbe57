(** * Conditional invariance of a reallocation with auxiliary parameters. *)
From Coq Require Import Bool List Arith ZArith Reals Lra Lia Permutation.
From Verif Require Import Base PartSpec GibbsSpec GibbsPost GibbsSweep Aux8.
Import ListNotations.
Local Open Scope R_scope.

Definition swap0 {A} (k : nat) (xs : list A) : list A :=
  match nth_error xs 0, nth_error xs k with Some x, Some y => upd (upd xs 0 y) k x | _, _ => xs end.

Lemma swap0_perm : forall A (xs : list A) k, Permutation (swap0 k xs) xs.
Proof.
  intros A xs k. unfold swap0. destruct xs as [|x xs]; [destruct k; reflexivity|]. cbn [nth_error]. destruct k as [|k]; cbn [nth_error]; [reflexivity|].
  destruct (nth_error xs k) as [y|] eqn:E; [|reflexivity]. cbn [upd].
  apply nth_error_split in E. destruct E as (a & b & -> & <-).
  assert (U : upd (a ++ y :: b) (length a) x = a ++ x :: b).
  { clear. induction a as [|z a IH]; cbn [app upd length]; [reflexivity|now rewrite IH]. }
  rewrite U. transitivity (y :: x :: a ++ b); [constructor; symmetry; apply Permutation_middle|].
  transitivity (x :: y :: a ++ b); [constructor|]. constructor. apply Permutation_middle.
Qed.

Lemma swap0_hd : forall A (xs : list A) k x d, nth_error xs k = Some x -> hd d (swap0 k xs) = x.
Proof.
  intros A xs k x d H. unfold swap0. destruct xs as [|z xs]; [destruct k; discriminate|]. cbn [nth_error]. rewrite H. destruct k; cbn [upd hd]; [cbn in H; congruence|reflexivity].
Qed.

Section Inv.
Variable St : Type.
Variables (pi : list nat -> R) (lik : St -> R) (i : nat) (l : list nat) (ps : list (option St)).
Notation total := (total8 pi lik i l ps).
Notation mean := (mean8 pi lik i l ps).
Notation wsit := (w_sit pi lik i l ps).
Notation wown := (w_own pi lik i l).

Lemma sumR_perm : forall l1 l2, Permutation l1 l2 -> sumR l1 = sumR l2.
Proof. intros l1 l2 P. unfold sumR. induction P; cbn [fold_right]; lra. Qed.

Lemma total_perm : forall xs ys f, Permutation xs ys -> total xs f = total ys f.
Proof.
  intros xs ys f P. unfold total8. f_equal. rewrite (Permutation_length P). apply sumR_perm, Permutation_map, P.
Qed.

Lemma mean_perm : forall xs ys f, Permutation xs ys -> mean xs f = mean ys f.
Proof. intros xs ys f P. unfold mean8. now rewrite !(total_perm xs ys _ P). Qed.

Variables (m : nat) (D : (list St -> R) -> Prop) (E : (list St -> R) -> R) (x0 : St).
Hypothesis HE : iid_mean m D E.

Lemma e_add : forall g h, D g -> D h -> D (fun xs => g xs + h xs) /\ E (fun xs => g xs + h xs) = E g + E h.
Proof.
  intros g h Hg Hh. destruct (iid_lin HE g h 1 Hg Hh) as [A B].
  destruct (iid_ext HE (fun xs => g xs + 1 * h xs) (fun xs => g xs + h xs)) as [X Y]; [intros; lra|exact A|]. split; [exact X|lra].
Qed.

Lemma e_zero : D (fun _ => 0) /\ E (fun _ => 0) = 0.
Proof.
  destruct (iid_one HE) as [A B]. destruct (iid_lin HE (fun _ => 1) (fun _ => 1) (-1) A A) as [X Y].
  destruct (iid_ext HE (fun xs => 1 + -1 * 1) (fun _ => 0)) as [U V]; [intros; lra|exact X|]. split; [exact U|lra].
Qed.

Lemma e_scale : forall g c, D g -> D (fun xs => c * g xs) /\ E (fun xs => c * g xs) = c * E g.
Proof.
  intros g c Hg. destruct e_zero as [A B]. destruct (iid_lin HE _ g c A Hg) as [X Y].
  destruct (iid_ext HE (fun xs => 0 + c * g xs) (fun xs => c * g xs)) as [U V]; [intros; lra|exact X|]. split; [exact U|lra].
Qed.

Lemma e_const : forall c, D (fun _ => c) /\ E (fun _ => c) = c.
Proof.
  intros c. destruct (iid_one HE) as [A B]. destruct (e_scale _ c A) as [X Y].
  destruct (iid_ext HE (fun xs => c * 1) (fun _ => c)) as [U V]; [intros; lra|exact X|]. split; [exact U|]. rewrite V, Y, B. ring.
Qed.

Lemma e_sum : forall A (g : A -> list St -> R) (is : list A) v, (forall k, In k is -> D (g k) /\ E (g k) = v) ->
  D (fun xs => sumR (map (fun k => g k xs) is)) /\ E (fun xs => sumR (map (fun k => g k xs) is)) = INR (length is) * v.
Proof.
  intros A g is v. induction is as [|k is IH]; intros H.
  - cbn. destruct e_zero as [X Y]. split; [exact X|]. unfold sumR. cbn. rewrite Y. lra.
  - destruct (H k (or_introl eq_refl)) as [Dk Ek]. destruct IH as [DI EI]; [intros; apply H; now right|].
    destruct (e_add (g k) (fun xs => sumR (map (fun k => g k xs) is)) Dk DI) as [X Y]. split; [exact X|].
    cbn [map length]. rewrite S_INR. transitivity (E (g k) + E (fun xs => sumR (map (fun k => g k xs) is))); [exact Y|]. rewrite Ek, EI. lra.
Qed.

(** Averages over the [m] parameters. *)
Lemma e_mean : forall (h : St -> R) (s : list St -> R), (0 < m)%nat -> (forall xs ys, Permutation xs ys -> s xs = s ys) ->
  D (fun xs => h (hd x0 xs) * s xs) ->
  D (fun xs => sumR (map (fun x => h x / INR m * s xs) xs)) /\
  E (fun xs => sumR (map (fun x => h x / INR m * s xs) xs)) = E (fun xs => h (hd x0 xs) * s xs).
Proof.
  intros h s Hm Hs HD. set (v := E (fun xs => h (hd x0 xs) * s xs)).
  assert (K : forall k, In k (seq 0 m) -> D (fun xs => h (nth k xs x0) * s xs) /\ E (fun xs => h (nth k xs x0) * s xs) = v).
  { intros k Hk. apply in_seq in Hk. destruct (iid_swap HE (fun xs => h (hd x0 xs) * s xs) (k := k)) as [A B]; [lia|exact HD|].
    destruct (iid_ext HE (fun xs => h (hd x0 (swap0 k xs)) * s (swap0 k xs)) (fun xs => h (nth k xs x0) * s xs)) as [X Y].
    - intros xs Hx. rewrite (Hs _ _ (swap0_perm _ xs k)). f_equal. f_equal. apply swap0_hd. apply nth_error_nth'. lia.
    - exact A.
    - split; [exact X|]. rewrite Y. exact B. }
  destruct (e_sum nat (fun k xs => h (nth k xs x0) * s xs) (seq 0 m) v K) as [A B]. rewrite seq_length in B.
  destruct (e_scale _ (/ INR m) A) as [X Y]. rewrite B in Y.
  assert (INR m <> 0) by (apply not_0_INR; lia).
  destruct (iid_ext HE (fun xs => / INR m * sumR (map (fun k => h (nth k xs x0) * s xs) (seq 0 m))) (fun xs => sumR (map (fun x => h x / INR m * s xs) xs))) as [U V].
  - intros xs Hx. rewrite <- sumR_mult. rewrite <- Hx. clear. rewrite <- (map_map (fun k => nth k xs x0) (fun y => / INR (length xs) * (h y * s xs))).
    unfold Rdiv. generalize (/ INR (length xs)) as c, (s xs) as t. intros c t.
    assert (M : map (fun k => nth k xs x0) (seq 0 (length xs)) = xs).
    { apply nth_ext with (d := x0) (d' := x0); [rewrite map_length, seq_length; auto|]. intros k Hk. rewrite map_length, seq_length in Hk.
      set (g := fun k => nth k xs x0). rewrite nth_indep with (d' := g 0%nat) by (rewrite map_length, seq_length; auto). rewrite map_nth, seq_nth by auto. reflexivity. }
    rewrite M. apply sumR_map_ext. intros; ring.
  - exact X.
  - split; [exact U|]. rewrite V, Y. field. auto.
Qed.

Lemma mean_invariant : forall f, (0 < m)%nat -> (forall xs, length xs = m -> total xs (fun _ => 1) <> 0) ->
  D (fun xs => wown (hd x0 xs) * f (own i l ps (hd x0 xs))) -> D (fun xs => mean xs f) -> D (fun xs => wown (hd x0 xs) * mean xs f) ->
  sumR (map wsit (reps i l)) * E (fun xs => mean xs f) + E (fun xs => wown (hd x0 xs) * mean xs f) =
  sumR (map (fun j => wsit j * f (sit i l ps j)) (reps i l)) + E (fun xs => wown (hd x0 xs) * f (own i l ps (hd x0 xs))).
Proof.
  intros f Hm Ht D1 D2 D3. set (A := sumR (map wsit (reps i l))). set (B := sumR (map (fun j => wsit j * f (sit i l ps j)) (reps i l))).
  destruct (e_mean wown (fun xs => mean xs f) Hm (fun xs ys P => mean_perm xs ys f P) D3) as [Da Ea].
  destruct (e_scale _ A D2) as [Db Eb]. destruct (e_add _ _ Db Da) as [Dc Ec]. rewrite <- Ea, <- Eb. etransitivity; [symmetry; exact Ec|].
  destruct (e_mean (fun x => wown x * f (own i l ps x)) (fun _ => 1) Hm (fun _ _ _ => eq_refl)) as [Dd Ed].
  { destruct (iid_ext HE (fun xs => wown (hd x0 xs) * f (own i l ps (hd x0 xs))) (fun xs => wown (hd x0 xs) * f (own i l ps (hd x0 xs)) * 1)) as [X _]; [intros; lra|exact D1|exact X]. }
  assert (Ee : E (fun xs => wown (hd x0 xs) * f (own i l ps (hd x0 xs)) * 1) = E (fun xs => wown (hd x0 xs) * f (own i l ps (hd x0 xs)))).
  { apply (fun x => proj2 (iid_ext HE _ _ x D1)). intros; lra. }
  rewrite <- Ee, <- Ed. destruct (e_const B) as [De Ef]. rewrite <- Ef at 1. destruct (e_add _ _ De Dd) as [Dg Eg]. etransitivity; [|exact Eg].
  apply (iid_ext HE); [|exact Dg]. intros xs Hx.
  assert (T : forall g, total xs g = sumR (map (fun j => wsit j * g (sit i l ps j)) (reps i l)) + sumR (map (fun x => wown x / INR m * g (own i l ps x)) xs)).
  { intros g. unfold total8. now rewrite Hx. }
  assert (S1 : sumR (map (fun x => wown x / INR m * mean xs f) xs) = mean xs f * sumR (map (fun x => wown x / INR m * 1) xs)).
  { rewrite <- sumR_mult. apply sumR_map_ext. intros; ring. }
  rewrite S1. pose proof (Ht xs Hx) as N.
  assert (A1 : A = sumR (map (fun j => wsit j * 1) (reps i l))) by (apply sumR_map_ext; intros; ring).
  transitivity (mean xs f * total xs (fun _ => 1)); [|rewrite T, A1; ring].
  unfold mean8. transitivity (total xs f); [|field; exact N]. rewrite T. unfold B. f_equal. apply sumR_map_ext. intros x _. unfold Rdiv. ring.
Qed.
End Inv.
