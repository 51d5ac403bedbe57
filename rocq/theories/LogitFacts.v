(** * Logit stick-breaking: full conditional, gradient and acceptance ratio. *)
From Coq Require Import Bool List Arith ZArith Lia Reals Lra.
From Coquelicot Require Import Coquelicot.
From Verif Require Import Base XReal Mixings PartSpec MixFacts MixMore.
Import ListNotations.
Local Open Scope R_scope.
Arguments prodR l : simpl never.
Arguments sumR l : simpl never.

(** Log-likelihood of the allocations: the log-weight of its component for every
    observation. *)
Definition alloc_loglik (betas : list (list R)) (rows : list (list R)) (alloc : list nat) : R :=
  sumR (map (fun p => nth (snd p) (logit_weights true betas (fst p)) 0) (combine rows alloc)).

Lemma logit_go_shift : forall eta d e c, (c < length eta)%nat ->
  nth c (logit_go (d + e) eta) 0 = nth c (logit_go d eta) 0 + e.
Proof.
  induction eta as [|y t IH]; intros d e c Hc; simpl in *; [lia|].
  destruct c as [|c]; [lra|].
  replace (d + e + ln (sigmoid (- y))) with (d + ln (sigmoid (- y)) + e) by lra.
  apply IH. lia.
Qed.

Definition part (h c : nat) (z : R) : R :=
  if (h <=? c)%nat then
    let cur := if (c =? h)%nat then 1 else 0 in cur * ln (sigmoid z) + (1 - cur) * ln (1 - sigmoid z)
  else 0.

Lemma logit_go_change : forall eta d h c z z', (h < length eta)%nat -> (c < length eta)%nat ->
  nth c (logit_go d (upd eta h z)) 0 - nth c (logit_go d (upd eta h z')) 0 = part h c z - part h c z'.
Proof.
  induction eta as [|y t IH]; intros d h c z z' Hh Hc; simpl in Hh, Hc; [lia|].
  destruct h as [|h].
  - simpl upd. destruct c as [|c]; cbn [logit_go nth].
    + unfold part. simpl. lra.
    + rewrite !logit_go_shift by lia. unfold part. simpl. rewrite !sigmoid_neg. lra.
  - simpl upd. destruct c as [|c]; cbn [logit_go nth].
    + unfold part. simpl. lra.
    + rewrite IH by lia. unfold part. reflexivity.
Qed.

Lemma map_upd : forall A B (f : A -> B) l i x, map f (upd l i x) = upd (map f l) i (f x).
Proof. induction l as [|y l IH]; intros [|i] x; simpl; auto. f_equal. auto. Qed.
Lemma upd_app1 : forall A (l m : list A) i x, (i < length l)%nat -> upd (l ++ m) i x = upd l i x ++ m.
Proof. induction l as [|y l IH]; intros m [|i] x H; simpl in *; auto; try lia. f_equal. apply IH. lia. Qed.

Lemma logit_lpdf_sum : forall alpha h rows alloc q,
  logit_lpdf q alpha h rows alloc =
  -0.5 * q + sumR (map (fun p => part h (snd p) (dot (fst p) alpha)) (combine rows alloc)).
Proof.
  intros alpha h rows alloc q. unfold logit_lpdf. generalize (-0.5 * q) as c.
  induction (combine rows alloc) as [|[x a] l IH]; intros c; simpl.
  - unfold sumR. simpl. lra.
  - rewrite IH, sumR_cons. unfold part at 2. simpl. destruct (h <=? a)%nat; lra.
Qed.

(** The full conditional of the coefficients of component [h] is, up to a
    constant, prior times the likelihood of the allocations. *)
Lemma logit_full_cond : forall betas h a a' rows alloc, (h < length betas)%nat ->
  List.Forall (fun c => (c <= length betas)%nat) alloc ->
  alloc_loglik (upd betas h a) rows alloc - alloc_loglik (upd betas h a') rows alloc =
  logit_lpdf 0 a h rows alloc - logit_lpdf 0 a' h rows alloc.
Proof.
  intros betas h a a' rows alloc Hh Hc. rewrite !logit_lpdf_sum. unfold alloc_loglik.
  assert (Hc' : List.Forall (fun p => (snd p <= length betas)%nat) (combine rows alloc)).
  { clear -Hc. revert rows. induction Hc as [|c l Hc Hl IH]; intros [|x rows]; simpl; constructor; auto. }
  induction Hc' as [|[x c] l Hx Hl IH]; cbn [map]; [unfold sumR; simpl; lra|].
  rewrite !sumR_cons. cbn [fst snd] in *.
  assert (E : nth c (logit_weights true (upd betas h a) x) 0 - nth c (logit_weights true (upd betas h a') x) 0 =
              part h c (dot x a) - part h c (dot x a')).
  { unfold logit_weights. rewrite !map_upd.
    rewrite <- !upd_app1 by (rewrite map_length; auto).
    apply logit_go_change; rewrite app_length, map_length; simpl; lia. }
  lra.
Qed.

(** ** Gradient *)

Lemma ln_sigmoid_derive : forall z, is_derive (fun z => ln (sigmoid z)) z (1 - sigmoid z).
Proof.
  intros z. unfold sigmoid. pose proof (exp_pos (- z)) as He.
  auto_derive.
  - split; [lra|]. split; auto. apply Rdiv_lt_0_compat; lra.
  - field. lra.
Qed.
Lemma ln_compl_derive : forall z, is_derive (fun z => ln (1 - sigmoid z)) z (- sigmoid z).
Proof.
  intros z. unfold sigmoid. pose proof (exp_pos (- z)) as He.
  assert (H1 : 1 - 1 / (1 + exp (- z)) = exp (- z) / (1 + exp (- z))) by (field; lra).
  auto_derive.
  - split; [lra|]. split; auto.
    change (0 < 1 - 1 / (1 + exp (- z))). rewrite H1. apply Rdiv_lt_0_compat; lra.
  - field. split; lra.
Qed.

Lemma part_derive : forall h c z,
  is_derive (part h c) z (if (h <=? c)%nat then (if (c =? h)%nat then 1 else 0) - sigmoid z else 0).
Proof.
  intros h c z. unfold part. destruct (h <=? c)%nat; [|apply (is_derive_const (K := R_AbsRing) (V := R_NormedModule) 0)].
  destruct (c =? h)%nat.
  - apply (is_derive_ext (fun z => ln (sigmoid z))); [intros t; simpl; ring|]. apply ln_sigmoid_derive.
  - apply (is_derive_ext (fun z => ln (1 - sigmoid z))); [intros t; simpl; ring|].
    replace (0 - sigmoid z) with (- sigmoid z) by lra. apply ln_compl_derive.
Qed.

Lemma dot_upd : forall x alpha j u, (j < length alpha)%nat -> length x = length alpha ->
  dot x (upd alpha j (nth j alpha 0 + u)) = dot x alpha + u * nth j x 0.
Proof.
  unfold dot. induction x as [|y x IH]; intros [|a alpha] [|j] u Hj Hl; simpl in *; try lia; try discriminate.
  - lra.
  - rewrite IH by lia. lra.
Qed.

Lemma sum_derive : forall (A : Type) (F : A -> R -> R) (G : A -> R) (l : list A) z,
  (forall p, In p l -> is_derive (F p) z (G p)) ->
  is_derive (fun u => sumR (map (fun p => F p u) l)) z (sumR (map G l)).
Proof.
  intros A F G l z H. induction l as [|p l IH]; simpl.
  - unfold sumR. simpl. apply (is_derive_const (K := R_AbsRing) (V := R_NormedModule) 0).
  - apply (is_derive_ext (fun u => F p u + sumR (map (fun p => F p u) l))); [intros; reflexivity|].
    rewrite sumR_cons. apply (is_derive_plus (F p) (fun u => sumR (map (fun p => F p u) l))).
    + apply H. simpl; auto.
    + apply IH. intros q Hq. apply H. simpl; auto.
Qed.

Lemma logit_grad_sum : forall g0 j alpha h rows alloc,
  logit_grad g0 j alpha h rows alloc =
  g0 + sumR (map (fun p => (if (h <=? snd p)%nat then (if (snd p =? h)%nat then 1 else 0) - sigmoid (dot (fst p) alpha) else 0)
                           * nth j (fst p) 0) (combine rows alloc)).
Proof.
  intros g0 j alpha h rows alloc. unfold logit_grad. revert g0.
  induction (combine rows alloc) as [|[x a] l IH]; intros g0; simpl.
  - unfold sumR. simpl. lra.
  - rewrite IH, sumR_cons. simpl. destruct (h <=? a)%nat; lra.
Qed.

(** Quadratic form of the prior, with [prec] the rows of the precision matrix. *)
Definition matvec (m : list (list R)) (v : list R) : list R := map (fun row => dot row v) m.
Definition vsub (x y : list R) : list R := map (fun p => fst p - snd p) (combine x y).
Definition quad_form (m : list (list R)) (v : list R) : R := dot v (matvec m v).

Lemma dot_sum : forall x y, length x = length y ->
  dot x y = sumR (map (fun i => nth i x 0 * nth i y 0) (seq 0 (length x))).
Proof.
  unfold dot. induction x as [|a x IH]; intros [|b y] H; simpl in *; try discriminate; [reflexivity|].
  rewrite IH by lia. rewrite sumR_cons. f_equal. rewrite <- seq_shift, map_map. reflexivity.
Qed.

Lemma dot_comm : forall x y, dot x y = dot y x.
Proof. unfold dot. induction x as [|a x IH]; intros [|b y]; simpl; auto. rewrite IH. lra. Qed.

Lemma sumR_scal : forall A (f : A -> R) l c, c * sumR (map f l) = sumR (map (fun x => c * f x) l).
Proof. intros A f l c. induction l as [|x l IH]; simpl; [unfold sumR; simpl; lra|]. rewrite !sumR_cons, <- IH. lra. Qed.
Lemma sumR_plus : forall A (f g : A -> R) l, sumR (map f l) + sumR (map g l) = sumR (map (fun x => f x + g x) l).
Proof. intros A f g l. induction l as [|x l IH]; simpl; [unfold sumR; simpl; lra|]. rewrite !sumR_cons, <- IH. lra. Qed.
Lemma sumR_swap : forall A B (f : A -> B -> R) l m,
  sumR (map (fun x => sumR (map (fun y => f x y) m)) l) = sumR (map (fun y => sumR (map (fun x => f x y) l)) m).
Proof.
  intros A B f l m. induction l as [|x l IH]; simpl.
  - induction m as [|y m IHm]; simpl; auto. rewrite sumR_cons, <- IHm. unfold sumR. simpl. lra.
  - rewrite sumR_cons, IH, sumR_plus. f_equal.
Qed.

Lemma bilinear_sum : forall m x y, length x = length m -> (forall row, In row m -> length row = length y) ->
  length y = length m ->
  dot x (matvec m y) =
  sumR (map (fun i => sumR (map (fun j => nth i x 0 * (nth j (nth i m []) 0 * nth j y 0)) (seq 0 (length m)))) (seq 0 (length m))).
Proof.
  intros m x y Hx Hr Hy. rewrite dot_sum by (unfold matvec; rewrite map_length; auto). rewrite Hx.
  f_equal. apply map_ext_in. intros i Hi. apply in_seq in Hi. rewrite <- sumR_scal. f_equal.
  unfold matvec. rewrite nth_indep with (d' := (fun row => dot row y) []) by (rewrite map_length; lia).
  rewrite (map_nth (fun row => dot row y)). rewrite dot_sum.
  - rewrite (Hr (nth i m [])) by (apply nth_In; lia). rewrite Hy. auto.
  - apply Hr. apply nth_In. lia.
Qed.

Lemma bilinear_sym : forall m x y, length x = length m -> length y = length m ->
  (forall row, In row m -> length row = length m) ->
  (forall i j, nth j (nth i m []) 0 = nth i (nth j m []) 0) ->
  dot x (matvec m y) = dot y (matvec m x).
Proof.
  intros m x y Hx Hy Hr Hs.
  rewrite !bilinear_sum; auto; try (intros; rewrite Hr; auto).
  rewrite sumR_swap. f_equal. apply map_ext. intros i. f_equal. apply map_ext. intros j.
  rewrite (Hs j i). lra.
Qed.

Lemma vsub_upd : forall alpha mean j u, (j < length alpha)%nat -> length mean = length alpha ->
  vsub (upd alpha j (nth j alpha 0 + u)) mean = upd (vsub alpha mean) j (nth j (vsub alpha mean) 0 + u).
Proof.
  unfold vsub. induction alpha as [|a alpha IH]; intros [|b mean] [|j] u Hj Hl; simpl in *; try lia.
  - f_equal. lra.
  - f_equal. apply IH; lia.
Qed.

Definition unitv (d j : nat) : list R := map (fun i => if Nat.eqb i j then 1 else 0) (seq 0 d).

Lemma nth_seq_map : forall (f : nat -> R) d i, (i < d)%nat -> nth i (map f (seq 0 d)) 0 = f i.
Proof.
  intros f d i H. rewrite nth_indep with (d' := f 0%nat) by (rewrite map_length, seq_length; auto).
  rewrite map_nth. rewrite seq_nth by auto. f_equal.
Qed.

Lemma sum_delta : forall (f : nat -> R) d j, (j < d)%nat ->
  sumR (map (fun i => (if Nat.eqb i j then 1 else 0) * f i) (seq 0 d)) = f j.
Proof.
  intros f d j Hj.
  assert (G : forall s n, sumR (map (fun i => (if Nat.eqb i j then 1 else 0) * f i) (seq s n)) =
     if (s <=? j)%nat && (j <? s + n)%nat then f j else 0).
  { intros s n. revert s. induction n as [|n IH]; intros s; simpl.
    - unfold sumR. simpl. destruct (s <=? j)%nat eqn:E1; simpl; auto. destruct (j <? s + 0)%nat eqn:E2; auto.
      apply Nat.leb_le in E1. apply Nat.ltb_lt in E2. lia.
    - rewrite sumR_cons, IH. destruct (Nat.eqb_spec s j).
      + subst. replace (S j <=? j)%nat with false by (symmetry; apply Nat.leb_gt; lia).
        rewrite Nat.leb_refl. replace (j <? j + S n)%nat with true by (symmetry; apply Nat.ltb_lt; lia). simpl. lra.
      + replace (S s + n)%nat with (s + S n)%nat by lia.
        destruct (s <=? j)%nat eqn:E1, (S s <=? j)%nat eqn:E2; simpl; try lra.
        * apply Nat.leb_le in E1. apply Nat.leb_gt in E2. lia.
        * apply Nat.leb_gt in E1. apply Nat.leb_le in E2. lia. }
  rewrite G. simpl. replace (j <? d)%nat with true; auto. symmetry. apply Nat.ltb_lt. auto.
Qed.

Lemma dot_unit : forall v j, (j < length v)%nat -> dot (unitv (length v) j) v = nth j v 0.
Proof.
  intros v j Hj. assert (L : length (unitv (length v) j) = length v) by (unfold unitv; rewrite map_length, seq_length; auto).
  rewrite dot_sum by auto. rewrite L. rewrite <- (sum_delta (fun i => nth i v 0) (length v) j Hj).
  f_equal. apply map_ext_in. intros i Hi. apply in_seq in Hi. unfold unitv. rewrite nth_seq_map by lia. auto.
Qed.

Lemma quad_upd : forall m v j u, length v = length m -> (j < length m)%nat ->
  (forall row, In row m -> length row = length m) ->
  (forall i k, nth k (nth i m []) 0 = nth i (nth k m []) 0) ->
  quad_form m (upd v j (nth j v 0 + u)) =
  quad_form m v + 2 * u * nth j (matvec m v) 0 + u * u * nth j (nth j m []) 0.
Proof.
  intros m v j u Hv Hj Hr Hs. unfold quad_form.
  assert (Lm : forall w, length (matvec m w) = length m) by (intros; unfold matvec; apply map_length).
  assert (Lu : length (upd v j (nth j v 0 + u)) = length m) by (rewrite upd_length; auto).
  set (v' := upd v j (nth j v 0 + u)) in *.
  assert (E1 : forall w, length w = length m -> dot w v' = dot w v + u * nth j w 0).
  { intros w Hw. unfold v'. apply dot_upd; lia. }
  rewrite dot_comm, E1 by auto. rewrite (dot_comm (matvec m v') v).
  rewrite bilinear_sym by (auto; lia). rewrite dot_comm, E1 by auto. rewrite (dot_comm (matvec m v) v).
  assert (E2 : nth j (matvec m v') 0 = nth j (matvec m v) 0 + u * nth j (nth j m []) 0).
  { unfold matvec. rewrite !nth_indep with (d := 0) (d' := (fun row => dot row v') []) by (rewrite map_length; lia).
    rewrite (map_nth (fun row => dot row v')).
    rewrite nth_indep with (d' := (fun row => dot row v) []) by (rewrite map_length; lia).
    rewrite (map_nth (fun row => dot row v)). apply E1. apply Hr. apply nth_In. auto. }
  rewrite E2. ring.
Qed.

Lemma logit_gradient : forall m mean alpha j h rows alloc,
  length alpha = length m -> length mean = length m -> (j < length m)%nat ->
  (forall row, In row m -> length row = length m) ->
  (forall i k, nth k (nth i m []) 0 = nth i (nth k m []) 0) ->
  (forall x, In x rows -> length x = length m) ->
  is_derive (fun u => let a' := upd alpha j (nth j alpha 0 + u) in
                      logit_lpdf (quad_form m (vsub a' mean)) a' h rows alloc) 0
            (logit_grad (nth j (matvec m (vsub mean alpha)) 0) j alpha h rows alloc).
Proof.
  intros m mean alpha j h rows alloc Ha Hm Hj Hr Hs Hx.
  set (v := vsub alpha mean).
  assert (Lv : length v = length m).
  { unfold v, vsub. rewrite map_length, combine_length. lia. }
  apply (is_derive_ext (fun u => (-0.5 * (quad_form m v + 2 * u * nth j (matvec m v) 0 + u * u * nth j (nth j m []) 0))
     + sumR (map (fun p => part h (snd p) (dot (fst p) alpha + u * nth j (fst p) 0)) (combine rows alloc)))).
  { intros u. cbv zeta. rewrite logit_lpdf_sum. rewrite vsub_upd by lia. fold v. rewrite quad_upd by auto.
    f_equal. f_equal. apply map_ext_in. intros [x c] Hin. apply in_combine_l in Hin. cbn [fst snd].
    rewrite dot_upd by (try rewrite (Hx x Hin); lia). auto. }
  rewrite logit_grad_sum.
  apply (is_derive_plus (fun u => -0.5 * (quad_form m v + 2 * u * nth j (matvec m v) 0 + u * u * nth j (nth j m []) 0))
           (fun u => sumR (map (fun p => part h (snd p) (dot (fst p) alpha + u * nth j (fst p) 0)) (combine rows alloc)))).
  - assert (E : nth j (matvec m (vsub mean alpha)) 0 = - nth j (matvec m v) 0).
    { unfold matvec, v.
      rewrite !nth_indep with (d := 0) (d' := (fun row => dot row (vsub mean alpha)) []) by (rewrite map_length; lia).
      rewrite (map_nth (fun row => dot row (vsub mean alpha))).
      rewrite nth_indep with (d' := (fun row => dot row (vsub alpha mean)) []) by (rewrite map_length; lia).
      rewrite (map_nth (fun row => dot row (vsub alpha mean))).
      clear. generalize (nth j m []) as row. unfold dot, vsub. revert mean.
      induction alpha as [|a alpha IH]; intros [|b mean] [|r row]; simpl; try lra. rewrite IH. lra. }
    rewrite E. auto_derive; auto. change ((-0.5 * (2 * 1 * nth j (matvec m v) 0 + (1 * 0 + 0 * 1) * nth j (nth j m []) 0)) = - nth j (matvec m v) 0) || idtac.
    lra.
  - apply (sum_derive _ (fun p u => part h (snd p) (dot (fst p) alpha + u * nth j (fst p) 0))).
    intros [x c] _. cbn [fst snd].
    pose proof (part_derive h c (dot x alpha + 0 * nth j x 0)) as P.
    assert (E0 : dot x alpha + 0 * nth j x 0 = dot x alpha) by lra. 
    assert (L : is_derive (fun u => dot x alpha + u * nth j x 0) 0 (nth j x 0)) by (auto_derive; auto; lra).
    pose proof (is_derive_comp (part h c) (fun u => dot x alpha + u * nth j x 0) 0 _ _ P L) as C.
    rewrite E0 in C. rewrite Rmult_comm. exact C.
Qed.

(** ** The acceptance ratio *)

(** Log-density, up to a constant, of the Gaussian proposal from [b]. *)
Definition log_q (gr : R -> R) (step b b' : R) : R :=
  - (b' - (b + step * gr b)) ^ 2 / (2 * sqrt (2 * step)).

Lemma logit_accept : forall fc gr step b b', 0 < step ->
  (logit_log_accept fc gr step b b' =
     (fc b' + log_q gr step b' b) - (fc b + log_q gr step b b') <->
   (b - (b + step * gr b)) ^ 2 = (b - (b' + step * gr b')) ^ 2).
Proof.
  intros fc gr step b b' Hs. unfold logit_log_accept, log_q.
  assert (Hq : 0 < sqrt (2 * step)) by (apply sqrt_lt_R0; lra).
  set (q := sqrt (2 * step)) in *. cbv zeta.
  set (m := b + step * gr b). set (m' := b' + step * gr b'). clearbody m m' q.
  assert (E1 : -0.5 / q * ((b' - m) * (b' - m) - (b - m) * (b - m)) = ((b - m) ^ 2 - (b' - m) ^ 2) / (2 * q)).
  { replace (-0.5) with (- / 2) by lra. field. lra. }
  rewrite E1.
  assert (E2 : forall x, - x / (2 * q) = - (x / (2 * q))) by (intros; field; lra).
  rewrite !E2.
  assert (E3 : ((b - m) ^ 2 - (b' - m) ^ 2) / (2 * q) = (b - m) ^ 2 / (2 * q) - (b' - m) ^ 2 / (2 * q)) by (field; lra).
  rewrite E3. split; intros H.
  - assert (D : (b - m) ^ 2 / (2 * q) = (b - m') ^ 2 / (2 * q)) by lra.
    apply Rmult_eq_reg_r with (/ (2 * q)); auto. apply Rinv_neq_0_compat. lra.
  - rewrite H. lra.
Qed.
