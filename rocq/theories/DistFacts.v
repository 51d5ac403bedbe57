(** * Facts about the distance between univariate Gaussian mixtures. *)
From Coq Require Import String.
From Coq Require Import Bool List Arith ZArith Reals Lra Lia Psatz Permutation.
From Coquelicot Require Import Coquelicot.
From Verif Require Import Base Mixings PartSpec MixFacts Univ UnivFacts GaussInt Dist.
Import ListNotations.
Local Open Scope R_scope.

(** ** Specification *)

(** Components of a mixture. *)
Record comp : Type := mkComp { c_mean : R; c_var : R; c_w : R }.
Definition as_mix (cs : list comp) : gmix := mkMix (map c_mean cs) (map c_var cs) (map c_w cs).
(** The density of the mixture. *)
Definition mix_pdf (cs : list comp) (x : R) : R := sumR (map (fun c => c_w c * gauss (c_mean c) (c_var c) x) cs).
Definition good (cs : list comp) : Prop := List.Forall (fun c => 0 < c_var c) cs.

(** ** The integral *)
Definition ov (cs ds : list comp) : R :=
  sumR (map (fun c => sumR (map (fun d => c_w c * c_w d * gauss (c_mean d) (c_var c + c_var d) (c_mean c)) ds)) cs).

Lemma gauss_prod : forall m1 v1 m2 v2 x, 0 < v1 -> 0 < v2 ->
  gauss m1 v1 x * gauss m2 v2 x =
  gauss m2 (v1 + v2) m1 * gauss ((m1 * v2 + m2 * v1) / (v1 + v2)) (v1 * v2 / (v1 + v2)) x.
Proof.
  intros m1 v1 m2 v2 x H1 H2. unfold gauss. pose proof PI_RGT_0 as Hpi.
  assert (Hq : sqrt (2 * PI * v1) * sqrt (2 * PI * v2) =
               sqrt (2 * PI * (v1 + v2)) * sqrt (2 * PI * (v1 * v2 / (v1 + v2)))).
  { rewrite <- !sqrt_mult_alt by nra. f_equal. field. lra. }
  assert (P : forall v, 0 < v -> 0 < sqrt (2 * PI * v)) by (intros; apply sqrt_lt_R0; nra).
  assert (0 < v1 * v2 / (v1 + v2)) by (apply Rdiv_lt_0_compat; nra).
  assert (0 < v1 + v2) by lra.
  pose proof (P _ H1). pose proof (P _ H2). pose proof (P (v1 + v2) ltac:(lra)). pose proof (P _ H).
  unfold Rdiv at 1 3 5 8.
  transitivity (exp (- ((x - m1) * (x - m1) / (2 * v1))) * exp (- ((x - m2) * (x - m2) / (2 * v2)))
                * / (sqrt (2 * PI * v1) * sqrt (2 * PI * v2))).
  { field. split; lra. }
  rewrite Hq, <- exp_plus.
  replace (- ((x - m1) * (x - m1) / (2 * v1)) + - ((x - m2) * (x - m2) / (2 * v2)))
    with (- ((m1 - m2) * (m1 - m2) / (2 * (v1 + v2))) +
          - ((x - (m1 * v2 + m2 * v1) / (v1 + v2)) * (x - (m1 * v2 + m2 * v1) / (v1 + v2)) / (2 * (v1 * v2 / (v1 + v2))))).
  2:{ field. repeat split; lra. }
  rewrite exp_plus.
  set (s1 := sqrt (2 * PI * (v1 + v2))) in *. set (s2 := sqrt (2 * PI * (v1 * v2 / (v1 + v2)))) in *.
  set (e1 := exp (- ((m1 - m2) * _ / _))). set (e2 := exp _). unfold Rdiv. rewrite Rinv_mult by lra. ring.
Qed.

Lemma sR0 : sumR [] = 0.
Proof. reflexivity. Qed.
Lemma sRc : forall x l, sumR (x :: l) = x + sumR l.
Proof. reflexivity. Qed.

Lemma line_plus : forall f g a b, is_line_int f a -> is_line_int g b -> is_line_int (fun x => f x + g x) (a + b).
Proof. intros f g a b Hf Hg. apply (is_RInt_gen_plus f g a b Hf Hg). Qed.
Lemma line_scal : forall f c a, is_line_int f a -> is_line_int (fun x => c * f x) (c * a).
Proof. intros f c a Hf. apply (is_RInt_gen_scal f c a Hf). Qed.
Lemma line_ext : forall f g a, (forall x, f x = g x) -> is_line_int f a -> is_line_int g a.
Proof.
  intros f g a E Hf. unfold is_line_int. apply (is_RInt_gen_ext f); [|exact Hf].
  apply filter_forall. intros ab x _. apply E.
Qed.
Lemma line_zero : is_line_int (fun _ => 0) 0.
Proof.
  apply (line_ext (fun x => 0 * gauss 0 1 x)); [intros; ring|].
  pose proof (line_scal (gauss 0 1) 0 1 (gauss_mass 0 1 Rlt_0_1)) as H. rewrite Rmult_0_l in H. exact H.
Qed.
Lemma line_sum : forall A (f : A -> R -> R) (l : A -> R) xs, (forall a, In a xs -> is_line_int (f a) (l a)) ->
  is_line_int (fun x => sumR (map (fun a => f a x) xs)) (sumR (map l xs)).
Proof.
  intros A f l xs. induction xs as [|a xs IH]; intros H; cbn [map]; [rewrite sR0|rewrite sRc]; [apply line_zero|].
  apply (line_ext (fun x => f a x + sumR (map (fun a => f a x) xs))); [intros; reflexivity|].
  apply line_plus; [apply H; left; reflexivity|]. apply IH. intros b Hb. apply H. right; exact Hb.
Qed.

Lemma line_overlap : forall m1 v1 m2 v2, 0 < v1 -> 0 < v2 ->
  is_line_int (fun x => gauss m1 v1 x * gauss m2 v2 x) (gauss m2 (v1 + v2) m1).
Proof.
  intros m1 v1 m2 v2 H1 H2. eapply line_ext; [intros x; symmetry; apply gauss_prod; assumption|].
  assert (Hv : 0 < v1 * v2 / (v1 + v2)) by (apply Rdiv_lt_0_compat; nra).
  pose proof (line_scal _ (gauss m2 (v1 + v2) m1) 1 (gauss_mass ((m1 * v2 + m2 * v1) / (v1 + v2)) _ Hv)) as H.
  rewrite Rmult_1_r in H. exact H.
Qed.

Lemma sum_mult : forall A B (f : A -> R) (g : B -> R) xs ys,
  sumR (map f xs) * sumR (map g ys) = sumR (map (fun a => sumR (map (fun b => f a * g b) ys)) xs).
Proof.
  intros A B f g xs ys. induction xs as [|a xs IH]; cbn [map]; rewrite ?sR0, ?sRc; [ring|].
  rewrite Rmult_plus_distr_r, IH. f_equal. clear IH.
  induction ys as [|b ys IH]; cbn [map]; rewrite ?sR0, ?sRc; [ring|]. rewrite <- IH. ring.
Qed.

Lemma line_mix : forall cs ds, good cs -> good ds -> is_line_int (fun x => mix_pdf cs x * mix_pdf ds x) (ov cs ds).
Proof.
  intros cs ds Hc Hd. unfold mix_pdf, ov. unfold good in Hc, Hd. rewrite Forall_forall in Hc, Hd.
  eapply line_ext; [intros x; symmetry; apply sum_mult|].
  apply line_sum. intros c Ic. apply line_sum. intros d Id.
  apply (line_ext (fun x => c_w c * c_w d * (gauss (c_mean c) (c_var c) x * gauss (c_mean d) (c_var d) x))); [intros; ring|].
  apply line_scal, line_overlap; auto.
Qed.

Lemma line_dist : forall cs ds, good cs -> good ds ->
  is_line_int (fun x => (mix_pdf cs x - mix_pdf ds x) ^ 2) (ov cs cs + ov ds ds - 2 * ov cs ds).
Proof.
  intros cs ds Hc Hd.
  apply (line_ext (fun x => mix_pdf cs x * mix_pdf cs x + mix_pdf ds x * mix_pdf ds x + - (2) * (mix_pdf cs x * mix_pdf ds x))).
  { intros x. ring. }
  replace (ov cs cs + ov ds ds - 2 * ov cs ds) with (ov cs cs + ov ds ds + - (2) * ov cs ds) by ring.
  apply line_plus; [apply line_plus|apply line_scal]; apply line_mix; assumption.
Qed.

Lemma line_mass : forall cs, good cs -> is_line_int (mix_pdf cs) (sumR (map c_w cs)).
Proof.
  intros cs Hc. unfold mix_pdf. unfold good in Hc. rewrite Forall_forall in Hc. apply line_sum. intros c Ic.
  pose proof (line_scal _ (c_w c) 1 (gauss_mass (c_mean c) (c_var c) (Hc c Ic))) as H.
  rewrite Rmult_1_r in H. exact H.
Qed.

Lemma line_unique : forall f a b, is_line_int f a -> is_line_int f b -> a = b.
Proof.
  intros f a b Ha Hb. unfold is_line_int in *. 
  rewrite <- (is_RInt_gen_unique f a Ha). apply is_RInt_gen_unique, Hb.
Qed.

Lemma line_nonneg : forall f a, (forall x, 0 <= f x) -> is_line_int f a -> 0 <= a.
Proof.
  intros f a Hf Ha. destruct (Rle_or_lt 0 a) as [|Hn]; [assumption|exfalso].
  assert (Hp : 0 < - a) by lra.
  destruct (Ha (fun y => y < 0)) as [Q1 Q2 H1 H2 HQ].
  { exists (mkposreal (- a) Hp). intros y Hy. unfold ball in Hy; simpl in Hy; unfold AbsRing_ball, abs, minus, plus, opp in Hy; simpl in Hy.
    apply Rabs_def2 in Hy. lra. }
  destruct H1 as (M1 & H1). destruct H2 as (M2 & H2).
  destruct (HQ (Rmin M1 0 - 1) (Rmax M2 0 + 1)) as (y & Hy & Hlt).
  - apply H1. pose proof (Rmin_l M1 0). lra.
  - apply H2. pose proof (Rmax_l M2 0). lra.
  - simpl in Hy. pose proof (Rmin_r M1 0). pose proof (Rmax_r M2 0).
    apply is_RInt_ge_0 in Hy; [lra|lra|]. intros x _. apply Hf.
Qed.

(** ** What the code computes *)
Definition kern (m1 m2 s : R) : R := gauss m2 (s * s) m1.

Lemma kern_term : forall m1 m2 s, 0 < s -> overlap_term m1 m2 s = Ok (kern m1 m2 s).
Proof.
  intros m1 m2 s Hs. unfold overlap_term. rewrite (proj2 (lteb_false s 0)) by lra. f_equal.
  unfold kern, gauss, normal_lpdf. pose proof PI_RGT_0 as Hpi.
  rewrite sqrt_mult_alt by lra. rewrite sqrt_square by lra.
  assert (0 < sqrt (2 * PI)) by (apply sqrt_lt_R0; lra).
  replace (ln (2 * PI) / 2) with (ln (sqrt (2 * PI))).
  2:{ rewrite <- (sqrt_sqrt (2 * PI)) at 2 by lra. rewrite ln_mult by assumption. field. }
  unfold Rminus. rewrite !exp_plus, !exp_Ropp, !exp_ln by assumption. unfold Rdiv at 4. rewrite Rinv_mult by lra.
  rewrite <- exp_Ropp.
  replace (- ((m1 + - m2) / s) * ((m1 + - m2) / s) / 2) with (- ((m1 + - m2) * (m1 + - m2) / (2 * (s * s)))) by (field; lra).
  ring.
Qed.
Lemma kern_fail : forall m1 m2 s, s <= 0 -> overlap_term m1 m2 s = Abort.
Proof. intros m1 m2 s Hs. unfold overlap_term. rewrite (proj2 (lteb_true s 0)) by lra. reflexivity. Qed.

Lemma rfold_seq : forall A (f : R -> nat -> res R) (h : A -> R) l,
  (forall pre d suf acc, l = pre ++ d :: suf -> f acc (length pre) = Ok (acc + h d)) ->
  forall acc, rfold f (seq 0 (length l)) acc = Ok (acc + sumR (map h l)).
Proof.
  intros A f h l H.
  assert (G : forall suf pre acc, l = pre ++ suf -> rfold f (seq (length pre) (length suf)) acc = Ok (acc + sumR (map h suf))).
  { induction suf as [|d suf IH]; intros pre acc E; cbn [length seq rfold map].
    - rewrite sR0. f_equal. ring.
    - rewrite (H pre d suf acc E). cbn [rbind]. rewrite sRc.
      replace (S (length pre)) with (length (pre ++ [d])) by (rewrite app_length; cbn [length]; lia).
      rewrite IH; [f_equal; ring|]. rewrite <- app_assoc. exact E. }
  intros acc. apply (G l []). reflexivity.
Qed.

Lemma at_split : forall A B (g : A -> B) pre d suf, at_ (map g (pre ++ d :: suf)) (length pre) = Ok (g d).
Proof.
  intros. unfold at_. rewrite nth_error_map, nth_error_app2, Nat.sub_diag by lia. reflexivity.
Qed.

Definition kov (cs ds : list comp) : R :=
  sumR (map (fun c => sumR (map (fun d => c_w c * c_w d * kern (c_mean c) (c_mean d) (c_var c + c_var d)) ds)) cs).

Lemma cross_ok : forall cs ds, good cs -> good ds -> cross (as_mix cs) (as_mix ds) = Ok (kov cs ds).
Proof.
  intros cs ds Hc Hd. unfold good in *. rewrite Forall_forall in Hc, Hd. unfold cross, kov. cbn [as_mix mx_means mx_vars mx_ws].
  rewrite !map_length.
  rewrite (@rfold_seq comp _ (fun c => sumR (map (fun d => c_w c * c_w d * kern (c_mean c) (c_mean d) (c_var c + c_var d)) ds)) cs).
  { f_equal. ring. }
  intros pre c suf acc E.
  apply (@rfold_seq comp _ (fun d => c_w c * c_w d * kern (c_mean c) (c_mean d) (c_var c + c_var d)) ds).
  intros pre' d suf' acc' E'. rewrite E, E', !at_split. cbn [rbind].
  rewrite kern_term; [reflexivity|].
  assert (0 < c_var c) by (apply Hc; rewrite E; apply in_elt). assert (0 < c_var d) by (apply Hd; rewrite E'; apply in_elt). lra.
Qed.

Lemma mixture_dist_ok : forall cs ds, good cs -> good ds ->
  mixture_dist (as_mix cs) (as_mix ds) = Ok (kov cs cs + kov ds ds - 2 * kov cs ds).
Proof. intros cs ds Hc Hd. unfold mixture_dist. rewrite !cross_ok by assumption. reflexivity. Qed.

(** ** Consequences *)
Lemma gauss_sym : forall m1 m2 v, gauss m1 v m2 = gauss m2 v m1.
Proof. intros. unfold gauss. do 2 f_equal. f_equal. unfold Rdiv. ring. Qed.
Lemma kern_sym : forall m1 m2 s, kern m1 m2 s = kern m2 m1 s.
Proof. intros. apply gauss_sym. Qed.

Lemma ln_gauss : forall m v x, 0 < v -> ln (gauss m v x) = - ((x - m) * (x - m) / (2 * v)) - ln (2 * PI) / 2 - ln v / 2.
Proof.
  intros m v x Hv. pose proof PI_RGT_0. unfold gauss, Rdiv at 1.
  assert (0 < sqrt (2 * PI * v)) by (apply sqrt_lt_R0; nra).
  rewrite ln_mult, ln_exp, ln_Rinv by (try apply exp_pos; try apply Rinv_0_lt_compat; assumption).
  assert (Hl : 2 * ln (sqrt (2 * PI * v)) = ln (2 * PI) + ln v).
  { rewrite <- ln_mult by lra. rewrite <- (sqrt_sqrt (2 * PI * v)) at 2 by nra. rewrite ln_mult by assumption. ring. }
  lra.
Qed.
Lemma gauss_pos : forall m v x, 0 < v -> 0 < gauss m v x.
Proof.
  intros m v x Hv. pose proof PI_RGT_0. unfold gauss. apply Rdiv_lt_0_compat; [apply exp_pos|].
  apply sqrt_lt_R0. nra.
Qed.

Lemma overlap_iff : forall m1 v1 m2 v2 t, 0 < v1 -> 0 < v2 -> overlap_term m1 m2 (v1 + v2) = Ok t ->
  let s := v1 + v2 in
  (is_line_int (fun x => gauss m1 v1 x * gauss m2 v2 x) t <->
   s = 1 \/ (m1 - m2) * (m1 - m2) = s * s * ln s / (s - 1)).
Proof.
  intros m1 v1 m2 v2 t H1 H2 Ht s. assert (Hs : 0 < s) by (unfold s; lra).
  fold s in Ht. rewrite kern_term in Ht by exact Hs. injection Ht as <-.
  transitivity (kern m1 m2 s = gauss m2 s m1).
  { split; intros H.
    - eapply line_unique; [exact H|apply line_overlap; assumption].
    - rewrite H. apply line_overlap; assumption. }
  transitivity (ln (kern m1 m2 s) = ln (gauss m2 s m1)).
  { split; intros H; [rewrite H; reflexivity|].
    apply ln_inv; [apply gauss_pos; nra|apply gauss_pos; lra|exact H]. }
  unfold kern. rewrite !ln_gauss by nra. rewrite (ln_mult s s) by lra.
  set (d := (m1 - m2) * (m1 - m2)). set (L := ln s).
  transitivity (d * (s - 1) = s * s * L).
  { split; intros H.
    - apply (f_equal (Rmult (2 * (s * s)))) in H. field_simplify in H; [|lra|lra]. lra.
    - apply (Rmult_eq_reg_l (2 * (s * s))); [|nra]. field_simplify; [|lra|lra]. lra. }
  split.
  - intros H. destruct (Req_dec s 1) as [->|Hn]; [left; reflexivity|right]. 
    apply (Rmult_eq_reg_r (s - 1)); [|lra]. rewrite H. field. lra.
  - intros [E|E].
    + unfold L. rewrite E, ln_1. ring.
    + destruct (Req_dec s 1) as [E1|Hn]; [unfold L; rewrite E1, ln_1; ring|]. rewrite E. field. lra.
Qed.

Lemma kov_half : forall cs ds, (forall c, In c cs -> c_var c = / 2) -> (forall c, In c ds -> c_var c = / 2) -> kov cs ds = ov cs ds.
Proof.
  intros cs ds Hc Hd. unfold kov, ov. f_equal. apply map_ext_in. intros c Ic. f_equal. apply map_ext_in. intros d Id.
  unfold kern. rewrite (Hc c Ic), (Hd d Id). do 2 f_equal. field.
Qed.

Lemma dist_half : forall cs ds, (forall c, In c (cs ++ ds) -> c_var c = / 2) ->
  exists D, is_line_int (fun x => (mix_pdf cs x - mix_pdf ds x) ^ 2) D /\
            mixture_dist (as_mix cs) (as_mix ds) = Ok D.
Proof.
  intros cs ds H. exists (ov cs cs + ov ds ds - 2 * ov cs ds).
  assert (Hc : forall c, In c cs -> c_var c = / 2) by (intros; apply H, in_or_app; auto).
  assert (Hd : forall c, In c ds -> c_var c = / 2) by (intros; apply H, in_or_app; auto).
  assert (good cs). { apply Forall_forall. intros c Ic. rewrite (Hc c Ic). lra. }
  assert (good ds). { apply Forall_forall. intros c Ic. rewrite (Hd c Ic). lra. }
  split; [apply line_dist; assumption|]. rewrite mixture_dist_ok, !kov_half by assumption. reflexivity.
Qed.

Lemma kov_sym : forall cs ds, kov cs ds = kov ds cs.
Proof.
  assert (S1 : forall A B (f : A -> B -> R) xs ys,
    sumR (map (fun a => sumR (map (fun b => f a b) ys)) xs) = sumR (map (fun b => sumR (map (fun a => f a b) xs)) ys)).
  { intros A B f xs ys. induction xs as [|a xs IH].
    - cbn [map]. rewrite sR0. induction ys as [|b ys IH]; cbn [map]; rewrite ?sR0, ?sRc; [reflexivity|]. rewrite <- IH. ring.
    - cbn [map]. rewrite sRc, IH. clear IH. induction ys as [|b ys IH]; cbn [map]; rewrite ?sR0, ?sRc; [ring|].
      rewrite <- IH. ring. }
  intros cs ds. unfold kov. rewrite S1. f_equal. apply map_ext. intros d. f_equal. apply map_ext. intros c.
  rewrite kern_sym. replace (c_var c + c_var d) with (c_var d + c_var c) by ring. ring.
Qed.

Lemma dist_self : forall cs, good cs -> mixture_dist (as_mix cs) (as_mix cs) = Ok 0.
Proof. intros cs H. rewrite mixture_dist_ok by assumption. f_equal. ring. Qed.
Lemma dist_sym : forall cs ds, good cs -> good ds -> mixture_dist (as_mix cs) (as_mix ds) = mixture_dist (as_mix ds) (as_mix cs).
Proof. intros cs ds Hc Hd. rewrite !mixture_dist_ok by assumption. rewrite (kov_sym ds cs). f_equal. ring. Qed.

Lemma sumR_perm : forall l l', Permutation l l' -> sumR l = sumR l'.
Proof. intros l l' H. induction H; rewrite ?sRc; try congruence; rewrite ?sRc; try lra. Qed.
Lemma kov_perm : forall cs cs' ds, Permutation cs cs' -> kov cs ds = kov cs' ds.
Proof. intros cs cs' ds H. unfold kov. apply sumR_perm, Permutation_map, H. Qed.
Lemma dist_perm : forall cs cs' ds, good cs -> good ds -> Permutation cs cs' ->
  mixture_dist (as_mix cs') (as_mix ds) = mixture_dist (as_mix cs) (as_mix ds).
Proof.
  intros cs cs' ds Hc Hd H. assert (good cs') by (unfold good; rewrite <- H; exact Hc).
  rewrite !mixture_dist_ok by assumption. f_equal.
  rewrite <- (kov_perm cs cs' ds H), <- (kov_perm cs cs' cs' H), (kov_sym cs cs'), <- (kov_perm cs cs' cs H). reflexivity.
Qed.

(** ** The computed distance can be negative. *)
Definition two_humps : list comp := [mkComp (- (3 / 2)) 1 (1 / 2); mkComp (3 / 2) 1 (1 / 2)].
Definition one_hump : list comp := [mkComp 0 2 1].

Lemma exp_powR : forall x n, exp x ^ n = exp (INR n * x).
Proof.
  intros x. induction n as [|n IH]; [simpl; rewrite Rmult_0_l, exp_0; reflexivity|].
  rewrite S_INR. cbn [pow]. rewrite IH, <- exp_plus. f_equal. ring.
Qed.
Lemma exp_98 : exp (- (9 / 8)) < 1 / 3.
Proof.
  assert (H : 1 + 9 / 256 <= exp (9 / 256)) by (left; apply exp_ineq1; lra).
  assert (H32 : (1 + 9 / 256) ^ 32 <= exp (9 / 256) ^ 32) by (apply pow_incr; lra).
  assert (E : exp (9 / 256) ^ 32 = exp (9 / 8)).
  { rewrite exp_powR, INR_IZR_INZ. f_equal. simpl Z.of_nat. lra. }
  assert (3 < exp (9 / 8)) by lra.
  rewrite exp_Ropp. unfold Rdiv at 2. rewrite Rmult_1_l. apply Rinv_lt_contravar; lra.
Qed.

Lemma kern_at : forall m1 m2 s e, 0 < s -> (m1 - m2) * (m1 - m2) / (2 * (s * s)) = e ->
  kern m1 m2 s = exp (- e) / (sqrt (2 * PI) * s).
Proof.
  intros m1 m2 s e Hs <-. unfold kern, gauss. pose proof PI_RGT_0.
  rewrite (sqrt_mult_alt (2 * PI)) by lra. rewrite sqrt_square by lra. reflexivity.
Qed.

Lemma dist_negative : exists d, mixture_dist (as_mix two_humps) (as_mix one_hump) = Ok d /\ d < 0.
Proof.
  rewrite mixture_dist_ok by (repeat constructor; simpl; lra).
  eexists. split; [reflexivity|].
  unfold kov, two_humps, one_hump. cbn [map c_mean c_var c_w]. rewrite !sRc, !sR0.
  pose proof PI_RGT_0 as Hpi. assert (Hq : 0 < sqrt (2 * PI)) by (apply sqrt_lt_R0; lra).
  rewrite (kern_at (- (3 / 2)) (- (3 / 2)) (1 + 1) 0), (kern_at (3 / 2) (3 / 2) (1 + 1) 0), (kern_at 0 0 (2 + 2) 0),
    (kern_at (- (3 / 2)) (3 / 2) (1 + 1) (9 / 8)), (kern_at (3 / 2) (- (3 / 2)) (1 + 1) (9 / 8)),
    (kern_at (- (3 / 2)) 0 (1 + 2) (1 / 8)), (kern_at (3 / 2) 0 (1 + 2) (1 / 8)) by (try lra; field).
  rewrite Ropp_0, exp_0. set (q := sqrt (2 * PI)) in *.
  pose proof exp_98 as E9.
  assert (E1 : 7 / 8 <= exp (- (1 / 8))). { left. pose proof (exp_ineq1 (- (1 / 8)) ltac:(lra)). lra. }
  set (x := exp (- (9 / 8))) in *. set (y := exp (- (1 / 8))) in *.
  apply (Rmult_lt_reg_l q); [exact Hq|]. rewrite Rmult_0_r. field_simplify; [|lra]. lra.
Qed.

(** ** Termination of the program *)
Definition okab (r : res R) : Prop := (exists a, r = Ok a) \/ r = Abort.

Lemma rfold_okab : forall (f : R -> nat -> res R) l, (forall i acc, In i l -> okab (f acc i)) ->
  forall acc, okab (rfold f l acc).
Proof.
  intros f l. induction l as [|i l IH]; intros H acc; cbn [rfold]; [left; eexists; reflexivity|].
  destruct (H i acc (or_introl eq_refl)) as [(a & ->)| ->]; cbn [rbind]; [|right; reflexivity].
  apply IH. intros j acc' Hj. apply H. right; exact Hj.
Qed.
Lemma rfold_abort : forall (f : R -> nat -> res R) l k, In k l -> (forall acc, f acc k = Abort) ->
  (forall i acc, In i l -> okab (f acc i)) -> forall acc, rfold f l acc = Abort.
Proof.
  intros f l k. induction l as [|i l IH]; intros Hk Hf H acc; [contradiction|]. cbn [rfold].
  destruct (H i acc (or_introl eq_refl)) as [(a & E)|E]; rewrite E; cbn [rbind]; [|reflexivity].
  destruct Hk as [->|Hk]; [rewrite Hf in E; discriminate|].
  apply IH; [exact Hk|exact Hf|]. intros j acc' Hj. apply H. right; exact Hj.
Qed.

Lemma at_map : forall A B (g : A -> B) l i a, nth_error l i = Some a -> at_ (map g l) i = Ok (g a).
Proof. intros A B g l i a H. unfold at_. rewrite nth_error_map, H. reflexivity. Qed.
Lemma in_seq_nth : forall A (l : list A) i, In i (seq 0 (length l)) -> exists a, nth_error l i = Some a /\ In a l.
Proof.
  intros A l i H. apply in_seq in H. destruct (nth_error l i) eqn:E.
  - exists a. split; [reflexivity|]. eapply nth_error_In; exact E.
  - apply nth_error_None in E. lia.
Qed.

Lemma cross_okab : forall cs ds, okab (cross (as_mix cs) (as_mix ds)).
Proof.
  intros cs ds. unfold cross. cbn [as_mix mx_means mx_vars mx_ws]. rewrite !map_length.
  apply rfold_okab. intros i acc Hi. apply rfold_okab. intros j acc' Hj.
  destruct (in_seq_nth _ _ _ Hi) as (c & Ec & _). destruct (in_seq_nth _ _ _ Hj) as (d & Ed & _).
  rewrite !(at_map _ _ _ _ _ _ Ec), !(at_map _ _ _ _ _ _ Ed). cbn [rbind].
  unfold overlap_term. destruct (lteb (c_var c + c_var d) 0); cbn [rbind]; [right; reflexivity|left; eexists; reflexivity].
Qed.
Lemma cross_abort : forall cs c, In c cs -> c_var c <= 0 -> cross (as_mix cs) (as_mix cs) = Abort.
Proof.
  intros cs c Hc Hv. apply In_nth_error in Hc. destruct Hc as (k & Ek).
  assert (Hk : In k (seq 0 (length cs))).
  { apply in_seq. split; [lia|]. apply nth_error_Some. rewrite Ek. discriminate. }
  unfold cross. cbn [as_mix mx_means mx_vars mx_ws]. rewrite !map_length.
  assert (G : forall acc i j, In i (seq 0 (length cs)) -> In j (seq 0 (length cs)) ->
    okab (wi <- at_ (map c_w cs) i ;; wj <- at_ (map c_w cs) j ;; mi <- at_ (map c_mean cs) i ;;
          mj <- at_ (map c_mean cs) j ;; vi <- at_ (map c_var cs) i ;; vj <- at_ (map c_var cs) j ;;
          t <- overlap_term mi mj (vi + vj) ;; Ok (acc + wi * wj * t))).
  { intros acc i j Hi Hj. destruct (in_seq_nth _ _ _ Hi) as (c1 & Ec & _). destruct (in_seq_nth _ _ _ Hj) as (d & Ed & _).
    rewrite !(at_map _ _ _ _ _ _ Ec), !(at_map _ _ _ _ _ _ Ed). cbn [rbind].
    unfold overlap_term. destruct (lteb (c_var c1 + c_var d) 0); cbn [rbind]; [right; reflexivity|left; eexists; reflexivity]. }
  apply (rfold_abort _ _ k Hk).
  - intros acc. apply (rfold_abort _ _ k Hk).
    + intros acc'. rewrite !(at_map _ _ _ _ _ _ Ek). cbn [rbind]. rewrite kern_fail by lra. reflexivity.
    + intros i acc' Hi. apply G; assumption.
  - intros i acc Hi. apply rfold_okab. intros j acc' Hj. apply G; assumption.
Qed.

Lemma bad_or_good : forall cs, (exists c, In c cs /\ c_var c <= 0) \/ good cs.
Proof.
  induction cs as [|c cs [(d & Hd & Hv)|IH]]; [right; constructor|left; exists d; split; [right|]; assumption|].
  destruct (Rle_or_lt (c_var c) 0); [left; exists c; split; [left; reflexivity|assumption]|right; constructor; assumption].
Qed.

Lemma dist_abort : forall cs ds,
  (exists c, In c (cs ++ ds) /\ c_var c <= 0) <-> mixture_dist (as_mix cs) (as_mix ds) = Abort.
Proof.
  intros cs ds. split.
  - intros (c & Hc & Hv). unfold mixture_dist. destruct (bad_or_good cs) as [(c' & Hc' & Hv')|G].
    + rewrite (cross_abort cs c') by assumption. reflexivity.
    + rewrite (cross_ok cs cs) by assumption. cbn [rbind]. apply in_app_or in Hc. destruct Hc as [Hc|Hc].
      * unfold good in G. rewrite Forall_forall in G. specialize (G c Hc). lra.
      * rewrite (cross_abort ds c) by assumption. reflexivity.
  - intros H. destruct (bad_or_good (cs ++ ds)) as [B|G]; [exact B|].
    unfold good in G. apply Forall_app in G. destruct G as (Gc & Gd).
    rewrite mixture_dist_ok in H by assumption. discriminate.
Qed.

(** ** Messages *)
Definition comps_of (c : list cstate) (w : list R) : list comp :=
  map (fun p => mkComp (fst (uni_of (fst p))) (snd (uni_of (fst p))) (snd p)) (combine c w).

Lemma comps_of_mix : forall c w, length c = length w ->
  as_mix (comps_of c w) = mkMix (map (fun c => fst (uni_of c)) c) (map (fun c => snd (uni_of c)) c) w.
Proof.
  intros c w E. unfold as_mix, comps_of. rewrite !map_map. cbn [c_mean c_var c_w].
  revert w E. induction c as [|x c IH]; intros [|y w] E; try discriminate; [reflexivity|].
  cbn [combine map fst snd]. injection E as E. specialize (IH w E). injection IH as E1 E2 E3. congruence.
Qed.

Definition is_uni (c : cstate) : Prop := match c with CUni _ _ => True | _ => False end.

Lemma states_mixed : forall multi c1 w1 c2 w2 c, length c1 = length w1 -> length c2 = length w2 ->
  hd_error c1 = Some c -> is_uni c -> (exists d, In d (c1 ++ c2) /\ ~ is_uni d) ->
  states_dist multi c1 w1 c2 w2 = Abort.
Proof.
  intros multi c1 w1 c2 w2 c E1 E2 Hh Hc (d & Hd & Hn). unfold states_dist.
  destruct c1 as [|x c1]; [discriminate|]. injection Hh as ->.
  cbn [at_ nth_error]. unfold at_. cbn [nth_error rbind]. destruct c as [m v| |]; try contradiction.
  rewrite <- (comps_of_mix (CUni m v :: c1) w1 E1), <- (comps_of_mix c2 w2 E2). apply dist_abort.
  assert (G : forall c w, length c = length w -> In d c -> exists k, In k (comps_of c w) /\ c_var k <= 0).
  { intros c w E H. unfold comps_of. destruct (In_nth_error c d H) as (i & Ei).
    assert (Hi : (i < length w)%nat) by (rewrite <- E; apply nth_error_Some; rewrite Ei; discriminate).
    destruct (nth_error w i) as [y|] eqn:Ew; [|apply nth_error_None in Ew; lia].
    exists (mkComp (fst (uni_of d)) (snd (uni_of d)) y). split.
    - apply (in_map (fun p => mkComp (fst (uni_of (fst p))) (snd (uni_of (fst p))) (snd p)) (combine c w) (d, y)).
      clear - Ei Ew. revert w i Ei Ew. induction c as [|a c IH]; intros [|b w] [|i] Ei Ew; try discriminate.
      + injection Ei as ->. injection Ew as ->. left; reflexivity.
      + right. eapply IH; [exact Ei|exact Ew].
    - destruct d; [exfalso; apply Hn; exact Logic.I| |]; simpl; lra. }
  apply in_app_or in Hd. destruct Hd as [Hd|Hd]; [destruct (G _ _ E1 Hd) as (k & Hk & Hv)|destruct (G _ _ E2 Hd) as (k & Hk & Hv)];
    exists k; (split; [apply in_or_app; auto|exact Hv]).
Qed.

Lemma states_uni : forall multi c1 w1 c2 w2, c1 <> [] -> length c1 = length w1 -> length c2 = length w2 ->
  (forall c, In c c1 -> is_uni c) ->
  states_dist multi c1 w1 c2 w2 = mixture_dist (as_mix (comps_of c1 w1)) (as_mix (comps_of c2 w2)).
Proof.
  intros multi c1 w1 c2 w2 Hn E1 E2 H. rewrite !comps_of_mix by assumption. unfold states_dist.
  destruct c1 as [|x c1]; [congruence|]. unfold at_. cbn [nth_error rbind].
  specialize (H x (or_introl eq_refl)). destruct x; try contradiction. reflexivity.
Qed.
Lemma states_empty : forall multi w1 c2 w2, states_dist multi [] w1 c2 w2 = UB.
Proof. reflexivity. Qed.
Lemma states_other : forall multi c1 w1 c2 w2, hd_error c1 = Some COther ->
  states_dist multi c1 w1 c2 w2 = Throw "Parameter type not recognized".
Proof. intros multi [|x c1] w1 c2 w2 H; [discriminate|]. injection H as ->. reflexivity. Qed.

(** A squared distance is not negative, so the witness is not the distance. *)
Lemma dist_wrong : exists cs ds d, good cs /\ good ds /\ (forall c, In c (cs ++ ds) -> 0 < c_w c) /\
  sumR (map c_w cs) = 1 /\ sumR (map c_w ds) = 1 /\
  mixture_dist (as_mix cs) (as_mix ds) = Ok d /\ d < 0 /\
  ~ is_line_int (fun x => (mix_pdf cs x - mix_pdf ds x) ^ 2) d.
Proof.
  destruct dist_negative as (d & Hd & Hn). exists two_humps, one_hump, d.
  split; [repeat constructor; simpl; lra|]. split; [repeat constructor; simpl; lra|].
  split. { intros c [<-|[<-|[<-|[]]]]; simpl; lra. }
  split; [unfold two_humps; cbn [map c_w]; rewrite !sRc, sR0; lra|].
  split; [unfold one_hump; cbn [map c_w]; rewrite !sRc, sR0; lra|].
  split; [exact Hd|]. split; [exact Hn|]. intros H. apply line_nonneg in H; [lra|]. intros x. apply pow2_ge_0.
Qed.

(** One component each, same mean: the computed distance against the true one. *)
Lemma dist_single : forall m v1 v2, 0 < v1 -> 0 < v2 ->
  mixture_dist (as_mix [mkComp m v1 1]) (as_mix [mkComp m v2 1]) =
    Ok ((/ (2 * v1) + / (2 * v2) - 2 / (v1 + v2)) / sqrt (2 * PI)) /\
  is_line_int (fun x => (gauss m v1 x - gauss m v2 x) ^ 2)
    ((/ sqrt (2 * v1) + / sqrt (2 * v2) - 2 / sqrt (v1 + v2)) / sqrt (2 * PI)).
Proof.
  intros m v1 v2 H1 H2. pose proof PI_RGT_0 as Hpi. assert (Hq : 0 < sqrt (2 * PI)) by (apply sqrt_lt_R0; lra).
  assert (P : forall v, 0 < v -> 0 < sqrt v) by (intros; apply sqrt_lt_R0; assumption).
  split.
  - rewrite mixture_dist_ok by (repeat constructor; assumption). f_equal.
    unfold kov. cbn [map c_mean c_var c_w]. rewrite !sRc, !sR0.
    rewrite !(kern_at m m _ 0) by (try lra; unfold Rdiv; ring). rewrite Ropp_0, exp_0.
    set (q := sqrt (2 * PI)) in *. field. repeat split; lra.
  - assert (G : forall v, 0 < v -> gauss m v m = / (sqrt (2 * PI) * sqrt v)).
    { intros v Hv. unfold gauss. rewrite (sqrt_mult_alt (2 * PI)) by lra.
      replace (- ((m - m) * (m - m) / (2 * v))) with 0 by (field; lra). rewrite exp_0. unfold Rdiv. ring. }
    pose proof (line_dist [mkComp m v1 1] [mkComp m v2 1] ltac:(repeat constructor; assumption) ltac:(repeat constructor; assumption)) as H.
    unfold ov, mix_pdf in H. cbn [map c_mean c_var c_w] in H.
    replace ((/ sqrt (2 * v1) + / sqrt (2 * v2) - 2 / sqrt (v1 + v2)) / sqrt (2 * PI)) with
      (sumR [sumR [1 * 1 * gauss m (v1 + v1) m]] + sumR [sumR [1 * 1 * gauss m (v2 + v2) m]] -
       2 * sumR [sumR [1 * 1 * gauss m (v1 + v2) m]]).
    + eapply line_ext; [|exact H]. intros x. cbv beta. rewrite !sRc, !sR0. ring.
    + rewrite !sRc, !sR0, !G by lra. replace (v1 + v1) with (2 * v1) by ring. replace (v2 + v2) with (2 * v2) by ring.
      pose proof (P (2 * v1) ltac:(lra)). pose proof (P (2 * v2) ltac:(lra)). pose proof (P (v1 + v2) ltac:(lra)).
      set (q := sqrt (2 * PI)) in *. set (a := sqrt (2 * v1)) in *. set (b := sqrt (2 * v2)) in *. set (c := sqrt (v1 + v2)) in *.
      field. repeat split; lra.
Qed.
