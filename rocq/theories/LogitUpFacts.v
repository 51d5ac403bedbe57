(** * The logit stick-breaking mixing: proofs about initialisation, weights and update. *)
From Coq Require Import String.
From Coq Require Import Bool List Arith ZArith Lia Reals Lra.
From Coquelicot Require Import Coquelicot.
From Verif Require Import Base XReal Mixings Univ Multi PartSpec MixFacts MixMore LogitFacts LogitLib LogitLibFacts LogitUp.
Import ListNotations.
Local Open Scope R_scope.
Set Implicit Arguments.

(** ** Specification vocabulary *)

(** A matrix of [d] columns with a row for every allocated observation. *)
Definition covers (d : nat) (rows : list (list R)) (alloc : list nat) : Prop :=
  (length alloc <= length rows)%nat /\ forall x, In x rows -> length x = d.

(** A state with one column of coefficients for every component but the last. *)
Record lg_ok (mean : list R) (s : lg) : Prop := {
  lo_H : (1 <= lg_H s)%nat;
  lo_cols : length (lg_cols s) = (lg_H s - 1)%nat;
  lo_col : List.Forall (fun b => length b = length mean) (lg_cols s);
  lo_prec : length (lg_prec s) = length mean;
  lo_acc : length (lg_acc s) = (lg_H s - 1)%nat }.

(** Probability of component [c] under sticks [v] broken in turn, the last
    component taking what is left. *)
Fixpoint stick_prob (v : list R) (c : nat) : R :=
  match v, c with
  | [], _ => 1
  | x :: _, O => x
  | x :: t, S c' => (1 - x) * stick_prob t c'
  end.
Definition logistic (z : R) : R := exp z / (exp z + 1).
(** Log-posterior density of the coefficients, up to a constant: independent
    normal priors, and the probability of every allocation given its covariates. *)
Definition log_post (prec : list (list R)) (mean : list R) (rows : list (list R)) (alloc : list nat) (cols : list (list R)) : R :=
  sumR (map (fun b => - quad_form prec (vsub b mean) / 2) cols) +
  sumR (map (fun p => ln (stick_prob (map (fun b => logistic (dot (fst p) b)) cols) (snd p))) (combine rows alloc)).

(** ** Rows *)

Lemma rows_used_covers : forall d h alloc rows, covers d rows alloc -> rows_used d h rows alloc = true.
Proof.
  intros d h alloc. induction alloc as [|c al IH]; intros rows H; [destruct rows; reflexivity|].
  destruct H as [H1 H2]. destruct rows as [|y rs]; simpl in H1; [lia|].
  cbn [rows_used]. rewrite (H2 y (or_introl eq_refl)), Nat.eqb_refl, orb_true_r. simpl.
  apply IH. split; [lia|]. intros x Hx. apply H2. right. auto.
Qed.

Lemma rows_used_missing : forall d h alloc, (0 < d)%nat -> (exists c, In c alloc /\ (h <= c)%nat) ->
  forall rows, List.Forall (fun x => length x = 0%nat) rows -> rows_used d h rows alloc = false.
Proof.
  intros d h alloc Hd. induction alloc as [|c al IH]; intros [c0 [Hin Hc]] rows Hr; [destruct Hin|].
  destruct (Nat.leb_spec h c) as [L|L].
  - destruct rows as [|x rs]; cbn [rows_used]; rewrite (proj2 (Nat.leb_le h c) L); [reflexivity|].
    inversion Hr as [|? ? Hx ?]; subst. rewrite Hx. destruct d; [lia|]. reflexivity.
  - destruct Hin as [->|Hin]; [lia|].
    destruct rows as [|x rs]; cbn [rows_used]; rewrite (proj2 (Nat.leb_gt h c) L); simpl; apply IH; eauto.
    inversion Hr; auto.
Qed.

(** ** Sizes *)

Lemma vsub_len : forall x y, length x = length y -> length (vsub x y) = length y.
Proof. intros. unfold vsub. rewrite map_length, combine_length. lia. Qed.
Lemma vaxpy_len : forall b a g, length b = length g -> length (vaxpy b a g) = length b.
Proof. intros. unfold vaxpy. rewrite map_length, combine_length. lia. Qed.

Lemma lg_lpdf_ok : forall mean s alpha h rows alloc,
  lg_ok mean s -> length alpha = length mean -> covers (length mean) rows alloc ->
  lg_lpdf mean s alpha h rows alloc = Ok (logit_lpdf (quad_form (lg_prec s) (vsub alpha mean)) alpha h rows alloc).
Proof.
  intros mean s alpha h rows alloc Hs Ha Hc. unfold lg_lpdf, sizes_ok.
  rewrite (lo_prec Hs), Ha, Nat.eqb_refl, (rows_used_covers h Hc). reflexivity.
Qed.
Lemma lg_grad_ok : forall mean s alpha h rows alloc,
  lg_ok mean s -> length alpha = length mean -> covers (length mean) rows alloc ->
  lg_grad mean s alpha h rows alloc =
  Ok (map (fun j => logit_grad (nth j (matvec (lg_prec s) (vsub mean alpha)) 0) j alpha h rows alloc) (seq 0 (length mean))).
Proof.
  intros mean s alpha h rows alloc Hs Ha Hc. unfold lg_grad, sizes_ok.
  rewrite (lo_prec Hs), Ha, Nat.eqb_refl, (rows_used_covers h Hc). reflexivity.
Qed.

(** ** The full conditional *)

Lemma logistic_sigmoid : forall z, logistic z = sigmoid z.
Proof.
  intros z. unfold logistic, sigmoid. rewrite exp_Ropp. pose proof (exp_pos z). field. split; lra.
Qed.
Lemma sigmoid_01 : forall z, 0 < sigmoid z < 1.
Proof.
  intros z. unfold sigmoid. pose proof (exp_pos (- z)). split.
  - apply Rdiv_lt_0_compat; lra.
  - apply Rmult_lt_reg_r with (1 + exp (- z)); [lra|]. unfold Rdiv. rewrite Rmult_assoc, Rinv_l; lra.
Qed.
Lemma stick_pos : forall v c, List.Forall (fun x => 0 < x < 1) v -> 0 < stick_prob v c.
Proof.
  induction v as [|x v IH]; intros [|c] H; simpl; try lra; inversion H as [|? ? Hx Hv]; subst; try lra.
  apply Rmult_lt_0_compat; [lra|]. apply IH. auto.
Qed.
Lemma stick_change : forall etas h c z z', (h < length etas)%nat ->
  ln (stick_prob (map logistic (upd etas h z)) c) - ln (stick_prob (map logistic (upd etas h z')) c) =
  part h c z - part h c z'.
Proof.
  assert (F : forall etas, List.Forall (fun x => 0 < x < 1) (map logistic etas)).
  { induction etas; simpl; constructor; auto. rewrite logistic_sigmoid. apply sigmoid_01. }
  induction etas as [|y t IH]; intros h c z z' Hh; simpl in Hh; [lia|].
  pose proof (sigmoid_01 y) as Sy. pose proof (sigmoid_01 z) as Sz. pose proof (sigmoid_01 z') as Sz'.
  destruct h as [|h]; destruct c as [|c]; cbn [upd map stick_prob]; rewrite ?logistic_sigmoid.
  - unfold part. simpl. lra.
  - pose proof (stick_pos c (F t)) as Hp. rewrite !ln_mult by lra. unfold part. simpl. lra.
  - unfold part. simpl. lra.
  - pose proof (stick_pos c (F (upd t h z))). pose proof (stick_pos c (F (upd t h z'))).
    rewrite !ln_mult by lra.
    assert (Hh' : (h < length t)%nat) by lia. pose proof (IH h c z z' Hh') as E.
    change (part (S h) (S c) z) with (part h c z). change (part (S h) (S c) z') with (part h c z'). lra.
Qed.
Lemma sumR_upd : forall (f : list R -> R) l h a a', (h < length l)%nat ->
  sumR (map f (upd l h a)) - sumR (map f (upd l h a')) = f a - f a'.
Proof.
  intros f l. induction l as [|x l IH]; intros [|h] a a' Hh; simpl in Hh; try lia; cbn [upd map]; rewrite !sumR_cons.
  - lra.
  - specialize (IH h a a' ltac:(lia)). lra.
Qed.

Lemma log_post_change : forall prec mean rows alloc cols h a a', (h < length cols)%nat ->
  log_post prec mean rows alloc (upd cols h a) - log_post prec mean rows alloc (upd cols h a') =
  logit_lpdf (quad_form prec (vsub a mean)) a h rows alloc - logit_lpdf (quad_form prec (vsub a' mean)) a' h rows alloc.
Proof.
  intros prec mean rows alloc cols h a a' Hh. rewrite !logit_lpdf_sum. unfold log_post.
  pose proof (sumR_upd (fun b => - quad_form prec (vsub b mean) / 2) cols a a' Hh) as E1.
  cbv beta in E1.
  assert (E2 : forall l : list (list R * nat),
    sumR (map (fun p => ln (stick_prob (map (fun b => logistic (dot (fst p) b)) (upd cols h a)) (snd p))) l) -
    sumR (map (fun p => ln (stick_prob (map (fun b => logistic (dot (fst p) b)) (upd cols h a')) (snd p))) l) =
    sumR (map (fun p => part h (snd p) (dot (fst p) a)) l) - sumR (map (fun p => part h (snd p) (dot (fst p) a')) l)).
  { induction l as [|[x c] l IH]; cbn [map]; [unfold sumR; simpl; lra|]. rewrite !sumR_cons. cbn [fst snd].
    pose proof (stick_change (map (dot x) cols) c (dot x a) (dot x a') (h := h)) as K.
    rewrite map_length in K. specialize (K Hh). rewrite <- !map_upd, !map_map in K. lra. }
  specialize (E2 (combine rows alloc)). lra.
Qed.

Lemma log_post_derive : forall prec mean rows alloc cols h b j,
  (h < length cols)%nat -> length b = length prec -> length mean = length prec -> (j < length prec)%nat ->
  (forall row, In row prec -> length row = length prec) ->
  (forall i k, nth k (nth i prec []) 0 = nth i (nth k prec []) 0) ->
  (forall x, In x rows -> length x = length prec) ->
  is_derive (fun u => log_post prec mean rows alloc (upd cols h (upd b j (nth j b 0 + u)))) 0
            (logit_grad (nth j (matvec prec (vsub mean b)) 0) j b h rows alloc).
Proof.
  intros prec mean rows alloc cols h b j Hh Hb Hm Hj Hr Hsy Hx.
  pose proof (logit_gradient prec mean b j h rows alloc Hb Hm Hj Hr Hsy Hx) as D. cbv zeta in D.
  set (k := log_post prec mean rows alloc (upd cols h b) - logit_lpdf (quad_form prec (vsub b mean)) b h rows alloc).
  apply (is_derive_ext (fun u => plus (logit_lpdf (quad_form prec (vsub (upd b j (nth j b 0 + u)) mean)) (upd b j (nth j b 0 + u)) h rows alloc) k)).
  { intros u. unfold plus. simpl.
    pose proof (log_post_change prec mean rows alloc cols (upd b j (nth j b 0 + u)) b Hh). unfold k. lra. }
  replace (logit_grad (nth j (matvec prec (vsub mean b)) 0) j b h rows alloc)
    with (plus (logit_grad (nth j (matvec prec (vsub mean b)) 0) j b h rows alloc) zero) by (unfold plus, zero; simpl; lra).
  apply (is_derive_plus _ (fun _ => k)); [exact D|]. apply (is_derive_const (K := R_AbsRing) (V := R_NormedModule) k).
Qed.

(** ** The update *)

Section Up.
Variables (G : gen) (M : mgen G) (p : lgprior) (mean : list R).

(** What the update makes of column [b] of component [h]: from some state of the
    generator, a normal proposal [b'] around the point reached by a step along
    the gradient of the log-posterior, kept when a uniform draw falls below the
    threshold. *)
Definition proposed (prec : list (list R)) (rows : list (list R)) (alloc : list nat) (cols : list (list R)) (h : nat)
    (b out : list R) (hit : bool) : Prop :=
  exists g r0, length g = length mean /\
  (forall j, (j < length mean)%nat ->
     is_derive (fun v => log_post prec mean rows alloc (upd cols h (upd b j (nth j b 0 + v)))) 0 (nth j g 0)) /\
  let m := vaxpy b (lp_step p) g in
  let v := sqrt (2 * lp_step p) in
  let '(b', r1) := mvn_list M m v r0 in
  let u := fst (g_unif G 0 1 r1) in
  let gap := log_post prec mean rows alloc (upd cols h b') - log_post prec mean rows alloc (upd cols h b) +
             (dot (vsub b' m) (vsub b' m) - dot (vsub b m) (vsub b m)) / (2 * v) in
  if hit then u < exp gap /\ out = b' else ~ u < exp gap /\ out = b.

Definition sq_sym (prec : list (list R)) : Prop :=
  (forall row, In row prec -> length row = length prec) /\
  (forall i k, nth k (nth i prec []) 0 = nth i (nth k prec []) 0).

Lemma lg_step_spec : forall rows alloc cols0 s r h,
  0 < lp_step p -> lg_ok mean s -> sq_sym (lg_prec s) -> covers (length mean) rows alloc -> (h < lg_H s - 1)%nat ->
  length cols0 = length (lg_cols s) ->
  exists b a s' r' (hit : bool) out,
    nth_error (lg_cols s) h = Some b /\ nth_error (lg_acc s) h = Some a /\
    lg_step M p mean rows alloc (s, r) h = Ok (s', r') /\
    lg_H s' = lg_H s /\ lg_dim s' = lg_dim s /\ lg_prec s' = lg_prec s /\ lg_iter s' = lg_iter s /\
    lg_cols s' = upd (lg_cols s) h out /\ lg_acc s' = upd (lg_acc s) h (if hit then S a else a) /\
    lg_ok mean s' /\ proposed (lg_prec s) rows alloc cols0 h b out hit.
Proof.
  intros rows alloc cols0 s r h Hst Hs [Hr Hsy] Hc Hh Hl0.
  pose proof (lo_cols Hs) as Lc. pose proof (lo_acc Hs) as La. pose proof (lo_prec Hs) as Lp.
  destruct (nth_error (lg_cols s) h) as [b|] eqn:Eb; [|apply nth_error_None in Eb; lia].
  destruct (nth_error (lg_acc s) h) as [a|] eqn:Ea; [|apply nth_error_None in Ea; lia].
  assert (Lb : length b = length mean).
  { pose proof (lo_col Hs) as F. rewrite List.Forall_forall in F. apply F. apply nth_error_In with h. auto. }
  exists b, a. unfold lg_step, lg_col. rewrite Eb. cbn [rbind].
  rewrite (@lg_grad_ok mean s b h rows alloc Hs Lb Hc). cbn [rbind].
  set (g := map (fun j => logit_grad (nth j (matvec (lg_prec s) (vsub mean b)) 0) j b h rows alloc) (seq 0 (length mean))).
  assert (Lg : length g = length mean) by (unfold g; rewrite map_length, seq_length; auto).
  assert (Dg : forall j, (j < length mean)%nat ->
     is_derive (fun v => log_post (lg_prec s) mean rows alloc (upd cols0 h (upd b j (nth j b 0 + v)))) 0 (nth j g 0)).
  { intros j Hj. unfold g. rewrite nth_seq_map by lia. apply log_post_derive; auto; try lia.
    intros x Hx. rewrite Lp. apply (proj2 Hc). auto. }
  set (m := vaxpy b (lp_step p) g). set (v := sqrt (2 * lp_step p)).
  assert (Lm : length m = length mean) by (unfold m; rewrite vaxpy_len; lia).
  destruct (mvn_list M m v r) as [b' r1] eqn:Em.
  assert (Lb' : length b' = length mean).
  { pose proof (mvn_list_len M m v r) as K. rewrite Em in K. simpl in K. lia. }
  rewrite (@lg_lpdf_ok mean s b' h rows alloc Hs Lb' Hc), (@lg_lpdf_ok mean s b h rows alloc Hs Lb Hc). cbn [rbind].
  assert (Hv : 0 < v) by (unfold v; apply sqrt_lt_R0; lra).
  set (fc' := logit_lpdf (quad_form (lg_prec s) (vsub b' mean)) b' h rows alloc).
  set (fc := logit_lpdf (quad_form (lg_prec s) (vsub b mean)) b h rows alloc).
  assert (Eg : lg_log_accept fc fc' v m b b' =
     log_post (lg_prec s) mean rows alloc (upd cols0 h b') - log_post (lg_prec s) mean rows alloc (upd cols0 h b) +
             (dot (vsub b' m) (vsub b' m) - dot (vsub b m) (vsub b m)) / (2 * v)).
  { rewrite (log_post_change (lg_prec s) mean rows alloc cols0 b' b) by lia. fold fc' fc. unfold lg_log_accept.
    replace (-0.5) with (- / 2) by lra. field. lra. }
  destruct (g_unif G 0 1 r1) as [u r2] eqn:Eu.
  rewrite Eg. unfold gtb. destruct (Rlt_dec u _) as [Hu|Hu].
  - rewrite Ea. eexists _, r2, true, b'. split; [auto|]. split; [auto|]. split; [reflexivity|]. cbn [lg_H lg_dim lg_prec lg_iter lg_cols lg_acc].
    do 6 (split; [reflexivity|]). split.
    + constructor; cbn [lg_H lg_dim lg_prec lg_iter lg_cols lg_acc]; rewrite ?upd_length; auto.
      * apply (lo_H Hs).
      * pose proof (lo_col Hs) as F. clear -F Lb'. revert h. induction F; intros [|h]; simpl; constructor; auto.
    + exists g, r. split; [auto|]. split; [auto|]. cbv zeta. fold m v. rewrite Em, Eu. cbn [fst]. auto.
  - eexists s, r2, false, b. split; [auto|]. split; [auto|]. split; [reflexivity|].
    do 4 (split; [reflexivity|]).
    assert (Un : forall A (l : list A) i x, nth_error l i = Some x -> upd l i x = l).
    { clear. induction l as [|y l IH]; intros [|i] x H; simpl in *; auto; [injection H as ->; auto|f_equal; auto]. }
    rewrite (Un _ _ _ _ Eb), (Un _ _ _ _ Ea). split; [auto|]. split; [auto|]. split; [auto|].
    exists g, r. split; [auto|]. split; [auto|]. cbv zeta. fold m v. rewrite Em, Eu. cbn [fst]. auto.
Qed.

(** The loop over the components [h .. h + k - 1]. *)
Lemma lg_loop : forall rows alloc cols0 k h s r,
  0 < lp_step p -> lg_ok mean s -> sq_sym (lg_prec s) -> covers (length mean) rows alloc -> (h + k <= lg_H s - 1)%nat ->
  length cols0 = length (lg_cols s) ->
  exists s' r', rfold (lg_step M p mean rows alloc) (seq h k) (s, r) = Ok (s', r') /\
    lg_H s' = lg_H s /\ lg_dim s' = lg_dim s /\ lg_prec s' = lg_prec s /\ lg_iter s' = lg_iter s /\ lg_ok mean s' /\
    (forall i, ~ (h <= i < h + k)%nat -> nth_error (lg_cols s') i = nth_error (lg_cols s) i /\
                                       nth_error (lg_acc s') i = nth_error (lg_acc s) i) /\
    (forall i, (h <= i < h + k)%nat -> exists b a out (hit : bool),
       nth_error (lg_cols s) i = Some b /\ nth_error (lg_acc s) i = Some a /\
       nth_error (lg_cols s') i = Some out /\ nth_error (lg_acc s') i = Some (if hit then S a else a) /\
       proposed (lg_prec s) rows alloc cols0 i b out hit).
Proof.
  intros rows alloc cols0 k. induction k as [|k IH]; intros h s r Hst Hs Hp Hc Hk Hl.
  - exists s, r. repeat (split; auto); intros; lia.
  - cbn [seq rfold].
    destruct (@lg_step_spec rows alloc cols0 s r h Hst Hs Hp Hc ltac:(lia) Hl) as (b & a & s1 & r1 & hit & out & Eb & Ea & E1 & EH & ED & EP & EI & EC & EA & Hs1 & Hpr).
    rewrite E1. cbn [rbind].
    assert (Hp1 : sq_sym (lg_prec s1)) by (rewrite EP; auto).
    assert (Hk1 : (S h + k <= lg_H s1 - 1)%nat) by lia.
    assert (Hl1 : length cols0 = length (lg_cols s1)) by (rewrite EC, upd_length; auto).
    destruct (IH (S h) s1 r1 Hst Hs1 Hp1 Hc Hk1 Hl1) as (s2 & r2 & E2 & H1 & H2 & H3 & H4 & H5 & H6 & H7).
    pose proof (lo_cols Hs) as Lc. pose proof (lo_acc Hs) as La.
    exists s2, r2. split; [exact E2|]. split; [congruence|]. split; [congruence|]. split; [congruence|]. split; [congruence|].
    split; [auto|]. split.
    + intros i Hi. destruct (H6 i ltac:(lia)) as [A B]. rewrite A, B, EC, EA, !nth_error_upd_other by lia. auto.
    + intros i Hi. destruct (Nat.eq_dec i h) as [->|Hn].
      * destruct (H6 h ltac:(lia)) as [A B]. exists b, a, out, hit. rewrite A, B, EC, EA, !nth_error_upd_same by lia. auto.
      * destruct (H7 i ltac:(lia)) as (b1 & a1 & o1 & h1 & K1 & K2 & K3 & K4 & K5).
        rewrite EC, nth_error_upd_other in K1 by lia. rewrite EA, nth_error_upd_other in K2 by lia. rewrite EP in K5.
        exists b1, a1, o1, h1. auto.
Qed.

End Up.
