(** * Property theorems: one reallocation by Neal's algorithm 8 leaves the
    conditional law of the cluster and the parameters of an observation unchanged. *)
From Coq Require Import String.
From Coq Require Import Bool List Arith ZArith Reals Lra Lia Permutation.
From Verif Require Import Base Hier Algos Spec MargFacts NealFacts MargMore MargProps.
From Verif Require Import PartSpec XReal Mixings MixFacts MfmFacts GibbsSpec GibbsComb GibbsPost GibbsFacts GibbsSweep GibbsState Gibbs8.
From Verif Require Import Univ UnivFacts RealInst RealFacts RealMore MfmInst MfmRun MfmProg MfmGibbs P_Gibbs P_MfmRun.
From Verif Require Import Aux8 Aux8Facts Aux8Step Aux8Disc.
Import ListNotations.
Local Open Scope R_scope.

(** ** C129 *)

(** Given the parameters [xs] on offer, the state reached is drawn with
    probabilities proportional to the weights of the configurations. *)
Theorem C129_neal8_step :
  forall (I : Iface) (L : laws I) data covs (val : W I -> R) t d n_aux (a : alg I) i y cv r,
  rows_ok I data (at_ covs) -> (forall x y, val (wadd I x y) = val x * val y) ->
  (forall x k, (1 <= k)%nat -> val (wsublog I x k) = val x / INR k) ->
  (2 <= length data)%nat -> (i < length data)%nat -> (1 <= n_aux)%nat ->
  proper (length data) (a_alloc a) (view (a_uv a)) -> caches_ok data covs (a_uv a) ->
  length (a_aux a) = n_aux -> (forall h, In h (a_aux a) -> h_ids h = [] /\ h_stats h = stats0 I) ->
  0 <= d < 1 -> - d < t -> py_masses I val (a_mix a) (length data) t d ->
  at_ data i = Ok y -> at_ covs i = Ok cv ->
  exists ws outs xs r1 C,
    offered I n_aux a i r = (xs, r1) /\ length xs = n_aux /\ 0 < C /\ length outs = length ws /\
    neal8_step data covs n_aux (a, r) i = ('(c, r2) <- cat I ws r1 ;; b <- at_ outs c ;; Ok (b, r2)) /\
    forall f, sumR (map (fun wb => val (fst wb) * f (conf I (snd wb))) (combine ws outs)) =
              C * total8 (fun al => ewens_pitman t d (sizes_of al)) (fun x => val (like_lpdf I x y cv)) i (a_alloc a) (snd (conf I a)) xs f.
Proof.
  intros. apply (neal8_total I L data covs H val H0 H1 n_aux a i (ep t d)); auto.
  - split; auto.
  - apply ep_prior; auto.
  - intros rest Hr _. apply py_mass_at with (n := length data); auto.
Qed.
Print Assumptions C129_neal8_step.

(** The same under a mixture of finite mixtures. *)
Theorem C129_neal8_step_mfm :
  forall series (I : Iface) (L : laws I) (ofx : xreal -> W I) data covs (val : W I -> R) n_aux (a : alg (with_mfm series I ofx)) i y cv r,
  rows_ok I data (at_ covs) -> (forall x y, val (wadd I x y) = val x * val y) -> (forall x, val (ofx x) = xexp x) ->
  (forall x k, (1 <= k)%nat -> val (wsublog I x k) = val x / INR k) ->
  (2 <= length data)%nat -> (Z.of_nat (length data) <= 2 ^ 32)%Z -> (i < length data)%nat -> (1 <= n_aux)%nat ->
  proper (length data) (a_alloc a) (view (a_uv a)) -> @caches_ok (with_mfm series I ofx) data covs (a_uv a) ->
  length (a_aux a) = n_aux -> (forall h, In h (a_aux a) -> h_ids h = [] /\ h_stats h = stats0 I) ->
  mfm_valid (a_mix a) -> computed series (a_mix a) (length data) ->
  at_ data i = Ok y -> at_ covs i = Ok cv -> ~ NoDup (del (a_alloc a) i) ->
  exists ws outs xs r1 C,
    offered (with_mfm series I ofx) n_aux a i r = (xs, r1) /\ length xs = n_aux /\ 0 < C /\ length outs = length ws /\
    @neal8_step (with_mfm series I ofx) data covs n_aux (a, r) i =
      ('(c, r2) <- cat (with_mfm series I ofx) ws r1 ;; b <- at_ outs c ;; Ok (b, r2)) /\
    forall f, sumR (map (fun wb => val (fst wb) * f (conf (with_mfm series I ofx) (snd wb))) (combine ws outs)) =
              C * total8 (fun al => gibbs_type (mfm_V series (a_mix a)) (mf_gam (a_mix a)) (sizes_of al)) (fun x => val (like_lpdf I x y cv))
                         i (a_alloc a) (snd (conf (with_mfm series I ofx) a)) xs f.
Proof.
  intros series I L ofx data covs val n_aux a i y cv r Hrows Hv Hx Hs Hn HZ Hi Hna Hp Hc Hla Haux Hm Hcp Ey Ecv Hd.
  set (J := with_mfm series I ofx) in *.
  destruct (neal8_total J (mfm_laws series I L ofx) data covs Hrows val Hv Hs n_aux a i (guarded series (a_mix a)) y cv r Hn Hi Hna) as
    (ws & outs & xs & r1 & C & E1 & E2 & E3 & E4 & E5 & E6); auto.
  { split; auto. } { apply guarded_prior; auto. }
  { intros rest Hr Hrc. apply (mfm_mass_at series I ofx val Hx (a_mix a) Hm (length data) Hn HZ Hcp rest Hr). intro N. apply Hd. exact (canon_nodup rest _ (eq_sym Hrc) N). }
  exists ws, outs, xs, r1, C. split; auto. split; auto. split; auto. split; auto. split; auto.
  intros f. etransitivity; [exact (E6 f)|]. f_equal.
  assert (HL : length (a_alloc a) = length data) by (destruct Hp as ((X & _) & _); exact X).
  assert (G : forall v, guarded series (a_mix a) (upd (a_alloc a) i v) = gibbs_type (mfm_V series (a_mix a)) (mf_gam (a_mix a)) (sizes_of (upd (a_alloc a) i v))).
  { intros v. apply (guarded_eq series (a_mix a) Hm (length data) Hn HZ Hcp). rewrite upd_length. exact HL. }
  unfold total8. f_equal; apply sumR_map_ext; intros q _; unfold w_sit, w_own; rewrite G; reflexivity.
Qed.
Print Assumptions C129_neal8_step_mfm.

(** Averaging over independent draws from any prior, the conditional law of the
    cluster and the parameters of the observation is left unchanged: on the left
    the law after the step, started at the conditional law; when the observation is
    alone its own parameters are the first of the [m] on offer. *)
Theorem C129_invariant : forall (St : Type) (pi : list nat -> R) (lik : St -> R) i l ps m
    (D : (list St -> R) -> Prop) (E : (list St -> R) -> R) (x0 : St) f,
  iid_mean m D E -> (1 <= m)%nat -> (forall xs, length xs = m -> total8 pi lik i l ps xs (fun _ => 1) <> 0) ->
  D (fun xs => w_own pi lik i l (hd x0 xs) * f (own i l ps (hd x0 xs))) -> D (fun xs => mean8 pi lik i l ps xs f) ->
  D (fun xs => w_own pi lik i l (hd x0 xs) * mean8 pi lik i l ps xs f) ->
  sumR (map (w_sit pi lik i l ps) (reps i l)) * E (fun xs => mean8 pi lik i l ps xs f) +
  E (fun xs => w_own pi lik i l (hd x0 xs) * mean8 pi lik i l ps xs f) =
  sumR (map (fun j => w_sit pi lik i l ps j * f (sit i l ps j)) (reps i l)) +
  E (fun xs => w_own pi lik i l (hd x0 xs) * f (own i l ps (hd x0 xs))).
Proof. intros. apply (mean_invariant St pi lik i l ps m D E x0); auto. Qed.
Print Assumptions C129_invariant.

(** For a prior with finitely many values, without any side condition. *)
Theorem C129_discrete : forall (St : Type) (law : list (St * R)) (pi : list nat -> R) (lik : St -> R) i l ps m f,
  mean1 law (fun _ => 1) = 1 -> partition_prior pi -> (forall x, 0 < lik x) -> (i < length l)%nat -> (1 <= m)%nat ->
  sumR (map (fun j => w_sit pi lik i l ps j * meanm law m (fun xs => mean8 pi lik i l ps xs f)) (reps i l)) +
  mean1 law (fun x => w_own pi lik i l x * meanm law (m - 1) (fun ys => mean8 pi lik i l ps (x :: ys) f)) =
  sumR (map (fun j => w_sit pi lik i l ps j * f (sit i l ps j)) (reps i l)) + mean1 law (fun x => w_own pi lik i l x * f (own i l ps x)).
Proof.
  intros St law pi lik i l ps [|m] f H1 Hp Hl Hi Hm; [lia|]. replace (S m - 1)%nat with m by lia. now apply kernel_invariant.
Qed.
Print Assumptions C129_discrete.

(** The two kinds of configurations: observation 2 of three, alone. *)
Example ex_C129_reps : reps 2 [0; 0; 1]%nat = [0]%nat /\ reps 0 [0; 0; 1]%nat = [1; 2]%nat /\ lonely 2 [0; 0; 1]%nat = true /\ lonely 0 [0; 0; 1]%nat = false.
Proof. repeat split. Qed.
Example ex_C129_offered : forall x, param exst8 2 = Some x ->
  offered exI 3 exst8 2 tt = (x :: fst (prior_draws exI exhy 2 tt), tt) /\ offered exI 3 exst8 0 tt = prior_draws exI exhy 3 tt.
Proof.
  intros x Hx. unfold offered. replace (lonely 2 (a_alloc exst8)) with true by reflexivity. replace (lonely 0 (a_alloc exst8)) with false by reflexivity. rewrite Hx.
  split; [|reflexivity]. cbn [Nat.sub a_hyp]. change (a_hyp exst8) with exhy. destruct (prior_draws exI exhy 2 tt) as [ys []]. reflexivity.
Qed.
Example ex_C129_step : exists ws outs xs r1 C,
    offered exI 3 exst8 2 tt = (xs, r1) /\ length xs = 3%nat /\ 0 < C /\ length outs = length ws /\
    neal8_step exdata excovs 3 (exst8, tt) 2 = ('(c, r2) <- cat exI ws r1 ;; b <- at_ outs c ;; Ok (b, r2)) /\
    forall f, sumR (map (fun wb => xexp (fst wb) * f (conf exI (snd wb))) (combine ws outs)) =
              C * total8 (fun al => ewens_pitman (- / 4) (/ 2) (sizes_of al)) (fun x => xexp (like_lpdf exI x 4 tt)) 2 (a_alloc exst8) (snd (conf exI exst8)) xs f.
Proof.
  destruct (rep_state_ok exI exdata excovs exhy exmix _ exst_in) as (H1 & H2 & H3 & H4 & H5 & H6).
  apply (C129_neal8_step exI (nnig_laws _ _ _ exG_ok) exdata excovs xexp (- / 4) (/ 2) 3 exst8 2 4 tt tt); simpl; auto; try lia; try lra.
  - apply (nnig_rows (fun _ => 0) exG exprior).
  - intros. apply xexp_add.
  - intros x k Hk. simpl. unfold xsublog. rewrite xexp_add. simpl xexp at 2. rewrite exp_Ropp, exp_ln; [reflexivity|]. apply lt_0_INR. lia.
  - intros h [<-|[<-|[<-|[]]]]; auto.
  - apply ex_masses.
Qed.
(** A prior with two values. *)
Example ex_C129_law : mean1 [(1, / 3); (2, 2 / 3)] (fun _ => 1) = 1 /\ meanm [(1, / 3); (2, 2 / 3)] 2 (fun xs => sumR xs) = 10 / 3 /\
  iid_mean 2 (fun _ => True) (meanm [(1, / 3); (2, 2 / 3)] 2).
Proof.
  assert (H : mean1 [(1, / 3); (2, 2 / 3)] (fun _ => 1) = 1) by (unfold mean1, sumR; cbn [map fold_right fst snd]; lra).
  split; [exact H|]. split; [unfold meanm, mean1, sumR; cbn [map fold_right fst snd]; lra|apply meanm_iid, H].
Qed.
(** The equation of [C129_discrete] fails for a step that redraws all parameters
    even when the observation is alone. *)
Example ex_C129_redraw : exists (law : list (R * R)) (pi : list nat -> R) (lik : R -> R) i l ps m f,
  mean1 law (fun _ => 1) = 1 /\ partition_prior pi /\ (forall x, 0 < lik x) /\ (i < length l)%nat /\ (1 <= m)%nat /\
  sumR (map (fun j => w_sit pi lik i l ps j * meanm law m (fun xs => mean8 pi lik i l ps xs f)) (reps i l)) +
  mean1 law (fun x => w_own pi lik i l x * meanm law m (fun xs => mean8 pi lik i l ps xs f)) <>
  sumR (map (fun j => w_sit pi lik i l ps j * f (sit i l ps j)) (reps i l)) + mean1 law (fun x => w_own pi lik i l x * f (own i l ps x)).
Proof.
  exists [(0, / 2); (1, / 2)], (fun _ => 1), (fun x => 1 + x * x), 1%nat, [0; 1]%nat, [Some 1; Some 1], 1%nat,
    (fun c => if list_eq_dec Nat.eq_dec (fst c) [0; 1]%nat then 1 else 0).
  split; [unfold mean1, sumR; cbn [map fold_right fst snd]; lra|]. split; [split; [intros; lra|split; reflexivity]|].
  split; [intros x; pose proof (Rle_0_sqr x) as H; unfold Rsqr in H; lra|]. split; [cbn; lia|]. split; [lia|].
  unfold mean1, meanm, mean8, total8, w_sit, w_own, sumR. replace (reps 1 [0; 1]%nat) with [0]%nat by reflexivity.
  cbn [map fold_right fst snd nth length Aux8.mean1 sit own canon upd first Nat.eqb].
  destruct (list_eq_dec Nat.eq_dec [0; 0] [0; 1])%nat as [E|_]; [discriminate|].
  destruct (list_eq_dec Nat.eq_dec [0; 1] [0; 1])%nat as [_|E]; [|congruence].
  cbn [Aux8.mean1]. unfold Aux8.mean1, sumR. cbn [map fold_right fst snd length]. change (INR 1) with 1. intros H. field_simplify in H. lra.
Qed.
(** A mixture of finite mixtures: the third observation, the first two together. *)
Example ex_C129_mfm : exists series,
  let J := with_mfm series exI (fun w => w) in
  let m := mkMfm 2 1 None 0 in
  let a := set_aux (rep_state J exdata excovs exhy m [0; 0; 2]%nat) (repeat (@mkHier J [] 0 norm_stats0 (mkLS 1 3) false None) 2) in
  exists ws outs xs r1 C,
    offered J 2 a 2 tt = (xs, r1) /\ length xs = 2%nat /\ 0 < C /\ length outs = length ws /\
    @neal8_step J exdata excovs 2 (a, tt) 2 = ('(c, r2) <- cat J ws r1 ;; b <- at_ outs c ;; Ok (b, r2)) /\
    forall f, sumR (map (fun wb => xexp (fst wb) * f (conf J (snd wb))) (combine ws outs)) =
              C * total8 (fun al => gibbs_type (mfm_V series m) 1 (sizes_of al)) (fun x => xexp (like_lpdf exI x 4 tt)) 2 (a_alloc a) (snd (conf J a)) xs f.
Proof.
  destruct C122_coefficients_exist as (series & Hs). exists series.
  cbv zeta. set (m := mkMfm 2 1 None 0). set (J := with_mfm series exI (fun w => w)).
  destruct (rep_state_ok J exdata excovs exhy m [0; 0; 2]%nat exst_in) as (H1 & H2 & H3 & H4 & H5 & H6).
  apply (C129_neal8_step_mfm series exI (nnig_laws _ _ _ exG_ok) (fun w => w) exdata excovs xexp 2
    (set_aux (rep_state J exdata excovs exhy m [0; 0; 2]%nat) (repeat (@mkHier J [] 0 norm_stats0 (mkLS 1 3) false None) 2)) 2 4 tt tt); auto.
  - apply (nnig_rows (fun _ => 0) exG exprior).
  - intros. apply xexp_add.
  - intros x k Hk. simpl. unfold xsublog. rewrite xexp_add. simpl xexp at 2. rewrite exp_Ropp, exp_ln; [reflexivity|]. apply lt_0_INR. lia.
  - cbn. lia.
  - cbn. lia.
  - intros h [<-|[<-|[]]]; auto.
  - exact (mfm_start_valid _ _ mfm_p_init).
  - apply (Hs _ _ 3%nat mfm_p_init); cbn; lia.
  - cbn. intro N. inversion N as [|? ? F _]; subst. apply F. now left.
Qed.
