(** * Evaluated univariate densities integrate to one. *)
From Coq Require Import Bool List Arith ZArith Reals Lra Lia Psatz.
From Coquelicot Require Import Coquelicot.
From Verif Require Import Base XReal Mixings PartSpec MixFacts Univ UnivFacts GaussInt GammaInt DistFacts UnivInt StudentInt Collect Utils Eval EvalFacts.
Import ListNotations.
Local Open Scope R_scope.

(** ** Laplace *)
Lemma lap_right : forall mu c, 0 < c -> is_RInt_gen (fun y => exp (- ((y - mu) / c)) / (2 * c)) (at_point mu) (Rbar_locally p_infty) (1 / 2).
Proof.
  intros mu c Hc.
  assert (D : forall x, is_derive (fun y => - (exp (- ((y - mu) / c)) / 2)) x (exp (- ((x - mu) / c)) / (2 * c))).
  { intro x. auto_derive; [trivial|]. unfold Rdiv, Rminus. field. lra. }
  replace (1 / 2) with (0 - - (1 / 2)) by field.
  apply (is_RInt_gen_ext (Derive (fun y => - (exp (- ((y - mu) / c)) / 2)))).
  { apply filter_forall. intros ab x _. apply is_derive_unique, D. }
  apply is_RInt_gen_Derive.
  - apply filter_forall. intros ab x _. eexists. apply D.
  - apply filter_forall. intros ab x _. apply (continuous_ext (fun x => exp (- ((x - mu) / c)) / (2 * c))); [intros; symmetry; apply is_derive_unique, D|].
    apply (ex_derive_continuous (K:=R_AbsRing) (V:=R_NormedModule)). auto_derive. lra.
  - intros P HP. unfold filtermap, at_point. replace (- (exp (- ((mu - mu) / c)) / 2)) with (- (1 / 2)); [now apply locally_singleton|].
    replace (- ((mu - mu) / c)) with 0 by (field; lra). now rewrite exp_0.
  - change (is_lim (fun y => - (exp (- ((y - mu) / c)) / 2)) p_infty 0). apply is_lim_spec. intro eps. pose proof (cond_pos eps) as He.
    exists (mu - c * ln (2 * eps)). intros x Hx. cbn beta.
    rewrite Rminus_0_r, Rabs_Ropp, Rabs_pos_eq by (left; apply Rdiv_lt_0_compat; [apply exp_pos|lra]).
    assert (L : exp (- ((x - mu) / c)) < exp (ln (2 * eps))).
    { apply exp_increasing. apply (Rmult_lt_reg_r c); [exact Hc|]. replace (- ((x - mu) / c) * c) with (- (x - mu)) by (field; lra). lra. }
    rewrite exp_ln in L by lra. lra.
Qed.

Lemma lap_left : forall mu c, 0 < c -> is_RInt_gen (fun y => exp ((y - mu) / c) / (2 * c)) (Rbar_locally m_infty) (at_point mu) (1 / 2).
Proof.
  intros mu c Hc.
  assert (D : forall x, is_derive (fun y => exp ((y - mu) / c) / 2) x (exp ((x - mu) / c) / (2 * c))).
  { intro x. auto_derive; [trivial|]. unfold Rdiv, Rminus. field. lra. }
  replace (1 / 2) with (1 / 2 - 0) by field.
  apply (is_RInt_gen_ext (Derive (fun y => exp ((y - mu) / c) / 2))).
  { apply filter_forall. intros ab x _. apply is_derive_unique, D. }
  apply is_RInt_gen_Derive.
  - apply filter_forall. intros ab x _. eexists. apply D.
  - apply filter_forall. intros ab x _. apply (continuous_ext (fun x => exp ((x - mu) / c) / (2 * c))); [intros; symmetry; apply is_derive_unique, D|].
    apply (ex_derive_continuous (K:=R_AbsRing) (V:=R_NormedModule)). auto_derive. lra.
  - change (is_lim (fun y => exp ((y - mu) / c) / 2) m_infty 0). apply is_lim_spec. intro eps. pose proof (cond_pos eps) as He.
    exists (mu + c * ln (2 * eps)). intros x Hx. cbn beta.
    rewrite Rminus_0_r, Rabs_pos_eq by (left; apply Rdiv_lt_0_compat; [apply exp_pos|lra]).
    assert (L : exp ((x - mu) / c) < exp (ln (2 * eps))).
    { apply exp_increasing. apply (Rmult_lt_reg_r c); [exact Hc|]. replace ((x - mu) / c * c) with (x - mu) by (field; lra). lra. }
    rewrite exp_ln in L by lra. lra.
  - intros P HP. unfold filtermap, at_point. replace (exp ((mu - mu) / c) / 2) with (1 / 2); [now apply locally_singleton|].
    replace ((mu - mu) / c) with 0 by (field; lra). now rewrite exp_0.
Qed.

Lemma laplace_normalised : forall mu c, 0 < c -> is_line_int (fun y => exp (double_exponential_lpdf y mu c)) 1.
Proof.
  intros mu c Hc.
  assert (E : forall y, exp (double_exponential_lpdf y mu c) = exp (- (Rabs (y - mu) / c)) / (2 * c)).
  { intro y. unfold double_exponential_lpdf, Rminus. rewrite !exp_plus, !exp_Ropp, !exp_ln by lra.
    pose proof (exp_pos (Rabs (y + - mu) / c)). field. repeat split; lra. }
  apply (line_ext (fun y => exp (- (Rabs (y - mu) / c)) / (2 * c))); [intro; symmetry; apply E|].
  unfold is_line_int. replace 1 with (1 / 2 + 1 / 2) by field.
  apply (is_RInt_gen_Chasles (V:=R_NormedModule) _ mu (1 / 2) (1 / 2)).
  - apply (is_RInt_gen_ext (fun y => exp ((y - mu) / c) / (2 * c))); [|now apply lap_left].
    apply (Filter_prod _ _ _ (fun a => a < mu) (fun b => b = mu)); [exists mu; auto|reflexivity|].
    intros a b Ha -> x Hx. cbn [fst snd] in Hx. rewrite Rmax_right in Hx by lra. rewrite Rabs_left1 by lra. f_equal. f_equal. field. lra.
  - apply (is_RInt_gen_ext (fun y => exp (- ((y - mu) / c)) / (2 * c))); [|now apply lap_right].
    apply (Filter_prod _ _ _ (fun a => a = mu) (fun b => mu < b)); [reflexivity|exists mu; auto|].
    intros a b -> Hb x Hx. cbn [fst snd] in Hx. rewrite Rmin_left in Hx by lra. rewrite Rabs_pos_eq by lra. reflexivity.
Qed.

(** ** Components of the hierarchies *)
Lemma norm_like_normalised : forall s, 0 < ls_var s -> is_line_int (fun y => exp (norm_lpdf s y)) 1.
Proof.
  intros s Hs. apply (line_ext (gauss (ls_mean s) (sqrt (ls_var s) * sqrt (ls_var s)))).
  - intro y. unfold norm_lpdf. symmetry. apply exp_normal. now apply sqrt_lt_R0.
  - apply gauss_mass. pose proof (sqrt_lt_R0 _ Hs). nra.
Qed.
Lemma lap_like_normalised : forall s, 0 < ls_var s -> is_line_int (fun y => exp (lap_lpdf s y)) 1.
Proof. intros s Hs. apply laplace_normalised. apply sqrt_lt_R0. lra. Qed.
Lemma nnig_predictive_normalised : forall h, valid h -> is_line_int (fun y => exp (nnig_marg_lpdf lgam h y)) 1.
Proof.
  intros h (Hv & Ha & Hb). unfold nnig_marg_lpdf. apply student_normalised.
  - lra.
  - apply sqrt_lt_R0. apply Rdiv_lt_0_compat; [nra|nra].
Qed.

(** ** Mixtures

    [Int f l]: the integral of [f] over the sample space is [l].  Instances are the
    line, the iterated integral over vectors and, for a regression, the integral
    over the response at every value of the covariates. *)
Section Mixture.
  Variable X : Type.
  Variable Int : (X -> R) -> R -> Prop.
  Hypothesis int_ext : forall f g l, (forall x, f x = g x) -> Int f l -> Int g l.
  Hypothesis int_plus : forall f g a b, Int f a -> Int g b -> Int (fun x => f x + g x) (a + b).
  Hypothesis int_scal : forall f c a, Int f a -> Int (fun x => c * f x) (c * a).
  Hypothesis int_zero : Int (fun _ => 0) 0.

  Lemma mixture_int : forall A (f : A -> X -> R) ws (xs : list A), length ws = length xs -> (forall a, In a xs -> Int (f a) 1) ->
    Int (fun y => mixture ws (map (fun a => f a y) xs)) (total ws).
  Proof.
    intros A f ws. induction ws as [|w ws IH]; intros [|a xs] L H; try discriminate L.
    - exact int_zero.
    - apply (int_ext (fun y => w * f a y + mixture ws (map (fun a => f a y) xs))); [intro y; reflexivity|].
      rewrite total_cons. apply int_plus.
      + pose proof (int_scal _ w 1 (H a (or_introl eq_refl))) as Q. rewrite Rmult_1_r in Q. exact Q.
      + apply IH; [now injection L|]. intros b Hb. apply H. now right.
  Qed.

  Variable St : Type.
  Variable like : St -> X -> xreal.
  Variable like_ok : St -> Prop.
  Hypothesis like_int : forall s, like_ok s -> Int (fun y => xexp (like s y)) 1.

  Lemma density_int : forall ws wn (clusters : list (St * Z)) comp,
    length ws = length clusters -> total ws + wn = 1 ->
    (forall p, In p clusters -> Int (fun y => xexp (like (fst p) y)) 1) -> Int (fun y => xexp (comp y)) 1 ->
    Int (fun y => mixture ws (map (fun p => xexp (like (fst p) y)) clusters) + wn * xexp (comp y)) 1.
  Proof.
    intros ws wn cl comp L T H Hc. rewrite <- T. apply int_plus.
    - apply (mixture_int _ (fun p y => xexp (like (fst p) y))); assumption.
    - pose proof (int_scal _ wn 1 Hc) as Q. rewrite Rmult_1_r in Q. exact Q.
  Qed.

  (** The evaluated values, exponentiated, are the values on the grid of a density. *)
  Lemma forall2_map : forall (d : X -> R) grid out, Forall2 (fun x v => xexp v = d x) grid out -> map xexp out = map d grid.
  Proof. intros d grid out F. induction F as [|x v g o H F IH]; [reflexivity|]. cbn [map]. now rewrite H, IH. Qed.

  Definition all_ok (cl : list (St * Z)) : Prop := forall p, In p cl -> like_ok (fst p).

  Lemma dp_proper : forall uv comp (sv : saved St R), uv <> [] -> saved_ok St sv -> 0 < sv_mix sv -> all_ok (sv_clusters sv) ->
    Int (fun y => xexp (comp y)) 1 ->
    exists dens, Int dens 1 /\
      forall grid o, exists out o', marg_eval like dp_mixer uv comp sv grid o = Ok (out, o') /\ map xexp out = map dens grid.
  Proof.
    intros uv comp sv U S M A C. eexists. split; [|intros grid o].
    2:{ destruct (dp_density St X like uv comp sv grid o U S M) as (out & E & F & _). exists out. eexists. split; [exact E|].
        apply forall2_map. exact F. }
    destruct (dp_density St X like uv comp sv [] dp_make_shared U S M) as (_ & _ & _ & T).
    apply (density_int); [now rewrite map_length|exact T| |exact C]. intros p Hp. apply like_int, A, Hp.
  Qed.

  Lemma py_proper : forall uv comp (sv : saved St py_state), uv <> [] -> saved_ok St sv ->
    0 <= py_dis (sv_mix sv) < 1 -> - py_dis (sv_mix sv) < py_str (sv_mix sv) -> sv_clusters sv <> [] -> all_ok (sv_clusters sv) ->
    Int (fun y => xexp (comp y)) 1 ->
    exists dens, Int dens 1 /\
      forall grid o, exists out o', marg_eval like py_mixer uv comp sv grid o = Ok (out, o') /\ map xexp out = map dens grid.
  Proof.
    intros uv comp sv U S D T N A C. eexists. split; [|intros grid o].
    2:{ destruct (py_density St X like uv comp sv grid o U S D T N) as (out & E & F & _). exists out. eexists. split; [exact E|].
        apply forall2_map. exact F. }
    destruct (py_density St X like uv comp sv [] (sv_mix sv) U S D T N) as (_ & _ & _ & T1).
    apply (density_int); [now rewrite map_length|exact T1| |exact C]. intros p Hp. apply like_int, A, Hp.
  Qed.

  Lemma mfm_proper : forall series uv comp (sv : saved St (R * R)) grid o V1 V2 s1 s2, uv <> [] -> saved_ok St sv ->
    let K := length (sv_clusters sv) in
    0 < snd (sv_mix sv) -> mfm_get_V series K (sv_n sv) (mfm_load (fst (sv_mix sv)) (snd (sv_mix sv)) o) = Ok (V1, s1) ->
    mfm_get_V series (K + 1) (sv_n sv) s1 = Ok (V2, s2) -> 0 < V1 -> 0 <= V2 -> (0 < K)%nat -> all_ok (sv_clusters sv) ->
    Int (fun y => xexp (comp y)) 1 ->
    exists dens, Int dens 1 /\
      exists out o', marg_eval like (mfm_mixer series) uv comp sv grid o = Ok (out, o') /\ map xexp out = map dens grid.
  Proof.
    intros series uv comp sv grid o V1 V2 s1 s2 U S K G E1 E2 P1 P2 HK A C.
    destruct (mfm_density St X like series uv comp sv grid o V1 V2 s1 s2 U S G E1 E2 P1 P2 HK) as (out & o' & E & F & T).
    eexists. split; [|exists out, o'; split; [exact E|apply forall2_map; exact F]].
    apply (density_int); [now rewrite map_length|exact T| |exact C]. intros p Hp. apply like_int, A, Hp.
  Qed.

  Lemma cond_mass : forall uv lw states, uv <> [] -> length states = length lw -> (forall s, In s states -> like_ok s) ->
    exists dens, Int dens (total (map xexp lw)) /\
      forall grid, exists out, cond_eval like uv lw states grid = Ok out /\ map xexp out = map dens grid.
  Proof.
    intros uv lw states U L A. eexists. split; [|intros grid].
    2:{ destruct (cond_density St X like uv lw states grid U ltac:(lia)) as (out & E & F). exists out. split; [exact E|]. apply forall2_map. exact F. }
    apply (mixture_int _ (fun s y => xexp (like s y))); [now rewrite map_length|]. intros s Hs. apply like_int, A, Hs.
  Qed.

  Lemma aux_int : forall draws, draws <> [] -> (forall s, In s draws -> like_ok s) -> Int (fun y => xexp (aux_component like draws y)) 1.
  Proof.
    intros draws N A.
    assert (HN : 0 < INR (length draws)) by (destruct draws; [contradiction|]; apply lt_0_INR; simpl; lia).
    apply (int_ext (fun y => / INR (length draws) * total (map (fun s => xexp (like s y)) draws))).
    { intro y. rewrite (aux_average St X like draws y N). unfold Rdiv. ring. }
    replace 1 with (/ INR (length draws) * INR (length draws)) by (field; lra). apply int_scal.
    clear N HN. induction draws as [|s l IH]; [exact int_zero|].
    apply (int_ext (fun y => xexp (like s y) + total (map (fun s => xexp (like s y)) l))); [intro; reflexivity|].
    replace (INR (length (s :: l))) with (1 + INR (length l)) by (cbn [length]; rewrite S_INR; ring).
    apply int_plus; [apply like_int, A; now left|]. apply IH. intros q Hq. apply A. now right.
  Qed.
End Mixture.

