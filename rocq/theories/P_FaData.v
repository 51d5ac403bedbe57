(** * Properties of the hyperparameters set from the data. *)
From Coq Require Import String ZArith Reals Lra Lia.
From mathcomp Require Import all_ssreflect all_algebra.
From mathcomp.algebra_tactics Require Import ring.
From Verif Require MixFacts.
From Verif Require Import Base Mixings Univ RealField MatLib Multi MultiFacts NwHyper Fa FaFacts FaData FaDataFacts.
Set Implicit Arguments.
Unset Strict Implicit.
Unset Printing Implicit Defensive.
Import Order.TTheory GRing.Theory Num.Theory.
Local Open Scope ring_scope.

(** ** C139 *)

(** A prior without vectors: filled from any data no combination of whose columns
    is constant, unless [alpha0 = 1]. *)
Theorem C139_answers : forall n p (data : 'M[R]_(n, p)) c q mt b phi alpha0 m, (0 < n)%N -> centre data c ->
  pm_init q (FAFixed (p := 0) mt b phi alpha0) = Ok m ->
  (spread data c -> alpha0 <> 1 -> exists m', fa_from_data data m = Ok m') /\
  (spread data c -> alpha0 = 1 -> exists s, fa_from_data data m = Throw s) /\
  (~ spread data c -> fa_from_data data m = UB).
Proof.
  move=> n p data c q mt b phi alpha0 m Hn Hc /pm_init_empty [h [-> [Hphi Ha]]]. rewrite (centre_unique Hn Hc).
  split; last split.
  - move=> Hs Hne. rewrite from_data_eq // Ha. case: eqP => // _. eexists. reflexivity.
  - move=> Hs He. rewrite from_data_eq // Ha He eqxx. eexists. reflexivity.
  - exact: from_data_ub.
Qed.
Print Assumptions C139_answers.

(** [mutilde] is the centre of the data; [beta_j / (alpha0 - 1)], the mean of the
    inverse-gamma distribution of the unique variances, is what the best linear
    fit from the other columns leaves of column [j]. *)
Theorem C139_values : forall n p (data : 'M[R]_(n, p)) q mt b phi alpha0 m m',
  pm_init q (FAFixed (p := 0) mt b phi alpha0) = Ok m -> fa_from_data data m = Ok m' ->
  exists h : fa_hyp p, m' = mkPM 0 h /\ centre data (fh_mutilde h) /\ fh_phi h = phi /\ fh_alpha0 h = alpha0 /\
    forall j, exists s, 0 < s /\ residual_variance data (fh_mutilde h) j s /\ fh_beta h j 0 = (alpha0 - 1) * s.
Proof.
  move=> n p data q mt b phi alpha0 m m' /pm_init_empty [h [-> [<- <-]]] /from_data_values [h' [-> [H1 [H2 [H3 [_ [_ H4]]]]]]].
  by exists h'.
Qed.
Print Assumptions C139_values.

(** The prior's own checks accept the outcome exactly when [alpha0 > 1]. *)
Theorem C139_accepted : forall n p (data : 'M[R]_(n, p)) q mt b phi alpha0 m (h : fa_hyp p) d, (0 < p)%N ->
  pm_init q (FAFixed (p := 0) mt b phi alpha0) = Ok m -> fa_from_data data m = Ok (mkPM d h) ->
  ((exists m', pm_init q (FAFixed (fh_mutilde h) (fh_beta h) (fh_phi h) (fh_alpha0 h)) = Ok m') <-> 1 < alpha0).
Proof.
  move=> n p data q mt b phi alpha0 m h d Hp Hi Hd. have [h' [E [_ [Hphi [Ha Hb]]]]] := C139_values Hi Hd.
  have E1 : d = 0%N by case: E. rewrite E1 in E. clear E1.
  have Eh : h = h'.
  { move: (f_equal (fun m => match PeanoNat.Nat.eq_dec (pm_len m) p with left e => Some (eq_rect _ fa_hyp (pm_hyp m) _ e) | right _ => None end) E) => /=.
    case: PeanoNat.Nat.eq_dec => // e. by rewrite -(Eqdep_dec.eq_rect_eq_dec PeanoNat.Nat.eq_dec) -(Eqdep_dec.eq_rect_eq_dec PeanoNat.Nat.eq_dec) => -[]. }
  rewrite -Eh in Hphi Ha Hb. clear E Eh h'.
  have L : forall x : R, lteb x 0 = false <-> 0 < x.
  { move=> x. split.
    - move=> Hx. rewrite ltNge. apply/negP => /RleE Hle. move: Hx. by rewrite (proj2 (MixFacts.lteb_true x 0)).
    - move=> Hx; apply/negbTE/negP => /lteb_true0. by rewrite leNgt Hx. }
  move: Hi. rewrite /pm_init /fa_init. case: ifP => // _. case: ifP => // Ea. case: ifP => // Ep. case: ifP => // Eq _.
  rewrite Ha Hphi Ea Ep. case: existsP => [[j Hj]|Hn].
  - split; first by case. move=> H1. exfalso. have [s [Hs [_ Ebeta]]] := Hb j. move: Hj. rewrite (proj2 (L _)) // Ebeta.
    by rewrite mulr_gt0 // subr_gt0.
  - split; last by move=> _; eexists; reflexivity. move=> _. pose j := Ordinal Hp.
    have [s [Hs [_ Ebeta]]] := Hb j. have Hj : lteb (fh_beta h j 0) 0 = false.
    { apply/negbTE/negP => Hj. apply: Hn. by exists j. }
    move/L: Hj. by rewrite Ebeta pmulr_lgt0 // subr_gt0.
Qed.
Print Assumptions C139_accepted.

(** The prior keeps its own dimension zero.  The state of the hierarchy cannot be
    set up again from the new values, and a draw from the prior is no draw: it
    leaves the generator alone, and has no row of [lambda]. *)
Theorem C139_no_state : forall n p (data : 'M[R]_(n, p)) q mt b phi alpha0 m m', (0 < p)%N ->
  pm_init q (FAFixed (p := 0) mt b phi alpha0) = Ok m -> fa_from_data data m = Ok m' -> pm_init_state q m' = UB.
Proof.
  move=> n p data q mt b phi alpha0 m m' Hp Hi Hd. have [h [-> _]] := C139_values Hi Hd.
  rewrite /pm_init_state /=. by have -> : (0 == p)%N = false by rewrite eq_sym; apply/negbTE; rewrite -lt0n.
Qed.
Print Assumptions C139_no_state.
Theorem C139_no_draw : forall (G : gen) n p (data : 'M[R]_(n, p)) q mt b phi alpha0 m (r : Gs G) m',
  pm_init q (FAFixed (p := 0) mt b phi alpha0) = Ok m -> fa_from_data data m = Ok m' ->
  exists mu psi, pm_sample q m' r = Ok (mu, psi, [::], r) /\ size mu = p /\ size psi = p /\
    forall j : 'I_p, \sum_i (data i j - nth 0 mu j) = 0 /\
      exists c s, centre data c /\ residual_variance data c j s /\ nth 0 psi j = (alpha0 - 1) * s / (alpha0 + 1).
Proof.
  move=> G n p data q mt b phi alpha0 m r m' Hi Hd. have [h [-> [Hc [_ [Ha Hb]]]]] := C139_values Hi Hd.
  rewrite /pm_sample /= take0 drop0 /=. do 2 eexists. split; first reflexivity.
  have Es : size (enum 'I_p) = p by rewrite size_enum_ord.
  split; first by rewrite size_map. split; first by rewrite size_map. move=> j.
  rewrite (nth_map j) ?Es // (nth_map j) ?Es // nth_ord_enum. split; first exact: Hc.
  have [s [_ [Hr Eb]]] := Hb j. by exists (fh_mutilde h), s; rewrite Eb Ha.
Qed.
Print Assumptions C139_no_draw.

(** A prior with vectors is left alone, whatever the data. *)
Theorem C139_given : forall n p' p (data : 'M[R]_(n, p')) q (pr : fa_prior p) m, (0 < p)%N ->
  pm_init q pr = Ok m -> fa_from_data data m = Ok m.
Proof.
  move=> n p' p data q pr m Hp. rewrite /pm_init. case: (fa_init q pr) => [h| | |] //= [<-].
  by rewrite /fa_from_data /=; case: p Hp pr h => [|p0] Hp pr h.
Qed.
Print Assumptions C139_given.
(** A second call changes nothing. *)
Theorem C139_twice : forall n p (data : 'M[R]_(n, p)) q mt b phi alpha0 m m', (0 < p)%N ->
  pm_init q (FAFixed (p := 0) mt b phi alpha0) = Ok m -> fa_from_data data m = Ok m' -> fa_from_data data m' = Ok m'.
Proof.
  move=> n p data q mt b phi alpha0 m m' Hp /pm_init_empty [h [-> _]] /from_data_values [h' [-> [_ [_ [_ [_ [Em _]]]]]]].
  rewrite /fa_from_data /=. have -> : (p == 0)%N = false by apply/negbTE; rewrite -lt0n.
  case: PeanoNat.Nat.eq_dec => // e. rewrite (Eqdep_dec.UIP_dec PeanoNat.Nat.eq_dec e (erefl p)) castmx_id -Em.
  by case: h' Em.
Qed.
Print Assumptions C139_twice.

(** *** Four points at the corners of a square, [alpha0 = 3] *)
Definition corners : 'M[R]_(4, 2) := \matrix_(i, j) (if (if j == 0 then (i < 2)%N else ~~ odd i) then 1 else -1).
Lemma corners_centre : centre corners 0.
Proof.
  move=> j. rewrite !big_ord_recl big_ord0 !mxE /=. by case: (j == 0); rewrite /=; ring.
Qed.
Lemma corners_dev : forall i v, deviation corners 0 i v = (if (i < 2)%N then 1 else -1) * v 0 0 + (if odd i then -1 else 1) * v 1 0.
Proof.
  move=> i v. rewrite /deviation !big_ord_recl big_ord0 !mxE /= !subr0 addr0.
  have -> : lift 0 0 = 1 :> 'I_2 by apply: val_inj. by case: (odd i).
Qed.
Lemma corners_variance : forall v, variance corners 0 v = 4%:R / 3%:R * (v 0 0 ^+ 2 + v 1 0 ^+ 2).
Proof.
  move=> v. rewrite /variance !big_ord_recl big_ord0 !corners_dev /= /bump /=.
  have -> : 4%:R - 1 = 3%:R :> R by ring. by field.
Qed.
Lemma corners_spread : spread corners 0.
Proof.
  move=> v Hv. case: (pickP (fun i => deviation corners 0 i v != 0)) => [i /eqP Hi|Hall]; first by exists i.
  exfalso. move/eqP: Hv; apply. have Z : forall i, deviation corners 0 i v = 0 by move=> i; apply/eqP/negbFE; exact: Hall.
  have := corners_variance v. rewrite (variance0 Z) => /eqP. rewrite eq_sym mulf_eq0 gt_eqF /=; last by rewrite divr_gt0 // ltr0n.
  rewrite paddr_eq0 ?sqr_ge0 // !sqrf_eq0 => /andP [/eqP E0 /eqP E1]. apply/matrixP=> i k. rewrite (ord1 k) mxE.
  case: i => -[|[|i]] Hi //; first by rewrite -E0; congr (v _ _); apply: val_inj.
  by rewrite -E1; congr (v _ _); apply: val_inj.
Qed.
Lemma lteb_pos : forall x : R, 0 < x -> lteb x 0 = false.
Proof. move=> x Hx; apply/negbTE/negP => /lteb_true0. by rewrite leNgt Hx. Qed.
Lemma empty_init : forall alpha0 : R, 0 < alpha0 ->
  pm_init 1 (FAFixed (p := 0) 0 0 1 alpha0) = Ok (mkPM 0 (mkFAH (p := 0) 0 0 1 alpha0)).
Proof.
  move=> alpha0 Ha. rewrite /pm_init /fa_init. case: existsP => [[[j Hj]]|_] //. by rewrite !lteb_pos ?ltr01.
Qed.
Lemma corners_beta : forall s j, residual_variance corners 0 j s -> s = 4%:R / 3%:R.
Proof.
  move=> s j [[v [Hv Es]] Hmin]. have H43 : 0 < 4%:R / 3%:R :> R by rewrite divr_gt0 // ltr0n.
  apply/eqP. rewrite eq_le. apply/andP. split.
  - have := Hmin (delta_mx j 0). rewrite mxE !eqxx /= => /(_ erefl). rewrite corners_variance.
    suff -> : (delta_mx j 0 : 'cV[R]_2) 0 0 ^+ 2 + (delta_mx j 0 : 'cV[R]_2) 1 0 ^+ 2 = 1 by rewrite mulr1.
    rewrite !mxE. case: j {v Hv Es Hmin} => -[|[|j]] Hj //=; rewrite ?expr0n ?expr1n ?addr0 ?add0r //.
  - rewrite -Es corners_variance -{1}[_ / _]mulr1 ler_pmul2l //.
    have : v 0 0 = 1 \/ v 1 0 = 1.
    { case: j Hv {Hmin} => -[|[|j]] Hj // Hv; [left|right]; rewrite -Hv; congr (v _ _); exact: val_inj. }
    by case=> ->; rewrite expr1n; [rewrite ler_addl|rewrite ler_addr]; exact: sqr_ge0.
Qed.
Example C139_example : exists m (h : fa_hyp 2),
  pm_init 1 (FAFixed (p := 0) 0 0 1 3%:R) = Ok m /\ fa_from_data corners m = Ok (mkPM 0 h) /\
  fh_mutilde h = 0 /\ fh_beta h = const_mx (8%:R / 3%:R).
Proof.
  have Hi := @empty_init 3%:R (ltr0Sn _ 2). eexists. 
  have Hne : 3%:R <> 1 :> R by move/eqP; rewrite (eqr_nat _ 3 1).
  have [H _] := C139_answers (isT : (0 < 4)%N) corners_centre Hi. have [m' Hd] := H corners_spread Hne.
  have [h [E [Hc [_ [_ Hb]]]]] := C139_values Hi Hd. exists h. split; first exact Hi. split; first by rewrite Hd E.
  have E0 : fh_mutilde h = 0 by rewrite (centre_unique (isT : (0 < 4)%N) Hc) -(centre_unique (isT : (0 < 4)%N) corners_centre).
  split=> //. apply/matrixP=> j k. rewrite (ord1 k) mxE. have [s [_ [Hr ->]]] := Hb j. rewrite E0 in Hr.
  rewrite (corners_beta Hr). by field.
Qed.

(** "The values set from the data are hyperparameters of an inverse-gamma
    distribution" fails: below [alpha0 = 1] they are negative, and nothing is
    thrown. *)
Theorem C139_positive_refuted : exists n p (data : 'M[R]_(n, p)) alpha0 m (h : fa_hyp p),
  pm_init 1 (FAFixed (p := 0) 0 0 1 alpha0) = Ok m /\ fa_from_data data m = Ok (mkPM 0 h) /\
  0 < alpha0 /\ (0 < p)%N /\ forall j : 'I_p, fh_beta h j 0 < 0.
Proof.
  have Ha : 0 < 2%:R^-1 :> R by rewrite invr_gt0 ltr0n. have Hi := empty_init Ha.
  have Hlt : 2%:R^-1 < 1 :> R by rewrite invf_lt1 ?ltr0n // (ltr_nat _ 1 2).
  have Hne : 2%:R^-1 <> 1 :> R by move=> E; move: Hlt; rewrite E ltxx.
  have [H _] := C139_answers (isT : (0 < 4)%N) corners_centre Hi. have [m' Hd] := H corners_spread Hne.
  have [h [E [_ [_ [_ Hb]]]]] := C139_values Hi Hd. exists 4%N, 2%N, corners, (2%:R^-1). eexists. exists h.
  split; first exact Hi. split; first by rewrite Hd E. do 2 split=> //. move=> j. have [s [Hs [_ ->]]] := Hb j.
  by rewrite pmulr_llt0 // subr_lt0.
Qed.
Print Assumptions C139_positive_refuted.
