(** * Facts about the hyperparameters set from the data. *)
From Coq Require Import String ZArith Reals Lra Lia.
From mathcomp Require Import all_ssreflect all_algebra.
From mathcomp.algebra_tactics Require Import ring.
From Verif Require Import Base Mixings Univ RealField MatLib Multi MultiFacts Fa FaFacts FaData.
Set Implicit Arguments.
Unset Strict Implicit.
Unset Printing Implicit Defensive.
Import Order.TTheory GRing.Theory Num.Theory.
Local Open Scope ring_scope.

(** ** Specification vocabulary *)

(** The rows of [data] lie around [c]: deviations of each column sum to zero. *)
Definition centre n p (data : 'M[R]_(n, p)) (c : 'cV[R]_p) : Prop := forall j, \sum_i (data i j - c j 0) = 0.
(** The combination [v] of the columns at row [i], less its value at [c]. *)
Definition deviation n p (data : 'M[R]_(n, p)) (c : 'cV[R]_p) (i : 'I_n) (v : 'cV[R]_p) : R :=
  \sum_k (data i k - c k 0) * v k 0.
(** No combination of the columns is constant over the rows. *)
Definition spread n p (data : 'M[R]_(n, p)) (c : 'cV[R]_p) : Prop :=
  forall v, v != 0 -> exists i, deviation data c i v <> 0.
(** Variance of the combination [v] around [c]. *)
Definition variance n p (data : 'M[R]_(n, p)) (c : 'cV[R]_p) (v : 'cV[R]_p) : R :=
  (\sum_i deviation data c i v ^+ 2) / (n%:R - 1).
(** [s] is the variance left in column [j] by the best linear fit from the other
    columns. *)
Definition residual_variance n p (data : 'M[R]_(n, p)) (c : 'cV[R]_p) (j : 'I_p) (s : R) : Prop :=
  (exists v : 'cV[R]_p, v j 0 = 1 /\ variance data c v = s) /\ (forall v : 'cV[R]_p, v j 0 = 1 -> s <= variance data c v).

(** ** Means and covariance *)

Lemma col_means_centre : forall n p (data : 'M[R]_(n, p)), centre data (col_means data).
Proof.
  move=> [|n] p data j; first by rewrite big_ord0.
  rewrite big_split /= sumrN sumr_const card_ord mxE -[_ / _ *+ _]mulr_natr mulfVK ?subrr //.
  by rewrite pnatr_eq0.
Qed.
Lemma centre_unique : forall n p (data : 'M[R]_(n, p)) c, (0 < n)%N -> centre data c -> c = col_means data.
Proof.
  move=> n p data c Hn Hc. apply/matrixP=> j k. rewrite (ord1 k) mxE.
  have := Hc j. rewrite big_split /= sumrN sumr_const card_ord => /eqP. rewrite subr_eq0 => /eqP ->.
  by rewrite -[c j 0 *+ _]mulr_natr mulfK // pnatr_eq0 -lt0n.
Qed.

Lemma deviation_sum : forall n p (data : 'M[R]_(n, p)) c v, centre data c -> \sum_i deviation data c i v = 0.
Proof.
  move=> n p data c v Hc. rewrite /deviation exchange_big /= big1 // => k _.
  by rewrite -mulr_suml Hc mul0r.
Qed.

Lemma cov_sym : forall n p (data : 'M[R]_(n, p)), (sample_cov data)^T = sample_cov data.
Proof. by move=> n p data; rewrite /sample_cov trZ trmx_mul trmxK. Qed.
Lemma cov_quad : forall n p (data : 'M[R]_(n, p)) v,
  quad (sample_cov data) v = variance data (col_means data) v.
Proof.
  move=> n p data v. rewrite /sample_cov quadZl quad_gram dotE /variance mulrC. congr (_ * _).
  apply: eq_bigr => i _. rewrite expr2. suff -> : forall k : 'I_1, (\matrix_(i, j) (data i j - col_means data j 0) *m v) i k
    = deviation data (col_means data) i v by [].
  move=> k. rewrite (ord1 k) mxE. by apply: eq_bigr => j _; rewrite mxE.
Qed.
Lemma variance0 : forall n p (data : 'M[R]_(n, p)) c v, (forall i, deviation data c i v = 0) -> variance data c v = 0.
Proof. by move=> n p data c v H; rewrite /variance big1 ?mul0r // => i _; rewrite H expr0n. Qed.

Lemma spread_spd : forall n p (data : 'M[R]_(n, p)), spd (sample_cov data) <-> spread data (col_means data).
Proof.
  move=> n p data. split.
  - move=> [_ H] v Hv. have := H v Hv. rewrite cov_quad => Hpos.
    case: (pickP (fun i => deviation data (col_means data) i v != 0)) => [i /eqP Hi|Hall]; first by exists i.
    have Z : forall i, deviation data (col_means data) i v = 0 by move=> i; apply/eqP/negbFE; exact: Hall.
    by move: Hpos; rewrite (variance0 Z) ltxx.
  - move=> H. split; first exact: cov_sym. move=> v Hv. rewrite cov_quad. have [i Hi] := H v Hv.
    have Hn : (1 < n)%N.
    { case: n data H i Hi => [|[|n]] data H i Hi //; first by case: i Hi.
      exfalso. apply: Hi. have := deviation_sum v (@col_means_centre _ _ data). by rewrite big_ord1 (ord1 i). }
    have Hn1 : 0 < n%:R - 1 :> R by rewrite subr_gt0 (ltr_nat _ 1 n).
    rewrite /variance divr_gt0 //. rewrite (bigD1 i) //=. apply: ltr_paddr.
    + by apply: sumr_ge0 => k _; exact: sqr_ge0.
    + rewrite lt_def sqr_ge0 andbT sqrf_eq0. by apply/eqP.
Qed.

(** ** Diagonal of the inverse *)

Lemma dot_delta : forall p (v : 'cV[R]_p) j, dot v (delta_mx j 0) = v j 0.
Proof.
  move=> p v j. rewrite dotE (bigD1 j) //= big1 ?addr0; first by rewrite !mxE !eqxx mulr1.
  by move=> i Hi; rewrite mxE (negbTE Hi) mulr0.
Qed.
Lemma mul_delta : forall p (A : 'M[R]_p) i j, (A *m (delta_mx j 0 : 'cV[R]_p)) i 0 = A i j.
Proof.
  move=> p A i j. rewrite mxE (bigD1 j) //= big1 ?addr0; first by rewrite !mxE !eqxx mulr1.
  by move=> k Hk; rewrite mxE (negbTE Hk) mulr0.
Qed.
Lemma inv_diag_pos : forall p (S : 'M[R]_p) j, spd S -> 0 < invmx S j j.
Proof.
  move=> p S j HS. have [_ H] := spd_inv HS.
  have Hd : delta_mx j 0 != 0 :> 'cV[R]_p.
  { apply/eqP=> /matrixP /(_ j 0). rewrite !mxE !eqxx => /eqP. by rewrite oner_eq0. }
  have := H _ Hd. by rewrite /quad dotC dot_delta mul_delta.
Qed.
Lemma inv_diag_least : forall p (S : 'M[R]_p) j, spd S ->
  (exists v : 'cV[R]_p, v j 0 = 1 /\ quad S v = (invmx S j j)^-1) /\
  (forall v : 'cV[R]_p, v j 0 = 1 -> (invmx S j j)^-1 <= quad S v).
Proof.
  move=> p S j HS. have Hp := inv_diag_pos j HS. have Hsym : S^T = S by case: HS.
  set a := (invmx S j j)^-1. pose e : 'cV[R]_p := delta_mx j 0. pose u := a *: (invmx S *m e).
  have Su : S *m u = a *: e by rewrite /u -scalemxAr mulmxA mulmxV ?spd_unit // mul1mx.
  have uj : u j 0 = 1 by rewrite /u mxE mul_delta /a mulVf // gt_eqF.
  have dotu : forall v : 'cV[R]_p, v j 0 = 1 -> dot v (S *m u) = a by move=> v Hv; rewrite Su dotZr dot_delta Hv mulr1.
  have qu : quad S u = a by rewrite /quad dotu.
  split; first by exists u. move=> v Hv.
  have : 0 <= quad S (v - u).
  { case: (altP (v - u =P 0)) => [->|Hn]; first by rewrite /quad mulmx0 dot0r. by apply: ltW; case: HS => _; apply. }
  rewrite (quadB _ _ Hsym) qu (dotu v Hv).
  have -> : quad S v - 2%:R * a + a = quad S v - a by ring.
  by rewrite subr_ge0.
Qed.

(** ** The function *)

Lemma pm_init_empty : forall q mt b phi alpha0 m, pm_init q (FAFixed (p := 0) mt b phi alpha0) = Ok m ->
  exists h, m = @mkPM 0 0 h /\ fh_phi h = phi /\ fh_alpha0 h = alpha0.
Proof.
  move=> q mt b phi alpha0 m. rewrite /pm_init. case E: (fa_init q (FAFixed mt b phi alpha0)) => [h| | |] //= [<-]. exists h. split=> //.
  move: E. rewrite /fa_init. case: ifP => // _. case: ifP => // _. case: ifP => // _. case: ifP => // _ [<-]. by [].
Qed.
Lemma from_data_eq : forall n p (data : 'M[R]_(n, p)) (h : fa_hyp 0), spread data (col_means data) ->
  fa_from_data data (mkPM 0 h) =
    if fh_alpha0 h == 1 then
      Throw "Scale parameter must be different than 1 when automatic initialization is used"
    else Ok (@mkPM 0 p (mkFAH (col_means data) ((fh_alpha0 h - 1) *: \col_j (invmx (sample_cov data) j j)^-1) (fh_phi h) (fh_alpha0 h))).
Proof.
  move=> n p data h /spread_spd Hs. rewrite /fa_from_data /= pivots_of_spd // llt_solveE // mulmx1. by [].
Qed.
Lemma from_data_ub : forall n p (data : 'M[R]_(n, p)) (h : fa_hyp 0), ~ spread data (col_means data) ->
  fa_from_data data (mkPM 0 h) = UB.
Proof.
  move=> n p data h Hs. rewrite /fa_from_data /=. case: ifP => // Hp. exfalso. apply/Hs/spread_spd.
  by apply: spd_of_pivots => //; exact: cov_sym.
Qed.
Lemma from_data_values : forall n p (data : 'M[R]_(n, p)) (h : fa_hyp 0) m',
  fa_from_data data (mkPM 0 h) = Ok m' ->
  exists h' : fa_hyp p, m' = mkPM 0 h' /\ centre data (fh_mutilde h') /\
    fh_phi h' = fh_phi h /\ fh_alpha0 h' = fh_alpha0 h /\ fh_alpha0 h <> 1 /\ fh_mutilde h' = col_means data /\
    forall j, exists s, 0 < s /\ residual_variance data (fh_mutilde h') j s /\ fh_beta h' j 0 = (fh_alpha0 h - 1) * s.
Proof.
  move=> n p data h m' H.
  have Hs : spread data (col_means data).
  { apply/spread_spd. move: H. rewrite /fa_from_data /=. case: ifP => // Hp _.
    by apply: spd_of_pivots => //; exact: cov_sym. }
  move: H. rewrite from_data_eq //. case: eqP => // Ha [<-]. eexists. split; first reflexivity. rewrite /=.
  split; first exact: col_means_centre. do 4 (split=> //). move=> j. exists (invmx (sample_cov data) j j)^-1.
  move/spread_spd: Hs => Hs. split; first by rewrite invr_gt0 inv_diag_pos.
  split; last by rewrite !mxE. have [[v [Hv Hq]] Hall] := inv_diag_least j Hs.
  split; first by exists v; rewrite -cov_quad. by move=> w Hw; rewrite -cov_quad; exact: Hall.
Qed.
