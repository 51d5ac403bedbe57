(** * Normal-Wishart hierarchy: statistics, validity, Bayes' rule, predictive density. *)
From Coq Require Import ZArith Reals Lra Lia.
From mathcomp Require Import all_ssreflect all_algebra.
From mathcomp.algebra_tactics Require Import ring.
From Verif Require Import Base Mixings Univ RealField MatLib Multi MultiFacts.
Set Implicit Arguments.
Unset Strict Implicit.
Unset Printing Implicit Defensive.
Import Order.TTheory GRing.Theory Num.Theory.
Local Open Scope ring_scope.

(** ** Specification vocabulary *)

(** Batch statistics. *)
Definition mstats_of d (ys : seq 'cV[R]_d) : mnorm_stats d := (\sum_(y <- ys) y, \sum_(y <- ys) y *m y^T).
Definition cardZ' (A : Type) (ys : seq A) : Z := Z.of_nat (size ys).

Definition nw_valid d (h : nw d) : Prop :=
  0 < nw_vs h /\ d%:R - 1 < nw_df h /\ spd (nw_scale h) /\ nw_sinv h = invmx (nw_scale h) /\
  nw_chol h = llt_U (nw_scale h).

(** Log marginal likelihood of a batch: prior normalisation over posterior
    normalisation. *)
Definition nw_log_marg (lg : R -> R) d (h : nw d) (ys : seq 'cV[R]_d) : R :=
  let n := (size ys)%:R in
  let hn := nnw_post h (cardZ' ys) (mstats_of ys) in
  - (n * d%:R * hf * ln PI) + d%:R * hf * (ln (nw_vs h) - ln (np_vs hn))
  + lmgamma lg d (np_df hn * hf) - lmgamma lg d (nw_df h * hf)
  + np_df hn * hf * ln (\det (np_scale hn)) - nw_df h * hf * ln (\det (nw_scale h)).

(** ** Elementary facts *)

Lemma IZR_size : forall (A : Type) (ys : seq A), IZR (cardZ' ys) = (size ys)%:R.
Proof. by move=> A ys; rewrite /cardZ' -INR_IZR_INZ RnatE. Qed.
Lemma cardZ_eq0 : forall (A : Type) (ys : seq A), Z.eqb (cardZ' ys) 0 = (size ys == 0)%N.
Proof. by move=> A [|y ys]. Qed.

Lemma psd_sum_outer : forall d (ys : seq 'cV[R]_d), psd (\sum_(y <- ys) y *m y^T).
Proof.
  move=> d; elim=> [|y ys IH]; first by rewrite big_nil; exact: psd0.
  rewrite big_cons; apply: psd_add => //; exact: psd_outer.
Qed.

Lemma outerE : forall d (u v : 'cV[R]_d) i j, (u *m v^T) i j = u i 0 * v j 0.
Proof. by move=> d u v i j; rewrite mxE big_ord1 mxE. Qed.

(** Within-cluster scatter is positive semidefinite. *)
Lemma scatter_split : forall d (ys : seq 'cV[R]_d) (m : 'cV[R]_d),
  \sum_(y <- ys) (y - m) *m (y - m)^T =
  \sum_(y <- ys) y *m y^T - (\sum_(y <- ys) y) *m m^T - m *m (\sum_(y <- ys) y)^T + (size ys)%:R *: (m *m m^T).
Proof.
  move=> d ys m; elim: ys => [|y ys IH].
  - by rewrite !big_nil mul0mx trmx0 mulmx0 scale0r !subr0 addr0.
  - rewrite !big_cons IH /= -[(size ys).+1]addn1 natrD.
    set S2 := \sum_(y <- ys) y *m y^T; set u := \sum_(y <- ys) y.
    apply/matrixP => i j; rewrite !(outerE, mxE). move: (S2 i j) (u i 0) (u j 0) (m i 0) (m j 0) (y i 0) (y j 0) (size ys)%:R => a1 a2 a3 a4 a5 a6 a7 a8. ring.
Qed.
Lemma scatter_mean : forall d (ys : seq 'cV[R]_d), (0 < size ys)%N ->
  let m := (size ys)%:R^-1 *: \sum_(y <- ys) y in
  \sum_(y <- ys) (y - m) *m (y - m)^T = \sum_(y <- ys) y *m y^T - (size ys)%:R *: (m *m m^T).
Proof.
  move=> d ys Hn m; rewrite scatter_split.
  have Hn0 : (size ys)%:R != 0 :> R by rewrite pnatr_eq0 -lt0n.
  have E : \sum_(y <- ys) y = (size ys)%:R *: m by rewrite /m scalerA divff // scale1r.
  clearbody m. by rewrite E trZ -scalemxAl -scalemxAr subrK.
Qed.
Lemma psd_scatter : forall d (ys : seq 'cV[R]_d), (0 < size ys)%N ->
  let m := (size ys)%:R^-1 *: \sum_(y <- ys) y in
  psd (\sum_(y <- ys) y *m y^T - (size ys)%:R *: (m *m m^T)).
Proof.
  move=> d ys Hn m; rewrite -scatter_mean // -/m; clearbody m.
  elim: ys {Hn} => [|y ys IH]; first by rewrite big_nil; exact: psd0.
  by rewrite big_cons; apply: psd_add => //; exact: psd_outer.
Qed.

(** ** Statistics (C15) *)

Lemma mstats_nil : forall d, mstats_of [::] = mnorm_stats0 d.
Proof. by move=> d; rewrite /mstats_of !big_nil. Qed.
Lemma mstats_cons : forall d (y : 'cV[R]_d) ys, mstats_of (y :: ys) = mnorm_op y true (mstats_of ys).
Proof. by move=> d y ys; rewrite /mstats_of /mnorm_op !big_cons /=; congr pair; rewrite addrC. Qed.
Lemma mstats_perm : forall d (a b : seq 'cV[R]_d), perm_eq a b -> mstats_of a = mstats_of b.
Proof. by move=> d a b H; rewrite /mstats_of; congr pair; exact: perm_big. Qed.
Lemma mstats_remove : forall d (y : 'cV[R]_d) ys, mnorm_op y false (mstats_of (y :: ys)) = mstats_of ys.
Proof. by move=> d y ys; rewrite /mstats_of /mnorm_op !big_cons /= [y + _]addrC [y *m _ + _]addrC !addrK. Qed.

(** ** Validity (C18) *)

Lemma nnw_scale_inv_spd : forall d (h : nw d) ys, nw_valid h -> (0 < size ys)%N ->
  spd (nnw_scale_inv h (size ys)%:R (mstats_of ys)).
Proof.
  move=> d h ys [Hk [_ [HS [HI _]]]] Hn; rewrite /nnw_scale_inv /= addrC; apply: spd_add.
  - by rewrite HI; exact: spd_inv.
  - apply: psd_add; first exact: psd_scatter.
    apply: psd_scale; last exact: psd_outer.
    have Hn' : 0 < (size ys)%:R :> R by rewrite ltr0n.
    by rewrite ltW // divr_gt0 ?mulr_gt0 ?addr_gt0.
Qed.

Lemma nnw_post_valid : forall d (h : nw d) ys, nw_valid h ->
  exists h', nw_set_proto (nnw_post h (cardZ' ys) (mstats_of ys)) = Ok h' /\ nw_valid h'.
Proof.
  move=> d h ys HV; rewrite /nnw_post cardZ_eq0; case: eqP => Hn.
  - exists h; case: (HV) => Hk [Hd [HS [HI HC]]]; split=> //.
    rewrite /nw_set_proto /=. have -> : inverse_spd (nw_scale h) = Ok (nw_sinv h) by apply/inverse_spd_ok.
    by case: h {HV Hk Hd HS HI HC}.
  - have Hn' : (0 < size ys)%N by rewrite lt0n; apply/eqP.
    have HP := nnw_scale_inv_spd HV Hn'. rewrite IZR_size. set T := nnw_scale_inv _ _ _ in HP *.
    exists (mkNW ((nw_vs h + (size ys)%:R)^-1 *: (nw_vs h *: nw_mean h + (size ys)%:R *: ((size ys)%:R^-1 *: (mstats_of ys).1)))
              (nw_vs h + (size ys)%:R) (nw_df h + (size ys)%:R) (invmx T) (invmx (invmx T)) (llt_U (invmx T))).
    have HI := spd_inv HP.
    split; first by rewrite /nw_set_proto /=; have -> : inverse_spd (invmx T) = Ok (invmx (invmx T)) by apply/inverse_spd_ok.
    case: HV => Hk [Hd _]. split; [|split; [|split; [|split]]] => //=.
    + by rewrite addr_gt0 // ltr0n.
    + by apply: (lt_le_trans Hd); rewrite ler_addl ler0n.
Qed.

(** ** Bayes' rule (C21) *)

Lemma sum_quad : forall d (P : 'M[R]_d) (m : 'cV[R]_d) (ys : seq 'cV[R]_d), P^T = P ->
  \sum_(y <- ys) quad P (y - m) =
  \tr ((\sum_(y <- ys) y *m y^T) *m P) - 2%:R * dot (\sum_(y <- ys) y) (P *m m) + (size ys)%:R * quad P m.
Proof.
  move=> d P m ys HP; elim: ys => [|y ys IH].
  - by rewrite !big_nil mul0mx mxtrace0 dot0l mulr0 mul0r subr0 addr0.
  - rewrite !big_cons IH mulmxDl mxtraceD trace_outer dotDl quadB //= -[(size ys).+1]addn1 natrD.
    move: (dot (\sum_(j <- ys) j) _) (dot y _) (quad P y) (quad P m) (\tr _) (size ys)%:R => a1 a2 a3 a4 a5 a6. ring.
Qed.

Lemma mxtraceN : forall d (A : 'M[R]_d), \tr (- A) = - \tr A.
Proof. by move=> d A; rewrite linearN. Qed.

(** The exponent of prior times likelihood. *)
Lemma nnw_quadratic : forall d (h : nw d) (ys : seq 'cV[R]_d) (m : 'cV[R]_d) (P : 'M[R]_d),
  0 < nw_vs h -> P^T = P -> (0 < size ys)%N ->
  let n := (size ys)%:R in
  let hn := nnw_post h (cardZ' ys) (mstats_of ys) in
  nw_vs h * quad P (m - nw_mean h) + \sum_(y <- ys) quad P (y - m) + \tr (nw_sinv h *m P) =
  np_vs hn * quad P (m - np_mean hn) + \tr (nnw_scale_inv h n (mstats_of ys) *m P).
Proof.
  move=> d h ys m P Hk HP Hn n hn.
  have Hn0 : n != 0 by rewrite pnatr_eq0 -lt0n.
  have Hn1 : 0 < n by rewrite ltr0n.
  have Hkn : nw_vs h + n != 0 by rewrite gt_eqF // addr_gt0.
  have Hnk : n + nw_vs h != 0 by rewrite addrC.
  have Ehn : hn = nnw_post h (cardZ' ys) (mstats_of ys) by [].
  have Esz : (size ys == 0)%N = false by apply/negbTE; rewrite -lt0n.
  rewrite /nnw_post cardZ_eq0 Esz IZR_size -/n in Ehn.
  rewrite Ehn /= /nnw_scale_inv /=.
  rewrite sum_quad //.
  set s := \sum_(y <- ys) y; set S2 := \sum_(y <- ys) y *m y^T; set mu := nw_mean h; set k := nw_vs h in Hkn Hnk *.
  have [mb Emb] : exists mb, mb = n^-1 *: s by eexists.
  have [w Ew] : exists w, w = mb - mu by eexists.
  rewrite -Emb -Ew !mulmxDl !mxtraceD !mulNmx -!scalemxAl mxtraceN !mxtraceZ !trace_outer Ew Emb.
  rewrite -/n !quadB // !quadZ /=.
  rewrite [quad P (k *: mu + n *: (n^-1 *: s))]quadD // !quadZ.
  rewrite -!scalemxAr !mulmxDr -!scalemxAr !dotZl !dotZr !dotDr !dotZr.
  rewrite (dot_sym s mu HP) (dot_sym s m HP) /quad.
  set A := dot m (P *m m); set B := dot m (P *m mu); set C := dot m (P *m s); set D := dot mu (P *m mu);
  set E := dot mu (P *m s); set F := dot s (P *m s); set T := \tr (S2 *m P); set U := \tr (nw_sinv h *m P).
  field. by rewrite Hn0 Hnk.
Qed.

Lemma ln_det_scale : forall d a (P : 'M[R]_d), 0 < a -> spd P -> ln (\det (a *: P)) = d%:R * ln a + ln (\det P).
Proof. by move=> d a P Ha HP; rewrite detZ lnM ?exprn_gt0 ?spd_det_gt0 // lnX. Qed.

Lemma big_const_sum : forall (A : Type) (ys : seq A) (f : A -> R) (c : R),
  \sum_(y <- ys) (c - hf * f y) = (size ys)%:R * c - hf * \sum_(y <- ys) f y.
Proof.
  move=> A ys f c; elim: ys => [|y ys IH]; first by rewrite !big_nil mul0r mulr0 subr0.
  rewrite !big_cons IH /= -[(size ys).+1]addn1 natrD. ring.
Qed.

Lemma nnw_bayes : forall lg d (h h' : nw d) (ys : seq 'cV[R]_d) (m : 'cV[R]_d) (P : 'M[R]_d),
  nw_valid h -> spd P -> nw_set_proto (nnw_post h (cardZ' ys) (mstats_of ys)) = Ok h' ->
  nw_lpdf lg h m P + \sum_(y <- ys) stan_mvn_prec_lpdf y m P = nw_log_marg lg h ys + nw_lpdf lg h' m P.
Proof.
  move=> lg d h h' ys m P HV HP.
  have [h2 [E2 HV2]] := nnw_post_valid ys HV. rewrite E2 => -[E]; subst h2.
  have HPs : P^T = P by case: HP.
  case: (HV) => Hk [Hd [HS [HI HC]]]. case: (HV2) => Hk' [Hd' [HS' [HI' HC']]].
  have [Em Ev Ed Es] : [/\ nw_mean h' = np_mean (nnw_post h (cardZ' ys) (mstats_of ys)),
      nw_vs h' = np_vs (nnw_post h (cardZ' ys) (mstats_of ys)),
      nw_df h' = np_df (nnw_post h (cardZ' ys) (mstats_of ys)) &
      nw_scale h' = np_scale (nnw_post h (cardZ' ys) (mstats_of ys))].
  { move: E2; rewrite /nw_set_proto; case: (inverse_spd _) => //= B [<-] //=. }
  case: (posnP (size ys)) => [H0|Hn].
  - (* no data *)
    have Ey : ys = [::] by apply/size0nil.
    move: Em Ev Ed Es; rewrite /nw_log_marg Ey big_nil /nnw_post /= => Em Ev Ed Es.
    rewrite /nw_lpdf Em Ev Ed Es. ring.
  - have Q := @nnw_quadratic d h ys m P Hk HPs Hn. cbv zeta in Q.
    set n := (size ys)%:R in Q *.
    have ET : nnw_scale_inv h n (mstats_of ys) = invmx (nw_scale h').
    { rewrite Es /nnw_post cardZ_eq0 (gtn_eqF Hn) IZR_size /= invmxK //. }
    rewrite ET -Em -Ev in Q.
    have Edn : nw_df h' = nw_df h + n.
    { by rewrite Ed /nnw_post cardZ_eq0 (gtn_eqF Hn) IZR_size. }
    rewrite /nw_lpdf /stan_wishart_lpdf /nw_log_marg -Ev -Ed -Es -/n.
    have -> : \sum_(y <- ys) stan_mvn_prec_lpdf y m P =
              n * (- (d%:R * hf * ln (2%:R * PI)) + hf * ln (\det P)) - hf * \sum_(y <- ys) quad P (y - m).
    { by rewrite -big_const_sum; apply: eq_bigr. }
    rewrite /stan_mvn_prec_lpdf !ln_det_scale // !quadZl -HI.
    rewrite (lnM two_gt0 PI_gt0) Edn.
    set LW := lmgamma lg d ((nw_df h + n) * hf); set LV := lmgamma lg d (nw_df h * hf).
    move: Q. set q1 := quad P (m - nw_mean h). set q2 := \sum_(y <- ys) _. set q3 := \tr _. set q4 := quad P _. set q5 := \tr _.
    move=> Q.
    have -> : q2 = nw_vs h' * q4 + q5 - q3 - nw_vs h * q1 by rewrite -Q; ring.
    set d0 := d%:R. set dP := ln (\det P). set dS := ln (\det (nw_scale h)). set dS' := ln (\det (nw_scale h')).
    set l1 := ln (nw_vs h); set l2 := ln (nw_vs h'); set l3 := ln PI; set l4 := ln 2%:R.
    rewrite /hf. field. by [].
Qed.

(** ** Predictive density *)

Lemma lmgamma_step : forall lg d (x : R), (0 < d)%N ->
  lmgamma lg d (x + hf) - lmgamma lg d x = lg (x + hf) - lg (x - d.-1%:R * hf).
Proof.
  move=> lg d x Hd; rewrite /lmgamma.
  case: d Hd => // d _ /=.
  rewrite big_ord_recl [X in _ - (_ + X)]big_ord_recr /= mul0r subr0.
  have -> : \sum_(i < d) lg (x + hf - (bump 0 i)%:R * hf) = \sum_(i < d) lg (x - i%:R * hf).
  { apply: eq_bigr => i _; congr lg; rewrite /bump /= add1n -[(nat_of_ord i).+1]addn1 natrD. ring. }
  set a := \sum_(i < d) _. set b := _ / _ * _. ring.
Qed.

Lemma det_rank1 : forall d (A : 'M[R]_d) (u : 'cV[R]_d) c, A \in unitmx ->
  \det (A + c *: (u *m u^T)) = \det A * (1 + c * quad (invmx A) u).
Proof.
  move=> d A u c HA.
  have -> : A + c *: (u *m u^T) = A *m (1%:M + (invmx A *m u) *m (c *: u^T)).
  { by rewrite mulmxDr mulmx1 !mulmxA mulmxV // mul1mx -scalemxAr. }
  rewrite det_mulmx det_sylvester; congr (_ * _).
  by rewrite -scalemxAl det_mx11 /quad /dot [LHS]mxE [X in X + _]mxE [X in _ + X]mxE eqxx mulr1n.
Qed.

Lemma nw_scale_inv_canon : forall d (h : nw d) n st, 0 < n -> 0 < nw_vs h ->
  let mn := (nw_vs h + n)^-1 *: (nw_vs h *: nw_mean h + st.1) in
  nnw_scale_inv h n st =
  nw_sinv h + nw_vs h *: (nw_mean h *m (nw_mean h)^T) + st.2 - (nw_vs h + n) *: (mn *m mn^T).
Proof.
  move=> d h n [s S2] Hn Hk mn; rewrite /mn /nnw_scale_inv /=.
  have Hn0 : n != 0 by rewrite gt_eqF.
  have Hkn : nw_vs h + n != 0 by rewrite gt_eqF // addr_gt0.
  have Hnk : n + nw_vs h != 0 by rewrite addrC.
  apply/matrixP => i j; rewrite !(outerE, mxE).
  move: (S2 i j) (s i 0) (s j 0) (nw_mean h i 0) (nw_mean h j 0) (nw_sinv h i j) (nw_vs h) Hkn Hnk => a1 a2 a3 a4 a5 a6 k Hkn Hnk.
  field. by rewrite ?Hn0 ?Hnk ?Hkn.
Qed.

(** The update is determined by these three components. *)
Lemma nnw_post_mean : forall d (h : nw d) ys, 0 < nw_vs h ->
  let p := nnw_post h (cardZ' ys) (mstats_of ys) in
  [/\ np_vs p = nw_vs h + (size ys)%:R, np_df p = nw_df h + (size ys)%:R &
      np_mean p = (nw_vs h + (size ys)%:R)^-1 *: (nw_vs h *: nw_mean h + \sum_(y <- ys) y)].
Proof.
  move=> d h ys Hk; rewrite /nnw_post cardZ_eq0; case: eqP => Hn /=.
  - rewrite (size0nil Hn) /= big_nil !addr0; split=> //. by rewrite scalerA mulVf ?scale1r // gt_eqF.
  - rewrite IZR_size; split=> //. rewrite scalerA divff ?scale1r // pnatr_eq0. exact/eqP.
Qed.
Lemma nnw_post_sinv : forall d (h h' : nw d) ys, nw_valid h ->
  nw_set_proto (nnw_post h (cardZ' ys) (mstats_of ys)) = Ok h' ->
  nw_sinv h' = nw_sinv h + nw_vs h *: (nw_mean h *m (nw_mean h)^T) + \sum_(y <- ys) y *m y^T
               - nw_vs h' *: (nw_mean h' *m (nw_mean h')^T).
Proof.
  move=> d h h' ys HV; have [Hk _] := HV.
  have [E1 E2 E3] := nnw_post_mean ys Hk; cbv zeta in E1, E2, E3.
  rewrite /nw_set_proto; case E: (inverse_spd _) => [B|||] //= [<-] /=.
  have [HS HB] := proj1 (inverse_spd_ok _ _) E.
  rewrite E3 E1 HB; case: (posnP (size ys)) => [H0|Hn].
  - rewrite (size0nil H0) /nnw_post /= !big_nil !addr0 scalerA mulVf ?scale1r ?gt_eqF //.
    rewrite addrK. by case: HV => _ [_ [_ [-> _]]].
  - rewrite /nnw_post cardZ_eq0 (gtn_eqF Hn) IZR_size /= invmxK nw_scale_inv_canon // ltr0n //.
Qed.

(** *** Updating in two steps (C19) *)
Lemma nnw_compose : forall d (h h' : nw d) a b, nw_valid h ->
  nw_set_proto (nnw_post h (cardZ' a) (mstats_of a)) = Ok h' ->
  nnw_post h' (cardZ' b) (mstats_of b) = nnw_post h (cardZ' (a ++ b)) (mstats_of (a ++ b)).
Proof.
  move=> d h h' a b HV E.
  have [h2 [E2 HV']] := nnw_post_valid a HV; move: (E2); rewrite E => -[E3]; subst h2.
  have [h3 [E3 HV3]] := nnw_post_valid b HV'.
  have [h4 [E4 HV4]] := nnw_post_valid (a ++ b) HV.
  have P : forall (p : nwp d) (g : nw d), nw_set_proto p = Ok g ->
    [/\ nw_mean g = np_mean p, nw_vs g = np_vs p, nw_df g = np_df p & nw_scale g = np_scale p /\ nw_chol g = np_chol p].
  { by move=> p g; rewrite /nw_set_proto; case: (inverse_spd _) => //= B [<-]. }
  have [M1 V1 D1 [S1 C1]] := P _ _ E. have [M3 V3 D3 [S3 C3]] := P _ _ E3. have [M4 V4 D4 [S4 C4]] := P _ _ E4.
  have Hk : 0 < nw_vs h by case: HV. have Hk' : 0 < nw_vs h' by case: HV'.
  have [F1 F2 F3] := nnw_post_mean a Hk; have [G1 G2 G3] := nnw_post_mean b Hk'; have [K1 K2 K3] := nnw_post_mean (a ++ b) Hk.
  cbv zeta in F1, F2, F3, G1, G2, G3, K1, K2, K3.
  have EV : nw_vs h3 = nw_vs h4 by rewrite V3 V4 G1 K1 V1 F1 size_cat natrD addrA.
  have ED : nw_df h3 = nw_df h4 by rewrite D3 D4 G2 K2 D1 F2 size_cat natrD addrA.
  have EM : nw_mean h3 = nw_mean h4.
  { rewrite M3 M4 G3 K3 M1 F3 V1 F1 size_cat natrD big_cat /= scalerA divff ?scale1r ?addrA //.
    by rewrite gt_eqF // -F1 -V1. }
  have EI : nw_sinv h3 = nw_sinv h4.
  { rewrite (nnw_post_sinv HV' E3) (nnw_post_sinv HV E4) (nnw_post_sinv HV E) EV EM big_cat /= subrK !addrA //. }
  have ES : nw_scale h3 = nw_scale h4.
  { case: HV3 => _ [_ [_ [I3 _]]]. case: HV4 => _ [_ [_ [I4 _]]].
    by rewrite -[nw_scale h3]invmxK -I3 EI I4 invmxK. }
  have EC : nw_chol h3 = nw_chol h4 by case: HV3 => _ [_ [_ [_ ->]]]; case: HV4 => _ [_ [_ [_ ->]]]; rewrite ES.
  case: (nnw_post h' _ _) M3 V3 D3 S3 C3 => m1 v1 d1 s1 c1 /= <- <- <- <- <-.
  case: (nnw_post h _ _) M4 V4 D4 S4 C4 => m2 v2 d2 s2 c2 /= <- <- <- <- <-.
  by rewrite EM EV ED ES EC.
Qed.
Lemma nnw_perm : forall d (h : nw d) a b, perm_eq a b ->
  nnw_post h (cardZ' a) (mstats_of a) = nnw_post h (cardZ' b) (mstats_of b).
Proof. by move=> d h a b H; rewrite (mstats_perm H) /cardZ' (perm_size H). Qed.

(** *** The predictive density *)
Lemma nnw_predictive : forall lg d (h : nw d) (y : 'cV[R]_d), (0 < d)%N -> nw_valid h ->
  nnw_marg_lpdf lg (nw_proto h) y = nw_log_marg lg h [:: y].
Proof.
  move=> lg d h y Hd HV; case: (HV) => Hk [Hdf [HS [HI HC]]].
  rewrite /nw_log_marg /nnw_post cardZ_eq0 /= IZR_size /=.
  have HT : spd (nnw_scale_inv h 1 (mstats_of [:: y])) by exact: (@nnw_scale_inv_spd d h [:: y] HV).
  set T := nnw_scale_inv h 1 (mstats_of [:: y]) in HT *.
  have Hk1 : 0 < nw_vs h + 1 by rewrite addr_gt0 // ltr01.
  have Hk10 : nw_vs h + 1 != 0 by rewrite gt_eqF.
  have Hk0 : nw_vs h != 0 by rewrite gt_eqF.
  have ET : T = invmx (nw_scale h) + (nw_vs h / (nw_vs h + 1)) *: ((y - nw_mean h) *m (y - nw_mean h)^T).
  { rewrite /T nw_scale_inv_canon ?ltr01 //= !big_seq1 HI.
    apply/matrixP => i j; rewrite !(outerE, mxE).
    move: (y i 0) (y j 0) (nw_mean h i 0) (nw_mean h j 0) (invmx (nw_scale h) i j) (nw_vs h) Hk10 => a1 a2 a3 a4 a5 k Hk10.
    field. exact: Hk10. }
  have HSi := spd_inv HS.
  set Q := quad (nw_scale h) (y - nw_mean h).
  have HQ : 0 <= Q by have [_] := spd_psd HS; apply.
  have Hpos : 0 < 1 + nw_vs h / (nw_vs h + 1) * Q.
  { by rewrite ltr_paddr ?ltr01 // mulr_ge0 // ltW // divr_gt0. }
  have EdT : ln (\det T) = - ln (\det (nw_scale h)) + ln (1 + nw_vs h / (nw_vs h + 1) * Q).
  { rewrite ET det_rank1 ?spd_unit // invmxK lnM ?spd_det_gt0 // det_inv_ln //. }
  rewrite det_inv_ln // EdT.
  have Hnu : 0 < nw_df h - d%:R + 1 by move: Hdf; rewrite -subr_gt0 opprB addrA addrAC.
  rewrite /nnw_marg_lpdf /mst_lpdf /=.
  set nu := nw_df h - d%:R + 1 in Hnu *. have Hnu0 : nu != 0 by rewrite gt_eqF.
  set c := (nw_vs h + 1) / (nw_vs h * nu).
  have Hc : 0 < c by rewrite divr_gt0 // mulr_gt0.
  have Hsc := sqrtR_gt0 Hc.
  have [EU PU] := llt_U_ok HS.
  have Esq : sqnorm ((sqrt c)^-1 *: nw_chol h *m (y - nw_mean h)) = c^-1 * Q.
  { rewrite HC -scalemxAl /sqnorm dotZl dotZr mulrA -invfM sqrtR_sq // -quad_gram EU //. }
  have Eld : 2%:R * diag_logsum ((sqrt c)^-1 *: nw_chol h) = ln (\det (nw_scale h)) - d%:R * ln c.
  { rewrite HC -(logdet_U HS) /diag_logsum.
    have -> : \sum_i ln (((sqrt c)^-1 *: llt_U (nw_scale h)) i i) = \sum_i (ln (llt_U (nw_scale h) i i) - hf * ln c).
    { apply: eq_bigr => i _. rewrite mxE lnM ?invr_gt0 // lnV // ln_sqrt // addrC //. }
    rewrite sumrB sumr_const card_ord -mulr_natl /hf. move: (\sum_i _) => a. field. by []. }
  rewrite Esq Eld.
  have -> : c^-1 * Q / nu = nw_vs h / (nw_vs h + 1) * Q.
  { rewrite /c. move: Q (nw_vs h) nu Hnu0 Hk0 Hk10 {HQ Hpos EdT Hk Hk1 Hnu c Hc Hsc Esq Eld ET T HT} => Q k nu H1 H2 H3. field. by rewrite H1 H2 H3. }
  have -> : ln c = ln (nw_vs h + 1) - ln (nw_vs h) - ln nu.
  { rewrite /c lnM ?invr_gt0 ?mulr_gt0 // lnV ?mulr_gt0 // lnM //. ring. }
  have EL : lmgamma lg d ((nw_df h + 1) * hf) - lmgamma lg d (nw_df h * hf) = lg ((nu + d%:R) * hf) - lg (nu * hf).
  { have -> : (nw_df h + 1) * hf = nw_df h * hf + hf by ring.
    rewrite lmgamma_step //; congr (lg _ - lg _); rewrite /nu; first by ring.
    have -> : d%:R = d.-1%:R + 1 :> R by rewrite -{1}(prednK Hd) -addn1 natrD. ring. }
  move: EL. set l1 := lmgamma _ _ _; set l2 := lmgamma _ _ _; set l3 := lg _; set l4 := lg _ => EL.
  have -> : l1 = l3 - l4 + l2 by rewrite -EL; ring.
  have Ehd : nu + d%:R = nw_df h + 1 by rewrite /nu; ring.
  rewrite Ehd.
  set a1 := ln nu; set a2 := ln PI; set a3 := ln (\det _); set a4 := ln (nw_vs h + 1); set a5 := ln (nw_vs h);
  set a6 := ln (1 + _); set a7 := nw_df h; set a8 := d%:R. 
  rewrite /hf. field. by [].
Qed.

(** Chained predictive densities give the marginal likelihood of the batch. *)
Lemma nnw_chain : forall lg d (h h' : nw d) (ys : seq 'cV[R]_d) (y : 'cV[R]_d), (0 < d)%N -> nw_valid h ->
  nw_set_proto (nnw_post h (cardZ' ys) (mstats_of ys)) = Ok h' ->
  nnw_marg_lpdf lg (nnw_post h (cardZ' ys) (mstats_of ys)) y + nw_log_marg lg h ys = nw_log_marg lg h (y :: ys).
Proof.
  move=> lg d h h' ys y Hd HV E.
  have [h2 [E2 HV']] := nnw_post_valid ys HV; move: (E2); rewrite E => -[E3]; subst h2.
  have [h3 [E3 HV3]] := nnw_post_valid [:: y] HV'.
  have Ep : nnw_post h (cardZ' ys) (mstats_of ys) = nw_proto h'.
  { move: E; rewrite /nw_set_proto; case: (inverse_spd _) => //= B [<-] /=. by case: (nnw_post _ _ _). }
  rewrite Ep nnw_predictive //.
  have B1 := nnw_bayes lg 0 HV (spd1 _ d) E.
  have B2 := nnw_bayes lg 0 HV' (spd1 _ d) E3.
  have E4 : nw_set_proto (nnw_post h (cardZ' (y :: ys)) (mstats_of (y :: ys))) = Ok h3.
  { rewrite -E3 (nnw_compose [:: y] HV E). congr nw_set_proto. apply: nnw_perm. by rewrite -[y :: ys]cat1s perm_catC. }
  have B3 := nnw_bayes lg 0 HV (spd1 _ d) E4.
  move: B1 B2 B3; rewrite big_seq1 big_cons.
  move: (nw_lpdf lg h 0 _) (nw_lpdf lg h' 0 _) (nw_lpdf lg h3 0 _) (stan_mvn_prec_lpdf y _ _) (\sum_(y <- ys) _)
    (nw_log_marg lg h ys) (nw_log_marg lg h' [:: y]) (nw_log_marg lg h (y :: ys)) => a1 a2 a3 a4 a5 a6 a7 a8 B1 B2 B3.
  have -> : a7 = a2 + a4 - a3 by rewrite B2; ring.
  have -> : a6 = a1 + a5 - a2 by rewrite B1; ring.
  have -> : a8 = a1 + (a4 + a5) - a3 by rewrite B3; ring.
  ring.
Qed.
