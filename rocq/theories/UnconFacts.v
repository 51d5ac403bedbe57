(** * Facts about unconstrained representations: proofs only. *)
From Coq Require Import String ZArith Reals Lra Lia.
From mathcomp Require Import all_ssreflect all_algebra.
From Verif Require Import Base Univ RealField MatLib Multi MultiFacts Uncon.
Set Implicit Arguments.
Unset Strict Implicit.
Unset Printing Implicit Defensive.
Import Order.TTheory GRing.Theory Num.Theory.
Local Open Scope ring_scope.

(** ** Triangular numbers *)
Lemma tri_double : forall m, (tri m).*2 = (m * m.+1)%N.
Proof. by elim=> [|m IH] //; rewrite [tri _]/= doubleD IH -!muln2 -!multE -!plusE; lia. Qed.
Lemma tri_half : forall m, tri m = (m * m.+1)./2.
Proof. by move=> m; rewrite -tri_double doubleK. Qed.

(** ** Cholesky factor of [L L'] *)
Lemma lower_spd : forall d (L : 'M[R]_d), (forall i j : 'I_d, (i < j)%N -> L i j = 0) -> (forall i, 0 < L i i) -> spd (L *m L^T).
Proof.
  move=> d L HL HP; split; first by rewrite trmx_mul trmxK.
  move=> v Hv; rewrite -{1}[L]trmxK quad_gram; apply: dot_gt0; apply: contra Hv => /eqP E.
  have HU : L^T \in unitmx.
  { rewrite unitmxE det_tr det_trig ?unitfE; last by apply/is_trig_mxP.
    by rewrite gt_eqF // prodr_gt0. }
  by rewrite -[v](mulKmx HU) E mulmx0.
Qed.

Lemma chol_unique : forall d (L : 'M[R]_d), (forall i j : 'I_d, (i < j)%N -> L i j = 0) -> (forall i, 0 < L i i) ->
  llt_L (L *m L^T) = L.
Proof.
  rewrite /llt_L; elim=> [|d IH] L HL HP; first by apply/matrixP => -[].
  move: L HL HP; rewrite -[d.+1]/(1 + d)%N => L HL HP.
  set l := L (lshift d 0) (lshift d 0). set b := dlsubmx L. set M := drsubmx L.
  have Hl : 0 < l by exact: HP.
  have EL : L = block_mx l%:M 0 b M.
  { rewrite -[LHS]submxK; congr block_mx.
    - by apply/matrixP => i j; rewrite !ord1 !mxE eqxx mulr1n.
    - apply/matrixP => i j; rewrite !ord1 !mxE; apply: HL => /=; by rewrite add1n. }
  have HM : forall i j : 'I_d, (i < j)%N -> M i j = 0.
  { by move=> i j Hij; rewrite !mxE; apply: HL; rewrite /= ltn_add2l. }
  have HMP : forall i, 0 < M i i by move=> i; rewrite !mxE; apply: HP.
  have EA : L *m L^T = block_mx (l * l)%:M (l *: b^T) (l *: b) (b *m b^T + M *m M^T).
  { rewrite {1 2}EL (@tr_block_mx _ 1 d 1 d) (@mulmx_block _ 1 d 1 d 1 d) !trmx0 !mulmx0 !mul0mx !addr0 tr_scalar_mx.
    by rewrite -scalar_mxM mul_scalar_mx mul_mx_scalar. }
  rewrite EA /= block_mxKul block_mxKdl block_mxKdr.
  have Ea : ((l * l)%:M : 'M[R]_1) 0 0 = l * l by rewrite mxE eqxx mulr1n.
  rewrite Ea.
  have Es : sqrt (l * l) = l by move/RltE: Hl => Hl; rewrite RmulE; apply: sqrt_square; left.
  rewrite Es.
  have Hl0 : l != 0 by rewrite gt_eqF.
  rewrite [X in chol _ X](_ : _ = M *m M^T); last first.
  { rewrite trZ -scalemxAl -scalemxAr !scalerA -mulrA mulVf ?mulf_neq0 // scale1r.
    by rewrite addrC addKr. }
  by rewrite IH // scalerA mulVf // scale1r -EL.
Qed.

(** ** Entries *)
Lemma entE : forall d (A : 'M[R]_d) (a b : 'I_d), ent A a b = A a b.
Proof. by move=> d A a b; rewrite /ent !valK. Qed.

Lemma size_free_row : forall d (L : 'M[R]_d) m, size (free_row L m) = m.+1.
Proof. by move=> d L m; rewrite size_rcons size_mkseq. Qed.
Lemma size_free_rows : forall d (L : 'M[R]_d) k, size (flatten (mkseq (free_row L) k)) = tri k.
Proof. by move=> d L; elim=> [|k IH] //; rewrite mkseqS -cats1 flatten_cat size_cat IH /= cats0 size_free_row. Qed.

Lemma nth_free_rows : forall d (L : 'M[R]_d) k m j, (m < k)%N -> (j <= m)%N ->
  nth 0 (flatten (mkseq (free_row L) k)) (tri m + j) = nth 0 (free_row L m) j.
Proof.
  move=> d L; elim=> [|k IH] // m j Hm Hj; rewrite mkseqS -cats1 flatten_cat nth_cat size_free_rows /= cats0.
  move: Hm; rewrite ltnS leq_eqVlt => /orP [/eqP -> | Hm].
  - by rewrite ltnNge leq_addr /= addKn.
  - rewrite ifT ?IH //.
    have H : forall a c, (a < c)%N -> (tri a + a < tri c)%N.
    { move=> a; elim=> [|c IHc] //=; rewrite ltnS leq_eqVlt => /orP [/eqP ->|/IHc Q]; first by rewrite addnS ltnS.
      by apply: (leq_trans Q); rewrite leq_addr. }
    by apply: leq_ltn_trans (H _ _ Hm); rewrite leq_add2l.
Qed.

Lemma nth_free_row : forall d (L : 'M[R]_d) m j, (j <= m)%N ->
  nth 0 (free_row L m) j = if (j < m)%N then ent L m j else ln (ent L m m).
Proof.
  move=> d L m j Hj; rewrite nth_rcons size_mkseq; case: ltnP => H; first by rewrite nth_mkseq.
  by rewrite ifT // eqn_leq Hj.
Qed.

Lemma constrain_lower : forall d x (i j : 'I_d), (i < j)%N -> constrain_L d x i j = 0.
Proof. by move=> d x i j H; rewrite mxE ltnNge ltnW //= ifF //; apply/eqP => E; rewrite E ltnn in H. Qed.
Lemma constrain_diag : forall d x (i : 'I_d), 0 < constrain_L d x i i.
Proof. by move=> d x i; rewrite mxE ltnn eqxx; apply/RltE; apply: exp_pos. Qed.

(** Reading back the factor of a positive definite matrix. *)
Lemma constrain_free : forall d (L : 'M[R]_d), (forall i j : 'I_d, (i < j)%N -> L i j = 0) -> (forall i, 0 < L i i) ->
  constrain_L d (flatten (mkseq (free_row L) d)) = L.
Proof.
  move=> d L HL HP; apply/matrixP => m j; rewrite mxE.
  case: ltnP => H.
  - by rewrite nth_free_rows ?ltn_ord 1?ltnW // nth_free_row ?(ltnW H) // ifT // entE.
  - case: eqP => [->|E].
    + by rewrite nth_free_rows // nth_free_row // ltnn entE exp_ln //; apply/RltE.
    + rewrite HL // ltn_neqAle H andbT; apply/eqP => Q; by apply: E; apply: val_inj.
Qed.

(** Writing the factor of a vector. *)
Lemma free_constrain_take : forall d x k, (k <= d)%N -> (tri k <= size x)%N ->
  flatten (mkseq (free_row (constrain_L d x)) k) = take (tri k) x.
Proof.
  move=> d x; elim=> [|k IH] Hk Hs; first by rewrite take0.
  have Hs' : (tri k <= size x)%N by apply: leq_trans Hs; rewrite /= leq_addr.
  rewrite mkseqS -cats1 flatten_cat (IH (ltnW Hk) Hs') -[tri k.+1]/(tri k + k.+1)%N takeD; congr (_ ++ _).
  rewrite /= cats0.
  have Sz : size (take k.+1 (drop (tri k) x)) = k.+1.
  { rewrite size_takel // size_drop leq_subRL //. }
  apply: (@eq_from_nth _ 0); first by rewrite size_free_row Sz.
  rewrite size_free_row => j; rewrite ltnS => Hj.
  rewrite nth_free_row // nth_take ?ltnS // nth_drop.
  have Hjd : (j < d)%N by apply: leq_ltn_trans Hk.
  rewrite -[k]/(nat_of_ord (Ordinal Hk)).
  case: ltnP => H.
  - by rewrite -[X in ent _ _ X]/(nat_of_ord (Ordinal Hjd)) entE mxE /= H.
  - rewrite entE mxE ltnn eqxx ln_exp /=; congr (nth _ _ (_ + _)); apply/eqP; by rewrite eqn_leq Hj H.
Qed.

(** ** The dimension *)
Lemma dim_of_ok : forall d n, (n.*2 = d * (d + 3))%N -> dim_of n = INR d.
Proof.
  move=> d n H; rewrite /dim_of.
  have -> : INR (8 * n + 9) = ((INR d * 2 + 3) * (INR d * 2 + 3))%coqR.
  { have -> : (8 * n + 9 = (d * 2 + 3) * (d * 2 + 3))%N.
    { move: H; rewrite -muln2 -!multE -!plusE; lia. }
    rewrite mult_INR plus_INR mult_INR [INR 2]/= [INR 3]/=; ring. }
  rewrite sqrt_square; last by have := pos_INR d; lra.
  rewrite /hf !RnatE RmulE RinvE RsubE /=; field.
Qed.

Lemma dim_of_only : forall n (z : Z), dim_of n = IZR z -> exists d, (n.*2 = d * (d + 3))%N.
Proof.
  move=> n z; rewrite /dim_of /hf !RnatE RmulE RinvE RsubE => H.
  have Hs : sqrt (INR (8 * n + 9)) = IZR (2 * z + 3).
  { rewrite plus_IZR mult_IZR; move: H; rewrite [INR 2]/= [INR 3]/=; lra. }
  have H9 : (9 <= INR (8 * n + 9))%coqR.
  { rewrite plus_INR; have := pos_INR (8 * n); have -> : INR 9 = 9%coqR by rewrite /=; ring. lra. }
  have H3 : (3 <= sqrt (INR (8 * n + 9)))%coqR.
  { have -> : 3%coqR = sqrt (3 * 3)%coqR by rewrite sqrt_square //; lra. apply: sqrt_le_1_alt; lra. }
  have Hz : Z.le 0 z by rewrite Hs in H3; have := le_IZR _ _ H3; lia.
  have Hq : INR (8 * n + 9) = IZR ((2 * z + 3) * (2 * z + 3)).
  { by rewrite mult_IZR -Hs sqrt_sqrt //; lra. }
  move: Hq; rewrite INR_IZR_INZ => /eq_IZR Hq.
  exists (Z.to_nat z); move: Hq; rewrite -muln2 -!multE -!plusE; nia.
Qed.

Lemma Int_part_INR : forall d, Int_part (INR d) = Z.of_nat d.
Proof.
  move=> d; rewrite INR_IZR_INZ; set z := Z.of_nat d.
  have [H1 H2] := base_Int_part (IZR z).
  have K1 := le_IZR _ _ H1.
  have K2 : Z.lt z (Int_part (IZR z) + 1) by apply: lt_IZR; rewrite plus_IZR; lra.
  lia.
Qed.

Lemma set_ok : forall d u, ((size u).*2 = d * (d + 3))%N ->
  mls_set_unconstrained u =
    Ok (existT _ d (mls_set_constrained (colv d u) (constrain_L d (drop d u) *m (constrain_L d (drop d u))^T))).
Proof.
  move=> d u H; rewrite /mls_set_unconstrained /ml_to_constrained (dim_of_ok H) Int_part_INR -INR_IZR_INZ eqxx /=.
  rewrite Nat2Z.id /cov_matrix_constrain ifT //=.
  rewrite size_drop -tri_half; apply/eqP; apply: double_inj; rewrite doubleB tri_double H -!muln2 -!multE -!plusE -!minusE; lia.
Qed.

Lemma set_abort : forall u, (forall d, (size u).*2 <> d * (d + 3))%N -> mls_set_unconstrained u = Abort.
Proof.
  move=> u H; rewrite /mls_set_unconstrained /ml_to_constrained; case: eqP => //= E.
  by case: (dim_of_only E) => d /H.
Qed.
