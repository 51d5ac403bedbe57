(** * Facts about numbers as text: six significant digits. *)
From Coq Require Import Ascii String.
From Coq Require Import List Arith ZArith Reals Bool Lia Lra Psatz.
From Flocq Require Import Core.
From Verif Require Import Base Utils NumText NumTextFacts UtilsMore.
Import ListNotations.
Local Open Scope Z_scope.

Definition ten : radix := Build_radix 10 eq_refl.
Notation T := (bpow ten).

Lemma T_powerRZ : forall e, powerRZ 10 e = T e.
Proof. intros e. exact (eq_sym (bpow_powerRZ ten e)). Qed.
Lemma T_pos : forall e, (0 < T e)%R. Proof. intros. apply bpow_gt_0. Qed.
Lemma T_Z : forall e, 0 <= e -> T e = IZR (10 ^ e).
Proof. intros e H. symmetry. apply (IZR_Zpower ten). auto. Qed.

Lemma up10_pos : forall a, 0 < up10 a. Proof. intros a. apply Z.pow_pos_nonneg; lia. Qed.
Lemma up10_ratio : forall a, IZR (up10 a) = (T a * IZR (up10 (- a)))%R.
Proof.
  intros a. unfold up10. rewrite <- !T_Z by lia. rewrite <- bpow_plus. f_equal. lia.
Qed.

Lemma round_div_spec : forall p q, 0 < q -> Z.abs (2 * (q * round_div p q - p)) <= q.
Proof.
  intros p q Hq. unfold round_div. pose proof (Z.div_mod p q ltac:(lia)) as D. pose proof (Z.mod_pos_bound p q Hq) as M.
  destruct (2 * (p mod q) ?= q) eqn:C; [apply Z.compare_eq in C; destruct (Z.even (p / q))|rewrite Z.compare_lt_iff in C|rewrite Z.compare_gt_iff in C]; apply Z.abs_le; nia.
Qed.
Lemma round_div_exact : forall a q, 0 < q -> round_div (a * q) q = a.
Proof. intros a q Hq. unfold round_div. rewrite Z.div_mul, Z.mod_mul by lia. cbn [Z.mul]. destruct (0 ?= q) eqn:C; [apply Z.compare_eq in C; lia|reflexivity|rewrite Z.compare_gt_iff in C; lia]. Qed.

Section Six.
  Variables p q : Z.
  Hypothesis Hp : 0 < p.
  Hypothesis Hq : 0 < q.
  Let x : R := (IZR p / IZR q)%R.
  Lemma q_pos : (0 < IZR q)%R. Proof. apply (IZR_lt 0). exact Hq. Qed.
  Lemma x_pos : (0 < x)%R. Proof. apply Rdiv_lt_0_compat; [apply (IZR_lt 0); exact Hp|apply q_pos]. Qed.

  Lemma width_T : forall n, 0 < n -> (T (Z.of_nat (width n) - 1) <= IZR n < T (Z.of_nat (width n)))%R.
  Proof. intros n Hn. destruct (width_spec n Hn) as (A & B & C). rewrite !T_Z by lia. split; [apply IZR_le|apply IZR_lt]; auto. Qed.

  Lemma lead_spec : (T (lead p q) <= x < T (lead p q + 1))%R.
  Proof.
    pose proof q_pos as Q. destruct (width_T p Hp) as [P1 P2]. destruct (width_T q Hq) as [Q1 Q2].
    unfold lead. set (a := Z.of_nat (width p) - Z.of_nat (width q)).
    assert (X1 : (T (a - 1) < x)%R).
    { unfold x. apply Rmult_lt_reg_r with (IZR q); auto. unfold Rdiv. rewrite Rmult_assoc, Rinv_l, Rmult_1_r by lra. eapply Rlt_le_trans; [|exact P1].
      replace (Z.of_nat (width p) - 1) with ((a - 1) + Z.of_nat (width q)) by lia. rewrite bpow_plus. apply Rmult_lt_compat_l; [apply T_pos|exact Q2]. }
    assert (X2 : (x < T (a + 1))%R).
    { unfold x. apply Rmult_lt_reg_r with (IZR q); auto. unfold Rdiv. rewrite Rmult_assoc, Rinv_l, Rmult_1_r by lra. eapply Rlt_le_trans; [exact P2|].
      replace (Z.of_nat (width p)) with ((a + 1) + (Z.of_nat (width q) - 1)) by lia. rewrite bpow_plus. apply Rmult_le_compat_l; [apply Rlt_le, T_pos|exact Q1]. }
    assert (E : (up10 a * q <= p * up10 (- a))%Z <-> (T a <= x)%R).
    { pose proof (up10_pos (- a)) as U. apply (IZR_lt 0) in U.
      assert (K : (T a <= x)%R <-> (T a * IZR (up10 (- a)) * IZR q <= IZR p * IZR (up10 (- a)))%R).
      { unfold x. split; intros L.
        - replace (T a * IZR (up10 (- a)) * IZR q)%R with (T a * (IZR q * IZR (up10 (- a))))%R by ring. replace (IZR p * IZR (up10 (- a)))%R with (IZR p / IZR q * (IZR q * IZR (up10 (- a))))%R by (field; lra).
          apply Rmult_le_compat_r; [apply Rmult_le_pos; lra|exact L].
        - apply Rmult_le_reg_r with (IZR q * IZR (up10 (- a)))%R; [apply Rmult_lt_0_compat; lra|]. replace (IZR p / IZR q * (IZR q * IZR (up10 (- a))))%R with (IZR p * IZR (up10 (- a)))%R by (field; lra). lra. }
      rewrite K, <- up10_ratio, <- !mult_IZR. split; [apply IZR_le|apply le_IZR]. }
    destruct (up10 a * q <=? p * up10 (- a)) eqn:C.
    - apply Z.leb_le, E in C. lra.
    - apply Z.leb_gt in C. replace (a - 1 + 1) with a by lia. split; [lra|]. apply Rnot_le_lt. intros L. apply E in L. lia.
  Qed.

  Lemma scaled : (IZR (p * up10 (5 - lead p q)) / IZR (q * up10 (lead p q - 5)) = x * T (5 - lead p q))%R.
  Proof.
    set (e := lead p q). rewrite !mult_IZR, (up10_ratio (5 - e)). replace (- (5 - e)) with (e - 5) by lia. unfold x. pose proof (up10_pos (e - 5)) as U. apply (IZR_lt 0) in U. pose proof q_pos. field. lra.
  Qed.

  Lemma six_spec : let '(m, e) := six p q in 100000 <= m < 1000000 /\ (Rabs (IZR m * T (e - 5) - x) <= / 200000 * x)%R.
  Proof.
    unfold six. set (e := lead p q). set (P := p * up10 (5 - e)). set (Q := q * up10 (e - 5)).
    assert (HQ : 0 < Q) by (apply Z.mul_pos_pos; [exact Hq|apply up10_pos]). assert (HQr : (0 < IZR Q)%R) by (apply (IZR_lt 0); auto).
    pose proof lead_spec as [L1 L2]. fold e in L1, L2. pose proof scaled as S. fold e P Q in S. pose proof x_pos as Xp.
    set (m := round_div P Q). set (s := (x * T (5 - e))%R) in *.
    assert (Em : (Rabs (IZR m - s) <= / 2)%R).
    { pose proof (round_div_spec P Q HQ) as R. fold m in R. apply IZR_le in R. rewrite abs_IZR, mult_IZR, minus_IZR, mult_IZR in R.
      rewrite <- S. replace (2 * (IZR Q * IZR m - IZR P))%R with (2 * IZR Q * (IZR m - IZR P / IZR Q))%R in R by (field; lra). rewrite Rabs_mult, (Rabs_pos_eq (2 * IZR Q)) in R by lra.
      apply Rmult_le_reg_l with (2 * IZR Q)%R; [lra|]. eapply Rle_trans; [exact R|]. lra. }
    assert (S1 : (IZR 100000 <= s)%R).
    { change (IZR 100000) with (T 5). unfold s. replace (T 5) with (T e * T (5 - e))%R by (rewrite <- bpow_plus; f_equal; lia). apply Rmult_le_compat_r; [apply Rlt_le, T_pos|exact L1]. }
    assert (S2 : (s < IZR 1000000)%R).
    { change (IZR 1000000) with (T 6). unfold s. replace (T 6) with (T (e + 1) * T (5 - e))%R by (rewrite <- bpow_plus; f_equal; lia). apply Rmult_lt_compat_r; [apply T_pos|exact L2]. }
    assert (M1 : 100000 <= m). { apply Rabs_le_inv in Em. assert (IZR 99999 < IZR m)%R by lra. apply lt_IZR in H. lia. }
    assert (M2 : m <= 1000000). { apply Rabs_le_inv in Em. assert (IZR m < IZR 1000001)%R by lra. apply lt_IZR in H. lia. }
    assert (V : (Rabs (IZR m * T (e - 5) - x) <= / 200000 * x)%R).
    { assert (I : (T (5 - e) * T (e - 5) = 1)%R) by (rewrite <- bpow_plus; replace (5 - e + (e - 5)) with 0 by lia; reflexivity).
      replace (IZR m * T (e - 5) - x)%R with ((IZR m - s) * T (e - 5))%R by (unfold s; rewrite Rmult_minus_distr_r, Rmult_assoc, I; ring).
      rewrite Rabs_mult, (Rabs_pos_eq (T (e - 5))) by apply Rlt_le, T_pos.
      apply Rle_trans with (/ 2 * T (e - 5))%R; [apply Rmult_le_compat_r; [apply Rlt_le, T_pos|exact Em]|].
      replace (e - 5) with (e + -5) by lia. rewrite bpow_plus. change (T (-5)) with (/ IZR 100000)%R. lra. }
    destruct (m =? 1000000) eqn:C.
    - apply Z.eqb_eq in C. split; [lia|]. replace (IZR 100000 * T (e + 1 - 5))%R with (IZR m * T (e - 5))%R; [exact V|].
      replace (e + 1 - 5) with (e - 5 + 1) by lia. rewrite bpow_plus, C. change (T 1) with 10%R. lra.
    - apply Z.eqb_neq in C. split; [lia|exact V].
  Qed.
End Six.

(** Integers below a million keep all their digits. *)
Lemma six_int : forall n q, 0 < n < 1000000 -> 0 < q -> let '(m, e) := six (n * q) q in (IZR m * T (e - 5) = IZR n)%R.
Proof.
  intros n q Hn Hq. unfold six. set (e := lead (n * q) q).
  assert (Hp : 0 < n * q) by nia. pose proof (lead_spec (n * q) q Hp Hq) as [L _]. fold e in L.
  assert (X : (IZR (n * q) / IZR q = IZR n)%R) by (rewrite mult_IZR; field; apply not_0_IZR; lia). rewrite X in L.
  assert (He : e <= 5).
  { apply Z.nlt_ge. intros G. assert (T 6 <= T e)%R by (apply bpow_le; lia). change (T 6) with (IZR 1000000) in H. assert (IZR n < IZR 1000000)%R by (apply IZR_lt; lia). lra. }
  assert (U : up10 (e - 5) = 1) by (unfold up10; rewrite Z.max_l by lia; reflexivity). rewrite U, Z.mul_1_r.
  replace (n * q * up10 (5 - e)) with (n * up10 (5 - e) * q) by ring. rewrite round_div_exact by auto.
  assert (V : (IZR (n * up10 (5 - e)) * T (e - 5) = IZR n)%R).
  { rewrite mult_IZR, (up10_ratio (5 - e)). replace (- (5 - e)) with (e - 5) by lia. rewrite U. rewrite Rmult_assoc. replace (T (5 - e) * IZR 1 * T (e - 5))%R with (T (5 - e) * T (e - 5))%R by ring.
    rewrite <- bpow_plus. replace (5 - e + (e - 5)) with 0 by lia. cbn [bpow]. ring. }
  destruct (_ =? 1000000) eqn:C; [|exact V]. apply Z.eqb_eq in C. rewrite C in V. rewrite <- V. replace (e + 1 - 5) with (e - 5 + 1) by lia. rewrite bpow_plus. change (T 1) with 10%R. lra.
Qed.

(** ** Characters *)
Lemma code_48 : forall c, code c = 48 -> c = digit 0.
Proof. intros c H. unfold digit. change (48 + 0) with 48. rewrite <- H. unfold code. rewrite Nat2Z.id. symmetry. apply ascii_nat_embedding. Qed.

Lemma strip_zeros : forall b, exists k, b = strip b ++ repeat (digit 0) k.
Proof.
  induction b as [|c b (k & IH)]; [exists O; reflexivity|]. cbn [strip]. destruct (strip b) as [|s t] eqn:E.
  - destruct (code c =? 48) eqn:C.
    + apply Z.eqb_eq, code_48 in C. exists (S k). rewrite C, IH at 1. reflexivity.
    + exists k. rewrite IH at 1. reflexivity.
  - exists k. rewrite IH at 1. reflexivity.
Qed.
Lemma zeros_isd : forall k, Forall isd (repeat (digit 0) k).
Proof. intros k. apply Forall_forall. intros c H. apply repeat_spec in H. subst. exists 0. split; [lia|reflexivity]. Qed.
Lemma strip_isd : forall b, Forall isd b -> Forall isd (strip b).
Proof. intros b H. destruct (strip_zeros b) as (k & E). rewrite E in H. apply Forall_app in H. apply H. Qed.
Lemma zeros_val : forall k, val_in 10 (repeat (digit 0) k) = 0.
Proof. induction k as [|k IH]; [reflexivity|]. change (repeat (digit 0) (S k)) with ([digit 0] ++ repeat (digit 0) k). rewrite val_app, IH, val_one. reflexivity. Qed.
Lemma strip_val : forall a b, (IZR (val_in 10 (a ++ strip b)) * T (- Z.of_nat (length (strip b))) = IZR (val_in 10 (a ++ b)) * T (- Z.of_nat (length b)))%R.
Proof.
  intros a b. destruct (strip_zeros b) as (k & E). rewrite E at 3 4. rewrite (app_assoc a (strip b)), (val_app 10 (a ++ strip b)), zeros_val, app_length, repeat_length, Z.add_0_r, mult_IZR.
  rewrite <- T_Z by lia. rewrite Rmult_assoc, <- bpow_plus. do 3 f_equal. lia.
Qed.
Lemma point_fraction : forall a b, point a b = a ++ fraction (strip b).
Proof. intros a b. unfold point, fraction. destruct (strip b); reflexivity. Qed.

Lemma strto_point : forall neg a b r, a <> [] -> Forall isd a -> Forall isd b -> ends r ->
  exists M E, strto (minus neg ++ point a b ++ r) = Some (Decimal neg M E) /\ (IZR M * T E = IZR (val_in 10 (a ++ b)) * T (exponent 101 r - Z.of_nat (length b)))%R.
Proof.
  intros neg a b r Na Ha Hb Hr. do 2 eexists. rewrite point_fraction, <- app_assoc. split; [apply strto_dec; auto using strip_isd|].
  unfold Z.sub. rewrite !bpow_plus. replace (IZR (val_in 10 (a ++ strip b)) * (T (exponent 101 r) * T (- Z.of_nat (length (strip b)))))%R with (IZR (val_in 10 (a ++ strip b)) * T (- Z.of_nat (length (strip b))) * T (exponent 101 r))%R by ring.
  rewrite strip_val. ring.
Qed.

Lemma show_pos_reads : forall neg p q, 0 < p -> 0 < q ->
  exists M E, strto (minus neg ++ show_pos p q) = Some (Decimal neg M E) /\ let '(m, e) := six p q in (IZR M * T E = IZR m * T (e - 5))%R.
Proof.
  intros neg p q Hp Hq. pose proof (six_spec p q Hp Hq) as S. unfold show_pos. destruct (six p q) as [m e]. destruct S as [[M1 M2] _].
  set (d := digs 6 m). assert (Ld : length d = 6%nat) by apply digs_length. assert (Fd : Forall isd d) by apply digs_isd.
  assert (Vd : val_in 10 d = m) by (unfold d; rewrite digs_val by lia; apply Z.mod_small; cbn; lia).
  assert (F1 : forall k, Forall isd (firstn k d)) by (intros k; rewrite <- (firstn_skipn k d) in Fd; apply Forall_app in Fd; tauto).
  assert (F2 : forall k, Forall isd (skipn k d)) by (intros k; rewrite <- (firstn_skipn k d) in Fd; apply Forall_app in Fd; tauto).
  assert (N1 : forall k, firstn (S k) d <> []) by (intros k E; apply (f_equal (@length _)) in E; rewrite firstn_length, Ld in E; cbn in E; lia).
  destruct ((-4 <=? e) && (e <? 6)) eqn:C.
  - apply andb_prop in C. destruct C as [C1 C2]. apply Z.leb_le in C1. apply Z.ltb_lt in C2. destruct (0 <=? e) eqn:C3.
    + apply Z.leb_le in C3. replace (Z.to_nat (e + 1)) with (S (Z.to_nat e)) by lia.
      destruct (strto_point neg (firstn (S (Z.to_nat e)) d) (skipn (S (Z.to_nat e)) d) [] (N1 _) (F1 _) (F2 _) Logic.I) as (M & E & X & Y). rewrite app_nil_r in X.
      exists M, E. split; [exact X|]. rewrite Y, firstn_skipn, skipn_length, Ld, Vd. cbn [exponent]. do 2 f_equal. lia.
    + apply Z.leb_gt in C3. destruct (strto_point neg [digit 0] (repeat (digit 0) (Z.to_nat (- e - 1)) ++ d) []) as (M & E & X & Y); [discriminate|repeat constructor; exists 0; split; [lia|reflexivity]|apply Forall_app; split; [apply zeros_isd|exact Fd]|exact Logic.I|].
      rewrite app_nil_r in X. exists M, E. split; [exact X|]. rewrite Y. cbn [exponent]. rewrite !app_length, repeat_length, Ld.
      assert (V : val_in 10 ([digit 0] ++ repeat (digit 0) (Z.to_nat (- e - 1)) ++ d) = m).
      { rewrite !val_app, zeros_val, Vd, val_one. change (hex_of (digit 0)) with 0. lia. }
      rewrite V. do 2 f_equal. lia.
  - set (k := Nat.max 2 (width (Z.abs e))).
    assert (Ve : val_in 10 (digs k (Z.abs e)) = Z.abs e).
    { rewrite digs_val by lia. apply Z.mod_small. split; [lia|]. destruct (Z.eq_dec e 0) as [->|Ne]; [cbn; lia|]. pose proof (width_spec (Z.abs e) ltac:(lia)) as (_ & _ & W).
      eapply Z.lt_le_trans; [exact W|]. apply Z.pow_le_mono_r; [lia|]. unfold k. lia. }
    set (r := ["e"%char] ++ [if e <? 0 then "-"%char else "+"%char] ++ digs k (Z.abs e)).
    assert (Hr : exponent 101 r = e).
    { unfold r, exponent. cbn [app]. change (lower "e" =? 101) with true. cbv iota. unfold sign.
      destruct (e <? 0) eqn:Ne; [change (code "-" =? 45) with true|change (code "+" =? 45) with false; change (code "+" =? 43) with true]; cbv iota;
        (pose proof (span_digits (digs k (Z.abs e)) [] (digs_isd _ _) Logic.I) as Sp; rewrite app_nil_r in Sp; rewrite Sp; cbn [fst]; rewrite Ve).
      - apply Z.ltb_lt in Ne. lia.
      - apply Z.ltb_ge in Ne. lia. }
    destruct (strto_point neg (firstn 1 d) (skipn 1 d) r (N1 _) (F1 _) (F2 _)) as (M & E & X & Y).
    { unfold r. cbn [app ends]. split; [reflexivity|]. split; [discriminate|discriminate]. }
    exists M, E. split; [exact X|]. rewrite Y, Hr, firstn_skipn, skipn_length, Ld, Vd. reflexivity.
Qed.

Definition num (f : float radix2) : Z := Z.abs (Fnum f) * 2 ^ Z.max 0 (Fexp f).
Definition den (f : float radix2) : Z := 2 ^ Z.max 0 (- Fexp f).

Lemma F2R_ratio : forall f : float radix2, (Rabs (F2R f) = IZR (num f) / IZR (den f))%R.
Proof.
  intros f. unfold num, den, F2R. rewrite Rabs_mult, <- abs_IZR, (Rabs_pos_eq (bpow radix2 _)) by apply bpow_ge_0.
  rewrite mult_IZR. change 2%Z with (radix_val radix2). rewrite !IZR_Zpower by lia. unfold Rdiv. rewrite Rmult_assoc. f_equal. rewrite <- bpow_opp, <- bpow_plus. f_equal. lia.
Qed.
Lemma den_pos : forall f, 0 < den f. Proof. intros f. apply Z.pow_pos_nonneg; lia. Qed.
Lemma num_pos : forall f, Fnum f <> 0 -> 0 < num f. Proof. intros f H. apply Z.mul_pos_pos; [lia|apply Z.pow_pos_nonneg; lia]. Qed.

Lemma show_double_form : forall f, Fnum f <> 0 -> show_double f = minus (Fnum f <? 0) ++ show_pos (num f) (den f).
Proof. intros f H. unfold show_double. fold (num f) (den f). apply Z.eqb_neq in H. rewrite H. destruct (Fnum f <? 0); reflexivity. Qed.

Lemma signed_abs : forall f : float radix2, Fnum f <> 0 -> signed (Fnum f <? 0) (Rabs (F2R f)) = F2R f.
Proof.
  intros f H. unfold signed. destruct (Fnum f <? 0) eqn:E.
  - apply Z.ltb_lt in E. rewrite Rabs_left; [ring|]. apply (F2R_lt_0 radix2 f). exact E.
  - apply Z.ltb_ge in E. rewrite Rabs_pos_eq; [ring|]. unfold F2R. apply Rmult_le_pos; [apply (IZR_le 0); lia|apply bpow_ge_0].
Qed.

(** What is written for a double denotes a number within a factor 5e-6 of it. *)
Lemma written : forall f, exists n y, strto (show_double f) = Some n /\ exact n = Some y /\ (Rabs (y - F2R f) <= / 200000 * Rabs (F2R f))%R.
Proof.
  intros f. destruct (Z.eq_dec (Fnum f) 0) as [Z|N].
  - exists (Decimal false 0 0), 0%R. assert (X : F2R f = 0%R) by (unfold F2R; rewrite Z; ring). rewrite X. split; [unfold show_double; rewrite Z; reflexivity|].
    split; [cbn; f_equal; ring|]. rewrite Rminus_0_r, Rabs_R0. lra.
  - pose proof (num_pos f N) as Hp. pose proof (den_pos f) as Hq. destruct (show_pos_reads (Fnum f <? 0) (num f) (den f) Hp Hq) as (M & E & X & Y).
    pose proof (six_spec (num f) (den f) Hp Hq) as S. destruct (six (num f) (den f)) as [m e]. destruct S as [_ S]. rewrite <- F2R_ratio in S.
    exists (Decimal (Fnum f <? 0) M E). eexists. rewrite show_double_form by auto. split; [exact X|]. split; [reflexivity|]. rewrite T_powerRZ, Y.
    rewrite <- (signed_abs f N) at 1. unfold signed. destruct (Fnum f <? 0); [|exact S].
    replace (- (IZR m * T (e - 5)) - - Rabs (F2R f))%R with (- (IZR m * T (e - 5) - Rabs (F2R f)))%R by ring. rewrite Rabs_Ropp. exact S.
Qed.

Lemma written_int : forall f n, F2R f = IZR n -> Z.abs n < 1000000 -> exists k, strto (show_double f) = Some k /\ exact k = Some (IZR n).
Proof.
  intros f n H Hn. destruct (Z.eq_dec (Fnum f) 0) as [Z|N].
  - assert (X : F2R f = 0%R) by (unfold F2R; rewrite Z; ring). exists (Decimal false 0 0). split; [unfold show_double; rewrite Z; reflexivity|]. cbn. f_equal. rewrite <- H, X. ring.
  - pose proof (num_pos f N) as Hp. pose proof (den_pos f) as Hq. destruct (show_pos_reads (Fnum f <? 0) (num f) (den f) Hp Hq) as (M & E & X & Y).
    pose proof (F2R_ratio f) as R. rewrite H, <- abs_IZR in R. assert (Q : IZR (num f) = (IZR (Z.abs n) * IZR (den f))%R) by (rewrite R; field; apply not_0_IZR; lia).
    rewrite <- mult_IZR in Q. apply eq_IZR in Q.
    assert (0 < Z.abs n) by nia. pose proof (six_int (Z.abs n) (den f) ltac:(lia) Hq) as S. rewrite <- Q in S. destruct (six (num f) (den f)) as [m e].
    exists (Decimal (Fnum f <? 0) M E). rewrite show_double_form by auto. split; [exact X|]. cbn [exact]. f_equal. rewrite T_powerRZ, Y, S. rewrite abs_IZR, <- H. apply signed_abs. exact N.
Qed.

(** ** Cells of a comma-separated file *)
Definition plain (c : ascii) : Prop := isd c \/ c = "."%char \/ c = "-"%char \/ c = "+"%char \/ c = "e"%char.

Lemma plain_clean : forall l, l <> [] -> Forall plain l -> clean ","%char l.
Proof.
  intros l N H. rewrite Forall_forall in H. repeat split; auto; intros I; destruct (H _ I) as [D|[D|[D|[D|D]]]]; try discriminate D; apply isd_code in D;
    assert (E1 : code ","%char = 44) by reflexivity; assert (E2 : code newline = 10) by reflexivity; lia.
Qed.
Lemma isd_plain : forall l, Forall isd l -> Forall plain l.
Proof. intros l H. eapply Forall_impl; [|exact H]. intros c Hc. now left. Qed.
Lemma digs_ne : forall n k, digs (S k) n <> [].
Proof. intros n k E. apply (f_equal (@length _)) in E. rewrite digs_length in E. discriminate. Qed.

Lemma show_int_clean : forall n, clean ","%char (show_int n).
Proof.
  intros n. unfold show_int. pose proof (width_pos n). pose proof (width_pos (- n)). destruct (n <? 0); apply plain_clean.
  - discriminate.
  - constructor; [right; right; left; reflexivity|]. apply isd_plain, digs_isd.
  - destruct (width n); [lia|apply digs_ne].
  - apply isd_plain, digs_isd.
Qed.

Lemma point_plain : forall a b, Forall isd a -> Forall isd b -> Forall plain (point a b).
Proof.
  intros a b Ha Hb. rewrite point_fraction. apply Forall_app. split; [now apply isd_plain|]. apply strip_isd in Hb. unfold fraction. destruct (strip b); [constructor|]. constructor; [right; left; reflexivity|now apply isd_plain].
Qed.
Lemma show_pos_plain : forall p q, Forall plain (show_pos p q).
Proof.
  intros p q. unfold show_pos. destruct (six p q) as [m e]. set (d := digs 6 m). assert (Fd : Forall isd d) by apply digs_isd.
  assert (F1 : forall k, Forall isd (firstn k d)) by (intros k; rewrite <- (firstn_skipn k d) in Fd; apply Forall_app in Fd; tauto).
  assert (F2 : forall k, Forall isd (skipn k d)) by (intros k; rewrite <- (firstn_skipn k d) in Fd; apply Forall_app in Fd; tauto).
  destruct (_ && _); [destruct (0 <=? e)|].
  - apply point_plain; auto.
  - apply point_plain; [repeat constructor; exists 0; split; [lia|reflexivity]|apply Forall_app; split; [apply zeros_isd|exact Fd]].
  - apply Forall_app. split; [apply point_plain; auto|]. cbn [app]. constructor; [right; right; right; right; reflexivity|]. constructor; [destruct (e <? 0); [right; right; left|right; right; right; left]; reflexivity|]. apply isd_plain, digs_isd.
Qed.
Lemma show_double_clean : forall f, clean ","%char (show_double f).
Proof.
  intros f. destruct (Z.eq_dec (Fnum f) 0) as [Z|N].
  - unfold show_double. rewrite Z. apply plain_clean; [discriminate|]. repeat constructor. exists 0. split; [lia|reflexivity].
  - destruct (written f) as (n & y & E & _). apply plain_clean.
    + intros X. rewrite X in E. discriminate E.
    + rewrite show_double_form by auto. apply Forall_app. split; [destruct (Fnum f <? 0); repeat constructor; right; right; left; reflexivity|apply show_pos_plain].
Qed.
