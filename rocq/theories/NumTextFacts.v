(** * Facts about numbers as text: digits, the grammar, single precision. *)
From Coq Require Import Ascii String.
From Coq Require Import List Arith ZArith Reals Bool Lia Lra Psatz.
From Flocq Require Import Core Relative.
From Verif Require Import Base Utils NumText.
Import ListNotations.
Local Open Scope Z_scope.

Lemma code_digit : forall d, 0 <= 48 + d < 256 -> code (digit d) = 48 + d.
Proof. intros d H. unfold code, digit. rewrite nat_ascii_embedding by lia. lia. Qed.

Definition isd (c : ascii) : Prop := exists d, 0 <= d <= 9 /\ c = digit d.

Lemma isd_code : forall c, isd c -> 48 <= code c <= 57.
Proof. intros c (d & H & ->). rewrite code_digit by lia. lia. Qed.
Lemma isd_is : forall c, isd c -> is_digit c = true.
Proof. intros c H. apply isd_code in H. unfold is_digit. apply andb_true_intro. split; apply Z.leb_le; lia. Qed.
Lemma isd_val : forall d, 0 <= d <= 9 -> hex_of (digit d) = d.
Proof. intros d H. unfold hex_of. rewrite isd_is by (exists d; auto). rewrite code_digit by lia. lia. Qed.
Lemma is_isd : forall c, is_digit c = true -> isd c.
Proof.
  intros c H. unfold is_digit in H. apply andb_prop in H. destruct H as [A B]. apply Z.leb_le in A. apply Z.leb_le in B.
  exists (code c - 48). split; [lia|]. unfold digit. replace (48 + (code c - 48)) with (code c) by lia. unfold code. rewrite Nat2Z.id. now rewrite ascii_nat_embedding.
Qed.
Lemma isd_lower : forall c, isd c -> lower c = code c.
Proof. intros c H. apply isd_code in H. unfold lower. destruct (65 <=? code c) eqn:E; [apply Z.leb_le in E; lia|reflexivity]. Qed.

(** ** Values of strings of digits *)
Lemma val_app : forall b x y, val_in b (x ++ y) = val_in b x * b ^ Z.of_nat (length y) + val_in b y.
Proof.
  intros b x y. unfold val_in. rewrite fold_left_app. generalize (fold_left (fun a c => b * a + hex_of c) x 0) as k.
  induction y as [|c y IH] using rev_ind; intros k; [cbn; ring|]. rewrite !fold_left_app, app_length, Nat2Z.inj_add, Z.pow_add_r by lia.
  cbn [fold_left length]. rewrite IH. change (Z.of_nat 1) with 1. ring.
Qed.
Lemma val_one : forall b c, val_in b [c] = hex_of c.
Proof. intros. unfold val_in. cbn. ring. Qed.
Lemma val_nonneg : forall l, Forall isd l -> 0 <= val_in 10 l.
Proof.
  induction l as [|c l IH] using rev_ind; intros H; [reflexivity|]. apply Forall_app in H. destruct H as [H1 H2]. rewrite val_app, val_one.
  specialize (IH H1). inversion H2 as [|? ? (d & Hd & ->) _]; subst. rewrite isd_val by lia. assert (0 <= 10 ^ Z.of_nat (length [digit d])) by (apply Z.pow_nonneg; lia). nia.
Qed.

Lemma digs_length : forall k n, length (digs k n) = k.
Proof. induction k as [|k IH]; intros n; cbn [digs]; [reflexivity|]. rewrite app_length, IH. cbn. lia. Qed.
Lemma digs_isd : forall k n, Forall isd (digs k n).
Proof. induction k as [|k IH]; intros n; cbn [digs]; [constructor|]. apply Forall_app. split; [apply IH|]. repeat constructor. exists (n mod 10). split; [|reflexivity]. pose proof (Z.mod_pos_bound n 10). lia. Qed.
Lemma digs_val : forall k n, 0 <= n -> val_in 10 (digs k n) = n mod 10 ^ Z.of_nat k.
Proof.
  induction k as [|k IH]; intros n Hn; cbn [digs]; [cbn; symmetry; apply Z.mod_1_r|].
  rewrite val_app, val_one, IH by (apply Z.div_pos; lia). pose proof (Z.mod_pos_bound n 10). rewrite isd_val by lia. cbn [length]. change (10 ^ Z.of_nat 1) with 10.
  rewrite Nat2Z.inj_succ, Z.pow_succ_r by lia. rewrite Z.rem_mul_r by (try lia; apply Z.pow_nonzero; lia). lia.
Qed.

Lemma n_digits_spec : forall f n, 0 < n -> n < 10 * 2 ^ Z.of_nat f ->
  (1 <= n_digits f n)%nat /\ 10 ^ (Z.of_nat (n_digits f n) - 1) <= n < 10 ^ Z.of_nat (n_digits f n).
Proof.
  induction f as [|f IH]; intros n Hn Hf; cbn [n_digits].
  - change (2 ^ Z.of_nat 0) with 1 in Hf. cbn. lia.
  - destruct (n <? 10) eqn:E; [apply Z.ltb_lt in E; cbn; lia|]. apply Z.ltb_ge in E.
    rewrite Nat2Z.inj_succ, Z.pow_succ_r in Hf by lia.
    assert (Hd : 0 < n / 10) by (apply Z.div_str_pos; lia).
    destruct (IH (n / 10) Hd) as (A & B & C).
    { apply Z.div_lt_upper_bound; [lia|]. assert (0 < 2 ^ Z.of_nat f) by (apply Z.pow_pos_nonneg; lia). lia. }
    set (k := n_digits f (n / 10)) in *. split; [lia|]. pose proof (Z.div_mod n 10 ltac:(lia)) as DM. pose proof (Z.mod_pos_bound n 10 ltac:(lia)).
    rewrite Nat2Z.inj_succ, (Z.pow_succ_r 10 (Z.of_nat k)) by lia. replace (Z.succ (Z.of_nat k) - 1) with (Z.succ (Z.of_nat k - 1)) by lia. rewrite Z.pow_succ_r by lia. lia.
Qed.
Lemma width_spec : forall n, 0 < n -> (1 <= width n)%nat /\ 10 ^ (Z.of_nat (width n) - 1) <= n < 10 ^ Z.of_nat (width n).
Proof.
  intros n Hn. apply n_digits_spec; auto. rewrite Z2Nat.id by apply Z.log2_nonneg. pose proof (Z.log2_spec n Hn) as [_ H]. rewrite Z.pow_succ_r in H by apply Z.log2_nonneg.
  assert (0 < 2 ^ Z.log2 n) by (apply Z.pow_pos_nonneg; [lia|apply Z.log2_nonneg]). lia.
Qed.
Lemma width_pos : forall n, (1 <= width n)%nat.
Proof. intros n. unfold width. destruct (Z.to_nat (Z.log2 n)); cbn [n_digits]; [lia|]. destruct (n <? 10); lia. Qed.
Lemma digs_width : forall n, 0 <= n -> val_in 10 (digs (width n) n) = n.
Proof.
  intros n Hn. rewrite digs_val by auto. apply Z.mod_small. destruct (Z.eq_dec n 0) as [->|N]; [cbn; lia|]. pose proof (width_spec n ltac:(lia)). lia.
Qed.

(** ** The grammar *)
Lemma span_all : forall f a r, Forall (fun c => f c = true) a -> match r with c :: _ => f c = false | [] => True end -> span f (a ++ r) = (a, r).
Proof.
  intros f a r H Hr. induction H as [|c a Hc H IH]; cbn [app span].
  - destruct r as [|c r]; [reflexivity|]. cbn. now rewrite Hr.
  - now rewrite Hc, IH.
Qed.
Lemma span_digits : forall a r, Forall isd a -> match r with c :: _ => is_digit c = false | [] => True end -> span is_digit (a ++ r) = (a, r).
Proof. intros a r H. apply span_all. eapply Forall_impl; [|exact H]. intros c. apply isd_is. Qed.

(** What may follow a number: no digit, no point, no letter x. *)
Definition ends (r : list ascii) : Prop := match r with c :: _ => is_digit c = false /\ code c <> 46 /\ lower c <> 120 | [] => True end.

Definition fraction (b : list ascii) : list ascii := match b with [] => [] | _ => "."%char :: b end.

Lemma mantissa_dec : forall a b r, Forall isd a -> Forall isd b -> ends r ->
  mantissa is_digit (a ++ fraction b ++ r) = (a ++ b, length b, r).
Proof.
  intros a b r Ha Hb Hr. unfold mantissa. destruct b as [|c b]; cbn [fraction app].
  - rewrite span_digits; [|exact Ha|destruct r; [exact I|apply Hr]]. rewrite app_nil_r. destruct r as [|c r]; [reflexivity|]. destruct Hr as (_ & Hp & _).
    apply Z.eqb_neq in Hp. now rewrite Hp.
  - rewrite span_digits; [|exact Ha|reflexivity]. change (code "." =? 46) with true. cbv iota.
    change (c :: b ++ r) with ((c :: b) ++ r). rewrite span_digits; [reflexivity|exact Hb|destruct r; [exact I|apply Hr]].
Qed.

Lemma digit_head : forall c, isd c -> is_space c = false /\ (code c =? 45) = false /\ (code c =? 43) = false /\ (lower c =? 110) = false /\ (lower c =? 105) = false.
Proof.
  intros c H. rewrite (isd_lower c H). apply isd_code in H. unfold is_space.
  repeat split; try (apply Z.eqb_neq; lia). apply orb_false_intro; [apply Z.eqb_neq; lia|]. apply andb_false_intro2. apply Z.leb_gt. lia.
Qed.

Definition minus (neg : bool) : list ascii := if neg then ["-"%char] else [].

Lemma strto_dec : forall neg a b r, a <> [] -> Forall isd a -> Forall isd b -> ends r ->
  strto (minus neg ++ a ++ fraction b ++ r) = Some (Decimal neg (val_in 10 (a ++ b)) (exponent 101 r - Z.of_nat (length b))).
Proof.
  intros neg a b r Na Ha Hb Hr.
  assert (Hsp : snd (span is_space (minus neg ++ a ++ fraction b ++ r)) = minus neg ++ a ++ fraction b ++ r).
  { destruct neg; [reflexivity|]. destruct a as [|c a]; [congruence|]. inversion Ha as [|? ? Hc _]; subst. cbn [minus app span]. destruct (digit_head c Hc) as (E & _). now rewrite E. }
  assert (Hsg : sign (minus neg ++ a ++ fraction b ++ r) = (neg, a ++ fraction b ++ r)).
  { destruct neg; [reflexivity|]. destruct a as [|c a]; [congruence|]. inversion Ha as [|? ? Hc _]; subst. cbn [minus app sign]. destruct (digit_head c Hc) as (_ & E1 & E2 & _). now rewrite E1, E2. }
  unfold strto. rewrite Hsp, Hsg.
  assert (Hn : starts [110; 97; 110] (a ++ fraction b ++ r) = false /\ starts [105; 110; 102] (a ++ fraction b ++ r) = false).
  { destruct a as [|c a]; [congruence|]. inversion Ha as [|? ? Hc _]; subst. cbn [app starts]. destruct (digit_head c Hc) as (_ & _ & _ & E1 & E2). now rewrite E1, E2. }
  destruct Hn as [-> ->].
  assert (Hx : starts [48; 120] (a ++ fraction b ++ r) = false).
  { destruct a as [|c a]; [congruence|]. inversion Ha as [|? ? Hc Ha']; subst. cbn [app starts]. apply andb_false_intro2. 
    destruct a as [|c' a].
    - destruct b as [|c' b]; cbn [fraction app].
      + destruct r as [|c' r]; [reflexivity|]. destruct Hr as (_ & _ & X). apply Z.eqb_neq in X. now rewrite X.
      + reflexivity.
    - cbn [app]. inversion Ha' as [|? ? Hc' _]; subst. rewrite (isd_lower c' Hc'). apply isd_code in Hc'. replace (code c' =? 120) with false; [reflexivity|]. symmetry. apply Z.eqb_neq. lia. }
  rewrite Hx, mantissa_dec by auto. destruct (a ++ b) as [|c m] eqn:E; [|reflexivity]. apply app_eq_nil in E. tauto.
Qed.

(** ** Single precision *)
Instance prec24 : Prec_gt_0 24 := eq_refl.

Definition largest : R := (IZR (2 ^ 24 - 1) * bpow radix2 104)%R.

Lemma largest_format : generic_format radix2 (FLT_exp (-149) 24) largest.
Proof. apply generic_format_FLT. exists (Float radix2 (2 ^ 24 - 1) 104); [reflexivity|cbn; lia|cbn; lia]. Qed.
Lemma largest_lt : (largest < bpow radix2 128)%R.
Proof. unfold largest. replace 128 with (24 + 104) by lia. rewrite bpow_plus. apply Rmult_lt_compat_r; [apply bpow_gt_0|]. change (bpow radix2 24) with (IZR (2 ^ 24)). apply IZR_lt. lia. Qed.

Lemma single_fits : forall x, (Rabs x <= largest)%R -> (Rabs (single x) < bpow radix2 128)%R.
Proof. intros x H. apply Rle_lt_trans with largest; [|apply largest_lt]. apply abs_round_le_generic; auto using largest_format with typeclass_instances. Qed.
Lemma single_normal : forall x, (bpow radix2 (-126) <= Rabs x)%R -> (bpow radix2 (-126) <= Rabs (single x))%R.
Proof. intros x H. apply abs_round_ge_generic; auto with typeclass_instances. apply generic_format_FLT_bpow; [reflexivity|lia]. Qed.
Lemma single_error : forall x, (bpow radix2 (-126) <= Rabs x)%R -> (Rabs (single x - x) <= bpow radix2 (-24) * Rabs x)%R.
Proof.
  intros x H. pose proof (relative_error_N_FLT radix2 (-149) 24 prec24 (fun z => negb (Z.even z)) x H) as X. eapply Rle_trans; [exact X|].
  apply Rmult_le_compat_r; [apply Rabs_pos|]. change (- (24) + 1) with (1 + -24). rewrite bpow_plus. change (bpow radix2 1) with 2%R. lra.
Qed.
Lemma single_nearest : forall x f, generic_format radix2 (FLT_exp (-149) 24) f -> (Rabs (single x - x) <= Rabs (f - x))%R.
Proof. intros x f H. pose proof (round_N_pt radix2 (FLT_exp (-149) 24) (fun z => negb (Z.even z)) x) as [_ X]. apply X. exact H. Qed.

Lemma stof_of : forall l n x, strto l = Some n -> exact n = Some x -> (x = 0 \/ bpow radix2 (-126) <= Rabs x)%R -> (Rabs x <= largest)%R -> stof l = Some (Num (single x)).
Proof.
  intros l n x E X Hlo Hhi. unfold stof. rewrite E.
  assert (G : (if Rle_dec (bpow radix2 128) (Rabs (single x)) then None
          else if Rlt_dec (Rabs (single x)) (bpow radix2 (-126)) then if Req_EM_T (single x) x then Some (Num (single x)) else None
          else Some (Num (single x))) = Some (Num (single x))).
  { pose proof (single_fits x Hhi). destruct (Rle_dec _ _) as [L|_]; [lra|]. destruct Hlo as [->|Hlo].
    - assert (Z : single 0 = 0%R) by (apply round_0; auto with typeclass_instances). rewrite Z. destruct (Rlt_dec _ _); [|reflexivity]. destruct (Req_EM_T 0 0); [reflexivity|congruence].
    - pose proof (single_normal x Hlo). destruct (Rlt_dec _ _) as [L|_]; [lra|reflexivity]. }
  destruct n; cbn [exact] in X; try discriminate X; injection X as <-; exact G.
Qed.

Lemma int_format : forall n, Z.abs n <= 2 ^ 24 -> generic_format radix2 (FLT_exp (-149) 24) (IZR n).
Proof.
  intros n H. apply generic_format_FLT. destruct (Z.eq_dec (Z.abs n) (2 ^ 24)) as [E|N].
  - destruct (Z.abs_spec n) as [[_ A]|[_ A]].
    + exists (Float radix2 (2 ^ 23) 1); [|cbn; lia|cbn; lia]. unfold F2R. cbn [Fnum Fexp]. replace n with (2 ^ 24) by lia. change (bpow radix2 1) with 2%R. rewrite <- mult_IZR. f_equal.
    + exists (Float radix2 (- 2 ^ 23) 1); [|cbn; lia|cbn; lia]. unfold F2R. cbn [Fnum Fexp]. replace n with (- 2 ^ 24) by lia. change (bpow radix2 1) with 2%R. rewrite <- mult_IZR. f_equal.
  - exists (Float radix2 n 0); [|cbn [Fnum]; change (Zpower radix2 24) with (2 ^ 24); lia|cbn; lia]. unfold F2R. cbn. ring.
Qed.
Lemma int_single : forall n, Z.abs n <= 2 ^ 24 -> single (IZR n) = IZR n.
Proof. intros n H. apply round_generic; [auto with typeclass_instances|apply int_format; auto]. Qed.

Lemma int_range : forall n, Z.abs n <= 2 ^ 24 -> (IZR n = 0 \/ bpow radix2 (-126) <= Rabs (IZR n))%R /\ (Rabs (IZR n) <= largest)%R.
Proof.
  intros n H. rewrite <- abs_IZR. split.
  - destruct (Z.eq_dec n 0) as [->|N]; [now left|right]. apply Rle_trans with 1%R; [change 1%R with (bpow radix2 0); apply bpow_le; lia|]. apply (IZR_le 1). lia.
  - apply Rle_trans with (IZR (2 ^ 24)); [apply IZR_le; auto|]. unfold largest. apply Rle_trans with (IZR (2 ^ 24 - 1) * bpow radix2 1)%R.
    + change (bpow radix2 1) with 2%R. rewrite <- mult_IZR. apply IZR_le. lia.
    + apply Rmult_le_compat_l; [apply IZR_le; lia|apply bpow_le; lia].
Qed.

(** ** Integers *)
Lemma show_int_form : forall n, show_int n = minus (n <? 0) ++ digs (width (Z.abs n)) (Z.abs n) ++ fraction [] ++ [].
Proof.
  intros n. unfold show_int. cbn [fraction app]. rewrite app_nil_r. destruct (n <? 0) eqn:E; cbn [minus app].
  - apply Z.ltb_lt in E. rewrite Z.abs_neq by lia. reflexivity.
  - apply Z.ltb_ge in E. now rewrite Z.abs_eq by lia.
Qed.
Lemma strto_int : forall n, strto (show_int n) = Some (Decimal (n <? 0) (Z.abs n) 0).
Proof.
  intros n. rewrite show_int_form, strto_dec; auto using digs_isd; [|intros E; apply (f_equal (@length _)) in E; rewrite digs_length in E; pose proof (width_pos (Z.abs n)); cbn in E; lia|exact I].
  rewrite app_nil_r, digs_width by lia. reflexivity.
Qed.
Lemma exact_int : forall n, exact (Decimal (n <? 0) (Z.abs n) 0) = Some (IZR n).
Proof.
  intros n. cbn [exact powerRZ]. f_equal. unfold signed. destruct (n <? 0) eqn:E.
  - apply Z.ltb_lt in E. rewrite Z.abs_neq by lia. rewrite opp_IZR. ring.
  - apply Z.ltb_ge in E. rewrite Z.abs_eq by lia. ring.
Qed.
Lemma stof_int : forall n, Z.abs n <= 2 ^ 24 -> stof (show_int n) = Some (Num (IZR n)).
Proof.
  intros n H. rewrite <- (int_single n H). destruct (int_range n H) as [A B]. eapply stof_of; [apply strto_int|apply exact_int|exact A|exact B].
Qed.
