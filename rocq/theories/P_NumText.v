(** * Property theorems: numbers in the files that are read and written. *)
From Coq Require Import Ascii String.
From Coq Require Import List Arith ZArith Reals Bool Lia Lra Psatz.
From Flocq Require Import Core.
From Verif Require Import Base Utils UtilsMore NumText NumTextFacts NumTextFacts2.
Import ListNotations.
Local Open Scope Z_scope.

(** ** C128 *)

(** A decimal number: digits, digits after the point, an exponent. *)
Definition digits_ok (l : list Z) : Prop := Forall (fun d => 0 <= d <= 9) l.
Definition worth (l : list Z) : Z := fold_left (fun a d => 10 * a + d) l 0.
Definition chars (l : list Z) : list ascii := map digit l.
Definition exp_text (e : option (bool * list Z)) : list ascii :=
  match e with None => [] | Some (neg, l) => "e"%char :: (if neg then "-"%char else "+"%char) :: chars l end.
Definition exp_value (e : option (bool * list Z)) : Z :=
  match e with None => 0 | Some (neg, l) => if neg then - worth l else worth l end.
Definition exp_ok (e : option (bool * list Z)) (rest : list ascii) : Prop :=
  match e with
  | Some (_, l) => digits_ok l /\ match rest with c :: _ => ~ (48 <= code c <= 57) | [] => True end
  | None => match rest with c :: _ => ~ (48 <= code c <= 57) /\ ~ In c ["."%char; "x"%char; "X"%char; "e"%char; "E"%char] | [] => True end
  end.
Definition decimal (neg : bool) (a b : list Z) (e : option (bool * list Z)) : list ascii :=
  (if neg then ["-"%char] else []) ++ chars a ++ (match b with [] => [] | _ => "."%char :: chars b end) ++ exp_text e.
Definition decimal_value (neg : bool) (a b : list Z) (e : option (bool * list Z)) : R :=
  ((if neg then -1 else 1) * IZR (worth (a ++ b)) * powerRZ 10 (exp_value e - Z.of_nat (length b)))%R.

(** Numbers of single precision. *)
Definition is_single (x : R) : Prop := exists m e, x = (IZR m * powerRZ 2 e)%R /\ Z.abs m < 2 ^ 24 /\ -149 <= e.

Lemma is_single_format : forall x, is_single x <-> generic_format radix2 (FLT_exp (-149) 24) x.
Proof.
  intros x. split.
  - intros (m & e & -> & Hm & He). apply generic_format_FLT. exists (Float radix2 m e); auto. unfold F2R. cbn [Fnum Fexp]. now rewrite bpow_powerRZ.
  - intros H. apply FLT_format_generic in H; [|reflexivity]. destruct H as [[m e] -> A B]. exists m, e. split; [|split; auto]. unfold F2R. cbn [Fnum Fexp]. now rewrite bpow_powerRZ.
Qed.

Lemma two_pow : forall e, powerRZ 2 e = bpow radix2 e.
Proof. intros e. exact (eq_sym (bpow_powerRZ radix2 e)). Qed.

Lemma chars_isd : forall l, digits_ok l -> Forall isd (chars l).
Proof. intros l H. apply Forall_map. eapply Forall_impl; [|exact H]. intros d Hd. exists d. auto. Qed.
Lemma chars_val : forall l, digits_ok l -> val_in 10 (chars l) = worth l.
Proof.
  intros l H. unfold val_in, worth, chars. generalize 0. induction H as [|d l Hd H IH]; intros k; cbn [map fold_left]; [reflexivity|]. rewrite isd_val by auto. apply IH.
Qed.
Lemma is_digit_false : forall c, ~ (48 <= code c <= 57) -> is_digit c = false.
Proof. intros c H. unfold is_digit. destruct (48 <=? code c) eqn:A; [|reflexivity]. destruct (code c <=? 57) eqn:B; [|reflexivity]. apply Z.leb_le in A. apply Z.leb_le in B. lia. Qed.

Lemma code_is : forall c k, code c = Z.of_nat k -> c = ascii_of_nat k.
Proof. intros c k H. unfold code in H. apply Nat2Z.inj in H. rewrite <- H. symmetry. apply ascii_nat_embedding. Qed.

Lemma lower_is : forall c k, lower c = Z.of_nat k -> c = ascii_of_nat k \/ (32 <= k)%nat /\ c = ascii_of_nat (k - 32).
Proof.
  intros c k H. unfold lower in H. destruct ((65 <=? code c) && (code c <=? 90)) eqn:E.
  - right. apply andb_prop in E. destruct E as [A B]. apply Z.leb_le in A. assert (32 <= k)%nat by lia. split; [auto|]. apply code_is. lia.
  - left. now apply code_is.
Qed.

Lemma decimal_strto : forall neg a b e rest, a <> [] -> digits_ok a -> digits_ok b -> exp_ok e rest ->
  exists n, strto (decimal neg a b e ++ rest) = Some n /\ exact n = Some (decimal_value neg a b e).
Proof.
  intros neg a b e rest Na Ha Hb He.
  assert (Fr : match b with [] => [] | _ => "."%char :: chars b end = fraction (chars b)) by (destruct b; reflexivity).
  assert (En : ends (exp_text e ++ rest) /\ exponent 101 (exp_text e ++ rest) = exp_value e).
  { destruct e as [[s l]|]; cbn [exp_text exp_ok exp_value app] in *.
    - destruct He as [Hl Hr]. split; [split; [reflexivity|split; discriminate]|]. unfold exponent. change (lower "e" =? 101) with true. cbv iota.
      assert (Sg : sign ((if s then "-"%char else "+"%char) :: chars l ++ rest) = (s, chars l ++ rest)) by (destruct s; reflexivity). rewrite Sg.
      rewrite span_digits; [|apply chars_isd; auto|destruct rest as [|c rest]; [exact I|now apply is_digit_false]]. cbn [fst]. rewrite chars_val by auto. reflexivity.
    - destruct rest as [|c rest]; [split; [exact I|reflexivity]|]. destruct He as [Hc Hn]. split.
      + split; [now apply is_digit_false|]. split.
        * intros C. apply Hn. rewrite (code_is c 46 C). left. reflexivity.
        * intros C. apply Hn. destruct (lower_is c 120 C) as [->|[_ ->]]; [right; left|right; right; left]; reflexivity.
      + unfold exponent. destruct (lower c =? 101) eqn:C; [|reflexivity]. apply Z.eqb_eq in C. exfalso. apply Hn. destruct (lower_is c 101 C) as [->|[_ ->]]; [do 3 right; left|do 4 right; left]; reflexivity. }
  destruct En as [En Ex]. eexists. split.
  - unfold decimal. rewrite Fr. replace (((if neg then ["-"%char] else []) ++ chars a ++ fraction (chars b) ++ exp_text e) ++ rest) with (minus neg ++ chars a ++ fraction (chars b) ++ (exp_text e ++ rest)).
    + apply strto_dec; auto using chars_isd. destruct a; [congruence|discriminate].
    + unfold minus. rewrite <- !app_assoc. reflexivity.
  - cbn [exact]. rewrite Ex. unfold chars. rewrite <- map_app. fold (chars (a ++ b)). rewrite chars_val by (apply Forall_app; auto). rewrite map_length. unfold decimal_value, signed. f_equal. destruct neg; ring.
Qed.

(** A decimal number is read as the nearest number of single precision; what follows
    it in the cell is ignored. *)
Theorem C128_reads_nearest : forall neg a b e rest, a <> [] -> digits_ok a -> digits_ok b -> exp_ok e rest ->
  let v := decimal_value neg a b e in
  (v = 0 \/ powerRZ 2 (-126) <= Rabs v)%R -> (Rabs v <= IZR (2 ^ 24 - 1) * powerRZ 2 104)%R ->
  exists r, stof (decimal neg a b e ++ rest) = Some (Num r) /\ is_single r /\
    (forall f, is_single f -> Rabs (r - v) <= Rabs (f - v))%R /\ (Rabs (r - v) <= powerRZ 2 (-24) * Rabs v)%R.
Proof.
  intros neg a b e rest Na Ha Hb He v Lo Hi. rewrite two_pow in *. destruct (decimal_strto neg a b e rest Na Ha Hb He) as (n & E & X).
  exists (single v). split; [eapply stof_of; eauto|]. split; [apply is_single_format; apply generic_format_round; auto with typeclass_instances|]. split.
  - intros f Hf. apply single_nearest. now apply is_single_format.
  - destruct Lo as [->|Lo]; [|now apply single_error]. assert (Z : single 0 = 0%R) by (apply round_0; auto with typeclass_instances). rewrite Z, Rminus_0_r, Rabs_R0. lra.
Qed.
Print Assumptions C128_reads_nearest.

(** Numbers beyond the range of single precision end the program. *)
Theorem C128_too_large : forall neg a b e rest, a <> [] -> digits_ok a -> digits_ok b -> exp_ok e rest ->
  (powerRZ 2 128 <= Rabs (decimal_value neg a b e))%R -> stof (decimal neg a b e ++ rest) = None.
Proof.
  intros neg a b e rest Na Ha Hb He H. rewrite two_pow in H. destruct (decimal_strto neg a b e rest Na Ha Hb He) as (n & E & X). set (v := decimal_value neg a b e) in *.
  assert (G : (bpow radix2 128 <= Rabs (single v))%R) by (apply abs_round_ge_generic; auto with typeclass_instances; apply generic_format_FLT_bpow; [reflexivity|lia]).
  unfold stof. rewrite E. destruct n; cbn [exact] in X |- *; try discriminate X; injection X as X; rewrite X; cbv zeta; (destruct (Rle_dec _ _); [reflexivity|lra]).
Qed.
Print Assumptions C128_too_large.

Theorem C128_too_small : forall neg a b e rest, a <> [] -> digits_ok a -> digits_ok b -> exp_ok e rest ->
  (Rabs (decimal_value neg a b e) <= powerRZ 2 (-127))%R -> ~ is_single (decimal_value neg a b e) -> stof (decimal neg a b e ++ rest) = None.
Proof.
  intros neg a b e rest Na Ha Hb He H N. rewrite two_pow in H. destruct (decimal_strto neg a b e rest Na Ha Hb He) as (n & E & X). set (v := decimal_value neg a b e) in *.
  assert (G : (Rabs (single v) <= bpow radix2 (-127))%R) by (apply abs_round_le_generic; auto with typeclass_instances; apply generic_format_FLT_bpow; [reflexivity|lia]).
  assert (L : (bpow radix2 (-127) < bpow radix2 (-126))%R) by (apply bpow_lt; lia).
  assert (D : single v <> v) by (intros D; apply N, is_single_format; rewrite <- D; apply generic_format_round; auto with typeclass_instances).
  unfold stof. rewrite E. destruct n; cbn [exact] in X |- *; try discriminate X; injection X as X; rewrite X; cbv zeta; (destruct (Rle_dec _ _); [reflexivity|]; destruct (Rlt_dec _ _); [|lra]; destruct (Req_EM_T _ _); [congruence|reflexivity]).
Qed.
Print Assumptions C128_too_small.

(** Integers survive writing and reading up to 2^24. *)
Theorem C128_integers : forall n, Z.abs n <= 2 ^ 24 -> stof (show_int n) = Some (Num (IZR n)).
Proof. exact stof_int. Qed.
Print Assumptions C128_integers.

Lemma not_single : forall n e, Z.odd n = true -> 2 ^ 24 <= n -> ~ is_single (IZR n * powerRZ 2 e).
Proof.
  intros n e Ho Hn (m & k & E & Hm & _). rewrite !two_pow in E. destruct (Z_le_gt_dec k e) as [L|G].
  - assert (X : IZR m = (IZR n * IZR (2 ^ (e - k)))%R).
    { change 2 with (radix_val radix2). rewrite IZR_Zpower by lia. apply Rmult_eq_reg_r with (bpow radix2 k); [|apply Rgt_not_eq, bpow_gt_0]. rewrite <- E, Rmult_assoc, <- bpow_plus. do 2 f_equal. lia. }
    rewrite <- mult_IZR in X. apply eq_IZR in X. assert (1 <= 2 ^ (e - k)) by (assert (0 < 2 ^ (e - k)) by (apply Z.pow_pos_nonneg; lia); lia). nia.
  - assert (X : IZR n = (IZR m * IZR (2 ^ (k - e)))%R).
    { change 2 with (radix_val radix2). rewrite IZR_Zpower by lia. apply Rmult_eq_reg_r with (bpow radix2 e); [|apply Rgt_not_eq, bpow_gt_0]. rewrite E, Rmult_assoc, <- bpow_plus. do 2 f_equal. lia. }
    rewrite <- mult_IZR in X. apply eq_IZR in X. replace (k - e) with (Z.succ (k - e - 1)) in X by lia. rewrite Z.pow_succ_r in X by lia.
    rewrite X, Z.odd_mul, (Z.odd_mul 2) in Ho. cbn [Z.odd] in Ho. rewrite andb_false_r in Ho. discriminate.
Qed.

Lemma single_is : forall x, is_single (single x).
Proof. intros x. apply is_single_format, generic_format_round; auto with typeclass_instances. Qed.

Theorem C128_integers_refuted : exists n x, 0 < n /\ stof (show_int n) = Some (Num x) /\ x <> IZR n.
Proof.
  exists 16777217, (single (IZR 16777217)). split; [lia|]. split.
  - eapply stof_of; [apply strto_int|apply exact_int| |].
    + right. rewrite Rabs_pos_eq by lra. apply Rle_trans with 1%R; [change 1%R with (bpow radix2 0); apply bpow_le; lia|lra].
    + rewrite Rabs_pos_eq by lra. unfold largest. apply Rle_trans with (IZR (2 ^ 24 - 1) * bpow radix2 1)%R; [change (bpow radix2 1) with 2%R; change (2 ^ 24 - 1) with 16777215; lra|].
      apply Rmult_le_compat_l; [change (2 ^ 24 - 1) with 16777215; lra|apply bpow_le; lia].
  - intros E. apply (not_single 16777217 0); [reflexivity|lia|]. cbn [powerRZ]. rewrite Rmult_1_r, <- E. apply single_is.
Qed.
Print Assumptions C128_integers_refuted.

(** The data are stored in double precision but read in single precision: a double that
    the file holds exactly is changed. *)
Theorem C128_double_precision_refuted : exists a b f x, digits_ok a /\ digits_ok b /\
  decimal_value false a b None = F2R (f : float radix2) /\ Z.abs (Fnum f) < 2 ^ 53 /\ (1 <= F2R f <= 2)%R /\
  stof (decimal false a b None) = Some (Num x) /\ x <> F2R f.
Proof.
  set (b := [0;0;0;0;0;0;0;0;0;9;3;1;3;2;2;5;7;4;6;1;5;4;7;8;5;1;5;6;2;5]).
  assert (Hb : digits_ok b) by (repeat constructor; lia). assert (Ha : digits_ok [1]) by (repeat constructor; lia).
  set (f := Float radix2 (2 ^ 30 + 1) (-30)).
  assert (V : decimal_value false [1] b None = F2R f).
  { unfold decimal_value, F2R, f. cbn [Fnum Fexp exp_value]. change (worth ([1] ++ b)) with 1000000000931322574615478515625. change (0 - Z.of_nat (length b)) with (-30).
    change (bpow radix2 (-30)) with (/ IZR (Zpower_pos 2 30))%R. change (Zpower_pos 2 30) with 1073741824. change (2 ^ 30 + 1) with 1073741825. rewrite T_powerRZ. change (T (-30)) with (/ IZR (Zpower_pos 10 30))%R. change (Zpower_pos 10 30) with 1000000000000000000000000000000.
    lra. }
  assert (R : (1 <= F2R f <= 2)%R).
  { unfold F2R, f. cbn [Fnum Fexp]. change (bpow radix2 (-30)) with (/ IZR (Zpower_pos 2 30))%R. change (Zpower_pos 2 30) with 1073741824. change (2 ^ 30 + 1) with 1073741825. lra. }
  exists [1], b, f, (single (F2R f)). do 3 (split; auto). split; [cbn; lia|]. split; [exact R|]. split.
  - destruct (decimal_strto false [1] b None [] ltac:(discriminate) Ha Hb I) as (n & E & X). rewrite app_nil_r in E. rewrite V in X. eapply stof_of; eauto.
    + right. rewrite Rabs_pos_eq by lra. apply Rle_trans with 1%R; [change 1%R with (bpow radix2 0); apply bpow_le; lia|lra].
    + rewrite Rabs_pos_eq by lra. unfold largest. change (2 ^ 24 - 1) with 16777215. apply Rle_trans with (IZR 16777215 * bpow radix2 0)%R; [change (bpow radix2 0) with 1%R; lra|]. apply Rmult_le_compat_l; [lra|apply bpow_le; lia].
  - intros E. apply (not_single (2 ^ 30 + 1) (-30)); [reflexivity|lia|]. rewrite two_pow. change (IZR (2 ^ 30 + 1) * bpow radix2 (-30))%R with (F2R f). rewrite <- E. apply single_is.
Qed.
Print Assumptions C128_double_precision_refuted.

(** Characters that do not belong to a number are not an error: with another separator
    all columns but the first are lost. *)
Theorem C128_other_separator_refuted : exists text m, read_matrix stof (Some text) ","%char = Ok (2%nat, 1%nat, m) /\
  text = list_ascii_of_string "1;5" ++ [newline] ++ list_ascii_of_string "2;6" /\ m = [Some (Num 1); Some (Num 2)].
Proof.
  eexists. eexists. split; [|split; reflexivity].
  assert (P : forall (n : Z) l, strto l = Some (Decimal false n 0) -> Z.abs n <= 2 ^ 24 -> stof l = Some (Num (IZR n))).
  { intros n l E H. rewrite <- (int_single n H). destruct (int_range n H) as [X Y]. eapply stof_of; [exact E|cbn [exact signed powerRZ]; rewrite Rmult_1_r; reflexivity|exact X|exact Y]. }
  set (t1 := list_ascii_of_string "1;5"). set (t2 := list_ascii_of_string "2;6").
  assert (C : forall r, In r [[t1]; [t2]] -> r <> [] /\ forall c, In c r -> clean "," c).
  { intros r [<-|[<-|[]]]; (split; [discriminate|]); intros c [<-|[]]; (repeat split; [discriminate|intros X; cbn in X; intuition discriminate..]). }
  destruct (csv_table _ stof ","%char [[t1]; [t2]] [[Num 1]; [Num 2]] []) as [X _]; [discriminate|discriminate|now left|exact C| |].
  { repeat constructor; apply P; try reflexivity; cbn; lia. }
  destruct X as (m & E & L & N). { intros r [<-|[<-|[]]]; cbn; lia. }
  cbn [length hd] in E, L, N. change (text_of "," [[t1]; [t2]] ++ []) with (t1 ++ [newline] ++ t2) in E. rewrite E. do 2 f_equal.
  pose proof (N 0%nat 0%nat _ eq_refl ltac:(lia)) as N0. pose proof (N 1%nat 0%nat _ eq_refl ltac:(lia)) as N1.
  destruct m as [|x [|y [|z m]]]; cbn in L, N0, N1; try lia. injection N0 as ->. injection N1 as ->. reflexivity.
Qed.
Print Assumptions C128_other_separator_refuted.

(** What is written for a double lies within the factor 5e-6 of it ... *)
Theorem C128_six_digits : forall f : float radix2, exists n y, strto (show_double f) = Some n /\ exact n = Some y /\ (Rabs (y - F2R f) <= 5 / 1000000 * Rabs (F2R f))%R.
Proof. intros f. destruct (written f) as (n & y & A & B & C). exists n, y. split; auto. split; auto. lra. Qed.
Print Assumptions C128_six_digits.

Theorem C128_small_integers : forall (f : float radix2) n, F2R f = IZR n -> Z.abs n < 1000000 -> exists k, strto (show_double f) = Some k /\ exact k = Some (IZR n).
Proof. exact written_int. Qed.
Print Assumptions C128_small_integers.

(** ... and different doubles can have the same text. *)
Theorem C128_written_injective_refuted : exists f g : float radix2, F2R f <> F2R g /\ show_double f = show_double g.
Proof.
  exists (Float radix2 1234567 0), (Float radix2 1234568 0). split; [|vm_compute; reflexivity]. unfold F2R. cbn [Fnum Fexp bpow]. lra.
Qed.
Print Assumptions C128_written_injective_refuted.

Lemma double_cell : forall f : float radix2, (powerRZ 2 (-125) <= Rabs (F2R f) <= powerRZ 2 127 \/ F2R f = 0)%R ->
  exists r, stof (show_double f) = Some (Num r) /\ (Rabs (r - F2R f) <= 51 / 10000000 * Rabs (F2R f))%R.
Proof.
  intros f H. rewrite !two_pow in H. destruct (written f) as (n & y & E & X & D). set (x := F2R f) in *. exists (single y).
  destruct H as [[Lo Hi]|Z].
  - assert (Y1 : (Rabs x * (1 - / 200000) <= Rabs y)%R). { pose proof (Rabs_triang (x - y) y) as Tr. replace (x - y + y)%R with x in Tr by ring. rewrite (Rabs_minus_sym x y) in Tr. lra. }
    assert (Y2 : (Rabs y <= Rabs x * (1 + / 200000))%R). { pose proof (Rabs_triang (y - x) x) as Tr. replace (y - x + x)%R with y in Tr by ring. lra. }
    assert (L1 : (bpow radix2 (-126) <= Rabs y)%R).
    { eapply Rle_trans; [|exact Y1]. change (-125) with (-126 + 1) in Lo. rewrite bpow_plus in Lo. change (bpow radix2 1) with 2%R in Lo. pose proof (bpow_gt_0 radix2 (-126)). lra. }
    assert (L2 : (Rabs y <= largest)%R).
    { eapply Rle_trans; [exact Y2|]. unfold largest. change 127 with (23 + 104) in Hi. rewrite bpow_plus in Hi. change (bpow radix2 23) with (IZR 8388608) in Hi. change (2 ^ 24 - 1) with 16777215. pose proof (bpow_gt_0 radix2 104). lra. }
    split; [eapply stof_of; eauto|]. pose proof (single_error y L1) as S. change (bpow radix2 (-24)) with (/ IZR 16777216)%R in S.
    replace (single y - x)%R with ((single y - y) + (y - x))%R by ring. eapply Rle_trans; [apply Rabs_triang|]. pose proof (Rabs_pos x). lra.
  - rewrite Z in D |- *. rewrite Rabs_R0 in D |- *. assert (y = 0)%R. { rewrite Rmult_0_r, Rminus_0_r in D. pose proof (Rabs_pos y). destruct (Req_dec y 0) as [|N]; auto. apply Rabs_no_R0 in N. lra. } subst y.
    split; [eapply stof_of; [exact E|exact X|left; reflexivity|rewrite Rabs_R0; unfold largest; apply Rmult_le_pos; [apply IZR_le; lia|apply bpow_ge_0]]|].
    assert (Z0 : single 0 = 0%R) by (apply round_0; auto with typeclass_instances). rewrite Z0, Rminus_0_r, Rabs_R0. lra.
Qed.

Lemma table_read : forall A B (show : A -> list ascii) (rows : list (list A)) (vals : list (list B)) (st : list ascii -> option B) nc, rows <> [] -> (0 < nc)%nat -> (forall r, In r rows -> length r = nc) ->
  (forall x, clean ","%char (show x)) -> Forall2 (Forall2 (fun x v => st (show x) = Some v)) rows vals ->
  exists m, read_matrix st (Some (write_matrix show (mkMat nc rows) ","%char)) ","%char = Ok (length rows, nc, m) /\ length m = (length rows * nc)%nat /\
    forall i j vs, nth_error vals i = Some vs -> (j < nc)%nat -> nth_error m (j * length rows + i) = Some (nth_error vs j).
Proof.
  intros A B show rows vals st nc Nr Hc Hl Hcl F.
  assert (Hh : length (hd [] (map (map show) rows)) = nc) by (destruct rows as [|r rows]; [congruence|]; cbn [map hd]; rewrite map_length; apply Hl; now left).
  destruct (csv_table _ st ","%char (map (map show) rows) vals []) as [X _].
  - discriminate.
  - destruct rows; [congruence|discriminate].
  - now left.
  - intros r Hr. apply in_map_iff in Hr. destruct Hr as (r0 & <- & Hr). split.
    + intros E. apply (f_equal (@length _)) in E. rewrite map_length, (Hl r0 Hr) in E. cbn in E. lia.
    + intros c Hc'. apply in_map_iff in Hc'. destruct Hc' as (x & <- & _). apply Hcl.
  - clear -F. induction F as [|r v rows vals Fr F IH]; cbn [map]; constructor; auto. induction Fr; cbn [map]; constructor; auto.
  - rewrite Hh, map_length, app_nil_r in X. assert (Y : forall r, In r (map (map show) rows) -> (length r <= nc)%nat).
    { intros r Hr. apply in_map_iff in Hr. destruct Hr as (r0 & <- & Hr). rewrite map_length, (Hl r0 Hr). lia. }
    destruct (X Y) as (m & E & L & N). exists m. split; [|split; [exact L|exact N]].
    unfold write_matrix. cbn [m_rows]. unfold text_of in E. rewrite map_map in E. exact E.
Qed.

(** A matrix of doubles comes back with relative errors below 5.1e-6 ... *)
Theorem C128_double_files : forall (rows : list (list (float radix2))) nc, rows <> [] -> (0 < nc)%nat -> (forall r, In r rows -> length r = nc) ->
  Forall (Forall (fun f => powerRZ 2 (-125) <= Rabs (F2R f) <= powerRZ 2 127 \/ F2R f = 0)%R) rows ->
  exists m, read_matrix stof (Some (write_matrix show_double (mkMat nc rows) ","%char)) ","%char = Ok (length rows, nc, m) /\
    forall i j r f, nth_error rows i = Some r -> nth_error r j = Some f ->
      exists x, nth_error m (j * length rows + i) = Some (Some (Num x)) /\ (Rabs (x - F2R f) <= 51 / 10000000 * Rabs (F2R f))%R.
Proof.
  intros rows nc Nr Hc Hl F.
  assert (G : exists vals, Forall2 (Forall2 (fun f v => stof (show_double f) = Some v /\ exists x, v = Num x /\ (Rabs (x - F2R f) <= 51 / 10000000 * Rabs (F2R f))%R)) rows vals).
  { clear -F. induction F as [|r rows Fr F (vals & IH)]; [exists []; constructor|].
    assert (exists v, Forall2 (fun f v => stof (show_double f) = Some v /\ exists x, v = Num x /\ (Rabs (x - F2R f) <= 51 / 10000000 * Rabs (F2R f))%R) r v) as (v & Hv).
    { induction Fr as [|f r Hf Fr (v & Hv)]; [exists []; constructor|]. destruct (double_cell f Hf) as (x & E & D). exists (Num x :: v). constructor; eauto. }
    exists (v :: vals). constructor; auto. }
  destruct G as (vals & G). destruct (table_read _ _ show_double rows vals stof nc Nr Hc Hl show_double_clean) as (m & E & L & N).
  { clear -G. induction G as [|r v rows vals H G IH]; constructor; auto. clear -H. induction H as [|f v r vs [A _] H IH]; constructor; auto. }
  exists m. split; [exact E|]. intros i j r f Hr Hf.
  assert (Lr : length r = nc) by (apply Hl; eapply nth_error_In; eauto).
  assert (Hv : exists vs, nth_error vals i = Some vs /\ Forall2 (fun f v => stof (show_double f) = Some v /\ exists x, v = Num x /\ (Rabs (x - F2R f) <= 51 / 10000000 * Rabs (F2R f))%R) r vs).
  { clear -G Hr. revert i Hr. induction G as [|r0 v rows vals H G IH]; intros [|i] Hr; try discriminate Hr; cbn [nth_error] in *; [injection Hr as <-; eauto|eauto]. }
  destruct Hv as (vs & Hvs & F2). assert (Hj : (j < nc)%nat) by (rewrite <- Lr; apply nth_error_Some; congruence). rewrite (N i j vs Hvs Hj).
  clear -F2 Hf. revert j Hf. induction F2 as [|f0 v r vs (_ & x & -> & D) F2 IH]; intros [|j] Hf; try discriminate Hf; cbn [nth_error] in *; [injection Hf as <-; eauto|eauto].
Qed.
Print Assumptions C128_double_files.

Lemma list_ext : forall A (l l' : list A), (forall i, nth_error l i = nth_error l' i) -> l = l'.
Proof.
  induction l as [|x l IH]; intros [|y l'] H; [reflexivity|discriminate (H O)|discriminate (H O)|]. pose proof (H O) as H0. cbn in H0. injection H0 as ->. f_equal. apply IH. intros i. exact (H (S i)).
Qed.

(** ... and a matrix of integers up to 2^24 unchanged. *)
Theorem C128_integer_files : forall (rows : list (list nat)) nc other, rows <> [] -> (0 < nc)%nat -> (forall r, In r rows -> length r = nc) ->
  Forall (Forall (fun n => Z.of_nat n <= 2 ^ 24)) rows -> read_reals other (show_ints rows) = Ok (mkMat nc (map (map INR) rows)).
Proof.
  intros rows nc other Nr Hc Hl F. unfold read_reals, show_ints. rewrite list_ascii_of_string_of_list_ascii.
  assert (Hh : length (hd [] rows) = nc) by (destruct rows; [congruence|apply Hl; now left]). rewrite Hh.
  destruct (table_read _ _ show_int (map (map Z.of_nat) rows) (map (map (fun n => Num (INR n))) rows) stof nc) as (m & E & L & N).
  - destruct rows; [congruence|discriminate].
  - exact Hc.
  - intros r Hr. apply in_map_iff in Hr. destruct Hr as (r0 & <- & Hr). rewrite map_length. auto.
  - exact show_int_clean.
  - clear -F. induction F as [|r rows Fr F IH]; cbn [map]; constructor; auto. induction Fr as [|n r Hn Fr IHr]; cbn [map]; constructor; auto. rewrite INR_IZR_INZ. apply stof_int. lia.
  - rewrite map_length in E, N. rewrite E. cbn [rbind]. do 2 f_equal.
    apply list_ext. intros i. destruct (lt_dec i (length rows)) as [Hi|Hi].
    + rewrite (map_nth_error _ i (seq 0 (length rows)) (d := i)) by (rewrite (nth_error_nth' _ 0%nat) by (rewrite seq_length; auto); rewrite seq_nth by auto; reflexivity).
      destruct (nth_error rows i) as [r|] eqn:Er; [|apply nth_error_None in Er; lia]. rewrite (map_nth_error _ i rows Er). f_equal.
      assert (Lr : length r = nc) by (apply Hl; eapply nth_error_In; eauto).
      apply list_ext. intros j. destruct (lt_dec j nc) as [Hj|Hj].
      * rewrite (map_nth_error _ j (seq 0 nc) (d := j)) by (rewrite (nth_error_nth' _ 0%nat) by (rewrite seq_length; auto); rewrite seq_nth by auto; reflexivity).
        destruct (nth_error r j) as [n|] eqn:Ej; [|apply nth_error_None in Ej; lia]. rewrite (map_nth_error _ j r Ej).
        pose proof (N i j (map (fun n => Num (INR n)) r) ltac:(now apply map_nth_error) Hj) as X. rewrite (map_nth_error _ j r Ej) in X. now rewrite (nth_error_nth _ _ _ X).
      * rewrite !(proj2 (nth_error_None _ _)); auto; rewrite map_length, ?seq_length; lia.
    + rewrite !(proj2 (nth_error_None _ _)); auto; rewrite map_length, ?seq_length; lia.
Qed.
Print Assumptions C128_integer_files.

(** ** Examples *)
Example C128_text_examples : map (fun f => string_of_list_ascii (show_double f))
    [Float radix2 1 0; Float radix2 (-3) (-1); Float radix2 1234567 0; Float radix2 1 (-10); Float radix2 1 (-20); Float radix2 3602879701896397 (-55)] =
  ["1"; "-1.5"; "1.23457e+06"; "0.000976562"; "9.53674e-07"; "0.1"]%string.
Proof. vm_compute. reflexivity. Qed.

Example C128_cells : map (fun s => strto (list_ascii_of_string s)) [" -2.5e3x"; "nan"; "-inf"; "0x1.8p1"; "."; ""; "x"; "1e"]%string =
  [Some (Decimal true 25 2); Some NotANumber; Some (Infinite true); Some (Binary false 24 (-3)); None; None; None; Some (Decimal false 1 0)].
Proof. vm_compute. reflexivity. Qed.

Example C128_reads_instance : exists r, stof (list_ascii_of_string "0.1 kg") = Some (Num r) /\ (Rabs (r - / 10) <= powerRZ 2 (-24) * / 10)%R.
Proof.
  assert (V : decimal_value false [0] [1] None = (/ 10)%R).
  { unfold decimal_value. change (worth ([0] ++ [1])) with 1. change (exp_value None - Z.of_nat (length [1])) with (-1). cbn [powerRZ Pos.to_nat Pos.iter_op]. change (Pos.to_nat 1) with 1%nat. rewrite pow_1. ring. }
  destruct (C128_reads_nearest false [0] [1] None (list_ascii_of_string " kg")) as (r & E & _ & _ & D); try rewrite V.
  - discriminate.
  - repeat constructor; lia.
  - repeat constructor; lia.
  - split; [vm_compute; intuition discriminate|]. intros C. cbn in C. intuition discriminate.
  - right. rewrite Rabs_pos_eq by lra. rewrite two_pow. apply Rle_trans with (bpow radix2 (-4)); [apply bpow_le; lia|]. change (bpow radix2 (-4)) with (/ IZR 16)%R. lra.
  - rewrite Rabs_pos_eq by lra. rewrite two_pow. change (2 ^ 24 - 1) with 16777215. apply Rle_trans with (IZR 16777215 * bpow radix2 0)%R; [change (bpow radix2 0) with 1%R; lra|]. apply Rmult_le_compat_l; [lra|apply bpow_le; lia].
  - exists r. split; [exact E|]. rewrite V, (Rabs_pos_eq (/ 10)) in D by lra. exact D.
Qed.

Example C128_too_large_instance : stof (list_ascii_of_string "1e+39") = None.
Proof.
  apply (C128_too_large false [1] [] (Some (false, [3; 9])) []); [discriminate|repeat constructor; lia|constructor|split; [repeat constructor; lia|exact I]|].
  unfold decimal_value. cbn [exp_value length app]. change (worth [1]) with 1. change (worth [3; 9] - Z.of_nat 0) with 39. rewrite two_pow, T_powerRZ, Rabs_pos_eq by (pose proof (T_pos 39); lra).
  change (T 39) with (IZR (Zpower_pos 10 39)). change (bpow radix2 128) with (IZR (Zpower_pos 2 128)). rewrite Rmult_1_l, Rmult_1_l. apply IZR_le. vm_compute. discriminate.
Qed.

Example C128_too_small_instance : stof (list_ascii_of_string "1e-46") = None.
Proof.
  assert (V : decimal_value false [1] [] (Some (true, [4; 6])) = T (-46)).
  { unfold decimal_value. cbn [exp_value length app]. change (worth [1]) with 1. change (- worth [4; 6] - Z.of_nat 0) with (-46). rewrite T_powerRZ. ring. }
  assert (L : (T (-46) < bpow radix2 (-149))%R).
  { change (T (-46)) with (/ IZR (Zpower_pos 10 46))%R. change (bpow radix2 (-149)) with (/ IZR (Zpower_pos 2 149))%R. apply Rinv_lt_contravar; [apply Rmult_lt_0_compat; apply (IZR_lt 0); reflexivity|apply IZR_lt; vm_compute; reflexivity]. }
  apply (C128_too_small false [1] [] (Some (true, [4; 6])) []); [discriminate|repeat constructor; lia|constructor|split; [repeat constructor; lia|exact I]| |]; rewrite V.
  - rewrite Rabs_pos_eq by apply Rlt_le, T_pos. rewrite two_pow. apply Rlt_le. eapply Rlt_le_trans; [exact L|apply bpow_le; lia].
  - intros (m & e & E & _ & He). rewrite two_pow in E. pose proof (T_pos (-46)) as P. rewrite E in P.
    assert (0 < m). { apply lt_IZR. destruct (Rle_lt_dec (IZR m) 0) as [X|X]; [|exact X]. exfalso. assert (IZR m * bpow radix2 e <= 0)%R by (pose proof (bpow_gt_0 radix2 e); nra). lra. }
    assert (bpow radix2 (-149) <= IZR m * bpow radix2 e)%R.
    { apply Rle_trans with (1 * bpow radix2 e)%R; [rewrite Rmult_1_l; apply bpow_le; lia|]. apply Rmult_le_compat_r; [apply bpow_ge_0|]. apply (IZR_le 1). lia. }
    lra.
Qed.

Example C128_integers_instance : stof (list_ascii_of_string "-16777216") = Some (Num (IZR (-16777216))).
Proof. apply (C128_integers (-16777216)). cbn. lia. Qed.

Example C128_small_integers_instance : exists k, strto (list_ascii_of_string "999999") = Some k /\ exact k = Some 999999%R.
Proof. apply (C128_small_integers (Float radix2 999999 0) 999999); [unfold F2R; cbn; ring|cbn; lia]. Qed.

Example C128_double_files_instance : exists m x, read_matrix stof (Some (list_ascii_of_string "0.5,-3")) ","%char = Ok (1%nat, 2%nat, m) /\ nth_error m 1 = Some (Some (Num x)) /\ (Rabs (x + 3) <= 51 / 10000000 * 3)%R.
Proof.
  assert (A : F2R (Float radix2 1 (-1)) = (/ 2)%R) by (unfold F2R; cbn; lra). assert (B : F2R (Float radix2 (-3) 0) = (-3)%R) by (unfold F2R; cbn; lra).
  destruct (C128_double_files [[Float radix2 1 (-1); Float radix2 (-3) 0]] 2) as (m & E & N).
  - discriminate.
  - lia.
  - intros r [<-|[]]. reflexivity.
  - constructor; [|constructor]. constructor; [|constructor; [|constructor]]; left; rewrite ?A, ?B, !two_pow.
    + rewrite Rabs_pos_eq by lra. change (/ 2)%R with (bpow radix2 (-1)). split; apply bpow_le; lia.
    + rewrite Rabs_left by lra. split; [apply Rle_trans with (bpow radix2 0); [apply bpow_le; lia|change (bpow radix2 0) with 1%R; lra]|apply Rle_trans with (bpow radix2 2); [change (bpow radix2 2) with 4%R; lra|apply bpow_le; lia]].
  - exists m. destruct (N 0%nat 1%nat _ _ eq_refl eq_refl) as (x & X & D). exists x. split; [exact E|]. split; [exact X|]. rewrite B in D. rewrite (Rabs_left (-3)) in D by lra. replace (x + 3)%R with (x - -3)%R by lra. lra.
Qed.

Example C128_integer_files_instance : read_reals 7 "1,20
3,4" = Ok (mkMat 2 [[INR 1; INR 20]; [INR 3; INR 4]]).
Proof. apply (C128_integer_files [[1; 20]; [3; 4]]%nat 2 7); [discriminate|lia|intros r [<-|[<-|[]]]; reflexivity|repeat constructor; cbn; lia]. Qed.
