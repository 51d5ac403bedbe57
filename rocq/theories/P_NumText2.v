(** * Property theorems: cells without a number, infinities, hexadecimal cells, ties. *)
From Coq Require Import Ascii String.
From Coq Require Import List Arith ZArith Reals Bool Lia Lra Psatz.
From Flocq Require Import Core.
From Verif Require Import Base Utils UtilsMore NumText NumTextFacts NumTextFacts2 P_NumText.
Import ListNotations.
Local Open Scope Z_scope.

(** ** C128 *)

Definition blank (c : ascii) : Prop := code c = 32 \/ 9 <= code c <= 13.
Definition is_sign (sg : list ascii) : Prop := In sg [[]; ["+"%char]; ["-"%char]].
Definition digit_next (l : list ascii) : Prop := match l with c :: _ => 48 <= code c <= 57 | [] => False end.
(** What can stand in the place of a number that is none. *)
Definition no_number (sg rest : list ascii) : Prop :=
  match rest with
  | [] => True
  | c :: r => ~ 48 <= code c <= 57 /\ ~ In c ["n"%char; "N"%char; "i"%char; "I"%char] /\
              (c = "."%char -> ~ digit_next r) /\ (sg = [] -> ~ blank c /\ c <> "+"%char /\ c <> "-"%char)
  end.

Lemma is_space_blank : forall c, is_space c = true <-> blank c.
Proof.
  intros c. unfold is_space, blank. rewrite orb_true_iff, andb_true_iff, Z.eqb_eq, !Z.leb_le. tauto.
Qed.
Lemma is_space_not : forall c, ~ blank c -> is_space c = false.
Proof. intros c H. destruct (is_space c) eqn:E; [|reflexivity]. apply is_space_blank in E. tauto. Qed.

Lemma skip_blank : forall sp l, Forall blank sp -> match l with c :: _ => ~ blank c | [] => True end -> snd (span is_space (sp ++ l)) = l.
Proof.
  intros sp l Hs Hl. rewrite span_all; [reflexivity| |].
  - eapply Forall_impl; [|exact Hs]. intros c. apply is_space_blank.
  - destruct l; [exact I|now apply is_space_not].
Qed.

Lemma lower_not : forall c k, (32 <= k)%nat -> ~ In c [ascii_of_nat k; ascii_of_nat (k - 32)] -> (lower c =? Z.of_nat k) = false.
Proof.
  intros c k Hk H. apply Z.eqb_neq. intros E. apply H. destruct (lower_is c k E) as [->|[_ ->]]; [left|right; left]; reflexivity.
Qed.

(** A cell that is empty or does not start with a number is refused. *)
Theorem C128_no_number : forall sp sg rest, Forall blank sp -> is_sign sg -> no_number sg rest -> stof (sp ++ sg ++ rest) = None.
Proof.
  intros sp sg rest Hs Hg Hn.
  assert (Sp : snd (span is_space (sp ++ sg ++ rest)) = sg ++ rest).
  { apply skip_blank; [exact Hs|]. destruct Hg as [<-|[<-|[<-|[]]]]; cbn [app].
    - destruct rest as [|c r]; [exact I|]. destruct Hn as (_ & _ & _ & H). now apply H.
    - unfold blank. change (code "+") with 43. lia.
    - unfold blank. change (code "-") with 45. lia. }
  assert (Sg : exists neg, sign (sg ++ rest) = (neg, rest)).
  { destruct Hg as [<-|[<-|[<-|[]]]]; cbn [app sign]; [|eexists; reflexivity|eexists; reflexivity].
    destruct rest as [|c r]; [eexists; reflexivity|]. destruct Hn as (_ & _ & _ & H). destruct (H eq_refl) as (_ & A & B).
    assert (E1 : (code c =? 45) = false) by (apply Z.eqb_neq; intros E; apply B; exact (code_is c 45 E)).
    assert (E2 : (code c =? 43) = false) by (apply Z.eqb_neq; intros E; apply A; exact (code_is c 43 E)).
    exists false. unfold sign. rewrite E1, E2. reflexivity. }
  destruct Sg as [neg Sg].
  assert (St : strto (sp ++ sg ++ rest) = None); [|unfold stof; now rewrite St].
  unfold strto. rewrite Sp, Sg. destruct rest as [|c r]; [reflexivity|]. destruct Hn as (Hd & Hl & Hp & _).
  cbn [starts].
  assert (E1 : (lower c =? 110) = false) by (apply (lower_not c 110); [lia|]; intros X; apply Hl; cbn in X |- *; intuition congruence).
  assert (E2 : (lower c =? 105) = false) by (apply (lower_not c 105); [lia|]; intros X; apply Hl; cbn in X |- *; intuition congruence).
  assert (E3 : (lower c =? 48) = false).
  { apply Z.eqb_neq. intros E. unfold lower in E. destruct ((65 <=? code c) && (code c <=? 90)) eqn:B; [|lia]. apply andb_prop in B. rewrite !Z.leb_le in B. lia. }
  rewrite E1, E2, E3. cbn [andb].
  assert (Dg : is_digit c = false) by now apply is_digit_false.
  unfold mantissa. cbn [span]. rewrite Dg. destruct (code c =? 46) eqn:P; [|reflexivity].
  apply Z.eqb_eq in P. pose proof (code_is c 46 P) as Ec. specialize (Hp Ec).
  destruct r as [|d r]; cbn [span]; [reflexivity|]. rewrite is_digit_false by exact Hp. reflexivity.
Qed.
Print Assumptions C128_no_number.

(** Infinities and NaN, in capitals or not. *)
Theorem C128_special : forall sp sg c1 c2 c3 rest, Forall blank sp -> is_sign sg ->
  (In c1 ["i"; "I"]%char -> In c2 ["n"; "N"]%char -> In c3 ["f"; "F"]%char ->
     stof (sp ++ sg ++ c1 :: c2 :: c3 :: rest) = Some (Inf (if in_dec ascii_dec "-"%char sg then true else false))) /\
  (In c1 ["n"; "N"]%char -> In c2 ["a"; "A"]%char -> In c3 ["n"; "N"]%char ->
     stof (sp ++ sg ++ c1 :: c2 :: c3 :: rest) = Some NaN).
Proof.
  intros sp sg c1 c2 c3 rest Hs Hg.
  assert (Nb : forall c, In c ["i"; "I"; "n"; "N"; "+"; "-"]%char -> ~ blank c).
  { intros c H. unfold blank. cbn in H. repeat (destruct H as [<-|H]; [vm_compute; intuition discriminate|]). destruct H. }
  assert (Sp : In c1 ["i"; "I"; "n"; "N"]%char -> snd (span is_space (sp ++ sg ++ c1 :: c2 :: c3 :: rest)) = sg ++ c1 :: c2 :: c3 :: rest).
  { intros H1. apply skip_blank; [exact Hs|]. destruct Hg as [<-|[<-|[<-|[]]]]; cbn [app]; apply Nb; cbn in *; tauto. }
  assert (Sg : In c1 ["i"; "I"; "n"; "N"]%char -> sign (sg ++ c1 :: c2 :: c3 :: rest) = (if in_dec ascii_dec "-"%char sg then true else false, c1 :: c2 :: c3 :: rest)).
  { intros H1. destruct Hg as [<-|[<-|[<-|[]]]]; cbn [app]; [|reflexivity|reflexivity].
    cbn in H1. repeat (destruct H1 as [<-|H1]; [reflexivity|]). destruct H1. }
  split; intros H1 H2 H3; unfold stof, strto; (rewrite Sp, Sg by (cbn in *; tauto)).
  - cbn in H1, H2, H3. destruct H1 as [<-|[<-|[]]], H2 as [<-|[<-|[]]], H3 as [<-|[<-|[]]]; reflexivity.
  - cbn in H1, H2, H3. destruct H1 as [<-|[<-|[]]], H2 as [<-|[<-|[]]], H3 as [<-|[<-|[]]]; reflexivity.
Qed.
Print Assumptions C128_special.

(** ** Hexadecimal numbers *)
Definition hex_char (d : Z) : ascii := ascii_of_nat (Z.to_nat (if d <? 10 then 48 + d else 87 + d)).
Definition hex_ok (l : list Z) : Prop := Forall (fun d => 0 <= d <= 15) l.
Definition hex_worth (l : list Z) : Z := fold_left (fun a d => 16 * a + d) l 0.
Definition hexadecimal (neg : bool) (a b : list Z) (eneg : bool) (e : list Z) : list ascii :=
  (if neg then ["-"%char] else []) ++ ["0"; "x"]%char ++ map hex_char a ++
  (match b with [] => [] | _ => "."%char :: map hex_char b end) ++ "p"%char :: (if eneg then "-"%char else "+"%char) :: chars e.
Definition hex_value (neg : bool) (a b : list Z) (eneg : bool) (e : list Z) : R :=
  ((if neg then -1 else 1) * IZR (hex_worth (a ++ b)) * powerRZ 2 ((if eneg then - worth e else worth e) - 4 * Z.of_nat (length b)))%R.

Lemma hex_cases : forall d, 0 <= d <= 15 -> is_hex (hex_char d) = true /\ hex_of (hex_char d) = d.
Proof.
  intros d H. assert (E : d = 0 \/ d = 1 \/ d = 2 \/ d = 3 \/ d = 4 \/ d = 5 \/ d = 6 \/ d = 7 \/ d = 8 \/ d = 9 \/ d = 10 \/ d = 11 \/ d = 12 \/ d = 13 \/ d = 14 \/ d = 15) by lia.
  repeat (destruct E as [->|E]; [split; reflexivity|]). subst. split; reflexivity.
Qed.
Lemma hex_all : forall l, hex_ok l -> Forall (fun c => is_hex c = true) (map hex_char l).
Proof. intros l H. apply Forall_map. eapply Forall_impl; [|exact H]. intros d Hd. apply hex_cases; exact Hd. Qed.
Lemma hex_val : forall l, hex_ok l -> val_in 16 (map hex_char l) = hex_worth l.
Proof.
  intros l H. unfold val_in, hex_worth. generalize 0. induction H as [|d l Hd H IH]; intros k; cbn [map fold_left]; [reflexivity|].
  destruct (hex_cases d Hd) as [_ ->]. apply IH.
Qed.

Lemma hex_strto : forall neg a b eneg e rest, a <> [] -> hex_ok a -> hex_ok b -> digits_ok e -> ~ digit_next rest ->
  exists n, strto (hexadecimal neg a b eneg e ++ rest) = Some n /\ exact n = Some (hex_value neg a b eneg e).
Proof.
  intros neg a b eneg e rest Na Ha Hb He Hr.
  set (tail := "p"%char :: (if eneg then "-"%char else "+"%char) :: chars e ++ rest).
  set (body := map hex_char a ++ fraction (map hex_char b) ++ tail).
  assert (Fr : match b with [] => [] | _ => "."%char :: map hex_char b end = fraction (map hex_char b)) by (destruct b; reflexivity).
  assert (Tx : hexadecimal neg a b eneg e ++ rest = minus neg ++ "0"%char :: "x"%char :: body).
  { unfold hexadecimal, body, tail, minus. rewrite Fr. destruct neg; cbn [app]; rewrite <- ?app_assoc; cbn [app]; rewrite <- ?app_assoc; reflexivity. }
  rewrite Tx.
  assert (Mt : mantissa is_hex body = (map hex_char a ++ map hex_char b, length (map hex_char b), tail)).
  { unfold mantissa, body. destruct b as [|d b]; cbn [map fraction app].
    - rewrite span_all; [|apply hex_all; exact Ha|reflexivity]. rewrite app_nil_r. reflexivity.
    - rewrite span_all; [|apply hex_all; exact Ha|reflexivity]. change (code "." =? 46) with true. cbv iota.
      change (hex_char d :: map hex_char b ++ tail) with (map hex_char (d :: b) ++ tail). rewrite span_all; [reflexivity|apply hex_all; exact Hb|reflexivity]. }
  assert (Ex : exponent 112 tail = if eneg then - worth e else worth e).
  { unfold exponent, tail. change (lower "p" =? 112) with true. cbv iota.
    assert (Sg : sign ((if eneg then "-"%char else "+"%char) :: chars e ++ rest) = (eneg, chars e ++ rest)) by (destruct eneg; reflexivity). rewrite Sg.
    rewrite span_digits; [|apply chars_isd; exact He|destruct rest as [|c rest]; [exact I|apply is_digit_false; exact Hr]]. cbn [fst]. rewrite chars_val by exact He. destruct eneg; reflexivity. }
  assert (S0 : forall l, snd (span is_space (minus neg ++ "0"%char :: l)) = minus neg ++ "0"%char :: l) by (intros l; destruct neg; reflexivity).
  assert (S1 : forall l, sign (minus neg ++ "0"%char :: l) = (neg, "0"%char :: l)) by (intros l; destruct neg; reflexivity).
  eexists. split.
  - unfold strto. rewrite S0, S1. change (starts [110; 97; 110] ("0"%char :: "x"%char :: body)) with false. change (starts [105; 110; 102] ("0"%char :: "x"%char :: body)) with false.
    change (starts [48; 120] ("0"%char :: "x"%char :: body)) with true. cbv iota. change (skipn 2 ("0"%char :: "x"%char :: body)) with body. rewrite Mt.
    destruct (map hex_char a ++ map hex_char b) as [|c m] eqn:E; [destruct a; [congruence|discriminate]|]. rewrite <- E. reflexivity.
  - cbn [exact]. rewrite Ex, <- map_app, hex_val by (apply Forall_app; split; assumption). rewrite map_length. unfold hex_value, signed. f_equal. destruct neg; ring.
Qed.

(** A hexadecimal number in the normal range is read as the nearest number of single
    precision. *)
Theorem C128_hexadecimal : forall neg a b eneg e rest, a <> [] -> hex_ok a -> hex_ok b -> digits_ok e -> ~ digit_next rest ->
  let v := hex_value neg a b eneg e in
  (v = 0 \/ powerRZ 2 (-126) <= Rabs v)%R -> (Rabs v <= IZR (2 ^ 24 - 1) * powerRZ 2 104)%R ->
  exists r, stof (hexadecimal neg a b eneg e ++ rest) = Some (Num r) /\ is_single r /\
    (forall f, is_single f -> Rabs (r - v) <= Rabs (f - v))%R.
Proof.
  intros neg a b eneg e rest Na Ha Hb He Hr v Lo Hi. rewrite two_pow in *. destruct (hex_strto neg a b eneg e rest Na Ha Hb He Hr) as (n & E & X).
  exists (single v). split; [eapply stof_of; eauto|]. split; [apply single_is|].
  intros f Hf. apply single_nearest. now apply is_single_format.
Qed.
Print Assumptions C128_hexadecimal.

(** ** Ties *)
Lemma round_div_even : forall p q, 0 < q -> Z.abs (2 * (q * round_div p q - p)) = q -> Z.even (round_div p q) = true.
Proof.
  intros p q Hq. unfold round_div. pose proof (Z.div_mod p q ltac:(lia)) as D. pose proof (Z.mod_pos_bound p q Hq) as M.
  destruct (2 * (p mod q) ?= q) eqn:C.
  - intros _. destruct (Z.even (p / q)) eqn:E; [exact E|]. rewrite Z.even_add, E. reflexivity.
  - rewrite Z.compare_lt_iff in C. intros H. exfalso. replace (q * (p / q) - p) with (- (p mod q)) in H by lia. lia.
  - rewrite Z.compare_gt_iff in C. intros H. exfalso. replace (q * (p / q + 1) - p) with (q - (p mod q)) in H by nia. lia.
Qed.

Lemma six_half : forall p q, 0 < p -> 0 < q -> let '(m, e) := six p q in
  100000 <= m < 1000000 /\ (2 * Rabs (IZR m * T (e - 5) - IZR p / IZR q) <= T (e - 5))%R /\
  ((2 * Rabs (IZR m * T (e - 5) - IZR p / IZR q) = T (e - 5))%R -> Z.even m = true).
Proof.
  intros p q Hp Hq. pose proof (six_spec p q Hp Hq) as S6. unfold six in *. set (e := lead p q) in *. set (P := p * up10 (5 - e)) in *. set (Q := q * up10 (e - 5)) in *.
  set (x := (IZR p / IZR q)%R) in *.
  assert (HQ : 0 < Q) by (apply Z.mul_pos_pos; [exact Hq|apply up10_pos]). assert (HQr : (0 < IZR Q)%R) by (apply (IZR_lt 0); auto).
  pose proof (scaled p q Hq) as S. fold e P Q x in S.
  set (m := round_div P Q) in *.
  assert (I : (T (5 - e) * T (e - 5) = 1)%R) by (rewrite <- bpow_plus; replace (5 - e + (e - 5)) with 0 by lia; reflexivity).
  pose proof (T_pos (e - 5)) as Tp.
  assert (V : (2 * Rabs (IZR m * T (e - 5) - x) = IZR (Z.abs (2 * (Q * m - P))) / IZR Q * T (e - 5))%R).
  { replace (IZR m * T (e - 5) - x)%R with ((IZR m - IZR P / IZR Q) * T (e - 5))%R by (rewrite S, Rmult_minus_distr_r, Rmult_assoc, I; ring).
    rewrite Rabs_mult, (Rabs_pos_eq (T (e - 5))) by lra. rewrite abs_IZR, mult_IZR, minus_IZR, mult_IZR.
    replace (2 * (IZR Q * IZR m - IZR P))%R with (2 * IZR Q * (IZR m - IZR P / IZR Q))%R by (field; lra). rewrite Rabs_mult, (Rabs_pos_eq (2 * IZR Q)) by lra. field. lra. }
  assert (V1 : (2 * Rabs (IZR m * T (e - 5) - x) <= T (e - 5))%R).
  { rewrite V. rewrite <- (Rmult_1_l (T (e - 5))) at 2. apply Rmult_le_compat_r; [lra|]. apply Rmult_le_reg_r with (IZR Q); [lra|].
    unfold Rdiv. rewrite Rmult_assoc, Rinv_l by lra. rewrite Rmult_1_r, Rmult_1_l. apply IZR_le. apply (round_div_spec P Q HQ). }
  destruct (m =? 1000000) eqn:C; destruct S6 as [S6 _]; (split; [exact S6|]).
  - apply Z.eqb_eq in C. assert (T10 : T (e + 1 - 5) = (T (e - 5) * 10)%R) by (replace (e + 1 - 5) with (e - 5 + 1) by lia; rewrite bpow_plus; reflexivity).
    replace (IZR 100000 * T (e + 1 - 5))%R with (IZR m * T (e - 5))%R by (rewrite C, T10; lra). rewrite T10. split; [lra|]. intros H. lra.
  - split; [exact V1|]. intros H. apply (round_div_even P Q HQ). apply eq_IZR. rewrite V in H.
    apply Rmult_eq_reg_r with (/ IZR Q * T (e - 5))%R; [|apply Rgt_not_eq; apply Rmult_lt_0_compat; [now apply Rinv_0_lt_compat|lra]].
    rewrite <- !Rmult_assoc. unfold Rdiv in H. fold m. rewrite H, Rinv_r by lra. ring.
Qed.

(** What is written for a double is the nearest number of six significant digits, the
    even one when two are equally near. *)
Theorem C128_six_digits_nearest : forall f : float radix2, F2R f <> 0%R ->
  exists n m e, strto (show_double f) = Some n /\ 100000 <= m < 1000000 /\
    exact n = Some ((if Rlt_dec (F2R f) 0 then -1 else 1) * (IZR m * powerRZ 10 e))%R /\
    (2 * Rabs (IZR m * powerRZ 10 e - Rabs (F2R f)) <= powerRZ 10 e)%R /\
    ((2 * Rabs (IZR m * powerRZ 10 e - Rabs (F2R f)) = powerRZ 10 e)%R -> Z.even m = true).
Proof.
  intros f Hf. assert (N : Fnum f <> 0) by (intros E; apply Hf; unfold F2R; rewrite E; ring).
  pose proof (num_pos f N) as Hp. pose proof (den_pos f) as Hq. destruct (show_pos_reads (Fnum f <? 0) (num f) (den f) Hp Hq) as (M & E & X & Y).
  pose proof (six_half (num f) (den f) Hp Hq) as S. destruct (six (num f) (den f)) as [m e]. rewrite <- F2R_ratio in S.
  exists (Decimal (Fnum f <? 0) M E), m, (e - 5). rewrite show_double_form by auto. split; [exact X|]. destruct S as (S1 & S2 & S3). split; [exact S1|].
  rewrite !T_powerRZ. split; [|split; assumption].
  cbn [exact]. rewrite T_powerRZ, Y. f_equal. unfold signed. destruct (Fnum f <? 0) eqn:B.
  - apply Z.ltb_lt in B. assert (F2R f < 0)%R by (apply (F2R_lt_0 radix2 f); exact B). destruct (Rlt_dec _ _); [ring|contradiction].
  - apply Z.ltb_ge in B. assert (0 <= F2R f)%R by (apply (F2R_ge_0 radix2 f); exact B). destruct (Rlt_dec _ _); [lra|ring].
Qed.
Print Assumptions C128_six_digits_nearest.

(** ** Examples *)
Example ex_C128_no_number : stof (list_ascii_of_string " -abc") = None /\ stof [] = None /\
  stof (list_ascii_of_string "+.e5") = None /\ stof (list_ascii_of_string "- 1") = None.
Proof.
  assert (S : Forall blank [" "%char]) by (constructor; [left; reflexivity|constructor]).
  split; [|split; [|split]].
  - apply (C128_no_number [" "%char] ["-"%char] (list_ascii_of_string "abc")); [exact S|right; right; left; reflexivity|].
    vm_compute. intuition congruence.
  - apply (C128_no_number [] [] []); [constructor|left; reflexivity|exact I].
  - apply (C128_no_number [] ["+"%char] (list_ascii_of_string ".e5")); [constructor|right; left; reflexivity|]. vm_compute. intuition congruence.
  - apply (C128_no_number [] ["-"%char] (list_ascii_of_string " 1")); [constructor|right; right; left; reflexivity|]. vm_compute. intuition congruence.
Qed.
Example ex_C128_special : stof (list_ascii_of_string "-Infinity") = Some (Inf true) /\ stof (list_ascii_of_string "NaN") = Some NaN.
Proof.
  split.
  - apply (C128_special [] ["-"%char] "I" "n" "f" (list_ascii_of_string "inity")); [constructor|right; right; left; reflexivity|right; left; reflexivity|left; reflexivity|left; reflexivity].
  - apply (C128_special [] [] "N" "a" "N" []); [constructor|left; reflexivity|right; left; reflexivity|left; reflexivity|right; left; reflexivity].
Qed.
(** 0x1.8p+1 is 3. *)
Example ex_C128_hexadecimal : stof (list_ascii_of_string "0x1.8p+1") = Some (Num 3%R).
Proof.
  assert (V : hex_value false [1] [8] false [1] = 3%R).
  { unfold hex_value. change (hex_worth ([1] ++ [8])) with 24. change (worth [1] - 4 * Z.of_nat (length [8])) with (-3). rewrite two_pow. change (bpow radix2 (-3)) with (/ IZR 8)%R. lra. }
  destruct (C128_hexadecimal false [1] [8] false [1] []) as (r & E & _ & N); try rewrite V.
  - discriminate.
  - repeat constructor; lia.
  - repeat constructor; lia.
  - repeat constructor; lia.
  - intros [].
  - right. rewrite Rabs_pos_eq by lra. rewrite two_pow. apply Rle_trans with (bpow radix2 0); [apply bpow_le; lia|]. change (bpow radix2 0) with 1%R. lra.
  - rewrite Rabs_pos_eq by lra. rewrite two_pow. change (2 ^ 24 - 1) with 16777215. apply Rle_trans with (IZR 16777215 * bpow radix2 0)%R; [change (bpow radix2 0) with 1%R; lra|]. apply Rmult_le_compat_l; [lra|apply bpow_le; lia].
  - change (hexadecimal false [1] [8] false [1] ++ []) with (list_ascii_of_string "0x1.8p+1") in E. rewrite E. do 2 f_equal. rewrite V in N.
    assert (I3 : is_single 3) by (exists 3, 0; cbn; split; [lra|lia]). specialize (N _ I3). replace (3 - 3)%R with 0%R in N by ring. rewrite Rabs_R0 in N. pose proof (Rabs_pos (r - 3)) as B.
    assert (Z : Rabs (r - 3) = 0%R) by lra. destruct (Req_dec (r - 3) 0) as [Q|Q]; [lra|]. apply Rabs_no_R0 in Q. contradiction.
Qed.
(** 2^-10 is 0.0009765625, half way between two numbers of six digits. *)
Example ex_C128_ties : string_of_list_ascii (show_double (Float radix2 1 (-10))) = "0.000976562"%string /\
  string_of_list_ascii (show_double (Float radix2 2000005 (-1))) = "1e+06"%string /\
  string_of_list_ascii (show_double (Float radix2 2000015 (-1))) = "1.00001e+06"%string /\
  string_of_list_ascii (show_double (Float radix2 200001 (-1))) = "100000"%string /\
  string_of_list_ascii (show_double (Float radix2 1000003 0)) = "1e+06"%string.
Proof. vm_compute. repeat split. Qed.
