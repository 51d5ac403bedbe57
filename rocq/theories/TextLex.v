(** * Tokens of a text *)
From Coq Require Import String Ascii.
From Coq Require Import List NArith ZArith Bool Lia.
From Verif Require Import Schema Text TextSpec.
Import ListNotations.
Local Open Scope N_scope.

(** ** Characters *)

Lemma code_inj : forall a b, code a = code b -> a = b.
Proof. intros a b H. unfold code in H. rewrite <- (ascii_N_embedding a), <- (ascii_N_embedding b), H. reflexivity. Qed.

Ltac chars :=
  unfold is_word, is_letter, is_digit, is_space, is_newline, is_char, between in *;
  repeat match goal with
  | H : context [?a <=? ?b] |- _ => destruct (N.leb_spec a b) in H
  | H : context [?a =? ?b] |- _ => destruct (N.eqb_spec a b) in H
  | |- context [?a <=? ?b] => destruct (N.leb_spec a b)
  | |- context [?a =? ?b] => destruct (N.eqb_spec a b)
  end; cbn [andb orb negb] in *; try discriminate; try reflexivity; try lia.

Lemma letter_facts : forall c, is_letter c = true -> is_space c = false /\ is_char 35 c = false.
Proof. intros c H. split; chars. Qed.

Lemma digit_facts : forall c, is_digit c = true ->
  is_space c = false /\ is_char 35 c = false /\ is_letter c = false /\ is_word c = true /\ is_char 46 c = false /\ is_char 101 c = false /\ is_char 69 c = false
  /\ is_char 45 c = false /\ is_char 43 c = false.
Proof. intros c H. repeat split; chars. Qed.

Lemma word_facts : forall c, is_word c = false -> is_digit c = false /\ is_char 101 c = false /\ is_char 69 c = false /\ is_char 102 c = false /\ is_char 70 c = false
  /\ is_char 120 c = false /\ is_char 88 c = false.
Proof. intros c H. repeat split; chars. Qed.

Lemma span_app : forall p a r, Forall (fun c => p c = true) a -> match r with [] => True | c :: _ => p c = false end -> span p (a ++ r) = (a, r).
Proof.
  intros p a r H R. induction H as [|c a Hc H IH]; cbn.
  - destruct r as [|c r]; [reflexivity|]. cbn. rewrite R. reflexivity.
  - rewrite Hc, IH. reflexivity.
Qed.

(** ** Gaps *)

Lemma gap_skip : forall g, gap g -> forall r fuel, (length (g ++ r) < fuel)%nat -> exists fuel', (length r < fuel')%nat /\ lex fuel (g ++ r) = lex fuel' r.
Proof.
  intros g G. induction G as [|c g S G IH|b c g B C G IH]; intros r fuel L.
  - exists fuel. split; [exact L|reflexivity].
  - cbn [app length] in L. destruct fuel as [|fuel]; [lia|]. destruct (IH r fuel ltac:(lia)) as (f & Lf & E). exists f. split; [exact Lf|].
    cbn [app lex]. rewrite S. exact E.
  - rewrite app_length in L. cbn [length] in L. rewrite app_length in L. cbn [length] in L.
    destruct fuel as [|[|fuel]]; [lia|lia|]. destruct (IH r fuel) as (f & Lf & E); [rewrite app_length; lia|]. exists f. split; [exact Lf|].
    cbn [app]. rewrite <- app_assoc. cbn [app].
    change (lex (S (S fuel)) ("#"%char :: b ++ c :: g ++ r)) with (lex (S fuel) (snd (span (fun x => negb (is_newline x)) (b ++ c :: g ++ r)))).
    rewrite span_app; [|eapply Forall_impl; [|exact B]; intros x Hx; cbn beta; rewrite Hx; reflexivity|rewrite C; reflexivity].
    cbn [snd lex]. assert (Q : is_space c = true) by (clear -C; chars). rewrite Q. exact E.
Qed.

Lemma comment_end : forall b fuel, Forall (fun x => is_newline x = false) b -> lex (S fuel) ("#"%char :: b) = [].
Proof.
  intros b fuel B. change (lex (S fuel) ("#"%char :: b)) with (lex fuel (snd (span (fun x => negb (is_newline x)) b))).
  rewrite <- (app_nil_r b), span_app; [destruct fuel; reflexivity|eapply Forall_impl; [|exact B]; intros x Hx; cbn beta; rewrite Hx; reflexivity|exact I].
Qed.

(** ** Numbers *)

Lemma digits_value : forall ds n, digits ds n -> Forall (fun c => is_digit c = true) ds /\ value ds = n.
Proof.
  intros ds n H. induction H as [|ds n c d H [IH1 IH2] D C]; [split; [constructor|reflexivity]|]. split.
  - apply Forall_app. split; [exact IH1|]. repeat constructor. clear -C D. chars.
  - unfold value in *. rewrite fold_left_app, IH2. cbn [fold_left]. unfold add_digit. rewrite C. lia.
Qed.

Definition calm (r : text) : Prop := match r with [] => True | c :: _ => is_word c = false /\ c <> "."%char end.

Lemma calm_ends : forall r, calm r -> ends_clear r = true.
Proof.
  intros [|c r] H; [reflexivity|]. destruct H as [H1 H2]. cbn. rewrite H1. cbn. destruct (is_char 46 c) eqn:E; [|reflexivity].
  exfalso. apply H2. apply N.eqb_eq in E. apply code_inj. exact E.
Qed.

Lemma calm_digit : forall r, calm r -> match r with [] => True | c :: _ => is_digit c = false end.
Proof. intros [|c r] H; [exact I|]. destruct H as [H _]. apply (word_facts c H). Qed.

Lemma read_exp_none : forall r, calm r -> read_exp r = None.
Proof. intros [|c r] H; [reflexivity|]. destruct H as [H _]. destruct (word_facts c H) as (_ & A & B & _). cbn. rewrite A, B. reflexivity. Qed.

Lemma suffix_digit : forall sf r, f_suffix sf -> calm r -> match sf ++ r with [] => True | c :: _ => is_digit c = false end.
Proof. intros sf r [->|[->| ->]] H; [apply calm_digit, H|reflexivity|reflexivity]. Qed.

Lemma suffix_exp : forall sf r, f_suffix sf -> calm r -> read_exp (sf ++ r) = None.
Proof. intros sf r [->|[->| ->]] H; [apply read_exp_none, H|reflexivity|reflexivity]. Qed.

Lemma exponent_ok : forall x e r, exponent x e -> match r with [] => True | c :: _ => is_digit c = false end -> read_exp (x ++ r) = Some (Some (e, r)).
Proof.
  intros x e r H R.
  assert (Y : forall y, In y ["e"; "E"]%char -> is_char 101 y || is_char 69 y = true) by (intros y [<-|[<-|[]]]; reflexivity).
  destruct H as [y ds n Iy D N|y ds n Iy D N|y ds n Iy D N]; destruct (digits_value _ _ D) as [F V]; cbn [app]; unfold read_exp; rewrite (Y y Iy).
  - destruct ds as [|c ds]; [congruence|]. inversion F as [|? ? Fc Fd]; subst. cbn [app].
    destruct (digit_facts c Fc) as (_ & _ & _ & _ & _ & _ & _ & A & B). rewrite A, B.
    change (c :: ds ++ r) with ((c :: ds) ++ r). rewrite span_app by (try exact F; exact R). reflexivity.
  - change (is_char 45 "+") with false. change (is_char 43 "+") with true. cbn iota. rewrite span_app by (try exact F; exact R). rewrite V.
    destruct ds; [congruence|reflexivity].
  - change (is_char 45 "-") with true. cbn iota. rewrite span_app by (try exact F; exact R). rewrite V.
    destruct ds; [congruence|reflexivity].
Qed.

Lemma exponent_head : forall x e, exponent x e -> exists c r, x = c :: r /\ is_digit c = false /\ is_char 120 c = false /\ is_char 88 c = false /\ is_char 46 c = false.
Proof. intros x e H. destruct H as [y ds n Iy|y ds n Iy|y ds n Iy]; (eexists; eexists; split; [reflexivity|]); destruct Iy as [<-|[<-|[]]]; repeat split; reflexivity. Qed.

Lemma base_ten : forall ds r, plain ds -> match r with [] => True | c :: _ => is_char 120 c = false /\ is_char 88 c = false end -> other_base ds r = false.
Proof.
  intros [|c [|d ds]] r P R; cbn; [reflexivity| |].
  - destruct r as [|x r]; [apply andb_false_r|]. destruct R as [-> ->]. apply andb_false_r.
  - destruct (is_char 48 c) eqn:E; [|reflexivity]. exfalso. apply (P c (d :: ds) eq_refl); [discriminate|]. apply N.eqb_eq in E. apply code_inj. exact E.
Qed.

Lemma suffix_read : forall sf r, f_suffix sf -> calm r ->
  match sf ++ r with c :: r' => if is_char 102 c || is_char 70 c then (true, r') else (true, sf ++ r) | [] => (true, sf ++ r) end = (true, r).
Proof.
  intros sf r [->|[->| ->]] H; [|reflexivity|reflexivity]. cbn [app]. destruct r as [|c r]; [reflexivity|]. destruct H as [H _].
  destruct (word_facts c H) as (_ & _ & _ & A & B & _). rewrite A, B. reflexivity.
Qed.

Lemma number_whole : forall ds n r, digits ds n -> ds <> [] -> plain ds -> calm r -> read_number (ds ++ r) = Some (TNum n, r).
Proof.
  intros ds n r D N P C. destruct (digits_value _ _ D) as [F V]. unfold read_number. rewrite span_app by (try exact F; apply calm_digit, C).
  rewrite base_ten; [|exact P|destruct r as [|c r]; [exact I|destruct C as [C _]; split; apply (word_facts c C)]].
  assert (E : match r with c :: r' => if is_char 46 c then let '(fs, r2) := span is_digit r' in (fs, true, r2) else ([], false, r) | [] => ([], false, r) end = ([] : text, false, r)).
  { destruct r as [|c r]; [reflexivity|]. destruct C as [C1 C2]. destruct (is_char 46 c) eqn:Q; [|reflexivity]. exfalso. apply C2, code_inj. apply N.eqb_eq, Q. }
  rewrite E, read_exp_none by exact C.
  assert (E2 : match r with c :: r' => if is_char 102 c || is_char 70 c then (true, r') else (false, r) | [] => (false, r) end = (false, r)).
  { destruct r as [|c r]; [reflexivity|]. destruct C as [C1 _]. destruct (word_facts c C1) as (_ & _ & _ & A & B & _). rewrite A, B. reflexivity. }
  rewrite E2, calm_ends by exact C. rewrite V. reflexivity.
Qed.

Lemma digits_split : forall ds fs n, digits (ds ++ fs) n -> Forall (fun c => is_digit c = true) ds /\ Forall (fun c => is_digit c = true) fs.
Proof. intros ds fs n H. apply Forall_app. apply (digits_value _ _ H). Qed.

Lemma number_point : forall ds fs n sf r, digits (ds ++ fs) n -> plain ds -> f_suffix sf -> calm r ->
  read_number ((ds ++ "."%char :: fs ++ sf) ++ r) = Some (TFloat n (- Z.of_nat (length fs)), r).
Proof.
  intros ds fs n sf r D P S C. destruct (digits_split _ _ _ D) as [F1 F2]. destruct (digits_value _ _ D) as [_ V].
  unfold read_number. rewrite <- app_assoc. cbn [app]. rewrite span_app by (try exact F1; reflexivity).
  rewrite base_ten; [|exact P|split; reflexivity]. change (is_char 46 ".") with true. cbn iota. rewrite <- app_assoc.
  rewrite span_app by (try exact F2; apply suffix_digit; assumption). rewrite suffix_exp by assumption.
  rewrite suffix_read by assumption. rewrite calm_ends by exact C. rewrite V. reflexivity.
Qed.

Lemma number_point_exp : forall ds fs n x e sf r, digits (ds ++ fs) n -> plain ds -> exponent x e -> f_suffix sf -> calm r ->
  read_number ((ds ++ "."%char :: fs ++ x ++ sf) ++ r) = Some (TFloat n (e - Z.of_nat (length fs)), r).
Proof.
  intros ds fs n x e sf r D P X S C. destruct (digits_split _ _ _ D) as [F1 F2]. destruct (digits_value _ _ D) as [_ V].
  unfold read_number. rewrite <- app_assoc. cbn [app]. rewrite span_app by (try exact F1; reflexivity).
  rewrite base_ten; [|exact P|split; reflexivity]. change (is_char 46 ".") with true. cbn iota. rewrite <- !app_assoc.
  rewrite span_app; [|exact F2|destruct (exponent_head _ _ X) as (c & q & -> & Q & _); exact Q].
  rewrite (exponent_ok x e) by (try exact X; apply suffix_digit; assumption).
  rewrite suffix_read by assumption. rewrite calm_ends by exact C. rewrite V. reflexivity.
Qed.

Lemma number_exp : forall ds n x e sf r, digits ds n -> plain ds -> exponent x e -> f_suffix sf -> calm r ->
  read_number ((ds ++ x ++ sf) ++ r) = Some (TFloat n e, r).
Proof.
  intros ds n x e sf r D P X S C. destruct (digits_value _ _ D) as [F1 V].
  unfold read_number. rewrite <- !app_assoc. destruct (exponent_head _ _ X) as (c & q & Ex & Q1 & Q2 & Q3 & Q4).
  rewrite span_app; [|exact F1|rewrite Ex; exact Q1]. rewrite base_ten; [|exact P|rewrite Ex; split; assumption].
  subst x. cbn [app]. rewrite Q4. change (c :: q ++ sf ++ r) with ((c :: q) ++ sf ++ r).
  rewrite (exponent_ok (c :: q) e) by (try exact X; apply suffix_digit; assumption).
  rewrite suffix_read by assumption. rewrite calm_ends by exact C. rewrite app_nil_r, V. cbn [length]. rewrite Z.sub_0_r. reflexivity.
Qed.

(** ** Strings *)

Lemma string_ok : forall q s r, Forall (fun x => x <> q /\ is_newline x = false /\ x <> chr 92) s -> read_string q ((s ++ [q]) ++ r) = Some (s, r).
Proof.
  intros q s r H. induction H as [|c s (H1 & H2 & H3) H IH]; cbn [app read_string].
  - unfold is_char. rewrite N.eqb_refl. reflexivity.
  - destruct (is_char (code q) c) eqn:E; [exfalso; apply H1, code_inj, N.eqb_eq, E|].
    destruct (is_char 92 c) eqn:E2; [exfalso; apply H3, code_inj; apply N.eqb_eq in E2; exact E2|]. rewrite H2. cbn [orb]. rewrite IH. reflexivity.
Qed.

(** ** Tokens *)

Lemma number_step : forall l t r fuel, starts_number l = true -> read_number l = Some (t, r) -> lex (S fuel) l = t :: lex fuel r.
Proof.
  intros [|c l] t r fuel S R; [discriminate|]. cbn [lex].
  assert (Q : is_space c = false /\ is_char 35 c = false /\ is_letter c = false).
  { cbn in S. apply orb_prop in S as [S|S].
    - destruct (digit_facts c S) as (A & B & D & _). auto.
    - apply andb_prop in S as [S _]. clear -S. repeat split; chars. }
  destruct Q as (-> & -> & ->). rewrite S, R. reflexivity.
Qed.

Lemma starts_digits : forall ds r, ds <> [] -> Forall (fun c => is_digit c = true) ds -> starts_number (ds ++ r) = true.
Proof. intros [|c ds] r N F; [congruence|]. inversion F as [|? ? A B]; subst. cbn. rewrite A. reflexivity. Qed.

Lemma starts_point : forall ds fs n r, digits (ds ++ fs) n -> ds <> [] \/ fs <> [] -> starts_number (ds ++ "."%char :: fs ++ r) = true.
Proof.
  intros ds fs n r D N. destruct (digits_split _ _ _ D) as [F1 F2]. destruct ds as [|c ds].
  - destruct N as [N|N]; [congruence|]. destruct fs as [|d fs]; [congruence|]. inversion F2 as [|? ? A B]; subst. cbn. rewrite A. reflexivity.
  - apply starts_digits; [discriminate|exact F1].
Qed.

Lemma token_step : forall s t r fuel, spells s t -> apart t r -> lex (S fuel) (s ++ r) = t :: lex fuel r.
Proof.
  intros s t r fuel H A. destruct H as [c s L W|ds n D N P|ds fs n sf D N P S|ds fs n x e sf D N P X S|ds n x e sf D N P X S|q s Q W|c C].
  - cbn [app lex]. destruct (letter_facts c L) as [-> ->]. rewrite L. change (c :: s ++ r) with ((c :: s) ++ r).
    rewrite span_app; [reflexivity| |].
    + constructor; [unfold is_word; rewrite L; reflexivity|exact W].
    + destruct r as [|x r]; [exact I|]. apply A.
  - apply number_step; [apply starts_digits; [exact N|apply (digits_value _ _ D)]|]. apply number_whole; assumption.
  - apply number_step; [|apply number_point; assumption]. rewrite <- app_assoc. cbn [app]. rewrite <- app_assoc. apply (starts_point ds fs n); assumption.
  - apply number_step; [|apply number_point_exp; assumption]. rewrite <- app_assoc. cbn [app]. rewrite <- app_assoc. apply (starts_point ds fs n); assumption.
  - apply number_step; [|apply number_exp; assumption]. rewrite <- app_assoc. apply starts_digits; [exact N|apply (digits_value _ _ D)].
  - destruct Q as [<-|[<-|[]]].
    + change (lex (S fuel) ((chr 34 :: s ++ [chr 34]) ++ r)) with
        (match read_string (chr 34) ((s ++ [chr 34]) ++ r) with Some (s0, r') => TStr s0 :: lex fuel r' | None => [TBad] end).
      rewrite string_ok by exact W. reflexivity.
    + change (lex (S fuel) ((chr 39 :: s ++ [chr 39]) ++ r)) with
        (match read_string (chr 39) ((s ++ [chr 39]) ++ r) with Some (s0, r') => TStr s0 :: lex fuel r' | None => [TBad] end).
      rewrite string_ok by exact W. reflexivity.
  - cbn in C. repeat (destruct C as [<-|C]; [reflexivity|]). destruct C.
Qed.

Lemma spells_pos : forall s t, spells s t -> (0 < length s)%nat.
Proof.
  intros s t H. destruct H as [c s L W|ds n D N P|ds fs n sf D N P S|ds fs n x e sf D N P X S|ds n x e sf D N P X S|q s Q W|c C];
    try (rewrite app_length); cbn [length]; try lia; destruct ds; cbn; try congruence; lia.
Qed.

Lemma lex_ok : forall l ts, laid_out l ts -> forall fuel, (length l < fuel)%nat -> lex fuel l = ts.
Proof.
  intros l ts H. induction H as [g G|g b G B|g s t r ts G S A H IH]; intros fuel L.
  - rewrite <- (app_nil_r g) in L |- *. destruct (gap_skip g G [] fuel L) as (f & _ & E). rewrite E. destruct f; reflexivity.
  - destruct (gap_skip g G ("#"%char :: b) fuel L) as (f & Lf & E). rewrite E. destruct f as [|f]; [cbn in Lf; lia|]. apply comment_end, B.
  - destruct (gap_skip g G (s ++ r) fuel L) as (f & Lf & E). rewrite E. destruct f as [|f]; [lia|]. rewrite (token_step s t r f S A). f_equal. apply IH.
    rewrite app_length in Lf. pose proof (spells_pos _ _ S). lia.
Qed.

Lemma tokens_ok : forall l ts, laid_out l ts -> tokens l = ts.
Proof. intros l ts H. apply (lex_ok l ts H). lia. Qed.
