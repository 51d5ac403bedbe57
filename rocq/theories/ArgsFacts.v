(** * Facts about the argument parser. *)
From Coq Require Import String Ascii.
From Coq Require Import List Bool Arith Lia.
From Verif Require Import Base Args.
Import ListNotations.
Local Open Scope string_scope.

(** ** Specification *)

Definition flat (kv : list (string * string)) : list string :=
  flat_map (fun p => [fst p; snd p]) kv.

(* the names that the program documents *)
Definition required_names : list string :=
  ["--algo-params-file"; "--hier-type"; "--hier-args"; "--mix-type"; "--mix-args"; "--data-file"].
Definition optional_names : list string :=
  ["--grid-file"; "--dens-file"; "--n-cl-file"; "--clus-file"; "--best-clus-file";
   "--hier-cov-file"; "--hier-grid-cov-file"; "--mix-cov-file"; "--mix-grid-cov-file"].
Definition all_names : list string := required_names ++ "--coll-name" :: optional_names.

(* a word that does not start with a dash *)
Definition plain (v : string) : Prop := forall t, v <> String "-" t.

(* correct pairs: known names, each once, values that cannot be taken for an option *)
Definition pairs_ok (kv : list (string * string)) : Prop :=
  NoDup (map fst kv) /\ incl (map fst kv) all_names /\ Forall (fun p => plain (snd p)) kv.

(** the grammar in the comment of argparse.h:625-651 *)
Inductive all_digits : string -> Prop :=
| ad_nil : all_digits ""
| ad_cons : forall c s, In c ["0"; "1"; "2"; "3"; "4"; "5"; "6"; "7"; "8"; "9"]%char ->
    all_digits s -> all_digits (String c s).
Definition digit_sequence (s : string) : Prop := all_digits s /\ s <> "".
Inductive exponent_part : string -> Prop :=
| ep : forall e sg d, In e ["e"; "E"]%char -> In sg [""; "+"; "-"] -> digit_sequence d ->
    exponent_part (String e (sg ++ d)).
Definition opt (P : string -> Prop) (s : string) : Prop := s = "" \/ P s.
Inductive fractional_part : string -> Prop :=
| fp : forall d e, digit_sequence d -> opt exponent_part e -> fractional_part (String "." (d ++ e)).
Inductive decimal_literal : string -> Prop :=
| dl_zero : decimal_literal "0"
| dl_int : forall c d, In c ["1"; "2"; "3"; "4"; "5"; "6"; "7"; "8"; "9"]%char -> all_digits d ->
    decimal_literal (String c d)
| dl_int_frac : forall i f, digit_sequence i -> fractional_part f -> decimal_literal (i ++ f)
| dl_frac : forall f, fractional_part f -> decimal_literal f
| dl_int_dot : forall i e, digit_sequence i -> opt exponent_part e ->
    decimal_literal (i ++ String "." e)
| dl_int_exp : forall i e, digit_sequence i -> exponent_part e -> decimal_literal (i ++ e).

(** ** Digits *)

Lemma is_digit_In : forall c,
  is_digit c = true <-> In c ["0"; "1"; "2"; "3"; "4"; "5"; "6"; "7"; "8"; "9"]%char.
Proof.
  intro c; split; intro H.
  - destruct c as [[] [] [] [] [] [] [] []]; vm_compute in H; try discriminate H; cbn; tauto.
  - cbn in H; repeat (destruct H as [<- | H]; [reflexivity | ]); contradiction.
Qed.

Lemma app_nil_r_s : forall s, s ++ "" = s.
Proof. induction s; cbn; congruence. Qed.
Lemma app_assoc_s : forall a b c, (a ++ b) ++ c = a ++ (b ++ c).
Proof. induction a; intros; cbn; congruence. Qed.

Definition no_digit_first (s : string) : Prop := forall c t, s = String c t -> is_digit c = false.

Lemma consume_split : forall s, exists d, all_digits d /\ s = d ++ consume_digits s /\
  no_digit_first (consume_digits s).
Proof.
  induction s as [|c s (d & Hd & E & N)].
  - exists ""; repeat split; [constructor | intros c t H; discriminate].
  - cbn. destruct (is_digit c) eqn:D.
    + exists (String c d); repeat split; auto.
      * constructor; [now apply is_digit_In | trivial].
      * cbn; now rewrite <- E.
    + exists ""; repeat split; [constructor | ]. intros c' t H; injection H as <- <-; trivial.
Qed.

Lemma consume_app : forall d s, all_digits d -> no_digit_first s -> consume_digits (d ++ s) = s.
Proof.
  induction 1 as [|c d Hc Hd IH]; intro N; cbn.
  - destruct s as [|c t]; cbn; trivial. now rewrite (N c t eq_refl).
  - apply is_digit_In in Hc; rewrite Hc; auto.
Qed.

Lemma digits_all : forall d, all_digits d -> consume_digits d = "".
Proof.
  intros d H; rewrite <- (app_nil_r_s d); apply consume_app; trivial.
  intros c t E; discriminate.
Qed.

Lemma consume_empty : forall s, consume_digits s = "" -> all_digits s.
Proof.
  intros s H; destruct (consume_split s) as (d & Hd & E & _); rewrite H, app_nil_r_s in E; now subst.
Qed.

Lemma digit_seq_cons : forall d, digit_sequence d -> exists c t, d = String c t /\
  is_digit c = true /\ all_digits t.
Proof.
  intros d [H N]; destruct H as [|c t Hc Ht]; [congruence|].
  exists c, t; repeat split; trivial. now apply is_digit_In.
Qed.

Lemma post_e_iff : forall s, post_e s = true <->
  exists sg d, In sg [""; "+"; "-"] /\ digit_sequence d /\ s = sg ++ d.
Proof.
  intro s; split.
  - intro H; unfold post_e in H.
    destruct s as [|c t]; [discriminate|].
    destruct ((c =? "-")%char || (c =? "+")%char) eqn:S; cbn [andb] in H.
    + destruct t as [|c' t']; [discriminate|].
      apply andb_true_iff in H as [D H]; apply String.eqb_eq in H.
      exists (String c ""), (String c' t'); repeat split.
      * apply orb_true_iff in S; cbn. destruct S as [S|S]; apply Ascii.eqb_eq in S; subst; tauto.
      * now apply consume_empty.
      * discriminate.
    + apply andb_true_iff in H as [D H]; apply String.eqb_eq in H.
      exists "", (String c t); repeat split; [cbn; tauto | now apply consume_empty | discriminate].
  - intros (sg & d & Hs & Hd & ->).
    destruct (digit_seq_cons _ Hd) as (c & t & -> & Dc & Dt).
    pose proof (proj1 Hd) as Ha.
    assert (K : is_digit c && (consume_digits (String c t) =? "") = true).
    { rewrite Dc, digits_all by trivial; reflexivity. }
    destruct Hs as [<-|[<-|[<-|[]]]]; unfold post_e; cbn [append].
    + destruct ((c =? "-")%char || (c =? "+")%char) eqn:S; [|exact K].
      apply orb_true_iff in S; destruct S as [S|S]; apply Ascii.eqb_eq in S; subst; discriminate Dc.
    + exact K.
    + exact K.
Qed.

Lemma exponent_iff : forall s, exponent_part_opt s = true <-> opt exponent_part s.
Proof.
  intro s; split.
  - destruct s as [|c t]; cbn; [now left|].
    destruct ((c =? "e")%char || (c =? "E")%char) eqn:S; [|discriminate].
    intro H; right. apply post_e_iff in H as (sg & d & Hs & Hd & ->).
    constructor; trivial. apply orb_true_iff in S; cbn.
    destruct S as [S|S]; apply Ascii.eqb_eq in S; subst; tauto.
  - intros [->|H]; [reflexivity|]. destruct H as [e sg d He Hs Hd]; cbn.
    assert (post_e (sg ++ d) = true) by (apply post_e_iff; eauto 6).
    destruct He as [<-|[<-|[]]]; trivial.
Qed.

Lemma ep_no_digit : forall e, opt exponent_part e -> no_digit_first e.
Proof.
  intros e [->|H] c t E; [discriminate|].
  destruct H as [e sg d He Hs Hd]; injection E as <- _; destruct He as [<-|[<-|[]]]; reflexivity.
Qed.

Lemma post_decimal_iff : forall s, post_decimal_point s = true <->
  exists d e, digit_sequence d /\ opt exponent_part e /\ s = d ++ e.
Proof.
  intro s; split.
  - destruct s as [|c t]; cbn; [discriminate|]. destruct (is_digit c) eqn:D; [|discriminate].
    intro H; apply exponent_iff in H.
    destruct (consume_split t) as (d & Hd & E & _).
    exists (String c d), (consume_digits t); repeat split; trivial; try discriminate.
    + constructor; [now apply is_digit_In | trivial].
    + cbn; now rewrite <- E.
  - intros (d & e & Hd & He & ->).
    destruct (digit_seq_cons _ Hd) as (c & t & -> & Dc & Dt). cbn. rewrite Dc.
    apply exponent_iff. rewrite consume_app; trivial. now apply ep_no_digit.
Qed.

Lemma dot_no_digit : forall t, no_digit_first (String "." t).
Proof. intros t c u E; injection E as <- _; reflexivity. Qed.

(* what may follow the integer part *)
Definition tail_ok (s : string) : Prop :=
  fractional_part s \/ (exists e, opt exponent_part e /\ s = String "." e) \/ exponent_part s.

Lemma ipc_iff : forall s, integer_part_consumed s = true <-> tail_ok s.
Proof.
  intro s; split.
  - destruct s as [|c t]; cbn; [discriminate|].
    destruct (c =? ".")%char eqn:Dot.
    + apply Ascii.eqb_eq in Dot; subst c.
      destruct t as [|d t]; cbn [exponent_part_opt].
      * intros _; right; left; exists ""; split; [now left | trivial].
      * destruct (is_digit d) eqn:D; intro H.
        -- apply (post_decimal_iff (String d t)) in H as (x & e & Hx & He & ->). left; now constructor.
        -- apply (exponent_iff (String d t)) in H. right; left; eauto.
    + destruct ((c =? "e")%char || (c =? "E")%char) eqn:S; [|discriminate].
      intro H; right; right. apply post_e_iff in H as (sg & d & Hs & Hd & ->).
      constructor; trivial. apply orb_true_iff in S; cbn.
      destruct S as [S|S]; apply Ascii.eqb_eq in S; subst; tauto.
  - intros [H | [(e & He & ->) | H]].
    + destruct H as [d e Hd He]. destruct (digit_seq_cons _ Hd) as (c & t & E & Dc & Dt).
      assert (P : post_decimal_point (d ++ e) = true) by (apply post_decimal_iff; eauto).
      subst d; cbn in P |- *. now rewrite Dc in P |- *.
    + cbn. assert (P : exponent_part_opt e = true) by now apply exponent_iff.
      destruct e as [|d t]; trivial.
      now rewrite (ep_no_digit _ He d t eq_refl).
    + pose proof (proj2 (exponent_iff s) (or_intror H)) as P. destruct H as [e sg d He Hs Hd].
      destruct He as [<-|[<-|[]]]; exact P.
Qed.

Lemma tail_no_digit : forall s, tail_ok s -> no_digit_first s.
Proof.
  intros s [H | [(e & He & ->) | H]].
  - destruct H; apply dot_no_digit.
  - apply dot_no_digit.
  - now apply ep_no_digit; right.
Qed.

Lemma tail_nonempty : forall s, tail_ok s -> s <> "".
Proof. intros s [H | [(e & He & ->) | H]]; try discriminate; destruct H; discriminate. Qed.

Lemma int_tail : forall i s, digit_sequence i -> tail_ok s -> is_decimal_literal (i ++ s) = true.
Proof.
  intros i s Hi Ht. destruct (digit_seq_cons _ Hi) as (c & t & -> & Dc & Dt).
  pose proof (tail_no_digit _ Ht) as N. pose proof (tail_nonempty _ Ht) as NE.
  cbn [append]. unfold is_decimal_literal.
  destruct (c =? "0")%char.
  - destruct (t ++ s) eqn:E; trivial. rewrite <- E, consume_app by trivial. now apply ipc_iff.
  - rewrite Dc. change (String c (t ++ s)) with (String c t ++ s).
    rewrite consume_app by (trivial; now destruct Hi). destruct s; [congruence|]. now apply ipc_iff.
Qed.

Lemma tail_literal : forall i s, digit_sequence i -> tail_ok s -> decimal_literal (i ++ s).
Proof.
  intros i s Hi [H | [(e & He & ->) | H]]; [now apply dl_int_frac | now apply dl_int_dot | now apply dl_int_exp].
Qed.

Lemma literal_grammar : forall s, is_decimal_literal s = true <-> decimal_literal s.
Proof.
  intro s; split.
  - destruct s as [|c t]; [discriminate|]. unfold is_decimal_literal.
    destruct (c =? "0")%char eqn:Z.
    + apply Ascii.eqb_eq in Z; subst c. destruct t as [|c' t']; [constructor|].
      intro H. apply ipc_iff in H.
      destruct (consume_split (String c' t')) as (d & Hd & E & _). rewrite E.
      change (decimal_literal (String "0" d ++ consume_digits (String c' t'))).
      apply tail_literal; trivial. split; [|discriminate]. constructor; cbn; tauto.
    + destruct (is_digit c) eqn:D.
      * destruct (consume_split (String c t)) as (d & Hd & E & _).
        destruct (consume_digits (String c t)) as [|c' u] eqn:R.
        -- intros _. apply consume_empty in R. inversion R as [|? ? Hc Ht]; subst.
           apply dl_int; trivial. destruct Hc as [<-|Hc]; [discriminate Z|exact Hc].
        -- intro H. apply ipc_iff in H. rewrite E. apply tail_literal; trivial.
           split; trivial. intros ->; cbn in E. injection E as <- <-.
           apply (tail_no_digit _ H) in D || idtac.
           pose proof (tail_no_digit _ H c t eq_refl); congruence.
      * destruct (c =? ".")%char eqn:Dot; [|discriminate]. apply Ascii.eqb_eq in Dot; subst c.
        intro H; apply post_decimal_iff in H as (d & e & Hd & He & ->).
        apply dl_frac; now constructor.
  - destruct 1 as [ | c d Hc Hd | i f Hi Hf | f Hf | i e Hi He | i e Hi He].
    + reflexivity.
    + unfold is_decimal_literal.
      destruct (c =? "0")%char eqn:Z.
      { apply Ascii.eqb_eq in Z; subst. cbn in Hc; repeat (destruct Hc as [Hc|Hc]; [discriminate|]); contradiction. }
      assert (D : is_digit c = true) by (apply is_digit_In; cbn in Hc |- *; tauto).
      rewrite D, digits_all; trivial. constructor; trivial; now apply is_digit_In.
    + apply int_tail; trivial. now left.
    + destruct Hf as [d e Hd He]. cbn. apply post_decimal_iff; eauto.
    + apply int_tail; trivial. right; left; eauto.
    + apply int_tail; trivial. now right; right.
Qed.

(** ** The parser on correct pairs *)

Lemma plain_positional : forall v, plain v -> is_positional v = true.
Proof.
  intros [|c t] H; trivial. cbn. destruct (c =? "-")%char eqn:E; trivial.
  apply Ascii.eqb_eq in E; subst. now elim (H t).
Qed.

Definition filled (a : argument) (v : string) : argument :=
  mkArg (a_names a) (a_default a) (a_required a) (a_exits a) (a_values a ++ [v]) true.
Definition fill (kv : list (string * string)) (a : argument) : argument :=
  match find (fun p => has_name (fst p) a) kv with
  | Some p => filled a (snd p)
  | None => a
  end.

Lemma fill_names : forall kv a, a_names (fill kv a) = a_names a.
Proof. intros; unfold fill; destruct (find _ kv); reflexivity. Qed.

Lemma fill_has : forall n kv a, has_name n (fill kv a) = has_name n a.
Proof. intros; unfold has_name; now rewrite fill_names. Qed.

Lemma find_fill : forall n kv l, find_arg n (map (fill kv) l) = find_arg n l.
Proof. induction l as [|a l IH]; cbn; trivial. now rewrite fill_has, IH. Qed.

Lemma find_arg_spec : forall n l i, find_arg n l = Some i ->
  exists a, nth_error l i = Some a /\ has_name n a = true.
Proof.
  induction l as [|a l IH]; cbn [find_arg]; intros i H; [discriminate H|].
  destruct (has_name n a) eqn:E; [injection H as <-; exists a; now split|].
  destruct (find_arg n l) as [j|] eqn:F; [|discriminate H]. injection H as <-. cbn; auto.
Qed.

Lemma parse_fuel : forall f1 f2 st w, length w <= f1 -> length w <= f2 ->
  parse_loop f1 st w = parse_loop f2 st w.
Proof.
  assert (L : forall st i r st' r', use_arg st i r = Parsed (st', r') -> length r' <= length r).
  { intros st i r st' r'; unfold use_arg, consume. destruct (nth_error st i) as [a|]; [|discriminate].
    destruct (a_used a); [discriminate|]. destruct (a_exits a); [discriminate|].
    destruct r as [|v r].
    - destruct (a_default a); intro H; [injection H as <- <-; auto | discriminate].
    - destruct (negb (is_positional v)); intro H; [discriminate|]. injection H as <- <-; cbn; lia. }
  assert (LC : forall cs st r st' r', compound cs st r = Parsed (st', r') -> length r' <= length r).
  { induction cs as [|c cs IH]; cbn; intros st r st' r' H; [injection H as <- <-; auto|].
    destruct (find_arg _ st); [|discriminate]. destruct (use_arg st n r) as [[s1 r1]| |] eqn:U; try discriminate.
    apply L in U. apply IH in H. lia. }
  induction f1 as [|f1 IH]; intros f2 st w H1 H2.
  - destruct w; cbn in H1; [now destruct f2|lia].
  - destruct w as [|x w]; [now destruct f2|]. destruct f2 as [|f2]; cbn in H1, H2; [lia|]. cbn [parse_loop].
    destruct (is_positional x); trivial.
    destruct (find_arg x st).
    + destruct (use_arg st n w) as [[s1 r1]| |] eqn:U; trivial. apply L in U. apply IH; lia.
    + destruct x as [|c x]; trivial. destruct c as [[] [] [] [] [] [] [] []]; trivial.
      destruct x as [|c t]; trivial. destruct (c =? "-")%char; trivial.
      destruct (compound (String c t) st w) as [[s1 r1]| |] eqn:U; trivial.
      apply LC in U. apply IH; lia.
Qed.

(* the rest of the words after the first pairs *)
Definition go (kv : list (string * string)) (w : list string) : parsed (list argument) :=
  parse_loop (length w) (map (fill kv) run_options) w.

Definition fresh (k : string) (kv : list (string * string)) : Prop := ~ In k (map fst kv).

Lemma all_names_pos : forall k, In k all_names -> exists i a,
  find_arg k run_options = Some i /\ nth_error run_options i = Some a /\ a_names a = [k] /\
  a_exits a = false /\ a_values a = [] /\ a_used a = false /\ is_positional k = false /\
  (forall j b, nth_error run_options j = Some b -> has_name k b = true -> j = i).
Proof.
  intros k H.
  assert (D : forall k0, In k0 all_names -> forall i, find_arg k0 run_options = Some i ->
    forall j b, nth_error run_options j = Some b -> has_name k0 b = true -> j = i).
  { intros k0 H0 i Hi j b Hj Hb.
    do 18 (destruct j as [|j]; [cbn in Hj; injection Hj as <-; cbn in Hb;
      repeat (rewrite orb_false_r in Hb); 
      try (apply orb_true_iff in Hb; destruct Hb as [Hb|Hb]);
      apply String.eqb_eq in Hb; subst k0; cbn in Hi; injection Hi as <-; reflexivity |]).
    destruct j; discriminate Hj. }
  repeat (destruct H as [<- | H];
    [ eexists; eexists; split; [reflexivity|]; split; [reflexivity|];
      split; [reflexivity|]; split; [reflexivity|]; split; [reflexivity|]; split; [reflexivity|];
      split; [reflexivity|]; apply D; [cbn; tauto | reflexivity] | ]).
  contradiction.
Qed.

Lemma fill_fresh : forall kv a k, a_names a = [k] -> fresh k kv -> fill kv a = a.
Proof.
  intros kv a k E F; unfold fill.
  destruct (find _ kv) as [p|] eqn:Fd; trivial.
  apply find_some in Fd as [I Hn]. unfold has_name in Hn; rewrite E in Hn; cbn in Hn.
  rewrite orb_false_r in Hn. apply String.eqb_eq in Hn. elim F. rewrite <- Hn. now apply in_map.
Qed.

Lemma fill_In : forall kv a k v, NoDup (map fst kv) -> a_names a = [k] -> In (k, v) kv ->
  fill kv a = filled a v.
Proof.
  intros kv a k v ND E I; unfold fill.
  destruct (find _ kv) as [[k' v']|] eqn:Fd.
  - apply find_some in Fd as [I' Hn]. unfold has_name in Hn; rewrite E in Hn; cbn in Hn.
    rewrite orb_false_r in Hn. apply String.eqb_eq in Hn. subst k'. cbn. f_equal.
    clear E. induction kv as [|p kv IH]; [contradiction|].
    cbn in ND; inversion ND as [|? ? N1 N2]; subst.
    destruct I as [->|I], I' as [Ep|I'].
    + congruence.
    + elim N1. cbn. change k with (fst (k, v')). now apply in_map.
    + subst p. elim N1. cbn. change k with (fst (k, v)). now apply in_map.
    + auto.
  - exfalso. pose proof (find_none _ _ Fd _ I) as Hn. cbn in Hn. unfold has_name in Hn.
    rewrite E in Hn; cbn in Hn. now rewrite String.eqb_refl in Hn.
Qed.

Lemma upd_fill : forall k v kv l i a, nth_error l i = Some a -> has_name k a = true ->
  (forall j b, nth_error l j = Some b -> has_name k b = true -> j = i) ->
  fill kv a = a -> a_names a = [k] -> fresh k kv ->
  upd (map (fill kv) l) i (filled a v) = map (fill (kv ++ [(k, v)])) l.
Proof.
  intros k v kv.
  assert (S : forall b, has_name k b = false -> fill (kv ++ [(k, v)]) b = fill kv b).
  { intros b H; unfold fill. induction kv as [|p kv IH]; cbn.
    - now rewrite H.
    - destruct (has_name (fst p) b); trivial. }
  induction l as [|b l IH]; intros i a Hn Ha Hd Hf En Fr; [destruct i; discriminate|].
  destruct i as [|i]; cbn in Hn |- *.
  - injection Hn as ->. f_equal.
    + clear -Fr En Hf. unfold fill in *.
      destruct (find (fun p => has_name (fst p) a) kv) as [p|] eqn:Fd.
      * exfalso. apply find_some in Fd as [I Hn]. unfold has_name in Hn; rewrite En in Hn; cbn in Hn.
        rewrite orb_false_r in Hn. apply String.eqb_eq in Hn. elim Fr. rewrite <- Hn. now apply in_map.
      * replace (find (fun p => has_name (fst p) a) (kv ++ [(k, v)])) with (Some (k, v)); trivial.
        clear -Fd En. induction kv as [|p kv IH]; cbn in *.
        -- unfold has_name; rewrite En; cbn. now rewrite String.eqb_refl.
        -- destruct (has_name (fst p) a); [discriminate|auto].
    + apply map_ext_in. intros b Hb. symmetry; apply S.
      destruct (has_name k b) eqn:E; trivial. apply In_nth_error in Hb as [j Hj].
      specialize (Hd (Datatypes.S j) b Hj E). discriminate.
  - f_equal.
    + symmetry; apply S. destruct (has_name k b) eqn:E; trivial.
      specialize (Hd 0 b eq_refl E). discriminate.
    + apply IH; trivial. intros j c Hj Hc. specialize (Hd (Datatypes.S j) c Hj Hc). lia.
Qed.

Lemma consume_value : forall a v w, a_used a = false -> a_exits a = false ->
  is_positional v = true -> consume a (v :: w) = Parsed (filled a v, w).
Proof.
  intros [n d r e vs u] v w; cbn [a_used a_exits]; intros -> -> H.
  unfold consume; cbn [a_used a_exits]. now rewrite H.
Qed.

Lemma use_pair : forall kv k v w, In k all_names -> fresh k kv -> is_positional v = true ->
  go kv (k :: v :: w) = go (kv ++ [(k, v)]) w.
Proof.
  intros kv k v w Hk Fr Hv.
  destruct (all_names_pos _ Hk) as (i & a & Hi & Ha & En & Ex & Va & Us & Po & Un).
  unfold go. cbn [length parse_loop]. rewrite Po, find_fill, Hi.
  unfold use_arg. rewrite nth_error_map, Ha. cbn [option_map].
  rewrite (fill_fresh kv a k En Fr), consume_value by trivial.
  change (parse_loop (S (length w)) (upd (map (fill kv) run_options) i (filled a v)) w
    = parse_loop (length w) (map (fill (kv ++ [(k, v)])) run_options) w).
  rewrite (upd_fill k v kv run_options i a); trivial.
  - apply parse_fuel; lia.
  - unfold has_name; rewrite En; cbn; now rewrite String.eqb_refl.
  - exact (fill_fresh kv a k En Fr).
Qed.

Lemma go_pairs : forall kv2 kv1 w, NoDup (map fst (kv1 ++ kv2)) -> incl (map fst kv2) all_names ->
  Forall (fun p => is_positional (snd p) = true) kv2 ->
  go kv1 (flat kv2 ++ w)%list = go (kv1 ++ kv2) w.
Proof.
  induction kv2 as [|[k v] kv2 IH]; intros kv1 w ND In1 Fv.
  - cbn. now rewrite app_nil_r.
  - cbn [flat flat_map app fst snd]. inversion Fv; subst.
    assert (Fr : fresh k kv1).
    { intro H. rewrite map_app in ND. apply NoDup_remove_2 in ND. apply ND. apply in_or_app; now left. }
    rewrite use_pair; trivial; [| apply In1; now left].
    replace (kv1 ++ (k, v) :: kv2)%list with ((kv1 ++ [(k, v)]) ++ kv2)%list in * by now rewrite <- app_assoc.
    apply IH; trivial. intros x Hx; apply In1; now right.
Qed.

Lemma pairs_positional : forall kv, pairs_ok kv -> Forall (fun p => is_positional (snd p) = true) kv.
Proof. intros kv (_ & _ & F). eapply Forall_impl; [|exact F]. intros; now apply plain_positional. Qed.

Lemma parse_prefix : forall kv w, pairs_ok kv ->
  parse_loop (length (flat kv ++ w)%list) run_options (flat kv ++ w)%list = go kv w.
Proof.
  intros kv w H. pose proof (go_pairs kv [] w) as G. unfold go in G at 1.
  assert (E : map (fill []) run_options = run_options).
  { rewrite <- (map_id run_options) at 2. apply map_ext. reflexivity. }
  rewrite E in G. rewrite G; trivial; try apply H. now apply pairs_positional.
Qed.

Lemma get_fill : forall kv n, pairs_ok kv -> In n all_names -> exists a,
  get (map (fill kv) run_options) n = get_string (fill kv a) /\ In a run_options /\ a_names a = [n] /\
  a_values a = [].
Proof.
  intros kv n H Hn. destruct (all_names_pos _ Hn) as (i & a & Hi & Ha & En & Ex & Va & Us & Po & Un).
  exists a. unfold get. rewrite find_fill, Hi, nth_error_map, Ha. cbn [option_map].
  split; [reflexivity|]. split; [exact (nth_error_In _ _ Ha)|]. now split.
Qed.

Lemma get_given : forall kv n v, pairs_ok kv -> In (n, v) kv ->
  get (map (fill kv) run_options) n = Ok v.
Proof.
  intros kv n v H I. destruct (get_fill kv n H) as (a & E & Ia & En & Va).
  { apply H. change n with (fst (n, v)). now apply in_map. }
  rewrite E, (fill_In kv a n v); trivial; [|apply H].
  unfold get_string, filled; cbn. now rewrite Va.
Qed.

Lemma get_default : forall kv n, pairs_ok kv -> In n optional_names -> fresh n kv ->
  get (map (fill kv) run_options) n = Ok EMPTYSTR.
Proof.
  intros kv n H I F.
  assert (Hn : In n all_names) by (unfold all_names; apply in_or_app; right; now right).
  destruct (get_fill kv n H Hn) as (a & E & Ia & En & Va).
  rewrite E, (fill_fresh kv a n En F).
  cbn in I, Ia.
  repeat (destruct Ia as [<-|Ia];
    [ try reflexivity; cbn in En; injection En as <-;
      exfalso; repeat (destruct I as [I|I]; [discriminate I|]); contradiction I | ]).
  contradiction.
Qed.

Lemma get_coll_default : forall kv, pairs_ok kv -> fresh "--coll-name" kv ->
  get (map (fill kv) run_options) "--coll-name" = Throw "bad any_cast".
Proof.
  intros kv H F.
  destruct (get_fill kv "--coll-name" H) as (a & E & Ia & En & Va).
  { unfold all_names. apply in_or_app; right; now left. }
  rewrite E, (fill_fresh kv a _ En F).
  cbn in Ia. repeat (destruct Ia as [<-|Ia]; [ try reflexivity; discriminate En | ]). contradiction.
Qed.

Lemma valid_fill : forall kv, pairs_ok kv ->
  (forallb valid (map (fill kv) run_options) = true <-> incl required_names (map fst kv)).
Proof.
  intros kv H.
  assert (G : forall a n, In a run_options -> a_names a = [n] -> In n all_names ->
     (valid (fill kv a) = true <-> (In n (map fst kv) \/ valid a = true))).
  { intros a n Ia En Hn.
    destruct (in_dec string_dec n (map fst kv)) as [I|I].
    - split; [now left|intros _].
      apply in_map_iff in I as ([n' v] & En' & I); cbn in En'; subst n'.
      rewrite (fill_In kv a n v); trivial; [|apply H].
      cbn in Ia. repeat (destruct Ia as [<-|Ia]; [reflexivity|]). contradiction.
    - rewrite (fill_fresh kv a n En I). tauto. }
  split.
  - intros V n Hn. rewrite forallb_forall in V.
    assert (Ha : exists a, In a run_options /\ a_names a = [n] /\ valid a = false).
    { exists (needed n). cbn in Hn.
      repeat (destruct Hn as [<-|Hn]; [split; [cbn; tauto|split; reflexivity]|]). contradiction. }
    destruct Ha as (a & Ia & En & Va).
    assert (Hn2 : In n all_names) by (unfold all_names; apply in_or_app; now left).
    destruct (proj1 (G a n Ia En Hn2)) as [?|C]; trivial; [|congruence].
    apply V. now apply in_map.
  - intro R. apply forallb_forall. intros b Hb. apply in_map_iff in Hb as (a & <- & Ia).
    assert (F0 : forall k, ~ In k all_names -> fresh k kv).
    { intros k Hk C. apply Hk. now apply H. }
    assert (Ia0 := Ia).
    cbn in Ia.
    repeat (destruct Ia as [<-|Ia];
      [ first
        [ eapply G; [exact Ia0 | reflexivity | cbn; tauto | first [right; reflexivity | left; apply R; cbn; tauto]]
        | (* flags *)
          unfold fill; destruct (find _ kv) as [p|] eqn:Fd; [|reflexivity];
          exfalso; apply find_some in Fd as [Ip Hp]; cbn in Hp;
          apply (in_map fst) in Ip; apply orb_true_iff in Hp;
          destruct Hp as [Hp|Hp]; [|rewrite orb_false_r in Hp];
          apply String.eqb_eq in Hp; rewrite Hp in Ip; revert Ip; apply F0; cbn;
          intro C; repeat (destruct C as [C|C]; [discriminate C|]); contradiction ] | ]).
    contradiction.
Qed.

Lemma parse_pairs : forall kv, pairs_ok kv -> incl required_names (map fst kv) ->
  exists st, parse_args run_options (flat kv) = Parsed st /\
    (forall n v, In (n, v) kv -> get st n = Ok v) /\
    (forall n, In n optional_names -> ~ In n (map fst kv) -> get st n = Ok EMPTYSTR) /\
    (~ In "--coll-name" (map fst kv) -> get st "--coll-name" = Throw "bad any_cast").
Proof.
  intros kv H R. exists (map (fill kv) run_options).
  pose proof (parse_prefix kv [] H) as P. rewrite app_nil_r in P.
  repeat split.
  - unfold parse_args. rewrite P. unfold go. cbn [length parse_loop]. now rewrite (proj2 (valid_fill kv H) R).
  - intros; now apply get_given.
  - intros; now apply get_default.
  - intros; now apply get_coll_default.
Qed.

Lemma parse_missing : forall kv n, pairs_ok kv -> In n required_names -> ~ In n (map fst kv) ->
  parse_args run_options (flat kv) = Invalid.
Proof.
  intros kv n H Hn F. pose proof (parse_prefix kv [] H) as P. rewrite app_nil_r in P.
  unfold parse_args. rewrite P. unfold go. cbn [length parse_loop].
  destruct (forallb valid (map (fill kv) run_options)) eqn:V; trivial.
  elim F. now apply (proj1 (valid_fill kv H) V).
Qed.

Lemma go_to_parse : forall kv w r, pairs_ok kv -> go kv w = r ->
  match r with Parsed _ => True | e => parse_args run_options (flat kv ++ w)%list = e end.
Proof.
  intros kv w r H G. unfold parse_args. rewrite parse_prefix, G by trivial. destruct r; trivial.
Qed.

Lemma parse_stray : forall kv w rest, pairs_ok kv -> is_positional w = true ->
  parse_args run_options (flat kv ++ w :: rest)%list = Invalid.
Proof.
  intros kv w rest H P. apply (go_to_parse kv (w :: rest) Invalid H).
  unfold go. cbn [length parse_loop]. now rewrite P.
Qed.

Lemma parse_unknown : forall kv k rest, pairs_ok kv -> ~ In (String "-" (String "-" k))
    ("--help" :: "--version" :: all_names) ->
  parse_args run_options (flat kv ++ String "-" (String "-" k) :: rest)%list = Invalid.
Proof.
  intros kv k rest H N. apply (go_to_parse kv _ Invalid H).
  unfold go. cbn [length parse_loop is_positional Ascii.eqb Bool.eqb andb is_decimal_literal is_digit].
  rewrite find_fill.
  assert (F : find_arg (String "-" (String "-" k)) run_options = None).
  { destruct (find_arg _ run_options) as [i|] eqn:F; trivial. exfalso.
    apply find_arg_spec in F as (a & Ha & Hn). apply nth_error_In in Ha.
    apply N. unfold has_name in Hn. apply existsb_exists in Hn as (x & Ix & Ex).
    apply String.eqb_eq in Ex. rewrite <- Ex in Ix. clear Ex N x.
    cbn in Ha. repeat (destruct Ha as [<-|Ha];
      [ cbn [a_names flag needed optional] in Ix;
        repeat (destruct Ix as [Ix|Ix]; [first [discriminate Ix | rewrite <- Ix; cbn; tauto] |]);
        contradiction | ]).
    contradiction. }
  change (is_positional (String "-" (String "-" k))) with false. cbn iota. now rewrite F.
Qed.

Lemma parse_duplicate : forall kv k rest, pairs_ok kv -> In k (map fst kv) ->
  parse_args run_options (flat kv ++ k :: rest)%list = Invalid.
Proof.
  intros kv k rest H I. apply (go_to_parse kv _ Invalid H).
  assert (Hk : In k all_names) by now apply H.
  destruct (all_names_pos _ Hk) as (i & a & Hi & Ha & En & Ex & Va & Us & Po & Un).
  unfold go. cbn [length parse_loop]. rewrite Po, find_fill, Hi.
  unfold use_arg. rewrite nth_error_map, Ha. cbn [option_map].
  apply in_map_iff in I as ([k' v] & E & I); cbn in E; subst k'.
  rewrite (fill_In kv a k v); trivial. apply H.
Qed.

Lemma parse_value : forall kv k v rest, pairs_ok kv -> In k all_names -> is_positional v = false ->
  parse_args run_options (flat kv ++ k :: v :: rest)%list = Invalid.
Proof.
  intros kv k v rest H Hk Hv.
  destruct (in_dec string_dec k (map fst kv)) as [I|F]; [now apply parse_duplicate|].
  apply (go_to_parse kv _ Invalid H).
  destruct (all_names_pos _ Hk) as (i & a & Hi & Ha & En & Ex & Va & Us & Po & Un).
  unfold go. cbn [length parse_loop]. rewrite Po, find_fill, Hi.
  unfold use_arg. rewrite nth_error_map, Ha. cbn [option_map].
  rewrite (fill_fresh kv a k En F). unfold consume. now rewrite Us, Ex, Hv.
Qed.

Lemma fill_flag : forall kv a, pairs_ok kv -> (forall n, In n (a_names a) -> ~ In n all_names) ->
  fill kv a = a.
Proof.
  intros kv a H N. unfold fill. destruct (find _ kv) as [p|] eqn:Fd; trivial. exfalso.
  apply find_some in Fd as [Ip Hp]. unfold has_name in Hp. apply existsb_exists in Hp as (x & Ix & Ex).
  apply String.eqb_eq in Ex. apply (in_map fst) in Ip. rewrite Ex in Ip. apply (N x Ix). now apply H.
Qed.

Lemma parse_help : forall kv k rest, pairs_ok kv -> In k ["-h"; "--help"; "-v"; "--version"] ->
  parse_args run_options (flat kv ++ k :: rest)%list = ExitOk.
Proof.
  intros kv k rest H I. apply (go_to_parse kv _ ExitOk H). unfold go.
  assert (NA : forall n, In n ["-h"; "--help"; "-v"; "--version"] -> ~ In n all_names).
  { intros n Hn C. cbn in Hn. repeat (destruct Hn as [<-|Hn];
      [cbn in C; repeat (destruct C as [C|C]; [discriminate C|]); contradiction|]). contradiction. }
  assert (E0 : fill kv (flag ["-h"; "--help"]) = flag ["-h"; "--help"]).
  { apply fill_flag; trivial. cbn [a_names flag]. intros n Hn; apply NA. cbn in *; tauto. }
  assert (E1 : fill kv (flag ["-v"; "--version"]) = flag ["-v"; "--version"]).
  { apply fill_flag; trivial. cbn [a_names flag]. intros n Hn; apply NA. cbn in *; tauto. }
  cbn [length parse_loop]. rewrite find_fill.
  cbn in I. repeat (destruct I as [<-|I]; [ cbn; rewrite ?E0, ?E1; reflexivity | ]). contradiction.
Qed.

Lemma parse_trailing : forall kv k, pairs_ok kv -> incl required_names (map fst kv) ->
  In k optional_names -> ~ In k (map fst kv) ->
  exists st, parse_args run_options (flat kv ++ [k])%list = Parsed st /\ get st k = Ok EMPTYSTR /\
    (forall n v, In (n, v) kv -> get st n = Ok v).
Proof.
  intros kv k H R I F.
  assert (Hk : In k all_names) by (unfold all_names; apply in_or_app; right; now right).
  destruct (all_names_pos _ Hk) as (i & a & Hi & Ha & En & Ex & Va & Us & Po & Un).
  assert (Da : a_default a = Some (AStr EMPTYSTR) /\ a_required a = false).
  { apply nth_error_In in Ha. cbn in Ha, I.
    repeat (destruct Ha as [<-|Ha];
      [ first [ now split
              | exfalso; cbn in En; first [discriminate En | injection En as <-];
                repeat (destruct I as [I|I]; [discriminate I|]); contradiction I ] | ]).
    contradiction. }
  destruct Da as [Da Ra].
  set (a' := mkArg (a_names a) (a_default a) (a_required a) (a_exits a) (a_values a) true).
  exists (upd (map (fill kv) run_options) i a').
  assert (G : go kv [k] = Parsed (upd (map (fill kv) run_options) i a')).
  { unfold go. cbn [length parse_loop]. rewrite Po, find_fill, Hi.
    unfold use_arg. rewrite nth_error_map, Ha. cbn [option_map].
    rewrite (fill_fresh kv a k En F). unfold a'. clear -Us Ex Da. destruct a; cbn in *; subst; reflexivity. }
  assert (FN : forall n j l b, nth_error l j = Some b -> a_names b = a_names a' ->
     find_arg n (upd l j a') = find_arg n l).
  { clear. induction j as [|j IH]; intros [|x l] b Hj Hb; try discriminate; cbn in *.
    - injection Hj as ->. unfold has_name. now rewrite Hb.
    - destruct (has_name n x); trivial. now rewrite (IH l b). }
  assert (Hj : nth_error (map (fill kv) run_options) i = Some a).
  { rewrite nth_error_map, Ha; cbn. now rewrite (fill_fresh kv a k En F). }
  assert (NU : forall A (l : list A) j j' x, j <> j' -> nth_error (upd l j x) j' = nth_error l j').
  { clear. induction l as [|h l IH]; intros [|j] [|j'] x N; try reflexivity; cbn; try lia.
    apply IH; lia. }
  assert (NS : forall A (l : list A) j x y, nth_error l j = Some y -> nth_error (upd l j x) j = Some x).
  { clear. induction l as [|h l IH]; intros [|j] x y Hy; try discriminate; cbn in *; trivial. eauto. }
  repeat split.
  - unfold parse_args. rewrite parse_prefix, G by trivial.
    replace (forallb valid (upd (map (fill kv) run_options) i a')) with true; trivial.
    symmetry. apply forallb_forall. intros b Hb. apply In_nth_error in Hb as [j Hb].
    destruct (Nat.eq_dec i j) as [<-|Nij].
    + rewrite (NS _ _ _ _ _ Hj) in Hb. injection Hb as <-. unfold valid, a'; cbn.
      rewrite Ex, Va, Da, Ra. reflexivity.
    + rewrite NU in Hb by trivial. pose proof (proj2 (valid_fill kv H) R) as V.
      rewrite forallb_forall in V. apply V. eapply nth_error_In; eauto.
  - unfold get. rewrite (FN k i _ a Hj eq_refl), find_fill, Hi, (NS _ _ _ _ _ Hj).
    unfold get_string, a'; cbn. now rewrite Va, Da.
  - intros n v In1. pose proof (get_given kv n v H In1) as Gn. unfold get in Gn |- *.
    rewrite (FN n i _ a Hj eq_refl). rewrite find_fill in *.
    destruct (find_arg n run_options) as [j|] eqn:Fj; trivial.
    rewrite NU; trivial. intros <-.
    apply F. apply find_arg_spec in Fj as (b & Hb & Hn). rewrite Ha in Hb. injection Hb as <-.
    unfold has_name in Hn. rewrite En in Hn. cbn in Hn. rewrite orb_false_r in Hn.
    apply String.eqb_eq in Hn. subst n. change k with (fst (k, v)). now apply in_map.
Qed.

Lemma parse_trailing_bad : forall kv k, pairs_ok kv -> In k ("--coll-name" :: required_names) ->
  ~ In k (map fst kv) -> parse_args run_options (flat kv ++ [k])%list = Invalid.
Proof.
  intros kv k H I F.
  assert (Hk : In k all_names) by (unfold all_names; apply in_or_app; destruct I as [<-|I]; [right; now left | now left]).
  destruct (all_names_pos _ Hk) as (i & a & Hi & Ha & En & Ex & Va & Us & Po & Un).
  assert (Hj : nth_error (map (fill kv) run_options) i = Some a).
  { rewrite nth_error_map, Ha; cbn. now rewrite (fill_fresh kv a k En F). }
  assert (G : go kv [k] = match a_default a with
      | Some _ => Parsed (upd (map (fill kv) run_options) i
           (mkArg (a_names a) (a_default a) (a_required a) (a_exits a) (a_values a) true))
      | None => Invalid end).
  { unfold go. cbn [length parse_loop]. rewrite Po, find_fill, Hi.
    unfold use_arg. rewrite Hj. clear -Us Ex. destruct a as [? [?|] ? ? ? ?]; cbn in *; subst; reflexivity. }
  destruct (a_default a) as [d|] eqn:Da.
  - assert (Ra : a_required a = true).
    { apply nth_error_In in Ha. cbn in Ha, I.
      repeat (destruct Ha as [<-|Ha];
        [ first [ reflexivity
              | exfalso; cbn in En; first [discriminate En | injection En as <-];
                repeat (destruct I as [I|I]; [discriminate I|]); contradiction I ] | ]).
      contradiction. }
    unfold parse_args. rewrite parse_prefix, G by trivial.
    set (a' := mkArg _ _ _ _ _ _).
    destruct (forallb valid (upd (map (fill kv) run_options) i a')) eqn:V; trivial. exfalso.
    rewrite forallb_forall in V.
    assert (Ia : In a' (upd (map (fill kv) run_options) i a')).
    { revert Hj. generalize (map (fill kv) run_options). clear. induction i as [|i IH]; intros [|x l] Hj; try discriminate; cbn in *.
      - now left.
      - right; auto. }
    specialize (V a' Ia). unfold valid, a' in V; cbn in V. rewrite Ex, Va, Ra in V. discriminate.
  - exact (go_to_parse kv [k] Invalid H G).
Qed.
