(** * Reading what the grammar allows *)
From Coq Require Import String Ascii.
From Coq Require Import List NArith ZArith Bool Lia.
From Verif Require Import Schema WireFacts Text TextSpec.
Import ListNotations.
Local Open Scope N_scope.

(** ** Names are distinct *)

Fixpoint distinct_names (l : list string) : bool :=
  match l with [] => true | a :: r => negb (existsb (String.eqb a) r) && distinct_names r end.

Lemma names_table : forallb (fun e => distinct_names (map fname (snd e))) types = true.
Proof. vm_compute. reflexivity. Qed.

Lemma distinct_find : forall l f, distinct_names (map fname l) = true -> In f l -> find (fun g => (fname g =? fname f)%string) l = Some f.
Proof.
  induction l as [|a l IH]; cbn; intros f D I; [tauto|]. apply andb_prop in D as [D1 D2].
  destruct (String.eqb_spec (fname a) (fname f)) as [E|E].
  - destruct I as [<-|I]; [reflexivity|]. exfalso. apply negb_true_iff in D1.
    assert (X : existsb (String.eqb (fname a)) (map fname l) = true); [|congruence].
    apply existsb_exists. exists (fname f). split; [apply in_map, I|]. rewrite E. apply String.eqb_refl.
  - destruct I as [->|I]; [congruence|]. apply IH; assumption.
Qed.

Lemma field_named_in : forall t f, In f (fields t) -> field_named t (fname f) = Some f.
Proof.
  intros t f I. unfold field_named. apply distinct_find; [|exact I].
  destruct (fields_in t) as [->|(e & Ie & ->)]; [reflexivity|]. exact (proj1 (forallb_forall _ _) names_table e Ie).
Qed.

(** ** Values *)

Definition no_string (ts : list token) : Prop := match ts with TStr _ :: _ => False | _ => True end.

Lemma more_strings_ok : forall ss r, no_string r -> more_strings (map TStr ss ++ r) = (concat ss, r).
Proof.
  induction ss as [|s ss IH]; intros r N; cbn.
  - destruct r as [|[]]; try reflexivity. destruct N.
  - rewrite IH by exact N. reflexivity.
Qed.

Lemma lower_letter : forall c d, same_letter c d -> lower c = d.
Proof.
  intros c d [D H]. unfold lower, between. destruct H as [->|H].
  - destruct (N.leb_spec (code d) 90); [lia|]. rewrite andb_false_r. reflexivity.
  - rewrite (proj2 (N.leb_le 65 (code c))), (proj2 (N.leb_le (code c) 90)) by lia. cbn [andb]. rewrite H. apply ascii_N_embedding.
Qed.

Lemma lower_word : forall w s, any_case w s -> string_of_list_ascii (map lower s) = w.
Proof.
  intros w s H. rewrite <- (string_of_list_ascii_of_string w). f_equal. unfold any_case in H. induction H as [|c d s l A F IH]; [reflexivity|].
  cbn [map]. rewrite IH. f_equal. apply lower_letter, A.
Qed.

Lemma scalar_ok : forall k v ts r, scalar_written k v ts -> no_string r -> read_scalar k (ts ++ r) = Some (v, r).
Proof.
  intros k v ts r W N. destruct W as [n H|n H|n H|n H|s H|s H|n|n|m e|m e|s H|s H|s H|s ss]; cbn [app]; try reflexivity.
  - unfold read_scalar, minus, sym. cbn. rewrite (proj2 (N.leb_le n 2147483647)); [reflexivity|]. lia.
  - unfold read_scalar, minus. change (sym 45 (TSym "-")) with true. cbn iota. unfold read_int. rewrite (proj2 (N.leb_le n (2 ^ 31)) H). reflexivity.
  - unfold read_scalar, read_int. rewrite (proj2 (N.leb_le n (2 ^ 32 - 1))); [reflexivity|]. lia.
  - unfold read_scalar, read_int. rewrite (proj2 (N.leb_le n 1)); [reflexivity|]. lia.
  - destruct H as [<-|[<-|[<-|[]]]]; reflexivity.
  - destruct H as [<-|[<-|[<-|[]]]]; reflexivity.
  - unfold read_scalar, minus, word. cbn [sym]. cbn iota. destruct H as [H|H]; rewrite (lower_word _ _ H); reflexivity.
  - unfold read_scalar, minus, word. change (sym 45 (TSym "-")) with true. cbn iota. destruct H as [H|H]; rewrite (lower_word _ _ H); reflexivity.
  - unfold read_scalar, minus, word. cbn [sym]. cbn iota. rewrite (lower_word _ _ H). reflexivity.
  - change (map TStr (s :: ss) ++ r) with (TStr s :: map TStr ss ++ r). unfold read_scalar.
    change (TStr s :: map TStr ss ++ r) with (map TStr (s :: ss) ++ r). rewrite more_strings_ok by exact N. reflexivity.
Qed.

Lemma scalar_head : forall k v ts, scalar_written k v ts -> exists x r, ts = x :: r /\ sym 91 x = false /\ sym 58 x = false /\ sym 93 x = false /\ is_msg k = false.
Proof. intros k v ts W. destruct W; eexists; eexists; (split; [reflexivity|]); repeat split; reflexivity. Qed.

Lemma value_head : forall k v ts, value_written k v ts -> exists x r, ts = x :: r /\ sym 91 x = false /\ sym 58 x = false /\ sym 93 x = false.
Proof.
  intros k v ts W. destruct W as [k v ts S|t m ts W O|t m ts W O].
  - destruct (scalar_head _ _ _ S) as (x & r & A & B & C & D & _). exists x, r. auto.
  - eexists; eexists; split; [reflexivity|]. repeat split; reflexivity.
  - eexists; eexists; split; [reflexivity|]. repeat split; reflexivity.
Qed.

Lemma set_new : forall f v m, frep f = true \/ entries (fnum f) m = [] -> set f v m = m ++ [(fnum f, v)].
Proof.
  intros f v m H. unfold set. destruct (frep f); [reflexivity|]. destruct H as [H|H]; [discriminate|]. f_equal.
  unfold entries in H. apply map_eq_nil in H. induction m as [|e m IH]; [reflexivity|]. cbn in *.
  destruct (fst e =? fnum f); [discriminate|]. cbn. f_equal. apply IH, H.
Qed.

Definition sub (fuel : nat) (t' : string) (c : N) : list token -> outcome := read_fields fuel t' (Some c) [].

(** What a message continues with: a name, the end, or the closing character. *)
Definition stop (ts : list token) : Prop :=
  match ts with
  | [] => True
  | x :: _ => match x with TStr _ => False | _ => sym 59 x = false /\ sym 44 x = false end
  end.

Lemma stop_string : forall ts, stop ts -> no_string ts.
Proof. intros [|[]]; cbn; tauto. Qed.

Definition P_value (k : kind) (v : tval) (ts : list token) : Prop :=
  forall f m rest fuel, fkind f = k -> frep f = true \/ entries (fnum f) m = [] -> (length ts <= fuel)%nat -> no_string rest ->
  one_value (sub fuel) f m (ts ++ rest) = (m ++ [(fnum f, v)], Some rest).
Definition P_elements (k : kind) (vs : list tval) (ts : list token) : Prop :=
  forall f m rest fuel n, fkind f = k -> frep f = true -> (length ts <= fuel)%nat -> (length ts <= n)%nat ->
  elements (sub fuel) n f m (ts ++ rest) = (m ++ map (pair (fnum f)) vs, Some rest).
Definition P_field (f : field) (vs : list tval) (fts : list token) : Prop :=
  forall m rest fuel, frep f = true \/ entries (fnum f) m = [] -> (length fts <= fuel)%nat -> no_string rest ->
  exists r1, colon (fkind f) (fts ++ rest) = Some r1 /\ values (sub fuel) f m r1 = (m ++ map (pair (fnum f)) vs, Some rest).
Definition P_written (t : string) (m : tmessage) (ts : list token) : Prop :=
  forall m0 close tail fuel, once t (m0 ++ m) -> stop tail -> (length ts < fuel)%nat ->
  exists fuel', (fuel - length ts <= fuel')%nat /\
    read_fields fuel t close m0 (ts ++ tail) = read_fields fuel' t close (m0 ++ m) tail.

Lemma once_front : forall t f vs m0 m, In f (fields t) -> once t (m0 ++ map (pair (fnum f)) vs ++ m) -> vs <> [] -> frep f = false ->
  entries (fnum f) m0 = [].
Proof.
  intros t f vs m0 m F [O _] V R. specialize (O f F R). rewrite !entries_app, entries_self, !app_length in O.
  destruct (entries (fnum f) m0); [reflexivity|]. destruct vs; [congruence|]. cbn in O. lia.
Qed.

Lemma field_vs : forall f vs fts, field_written f vs fts -> frep f = true \/ vs <> [].
Proof. intros f vs fts W. destruct W; [right; discriminate|left; assumption|left; assumption]. Qed.

Lemma has_none : forall f m, entries (fnum f) m = [] -> has f m = false.
Proof. intros f m H. unfold has. rewrite H. reflexivity. Qed.

Lemma not_taken : forall t f vs m0 m, In f (fields t) -> once t (m0 ++ map (pair (fnum f)) vs ++ m) -> vs <> [] ->
  (fone f <> None -> frep f = false) -> one_taken t f m0 = false.
Proof.
  intros t f vs m0 m F O V R. unfold one_taken. destruct (fone f) as [o|] eqn:E; [|reflexivity].
  destruct (existsb _ (fields t)) eqn:X; [|reflexivity]. exfalso. apply existsb_exists in X as (g & G & X).
  destruct (fone g) as [o'|] eqn:E'; [|discriminate]. apply andb_prop in X as [X1 X2]. apply String.eqb_eq in X1. subst o'.
  unfold has in X2. apply existsb_exists in X2 as (w & W & _). apply entries_in in W.
  destruct vs as [|v vs]; [congruence|]. pose proof O as [O1 O2].
  assert (f = g) as <-.
  { apply (O2 f g o v w F G E E').
    - apply in_or_app. right. apply in_or_app. left. left. reflexivity.
    - apply in_or_app. left. exact W. }
  apply entries_in in W. rewrite (once_front t f (v :: vs) m0 m F O) in W; [destruct W|discriminate|apply R; discriminate].
Qed.

Lemma oneof_single : forall t f, In f (fields t) -> fone f <> None -> frep f = false.
Proof. intros t f F H. apply (proj2 (field_good t f F)), H. Qed.

Lemma name_back : forall s, string_of_list_ascii (list_ascii_of_string s) = s.
Proof. apply string_of_list_ascii_of_string. Qed.

Lemma skip_sep : forall sep r, separator sep -> stop r -> skip_separator (sep ++ r) = r.
Proof.
  intros sep r [->|[->| ->]] S; [|reflexivity|reflexivity]. destruct r as [|x r]; [reflexivity|]. cbn [app skip_separator].
  destruct x; try reflexivity. destruct S as [S1 S2]. rewrite S1, S2. reflexivity.
Qed.

Lemma written_stop : forall t m ts tail, written t m ts -> stop tail -> stop (ts ++ tail).
Proof. intros t m ts tail W S. destruct W; [exact S|]. cbn. split; reflexivity. Qed.

Lemma sep_no_string : forall sep r, separator sep -> no_string r -> no_string (sep ++ r).
Proof. intros sep r [->|[->| ->]] S; [exact S|exact Logic.I|exact Logic.I]. Qed.

Lemma colon_ok : forall f c x r, colon_written f c -> sym 58 x = false -> colon (fkind f) (c ++ x :: r) = Some (x :: r).
Proof. intros f c x r [->|[-> M]] S; cbn [app colon]; [reflexivity|]. rewrite S, M. reflexivity. Qed.

Lemma read_written :
  (forall t m ts, written t m ts -> P_written t m ts) /\
  (forall f vs fts, field_written f vs fts -> P_field f vs fts) /\
  (forall k v ts, value_written k v ts -> P_value k v ts) /\
  (forall k vs ts, elements_written k vs ts -> P_elements k vs ts).
Proof.
  assert (H1 : forall t, P_written t [] []).
  { intros t m0 close tail fuel O S L. exists fuel. split; [lia|]. rewrite app_nil_r. reflexivity. }
  assert (H2 : forall t f vs fts sep m ts, In f (fields t) -> field_written f vs fts -> P_field f vs fts -> separator sep ->
     written t m ts -> P_written t m ts -> P_written t (map (pair (fnum f)) vs ++ m) (word_of (fname f) :: fts ++ sep ++ ts)).
  { intros t f vs fts sep m ts F FW PF SP W PW m0 close tail fuel O S L. cbn [app length] in L |- *. rewrite !app_length in L.
    destruct fuel as [|fuel]; [lia|]. cbn [read_fields].
    replace (match close with None => _ | Some c => _ end) with
      (match field_named t (string_of_list_ascii (list_ascii_of_string (fname f))) with
          | None => (m0, None)
          | Some f =>
              if negb (frep f) && has f m0 then (m0, None)
              else if one_taken t f m0 then (m0, None)
              else
                match colon (fkind f) ((fts ++ sep ++ ts) ++ tail) with
                | None => (m0, None)
                | Some r1 =>
                    match values (fun t' c => read_fields fuel t' (Some c) []) f m0 r1 with
                    | (m', None) => (m', None)
                    | (m', Some r2) => read_fields fuel t close m' (skip_separator r2)
                    end
                end
          end) by (destruct close; reflexivity).
    rewrite name_back, field_named_in by exact F.
    assert (E0 : frep f = true \/ entries (fnum f) m0 = []).
    { destruct (frep f) eqn:R; [left; reflexivity|right]. destruct (field_vs _ _ _ FW) as [X|X]; [congruence|]. exact (once_front t f vs m0 m F O X R). }
    assert (E1 : negb (frep f) && has f m0 = false) by (destruct E0 as [->|E0]; [reflexivity|rewrite (has_none _ _ E0); apply andb_false_r]).
    assert (E2 : one_taken t f m0 = false).
    { destruct (fone f) as [o|] eqn:Q; [|unfold one_taken; rewrite Q; reflexivity].
      assert (R : frep f = false) by (apply (oneof_single t f F); congruence).
      destruct (field_vs _ _ _ FW) as [X|X]; [congruence|]. apply (not_taken t f vs m0 m F O X). intros _. exact R. }
    rewrite E1, E2, <- !app_assoc.
    destruct (PF m0 (sep ++ ts ++ tail) fuel E0 ltac:(lia)) as (r1 & C & V).
    { apply sep_no_string; [exact SP|]. apply stop_string. apply (written_stop t m ts tail W S). }
    rewrite C. change (fun t' c => read_fields fuel t' (Some c) []) with (sub fuel). rewrite V.
    rewrite skip_sep; [|exact SP|apply (written_stop t m ts tail W S)].
    destruct (PW (m0 ++ map (pair (fnum f)) vs) close tail fuel) as (fuel' & Lf & E); [rewrite <- app_assoc; exact O|exact S|lia|].
    exists fuel'. split; [cbn [length]; rewrite !app_length; lia|]. rewrite E, <- app_assoc. reflexivity. }
  assert (H3 : forall f c v ts, colon_written f c -> value_written (fkind f) v ts -> P_value (fkind f) v ts -> P_field f [v] (c ++ ts)).
  { intros f c v ts CW VW PV m rest fuel E L NS. destruct (value_head _ _ _ VW) as (x & r & Ets & A & B & _).
    exists (ts ++ rest). rewrite <- app_assoc. split; [rewrite Ets; cbn [app]; apply colon_ok; assumption|].
    pose proof (PV f m rest fuel eq_refl E) as Q. rewrite app_length in L. specialize (Q ltac:(lia) NS). cbn [map].
    rewrite Ets in *. cbn [app] in *. unfold values. rewrite A, andb_false_r. exact Q. }
  assert (H4 : forall f c, frep f = true -> colon_written f c -> P_field f [] (c ++ [TSym "["; TSym "]"])).
  { intros f c R CW m rest fuel E L NS. rewrite <- app_assoc. cbn [app]. exists (TSym "[" :: TSym "]" :: rest).
    split; [apply colon_ok; [exact CW|reflexivity]|]. unfold values. rewrite R. cbn. rewrite app_nil_r. reflexivity. }
  assert (H5 : forall f c vs ts, frep f = true -> colon_written f c -> elements_written (fkind f) vs ts -> P_elements (fkind f) vs ts ->
     P_field f vs (c ++ TSym "[" :: ts)).
  { intros f c vs ts R CW EW PE m rest fuel E L NS. rewrite <- app_assoc. cbn [app]. exists (TSym "[" :: ts ++ rest).
    split; [apply colon_ok; [exact CW|reflexivity]|]. rewrite app_length in L. cbn [length] in L.
    pose proof (PE f m rest fuel (length (ts ++ rest)) eq_refl R ltac:(lia)) as Q. rewrite app_length in Q. specialize (Q ltac:(lia)). rewrite <- app_length in Q.
    assert (X : exists x r, ts = x :: r /\ sym 93 x = false).
    { destruct EW as [k v ts VW|k v vs ts ts' VW EW]; destruct (value_head _ _ _ VW) as (x & r & -> & _ & _ & Z); exists x; eexists; (split; [reflexivity|exact Z]). }
    destruct X as (x & r & Ets & Z). unfold values. rewrite R. change (sym 91 (TSym "[")) with true. cbn [andb]. rewrite Ets in *. cbn [app] in *. rewrite Z. exact Q. }
  assert (H6 : forall k v ts, scalar_written k v ts -> P_value k v ts).
  { intros k v ts S f m rest fuel K E L NS. destruct (scalar_head _ _ _ S) as (_ & _ & _ & _ & _ & _ & M).
    pose proof (scalar_ok k v ts rest S NS) as Q. unfold one_value. rewrite K. destruct k; try discriminate; rewrite Q, set_new by exact E; reflexivity. }
  assert (H7 : forall t m ts, written t m ts -> P_written t m ts -> once t m -> P_value (KMsg t) (XMsg m) (TSym "{" :: ts ++ [TSym "}"])).
  { intros t m ts W PW O f m0 rest fuel K E L NS. unfold one_value. rewrite K. cbn [app length] in *. rewrite app_length in L. cbn [length] in L.
    change (sym 123 (TSym "{")) with true. cbn iota. unfold sub. rewrite <- app_assoc. cbn [app].
    destruct (PW [] (Some 125) (TSym "}" :: rest) fuel O) as (fuel' & Lf & Q); [split; reflexivity|lia|]. rewrite Q. cbn [app].
    destruct fuel' as [|fuel']; [lia|]. cbn [read_fields]. cbn. rewrite set_new by exact E. reflexivity. }
  assert (H8 : forall t m ts, written t m ts -> P_written t m ts -> once t m -> P_value (KMsg t) (XMsg m) (TSym "<" :: ts ++ [TSym ">"])).
  { intros t m ts W PW O f m0 rest fuel K E L NS. unfold one_value. rewrite K. cbn [app length] in *. rewrite app_length in L. cbn [length] in L.
    change (sym 123 (TSym "<")) with false. change (sym 60 (TSym "<")) with true. cbn iota. unfold sub. rewrite <- app_assoc. cbn [app].
    destruct (PW [] (Some 62) (TSym ">" :: rest) fuel O) as (fuel' & Lf & Q); [split; reflexivity|lia|]. rewrite Q. cbn [app].
    destruct fuel' as [|fuel']; [lia|]. cbn [read_fields]. cbn. rewrite set_new by exact E. reflexivity. }
  assert (H9 : forall k v ts, value_written k v ts -> P_value k v ts -> P_elements k [v] (ts ++ [TSym "]"])).
  { intros k v ts VW PV f m rest fuel n K R L Ln. rewrite app_length in L, Ln. cbn [length] in *. destruct n as [|n]; [lia|].
    cbn [elements]. rewrite <- app_assoc. rewrite (PV f m _ fuel K (or_introl R) ltac:(lia)); [|exact Logic.I]. cbn. reflexivity. }
  assert (H10 : forall k v vs ts ts', value_written k v ts -> P_value k v ts -> elements_written k vs ts' -> P_elements k vs ts' ->
     P_elements k (v :: vs) (ts ++ TSym "," :: ts')).
  { intros k v vs ts ts' VW PV EW PE f m rest fuel n K R L Ln. rewrite app_length in L, Ln. cbn [length] in *. destruct n as [|n]; [lia|].
    cbn [elements]. rewrite <- app_assoc. rewrite (PV f m _ fuel K (or_introl R) ltac:(lia)); [|exact Logic.I]. cbn [app].
    change (sym 93 (TSym ",")) with false. change (sym 44 (TSym ",")) with true. cbn iota.
    rewrite (PE f _ rest fuel n K R ltac:(lia) ltac:(lia)). rewrite <- app_assoc. reflexivity. }
  repeat split; [eapply (written_mind P_written P_field P_value P_elements)|eapply (field_mind P_written P_field P_value P_elements)|
    eapply (value_mind P_written P_field P_value P_elements)|eapply (elements_mind P_written P_field P_value P_elements)]; eauto.
Qed.
