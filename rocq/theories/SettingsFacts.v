(** * Reading the settings *)
From Coq Require Import String Ascii.
From Coq Require Import List NArith ZArith Bool Reals Lia.
From Verif Require Import Schema WireFacts Text TextSpec TextFacts Mixings Univ Settings SettingsSpec.
Import ListNotations.

(** The nested messages are given once, too. *)
Definition nested (t' : string) (m' : tmessage) : Prop := exists ts, written t' m' ts /\ once t' m'.

Lemma nested_written :
  (forall t m ts, written t m ts -> forall f t' m', In f (fields t) -> fkind f = KMsg t' -> In (fnum f, XMsg m') m -> nested t' m') /\
  (forall f vs ts, field_written f vs ts -> forall t' m', fkind f = KMsg t' -> In (XMsg m') vs -> nested t' m') /\
  (forall k v ts, value_written k v ts -> forall t' m', k = KMsg t' -> v = XMsg m' -> nested t' m') /\
  (forall k vs ts, elements_written k vs ts -> forall t' m', k = KMsg t' -> In (XMsg m') vs -> nested t' m').
Proof.
  set (P := fun t (m : tmessage) (ts : list token) => forall f t' m', In f (fields t) -> fkind f = KMsg t' -> In (fnum f, XMsg m') m -> nested t' m').
  set (Q := fun f (vs : list tval) (ts : list token) => forall t' m', fkind f = KMsg t' -> In (XMsg m') vs -> nested t' m').
  set (R := fun k v (ts : list token) => forall t' m', k = KMsg t' -> v = XMsg m' -> nested t' m').
  set (S := fun k (vs : list tval) (ts : list token) => forall t' m', k = KMsg t' -> In (XMsg m') vs -> nested t' m').
  assert (A1 : forall t, P t [] []) by (intros t f t' m' _ _ []).
  assert (A2 : forall t f vs fts sep m ts, In f (fields t) -> field_written f vs fts -> Q f vs fts -> separator sep -> written t m ts -> P t m ts ->
    P t (map (pair (fnum f)) vs ++ m) (word_of (fname f) :: fts ++ sep ++ ts)).
  { intros t f vs fts sep m ts F _ H _ _ IH g t' m' G K I. apply in_app_or in I as [I|I]; [|exact (IH g t' m' G K I)].
    apply in_map_iff in I as (v & E & I). injection E as E1 E2. subst v. assert (f = g) as -> by exact (nodup_same (fields t) f g (nums_nodup t) F G E1).
    exact (H t' m' K I). }
  assert (A3 : forall f c v ts, colon_written f c -> value_written (fkind f) v ts -> R (fkind f) v ts -> Q f [v] (c ++ ts)).
  { intros f c v ts _ _ H t' m' K [E|[]]. exact (H t' m' K E). }
  assert (A4 : forall f c, frep f = true -> colon_written f c -> Q f [] (c ++ [TSym "["; TSym "]"])) by (intros f c _ _ t' m' _ []).
  assert (A5 : forall f c vs ts, frep f = true -> colon_written f c -> elements_written (fkind f) vs ts -> S (fkind f) vs ts -> Q f vs (c ++ TSym "[" :: ts)).
  { intros f c vs ts _ _ _ H t' m' K I. exact (H t' m' K I). }
  assert (A6 : forall k v ts, scalar_written k v ts -> R k v ts) by (intros k v ts W t' m' -> ->; inversion W).
  assert (A7 : forall t m ts, written t m ts -> P t m ts -> once t m -> R (KMsg t) (XMsg m) (TSym "{" :: ts ++ [TSym "}"])).
  { intros t m ts W _ O t' m' E1 E2. injection E1 as <-. injection E2 as <-. exists ts. split; assumption. }
  assert (A8 : forall t m ts, written t m ts -> P t m ts -> once t m -> R (KMsg t) (XMsg m) (TSym "<" :: ts ++ [TSym ">"])).
  { intros t m ts W _ O t' m' E1 E2. injection E1 as <-. injection E2 as <-. exists ts. split; assumption. }
  assert (A9 : forall k v ts, value_written k v ts -> R k v ts -> S k [v] (ts ++ [TSym "]"])).
  { intros k v ts _ H t' m' K [E|[]]. exact (H t' m' K E). }
  assert (A10 : forall k v vs ts ts', value_written k v ts -> R k v ts -> elements_written k vs ts' -> S k vs ts' -> S k (v :: vs) (ts ++ TSym "," :: ts')).
  { intros k v vs ts ts' _ H _ H' t' m' K [E|I]; [exact (H t' m' K E)|exact (H' t' m' K I)]. }
  split; [|split; [|split]].
  - exact (written_mind P Q R S A1 A2 A3 A4 A5 A6 A7 A8 A9 A10).
  - exact (field_mind P Q R S A1 A2 A3 A4 A5 A6 A7 A8 A9 A10).
  - exact (value_mind P Q R S A1 A2 A3 A4 A5 A6 A7 A8 A9 A10).
  - exact (elements_mind P Q R S A1 A2 A3 A4 A5 A6 A7 A8 A9 A10).
Qed.

Lemma entries_once : forall t m f v, once t m -> In f (fields t) -> frep f = false -> In (fnum f, v) m -> entries (fnum f) m = [v].
Proof.
  intros t m f v [O _] F R I. specialize (O f F R). apply entries_in in I. destruct (entries (fnum f) m) as [|a [|b l]]; [destruct I| |cbn in O; lia].
  destruct I as [->|[]]. reflexivity.
Qed.

Lemma leaf_says : forall t m path v, says t m path v -> nested t m -> leaf t m path = Some v.
Proof.
  intros t m path v H. induction H as [t m f v F R I|t m f t' m' path v F R K I S IH]; intros (ts & W & O).
  - cbn [leaf]. rewrite (field_named_in t f F), (entries_once t m f v O F R I). reflexivity.
  - cbn [leaf]. rewrite (field_named_in t f F), (entries_once t m f _ O F R I). cbn [rev app]. rewrite K.
    assert (N : nested t' m') by exact (proj1 nested_written t m ts W f t' m' F K I). rewrite (IH N).
    destruct path as [|s path]; [inversion S|reflexivity].
Qed.

(* all the fields of the path are singular *)
Fixpoint singular (t : string) (path : list string) : bool :=
  match path with
  | [] => true
  | s :: rest =>
      match field_named t s with
      | Some f => negb (frep f) && match rest with [] => true | _ => match fkind f with KMsg t' => singular t' rest | _ => false end end
      | None => false
      end
  end.

Lemma field_named_name : forall t s f, field_named t s = Some f -> In f (fields t) /\ fname f = s.
Proof. intros t s f H. apply find_some in H as [F E]. apply String.eqb_eq in E. split; [exact F|exact E]. Qed.

Lemma says_leaf : forall path t m v, singular t path = true -> leaf t m path = Some v -> says t m path v.
Proof.
  induction path as [|s path IH]; intros t m v S L; [discriminate|]. cbn [leaf singular] in *.
  destruct (field_named t s) as [f|] eqn:E; [|discriminate]. destruct (field_named_name t s f E) as [F <-].
  apply andb_prop in S as [R S]. apply negb_true_iff in R.
  destruct (rev (entries (fnum f) m)) as [|w l] eqn:Ev; [discriminate|]. assert (I : In (fnum f, w) m).
  { apply entries_in, in_rev. rewrite Ev. left. reflexivity. }
  destruct path as [|s' path].
  - injection L as ->. exact (says_here t m f v F R I).
  - destruct (fkind f) as [| | | | |t'] eqn:K; try discriminate. destruct w as [| | | | |m']; try discriminate.
    exact (says_in t m f t' m' (s' :: path) v F R K I (IH t' m' v S L)).
Qed.

Lemma leaf_silent : forall t m path, singular t path = true -> silent t m path -> leaf t m path = None.
Proof. intros t m path S N. destruct (leaf t m path) as [v|] eqn:E; [|reflexivity]. exfalso. exact (N v (says_leaf path t m v S E)). Qed.

Lemma real_given : forall t m path x, nested t m -> given t m path x -> singular t path = true -> real_at t m path = Some x.
Proof.
  intros t m path x N G S. revert G. intros [(v & A & B)|[A ->]]; unfold real_at.
  - rewrite (leaf_says t m path v A N). destruct B; reflexivity.
  - rewrite (leaf_silent t m path S A). reflexivity.
Qed.

Lemma count_counted : forall t m path n, nested t m -> counted t m path n -> singular t path = true -> count_at t m path = n.
Proof.
  intros t m path n N G S. revert G. intros [A|[A ->]]; unfold count_at.
  - rewrite (leaf_says t m path _ A N). apply N2Z.id.
  - rewrite (leaf_silent t m path S A). reflexivity.
Qed.

Lemma case_chosen : forall t m f o, nested t m -> In f (fields t) -> fone f = Some o -> chosen t m (fname f) -> case_of t m o = Some (fname f).
Proof.
  intros t m f o (ts & W & O) F E [v C]. unfold case_of. assert (I : In (fnum f, v) m).
  { inversion C as [t0 m0 g w G R J E1 E2 E3|t0 m0 g t' m' path w G R K J S E1 E2 E3]; subst; [|inversion S].
    pose proof (field_named_in t g G) as X. rewrite E3, (field_named_in t f F) in X. injection X as <-. exact J. }
  destruct (find _ (fields t)) as [g|] eqn:X.
  - apply find_some in X as [G X]. destruct (fone g) as [o'|] eqn:Eg; [|discriminate]. destruct (entries (fnum g) m) as [|w l] eqn:En; [discriminate|].
    apply String.eqb_eq in X. subst o'. cbn [option_map]. f_equal. f_equal. symmetry. apply (proj2 O f g o v w F G E Eg I). apply entries_in. rewrite En. left. reflexivity.
  - exfalso. pose proof (find_none _ _ X f F) as Y. cbn in Y. rewrite E in Y. apply entries_in in I. destruct (entries (fnum f) m); [destruct I|].
    rewrite String.eqb_refl in Y. discriminate.
Qed.

Lemma case_silent : forall t m o, (forall f, In f (fields t) -> fone f = Some o -> frep f = false /\ silent t m [fname f]) -> case_of t m o = None.
Proof.
  intros t m o H. unfold case_of. destruct (find _ (fields t)) as [g|] eqn:X; [|reflexivity]. exfalso. apply find_some in X as [G X].
  destruct (fone g) as [o'|] eqn:Eg; [|discriminate]. destruct (entries (fnum g) m) as [|w l] eqn:En; [discriminate|].
  apply String.eqb_eq in X. subst o'. destruct (H g G Eg) as [R N]. apply (N w). apply says_here; [exact G|exact R|]. apply entries_in. rewrite En. left. reflexivity.
Qed.
