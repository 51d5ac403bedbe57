(** * Specifications, stated without reference to the model's helpers. *)
From Coq Require Import Bool List Arith ZArith Lia Sorting.Sorted.
Import ListNotations.
Set Implicit Arguments.

(** A clustering of [n] observations as a user sees it: the label of every
    observation and, for every cluster, the observations it stores and the
    cardinality it reports.

    [consistent]: every observation has a label of an existing cluster; each
    cluster stores, without repetition and in increasing order, exactly the
    observations carrying its label, and reports their number. *)
Definition consistent (n : nat) (labels : list nat) (clusters : list (list nat * Z)) : Prop :=
  length labels = n /\
  (forall i c, nth_error labels i = Some c -> c < length clusters) /\
  (forall c ids card, nth_error clusters c = Some (ids, card) ->
     StronglySorted lt ids /\
     (forall i, In i ids <-> nth_error labels i = Some c) /\
     card = Z.of_nat (length ids)).

(** [proper]: additionally no cluster is empty. *)
Definition proper (n : nat) (labels : list nat) (clusters : list (list nat * Z)) : Prop :=
  consistent n labels clusters /\
  (forall c ids card, nth_error clusters c = Some (ids, card) -> ids <> []).

(** Two label vectors group the observations of [J] in the same way. *)
Definition same_grouping (J : nat -> Prop) (l1 l2 : list nat) : Prop :=
  forall i j, J i -> J j ->
    (nth_error l1 i = nth_error l1 j <-> nth_error l2 i = nth_error l2 j).

(** [l'] is obtained from [l] by cutting exactly one group in two, one part
    around [p] and one around [q]. *)
Definition splits (n : nat) (l l' : list nat) : Prop :=
  exists p q, p < n /\ q < n /\
    nth_error l p = nth_error l q /\ nth_error l' p <> nth_error l' q /\
    (forall i j, i < n -> j < n -> nth_error l' i = nth_error l' j -> nth_error l i = nth_error l j) /\
    (forall i j, i < n -> j < n -> nth_error l i = nth_error l j -> nth_error l i <> nth_error l p ->
       nth_error l' i = nth_error l' j) /\
    (forall i, i < n -> nth_error l i = nth_error l p ->
       nth_error l' i = nth_error l' p \/ nth_error l' i = nth_error l' q).
