(** * Specification of posterior distributions over clusterings, independent of
    the model. *)
From Coq Require Import Bool List Arith ZArith Reals.
From Verif Require Import Base PartSpec.
Import ListNotations.
Set Implicit Arguments.
Local Open Scope R_scope.

(** A clustering of [n] observations is a label vector up to renaming of the
    labels; [canon] labels every observation with the first observation of its
    group, so two vectors group alike iff their [canon] are equal. *)
Fixpoint first (x : nat) (l : list nat) : nat :=
  match l with
  | [] => 0%nat
  | y :: t => if (x =? y)%nat then 0%nat else S (first x t)
  end.
Definition canon (l : list nat) : list nat := map (fun x => first x l) l.

(** All vectors of length [n] with entries below [m]. *)
Fixpoint words (m n : nat) : list (list nat) :=
  match n with
  | O => [[]]
  | S n' => flat_map (fun w => map (fun x => x :: w) (seq 0 m)) (words m n')
  end.

(** The set of all clusterings of [n] observations. *)
Definition same (l l' : list nat) : bool := if list_eq_dec Nat.eq_dec l l' then true else false.
Definition clusterings (n : nat) : list (list nat) :=
  filter (fun l => same (canon l) l) (words n n).

(** The observations with label [c]. *)
Definition members (c : nat) (l : list nat) : list nat :=
  filter (fun j => match nth_error l j with Some x => (x =? c)%nat | None => false end)
         (seq 0 (length l)).

(** Unnormalised posterior mass of a clustering: partition prior [pi] times the
    marginal likelihood [M] of the data in each group. *)
Definition posterior (pi : list nat -> R) (M : list nat -> R) (l : list nat) : R :=
  pi l * prodR (map (fun c => M (members c l)) (distinct l)).

(** The prior mass is a function of the clustering, not of labels or order. *)
Definition partition_prior (pi : list nat -> R) : Prop :=
  (forall al, al <> [] -> 0 < pi al) /\
  (forall al al', Permutation.Permutation al al' -> pi al = pi al') /\
  (forall f al, (forall x y, In x al -> In y al -> f x = f y -> x = y) -> pi (map f al) = pi al).

(** The two vectors group all observations but the [i]-th alike. *)
Definition alike_off (i : nat) (l l' : list nat) : bool := same (canon (del l i)) (canon (del l' i)).
