(** * Conditional laws of the blocks of a truncated mixture: specification. *)
From Coq Require Import List Arith Reals.
From Verif Require Import PartSpec.
Import ListNotations.
Local Open Scope R_scope.

(** All label vectors of [n] observations over [nc] components. *)
Fixpoint label_vectors (nc n : nat) : list (list nat) :=
  match n with
  | O => [[]]
  | S n' => flat_map (fun c => map (cons c) (label_vectors nc n')) (seq 0 nc)
  end.

Section Complete.
  Variables T X : Type.
  (** Density of an observation given its component's parameters, weights of the
      components for an observation. *)
  Variable f : T -> X -> R.
  Variable w : X -> list R.

  (** Probability of the labels times density of the observations given them. *)
  Definition complete (d : T) (th : list T) (xs : list X) (cs : list nat) : R :=
    prodR (map (fun p => nth (fst p) (w (snd p)) 0 * f (nth (fst p) th d) (snd p)) (combine cs xs)).
End Complete.

(** Probability of drawing [cs] one after the other from the unnormalised
    probability vectors [vs]. *)
Definition draw_law (vs : list (list R)) (cs : list nat) : R :=
  prodR (map (fun p => nth (fst p) (snd p) 0 / sumR (snd p)) (combine cs vs)).

(** Observations labelled [c]. *)
Definition with_label {X : Type} (xs : list X) (cs : list nat) (c : nat) : list X :=
  map snd (filter (fun p => Nat.eqb (fst p) c) (combine cs xs)).

(** Weights of the components for given sticks. *)
Definition stick_weights (vs : list R) : list R :=
  map (fun j => nth j vs 0 * prodR (map (fun v => 1 - v) (firstn j vs))) (seq 0 (length vs)).
