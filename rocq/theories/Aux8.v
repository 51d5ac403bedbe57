(** * Specification: one observation and its parameters given all the others. *)
From Coq Require Import Bool List Arith ZArith Reals.
From Verif Require Import Base PartSpec GibbsSpec.
Import ListNotations.
Set Implicit Arguments.
Local Open Scope R_scope.

Section Spec.
Variable St : Type.

(** A clustering together with the parameters of every observation's cluster. *)
Definition config : Type := (list nat * list (option St))%type.

(** One observation of every cluster of the observations other than [i]. *)
Definition reps (i : nat) (l : list nat) : list nat :=
  filter (fun j => negb (j =? i)%nat &&
                   forallb (fun k => (k =? i)%nat || negb (nth k l 0%nat =? nth j l 0%nat)%nat) (seq 0 j))
         (seq 0 (length l)).

Section At.
(** Prior law [pi] of the clustering, likelihood [lik] of observation [i]; labels
    [l] and parameters [ps] of the observations (those of [i] play no role). *)
Variables (pi : list nat -> R) (lik : St -> R) (i : nat) (l : list nat) (ps : list (option St)).

(** [i] shares the cluster of [j], or has one of its own with parameters [x]. *)
Definition sit (j : nat) : config := (canon (upd l i (nth j l 0%nat)), upd ps i (nth j ps None)).
Definition own (x : St) : config := (canon (upd l i (length l)), upd ps i (Some x)).

(** Their probabilities given the other observations, up to a common factor;
    [w_own] is a density with respect to the prior law of the parameters. *)
Definition w_sit (j : nat) : R :=
  pi (upd l i (nth j l 0%nat)) * match nth j ps None with Some x => lik x | None => 0 end.
Definition w_own (x : St) : R := pi (upd l i (length l)) * lik x.

(** Sum of [f] over the clusters of the others and the clusters offered by the
    parameters [xs], each with its weight. *)
Definition total8 (xs : list St) (f : config -> R) : R :=
  sumR (map (fun j => w_sit j * f (sit j)) (reps i l)) +
  sumR (map (fun x => w_own x / INR (length xs) * f (own x)) xs).
Definition mean8 (xs : list St) (f : config -> R) : R := total8 xs f / total8 xs (fun _ => 1).
End At.

(** The expectation [E], on a class [D] of functions, of [m] independent
    parameters with a common law. *)
Record iid_mean (m : nat) (D : (list St -> R) -> Prop) (E : (list St -> R) -> R) : Prop := {
  iid_ext : forall g h, (forall xs, length xs = m -> g xs = h xs) -> D g -> D h /\ E h = E g;
  iid_one : D (fun _ => 1) /\ E (fun _ => 1) = 1;
  iid_lin : forall g h c, D g -> D h -> D (fun xs => g xs + c * h xs) /\ E (fun xs => g xs + c * h xs) = E g + c * E h;
  iid_swap : forall g k, (k < m)%nat -> D g ->
    let sw xs := match nth_error xs 0, nth_error xs k with Some x, Some y => upd (upd xs 0 y) k x | _, _ => xs end in
    D (fun xs => g (sw xs)) /\ E (fun xs => g (sw xs)) = E g
}.
End Spec.

(** Expectation of [m] independent parameters of the law [law]: values with
    their probabilities. *)
Section Discrete.
Variable St : Type.
Variable law : list (St * R).
Definition mean1 (g : St -> R) : R := sumR (map (fun xp => snd xp * g (fst xp)) law).
Fixpoint meanm (m : nat) (g : list St -> R) : R :=
  match m with
  | O => g []
  | S m' => mean1 (fun x => meanm m' (fun xs => g (x :: xs)))
  end.
End Discrete.
