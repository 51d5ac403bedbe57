(** * The law of Neal3's iterations over clusterings: specification. *)
From Coq Require Import Bool List Arith ZArith Reals.
From Verif Require Import Base Hier Algos PartSpec GibbsSpec GibbsSweep.
Import ListNotations.
Local Open Scope R_scope.

(** Mean of [F] at the state after successively reallocating the observations
    [is] from [a], when every categorical draw picks outcome [c] with probability
    proportional to its weight; [pick] gives the generator states used for the
    other draws. *)
Fixpoint sweep_mean (I : Iface) (val : W I -> R) data covs (pick : alg I -> nat -> nat -> Rng I)
    (is : list nat) (a : alg I) (F : alg I -> R) : R :=
  match is with
  | [] => F a
  | i :: is' =>
      match step_weights I val data covs i a with
      | Ok (a1, ws) =>
          sumR (map (fun c => nth c ws 0 / sumR ws *
                              match assign data true (at_ covs) i c a1 (pick a1 i c) with
                              | Ok (a', _) => sweep_mean I val data covs pick is' a' F
                              | _ => 0
                              end) (seq 0 (length ws)))
      | _ => 0
      end
  end.

(** What follows the reallocations in an iteration (base_algorithm.h:179-184). *)
Definition finish (I : Iface) (s : alg I * Rng I) : res (alg I * Rng I) :=
  s2 <- sample_unique_values true s ;; s3 <- update_hierarchy_hypers s2 ;; update_mixing s3.

(** Probability that [k] iterations of Neal3 from state [a] end in clustering
    [t]; the generator states of the draws of other kinds may differ at every
    iteration. *)
Fixpoint chain_prob (I : Iface) (val : W I -> R) data covs (pick : nat -> alg I -> nat -> nat -> Rng I) (rest : nat -> alg I -> Rng I)
    (k : nat) (a : alg I) (t : list nat) : R :=
  match k with
  | O => if same (canon (a_alloc a)) t then 1 else 0
  | S k' =>
      sweep_mean I val data covs (pick k') (seq 0 (length data)) a
        (fun a1 => match finish I (a1, rest k' a1) with
                   | Ok (a2, _) => chain_prob I val data covs pick rest k' a2 t
                   | _ => 0
                   end)
  end.

(** A law over the clusterings of [n] observations from its unnormalised masses. *)
Definition normalised (n : nat) (f : list nat -> R) (u : list nat) : R := f u / sumR (map f (clusterings n)).
