(** * What one iteration does after the labels: specification.

    [BaseAlgorithm::step] (base_algorithm.h:179-184) draws the labels, then the
    parameters of the clusters, then the hyperparameters, then the state of the
    mixing, from one generator.  The definitions below say what each of these
    draws is given; they do not use the functions of the model that make them. *)
From Coq Require Import String.
From Coq Require Import Bool List Arith ZArith.
From Verif Require Import Base Hier Algos.
Import ListNotations.
Set Implicit Arguments.

(** [ss] are the values drawn one after the other for [xs], each draw starting
    from the generator state the previous one ended in. *)
Fixpoint threaded (A S R : Type) (f : A -> R -> S * R) (xs : list A) (r : R) (ss : list S) (r' : R) : Prop :=
  match xs, ss with
  | [], [] => r' = r
  | x :: xs', s :: ss' => exists q, f x r = (s, q) /\ threaded f xs' q ss' r'
  | _, _ => False
  end.

Section S.
Variable I : Iface.

(** From the clusters [a1] (labels drawn, generator in state [r1]) to the end of
    the iteration [b]: [f] draws the parameters of one cluster, [hy] and [mx]
    are the hyperparameters and the state of the mixing before the iteration. *)
Definition rest_of_iteration (f : hier I -> Rng I -> St I * Rng I) (hy : Hyp I) (mx : Mix I)
    (a1 : alg I) (r1 : Rng I) (b : alg I) (q : Rng I) : Prop :=
  a_alloc b = a_alloc a1 /\ map (@h_ids I) (a_uv b) = map (@h_ids I) (a_uv a1) /\
  exists r2 r3,
    threaded f (a_uv a1) r1 (map (@h_state I) (a_uv b)) r2 /\
    hyp_update I hy (map (fun h => (h_state h, Z.of_nat (length (h_ids h))))
                         (filter (fun h => negb (length (h_ids h) =? 0)) (a_uv b))) r2 = (a_hyp b, r3) /\
    mix_update I mx (map (fun h => Z.of_nat (length (h_ids h))) (a_uv b)) (a_alloc b) r3 = Ok (a_mix b, q).

End S.
