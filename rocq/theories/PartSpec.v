(** * Specifications about partition laws and real numbers, independent of the
    model. *)
From Coq Require Import Bool List Arith ZArith Reals Factorial.
From Verif Require Import Base XReal.
Import ListNotations.
Set Implicit Arguments.
Local Open Scope R_scope.

Definition sumR (l : list R) : R := fold_right Rplus 0 l.
Definition prodR (l : list R) : R := fold_right Rmult 1 l.

(** Rising factorial [x (x+1) ... (x+n-1)]. *)
Definition rising (x : R) (n : nat) : R := prodR (map (fun i => x + INR i) (seq 0 n)).

(** Sizes of the groups of equal labels. *)
Definition distinct (al : list nat) : list nat := nodup Nat.eq_dec al.
Definition sizes_of (al : list nat) : list nat :=
  map (count_occ Nat.eq_dec al) (distinct al).

(** The Ewens-Pitman sampling formula: the probability of a given partition with
    these block sizes under the Pitman-Yor process with strength [t] and
    discount [d] (Dirichlet process: [d = 0]). *)
Definition ewens_pitman (t d : R) (sizes : list nat) : R :=
  prodR (map (fun i => t + INR i * d) (seq 1 (length sizes - 1)))
  / rising (t + 1) (list_sum sizes - 1)
  * prodR (map (fun m => rising (1 - d) (m - 1)) sizes).

(** Seating the observations one at a time: [seating ex new order p] when [p] is
    the product of the masses along [order], the list of labels with the last
    seated observation first; [ex n k card] is the mass of an existing cluster
    of [card] observations among [n] in [k] clusters, [new n k] that of a new
    one.  The first observation opens a cluster with probability one. *)
Inductive seating (ex : nat -> nat -> Z -> res xreal) (new : nat -> nat -> res xreal)
  : list nat -> R -> Prop :=
| seat_first : forall x, seating ex new [x] 1
| seat_old : forall prev x p v, seating ex new prev p -> In x prev ->
    ex (length prev) (length (distinct prev)) (Z.of_nat (count_occ Nat.eq_dec prev x)) = Ok (Fin v) ->
    seating ex new (x :: prev) (p * v)
| seat_new : forall prev x p v, seating ex new prev p -> ~ In x prev ->
    new (length prev) (length (distinct prev)) = Ok (Fin v) ->
    seating ex new (x :: prev) (p * v).

(** Falling factorial [k (k-1) ... (k-t+1)]. *)
Definition falling (k t : nat) : R := prodR (map (fun i => INR k - INR i) (seq 0 t)).

(** [k]-th term of Miller and Harrison's coefficient, with a Poisson(l) prior on
    the number of components minus one. *)
Definition mh_term (l g : R) (t n k : nat) : R :=
  falling k t / rising (g * INR k) n * (l ^ (k - 1) * exp (- l) / INR (fact (k - 1))).

(** Partial sums. *)
Definition partial (l g : R) (t n K : nat) : R := sumR (map (mh_term l g t n) (seq 1 K)).

(** Partition probability of a Gibbs-type prior with coefficients [V n k]. *)
Definition gibbs_type (V : nat -> nat -> R) (g : R) (sizes : list nat) : R :=
  V (list_sum sizes) (length sizes) * prodR (map (fun m => rising g m) sizes).
