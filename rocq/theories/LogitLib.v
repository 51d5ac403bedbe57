(** * Matrices given as lists of rows: Stan's inverse and generator.

    Only a bridge from the lists of the logit stick-breaking model (LogitUp.v) to
    the matrices of Multi.v.  Functions only. *)
From Coq Require Import String ZArith Reals.
From mathcomp Require Import all_ssreflect all_algebra.
From Verif Require Import Base Mixings Univ RealField MatLib Multi.
Set Implicit Arguments.
Unset Strict Implicit.
Unset Printing Implicit Defensive.
Import GRing.Theory.
Local Open Scope ring_scope.

Definition mx_of (d : nat) (m : seq (seq R)) : 'M[R]_d := \matrix_(i, j) nth 0 (nth [::] m i) j.
Definition list_of_mx (d : nat) (A : 'M[R]_d) : seq (seq R) := [seq [seq A i j | j <- enum 'I_d] | i <- enum 'I_d].
Definition list_of_cv (d : nat) (v : 'cV[R]_d) : seq R := [seq v i 0 | i <- enum 'I_d].

(** [stan::math::inverse_spd] of a matrix read by [to_eigen]. *)
Definition linv (m : seq (seq R)) : res (seq (seq R)) :=
  let d := size m in
  if all (fun row => size row == d) m then P <- inverse_spd (mx_of d m) ;; Ok (list_of_mx P)
  else Throw "m must be square".

(** [stan::math::multi_normal_rng] with covariance [v * Identity(dim, dim)]. *)
Definition mvn_list (G : gen) (M : mgen G) (mean : seq R) (v : R) (r : Gs G) : seq R * Gs G :=
  let '(y, r1) := g_mvn M (colv (size mean) mean) v%:M r in (list_of_cv y, r1).
