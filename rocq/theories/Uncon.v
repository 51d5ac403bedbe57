(** * Unconstrained representations of the regression and multivariate states.

    Model of likelihoods/states/{uni_lin_reg_ls,multi_ls}_state.h.  Functions
    only.

    Eigen's vectors of run-time size are sequences of reals.  Stan's
    [cov_matrix_free], [cov_matrix_constrain] and [positive_constrain] are written
    out from their reference; the running index of their loops is replaced by its
    value [tri m] at row [m]. *)
From Coq Require Import String ZArith Reals.
From mathcomp Require Import all_ssreflect all_algebra.
From Verif Require Import Base Mixings Univ RealField MatLib Multi.
Set Implicit Arguments.
Unset Strict Implicit.
Unset Printing Implicit Defensive.
Import GRing.Theory.
Local Open Scope ring_scope.

(** ** Regression state *)

(** uni_lin_reg_ls_state.h:18-25, 31-38.  [in.head(N - 1)] of an empty vector is
    out of range. *)
Definition lr_to_constrained (u : seq R) : res (seq R) :=
  if size u is n.+1 then Ok (rcons (take n u) (exp (nth 0 u n))) else UB.
Definition lr_to_unconstrained (c : seq R) : res (seq R) :=
  if size c is n.+1 then Ok (rcons (take n c) (ln (nth 0 c n))) else UB.
(** uni_lin_reg_ls_state.h:43-49; [positive_constrain (x, lp)] adds [x] to [lp]. *)
Definition lr_log_det_jac (c : seq R) : R := 0 + ln (nth 0 c (size c).-1).

(** uni_lin_reg_ls_state.h:61-65, 67-72, 93-97. *)
Definition lr_vec d (s : lrs d) : seq R := rcons [seq lr_coef s i 0 | i <- enum 'I_d] (lr_var s).
Definition lr_get_unconstrained d (s : lrs d) : res (seq R) := lr_to_unconstrained (lr_vec s).
Definition lr_set_unconstrained (u : seq R) : res {d : nat & lrs d} :=
  temp <- lr_to_constrained u ;;
  let dim := (size u).-1 in
  Ok (existT _ dim (mkLRS (colv dim temp) (nth 0 temp dim))).
Definition lr_state_log_det_jac d (s : lrs d) : R := lr_log_det_jac (lr_vec s).

(** ** Multivariate state *)

(** Entries by natural numbers. *)
Definition ent d (A : 'M[R]_d) (m j : nat) : R :=
  match insub m, insub j with Some a, Some b => A a b | _, _ => 0 end.
(** First index of row [m] of a lower triangle stored by rows. *)
Fixpoint tri (m : nat) : nat := if m is k.+1 then (tri k + k.+1)%N else 0%N.
Definition free_row d (L : 'M[R]_d) (m : nat) : seq R := rcons (mkseq (fun j => ent L m j) m) (ln (ent L m m)).
Definition cov_matrix_free d (A : 'M[R]_d) : res (seq R) :=
  if (d == 0)%N then Throw "cov_matrix_free: y has size 0"
  else if [forall i, 0 < A i i] then Ok (flatten (mkseq (free_row (llt_L A)) d))
  else Throw "cov_matrix_free: y is not positive".
Definition constrain_L (d : nat) (x : seq R) : 'M[R]_d :=
  \matrix_(m, j) (if (j < m)%N then nth 0 x (tri m + j) else if j == m then exp (nth 0 x (tri m + m)) else 0).
Definition cov_matrix_constrain (x : seq R) (K : nat) : res 'M[R]_K :=
  if size x == (K * K.+1)./2 then Ok (constrain_L K x *m (constrain_L K x)^T)
  else Throw "cov_matrix_constrain: x.size() and K + (K choose 2) must match in size".

(** multi_ls_state.h:18-28. *)
Definition ml_to_unconstrained d (mean : 'cV[R]_d) (prec : 'M[R]_d) : res (seq R) :=
  p <- cov_matrix_free prec ;; Ok ([seq mean i 0 | i <- enum 'I_d] ++ p).
(** multi_ls_state.h:36-38: the dimension and the assertion that it is whole. *)
Definition dim_of (n : nat) : R := hf * (sqrt (INR (8 * n + 9)) - 3%:R).
Definition ml_to_constrained (u : seq R) : res {d : nat & ('cV[R]_d * 'M[R]_d)%type} :=
  let dim_ := dim_of (size u) in
  let dimf := Int_part dim_ in
  if dim_ != IZR dimf then Abort else
  let dim := Z.to_nat dimf in
  prec <- cov_matrix_constrain (drop dim u) dim ;;
  Ok (existT _ dim (colv dim u, prec)).
(** multi_ls_state.h:50-56.  The second argument of [cov_matrix_constrain] is the
    dimension; the logarithm of the Jacobian would be the third.  [out], a double
    with value 0, is converted. *)
Definition ml_log_det_jac d (prec : 'M[R]_d) : res R :=
  x <- cov_matrix_free prec ;; _ <- cov_matrix_constrain x 0 ;; Ok 0.

(** multi_ls_state.h:69-71, 73-76, 109. *)
Definition mls_get_unconstrained d (s : mls d) : res (seq R) := ml_to_unconstrained (ml_mean s) (ml_prec s).
Definition mls_set_unconstrained (u : seq R) : res {d : nat & mls d} :=
  c <- ml_to_constrained u ;;
  Ok (existT _ (projT1 c) (mls_set_constrained (projT2 c).1 (projT2 c).2)).
Definition mls_log_det_jac d (s : mls d) : res R := ml_log_det_jac (ml_prec s).
