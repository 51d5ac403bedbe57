(** * The priors with vectors and matrices, as the program takes them from the
    configuration files (hierarchy_prior.proto, mixing_prior.proto, matrix.proto; read by
    nw_prior_model.cc:7-108, mnig_prior_model.cc:59-84, fa_prior_model.cc:90-122,
    truncated_sb_mixing.cc:80-118, logit_sb_mixing.cc:97-124).  Functions only.

    As in Settings.v, a decimal number stands for the real number that is written, and
    infinities and not-a-number give no setting ([None]).  A [size] of zero or less is no
    size at all, as in the code ([size > 0]). *)
From Coq Require Import String.
From Coq Require Import List NArith ZArith Reals.
From Verif Require Import Base Schema Text Settings Utils.
Import ListNotations.
Local Open Scope string_scope.

(* a message that is not set is the empty one *)
Definition message_at (t : string) (m : tmessage) (path : list string) : option tmessage :=
  match leaf t m path with None => Some [] | Some (XMsg m') => Some m' | Some _ => None end.
Definition values_at (t : string) (m : tmessage) (s : string) : list tval :=
  match field_named t s with Some f => entries (fnum f) m | None => [] end.
Fixpoint numbers (l : list tval) : option (list R) :=
  match l with [] => Some [] | v :: r => both (option_map cons (number v)) (numbers r) end.

Definition size_at (t : string) (m : tmessage) (s : string) : nat := N.to_nat (count_at t m [s]).
Definition flag_at (t : string) (m : tmessage) (path : list string) : bool := negb (count_at t m path =? 0)%N.

(** matrix.proto:8-11, 16-21. *)
Definition vector_at (t : string) (m : tmessage) (path : list string) : option (vec_msg R) :=
  match message_at t m path with
  | Some v => both (Some (@mkVecMsg R (size_at "Vector" v "size"))) (numbers (values_at "Vector" v "data"))
  | None => None
  end.
Definition matrix_at (t : string) (m : tmessage) (path : list string) : option (mat_msg R) :=
  match message_at t m path with
  | Some v => both (Some (@mkMatMsg R (size_at "Matrix" v "rows") (size_at "Matrix" v "cols") (flag_at "Matrix" v ["rowmajor"])))
                (numbers (values_at "Matrix" v "data"))
  | None => None
  end.

Inductive raw_nw : Type :=
| RNFixed (mean : vec_msg R) (vs df : R) (scale : mat_msg R)
| RNMean (mu00 : vec_msg R) (sigma00 : mat_msg R) (vs df : R) (scale : mat_msg R)
| RNNgiw (mu00 : vec_msg R) (sigma00 : mat_msg R) (alpha00 beta00 nu00 : R) (tau00 : mat_msg R) (nu0 : R)
| RNOther.

Definition raw_nw_of (m : tmessage) : option raw_nw :=
  let x := real_at "NNWPrior" m in
  let v := vector_at "NNWPrior" m in
  let a := matrix_at "NNWPrior" m in
  match case_of "NNWPrior" m "prior" with
  | None => Some RNOther
  | Some c =>
      if c =? "fixed_values" then
        both (both (both (both (Some RNFixed) (v ["fixed_values"; "mean"])) (x ["fixed_values"; "var_scaling"]))
          (x ["fixed_values"; "deg_free"])) (a ["fixed_values"; "scale"])
      else if c =? "normal_mean_prior" then
        both (both (both (both (both (Some RNMean) (v ["normal_mean_prior"; "mean_prior"; "mean"]))
          (a ["normal_mean_prior"; "mean_prior"; "var"])) (x ["normal_mean_prior"; "var_scaling"]))
          (x ["normal_mean_prior"; "deg_free"])) (a ["normal_mean_prior"; "scale"])
      else
        both (both (both (both (both (both (both (Some RNNgiw) (v ["ngiw_prior"; "mean_prior"; "mean"]))
          (a ["ngiw_prior"; "mean_prior"; "var"])) (x ["ngiw_prior"; "var_scaling_prior"; "shape"]))
          (x ["ngiw_prior"; "var_scaling_prior"; "rate"])) (x ["ngiw_prior"; "scale_prior"; "deg_free"]))
          (a ["ngiw_prior"; "scale_prior"; "scale"])) (x ["ngiw_prior"; "deg_free"])
  end.

Inductive raw_mnig : Type :=
| RMFixed (mean : vec_msg R) (vs : mat_msg R) (shape scale : R)
| RMOther.

Definition raw_mnig_of (m : tmessage) : option raw_mnig :=
  let x := real_at "LinRegUniPrior" m in
  match case_of "LinRegUniPrior" m "prior" with
  | None => Some RMOther
  | Some _ =>
      both (both (both (both (Some RMFixed) (vector_at "LinRegUniPrior" m ["fixed_values"; "mean"]))
        (matrix_at "LinRegUniPrior" m ["fixed_values"; "var_scaling"])) (x ["fixed_values"; "shape"])) (x ["fixed_values"; "scale"])
  end.

Inductive raw_fa : Type :=
| RFFixed (mutilde beta : vec_msg R) (phi alpha0 : R) (q : nat)
| RFOther.

Definition raw_fa_of (m : tmessage) : option raw_fa :=
  let x := real_at "FAPrior" m in
  let v := vector_at "FAPrior" m in
  match case_of "FAPrior" m "prior" with
  | None => Some RFOther
  | Some _ =>
      both (both (both (both (both (Some RFFixed) (v ["fixed_values"; "mutilde"])) (v ["fixed_values"; "beta"]))
        (x ["fixed_values"; "phi"])) (x ["fixed_values"; "alpha0"])) (Some (N.to_nat (count_at "FAPrior" m ["fixed_values"; "q"])))
  end.

Inductive raw_sb : Type :=
| RBBeta (l : list (R * R))
| RBDp (mass : R)
| RBPy (strength discount : R)
| RBOther.

Fixpoint shapes (l : list tval) : option (list (R * R)) :=
  match l with
  | [] => Some []
  | XMsg v :: r =>
      both (option_map cons (both (both (Some pair) (real_at "BetaDistribution" v ["shape_a"])) (real_at "BetaDistribution" v ["shape_b"])))
        (shapes r)
  | _ :: _ => None
  end.

Definition raw_sb_of (m : tmessage) : option raw_sb :=
  let x := real_at "TruncSBPrior" m in
  match case_of "TruncSBPrior" m "prior" with
  | None => Some RBOther
  | Some c =>
      if c =? "beta_priors" then
        match message_at "TruncSBPrior" m ["beta_priors"] with
        | Some v => both (Some RBBeta) (shapes (values_at "TruncSBPrior.BetaPriors" v "beta_distributions"))
        | None => None
        end
      else if c =? "dp_prior" then both (Some RBDp) (x ["dp_prior"; "totalmass"])
      else both (both (Some RBPy) (x ["py_prior"; "strength"])) (x ["py_prior"; "discount"])
  end.
Definition sb_size_of (m : tmessage) : nat := size_at "TruncSBPrior" m "num_components".
Definition sb_infinite_of (m : tmessage) : bool := flag_at "TruncSBPrior" m ["infinite_mixture"].

Record raw_lg : Type := mkRL { rl_H : nat; rl_step : R; rl_normal : option (vec_msg R * mat_msg R) }.
Definition raw_lg_of (m : tmessage) : option raw_lg :=
  match case_of "LogSBPrior" m "coeff" with
  | None => both (both (both (Some mkRL) (Some (size_at "LogSBPrior" m "num_components"))) (real_at "LogSBPrior" m ["step_size"])) (Some None)
  | Some _ =>
      both (both (both (Some mkRL) (Some (size_at "LogSBPrior" m "num_components"))) (real_at "LogSBPrior" m ["step_size"]))
        (option_map Some (both (both (Some pair) (vector_at "LogSBPrior" m ["normal_prior"; "mean"])) (matrix_at "LogSBPrior" m ["normal_prior"; "var"])))
  end.
