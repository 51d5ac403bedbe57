(** * The messages of src/proto: names, numbers and types of the fields.  Functions only.

    A message type is named by its path ("AlgorithmState.ClusterState"); the package
    [bayesmix] is left out.  The fields of a type are listed by increasing number.
    Members of a [oneof] are all messages. *)
From Coq Require Import String.
From Coq Require Import List NArith Bool.
Import ListNotations.
Local Open Scope string_scope.
Local Open Scope N_scope.

Inductive kind : Type :=
| KInt32 | KUint32 | KBool | KDouble | KString
| KMsg (t : string).

Record field : Type := mkField {
  fname : string;
  fnum : N;
  fkind : kind;
  frep : bool;                (* repeated *)
  fone : option string        (* the oneof it belongs to *)
}.

Definition sing (s : string) (n : N) (k : kind) : field := mkField s n k false None.
Definition rep (s : string) (n : N) (k : kind) : field := mkField s n k true None.
Definition one (g s : string) (n : N) (k : kind) : field := mkField s n k false (Some g).

Definition is_msg (k : kind) : bool := match k with KMsg _ => true | _ => false end.

Definition types : list (string * list field) := [
  (* matrix.proto:8-11 *)
  ("Vector", [sing "size" 1 KInt32;
    rep "data" 2 KDouble]);
  (* matrix.proto:16-21 *)
  ("Matrix", [sing "rows" 1 KInt32;
    sing "cols" 2 KInt32;
    rep "data" 3 KDouble;
    sing "rowmajor" 4 KBool]);
  (* distribution.proto:10-13 *)
  ("UniNormalDistribution", [sing "mean" 1 KDouble;
    sing "var" 2 KDouble]);
  (* distribution.proto:18-21 *)
  ("MultiNormalDistribution", [sing "mean" 1 (KMsg "Vector");
    sing "var" 2 (KMsg "Matrix")]);
  (* distribution.proto:27-30 *)
  ("GammaDistribution", [sing "shape" 1 KDouble;
    sing "rate" 2 KDouble]);
  (* distribution.proto:35-38 *)
  ("InvWishartDistribution", [sing "deg_free" 1 KDouble;
    sing "scale" 2 (KMsg "Matrix")]);
  (* distribution.proto:43-46 *)
  ("BetaDistribution", [sing "shape_a" 1 KDouble;
    sing "shape_b" 2 KDouble]);
  (* distribution.proto:53-58 *)
  ("NIGDistribution", [sing "mean" 1 KDouble;
    sing "var_scaling" 2 KDouble;
    sing "shape" 3 KDouble;
    sing "scale" 4 KDouble]);
  (* distribution.proto:65-70 *)
  ("NxIGDistribution", [sing "mean" 1 KDouble;
    sing "var" 2 KDouble;
    sing "shape" 3 KDouble;
    sing "scale" 4 KDouble]);
  (* distribution.proto:78-84 *)
  ("NWDistribution", [sing "mean" 1 (KMsg "Vector");
    sing "var_scaling" 2 KDouble;
    sing "deg_free" 3 KDouble;
    sing "scale" 4 (KMsg "Matrix");
    sing "scale_chol" 5 (KMsg "Matrix")]);
  (* distribution.proto:92-97 *)
  ("MultiNormalIGDistribution", [sing "mean" 1 (KMsg "Vector");
    sing "var_scaling" 2 (KMsg "Matrix");
    sing "shape" 3 KDouble;
    sing "scale" 4 KDouble]);
  (* ls_state.proto:10-13 *)
  ("UniLSState", [sing "mean" 1 KDouble;
    sing "var" 2 KDouble]);
  (* ls_state.proto:20-24 *)
  ("MultiLSState", [sing "mean" 1 (KMsg "Vector");
    sing "prec" 2 (KMsg "Matrix");
    sing "prec_chol" 3 (KMsg "Matrix")]);
  (* ls_state.proto:29-32 *)
  ("LinRegUniLSState", [sing "regression_coeffs" 1 (KMsg "Vector");
    sing "var" 2 KDouble]);
  (* ls_state.proto:34-39 *)
  ("FAState", [sing "mu" 1 (KMsg "Vector");
    sing "psi" 2 (KMsg "Vector");
    sing "eta" 3 (KMsg "Matrix");
    sing "lambda" 4 (KMsg "Matrix")]);
  (* mixing_state.proto:10-12 *)
  ("DPState", [sing "totalmass" 1 KDouble]);
  (* mixing_state.proto:17-20 *)
  ("PYState", [sing "strength" 1 KDouble;
    sing "discount" 2 KDouble]);
  (* mixing_state.proto:25-27 *)
  ("LogSBState", [sing "regression_coeffs" 1 (KMsg "Matrix")]);
  (* mixing_state.proto:32-35 *)
  ("TruncSBState", [sing "sticks" 1 (KMsg "Vector");
    sing "logweights" 2 (KMsg "Vector")]);
  (* mixing_state.proto:40-43 *)
  ("MFMState", [sing "lambda" 1 KDouble;
    sing "gamma" 2 KDouble]);
  (* mixing_state.proto:48-57 *)
  ("MixingState", [one "state" "dp_state" 1 (KMsg "DPState");
    one "state" "py_state" 2 (KMsg "PYState");
    one "state" "log_sb_state" 3 (KMsg "LogSBState");
    one "state" "trunc_sb_state" 4 (KMsg "TruncSBState");
    one "state" "mfm_state" 5 (KMsg "MFMState");
    one "state" "general_state" 6 (KMsg "Vector")]);
  (* hierarchy_prior.proto:13-18 *)
  ("NNIGPrior.NormalMeanPrior", [sing "mean_prior" 1 (KMsg "UniNormalDistribution");
    sing "var_scaling" 2 KDouble;
    sing "shape" 3 KDouble;
    sing "scale" 4 KDouble]);
  (* hierarchy_prior.proto:20-25 *)
  ("NNIGPrior.NGGPrior", [sing "mean_prior" 1 (KMsg "UniNormalDistribution");
    sing "var_scaling_prior" 2 (KMsg "GammaDistribution");
    sing "shape" 3 KDouble;
    sing "scale_prior" 4 (KMsg "GammaDistribution")]);
  (* hierarchy_prior.proto:11-32 *)
  ("NNIGPrior", [one "prior" "fixed_values" 1 (KMsg "NIGDistribution");
    one "prior" "normal_mean_prior" 2 (KMsg "NNIGPrior.NormalMeanPrior");
    one "prior" "ngg_prior" 3 (KMsg "NNIGPrior.NGGPrior")]);
  (* hierarchy_prior.proto:37-42 *)
  ("NNxIGPrior", [one "prior" "fixed_values" 1 (KMsg "NxIGDistribution")]);
  (* hierarchy_prior.proto:47-54 *)
  ("LapNIGState", [sing "mean" 1 KDouble;
    sing "var" 2 KDouble;
    sing "shape" 3 KDouble;
    sing "scale" 4 KDouble;
    sing "mh_mean_var" 5 KDouble;
    sing "mh_log_scale_var" 6 KDouble]);
  (* hierarchy_prior.proto:56-60 *)
  ("LapNIGPrior", [one "prior" "fixed_values" 1 (KMsg "LapNIGState")]);
  (* hierarchy_prior.proto:67-72 *)
  ("NNWPrior.NormalMeanPrior", [sing "mean_prior" 1 (KMsg "MultiNormalDistribution");
    sing "var_scaling" 2 KDouble;
    sing "deg_free" 3 KDouble;
    sing "scale" 4 (KMsg "Matrix")]);
  (* hierarchy_prior.proto:74-79 *)
  ("NNWPrior.NGIWPrior", [sing "mean_prior" 1 (KMsg "MultiNormalDistribution");
    sing "var_scaling_prior" 2 (KMsg "GammaDistribution");
    sing "deg_free" 3 KDouble;
    sing "scale_prior" 4 (KMsg "InvWishartDistribution")]);
  (* hierarchy_prior.proto:65-86 *)
  ("NNWPrior", [one "prior" "fixed_values" 1 (KMsg "NWDistribution");
    one "prior" "normal_mean_prior" 2 (KMsg "NNWPrior.NormalMeanPrior");
    one "prior" "ngiw_prior" 3 (KMsg "NNWPrior.NGIWPrior")]);
  (* hierarchy_prior.proto:92-96 *)
  ("LinRegUniPrior", [one "prior" "fixed_values" 1 (KMsg "MultiNormalIGDistribution")]);
  (* hierarchy_prior.proto:99-105 *)
  ("FAPriorDistribution", [sing "mutilde" 1 (KMsg "Vector");
    sing "beta" 2 (KMsg "Vector");
    sing "phi" 3 KDouble;
    sing "alpha0" 4 KDouble;
    sing "q" 5 KUint32]);
  (* hierarchy_prior.proto:108-112 *)
  ("FAPrior", [one "prior" "fixed_values" 1 (KMsg "FAPriorDistribution")]);
  (* hierarchy_prior.proto:114-116 *)
  ("EmptyPrior", [sing "fake_field" 1 KDouble]);
  (* hierarchy_prior.proto:121-125 *)
  ("PythonHierPrior", [one "prior" "values" 1 (KMsg "Vector")]);
  (* mixing_prior.proto:14-16 *)
  ("DPPrior.GammaPrior", [sing "totalmass_prior" 1 (KMsg "GammaDistribution")]);
  (* mixing_prior.proto:13-22 *)
  ("DPPrior", [one "totalmass" "fixed_value" 1 (KMsg "DPState");
    one "totalmass" "gamma_prior" 2 (KMsg "DPPrior.GammaPrior")]);
  (* mixing_prior.proto:27-31 *)
  ("MFMPrior", [one "totalmass" "fixed_value" 1 (KMsg "MFMState")]);
  (* mixing_prior.proto:37-41 *)
  ("PYPrior", [one "totalmass" "fixed_values" 1 (KMsg "PYState")]);
  (* mixing_prior.proto:46-52 *)
  ("LogSBPrior", [one "coeff" "normal_prior" 1 (KMsg "MultiNormalDistribution");
    sing "step_size" 2 KDouble;
    sing "num_components" 3 KUint32]);
  (* mixing_prior.proto:57-61 *)
  ("PythonMixPrior", [one "prior" "values" 1 (KMsg "Vector")]);
  (* mixing_prior.proto:67-70 *)
  ("TruncSBPrior.BetaPriors", [rep "beta_distributions" 1 (KMsg "BetaDistribution")]);
  (* mixing_prior.proto:71-74 *)
  ("TruncSBPrior.DPPrior", [sing "totalmass" 1 KDouble]);
  (* mixing_prior.proto:76-80 *)
  ("TruncSBPrior.PYPrior", [sing "strength" 1 KDouble;
    sing "discount" 2 KDouble]);
  (* mixing_prior.proto:66-92 *)
  ("TruncSBPrior", [one "prior" "beta_priors" 1 (KMsg "TruncSBPrior.BetaPriors");
    one "prior" "dp_prior" 2 (KMsg "TruncSBPrior.DPPrior");
    one "prior" "py_prior" 3 (KMsg "TruncSBPrior.PYPrior");
    sing "num_components" 4 KUint32;
    sing "infinite_mixture" 5 KBool]);
  (* algorithm_params.proto:8-18 *)
  ("AlgorithmParams", [sing "algo_id" 1 KString;
    sing "rng_seed" 2 KUint32;
    sing "iterations" 3 KUint32;
    sing "burnin" 4 KUint32;
    sing "init_num_clusters" 5 KUint32;
    sing "neal8_n_aux" 6 KUint32;
    sing "splitmerge_n_restr_gs_updates" 7 KUint32;
    sing "splitmerge_n_mh_updates" 8 KUint32;
    sing "splitmerge_n_full_gs_updates" 9 KUint32]);
  (* algorithm_state.proto:19-32 *)
  ("AlgorithmState.ClusterState", [one "val" "uni_ls_state" 1 (KMsg "UniLSState");
    one "val" "multi_ls_state" 2 (KMsg "MultiLSState");
    sing "cardinality" 3 KInt32;
    one "val" "lin_reg_uni_ls_state" 4 (KMsg "LinRegUniLSState");
    one "val" "general_state" 5 (KMsg "Vector");
    one "val" "fa_state" 6 (KMsg "FAState")]);
  (* algorithm_state.proto:39-49 *)
  ("AlgorithmState.HierarchyHypers", [one "val" "general_state" 1 (KMsg "Vector");
    one "val" "nnig_state" 2 (KMsg "NIGDistribution");
    one "val" "nnw_state" 3 (KMsg "NWDistribution");
    one "val" "lin_reg_uni_state" 4 (KMsg "MultiNormalIGDistribution");
    one "val" "nnxig_state" 5 (KMsg "NxIGDistribution");
    one "val" "fa_state" 7 (KMsg "FAPriorDistribution")]);
  (* algorithm_state.proto:18-52 *)
  ("AlgorithmState", [rep "cluster_states" 1 (KMsg "AlgorithmState.ClusterState");
    rep "cluster_allocs" 2 KInt32;
    sing "mixing_state" 3 (KMsg "MixingState");
    sing "iteration_num" 4 KInt32;
    sing "hierarchy_hypers" 5 (KMsg "AlgorithmState.HierarchyHypers")]);
  (* semihdp.proto:9-17 *)
  ("SemiHdpState.ClusterState", [one "val" "uni_ls_state" 1 (KMsg "UniLSState");
    one "val" "multi_ls_state" 2 (KMsg "MultiLSState");
    sing "cardinality" 3 KInt32;
    one "val" "lin_reg_uni_ls_state" 4 (KMsg "LinRegUniLSState");
    one "val" "general_state" 5 (KMsg "Vector")]);
  (* semihdp.proto:19-24 *)
  ("SemiHdpState.RestaurantState", [rep "theta_stars" 1 (KMsg "SemiHdpState.ClusterState");
    rep "n_by_clus" 2 KInt32;
    rep "table_to_shared" 3 KInt32;
    rep "table_to_idio" 4 KInt32]);
  (* semihdp.proto:26-28 *)
  ("SemiHdpState.GroupState", [rep "cluster_allocs" 1 KInt32]);
  (* semihdp.proto:8-35 *)
  ("SemiHdpState", [rep "restaurants" 1 (KMsg "SemiHdpState.RestaurantState");
    rep "groups" 2 (KMsg "SemiHdpState.GroupState");
    rep "taus" 3 (KMsg "SemiHdpState.ClusterState");
    rep "c" 4 KInt32;
    sing "w" 5 KDouble]);
  (* semihdp.proto:38-42 *)
  ("SemiHdpParams.PseudoPriorParams", [sing "card_weight" 1 KDouble;
    sing "mean_perturb_sd" 2 KDouble;
    sing "var_perturb_frac" 3 KDouble]);
  (* semihdp.proto:44-47 *)
  ("SemiHdpParams.WPriorParams", [sing "shape1" 1 KDouble;
    sing "shape2" 2 KDouble]);
  (* semihdp.proto:37-61 *)
  ("SemiHdpParams", [sing "pseudo_prior" 1 (KMsg "SemiHdpParams.PseudoPriorParams");
    sing "dirichlet_concentration" 2 KDouble;
    sing "rest_allocs_update" 3 KString;
    sing "totalmass_rest" 4 KDouble;
    sing "totalmass_hdp" 5 KDouble;
    sing "w_prior" 6 (KMsg "SemiHdpParams.WPriorParams")])

].

Definition fields (t : string) : list field :=
  match find (fun e => fst e =? t)%string types with Some e => snd e | None => [] end.

Definition field_no (t : string) (k : N) : option field := find (fun f => fnum f =? k) (fields t).
Definition field_named (t : string) (s : string) : option field := find (fun f => fname f =? s)%string (fields t).
Definition kind_of (t : string) (k : N) : kind :=
  match field_no t k with Some f => fkind f | None => KBool end.

(** Values of fields: numbers of the three integer types, the 64 bits of a double,
    the bytes of a string, and messages: the pairs of field number and value; a
    repeated field has one pair for each element. *)
Inductive val : Type :=
| VInt (z : Z)
| VDbl (b : N)
| VStr (s : list N)
| VMsg (m : list (N * val)).

Definition message : Type := list (N * val).

Definition entries {A : Type} (k : N) (m : list (N * A)) : list A :=
  map snd (filter (fun e => fst e =? k) m).
