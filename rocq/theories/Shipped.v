(** * The configuration files of the repository (resources/, examples/) *)
From Coq Require Import String Ascii.
From Coq Require Import List NArith.
From Verif Require Import Schema Text.
Import ListNotations.
Local Open Scope string_scope.

(* lines ended by \n or \r\n; the flag says that the last line is ended too *)
Fixpoint lines (nl : string) (last : bool) (l : list string) : string :=
  match l with
  | [] => ""
  | [a] => if last then a ++ nl else a
  | a :: r => a ++ nl ++ lines nl last r
  end.

Definition unix (last : bool) (l : list string) : text := list_ascii_of_string (lines (String (ascii_of_nat 10) "") last l).
Definition crlf (last : bool) (l : list string) : text :=
  list_ascii_of_string (lines (String (ascii_of_nat 13) (String (ascii_of_nat 10) "")) last l).

Definition shipped : list (string * text) := [
(* examples/fa_hierarchy/in/algo.asciipb *)
  ("AlgorithmParams", unix true [
    "##### GENERIC SETTINGS FOR ALL ALGORITHMS #####";
    "# Algorithm ID string, e.g. ""Neal2""";
    "algo_id: ""Neal8""";
    "";
    "# RNG initial seed: any nonnegative integer";
    "rng_seed: 20201124";
    "";
    "# Number of iterations of the algorithm";
    "iterations: 1100";
    "";
    "# Number of initial iterations discarded by the algorithm";
    "burnin: 100";
    "";
    "# Number of clusters in which data will be first initialized";
    "# (NOTE: If you wish to initialize one datum per cluster, please write 0.)";
    "# (NOTE: This value is ONLY used for initialization, and it may be overwritten";
    "#  by certain mixing objects, such as LogSBMixing. Please check a mixing's";
    "#  initialize() function to know for sure whether or not it will override this";
    "#  value.)";
    "init_num_clusters: 3";
    "";
    "";
    "##### ALGORITHM-SPECIFIC SETTINGS #####";
    "# Neal8 number of auxiliary blocks";
    "# (NOTE: 3 is the recommended value in most cases, please change it only if you";
    "#  know what you're doing.)";
    "neal8_n_aux: 3"]);
(* examples/fa_hierarchy/in/fa.asciipb *)
  ("FAPrior", unix true [
    "fixed_values {";
    "	    #Automatic initialization if size of parameters is 0. Use the syntax below to set hyperparameters manually.";
    "  mutilde: {";
    "    size:0";
    "    data:[]";
    "    #size:20";
    "    #data:[50.71368, 51.54430, 52.06730, 52.86145, 53.39870, 54.14019, 54.92412, 55.46906, 56.30326, 57.10029, 57.64240, 58.27382, 58.84905, 59.47209, 60.35402, 60.87941, 61.67874, 62.22960, 63.06052, 63.57241]";
    "    }";
    "  beta: {";
    "    size:0";
    "    data:[]";
    "    #size:20";
    "    #data:[35.67803, 31.78040, 31.89471, 32.05035, 27.65942, 29.61652, 24.34434, 25.66590, 24.47986, 25.06988, 24.66126, 29.17324, 23.63442, 23.63596, 24.57538, 22.61197, 25.00478, 28.55595, 25.03113, 25.07533]";
    "    }";
    "  phi: 0.01";
    "  alpha0: 5";
    "  q: 5";
    "}"]);
(* examples/fa_hierarchy/in/dp_gamma.asciipb *)
  ("DPPrior", unix true [
    "gamma_prior {";
    "  totalmass_prior {";
    "    shape: 4.0";
    "    rate: 2.0";
    "  }";
    "}"]);
(* resources/tutorial/algo.asciipb *)
  ("AlgorithmParams", unix true [
    "##### GENERIC SETTINGS FOR ALL ALGORITHMS #####";
    "# Algorithm ID string, e.g. ""Neal2""";
    "algo_id: ""Neal2""";
    "";
    "# RNG initial seed: any nonnegative integer";
    "rng_seed: 20201124";
    "";
    "# Number of iterations of the algorithm";
    "iterations: 1100";
    "";
    "# Number of initial iterations discarded by the algorithm";
    "burnin: 100";
    "";
    "# Number of clusters in which data will be first initialized";
    "# (NOTE: If you wish to initialize one datum per cluster, please write 0.)";
    "# (NOTE: This value is ONLY used for initialization, and it may be overwritten";
    "#  by certain mixing objects, such as LogSBMixing. Please check a mixing's";
    "#  initialize() function to know for sure whether or not it will override this";
    "#  value.)";
    "init_num_clusters: 3";
    "";
    "";
    "##### ALGORITHM-SPECIFIC SETTINGS #####";
    "# Neal8 number of auxiliary blocks";
    "# (NOTE: 3 is the recommended value in most cases, please change it only if you";
    "#  know what you're doing.)";
    "neal8_n_aux: 3";
    "";
    "splitmerge_n_restr_gs_updates: 5";
    "splitmerge_n_mh_updates: 1";
    "splitmerge_n_full_gs_updates: 1"]);
(* resources/tutorial/nnw_ngiw.asciipb *)
  ("NNWPrior", crlf true [
    "ngiw_prior {";
    "  mean_prior {";
    "    mean {";
    "      size: 2";
    "      data: 5.5";
    "      data: 5.5";
    "    }";
    "    var {";
    "      rows: 2";
    "      cols: 2";
    "      data: 0.2";
    "      data: 0.0";
    "      data: 0.0";
    "      data: 0.2";
    "    }";
    "  }";
    "  var_scaling_prior {";
    "    shape: 0.2";
    "    rate: 0.6";
    "  }";
    "  deg_free: 5.0";
    "  scale_prior {";
    "    deg_free: 5.0";
    "    scale {";
    "      rows: 2";
    "      cols: 2";
    "      data: 5.0";
    "      data: 0.0";
    "      data: 0.0";
    "      data: 5.0";
    "    }";
    "  }";
    "}"]);
(* resources/tutorial/mfm_fixed.asciipb *)
  ("MFMPrior", unix true [
    "fixed_value {";
    "    lambda: 10";
    "    gamma: 1";
    "}"]);
(* resources/tutorial/dp_gamma.asciipb *)
  ("DPPrior", crlf true [
    "gamma_prior {";
    "  totalmass_prior {";
    "    shape: 4.0";
    "    rate: 2.0";
    "  }";
    "}"]);
(* resources/tutorial/lapnig_fixed.asciipb *)
  ("LapNIGPrior", crlf true [
    "fixed_values {";
    "  mean: 0";
    "  var: 10";
    "  shape: 2";
    "  scale: 1";
    "  mh_mean_var: 10;";
    "  mh_log_scale_var: 1;";
    "}"]);
(* resources/tutorial/nnig_ngg.asciipb *)
  ("NNIGPrior", crlf true [
    "ngg_prior {";
    "  mean_prior {";
    "    mean: 5.5";
    "    var: 2.25";
    "  }";
    "  var_scaling_prior {";
    "    shape: 0.2";
    "    rate: 0.6";
    "  }";
    "  shape: 1.5";
    "  scale_prior {";
    "    shape: 4.0";
    "    rate: 2.0";
    "  }";
    "}"]);
(* resources/algo_cond_settings.asciipb *)
  ("AlgorithmParams", unix true [
    "##### GENERIC SETTINGS FOR ALL ALGORITHMS #####";
    "# Algorithm ID string, e.g. ""Neal2""";
    "algo_id: ""BlockedGibbs""";
    "";
    "# RNG initial seed: any nonnegative integer";
    "rng_seed: 20201124";
    "";
    "# Number of iterations of the algorithm";
    "iterations: 1000";
    "";
    "# Number of initial iterations discarded by the algorithm";
    "burnin: 100";
    "";
    "# Number of clusters in which data will be first initialized";
    "# (NOTE: If you wish to initialize one datum per cluster, please write 0.)";
    "# (NOTE: This value is ONLY used for initialization, and it may be overwritten";
    "#  by certain mixing objects, such as LogSBMixing. Please check a mixing's";
    "#  initialize() function to know for sure whether or not it will override this";
    "#  value.)";
    "init_num_clusters: 3"]);
(* resources/algo_marg_settings.asciipb *)
  ("AlgorithmParams", unix true [
    "##### GENERIC SETTINGS FOR ALL ALGORITHMS #####";
    "# Algorithm ID string, e.g. ""Neal2""";
    "algo_id: ""Neal3""";
    "";
    "# RNG initial seed: any nonnegative integer";
    "rng_seed: 20201124";
    "";
    "# Number of iterations of the algorithm";
    "iterations: 1100";
    "";
    "# Number of initial iterations discarded by the algorithm";
    "burnin: 100";
    "";
    "# Number of clusters in which data will be first initialized";
    "# (NOTE: If you wish to initialize one datum per cluster, please write 0.)";
    "# (NOTE: This value is ONLY used for initialization, and it may be overwritten";
    "#  by certain mixing objects, such as LogSBMixing. Please check a mixing's";
    "#  initialize() function to know for sure whether or not it will override this";
    "#  value.)";
    "init_num_clusters: 3";
    "";
    "";
    "##### ALGORITHM-SPECIFIC SETTINGS #####";
    "# Neal8 number of auxiliary blocks";
    "# (NOTE: 3 is the recommended value in most cases, please change it only if you";
    "#  know what you're doing.)";
    "neal8_n_aux: 3";
    "";
    "##### SPLIT AND MERGE SETTING #####";
    "# Split and Merge number of restricted GS scans for each MH step.";
    "splitmerge_n_restr_gs_updates: 5";
    "";
    "# Split and Merge number of MH updates for each iteration";
    "splitmerge_n_mh_updates: 1";
    "";
    "# Split and Merge number of full GS scans for each iteration";
    "splitmerge_n_full_gs_updates: 1"]);
(* resources/benchmarks/default_algo_params.asciipb *)
  ("AlgorithmParams", unix true [
    "rng_seed: 20210329";
    "";
    "iterations: 11000";
    "";
    "burnin: 100";
    "";
    "init_num_clusters: 5";
    "";
    "neal8_n_aux: 3"])
].
