(** * The settings that the program takes from the configuration files
    (base_algorithm.cc:46-54, neal8_algorithm.cc:16-21, split_and_merge_algorithm.cc:10-16;
    the priors read by dirichlet_mixing.cc:93-117, pityor_mixing.cc:74-89,
    mixture_finite_mixing.cc:88-102, nig_prior_model.cc:3-76, nxig_prior_model.cc:3-23).
    Functions only.

    Simplifications: a decimal number stands for the real number that is written, not
    for the double next to it; infinities and not-a-number give no setting ([None]). *)
From Coq Require Import String Ascii.
From Coq Require Import List NArith ZArith Reals.
From Verif Require Import Base Schema Text Mixings Univ.
Import ListNotations.
Local Open Scope string_scope.

(** The accessors of nested fields: a field that is not set has no value. *)
Fixpoint leaf (t : string) (m : tmessage) (path : list string) : option tval :=
  match path with
  | [] => None
  | s :: rest =>
      match field_named t s with
      | None => None
      | Some f =>
          match rev (entries (fnum f) m) with
          | [] => None
          | v :: _ =>
              match rest with
              | [] => Some v
              | _ => match fkind f, v with
                     | KMsg t', XMsg m' => leaf t' m' rest
                     | _, _ => None
                     end
              end
          end
      end
  end.

(** Which member of the [oneof] is set. *)
Definition case_of (t : string) (m : tmessage) (o : string) : option string :=
  option_map fname
    (find (fun f => match fone f, entries (fnum f) m with
                    | Some o', _ :: _ => o' =? o
                    | _, _ => false
                    end) (fields t)).

Definition number (v : tval) : option R :=
  match v with
  | XInt z => Some (IZR z)
  | XDec neg m e =>
      let x := (IZR (Z.of_N m) * powerRZ 10 e)%R in Some (if neg then (- x)%R else x)
  | _ => None
  end.

(* numbers that are not set are zero *)
Definition real_at (t : string) (m : tmessage) (path : list string) : option R :=
  match leaf t m path with None => Some 0%R | Some v => number v end.
Definition count_at (t : string) (m : tmessage) (path : list string) : N :=
  match leaf t m path with Some (XInt z) => Z.to_N z | _ => 0%N end.
Definition text_at (t : string) (m : tmessage) (path : list string) : string :=
  match leaf t m path with Some (XStr s) => string_of_list_ascii s | _ => EmptyString end.

Definition both {A B} (f : option (A -> B)) (a : option A) : option B :=
  match f, a with Some g, Some x => Some (g x) | _, _ => None end.

Record algo_settings : Type := mkAS {
  as_id : string;
  as_seed : N;
  as_maxiter : N;
  as_burnin : N;
  as_init : N;              (* init_num_clusters *)
  as_n_aux : N;             (* Neal8 *)
  as_restr : N;             (* split-merge *)
  as_mh : N;
  as_full : N
}.

Definition algo_settings_of (m : tmessage) : algo_settings :=
  let n s := count_at "AlgorithmParams" m [s] in
  mkAS (text_at "AlgorithmParams" m ["algo_id"]) (n "rng_seed") (n "iterations") (n "burnin") (n "init_num_clusters")
    (n "neal8_n_aux") (n "splitmerge_n_restr_gs_updates") (n "splitmerge_n_mh_updates") (n "splitmerge_n_full_gs_updates").

Definition dp_prior_of (m : tmessage) : option dp_prior :=
  let x := real_at "DPPrior" m in
  match case_of "DPPrior" m "totalmass" with
  | None => Some DPOther
  | Some c =>
      if c =? "fixed_value" then both (Some DPFixed) (x ["fixed_value"; "totalmass"])
      else both (both (Some DPGamma) (x ["gamma_prior"; "totalmass_prior"; "shape"]))
                (x ["gamma_prior"; "totalmass_prior"; "rate"])
  end.

Definition py_prior_of (m : tmessage) : option py_prior :=
  let x := real_at "PYPrior" m in
  match case_of "PYPrior" m "totalmass" with
  | None => Some PYOther
  | Some _ => both (both (Some PYFixed) (x ["fixed_values"; "strength"])) (x ["fixed_values"; "discount"])
  end.

Definition mfm_prior_of (m : tmessage) : option mfm_prior :=
  let x := real_at "MFMPrior" m in
  match case_of "MFMPrior" m "totalmass" with
  | None => Some MFMOther
  | Some _ => both (both (Some MFMFixed) (x ["fixed_value"; "lambda"])) (x ["fixed_value"; "gamma"])
  end.

Definition nig_prior_of (m : tmessage) : option nig_prior :=
  let x := real_at "NNIGPrior" m in
  match case_of "NNIGPrior" m "prior" with
  | None => Some NIGOther
  | Some c =>
      if c =? "fixed_values" then
        both (both (both (both (Some NIGFixed) (x ["fixed_values"; "mean"])) (x ["fixed_values"; "var_scaling"]))
          (x ["fixed_values"; "shape"])) (x ["fixed_values"; "scale"])
      else if c =? "normal_mean_prior" then
        both (both (both (both (both (Some NIGMean) (x ["normal_mean_prior"; "mean_prior"; "mean"]))
          (x ["normal_mean_prior"; "mean_prior"; "var"])) (x ["normal_mean_prior"; "var_scaling"]))
          (x ["normal_mean_prior"; "shape"])) (x ["normal_mean_prior"; "scale"])
      else
        both (both (both (both (both (both (both (Some NIGNgg) (x ["ngg_prior"; "mean_prior"; "mean"]))
          (x ["ngg_prior"; "mean_prior"; "var"])) (x ["ngg_prior"; "var_scaling_prior"; "shape"]))
          (x ["ngg_prior"; "var_scaling_prior"; "rate"])) (x ["ngg_prior"; "scale_prior"; "shape"]))
          (x ["ngg_prior"; "scale_prior"; "rate"])) (x ["ngg_prior"; "shape"])
  end.

Definition nxig_prior_of (m : tmessage) : option nxig_prior :=
  let x := real_at "NNxIGPrior" m in
  match case_of "NNxIGPrior" m "prior" with
  | None => Some NxIGOther
  | Some _ =>
      both (both (both (both (Some NxIGFixed) (x ["fixed_values"; "mean"])) (x ["fixed_values"; "var"]))
        (x ["fixed_values"; "shape"])) (x ["fixed_values"; "scale"])
  end.
