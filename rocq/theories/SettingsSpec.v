(** * What a message says about a setting *)
From Coq Require Import String.
From Coq Require Import List NArith ZArith Reals.
From Verif Require Import Schema Text Mixings Univ.
Import ListNotations.
Local Open Scope string_scope.

Inductive says : string -> tmessage -> list string -> tval -> Prop :=
| says_here : forall t m f v, In f (fields t) -> frep f = false -> In (fnum f, v) m -> says t m [fname f] v
| says_in : forall t m f t' m' path v, In f (fields t) -> frep f = false -> fkind f = KMsg t' -> In (fnum f, XMsg m') m ->
    says t' m' path v -> says t m (fname f :: path) v.

(** The real number that is written. *)
Inductive stands_for : tval -> R -> Prop :=
| sf_int : forall z, stands_for (XInt z) (IZR z)
| sf_pos : forall m e, stands_for (XDec false m e) (IZR (Z.of_N m) * powerRZ 10 e)
| sf_neg : forall m e, stands_for (XDec true m e) (- (IZR (Z.of_N m) * powerRZ 10 e)).

Definition silent (t : string) (m : tmessage) (path : list string) : Prop := forall v, ~ says t m path v.

(** A number is as the file says, or zero. *)
Definition given (t : string) (m : tmessage) (path : list string) (x : R) : Prop :=
  (exists v, says t m path v /\ stands_for v x) \/ (silent t m path /\ x = 0%R).
Definition counted (t : string) (m : tmessage) (path : list string) (n : N) : Prop :=
  says t m path (XInt (Z.of_N n)) \/ (silent t m path /\ n = 0%N).

Definition chosen (t : string) (m : tmessage) (s : string) : Prop := exists v, says t m [s] v.

Inductive dp_says (m : tmessage) : dp_prior -> Prop :=
| dps_fixed : forall a, chosen "DPPrior" m "fixed_value" -> given "DPPrior" m ["fixed_value"; "totalmass"] a -> dp_says m (DPFixed a)
| dps_gamma : forall a b, chosen "DPPrior" m "gamma_prior" ->
    given "DPPrior" m ["gamma_prior"; "totalmass_prior"; "shape"] a ->
    given "DPPrior" m ["gamma_prior"; "totalmass_prior"; "rate"] b -> dp_says m (DPGamma a b)
| dps_none : silent "DPPrior" m ["fixed_value"] -> silent "DPPrior" m ["gamma_prior"] -> dp_says m DPOther.

Inductive py_says (m : tmessage) : py_prior -> Prop :=
| pys_fixed : forall a b, chosen "PYPrior" m "fixed_values" -> given "PYPrior" m ["fixed_values"; "strength"] a ->
    given "PYPrior" m ["fixed_values"; "discount"] b -> py_says m (PYFixed a b)
| pys_none : silent "PYPrior" m ["fixed_values"] -> py_says m PYOther.

Inductive mfm_says (m : tmessage) : mfm_prior -> Prop :=
| mfs_fixed : forall a b, chosen "MFMPrior" m "fixed_value" -> given "MFMPrior" m ["fixed_value"; "lambda"] a ->
    given "MFMPrior" m ["fixed_value"; "gamma"] b -> mfm_says m (MFMFixed a b)
| mfs_none : silent "MFMPrior" m ["fixed_value"] -> mfm_says m MFMOther.

Inductive nig_says (m : tmessage) : nig_prior -> Prop :=
| nis_fixed : forall a b c d, chosen "NNIGPrior" m "fixed_values" ->
    given "NNIGPrior" m ["fixed_values"; "mean"] a -> given "NNIGPrior" m ["fixed_values"; "var_scaling"] b ->
    given "NNIGPrior" m ["fixed_values"; "shape"] c -> given "NNIGPrior" m ["fixed_values"; "scale"] d ->
    nig_says m (NIGFixed a b c d)
| nis_mean : forall a b c d e, chosen "NNIGPrior" m "normal_mean_prior" ->
    given "NNIGPrior" m ["normal_mean_prior"; "mean_prior"; "mean"] a -> given "NNIGPrior" m ["normal_mean_prior"; "mean_prior"; "var"] b ->
    given "NNIGPrior" m ["normal_mean_prior"; "var_scaling"] c -> given "NNIGPrior" m ["normal_mean_prior"; "shape"] d ->
    given "NNIGPrior" m ["normal_mean_prior"; "scale"] e ->
    nig_says m (NIGMean a b c d e)
| nis_ngg : forall a b c d e f g, chosen "NNIGPrior" m "ngg_prior" ->
    given "NNIGPrior" m ["ngg_prior"; "mean_prior"; "mean"] a -> given "NNIGPrior" m ["ngg_prior"; "mean_prior"; "var"] b ->
    given "NNIGPrior" m ["ngg_prior"; "var_scaling_prior"; "shape"] c -> given "NNIGPrior" m ["ngg_prior"; "var_scaling_prior"; "rate"] d ->
    given "NNIGPrior" m ["ngg_prior"; "scale_prior"; "shape"] e -> given "NNIGPrior" m ["ngg_prior"; "scale_prior"; "rate"] f ->
    given "NNIGPrior" m ["ngg_prior"; "shape"] g ->
    nig_says m (NIGNgg a b c d e f g)
| nis_none : silent "NNIGPrior" m ["fixed_values"] -> silent "NNIGPrior" m ["normal_mean_prior"] -> silent "NNIGPrior" m ["ngg_prior"] ->
    nig_says m NIGOther.

Inductive nxig_says (m : tmessage) : nxig_prior -> Prop :=
| nxs_fixed : forall a b c d, chosen "NNxIGPrior" m "fixed_values" ->
    given "NNxIGPrior" m ["fixed_values"; "mean"] a -> given "NNxIGPrior" m ["fixed_values"; "var"] b ->
    given "NNxIGPrior" m ["fixed_values"; "shape"] c -> given "NNxIGPrior" m ["fixed_values"; "scale"] d ->
    nxig_says m (NxIGFixed a b c d)
| nxs_none : silent "NNxIGPrior" m ["fixed_values"] -> nxig_says m NxIGOther.
