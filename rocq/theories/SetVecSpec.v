(** * What a message says about vectors and matrices *)
From Coq Require Import String NArith ZArith Reals.
From mathcomp Require Import all_ssreflect all_algebra.
From Verif Require Import Base Mixings Univ RealField MatLib Multi Fa LogitUp Schema Text Settings SettingsSpec.
From Verif Require Stick.
Set Implicit Arguments.
Unset Strict Implicit.
Unset Printing Implicit Defensive.
Import GRing.Theory.
Local Open Scope ring_scope.
Local Open Scope string_scope.

(** The numbers given to a repeated field, in the order of the file. *)
Inductive listed (k : N) : tmessage -> seq R -> Prop :=
| ls_end : listed k [::] [::]
| ls_here : forall v x m l, stands_for v x -> listed k m l -> listed k ((k, v) :: m) (x :: l)
| ls_skip : forall k' v m l, k' <> k -> listed k m l -> listed k ((k', v) :: m) l.

Definition flagged (t : string) (m : tmessage) (path : list string) (b : bool) : Prop :=
  if b then says t m path (XInt 1) else says t m path (XInt 0) \/ silent t m path.

(** [size] and [data] of Vector: fields 1 and 2. *)
Definition vector_given (t : string) (m : tmessage) (path : list string) (n : nat) (x : 'cV[R]_n) : Prop :=
  (exists v l, says t m path (XMsg v) /\ counted "Vector" v (cons "size" nil) (N.of_nat n) /\ listed 2 v l /\
     size l = n /\ forall i, x i 0 = nth 0 l i) \/
  (silent t m path /\ n = 0%N).

(** [rows], [cols], [data] and [rowmajor] of Matrix: fields 1 to 4. *)
Definition matrix_given (t : string) (m : tmessage) (path : list string) (r c : nat) (A : 'M[R]_(r, c)) : Prop :=
  exists v l b, says t m path (XMsg v) /\ counted "Matrix" v (cons "rows" nil) (N.of_nat r) /\
     counted "Matrix" v (cons "cols" nil) (N.of_nat c) /\ flagged "Matrix" v (cons "rowmajor" nil) b /\ listed 3 v l /\
     size l = (r * c)%N /\
     forall (i : 'I_r) (j : 'I_c), A i j = nth 0 l (if b then i * c + j else j * r + i)%N.

Notation "[ 'at' x ]" := (cons x nil).
Notation "[ 'at' x ; y ; .. ; z ]" := (cons x (cons y .. (cons z nil) ..)).

Inductive nw_says (m : tmessage) (d : nat) : nw_prior d -> Prop :=
| nws_fixed : forall mean vs df scale, chosen "NNWPrior" m "fixed_values" ->
    vector_given "NNWPrior" m [at "fixed_values"; "mean"] mean -> given "NNWPrior" m [at "fixed_values"; "var_scaling"] vs ->
    given "NNWPrior" m [at "fixed_values"; "deg_free"] df -> matrix_given "NNWPrior" m [at "fixed_values"; "scale"] scale ->
    nw_says m (NWFixed mean vs df scale)
| nws_mean : forall mean var vs df scale, chosen "NNWPrior" m "normal_mean_prior" ->
    vector_given "NNWPrior" m [at "normal_mean_prior"; "mean_prior"; "mean"] mean ->
    matrix_given "NNWPrior" m [at "normal_mean_prior"; "mean_prior"; "var"] var ->
    given "NNWPrior" m [at "normal_mean_prior"; "var_scaling"] vs -> given "NNWPrior" m [at "normal_mean_prior"; "deg_free"] df ->
    matrix_given "NNWPrior" m [at "normal_mean_prior"; "scale"] scale ->
    nw_says m (NWMean mean var vs df scale)
| nws_ngiw : forall mean var a b nu scale df, chosen "NNWPrior" m "ngiw_prior" ->
    vector_given "NNWPrior" m [at "ngiw_prior"; "mean_prior"; "mean"] mean ->
    matrix_given "NNWPrior" m [at "ngiw_prior"; "mean_prior"; "var"] var ->
    given "NNWPrior" m [at "ngiw_prior"; "var_scaling_prior"; "shape"] a -> given "NNWPrior" m [at "ngiw_prior"; "var_scaling_prior"; "rate"] b ->
    given "NNWPrior" m [at "ngiw_prior"; "scale_prior"; "deg_free"] nu -> matrix_given "NNWPrior" m [at "ngiw_prior"; "scale_prior"; "scale"] scale ->
    given "NNWPrior" m [at "ngiw_prior"; "deg_free"] df ->
    nw_says m (NWNgiw mean var a b nu scale df)
| nws_none : silent "NNWPrior" m [at "fixed_values"] -> silent "NNWPrior" m [at "normal_mean_prior"] -> silent "NNWPrior" m [at "ngiw_prior"] ->
    nw_says m (NWOther d).

Inductive mnig_says (m : tmessage) (d : nat) : mnig_prior d -> Prop :=
| mns_fixed : forall mean vs shape scale, chosen "LinRegUniPrior" m "fixed_values" ->
    vector_given "LinRegUniPrior" m [at "fixed_values"; "mean"] mean -> matrix_given "LinRegUniPrior" m [at "fixed_values"; "var_scaling"] vs ->
    given "LinRegUniPrior" m [at "fixed_values"; "shape"] shape -> given "LinRegUniPrior" m [at "fixed_values"; "scale"] scale ->
    mnig_says m (MNIGFixed mean vs shape scale)
| mns_none : silent "LinRegUniPrior" m [at "fixed_values"] -> mnig_says m (MNIGOther d).

Inductive fa_says (m : tmessage) (p : nat) : fa_prior p -> nat -> Prop :=
| fas_fixed : forall mutilde beta phi alpha0 q, chosen "FAPrior" m "fixed_values" ->
    vector_given "FAPrior" m [at "fixed_values"; "mutilde"] mutilde -> vector_given "FAPrior" m [at "fixed_values"; "beta"] beta ->
    given "FAPrior" m [at "fixed_values"; "phi"] phi -> given "FAPrior" m [at "fixed_values"; "alpha0"] alpha0 ->
    counted "FAPrior" m [at "fixed_values"; "q"] (N.of_nat q) ->
    fa_says m (FAFixed mutilde beta phi alpha0) q
| fas_none : forall q, silent "FAPrior" m [at "fixed_values"] -> fa_says m (FAOther p) q.

(** The beta distributions: each its own message, in the order of the file. *)
Inductive betas : tmessage -> seq (R * R) -> Prop :=
| bs_end : betas [::] [::]
| bs_more : forall v a b m l, given "BetaDistribution" v [at "shape_a"] a -> given "BetaDistribution" v [at "shape_b"] b ->
    betas m l -> betas ((Npos xH, XMsg v) :: m) ((a, b) :: l).

Inductive sb_says (m : tmessage) : Stick.sbprior Stick.numR -> Prop :=
| sbs_beta : forall v l, says "TruncSBPrior" m [at "beta_priors"] (XMsg v) -> betas v l -> sb_says m (Stick.BetaPriors Stick.numR l)
| sbs_dp : forall a, chosen "TruncSBPrior" m "dp_prior" -> given "TruncSBPrior" m [at "dp_prior"; "totalmass"] a ->
    sb_says m (Stick.DpPrior Stick.numR a)
| sbs_py : forall s d, chosen "TruncSBPrior" m "py_prior" -> given "TruncSBPrior" m [at "py_prior"; "strength"] s ->
    given "TruncSBPrior" m [at "py_prior"; "discount"] d -> sb_says m (Stick.PyPrior Stick.numR s d).

(** The mean as a list and the variance as the list of its rows. *)
Definition rows_of r c (A : 'M[R]_(r, c)) : seq (seq R) := [seq [seq A i j | j <- enum 'I_c] | i <- enum 'I_r].
Definition column_of n (x : 'cV[R]_n) : seq R := [seq x i 0 | i <- enum 'I_n].

Inductive lg_says (m : tmessage) : lgprior -> Prop :=
| lgs_normal : forall d (mean : 'cV[R]_d) (var : 'M[R]_d) step H, (0 < d)%N -> chosen "LogSBPrior" m "normal_prior" ->
    vector_given "LogSBPrior" m [at "normal_prior"; "mean"] mean -> matrix_given "LogSBPrior" m [at "normal_prior"; "var"] var ->
    given "LogSBPrior" m [at "step_size"] step -> counted "LogSBPrior" m [at "num_components"] (N.of_nat H) ->
    lg_says m (mkLP H step (Some (column_of mean, rows_of var)))
| lgs_none : forall step H, silent "LogSBPrior" m [at "normal_prior"] -> given "LogSBPrior" m [at "step_size"] step ->
    counted "LogSBPrior" m [at "num_components"] (N.of_nat H) -> lg_says m (mkLP H step None).
