(** * What the accessors of a message return, and what a message records of a state *)
From Coq Require Import String.
From Coq Require Import List NArith ZArith Reals.
From Verif Require Import Schema WireSpec Mixings Univ RealInst StateMsg.
Import ListNotations.
Local Open Scope string_scope.

Inductive shows : string -> message -> list string -> val -> Prop :=
| shows_here : forall t m f v, In f (fields t) -> In v (reads f m) -> shows t m [fname f] v
| shows_in : forall t m f t' m' path v, In f (fields t) -> fkind f = KMsg t' -> In (VMsg m') (reads f m) ->
    shows t' m' path v -> shows t m (fname f :: path) v.

(** All the values of a repeated field, in order. *)
Definition lists (t : string) (m : message) (s : string) (vs : list val) : Prop :=
  exists f, In f (fields t) /\ fname f = s /\ frep f = true /\ reads f m = vs.

Section Recorded.
  Variable dbl : R -> N.

  Definition records_cluster (c : uni_ls * Z) (v : val) : Prop := exists m, v = VMsg m /\
    shows "AlgorithmState.ClusterState" m ["uni_ls_state"; "mean"] (VDbl (dbl (ls_mean (fst c)))) /\
    shows "AlgorithmState.ClusterState" m ["uni_ls_state"; "var"] (VDbl (dbl (ls_var (fst c)))) /\
    shows "AlgorithmState.ClusterState" m ["cardinality"] (VInt (snd c)).

  Definition records_hypers (h : uni_hyper) (m : message) : Prop :=
    let at_ which s x := shows "AlgorithmState" m ["hierarchy_hypers"; which; s] (VDbl (dbl x)) in
    match h with
    | HNig h => at_ "nnig_state" "mean" (ng_mean h) /\ at_ "nnig_state" "var_scaling" (ng_vs h) /\
        at_ "nnig_state" "shape" (ng_shape h) /\ at_ "nnig_state" "scale" (ng_scale h)
    | HNxig h => at_ "nnxig_state" "mean" (nx_mean h) /\ at_ "nnxig_state" "var" (nx_var h) /\
        at_ "nnxig_state" "shape" (nx_shape h) /\ at_ "nnxig_state" "scale" (nx_scale h)
    end.

  Definition records_mixing (x : mixing) (m : message) : Prop :=
    let at_ which s x := shows "AlgorithmState" m ["mixing_state"; which; s] (VDbl (dbl x)) in
    match x with
    | MixDP _ s => at_ "dp_state" "totalmass" (dp_tot s)
    | MixPY _ s => at_ "py_state" "strength" (py_str s) /\ at_ "py_state" "discount" (py_dis s)
    end.

  (** The message has the whole state. *)
  Definition recorded (k : kept) (m : message) : Prop :=
    shows "AlgorithmState" m ["iteration_num"] (VInt (Z.of_nat (k_iter k))) /\
    lists "AlgorithmState" m "cluster_allocs" (map (fun a => VInt (Z.of_nat a)) (k_alloc k)) /\
    (exists vs, lists "AlgorithmState" m "cluster_states" vs /\ Forall2 records_cluster (k_clusters k) vs) /\
    records_hypers (k_hyp k) m /\ records_mixing (k_mix k) m.
End Recorded.
