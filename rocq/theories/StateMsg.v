(** * The message of a saved state of a univariate mixture
    (base_algorithm.cc:170-195 [get_state_as_proto]; the states of the clusters:
    base_hierarchy.h:261-267, 283-287 and the likelihoods' [get_as_proto];
    nig_prior_model.cc, nxig_prior_model.cc [get_hypers_proto]; dirichlet_mixing.cc:84-91,
    pityor_mixing.cc:64-72 [get_state_proto]).  Functions only.

    [dbl] gives the bits of the double that stands for a real number. *)
From Coq Require Import String.
From Coq Require Import List NArith ZArith Reals.
From Verif Require Import Schema Mixings Univ RealInst.
Import ListNotations.
Local Open Scope N_scope.

Inductive uni_hyper : Type := HNig (h : nig) | HNxig (h : nxig).

(* what a saved state consists of *)
Record kept : Type := mkKept {
  k_iter : nat;
  k_alloc : list nat;
  k_clusters : list (uni_ls * Z);
  k_hyp : uni_hyper;
  k_mix : mixing
}.

Section Messages.
  Variable dbl : R -> N.

  Definition uni_ls_msg (s : uni_ls) : message :=
    [(1, VDbl (dbl (ls_mean s))); (2, VDbl (dbl (ls_var s)))].

  Definition cluster_msg (c : uni_ls * Z) : message :=
    [(1, VMsg (uni_ls_msg (fst c))); (3, VInt (snd c))].

  Definition hypers_msg (h : uni_hyper) : message :=
    match h with
    | HNig h => [(2, VMsg [(1, VDbl (dbl (ng_mean h))); (2, VDbl (dbl (ng_vs h)));
                           (3, VDbl (dbl (ng_shape h))); (4, VDbl (dbl (ng_scale h)))])]
    | HNxig h => [(5, VMsg [(1, VDbl (dbl (nx_mean h))); (2, VDbl (dbl (nx_var h)));
                            (3, VDbl (dbl (nx_shape h))); (4, VDbl (dbl (nx_scale h)))])]
    end.

  Definition mixing_msg (m : mixing) : message :=
    match m with
    | MixDP _ s => [(1, VMsg [(1, VDbl (dbl (dp_tot s)))])]
    | MixPY _ s => [(2, VMsg [(1, VDbl (dbl (py_str s))); (2, VDbl (dbl (py_dis s)))])]
    end.

  Definition state_msg (k : kept) : message :=
    map (fun c => (1, VMsg (cluster_msg c))) (k_clusters k) ++
    map (fun a => (2, VInt (Z.of_nat a))) (k_alloc k) ++
    [(3, VMsg (mixing_msg (k_mix k))); (4, VInt (Z.of_nat (k_iter k))); (5, VMsg (hypers_msg (k_hyp k)))].
End Messages.
