(** * Programs of the blocked Gibbs algorithm on the hierarchies over the reals.

    An interface of Hier.v with its mixing replaced, the truncated stick-breaking
    mixing as such a replacement, and the program of blocked_gibbs_algorithm.{h,cc}
    on it.  Functions only. *)
From Coq Require Import String.
From Coq Require Import Bool List Arith ZArith Reals.
From Verif Require Import Base Hier Algos Run XReal Stick StickFacts Cond.
Import ListNotations.
Local Open Scope R_scope.

(** Conditional mixings do not implement the two masses (abstract_mixing.h:163-229). *)
Definition with_mixing (I : Iface) (M : Type) (lw : M -> nat -> list (W I))
    (up : M -> list Z -> list nat -> Rng I -> res (M * Rng I)) : Iface := {|
  Datum := Datum I;
  Cov := Cov I;
  cov0 := cov0 I;
  Stats := Stats I;
  St := St I;
  Hyp := Hyp I;
  W := W I;
  Mix := M;
  Rng := Rng I;
  conj := conj I;
  row_ok := row_ok I;
  stats0 := stats0 I;
  stats_op := stats_op I;
  post := post I;
  prior_sample := prior_sample I;
  other_draw := other_draw I;
  init_state := init_state I;
  like_lpdf := like_lpdf I;
  marg_lpdf := marg_lpdf I;
  mass_ex := fun _ _ _ _ => Throw "mass_existing_cluster() not implemented";
  mass_new := fun _ _ _ => Throw "mass_new_cluster() not implemented";
  mix_logweights := lw;
  mix_update := up;
  hyp_update := hyp_update I;
  w0 := w0 I;
  wadd := wadd I;
  wneg := wneg I;
  wsublog := wsublog I;
  log_softmax := log_softmax I;
  categorical := categorical I;
  uniform := uniform I;
  accept := accept I
|}.

(** truncated_sb_mixing.cc:52-59: the stored log-weights, which every change of
    the sticks recomputes (cc:47-48, 115-116, 137). *)
Definition sb_logweights (m : sb numR) : list xreal := logweights_from_sticks (firstn (sb_nc m) (sb_sticks m)).

(** A hierarchy whose log-weights are extended reals, with the truncated
    stick-breaking mixing; [bet] is [stan::math::beta_rng]. *)
Definition sb_iface (I : Iface) (toW : xreal -> W I) (bet : R -> R -> Rng I -> R * Rng I) : Iface :=
  with_mixing I (sb numR) (fun m _ => map toW (sb_logweights m)) (fun m cards _ r => sb_update (K:=numR) bet m cards r).

(** ** The program

    [initialize] of the mixing and of the prior, the clusters, then the
    iterations.  [ncomp] is the number of components the mixing has after its own
    [initialize]; zero stands for one per datum (base_algorithm.cc:115-124), and
    blocked_gibbs_algorithm.cc:22 reads the result. *)
Section Program.
  Variable I : Iface.
  Variable hyp0 : res (Hyp I).
  Variable mix0 : res (Mix I).
  Variable ncomp : Mix I -> nat.
  Variable data : list (Datum I).
  Variable pos : nat -> nat.
  Variable st : St I.
  Local Notation covs := (repeat (cov0 I) (length data)).
  Local Notation h0 := (mkHier I [] 0%Z (stats0 I) st false None).

  Definition blocked_run (maxiter burnin : nat) (r : Rng I) :=
    m <- mix0 ;; hy <- hyp0 ;;
    run (init_clusters data covs false hy m (ncomp m) pos [h0] r)
      (base_step (blocked_sample_allocations data covs (num_components I data (ncomp m))) false) maxiter burnin.
End Program.
