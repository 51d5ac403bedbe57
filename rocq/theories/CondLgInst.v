(** * Programs of the blocked Gibbs algorithm with the logit stick-breaking mixing.

    The mixing of LogitUp.v (logit_sb_mixing.{h,cc}) put into an interface of
    Hier.v.  Functions only. *)
From Coq Require Import Bool List Arith ZArith Reals.
From Verif Require Import Base Hier XReal CondInst LogitUp.
Import ListNotations.
Local Open Scope R_scope.

(** The log-weights at the covariate [x].  Covariates of a wrong size abort in
    the code; the empty vector stands for it, whose first entry no run can read
    either. *)
Definition lg_logweights (s : lg) (x : list R) : list xreal :=
  match lg_weights true s x with Ok l => map Fin l | _ => [] end.

(** blocked_gibbs_algorithm.cc:25-26 reads row [i] of the covariates [rows]; [up]
    is the update, which reads the allocations (logit_sb_mixing.cc:17-52). *)
Definition lg_iface (I : Iface) (toW : xreal -> W I) (rows : list (list R))
    (up : lg -> list nat -> Rng I -> res (lg * Rng I)) : Iface :=
  with_mixing I lg (fun s i => match nth_error rows i with Some x => map toW (lg_logweights s x) | None => [] end)
    (fun s _ al r => up s al r).
