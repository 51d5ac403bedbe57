(** * Programs of the slice sampler on the hierarchies over the reals.

    The sampler of Cond.v run for a number of iterations, with the state saved
    as in base_algorithm.h:49-78.  Functions only. *)
From Coq Require Import String.
From Coq Require Import Bool List Arith ZArith Reals.
From Verif Require Import Base Hier Algos Run XReal Stick StickFacts Cond CondInst.
Import ListNotations.
Local Open Scope R_scope.

(** The mixing is a field of the sampler (slice_sampler.h, [slicer] of Cond.v);
    the one of the interface is not read. *)
Definition slice_iface (I : Iface) : Iface :=
  with_mixing I unit (fun _ _ => []) (fun m _ _ r => Ok (m, r)).

Section Program.
  Variable I : Iface.
  Variable hyp0 : res (Hyp I).
  Variable mix0 : res (sb numR).
  Variable data : list (Datum I).
  Variable pos : nat -> nat.
  Variable st : St I.
  Variable bet : R -> R -> Rng I -> R * Rng I.
  Variable unif01 : R -> Rng I -> R * Rng I.
  (** The constant 1e-16 of slice_sampler.cc:31 and an unwritten entry. *)
  Variables tiny junk : R.
  Local Notation J := (slice_iface I).
  Local Notation covs := (repeat (cov0 I) (length data)).
  Local Notation h0 := (mkHier J [] 0%Z (stats0 I) st false None).
  Local Notation saved := (list (snapshot J * sb numR)).

  (** base_algorithm.h:61-71 with [step] of slice_sampler.cc:19-24.  [None]: a
      stick-breaking loop has not ended after [fuel] rounds. *)
  Fixpoint slice_loop (fuel burnin k it : nat) (s : slicer J numR) (r : Rng I) (out : saved)
      : option (res ((slicer J numR * Rng I) * saved)) :=
    match k with
    | O => Some (Ok ((s, r), out))
    | S k' =>
        match slice_step (I:=J) data covs (K:=numR) bet unif01 tiny junk fuel s r with
        | Some (Ok (s', r')) =>
            if burnin <=? it then
              match get_state it (s_alg s') with
              | Ok snap => slice_loop fuel burnin k' (S it) s' r' (out ++ [(snap, s_mix s')])
              | Throw e => Some (Throw e)
              | Abort => Some Abort
              | UB => Some UB
              end
            else slice_loop fuel burnin k' (S it) s' r' out
        | Some (Throw e) => Some (Throw e)
        | Some Abort => Some Abort
        | Some UB => Some UB
        | None => None
        end
    end.

  (** slice_sampler.cc:11-17 and the loop. *)
  Definition slice_run (fuel maxiter burnin : nat) (r : Rng I) : option (res ((slicer J numR * Rng I) * saved)) :=
    match (m <- mix0 ;; hy <- hyp0 ;; slice_initialize (I:=J) data covs (K:=numR) unif01 tiny hy tt m pos [h0] r) with
    | Ok (s, r1) => slice_loop fuel burnin maxiter 0 s r1 []
    | Throw e => Some (Throw e)
    | Abort => Some Abort
    | UB => Some UB
    end.
End Program.
