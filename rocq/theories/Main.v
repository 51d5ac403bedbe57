(** * The output loop of the main program (executables/run_mcmc.cc:221-233).

    For every stored state the allocations of all data rows and the number of
    cluster states are taken; the result of [get_next_state] is ignored, so at the
    end of the chain the freshly built message [blank] is used.  Functions only. *)
From Coq Require Import List Arith.
From Verif Require Import Base.
Import ListNotations.

Section Outputs.
  Variables C M : Type.
  Variable next : C -> res (C * option M).
  Variable reset : C -> C.
  Variable allocs : M -> list nat.   (* state.cluster_allocs *)
  Variable nclus : M -> nat.         (* state.cluster_states_size() *)
  Variable blank : M.

  Definition out_row (n_data : nat) (o : option M) : res (list nat * nat) :=
    let st := match o with Some m => m | None => blank end in
    row <- rmap (at_ (allocs st)) (seq 0 n_data) ;;
    Ok (row, nclus st).

  Fixpoint out_rows (size n_data : nat) (c : C) : res (C * list (list nat * nat)) :=
    match size with
    | O => Ok (c, [])
    | S k =>
        '(c', o) <- next c ;;
        r <- out_row n_data o ;;
        '(c2, rs) <- out_rows k n_data c' ;;
        Ok (c2, r :: rs)
    end.

  Definition outputs (size n_data : nat) (c : C) : res (C * list (list nat * nat)) :=
    '(c', rs) <- out_rows size n_data c ;; Ok (reset c', rs).
End Outputs.
