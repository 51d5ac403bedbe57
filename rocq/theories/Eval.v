(** * Predictive densities from saved states.

    Model of [lpdf_from_state] (marginal_algorithm.cc:22-56,
    conditional_algorithm.cc:10-39), of the marginal components
    (neal2_algorithm.cc:70-75, neal8_algorithm.cc:92-106,
    split_and_merge_algorithm.cc:65-70) and of the evaluation of whole chains
    (base_algorithm.cc:16-44, eval_like.h:30-38, eval_like.cc:19-68).
    Functions only.

    A likelihood and a prior predictive are functions of a grid point; the
    covariate row, which is the same for the whole grid, is part of them.  NaN
    (and the assertion on it) is not modelled. *)
From Coq Require Import String.
From Coq Require Import List Arith ZArith Reals.
From Verif Require Import Base XReal Mixings Collect Utils.
Import ListNotations.
Set Implicit Arguments.
Local Open Scope R_scope.

(** [stan::math::log_sum_exp]. *)
Definition log_sum_exp (l : list xreal) : xreal := xlog (fold_right Rplus 0 (map xexp l)).

(** The mixing member of an algorithm as its virtual functions see it: an
    object, loaded from a message and asked for masses with [log = true],
    [propto = false]; asking may change it (mutable tables). *)
Record mixer : Type := mkMixer {
  mx_obj : Type;
  mx_msg : Type;
  mx_load : mx_msg -> mx_obj -> mx_obj;
  mx_ex : nat -> nat -> Z -> mx_obj -> res (xreal * mx_obj);
  mx_new : nat -> nat -> mx_obj -> res (xreal * mx_obj)
}.
Definition dp_mixer : mixer :=
  mkMixer dp_load (fun n k c s => m <- dp_mass_ex s n k true false c ;; Ok (m, s))
                  (fun n k s => m <- dp_mass_new s n k true false ;; Ok (m, s)).
Definition py_mixer : mixer :=
  mkMixer (fun m (_ : py_state) => m) (fun n k c s => m <- py_mass_ex s n k true false c ;; Ok (m, s))
          (fun n k s => m <- py_mass_new s n k true false ;; Ok (m, s)).
Definition mfm_mixer (series : R -> R -> R -> nat -> nat -> R) : mixer :=
  mkMixer (fun m s => mfm_load (fst m) (snd m) s) (fun n k c s => mfm_mass_ex series n k true false c s)
          (fun n k s => mfm_mass_new series n k true false s).

Section Density.
  Variables St Pt : Type.
  Variable like : St -> Pt -> xreal.

  (** A saved state: number of allocations, cluster states with their
      cardinalities, mixing message. *)
  Record saved (Msg : Type) : Type := mkSaved { sv_n : nat; sv_clusters : list (St * Z); sv_mix : Msg }.

  (** neal8_algorithm.cc:92-106 with [draws] the prior draws; Neal2, Neal3 and
      split-merge return the prior predictive density. *)
  Definition aux_component (draws : list St) (x : Pt) : xreal :=
    xsublog (log_sum_exp (map (fun s => like s x) draws)) (INR (length draws)).

  Variable X : mixer.

  (** The columns of [lpdf_local]; [comp] is the marginal component. *)
  Definition eval_columns (n n_clust : nat) (clusters : list (St * Z)) (grid : list Pt) (o : mx_obj X)
      : res (list (list xreal) * mx_obj X) :=
    rfold (fun '(cols, o) '(st, card) =>
        '(mass, o') <- mx_ex X n n_clust card o ;;
        Ok (cols ++ [map (fun x => xadd (like st x) mass) grid], o')) clusters ([], o).

  Definition marg_eval (unique_values : list St) (comp : Pt -> xreal) (sv : saved (mx_msg X)) (grid : list Pt) (o : mx_obj X)
      : res (list xreal * mx_obj X) :=
    _ <- at_ unique_values 0 ;;
    let n_clust := length (sv_clusters sv) in
    let o1 := mx_load X (sv_mix sv) o in
    '(cols, o2) <- eval_columns (sv_n sv) n_clust (sv_clusters sv) grid o1 ;;
    '(mass, o3) <- mx_new X (sv_n sv) n_clust o2 ;;
    let local := cols ++ [map (fun x => xadd (comp x) mass) grid] in
    out <- rmap (fun i => row <- rmap (fun c => at_ c i) local ;; Ok (log_sum_exp row)) (seq 0 (length grid)) ;;
    Ok (out, o3).

  (** conditional_algorithm.cc:10-39; [logweights] is what the loaded mixing
      returns (the same for every grid point). *)
  Definition cond_eval (unique_values : list St) (logweights : list xreal) (states : list St) (grid : list Pt) : res (list xreal) :=
    _ <- at_ unique_values 0 ;;
    rmap (fun x =>
      row <- rmap (fun j => st <- at_ states j ;; w <- at_ logweights j ;; Ok (xadd w (like st x))) (seq 0 (length states)) ;;
      Ok (log_sum_exp row)) grid.
End Density.

(** ** Whole chains

    [eval] is [set_state_proto] followed by [lpdf_from_state] on a fixed grid of
    [g] points; it may change the algorithm object, which the parallel versions
    clone. *)
Section Chains.
  Variables Alg M V : Type.
  Variable eval : Alg -> M -> res (list V * Alg).
  Variable g : nat.

  Definition eval_all (a : Alg) (ms : list M) : res (list (list V)) :=
    '(rows, _) <- rfold (fun '(rows, a) m => '(r, a') <- eval a m ;; Ok (rows ++ [r], a')) ms ([], a) ;;
    Ok rows.

  (** base_algorithm.cc:16-44. *)
  Definition eval_seq (a : Alg) (ms : list M) : res (nat * list (option (list V))) :=
    rows <- eval_all a ms ;; stack_vectors rows.

  (** eval_like.cc:19-42 on the chunks read: every state is evaluated by its own
      clone. *)
  Definition eval_low (a : Alg) (chunks : list (list M)) : res (nat * list (option (list V))) :=
    rows <- rmap (fun c => rmap (fun m => '(r, _) <- eval a m ;; Ok r) c) chunks ;;
    stack_vectors (concat rows).

  (** eval_like.h:30-38; [i % 0] is undefined. *)
  Definition gen_even_slices (T : Type) (x : list T) (num : nat) : res (list (list T)) :=
    rfold (fun out i =>
      match num with
      | O => UB
      | _ => v <- at_ x i ;; s <- at_ out (i mod num) ;; set_at out (i mod num) (s ++ [v])
      end) (seq 0 (length x)) (repeat [] num).

  (** eval_like.cc:44-68; rows are assigned to a matrix of [g] columns. *)
  Definition eval_full (a : Alg) (ms : list M) (njobs : nat) : res (nat * list (option (list V))) :=
    shards <- gen_even_slices ms njobs ;;
    mats <- rmap (fun sh =>
              rows <- eval_all a sh ;;
              rows' <- rmap (fun r => if (length r =? g)%nat then Ok r else UB) rows ;;
              Ok (mkMat g rows')) shards ;;
    vstack mats.
End Chains.
