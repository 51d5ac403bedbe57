(** * The density and the best clustering of the main program on univariate data
    (executables/run_mcmc.cc:198-219, 247-256): the two parameters that Program.v leaves
    open.  Functions only.

    [num] is the number that the bits of a double stand for.  The jobs of
    [eval_lpdf_parallel] share one generator (rng.h), so what Neal8 draws when it evaluates
    depends on their interleaving: [drawn i j h] is the [j]-th state drawn for the [i]-th
    state of the chain under the hyperparameters [h].  The algorithm has at least one
    cluster after a run (C01), so [unique_values[0]] exists.  A log-density of minus
    infinity is outside this file. *)
From Coq Require Import String.
From Coq Require Import List NArith ZArith Bool Reals.
From Verif Require Import Base Schema XReal Mixings Univ Settings RealInst UnivInst StateMsg Eval Launch Program.
From Verif Require Utils.
Import ListNotations.
Local Open Scope string_scope.

Section Reading.
  Variable num : N -> R.

  (** ** Accessors of messages *)
  Definition double_at (m : message) (n : N) : R := num (match entries n m with VDbl b :: _ => b | _ => 0%N end).
  Definition int_at (m : message) (n : N) : Z := match entries n m with VInt z :: _ => z | _ => 0%Z end.
  Definition sub_at (m : message) (n : N) : message := match entries n m with VMsg x :: _ => x | _ => [] end.

  (* uni_ls_state.h:63-69 *)
  Definition cluster_read (c : message) : uni_ls * Z :=
    let s := sub_at c 1 in (mkLS (double_at s 1) (double_at s 2), int_at c 3).
  Definition clusters_read (m : message) : list (uni_ls * Z) :=
    map (fun v => cluster_read (match v with VMsg c => c | _ => [] end)) (entries 1 m).
  (* nig_prior_model.cc:164-171 *)
  Definition nig_read (m : message) : nig :=
    let s := sub_at (sub_at m 5) 2 in mkNIG (double_at s 1) (double_at s 2) (double_at s 3) (double_at s 4).
  (* nxig_prior_model.cc:53-60 *)
  Definition nxig_read (m : message) : nxig :=
    let s := sub_at (sub_at m 5) 5 in mkNxIG (double_at s 1) (double_at s 2) (double_at s 3) (double_at s 4).
  (* dirichlet_mixing.cc:77-82 *)
  Definition dp_read (m : message) : R := double_at (sub_at (sub_at m 3) 1) 1.
  (* pityor_mixing.cc:57-62 *)
  Definition py_state_read (m : message) : py_state :=
    let s := sub_at (sub_at m 3) 2 in mkPy (double_at s 1) (double_at s 2).

  (** ** Densities *)
  Variable lg : R -> R.
  Variable drawn : nat -> nat -> uni_hyper -> uni_ls.

  Definition norm_like (s : uni_ls) (y : R) : xreal := Fin (norm_lpdf s y).

  (* neal2_algorithm.cc:70-75, neal8_algorithm.cc:92-106 *)
  Definition component (o : object) (i : nat) (m : message) : R -> xreal :=
    let draws h := map (fun j => drawn i j h) (seq 0 (N.to_nat (as_n_aux (o_set o)))) in
    match o_hier o, o_algo o with
    | UNig _, N8 => aux_component norm_like (draws (HNig (nig_read m)))
    | UNig _, _ => fun y => Fin (nnig_marg_lpdf lg (nig_read m) y)
    | UNxig _, _ => aux_component norm_like (draws (HNxig (nxig_read m)))
    end.

  (* marginal_algorithm.cc:22-56; the mixing of the clone is its object *)
  Definition lpdf_from_state (o : object) (grid : list R) (mx : dp_state * py_state) (im : nat * saved_state)
    : res (list xreal * (dp_state * py_state)) :=
    let m := proj1_sig (snd im) in
    let n := length (entries 2 m) in
    let cl := clusters_read m in
    let c := component o (fst im) m in
    match o_mix o with
    | PriDP _ => '(r, s) <- marg_eval norm_like dp_mixer [mkLS 0 0] c (mkSaved n cl (dp_read m)) grid (fst mx) ;; Ok (r, (s, snd mx))
    | PriPY _ => '(r, s) <- marg_eval norm_like py_mixer [mkLS 0 0] c (mkSaved n cl (py_state_read m)) grid (snd mx) ;; Ok (r, (fst mx, s))
    end.

  (* eval_like.h:25 *)
  Definition njobs : nat := 4.

  Definition finite_row (r : option (list xreal)) : res (list R) :=
    match r with
    | Some xs => rmap (fun x => match x with Fin v => Ok v | XInf => UB end) xs
    | None => UB
    end.

  (* run_mcmc.cc:213-214, eval_like.cc:44-68 *)
  Definition eval_density (o : object) (chain : list saved_state) (grid : Utils.mat R) (_ _ : option (Utils.mat R)) : res (Utils.mat R) :=
    if (Utils.m_nc grid =? 0)%nat then UB
    else
      let pts := map (fun r => nth 0 r 0%R) (Utils.m_rows grid) in
      '(g, rows) <- eval_full (lpdf_from_state o pts) (length pts) (dp_make_shared, mkPy 0 0) (combine (seq 0 (length chain)) chain) njobs ;;
      rows' <- rmap finite_row rows ;;
      Ok (Utils.mkMat g rows').

  (** ** The best clustering (cluster_utils.cc:23-58); [junk] is the vector of errors
      before its first use *)
  Definition best (junk : list R) (rows : list (list nat)) : res (list nat) :=
    z <- Utils.cluster_estimate (map (map Z.of_nat) rows) junk ;; Ok (map Z.to_nat z).
End Reading.
