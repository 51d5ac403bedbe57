(** * The marginal MCMC algorithms (and BaseAlgorithm's common steps).

    Model of src/algorithms/{base,marginal,neal2,neal3,neal8,split_and_merge}
    algorithm files.  Functions only.  Mixing covariates are omitted: no
    marginal mixing uses them. *)
From Coq Require Import String.
From Coq Require Import Bool List Arith ZArith.
From Verif Require Import Base Hier.
Import ListNotations.
Set Implicit Arguments.

Section Algos.
Variable I : Iface.

(** Member variables shared by the algorithms (base_algorithm.h, and
    [aux_unique_values] of neal8_algorithm.h).  [a_hyp] is the single
    hyperparameter object shared by all clones. *)
Record alg : Type := mkAlg {
  a_alloc : list nat;
  a_uv : list (hier I);
  a_hyp : Hyp I;
  a_mix : Mix I;
  a_aux : list (hier I)
}.

Definition set_alloc (a : alg) x := mkAlg x (a_uv a) (a_hyp a) (a_mix a) (a_aux a).
Definition set_uv (a : alg) x := mkAlg (a_alloc a) x (a_hyp a) (a_mix a) (a_aux a).
Definition set_aux (a : alg) x := mkAlg (a_alloc a) (a_uv a) (a_hyp a) (a_mix a) x.
Definition set_hyp (a : alg) x := mkAlg (a_alloc a) (a_uv a) x (a_mix a) (a_aux a).
Definition set_mix (a : alg) x := mkAlg (a_alloc a) (a_uv a) (a_hyp a) x (a_aux a).

(** The data matrix and the hierarchy covariates (after [initialize] the
    latter has as many rows as the data). *)
Variable data : list (Datum I).
Variable covs : list (Cov I).

(** marginal_algorithm.cc:11-20. *)
Definition relabel_down (idx : nat) (l : list nat) : list nat :=
  map (fun c => if idx <? c then c - 1 else c) l.

Definition remove_singleton (idx : nat) (a : alg) : res alg :=
  uv <- erase_at (a_uv a) idx ;;
  Ok (set_uv (set_alloc a (relabel_down idx (a_alloc a))) uv).

(** [categorical_rng(softmax(ws), rng, 0)]: Stan rejects an empty vector. *)
Definition cat (ws : list (W I)) (r : Rng I) : res (nat * Rng I) :=
  match ws with
  | [] => Throw "categorical_rng: empty simplex"
  | _ => Ok (categorical I ws r)
  end.

Definition unif (n : nat) (r : Rng I) : res (nat * Rng I) :=
  if n =? 0 then Throw "categorical_rng: empty simplex" else Ok (uniform I n r).

(** [unique_values[c]->add_datum / remove_datum] on a vector of hierarchies. *)
Definition add_in (hy : Hyp I) (upd_ : bool) (c : nat) (i : nat) (d : Datum I)
    (cv : Cov I) (uv : list (hier I)) : res (list (hier I)) :=
  h <- at_ uv c ;; h' <- h_add hy upd_ i d cv h ;; Ok (upd uv c h').

Definition remove_in (hy : Hyp I) (upd_ : bool) (c : nat) (i : nat) (d : Datum I)
    (cv : Cov I) (uv : list (hier I)) : res (list (hier I)) :=
  h <- at_ uv c ;; h' <- h_remove hy upd_ i d cv h ;; Ok (upd uv c h').

(** Element-wise sum of two vectors of log-weights (same length here). *)
Definition wsum (a b : list (W I)) : list (W I) :=
  map (fun p => wadd I (fst p) (snd p)) (combine a b).

(** ** Neal's algorithms 2 and 3 *)

(** neal2_algorithm.cc:76-92. *)
Definition neal2_prior_mass (a : alg) : res (list (W I)) :=
  let n_data := length data in
  let n_clust := length (a_uv a) in
  ex <- rmap (fun h => mass_ex I (a_mix a) (n_data - 1) n_clust (h_card h)) (a_uv a) ;;
  nw <- mass_new I (a_mix a) (n_data - 1) n_clust ;;
  Ok (ex ++ [nw]).

(** neal2_algorithm.cc:94-108. *)
Definition neal2_lpdf (a : alg) (i : nat) : res (list (W I)) :=
  d <- at_ data i ;; cv <- at_ covs i ;;
  _ <- at_ (a_uv a) 0 ;;  (* unique_values[0]->prior_pred_lpdf *)
  Ok (map (fun h => h_like h d cv) (a_uv a) ++ [h_prior_pred I (a_hyp a) d cv]).

(** neal3_algorithm.cc:18-32. *)
Definition neal3_lpdf (a : alg) (i : nat) : res (list (W I)) :=
  d <- at_ data i ;; cv <- at_ covs i ;;
  ex <- rmap (fun h => h_cond_pred (a_hyp a) h d cv) (a_uv a) ;;
  _ <- at_ (a_uv a) 0 ;;
  Ok (ex ++ [h_prior_pred I (a_hyp a) d cv]).

(** First half of the loop body, neal2_algorithm.cc:30-38 (and
    split_and_merge_algorithm.cc:351-358 with an empty covariate): take datum
    [i] out of its cluster, erasing the cluster if it was alone. *)
Definition unassign (uhp : bool) (cv : nat -> res (Cov I)) (i : nat) (a : alg) : res alg :=
  c_old <- at_ (a_alloc a) i ;;
  h <- at_ (a_uv a) c_old ;;
  if Z.leb (h_card h) 1 then remove_singleton c_old a
  else
    d <- at_ data i ;; c <- cv i ;;
    uv <- remove_in (a_hyp a) uhp c_old i d c (a_uv a) ;;
    Ok (set_uv a uv).

(** Second half, neal2_algorithm.cc:47-60 (and
    split_and_merge_algorithm.cc:374-385). *)
Definition assign (uhp : bool) (cv : nat -> res (Cov I)) (i c_new : nat) (a : alg)
    (r : Rng I) : res (alg * Rng I) :=
  let n_clust := length (a_uv a) in
  d <- at_ data i ;; c <- cv i ;;
  if c_new =? n_clust then
    h0 <- at_ (a_uv a) 0 ;;
    h1 <- h_add (a_hyp a) uhp i d c (h_clone h0) ;;
    '(h2, r') <- h_draw (a_hyp a) (negb uhp) h1 r ;;
    al <- set_at (a_alloc a) i n_clust ;;
    Ok (set_alloc (set_uv a (a_uv a ++ [h2])) al, r')
  else
    al <- set_at (a_alloc a) i c_new ;;
    uv <- add_in (a_hyp a) uhp c_new i d c (a_uv a) ;;
    Ok (set_alloc (set_uv a uv) al, r).

(** Loop body of neal2_algorithm.cc:29-61; [lp] is the virtual
    [get_cluster_lpdf], [uhp] the virtual [update_hierarchy_params()]. *)
Definition neal_step (uhp : bool) (lp : alg -> nat -> res (list (W I)))
    (s : alg * Rng I) (i : nat) : res (alg * Rng I) :=
  let '(a, r) := s in
  a1 <- unassign uhp (at_ covs) i a ;;
  pm <- neal2_prior_mass a1 ;;
  lk <- lp a1 i ;;
  '(c_new, r1) <- cat (wsum pm lk) r ;;
  assign uhp (at_ covs) i c_new a1 r1.

Definition neal2_sample_allocations (s : alg * Rng I) : res (alg * Rng I) :=
  rfold (neal_step false neal2_lpdf) (seq 0 (length data)) s.

Definition neal3_sample_allocations (s : alg * Rng I) : res (alg * Rng I) :=
  rfold (neal_step true neal3_lpdf) (seq 0 (length data)) s.

(** neal2_algorithm.cc:64-68 (same text in the other algorithms). *)
Fixpoint draw_all (hy : Hyp I) (save : bool) (uv : list (hier I)) (r : Rng I)
    : res (list (hier I) * Rng I) :=
  match uv with
  | [] => Ok ([], r)
  | h :: t =>
      '(h', r1) <- h_draw hy save h r ;;
      '(t', r2) <- draw_all hy save t r1 ;;
      Ok (h' :: t', r2)
  end.

Definition sample_unique_values (uhp : bool) (s : alg * Rng I) : res (alg * Rng I) :=
  let '(a, r) := s in
  '(uv, r') <- draw_all (a_hyp a) (negb uhp) (a_uv a) r ;;
  Ok (set_uv a uv, r').

(** base_algorithm.cc:157-168. *)
Definition update_hierarchy_hypers (s : alg * Rng I) : res (alg * Rng I) :=
  let '(a, r) := s in
  _ <- at_ (a_uv a) 0 ;;
  let states := map (fun h => (h_state h, h_card h))
                    (filter (fun h => Z.ltb 0 (h_card h)) (a_uv a)) in
  let '(hy, r') := hyp_update I (a_hyp a) states r in
  Ok (set_hyp a hy, r').

Definition update_mixing (s : alg * Rng I) : res (alg * Rng I) :=
  let '(a, r) := s in
  '(m, r') <- mix_update I (a_mix a) (map (@h_card I) (a_uv a)) (a_alloc a) r ;;
  Ok (set_mix a m, r').

(** base_algorithm.h:179-184. *)
Definition base_step (salloc : alg * Rng I -> res (alg * Rng I)) (uhp : bool)
    (s : alg * Rng I) : res (alg * Rng I) :=
  s1 <- salloc s ;;
  s2 <- sample_unique_values uhp s1 ;;
  s3 <- update_hierarchy_hypers s2 ;;
  update_mixing s3.

(** ** Neal's algorithm 8 *)

(** neal8_algorithm.cc:92-145; [n_aux] is the member variable. *)
Definition neal8_prior_mass (n_aux : nat) (a : alg) : res (list (W I)) :=
  let n_data := length data in
  let n_clust := length (a_uv a) in
  ex <- rmap (fun h => mass_ex I (a_mix a) (n_data - 1) n_clust (h_card h)) (a_uv a) ;;
  nw <- rmap (fun _ => mass_new I (a_mix a) (n_data - 1) n_clust) (seq 0 n_aux) ;;
  Ok (ex ++ nw).

Definition neal8_lpdf (n_aux : nat) (a : alg) (i : nat) : res (list (W I)) :=
  d <- at_ data i ;; cv <- at_ covs i ;;
  nw <- rmap (fun j => h <- at_ (a_aux a) j ;; Ok (wsublog I (h_like h d cv) n_aux))
             (seq 0 n_aux) ;;
  Ok (map (fun h => h_like h d cv) (a_uv a) ++ nw).

(** [aux_unique_values[0]->set_state_from_proto(curr_val)] where [curr_val] was
    written by the singleton: parameters *and cardinality* are copied
    (base_likelihood.h:104-116, 209-214; [update_card] defaults to true). *)
Definition h_load (src dst : hier I) : hier I :=
  mkHier I (h_ids dst) (h_card src) (h_stats dst) (h_state src) (h_saved dst) (h_ph dst).

(** neal8_algorithm.cc:65-67. *)
Fixpoint refresh_aux (hy : Hyp I) (js : list nat) (aux : list (hier I)) (r : Rng I)
    : res (list (hier I) * Rng I) :=
  match js with
  | [] => Ok (aux, r)
  | j :: t =>
      h <- at_ aux j ;;
      let '(h', r1) := h_sample_prior hy h r in
      refresh_aux hy t (upd aux j h') r1
  end.

(** neal8_algorithm.cc:48-61. *)
Definition neal8_unassign (i : nat) (a : alg) : res (alg * bool) :=
  c_old <- at_ (a_alloc a) i ;;
  h <- at_ (a_uv a) c_old ;;
  if Z.leb (h_card h) 1 then
    x0 <- at_ (a_aux a) 0 ;;
    let a1 := set_aux a (upd (a_aux a) 0 (h_load h x0)) in
    a2 <- remove_singleton c_old a1 ;;
    Ok (a2, true)
  else
    d <- at_ data i ;; c <- at_ covs i ;;
    uv <- remove_in (a_hyp a) false c_old i d c (a_uv a) ;;
    Ok (set_uv a uv, false).

(** neal8_algorithm.cc:75-88. *)
Definition neal8_assign (i c_new : nat) (a : alg) : res alg :=
  let n_clust := length (a_uv a) in
  d <- at_ data i ;; c <- at_ covs i ;;
  if n_clust <=? c_new then
    hx <- at_ (a_aux a) (c_new - n_clust) ;;
    let uv := a_uv a ++ [h_clone hx] in
    al <- set_at (a_alloc a) i n_clust ;;
    uv' <- add_in (a_hyp a) false n_clust i d c uv ;;
    Ok (set_alloc (set_uv a uv') al)
  else
    al <- set_at (a_alloc a) i c_new ;;
    uv' <- add_in (a_hyp a) false c_new i d c (a_uv a) ;;
    Ok (set_alloc (set_uv a uv') al).

(** Loop body of neal8_algorithm.cc:47-89. *)
Definition neal8_step (n_aux : nat) (s : alg * Rng I) (i : nat) : res (alg * Rng I) :=
  let '(a, r) := s in
  '(a1, singleton) <- neal8_unassign i a ;;
  let first := if (singleton : bool) then 1 else 0 in
  '(aux, r1) <- refresh_aux (a_hyp a1) (seq first (n_aux - first)) (a_aux a1) r ;;
  let a2 := set_aux a1 aux in
  pm <- neal8_prior_mass n_aux a2 ;;
  lk <- neal8_lpdf n_aux a2 i ;;
  '(c_new, r2) <- cat (wsum pm lk) r1 ;;
  a3 <- neal8_assign i c_new a2 ;;
  Ok (a3, r2).

Definition neal8_sample_allocations (n_aux : nat) (s : alg * Rng I) : res (alg * Rng I) :=
  rfold (neal8_step n_aux) (seq 0 (length data)) s.

(** neal8_algorithm.cc:23-30 after BaseAlgorithm::initialize. *)
Definition neal8_init_aux (n_aux : nat) (a : alg) : res alg :=
  aux <- rmap (fun _ => h0 <- at_ (a_uv a) 0 ;; Ok (h_clone h0)) (seq 0 n_aux) ;;
  Ok (set_aux a aux).

(** ** Initialisation: the part after the configuration checks

    base_algorithm.cc:113-150.  [k] is [mixing->get_num_components()] after
    [mixing->initialize()]; zero means "one per datum". *)
Definition num_components (k : nat) : nat :=
  if k =? 0 then length data else k.

(** base_algorithm.cc:125-128: push a clone of [unique_values[0]], then redraw
    the parameters of [unique_values[i]]. *)
Definition init_clone_step (hy : Hyp I) (s : list (hier I) * Rng I) (i : nat)
    : res (list (hier I) * Rng I) :=
  let '(uv, r) := s in
  h0 <- at_ uv 0 ;;
  let uv1 := uv ++ [h_clone h0] in
  hi <- at_ uv1 i ;;
  let '(hi', r') := h_sample_prior hy hi r in
  Ok (upd uv1 i hi', r').

(** base_algorithm.cc:134-144: datum [i] goes to cluster [i] for the first
    [nc] data, then to a uniformly drawn one ([gen] is the separate
    [std::default_random_engine], one value per remaining datum). *)
Definition init_alloc_step (hy : Hyp I) (nc : nat) (gen : nat -> nat)
    (s : list nat * list (hier I)) (i : nat) : res (list nat * list (hier I)) :=
  let '(al, uv) := s in
  let c := if i <? nc then i else gen i in
  d <- at_ data i ;; cv <- at_ covs i ;;
  uv' <- add_in hy false c i d cv uv ;;
  Ok (al ++ [c], uv').

(** base_algorithm.cc:146-150. *)
Definition init_save_step (hy : Hyp I) (uv : list (hier I)) (i : nat) : res (list (hier I)) :=
  h <- at_ uv i ;; h' <- h_save hy h ;; Ok (upd uv i h').

(** The loop bounds: the first loop runs to [nc] even when [nc] exceeds the
    number of data, the second from [nc] to the number of data. *)
Definition init_clusters (uhp : bool) (hy0 : Hyp I) (m : Mix I) (k : nat)
    (gen : nat -> nat) (uv0 : list (hier I)) (r : Rng I) : res (alg * Rng I) :=
  let nc := num_components k in
  h0 <- at_ uv0 0 ;;
  let uv1 := upd uv0 0 (h_initialize hy0 h0) in
  '(uv2, r1) <- rfold (init_clone_step hy0) (seq 0 (nc - 1)) (uv1, r) ;;
  '(al, uv3) <- rfold (init_alloc_step hy0 nc gen)
                      (seq 0 nc ++ seq nc (length data - nc)) ([], uv2) ;;
  uv4 <- (if uhp then rfold (init_save_step hy0) (seq 0 nc) uv3 else Ok uv3) ;;
  Ok (mkAlg al uv4 hy0 m [], r1).

End Algos.
