(** * The split-and-merge algorithm.

    Model of src/algorithms/split_and_merge_algorithm.cc.  The algorithm never
    passes covariates: [data.row(i)] is used with the default, empty covariate
    row [cov0].  [update_hierarchy_params()] is [true]
    (split_and_merge_algorithm.h:53).  Functions only. *)
From Coq Require Import String.
From Coq Require Import Bool List Arith ZArith.
From Verif Require Import Base Hier Algos.
Import ListNotations.
Set Implicit Arguments.

Section SM.
Variable I : Iface.
Variable data : list (Datum I).

Notation c0 := (cov0 I).

(** Member variables [restricted_gs_data_idx], [allocations_restricted_gs] and
    [restricted_gs_unique_values] (split_and_merge_algorithm.h:106-121). *)
Record rgs : Type := mkRgs {
  g_idx : list nat;
  g_alloc : list nat;
  g_uv : list (hier I)
}.

(** [std::set_union] of two ordered sets. *)
Definition set_union (l1 l2 : list nat) : list nat := fold_right set_insert l1 l2.

(** split_and_merge_algorithm.cc:71-94. *)
Definition restricted_idx (f s : nat) (a : alg I) : res (list nat) :=
  cf <- at_ (a_alloc a) f ;;
  cs <- at_ (a_alloc a) s ;;
  hf <- at_ (a_uv a) cf ;;
  tmp <- (if cf =? cs then Ok (h_ids hf)
          else hs <- at_ (a_uv a) cs ;; Ok (set_union (h_ids hf) (h_ids hs))) ;;
  Ok (set_remove s (set_remove f tmp)).

(** split_and_merge_algorithm.cc:109-121: one uniform coin per datum. *)
Definition launch_step (hy : Hyp I) (st : (list nat * list (hier I)) * Rng I) (i : nat)
    : res ((list nat * list (hier I)) * Rng I) :=
  let '((al, guv), r) := st in
  '(b, r') <- unif I 2 r ;;
  let c := if b =? 0 then 0 else 1 in
  d <- at_ data i ;;
  guv' <- add_in hy false c i d c0 guv ;;
  Ok ((al ++ [c], guv'), r').

(** split_and_merge_algorithm.cc:96-130. *)
Definition launch (f s : nat) (idx : list nat) (a : alg I) (r : Rng I) : res (rgs * Rng I) :=
  h0 <- at_ (a_uv a) 0 ;;
  '((al, guv), r') <- rfold (launch_step (a_hyp a)) idx (([], [h_clone h0; h_clone h0]), r) ;;
  df <- at_ data f ;;
  guv1 <- add_in (a_hyp a) true 0 f df c0 guv ;;
  ds <- at_ data s ;;
  guv2 <- add_in (a_hyp a) true 1 s ds c0 guv1 ;;
  Ok (mkRgs idx al guv2, r').

(** One component of [logprobas], split_and_merge_algorithm.cc:313-322. *)
Definition rgs_logproba (a : alg I) (nidx : nat) (d : Datum I) (guv : list (hier I)) (c : nat)
    : res (W I) :=
  h <- at_ guv c ;;
  m <- mass_ex I (a_mix a) (nidx + 2 - 1) 2 (h_card h) ;;
  p <- h_cond_pred (a_hyp a) h d c0 ;;
  Ok (wadd I m p).

(** Body of the loop split_and_merge_algorithm.cc:305-341 on position [k];
    [orig] is [step_to_original_clust].  The log-probability is accumulated in
    every case; callers that do not ask for it ignore it. *)
Definition rgs_step (a : alg I) (f : nat) (orig : bool)
    (st : (rgs * W I) * Rng I) (k : nat) : res ((rgs * W I) * Rng I) :=
  let '((g, lp), r) := st in
  i <- at_ (g_idx g) k ;;
  ck <- at_ (g_alloc g) k ;;
  d <- at_ data i ;;
  guv1 <- remove_in (a_hyp a) true ck i d c0 (g_uv g) ;;
  w0_ <- rgs_logproba a (length (g_idx g)) d guv1 0 ;;
  w1_ <- rgs_logproba a (length (g_idx g)) d guv1 1 ;;
  '(c_new, r') <-
     (if orig : bool then
        ai <- at_ (a_alloc a) i ;; af <- at_ (a_alloc a) f ;;
        Ok (if ai =? af then 0 else 1, r)
      else cat I [w0_; w1_] r) ;;
  guv2 <- add_in (a_hyp a) true c_new i d c0 guv1 ;;
  Ok ((mkRgs (g_idx g) (upd (g_alloc g) k c_new) guv2,
       wadd I lp (log_softmax I [w0_; w1_] c_new)), r').

Definition restricted_gs (a : alg I) (f : nat) (orig : bool) (g : rgs) (r : Rng I)
    : res ((rgs * W I) * Rng I) :=
  rfold (rgs_step a f orig) (seq 0 (length (g_idx g))) ((g, w0 I), r).

(** compute_log_ratios, split_and_merge_algorithm.cc:193-212, for one datum of
    [set_to_cycle].  State: divided cluster, united cluster and the three
    accumulators (divided density, united density, prior ratio). *)
Definition ratio_step (a : alg I)
    (st : ((hier I * hier I) * (W I * W I)) * W I) (j : nat)
    : res (((hier I * hier I) * (W I * W I)) * W I) :=
  let '(((dv, un), (pd, pu)), lr) := st in
  let n := length (a_alloc a) in
  d <- at_ data j ;;
  p1 <- h_cond_pred (a_hyp a) dv d c0 ;;
  m1 <- mass_ex I (a_mix a) n 2 (h_card dv) ;;
  dv' <- h_add (a_hyp a) true j d c0 dv ;;
  p2 <- h_cond_pred (a_hyp a) un d c0 ;;
  m2 <- mass_ex I (a_mix a) n 2 (h_card un) ;;
  un' <- h_add (a_hyp a) true j d c0 un ;;
  Ok (((dv', un'), (wadd I pd p1, wadd I pu p2)), wadd I (wadd I lr m1) (wneg I m2)).

(** The loop body for one [clust_idx], split_and_merge_algorithm.cc:160-213;
    [i] is the chosen datum, [ids] the set it cycles over (already known). *)
Definition ratio_clust (a : alg I) (h0 : hier I) (i : nat) (ids : list nat)
    (st : (hier I * W I) * (W I * W I)) : res ((hier I * W I) * (W I * W I)) :=
  let '((un, pu), (pd, lr)) := st in
  let n := length (a_alloc a) in
  d <- at_ data i ;;
  let pd1 := wadd I pd (h_prior_pred I (a_hyp a) d c0) in
  dv <- h_add (a_hyp a) true i d c0 (h_clone h0) ;;
  '(pu1, lr1) <-
    (if Z.eqb (h_card un) 0 then Ok (wadd I pu (h_prior_pred I (a_hyp a) d c0), lr)
     else
       p <- h_cond_pred (a_hyp a) un d c0 ;;
       m <- mass_ex I (a_mix a) n 2 (h_card un) ;;
       Ok (wadd I pu p, wadd I lr (wneg I m))) ;;
  un1 <- h_add (a_hyp a) true i d c0 un ;;
  '(((_, un2), (pd2, pu2)), lr2) <-
    rfold (ratio_step a) (set_remove i ids) (((dv, un1), (pd1, pu1)), lr1) ;;
  Ok ((un2, pu2), (pd2, lr2)).

(** split_and_merge_algorithm.cc:132-223.  The two divided densities are summed
    in one accumulator (addition is associative on the reals). *)
Definition compute_log_ratios (a : alg I) (g : rgs) (f s : nat) (split : bool)
    : res (W I * W I) :=
  h0 <- at_ (a_uv a) 0 ;;
  mn <- mass_new I (a_mix a) (length (a_alloc a)) 2 ;;
  let cluster_of (k i : nat) : res (list nat) :=
    if split then h <- at_ (g_uv g) k ;; Ok (h_ids h)
    else c <- at_ (a_alloc a) i ;; h <- at_ (a_uv a) c ;; Ok (h_ids h) in
  ids0 <- cluster_of 0 f ;;
  st1 <- ratio_clust a h0 f ids0 ((h_clone h0, w0 I), (w0 I, mn)) ;;
  ids1 <- cluster_of 1 s ;;
  st2 <- ratio_clust a h0 s ids1 st1 ;;
  let '((_, pu), (pd, lr)) := st2 in
  let ll := wadd I pd (wneg I pu) in
  if split then Ok (ll, lr) else Ok (wneg I ll, wneg I lr).

(** Loop of split_and_merge_algorithm.cc:271-295. *)
Fixpoint move_all (split : bool) (old new s : nat) (ids : list nat) (a : alg I) : res (alg I) :=
  match ids with
  | [] => Ok a
  | i :: [] =>
      d <- at_ data i ;;
      if split then
        uv1 <- remove_in (a_hyp a) true old i d c0 (a_uv a) ;;
        uv2 <- add_in (a_hyp a) true new i d c0 uv1 ;;
        al <- set_at (a_alloc a) i new ;;
        Ok (set_alloc (set_uv a uv2) al)
      else
        a1 <- remove_singleton old a ;;
        new' <- at_ (a_alloc a1) s ;;
        uv2 <- add_in (a_hyp a1) true new' i d c0 (a_uv a1) ;;
        al <- set_at (a_alloc a1) i new' ;;
        Ok (set_alloc (set_uv a1 uv2) al)
  | i :: t =>
      d <- at_ data i ;;
      uv1 <- remove_in (a_hyp a) false old i d c0 (a_uv a) ;;
      uv2 <- add_in (a_hyp a) false new i d c0 uv1 ;;
      al <- set_at (a_alloc a) i new ;;
      move_all split old new s t (set_alloc (set_uv a uv2) al)
  end.

(** split_and_merge_algorithm.cc:250-296. *)
Definition proposal_update (f s : nat) (split : bool) (g : rgs) (a : alg I) : res (alg I) :=
  old <- at_ (a_alloc a) f ;;
  if split then
    h0 <- at_ (a_uv a) 0 ;;
    let a1 := set_uv a (a_uv a ++ [h_clone h0]) in
    g0 <- at_ (g_uv g) 0 ;;
    move_all true old (length (a_uv a)) s (h_ids g0) a1
  else
    new <- at_ (a_alloc a) s ;;
    ho <- at_ (a_uv a) old ;;
    move_all false old new s (h_ids ho) a.

(** split_and_merge_algorithm.cc:225-248. *)
Definition split_or_merge (f s : nat) (g : rgs) (a : alg I) (r : Rng I) : res (alg I * Rng I) :=
  cf <- at_ (a_alloc a) f ;;
  cs <- at_ (a_alloc a) s ;;
  let split := cf =? cs in
  '((g', lt), r1) <- restricted_gs a f (negb split) g r ;;
  let lt' := if split then wneg I lt else lt in
  '(ll, lpr) <- compute_log_ratios a g' f s split ;;
  let '(acc, r2) := accept I (wadd I (wadd I lt' lpr) ll) r1 in
  if acc then a' <- proposal_update f s split g' a ;; Ok (a', r2) else Ok (a, r2).

(** split_and_merge_algorithm.cc:30-51: one Metropolis-Hastings update. *)
Definition mh_update (n_restr : nat) (st : alg I * Rng I) : res (alg I * Rng I) :=
  let '(a, r) := st in
  let n := length data in
  '(f, r1) <- unif I n r ;;
  '(s0, r2) <- unif I (n - 1) r1 ;;
  let s := if f <=? s0 then S s0 else s0 in
  idx <- restricted_idx f s a ;;
  '(g, r3) <- launch f s idx a r2 ;;
  '(g1, r4) <- rfold (fun st (_ : nat) =>
                        '((g', _), r') <- restricted_gs a f false (fst st) (snd st) ;; Ok (g', r'))
                     (seq 0 n_restr) (g, r3) ;;
  split_or_merge f s g1 a r4.

(** Loop body of full_gs, split_and_merge_algorithm.cc:350-386. *)
Definition full_gs_step (st : alg I * Rng I) (i : nat) : res (alg I * Rng I) :=
  let '(a, r) := st in
  a1 <- unassign data true (fun _ => Ok c0) i a ;;
  let n_clust := length (a_uv a1) in
  d <- at_ data i ;;
  ex <- rmap (fun h =>
          m <- mass_ex I (a_mix a1) (length data - 1) n_clust (h_card h) ;;
          p <- h_cond_pred (a_hyp a1) h d c0 ;; Ok (wadd I m p)) (a_uv a1) ;;
  mn <- mass_new I (a_mix a1) (length data - 1) n_clust ;;
  _ <- at_ (a_uv a1) 0 ;;
  '(c_new, r1) <- cat I (ex ++ [wadd I mn (h_prior_pred I (a_hyp a1) d c0)]) r ;;
  assign data true (fun _ => Ok c0) i c_new a1 r1.

Definition full_gs (st : alg I * Rng I) : res (alg I * Rng I) :=
  rfold full_gs_step (seq 0 (length data)) st.

(** split_and_merge_algorithm.cc:26-57. *)
Definition sm_sample_allocations (n_restr n_mh n_full : nat) (st : alg I * Rng I)
    : res (alg I * Rng I) :=
  st1 <- rfold (fun s (_ : nat) => mh_update n_restr s) (seq 0 n_mh) st ;;
  rfold (fun s (_ : nat) => full_gs s) (seq 0 n_full) st1.

End SM.
