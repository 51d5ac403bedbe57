(** * The conditional MCMC algorithms.

    Model of src/algorithms/{conditional,blocked_gibbs}_algorithm files and
    slice_sampler.{h,cc}.  Functions only. *)
From Coq Require Import String.
From Coq Require Import Bool List Arith ZArith.
From Verif Require Import Base Hier Algos Stick.
Import ListNotations.
Set Implicit Arguments.

Section Cond.
Variable I : Iface.
Variable data : list (Datum I).
Variable covs : list (Cov I).

(** blocked_gibbs_algorithm.cc:36-45 and slice_sampler.cc:96-104
    ([update_hierarchy_params()] is false in both). *)
Definition move_datum (i c_new : nat) (a : alg I) : res (alg I) :=
  c_old <- at_ (a_alloc a) i ;;
  if c_new =? c_old then Ok a
  else
    al <- set_at (a_alloc a) i c_new ;;
    d <- at_ data i ;; cv <- at_ covs i ;;
    uv1 <- remove_in (a_hyp a) false c_old i d cv (a_uv a) ;;
    uv2 <- add_in (a_hyp a) false c_new i d cv uv1 ;;
    Ok (set_uv (set_alloc a al) uv2).

(** ** Blocked Gibbs *)

(** blocked_gibbs_algorithm.cc:24-35; [nc] is [mixing->get_num_components()].
    Entries past [nc] (there are none for the library's mixings) keep the prior
    log-weight. *)
Definition blocked_logprobas (nc i : nat) (a : alg I) : res (list (W I)) :=
  let lw := mix_logweights I (a_mix a) i in
  d <- at_ data i ;; cv <- at_ covs i ;;
  ws <- rmap (fun j => w <- at_ lw j ;; h <- at_ (a_uv a) j ;; Ok (wadd I w (h_like h d cv))) (seq 0 nc) ;;
  Ok (ws ++ skipn nc lw).

Definition blocked_step (nc : nat) (s : alg I * Rng I) (i : nat) : res (alg I * Rng I) :=
  let '(a, r) := s in
  ws <- blocked_logprobas nc i a ;;
  '(c_new, r1) <- cat I ws r ;;
  a1 <- move_datum i c_new a ;;
  Ok (a1, r1).

(** blocked_gibbs_algorithm.cc:20-46.  One iteration is
    [base_step (blocked_sample_allocations nc) false]: conditional_algorithm.h
    overrides [step] with the same order (allocations, parameters,
    hyperparameters, weights). *)
Definition blocked_sample_allocations (nc : nat) (s : alg I * Rng I) : res (alg I * Rng I) :=
  rfold (blocked_step nc) (seq 0 (length data)) s.

(** ** Slice sampler *)

Variable K : Num.
Variable beta : N K -> N K -> Rng I -> N K * Rng I.
(** [stan::math::uniform_rng(0, w, rng)] for [w > 0]. *)
Variable unif01 : N K -> Rng I -> N K * Rng I.
(** The constant 1e-16. *)
Variable tiny : N K.
(** Value of an entry not written since [conservativeResize]. *)
Variable junk : N K.

Record slicer : Type := mkSlice {
  s_alg : alg I;        (* its [a_mix] is not used *)
  s_mix : sb K;
  s_u : list (N K)
}.

Definition nmax (x y : N K) : N K := if nltb K x y then y else x.
Definition nmin (x y : N K) : N K := if nltb K y x then y else x.

(** slice_sampler.cc:26-33. *)
Definition slice_one (w : list (N K)) (al : list nat) (s : list (N K) * Rng I) (i : nat)
    : res (list (N K) * Rng I) :=
  let '(us, r) := s in
  c <- at_ al i ;;
  wc <- at_ w c ;;
  if nltb K (n0 K) wc then
    let '(u, r') := unif01 wc r in Ok (us ++ [nmax tiny u], r')
  else Throw "uniform_rng: upper bound must exceed lower bound".

Definition sample_slice (s : slicer) (r : Rng I) : res (slicer * Rng I) :=
  '(us, r') <- rfold (slice_one (sb_w (s_mix s)) (a_alloc (s_alg s))) (seq 0 (length data)) ([], r) ;;
  Ok (mkSlice (s_alg s) (s_mix s) us, r').

(** slice_sampler.cc:55-58.  [None]: the loop has not ended after [fuel]
    rounds. *)
Fixpoint break_loop (fuel : nat) (bound sum_w : N K) (m : sb K) (r : Rng I)
    : option (res (sb K * Rng I)) :=
  if nleb K sum_w bound then
    match fuel with
    | O => None
    | S f =>
        let '(m', x) := keep_breaking1 beta junk m r in
        match x with
        | Ok (dw, r') => break_loop f bound (nadd K sum_w dw) m' r'
        | Throw e => Some (Throw e)
        | Abort => Some Abort
        | UB => Some UB
        end
    end
  else Some (Ok (m, r)).

(** slice_sampler.cc:60-67. *)
Fixpoint push_prior (hy : Hyp I) (k : nat) (uv : list (hier I)) (r : Rng I)
    : res (list (hier I) * Rng I) :=
  match k with
  | O => Ok (uv, r)
  | S k' =>
      h0 <- at_ uv 0 ;;
      let '(h, r1) := h_sample_prior hy (h_clone h0) r in
      push_prior hy k' (uv ++ [h]) r1
  end.

(** slice_sampler.cc:41-58: everything before the components are adjusted. *)
Definition slice_new_sticks (fuel : nat) (s : slicer) (r : Rng I)
    : option (res (sb K * Rng I)) :=
  match sb_update beta (s_mix s) (map (@h_card I) (a_uv (s_alg s))) r with
  | Ok (m1, r1) =>
      match a_alloc (s_alg s), s_u s with
      | c0 :: al, u0 :: us =>
          let k := S (fold_left Nat.max al c0) in
          if k <=? length (sb_sticks m1) then
            let m2 := set_sticks (firstn k (sb_sticks m1)) m1 in
            let min_u := fold_left nmin us u0 in
            break_loop fuel (nsub K (n1 K) min_u) (nsum K (sb_w m2)) m2 r1
          else Some UB
      | _, _ => Some UB
      end
  | Throw e => Some (Throw e)
  | Abort => Some Abort
  | UB => Some UB
  end.

(** slice_sampler.cc:41-73.  [num_old_sticks] is read after [update_state],
    which keeps the number of sticks. *)
Definition slice_sample_weights (fuel : nat) (s : slicer) (r : Rng I)
    : option (res (slicer * Rng I)) :=
  match slice_new_sticks fuel s r with
  | Some (Ok (m, r1)) =>
      let a := s_alg s in
      let old := length (sb_sticks (s_mix s)) in
      let new := length (sb_sticks m) in
      Some ('(uv, r2) <-
              (if old <=? new then push_prior (a_hyp a) (new - old) (a_uv a) r1
               else Ok (firstn (length (a_uv a) - (old - new)) (a_uv a), r1)) ;;
            Ok (mkSlice (set_uv a uv) m (s_u s), r2))
  | Some (Throw e) => Some (Throw e)
  | Some Abort => Some Abort
  | Some UB => Some UB
  | None => None
  end.

(** slice_sampler.cc:80-90: the components whose weight exceeds the slice. *)
Definition slice_cands (m : sb K) (u : N K) : res (list nat) :=
  ws <- rmap (fun j => w <- at_ (sb_w m) j ;; Ok (j, w)) (seq 0 (sb_nc m)) ;;
  Ok (map fst (filter (fun p => nltb K u (snd p)) ws)).

(** slice_sampler.cc:78-105. *)
Definition slice_alloc_step (m : sb K) (us : list (N K)) (s : alg I * Rng I) (i : nat)
    : res (alg I * Rng I) :=
  let '(a, r) := s in
  u <- at_ us i ;;
  d <- at_ data i ;; cv <- at_ covs i ;;
  inds <- slice_cands m u ;;
  ps <- rmap (fun j => h <- at_ (a_uv a) j ;; Ok (h_like h d cv)) inds ;;
  '(c, r1) <- cat I ps r ;;
  c_new <- at_ inds c ;;
  a1 <- move_datum i c_new a ;;
  Ok (a1, r1).

Definition slice_sample_allocations (s : slicer) (r : Rng I) : res (slicer * Rng I) :=
  '(a, r') <- rfold (slice_alloc_step (s_mix s) (s_u s)) (seq 0 (length data)) (s_alg s, r) ;;
  Ok (mkSlice a (s_mix s) (s_u s), r').

(** slice_sampler.cc:19-24: the hyperparameters are not updated. *)
Definition slice_step (fuel : nat) (s : slicer) (r : Rng I) : option (res (slicer * Rng I)) :=
  match sample_unique_values false (s_alg s, r) with
  | Ok (a, r1) =>
      match slice_sample_weights fuel (mkSlice a (s_mix s) (s_u s)) r1 with
      | Some (Ok (s2, r2)) =>
          Some ('(s3, r3) <- sample_slice s2 r2 ;; slice_sample_allocations s3 r3)
      | x => x
      end
  | Throw e => Some (Throw e)
  | Abort => Some Abort
  | UB => Some UB
  end.

(** slice_sampler.cc:11-17 after the configuration checks; [m] is the mixing
    after its own initialisation. *)
Definition slice_initialize (hy : Hyp I) (mx : Mix I) (m : sb K) (gen : nat -> nat)
    (uv0 : list (hier I)) (r : Rng I) : res (slicer * Rng I) :=
  '(a, r1) <- init_clusters data covs false hy mx (sb_nc m) gen uv0 r ;;
  sample_slice (mkSlice a m []) r1.

Fixpoint slice_iter (fuel k : nat) (s : slicer) (r : Rng I) : option (res (slicer * Rng I)) :=
  match k with
  | O => Some (Ok (s, r))
  | S k' =>
      match slice_step fuel s r with
      | Some (Ok (s', r')) => slice_iter fuel k' s' r'
      | x => x
      end
  end.

End Cond.

Arguments break_loop {I K} beta junk fuel bound sum_w m r.
Arguments slice_one {I K} unif01 tiny w al s i.
