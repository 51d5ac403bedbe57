(** * The semi-hierarchical Dirichlet process sampler.

    Model of src/algorithms/semihdp_sampler.cc and semihdp_sampler.h.

    Hierarchy objects are shared through [std::shared_ptr]: an object is an
    index into a heap of cluster parameters, a container of pointers is a list
    of such indices.  [-1] in [table_to_shared] / [table_to_private] is [None].
    The statistics cached inside a hierarchy object are not kept: every
    [sample_full_cond(matrix)] clears them first (base_hierarchy.h:224-236).
    [print_debug_string] and [check] (called by no one) are omitted.
    [G0_master_hierarchy] and [G00_master_hierarchy] are clones of the same
    object (semihdp_sampler.cc:17-18) and are never changed afterwards, so they
    share [samp_prior], [samp_full] and [marg].
    Functions only, no proofs. *)
From Coq Require Import String.
From Coq Require Import Bool List Arith ZArith Reals.
From Verif Require Import Base XReal.
Import ListNotations.
Local Open Scope nat_scope.

Record SH : Type := mkSH {
  (** one row of a data matrix, cluster parameters, generator state *)
  Datum : Type;
  St : Type;
  Gs : Type;
  (** number of columns of the data matrices *)
  cols : nat;
  (** [sample_prior()], [sample_full_cond(matrix)] *)
  samp_prior : Gs -> St * Gs;
  samp_full : list Datum -> Gs -> St * Gs;
  (** [get_like_lpdf(row)], [prior_pred_lpdf(row)] *)
  like : St -> Datum -> xreal;
  marg : Datum -> xreal;
  (** [gaussian_mixture_dist] on (state, weight) pairs *)
  mdist : list (St * R) -> list (St * R) -> R;
  (** [categorical_rng(softmax(logweights))], [categorical_rng(probs)],
      [uniform_rng(0,1)], [beta_rng], [dirichlet_rng], [multinomial_rng],
      [std::uniform_int_distribution(0, n - 1)] *)
  cat : list xreal -> Gs -> nat * Gs;
  catp : list R -> Gs -> nat * Gs;
  unif : Gs -> R * Gs;
  beta : R -> R -> Gs -> R * Gs;
  dirich : list R -> Gs -> list R * Gs;
  multin : list R -> nat -> Gs -> list Z * Gs;
  uint : nat -> Gs -> nat * Gs;
  (** conversion to [int] of a double outside its range (minus infinity, NaN):
      undefined by the standard ([None]); a fixed value on a given platform *)
  cvt : option Z
}.

(** src/proto/semihdp.proto:37-61. *)
Record params : Type := mkParams {
  p_alpha : R;    (* totalmass_rest *)
  p_gamma : R;    (* totalmass_hdp *)
  p_conc : R;     (* dirichlet_concentration *)
  p_w1 : R; p_w2 : R;   (* w_prior *)
  p_card : R;     (* pseudo_prior.card_weight *)
  p_mode : string       (* rest_allocs_update *)
}.

Definition at2 {A} (l : list (list A)) (i j : nat) : res A :=
  x <- at_ l i ;; at_ x j.
Definition set2 {A} (l : list (list A)) (i j : nat) (v : A) : res (list (list A)) :=
  x <- at_ l i ;; y <- set_at x j v ;; set_at l i y.
Definition push2 {A} (l : list (list A)) (i : nat) (v : A) : res (list (list A)) :=
  x <- at_ l i ;; set_at l i (x ++ [v]).
Definition add1 (l : list Z) (i : nat) (k : Z) : res (list Z) :=
  x <- at_ l i ;; set_at l i (x + k)%Z.
Definition add2 (l : list (list Z)) (i j : nat) (k : Z) : res (list (list Z)) :=
  x <- at_ l i ;; y <- add1 x j k ;; set_at l i y.

(** [stan::math::log_sum_exp]. *)
Definition xlse (l : list xreal) : xreal := xlog (fold_right Rplus 0%R (map xexp l)).

Section Semi.
Variable I : SH.
Variable P : params.
(** [data[i]], by rows. *)
Variable data : list (list (Datum I)).

Definition ng : nat := length data.
(** semihdp_sampler.cc:15-16: [n_by_group[i] = data[i].size()], the number of
    *entries* of the matrix. *)
Definition nby (i : nat) : res nat := d <- at_ data i ;; Ok (length d * cols I).
(** [data[i].row(j)]. *)
Definition row (i j : nat) : res (Datum I) := at2 data i j.

Record sst : Type := mkS {
  s_heap : list (St I);
  s_rest : list (list nat);
  s_priv : list (list nat);
  s_shared : list nat;
  s_n : list (list Z);              (* n_by_table *)
  s_restp : list (list nat);        (* rest_tables_pseudo *)
  s_np : list (list Z);             (* n_by_table_pseudo *)
  s_tab : list (list nat);          (* table_allocs *)
  s_ra : list nat;                  (* rest_allocs *)
  s_used : list bool;
  s_conc : list R;
  s_ts : list (list (option nat));  (* table_to_shared *)
  s_tp : list (list (option nat));  (* table_to_private *)
  s_m : list Z;                     (* cnt_shared_tables *)
  s_w : R                           (* semihdp_weight *)
}.

Definition w_heap h s := mkS h (s_rest s) (s_priv s) (s_shared s) (s_n s) (s_restp s) (s_np s) (s_tab s) (s_ra s) (s_used s) (s_conc s) (s_ts s) (s_tp s) (s_m s) (s_w s).
Definition w_rest x s := mkS (s_heap s) x (s_priv s) (s_shared s) (s_n s) (s_restp s) (s_np s) (s_tab s) (s_ra s) (s_used s) (s_conc s) (s_ts s) (s_tp s) (s_m s) (s_w s).
Definition w_priv x s := mkS (s_heap s) (s_rest s) x (s_shared s) (s_n s) (s_restp s) (s_np s) (s_tab s) (s_ra s) (s_used s) (s_conc s) (s_ts s) (s_tp s) (s_m s) (s_w s).
Definition w_shared x s := mkS (s_heap s) (s_rest s) (s_priv s) x (s_n s) (s_restp s) (s_np s) (s_tab s) (s_ra s) (s_used s) (s_conc s) (s_ts s) (s_tp s) (s_m s) (s_w s).
Definition w_n x s := mkS (s_heap s) (s_rest s) (s_priv s) (s_shared s) x (s_restp s) (s_np s) (s_tab s) (s_ra s) (s_used s) (s_conc s) (s_ts s) (s_tp s) (s_m s) (s_w s).
Definition w_pseudo x y s := mkS (s_heap s) (s_rest s) (s_priv s) (s_shared s) (s_n s) x y (s_tab s) (s_ra s) (s_used s) (s_conc s) (s_ts s) (s_tp s) (s_m s) (s_w s).
Definition w_tab x s := mkS (s_heap s) (s_rest s) (s_priv s) (s_shared s) (s_n s) (s_restp s) (s_np s) x (s_ra s) (s_used s) (s_conc s) (s_ts s) (s_tp s) (s_m s) (s_w s).
Definition w_ra x y s := mkS (s_heap s) (s_rest s) (s_priv s) (s_shared s) (s_n s) (s_restp s) (s_np s) (s_tab s) x y (s_conc s) (s_ts s) (s_tp s) (s_m s) (s_w s).
Definition w_conc x s := mkS (s_heap s) (s_rest s) (s_priv s) (s_shared s) (s_n s) (s_restp s) (s_np s) (s_tab s) (s_ra s) (s_used s) x (s_ts s) (s_tp s) (s_m s) (s_w s).
Definition w_ts x s := mkS (s_heap s) (s_rest s) (s_priv s) (s_shared s) (s_n s) (s_restp s) (s_np s) (s_tab s) (s_ra s) (s_used s) (s_conc s) x (s_tp s) (s_m s) (s_w s).
Definition w_tp x s := mkS (s_heap s) (s_rest s) (s_priv s) (s_shared s) (s_n s) (s_restp s) (s_np s) (s_tab s) (s_ra s) (s_used s) (s_conc s) (s_ts s) x (s_m s) (s_w s).
Definition w_m x s := mkS (s_heap s) (s_rest s) (s_priv s) (s_shared s) (s_n s) (s_restp s) (s_np s) (s_tab s) (s_ra s) (s_used s) (s_conc s) (s_ts s) (s_tp s) x (s_w s).
Definition w_w x s := mkS (s_heap s) (s_rest s) (s_priv s) (s_shared s) (s_n s) (s_restp s) (s_np s) (s_tab s) (s_ra s) (s_used s) (s_conc s) (s_ts s) (s_tp s) (s_m s) x.

(** [G->clone()] followed by a draw: a new object. *)
Definition alloc_obj (x : St I) (s : sst) : nat * sst :=
  (length (s_heap s), w_heap (s_heap s ++ [x]) s).

(** ** Construction and initialisation *)

(** semihdp_sampler.h:42-75, the object built by the constructor
    (semihdp_sampler.cc:10-21): all containers empty, weight one half. *)
Definition fresh : sst := mkS [] [] [] [] [] [] [] [] [] [] [] [] [] [] (/ 2)%R.

Definition INIT : nat := 5.

(** [v.resize(n)] for a vector of vectors / values. *)
Definition resize {A} (d : A) (n : nat) (l : list A) : list A :=
  firstn n l ++ repeat d (n - length l).

Fixpoint new_objs (k : nat) (s : sst) (g : Gs I) : list nat * sst * Gs I :=
  match k with
  | O => ([], s, g)
  | S k' =>
      let '(x, g1) := samp_prior I g in
      let '(o, s1) := alloc_obj x s in
      let '(os, s2, g2) := new_objs k' s1 g1 in (o :: os, s2, g2)
  end.

(** Uniform draws for the observations after the first five
    (semihdp_sampler.cc:54-57). *)
Fixpoint init_draws (k : nat) (g : Gs I) : list nat * Gs I :=
  match k with
  | O => ([], g)
  | S k' =>
      let '(t, g1) := catp I (repeat (/ 5)%R INIT) g in
      let '(ts, g2) := init_draws k' g1 in (t :: ts, g2)
  end.

(** semihdp_sampler.cc:49-77, one group. *)
Definition init_group (sg : sst * Gs I) (i : nat) : res (sst * Gs I) :=
  let '(s, g) := sg in
  n <- nby i ;;
  ra <- set_at (s_ra s) i i ;;
  us <- set_at (s_used s) i true ;;
  (* [for j < INIT_N_CLUS: table_allocs[i][j] = j] on a vector of length n *)
  if n <? INIT then UB
  else
    let '(ds, g1) := init_draws (n - INIT) g in
    tab <- set_at (s_tab s) i (seq 0 INIT ++ ds) ;;
    let s1 := w_tab tab (w_ra ra us s) in
    let '(os, s2, g2) := new_objs INIT s1 g1 in
    pv <- at_ (s_priv s2) i ;;
    rt <- at_ (s_rest s2) i ;;
    sh <- rmap (at_ (s_shared s2)) (seq 0 INIT) ;;
    priv <- set_at (s_priv s2) i (pv ++ os) ;;
    rest <- set_at (s_rest s2) i (rt ++ os ++ sh) ;;
    tp <- set_at (s_tp s2) i (map Some (seq 0 INIT) ++ repeat None INIT) ;;
    ts <- set_at (s_ts s2) i (repeat None INIT ++ map Some (seq 0 INIT)) ;;
    Ok (w_ts ts (w_tp tp (w_rest rest (w_priv priv s2))), g2).

(** semihdp_sampler.cc:629-640. *)
Definition count_n_row (s : sst) (r : nat) : res (list Z) :=
  rt <- at_ (s_rest s) r ;;
  rfold (fun acc i =>
    ri <- at_ (s_ra s) i ;;
    if ri =? r then
      n <- nby i ;;
      rfold (fun acc' j => t <- at2 (s_tab s) i j ;; add1 acc' t 1) (seq 0 n) acc
    else Ok acc) (seq 0 ng) (repeat 0%Z (length rt)).

Definition count_n (s : sst) : res sst :=
  rfold (fun s' r => x <- count_n_row s' r ;; nn <- set_at (s_n s') r x ;; Ok (w_n nn s'))
        (seq 0 ng) s.

(** semihdp_sampler.cc:620-628. *)
Definition count_m (s : sst) : res sst :=
  m <- rfold (fun acc r =>
         tr <- at_ (s_ts s) r ;;
         rfold (fun acc' t => match t with Some h => add1 acc' h 1 | None => Ok acc' end) tr acc)
       (seq 0 ng) (repeat 0%Z (length (s_shared s))) ;;
  Ok (w_m m s).

(** semihdp_sampler.cc:23-86.  The last loop counts every group in its own
    restaurant. *)
Definition initialize (s : sst) (g : Gs I) : res (sst * Gs I) :=
  let s1 := mkS (s_heap s) (resize [] ng (s_rest s)) (resize [] ng (s_priv s)) (s_shared s)
                (resize [] ng (s_n s)) (resize [] ng (s_restp s)) (resize [] ng (s_np s))
                (resize [] ng (s_tab s)) (resize 0 ng (s_ra s)) (resize false ng (s_used s))
                (repeat (p_conc P) ng) (resize [] ng (s_ts s)) (resize [] ng (s_tp s)) (s_m s) (s_w s) in
  let '(os, s2, g2) := new_objs INIT s1 g in
  let s3 := w_shared (s_shared s2 ++ os) s2 in
  '(s4, g4) <- rfold init_group (seq 0 ng) (s3, g2) ;;
  let s5 := w_m (repeat 0%Z (length (s_shared s4))) s4 in
  s6 <- rfold (fun s' i =>
          rt <- at_ (s_rest s') i ;;
          n <- nby i ;;
          x <- rfold (fun acc j => t <- at2 (s_tab s') i j ;; add1 acc t 1) (seq 0 n) (repeat 0%Z (length rt)) ;;
          nn <- set_at (s_n s') i x ;; Ok (w_n nn s')) (seq 0 ng) s5 ;;
  Ok (s6, g4).

(** ** Update of the cluster parameters *)

(** The observations at each table of restaurant [r]
    (semihdp_sampler.cc:99-107, 259-270). *)
Definition by_table (s : sst) (r : nat) : res (list (list (Datum I))) :=
  rt <- at_ (s_rest s) r ;;
  rfold (fun acc i =>
    ri <- at_ (s_ra s) i ;;
    if ri =? r then
      n <- nby i ;;
      rfold (fun acc' j =>
        t <- at2 (s_tab s) i j ;; d <- row i j ;;
        x <- at_ acc' t ;; set_at acc' t (x ++ [d])) (seq 0 n) acc
    else Ok acc) (seq 0 ng) (repeat [] (length rt)).

(** [sample_full_cond(data)] if there are data, else [sample_prior()]. *)
Definition redraw (o : nat) (d : list (Datum I)) (s : sst) (g : Gs I) : res (sst * Gs I) :=
  let '(x, g') := match d with [] => samp_prior I g | _ => samp_full I d g end in
  h <- set_at (s_heap s) o x ;; Ok (w_heap h s, g').

(** semihdp_sampler.cc:110-120, one table. *)
Definition unique_table (r : nat) (dbt : list (list (Datum I)))
    (a : sst * list (list (Datum I)) * Gs I) (l : nat) : res (sst * list (list (Datum I)) * Gs I) :=
  let '(s, dbs, g) := a in
  p <- at2 (s_tp s) r l ;;
  d <- at_ dbt l ;;
  match p with
  | Some k =>
      o <- at2 (s_priv s) r k ;;
      '(s1, g1) <- redraw o d s g ;;
      rest <- set2 (s_rest s1) r l o ;;
      Ok (w_rest rest s1, dbs, g1)
  | None =>
      t <- at2 (s_ts s) r l ;;
      match t with
      | None => UB
      | Some h => x <- at_ dbs h ;; dbs' <- set_at dbs h (x ++ d) ;; Ok (s, dbs', g)
      end
  end.

Definition unique_rest (a : sst * list (list (Datum I)) * Gs I) (r : nat) : res (sst * list (list (Datum I)) * Gs I) :=
  let '(s, dbs, g) := a in
  dbt <- by_table s r ;;
  rfold (unique_table r dbt) (seq 0 (length dbt)) (s, dbs, g).

(** semihdp_sampler.cc:131-138. *)
Definition reassign_shared (s : sst) : res sst :=
  rfold (fun s' i =>
    rt <- at_ (s_rest s') i ;;
    rfold (fun s'' l =>
      t <- at2 (s_ts s'') i l ;;
      match t with
      | None => Ok s''
      | Some h => o <- at_ (s_shared s'') h ;; rest <- set2 (s_rest s'') i l o ;; Ok (w_rest rest s'')
      end) (seq 0 (length rt)) s') (seq 0 ng) s.

(** semihdp_sampler.cc:88-139. *)
Definition update_unique_vals (s : sst) (g : Gs I) : res (sst * Gs I) :=
  '(s1, dbs, g1) <- rfold unique_rest (seq 0 ng) (s, repeat [] (length (s_shared s)), g) ;;
  '(s2, g2) <- rfold (fun a h => let '(s', g') := a in
        o <- at_ (s_shared s') h ;; d <- at_ dbs h ;; redraw o d s' g')
      (seq 0 (length (s_shared s1))) (s1, g1) ;;
  s3 <- reassign_shared s2 ;;
  Ok (s3, g2).

(** ** Reallocation of the observations *)

(** [int x = std::log(1.0 * n)]: truncation towards zero; [log(0)] and
    [log(negative)] are not representable. *)
Definition ilog (n : Z) : res Z :=
  if (0 <? n)%Z then Ok (Int_part (ln (IZR n)))
  else match cvt I with Some z => Ok z | None => UB end.

(** Loop state of update_table_allocs: sampler, [log_n_by_table], [log_m]. *)
Definition tst : Type := (sst * list (list Z) * list Z)%type.

(** Contributions of the shared tables (semihdp_sampler.cc:193-203). *)
Definition hdp_contribs (s : sst) (logm : list Z) (logmsum : R) (d : Datum I) : res (list xreal) :=
  xs <- rmap (fun h =>
    lm <- at_ logm h ;; o <- at_ (s_shared s) h ;; th <- at_ (s_heap s) o ;;
    Ok (xadd (Fin (IZR lm - logmsum)) (like I th d))) (seq 0 (length (s_shared s))) ;;
  Ok (xs ++ [xadd (Fin (ln (p_gamma P) - logmsum)) (marg I d)]).

(** Weights of the existing tables (semihdp_sampler.cc:182-188). *)
Definition table_weights (s : sst) (r : nat) (logn : list (list Z)) (d : Datum I) : res (list xreal) :=
  rt <- at_ (s_rest s) r ;;
  rmap (fun l =>
    ln_ <- at2 logn r l ;; o <- at_ rt l ;; th <- at_ (s_heap s) o ;;
    Ok (xadd (Fin (IZR ln_)) (like I th d))) (seq 0 (length rt)).

(** Weight of a new table (semihdp_sampler.cc:190-207). *)
Definition new_weight (s : sst) (hdp : list xreal) (d : Datum I) : xreal :=
  xadd (Fin (ln (p_alpha P)))
       (xlse [xadd (xlog (s_w s)) (marg I d); xadd (xlog (1 - s_w s)) (xlse hdp)]).

(** semihdp_sampler.cc:172-180. *)
Definition leave_table (s : sst) (logn : list (list Z)) (logm : list Z) (i j r : nat) : res tst :=
  t <- at2 (s_tab s) i j ;;
  nn <- add2 (s_n s) r t (-1) ;;
  nv <- at2 nn r t ;;
  lv <- ilog nv ;;
  logn1 <- set2 logn r t lv ;;
  ts <- at2 (s_ts s) r t ;;
  match ts with
  | None => Ok (w_n nn s, logn1, logm)
  | Some h =>
      m <- add1 (s_m s) h (-1) ;;
      (* the logarithm of the table's index, not of its count *)
      lh <- ilog (Z.of_nat h) ;;
      logm1 <- set_at logm h lh ;;
      Ok (w_m m (w_n nn s), logn1, logm1)
  end.

(** semihdp_sampler.cc:215-248. *)
Definition open_table (s : sst) (logn : list (list Z)) (logm : list Z) (r : nat) (d : Datum I)
    (hdp : list xreal) (g : Gs I) : res (tst * Gs I) :=
  nn <- push2 (s_n s) r 1%Z ;;
  logn1 <- push2 logn r 0%Z ;;
  let '(u, g1) := unif I g in
  if Rlt_dec u (s_w s) then
    let '(x, g2) := samp_full I [d] g1 in
    let '(o, s1) := alloc_obj x (w_n nn s) in
    priv <- push2 (s_priv s1) r o ;;
    rest <- push2 (s_rest s1) r o ;;
    ts <- push2 (s_ts s1) r None ;;
    pv <- at_ priv r ;;
    tp <- push2 (s_tp s1) r (Some (length pv - 1)) ;;
    nn2 <- push2 nn r 1%Z ;;
    logn2 <- push2 logn1 r 1%Z ;;
    Ok ((w_n nn2 (w_tp tp (w_ts ts (w_rest rest (w_priv priv s1)))), logn2, logm), g2)
  else
    tp <- push2 (s_tp s) r None ;;
    let '(tnew, g2) := cat I hdp g1 in
    ts <- push2 (s_ts s) r (Some tnew) ;;
    let s1 := w_ts ts (w_tp tp (w_n nn s)) in
    if tnew <? length (s_shared s) then
      o <- at_ (s_shared s) tnew ;;
      rest <- push2 (s_rest s) r o ;;
      m <- add1 (s_m s) tnew 1 ;;
      Ok ((w_m m (w_rest rest s1), logn1, logm), g2)
    else
      let '(x, g3) := samp_full I [d] g2 in
      let '(o, s2) := alloc_obj x s1 in
      rest <- push2 (s_rest s2) r o ;;
      Ok ((w_rest rest (w_m (s_m s2 ++ [1%Z]) (w_shared (s_shared s2 ++ [o]) s2)), logn1, logm ++ [0%Z]), g3).

(** semihdp_sampler.cc:171-250, one observation. *)
Definition table_step (logmsum : R) (i r : nat) (a : tst * Gs I) (j : nat) : res (tst * Gs I) :=
  let '((s, logn, logm), g) := a in
  '(s1, logn1, logm1) <- leave_table s logn logm i j r ;;
  d <- row i j ;;
  ps <- table_weights s1 r logn1 d ;;
  hdp <- hdp_contribs s1 logm1 logmsum d ;;
  let '(snew, g1) := cat I (ps ++ [new_weight s1 hdp d]) g in
  tab <- set2 (s_tab s1) i j snew ;;
  let s2 := w_tab tab s1 in
  if snew <? length ps then
    nn <- add2 (s_n s2) r snew 1 ;;
    nv <- at2 nn r snew ;;
    lv <- ilog nv ;;
    logn2 <- set2 logn1 r snew lv ;;
    Ok ((w_n nn s2, logn2, logm1), g1)
  else open_table s2 logn1 logm1 r d hdp g1.

Definition table_group (logmsum : R) (a : tst * Gs I) (i : nat) : res (tst * Gs I) :=
  let '((s, _, _), _) := a in
  r <- at_ (s_ra s) i ;;
  n <- nby i ;;
  rfold (table_step logmsum i r) (seq 0 n) a.

(** semihdp_sampler.cc:141-252. *)
Definition update_table_allocs (s : sst) (g : Gs I) : res (sst * Gs I) :=
  s1 <- count_m s ;;
  s2 <- count_n s1 ;;
  logn <- rmap (fun ns => rmap ilog ns) (firstn ng (s_n s2)) ;;
  logm <- rmap ilog (s_m s2) ;;
  let logmsum := ln (IZR (fold_right Z.add 0%Z (s_m s2)) + / 10 ^ 20) in
  '((s3, _, _), g1) <- rfold (table_group logmsum) (seq 0 ng) ((s2, logn, logm), g) ;;
  Ok (s3, g1).

(** ** Reallocation of tables to shared tables *)

Definition lsum (l : list xreal) : xreal := fold_right xadd (Fin 0) l.

(** semihdp_sampler.cc:273-305, one table.  [prior_pred_lpdf_grid] is called
    with an empty data matrix (the data are passed as covariates), so its sum
    is zero. *)
Definition shared_table (r : nat) (dbt : list (list (Datum I))) (a : sst * Gs I) (l : nat) : res (sst * Gs I) :=
  let '(s, g) := a in
  t <- at2 (s_ts s) r l ;;
  d <- at_ dbt l ;;
  match t, d with
  | Some h, _ :: _ =>
      m <- add1 (s_m s) h (-1) ;;
      ps <- rmap (fun k =>
        mk <- at_ m k ;; o <- at_ (s_shared s) k ;; th <- at_ (s_heap s) o ;;
        Ok (xadd (xlog (IZR mk)) (lsum (map (like I th) d)))) (seq 0 (length (s_shared s))) ;;
      let '(newt, g1) := cat I (ps ++ [xadd (xlog (p_gamma P)) (lsum [])]) g in
      ts <- set2 (s_ts s) r l (Some newt) ;;
      if newt <? length (s_shared s) then
        m2 <- add1 m newt 1 ;; Ok (w_ts ts (w_m m2 s), g1)
      else
        let '(x, g2) := samp_full I d g1 in
        let '(o, s1) := alloc_obj x (w_ts ts (w_m (m ++ [1%Z]) s)) in
        Ok (w_shared (s_shared s1 ++ [o]) s1, g2)
  | _, _ => Ok (s, g)
  end.

(** semihdp_sampler.cc:254-308. *)
Definition update_to_shared (s : sst) (g : Gs I) : res (sst * Gs I) :=
  s1 <- count_m s ;;
  rfold (fun a r => let '(s', g') := a in
    dbt <- by_table s' r ;; rfold (shared_table r dbt) (seq 0 (length dbt)) (s', g')) (seq 0 ng) (s1, g).

(** ** Reallocation of groups to restaurants *)

(** semihdp_sampler.cc:524-553. *)
Definition mix_lpdf (tabs : list nat) (ns : list Z) (heap : list (St I)) (d : Datum I) : res xreal :=
  let nr := fold_right Z.add 0%Z ns in
  xs <- rmap (fun h =>
    n <- at_ ns h ;; o <- at_ tabs h ;; th <- at_ heap o ;;
    Ok (xadd (xlog (IZR n / (p_alpha P + IZR nr))) (like I th d))) (seq 0 (length tabs)) ;;
  Ok (xlse xs).

Definition lpdf_for_group (s : sst) (i r : nat) : res xreal :=
  us <- at_ (s_used s) r ;;
  tabs <- at_ (if us : bool then s_rest s else s_restp s) r ;;
  ns <- at_ (if us then s_n s else s_np s) r ;;
  n <- nby i ;;
  xs <- rmap (fun j => d <- row i j ;; mix_lpdf tabs ns (s_heap s) d) (seq 0 n) ;;
  Ok (lsum xs).

(** semihdp_sampler.cc:572-586: the weight of an empty table is [1e-20] on the
    logarithmic scale. *)
Definition rlog (n : Z) : R := if (0 <? n)%Z then ln (IZR n) else (/ 10 ^ 20)%R.

Definition reassign_obs (i r : nat) (a : sst * Gs I) (j : nat) : res (sst * Gs I) :=
  let '(s, g) := a in
  d <- row i j ;;
  rt <- at_ (s_rest s) r ;;
  ps <- rmap (fun l =>
    n <- at2 (s_n s) r l ;; o <- at_ rt l ;; th <- at_ (s_heap s) o ;;
    Ok (xadd (Fin (rlog n)) (like I th d))) (seq 0 (length rt)) ;;
  match ps with
  | [] => Throw "softmax: empty vector"
  | _ =>
      let '(t, g1) := cat I ps g in
      tab <- set2 (s_tab s) i j t ;; Ok (w_tab tab s, g1)
  end.

(** semihdp_sampler.cc:555-587. *)
Definition reassign_group (i new_r old_r : nat) (s : sst) (g : Gs I) : res (sst * Gs I) :=
  ra <- set_at (s_ra s) i new_r ;;
  us <- set_at (s_used s) old_r (existsb (Nat.eqb old_r) ra) ;;
  let s1 := w_ra ra us s in
  un <- at_ us new_r ;;
  s2 <- (if un : bool then Ok s1
         else
           tabs <- at_ (s_restp s1) new_r ;;
           ns <- at_ (s_np s1) new_r ;;
           rest <- set_at (s_rest s1) new_r tabs ;;
           nn <- set_at (s_n s1) new_r ns ;;
           priv <- set_at (s_priv s1) new_r tabs ;;
           ts <- set_at (s_ts s1) new_r (repeat None (length tabs)) ;;
           tp <- set_at (s_tp s1) new_r (map Some (seq 0 (length tabs))) ;;
           us2 <- set_at us new_r true ;;
           Ok (w_ra ra us2 (w_tp tp (w_ts ts (w_priv priv (w_n nn (w_rest rest s1))))))) ;;
  n <- nby i ;;
  rfold (reassign_obs i new_r) (seq 0 n) (s2, g).

(** semihdp_sampler.cc:589-618; [clus1[0]] is read first
    (distributions.cc:243). *)
Definition mix_of (s : sst) (r : nat) : res (list (St I * R)) :=
  rt <- at_ (s_rest s) r ;;
  rmap (fun l => o <- at_ rt l ;; th <- at_ (s_heap s) o ;; n <- at2 (s_n s) r l ;; Ok (th, IZR n)) (seq 0 (length rt)).

Definition normalise (l : list (St I * R)) : list (St I * R) :=
  let t := fold_right Rplus 0%R (map snd l) in map (fun p => (fst p, snd p / t)%R) l.

Definition mixture_distance (s : sst) (i : nat) : res (list R) :=
  c1 <- mix_of s i ;;
  match c1 with
  | [] => if ng =? 0 then Ok [] else UB
  | _ => rmap (fun r => c2 <- mix_of s r ;; Ok (mdist I (normalise c1) (normalise c2))) (seq 0 ng)
  end.

(** semihdp_sampler.cc:310-353, one group. *)
Definition rest_step (a : sst * Gs I) (i : nat) : res (sst * Gs I) :=
  let '(s, g) := a in
  cur <- at_ (s_ra s) i ;;
  '(new_r, g1) <-
    (if String.eqb (p_mode P) "full" then
       ps <- rmap (fun r => l <- lpdf_for_group s i r ;; c <- at_ (s_conc s) r ;; Ok (xadd l (xlog c))) (seq 0 ng) ;;
       Ok (cat I ps g)
     else
       '(prop, g') <-
         (if String.eqb (p_mode P) "metro_base" then Ok (uint I ng g)
          else if String.eqb (p_mode P) "metro_dist" then
            ds <- mixture_distance s cur ;;
            let ws := map (fun x => 1 + / 10 / (/ 10000 + x))%R ds in
            let t := fold_right Rplus 0%R ws in
            Ok (catp I (map (fun x => x / t)%R ws) g)
          else Ok (cur, g)) ;;
       ln_ <- lpdf_for_group s i prop ;; cn <- at_ (s_conc s) prop ;;
       ld <- lpdf_for_group s i cur ;; cd <- at_ (s_conc s) cur ;;
       let '(u, g2) := unif I g' in
       (* [log(u) < num - den] *)
       if Rlt_dec (u * (xexp (xadd ld (xlog cd)))) (xexp (xadd ln_ (xlog cn)))
       then Ok (prop, g2) else Ok (cur, g2)) ;;
  if new_r =? cur then Ok (s, g1) else reassign_group i new_r cur s g1.

Definition update_rest_allocs (s : sst) (g : Gs I) : res (sst * Gs I) :=
  rfold rest_step (seq 0 ng) (s, g).

(** ** Weights *)

(** semihdp_sampler.cc:355-372 (the Beta update). *)
Definition is_some {A} (o : option A) : bool := match o with Some _ => true | None => false end.

Definition weight_counts (s : sst) : res (nat * nat) :=
  rfold (fun acc r =>
    if existsb (Nat.eqb r) (s_ra s) then
      tp <- at_ (s_tp s) r ;;
      Ok (fst acc + length (filter is_some tp), snd acc + length tp)
    else Ok acc) (seq 0 ng) (0, 0).

Definition update_semihdp_weight (s : sst) (g : Gs I) : res (sst * Gs I) :=
  '(cnt, tot) <- weight_counts s ;;
  let '(w, g1) := beta I (p_w1 P + INR cnt)%R (p_w2 P + INR tot - INR cnt)%R g in
  Ok (w_w w s, g1).

(** semihdp_sampler.cc:374-383. *)
Definition group_counts (s : sst) : res (list Z) :=
  rfold (fun acc i => r <- at_ (s_ra s) i ;; add1 acc r 1) (seq 0 ng) (repeat 0%Z ng).

Definition update_dirichlet (s : sst) (g : Gs I) : res (sst * Gs I) :=
  c <- group_counts s ;;
  let '(v, g1) := dirich I (map (fun k => IZR k + p_conc P)%R c) g in
  Ok (w_conc v s, g1).

(** ** Relabelling *)

Definition members (s : sst) (r : nat) : res (list nat) :=
  rfold (fun acc i => ri <- at_ (s_ra s) i ;; Ok (if ri =? r then acc ++ [i] else acc)) (seq 0 ng) [].

Definition mark_used (s : sst) (r : nat) (groups : list nat) : res (list bool) :=
  rt <- at_ (s_rest s) r ;;
  rfold (fun acc i =>
    n <- nby i ;;
    rfold (fun acc' j => t <- at2 (s_tab s) i j ;; set_at acc' t true) (seq 0 n) acc)
    groups (repeat false (length rt)).

Definition dec_gt (p : nat) (o : option nat) : option nat :=
  match o with Some k => Some (if p <? k then k - 1 else k) | None => None end.
Definition dec_ge (l : nat) (o : option nat) : option nat :=
  match o with Some k => Some (if l <=? k then k - 1 else k) | None => None end.

(** semihdp_sampler.cc:422-435: allocations of one group after table [l] has
    gone ([n_by_group[i]] entries are visited; an empty vector has no maximum
    to dereference). *)
Definition relabel_group (r l : nat) (s : sst) (i : nat) : res sst :=
  n <- nby i ;;
  ta <- at_ (s_tab s) i ;;
  if length ta <? n then UB
  else
    let ta' := map (fun t => if l <=? t then t - 1 else t) (firstn n ta) ++ skipn n ta in
    tab <- set_at (s_tab s) i ta' ;;
    rt <- at_ (s_rest s) r ;;
    match ta' with
    | [] => UB
    | _ => if length rt <=? list_max ta' then Throw "max table_allocs greater than rest_tables size"
           else Ok (w_tab tab s)
    end.

(** semihdp_sampler.cc:400-437, one table. *)
Definition drop_table (r : nat) (groups : list nat) (used : list bool) (s : sst) (l : nat) : res sst :=
  u <- at_ used l ;;
  if u : bool then Ok s
  else
    rt <- at_ (s_rest s) r ;; rt' <- erase_at rt l ;; rest <- set_at (s_rest s) r rt' ;;
    tpr <- at_ (s_tp s) r ;;
    p <- at_ tpr l ;;
    '(priv, tpr1) <-
      (match p with
       | Some k =>
           pv <- at_ (s_priv s) r ;; pv' <- erase_at pv k ;; priv <- set_at (s_priv s) r pv' ;;
           Ok (priv, map (dec_gt k) tpr)
       | None => Ok (s_priv s, tpr)
       end) ;;
    tpr2 <- erase_at tpr1 l ;; tp <- set_at (s_tp s) r tpr2 ;;
    tsr <- at_ (s_ts s) r ;; tsr' <- erase_at tsr l ;; ts <- set_at (s_ts s) r tsr' ;;
    rfold (relabel_group r l) groups (w_ts ts (w_tp tp (w_priv priv (w_rest rest s)))).

Definition relabel_rest (s : sst) (r : nat) : res sst :=
  groups <- members s r ;;
  used <- mark_used s r groups ;;
  rfold (drop_table r groups used) (rev (seq 0 (length used))) s.

Definition mark_shared (s : sst) : res (list bool) :=
  rfold (fun acc i =>
    tr <- at_ (s_ts s) i ;;
    rfold (fun acc' t => match t with Some h => set_at acc' h true | None => Ok acc' end) tr acc)
    (seq 0 ng) (repeat false (length (s_shared s))).

Definition drop_shared (used : list bool) (s : sst) (l : nat) : res sst :=
  u <- at_ used l ;;
  if u : bool then Ok s
  else sh <- erase_at (s_shared s) l ;;
       Ok (w_ts (map (map (dec_ge l)) (s_ts s)) (w_shared sh s)).

(** semihdp_sampler.cc:385-465. *)
Definition relabel (s : sst) : res sst :=
  s1 <- rfold relabel_rest (seq 0 ng) s ;;
  used <- mark_shared s1 ;;
  s2 <- rfold (drop_shared used) (rev (seq 0 (length used))) s1 ;;
  s3 <- count_n s2 ;;
  count_m s3.

(** ** Pseudo-prior *)

(** A state of the chain of one group's pseudo-prior run: cluster parameters
    and allocations. *)
Definition pstate : Type := (list (St I) * list nat)%type.
(** [pseudoprior_collectors]: one list of states per group. *)
Variable pseudo : list (list pstate).

Definition cards_of (ps : pstate) : res (list Z) :=
  rfold (fun acc c => add1 acc c 1) (snd ps) (repeat 0%Z (length (fst ps))).

Fixpoint load_objs (l : list (St I)) (s : sst) : list nat * sst :=
  match l with
  | [] => ([], s)
  | x :: t => let '(o, s1) := alloc_obj x s in let '(os, s2) := load_objs t s1 in (o :: os, s2)
  end.

(** semihdp_sampler.cc:467-503, one restaurant; [multinomial_rng] rejects the
    vector of NaN that [cards / cards.sum()] gives when there are no
    allocations. *)
Definition pseudo_rest (it : nat) (a : sst * Gs I) (r : nat) : res (sst * Gs I) :=
  let '(s, g) := a in
  ch <- at_ pseudo r ;;
  match nth_error ch it with
  | None => Throw "get_state"
  | Some ps =>
      c <- cards_of ps ;;
      let tot := fold_right Z.add 0%Z c in
      if (tot =? 0)%Z then Throw "multinomial_rng"
      else
        let k := INR (length c) in
        let probs := map (fun n => p_card P * (IZR n / IZR tot) + (1 - p_card P) * 1 / k)%R c in
        n <- nby r ;;
        let '(ns, g1) := multin I probs n g in
        let '(os, s1) := load_objs (fst ps) s in
        np <- set_at (s_np s1) r ns ;;
        rp <- set_at (s_restp s1) r os ;;
        Ok (w_pseudo rp np s1, g1)
  end.

Definition sample_pseudo_prior (s : sst) (g : Gs I) : res (sst * Gs I) :=
  ch <- at_ pseudo 0 ;;
  let it_n := length ch in
  if it_n =? 0 then Throw "categorical_rng"
  else
    let '(it, g1) := catp I (repeat (/ INR it_n)%R it_n) g in
    rfold (pseudo_rest it) (seq 0 ng) (s, g1).

(** ** One iteration and the whole run *)

(** semihdp_sampler.h:88-99. *)
Definition step (adapt : bool) (a : sst * Gs I) : res (sst * Gs I) :=
  let '(s0, g0) := a in
  '(s1, g1) <- update_unique_vals s0 g0 ;;
  '(s2, g2) <- update_semihdp_weight s1 g1 ;;
  '(s3, g3) <- (if adapt then Ok (s2, g2)
                else '(s', g') <- sample_pseudo_prior s2 g2 ;; update_rest_allocs s' g') ;;
  '(s4, g4) <- update_dirichlet s3 g3 ;;
  '(s5, g5) <- update_to_shared s4 g4 ;;
  '(s6, g6) <- update_table_allocs s5 g5 ;;
  s7 <- relabel s6 ;;
  Ok (s7, g6).

Fixpoint steps (adapt : bool) (k : nat) (a : sst * Gs I) : res (sst * Gs I) :=
  match k with O => Ok a | S k' => a' <- step adapt a ;; steps adapt k' a' end.

(** What is written per iteration (semihdp_sampler.cc:642-676): atoms, counts and
    maps by restaurant, allocations by group, and - inside the loop over
    groups - all shared atoms.  [wr] is [write_state_to_proto] on a
    [SemiHdpState::ClusterState]. *)
Record out (A : Type) : Type := mkOut {
  o_stars : list (list A); o_n : list (list Z);
  o_ts : list (list (option nat)); o_tp : list (list (option nat));
  o_tab : list (list nat); o_taus : list A; o_c : list nat; o_w : R }.

Definition out0 {A} : out A := mkOut A [] [] [] [] [] [] [] 0%R.

Definition get_state {A} (wr : St I -> res A) (s : sst) : res (out A) :=
  rfold (fun o i =>
    rt <- at_ (s_rest s) i ;;
    xs <- rmap (fun k => th <- at_ (s_heap s) k ;; wr th) rt ;;
    n <- at_ (s_n s) i ;; ts <- at_ (s_ts s) i ;; tp <- at_ (s_tp s) i ;; tab <- at_ (s_tab s) i ;;
    taus <- rmap (fun k => th <- at_ (s_heap s) k ;; wr th) (s_shared s) ;;
    Ok (mkOut A (o_stars A o ++ [xs]) (o_n A o ++ [n]) (o_ts A o ++ [ts]) (o_tp A o ++ [tp])
              (o_tab A o ++ [tab]) (o_taus A o ++ taus) (s_ra s) (s_w s))) (seq 0 ng) out0.

(** What [get_state_as_proto] passes to [write_state_to_proto] is a
    [SemiHdpState::ClusterState]; base_likelihood.h:156-160, 207-214 casts it
    down to an [AlgorithmState::ClusterState], another type. *)
Definition write_clusval {A} (_ : St I) : res A := UB.

(** semihdp_sampler.h:136-142; the test is on the number of iterations. *)
Fixpoint main_loop {A} (wr : St I -> res A) (iter thin k : nat) (a : sst * Gs I) (acc : list (out A))
    : res (list (out A) * (sst * Gs I)) :=
  match k with
  | O => Ok (acc, a)
  | S k' =>
      a' <- step false a ;;
      match thin with
      | O => UB
      | S _ =>
          if iter mod thin =? 0 then
            o <- get_state wr (fst a') ;; main_loop wr iter thin k' a' (acc ++ [o])
          else main_loop wr iter thin k' a' acc
      end
  end.

(** semihdp_sampler.h:101-143. *)
Definition run {A} (wr : St I -> res A) (adapt_iter burnin iter thin : nat) (s : sst) (g : Gs I)
    : res (list (out A) * (sst * Gs I)) :=
  match pseudo with
  | [] => UB
  | _ =>
      '(s1, g1) <- initialize s g ;;
      a1 <- update_unique_vals s1 g1 ;;
      a2 <- steps true adapt_iter a1 ;;
      a3 <- (let '(s2, g2) := a2 in sample_pseudo_prior s2 g2) ;;
      a4 <- steps false burnin a3 ;;
      main_loop wr iter thin iter a4 []
  end.

End Semi.
