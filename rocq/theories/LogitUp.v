(** * The logit stick-breaking mixing: prior, initialisation, weights and update.

    Model of src/mixings/logit_sb_mixing.{h,cc} and of the parts of base_mixing.h
    it uses.  Functions only.

    Vectors are lists, a matrix of coefficients is the list of its columns and
    the precision the list of its rows.  Eigen's size and index assertions give
    [Abort].  [H = 0] components makes the unsigned [num_components - 1] wrap to
    2^32 - 1: what follows depends on the memory of the machine and is [UB]
    here.  The unique values are not read by the update and left out. *)
From Coq Require Import String.
From Coq Require Import Bool List Arith ZArith Reals.
From Verif Require Import Base Mixings Univ Multi LogitLib LogitFacts.
Import ListNotations.
Local Open Scope R_scope.

(** mixing_prior.proto, LogSBPrior: normal_prior (mean, var), step_size,
    num_components. *)
Record lgprior : Type := mkLP { lp_H : nat; lp_step : R; lp_normal : option (list R * list (list R)) }.

(** logit_sb_mixing.h:15-19, 106-113, base_mixing.h:103. *)
Record lg : Type := mkLG {
  lg_H : nat; lg_dim : nat; lg_cols : list (list R); lg_prec : list (list R);
  lg_acc : list nat; lg_iter : nat }.

(** logit_sb_mixing.cc:97-122. *)
Definition lg_init (p : lgprior) : res lg :=
  if (lp_H p =? 0)%nat then UB else
  match lp_normal p with
  | Some (mean, var) =>
      prec <- linv var ;;
      if negb (length mean =? length prec)%nat then Throw "Hyperparameters dimensions are not consisent"
      else if lteb (lp_step p) 0 then Throw "Step size parameter must be > 0"
      else Ok (mkLG (lp_H p) (length mean) (repeat mean (lp_H p - 1)) prec (repeat 0%nat (lp_H p - 1)) 0)
  | None => Throw "Unrecognized mixing prior"
  end.

(** [regression_coeffs.col(h)]. *)
Definition lg_col (s : lg) (h : nat) : res (list R) :=
  match nth_error (lg_cols s) h with Some b => Ok b | None => Abort end.
(** [x.dot(b)]. *)
Definition edot (x b : list R) : res R := if (length x =? length b)%nat then Ok (dot x b) else Abort.

(** logit_sb_mixing.cc:54-78. *)
Definition lg_weights (log : bool) (s : lg) (x : list R) : res (list R) :=
  if (lg_H s =? 0)%nat then UB else
  eta <- rmap (fun h => b <- lg_col s h ;; edot x b) (seq 0 (lg_H s - 1)) ;;
  let lw := logit_go 0 (eta ++ [1]) in
  Ok (if log then lw else map exp lw).

(** The rows read by the loops of logit_sb_mixing.cc:132-140 and 152-158 exist
    and have the size of the coefficients. *)
Fixpoint rows_used (d h : nat) (rows : list (list R)) (alloc : list nat) : bool :=
  match alloc, rows with
  | [], _ => true
  | c :: al, [] => negb (h <=? c)%nat && rows_used d h [] al
  | c :: al, x :: rs => (negb (h <=? c)%nat || (length x =? d)%nat) && rows_used d h rs al
  end.
(** The sizes in [precision * (alpha - prior_mean)] agree. *)
Definition sizes_ok (mean : list R) (s : lg) (alpha : list R) : bool :=
  (length alpha =? length mean)%nat && (length alpha =? length (lg_prec s))%nat.

(** logit_sb_mixing.cc:124-143. *)
Definition lg_lpdf (mean : list R) (s : lg) (alpha : list R) (h : nat) (rows : list (list R)) (alloc : list nat) : res R :=
  if sizes_ok mean s alpha && rows_used (length alpha) h rows alloc then
    Ok (logit_lpdf (quad_form (lg_prec s) (vsub alpha mean)) alpha h rows alloc)
  else Abort.

(** logit_sb_mixing.cc:145-161; Eigen transposes the row that is added to the
    column. *)
Definition lg_grad (mean : list R) (s : lg) (alpha : list R) (h : nat) (rows : list (list R)) (alloc : list nat) :
    res (list R) :=
  if sizes_ok mean s alpha && rows_used (length alpha) h rows alloc then
    let g0 := matvec (lg_prec s) (vsub mean alpha) in
    Ok (map (fun j => logit_grad (nth j g0 0) j alpha h rows alloc) (seq 0 (length alpha)))
  else Abort.

Definition vaxpy (b : list R) (a : R) (g : list R) : list R := map (fun p => fst p + a * snd p) (combine b g).

(** logit_sb_mixing.cc:38-43. *)
Definition lg_log_accept (fc fc' pv : R) (m b b' : list R) : R :=
  let prop_ratio := (-0.5 / pv) * (dot (vsub b' m) (vsub b' m) - dot (vsub b m) (vsub b m)) in
  (fc' - fc) - prop_ratio.

Section Update.
Variables (G : gen) (M : mgen G).

(** logit_sb_mixing.cc:29-51, component [h]. *)
Definition lg_step (p : lgprior) (mean : list R) (rows : list (list R)) (alloc : list nat)
    (sr : lg * Gs G) (h : nat) : res (lg * Gs G) :=
  let '(s, r) := sr in
  let step := lp_step p in
  let pv := sqrt (2 * step) in
  b <- lg_col s h ;;
  g <- lg_grad mean s b h rows alloc ;;
  let m := vaxpy b step g in
  let '(b', r1) := mvn_list M m pv r in
  fc' <- lg_lpdf mean s b' h rows alloc ;;
  fc <- lg_lpdf mean s b h rows alloc ;;
  let '(u, r2) := g_unif G 0 1 r1 in
  if gtb (exp (lg_log_accept fc fc' pv m b b')) u then
    match nth_error (lg_acc s) h with
    | Some a => Ok (mkLG (lg_H s) (lg_dim s) (upd (lg_cols s) h b') (lg_prec s) (upd (lg_acc s) h (S a)) (lg_iter s), r2)
    | None => Abort
    end
  else Ok (s, r2).

(** logit_sb_mixing.cc:17-52. *)
Definition lg_update (p : lgprior) (rows : list (list R)) (alloc : list nat) (sr : lg * Gs G) : res (lg * Gs G) :=
  let '(s, r) := sr in
  let s1 := mkLG (lg_H s) (lg_dim s) (lg_cols s) (lg_prec s) (lg_acc s) (S (lg_iter s)) in
  if (lg_H s =? 0)%nat then UB else
  let mean := match lp_normal p with Some (m, _) => m | None => [] end in
  rfold (lg_step p mean rows alloc) (seq 0 (lg_H s - 1)) (s1, r).

(** The updates of a chain: one allocation vector per iteration. *)
Definition lg_run (p : lgprior) (rows : list (list R)) (allocs : list (list nat)) (sr : lg * Gs G) : res (lg * Gs G) :=
  rfold (fun sr al => lg_update p rows al sr) allocs sr.

End Update.
Arguments lg_step {G} M p mean rows alloc sr h.
Arguments lg_update {G} M p rows alloc sr.
Arguments lg_run {G} M p rows allocs sr.

(** logit_sb_mixing.h:70-73: no number (0 / 0) before the first update. *)
Definition lg_rates (s : lg) : option (list R) :=
  if (lg_iter s =? 0)%nat then None else Some (map (fun a => INR a / INR (lg_iter s)) (lg_acc s)).

(** logit_sb_mixing.cc:80-85, 87-95. *)
Definition lg_set_proto (cols : list (list R)) (s : lg) : lg :=
  mkLG (lg_H s) (lg_dim s) cols (lg_prec s) (lg_acc s) (lg_iter s).
Definition lg_get_proto (s : lg) : list (list R) := lg_cols s.
