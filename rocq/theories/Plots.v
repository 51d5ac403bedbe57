(** * Plot preparation.

    Model of src/plots/plot_utils.cc ([to_mesh] 3-33, [density_plot_2d] 48-59,
    [num_clus_bar] 90-106) and of the density part of executables/plot_mcmc.cc
    (86-115).  Drawing itself is not modelled: a plot is the vectors handed to the
    plotting library.
    Functions only. *)
From Coq Require Import String.
From Coq Require Import Bool List Arith ZArith Reals.
From Verif Require Import Base.
Import ListNotations.

Section Mesh.
Variable A : Type.                  (* doubles *)
Variable eqb : A -> A -> bool.      (* == *)
Variable zero : A.

(** plot_utils.cc:9-11: [ny] when the loop stops.  Row [ny + 1] is read before it
    is known to exist. *)
Fixpoint run_ny (fuel : nat) (grid : list (A * A)) (x0 : A) (ny : nat) : res nat :=
  match fuel with
  | 0 => Ok ny
  | S fuel =>
      if ny <? length grid then
        p <- at_ grid (ny + 1) ;;
        if eqb (fst p) x0 then run_ny fuel grid x0 (ny + 1) else Ok ny
      else Ok ny
  end.

Definition set2 {B} (m : list (list B)) (i j : nat) (v : B) : res (list (list B)) :=
  r <- at_ m i ;; r' <- set_at r j v ;; set_at m i r'.

(** plot_utils.cc:3-33 *)
Definition to_mesh (grid : list (A * A)) (vals : list A) :
    res (list (list A) * list (list A) * list (list A)) :=
  p0 <- at_ grid 0 ;;
  ny0 <- run_ny (S (length grid)) grid (fst p0) 0 ;;
  let ny := ny0 + 1 in
  if length grid mod ny =? 0 then
    let nx := length grid / ny in
    rfold (fun '(xg, yg, zg) i =>
      rfold (fun '(xg, yg, zg) j =>
        p <- at_ grid (i * ny + j) ;;
        xg' <- set2 xg i j (fst p) ;;
        yg' <- set2 yg i j (snd p) ;;
        z <- at_ vals (i * ny + j) ;;
        zg' <- set2 zg i j z ;;
        Ok (xg', yg', zg')) (seq 0 ny) (xg, yg, zg))
      (seq 0 nx)
      (repeat (repeat zero nx) ny, repeat (repeat zero ny) nx, repeat (repeat zero nx) ny)
  else Throw "grid is not regular".
End Mesh.

(** plot_utils.cc:90-106: the first column of a matrix with [nc] columns (and as
    many rows as [col] has entries), already cast to integers; ticks and heights. *)
Definition min_coeff (l : list Z) : res Z :=
  match l with [] => UB | x :: t => Ok (fold_left Z.min t x) end.
Definition max_coeff (l : list Z) : res Z :=
  match l with [] => UB | x :: t => Ok (fold_left Z.max t x) end.

Definition num_clus_bar (nc : nat) (col : list Z) : res (list Z * list R) :=
  if nc =? 0 then UB
  else
    let n_iters := length col * nc in
    xmin <- min_coeff col ;;
    xmax <- max_coeff col ;;
    let ticks := map (fun k => (xmin + Z.of_nat k)%Z) (seq 0 (Z.to_nat (xmax - xmin + 1))) in
    h <- rfold (fun h i =>
           v <- at_ col i ;;
           if (v <? xmin)%Z then UB
           else
             let k := Z.to_nat (v - xmin) in
             c <- at_ h k ;; set_at h k (c + 1)%R)
         (seq 0 n_iters) (repeat 0%R (length ticks)) ;;
    Ok (ticks, map (fun c => (c / INR n_iters)%R) h).

(** plot_mcmc.cc:86-115 and, for two columns, the logarithm of plot_utils.cc:55.
    [dens] has one row per iteration; [dim] is the number of
    columns of the grid and [n_points] of its rows.  [None]: nothing is plotted. *)
Definition col_mean (dens : list (list R)) (j : nat) : R :=
  (fold_right Rplus 0 (map (fun r => exp (nth j r 0)) dens) / INR (length dens))%R.
Definition plot_density (dim n_points dens_cols : nat) (dens : list (list R)) : res (option (list R)) :=
  if negb (n_points =? dens_cols) then Throw "Matrix dimensions are not consistent"
  else if negb (dim =? 1) && negb (dim =? 2) then Ok None
  else
    let mean := map (col_mean dens) (seq 0 dens_cols) in
    if dim =? 1 then Ok (Some mean)
    else Ok (Some (map ln mean)).
