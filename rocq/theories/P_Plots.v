(** * Properties of plot preparation (C94-C96). *)
From Coq Require Import String.
From Coq Require Import Bool List Arith ZArith Reals Lia Lra.
From Verif Require Import Base Plots PlotFacts.
Import ListNotations.

(** C94: the mesh of a two-dimensional density plot.  [leads grid k]: exactly the
    first [k] rows share their first coordinate with row 0, and row [k] exists. *)
Theorem C94_mesh_constant : forall A eqb, (forall x y : A, eqb x y = true <-> x = y) -> forall zero grid vals,
  (forall p q, In p grid -> In q grid -> fst p = fst q) -> to_mesh A eqb zero grid vals = UB.
Proof. exact mesh_constant. Qed.
Print Assumptions C94_mesh_constant.

Theorem C94_mesh_throws_iff : forall A eqb, (forall x y : A, eqb x y = true <-> x = y) -> forall zero grid vals k,
  leads A grid k -> (to_mesh A eqb zero grid vals = Throw "grid is not regular" <-> length grid mod k <> 0).
Proof. exact mesh_irregular. Qed.
Print Assumptions C94_mesh_throws_iff.

Theorem C94_mesh_square : forall A eqb, (forall x y : A, eqb x y = true <-> x = y) -> forall zero grid vals k,
  leads A grid k -> length grid = k * k -> length grid <= length vals ->
  exists xg yg zg, to_mesh A eqb zero grid vals = Ok (xg, yg, zg) /\
    shape xg k k /\ shape yg k k /\ shape zg k k /\
    forall i j, i < k -> j < k ->
      cell xg i j = option_map fst (nth_error grid (i * k + j)) /\
      cell yg i j = option_map snd (nth_error grid (i * k + j)) /\
      cell zg i j = nth_error vals (i * k + j).
Proof. exact mesh_square. Qed.
Print Assumptions C94_mesh_square.

Theorem C94_mesh_overrun : forall A eqb, (forall x y : A, eqb x y = true <-> x = y) -> forall zero grid vals k,
  leads A grid k -> length grid mod k = 0 -> length grid <> k * k \/ length vals < length grid ->
  to_mesh A eqb zero grid vals = UB.
Proof. exact mesh_overrun. Qed.
Print Assumptions C94_mesh_overrun.

Theorem C94_mesh_product : forall A eqb, (forall x y : A, eqb x y = true <-> x = y) -> forall zero xs ys vals,
  NoDup xs -> length vals = length xs * length ys ->
  (exists m, to_mesh A eqb zero (list_prod xs ys) vals = Ok m) <-> length xs = length ys /\ 2 <= length xs.
Proof. exact mesh_product. Qed.
Print Assumptions C94_mesh_product.

Theorem C94_mesh_product_cells : forall A eqb, (forall x y : A, eqb x y = true <-> x = y) -> forall zero xs ys vals xg yg zg,
  NoDup xs -> length vals = length xs * length ys -> to_mesh A eqb zero (list_prod xs ys) vals = Ok (xg, yg, zg) ->
  forall i j, i < length xs -> j < length ys ->
    cell xg i j = nth_error xs i /\ cell yg i j = nth_error ys j /\ cell zg i j = nth_error vals (i * length ys + j).
Proof. exact mesh_product_cells. Qed.
Print Assumptions C94_mesh_product_cells.

(** A regular grid with distinct coordinates in both directions is not plotted. *)
Theorem C94_regular_grids_refuted : exists xs ys vals : list nat,
  NoDup xs /\ NoDup ys /\ 2 <= length xs /\ 2 <= length ys /\ length vals = length xs * length ys /\
  to_mesh nat Nat.eqb 0 (list_prod xs ys) vals = UB.
Proof.
  exists [1; 2], [5; 6; 7], [0; 0; 0; 0; 0; 0].
  repeat (split; [repeat constructor; cbn; lia|]). reflexivity.
Qed.
Print Assumptions C94_regular_grids_refuted.

Example ex_C94_square : to_mesh nat Nat.eqb 0 (list_prod [1; 2] [5; 6]) [11; 12; 13; 14] =
  Ok ([[1; 1]; [2; 2]], [[5; 6]; [5; 6]], [[11; 12]; [13; 14]]).
Proof. reflexivity. Qed.
Example ex_C94_leads : leads nat (list_prod [1; 2] [5; 6]) 2.
Proof. apply prod_leads; [repeat constructor; cbn; lia|cbn; lia|cbn; lia]. Qed.
Example ex_C94_irregular : leads nat [(1, 5); (1, 6); (2, 5)] 2 /\ to_mesh nat Nat.eqb 0 [(1, 5); (1, 6); (2, 5)] [0; 0; 0] = Throw "grid is not regular".
Proof.
  split; [|reflexivity]. exists (1, 5), (2, 5). repeat split; [cbn; lia|]. intros [|[|i]] p Hi Hp; cbn in Hp; [injection Hp as <-; reflexivity|injection Hp as <-; reflexivity|lia].
Qed.
Example ex_C94_one_x : to_mesh nat Nat.eqb 0 [(1, 5); (1, 6)] [0; 0] = UB.
Proof. reflexivity. Qed.
Example ex_C94_short : to_mesh nat Nat.eqb 0 (list_prod [1; 2] [5; 6]) [11; 12; 13] = UB.
Proof. reflexivity. Qed.

(** C95: bar chart of the number of clusters. *)
Theorem C95_bar_chart : forall col, col <> [] -> exists lo hi, In lo col /\ In hi col /\ (forall v, In v col -> lo <= v <= hi)%Z /\
  exists ticks heights, num_clus_bar 1 col = Ok (ticks, heights) /\
    ticks = map (fun k => (lo + Z.of_nat k)%Z) (seq 0 (Z.to_nat (hi - lo + 1))) /\
    heights = map (fun t => (INR (count_occ Z.eq_dec col t) / INR (length col))%R) ticks /\
    fold_right Rplus 0%R heights = 1%R.
Proof. exact bar_chart. Qed.
Print Assumptions C95_bar_chart.

Theorem C95_bar_wide : forall nc col, 2 <= nc -> num_clus_bar nc col = UB.
Proof. exact bar_wide. Qed.
Print Assumptions C95_bar_wide.

Theorem C95_bar_empty : forall nc, num_clus_bar nc [] = UB.
Proof. intros [|nc]; reflexivity. Qed.
Print Assumptions C95_bar_empty.

Example ex_C95 : num_clus_bar 1 [3; 5; 3]%Z = Ok ([3; 4; 5]%Z, [(0 + 1 + 1) / INR 3; 0 / INR 3; (0 + 1) / INR 3]%R).
Proof. reflexivity. Qed.

(** C96: the plotted density. *)
Theorem C96_density_line : forall n dens, dens <> [] -> plot_density 1 n n dens =
  Ok (Some (map (fun j => average (map (fun r => exp (nth j r 0%R)) dens)) (seq 0 n))).
Proof. exact density_line. Qed.
Print Assumptions C96_density_line.

Theorem C96_density_plane : forall n dens, dens <> [] -> exists zs, plot_density 2 n n dens = Ok (Some zs) /\ length zs = n /\
  forall j, j < n -> exists z, nth_error zs j = Some z /\ exp z = average (map (fun r => exp (nth j r 0%R)) dens).
Proof. exact density_plane. Qed.
Print Assumptions C96_density_plane.

Theorem C96_density_throws_iff : forall dim n c dens, (exists e, plot_density dim n c dens = Throw e) <-> n <> c.
Proof. exact density_throws. Qed.
Print Assumptions C96_density_throws_iff.

Theorem C96_density_skipped_iff : forall dim n c dens, plot_density dim n c dens = Ok None <-> n = c /\ dim <> 1 /\ dim <> 2.
Proof. exact density_skipped. Qed.
Print Assumptions C96_density_skipped_iff.

Example ex_C96 : plot_density 1 1 1 [[0]; [ln 3]]%R = Ok (Some [2%R]).
Proof. rewrite C96_density_line by discriminate. cbn [seq map nth average]. unfold average. cbn [fold_right length INR]. rewrite exp_0, exp_ln by lra. repeat f_equal. lra. Qed.
Example ex_C96_skip : plot_density 3 2 2 [[0; 0]]%R = Ok None.
Proof. reflexivity. Qed.
Example ex_C96_throw : exists e, plot_density 1 2 3 [[0; 0; 0]]%R = Throw e.
Proof. eexists. reflexivity. Qed.
