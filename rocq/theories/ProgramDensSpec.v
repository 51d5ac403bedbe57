(** * What the density file of a run has to hold *)
From Coq Require Import String.
From Coq Require Import List NArith ZArith Reals.
From Coquelicot Require Import Coquelicot.
From Verif Require Import GaussInt UnivInt GammaInt Mixings Univ Settings RealInst StateMsg.
Import ListNotations.
Local Open Scope string_scope.
Local Open Scope R_scope.

(** A kept state with every number replaced by the double that is written for it. *)
Section Back.
  Variable rnd : R -> R.
  Definition back_hyper (h : uni_hyper) : uni_hyper :=
    match h with
    | HNig h => HNig (mkNIG (rnd (ng_mean h)) (rnd (ng_vs h)) (rnd (ng_shape h)) (rnd (ng_scale h)))
    | HNxig h => HNxig (mkNxIG (rnd (nx_mean h)) (rnd (nx_var h)) (rnd (nx_shape h)) (rnd (nx_scale h)))
    end.
  Definition back_mixing (m : mixing) : mixing :=
    match m with
    | MixDP p s => MixDP p (mkDp (rnd (dp_tot s)) (dp_log s))
    | MixPY p s => MixPY p (mkPy (rnd (py_str s)) (rnd (py_dis s)))
    end.
  Definition back (k : kept) : kept :=
    mkKept (k_iter k) (k_alloc k) (map (fun c => (mkLS (rnd (ls_mean (fst c))) (rnd (ls_var (fst c))), snd c)) (k_clusters k))
      (back_hyper (k_hyp k)) (back_mixing (k_mix k)).
End Back.

(** The normal density. *)
Definition gauss (s : uni_ls) (x : R) : R :=
  / sqrt (2 * PI * ls_var s) * exp (- ((x - ls_mean s) * (x - ls_mean s)) / (2 * ls_var s)).

Definition average (l : list R) : R := fold_right Rplus 0 l / INR (length l).

(** The density of an observation in a cluster of its own: the predictive density of the
    prior for Neal2 and Neal3, an average over draws from the prior for Neal8. *)
Inductive alone (a : algo_settings) (draws : nat -> uni_hyper -> uni_ls) (k : kept) : (R -> R) -> Prop :=
| alone_predictive : forall h f, as_id a = "Neal2" \/ as_id a = "Neal3" -> k_hyp k = HNig h ->
    (forall x, is_half_plane_int (fun m v => exp (nig_lpdf lgam h (mkLS m v) + norm_lpdf (mkLS m v) x)) (f x)) -> alone a draws k f
| alone_average : forall f, as_id a = "Neal8" ->
    (forall x, f x = average (map (fun j => gauss (draws j (k_hyp k)) x) (seq 0 (N.to_nat (as_n_aux a))))) -> alone a draws k f.

(** The draws come from the prior with the hyperparameters of the state. *)
Definition drawn_from (G : gen) (drawn : nat -> nat -> uni_hyper -> uni_ls) : Prop :=
  forall i j h, exists r, drawn i j h = match h with HNig h => fst (nig_sample G h r) | HNxig h => fst (nxig_sample G h r) end.

(** The weights of the clusters, and of a new one. *)
Definition weight (k : kept) (card : Z) : R :=
  let n := INR (length (k_alloc k)) in
  match k_mix k with
  | MixDP _ s => IZR card / (n + dp_tot s)
  | MixPY _ s => (IZR card - py_dis s) / (n + py_str s)
  end.
Definition weight_new (k : kept) : R :=
  let n := INR (length (k_alloc k)) in
  match k_mix k with
  | MixDP _ s => dp_tot s / (n + dp_tot s)
  | MixPY _ s => (py_str s + py_dis s * INR (length (k_clusters k))) / (n + py_str s)
  end.
Definition mixture_density (k : kept) (f : R -> R) (x : R) : R :=
  fold_right Rplus 0 (map (fun c => weight k (snd c) * gauss (fst c) x) (k_clusters k)) + weight_new k * f x.

(** One row: the logarithm of the density of a state at the points of the grid. *)
Definition row_of (a : algo_settings) (draws : nat -> uni_hyper -> uni_ls) (k : kept) (pts row : list R) : Prop :=
  exists f, alone a draws k f /\ is_line_int (mixture_density k f) 1 /\
    Forall2 (fun x v => 0 < mixture_density k f x /\ v = ln (mixture_density k f x)) pts row.

(** The order in which four jobs leave the rows: the states whose place is a multiple of
    four first, then those with remainder one, and so on. *)
Definition dealt {A : Type} (l : list A) : list A :=
  map snd (filter (fun p => (fst p mod 4 =? 0)%nat) (combine (seq 0 (length l)) l)) ++
  map snd (filter (fun p => (fst p mod 4 =? 1)%nat) (combine (seq 0 (length l)) l)) ++
  map snd (filter (fun p => (fst p mod 4 =? 2)%nat) (combine (seq 0 (length l)) l)) ++
  map snd (filter (fun p => (fst p mod 4 =? 3)%nat) (combine (seq 0 (length l)) l)).
