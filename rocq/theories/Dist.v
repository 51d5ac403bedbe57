(** * The L2 distance between Gaussian mixtures.

    Model of the first and third [gaussian_mixture_dist] of
    src/utils/distributions.cc (152-191, 242-281).  Functions only.  Doubles are
    reals; the OpenMP reductions are sequential sums (real addition is
    associative and commutative).  An exception that leaves the body of an
    OpenMP loop terminates the program, so Stan's check of the scale aborts. *)
From Coq Require Import String.
From Coq Require Import Bool List Arith ZArith Reals.
From Verif Require Import Base Mixings Univ.
Import ListNotations.
Set Implicit Arguments.
Local Open Scope R_scope.

(** One component [(mean, var, weight)] is spread over three vectors. *)
Record gmix : Type := mkMix { mx_means : list R; mx_vars : list R; mx_ws : list R }.

(** 162-164, 171-173, 182-184: [std::exp(normal_lpdf(m1, m2, v1 + v2))]. *)
Definition overlap_term (m1 m2 s : R) : res R :=
  if lteb s 0 then Abort else Ok (exp (normal_lpdf m1 m2 s)).

(** 158-166 (and 167-175, 178-186): the double loop. *)
Definition cross (a b : gmix) : res R :=
  rfold (fun acc i =>
    rfold (fun acc j =>
      wi <- at_ (mx_ws a) i ;;
      wj <- at_ (mx_ws b) j ;;
      mi <- at_ (mx_means a) i ;;
      mj <- at_ (mx_means b) j ;;
      vi <- at_ (mx_vars a) i ;;
      vj <- at_ (mx_vars b) j ;;
      t <- overlap_term mi mj (vi + vj) ;;
      Ok (acc + wi * wj * t)) (seq 0 (length (mx_means b))) acc)
    (seq 0 (length (mx_means a))) 0.

(** 152-191 *)
Definition mixture_dist (a b : gmix) : res R :=
  mix1 <- cross a a ;;
  mix2 <- cross b b ;;
  inter <- cross a b ;;
  Ok (mix1 + mix2 - 2 * inter).

(** Cluster states as messages: a univariate one, a multivariate one, any other. *)
Inductive cstate : Type :=
| CUni (mean var : R)
| CMulti
| COther.

(** [c.uni_ls_state().mean()], [.var()]: zero when the field is not set. *)
Definition uni_of (c : cstate) : R * R :=
  match c with CUni m v => (m, v) | _ => (0, 0) end.

(** 242-281; the multivariate branch is in MDist.v and stays a parameter here. *)
Definition states_dist (multi : res R) (c1 : list cstate) (w1 : list R) (c2 : list cstate) (w2 : list R) : res R :=
  c <- at_ c1 0 ;;
  match c with
  | CUni _ _ =>
      mixture_dist (mkMix (map (fun c => fst (uni_of c)) c1) (map (fun c => snd (uni_of c)) c1) w1)
                   (mkMix (map (fun c => fst (uni_of c)) c2) (map (fun c => snd (uni_of c)) c2) w2)
  | CMulti => multi
  | COther => Throw "Parameter type not recognized"
  end.
