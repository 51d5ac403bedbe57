(** * The checks and hyperparameters made of such a prior
    (nw_prior_model.cc:7-112, mnig_prior_model.cc:59-84, fa_prior_model.cc:90-122,
    truncated_sb_mixing.cc:80-118, logit_sb_mixing.cc:97-124).  Functions only.

    The checks that Multi.v, Fa.v, Stick.v and LogitUp.v express by their types are
    spelled out: the dimensions of vectors and matrices, and [dim - 1] and
    [num_components - 1] on unsigned numbers. *)
From Coq Require Import String ZArith Reals.
From mathcomp Require Import all_ssreflect all_algebra.
From Verif Require Import Base Mixings Univ RealField MatLib Multi Fa LogitLib LogitUp Utils SetVec.
From Verif Require Stick.
Set Implicit Arguments.
Unset Strict Implicit.
Unset Printing Implicit Defensive.
Import GRing.Theory.
Local Open Scope ring_scope.

Definition squared (d : nat) (m : mat R) : bool := (m_nr m == d) && (m_nc m == d).
Definition mx (d : nat) (m : mat R) : 'M[R]_d := mx_of d (m_rows m).

(* [dim - 1], 2^32 - 1 when there is no dimension *)
Definition dim_pred (d : nat) : R := if d is 0%N then IZR 4294967295 else d%:R - 1.

Definition hypers_of (H : nat -> Type) (d : nat) (r : res (H d)) : res {d : nat & H d} :=
  h <- r ;; Ok (existT H d h).

(** nw_prior_model.cc:7-112. *)
Definition nw_load (p : raw_nw) : res {d : nat & nw d} :=
  match p with
  | RNFixed mean vs df scale =>
      mu <- vec_to_eigen mean ;; S <- mat_to_eigen scale ;;
      let d := size mu in
      if squared d S && (0 < d)%N then hypers_of (nw_init (NWFixed (colv d mu) vs df (mx d S)))
      else if lteb vs 0 then Throw "Variance-scaling parameter must be > 0"
      else if m_nr S != d then Throw "Hyperparameters dimensions are not consistent"
      else if lteb df (dim_pred d) then Throw "Degrees of freedom parameter is not valid"
      else if squared d S then hypers_of (nw_finish (colv d mu) vs df (mx d S))
      else Throw "m is not square"
  | RNMean mu00 sigma00 vs df scale =>
      mu <- vec_to_eigen mu00 ;; S <- mat_to_eigen sigma00 ;; T <- mat_to_eigen scale ;;
      let d := size mu in
      if (m_nr S != d) || (m_nr T != d) then Throw "Hyperparameters dimensions are not consistent"
      else if ~~ squared d S then Throw "Matrix is not square"
      else if squared d T then hypers_of (nw_init (NWMean (colv d mu) (mx d S) vs df (mx d T)))
      else
        _ <- check_spd (mx d S) ;;
        if lteb vs 0 then Throw "Variance-scaling parameter must be > 0" else Throw "Matrix is not square"
  | RNNgiw mu00 sigma00 alpha00 beta00 nu00 tau00 nu0 =>
      mu <- vec_to_eigen mu00 ;; S <- mat_to_eigen sigma00 ;; T <- mat_to_eigen tau00 ;;
      let d := size mu in
      if (m_nr S != d) || (m_nr T != d) then Throw "Hyperparameters dimensions are not consistent"
      else if ~~ squared d S then Throw "Matrix is not square"
      else if squared d T then hypers_of (nw_init (NWNgiw (colv d mu) (mx d S) alpha00 beta00 nu00 (mx d T) nu0))
      else
        _ <- check_spd (mx d S) ;;
        if lteb alpha00 0 then Throw "Shape parameter must be > 0"
        else if lteb beta00 0 then Throw "Rate parameter must be > 0"
        else if lteb nu00 0 then Throw "Degrees of freedom parameter must be > 0"
        else Throw "Matrix is not square"
  | RNOther => Throw "Unrecognized hierarchy prior"
  end.

(** mnig_prior_model.cc:59-84. *)
Definition mnig_load (p : raw_mnig) : res {d : nat & mnig d} :=
  match p with
  | RMFixed mean vs shape scale =>
      mu <- vec_to_eigen mean ;; V <- mat_to_eigen vs ;;
      let d := size mu in
      if squared d V then hypers_of (mnig_init (MNIGFixed (colv d mu) (mx d V) shape scale))
      else if ~~ squared (m_nr V) V then Throw "m is not square"
      else _ <- inverse_spd (mx (m_nr V) V) ;; Throw "Hyperparameters dimensions are not consistent"
  | RMOther => Throw "Unrecognized hierarchy prior"
  end.

(** fa_prior_model.cc:90-122: the hyperparameters and the number of factors. *)
Definition fa_load (pr : raw_fa) : res ({p : nat & fa_hyp p} * nat) :=
  match pr with
  | RFFixed mutilde beta phi alpha0 q =>
      mu <- vec_to_eigen mutilde ;; b <- vec_to_eigen beta ;;
      let p := size mu in
      if p != size b then Throw "Hyperparameters dimensions are not consistent"
      else h <- hypers_of (fa_init q (FAFixed (colv p mu) (colv p b) phi alpha0)) ;; Ok (h, q)
  | RFOther => Throw "Unrecognized hierarchy prior"
  end.

(** truncated_sb_mixing.cc:80-118; with [num_components] zero and no beta shapes the
    loop of line 90 reads the first of them. *)
Definition sb_load (p : raw_sb) (inf : bool) (nc : nat) : res (Stick.sb Stick.numR) :=
  match p with
  | RBBeta [::] => if (nc == 0)%N then UB else Stick.sb_init (Stick.BetaPriors Stick.numR [::]) inf nc
  | RBBeta l => Stick.sb_init (Stick.BetaPriors Stick.numR l) inf nc
  | RBDp a => Stick.sb_init (Stick.DpPrior Stick.numR a) inf nc
  | RBPy s d => Stick.sb_init (Stick.PyPrior Stick.numR s d) inf nc
  | RBOther => Throw "Unrecognized mixing prior"
  end.

(** logit_sb_mixing.cc:97-124. *)
Definition lg_load (p : raw_lg) : res lg :=
  match rl_normal p with
  | Some (mean, var) =>
      mu <- vec_to_eigen mean ;; V <- mat_to_eigen var ;;
      lg_init (mkLP (rl_H p) (rl_step p) (Some (mu, m_rows V)))
  | None => lg_init (mkLP (rl_H p) (rl_step p) None)
  end.
