(** * The truncated stick-breaking mixing.

    Model of src/mixings/truncated_sb_mixing.{h,cc}.  Functions only.

    Numbers are an interface [Num], instantiated by the reals (theorems about
    values) and by the rationals (computed examples); a double overflow or
    rounding is not modelled.  The code keeps log-weights and exponentiates
    them whenever this model reads [sb_w]; we keep the weights themselves. *)
From Coq Require Import String.
From Coq Require Import Bool List Arith ZArith QArith Reals.
From Verif Require Import Base XReal.
Import ListNotations.
Set Implicit Arguments.

Record Num : Type := mkNum {
  N : Type;
  n0 : N;
  n1 : N;
  nadd : N -> N -> N;
  nsub : N -> N -> N;
  nmul : N -> N -> N;
  ndiv : N -> N -> N;
  nofZ : Z -> N;
  nltb : N -> N -> bool
}.

Definition numR : Num := mkNum 0%R 1%R Rplus Rminus Rmult Rdiv IZR
  (fun x y => if Rlt_dec x y then true else false).
Definition numQ : Num := mkNum 0%Q 1%Q Qplus Qminus Qmult Qdiv inject_Z
  (fun x y => negb (Qle_bool y x)).

Section Stick.
Variable K : Num.
Variable Rng : Type.
(** [stan::math::beta_rng(a, b, rng)] for accepted (positive) parameters. *)
Variable beta : N K -> N K -> Rng -> N K * Rng.

Definition nleb (x y : N K) : bool := negb (nltb K y x).
Definition nsum (l : list (N K)) : N K := fold_left (nadd K) l (n0 K).

(** The prior message: a list of beta shapes, a total mass, or strength and
    discount. *)
Inductive sbprior : Type :=
| BetaPriors (l : list (N K * N K))
| DpPrior (mass : N K)
| PyPrior (strength discount : N K).

(** [p_inf]: [infinite_mixture()]; [sb_nc]: [num_components]. *)
Record sb : Type := mkSb {
  sb_prior : sbprior;
  sb_inf : bool;
  sb_nc : nat;
  sb_sticks : list (N K);
  sb_w : list (N K)
}.

(** Stan's [check_positive_finite] on both arguments. *)
Definition beta_rng (a b : N K) (r : Rng) : res (N K * Rng) :=
  if nltb K (n0 K) a && nltb K (n0 K) b then Ok (beta a b r)
  else Throw "beta_rng: shape parameters must be positive".

(** truncated_sb_mixing.cc:150-176. *)
Definition get_beta_params (s : sb) (ind : nat) : res (N K * N K) :=
  match sb_prior s with
  | BetaPriors l =>
      if sb_nc s <=? ind then Throw "Requested stick exceeds fixed upper bound"
      else at_ l ind
  | DpPrior m => Ok (n1 K, m)
  | PyPrior st d => Ok (nsub K (n1 K) d, nadd K st (nmul K (nofZ K (Z.of_nat ind)) d))
  end.

(** truncated_sb_mixing.cc:140-148. *)
Definition prior_shapes (s : sb) : res (list (N K * N K)) :=
  rmap (get_beta_params s) (seq 0 (sb_nc s)).

(** truncated_sb_mixing.cc:120-132, exponentiated: [rest] is the exponential of
    [cumsum[h]], the product of [1 - stick] over the previous sticks. *)
Fixpoint weights_go (rest : N K) (sticks : list (N K)) : list (N K) :=
  match sticks with
  | [] => []
  | v :: t => nmul K v rest :: weights_go (nmul K rest (nsub K (n1 K) v)) t
  end.

(** The first [num_components] sticks are read. *)
Definition weights_from_sticks (nc : nat) (sticks : list (N K)) : res (list (N K)) :=
  if nc <=? length sticks then Ok (weights_go (n1 K) (firstn nc sticks)) else UB.

(** truncated_sb_mixing.cc:134-138. *)
Definition set_sticks (sticks : list (N K)) (s : sb) : sb :=
  mkSb (sb_prior s) (sb_inf s) (length sticks) sticks (weights_go (n1 K) sticks).

(** truncated_sb_mixing.cc:34-45: one draw per component, with the number of
    data in the component and in the later ones. *)
Fixpoint draw_sticks (sh : list (N K * N K)) (cards : list Z) (r : Rng)
    : res (list (N K) * Rng) :=
  match sh, cards with
  | (a, b) :: sh', c :: cs =>
      '(v, r1) <- beta_rng (nadd K a (nofZ K c)) (nadd K b (nofZ K (fold_right Z.add 0%Z cs))) r ;;
      '(vs, r2) <- draw_sticks sh' cs r1 ;;
      Ok (v :: vs, r2)
  | _, _ => Ok ([], r)
  end.

(** truncated_sb_mixing.cc:19-50.  [cards] are the cardinalities of
    [unique_values].  Only the first [num_components] sticks are written (here
    there are no others, see the invariant). *)
Definition sb_update (s : sb) (cards : list Z) (r : Rng) : res (sb * Rng) :=
  if length cards =? sb_nc s then
    sh <- prior_shapes s ;;
    if sb_nc s <=? length (sb_sticks s) then
      '(vs, r1) <- draw_sticks sh cards r ;;
      let sticks := vs ++ skipn (sb_nc s) (sb_sticks s) in
      sticks' <- (if sb_inf s then Ok sticks else set_at sticks (sb_nc s - 1) (n1 K)) ;;
      w <- weights_from_sticks (sb_nc s) sticks' ;;
      Ok (mkSb (sb_prior s) (sb_inf s) (sb_nc s) sticks' w, r1)
    else UB
  else Abort.

(** truncated_sb_mixing.cc:178-189 with [num_sticks = 1] (its only use): the
    result comes with the object left behind, also when it throws; the new
    entry after [conservativeResize] is unspecified ([junk]). *)
Definition keep_breaking1 (junk : N K) (s : sb) (r : Rng) : sb * res (N K * Rng) :=
  let s1 := mkSb (sb_prior s) (sb_inf s) (sb_nc s)
                 (firstn (sb_nc s) (sb_sticks s) ++ [junk]) (sb_w s) in
  let prev := nsum (sb_w s) in
  match (p <- get_beta_params s1 (sb_nc s) ;; beta_rng (fst p) (snd p) r) with
  | Ok (v, r') =>
      let sticks := firstn (sb_nc s) (sb_sticks s) ++ [v] in
      let w := weights_go (n1 K) sticks in
      (mkSb (sb_prior s) (sb_inf s) (S (sb_nc s)) sticks w,
       Ok (nsub K (nsum w) prev, r'))
  | Throw e => (s1, Throw e)
  | Abort => (s1, Abort)
  | UB => (s1, UB)
  end.

(** truncated_sb_mixing.cc:80-118. *)
Definition sb_init (p : sbprior) (inf : bool) (nc : nat) : res sb :=
  let s0 := mkSb p inf nc [] [] in
  _ <- (match p with
        | BetaPriors l =>
            if negb (length l =? nc) then Throw "Hyperparameters dimensions are not consistent"
            else if forallb (fun q => nltb K (n0 K) (fst q) && nltb K (n0 K) (snd q)) (firstn (nc - 1) l)
            then Ok tt else Throw "Beta shape parameters must be > 0"
        | DpPrior m => if nltb K (n0 K) m then Ok tt else Throw "Total mass parameter must be > 0"
        | PyPrior st d =>
            if nleb st (nsub K (n0 K) d) then Throw "Prior parameters are not valid"
            else if nltb K d (n0 K) || nleb (n1 K) d then Throw "Discount parameter must be in [0,1)"
            else Ok tt
        end) ;;
  sh <- prior_shapes s0 ;;
  let sticks := map (fun q => ndiv K (fst q) (nadd K (fst q) (snd q))) sh in
  w <- weights_from_sticks nc sticks ;;
  Ok (mkSb p inf nc sticks w).

(** truncated_sb_mixing.cc:61-67. *)
Definition sb_set_state (sticks : list (N K)) (s : sb) : sb := set_sticks sticks s.

End Stick.

(** truncated_sb_mixing.cc:120-132 as written, on the log scale ([cum] is
    [cumsum[h]]). *)
Fixpoint logweights_go (cum : xreal) (sticks : list R) : list xreal :=
  match sticks with
  | [] => []
  | v :: t => xadd (xlog v) cum :: logweights_go (xadd cum (xlog (1 - v))) t
  end.

Definition logweights_from_sticks (sticks : list R) : list xreal :=
  logweights_go (Fin 0) sticks.
