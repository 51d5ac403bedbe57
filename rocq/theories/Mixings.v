(** * The marginal mixings and the logit stick-breaking mixing.

    Model of src/mixings/{dirichlet,pityor,mixture_finite,logit_sb}_mixing.cc
    over the reals.  Functions only.

    Log-scale values are [xreal]; [xlog] is [std::log] on non-negative numbers
    (a negative argument, which in C++ gives NaN, is excluded by the hypotheses
    of the theorems).  [n] and [n_clust] are unsigned; the cardinality of a
    hierarchy is [card]; its [log_card] is [-inf] for zero and the logarithm
    otherwise (base_likelihood.h:149-153). *)
From Coq Require Import String.
From Coq Require Import Bool List Arith ZArith Reals.
From Verif Require Import Base XReal.
Import ListNotations.
Set Implicit Arguments.
Local Open Scope R_scope.

Definition gtb (x y : R) : bool := if Rlt_dec y x then true else false.
Definition lteb (x y : R) : bool := if Rle_dec x y then true else false.

(** [out -= std::log(d)]. *)
Definition xsublog (a : xreal) (d : R) : xreal := xadd a (Fin (- ln d)).

(** [stan::math::gamma_rng(shape, rate, rng)]: Stan's [check_positive_finite] on
    both arguments; [v] is the value the generator produces. *)
Definition gamma_rng (shape rate v : R) : res R :=
  if gtb shape 0 && gtb rate 0 then Ok v
  else Throw "gamma_rng: shape and rate must be positive".

(** ** Dirichlet process *)

Inductive dp_prior : Type :=
| DPFixed (totalmass : R)
| DPGamma (shape rate : R)
| DPOther.

(** dirichlet_mixing.h:17-19.  [None]: the member [logtotmass] was never
    written. *)
Record dp_state : Type := mkDp { dp_tot : R; dp_log : option xreal }.

(** The factory builds the object with [std::make_shared<DirichletMixing>()]
    (load_mixings.h:26-28), which value-initialises a class whose default
    constructor is defaulted: all members start as zero. *)
Definition dp_make_shared : dp_state := mkDp 0 (Some (Fin 0)).

(** dirichlet_mixing.cc:93-117. *)
Definition dp_init (p : dp_prior) (s : dp_state) : res dp_state :=
  match p with
  | DPFixed m => if lteb m 0 then Throw "Total mass parameter must be > 0" else Ok (mkDp m (dp_log s))
  | DPGamma a b =>
      if lteb a 0 then Throw "Shape parameter must be > 0"
      else if lteb b 0 then Throw "Rate parameter must be > 0"
      else Ok (mkDp (a / b) (dp_log s))
  | DPOther => Throw "Unrecognized mixing prior"
  end.

(** dirichlet_mixing.cc:77-82. *)
Definition dp_load (m : R) (s : dp_state) : dp_state := mkDp m (Some (xlog m)).

(** dirichlet_mixing.cc:32-33: the probability of the first branch; [k] is
    [unique_values.size()], [n] is [allocations.size()]. *)
Definition dp_prob (alpha beta : R) (k n : nat) (phi : R) : R :=
  let odds := (alpha + INR k - 1) / (INR n * (beta - ln phi)) in odds / (1 + odds).
(** dirichlet_mixing.cc:35-40: the shape of the last draw. *)
Definition dp_shape (alpha : R) (k : nat) (prob p : R) : R :=
  if lteb p prob then alpha + INR k else alpha + INR k - 1.

(** dirichlet_mixing.cc:14-46; [phi], [p] and [v] are the three random values. *)
Definition dp_update (pr : dp_prior) (k n : nat) (phi p v : R) (s : dp_state) : res dp_state :=
  match pr with
  | DPFixed _ => Ok s
  | DPGamma alpha beta =>
      ph <- gamma_rng (dp_tot s + 1) (INR n) phi ;;
      m <- gamma_rng (dp_shape alpha k (dp_prob alpha beta k n ph) p) (beta - ln ph) v ;;
      Ok (mkDp m (dp_log s))
  | DPOther => Throw "Unrecognized mixing prior"
  end.

(** dirichlet_mixing.cc:48-60. *)
Definition dp_mass_ex (s : dp_state) (n n_clust : nat) (log propto : bool) (card : Z) : res xreal :=
  Ok (if log then
        let out := xlog (IZR card) in
        if propto then out else xsublog out (INR n + dp_tot s)
      else
        let out := 1 * IZR card in
        Fin (if propto then out else out / (INR n + dp_tot s))).

(** dirichlet_mixing.cc:62-75; reading a member that was never written is
    undefined behaviour. *)
Definition dp_mass_new (s : dp_state) (n n_clust : nat) (log propto : bool) : res xreal :=
  if log then
    match dp_log s with
    | None => UB
    | Some out => Ok (if propto then out else xsublog out (INR n + dp_tot s))
    end
  else
    let out := dp_tot s in
    Ok (Fin (if propto then out else out / (INR n + dp_tot s))).

(** ** Pitman-Yor process *)

Inductive py_prior : Type := PYFixed (strength discount : R) | PYOther.

Record py_state : Type := mkPy { py_str : R; py_dis : R }.

(** pityor_mixing.cc:74-89. *)
Definition py_init (p : py_prior) : res py_state :=
  match p with
  | PYFixed t d =>
      if lteb t (- d) then Throw "Mixing parameters are not valid"
      else if gtb 0 d || lteb 1 d then Throw "Discount parameter must be in [0,1)"
      else Ok (mkPy t d)
  | PYOther => Throw "Unrecognized mixing prior"
  end.

(** pityor_mixing.cc:14-23. *)
Definition py_update (p : py_prior) (s : py_state) : res py_state :=
  match p with PYFixed _ _ => Ok s | PYOther => Throw "Unrecognized mixing prior" end.

(** pityor_mixing.cc:25-40. *)
Definition py_mass_ex (s : py_state) (n n_clust : nat) (log propto : bool) (card : Z) : res xreal :=
  Ok (if Z.eqb card 0 then (if log then XInf else Fin 0)
      else if log then
        let out := xlog (IZR card - py_dis s) in
        if propto then out else xsublog out (INR n + py_str s)
      else
        let out := IZR card - py_dis s in
        Fin (if propto then out else out / (INR n + py_str s))).

(** pityor_mixing.cc:42-55. *)
Definition py_mass_new (s : py_state) (n n_clust : nat) (log propto : bool) : res xreal :=
  Ok (if log then
        let out := xlog (py_str s + py_dis s * INR n_clust) in
        if propto then out else xsublog out (INR n + py_str s)
      else
        let out := py_str s + py_dis s * INR n_clust in
        Fin (if propto then out else out / (INR n + py_str s))).

(** ** Mixture of finite mixtures *)

Inductive mfm_prior : Type := MFMFixed (lambda gamma : R) | MFMOther.

(** mixture_finite_mixing.h: the state, the mutable table [V] (empty until
    [V_C_are_initialized]) and the constant [C]. *)
Record mfm_state : Type := mkMfm {
  mf_lam : R;
  mf_gam : R;
  mf_tab : option (list R);
  mf_C : R
}.

(** mixture_finite_mixing.cc:88-102. *)
Definition mfm_init (p : mfm_prior) (s : mfm_state) : res mfm_state :=
  match p with
  | MFMFixed l g =>
      if lteb l 0 then Throw "Poisson rate lambda must be > 0"
      else if lteb g 0 then Throw "Dirichlet parameter gamma must be > 0"
      else Ok (mkMfm l g (mf_tab s) (mf_C s))
  | MFMOther => Throw "Unrecognized mixing prior"
  end.

(** mixture_finite_mixing.cc:71-76: the table is not touched. *)
Definition mfm_load (l g : R) (s : mfm_state) : mfm_state := mkMfm l g (mf_tab s) (mf_C s).

(** [stan::math::poisson_lpmf(j, lambda)]. *)
Definition poisson_lpmf (j : nat) (lambda : R) : R :=
  INR j * ln lambda - lambda - ln (INR (fact j)).

(** [log(gamma*k) + sum_{i=1}^{n-1} log(gamma*k + i)]. *)
Definition mfm_log_den (g : R) (k n : nat) : R :=
  fold_left (fun acc i => acc + ln (g * INR k + INR i)) (seq 1 (n - 1)) (ln (g * INR k)).

(** [log(k) + sum_{1 <= i < t} log(k - i)], [k - i] in 32-bit unsigned
    arithmetic ([k] and [i] below 2^32). *)
Definition u32_sub (k i : nat) : Z :=
  if (i <=? k)%nat then Z.of_nat (k - i) else (2 ^ 32 - Z.of_nat (i - k))%Z.
Definition mfm_log_num (k t : nat) : xreal :=
  fold_left (fun acc i => xadd acc (xlog (IZR (u32_sub k i)))) (seq 1 (t - 1)) (xlog (INR k)).

(** mixture_finite_mixing.cc:104-120. *)
Definition mfm_init_VC (n : nat) (s : mfm_state) : mfm_state :=
  mkMfm (mf_lam s) (mf_gam s) (Some (repeat (-1) n))
        (- (fold_left (fun acc i => acc + ln (mf_gam s * 1 + INR i)) (seq 1 (n - 1)) (ln (mf_gam s)))
         + poisson_lpmf 0 (mf_lam s)).

(** The [k]-th term of the series, mixture_finite_mixing.cc:131-151; [l], [g]
    and [C] are [state.lambda], [state.gamma] and [C]. *)
Definition mfm_term (l g C : R) (t n k : nat) : R :=
  xexp (xadd (mfm_log_num k t)
             (Fin (- mfm_log_den g k n + poisson_lpmf (k - 1) l - C))).

Definition tol : R := / 10 ^ 8.

(** The loop of mixture_finite_mixing.cc:130-154 from index [k] with the sum
    [sum] and rate [rate] so far; [None] when [fuel] runs out. *)
Fixpoint mfm_loop (fuel : nat) (l g C : R) (t n k : nat) (sum rate : R) : option R :=
  if gtb rate tol then
    match fuel with
    | O => None
    | S fuel' =>
        let a := mfm_term l g C t n k in
        let rate' := if Req_EM_T sum 0 then 1 else a / sum in
        mfm_loop fuel' l g C t n (S k) (sum + a) rate'
    end
  else Some sum.

Section MFM.
(** [series lambda gamma C t n]: the value the loop ends with.  The theorems
    assume that it is the result of [mfm_loop] or only that it is not negative;
    that the loop ends is a theorem. *)
Variable series : R -> R -> R -> nat -> nat -> R.

(** mixture_finite_mixing.cc:158-167 with compute_V_t:122-156; [t] indexes the
    table without a bounds check. *)
Definition mfm_get_V (t n : nat) (s : mfm_state) : res (R * mfm_state) :=
  let s1 := match mf_tab s with None => mfm_init_VC (S n) s | Some _ => s end in
  match mf_tab s1 with
  | None => UB
  | Some tab =>
      v <- at_ tab t ;;
      if gtb 0 v then
        let v' := series (mf_lam s1) (mf_gam s1) (mf_C s1) t (S n) in
        Ok (v', mkMfm (mf_lam s1) (mf_gam s1) (Some (upd tab t v')) (mf_C s1))
      else Ok (v, s1)
  end.

(** mixture_finite_mixing.cc:28-47. *)
Definition mfm_mass_ex (n n_clust : nat) (log propto : bool) (card : Z) (s : mfm_state)
    : res (xreal * mfm_state) :=
  '(V1, s1) <- mfm_get_V n_clust n s ;;
  '(V2, s2) <- mfm_get_V (n_clust + 1) n s1 ;;
  let g := mf_gam s2 in
  let den := INR n + INR n_clust * g + (V2 / V1 * g) in
  Ok (if log then
        let out := xlog (IZR card + g) in if propto then out else xsublog out den
      else
        let out := IZR card + g in Fin (if propto then out else out / den), s2).

(** mixture_finite_mixing.cc:49-69. *)
Definition mfm_mass_new (n n_clust : nat) (log propto : bool) (s : mfm_state)
    : res (xreal * mfm_state) :=
  '(V1, s1) <- mfm_get_V n_clust n s ;;
  '(V2, s2) <- mfm_get_V (n_clust + 1) n s1 ;;
  let g := mf_gam s2 in
  let den := INR n + INR n_clust * g + V2 / V1 * g in
  Ok (if log then
        let out := xlog (V2 / V1 * g) in if propto then out else xsublog out den
      else
        let out := V2 / V1 * g in Fin (if propto then out else out / den), s2).

End MFM.

(** ** Logit stick-breaking *)

Definition dot (x y : list R) : R :=
  fold_right Rplus 0 (map (fun p => fst p * snd p) (combine x y)).

(** logit_sb_mixing.h:95. *)
Definition sigmoid (x : R) : R := 1 / (1 + exp (- x)).

(** logit_sb_mixing.cc:63-72 from the cumulated sum [c]. *)
Fixpoint logit_go (c : R) (eta : list R) : list R :=
  match eta with
  | [] => []
  | e :: t => (ln (sigmoid e) + c) :: logit_go (c + ln (sigmoid (- e))) t
  end.

(** logit_sb_mixing.cc:54-78; [betas] are the columns of
    [state.regression_coeffs], one fewer than the components. *)
Definition logit_weights (log : bool) (betas : list (list R)) (x : list R) : list R :=
  let eta := map (dot x) betas ++ [1] in
  let lw := logit_go 0 eta in
  if log then lw else map exp lw.

(** logit_sb_mixing.cc:124-143; [quad] is the prior's quadratic form
    [(alpha - mean)^T precision (alpha - mean)]. *)
Definition logit_lpdf (quad : R) (alpha : list R) (clust : nat) (rows : list (list R))
    (alloc : list nat) : R :=
  fold_left (fun like p =>
      let '(x, c) := p in
      if (clust <=? c)%nat then
        let cur := if (c =? clust)%nat then 1 else 0 in
        let prob := sigmoid (dot x alpha) in
        like + (cur * ln prob + (1 - cur) * ln (1 - prob))
      else like) (combine rows alloc) (-0.5 * quad).

(** logit_sb_mixing.cc:145-161, component [j]; [g0] is that component of
    [precision * (mean - alpha)]. *)
Definition logit_grad (g0 : R) (j : nat) (alpha : list R) (clust : nat) (rows : list (list R))
    (alloc : list nat) : R :=
  fold_left (fun g p =>
      let '(x, c) := p in
      if (clust <=? c)%nat then
        let cur := if (c =? clust)%nat then 1 else 0 in
        let prob := sigmoid (dot x alpha) in
        g + (cur - prob) * nth j x 0
      else g) (combine rows alloc) g0.

(** logit_sb_mixing.cc:38-44 for one coefficient (dimension one): the logarithm
    of the acceptance ratio of a proposal [b'] from [b], where [fc] is the full
    conditional log-density, [gr] its gradient and [step] the step size. *)
Definition logit_log_accept (fc gr : R -> R) (step b b' : R) : R :=
  let prop_var := sqrt (2 * step) in
  let prop_mean := b + step * gr b in
  let prop_ratio := (-0.5 / prop_var) * ((b' - prop_mean) * (b' - prop_mean)
                                         - (b - prop_mean) * (b - prop_mean)) in
  (fc b' - fc b) - prop_ratio.
