(** * Programs with a mixture of finite mixtures.

    Model of src/mixings/mixture_finite_mixing.{h,cc} as the mixing of an
    algorithm.  Functions only, no proofs. *)
From Coq Require Import String.
From Coq Require Import Bool List Arith ZArith Reals.
From Verif Require Import Base Hier XReal Mixings.
Import ListNotations.

(** The hierarchy and generator of [I] with the mixture of finite mixtures as
    mixing.  [get_mass_existing_cluster] and [get_mass_new_cluster]
    (mixture_finite_mixing.cc:28-69) are called with [log] and [propto]; the
    table they fill is [mutable] and is not carried over from one call to the
    next: that the values do not depend on the calls made before is a theorem.
    [update_state] (mixture_finite_mixing.cc:14-26) does nothing with a fixed
    value, the only prior [initialize_state] accepts. *)
Definition with_mfm (series : R -> R -> R -> nat -> nat -> R) (I : Iface) (ofx : xreal -> W I) : Iface := {|
  Datum := Datum I; Cov := Cov I; cov0 := cov0 I; Stats := Stats I; St := St I; Hyp := Hyp I; W := W I;
  Mix := mfm_state; Rng := Rng I;
  conj := conj I; row_ok := row_ok I; stats0 := stats0 I; stats_op := stats_op I; post := post I;
  prior_sample := prior_sample I; other_draw := other_draw I; init_state := init_state I;
  like_lpdf := like_lpdf I; marg_lpdf := marg_lpdf I;
  mass_ex := fun s n k card => '(w, _) <- mfm_mass_ex series n k true true card s ;; Ok (ofx w);
  mass_new := fun s n k => '(w, _) <- mfm_mass_new series n k true true s ;; Ok (ofx w);
  mix_logweights := fun _ _ => [];
  mix_update := fun s _ _ r => Ok (s, r);
  hyp_update := hyp_update I; w0 := w0 I; wadd := wadd I; wneg := wneg I; wsublog := wsublog I;
  log_softmax := log_softmax I; categorical := categorical I; uniform := uniform I; accept := accept I
|}.

(** A fresh object: [V_C_are_initialized] is [false] (mixture_finite_mixing.h:115);
    the other members are not initialised. *)
Definition mfm_fresh : mfm_state := mkMfm 0 0 None 0.
Definition mfm_start (p : mfm_prior) : res mfm_state := mfm_init p mfm_fresh.
