(** * The normal hierarchy with a Dirichlet or Pitman-Yor mixing, over the reals.

    The interface of Hier.v filled with the definitions of Univ.v and
    Mixings.v: NNIGHierarchy (nnig_hierarchy.h) with DirichletMixing or
    PitYorMixing.  The generator and the log-gamma function stay arbitrary.
    Functions only. *)
From Coq Require Import String.
From Coq Require Import Bool List Arith ZArith Reals.
From Verif Require Import Base Hier XReal Mixings Univ.
Import ListNotations.
Local Open Scope R_scope.

Inductive mixing : Type :=
| MixDP (p : dp_prior) (s : dp_state)
| MixPY (p : py_prior) (s : py_state).

(** [get_mass_existing_cluster(n, n_clust, true, true, hier)] and
    [get_mass_new_cluster(n, n_clust, true, true)]. *)
Definition mixing_mass_ex (m : mixing) (n k : nat) (card : Z) : res xreal :=
  match m with
  | MixDP _ s => dp_mass_ex s n k true true card
  | MixPY _ s => py_mass_ex s n k true true card
  end.
Definition mixing_mass_new (m : mixing) (n k : nat) : res xreal :=
  match m with
  | MixDP _ s => dp_mass_new s n k true true
  | MixPY _ s => py_mass_new s n k true true
  end.

(** The random values of dirichlet_mixing.cc:31-41, in order. *)
Definition mixing_update (G : gen) (m : mixing) (cards : list Z) (alloc : list nat) (r : Gs G) : res (mixing * Gs G) :=
  match m with
  | MixDP p s =>
      match p with
      | DPGamma alpha beta =>
          let k := length cards in
          let n := length alloc in
          let '(phi, r1) := g_gamma G (dp_tot s + 1) (INR n) r in
          let '(u, r2) := g_unif G 0 1 r1 in
          let '(v, r3) := g_gamma G (dp_shape alpha k (dp_prob alpha beta k n phi) u) (beta - ln phi) r2 in
          s' <- dp_update p k n phi u v s ;; Ok (MixDP p s', r3)
      | _ => s' <- dp_update p (length cards) (length alloc) 0 0 0 s ;; Ok (MixDP p s', r)
      end
  | MixPY p s => s' <- py_update p s ;; Ok (MixPY p s', r)
  end.

Definition sum_exp (ws : list xreal) : R := fold_right Rplus 0 (map xexp ws).
Definition softmax (ws : list xreal) : list R := map (fun w => xexp w / sum_exp ws) ws.
Definition xneg (w : xreal) : xreal := match w with XInf => XInf | Fin x => Fin (- x) end.
Definition xltb (u : R) (w : xreal) : bool :=
  match xlog u, w with
  | Fin a, Fin b => gtb b a
  | XInf, Fin _ => true
  | _, XInf => false
  end.

Definition nnig_iface (lg : R -> R) (G : gen) (p : nig_prior) : Iface := {|
  Datum := R;
  Cov := unit;
  cov0 := tt;
  Stats := norm_stats;
  St := uni_ls;
  Hyp := nig;
  W := xreal;
  Mix := mixing;
  Rng := Gs G;
  conj := true;
  row_ok := fun _ _ => true;
  stats0 := norm_stats0;
  stats_op := fun y _ add s => norm_op y add s;
  post := fun h card st _ => nnig_post h card st;
  prior_sample := nig_sample G;
  other_draw := None;
  init_state := fun h => uni_init_state (ng_mean h) (ng_shape h) (ng_scale h);
  like_lpdf := fun s y _ => Fin (norm_lpdf s y);
  marg_lpdf := fun h y _ => Fin (nnig_marg_lpdf lg h y);
  mass_ex := mixing_mass_ex;
  mass_new := mixing_mass_new;
  mix_logweights := fun _ _ => [];
  mix_update := mixing_update G;
  hyp_update := fun h states r => nig_update_hypers G p h (map fst states) r;
  w0 := Fin 0;
  wadd := xadd;
  wneg := xneg;
  wsublog := fun w k => xsublog w (INR k);
  log_softmax := fun ws c => xlog (nth c (softmax ws) 0);
  categorical := fun ws r => g_cat G (softmax ws) r;
  uniform := fun k r => g_cat G (repeat (/ INR k) k) r;
  accept := fun w r => let '(u, r') := g_unif G 0 1 r in (xltb u w, r')
|}.
