(** * The multivariate hierarchies with a Dirichlet or Pitman-Yor mixing, over the reals.

    The interface of Hier.v filled with the definitions of Multi.v, Fa.v and
    Mixings.v: NNWHierarchy (nnw_hierarchy.h), LinRegUniHierarchy
    (lin_reg_uni_hierarchy.h) and FAHierarchy (fa_hierarchy.h) with
    DirichletMixing or PitYorMixing.  Functions only.

    The interface has no failing hyperparameter update, draw or density, so a
    failure in one of them is written as leaving the state unchanged (or the
    value 0); no theorem about this file's instances depends on that case. *)
From Coq Require Import String ZArith Reals.
From Coq Require List.
From mathcomp Require Import all_ssreflect all_algebra.
From Verif Require Import Base Hier XReal Mixings Univ RealInst RealField MatLib Multi Fa.
Set Implicit Arguments.
Unset Strict Implicit.
Unset Printing Implicit Defensive.
Import GRing.Theory.
Local Open Scope ring_scope.

(** The updater stores its result as the message nnw_state (nnw_updater.cc:42-52),
    which has no inverse scale; that field is never read from a posterior. *)
Definition nw_of_proto d (p : nwp d) : nw d :=
  mkNW (np_mean p) (np_vs p) (np_df p) (np_scale p) (invmx (np_scale p)) (np_chol p).

Definition keep (A B : Type) (a : A) (r : B) (x : res (A * B)) : A * B :=
  match x with Ok y => y | _ => (a, r) end.

Definition nnw_iface (lg : R -> R) (G : gen) (M : mgen G) d (p : nw_prior d) : Iface := {|
  Datum := 'cV[R]_d;
  Cov := unit;
  cov0 := tt;
  Stats := mnorm_stats d;
  St := mls d;
  Hyp := nw d;
  W := xreal;
  Mix := mixing;
  Rng := Gs G;
  conj := true;
  row_ok := fun _ _ => true;
  stats0 := mnorm_stats0 d;
  stats_op := fun y _ add s => mnorm_op y add s;
  post := fun h card st _ => nw_of_proto (nnw_post h card st);
  prior_sample := fun h r => nw_sample M (nw_proto h) r;
  other_draw := None;
  init_state := @nnw_init_state d;
  like_lpdf := fun s y _ => Fin (mnorm_lpdf s y);
  marg_lpdf := fun h y _ => Fin (nnw_marg_lpdf lg (nw_proto h) y);
  mass_ex := mixing_mass_ex;
  mass_new := mixing_mass_new;
  mix_logweights := fun _ _ => nil;
  mix_update := mixing_update G;
  hyp_update := fun h states r => keep h r (nw_update_hypers M p h (map fst states) r);
  w0 := Fin 0;
  wadd := xadd;
  wneg := xneg;
  wsublog := fun w k => xsublog w (INR k);
  log_softmax := fun ws c => xlog (List.nth c (softmax ws) 0);
  categorical := fun ws r => g_cat G (softmax ws) r;
  uniform := fun k r => g_cat G (List.repeat (Rinv (INR k)) k) r;
  accept := fun w r => let '(u, r') := g_unif G 0 1 r in (xltb u w, r')
|}.

(** A covariate row is [None] when it is the empty default; using it in the
    statistics is a dimension mismatch. *)
Definition lin_iface (lg : R -> R) (G : gen) (M : mgen G) d : Iface := {|
  Datum := R;
  Cov := option 'cV[R]_d;
  cov0 := None;
  Stats := lin_stats d;
  St := lrs d;
  Hyp := mnig d;
  W := xreal;
  Mix := mixing;
  Rng := Gs G;
  conj := true;
  row_ok := fun _ c => isSome c;
  stats0 := lin_stats0 d;
  stats_op := fun y c add s => match c with Some x => lin_op y x add s | None => s end;
  post := fun h card st _ => mnig_post h card st;
  prior_sample := fun h r => mnig_sample M h r;
  other_draw := None;
  init_state := @lin_init_state d;
  like_lpdf := fun s y c => match c with Some x => Fin (lin_lpdf s y x) | None => Fin 0 end;
  marg_lpdf := fun h y c => match c with Some x => Fin (lin_marg_lpdf lg h y x) | None => Fin 0 end;
  mass_ex := mixing_mass_ex;
  mass_new := mixing_mass_new;
  mix_logweights := fun _ _ => nil;
  mix_update := mixing_update G;
  (** mnig_prior_model.cc:28-39: only fixed values, nothing to update. *)
  hyp_update := fun h _ r => (h, r);
  w0 := Fin 0;
  wadd := xadd;
  wneg := xneg;
  wsublog := fun w k => xsublog w (INR k);
  log_softmax := fun ws c => xlog (List.nth c (softmax ws) 0);
  categorical := fun ws r => g_cat G (softmax ws) r;
  uniform := fun k r => g_cat G (List.repeat (Rinv (INR k)) k) r;
  accept := fun w r => let '(u, r') := g_unif G 0 1 r in (xltb u w, r')
|}.

(** The updater reads the data set through the stored indices
    (fa_updater.cc:43-48). *)
Definition fa_iface (G : gen) p q (data : seq 'cV[R]_p) : Iface := {|
  Datum := 'cV[R]_p;
  Cov := unit;
  cov0 := tt;
  Stats := 'cV[R]_p;
  St := fa_st p q;
  Hyp := fa_hyp p;
  W := xreal;
  Mix := mixing;
  Rng := Gs G;
  conj := false;
  row_ok := fun _ _ => true;
  stats0 := 0;
  stats_op := fun y _ add s => fa_op y add s;
  post := fun h _ _ _ => h;
  prior_sample := fun h r => fa_sample q h r;
  other_draw := Some (fun h _ st ids s r => keep s r (fa_draw h (map (fun i => List.nth i data 0) ids) st s r));
  init_state := @fa_init_state p q;
  like_lpdf := fun s y _ => match fa_lpdf s y with Ok x => Fin x | _ => Fin 0 end;
  marg_lpdf := fun _ _ _ => Fin 0;
  mass_ex := mixing_mass_ex;
  mass_new := mixing_mass_new;
  mix_logweights := fun _ _ => nil;
  mix_update := mixing_update G;
  hyp_update := fun h _ r => (h, r);
  w0 := Fin 0;
  wadd := xadd;
  wneg := xneg;
  wsublog := fun w k => xsublog w (INR k);
  log_softmax := fun ws c => xlog (List.nth c (softmax ws) 0);
  categorical := fun ws r => g_cat G (softmax ws) r;
  uniform := fun k r => g_cat G (List.repeat (Rinv (INR k)) k) r;
  accept := fun w r => let '(u, r') := g_unif G 0 1 r in (xltb u w, r')
|}.
