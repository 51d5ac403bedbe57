(** * Property theorems: the algorithms run on the concrete hierarchies. *)
From Coq Require Import ZArith Reals.
From mathcomp Require Import all_ssreflect all_algebra.
From Verif Require Import Base Hier Algos Spec MargFacts NealFacts MargMore MargProps StatFacts.
From Verif Require Import PartSpec XReal Mixings GibbsSpec GibbsComb GibbsPost GibbsFacts GibbsSweep GibbsState.
From Verif Require Import Univ RealInst RealFacts RealField MatLib Multi MultiFacts NnwFacts LinFacts Fa FaFacts MultiInst MultiReal P_Multi.
Set Implicit Arguments.
Unset Strict Implicit.
Unset Printing Implicit Defensive.
Import Order.TTheory GRing.Theory Num.Theory.
Local Open Scope ring_scope.

Lemma mG_ok : gen_ok mG.
Proof. move=> ps r H. case: ps H => [H|p ps _]; first by case: H. exact: PeanoNat.Nat.lt_0_succ. Qed.

(** ** C15 *)
Theorem C15_any_hierarchy : forall (I : Iface) (data : list (Datum I)) (covs : list (Cov I)) (L : laws I) hy os
    (h : hier I) r (h' : hier I) r',
  empty_cluster h -> h_steps data covs hy os (h, r) = Ok (h', r') ->
  Sorting.Sorted.StronglySorted lt (h_ids h') /\ (forall i, List.In i (h_ids h') <-> left_from os false i = true) /\
  h_card h' = Z.of_nat (length (h_ids h')) /\ h_stats h' = batch I data (at_ covs) (h_ids h') /\
  (forall i, List.In i (h_ids h') -> (i < length data)%coq_nat /\ (i < length covs)%coq_nat).
Proof. exact stats_history. Qed.
Print Assumptions C15_any_hierarchy.

Theorem C15_uninorm : forall G lg p (data : seq R) covs hy os h r h' r', gen_ok G ->
  empty_cluster (I := nnig_iface lg G p) h -> h_steps (I := nnig_iface lg G p) data covs hy os (h, r) = Ok (h', r') ->
  (forall i, List.In i (h_ids h') <-> left_from os false i = true) /\ List.NoDup (h_ids h') /\
  h_card h' = Z.of_nat (length (h_ids h')) /\
  h_stats h' = (\sum_(i <- h_ids h') List.nth i data 0, \sum_(i <- h_ids h') (List.nth i data 0) ^+ 2).
Proof. move=> G lg p data covs hy os h r h' r' HG. exact: (uni_history HG). Qed.
Print Assumptions C15_uninorm.
Theorem C15_multinorm : forall G lg M d (p : nw_prior d) (data : seq 'cV[R]_d) covs hy os h r h' r', gen_ok G ->
  empty_cluster (I := @nnw_iface lg G M d p) h -> h_steps (I := @nnw_iface lg G M d p) data covs hy os (h, r) = Ok (h', r') ->
  (forall i, List.In i (h_ids h') <-> left_from os false i = true) /\ List.NoDup (h_ids h') /\
  h_card h' = Z.of_nat (length (h_ids h')) /\
  h_stats h' = (\sum_(i <- h_ids h') List.nth i data 0, \sum_(i <- h_ids h') List.nth i data 0 *m (List.nth i data 0)^T).
Proof. move=> G lg M d p data covs hy os h r h' r' HG. exact: (multi_history HG). Qed.
Print Assumptions C15_multinorm.
Theorem C15_linreg : forall G lg M d (data : seq R) (xs : seq 'cV[R]_d) hy os h r h' r', gen_ok G ->
  empty_cluster (I := @lin_iface lg G M d) h ->
  h_steps (I := @lin_iface lg G M d) data (List.map Some xs) hy os (h, r) = Ok (h', r') ->
  (forall i, List.In i (h_ids h') <-> left_from os false i = true) /\ List.NoDup (h_ids h') /\
  h_card h' = Z.of_nat (length (h_ids h')) /\
  h_stats h' = (\sum_(i <- h_ids h') (List.nth i data 0) ^+ 2,
                \sum_(i <- h_ids h') List.nth i xs 0 *m (List.nth i xs 0)^T,
                \sum_(i <- h_ids h') List.nth i data 0 *: List.nth i xs 0).
Proof. move=> G lg M d data xs hy os h r h' r' HG. exact: (lin_history HG). Qed.
Print Assumptions C15_linreg.
Theorem C15_fa : forall G p q (data : seq 'cV[R]_p) covs hy os h r h' r', gen_ok G ->
  empty_cluster (I := @fa_iface G p q data) h -> h_steps (I := @fa_iface G p q data) data covs hy os (h, r) = Ok (h', r') ->
  (forall i, List.In i (h_ids h') <-> left_from os false i = true) /\ List.NoDup (h_ids h') /\
  h_card h' = Z.of_nat (length (h_ids h')) /\ h_stats h' = \sum_(i <- h_ids h') List.nth i data 0.
Proof. move=> G p q data covs hy os h r h' r' HG. exact: (fa_history HG). Qed.
Print Assumptions C15_fa.

Definition mlg (x : R) : R := 0.
Definition mpr : nw_prior 2 := @NWFixed 2 (const_mx 1) 2%:R 3%:R mS.
Definition wI : Iface := nnw_iface mlg mM mpr.
Definition lI : Iface := lin_iface mlg mM 2.
Definition lxs : seq 'cV[R]_2 := [:: mo; mi; 0].
Definition lyy : seq R := [:: 1; 2%:R; 3%:R].
Definition mdp : mixing := MixPY (PYFixed 1 hf) (mkPy 1 hf).
Definition os4 : list h_op := [:: HAdd true 2; HAdd false 0; HDraw true; HRemove true 2; HAdd true 1].
Definition w_empty : hier wI := @mkHier wI [::] 0 (mnorm_stats0 2) (init_state wI mh) false None.
Definition l_empty : hier lI := @mkHier lI [::] 0 (lin_stats0 2) (init_state lI lh) false None.

Example ex_C15_multinorm : exists h r, h_steps (I := wI) mys (List.repeat tt 3) mh os4 (w_empty, 0%N) = Ok (h, r) /\
  h_ids h = [:: 0; 1]%N /\ h_stats h = (mo + mi, mo *m mo^T + mi *m mi^T).
Proof.
  set X := h_steps _ _ _ _ _. have EX : exists h r, X = Ok (h, r) /\ h_ids h = [:: 0; 1]%N by eexists; eexists; split; reflexivity.
  case: EX => h [r [E Ei]]. exists h, r; split; first exact: E. split; first exact: Ei.
  have [_ [_ [_ ->]]] := @C15_multinorm mG mlg mM 2 mpr mys (List.repeat tt 3) mh os4 w_empty 0%N h r mG_ok (Logic.conj erefl (Logic.conj erefl erefl)) E.
  by rewrite Ei !big_cons !big_nil /= !addr0.
Qed.
Example ex_C15_linreg : exists h r, h_steps (I := lI) lyy (List.map Some lxs) lh os4 (l_empty, 0%N) = Ok (h, r) /\
  h_ids h = [:: 0; 1]%N /\ h_stats h = (1 ^+ 2 + 2%:R ^+ 2, mo *m mo^T + mi *m mi^T, 1 *: mo + 2%:R *: mi).
Proof.
  set X := h_steps _ _ _ _ _. have EX : exists h r, X = Ok (h, r) /\ h_ids h = [:: 0; 1]%N by eexists; eexists; split; reflexivity.
  case: EX => h [r [E Ei]]. exists h, r; split; first exact: E. split; first exact: Ei.
  have [_ [_ [_ ->]]] := @C15_linreg mG mlg mM 2 lyy lxs lh os4 l_empty 0%N h r mG_ok (Logic.conj erefl (Logic.conj erefl erefl)) E.
  by rewrite Ei !big_cons !big_nil /= !addr0.
Qed.
(** A row of the design matrix is missing: the statistics are not touched, the
    run ends in undefined behaviour. *)
Example ex_C15_missing_row : h_steps (I := lI) lyy (List.map Some [:: mo]) lh [:: HAdd true 1] (l_empty, 0%N) = UB.
Proof. by []. Qed.

(** ** C35 *)
Theorem C35_nnw_sweep_invariant : forall lg G M d (p : nw_prior d) (data : seq 'cV[R]_d) pick0
    (A : list nat -> alg (@nnw_iface lg G M d p)) hy m t e js,
  gen_ok G -> (0 < d)%N -> nw_valid hy -> strength m = Some (t, e) -> 0 <= e -> e < 1 -> - e < t -> (2 <= length data)%N ->
  (forall i, List.In i js -> (i < length data)%N) ->
  represents (I := @nnw_iface lg G M d p) data (List.repeat tt (length data)) hy m A ->
  exists ml : list nat -> R,
    (forall ids mu P h', spd P ->
       nw_set_proto (nnw_post hy (Z.of_nat (length ids)) (mstats_of (pickv data ids))) = Ok h' ->
       exp (nw_lpdf lg hy mu P) * prodR (List.map (fun j => exp (stan_mvn_prec_lpdf (List.nth j data 0) mu P)) ids) =
       ml ids * exp (nw_lpdf lg h' mu P)) /\
    forall u, List.In u (clusterings (length data)) ->
    sumR (List.map (fun s => posterior (fun al => ewens_pitman t e (sizes_of al)) ml s *
                        sweep_prob (@nnw_iface lg G M d p) xexp data (List.repeat tt (length data)) pick0 js (A s) u)
              (clusterings (length data)))
    = posterior (fun al => ewens_pitman t e (sizes_of al)) ml u.
Proof. exact nnw_sweep_invariant. Qed.
Print Assumptions C35_nnw_sweep_invariant.
Theorem C35_linreg_sweep_invariant : forall lg G M d (data : seq R) (xs : seq 'cV[R]_d) pick0
    (A : list nat -> alg (@lin_iface lg G M d)) hy m t e js,
  gen_ok G -> length xs = length data -> mnig_valid hy -> strength m = Some (t, e) -> 0 <= e -> e < 1 -> - e < t ->
  (2 <= length data)%N -> (forall i, List.In i js -> (i < length data)%N) ->
  represents (I := @lin_iface lg G M d) data (List.map Some xs) hy m A ->
  exists ml : list nat -> R,
    (forall ids th, 0 < lr_var th ->
       exp (mnig_lpdf lg hy th) * prodR (List.map (fun j => exp (lin_lpdf th (List.nth j data 0) (List.nth j xs 0))) ids) =
       ml ids * exp (mnig_lpdf lg (mnig_post hy (Z.of_nat (length ids)) (lin_stats_of (pickx data xs ids))) th)) /\
    forall u, List.In u (clusterings (length data)) ->
    sumR (List.map (fun s => posterior (fun al => ewens_pitman t e (sizes_of al)) ml s *
                        sweep_prob (@lin_iface lg G M d) xexp data (List.map Some xs) pick0 js (A s) u)
              (clusterings (length data)))
    = posterior (fun al => ewens_pitman t e (sizes_of al)) ml u.
Proof. exact lin_sweep_invariant. Qed.
Print Assumptions C35_linreg_sweep_invariant.

Lemma hf01 : 0 <= hf /\ hf < 1 /\ - hf < 1.
Proof.
  have H : 0 < hf by rewrite invr_gt0 ltr0n.
  split; first exact: ltW. split; first by rewrite invf_lt1 ?ltr0n // -[1]/(1%:R) ltr_nat.
  by apply: (lt_trans _ ltr01); rewrite oppr_lt0.
Qed.
Example ex_C35_nnw : exists ml, forall u, List.In u (clusterings 3) ->
  sumR (List.map (fun s => posterior (fun al => ewens_pitman 1 hf (sizes_of al)) ml s *
     sweep_prob wI xexp mys (List.repeat tt 3) (fun _ _ _ => 0%N) [:: 2; 0; 1]%N (rep_state wI mys (List.repeat tt 3) mh mdp s) u) (clusterings 3))
  = posterior (fun al => ewens_pitman 1 hf (sizes_of al)) ml u.
Proof.
  have [H0 [H1 H2]] := hf01.
  have [|s Hs|ml [_ H]] := @C35_nnw_sweep_invariant mlg mG mM 2 mpr mys (fun _ _ _ => 0%N) (rep_state wI mys (List.repeat tt 3) mh mdp)
    mh mdp 1 hf [:: 2; 0; 1]%N mG_ok isT mh_valid erefl H0 H1 H2 isT; last by exists ml.
  - by move=> i [<-|[<-|[<-|[]]]].
  - exact: (rep_state_ok wI mys (List.repeat tt 3) mh mdp s Hs).
Qed.
Example ex_C35_linreg : exists ml, forall u, List.In u (clusterings 3) ->
  sumR (List.map (fun s => posterior (fun al => ewens_pitman 1 hf (sizes_of al)) ml s *
     sweep_prob lI xexp lyy (List.map Some lxs) (fun _ _ _ => 0%N) [:: 2; 0; 1]%N (rep_state lI lyy (List.map Some lxs) lh mdp s) u) (clusterings 3))
  = posterior (fun al => ewens_pitman 1 hf (sizes_of al)) ml u.
Proof.
  have [H0 [H1 H2]] := hf01.
  have [|s Hs|ml [_ H]] := @C35_linreg_sweep_invariant mlg mG mM 2 lyy lxs (fun _ _ _ => 0%N) (rep_state lI lyy (List.map Some lxs) lh mdp)
    lh mdp 1 hf [:: 2; 0; 1]%N mG_ok erefl lh_valid erefl H0 H1 H2 isT; last by exists ml.
  - by move=> i [<-|[<-|[<-|[]]]].
  - exact: (rep_state_ok lI lyy (List.map Some lxs) lh mdp s Hs).
Qed.
