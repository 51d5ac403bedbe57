(** * The start of Neal3's program is a state its convergence applies to. *)
From Coq Require Import Bool List Arith ZArith Reals Lra Lia.
From Verif Require Import Base Hier Algos Run Spec MargFacts NealFacts MargMore InitFacts MargProps CovInst.
From Verif Require Import PartSpec XReal Mixings RealInst RealFacts GibbsSpec GibbsComb GibbsPost GibbsFacts GibbsSweep ConvSpec GibbsConv P_Conv.
From Verif Require P_Valid.
Import ListNotations.
Local Open Scope R_scope.

Lemma program_chain : forall (I : Iface) (L : laws I) data covs (val : W I -> R) t d M hy (m : Mix I) k pos st r,
  rows_ok I data (at_ covs) -> length covs = length data -> (forall x y, val (wadd I x y) = val x * val y) -> conj I = true -> other_draw I = None -> (2 <= length data)%nat ->
  0 <= d < 1 -> - d < t -> py_masses I val m (length data) t d -> marginal_likelihood I data covs val hy M ->
  (forall sts r, exists r', hyp_update I hy sts r = (hy, r')) -> (forall cards al r, exists r', mix_update I m cards al r = Ok (m, r')) ->
  P_Valid.fits k pos (length data) ->
  exists a0 r0, cov_start I (Ok hy) (Ok m) data covs k pos st true r = Ok (a0, r0) /\
    forall pick rest,
      let P := chain_prob I val data covs pick rest in
      let post := normalised (length data) (posterior (fun al => ewens_pitman t d (sizes_of al)) M) in
      (exists e, 0 < e <= 1 /\ forall n, sumR (map (fun u => Rabs (P n a0 u - post u)) (clusterings (length data))) <= 2 * (1 - e) ^ n) /\
      forall u, In u (clusterings (length data)) -> Un_cv (fun n => P n a0 u) (post u).
Proof.
  intros I L data covs val t d M hy m k pos st r HR HL Hv Hcj Hod Hn Hd Ht HM HML Hh Hx [Hk Hpos].
  destruct (@init_clusters_ok I L data covs HR true hy m k pos (mkHier I [] 0%Z (stats0 I) st false None) r)
    as (a0 & r0 & E & G0 & _ & Eh0 & Em0 & _); [intros _; split; assumption|lia|exact Hk|exact Hpos|intros X; discriminate X|].
  exists a0, r0. split; [exact E|]. intros pick0 rest P post.
  apply (fresh3_iff I L data covs Hcj) in G0. destruct G0 as [[H1 H2] H3]. split.
  - destruct (C123_converges I L data covs val t d M hy m HR Hv Hcj Hod Hn Hd Ht HM HML Hh Hx) as (e & He & HC).
    exists e. split; [exact He|]. intro n. now apply HC.
  - intros u Hin. destruct (C123_limit I L data covs val t d M hy m HR Hv Hcj Hod Hn Hd Ht HM HML Hh Hx pick0 rest a0 H1 H2 H3 Eh0 Em0) as [_ HL'].
    exact (proj1 (HL' u Hin)).
Qed.
