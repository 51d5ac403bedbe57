(** * C123: Neal3 converges to the posterior distribution of the clustering. *)
From Coq Require Import String.
From Coq Require Import Bool List Arith ZArith Reals Lra Lia.
From Verif Require Import Base Hier Algos Run Spec MargFacts NealFacts MargMore InitFacts MargProps CovInst.
From Verif Require Import PartSpec XReal Mixings MixFacts Univ UnivFacts UnivInit RealInst RealFacts RealMore GammaInt UnivInt UnivInst UnivRun.
From Verif Require Import GibbsSpec GibbsComb GibbsPost GibbsFacts GibbsSweep GibbsState ConvSpec Markov GibbsConv P_Gibbs.
From Verif Require P_Valid.
Import ListNotations.
Local Open Scope R_scope.

(** From every state of the sampler the law of the clustering after [k]
    iterations is at distance at most [2 (1 - e)^k] of the posterior, with the
    same [e] for all starting states and all other draws. *)
Theorem C123_converges : forall (I : Iface) (L : laws I) data covs (val : W I -> R) t d M hy (m : Mix I),
  rows_ok I data (at_ covs) -> (forall x y, val (wadd I x y) = val x * val y) -> conj I = true -> other_draw I = None -> (2 <= length data)%nat ->
  0 <= d < 1 -> - d < t -> py_masses I val m (length data) t d -> marginal_likelihood I data covs val hy M ->
  (forall sts r, exists r', hyp_update I hy sts r = (hy, r')) -> (forall cards al r, exists r', mix_update I m cards al r = Ok (m, r')) ->
  exists e, 0 < e <= 1 /\ forall pick rest k a,
    proper (length data) (a_alloc a) (view (a_uv a)) -> caches_ok data covs (a_uv a) -> (forall h, In h (a_uv a) -> saved_matches data covs (a_hyp a) h) ->
    a_hyp a = hy -> a_mix a = m ->
    sumR (map (fun u => Rabs (chain_prob I val data covs pick rest k a u -
                              normalised (length data) (posterior (fun al => ewens_pitman t d (sizes_of al)) M) u)) (clusterings (length data))) <= 2 * (1 - e) ^ k.
Proof.
  intros I L data covs val t d M hy m Hrows Hv Hcj Hod Hn Hd Ht HM HML Hh Hx.
  destruct (chain_converges I L data covs Hrows val Hv Hcj Hod Hn (ep t d) M (ep_prior t d Hd Ht) hy m HML
    (fun rest Hr => py_mass_at I val m (length data) t d rest Hd Ht Hn Hr HM) Hh Hx) as (e & He & HC).
  exists e. split; [exact He|]. intros pick rest k a H1 H2 H3 H4 H5. apply HC. split; [split; [split; assumption|assumption]|split; assumption].
Qed.
Print Assumptions C123_converges.

(** The probability of every clustering tends to its posterior probability; after
    one iteration or more no clustering has probability zero. *)
Theorem C123_limit : forall (I : Iface) (L : laws I) data covs (val : W I -> R) t d M hy (m : Mix I),
  rows_ok I data (at_ covs) -> (forall x y, val (wadd I x y) = val x * val y) -> conj I = true -> other_draw I = None -> (2 <= length data)%nat ->
  0 <= d < 1 -> - d < t -> py_masses I val m (length data) t d -> marginal_likelihood I data covs val hy M ->
  (forall sts r, exists r', hyp_update I hy sts r = (hy, r')) -> (forall cards al r, exists r', mix_update I m cards al r = Ok (m, r')) ->
  forall pick rest a,
    proper (length data) (a_alloc a) (view (a_uv a)) -> caches_ok data covs (a_uv a) -> (forall h, In h (a_uv a) -> saved_matches data covs (a_hyp a) h) ->
    a_hyp a = hy -> a_mix a = m ->
    (forall k, sumR (map (chain_prob I val data covs pick rest k a) (clusterings (length data))) = 1) /\
    forall u, In u (clusterings (length data)) ->
      Un_cv (fun k => chain_prob I val data covs pick rest k a u) (normalised (length data) (posterior (fun al => ewens_pitman t d (sizes_of al)) M) u) /\
      forall k, (1 <= k)%nat -> 0 < chain_prob I val data covs pick rest k a u.
Proof.
  intros I L data covs val t d M hy m Hrows Hv Hcj Hod Hn Hd Ht HM HML Hh Hx pick rest a H1 H2 H3 H4 H5.
  pose proof (fun rest Hr => py_mass_at I val m (length data) t d rest Hd Ht Hn Hr HM) as HMA.
  assert (R : ready I data covs hy m a) by (split; [split; [split; assumption|assumption]|split; assumption]).
  split; [intro k; exact (chain_total I L data covs Hrows val Hv Hcj Hod Hn (ep t d) M (ep_prior t d Hd Ht) hy m HML HMA Hh Hx pick rest k a R)|].
  intros u Hu. split.
  - exact (chain_limit I L data covs Hrows val Hv Hcj Hod Hn (ep t d) M (ep_prior t d Hd Ht) hy m HML HMA Hh Hx pick rest a u R Hu).
  - intros k Hk. exact (chain_positive I L data covs Hrows val Hv Hcj Hod Hn (ep t d) M (ep_prior t d Hd Ht) hy m HML HMA Hh Hx pick rest k a u R Hu Hk).
Qed.
Print Assumptions C123_limit.

(** No other law over the clusterings is left unchanged by an iteration. *)
Theorem C123_unique : forall (I : Iface) (L : laws I) data covs (val : W I -> R) t d M hy (m : Mix I) pick rest (A : list nat -> alg I) q,
  rows_ok I data (at_ covs) -> (forall x y, val (wadd I x y) = val x * val y) -> conj I = true -> other_draw I = None -> (2 <= length data)%nat ->
  0 <= d < 1 -> - d < t -> py_masses I val m (length data) t d -> marginal_likelihood I data covs val hy M ->
  (forall sts r, exists r', hyp_update I hy sts r = (hy, r')) -> (forall cards al r, exists r', mix_update I m cards al r = Ok (m, r')) ->
  (forall s, In s (clusterings (length data)) ->
     proper (length data) (a_alloc (A s)) (view (a_uv (A s))) /\ caches_ok data covs (a_uv (A s)) /\
     (forall h, In h (a_uv (A s)) -> saved_matches data covs (a_hyp (A s)) h) /\
     a_hyp (A s) = hy /\ a_mix (A s) = m /\ canon (a_alloc (A s)) = s) ->
  sumR (map q (clusterings (length data))) = 1 ->
  (forall u, In u (clusterings (length data)) -> sumR (map (fun s => q s * chain_prob I val data covs pick rest 1 (A s) u) (clusterings (length data))) = q u) ->
  forall u, In u (clusterings (length data)) -> q u = normalised (length data) (posterior (fun al => ewens_pitman t d (sizes_of al)) M) u.
Proof.
  intros I L data covs val t d M hy m pick rest A q Hrows Hv Hcj Hod Hn Hd Ht HM HML Hh Hx HA.
  apply (chain_unique I L data covs Hrows val Hv Hcj Hod Hn (ep t d) M (ep_prior t d Hd Ht) hy m HML
    (fun rest Hr => py_mass_at I val m (length data) t d rest Hd Ht Hn Hr HM) Hh Hx pick rest A q).
  intros s Hs. destruct (HA s Hs) as (H1 & H2 & H3 & H4 & H5 & H6). split; [|exact H6]. split; [split; [split; assumption|assumption]|split; assumption].
Qed.
Print Assumptions C123_unique.

(** ** The program of Neal3 with a normal likelihood *)

(** The partition law a mixing with fixed parameters samples from: total mass one
    for the Dirichlet process whatever is configured (C35_factory_dirichlet). *)
Definition partition_law (mp : mixing_prior) : option (R * R) :=
  match mp with
  | PriDP (DPFixed _) => Some (1, 0)
  | PriPY (PYFixed s d) => Some (s, d)
  | _ => None
  end.

Lemma fixed_strength : forall mp m t d, partition_law mp = Some (t, d) -> mixing_start mp = Ok m ->
  strength m = Some (t, d) /\ 0 <= d < 1 /\ - d < t /\ forall G cards al r, mixing_update G m cards al r = Ok (m, r).
Proof.
  intros mp m t d E H. destruct mp as [p|p]; cbn [mixing_start] in H.
  - destruct p as [tot| |]; try discriminate E. injection E as <- <-.
    destruct (dp_init (DPFixed tot) dp_make_shared) as [s| | |] eqn:Ed; try discriminate H. cbn [rbind] in H. injection H as <-.
    split; [now apply factory_strength|]. split; [lra|]. split; [lra|]. reflexivity.
  - destruct p as [s0 d0|]; try discriminate E. injection E as <- <-. cbn [py_init] in H.
    destruct (lteb s0 (- d0)) eqn:E1; [discriminate H|]. destruct (gtb 0 d0) eqn:E2; [discriminate H|]. destruct (lteb 1 d0) eqn:E3; [discriminate H|].
    cbn in H. injection H as <-. apply lteb_false in E1, E3. apply gtb_false in E2. split; [reflexivity|]. split; [lra|]. split; [lra|]. reflexivity.
Qed.

Theorem C123_normal : forall G m0 v0 s0 b0 hy mp mx t d data k pos st r, gen_ok G -> nig_init (NIGFixed m0 v0 s0 b0) = Ok hy -> mixing_start mp = Ok mx ->
  partition_law mp = Some (t, d) -> (2 <= length data)%nat -> P_Valid.fits k pos (length data) ->
  exists M a0 r0,
    (forall ids theta, 0 < ls_var theta ->
       exp (nig_lpdf lgam hy theta) * prodR (map (fun j => exp (norm_lpdf theta (nth j data 0))) ids) =
       M ids * exp (nig_lpdf lgam (nnig_post hy (Z.of_nat (length ids)) (stats_of (pick data ids))) theta)) /\
    cov_start (nnig_iface lgam G (NIGFixed m0 v0 s0 b0)) (Ok hy) (Ok mx) data (repeat tt (length data)) k pos st true r = Ok (a0, r0) /\
    forall pick0 rest,
      let P := chain_prob (nnig_iface lgam G (NIGFixed m0 v0 s0 b0)) xexp data (repeat tt (length data)) pick0 rest in
      let post := normalised (length data) (posterior (fun al => ewens_pitman t d (sizes_of al)) M) in
      (exists e, 0 < e <= 1 /\ forall n, sumR (map (fun u => Rabs (P n a0 u - post u)) (clusterings (length data))) <= 2 * (1 - e) ^ n) /\
      forall u, In u (clusterings (length data)) -> Un_cv (fun n => P n a0 u) (post u).
Proof.
  intros G m0 v0 s0 b0 hy mp mx t d data k pos st r HG Eh Em El Hn [Hk Hpos]. set (p := NIGFixed m0 v0 s0 b0) in *. set (I := nnig_iface lgam G p).
  pose proof (nig_init_valid p hy Eh) as HV. destruct (fixed_strength mp mx t d El Em) as (Hs & Hd & Ht & Hu).
  exists (fun ids => exp (log_marg lgam hy (pick data ids))).
  destruct (@init_clusters_ok I (nnig_laws lgam G p HG) data (repeat tt (length data)) (nnig_rows lgam G p data) true hy mx k pos (mkHier I [] 0%Z (stats0 I) st false None) r)
    as (a0 & r0 & E & G0 & _ & Eh0 & Em0 & _); [intros _; split; reflexivity|exact (Nat.lt_le_incl 1 _ Hn)|exact Hk|exact Hpos|intros X; discriminate X|].
  exists a0, r0. split; [|split; [exact E|]].
  - intros ids theta Hth. rewrite prod_exp, <- !exp_plus. f_equal.
    replace (Z.of_nat (length ids)) with (cardZ (pick data ids)) by (unfold cardZ, pick; rewrite map_length; reflexivity). now apply nnig_bayes.
  - intros pick0 rest P post.
    apply (fresh3_iff I (nnig_laws lgam G p HG) data (repeat tt (length data)) eq_refl) in G0. destruct G0 as [[H1 H2] H3].
    assert (Hv : forall x y, xexp (wadd I x y) = xexp x * xexp y) by (intros; apply xexp_add).
    assert (Hm : marginal_likelihood I data (repeat tt (length data)) xexp hy (fun ids => exp (log_marg lgam hy (pick data ids)))) by (now apply nnig_marginal).
    assert (Hh : forall sts r, exists r', hyp_update I hy sts r = (hy, r')) by (intros sts q; exists q; reflexivity).
    assert (Hx : forall cards al r, exists r', mix_update I mx cards al r = Ok (mx, r')) by (intros c al q; exists q; apply Hu).
    pose proof (real_masses lgam G p mx (length data) t d Hs Hd Ht) as HM. split.
    + destruct (C123_converges I (nnig_laws lgam G p HG) data (repeat tt (length data)) xexp t d _ hy mx (nnig_rows lgam G p data) Hv eq_refl eq_refl Hn Hd Ht HM Hm Hh Hx) as (e & He & HC).
      exists e. split; [exact He|]. intro n. now apply HC.
    + intros u Hin.
      destruct (C123_limit I (nnig_laws lgam G p HG) data (repeat tt (length data)) xexp t d _ hy mx (nnig_rows lgam G p data) Hv eq_refl eq_refl Hn Hd Ht HM Hm Hh Hx pick0 rest a0 H1 H2 H3 Eh0 Em0) as [_ HL].
      exact (proj1 (HL u Hin)).
Qed.
Print Assumptions C123_normal.

(** Three observations, a Pitman-Yor mixing, one starting cluster. *)
Example C123_example : forall pick0 rest, exists M a0,
  (forall ids, 0 < M ids) /\ a_alloc a0 = [0; 0; 0]%nat /\
  forall u, In u (clusterings 3) ->
  Un_cv (fun n => chain_prob (nnig_iface lgam P_Valid.g1 (NIGFixed 0 1 2 2)) xexp [0; 1; 5] (repeat tt 3) pick0 rest n a0 u)
        (normalised 3 (posterior (fun al => ewens_pitman 1 (/ 2) (sizes_of al)) M) u).
Proof.
  intros pick0 rest.
  assert (E1 : nig_init (NIGFixed 0 1 2 2) = Ok (mkNIG 0 1 2 2)) by (cbn [nig_init]; unfold nig_check; cbn; rewrite !(proj2 (lteb_false _ _)) by lra; reflexivity).
  assert (E2 : mixing_start (PriPY (PYFixed 1 (/ 2))) = Ok (MixPY (PYFixed 1 (/ 2)) (mkPy 1 (/ 2)))).
  { cbn [mixing_start py_init]. rewrite (proj2 (lteb_false _ _)) by lra. rewrite (proj2 (gtb_false _ _)) by lra. rewrite (proj2 (lteb_false _ _)) by lra. reflexivity. }
  destruct (C123_normal P_Valid.g1 0 1 2 2 _ _ _ 1 (/ 2) [0; 1; 5] 1 (fun _ => 0%nat) (mkLS 0 0) 0%nat (proj1 P_Valid.g1_ok) E1 E2 eq_refl ltac:(cbn; lia)
    ltac:(split; [cbn; lia|intros; cbn; lia])) as (M & a0 & r0 & HB & E & HC).
  exists M, a0. split; [|split].
  - intros ids. pose proof (HB ids (mkLS 0 1) ltac:(cbn; lra)) as H. rewrite prod_exp in H.
    apply (Rmult_lt_reg_r (exp (nig_lpdf lgam (nnig_post (mkNIG 0 1 2 2) (Z.of_nat (length ids)) (stats_of (pick [0; 1; 5] ids))) (mkLS 0 1)))); [apply exp_pos|].
    rewrite <- H, Rmult_0_l. apply Rmult_lt_0_compat; apply exp_pos.
  - cbn in E. injection E as <- _. reflexivity.
  - intros u Hu. exact (proj2 (HC pick0 rest) u Hu).
Qed.
(** Five clusterings, each reached in one iteration with positive probability. *)
Example C123_example_reach : forall pick0 rest u, In u (clusterings 3) ->
  0 < chain_prob exI xexp exdata excovs pick0 rest 1 (rep_state exI exdata excovs exhy exmix [0; 0; 2]%nat) u.
Proof.
  intros pick0 rest u Hu. destruct (rep_state_ok exI exdata excovs exhy exmix _ exst_in) as (H1 & H2 & H3 & H4 & H5 & H6).
  refine (proj2 (proj2 (C123_limit exI (nnig_laws _ _ _ exG_ok) exdata excovs xexp (- / 4) (/ 2) (fun ids => exp (log_marg (fun _ => 0) exhy (pick exdata ids))) exhy exmix
    (nnig_rows (fun _ => 0) exG exprior exdata) _ eq_refl eq_refl _ _ _ ex_masses (nnig_marginal (fun _ => 0) exG exprior exdata exhy exhy_valid) _ _ pick0 rest _ H1 H2 H3 H4 H5) u Hu) 1%nat (le_n 1)); try lra; try (cbn; lia).
  - intros. apply xexp_add.
  - intros sts r. exists r. reflexivity.
  - intros cards al r. exists r. reflexivity.
Qed.
