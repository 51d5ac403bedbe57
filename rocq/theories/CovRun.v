(** * Programs of the marginal algorithms on data with covariates: completion and saved states. *)
From Coq Require Import Bool List Arith ZArith Reals Lia.
From Verif Require Import Base Hier Algos Run Spec MargFacts NealFacts MargMore InitFacts MargProps ValidRun UnivRun CovInst.
Import ListNotations.

Section Complete.
  Variable I : Iface.
  Variable L : laws I.
  Variable data : list (Datum I).
  Variable hyp0 : Hyp I.
  Variable mix0 : Mix I.
  Variable k : nat.
  Variable pos : nat -> nat.
  Variable st : St I.
  Local Notation n := (length data).
  Variable covs : list (Cov I).
  Hypothesis Hrows : rows_ok I data (at_ covs).
  Variable P : Mix I -> Prop.
  Hypothesis HP : @mixing_safe I data P.
  Hypothesis Hm : P mix0.
  Hypothesis Hk : (k <= n)%nat.
  Hypothesis Hpos : forall i, (pos i < num_components I data k)%nat.
  Local Notation h0 := (mkHier I [] 0%Z (stats0 I) st false None).

  Lemma start_ok : forall uhp r, (uhp = true -> conj I = true /\ other_draw I = None) -> (1 <= n)%nat ->
    exists a r', cov_start I (Ok hyp0) (Ok mix0) data covs k pos st uhp r = Ok (a, r') /\ @GInv I data covs false a /\ P (a_mix a).
  Proof.
    intros uhp r Hu Hn. unfold cov_start. cbn [rbind].
    destruct (@init_clusters_ok I L data covs Hrows uhp hyp0 mix0 k pos h0 r Hu Hn Hk Hpos) as (a & r' & E & G & _ & _ & Em & _).
    { unfold ph_ok. cbn. discriminate. }
    exists a, r'. split; [exact E|]. split; [eapply GInv_untrack; eauto|now rewrite Em].
  Qed.

  Lemma complete : forall (Q : alg I -> Prop) init step maxiter burnin,
    (forall a, Q a -> a_uv a <> []) -> (exists a r, init = Ok (a, r) /\ Q a) ->
    (forall a r, Q a -> exists a' r', step (a, r) = Ok (a', r') /\ Q a') ->
    exists s out, run init step maxiter burnin = Ok (s, out).
  Proof.
    intros Q init step maxiter burnin Hq (a & r & Ei & Qa) Hs. unfold run. rewrite Ei. cbn [rbind].
    destruct (@run_complete I step Q Hs Hq burnin maxiter a r Qa) as (a' & r' & out & E & _). eauto.
  Qed.

  Lemma neal2_complete : forall maxiter burnin r, (2 <= n)%nat -> exists s out, marginal_run I (Ok hyp0) (Ok mix0) data covs k pos st Neal2 maxiter burnin r = Ok (s, out).
  Proof.
    intros maxiter burnin r Hn. apply (complete (fun a => @GInv I data covs false a /\ P (a_mix a))).
    - intros a [G _]. apply (@GInv_uv_pos I data covs false a); [lia|exact G].
    - apply start_ok; [exact (uhp_false I)|lia].
    - intros a q [G M]. now apply neal2_step_ok.
  Qed.
  Lemma neal3_complete : forall maxiter burnin r, conj I = true -> other_draw I = None -> (2 <= n)%nat ->
    exists s out, marginal_run I (Ok hyp0) (Ok mix0) data covs k pos st Neal3 maxiter burnin r = Ok (s, out).
  Proof.
    intros maxiter burnin r Hc Ho Hn. apply (complete (fun a => @GInv I data covs false a /\ P (a_mix a))).
    - intros a [G _]. apply (@GInv_uv_pos I data covs false a); [lia|exact G].
    - apply start_ok; [auto|lia].
    - intros a q [G M]. now apply neal3_step_ok.
  Qed.
  Lemma neal8_complete : forall n_aux maxiter burnin r, (1 <= n_aux)%nat -> (1 <= n)%nat ->
    exists s out, marginal_run I (Ok hyp0) (Ok mix0) data covs k pos st (Neal8 n_aux) maxiter burnin r = Ok (s, out).
  Proof.
    intros n_aux maxiter burnin r Hx Hn. apply (complete (fun a => @GInv8 I data covs n_aux a /\ P (a_mix a))).
    - intros a [[G _] _]. apply (@GInv_uv_pos I data covs false a); [lia|exact G].
    - destruct (start_ok false r (uhp_false I) Hn) as (a & r' & E & G & M). rewrite E. cbn [rbind].
      destruct (@neal8_init_aux_ok I n_aux a) as (aux & Ea & La & Ha). { eapply GInv_uv_pos; eauto. }
      rewrite Ea. cbn [rbind]. exists (set_aux a aux), r'. split; [reflexivity|]. split; [|exact M]. split; [exact G|apply aux_iff; auto].
    - intros a q [G M]. now apply neal8_step_all_ok.
  Qed.
End Complete.

Section Ends.
  Variable I : Iface.
  Variable L : laws I.
  Variable data : list (Datum I).
  Variable hyp0 : Hyp I.
  Variable mix0 : Mix I.
  Variable k : nat.
  Variable pos : nat -> nat.
  Variable st : St I.
  Local Notation n := (length data).
  Variable covs : list (Cov I).
  Hypothesis Hrows : rows_ok I data (at_ covs).
  Variable P : Mix I -> Prop.
  Hypothesis HP : forall m, P m -> masses_ok I m n.
  Hypothesis HU : forall m cards al r, P m -> ends (mix_update I m cards al r).
  Hypothesis HV : forall m cards al r m' r', P m -> mix_update I m cards al r = Ok (m', r') -> P m'.
  Hypothesis Hm : P mix0.
  Hypothesis Hk : (k <= n)%nat.
  Hypothesis Hpos : forall i, (pos i < num_components I data k)%nat.

  (** The last phases of an iteration: only the mixing can throw. *)
  Lemma tail_exact : forall uhp (a : alg I) r, (uhp = true -> conj I = true /\ other_draw I = None) -> (1 <= n)%nat -> @GInv I data covs false a ->
    exists a2 r2 cards, length cards = length (a_uv a) /\ a_mix a2 = a_mix a /\ a_aux a2 = a_aux a /\ @GInv I data covs false a2 /\
    (s2 <- sample_unique_values uhp (a, r) ;; s3 <- update_hierarchy_hypers s2 ;; update_mixing s3) =
    ('(m, r') <- mix_update I (a_mix a) cards (a_alloc a) r2 ;; Ok (set_mix a2 m, r')).
  Proof.
    intros uhp a r Hu Hn Ha.
    destruct (@sample_unique_values_ok I L data covs uhp false Hu (@trk_false _) a r Ha) as (a1 & r1 & E1 & G1 & Eal & _ & Em & Ex & Eids).
    rewrite E1. cbn [rbind]. unfold update_hierarchy_hypers.
    destruct (a_uv a1) as [|h0 uv] eqn:Euv; [exfalso; eapply GInv_uv_pos; eauto|]. cbn [at_ nth_error rbind].
    match goal with |- context [hyp_update I ?a ?b ?c] => destruct (hyp_update I a b c) as [hy r2] end. cbn [rbind]. unfold update_mixing.
    eexists (set_hyp a1 hy), r2, _. split; [|split; [|split; [|split; [|]]]].
    5: { rewrite <- Em, <- Eal. reflexivity. }
    - cbn [a_uv set_hyp]. rewrite Euv, map_length. apply (f_equal (@length _)) in Eids. rewrite !map_length in Eids. rewrite <- Eids. try rewrite Euv. reflexivity.
    - exact Em.
    - exact Ex.
    - now apply GInv_set_hyp.
  Qed.

  Lemma run_ends : forall (Q : alg I -> Prop) init step maxiter burnin, (forall a, Q a -> a_uv a <> []) -> (exists a r, init = Ok (a, r) /\ Q a) ->
    (forall a r, Q a -> (exists a' r', step (a, r) = Ok (a', r') /\ Q a') \/ exists msg, step (a, r) = Throw msg) ->
    ends (run init step maxiter burnin).
  Proof.
    intros Q init step maxiter burnin Hq (a & r & Ei & Qa) Hs. unfold run. rewrite Ei. cbn [rbind]. generalize (@nil (snapshot I)) as out.
    generalize (seq 0 maxiter) as is. clear Ei. intro is. revert a r Qa. induction is as [|i is IH]; intros a r Qa out; cbn [rfold]; [left; eauto|].
    unfold run_body at 1. destruct (Hs a r Qa) as [(a' & r' & E & Q')|(msg & E)]; rewrite E; cbn [rbind]; [|right; eauto].
    destruct (burnin <=? i); [|cbn [rbind]; apply IH; exact Q'].
    unfold get_state. cbn [fst]. destruct (a_uv a') as [|h uv] eqn:Eu; [exfalso; eapply Hq; eauto|]. cbn [at_ nth_error rbind]. apply IH. exact Q'.
  Qed.

  Lemma tail_ends : forall uhp (a : alg I) r, (uhp = true -> conj I = true /\ other_draw I = None) -> (1 <= n)%nat -> @GInv I data covs false a -> P (a_mix a) ->
    (exists a' r', (s2 <- sample_unique_values uhp (a, r) ;; s3 <- update_hierarchy_hypers s2 ;; update_mixing s3) = Ok (a', r') /\ @GInv I data covs false a' /\ P (a_mix a') /\ a_aux a' = a_aux a) \/
    (exists msg, (s2 <- sample_unique_values uhp (a, r) ;; s3 <- update_hierarchy_hypers s2 ;; update_mixing s3) = Throw msg).
  Proof.
    intros uhp a r Hu Hn Ha Pa. destruct (tail_exact uhp a r Hu Hn Ha) as (a2 & r2 & cards & _ & _ & Ex & G2 & E). rewrite E.
    destruct (HU (a_mix a) cards (a_alloc a) r2 Pa) as [([m r'] & Em)|(msg & Em)]; rewrite Em; cbn [rbind]; [left|right; eauto].
    exists (set_mix a2 m), r'. split; [reflexivity|]. split; [exact G2|]. split; [exact (HV _ _ _ _ _ _ Pa Em)|exact Ex].
  Qed.

  Lemma neal2_ends : forall maxiter burnin r, (2 <= n)%nat -> ends (marginal_run I (Ok hyp0) (Ok mix0) data covs k pos st Neal2 maxiter burnin r).
  Proof.
    intros maxiter burnin r Hn. apply (run_ends (fun a => @GInv I data covs false a /\ P (a_mix a))).
    - intros a [G _]. apply (@GInv_uv_pos I data covs false a); [lia|exact G].
    - apply (start_ok I L data hyp0 mix0 k pos st covs Hrows P Hm Hk Hpos); [exact (uhp_false I)|lia].
    - intros a q [G M]. unfold base_step, neal2_sample_allocations.
      destruct (@neal_sweep_ok I L data covs Hrows false false (uhp_false I) (@trk_false _) (neal2_lpdf data covs)
                (@neal2_lpdf_ok I data covs Hrows false) a q (seq 0 n)) as (a1 & r1 & E1 & G1 & _ & Em & _); auto.
      { intros i Hi. apply in_seq in Hi. lia. }
      rewrite E1. cbn [rbind]. destruct (tail_ends false a1 r1 (uhp_false I) ltac:(lia) G1 ltac:(now rewrite Em)) as [(a' & r' & E & G' & M' & _)|K]; [left; eauto|right; exact K].
  Qed.
  Lemma neal3_ends : forall maxiter burnin r, conj I = true -> other_draw I = None -> (2 <= n)%nat -> ends (marginal_run I (Ok hyp0) (Ok mix0) data covs k pos st Neal3 maxiter burnin r).
  Proof.
    intros maxiter burnin r Hc Ho Hn. apply (run_ends (fun a => @GInv I data covs false a /\ P (a_mix a))).
    - intros a [G _]. apply (@GInv_uv_pos I data covs false a); [lia|exact G].
    - apply (start_ok I L data hyp0 mix0 k pos st covs Hrows P Hm Hk Hpos); [auto|lia].
    - intros a q [G M]. unfold base_step, neal3_sample_allocations.
      destruct (@neal_sweep_ok I L data covs Hrows true false (fun _ => Logic.conj Hc Ho) (@trk_false _) (neal3_lpdf data covs)
                (fun a i => @neal3_lpdf_ok I data covs Hrows false a i Ho) a q (seq 0 n)) as (a1 & r1 & E1 & G1 & _ & Em & _); auto.
      { intros i Hi. apply in_seq in Hi. lia. }
      rewrite E1. cbn [rbind]. destruct (tail_ends true a1 r1 (fun _ => Logic.conj Hc Ho) ltac:(lia) G1 ltac:(now rewrite Em)) as [(a' & r' & E & G' & M' & _)|K]; [left; eauto|right; exact K].
  Qed.
  Lemma neal8_ends : forall n_aux maxiter burnin r, (1 <= n_aux)%nat -> (1 <= n)%nat -> ends (marginal_run I (Ok hyp0) (Ok mix0) data covs k pos st (Neal8 n_aux) maxiter burnin r).
  Proof.
    intros n_aux maxiter burnin r Hx Hn. apply (run_ends (fun a => @GInv8 I data covs n_aux a /\ P (a_mix a))).
    - intros a [[G _] _]. apply (@GInv_uv_pos I data covs false a); [lia|exact G].
    - destruct (start_ok I L data hyp0 mix0 k pos st covs Hrows P Hm Hk Hpos false r (uhp_false I) Hn) as (a & r' & E & G & M). rewrite E. cbn [rbind].
      destruct (@neal8_init_aux_ok I n_aux a) as (aux & Ea & La & Ha). { eapply GInv_uv_pos; eauto. }
      rewrite Ea. cbn [rbind]. exists (set_aux a aux), r'. split; [reflexivity|]. split; [|exact M]. split; [exact G|apply aux_iff; auto].
    - intros a q [G M]. unfold base_step, neal8_sample_allocations.
      destruct (@neal8_sweep_ok I L data covs Hrows n_aux a q (seq 0 n)) as (a1 & r1 & E1 & [G1 [X1 X2]] & _ & Em); auto.
      { intros i Hi. apply in_seq in Hi. lia. }
      rewrite E1. cbn [rbind]. destruct (tail_ends false a1 r1 (uhp_false I) Hn G1 ltac:(now rewrite Em)) as [(a' & r' & E & G' & M' & Ex)|K]; [left|right; exact K].
      exists a', r'. split; [exact E|]. split; [|exact M']. split; [exact G'|]. split; rewrite Ex; assumption.
  Qed.
End Ends.

(** What the algorithms ask of the number of observations, of the auxiliary
    blocks and of the hierarchy. *)
Definition usable (al : marginal_algorithm) (n : nat) (conjugate : bool) : Prop :=
  match al with
  | Neal2 => (2 <= n)%nat
  | Neal3 => (2 <= n)%nat /\ conjugate = true
  | Neal8 n_aux => (1 <= n)%nat /\ (1 <= n_aux)%nat
  end.

Lemma cov_complete : forall I (L : laws I) data hyp0 mix0 k pos st covs, rows_ok I data (at_ covs) ->
  forall P, @mixing_safe I data P -> P mix0 -> (k <= length data)%nat -> (forall i, (pos i < num_components I data k)%nat) ->
  (conj I = true -> other_draw I = None) -> forall al, usable al (length data) (conj I) -> forall maxiter burnin r,
  exists s out, marginal_run I (Ok hyp0) (Ok mix0) data covs k pos st al maxiter burnin r = Ok (s, out).
Proof.
  intros I L data hyp0 mix0 k pos st covs Hr P HP Hm Hk Hpos Ho [| |x] Hu maxiter burnin r; cbn in Hu.
  - eapply neal2_complete; eauto.
  - destruct Hu. eapply neal3_complete; eauto.
  - destruct Hu. eapply neal8_complete; eauto.
Qed.
Lemma cov_ends : forall I (L : laws I) data hyp0 mix0 k pos st covs, rows_ok I data (at_ covs) ->
  forall P : Mix I -> Prop, (forall m, P m -> masses_ok I m (length data)) -> (forall m cards al r, P m -> ends (mix_update I m cards al r)) ->
  (forall m cards al r m' r', P m -> mix_update I m cards al r = Ok (m', r') -> P m') ->
  P mix0 -> (k <= length data)%nat -> (forall i, (pos i < num_components I data k)%nat) ->
  (conj I = true -> other_draw I = None) -> forall al, usable al (length data) (conj I) -> forall maxiter burnin r,
  ends (marginal_run I (Ok hyp0) (Ok mix0) data covs k pos st al maxiter burnin r).
Proof.
  intros I L data hyp0 mix0 k pos st covs Hr P HP HU HV Hm Hk Hpos Ho [| |x] Hu maxiter burnin r; cbn in Hu.
  - eapply neal2_ends; eauto.
  - destruct Hu. eapply neal3_ends; eauto.
  - destruct Hu. eapply neal8_ends; eauto.
Qed.
Lemma cov_saved : forall I (L : laws I) data covs, rows_ok I data (at_ covs) -> forall GH GS GM, closed I data covs GH GS GM ->
  (forall m, GM m -> masses_ok I m (length data)) -> forall hyp0 mix0 k pos st, (forall hy, hyp0 = Ok hy -> GH hy) -> (forall m, mix0 = Ok m -> GM m) ->
  (k <= length data)%nat -> (forall i, (pos i < num_components I data k)%nat) ->
  (conj I = true -> other_draw I = None) -> forall al, usable al (length data) (conj I) -> forall maxiter burnin r s out,
  marginal_run I hyp0 mix0 data covs k pos st al maxiter burnin r = Ok (s, out) ->
  length out = (maxiter - burnin)%nat /\ forall snap, In snap out -> saved_valid I data GH GS GM snap.
Proof.
  intros I L data covs Hr GH GS GM HC HM hyp0 mix0 k pos st H0 M0 Hk Hpos Ho al Hu maxiter burnin r s out R.
  destruct mix0 as [m| | |]; [|destruct al; unfold marginal_run, cov_start, run in R; cbn [rbind] in R; discriminate..].
  destruct hyp0 as [hy| | |]; [|destruct al; unfold marginal_run, cov_start, run in R; cbn [rbind] in R; discriminate..].
  specialize (H0 hy eq_refl). specialize (M0 m eq_refl). destruct al as [| |x]; cbn in Hu; unfold marginal_run, cov_start in R; cbn [rbind] in R.
  - exact (neal2_saved I L data covs Hr GH GS GM HC HM hy m k pos (mkHier I [] 0%Z (stats0 I) st false None) H0 M0 Hk Hpos ltac:(discriminate) ltac:(discriminate) r maxiter burnin s out Hu R).
  - destruct Hu as [Hn Hc]. exact (neal3_saved I L data covs Hr GH GS GM HC HM hy m k pos (mkHier I [] 0%Z (stats0 I) st false None) H0 M0 Hk Hpos ltac:(discriminate) ltac:(discriminate) r maxiter burnin s out Hc (Ho Hc) Hn R).
  - destruct Hu as [Hn Hx]. exact (neal8_saved I L data covs Hr GH GS GM HC HM hy m k pos (mkHier I [] 0%Z (stats0 I) st false None) H0 M0 Hk Hpos ltac:(discriminate) ltac:(discriminate) x r maxiter burnin s out Hx Hn R).
Qed.
