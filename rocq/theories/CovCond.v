(** * Blocked Gibbs programs on data with covariates; programs without their covariates. *)
From Coq Require Import String.
From Coq Require Import Bool List Arith ZArith Reals Lra Lia.
From Verif Require Import Base Hier Algos Run Spec MargFacts NealFacts MargMore InitFacts MargProps ValidRun.
From Verif Require Import XReal Stick SliceFacts StickFacts Cond CondFacts CondProps UnivInst UnivRun CondInst CondRun CondStick CovInst.
Import ListNotations.
Local Open Scope R_scope.

(** ** The program *)
Section Prog.
  Variable I : Iface.
  Variable L : laws I.
  Variable toW : xreal -> W I.
  Variable data : list (Datum I).
  Local Notation n := (length data).
  Variable covs : list (Cov I).
  Hypothesis Hrows : rows_ok I data (at_ covs).
  Variable GH : Hyp I -> Prop.
  Variable GS : St I -> Prop.
  Variable GM : Mix I -> Prop.
  Hypothesis HC : closed I data covs GH GS GM.
  Variable bet : R -> R -> Rng I -> R * Rng I.
  Hypothesis Hb : beta_ok bet.
  Local Notation J := (sb_iface I toW bet).

  Variable hy : Hyp I.
  Hypothesis Hhy : GH hy.
  Variable p : sbprior numR.
  Variable inf : bool.
  Variable nc : nat.
  Variable m : sb numR.
  Hypothesis Hm : sb_init p inf nc = Ok m.
  Hypothesis Hp : proper_shapes p.
  Hypothesis Hnc : (1 <= nc <= n)%nat.
  Variable pos : nat -> nat.
  Hypothesis Hpos : forall i, (pos i < nc)%nat.
  Variable st : St I.

  Theorem cov_sb_program : forall maxiter burnin r, exists s out,
    cov_blocked_run J (Ok hy) (Ok m) data covs pos st (fun m : sb numR => sb_nc m) maxiter burnin r = Ok (s, out) /\
    length out = (maxiter - burnin)%nat /\ forall snap, In snap out ->
      saved_components n nc (s_alloc snap) (s_clusters snap) /\ GH (s_hyp snap) /\ (forall q, In q (s_clusters snap) -> GS (fst q)) /\
      sb_end inf nc (Run.s_mix snap) /\ sb_logweights (Run.s_mix snap) = logweights_from_sticks (sb_sticks (Run.s_mix snap)).
  Proof.
    intros maxiter burnin r. unfold cov_blocked_run. cbn [rbind].
    destruct (sb_init_spec _ _ _ Hm) as (A & B & C & D & _).
    assert (E : num_components J data (sb_nc m) = nc). { unfold num_components. rewrite D. replace (nc =? 0)%nat with false by (symmetry; apply Nat.eqb_neq; lia). reflexivity. }
    rewrite E, D.
    pose proof (init_good _ _ _ _ Hm Hp) as G.
    pose (P0 := fun x : Mix J => sb_start p inf nc x). pose (P1 := fun x : Mix J => sb_end inf nc x).
    assert (Hlw : forall x : Mix J, P0 x -> logweights_ok J data x nc).
    { intros x Hx i _. change (length (map toW (sb_logweights x)) = nc). rewrite map_length. apply (start_logweights _ _ _ _ Hx). }
    assert (Hup : forall (x : Mix J) ns al q, P0 x -> length ns = nc -> length al = n -> (forall c, In c al -> (c < nc)%nat) ->
      exists x' q', mix_update J x (map Z.of_nat ns) al q = Ok (x', q') /\ P0 x' /\ P1 x').
    { intros x ns al q Hx Hns _ _. apply (sb_update_good I data ltac:(lia) bet Hb p inf nc x ns q Hx G); [lia|exact Hns]. }
    assert (H0 : P0 m) by (split; auto).
    pose proof (with_mixing_closed I _ (fun x _ => map toW (sb_logweights x)) (fun x cards _ q => sb_update (K:=numR) bet x cards q) data covs GH GS GM HC) as HC'.
    destruct (blocked_complete J (with_mixing_laws I _ _ _ L) data covs Hrows nc P0 P1 Hlw Hup hy m pos (mkHier J [] 0%Z (stats0 I) st false None) H0 Hnc Hpos eq_refl maxiter burnin r) as (s & out & R).
    exists s, out. split; [exact R|].
    destruct (blocked_saved J (with_mixing_laws I _ _ _ L) data covs Hrows nc GH GS HC' P0 P1 Hlw Hup hy m pos (mkHier J [] 0%Z (stats0 I) st false None) Hhy H0 Hnc Hpos ltac:(discriminate) eq_refl maxiter burnin r s out R) as [K1 K2].
    split; [exact K1|]. intros snap Hin. destruct (K2 snap Hin) as (Q1 & Q2 & Q3 & Q4 & Q5). split; [exact Q1|]. split; [exact Q2|]. split; [exact Q5|]. split; [exact Q4|].
    exact (proj2 (start_logweights _ _ _ _ Q3)).
  Qed.
End Prog.

(** ** A hierarchy that cannot use the default covariate *)
Lemma init_missing : forall (I : Iface) (L : laws I) (data : list (Datum I)), (forall d, row_ok I d (cov0 I) = false) -> (1 <= length data)%nat ->
  forall uhp hy m k pos st r, (k <= length data)%nat ->
  init_clusters data (repeat (cov0 I) (length data)) uhp hy m k pos [mkHier I [] 0%Z (stats0 I) st false None] r = UB.
Proof.
  intros I L data Hc Hn uhp hy m k pos st r Hk. unfold init_clusters. set (nc := num_components I data k).
  assert (Hnc : (1 <= nc)%nat). { unfold nc, num_components. destruct (k =? 0)%nat eqn:E; [lia|apply Nat.eqb_neq in E; lia]. }
  cbn [at_ nth_error rbind upd].
  destruct (@init_clones_ok I hy (nc - 1) [h_initialize hy (mkHier I [] 0%Z (stats0 I) st false None)] r) with (s := 0%nat)
    as (uv2 & r1 & E2 & Hl2 & Hb2); [cbn; lia| |cbn; lia|].
  { intros [|c] h Hh; cbn in Hh; [|destruct c; discriminate]. injection Hh as <-.
    split; [reflexivity|]. split; [reflexivity|]. split; [reflexivity|].
    unfold ph_ok, h_initialize. cbn. destruct (conj I); discriminate. }
  rewrite E2. cbn [rbind]. destruct nc as [|nc]; [lia|]. cbn [seq app rfold]. unfold init_alloc_step at 1. cbn [Nat.ltb Nat.leb].
  destruct data as [|d data]; [cbn in Hn; lia|]. cbn [at_ nth_error length repeat rbind]. unfold add_in.
  destruct uv2 as [|h uv2]; [cbn in Hl2; lia|]. cbn [at_ nth_error rbind]. unfold h_add, like_add.
  destruct (Hb2 0%nat h eq_refl) as [Ei _]. rewrite Ei. cbn [set_mem existsb]. rewrite Hc. reflexivity.
Qed.
Lemma run_missing : forall (I : Iface) (L : laws I) (data : list (Datum I)), (forall d, row_ok I d (cov0 I) = false) -> (1 <= length data)%nat ->
  forall hy m k pos st r al maxiter burnin, (k <= length data)%nat ->
  marginal_run I (Ok hy) (Ok m) data (repeat (cov0 I) (length data)) k pos st al maxiter burnin r = UB.
Proof.
  intros I L data Hc Hn hy m k pos st r al maxiter burnin Hk.
  assert (K : forall uhp, cov_start I (Ok hy) (Ok m) data (repeat (cov0 I) (length data)) k pos st uhp r = UB) by (intro uhp; exact (init_missing I L data Hc Hn uhp hy m k pos st r Hk)).
  destruct al; unfold marginal_run; rewrite K; reflexivity.
Qed.
