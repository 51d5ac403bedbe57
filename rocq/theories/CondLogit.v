(** * Blocked Gibbs with the logit stick-breaking mixing: proofs. *)
From Coq Require Import String.
From Coq Require Import Bool List Arith ZArith Reals Lra Lia.
From Verif Require Import Base Hier Algos Run Spec MargFacts NealFacts MargMore InitFacts MargProps ValidRun.
From Verif Require Import XReal Stick Cond CondFacts CondProps Mixings MixFacts MixMore Univ Multi LogitLib LogitLibFacts LogitFacts LogitUp LogitUpFacts P_Logit UnivInst UnivRun CondInst CondLgInst CondRun.
Import ListNotations.
Local Open Scope R_scope.

Lemma logit_go_length : forall eta c, length (logit_go c eta) = length eta.
Proof. induction eta; intros; simpl; auto. Qed.

(** The log-weights at a covariate of the right size. *)
Lemma lg_logweights_eq : forall mean s x, lg_ok mean s -> length x = length mean ->
  lg_logweights s x = map Fin (logit_go 0 (map (dot x) (lg_cols s) ++ [1])).
Proof.
  intros mean s x Hs Hx. unfold lg_logweights, lg_weights. pose proof (lo_H Hs) as HH. pose proof (lo_cols Hs) as Lc.
  rewrite (proj2 (Nat.eqb_neq _ _)) by lia.
  assert (E : rmap (fun h => b <- lg_col s h ;; edot x b) (seq 0 (lg_H s - 1)) = Ok (map (dot x) (lg_cols s))).
  { rewrite <- Lc. unfold lg_col. pose proof (lo_col Hs) as F. revert F. generalize (lg_cols s) as l. clear -Hx.
    intros l F. cut (forall l pre, List.Forall (fun b => length b = length mean) l ->
      rmap (fun h => b <- (match nth_error (pre ++ l) h with Some b => Ok b | None => Abort end) ;; edot x b) (seq (length pre) (length l)) = Ok (map (dot x) l)).
    { intros H. exact (H l [] F). }
    clear l F. induction l as [|b l IH]; intros pre F; [reflexivity|]. cbn [length seq rmap].
    rewrite nth_error_app2, Nat.sub_diag by lia. cbn [nth_error rbind]. unfold edot at 1. pose proof (List.Forall_inv F) as Fb. cbn beta in Fb.
    rewrite (proj2 (Nat.eqb_eq _ _)) by lia. cbn [rbind].
    specialize (IH (pre ++ [b]) (List.Forall_inv_tail F)). rewrite <- app_assoc, app_length in IH. cbn [app length] in IH. rewrite Nat.add_1_r in IH. rewrite IH. reflexivity. }
  rewrite E. reflexivity.
Qed.
Lemma lg_logweights_length : forall mean s x, lg_ok mean s -> length x = length mean -> length (lg_logweights s x) = lg_H s.
Proof.
  intros mean s x Hs Hx. rewrite (lg_logweights_eq mean s x Hs Hx), map_length, logit_go_length, app_length, map_length, (lo_cols Hs).
  pose proof (lo_H Hs). cbn. lia.
Qed.
(** The weights are positive and stay below one in total: the last factor is
    the logistic function at one. *)
Lemma lg_mass : forall mean s x, lg_ok mean s -> length x = length mean ->
  let w := map xexp (lg_logweights s x) in
  List.Forall (fun a => 0 < a) w /\
  fold_right Rplus 0 w = 1 - (1 - sigmoid 1) * fold_right Rmult 1 (map (fun b => 1 - sigmoid (dot x b)) (lg_cols s)) /\
  fold_right Rplus 0 w < 1.
Proof.
  intros mean s x Hs Hx. cbv zeta. rewrite (lg_logweights_eq mean s x Hs Hx), map_map. cbn [xexp].
  split; [|].
  - apply Forall_forall. intros a Ha. apply in_map_iff in Ha. destruct Ha as (y & <- & _). apply exp_pos.
  - pose proof (logit_go_sum (map (dot x) (lg_cols s) ++ [1]) 0) as S. rewrite exp_0, map_app, prodR_app, map_map in S.
    assert (E : fold_right Rplus 0 (map (fun y => exp y) (logit_go 0 (map (dot x) (lg_cols s) ++ [1]))) =
      1 - (1 - sigmoid 1) * fold_right Rmult 1 (map (fun b => 1 - sigmoid (dot x b)) (lg_cols s))).
    { unfold PartSpec.sumR, PartSpec.prodR in S. cbn [map fold_right] in S. refine (eq_trans S _). ring. }
    rewrite E. split; [reflexivity|].
    assert (P : 0 < fold_right Rmult 1 (map (fun b => 1 - sigmoid (dot x b)) (lg_cols s))).
    { clear. induction (lg_cols s) as [|b l IH]; cbn; [lra|]. apply Rmult_lt_0_compat; [|exact IH]. pose proof (sigmoid_01 (dot x b)). lra. }
    pose proof (sigmoid_01 1). pose proof (Rmult_lt_0_compat (1 - sigmoid 1) _ ltac:(lra) P). lra.
Qed.

(** ** The program *)
Section Prog.
  Variable G : gen.
  Variable M : mgen G.
  Variable I : Iface.
  Variable L : laws I.
  Variable toW : xreal -> W I.
  Variable data : list (Datum I).
  Local Notation n := (length data).
  Local Notation covs := (repeat (cov0 I) n).
  Hypothesis Hrows : rows_ok I data (at_ covs).
  Variable GH : Hyp I -> Prop.
  Variable GS : St I -> Prop.
  Variable GM : Mix I -> Prop.
  Hypothesis HC : closed I data covs GH GS GM.
  Variable up : lg -> list nat -> Rng I -> res (lg * Rng I).
  Variable p : lgprior.
  Variables (mean : list R) (var : list (list R)) (rows : list (list R)).
  Local Notation J := (lg_iface I toW rows up).
  Variable m : lg.
  Hypothesis Hn : lp_normal p = Some (mean, var).
  Hypothesis Hm : lg_init p = Ok m.
  Hypothesis Hx : length rows = n /\ forall x, In x rows -> length x = length mean.

  Definition lg_good (s : lg) : Prop := lg_ok mean s /\ sq_sym (lg_prec s) /\ lg_H s = lp_H p.
  Hypothesis Hup : forall s al r, lg_good s -> covers (length mean) rows al -> exists s' r', up s al r = Ok (s', r') /\ lg_good s'.

  Variable hy : Hyp I.
  Hypothesis Hhy : GH hy.
  Hypothesis Hnc : (1 <= lp_H p <= n)%nat.
  Variable pos : nat -> nat.
  Hypothesis Hpos : forall i, (pos i < lp_H p)%nat.
  Variable st : St I.
  Hypothesis Hg : lg_good m.

  Theorem lg_program : forall maxiter burnin r, exists s out,
    blocked_run J (Ok hy) (Ok m) lg_H data pos st maxiter burnin r = Ok (s, out) /\
    length out = (maxiter - burnin)%nat /\ forall snap, In snap out ->
      saved_components n (lp_H p) (s_alloc snap) (s_clusters snap) /\ GH (s_hyp snap) /\ (forall q, In q (s_clusters snap) -> GS (fst q)) /\
      lg_good (Run.s_mix snap).
  Proof.
    intros maxiter burnin r. unfold blocked_run. cbn [rbind]. destruct Hg as (_ & _ & D).
    assert (E : num_components J data (lg_H m) = lp_H p). { unfold num_components. rewrite D. replace (lp_H p =? 0)%nat with false by (symmetry; apply Nat.eqb_neq; lia). reflexivity. }
    rewrite E, D.
    pose (P0 := fun x : Mix J => lg_good x).
    assert (Hlw : forall x : Mix J, P0 x -> logweights_ok J data x (lp_H p)).
    { intros x (Q1 & _ & Q2) i Hi. destruct Hx as [X1 X2].
      change (length (match nth_error rows i with Some y => map toW (lg_logweights x y) | None => [] end) = lp_H p).
      destruct (nth_error rows i) as [y|] eqn:Ey; [|apply nth_error_None in Ey; change (length (A:=Datum J) data) with n in Hi; lia].
      rewrite map_length, (lg_logweights_length mean x y Q1 (X2 y (nth_error_In _ _ Ey))). exact Q2. }
    assert (Hu : forall (x : Mix J) ns al q, P0 x -> length ns = lp_H p -> length al = n -> (forall c, In c al -> (c < lp_H p)%nat) ->
      exists x' q', mix_update J x (map Z.of_nat ns) al q = Ok (x', q') /\ P0 x' /\ P0 x').
    { intros x ns al q Hq _ Hal _. destruct (Hup x al q Hq) as (x' & q' & Eu & Q). { split; [|exact (proj2 Hx)]. pose proof (proj1 Hx). lia. }
      exists x', q'. split; [exact Eu|]. split; exact Q. }
    pose proof (with_mixing_closed I _ (fun s i => match nth_error rows i with Some x => map toW (lg_logweights s x) | None => [] end) (fun s _ al q => up s al q) data covs GH GS GM HC) as HC'.
    destruct (blocked_complete J (with_mixing_laws I _ _ _ L) data covs Hrows (lp_H p) P0 P0 Hlw Hu hy m pos (mkHier J [] 0%Z (stats0 I) st false None) Hg Hnc Hpos eq_refl maxiter burnin r) as (s & out & R).
    exists s, out. split; [exact R|].
    destruct (blocked_saved J (with_mixing_laws I _ _ _ L) data covs Hrows (lp_H p) GH GS HC' P0 P0 Hlw Hu hy m pos (mkHier J [] 0%Z (stats0 I) st false None) Hhy Hg Hnc Hpos ltac:(discriminate) eq_refl maxiter burnin r s out R) as [K1 K2].
    split; [exact K1|]. intros snap Hin. destruct (K2 snap Hin) as (Q1 & Q2 & Q3 & Q4 & Q5). split; [exact Q1|]. split; [exact Q2|]. split; [exact Q5|]. exact Q4.
  Qed.
End Prog.

(** The mixing after initialisation and after an update. *)
Lemma lg_start : forall p mean var m, lp_normal p = Some (mean, var) -> lg_init p = Ok m -> lg_good p mean m /\ 0 < lp_step p /\ (1 <= lp_H p)%nat.
Proof.
  intros p mean var m Hn E. assert (HH : (1 <= lp_H p)%nat). { unfold lg_init in E. destruct (lp_H p =? 0)%nat eqn:Z; [discriminate|]. apply Nat.eqb_neq in Z. lia. }
  destruct (C113_initialised p mean var HH Hn) as [I1 I2].
  destruct (Classical_Prop.classic (lspd var /\ length mean = length var /\ 0 < lp_step p)) as [K|K].
  - destruct (I1 K) as (s & Es & A & _ & _ & _ & _ & B & C). rewrite E in Es. injection Es as <-. split; [split; auto|]. split; [apply K|exact HH].
  - destruct (I2 K) as (msg & Q). rewrite E in Q. discriminate.
Qed.
Lemma lg_up_good : forall (G : gen) (M : mgen G) p mean var rows al s r, lp_normal p = Some (mean, var) -> 0 < lp_step p -> lg_good p mean s -> covers (length mean) rows al ->
  exists s' r', lg_update M p rows al (s, r) = Ok (s', r') /\ lg_good p mean s'.
Proof.
  intros G M p mean var rows al s r Hn Hs (A & B & C) Hc.
  destruct (C113_update G M p mean var rows al s r Hn Hs A B Hc) as (s' & r' & E & Q1 & Q2 & _ & Q3 & _).
  exists s', r'. split; [exact E|]. split; [exact Q3|]. rewrite Q2. split; [exact B|]. congruence.
Qed.
