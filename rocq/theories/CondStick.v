(** * Blocked Gibbs with the truncated stick-breaking mixing: proofs. *)
From Coq Require Import String.
From Coq Require Import Bool List Arith ZArith Reals Lra Lia.
From Verif Require Import Base Hier Algos Run Spec MargFacts NealFacts MargMore InitFacts MargProps ValidRun.
From Verif Require Import XReal Stick SliceFacts StickFacts Cond CondFacts CondProps UnivInst UnivRun CondInst CondRun.
Import ListNotations.
Local Open Scope R_scope.

(** Beta variables lie strictly between zero and one. *)
Definition beta_ok {T : Type} (bet : R -> R -> T -> R * T) : Prop := forall a b r, 0 < a -> 0 < b -> 0 < fst (bet a b r) < 1.

(** What initialisation does not check: a Pitman-Yor strength above zero, and
    positive shapes for the last of the fixed sticks. *)
Definition proper_shapes (p : sbprior numR) : Prop :=
  match p with
  | BetaPriors _ l => forall q, In q l -> 0 < fst q /\ 0 < snd q
  | DpPrior _ _ => True
  | PyPrior _ s _ => 0 < s
  end.

(** The prior parameters of an initialised mixing with proper shapes. *)
Definition prior_good (p : sbprior numR) (nc : nat) : Prop :=
  match p with
  | BetaPriors _ l => length l = nc /\ forall q, In q l -> 0 < fst q /\ 0 < snd q
  | DpPrior _ m => 0 < m
  | PyPrior _ s d => 0 < s /\ 0 <= d < 1
  end.
Lemma init_good : forall p inf nc (m : sb numR), sb_init p inf nc = Ok m -> proper_shapes p -> prior_good p nc.
Proof.
  intros p inf nc m E H. unfold sb_init in E. apply rbind_ok in E. destruct E as (u & E & _). destruct p as [l|t|s d]; cbn [prior_good proper_shapes] in *.
  - destruct (negb (length l =? nc)%nat) eqn:El; [discriminate|]. apply negb_false_iff, Nat.eqb_eq in El. auto.
  - destruct (nltb numR (n0 numR) t) eqn:Et; [|discriminate]. now apply ltb_R in Et.
  - destruct (nleb numR s (nsub numR (n0 numR) d)); [discriminate|]. destruct (nltb numR d (n0 numR) || nleb numR (n1 numR) d)%bool eqn:Ed; [discriminate|].
    apply orb_false_iff in Ed. destruct Ed as [D1 D2]. apply ltb_R_false in D1. cbn in D1. split; [exact H|]. split; [exact D1|].
    unfold nleb in D2. apply negb_false_iff in D2. apply ltb_R in D2. exact D2.
Qed.

Lemma good_params : forall (m : sb numR) i, prior_good (sb_prior m) (sb_nc m) -> (i < sb_nc m)%nat ->
  exists q, get_beta_params m i = Ok q /\ 0 < fst q /\ 0 < snd q.
Proof.
  intros m i H Hi. unfold get_beta_params. destruct (sb_prior m) as [l|t|s d]; cbn [prior_good] in H.
  - destruct H as [Hl H]. replace (sb_nc m <=? i)%nat with false by (symmetry; apply Nat.leb_gt; exact Hi).
    destruct (at_ok l (i := i)) as (q & E & K); [lia|]. rewrite E. exists q. split; [reflexivity|]. apply H. eapply nth_error_In; eauto.
  - eexists. split; [reflexivity|]. cbn. lra.
  - eexists. split; [reflexivity|]. cbn. destruct H as [H1 H2]. pose proof (pos_INR i) as Pi. rewrite INR_IZR_INZ in Pi.
    assert (0 <= IZR (Z.of_nat i) * d) by (apply Rmult_le_pos; lra). lra.
Qed.
Lemma good_shapes : forall (m : sb numR), prior_good (sb_prior m) (sb_nc m) ->
  exists sh, prior_shapes m = Ok sh /\ length sh = sb_nc m /\ Forall (fun q => 0 < fst q /\ 0 < snd q) sh.
Proof.
  intros m H. unfold prior_shapes.
  assert (X : forall l, (forall i, In i l -> (i < sb_nc m)%nat) -> exists sh, rmap (get_beta_params m) l = Ok sh /\ length sh = length l /\ Forall (fun q => 0 < fst q /\ 0 < snd q) sh).
  { induction l as [|i l IH]; intros Hl; cbn [rmap]; [exists []; auto|].
    destruct (good_params m i H (Hl i (or_introl eq_refl))) as (q & Ep & Q). rewrite Ep. cbn [rbind].
    destruct (IH (fun j Hj => Hl j (or_intror Hj))) as (sh & E & El & F). rewrite E. cbn [rbind].
    exists (q :: sh). split; [reflexivity|]. split; [cbn; now f_equal|]. constructor; auto. }
  destruct (X (seq 0 (sb_nc m))) as (sh & E & El & F); [intros i Hi; apply in_seq in Hi; lia|]. rewrite seq_length in El. eauto.
Qed.

(** Mixings an iteration can start from and end in. *)
Definition sb_start (p : sbprior numR) (inf : bool) (nc : nat) (m : sb numR) : Prop :=
  sb_ok m /\ sb_prior m = p /\ sb_inf m = inf /\ sb_nc m = nc.
Definition sb_end (inf : bool) (nc : nat) (m : sb numR) : Prop :=
  length (sb_sticks m) = nc /\ Forall (fun v => 0 < v <= 1) (sb_sticks m) /\
  (if inf then Forall (fun v => v < 1) (sb_sticks m) else Forall (fun v => v < 1) (removelast (sb_sticks m)) /\ last (sb_sticks m) 0 = 1).

Lemma last_upd : forall (l : list R) x d, l <> [] -> last (upd l (length l - 1) x) d = x.
Proof.
  induction l as [|a l IH]; intros x d N; [congruence|]. destruct l as [|b l]; [reflexivity|].
  specialize (IH x d ltac:(discriminate)).
  assert (Q : upd (a :: b :: l) (length (a :: b :: l) - 1) x = a :: upd (b :: l) (length (b :: l) - 1) x).
  { cbn [length]. replace (S (S (length l)) - 1)%nat with (S (S (length l) - 1)) by lia. reflexivity. }
  rewrite Q. assert (N2 : upd (b :: l) (length (b :: l) - 1) x <> []).
  { intro E. apply (f_equal (@length R)) in E. rewrite upd_length in E. discriminate. }
  revert IH N2. generalize (upd (b :: l) (length (b :: l) - 1) x) as t. intros [|c t] IH N2; [congruence|exact IH].
Qed.

Section Update.
  Variable I : Iface.
  Variable data : list (Datum I).
  Hypothesis Hn : (1 <= length data)%nat.
  Variable bet : R -> R -> Rng I -> R * Rng I.
  Hypothesis Hb : beta_ok bet.

  Lemma sb_update_good : forall p inf nc (m : sb numR) ns r, sb_start p inf nc m -> prior_good p nc -> (1 <= nc)%nat -> length ns = nc ->
    exists m' r', sb_update (K:=numR) bet m (map Z.of_nat ns) r = Ok (m', r') /\ sb_start p inf nc m' /\ sb_end inf nc m'.
  Proof.
    intros p inf nc m ns r (Hm & Hp & Hi & Hc) G Hnc Hns. subst p inf nc.
    destruct (good_shapes m G) as (sh & Esh & Lsh & Fsh).
    destruct (@draw_ok_open I data Hn bet sh ns r) as (vs & r' & Ed); [exact (eq_trans Lsh (eq_sym Hns))|exact Fsh|].
    assert (Eup : exists m', sb_update (K:=numR) bet m (map Z.of_nat ns) r = Ok (m', r') /\ sb_prior m' = sb_prior m /\ sb_inf m' = sb_inf m /\ sb_nc m' = sb_nc m /\ length (sb_sticks m') = sb_nc m).
    { unfold sb_update. rewrite map_length, Hns, Nat.eqb_refl, Esh. cbn [rbind]. destruct Hm as (A & B & C).
      rewrite A, Nat.leb_refl, Ed. cbn [rbind].
      apply draw_sticks_spec in Ed; [|normN; congruence]. destruct Ed as [_ Dl].
      rewrite skipn_all2 by nlia. rewrite app_nil_r.
      assert (Est : exists st, (if sb_inf m then Ok vs else set_at vs (sb_nc m - 1) (n1 numR)) = Ok st /\ length st = sb_nc m).
      { destruct (sb_inf m); [exists vs; split; (normN; congruence)|]. rewrite set_at_ok by nlia. eexists. split; eauto. rewrite upd_length. normN; congruence. }
      destruct Est as (st & Est & Lst). rewrite Est. cbn [rbind]. unfold weights_from_sticks. rewrite Lst, Nat.leb_refl. cbn [rbind]. eexists. split; [reflexivity|]. auto. }
    destruct Eup as (m' & Eup & Ep & Ei & En & El). exists m', r'. split; [exact Eup|].
    destruct (@sb_update_spec _ bet m ns r m' r' Hm Hnc Hns Eup) as (sh' & vs' & _ & _ & Lv & D & Es & Ew).
    assert (Fv : Forall (fun v => 0 < v < 1) vs') by (eapply (@drawn_in I bet); [exact Hb|exact D]).
    split.
    - split; [|auto]. split; [normN; congruence|]. split; [exact Ew|]. intros l Hl. rewrite En. destruct Hm as (_ & _ & C). apply C. congruence.
    - split; [normN; congruence|].
      destruct (sb_inf m) eqn:Einf; rewrite Es.
      + split; eapply Forall_impl; try exact Fv; cbn; intros; lra.
      + rewrite <- Lv. split; [|split].
        * apply Forall_forall. intros v Hv. apply In_upd in Hv. destruct Hv as [->|Hv]; [lra|]. rewrite Forall_forall in Fv. specialize (Fv v Hv). lra.
        * rewrite (@removelast_upd_last I data Hn). apply Forall_forall. intros v Hv. apply In_removelast in Hv. rewrite Forall_forall in Fv. specialize (Fv v Hv). lra.
        * apply last_upd. destruct vs'; [cbn in Lv; lia|discriminate].
  Qed.
End Update.

Lemma logweights_length : forall l, length (logweights_from_sticks l) = length l.
Proof. intro l. unfold logweights_from_sticks. generalize (Fin 0). induction l as [|v t IH]; intro c; [reflexivity|]. cbn. f_equal. apply IH. Qed.
Lemma start_logweights : forall p inf nc m, sb_start p inf nc m -> length (sb_logweights m) = nc /\ sb_logweights m = logweights_from_sticks (sb_sticks m).
Proof.
  intros p inf nc m ((A & _) & _ & _ & C). unfold sb_logweights. rewrite firstn_all2 by lia. split; [|reflexivity]. rewrite logweights_length. exact (eq_trans A C).
Qed.

(** ** The program *)
Section Prog.
  Variable I : Iface.
  Variable L : laws I.
  Variable toW : xreal -> W I.
  Variable data : list (Datum I).
  Local Notation n := (length data).
  Local Notation covs := (repeat (cov0 I) n).
  Hypothesis Hrows : rows_ok I data (at_ covs).
  Variable GH : Hyp I -> Prop.
  Variable GS : St I -> Prop.
  Variable GM : Mix I -> Prop.
  Hypothesis HC : closed I data covs GH GS GM.
  Variable bet : R -> R -> Rng I -> R * Rng I.
  Hypothesis Hb : beta_ok bet.
  Local Notation J := (sb_iface I toW bet).

  Variable hy : Hyp I.
  Hypothesis Hhy : GH hy.
  Variable p : sbprior numR.
  Variable inf : bool.
  Variable nc : nat.
  Variable m : sb numR.
  Hypothesis Hm : sb_init p inf nc = Ok m.
  Hypothesis Hp : proper_shapes p.
  Hypothesis Hnc : (1 <= nc <= n)%nat.
  Variable pos : nat -> nat.
  Hypothesis Hpos : forall i, (pos i < nc)%nat.
  Variable st : St I.

  Theorem sb_program : forall maxiter burnin r, exists s out,
    blocked_run J (Ok hy) (Ok m) (fun m : sb numR => sb_nc m) data pos st maxiter burnin r = Ok (s, out) /\
    length out = (maxiter - burnin)%nat /\ forall snap, In snap out ->
      saved_components n nc (s_alloc snap) (s_clusters snap) /\ GH (s_hyp snap) /\ (forall q, In q (s_clusters snap) -> GS (fst q)) /\
      sb_end inf nc (Run.s_mix snap) /\ sb_logweights (Run.s_mix snap) = logweights_from_sticks (sb_sticks (Run.s_mix snap)).
  Proof.
    intros maxiter burnin r. unfold blocked_run. cbn [rbind].
    destruct (sb_init_spec _ _ _ Hm) as (A & B & C & D & _).
    assert (E : num_components J data (sb_nc m) = nc). { unfold num_components. rewrite D. replace (nc =? 0)%nat with false by (symmetry; apply Nat.eqb_neq; lia). reflexivity. }
    rewrite E, D.
    pose proof (init_good _ _ _ _ Hm Hp) as G.
    pose (P0 := fun x : Mix J => sb_start p inf nc x). pose (P1 := fun x : Mix J => sb_end inf nc x).
    assert (Hlw : forall x : Mix J, P0 x -> logweights_ok J data x nc).
    { intros x Hx i _. change (length (map toW (sb_logweights x)) = nc). rewrite map_length. apply (start_logweights _ _ _ _ Hx). }
    assert (Hup : forall (x : Mix J) ns al q, P0 x -> length ns = nc -> length al = n -> (forall c, In c al -> (c < nc)%nat) ->
      exists x' q', mix_update J x (map Z.of_nat ns) al q = Ok (x', q') /\ P0 x' /\ P1 x').
    { intros x ns al q Hx Hns _ _. apply (sb_update_good I data ltac:(lia) bet Hb p inf nc x ns q Hx G); [lia|exact Hns]. }
    assert (H0 : P0 m) by (split; auto).
    pose proof (with_mixing_closed I _ (fun x _ => map toW (sb_logweights x)) (fun x cards _ q => sb_update (K:=numR) bet x cards q) data covs GH GS GM HC) as HC'.
    destruct (blocked_complete J (with_mixing_laws I _ _ _ L) data covs Hrows nc P0 P1 Hlw Hup hy m pos (mkHier J [] 0%Z (stats0 I) st false None) H0 Hnc Hpos eq_refl maxiter burnin r) as (s & out & R).
    exists s, out. split; [exact R|].
    destruct (blocked_saved J (with_mixing_laws I _ _ _ L) data covs Hrows nc GH GS HC' P0 P1 Hlw Hup hy m pos (mkHier J [] 0%Z (stats0 I) st false None) Hhy H0 Hnc Hpos ltac:(discriminate) eq_refl maxiter burnin r s out R) as [K1 K2].
    split; [exact K1|]. intros snap Hin. destruct (K2 snap Hin) as (Q1 & Q2 & Q3 & Q4 & Q5). split; [exact Q1|]. split; [exact Q2|]. split; [exact Q5|]. split; [exact Q4|].
    exact (proj2 (start_logweights _ _ _ _ Q3)).
  Qed.
End Prog.

(** ** Fixed sticks: the last second shape must be positive too *)
Lemma draw_last_throws : forall (T : Type) (bet : R -> R -> T -> R * T) (sh : list (N numR * N numR)) ns r a b, length sh = length ns ->
  sh <> [] -> last sh (a, b) = (a, b) -> (b : R) <= 0 -> exists msg, draw_sticks numR bet sh (map Z.of_nat ns) r = Throw msg.
Proof.
  intros T bet sh. induction sh as [|[x y] sh IH]; intros [|k ns] r a b Hl N Hlast Hb; cbn [length] in Hl; try discriminate; [congruence|].
  cbn [map draw_sticks]. destruct sh as [|q sh].
  - destruct ns; [|discriminate]. cbn [last] in Hlast. injection Hlast as -> ->. cbn [map fold_right]. unfold beta_rng.
    assert (F : nltb numR (n0 numR) (nadd numR b (nofZ numR 0)) = false) by (apply ltb_R_false; cbn; lra).
    rewrite F, andb_false_r. cbn [rbind]. eauto.
  - unfold beta_rng at 1. match goal with |- context [if ?c then _ else _] => destruct c end; cbn [rbind]; [|eauto].
    match goal with |- context [bet ?u ?v ?w] => destruct (bet u v w) as [v1 r1] end.
    destruct (IH ns r1 a b ltac:(cbn in *; lia) ltac:(discriminate) Hlast Hb) as (msg & E). rewrite E. cbn [rbind]. eauto.
Qed.
Lemma beta_shapes : forall (m : sb numR) l, sb_prior m = BetaPriors numR l -> length l = sb_nc m -> prior_shapes m = Ok l.
Proof.
  intros m l Hp Hl. unfold prior_shapes.
  assert (X : forall suf pre : list (N numR * N numR), length (pre ++ suf) = sb_nc m -> rmap (fun i => if (sb_nc m <=? i)%nat then Throw "Requested stick exceeds fixed upper bound"%string else at_ (pre ++ suf) i) (seq (length pre) (length suf)) = Ok suf).
  { induction suf as [|x suf IH]; intros pre H; [reflexivity|]. cbn [length seq rmap]. rewrite app_length in H. cbn [length] in H.
    replace (sb_nc m <=? length pre)%nat with false by (symmetry; apply Nat.leb_gt; lia).
    assert (E : at_ (pre ++ x :: suf) (length pre) = Ok x) by (apply at_Some; rewrite nth_error_app2 by lia; now rewrite Nat.sub_diag).
    rewrite E. cbn [rbind]. specialize (IH (pre ++ [x])).
    assert (L1 : length (pre ++ [x]) = S (length pre)) by (rewrite app_length; cbn; lia).
    rewrite L1 in IH. rewrite <- app_assoc in IH. cbn [app] in IH. rewrite IH; [reflexivity|]. rewrite app_length. cbn [length]. lia. }
  specialize (X l [] Hl). cbn [app length] in X. rewrite Hl in X. rewrite <- X. unfold get_beta_params. rewrite Hp. reflexivity.
Qed.
Lemma sb_update_last : forall (T : Type) (bet : R -> R -> T -> R * T) (m : sb numR) l a b ns r, sb_ok m ->
  sb_prior m = BetaPriors numR l -> length l = sb_nc m -> l <> [] -> last l (a, b) = (a, b) -> (b : R) <= 0 -> length ns = sb_nc m ->
  exists msg, sb_update (K:=numR) bet m (map Z.of_nat ns) r = Throw msg.
Proof.
  intros T bet m l a b ns r Hm Hp Hl N La Hb Hns. unfold sb_update. rewrite map_length, Hns, Nat.eqb_refl, (beta_shapes m l Hp Hl). cbn [rbind].
  destruct Hm as (A & _). rewrite A, Nat.leb_refl.
  destruct (draw_last_throws T bet l ns r a b (eq_trans Hl (eq_sym Hns)) N La Hb) as (msg & E). rewrite E. cbn [rbind]. eauto.
Qed.
