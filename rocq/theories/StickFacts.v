(** * Stick-breaking over the reals: proofs. *)
From Coq Require Import String.
From Coq Require Import Bool List Arith ZArith Lia Reals Lra.
From Verif Require Import Base Hier Algos Spec MargFacts NealFacts InitFacts MargMore Stick Cond CondFacts SliceFacts XReal.
Import ListNotations.
Set Implicit Arguments.
Local Open Scope R_scope.

Definition prodR (l : list R) : R := fold_right Rmult 1 l.
Definition sumR (l : list R) : R := fold_right Rplus 0 l.
Notation wgo := (weights_go numR).
Ltac normN := change (N numR) with R in *.
Ltac nlia := normN; lia.

Lemma fold_left_plus : forall l x, fold_left Rplus l x = x + sumR l.
Proof. induction l as [|y l IH]; intros x; simpl; [lra|]. rewrite IH. lra. Qed.

Lemma nsum_sumR : forall l, nsum numR l = sumR l.
Proof. intros l. unfold nsum. simpl. rewrite fold_left_plus. simpl. lra. Qed.

(** The part left after the sticks [l]. *)
Definition rest (l : list R) : R := prodR (map (fun v => 1 - v) l).

Lemma weights_nth : forall (l : list R) (x : R) h v, nth_error l h = Some v ->
  nth_error (wgo x l) h = Some (v * (x * rest (firstn h l))).
Proof.
  induction l as [|y l IH]; intros x [|h] v H; simpl in *; try discriminate.
  - injection H as <-. f_equal. unfold rest. simpl. lra.
  - rewrite (IH (x * (1 - y)) h v H). f_equal. unfold rest. simpl. lra.
Qed.

Lemma weights_sum : forall (l : list R) (x : R), sumR (wgo x l) = x * (1 - rest l).
Proof.
  induction l as [|y l IH]; intros x; simpl.
  - unfold rest. simpl. lra.
  - rewrite IH. unfold rest. simpl. fold (rest l). lra.
Qed.

Lemma wgo_app : forall (l t : list R) (x : R), wgo x (l ++ t) = wgo x l ++ wgo (x * rest l) t.
Proof.
  induction l as [|y l IH]; intros t x; simpl.
  - unfold rest. simpl. f_equal. lra.
  - rewrite IH. f_equal. f_equal. f_equal. unfold rest. simpl. lra.
Qed.

Lemma rest_unit : forall l, Forall (fun v => 0 <= v <= 1) l -> 0 <= rest l <= 1.
Proof.
  intros l H. unfold rest. induction H as [|v l Hv Hl IH]; simpl; [lra|].
  split.
  - apply Rmult_le_pos; lra.
  - match goal with |- ?a * ?b <= 1 => assert (a * b <= 1 * 1) by (apply Rmult_le_compat; lra) end. lra.
Qed.

Lemma rest_open : forall l, Forall (fun v => 0 < v < 1) l -> 0 < rest l.
Proof.
  intros l H. unfold rest. induction H as [|v l Hv Hl IH]; simpl; [lra|]. apply Rmult_lt_0_compat; lra.
Qed.

Lemma weights_nonneg : forall (l : list R) (x : R), 0 <= x -> Forall (fun v => 0 <= v <= 1) l -> Forall (fun w => 0 <= w) (wgo x l).
Proof.
  induction l as [|v l IH]; intros x Hx H; simpl; constructor; inversion H; subst.
  - apply Rmult_le_pos; lra.
  - apply IH; auto. apply Rmult_le_pos; lra.
Qed.

Lemma rest_last_one : forall l, l <> [] -> last l 0 = 1 -> rest l = 0.
Proof.
  intros l Hne H. destruct (exists_last Hne) as (t & v & ->). rewrite last_last in H. subst v.
  unfold rest. rewrite map_app. simpl. induction t as [|y t IH]; simpl; [lra|].
  rewrite IH. lra. destruct t; discriminate.
Qed.

Lemma log_scale : forall l c, Forall (fun v => 0 <= v <= 1) l ->
  map xexp (logweights_go c l) = wgo (xexp c) l.
Proof.
  induction l as [|v l IH]; intros c H; simpl; auto. inversion H; subst.
  rewrite IH by auto. rewrite !xexp_add, !xexp_log by lra. reflexivity.
Qed.

(** ** Full conditional of the sticks *)

Definition tail_sums (ns : list nat) : list nat :=
  (fix go l := match l with [] => [] | _ :: t => list_sum t :: go t end) ns.

(** Likelihood of the allocations: each weight to the power of its count. *)
Fixpoint alloc_like (ws : list R) (ns : list nat) : R :=
  match ws, ns with
  | w :: ws', k :: ns' => w ^ k * alloc_like ws' ns'
  | _, _ => 1
  end.

Fixpoint stick_like (vs : list R) (ns : list nat) : R :=
  match vs, ns with
  | v :: vs', k :: ns' => v ^ k * (1 - v) ^ (list_sum ns') * stick_like vs' ns'
  | _, _ => 1
  end.

Lemma alloc_like_sticks : forall (vs : list R) ns (x : R), length vs = length ns ->
  alloc_like (wgo x vs) ns = x ^ (list_sum ns) * stick_like vs ns.
Proof.
  induction vs as [|v vs IH]; intros [|k ns] x H; simpl in H; try discriminate; simpl; [lra|].
  rewrite (IH ns (x * (1 - v))) by congruence. change (fold_right Init.Nat.add 0%nat ns) with (list_sum ns).
  rewrite pow_add, !Rpow_mult_distr. ring.
Qed.

(** Unnormalised Beta density. *)
Definition beta_kernel (a b v : R) : R := Rpower v (a - 1) * Rpower (1 - v) (b - 1).

Fixpoint beta_kernels (sh : list (R * R)) (vs : list R) : R :=
  match sh, vs with
  | (a, b) :: sh', v :: vs' => beta_kernel a b v * beta_kernels sh' vs'
  | _, _ => 1
  end.

Fixpoint shapes_after (sh : list (R * R)) (ns : list nat) : list (R * R) :=
  match sh, ns with
  | (a, b) :: sh', k :: ns' => (a + INR k, b + INR (list_sum ns')) :: shapes_after sh' ns'
  | _, _ => []
  end.

Lemma kernels_after : forall vs sh ns, length vs = length ns -> length sh = length ns ->
  Forall (fun v => 0 < v < 1) vs ->
  stick_like vs ns * beta_kernels sh vs = beta_kernels (shapes_after sh ns) vs.
Proof.
  induction vs as [|v vs IH]; intros [|[a b] sh] [|k ns] H1 H2 HF; simpl in H1, H2; try discriminate; simpl; [lra|].
  inversion HF as [|? ? Hv HF']; subst. rewrite <- (IH sh ns) by (auto; lia).
  change (fold_right Init.Nat.add 0%nat ns) with (list_sum ns).
  unfold beta_kernel.
  replace (a + INR k - 1) with (INR k + (a - 1)) by lra.
  replace (b + INR (list_sum ns) - 1) with (INR (list_sum ns) + (b - 1)) by lra.
  rewrite (Rpower_plus (INR k)), (Rpower_plus (INR (list_sum ns))).
  rewrite !Rpower_pow by lra. ring.
Qed.

Lemma full_conditional : forall (vs : list R) sh ns, length vs = length ns -> length sh = length ns ->
  Forall (fun v => 0 < v < 1) vs ->
  alloc_like (wgo 1 vs) ns * beta_kernels sh vs = beta_kernels (shapes_after sh ns) vs.
Proof.
  intros. rewrite alloc_like_sticks by auto. rewrite pow1, Rmult_1_l. apply kernels_after; auto.
Qed.

(** ** The update draws from these shapes *)
Section Upd.
Variable Rng : Type.
Variable beta : R -> R -> Rng -> R * Rng.

(** [vs] drawn one after the other with the shapes [sh]. *)
Fixpoint drawn (sh : list (R * R)) (vs : list R) (r r' : Rng) : Prop :=
  match sh, vs with
  | (a, b) :: sh', v :: vs' => 0 < a /\ 0 < b /\ exists r1, beta a b r = (v, r1) /\ drawn sh' vs' r1 r'
  | [], [] => r = r'
  | _, _ => False
  end.

Lemma list_sum_Z : forall ns, fold_right Z.add 0%Z (map Z.of_nat ns) = Z.of_nat (list_sum ns).
Proof. induction ns; simpl; auto. rewrite IHns. rewrite Nat2Z.inj_add. auto. Qed.

Lemma ltb_R : forall x y, nltb numR x y = true <-> x < y.
Proof. intros. simpl. destruct (Rlt_dec x y); split; intros; auto; discriminate. Qed.

Lemma ltb_R_false : forall x y, nltb numR x y = false <-> y <= x.
Proof. intros. simpl. destruct (Rlt_dec x y); split; intros; auto; try discriminate; lra. Qed.

Lemma draw_sticks_spec : forall sh ns r vs r', length sh = length ns ->
  draw_sticks numR beta sh (map Z.of_nat ns) r = Ok (vs, r') ->
  drawn (shapes_after sh ns) vs r r' /\ length vs = length ns.
Proof.
  induction sh as [|[a b] sh IH]; intros [|k ns] r vs r' Hl H; simpl in Hl; try discriminate; simpl in H.
  - injection H as <- <-. simpl. auto.
  - rinv H p. destruct p as [v r1]. rinv H p. destruct p as [vs2 r2]. injection H as <- <-.
    rewrite list_sum_Z, <- !INR_IZR_INZ in E.
    unfold beta_rng in E. destruct (nltb numR (n0 numR) _) eqn:Ea in E; [|discriminate].
    destruct (nltb numR (n0 numR) _) eqn:Eb in E; [|discriminate].
    apply ltb_R in Ea, Eb. simpl in E. injection E as E.
    destruct (IH ns r1 vs2 r2) as [D Dl]; auto.
    simpl. split; [|auto]. split; [exact Ea|]. split; [exact Eb|]. exists r1. auto.
Qed.

Lemma sb_update_spec : forall (m : sb numR) ns r m' r', sb_ok m -> (1 <= sb_nc m)%nat -> length ns = sb_nc m ->
  sb_update (K:=numR) beta m (map Z.of_nat ns) r = Ok (m', r') ->
  exists sh vs, rmap (get_beta_params m) (seq 0 (sb_nc m)) = Ok sh /\ length sh = sb_nc m /\ length vs = sb_nc m /\
    drawn (shapes_after sh ns) vs r r' /\
    sb_sticks m' = (if sb_inf m then vs else upd vs (sb_nc m - 1) 1) /\
    sb_w m' = wgo 1 (sb_sticks m').
Proof.
  intros m ns r m' r' Hm Hnc Hns H. unfold sb_update in H. rewrite map_length, Hns, Nat.eqb_refl in H.
  pose proof (prior_shapes_safe Hm) as PS. unfold prior_shapes in *.
  destruct (rmap (get_beta_params m) (seq 0 (sb_nc m))) as [sh| | |]; try discriminate. simpl in PS. cbn [rbind] in H.
  destruct Hm as (A & B & C). rewrite A, Nat.leb_refl in H.
  rinv H p. destruct p as [vs r1]. apply draw_sticks_spec in E; [|(normN; congruence)]. destruct E as [D Dl].
  rewrite skipn_all2 in H by nlia. rewrite app_nil_r in H.
  exists sh, vs. split; auto. split; auto. split; [(normN; congruence)|].
  rinv H st. rinv H w. injection H as <- <-. simpl.
  assert (Est : st = if sb_inf m then vs else upd vs (sb_nc m - 1) 1).
  { destruct (sb_inf m); [(normN; congruence)|]. rewrite set_at_ok in E by nlia. simpl in E. (normN; congruence). }
  split; auto. split; auto. unfold weights_from_sticks in E0.
  assert (Hl : length st = sb_nc m). { rewrite Est. destruct (sb_inf m); [|rewrite upd_length]; (normN; congruence). }
  rewrite Hl, Nat.leb_refl, firstn_all2 in E0 by nlia. simpl in E0. (normN; congruence).
Qed.

End Upd.

(** ** Initialisation *)

(** Every shape parameter the prior gives to the first [k] sticks is positive. *)
Definition shapes_positive (m : sb numR) (k : nat) : Prop :=
  forall i a b, (i < k)%nat -> get_beta_params m i = Ok (a, b) -> 0 < a /\ 0 < b.

Lemma Forall2_len : forall A B (P : A -> B -> Prop) l l', Forall2 P l l' -> length l = length l'.
Proof. induction 1; simpl; auto. Qed.

Lemma rmap_inv : forall A B (f : A -> res B) l ys, rmap f l = Ok ys -> Forall2 (fun x y => f x = Ok y) l ys.
Proof.
  induction l as [|x l IH]; intros ys H; simpl in H.
  - injection H as <-. constructor.
  - rinv H y. rinv H t. injection H as <-. constructor; auto.
Qed.

Lemma sb_init_spec : forall p inf nc (m : sb numR), sb_init p inf nc = Ok m ->
  sb_ok m /\ sb_prior m = p /\ sb_inf m = inf /\ sb_nc m = nc /\
  exists sh, Forall2 (fun i q => get_beta_params m i = Ok q) (seq 0 nc) sh /\
    sb_sticks m = map (fun q => fst q / (fst q + snd q)) sh.
Proof.
  intros p inf nc m H. unfold sb_init in H. rinv H u. rinv H sh. rinv H w. injection H as <-.
  apply rmap_inv in E0. simpl in E0.
  assert (Hl : length sh = nc). { apply Forall2_len in E0. rewrite seq_length in E0. auto. }
  unfold weights_from_sticks in E1. rewrite map_length, Hl, Nat.leb_refl in E1.
  rewrite firstn_all2 in E1 by (rewrite map_length; nlia). simpl in E1. injection E1 as <-.
  split; [|simpl; split; [auto|split; [auto|split; [auto|]]]].
  - split; [|split]; simpl; auto.
    + rewrite map_length. auto.
    + intros l ->. match type of E with (if negb ?b then _ else _) = _ => destruct b eqn:El end; [|discriminate].
      apply Nat.eqb_eq in El. rewrite <- El. apply le_n.
  - exists sh. split; auto.
Qed.

Lemma init_sum_lt1 : forall p inf nc (m : sb numR), sb_init p inf nc = Ok m ->
  shapes_positive m nc -> sumR (sb_w m) < 1 /\ Forall (fun w => 0 < w) (sb_w m).
Proof.
  intros p inf nc m H Hpos. apply sb_init_spec in H. destruct H as ((A & B & C) & _ & _ & En & sh & F & Es).
  assert (U : Forall (fun v => 0 < v < 1) (sb_sticks m)).
  { rewrite Es. apply Forall_forall. intros v Hv. apply in_map_iff in Hv. destruct Hv as ([a b] & <- & Hq).
    assert (X : exists i, (i < nc)%nat /\ get_beta_params m i = Ok (a, b)).
    { clear - F Hq. assert (G : forall l sh, Forall2 (fun i q => get_beta_params m i = Ok q) l sh -> In (a, b) sh ->
         exists i, In i l /\ get_beta_params m i = Ok (a, b)).
      { induction 1 as [|i q l t Hi Ht IH]; [intros []|]. intros [Hx|Hx].
        - subst q. exists i. simpl; auto.
        - destruct (IH Hx) as (j & J & K). exists j. simpl; auto. }
      destruct (G _ _ F Hq) as (i & Hi & E). exists i. split; auto. apply in_seq in Hi. nlia. }
    destruct X as (i & Hi & E). destruct (Hpos i a b Hi E) as [Ha Hb]. simpl.
    split; [apply Rdiv_lt_0_compat; lra|]. apply Rmult_lt_reg_r with (a + b); [lra|]. unfold Rdiv.
    rewrite Rmult_assoc, Rinv_l by lra. lra. }
  rewrite B. rewrite weights_sum. pose proof (rest_open U). simpl n1. split; [lra|].
  clear - U. simpl n1. assert (G : forall (l : list R) (x : R), 0 < x -> Forall (fun v => 0 < v < 1) l -> Forall (fun w => 0 < w) (wgo x l)).
  { induction l as [|v l IH]; intros x Hx H; simpl; constructor; inversion H; subst.
    - apply Rmult_lt_0_compat; lra.
    - apply IH; auto. apply Rmult_lt_0_compat; lra. }
  apply G; auto. lra.
Qed.

Lemma keep_breaking_beta_throws : forall Rng (beta : R -> R -> Rng -> R * Rng) junk (m : sb numR) r l,
  sb_prior m = BetaPriors numR l -> sb_ok m ->
  exists m' e, keep_breaking1 (K:=numR) beta junk m r = (m', Throw e) /\
    sb_nc m' = sb_nc m /\ length (sb_sticks m') = S (sb_nc m) /\ sb_w m' = sb_w m.
Proof.
  intros Rng beta junk m r l Hp (A & _). unfold keep_breaking1.
  match goal with |- context [get_beta_params ?s _] => set (s1 := s) end.
  assert (E : get_beta_params s1 (sb_nc m) = Throw "Requested stick exceeds fixed upper bound").
  { unfold get_beta_params, s1. simpl. rewrite Hp, Nat.leb_refl. auto. }
  rewrite E. simpl. eexists. eexists. split; [reflexivity|]. simpl. split; auto. split; auto.
  rewrite app_length, firstn_length. simpl. nlia.
Qed.

(** ** Slice sampler over the reals *)
Section SliceR.
Variable I : Iface.
Variable L : laws I.
Variable data : list (Datum I).
Variable covs : list (Cov I).
Notation n := (length data).
Hypothesis Hrows : rows_ok I data (at_ covs).
Hypothesis Hn : (1 <= n)%nat.
Variable beta : R -> R -> Rng I -> R * Rng I.
Variable unif01 : R -> Rng I -> R * Rng I.
Variable tiny junk : R.
Hypothesis beta_in : forall a b r, 0 < a -> 0 < b -> 0 < fst (beta a b r) < 1.
Hypothesis unif_in : forall w r, 0 < w -> 0 <= fst (unif01 w r) < w.
Hypothesis tiny_pos : 0 < tiny.

(** A prior that can produce any number of sticks. *)
Definition open_prior (p : sbprior numR) : Prop :=
  match p with
  | BetaPriors _ _ => False
  | DpPrior _ m => 0 < m
  | PyPrior _ s d => 0 < s /\ 0 <= d < 1
  end.

Lemma open_params : forall (m : sb numR) i, open_prior (sb_prior m) ->
  exists a b, get_beta_params m i = Ok (a, b) /\ 0 < a /\ 0 < b.
Proof.
  intros m i H. unfold get_beta_params. destruct (sb_prior m) as [l|ms|s d]; simpl in H; [contradiction| |].
  - exists 1, ms. simpl. split; auto. lra.
  - exists (1 - d), (s + IZR (Z.of_nat i) * d). simpl. split; auto. split; [lra|].
    assert (0 <= IZR (Z.of_nat i)) by (apply IZR_le; nlia).
    assert (0 <= IZR (Z.of_nat i) * d) by (apply Rmult_le_pos; lra). lra.
Qed.

(** All sticks in (0,1], only the last may be one. *)
Definition sticks_good (l : list R) : Prop :=
  Forall (fun v => 0 < v <= 1) l /\ Forall (fun v => v < 1) (removelast l).

Lemma sticks_good_firstn : forall l k, sticks_good l -> sticks_good (firstn k l).
Proof.
  intros l k [A B]. split.
  - apply Forall_forall. intros v Hv. rewrite Forall_forall in A. apply A.
    rewrite <- (firstn_skipn k l). apply in_app_iff. auto.
  - revert k B. induction l as [|v l IH]; intros [|k] B; simpl; auto.
    destruct l as [|w l]; [destruct k; simpl; auto|].
    simpl in B. inversion B; subst. inversion A; subst. specialize (IH ltac:(auto) k ltac:(auto)).
    destruct k; [simpl; constructor|]. simpl in IH |- *. constructor; auto.
Qed.

Lemma sticks_good_weights : forall (l : list R) (x : R), 0 < x -> sticks_good l -> Forall (fun w => 0 < w) (wgo x l).
Proof.
  induction l as [|v l IH]; intros x Hx [A B]; simpl; constructor; inversion A; subst.
  - apply Rmult_lt_0_compat; lra.
  - destruct l as [|w l]; [constructor|]. simpl in B. inversion B; subst. apply IH.
    + apply Rmult_lt_0_compat; lra.
    + split; auto.
Qed.

Lemma drawn_in : forall sh vs r r', drawn beta sh vs r r' -> Forall (fun v => 0 < v < 1) vs.
Proof.
  induction sh as [|[a b] sh IH]; intros [|v vs] r r' H; simpl in H; try contradiction; auto.
  destruct H as (Ha & Hb & r1 & E & H). constructor; eauto. pose proof (@beta_in a b r Ha Hb). rewrite E in H0. auto.
Qed.

Lemma removelast_upd_last : forall (l : list R) x, removelast (upd l (length l - 1) x) = removelast l.
Proof.
  intros l x. destruct l as [|v l]; auto. destruct (@exists_last _ (v :: l)) as (t & y & E); [discriminate|].
  rewrite E. rewrite app_length. simpl. replace (length t + 1 - 1)%nat with (length t) by nlia.
  assert (U : upd (t ++ [y]) (length t) x = t ++ [x]) by (clear; induction t; simpl; (normN; congruence)).
  rewrite U, !removelast_last. auto.
Qed.

Lemma In_removelast : forall (l : list R) v, In v (removelast l) -> In v l.
Proof.
  intros l v H. destruct l as [|y l]; [auto|]. destruct (@exists_last _ (y :: l)) as (t & z & E); [discriminate|].
  rewrite E in *. rewrite removelast_last in H. apply in_app_iff. auto.
Qed.

Lemma draw_ok_open : forall sh ns r, length sh = length ns -> Forall (fun q => 0 < fst q /\ 0 < snd q) sh ->
  exists vs r', draw_sticks numR beta sh (map Z.of_nat ns) r = Ok (vs, r').
Proof.
  induction sh as [|[a b] sh IH]; intros [|k ns] r Hl HF; simpl in Hl; try discriminate; simpl; eauto.
  inversion HF as [|? ? [Ha Hb] HF']; subst. simpl in Ha, Hb.
  rewrite list_sum_Z. unfold beta_rng.
  assert (P1 : 0 < a + IZR (Z.of_nat k)). { assert (0 <= IZR (Z.of_nat k)) by (apply IZR_le; nlia). lra. }
  assert (P2 : 0 < b + IZR (Z.of_nat (list_sum ns))). { assert (0 <= IZR (Z.of_nat (list_sum ns))) by (apply IZR_le; nlia). lra. }
  apply ltb_R in P1, P2. simpl in P1, P2 |- *. rewrite P1, P2. simpl.
  match goal with |- context [beta ?x ?y ?z] => destruct (beta x y z) as [v r1] end. cbn [rbind].
  destruct (IH ns r1) as (vs & r' & E); auto. rewrite E. simpl. eauto.
Qed.

Lemma sb_update_open : forall (m : sb numR) ns r, sb_ok m -> (1 <= sb_nc m)%nat -> length ns = sb_nc m ->
  open_prior (sb_prior m) ->
  exists m' r', sb_update (K:=numR) beta m (map Z.of_nat ns) r = Ok (m', r') /\ sticks_good (sb_sticks m').
Proof.
  intros m ns r Hm Hnc Hns Hop.
  assert (Hsh : exists sh, prior_shapes m = Ok sh /\ length sh = sb_nc m /\ Forall (fun q => 0 < fst q /\ 0 < snd q) sh).
  { unfold prior_shapes. assert (X : forall l, exists sh, rmap (get_beta_params m) l = Ok sh /\ length sh = length l /\
        Forall (fun q => 0 < fst q /\ 0 < snd q) sh).
    { induction l as [|i l (sh & E & El & F)]; cbn [rmap]; [exists []; auto|].
      destruct (@open_params m i Hop) as (a & b & Ep & Ha & Hb). rewrite Ep. cbn [rbind]. rewrite E. cbn [rbind].
      exists ((a, b) :: sh). split; auto. split; [simpl; auto|]. constructor; auto. }
    destruct (X (seq 0 (sb_nc m))) as (sh & E & El & F). rewrite seq_length in El. eauto. }
  destruct Hsh as (sh & Esh & Lsh & Fsh).
  destruct (@draw_ok_open sh ns r) as (vs & r' & Ed); [(normN; congruence)|auto|].
  assert (Eup : exists m', sb_update (K:=numR) beta m (map Z.of_nat ns) r = Ok (m', r')).
  { unfold sb_update. rewrite map_length, Hns, Nat.eqb_refl, Esh. cbn [rbind]. destruct Hm as (A & B & C).
    rewrite A, Nat.leb_refl, Ed. cbn [rbind].
    apply draw_sticks_spec in Ed; [|(normN; congruence)]. destruct Ed as [_ Dl].
    rewrite skipn_all2 by nlia. rewrite app_nil_r.
    assert (Est : exists st, (if sb_inf m then Ok vs else set_at vs (sb_nc m - 1) (n1 numR)) = Ok st /\ length st = sb_nc m).
    { destruct (sb_inf m); [exists vs; split; (normN; congruence)|]. rewrite set_at_ok by nlia. eexists. split; eauto. rewrite upd_length. (normN; congruence). }
    destruct Est as (st & Est & Lst). rewrite Est. cbn [rbind]. unfold weights_from_sticks. rewrite Lst, Nat.leb_refl. simpl. eauto. }
  destruct Eup as (m' & Eup). exists m', r'. split; auto.
  apply sb_update_spec in Eup; auto. destruct Eup as (sh' & vs' & _ & _ & Lv & D & Es & _).
  apply drawn_in in D. rewrite Es.
  assert (G : sticks_good vs').
  { split; [eapply Forall_impl; [|exact D]; simpl; intros; lra|].
    apply Forall_forall. intros v Hv. apply In_removelast in Hv. rewrite Forall_forall in D. apply D in Hv. lra. }
  destruct (sb_inf m); auto. rewrite <- Lv. destruct G as [G1 G2]. split.
  - apply Forall_forall. intros v Hv. apply In_upd in Hv. destruct Hv as [->|Hv]; [lra|].
    rewrite Forall_forall in G1. auto.
  - rewrite removelast_upd_last. auto.
Qed.

Lemma sticks_good_open : forall l v, 0 < rest l -> sticks_good l -> 0 < v < 1 -> sticks_good (l ++ [v]).
Proof.
  intros l v Hr [A B] Hv. split.
  - apply Forall_app. split; auto. constructor; auto. lra.
  - rewrite removelast_last. apply Forall_forall. intros w Hw. rewrite Forall_forall in A. specialize (A w Hw).
    destruct (Rlt_dec w 1); auto. assert (w = 1) by lra. subst w. exfalso.
    assert (rest l = 0). { clear - Hw. unfold rest. induction l as [|y l IH]; [destruct Hw|]. simpl. destruct Hw as [->|Hw]; [lra|]. rewrite IH; auto. lra. }
    lra.
Qed.

Lemma leb_R : forall x y, nleb numR x y = true <-> x <= y.
Proof. intros. unfold nleb. rewrite negb_true_iff. apply ltb_R_false. Qed.

(** The loop never throws with an open prior, and when it ends the represented
    weight exceeds the bound. *)
Lemma break_loop_open : forall fuel bound (m : sb numR) r x, sb_ok m -> open_prior (sb_prior m) ->
  sticks_good (sb_sticks m) -> bound < 1 ->
  break_loop (K:=numR) beta junk fuel bound (nsum numR (sb_w m)) m r = Some x ->
  exists m' r', x = Ok (m', r') /\ sb_ok m' /\ sticks_good (sb_sticks m') /\ bound < sumR (sb_w m').
Proof.
  induction fuel as [|f IH]; intros bound m r x Hm Hop Hg Hb H; simpl in H.
  - destruct (nleb numR (nsum numR (sb_w m)) bound) eqn:E; [discriminate|]. injection H as <-.
    exists m, r. split; auto. split; auto. split; auto. rewrite nsum_sumR in E.
    destruct (Rle_dec (sumR (sb_w m)) bound) as [Hle|Hle]; [apply leb_R in Hle; (normN; congruence)|lra].
  - destruct (nleb numR (nsum numR (sb_w m)) bound) eqn:E.
    + destruct (keep_breaking1 (K:=numR) beta junk m r) as [m1 y] eqn:Ek. pose proof Ek as Ek2.
      apply leb_R in E. rewrite nsum_sumR in E.
      assert (Hr : 0 < rest (sb_sticks m)).
      { destruct Hm as (_ & B & _). rewrite B, weights_sum in E. simpl in E. lra. }
      apply keep_breaking1_ok in Ek; auto. destruct Ek as [(e & ->)|(dw & r' & v & -> & Hm' & _ & Es & Ep & Ei & Edw & _ & a & b & r0 & Eg & Ea & Eb & Ev)].
      * exfalso. clear H. unfold keep_breaking1 in Ek2.
        match type of Ek2 with context [get_beta_params ?s ?i] => destruct (@open_params s i) as (a & b & Eg & Ha & Hb2) end; [exact Hop|].
        rewrite Eg in Ek2. cbn [rbind fst snd] in Ek2. unfold beta_rng in Ek2.
        apply ltb_R in Ha, Hb2. simpl n0 in Ek2. rewrite Ha, Hb2 in Ek2. simpl in Ek2.
        destruct (beta a b r) as [v r']. (normN; congruence).
      * rewrite Edw in H. simpl in H.
        replace (nsum numR (sb_w m) + (nsum numR (sb_w m1) - nsum numR (sb_w m))) with (nsum numR (sb_w m1)) in H by lra.
        apply IH in H; auto; [(normN; congruence)|]. rewrite Es. apply sticks_good_open; auto.
        apply ltb_R in Ea, Eb. pose proof (@beta_in a b r Ea Eb) as Q. rewrite Ev in Q. auto.
    + injection H as <-. exists m, r. split; auto. split; auto. split; auto. rewrite nsum_sumR in E.
      destruct (Rle_dec (sumR (sb_w m)) bound) as [Hle|Hle]; [apply leb_R in Hle; (normN; congruence)|lra].
Qed.

Lemma fold_nmin : forall us u0, (fold_left (nmin numR) us u0 <= u0) /\ (forall u, In u us -> fold_left (nmin numR) us u0 <= u) /\
  (In (fold_left (nmin numR) us u0) (u0 :: us)).
Proof.
  induction us as [|u us IH]; intros u0; simpl; [split; [lra|split; [intros u []|auto]]|].
  destruct (IH (nmin numR u0 u)) as (A & B & C).
  assert (M : nmin numR u0 u <= u0 /\ nmin numR u0 u <= u /\ (nmin numR u0 u = u0 \/ nmin numR u0 u = u)).
  { unfold nmin. destruct (nltb numR u u0) eqn:E; [apply ltb_R in E|apply ltb_R_false in E]; simpl in *; split; try split; try lra; auto. }
  destruct M as (M1 & M2 & M3). split; [exact (Rle_trans _ _ _ A M1)|]. split.
  - intros w [<- | Hw]; [exact (Rle_trans _ _ _ A M2)|exact (B w Hw)].
  - simpl in C. destruct C as [C|C]; [|auto]. destruct M3 as [M3|M3]; rewrite M3 in C; [|].
    + left. (normN; congruence).
    + right. left. (normN; congruence).
Qed.

(** With an open prior the weights step cannot fail; afterwards every
    represented weight is positive and together they leave less than the
    smallest slice. *)
Lemma weights_step_open : forall fuel (s : slicer I numR) r x,
  SInv data covs s -> open_prior (sb_prior (s_mix s)) -> Forall (fun u => 0 < u) (s_u s) ->
  slice_sample_weights (K:=numR) beta junk fuel s r = Some x ->
  exists s2 r2, x = Ok (s2, r2) /\ SInv data covs s2 /\ a_alloc (s_alg s2) = a_alloc (s_alg s) /\
    Forall (fun w => 0 < w) (sb_w (s_mix s2)) /\
    (forall i u, nth_error (s_u s) i = Some u -> 1 - u < sumR (sb_w (s_mix s2))) /\
    Forall (fun v => 0 <= v <= 1) (sb_sticks (s_mix s2)).
Proof.
  intros fuel s r x HS Hop Hu H.
  pose proof (@slice_weights_safe I data covs Hn numR beta junk fuel s r HS) as W. rewrite H in W. simpl in W.
  unfold slice_sample_weights in H. unfold slice_new_sticks in H.
  pose proof HS as (HC & Hm & Hlen & Hul).
  assert (Hc : exists ns, map (@h_card I) (a_uv (s_alg s)) = map Z.of_nat ns /\ length ns = sb_nc (s_mix s)).
  { exists (map (fun h => length (h_ids h)) (a_uv (s_alg s))). rewrite map_length. split; auto. rewrite map_map.
    apply map_ext_in. intros h Hh. apply In_nth_error in Hh. destruct Hh as (c & Hc). destruct HC as [_ [_ H2]].
    destruct (H2 c h Hc) as (([_ [T2 _]] & _) & _). auto. }
  destruct Hc as (ns & Ens & Lns). rewrite Ens in H.
  pose proof (@CInv_uv_pos I data covs Hn (s_alg s) HC) as Hpos.
  destruct (@sb_update_open (s_mix s) ns r) as (m1 & r1 & E1 & G1); auto; [nlia|].
  pose proof (@sb_update_safe numR _ beta (s_mix s) (map Z.of_nat ns) r Hm ltac:(nlia)) as U.
  rewrite map_length in U. specialize (U Lns). rewrite E1 in U, H. simpl in U. destruct U as (Hm1 & Enc & Epr & Ein).
  destruct HC as [Hl [H1 H2]].
  destruct (a_alloc (s_alg s)) as [|c0 al] eqn:Eal; [simpl in Hl; nlia|].
  destruct (s_u s) as [|u0 us] eqn:Eu; [simpl in Hul; nlia|].
  destruct (S (fold_left Nat.max al c0) <=? length (sb_sticks m1)) eqn:Ek.
  2:{ injection H as <-. simpl in W. contradiction. }
  apply Nat.leb_le in Ek.
  destruct (@set_sticks_ok numR m1 (S (fold_left Nat.max al c0))) as [Hs2 Enc2]; [auto|destruct Hm1; nlia|].
  destruct (fold_nmin us u0) as (F1 & F2 & F3).
  set (mu := fold_left (nmin numR) us u0) in *.
  assert (Hmu : 0 < mu). { rewrite Forall_forall in Hu. apply Hu. exact F3. }
  match type of H with match ?b with _ => _ end = _ => destruct b as [y|] eqn:Eb end; [|discriminate].
  apply break_loop_open in Eb; auto.
  - destruct Eb as (m & r2 & -> & Hm2 & Hg2 & Hsum).
    match type of H with Some ?y = _ => set (z := y) in H end.
    injection H as <-. destruct z as [[s2 r3]| | |] eqn:Ez; simpl in W; try contradiction.
    + exists s2, r3. destruct W as (W1 & W2 & _). split; auto. split; auto. split; auto.
      subst z. apply rbind_ok in Ez. destruct Ez as ([uv r4] & _ & Ez). injection Ez as <- <-. simpl.
      destruct Hm2 as (A2 & B2 & C2). split.
      * rewrite B2. apply sticks_good_weights; auto. simpl. lra.
      * split; [|eapply Forall_impl; [|exact (proj1 Hg2)]; simpl; intros; lra].
        intros i u Hi. simpl in Hsum. assert (mu <= u). { destruct i; simpl in Hi; [injection Hi as <-; auto|]. apply F2. eapply nth_error_In; eauto. }
        lra.
    + exfalso. subst z. destruct (length (sb_sticks (s_mix s)) <=? length (sb_sticks m)).
      * destruct (@push_prior_ok I data Hn (a_hyp (s_alg s)) (length (sb_sticks m) - length (sb_sticks (s_mix s))) (a_uv (s_alg s)) r2) as (t & r' & E & _).
        { intros X. rewrite X in Hpos. simpl in Hpos. nlia. }
        rewrite E in Ez. simpl in Ez. discriminate.
      * simpl in Ez. discriminate.
  - simpl. rewrite Epr. auto.
  - change (sticks_good (firstn (S (fold_left Nat.max al c0)) (sb_sticks m1))). apply sticks_good_firstn; auto.
  - simpl. lra.
Qed.

Lemma nmax_R : forall x y, nmax numR x y = Rmax x y.
Proof.
  intros. unfold nmax. destruct (nltb numR x y) eqn:E; [apply ltb_R in E; rewrite Rmax_right; lra|apply ltb_R_false in E; rewrite Rmax_left; lra].
Qed.

(** After the weights step, unless some occupied component's weight is at most
    [tiny], the slices are drawn below the weights of the observations' own
    components and the allocation step succeeds. *)
Lemma slice_alloc_open : forall (s : slicer I numR) r,
  SInv data covs s -> Forall (fun w => 0 < w) (sb_w (s_mix s)) ->
  exists s3 r3, sample_slice data (K:=numR) unif01 tiny s r = Ok (s3, r3) /\ SInv data covs s3 /\
    s_alg s3 = s_alg s /\ s_mix s3 = s_mix s /\
    (forall i u, nth_error (s_u s3) i = Some u -> tiny <= u) /\
    ((forall i c w, nth_error (a_alloc (s_alg s)) i = Some c -> nth_error (sb_w (s_mix s)) c = Some w -> tiny < w) ->
     (forall i c w u, nth_error (a_alloc (s_alg s)) i = Some c -> nth_error (sb_w (s_mix s)) c = Some w ->
        nth_error (s_u s3) i = Some u -> u < w) /\
     exists s4 r4, slice_sample_allocations data covs s3 r3 = Ok (s4, r4) /\ SInv data covs s4).
Proof.
  intros s r HS Hw. pose proof HS as (HC & Hm & Hlen & Hul).
  pose proof (@sample_slice_safe I data covs Hn numR unif01 tiny s r HC Hm Hlen) as W.
  destruct (sample_slice data (K:=numR) unif01 tiny s r) as [[s3 r3]|e| |] eqn:E; simpl in W; try contradiction.
  - destruct W as (Ea & Em & H3 & Hs). exists s3, r3. split; auto. split; auto. split; auto. split; auto. split.
    { intros i u Hi. assert (Hin : (i < length (a_alloc (s_alg s)))%nat).
      { destruct HC as [Hl _]. rewrite Hl. destruct H3 as (_ & _ & _ & H3). rewrite <- H3. eapply nth_error_lt; eauto. }
      destruct (at_ok (a_alloc (s_alg s)) Hin) as (c & _ & Ec).
      destruct (Hs i c Ec) as (w & v & q0 & q1 & _ & _ & _ & Q4). rewrite nmax_R in Q4.
      assert (u = Rmax tiny v) by (normN; congruence). subst u. apply Rmax_l. }
    intros Ht.
    assert (K : forall i c w u, nth_error (a_alloc (s_alg s)) i = Some c -> nth_error (sb_w (s_mix s)) c = Some w ->
        nth_error (s_u s3) i = Some u -> u < w).
    { intros i c w u Hi Hc Hu. destruct (Hs i c Hi) as (w' & u' & r0 & r1 & Q1 & Q2 & Q3 & Q4).
      assert (w' = w) by (normN; congruence). subst w'. rewrite nmax_R in Q4. assert (u = Rmax tiny u') by (normN; congruence). subst u.
      apply ltb_R in Q2. pose proof (@unif_in w r0 Q2) as Q. rewrite Q3 in Q. simpl in Q.
      apply Rmax_lub_lt; [|lra]. eapply Ht; eauto. }
    split; auto.
    assert (X : exists s4 r4, slice_sample_allocations data covs s3 r3 = Ok (s4, r4)).
    { apply slice_alloc_ok_iff; auto. intros i Hi. destruct HC as [Hl [H1 H2]].
      destruct (@at_ok _ (a_alloc (s_alg s)) i) as (c & _ & Ec); [nlia|].
      destruct (Hs i c Ec) as (w & u & r0 & r1 & Q1 & Q2 & Q3 & Q4).
      exists c, w, (nmax numR tiny u). rewrite Em. split; auto. split; auto. apply ltb_R. eapply K; eauto. }
    destruct X as (s4 & r4 & E4). exists s4, r4. split; auto.
    pose proof (@slice_alloc_safe I L data covs Hrows Hn numR beta unif01 tiny s3 r3 H3) as W. rewrite E4 in W. simpl in W. tauto.
  - exfalso. clear W. unfold sample_slice in E.
    assert (X : forall l b, (forall i, In i l -> (i < n)%nat) ->
      exists b', rfold (slice_one (K:=numR) unif01 tiny (sb_w (s_mix s)) (a_alloc (s_alg s))) l b = Ok b').
    { induction l as [|i l IH]; intros [us rr] Hl; cbn [rfold]; eauto.
      assert (Hin : (i < n)%nat) by (apply Hl; simpl; auto).
      destruct HC as [Hal [H1 H2]].
      destruct (@at_ok _ (a_alloc (s_alg s)) i) as (c & Ec & Enc); [nlia|]. unfold slice_one at 1. rewrite Ec. cbn [rbind].
      destruct (H1 _ _ Enc) as [_ Hc].
      destruct (@at_ok _ (sb_w (s_mix s)) c) as (w & Ew & Enw). { rewrite sb_ok_w; auto. nlia. }
      rewrite Ew. cbn [rbind]. assert (Hwp : 0 < w). { rewrite Forall_forall in Hw. apply Hw. eapply nth_error_In; eauto. }
      apply ltb_R in Hwp. simpl n0. rewrite Hwp. destruct (unif01 w rr) as [u r']. cbn [rbind].
      apply IH. intros; apply Hl; simpl; auto. }
    destruct (X (seq 0 n) ([], r)) as ([us r'] & E'). { intros i Hi. apply in_seq in Hi. nlia. }
    rewrite E' in E. simpl in E. discriminate.
Qed.

End SliceR.

(** ** Truncation *)

(** Whatever sticks would come next, a further component's weight stays below
    any number exceeding the mass left. *)
Lemma further_weights : forall (l t : list R) u j w, Forall (fun v => 0 <= v <= 1) t -> Forall (fun v => 0 <= v <= 1) l ->
  1 - u < sumR (wgo 1 l) -> (length l <= j)%nat -> nth_error (wgo 1 (l ++ t)) j = Some w -> w < u.
Proof.
  intros l t u j w Ht Hl Hs Hj Hw. rewrite wgo_app in Hw. rewrite nth_error_app2 in Hw by (rewrite weights_go_length; auto).
  rewrite weights_sum in Hs. simpl in Hs. rewrite Rmult_1_l in Hw.
  assert (Hr := rest_unit Hl).
  assert (G : forall (t : list R) (x : R) k w, 0 <= x -> Forall (fun v => 0 <= v <= 1) t -> nth_error (wgo x t) k = Some w -> w <= x).
  { clear. induction t as [|v t IH]; intros x [|k] w Hx H Hn; simpl in Hn; try discriminate; inversion H; subst.
    - injection Hn as <-. replace x with (1 * x) at 2 by lra. apply Rmult_le_compat_r; lra.
    - assert (w <= x * (1 - v)). { eapply IH; [|exact H3|exact Hn]. apply Rmult_le_pos; lra. }
      assert (x * (1 - v) <= x * 1) by (apply Rmult_le_compat_l; lra). lra. }
  apply G in Hw; auto; lra.
Qed.

Lemma weights_sum_one : forall l : list R, l <> [] -> last l 0 = 1 -> sumR (wgo 1 l) = 1.
Proof. intros l H1 H2. rewrite weights_sum, rest_last_one; auto. simpl. lra. Qed.

Lemma dp_init_sum_lt1 : forall mass inf nc (m : sb numR), sb_init (DpPrior numR mass) inf nc = Ok m -> sumR (sb_w m) < 1.
Proof.
  intros mass inf nc m H. pose proof (@sb_init_spec _ _ _ _ H) as (_ & Ep & _ & _ & _).
  refine (proj1 (@init_sum_lt1 _ _ _ _ H _)). intros i a b _ Hg. unfold get_beta_params in Hg. rewrite Ep in Hg. injection Hg as <- <-.
  simpl. split; [lra|]. unfold sb_init in H. destruct (nltb numR (n0 numR) mass) eqn:E; [|discriminate]. apply ltb_R in E. exact E.
Qed.

Lemma py_shapes : forall (m : sb numR) st d k, sb_prior m = PyPrior numR st d ->
  get_beta_params m k = Ok (1 - d, st + INR k * d).
Proof. intros m st d k H. unfold get_beta_params. rewrite H. simpl. rewrite <- INR_IZR_INZ. reflexivity. Qed.
