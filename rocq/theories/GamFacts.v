(** * Facts about the gamma hierarchy. *)
From Coq Require Import Bool List Arith ZArith Reals Lra Lia Permutation.
From Coquelicot Require Import Coquelicot.
From Verif Require Import Base XReal Hier Algos Run Spec MargFacts NealFacts InitFacts MargMore MargProps Mixings MixFacts PartSpec Univ UnivFacts GaussInt GammaInt UnivInt RealInst RealFacts.
From Verif Require Import Collect Utils Eval EvalFacts EvalInt Gam.
Import ListNotations.
Local Open Scope R_scope.

Definition gam_valid (h : gam_hyp) : Prop := 0 < gp_shape h /\ 0 < gp_alpha h /\ 0 < gp_beta h.
(** Statistics of a list of data. *)
Definition gam_stats_of (ys : list R) : gam_stats := (sumR ys, cardZ ys).
(** Logarithm of the marginal likelihood, from Gamma functions. *)
Definition gam_log_marg (lg : R -> R) (h : gam_hyp) (ys : list R) : R :=
  let n := INR (length ys) in
  let a := gp_alpha h + n * gp_shape h in
  gp_alpha h * ln (gp_beta h) - lg (gp_alpha h) + lg a - a * ln (gp_beta h + sumR ys)
  - n * lg (gp_shape h) + (gp_shape h - 1) * sumR (map ln ys).

Lemma gam_like_sum : forall lg c rate ys,
  sumR (map (gam_lpdf lg (mkGam c rate)) ys) =
  INR (length ys) * (c * ln rate - lg c) + (c - 1) * sumR (map ln ys) - rate * sumR ys.
Proof.
  intros lg c rate ys. induction ys as [|y ys IH]; [unfold sumR; simpl; lra|].
  cbn [map length]. rewrite S_INR. unfold sumR in *. cbn [fold_right]. rewrite IH. unfold gam_lpdf, gamma_lpdf. cbn [gm_shape gm_rate]. lra.
Qed.

Lemma gam_bayes : forall lg h ys rate,
  gam_prior_lpdf lg h (mkGam (gp_shape h) rate) + sumR (map (gam_lpdf lg (mkGam (gp_shape h) rate)) ys) =
  gam_prior_lpdf lg (gam_post h (cardZ ys) (gam_stats_of ys)) (mkGam (gp_shape h) rate) + gam_log_marg lg h ys.
Proof.
  intros lg h ys rate. rewrite gam_like_sum. unfold gam_post, gam_stats_of, cardZ. destruct ys as [|y ys].
  - unfold gam_log_marg, gam_prior_lpdf, gamma_lpdf, sumR. simpl. rewrite Rplus_0_r. replace (gp_alpha h + 0 * gp_shape h) with (gp_alpha h) by ring. ring.
  - replace (Z.eqb (Z.of_nat (length (y :: ys))) 0) with false by (symmetry; apply Z.eqb_neq; simpl; lia).
    unfold gam_log_marg, gam_prior_lpdf, gamma_lpdf. cbn [gm_rate gp_alpha gp_beta fst snd]. rewrite <- INR_IZR_INZ.
    replace (gp_alpha h + gp_shape h * INR (length (y :: ys))) with (gp_alpha h + INR (length (y :: ys)) * gp_shape h) by ring. ring.
Qed.

Lemma sumR_pos : forall ys, List.Forall (fun y => 0 < y) ys -> 0 <= sumR ys.
Proof. intros ys H. induction H as [|y ys Hy _ IH]; unfold sumR in *; simpl; lra. Qed.

Lemma gam_post_valid : forall h ys, gam_valid h -> List.Forall (fun y => 0 < y) ys -> gam_valid (gam_post h (cardZ ys) (gam_stats_of ys)).
Proof.
  intros h ys (H1 & H2 & H3) Hy. unfold gam_post. destruct (Z.eqb (cardZ ys) 0); [repeat split; assumption|].
  unfold gam_valid, gam_stats_of, cardZ; cbn [gp_shape gp_alpha gp_beta fst snd]. rewrite <- INR_IZR_INZ.
  pose proof (sumR_pos ys Hy). pose proof (pos_INR (length ys)). pose proof (Rmult_le_pos _ _ (Rlt_le _ _ H1) H0). repeat split; lra.
Qed.

Lemma gam_prior_normalised : forall h c, gam_valid h -> is_half_int (fun rate => exp (gam_prior_lpdf lgam h (mkGam c rate))) 1.
Proof. intros h c (_ & H2 & H3). exact (gamma_normalised _ _ H2 H3). Qed.

Lemma gam_marginal : forall h ys, gam_valid h -> List.Forall (fun y => 0 < y) ys ->
  is_half_int (fun rate => exp (gam_prior_lpdf lgam h (mkGam (gp_shape h) rate) + sumR (map (gam_lpdf lgam (mkGam (gp_shape h) rate)) ys)))
    (exp (gam_log_marg lgam h ys)).
Proof.
  intros h ys Hh Hy. pose proof (gam_prior_normalised _ (gp_shape h) (gam_post_valid h ys Hh Hy)) as H.
  apply (half_scal _ (exp (gam_log_marg lgam h ys))) in H. rewrite Rmult_1_r in H.
  apply (half_ext _ _ _ (fun rate _ => eq_sym (eq_trans (f_equal exp (gam_bayes lgam h ys rate)) (eq_trans (exp_plus _ _) (Rmult_comm _ _))))) in H. exact H.
Qed.

(** Statistics after any additions and removals. *)
Lemma gam_batch : forall lg G (data : list R) ids, (forall j, In j ids -> (j < length data)%nat) ->
  batch (gam_iface lg G) data (at_ (repeat tt (length data))) ids = gam_stats_of (pick data ids).
Proof.
  intros lg G data ids H.
  assert (K : forall l (s : gam_stats), (forall j, In j l -> (j < length data)%nat) ->
    fold_left (batch_step (gam_iface lg G) data (at_ (repeat tt (length data)))) l s = (fst s + sumR (pick data l), (snd s + cardZ (pick data l))%Z)).
  { induction l as [|j l IH]; intros s Hl; [destruct s; unfold cardZ, sumR; simpl; f_equal; [lra|lia]|].
    cbn [fold_left].
    assert (E : batch_step (gam_iface lg G) data (at_ (repeat tt (length data))) s j = gam_op (nth j data 0) true s).
    { assert (Hj : (j < length data)%nat) by (apply Hl; now left). unfold batch_step. destruct (at_ok data Hj) as (d & Ed & _).
      assert (Hj' : (j < length (repeat tt (length data)))%nat) by (rewrite repeat_length; auto).
      destruct (at_ok (repeat tt (length data)) Hj') as (c & Ec & _). rewrite Ec. simpl in Ed |- *. rewrite Ed, (at_nth _ _ _ 0 _ Ed). reflexivity. }
    rewrite E, IH by (intros; apply Hl; now right). unfold gam_op, pick, cardZ, sumR. cbn [fst snd map length fold_right]. f_equal; [lra|lia]. }
  unfold batch. simpl stats0. rewrite K by exact H. unfold gam_stats_of, gam_stats0. simpl. f_equal; lra.
Qed.

Lemma gam_laws : forall lg G, gen_ok G -> laws (gam_iface lg G).
Proof.
  intros lg G HG. constructor; simpl; intros.
  - unfold softmax. rewrite <- (map_length (fun w => xexp w / sum_exp ws) ws). apply HG. destruct ws; simpl; congruence.
  - pose proof (HG (repeat (/ INR n) n) r) as H2. rewrite repeat_length in H2. apply H2.
    destruct n; [lia|discriminate].
  - destruct s as [a b]. unfold gam_op; simpl. f_equal; [ring|lia].
  - destruct s as [a b]. unfold gam_op; simpl. f_equal; ring.
  - reflexivity.
Qed.
Lemma gam_rows : forall lg G (data : list R), rows_ok (gam_iface lg G) data (at_ (repeat tt (length data))).
Proof.
  intros lg G data j Hj. destruct (at_ok data Hj) as (d & Ed & _).
  assert (Hj' : (j < length (repeat tt (length data)))%nat) by (rewrite repeat_length; auto).
  destruct (at_ok (repeat tt (length data)) Hj') as (c & Ec & _). exists d, c. auto.
Qed.

(** ** The program *)

(** The data carrying label [c]. *)
Definition labelled (data : list R) (al : list nat) (c : nat) : list R :=
  pick data (filter (fun i => match nth_error al i with Some c' => Nat.eqb c' c | None => false end) (seq 0 (length data))).

Lemma sorted_NoDup : forall l, Sorted.StronglySorted lt l -> NoDup l.
Proof.
  induction l as [|x l IH]; intro H; [constructor|]. inversion H; subst. constructor; [|auto].
  intro Hx. rewrite List.Forall_forall in H3. specialize (H3 x Hx). lia.
Qed.

Lemma labelled_ids : forall n al cl c ids card (data : list R), length data = n -> consistent n al cl -> nth_error cl c = Some (ids, card) ->
  Permutation (pick data ids) (labelled data al c).
Proof.
  intros n al cl c ids card data En (H1 & _ & H2) Hc. destruct (H2 c ids card Hc) as (Hs & Hi & _). unfold labelled, pick. apply Permutation_map.
  apply NoDup_Permutation; [now apply sorted_NoDup|apply NoDup_filter, seq_NoDup|]. intro i. rewrite Hi, filter_In, in_seq. split.
  - intro E. rewrite E, Nat.eqb_refl. split; [|reflexivity]. assert (i < length al)%nat by (apply nth_error_Some; congruence). lia.
  - intros [_ E]. destruct (nth_error al i) as [c'|]; [|discriminate]. apply Nat.eqb_eq in E. congruence.
Qed.

Lemma sumR_perm : forall l l', Permutation l l' -> sumR l = sumR l'.
Proof. intros l l' H. unfold sumR. induction H; simpl; lra. Qed.

Definition gam_h : gam_hyp := mkGP 1 2 2.
Definition gam_m : mixing := MixDP gam_example_prior (mkDp 1 (Some (Fin 0))).

Lemma gam_example_hyp_ok : gam_example_hyp = Ok gam_h.
Proof. unfold gam_example_hyp, gam_init. rewrite !(proj2 (lteb_false _ _)) by lra. reflexivity. Qed.
Lemma gam_example_mix_ok : dp_init gam_example_prior dp_make_shared = Ok (mkDp 1 (Some (Fin 0))).
Proof. unfold gam_example_prior, dp_init. rewrite (proj2 (lteb_false _ _)) by lra. reflexivity. Qed.

Section Run.
  Variable lg : R -> R.
  Variable G : gen.
  Hypothesis HG : gen_ok G.
  Local Notation I := (gam_iface lg G).
  Variable data : list R.
  Local Notation covs := (repeat tt (length data)).

  Lemma gam_safe : @mixing_safe I data (fun m => m = gam_m).
  Proof.
    split.
    - intros m -> k _. split; [intros c _; eexists; reflexivity|]. eexists. reflexivity.
    - intros m cards al r ->. exists gam_m, r. split; reflexivity.
  Qed.

  (** The state after an iteration: partition, caches, first-cluster cache, constants. *)
  Definition RInv (a : alg I) : Prop :=
    @GInv8 I data covs gam_example_aux a /\ @stale_ok I gam_h (a_uv a) /\ a_hyp a = gam_h /\ a_mix a = gam_m.
  (** Every state was drawn from the prior (at most one cluster) or from the posterior of its data. *)
  Definition drawn (a : alg I) : Prop := exists old : option nat,
    forall c h, nth_error (a_uv a) c = Some h ->
      exists r0 r1, gm_shape (h_state h) = 1 /\
        (if match old with Some c0 => Nat.eqb c0 c | None => false end then g_gamma G 2 2 r0
         else g_gamma G (2 + INR (length (labelled data (a_alloc a) c))) (2 + sumR (labelled data (a_alloc a) c)) r0) = (gm_rate (h_state h), r1).

  Lemma filter_one : forall (A : Type) (p : A -> bool) l, (length (filter p l) <= 1)%nat ->
    exists o : option nat, forall c x, nth_error l c = Some x -> p x = match o with Some c0 => Nat.eqb c0 c | None => false end.
  Proof.
    intros A p l. induction l as [|y l IH]; intro H; [exists None; intros [|c] x; discriminate|].
    simpl in H. destruct (p y) eqn:Ey.
    - exists (Some 0%nat). intros [|c] x E; simpl in E; [injection E as <-; rewrite Ey; reflexivity|].
      simpl in H. assert (Hf : filter p l = []) by (destruct (filter p l); [reflexivity|simpl in H; lia]).
      destruct (p x) eqn:Ex; [|reflexivity]. exfalso. assert (In x (filter p l)) by (apply filter_In; split; [eapply nth_error_In; eauto|auto]).
      rewrite Hf in H0. exact H0.
    - destruct (IH H) as (o & Ho). exists (match o with Some c0 => Some (S c0) | None => None end). intros [|c] x E; simpl in E.
      + injection E as <-. rewrite Ey. destruct o; reflexivity.
      + rewrite (Ho c x E). destruct o; reflexivity.
  Qed.

  Hypothesis Hn : (1 <= length data)%nat.

  Lemma gam_step_inv : forall a r, RInv a -> exists a' r', gam_step lg G data (a, r) = Ok (a', r') /\ RInv a' /\ drawn a'.
  Proof.
    intros a r (HI & HS & Hh & Hm).
    destruct (@neal8_step_all_ok I (gam_laws lg G HG) data covs (gam_rows lg G data) gam_example_aux (fun m => m = gam_m) a r) as (a' & r' & E & G' & M'); auto using gam_safe.
    exists a', r'. split; [exact E|].
    pose proof E as E0. unfold base_step in E0.
    rinv E0 s1. destruct s1 as [a1 r1]. rinv E0 s2. destruct s2 as [a2 r2]. rinv E0 s3. destruct s3 as [a3 r3].
    destruct (@neal8_sweep_ok I (gam_laws lg G HG) data covs (gam_rows lg G data) gam_example_aux a r (seq 0 (length data))) as (b1 & q1 & F & [G1 X1] & Fh & Fm); auto.
    { intros i Hi. apply in_seq in Hi. exact (proj2 Hi). }
    { apply gam_safe. exact Hm. }
    pose proof (eq_trans (eq_sym E1) F) as K. injection K as -> ->. clear E1.
    assert (S1 : @stale_ok I gam_h (a_uv b1)).
    { change (@stale_ok I gam_h (a_uv (fst (b1, q1)))).
      eapply rfold_pres with (P := fun s : alg I * Rng I => @stale_ok I gam_h (a_uv (fst s))); [|exact F|exact HS].
      intros x [d rd] [d' rd'] Hd. cbn [fst]. eapply stale_neal8_step; eauto. }
    assert (S' : @stale_ok I gam_h (a_uv a')).
    { eapply stale_base_step; [|exact E|exact HS].
      intros c rc c' rc' Hc Sc. unfold neal8_sample_allocations in Hc. change (@stale_ok I gam_h (a_uv (fst (c', rc')))).
      eapply rfold_pres with (P := fun s : alg I * Rng I => @stale_ok I gam_h (a_uv (fst s))); [|exact Hc|exact Sc].
      intros x [d rd] [d' rd'] Hd. cbn [fst]. eapply stale_neal8_step; eauto. }
    pose proof E2 as E2'. unfold sample_unique_values in E2'. rinv E2' p. destruct p as [uv' q2]. injection E2' as <- <-.
    unfold update_hierarchy_hypers in E3. rinv E3 u. cbn [hyp_update gam_iface] in E3. injection E3 as <- <-.
    unfold update_mixing in E0. rinv E0 p. destruct p as [m3 q3]. injection E0 as <- <-.
    split; [split; [exact G'|]; split; [exact S'|]; split; [|exact M']|].
    { cbn [a_hyp set_mix set_hyp set_uv]. congruence. }
    destruct (@redraw_core I data covs gam_h b1 q1 uv' q2 eq_refl G1 S1 E2) as [Hf Hd].
    destruct (filter_one _ _ _ Hf) as (old & Hold).
    exists old. cbn [a_uv set_mix set_hyp set_uv a_alloc]. intros c h' Hc'.
    destruct (@draw_all_spec I _ _ _ _ _ _ eq_refl E1) as [Hlen Hids].
    destruct (nth_error (a_uv b1) c) as [h|] eqn:Hc.
    2:{ exfalso. apply nth_error_None in Hc. assert (c < length uv')%nat by (apply nth_error_Some; rewrite Hc'; discriminate). lia. }
    destruct (Hd c h h' Hc Hc') as (x0 & x1 & D).
    pose proof (proj1 (@GInv_iff I data covs b1) G1) as [PR _]. pose proof PR as [P1 PN].
    assert (Hv : nth_error (view (a_uv b1)) c = Some (h_ids h, h_card h)) by (apply nth_view; eexists; eauto).
    exists x0, x1. rewrite <- (Hold c h Hc).
    pose proof (labelled_ids _ _ _ _ _ _ data eq_refl P1 Hv) as Hperm.
    pose proof (sumR_perm _ _ Hperm) as Hsum. pose proof (Permutation_length Hperm) as Hcard. unfold pick in Hcard at 1. rewrite map_length in Hcard.
    change (prior_sample I) with (gam_sample G) in D. unfold gam_sample in D.
    match type of D with context [if h_saved h then gam_h else ?p] => set (ph := p) in D end.
    assert (Hp : ph = mkGP 1 (2 + INR (length (labelled data (a_alloc b1) c))) (2 + sumR (labelled data (a_alloc b1) c))).
    { subst ph. change (post I) with (fun (h : gam_hyp) card st (_ : gam_st) => gam_post h card st). cbn beta.
      rewrite gam_batch.
      2:{ intros j Hj. destruct P1 as (Q1 & _ & Q2). destruct (Q2 c _ _ Hv) as (_ & Hi & _). apply Hi in Hj.
          assert (j < length (a_alloc b1))%nat by (apply nth_error_Some; rewrite Hj; discriminate). rewrite Q1 in H. exact H. }
      rewrite Fh, Hh. unfold gam_post, gam_stats_of, cardZ. cbn [gp_shape gp_alpha gp_beta gam_h fst snd].
      replace (Z.eqb (Z.of_nat (length (h_ids h))) 0) with false.
      2:{ symmetry. apply Z.eqb_neq. specialize (PN c _ _ Hv). destruct (h_ids h); [congruence|simpl; lia]. }
      rewrite <- INR_IZR_INZ, Hsum, (Permutation_length Hperm). f_equal; ring. }
    destruct (h_saved h).
    - cbn [gam_h gp_shape gp_alpha gp_beta] in D. destruct (g_gamma G 2 2 x0) as [rate q]. injection D as <- <-. split; reflexivity.
    - rewrite Hp in D. cbn [gp_shape gp_alpha gp_beta] in D.
      destruct (g_gamma G (2 + INR (length (labelled data (a_alloc b1) c))) (2 + sumR (labelled data (a_alloc b1) c)) x0) as [rate q]. injection D as <- <-. split; reflexivity.
  Qed.

  Lemma gam_iter_inv : forall k a r, RInv a -> exists a' r', iter (gam_step lg G data) (S k) (a, r) = Ok (a', r') /\ RInv a' /\ drawn a'.
  Proof.
    induction k as [|k IH]; intros a r H; destruct (gam_step_inv a r H) as (a1 & r1 & E & H1 & D1).
    - exists a1, r1. split; [|auto]. cbn [iter]. rewrite E. reflexivity.
    - destruct (IH a1 r1 H1) as (a2 & r2 & E2 & H2 & D2). exists a2, r2. split; [|auto]. cbn [iter] in E2 |- *. rewrite E. exact E2.
  Qed.

  Variable pos : nat -> nat.
  Hypothesis Hpos : forall i, (pos i < 10)%nat.
  Hypothesis Hlong : (10 <= length data)%nat.

  Lemma gam_start_ok : forall st r, exists a r', gam_start lg G data pos st r = Ok (a, r') /\ RInv a.
  Proof.
    intros st r. unfold gam_start. rewrite gam_example_mix_ok, gam_example_hyp_ok. cbn [rbind].
    destruct (@init_clusters_ok I (gam_laws lg G HG) data covs (gam_rows lg G data) false gam_h gam_m gam_example_init pos
      (@mkHier I [] 0%Z gam_stats0 st false None) r) as (a & r' & E & G0 & _ & Eh & Em & _); auto; [discriminate..|].
    assert (S0 : @stale_ok I gam_h (a_uv a)) by (apply stale_init in E; [exact (proj1 E)|reflexivity]).
    change (MixDP gam_example_prior (mkDp 1 (Some (Fin 0)))) with gam_m. rewrite E. cbn [rbind].
    destruct (@neal8_init_aux_ok I gam_example_aux a) as (aux & Ea & La & Ha). { eapply GInv_uv_pos; eauto. }
    rewrite Ea. cbn [rbind]. exists (set_aux a aux), r'. split; [reflexivity|]. split; [split; [exact G0|apply aux_iff; auto]|].
    split; [exact S0|]. split; [exact Eh|exact Em].
  Qed.

  Lemma gam_run_ok : forall st r maxiter burnin, exists s out, gam_run lg G data pos st r maxiter burnin = Ok (s, out) /\
    length out = (maxiter - burnin)%nat /\
    forall snap, In snap out -> exists a, RInv a /\ drawn a /\ s_alloc snap = a_alloc a /\
      s_clusters snap = map (fun h => (h_state h, h_card h)) (a_uv a) /\ s_hyp snap = gam_h /\ s_mix snap = gam_m.
  Proof.
    intros st r maxiter burnin. destruct (gam_start_ok st r) as (a & r' & E & H).
    destruct (@run_complete I (gam_step lg G data) RInv) with (burnin := burnin) (maxiter := maxiter) (a := a) (r := r') as (a1 & r1 & out & E1 & _).
    - intros b q Hb. destruct (gam_step_inv b q Hb) as (b' & q' & E1 & H1 & _). exists b', q'. auto.
    - intros b [[Hb _] _]. eapply GInv_uv_pos; eauto.
    - exact H.
    - assert (ER : gam_run lg G data pos st r maxiter burnin = Ok ((a1, r1), out)).
      { unfold gam_run, run. rewrite E. exact E1. }
      exists (a1, r1), out. split; [exact ER|].
      destruct (@run_saves I _ _ _ _ _ _ ER) as (s0 & F0 & _ & Fl & FS). rewrite E in F0. injection F0 as <-. split; [exact Fl|].
      intros snap Hs. apply In_nth_error in Hs. destruct Hs as (i & Hi).
      assert (Hlt : (i < maxiter - burnin)%nat) by (rewrite <- Fl; apply nth_error_Some; rewrite Hi; discriminate).
      destruct (FS i Hlt) as (ar & snap' & Ei & Hi' & _ & Ea & Ec & Eh & Em). rewrite Hi in Hi'. injection Hi' as <-.
      replace (burnin + i + 1)%nat with (S (burnin + i)) in Ei by lia.
      destruct (gam_iter_inv (burnin + i) a r' H) as (a2 & r2 & E2 & H2 & D2). pose proof (eq_trans (eq_sym E2) Ei) as K. injection K as <-.
      cbn [fst] in *. destruct H2 as (Q1 & Q2 & Q3 & Q4). exists a2. split; [split; [exact Q1|]; split; [exact Q2|]; split; [exact Q3|exact Q4]|]. split; [exact D2|]. split; [exact Ea|].
      split; [exact Ec|]. split; [rewrite Eh; exact Q3|rewrite Em; exact Q4].
  Qed.
End Run.

(** ** Integrals over the half line *)
Lemma half_plus : forall f g a b, is_half_int f a -> is_half_int g b -> is_half_int (fun x => f x + g x) (a + b).
Proof.
  intros f g a b Hf Hg eps He. destruct (Hf (eps / 2)) as (e1 & b1 & [P1 Q1] & K1); [lra|]. destruct (Hg (eps / 2)) as (e2 & b2 & [P2 Q2] & K2); [lra|].
  exists (Rmin e1 e2), (Rmax b1 b2). split.
  { split; [apply Rmin_glb_lt; assumption|]. apply Rle_lt_trans with e1; [apply Rmin_l|]. apply Rlt_le_trans with b1; [exact Q1|apply Rmax_l]. }
  intros e t Pe He0 Ht.
  destruct (K1 e t Pe) as (y1 & I1 & D1); [apply Rlt_le_trans with (1 := He0), Rmin_l|apply Rle_lt_trans with (2 := Ht), Rmax_l|].
  destruct (K2 e t Pe) as (y2 & I2 & D2); [apply Rlt_le_trans with (1 := He0), Rmin_r|apply Rle_lt_trans with (2 := Ht), Rmax_r|].
  exists (y1 + y2). split; [exact (is_RInt_plus f g e t y1 y2 I1 I2)|].
  replace (y1 + y2 - (a + b)) with ((y1 - a) + (y2 - b)) by ring. pose proof (Rabs_triang (y1 - a) (y2 - b)). lra.
Qed.
Lemma half_zero : is_half_int (fun _ => 0) 0.
Proof.
  intros eps He. exists 1, 2. split; [lra|]. intros e b _ _ _. exists (scal (b - e) 0). split; [exact (is_RInt_const e b 0)|].
  unfold scal, mult; cbn. rewrite Rmult_0_r, Rminus_0_r, Rabs_R0. exact He.
Qed.
Lemma gam_like_int : forall s, 0 < gm_shape s /\ 0 < gm_rate s -> is_half_int (fun y => xexp (Fin (gam_lpdf lgam s y))) 1.
Proof. intros s [H1 H2]. exact (gamma_normalised _ _ H1 H2). Qed.

(** ** Statistics under additions and removals *)
Lemma gam_add_list : forall ys (s : gam_stats), fold_left (fun s y => gam_op y true s) ys s = (fst s + sumR ys, (snd s + cardZ ys)%Z).
Proof.
  induction ys as [|y ys IH]; intros [a n]; unfold cardZ, sumR; [simpl; f_equal; [lra|lia]|]. cbn [fold_left]. rewrite IH.
  unfold gam_op, cardZ, sumR. cbn [fst snd fold_right length]. f_equal; [lra|lia].
Qed.
Lemma gam_remove_list : forall ys (s : gam_stats), fold_left (fun s y => gam_op y false s) ys s = (fst s - sumR ys, (snd s - cardZ ys)%Z).
Proof.
  induction ys as [|y ys IH]; intros [a n]; unfold cardZ, sumR; [simpl; f_equal; [lra|lia]|]. cbn [fold_left]. rewrite IH.
  unfold gam_op, cardZ, sumR. cbn [fst snd fold_right length]. f_equal; [lra|lia].
Qed.
Lemma sumR_app : forall l l', sumR (l ++ l') = sumR l + sumR l'.
Proof. induction l as [|x l IH]; intro l'; unfold sumR in *; cbn [app fold_right]; [lra|]. rewrite IH. lra. Qed.
Lemma gam_history : forall ys zs ws, Permutation ys (zs ++ ws) ->
  fold_left (fun s y => gam_op y false s) zs (fold_left (fun s y => gam_op y true s) ys gam_stats0) = gam_stats_of ws.
Proof.
  intros ys zs ws H. rewrite gam_add_list, gam_remove_list. unfold gam_stats_of, gam_stats0, cardZ. cbn [fst snd].
  rewrite (sumR_perm _ _ H), sumR_app, (Permutation_length H), app_length. f_equal; [lra|lia].
Qed.

(** ** Saved states of a proper clustering *)
Lemma proper_saved : forall (I : Iface) (data : list (Datum I)) al (uv : list (hier I)) (M : Type) (m : M), proper (length data) al (view uv) ->
  saved_ok (St I) (mkSaved (length data) (map (fun h => (h_state h, h_card h)) uv) m).
Proof.
  intros I data al uv M m [C N]. pose proof C as (_ & _ & C3).
  assert (K : forall h, In h uv -> h_card h = Z.of_nat (length (h_ids h)) /\ h_ids h <> []).
  { intros h Hh. apply In_nth_error in Hh. destruct Hh as (c & Hc).
    assert (Hv : nth_error (view uv) c = Some (h_ids h, h_card h)) by (apply nth_view; eexists; eauto).
    split; [apply (C3 c _ _ Hv)|exact (N c _ _ Hv)]. }
  split; cbn [sv_clusters sv_n].
  - intros p Hp. apply in_map_iff in Hp. destruct Hp as (h & <- & Hh). destruct (K h Hh) as [E E']. cbn [snd]. rewrite E.
    destruct (h_ids h); [congruence|simpl; lia].
  - rewrite <- (@consistent_total I data al uv C). rewrite map_map. unfold total_ids. clear -K.
    induction uv as [|h uv IH]; [reflexivity|]. cbn [map fold_right list_sum]. rewrite IH by (intros; apply K; now right).
    destruct (K h (or_introl eq_refl)) as [E _]. cbn [snd]. rewrite E. change (list_sum (length (h_ids h) :: map (fun h => length (h_ids h)) uv)) with (length (h_ids h) + list_sum (map (fun h => length (h_ids h)) uv))%nat. rewrite Nat2Z.inj_add. reflexivity.
Qed.

(** ** The first cluster *)
Section First.
  Variable lg : R -> R.
  Variable G : gen.
  Hypothesis HG : gen_ok G.
  Local Notation I := (gam_iface lg G).
  Lemma gam_first : forall data pos st r a r1, (forall i, (pos i < 10)%nat) -> (10 <= length data)%nat ->
    gam_start lg G data pos st r = Ok (a, r1) ->
    exists uv r2 h, @sample_unique_values I false (a, r1) = Ok (set_uv a uv, r2) /\ nth_error uv 0 = Some h /\
      gm_shape (h_state h) = 1 /\ gm_rate (h_state h) = fst (g_gamma G 2 2 r1).
  Proof.
    intros data pos st r a r1 Hp Hl E.
    destruct (gam_start_ok lg G HG data ltac:(lia) pos Hp Hl st r) as (a' & r' & E' & ([G0 _] & _ & Hh & Hm)).
    pose proof (eq_trans (eq_sym E') E) as K. injection K as -> ->.
    unfold gam_start in E. rewrite gam_example_mix_ok, gam_example_hyp_ok in E. cbn [rbind] in E.
    rinv E p. destruct p as [a0 r0]. rinv E a1. injection E as <- <-.
    pose proof E0 as S0. apply first_cluster_saved in S0; [|reflexivity]. destruct S0 as (h & Hc & Hs & Hph). specialize (Hph eq_refl).
    unfold neal8_init_aux in E1. rinv E1 aux. injection E1 as <-.
    pose proof (proj1 (@GInv_iff I data (repeat tt (length data)) _) G0) as [[P1 PN] _]. cbn [a_uv set_aux] in P1, PN |- *.
    assert (Hv : nth_error (view (a_uv a0)) 0 = Some (h_ids h, h_card h)) by (apply nth_view; eexists; eauto).
    assert (Hz : Z.eqb (h_card h) 0 = false).
    { apply Z.eqb_neq. destruct P1 as (_ & _ & Q). destruct (Q 0%nat _ _ Hv) as (_ & _ & ->). pose proof (PN 0%nat _ _ Hv). destruct (h_ids h); [congruence|simpl; lia]. }
    destruct (@sample_unique_values_ok I (gam_laws lg G HG) data (repeat tt (length data)) false false ltac:(discriminate) ltac:(discriminate) (set_aux a0 aux) r0 G0) as (a2 & r2 & E2 & _).
    pose proof E2 as E3. unfold sample_unique_values in E3. rinv E3 p. destruct p as [uv q]. injection E3 as <- <-.
    cbn [a_uv a_hyp set_aux] in E1, Hh. rewrite Hh in E1.
    destruct (a_uv a0) as [|h' t] eqn:Eu; [discriminate|]. injection Hc as ->.
    cbn [draw_all] in E1. rinv E1 p. destruct p as [h2 q2]. rinv E1 p. destruct p as [t' q3]. injection E1 as <- <-.
    exists (h2 :: t'), q3, h2. split; [exact E2|]. split; [reflexivity|].
    unfold h_draw in E3. cbn [other_draw gam_iface] in E3. rewrite Hz in E3. unfold h_get_post in E3. cbn [other_draw gam_iface] in E3. rewrite Hs, Hph in E3.
    cbn [conj gam_iface rbind prior_sample] in E3. unfold gam_sample in E3. cbn [gam_h gp_alpha gp_beta gp_shape] in E3.
    destruct (g_gamma G 2 2 r0) as [rate q4]. injection E3 as <- _. split; reflexivity.
  Qed.
End First.
