(** * Parameter spaces of the univariate hierarchies and of the mixings. *)
From Coq Require Import String.
From Coq Require Import Bool List Arith ZArith Reals Lra Lia.
From Verif Require Import Base Hier Algos Run Spec MargFacts NealFacts MargMore InitFacts MargProps ValidRun.
From Verif Require Import PartSpec XReal Mixings MixFacts Univ UnivFacts UnivInit RealInst RealFacts UnivInst.
Import ListNotations.
Local Open Scope R_scope.


(** The generators of positive numbers return positive numbers. *)
Definition gen_pos (G : gen) : Prop :=
  (forall a b r, 0 < a -> 0 < b -> 0 < fst (g_gamma G a b r)) /\
  (forall a b r, 0 < a -> 0 < b -> 0 < fst (g_invgamma G a b r)).

Definition nx_valid (h : nxig) : Prop := 0 < nx_var h /\ 0 < nx_shape h /\ 0 < nx_scale h.
Definition ls_valid (s : uni_ls) : Prop := 0 < ls_var s.

(** Mixings whose parameters are in their space. *)
Definition mixing_valid (m : mixing) : Prop :=
  match m with
  | MixDP p s => 0 < dp_tot s /\ (exists l, dp_log s = Some l) /\ match p with DPGamma a b => 0 < a /\ 0 < b | _ => True end
  | MixPY _ s => 0 <= py_dis s < 1 /\ - py_dis s < py_str s
  end.

Lemma mixing_start_valid : forall mp m, mixing_start mp = Ok m -> mixing_valid m.
Proof.
  intros [p|p] m E; cbn [mixing_start] in E; apply rbind_ok in E; destruct E as (s & E & Em); injection Em as <-.
  - destruct p as [t|a b|]; cbn [dp_init] in E; [| |discriminate].
    + destruct (lteb t 0) eqn:Et; [discriminate|]. injection E as <-. apply lteb_false in Et. cbn. eauto.
    + destruct (lteb a 0) eqn:Ea; [discriminate|]. destruct (lteb b 0) eqn:Eb; [discriminate|]. injection E as <-. apply lteb_false in Ea, Eb. cbn.
      split; [now apply Rdiv_lt_0_compat|]. eauto.
  - destruct (py_init_ok _ _ E) as [D T]. split; assumption.
Qed.

Lemma mixing_update_valid : forall G m cards al r m' r', gen_pos G -> mixing_valid m ->
  mixing_update G m cards al r = Ok (m', r') -> mixing_valid m'.
Proof.
  intros G m cards al r m' r' [Gg _] V E. destruct m as [p s|p s]; cbn [mixing_update] in E.
  - destruct p as [t|a b|]; cbn [dp_update] in E.
    + injection E as <- <-. exact V.
    + destruct (g_gamma G (dp_tot s + 1) (INR (length al)) r) as [phi r1]. destruct (g_unif G 0 1 r1) as [u r2].
      match type of E with context [g_gamma G ?x ?y r2] => pose proof (Gg x y r2) as Pv; destruct (g_gamma G x y r2) as [v r3] end. cbn [fst] in Pv.
      apply rbind_ok in E. destruct E as (s' & E & Em). injection Em as <- <-.
      apply rbind_ok in E. destruct E as (ph & E1 & E). apply rbind_ok in E. destruct E as (m & E2 & E). injection E as <-.
      unfold gamma_rng in E1, E2. destruct (gtb (dp_tot s + 1) 0 && gtb (INR (length al)) 0)%bool; [|discriminate]. injection E1 as <-.
      destruct V as (V1 & V2 & V3). split; [|split; assumption]. cbn [dp_tot].
      match type of E2 with (if ?b then _ else _) = _ => destruct b eqn:Q; [|discriminate] end. injection E2 as <-.
      apply andb_prop in Q. destruct Q as [Q1 Q2]. apply gtb_true in Q1, Q2. auto.
    + discriminate.
  - apply rbind_ok in E. destruct E as (s' & E & Em). injection Em as <- <-. destruct p; cbn in E; [|discriminate]. injection E as <-. exact V.
Qed.

Lemma mixing_masses : forall m n, mixing_valid m ->
  forall k, (k <= n - 1)%nat ->
    (forall c, (1 <= c)%Z -> exists w, mixing_mass_ex m (n - 1) k c = Ok w) /\ (exists w, mixing_mass_new m (n - 1) k = Ok w).
Proof.
  intros [p s|p s] n V k Hk; cbn [mixing_mass_ex mixing_mass_new].
  - destruct V as (_ & (l & El) & _). split; [intros; unfold dp_mass_ex; eauto|]. unfold dp_mass_new. rewrite El. eauto.
  - split; [intros; unfold py_mass_ex; eauto|]. unfold py_mass_new. eauto.
Qed.

(** ** Posteriors *)
Lemma nnxig_post_valid : forall h ys s, nx_valid h -> ls_valid s -> nx_valid (nnxig_post h (cardZ ys) (stats_of ys) s).
Proof.
  intros h ys s (H1 & H2 & H3) Hs. destruct ys as [|y ys]; [repeat split; assumption|]. rewrite nxig_fields by discriminate.
  set (l := y :: ys). assert (P : 0 < INR (length l)) by (apply lt_0_INR; cbn; lia). unfold ls_valid in Hs.
  assert (Q : 0 < INR (length l) * nx_var h + ls_var s) by (pose proof (Rmult_lt_0_compat _ _ P H1); lra).
  split; [|split]; cbn [nx_var nx_shape nx_scale].
  - apply Rdiv_lt_0_compat; [now apply Rmult_lt_0_compat|exact Q].
  - lra.
  - rewrite <- dev_sum. assert (0 <= sumR (map (fun y0 => sq (y0 - ls_mean s)) l)); [|lra].
    generalize l. clear. induction l as [|y l IH]; [unfold sumR; cbn; lra|]. unfold sumR in *. cbn [map fold_right]. unfold sq at 1. pose proof (Rle_0_sqr (y - ls_mean s)). unfold Rsqr in *. lra.
Qed.

Lemma nnxig_batch : forall G (data : list R) ids, (forall j, In j ids -> (j < length data)%nat) ->
  batch (nnxig_iface G) data (at_ (repeat tt (length data))) ids = stats_of (pick data ids).
Proof. intros G data ids H. exact (nnig_batch (fun x => x) G (NIGFixed 0 1 1 1) data ids H). Qed.

Lemma nnxig_laws : forall G, gen_ok G -> laws (nnxig_iface G).
Proof.
  intros G HG. constructor; simpl; intros.
  - unfold softmax. rewrite <- (map_length (fun w => xexp w / sum_exp ws) ws). apply HG. destruct ws; simpl; congruence.
  - pose proof (HG (repeat (/ INR n) n) r) as H2. rewrite repeat_length in H2. apply H2. destruct n; [lia|discriminate].
  - destruct s as [a b]. unfold norm_op; simpl. f_equal; ring.
  - destruct s as [a b]. unfold norm_op; simpl. f_equal; ring.
  - discriminate.
Qed.
Lemma lap_laws : forall G step junk data, gen_ok G -> laws (lap_iface G step junk data).
Proof.
  intros G step junk data HG. constructor; simpl; intros; auto.
  - unfold softmax. rewrite <- (map_length (fun w => xexp w / sum_exp ws) ws). apply HG. destruct ws; simpl; congruence.
  - pose proof (HG (repeat (/ INR n) n) r) as H2. rewrite repeat_length in H2. apply H2. destruct n; [lia|discriminate].
Qed.
Lemma nnxig_rows : forall G (data : list R), rows_ok (nnxig_iface G) data (at_ (repeat tt (length data))).
Proof. intros G data. exact (nnig_rows (fun x => x) G (NIGFixed 0 1 1 1) data). Qed.
Lemma lap_rows : forall G step junk (data : list R), rows_ok (lap_iface G step junk data) data (at_ (repeat tt (length data))).
Proof. intros G step junk data. exact (nnig_rows (fun x => x) G (NIGFixed 0 1 1 1) data). Qed.

(** ** Spaces closed under the steps of the algorithms *)
Lemma uni_init_valid : forall m a b, 0 < a -> 0 < b -> ls_valid (uni_init_state m a b).
Proof. intros m a b Ha Hb. unfold ls_valid, uni_init_state. cbn. apply Rdiv_lt_0_compat; lra. Qed.

Lemma nig_sample_valid : forall G h r, gen_pos G -> valid h -> ls_valid (fst (nig_sample G h r)).
Proof.
  intros G h r [_ Gi] (H1 & H2 & H3). unfold nig_sample. pose proof (Gi _ _ r H2 H3) as P. destruct (g_invgamma G (ng_shape h) (ng_scale h) r) as [v r1].
  destruct (g_norm G _ _ r1) as [x r2]. exact P.
Qed.
Lemma nxig_sample_valid : forall G h r, gen_pos G -> nx_valid h -> ls_valid (fst (nxig_sample G h r)).
Proof.
  intros G h r [_ Gi] (H1 & H2 & H3). unfold nxig_sample. destruct (g_norm G _ _ r) as [x r1]. pose proof (Gi _ _ r1 H2 H3) as P.
  destruct (g_invgamma G (nx_shape h) (nx_scale h) r1) as [v r2]. exact P.
Qed.
Lemma rw_draw_valid : forall G step junk data ids s r, ls_valid s -> ls_valid (fst (rw_draw G step junk data ids s r)).
Proof.
  intros G step junk data ids s r V. unfold rw_draw. destruct (rw_sample G step (ls_get_unconstrained s) r) as [prop r1]. destruct (g_unif G 0 1 r1) as [u r2]. cbn [fst].
  destruct (gtb _ _); [|exact V]. unfold ls_valid, ls_set_unconstrained, to_constrained. cbn. apply exp_pos.
Qed.

(** The hyperprior parameters of an accepted prior. *)
Definition nig_prior_valid (p : nig_prior) : Prop :=
  match p with NIGNgg _ _ al be a b _ => 0 < al /\ 0 < be /\ 0 < a /\ 0 < b | _ => True end.
Lemma nig_prior_checked : forall p h, nig_init p = Ok h -> nig_prior_valid p.
Proof.
  intros [m v a b|m s v a b|mu s al be a b a0|] h E; cbn; auto. cbn [nig_init] in E.
  repeat match type of E with context [if lteb ?x 0 then _ else _] => let Q := fresh in destruct (lteb x 0) eqn:Q; [discriminate|apply lteb_false in Q] end. auto.
Qed.

Lemma nnig_closed : forall lg G p data, gen_pos G -> nig_prior_valid p ->
  closed (nnig_iface lg G p) data (repeat tt (length data)) valid ls_valid mixing_valid.
Proof.
  intros lg G p data HG Hp. constructor.
  - intros hy ids s Hh _ Hi. rewrite nnig_batch by exact Hi. cbn [post nnig_iface].
    replace (Z.of_nat (length ids)) with (cardZ (pick data ids)) by (unfold cardZ, pick; now rewrite map_length). now apply nnig_post_valid.
  - intros hy r Hh. now apply nig_sample_valid.
  - intros hy (H1 & H2 & H3). now apply uni_init_valid.
  - discriminate.
  - intros hy sts r Hh Hs. cbn [hyp_update nnig_iface]. apply nig_update_valid.
    + exact (proj1 HG).
    + now right.
    + intros mu s al be a b a0 ->. exact Hp.
    + apply Forall_forall. intros s Hin. apply in_map_iff in Hin. destruct Hin as (q & <- & Hq). now apply Hs.
  - intros m cards al r m' r' Hm _ _ E. exact (mixing_update_valid G m cards al r m' r' HG Hm E).
Qed.
Lemma nnxig_closed : forall G data, gen_pos G -> closed (nnxig_iface G) data (repeat tt (length data)) nx_valid ls_valid mixing_valid.
Proof.
  intros G data HG. constructor.
  - intros hy ids s Hh Hs Hi. rewrite nnxig_batch by exact Hi. cbn [post nnxig_iface].
    replace (Z.of_nat (length ids)) with (cardZ (pick data ids)) by (unfold cardZ, pick; now rewrite map_length). now apply nnxig_post_valid.
  - intros hy r Hh. now apply nxig_sample_valid.
  - intros hy (H1 & H2 & H3). now apply uni_init_valid.
  - discriminate.
  - intros hy sts r Hh _. exact Hh.
  - intros m cards al r m' r' Hm _ _ E. exact (mixing_update_valid G m cards al r m' r' HG Hm E).
Qed.
Lemma lap_closed : forall G step junk data, gen_pos G -> closed (lap_iface G step junk data) data (repeat tt (length data)) nx_valid ls_valid mixing_valid.
Proof.
  intros G step junk data HG. constructor.
  - intros hy ids s Hh _ _. exact Hh.
  - intros hy r Hh. now apply nxig_sample_valid.
  - intros hy (H1 & H2 & H3). now apply uni_init_valid.
  - intros f hy card st ids s r E Hh Hs. cbn in E. injection E as <-. now apply rw_draw_valid.
  - intros hy sts r Hh _. exact Hh.
  - intros m cards al r m' r' Hm _ _ E. exact (mixing_update_valid G m cards al r m' r' HG Hm E).
Qed.

(** ** Runs that cannot fail *)
Definition mixing_fixed (m : mixing) : Prop :=
  mixing_valid m /\ match m with MixDP (DPFixed _) _ => True | MixPY (PYFixed _ _) _ => True | _ => False end.
Definition prior_fixed (mp : mixing_prior) : Prop :=
  match mp with PriDP (DPFixed t) => 0 < t | PriPY (PYFixed t d) => 0 <= d < 1 /\ - d < t | _ => False end.
Lemma prior_fixed_start : forall mp, prior_fixed mp -> exists m, mixing_start mp = Ok m /\ mixing_fixed m.
Proof.
  intros [[t|a b|]|[t d|]] H; cbn in H; try contradiction; cbn [mixing_start].
  - unfold dp_init. rewrite (proj2 (lteb_false _ _)) by lra. cbn [rbind]. eexists. split; [reflexivity|]. split; [cbn; eauto|exact Logic.I].
  - destruct H as [D T]. assert (E : py_init (PYFixed t d) = Ok (mkPy t d)).
    { unfold py_init. rewrite (proj2 (lteb_false _ _)) by lra. rewrite (proj2 (lteb_false _ _)) by lra.
      destruct (gtb 0 d) eqn:Q; [apply gtb_true in Q; lra|reflexivity]. }
    rewrite E. cbn [rbind]. eexists. split; [reflexivity|]. split; [cbn; lra|exact Logic.I].
Qed.
Lemma mixing_fixed_update : forall G m cards al r, mixing_fixed m -> mixing_update G m cards al r = Ok (m, r).
Proof. intros G [[t|a b|] s|[t d|] s] cards al r [V H]; try contradiction; reflexivity. Qed.

Section Complete.
  Variable I : Iface.
  Variable L : laws I.
  Variable data : list (Datum I).
  Variable hyp0 : Hyp I.
  Variable mix0 : Mix I.
  Variable k : nat.
  Variable pos : nat -> nat.
  Variable st : St I.
  Local Notation n := (length data).
  Local Notation covs := (repeat (cov0 I) n).
  Hypothesis Hrows : rows_ok I data (at_ covs).
  Variable P : Mix I -> Prop.
  Hypothesis HP : @mixing_safe I data P.
  Hypothesis Hm : P mix0.
  Hypothesis Hk : (k <= n)%nat.
  Hypothesis Hpos : forall i, (pos i < num_components I data k)%nat.
  Local Notation h0 := (mkHier I [] 0%Z (stats0 I) st false None).

  Lemma start_ok : forall uhp r, (uhp = true -> conj I = true /\ other_draw I = None) -> (1 <= n)%nat ->
    exists a r', start I (Ok hyp0) (Ok mix0) data k pos st uhp r = Ok (a, r') /\ @GInv I data covs false a /\ P (a_mix a).
  Proof.
    intros uhp r Hu Hn. unfold start. cbn [rbind].
    destruct (@init_clusters_ok I L data covs Hrows uhp hyp0 mix0 k pos h0 r Hu Hn Hk Hpos) as (a & r' & E & G & _ & _ & Em & _).
    { unfold ph_ok. cbn. discriminate. }
    exists a, r'. split; [exact E|]. split; [eapply GInv_untrack; eauto|now rewrite Em].
  Qed.

  Lemma complete : forall (Q : alg I -> Prop) init step maxiter burnin,
    (forall a, Q a -> a_uv a <> []) -> (exists a r, init = Ok (a, r) /\ Q a) ->
    (forall a r, Q a -> exists a' r', step (a, r) = Ok (a', r') /\ Q a') ->
    exists s out, run init step maxiter burnin = Ok (s, out).
  Proof.
    intros Q init step maxiter burnin Hq (a & r & Ei & Qa) Hs. unfold run. rewrite Ei. cbn [rbind].
    destruct (@run_complete I step Q Hs Hq burnin maxiter a r Qa) as (a' & r' & out & E & _). eauto.
  Qed.

  Lemma neal2_complete : forall maxiter burnin r, (2 <= n)%nat -> exists s out, neal2_run I (Ok hyp0) (Ok mix0) data k pos st maxiter burnin r = Ok (s, out).
  Proof.
    intros maxiter burnin r Hn. apply (complete (fun a => @GInv I data covs false a /\ P (a_mix a))).
    - intros a [G _]. apply (@GInv_uv_pos I data covs false a); [lia|exact G].
    - apply start_ok; [exact (uhp_false I)|lia].
    - intros a q [G M]. now apply neal2_step_ok.
  Qed.
  Lemma neal3_complete : forall maxiter burnin r, conj I = true -> other_draw I = None -> (2 <= n)%nat ->
    exists s out, neal3_run I (Ok hyp0) (Ok mix0) data k pos st maxiter burnin r = Ok (s, out).
  Proof.
    intros maxiter burnin r Hc Ho Hn. apply (complete (fun a => @GInv I data covs false a /\ P (a_mix a))).
    - intros a [G _]. apply (@GInv_uv_pos I data covs false a); [lia|exact G].
    - apply start_ok; [auto|lia].
    - intros a q [G M]. now apply neal3_step_ok.
  Qed.
  Lemma neal8_complete : forall n_aux maxiter burnin r, (1 <= n_aux)%nat -> (1 <= n)%nat ->
    exists s out, neal8_run I (Ok hyp0) (Ok mix0) data k pos st n_aux maxiter burnin r = Ok (s, out).
  Proof.
    intros n_aux maxiter burnin r Hx Hn. apply (complete (fun a => @GInv8 I data covs n_aux a /\ P (a_mix a))).
    - intros a [[G _] _]. apply (@GInv_uv_pos I data covs false a); [lia|exact G].
    - destruct (start_ok false r (uhp_false I) Hn) as (a & r' & E & G & M). rewrite E. cbn [rbind].
      destruct (@neal8_init_aux_ok I n_aux a) as (aux & Ea & La & Ha). { eapply GInv_uv_pos; eauto. }
      rewrite Ea. cbn [rbind]. exists (set_aux a aux), r'. split; [reflexivity|]. split; [|exact M]. split; [exact G|apply aux_iff; auto].
    - intros a q [G M]. now apply neal8_step_all_ok.
  Qed.
End Complete.

(** ** Runs end normally or throw *)
Definition ends {A : Type} (x : res A) : Prop := (exists v, x = Ok v) \/ exists msg, x = Throw msg.
Lemma mixing_update_ends : forall G m cards al r, ends (mixing_update G m cards al r).
Proof.
  intros G [[t|a b|] s|[t d|] s] cards al r; cbn [mixing_update dp_update py_update rbind]; unfold ends; eauto.
  destruct (g_gamma G (dp_tot s + 1) (INR (length al)) r) as [phi r1]. destruct (g_unif G 0 1 r1) as [u r2].
  match goal with |- context [g_gamma G ?x ?y r2] => destruct (g_gamma G x y r2) as [v r3] end. unfold gamma_rng.
  destruct (gtb (dp_tot s + 1) 0 && gtb (INR (length al)) 0)%bool; cbn [rbind]; [|eauto].
  match goal with |- context [if ?b then _ else _] => destruct b end; cbn [rbind]; eauto.
Qed.

Section Ends.
  Variable I : Iface.
  Variable L : laws I.
  Variable data : list (Datum I).
  Variable hyp0 : Hyp I.
  Variable mix0 : Mix I.
  Variable k : nat.
  Variable pos : nat -> nat.
  Variable st : St I.
  Local Notation n := (length data).
  Local Notation covs := (repeat (cov0 I) n).
  Hypothesis Hrows : rows_ok I data (at_ covs).
  Variable P : Mix I -> Prop.
  Hypothesis HP : forall m, P m -> masses_ok I m n.
  Hypothesis HU : forall m cards al r, P m -> ends (mix_update I m cards al r).
  Hypothesis HV : forall m cards al r m' r', P m -> mix_update I m cards al r = Ok (m', r') -> P m'.
  Hypothesis Hm : P mix0.
  Hypothesis Hk : (k <= n)%nat.
  Hypothesis Hpos : forall i, (pos i < num_components I data k)%nat.

  (** The last phases of an iteration: only the mixing can throw. *)
  Lemma tail_exact : forall uhp (a : alg I) r, (uhp = true -> conj I = true /\ other_draw I = None) -> (1 <= n)%nat -> @GInv I data covs false a ->
    exists a2 r2 cards, length cards = length (a_uv a) /\ a_mix a2 = a_mix a /\ a_aux a2 = a_aux a /\ @GInv I data covs false a2 /\
    (s2 <- sample_unique_values uhp (a, r) ;; s3 <- update_hierarchy_hypers s2 ;; update_mixing s3) =
    ('(m, r') <- mix_update I (a_mix a) cards (a_alloc a) r2 ;; Ok (set_mix a2 m, r')).
  Proof.
    intros uhp a r Hu Hn Ha.
    destruct (@sample_unique_values_ok I L data covs uhp false Hu (@trk_false _) a r Ha) as (a1 & r1 & E1 & G1 & Eal & _ & Em & Ex & Eids).
    rewrite E1. cbn [rbind]. unfold update_hierarchy_hypers.
    destruct (a_uv a1) as [|h0 uv] eqn:Euv; [exfalso; eapply GInv_uv_pos; eauto|]. cbn [at_ nth_error rbind].
    match goal with |- context [hyp_update I ?a ?b ?c] => destruct (hyp_update I a b c) as [hy r2] end. cbn [rbind]. unfold update_mixing.
    eexists (set_hyp a1 hy), r2, _. split; [|split; [|split; [|split; [|]]]].
    5: { rewrite <- Em, <- Eal. reflexivity. }
    - cbn [a_uv set_hyp]. rewrite Euv, map_length. apply (f_equal (@length _)) in Eids. rewrite !map_length in Eids. rewrite <- Eids. try rewrite Euv. reflexivity.
    - exact Em.
    - exact Ex.
    - now apply GInv_set_hyp.
  Qed.

  Lemma run_ends : forall (Q : alg I -> Prop) init step maxiter burnin, (forall a, Q a -> a_uv a <> []) -> (exists a r, init = Ok (a, r) /\ Q a) ->
    (forall a r, Q a -> (exists a' r', step (a, r) = Ok (a', r') /\ Q a') \/ exists msg, step (a, r) = Throw msg) ->
    ends (run init step maxiter burnin).
  Proof.
    intros Q init step maxiter burnin Hq (a & r & Ei & Qa) Hs. unfold run. rewrite Ei. cbn [rbind]. generalize (@nil (snapshot I)) as out.
    generalize (seq 0 maxiter) as is. clear Ei. intro is. revert a r Qa. induction is as [|i is IH]; intros a r Qa out; cbn [rfold]; [left; eauto|].
    unfold run_body at 1. destruct (Hs a r Qa) as [(a' & r' & E & Q')|(msg & E)]; rewrite E; cbn [rbind]; [|right; eauto].
    destruct (burnin <=? i); [|cbn [rbind]; apply IH; exact Q'].
    unfold get_state. cbn [fst]. destruct (a_uv a') as [|h uv] eqn:Eu; [exfalso; eapply Hq; eauto|]. cbn [at_ nth_error rbind]. apply IH. exact Q'.
  Qed.

  Lemma tail_ends : forall uhp (a : alg I) r, (uhp = true -> conj I = true /\ other_draw I = None) -> (1 <= n)%nat -> @GInv I data covs false a -> P (a_mix a) ->
    (exists a' r', (s2 <- sample_unique_values uhp (a, r) ;; s3 <- update_hierarchy_hypers s2 ;; update_mixing s3) = Ok (a', r') /\ @GInv I data covs false a' /\ P (a_mix a') /\ a_aux a' = a_aux a) \/
    (exists msg, (s2 <- sample_unique_values uhp (a, r) ;; s3 <- update_hierarchy_hypers s2 ;; update_mixing s3) = Throw msg).
  Proof.
    intros uhp a r Hu Hn Ha Pa. destruct (tail_exact uhp a r Hu Hn Ha) as (a2 & r2 & cards & _ & _ & Ex & G2 & E). rewrite E.
    destruct (HU (a_mix a) cards (a_alloc a) r2 Pa) as [([m r'] & Em)|(msg & Em)]; rewrite Em; cbn [rbind]; [left|right; eauto].
    exists (set_mix a2 m), r'. split; [reflexivity|]. split; [exact G2|]. split; [exact (HV _ _ _ _ _ _ Pa Em)|exact Ex].
  Qed.

  Lemma neal2_ends : forall maxiter burnin r, (2 <= n)%nat -> ends (neal2_run I (Ok hyp0) (Ok mix0) data k pos st maxiter burnin r).
  Proof.
    intros maxiter burnin r Hn. apply (run_ends (fun a => @GInv I data covs false a /\ P (a_mix a))).
    - intros a [G _]. apply (@GInv_uv_pos I data covs false a); [lia|exact G].
    - apply (start_ok I L data hyp0 mix0 k pos st Hrows P Hm Hk Hpos); [exact (uhp_false I)|lia].
    - intros a q [G M]. unfold base_step, neal2_sample_allocations.
      destruct (@neal_sweep_ok I L data covs Hrows false false (uhp_false I) (@trk_false _) (neal2_lpdf data covs)
                (@neal2_lpdf_ok I data covs Hrows false) a q (seq 0 n)) as (a1 & r1 & E1 & G1 & _ & Em & _); auto.
      { intros i Hi. apply in_seq in Hi. lia. }
      rewrite E1. cbn [rbind]. destruct (tail_ends false a1 r1 (uhp_false I) ltac:(lia) G1 ltac:(now rewrite Em)) as [(a' & r' & E & G' & M' & _)|K]; [left; eauto|right; exact K].
  Qed.
  Lemma neal3_ends : forall maxiter burnin r, conj I = true -> other_draw I = None -> (2 <= n)%nat -> ends (neal3_run I (Ok hyp0) (Ok mix0) data k pos st maxiter burnin r).
  Proof.
    intros maxiter burnin r Hc Ho Hn. apply (run_ends (fun a => @GInv I data covs false a /\ P (a_mix a))).
    - intros a [G _]. apply (@GInv_uv_pos I data covs false a); [lia|exact G].
    - apply (start_ok I L data hyp0 mix0 k pos st Hrows P Hm Hk Hpos); [auto|lia].
    - intros a q [G M]. unfold base_step, neal3_sample_allocations.
      destruct (@neal_sweep_ok I L data covs Hrows true false (fun _ => Logic.conj Hc Ho) (@trk_false _) (neal3_lpdf data covs)
                (fun a i => @neal3_lpdf_ok I data covs Hrows false a i Ho) a q (seq 0 n)) as (a1 & r1 & E1 & G1 & _ & Em & _); auto.
      { intros i Hi. apply in_seq in Hi. lia. }
      rewrite E1. cbn [rbind]. destruct (tail_ends true a1 r1 (fun _ => Logic.conj Hc Ho) ltac:(lia) G1 ltac:(now rewrite Em)) as [(a' & r' & E & G' & M' & _)|K]; [left; eauto|right; exact K].
  Qed.
  Lemma neal8_ends : forall n_aux maxiter burnin r, (1 <= n_aux)%nat -> (1 <= n)%nat -> ends (neal8_run I (Ok hyp0) (Ok mix0) data k pos st n_aux maxiter burnin r).
  Proof.
    intros n_aux maxiter burnin r Hx Hn. apply (run_ends (fun a => @GInv8 I data covs n_aux a /\ P (a_mix a))).
    - intros a [[G _] _]. apply (@GInv_uv_pos I data covs false a); [lia|exact G].
    - destruct (start_ok I L data hyp0 mix0 k pos st Hrows P Hm Hk Hpos false r (uhp_false I) Hn) as (a & r' & E & G & M). rewrite E. cbn [rbind].
      destruct (@neal8_init_aux_ok I n_aux a) as (aux & Ea & La & Ha). { eapply GInv_uv_pos; eauto. }
      rewrite Ea. cbn [rbind]. exists (set_aux a aux), r'. split; [reflexivity|]. split; [|exact M]. split; [exact G|apply aux_iff; auto].
    - intros a q [G M]. unfold base_step, neal8_sample_allocations.
      destruct (@neal8_sweep_ok I L data covs Hrows n_aux a q (seq 0 n)) as (a1 & r1 & E1 & [G1 [X1 X2]] & _ & Em); auto.
      { intros i Hi. apply in_seq in Hi. lia. }
      rewrite E1. cbn [rbind]. destruct (tail_ends false a1 r1 (uhp_false I) Hn G1 ltac:(now rewrite Em)) as [(a' & r' & E & G' & M' & Ex)|K]; [left|right; exact K].
      exists a', r'. split; [exact E|]. split; [|exact M']. split; [exact G'|]. split; rewrite Ex; assumption.
  Qed.
  (** An exception of the first update of the mixing ends the program. *)
  Lemma neal2_throws : forall maxiter burnin r, (2 <= n)%nat -> (1 <= maxiter)%nat ->
    (forall cards al q, cards <> [] -> length al = n -> exists msg, mix_update I mix0 cards al q = Throw msg) ->
    exists msg, neal2_run I (Ok hyp0) (Ok mix0) data k pos st maxiter burnin r = Throw msg.
  Proof.
    intros maxiter burnin r Hn Hi Ht.
    destruct (start_ok I L data hyp0 mix0 k pos st Hrows (fun m => m = mix0) eq_refl Hk Hpos false r (uhp_false I) ltac:(lia)) as (a & r1 & E & G0 & M0).
    destruct maxiter as [|mi]; [lia|]. unfold neal2_run, run. rewrite E. cbn [rbind seq rfold]. unfold run_body at 1. unfold base_step, neal2_sample_allocations.
    destruct (@neal_sweep_ok I L data covs Hrows false false (uhp_false I) (@trk_false _) (neal2_lpdf data covs)
                (@neal2_lpdf_ok I data covs Hrows false) a r1 (seq 0 n)) as (a1 & r2 & E1 & G1 & _ & Em1 & _); auto.
    { intros i Hin. apply in_seq in Hin. lia. }
    { rewrite M0. now apply HP. }
    rewrite E1. cbn [rbind]. destruct (tail_exact false a1 r2 (uhp_false I) ltac:(lia) G1) as (a2 & r3 & cards & Lc & _ & _ & _ & E2).
    rewrite E2, Em1, M0. destruct (Ht cards (a_alloc a1) r3) as (msg & Et).
    - intro F. rewrite F in Lc. apply (@GInv_uv_pos I data covs false a1); [lia|exact G1|]. destruct (a_uv a1); [reflexivity|discriminate].
    - apply G1.
    - exists msg. rewrite Et. reflexivity.
  Qed.
End Ends.
