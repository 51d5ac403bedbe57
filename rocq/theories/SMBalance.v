(** * Split-and-merge: acceptance ratio against the posterior, reversibility. *)
From Coq Require Import String.
From Coq Require Import Bool List Arith ZArith Reals Lra Lia Permutation.
From Verif Require Import Base Hier Algos SplitMerge Run Spec MargFacts NealFacts InitFacts MargMore MargProps SMFacts SMProps.
From Verif Require Import PartSpec MixFacts GibbsSpec GibbsComb GibbsPost GibbsFacts SMPost SMRatio SMSim.
Import ListNotations.
Local Open Scope R_scope.
Arguments prodR l : simpl never.
Arguments sumR l : simpl never.

(** Data to reassign, launch state and restricted scans
    (split_and_merge_algorithm.cc:37-49): the part of an update before the
    proposal. *)
Definition launch_state (I : Iface) (data : list (Datum I)) (n_restr f s : nat) (a : alg I) (r : Rng I) : res (rgs I * Rng I) :=
  idx <- restricted_idx f s a ;;
  '(g, r3) <- launch data f s idx a r ;;
  rfold (fun st (_ : nat) => '((g', _), r') <- restricted_gs data a f false (fst st) (snd st) ;; Ok (g', r')) (seq 0 n_restr) (g, r3).

Lemma rbind_assoc : forall A B C (e : res A) (k : A -> res B) (k2 : B -> res C),
  rbind (rbind e k) k2 = rbind e (fun x => rbind (k x) k2).
Proof. intros A B C [x| | |] k k2; reflexivity. Qed.
Lemma rbind_ext : forall A B (e : res A) (k k2 : A -> res B), (forall x, k x = k2 x) -> rbind e k = rbind e k2.
Proof. intros A B [x| | |] k k2 H; simpl; auto. Qed.

Lemma mh_update_eq : forall (I : Iface) (data : list (Datum I)) n_restr a r,
  mh_update data n_restr (a, r) =
  ('(f, r1) <- unif I (length data) r ;;
   '(s0, r2) <- unif I (length data - 1) r1 ;;
   let s := if (f <=? s0)%nat then S s0 else s0 in
   '(g, r3) <- launch_state I data n_restr f s a r2 ;;
   split_or_merge data f s g a r3).
Proof.
  intros I data n_restr a r. unfold mh_update, launch_state. apply rbind_ext. intros [f r1]. apply rbind_ext. intros [s0 r2]. cbv zeta.
  rewrite rbind_assoc. apply rbind_ext. intros idx. rewrite rbind_assoc. apply rbind_ext. intros [g r3]. reflexivity.
Qed.

Section Bal.
Variable I : Iface.
Variable L : laws I.
Variable data : list (Datum I).
Notation n := (length data).
Notation c0 := (cov0 I).
Notation cvf := (fun _ : nat => Ok (cov0 I)).
Hypothesis Hrows : rows_ok I data cvf.
Hypothesis Hcj : conj I = true.
Hypothesis Hod : other_draw I = None.
Variable val : W I -> R.
Hypothesis val_add : forall a b, val (wadd I a b) = val a * val b.
Hypothesis val_0 : val (w0 I) = 1.
Hypothesis val_neg : forall w, 0 < val w -> val (wneg I w) = / val w.
Hypothesis val_soft : forall x y c, 0 < val x -> 0 < val y -> (c < 2)%nat -> 0 < val (log_softmax I [x; y] c).
Variables t d : R.
Hypothesis Hd : 0 <= d < 1.
Hypothesis Ht : - d < t.
Variable hy : Hyp I.
Variable M : list nat -> R.
Hypothesis HM : marginal_likelihood I data (covs0 I data) val hy M.

Let M_pos : forall ids, ids <> [] -> 0 < M ids := proj1 HM.
Let M_perm : forall ids ids', Permutation ids ids' -> M ids = M ids' := proj1 (proj2 HM).
Notation bl := (block d).
Let bpos : forall m, 0 < bl m := fun m => @block_pos d m (proj2 Hd).
Notation post_ := (posterior (fun l => ewens_pitman t d (sizes_of l)) M).
Notation GS_ := (@GS I data true).
Notation RInv_ := (@RInv I data hy).

Let tpos : 0 < t + 2 * d.
Proof. lra. Qed.

Lemma Inv_has : forall gf uv c h, @Inv I data cvf true hy gf uv -> nth_error uv c = Some h -> has I data hy h (h_ids h).
Proof.
  intros gf uv c h [H1 H2] Hc. destruct (H2 c h Hc) as ((K & F) & P & E). split; [split; [exact K|split; [exact P|tauto]]|].
  split; [apply ssorted_NoDup, K|]. split.
  - intros j Hj. apply E in Hj. apply H1 in Hj. tauto.
  - intros _. destruct (F eq_refl) as [_ F2]. exact F2.
Qed.

(** The probability of a scan is positive. *)
Lemma step_pos : forall trk (a : alg I) f s orig g lp r k g2 lp2 r2,
  @GS I data trk a -> a_hyp a = hy -> (f < n)%nat -> (s < n)%nat -> f <> s -> @IdxOK I data f s a (g_idx g) -> pair_masses I val (a_mix a) n t d ->
  RInv_ f s g -> rgs_step data a f orig ((g, lp), r) k = Ok ((g2, lp2), r2) -> 0 < val lp -> 0 < val lp2.
Proof.
  intros trk a f s orig g lp r k g2 lp2 r2 G Hh Hf Hs Hfs HX Hm (gf & HI & Lg & Gf & Gs & Mm & La & Hk) H Hlp.
  pose proof (idx_bound Hf Hs Hfs HX) as Hb. destruct HX as (X1 & X2 & X3 & X4 & X5). unfold rgs_step in H.
  apply rb in H. destruct H as (i & Ei & H). apply rb in H. destruct H as (ck & Eck & H). apply rb in H. destruct H as (y & Ey & H).
  apply rb in H. destruct H as (guv1 & Er & H). apply rb in H. destruct H as (wa & Ea & H). apply rb in H. destruct H as (wb & Eb & H).
  apply rb in H. destruct H as ([c r3] & Ec & H). apply rb in H. destruct H as (guv2 & Ead & H). injection H as <- <- <-.
  assert (Ni : nth_error (g_idx g) k = Some i) by (unfold at_ in Ei; destruct (nth_error (g_idx g) k); congruence).
  assert (Nk : nth_error (g_alloc g) k = Some ck) by (unfold at_ in Eck; destruct (nth_error (g_alloc g) k); congruence).
  assert (Hin : In i (g_idx g)) by (eapply nth_error_In; eauto). destruct (X4 i Hin) as [Hi _].
  assert (Hif : i <> f) by congruence. assert (His : i <> s) by congruence.
  pose proof (Hk k i ck Ni Nk) as Gi. rewrite Hh in *.
  destruct (@remove_in_ok I L data cvf Hrows true (fun _ => Logic.conj Hcj Hod) true (fun x => x) hy gf (g_uv g) i ck y c0)
    as (guv1' & E1 & L1 & HI1 & _); auto.
  rewrite E1 in Er. injection Er as ->.
  set (gf1 := fun j => if (j =? i)%nat then None else gf j) in *.
  assert (Gf1 : gf1 f = Some 0%nat). { unfold gf1. apply Nat.neq_sym, Nat.eqb_neq in Hif. rewrite Hif. auto. }
  assert (Gs1 : gf1 s = Some 1%nat). { unfold gf1. apply Nat.neq_sym, Nat.eqb_neq in His. rewrite His. auto. }
  assert (Gi1 : gf1 i = None) by (unfold gf1; rewrite Nat.eqb_refl; reflexivity).
  assert (P : forall c0_ w j, rgs_logproba a (length (g_idx g)) y guv1 c0_ = Ok w -> gf1 j = Some c0_ -> 0 < val w).
  { intros c0_ w j E Gj. unfold rgs_logproba in E. apply rb in E. destruct E as (h & Eh & E).
    assert (Nh : nth_error guv1 c0_ = Some h) by (unfold at_ in Eh; destruct (nth_error guv1 c0_); congruence).
    pose proof (Inv_has _ _ _ _ HI1 Nh) as Hh1. destruct HI1 as [_ HI2]. destruct (HI2 _ _ Nh) as (_ & _ & Em).
    assert (Ne : h_ids h <> []) by (intros X; apply Em in Gj; rewrite X in Gj; exact Gj).
    destruct (mass_card I data val t d Hd hy (a_mix a) (length (g_idx g) + 2 - 1) _ _ Hm ltac:(lia) Hh1 Ne) as (m & Em1 & _ & Pm).
    rewrite Em1 in E. cbn [rbind] in E. rewrite Hh in E.
    destruct (has_pred I L data Hcj Hod val hy M HM h (h_ids h) i y Hh1 Ne Ey Hi) as (p & Ep & Vp).
    { intros X. apply Em in X. congruence. }
    rewrite Ep in E. cbn [rbind] in E. injection E as <-. rewrite val_add. apply Rmult_lt_0_compat; [exact Pm|].
    pose proof (M_pos _ Ne). pose proof (M_pos (i :: h_ids h) ltac:(discriminate)).
    apply Rmult_lt_reg_r with (M (h_ids h)); [lra|]. rewrite Vp. lra. }
  rewrite val_add. apply Rmult_lt_0_compat; [exact Hlp|]. apply val_soft; [eapply P; eauto|eapply P; eauto|].
  destruct orig.
  - apply rb in Ec. destruct Ec as (ai & _ & Ec). apply rb in Ec. destruct Ec as (af & _ & Ec). injection Ec as <- _. destruct (ai =? af)%nat; lia.
  - cbn [cat] in Ec. pose proof (@cat_lt I L [wa; wb] r ltac:(discriminate)) as K. destruct (categorical I [wa; wb] r) as [c_ r']. injection Ec as <- _. simpl in K. lia.
Qed.

Lemma scan_pos : forall trk (a : alg I) f s orig g r g2 lp2 r2,
  @GS I data trk a -> a_hyp a = hy -> (f < n)%nat -> (s < n)%nat -> f <> s -> @IdxOK I data f s a (g_idx g) -> @sm_masses_ok I data (a_mix a) ->
  pair_masses I val (a_mix a) n t d ->
  RInv_ f s g -> restricted_gs data a f orig g r = Ok ((g2, lp2), r2) -> 0 < val lp2 /\ RInv_ f s g2 /\ g_idx g2 = g_idx g.
Proof.
  intros trk a f s orig g r g2 lp2 r2 G Hh Hf Hs Hfs HX Hsm Hm HR H. unfold restricted_gs in H.
  destruct (@rfold_inv_simple _ _ (rgs_step data a f orig)
    (fun st => (RInv_ f s (fst (fst st)) /\ g_idx (fst (fst st)) = g_idx g) /\ 0 < val (snd (fst st)))
    (seq 0 (length (g_idx g))) ((g, w0 I), r)) as ([[g' lp'] r'] & E & K).
  - cbn [fst snd]. rewrite val_0. split; [auto|lra].
  - intros k [[g1 lp1] r1] Hk [[R1 E1] P1]. cbn [fst snd] in *. apply in_seq in Hk.
    destruct (@rgs_step_ok I L data Hrows Hcj Hod trk a f s orig g1 lp1 r1 k) as (g3 & lp3 & r3 & E3 & R3 & I3); auto.
    { rewrite E1; auto. } { rewrite Hh; exact R1. } { rewrite E1. lia. }
    exists ((g3, lp3), r3). rewrite E3. split; auto. cbn [fst snd]. rewrite Hh in R3. split; [split; [auto|congruence]|].
    apply (step_pos trk a f s orig g1 lp1 r1 k g3 lp3 r3); auto. rewrite E1; auto.
  - rewrite H in E. injection E as <- <- <-. cbn [fst snd] in K. tauto.
Qed.

(** Labels after a split. *)
Lemma split_alloc : forall trk (a : alg I) f s g a', @GS I data trk a -> a_hyp a = hy -> (f < n)%nat -> (s < n)%nat -> f <> s ->
  RInv_ f s g -> @IdxOK I data f s a (g_idx g) -> nth_error (a_alloc a) f = nth_error (a_alloc a) s ->
  proposal_update data f s true g a = Ok a' ->
  exists g0 g1 cf, at_ (g_uv g) 0 = Ok g0 /\ at_ (g_uv g) 1 = Ok g1 /\ nth_error (a_alloc a) f = Some cf /\
    (forall j, nth_error (a_alloc a') j = move_fun (nth_error (a_alloc a)) (h_ids g0) (length (a_uv a)) j) /\
    (forall j, In j (h_ids g1 ++ h_ids g0) <-> nth_error (a_alloc a) j = Some cf) /\
    (forall x, In x (a_alloc a) -> (x < length (a_uv a))%nat) /\
    ssorted (h_ids g0) /\ ssorted (h_ids g1) /\ In f (h_ids g0) /\ In s (h_ids g1) /\
    (forall j, In j (h_ids g0) -> In j (h_ids g1) -> False).
Proof.
  intros trk a f s g a' G Hh Hf Hs Hfs HR HX Hsp H. pose proof G as (Hl & HI & Hne). pose proof HI as [H1 H2].
  unfold proposal_update in H.
  assert (Hf' : (f < length (a_alloc a))%nat) by lia. assert (Hs' : (s < length (a_alloc a))%nat) by lia.
  destruct (at_ok _ Hf') as (cf & Ecf & Ncf). destruct (at_ok _ Hs') as (cs & Ecs & Ncs).
  assert (cs = cf) by congruence. subst cs.
  destruct (H1 f cf Ncf) as [_ Lf]. rewrite Ecf in H. cbn [rbind] in H.
  assert (H0u : (0 < length (a_uv a))%nat) by lia. destruct (at_ok _ H0u) as (h0 & Eh0 & _).
  rewrite Eh0 in H. cbn [rbind] in H.
  destruct HR as (gf & [R1 R2] & Lg & Gf & Gs & Mm & _).
  assert (HL0 : (0 < length (g_uv g))%nat) by lia. destruct (at_ok _ HL0) as (g0 & E0 & N0).
  assert (HL1 : (1 < length (g_uv g))%nat) by lia. destruct (at_ok _ HL1) as (g1 & E1 & N1).
  rewrite E0 in H. cbn [rbind] in H.
  destruct (R2 _ g0 N0) as (((S0 & _) & _) & _ & M0). destruct (R2 _ g1 N1) as (((S1 & _) & _) & _ & M1).
  destruct HX as (X1 & X2 & X3 & X4 & X5).
  set (a1 := set_uv a (a_uv a ++ [h_clone h0])) in *.
  assert (Hgj : forall j, gf j <> None -> nth_error (a_alloc a) j = Some cf).
  { intros j Hj. apply Mm in Hj. destruct Hj as [->|[->|Hj]]; auto. destruct (X4 j Hj) as [_ [Y|Y]]; congruence. }
  assert (Hfin : In f (h_ids g0)) by (apply M0; auto).
  assert (Hsin : In s (h_ids g1)) by (apply M1; auto).
  destruct (@move_split_ok I L data Hrows Hcj Hod (h_ids g0) a1 cf (length (a_uv a)) s)
      as (a'' & E & A1 & A2 & A3 & A4 & _); auto.
  { intros X. rewrite X in Hfin. auto. }
  { apply ssorted_NoDup; auto. }
  { intros X. apply M0 in X. congruence. }
  { simpl. apply push_empty_ok; auto. apply (Inv_weak HI). }
  { intros j Hj. simpl. apply Hgj. apply M0 in Hj. congruence. }
  { simpl. rewrite app_length. simpl. lia. }
  { lia. }
  rewrite E in H. injection H as ->. exists g0, g1, cf. split; auto. split; auto. split; auto. split; [exact A4|]. split; [|split].
  - intros j. rewrite in_app_iff, M0, M1. split.
    + intros [X|X]; apply Hgj; congruence.
    + intros X. assert (Y : gf j <> None).
      { apply Mm. destruct (Nat.eq_dec j f); auto. destruct (Nat.eq_dec j s); auto. right; right. apply X5; auto; [|left; congruence].
        assert (j < length (a_alloc a))%nat by (apply nth_error_Some; congruence). lia. }
      destruct (gf j) as [c|] eqn:Eg; [|congruence]. destruct (R1 j c Eg) as [_ K]. rewrite Lg in K. destruct c as [|[|c]]; auto. lia.
  - intros x Hx. apply In_nth_error in Hx. destruct Hx as (j & Hj). apply H1 in Hj. tauto.
  - repeat split; auto. intros j Y0 Y1. apply M0 in Y0. apply M1 in Y1. congruence.
Qed.

Lemma NoDup_app2 : forall (l1 l2 : list nat), NoDup l1 -> NoDup l2 -> (forall j, In j l2 -> In j l1 -> False) -> NoDup (l1 ++ l2).
Proof.
  induction l1 as [|x l1 IH]; intros l2 N1 N2 H; simpl; auto. inversion N1; subst. constructor.
  - rewrite in_app_iff. intros [X|X]; [auto|]. apply (H x); [exact X|left; reflexivity].
  - apply IH; auto. intros j A B. apply (H j); [exact A|right; exact B].
Qed.

(** A split: likelihood ratio times prior ratio against the posterior. *)
Lemma split_ratio : forall trk (a : alg I) f s g a', @GS I data trk a -> a_hyp a = hy -> (f < n)%nat -> (s < n)%nat -> f <> s ->
  pair_masses I val (a_mix a) n t d ->
  RInv_ f s g -> @IdxOK I data f s a (g_idx g) -> nth_error (a_alloc a) f = nth_error (a_alloc a) s ->
  proposal_update data f s true g a = Ok a' ->
  exists ll lpr, compute_log_ratios data a g f s true = Ok (ll, lpr) /\ 0 < val ll /\ 0 < val lpr /\
    val lpr * val ll * ((t + d * INR (length (distinct (a_alloc a)))) * post_ (a_alloc a)) = (t + 2 * d) * post_ (a_alloc a').
Proof.
  intros trk a f s g a' G Hh Hf Hs Hfs Hm HR HX Hsp H.
  destruct (split_alloc trk a f s g a' G Hh Hf Hs Hfs HR HX Hsp H) as (g0 & g1 & cf & E0 & E1 & Ecf & A4 & Mem & Lt & S0 & S1 & If & Is & Dis).
  pose proof G as (Hl & HI & Hne).
  assert (Hb : forall j, In j (h_ids g1 ++ h_ids g0) -> (j < n)%nat).
  { intros j Hj. apply Mem in Hj. rewrite <- Hl. apply nth_error_Some. congruence. }
  destruct (ratios_val I L data Hrows Hcj Hod val val_add val_0 val_neg t d Hd hy M HM a g f s true (h_ids g0) (h_ids g1)) as (ll & lpr & E & V1 & V2); auto.
  { intros X. specialize (Lt cf). rewrite X in Lt. apply nth_error_In in Ecf. apply Lt in Ecf. simpl in Ecf. lia. }
  { rewrite E0. reflexivity. } { rewrite E1. reflexivity. }
  { intros j Hj. apply Hb, in_or_app. auto. } { intros j Hj. apply Hb, in_or_app. auto. }
  assert (N0 : h_ids g0 <> []) by (intros X; rewrite X in If; destruct If).
  assert (N1 : h_ids g1 <> []) by (intros X; rewrite X in Is; destruct Is).
  pose proof (M_pos _ N0) as P0. pose proof (M_pos _ N1) as P1.
  assert (Pj : 0 < M (h_ids g1 ++ h_ids g0)) by (apply M_pos; destruct (h_ids g1); [congruence|discriminate]).
  pose proof (bpos (length (h_ids g0))) as b0. pose proof (bpos (length (h_ids g1))) as b1. pose proof (bpos (length (h_ids g0) + length (h_ids g1))) as b01.
  exists ll, lpr. split; auto. cbv zeta in V1, V2. rewrite V1, V2. split; [|split].
  - apply Rdiv_lt_0_compat; auto. apply Rmult_lt_0_compat; auto.
  - apply Rdiv_lt_0_compat; auto. repeat apply Rmult_lt_0_compat; auto.
  - pose proof (posterior_split M t d Hd M_perm (a_alloc a) (a_alloc a') cf (length (a_uv a)) (h_ids g0) (h_ids g1)) as PS.
    specialize (PS A4). assert (NK : ~ In (length (a_uv a)) (a_alloc a)) by (intros X; apply Lt in X; lia).
    specialize (PS NK (NoDup_app2 _ _ (ssorted_NoDup S1) (ssorted_NoDup S0) Dis) N0 N1 Mem).
    apply Rmult_eq_reg_r with (bl (length (h_ids g0) + length (h_ids g1)) * M (h_ids g1 ++ h_ids g0)); [|apply Rgt_not_eq, Rmult_lt_0_compat; auto].
    transitivity ((t + 2 * d) * (post_ (a_alloc a') * bl (length (h_ids g0) + length (h_ids g1)) * M (h_ids g1 ++ h_ids g0))); [|ring].
    rewrite PS. field. lra.
Qed.

(** Labels after a merge. *)
Lemma merge_alloc : forall trk (a : alg I) f s g a', @GS I data trk a -> (f < n)%nat -> (s < n)%nat ->
  nth_error (a_alloc a) f <> nth_error (a_alloc a) s ->
  proposal_update data f s false g a = Ok a' ->
  exists hf hs cf cs, at_ (a_alloc a) f = Ok cf /\ at_ (a_alloc a) s = Ok cs /\ at_ (a_uv a) cf = Ok hf /\ at_ (a_uv a) cs = Ok hs /\ cf <> cs /\
    length (a_alloc a') = n /\
    (forall j, nth_error (a_alloc a') j = option_map (fun e => if (cf <? e)%nat then (e - 1)%nat else e) (move_fun (nth_error (a_alloc a)) (h_ids hf) cs j)) /\
    (forall j, In j (h_ids hf) <-> nth_error (a_alloc a) j = Some cf) /\
    (forall j, In j (h_ids hs) <-> nth_error (a_alloc a) j = Some cs) /\
    ssorted (h_ids hf) /\ ssorted (h_ids hs).
Proof.
  intros trk a f s g a' G Hf Hs Hsp H. pose proof G as (Hl & HI & Hne). pose proof HI as [H1 H2].
  unfold proposal_update in H.
  assert (Hf' : (f < length (a_alloc a))%nat) by lia. assert (Hs' : (s < length (a_alloc a))%nat) by lia.
  destruct (at_ok _ Hf') as (cf & Ecf & Ncf). destruct (at_ok _ Hs') as (cs & Ecs & Ncs).
  destruct (H1 f cf Ncf) as [_ Lf]. destruct (H1 s cs Ncs) as [_ Ls].
  assert (Hcc : cf <> cs) by congruence.
  rewrite Ecf, Ecs in H. cbn [rbind] in H. destruct (at_ok _ Lf) as (hf & Ehf & Nhf). destruct (at_ok _ Ls) as (hs & Ehs & Nhs).
  rewrite Ehf in H. cbn [rbind] in H.
  destruct (H2 cf hf Nhf) as (((S0 & _) & _) & _ & M0). destruct (H2 cs hs Nhs) as (((S1 & _) & _) & _ & M1).
  destruct (@move_merge_ok I L data Hrows Hcj Hod (h_ids hf) a cf cs s) as (a'' & E & A1 & A3 & A4 & A5 & _); auto.
  { eapply Hne; eauto. }
  { apply ssorted_NoDup; auto. }
  { apply (Inv_weak HI). }
  { intros e h He _ _. eauto. }
  rewrite E in H. injection H as ->. exists hf, hs, cf, cs. repeat split; auto; try apply M0; try apply M1.
Qed.

Lemma merge_ratio : forall trk (a : alg I) f s g a', @GS I data trk a -> a_hyp a = hy -> (f < n)%nat -> (s < n)%nat ->
  pair_masses I val (a_mix a) n t d ->
  nth_error (a_alloc a) f <> nth_error (a_alloc a) s ->
  proposal_update data f s false g a = Ok a' ->
  exists ll lpr, compute_log_ratios data a g f s false = Ok (ll, lpr) /\ 0 < val ll /\ 0 < val lpr /\
    val lpr * val ll * ((t + 2 * d) * post_ (a_alloc a)) = (t + d * INR (length (distinct (a_alloc a')))) * post_ (a_alloc a').
Proof.
  intros trk a f s g a' G Hh Hf Hs Hm Hsp H.
  destruct (merge_alloc trk a f s g a' G Hf Hs Hsp H) as (hf & hs & cf & cs & Ef & Es & Ehf & Ehs & Hcc & Hl' & A5 & M0 & M1 & S0 & S1).
  pose proof G as (Hl & HI & Hne).
  assert (Nf : nth_error (a_alloc a) f = Some cf) by (unfold at_ in Ef; destruct (nth_error (a_alloc a) f); congruence).
  assert (Ns : nth_error (a_alloc a) s = Some cs) by (unfold at_ in Es; destruct (nth_error (a_alloc a) s); congruence).
  assert (Hb0 : forall j, In j (h_ids hf) -> (j < n)%nat) by (intros j Hj; apply M0 in Hj; rewrite <- Hl; apply nth_error_Some; congruence).
  assert (Hb1 : forall j, In j (h_ids hs) -> (j < n)%nat) by (intros j Hj; apply M1 in Hj; rewrite <- Hl; apply nth_error_Some; congruence).
  assert (Dis : forall j, In j (h_ids hf) -> In j (h_ids hs) -> False) by (intros j X Y; apply M0 in X; apply M1 in Y; congruence).
  assert (If : In f (h_ids hf)) by (apply M0; exact Nf). assert (Is : In s (h_ids hs)) by (apply M1; exact Ns).
  destruct (ratios_val I L data Hrows Hcj Hod val val_add val_0 val_neg t d Hd hy M HM a g f s false (h_ids hf) (h_ids hs)) as (ll & lpr & E & V1 & V2); auto.
  { intros X. unfold at_ in Ehf. rewrite X in Ehf. destruct cf; discriminate. }
  { rewrite Ef. cbn [rbind]. rewrite Ehf. reflexivity. } { rewrite Es. cbn [rbind]. rewrite Ehs. reflexivity. }
  assert (N0 : h_ids hf <> []) by (intros X; rewrite X in If; destruct If).
  assert (N1 : h_ids hs <> []) by (intros X; rewrite X in Is; destruct Is).
  pose proof (M_pos _ N0) as P0. pose proof (M_pos _ N1) as P1.
  assert (Pj : 0 < M (h_ids hs ++ h_ids hf)) by (apply M_pos; destruct (h_ids hs); [congruence|discriminate]).
  pose proof (bpos (length (h_ids hf))) as b0. pose proof (bpos (length (h_ids hs))) as b1. pose proof (bpos (length (h_ids hf) + length (h_ids hs))) as b01.
  exists ll, lpr. split; auto. cbv zeta in V1, V2.
  assert (Q1 : 0 < M (h_ids hf) * M (h_ids hs) / M (h_ids hs ++ h_ids hf)) by (apply Rdiv_lt_0_compat; auto; apply Rmult_lt_0_compat; auto).
  assert (Q2 : 0 < (t + 2 * d) * bl (length (h_ids hf)) * bl (length (h_ids hs)) / bl (length (h_ids hf) + length (h_ids hs)))
    by (apply Rdiv_lt_0_compat; auto; repeat apply Rmult_lt_0_compat; auto).
  rewrite V1, V2. split; [apply Rinv_0_lt_compat; auto|]. split; [apply Rinv_0_lt_compat; auto|].
  set (rd := fun e => if (cf <? e)%nat then (e - 1)%nat else e) in *.
  set (ml := map (fun x => if (x =? cf)%nat then cs else x) (a_alloc a)).
  assert (Ml : forall j, nth_error ml j = move_fun (nth_error (a_alloc a)) (h_ids hf) cs j).
  { intros j. unfold ml, move_fun. rewrite nth_error_map. destruct (in_dec Nat.eq_dec j (h_ids hf)) as [X|X].
    - apply M0 in X. rewrite X. cbn [option_map]. rewrite Nat.eqb_refl. reflexivity.
    - destruct (nth_error (a_alloc a) j) as [x|] eqn:Ex; [|reflexivity]. cbn [option_map]. destruct (Nat.eqb_spec x cf) as [->|Y]; [|reflexivity].
      apply M0 in Ex. contradiction. }
  assert (Nml : ~ In cf ml).
  { unfold ml. intros X. apply in_map_iff in X. destruct X as (x & X & _). destruct (Nat.eqb_spec x cf); congruence. }
  assert (Hinj : forall x y, In x ml -> In y ml -> rd x = rd y -> x = y).
  { intros x y Hx Hy. assert (x <> cf) by congruence. assert (y <> cf) by congruence. unfold rd.
    destruct (Nat.ltb_spec cf x); destruct (Nat.ltb_spec cf y); lia. }
  assert (Ea' : a_alloc a' = map rd ml).
  { apply list_ext; [rewrite map_length; unfold ml; rewrite map_length; congruence|]. intros j _. rewrite A5, nth_error_map, Ml. reflexivity. }
  assert (Pr : post_ (a_alloc a') = post_ ml).
  { apply posterior_canon; [apply (ep_prior t d Hd Ht)|]. rewrite Ea'. apply canon_iff. split; [apply map_length|].
    intros p q x y x' y' Hp Hq Hp' Hq'. rewrite nth_error_map, Hp' in Hp. rewrite nth_error_map, Hq' in Hq. cbn [option_map] in Hp, Hq.
    injection Hp as <-. injection Hq as <-. split; [apply Hinj; eapply nth_error_In; eauto|congruence]. }
  assert (Ld : length (distinct (a_alloc a')) = length (distinct ml)).
  { rewrite Ea', distinct_map by exact Hinj. apply map_length. }
  pose proof (posterior_split M t d Hd M_perm ml (a_alloc a) cs cf (h_ids hf) (h_ids hs)) as PS.
  assert (Mv : moved ml (a_alloc a) (h_ids hf) cf).
  { intros j. rewrite Ml. unfold move_fun. destruct (in_dec Nat.eq_dec j (h_ids hf)) as [X|X]; [apply M0; exact X|].
    reflexivity. }
  specialize (PS Mv Nml).
  assert (Dis' : forall j, In j (h_ids hf) -> In j (h_ids hs) -> False) by exact Dis.
  specialize (PS (NoDup_app2 _ _ (ssorted_NoDup S1) (ssorted_NoDup S0) Dis') N0 N1).
  assert (Mem : forall j, In j (h_ids hs ++ h_ids hf) <-> nth_error ml j = Some cs).
  { intros j. rewrite in_app_iff, Ml. unfold move_fun. destruct (in_dec Nat.eq_dec j (h_ids hf)) as [X|X]; [tauto|]. rewrite M1. tauto. }
  specialize (PS Mem). rewrite Pr, Ld.
  apply Rmult_eq_reg_r with (bl (length (h_ids hf)) * bl (length (h_ids hs)) * M (h_ids hf) * M (h_ids hs)); [|apply Rgt_not_eq; repeat apply Rmult_lt_0_compat; auto].
  transitivity (post_ ml * (t + d * INR (length (distinct ml))) * bl (length (h_ids hf)) * bl (length (h_ids hs)) * M (h_ids hf) * M (h_ids hs)); [|ring].
  rewrite <- PS. field. repeat split; lra.
Qed.
End Bal.
