(** * The marginal samplers' reallocation weights and their invariant law. *)
From Coq Require Import String.
From Coq Require Import Bool List Arith ZArith Reals Lra Lia Permutation.
From Verif Require Import Base Hier Algos Spec MargFacts NealFacts MargMore MargProps.
From Verif Require Import PartSpec MixFacts GibbsSpec GibbsComb GibbsPost.
Import ListNotations.
Local Open Scope R_scope.
Arguments prodR l : simpl never.
Arguments sumR l : simpl never.

(** The mixing's masses given the labels [rest] of the other observations are
    proportional to the prior probabilities of the resulting clusterings.
    [val] is the exponential of a log-weight. *)
Definition mass_at (I : Iface) (val : W I -> R) (m : Mix I) (pi : list nat -> R) (rest : list nat) : Prop :=
  exists kappa, 0 < kappa /\
    (forall x, In x rest -> exists w,
       mass_ex I m (length rest) (length (distinct rest)) (Z.of_nat (count_occ Nat.eq_dec rest x)) = Ok w /\
       pi (x :: rest) = kappa * val w) /\
    (exists w, mass_new I m (length rest) (length (distinct rest)) = Ok w /\
       forall x, ~ In x rest -> pi (x :: rest) = kappa * val w).

(** Pitman-Yor masses with strength [t] and discount [d] (Dirichlet process:
    [d = 0]), up to scale, for [n] observations in all. *)
Definition py_masses (I : Iface) (val : W I -> R) (m : Mix I) (n : nat) (t d : R) : Prop :=
  forall k, (1 <= k <= n - 1)%nat ->
    (forall card, (1 <= card)%Z -> exists w, mass_ex I m (n - 1) k card = Ok w /\ val w = IZR card - d) /\
    (exists w, mass_new I m (n - 1) k = Ok w /\ val w = t + d * INR k).

Definition ep (t d : R) (al : list nat) : R := ewens_pitman t d (sizes_of al).

Lemma ep_prior : forall t d, 0 <= d < 1 -> - d < t -> partition_prior (ep t d).
Proof.
  intros t d Hd Ht. unfold ep. split; [intros; apply ep_pos; auto|]. split.
  - intros al al' H. apply ep_perm, sizes_perm, H.
  - intros f al H. rewrite sizes_rename; auto.
Qed.

Lemma distinct_le_length : forall al, (length (distinct al) <= length al)%nat.
Proof. intros al. apply NoDup_incl_length; [apply distinct_nodup|]. intros x Hx. apply (proj1 (distinct_in _ _)) in Hx. exact Hx. Qed.

Lemma py_mass_at : forall (I : Iface) val (m : Mix I) n t d rest, 0 <= d < 1 -> - d < t -> (2 <= n)%nat ->
  length rest = (n - 1)%nat -> py_masses I val m n t d -> mass_at I val m (ep t d) rest.
Proof.
  intros I val m n t d rest Hd Ht Hn HL HM.
  assert (Hr : rest <> []) by (intros ->; simpl in HL; lia).
  pose proof (distinct_nonempty _ Hr). pose proof (distinct_le_length rest).
  destruct (HM (length (distinct rest)) ltac:(lia)) as [HE [w [HN1 HN2]]].
  exists (ep t d rest / (INR (length rest) + t)). split; [|split].
  - apply Rdiv_lt_0_compat; [apply ep_pos; auto|].
    assert (1 <= INR (length rest)) by (apply (le_INR 1); lia). lra.
  - intros x Hx. rewrite HL.
    assert (C1 : (count_occ Nat.eq_dec rest x >= 1)%nat) by (apply (proj1 (count_occ_In Nat.eq_dec rest x)) in Hx; lia).
    destruct (HE (Z.of_nat (count_occ Nat.eq_dec rest x)) ltac:(lia)) as (w' & E1 & E2).
    exists w'. split; auto. unfold ep. rewrite (ep_old t d x rest Hd Ht Hx), E2, <- INR_IZR_INZ, <- HL. field.
    assert (1 <= INR (length rest)) by (apply (le_INR 1); lia). lra.
  - exists w. rewrite HL. split; auto. intros x Hx. unfold ep. rewrite (ep_new t d x rest Hd Ht Hr Hx), HN2, <- HL. field.
    assert (1 <= INR (length rest)) by (apply (le_INR 1); lia). lra.
Qed.

Section Gibbs.
Variable I : Iface.
Variable L : laws I.
Variable data : list (Datum I).
Variable covs : list (Cov I).
Notation cvf := (at_ covs).
Notation n := (length data).
Hypothesis Hrows : rows_ok I data cvf.
Variable val : W I -> R.
Hypothesis val_add : forall a b, val (wadd I a b) = val a * val b.

(** [M ids] is the marginal likelihood of the data [ids] when predictions are
    chained: the predictive density of a further datum, given the posterior
    hyperparameters of the data in [ids], is [M (i :: ids) / M ids]. *)
Definition marginal_likelihood (hy : Hyp I) (M : list nat -> R) : Prop :=
  (forall ids, ids <> [] -> 0 < M ids) /\
  (forall ids ids', Permutation ids ids' -> M ids = M ids') /\
  (forall i d cv, at_ data i = Ok d -> cvf i = Ok cv -> val (marg_lpdf I hy d cv) = M [i]) /\
  (forall i d cv ids, at_ data i = Ok d -> cvf i = Ok cv -> NoDup (i :: ids) -> ids <> [] ->
     (forall j, In j ids -> (j < n)%nat) ->
     val (marg_lpdf I (post I hy (Z.of_nat (length ids)) (batch I data cvf ids) (init_state I hy)) d cv) * M ids
     = M (i :: ids)).

Section Trk.
Variables uhp trk : bool.
Hypothesis Huhp : uhp = true -> conj I = true /\ other_draw I = None.
Hypothesis Htrk : trk = true -> uhp = true.
Notation IV := (@Inv I data cvf trk).

Lemma inv_compact : forall hy i al uv, IV hy (hole i al) uv -> nonempty uv -> compact i al (length uv).
Proof.
  intros hy i al uv [H1 H2] Hne. split.
  - intros j x Hj Hx. apply (H1 j x). unfold hole. rewrite (proj2 (Nat.eqb_neq j i) Hj). exact Hx.
  - intros c Hc. destruct (nth_error uv c) as [h|] eqn:E; [|apply nth_error_None in E; lia].
    destruct (H2 c h E) as (_ & _ & H3). specialize (Hne c h E). destruct (h_ids h) as [|j t] eqn:Eh; [congruence|].
    exists j. assert (Hj : hole i al j = Some c) by (apply H3; left; auto).
    unfold hole in Hj. destruct (j =? i)%nat eqn:Ej; [discriminate|]. apply Nat.eqb_neq in Ej. auto.
Qed.

Lemma inv_ids : forall hy i al uv c h, IV hy (hole i al) uv -> nth_error uv c = Some h ->
  Permutation (h_ids h) (others i c al) /\ h_card h = Z.of_nat (length (others i c al)).
Proof.
  intros hy i al uv c h [H1 H2] E. destruct (H2 c h E) as (([S1 [S2 S3]] & _) & _ & H3).
  assert (P : Permutation (h_ids h) (others i c al)).
  { apply NoDup_Permutation; [apply ssorted_NoDup; auto|apply others_nodup|].
    intros j. rewrite others_in, H3. unfold hole. destruct (j =? i)%nat eqn:Ej.
    - apply Nat.eqb_eq in Ej. split; [discriminate|tauto].
    - apply Nat.eqb_neq in Ej. tauto. }
  split; auto. rewrite S2, (Permutation_length P). reflexivity.
Qed.

Lemma rmap_values : forall A B (f : A -> res B) (l : list A) (g : A -> B -> Prop),
  (forall x, In x l -> exists y, f x = Ok y /\ g x y) ->
  exists ys, rmap f l = Ok ys /\ length ys = length l /\
    forall c x y, nth_error l c = Some x -> nth_error ys c = Some y -> g x y.
Proof.
  clear. intros A B f. induction l as [|x l IH]; intros g H; cbn [rmap].
  - exists []. split; auto. split; auto. intros [|c]; discriminate.
  - destruct (H x (or_introl eq_refl)) as (y & E & G). rewrite E. cbn [rbind].
    destruct (IH g) as (ys & E2 & EL & EG); [intros; apply H; right; auto|]. rewrite E2. cbn [rbind].
    exists (y :: ys). split; auto. split; [simpl; lia|].
    intros [|c] x' y' Hx Hy; simpl in *; [congruence|eauto].
Qed.

(** The prior masses. *)
Lemma prior_mass_values : forall (a : alg I) i pi, partition_prior pi ->
  (i < n)%nat -> length (a_alloc a) = n -> IV (a_hyp a) (hole i (a_alloc a)) (a_uv a) -> nonempty (a_uv a) ->
  mass_at I val (a_mix a) pi (del (a_alloc a) i) ->
  exists pm kappa, neal2_prior_mass data a = Ok pm /\ length pm = S (length (a_uv a)) /\ 0 < kappa /\
    forall c w, nth_error pm c = Some w -> pi (c :: del (a_alloc a) i) = kappa * val w.
Proof.
  intros a i pi Hpi Hi HL HI Hne (kappa & Hk & Hex & wn & En & Hn).
  set (al := a_alloc a) in *. assert (Hi' : (i < length al)%nat) by lia.
  pose proof (inv_compact _ _ _ _ HI Hne) as HC. set (k := length (a_uv a)) in *.
  assert (EL : length (del al i) = (n - 1)%nat) by (rewrite del_length by lia; lia).
  assert (EK : length (distinct (del al i)) = k).
  { rewrite (Permutation_length (distinct_rest i k al Hi' HC)), seq_length. reflexivity. }
  rewrite EL, EK in *.
  unfold neal2_prior_mass. fold k.
  destruct (rmap_values _ _ (fun h => mass_ex I (a_mix a) (n - 1) k (h_card h)) (a_uv a)
     (fun h w => forall c, nth_error (a_uv a) c = Some h -> pi (c :: del al i) = kappa * val w)) as (ex & E1 & E2 & E3).
  { intros h Hh. apply In_nth_error in Hh. destruct Hh as [c Hc].
    destruct (inv_ids _ _ _ _ _ _ HI Hc) as [Pc Ec].
    assert (Hin : In c (del al i)). { apply (rest_in i k al Hi' HC). apply nth_error_Some. congruence. }
    destruct (Hex c Hin) as (w & F1 & F2).
    exists w. rewrite (count_rest i al Hi') in F1. rewrite Ec. split; auto.
    intros c' Hc'. destruct (inv_ids _ _ _ _ _ _ HI Hc') as [Pc' Ec'].
    assert (c' = c).
    { destruct (others i c al) as [|j t] eqn:Eo.
      { exfalso. apply (others_ne i k al Hi' HC c); [apply nth_error_Some; congruence|auto]. }
      assert (In j (others i c' al)). { apply (Permutation_in _ Pc'). apply (Permutation_in _ (Permutation_sym Pc)). left; auto. }
      assert (Hj : In j (others i c al)) by (rewrite Eo; left; auto).
      apply others_in in Hj, H. destruct Hj, H. congruence. }
    subst. auto. }
  rewrite E1, En. cbn [rbind]. exists (ex ++ [wn]), kappa. split; auto. split; [rewrite app_length; simpl; lia|].
  split; auto. intros c w Hw. destruct (Nat.lt_ge_cases c k) as [Hc|Hc].
  - rewrite nth_error_app1 in Hw by lia. destruct (nth_error (a_uv a) c) as [h|] eqn:Eh; [|apply nth_error_None in Eh; fold k in Eh; lia].
    exact (E3 c h w Eh Hw c Eh).
  - rewrite nth_error_app2 in Hw by lia. rewrite E2 in Hw. destruct (c - length (a_uv a))%nat as [|z] eqn:Ez; [|destruct z; discriminate].
    simpl in Hw. injection Hw as <-. apply Hn. intros Hin. apply (rest_in i k al Hi' HC) in Hin. lia.
Qed.

Lemma wsum_nth : forall (a b : list (W I)) c w, nth_error (wsum I a b) c = Some w ->
  exists x y, nth_error a c = Some x /\ nth_error b c = Some y /\ w = wadd I x y.
Proof.
  clear. induction a as [|x a IH]; intros b c w H; [destruct c; discriminate|].
  destruct b as [|y b]; [destruct c; discriminate|]. destruct c; simpl in H.
  - injection H as <-. exists x, y. auto.
  - apply IH in H. exact H.
Qed.

(** Labels after a choice. *)
Lemma choice_labels : forall (a : alg I) i c r,
  (2 <= n)%nat -> length (a_alloc a) = n -> (i < n)%nat ->
  IV (a_hyp a) (hole i (a_alloc a)) (a_uv a) -> nonempty (a_uv a) -> (c <= length (a_uv a))%nat ->
  exists uv r', assign data uhp cvf i c a r = Ok (set_uv (set_alloc a (upd (a_alloc a) i c)) uv, r') /\
    IV (a_hyp a) (nth_error (upd (a_alloc a) i c)) uv /\ nonempty uv.
Proof.
  intros a i c r Hn HL Hi HI Hne Hc. eapply (@assign_ok I L data cvf Hrows uhp Huhp trk Htrk); auto.
  intros _. eapply hole_uv_nonempty with (trk := trk); eauto.
Qed.

Lemma alike_of_same : forall i l l', (i < length l)%nat -> length l = length l' ->
  same_grouping (fun j => j <> i /\ (j < length l)%nat) l l' -> canon (del l i) = canon (del l' i).
Proof.
  clear. intros i l l' Hi HL HS. apply del_grp; auto.
  intros p q x y x' y' Np Nq Hp Hq Hp' Hq'.
  assert (Lp : (p < length l)%nat) by (apply nth_error_Some; congruence).
  assert (Lq : (q < length l)%nat) by (apply nth_error_Some; congruence).
  specialize (HS p q (Logic.conj Np Lp) (Logic.conj Nq Lq)). rewrite Hp, Hq, Hp', Hq' in HS.
  split; intros E.
  - assert (Some x' = Some y') by (apply HS; congruence). congruence.
  - assert (Some x = Some y) by (apply HS; congruence). congruence.
Qed.

End Trk.

(** ** Neal2 *)

Definition good (a : alg I) : Prop :=
  proper n (a_alloc a) (view (a_uv a)) /\ caches_ok data covs (a_uv a).

(** Only the masses given the grouping of the other observations matter. *)
Lemma neal2_weights_at : forall (a : alg I) i pi d cv,
  (2 <= n)%nat -> (i < n)%nat -> good a -> partition_prior pi ->
  at_ data i = Ok d -> cvf i = Ok cv ->
  (forall rest, length rest = (n - 1)%nat -> canon (del (a_alloc a) i) = canon rest -> mass_at I val (a_mix a) pi rest) ->
  exists a1 pm lk C,
    unassign data false cvf i a = Ok a1 /\ neal2_prior_mass data a1 = Ok pm /\ neal2_lpdf data covs a1 i = Ok lk /\
    length (wsum I pm lk) = S (length (a_uv a1)) /\ 0 < C /\
    forall c w r, nth_error (wsum I pm lk) c = Some w ->
    exists a' r', assign data false cvf i c a1 r = Ok (a', r') /\
      exists f, val w = C * pi (a_alloc a') * f /\
        ((c < length (a_uv a1))%nat -> exists st, param a' i = Some st /\ f = val (like_lpdf I st d cv)) /\
        (c = length (a_uv a1) -> f = val (marg_lpdf I (a_hyp a) d cv)).
Proof.
  intros a i pi d cv Hn Hi HG Hpi Ed Ec HM. unfold good in HG. apply GInv_iff in HG. destruct HG as (HL & HI & Hne).
  destruct (@unassign_ok I L data cvf Hrows false (uhp_false I) false (fun H => H) a i HL Hi HI Hne)
    as (al & uv & Eu & HL1 & HI1 & Hne1 & HS).
  set (a1 := set_uv (set_alloc a al) uv) in *.
  destruct (prior_mass_values false a1 i pi Hpi Hi HL1 HI1 Hne1) as (pm & kappa & Ep & Lp & Hk & Hw).
  { apply HM; [rewrite del_length by (simpl; lia); simpl; lia|]. apply alike_of_same; try (simpl; lia); rewrite HL; exact HS. }
  assert (Huv : uv <> []) by (eapply hole_uv_nonempty with (trk := false); eauto).
  assert (El : neal2_lpdf data covs a1 i = Ok (map (fun h => h_like h d cv) uv ++ [h_prior_pred I (a_hyp a) d cv])).
  { unfold neal2_lpdf. rewrite Ed, Ec. cbn [rbind]. simpl a_uv. destruct uv; [congruence|reflexivity]. }
  exists a1, pm, (map (fun h => h_like h d cv) uv ++ [h_prior_pred I (a_hyp a) d cv]), (/ kappa).
  split; auto. split; auto. split; auto.
  split; [rewrite wsum_length, Lp, app_length, map_length; change (a_uv a1) with uv; cbn [length]; lia|].
  split; [apply Rinv_0_lt_compat; auto|].
  intros c w r Hcw. destruct (wsum_nth _ _ _ _ Hcw) as (x & y & Hx & Hy & ->).
  assert (Hc : (c <= length uv)%nat).
  { assert (c < length pm)%nat by (apply nth_error_Some; congruence). rewrite Lp in H. change (a_uv a1) with uv in H. lia. }
  destruct (choice_labels false false (uhp_false I) (fun H => H) a1 i c r Hn HL1 Hi HI1 Hne1 Hc) as (uv' & r' & Ea & HI2 & _).
  exists (set_uv (set_alloc a1 (upd (a_alloc a1) i c)) uv'), r'. split; auto.
  exists (val y). split.
  - rewrite val_add. cbn [a_alloc set_uv set_alloc]. change (a_alloc a1) with al.
    destruct Hpi as (_ & Hperm & _).
    rewrite (Hperm _ _ (upd_perm al i c ltac:(lia))). change al with (a_alloc a1). rewrite (Hw c x Hx). field. lra.
  - split; intros Hcc; simpl a_uv in Hcc.
    + rewrite nth_error_app1 in Hy by (rewrite map_length; auto). rewrite nth_error_map in Hy.
      destruct (nth_error uv c) as [h|] eqn:Eh; [|discriminate]. simpl in Hy. injection Hy as <-.
      exists (h_state h). split; [|reflexivity].
      unfold assign in Ea. rewrite Ed, Ec in Ea. cbn [rbind] in Ea. simpl a_uv in Ea.
      replace (c =? length uv)%nat with false in Ea by (symmetry; apply Nat.eqb_neq; lia).
      destruct (set_at (a_alloc a1) i c) as [al'| | |]; try discriminate. cbn [rbind] in Ea.
      destruct (@add_in_ok I L data cvf Hrows false (uhp_false I) false (fun H => H) (a_hyp a1) (hole i (a_alloc a1)) uv i c d cv Ed Ec Hi HI1)
        as (uv2 & F1 & F2 & F3 & F4 & F5 & F6); auto.
      { unfold hole. rewrite Nat.eqb_refl. reflexivity. }
      rewrite F1 in Ea. cbn [rbind] in Ea. injection Ea as Ea1 Ea2 Ea3. subst uv'.
      unfold param. cbn [a_alloc a_uv set_uv set_alloc].
      rewrite nth_error_upd_same by (change (a_alloc a1) with al; lia). destruct (F6 h Eh) as (h' & G1 & G2 & _). rewrite G1. simpl. rewrite G2. reflexivity.
    + subst c. rewrite nth_error_app2 in Hy by (rewrite map_length; auto). rewrite map_length, Nat.sub_diag in Hy.
      simpl in Hy. injection Hy as <-. reflexivity.
Qed.

Lemma neal2_weights0 : forall (a : alg I) i pi d cv,
  (2 <= n)%nat -> (i < n)%nat -> good a -> partition_prior pi ->
  at_ data i = Ok d -> cvf i = Ok cv ->
  (forall rest, length rest = (n - 1)%nat -> mass_at I val (a_mix a) pi rest) ->
  exists a1 pm lk C,
    unassign data false cvf i a = Ok a1 /\ neal2_prior_mass data a1 = Ok pm /\ neal2_lpdf data covs a1 i = Ok lk /\
    length (wsum I pm lk) = S (length (a_uv a1)) /\ 0 < C /\
    forall c w r, nth_error (wsum I pm lk) c = Some w ->
    exists a' r', assign data false cvf i c a1 r = Ok (a', r') /\
      exists f, val w = C * pi (a_alloc a') * f /\
        ((c < length (a_uv a1))%nat -> exists st, param a' i = Some st /\ f = val (like_lpdf I st d cv)) /\
        (c = length (a_uv a1) -> f = val (marg_lpdf I (a_hyp a) d cv)).
Proof. intros a i pi d cv Hn Hi HG Hpi Ed Ec HM. exact (neal2_weights_at a i pi d cv Hn Hi HG Hpi Ed Ec (fun rest H _ => HM rest H)). Qed.

(** ** Neal3 *)

Definition fresh3 (a : alg I) : Prop :=
  good a /\ (forall h, In h (a_uv a) -> saved_matches data covs (a_hyp a) h).

Section Neal3.
Hypothesis Hcj : conj I = true.
Hypothesis Hod : other_draw I = None.

Lemma fresh3_iff : forall a, fresh3 a <-> @GInv I data covs true a.
Proof. intros a. unfold fresh3, good. symmetry. apply (GInvT_iff L data covs a Hcj). Qed.

Lemma neal3_weights_at : forall (a : alg I) i pi M,
  (2 <= n)%nat -> (i < n)%nat -> fresh3 a -> partition_prior pi -> marginal_likelihood (a_hyp a) M ->
  (forall rest, length rest = (n - 1)%nat -> canon (del (a_alloc a) i) = canon rest -> mass_at I val (a_mix a) pi rest) ->
  exists al uv pm lk C,
    unassign data true cvf i a = Ok (set_uv (set_alloc a al) uv) /\
    length al = n /\ canon (del (a_alloc a) i) = canon (del al i) /\ compact i al (length uv) /\
    neal2_prior_mass data (set_uv (set_alloc a al) uv) = Ok pm /\
    neal3_lpdf data covs (set_uv (set_alloc a al) uv) i = Ok lk /\ 0 < C /\
    map val (wsum I pm lk) = map (fun c => C * posterior pi M (upd al i c)) (seq 0 (S (length uv))) /\
    forall c r, (c <= length uv)%nat ->
    exists uv' r', assign data true cvf i c (set_uv (set_alloc a al) uv) r =
                   Ok (set_uv (set_alloc a (upd al i c)) uv', r') /\
      fresh3 (set_uv (set_alloc a (upd al i c)) uv').
Proof.
  intros a i pi M Hn Hi HF Hpi (HMp & HMperm & HM1 & HM2) HM. apply fresh3_iff in HF. destruct HF as (HL & HI & Hne).
  assert (Hu : true = true -> conj I = true /\ other_draw I = None) by auto.
  assert (Ht : true = true -> true = true) by auto.
  destruct (@unassign_ok I L data cvf Hrows true Hu true Ht a i HL Hi HI Hne)
    as (al & uv & Eu & HL1 & HI1 & Hne1 & HS).
  set (a1 := set_uv (set_alloc a al) uv) in *.
  destruct (prior_mass_values true a1 i pi Hpi Hi HL1 HI1 Hne1) as (pm & kappa & Ep & Lp & Hk & Hw).
  { apply HM; [rewrite del_length by (simpl; lia); simpl; lia|]. apply alike_of_same; try (simpl; lia); rewrite HL; exact HS. }
  assert (Huv : uv <> []) by (eapply hole_uv_nonempty with (trk := true); eauto).
  destruct (Hrows i Hi) as (d & cv & Ed & Ec & _).
  pose proof (@neal3_lpdf_value I data covs L a1 i d cv Hcj Hod HI1 Ed Ec Huv) as El.
  pose proof (inv_compact true _ _ _ _ HI1 Hne1) as HC. assert (Hi' : (i < length al)%nat) by lia.
  set (lk := map (fun h => marg_lpdf I (post I (a_hyp a1) (Z.of_nat (length (h_ids h)))
                                  (batch I data cvf (h_ids h)) (init_state I (a_hyp a1))) d cv) (a_uv a1)
             ++ [marg_lpdf I (a_hyp a1) d cv]) in *.
  pose proof (base_pos i (length uv) al Hi' HC M HMp) as Hb.
  set (B := base i (length uv) al M) in *.
  exists al, uv, pm, lk, (/ (kappa * B)). split; auto. split; auto.
  split; [apply alike_of_same; try lia; rewrite HL; exact HS|]. split; auto. split; auto. split; auto.
  split; [apply Rinv_0_lt_compat, Rmult_lt_0_compat; auto|]. split.
  2:{ intros c r Hc.
      destruct (choice_labels true true Hu Ht a1 i c r Hn HL1 Hi HI1 Hne1 Hc) as (uv' & r' & Ea & HI2 & Hne2).
      exists uv', r'. split; [exact Ea|]. apply fresh3_iff. split; [simpl; rewrite upd_length; auto|]. split; auto. }
  assert (Ll : length lk = S (length uv)) by (unfold lk; rewrite app_length, map_length; simpl; lia).
  assert (Lw : length (wsum I pm lk) = S (length uv)) by (rewrite wsum_length, Lp, Ll; change (a_uv a1) with uv; lia).
  apply nth_ext with (d := 0) (d' := 0); [rewrite !map_length, seq_length; auto|].
  intros c Hc. rewrite map_length, Lw in Hc.
  destruct (nth_error (wsum I pm lk) c) as [w|] eqn:Ew; [|apply nth_error_None in Ew; lia].
  rewrite (nth_error_nth (map val (wsum I pm lk)) c 0 (x := val w)) by (rewrite nth_error_map, Ew; reflexivity).
  rewrite (nth_error_nth (map (fun c => / (kappa * B) * posterior pi M (upd al i c)) (seq 0 (S (length uv)))) c 0
             (x := / (kappa * B) * posterior pi M (upd al i c))).
  2:{ rewrite nth_error_map, (nth_error_nth' _ 0%nat) by (rewrite seq_length; lia). rewrite seq_nth by lia. reflexivity. }
  destruct (wsum_nth _ _ _ _ Ew) as (x & y & Hx & Hy & ->). rewrite val_add.
  pose proof (Hw c x Hx) as Hpc. simpl a_alloc in Hpc.
  destruct (Nat.lt_ge_cases c (length uv)) as [Hcl|Hcl].
  - rewrite (post_old i (length uv) al Hi' HC pi M Hpi HMp HMperm c Hcl), Hpc. fold B.
    unfold lk in Hy. rewrite nth_error_app1 in Hy by (rewrite map_length; auto). rewrite nth_error_map in Hy.
    simpl a_uv in Hy. destruct (nth_error uv c) as [h|] eqn:Eh; [|discriminate]. simpl in Hy. injection Hy as <-.
    destruct (inv_ids true _ _ _ _ _ _ HI1 Eh) as [Pi _]. simpl a_alloc in Pi.
    pose proof (others_ne i (length uv) al Hi' HC c Hcl) as One. pose proof (HMp _ One) as Op.
    rewrite (batch_perm L data cvf Pi), (Permutation_length Pi).
    rewrite <- (HM2 i d cv (others i c al) Ed Ec); auto.
    + field. repeat split; lra.
    + constructor; [rewrite others_in; tauto|apply others_nodup].
    + intros j Hj. apply others_in in Hj. rewrite <- HL1. apply nth_error_Some. destruct Hj. simpl. congruence.
  - assert (c = length uv) by lia. subst c.
    rewrite (post_new i (length uv) al Hi' HC pi M Hpi HMperm), Hpc. fold B.
    unfold lk in Hy. rewrite nth_error_app2 in Hy by (rewrite map_length; auto). rewrite map_length in Hy. simpl a_uv in Hy.
    rewrite Nat.sub_diag in Hy. simpl in Hy. injection Hy as <-. rewrite (HM1 i d cv Ed Ec). field. split; lra.
Qed.

Lemma neal3_weights1 : forall (a : alg I) i pi M,
  (2 <= n)%nat -> (i < n)%nat -> fresh3 a -> partition_prior pi -> marginal_likelihood (a_hyp a) M ->
  (forall rest, length rest = (n - 1)%nat -> mass_at I val (a_mix a) pi rest) ->
  exists al uv pm lk C,
    unassign data true cvf i a = Ok (set_uv (set_alloc a al) uv) /\
    length al = n /\ canon (del (a_alloc a) i) = canon (del al i) /\ compact i al (length uv) /\
    neal2_prior_mass data (set_uv (set_alloc a al) uv) = Ok pm /\
    neal3_lpdf data covs (set_uv (set_alloc a al) uv) i = Ok lk /\ 0 < C /\
    map val (wsum I pm lk) = map (fun c => C * posterior pi M (upd al i c)) (seq 0 (S (length uv))) /\
    forall c r, (c <= length uv)%nat ->
    exists uv' r', assign data true cvf i c (set_uv (set_alloc a al) uv) r =
                   Ok (set_uv (set_alloc a (upd al i c)) uv', r') /\
      fresh3 (set_uv (set_alloc a (upd al i c)) uv').
Proof. intros a i pi M Hn Hi HF Hpi HML HM. exact (neal3_weights_at a i pi M Hn Hi HF Hpi HML (fun rest H _ => HM rest H)). Qed.

End Neal3.
End Gibbs.
