(** * Split-and-merge: final-form facts. *)
From Coq Require Import String.
From Coq Require Import Bool List Arith ZArith Lia Sorting.Sorted Permutation.
From Verif Require Import Base Hier Algos SplitMerge Run Spec MargFacts NealFacts InitFacts MargMore MargProps SMFacts.
Import ListNotations.
Set Implicit Arguments.

(** Every datum is accepted by the statistics without covariates. *)
Definition no_cov_ok (I : Iface) (data : list (Datum I)) : Prop :=
  forall d, In d data -> row_ok I d (cov0 I) = true.

Lemma no_cov_rows : forall I data, no_cov_ok I data -> rows_ok I data (fun _ => Ok (cov0 I)).
Proof.
  intros I data H j Hj. destruct (at_ok data Hj) as (d & E & N).
  exists d, (cov0 I). split; auto. split; auto. apply H. eapply nth_error_In; eauto.
Qed.

(** Split-merge also needs the masses for two clusters. *)
Definition sm_mixing_safe (I : Iface) (data : list (Datum I)) (P : Mix I -> Prop) : Prop :=
  @mixing_safe I data P /\ (forall m, P m -> @sm_masses_ok I data m).

Section P.
Variable I : Iface.
Variable L : laws I.
Variable data : list (Datum I).
Notation n := (length data).
Notation cvs := (covs0 I data).
Hypothesis Hrows : no_cov_ok I data.
Hypothesis Hcj : conj I = true.
Hypothesis Hod : other_draw I = None.

Let Hr := no_cov_rows Hrows.

Lemma GSf : forall (a : alg I), GS data false a <-> proper n (a_alloc a) (view (a_uv a)) /\ caches_ok data cvs (a_uv a).
Proof. intros a. rewrite GS_GInv. apply GInv_iff. Qed.

Lemma GSt : forall (a : alg I), GS data true a <->
   (proper n (a_alloc a) (view (a_uv a)) /\ caches_ok data cvs (a_uv a)) /\
   (forall h, In h (a_uv a) -> saved_matches data cvs (a_hyp a) h).
Proof. intros a. rewrite GS_GInv. apply GInvT_iff; auto. Qed.

Lemma sm_sweep_proper0 : forall n_restr n_mh n_full (a : alg I) r,
  2 <= n -> @sm_masses_ok I data (a_mix a) ->
  proper n (a_alloc a) (view (a_uv a)) -> caches_ok data cvs (a_uv a) ->
  exists a' r', sm_sample_allocations data n_restr n_mh n_full (a, r) = Ok (a', r') /\
    proper n (a_alloc a') (view (a_uv a')) /\ caches_ok data cvs (a_uv a') /\
    ((forall h, In h (a_uv a) -> saved_matches data cvs (a_hyp a) h) ->
     (forall h, In h (a_uv a') -> saved_matches data cvs (a_hyp a') h)) /\ a_mix a' = a_mix a.
Proof.
  intros n_restr n_mh n_full a r Hn Hm Hp Hc.
  destruct (@sm_sweep_ok I L data Hr Hcj Hod false n_restr n_mh n_full a r) as (a' & r' & E & G & _ & Em & _); auto.
  { apply GSf; auto. }
  exists a', r'. split; auto. apply GSf in G. destruct G as [G1 G2]. split; auto. split; auto. split; auto.
  intros HF.
  destruct (@sm_sweep_ok I L data Hr Hcj Hod true n_restr n_mh n_full a r) as (a2 & r2 & E2 & G & _); auto.
  { apply GSt; auto. }
  rewrite E in E2. injection E2 as <- <-. apply GSt in G. apply G.
Qed.

Lemma sm_one_move0 : forall n_restr (a : alg I) r,
  2 <= n -> @sm_masses_ok I data (a_mix a) ->
  proper n (a_alloc a) (view (a_uv a)) -> caches_ok data cvs (a_uv a) ->
  exists a' r', mh_update data n_restr (a, r) = Ok (a', r') /\
    (a' = a \/ splits n (a_alloc a) (a_alloc a') \/ splits n (a_alloc a') (a_alloc a)).
Proof.
  intros n_restr a r Hn Hm Hp Hc.
  destruct (@mh_update_ok I L data Hr Hcj Hod false n_restr a r) as (a' & r' & E & _ & K & _); eauto.
  apply GSf; auto.
Qed.

Lemma sm_step_ok : forall n_restr n_mh n_full P (a : alg I) r,
  2 <= n -> sm_mixing_safe I data P -> @GInv I data cvs false a -> P (a_mix a) ->
  exists a' r', base_step (sm_sample_allocations data n_restr n_mh n_full) true (a, r) = Ok (a', r') /\
    @GInv I data cvs false a' /\ P (a_mix a').
Proof.
  intros n_restr n_mh n_full P a r Hn [HP1 HP2] Ha Hm. unfold base_step.
  destruct (@sm_sweep_ok I L data Hr Hcj Hod false n_restr n_mh n_full a r)
    as (a1 & r1 & E & G1 & _ & Em & _); auto.
  { apply GS_GInv; auto. }
  rewrite E. cbn [rbind]. apply GS_GInv in G1.
  destruct (@tail_ok I L data cvs true P a1 r1 (fun _ => Logic.conj Hcj Hod)) as (a' & r' & E' & G' & Pm & _); auto; [lia|congruence|].
  rewrite E'. eauto.
Qed.

Lemma sm_iter_proper0 : forall n_restr n_mh n_full P k (a : alg I) r,
  2 <= n -> sm_mixing_safe I data P -> P (a_mix a) ->
  proper n (a_alloc a) (view (a_uv a)) -> caches_ok data cvs (a_uv a) ->
  exists a' r', iter (base_step (sm_sample_allocations data n_restr n_mh n_full) true) k (a, r) = Ok (a', r') /\
    proper n (a_alloc a') (view (a_uv a')) /\ caches_ok data cvs (a_uv a').
Proof.
  intros n_restr n_mh n_full P k a r Hn HP Hm Hp Hc.
  destruct (@iter_inv I (base_step (sm_sample_allocations data n_restr n_mh n_full) true)
    (fun a => @GInv I data cvs false a /\ P (a_mix a)) k a r) as (a' & r' & E & [G Pm]).
  - intros a0 r0 [G0 P0]. destruct (@sm_step_ok n_restr n_mh n_full P a0 r0) as (a1 & r1 & E & G1 & P1); eauto 10.
  - split; auto. apply GInv_iff; auto.
  - exists a', r'. split; auto. apply GInv_iff in G. auto.
Qed.

(** A proposal that is never accepted changes nothing. *)
Lemma split_or_merge_reject : forall f s g (a a' : alg I) r r',
  (forall w r, fst (accept I w r) = false) ->
  split_or_merge data f s g a r = Ok (a', r') -> a' = a.
Proof.
  intros f s g a a' r r' Hrej H. unfold split_or_merge in H.
  rinv H cf. rinv H cs. rinv H x. destruct x as [[g' lt_] r1]. rinv H y. destruct y as [ll lpr].
  match type of H with context [accept I ?w ?r] => pose proof (Hrej w r) as K; destruct (accept I w r) as [acc r2] end.
  simpl in K. subst acc. injection H as <- _. auto.
Qed.

Lemma mh_reject : forall n_restr (a a' : alg I) r r',
  (forall w r, fst (accept I w r) = false) ->
  mh_update data n_restr (a, r) = Ok (a', r') -> a' = a.
Proof.
  intros n_restr a a' r r' Hrej H. unfold mh_update in H.
  rinv H x. destruct x as [f r1]. rinv H x. destruct x as [s r2]. rinv H idx. rinv H g. destruct g as [g r3].
  rinv H g1. destruct g1 as [g1 r4]. eapply split_or_merge_reject; eauto.
Qed.

Lemma sm_reject0 : forall n_restr n_mh (a a' : alg I) r r',
  (forall w r, fst (accept I w r) = false) ->
  sm_sample_allocations data n_restr n_mh 0 (a, r) = Ok (a', r') -> a' = a.
Proof.
  intros n_restr n_mh a a' r r' Hrej H. unfold sm_sample_allocations in H. rinv H st. simpl in H.
  injection H as ->. revert a r E. generalize (seq 0 n_mh) as l. induction l as [|x l IH]; intros a r E.
  - simpl in E. congruence.
  - cbn [rfold] in E. rinv E s. destruct s as [a1 r1]. apply mh_reject in E0; auto. subst a1. eauto.
Qed.

End P.

(** ** One observation *)
Section One.
Variable I : Iface.
Variable data : list (Datum I).

Lemma sm_single_throw0 : forall n_restr n_mh n_full (a : alg I) r, length data = 1 -> 1 <= n_mh ->
  exists msg, sm_sample_allocations data n_restr n_mh n_full (a, r) = Throw msg.
Proof.
  intros n_restr n_mh n_full a r Hn Hm. destruct n_mh as [|m]; [lia|].
  eexists. unfold sm_sample_allocations. cbn [seq rfold]. unfold mh_update at 1. rewrite Hn.
  unfold unif. cbn [Nat.eqb]. cbn [rbind]. destruct (uniform I 1 r) as [f r1]. reflexivity.
Qed.

Lemma sm_single_UB0 : forall n_restr n_full (a : alg I) r, length data = 1 -> 1 <= n_full ->
  masses_ok I (a_mix a) 1 -> proper 1 (a_alloc a) (view (a_uv a)) ->
  sm_sample_allocations data n_restr 0 n_full (a, r) = UB.
Proof.
  intros n_restr n_full a r Hn Hm Hma ((Hl & H1 & H2) & Hne).
  destruct n_full as [|m]; [lia|].
  destruct (a_alloc a) as [|c [|]] eqn:Ea; simpl in Hl; try lia.
  assert (Hc : c = 0 /\ length (a_uv a) = 1).
  { assert (K : forall e, e < length (a_uv a) -> e = c).
    { intros e He. destruct (at_ok (a_uv a) He) as (h & _ & Nh).
      assert (V : nth_error (view (a_uv a)) e = Some (h_ids h, h_card h)) by (apply nth_view; eauto).
      destruct (H2 _ _ _ V) as (_ & M & _). specialize (Hne _ _ _ V).
      destruct (h_ids h) as [|x ids]; [congruence|]. destruct (M x) as [M1 _].
      specialize (M1 (or_introl eq_refl)). destruct x as [|[|]]; simpl in M1; congruence. }
    specialize (H1 0 c eq_refl). unfold view in H1. rewrite map_length in H1.
    destruct (length (a_uv a)) as [|[|q]]; [lia| |].
    - split; [lia|auto].
    - pose proof (K 0 ltac:(lia)). pose proof (K 1 ltac:(lia)). lia. }
  destruct Hc as [-> Hu]. destruct (a_uv a) as [|h [|]] eqn:Eu; simpl in Hu; try lia.
  assert (Hcd : h_card h = 1%Z).
  { assert (V : nth_error (view [h]) 0 = Some (h_ids h, h_card h)) by reflexivity.
    destruct (H2 _ _ _ V) as (S0 & M & ->).
    pose proof (ssorted_NoDup S0) as ND. assert (incl (h_ids h) [0]).
    { intros x Hx. apply M in Hx. destruct x as [|[|]]; simpl in Hx; [simpl; auto|discriminate|discriminate]. }
    pose proof (NoDup_incl_length ND H) as LL. simpl in LL.
    specialize (Hne _ _ _ V). destruct (h_ids h); simpl in *; [congruence|lia]. }
  unfold sm_sample_allocations. cbn [seq rfold rbind]. unfold full_gs at 1. rewrite Hn. cbn [seq rfold].
  unfold full_gs_step at 1, unassign. rewrite Ea, Eu. cbn [at_ nth_error rbind]. rewrite Hcd.
  cbn [Z.leb Z.compare Pos.compare Pos.compare_cont].
  unfold remove_singleton. rewrite Eu, Ea. cbn [erase_at length Nat.ltb Nat.leb del rbind].
  cbn [set_uv set_alloc a_uv a_mix a_hyp rmap rbind length]. rewrite Hn.
  destruct data as [|d [|]]; simpl in Hn; try lia. cbn [at_ nth_error rbind].
  destruct (Hma 0) as [_ (w & E)]; [lia|]. simpl in E |- *. rewrite E. reflexivity.
Qed.

(** ** Hierarchies that need covariates *)

Hypothesis Hbad : forall d, In d data -> row_ok I d (cov0 I) = false.

Lemma bad_at : forall i d, at_ data i = Ok d -> row_ok I d (cov0 I) = false.
Proof. intros i d E. apply at_inv in E. apply Hbad. eapply nth_error_In; eauto. Qed.

Lemma add_in_bad : forall hy b c i d uv h, at_ data i = Ok d -> nth_error uv c = Some h -> ~ In i (h_ids h) ->
  add_in hy b c i d (cov0 I) uv = UB.
Proof.
  intros hy b c i d uv h Hd Hc Hi. unfold add_in. rewrite (at_Some _ _ Hc). cbn [rbind].
  unfold h_add, like_add. apply set_mem_false in Hi. rewrite Hi, (bad_at _ Hd). reflexivity.
Qed.

Lemma remove_in_bad : forall hy b c i d uv h, at_ data i = Ok d -> nth_error uv c = Some h ->
  remove_in hy b c i d (cov0 I) uv = UB.
Proof.
  intros hy b c i d uv h Hd Hc. unfold remove_in. rewrite (at_Some _ _ Hc). cbn [rbind].
  unfold h_remove, like_remove. rewrite (bad_at _ Hd). reflexivity.
Qed.

Lemma mh_bad : forall (L : laws I) n_restr (a : alg I) r, 2 <= length data ->
  proper (length data) (a_alloc a) (view (a_uv a)) ->
  mh_update data n_restr (a, r) = UB.
Proof.
  intros L n_restr a r Hn ((Hl & H1 & H2) & Hne). unfold mh_update, unif.
  replace (length data =? 0) with false by (symmetry; apply Nat.eqb_neq; lia). cbn [rbind].
  pose proof (@unif_lt I L (length data) r) as U1. destruct (uniform I (length data) r) as [f r1]. simpl in U1.
  replace (length data - 1 =? 0) with false by (symmetry; apply Nat.eqb_neq; lia). cbn [rbind].
  pose proof (@unif_lt I L (length data - 1) r1) as U2. destruct (uniform I (length data - 1) r1) as [s0 r2]. simpl in U2.
  assert (Hf : f < length data) by (apply U1; lia). assert (Hs0 : s0 < length data - 1) by (apply U2; lia). clear U1 U2.
  set (s := if f <=? s0 then S s0 else s0).
  assert (Hs : s < length data).
  { unfold s. destruct (Nat.leb_spec f s0); lia. }
  clearbody s.
  unfold view in H1. rewrite map_length in H1.
  assert (Hf' : f < length (a_alloc a)) by lia. assert (Hs' : s < length (a_alloc a)) by lia.
  unfold restricted_idx.
  destruct (at_ok _ Hf') as (cf & Ecf & Ncf). destruct (at_ok _ Hs') as (cs & Ecs & Ncs).
  rewrite Ecf, Ecs. cbn [rbind].
  destruct (at_ok _ (H1 f cf Ncf)) as (hf & Ehf & Nhf). destruct (at_ok _ (H1 s cs Ncs)) as (hs & Ehs & Nhs).
  rewrite Ehf. cbn [rbind].
  assert (Hids : forall c h, nth_error (a_uv a) c = Some h -> ssorted (h_ids h) /\ forall j, In j (h_ids h) -> j < length data).
  { intros c h Hc. destruct (H2 c (h_ids h) (h_card h)) as (S0 & M & _); [apply nth_view; eauto|].
    split; auto. intros j Hj. apply M in Hj. rewrite <- Hl. eapply nth_error_lt; eauto. }
  match goal with |- context [rbind (if cf =? cs then ?A else ?B) _] =>
    assert (K : exists tmp, (if cf =? cs then A else B) = Ok tmp /\ ssorted tmp /\ forall j, In j tmp -> j < length data) end.
  { destruct (cf =? cs).
    - exists (h_ids hf). split; auto. eapply Hids; eauto.
    - rewrite Ehs. cbn [rbind]. eexists. split; [reflexivity|].
      destruct (Hids _ _ Nhf) as [A1 A2]. destruct (Hids _ _ Nhs) as [B1 B2].
      split; [apply ssorted_union; auto|]. intros j Hj. apply In_set_union in Hj. intuition. }
  destruct K as (tmp & E & St & Mt). rewrite E. cbn [rbind].
  unfold launch. assert (H0 : 0 < length (a_uv a)) by (specialize (H1 f cf Ncf); lia).
  destruct (at_ok _ H0) as (h0 & Eh0 & _). rewrite Eh0. cbn [rbind].
  destruct (set_remove s (set_remove f tmp)) as [|j idx] eqn:Eidx.
  - cbn [rfold rbind]. destruct (at_ok data Hf) as (d & Ed & _). rewrite Ed. cbn [rbind].
    rewrite (@add_in_bad (a_hyp a) true 0 f d _ (h_clone h0)); auto.
  - assert (Hj : j < length data).
    { apply Mt. assert (X : In j (set_remove s (set_remove f tmp))) by (rewrite Eidx; simpl; auto).
      apply In_set_remove in X; [|apply ssorted_remove; auto]. destruct X as [X _].
      apply In_set_remove in X; tauto. }
    cbn [rfold]. unfold launch_step at 1, unif. change (2 =? 0) with false. cbn [rbind].
    destruct (uniform I 2 r2) as [b r3]. destruct (at_ok data Hj) as (d & Ed & _). rewrite Ed. cbn [rbind].
    rewrite (@add_in_bad (a_hyp a) false (if b =? 0 then 0 else 1) j d _ (h_clone h0)); auto.
    destruct (b =? 0); reflexivity.
Qed.

Lemma sm_bad0 : forall (L : laws I) n_restr n_mh n_full (a : alg I) r, 2 <= length data -> 1 <= n_mh ->
  proper (length data) (a_alloc a) (view (a_uv a)) ->
  sm_sample_allocations data n_restr n_mh n_full (a, r) = UB.
Proof.
  intros L n_restr n_mh n_full a r Hn Hm Hp. destruct n_mh as [|m]; [lia|].
  unfold sm_sample_allocations. cbn [seq rfold]. rewrite mh_bad; auto.
Qed.

Lemma full_bad0 : forall (L : laws I) n_restr n_full (a : alg I) r, 2 <= length data -> 1 <= n_full ->
  conj I = true -> other_draw I = None -> masses_ok I (a_mix a) (length data) ->
  (forall h, In h (a_uv a) -> h_saved h = true -> h_ph h <> None) ->
  proper (length data) (a_alloc a) (view (a_uv a)) ->
  sm_sample_allocations data n_restr 0 n_full (a, r) = UB.
Proof.
  intros L n_restr n_full a r Hn Hm Hcj Hod Hma Hph ((Hl & H1 & H2) & Hne). destruct n_full as [|m]; [lia|].
  unfold sm_sample_allocations. cbn [seq rfold rbind]. unfold full_gs at 1.
  destruct (length data) as [|n'] eqn:En; [lia|]. cbn [seq rfold].
  unfold full_gs_step at 1, unassign. rewrite En. unfold view in H1. rewrite map_length in H1.
  assert (H0 : 0 < length (a_alloc a)) by lia.
  destruct (at_ok _ H0) as (c & Ec & Nc). rewrite Ec. cbn [rbind].
  pose proof (H1 0 c Nc) as Hc. destruct (at_ok _ Hc) as (h & Eh & Nh). rewrite Eh. cbn [rbind].
  assert (Hd0 : 0 < length data) by lia. destruct (at_ok data Hd0) as (d & Ed & _).
  destruct (h_card h <=? 1)%Z eqn:Ecard.
  - unfold remove_singleton. rewrite erase_at_ok by auto. cbn [rbind].
    cbn [set_uv set_alloc a_uv a_mix a_hyp]. rewrite Ed. cbn [rbind].
    set (uv := del (a_uv a) c).
    assert (Huv : forall h, In h uv -> In h (a_uv a)).
    { intros g Hg. apply In_nth_error in Hg. destruct Hg as (e & He). unfold uv in He. rewrite nth_error_del in He.
      destruct (e <? c); eapply nth_error_In; eauto. }
    assert (Hlen : length uv = length (a_uv a) - 1) by (unfold uv; rewrite del_length; [lia|auto]).
    assert (Hk : length (a_uv a) <= S n').
    { pose proof (@clusters_le (map (@h_ids I) (a_uv a)) (seq 0 (S n'))) as K. rewrite map_length, seq_length in K. apply K.
      - intros e l He. rewrite nth_error_map in He. destruct (nth_error (a_uv a) e) as [g|] eqn:X; [|discriminate].
        injection He as <-. apply (Hne e (h_ids g) (h_card g)). apply nth_view. eauto.
      - intros e l x He Hx. rewrite nth_error_map in He. destruct (nth_error (a_uv a) e) as [g|] eqn:X; [|discriminate].
        injection He as <-. destruct (H2 e (h_ids g) (h_card g)) as (_ & M & _); [apply nth_view; eauto|].
        apply M in Hx. apply nth_error_lt in Hx. apply in_seq. lia.
      - intros e e' l l' x He He' Hx Hx'. rewrite nth_error_map in He, He'.
        destruct (nth_error (a_uv a) e) as [g|] eqn:X; [|discriminate]. injection He as <-.
        destruct (nth_error (a_uv a) e') as [g'|] eqn:X'; [|discriminate]. injection He' as <-.
        destruct (H2 e (h_ids g) (h_card g)) as (_ & M & _); [apply nth_view; eauto|].
        destruct (H2 e' (h_ids g') (h_card g')) as (_ & M' & _); [apply nth_view; eauto|].
        apply M in Hx. apply M' in Hx'. congruence. }
    destruct (Hma (length uv)) as [Mex (wn & Ewn)]; [lia|].
    match goal with |- context [rmap ?F uv] => destruct (@rmap_ok _ _ F uv) as (ex & Eex & Lex) end.
    { intros g Hg. pose proof (Huv _ Hg) as Hg'. apply In_nth_error in Hg'. destruct Hg' as (e & He).
      assert (V : nth_error (view (a_uv a)) e = Some (h_ids g, h_card g)) by (apply nth_view; eauto).
      destruct (H2 _ _ _ V) as (_ & _ & Kc). specialize (Hne _ _ _ V).
      destruct (Mex (h_card g)) as (w & Ew); [rewrite Kc; destruct (h_ids g); simpl; [congruence|lia]|].
      rewrite Ew. cbn [rbind].
      destruct (@cond_pred_ok I Hod (a_hyp a) g d (cov0 I)) as (p & Ep); [unfold ph_ok; auto|].
      rewrite Ep. cbn [rbind]. eauto. }
    rewrite Eex. cbn [rbind]. rewrite Ewn. cbn [rbind].
    destruct (at_ uv 0) as [h0| | |] eqn:E0; try (unfold at_ in E0; destruct (nth_error uv 0); discriminate); [|reflexivity].
    cbn [rbind].
    match goal with |- context [cat I ?w r] => set (ws := w) end.
    assert (Lws : length ws = S (length uv)).
    { unfold ws. rewrite app_length, Lex. simpl. lia. }
    destruct ws as [|w1 ws'] eqn:Ews; [discriminate|]. cbn [cat rbind].
    pose proof (@cat_lt I L (w1 :: ws') r ltac:(discriminate)) as Hcl.
    destruct (categorical I (w1 :: ws') r) as [c1 r1]. simpl fst in Hcl. rewrite Lws in Hcl.
    unfold assign. rewrite Ed. cbn [rbind]. cbn [set_uv set_alloc a_uv a_mix a_hyp a_alloc].
    assert (Hbd := bad_at _ Ed).
    destruct (c1 =? length uv) eqn:Ec1.
    + rewrite E0. cbn [rbind]. unfold h_add, like_add. cbn [h_clone h_ids set_mem existsb].
      rewrite Hbd. reflexivity.
    + apply Nat.eqb_neq in Ec1. assert (Hc1 : c1 < length uv) by lia.
      destruct (at_ok _ Hc1) as (g & Eg & Ng).
      rewrite set_at_ok by (rewrite relabel_down_length; lia). cbn [rbind].
      rewrite (@add_in_bad (a_hyp a) true c1 0 d uv g); auto.
      pose proof Ng as Ng'. unfold uv in Ng'. rewrite nth_error_del in Ng'.
      assert (exists e, nth_error (a_uv a) e = Some g /\ e <> c) as (e & He & Hec).
      { destruct (Nat.ltb_spec c1 c); eexists; (split; [eassumption|lia]). }
      destruct (H2 e (h_ids g) (h_card g)) as (_ & M & _); [apply nth_view; eauto|].
      intros X. apply M in X. congruence.
  - rewrite Ed. cbn [rbind]. rewrite (@remove_in_bad (a_hyp a) true c 0 d (a_uv a) h); auto.
Qed.

End One.

(** ** Closed forms *)

Lemma sm_sweep_proper : forall (I : Iface) (L : laws I) (data : list (Datum I)) n_restr n_mh n_full (a : alg I) r,
  no_cov_ok I data -> conj I = true -> other_draw I = None ->
  2 <= length data -> @sm_masses_ok I data (a_mix a) ->
  proper (length data) (a_alloc a) (view (a_uv a)) -> caches_ok data (covs0 I data) (a_uv a) ->
  exists a' r', sm_sample_allocations data n_restr n_mh n_full (a, r) = Ok (a', r') /\
    proper (length data) (a_alloc a') (view (a_uv a')) /\ caches_ok data (covs0 I data) (a_uv a').
Proof.
  intros. destruct (@sm_sweep_proper0 I L data H H0 H1 n_restr n_mh n_full a r) as (a' & r' & E & A & B & _); eauto.
Qed.

Lemma sm_fresh : forall (I : Iface) (L : laws I) (data : list (Datum I)) n_restr n_mh n_full (a : alg I) r,
  no_cov_ok I data -> conj I = true -> other_draw I = None ->
  2 <= length data -> @sm_masses_ok I data (a_mix a) ->
  proper (length data) (a_alloc a) (view (a_uv a)) -> caches_ok data (covs0 I data) (a_uv a) ->
  (forall h, In h (a_uv a) -> saved_matches data (covs0 I data) (a_hyp a) h) ->
  exists a' r', sm_sample_allocations data n_restr n_mh n_full (a, r) = Ok (a', r') /\ a_hyp a' = a_hyp a /\
    (forall h, In h (a_uv a') -> saved_matches data (covs0 I data) (a_hyp a) h).
Proof.
  intros I L data n_restr n_mh n_full a r Hr Hcj Hod Hn Hm Hp Hc HF.
  destruct (@sm_sweep_ok I L data (no_cov_rows Hr) Hcj Hod true n_restr n_mh n_full a r) as (a' & r' & E & G & Eh & _); auto.
  { apply GSt; auto. }
  exists a', r'. split; auto. split; auto. apply GSt in G; auto. destruct G as [_ G]. rewrite Eh in G. auto.
Qed.

Lemma sm_iter_proper : forall (I : Iface) (L : laws I) (data : list (Datum I)) n_restr n_mh n_full (P : Mix I -> Prop) k (a : alg I) r,
  no_cov_ok I data -> conj I = true -> other_draw I = None ->
  2 <= length data -> sm_mixing_safe I data P -> P (a_mix a) ->
  proper (length data) (a_alloc a) (view (a_uv a)) -> caches_ok data (covs0 I data) (a_uv a) ->
  exists a' r', iter (base_step (sm_sample_allocations data n_restr n_mh n_full) true) k (a, r) = Ok (a', r') /\
    proper (length data) (a_alloc a') (view (a_uv a')) /\ caches_ok data (covs0 I data) (a_uv a').
Proof. intros. eapply sm_iter_proper0; eauto. Qed.

Lemma sm_one_move : forall (I : Iface) (L : laws I) (data : list (Datum I)) n_restr (a : alg I) r,
  no_cov_ok I data -> conj I = true -> other_draw I = None ->
  2 <= length data -> @sm_masses_ok I data (a_mix a) ->
  proper (length data) (a_alloc a) (view (a_uv a)) -> caches_ok data (covs0 I data) (a_uv a) ->
  exists a' r', mh_update data n_restr (a, r) = Ok (a', r') /\
    (a' = a \/ splits (length data) (a_alloc a) (a_alloc a') \/ splits (length data) (a_alloc a') (a_alloc a)).
Proof. intros. eapply sm_one_move0; eauto. Qed.

Lemma sm_reject : forall (I : Iface) (data : list (Datum I)) n_restr n_mh (a a' : alg I) r r',
  (forall w r, fst (accept I w r) = false) ->
  sm_sample_allocations data n_restr n_mh 0 (a, r) = Ok (a', r') -> a' = a.
Proof. intros. eapply sm_reject0; eauto. Qed.

(** [covs0] is what [initialize] builds when no covariates are given. *)
Lemma covs0_effective : forall (I : Iface) (data : list (Datum I)),
  covs0 I data = effective_covs I (length data) [].
Proof. intros. unfold covs0, effective_covs. induction data; simpl; congruence. Qed.
