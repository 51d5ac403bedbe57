(** * Neal2 / Neal3 / Neal8 sweeps: proofs. *)
From Coq Require Import Bool List Arith ZArith Lia Sorting.Sorted Permutation.
From Verif Require Import Base Hier Algos Spec MargFacts.
Import ListNotations.
Set Implicit Arguments.

Lemma rmap_ok : forall A B (f : A -> res B) l,
  (forall x, In x l -> exists y, f x = Ok y) ->
  exists ys, rmap f l = Ok ys /\ length ys = length l.
Proof.
  induction l as [|x l IH]; intros H; simpl.
  - exists []. auto.
  - destruct (H x) as (y & E); auto with datatypes. rewrite E. simpl.
    destruct IH as (ys & E' & El); auto with datatypes.
    rewrite E'. simpl. exists (y :: ys). simpl. auto.
Qed.

Lemma wsum_length : forall I (a b : list (W I)), length (wsum I a b) = min (length a) (length b).
Proof. intros. unfold wsum. rewrite map_length, combine_length. reflexivity. Qed.

(** Non-empty, pairwise disjoint clusters inside a finite set of data are not
    more numerous than the data. *)
Lemma clusters_le : forall (cl : list (list nat)) (S : list nat),
  (forall c l, nth_error cl c = Some l -> l <> []) ->
  (forall c l x, nth_error cl c = Some l -> In x l -> In x S) ->
  (forall c c' l l' x, nth_error cl c = Some l -> nth_error cl c' = Some l' ->
     In x l -> In x l' -> c = c') ->
  length cl <= length S.
Proof.
  intros cl S Hne Hin Hdis.
  set (hd_ := fun l : list nat => match l with [] => 0 | x :: _ => x end).
  rewrite <- (map_length hd_ cl).
  apply NoDup_incl_length.
  - apply NoDup_nth_error. intros i j Hi E. rewrite map_length in Hi.
    rewrite !nth_error_map in E.
    destruct (nth_error cl i) as [l|] eqn:E1; [|apply nth_error_None in E1; lia].
    destruct (nth_error cl j) as [l'|] eqn:E2; [|discriminate].
    simpl in E. injection E as E.
    specialize (Hne _ _ E1) as N1. specialize (Hne _ _ E2) as N2.
    destruct l as [|x l]; [congruence|]. destruct l' as [|x' l']; [congruence|].
    simpl in E. subst x'. eapply (Hdis i j _ _ x E1 E2); simpl; auto.
  - intros x Hx. apply in_map_iff in Hx. destruct Hx as (l & Ex & Hl).
    apply In_nth_error in Hl. destruct Hl as (c & Hc).
    specialize (Hne _ _ Hc). destruct l as [|y l]; [congruence|].
    simpl in Ex. subst y. eapply Hin; eauto. simpl; auto.
Qed.

Lemma nth_error_ext_map : forall A B (f : A -> B) (l l' : list A),
  length l' = length l ->
  (forall c h h', nth_error l c = Some h -> nth_error l' c = Some h' -> f h' = f h) ->
  map f l' = map f l.
Proof.
  induction l as [|x l IH]; intros [|x' l'] Hl H; simpl in *; try discriminate; auto.
  f_equal; [apply (H 0 x x'); auto|].
  apply IH; [lia|]. intros c h h' A1 A2. apply (H (S c) h h'); auto.
Qed.

Section Sweep.
Variable I : Iface.
Variable L : laws I.
Variable data : list (Datum I).
Variable covs : list (Cov I).
Notation cvf := (at_ covs).
Hypothesis Hrows : rows_ok I data cvf.
Notation n := (length data).

(** The mixing returns a value for every configuration a sweep can present:
    fewer clusters than data, positive cardinalities. *)
Definition masses_ok (m : Mix I) (n : nat) : Prop :=
  forall k, k <= n - 1 ->
    (forall c, (1 <= c)%Z -> exists w, mass_ex I m (n - 1) k c = Ok w) /\
    (exists w, mass_new I m (n - 1) k = Ok w).

Section OneAlg.
Variable uhp trk : bool.
Hypothesis Huhp : uhp = true -> conj I = true /\ other_draw I = None.
Hypothesis Htrk : trk = true -> uhp = true.
Notation IV := (@Inv I data cvf trk).

Definition GInv (a : alg I) : Prop :=
  length (a_alloc a) = n /\
  IV (a_hyp a) (nth_error (a_alloc a)) (a_uv a) /\
  nonempty (a_uv a).

Lemma Inv_clusters_le : forall hy f uv S, IV hy f uv -> nonempty uv ->
  (forall j c, f j = Some c -> In j S) -> length uv <= length S.
Proof.
  intros hy f uv S [H1 H2] Hne HS.
  rewrite <- (map_length (@h_ids I) uv).
  apply clusters_le.
  - intros c l Hc. rewrite nth_error_map in Hc.
    destruct (nth_error uv c) as [h|] eqn:E; [|discriminate]. injection Hc as <-.
    eapply Hne; eauto.
  - intros c l x Hc Hx. rewrite nth_error_map in Hc.
    destruct (nth_error uv c) as [h|] eqn:E; [|discriminate]. injection Hc as <-.
    destruct (H2 c h E) as (_ & _ & M). apply M in Hx. eauto.
  - intros c c' l l' x Hc Hc' Hx Hx'. rewrite nth_error_map in Hc, Hc'.
    destruct (nth_error uv c) as [h|] eqn:E; [|discriminate]. injection Hc as <-.
    destruct (nth_error uv c') as [h'|] eqn:E'; [|discriminate]. injection Hc' as <-.
    destruct (H2 c h E) as (_ & _ & M). destruct (H2 c' h' E') as (_ & _ & M').
    apply M in Hx. apply M' in Hx'. congruence.
Qed.

Lemma hole_clusters_le : forall hy i al uv, i < n -> length al = n ->
  IV hy (hole i al) uv -> nonempty uv -> length uv <= n - 1.
Proof.
  intros hy i al uv Hi Hl HI Hne.
  assert (HS : length (set_remove i (seq 0 n)) = n - 1).
  { assert (Hin : In i (seq 0 n)) by (apply in_seq; lia).
    pose proof (length_set_remove _ _ Hin) as K. rewrite seq_length in K. lia. }
  rewrite <- HS. eapply Inv_clusters_le; eauto.
  intros j c. unfold hole. destruct (j =? i) eqn:E; [discriminate|]. intros Hj.
  apply Nat.eqb_neq in E. apply In_set_remove.
  - apply ssorted_seq.
  - split; auto. apply in_seq. apply nth_error_lt in Hj. lia.
Qed.

Lemma hole_uv_nonempty : forall hy i al uv, 2 <= n -> i < n -> length al = n ->
  IV hy (hole i al) uv -> uv <> [].
Proof.
  intros hy i al uv Hn Hi Hl [H1 _] E. subst uv.
  assert (Hj : exists j, j < n /\ j <> i).
  { destruct i; [exists 1|exists 0]; lia. }
  destruct Hj as (j & Hj & Hji).
  assert (Hj' : j < length al) by lia.
  destruct (at_ok al Hj') as (c & _ & Ec).
  destruct (H1 j c) as [_ B]; [|simpl in B; lia].
  unfold hole. apply Nat.eqb_neq in Hji. rewrite Hji. auto.
Qed.

Lemma prior_mass_ok : forall (a : alg I) i,
  i < n -> length (a_alloc a) = n ->
  IV (a_hyp a) (hole i (a_alloc a)) (a_uv a) -> nonempty (a_uv a) ->
  masses_ok (a_mix a) n ->
  exists ws, neal2_prior_mass data a = Ok ws /\ length ws = S (length (a_uv a)).
Proof.
  intros a i Hi Hl HI Hne Hm. unfold neal2_prior_mass.
  destruct (Hm (length (a_uv a))) as [Mex (wn & En)].
  { eapply hole_clusters_le; eauto. }
  destruct (@rmap_ok _ _ (fun h => mass_ex I (a_mix a) (n - 1) (length (a_uv a)) (h_card h)) (a_uv a))
    as (ex & E & Elen).
  { intros h Hh. apply In_nth_error in Hh. destruct Hh as (c & Hc).
    apply Mex. destruct HI as [_ H2]. destruct (H2 c h Hc) as ([(_ & K & _) _] & _ & _).
    specialize (Hne c h Hc). rewrite K. destruct (h_ids h); simpl; [congruence|lia]. }
  rewrite E. cbn [rbind]. rewrite En. cbn [rbind].
  exists (ex ++ [wn]). split; auto. rewrite app_length, Elen. simpl. lia.
Qed.

Variable lp : alg I -> nat -> res (list (W I)).
Hypothesis Hlp : forall (a : alg I) i, i < n -> length (a_alloc a) = n -> a_uv a <> [] ->
  IV (a_hyp a) (hole i (a_alloc a)) (a_uv a) ->
  exists ws, lp a i = Ok ws /\ length ws = S (length (a_uv a)).

Lemma same_grouping_upd : forall (J : nat -> Prop) al i c, (forall j, J j -> j <> i) ->
  same_grouping J al (upd al i c).
Proof.
  intros J al i c HJ j k Hj Hk. rewrite !nth_error_upd_other by auto. tauto.
Qed.

Lemma same_grouping_trans : forall J l1 l2 l3,
  same_grouping J l1 l2 -> same_grouping J l2 l3 -> same_grouping J l1 l3.
Proof. intros J l1 l2 l3 A B i j Hi Hj. rewrite (A i j Hi Hj). auto. Qed.

Lemma neal_step_ok : forall (a : alg I) r i,
  2 <= n -> i < n -> GInv a -> masses_ok (a_mix a) n ->
  exists a' r', neal_step data covs uhp lp (a, r) i = Ok (a', r') /\
    GInv a' /\ a_hyp a' = a_hyp a /\ a_mix a' = a_mix a /\ a_aux a' = a_aux a /\
    same_grouping (fun j => j <> i /\ j < n) (a_alloc a) (a_alloc a').
Proof.
  intros a r i Hn Hi (Hl & HI & Hne) Hm. unfold neal_step.
  destruct (@unassign_ok I L data cvf Hrows uhp Huhp trk Htrk a i) as (al & uv & E & Hl1 & HI1 & Hne1 & Hg1); auto.
  rewrite E. cbn [rbind]. set (a1 := set_uv (set_alloc a al) uv) in *.
  destruct (@prior_mass_ok a1 i) as (pm & Epm & Lpm); auto.
  rewrite Epm. cbn [rbind].
  assert (Huv : uv <> []) by (eapply hole_uv_nonempty; eauto).
  destruct (@Hlp a1 i) as (lk & Elk & Llk); auto.
  rewrite Elk. cbn [rbind].
  assert (Lw : length (wsum I pm lk) = S (length uv)).
  { rewrite wsum_length, Lpm, Llk. apply Nat.min_id. }
  destruct (wsum I pm lk) as [|w0 ws] eqn:Ew; [discriminate|].
  cbn [cat rbind].
  pose proof (@cat_lt I L (w0 :: ws) r) as Hc.
  destruct (categorical I (w0 :: ws) r) as [c r1]. simpl fst in Hc.
  assert (Hc' : c <= length uv) by (specialize (Hc ltac:(discriminate)); lia).
  destruct (@assign_ok I L data cvf Hrows uhp Huhp trk Htrk a1 i c r1) as (uv2 & r2 & E2 & HI2 & Hne2); auto.
  rewrite E2. eexists. exists r2. split; [reflexivity|].
  split; [|split; [|split; [|split]]]; try reflexivity.
  - split; [|split]; simpl; auto. rewrite upd_length. auto.
  - simpl. eapply same_grouping_trans; [exact Hg1|].
    apply same_grouping_upd. tauto.
Qed.

Lemma neal_sweep_ok : forall (a : alg I) r is,
  2 <= n -> (forall i, In i is -> i < n) -> GInv a -> masses_ok (a_mix a) n ->
  exists a' r', rfold (neal_step data covs uhp lp) is (a, r) = Ok (a', r') /\
    GInv a' /\ a_hyp a' = a_hyp a /\ a_mix a' = a_mix a /\ a_aux a' = a_aux a.
Proof.
  intros a r is Hn His Ha Hm.
  destruct (@rfold_inv_simple _ _ (neal_step data covs uhp lp)
     (fun s => GInv (fst s) /\ a_hyp (fst s) = a_hyp a /\ a_mix (fst s) = a_mix a /\
               a_aux (fst s) = a_aux a) is (a, r)) as ([a' r'] & E & K); simpl; auto.
  - intros i [a0 r0] Hi (G & E1 & E2 & E3). cbn [fst] in *.
    destruct (@neal_step_ok a0 r0 i) as (a1 & r1 & E & G1 & F1 & F2 & F3 & _); auto.
    { rewrite E2; auto. }
    exists (a1, r1). rewrite E. split; [reflexivity|]. cbn [fst].
    split; [exact G1|]. split; [congruence|]. split; congruence.
  - exists a', r'. split; auto.
Qed.

Lemma draw_all_ok : forall hy uv r,
  (forall c h, nth_error uv c = Some h -> @hok I data cvf trk hy h /\ ph_ok h) ->
  exists uv' r', draw_all hy (negb uhp) uv r = Ok (uv', r') /\ length uv' = length uv /\
   (forall c h h', nth_error uv c = Some h -> nth_error uv' c = Some h' ->
      @hok I data cvf trk hy h' /\ ph_ok h' /\ h_ids h' = h_ids h /\ h_card h' = h_card h).
Proof.
  induction uv as [|h uv IH]; intros r H; simpl.
  - exists [], r. split; auto. split; auto. intros c h h' X; destruct c; discriminate.
  - destruct (H 0 h eq_refl) as [K P].
    destruct (@h_draw_ok I L data cvf uhp Huhp trk Htrk hy h r K P) as (h1 & r1 & E1 & K1 & P1 & I1 & C1).
    rewrite E1. cbn [rbind].
    destruct (IH r1) as (uv2 & r2 & E2 & Hl & H2).
    { intros c g Hg. apply (H (S c) g Hg). }
    rewrite E2. cbn [rbind]. exists (h1 :: uv2), r2. split; auto.
    split; [simpl; auto|]. intros [|c] g g' Hg Hg'.
    + simpl in Hg, Hg'. injection Hg as <-. injection Hg' as <-. auto.
    + simpl in Hg, Hg'. eauto.
Qed.

Lemma sample_unique_values_ok : forall (a : alg I) r, GInv a ->
  exists a' r', sample_unique_values uhp (a, r) = Ok (a', r') /\ GInv a' /\
    a_alloc a' = a_alloc a /\ a_hyp a' = a_hyp a /\ a_mix a' = a_mix a /\ a_aux a' = a_aux a
    /\ map (@h_ids I) (a_uv a') = map (@h_ids I) (a_uv a).
Proof.
  intros a r (Hl & [H1 H2] & Hne). unfold sample_unique_values.
  destruct (@draw_all_ok (a_hyp a) (a_uv a) r) as (uv' & r' & E & Hlen & Hd).
  { intros c h Hc. destruct (H2 c h Hc) as (A & B & _). auto. }
  rewrite E. cbn [rbind]. exists (set_uv a uv'), r'. split; auto.
  assert (Hget : forall c h', nth_error uv' c = Some h' -> exists h, nth_error (a_uv a) c = Some h).
  { intros c h' Hc. assert (c < length (a_uv a)) by (rewrite <- Hlen; eapply nth_error_lt; eauto).
    destruct (at_ok (a_uv a) H) as (h & _ & Eh). eauto. }
  split; [split; [|split]|split; [|split; [|split; [|split]]]]; try reflexivity; simpl; auto.
  - split.
    + intros j c Hj. rewrite Hlen. apply H1; auto.
    + intros c h' Hc. destruct (Hget c h' Hc) as (h & Hh).
      destruct (Hd c h h' Hh Hc) as (A & B & Ei & _).
      destruct (H2 c h Hh) as (_ & _ & M).
      split; [exact A|]. split; [exact B|]. intros j. rewrite Ei. apply M.
  - intros c h' Hc. destruct (Hget c h' Hc) as (h & Hh).
    destruct (Hd c h h' Hh Hc) as (_ & _ & Ei & _). rewrite Ei. eapply Hne; eauto.
  - apply nth_error_ext_map; auto. intros c h h' Hh Hc. apply (Hd c h h' Hh Hc).
Qed.

End OneAlg.

(** ** The two density vectors *)

Lemma neal2_lpdf_ok : forall trk (a : alg I) i, i < n -> length (a_alloc a) = n -> a_uv a <> [] ->
  @Inv I data cvf trk (a_hyp a) (hole i (a_alloc a)) (a_uv a) ->
  exists ws, neal2_lpdf data covs a i = Ok ws /\ length ws = S (length (a_uv a)).
Proof.
  intros trk a i Hi Hl Hne HI. unfold neal2_lpdf.
  destruct (Hrows Hi) as (d & cv & Ed & Ecv & Hr). rewrite Ed, Ecv. cbn [rbind].
  destruct (a_uv a) as [|h uv] eqn:E; [congruence|].
  cbn [at_ nth_error rbind]. eexists. split; [reflexivity|].
  rewrite app_length, map_length. simpl. lia.
Qed.

Lemma neal3_lpdf_ok : forall trk (a : alg I) i, other_draw I = None ->
  i < n -> length (a_alloc a) = n -> a_uv a <> [] ->
  @Inv I data cvf trk (a_hyp a) (hole i (a_alloc a)) (a_uv a) ->
  exists ws, neal3_lpdf data covs a i = Ok ws /\ length ws = S (length (a_uv a)).
Proof.
  intros trk a i Hod Hi Hl Hne [_ H2]. unfold neal3_lpdf.
  destruct (Hrows Hi) as (d & cv & Ed & Ecv & Hr). rewrite Ed, Ecv. cbn [rbind].
  destruct (@rmap_ok _ _ (fun h => h_cond_pred (a_hyp a) h d cv) (a_uv a)) as (ex & E & El).
  { intros h Hh. apply In_nth_error in Hh. destruct Hh as (c & Hc).
    destruct (H2 c h Hc) as (_ & P & _).
    unfold h_cond_pred, h_get_post. rewrite Hod.
    destruct (h_saved h) eqn:Es.
    - destruct (h_ph h) as [p|] eqn:Ep; [|exfalso; apply (P Es); auto].
      simpl. eauto.
    - unfold h_compute_post. rewrite Hod. simpl. eauto. }
  rewrite E. cbn [rbind].
  destruct (a_uv a) as [|h uv] eqn:Eu; [congruence|].
  cbn [at_ nth_error rbind]. eexists. split; [reflexivity|].
  rewrite app_length, El. simpl. lia.
Qed.

(** ** Neal8 *)

Definition aux_ok (n_aux : nat) (a : alg I) : Prop :=
  length (a_aux a) = n_aux /\
  forall j h, nth_error (a_aux a) j = Some h -> h_ids h = [] /\ h_stats h = stats0 I.

Notation IV0 := (@Inv I data cvf false).

Lemma uhp_false : false = true -> conj I = true /\ other_draw I = None.
Proof. discriminate. Qed.
Lemma trk_false : forall b : bool, false = true -> b = true.
Proof. discriminate. Qed.

(** Dropping the first auxiliary's update, [neal8_unassign] is [unassign]. *)
Lemma neal8_unassign_ok : forall n_aux (a : alg I) i, 1 <= n_aux ->
  length (a_alloc a) = n -> i < n ->
  IV0 (a_hyp a) (nth_error (a_alloc a)) (a_uv a) -> nonempty (a_uv a) ->
  aux_ok n_aux a ->
  exists al uv aux b, neal8_unassign data covs i a = Ok (set_uv (set_alloc (set_aux a aux) al) uv, b) /\
    length al = n /\
    IV0 (a_hyp a) (hole i al) uv /\ nonempty uv /\
    same_grouping (fun j => j <> i /\ j < n) (a_alloc a) al /\
    aux_ok n_aux (set_aux a aux) /\
    (exists c h, nth_error (a_alloc a) i = Some c /\ nth_error (a_uv a) c = Some h /\
      b = Z.leb (h_card h) 1 /\
      (b = false -> aux = a_aux a) /\
      (b = true -> exists x0 t, a_aux a = x0 :: t /\ aux = h_load h x0 :: t)).
Proof.
  intros n_aux a i Hna Hlen Hi HI Hne [Ha1 Ha2].
  destruct (@unassign_ok I L data cvf Hrows false uhp_false false (@trk_false _) a i)
    as (al & uv & E & Hl1 & HI1 & Hne1 & Hg1); auto.
  unfold unassign in E. unfold neal8_unassign.
  assert (Hi' : i < length (a_alloc a)) by lia.
  destruct (at_ok (a_alloc a) Hi') as (c & Ec & Enc). rewrite Ec in E |- *. cbn [rbind] in E |- *.
  assert (Hc : c < length (a_uv a)) by (destruct HI as [H1 _]; apply (H1 i c Enc)).
  destruct (at_ok (a_uv a) Hc) as (h & Eh & Enh). rewrite Eh in E |- *. cbn [rbind] in E |- *.
  destruct (Z.leb (h_card h) 1) eqn:Esing.
  - destruct (a_aux a) as [|x0 aux] eqn:Eaux; [simpl in Ha1; lia|].
    cbn [at_ nth_error rbind].
    unfold remove_singleton in E |- *. rewrite erase_at_ok in E |- * by auto.
    cbn [rbind] in E |- *.
    injection E as El Eu. simpl in El, Eu.
    exists al, uv, (h_load h x0 :: aux), true.
    split. { simpl. rewrite <- El, <- Eu. destruct a; reflexivity. }
    split; [auto|]. split; [auto|]. split; [auto|]. split; [auto|]. split.
    + split; simpl; auto.
      intros [|j] g Hg; simpl in Hg.
      * injection Hg as <-. simpl. apply (Ha2 0); auto.
      * apply (Ha2 (S j)); auto.
    + exists c, h. split; [auto|]. split; [auto|]. split; [auto|]. split; [discriminate|].
      intros _. exists x0, aux. auto.
  - destruct (Hrows Hi) as (d & cv & Ed & Ecv & Hr). rewrite Ed, Ecv in E |- *.
    cbn [rbind] in E |- *.
    destruct (remove_in (a_hyp a) false c i d cv (a_uv a)) as [uv1| | |] eqn:Er; try discriminate.
    cbn [rbind] in E |- *. injection E as El Eu.
    exists al, uv, (a_aux a), false.
    split. { rewrite <- El, Eu. destruct a; reflexivity. }
    split; [auto|]. split; [auto|]. split; [auto|]. split; [auto|]. split.
    + split; simpl; auto.
    + exists c, h. repeat split; auto; discriminate.
Qed.

Lemma refresh_aux_ok : forall hy js aux r,
  (forall j, In j js -> j < length aux) ->
  (forall j h, nth_error aux j = Some h -> h_ids h = [] /\ h_stats h = stats0 I) ->
  exists aux' r', refresh_aux hy js aux r = Ok (aux', r') /\ length aux' = length aux /\
    (forall j h, nth_error aux' j = Some h -> h_ids h = [] /\ h_stats h = stats0 I) /\
    (forall j, ~ In j js -> nth_error aux' j = nth_error aux j) /\
    (NoDup js -> forall j, In j js -> exists h r0, nth_error aux' j = Some h /\
       h_state h = fst (prior_sample I hy r0)).
Proof.
  induction js as [|j js IH]; intros aux r Hjs Hal; cbn [refresh_aux].
  - exists aux, r. repeat split; auto; intros; try (eapply Hal; eauto); contradiction.
  - assert (Hj : j < length aux) by (apply Hjs; simpl; auto).
    destruct (at_ok aux Hj) as (h & E & En). rewrite E. cbn [rbind].
    unfold h_sample_prior. destruct (prior_sample I hy r) as [s r1] eqn:Eps.
    destruct (IH (upd aux j (h_set_state s h)) r1) as (aux' & r' & E' & Hl & Hok & Hsame & Hdr).
    + intros j' Hj'. rewrite upd_length. apply Hjs; simpl; auto.
    + intros j' g Hg. rewrite nth_error_upd in Hg.
      destruct ((j' =? j) && (j <? length aux)); [|eapply Hal; eauto].
      injection Hg as <-. simpl. apply (Hal j); auto.
    + exists aux', r'. split; auto. rewrite upd_length in Hl. split; auto. split; auto.
      split.
      * intros j' Hn. simpl in Hn. rewrite Hsame by tauto. apply nth_error_upd_other. intuition.
      * intros Hnd j' [->|Hin]; inversion Hnd; subst.
        -- exists (h_set_state s h), r. rewrite Hsame by auto.
           rewrite nth_error_upd_same by auto. rewrite Eps. auto.
        -- apply Hdr; auto.
Qed.

Lemma neal8_assign_ok : forall n_aux (a : alg I) i c_new,
  length (a_alloc a) = n -> i < n ->
  IV0 (a_hyp a) (hole i (a_alloc a)) (a_uv a) -> nonempty (a_uv a) ->
  length (a_aux a) = n_aux -> c_new < length (a_uv a) + n_aux ->
  exists uv, neal8_assign data covs i c_new a =
      Ok (set_uv (set_alloc a (upd (a_alloc a) i (min c_new (length (a_uv a))))) uv) /\
    IV0 (a_hyp a) (nth_error (upd (a_alloc a) i (min c_new (length (a_uv a))))) uv /\ nonempty uv /\
    (forall c, c < length (a_uv a) ->
       option_map (@h_state I) (nth_error uv c) = option_map (@h_state I) (nth_error (a_uv a) c)) /\
    (length (a_uv a) <= c_new ->
       length uv = S (length (a_uv a)) /\
       option_map (@h_state I) (nth_error uv (length (a_uv a))) =
       option_map (@h_state I) (nth_error (a_aux a) (c_new - length (a_uv a)))).
Proof.
  intros n_aux a i c Hlen Hi HI Hne Hla Hc. unfold neal8_assign.
  destruct (Hrows Hi) as (d & cv & Ed & Ecv & Hr). rewrite Ed, Ecv. cbn [rbind].
  assert (Hi' : i < length (a_alloc a)) by lia.
  assert (Hhi : hole i (a_alloc a) i = None) by (unfold hole; rewrite Nat.eqb_refl; auto).
  destruct (length (a_uv a) <=? c) eqn:Ec.
  - apply Nat.leb_le in Ec. rewrite Nat.min_r by auto.
    assert (Hcx : c - length (a_uv a) < length (a_aux a)) by lia.
    destruct (at_ok (a_aux a) Hcx) as (hx & Ex & Enx). rewrite Ex. cbn [rbind].
    rewrite set_at_ok by auto. cbn [rbind].
    unfold add_in, at_. rewrite nth_error_app2, Nat.sub_diag by auto. cbn [nth_error rbind].
    destruct (@h_clone_add_ok I L data cvf Hrows false uhp_false false (@trk_false _)
                (a_hyp a) i d cv hx) as (h1 & E1 & K1 & P1 & I1 & S1); auto.
    rewrite E1. cbn [rbind].
    assert (Eu : upd (a_uv a ++ [h_clone hx]) (length (a_uv a)) h1 = a_uv a ++ [h1]).
    { generalize (a_uv a). induction l; simpl; congruence. }
    rewrite Eu. exists (a_uv a ++ [h1]).
    split; [destruct a; reflexivity|]. split; [|split; [|split]].
    + apply Inv_ext with (f := fun j => if j =? i then Some (length (a_uv a)) else hole i (a_alloc a) j).
      { intros j. apply hole_upd; auto. }
      apply push_ok; auto.
    + intros e g Hg. destruct (Nat.lt_ge_cases e (length (a_uv a))) as [Hlt|Hge].
      * rewrite nth_error_app1 in Hg by auto. eapply Hne; eauto.
      * rewrite nth_error_app2 in Hg by auto.
        destruct (e - length (a_uv a)) as [|m]; simpl in Hg; [|destruct m; discriminate].
        injection Hg as <-. rewrite I1. discriminate.
    + intros e He. rewrite nth_error_app1; auto.
    + intros _. rewrite app_length. simpl. split; [lia|].
      rewrite nth_error_app2, Nat.sub_diag by auto. simpl. rewrite Enx. simpl. congruence.
  - apply Nat.leb_gt in Ec. rewrite Nat.min_l by lia.
    rewrite set_at_ok by auto. cbn [rbind].
    destruct (@add_in_ok I L data cvf Hrows false uhp_false false (@trk_false _)
       (a_hyp a) (hole i (a_alloc a)) (a_uv a) i c d cv)
      as (uv & E & Hl & HI' & Hn' & Hoth & Hsame); auto.
    rewrite E. cbn [rbind]. exists uv. split; [destruct a; reflexivity|].
    split; [|split; [|split]]; auto.
    + eapply Inv_ext; [|exact HI']. intros j. apply hole_upd; auto.
    + intros e He. destruct (at_ok (a_uv a) He) as (g & _ & Eg).
      destruct (Nat.eq_dec e c) as [->|Hn].
      * destruct (Hsame g Eg) as (g' & Eg' & Es & _). rewrite Eg, Eg'. simpl. congruence.
      * rewrite (Hoth e g Eg Hn), Eg. reflexivity.
    + lia.
Qed.

Definition GInv8 (n_aux : nat) (a : alg I) : Prop := GInv false a /\ aux_ok n_aux a.

Lemma neal8_step_ok : forall n_aux (a : alg I) r i,
  1 <= n_aux -> i < n -> GInv8 n_aux a -> masses_ok (a_mix a) n ->
  exists a' r', neal8_step data covs n_aux (a, r) i = Ok (a', r') /\
    GInv8 n_aux a' /\ a_hyp a' = a_hyp a /\ a_mix a' = a_mix a /\
    same_grouping (fun j => j <> i /\ j < n) (a_alloc a) (a_alloc a').
Proof.
  intros n_aux a r i Hna Hi ((Hl & HI & Hne) & Haux) Hm. unfold neal8_step.
  destruct (@neal8_unassign_ok n_aux a i) as
    (al & uv & aux & b & E & Hl1 & HI1 & Hne1 & Hg1 & Haux1 & _); auto.
  rewrite E. cbn [rbind].
  set (a1 := set_uv (set_alloc (set_aux a aux) al) uv) in *.
  destruct Haux1 as [Hx1 Hx2].
  destruct (@refresh_aux_ok (a_hyp a1) (seq (if b then 1 else 0) (n_aux - (if b then 1 else 0))) (a_aux a1) r)
    as (aux' & r1 & E2 & Hl2 & Hok2 & _).
  { intros j Hj. apply in_seq in Hj. simpl in Hx1 |- *. destruct b; lia. }
  { exact Hx2. }
  rewrite E2. cbn [rbind]. set (a2 := set_aux a1 aux').
  assert (Hx3 : length (a_aux a2) = n_aux) by (simpl in *; congruence).
  destruct (@prior_mass_ok false a2 i) as (pm & Epm & Lpm); auto.
  assert (Epm8 : exists pm8, neal8_prior_mass data n_aux a2 = Ok pm8 /\ length pm8 = length uv + n_aux).
  { unfold neal8_prior_mass. unfold neal2_prior_mass in Epm.
    change (a_uv a2) with uv in *. change (a_mix a2) with (a_mix a) in *.
    destruct (@rmap_ok _ _ (fun h => mass_ex I (a_mix a) (n - 1) (length uv) (h_card h)) uv) as (ex & Eex & Lex).
    { destruct (Hm (length uv)) as [Mex _]. { eapply hole_clusters_le; eauto. }
      intros h Hh. apply In_nth_error in Hh. destruct Hh as (c & Hc).
      apply Mex. destruct HI1 as [_ H2]. destruct (H2 c h Hc) as ([(_ & K & _) _] & _ & _).
      specialize (Hne1 c h Hc). rewrite K. destruct (h_ids h); simpl; [congruence|lia]. }
    rewrite Eex. cbn [rbind].
    destruct (@rmap_ok _ _ (fun _ : nat => mass_new I (a_mix a) (n - 1) (length uv)) (seq 0 n_aux)) as (nw & Enw & Lnw).
    { intros _ _. apply (Hm (length uv)). eapply hole_clusters_le; eauto. }
    rewrite Enw. cbn [rbind]. eexists. split; [reflexivity|].
    rewrite app_length, Lex, Lnw, seq_length. auto. }
  destruct Epm8 as (pm8 & Epm8 & Lpm8). rewrite Epm8. cbn [rbind].
  assert (Elk8 : exists lk, neal8_lpdf data covs n_aux a2 i = Ok lk /\ length lk = length uv + n_aux).
  { unfold neal8_lpdf.
    destruct (Hrows Hi) as (d & cv & Ed & Ecv & Hr). rewrite Ed, Ecv. cbn [rbind].
    destruct (@rmap_ok _ _ (fun j => h <- at_ (a_aux a2) j ;; Ok (wsublog I (h_like h d cv) n_aux)) (seq 0 n_aux)) as (nw & Enw & Lnw).
    { intros j Hj. apply in_seq in Hj. destruct (at_ok (a_aux a2) (i := j)) as (h & Eh & _); [lia|].
      rewrite Eh. simpl. eauto. }
    rewrite Enw. cbn [rbind]. eexists. split; [reflexivity|].
    rewrite app_length, map_length, Lnw, seq_length. auto. }
  destruct Elk8 as (lk & Elk & Llk). rewrite Elk. cbn [rbind].
  assert (Lw : length (wsum I pm8 lk) = length uv + n_aux).
  { rewrite wsum_length, Lpm8, Llk. apply Nat.min_id. }
  destruct (wsum I pm8 lk) as [|w0 ws] eqn:Ew; [simpl in Lw; lia|].
  cbn [cat rbind].
  pose proof (@cat_lt I L (w0 :: ws) r1) as Hc.
  destruct (categorical I (w0 :: ws) r1) as [c r2]. simpl fst in Hc.
  assert (Hc' : c < length uv + n_aux) by (specialize (Hc ltac:(discriminate)); lia).
  destruct (@neal8_assign_ok n_aux a2 i c) as (uv2 & E3 & HI2 & Hne2 & _); auto.
  rewrite E3. cbn [rbind]. eexists. exists r2. split; [reflexivity|].
  split; [|split; [|split]]; try reflexivity.
  - split; [split; [|split]|]; simpl; auto; [rewrite upd_length; auto|].
    split; auto.
  - simpl. eapply same_grouping_trans; [exact Hg1|]. apply same_grouping_upd. tauto.
Qed.

Lemma neal8_sweep_ok : forall n_aux (a : alg I) r is,
  1 <= n_aux -> (forall i, In i is -> i < n) -> GInv8 n_aux a -> masses_ok (a_mix a) n ->
  exists a' r', rfold (neal8_step data covs n_aux) is (a, r) = Ok (a', r') /\
    GInv8 n_aux a' /\ a_hyp a' = a_hyp a /\ a_mix a' = a_mix a.
Proof.
  intros n_aux a r is Hn His Ha Hm.
  destruct (@rfold_inv_simple _ _ (neal8_step data covs n_aux)
     (fun s => GInv8 n_aux (fst s) /\ a_hyp (fst s) = a_hyp a /\ a_mix (fst s) = a_mix a)
     is (a, r)) as ([a' r'] & E & K); simpl; auto.
  - intros i [a0 r0] Hi (G & E1 & E2). cbn [fst] in *.
    destruct (@neal8_step_ok n_aux a0 r0 i) as (a1 & r1 & E & G1 & F1 & F2 & _); auto.
    { rewrite E2; auto. }
    exists (a1, r1). rewrite E. split; [reflexivity|]. cbn [fst].
    split; [exact G1|]. split; congruence.
  - exists a', r'. split; auto.
Qed.

(** ** Whole iterations *)

Lemma GInv_set_hyp : forall (a : alg I) hy, GInv false a -> GInv false (set_hyp a hy).
Proof.
  intros a hy (Hl & [H1 H2] & Hne). split; [|split]; simpl; auto.
  split; auto. intros c h Hc. destruct (H2 c h Hc) as ((K & _) & P & M).
  split; [split; [exact K|discriminate]|]. auto.
Qed.

Lemma GInv_untrack : forall trk (a : alg I), GInv trk a -> GInv false a.
Proof.
  intros trk a (Hl & [H1 H2] & Hne). split; [|split]; simpl; auto.
  split; auto. intros c h Hc. destruct (H2 c h Hc) as ((K & _) & P & M).
  split; [split; [exact K|discriminate]|]. auto.
Qed.

(** A set of mixing states closed under updates in which every mass is defined. *)
Definition mixing_safe (P : Mix I -> Prop) : Prop :=
  (forall m, P m -> masses_ok m n) /\
  (forall m cards al r, P m -> exists m' r', mix_update I m cards al r = Ok (m', r') /\ P m').

Lemma GInv_uv_pos : forall trk (a : alg I), 1 <= n -> GInv trk a -> a_uv a <> [].
Proof.
  intros trk a Hn (Hl & [H1 _] & _) E.
  assert (H0 : 0 < length (a_alloc a)) by lia.
  destruct (at_ok _ H0) as (c & _ & Ec). destruct (H1 0 c Ec) as [_ B].
  rewrite E in B. simpl in B. lia.
Qed.

Lemma tail_ok : forall uhp (P : Mix I -> Prop) (a : alg I) r,
  (uhp = true -> conj I = true /\ other_draw I = None) ->
  1 <= n -> mixing_safe P -> GInv false a -> P (a_mix a) ->
  exists a' r',
   (s2 <- sample_unique_values uhp (a, r) ;; s3 <- update_hierarchy_hypers s2 ;; update_mixing s3)
     = Ok (a', r') /\ GInv false a' /\ P (a_mix a') /\ a_alloc a' = a_alloc a
     /\ a_aux a' = a_aux a.
Proof.
  intros uhp P a r Hu Hn [_ HP] Ha Hm.
  destruct (@sample_unique_values_ok uhp false Hu (@trk_false _) a r) as
    (a1 & r1 & E1 & G1 & Eal & _ & Em & Ex & _); auto.
  rewrite E1. cbn [rbind]. unfold update_hierarchy_hypers.
  destruct (a_uv a1) as [|h0 uv] eqn:Euv; [exfalso; eapply GInv_uv_pos; eauto|].
  cbn [at_ nth_error rbind].
  match goal with |- context [hyp_update I ?a ?b ?c] => destruct (hyp_update I a b c) as [hy r2] end.
  cbn [rbind]. unfold update_mixing. rewrite <- Em in Hm.
  change (a_mix (set_hyp a1 hy)) with (a_mix a1).
  match goal with |- context [mix_update I (a_mix a1) ?b ?c ?d] =>
    destruct (HP (a_mix a1) b c d Hm) as (m' & r' & E3 & Pm) end.
  rewrite E3. cbn [rbind]. eexists. exists r'. split; [reflexivity|].
  split; [|split; [|split]]; auto.
  apply (GInv_set_hyp hy) in G1. exact G1.
Qed.

Fixpoint iter (step : alg I * Rng I -> res (alg I * Rng I)) (k : nat) (s : alg I * Rng I) :=
  match k with
  | O => Ok s
  | S k' => s' <- step s ;; iter step k' s'
  end.

Lemma iter_inv : forall step (Q : alg I -> Prop) k a r,
  (forall a r, Q a -> exists a' r', step (a, r) = Ok (a', r') /\ Q a') ->
  Q a -> exists a' r', iter step k (a, r) = Ok (a', r') /\ Q a'.
Proof.
  induction k as [|k IH]; intros a r Hs Ha; simpl.
  - eauto.
  - destruct (Hs a r Ha) as (a1 & r1 & E & H1). rewrite E. simpl. auto.
Qed.

Lemma neal2_step_ok : forall P (a : alg I) r,
  2 <= n -> mixing_safe P -> GInv false a -> P (a_mix a) ->
  exists a' r', base_step (neal2_sample_allocations data covs) false (a, r) = Ok (a', r') /\
    GInv false a' /\ P (a_mix a').
Proof.
  intros P a r Hn HP Ha Hm. unfold base_step, neal2_sample_allocations.
  destruct (@neal_sweep_ok false false uhp_false (@trk_false _) (neal2_lpdf data covs)
              (@neal2_lpdf_ok false) a r (seq 0 n))
    as (a1 & r1 & E & G1 & _ & Em & _); auto.
  { intros i Hi. apply in_seq in Hi. lia. }
  { apply HP; auto. }
  rewrite E. cbn [rbind].
  destruct (@tail_ok false P a1 r1 uhp_false) as (a' & r' & E' & G' & Pm & _); auto; [lia|congruence|].
  rewrite E'. eauto.
Qed.

Lemma neal3_step_ok : forall P (a : alg I) r,
  conj I = true -> other_draw I = None ->
  2 <= n -> mixing_safe P -> GInv false a -> P (a_mix a) ->
  exists a' r', base_step (neal3_sample_allocations data covs) true (a, r) = Ok (a', r') /\
    GInv false a' /\ P (a_mix a').
Proof.
  intros P a r Hcj Hod Hn HP Ha Hm. unfold base_step, neal3_sample_allocations.
  destruct (@neal_sweep_ok true false (fun _ => Logic.conj Hcj Hod) (@trk_false _) (neal3_lpdf data covs)
              (fun a i => @neal3_lpdf_ok false a i Hod) a r (seq 0 n))
    as (a1 & r1 & E & G1 & _ & Em & _); auto.
  { intros i Hi. apply in_seq in Hi. lia. }
  { apply HP; auto. }
  rewrite E. cbn [rbind].
  destruct (@tail_ok true P a1 r1 (fun _ => Logic.conj Hcj Hod)) as (a' & r' & E' & G' & Pm & _); auto; [lia|congruence|].
  rewrite E'. eauto.
Qed.

Lemma neal8_step_all_ok : forall n_aux P (a : alg I) r,
  1 <= n_aux -> 1 <= n -> mixing_safe P -> GInv8 n_aux a -> P (a_mix a) ->
  exists a' r', base_step (neal8_sample_allocations data covs n_aux) false (a, r) = Ok (a', r') /\
    GInv8 n_aux a' /\ P (a_mix a').
Proof.
  intros n_aux P a r Hx Hn HP Ha Hm. unfold base_step, neal8_sample_allocations.
  destruct (@neal8_sweep_ok n_aux a r (seq 0 n)) as (a1 & r1 & E & [G1 X1] & _ & Em); auto.
  { intros i Hi. apply in_seq in Hi. lia. }
  { apply HP; auto. }
  rewrite E. cbn [rbind].
  destruct (@tail_ok false P a1 r1 uhp_false) as (a' & r' & E' & G' & Pm & _ & Ex); auto; [congruence|].
  rewrite E'. exists a', r'. split; auto. split; auto. split; auto.
  destruct X1 as [X1 X2]. split; rewrite Ex; auto.
Qed.

End Sweep.
