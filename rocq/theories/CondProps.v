(** * Conditional algorithms: statements in terms of [Spec]. *)
From Coq Require Import String.
From Coq Require Import Bool List Arith ZArith Lia Reals Lra.
From Verif Require Import Base Hier Algos Spec MargFacts NealFacts InitFacts MargMore Stick Cond CondFacts SliceFacts StickFacts.
Import ListNotations.
Set Implicit Arguments.

Section CP.
Variable I : Iface.
Variable L : laws I.
Variable data : list (Datum I).
Variable covs : list (Cov I).
Notation n := (length data).
Hypothesis Hrows : rows_ok I data (at_ covs).

Lemma blocked_init : forall hy m nc gen h0 r,
  1 <= nc <= n -> (forall i, gen i < nc) -> h_saved h0 = false ->
  exists a r', init_clusters data covs false hy m nc gen [h0] r = Ok (a, r') /\
    consistent n (a_alloc a) (view (a_uv a)) /\ caches_ok data covs (a_uv a) /\
    length (a_uv a) = nc /\ a_mix a = m.
Proof.
  intros hy m nc gen h0 r Hnc Hgen Hh0.
  assert (En : num_components I data nc = nc).
  { unfold num_components. destruct (Nat.eqb_spec nc 0); lia. }
  destruct (@init_clusters_ok I L data covs Hrows false hy m nc gen h0 r) as (a & r' & E & HG & Hl & _ & Em & _).
  1: discriminate. 1, 2: lia. 1: rewrite En; exact Hgen. 1: unfold ph_ok; rewrite Hh0; discriminate.
  - exists a, r'. rewrite En in Hl. apply GInv_iff in HG. destruct HG as (HG & HC).
    split; auto. split; [apply HG|]. split; [apply HC|auto].
Qed.

Lemma blocked_sweep_spec : forall nc (a : alg I) r,
  1 <= nc -> length (a_uv a) = nc -> logweights_ok I data (a_mix a) nc ->
  consistent n (a_alloc a) (view (a_uv a)) -> caches_ok data covs (a_uv a) ->
  exists a' r', blocked_sample_allocations data covs nc (a, r) = Ok (a', r') /\
    consistent n (a_alloc a') (view (a_uv a')) /\ caches_ok data covs (a_uv a') /\
    length (a_uv a') = nc /\ a_hyp a' = a_hyp a /\ a_mix a' = a_mix a /\
    map (@h_state I) (a_uv a') = map (@h_state I) (a_uv a).
Proof.
  intros nc a r Hnc Hl Hw Hc Hk.
  destruct (@blocked_sweep_ok I L data covs Hrows nc a r) as (a' & r' & E & HC & A); auto.
  { apply CInv_iff; auto. }
  exists a', r'. apply CInv_iff in HC. tauto.
Qed.

Lemma blocked_iter_spec : forall nc P k (a : alg I) r,
  cmixing_safe I data nc P -> 1 <= nc -> length (a_uv a) = nc -> P (a_mix a) ->
  consistent n (a_alloc a) (view (a_uv a)) -> caches_ok data covs (a_uv a) ->
  exists a' r', iter (base_step (blocked_sample_allocations data covs nc) false) k (a, r) = Ok (a', r') /\
    consistent n (a_alloc a') (view (a_uv a')) /\ caches_ok data covs (a_uv a') /\
    length (a_uv a') = nc /\ P (a_mix a').
Proof.
  intros nc P k a r Hs Hnc Hl HP Hc Hk.
  destruct (@blocked_iter_ok I L data covs Hrows nc P k a r) as (a' & r' & E & HC & A); auto.
  { apply CInv_iff; auto. }
  exists a', r'. apply CInv_iff in HC. tauto.
Qed.

(** One step of the sweep: exactly one label changes, to the drawn component. *)
Lemma blocked_step_spec : forall nc (a a' : alg I) r r' i d cv,
  1 <= nc -> length (a_uv a) = nc -> logweights_ok I data (a_mix a) nc ->
  consistent n (a_alloc a) (view (a_uv a)) -> caches_ok data covs (a_uv a) ->
  at_ data i = Ok d -> at_ covs i = Ok cv ->
  blocked_step data covs nc (a, r) i = Ok (a', r') ->
  exists c, cat I (map (fun p => wadd I (fst p) (like_lpdf I (h_state (snd p)) d cv))
                       (combine (mix_logweights I (a_mix a) i) (a_uv a))) r = Ok (c, r') /\
    a_alloc a' = upd (a_alloc a) i c.
Proof.
  intros nc a a' r r' i d cv Hnc Hl Hw Hc Hk Hd Hcv H.
  assert (HC : CInv data covs a) by (apply CInv_iff; auto).
  assert (Hi : i < n) by (apply at_inv in Hd; eapply nth_error_lt; eauto).
  unfold blocked_step in H. rewrite (@blocked_logprobas_ok I data covs nc i a d cv Hd Hcv Hl (Hw _ Hi)) in H.
  cbn [rbind] in H. fold (@blocked_ws I (mix_logweights I (a_mix a) i) (a_uv a) d cv).
  assert (HL : length (blocked_ws (mix_logweights I (a_mix a) i) (a_uv a) d cv) = nc).
  { rewrite blocked_ws_length; auto. rewrite (Hw i Hi); auto. }
  destruct (@cat_ok I L (blocked_ws (mix_logweights I (a_mix a) i) (a_uv a) d cv) r) as (c & r1 & E & Hlt).
  { intros X. rewrite X in HL. simpl in HL. lia. }
  rewrite E in H. cbn [rbind] in H.
  destruct (@move_datum_ok I L data covs Hrows a i c HC Hi) as (a1 & E1 & _ & Ea & _); [lia|].
  rewrite E1 in H. cbn [rbind] in H. injection H as <- <-. exists c. auto.
Qed.

Lemma blocked_redraw : forall nc (P : Mix I -> Prop) hy0 m gen h0 r steps a r' uv' r'',
  other_draw I = None -> 1 <= nc <= n -> (forall i, gen i < nc) ->
  h_saved h0 = false -> cmixing_safe I data nc P -> P m ->
  (s0 <- init_clusters data covs false hy0 m nc gen [h0] r ;;
   iter (base_step (blocked_sample_allocations data covs nc) false) steps s0) = Ok (a, r') ->
  sample_unique_values false (a, r') = Ok (set_uv a uv', r'') ->
  forall c h h', nth_error (a_uv a) c = Some h -> nth_error uv' c = Some h' ->
    exists r0 r1, prior_sample I
       (if length (h_ids h) =? 0 then a_hyp a
        else if conj I && (c =? 0) then hy0
        else post I (a_hyp a) (Z.of_nat (length (h_ids h))) (batch I data (at_ covs) (h_ids h)) (h_state h)) r0
       = (h_state h', r1).
Proof.
  intros nc P hy0 m gen h0 r steps a r' uv' r'' Hod Hnc Hgen Hh0 HP Hm H Hs.
  destruct (@blocked_init hy0 m nc gen h0 r Hnc Hgen Hh0) as (a0 & r0 & E0 & Hc0 & Hk0 & Hl0 & Em0).
  rewrite E0 in H. cbn [rbind] in H.
  assert (O0 : only0 hy0 (a_uv a0)) by (eapply only0_init; eauto).
  assert (C0 : CInv data covs a0) by (apply CInv_iff; auto).
  rewrite <- Em0 in Hm. clear Em0 E0.
  assert (X : CInv data covs a /\ only0 hy0 (a_uv a)).
  { clear Hs Hc0 Hk0. revert a0 r0 H O0 C0 Hl0 Hm. induction steps as [|s IH]; intros a0 r0 H O0 C0 Hl0 Hm.
    - simpl in H. injection H as <- <-. auto.
    - cbn [iter] in H.
      destruct (@blocked_base_step_ok I L data covs Hrows nc P a0 r0 HP C0) as (a1 & r1 & E1 & C1 & Hl1 & Hm1); auto; [lia|].
      rewrite E1 in H. cbn [rbind] in H. eapply IH; eauto. eapply only0_blocked_base; eauto. }
  destruct X as [C1 O1]. intros c h h' Hc Hc'.
  eapply cond_redraw_core; eauto.
Qed.

End CP.

(** ** Slice sampler *)
Section SP.
Variable I : Iface.
Variable L : laws I.
Variable data : list (Datum I).
Variable covs : list (Cov I).
Notation n := (length data).
Hypothesis Hrows : rows_ok I data (at_ covs).
Hypothesis Hn : 1 <= n.
Variable K : Num.
Variable beta : N K -> N K -> Rng I -> N K * Rng I.
Variable unif01 : N K -> Rng I -> N K * Rng I.
Variable tiny : N K.
Variable junk : N K.

(** Labels, components, sticks, weights and slices fit together. *)
Definition slice_ok (s : slicer I K) : Prop :=
  consistent n (a_alloc (s_alg s)) (view (a_uv (s_alg s))) /\ caches_ok data covs (a_uv (s_alg s)) /\
  length (a_uv (s_alg s)) = sb_nc (s_mix s) /\ length (s_u s) = n /\
  length (sb_sticks (s_mix s)) = sb_nc (s_mix s) /\
  sb_w (s_mix s) = weights_go K (n1 K) (sb_sticks (s_mix s)) /\
  (forall l, sb_prior (s_mix s) = BetaPriors _ l -> sb_nc (s_mix s) <= length l).

Lemma slice_ok_iff : forall s, slice_ok s <-> SInv data covs s.
Proof using.
  clear. intros s. unfold slice_ok, SInv, sb_ok. rewrite (CInv_iff data covs (s_alg s)). tauto.
Qed.

Lemma safe_ok : forall A (P : A -> Prop) x a, safe P x -> x = Ok a -> P a.
Proof. intros A P x a H ->. exact H. Qed.

Lemma slice_init_spec : forall hy mx (m : sb K) gen h0 r,
  1 <= sb_nc m <= n -> (forall i, gen i < sb_nc m) -> h_saved h0 = false -> sb_ok m ->
  safe (fun p => slice_ok (fst p) /\ s_mix (fst p) = m /\ only0 hy (a_uv (s_alg (fst p))))
    (slice_initialize data covs unif01 tiny hy mx m gen [h0] r).
Proof.
  intros hy mx m gen h0 r Hnc Hgen Hh0 Hm. unfold slice_initialize.
  destruct (@blocked_init I L data covs Hrows hy mx (sb_nc m) gen h0 r Hnc Hgen Hh0) as (a & r1 & E & Hc & Hk & Hl & _).
  assert (O : only0 hy (a_uv a)) by (eapply only0_init; eauto).
  rewrite E. cbn [rbind].
  eapply safe_imp; [apply (@sample_slice_safe I data covs Hn K unif01 tiny); simpl; auto; apply CInv_iff; auto|].
  intros [s r2] (A & B & C & _). simpl in *. split; [apply slice_ok_iff; auto|]. split; auto. rewrite A. exact O.
Qed.

Lemma slice_weights_spec : forall fuel (s s' : slicer I K) r r', slice_ok s ->
  slice_sample_weights beta junk fuel s r = Some (Ok (s', r')) ->
  slice_ok s' /\ a_alloc (s_alg s') = a_alloc (s_alg s) /\ s_u s' = s_u s /\
  (forall c h, nth_error (a_uv (s_alg s)) c = Some h -> h_ids h <> [] ->
     nth_error (a_uv (s_alg s')) c = Some h) /\
  (forall c h, nth_error (a_uv (s_alg s')) c = Some h ->
     nth_error (a_uv (s_alg s)) c = Some h \/ (length (a_uv (s_alg s)) <= c /\ h_ids h = [])).
Proof.
  intros fuel s s' r r' Hs H. apply slice_ok_iff in Hs.
  pose proof (@slice_weights_safe I data covs Hn K beta junk fuel s r Hs) as W. rewrite H in W. simpl in W.
  destruct W as (A & B & _ & C & D & E). split; [apply slice_ok_iff; auto|]. split; auto. split; auto. split; auto.
  intros c h Hc. destruct (E c h Hc) as [F|(F1 & F2 & _)]; auto.
Qed.

Lemma slice_weights_noUB : forall fuel (s : slicer I K) r, slice_ok s ->
  slice_sample_weights beta junk fuel s r <> Some UB /\ slice_sample_weights beta junk fuel s r <> Some Abort.
Proof.
  intros fuel s r Hs. apply slice_ok_iff in Hs.
  pose proof (@slice_weights_safe I data covs Hn K beta junk fuel s r Hs) as W.
  split; intros E; rewrite E in W; simpl in W; exact W.
Qed.

Lemma slice_alloc_spec : forall (s : slicer I K) r, slice_ok s ->
  ((exists s' r', slice_sample_allocations data covs s r = Ok (s', r')) <->
   (forall i, i < n -> exists j w u, nth_error (sb_w (s_mix s)) j = Some w /\ nth_error (s_u s) i = Some u /\ nltb K u w = true)) /\
  (forall s' r', slice_sample_allocations data covs s r = Ok (s', r') ->
     slice_ok s' /\ s_mix s' = s_mix s /\ s_u s' = s_u s /\
     (forall i c, nth_error (a_alloc (s_alg s')) i = Some c -> exists w u,
        nth_error (sb_w (s_mix s)) c = Some w /\ nth_error (s_u s) i = Some u /\ nltb K u w = true)) /\
  slice_sample_allocations data covs s r <> UB /\ slice_sample_allocations data covs s r <> Abort.
Proof.
  intros s r Hs. apply slice_ok_iff in Hs. split; [|split].
  - apply (@slice_alloc_ok_iff I L data covs Hrows Hn K beta unif01 tiny); auto.
  - intros s' r' E. pose proof (@slice_alloc_safe I L data covs Hrows Hn K beta unif01 tiny s r Hs) as W.
    rewrite E in W. simpl in W. destruct W as (A & B & C & _ & D). split; [apply slice_ok_iff; auto|]. auto.
  - pose proof (@slice_alloc_safe I L data covs Hrows Hn K beta unif01 tiny s r Hs) as W.
    split; intros E; rewrite E in W; exact W.
Qed.

Lemma slice_iter_spec : forall fuel k (s : slicer I K) r, slice_ok s ->
  match slice_iter data covs beta unif01 tiny junk fuel k s r with
  | None => True
  | Some (Ok (s', _)) => slice_ok s' /\ a_hyp (s_alg s') = a_hyp (s_alg s)
  | Some (Throw _) => True
  | Some Abort => False
  | Some UB => False
  end.
Proof.
  intros fuel k s r Hs. apply slice_ok_iff in Hs.
  pose proof (@slice_iter_safe I L data covs Hrows Hn K beta unif01 tiny junk fuel k s r Hs) as W.
  destruct (slice_iter _ _ _ _ _ _ _ _ _) as [[[s' r']| | |]|]; simpl in W; auto.
  destruct W as [A B]. split; [apply slice_ok_iff; auto|auto].
Qed.

Lemma slice_redraw : forall fuel hy0 mx (m : sb K) gen h0 r s0 r0 steps s r' uv' r'',
  other_draw I = None -> 1 <= sb_nc m <= n -> (forall i, gen i < sb_nc m) -> h_saved h0 = false -> sb_ok m ->
  slice_initialize data covs unif01 tiny hy0 mx m gen [h0] r = Ok (s0, r0) ->
  slice_iter data covs beta unif01 tiny junk fuel steps s0 r0 = Some (Ok (s, r')) ->
  sample_unique_values false (s_alg s, r') = Ok (set_uv (s_alg s) uv', r'') ->
  forall c h h', nth_error (a_uv (s_alg s)) c = Some h -> nth_error uv' c = Some h' ->
    exists q0 q1, prior_sample I
       (if length (h_ids h) =? 0 then a_hyp (s_alg s)
        else if conj I && (c =? 0) then hy0
        else post I (a_hyp (s_alg s)) (Z.of_nat (length (h_ids h))) (batch I data (at_ covs) (h_ids h)) (h_state h)) q0
       = (h_state h', q1).
Proof.
  intros fuel hy0 mx m gen h0 r s0 r0 steps s r' uv' r'' Hod Hnc Hgen Hh0 Hm H0 H Hs c h h' Hc Hc'.
  pose proof (@slice_init_spec hy0 mx m gen h0 r Hnc Hgen Hh0 Hm) as W. rewrite H0 in W. simpl in W.
  destruct W as (W1 & _ & W2). apply slice_ok_iff in W1.
  pose proof (@slice_iter_safe I L data covs Hrows Hn K beta unif01 tiny junk fuel steps s0 r0 W1) as V.
  rewrite H in V. simpl in V. destruct V as [[V _] _].
  eapply cond_redraw_core; eauto. eapply (@only0_slice_iter I L data covs Hrows Hn); eauto.
Qed.

End SP.

(** ** Over the reals *)
Section SR.
Variable I : Iface.
Variable L : laws I.
Variable data : list (Datum I).
Variable covs : list (Cov I).
Notation n := (length data).
Hypothesis Hrows : rows_ok I data (at_ covs).
Hypothesis Hn : 1 <= n.
Variable beta : R -> R -> Rng I -> R * Rng I.
Variable unif01 : R -> Rng I -> R * Rng I.
Variable tiny junk : R.
Hypothesis beta_in : forall a b r, (0 < a)%R -> (0 < b)%R -> (0 < fst (beta a b r) < 1)%R.
Hypothesis unif_in : forall w r, (0 < w)%R -> (0 <= fst (unif01 w r) < w)%R.
Hypothesis tiny_pos : (0 < tiny)%R.
Local Open Scope R_scope.

Lemma slice_step_progress : forall fuel (s : slicer I numR) r x,
  slice_ok data covs s -> open_prior (sb_prior (s_mix s)) -> Forall (fun u => 0 < u) (s_u s) ->
  slice_step data covs (K:=numR) beta unif01 tiny junk fuel s r = Some x ->
  exists a r1 s2 r2, sample_unique_values false (s_alg s, r) = Ok (a, r1) /\
    slice_sample_weights (K:=numR) beta junk fuel (mkSlice a (s_mix s) (s_u s)) r1 = Some (Ok (s2, r2)) /\
    ((exists i c w, nth_error (a_alloc (s_alg s2)) i = Some c /\ nth_error (sb_w (s_mix s2)) c = Some w /\ w <= tiny) \/
     exists s' r', x = Ok (s', r') /\ slice_ok data covs s' /\ open_prior (sb_prior (s_mix s')) /\ Forall (fun u => 0 < u) (s_u s')).
Proof.
  intros fuel s r x Hs Hop Hu H. apply slice_ok_iff in Hs.
  destruct (@SInv_suv I L data covs numR s r Hs) as (a & r1 & E1 & S1 & _ & _).
  unfold slice_step in H. rewrite E1 in H.
  destruct (slice_sample_weights (K:=numR) beta junk fuel (mkSlice a (s_mix s) (s_u s)) r1) as [y|] eqn:Ew; [|discriminate].
  destruct (@weights_step_open I data covs Hn beta junk beta_in fuel (mkSlice a (s_mix s) (s_u s)) r1 y S1)
    as (s2 & r2 & -> & S2 & _ & Hw & _); auto.
  exists a, r1, s2, r2. split; auto. split; [exact Ew|].
  destruct (@slice_alloc_open I L data covs Hrows Hn beta unif01 tiny junk unif_in s2 r2 S2 Hw)
    as (s3 & r3 & E3 & S3 & Ea3 & Em3 & Hge & Hgo).
  destruct (Exists_dec (fun i => match nth_error (a_alloc (s_alg s2)) i with
      | Some c => match nth_error (sb_w (s_mix s2)) c with Some w => w <= tiny | None => False end
      | None => False end) (seq 0 n)) as [Hex|Hno].
  { intros i. destruct (nth_error (a_alloc (s_alg s2)) i) as [c|]; [|right; tauto].
    destruct (nth_error (sb_w (s_mix s2)) c) as [w|]; [|right; tauto]. apply (Rle_dec w tiny). }
  - left. apply Exists_exists in Hex. destruct Hex as (i & _ & Hi).
    destruct (nth_error (a_alloc (s_alg s2)) i) as [c|] eqn:Ec; [|tauto].
    destruct (nth_error (sb_w (s_mix s2)) c) as [w|] eqn:Ecw; [|tauto]. exists i, c, w. auto.
  - right. destruct Hgo as (_ & s4 & r4 & E4 & S4).
    { intros i c w Hi Hc. destruct (Rlt_dec tiny w) as [|Hle]; auto. exfalso. apply Hno. apply Exists_exists.
      exists i. split.
      - apply in_seq. destruct S2 as ([Hl _] & _). apply nth_error_lt in Hi. nlia.
      - rewrite Hi, Hc. apply Rnot_lt_le. exact Hle. }
    rewrite E3 in H. cbn [rbind] in H. rewrite E4 in H. injection H as <-.
    exists s4, r4. split; auto. split; [apply slice_ok_iff; auto|].
    pose proof (@slice_alloc_safe I L data covs Hrows Hn numR beta unif01 tiny s3 r3 S3) as W. rewrite E4 in W. simpl in W.
    destruct W as (_ & W2 & W3 & _). split.
    + rewrite W2, Em3. clear - Ew Hn S1 Hop.
      unfold slice_sample_weights in Ew.
      pose proof (@slice_new_sticks_safe I data covs Hn numR beta junk fuel _ r1 S1) as V.
      destruct (slice_new_sticks (K:=numR) beta junk fuel (mkSlice a (s_mix s) (s_u s)) r1) as [[[m q]| | |]|]; simpl in V; try discriminate; try contradiction.
      destruct V as (_ & V & _). injection Ew as Ew. apply rbind_ok in Ew. destruct Ew as ([uv q'] & _ & Ew). injection Ew as <- <-.
      simpl. simpl in V. rewrite V. exact Hop.
    + rewrite W3. apply Forall_forall. intros u Hin. apply In_nth_error in Hin. destruct Hin as (i & Hi).
      apply Rlt_le_trans with tiny; auto. eapply Hge; eauto.
Qed.

(** Slices are at least [tiny] right after they are drawn. *)
Lemma slice_init_pos : forall hy mx (m : sb numR) gen h0 r s r',
  (1 <= sb_nc m <= n)%nat -> (forall i, (gen i < sb_nc m)%nat) -> h_saved h0 = false -> sb_ok m ->
  slice_initialize data covs (K:=numR) unif01 tiny hy mx m gen [h0] r = Ok (s, r') ->
  slice_ok data covs s /\ s_mix s = m /\ Forall (fun u => 0 < u) (s_u s).
Proof.
  intros hy mx m gen h0 r s r' Hnc Hgen Hh0 Hm H.
  pose proof (@slice_init_spec I L data covs Hrows Hn numR unif01 tiny hy mx m gen h0 r Hnc Hgen Hh0 Hm) as W.
  rewrite H in W. simpl in W. destruct W as (W1 & W2 & _). split; auto. split; auto.
  unfold slice_initialize in H.
  destruct (@blocked_init I L data covs Hrows hy mx (sb_nc m) gen h0 r Hnc Hgen Hh0) as (a & r1 & E & Hc & Hk & Hl & _).
  rewrite E in H. cbn [rbind] in H.
  assert (CA : CInv data covs (s_alg (mkSlice a m ([] : list (N numR))))) by (apply CInv_iff; auto).
  pose proof (@sample_slice_safe I data covs Hn numR unif01 tiny (mkSlice a m []) r1 CA Hm Hl) as V.
  rewrite H in V. simpl in V. destruct V as (_ & _ & VS & V).
  apply Forall_forall. intros u Hin. apply In_nth_error in Hin. destruct Hin as (i & Hi).
  destruct VS as (_ & _ & _ & VL).
  assert (Hin : (i < length (a_alloc a))%nat). { destruct CA as [CL _]. simpl in CL. apply nth_error_lt in Hi. nlia. }
  destruct (at_ok (a_alloc a) Hin) as (c & _ & Ec).
  destruct (V i c Ec) as (w & v & q0 & q1 & _ & _ & _ & Q). rewrite nmax_R in Q.
  assert (u = Rmax tiny v) by (normN; congruence). subst u. apply Rlt_le_trans with tiny; auto. apply Rmax_l.
Qed.

(** Nothing not represented could exceed a slice used for truncating. *)
Lemma truncation : forall fuel (s : slicer I numR) r s2 r2,
  slice_ok data covs s -> open_prior (sb_prior (s_mix s)) -> Forall (fun u => 0 < u) (s_u s) ->
  slice_sample_weights (K:=numR) beta junk fuel s r = Some (Ok (s2, r2)) ->
  forall more i u j w, Forall (fun v => 0 <= v <= 1) more ->
    nth_error (s_u s) i = Some u -> (sb_nc (s_mix s2) <= j)%nat ->
    nth_error (weights_go numR 1 (sb_sticks (s_mix s2) ++ more)) j = Some w -> w < u.
Proof.
  intros fuel s r s2 r2 Hs Hop Hu H more i u j w Hm Hi Hj Hw. apply slice_ok_iff in Hs.
  destruct (@weights_step_open I data covs Hn beta junk beta_in fuel s r _ Hs Hop Hu H)
    as (s2' & r2' & E & S2 & _ & Hpos & Hsum & Hg). injection E as <- <-.
  destruct S2 as (_ & (A & B & _) & _ & _).
  eapply further_weights; [exact Hm| |..| |exact Hw].
  - exact Hg.
  - change (1 - u < sumR (weights_go numR (n1 numR) (sb_sticks (s_mix s2)))). rewrite <- B. eapply Hsum; eauto.
  - nlia.
Qed.

End SR.
