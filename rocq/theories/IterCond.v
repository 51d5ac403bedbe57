(** * What one iteration does after the labels: blocked Gibbs, slice sampler and
    split-merge. *)
From Coq Require Import String.
From Coq Require Import Bool List Arith ZArith Lia.
From Verif Require Import Base Hier Algos Run Spec MargFacts NealFacts InitFacts MargMore MargProps IterSpec IterFacts.
From Verif Require Import Stick StickFacts Cond CondFacts SliceFacts CondProps SplitMerge SMFacts SMProps.
Import ListNotations.
Set Implicit Arguments.

Section B.
Variable I : Iface.
Variable L : laws I.
Variable data : list (Datum I).
Variable covs : list (Cov I).
Notation n := (length data).
Notation cvf := (at_ covs).
Hypothesis Hrows : rows_ok I data cvf.

Lemma CInv_cards : forall (a : alg I), CInv data covs a ->
  forall h, In h (a_uv a) -> h_card h = Z.of_nat (length (h_ids h)) /\ h_stats h = batch I data cvf (h_ids h).
Proof.
  intros a (Hl & [H1 H2]) h Hh. apply In_nth_error in Hh. destruct Hh as (c & Hc).
  destruct (H2 c h Hc) as (([T1 [T2 T3]] & _) & _ & _). auto.
Qed.

Lemma only0_sweep : forall hy0 nc (a a1 : alg I) r r1,
  blocked_sample_allocations data covs nc (a, r) = Ok (a1, r1) -> only0 hy0 (a_uv a) -> only0 hy0 (a_uv a1).
Proof.
  intros hy0 nc a a1 r r1 E S. change (only0 hy0 (a_uv (fst (a1, r1)))).
  eapply rfold_pres with (P := fun s : alg I * Rng I => only0 hy0 (a_uv (fst s))); [|exact E|exact S].
  intros x [d rd] [d' rd'] Hd. cbn [fst]. unfold blocked_step in Hd. rinv Hd ws. rinv Hd q. destruct q as [c r6].
  rinv Hd a5. injection Hd as <- <-. eapply only0_move; eauto.
Qed.

(** The draw of one component, when only the first one can hold a saved posterior. *)
Definition component_draw (hy0 hy : Hyp I) (h : hier I) : Rng I -> St I * Rng I :=
  match other_draw I with
  | Some f => f hy (Z.of_nat (length (h_ids h))) (batch I data cvf (h_ids h)) (h_ids h) (h_state h)
  | None => prior_sample I (if length (h_ids h) =? 0 then hy else if h_saved h then hy0
              else post I hy (Z.of_nat (length (h_ids h))) (batch I data cvf (h_ids h)) (h_state h))
  end.

Lemma only0_draw : forall hy0 hy (a1 : alg I), CInv data covs a1 -> only0 hy0 (a_uv a1) ->
  forall h s, In h (a_uv a1) -> redraw hy h s = component_draw hy0 hy h s.
Proof.
  intros hy0 hy a1 C S h s Hh. destruct (CInv_cards C h Hh) as (C1 & C2). unfold component_draw.
  assert (Hs : h_saved h = true -> h_ph h = Some hy0).
  { apply In_nth_error in Hh. destruct Hh as (c & Hc). apply (S c h Hc). }
  rewrite (@redraw_form I data covs hy hy0 h s C1 C2 Hs). destruct (other_draw I); auto.
Qed.

Lemma blocked_iteration : forall nc (P : Mix I -> Prop) hy0 m gen h0 r steps a r' b q,
  1 <= nc <= n -> (forall i, gen i < nc) -> h_saved h0 = false -> cmixing_safe I data nc P -> P m ->
  (s0 <- init_clusters data covs false hy0 m nc gen [h0] r ;;
   iter (base_step (blocked_sample_allocations data covs nc) false) steps s0) = Ok (a, r') ->
  base_step (blocked_sample_allocations data covs nc) false (a, r') = Ok (b, q) ->
  exists a1 r1, blocked_sample_allocations data covs nc (a, r') = Ok (a1, r1) /\
  (forall c h, nth_error (a_uv a1) c = Some h -> h_saved h = (conj I && (c =? 0))) /\
  rest_of_iteration (component_draw hy0 (a_hyp a)) (a_hyp a) (a_mix a) a1 r1 b q.
Proof.
  intros nc P hy0 m gen h0 r steps a r' b q Hnc Hgen Hh0 HP Hm H HB.
  destruct (@blocked_init I L data covs Hrows hy0 m nc gen h0 r Hnc Hgen Hh0) as (a0 & r0 & E0 & Hc0 & Hk0 & Hl0 & Em0).
  rewrite E0 in H. cbn [rbind] in H.
  assert (O0 : only0 hy0 (a_uv a0)) by (eapply only0_init; eauto).
  assert (C0 : CInv data covs a0) by (apply CInv_iff; auto).
  rewrite <- Em0 in Hm. clear Em0 E0.
  assert (X : CInv data covs a /\ only0 hy0 (a_uv a) /\ length (a_uv a) = nc /\ P (a_mix a)).
  { clear HB Hc0 Hk0. revert a0 r0 H O0 C0 Hl0 Hm. induction steps as [|s IH]; intros a0 r0 H O0 C0 Hl0 Hm.
    - simpl in H. injection H as <- <-. auto.
    - cbn [iter] in H.
      destruct (@blocked_base_step_ok I L data covs Hrows nc P a0 r0 HP C0) as (a1 & r1 & E1 & C1 & Hl1 & Hm1); auto; [lia|].
      rewrite E1 in H. cbn [rbind] in H. eapply IH; eauto. eapply only0_blocked_base; eauto. }
  destruct X as (C1 & O1 & Lu & Pm).
  destruct (@parts I _ _ _ _ _ _ HB) as (a1 & r1 & Ea & K). exists a1, r1. split; auto.
  destruct (@blocked_sweep_ok I L data covs Hrows nc a r' C1) as (a2 & r2 & E2 & C2 & _ & Eh & Em & _); auto; [lia|apply HP; auto|].
  rewrite Ea in E2. injection E2 as <- <-. pose proof (@only0_sweep hy0 _ _ _ _ _ Ea O1) as O2.
  split; [intros c h Hc; apply (O2 c h Hc)|].
  destruct K as (A & B & r2 & r3 & D & F & K). { intros h Hh. apply (CInv_cards C2); auto. }
  rewrite Eh in *. rewrite Em in *. split; [exact A|]. split; [exact B|]. exists r2, r3. split; [|auto].
  eapply threaded_ext; [|exact D]. intros h s Hh. eapply only0_draw; eauto.
Qed.

Lemma slice_iteration : 1 <= n -> forall (K : Num) beta unif01 tiny junk fuel hy0 mx (m : sb K) gen h0 r s0 r0 steps s r' s' r'',
  1 <= sb_nc m <= n -> (forall i, gen i < sb_nc m) -> h_saved h0 = false -> sb_ok m ->
  slice_initialize data covs unif01 tiny hy0 mx m gen [h0] r = Ok (s0, r0) ->
  slice_iter data covs beta unif01 tiny junk fuel steps s0 r0 = Some (Ok (s, r')) ->
  slice_step data covs beta unif01 tiny junk fuel s r' = Some (Ok (s', r'')) ->
  a_hyp (s_alg s') = hy0 /\
  (forall c h, nth_error (a_uv (s_alg s)) c = Some h -> h_saved h = (conj I && (c =? 0))) /\
  exists uv r1 s2 r2 s3 r3,
    threaded (component_draw hy0 hy0) (a_uv (s_alg s)) r' (map (@h_state I) uv) r1 /\
    map (@h_ids I) uv = map (@h_ids I) (a_uv (s_alg s)) /\
    slice_sample_weights beta junk fuel (mkSlice (set_uv (s_alg s) uv) (s_mix s) (s_u s)) r1 = Some (Ok (s2, r2)) /\
    sample_slice data unif01 tiny s2 r2 = Ok (s3, r3) /\ slice_sample_allocations data covs s3 r3 = Ok (s', r'').
Proof.
  intros Hn K beta unif01 tiny junk fuel hy0 mx m gen h0 r s0 r0 steps s r' s' r'' Hnc Hgen Hh0 Hm H0 H Hst.
  pose proof (@slice_init_spec I L data covs Hrows Hn K unif01 tiny hy0 mx m gen h0 r Hnc Hgen Hh0 Hm) as W. rewrite H0 in W. simpl in W.
  destruct W as (W1 & W3 & W2). apply slice_ok_iff in W1.
  pose proof (@slice_iter_safe I L data covs Hrows Hn K beta unif01 tiny junk fuel steps s0 r0 W1) as V.
  rewrite H in V. simpl in V. destruct V as [V Hh].
  assert (O : only0 hy0 (a_uv (s_alg s))) by exact (@only0_slice_iter I L data covs Hrows Hn K beta unif01 tiny junk hy0 fuel steps s0 r0 s r' W1 H W2).
  assert (Hy : a_hyp (s_alg s0) = hy0).
  { unfold slice_initialize in H0. rinv H0 p. destruct p as [a r1].
    assert (E1 : a_hyp a = hy0).
    { unfold init_clusters in E. cbn [at_ nth_error rbind upd] in E. rinv E s2. destruct s2 as [uv2 r2]. rinv E s3. destruct s3 as [al uv3]. injection E as <- <-. reflexivity. }
    unfold sample_slice in H0. rinv H0 p. destruct p as [u ru]. injection H0 as <- <-. exact E1. }
  unfold slice_step in Hst.
  destruct (@SInv_suv I L data covs K s r' V) as (a & r1 & E1 & H1 & _ & Hy1). rewrite E1 in Hst.
  destruct (slice_sample_weights beta junk fuel (mkSlice a (s_mix s) (s_u s)) r1) as [[[s2 r2]| | |]|] eqn:Ew; try discriminate.
  injection Hst as Hst. rinv Hst p. destruct p as [s3 r3].
  pose proof (@slice_step_safe I L data covs Hrows Hn K beta unif01 tiny junk fuel s r' V) as Q. unfold slice_step in Q.
  rewrite E1, Ew, E in Q. cbn [rbind] in Q. rewrite Hst in Q. cbn in Q. destruct Q as [_ Q].
  split; [congruence|]. split; [intros c h Hc; apply (O c h Hc)|].
  unfold sample_unique_values in E1. rinv E1 p. destruct p as [uv q]. injection E1 as <- <-.
  apply draw_all_threaded in E0. destruct E0 as (D & Ei & _).
  exists uv, q, s2, r2, s3, r3. split.
  { rewrite Hh, Hy in D. eapply threaded_ext; [|exact D]. intros h x Hin. eapply only0_draw; eauto. apply V. }
  split; [exact Ei|]. split; [exact Ew|]. split; [exact E|exact Hst].
Qed.
End B.

(** ** Split-merge: a full scan brings every saved posterior up to date *)
Section SM.
Variable I : Iface.
Variable L : laws I.
Variable data : list (Datum I).
Notation n := (length data).
Notation cvs := (covs0 I data).
Hypothesis Hnc : no_cov_ok I data.
Hypothesis Hcj : conj I = true.
Hypothesis Hod : other_draw I = None.

Let Hr := no_cov_rows Hnc.

Lemma full_fresh_step : forall i (a a' : alg I) r r',
  full_gs_step data (a, r) i = Ok (a', r') -> GS data false a' ->
  upto (a_hyp a) i (a_uv a) -> upto (a_hyp a) (S i) (a_uv a').
Proof.
  intros i a a' r r' H G U. unfold full_gs_step in H. rinv H a1. rinv H d. rinv H ws. rinv H mn. rinv H x0. rinv H p. destruct p as [c r1].
  destruct (@fresh_unassign I L data Hcj Hod _ _ _ _ E) as [Eh F1]. destruct (@fresh_assign I L data Hcj Hod _ _ _ _ _ _ _ H) as (Eh2 & c0 & Ec & F2).
  intros h Hh (j & Hj & Hin). apply In_nth_error in Hh. destruct Hh as (c' & Hc').
  destruct (F2 c' h Hc') as [F|[Hne Hin1]]; [rewrite <- Eh; exact F|].
  destruct (F1 h Hin1) as [F|Hin0]; [exact F|]. apply U; auto.
  exists j. split; [|exact Hin]. assert (j <> i); [|lia]. intros ->.
  destruct G as (_ & [_ G] & _). destruct (G c' h Hc') as (_ & _ & M). apply M in Hin. congruence.
Qed.

Lemma full_fresh_sweep : forall m s (a a' : alg I) r r', 2 <= n -> s + m <= n -> masses_ok I (a_mix a) n ->
  GS data false a -> rfold (full_gs_step data) (seq s m) (a, r) = Ok (a', r') ->
  upto (a_hyp a) s (a_uv a) -> GS data false a' /\ a_hyp a' = a_hyp a /\ a_mix a' = a_mix a /\ upto (a_hyp a) (s + m) (a_uv a').
Proof.
  induction m as [|m IH]; intros s a a' r r' Hn Hsm Hm G H U; cbn [seq rfold] in H.
  - injection H as <- <-. rewrite Nat.add_0_r. auto.
  - destruct (@full_gs_step_ok I L data Hr Hcj Hod false a r s) as (a1 & r1 & E & G1 & Eh & Em & _); auto; [lia|].
    rewrite E in H. cbn [rbind] in H. pose proof (@full_fresh_step _ _ _ _ _ E G1 U) as U1.
    rewrite <- Eh in U1. destruct (IH (S s) a1 a' r1 r') as (A & B & C & D); auto; [lia|rewrite Em; auto|].
    split; auto. split; [congruence|]. split; [congruence|]. rewrite Eh in D. replace (s + S m) with (S s + m) by lia. exact D.
Qed.

Lemma full_all_fresh : forall (a a' : alg I) r r', 2 <= n -> masses_ok I (a_mix a) n -> GS data false a ->
  full_gs data (a, r) = Ok (a', r') -> GS data false a' /\ a_hyp a' = a_hyp a /\ a_mix a' = a_mix a /\ forall h, In h (a_uv a') -> fresh (a_hyp a) h.
Proof.
  intros a a' r r' Hn Hm G H. destruct (@full_fresh_sweep n 0 a a' r r' Hn) as (A & B & C & D); auto.
  { intros h _ (j & Hj & _). lia. }
  split; auto. split; auto. split; auto. intros h Hh. apply D; auto.
  destruct A as (Hl & [_ A] & Hne). apply In_nth_error in Hh. destruct Hh as (c & Hc). specialize (Hne c h Hc).
  destruct (h_ids h) as [|j ids] eqn:Ei; [congruence|]. exists j. split; [|left; auto].
  destruct (A c h Hc) as (_ & _ & M). assert (Hj : nth_error (a_alloc a') j = Some c) by (apply M; rewrite Ei; left; auto).
  apply nth_error_lt in Hj. lia.
Qed.

Lemma sm_all_fresh : forall n_restr n_mh n_full (a a' : alg I) r r', 2 <= n -> @sm_masses_ok I data (a_mix a) -> GS data false a ->
  sm_sample_allocations data n_restr n_mh (S n_full) (a, r) = Ok (a', r') ->
  GS data false a' /\ a_hyp a' = a_hyp a /\ a_mix a' = a_mix a /\ forall h, In h (a_uv a') -> fresh (a_hyp a) h.
Proof.
  intros n_restr n_mh n_full a a' r r' Hn Hm G H.
  destruct (@sm_sweep_ok I L data Hr Hcj Hod false n_restr n_mh n_full a r) as (a1 & r1 & E & G1 & Eh & Em & _); auto.
  assert (H2 : full_gs data (a1, r1) = Ok (a', r')).
  { unfold sm_sample_allocations in H, E. rinv E s1. destruct s1 as [b q]. rewrite E0 in H. cbn [rbind] in H.
    rewrite seq_S, rfold_app, E in H. cbn [rbind rfold] in H. rinv H s2. injection H as ->. exact E1. }
  destruct (@full_all_fresh a1 a' r1 r') as (A & B & C & D); auto. { rewrite Em. apply Hm. }
  split; auto. split; [congruence|]. split; [congruence|]. rewrite Eh in D. exact D.
Qed.

Lemma sm_iteration : forall n_restr n_mh n_full (a : alg I) r b q,
  2 <= n -> @sm_masses_ok I data (a_mix a) ->
  proper n (a_alloc a) (view (a_uv a)) -> caches_ok data cvs (a_uv a) -> 1 <= n_full ->
  base_step (sm_sample_allocations data n_restr n_mh n_full) true (a, r) = Ok (b, q) ->
  exists a1 r1, sm_sample_allocations data n_restr n_mh n_full (a, r) = Ok (a1, r1) /\
  rest_of_iteration (fun h => prior_sample I
      (post I (a_hyp a) (Z.of_nat (length (h_ids h))) (batch I data (at_ cvs) (h_ids h)) (init_state I (a_hyp a))))
    (a_hyp a) (a_mix a) a1 r1 b q.
Proof.
  intros n_restr n_mh [|n_full] a r b q Hn Hm Hp Hc Hf HB; [lia|]. destruct (@parts I _ _ _ _ _ _ HB) as (a1 & r1 & Ea & K). exists a1, r1. split; auto.
  assert (G : GS data false a) by (apply GSf; auto).
  destruct (@sm_all_fresh n_restr n_mh n_full a a1 r r1 Hn Hm G Ea) as (G1 & Eh & Em & F). apply GS_GInv in G1. pose proof (GInv_cards G1) as C.
  destruct K as (A & B & r2 & r3 & D & F1 & F2). { intros h Hh. apply C; auto. }
  rewrite Eh in *. rewrite Em in *. split; [exact A|]. split; [exact B|]. exists r2, r3. split; [|auto].
  eapply threaded_ext; [|exact D]. intros h s Hh. destruct (C h Hh) as (C1 & C2 & C3). destruct (F h Hh) as [X1 X2].
  unfold redraw, law_of. rewrite Hod, X1, X2, C1, C2. f_equal. destruct (h_ids h); [congruence|]. reflexivity.
Qed.
End SM.
