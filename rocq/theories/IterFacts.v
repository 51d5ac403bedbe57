(** * What one iteration does after the labels: proofs. *)
From Coq Require Import String.
From Coq Require Import Bool List Arith ZArith Lia.
From Verif Require Import Base Hier Algos Run Spec MargFacts NealFacts InitFacts MargMore MargProps IterSpec.
Import ListNotations.
Set Implicit Arguments.

Lemma threaded_ext : forall A S R (f g : A -> R -> S * R) xs r ss r',
  (forall x q, In x xs -> f x q = g x q) -> threaded f xs r ss r' -> threaded g xs r ss r'.
Proof.
  induction xs as [|x xs IH]; intros r [|s ss] r' H D; cbn in *; auto.
  destruct D as (q & E & D). exists q. split; [rewrite <- H; auto|]. apply IH; auto.
Qed.

Section It.
Variable I : Iface.

Definition law_of (hy : Hyp I) (h : hier I) : Hyp I :=
  if Z.eqb (h_card h) 0 then hy
  else if h_saved h then match h_ph h with Some p => p | None => hy end
  else post I hy (h_card h) (h_stats h) (h_state h).

Definition redraw (hy : Hyp I) (h : hier I) (r : Rng I) : St I * Rng I :=
  match other_draw I with
  | Some f => f hy (h_card h) (h_stats h) (h_ids h) (h_state h) r
  | None => prior_sample I (law_of hy h) r
  end.

Lemma h_draw_redraw : forall hy save h r h' r', h_draw hy save h r = Ok (h', r') ->
  redraw hy h r = (h_state h', r') /\ h_ids h' = h_ids h /\ h_card h' = h_card h.
Proof.
  intros hy save h r h' r' H. unfold h_draw in H. unfold redraw, law_of. destruct (other_draw I) as [f|] eqn:Eo.
  - destruct (f hy (h_card h) (h_stats h) (h_ids h) (h_state h) r) as [s q]. injection H as <- <-. auto.
  - destruct (Z.eqb (h_card h) 0) eqn:Ez.
    + unfold h_sample_prior in H. destruct (prior_sample I hy r) as [s q]. injection H as <- <-. auto.
    + rinv H p. destruct p as [p h1]. destruct (prior_sample I p r) as [s q] eqn:Ep. injection H as <- <-.
      unfold h_get_post in E. rewrite Eo in E. destruct (h_saved h).
      * destruct (h_ph h); [|discriminate]. injection E as <- <-. auto.
      * unfold h_compute_post in E. rewrite Eo in E. simpl in E. destruct save; injection E as <- <-; auto.
Qed.

Lemma draw_all_threaded : forall hy save uv r uv' r', draw_all hy save uv r = Ok (uv', r') ->
  threaded (redraw hy) uv r (map (@h_state I) uv') r' /\
  map (@h_ids I) uv' = map (@h_ids I) uv /\ map (@h_card I) uv' = map (@h_card I) uv.
Proof.
  induction uv as [|h uv IH]; intros r uv' r' H; simpl in H.
  - injection H as <- <-. simpl. auto.
  - rinv H p. destruct p as [h1 r1]. rinv H p. destruct p as [uv1 r2]. injection H as <- <-.
    apply h_draw_redraw in E. destruct E as (A & B & C). destruct (IH _ _ _ E0) as (D & F & K).
    cbn. split; [exists r1; auto|]. split; congruence.
Qed.

(** Cardinalities are those of the index sets. *)
Definition cards_ok (uv : list (hier I)) : Prop := forall h, In h uv -> h_card h = Z.of_nat (length (h_ids h)).

Lemma cards_transfer : forall uv uv' : list (hier I), cards_ok uv ->
  map (@h_ids I) uv' = map (@h_ids I) uv -> map (@h_card I) uv' = map (@h_card I) uv -> cards_ok uv'.
Proof.
  unfold cards_ok. induction uv as [|h uv IH]; intros [|h' uv'] Hc E1 E2 g Hg; try discriminate; [destruct Hg|].
  cbn in E1, E2. injection E1 as E1 E1'. injection E2 as E2 E2'. destruct Hg as [<-|Hg].
  - rewrite E1, E2. apply Hc. left; auto.
  - eapply IH; eauto. intros x Hx. apply Hc. right; auto.
Qed.

Lemma filter_cards : forall uv, cards_ok uv ->
  map (fun h => (h_state h, h_card h)) (filter (fun h => Z.ltb 0 (h_card h)) uv) =
  map (fun h => (h_state h, Z.of_nat (length (h_ids h)))) (filter (fun h => negb (length (h_ids h) =? 0)) uv).
Proof.
  unfold cards_ok. induction uv as [|h uv IH]; intros Hc; cbn; auto.
  assert (E := Hc h (or_introl eq_refl)). rewrite E.
  assert (IH' := IH (fun x Hx => Hc x (or_intror Hx))).
  destruct (length (h_ids h)) as [|k] eqn:El; cbn [Nat.eqb negb].
  - exact IH'.
  - replace (0 <? Z.of_nat (S k))%Z with true by (symmetry; apply Z.ltb_lt; lia). cbn [map]. rewrite IH', E, El. reflexivity.
Qed.

Lemma parts : forall salloc uhp a r b q,
  base_step salloc uhp (a, r) = Ok (b, q) ->
  exists a1 r1, salloc (a, r) = Ok (a1, r1) /\
    (cards_ok (a_uv a1) -> rest_of_iteration (redraw (a_hyp a1)) (a_hyp a1) (a_mix a1) a1 r1 b q).
Proof.
  intros salloc uhp a r b q H. unfold base_step in H. rinv H s1. destruct s1 as [a1 r1]. exists a1, r1. split; auto.
  intros Hc. rinv H s2. destruct s2 as [a2 r2]. rinv H s3. destruct s3 as [a3 r3].
  unfold sample_unique_values in E0. rinv E0 p. destruct p as [uv r4]. injection E0 as <- <-.
  apply draw_all_threaded in E2. destruct E2 as (D & Ei & Ec).
  assert (Hc2 := cards_transfer uv Hc Ei Ec).
  unfold update_hierarchy_hypers in E1. rinv E1 h0. cbn [a_hyp a_uv set_uv] in E1.
  rewrite (filter_cards Hc2) in E1.
  match type of E1 with context [hyp_update I ?x ?y ?z] => destruct (hyp_update I x y z) as [hy r5] eqn:Eh end.
  injection E1 as <- <-.
  unfold update_mixing in H. rinv H p. destruct p as [m r6]. injection H as <- <-.
  cbn in E1. split; [reflexivity|]. split; [exact Ei|]. exists r4, r5. split; [exact D|]. split; [exact Eh|].
  cbn. rewrite <- E1. f_equal. apply map_ext_in. intros h Hh. symmetry. apply Hc2. exact Hh.
Qed.

Section Data.
Variable L : laws I.
Variable data : list (Datum I).
Variable covs : list (Cov I).
Notation n := (length data).
Notation cvf := (at_ covs).
Hypothesis Hrows : rows_ok I data cvf.

Lemma GInv_cards : forall trk (a : alg I), @GInv I data covs trk a ->
  forall h, In h (a_uv a) -> h_card h = Z.of_nat (length (h_ids h)) /\ h_stats h = batch I data cvf (h_ids h) /\ h_ids h <> [].
Proof.
  intros trk a (Hl & [H1 H2] & Hne) h Hh. apply In_nth_error in Hh. destruct Hh as (c & Hc).
  destruct (H2 c h Hc) as (([T1 [T2 T3]] & _) & _ & _). split; auto. split; auto. eapply Hne; eauto.
Qed.

(** The draw of one cluster in the algorithms that do not keep the posteriors. *)
Lemma redraw_form : forall hy hy0 (h : hier I) r,
  h_card h = Z.of_nat (length (h_ids h)) -> h_stats h = batch I data cvf (h_ids h) ->
  (h_saved h = true -> h_ph h = Some hy0) ->
  redraw hy h r =
  match other_draw I with
  | Some f => f hy (Z.of_nat (length (h_ids h))) (batch I data cvf (h_ids h)) (h_ids h) (h_state h) r
  | None => prior_sample I (if length (h_ids h) =? 0 then hy else if h_saved h then hy0
                            else post I hy (Z.of_nat (length (h_ids h))) (batch I data cvf (h_ids h)) (h_state h)) r
  end.
Proof.
  intros hy hy0 h r E1 E2 Hs. unfold redraw, law_of. rewrite E1, E2. destruct (other_draw I); auto. f_equal.
  destruct (length (h_ids h)) as [|k]; cbn [Nat.eqb]; auto.
  replace (Z.of_nat (S k) =? 0)%Z with false by (symmetry; apply Z.eqb_neq; lia).
  destruct (h_saved h); auto. now rewrite Hs.
Qed.

Lemma stale_sweep2 : forall hy0 (a : alg I) r a' r', neal2_sample_allocations data covs (a, r) = Ok (a', r') ->
  stale_ok hy0 (a_uv a) -> stale_ok hy0 (a_uv a').
Proof.
  intros hy0 c rc c' rc' Hc Sc. unfold neal2_sample_allocations in Hc.
  change (stale_ok hy0 (a_uv (fst (c', rc')))).
  eapply rfold_pres with (P := fun s : alg I * Rng I => stale_ok hy0 (a_uv (fst s))); [|exact Hc|exact Sc].
  intros x [d rd] [d' rd'] Hd. cbn [fst]. eapply stale_neal_step; eauto.
Qed.

Lemma stale_sweep8 : forall hy0 n_aux (a : alg I) r a' r', neal8_sample_allocations data covs n_aux (a, r) = Ok (a', r') ->
  stale_ok hy0 (a_uv a) -> stale_ok hy0 (a_uv a').
Proof.
  intros hy0 n_aux c rc c' rc' Hc Sc. unfold neal8_sample_allocations in Hc.
  change (stale_ok hy0 (a_uv (fst (c', rc')))).
  eapply rfold_pres with (P := fun s : alg I * Rng I => stale_ok hy0 (a_uv (fst s))); [|exact Hc|exact Sc].
  intros x [d rd] [d' rd'] Hd. cbn [fst]. eapply stale_neal8_step; eauto.
Qed.

Lemma rest_stale : forall hy0 (a a1 b : alg I) r1 q,
  @GInv I data covs false a1 -> stale_ok hy0 (a_uv a1) -> a_hyp a1 = a_hyp a -> a_mix a1 = a_mix a ->
  (cards_ok (a_uv a1) -> rest_of_iteration (redraw (a_hyp a1)) (a_hyp a1) (a_mix a1) a1 r1 b q) ->
  rest_of_iteration (fun h => match other_draw I with
    | Some f => f (a_hyp a) (Z.of_nat (length (h_ids h))) (batch I data cvf (h_ids h)) (h_ids h) (h_state h)
    | None => prior_sample I (if h_saved h then hy0
                else post I (a_hyp a) (Z.of_nat (length (h_ids h))) (batch I data cvf (h_ids h)) (h_state h))
    end) (a_hyp a) (a_mix a) a1 r1 b q.
Proof.
  intros hy0 a a1 b r1 q G [S1 _] Eh Em H. pose proof (GInv_cards G) as C.
  destruct H as (A & B & r2 & r3 & D & F & K). { intros h Hh. apply C; auto. }
  rewrite Eh in *. rewrite Em in *. split; [exact A|]. split; [exact B|]. exists r2, r3. split; [|auto].
  eapply threaded_ext; [|exact D]. intros h s Hh. destruct (C h Hh) as (C1 & C2 & C3).
  rewrite (@redraw_form (a_hyp a) hy0 h s C1 C2 (S1 h Hh)). destruct (other_draw I); auto. f_equal.
  destruct (h_ids h); [congruence|reflexivity].
Qed.

Lemma neal2_iteration : forall P hy0 m k gen h0 r steps a r' b q,
  2 <= n -> k <= n -> (forall i, gen i < if k =? 0 then n else k) ->
  h_saved h0 = false -> @mixing_safe I data P -> P m ->
  (s0 <- init_clusters data covs false hy0 m k gen [h0] r ;;
   iter (base_step (neal2_sample_allocations data covs) false) steps s0) = Ok (a, r') ->
  base_step (neal2_sample_allocations data covs) false (a, r') = Ok (b, q) ->
  exists a1 r1, neal2_sample_allocations data covs (a, r') = Ok (a1, r1) /\
  length (filter (@h_saved I) (a_uv a1)) <= 1 /\
  rest_of_iteration (fun h => match other_draw I with
    | Some f => f (a_hyp a) (Z.of_nat (length (h_ids h))) (batch I data cvf (h_ids h)) (h_ids h) (h_state h)
    | None => prior_sample I (if h_saved h then hy0
                else post I (a_hyp a) (Z.of_nat (length (h_ids h))) (batch I data cvf (h_ids h)) (h_state h))
    end) (a_hyp a) (a_mix a) a1 r1 b q.
Proof.
  intros P hy0 m k gen h0 r steps a r' b q Hn Hk Hg Hs HP Hm H HB.
  destruct (@init_clusters_ok I L data covs Hrows false hy0 m k gen h0 r) as (a0 & r0 & E & G & _ & _ & Em & _); auto; [discriminate|lia|intros X; congruence|].
  rewrite E in H. cbn [rbind] in H.
  apply stale_init in E; auto. destruct E as [S0 _].
  destruct (@neal2_iter_inv I L data covs Hrows P steps a0 r0) as (a2 & r2 & E1 & G1 & P1); auto; [congruence|].
  rewrite H in E1. injection E1 as <- <-.
  assert (S1 : stale_ok hy0 (a_uv a)).
  { eapply stale_iter; [|exact H|exact S0]. intros c rc c' rc' Hc. eapply stale_base_step; [|exact Hc]. apply stale_sweep2. }
  destruct (@parts _ _ _ _ _ _ HB) as (a1 & r1 & Ea & K). exists a1, r1. split; auto.
  destruct (@neal_sweep_ok I L data covs Hrows false false (@uhp_false I) (@trk_false _) (neal2_lpdf data covs)
      (@neal2_lpdf_ok I data covs Hrows false) a r' (seq 0 n)) as (a3 & r3 & E3 & G3 & Eh & Emx & _); auto using seq_lt.
  { apply HP; auto. }
  assert (X : Ok (a1, r1) = Ok (a3, r3)) by (rewrite <- Ea; exact E3). injection X as <- <-.
  pose proof (@stale_sweep2 hy0 _ _ _ _ Ea S1) as S2. split; [apply S2|]. eapply rest_stale; eauto.
Qed.

Lemma neal8_iteration : forall n_aux P hy0 m k gen h0 r steps a r' b q,
  1 <= n_aux -> 1 <= n -> k <= n -> (forall i, gen i < if k =? 0 then n else k) ->
  h_saved h0 = false -> @mixing_safe I data P -> P m ->
  ('(a0, r0) <- init_clusters data covs false hy0 m k gen [h0] r ;;
   a1 <- neal8_init_aux n_aux a0 ;;
   iter (base_step (neal8_sample_allocations data covs n_aux) false) steps (a1, r0)) = Ok (a, r') ->
  base_step (neal8_sample_allocations data covs n_aux) false (a, r') = Ok (b, q) ->
  exists a1 r1, neal8_sample_allocations data covs n_aux (a, r') = Ok (a1, r1) /\
  length (filter (@h_saved I) (a_uv a1)) <= 1 /\
  rest_of_iteration (fun h => match other_draw I with
    | Some f => f (a_hyp a) (Z.of_nat (length (h_ids h))) (batch I data cvf (h_ids h)) (h_ids h) (h_state h)
    | None => prior_sample I (if h_saved h then hy0
                else post I (a_hyp a) (Z.of_nat (length (h_ids h))) (batch I data cvf (h_ids h)) (h_state h))
    end) (a_hyp a) (a_mix a) a1 r1 b q.
Proof.
  intros n_aux P hy0 m k gen h0 r steps a r' b q Hx Hn Hk Hg Hs HP Hm H HB.
  destruct (@init_clusters_ok I L data covs Hrows false hy0 m k gen h0 r) as (a0 & r0 & E & G & _ & _ & Em & _); auto; [discriminate|intros X; congruence|].
  rewrite E in H. cbn [rbind] in H.
  apply stale_init in E; auto. destruct E as [S0 _].
  destruct (@neal8_init_aux_ok I n_aux a0) as (aux & Ea0 & La & Ha). { eapply GInv_uv_pos; eauto. }
  rewrite Ea0 in H. cbn [rbind] in H.
  destruct (@neal8_iter_inv I L data covs Hrows n_aux P steps (set_aux a0 aux) r0) as (a2 & r2 & E1 & G1 & P1); auto.
  { simpl. congruence. }
  { split; [exact G|]. apply aux_iff. auto. }
  rewrite H in E1. injection E1 as <- <-.
  assert (S1 : stale_ok hy0 (a_uv a)).
  { eapply stale_iter; [|exact H|exact S0]. intros c rc c' rc' Hc. eapply stale_base_step; [|exact Hc]. intros d rd d' rd'. apply stale_sweep8. }
  destruct (@parts _ _ _ _ _ _ HB) as (a1 & r1 & Ea & K). exists a1, r1. split; auto.
  destruct (@neal8_sweep_ok I L data covs Hrows n_aux a r' (seq 0 n)) as (a3 & r3 & E3 & [G3 _] & Eh & Emx); auto using seq_lt.
  { apply HP; auto. }
  assert (X : Ok (a1, r1) = Ok (a3, r3)) by (rewrite <- Ea; exact E3). injection X as <- <-.
  pose proof (@stale_sweep8 hy0 _ _ _ _ _ Ea S1) as S2. split; [apply S2|]. eapply rest_stale; eauto.
Qed.

(** ** Algorithm 3: after a sweep every saved posterior is up to date *)

Section Neal3.
Hypothesis Hcj : conj I = true.
Hypothesis Hod : other_draw I = None.

Definition fresh (hy : Hyp I) (h : hier I) : Prop :=
  h_saved h = true /\ h_ph h = Some (post I hy (h_card h) (h_stats h) (init_state I hy)).

Lemma fresh_save : forall hy (h h' : hier I), h_save hy h = Ok h' -> fresh hy h'.
Proof.
  intros hy h h' H. unfold h_save, h_compute_post in H. rewrite Hod in H. injection H as <-. split; auto. cbn. f_equal. apply (post_conj L Hcj).
Qed.

Lemma fresh_add : forall hy i d cv (h h' : hier I), h_add hy true i d cv h = Ok h' -> fresh hy h'.
Proof. intros hy i d cv h h' H. unfold h_add in H. rinv H g. eapply fresh_save; eauto. Qed.
Lemma fresh_remove : forall hy i d cv (h h' : hier I), h_remove hy true i d cv h = Ok h' -> fresh hy h'.
Proof. intros hy i d cv h h' H. unfold h_remove in H. rinv H g. eapply fresh_save; eauto. Qed.

Lemma fresh_draw : forall hy (h h' : hier I) r r', h_draw hy false h r = Ok (h', r') -> fresh hy h -> fresh hy h'.
Proof.
  intros hy h h' r r' H [F1 F2]. unfold h_draw in H. rewrite Hod in H. destruct (Z.eqb (h_card h) 0).
  - unfold h_sample_prior in H. destruct (prior_sample I hy r). injection H as <- <-. split; auto.
  - rinv H p. destruct p as [p g]. destruct (prior_sample I p r). injection H as <- <-. unfold h_get_post in E. rewrite Hod, F1, F2 in E.
    injection E as <- <-. split; auto.
Qed.

Lemma In_erase : forall A (l l' : list A) c x, erase_at l c = Ok l' -> In x l' -> In x l.
Proof.
  intros A l l' c x H Hx. unfold erase_at in H. destruct (c <? length l); [|discriminate]. injection H as <-.
  revert c Hx. induction l as [|y l IH]; intros [|c] Hx; cbn in *; auto. destruct Hx; eauto.
Qed.

Lemma fresh_unassign : forall cv i (a a' : alg I), unassign data true cv i a = Ok a' ->
  a_hyp a' = a_hyp a /\ forall h, In h (a_uv a') -> fresh (a_hyp a) h \/ In h (a_uv a).
Proof.
  intros cv i a a' H. unfold unassign in H. rinv H c. rinv H h. destruct (Z.leb (h_card h) 1).
  - unfold remove_singleton in H. rinv H uv. injection H as <-. split; auto. intros g Hg. cbn in Hg. right. eapply In_erase; eauto.
  - rinv H d. rinv H c2. rinv H uv. injection H as <-. split; auto. intros g Hg. cbn in Hg. unfold remove_in in E3. rinv E3 h1. rinv E3 h2. injection E3 as <-.
    apply In_upd in Hg. destruct Hg as [->|Hg]; auto. left. eapply fresh_remove; eauto.
Qed.

Lemma fresh_assign : forall cv i c (a a' : alg I) r r', assign data true cv i c a r = Ok (a', r') ->
  a_hyp a' = a_hyp a /\ exists c0, nth_error (a_alloc a') i = Some c0 /\
    forall c' h, nth_error (a_uv a') c' = Some h -> fresh (a_hyp a) h \/ (c' <> c0 /\ In h (a_uv a)).
Proof.
  intros cv i c a a' r r' H. unfold assign in H. rinv H d. rinv H c1.
  destruct (c =? length (a_uv a)) eqn:Ec.
  - rinv H g0. rinv H g1. rinv H p. destruct p as [g2 q]. rinv H al. injection H as <- <-. split; auto. exists (length (a_uv a)). split.
    + cbn. unfold set_at in E4. destruct (i <? length (a_alloc a)) eqn:Ei; [|discriminate]. injection E4 as <-. rewrite nth_error_upd, Nat.eqb_refl, Ei. reflexivity.
    + cbn. intros c' h Hc. destruct (Nat.lt_ge_cases c' (length (a_uv a))) as [Hl|Hl].
      * rewrite nth_error_app1 in Hc by auto. right. split; [lia|]. eapply nth_error_In; eauto.
      * rewrite nth_error_app2 in Hc by auto. destruct (c' - length (a_uv a)) as [|j]; cbn in Hc; [|destruct j; discriminate].
        injection Hc as <-. left. eapply fresh_draw; [exact E3|]. eapply fresh_add; eauto.
  - rinv H al. rinv H uv. injection H as <- <-. split; auto. exists c. split.
    + cbn. unfold set_at in E1. destruct (i <? length (a_alloc a)) eqn:Ei; [|discriminate]. injection E1 as <-. rewrite nth_error_upd, Nat.eqb_refl, Ei. reflexivity.
    + cbn. intros c' h Hc. unfold add_in in E2. rinv E2 h1. rinv E2 h2. injection E2 as <-.
      rewrite nth_error_upd in Hc. destruct (c' =? c) eqn:Ee.
      * destruct (c <? length (a_uv a)) eqn:El; cbn in Hc.
        -- injection Hc as <-. left. eapply fresh_add; eauto.
        -- apply Nat.eqb_eq in Ee. subst c'. exfalso. apply Nat.ltb_ge in El. apply nth_error_lt in Hc. lia.
      * cbn in Hc. right. split; [apply Nat.eqb_neq; auto|]. eapply nth_error_In; eauto.
Qed.

(** Clusters that hold an observation already visited are up to date. *)
Definition upto (hy : Hyp I) (k : nat) (uv : list (hier I)) : Prop :=
  forall h, In h uv -> (exists j, j < k /\ In j (h_ids h)) -> fresh hy h.

Lemma fresh_step : forall lp i (a a' : alg I) r r',
  neal_step data covs true lp (a, r) i = Ok (a', r') -> @GInv I data covs false a' ->
  upto (a_hyp a) i (a_uv a) -> a_hyp a' = a_hyp a /\ upto (a_hyp a) (S i) (a_uv a').
Proof.
  intros lp i a a' r r' H G U. unfold neal_step in H. rinv H a1. rinv H pm. rinv H lk. rinv H p. destruct p as [c r1].
  destruct (@fresh_unassign _ _ _ _ E) as [Eh F1]. destruct (@fresh_assign _ _ _ _ _ _ _ H) as (Eh2 & c0 & Ec & F2).
  split; [congruence|]. intros h Hh (j & Hj & Hin). apply In_nth_error in Hh. destruct Hh as (c' & Hc').
  destruct (F2 c' h Hc') as [F|[Hne Hin1]]; [rewrite <- Eh; exact F|].
  destruct (F1 h Hin1) as [F|Hin0]; [exact F|]. apply U; auto.
  exists j. split; [|exact Hin]. assert (j <> i); [|lia]. intros ->.
  destruct G as (_ & [_ G] & _). destruct (G c' h Hc') as (_ & _ & M). apply M in Hin. congruence.
Qed.

Lemma fresh_sweep : forall m s (a a' : alg I) r r', 2 <= n -> s + m <= n -> masses_ok I (a_mix a) n ->
  @GInv I data covs false a -> rfold (neal_step data covs true (neal3_lpdf data covs)) (seq s m) (a, r) = Ok (a', r') ->
  upto (a_hyp a) s (a_uv a) -> @GInv I data covs false a' /\ a_hyp a' = a_hyp a /\ a_mix a' = a_mix a /\ upto (a_hyp a) (s + m) (a_uv a').
Proof.
  induction m as [|m IH]; intros s a a' r r' Hn Hsm Hm G H U; cbn [seq rfold] in H.
  - injection H as <- <-. rewrite Nat.add_0_r. auto.
  - destruct (@neal_step_ok I L data covs Hrows true false (fun _ => Logic.conj Hcj Hod) (@trk_false _) (neal3_lpdf data covs)
      (fun a i => @neal3_lpdf_ok I data covs Hrows false a i Hod) a r s) as (a1 & r1 & E & G1 & Eh & Em & _); auto; [lia|].
    rewrite E in H. cbn [rbind] in H. destruct (@fresh_step _ _ _ _ _ _ E G1 U) as [_ U1].
    rewrite <- Eh in U1. destruct (IH (S s) a1 a' r1 r') as (A & B & C & D); auto; [lia|rewrite Em; auto|].
    split; auto. split; [congruence|]. split; [congruence|]. rewrite Eh in D. replace (s + S m) with (S s + m) by lia. exact D.
Qed.

Lemma neal3_all_fresh : forall (a a' : alg I) r r', 2 <= n -> masses_ok I (a_mix a) n -> @GInv I data covs false a ->
  neal3_sample_allocations data covs (a, r) = Ok (a', r') ->
  @GInv I data covs false a' /\ a_hyp a' = a_hyp a /\ a_mix a' = a_mix a /\ forall h, In h (a_uv a') -> fresh (a_hyp a) h.
Proof.
  intros a a' r r' Hn Hm G H. destruct (@fresh_sweep n 0 a a' r r' Hn) as (A & B & C & D); auto.
  { intros h _ (j & Hj & _). lia. }
  split; auto. split; auto. split; auto. intros h Hh. apply D; auto.
  destruct A as (Hl & [_ A] & Hne). apply In_nth_error in Hh. destruct Hh as (c & Hc). specialize (Hne c h Hc).
  destruct (h_ids h) as [|j ids] eqn:Ei; [congruence|]. exists j. split; [|left; auto].
  destruct (A c h Hc) as (_ & _ & M). assert (Hj : nth_error (a_alloc a') j = Some c) by (apply M; rewrite Ei; left; auto).
  apply nth_error_lt in Hj. lia.
Qed.

Lemma neal3_iteration : forall (a : alg I) r b q,
  2 <= n -> masses_ok I (a_mix a) n ->
  proper n (a_alloc a) (view (a_uv a)) -> caches_ok data covs (a_uv a) ->
  base_step (neal3_sample_allocations data covs) true (a, r) = Ok (b, q) ->
  exists a1 r1, neal3_sample_allocations data covs (a, r) = Ok (a1, r1) /\
  rest_of_iteration (fun h => prior_sample I
      (post I (a_hyp a) (Z.of_nat (length (h_ids h))) (batch I data cvf (h_ids h)) (init_state I (a_hyp a))))
    (a_hyp a) (a_mix a) a1 r1 b q.
Proof.
  intros a r b q Hn Hm Hp Hc HB. destruct (@parts _ _ _ _ _ _ HB) as (a1 & r1 & Ea & K). exists a1, r1. split; auto.
  assert (G : @GInv I data covs false a) by (apply GInv_iff; auto).
  destruct (@neal3_all_fresh _ _ _ _ Hn Hm G Ea) as (G1 & Eh & Em & F). pose proof (GInv_cards G1) as C.
  destruct K as (A & B & r2 & r3 & D & F1 & F2). { intros h Hh. apply C; auto. }
  rewrite Eh in *. rewrite Em in *. split; [exact A|]. split; [exact B|]. exists r2, r3. split; [|auto].
  eapply threaded_ext; [|exact D]. intros h s Hh. destruct (C h Hh) as (C1 & C2 & C3). destruct (F h Hh) as [X1 X2].
  unfold redraw, law_of. rewrite Hod, X1, X2, C1, C2. f_equal. destruct (h_ids h); [congruence|]. reflexivity.
Qed.

End Neal3.
End Data.
End It.
