(** * Marginal samplers: the facts in the form used by the property file. *)
From Coq Require Import String.
From Coq Require Import Bool List Arith ZArith Lia Sorting.Sorted Permutation.
From Verif Require Import Base Hier Algos Run Spec MargFacts NealFacts InitFacts MargMore.
Import ListNotations.
Set Implicit Arguments.

Section P.
Variable I : Iface.
Variable L : laws I.
Variable data : list (Datum I).
Variable covs : list (Cov I).
Notation n := (length data).
Notation cvf := (at_ covs).
Notation good a := (proper n (a_alloc a) (view (a_uv a)) /\ caches_ok data covs (a_uv a)).

Section Rows.
Hypothesis Hrows : rows_ok I data cvf.

Lemma seq_lt : forall i, In i (seq 0 n) -> i < n.
Proof. intros i Hi. apply in_seq in Hi. lia. Qed.

Lemma neal2_sweep_proper0 : forall (a : alg I) r,
  2 <= n -> masses_ok I (a_mix a) n -> proper n (a_alloc a) (view (a_uv a)) -> caches_ok data covs (a_uv a) ->
  exists a' r', neal2_sample_allocations data covs (a, r) = Ok (a', r') /\ good a'.
Proof.
  intros a r Hn Hm Hp Hc.
  assert (HG : @GInv I data covs false a) by (apply GInv_iff; auto).
  destruct (@neal_sweep_ok I L data covs Hrows false false (@uhp_false I) (@trk_false _) (neal2_lpdf data covs)
      (@neal2_lpdf_ok I data covs Hrows false) a r (seq 0 n)) as (a1 & r1 & E & G1 & _); auto using seq_lt.
  exists a1, r1. split; [exact E|]. apply GInv_iff; auto.
Qed.

Lemma neal3_sweep_proper0 : forall (a : alg I) r, conj I = true -> other_draw I = None ->
  2 <= n -> masses_ok I (a_mix a) n -> proper n (a_alloc a) (view (a_uv a)) -> caches_ok data covs (a_uv a) ->
  exists a' r', neal3_sample_allocations data covs (a, r) = Ok (a', r') /\ good a'.
Proof.
  intros a r Hcj Hod Hn Hm Hp Hc.
  assert (HG : @GInv I data covs false a) by (apply GInv_iff; auto).
  destruct (@neal_sweep_ok I L data covs Hrows true false (fun _ => Logic.conj Hcj Hod) (@trk_false _) (neal3_lpdf data covs)
      (fun a i => @neal3_lpdf_ok I data covs Hrows false a i Hod) a r (seq 0 n)) as (a1 & r1 & E & G1 & _); auto using seq_lt.
  exists a1, r1. split; [exact E|]. apply GInv_iff; auto.
Qed.

Lemma neal2_iter_inv : forall P k (a : alg I) r,
  2 <= n -> @mixing_safe I data P -> P (a_mix a) -> @GInv I data covs false a ->
  exists a' r', iter (base_step (neal2_sample_allocations data covs) false) k (a, r) = Ok (a', r') /\
    @GInv I data covs false a' /\ P (a_mix a').
Proof.
  intros P k a r Hn HP Hm HG.
  destruct (@iter_inv I (base_step (neal2_sample_allocations data covs) false)
     (fun a => @GInv I data covs false a /\ P (a_mix a)) k a r) as (a' & r' & E & G & Pm); auto.
  - intros a0 r0 [G0 P0]. destruct (@neal2_step_ok I L data covs Hrows P a0 r0) as (a1 & r1 & E & G1 & P1); auto.
    exists a1, r1. auto.
  - exists a', r'. auto.
Qed.

Lemma neal2_iter_proper0 : forall P k (a : alg I) r,
  2 <= n -> @mixing_safe I data P -> P (a_mix a) ->
  proper n (a_alloc a) (view (a_uv a)) -> caches_ok data covs (a_uv a) ->
  exists a' r', iter (base_step (neal2_sample_allocations data covs) false) k (a, r) = Ok (a', r') /\ good a'.
Proof.
  intros P k a r Hn HP Hm Hp Hc.
  destruct (@neal2_iter_inv P k a r) as (a' & r' & E & G & _); auto. { apply GInv_iff; auto. }
  exists a', r'. split; auto. apply GInv_iff; auto.
Qed.

Lemma neal3_iter_proper0 : forall P k (a : alg I) r, conj I = true -> other_draw I = None ->
  2 <= n -> @mixing_safe I data P -> P (a_mix a) ->
  proper n (a_alloc a) (view (a_uv a)) -> caches_ok data covs (a_uv a) ->
  exists a' r', iter (base_step (neal3_sample_allocations data covs) true) k (a, r) = Ok (a', r') /\ good a'.
Proof.
  intros P k a r Hcj Hod Hn HP Hm Hp Hc.
  destruct (@iter_inv I (base_step (neal3_sample_allocations data covs) true)
     (fun a => @GInv I data covs false a /\ P (a_mix a)) k a r) as (a' & r' & E & G & Pm); auto.
  - intros a0 r0 [G0 P0]. destruct (@neal3_step_ok I L data covs Hrows P a0 r0) as (a1 & r1 & E & G1 & P1); auto.
    exists a1, r1. auto.
  - split; auto. apply GInv_iff; auto.
  - exists a', r'. split; auto. apply GInv_iff; auto.
Qed.

Lemma aux_iff : forall n_aux (a : alg I), @aux_ok I n_aux a <->
  length (a_aux a) = n_aux /\ (forall h, In h (a_aux a) -> h_ids h = [] /\ h_stats h = stats0 I).
Proof.
  intros n_aux a. unfold aux_ok. split; intros [A B]; split; auto.
  - intros h Hh. apply In_nth_error in Hh. destruct Hh as (j & Hj). eauto.
  - intros j h Hj. apply B. eapply nth_error_In; eauto.
Qed.

Lemma neal8_sweep_proper0 : forall n_aux (a : alg I) r,
  1 <= n_aux -> masses_ok I (a_mix a) n ->
  proper n (a_alloc a) (view (a_uv a)) -> caches_ok data covs (a_uv a) ->
  length (a_aux a) = n_aux -> (forall h, In h (a_aux a) -> h_ids h = [] /\ h_stats h = stats0 I) ->
  exists a' r', neal8_sample_allocations data covs n_aux (a, r) = Ok (a', r') /\
    proper n (a_alloc a') (view (a_uv a')) /\ caches_ok data covs (a_uv a') /\
    length (a_aux a') = n_aux /\ (forall h, In h (a_aux a') -> h_ids h = [] /\ h_stats h = stats0 I).
Proof.
  intros n_aux a r Hx Hm Hp Hc Hl Ha.
  destruct (@neal8_sweep_ok I L data covs Hrows n_aux a r (seq 0 n)) as (a1 & r1 & E & [G1 X1] & _); auto using seq_lt.
  { split; [apply GInv_iff; auto|apply aux_iff; auto]. }
  exists a1, r1. split; [exact E|]. apply GInv_iff in G1. apply aux_iff in X1. tauto.
Qed.

Lemma neal8_iter_inv : forall n_aux P k (a : alg I) r,
  1 <= n_aux -> 1 <= n -> @mixing_safe I data P -> P (a_mix a) -> @GInv8 I data covs n_aux a ->
  exists a' r', iter (base_step (neal8_sample_allocations data covs n_aux) false) k (a, r) = Ok (a', r') /\
    @GInv8 I data covs n_aux a' /\ P (a_mix a').
Proof.
  intros n_aux P k a r Hx Hn HP Hm HG.
  destruct (@iter_inv I (base_step (neal8_sample_allocations data covs n_aux) false)
     (fun a => @GInv8 I data covs n_aux a /\ P (a_mix a)) k a r) as (a' & r' & E & G & Pm); auto.
  - intros a0 r0 [G0 P0]. destruct (@neal8_step_all_ok I L data covs Hrows n_aux P a0 r0) as (a1 & r1 & E & G1 & P1); auto.
    exists a1, r1. auto.
  - exists a', r'. auto.
Qed.

Lemma neal8_iter_proper0 : forall n_aux P k (a : alg I) r,
  1 <= n_aux -> 1 <= n -> @mixing_safe I data P -> P (a_mix a) ->
  proper n (a_alloc a) (view (a_uv a)) -> caches_ok data covs (a_uv a) ->
  length (a_aux a) = n_aux -> (forall h, In h (a_aux a) -> h_ids h = [] /\ h_stats h = stats0 I) ->
  exists a' r', iter (base_step (neal8_sample_allocations data covs n_aux) false) k (a, r) = Ok (a', r') /\
    proper n (a_alloc a') (view (a_uv a')) /\ caches_ok data covs (a_uv a') /\
    length (a_aux a') = n_aux /\ (forall h, In h (a_aux a') -> h_ids h = [] /\ h_stats h = stats0 I).
Proof.
  intros n_aux P k a r Hx Hn HP Hm Hp Hc Hl Ha.
  destruct (@neal8_iter_inv n_aux P k a r) as (a1 & r1 & E & [G1 X1] & _); auto.
  { split; [apply GInv_iff; auto|apply aux_iff; auto]. }
  exists a1, r1. split; [exact E|]. apply GInv_iff in G1. apply aux_iff in X1. tauto.
Qed.

Lemma neal2_step_local0 : forall (a a' : alg I) r r' i,
  2 <= n -> i < n -> masses_ok I (a_mix a) n ->
  proper n (a_alloc a) (view (a_uv a)) -> caches_ok data covs (a_uv a) ->
  neal_step data covs false (neal2_lpdf data covs) (a, r) i = Ok (a', r') ->
  same_grouping (fun j => j <> i /\ j < n) (a_alloc a) (a_alloc a') /\
  (forall j, j <> i -> param a' j = param a j).
Proof.
  intros a a' r r' i Hn Hi Hm Hp Hc H.
  assert (HG : @GInv I data covs false a) by (apply GInv_iff; auto).
  destruct (@neal_step_ok I L data covs Hrows false false (@uhp_false I) (@trk_false _) (neal2_lpdf data covs)
      (@neal2_lpdf_ok I data covs Hrows false) a r i) as (a1 & r1 & E & _ & _ & _ & _ & Hg); auto.
  rewrite H in E. injection E as <- <-. split; auto.
  intros j Hj. eapply neal_step_param; eauto; discriminate.
Qed.

Lemma init_proper0 : forall uhp hy m k gen h0 r,
  (uhp = true -> conj I = true /\ other_draw I = None) ->
  1 <= n -> k <= n ->
  (forall i, gen i < if k =? 0 then n else k) ->
  (h_saved h0 = true -> h_ph h0 <> None) ->
  exists a r', init_clusters data covs uhp hy m k gen [h0] r = Ok (a, r') /\
    proper n (a_alloc a) (view (a_uv a)) /\ caches_ok data covs (a_uv a) /\
    length (a_uv a) = (if k =? 0 then n else k).
Proof.
  intros uhp hy m k gen h0 r Hu Hn Hk Hg Hp.
  destruct (@init_clusters_ok I L data covs Hrows uhp hy m k gen h0 r) as (a & r' & E & G & Hl & _); auto.
  exists a, r'. split; auto. apply GInv_untrack in G. apply GInv_iff in G. tauto.
Qed.

Lemma init_too_many0 : forall uhp hy m k gen h0 r,
  (h_saved h0 = true -> h_ph h0 <> None) -> n < k ->
  init_clusters data covs uhp hy m k gen [h0] r = UB.
Proof. intros. eapply init_clusters_too_many; eauto. Qed.

Lemma neal2_run_completes0 : forall P hy m k gen h0 r maxiter burnin,
  2 <= n -> k <= n ->
  (forall i, gen i < if k =? 0 then n else k) ->
  (h_saved h0 = true -> h_ph h0 <> None) ->
  @mixing_safe I data P -> P m ->
  exists s out, run (init_clusters data covs false hy m k gen [h0] r)
      (base_step (neal2_sample_allocations data covs) false) maxiter burnin = Ok (s, out) /\
    length out = maxiter - burnin.
Proof.
  intros P hy m k gen h0 r maxiter burnin Hn Hk Hg Hp HP Hm.
  destruct (@init_clusters_ok I L data covs Hrows false hy m k gen h0 r) as (a & r' & E & G & _ & _ & Em & _); auto; [discriminate|lia|].
  unfold run. rewrite E. cbn [rbind].
  destruct (@run_complete I (base_step (neal2_sample_allocations data covs) false)
     (fun a => @GInv I data covs false a /\ P (a_mix a))) with (burnin := burnin) (maxiter := maxiter) (a := a) (r := r')
    as (a1 & r1 & out & E1 & _).
  - intros a0 r0 [G0 P0]. destruct (@neal2_step_ok I L data covs Hrows P a0 r0) as (a1 & r1 & E1 & G1 & P1); auto.
    exists a1, r1. auto.
  - intros a0 [G0 _]. eapply GInv_uv_pos; eauto. lia.
  - split; auto. congruence.
  - exists (a1, r1), out. split; auto. apply run_ok_inv in E1. tauto.
Qed.

Lemma neal2_single0 : forall (a : alg I) r, n = 1 -> masses_ok I (a_mix a) 1 ->
  proper 1 (a_alloc a) (view (a_uv a)) -> caches_ok data covs (a_uv a) ->
  neal2_sample_allocations data covs (a, r) = UB.
Proof.
  intros a r Hn Hm Hp Hc. unfold neal2_sample_allocations. rewrite Hn. cbn [seq rfold].
  rewrite single_step_UB; auto.
  - apply GInv_iff. rewrite Hn. auto.
  - intros a' Ea. unfold neal2_lpdf.
    destruct (Hrows (j := 0)) as (d & cv & E1 & E2 & _); [lia|]. rewrite E1, E2, Ea. reflexivity.
Qed.

Lemma neal3_single0 : forall (a : alg I) r, n = 1 -> masses_ok I (a_mix a) 1 ->
  proper 1 (a_alloc a) (view (a_uv a)) -> caches_ok data covs (a_uv a) ->
  neal3_sample_allocations data covs (a, r) = UB.
Proof.
  intros a r Hn Hm Hp Hc. unfold neal3_sample_allocations. rewrite Hn. cbn [seq rfold].
  rewrite single_step_UB; auto.
  - apply GInv_iff. rewrite Hn. auto.
  - intros a' Ea. unfold neal3_lpdf.
    destruct (Hrows (j := 0)) as (d & cv & E1 & E2 & _); [lia|]. rewrite E1, E2, Ea. reflexivity.
Qed.

Lemma redraw_core : forall hy0 (a : alg I) r' uv' r'', other_draw I = None ->
  @GInv I data covs false a -> stale_ok hy0 (a_uv a) ->
  sample_unique_values false (a, r') = Ok (set_uv a uv', r'') ->
  length (filter (@h_saved I) (a_uv a)) <= 1 /\
  forall c h h', nth_error (a_uv a) c = Some h -> nth_error uv' c = Some h' ->
    exists r0 r1, prior_sample I
       (if h_saved h then hy0
        else post I (a_hyp a) (Z.of_nat (length (h_ids h))) (batch I data cvf (h_ids h)) (h_state h)) r0
       = (h_state h', r1).
Proof.
  intros hy0 a r' uv' r'' Hod (Hl & [H1 H2] & Hne) [S1 S2] H. split; auto.
  intros c h h' Hc Hc'. unfold sample_unique_values in H. rinv H p. destruct p as [uv r1].
  injection H as Huv _. subst uv.
  apply draw_all_spec in E; auto. destruct E as [_ Hs].
  destruct (Hs c h h' Hc Hc') as [_ K].
  destruct (H2 c h Hc) as (([T1 [T2 T3]] & _) & _ & _).
  assert (Hnz : h_card h <> 0%Z).
  { specialize (Hne c h Hc). rewrite T2. destruct (h_ids h); simpl; [congruence|lia]. }
  destruct (K Hnz) as (r0 & r2 & E). exists r0, r2. rewrite <- E. f_equal.
  destruct (h_saved h) eqn:Es; [|rewrite T2, T3; auto].
  rewrite (S1 h) by (auto; eapply nth_error_In; eauto). reflexivity.
Qed.

Lemma neal2_redraw0 : forall P hy0 m k gen h0 r steps a r' uv' r'',
  other_draw I = None -> 2 <= n -> k <= n ->
  (forall i, gen i < if k =? 0 then n else k) ->
  h_saved h0 = false -> @mixing_safe I data P -> P m ->
  (s0 <- init_clusters data covs false hy0 m k gen [h0] r ;;
   iter (base_step (neal2_sample_allocations data covs) false) steps s0) = Ok (a, r') ->
  sample_unique_values false (a, r') = Ok (set_uv a uv', r'') ->
  length (filter (@h_saved I) (a_uv a)) <= 1 /\
  forall c h h', nth_error (a_uv a) c = Some h -> nth_error uv' c = Some h' ->
    exists r0 r1, prior_sample I
       (if h_saved h then hy0
        else post I (a_hyp a) (Z.of_nat (length (h_ids h))) (batch I data cvf (h_ids h)) (h_state h)) r0
       = (h_state h', r1).
Proof.
  intros P hy0 m k gen h0 r steps a r' uv' r'' Hod Hn Hk Hg Hs HP Hm H HH.
  destruct (@init_clusters_ok I L data covs Hrows false hy0 m k gen h0 r) as (a0 & r0 & E & G & _ & _ & Em & _); auto; [discriminate|lia|intros X; congruence|].
  rewrite E in H. cbn [rbind] in H.
  apply stale_init in E; auto. destruct E as [S0 _].
  destruct (@neal2_iter_inv P steps a0 r0) as (a1 & r1 & E1 & G1 & _); auto; [congruence|].
  rewrite H in E1. injection E1 as <- <-.
  eapply redraw_core; eauto.
  eapply stale_iter; [|exact H|exact S0].
  intros b rb b' rb' Hb. eapply stale_base_step; [|exact Hb].
  intros c rc c' rc' Hc Sc. unfold neal2_sample_allocations in Hc.
  change (stale_ok hy0 (a_uv (fst (c', rc')))).
  eapply rfold_pres with (P := fun s : alg I * Rng I => stale_ok hy0 (a_uv (fst s))); [|exact Hc|exact Sc].
  intros x [d rd] [d' rd'] Hd. cbn [fst]. eapply stale_neal_step; eauto.
Qed.

Lemma neal8_init_aux_ok : forall n_aux (a : alg I), a_uv a <> [] ->
  exists aux, neal8_init_aux n_aux a = Ok (set_aux a aux) /\ length aux = n_aux /\
    (forall h, In h aux -> h_ids h = [] /\ h_stats h = stats0 I).
Proof.
  intros n_aux a Hne. unfold neal8_init_aux.
  destruct (a_uv a) as [|h0 uv] eqn:E; [congruence|].
  assert (K : forall l, rmap (fun _ : nat => h <- at_ (h0 :: uv) 0 ;; Ok (h_clone h)) l = Ok (map (fun _ => h_clone h0) l)).
  { induction l as [|x l IH]; simpl in *; auto. rewrite IH. reflexivity. }
  rewrite K. cbn [rbind]. eexists. split; [reflexivity|]. rewrite map_length, seq_length. split; auto.
  intros h Hh. apply in_map_iff in Hh. destruct Hh as (x & <- & _). auto.
Qed.

Lemma neal8_redraw0 : forall n_aux P hy0 m k gen h0 r steps a r' uv' r'',
  other_draw I = None -> 1 <= n_aux -> 1 <= n -> k <= n ->
  (forall i, gen i < if k =? 0 then n else k) ->
  h_saved h0 = false -> @mixing_safe I data P -> P m ->
  ('(a0, r0) <- init_clusters data covs false hy0 m k gen [h0] r ;;
   a1 <- neal8_init_aux n_aux a0 ;;
   iter (base_step (neal8_sample_allocations data covs n_aux) false) steps (a1, r0)) = Ok (a, r') ->
  sample_unique_values false (a, r') = Ok (set_uv a uv', r'') ->
  length (filter (@h_saved I) (a_uv a)) <= 1 /\
  forall c h h', nth_error (a_uv a) c = Some h -> nth_error uv' c = Some h' ->
    exists r0 r1, prior_sample I
       (if h_saved h then hy0
        else post I (a_hyp a) (Z.of_nat (length (h_ids h))) (batch I data cvf (h_ids h)) (h_state h)) r0
       = (h_state h', r1).
Proof.
  intros n_aux P hy0 m k gen h0 r steps a r' uv' r'' Hod Hx Hn Hk Hg Hs HP Hm H HH.
  destruct (@init_clusters_ok I L data covs Hrows false hy0 m k gen h0 r) as (a0 & r0 & E & G & _ & _ & Em & _); auto; [discriminate|intros X; congruence|].
  rewrite E in H. cbn [rbind] in H.
  apply stale_init in E; auto. destruct E as [S0 _].
  destruct (@neal8_init_aux_ok n_aux a0) as (aux & Ea & La & Ha). { eapply GInv_uv_pos; eauto. }
  rewrite Ea in H. cbn [rbind] in H.
  destruct (@neal8_iter_inv n_aux P steps (set_aux a0 aux) r0) as (a1 & r1 & E1 & [G1 _] & _); auto.
  { simpl. congruence. }
  { split; [exact G|]. apply aux_iff. auto. }
  rewrite H in E1. injection E1 as <- <-.
  eapply redraw_core; eauto.
  eapply stale_iter; [|exact H|exact S0].
  intros b rb b' rb' Hb. eapply stale_base_step; [|exact Hb].
  intros c rc c' rc' Hc Sc. unfold neal8_sample_allocations in Hc.
  change (stale_ok hy0 (a_uv (fst (c', rc')))).
  eapply rfold_pres with (P := fun s : alg I * Rng I => stale_ok hy0 (a_uv (fst s))); [|exact Hc|exact Sc].
  intros x [d rd] [d' rd'] Hd. cbn [fst]. eapply stale_neal8_step; eauto.
Qed.

(** The posterior saved in [h] is the one of its current data. *)
Definition saved_matches (hy : Hyp I) (h : hier I) : Prop :=
  h_saved h = true /\
  h_ph h = Some (post I hy (Z.of_nat (length (h_ids h))) (batch I data cvf (h_ids h)) (init_state I hy)).

Lemma GInvT_iff : forall (a : alg I), conj I = true ->
  (@GInv I data covs true a <->
   (proper n (a_alloc a) (view (a_uv a)) /\ caches_ok data covs (a_uv a)) /\
   (forall h, In h (a_uv a) -> saved_matches (a_hyp a) h)).
Proof.
  intros a Hcj. split.
  - intros G. split; [apply GInv_iff; eapply GInv_untrack; eauto|].
    destruct G as (_ & [_ H2] & _). intros h Hh. apply In_nth_error in Hh. destruct Hh as (c & Hc).
    destruct (H2 c h Hc) as (([T1 [T2 T3]] & F) & _ & _). destruct (F eq_refl) as [F1 F2].
    split; auto. rewrite F2, <- T2, <- T3. f_equal. apply (post_conj L Hcj).
  - intros [G S]. apply GInv_iff in G. destruct G as (Hl & [H1 H2] & Hne).
    split; [auto|split; [split; auto|auto]]. intros c h Hc.
    destruct (H2 c h Hc) as (([T1 [T2 T3]] & _) & P & M).
    split; [split; [repeat split; auto|]|auto]. intros _.
    destruct (S h) as [F1 F2]. { eapply nth_error_In; eauto. }
    split; auto. rewrite F2, T2, T3. f_equal. apply (post_conj L Hcj).
Qed.

Lemma neal3_fresh0 : forall (a : alg I) r k, conj I = true -> other_draw I = None ->
  2 <= n -> masses_ok I (a_mix a) n ->
  proper n (a_alloc a) (view (a_uv a)) -> caches_ok data covs (a_uv a) ->
  (forall h, In h (a_uv a) -> saved_matches (a_hyp a) h) ->
  k <= n ->
  exists ak rk, rfold (neal_step data covs true (neal3_lpdf data covs)) (seq 0 k) (a, r) = Ok (ak, rk) /\
    (forall h, In h (a_uv ak) -> saved_matches (a_hyp a) h) /\
    (k < n -> exists a1 d cv,
       unassign data true cvf k ak = Ok a1 /\ at_ data k = Ok d /\ cvf k = Ok cv /\
       neal3_lpdf data covs a1 k =
       Ok (map (fun h => marg_lpdf I (post I (a_hyp a) (Z.of_nat (length (h_ids h)))
                  (batch I data cvf (h_ids h)) (init_state I (a_hyp a))) d cv) (a_uv a1)
           ++ [marg_lpdf I (a_hyp a) d cv])).
Proof.
  intros a r k Hcj Hod Hn Hm Hp Hc Hs Hk.
  assert (HG : @GInv I data covs true a) by (apply GInvT_iff; auto).
  assert (Hu : true = true -> conj I = true /\ other_draw I = None) by auto.
  assert (Ht : true = true -> true = true) by auto.
  destruct (@neal_sweep_ok I L data covs Hrows true true Hu Ht (neal3_lpdf data covs)
      (fun a i => @neal3_lpdf_ok I data covs Hrows true a i Hod) a r (seq 0 k)) as (a1 & r1 & E & G1 & Eh & Em & _); auto.
  { intros i Hi. apply in_seq in Hi. lia. }
  exists a1, r1. split; auto. split.
  - rewrite <- Eh. apply GInvT_iff; auto.
  - intros Hkn. destruct G1 as (Hl & HI & Hne).
    destruct (@unassign_ok I L data cvf Hrows true Hu true Ht a1 k) as (al & uv & Eu & Hl1 & HI1 & Hne1 & _); auto.
    destruct (Hrows Hkn) as (d & cv & E1 & E2 & _).
    exists (set_uv (set_alloc a1 al) uv), d, cv. split; auto. split; auto. split; auto.
    rewrite <- Eh. change (a_hyp a1) with (a_hyp (set_uv (set_alloc a1 al) uv)).
    apply neal3_lpdf_value; auto.
    simpl. eapply hole_uv_nonempty with (trk := true); eauto.
Qed.

Lemma neal3_init_fresh0 : forall hy m k gen h0 r, conj I = true -> other_draw I = None ->
  1 <= n -> k <= n ->
  (forall i, gen i < if k =? 0 then n else k) ->
  (h_saved h0 = true -> h_ph h0 <> None) ->
  exists a r', init_clusters data covs true hy m k gen [h0] r = Ok (a, r') /\ a_hyp a = hy /\
    forall h, In h (a_uv a) -> saved_matches hy h.
Proof.
  intros hy m k gen h0 r Hcj Hod Hn Hk Hg Hp.
  destruct (@init_clusters_ok I L data covs Hrows true hy m k gen h0 r) as (a & r' & E & G & _ & Eh & _); auto.
  exists a, r'. split; auto. split; auto. rewrite <- Eh. apply GInvT_iff; auto.
Qed.

Lemma neal8_aux0 : forall n_aux (a : alg I) r i a' r',
  1 <= n_aux -> i < n ->
  proper n (a_alloc a) (view (a_uv a)) -> caches_ok data covs (a_uv a) ->
  length (a_aux a) = n_aux -> (forall h, In h (a_aux a) -> h_ids h = [] /\ h_stats h = stats0 I) ->
  neal8_step data covs n_aux (a, r) i = Ok (a', r') ->
  (forall j, j <> i -> j < n -> param a' j = param a j) /\
  exists c h l' hn,
    nth_error (a_alloc a) i = Some c /\ nth_error (a_uv a) c = Some h /\
    nth_error (a_alloc a') i = Some l' /\ nth_error (a_uv a') l' = Some hn /\
    length (a_aux a') = n_aux /\
    (h_ids h = [i] ->
       option_map (@h_state I) (nth_error (a_aux a') 0) = Some (h_state h) /\
       (forall j, 1 <= j < n_aux -> exists x, nth_error (a_aux a') j = Some x /\ prior_draw I (a_hyp a) (h_state x))) /\
    (h_ids h <> [i] ->
       forall j, j < n_aux -> exists x, nth_error (a_aux a') j = Some x /\ prior_draw I (a_hyp a) (h_state x)) /\
    (h_ids hn = [i] -> exists j x, nth_error (a_aux a') j = Some x /\ h_state hn = h_state x).
Proof.
  intros n_aux a r i a' r' Hx Hi Hp Hc Hl Ha H.
  eapply neal8_step_aux; eauto. split; [apply GInv_iff; auto|apply aux_iff; auto].
Qed.

End Rows.

Lemma neal8_no_aux : forall (a : alg I) r i c h,
  a_aux a = [] -> nth_error (a_alloc a) i = Some c -> nth_error (a_uv a) c = Some h -> (h_card h <= 1)%Z ->
  neal8_step data covs 0 (a, r) i = UB.
Proof.
  intros a r i c h Ha Hc Hh Hk. unfold neal8_step, neal8_unassign.
  rewrite (at_Some _ _ Hc). cbn [rbind]. rewrite (at_Some _ _ Hh). cbn [rbind].
  apply Z.leb_le in Hk. rewrite Hk, Ha. reflexivity.
Qed.

Lemma leftover : forall (a : alg I) h0 rest,
  proper n (a_alloc a) (view (a_uv a)) -> a_uv a = h0 :: rest -> rest <> [] ->
  exists h, In h rest /\ h_ids h <> [].
Proof.
  intros a h0 rest [_ Hne] E Hr. destruct rest as [|h1 rest]; [congruence|].
  exists h1. split; [simpl; auto|]. apply (Hne 1 (h_ids h1) (h_card h1)). rewrite E. reflexivity.
Qed.

Lemma first_cluster_saved : forall hy0 m k gen h0 r a r', h_saved h0 = false ->
  init_clusters data covs false hy0 m k gen [h0] r = Ok (a, r') ->
  exists h, nth_error (a_uv a) 0 = Some h /\ h_saved h = conj I /\ (conj I = true -> h_ph h = Some hy0).
Proof. intros hy0 m k gen h0 r a r' H0 H. apply stale_init in H; auto. tauto. Qed.

End P.

Lemma neal2_sweep_proper : forall (I : Iface) (L : laws I) data covs (a : alg I) r,
  rows_ok I data (at_ covs) -> 2 <= length data -> masses_ok I (a_mix a) (length data) ->
  proper (length data) (a_alloc a) (view (a_uv a)) -> caches_ok data covs (a_uv a) ->
  exists a' r', neal2_sample_allocations data covs (a, r) = Ok (a', r') /\
    proper (length data) (a_alloc a') (view (a_uv a')) /\ caches_ok data covs (a_uv a').
Proof. intros. apply neal2_sweep_proper0; auto. Qed.

Lemma neal3_sweep_proper : forall (I : Iface) (L : laws I) data covs (a : alg I) r,
  conj I = true -> other_draw I = None ->
  rows_ok I data (at_ covs) -> 2 <= length data -> masses_ok I (a_mix a) (length data) ->
  proper (length data) (a_alloc a) (view (a_uv a)) -> caches_ok data covs (a_uv a) ->
  exists a' r', neal3_sample_allocations data covs (a, r) = Ok (a', r') /\
    proper (length data) (a_alloc a') (view (a_uv a')) /\ caches_ok data covs (a_uv a').
Proof. intros. apply neal3_sweep_proper0; auto. Qed.

Lemma neal2_iter_proper : forall (I : Iface) (L : laws I) data covs (P : Mix I -> Prop) k (a : alg I) r,
  rows_ok I data (at_ covs) -> 2 <= length data -> @mixing_safe I data P -> P (a_mix a) ->
  proper (length data) (a_alloc a) (view (a_uv a)) -> caches_ok data covs (a_uv a) ->
  exists a' r', iter (base_step (neal2_sample_allocations data covs) false) k (a, r) = Ok (a', r') /\
    proper (length data) (a_alloc a') (view (a_uv a')) /\ caches_ok data covs (a_uv a').
Proof. intros. eapply neal2_iter_proper0; eauto. Qed.

Lemma neal3_iter_proper : forall (I : Iface) (L : laws I) data covs (P : Mix I -> Prop) k (a : alg I) r,
  conj I = true -> other_draw I = None ->
  rows_ok I data (at_ covs) -> 2 <= length data -> @mixing_safe I data P -> P (a_mix a) ->
  proper (length data) (a_alloc a) (view (a_uv a)) -> caches_ok data covs (a_uv a) ->
  exists a' r', iter (base_step (neal3_sample_allocations data covs) true) k (a, r) = Ok (a', r') /\
    proper (length data) (a_alloc a') (view (a_uv a')) /\ caches_ok data covs (a_uv a').
Proof. intros. eapply neal3_iter_proper0; eauto. Qed.

Lemma neal2_step_local : forall (I : Iface) (L : laws I) data covs (a a' : alg I) r r' i,
  rows_ok I data (at_ covs) -> 2 <= length data -> i < length data -> masses_ok I (a_mix a) (length data) ->
  proper (length data) (a_alloc a) (view (a_uv a)) -> caches_ok data covs (a_uv a) ->
  neal_step data covs false (neal2_lpdf data covs) (a, r) i = Ok (a', r') ->
  same_grouping (fun j => j <> i /\ j < length data) (a_alloc a) (a_alloc a') /\
  (forall j, j <> i -> param a' j = param a j).
Proof. intros. eapply neal2_step_local0; eauto. Qed.

Lemma neal8_sweep_proper : forall (I : Iface) (L : laws I) data covs n_aux (a : alg I) r,
  rows_ok I data (at_ covs) -> 1 <= n_aux -> masses_ok I (a_mix a) (length data) ->
  proper (length data) (a_alloc a) (view (a_uv a)) -> caches_ok data covs (a_uv a) ->
  length (a_aux a) = n_aux -> (forall h, In h (a_aux a) -> h_ids h = [] /\ h_stats h = stats0 I) ->
  exists a' r', neal8_sample_allocations data covs n_aux (a, r) = Ok (a', r') /\
    proper (length data) (a_alloc a') (view (a_uv a')) /\ caches_ok data covs (a_uv a') /\
    length (a_aux a') = n_aux /\ (forall h, In h (a_aux a') -> h_ids h = [] /\ h_stats h = stats0 I).
Proof. intros. apply neal8_sweep_proper0; auto. Qed.

Lemma neal8_iter_proper : forall (I : Iface) (L : laws I) data covs n_aux (P : Mix I -> Prop) k (a : alg I) r,
  rows_ok I data (at_ covs) -> 1 <= n_aux -> 1 <= length data -> @mixing_safe I data P -> P (a_mix a) ->
  proper (length data) (a_alloc a) (view (a_uv a)) -> caches_ok data covs (a_uv a) ->
  length (a_aux a) = n_aux -> (forall h, In h (a_aux a) -> h_ids h = [] /\ h_stats h = stats0 I) ->
  exists a' r', iter (base_step (neal8_sample_allocations data covs n_aux) false) k (a, r) = Ok (a', r') /\
    proper (length data) (a_alloc a') (view (a_uv a')) /\ caches_ok data covs (a_uv a') /\
    length (a_aux a') = n_aux /\ (forall h, In h (a_aux a') -> h_ids h = [] /\ h_stats h = stats0 I).
Proof. intros. eapply neal8_iter_proper0; eauto. Qed.

Lemma init_proper : forall (I : Iface) (L : laws I) data covs uhp hy m k gen h0 r,
  rows_ok I data (at_ covs) ->
  (uhp = true -> conj I = true /\ other_draw I = None) ->
  1 <= length data -> k <= length data ->
  (forall i, gen i < if k =? 0 then length data else k) ->
  (h_saved h0 = true -> h_ph h0 <> None) ->
  exists a r', init_clusters data covs uhp hy m k gen [h0] r = Ok (a, r') /\
    proper (length data) (a_alloc a) (view (a_uv a)) /\ caches_ok data covs (a_uv a) /\
    length (a_uv a) = (if k =? 0 then length data else k).
Proof. intros. apply init_proper0; auto. Qed.

Lemma init_too_many : forall (I : Iface) (L : laws I) data covs uhp hy m k gen h0 r,
  rows_ok I data (at_ covs) -> (h_saved h0 = true -> h_ph h0 <> None) -> length data < k ->
  init_clusters data covs uhp hy m k gen [h0] r = UB.
Proof. intros. apply init_too_many0; auto. Qed.

Lemma run_saves : forall (I : Iface) (init : res (alg I * Rng I)) step maxiter burnin s out,
  run init step maxiter burnin = Ok (s, out) ->
  exists s0, init = Ok s0 /\ iter step maxiter s0 = Ok s /\
  length out = maxiter - burnin /\
  (forall i, i < maxiter - burnin -> exists ar snap,
     iter step (burnin + i + 1) s0 = Ok ar /\ nth_error out i = Some snap /\
     s_iter snap = burnin + i /\ s_alloc snap = a_alloc (fst ar) /\
     s_clusters snap = map (fun h => (h_state h, h_card h)) (a_uv (fst ar)) /\
     s_hyp snap = a_hyp (fst ar) /\ s_mix snap = a_mix (fst ar)).
Proof.
  intros I init step maxiter burnin s out H. unfold run in H. rinv H s0. exists s0. split; auto.
  apply run_ok_inv in H. destruct H as (H1 & H2 & H3). split; auto. split; auto.
  intros i Hi. destruct (H3 i Hi) as (ar & snap & A & B & C). exists ar, snap. split; auto. split; auto.
  unfold get_state in B. rinv B h. injection B as <-. simpl. auto.
Qed.

Lemma neal2_run_completes : forall (I : Iface) (L : laws I) data covs (P : Mix I -> Prop)
    hy m k gen h0 r maxiter burnin,
  rows_ok I data (at_ covs) -> 2 <= length data -> k <= length data ->
  (forall i, gen i < if k =? 0 then length data else k) ->
  (h_saved h0 = true -> h_ph h0 <> None) ->
  @mixing_safe I data P -> P m ->
  exists s out, run (init_clusters data covs false hy m k gen [h0] r)
      (base_step (neal2_sample_allocations data covs) false) maxiter burnin = Ok (s, out) /\
    length out = maxiter - burnin.
Proof. intros. eapply neal2_run_completes0; eauto. Qed.

Lemma checks_iff : forall c,
  (checks c = Ok tt <-> well_formed c) /\ (~ well_formed c -> exists msg, checks c = Throw msg).
Proof.
  intros c. destruct (checks_cases c) as [[W E]|[W (msg & E)]]; rewrite E; split; try tauto; eauto.
  split; [discriminate|tauto].
Qed.

Lemma initialize_throws : forall (I : Iface) cfg data covs uhp hy mixinit k gen (uv0 : list (hier I)) r,
  ~ well_formed cfg ->
  exists msg, initialize cfg data covs uhp hy mixinit k gen uv0 r = Throw msg.
Proof.
  intros. destruct (checks_iff cfg) as [_ K]. destruct (K H) as (msg & E).
  exists msg. unfold initialize. rewrite E. reflexivity.
Qed.

Lemma drop_cluster : forall (I : Iface) c (a a' : alg I), remove_singleton c a = Ok a' ->
  length (a_uv a') = length (a_uv a) - 1 /\
  length (a_alloc a') = length (a_alloc a) /\
  (forall j l, nth_error (a_alloc a) j = Some l -> l <> c ->
     exists l', nth_error (a_alloc a') j = Some l' /\ nth_error (a_uv a') l' = nth_error (a_uv a) l) /\
  same_grouping (fun j => exists l, nth_error (a_alloc a) j = Some l /\ l <> c) (a_alloc a) (a_alloc a') /\
  ((forall l, l < length (a_uv a) -> l <> c -> exists j, nth_error (a_alloc a) j = Some l) ->
   (forall l', l' < length (a_uv a') -> exists j, nth_error (a_alloc a') j = Some l')).
Proof. intros I c a a' H. apply remove_singleton_spec in H. tauto. Qed.

Lemma drop_defined : forall (I : Iface) c (a : alg I), c < length (a_uv a) -> exists a', remove_singleton c a = Ok a'.
Proof. intros I c a H. unfold remove_singleton. rewrite erase_at_ok by auto. simpl. eauto. Qed.

Lemma neal2_single : forall (I : Iface) data covs (a : alg I) r,
  rows_ok I data (at_ covs) -> length data = 1 -> masses_ok I (a_mix a) 1 ->
  proper 1 (a_alloc a) (view (a_uv a)) -> caches_ok data covs (a_uv a) ->
  neal2_sample_allocations data covs (a, r) = UB.
Proof. intros. apply neal2_single0; auto. Qed.

Lemma neal3_single : forall (I : Iface) data covs (a : alg I) r,
  rows_ok I data (at_ covs) -> length data = 1 -> masses_ok I (a_mix a) 1 ->
  proper 1 (a_alloc a) (view (a_uv a)) -> caches_ok data covs (a_uv a) ->
  neal3_sample_allocations data covs (a, r) = UB.
Proof. intros. apply neal3_single0; auto. Qed.

Lemma neal2_redraw : forall (I : Iface) (L : laws I) data covs (P : Mix I -> Prop)
    hy0 m k gen h0 r steps a r' uv' r'',
  other_draw I = None ->
  rows_ok I data (at_ covs) -> 2 <= length data -> k <= length data ->
  (forall i, gen i < if k =? 0 then length data else k) ->
  h_saved h0 = false -> @mixing_safe I data P -> P m ->
  (s0 <- init_clusters data covs false hy0 m k gen [h0] r ;;
   iter (base_step (neal2_sample_allocations data covs) false) steps s0) = Ok (a, r') ->
  sample_unique_values false (a, r') = Ok (set_uv a uv', r'') ->
  length (filter (@h_saved I) (a_uv a)) <= 1 /\
  forall c h h', nth_error (a_uv a) c = Some h -> nth_error uv' c = Some h' ->
    exists r0 r1, prior_sample I
       (if h_saved h then hy0
        else post I (a_hyp a) (Z.of_nat (length (h_ids h))) (batch I data (at_ covs) (h_ids h)) (h_state h)) r0
       = (h_state h', r1).
Proof. intros. eapply neal2_redraw0; eauto. Qed.

Lemma neal8_redraw : forall (I : Iface) (L : laws I) data covs n_aux (P : Mix I -> Prop)
    hy0 m k gen h0 r steps a r' uv' r'',
  other_draw I = None ->
  rows_ok I data (at_ covs) -> 1 <= n_aux -> 1 <= length data -> k <= length data ->
  (forall i, gen i < if k =? 0 then length data else k) ->
  h_saved h0 = false -> @mixing_safe I data P -> P m ->
  ('(a0, r0) <- init_clusters data covs false hy0 m k gen [h0] r ;;
   a1 <- neal8_init_aux n_aux a0 ;;
   iter (base_step (neal8_sample_allocations data covs n_aux) false) steps (a1, r0)) = Ok (a, r') ->
  sample_unique_values false (a, r') = Ok (set_uv a uv', r'') ->
  length (filter (@h_saved I) (a_uv a)) <= 1 /\
  forall c h h', nth_error (a_uv a) c = Some h -> nth_error uv' c = Some h' ->
    exists r0 r1, prior_sample I
       (if h_saved h then hy0
        else post I (a_hyp a) (Z.of_nat (length (h_ids h))) (batch I data (at_ covs) (h_ids h)) (h_state h)) r0
       = (h_state h', r1).
Proof. intros. eapply neal8_redraw0 with (n_aux := n_aux); eauto; lia. Qed.

Lemma neal3_fresh : forall (I : Iface) (L : laws I) data covs (a : alg I) r k,
  conj I = true -> other_draw I = None ->
  rows_ok I data (at_ covs) -> 2 <= length data -> masses_ok I (a_mix a) (length data) ->
  proper (length data) (a_alloc a) (view (a_uv a)) -> caches_ok data covs (a_uv a) ->
  (forall h, In h (a_uv a) -> saved_matches data covs (a_hyp a) h) ->
  k <= length data ->
  exists ak rk, rfold (neal_step data covs true (neal3_lpdf data covs)) (seq 0 k) (a, r) = Ok (ak, rk) /\
    (forall h, In h (a_uv ak) -> saved_matches data covs (a_hyp a) h) /\
    (k < length data -> exists a1 d cv,
       unassign data true (at_ covs) k ak = Ok a1 /\ at_ data k = Ok d /\ at_ covs k = Ok cv /\
       neal3_lpdf data covs a1 k =
       Ok (map (fun h => marg_lpdf I (post I (a_hyp a) (Z.of_nat (length (h_ids h)))
                  (batch I data (at_ covs) (h_ids h)) (init_state I (a_hyp a))) d cv) (a_uv a1)
           ++ [marg_lpdf I (a_hyp a) d cv])).
Proof. intros. apply neal3_fresh0; auto. Qed.

Lemma neal3_init_fresh : forall (I : Iface) (L : laws I) data covs hy m k gen h0 r,
  conj I = true -> other_draw I = None ->
  rows_ok I data (at_ covs) -> 1 <= length data -> k <= length data ->
  (forall i, gen i < if k =? 0 then length data else k) ->
  (h_saved h0 = true -> h_ph h0 <> None) ->
  exists a r', init_clusters data covs true hy m k gen [h0] r = Ok (a, r') /\ a_hyp a = hy /\
    forall h, In h (a_uv a) -> saved_matches data covs hy h.
Proof. intros. apply neal3_init_fresh0; auto. Qed.

Lemma neal8_aux : forall (I : Iface) (L : laws I) data covs n_aux (a : alg I) r i a' r',
  rows_ok I data (at_ covs) -> 1 <= n_aux -> i < length data ->
  proper (length data) (a_alloc a) (view (a_uv a)) -> caches_ok data covs (a_uv a) ->
  length (a_aux a) = n_aux -> (forall h, In h (a_aux a) -> h_ids h = [] /\ h_stats h = stats0 I) ->
  neal8_step data covs n_aux (a, r) i = Ok (a', r') ->
  (forall j, j <> i -> j < length data -> param a' j = param a j) /\
  exists c h l' hn,
    nth_error (a_alloc a) i = Some c /\ nth_error (a_uv a) c = Some h /\
    nth_error (a_alloc a') i = Some l' /\ nth_error (a_uv a') l' = Some hn /\
    length (a_aux a') = n_aux /\
    (h_ids h = [i] ->
       option_map (@h_state I) (nth_error (a_aux a') 0) = Some (h_state h) /\
       (forall j, 1 <= j < n_aux -> exists x, nth_error (a_aux a') j = Some x /\ prior_draw I (a_hyp a) (h_state x))) /\
    (h_ids h <> [i] ->
       forall j, j < n_aux -> exists x, nth_error (a_aux a') j = Some x /\ prior_draw I (a_hyp a) (h_state x)) /\
    (h_ids hn = [i] -> exists j x, nth_error (a_aux a') j = Some x /\ h_state hn = h_state x).
Proof. intros. eapply neal8_aux0; eauto. Qed.
