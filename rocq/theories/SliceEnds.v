(** * Ends of runs of the slice sampler: proofs. *)
From Coq Require Import String.
From Coq Require Import Bool List Arith ZArith Reals Lra Lia.
From Verif Require Import Base Hier Algos Run Spec MargFacts NealFacts MargMore InitFacts MargProps ValidRun.
From Verif Require Import PartSpec XReal Stick SliceFacts StickFacts Cond CondFacts CondProps UnivInst UnivRun CondInst CondRun CondStick SliceInst SliceRun.
Import ListNotations.
Local Open Scope R_scope.

Section Ends.
  Variable I : Iface.
  Variable L : laws I.
  Variable data : list (Datum I).
  Local Notation n := (length data).
  Local Notation covs := (repeat (cov0 I) n).
  Hypothesis Hrows : rows_ok I data (at_ covs).
  Hypothesis Hn : (1 <= n)%nat.
  Variable bet : R -> R -> Rng I -> R * Rng I.
  Variable unif01 : R -> Rng I -> R * Rng I.
  Variables tiny junk : R.
  Hypothesis Hb : beta_ok bet.
  Hypothesis Hu : forall w r, 0 < w -> 0 <= fst (unif01 w r) < w.
  Hypothesis Ht : 0 < tiny.
  Local Notation J := (slice_iface I).
  Local Notation LJ := (with_mixing_laws I unit (fun _ _ => []) (fun m _ _ r => Ok (m, r)) L).
  Local Notation SInv := (@SInv J data covs numR).

  Lemma rest_snoc : forall l v, rest (l ++ [v]) = rest l * (1 - v).
  Proof. intros l v. unfold rest, StickFacts.prodR. rewrite map_app, fold_right_app. cbn [map fold_right]. induction (map (fun v => 1 - v) l) as [|x k IH]; cbn [fold_right]; [lra|]. rewrite IH. lra. Qed.

  (** ** The loop of the weights *)
  Lemma break_loop_ends : forall eps, 0 <= eps <= 1 -> (forall a b r, 0 < a -> 0 < b -> eps <= fst (bet a b r)) ->
    forall fuel bound (m : sb numR) r, sb_ok m -> bound < 1 -> 0 <= rest (sb_sticks m) ->
    rest (sb_sticks m) * (1 - eps) ^ fuel < 1 - bound ->
    break_loop (I:=J) (K:=numR) bet junk fuel bound (nsum numR (sb_w m)) m r <> None.
  Proof.
    intros eps He Hlow. induction fuel as [|f IH]; intros bound m r Hm Hbd R0 Hr; cbn [break_loop];
      (destruct (nleb numR (nsum numR (sb_w m)) bound) eqn:E; [|discriminate]);
      apply leb_R in E; rewrite nsum_sumR in E; pose proof Hm as (_ & B & _); rewrite B, weights_sum in E; cbn [n1 numR] in E.
    - exfalso. cbn in Hr. lra.
    - match goal with |- (let '(_, _) := ?t in _) <> _ => destruct t as [m1 y] eqn:Ek end. apply keep_breaking1_ok in Ek; [|exact Hm].
      destruct Ek as [(e & ->)|(dw & q & v & -> & Hm' & _ & Es & _ & _ & Edw & _ & a & b & r0 & _ & Ea & Eb & Ev)]; [discriminate|].
      rewrite Edw. change (nadd numR (nsum numR (sb_w m)) (nsub numR (nsum numR (sb_w m1)) (nsum numR (sb_w m)))) with (nsum numR (sb_w m) + (nsum numR (sb_w m1) - nsum numR (sb_w m))).
      replace (nsum numR (sb_w m) + (nsum numR (sb_w m1) - nsum numR (sb_w m))) with (nsum numR (sb_w m1)) by lra.
      apply ltb_R in Ea. apply ltb_R in Eb. pose proof (Hb a b r Ea Eb) as Q1. pose proof (Hlow a b r Ea Eb) as Q2. rewrite Ev in Q1, Q2. cbn [fst] in Q1, Q2.
      apply IH; [exact Hm'|exact Hbd| |]; rewrite Es, rest_snoc.
      + apply Rmult_le_pos; lra.
      + eapply Rle_lt_trans; [|exact Hr]. cbn [pow]. rewrite Rmult_assoc. apply Rmult_le_compat_l; [exact R0|].
        apply Rmult_le_compat_r; [apply pow_le; lra|lra].
  Qed.

  Lemma rest_unit : forall l, Forall (fun v => 0 <= v <= 1) l -> 0 <= rest l <= 1.
  Proof.
    induction 1 as [|v l Hv _ IH]; [unfold rest; cbn; lra|]. change (rest (v :: l)) with ((1 - v) * rest l). split; [apply Rmult_le_pos; lra|].
    rewrite <- (Rmult_1_r 1) at 2. apply Rmult_le_compat; lra.
  Qed.

  Lemma weights_end : forall eps fuel (s : slicer J numR) r, 0 <= eps <= 1 -> (forall a b r, 0 < a -> 0 < b -> eps <= fst (bet a b r)) ->
    (1 - eps) ^ fuel < tiny -> SInv s -> open_prior (sb_prior (s_mix s)) -> Forall (fun u => tiny <= u) (s_u s) ->
    slice_sample_weights (I:=J) (K:=numR) bet junk fuel s r <> None.
  Proof.
    intros eps fuel s r He Hlow Hf (C & Hm & Hl & Hlu) Hop Fu E.
    unfold slice_sample_weights in E. destruct (slice_new_sticks (I:=J) (K:=numR) bet junk fuel s r) as [[[m q]| | |]|] eqn:En; try discriminate. clear E. unfold slice_new_sticks in En.
    assert (Hc : map (@h_card J) (a_uv (s_alg s)) = map Z.of_nat (map (fun h => length (h_ids h)) (a_uv (s_alg s)))).
    { rewrite map_map. apply map_ext_in. intros h Hh. apply In_nth_error in Hh. destruct Hh as (c & Hc). destruct C as [_ [_ H2]].
      destruct (H2 c h Hc) as (([_ [K _]] & _) & _). exact K. }
    rewrite Hc in En.
    assert (Pg : prior_good (sb_prior (s_mix s)) (sb_nc (s_mix s))) by (destruct (sb_prior (s_mix s)); cbn in *; tauto).
    assert (P1 : (1 <= sb_nc (s_mix s))%nat). { pose proof (@CInv_uv_pos J data covs Hn _ C). rewrite Hl in H. lia. }
    destruct (sb_update_good J data Hn bet Hb (sb_prior (s_mix s)) (sb_inf (s_mix s)) (sb_nc (s_mix s)) (s_mix s) (map (fun h => length (h_ids h)) (a_uv (s_alg s))) r)
      as (m1 & r1 & E1 & S1 & (_ & F1 & F2)); [split; auto|exact Pg|exact P1|now rewrite map_length|].
    rewrite E1 in En.
    destruct (a_alloc (s_alg s)) as [|c0 al]; [discriminate|]. destruct (s_u s) as [|u0 us]; [discriminate|]. cbv zeta in En.
    destruct (S (fold_left Nat.max al c0) <=? length (sb_sticks m1))%nat eqn:Ele; [|discriminate]. apply Nat.leb_le in Ele.
    revert En. destruct (fold_nmin us u0) as (_ & _ & M). rewrite Forall_forall in Fu. specialize (Fu _ M).
    assert (F3 : Forall (fun v => 0 <= v <= 1) (firstn (S (fold_left Nat.max al c0)) (sb_sticks m1))).
    { apply Forall_forall. intros v Hv. apply in_firstn in Hv. rewrite Forall_forall in F1. specialize (F1 v Hv). cbn beta in F1. lra. }
    apply rest_unit in F3.
    apply (break_loop_ends eps He Hlow).
    - apply set_sticks_ok; [apply S1|]. destruct S1 as ((A & _) & _). lia.
    - cbn. cbn in Fu. lra.
    - exact (proj1 F3).
    - change (rest (firstn (S (fold_left Nat.max al c0)) (sb_sticks m1)) * (1 - eps) ^ fuel < 1 - (1 - fold_left (nmin numR) us u0)).
      apply Rle_lt_trans with (1 * (1 - eps) ^ fuel); [apply Rmult_le_compat_r; [apply pow_le; lra|lra]|].
      rewrite Rmult_1_l. apply Rlt_le_trans with tiny; [exact Hf|]. replace (1 - (1 - fold_left (nmin numR) us u0)) with (fold_left (nmin numR) us u0 : R) by (cbn; ring). exact Fu.
  Qed.

  (** Slices are at least [tiny]. *)
  Lemma slice_tiny : forall (s : slicer J numR) r s' r', sample_slice (I:=J) data (K:=numR) unif01 tiny s r = Ok (s', r') -> Forall (fun u => tiny <= u) (s_u s').
  Proof.
    intros s r s' r' E. unfold sample_slice in E. apply rbind_ok in E. destruct E as ([us q] & E & E2). injection E2 as <- <-. cbn [s_u].
    assert (X : forall l us0 r0, Forall (fun u => tiny <= u) us0 -> rfold (slice_one (I:=J) (K:=numR) unif01 tiny (sb_w (s_mix s)) (a_alloc (s_alg s))) l (us0, r0) = Ok (us, q) -> Forall (fun u => tiny <= u) us).
    { clear E. induction l as [|i l IH]; intros us0 r0 F E; cbn [rfold] in E; [injection E as <- <-; exact F|].
      apply rbind_ok in E. destruct E as ([us1 r1] & E1 & E). eapply IH; [|exact E]. unfold slice_one in E1.
      apply rbind_ok in E1. destruct E1 as (c & _ & E1). apply rbind_ok in E1. destruct E1 as (w & _ & E1).
      destruct (nltb numR (n0 numR) w); [|discriminate]. destruct (unif01 w r0) as [u r2]. injection E1 as <- <-. apply Forall_app. split; [exact F|].
      constructor; [|constructor]. rewrite nmax_R. apply Rmax_l. }
    eapply X; [|exact E]. constructor.
  Qed.

  Definition sready (s : slicer J numR) : Prop := SInv s /\ open_prior (sb_prior (s_mix s)) /\ Forall (fun u => tiny <= u) (s_u s).

  (** Outcomes of a step. *)
  Lemma step_outcome : forall eps fuel (s : slicer J numR) r, 0 <= eps <= 1 -> (forall a b r, 0 < a -> 0 < b -> eps <= fst (bet a b r)) ->
    (1 - eps) ^ fuel < tiny -> sready s ->
    (exists s' r', slice_step (I:=J) data covs (K:=numR) bet unif01 tiny junk fuel s r = Some (Ok (s', r')) /\ sready s') \/
    (exists e, slice_step (I:=J) data covs (K:=numR) bet unif01 tiny junk fuel s r = Some (Throw e)).
  Proof.
    intros eps fuel s r He Hlow Hf (S0 & Hop & Fu).
    pose proof (@slice_step_safe J LJ data covs Hrows Hn numR bet unif01 tiny junk fuel s r S0) as W.
    destruct (slice_step (I:=J) data covs (K:=numR) bet unif01 tiny junk fuel s r) as [[[s' r']|e| |]|] eqn:E; try (exfalso; exact W); [left|right|exfalso].
    - exists s', r'. split; [reflexivity|]. cbn [osafe safe fst] in W. split; [apply W|].
      unfold slice_step in E. destruct (@SInv_suv J LJ data covs numR s r S0) as (a & r1 & E1 & S1 & _). rewrite E1 in E.
      pose proof (@slice_weights_safe J data covs Hn numR bet junk fuel _ r1 S1) as Z.
      destruct (slice_sample_weights (I:=J) (K:=numR) bet junk fuel (mkSlice a (s_mix s) (s_u s)) r1) as [[[s2 r2]| | |]|] eqn:Ew; try discriminate. injection E as E.
      cbn [osafe safe fst] in Z. destruct Z as (S2 & _).
      assert (Mp : sb_prior (s_mix s2) = sb_prior (s_mix s)).
      { unfold slice_sample_weights in Ew. pose proof (@slice_new_sticks_safe J data covs Hn numR bet junk fuel _ r1 S1) as Y.
        destruct (slice_new_sticks (I:=J) (K:=numR) bet junk fuel (mkSlice a (s_mix s) (s_u s)) r1) as [[[m q]| | |]|]; try discriminate. cbn [osafe safe fst] in Y. destruct Y as (_ & Y1 & _).
        injection Ew as Ew. apply rbind_ok in Ew. destruct Ew as ([uv q'] & _ & Ew). injection Ew as <- <-. exact Y1. }
      apply rbind_ok in E. destruct E as ([s3 r3] & E3 & E4). destruct S2 as (C2 & M2 & L2 & U2).
      pose proof (@sample_slice_safe J data covs Hn numR unif01 tiny s2 r2 C2 M2 L2) as Y. rewrite E3 in Y. cbn [safe fst] in Y. destruct Y as (_ & Em & S3 & _).
      pose proof (slice_tiny _ _ _ _ E3) as T3.
      pose proof (@slice_alloc_safe J LJ data covs Hrows Hn numR bet unif01 tiny s3 r3 S3) as Y. rewrite E4 in Y. cbn [safe fst] in Y. destruct Y as (_ & M4 & U4 & _).
      rewrite M4, Em, Mp, U4. auto.
    - exists e. reflexivity.
    - unfold slice_step in E. destruct (@SInv_suv J LJ data covs numR s r S0) as (a & r1 & E1 & S1 & _). rewrite E1 in E.
      destruct (slice_sample_weights (I:=J) (K:=numR) bet junk fuel (mkSlice a (s_mix s) (s_u s)) r1) as [[[s2 r2]| | |]|] eqn:Ew; try discriminate.
      exact (weights_end eps fuel _ r1 He Hlow Hf S1 Hop Fu Ew).
  Qed.

  Lemma saved_state : forall it (s : slicer J numR), SInv s -> exists snap, get_state it (s_alg s) = Ok snap.
  Proof.
    intros it s (C & _). pose proof (@CInv_uv_pos J data covs Hn _ C) as P. unfold get_state. destruct (a_uv (s_alg s)) as [|h uv]; [cbn in P; lia|]. cbn. eexists. reflexivity.
  Qed.

  Lemma loop_outcome : forall eps fuel burnin, 0 <= eps <= 1 -> (forall a b r, 0 < a -> 0 < b -> eps <= fst (bet a b r)) -> (1 - eps) ^ fuel < tiny ->
    forall k it (s : slicer J numR) r out, sready s ->
    (exists x, slice_loop I data bet unif01 tiny junk fuel burnin k it s r out = Some (Ok x)) \/
    (exists e, slice_loop I data bet unif01 tiny junk fuel burnin k it s r out = Some (Throw e)).
  Proof.
    intros eps fuel burnin He Hlow Hf. induction k as [|k IH]; intros it s r out Hs; cbn [slice_loop]; [left; eexists; reflexivity|].
    destruct (step_outcome eps fuel s r He Hlow Hf Hs) as [(s' & r' & E & Hs')|(e & E)]; rewrite E; [|right; eexists; reflexivity].
    destruct (burnin <=? it)%nat; [|apply IH; exact Hs']. destruct (saved_state it s' (proj1 Hs')) as (snap & Eg). rewrite Eg. apply IH. exact Hs'.
  Qed.

  Lemma init_ready : forall p inf nc (m : sb numR) hy pos st r, sb_init p inf nc = Ok m -> open_prior p -> (1 <= nc <= n)%nat -> (forall i, (pos i < nc)%nat) ->
    (exists s r', slice_initialize (I:=J) data covs (K:=numR) unif01 tiny hy tt m pos [mkHier J [] 0%Z (stats0 I) st false None] r = Ok (s, r') /\ sready s /\ s_mix s = m /\
       (forall c, In c (a_alloc (s_alg s)) -> (c < nc)%nat)).
  Proof.
    intros p inf nc m hy pos st r Em Hop Hnc Hpos. destruct (sb_init_spec _ _ _ Em) as (A & B & C & D & Dw).
    assert (Hnc' : (1 <= sb_nc m <= n)%nat) by (rewrite D; exact Hnc). assert (Hpos' : forall i, (pos i < sb_nc m)%nat) by (rewrite D; exact Hpos).
    unfold slice_initialize.
    destruct (@blocked_init J LJ data covs Hrows hy tt (sb_nc m) pos (mkHier J [] 0%Z (stats0 I) st false None) r Hnc' Hpos' eq_refl) as (a & r1 & E & Hc & Hk & Hl & _).
    rewrite E. cbn [rbind].
    assert (CA : CInv (I:=J) data covs a) by (apply CInv_iff; auto).
    assert (SA : SInv (mkSlice a m (repeat 0 n))) by (split; [exact CA|]; split; [exact A|]; split; [exact Hl|apply repeat_length]).
    assert (G : sticks_good (sb_sticks m)).
    { destruct Dw as (sh & F & ->).
      assert (Fp : Forall (fun q : R * R => 0 < fst q / (fst q + snd q) < 1) sh).
      { clear -F Hop B Hn. rewrite <- B in Hop. revert F. generalize (seq 0 nc) as l. induction l as [|i l IH] in sh |- *; intro F; inversion F; subst; constructor; [|eauto].
        destruct (@open_params I data Hn m i Hop) as (a & b & Eg & Ha & Hb'). rewrite Eg in H1. injection H1 as <-. cbn.
        split; [apply Rdiv_lt_0_compat; lra|]. apply (Rmult_lt_reg_r (a + b)); [lra|]. unfold Rdiv. rewrite Rmult_assoc, Rinv_l by lra. lra. }
      split.
      - apply Forall_forall. intros v Hv. apply in_map_iff in Hv. destruct Hv as (q & <- & Hq). rewrite Forall_forall in Fp. specialize (Fp q Hq). lra.
      - apply Forall_forall. intros v Hv. apply In_removelast in Hv. apply in_map_iff in Hv. destruct Hv as (q & <- & Hq). rewrite Forall_forall in Fp. specialize (Fp q Hq). lra. }
    assert (W : Forall (fun w => 0 < w) (sb_w m)).
    { destruct A as (_ & A2 & _). rewrite A2. apply sticks_good_weights; [cbn; lra|exact G]. }
    destruct (@slice_alloc_open J LJ data covs Hrows Hn bet unif01 tiny junk Hu (mkSlice a m (repeat 0 n)) r1 SA W) as (s3 & r3 & E3 & S3 & A3 & M3 & _).
    change (sample_slice (I:=J) data (K:=numR) unif01 tiny (mkSlice a m (repeat 0 n)) r1) with (sample_slice (I:=J) data (K:=numR) unif01 tiny (mkSlice a m []) r1) in E3.
    exists s3, r3. split; [exact E3|]. split; [|split; [exact M3|]].
    - split; [exact S3|]. rewrite M3. split; [cbn [s_mix]; rewrite B; exact Hop|]. eapply slice_tiny. exact E3.
    - rewrite A3. cbn [s_alg]. intros c Hc'. destruct CA as [_ [H1 _]]. apply In_nth_error in Hc'. destruct Hc' as (i & Hi). pose proof (proj2 (H1 i c Hi)) as Q. rewrite Hl, D in Q. exact Q.
  Qed.

  (** The program. *)
  Theorem slice_outcome : forall eps p inf nc (m : sb numR) hy pos st fuel maxiter burnin r,
    0 <= eps <= 1 -> (forall a b r, 0 < a -> 0 < b -> eps <= fst (bet a b r)) -> (1 - eps) ^ fuel < tiny ->
    sb_init p inf nc = Ok m -> open_prior p -> (1 <= nc <= n)%nat -> (forall i, (pos i < nc)%nat) ->
    (exists x, slice_run I (Ok hy) (Ok m) data pos st bet unif01 tiny junk fuel maxiter burnin r = Some (Ok x)) \/
    (exists e, slice_run I (Ok hy) (Ok m) data pos st bet unif01 tiny junk fuel maxiter burnin r = Some (Throw e)).
  Proof.
    intros eps p inf nc m hy pos st fuel maxiter burnin r He Hlow Hf Em Hop Hnc Hpos. unfold slice_run. cbn [rbind].
    destruct (init_ready p inf nc m hy pos st r Em Hop Hnc Hpos) as (s & r' & E & Hs & _ & _). rewrite E. apply (loop_outcome eps); auto.
  Qed.

  (** ** Draws that all satisfy a predicate *)
  Lemma drawn_all : forall (P : R -> Prop) sh vs r r', (forall a b q, 0 < a -> 0 < b -> P (fst (bet a b q))) -> @drawn (Rng I) bet sh vs r r' -> Forall P vs.
  Proof.
    intros P. induction sh as [|[a b] sh IH]; intros [|v vs] r r' H D; cbn in D; try contradiction; constructor.
    - destruct D as (Ha & Hb' & r1 & E & _). specialize (H a b r Ha Hb'). now rewrite E in H.
    - destruct D as (_ & _ & r1 & _ & D). eapply IH; eauto.
  Qed.

  Lemma break_loop_all : forall (P : R -> Prop) fuel bound sw (m : sb numR) r m' r', (forall a b q, 0 < a -> 0 < b -> P (fst (bet a b q))) ->
    sb_ok m -> Forall P (sb_sticks m) ->
    break_loop (I:=J) (K:=numR) bet junk fuel bound sw m r = Some (Ok (m', r')) -> Forall P (sb_sticks m').
  Proof.
    intros P. induction fuel as [|f IH]; intros bound sw m r m' r' HP Hm F E; cbn [break_loop] in E.
    - destruct (nleb numR sw bound); [discriminate|]. injection E as <- <-. exact F.
    - destruct (nleb numR sw bound); [|injection E as <- <-; exact F].
      match type of E with match ?t with _ => _ end = _ => destruct t as [m1 y] eqn:Ek end. apply keep_breaking1_ok in Ek; [|exact Hm].
      destruct Ek as [(e & Ey)|(dw & q & v & Ey & Hm' & _ & Es & _ & _ & _ & _ & a & b & r0 & _ & Ea & Eb & Ev)]; subst y; [discriminate|].
      eapply IH; [exact HP|exact Hm'| |exact E]. rewrite Es. apply Forall_app. split; [exact F|]. constructor; [|constructor].
      apply ltb_R in Ea. apply ltb_R in Eb. pose proof (HP a b r Ea Eb) as Q. rewrite Ev in Q. apply Q.
  Qed.

  (** Sticks after the step are draws, or the 1 closing a finite mixing. *)
  Lemma weights_all : forall (P : R -> Prop) fuel (s : slicer J numR) r s2 r2, (forall a b q, 0 < a -> 0 < b -> P (fst (bet a b q))) ->
    (sb_inf (s_mix s) = false -> P 1) -> SInv s -> open_prior (sb_prior (s_mix s)) ->
    slice_sample_weights (I:=J) (K:=numR) bet junk fuel s r = Some (Ok (s2, r2)) -> Forall P (sb_sticks (s_mix s2)).
  Proof.
    intros P fuel s r s2 r2 HP HP1 (C & Hm & Hl & Hlu) Hop E. unfold slice_sample_weights in E.
    destruct (slice_new_sticks (I:=J) (K:=numR) bet junk fuel s r) as [[[m q]| | |]|] eqn:En; try discriminate. injection E as E. apply rbind_ok in E. destruct E as ([uv q'] & _ & E). injection E as <- <-.
    cbn [s_mix]. unfold slice_new_sticks in En.
    assert (Hc : map (@h_card J) (a_uv (s_alg s)) = map Z.of_nat (map (fun h => length (h_ids h)) (a_uv (s_alg s)))).
    { rewrite map_map. apply map_ext_in. intros h Hh. apply In_nth_error in Hh. destruct Hh as (c & Hc). destruct C as [_ [_ H2]].
      destruct (H2 c h Hc) as (([_ [K _]] & _) & _). exact K. }
    rewrite Hc in En.
    assert (P1 : (1 <= sb_nc (s_mix s))%nat). { pose proof (@CInv_uv_pos J data covs Hn _ C). rewrite Hl in H. lia. }
    pose proof (@sb_update_safe numR _ bet (s_mix s) (map Z.of_nat (map (fun h => length (h_ids h)) (a_uv (s_alg s)))) r Hm P1) as U.
    rewrite !map_length in U. specialize (U Hl).
    match type of En with match ?t with _ => _ end = _ => destruct t as [[m1 r1]| | |] eqn:E1 end; try discriminate.
    change (Rng I) with (Rng J) in U. rewrite E1 in U. cbn [safe fst] in U. destruct U as (Hm1 & Nc1 & _).
    apply (@sb_update_spec (Rng I) bet) in E1; [|exact Hm|exact P1|now rewrite map_length].
    destruct E1 as (sh & vs & _ & _ & Lv & D & Es & _). apply (drawn_all P) in D; [|exact HP].
    assert (F : Forall P (sb_sticks m1)).
    { rewrite Es. destruct (sb_inf (s_mix s)) eqn:Ei; [exact D|]. apply Forall_forall. intros v Hv. apply In_upd in Hv. destruct Hv as [->|Hv]; [auto|]. rewrite Forall_forall in D. auto. }
    destruct (a_alloc (s_alg s)) as [|c0 al]; [discriminate|]. destruct (s_u s) as [|u0 us]; [discriminate|]. cbv zeta in En.
    destruct (S (fold_left Nat.max al c0) <=? length (sb_sticks m1))%nat eqn:Ele; [|discriminate]. apply Nat.leb_le in Ele.
    eapply break_loop_all; [exact HP| | |exact En].
    - apply set_sticks_ok; [exact Hm1|]. destruct Hm1 as (A & _). lia.
    - cbn [set_sticks sb_sticks]. apply Forall_forall. intros v Hv. apply in_firstn in Hv. rewrite Forall_forall in F. auto.
  Qed.

  Lemma sumw_first : forall (m : sb numR), sb_ok m -> (1 <= sb_nc m)%nat -> exists v l, sb_sticks m = v :: l /\ nth_error (sb_w m) 0 = Some v.
  Proof.
    intros m (A & B & _) H. destruct (sb_sticks m) as [|v l]; [cbn in A; lia|]. exists v, l. split; [reflexivity|]. rewrite B. cbn. f_equal. ring.
  Qed.

  (** Draws above [tiny]: the first weight is above every unusable slice. *)
  Lemma step_goes : forall eps fuel (s : slicer J numR) r, tiny < eps <= 1 -> (forall a b r, 0 < a -> 0 < b -> eps <= fst (bet a b r)) ->
    (1 - eps) ^ fuel < tiny -> sready s ->
    exists s' r', slice_step (I:=J) data covs (K:=numR) bet unif01 tiny junk fuel s r = Some (Ok (s', r')) /\ sready s'.
  Proof.
    intros eps fuel s r He Hlow Hf Hs. destruct (step_outcome eps fuel s r ltac:(lra) Hlow Hf Hs) as [H|(e & E)]; [exact H|exfalso].
    destruct Hs as (S0 & Hop & Fu). unfold slice_step in E. destruct (@SInv_suv J LJ data covs numR s r S0) as (a & r1 & E1 & S1 & _). rewrite E1 in E.
    assert (Pu : Forall (fun u => 0 < u) (s_u s)) by (eapply Forall_impl; [|exact Fu]; cbn; intros; lra).
    destruct (slice_sample_weights (I:=J) (K:=numR) bet junk fuel (mkSlice a (s_mix s) (s_u s)) r1) as [y|] eqn:Ew; [|discriminate].
    destruct (@weights_step_open J data covs Hn bet junk Hb fuel (mkSlice a (s_mix s) (s_u s)) r1 y S1 Hop Pu Ew) as (s2 & r2 & -> & S2 & _ & W2 & _). injection E as E.
    destruct (@slice_alloc_open J LJ data covs Hrows Hn bet unif01 tiny junk Hu s2 r2 S2 W2) as (s3 & r3 & E3 & S3 & A3 & M3 & _ & _).
    rewrite E3 in E. cbn [rbind] in E.
    pose proof S2 as (C2 & O2 & L2 & _).
    pose proof (@sample_slice_safe J data covs Hn numR unif01 tiny s2 r2 C2 O2 L2) as Y. rewrite E3 in Y. cbn [safe fst] in Y. destruct Y as (_ & _ & _ & Y).
    assert (X : exists s' r', slice_sample_allocations (I:=J) data covs s3 r3 = Ok (s', r')).
    { apply (@slice_alloc_ok_iff J LJ data covs Hrows Hn numR bet unif01 tiny s3 r3 S3). intros i Hi.
      pose proof (proj1 C2) as Hl. destruct (at_ok (a_alloc (s_alg s2)) (i:=i)) as (c & _ & Ec); [rewrite Hl; exact Hi|].
      destruct (Y i c Ec) as (w & u & q0 & q1 & Ew' & Pw & Eu & En). rewrite nmax_R in En.
      apply ltb_R in Pw. pose proof (Hu w q0 Pw) as Bu. rewrite Eu in Bu. cbn [fst] in Bu.
      destruct (Rlt_dec tiny w) as [Hw|Hw].
      - exists c, w, (Rmax tiny u). rewrite M3. split; [exact Ew'|]. split; [exact En|]. apply ltb_R. apply Rmax_lub_lt; lra.
      - assert (P1 : (1 <= sb_nc (s_mix s2))%nat). { pose proof (@CInv_uv_pos J data covs Hn (s_alg s2) C2) as Z. rewrite L2 in Z. lia. }
        destruct (sumw_first (s_mix s2) O2 P1) as (v & l & Ev & Ev2).
        pose proof (weights_all (fun v => eps <= v) fuel (mkSlice a (s_mix s) (s_u s)) r1 s2 r2 Hlow ltac:(intros _; lra) S1 Hop Ew) as F. rewrite Ev in F. apply Forall_inv in F.
        exists 0%nat, v, (Rmax tiny u). rewrite M3. split; [exact Ev2|]. split; [exact En|]. apply ltb_R. apply Rmax_lub_lt; [lra|]. apply Rnot_lt_le in Hw. lra. }
    destruct X as (s' & r' & X). rewrite X in E. discriminate.
  Qed.

  Lemma loop_goes : forall eps fuel burnin, tiny < eps <= 1 -> (forall a b r, 0 < a -> 0 < b -> eps <= fst (bet a b r)) -> (1 - eps) ^ fuel < tiny ->
    forall k it (s : slicer J numR) r out, sready s -> exists s' out', slice_loop I data bet unif01 tiny junk fuel burnin k it s r out = Some (Ok (s', out')).
  Proof.
    intros eps fuel burnin He Hlow Hf. induction k as [|k IH]; intros it s r out Hs; cbn [slice_loop]; [do 2 eexists; reflexivity|].
    destruct (step_goes eps fuel s r He Hlow Hf Hs) as (s' & r' & E & Hs'). rewrite E.
    destruct (burnin <=? it)%nat; [|apply IH; exact Hs']. destruct (saved_state it s' (proj1 Hs')) as (snap & Eg). rewrite Eg. apply IH. exact Hs'.
  Qed.

  Theorem slice_goes : forall eps p inf nc (m : sb numR) hy pos st fuel maxiter burnin r,
    tiny < eps <= 1 -> (forall a b r, 0 < a -> 0 < b -> eps <= fst (bet a b r)) -> (1 - eps) ^ fuel < tiny ->
    sb_init p inf nc = Ok m -> open_prior p -> (1 <= nc <= n)%nat -> (forall i, (pos i < nc)%nat) ->
    exists s out, slice_run I (Ok hy) (Ok m) data pos st bet unif01 tiny junk fuel maxiter burnin r = Some (Ok (s, out)).
  Proof.
    intros eps p inf nc m hy pos st fuel maxiter burnin r He Hlow Hf Em Hop Hnc Hpos. unfold slice_run. cbn [rbind].
    destruct (init_ready p inf nc m hy pos st r Em Hop Hnc Hpos) as (s & r' & E & Hs & _ & _). rewrite E. apply (loop_goes eps); auto.
  Qed.

  (** Draws of at most [tiny] in an infinite mixing: no component can be chosen. *)
  Theorem slice_throws : forall eps p nc (m : sb numR) hy pos st fuel maxiter burnin r,
    0 <= eps <= 1 -> (forall a b r, 0 < a -> 0 < b -> eps <= fst (bet a b r) <= tiny) -> (1 - eps) ^ fuel < tiny ->
    sb_init p true nc = Ok m -> open_prior p -> (1 <= nc <= n)%nat -> (forall i, (pos i < nc)%nat) -> (1 <= maxiter)%nat ->
    exists e, slice_run I (Ok hy) (Ok m) data pos st bet unif01 tiny junk fuel maxiter burnin r = Some (Throw e).
  Proof.
    intros eps p nc m hy pos st fuel maxiter burnin r He Hlow Hf Em Hop Hnc Hpos Hk. unfold slice_run. cbn [rbind].
    destruct (init_ready p true nc m hy pos st r Em Hop Hnc Hpos) as (s & r' & E & Hs & Mx & _). rewrite E. destruct maxiter as [|k]; [lia|]. cbn [slice_loop].
    destruct (step_outcome eps fuel s r' He (fun a b q A B => proj1 (Hlow a b q A B)) Hf Hs) as [(s' & q & Es & _)|(e & Es)]; rewrite Es; [exfalso|eexists; reflexivity].
    destruct Hs as (S0 & Hop' & Fu). assert (Pu : Forall (fun u => 0 < u) (s_u s)) by (eapply Forall_impl; [|exact Fu]; cbn; intros; lra).
    unfold slice_step in Es. destruct (@SInv_suv J LJ data covs numR s r' S0) as (a & r1 & E1 & S1 & _). rewrite E1 in Es.
    destruct (slice_sample_weights (I:=J) (K:=numR) bet junk fuel (mkSlice a (s_mix s) (s_u s)) r1) as [y|] eqn:Ew; [|discriminate].
    destruct (@weights_step_open J data covs Hn bet junk Hb fuel (mkSlice a (s_mix s) (s_u s)) r1 y S1 Hop' Pu Ew) as (s2 & r2 & -> & S2 & _ & W2 & _). injection Es as Es.
    apply rbind_ok in Es. destruct Es as ([s3 r3] & E3 & E4). pose proof S2 as (C2 & O2 & L2 & _).
    pose proof (@sample_slice_safe J data covs Hn numR unif01 tiny s2 r2 C2 O2 L2) as Y. rewrite E3 in Y. cbn [safe fst] in Y. destruct Y as (_ & M3 & S3 & _).
    pose proof (proj1 (@slice_alloc_ok_iff J LJ data covs Hrows Hn numR bet unif01 tiny s3 r3 S3) (ex_intro _ s' (ex_intro _ q E4)) 0%nat Hn) as (j & w & u & Hw & Hu0 & Hlt).
    apply ltb_R in Hlt. pose proof (slice_tiny _ _ _ _ E3) as T3. rewrite Forall_forall in T3. pose proof (T3 u (nth_error_In _ _ Hu0)) as T.
    assert (Fi : sb_inf (s_mix s) = true) by (rewrite Mx; apply (sb_init_spec _ _ _ Em)).
    pose proof (weights_all (fun v => v <= tiny) fuel (mkSlice a (s_mix s) (s_u s)) r1 s2 r2 (fun a b q A B => proj2 (Hlow a b q A B)) ltac:(cbn; rewrite Fi; discriminate) S1 Hop' Ew) as F1.
    pose proof (weights_all (fun v => 0 <= v <= 1) fuel (mkSlice a (s_mix s) (s_u s)) r1 s2 r2 ltac:(intros a' b' q' A' B'; pose proof (Hb a' b' q' A' B'); lra) ltac:(cbn; rewrite Fi; discriminate) S1 Hop' Ew) as F2.
    rewrite M3 in Hw. destruct O2 as (O1 & O2 & _). rewrite O2 in Hw.
    assert (X : forall (l : list R) x j w, 0 <= x <= 1 -> Forall (fun v => v <= tiny) l -> Forall (fun v => 0 <= v <= 1) l -> nth_error (wgo x l) j = Some w -> w <= tiny).
    { clear. induction l as [|v l IH]; intros x j w Hx A B H; destruct j; cbn in H; try discriminate.
      - injection H as <-. apply Forall_inv in A. apply Forall_inv in B. apply Rle_trans with v; [|exact A]. rewrite <- (Rmult_1_r v) at 2. apply Rmult_le_compat_l; lra.
      - pose proof (Forall_inv B) as Bv. cbn beta in Bv. eapply IH; [|exact (Forall_inv_tail A)|exact (Forall_inv_tail B)|exact H]. split; [apply Rmult_le_pos; lra|].
        rewrite <- (Rmult_1_r 1) at 2. apply Rmult_le_compat; lra. }
    assert (Q : w <= tiny) by (eapply (X (sb_sticks (s_mix s2)) 1); [lra|exact F1|exact F2|exact Hw]). cbn in *. lra.
  Qed.
End Ends.
