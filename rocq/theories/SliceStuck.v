(** * Stick lengths whose sum converges: the slice sampler never leaves its loop. *)
From Coq Require Import String.
From Coq Require Import Bool List Arith ZArith Reals Lra Lia.
From Verif Require Import Base Hier Algos Run Spec MargFacts NealFacts MargMore InitFacts MargProps ValidRun.
From Verif Require Import PartSpec XReal Stick SliceFacts StickFacts Cond CondFacts CondProps UnivInst UnivRun CondInst CondRun CondStick SliceInst SliceRun SliceEnds.
Import ListNotations.
Local Open Scope R_scope.

Section Stuck.
  Variable I : Iface.
  Variable L : laws I.
  Variable data : list (Datum I).
  Local Notation n := (length data).
  Local Notation covs := (repeat (cov0 I) n).
  Hypothesis Hrows : rows_ok I data (at_ covs).
  Hypothesis Hn : (1 <= n)%nat.
  Variable bet : R -> R -> Rng I -> R * Rng I.
  Variable unif01 : R -> Rng I -> R * Rng I.
  Variables tiny junk : R.
  Hypothesis Hu : forall w r, 0 < w -> 0 <= fst (unif01 w r) < w.
  Hypothesis Ht : 0 < tiny <= / 2.
  (** The k-th draw is 1/2^(k+2). *)
  Variable ctr : Rng I -> nat.
  Hypothesis Hbet : forall a b r, exists r', bet a b r = ((/ 2) ^ (2 + ctr r), r') /\ ctr r' = S (ctr r).
  Local Notation J := (slice_iface I).
  Local Notation LJ := (with_mixing_laws I unit (fun _ _ => []) (fun m _ _ r => Ok (m, r)) L).
  Local Notation SInv := (@SInv J data covs numR).

  Lemma half_pow : forall k, 0 < (/ 2) ^ k <= 1.
  Proof.
    intro k. split; [apply pow_lt; lra|]. induction k as [|k IH]; cbn [pow]; [lra|]. assert (0 < (/ 2) ^ k) by (apply pow_lt; lra). lra.
  Qed.

  Lemma stuck_beta : beta_ok bet.
  Proof. intros a b r _ _. destruct (Hbet a b r) as (r' & E & _). rewrite E. cbn [fst Nat.add pow]. pose proof (half_pow (ctr r)). lra. Qed.

  (** What the sticks drawn up to a counter leave. *)
  Definition left_over (k : nat) (l : list R) : Prop := / 2 + (/ 2) ^ (S k) <= rest l <= 1.

  Lemma left_snoc : forall k l, left_over k l -> left_over (S k) (l ++ [(/ 2) ^ (2 + k)]).
  Proof.
    unfold left_over. intros k l H. rewrite rest_snoc. pose proof (half_pow k) as P. cbn [Nat.add pow] in *. split.
    - set (x := (/ 2) ^ k) in *. set (y := rest l) in *. replace (y * (1 - / 2 * (/ 2 * x))) with (y - y * (x / 4)) by field.
      assert (y * (x / 4) <= 1 * (x / 4)) by (apply Rmult_le_compat_r; lra). lra.
    - set (x := (/ 2) ^ k) in *. set (y := rest l) in *. assert (0 <= y) by lra.
      apply Rle_trans with (1 * 1); [apply Rmult_le_compat; lra|lra].
  Qed.

  Lemma left_drawn : forall sh vs r r' l, @drawn (Rng I) bet sh vs r r' -> left_over (ctr r) l -> left_over (ctr r') (l ++ vs).
  Proof.
    induction sh as [|[a b] sh IH]; intros [|v vs] r r' l D H; cbn in D; try contradiction; [subst; now rewrite app_nil_r|].
    destruct D as (_ & _ & r1 & E & D). destruct (Hbet a b r) as (r2 & E2 & C2). rewrite E in E2. assert (r1 = r2) by (now injection E2). subst r2.
    assert (Ev : v = (/ 2) ^ (2 + ctr r)) by exact (f_equal fst E2).
    replace (l ++ v :: vs) with ((l ++ [v]) ++ vs) by (rewrite <- app_assoc; reflexivity).
    apply (IH vs r1 r' (l ++ [v]) D). rewrite C2, Ev. now apply left_snoc.
  Qed.

  Lemma loop_stuck : forall fuel bound (m : sb numR) r, sb_ok m -> open_prior (sb_prior m) -> / 2 <= bound -> left_over (ctr r) (sb_sticks m) ->
    break_loop (I:=J) (K:=numR) bet junk fuel bound (nsum numR (sb_w m)) m r = None.
  Proof.
    induction fuel as [|f IH]; intros bound m r Hm Hop Hbd H; cbn [break_loop];
      (assert (Ec : nleb numR (nsum numR (sb_w m)) bound = true);
       [apply leb_R; rewrite nsum_sumR; pose proof Hm as (_ & B & _); rewrite B, weights_sum; cbn [n1 numR]; unfold left_over in H; pose proof (half_pow (S (ctr r))); lra|rewrite Ec; clear Ec]); [reflexivity|].
    match goal with |- (let '(_, _) := ?t in _) = _ => destruct t as [m1 y] eqn:Ek end. pose proof Ek as Ek2. apply keep_breaking1_ok in Ek; [|exact Hm].
    destruct Ek as [(e & ->)|(dw & q & v & -> & Hm' & _ & Es & Ep & _ & Edw & _ & a & b & r0 & _ & Ea & Eb & Ev)].
    - exfalso. unfold keep_breaking1 in Ek2.
      match type of Ek2 with context [get_beta_params ?s ?i] => destruct (@open_params I data Hn s i) as (a & b & Eg & Ha & Hb2) end; [exact Hop|].
      rewrite Eg in Ek2. cbn [rbind fst snd] in Ek2. unfold beta_rng in Ek2. apply ltb_R in Ha. apply ltb_R in Hb2. change (n0 numR) with 0 in Ek2. rewrite Ha, Hb2 in Ek2. cbn [andb negb rbind] in Ek2.
      destruct (bet a b r) as [v r']. discriminate.
    - rewrite Edw. change (nadd numR (nsum numR (sb_w m)) (nsub numR (nsum numR (sb_w m1)) (nsum numR (sb_w m)))) with (nsum numR (sb_w m) + (nsum numR (sb_w m1) - nsum numR (sb_w m))).
      replace (nsum numR (sb_w m) + (nsum numR (sb_w m1) - nsum numR (sb_w m))) with (nsum numR (sb_w m1)) by lra.
      apply IH; [exact Hm'|rewrite Ep; exact Hop|exact Hbd|]. rewrite Es.
      assert (X : v = (/ 2) ^ (2 + ctr r) /\ ctr q = S (ctr r)).
      { unfold keep_breaking1 in Ek2.
        match type of Ek2 with context [get_beta_params ?s ?i] => destruct (@open_params I data Hn s i) as (a' & b' & Eg & Ha & Hb2) end; [exact Hop|].
        rewrite Eg in Ek2. cbn [rbind fst snd] in Ek2. unfold beta_rng in Ek2. apply ltb_R in Ha. apply ltb_R in Hb2. change (n0 numR) with 0 in Ek2. rewrite Ha, Hb2 in Ek2. cbn [andb negb rbind] in Ek2.
        destruct (Hbet a' b' r) as (q' & E' & C'). rewrite E' in Ek2. injection Ek2 as Em1 _ <-. split; [|exact C'].
        destruct (Hbet a b r) as (q2 & E2 & _). rewrite Ev in E2. exact (f_equal fst E2). }
      destruct X as [-> ->]. now apply left_snoc.
  Qed.

  (** The program with a Dirichlet process mixing of total mass at least one. *)
  Theorem slice_stuck : forall mass nc (m : sb numR) hy pos st fuel maxiter burnin r,
    1 <= mass -> sb_init (DpPrior numR mass) true nc = Ok m -> (1 <= nc <= n)%nat -> (forall i, (pos i < nc)%nat) -> (1 <= maxiter)%nat ->
    slice_run I (Ok hy) (Ok m) data pos st bet unif01 tiny junk fuel maxiter burnin r = None.
  Proof.
    intros mass nc m hy pos st fuel maxiter burnin r HM Em Hnc Hpos Hk. unfold slice_run. cbn [rbind].
    assert (Hop : open_prior (DpPrior numR mass)) by (cbn; lra).
    destruct (sb_init_spec _ _ _ Em) as (A & B & C & D & sh & Fsh & Esh).
    assert (Hnc' : (1 <= sb_nc m <= n)%nat) by (rewrite D; exact Hnc). assert (Hpos' : forall i, (pos i < sb_nc m)%nat) by (rewrite D; exact Hpos).
    assert (Fs : Forall (fun v => 0 <= v <= / 2) (sb_sticks m)).
    { rewrite Esh. clear -Fsh B HM. revert Fsh. generalize (seq 0 nc) as l. induction l as [|i l IH] in sh |- *; intro F; inversion F; subst; constructor; [|eauto].
      unfold get_beta_params in H1. rewrite B in H1. injection H1 as <-. cbn. split; [apply Rlt_le, Rdiv_lt_0_compat; lra|].
      apply (Rmult_le_reg_r (1 + mass)); [lra|]. unfold Rdiv. rewrite Rmult_assoc, Rinv_l by lra. lra. }
    destruct (init_ready I L data Hrows Hn bet unif01 tiny junk Hu (DpPrior numR mass) true nc m hy pos st r Em Hop Hnc Hpos) as (s & r' & E & (S0 & Hop' & Fu) & Mx & _).
    rewrite E.
    assert (U : forall u, In u (s_u s) -> u <= / 2).
    { unfold slice_initialize in E.
      destruct (@blocked_init J LJ data covs Hrows hy tt (sb_nc m) pos (mkHier J [] 0%Z (stats0 I) st false None) r Hnc' Hpos' eq_refl) as (a & r1 & Ea & Hc & Hk' & Hl & _).
      rewrite Ea in E. cbn [rbind] in E.
      assert (CA : CInv (I:=J) data covs a) by (apply CInv_iff; auto).
      pose proof (@sample_slice_safe J data covs Hn numR unif01 tiny (mkSlice a m []) r1 CA A Hl) as V. rewrite E in V. cbn [safe fst s_alg s_mix] in V. destruct V as (Ea1 & _ & VS & V).
      intros u Hin. apply In_nth_error in Hin. destruct Hin as (i & Hi).
      assert (Hin : (i < length (a_alloc a))%nat). { destruct CA as [CL _]. destruct VS as (_ & _ & _ & VL). apply nth_error_lt in Hi. rewrite VL in Hi. rewrite CL. exact Hi. }
      destruct (at_ok (a_alloc a) Hin) as (c & _ & Ec). destruct (V i c Ec) as (w & v & q0 & q1 & Ew & Pw & Ev & Q). rewrite nmax_R in Q.
      apply ltb_R in Pw. pose proof (Hu w q0 Pw) as Bw. rewrite Ev in Bw. cbn [fst] in Bw.
      assert (Wh : w <= / 2).
      { destruct A as (_ & A2 & _). rewrite A2 in Ew. pose proof (fun l => @nth_error_In R l c w) as _.
        assert (X : forall (l : list R) x j z, 0 <= x <= 1 -> Forall (fun v => 0 <= v <= / 2) l -> nth_error (wgo x l) j = Some z -> z <= / 2).
        { clear. induction l as [|v l IH]; intros x j z Hx F H; destruct j; cbn in H; try discriminate; pose proof (Forall_inv F) as Fv; cbn beta in Fv.
          - injection H as <-. apply Rle_trans with (v * 1); [apply Rmult_le_compat_l; lra|lra].
          - eapply IH; [|exact (Forall_inv_tail F)|exact H]. split; [apply Rmult_le_pos; lra|]. apply Rle_trans with (1 * 1); [apply Rmult_le_compat; lra|lra]. }
        eapply (X (sb_sticks m) 1); [lra|exact Fs|exact Ew]. }
      assert (Eu : u = Rmax tiny v). { change (N numR) with R in *. pose proof (eq_trans (eq_sym Hi) Q) as Z. now injection Z. }
      rewrite Eu. apply Rmax_lub; lra. }
    destruct maxiter as [|k]; [lia|]. cbn [slice_loop].
    assert (Z : slice_step (I:=J) data covs (K:=numR) bet unif01 tiny junk fuel s r' = None); [|rewrite Z; reflexivity].
    unfold slice_step. destruct (@SInv_suv J LJ data covs numR s r' S0) as (a & r1 & E1 & S1 & _). rewrite E1.
    assert (Y : slice_sample_weights (I:=J) (K:=numR) bet junk fuel (mkSlice a (s_mix s) (s_u s)) r1 = None); [|rewrite Y; reflexivity].
    unfold slice_sample_weights.
    assert (Y : slice_new_sticks (I:=J) (K:=numR) bet junk fuel (mkSlice a (s_mix s) (s_u s)) r1 = None); [|rewrite Y; reflexivity].
    unfold slice_new_sticks. destruct S1 as (C1 & Hm1 & Hl1 & Hlu1). cbn [s_alg s_mix s_u] in *.
    assert (Hc : map (@h_card J) (a_uv a) = map Z.of_nat (map (fun h => length (h_ids h)) (a_uv a))).
    { rewrite map_map. apply map_ext_in. intros h Hh. apply In_nth_error in Hh. destruct Hh as (c & Hc). destruct C1 as [_ [_ H2]].
      destruct (H2 c h Hc) as (([_ [K _]] & _) & _). exact K. }
    rewrite Hc.
    assert (P1 : (1 <= sb_nc (s_mix s))%nat) by (rewrite Mx; exact (proj1 Hnc')).
    destruct (@sb_update_open J data Hn bet stuck_beta (s_mix s) (map (fun h => length (h_ids h)) (a_uv a)) r1) as (m1 & q1 & Eu & _); [exact Hm1|exact P1|now rewrite map_length|exact Hop'|].
    rewrite Eu.
    pose proof (@sb_update_safe numR _ bet (s_mix s) (map Z.of_nat (map (fun h => length (h_ids h)) (a_uv a))) r1 Hm1 P1) as W.
    rewrite !map_length in W. specialize (W Hl1). change (Rng I) with (Rng J) in W. rewrite Eu in W. cbn [safe fst] in W. destruct W as (Hok & Nc & Pr & _).
    apply (@sb_update_spec (Rng I) bet) in Eu; [|exact Hm1|exact P1|now rewrite map_length].
    destruct Eu as (sh1 & vs & _ & _ & Lv & Dr & Es & _). rewrite Mx, C in Es. cbn in Es.
    pose proof (left_drawn _ _ _ _ [] Dr) as LO. cbn [app] in LO.
    assert (LO1 : left_over (ctr q1) vs). { apply LO. unfold left_over, rest, StickFacts.prodR. cbn [map fold_right pow]. pose proof (half_pow (ctr r1)). lra. }
    destruct (a_alloc a) as [|c0 al] eqn:Eal; [destruct C1 as [CL _]; rewrite Eal in CL; cbn in CL; lia|].
    destruct (s_u s) as [|u0 us] eqn:Eus; [cbn in Hlu1; lia|]. cbv zeta.
    assert (Hmax : (S (fold_left Nat.max al c0) <= length (sb_sticks m1))%nat).
    { destruct Hok as (O1 & _). rewrite O1, Nc, <- Hl1. destruct (@fold_max_ge J data Hn al c0) as (_ & _ & [Hm|Hm]).
      - rewrite Hm. destruct C1 as [_ [H1 _]]. rewrite Eal in H1. exact (proj2 (H1 0%nat c0 eq_refl)).
      - apply In_nth_error in Hm. destruct Hm as (i & Hi). destruct C1 as [_ [H1 _]]. rewrite Eal in H1. exact (proj2 (H1 (S i) _ Hi)). }
    rewrite (proj2 (Nat.leb_le _ _) Hmax).
    destruct (fold_nmin us u0) as (_ & _ & Mn). specialize (U _ Mn).
    apply loop_stuck.
    - apply set_sticks_ok; [exact Hok|]. destruct Hok as (O1 & _). rewrite <- O1. exact Hmax.
    - cbn. rewrite Pr. exact Hop'.
    - cbn. cbn in U. lra.
    - cbn [set_sticks sb_sticks]. rewrite Es. unfold left_over in *.
      assert (Fv : Forall (fun v => 0 <= v <= 1) vs).
      { apply (drawn_all I bet (fun v => 0 <= v <= 1)) in Dr; [exact Dr|]. intros a' b' q' A' B'. pose proof (stuck_beta a' b' q' A' B'). lra. }
      assert (Mono : forall k (l : list R), Forall (fun v => 0 <= v <= 1) l -> rest l <= rest (firstn k l) <= 1).
      { clear. intros k l F. revert k. induction F as [|v l Hv F IH]; intro k; [rewrite firstn_nil; unfold rest; cbn; lra|].
        destruct k as [|k]; cbn [firstn].
        - change (rest []) with 1. pose proof (rest_unit (v :: l) (Forall_cons _ Hv F)). lra.
        - change (rest (v :: l)) with ((1 - v) * rest l). change (rest (v :: firstn k l)) with ((1 - v) * rest (firstn k l)). specialize (IH k).
          pose proof (rest_unit l F). split; [apply Rmult_le_compat_l; lra|]. apply Rle_trans with (1 * 1); [apply Rmult_le_compat; lra|lra]. }
      split; [exact (Rle_trans _ _ _ (proj1 LO1) (proj1 (Mono (S (fold_left Nat.max al c0)) vs Fv)))|exact (proj2 (Mono (S (fold_left Nat.max al c0)) vs Fv))].
  Qed.
End Stuck.
