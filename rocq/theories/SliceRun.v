(** * Runs of the slice sampler: proofs. *)
From Coq Require Import String.
From Coq Require Import Bool List Arith ZArith Reals Lra Lia.
From Verif Require Import Base Hier Algos Run Spec MargFacts NealFacts MargMore InitFacts MargProps ValidRun.
From Verif Require Import PartSpec XReal Stick SliceFacts StickFacts Cond CondFacts CondProps UnivInst UnivRun CondInst CondRun CondStick SliceInst.
Import ListNotations.
Local Open Scope R_scope.

Lemma in_firstn : forall (A : Type) k (l : list A) x, In x (firstn k l) -> In x l.
Proof. intros A k l x H. rewrite <- (firstn_skipn k l). apply in_or_app. now left. Qed.

Section SliceRun.
  Variable I : Iface.
  Variable L : laws I.
  Variable data : list (Datum I).
  Local Notation n := (length data).
  Local Notation covs := (repeat (cov0 I) n).
  Hypothesis Hrows : rows_ok I data (at_ covs).
  Hypothesis Hn : (1 <= n)%nat.
  Variable GH : Hyp I -> Prop.
  Variable GS : St I -> Prop.
  Variable GM : Mix I -> Prop.
  Hypothesis HC : closed I data covs GH GS GM.
  Variable bet : R -> R -> Rng I -> R * Rng I.
  Variable unif01 : R -> Rng I -> R * Rng I.
  Variables tiny junk : R.
  Hypothesis Hb : beta_ok bet.
  Hypothesis Hu : forall w r, 0 < w -> 0 <= fst (unif01 w r) < w.
  Hypothesis Ht : 0 < tiny.
  Local Notation J := (slice_iface I).
  Local Notation LJ := (with_mixing_laws I unit (fun _ _ => []) (fun m _ _ r => Ok (m, r)) L).
  Local Notation va := (va J data covs GH GS (fun _ => True)).
  Local Notation SInv := (@SInv J data covs numR).

  Lemma HCJ : closed J data covs GH GS (fun _ => True).
  Proof. exact (with_mixing_closed I unit _ _ data covs GH GS GM HC). Qed.

  (** The prior part of the sampler never changes. *)
  Definition spre (p : sbprior numR) (inf : bool) (hy : Hyp I) (s : slicer J numR) : Prop :=
    SInv s /\ sb_prior (s_mix s) = p /\ sb_inf (s_mix s) = inf /\ Forall (fun u => 0 < u) (s_u s) /\ va (s_alg s) /\ a_hyp (s_alg s) = hy.
  (** What an iteration leaves. *)
  Definition spost (inf : bool) (s : slicer J numR) : Prop :=
    Forall (fun w => 0 < w) (sb_w (s_mix s)) /\ Forall (fun v => 0 <= v <= 1) (sb_sticks (s_mix s)) /\
    (inf = true -> Forall (fun v => v < 1) (sb_sticks (s_mix s))) /\
    (forall i c, nth_error (a_alloc (s_alg s)) i = Some c -> exists w, nth_error (sb_w (s_mix s)) c = Some w /\ tiny < w).

  Lemma va_slice_alloc : forall m us is (a : alg J) r a' r', va a -> rfold (slice_alloc_step (I:=J) data covs (K:=numR) m us) is (a, r) = Ok (a', r') -> va a'.
  Proof.
    intros m us. induction is as [|i is IH]; intros a r a' r' V E; cbn [rfold] in E; [injection E as <- <-; exact V|].
    apply rbind_ok in E. destruct E as ([a1 r1] & E1 & E). unfold slice_alloc_step in E1.
    apply rbind_ok in E1. destruct E1 as (u & _ & E1). apply rbind_ok in E1. destruct E1 as (d & _ & E1). apply rbind_ok in E1. destruct E1 as (cv & _ & E1).
    apply rbind_ok in E1. destruct E1 as (inds & _ & E1). apply rbind_ok in E1. destruct E1 as (ps & _ & E1). apply rbind_ok in E1. destruct E1 as ([c q] & _ & E1).
    apply rbind_ok in E1. destruct E1 as (c2 & _ & E1). apply rbind_ok in E1. destruct E1 as (a2 & E2 & E1). injection E1 as <- <-.
    eapply IH; [|exact E]. exact (proj1 (va_move J LJ data covs Hrows GH GS HCJ _ _ _ _ V E2)).
  Qed.

  Lemma vuv_push : forall hy k (uv : list (hier J)) r uv' r', GH hy -> vuv J data covs GH GS uv -> push_prior (I:=J) hy k uv r = Ok (uv', r') -> vuv J data covs GH GS uv'.
  Proof.
    intros hy. induction k as [|k IH]; intros uv r uv' r' H V E; cbn [push_prior] in E; [injection E as <- <-; exact V|].
    apply rbind_ok in E. destruct E as (h & Eh & E). apply at_In in Eh.
    pose proof (vh_sample J data covs GH GS _ HCJ hy (h_clone h) r H (vh_clone J data covs GH GS h (proj1 (proj2 (proj2 (V h Eh)))))) as K.
    destruct (h_sample_prior (I:=J) hy (h_clone h) r) as [h' r1]. cbn [fst] in K.
    eapply IH; [exact H| |exact E]. intros x Hx. apply in_app_or in Hx. destruct Hx as [Hx|[<-|[]]]; auto.
  Qed.

  Lemma break_loop_below : forall fuel bound sw (m : sb numR) r m' r', sb_ok m -> Forall (fun v => v < 1) (sb_sticks m) ->
    break_loop (I:=J) (K:=numR) bet junk fuel bound sw m r = Some (Ok (m', r')) -> Forall (fun v => v < 1) (sb_sticks m').
  Proof.
    induction fuel as [|f IH]; intros bound sw m r m' r' Hm F E; cbn [break_loop] in E.
    - destruct (nleb numR sw bound); [discriminate|]. injection E as <- <-. exact F.
    - destruct (nleb numR sw bound); [|injection E as <- <-; exact F].
      match type of E with match ?t with _ => _ end = _ => destruct t as [m1 y] eqn:Ek end. apply keep_breaking1_ok in Ek; [|exact Hm].
      destruct Ek as [(e & Ey)|(dw & q & v & Ey & Hm' & _ & Es & _ & _ & _ & _ & a & b & r0 & _ & Ea & Eb & Ev)]; subst y; [discriminate|].
      eapply IH; [exact Hm'| |exact E]. rewrite Es. apply Forall_app. split; [exact F|]. constructor; [|constructor].
      apply ltb_R in Ea. apply ltb_R in Eb. pose proof (Hb a b r Ea Eb) as Q. rewrite Ev in Q. apply Q.
  Qed.

  Lemma weights_below : forall fuel (s : slicer J numR) r s2 r2, SInv s -> open_prior (sb_prior (s_mix s)) -> sb_inf (s_mix s) = true ->
    slice_sample_weights (I:=J) (K:=numR) bet junk fuel s r = Some (Ok (s2, r2)) -> Forall (fun v => v < 1) (sb_sticks (s_mix s2)).
  Proof.
    intros fuel s r s2 r2 (C & Hm & Hl & Hlu) Hop Hi E. unfold slice_sample_weights in E.
    destruct (slice_new_sticks (I:=J) (K:=numR) bet junk fuel s r) as [[[m q]| | |]|] eqn:En; try discriminate. injection E as E. apply rbind_ok in E. destruct E as ([uv q'] & _ & E). injection E as <- <-.
    cbn [s_mix]. unfold slice_new_sticks in En.
    assert (Hc : map (@h_card J) (a_uv (s_alg s)) = map Z.of_nat (map (fun h => length (h_ids h)) (a_uv (s_alg s)))).
    { rewrite map_map. apply map_ext_in. intros h Hh. apply In_nth_error in Hh. destruct Hh as (c & Hc). destruct C as [_ [_ H2]].
      destruct (H2 c h Hc) as (([_ [K _]] & _) & _). exact K. }
    rewrite Hc in En.
    assert (Pg : prior_good (sb_prior (s_mix s)) (sb_nc (s_mix s))) by (destruct (sb_prior (s_mix s)); cbn in *; tauto).
    assert (P1 : (1 <= sb_nc (s_mix s))%nat). { pose proof (@CInv_uv_pos J data covs Hn _ C). rewrite Hl in H. lia. }
    destruct (sb_update_good J data Hn bet Hb (sb_prior (s_mix s)) (sb_inf (s_mix s)) (sb_nc (s_mix s)) (s_mix s) (map (fun h => length (h_ids h)) (a_uv (s_alg s))) r)
      as (m1 & r1 & E1 & S1 & (_ & F1 & F2)); [split; auto|exact Pg|exact P1|now rewrite map_length|].
    rewrite E1 in En. rewrite Hi in F2.
    destruct (a_alloc (s_alg s)) as [|c0 al]; [discriminate|]. destruct (s_u s) as [|u0 us]; [discriminate|]. cbv zeta in En.
    destruct (S (fold_left Nat.max al c0) <=? length (sb_sticks m1))%nat eqn:Ele; [|discriminate]. apply Nat.leb_le in Ele.
    eapply break_loop_below; [| |exact En].
    - apply set_sticks_ok; [apply S1|]. destruct S1 as ((A & _) & _). lia.
    - cbn [set_sticks sb_sticks]. clear -F2. revert F2. generalize (S (fold_left Nat.max al c0)) as k. generalize (sb_sticks m1) as l.
      induction l as [|v l IH]; intros k F; [rewrite firstn_nil; constructor|]. destruct k; [constructor|]. cbn [firstn]. constructor; [exact (List.Forall_inv F)|apply IH; exact (List.Forall_inv_tail F)].
  Qed.

  Lemma slice_step_post : forall p inf hy fuel (s : slicer J numR) r s' r', open_prior p -> spre p inf hy s ->
    slice_step (I:=J) data covs (K:=numR) bet unif01 tiny junk fuel s r = Some (Ok (s', r')) -> spre p inf hy s' /\ spost inf s'.
  Proof.
    intros p inf hy fuel s r s' r' Hop (S0 & Ep & Ei & Pu & V & Eh) E.
    pose proof E as Eall. unfold slice_step in E. destruct (@SInv_suv J LJ data covs numR s r S0) as (a & r1 & E1 & S1 & Al1 & Hy1). rewrite E1 in E.
    assert (V1 : va a).
    { unfold sample_unique_values in E1. apply rbind_ok in E1. destruct E1 as ([uv q] & E1 & E2). injection E2 as <- <-. destruct V as (U & X & H & M).
      split; [exact (proj1 (vuv_draw_all J data covs GH GS _ HCJ _ _ _ _ _ _ H U E1))|auto]. }
    destruct (slice_sample_weights (I:=J) (K:=numR) bet junk fuel (mkSlice a (s_mix s) (s_u s)) r1) as [[[s2 r2]| | |]|] eqn:Ew; try discriminate. injection E as E.
    rewrite <- Ep in Hop.
    destruct (@weights_step_open J data covs Hn bet junk Hb fuel (mkSlice a (s_mix s) (s_u s)) r1 _ S1 Hop Pu Ew) as (s2' & r2' & Q & S2 & Al2 & W2 & _ & K2). injection Q as <- <-.
    pose proof (@slice_weights_safe J data covs Hn numR bet junk fuel _ r1 S1) as Z. rewrite Ew in Z. cbn [osafe safe fst] in Z. destruct Z as (_ & _ & Hy2 & _ & _ & _).
    assert (M2 : sb_prior (s_mix s2) = p /\ sb_inf (s_mix s2) = inf /\ va (s_alg s2)).
    { unfold slice_sample_weights in Ew. pose proof (@slice_new_sticks_safe J data covs Hn numR bet junk fuel _ r1 S1) as Y.
      destruct (slice_new_sticks (I:=J) (K:=numR) bet junk fuel (mkSlice a (s_mix s) (s_u s)) r1) as [[[m q]| | |]|]; try discriminate. cbn [osafe safe fst] in Y. destruct Y as (_ & Y1 & Y2 & _).
      injection Ew as Ew. apply rbind_ok in Ew. destruct Ew as ([uv q'] & Eu & Ew). injection Ew as <- <-. cbn [s_mix s_alg] in *.
      split; [congruence|]. split; [congruence|]. destruct V1 as (U & X & H & M). split; [|auto]. cbn.
      match type of Eu with (if ?b then _ else _) = _ => destruct b end; [eapply vuv_push; eauto|].
      injection Eu as <- <-. intros h Hh. apply U. eapply in_firstn. exact Hh. }
    destruct M2 as (Mp & Mi & V2).
    assert (B2 : inf = true -> Forall (fun v => v < 1) (sb_sticks (s_mix s2))).
    { intro Hi. eapply weights_below; [exact S1|exact Hop| |exact Ew]. cbn. congruence. }
    apply rbind_ok in E. destruct E as ([s3 r3] & E3 & E4).
    destruct (@slice_alloc_open J LJ data covs Hrows Hn bet unif01 tiny junk Hu s2 r2 S2 W2) as (s3' & r3' & E3' & S3 & A3 & M3 & U3 & _).
    rewrite E3 in E3'. injection E3' as <- <-.
    pose proof (@slice_alloc_safe J LJ data covs Hrows Hn numR bet unif01 tiny s3 r3 S3) as Y. rewrite E4 in Y. cbn [safe fst] in Y. destruct Y as (S4 & M4 & U4 & Hy4 & Lab).
    assert (V4 : va (s_alg s')).
    { unfold slice_sample_allocations in E4. apply rbind_ok in E4. destruct E4 as ([a4 q] & E4 & E5). injection E5 as <- <-. cbn [s_alg].
      eapply va_slice_alloc; [|exact E4]. rewrite A3. exact V2. }
    split; [split; [exact S4|]|].
    - rewrite M4, M3. split; [exact Mp|]. split; [exact Mi|]. split; [|split; [exact V4|]].
      + rewrite U4. apply Forall_forall. intros u Hin. apply In_nth_error in Hin. destruct Hin as (i & Hin). pose proof (U3 i u Hin). lra.
      + rewrite Hy4, A3, Hy2. cbn. congruence.
    - unfold spost. rewrite M4, M3. split; [exact W2|]. split; [exact K2|]. split; [exact B2|].
      intros i c Hi. destruct (Lab i c Hi) as (w & u & Hw & Hui & Hlt). rewrite M3 in Hw. exists w. split; [exact Hw|]. apply ltb_R in Hlt. pose proof (U3 i u Hui). lra.
  Qed.

  (** ** Saved states *)
  Definition saved_ok (p : sbprior numR) (inf : bool) (hy : Hyp I) (q : snapshot J * sb numR) : Prop :=
    exists s, spre p inf hy s /\ spost inf s /\ snd q = s_mix s /\ s_alloc (fst q) = a_alloc (s_alg s) /\
      s_clusters (fst q) = map (fun h => (h_state h, h_card h)) (a_uv (s_alg s)) /\ s_hyp (fst q) = hy.

  Lemma slice_loop_saved : forall p inf hy fuel burnin k it s r out res_s res_out, open_prior p -> spre p inf hy s -> Forall (saved_ok p inf hy) out ->
    length out = (it - burnin)%nat ->
    slice_loop I data bet unif01 tiny junk fuel burnin k it s r out = Some (Ok (res_s, res_out)) ->
    Forall (saved_ok p inf hy) res_out /\ length res_out = (it + k - burnin)%nat.
  Proof.
    intros p inf hy fuel burnin. induction k as [|k IH]; intros it s r out rs ro Hop Hs Fo Lo E; cbn [slice_loop] in E.
    - injection E as <- <-. split; [exact Fo|]. rewrite Nat.add_0_r. exact Lo.
    - destruct (slice_step (I:=J) data covs (K:=numR) bet unif01 tiny junk fuel s r) as [[[s' r']| | |]|] eqn:Es; try discriminate.
      destruct (slice_step_post p inf hy fuel s r s' r' Hop Hs Es) as [A B].
      replace (it + S k)%nat with (S it + k)%nat by lia.
      destruct (burnin <=? it)%nat eqn:Eb.
      + apply Nat.leb_le in Eb. destruct (get_state it (s_alg s')) as [snap| | |] eqn:Eg; try discriminate.
        eapply IH; [exact Hop|exact A| | |exact E].
        * apply Forall_app. split; [exact Fo|]. constructor; [|constructor]. unfold get_state in Eg. apply rbind_ok in Eg. destruct Eg as (h & _ & Eg). injection Eg as <-.
          exists s'. split; [exact A|]. split; [exact B|]. cbn. repeat (split; [reflexivity|]). apply A.
        * rewrite app_length, Lo. cbn [length]. lia.
      + apply Nat.leb_gt in Eb. eapply IH; [exact Hop|exact A|exact Fo| |exact E]. lia.
  Qed.

  (** The program. *)
  Theorem slice_program : forall p inf nc (m : sb numR) hy pos st fuel maxiter burnin r s out,
    sb_init p inf nc = Ok m -> open_prior p -> GH hy -> (1 <= nc <= n)%nat -> (forall i, (pos i < nc)%nat) ->
    slice_run I (Ok hy) (Ok m) data pos st bet unif01 tiny junk fuel maxiter burnin r = Some (Ok (s, out)) ->
    length out = (maxiter - burnin)%nat /\ forall snap w, In (snap, w) out ->
      saved_components n (sb_nc w) (s_alloc snap) (s_clusters snap) /\ s_hyp snap = hy /\ (forall q, In q (s_clusters snap) -> GS (fst q)) /\
      (sb_ok w /\ sb_inf w = inf) /\
      Forall (fun x => 0 < x) (sb_w w) /\ Forall (fun v => 0 <= v <= 1) (sb_sticks w) /\ (inf = true -> Forall (fun v => v < 1) (sb_sticks w)) /\
      (forall c, In c (s_alloc snap) -> exists x, nth_error (sb_w w) c = Some x /\ tiny < x).
  Proof.
    intros p inf nc m hy pos st fuel maxiter burnin r s out Em Hop Hh Hnc Hpos E. unfold slice_run in E. cbn [rbind] in E.
    destruct (sb_init_spec _ _ _ Em) as (A & B & C & D & _).
    destruct (slice_initialize (I:=J) data covs (K:=numR) unif01 tiny hy tt m pos [mkHier J [] 0%Z (stats0 I) st false None] r) as [[s0 r0]| | |] eqn:E0; try discriminate.
    assert (Hnc' : (1 <= sb_nc m <= n)%nat) by (rewrite D; exact Hnc). assert (Hpos' : forall i, (pos i < sb_nc m)%nat) by (rewrite D; exact Hpos).
    destruct (@slice_init_pos J LJ data covs Hrows Hn unif01 tiny Ht hy tt m pos (mkHier J [] 0%Z (stats0 I) st false None) r s0 r0 Hnc' Hpos' eq_refl A E0) as (S0 & M0 & P0).
    apply slice_ok_iff in S0.
    assert (Pre : spre p inf hy s0).
    { split; [exact S0|]. rewrite M0. split; [exact B|]. split; [exact C|]. split; [exact P0|].
      unfold slice_initialize in E0. apply rbind_ok in E0. destruct E0 as ([a r1] & E0 & E1). unfold sample_slice in E1. apply rbind_ok in E1. destruct E1 as ([us q] & _ & E1). injection E1 as <- <-. cbn [s_alg].
      split.
      - exact (proj1 (va_init J LJ data covs Hrows GH GS (fun _ => True) HCJ false hy tt (sb_nc m) pos (mkHier J [] 0%Z (stats0 I) st false None) r a r1 Hh Logic.I ltac:(discriminate) Hn E0)).
      - destruct (@blocked_init J LJ data covs Hrows hy tt (sb_nc m) pos (mkHier J [] 0%Z (stats0 I) st false None) r Hnc' Hpos' eq_refl) as (a' & r' & E' & _ & _ & _ & _).
        unfold init_clusters in E0. apply rbind_ok in E0. destruct E0 as (x0 & _ & E0). apply rbind_ok in E0. destruct E0 as ([x1 x2] & _ & E0). apply rbind_ok in E0. destruct E0 as ([x3 x4] & _ & E0).
        apply rbind_ok in E0. destruct E0 as (x5 & _ & E0). injection E0 as <- <-. reflexivity. }
    destruct (slice_loop_saved p inf hy fuel burnin maxiter 0 s0 r0 [] s out Hop Pre ltac:(constructor) eq_refl E) as [F Lo].
    split; [exact Lo|]. intros snap w Hin. rewrite Forall_forall in F. destruct (F _ Hin) as (t & (S1 & T1 & T2 & T3 & T4 & T5) & (Q1 & Q2 & Q3 & Q4) & Ew & Ea & Ec & Eh). cbn [fst snd] in *.
    subst w. destruct S1 as (C1 & O1 & L1 & U1). rewrite Ea, Ec.
    split; [apply consistent_components; [apply CInv_iff in C1; apply C1|exact L1]|]. split; [exact Eh|].
    split; [intros q Hq; apply in_map_iff in Hq; destruct Hq as (h & <- & Hh'); exact (proj1 (proj2 (proj2 (proj1 T4 h Hh'))))|].
    split; [split; [exact O1|exact T2]|]. split; [exact Q1|]. split; [exact Q2|]. split; [exact Q3|].
    intros c Hc. apply In_nth_error in Hc. destruct Hc as (i & Hc). exact (Q4 i c Hc).
  Qed.
End SliceRun.
