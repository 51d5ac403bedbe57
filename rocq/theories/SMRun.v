(** * Programs of the split-and-merge algorithm: completion and saved states. *)
From Coq Require Import Bool List Arith ZArith Lia.
From Verif Require Import Base Hier Algos SplitMerge Run Spec MargFacts NealFacts MargMore InitFacts MargProps SMFacts SMProps ValidRun UnivRun CovInst CovRun SMInst.
Import ListNotations.

Section SMRun.
  Variable I : Iface.
  Variable L : laws I.
  Variable data : list (Datum I).
  Hypothesis H0 : no_cov_ok I data.
  Hypothesis Hcj : conj I = true.
  Hypothesis Hod : other_draw I = None.
  Local Notation n := (length data).
  Local Notation covs := (covs0 I data).
  Hypothesis Hn : 2 <= n.

  Local Notation rows := (no_cov_rows H0).
  Local Notation rowsc := (@rows_covs0 I data rows).

  Lemma cov_at : forall i d, at_ data i = Ok d -> at_ covs i = Ok (cov0 I).
  Proof. intros i d E. apply at_inv in E. unfold covs0, at_. rewrite nth_error_map, E. reflexivity. Qed.

  Section Va.
    Variable GH : Hyp I -> Prop.
    Variable GS : St I -> Prop.
    Variable GM : Mix I -> Prop.
    Hypothesis HC : closed I data covs GH GS GM.
    Local Notation va := (va I data covs GH GS GM).
    Local Notation vuv := (vuv I data covs GH GS).

    Lemma va_uv : forall (a : alg I) uv, va a -> vuv uv -> va (set_uv a uv).
    Proof. intros a uv (U & X & H & M) V. split; [exact V|]. split; [exact X|]. split; [exact H|exact M]. Qed.
    Lemma va_alloc : forall (a : alg I) al, va a -> va (set_alloc a al).
    Proof. intros a al V. exact V. Qed.

    Lemma va_move : forall split ids old new s (a a' : alg I), va a -> a_alloc a <> [] -> move_all data split old new s ids a = Ok a' -> va a' /\ a_alloc a' <> [].
    Proof.
      intros split ids. induction ids as [|i ids IH]; intros old new s a a' V N E; cbn [move_all] in E; [injection E as <-; auto|].
      destruct ids as [|j ids].
      - apply rbind_ok in E. destruct E as (d & Ed & E). destruct split.
        + apply rbind_ok in E. destruct E as (uv1 & E1 & E). apply rbind_ok in E. destruct E as (uv2 & E2 & E). apply rbind_ok in E. destruct E as (al & Ea & E). injection E as <-.
          split; [|cbn; eapply alloc_nonempty_set; eauto]. apply va_alloc, va_uv; [exact V|]. pose proof V as (U & _ & H & _).
          eapply (vuv_add_in I L data covs rowsc GH GS GM HC); [exact H|exact Ed|eapply cov_at; eauto| |exact E2].
          eapply (vuv_remove_in I L data covs rowsc GH GS GM HC); [exact H|exact Ed|eapply cov_at; eauto|exact U|exact E1].
        + apply rbind_ok in E. destruct E as (a1 & E1 & E). pose proof (va_erase _ _ _ _ _ _ _ _ _ V E1) as V1. pose proof V1 as (U & _ & H & _).
          apply rbind_ok in E. destruct E as (new' & En & E). apply rbind_ok in E. destruct E as (uv2 & E2 & E). apply rbind_ok in E. destruct E as (al & Ea & E). injection E as <-.
          split; [|cbn; eapply alloc_nonempty_set; eauto]. apply va_alloc, va_uv; [exact V1|].
          eapply (vuv_add_in I L data covs rowsc GH GS GM HC); [exact H|exact Ed|eapply cov_at; eauto|exact U|exact E2].
      - apply rbind_ok in E. destruct E as (d & Ed & E). apply rbind_ok in E. destruct E as (uv1 & E1 & E). apply rbind_ok in E. destruct E as (uv2 & E2 & E). apply rbind_ok in E. destruct E as (al & Ea & E).
        refine (IH _ _ _ _ _ _ _ E); [|cbn; eapply alloc_nonempty_set; eauto]. apply va_alloc, va_uv; [exact V|]. pose proof V as (U & _ & H & _).
        eapply (vuv_add_in I L data covs rowsc GH GS GM HC); [exact H|exact Ed|eapply cov_at; eauto| |exact E2].
        eapply (vuv_remove_in I L data covs rowsc GH GS GM HC); [exact H|exact Ed|eapply cov_at; eauto|exact U|exact E1].
    Qed.

    Lemma va_proposal : forall f s split g (a a' : alg I), va a -> a_alloc a <> [] -> proposal_update data f s split g a = Ok a' -> va a' /\ a_alloc a' <> [].
    Proof.
      intros f s split g a a' V N E. unfold proposal_update in E. apply rbind_ok in E. destruct E as (old & Eo & E). destruct split.
      - apply rbind_ok in E. destruct E as (h0 & E0 & E). apply rbind_ok in E. destruct E as (g0 & _ & E).
        refine (va_move _ _ _ _ _ _ _ _ _ E); [|exact N]. apply va_uv; [exact V|]. pose proof V as (U & _). apply vuv_app; [exact U|]. apply vh_clone, (U h0). eapply at_In; eauto.
      - apply rbind_ok in E. destruct E as (new & _ & E). apply rbind_ok in E. destruct E as (ho & _ & E). eapply va_move; eauto.
    Qed.

    Lemma va_mh : forall n_restr (a a' : alg I) r r', va a -> a_alloc a <> [] -> mh_update data n_restr (a, r) = Ok (a', r') -> va a' /\ a_alloc a' <> [].
    Proof.
      intros n_restr a a' r r' V N E. unfold mh_update in E. apply rbind_ok in E. destruct E as ([f r1] & _ & E). apply rbind_ok in E. destruct E as ([s0 r2] & _ & E).
      apply rbind_ok in E. destruct E as (idx & _ & E). apply rbind_ok in E. destruct E as ([g r3] & _ & E). apply rbind_ok in E. destruct E as ([g1 r4] & _ & E).
      unfold split_or_merge in E. apply rbind_ok in E. destruct E as (cf & _ & E). apply rbind_ok in E. destruct E as (cs & _ & E). apply rbind_ok in E. destruct E as ([[g2 lt] r5] & _ & E).
      apply rbind_ok in E. destruct E as ([ll lpr] & _ & E). destruct (accept I _ r5) as [acc r6]. destruct acc; [|injection E as <- <-; auto].
      apply rbind_ok in E. destruct E as (a1 & E1 & E). injection E as <- <-. eapply va_proposal; eauto.
    Qed.

    Lemma unassign_cov : forall uhp i (a : alg I), unassign data uhp (fun _ => Ok (cov0 I)) i a = unassign data uhp (at_ covs) i a.
    Proof.
      intros uhp i a. unfold unassign. destruct (at_ (a_alloc a) i) as [c| | |]; cbn [rbind]; try reflexivity. destruct (at_ (a_uv a) c) as [h| | |]; cbn [rbind]; try reflexivity.
      destruct (Z.leb (h_card h) 1); [reflexivity|]. destruct (at_ data i) as [d| | |] eqn:Ed; cbn [rbind]; try reflexivity. rewrite (cov_at i d Ed). reflexivity.
    Qed.
    Lemma assign_cov : forall uhp i c (a : alg I) r, assign data uhp (fun _ => Ok (cov0 I)) i c a r = assign data uhp (at_ covs) i c a r.
    Proof.
      intros uhp i c a r. unfold assign. destruct (at_ data i) as [d| | |] eqn:Ed; cbn [rbind]; try reflexivity. rewrite (cov_at i d Ed). reflexivity.
    Qed.

    Lemma va_full_step : forall i (a a' : alg I) r r', va a -> full_gs_step data (a, r) i = Ok (a', r') -> va a' /\ a_alloc a' <> [].
    Proof.
      intros i a a' r r' V E. unfold full_gs_step in E. apply rbind_ok in E. destruct E as (a1 & E1 & E). rewrite unassign_cov in E1.
      apply rbind_ok in E. destruct E as (d & _ & E). apply rbind_ok in E. destruct E as (ex & _ & E). apply rbind_ok in E. destruct E as (mn & _ & E). apply rbind_ok in E. destruct E as (h & _ & E).
      apply rbind_ok in E. destruct E as ([c r1] & _ & E). rewrite assign_cov in E. split.
      - eapply (va_assign I L data covs rowsc GH GS GM HC); [|exact E]. eapply (va_unassign I L data covs rowsc GH GS GM HC); eauto.
      - unfold assign in E. apply rbind_ok in E. destruct E as (d' & _ & E). apply rbind_ok in E. destruct E as (cv & _ & E). destruct (c =? _).
        + apply rbind_ok in E. destruct E as (h0 & E0 & E). apply rbind_ok in E. destruct E as (h1 & _ & E). apply rbind_ok in E. destruct E as ([h2 r2] & E2 & E).
          apply rbind_ok in E. destruct E as (al & Ea & E). injection E as <- <-. cbn. eapply alloc_nonempty_set; eauto.
        + apply rbind_ok in E. destruct E as (al & Ea & E). apply rbind_ok in E. destruct E as (uv & Eu & E). injection E as <- <-. cbn. eapply alloc_nonempty_set; eauto.
    Qed.

    Lemma va_loop : forall (f : alg I * Rng I -> nat -> res (alg I * Rng I)), (forall i a r a' r', va a -> a_alloc a <> [] -> f (a, r) i = Ok (a', r') -> va a' /\ a_alloc a' <> []) ->
      forall l a r a' r', va a -> a_alloc a <> [] -> rfold f l (a, r) = Ok (a', r') -> va a' /\ a_alloc a' <> [].
    Proof.
      intros f Hf. induction l as [|i l IH]; intros a r a' r' V N E; cbn [rfold] in E; [injection E as <- <-; auto|].
      apply rbind_ok in E. destruct E as ([a1 r1] & E1 & E). destruct (Hf _ _ _ _ _ V N E1) as [V1 N1]. eapply IH; eauto.
    Qed.

    Lemma va_sm : forall n_restr n_mh n_full (a a' : alg I) r r', va a -> a_alloc a <> [] ->
      sm_sample_allocations data n_restr n_mh n_full (a, r) = Ok (a', r') -> va a' /\ a_alloc a' <> [].
    Proof.
      intros n_restr n_mh n_full a a' r r' V N E. unfold sm_sample_allocations in E. apply rbind_ok in E. destruct E as ([a1 r1] & E1 & E).
      assert (va a1 /\ a_alloc a1 <> []) as [V1 N1].
      { refine (va_loop _ _ _ _ _ _ _ V N E1). intros i b q b' q' Vb Nb Eb. exact (va_mh _ _ _ _ _ Vb Nb Eb). }
      refine (va_loop _ _ _ _ _ _ _ V1 N1 E). intros i b q b' q' Vb Nb Eb. unfold full_gs in Eb. refine (va_loop _ _ _ _ _ _ _ Vb Nb Eb).
      intros j c p c' p' Vc _ Ec. eapply va_full_step; eauto.
    Qed.

    Hypothesis HM : forall m, GM m -> @sm_masses_ok I data m.

    Lemma sm_inv : forall n_restr n_mh n_full (a : alg I) r a' r', @GInv I data covs false a -> @sm_masses_ok I data (a_mix a) ->
      base_step (sm_sample_allocations data n_restr n_mh n_full) true (a, r) = Ok (a', r') -> @GInv I data covs false a'.
    Proof.
      intros n_restr n_mh n_full a r a' r' Ha Hm E. unfold base_step in E. apply GS_GInv in Ha.
      destruct (sm_sweep_ok L rows Hcj Hod n_restr n_mh n_full r Hn Ha Hm) as (a1 & r1 & E1 & G1 & _). rewrite E1 in E. cbn [rbind] in E. apply GS_GInv in G1.
      eapply (tail_inv I L data covs true a1 r1 a' r'); [auto|exact G1|exact E].
    Qed.

    Lemma sm_saved : forall hyp0 mix0 k pos st n_restr n_mh n_full maxiter burnin r s out, (forall hy, hyp0 = Ok hy -> GH hy) -> (forall m, mix0 = Ok m -> GM m) ->
      (k <= n)%nat -> (forall i, (pos i < num_components I data k)%nat) ->
      sm_run I hyp0 mix0 data covs k pos st n_restr n_mh n_full maxiter burnin r = Ok (s, out) ->
      length out = (maxiter - burnin)%nat /\ forall snap, In snap out -> saved_valid I data GH GS GM snap.
    Proof.
      intros hyp0 mix0 k pos st n_restr n_mh n_full maxiter burnin r s out Hh Hm Hk Hpos R.
      destruct mix0 as [m| | |]; [|unfold sm_run, cov_start, run in R; cbn [rbind] in R; discriminate..].
      destruct hyp0 as [hy| | |]; [|unfold sm_run, cov_start, run in R; cbn [rbind] in R; discriminate..].
      specialize (Hh hy eq_refl). specialize (Hm m eq_refl). unfold sm_run, cov_start in R. cbn [rbind] in R.
      apply (run_saved I data covs GH GS GM (fun a => va a /\ a_alloc a <> [] /\ @GInv I data covs false a) _ _ _ _ _ _) in R; [exact R|..].
      - intros a (V & N & G). split; [exact V|]. split; [exact N|]. eapply GInv_proper_; eauto.
      - intros a q E. refine (init_inv I L data covs rowsc GH GS GM HC hy m k pos _ Hh Hm Hk Hpos _ _ true r a q _ _ E); [cbn; discriminate|unfold ph_ok; cbn; discriminate|auto|lia].
      - intros a q a' q' (V & N & G) E. pose proof E as E'. unfold base_step in E'. apply rbind_ok in E'. destruct E' as ([a1 q1] & E1 & E').
        destruct (va_sm _ _ _ _ _ _ _ V N E1) as [V1 N1].
        destruct (va_base_step I data covs GH GS GM HC (fun s => Ok s) true a1 q1 a' q') as [V' N']; [intros b u b' u' Vb Eb; injection Eb as <- <-; auto|exact V1|exact N1|exact E'|].
        split; [exact V'|]. split; [exact N'|]. eapply sm_inv; eauto. apply HM, V.
    Qed.
  End Va.

  Section Complete.
    Variable hyp0 : Hyp I.
    Variable mix0 : Mix I.
    Variable k : nat.
    Variable pos : nat -> nat.
    Variable st : St I.
    Variable P : Mix I -> Prop.
    Hypothesis HM : forall m, P m -> @sm_masses_ok I data m.
    Hypothesis HU : forall m cards al r, P m -> ends (mix_update I m cards al r).
    Hypothesis HV : forall m cards al r m' r', P m -> mix_update I m cards al r = Ok (m', r') -> P m'.
    Hypothesis Hm : P mix0.
    Hypothesis Hk : (k <= n)%nat.
    Hypothesis Hpos : forall i, (pos i < num_components I data k)%nat.

    Lemma sm_ends : forall n_restr n_mh n_full maxiter burnin r,
      ends (sm_run I (Ok hyp0) (Ok mix0) data covs k pos st n_restr n_mh n_full maxiter burnin r).
    Proof.
      intros n_restr n_mh n_full maxiter burnin r. apply (run_ends I (fun a => @GInv I data covs false a /\ P (a_mix a))).
      - intros a [G _]. apply (@GInv_uv_pos I data covs false a); [lia|exact G].
      - apply (start_ok I L data hyp0 mix0 k pos st covs rowsc P Hm Hk Hpos); [auto|lia].
      - intros a q [G M]. unfold base_step. apply GS_GInv in G.
        destruct (sm_sweep_ok L rows Hcj Hod n_restr n_mh n_full q Hn G (HM _ M)) as (a1 & r1 & E1 & G1 & _ & Em & _). rewrite E1. cbn [rbind]. apply GS_GInv in G1.
        destruct (tail_ends I L data covs P HU HV true a1 r1 (fun _ => Logic.conj Hcj Hod) ltac:(lia) G1 ltac:(now rewrite Em)) as [(a' & r' & E & G' & M' & _)|K]; [left; eauto|right; exact K].
    Qed.

    Hypothesis HT : forall m cards al r, P m -> exists m' r', mix_update I m cards al r = Ok (m', r').

    Lemma sm_complete : forall n_restr n_mh n_full maxiter burnin r,
      exists s out, sm_run I (Ok hyp0) (Ok mix0) data covs k pos st n_restr n_mh n_full maxiter burnin r = Ok (s, out).
    Proof.
      intros n_restr n_mh n_full maxiter burnin r. apply (complete I (fun a => @GInv I data covs false a /\ P (a_mix a))).
      - intros a [G _]. apply (@GInv_uv_pos I data covs false a); [lia|exact G].
      - apply (start_ok I L data hyp0 mix0 k pos st covs rowsc P Hm Hk Hpos); [auto|lia].
      - intros a q [G M]. unfold base_step. apply GS_GInv in G.
        destruct (sm_sweep_ok L rows Hcj Hod n_restr n_mh n_full q Hn G (HM _ M)) as (a1 & r1 & E1 & G1 & _ & Em & _). rewrite E1. cbn [rbind]. apply GS_GInv in G1.
        destruct (tail_ends I L data covs P HU HV true a1 r1 (fun _ => Logic.conj Hcj Hod) ltac:(lia) G1 ltac:(now rewrite Em)) as [(a' & r' & E & G' & M' & _)|(msg & K)]; [eauto|].
        exfalso. destruct (tail_exact I L data covs true a1 r1 (fun _ => Logic.conj Hcj Hod) ltac:(lia) G1) as (a2 & r2 & cards & _ & _ & _ & _ & E). rewrite E in K.
        destruct (HT (a_mix a1) cards (a_alloc a1) r2 ltac:(now rewrite Em)) as (m' & r' & Et). rewrite Et in K. discriminate K.
    Qed.
  End Complete.
End SMRun.

(** The same with the list of covariates the user leaves empty. *)
Section Covs.
  Variable I : Iface.
  Variable L : laws I.
  Variable data : list (Datum I).
  Variable covs : list (Cov I).
  Hypothesis Hcov : covs0 I data = covs.
  Hypothesis H0 : no_cov_ok I data.
  Hypothesis Hcj : conj I = true.
  Hypothesis Hod : other_draw I = None.
  Hypothesis Hn : 2 <= length data.

  Lemma sm_saved_ : forall GH GS GM, closed I data covs GH GS GM -> (forall m, GM m -> @sm_masses_ok I data m) ->
    forall hyp0 mix0 k pos st n_restr n_mh n_full maxiter burnin r s out, (forall hy, hyp0 = Ok hy -> GH hy) -> (forall m, mix0 = Ok m -> GM m) ->
    (k <= length data)%nat -> (forall i, (pos i < num_components I data k)%nat) ->
    sm_run I hyp0 mix0 data covs k pos st n_restr n_mh n_full maxiter burnin r = Ok (s, out) ->
    length out = (maxiter - burnin)%nat /\ forall snap, In snap out -> saved_valid I data GH GS GM snap.
  Proof. subst covs. exact (sm_saved I L data H0 Hcj Hod Hn). Qed.

  Lemma sm_ends_ : forall hyp0 mix0 k pos st (P : Mix I -> Prop), (forall m, P m -> @sm_masses_ok I data m) ->
    (forall m cards al r, P m -> ends (mix_update I m cards al r)) -> (forall m cards al r m' r', P m -> mix_update I m cards al r = Ok (m', r') -> P m') ->
    P mix0 -> (k <= length data)%nat -> (forall i, (pos i < num_components I data k)%nat) -> forall n_restr n_mh n_full maxiter burnin r,
    ends (sm_run I (Ok hyp0) (Ok mix0) data covs k pos st n_restr n_mh n_full maxiter burnin r).
  Proof. subst covs. exact (sm_ends I L data H0 Hcj Hod Hn). Qed.

  Lemma sm_complete_ : forall hyp0 mix0 k pos st (P : Mix I -> Prop), (forall m, P m -> @sm_masses_ok I data m) ->
    (forall m cards al r, P m -> mix_update I m cards al r = Ok (m, r)) ->
    P mix0 -> (k <= length data)%nat -> (forall i, (pos i < num_components I data k)%nat) -> forall n_restr n_mh n_full maxiter burnin r,
    exists s out, sm_run I (Ok hyp0) (Ok mix0) data covs k pos st n_restr n_mh n_full maxiter burnin r = Ok (s, out).
  Proof.
    subst covs. intros hyp0 mix0 k pos st P HP HF H K Q n_restr n_mh n_full maxiter burnin r.
    apply (sm_complete I L data H0 Hcj Hod Hn hyp0 mix0 k pos st P HP); auto.
    - intros x cards al q F. rewrite (HF x cards al q F). left. eauto.
    - intros x cards al q x' q' F E. rewrite (HF x cards al q F) in E. injection E as <- <-. exact F.
    - intros x cards al q F. rewrite (HF x cards al q F). eauto.
  Qed.
End Covs.

(** ** One observation, and data which need covariates *)
Section Undefined.
  Variable I : Iface.
  Variable L : laws I.
  Variable data : list (Datum I).
  Variable covs : list (Cov I).
  Hypothesis Hrows : rows_ok I data (at_ covs).
  Hypothesis Hcj : conj I = true.
  Hypothesis Hod : other_draw I = None.
  Variable hyp0 : Hyp I.
  Variable mix0 : Mix I.
  Variable k : nat.
  Variable pos : nat -> nat.
  Variable st : St I.
  Local Notation n := (length data).
  Hypothesis Hm : masses_ok I mix0 n.
  Hypothesis Hk : (k <= n)%nat.
  Hypothesis Hpos : forall i, (pos i < num_components I data k)%nat.

  Lemma first_sweep : forall n_restr n_mh n_full maxiter burnin r (e : res (alg I * Rng I)), 1 <= n -> 1 <= maxiter -> (forall x, e <> Ok x) ->
    (forall a q, proper n (a_alloc a) (view (a_uv a)) -> caches_ok data covs (a_uv a) -> masses_ok I (a_mix a) n -> sm_sample_allocations data n_restr n_mh n_full (a, q) = e) ->
    sm_run I (Ok hyp0) (Ok mix0) data covs k pos st n_restr n_mh n_full maxiter burnin r = (x <- e ;; Ok (x, [])).
  Proof.
    intros n_restr n_mh n_full maxiter burnin r e Hn Hmax He Hs.
    destruct (start_ok I L data hyp0 mix0 k pos st covs Hrows (fun m => masses_ok I m n) Hm Hk Hpos true r (fun _ => Logic.conj Hcj Hod) Hn) as (a & r' & E & G & M).
    unfold sm_run, run. rewrite E. cbn [rbind]. destruct maxiter as [|mx]; [lia|]. cbn [seq rfold]. unfold run_body at 1, base_step at 1.
    apply GInv_iff in G. destruct G as [Gp Gc]. rewrite (Hs a r' Gp Gc M). destruct e as [x| | |]; [exfalso; exact (He x eq_refl)|reflexivity..].
  Qed.

  Lemma single_throws : forall n_restr n_mh n_full maxiter burnin r, n = 1 -> 1 <= n_mh -> 1 <= maxiter ->
    exists msg, sm_run I (Ok hyp0) (Ok mix0) data covs k pos st n_restr n_mh n_full maxiter burnin r = Throw msg.
  Proof.
    intros n_restr n_mh n_full maxiter burnin r Hn Hh Hmax.
    destruct (start_ok I L data hyp0 mix0 k pos st covs Hrows (fun m => masses_ok I m n) Hm Hk Hpos true r (fun _ => Logic.conj Hcj Hod) ltac:(lia)) as (a & r' & E & G & M).
    unfold sm_run, run. rewrite E. cbn [rbind]. destruct maxiter as [|mx]; [lia|]. cbn [seq rfold]. unfold run_body at 1, base_step at 1.
    destruct (sm_single_throw0 data n_restr n_full a r' Hn Hh) as (msg & ->). eexists. reflexivity.
  Qed.
  Lemma single_undefined : forall n_restr n_full maxiter burnin r, n = 1 -> 1 <= n_full -> 1 <= maxiter ->
    sm_run I (Ok hyp0) (Ok mix0) data covs k pos st n_restr 0 n_full maxiter burnin r = UB.
  Proof.
    intros n_restr n_full maxiter burnin r Hn Hh Hmax. rewrite (first_sweep n_restr 0 n_full maxiter burnin r UB); [reflexivity|lia|exact Hmax|discriminate|].
    intros a q Gp Gc M. apply sm_single_UB0; auto; rewrite Hn in *; auto.
  Qed.
  Lemma covariates_undefined : forall n_restr n_mh n_full maxiter burnin r, (forall d, In d data -> row_ok I d (cov0 I) = false) -> 2 <= n -> 1 <= n_mh + n_full -> 1 <= maxiter ->
    sm_run I (Ok hyp0) (Ok mix0) data covs k pos st n_restr n_mh n_full maxiter burnin r = UB.
  Proof.
    intros n_restr n_mh n_full maxiter burnin r Hb Hn Hh Hmax. rewrite (first_sweep n_restr n_mh n_full maxiter burnin r UB); [reflexivity|lia|exact Hmax|discriminate|].
    intros a q Gp Gc M. destruct n_mh as [|n_mh]; [apply full_bad0|apply sm_bad0]; auto; try lia. intros h Hin. apply In_nth_error in Hin. destruct Hin as (c & Hc). exact (proj2 (Gc c h Hc)).
  Qed.
End Undefined.
