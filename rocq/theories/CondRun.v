(** * Runs of the blocked Gibbs algorithm stay in their space. *)
From Coq Require Import String.
From Coq Require Import Bool List Arith ZArith Lia Permutation Sorting.Sorted.
From Verif Require Import Base Hier Algos Run Spec MargFacts NealFacts MargMore InitFacts MargProps ValidRun Stick Cond CondFacts CondProps UnivInst UnivRun CondInst.
Import ListNotations.

(** Labels of existing components; every component reports how often it occurs. *)
Definition saved_components {S : Type} (n nc : nat) (labels : list nat) (clusters : list (S * Z)) : Prop :=
  length labels = n /\ length clusters = nc /\ (forall c, In c labels -> c < nc) /\
  (forall c p, nth_error clusters c = Some p -> snd p = Z.of_nat (count_occ Nat.eq_dec labels c)).

Lemma consistent_components : forall (I : Iface) n nc al (uv : list (hier I)), consistent n al (view uv) -> length uv = nc ->
  saved_components n nc al (map (fun h => (h_state h, h_card h)) uv).
Proof.
  intros I n nc al uv (C1 & C2 & C3) Hn. split; [exact C1|]. split; [now rewrite map_length|]. split.
  - intros c H. apply In_nth_error in H. destruct H as (i & Hi). specialize (C2 i c Hi). unfold view in C2. rewrite map_length in C2. lia.
  - intros c p Hp. rewrite nth_error_map in Hp. destruct (nth_error uv c) as [h|] eqn:Hh; [|discriminate]. injection Hp as <-. cbn [snd].
    assert (Hv : nth_error (view uv) c = Some (h_ids h, h_card h)) by (apply nth_view; eexists; eauto).
    destruct (C3 c _ _ Hv) as (S1 & Q & ->). f_equal. rewrite occ_positions. apply Permutation_length, NoDup_Permutation.
    + clear -S1. induction S1 as [|a l S1 IH F]; constructor; [|exact IH]. intro H. rewrite Forall_forall in F. specialize (F a H). lia.
    + apply NoDup_filter, seq_NoDup.
    + intro i. rewrite filter_In, in_seq, Q. split.
      * intro H. rewrite H, Nat.eqb_refl. split; [|reflexivity]. split; [lia|]. cbn. apply nth_error_Some. congruence.
      * intros [_ H]. destruct (nth_error al i) as [x|]; [|discriminate]. apply Nat.eqb_eq in H. now subst.
Qed.

(** Saved states are states after at least one iteration. *)
Lemma run_after : forall (I : Iface) (Q0 Q1 : alg I -> Prop) init step maxiter burnin s out,
  (forall a r, init = Ok (a, r) -> Q0 a) -> (forall a r a' r', Q0 a -> step (a, r) = Ok (a', r') -> Q0 a' /\ Q1 a') ->
  run init step maxiter burnin = Ok (s, out) ->
  length out = maxiter - burnin /\ forall snap, In snap out -> exists a, Q0 a /\ Q1 a /\ s_alloc snap = a_alloc a /\
    s_clusters snap = map (fun h => (h_state h, h_card h)) (a_uv a) /\ s_hyp snap = a_hyp a /\ Run.s_mix snap = a_mix a.
Proof.
  intros I Q0 Q1 init step maxiter burnin s out Hi Hs R.
  destruct (@run_saves I _ _ _ _ _ _ R) as ([a0 r0] & E0 & _ & L0 & K). split; [exact L0|]. intros snap Hin.
  apply In_nth_error in Hin. destruct Hin as (i & Hin).
  destruct (K i) as (ar & snap' & Ei & Hi' & _ & Ea & Ec & Eh & Em); [rewrite <- L0; apply nth_error_Some; congruence|].
  rewrite Hin in Hi'. injection Hi' as <-.
  assert (V : Q0 (fst ar) /\ Q1 (fst ar)).
  { specialize (Hi _ _ E0). replace (burnin + i + 1) with (S (burnin + i)) in Ei by lia. revert Ei. generalize (burnin + i) as k. intro k. clear -Hs Hi. revert a0 r0 Hi.
    induction k as [|k IH]; intros a0 r0 Hi E; cbn [iter] in E; apply rbind_ok in E; destruct E as ([a1 r1] & E1 & E).
    - injection E as <-. eapply Hs; eauto.
    - apply (IH a1 r1); [eapply Hs; eauto|exact E]. }
  exists (fst ar). destruct V. auto 10.
Qed.

Section CondRun.
  Variable I : Iface.
  Variable L : laws I.
  Variable data : list (Datum I).
  Variable covs : list (Cov I).
  Hypothesis Hrows : rows_ok I data (at_ covs).
  Local Notation n := (length data).
  Variable nc : nat.
  Variable GH : Hyp I -> Prop.
  Variable GS : St I -> Prop.
  Hypothesis HC : closed I data covs GH GS (fun _ => True).
  (** Mixing states on which an iteration can start, and those it ends in. *)
  Variable P0 P1 : Mix I -> Prop.
  Hypothesis Hlw : forall m, P0 m -> logweights_ok I data m nc.
  Local Notation va := (va I data covs GH GS (fun _ => True)).

  Lemma va_move : forall i c (a a' : alg I), va a -> move_datum data covs i c a = Ok a' -> va a' /\ (a_alloc a <> [] -> a_alloc a' <> []).
  Proof.
    intros i c a a' V E. unfold move_datum in E. apply rbind_ok in E. destruct E as (c0 & _ & E). destruct (c =? c0); [injection E as <-; auto|].
    apply rbind_ok in E. destruct E as (al & Ea & E). apply rbind_ok in E. destruct E as (d & Ed & E). apply rbind_ok in E. destruct E as (cv & Ev & E).
    apply rbind_ok in E. destruct E as (u1 & E1 & E). apply rbind_ok in E. destruct E as (u2 & E2 & E). injection E as <-. destruct V as (U & X & H & M).
    split; [|intros _; cbn; eapply alloc_nonempty_set; eauto]. split; [|auto]. cbn.
    eapply (vuv_add_in I L data covs Hrows GH GS _ HC); [exact H|exact Ed|exact Ev| |exact E2]. eapply (vuv_remove_in I L data covs Hrows GH GS _ HC); eauto.
  Qed.

  Lemma va_blocked : forall is a r a' r', va a -> rfold (blocked_step data covs nc) is (a, r) = Ok (a', r') -> va a' /\ (a_alloc a <> [] -> a_alloc a' <> []).
  Proof.
    induction is as [|i is IH]; intros a r a' r' V E; cbn [rfold] in E; [injection E as <- <-; auto|].
    apply rbind_ok in E. destruct E as ([a1 r1] & E1 & E). unfold blocked_step in E1. apply rbind_ok in E1. destruct E1 as (ws & _ & E1).
    apply rbind_ok in E1. destruct E1 as ([c q] & _ & E1). apply rbind_ok in E1. destruct E1 as (a2 & E2 & E1). injection E1 as <- <-.
    destruct (va_move _ _ _ _ V E2) as [V2 N2]. destruct (IH _ _ _ _ V2 E) as [V3 N3]. auto.
  Qed.

  (** Everything but the update of the mixing succeeds. *)
  Lemma cond_step_shape : forall (a : alg I) r, CInv data covs a -> 1 <= nc -> length (a_uv a) = nc -> P0 (a_mix a) ->
    exists a2 r2 ns, base_step (blocked_sample_allocations data covs nc) false (a, r) =
        ('(m, r') <- mix_update I (a_mix a) (map Z.of_nat ns) (a_alloc a2) r2 ;; Ok (set_mix a2 m, r')) /\
      CInv data covs a2 /\ length (a_uv a2) = nc /\ length ns = nc /\ length (a_alloc a2) = n /\ (forall c, In c (a_alloc a2) -> c < nc).
  Proof.
    intros a r Ha Hnc Hu HP. unfold base_step.
    destruct (@blocked_sweep_ok I L data covs Hrows nc a r) as (a1 & r1 & E1 & C1 & L1 & Hy1 & Mx1 & _); auto.
    rewrite E1. cbn [rbind].
    destruct (@CInv_suv I L data covs a1 r1) as (a2 & r2 & E2 & C2 & Al2 & Hy2 & Mx2 & _ & Ids2); auto.
    rewrite E2. cbn [rbind]. unfold update_hierarchy_hypers.
    assert (L2 : length (a_uv a2) = nc).
    { rewrite <- L1. rewrite <- (map_length (@h_ids I) (a_uv a1)), <- Ids2, map_length. auto. }
    assert (L2' : 0 < length (a_uv a2)) by lia.
    destruct (at_ok (a_uv a2) L2') as (h0 & E0 & _). rewrite E0. cbn [rbind].
    match goal with |- context [hyp_update I ?a ?b ?c] => destruct (hyp_update I a b c) as [hy r3] end.
    cbn [rbind]. unfold update_mixing. change (a_mix (set_hyp a2 hy)) with (a_mix a2).
    change (a_uv (set_hyp a2 hy)) with (a_uv a2).
    pose proof C2 as [X1 [X2 X3]].
    assert (Ec : map (@h_card I) (a_uv a2) = map Z.of_nat (map (fun h => length (h_ids h)) (a_uv a2))).
    { rewrite map_map. apply map_ext_in. intros h Hh. apply In_nth_error in Hh. destruct Hh as (c & Hc). destruct (X3 c h Hc) as (([_ [K _]] & _) & _). exact K. }
    rewrite Ec, Mx2, Mx1.
    exists (set_hyp a2 hy), r3, (map (fun h => length (h_ids h)) (a_uv a2)). split; [reflexivity|]. split.
    { split; [auto|split; auto]. simpl. intros c h Hc. destruct (X3 c h Hc) as ([K F] & Ph & Q). split; [split; [auto|discriminate]|auto]. }
    split; [exact L2|]. split; [now rewrite map_length|]. split; [exact X1|].
    intros c Hc. apply In_nth_error in Hc. destruct Hc as (i & Hi). destruct (X2 i c Hi) as [_ K]. lia.
  Qed.

  Hypothesis Hup : forall m ns al r, P0 m -> length ns = nc -> length al = n -> (forall c, In c al -> c < nc) ->
    exists m' r', mix_update I m (map Z.of_nat ns) al r = Ok (m', r') /\ P0 m' /\ P1 m'.

  Lemma cond_step_ok : forall (a : alg I) r, CInv data covs a -> 1 <= nc -> length (a_uv a) = nc -> P0 (a_mix a) ->
    exists a' r', base_step (blocked_sample_allocations data covs nc) false (a, r) = Ok (a', r') /\
      CInv data covs a' /\ length (a_uv a') = nc /\ P0 (a_mix a') /\ P1 (a_mix a').
  Proof.
    intros a r Ha Hnc Hu HP. destruct (cond_step_shape a r Ha Hnc Hu HP) as (a2 & r2 & ns & E & C & Lu & Ln & La & Hc).
    destruct (Hup (a_mix a) ns (a_alloc a2) r2 HP Ln La Hc) as (m' & r' & E3 & Pm & Qm). rewrite E, E3. cbn [rbind].
    exists (set_mix a2 m'), r'. split; [reflexivity|]. split; [exact C|]. auto.
  Qed.

  Variable hy : Hyp I.
  Variable m : Mix I.
  Variable pos : nat -> nat.
  Variable h0 : hier I.
  Hypothesis Hhy : GH hy.
  Hypothesis Hm : P0 m.
  Hypothesis Hnc : 1 <= nc <= n.
  Hypothesis Hpos : forall i, pos i < nc.
  Hypothesis Hh0 : forall p, h_ph h0 = Some p -> GH p.
  Hypothesis Hh1 : h_saved h0 = false.
  Local Notation init r := (init_clusters data covs false hy m nc pos [h0] r).
  Local Notation step := (base_step (blocked_sample_allocations data covs nc) false).

  Theorem blocked_complete : forall maxiter burnin r, exists s out, run (init r) step maxiter burnin = Ok (s, out).
  Proof.
    intros maxiter burnin r. apply (complete I (fun a => CInv data covs a /\ length (a_uv a) = nc /\ P0 (a_mix a))).
    - intros a (_ & H & _) E. rewrite E in H. cbn in H. lia.
    - destruct (@blocked_init I L data covs Hrows hy m nc pos h0 r Hnc Hpos Hh1) as (a & r' & E & C & K & Hl & Em).
      exists a, r'. split; [exact E|]. split; [apply CInv_iff; auto|]. split; [exact Hl|now rewrite Em].
    - intros a q (C & Hl & P). destruct (cond_step_ok a q C ltac:(lia) Hl P) as (a' & q' & E & C' & L' & P' & _). exists a', q'. auto.
  Qed.

  Theorem blocked_saved : forall maxiter burnin r s out, run (init r) step maxiter burnin = Ok (s, out) ->
    length out = maxiter - burnin /\ forall snap, In snap out ->
      saved_components n nc (s_alloc snap) (s_clusters snap) /\ GH (s_hyp snap) /\ P0 (Run.s_mix snap) /\ P1 (Run.s_mix snap) /\
      (forall p, In p (s_clusters snap) -> GS (fst p)).
  Proof.
    intros maxiter burnin r s out R.
    destruct (run_after I (fun a => va a /\ a_alloc a <> [] /\ CInv data covs a /\ length (a_uv a) = nc /\ P0 (a_mix a)) (fun a => P1 (a_mix a)) (init r) step maxiter burnin s out) as [K1 K2]; [..|exact R|].
    - intros a q E.
      destruct (va_init I L data covs Hrows GH GS (fun _ => True) HC false hy m nc pos h0 r a q Hhy Logic.I Hh0 ltac:(lia) E) as [V N].
      destruct (@blocked_init I L data covs Hrows hy m nc pos h0 r Hnc Hpos Hh1) as (a1 & r1 & E1 & C & K & Hl & Em).
      pose proof (eq_trans (eq_sym E) E1) as Q. injection Q as -> ->.
      split; [exact V|]. split; [exact N|]. split; [apply CInv_iff; auto|]. split; [exact Hl|now rewrite Em].
    - intros a q a' q' (V & N & C & Hl & P) E.
      destruct (va_base_step I data covs GH GS (fun _ => True) HC (blocked_sample_allocations data covs nc) false a q a' q') as [V' N']; [|exact V|exact N|exact E|].
      { intros b u b' u' Vb Eb. eapply va_blocked; eauto. }
      destruct (cond_step_ok a q C ltac:(lia) Hl P) as (a1 & q1 & E1 & C1 & L1 & M0 & M1).
      pose proof (eq_trans (eq_sym E) E1) as Q. injection Q as -> ->. auto 10.
    - split; [exact K1|]. intros snap Hin. destruct (K2 snap Hin) as (a & ((U & _ & H & _) & _ & C & Hl & P) & P' & Ea & Ec & Eh & Em).
      rewrite Ea, Ec, Eh, Em. apply CInv_iff in C. split; [apply consistent_components; [apply C|exact Hl]|]. split; [exact H|]. split; [exact P|]. split; [exact P'|].
      intros p Hp. apply in_map_iff in Hp. destruct Hp as (h & <- & Hh). apply (U h Hh).
  Qed.
End CondRun.

(** ** A mixing that cannot be updated *)
Section Throws.
  Variable I : Iface.
  Variable L : laws I.
  Variable data : list (Datum I).
  Variable covs : list (Cov I).
  Hypothesis Hrows : rows_ok I data (at_ covs).
  Local Notation n := (length data).
  Variable nc : nat.
  Variable m : Mix I.
  Hypothesis Hlw : logweights_ok I data m nc.
  Hypothesis Hth : forall ns al r, length ns = nc -> exists msg, mix_update I m (map Z.of_nat ns) al r = Throw msg.
  Variable hy : Hyp I.
  Variable pos : nat -> nat.
  Variable h0 : hier I.
  Hypothesis Hnc : 1 <= nc <= n.
  Hypothesis Hpos : forall i, pos i < nc.
  Hypothesis Hh1 : h_saved h0 = false.

  Lemma blocked_throws : forall maxiter burnin r, 1 <= maxiter -> exists msg,
    run (init_clusters data covs false hy m nc pos [h0] r) (base_step (blocked_sample_allocations data covs nc) false) maxiter burnin = Throw msg.
  Proof.
    intros maxiter burnin r Hk.
    destruct (@blocked_init I L data covs Hrows hy m nc pos h0 r Hnc Hpos Hh1) as (a & r' & E & C & K & Hl & Em).
    unfold run. rewrite E. cbn [rbind]. destruct maxiter as [|maxiter]; [lia|]. cbn [seq rfold].
    destruct (cond_step_shape I L data covs Hrows nc (fun x => x = m) ltac:(intros x ->; exact Hlw) a r') as (a2 & r2 & ns & E2 & _ & _ & Ln & _); [apply CInv_iff; auto|lia|exact Hl|exact Em|].
    destruct (Hth ns (a_alloc a2) r2 Ln) as (msg & Et). rewrite Em, Et in E2. cbn [rbind] in E2.
    assert (Q : run_body (base_step (blocked_sample_allocations data covs nc) false) burnin ((a, r'), []) 0 = Throw msg) by (unfold run_body; rewrite E2; reflexivity).
    rewrite Q. cbn [rbind]. eauto.
  Qed.
End Throws.

(** ** Runs with the wrong number of components *)
Section Counts.
  Variable I : Iface.
  Variable L : laws I.
  Variable data : list (Datum I).
  Variable covs : list (Cov I).
  Hypothesis Hrows : rows_ok I data (at_ covs).
  Local Notation n := (length data).
  Variable hy : Hyp I.
  Variable m : Mix I.
  Variable pos : nat -> nat.
  Variable h0 : hier I.
  Hypothesis Hh1 : h_saved h0 = false.

  Lemma no_weights_ub : forall nc, length covs = n -> 1 <= n -> (forall i, pos i < num_components I data nc) -> nc <= n -> mix_logweights I m 0 = [] ->
    forall maxiter burnin r, 1 <= maxiter ->
    run (init_clusters data covs false hy m nc pos [h0] r) (base_step (blocked_sample_allocations data covs (num_components I data nc)) false) maxiter burnin = UB.
  Proof.
    intros nc Hc Hn Hpos Hle Hw maxiter burnin r Hk.
    destruct (@init_clusters_ok I L data covs Hrows false hy m nc pos h0 r) as (a & r' & E & _ & _ & _ & Ex & _);
      [discriminate|exact Hn|exact Hle|exact Hpos|unfold ph_ok; rewrite Hh1; discriminate|].
    unfold run. rewrite E. cbn [rbind]. destruct maxiter as [|maxiter]; [lia|]. cbn [seq rfold].
    assert (Hnc : exists k, num_components I data nc = S k).
    { specialize (Hpos 0). destruct (num_components I data nc); [lia|eauto]. }
    destruct Hnc as (k & Ek). rewrite Ek.
    assert (Q : base_step (blocked_sample_allocations data covs (S k)) false (a, r') = UB).
    { unfold base_step, blocked_sample_allocations. destruct (length data) as [|n'] eqn:El; [lia|]. cbn [seq rfold blocked_step]. unfold blocked_logprobas.
      assert (H0 : 0 < length data) by (rewrite El; lia). assert (H1 : 0 < length covs) by (rewrite Hc; lia).
      destruct (at_ok data H0) as (d & Ed & _). destruct (at_ok covs H1) as (cv & Ec & _). rewrite Ed, Ec, Ex, Hw. reflexivity. }
    assert (Q2 : run_body (base_step (blocked_sample_allocations data covs (S k)) false) burnin ((a, r'), []) 0 = UB) by (unfold run_body; rewrite Q; reflexivity).
    rewrite Q2. reflexivity.
  Qed.

  Lemma too_many_ub : forall nc k maxiter burnin r, n < nc ->
    run (init_clusters data covs false hy m nc pos [h0] r) (base_step (blocked_sample_allocations data covs k) false) maxiter burnin = UB.
  Proof. intros nc k maxiter burnin r H. unfold run. rewrite (@init_clusters_too_many I L data covs Hrows false hy m nc pos h0 r); [reflexivity|unfold ph_ok; rewrite Hh1; discriminate|exact H]. Qed.
End Counts.

(** ** Replacing the mixing *)
Lemma with_mixing_laws : forall I M lw up, laws I -> laws (with_mixing I M lw up).
Proof. intros I M lw up []. constructor; assumption. Qed.
Lemma with_mixing_rows : forall I M lw up (data : list (Datum I)) covs, rows_ok I data (at_ covs) -> rows_ok (with_mixing I M lw up) data (at_ covs).
Proof. intros I M lw up data covs H. exact H. Qed.
Lemma with_mixing_closed : forall I M lw up (data : list (Datum I)) covs GH GS GM, closed I data covs GH GS GM ->
  closed (with_mixing I M lw up) data covs GH GS (fun _ => True).
Proof.
  intros I M lw up data covs GH GS GM [A B C D E _]. constructor; try assumption. auto.
Qed.
