(** * Split-and-merge: proofs that every update keeps a proper partition and
    fresh caches. *)
From Coq Require Import String.
From Coq Require Import Bool List Arith ZArith Lia Sorting.Sorted Permutation.
From Verif Require Import Base Hier Algos SplitMerge Run Spec MargFacts NealFacts InitFacts MargMore.
Import ListNotations.
Set Implicit Arguments.

Lemma In_set_union : forall l2 l1 x, In x (set_union l1 l2) <-> In x l1 \/ In x l2.
Proof.
  induction l2 as [|y l2 IH]; intros l1 x; simpl; [tauto|].
  rewrite In_set_insert, IH. intuition.
Qed.

Lemma ssorted_union : forall l2 l1, ssorted l1 -> ssorted (set_union l1 l2).
Proof. induction l2 as [|y l2 IH]; intros l1 H; simpl; auto. apply ssorted_insert. auto. Qed.

Section SM.
Variable I : Iface.
Variable L : laws I.
Variable data : list (Datum I).
Notation n := (length data).
Notation c0 := (cov0 I).
Notation cvf := (fun _ : nat => Ok (cov0 I)).
Hypothesis Hrows : rows_ok I data cvf.
Hypothesis Hcj : conj I = true.
Hypothesis Hod : other_draw I = None.
Notation IV := (@Inv I data cvf).

Definition Hu : forall b : bool, b = true -> conj I = true /\ other_draw I = None :=
  fun _ _ => Logic.conj Hcj Hod.

Lemma rows0 : forall i, i < n -> exists d, at_ data i = Ok d.
Proof. intros i Hi. destruct (Hrows Hi) as (d & c & E & _). eauto. Qed.

Lemma cond_pred_ok : forall hy (h : hier I) d c, ph_ok h -> exists w, h_cond_pred hy h d c = Ok w.
Proof.
  intros hy h d c P. unfold h_cond_pred, h_get_post. rewrite Hod.
  destruct (h_saved h) eqn:Es.
  - destruct (h_ph h) as [p|] eqn:Ep; [|exfalso; apply (P Es); auto]. simpl. eauto.
  - unfold h_compute_post. rewrite Hod. simpl. eauto.
Qed.

Lemma Inv_weak : forall trk hy f uv, IV trk hy f uv -> IV false hy f uv.
Proof.
  intros trk hy f uv [H1 H2]. split; auto. intros c h Hc. destruct (H2 c h Hc) as ((K & _) & P & M).
  split; [split; [exact K|discriminate]|]. auto.
Qed.

Lemma Inv_strong : forall hy f uv, IV false hy f uv ->
  (forall c h, nth_error uv c = Some h -> fresh hy h) -> IV true hy f uv.
Proof.
  intros hy f uv [H1 H2] HF. split; auto. intros c h Hc. destruct (H2 c h Hc) as ((K & _) & P & M).
  split; [split; [exact K|eauto]|]. auto.
Qed.

Lemma Inv_fresh : forall hy f uv, IV true hy f uv ->
  forall c h, nth_error uv c = Some h -> fresh hy h.
Proof. intros hy f uv [_ H2] c h Hc. destruct (H2 c h Hc) as ((_ & F) & _). auto. Qed.

(** [add_in] with any flag, tracking nothing; with the flag set the touched
    cluster becomes fresh. *)
Lemma add_in_any : forall b hy f uv i c d,
  at_ data i = Ok d -> i < n -> IV false hy f uv -> f i = None -> c < length uv ->
  exists uv', add_in hy b c i d c0 uv = Ok uv' /\ length uv' = length uv /\
    IV false hy (fun j => if j =? i then Some c else f j) uv' /\
    (forall e h, nth_error uv e = Some h -> e <> c -> nth_error uv' e = Some h) /\
    (b = true -> forall h, nth_error uv' c = Some h -> fresh hy h).
Proof.
  intros b hy f uv i c d Hd Hi HI Hf Hc.
  destruct (@add_in_ok I L data cvf Hrows b (Hu (b := b)) false (@trk_false _) hy f uv i c d c0)
    as (uv' & E & El & HI' & _ & Hoth & _); auto.
  exists uv'. split; auto. split; auto. split; auto. split; auto.
  intros -> h Hh. destruct (at_ok uv Hc) as (g & Eg & Eng).
  destruct HI as [_ H2]. destruct (H2 c g Eng) as ((K & _) & P & M).
  unfold add_in in E. rewrite Eg in E. cbn [rbind] in E. rinv E g'. injection E as <-.
  rewrite nth_error_upd_same in Hh by auto. injection Hh as <-.
  destruct (@h_add_ok_gen I L data cvf Hrows hy true i d c0 g) as (g1 & E1 & _ & _ & _ & F & _); auto.
  { rewrite M, Hf. discriminate. }
  rewrite E0 in E1. injection E1 as <-. auto.
Qed.

Lemma remove_in_any : forall b hy f uv i c d,
  at_ data i = Ok d -> i < n -> IV false hy f uv -> f i = Some c ->
  exists uv', remove_in hy b c i d c0 uv = Ok uv' /\ length uv' = length uv /\
    IV false hy (fun j => if j =? i then None else f j) uv' /\
    (forall e h, nth_error uv e = Some h -> e <> c -> nth_error uv' e = Some h) /\
    (b = true -> forall h, nth_error uv' c = Some h -> fresh hy h).
Proof.
  intros b hy f uv i c d Hd Hi HI Hf.
  destruct (@remove_in_ok I L data cvf Hrows b (Hu (b := b)) false (@trk_false _) hy f uv i c d c0)
    as (uv' & E & El & HI' & Hoth & _); auto.
  exists uv'. split; auto. split; auto. split; auto. split; auto.
  intros -> h Hh. destruct HI as [H1 H2]. destruct (H1 i c Hf) as [_ Hc].
  destruct (at_ok uv Hc) as (g & Eg & Eng).
  destruct (H2 c g Eng) as ((K & _) & P & M).
  unfold remove_in in E. rewrite Eg in E. cbn [rbind] in E. rinv E g'. injection E as <-.
  rewrite nth_error_upd_same in Hh by auto. injection Hh as <-.
  destruct (@h_remove_ok_gen I L data cvf Hrows hy true i d c0 g) as (g1 & E1 & _ & _ & _ & F & _); auto.
  { rewrite M; auto. }
  rewrite E0 in E1. injection E1 as <-. auto.
Qed.

(** ** The restricted clusters *)

(** [gf] gives the side of every datum of the two clusters; [f] is always on
    side 0 and [s] on side 1. *)
Definition RInv (hy : Hyp I) (f s : nat) (g : rgs I) : Prop :=
  exists gf : nat -> option nat,
    IV true hy gf (g_uv g) /\ length (g_uv g) = 2 /\
    gf f = Some 0 /\ gf s = Some 1 /\
    (forall j, gf j <> None <-> j = f \/ j = s \/ In j (g_idx g)) /\
    length (g_alloc g) = length (g_idx g) /\
    (forall k i c, nth_error (g_idx g) k = Some i -> nth_error (g_alloc g) k = Some c -> gf i = Some c).

(** Facts about the set of data to reassign. *)
Definition IdxOK (f s : nat) (a : alg I) (idx : list nat) : Prop :=
  NoDup idx /\ ~ In f idx /\ ~ In s idx /\
  (forall j, In j idx -> j < n /\
     (nth_error (a_alloc a) j = nth_error (a_alloc a) f \/ nth_error (a_alloc a) j = nth_error (a_alloc a) s)) /\
  (forall j, j <> f -> j <> s -> j < n ->
     (nth_error (a_alloc a) j = nth_error (a_alloc a) f \/ nth_error (a_alloc a) j = nth_error (a_alloc a) s) -> In j idx).

Definition GS (trk : bool) (a : alg I) : Prop :=
  length (a_alloc a) = n /\ IV trk (a_hyp a) (nth_error (a_alloc a)) (a_uv a) /\ nonempty (a_uv a).

Lemma restricted_idx_ok : forall trk (a : alg I) f s, GS trk a -> f < n -> s < n -> f <> s ->
  exists idx, restricted_idx f s a = Ok idx /\ IdxOK f s a idx.
Proof.
  intros trk a f s (Hl & [H1 H2] & Hne) Hf Hs Hfs. unfold restricted_idx.
  assert (Hf' : f < length (a_alloc a)) by lia. assert (Hs' : s < length (a_alloc a)) by lia.
  destruct (at_ok _ Hf') as (cf & Ecf & Ncf). destruct (at_ok _ Hs') as (cs & Ecs & Ncs).
  rewrite Ecf, Ecs. cbn [rbind].
  destruct (H1 f cf Ncf) as [_ Lf]. destruct (H1 s cs Ncs) as [_ Ls].
  destruct (at_ok _ Lf) as (hf & Ehf & Nhf). destruct (at_ok _ Ls) as (hs & Ehs & Nhs).
  rewrite Ehf. cbn [rbind].
  destruct (H2 cf hf Nhf) as (((Sf & _) & _) & _ & Mf).
  destruct (H2 cs hs Nhs) as (((Ss & _) & _) & _ & Ms).
  assert (K : forall tmp, ssorted tmp ->
     (forall j, In j tmp <-> nth_error (a_alloc a) j = Some cf \/ nth_error (a_alloc a) j = Some cs) ->
     IdxOK f s a (set_remove s (set_remove f tmp))).
  { intros tmp St Mt. pose proof (ssorted_remove f St) as St1.
    assert (M2 : forall j, In j (set_remove s (set_remove f tmp)) <-> j <> s /\ j <> f /\ In j tmp).
    { intros j. rewrite In_set_remove by auto. rewrite In_set_remove by auto. tauto. }
    split; [apply ssorted_NoDup, ssorted_remove; auto|].
    split; [rewrite M2; tauto|]. split; [rewrite M2; tauto|].
    rewrite Ncf, Ncs. split.
    - intros j Hj. apply M2 in Hj. destruct Hj as (_ & _ & Hj). apply Mt in Hj.
      split; auto. destruct Hj as [Hj|Hj]; apply H1 in Hj; tauto.
    - intros j A B _ D. apply M2. split; auto. split; auto. apply Mt. auto. }
  destruct (cf =? cs) eqn:Ecc.
  - apply Nat.eqb_eq in Ecc. subst cs. cbn [rbind]. eexists. split; [reflexivity|].
    apply K; auto. intros j. rewrite Mf. tauto.
  - rewrite Ehs. cbn [rbind]. eexists. split; [reflexivity|].
    apply K; [apply ssorted_union; auto|]. intros j. rewrite In_set_union, Mf, Ms. tauto.
Qed.

Lemma launch_loop_ok : forall hy idx r h0, NoDup idx -> (forall j, In j idx -> j < n) ->
  exists al guv r', rfold (launch_step data hy) idx (([], [h_clone h0; h_clone h0]), r) = Ok ((al, guv), r') /\
    length guv = 2 /\ length al = length idx /\
    exists gf, IV false hy gf guv /\
      (forall j, gf j <> None <-> In j idx) /\
      (forall k i c, nth_error idx k = Some i -> nth_error al k = Some c -> gf i = Some c).
Proof.
  intros hy idx r h0 Hnd Hlt.
  destruct (@rfold_inv _ _ (launch_step data hy)
    (fun done st => length (snd (fst st)) = 2 /\ length (fst (fst st)) = length done /\
       exists gf, IV false hy gf (snd (fst st)) /\
         (forall j, gf j <> None <-> In j done) /\
         (forall k i c, nth_error done k = Some i -> nth_error (fst (fst st)) k = Some c -> gf i = Some c))
    idx [] (([], [h_clone h0; h_clone h0]), r)) as ([[al guv] r'] & E & (A & B & C)).
  - split; auto. split; auto. exists (fun _ => None). split; [split|split].
    + discriminate.
    + intros c h Hc. assert (h = h_clone h0).
      { destruct c as [|[|c]]; simpl in Hc; try congruence. destruct c; discriminate. }
      subst h. split; [split; [apply hok0_clone|discriminate]|]. split; [unfold ph_ok; simpl; discriminate|].
      intros j. simpl. split; [tauto|discriminate].
    + intros j. simpl. tauto.
    + intros [|k] i c; discriminate.
  - intros done i [[al guv] r0] (rest & Eidx) (A & B & gf & HI & M & Hk). cbn [fst snd app] in *.
    assert (Hin : In i idx) by (rewrite Eidx; apply in_or_app; right; left; auto).
    assert (Hni : ~ In i done).
    { rewrite Eidx in Hnd. apply NoDup_remove_2 in Hnd. intros X. apply Hnd. apply in_or_app; auto. }
    unfold launch_step, unif. change (2 =? 0) with false. cbn [rbind].
    destruct (uniform I 2 r0) as [b r1].
    destruct (rows0 (Hlt i Hin)) as (d & Ed). rewrite Ed. cbn [rbind].
    set (c := if b =? 0 then 0 else 1).
    assert (Hc : c < length guv) by (unfold c; rewrite A; destruct (b =? 0); lia).
    assert (Hgi : gf i = None).
    { destruct (gf i) eqn:X; auto. exfalso. apply Hni, M. congruence. }
    destruct (@add_in_any false hy gf guv i c d) as (guv' & E' & El & HI' & _); auto.
    rewrite E'. cbn [rbind]. eexists. split; [reflexivity|]. cbn [fst snd].
    split; [congruence|]. split; [rewrite !app_length, B; reflexivity|].
    exists (fun j => if j =? i then Some c else gf j). split; auto. split.
    + intros j. rewrite in_app_iff. simpl. destruct (j =? i) eqn:Ej.
      * apply Nat.eqb_eq in Ej. subst j. split; [intros _; right; left; auto|intros _; discriminate].
      * apply Nat.eqb_neq in Ej. rewrite M. split; [auto|intros [X|[X|[]]]; [auto|congruence]].
    + intros k i0 c1 Hi0 Hc1. destruct (Nat.lt_ge_cases k (length done)) as [Hk1|Hk1].
      * rewrite nth_error_app1 in Hi0 by auto. rewrite nth_error_app1 in Hc1 by lia.
        destruct (i0 =? i) eqn:Ej; [|eauto].
        apply Nat.eqb_eq in Ej. subst. exfalso. apply Hni. eapply nth_error_In; eauto.
      * rewrite nth_error_app2 in Hi0 by auto. rewrite nth_error_app2 in Hc1 by lia.
        rewrite B in Hc1. destruct (k - length done) as [|q]; simpl in Hi0, Hc1; [|destruct q; discriminate].
        injection Hi0 as <-. injection Hc1 as <-. rewrite Nat.eqb_refl. auto.
  - exists al, guv, r'. split; auto.
Qed.

Lemma launch_ok : forall trk (a : alg I) f s idx r, GS trk a -> f < n -> s < n -> f <> s ->
  IdxOK f s a idx ->
  exists g r', launch data f s idx a r = Ok (g, r') /\ RInv (a_hyp a) f s g /\ g_idx g = idx.
Proof.
  intros trk a f s idx r G Hf Hs Hfs (X1 & X2 & X3 & X4 & X5). unfold launch.
  assert (Hne0 : a_uv a <> []).
  { destruct G as (Hl & [H1 _] & _). intros E.
    assert (Hf' : f < length (a_alloc a)) by lia. destruct (at_ok _ Hf') as (c & _ & Ec).
    destruct (H1 f c Ec) as [_ B]. rewrite E in B. simpl in B. lia. }
  destruct (a_uv a) as [|h0 uv] eqn:Euv; [congruence|].
  change (at_ (h0 :: uv) 0) with (Ok h0). cbn [rbind].
  destruct (@launch_loop_ok (a_hyp a) idx r h0) as (al & guv & r' & E & Lg & La & gf & HI & M & Hk); auto.
  { intros j Hj. apply X4; auto. }
  rewrite E. cbn [rbind].
  destruct (rows0 Hf) as (df & Edf). rewrite Edf. cbn [rbind].
  assert (Gf : gf f = None). { destruct (gf f) eqn:Y; auto. exfalso. apply X2, M. congruence. }
  assert (Gs : gf s = None). { destruct (gf s) eqn:Y; auto. exfalso. apply X3, M. congruence. }
  destruct (@add_in_any true (a_hyp a) gf guv f 0 df) as (guv1 & E1 & L1 & HI1 & O1 & F1); auto; [lia|].
  rewrite E1. cbn [rbind].
  destruct (rows0 Hs) as (ds & Eds). rewrite Eds. cbn [rbind].
  destruct (@add_in_any true (a_hyp a) (fun j => if j =? f then Some 0 else gf j) guv1 s 1 ds)
    as (guv2 & E2 & L2 & HI2 & O2 & F2); auto; [|lia|].
  { apply Nat.neq_sym, Nat.eqb_neq in Hfs. rewrite Hfs. auto. }
  rewrite E2. cbn [rbind]. eexists. exists r'. split; [reflexivity|]. split; [|reflexivity].
  exists (fun j => if j =? s then Some 1 else if j =? f then Some 0 else gf j).
  cbn [g_uv g_idx g_alloc]. split; [|split; [lia|split; [|split; [|split; [|split]]]]].
  - apply Inv_strong; auto. intros c h Hc.
    destruct (Nat.eq_dec c 1) as [->|Hc1]; [eauto|].
    assert (c = 0) by (apply nth_error_lt in Hc; lia). subst c.
    assert (H0 : 0 < length guv1) by lia. destruct (at_ok _ H0) as (g0 & _ & Ng0).
    rewrite (O2 0 g0 Ng0) in Hc by lia. injection Hc as <-. eauto.
  - rewrite Nat.eqb_refl. apply Nat.eqb_neq in Hfs. rewrite Hfs. auto.
  - rewrite Nat.eqb_refl. auto.
  - intros j. destruct (j =? s) eqn:Y1; [apply Nat.eqb_eq in Y1; intuition congruence|].
    destruct (j =? f) eqn:Y2; [apply Nat.eqb_eq in Y2; intuition congruence|].
    apply Nat.eqb_neq in Y1, Y2. rewrite M. intuition.
  - auto.
  - intros k i c Hi Hc.
    destruct (i =? s) eqn:Y1; [apply Nat.eqb_eq in Y1; subst; exfalso; apply X3; eapply nth_error_In; eauto|].
    destruct (i =? f) eqn:Y2; [apply Nat.eqb_eq in Y2; subst; exfalso; apply X2; eapply nth_error_In; eauto|].
    eauto.
Qed.

(** What split-merge asks of the mixing in addition to a Neal3 sweep: masses
    for two clusters and any number of observations up to [n]. *)
Definition sm_masses_ok (m : Mix I) : Prop :=
  masses_ok I m n /\
  (forall k c, k <= n -> (1 <= c)%Z -> exists w, mass_ex I m k 2 c = Ok w) /\
  (exists w, mass_new I m n 2 = Ok w).

Lemma card_pos : forall trk hy f uv c h j, IV trk hy f uv -> nth_error uv c = Some h -> f j = Some c ->
  (1 <= h_card h)%Z.
Proof.
  intros trk hy f uv c h j [_ H2] Hc Hj. destruct (H2 c h Hc) as (((_ & K & _) & _) & _ & M).
  apply M in Hj. rewrite K. destruct (h_ids h); simpl in *; [tauto|lia].
Qed.

Lemma idx_bound : forall f s a idx, f < n -> s < n -> f <> s -> IdxOK f s a idx -> length idx + 2 <= n.
Proof.
  intros f s a idx Hf Hs Hfs (X1 & X2 & X3 & X4 & _).
  assert (NoDup (f :: s :: idx)).
  { constructor; [simpl; intuition|]. constructor; auto. }
  assert (incl (f :: s :: idx) (seq 0 n)).
  { intros x [<-|[<-|Hx]]; apply in_seq; try lia. apply X4 in Hx. lia. }
  pose proof (NoDup_incl_length H H0) as K. rewrite seq_length in K. simpl in K. lia.
Qed.

Lemma rgs_logproba_ok : forall trk (a : alg I) gf guv nidx d c j, IV trk (a_hyp a) gf guv -> c < length guv ->
  gf j = Some c -> nidx + 2 <= n -> sm_masses_ok (a_mix a) ->
  exists w, rgs_logproba a nidx d guv c = Ok w.
Proof.
  intros trk a gf guv nidx d c j HI Hc Hj Hb (_ & Hm & _). unfold rgs_logproba.
  destruct (at_ok guv Hc) as (h & Eh & Nh). rewrite Eh. cbn [rbind].
  destruct (Hm (nidx + 2 - 1) (h_card h)) as (w & Ew); [lia|eapply card_pos; eauto|].
  rewrite Ew. cbn [rbind]. destruct (cond_pred_ok (a_hyp a) (h := h) d c0) as (p & Ep).
  { destruct HI as [_ H2]. destruct (H2 c h Nh) as (_ & P & _). auto. }
  rewrite Ep. cbn [rbind]. eauto.
Qed.

Lemma rgs_step_ok : forall trk (a : alg I) f s orig g lp r k,
  GS trk a -> f < n -> s < n -> f <> s -> IdxOK f s a (g_idx g) -> sm_masses_ok (a_mix a) ->
  RInv (a_hyp a) f s g -> k < length (g_idx g) ->
  exists g' lp' r', rgs_step data a f orig ((g, lp), r) k = Ok ((g', lp'), r') /\
    RInv (a_hyp a) f s g' /\ g_idx g' = g_idx g.
Proof.
  intros trk a f s orig g lp r k G Hf Hs Hfs HX Hm (gf & HI & Lg & Gf & Gs & M & La & Hk) Hkl.
  pose proof (idx_bound Hf Hs Hfs HX) as Hb. destruct HX as (X1 & X2 & X3 & X4 & X5).
  unfold rgs_step.
  destruct (at_ok _ Hkl) as (i & Ei & Ni). rewrite Ei. cbn [rbind].
  assert (Hka : k < length (g_alloc g)) by lia.
  destruct (at_ok _ Hka) as (ck & Eck & Nck). rewrite Eck. cbn [rbind].
  assert (Hin : In i (g_idx g)) by (eapply nth_error_In; eauto).
  destruct (X4 i Hin) as [Hi _]. destruct (rows0 Hi) as (d & Ed). rewrite Ed. cbn [rbind].
  assert (Hif : i <> f) by congruence. assert (His : i <> s) by congruence.
  pose proof (Hk k i ck Ni Nck) as Gi.
  destruct (@remove_in_ok I L data cvf Hrows true (Hu (b := true)) true (fun x => x) (a_hyp a) gf (g_uv g) i ck d c0)
    as (guv1 & E1 & L1 & HI1 & _); auto.
  rewrite E1. cbn [rbind].
  set (gf1 := fun j => if j =? i then None else gf j) in *.
  assert (Gf1 : gf1 f = Some 0). { unfold gf1. apply Nat.neq_sym, Nat.eqb_neq in Hif. rewrite Hif. auto. }
  assert (Gs1 : gf1 s = Some 1). { unfold gf1. apply Nat.neq_sym, Nat.eqb_neq in His. rewrite His. auto. }
  destruct (@rgs_logproba_ok true a gf1 guv1 (length (g_idx g)) d 0 f) as (wa & Ewa); auto; [lia|].
  destruct (@rgs_logproba_ok true a gf1 guv1 (length (g_idx g)) d 1 s) as (wb & Ewb); auto; [lia|].
  rewrite Ewa, Ewb. cbn [rbind].
  assert (Hc : exists c_new r', c_new < 2 /\
     (if orig : bool then ai <- at_ (a_alloc a) i ;; af <- at_ (a_alloc a) f ;; Ok (if ai =? af then 0 else 1, r)
      else cat I [wa; wb] r) = Ok (c_new, r')).
  { destruct orig.
    - destruct G as (Hl & _). assert (Hi' : i < length (a_alloc a)) by lia.
      assert (Hf' : f < length (a_alloc a)) by lia.
      destruct (at_ok _ Hi') as (ai & Eai & _). destruct (at_ok _ Hf') as (af & Eaf & _).
      rewrite Eai, Eaf. cbn [rbind]. eexists. exists r. split; [|reflexivity]. destruct (ai =? af); lia.
    - cbn [cat]. pose proof (@cat_lt I L [wa; wb] r ltac:(discriminate)) as K.
      destruct (categorical I [wa; wb] r) as [c r']. simpl in K. exists c, r'. split; auto. }
  destruct Hc as (c_new & r' & Hc2 & Ec). rewrite Ec. cbn [rbind].
  destruct (@add_in_ok I L data cvf Hrows true (Hu (b := true)) true (fun x => x) (a_hyp a) gf1 guv1 i c_new d c0)
    as (guv2 & E2 & L2 & HI2 & _); auto; [unfold gf1; rewrite Nat.eqb_refl; auto|lia|].
  rewrite E2. cbn [rbind]. eexists. eexists. exists r'. split; [reflexivity|]. split; [|reflexivity].
  exists (fun j => if j =? i then Some c_new else gf1 j). cbn [g_uv g_idx g_alloc].
  assert (Hfi : (f =? i) = false) by (apply Nat.eqb_neq; auto).
  assert (Hsi : (s =? i) = false) by (apply Nat.eqb_neq; auto).
  rewrite Hfi, Hsi. split; auto. split; [lia|]. split; auto. split; auto. split.
  { intros j. unfold gf1. destruct (j =? i) eqn:Ej; [|apply M].
    apply Nat.eqb_eq in Ej. subst j. split; [auto|congruence]. }
  split; [rewrite upd_length; auto|].
  intros k' i' c' Hi' Hc'. unfold gf1. rewrite nth_error_upd in Hc'.
  assert (Hkb : (k <? length (g_alloc g)) = true) by (apply Nat.ltb_lt; auto).
  rewrite Hkb, andb_true_r in Hc'.
  destruct (k' =? k) eqn:Ek.
  - apply Nat.eqb_eq in Ek. subst k'. assert (i' = i) by congruence. subst. rewrite Nat.eqb_refl. auto.
  - apply Nat.eqb_neq in Ek. destruct (i' =? i) eqn:Ei'; [|eauto].
    apply Nat.eqb_eq in Ei'. subst i'. exfalso. apply Ek.
    eapply (proj1 (NoDup_nth_error _) X1); [eapply nth_error_lt; eauto|congruence].
Qed.

Lemma restricted_gs_ok : forall trk (a : alg I) f s orig g r,
  GS trk a -> f < n -> s < n -> f <> s -> IdxOK f s a (g_idx g) -> sm_masses_ok (a_mix a) ->
  RInv (a_hyp a) f s g ->
  exists g' lp' r', restricted_gs data a f orig g r = Ok ((g', lp'), r') /\
    RInv (a_hyp a) f s g' /\ g_idx g' = g_idx g.
Proof.
  intros trk a f s orig g r G Hf Hs Hfs HX Hm HR. unfold restricted_gs.
  destruct (@rfold_inv_simple _ _ (rgs_step data a f orig)
    (fun st => RInv (a_hyp a) f s (fst (fst st)) /\ g_idx (fst (fst st)) = g_idx g)
    (seq 0 (length (g_idx g))) ((g, w0 I), r)) as ([[g' lp'] r'] & E & K); simpl; auto.
  - intros k [[g1 lp1] r1] Hk [R1 E1]. cbn [fst] in *. apply in_seq in Hk.
    destruct (@rgs_step_ok trk a f s orig g1 lp1 r1 k) as (g2 & lp2 & r2 & E2 & R2 & I2); auto.
    { rewrite E1; auto. } { rewrite E1. lia. }
    exists ((g2, lp2), r2). rewrite E2. split; auto. cbn [fst]. split; auto. congruence.
  - exists g', lp', r'. split; auto.
Qed.

(** ** The acceptance ratios are defined *)

(** A cluster object holding exactly [ids], usable for densities. *)
Definition holds (h : hier I) (ids : list nat) : Prop :=
  @hok0 I data cvf h /\ ph_ok h /\ (forall j, In j (h_ids h) <-> In j ids).

Lemma holds_clone : forall h, holds (h_clone h) [].
Proof.
  intros h. split; [apply hok0_clone|]. split; [unfold ph_ok; simpl; discriminate|].
  intros j. simpl. tauto.
Qed.

Lemma holds_add : forall hy h ids i d, holds h ids -> at_ data i = Ok d -> i < n -> ~ In i ids ->
  exists h', h_add hy true i d c0 h = Ok h' /\ holds h' (i :: ids).
Proof.
  intros hy h ids i d (K & P & M) Hd Hi Hn.
  destruct (@h_add_ok_gen I L data cvf Hrows hy true i d c0 h) as (h' & E & K' & Ei & _ & F & _); auto.
  { rewrite M; auto. }
  exists h'. split; auto. split; auto. split; [eapply fresh_ph_ok; eauto|].
  intros j. rewrite Ei, In_set_insert, M. simpl. intuition.
Qed.

Lemma holds_card : forall h ids, holds h ids -> ids <> [] -> (1 <= h_card h)%Z.
Proof.
  intros h ids ((_ & K & _) & _ & M) Hne. destruct ids as [|x ids]; [congruence|].
  assert (In x (h_ids h)) by (apply M; simpl; auto).
  rewrite K. destruct (h_ids h); simpl in *; [tauto|lia].
Qed.

Lemma ratio_loop_ok : forall (a : alg I) l dv un pd pu lr D U,
  length (a_alloc a) = n -> sm_masses_ok (a_mix a) ->
  NoDup l -> (forall j, In j l -> j < n /\ ~ In j D /\ ~ In j U) ->
  holds dv D -> holds un U -> D <> [] -> U <> [] ->
  exists dv' un' pd' pu' lr',
    rfold (ratio_step data a) l (((dv, un), (pd, pu)), lr) = Ok (((dv', un'), (pd', pu')), lr') /\
    holds un' (rev l ++ U).
Proof.
  intros a l. induction l as [|j l IH]; intros dv un pd pu lr D U Hl Hm Hnd Hj HD HU ND NU.
  - simpl. do 5 eexists. split; [reflexivity|]. auto.
  - inversion Hnd as [|x l' Hnj Hnd']. subst.
    destruct (Hj j) as (Hjn & HjD & HjU); [simpl; auto|].
    destruct (rows0 Hjn) as (d & Ed). cbn [rfold].
    unfold ratio_step at 1. rewrite Ed. cbn [rbind].
    destruct (cond_pred_ok (a_hyp a) (h := dv) d c0) as (p1 & Ep1); [apply HD|]. rewrite Ep1. cbn [rbind].
    destruct Hm as (Hm1 & Hm2 & Hm3).
    destruct (Hm2 (length (a_alloc a)) (h_card dv)) as (m1 & Em1); [lia|eapply holds_card; eauto|].
    rewrite Em1. cbn [rbind].
    destruct (@holds_add (a_hyp a) dv D j d) as (dv' & Edv & HD'); auto. rewrite Edv. cbn [rbind].
    destruct (cond_pred_ok (a_hyp a) (h := un) d c0) as (p2 & Ep2); [apply HU|]. rewrite Ep2. cbn [rbind].
    destruct (Hm2 (length (a_alloc a)) (h_card un)) as (m2 & Em2); [lia|eapply holds_card; eauto|].
    rewrite Em2. cbn [rbind].
    destruct (@holds_add (a_hyp a) un U j d) as (un' & Eun & HU'); auto. rewrite Eun. cbn [rbind].
    destruct (IH dv' un' (wadd I pd p1) (wadd I pu p2) (wadd I (wadd I lr m1) (wneg I m2)) (j :: D) (j :: U))
      as (dv2 & un2 & pd2 & pu2 & lr2 & E & H2); auto; try discriminate.
    { split; [|split]; auto. }
    { intros k Hk. destruct (Hj k) as (A & B & C); [simpl; auto|]. split; auto. simpl.
      split; intros [->|X]; auto. }
    do 5 eexists. split; [exact E|]. simpl. rewrite <- app_assoc. auto.
Qed.

Lemma ratio_clust_ok : forall (a : alg I) h0 i ids un pu pd lr U,
  length (a_alloc a) = n -> sm_masses_ok (a_mix a) ->
  ssorted ids -> i < n -> (forall j, In j ids -> j < n) ->
  (forall j, In j (i :: ids) -> ~ In j U) -> holds un U ->
  exists un' pu' pd' lr', ratio_clust data a h0 i ids ((un, pu), (pd, lr)) = Ok ((un', pu'), (pd', lr')) /\
    holds un' (rev (set_remove i ids) ++ i :: U).
Proof.
  intros a h0 i ids un pu pd lr U Hl Hm Hs Hi Hids HdU HU. unfold ratio_clust.
  destruct (rows0 Hi) as (d & Ed). rewrite Ed. cbn [rbind].
  destruct (@holds_add (a_hyp a) (h_clone h0) [] i d) as (dv & Edv & HD); auto using holds_clone.
  rewrite Edv. cbn [rbind].
  match goal with |- context [rbind (if _ then Ok (?A, ?B) else ?C) _] =>
    assert (K : exists pu1 lr1, (if Z.eqb (h_card un) 0 then Ok (A, B) else C) = Ok (pu1, lr1)) end.
  { destruct (Z.eqb (h_card un) 0) eqn:E0; [eauto|].
    apply Z.eqb_neq in E0. destruct HU as (K0 & P0 & M0).
    destruct (cond_pred_ok (a_hyp a) (h := un) d c0) as (p & Ep); auto. rewrite Ep. cbn [rbind].
    destruct Hm as (_ & Hm2 & _).
    destruct (Hm2 (length (a_alloc a)) (h_card un)) as (m & Em); [lia|destruct K0 as (_ & Kc & _); rewrite Kc in *; lia|].
    rewrite Em. cbn [rbind]. eauto. }
  destruct K as (pu1 & lr1 & E1). rewrite E1. cbn [rbind].
  destruct (@holds_add (a_hyp a) un U i d) as (un1 & Eun & HU1); auto.
  { apply HdU. simpl. auto. }
  rewrite Eun. cbn [rbind].
  destruct (@ratio_loop_ok a (set_remove i ids) dv un1 (wadd I pd (h_prior_pred I (a_hyp a) d c0)) pu1 lr1 [i] (i :: U))
    as (dv2 & un2 & pd2 & pu2 & lr2 & E & H2); auto; try discriminate.
  { apply ssorted_NoDup, ssorted_remove; auto. }
  { intros j Hj. apply In_set_remove in Hj; auto. destruct Hj as [A B].
    split; [auto|]. simpl. split; [intuition|]. intros [X|X]; [congruence|]. eapply HdU; simpl; eauto. }
  rewrite E. cbn [rbind]. do 4 eexists. split; [reflexivity|]. auto.
Qed.

Lemma compute_log_ratios_ok : forall trk (a : alg I) f s g split,
  GS trk a -> f < n -> s < n -> f <> s -> sm_masses_ok (a_mix a) ->
  RInv (a_hyp a) f s g -> IdxOK f s a (g_idx g) ->
  (split = false -> nth_error (a_alloc a) f <> nth_error (a_alloc a) s) ->
  exists ll lpr, compute_log_ratios data a g f s split = Ok (ll, lpr).
Proof.
  intros trk a f s g split G Hf Hs Hfs Hm HR HX Hsp. unfold compute_log_ratios.
  destruct G as (Hl & HI & Hne). destruct HI as [H1 H2].
  assert (Hf' : f < length (a_alloc a)) by lia. assert (Hs' : s < length (a_alloc a)) by lia.
  destruct (at_ok _ Hf') as (cf & Ecf & Ncf). destruct (at_ok _ Hs') as (cs & Ecs & Ncs).
  destruct (H1 f cf Ncf) as [_ Lf]. destruct (H1 s cs Ncs) as [_ Ls].
  assert (H0u : 0 < length (a_uv a)) by lia. destruct (at_ok _ H0u) as (h0 & Eh0 & _).
  rewrite Eh0. cbn [rbind].
  destruct Hm as (Hm1 & Hm2 & (mn & Emn)). rewrite Hl, Emn. cbn [rbind].
  assert (K : exists ids0 ids1,
     (if split : bool then h <- at_ (g_uv g) 0 ;; Ok (h_ids h) else c <- at_ (a_alloc a) f ;; h <- at_ (a_uv a) c ;; Ok (h_ids h)) = Ok ids0 /\
     (if split : bool then h <- at_ (g_uv g) 1 ;; Ok (h_ids h) else c <- at_ (a_alloc a) s ;; h <- at_ (a_uv a) c ;; Ok (h_ids h)) = Ok ids1 /\
     ssorted ids0 /\ ssorted ids1 /\ (forall j, In j ids0 -> j < n) /\ (forall j, In j ids1 -> j < n) /\
     (forall j, In j (f :: ids0) -> In j (s :: ids1) -> False)).
  { destruct split.
    - destruct HR as (gf & [R1 R2] & Lg & Gf & Gs & _).
      assert (HL0 : 0 < length (g_uv g)) by lia. assert (HL1 : 1 < length (g_uv g)) by lia.
      destruct (at_ok _ HL0) as (g0 & E0 & N0). destruct (at_ok _ HL1) as (g1 & E1 & N1).
      rewrite E0, E1. cbn [rbind]. exists (h_ids g0), (h_ids g1).
      destruct (R2 0 g0 N0) as (((S0 & _) & _) & _ & M0). destruct (R2 1 g1 N1) as (((S1 & _) & _) & _ & M1).
      split; auto. split; auto. split; auto. split; auto.
      split; [intros j Hj; apply M0 in Hj; eapply R1; eauto|].
      split; [intros j Hj; apply M1 in Hj; eapply R1; eauto|].
      intros j Hj Hj'. assert (gf j = Some 0) by (destruct Hj as [<-|Hj]; [auto|apply M0; auto]).
      assert (gf j = Some 1) by (destruct Hj' as [<-|Hj']; [auto|apply M1; auto]). congruence.
    - rewrite Ecf, Ecs. cbn [rbind].
      destruct (at_ok _ Lf) as (hf & Ehf & Nhf). destruct (at_ok _ Ls) as (hs & Ehs & Nhs).
      rewrite Ehf, Ehs. cbn [rbind]. exists (h_ids hf), (h_ids hs).
      destruct (H2 cf hf Nhf) as (((S0 & _) & _) & _ & M0). destruct (H2 cs hs Nhs) as (((S1 & _) & _) & _ & M1).
      split; auto. split; auto. split; auto. split; auto.
      split; [intros j Hj; apply M0 in Hj; eapply H1; eauto|].
      split; [intros j Hj; apply M1 in Hj; eapply H1; eauto|].
      intros j Hj Hj'. assert (nth_error (a_alloc a) j = Some cf) by (destruct Hj as [<-|Hj]; [auto|apply M0; auto]).
      assert (nth_error (a_alloc a) j = Some cs) by (destruct Hj' as [<-|Hj']; [auto|apply M1; auto]).
      apply (Hsp eq_refl). congruence. }
  destruct K as (ids0 & ids1 & E0 & E1 & S0 & S1 & B0 & B1 & Dis).
  rewrite E0. cbn [rbind].
  assert (Hm' : sm_masses_ok (a_mix a)) by (split; [|split]; eauto).
  destruct (@ratio_clust_ok a h0 f ids0 (h_clone h0) (w0 I) (w0 I) mn []) as (un1 & pu1 & pd1 & lr1 & Er1 & Hu1); auto using holds_clone.
  rewrite Er1. cbn [rbind]. rewrite E1. cbn [rbind].
  destruct (@ratio_clust_ok a h0 s ids1 un1 pu1 pd1 lr1 (rev (set_remove f ids0) ++ [f])) as (un2 & pu2 & pd2 & lr2 & Er2 & _); auto.
  { intros j Hj X. apply (Dis j); auto. rewrite in_app_iff, <- in_rev in X. destruct X as [X|[<-|[]]]; [|simpl; auto].
    apply In_set_remove in X; auto. simpl. tauto. }
  rewrite Er2. cbn [rbind]. destruct split; eauto.
Qed.

(** ** Moving the data of an accepted proposal *)

Definition move_fun (f : nat -> option nat) (ids : list nat) (new : nat) : nat -> option nat :=
  fun j => if in_dec Nat.eq_dec j ids then Some new else f j.

Lemma push_empty_ok : forall hy f uv (h0 : hier I), IV false hy f uv -> IV false hy f (uv ++ [h_clone h0]).
Proof.
  intros hy f uv h0 [H1 H2]. split.
  - intros j c Hj. rewrite app_length. simpl. apply H1 in Hj. lia.
  - intros c h Hc. destruct (Nat.lt_ge_cases c (length uv)) as [Hlt|Hge].
    + rewrite nth_error_app1 in Hc by auto. apply H2; auto.
    + rewrite nth_error_app2 in Hc by auto.
      destruct (c - length uv) as [|q] eqn:Eq; simpl in Hc; [|destruct q; discriminate].
      injection Hc as <-. split; [split; [apply hok0_clone|discriminate]|].
      split; [unfold ph_ok; simpl; discriminate|].
      intros j. simpl. split; [tauto|]. intros X. apply H1 in X. lia.
Qed.

(** One transfer from [old] to [new]. *)
Lemma transfer_ok : forall b (a : alg I) i old new d,
  length (a_alloc a) = n -> at_ data i = Ok d -> i < n ->
  IV false (a_hyp a) (nth_error (a_alloc a)) (a_uv a) ->
  nth_error (a_alloc a) i = Some old -> new < length (a_uv a) -> old <> new ->
  exists uv1 uv2, remove_in (a_hyp a) b old i d c0 (a_uv a) = Ok uv1 /\
    add_in (a_hyp a) b new i d c0 uv1 = Ok uv2 /\
    set_at (a_alloc a) i new = Ok (upd (a_alloc a) i new) /\
    length uv2 = length (a_uv a) /\
    IV false (a_hyp a) (nth_error (upd (a_alloc a) i new)) uv2 /\
    (forall e h, nth_error (a_uv a) e = Some h -> e <> old -> e <> new -> nth_error uv2 e = Some h) /\
    (b = true -> forall e h, (e = old \/ e = new) -> nth_error uv2 e = Some h -> fresh (a_hyp a) h).
Proof.
  intros b a i old new d Hl Hd Hi HI Hold Hnew Hon.
  destruct (@remove_in_any b (a_hyp a) (nth_error (a_alloc a)) (a_uv a) i old d) as (uv1 & E1 & L1 & HI1 & O1 & F1); auto.
  destruct (@add_in_any b (a_hyp a) (fun j => if j =? i then None else nth_error (a_alloc a) j) uv1 i new d)
    as (uv2 & E2 & L2 & HI2 & O2 & F2); auto; [rewrite Nat.eqb_refl; auto|lia|].
  exists uv1, uv2. split; auto. split; auto. split; [apply set_at_ok; lia|]. split; [lia|]. split; [|split].
  - eapply Inv_ext; [|exact HI2]. intros j. cbv beta.
    rewrite nth_error_upd. replace (i <? length (a_alloc a)) with true by (symmetry; apply Nat.ltb_lt; lia).
    rewrite andb_true_r. destruct (j =? i); auto.
  - intros e h He A B. apply O2; auto.
  - intros Hb e h [-> | ->] He; [|eauto].
    assert (Ho : old < length uv1) by (rewrite L1; destruct HI as [H1 _]; eapply H1; eauto).
    destruct (at_ok _ Ho) as (g & _ & Ng). rewrite (O2 old g Ng) in He by auto. injection He as <-. eauto.
Qed.

Lemma nth_error_upd_in : forall (al : list nat) i x j, i < length al ->
  nth_error (upd al i x) j = if j =? i then Some x else nth_error al j.
Proof.
  intros al i x j Hi. rewrite nth_error_upd. apply Nat.ltb_lt in Hi. rewrite Hi, andb_true_r. auto.
Qed.

(** Split: the data of [ids] leave [old], where datum [s] stays, for the last
    cluster [new]. *)
Lemma move_split_ok : forall ids (a : alg I) old new s,
  length (a_alloc a) = n -> ids <> [] -> NoDup ids -> ~ In s ids ->
  IV false (a_hyp a) (nth_error (a_alloc a)) (a_uv a) ->
  (forall j, In j ids -> nth_error (a_alloc a) j = Some old) ->
  nth_error (a_alloc a) s = Some old -> new < length (a_uv a) -> old <> new ->
  exists a', move_all data true old new s ids a = Ok a' /\
    length (a_alloc a') = n /\ length (a_uv a') = length (a_uv a) /\
    IV false (a_hyp a') (nth_error (a_alloc a')) (a_uv a') /\
    (forall j, nth_error (a_alloc a') j = move_fun (nth_error (a_alloc a)) ids new j) /\
    (forall e h, nth_error (a_uv a) e = Some h -> e <> old -> e <> new -> nth_error (a_uv a') e = Some h) /\
    (forall e h, (e = old \/ e = new) -> nth_error (a_uv a') e = Some h -> fresh (a_hyp a') h) /\
    a_hyp a' = a_hyp a /\ a_mix a' = a_mix a /\ a_aux a' = a_aux a.
Proof.
  induction ids as [|i ids IH]; intros a old new s Hl Hne Hnd Hs HI Hids Hso Hnew Hon; [congruence|].
  assert (Hi : i < n).
  { destruct HI as [H1 _]. eapply H1. apply (Hids i). simpl; auto. }
  destruct (rows0 Hi) as (d & Ed).
  destruct ids as [|i2 ids].
  - cbn [move_all]. rewrite Ed. cbn [rbind].
    destruct (@transfer_ok true a i old new d) as (uv1 & uv2 & E1 & E2 & E3 & L2 & HI2 & O2 & F2); auto.
    { apply Hids; simpl; auto. }
    rewrite E1. cbn [rbind]. rewrite E2. cbn [rbind]. rewrite E3. cbn [rbind].
    eexists. split; [reflexivity|]. simpl.
    split; [rewrite upd_length; auto|]. split; auto. split; auto. split; [|split; [|split]]; auto.
    2: { intros e h Heh He. eapply F2; eauto. }
    intros j. rewrite nth_error_upd_in by lia. unfold move_fun.
    destruct (in_dec Nat.eq_dec j [i]) as [Y|Y]; destruct (j =? i) eqn:Ej; auto.
    + apply Nat.eqb_neq in Ej. destruct Y as [Y|[]]; congruence.
    + apply Nat.eqb_eq in Ej. subst. exfalso. apply Y. simpl; auto.
  - cbn [move_all]. rewrite Ed. cbn [rbind].
    destruct (@transfer_ok false a i old new d) as (uv1 & uv2 & E1 & E2 & E3 & L2 & HI2 & O2 & _); auto.
    { apply Hids; simpl; auto. }
    rewrite E1. cbn [rbind]. rewrite E2. cbn [rbind]. rewrite E3. cbn [rbind].
    set (a1 := set_alloc (set_uv a uv2) (upd (a_alloc a) i new)).
    inversion Hnd as [|x l Hni Hnd']. subst.
    destruct (IH a1 old new s) as (a' & E & A1 & A2 & A3 & A4 & A5 & A6 & A7 & A8 & A9); auto.
    { simpl. rewrite upd_length. auto. }
    { discriminate. }
    { intros X. apply Hs. right. auto. }
    { intros j Hj. simpl. rewrite nth_error_upd_in by lia.
      destruct (j =? i) eqn:Ej; [apply Nat.eqb_eq in Ej; subst; tauto|]. apply Hids. right. auto. }
    { simpl. rewrite nth_error_upd_in by lia.
      destruct (s =? i) eqn:Ej; [apply Nat.eqb_eq in Ej; subst; exfalso; apply Hs; simpl; auto|auto]. }
    { simpl. lia. }
    exists a'. split; [exact E|]. simpl in A2. split; auto. split; [lia|]. split; auto. split; [|split; [|split]]; auto.
    intros j. rewrite A4. unfold move_fun. simpl a_alloc. rewrite nth_error_upd_in by lia.
    destruct (in_dec Nat.eq_dec j (i2 :: ids)) as [Y|Y]; destruct (in_dec Nat.eq_dec j (i :: i2 :: ids)) as [Z|Z]; auto.
    + exfalso. apply Z. right. auto.
    + destruct Z as [<-|Z]; [rewrite Nat.eqb_refl; auto|tauto].
    + destruct (j =? i) eqn:Ej; auto. apply Nat.eqb_eq in Ej. subst. exfalso. apply Z. simpl; auto.
Qed.

(** Merge: all data of [old] go to the cluster of [s]. *)
Lemma move_merge_ok : forall ids (a : alg I) old new s,
  length (a_alloc a) = n -> ids <> [] -> NoDup ids ->
  IV false (a_hyp a) (nth_error (a_alloc a)) (a_uv a) ->
  (forall j, In j ids <-> nth_error (a_alloc a) j = Some old) ->
  nth_error (a_alloc a) s = Some new -> s < n -> old <> new ->
  (forall e h, nth_error (a_uv a) e = Some h -> e <> old -> e <> new -> h_ids h <> []) ->
  exists a', move_all data false old new s ids a = Ok a' /\
    length (a_alloc a') = n /\
    IV false (a_hyp a') (nth_error (a_alloc a')) (a_uv a') /\ nonempty (a_uv a') /\
    (forall j, nth_error (a_alloc a') j =
       option_map (fun e => if old <? e then e - 1 else e) (move_fun (nth_error (a_alloc a)) ids new j)) /\
    ((forall e h, nth_error (a_uv a) e = Some h -> e <> old -> e <> new -> fresh (a_hyp a) h) ->
     forall e h, nth_error (a_uv a') e = Some h -> fresh (a_hyp a') h) /\
    a_hyp a' = a_hyp a /\ a_mix a' = a_mix a /\ a_aux a' = a_aux a.
Proof.
  induction ids as [|i ids IH]; intros a old new s Hl Hne Hnd HI Hids Hsn Hs Hon Hoth; [congruence|].
  assert (Hio : nth_error (a_alloc a) i = Some old) by (apply Hids; simpl; auto).
  destruct HI as [H1 H2].
  destruct (H1 i old Hio) as [Hi Hold]. destruct (H1 s new Hsn) as [_ Hnew].
  destruct (rows0 Hi) as (d & Ed).
  assert (Hsi : s <> i) by (intros ->; congruence).
  destruct ids as [|i2 ids].
  - cbn [move_all]. rewrite Ed. cbn [rbind].
    assert (Hhole : IV false (a_hyp a) (hole i (a_alloc a)) (a_uv a) -> False).
    { intros [_ X]. destruct (at_ok _ Hold) as (h & _ & Nh). destruct (X old h Nh) as (_ & _ & M).
      destruct (H2 old h Nh) as (_ & _ & M'). assert (In i (h_ids h)) by (apply M'; auto).
      apply M in H. unfold hole in H. rewrite Nat.eqb_refl in H. discriminate. }
    clear Hhole.
    unfold remove_singleton. rewrite erase_at_ok by auto. cbn [rbind].
    set (a1 := set_uv (set_alloc a (relabel_down old (a_alloc a))) (del (a_uv a) old)).
    set (new' := if old <? new then new - 1 else new).
    assert (Es : nth_error (a_alloc a1) s = Some new').
    { simpl. rewrite nth_relabel_down, Hsn. reflexivity. }
    rewrite (at_Some _ _ Es). cbn [rbind].
    (* invariant with a hole at i, after the deletion *)
    assert (HD : IV false (a_hyp a) (fun j => option_map (fun e => if old <? e then e - 1 else e)
                     (if j =? i then None else nth_error (a_alloc a) j)) (del (a_uv a) old)).
    { split.
      - intros j e He. destruct (j =? i) eqn:Ej; [discriminate|]. apply Nat.eqb_neq in Ej.
        destruct (nth_error (a_alloc a) j) as [e0|] eqn:E0; simpl in He; [|discriminate]. injection He as <-.
        destruct (H1 j e0 E0) as [A B]. rewrite del_length by auto. split; auto.
        assert (e0 <> old). { intros ->. apply Hids in E0. destruct E0 as [->|[]]. congruence. }
        destruct (old <? e0) eqn:Ec; [apply Nat.ltb_lt in Ec|apply Nat.ltb_ge in Ec]; lia.
      - intros e h He. rewrite nth_error_del in He.
        set (e' := if e <? old then e else S e).
        assert (He' : nth_error (a_uv a) e' = Some h) by (unfold e'; destruct (e <? old); auto).
        assert (Hne' : e' <> old).
        { unfold e'. destruct (e <? old) eqn:Ee; [apply Nat.ltb_lt in Ee|apply Nat.ltb_ge in Ee]; lia. }
        destruct (H2 e' h He') as (A & B & C). split; auto. split; auto.
        intros j. rewrite C. destruct (j =? i) eqn:Ej.
        { apply Nat.eqb_eq in Ej. subst j. rewrite Hio. simpl. split; [|discriminate].
          intros X. injection X as X. congruence. }
        apply Nat.eqb_neq in Ej.
        destruct (nth_error (a_alloc a) j) as [e0|] eqn:E0; simpl; [|split; discriminate].
        assert (e0 <> old). { intros ->. apply Hids in E0. destruct E0 as [->|[]]. congruence. }
        unfold e' in *. split; intros X; injection X as X; f_equal.
        + subst e0. destruct (e <? old) eqn:Ee.
          * apply Nat.ltb_lt in Ee. destruct (old <? e) eqn:Ec; [apply Nat.ltb_lt in Ec; lia|auto].
          * apply Nat.ltb_ge in Ee. destruct (old <? S e) eqn:Ec; [lia|apply Nat.ltb_ge in Ec; lia].
        + destruct (old <? e0) eqn:Ec; [apply Nat.ltb_lt in Ec|apply Nat.ltb_ge in Ec];
          destruct (e <? old) eqn:Ee; [apply Nat.ltb_lt in Ee|apply Nat.ltb_ge in Ee|
                                     apply Nat.ltb_lt in Ee|apply Nat.ltb_ge in Ee]; lia. }
    assert (Hnl : new' < length (del (a_uv a) old)).
    { rewrite del_length by auto. unfold new'.
      destruct (old <? new) eqn:Ec; [apply Nat.ltb_lt in Ec|apply Nat.ltb_ge in Ec]; lia. }
    destruct (@add_in_any true (a_hyp a) (fun j => option_map (fun e => if old <? e then e - 1 else e)
                     (if j =? i then None else nth_error (a_alloc a) j)) (del (a_uv a) old) i new' d)
      as (uv2 & E2 & L2 & HI2 & O2 & F2); auto.
    { rewrite Nat.eqb_refl. auto. }
    change (a_hyp a1) with (a_hyp a). change (a_uv a1) with (del (a_uv a) old).
    rewrite E2. cbn [rbind].
    rewrite set_at_ok by (simpl; rewrite relabel_down_length; lia). cbn [rbind].
    eexists. split; [reflexivity|]. simpl.
    split; [rewrite upd_length, relabel_down_length; auto|].
    assert (Hal : forall j, nth_error (upd (relabel_down old (a_alloc a)) i new') j =
              if j =? i then Some new' else
              option_map (fun e => if old <? e then e - 1 else e) (if j =? i then None else nth_error (a_alloc a) j)).
    { intros j. rewrite nth_error_upd_in by (rewrite relabel_down_length; lia).
      destruct (j =? i); auto. apply nth_relabel_down. }
    (* position of clusters *)
    assert (Hpos : forall e h, nth_error uv2 e = Some h ->
        e = new' \/ exists e', nth_error (a_uv a) e' = Some h /\ e' <> old /\ e' <> new).
    { intros e h He. destruct (Nat.eq_dec e new') as [->|Hne']; [auto|right].
      assert (Hlt : e < length (del (a_uv a) old)) by (rewrite <- L2; eapply nth_error_lt; eauto).
      destruct (at_ok _ Hlt) as (g & _ & Ng). rewrite (O2 e g Ng Hne') in He. injection He as <-.
      rewrite nth_error_del in Ng. exists (if e <? old then e else S e).
      split; [destruct (e <? old); auto|].
      unfold new' in Hne'.
      destruct (e <? old) eqn:Ee; [apply Nat.ltb_lt in Ee|apply Nat.ltb_ge in Ee];
      destruct (old <? new) eqn:Ec; [apply Nat.ltb_lt in Ec|apply Nat.ltb_ge in Ec|apply Nat.ltb_lt in Ec|apply Nat.ltb_ge in Ec]; lia. }
    split; [|split; [|split; [|split]]]; auto.
    + eapply Inv_ext; [|exact HI2]. intros j. cbv beta. rewrite Hal. auto.
    + intros e h He. destruct (Hpos e h He) as [->|(e' & He' & A & B)]; [|eauto].
      destruct HI2 as [_ X2]. destruct (X2 new' h He) as (_ & _ & M). intros Y.
      assert (Hin : In i (h_ids h)) by (apply M; rewrite Nat.eqb_refl; auto). rewrite Y in Hin. auto.
    + intros j. rewrite Hal. unfold move_fun.
      destruct (in_dec Nat.eq_dec j [i]) as [Y|Y]; destruct (j =? i) eqn:Ej; auto.
      * apply Nat.eqb_neq in Ej. destruct Y as [Y|[]]; congruence.
      * apply Nat.eqb_eq in Ej. subst. exfalso. apply Y. simpl; auto.
    + intros HF e h He. destruct (Hpos e h He) as [->|(e' & He' & A & B)]; eauto.
  - cbn [move_all]. rewrite Ed. cbn [rbind].
    destruct (@transfer_ok false a i old new d) as (uv1 & uv2 & E1 & E2 & E3 & L2 & HI2 & O2 & _); auto.
    { split; auto. }
    rewrite E1. cbn [rbind]. rewrite E2. cbn [rbind]. rewrite E3. cbn [rbind].
    set (a1 := set_alloc (set_uv a uv2) (upd (a_alloc a) i new)).
    inversion Hnd as [|x l Hni Hnd']. subst.
    assert (Hback : forall e h, nth_error uv2 e = Some h -> e <> old -> e <> new -> nth_error (a_uv a) e = Some h).
    { intros e h He A B. assert (Hlt : e < length (a_uv a)) by (rewrite <- L2; eapply nth_error_lt; eauto).
      destruct (at_ok _ Hlt) as (g & _ & Ng). rewrite (O2 e g Ng A B) in He. congruence. }
    destruct (IH a1 old new s) as (a' & E & A1 & A3 & A4 & A5 & A6 & A7 & A8 & A9); auto.
    { simpl. rewrite upd_length. auto. }
    { discriminate. }
    { intros j. simpl a_alloc. rewrite nth_error_upd_in by lia. destruct (j =? i) eqn:Ej.
      - apply Nat.eqb_eq in Ej. subst. split; [tauto|]. intros X; injection X; intros; congruence.
      - apply Nat.eqb_neq in Ej. rewrite <- Hids. simpl. intuition. }
    { simpl. rewrite nth_error_upd_in by lia.
      destruct (s =? i) eqn:Ej; [apply Nat.eqb_eq in Ej; congruence|auto]. }
    { intros e h He A B. eapply Hoth; eauto. }
    exists a'. split; [exact E|]. split; auto. split; auto. split; auto. split; [|split; [|split; [|split]]]; auto.
    + intros j. rewrite A5. f_equal. unfold move_fun. simpl a_alloc. rewrite nth_error_upd_in by lia.
      destruct (in_dec Nat.eq_dec j (i2 :: ids)) as [Y|Y]; destruct (in_dec Nat.eq_dec j (i :: i2 :: ids)) as [Z|Z]; auto.
      * exfalso. apply Z. right. auto.
      * destruct Z as [<-|Z]; [rewrite Nat.eqb_refl; auto|tauto].
      * destruct (j =? i) eqn:Ej; auto. apply Nat.eqb_eq in Ej. subst. exfalso. apply Z. simpl; auto.
    + intros HF. apply A6. intros e h He A B. eapply HF; eauto.
Qed.

Lemma GS_strong : forall (a : alg I), GS false a ->
  (forall e h, nth_error (a_uv a) e = Some h -> fresh (a_hyp a) h) -> GS true a.
Proof. intros a (A & B & C) HF. split; auto. split; auto. apply Inv_strong; auto. Qed.

Lemma GS_weak : forall trk (a : alg I), GS trk a -> GS false a.
Proof. intros trk a (A & B & C). split; auto. split; auto. eapply Inv_weak; eauto. Qed.

(** The label vectors after an accepted split / merge. *)
Lemma split_moves : forall (al al' ids : list nat) old new p q,
  length al = n -> p < n -> q < n ->
  nth_error al p = Some old -> nth_error al q = Some old ->
  (forall j, In j ids -> nth_error al j = Some old) -> In p ids -> ~ In q ids ->
  (forall j e, nth_error al j = Some e -> e <> new) ->
  (forall j, nth_error al' j = move_fun (nth_error al) ids new j) ->
  splits n al al'.
Proof.
  intros al al' ids old new p q Hl Hp Hq Ep Eq Hids Hpi Hqi Hnew Hal.
  assert (Hin : forall j, In j ids -> nth_error al' j = Some new).
  { intros j Hj. rewrite Hal. unfold move_fun. destruct (in_dec Nat.eq_dec j ids); tauto. }
  assert (Hout : forall j, ~ In j ids -> nth_error al' j = nth_error al j).
  { intros j Hj. rewrite Hal. unfold move_fun. destruct (in_dec Nat.eq_dec j ids); tauto. }
  exists p, q. split; auto. split; auto. split; [congruence|]. split; [|split; [|split]].
  - rewrite (Hin p), (Hout q) by auto. intros X. apply (Hnew q new); congruence.
  - intros i j Hi Hj. destruct (in_dec Nat.eq_dec i ids) as [A|A]; destruct (in_dec Nat.eq_dec j ids) as [B|B].
    + intros _. rewrite (Hids i), (Hids j); auto.
    + rewrite (Hin i), (Hout j) by auto. intros X. symmetry in X. apply Hnew in X. tauto.
    + rewrite (Hin j), (Hout i) by auto. intros X. apply Hnew in X. tauto.
    + rewrite (Hout i), (Hout j) by auto. auto.
  - intros i j Hi Hj E X. rewrite !Hout; auto; intros Y; apply Hids in Y; congruence.
  - intros i Hi E. rewrite (Hin p), (Hout q) by auto.
    destruct (in_dec Nat.eq_dec i ids) as [A|A]; [rewrite Hin by auto; auto|rewrite Hout by auto; right; congruence].
Qed.

Lemma merge_moves : forall (al al' ids : list nat) old new p q,
  length al = n -> p < n -> q < n ->
  nth_error al p = Some old -> nth_error al q = Some new -> old <> new ->
  (forall j, In j ids <-> nth_error al j = Some old) ->
  (forall j, nth_error al' j = option_map (fun e => if old <? e then e - 1 else e) (move_fun (nth_error al) ids new j)) ->
  splits n al' al.
Proof.
  intros al al' ids old new p q Hl Hp Hq Ep Eq Hon Hids Hal.
  set (rd := fun e => if old <? e then e - 1 else e) in *.
  assert (Hrd : forall x y, x <> old -> y <> old -> rd x = rd y -> x = y).
  { unfold rd. intros x y Hx Hy. destruct (Nat.ltb_spec old x); destruct (Nat.ltb_spec old y); lia. }
  assert (Hv : forall j, j < n -> exists e, nth_error al j = Some e).
  { intros j Hj. rewrite <- Hl in Hj. apply nth_error_Some in Hj. destruct (nth_error al j); [eauto|congruence]. }
  assert (Hout : forall j e, nth_error al j = Some e -> e <> old -> nth_error al' j = Some (rd e)).
  { intros j e Hj He. rewrite Hal. unfold move_fun. destruct (in_dec Nat.eq_dec j ids) as [Y|Y].
    - apply Hids in Y. congruence.
    - rewrite Hj. reflexivity. }
  assert (Hin : forall j, nth_error al j = Some old -> nth_error al' j = Some (rd new)).
  { intros j Hj. rewrite Hal. unfold move_fun. destruct (in_dec Nat.eq_dec j ids) as [Y|Y]; auto.
    apply Hids in Hj. tauto. }
  assert (Hn' : forall j, nth_error al j = Some new -> nth_error al' j = Some (rd new)) by (intros; apply Hout; auto).
  exists p, q. split; auto. split; auto. split; [rewrite Hin, Hn'; auto|]. split; [congruence|]. split; [|split].
  - intros i j Hi Hj E. destruct (Hv i Hi) as (ei & Ei). destruct (Hv j Hj) as (ej & Ej).
    assert (ei = ej) by congruence. subst ej.
    destruct (Nat.eq_dec ei old) as [->|X]; [rewrite !Hin by auto; auto|].
    rewrite (Hout i ei), (Hout j ei); auto.
  - intros i j Hi Hj E X. destruct (Hv i Hi) as (ei & Ei). destruct (Hv j Hj) as (ej & Ej).
    rewrite (Hin p) in X by auto.
    assert (Y : ei <> old /\ ei <> new) by (split; intros ->; apply X; auto).
    assert (Y' : ej <> old /\ ej <> new) by (split; intros ->; apply X; rewrite E; auto).
    rewrite (Hout i ei), (Hout j ej) in E by tauto. injection E as E. apply Hrd in E; try tauto. congruence.
  - intros i Hi E. rewrite (Hin p) in E by auto. destruct (Hv i Hi) as (ei & Ei).
    destruct (Nat.eq_dec ei old) as [->|X]; [left; congruence|right].
    rewrite (Hout i ei) in E by auto. injection E as E. apply Hrd in E; auto. congruence.
Qed.

Lemma proposal_ok : forall trk (a : alg I) f s g split,
  GS trk a -> f < n -> s < n -> f <> s -> RInv (a_hyp a) f s g -> IdxOK f s a (g_idx g) ->
  (split = true -> nth_error (a_alloc a) f = nth_error (a_alloc a) s) ->
  (split = false -> nth_error (a_alloc a) f <> nth_error (a_alloc a) s) ->
  exists a', proposal_update data f s split g a = Ok a' /\ GS trk a' /\
    (if split then splits n (a_alloc a) (a_alloc a') else splits n (a_alloc a') (a_alloc a)) /\
    a_hyp a' = a_hyp a /\ a_mix a' = a_mix a /\ a_aux a' = a_aux a.
Proof.
  intros trk a f s g split G Hf Hs Hfs HR HX Hsp1 Hsp2. unfold proposal_update.
  pose proof G as (Hl & HI & Hne). pose proof HI as [H1 H2].
  assert (Hf' : f < length (a_alloc a)) by lia. assert (Hs' : s < length (a_alloc a)) by lia.
  destruct (at_ok _ Hf') as (cf & Ecf & Ncf). destruct (at_ok _ Hs') as (cs & Ecs & Ncs).
  destruct (H1 f cf Ncf) as [_ Lf]. destruct (H1 s cs Ncs) as [_ Ls].
  rewrite Ecf. cbn [rbind].
  assert (HFr : trk = true -> forall e h, nth_error (a_uv a) e = Some h -> fresh (a_hyp a) h).
  { intros -> . eapply Inv_fresh; eauto. }
  destruct split.
  - assert (cs = cf) by (specialize (Hsp1 eq_refl); congruence). subst cs.
    assert (H0u : 0 < length (a_uv a)) by lia. destruct (at_ok _ H0u) as (h0 & Eh0 & _).
    rewrite Eh0. cbn [rbind].
    destruct HR as (gf & [R1 R2] & Lg & Gf & Gs & M & _).
    assert (HL0 : 0 < length (g_uv g)) by lia. destruct (at_ok _ HL0) as (g0 & E0 & N0).
    rewrite E0. cbn [rbind].
    destruct (R2 0 g0 N0) as (((S0 & _) & _) & _ & M0).
    destruct HX as (X1 & X2 & X3 & X4 & X5).
    set (a1 := set_uv a (a_uv a ++ [h_clone h0])).
    assert (Hin : forall j, In j (h_ids g0) -> nth_error (a_alloc a) j = Some cf).
    { intros j Hj. apply M0 in Hj. assert (gf j <> None) by congruence. apply M in H.
      destruct H as [->|[->|H]]; auto. destruct (X4 j H) as [_ [Y|Y]]; congruence. }
    assert (Hfin : In f (h_ids g0)) by (apply M0; auto).
    destruct (@move_split_ok (h_ids g0) a1 cf (length (a_uv a)) s)
      as (a' & E & A1 & A2 & A3 & A4 & A5 & A6 & A7 & A8 & A9); auto.
    { intros X. rewrite X in Hfin. auto. }
    { apply ssorted_NoDup; auto. }
    { intros X. apply M0 in X. congruence. }
    { simpl. apply push_empty_ok. eapply Inv_weak; eauto. }
    { simpl. rewrite app_length. simpl. lia. }
    { lia. }
    exists a'. split; [exact E|]. simpl in A7, A8, A9. split; [|split; [|auto]].
    2: { apply (@split_moves (a_alloc a) (a_alloc a') (h_ids g0) cf (length (a_uv a)) f s); auto.
         - intros X. apply M0 in X. congruence.
         - intros j e Hj. apply H1 in Hj. lia. }
    assert (G0 : GS false a').
    { split; auto. split; auto. intros e h He.
      assert (He' : e < S (length (a_uv a))).
      { apply nth_error_lt in He. rewrite A2 in He. simpl in He. rewrite app_length in He. simpl in He. lia. }
      destruct A3 as [_ A3]. destruct (A3 e h He) as (_ & _ & M').
      destruct (Nat.eq_dec e cf) as [->|Hec].
      - intros Y. assert (Z : In s (h_ids h)).
        { apply M'. rewrite A4. unfold move_fun. destruct (in_dec Nat.eq_dec s (h_ids g0)) as [W|W]; auto.
          apply M0 in W. congruence. }
        rewrite Y in Z. auto.
      - destruct (Nat.eq_dec e (length (a_uv a))) as [->|Hel].
        + intros Y. assert (Z : In f (h_ids h)).
          { apply M'. rewrite A4. unfold move_fun. destruct (in_dec Nat.eq_dec f (h_ids g0)) as [W|W]; auto. tauto. }
          rewrite Y in Z. auto.
        + assert (Hlt : e < length (a_uv a)) by lia. destruct (at_ok _ Hlt) as (h' & _ & Nh').
          rewrite (A5 e h') in He; auto; [|simpl; rewrite nth_error_app1; auto].
          injection He as <-. eauto. }
    destruct trk; auto. apply GS_strong; auto. intros e h He.
    destruct (Nat.eq_dec e cf) as [->|Hec]; [exact (A6 _ h (or_introl eq_refl) He)|].
    destruct (Nat.eq_dec e (length (a_uv a))) as [->|Hel]; [exact (A6 _ h (or_intror eq_refl) He)|].
    assert (Hlt : e < length (a_uv a)).
    { apply nth_error_lt in He. rewrite A2 in He. simpl in He. rewrite app_length in He. simpl in He. lia. }
    destruct (at_ok _ Hlt) as (h' & _ & Nh').
    rewrite (A5 e h') in He; auto; [|simpl; rewrite nth_error_app1; auto]. injection He as <-.
    rewrite A7. eapply HFr; eauto.
  - assert (Hcc : cf <> cs) by (specialize (Hsp2 eq_refl); congruence).
    rewrite Ecs. cbn [rbind]. destruct (at_ok _ Lf) as (hf & Ehf & Nhf). rewrite Ehf. cbn [rbind].
    destruct (H2 cf hf Nhf) as (((S0 & _) & _) & _ & M0).
    destruct (@move_merge_ok (h_ids hf) a cf cs s) as (a' & E & A1 & A3 & A4 & A5 & A6 & A7 & A8 & A9); auto.
    { eapply Hne; eauto. }
    { apply ssorted_NoDup; auto. }
    { eapply Inv_weak; eauto. }
    { intros e h He _ _. eauto. }
    exists a'. split; [exact E|]. split; [|split; [|auto]].
    2: { apply (@merge_moves (a_alloc a) (a_alloc a') (h_ids hf) cf cs f s); auto. }
    destruct trk; [apply GS_strong|]; [split; auto| |split; auto].
    intros e h He. eapply A6; eauto.
Qed.

Lemma split_or_merge_ok : forall trk (a : alg I) f s g r,
  GS trk a -> f < n -> s < n -> f <> s -> sm_masses_ok (a_mix a) ->
  RInv (a_hyp a) f s g -> IdxOK f s a (g_idx g) ->
  exists a' r', split_or_merge data f s g a r = Ok (a', r') /\ GS trk a' /\
    (a' = a \/ splits n (a_alloc a) (a_alloc a') \/ splits n (a_alloc a') (a_alloc a)) /\
    a_hyp a' = a_hyp a /\ a_mix a' = a_mix a /\ a_aux a' = a_aux a.
Proof.
  intros trk a f s g r G Hf Hs Hfs Hm HR HX. unfold split_or_merge.
  pose proof G as (Hl & _ & _).
  assert (Hf' : f < length (a_alloc a)) by lia. assert (Hs' : s < length (a_alloc a)) by lia.
  destruct (at_ok _ Hf') as (cf & Ecf & Ncf). destruct (at_ok _ Hs') as (cs & Ecs & Ncs).
  rewrite Ecf, Ecs. cbn [rbind].
  destruct (@restricted_gs_ok trk a f s (negb (cf =? cs)) g r) as (g' & lp & r1 & E1 & R1 & I1); auto.
  rewrite E1. cbn [rbind].
  assert (Hsp : (cf =? cs) = false -> nth_error (a_alloc a) f <> nth_error (a_alloc a) s).
  { intros X. apply Nat.eqb_neq in X. congruence. }
  destruct (@compute_log_ratios_ok trk a f s g' (cf =? cs)) as (ll & lpr & E2); auto.
  { rewrite I1; auto. }
  rewrite E2. cbn [rbind].
  destruct (accept I (wadd I (wadd I (if cf =? cs then wneg I lp else lp) lpr) ll) r1) as [acc r2].
  destruct acc; [|eauto 10].
  destruct (@proposal_ok trk a f s g' (cf =? cs)) as (a' & E3 & G' & Mv & X); auto.
  { rewrite I1; auto. }
  { intros X. apply Nat.eqb_eq in X. congruence. }
  rewrite E3. cbn [rbind]. exists a', r2. split; auto. split; auto. split; auto.
  destruct (cf =? cs); auto.
Qed.

Lemma mh_update_ok : forall trk n_restr (a : alg I) r, 2 <= n -> GS trk a -> sm_masses_ok (a_mix a) ->
  exists a' r', mh_update data n_restr (a, r) = Ok (a', r') /\ GS trk a' /\
    (a' = a \/ splits n (a_alloc a) (a_alloc a') \/ splits n (a_alloc a') (a_alloc a)) /\
    a_hyp a' = a_hyp a /\ a_mix a' = a_mix a /\ a_aux a' = a_aux a.
Proof.
  intros trk n_restr a r Hn G Hm. unfold mh_update, unif.
  replace (n =? 0) with false by (symmetry; apply Nat.eqb_neq; lia). cbn [rbind].
  pose proof (@unif_lt I L n r) as U1. destruct (uniform I n r) as [f r1]. simpl in U1.
  replace (n - 1 =? 0) with false by (symmetry; apply Nat.eqb_neq; lia). cbn [rbind].
  pose proof (@unif_lt I L (n - 1) r1) as U2. destruct (uniform I (n - 1) r1) as [s0 r2]. simpl in U2.
  assert (Hf : f < n) by (apply U1; lia). assert (Hs0 : s0 < n - 1) by (apply U2; lia). clear U1 U2.
  set (s := if f <=? s0 then S s0 else s0).
  assert (Hs : s < n /\ f <> s).
  { unfold s. destruct (f <=? s0) eqn:E; [apply Nat.leb_le in E|apply Nat.leb_gt in E]; lia. }
  destruct Hs as [Hs Hfs]. clearbody s.
  destruct (@restricted_idx_ok trk a f s) as (idx & E1 & HX); auto. rewrite E1. cbn [rbind].
  destruct (@launch_ok trk a f s idx r2) as (g & r3 & E2 & R2 & I2); auto. rewrite E2. cbn [rbind].
  destruct (@rfold_inv_simple _ _ (fun st (_ : nat) =>
      '((g', _), r') <- restricted_gs data a f false (fst st) (snd st) ;; Ok (g', r'))
    (fun st => RInv (a_hyp a) f s (fst st) /\ g_idx (fst st) = idx) (seq 0 n_restr) (g, r3))
    as ([g1 r4] & E3 & R3 & I3); simpl; auto.
  - intros _ [g1 r4] _ [R1 I1]. cbn [fst snd] in *.
    destruct (@restricted_gs_ok trk a f s false g1 r4) as (g' & lp & r' & E & R' & I'); auto.
    { rewrite I1; auto. }
    rewrite E. cbn [rbind]. exists (g', r'). split; auto. cbn [fst]. split; auto. congruence.
  - rewrite E3. cbn [rbind]. cbn [fst] in *. apply split_or_merge_ok; auto. rewrite I3; auto.
Qed.

Lemma full_gs_step_ok : forall trk (a : alg I) r i, 2 <= n -> i < n -> GS trk a -> masses_ok I (a_mix a) n ->
  exists a' r', full_gs_step data (a, r) i = Ok (a', r') /\ GS trk a' /\
    a_hyp a' = a_hyp a /\ a_mix a' = a_mix a /\ a_aux a' = a_aux a.
Proof.
  intros trk a r i Hn Hi (Hl & HI & Hne) Hm. unfold full_gs_step.
  destruct (@unassign_ok I L data cvf Hrows true (Hu (b := true)) trk (fun _ => eq_refl) a i)
    as (al & uv & E & Hl1 & HI1 & Hne1 & Hg1); auto.
  rewrite E. cbn [rbind]. set (a1 := set_uv (set_alloc a al) uv) in *.
  destruct (rows0 Hi) as (d & Ed). rewrite Ed. cbn [rbind].
  assert (Hk : length uv <= n - 1).
  { assert (HS : length (set_remove i (seq 0 n)) = n - 1).
    { assert (Hin : In i (seq 0 n)) by (apply in_seq; lia).
      pose proof (length_set_remove _ _ Hin) as K. rewrite seq_length in K. lia. }
    rewrite <- HS. rewrite <- (map_length (@h_ids I) uv).
    destruct HI1 as [J1 J2]. apply clusters_le.
    - intros c l Hc. rewrite nth_error_map in Hc. destruct (nth_error uv c) eqn:X; [|discriminate]. injection Hc as <-. eauto.
    - intros c l x Hc Hx. rewrite nth_error_map in Hc. destruct (nth_error uv c) as [h|] eqn:X; [|discriminate].
      injection Hc as <-. destruct (J2 c h X) as (_ & _ & M). apply M in Hx. unfold hole in Hx.
      destruct (x =? i) eqn:Ex; [discriminate|]. apply Nat.eqb_neq in Ex.
      apply In_set_remove; [apply ssorted_seq|]. split; auto. apply in_seq. apply nth_error_lt in Hx. lia.
    - intros c c' l l' x Hc Hc' Hx Hx'. rewrite nth_error_map in Hc, Hc'.
      destruct (nth_error uv c) as [h|] eqn:X; [|discriminate]. injection Hc as <-.
      destruct (nth_error uv c') as [h'|] eqn:X'; [|discriminate]. injection Hc' as <-.
      destruct (J2 c h X) as (_ & _ & M). destruct (J2 c' h' X') as (_ & _ & M').
      apply M in Hx. apply M' in Hx'. congruence. }
  assert (Huv : uv <> []).
  { intros ->. destruct HI1 as [J1 _].
    assert (Hj : exists j, j < n /\ j <> i) by (destruct i; [exists 1|exists 0]; lia).
    destruct Hj as (j & Hj & Hji). assert (Hj' : j < length al) by lia.
    destruct (at_ok al Hj') as (c & _ & Ec). destruct (J1 j c) as [_ B]; [|simpl in B; lia].
    unfold hole. apply Nat.eqb_neq in Hji. rewrite Hji. auto. }
  destruct (Hm (length uv) Hk) as [Mex (wn & Ewn)].
  change (a_uv a1) with uv. change (a_mix a1) with (a_mix a). change (a_hyp a1) with (a_hyp a).
  match goal with |- context [rmap ?F uv] =>
    destruct (@rmap_ok _ _ F uv) as (ex & Eex & Lex) end.
  { intros h Hh. apply In_nth_error in Hh. destruct Hh as (c & Hc).
    destruct HI1 as [J1 J2]. destruct (J2 c h Hc) as (((_ & Kc & _) & _) & P & _).
    destruct (Mex (h_card h)) as (w & Ew).
    { specialize (Hne1 c h Hc). rewrite Kc. destruct (h_ids h); simpl; [congruence|lia]. }
    rewrite Ew. cbn [rbind]. destruct (cond_pred_ok (a_hyp a) (h := h) d c0) as (p & Ep); auto.
    rewrite Ep. cbn [rbind]. eauto. }
  rewrite Eex. cbn [rbind]. rewrite Ewn. cbn [rbind].
  assert (Hu0 : 0 < length uv) by (destruct uv; [congruence|simpl; lia]).
  destruct (at_ok uv Hu0) as (h0 & E0 & _). rewrite E0. cbn [rbind].
  match goal with |- context [cat I ?w r] => set (ws := w) end.
  assert (Lws : length ws = S (length uv)).
  { unfold ws. rewrite app_length, Lex. simpl. lia. }
  destruct ws as [|w1 ws'] eqn:Ews; [discriminate|]. cbn [cat rbind].
  pose proof (@cat_lt I L (w1 :: ws') r ltac:(discriminate)) as Hc.
  destruct (categorical I (w1 :: ws') r) as [c r1]. simpl fst in Hc. rewrite Lws in Hc.
  destruct (@assign_ok I L data cvf Hrows true (Hu (b := true)) trk (fun _ => eq_refl) a1 i c r1)
    as (uv2 & r2 & E2 & HI2 & Hne2); auto.
  { simpl. lia. }
  cbn [rbind]. rewrite E2. eexists. exists r2. split; [reflexivity|]. split; [|auto].
  split; [|split]; simpl; auto. rewrite upd_length. auto.
Qed.

Lemma full_gs_ok : forall trk (a : alg I) r, 2 <= n -> GS trk a -> masses_ok I (a_mix a) n ->
  exists a' r', full_gs data (a, r) = Ok (a', r') /\ GS trk a' /\
    a_hyp a' = a_hyp a /\ a_mix a' = a_mix a /\ a_aux a' = a_aux a.
Proof.
  intros trk a r Hn G Hm. unfold full_gs.
  destruct (@rfold_inv_simple _ _ (full_gs_step data)
     (fun s => GS trk (fst s) /\ a_hyp (fst s) = a_hyp a /\ a_mix (fst s) = a_mix a /\
               a_aux (fst s) = a_aux a) (seq 0 n) (a, r)) as ([a' r'] & E & K); simpl; auto.
  - intros i [a0 r0] Hi (G0 & E1 & E2 & E3). cbn [fst] in *. apply in_seq in Hi.
    destruct (@full_gs_step_ok trk a0 r0 i) as (a1 & r1 & E & G1 & F1 & F2 & F3); auto; [lia|rewrite E2; auto|].
    exists (a1, r1). rewrite E. split; auto. cbn [fst]. split; auto. split; [congruence|]. split; congruence.
  - exists a', r'. split; auto.
Qed.

Lemma sm_sweep_ok : forall trk n_restr n_mh n_full (a : alg I) r,
  2 <= n -> GS trk a -> sm_masses_ok (a_mix a) ->
  exists a' r', sm_sample_allocations data n_restr n_mh n_full (a, r) = Ok (a', r') /\ GS trk a' /\
    a_hyp a' = a_hyp a /\ a_mix a' = a_mix a /\ a_aux a' = a_aux a.
Proof.
  intros trk n_restr n_mh n_full a r Hn G Hm. unfold sm_sample_allocations.
  set (Q := fun s : alg I * Rng I => GS trk (fst s) /\ a_hyp (fst s) = a_hyp a /\ a_mix (fst s) = a_mix a /\
               a_aux (fst s) = a_aux a).
  destruct (@rfold_inv_simple _ _ (fun s (_ : nat) => mh_update data n_restr s) Q (seq 0 n_mh) (a, r)) as ([a1 r1] & E1 & K1).
  { unfold Q; simpl; auto. }
  { intros i [a0 r0] _ (G0 & F1 & F2 & F3). cbn [fst] in *.
    destruct (@mh_update_ok trk n_restr a0 r0) as (a1 & r1 & E & G1 & _ & X1 & X2 & X3); auto; [rewrite F2; auto|].
    exists (a1, r1). rewrite E. split; auto. unfold Q. cbn [fst]. split; auto. split; [congruence|]. split; congruence. }
  rewrite E1. cbn [rbind].
  destruct (@rfold_inv_simple _ _ (fun s (_ : nat) => full_gs data s) Q (seq 0 n_full) (a1, r1)) as ([a2 r2] & E2 & K2); auto.
  { intros i [a0 r0] _ (G0 & F1 & F2 & F3). cbn [fst] in *. destruct Hm as [Hm1 _].
    destruct (@full_gs_ok trk a0 r0) as (a2 & r2 & E & G2 & X1 & X2 & X3); auto; [rewrite F2; auto|].
    exists (a2, r2). rewrite E. split; auto. unfold Q. cbn [fst]. split; auto. split; [congruence|]. split; congruence. }
  exists a2, r2. split; auto.
Qed.

(** ** Link with the list-of-covariates form used elsewhere *)

Definition covs0 : list (Cov I) := map (fun _ => cov0 I) data.

Lemma batch_covs0 : forall ids, batch I data cvf ids = batch I data (at_ covs0) ids.
Proof.
  intros ids. unfold batch. generalize (stats0 I).
  induction ids as [|j ids IH]; intros s; simpl; auto. rewrite IH. f_equal.
  unfold batch_step. destruct (at_ data j) as [d| | |] eqn:Ed; auto.
  apply at_inv in Ed. unfold covs0, at_. rewrite nth_error_map, Ed. reflexivity.
Qed.

Lemma GS_GInv : forall trk (a : alg I), GS trk a <-> @GInv I data covs0 trk a.
Proof.
  intros trk a. unfold GS, GInv, Inv, hok, hok0.
  split; intros (A & (B & C) & D); (split; [auto|]); (split; [|auto]); (split; [auto|]);
    intros c h Hc; destruct (C c h Hc) as (((S1 & S2 & S3) & F) & P & M);
    rewrite batch_covs0 in *; auto 10.
Qed.

Lemma rows_covs0 : rows_ok I data (at_ covs0).
Proof.
  intros j Hj. destruct (Hrows Hj) as (d & c & Ed & Ec & Er). injection Ec as <-.
  exists d, (cov0 I). split; auto. split; auto.
  apply at_inv in Ed. unfold covs0, at_. rewrite nth_error_map, Ed. reflexivity.
Qed.

End SM.
