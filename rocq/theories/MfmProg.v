(** * Programs with a mixture of finite mixtures: proofs. *)
From Coq Require Import String.
From Coq Require Import Bool List Arith ZArith Lia Reals Lra.
From Verif Require Import Base Hier Algos Run Spec MargFacts NealFacts MargMore InitFacts MargProps ValidRun XReal Mixings PartSpec MixFacts MfmFacts GibbsComb.
From Verif Require Import CovInst CovRun UnivRun MfmInst MfmRun.
Import ListNotations.
Local Open Scope R_scope.

Definition mfm_valid (s : mfm_state) : Prop := mf_tab s = None /\ 0 < mf_lam s /\ 0 < mf_gam s.
Lemma mfm_start_valid : forall p s, mfm_start p = Ok s -> mfm_valid s.
Proof.
  intros [l g|] s; unfold mfm_start, mfm_init; [|discriminate].
  destruct (lteb l 0) eqn:El; [discriminate|]. destruct (lteb g 0) eqn:Eg; [discriminate|]. intro E. injection E as <-.
  apply lteb_false in El. apply lteb_false in Eg. repeat split; cbn; lra.
Qed.

Section Values.
  Variable series : R -> R -> R -> nat -> nat -> R.

  (** The coefficient a call with [n] conditioning observations computes on a fresh object. *)
  Definition coef (s : mfm_state) (n t : nat) : R := series (mf_lam s) (mf_gam s) (mf_C (mfm_init_VC (S n) s)) t (S n).

  (** Objects some calls with the same [n] lead to from [s]. *)
  Definition filled (s : mfm_state) (n : nat) (s' : mfm_state) : Prop :=
    mf_lam s' = mf_lam s /\ mf_gam s' = mf_gam s /\
    ((mf_tab s' = None) \/
     (mf_C s' = mf_C (mfm_init_VC (S n) s) /\ exists tab, mf_tab s' = Some tab /\ length tab = S n /\
       forall t v, nth_error tab t = Some v -> v = -1 \/ v = coef s n t)).

  Lemma get_filled : forall s n s' t, mf_tab s = None -> filled s n s' ->
    ((t <= n)%nat -> exists s'', mfm_get_V series t n s' = Ok (coef s n t, s'') /\ filled s n s'') /\ ((n < t)%nat -> mfm_get_V series t n s' = UB).
  Proof.
    intros s n s' t H0 (Hl & Hg & Ht).
    assert (E : exists u tab, mfm_get_V series t n s' = mfm_get_V series t n u /\ mf_lam u = mf_lam s /\ mf_gam u = mf_gam s /\ mf_C u = mf_C (mfm_init_VC (S n) s) /\
      mf_tab u = Some tab /\ length tab = S n /\ forall t v, nth_error tab t = Some v -> v = -1 \/ v = coef s n t).
    { destruct Ht as [Ht|(Hc & tab & Ht & Htl & Hv)].
      - exists (mfm_init_VC (S n) s'), (repeat (-1) (S n)). split; [unfold mfm_get_V; rewrite Ht; reflexivity|]. cbn. rewrite Hl, Hg. do 4 (split; [reflexivity|]).
        split; [now rewrite repeat_length|]. intros t0 v Hv. left. apply nth_error_In in Hv. change (-1 :: repeat (-1) n) with (repeat (-1) (S n)) in Hv. now apply repeat_spec in Hv.
      - exists s', tab. repeat (split; [assumption || reflexivity|]). exact Hv. }
    destruct E as (u & tab & E & El & Eg & Ec & Et & Eln & Ev). rewrite E, (get_V_tab series u t n tab Et). split; intro Hlt.
    - destruct (nth_error tab t) as [v|] eqn:Ex; [|apply nth_error_None in Ex; lia]. rewrite El, Eg, Ec. fold (coef s n t).
      exists (with_tab u (fill series u t n tab)). split.
      + f_equal. f_equal. destruct (Ev t v Ex) as [-> | ->]; [now rewrite (proj2 (gtb_true _ _)) by lra|]. destruct (gtb 0 (coef s n t)); reflexivity.
      + unfold filled, with_tab. cbn. rewrite El, Eg, Ec. do 2 (split; [reflexivity|]). right. split; [reflexivity|]. eexists. split; [reflexivity|]. rewrite fill_length. split; [exact Eln|].
        intros t' v' Hv'. rewrite fill_nth in Hv'. destruct (nth_error tab t') as [w|] eqn:Ew; [|discriminate].
        destruct ((t =? t')%nat && gtb 0 w); injection Hv' as <-; [right; now rewrite El, Eg, Ec|exact (Ev t' w Ew)].
    - now rewrite (proj2 (nth_error_None tab t)) by lia.
  Qed.

  (** The masses on such objects. *)
  Lemma masses_filled : forall s n s' k lg pr, mf_tab s = None -> filled s n s' ->
    ((k < n)%nat -> (forall card, exists s'', mfm_mass_ex series n k lg pr card s' =
         Ok (let g := mf_gam s in let den := INR n + INR k * g + (coef s n (k + 1) / coef s n k * g) in
             if lg then let out := xlog (IZR card + g) in if pr then out else xsublog out den
             else let out := IZR card + g in Fin (if pr then out else out / den), s'') /\ filled s n s'') /\
       exists s'', mfm_mass_new series n k lg pr s' =
         Ok (let g := mf_gam s in let den := INR n + INR k * g + coef s n (k + 1) / coef s n k * g in
             if lg then let out := xlog (coef s n (k + 1) / coef s n k * g) in if pr then out else xsublog out den
             else let out := coef s n (k + 1) / coef s n k * g in Fin (if pr then out else out / den), s'') /\ filled s n s'') /\
    ((n <= k)%nat -> (forall card, mfm_mass_ex series n k lg pr card s' = UB) /\ mfm_mass_new series n k lg pr s' = UB).
  Proof.
    intros s n s' k lg pr H0 HF. destruct (get_filled s n s' k H0 HF) as [G1 U1]. unfold mfm_mass_ex, mfm_mass_new. split; intro Hk.
    - destruct (G1 ltac:(lia)) as (s1 & -> & F1). cbn [rbind]. destruct (get_filled s n s1 (k + 1) H0 F1) as [G2 _]. destruct (G2 ltac:(lia)) as (s2 & -> & F2). cbn [rbind].
      assert (Eg : mf_gam s2 = mf_gam s) by apply F2. rewrite Eg. split; [intro card|]; eauto.
    - destruct (Nat.eq_dec k n) as [->|Ne].
      + destruct (G1 ltac:(lia)) as (s1 & -> & F1). cbn [rbind]. destruct (get_filled s n s1 (n + 1) H0 F1) as [_ U2]. rewrite U2 by lia. split; reflexivity.
      + rewrite U1 by lia. split; reflexivity.
  Qed.

  (** The mass of a call: the value returned, the object left out. *)
  Definition call_value (s : mfm_state) (c : mcall) : res xreal :=
    match c with
    | CallEx n k lg pr card => '(w, _) <- mfm_mass_ex series n k lg pr card s ;; Ok w
    | CallNew n k lg pr => '(w, _) <- mfm_mass_new series n k lg pr s ;; Ok w
    end.

  Lemma filled_refl : forall s n, mf_tab s = None -> filled s n s.
  Proof. intros s n H. repeat split. now left. Qed.
  Lemma do_call_filled : forall s n s' c s'', mf_tab s = None -> filled s n s' -> call_n c = n -> do_call series s' c = Ok s'' -> filled s n s''.
  Proof.
    intros s n s' c s'' H0 HF En E. destruct c as [n' k lg pr card|n' k lg pr]; cbn [call_n] in En; subst n'; cbn [do_call] in E;
      destruct (masses_filled s n s' k lg pr H0 HF) as [A B]; destruct (lt_dec k n) as [Hk|Hk].
    - destruct (A Hk) as [A1 _]. destruct (A1 card) as (u & Eu & Fu). rewrite Eu in E. cbn [rbind] in E. injection E as <-. exact Fu.
    - destruct (B ltac:(lia)) as [B1 _]. rewrite B1 in E. discriminate.
    - destruct (A Hk) as [_ (u & Eu & Fu)]. rewrite Eu in E. cbn [rbind] in E. injection E as <-. exact Fu.
    - destruct (B ltac:(lia)) as [_ B1]. rewrite B1 in E. discriminate.
  Qed.

  Theorem calls_transparent : forall s n cs s' c, mf_tab s = None -> Forall (fun c => call_n c = n) (c :: cs) -> rfold (do_call series) cs s = Ok s' ->
    call_value s' c = call_value s c.
  Proof.
    intros s n cs s' c H0 HF E.
    assert (F : filled s n s').
    { assert (G : forall cs u, filled s n u -> Forall (fun c => call_n c = n) cs -> rfold (do_call series) cs u = Ok s' -> filled s n s').
      { clear HF E cs. induction cs as [|c1 cs IH]; intros u Fu Hcs E; cbn [rfold] in E; [injection E as <-; exact Fu|].
        apply rbind_ok in E. destruct E as (u' & E1 & E). inversion Hcs as [|? ? Hc1 Hcs']; subst. apply (IH u'); [|exact Hcs'|exact E].
        exact (do_call_filled s _ u c1 u' H0 Fu eq_refl E1). }
      inversion HF as [|? ? En Hcs]. exact (G cs s (filled_refl s n H0) Hcs E). }
    inversion HF as [|? ? En _]; subst. pose proof (filled_refl s (call_n c) H0) as F0.
    destruct c as [n' k lg pr card|n' k lg pr]; cbn [call_n] in *; cbn [call_value];
      destruct (masses_filled s n' s' k lg pr H0 F) as [A B]; destruct (masses_filled s n' s k lg pr H0 F0) as [A0 B0]; destruct (lt_dec k n') as [Hk|Hk].
    - destruct (A Hk) as [A1 _]. destruct (A0 Hk) as [A2 _]. destruct (A1 card) as (u & -> & _). destruct (A2 card) as (u0 & -> & _). reflexivity.
    - destruct (B ltac:(lia)) as [-> _]. destruct (B0 ltac:(lia)) as [-> _]. reflexivity.
    - destruct (A Hk) as [_ (u & -> & _)]. destruct (A0 Hk) as [_ (u0 & -> & _)]. reflexivity.
    - destruct (B ltac:(lia)) as [_ ->]. destruct (B0 ltac:(lia)) as [_ ->]. reflexivity.
  Qed.
End Values.

(** ** The interface *)
Section Program.
  Variable series : R -> R -> R -> nat -> nat -> R.
  Variable I : Iface.
  Variable L : laws I.
  Variable ofx : xreal -> W I.
  Local Notation J := (with_mfm series I ofx).

  Lemma mfm_laws : laws J.
  Proof. destruct L as [a b c d e]. constructor; [exact a|exact b|exact c|exact d|exact e]. Qed.
  Lemma mfm_rows : forall data cvf, rows_ok I data cvf -> rows_ok J data cvf.
  Proof. intros data cvf H. exact H. Qed.
  Lemma mfm_closed : forall data covs GH GS GM, closed I data covs GH GS GM -> closed J data covs GH GS mfm_valid.
  Proof.
    intros data covs GH GS GM [a b c d e _]. constructor; [exact a|exact b|exact c|exact d|exact e|].
    cbn. intros m cards al r m' r' Hm _ _ E. injection E as <- <-. exact Hm.
  Qed.

  Lemma mfm_small : forall (data : list (Datum I)) m k, mfm_valid m -> (k + 2 <= length data)%nat ->
    (forall c, exists w, mass_ex J m (length data - 1) k c = Ok w) /\ (exists w, mass_new J m (length data - 1) k = Ok w).
  Proof.
    intros data m k (H0 & _) Hk. destruct (masses_filled series m (length data - 1) m k true true H0 (filled_refl series m _ H0)) as [A _].
    destruct (A ltac:(lia)) as [A1 (u & A2 & _)]. cbn [mass_ex mass_new with_mfm]. split; [intro c|].
    - destruct (A1 c) as (u1 & -> & _). cbn [rbind]. eauto.
    - rewrite A2. cbn [rbind]. eauto.
  Qed.
  Lemma mfm_full : forall (data : list (Datum I)) m, mfm_valid m ->
    (forall c, mass_ex J m (length data - 1) (length data - 1) c = UB) /\ mass_new J m (length data - 1) (length data - 1) = UB.
  Proof.
    intros data m (H0 & _). destruct (masses_filled series m (length data - 1) m (length data - 1) true true H0 (filled_refl series m _ H0)) as [_ B].
    destruct (B ltac:(lia)) as [B1 B2]. cbn [mass_ex mass_new with_mfm]. split; [intro c; rewrite B1|rewrite B2]; reflexivity.
  Qed.

  Variable data : list (Datum I).
  Variable covs : list (Cov I).
  Hypothesis Hrows : rows_ok I data (at_ covs).
  Hypothesis Ho : conj I = true -> other_draw I = None.
  Variable GH : Hyp I -> Prop.
  Variable GS : St I -> Prop.
  Variable GM : Mix I -> Prop.
  Hypothesis HC : closed I data covs GH GS GM.
  Local Notation n := (length data).
  Local Notation prog := (@marginal_run J).

  Section One.
  Variable hyp0 : res (Hyp I).
  Variable p : mfm_prior.
  Variable hy : Hyp I.
  Variable m : mfm_state.
  Hypothesis Ehy : hyp0 = Ok hy.
  Hypothesis Em : mfm_start p = Ok m.
  Hypothesis Hhy : GH hy.
  Variable k : nat.
  Variable pos : nat -> nat.
  Variable st : St I.
  Hypothesis Hk : (k <= n)%nat.
  Hypothesis Hpos : forall i, (pos i < if k =? 0 then n else k)%nat.
  Variable al : marginal_algorithm.
  Hypothesis Hu : usable al n (conj I).

  Lemma mfm_outcome : forall maxiter burnin r, defined_or_UB (prog hyp0 (mfm_start p) data covs k pos st al maxiter burnin r).
  Proof.
    rewrite Ehy, Em. intros maxiter burnin r.
    exact (program_cases J mfm_laws data covs Hrows mfm_valid (mfm_small data) (mfm_full data) (fun m _ _ r _ => eq_refl) Ho hy m k pos st (mfm_start_valid p m Em) Hk Hpos al Hu maxiter burnin r).
  Qed.
  Lemma mfm_saved : forall maxiter burnin r s out, prog hyp0 (mfm_start p) data covs k pos st al maxiter burnin r = Ok (s, out) ->
    length out = (maxiter - burnin)%nat /\ forall snap, In snap out -> saved_valid J data GH GS mfm_valid snap.
  Proof.
    rewrite Ehy, Em. intros maxiter burnin r s out R.
    exact (program_saved J mfm_laws data covs Hrows mfm_valid (mfm_small data) (mfm_full data) (fun m _ _ r _ => eq_refl) Ho hy m k pos st (mfm_start_valid p m Em) Hk Hpos GH GS
      (mfm_closed data covs GH GS GM HC) Hhy al Hu maxiter burnin r s out R).
  Qed.
  Lemma mfm_alone : forall maxiter burnin r, (1 <= maxiter)%nat -> (n <= (if k =? 0 then n else k) \/ n <= 2)%nat ->
    prog hyp0 (mfm_start p) data covs k pos st al maxiter burnin r = UB.
  Proof.
    rewrite Ehy, Em. intros maxiter burnin r Hit Hn.
    refine (program_undefined J mfm_laws data covs Hrows mfm_valid (mfm_small data) (mfm_full data) Ho hy m k pos st (mfm_start_valid p m Em) Hk Hpos al Hu _ maxiter burnin r Hit).
    left. intros a La Ha. destruct Hn as [Hn|Hn].
    - enough (N : NoDup (a_alloc a)) by (destruct N; [constructor|assumption]). apply NoDup_nth_error. intros i j Hi E. unfold num_components in Ha.
      assert (Lj : (j < length (a_alloc a))%nat) by (apply nth_error_Some; rewrite <- E; now apply nth_error_Some).
      cbn [Datum with_mfm] in *. rewrite (Ha i), (Ha j) in E by lia. now injection E.
    - destruct (a_alloc a) as [|x [|y [|z l]]]; cbn in La |- *; [constructor|constructor|constructor; [intros []|constructor]|lia].
  Qed.
  Lemma mfm_last : (forall ws r, ws <> [] -> fst (categorical I ws r) = (length ws - 1)%nat) ->
    forall maxiter burnin r, (1 <= maxiter)%nat -> prog hyp0 (mfm_start p) data covs k pos st al maxiter burnin r = UB.
  Proof.
    rewrite Ehy, Em. intros Hl maxiter burnin r Hit.
    refine (program_undefined J mfm_laws data covs Hrows mfm_valid (mfm_small data) (mfm_full data) Ho hy m k pos st (mfm_start_valid p m Em) Hk Hpos al Hu _ maxiter burnin r Hit).
    right. exact Hl.
  Qed.
  Lemma mfm_first : (forall ws r, ws <> [] -> fst (categorical I ws r) = 0%nat) -> (3 <= n)%nat -> k = 1%nat ->
    forall maxiter burnin r, exists s out, prog hyp0 (mfm_start p) data covs k pos st al maxiter burnin r = Ok (s, out).
  Proof.
    rewrite Ehy, Em. intros Hf Hn K1 maxiter burnin r.
    exact (program_first J mfm_laws data covs Hrows mfm_valid (mfm_small data) (fun m _ _ r _ => eq_refl) Ho hy m k pos st (mfm_start_valid p m Em) Hk Hpos
      Hf Hn K1 al Hu maxiter burnin r).
  Qed.
  End One.
End Program.
