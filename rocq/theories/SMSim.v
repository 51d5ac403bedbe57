(** * Split-and-merge: launch and scans do not depend on cluster parameters. *)
From Coq Require Import String.
From Coq Require Import Bool List Arith ZArith Lia.
From Verif Require Import Base Hier Algos SplitMerge Run Spec MargFacts NealFacts InitFacts MargMore MargProps SMFacts SMProps.
Import ListNotations.

Lemma rb : forall A B (e : res A) (k : A -> res B) x, rbind e k = Ok x -> exists y, e = Ok y /\ k y = Ok x.
Proof. intros A B [y| | |] k x H; simpl in H; try discriminate. eauto. Qed.

Section Sim.
Variable I : Iface.
Variable L : laws I.
Variable data : list (Datum I).
Hypothesis Hcj : conj I = true.
Notation c0 := (cov0 I).

(** Equal but for the cluster parameters. *)
Definition hsim (h h' : hier I) : Prop := exists st, h' = h_set_state st h.
Definition gsim (g g' : rgs I) : Prop :=
  g_idx g' = g_idx g /\ g_alloc g' = g_alloc g /\ Forall2 hsim (g_uv g) (g_uv g').

Lemma save_sim : forall hy (h x : hier I) st, h_save hy h = Ok x -> h_save hy (h_set_state st h) = Ok (h_set_state st x).
Proof.
  intros hy h x st H. unfold h_save, h_compute_post in *. destruct (other_draw I); [discriminate|]. cbn [rbind] in *.
  injection H as <-. unfold h_set_state. cbn [h_ids h_card h_stats h_state h_saved h_ph]. do 3 f_equal.
  apply (post_conj L Hcj).
Qed.
Lemma add_sim : forall hy u i y c (h x h' : hier I), h_add hy u i y c h = Ok x -> hsim h h' ->
  exists x', h_add hy u i y c h' = Ok x' /\ hsim x x'.
Proof.
  intros hy u i y c h x h' H [st ->]. exists (h_set_state st x). split; [|eexists; reflexivity].
  unfold h_add, like_add in *. cbn [h_set_state h_ids]. destruct (set_mem i (h_ids h)); [discriminate|].
  destruct (row_ok I y c); [|discriminate]. cbn [rbind h_set_state h_ids h_card h_stats h_state h_saved h_ph] in *.
  destruct u; [|injection H as <-; reflexivity]. exact (save_sim hy _ x st H).
Qed.
Lemma remove_sim : forall hy u i y c (h x h' : hier I), h_remove hy u i y c h = Ok x -> hsim h h' ->
  exists x', h_remove hy u i y c h' = Ok x' /\ hsim x x'.
Proof.
  intros hy u i y c h x h' H [st ->]. exists (h_set_state st x). split; [|eexists; reflexivity].
  unfold h_remove, like_remove in *. destruct (row_ok I y c); [|discriminate]. cbn [h_set_state h_ids]. destruct (set_mem i (h_ids h)); [|discriminate].
  cbn [rbind h_set_state h_ids h_card h_stats h_state h_saved h_ph] in *.
  destruct u; [|injection H as <-; reflexivity]. exact (save_sim hy _ x st H).
Qed.
Lemma pred_sim : forall hy (h : hier I) y c w (h' : hier I), h_cond_pred hy h y c = Ok w -> hsim h h' -> h_cond_pred hy h' y c = Ok w.
Proof.
  intros hy h y c w h' H [st ->]. unfold h_cond_pred, h_get_post, h_compute_post in *. destruct (other_draw I); [discriminate|].
  cbn [h_set_state h_saved h_ph h_card h_stats h_state]. destruct (h_saved h); [destruct (h_ph h); [exact H|discriminate]|].
  cbn [rbind] in *. rewrite <- H. do 2 f_equal. apply (post_conj L Hcj).
Qed.

Lemma at_sim : forall uv uv' c h, Forall2 hsim uv uv' -> at_ uv c = Ok h -> exists h', at_ uv' c = Ok h' /\ hsim h h'.
Proof.
  intros uv uv' c h F. revert c. induction F as [|x y uv uv' S F IH]; intros [|c] H; try discriminate.
  - injection H as <-. exists y. split; [reflexivity|exact S].
  - apply IH. exact H.
Qed.
Lemma upd_sim : forall uv uv' c h h', Forall2 hsim uv uv' -> hsim h h' -> Forall2 hsim (upd uv c h) (upd uv' c h').
Proof.
  intros uv uv' c h h' F S. revert c. induction F as [|x y uv uv' S' F IH]; intros [|c]; simpl; constructor; auto.
Qed.
Lemma add_in_sim : forall hy u c i y cv uv uv' uv1, add_in hy u c i y cv uv = Ok uv1 -> Forall2 hsim uv uv' ->
  exists uv1', add_in hy u c i y cv uv' = Ok uv1' /\ Forall2 hsim uv1 uv1'.
Proof.
  intros hy u c i y cv uv uv' uv1 H F. unfold add_in in *. apply rb in H. destruct H as (h & E1 & H). apply rb in H. destruct H as (h1 & E2 & H).
  injection H as <-. destruct (at_sim _ _ _ _ F E1) as (h' & -> & S). cbn [rbind].
  destruct (add_sim _ _ _ _ _ _ _ _ E2 S) as (x' & -> & S'). cbn [rbind]. eexists. split; [reflexivity|]. apply upd_sim; auto.
Qed.
Lemma remove_in_sim : forall hy u c i y cv uv uv' uv1, remove_in hy u c i y cv uv = Ok uv1 -> Forall2 hsim uv uv' ->
  exists uv1', remove_in hy u c i y cv uv' = Ok uv1' /\ Forall2 hsim uv1 uv1'.
Proof.
  intros hy u c i y cv uv uv' uv1 H F. unfold remove_in in *. apply rb in H. destruct H as (h & E1 & H). apply rb in H. destruct H as (h1 & E2 & H).
  injection H as <-. destruct (at_sim _ _ _ _ F E1) as (h' & -> & S). cbn [rbind].
  destruct (remove_sim _ _ _ _ _ _ _ _ E2 S) as (x' & -> & S'). cbn [rbind]. eexists. split; [reflexivity|]. apply upd_sim; auto.
Qed.

Lemma launch_sim : forall f s idx (a a' : alg I) r g r1, launch data f s idx a r = Ok (g, r1) ->
  a_hyp a' = a_hyp a -> a_uv a' <> [] -> exists g', launch data f s idx a' r = Ok (g', r1) /\ gsim g g'.
Proof.
  intros f s idx a a' r g r1 H Hh Hu. unfold launch in *. apply rb in H. destruct H as (h0 & E0 & H).
  destruct (a_uv a') as [|h0' uv'] eqn:E; [congruence|]. cbn [at_ nth_error rbind]. rewrite Hh. clear E Hu E0.
  apply rb in H. destruct H as ([[al guv] r'] & E1 & H).
  assert (F0 : Forall2 hsim [h_clone h0; h_clone h0] [h_clone h0'; h_clone h0']).
  { constructor; [|constructor; [|constructor]]; exists (h_state h0'); reflexivity. }
  assert (K : forall idx al0 guv0 guv0' r0, Forall2 hsim guv0 guv0' -> rfold (launch_step data (a_hyp a)) idx ((al0, guv0), r0) = Ok ((al, guv), r') ->
    exists guv', rfold (launch_step data (a_hyp a)) idx ((al0, guv0'), r0) = Ok ((al, guv'), r') /\ Forall2 hsim guv guv').
  { clear - L Hcj. intros idx. induction idx as [|i idx IH]; intros al0 guv0 guv0' r0 F E; cbn [rfold] in *.
    - injection E as -> -> ->. exists guv0'. auto.
    - apply rb in E. destruct E as ([[al1 guv1] r1] & E1 & E). unfold launch_step in E1 at 1.
      apply rb in E1. destruct E1 as ([b r2] & Eb & E1). apply rb in E1. destruct E1 as (y & Ey & E1).
      apply rb in E1. destruct E1 as (guv2 & Eg & E1). injection E1 as <- <- <-.
      destruct (add_in_sim _ _ _ _ _ _ _ _ _ Eg F) as (guv2' & Eg' & F').
      destruct (IH _ _ _ _ F' E) as (guv' & E' & F''). exists guv'. split; [|exact F''].
      unfold launch_step at 1. rewrite Eb. cbn [rbind]. rewrite Ey. cbn [rbind]. rewrite Eg'. cbn [rbind]. exact E'. }
  destruct (K _ _ _ _ _ F0 E1) as (guv' & E1' & F1). rewrite E1'. cbn [rbind].
  apply rb in H. destruct H as (df & -> & H). cbn [rbind]. apply rb in H. destruct H as (g1 & E2 & H).
  destruct (add_in_sim _ _ _ _ _ _ _ _ _ E2 F1) as (g1' & -> & F2). cbn [rbind].
  apply rb in H. destruct H as (ds & -> & H). cbn [rbind]. apply rb in H. destruct H as (g2 & E3 & H).
  destruct (add_in_sim _ _ _ _ _ _ _ _ _ E3 F2) as (g2' & -> & F3). cbn [rbind].
  injection H as <- <-. eexists. split; [reflexivity|]. split; [reflexivity|]. split; [reflexivity|exact F3].
Qed.

Lemma logproba_sim : forall (a a' : alg I) nidx y guv guv' c w, a_hyp a' = a_hyp a -> a_mix a' = a_mix a ->
  rgs_logproba a nidx y guv c = Ok w -> Forall2 hsim guv guv' -> rgs_logproba a' nidx y guv' c = Ok w.
Proof.
  intros a a' nidx y guv guv' c w Hh Hm H F. unfold rgs_logproba in *. apply rb in H. destruct H as (h & E1 & H).
  destruct (at_sim _ _ _ _ F E1) as (h' & -> & S). cbn [rbind]. rewrite Hm. replace (h_card h') with (h_card h) by (destruct S as [st ->]; reflexivity).
  apply rb in H. destruct H as (m & -> & H). cbn [rbind]. apply rb in H. destruct H as (p & E2 & H). rewrite Hh.
  rewrite (pred_sim _ _ _ _ _ _ E2 S). cbn [rbind]. exact H.
Qed.

(** A step seen as: probabilities, choice of the side [c], bookkeeping. *)
Lemma step_sim : forall (a a' : alg I) f orig orig' g g' lp r r' k g2 lp2 r2, a_hyp a' = a_hyp a -> a_mix a' = a_mix a ->
  rgs_step data a f orig ((g, lp), r) k = Ok ((g2, lp2), r2) -> gsim g g' ->
  exists i c, nth_error (g_idx g) k = Some i /\ nth_error (g_alloc g2) k = Some c /\ g_idx g2 = g_idx g /\
    length (g_alloc g2) = length (g_alloc g) /\
    (forall k', k' <> k -> nth_error (g_alloc g2) k' = nth_error (g_alloc g) k') /\
    (forall r3, (orig' = orig /\ orig = false /\ r = r' /\ r3 = r2) \/
       (orig' = true /\ r3 = r' /\ exists ai af, at_ (a_alloc a') i = Ok ai /\ at_ (a_alloc a') f = Ok af /\ c = (if ai =? af then 0 else 1)) ->
     exists g2', rgs_step data a' f orig' ((g', lp), r') k = Ok ((g2', lp2), r3) /\ gsim g2 g2').
Proof.
  intros a a' f orig orig' g g' lp r r' k g2 lp2 r2 Hh Hm H (S1 & S2 & S3). unfold rgs_step in H.
  apply rb in H. destruct H as (i & Ei & H). apply rb in H. destruct H as (ck & Eck & H). apply rb in H. destruct H as (y & Ey & H).
  apply rb in H. destruct H as (guv1 & Er & H). apply rb in H. destruct H as (wa & Ea & H). apply rb in H. destruct H as (wb & Eb & H).
  apply rb in H. destruct H as ([c r3] & Ec & H). apply rb in H. destruct H as (guv2 & Ead & H). injection H as <- <- <-.
  cbn [g_idx g_alloc g_uv].
  assert (Ni : nth_error (g_idx g) k = Some i) by (unfold at_ in Ei; destruct (nth_error (g_idx g) k); congruence).
  assert (Nk : (k < length (g_alloc g))%nat) by (apply nth_error_Some; unfold at_ in Eck; destruct (nth_error (g_alloc g) k); congruence).
  exists i, c. split; [exact Ni|]. split; [apply nth_error_upd_same; exact Nk|]. split; [reflexivity|].
  split; [apply upd_length|]. split; [intros k' Hk'; apply nth_error_upd_other; auto|].
  intros r4 HC. unfold rgs_step. rewrite S1, S2, Ei. cbn [rbind]. rewrite Eck. cbn [rbind]. rewrite Ey. cbn [rbind]. rewrite Hh.
  destruct (remove_in_sim _ _ _ _ _ _ _ _ _ Er S3) as (guv1' & -> & F1). cbn [rbind].
  rewrite (logproba_sim _ _ _ _ _ _ _ _ Hh Hm Ea F1). cbn [rbind]. rewrite (logproba_sim _ _ _ _ _ _ _ _ Hh Hm Eb F1). cbn [rbind].
  assert (C : (if orig' then ai <- at_ (a_alloc a') i ;; af <- at_ (a_alloc a') f ;; Ok (if ai =? af then 0 else 1, r') else cat I [wa; wb] r') = Ok (c, r4)).
  { destruct HC as [(-> & -> & <- & ->)|(-> & -> & ai & af & -> & -> & ->)]; [exact Ec|reflexivity]. }
  rewrite C. cbn [rbind]. destruct (add_in_sim _ _ _ _ _ _ _ _ _ Ead F1) as (guv2' & -> & F2). cbn [rbind].
  eexists. split; [reflexivity|]. split; [reflexivity|]. split; [reflexivity|exact F2].
Qed.

(** The same scan, from another state of the sampler. *)
Lemma fold_sim : forall (a a' : alg I) f ks g g' lp r g2 lp2 r2, a_hyp a' = a_hyp a -> a_mix a' = a_mix a ->
  rfold (rgs_step data a f false) ks ((g, lp), r) = Ok ((g2, lp2), r2) -> gsim g g' ->
  exists g2', rfold (rgs_step data a' f false) ks ((g', lp), r) = Ok ((g2', lp2), r2) /\ gsim g2 g2'.
Proof.
  intros a a' f ks. induction ks as [|k ks IH]; intros g g' lp r g2 lp2 r2 Hh Hm H S; cbn [rfold] in *.
  - injection H as <- <- <-. eauto.
  - apply rb in H. destruct H as ([[g1 lp1] r1] & E & H).
    destruct (step_sim a a' f false false g g' lp r r k g1 lp1 r1 Hh Hm E S) as (i & c & _ & _ & _ & _ & _ & K).
    destruct (K r1) as (g1' & E' & S'); [auto|]. rewrite E'. cbn [rbind]. eapply IH; eauto.
Qed.

Lemma fold_alloc : forall (a : alg I) f ks g lp r g2 lp2 r2, rfold (rgs_step data a f false) ks ((g, lp), r) = Ok ((g2, lp2), r2) ->
  g_idx g2 = g_idx g /\ forall k, ~ In k ks -> nth_error (g_alloc g2) k = nth_error (g_alloc g) k.
Proof.
  intros a f ks. induction ks as [|k ks IH]; intros g lp r g2 lp2 r2 H; cbn [rfold] in *.
  - injection H as <- <- <-. auto.
  - apply rb in H. destruct H as ([[g1 lp1] r1] & E & H).
    assert (S : gsim g g).
    { split; [reflexivity|]. split; [reflexivity|]. clear. induction (g_uv g) as [|h l IH]; constructor; auto. exists (h_state h). destruct h; reflexivity. }
    destruct (step_sim a a f false false g g lp r r k g1 lp1 r1 eq_refl eq_refl E S) as (i & c & _ & _ & E1 & _ & K & _).
    destruct (IH _ _ _ _ _ _ H) as [I1 I2]. split; [congruence|]. intros k' Hk'. rewrite I2 by (intros X; apply Hk'; right; exact X).
    apply K. intros ->. apply Hk'. left. reflexivity.
Qed.

(** A scan forced to the sides found by a free scan accumulates the same
    log-probability. *)
Lemma fold_forced : forall (a a' : alg I) f ks g g' lp r r' g2 lp2 r2, a_hyp a' = a_hyp a -> a_mix a' = a_mix a -> NoDup ks ->
  rfold (rgs_step data a f false) ks ((g, lp), r) = Ok ((g2, lp2), r2) -> gsim g g' ->
  (forall k i c, In k ks -> nth_error (g_idx g) k = Some i -> nth_error (g_alloc g2) k = Some c ->
     exists ai af, at_ (a_alloc a') i = Ok ai /\ at_ (a_alloc a') f = Ok af /\ c = (if ai =? af then 0 else 1)) ->
  exists g2', rfold (rgs_step data a' f true) ks ((g', lp), r') = Ok ((g2', lp2), r') /\ gsim g2 g2'.
Proof.
  intros a a' f ks. induction ks as [|k ks IH]; intros g g' lp r r' g2 lp2 r2 Hh Hm ND H S HF; cbn [rfold] in *.
  - injection H as <- <- <-. eauto.
  - inversion ND as [|? ? N1 N2]; subst. apply rb in H. destruct H as ([[g1 lp1] r1] & E & H).
    destruct (step_sim a a' f false true g g' lp r r' k g1 lp1 r1 Hh Hm E S) as (i & c & Ei & Ec & E1 & _ & _ & K).
    destruct (fold_alloc _ _ _ _ _ _ _ _ _ H) as [J1 J2].
    destruct (K r') as (g1' & E' & S').
    { right. split; [reflexivity|]. split; [reflexivity|]. apply (HF k i c); [left; reflexivity|exact Ei|]. rewrite J2; auto. }
    rewrite E'. cbn [rbind]. apply (IH g1 g1' lp1 r1 r' g2 lp2 r2 Hh Hm N2 H S').
    intros k' i' c' Hk' Hi' Hc'. apply (HF k' i' c'); [right; exact Hk'| |exact Hc']. rewrite <- E1. exact Hi'.
Qed.

Lemma scans_sim : forall (a a' : alg I) f (ks : list nat) g g' r g2 r2, a_hyp a' = a_hyp a -> a_mix a' = a_mix a ->
  rfold (fun st (_ : nat) => '((g', _), r') <- restricted_gs data a f false (fst st) (snd st) ;; Ok (g', r')) ks (g, r) = Ok (g2, r2) -> gsim g g' ->
  exists g2', rfold (fun st (_ : nat) => '((g', _), r') <- restricted_gs data a' f false (fst st) (snd st) ;; Ok (g', r')) ks (g', r) = Ok (g2', r2) /\ gsim g2 g2'.
Proof.
  intros a a' f ks. induction ks as [|k ks IH]; intros g g' r g2 r2 Hh Hm H S; cbn [rfold] in *.
  - injection H as <- <-. eauto.
  - apply rb in H. destruct H as ([g1 r1] & E & H). cbn [fst snd] in E. apply rb in E. destruct E as ([[g1_ lp1] r1_] & E & X). injection X as -> ->.
    cbn [fst snd]. unfold restricted_gs in E at 1. destruct (fold_sim a a' f _ _ _ _ _ _ _ _ Hh Hm E S) as (g1' & E' & S').
    unfold restricted_gs at 1. rewrite (proj1 S), E'. cbn [rbind]. eapply IH; eauto.
Qed.
End Sim.
