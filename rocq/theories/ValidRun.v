(** * Parameters stay in their space through a run of a marginal algorithm. *)
From Coq Require Import Bool List Arith ZArith Lia Permutation Sorting.Sorted.
From Verif Require Import Base Hier Algos Run Spec MargFacts NealFacts MargMore InitFacts MargProps.
Import ListNotations.

Section Valid.
  Variable I : Iface.
  Variable L : laws I.
  Variable data : list (Datum I).
  Variable covs : list (Cov I).
  Hypothesis Hrows : rows_ok I data (at_ covs).
  Local Notation n := (length data).
  Local Notation cvf := (at_ covs).

  (** Hyperparameters, cluster parameters and mixing states in their spaces. *)
  Variable GH : Hyp I -> Prop.
  Variable GS : St I -> Prop.
  Variable GM : Mix I -> Prop.

  Record closed : Prop := mkClosed {
    cl_post : forall hy ids s, GH hy -> GS s -> (forall j, In j ids -> j < n) ->
      GH (post I hy (Z.of_nat (length ids)) (@batch I data cvf ids) s);
    cl_sample : forall hy r, GH hy -> GS (fst (prior_sample I hy r));
    cl_init : forall hy, GH hy -> GS (init_state I hy);
    cl_other : forall f hy card st ids s r, other_draw I = Some f -> GH hy -> GS s -> GS (fst (f hy card st ids s r));
    cl_hyp : forall hy sts r, GH hy -> (forall p, In p sts -> GS (fst p)) -> GH (fst (hyp_update I hy sts r));
    cl_mix : forall m cards al r m' r', GM m -> cards <> [] -> al <> [] -> mix_update I m cards al r = Ok (m', r') -> GM m'
  }.
  Hypothesis HC : closed.

  Definition vh (h : hier I) : Prop :=
    @hok0 I data cvf h /\ (forall j, In j (h_ids h) -> j < n) /\ GS (h_state h) /\ (forall p, h_ph h = Some p -> GH p).
  Definition vuv (uv : list (hier I)) : Prop := forall h, In h uv -> vh h.
  (** Auxiliary objects of Neal8: parameters only (their cardinality is overwritten). *)
  Definition vaux (aux : list (hier I)) : Prop := forall h, In h aux -> GS (h_state h).
  Definition va (a : alg I) : Prop := vuv (a_uv a) /\ vaux (a_aux a) /\ GH (a_hyp a) /\ GM (a_mix a).

  Lemma vh_clone : forall h, GS (h_state h) -> vh (h_clone h).
  Proof. intros h S. split; [apply hok0_clone|]. cbn. split; [tauto|]. split; [exact S|discriminate]. Qed.

  Lemma vh_save : forall hy h h', GH hy -> vh h -> h_save hy h = Ok h' -> vh h'.
  Proof.
    intros hy h h' Hh (H & R & S & P) E. unfold h_save, h_compute_post in E. destruct (other_draw I); [discriminate|]. cbn [rbind] in E. injection E as <-.
    split; [exact H|]. split; [exact R|]. split; [exact S|]. cbn [h_ph]. intros p Ep. injection Ep as <-.
    destruct H as (_ & -> & ->). now apply cl_post.
  Qed.

  Lemma vh_add : forall hy b i d c h h', GH hy -> at_ data i = Ok d -> cvf i = Ok c -> i < n -> vh h -> h_add hy b i d c h = Ok h' -> vh h'.
  Proof.
    intros hy b i d c h h' Hh Ed Ec Hi V E. unfold h_add in E. apply rbind_ok in E. destruct E as (h1 & E1 & E).
    assert (V1 : vh h1).
    { pose proof E1 as E0. unfold like_add in E0. destruct (set_mem i (h_ids h)) eqn:Em; [discriminate|]. destruct V as (H & R & S & P).
      destruct (@h_add_ok_gen I L data cvf Hrows hy false i d c h ltac:(discriminate) Ed Ec Hi H) as (h2 & E2 & K & Ki & Ks & _ & Kp).
      { intro F. apply set_mem_In in F. congruence. }
      unfold h_add in E2. rewrite E1 in E2. cbn [rbind] in E2. injection E2 as <-. destruct (Kp eq_refl) as [_ Kp'].
      split; [exact K|]. split; [|split; [rewrite Ks; exact S|intros p Ep; apply P; rewrite <- Kp'; exact Ep]].
      intros j Hj. rewrite Ki in Hj. apply In_set_insert in Hj. destruct Hj as [->|Hj]; auto. }
    destruct b; [eapply vh_save; eauto|injection E as <-; exact V1].
  Qed.

  Lemma vh_remove : forall hy b i d c h h', GH hy -> at_ data i = Ok d -> cvf i = Ok c -> i < n -> vh h -> h_remove hy b i d c h = Ok h' -> vh h'.
  Proof.
    intros hy b i d c h h' Hh Ed Ec Hi V E. unfold h_remove in E. apply rbind_ok in E. destruct E as (h1 & E1 & E).
    assert (V1 : vh h1).
    { pose proof E1 as E0. unfold like_remove in E0. destruct (row_ok I d c); [|discriminate].
      destruct (set_mem i (h_ids h)) eqn:Em; [|discriminate]. destruct V as (H & R & S & P).
      destruct (@h_remove_ok_gen I L data cvf Hrows hy false i d c h ltac:(discriminate) Ed Ec Hi H) as (h2 & E2 & K & Ki & Ks & _ & Kp).
      { apply set_mem_In. exact Em. }
      unfold h_remove in E2. rewrite E1 in E2. cbn [rbind] in E2. injection E2 as <-. destruct (Kp eq_refl) as [_ Kp'].
      split; [exact K|]. split; [|split; [rewrite Ks; exact S|intros p Ep; apply P; rewrite <- Kp'; exact Ep]].
      intros j Hj. rewrite Ki in Hj. apply In_set_remove in Hj; [apply R; tauto|apply H]. }
    destruct b; [eapply vh_save; eauto|injection E as <-; exact V1].
  Qed.

  Lemma vh_sample : forall hy h r, GH hy -> vh h -> vh (fst (h_sample_prior hy h r)).
  Proof.
    intros hy h r Hh (H & R & S & P). unfold h_sample_prior. pose proof (cl_sample HC hy r Hh) as K. destruct (prior_sample I hy r) as [s r']. cbn [fst] in *.
    split; [exact H|]. split; [exact R|]. split; [exact K|exact P].
  Qed.

  Lemma vh_draw : forall hy save h r h' r', GH hy -> vh h -> h_draw hy save h r = Ok (h', r') -> vh h'.
  Proof.
    intros hy save h r h' r' Hh V E. unfold h_draw in E. destruct (other_draw I) as [f|] eqn:Eo.
    - pose proof V as (H & R & S & P). pose proof (cl_other HC f hy (h_card h) (h_stats h) (h_ids h) (h_state h) r Eo Hh S) as K.
      destruct (f hy (h_card h) (h_stats h) (h_ids h) (h_state h) r) as [s q]. injection E as <- <-.
      split; [exact H|]. split; [exact R|]. split; [exact K|exact P].
    - destruct (Z.eqb (h_card h) 0).
      + pose proof (vh_sample hy h r Hh V) as K. unfold h_sample_prior in *. destruct (prior_sample I hy r) as [s q]. injection E as <- <-. exact K.
      + apply rbind_ok in E. destruct E as ([p h1] & E1 & E).
        assert (Q : GH p /\ vh h1).
        { unfold h_get_post in E1. rewrite Eo in E1. pose proof V as (H & R & S & P). destruct (h_saved h).
          - destruct (h_ph h) as [q|] eqn:Eq; [|discriminate]. injection E1 as <- <-. split; [now apply P|exact V].
          - unfold h_compute_post in E1. rewrite Eo in E1. cbn [rbind] in E1.
            assert (Gp : GH (post I hy (h_card h) (h_stats h) (h_state h))) by (destruct H as (_ & -> & ->); now apply cl_post).
            destruct save; injection E1 as <- <-; split; try exact Gp; try exact V.
            split; [exact H|]. split; [exact R|]. split; [exact S|]. cbn [h_ph]. intros q Eq. now injection Eq as <-. }
        destruct Q as [Gp (H & R & S & P)]. pose proof (cl_sample HC p r Gp) as K. destruct (prior_sample I p r) as [s q]. injection E as <- <-.
        split; [exact H|]. split; [exact R|]. split; [exact K|exact P].
  Qed.

  Lemma vuv_upd : forall uv c h, vuv uv -> vh h -> vuv (upd uv c h).
  Proof. intros uv c h U V x Hx. apply In_upd in Hx. destruct Hx as [->|Hx]; auto. Qed.
  Lemma vuv_app : forall uv h, vuv uv -> vh h -> vuv (uv ++ [h]).
  Proof. intros uv h U V x Hx. apply in_app_iff in Hx. destruct Hx as [Hx|[<-|[]]]; auto. Qed.
  Lemma at_In : forall A (l : list A) i x, at_ l i = Ok x -> In x l.
  Proof. intros A l i x H. apply at_inv in H. eapply nth_error_In; eauto. Qed.
  Lemma at_lt : forall A (l : list A) i x, at_ l i = Ok x -> i < length l.
  Proof. intros A l i x H. apply at_inv in H. apply nth_error_Some. congruence. Qed.

  Lemma vuv_add_in : forall hy b c i d cv uv uv', GH hy -> at_ data i = Ok d -> cvf i = Ok cv -> vuv uv -> add_in hy b c i d cv uv = Ok uv' -> vuv uv'.
  Proof.
    intros hy b c i d cv uv uv' Hh Ed Ec U E. unfold add_in in E. apply rbind_ok in E. destruct E as (h & Eh & E). apply rbind_ok in E. destruct E as (h' & Eh' & E).
    injection E as <-. apply vuv_upd; [exact U|]. eapply vh_add; eauto using at_In, at_lt.
  Qed.
  Lemma vuv_remove_in : forall hy b c i d cv uv uv', GH hy -> at_ data i = Ok d -> cvf i = Ok cv -> vuv uv -> remove_in hy b c i d cv uv = Ok uv' -> vuv uv'.
  Proof.
    intros hy b c i d cv uv uv' Hh Ed Ec U E. unfold remove_in in E. apply rbind_ok in E. destruct E as (h & Eh & E). apply rbind_ok in E. destruct E as (h' & Eh' & E).
    injection E as <-. apply vuv_upd; [exact U|]. eapply vh_remove; eauto using at_In, at_lt.
  Qed.

  Lemma va_erase : forall c (a a' : alg I), va a -> remove_singleton c a = Ok a' -> va a'.
  Proof.
    intros c a a' (U & X & H & M) E. unfold remove_singleton in E. apply rbind_ok in E. destruct E as (uv & E1 & E). injection E as <-.
    split; [|split; [exact X|split; [exact H|exact M]]]. cbn. unfold erase_at in E1. destruct (c <? length (a_uv a)); [|discriminate]. injection E1 as <-.
    intros h Hh. apply U. eapply In_del; eauto.
  Qed.

  Lemma va_unassign : forall uhp i (a a' : alg I), va a -> unassign data uhp cvf i a = Ok a' -> va a'.
  Proof.
    intros uhp i a a' V E. unfold unassign in E. apply rbind_ok in E. destruct E as (c & Ec & E). apply rbind_ok in E. destruct E as (h & Eh & E).
    destruct (Z.leb (h_card h) 1); [eapply va_erase; eauto|]. apply rbind_ok in E. destruct E as (d & Ed & E). apply rbind_ok in E. destruct E as (cv & Ev & E).
    apply rbind_ok in E. destruct E as (uv & Eu & E). injection E as <-. destruct V as (U & X & H & M).
    split; [eapply vuv_remove_in; eauto|auto].
  Qed.

  Lemma va_assign : forall uhp i c (a a' : alg I) r r', va a -> assign data uhp cvf i c a r = Ok (a', r') -> va a'.
  Proof.
    intros uhp i c a a' r r' (U & X & H & M) E. unfold assign in E. apply rbind_ok in E. destruct E as (d & Ed & E). apply rbind_ok in E. destruct E as (cv & Ev & E).
    destruct (c =? length (a_uv a)).
    - apply rbind_ok in E. destruct E as (h0 & E0 & E). apply rbind_ok in E. destruct E as (h1 & E1 & E). apply rbind_ok in E. destruct E as ([h2 r2] & E2 & E).
      apply rbind_ok in E. destruct E as (al & Ea & E). injection E as <- <-.
      split; [|auto]. cbn. apply vuv_app; [exact U|]. eapply vh_draw; [exact H| |exact E2]. eapply vh_add; [exact H|exact Ed|exact Ev| |apply vh_clone, U; eapply at_In; eauto|exact E1].
      eapply at_lt; eauto.
    - apply rbind_ok in E. destruct E as (al & Ea & E). apply rbind_ok in E. destruct E as (uv & Eu & E). injection E as <- <-.
      split; [eapply vuv_add_in; eauto|auto].
  Qed.

  Lemma va_neal_step : forall uhp lp i (a a' : alg I) r r', va a -> neal_step data covs uhp lp (a, r) i = Ok (a', r') -> va a'.
  Proof.
    intros uhp lp i a a' r r' V E. unfold neal_step in E. apply rbind_ok in E. destruct E as (a1 & E1 & E). apply rbind_ok in E. destruct E as (pm & _ & E).
    apply rbind_ok in E. destruct E as (lk & _ & E). apply rbind_ok in E. destruct E as ([c r1] & _ & E).
    eapply va_assign; [|exact E]. eapply va_unassign; eauto.
  Qed.

  Lemma va_refresh : forall hy js aux r aux' r', GH hy -> vaux aux -> refresh_aux hy js aux r = Ok (aux', r') -> vaux aux'.
  Proof.
    intros hy js. induction js as [|j js IH]; intros aux r aux' r' Hh U E; cbn [refresh_aux] in E; [injection E as <- <-; exact U|].
    apply rbind_ok in E. destruct E as (h & Eh & E). unfold h_sample_prior in E. pose proof (cl_sample HC hy r Hh) as K. destruct (prior_sample I hy r) as [s r1].
    eapply IH; [exact Hh| |exact E]. intros x Hx. apply In_upd in Hx. destruct Hx as [->|Hx]; auto.
  Qed.

  Lemma va_neal8_step : forall n_aux i (a a' : alg I) r r', va a -> neal8_step data covs n_aux (a, r) i = Ok (a', r') -> va a'.
  Proof.
    intros n_aux i a a' r r' V E. unfold neal8_step in E. apply rbind_ok in E. destruct E as ([a1 b] & E1 & E).
    assert (V1 : va a1).
    { unfold neal8_unassign in E1. apply rbind_ok in E1. destruct E1 as (c & Ec & E1). apply rbind_ok in E1. destruct E1 as (h & Eh & E1).
      destruct V as (U & X & H & M). destruct (Z.leb (h_card h) 1).
      - apply rbind_ok in E1. destruct E1 as (x0 & Ex & E1). apply rbind_ok in E1. destruct E1 as (a2 & E2 & E1). injection E1 as <- <-.
        eapply va_erase; [|exact E2]. split; [exact U|]. split; [|split; [exact H|exact M]].
        intros x Hx. cbn in Hx. apply In_upd in Hx. destruct Hx as [->|Hx]; [|now apply X]. cbn. apply (U h). eapply at_In; eauto.
      - apply rbind_ok in E1. destruct E1 as (d & Ed & E1). apply rbind_ok in E1. destruct E1 as (cv & Ev & E1). apply rbind_ok in E1. destruct E1 as (uv & Eu & E1).
        injection E1 as <- <-. split; [eapply vuv_remove_in; eauto|auto]. }
    destruct V1 as (U & X & H & M).
    apply rbind_ok in E. destruct E as ([aux r1] & E2 & E). apply rbind_ok in E. destruct E as (pm & _ & E). apply rbind_ok in E. destruct E as (lk & _ & E).
    apply rbind_ok in E. destruct E as ([c r2] & _ & E). apply rbind_ok in E. destruct E as (a3 & E3 & E). injection E as <- <-.
    pose proof (va_refresh _ _ _ _ _ _ H X E2) as X2. unfold neal8_assign in E3.
    apply rbind_ok in E3. destruct E3 as (d & Ed & E3). apply rbind_ok in E3. destruct E3 as (cv & Ev & E3). cbn [a_uv a_aux set_aux a_hyp a_alloc] in E3.
    destruct (length (a_uv a1) <=? c).
    - apply rbind_ok in E3. destruct E3 as (hx & Ex & E3). apply rbind_ok in E3. destruct E3 as (al & Ea & E3). apply rbind_ok in E3. destruct E3 as (uv & Eu & E3). injection E3 as <-.
      split; [|auto]. cbn. eapply vuv_add_in; [exact H|exact Ed|exact Ev| |exact Eu]. apply vuv_app; [exact U|]. apply vh_clone, X2. eapply at_In; eauto.
    - apply rbind_ok in E3. destruct E3 as (al & Ea & E3). apply rbind_ok in E3. destruct E3 as (uv & Eu & E3). injection E3 as <-.
      split; [eapply vuv_add_in; eauto|auto].
  Qed.

  Lemma vuv_draw_all : forall hy save uv r uv' r', GH hy -> vuv uv -> draw_all hy save uv r = Ok (uv', r') -> vuv uv' /\ length uv' = length uv.
  Proof.
    intros hy save uv. induction uv as [|h t IH]; intros r uv' r' Hh U E; cbn [draw_all] in E; [injection E as <- <-; split; [exact U|reflexivity]|].
    apply rbind_ok in E. destruct E as ([h' r1] & E1 & E). apply rbind_ok in E. destruct E as ([t' r2] & E2 & E). injection E as <- <-.
    destruct (IH _ _ _ Hh (fun x Hx => U x (or_intror Hx)) E2) as [K Kl]. split; [|cbn; now f_equal].
    intros x [<-|Hx]; [|now apply K]. eapply vh_draw; [exact Hh| |exact E1]. apply U. now left.
  Qed.

  Lemma va_base_step : forall salloc uhp a r a' r', (forall b q b' q', va b -> salloc (b, q) = Ok (b', q') -> va b' /\ (a_alloc b <> [] -> a_alloc b' <> [])) ->
    va a -> a_alloc a <> [] -> base_step salloc uhp (a, r) = Ok (a', r') -> va a' /\ a_alloc a' <> [].
  Proof.
    intros salloc uhp a r a' r' Hs V N E. unfold base_step in E. apply rbind_ok in E. destruct E as ([a1 r1] & E1 & E).
    destruct (Hs _ _ _ _ V E1) as [(U1 & X1 & H1 & M1) N1]. specialize (N1 N).
    apply rbind_ok in E. destruct E as ([a2 r2] & E2 & E). unfold sample_unique_values in E2. apply rbind_ok in E2. destruct E2 as ([uv q] & E2 & E3). injection E3 as <- <-.
    destruct (vuv_draw_all _ _ _ _ _ _ H1 U1 E2) as [U2 _].
    apply rbind_ok in E. destruct E as ([a3 r3] & E3 & E). unfold update_hierarchy_hypers in E3. apply rbind_ok in E3. destruct E3 as (h & Eh & E3).
    cbn [a_uv set_uv a_hyp] in *.
    match type of E3 with context [hyp_update I ?hy ?l ?r] => pose proof (cl_hyp HC hy l r H1) as K; destruct (hyp_update I hy l r) as [hy' r4] end.
    injection E3 as <- <-. cbn [fst] in K.
    assert (K' : GH hy').
    { apply K. intros p Hp. apply in_map_iff in Hp. destruct Hp as (x & <- & Hx). apply filter_In in Hx. cbn. apply (U2 x). apply Hx. }
    unfold update_mixing in E. apply rbind_ok in E. destruct E as ([m r5] & E4 & E). injection E as <- <-. cbn [a_mix set_hyp set_uv a_uv a_alloc set_mix] in *.
    split; [|exact N1]. split; [exact U2|]. split; [exact X1|]. split; [exact K'|]. cbn.
    eapply (cl_mix HC); [exact M1| |exact N1|exact E4]. intro F. apply at_In in Eh. destruct uv; [exact Eh|discriminate].
  Qed.

  Lemma alloc_nonempty_set : forall (l : list nat) i x l', set_at l i x = Ok l' -> l' <> [].
  Proof. intros l i x l' E. unfold set_at in E. destruct (i <? length l) eqn:El; [|discriminate]. injection E as <-. apply Nat.ltb_lt in El. intro F. apply (f_equal (@length nat)) in F. rewrite upd_length in F. cbn in F. lia. Qed.

  Lemma va_sweep : forall uhp lp is a r a' r', va a -> rfold (neal_step data covs uhp lp) is (a, r) = Ok (a', r') -> va a' /\ (a_alloc a <> [] -> a_alloc a' <> []).
  Proof.
    intros uhp lp is. induction is as [|i is IH]; intros a r a' r' V E; cbn [rfold] in E; [injection E as <- <-; auto|].
    apply rbind_ok in E. destruct E as ([a1 r1] & E1 & E). destruct (IH _ _ _ _ (va_neal_step _ _ _ _ _ _ _ V E1) E) as [K Kn]. split; [exact K|]. intros _. apply Kn.
    clear -E1. unfold neal_step in E1. apply rbind_ok in E1. destruct E1 as (b1 & _ & E). apply rbind_ok in E. destruct E as (pm & _ & E).
    apply rbind_ok in E. destruct E as (lk & _ & E). apply rbind_ok in E. destruct E as ([c q] & _ & E). unfold assign in E.
    apply rbind_ok in E. destruct E as (d & _ & E). apply rbind_ok in E. destruct E as (cv & _ & E). destruct (c =? _).
    - apply rbind_ok in E. destruct E as (h0 & E0 & E). apply rbind_ok in E. destruct E as (h1 & _ & E). apply rbind_ok in E. destruct E as ([h2 r2] & E2 & E).
      apply rbind_ok in E. destruct E as (al & Ea & E). injection E as <- <-. cbn. eapply alloc_nonempty_set; eauto.
    - apply rbind_ok in E. destruct E as (al & Ea & E). apply rbind_ok in E. destruct E as (uv & Eu & E). injection E as <- <-. cbn. eapply alloc_nonempty_set; eauto.
  Qed.
  Lemma va_sweep8 : forall n_aux is a r a' r', va a -> rfold (neal8_step data covs n_aux) is (a, r) = Ok (a', r') -> va a' /\ (a_alloc a <> [] -> a_alloc a' <> []).
  Proof.
    intros n_aux is. induction is as [|i is IH]; intros a r a' r' V E; cbn [rfold] in E; [injection E as <- <-; auto|].
    apply rbind_ok in E. destruct E as ([a1 r1] & E1 & E). destruct (IH _ _ _ _ (va_neal8_step _ _ _ _ _ _ V E1) E) as [K Kn]. split; [exact K|]. intros _. apply Kn.
    clear -E1. unfold neal8_step in E1. apply rbind_ok in E1. destruct E1 as ([b1 b] & _ & E). apply rbind_ok in E. destruct E as ([aux r0] & _ & E). apply rbind_ok in E. destruct E as (pm & _ & E).
    apply rbind_ok in E. destruct E as (lk & _ & E). apply rbind_ok in E. destruct E as ([c q] & _ & E). apply rbind_ok in E. destruct E as (a3 & E & F). injection F as <- <-. unfold neal8_assign in E.
    apply rbind_ok in E. destruct E as (d & _ & E). apply rbind_ok in E. destruct E as (cv & _ & E). destruct (_ <=? c).
    - apply rbind_ok in E. destruct E as (h0 & E0 & E). apply rbind_ok in E. destruct E as (al & Ea & E). apply rbind_ok in E. destruct E as (uv & Eu & E). injection E as <-. cbn. eapply alloc_nonempty_set; eauto.
    - apply rbind_ok in E. destruct E as (al & Ea & E). apply rbind_ok in E. destruct E as (uv & Eu & E). injection E as <-. cbn. eapply alloc_nonempty_set; eauto.
  Qed.

  (** ** Initialisation *)
  Lemma va_init : forall uhp hy m k gen h0 r a r', GH hy -> GM m -> (forall p, h_ph h0 = Some p -> GH p) -> 1 <= n ->
    init_clusters data covs uhp hy m k gen [h0] r = Ok (a, r') -> va a /\ a_alloc a <> [].
  Proof.
    intros uhp hy m k gen h0 r a r' Hh Hm Hp Hn E. unfold init_clusters in E. apply rbind_ok in E. destruct E as (h00 & E0 & E). injection E0 as <-. cbn [upd] in E.
    apply rbind_ok in E. destruct E as ([uv2 r1] & E2 & E). apply rbind_ok in E. destruct E as ([al uv3] & E3 & E). apply rbind_ok in E. destruct E as (uv4 & E4 & E). injection E as <- <-.
    assert (V1 : vuv [h_initialize hy h0]).
    { intros h [<-|[]]. unfold h_initialize. split; [repeat split; cbn; constructor|]. cbn [h_ids h_state h_ph]. split; [intros j []|]. split; [now apply cl_init|].
      intros p. destruct (conj I); [intro Q; now injection Q as <-|apply Hp]. }
    assert (V2 : vuv uv2).
    { revert E2. generalize (seq 0 (num_components I data k - 1)) as l. revert V1. cbn [upd]. generalize [h_initialize hy h0] as uv. intros uv V1 l. revert uv r V1.
      induction l as [|i l IH]; intros uv r V1 E2; cbn [rfold] in E2; [injection E2 as <- <-; exact V1|].
      apply rbind_ok in E2. destruct E2 as ([uv' q] & E5 & E2). apply (IH uv' q); [|exact E2]. unfold init_clone_step in E5.
      apply rbind_ok in E5. destruct E5 as (x0 & Ex & E5). apply rbind_ok in E5. destruct E5 as (hi & Ei & E5).
      assert (V3 : vuv (uv ++ [h_clone x0])) by (apply vuv_app; [exact V1|apply vh_clone, (V1 x0); eapply at_In; eauto]).
      pose proof (vh_sample hy hi r Hh (V3 _ (at_In _ _ _ _ Ei))) as K. destruct (h_sample_prior hy hi r) as [hi' q']. injection E5 as <- <-. now apply vuv_upd. }
    assert (V3 : vuv uv3 /\ length al = length (seq 0 (num_components I data k) ++ seq (num_components I data k) (n - num_components I data k))).
    { revert E3. generalize (seq 0 (num_components I data k) ++ seq (num_components I data k) (n - num_components I data k)) as l. intro l.
      replace (length l) with (length (@nil nat) + length l) by reflexivity. generalize (@nil nat) as al0. clear E2. revert uv2 V2.
      induction l as [|i l IH]; intros uv V al0 E3; cbn [rfold] in E3; [injection E3 as <- <-; split; [exact V|cbn; lia]|].
      apply rbind_ok in E3. destruct E3 as ([al1 uv1] & E5 & E3). unfold init_alloc_step in E5.
      apply rbind_ok in E5. destruct E5 as (d & Ed & E5). apply rbind_ok in E5. destruct E5 as (cv & Ev & E5). apply rbind_ok in E5. destruct E5 as (uv' & Eu & E5). injection E5 as <- <-.
      destruct (IH uv' (vuv_add_in _ _ _ _ _ _ _ _ Hh Ed Ev V Eu) (al0 ++ [if i <? num_components I data k then i else gen i]) E3) as [K Kl]. split; [exact K|].
      rewrite Kl, app_length. cbn. lia. }
    destruct V3 as [V3 La]. split.
    - split; [|split; [intros h []|split; [exact Hh|exact Hm]]]. cbn [a_uv]. destruct uhp; [|injection E4 as <-; exact V3].
      revert E4. generalize (seq 0 (num_components I data k)) as l. intro l. revert V3. clear E3. revert uv3.
      induction l as [|i l IH]; intros uv V E4; cbn [rfold] in E4; [injection E4 as <-; exact V|].
      apply rbind_ok in E4. destruct E4 as (uv' & E5 & E4). apply (IH uv'); [|exact E4]. unfold init_save_step in E5.
      apply rbind_ok in E5. destruct E5 as (h & Eh & E5). apply rbind_ok in E5. destruct E5 as (h' & Eh' & E5). injection E5 as <-.
      apply vuv_upd; [exact V|]. eapply vh_save; [exact Hh| |exact Eh']. apply V. eapply at_In; eauto.
    - cbn [a_alloc]. intro F. rewrite F, app_length, !seq_length in La. cbn in La. lia.
  Qed.

  Lemma va_aux : forall n_aux (a a' : alg I), va a -> neal8_init_aux n_aux a = Ok a' -> va a' /\ a_alloc a' = a_alloc a.
  Proof.
    intros n_aux a a' (U & X & H & M) E. unfold neal8_init_aux in E. apply rbind_ok in E. destruct E as (aux & Ea & E). injection E as <-.
    split; [|reflexivity]. split; [exact U|]. split; [|auto]. cbn. revert Ea. generalize (seq 0 n_aux) as l. intro l. revert aux.
    induction l as [|i l IH]; intros aux Ea; cbn [rmap] in Ea; [injection Ea as <-; intros h []|].
    apply rbind_ok in Ea. destruct Ea as (x & Ex & Ea). apply rbind_ok in Ea. destruct Ea as (xs & Exs & Ea). injection Ea as <-.
    apply rbind_ok in Ex. destruct Ex as (h0 & E0 & Ex). injection Ex as <-.
    intros h [<-|Hh]; [cbn; apply (U h0); eapply at_In; eauto|exact (IH _ Exs h Hh)].
  Qed.

  (** ** Runs *)
  Lemma run_valid : forall init step maxiter burnin s out,
    (forall a r, init = Ok (a, r) -> va a /\ a_alloc a <> []) ->
    (forall a r a' r', va a -> a_alloc a <> [] -> step (a, r) = Ok (a', r') -> va a' /\ a_alloc a' <> []) ->
    run init step maxiter burnin = Ok (s, out) ->
    forall snap, In snap out -> GH (s_hyp snap) /\ GM (s_mix snap) /\ forall p, In p (s_clusters snap) -> GS (fst p).
  Proof.
    intros init step maxiter burnin s out Hi Hs R snap Hin.
    destruct (@run_saves I _ _ _ _ _ _ R) as ([a0 r0] & E0 & _ & L0 & K). apply In_nth_error in Hin. destruct Hin as (i & Hin).
    destruct (K i) as (ar & snap' & Ei & Hi' & _ & Ea & Ec & Eh & Em); [rewrite <- L0; apply nth_error_Some; congruence|].
    rewrite Hin in Hi'. injection Hi' as <-.
    assert (V : va (fst ar) /\ a_alloc (fst ar) <> []).
    { specialize (Hi _ _ E0). revert Ei. generalize (burnin + i + 1)%nat as k. intro k. clear -Hs Hi. revert a0 r0 Hi.
      induction k as [|k IH]; intros a0 r0 Hi E; cbn [iter] in E; [injection E as <-; exact Hi|].
      apply rbind_ok in E. destruct E as ([a1 r1] & E1 & E). apply (IH a1 r1); [|exact E]. eapply Hs; [apply Hi|apply Hi|exact E1]. }
    destruct V as [(U & _ & H & M) _]. rewrite Eh, Em, Ec. split; [exact H|]. split; [exact M|].
    intros p Hp. apply in_map_iff in Hp. destruct Hp as (h & <- & Hh). apply (U h Hh).
  Qed.
End Valid.

(** ** The clustering invariant along runs whose mixing update may throw *)
Section Track.
  Variable I : Iface.
  Variable L : laws I.
  Variable data : list (Datum I).
  Variable covs : list (Cov I).
  Hypothesis Hrows : rows_ok I data (at_ covs).
  Local Notation n := (length data).
  Local Notation Inv := (@GInv I data covs false).

  Lemma tail_inv : forall uhp (a : alg I) r a' r', (uhp = true -> conj I = true /\ other_draw I = None) -> Inv a ->
    (s2 <- sample_unique_values uhp (a, r) ;; s3 <- update_hierarchy_hypers s2 ;; update_mixing s3) = Ok (a', r') ->
    Inv a' /\ a_aux a' = a_aux a.
  Proof.
    intros uhp a r a' r' Hu Ha E.
    destruct (@sample_unique_values_ok I L data covs uhp false Hu (@trk_false _) a r Ha) as (a1 & r1 & E1 & G1 & _ & _ & _ & Ex & _).
    rewrite E1 in E. cbn [rbind] in E. apply rbind_ok in E. destruct E as ([a2 r2] & E2 & E).
    unfold update_hierarchy_hypers in E2. apply rbind_ok in E2. destruct E2 as (h & _ & E2).
    match type of E2 with context [hyp_update I ?b ?c ?d] => destruct (hyp_update I b c d) as [hy r3] end. injection E2 as <- <-.
    unfold update_mixing in E. apply rbind_ok in E. destruct E as ([m r4] & _ & E). injection E as <- <-.
    split; [|exact Ex]. apply (GInv_set_hyp hy) in G1. exact G1.
  Qed.

  Lemma neal2_inv : forall (a : alg I) r a' r', 2 <= n -> Inv a -> @masses_ok I (a_mix a) n ->
    base_step (neal2_sample_allocations data covs) false (a, r) = Ok (a', r') -> Inv a'.
  Proof.
    intros a r a' r' Hn Ha Hm E. unfold base_step, neal2_sample_allocations in E.
    destruct (@neal_sweep_ok I L data covs Hrows false false (uhp_false I) (@trk_false _) (neal2_lpdf data covs)
                (@neal2_lpdf_ok I data covs Hrows false) a r (seq 0 n)) as (a1 & r1 & E1 & G1 & _); auto.
    { intros i Hi. apply in_seq in Hi. lia. }
    rewrite E1 in E. cbn [rbind] in E. eapply tail_inv; [exact (uhp_false I)|exact G1|exact E].
  Qed.
  Lemma neal3_inv : forall (a : alg I) r a' r', conj I = true -> other_draw I = None -> 2 <= n -> Inv a -> @masses_ok I (a_mix a) n ->
    base_step (neal3_sample_allocations data covs) true (a, r) = Ok (a', r') -> Inv a'.
  Proof.
    intros a r a' r' Hc Ho Hn Ha Hm E. unfold base_step, neal3_sample_allocations in E.
    destruct (@neal_sweep_ok I L data covs Hrows true false (fun _ => Logic.conj Hc Ho) (@trk_false _) (neal3_lpdf data covs)
                (fun a i => @neal3_lpdf_ok I data covs Hrows false a i Ho) a r (seq 0 n)) as (a1 & r1 & E1 & G1 & _); auto.
    { intros i Hi. apply in_seq in Hi. lia. }
    rewrite E1 in E. cbn [rbind] in E. eapply tail_inv; [|exact G1|exact E]. auto.
  Qed.
  Lemma neal8_inv : forall n_aux (a : alg I) r a' r', 1 <= n_aux -> @GInv8 I data covs n_aux a -> @masses_ok I (a_mix a) n ->
    base_step (neal8_sample_allocations data covs n_aux) false (a, r) = Ok (a', r') -> @GInv8 I data covs n_aux a'.
  Proof.
    intros n_aux a r a' r' Hx Ha Hm E. unfold base_step, neal8_sample_allocations in E.
    destruct (@neal8_sweep_ok I L data covs Hrows n_aux a r (seq 0 n)) as (a1 & r1 & E1 & [G1 [X1 X2]] & _); auto.
    { intros i Hi. apply in_seq in Hi. lia. }
    rewrite E1 in E. cbn [rbind] in E. destruct (@tail_inv false a1 r1 a' r' (uhp_false I) G1 E) as [G2 Ex].
    split; [exact G2|]. split; rewrite Ex; auto.
  Qed.
End Track.

(** ** Saved states *)

(** What a saved state says about the clustering: a label of an existing cluster
    for every observation, every cluster used, cardinalities equal to the numbers
    of labels. *)
Definition saved_clustering {S : Type} (n : nat) (labels : list nat) (clusters : list (S * Z)) : Prop :=
  length labels = n /\ (forall c, In c labels <-> c < length clusters) /\
  (forall c p, nth_error clusters c = Some p -> snd p = Z.of_nat (count_occ Nat.eq_dec labels c)).

Lemma occ_positions : forall labels c,
  count_occ Nat.eq_dec labels c = length (filter (fun i => match nth_error labels i with Some x => x =? c | None => false end) (seq 0 (length labels))).
Proof.
  induction labels as [|x l IH]; intro c; [reflexivity|]. cbn [count_occ length seq filter nth_error].
  rewrite <- seq_shift. specialize (IH c).
  assert (E : length (filter (fun i => match nth_error (x :: l) i with Some x0 => x0 =? c | None => false end) (map S (seq 0 (length l)))) =
              count_occ Nat.eq_dec l c).
  { rewrite IH. generalize (seq 0 (length l)) as is. induction is as [|i is IH2]; [reflexivity|]. cbn [map filter nth_error].
    destruct (nth_error l i) as [y|]; [destruct (y =? c)|]; cbn [length]; rewrite IH2; reflexivity. }
  destruct (Nat.eq_dec x c) as [->|Ne].
  - rewrite Nat.eqb_refl. cbn [length]. now rewrite E.
  - replace (x =? c) with false by (symmetry; now apply Nat.eqb_neq). now rewrite E.
Qed.

Lemma proper_clustering : forall (I : Iface) n al (uv : list (hier I)), proper n al (view uv) ->
  saved_clustering n al (map (fun h => (h_state h, h_card h)) uv).
Proof.
  intros I n al uv [(C1 & C2 & C3) N]. split; [exact C1|]. split.
  - intro c. rewrite map_length. split.
    + intro H. apply In_nth_error in H. destruct H as (i & Hi). specialize (C2 i c Hi). unfold view in C2. now rewrite map_length in C2.
    + intro H. destruct (nth_error uv c) as [h|] eqn:Eh; [|apply nth_error_None in Eh; lia].
      assert (Hv : nth_error (view uv) c = Some (h_ids h, h_card h)) by (apply nth_view; eexists; eauto).
      destruct (C3 c _ _ Hv) as (_ & Q & _). pose proof (N c _ _ Hv) as Ne. destruct (h_ids h) as [|i t] eqn:Ei; [congruence|].
      eapply nth_error_In. apply Q. now left.
  - intros c p Hp. rewrite nth_error_map in Hp. destruct (nth_error uv c) as [h|] eqn:Hh; [|discriminate]. injection Hp as <-. cbn [snd].
    assert (Hv : nth_error (view uv) c = Some (h_ids h, h_card h)) by (apply nth_view; eexists; eauto).
    destruct (C3 c _ _ Hv) as (S1 & Q & ->). f_equal. rewrite occ_positions. apply Permutation_length, NoDup_Permutation.
    + clear -S1. induction S1 as [|a l S1 IH F]; constructor; [|exact IH]. intro H. rewrite Forall_forall in F. specialize (F a H). lia.
    + apply NoDup_filter, seq_NoDup.
    + intro i. rewrite filter_In, in_seq, Q. split.
      * intro H. rewrite H, Nat.eqb_refl. split; [|reflexivity]. split; [lia|]. cbn. apply nth_error_Some. congruence.
      * intros [_ H]. destruct (nth_error al i) as [x|]; [|discriminate]. apply Nat.eqb_eq in H. now subst.
Qed.

Section Saved.
  Variable I : Iface.
  Variable L : laws I.
  Variable data : list (Datum I).
  Variable covs : list (Cov I).
  Hypothesis Hrows : rows_ok I data (at_ covs).
  Local Notation n := (length data).
  Variable GH : Hyp I -> Prop.
  Variable GS : St I -> Prop.
  Variable GM : Mix I -> Prop.
  Hypothesis HC : closed I data covs GH GS GM.
  Hypothesis HM : forall m, GM m -> masses_ok I m n.

  (** Everything known about a saved state. *)
  Definition saved_valid (snap : snapshot I) : Prop :=
    saved_clustering n (s_alloc snap) (s_clusters snap) /\ GH (s_hyp snap) /\ GM (s_mix snap) /\
    (forall p, In p (s_clusters snap) -> GS (fst p)) /\
    exists uv : list (hier I), proper n (s_alloc snap) (view uv) /\ s_clusters snap = map (fun h => (h_state h, h_card h)) uv.

  Lemma run_saved : forall (Q : alg I -> Prop) init step maxiter burnin s out,
    (forall a, Q a -> va I data covs GH GS GM a /\ a_alloc a <> [] /\ proper n (a_alloc a) (view (a_uv a))) ->
    (forall a r, init = Ok (a, r) -> Q a) -> (forall a r a' r', Q a -> step (a, r) = Ok (a', r') -> Q a') ->
    run init step maxiter burnin = Ok (s, out) ->
    length out = maxiter - burnin /\ forall snap, In snap out -> saved_valid snap.
  Proof.
    intros Q init step maxiter burnin s out HQ Hi Hs R.
    destruct (@run_saves I _ _ _ _ _ _ R) as ([a0 r0] & E0 & _ & L0 & K). split; [exact L0|]. intros snap Hin.
    apply In_nth_error in Hin. destruct Hin as (i & Hin).
    destruct (K i) as (ar & snap' & Ei & Hi' & _ & Ea & Ec & Eh & Em); [rewrite <- L0; apply nth_error_Some; congruence|].
    rewrite Hin in Hi'. injection Hi' as <-.
    assert (V : Q (fst ar)).
    { specialize (Hi _ _ E0). revert Ei. generalize (burnin + i + 1)%nat as k. intro k. clear -Hs Hi. revert a0 r0 Hi.
      induction k as [|k IH]; intros a0 r0 Hi E; cbn [iter] in E; [injection E as <-; exact Hi|].
      apply rbind_ok in E. destruct E as ([a1 r1] & E1 & E). apply (IH a1 r1); [|exact E]. eapply Hs; [apply Hi|exact E1]. }
    destruct (HQ _ V) as ((U & _ & H & M) & _ & P). unfold saved_valid. rewrite Ea, Ec, Eh, Em. split; [now apply proper_clustering|]. split; [exact H|]. split; [exact M|]. split.
    - intros p Hp. apply in_map_iff in Hp. destruct Hp as (h & <- & Hh). apply (U h Hh).
    - exists (a_uv (fst ar)). auto.
  Qed.

  Lemma GInv_proper_ : forall a, @GInv I data covs false a -> proper n (a_alloc a) (view (a_uv a)).
  Proof. intros a G. apply GInv_iff in G. apply G. Qed.

  Variable hy : Hyp I.
  Variable m : Mix I.
  Variable k : nat.
  Variable pos : nat -> nat.
  Variable h0 : hier I.
  Hypothesis Hhy : GH hy.
  Hypothesis Hm : GM m.
  Hypothesis Hk : k <= n.
  Hypothesis Hpos : forall i, pos i < num_components I data k.
  Hypothesis Hh0 : forall p, h_ph h0 = Some p -> GH p.
  Hypothesis Hh1 : @ph_ok I h0.

  Lemma init_inv : forall uhp r a r', (uhp = true -> conj I = true /\ other_draw I = None) -> 1 <= n ->
    init_clusters data covs uhp hy m k pos [h0] r = Ok (a, r') ->
    va I data covs GH GS GM a /\ a_alloc a <> [] /\ @GInv I data covs false a.
  Proof.
    intros uhp r a r' Hu Hn E. destruct (va_init I L data covs Hrows GH GS GM HC uhp hy m k pos h0 r a r' Hhy Hm Hh0 Hn E) as [V N].
    split; [exact V|]. split; [exact N|].
    destruct (@init_clusters_ok I L data covs Hrows uhp hy m k pos h0 r Hu Hn Hk Hpos Hh1) as (a1 & r1 & E1 & G1 & _).
    pose proof (eq_trans (eq_sym E) E1) as K. injection K as -> ->. eapply GInv_untrack; eauto.
  Qed.

  Theorem neal2_saved : forall r maxiter burnin s out, 2 <= n ->
    run (init_clusters data covs false hy m k pos [h0] r) (base_step (neal2_sample_allocations data covs) false) maxiter burnin = Ok (s, out) ->
    length out = maxiter - burnin /\ forall snap, In snap out -> saved_valid snap.
  Proof.
    intros r maxiter burnin s out Hn R.
    apply (run_saved (fun a => va I data covs GH GS GM a /\ a_alloc a <> [] /\ @GInv I data covs false a) _ _ _ _ _ _) in R; [exact R|..].
    - intros a (V & N & G). split; [exact V|]. split; [exact N|now apply GInv_proper_].
    - intros a q E. eapply init_inv; [exact (uhp_false I)|lia|exact E].
    - intros a q a' q' (V & N & G) E.
      destruct (va_base_step I data covs GH GS GM HC (neal2_sample_allocations data covs) false a q a' q') as [V' N']; [|exact V|exact N|exact E|].
      { intros b u b' u' Vb Eb. eapply va_sweep; eauto. }
      split; [exact V'|]. split; [exact N'|]. eapply neal2_inv; eauto. apply HM, V.
  Qed.

  Theorem neal3_saved : forall r maxiter burnin s out, conj I = true -> other_draw I = None -> 2 <= n ->
    run (init_clusters data covs true hy m k pos [h0] r) (base_step (neal3_sample_allocations data covs) true) maxiter burnin = Ok (s, out) ->
    length out = maxiter - burnin /\ forall snap, In snap out -> saved_valid snap.
  Proof.
    intros r maxiter burnin s out Hc Ho Hn R.
    apply (run_saved (fun a => va I data covs GH GS GM a /\ a_alloc a <> [] /\ @GInv I data covs false a) _ _ _ _ _ _) in R; [exact R|..].
    - intros a (V & N & G). split; [exact V|]. split; [exact N|now apply GInv_proper_].
    - intros a q E. eapply init_inv; [|lia|exact E]. auto.
    - intros a q a' q' (V & N & G) E.
      destruct (va_base_step I data covs GH GS GM HC (neal3_sample_allocations data covs) true a q a' q') as [V' N']; [|exact V|exact N|exact E|].
      { intros b u b' u' Vb Eb. eapply va_sweep; eauto. }
      split; [exact V'|]. split; [exact N'|]. eapply neal3_inv; eauto. apply HM, V.
  Qed.

  Theorem neal8_saved : forall n_aux r maxiter burnin s out, 1 <= n_aux -> 1 <= n ->
    run ('(a, r0) <- init_clusters data covs false hy m k pos [h0] r ;; a1 <- neal8_init_aux n_aux a ;; Ok (a1, r0))
      (base_step (neal8_sample_allocations data covs n_aux) false) maxiter burnin = Ok (s, out) ->
    length out = maxiter - burnin /\ forall snap, In snap out -> saved_valid snap.
  Proof.
    intros n_aux r maxiter burnin s out Hx Hn R.
    apply (run_saved (fun a => va I data covs GH GS GM a /\ a_alloc a <> [] /\ @GInv8 I data covs n_aux a) _ _ _ _ _ _) in R; [exact R|..].
    - intros a (V & N & [G _]). split; [exact V|]. split; [exact N|now apply GInv_proper_].
    - intros a q E. apply rbind_ok in E. destruct E as ([a0 r0] & E0 & E). apply rbind_ok in E. destruct E as (a1 & E1 & E). injection E as <- <-.
      destruct (init_inv false r a0 r0 (uhp_false I) Hn E0) as (V & N & G).
      destruct (va_aux I data covs GH GS GM n_aux a0 a1 V E1) as [V1 N1]. split; [exact V1|]. split; [now rewrite N1|].
      destruct (@neal8_init_aux_ok I n_aux a0) as (aux & Ea & La & Ha). { eapply GInv_uv_pos; eauto. }
      rewrite E1 in Ea. injection Ea as ->. split; [exact G|apply aux_iff; auto].
    - intros a q a' q' (V & N & G) E.
      destruct (va_base_step I data covs GH GS GM HC (neal8_sample_allocations data covs n_aux) false a q a' q') as [V' N']; [|exact V|exact N|exact E|].
      { intros b u b' u' Vb Eb. eapply va_sweep8; eauto. }
      split; [exact V'|]. split; [exact N'|]. eapply neal8_inv; eauto. apply HM, V.
  Qed.
End Saved.
