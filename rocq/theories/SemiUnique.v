(** * Semi-HDP: [update_unique_vals] draws every atom given exactly the
    observations of the tables that use it. *)
From Coq Require Import String.
From Coq Require Import Bool List Arith ZArith Reals Lia Permutation.
From Verif Require Import Base XReal Semi SemiWp SemiSpec SemiCount SemiInv.
Import ListNotations.
Local Open Scope nat_scope.

Section Unique.
Variable I : SH.
Variable P : params.
Variable data : list (list (Datum I)).
Notation sst := (sst I).
Notation ng := (length data).
Notation wf := (wf I data).
Notation held := (held I data).
Notation drawn := (drawn I).
Hypothesis Hcols : cols I = 1.

(** Private tables hold distinct objects. *)
Lemma priv_obj_inj : forall s r r' l l' k k', wf s -> r < ng -> r' < ng ->
  l < length (nth r (s_rest I s) []) -> l' < length (nth r' (s_rest I s) []) ->
  nth l (nth r (s_tp I s) []) None = Some k -> nth l' (nth r' (s_tp I s) []) None = Some k' ->
  nth k (nth r (s_priv I s) []) 0 = nth k' (nth r' (s_priv I s) []) 0 -> r = r' /\ l = l'.
Proof.
  intros s r r' l l' k k' H Hr Hr' Hl Hl' E E' Eo. pose proof (wf_own _ _ _ H) as Al.
  pose proof (wf_row _ _ _ H r Hr) as R. pose proof (wf_row _ _ _ H r' Hr') as R'.
  pose proof (row_priv_lt _ _ _ _ _ _ _ _ R Hl E) as Hk. pose proof (row_priv_lt _ _ _ _ _ _ _ _ R' Hl' E') as Hk'.
  assert (r = r') as <-.
  { apply (al_dis _ _ _ Al r r' (nth k (nth r (s_priv I s) []) 0)); left; [apply nth_In; auto|rewrite Eo; apply nth_In; auto]. }
  split; auto. assert (k = k') as <- by (apply (proj1 (NoDup_nth _ 0) (al_priv _ _ _ Al r)); auto).
  assert (Nd : NoDup (somes (nth r (s_tp I s) []))) by (eapply Permutation_NoDup; [apply Permutation_sym, (ro_bij _ _ _ _ _ _ R)|apply seq_NoDup]).
  rewrite <- (ro_tp _ _ _ _ _ _ R) in Hl, Hl'. revert Nd l l' Hl Hl' E E'. generalize (nth r (s_tp I s) []). clear.
  induction l as [|a t IH]; intros Nd l l' Hl Hl' E E'; simpl in Hl, Hl'; [lia|].
  destruct l as [|l], l' as [|l']; auto; cbn [nth] in E, E'.
  - subst a. simpl in Nd. inversion Nd; subst. exfalso. apply H1. apply somes_nth. exists l'. split; auto. lia.
  - subst a. simpl in Nd. inversion Nd; subst. exfalso. apply H1. apply somes_nth. exists l. split; auto. lia.
  - f_equal. apply IH; auto; try lia. destruct a; simpl in Nd; auto. inversion Nd; auto.
Qed.

Notation draw_at := (SemiSpec.draw_at I).

Lemma draw_at_same : forall h o d x g, o < length h -> x = fst (match d with [] => samp_prior I g | _ :: _ => samp_full I d g end) -> draw_at (upd h o x) o d.
Proof.
  intros h o d x g Ho E. exists x. split; [|exists g; exact E]. rewrite nth_error_upd. apply Nat.ltb_lt in Ho. rewrite Nat.eqb_refl, Ho. reflexivity.
Qed.

Lemma draw_at_other : forall h o o' d x, o' <> o -> draw_at h o' d -> draw_at (upd h o x) o' d.
Proof.
  intros h o o' d x N (y & E & D). exists y. split; auto. rewrite nth_error_upd. apply Nat.eqb_neq in N. rewrite N. exact E.
Qed.

Lemma ok_redraw' : forall o d (s : sst) g (Q : sst * Gs I -> Prop), o < length (s_heap I s) ->
  (forall x g', x = fst (match d with [] => samp_prior I g | _ :: _ => samp_full I d g end) -> Q (w_heap I (upd (s_heap I s) o x) s, g')) -> ok (redraw I o d s g) Q.
Proof.
  intros o d s g Q Ho HQ. unfold redraw. specialize (HQ (fst (match d with [] => samp_prior I g | _ :: _ => samp_full I d g end))).
  destruct (match d with [] => samp_prior I g | _ => samp_full I d g end) as [x g'].
  apply ok_bind. apply ok_set; auto. cbn [ok]. apply HQ. reflexivity.
Qed.

(** Observations of the shared atom [h] among the first [k] tables of [r]. *)
Definition servedr (s : sst) (r k h : nat) : list (Datum I) :=
  flat_map (fun l => match nth l (nth r (s_ts I s) []) None with Some k => if k =? h then held s r l else [] | None => [] end) (seq 0 k).
Definition servedn (s : sst) (m h : nat) : list (Datum I) :=
  flat_map (fun r => servedr s r (length (nth r (s_rest I s) [])) h) (seq 0 m).

(** Done: tables of the restaurants before [r], first [k] tables of [r]. *)
Definition uinv (s0 : sst) (r k : nat) (a : sst * list (list (Datum I)) * Gs I) : Prop :=
  exists h dbs g, a = (w_heap I h s0, dbs, g) /\ length h = length (s_heap I s0) /\ length dbs = length (s_shared I s0) /\
    (forall hh, hh < length (s_shared I s0) -> nth hh dbs [] = servedn s0 r hh ++ servedr s0 r k hh) /\
    (forall r' l k', r' < ng -> l < length (nth r' (s_rest I s0) []) -> r' < r \/ r' = r /\ l < k ->
       nth l (nth r' (s_tp I s0) []) None = Some k' -> draw_at h (nth k' (nth r' (s_priv I s0) []) 0) (held s0 r' l)).

Lemma ok_unique_rest' : forall s0 r a, wf s0 -> r < ng -> uinv s0 r 0 a -> ok (unique_rest I data a r) (uinv s0 (S r) 0).
Proof.
  intros s0 r a H Hr (h & dbs & g & -> & Hh & Hd & Hs & Hp). unfold unique_rest. apply ok_bind.
  assert (H' : wf (w_heap I h s0)) by (apply wf_heap; auto; lia).
  apply ok_by_table; auto; [apply wf_tabs_in; auto|apply (wf_rest _ _ _ H')|].
  set (dbt := map _ _).
  assert (Ld : length dbt = length (nth r (s_rest I s0) [])) by (unfold dbt; rewrite map_length, seq_length; auto).
  assert (Hdbt : forall l, l < length dbt -> nth l dbt [] = held s0 r l).
  { intros l Hl. unfold dbt. rewrite (nth_indep _ [] (held s0 r 0)) by auto. change (s_rest I (w_heap I h s0)) with (s_rest I s0).
    change (held (w_heap I h s0) r) with (held s0 r). rewrite (map_nth (held s0 r)), seq_nth by lia. reflexivity. }
  clearbody dbt. rewrite Ld.
  apply ok_for with (Inv := fun l a => uinv s0 r l a).
  - exists h, dbs, g. auto.
  - clear h dbs g Hh Hd Hs Hp H'. intros l b Hl (h1 & dbs1 & g1 & -> & Hh1 & Hd1 & Hs1 & Hp1). unfold unique_table.
    pose proof (wf_row _ _ _ H r Hr) as Rk. pose proof (wf_rest _ _ _ H) as L0. pose proof (wf_tpl _ _ _ H) as L1. pose proof (wf_tsl _ _ _ H) as L2. pose proof (wf_privl _ _ _ H) as L3.
    pose proof (ro_tp _ _ _ _ _ _ Rk) as L4. pose proof (ro_ts _ _ _ _ _ _ Rk) as L5.
    apply ok_bind. apply ok_at2 with (d := None); cbn [w_heap s_tp s_ts s_priv s_rest]; try lia.
    apply ok_bind. apply ok_at with (d := []); [lia|]. rewrite Hdbt by lia.
    pose proof (ro_one _ _ _ _ _ _ Rk l Hl) as O.
    assert (Hsr : forall hh, servedr s0 r (S l) hh = servedr s0 r l hh ++ match nth l (nth r (s_ts I s0) []) None with Some k => if k =? hh then held s0 r l else [] | None => [] end).
    { intros hh. unfold servedr. rewrite flat_map_seq_S. reflexivity. }
    destruct (nth l (nth r (s_tp I s0) []) None) as [k|] eqn:E.
    + pose proof (row_priv_lt _ _ _ _ _ _ _ _ Rk Hl E) as Hk. destruct (nth l (nth r (s_ts I s0) []) None) as [hh|] eqn:Ets; [tauto|].
      apply ok_bind. apply ok_at2 with (d := 0); cbn [w_heap s_priv]; try lia.
      assert (Ho : nth k (nth r (s_priv I s0) []) 0 < length h1).
      { pose proof (Forall_nth' _ _ 0 _ k (ro_pv _ _ _ _ _ _ Rk) Hk) as X. cbv beta in X. lia. }
      apply ok_bind. apply ok_redraw'; [exact Ho|].
      intros x g' Ex. apply ok_bind. apply ok_set2; cbn [w_heap s_rest s_heap]; try lia.
      rewrite <- (ro_priv _ _ _ _ _ _ Rk l k Hl E). rewrite upd_same by auto. rewrite upd_same by lia.
      rewrite (ro_priv _ _ _ _ _ _ Rk l k Hl E).
      cbn [ok]. exists (upd h1 (nth k (nth r (s_priv I s0) []) 0) x), dbs1, g'. rewrite upd_length. do 3 (split; auto). split.
      * intros hh Hhh. rewrite Hs1, Hsr, app_nil_r by auto. reflexivity.
      * intros r' l' k' Hr' Hl' Hc E'. destruct (Nat.eq_dec (nth k' (nth r' (s_priv I s0) []) 0) (nth k (nth r (s_priv I s0) []) 0)) as [Eo|N].
        -- destruct (priv_obj_inj s0 r' r l' l k' k) as [-> ->]; auto. rewrite Eo. eapply draw_at_same; eauto.
        -- apply draw_at_other; auto. apply Hp1; auto. destruct Hc as [Hc|[-> Hc]]; auto.
           assert (l' <> l) by (intros ->; congruence). right. split; auto. lia.
    + apply ok_bind. apply ok_at2 with (d := None); cbn [w_heap s_ts]; try lia.
      destruct (nth l (nth r (s_ts I s0) []) None) as [hh|] eqn:Ets; [|tauto].
      apply ok_bind. apply ok_at with (d := []); [lia|]. apply ok_bind. apply ok_set; [lia|].
      cbn [ok]. exists h1, (upd dbs1 hh (nth hh dbs1 [] ++ held s0 r l)), g1. rewrite upd_length. do 3 (split; auto). split.
      * intros h' Hh'. rewrite nth_upd, Hsr. destruct (Nat.eqb_spec h' hh) as [->|N].
        -- assert (X : (hh <? length dbs1) = true) by (apply Nat.ltb_lt; lia). rewrite X. cbn [andb]. rewrite Nat.eqb_refl, Hs1, app_assoc by auto. reflexivity.
        -- cbn [andb]. rewrite Hs1 by auto. destruct (Nat.eqb_spec hh h'); [congruence|]. rewrite app_nil_r. reflexivity.
      * intros r' l' k' Hr' Hl' Hc E'. apply Hp1; auto. destruct Hc as [Hc|[-> Hc]]; auto.
        assert (l' <> l) by (intros ->; congruence). right. split; auto. lia.
  - intros b (h1 & dbs1 & g1 & -> & Hh1 & Hd1 & Hs1 & Hp1). exists h1, dbs1, g1. do 3 (split; auto). split.
    + intros hh Hhh. rewrite Hs1 by auto. unfold servedn at 2. rewrite flat_map_seq_S. cbn [servedr seq flat_map]. unfold servedr at 3. cbn [seq flat_map]. rewrite app_nil_r. reflexivity.
    + intros r' l k' Hr' Hl' Hc E'. apply Hp1; auto. destruct Hc as [Hc|[_ Hc]]; [|lia].
      destruct (Nat.eq_dec r' r) as [->|N]; [right; split; auto|left; lia].
Qed.

Notation refreshed := (SemiSpec.refreshed I data).

Lemma ok_update_unique_vals' : forall s g, wf s -> ok (update_unique_vals I data s g) (fun q => refreshed s (fst q)).
Proof.
  intros s g H. unfold update_unique_vals. apply ok_bind.
  apply ok_for with (Inv := fun m a => uinv s m 0 a).
  - exists (s_heap I s), (repeat [] (length (s_shared I s))), g. rewrite w_heap_same, repeat_length. do 3 (split; auto). split.
    + intros hh Hhh. rewrite nth_repeat. reflexivity.
    + intros r' l k' _ _ Hc. lia.
  - intros r a Hr Ha. apply ok_unique_rest'; auto.
  - intros a (h & dbs & g1 & -> & E1 & E2 & Hs & Hp). apply ok_bind.
    assert (Hserv : forall hh, hh < length (s_shared I s) -> nth hh dbs [] = served I data s hh).
    { intros hh Hhh. rewrite Hs by auto. apply app_nil_r. }
    pose proof (wf_own _ _ _ H) as Al.
    apply ok_for with (Inv := fun m a => exists h g, a = (w_heap I h s, g) /\ length h = length (s_heap I s) /\
      (forall r' l k', r' < ng -> l < length (nth r' (s_rest I s) []) -> nth l (nth r' (s_tp I s) []) None = Some k' -> draw_at h (nth k' (nth r' (s_priv I s) []) 0) (held s r' l)) /\
      (forall hh, hh < m -> hh < length (s_shared I s) -> draw_at h (nth hh (s_shared I s) 0) (served I data s hh))).
    + exists h, g1. do 2 (split; auto). split; [|intros; lia]. intros r' l k' Hr' Hl E. apply Hp; auto.
    + cbn [w_heap s_shared]. intros m a Hm (h1 & g2 & -> & E3 & Hp1 & Hs1). apply ok_bind. apply ok_at with (d := 0); [exact Hm|].
      apply ok_bind. apply ok_at with (d := []); [lia|]. rewrite Hserv by auto. cbn [w_heap s_shared].
      assert (Ho : nth m (s_shared I s) 0 < length h1).
      { pose proof (Forall_nth' _ _ 0 _ m (wf_shared _ _ _ H) Hm) as X. cbv beta in X. lia. }
      apply ok_redraw'; [exact Ho|]. intros x g' Ex. cbn [w_heap s_heap]. exists (upd h1 (nth m (s_shared I s) 0) x), g'. rewrite upd_length.
      do 2 (split; auto). split.
      * intros r' l k' Hr' Hl E. apply draw_at_other; auto. intros Eo.
        apply (al_shd _ _ _ Al r' (nth k' (nth r' (s_priv I s) []) 0)); [|rewrite Eo; apply nth_In; auto].
        left. apply nth_In. eapply row_priv_lt; [apply (wf_row _ _ _ H r' Hr')|exact Hl|exact E].
      * intros hh Hhh Hlt. destruct (Nat.eq_dec hh m) as [->|N].
        -- eapply draw_at_same; eauto.
        -- apply draw_at_other; [|apply Hs1; auto; lia]. intros Eo. apply N. apply (proj1 (NoDup_nth _ 0) (al_shared _ _ _ Al)); auto.
    + intros a (h1 & g2 & -> & E3 & Hp1 & Hs1). apply ok_bind. cbn [w_heap s_shared] in Hs1.
      assert (H' : wf (w_heap I h1 s)) by (apply wf_heap; auto; lia).
      apply ok_reassign_shared; auto. intros rest F1 F2 F3. cbn [ok fst]. split.
      * intros r l Hr Hl. cbn [w_rest w_heap s_heap s_rest]. cbn [w_heap s_rest] in F2. rewrite F3 by (auto; rewrite F2; auto). unfold target.
        cbn [w_heap s_ts s_rest s_shared]. pose proof (wf_row _ _ _ H r Hr) as R. pose proof (ro_one _ _ _ _ _ _ R l Hl) as O.
        destruct (nth l (nth r (s_ts I s) []) None) as [hh|] eqn:Ets.
        -- destruct (nth l (nth r (s_tp I s) []) None); [tauto|]. apply Hs1; auto.
        -- destruct (nth l (nth r (s_tp I s) []) None) as [k|] eqn:Etp; [|tauto]. rewrite (ro_priv _ _ _ _ _ _ R l k Hl Etp). apply Hp1; auto.
      * intros hh Hhh. apply Hs1; auto.
Qed.

End Unique.
