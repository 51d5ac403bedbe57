(** * Invariants of the marginal samplers (proofs). *)
From Coq Require Import Bool List Arith ZArith Lia Sorting.Sorted Permutation.
From Verif Require Import Base Hier Algos Spec.
Import ListNotations.
Set Implicit Arguments.

(** What the theorems assume of the interface: the external draws return
    indices in range, and summary statistics are reversible and independent of
    the insertion order (both proved of the concrete statistics in the numeric
    files). *)
Record laws (I : Iface) : Prop := mkLaws {
  cat_lt : forall ws r, ws <> [] -> fst (categorical I ws r) < length ws;
  unif_lt : forall n r, 0 < n -> fst (uniform I n r) < n;
  op_inv : forall d c s, stats_op I d c false (stats_op I d c true s) = s;
  op_comm : forall d c d' c' s,
    stats_op I d c true (stats_op I d' c' true s) =
    stats_op I d' c' true (stats_op I d c true s);
  post_conj : conj I = true -> forall hy k s st st', post I hy k s st = post I hy k s st'
}.

Section Facts.
Variable I : Iface.
Variable L : laws I.
Variable data : list (Datum I).
Variable cvf : nat -> res (Cov I).

(** Every row is available and has the right length. *)
Definition rows_ok : Prop := forall j, j < length data ->
  exists d c, at_ data j = Ok d /\ cvf j = Ok c /\ row_ok I d c = true.
Hypothesis Hrows : rows_ok.

(** Statistics computed from scratch. *)
Definition batch_step (s : Stats I) (j : nat) : Stats I :=
  match at_ data j, cvf j with
  | Ok d, Ok c => stats_op I d c true s
  | _, _ => s
  end.
Definition batch (ids : list nat) : Stats I := fold_left batch_step ids (stats0 I).

Lemma batch_step_comm : forall s j k, batch_step (batch_step s j) k = batch_step (batch_step s k) j.
Proof.
  intros. unfold batch_step.
  destruct (at_ data j), (cvf j), (at_ data k), (cvf k); auto. apply (op_comm L).
Qed.

Lemma fold_batch_perm : forall l l' s, Permutation l l' ->
  fold_left batch_step l s = fold_left batch_step l' s.
Proof.
  intros l l' s H. revert s.
  induction H; intros s; simpl; auto.
  - rewrite batch_step_comm. auto.
  - rewrite IHPermutation1. auto.
Qed.

Lemma fold_batch_out : forall l s j,
  fold_left batch_step l (batch_step s j) = batch_step (fold_left batch_step l s) j.
Proof.
  induction l as [|a l IH]; intros; simpl; auto.
  rewrite batch_step_comm. apply IH.
Qed.

Lemma batch_cons : forall j l d c, at_ data j = Ok d -> cvf j = Ok c ->
  batch (j :: l) = stats_op I d c true (batch l).
Proof.
  intros. unfold batch. simpl. rewrite fold_batch_out.
  unfold batch_step at 1. rewrite H, H0. reflexivity.
Qed.

Lemma batch_perm : forall l l', Permutation l l' -> batch l = batch l'.
Proof. intros. apply fold_batch_perm; auto. Qed.

Variable uhp : bool.
Hypothesis Huhp : uhp = true -> conj I = true /\ other_draw I = None.
(** [trk]: also track that cached posteriors are up to date. *)
Variable trk : bool.
Hypothesis Htrk : trk = true -> uhp = true.

Definition fresh (hy : Hyp I) (h : hier I) : Prop :=
  h_saved h = true /\ h_ph h = Some (post I hy (h_card h) (h_stats h) (h_state h)).

(** Well-formed cluster object. *)
Definition hok0 (h : hier I) : Prop :=
  ssorted (h_ids h) /\
  h_card h = Z.of_nat (length (h_ids h)) /\
  h_stats h = batch (h_ids h).

Definition hok (hy : Hyp I) (h : hier I) : Prop :=
  hok0 h /\ (trk = true -> fresh hy h).

Lemma hok0_clone : forall h, hok0 (h_clone h).
Proof. intros. repeat split; simpl; auto. constructor. Qed.

Lemma h_save_ok : forall hy h, uhp = true ->
  h_save hy h = Ok (mkHier I (h_ids h) (h_card h) (h_stats h) (h_state h) true
                      (Some (post I hy (h_card h) (h_stats h) (h_state h)))).
Proof.
  intros. unfold h_save, h_compute_post.
  destruct (Huhp H) as [_ E]. rewrite E. reflexivity.
Qed.

(** Insertion without refreshing the cache ([upd] = false) keeps only [hok0]. *)
Lemma h_add_ok_gen : forall hy upd_ i d c h,
  (upd_ = true -> other_draw I = None) ->
  at_ data i = Ok d -> cvf i = Ok c -> i < length data ->
  hok0 h -> ~ In i (h_ids h) ->
  exists h', h_add hy upd_ i d c h = Ok h' /\ hok0 h' /\
    h_ids h' = set_insert i (h_ids h) /\ h_state h' = h_state h /\
    (upd_ = true -> fresh hy h') /\
    (upd_ = false -> h_saved h' = h_saved h /\ h_ph h' = h_ph h).
Proof.
  intros hy upd_ i d c h Hup Hd Hc Hi (Hs & Hcard & Hst) Hn.
  destruct (Hrows Hi) as (d0 & c0 & E1 & E2 & Hr).
  rewrite Hd in E1. injection E1 as <-. rewrite Hc in E2. injection E2 as <-.
  unfold h_add, like_add.
  apply set_mem_false in Hn as Hm. rewrite Hm, Hr. simpl.
  assert (K : hok0 (mkHier I (set_insert i (h_ids h)) (h_card h + 1)
      (stats_op I d c true (h_stats h)) (h_state h) (h_saved h) (h_ph h))).
  { repeat split; simpl.
    - apply ssorted_insert; auto.
    - rewrite length_set_insert by auto. lia.
    - rewrite (batch_perm (set_insert_perm _ _ Hn)), (batch_cons _ Hd Hc), Hst. auto. }
  destruct upd_.
  - unfold h_save, h_compute_post. rewrite Hup by auto. simpl.
    eexists. split; [reflexivity|].
    split; [exact K|]. simpl. repeat split; auto; discriminate.
  - eexists. split; [reflexivity|]. split; [exact K|]. simpl.
    repeat split; auto; discriminate.
Qed.

Lemma h_remove_ok_gen : forall hy upd_ i d c h,
  (upd_ = true -> other_draw I = None) ->
  at_ data i = Ok d -> cvf i = Ok c -> i < length data ->
  hok0 h -> In i (h_ids h) ->
  exists h', h_remove hy upd_ i d c h = Ok h' /\ hok0 h' /\
    h_ids h' = set_remove i (h_ids h) /\ h_state h' = h_state h /\
    (upd_ = true -> fresh hy h') /\
    (upd_ = false -> h_saved h' = h_saved h /\ h_ph h' = h_ph h).
Proof.
  intros hy upd_ i d c h Hup Hd Hc Hi (Hs & Hcard & Hst) Hn.
  destruct (Hrows Hi) as (d0 & c0 & E1 & E2 & Hr).
  rewrite Hd in E1. injection E1 as <-. rewrite Hc in E2. injection E2 as <-.
  unfold h_remove, like_remove.
  apply set_mem_In in Hn as Hm. rewrite Hm, Hr. simpl.
  assert (K : hok0 (mkHier I (set_remove i (h_ids h)) (h_card h - 1)
      (stats_op I d c false (h_stats h)) (h_state h) (h_saved h) (h_ph h))).
  { repeat split; simpl.
    - apply ssorted_remove; auto.
    - pose proof (length_set_remove _ _ Hn). lia.
    - rewrite Hst, (batch_perm (set_remove_perm _ _ Hn)), (batch_cons _ Hd Hc).
      apply (op_inv L). }
  destruct upd_.
  - unfold h_save, h_compute_post. rewrite Hup by auto. simpl.
    eexists. split; [reflexivity|].
    split; [exact K|]. simpl. repeat split; auto; discriminate.
  - eexists. split; [reflexivity|]. split; [exact K|]. simpl.
    repeat split; auto; discriminate.
Qed.

Lemma h_add_ok : forall hy i d c h,
  at_ data i = Ok d -> cvf i = Ok c -> i < length data ->
  hok0 h -> ~ In i (h_ids h) ->
  exists h', h_add hy uhp i d c h = Ok h' /\ hok hy h' /\
    h_ids h' = set_insert i (h_ids h) /\ h_state h' = h_state h.
Proof.
  intros. destruct (@h_add_ok_gen hy uhp i d c h) as (h' & E & K & Ei & Es & F & _); auto.
  { intros; apply Huhp; auto. }
  exists h'. split; [exact E|]. split; [split; [exact K|auto]|auto].
Qed.

Lemma h_remove_ok : forall hy i d c h,
  at_ data i = Ok d -> cvf i = Ok c -> i < length data ->
  hok0 h -> In i (h_ids h) ->
  exists h', h_remove hy uhp i d c h = Ok h' /\ hok hy h' /\
    h_ids h' = set_remove i (h_ids h) /\ h_state h' = h_state h.
Proof.
  intros. destruct (@h_remove_ok_gen hy uhp i d c h) as (h' & E & K & Ei & Es & F & _); auto.
  { intros; apply Huhp; auto. }
  exists h'. split; [exact E|]. split; [split; [exact K|auto]|auto].
Qed.

(** A cached or absent posterior is always readable. *)
Definition ph_ok (h : hier I) : Prop := h_saved h = true -> h_ph h <> None.

Lemma h_draw_ok : forall hy h r, hok hy h -> ph_ok h ->
  exists h' r', h_draw hy (negb uhp) h r = Ok (h', r') /\ hok hy h' /\ ph_ok h' /\
    h_ids h' = h_ids h /\ h_card h' = h_card h.
Proof.
  intros hy h r [(Hs & Hc & Hst) Hf] Hp.
  assert (Kset : forall s, hok hy (h_set_state s h)).
  { intros s. split; [repeat split; simpl; auto|].
    intros E. destruct (Hf E) as [F1 F2]. split; simpl; auto.
    rewrite F2. f_equal. apply (post_conj L). apply Huhp; auto. }
  unfold h_draw. destruct (other_draw I) as [f|] eqn:Eo.
  - destruct (f hy (h_card h) (h_stats h) (h_ids h) (h_state h) r) as [s r'].
    exists (h_set_state s h), r'. split; [reflexivity|]. split; [apply Kset|].
    split; [exact Hp|]. split; reflexivity.
  - destruct (Z.eqb (h_card h) 0).
    + unfold h_sample_prior. destruct (prior_sample I hy r) as [s r'].
      exists (h_set_state s h), r'. split; [reflexivity|]. split; [apply Kset|].
    split; [exact Hp|]. split; reflexivity.
    + unfold h_get_post. rewrite Eo.
      destruct (h_saved h) eqn:Esv.
      * destruct (h_ph h) as [p|] eqn:Ep; [|exfalso; apply (Hp Esv); auto].
        simpl. destruct (prior_sample I p r) as [s r'].
        exists (h_set_state s h), r'. split; [reflexivity|]. split; [apply Kset|].
        split; [|split; reflexivity].
        unfold ph_ok; simpl. rewrite Ep. discriminate.
      * unfold h_compute_post. rewrite Eo. simpl.
        destruct uhp eqn:Eu; simpl.
        -- destruct (prior_sample I (post I hy (h_card h) (h_stats h) (h_state h)) r) as [s r'].
           exists (h_set_state s h), r'. split; [reflexivity|]. split; [apply Kset|].
           split; [exact Hp|]. split; reflexivity.
        -- destruct (prior_sample I (post I hy (h_card h) (h_stats h) (h_state h)) r) as [s r'].
           eexists. exists r'. split; [reflexivity|].
           split; [split; [repeat split; simpl; auto|intros X; discriminate (Htrk X)]|].
           split; [unfold ph_ok; simpl; discriminate|split; reflexivity].
Qed.

(** ** Whole-state invariant

    [f] tells which cluster each datum is in ([None]: temporarily nowhere). *)
Definition Inv (hy : Hyp I) (f : nat -> option nat) (uv : list (hier I)) : Prop :=
  (forall j c, f j = Some c -> j < length data /\ c < length uv) /\
  (forall c h, nth_error uv c = Some h ->
     hok hy h /\ ph_ok h /\ (forall j, In j (h_ids h) <-> f j = Some c)).

Definition nonempty (uv : list (hier I)) : Prop :=
  forall c h, nth_error uv c = Some h -> h_ids h <> [].

Definition hole (i : nat) (al : list nat) : nat -> option nat :=
  fun j => if j =? i then None else nth_error al j.

Lemma Inv_ext : forall hy f g uv, (forall j, f j = g j) -> Inv hy f uv -> Inv hy g uv.
Proof.
  intros hy f g uv E [H1 H2]. split.
  - intros j c. rewrite <- E. apply H1.
  - intros c h Hh. destruct (H2 c h Hh) as (A & B & C).
    repeat split; try apply A; auto; intros; rewrite <- E in *; apply C; auto.
Qed.

Lemma fresh_ph_ok : forall hy h, fresh hy h -> ph_ok h.
Proof. intros hy h [_ E] _. congruence. Qed.

(** Data [add_datum] to cluster [c]. *)
Lemma add_in_ok : forall hy f uv i c d cv,
  at_ data i = Ok d -> cvf i = Ok cv -> i < length data ->
  Inv hy f uv -> f i = None -> c < length uv ->
  exists uv', add_in hy uhp c i d cv uv = Ok uv' /\
    length uv' = length uv /\
    Inv hy (fun j => if j =? i then Some c else f j) uv' /\
    (nonempty uv -> nonempty uv') /\
    (forall e h, nth_error uv e = Some h -> e <> c -> nth_error uv' e = Some h) /\
    (forall h, nth_error uv c = Some h ->
       exists h', nth_error uv' c = Some h' /\ h_state h' = h_state h /\
                  h_ids h' = set_insert i (h_ids h)).
Proof.
  intros hy f uv i c d cv Hd Hcv Hi [H1 H2] Hf Hc. unfold add_in.
  destruct (at_ok uv Hc) as (h & E & En). rewrite E. simpl.
  destruct (H2 c h En) as ([K F] & P & M).
  assert (Hn : ~ In i (h_ids h)) by (rewrite M; congruence).
  destruct (@h_add_ok_gen hy uhp i d cv h) as (h' & E' & K' & Ei & Est & F1 & F2); auto.
  { intros; apply Huhp; auto. }
  rewrite E'. simpl. exists (upd uv c h'). split; [reflexivity|].
  split; [apply upd_length|]. split; [split|].
  - intros j e. rewrite upd_length. destruct (j =? i) eqn:Ej.
    + apply Nat.eqb_eq in Ej; subst. intros X; injection X as <-. auto.
    + apply H1.
  - intros e g Hg. rewrite nth_error_upd in Hg.
    apply Nat.ltb_lt in Hc as Hcb. rewrite Hcb, andb_true_r in Hg.
    destruct (e =? c) eqn:Ee.
    + apply Nat.eqb_eq in Ee; subst e. injection Hg as <-.
      split; [split; auto|]. split.
      * destruct uhp eqn:Eu.
        { apply fresh_ph_ok with hy; auto. }
        { destruct (F2 eq_refl) as [A B]. unfold ph_ok. rewrite A, B. exact P. }
      * intros j. rewrite Ei, In_set_insert, M. destruct (j =? i) eqn:Ej.
        { apply Nat.eqb_eq in Ej. subst; intuition. }
        { apply Nat.eqb_neq in Ej. intuition. }
    + apply Nat.eqb_neq in Ee. destruct (H2 e g Hg) as (A & B & C).
      split; [exact A|]. split; [exact B|].
      intros j. rewrite C. destruct (j =? i) eqn:Ej; [|tauto].
      apply Nat.eqb_eq in Ej. subst. split; [congruence|].
      intros X; injection X; congruence.
  - split; [|split].
    + intros Hne e g Hg. rewrite nth_error_upd in Hg.
      apply Nat.ltb_lt in Hc as Hcb. rewrite Hcb, andb_true_r in Hg.
      destruct (e =? c); [|eapply Hne; eauto].
      injection Hg as <-. rewrite Ei. intros X.
      assert (In i []) by (rewrite <- X; apply In_set_insert; auto). auto.
    + intros e g Hg Ne. rewrite nth_error_upd_other; auto.
    + intros g Hg. assert (g = h) by congruence. subst g.
      exists h'. rewrite nth_error_upd_same by auto. auto.
Qed.

Lemma remove_in_ok : forall hy f uv i c d cv,
  at_ data i = Ok d -> cvf i = Ok cv -> i < length data ->
  Inv hy f uv -> f i = Some c ->
  exists uv', remove_in hy uhp c i d cv uv = Ok uv' /\
    length uv' = length uv /\
    Inv hy (fun j => if j =? i then None else f j) uv' /\
    (forall e h, nth_error uv e = Some h -> e <> c -> nth_error uv' e = Some h) /\
    (forall h, nth_error uv c = Some h ->
       exists h', nth_error uv' c = Some h' /\ h_state h' = h_state h /\
                  h_ids h' = set_remove i (h_ids h)).
Proof.
  intros hy f uv i c d cv Hd Hcv Hi [H1 H2] Hf. unfold remove_in.
  destruct (H1 i c Hf) as [_ Hc].
  destruct (at_ok uv Hc) as (h & E & En). rewrite E. simpl.
  destruct (H2 c h En) as ([K F] & P & M).
  assert (Hn : In i (h_ids h)) by (rewrite M; auto).
  destruct (@h_remove_ok_gen hy uhp i d cv h) as (h' & E' & K' & Ei & Est & F1 & F2); auto.
  { intros; apply Huhp; auto. }
  rewrite E'. simpl. exists (upd uv c h'). split; [reflexivity|].
  split; [apply upd_length|]. split; [split|].
  - intros j e. rewrite upd_length. destruct (j =? i) eqn:Ej; [discriminate|apply H1].
  - intros e g Hg. rewrite nth_error_upd in Hg.
    apply Nat.ltb_lt in Hc as Hcb. rewrite Hcb, andb_true_r in Hg.
    destruct (e =? c) eqn:Ee.
    + apply Nat.eqb_eq in Ee; subst e. injection Hg as <-.
      split; [split; auto|]. split.
      * destruct uhp eqn:Eu.
        { apply fresh_ph_ok with hy; auto. }
        { destruct (F2 eq_refl) as [A B]. unfold ph_ok. rewrite A, B. exact P. }
      * intros j. rewrite Ei, In_set_remove, M by apply K. destruct (j =? i) eqn:Ej.
        { apply Nat.eqb_eq in Ej. subst; intuition; discriminate. }
        { apply Nat.eqb_neq in Ej. intuition. }
    + apply Nat.eqb_neq in Ee. destruct (H2 e g Hg) as (A & B & C).
      split; [exact A|]. split; [exact B|].
      intros j. rewrite C. destruct (j =? i) eqn:Ej; [|tauto].
      apply Nat.eqb_eq in Ej. subst. split; [congruence|discriminate].
  - split.
    + intros e g Hg Ne. rewrite nth_error_upd_other; auto.
    + intros g Hg. assert (g = h) by congruence. subst g.
      exists h'. rewrite nth_error_upd_same by auto. auto.
Qed.

(** Dropping a cluster that owns no datum any more (under [f]). *)
Lemma drop_ok : forall hy f uv c, Inv hy f uv -> c < length uv ->
  (forall j, f j <> Some c) ->
  Inv hy (fun j => option_map (fun e => if c <? e then e - 1 else e) (f j)) (del uv c).
Proof.
  intros hy f uv c [H1 H2] Hc Hno. split.
  - intros j e He. destruct (f j) as [e0|] eqn:E; [|discriminate].
    simpl in He. injection He as <-. destruct (H1 j e0 E) as [A B].
    rewrite del_length by auto. split; auto.
    assert (e0 <> c) by (intros ->; apply (Hno j); auto).
    destruct (c <? e0) eqn:Ec; [apply Nat.ltb_lt in Ec|apply Nat.ltb_ge in Ec]; lia.
  - intros e h He. rewrite nth_error_del in He.
    set (e' := if e <? c then e else S e).
    assert (He' : nth_error uv e' = Some h) by (unfold e'; destruct (e <? c); auto).
    destruct (H2 e' h He') as (A & B & C).
    split; [exact A|]. split; [exact B|].
    intros j. rewrite C. destruct (f j) as [e0|] eqn:E; simpl; [|split; discriminate].
    assert (e0 <> c) by (intros ->; apply (Hno j); auto).
    unfold e'. split; intros X; injection X as X; f_equal.
    + subst e0. destruct (e <? c) eqn:Ee.
      * apply Nat.ltb_lt in Ee. destruct (c <? e) eqn:Ec; [apply Nat.ltb_lt in Ec; lia|auto].
      * apply Nat.ltb_ge in Ee. destruct (c <? S e) eqn:Ec; [lia|apply Nat.ltb_ge in Ec; lia].
    + destruct (c <? e0) eqn:Ec; [apply Nat.ltb_lt in Ec|apply Nat.ltb_ge in Ec];
      destruct (e <? c) eqn:Ee; [apply Nat.ltb_lt in Ee|apply Nat.ltb_ge in Ee|
                                 apply Nat.ltb_lt in Ee|apply Nat.ltb_ge in Ee]; lia.
Qed.

Lemma relabel_down_length : forall c l, length (relabel_down c l) = length l.
Proof. intros. apply map_length. Qed.

Lemma nth_relabel_down : forall c l j,
  nth_error (relabel_down c l) j =
  option_map (fun e => if c <? e then e - 1 else e) (nth_error l j).
Proof. intros. unfold relabel_down. apply nth_error_map. Qed.

(** Taking a datum out of its cluster. *)
Lemma unassign_ok : forall (a : alg I) i,
  length (a_alloc a) = length data -> i < length data ->
  Inv (a_hyp a) (nth_error (a_alloc a)) (a_uv a) -> nonempty (a_uv a) ->
  exists al uv, unassign data uhp cvf i a = Ok (set_uv (set_alloc a al) uv) /\
    length al = length data /\
    Inv (a_hyp a) (hole i al) uv /\ nonempty uv /\
    same_grouping (fun j => j <> i /\ j < length data) (a_alloc a) al.
Proof.
  intros a i Hlen Hi HI Hne. unfold unassign.
  assert (Hi' : i < length (a_alloc a)) by lia.
  destruct (at_ok (a_alloc a) Hi') as (c & Ec & Enc). rewrite Ec. simpl.
  destruct HI as [H1 H2].
  destruct (H1 i c Enc) as [_ Hc].
  destruct (at_ok (a_uv a) Hc) as (h & Eh & Enh). rewrite Eh. simpl.
  destruct (H2 c h Enh) as ([(Ks & Kc & Kst) KF] & P & M).
  destruct (Z.leb (h_card h) 1) eqn:Esing.
  - (* singleton *)
    apply Z.leb_le in Esing.
    assert (Hin : In i (h_ids h)) by (apply M; auto).
    assert (Hall : forall j, In j (h_ids h) -> j = i).
    { destruct (h_ids h) as [|x [|y l]]; simpl in *; lia. }
    unfold remove_singleton. rewrite erase_at_ok by auto. simpl.
    exists (relabel_down c (a_alloc a)), (del (a_uv a) c).
    split; [reflexivity|].
    rewrite relabel_down_length. split; [lia|].
    assert (Hno : forall j, hole i (a_alloc a) j <> Some c).
    { intros j. unfold hole. destruct (j =? i) eqn:Ej; [discriminate|].
      apply Nat.eqb_neq in Ej. intros X. apply M in X. apply Ej. auto. }
    split; [|split].
    + split.
      * intros j e. unfold hole. destruct (j =? i) eqn:Ej; [discriminate|].
        apply Nat.eqb_neq in Ej.
        rewrite nth_relabel_down. destruct (nth_error (a_alloc a) j) as [e0|] eqn:E0; simpl; [|discriminate].
        intros X; injection X as <-.
        destruct (H1 j e0 E0) as [A B]. rewrite del_length by auto. split; auto.
        assert (e0 <> c) by (intros ->; apply M in E0; apply Ej; auto).
        destruct (c <? e0) eqn:Ec0; [apply Nat.ltb_lt in Ec0|apply Nat.ltb_ge in Ec0]; lia.
      * intros e g Hg. rewrite nth_error_del in Hg.
        set (e' := if e <? c then e else S e).
        assert (He' : nth_error (a_uv a) e' = Some g) by (unfold e'; destruct (e <? c); auto).
        assert (Hne' : e' <> c).
        { unfold e'. destruct (e <? c) eqn:Ee; [apply Nat.ltb_lt in Ee|apply Nat.ltb_ge in Ee]; lia. }
        destruct (H2 e' g He') as (A & B & C).
        split; [exact A|]. split; [exact B|].
        intros j. rewrite C. unfold hole. destruct (j =? i) eqn:Ej.
        { apply Nat.eqb_eq in Ej. subst j. rewrite Enc. split; [|discriminate].
          intros X; injection X; intros; congruence. }
        apply Nat.eqb_neq in Ej. rewrite nth_relabel_down.
        destruct (nth_error (a_alloc a) j) as [e0|] eqn:E0; simpl; [|split; discriminate].
        assert (e0 <> c) by (intros ->; apply M in E0; apply Ej; auto).
        unfold e' in *. split; intros X; injection X as X; f_equal.
        { subst e0. destruct (e <? c) eqn:Ee.
          - apply Nat.ltb_lt in Ee. destruct (c <? e) eqn:Ec'; [apply Nat.ltb_lt in Ec'; lia|auto].
          - apply Nat.ltb_ge in Ee. destruct (c <? S e) eqn:Ec'; [lia|apply Nat.ltb_ge in Ec'; lia]. }
        { destruct (c <? e0) eqn:Ec'; [apply Nat.ltb_lt in Ec'|apply Nat.ltb_ge in Ec'];
          destruct (e <? c) eqn:Ee; [apply Nat.ltb_lt in Ee|apply Nat.ltb_ge in Ee|
                                     apply Nat.ltb_lt in Ee|apply Nat.ltb_ge in Ee]; lia. }
    + intros e g Hg. rewrite nth_error_del in Hg. destruct (e <? c); eapply Hne; eauto.
    + intros j k [Hji Hj] [Hki Hk]. rewrite !nth_relabel_down.
      destruct (nth_error (a_alloc a) j) as [e1|] eqn:E1; [|apply nth_error_None in E1; lia].
      destruct (nth_error (a_alloc a) k) as [e2|] eqn:E2; [|apply nth_error_None in E2; lia].
      simpl.
      assert (e1 <> c) by (intros ->; apply M in E1; apply Hji; auto).
      assert (e2 <> c) by (intros ->; apply M in E2; apply Hki; auto).
      split; intros X; [injection X as ->; reflexivity|]. injection X as X. f_equal.
      destruct (c <? e1) eqn:Ec1; [apply Nat.ltb_lt in Ec1|apply Nat.ltb_ge in Ec1];
      destruct (c <? e2) eqn:Ec2; [apply Nat.ltb_lt in Ec2|apply Nat.ltb_ge in Ec2|
                                   apply Nat.ltb_lt in Ec2|apply Nat.ltb_ge in Ec2]; lia.
  - (* not a singleton *)
    apply Z.leb_gt in Esing.
    destruct (Hrows Hi) as (d & cv & Ed & Ecv & Hr). rewrite Ed, Ecv. simpl.
    destruct (@remove_in_ok (a_hyp a) (nth_error (a_alloc a)) (a_uv a) i c d cv)
      as (uv & E & Hl & HI' & Hoth & Hsame); auto.
    { split; auto. }
    rewrite E. simpl. exists (a_alloc a), uv.
    split; [destruct a; reflexivity|]. split; [auto|]. split; [exact HI'|]. split.
    + intros e g Hg. destruct (Nat.eq_dec e c) as [->|Hn].
      * destruct (Hsame h Enh) as (h' & E1 & _ & E2). assert (g = h') by congruence. subst g.
        rewrite E2. intros X.
        assert (Hin : In i (h_ids h)) by (apply M; auto).
        pose proof (length_set_remove _ _ Hin). rewrite X in H. simpl in H. lia.
      * assert (Hlt : e < length (a_uv a)) by (rewrite <- Hl; eapply nth_error_lt; eauto).
        destruct (at_ok (a_uv a) Hlt) as (g0 & _ & Eg0).
        rewrite (Hoth e g0 Eg0 Hn) in Hg. injection Hg as <-. eapply Hne; eauto.
    + intros j k _ _. tauto.
Qed.

Lemma h_clone_add_ok : forall hy i d c h,
  at_ data i = Ok d -> cvf i = Ok c -> i < length data ->
  exists h', h_add hy uhp i d c (h_clone h) = Ok h' /\ hok hy h' /\ ph_ok h' /\ h_ids h' = [i]
    /\ h_state h' = h_state h.
Proof.
  intros. destruct (@h_add_ok_gen hy uhp i d c (h_clone h)) as (h' & E & K & Ei & Es & F & F2); auto.
  { intros; apply Huhp; auto. }
  { apply hok0_clone. }
  exists h'. split; [exact E|]. split; [split; [exact K|auto]|].
  split; [|split; auto].
  destruct uhp eqn:Eu.
  - apply fresh_ph_ok with hy; auto.
  - destruct (F2 eq_refl) as [A B]. unfold ph_ok. rewrite A. simpl. discriminate.
Qed.

(** Appending a fresh cluster that owns exactly datum [i]. *)
Lemma push_ok : forall hy f uv i h,
  Inv hy f uv -> f i = None -> i < length data ->
  hok hy h -> ph_ok h -> h_ids h = [i] ->
  Inv hy (fun j => if j =? i then Some (length uv) else f j) (uv ++ [h]).
Proof.
  intros hy f uv i h [H1 H2] Hf Hi K P Ei. split.
  - intros j c. rewrite app_length. simpl. destruct (j =? i) eqn:Ej.
    + apply Nat.eqb_eq in Ej; subst. intros X; injection X as <-. lia.
    + intros X. apply H1 in X. lia.
  - intros c g Hg. destruct (Nat.lt_ge_cases c (length uv)) as [Hlt|Hge].
    + rewrite nth_error_app1 in Hg by auto. destruct (H2 c g Hg) as (A & B & C).
      split; [exact A|]. split; [exact B|]. intros j. rewrite C.
      destruct (j =? i) eqn:Ej; [|tauto].
      apply Nat.eqb_eq in Ej; subst. split; [congruence|].
      intros X; injection X; lia.
    + rewrite nth_error_app2 in Hg by auto.
      destruct (c - length uv) as [|m] eqn:Em; simpl in Hg; [|destruct m; discriminate].
      injection Hg as <-. assert (c = length uv) by lia. subst c.
      split; [exact K|]. split; [exact P|]. intros j. rewrite Ei. simpl.
      destruct (j =? i) eqn:Ej.
      * apply Nat.eqb_eq in Ej; subst. intuition.
      * apply Nat.eqb_neq in Ej. split; [intros [X|[]]; congruence|].
        intros X. apply H1 in X. lia.
Qed.

Lemma hole_upd : forall i al c, i < length al ->
  forall j, (if j =? i then Some c else hole i al j) = nth_error (upd al i c) j.
Proof.
  intros i al c Hi j. unfold hole. rewrite nth_error_upd.
  apply Nat.ltb_lt in Hi. rewrite Hi, andb_true_r.
  destruct (j =? i); auto.
Qed.

Lemma assign_ok : forall (a : alg I) i c_new r,
  length (a_alloc a) = length data -> i < length data ->
  Inv (a_hyp a) (hole i (a_alloc a)) (a_uv a) -> nonempty (a_uv a) ->
  c_new <= length (a_uv a) -> (c_new = length (a_uv a) -> a_uv a <> []) ->
  exists uv r', assign data uhp cvf i c_new a r =
      Ok (set_uv (set_alloc a (upd (a_alloc a) i c_new)) uv, r') /\
    Inv (a_hyp a) (nth_error (upd (a_alloc a) i c_new)) uv /\ nonempty uv.
Proof.
  intros a i c r Hlen Hi HI Hne Hc Hnew. unfold assign.
  destruct (Hrows Hi) as (d & cv & Ed & Ecv & Hr). rewrite Ed, Ecv. simpl.
  assert (Hi' : i < length (a_alloc a)) by lia.
  assert (Hhi : hole i (a_alloc a) i = None) by (unfold hole; rewrite Nat.eqb_refl; auto).
  destruct (c =? length (a_uv a)) eqn:Ec.
  - apply Nat.eqb_eq in Ec. specialize (Hnew Ec).
    destruct (a_uv a) as [|h0 uv0] eqn:Euv; [congruence|]. clear Hnew.
    set (uv := h0 :: uv0) in *.
    replace (at_ uv 0) with (Ok h0 : res (hier I)) by reflexivity. cbn [rbind].
    destruct (@h_clone_add_ok (a_hyp a) i d cv h0) as (h1 & E1 & K1 & P1 & I1 & S1); auto.
    rewrite E1. cbn [rbind].
    destruct (h_draw_ok r K1 P1) as (h2 & r' & E2 & K2 & P2 & I2 & C2).
    rewrite E2. cbn [rbind].
    rewrite set_at_ok by auto. cbn [rbind]. rewrite <- Ec.
    exists (uv ++ [h2]), r'. split; [destruct a; reflexivity|]. split.
    + apply Inv_ext with (f := fun j => if j =? i then Some c else hole i (a_alloc a) j).
      { intros j. apply hole_upd; auto. }
      rewrite Ec. apply push_ok; auto. congruence.
    + intros e g Hg. destruct (Nat.lt_ge_cases e (length uv)) as [Hlt|Hge].
      * rewrite nth_error_app1 in Hg by auto. eapply Hne; eauto.
      * rewrite nth_error_app2 in Hg by auto.
        destruct (e - length uv) as [|m]; simpl in Hg; [|destruct m; discriminate].
        injection Hg as <-. rewrite I2, I1. discriminate.
  - apply Nat.eqb_neq in Ec. rewrite set_at_ok by auto. cbn [rbind].
    destruct (@add_in_ok (a_hyp a) (hole i (a_alloc a)) (a_uv a) i c d cv)
      as (uv & E & Hl & HI' & Hn' & _); auto; [lia|].
    rewrite E. cbn [rbind]. exists uv, r. split; [destruct a; reflexivity|]. split; auto.
    eapply Inv_ext; [|exact HI']. intros j. apply hole_upd; auto.
Qed.

End Facts.
