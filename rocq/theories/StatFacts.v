(** * Statistics after any history of calls on one cluster. *)
From Coq Require Import String.
From Coq Require Import Bool List Arith ZArith Lia Permutation Sorting.Sorted.
From Verif Require Import Base Hier MargFacts.
Import ListNotations.
Set Implicit Arguments.

(** Calls a program can make on a hierarchy object, on observation [id] of the
    data set or on the whole cluster. *)
Inductive h_op : Type :=
| HAdd (upd : bool) (id : nat)
| HRemove (upd : bool) (id : nat)
| HDraw (save : bool)
| HSamplePrior
| HSave
| HGetPost (save : bool).

Section Stats.
Variable I : Iface.
Variable data : list (Datum I).
Variable covs : list (Cov I).

Definition h_step (hy : Hyp I) (o : h_op) (x : hier I * Rng I) : res (hier I * Rng I) :=
  let '(h, r) := x in
  match o with
  | HAdd upd id => d <- at_ data id ;; c <- at_ covs id ;; h' <- h_add hy upd id d c h ;; Ok (h', r)
  | HRemove upd id => d <- at_ data id ;; c <- at_ covs id ;; h' <- h_remove hy upd id d c h ;; Ok (h', r)
  | HDraw save => h_draw hy save h r
  | HSamplePrior => Ok (h_sample_prior hy h r)
  | HSave => h' <- h_save hy h ;; Ok (h', r)
  | HGetPost save => '(_, h') <- h_get_post hy save h ;; Ok (h', r)
  end.
Fixpoint h_steps (hy : Hyp I) (os : list h_op) (x : hier I * Rng I) : res (hier I * Rng I) :=
  match os with
  | [] => Ok x
  | o :: os' => x' <- h_step hy o x ;; h_steps hy os' x'
  end.

(** Whether observation [i] is in the cluster after a history that starts with
    it inside ([b = true]) or outside. *)
Fixpoint left_from (os : list h_op) (b : bool) (i : nat) : bool :=
  match os with
  | [] => b
  | HAdd _ id :: os' => left_from os' (if id =? i then true else b) i
  | HRemove _ id :: os' => left_from os' (if id =? i then false else b) i
  | _ :: os' => left_from os' b i
  end.

Hypothesis L : laws I.

Definition stats_inv (h : hier I) : Prop :=
  ssorted (h_ids h) /\ h_card h = Z.of_nat (length (h_ids h)) /\ h_stats h = batch I data (at_ covs) (h_ids h) /\
  (forall i, In i (h_ids h) -> i < length data /\ i < length covs).

Lemma at_lt : forall A (l : list A) i x, at_ l i = Ok x -> i < length l.
Proof.
  intros A l i x H. unfold at_ in H. destruct (nth_error l i) eqn:E; [|discriminate].
  apply nth_error_Some. congruence.
Qed.

Lemma save_keeps : forall hy (h h' : hier I), h_save hy h = Ok h' -> h_ids h' = h_ids h /\ h_card h' = h_card h /\ h_stats h' = h_stats h.
Proof.
  intros hy h h' H. unfold h_save in H. destruct (h_compute_post hy h); try discriminate. injection H as <-. auto.
Qed.

Lemma add_inv : forall hy upd id d c (h h' : hier I), at_ data id = Ok d -> at_ covs id = Ok c ->
  h_add hy upd id d c h = Ok h' -> stats_inv h -> stats_inv h' /\ (forall i, In i (h_ids h') <-> i = id \/ In i (h_ids h)).
Proof.
  intros hy upd id d c h h' Hd Hc H (S1 & S2 & S3 & S4). unfold h_add, like_add in H.
  destruct (set_mem id (h_ids h)) eqn:Em; [discriminate|]. destruct (row_ok I d c); [|discriminate]. simpl in H.
  apply set_mem_false in Em.
  assert (K : h_ids h' = set_insert id (h_ids h) /\ h_card h' = (h_card h + 1)%Z /\ h_stats h' = stats_op I d c true (h_stats h)).
  { destruct upd; [apply save_keeps in H; auto|injection H as <-; auto]. }
  destruct K as (E1 & E2 & E3). unfold stats_inv. rewrite E1, E2, E3. split; [split; [|split; [|split]]|].
  - apply ssorted_insert; auto.
  - rewrite length_set_insert by auto. lia.
  - rewrite S3, <- (batch_cons L data (at_ covs) id (h_ids h) Hd Hc). apply batch_perm; auto.
    apply Permutation_sym, set_insert_perm; auto.
  - intros i Hi. apply In_set_insert in Hi. destruct Hi as [->|Hi]; [|auto]. split; eapply at_lt; eauto.
  - intros i. apply In_set_insert.
Qed.

Lemma remove_inv : forall hy upd id d c (h h' : hier I), at_ data id = Ok d -> at_ covs id = Ok c ->
  h_remove hy upd id d c h = Ok h' -> stats_inv h -> stats_inv h' /\ (forall i, In i (h_ids h') <-> i <> id /\ In i (h_ids h)).
Proof.
  intros hy upd id d c h h' Hd Hc H (S1 & S2 & S3 & S4). unfold h_remove, like_remove in H.
  destruct (row_ok I d c); [|discriminate]. destruct (set_mem id (h_ids h)) eqn:Em; [|discriminate]. simpl in H.
  apply set_mem_In in Em.
  assert (K : h_ids h' = set_remove id (h_ids h) /\ h_card h' = (h_card h - 1)%Z /\ h_stats h' = stats_op I d c false (h_stats h)).
  { destruct upd; [apply save_keeps in H; auto|injection H as <-; auto]. }
  destruct K as (E1 & E2 & E3). unfold stats_inv. rewrite E1, E2, E3. split; [split; [|split; [|split]]|].
  - apply ssorted_remove; auto.
  - pose proof (length_set_remove id (h_ids h) Em). lia.
  - rewrite S3, (batch_perm L data (at_ covs) (set_remove_perm id (h_ids h) Em)),
      (batch_cons L data (at_ covs) id (set_remove id (h_ids h)) Hd Hc). apply (op_inv L).
  - intros i Hi. apply In_set_remove in Hi; [|auto]. apply S4; tauto.
  - intros i. rewrite In_set_remove by auto. tauto.
Qed.

Lemma get_keeps : forall hy save (h : hier I) p h', h_get_post hy save h = Ok (p, h') ->
  h_ids h' = h_ids h /\ h_card h' = h_card h /\ h_stats h' = h_stats h.
Proof.
  intros hy save h p h' H. unfold h_get_post in H. destruct (other_draw I); [discriminate|].
  destruct (h_saved h).
  - destruct (h_ph h); [|discriminate]. injection H as <- <-. auto.
  - destruct (h_compute_post hy h); simpl in H; try discriminate. destruct save; injection H as <- <-; auto.
Qed.
Lemma draw_keeps : forall hy save (h : hier I) r h' r', h_draw hy save h r = Ok (h', r') ->
  h_ids h' = h_ids h /\ h_card h' = h_card h /\ h_stats h' = h_stats h.
Proof.
  intros hy save h r h' r' H. unfold h_draw in H. destruct (other_draw I) as [f|].
  - destruct (f hy (h_card h) (h_stats h) (h_ids h) (h_state h) r). injection H as <- <-. auto.
  - destruct (Z.eqb (h_card h) 0).
    + unfold h_sample_prior in H. destruct (prior_sample I hy r). injection H as <- <-. auto.
    + destruct (h_get_post hy save h) as [[p h1]| | |] eqn:E; simpl in H; try discriminate.
      destruct (prior_sample I p r). injection H as <- <-. simpl. eapply get_keeps; eauto.
Qed.

Lemma keeps_inv : forall h h' : hier I, h_ids h' = h_ids h /\ h_card h' = h_card h /\ h_stats h' = h_stats h ->
  stats_inv h -> stats_inv h'.
Proof. intros h h' (E1 & E2 & E3). unfold stats_inv. rewrite E1, E2, E3. auto. Qed.

Lemma steps_inv : forall hy os h r h' r', h_steps hy os (h, r) = Ok (h', r') -> stats_inv h ->
  stats_inv h' /\ (forall i, In i (h_ids h') <-> left_from os (set_mem i (h_ids h)) i = true).
Proof.
  intros hy. induction os as [|o os IH]; intros h r h' r' H Hi.
  - injection H as <- <-. split; auto. intros i. simpl. rewrite set_mem_In. tauto.
  - cbn [h_steps] in H. destruct (h_step hy o (h, r)) as [[h1 r1]| | |] eqn:E; try discriminate. cbn [rbind] in H.
    assert (K : stats_inv h1 /\ (forall i, left_from (o :: os) (set_mem i (h_ids h)) i = left_from os (set_mem i (h_ids h1)) i)).
    { destruct o; cbn [h_step] in E.
      - destruct (at_ data id) as [d| | |] eqn:Ed; try discriminate. destruct (at_ covs id) as [c| | |] eqn:Ec; try discriminate.
        cbn [rbind] in E. destruct (h_add hy upd id d c h) as [h2| | |] eqn:E2; try discriminate. injection E as <- <-.
        destruct (@add_inv _ _ _ _ _ _ _ Ed Ec E2 Hi) as [A B]. split; auto. intros i. cbn [left_from]. f_equal.
        destruct (Nat.eqb_spec id i) as [->|Hne].
        + symmetry. apply set_mem_In. apply B. auto.
        + apply eq_true_iff_eq. rewrite !set_mem_In, B. intuition congruence.
      - destruct (at_ data id) as [d| | |] eqn:Ed; try discriminate. destruct (at_ covs id) as [c| | |] eqn:Ec; try discriminate.
        cbn [rbind] in E. destruct (h_remove hy upd id d c h) as [h2| | |] eqn:E2; try discriminate. injection E as <- <-.
        destruct (@remove_inv _ _ _ _ _ _ _ Ed Ec E2 Hi) as [A B]. split; auto. intros i. cbn [left_from]. f_equal.
        destruct (Nat.eqb_spec id i) as [->|Hne].
        + symmetry. apply set_mem_false. rewrite B. tauto.
        + apply eq_true_iff_eq. rewrite !set_mem_In, B. intuition congruence.
      - apply draw_keeps in E. split; [eapply keeps_inv; eauto|]. destruct E as [-> _]. reflexivity.
      - injection E as E. unfold h_sample_prior in E. destruct (prior_sample I hy r). injection E as <- <-. split; [exact Hi|reflexivity].
      - destruct (h_save hy h) as [h2| | |] eqn:E2; try discriminate. injection E as <- <-. apply save_keeps in E2.
        split; [eapply keeps_inv; eauto|]. destruct E2 as [-> _]. reflexivity.
      - destruct (h_get_post hy save h) as [[p h2]| | |] eqn:E2; try discriminate. injection E as <- <-. apply get_keeps in E2.
        split; [eapply keeps_inv; eauto|]. destruct E2 as [-> _]. reflexivity. }
    destruct K as [K1 K2]. destruct (IH h1 r1 h' r' H K1) as [J1 J2]. split; auto. intros i. rewrite K2. apply J2.
Qed.

(** A cluster with no data, as clone, initialize and clear leave it. *)
Definition empty_cluster (h : hier I) : Prop := h_ids h = [] /\ h_card h = 0%Z /\ h_stats h = stats0 I.

Theorem stats_history : forall hy os h r h' r', empty_cluster h -> h_steps hy os (h, r) = Ok (h', r') ->
  StronglySorted lt (h_ids h') /\ (forall i, In i (h_ids h') <-> left_from os false i = true) /\
  h_card h' = Z.of_nat (length (h_ids h')) /\ h_stats h' = batch I data (at_ covs) (h_ids h') /\
  (forall i, In i (h_ids h') -> i < length data /\ i < length covs).
Proof.
  intros hy os h r h' r' (E1 & E2 & E3) H.
  assert (Hi : stats_inv h).
  { unfold stats_inv. rewrite E1, E2, E3. split; [constructor|]. split; [reflexivity|]. split; [reflexivity|]. intros i []. }
  destruct (@steps_inv _ _ _ _ _ _ H Hi) as [(S1 & S2 & S3 & S4) S5]. split; [exact S1|]. split; [|auto].
  intros i. rewrite S5, E1. reflexivity.
Qed.

(** Reading a batch row by row. *)
Lemma batch_fold : forall (A : Type) (row : nat -> A) (f : A -> Stats I -> Stats I) ids,
  (forall i d c s, In i ids -> at_ data i = Ok d -> at_ covs i = Ok c -> stats_op I d c true s = f (row i) s) ->
  (forall i, In i ids -> i < length data /\ i < length covs) ->
  batch I data (at_ covs) ids = fold_left (fun s x => f x s) (map row ids) (stats0 I).
Proof.
  intros A row f ids H1 H2. unfold batch. generalize (stats0 I). induction ids as [|i ids IH]; intros s; [reflexivity|].
  cbn [fold_left map]. destruct (H2 i (or_introl eq_refl)) as [A1 A2].
  destruct (at_ok data A1) as (d & Ed & _). destruct (at_ok covs A2) as (c & Ec & _).
  replace (batch_step I data (at_ covs) s i) with (f (row i) s).
  - apply IH; intros; [eapply H1; eauto; right; auto|apply H2; right; auto].
  - unfold batch_step. rewrite Ed, Ec. symmetry. apply H1 with (i := i); auto. left; reflexivity.
Qed.

End Stats.
