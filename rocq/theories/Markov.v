(** * Finite Markov chains with positive transition probabilities: proofs. *)
From Coq Require Import List Arith Reals Lra Lia.
From Verif Require Import PartSpec MixFacts GibbsPost GibbsSweep.
Import ListNotations.
Local Open Scope R_scope.

Lemma sumR_le : forall A (f g : A -> R) l, (forall x, In x l -> f x <= g x) -> sumR (map f l) <= sumR (map g l).
Proof.
  intros A f g. induction l as [|x l IH]; intro H; [apply Rle_refl|]. rewrite !map_cons, !sumR_cons.
  pose proof (H x (or_introl eq_refl)). pose proof (IH (fun y Hy => H y (or_intror Hy))). lra.
Qed.
Lemma sumR_add : forall A (f g : A -> R) l, sumR (map (fun x => f x + g x) l) = sumR (map f l) + sumR (map g l).
Proof. intros A f g. induction l as [|x l IH]; [unfold sumR; simpl; lra|]. rewrite !map_cons, !sumR_cons, IH. lra. Qed.
Lemma sumR_sub : forall A (f g : A -> R) l, sumR (map (fun x => f x - g x) l) = sumR (map f l) - sumR (map g l).
Proof. intros A f g. induction l as [|x l IH]; [unfold sumR; simpl; lra|]. rewrite !map_cons, !sumR_cons, IH. lra. Qed.
Lemma sumR_abs : forall A (f : A -> R) l, Rabs (sumR (map f l)) <= sumR (map (fun x => Rabs (f x)) l).
Proof.
  intros A f. induction l as [|x l IH]; [unfold sumR; simpl; rewrite Rabs_R0; lra|]. rewrite !map_cons, !sumR_cons.
  pose proof (Rabs_triang (f x) (sumR (map f l))). lra.
Qed.
Lemma sumR_nonneg : forall A (f : A -> R) l, (forall x, In x l -> 0 <= f x) -> 0 <= sumR (map f l).
Proof.
  intros A f l H. apply Rle_trans with (sumR (map (fun _ : A => 0) l)); [|now apply sumR_le].
  clear. induction l as [|x l IH]; [unfold sumR; simpl; lra|]. rewrite map_cons, sumR_cons. lra.
Qed.
Lemma sumR_term : forall A (f : A -> R) l x, (forall y, In y l -> 0 <= f y) -> In x l -> f x <= sumR (map f l).
Proof.
  intros A f. induction l as [|z l IH]; intros x H Hx; [destruct Hx|]. rewrite map_cons, sumR_cons.
  assert (0 <= sumR (map f l)) by (apply sumR_nonneg; intros; apply H; now right).
  destruct Hx as [->|Hx]; [lra|]. pose proof (IH x (fun y Hy => H y (or_intror Hy)) Hx). pose proof (H z (or_introl eq_refl)). lra.
Qed.
(** Finitely many positive numbers have a positive lower bound. *)
Lemma positive_bound : forall A (f : A -> R) l, (forall x, In x l -> 0 < f x) -> exists e, 0 < e <= 1 /\ forall x, In x l -> e <= f x.
Proof.
  intros A f. induction l as [|z l IH]; intro H; [exists 1; split; [lra|intros x []]|].
  destruct IH as (e & He & Hl); [intros; apply H; now right|]. pose proof (H z (or_introl eq_refl)) as Hz.
  exists (Rmin e (f z)). split; [split; [apply Rmin_glb_lt; lra|pose proof (Rmin_l e (f z)); lra]|].
  intros x [<-|Hx]; [apply Rmin_r|]. pose proof (Hl x Hx). pose proof (Rmin_l e (f z)). lra.
Qed.

Section Chain.
  Variable S : Type.
  Variable space : list S.
  Variable K : S -> S -> R.
  Hypothesis K_pos : forall s t, In s space -> In t space -> 0 < K s t.
  Hypothesis K_one : forall s, In s space -> sumR (map (K s) space) = 1.
  Variable p : S -> R.
  Hypothesis p_nonneg : forall s, In s space -> 0 <= p s.
  Hypothesis p_one : sumR (map p space) = 1.
  Hypothesis p_inv : forall t, In t space -> sumR (map (fun s => p s * K s t) space) = p t.

  Lemma p_le1 : forall s, In s space -> p s <= 1.
  Proof. intros s Hs. rewrite <- p_one. now apply sumR_term. Qed.

  (** One step brings every law closer to the invariant one. *)
  Definition step_law (mu : S -> R) (t : S) : R := sumR (map (fun s => mu s * K s t) space).
  Definition far (mu : S -> R) : R := sumR (map (fun t => Rabs (mu t - p t)) space).

  Lemma step_total : forall mu, sumR (map (step_law mu) space) = sumR (map mu space).
  Proof.
    intro mu. unfold step_law. rewrite sumR_swap2. apply sumR_map_ext. intros s Hs. rewrite sumR_mult, K_one by assumption. ring.
  Qed.

  Lemma contraction : exists e, 0 < e <= 1 /\ forall mu, sumR (map mu space) = 1 -> far (step_law mu) <= (1 - e) * far mu.
  Proof.
    destruct (positive_bound (S * S) (fun q => K (fst q) (snd q)) (list_prod space space)) as (e & He & Hb).
    { intros [s t] H. apply in_prod_iff in H. now apply K_pos. }
    exists e. split; [exact He|]. intros mu Hmu. unfold far.
    assert (B : forall s t, In s space -> In t space -> 0 <= K s t - e * p t).
    { intros s t Hs Ht. pose proof (Hb (s, t) (proj2 (in_prod_iff _ _ _ _) (conj Hs Ht))) as H. cbn [fst snd] in H.
      pose proof (p_le1 t Ht). pose proof (p_nonneg t Ht). assert (e * p t <= e * 1) by (apply Rmult_le_compat_l; lra). lra. }
    apply Rle_trans with (sumR (map (fun t => sumR (map (fun s => Rabs (mu s - p s) * (K s t - e * p t)) space)) space)).
    - apply sumR_le. intros t Ht.
      assert (E : step_law mu t - p t = sumR (map (fun s => (mu s - p s) * (K s t - e * p t)) space)).
      { rewrite (sumR_map_ext _ _ (fun s => (mu s * K s t - p s * K s t) - (e * p t) * (mu s - p s))) by (intros; ring).
        rewrite sumR_sub, sumR_sub, sumR_mult, sumR_sub, Hmu, p_one, p_inv by assumption. unfold step_law. ring. }
      rewrite E. eapply Rle_trans; [apply sumR_abs|]. apply sumR_le. intros s Hs. rewrite Rabs_mult. rewrite (Rabs_right (K s t - e * p t)); [lra|]. apply Rle_ge, B; assumption.
    - rewrite sumR_swap2. rewrite <- sumR_mult. apply sumR_le. intros s Hs. rewrite sumR_mult, sumR_sub, sumR_mult, p_one, K_one by assumption. lra.
  Qed.

  (** Transition probabilities of [k] steps, by the first step. *)
  Variable eqb : S -> S -> bool.
  Hypothesis eqb_ok : forall s t, eqb s t = true <-> s = t.
  Hypothesis nodup : NoDup space.
  Fixpoint steps (k : nat) (s t : S) : R :=
    match k with
    | O => if eqb s t then 1 else 0
    | Datatypes.S k' => sumR (map (fun u => K s u * steps k' u t) space)
    end.

  Lemma pick_one0 : forall (f : S -> R) t l, NoDup l -> In t l -> sumR (map (fun s => f s * (if eqb s t then 1 else 0)) l) = f t.
  Proof.
    intros f t. induction l as [|x l IH]; intros ND Ht; [destruct Ht|]. rewrite map_cons, sumR_cons.
    inversion ND as [|? ? Hx ND']; subst. destruct Ht as [->|Ht].
    - rewrite (proj2 (eqb_ok t t) eq_refl). rewrite (sumR_map_ext _ _ (fun _ => 0)).
      + replace (sumR (map (fun _ : S => 0) l)) with 0; [ring|]. clear. induction l as [|y l IH]; [reflexivity|]. rewrite map_cons, sumR_cons, <- IH. ring.
      + intros s Hs. destruct (eqb s t) eqn:E; [apply eqb_ok in E; subst; contradiction|ring].
    - rewrite IH by assumption. destruct (eqb x t) eqn:E; [apply eqb_ok in E; subst; contradiction|ring].
  Qed.
  Lemma pick_one : forall (f : S -> R) t, In t space -> sumR (map (fun s => f s * (if eqb s t then 1 else 0)) space) = f t.
  Proof. intros. now apply pick_one0. Qed.
  Lemma pick_one' : forall (f : S -> R) s, In s space -> sumR (map (fun u => (if eqb s u then 1 else 0) * f u) space) = f s.
  Proof.
    intros f s Hs. rewrite <- (pick_one f s Hs). apply sumR_map_ext. intros u _.
    destruct (eqb s u) eqn:E; destruct (eqb u s) eqn:E'; try ring.
    - apply eqb_ok in E. subst. rewrite (proj2 (eqb_ok u u) eq_refl) in E'. discriminate.
    - apply eqb_ok in E'. subst. rewrite (proj2 (eqb_ok s s) eq_refl) in E. discriminate.
  Qed.

  Lemma steps_last : forall k s t, In s space -> In t space -> steps (Datatypes.S k) s t = step_law (steps k s) t.
  Proof.
    induction k as [|k IH]; intros s t Hs Ht.
    - cbn [steps]. unfold step_law. cbn [steps]. rewrite pick_one by assumption. now rewrite pick_one'.
    - cbn [steps] in IH |- *. unfold step_law in IH |- *. cbn [steps].
      rewrite (sumR_map_ext _ _ (fun u => sumR (map (fun v => K s u * (steps k u v * K v t)) space))).
      + rewrite sumR_swap2. apply sumR_map_ext. intros v Hv.
        rewrite (sumR_map_ext _ _ (fun u => K v t * (K s u * steps k u v))) by (intros; ring). rewrite sumR_mult. ring.
      + intros u Hu. rewrite sumR_mult. f_equal. now apply IH.
  Qed.
  Lemma steps_one : forall k s, In s space -> sumR (map (steps k s) space) = 1.
  Proof.
    induction k as [|k IH]; intros s Hs.
    - cbn [steps]. rewrite (sumR_map_ext _ _ (fun u => (if eqb s u then 1 else 0) * 1)) by (intros; ring). now rewrite (pick_one' (fun _ => 1)).
    - rewrite (sumR_map_ext _ _ (step_law (steps k s))) by (intros; now apply steps_last). rewrite step_total. now apply IH.
  Qed.
  Lemma steps_nonneg : forall k s t, In s space -> 0 <= steps k s t.
  Proof.
    induction k as [|k IH]; intros s t Hs; cbn [steps]; [destruct (eqb s t); lra|].
    apply sumR_nonneg. intros u Hu. apply Rmult_le_pos; [left; now apply K_pos|now apply IH].
  Qed.

  Lemma far_start : forall s, In s space -> far (steps 0 s) <= 2.
  Proof.
    intros s Hs. unfold far. apply Rle_trans with (sumR (map (fun t => steps 0 s t + p t) space)).
    - apply sumR_le. intros t Ht. pose proof (steps_nonneg 0 s t Hs). pose proof (p_nonneg t Ht). unfold Rabs. destruct (Rcase_abs _); lra.
    - rewrite sumR_add, (steps_one 0 s Hs), p_one. lra.
  Qed.
  Lemma converges : exists e, 0 < e <= 1 /\ forall k s, In s space -> far (steps k s) <= 2 * (1 - e) ^ k.
  Proof.
    destruct contraction as (e & He & HC). exists e. split; [exact He|]. induction k as [|k IH]; intros s Hs.
    - pose proof (far_start s Hs). cbn [pow]. lra.
    - assert (E : far (steps (Datatypes.S k) s) = far (step_law (steps k s))).
      { unfold far. apply sumR_map_ext. intros t Ht. now rewrite steps_last. }
      rewrite E. eapply Rle_trans; [apply HC; now apply steps_one|]. cbn [pow]. pose proof (IH s Hs) as H.
      apply Rle_trans with ((1 - e) * (2 * (1 - e) ^ k)); [apply Rmult_le_compat_l; lra|lra].
  Qed.
  Lemma limit : forall s t, In s space -> In t space -> Un_cv (fun k => steps k s t) (p t).
  Proof.
    intros s t Hs Ht. destruct converges as (e & He & HC). intros eps Heps.
    destruct (pow_lt_1_zero (1 - e) ltac:(rewrite Rabs_right; lra) (eps / 2) ltac:(lra)) as (N & HN).
    exists N. intros k Hk. unfold R_dist. pose proof (HC k s Hs) as H. pose proof (HN k Hk) as H'.
    assert (Rabs (steps k s t - p t) <= far (steps k s)) by (unfold far; apply (sumR_term _ (fun t => Rabs (steps k s t - p t))); [intros; apply Rabs_pos|assumption]).
    pose proof (Rle_abs ((1 - e) ^ k)). lra.
  Qed.

  (** No other law is invariant. *)
  Lemma unique : forall q, sumR (map q space) = 1 -> (forall t, In t space -> step_law q t = q t) -> forall t, In t space -> q t = p t.
  Proof.
    intros q Hq Hi t Ht. destruct contraction as (e & He & HC). pose proof (HC q Hq) as H.
    assert (E : far (step_law q) = far q) by (unfold far; apply sumR_map_ext; intros u Hu; now rewrite Hi). rewrite E in H.
    assert (F : 0 <= far q) by (apply sumR_nonneg; intros; apply Rabs_pos).
    assert (Z : far q = 0) by nra.
    assert (B : Rabs (q t - p t) <= far q) by (unfold far; apply (sumR_term _ (fun t => Rabs (q t - p t))); [intros; apply Rabs_pos|assumption]).
    pose proof (Rabs_pos (q t - p t)). destruct (Req_dec (q t - p t) 0) as [X|X]; [lra|]. apply Rabs_no_R0 in X. lra.
  Qed.
End Chain.
