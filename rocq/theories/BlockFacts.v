(** * Conditional laws of the blocks of a truncated mixture: facts. *)
From Coq Require Import List Arith Reals Lra Lia.
From Verif Require Import Base PartSpec BlockSpec Markov.
Import ListNotations.
Local Open Scope R_scope.

Lemma sumR_app : forall a b, sumR (a ++ b) = sumR a + sumR b.
Proof. unfold sumR. induction a as [|x a IH]; intro b; cbn; [lra|]. rewrite IH. lra. Qed.
Lemma sumR_scale : forall (A : Type) (g : A -> R) k l, sumR (map (fun x => k * g x) l) = k * sumR (map g l).
Proof. unfold sumR. induction l as [|x l IH]; cbn; [lra|]. rewrite IH. lra. Qed.

Section Labels.
  Variables T X : Type.
  Variable f : T -> X -> R.
  Variable w : X -> list R.
  Variable d : T.
  Variable th : list T.
  Variable nc : nat.
  Local Notation row x := (map (fun j => nth j (w x) 0 * f (nth j th d) x) (seq 0 nc)).

  Lemma total : forall xs, sumR (map (complete T X f w d th xs) (label_vectors nc (length xs))) = prodR (map (fun x => sumR (row x)) xs).
  Proof.
    induction xs as [|x xs IH]; cbn [length label_vectors map]; [unfold sumR, complete, prodR; cbn; lra|].
    change (prodR (sumR (row x) :: map (fun x0 => sumR (row x0)) xs)) with (sumR (row x) * prodR (map (fun x0 => sumR (row x0)) xs)).
    rewrite <- IH. generalize (seq 0 nc) as cs. induction cs as [|c cs IHc]; cbn [flat_map map]; [unfold sumR; cbn; lra|].
    rewrite map_app, sumR_app, IHc, map_map.
    rewrite (map_ext (fun l => complete T X f w d th (x :: xs) (c :: l)) (fun l => nth c (w x) 0 * f (nth c th d) x * complete T X f w d th xs l)) by reflexivity.
    rewrite sumR_scale.
    match goal with |- _ + ?s * _ = ?g => change g with ((nth c (w x) 0 * f (nth c th d) x + s) * sumR (map (complete T X f w d th xs) (label_vectors nc (length xs)))) end. ring.
  Qed.

  Lemma labels_exact : forall xs cs, length cs = length xs -> Forall (fun c => (c < nc)%nat) cs -> Forall (fun x => sumR (row x) <> 0) xs ->
    draw_law (map (fun x => row x) xs) cs = complete T X f w d th xs cs / sumR (map (complete T X f w d th xs) (label_vectors nc (length xs))).
  Proof.
    intros xs cs Hl Hc Hx. rewrite total. revert cs Hl Hc. induction Hx as [|x xs Hx H IH]; intros [|c cs] Hl Hc; cbn in Hl; try discriminate.
    - unfold draw_law, complete, prodR. cbn. field.
    - inversion Hc; subst. specialize (IH cs ltac:(lia) H3).
      unfold draw_law, complete in *. cbn [map combine fst snd].
      match goal with |- prodR (?a :: ?l) = prodR (?b :: ?k) / prodR (?s :: ?t) => change (a * prodR l = b * prodR k / (s * prodR t)) end.
      rewrite IH. rewrite (nth_indep _ 0 (nth 0 (w x) 0 * f (nth 0 th d) x)) by (rewrite map_length, seq_length; lia).
      rewrite (map_nth (fun j => nth j (w x) 0 * f (nth j th d) x)), seq_nth by lia. cbn [Nat.add].
      assert (P : prodR (map (fun x0 => sumR (row x0)) xs) <> 0).
      { clear -H. induction H as [|y ys Hy H IH]; cbn; [unfold prodR; cbn; lra|]. intro E. apply Rmult_integral in E. destruct E; auto. }
      field. auto.
  Qed.

  Lemma complete_pos : forall xs cs, (forall x c, In x xs -> In c cs -> 0 < nth c (w x) 0 * f (nth c th d) x) -> 0 < complete T X f w d th xs cs.
  Proof.
    unfold complete. induction xs as [|x xs IH]; intros [|c cs] H; try (unfold prodR; cbn; lra).
    cbn [combine map fst snd]. match goal with |- 0 < prodR (?a :: ?l) => change (0 < a * prodR l) end.
    apply Rmult_lt_0_compat; [apply H; now left|]. apply IH. intros y e Hy He. apply H; now right.
  Qed.
End Labels.

(** Parameters of one component vary. *)
Lemma complete_param : forall T X (f : T -> X -> R) w d th j xs cs, (j < length th)%nat -> exists K,
  (forall x, complete T X f w d (upd th j x) xs cs = K * prodR (map (f x) (with_label xs cs j))) /\
  ((forall x c, In x xs -> In c cs -> 0 < nth c (w x) 0) -> (forall t x, 0 < f t x) -> 0 < K).
Proof.
  intros T X f w d th j xs cs Hj. revert cs. induction xs as [|x xs IH]; intros cs.
  { exists 1. split; [|intros; lra]. intro y. unfold complete, with_label. destruct cs; cbn; unfold prodR; cbn; lra. }
  destruct cs as [|c cs]; [exists 1; split; [intro y; unfold complete, with_label, prodR; cbn; lra|intros; lra]|].
  destruct (IH cs) as (K & H & P). destruct (Nat.eqb c j) eqn:E.
  - exists (nth c (w x) 0 * K). split.
    + intro y. unfold complete, with_label in *. cbn [combine map filter fst snd]. rewrite E. cbn [map snd].
      match goal with |- prodR (?a :: ?l) = _ * prodR (?b :: ?k) => change (a * prodR l = nth c (w x) 0 * K * (b * prodR k)) end.
      rewrite H. apply Nat.eqb_eq in E. subst c. replace (nth j (upd th j y) d) with y; [ring|].
      symmetry. apply nth_error_nth. rewrite nth_error_upd. rewrite Nat.eqb_refl. apply Nat.ltb_lt in Hj. rewrite Hj. reflexivity.
    + intros Hw Hf. apply Rmult_lt_0_compat; [apply Hw; now left|]. apply P; [|exact Hf]. intros. apply Hw; now right.
  - exists (nth c (w x) 0 * f (nth c th d) x * K). split.
    + intro y. unfold complete, with_label in *. cbn [combine map filter fst snd]. rewrite E.
      match goal with |- prodR (?a :: ?l) = _ => change (a * prodR l = nth c (w x) 0 * f (nth c th d) x * K * prodR (map (f y) (map snd (filter (fun p => Nat.eqb (fst p) j) (combine cs xs))))) end.
      rewrite H. replace (nth c (upd th j y) d) with (nth c th d); [ring|].
      pose proof (nth_error_upd th j y c) as Q. rewrite E in Q. cbn [andb] in Q.
      destruct (nth_error th c) as [z|] eqn:Z.
      * rewrite (nth_error_nth _ _ _ Z). symmetry. apply nth_error_nth. exact Q.
      * rewrite nth_overflow by (now apply nth_error_None). symmetry. apply nth_overflow. now apply nth_error_None.
    + intros Hw Hf. apply Rmult_lt_0_compat; [apply Rmult_lt_0_compat; [apply Hw; now left|apply Hf]|]. apply P; [|exact Hf]. intros. apply Hw; now right.
Qed.

(** Weights vary, the same for every observation. *)
Lemma complete_weights : forall T X (f : T -> X -> R) d th xs cs, exists K,
  (forall w, length cs = length xs -> complete T X f (fun _ => w) d th xs cs = K * prodR (map (fun c => nth c w 0) cs)) /\
  ((forall t x, 0 < f t x) -> 0 < K).
Proof.
  intros T X f d th. induction xs as [|x xs IH]; intros cs.
  { exists 1. split; [|intros; lra]. intros w H. destruct cs; [|discriminate]. unfold complete, prodR; cbn; lra. }
  destruct cs as [|c cs]; [exists 1; split; [discriminate|intros; lra]|].
  destruct (IH cs) as (K & H & P). exists (f (nth c th d) x * K). split.
  - intros w Hl. cbn in Hl. unfold complete in *. cbn [combine map fst snd].
    match goal with |- prodR (?a :: ?l) = _ * prodR (?b :: ?k) => change (a * prodR l = f (nth c th d) x * K * (b * prodR k)) end.
    rewrite H by lia. ring.
  - intro Hf. apply Rmult_lt_0_compat; auto.
Qed.

(** Products over labels are products over components. *)
Lemma prod_counts : forall cs nc (w : list R), length w = nc -> Forall (fun c => (c < nc)%nat) cs ->
  prodR (map (fun c => nth c w 0) cs) = prodR (map (fun j => nth j w 0 ^ count_occ Nat.eq_dec cs j) (seq 0 nc)).
Proof.
  intros cs nc w Hw. induction 1 as [|c cs Hc H IH].
  - cbn [map]. clear. unfold prodR. induction (seq 0 nc) as [|j l IH]; cbn in *; [reflexivity|]. rewrite <- IH. lra.
  - cbn [map]. change (prodR (nth c w 0 :: map (fun c0 => nth c0 w 0) cs)) with (nth c w 0 * prodR (map (fun c0 => nth c0 w 0) cs)). rewrite IH.
    clear IH H. revert c Hc. revert w Hw. cut (forall s k (w : list R) c, (s <= c < s + k)%nat ->
      nth c w 0 * prodR (map (fun j => nth j w 0 ^ count_occ Nat.eq_dec cs j) (seq s k)) = prodR (map (fun j => nth j w 0 ^ count_occ Nat.eq_dec (c :: cs) j) (seq s k))).
    { intros G w Hw c Hc. apply G. lia. }
    intros s k. revert s. induction k as [|k IH]; intros s w c Hc; [lia|]. cbn [seq map].
    match goal with |- _ * prodR (?a :: ?l) = prodR (?b :: ?m) => change (nth c w 0 * (a * prodR l) = b * prodR m) end.
    cbn [count_occ]. destruct (Nat.eq_dec c s) as [->|N].
    + cbn [pow]. rewrite (map_ext_in (fun j => nth j w 0 ^ (if Nat.eq_dec s j then S (count_occ Nat.eq_dec cs j) else count_occ Nat.eq_dec cs j)) (fun j => nth j w 0 ^ count_occ Nat.eq_dec cs j)); [ring|].
      intros j Hj. apply in_seq in Hj. destruct (Nat.eq_dec s j); [lia|reflexivity].
    + specialize (IH (S s) w c ltac:(lia)). cbn [count_occ] in IH. rewrite <- IH. ring.
Qed.
