(** * Outcomes, indexed access and small list utilities shared by the model.

    Nothing here is specific to bayesmix: it fixes how the model talks about
    C++ outcomes and about containers. *)
From Coq Require Import String.
From Coq Require Import Bool List Arith ZArith Lia Sorting.Sorted Permutation.
Import ListNotations.
Set Implicit Arguments.

(** Outcome of a C++ call: normal return, exception, failed [assert],
    undefined behaviour (out-of-range access, null dereference, read of an
    uninitialised object). *)
Inductive res (A : Type) : Type :=
| Ok (a : A)
| Throw (msg : string)
| Abort
| UB.
Arguments Ok {A} a.
Arguments Throw {A} msg.
Arguments Abort {A}.
Arguments UB {A}.

Definition rbind {A B} (m : res A) (k : A -> res B) : res B :=
  match m with
  | Ok a => k a
  | Throw s => Throw s
  | Abort => Abort
  | UB => UB
  end.

Declare Scope res_scope.
Delimit Scope res_scope with res.
Notation "x <- m ;; k" := (rbind m (fun x => k))
  (at level 61, m at next level, right associativity) : res_scope.
Notation "' p <- m ;; k" := (rbind m (fun p => k))
  (at level 61, p pattern, m at next level, right associativity) : res_scope.
Open Scope res_scope.

(** Unchecked indexed read [v[i]] : out of range is undefined behaviour. *)
Definition at_ {A} (l : list A) (i : nat) : res A :=
  match nth_error l i with
  | Some a => Ok a
  | None => UB
  end.

(** Overwrite position [i] of a list (no effect out of range; callers go
    through [set_at], which reports the out-of-range write). *)
Fixpoint upd {A} (l : list A) (i : nat) (x : A) : list A :=
  match l, i with
  | [], _ => []
  | _ :: t, O => x :: t
  | h :: t, S i' => h :: upd t i' x
  end.

(** Unchecked indexed write [v[i] = x]. *)
Definition set_at {A} (l : list A) (i : nat) (x : A) : res (list A) :=
  if i <? length l then Ok (upd l i x) else UB.

(** [v.erase(v.begin() + i)]. *)
Fixpoint del {A} (l : list A) (i : nat) : list A :=
  match l, i with
  | [], _ => []
  | _ :: t, O => t
  | h :: t, S i' => h :: del t i'
  end.

Definition erase_at {A} (l : list A) (i : nat) : res (list A) :=
  if i <? length l then Ok (del l i) else UB.

(** A [for] loop over a list of indices with a fallible body. *)
Fixpoint rfold {A B} (f : B -> A -> res B) (l : list A) (b : B) : res B :=
  match l with
  | [] => Ok b
  | x :: t => b' <- f b x ;; rfold f t b'
  end.

(** Fallible map. *)
Fixpoint rmap {A B} (f : A -> res B) (l : list A) : res (list B) :=
  match l with
  | [] => Ok []
  | x :: t => y <- f x ;; ys <- rmap f t ;; Ok (y :: ys)
  end.

(** [std::set<int>] as a strictly increasing list. *)
Fixpoint set_insert (x : nat) (l : list nat) : list nat :=
  match l with
  | [] => [x]
  | h :: t =>
      if x <? h then x :: h :: t
      else if x =? h then h :: t
      else h :: set_insert x t
  end.

Fixpoint set_remove (x : nat) (l : list nat) : list nat :=
  match l with
  | [] => []
  | h :: t => if x =? h then t else h :: set_remove x t
  end.

Definition set_mem (x : nat) (l : list nat) : bool := existsb (Nat.eqb x) l.

(** ** Facts *)

Lemma upd_length : forall A (l : list A) i x, length (upd l i x) = length l.
Proof. induction l; destruct i; simpl; intros; auto. Qed.

Lemma nth_error_upd : forall A (l : list A) i x j,
  nth_error (upd l i x) j =
  if (j =? i) && (i <? length l) then Some x else nth_error l j.
Proof.
  induction l as [|a l IH]; intros i x j.
  - destruct i; simpl; rewrite Bool.andb_false_r; auto.
  - destruct i, j; simpl; auto. rewrite IH.
    change (S i <? S (length l)) with (i <? length l). reflexivity.
Qed.

Lemma nth_error_upd_same : forall A (l : list A) i x,
  i < length l -> nth_error (upd l i x) i = Some x.
Proof.
  intros. rewrite nth_error_upd, Nat.eqb_refl.
  apply Nat.ltb_lt in H. rewrite H. reflexivity.
Qed.

Lemma nth_error_upd_other : forall A (l : list A) i x j,
  j <> i -> nth_error (upd l i x) j = nth_error l j.
Proof.
  intros. rewrite nth_error_upd. apply Nat.eqb_neq in H. rewrite H. reflexivity.
Qed.

Lemma del_length : forall A (l : list A) i,
  i < length l -> length (del l i) = pred (length l).
Proof.
  induction l; simpl; intros; [lia|].
  destruct i; simpl; auto. rewrite IHl; lia.
Qed.

Lemma nth_error_del : forall A (l : list A) i j,
  nth_error (del l i) j = if j <? i then nth_error l j else nth_error l (S j).
Proof.
  induction l as [|a l IH]; intros i j.
  - destruct i, j; simpl; try reflexivity; destruct (S j <? S i); auto.
  - destruct i.
    + reflexivity.
    + destruct j; [reflexivity|].
      change (del (a :: l) (S i)) with (a :: del l i).
      change (nth_error (a :: del l i) (S j)) with (nth_error (del l i) j).
      rewrite IH. reflexivity.
Qed.

Lemma at_ok : forall A (l : list A) i, i < length l -> exists a, at_ l i = Ok a /\ nth_error l i = Some a.
Proof.
  intros A l i H. unfold at_.
  destruct (nth_error l i) eqn:E; eauto.
  apply nth_error_None in E; lia.
Qed.

Lemma at_Some : forall A (l : list A) i a, nth_error l i = Some a -> at_ l i = Ok a.
Proof. intros. unfold at_. rewrite H. reflexivity. Qed.

Lemma at_inv : forall A (l : list A) i a, at_ l i = Ok a -> nth_error l i = Some a.
Proof. intros. unfold at_ in H. destruct (nth_error l i); congruence. Qed.

Lemma set_at_ok : forall A (l : list A) i x, i < length l -> set_at l i x = Ok (upd l i x).
Proof. intros. unfold set_at. apply Nat.ltb_lt in H. rewrite H. reflexivity. Qed.

Lemma erase_at_ok : forall A (l : list A) i, i < length l -> erase_at l i = Ok (del l i).
Proof. intros. unfold erase_at. apply Nat.ltb_lt in H. rewrite H. reflexivity. Qed.

Lemma nth_error_lt : forall A (l : list A) i a, nth_error l i = Some a -> i < length l.
Proof. intros. apply nth_error_Some. congruence. Qed.

Lemma rfold_app : forall A B (f : B -> A -> res B) l1 l2 b,
  rfold f (l1 ++ l2) b = (b' <- rfold f l1 b ;; rfold f l2 b').
Proof.
  induction l1; simpl; intros; auto.
  destruct (f b a); simpl; auto.
Qed.

(** Invariant rule for loops. *)
Lemma rfold_inv : forall A B (f : B -> A -> res B) (P : list A -> B -> Prop) l done b,
  P done b ->
  (forall d x b0, (exists r, done ++ l = d ++ x :: r) -> P d b0 ->
     exists b1, f b0 x = Ok b1 /\ P (d ++ [x]) b1) ->
  exists b', rfold f l b = Ok b' /\ P (done ++ l) b'.
Proof.
  induction l as [|x l IH]; intros done b H0 Hs; simpl.
  - exists b. rewrite app_nil_r. auto.
  - destruct (Hs done x b) as (b1 & E & H1); eauto.
    rewrite E; simpl.
    destruct (IH (done ++ [x]) b1) as (b' & E' & H'); auto.
    + intros d y b0 (r & Er) Hd. apply Hs; auto.
      exists r. rewrite <- Er, <- app_assoc. reflexivity.
    + exists b'. split; auto. rewrite <- app_assoc in H'. exact H'.
Qed.

Lemma rfold_inv_simple : forall A B (f : B -> A -> res B) (P : B -> Prop) l b,
  P b ->
  (forall x b0, In x l -> P b0 -> exists b1, f b0 x = Ok b1 /\ P b1) ->
  exists b', rfold f l b = Ok b' /\ P b'.
Proof.
  induction l as [|x l IH]; intros b H0 Hs; simpl.
  - eauto.
  - destruct (Hs x b) as (b1 & E & H1); auto with datatypes.
    rewrite E; simpl. apply IH; auto with datatypes.
Qed.

Lemma In_set_insert : forall x y l, In y (set_insert x l) <-> y = x \/ In y l.
Proof.
  induction l as [|h t IH]; simpl.
  - intuition.
  - destruct (x <? h) eqn:E1; [simpl; intuition|].
    destruct (x =? h) eqn:E2.
    + apply Nat.eqb_eq in E2; subst. simpl; intuition.
    + simpl. rewrite IH. intuition.
Qed.

Definition ssorted (l : list nat) : Prop := StronglySorted lt l.

Lemma ssorted_insert : forall x l, ssorted l -> ssorted (set_insert x l).
Proof.
  unfold ssorted. induction l as [|h t IH]; simpl; intros H.
  - repeat constructor.
  - inversion H as [|? ? Hs Hf]; subst.
    destruct (x <? h) eqn:E1.
    + apply Nat.ltb_lt in E1. constructor; auto. constructor; auto.
      eapply Forall_impl; [|exact Hf]. simpl; lia.
    + destruct (x =? h) eqn:E2; auto.
      apply Nat.ltb_ge in E1. apply Nat.eqb_neq in E2.
      constructor; auto.
      apply Forall_forall. intros y Hy. apply In_set_insert in Hy.
      rewrite Forall_forall in Hf. destruct Hy as [->|Hy]; [lia|auto].
Qed.

Lemma ssorted_NoDup : forall l, ssorted l -> NoDup l.
Proof.
  induction l; intros H; constructor; inversion H as [|? ? Hs Hf]; subst.
  - intros Hin. rewrite Forall_forall in Hf. specialize (Hf _ Hin). lia.
  - apply IHl; auto.
Qed.

Lemma In_set_remove : forall x y l, ssorted l ->
  (In y (set_remove x l) <-> In y l /\ y <> x).
Proof.
  induction l as [|h t IH]; intros H; simpl.
  - intuition.
  - inversion H as [|? ? Hs Hf]; subst. rewrite Forall_forall in Hf.
    destruct (x =? h) eqn:E.
    + apply Nat.eqb_eq in E; subst. split.
      * intros Hy. split; auto. specialize (Hf _ Hy); lia.
      * intros [[->|Hy] Hn]; [congruence|auto].
    + apply Nat.eqb_neq in E. simpl. rewrite (IH Hs). intuition; subst; auto.
Qed.

Lemma ssorted_remove : forall x l, ssorted l -> ssorted (set_remove x l).
Proof.
  unfold ssorted. induction l as [|h t IH]; simpl; intros H; auto.
  inversion H as [|? ? Hs Hf]; subst.
  destruct (x =? h); auto.
  constructor; auto. apply Forall_forall. intros y Hy.
  rewrite Forall_forall in Hf. apply Hf.
  apply (In_set_remove x y Hs) in Hy. tauto.
Qed.

Lemma length_set_insert : forall x l, ~ In x l -> length (set_insert x l) = S (length l).
Proof.
  induction l as [|h t IH]; simpl; intros H; auto.
  destruct (x <? h); auto.
  destruct (x =? h) eqn:E2; [apply Nat.eqb_eq in E2; subst; tauto|].
  simpl. rewrite IH; tauto.
Qed.

Lemma length_set_remove : forall x l, In x l -> S (length (set_remove x l)) = length l.
Proof.
  induction l as [|h t IH]; simpl; intros H; [tauto|].
  destruct (x =? h) eqn:E2; auto.
  apply Nat.eqb_neq in E2. simpl. rewrite IH; auto.
  destruct H; [congruence|auto].
Qed.

Lemma set_mem_In : forall x l, set_mem x l = true <-> In x l.
Proof.
  intros. unfold set_mem. rewrite existsb_exists. split.
  - intros (y & Hy & E). apply Nat.eqb_eq in E. subst; auto.
  - intros. exists x. rewrite Nat.eqb_refl. auto.
Qed.

Lemma set_mem_false : forall x l, set_mem x l = false <-> ~ In x l.
Proof.
  intros. rewrite <- set_mem_In. destruct (set_mem x l); split; congruence.
Qed.

Lemma ssorted_ext : forall l1 l2, ssorted l1 -> ssorted l2 ->
  (forall x, In x l1 <-> In x l2) -> l1 = l2.
Proof.
  induction l1 as [|a l1 IH]; intros [|b l2] H1 H2 He; auto.
  - exfalso. apply (proj2 (He b)); simpl; auto.
  - exfalso. apply (proj1 (He a)); simpl; auto.
  - inversion H1 as [|? ? Hs1 Hf1]; subst. inversion H2 as [|? ? Hs2 Hf2]; subst.
    rewrite Forall_forall in Hf1, Hf2.
    assert (a = b).
    { destruct (proj1 (He a) (or_introl eq_refl)) as [|Hb]; auto.
      destruct (proj2 (He b) (or_introl eq_refl)) as [|Ha]; auto.
      specialize (Hf1 _ Ha). specialize (Hf2 _ Hb). lia. }
    subst b. f_equal. apply IH; auto.
    intros x. split; intros Hx.
    + destruct (proj1 (He x) (or_intror Hx)) as [->|]; auto.
      specialize (Hf1 _ Hx). lia.
    + destruct (proj2 (He x) (or_intror Hx)) as [->|]; auto.
      specialize (Hf2 _ Hx). lia.
Qed.

Lemma set_insert_perm : forall x l, ~ In x l -> Permutation (set_insert x l) (x :: l).
Proof.
  induction l as [|h t IH]; simpl; intros H; auto.
  destruct (x <? h); auto.
  destruct (x =? h) eqn:E2; [apply Nat.eqb_eq in E2; subst; tauto|].
  rewrite IH by tauto. constructor.
Qed.

Lemma set_remove_perm : forall x l, In x l -> Permutation l (x :: set_remove x l).
Proof.
  induction l as [|h t IH]; simpl; intros H; [tauto|].
  destruct (x =? h) eqn:E2.
  - apply Nat.eqb_eq in E2; subst; auto.
  - apply Nat.eqb_neq in E2. destruct H; [congruence|].
    rewrite (IH H) at 1. constructor.
Qed.

Lemma In_seq_lt : forall i n, In i (seq 0 n) <-> i < n.
Proof. intros. rewrite in_seq. lia. Qed.

Lemma app_seq_cut : forall d x r n, seq 0 n = d ++ x :: r -> d = seq 0 x /\ x < n.
Proof.
  intros d x r n H.
  assert (Hl : length d < n).
  { rewrite <- (seq_length n 0), H, app_length. simpl. lia. }
  assert (x = length d).
  { assert (E : nth_error (seq 0 n) (length d) = Some x).
    { rewrite H, nth_error_app2, Nat.sub_diag; auto. }
    rewrite (nth_error_nth' _ 0) in E by (rewrite seq_length; auto).
    rewrite seq_nth in E by auto. injection E. simpl. auto. }
  subst x. split; auto.
  assert (E2 : firstn (length d) (seq 0 n) = d).
  { rewrite H, firstn_app, Nat.sub_diag, firstn_all. simpl. apply app_nil_r. }
  rewrite <- E2 at 1.
  replace n with (length d + (n - length d)) by lia.
  rewrite seq_app, firstn_app, seq_length, Nat.sub_diag. simpl.
  rewrite app_nil_r. rewrite <- (seq_length (length d) 0) at 1. apply firstn_all.
Qed.

Lemma ssorted_seq : forall n s, ssorted (seq s n).
Proof.
  unfold ssorted. induction n as [|n IH]; intros s; simpl; constructor; auto.
  apply Forall_forall. intros x Hx. apply in_seq in Hx. lia.
Qed.
