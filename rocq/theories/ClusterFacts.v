(** * Facts about posterior similarity and the cluster point estimate. *)
From Coq Require Import List Arith Bool Lia Reals Lra ZArith.
From Verif Require Import Base Utils UtilsFacts.
Import ListNotations.
Local Open Scope R_scope.

(** Whether iteration [k] puts [i] and [j] in one cluster. *)
Definition together (chain : list (list Z)) (k i j : nat) : bool := Z.eqb (al chain k i) (al chain k j).
Definition pairs (n : nat) : list (nat * nat) := flat_map (fun i => map (fun j => (i, j)) (seq 0 i)) (seq 0 n).
(** Number of pairs on which two iterations disagree, and its total over the chain. *)
Definition disagreements (chain : list (list Z)) (k l : nat) : nat :=
  length (filter (fun p => xorb (together chain k (fst p) (snd p)) (together chain l (fst p) (snd p))) (pairs (n_data chain))).
Definition total_disagreement (chain : list (list Z)) (k : nat) : nat := list_sum (map (disagreements chain k) (seq 0 (length chain))).

Definition rsum (l : list R) : R := fold_right Rplus 0 l.
Definition b2r (b : bool) : R := if b then 1 else 0.

Lemma rsum_app : forall a b, rsum (a ++ b) = rsum a + rsum b.
Proof.
  induction a as [|x a IH]; intros b; [unfold rsum; simpl; lra|].
  change (rsum ((x :: a) ++ b)) with (x + rsum (a ++ b)). change (rsum (x :: a)) with (x + rsum a). rewrite IH. lra.
Qed.
Lemma rsum_cons : forall x l, rsum (x :: l) = x + rsum l. Proof. reflexivity. Qed.
Lemma rsum_plus : forall A (f g : A -> R) l, rsum (map (fun x => f x + g x) l) = rsum (map f l) + rsum (map g l).
Proof. induction l; cbn [map]; [unfold rsum; simpl; lra|]. rewrite !rsum_cons, IHl. lra. Qed.
Lemma rsum_scale : forall A (f : A -> R) c l, rsum (map (fun x => c * f x) l) = c * rsum (map f l).
Proof. induction l; cbn [map]; [unfold rsum; simpl; lra|]. rewrite !rsum_cons, IHl. lra. Qed.
Lemma rsum_const : forall A c (l : list A), rsum (map (fun _ => c) l) = INR (length l) * c.
Proof. induction l; cbn [map length]; [unfold rsum; simpl; lra|]. rewrite rsum_cons, IHl, S_INR. lra. Qed.
Lemma rsum_ext : forall A (f g : A -> R) l, (forall x, In x l -> f x = g x) -> rsum (map f l) = rsum (map g l).
Proof. intros. f_equal. apply map_ext_in. assumption. Qed.
Lemma rsum_swap : forall A B (f : A -> B -> R) la lb,
  rsum (map (fun a => rsum (map (f a) lb)) la) = rsum (map (fun b => rsum (map (fun a => f a b) la)) lb).
Proof.
  intros A B f. induction la as [|a la IH]; intros lb; cbn [map].
  - symmetry. change (fun _ : B => rsum []) with (fun _ : B => 0). rewrite rsum_const. unfold rsum. simpl. lra.
  - rewrite rsum_cons, IH, <- rsum_plus. apply rsum_ext. intros b _. reflexivity.
Qed.
Lemma count_sum : forall A (f : A -> bool) l, INR (length (filter f l)) = rsum (map (fun x => b2r (f x)) l).
Proof.
  induction l as [|a l IH]; [reflexivity|]. cbn [filter map]. rewrite rsum_cons. unfold b2r at 1. destruct (f a); [|rewrite IH; lra].
  cbn [length]. rewrite S_INR, IH. lra.
Qed.
Lemma list_sum_INR : forall A (f : A -> nat) l, INR (list_sum (map f l)) = rsum (map (fun x => INR (f x)) l).
Proof. induction l as [|a l IH]; [reflexivity|]. cbn [map list_sum fold_right]. rewrite rsum_cons, plus_INR, <- IH. reflexivity. Qed.

Lemma similarity_count : forall chain i j, (j < i)%nat ->
  similarity chain i j = INR (length (filter (fun k => together chain k i j) (seq 0 (length chain)))) / INR (length chain).
Proof.
  intros chain i j H. unfold similarity. apply Nat.ltb_lt in H. rewrite H. do 3 f_equal. apply filter_ext. intros k. unfold together.
  destruct (Z.eqb_spec (al chain k i - al chain k j) 0), (Z.eqb_spec (al chain k i) (al chain k j)); try reflexivity; exfalso; lia.
Qed.

Lemma in_pairs : forall n p, In p (pairs n) -> (snd p < fst p < n)%nat.
Proof.
  intros n [i j] H. unfold pairs in H. apply in_flat_map in H. destruct H as (i' & Hi & Hj). apply in_map_iff in Hj. destruct Hj as (j' & E & Hj).
  injection E as <- <-. apply In_seq_lt in Hi, Hj. cbn. lia.
Qed.

Definition sq_err (chain : list (list Z)) (k : nat) (p : nat * nat) : R :=
  (b2r (together chain k (fst p) (snd p)) - similarity chain (fst p) (snd p)) * (b2r (together chain k (fst p) (snd p)) - similarity chain (fst p) (snd p)).

Lemma error_pairs : forall chain k e0, error_of chain k e0 = e0 + rsum (map (sq_err chain k) (pairs (n_data chain))).
Proof.
  intros chain k e0. unfold error_of, pairs. revert e0. generalize (n_data chain) as n.
  assert (Inner : forall i l e, fold_left (fun e j => let x := if Z.eqb (al chain k i) (al chain k j) then 1 else 0 in
      e + (x - similarity chain i j) * (x - similarity chain i j)) l e = e + rsum (map (sq_err chain k) (map (fun j => (i, j)) l))).
  { intros i. induction l as [|j l IH]; intros e; cbn [fold_left map]; [unfold rsum; simpl; lra|]. cbv zeta in *. rewrite IH, rsum_cons. unfold sq_err at 2, b2r, together. cbn [fst snd]. lra. }
  intros n. generalize (seq 0 n) as l. induction l as [|i l IH]; intros e; [cbn; lra|]. cbn [fold_left flat_map]. rewrite IH, Inner, map_app, rsum_app. lra.
Qed.

(** The squared error of an iteration is, up to a factor and a term common to
    all iterations, its total disagreement with the chain. *)
Definition common (chain : list (list Z)) : R :=
  rsum (map (fun p => similarity chain (fst p) (snd p) * similarity chain (fst p) (snd p) - similarity chain (fst p) (snd p)) (pairs (n_data chain))).
Theorem error_disagreement : forall chain k, chain <> [] ->
  error_of chain k 0 = INR (total_disagreement chain k) / INR (length chain) + common chain.
Proof.
  intros chain k N. assert (K : INR (length chain) <> 0) by (destruct chain; [congruence|apply not_0_INR; simpl; lia]).
  rewrite error_pairs, Rplus_0_l. unfold total_disagreement. rewrite list_sum_INR.
  rewrite (rsum_ext _ _ (fun l => rsum (map (fun p => b2r (xorb (together chain k (fst p) (snd p)) (together chain l (fst p) (snd p)))) (pairs (n_data chain))))).
  2:{ intros l _. unfold disagreements. rewrite count_sum. reflexivity. }
  rewrite rsum_swap. unfold common. unfold Rdiv. rewrite Rmult_comm, <- rsum_scale, <- rsum_plus. apply rsum_ext. intros p Hp. apply in_pairs in Hp.
  unfold sq_err. rewrite (similarity_count chain (fst p) (snd p)) by lia. rewrite count_sum.
  set (x := together chain k (fst p) (snd p)).
  set (c := rsum (map (fun l => b2r (together chain l (fst p) (snd p))) (seq 0 (length chain)))).
  assert (E : rsum (map (fun l => b2r (xorb x (together chain l (fst p) (snd p)))) (seq 0 (length chain))) = INR (length chain) * b2r x + (c - 2 * b2r x * c)).
  { rewrite (rsum_ext _ _ (fun l => b2r x + (1 - 2 * b2r x) * b2r (together chain l (fst p) (snd p)))).
    - rewrite rsum_plus, rsum_const, rsum_scale, seq_length. fold c. lra.
    - intros l _. destruct x, (together chain l (fst p) (snd p)); unfold b2r; simpl; lra. }
  rewrite E. assert (B : b2r x * b2r x = b2r x) by (destruct x; unfold b2r; lra).
  field_simplify_eq; [|exact K]. nra.
Qed.

Lemma min_index_spec : forall l, l <> [] -> exists i v, min_index l = Ok (i, v) /\ nth_error l i = Some v /\
  (forall j w, nth_error l j = Some w -> v <= w) /\ (forall j w, (j < i)%nat -> nth_error l j = Some w -> v < w).
Proof.
  induction l as [|x l IH]; intros N; [congruence|]. destruct l as [|y l].
  - exists 0%nat, x. split; [reflexivity|]. split; [reflexivity|]. split; [|intros; lia].
    intros [|j] w H; [injection H as <-; lra|destruct j; discriminate].
  - destruct IH as (i & v & E & H1 & H2 & H3); [discriminate|]. cbn [min_index]. cbn [min_index] in E. rewrite E. cbn [rbind].
    destruct (Rle_dec x v) as [L|L].
    + exists 0%nat, x. split; [reflexivity|]. split; [reflexivity|]. split; [|intros; lia].
      intros [|j] w H; [injection H as <-; lra|]. specialize (H2 j w H). lra.
    + exists (S i), v. split; [reflexivity|]. split; [exact H1|]. split.
      * intros [|j] w H; [injection H as <-; lra|]. exact (H2 j w H).
      * intros [|j] w Hj H; [injection H as <-; lra|]. apply (H3 j w); [lia|exact H].
Qed.

Lemma nth_error_seq_map : forall A (f : nat -> A) n k, (k < n)%nat -> nth_error (map f (seq 0 n)) k = Some (f k).
Proof. intros. apply map_nth_error. rewrite (nth_error_nth' _ 0%nat) by (rewrite seq_length; assumption). rewrite seq_nth by assumption. reflexivity. Qed.

Theorem estimate_errors : forall chain junk, chain <> [] -> exists k, (k < length chain)%nat /\
  cluster_estimate chain junk = Ok (nth k chain []) /\
  (forall l, (l < length chain)%nat -> error_of chain k (nth k junk 0) <= error_of chain l (nth l junk 0)) /\
  (forall l, (l < k)%nat -> error_of chain k (nth k junk 0) < error_of chain l (nth l junk 0)).
Proof.
  intros chain junk N. unfold cluster_estimate. set (es := map _ _).
  assert (L : length es = length chain) by (unfold es; rewrite map_length, seq_length; reflexivity).
  destruct (min_index_spec es) as (k & v & E & H1 & H2 & H3); [destruct chain; [congruence|discriminate]|].
  rewrite E. cbn [rbind]. assert (Hk : (k < length chain)%nat) by (rewrite <- L; apply (nth_error_lt _ _ H1)).
  assert (Nt : forall l, (l < length chain)%nat -> nth_error es l = Some (error_of chain l (nth l junk 0))).
  { intros l Hl. unfold es. apply nth_error_seq_map. exact Hl. }
  rewrite (Nt k Hk) in H1. injection H1 as <-. exists k. split; [exact Hk|]. split; [apply at_Some; apply nth_error_nth'; exact Hk|]. split.
  - intros l Hl. apply (H2 l). apply Nt. exact Hl.
  - intros l Hl. apply (H3 l _ Hl). apply Nt. lia.
Qed.

Theorem estimate_binder : forall chain junk, chain <> [] -> (forall k, (k < length chain)%nat -> nth k junk 0 = 0) -> exists k, (k < length chain)%nat /\
  cluster_estimate chain junk = Ok (nth k chain []) /\
  (forall l, (l < length chain)%nat -> (total_disagreement chain k <= total_disagreement chain l)%nat) /\
  (forall l, (l < k)%nat -> (total_disagreement chain k < total_disagreement chain l)%nat).
Proof.
  intros chain junk N J. destruct (estimate_errors chain junk N) as (k & Hk & E & H1 & H2). exists k. split; [exact Hk|]. split; [exact E|].
  assert (P : 0 < / INR (length chain)) by (apply Rinv_0_lt_compat, lt_0_INR; lia).
  split.
  - intros l Hl. specialize (H1 l Hl). rewrite !J, !error_disagreement in H1 by assumption. apply INR_le. unfold Rdiv in H1. nra.
  - intros l Hl. specialize (H2 l Hl). rewrite !J, !error_disagreement in H2 by (assumption || lia). apply INR_lt. unfold Rdiv in H2. nra.
Qed.

(** The accumulators are not set to zero: any saved iteration may be returned. *)
Theorem estimate_any : forall chain k, (k < length chain)%nat -> exists junk, cluster_estimate chain junk = Ok (nth k chain []).
Proof.
  intros chain k Hk.
  set (junk := map (fun l => (if l =? k then -1 else 0) - error_of chain l 0) (seq 0 (length chain))).
  assert (J : forall l, (l < length chain)%nat -> error_of chain l (nth l junk 0) = if (l =? k)%nat then -1 else 0).
  { intros l Hl. rewrite error_pairs. pose proof (error_pairs chain l 0) as E0. unfold junk.
    pose proof (nth_error_seq_map _ (fun l => (if (l =? k)%nat then -1 else 0) - error_of chain l 0) _ _ Hl) as E1.
    apply (nth_error_nth _ _ 0) in E1. rewrite E1, E0. lra. }
  destruct (estimate_errors chain junk) as (k' & Hk' & E & H1 & _); [destruct chain; [simpl in Hk; lia|discriminate]|].
  specialize (H1 k Hk). rewrite !J, Nat.eqb_refl in H1 by assumption. destruct (k' =? k)%nat eqn:Ek; [|lra].
  apply Nat.eqb_eq in Ek. subst. exists junk. exact E.
Qed.
Theorem estimate_empty : forall junk, cluster_estimate [] junk = UB.
Proof. reflexivity. Qed.

Lemma filter_length_le : forall A (f : A -> bool) l, (length (filter f l) <= length l)%nat.
Proof. induction l as [|a l IH]; cbn [filter]; [apply Nat.le_refl|]. destruct (f a); cbn [length]; lia. Qed.
Theorem similarity_range : forall chain i j, chain <> [] -> (j < i)%nat ->
  0 <= similarity chain i j <= 1 /\
  (similarity chain i j = 1 <-> forall k, (k < length chain)%nat -> al chain k i = al chain k j) /\
  (similarity chain i j = 0 <-> forall k, (k < length chain)%nat -> al chain k i <> al chain k j).
Proof.
  intros chain i j N H. rewrite similarity_count by exact H. set (f := fun k => together chain k i j). set (n := length chain) in *.
  assert (P : 0 < INR n) by (apply lt_0_INR; subst n; destruct chain; [congruence|simpl; lia]).
  pose proof (filter_length_le _ f (seq 0 n)) as L. rewrite seq_length in L. apply le_INR in L. pose proof (pos_INR (length (filter f (seq 0 n)))) as L0.
  assert (F1 : forall l, length (filter f l) = length l <-> forall k, In k l -> f k = true).
  { clear. induction l as [|a l IH]; cbn [filter]; [split; [intros _ k []|reflexivity]|]. pose proof (filter_length_le _ f l) as Q. destruct (f a) eqn:E; cbn [length].
    - split; [intros H k [<-|Hk]; [exact E|apply IH; [lia|exact Hk]]|intros H; f_equal; apply IH; intros; apply H; right; assumption].
    - split; [intros H; lia|intros H; specialize (H a (or_introl eq_refl)); congruence]. }
  assert (F0 : forall l, length (filter f l) = 0%nat <-> forall k, In k l -> f k = false).
  { clear. induction l as [|a l IH]; cbn [filter]; [split; [intros _ k []|reflexivity]|]. destruct (f a) eqn:E; cbn [length].
    - split; [discriminate|intros H; specialize (H a (or_introl eq_refl)); congruence].
    - rewrite IH. split; [intros H k [<-|Hk]; auto|intros H k Hk; apply H; right; exact Hk]. }
  split; [|split].
  - split; [apply Rmult_le_pos; [exact L0|left; apply Rinv_0_lt_compat; exact P]|]. apply (Rmult_le_reg_r (INR n)); [exact P|]. field_simplify; lra.
  - split.
    + intros E. assert (Q : length (filter f (seq 0 n)) = length (seq 0 n)).
      { rewrite seq_length. apply INR_eq. apply (Rmult_eq_reg_r (/ INR n)); [|apply Rinv_neq_0_compat; lra]. rewrite Rinv_r by lra. exact E. }
      intros k Hk. apply Z.eqb_eq. apply (proj1 (F1 _) Q). apply In_seq_lt. exact Hk.
    + intros E. assert (Q : length (filter f (seq 0 n)) = n). { transitivity (length (seq 0 n)); [|apply seq_length]. apply F1. intros k Hk. apply In_seq_lt in Hk. apply Z.eqb_eq. auto. }
      rewrite Q. apply Rinv_r. lra.
  - split.
    + intros E. assert (Q : length (filter f (seq 0 n)) = 0%nat).
      { apply INR_eq. apply (Rmult_eq_reg_r (/ INR n)); [|apply Rinv_neq_0_compat; lra]. rewrite Rmult_0_l. exact E. }
      intros k Hk. apply Z.eqb_neq. apply (proj1 (F0 _) Q). apply In_seq_lt. exact Hk.
    + intros E. assert (Q : length (filter f (seq 0 n)) = 0%nat). { apply F0. intros k Hk. apply In_seq_lt in Hk. apply Z.eqb_neq. auto. }
      rewrite Q. unfold Rdiv. rewrite Rmult_0_l. reflexivity.
Qed.

(** Relabeling the clusters of each iteration. *)
Definition same_partitions (a b : list (list Z)) : Prop :=
  length a = length b /\ n_data a = n_data b /\ forall k i j, (i < n_data a)%nat -> (j < n_data a)%nat -> together a k i j = together b k i j.
Theorem relabel_similarity : forall a b i j, same_partitions a b -> (i < n_data a)%nat -> similarity a i j = similarity b i j.
Proof.
  intros a b i j (L & D & H) Hi. destruct (lt_dec j i) as [E|E].
  - rewrite !similarity_count by exact E. rewrite <- L. do 3 f_equal. apply filter_ext. intros k. apply H; lia.
  - unfold similarity. apply Nat.nlt_ge, Nat.ltb_ge in E. rewrite E, L. reflexivity.
Qed.
Theorem relabel_estimate : forall a b junk, same_partitions a b -> a <> [] ->
  exists k, (k < length a)%nat /\ cluster_estimate a junk = Ok (nth k a []) /\ cluster_estimate b junk = Ok (nth k b []).
Proof.
  intros a b junk S N. pose proof S as (L & D & H).
  assert (Er : forall k e, error_of a k e = error_of b k e).
  { intros k e. rewrite !error_pairs, <- D. f_equal. apply rsum_ext. intros p Hp. apply in_pairs in Hp. unfold sq_err.
    rewrite (H k) by lia. rewrite (relabel_similarity a b) by (auto; lia). reflexivity. }
  unfold cluster_estimate. rewrite <- L. rewrite (map_ext (fun k => error_of b k (nth k junk 0)) (fun k => error_of a k (nth k junk 0))) by (intros; symmetry; apply Er).
  set (es := map _ _).
  destruct (min_index_spec es) as (k & v & E & H1 & _); [destruct a; [congruence|discriminate]|].
  rewrite E. cbn [rbind].
  assert (Hk : (k < length a)%nat) by (apply nth_error_lt in H1; unfold es in H1; rewrite map_length, seq_length in H1; exact H1).
  exists k. split; [exact Hk|]. split; apply at_Some, nth_error_nth'; lia.
Qed.
