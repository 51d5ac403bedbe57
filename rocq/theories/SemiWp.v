(** * Semi-HDP: reasoning about results that must be normal returns. *)
From Coq Require Import String.
From Coq Require Import Bool List Arith ZArith Reals Lia Permutation.
From Verif Require Import Base XReal Semi.
Import ListNotations.
Local Open Scope nat_scope.

Definition ok {A} (m : res A) (Q : A -> Prop) : Prop := match m with Ok a => Q a | _ => False end.

Lemma ok_inv : forall A (m : res A) Q, ok m Q -> exists a, m = Ok a /\ Q a.
Proof. intros A [a| | |] Q H; simpl in H; try tauto. eauto. Qed.

Lemma ok_intro : forall A (m : res A) (Q : A -> Prop) a, m = Ok a -> Q a -> ok m Q.
Proof. intros A m Q a -> H. exact H. Qed.

Lemma ok_bind : forall A B (m : res A) (k : A -> res B) Q, ok m (fun a => ok (k a) Q) -> ok (rbind m k) Q.
Proof. intros A B [a| | |] k Q H; simpl in *; auto. Qed.

Lemma ok_mono : forall A (m : res A) (Q Q' : A -> Prop), ok m Q -> (forall a, Q a -> Q' a) -> ok m Q'.
Proof. intros A [a| | |] Q Q' H HQ; simpl in *; auto. Qed.

(** ** Lists with default access *)
Lemma nth_upd : forall A (l : list A) i x j d,
  nth j (upd l i x) d = if (j =? i) && (i <? length l) then x else nth j l d.
Proof.
  intros A l i x j d. rewrite <- !nth_default_eq. unfold nth_default. rewrite nth_error_upd.
  destruct ((j =? i) && (i <? length l)); reflexivity.
Qed.

Lemma nth_upd_same : forall A (l : list A) i x d, i < length l -> nth i (upd l i x) d = x.
Proof. intros A l i x d H. rewrite nth_upd, Nat.eqb_refl. apply Nat.ltb_lt in H. rewrite H. reflexivity. Qed.

Lemma nth_upd_other : forall A (l : list A) i x j d, j <> i -> nth j (upd l i x) d = nth j l d.
Proof. intros A l i x j d H. rewrite nth_upd. apply Nat.eqb_neq in H. rewrite H. reflexivity. Qed.

Lemma ok_at : forall A (d : A) l i (Q : A -> Prop), i < length l -> Q (nth i l d) -> ok (at_ l i) Q.
Proof.
  intros A d l i Q H HQ. unfold at_. rewrite (nth_error_nth' l d H). exact HQ.
Qed.

Lemma ok_set : forall A (l : list A) i x (Q : list A -> Prop), i < length l -> Q (upd l i x) -> ok (set_at l i x) Q.
Proof. intros A l i x Q H HQ. unfold set_at. apply Nat.ltb_lt in H. rewrite H. exact HQ. Qed.

Lemma ok_erase : forall A (l : list A) i (Q : list A -> Prop), i < length l -> Q (del l i) -> ok (erase_at l i) Q.
Proof. intros A l i Q H HQ. unfold erase_at. apply Nat.ltb_lt in H. rewrite H. exact HQ. Qed.

Lemma ok_at2 : forall A (d : A) l i j (Q : A -> Prop), i < length l -> j < length (nth i l []) -> Q (nth j (nth i l []) d) -> ok (at2 l i j) Q.
Proof. intros A d l i j Q Hi Hj HQ. unfold at2. apply ok_bind. apply ok_at with (d := []); auto. apply ok_at with (d := d); auto. Qed.

Lemma ok_set2 : forall A l i j (v : A) (Q : list (list A) -> Prop),
  i < length l -> j < length (nth i l []) -> Q (upd l i (upd (nth i l []) j v)) -> ok (set2 l i j v) Q.
Proof.
  intros A l i j v Q Hi Hj HQ. unfold set2. apply ok_bind. apply ok_at with (d := []); auto.
  apply ok_bind. apply ok_set; auto. apply ok_set; auto.
Qed.

Lemma ok_push2 : forall A l i (v : A) (Q : list (list A) -> Prop),
  i < length l -> Q (upd l i (nth i l [] ++ [v])) -> ok (push2 l i v) Q.
Proof. intros A l i v Q Hi HQ. unfold push2. apply ok_bind. apply ok_at with (d := []); auto. apply ok_set; auto. Qed.

Lemma ok_add1 : forall l i k (Q : list Z -> Prop), i < length l -> Q (upd l i (nth i l 0%Z + k)%Z) -> ok (add1 l i k) Q.
Proof. intros l i k Q Hi HQ. unfold add1. apply ok_bind. apply ok_at with (d := 0%Z); auto. apply ok_set; auto. Qed.

Lemma ok_add2 : forall l i j k (Q : list (list Z) -> Prop), i < length l -> j < length (nth i l []) ->
  Q (upd l i (upd (nth i l []) j (nth j (nth i l []) 0%Z + k)%Z)) -> ok (add2 l i j k) Q.
Proof.
  intros l i j k Q Hi Hj HQ. unfold add2. apply ok_bind. apply ok_at with (d := []); auto.
  apply ok_bind. apply ok_add1; auto. apply ok_set; auto.
Qed.

(** ** Loops *)
Lemma ok_rfold_gen : forall A B (f : B -> A -> res B) l (Inv : nat -> B -> Prop) k b (Q : B -> Prop),
  Inv k b -> (forall m b x, nth_error l m = Some x -> Inv (k + m) b -> ok (f b x) (Inv (S (k + m)))) ->
  (forall b, Inv (k + length l) b -> Q b) -> ok (rfold f l b) Q.
Proof.
  induction l as [|x l IH]; intros Inv k b Q H0 Hs HQ; simpl.
  - apply HQ. simpl. rewrite Nat.add_0_r. exact H0.
  - apply ok_bind. specialize (Hs 0 b x eq_refl) as H1. rewrite Nat.add_0_r in H1. apply H1 in H0.
    eapply ok_mono; [exact H0|]. intros b' Hb'. apply (IH Inv (S k)); auto.
    + intros m b2 y Hm Hi. specialize (Hs (S m) b2 y Hm). rewrite Nat.add_succ_r in Hs. apply Hs. exact Hi.
    + intros b2 H2. apply HQ. simpl. rewrite Nat.add_succ_r. exact H2.
Qed.

Lemma ok_rfold : forall A B (f : B -> A -> res B) l (Inv : nat -> B -> Prop) b (Q : B -> Prop),
  Inv 0 b -> (forall m b x, nth_error l m = Some x -> Inv m b -> ok (f b x) (Inv (S m))) ->
  (forall b, Inv (length l) b -> Q b) -> ok (rfold f l b) Q.
Proof. intros A B f l Inv b Q. apply (ok_rfold_gen A B f l Inv 0). Qed.

Lemma nth_error_seq : forall n s m x, nth_error (seq s n) m = Some x -> m < n /\ x = s + m.
Proof.
  intros n s m x H. assert (Hm : m < n) by (rewrite <- (seq_length n s); apply nth_error_Some; congruence).
  split; auto. rewrite (nth_error_nth' _ 0) in H by (rewrite seq_length; auto). rewrite seq_nth in H by auto. congruence.
Qed.

Lemma ok_for : forall B (f : B -> nat -> res B) n (Inv : nat -> B -> Prop) b (Q : B -> Prop),
  Inv 0 b -> (forall m b, m < n -> Inv m b -> ok (f b m) (Inv (S m))) ->
  (forall b, Inv n b -> Q b) -> ok (rfold f (seq 0 n) b) Q.
Proof.
  intros B f n Inv b Q H0 Hs HQ. apply ok_rfold with (Inv := Inv); auto.
  - intros m b' x Hx Hi. destruct (nth_error_seq _ _ _ _ Hx) as [Hm ->]. apply Hs; auto.
  - rewrite seq_length. exact HQ.
Qed.

Lemma rev_seq_S : forall n, rev (seq 0 (S n)) = n :: rev (seq 0 n).
Proof. intros n. rewrite seq_S, rev_app_distr. reflexivity. Qed.

Lemma ok_down : forall B (f : B -> nat -> res B) n (Inv : nat -> B -> Prop) b (Q : B -> Prop),
  Inv n b -> (forall m b, m < n -> Inv (S m) b -> ok (f b m) (Inv m)) ->
  (forall b, Inv 0 b -> Q b) -> ok (rfold f (rev (seq 0 n)) b) Q.
Proof.
  intros B f. induction n as [|n IH]; intros Inv b Q H0 Hs HQ.
  - simpl. auto.
  - rewrite rev_seq_S. simpl. apply ok_bind. eapply ok_mono; [apply Hs; [lia|exact H0]|].
    intros b' Hb'. apply IH with (Inv := Inv); auto.
Qed.

Lemma ok_rmap : forall A B (f : A -> res B) l (Rl : A -> B -> Prop) (Q : list B -> Prop),
  (forall x, In x l -> ok (f x) (Rl x)) -> (forall ys, Forall2 Rl l ys -> Q ys) -> ok (rmap f l) Q.
Proof.
  induction l as [|x l IH]; intros Rl Q Hf HQ; simpl.
  - apply HQ. constructor.
  - apply ok_bind. eapply ok_mono; [apply Hf; left; reflexivity|]. intros y Hy. apply ok_bind.
    eapply IH; [intros; apply Hf; right; auto|]. intros ys Hys. simpl. apply HQ. constructor; auto.
Qed.

(** A pure function under [rmap]. *)
Lemma ok_rmap_fun : forall A B (f : A -> res B) (h : A -> B) l (Q : list B -> Prop),
  (forall x, In x l -> f x = Ok (h x)) -> Q (map h l) -> ok (rmap f l) Q.
Proof.
  intros A B f h l Q Hf HQ. apply ok_rmap with (Rl := fun x y => y = h x).
  - intros x Hx. rewrite Hf; simpl; auto.
  - intros ys Hys. assert (ys = map h l) as ->; auto. clear - Hys. induction Hys; simpl; congruence.
Qed.

Lemma Forall2_len : forall A B (Rl : A -> B -> Prop) l l', Forall2 Rl l l' -> length l = length l'.
Proof. induction 1; simpl; congruence. Qed.

Lemma in_seq0 : forall n x, In x (seq 0 n) -> x < n.
Proof. intros n x H. apply in_seq in H. lia. Qed.

Lemma resize_length : forall A (d : A) n l, length (resize d n l) = n.
Proof.
  intros A d n l. unfold resize. rewrite app_length, firstn_length, repeat_length. lia.
Qed.
