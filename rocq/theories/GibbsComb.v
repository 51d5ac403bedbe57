(** * Combinatorics of clusterings. *)
From Coq Require Import Bool List Arith ZArith Reals Lra Lia Permutation.
From Verif Require Import Base PartSpec MixFacts GibbsSpec.
Import ListNotations.

Lemma first_lt : forall x l, In x l -> first x l < length l.
Proof.
  induction l as [|y l IH]; simpl; intros H; [tauto|].
  destruct (x =? y) eqn:E; [lia|]. apply Nat.eqb_neq in E. destruct H; [congruence|]. apply IH in H. lia.
Qed.

Lemma first_nth : forall x l, In x l -> nth_error l (first x l) = Some x.
Proof.
  induction l as [|y l IH]; simpl; intros H; [tauto|].
  destruct (x =? y) eqn:E; [apply Nat.eqb_eq in E; subst; auto|].
  apply Nat.eqb_neq in E. simpl. apply IH. destruct H; congruence.
Qed.

Lemma first_le : forall x l j, nth_error l j = Some x -> first x l <= j.
Proof.
  induction l as [|y l IH]; intros j H; [destruct j; discriminate|].
  simpl. destruct (x =? y) eqn:E; [lia|]. destruct j; simpl in H.
  - injection H as ->. rewrite Nat.eqb_refl in E. discriminate.
  - apply IH in H. lia.
Qed.

Lemma first_inj : forall x y l, In x l -> In y l -> first x l = first y l -> x = y.
Proof.
  intros x y l Hx Hy H. apply first_nth in Hx, Hy. rewrite H in Hx. congruence.
Qed.

Lemma canon_length : forall l, length (canon l) = length l.
Proof. intros. apply map_length. Qed.

Lemma canon_nth : forall l j, nth_error (canon l) j = option_map (fun x => first x l) (nth_error l j).
Proof. intros. unfold canon. rewrite nth_error_map. reflexivity. Qed.

Definition grp (l l' : list nat) : Prop :=
  forall p q x y x' y', nth_error l p = Some x -> nth_error l q = Some y ->
    nth_error l' p = Some x' -> nth_error l' q = Some y' -> (x = y <-> x' = y').

Lemma nth_some : forall (l : list nat) j, j < length l -> exists x, nth_error l j = Some x.
Proof.
  intros l j H. destruct (nth_error l j) eqn:E; [eauto|]. apply nth_error_None in E. lia.
Qed.

Lemma list_ext : forall (l l' : list nat), length l = length l' ->
  (forall j, j < length l -> nth_error l j = nth_error l' j) -> l = l'.
Proof.
  induction l as [|x l IH]; intros [|y l'] H E; simpl in H; try discriminate; auto.
  f_equal; [specialize (E 0 ltac:(simpl; lia)); simpl in E; congruence|].
  apply IH; [lia|]. intros j Hj. specialize (E (S j) ltac:(simpl; lia)). exact E.
Qed.

Lemma canon_iff : forall l l', canon l = canon l' <-> length l = length l' /\ grp l l'.
Proof.
  intros l l'. split.
  - intros H. assert (HL : length l = length l').
    { rewrite <- (canon_length l), <- (canon_length l'), H. reflexivity. }
    split; auto. intros p q x y x' y' Hp Hq Hp' Hq'.
    assert (Ep : first x l = first x' l').
    { assert (E : nth_error (canon l) p = nth_error (canon l') p) by (rewrite H; auto).
      rewrite !canon_nth, Hp, Hp' in E. simpl in E. congruence. }
    assert (Eq : first y l = first y' l').
    { assert (E : nth_error (canon l) q = nth_error (canon l') q) by (rewrite H; auto).
      rewrite !canon_nth, Hq, Hq' in E. simpl in E. congruence. }
    apply nth_error_In in Hp, Hq, Hp', Hq'.
    split; intros <-.
    + apply first_inj with l'; auto. congruence.
    + apply first_inj with l; auto. congruence.
  - intros [HL HG]. apply list_ext; [rewrite !canon_length; auto|].
    intros j Hj. rewrite canon_length in Hj. rewrite !canon_nth.
    destruct (nth_some l j Hj) as [x Hx]. destruct (nth_some l' j ltac:(lia)) as [x' Hx'].
    rewrite Hx, Hx'. simpl. f_equal.
    pose proof (nth_error_In _ _ Hx) as Ix. pose proof (nth_error_In _ _ Hx') as Ix'.
    pose proof (first_nth _ _ Ix) as F. pose proof (first_nth _ _ Ix') as F'.
    pose proof (first_lt _ _ Ix). pose proof (first_lt _ _ Ix').
    apply Nat.le_antisymm.
    + apply first_le. destruct (nth_some l (first x' l') ltac:(lia)) as [y Hy].
      rewrite Hy. f_equal. apply (proj2 (HG _ _ _ _ _ _ Hy Hx F' Hx')). reflexivity.
    + apply first_le. destruct (nth_some l' (first x l) ltac:(lia)) as [y Hy].
      rewrite Hy. f_equal. apply (proj1 (HG _ _ _ _ _ _ F Hx Hy Hx')). reflexivity.
Qed.

Lemma canon_idem : forall l, canon (canon l) = canon l.
Proof.
  intros l. apply canon_iff. split; [apply canon_length|].
  intros p q x y x' y' Hp Hq Hp' Hq'. rewrite canon_nth in Hp, Hq. rewrite Hp' in Hp. rewrite Hq' in Hq.
  simpl in *. injection Hp as <-. injection Hq as <-.
  apply nth_error_In in Hp', Hq'. split; [apply first_inj; auto|congruence].
Qed.

Lemma canon_bound : forall l x, In x (canon l) -> x < length l.
Proof.
  intros l x H. unfold canon in H. apply in_map_iff in H. destruct H as (y & <- & Hy). apply first_lt; auto.
Qed.

(** Equal groupings are a renaming. *)
Lemma canon_rename : forall l l', canon l = canon l' ->
  exists f, l' = map f l /\ (forall x y, In x l -> In y l -> f x = f y -> x = y).
Proof.
  intros l l' H. apply canon_iff in H. destruct H as [HL HG].
  exists (fun x => nth (first x l) l' 0). split.
  - apply list_ext; [rewrite map_length; auto|]. intros j Hj. rewrite nth_error_map.
    destruct (nth_some l' j Hj) as [x' Hx']. destruct (nth_some l j ltac:(lia)) as [x Hx].
    rewrite Hx, Hx'. simpl. f_equal. pose proof (nth_error_In _ _ Hx) as Ix.
    pose proof (first_lt _ _ Ix). destruct (nth_some l' (first x l) ltac:(lia)) as [y Hy].
    rewrite (nth_error_nth _ _ _ Hy). apply (proj1 (HG _ _ _ _ _ _ Hx (first_nth _ _ Ix) Hx' Hy)). reflexivity.
  - intros x y Hx Hy E. pose proof (first_lt _ _ Hx). pose proof (first_lt _ _ Hy).
    destruct (nth_some l' (first x l) ltac:(lia)) as [x' Ex]. destruct (nth_some l' (first y l) ltac:(lia)) as [y' Ey].
    rewrite (nth_error_nth _ _ _ Ex), (nth_error_nth _ _ _ Ey) in E.
    apply (proj2 (HG _ _ _ _ _ _ (first_nth _ _ Hx) (first_nth _ _ Hy) Ex Ey)). exact E.
Qed.

Lemma same_true : forall l l', same l l' = true <-> l = l'.
Proof. intros. unfold same. destruct (list_eq_dec Nat.eq_dec l l'); split; congruence. Qed.

Lemma words_in : forall m n w, In w (words m n) <-> length w = n /\ (forall x, In x w -> x < m).
Proof.
  intros m. induction n as [|n IH]; intros w; simpl.
  - split; [intros [<- | []]; split; auto; intros x []|]. intros [H _]. destruct w; [auto|discriminate].
  - rewrite in_flat_map. split.
    + intros (w' & Hw & Hx). apply in_map_iff in Hx. destruct Hx as (x & <- & Hx). apply in_seq in Hx.
      apply IH in Hw. destruct Hw as [H1 H2]. split; simpl; [lia|]. intros y [<- | Hy]; [lia|auto].
    + intros [H1 H2]. destruct w as [|x w]; [discriminate|]. exists w. split.
      * apply IH. split; [simpl in H1; lia|]. intros y Hy. apply H2. right; auto.
      * apply in_map_iff. exists x. split; auto. apply in_seq. specialize (H2 x (or_introl eq_refl)). lia.
Qed.

Lemma NoDup_flat : forall (A B : Type) (f : A -> list B) l, NoDup l ->
  (forall x, In x l -> NoDup (f x)) ->
  (forall x y z, In x l -> In y l -> In z (f x) -> In z (f y) -> x = y) -> NoDup (flat_map f l).
Proof.
  induction l as [|a l IH]; simpl; intros H1 H2 H3; [constructor|].
  inversion H1 as [|? ? Ha Hl]; subst.
  assert (Na : NoDup (f a)) by (apply H2; auto).
  assert (Nl : NoDup (flat_map f l)).
  { apply IH; auto. intros x y z Hx Hy. apply H3; auto. }
  assert (D : forall z, In z (f a) -> ~ In z (flat_map f l)).
  { intros z Hz Hin. apply in_flat_map in Hin. destruct Hin as (y & Hy & Hzy).
    assert (a = y) by (eapply H3; eauto). subst. auto. }
  clear - Na Nl D. induction (f a) as [|b t IHt]; simpl; auto.
  inversion Na; subst. constructor.
  - rewrite in_app_iff. intros [H|H]; [auto|]. eapply D; [left; reflexivity|exact H].
  - apply IHt; auto. intros z Hz. apply D. right; auto.
Qed.

Lemma words_nodup : forall m n, NoDup (words m n).
Proof.
  intros m. induction n as [|n IH]; simpl; [repeat constructor; auto|].
  apply NoDup_flat; auto.
  - intros w _. apply FinFun.Injective_map_NoDup; [|apply seq_NoDup]. intros x y H. congruence.
  - intros w w' z _ _ H H'. apply in_map_iff in H, H'. destruct H as (x & <- & _). destruct H' as (y & E & _). congruence.
Qed.

Lemma clusterings_in : forall n l, In l (clusterings n) <-> length l = n /\ canon l = l.
Proof.
  intros n l. unfold clusterings. rewrite filter_In, words_in, same_true. split; [tauto|].
  intros [H1 H2]. split; [split; auto|auto]. intros x Hx. rewrite <- H2 in Hx. apply canon_bound in Hx. lia.
Qed.

Lemma clusterings_nodup : forall n, NoDup (clusterings n).
Proof. intros. apply NoDup_filter. apply words_nodup. Qed.

(** ** Changing one label *)

Lemma del_grp : forall l l' i, length l = length l' -> i < length l ->
  (canon (del l i) = canon (del l' i) <->
   forall p q x y x' y', p <> i -> q <> i -> nth_error l p = Some x -> nth_error l q = Some y ->
    nth_error l' p = Some x' -> nth_error l' q = Some y' -> (x = y <-> x' = y')).
Proof.
  intros l l' i HL Hi. rewrite canon_iff. rewrite !del_length by lia.
  split.
  - intros [_ G] p q x y x' y' Np Nq Hp Hq Hp' Hq'.
    assert (Sh : forall k (z : nat) (m : list nat), k <> i -> nth_error m k = Some z ->
              nth_error (del m i) (if k <? i then k else k - 1) = Some z).
    { intros k z m Nk Hk. rewrite nth_error_del. destruct (k <? i) eqn:E.
      - rewrite E. auto.
      - apply Nat.ltb_ge in E. destruct (k - 1 <? i) eqn:E2; [apply Nat.ltb_lt in E2; lia|].
        replace (S (k - 1)) with k by lia. auto. }
    exact (G _ _ _ _ _ _ (Sh _ _ _ Np Hp) (Sh _ _ _ Nq Hq) (Sh _ _ _ Np Hp') (Sh _ _ _ Nq Hq')).
  - intros G. split; [lia|]. intros p q x y x' y' Hp Hq Hp' Hq'.
    rewrite nth_error_del in Hp, Hq, Hp', Hq'.
    assert (A : forall k, exists k', k' <> i /\ forall m : list nat, (if k <? i then nth_error m k else nth_error m (S k)) = nth_error m k').
    { intros k. destruct (k <? i) eqn:E; [exists k|exists (S k)]; split; auto;
        [apply Nat.ltb_lt in E|apply Nat.ltb_ge in E]; lia. }
    destruct (A p) as (p' & Np & Ep). destruct (A q) as (q' & Nq & Eq). rewrite Ep in Hp, Hp'. rewrite Eq in Hq, Hq'.
    exact (G _ _ _ _ _ _ Np Nq Hp Hq Hp' Hq').
Qed.

Lemma del_upd : forall (l : list nat) i x, del (upd l i x) i = del l i.
Proof.
  induction l as [|h l IH]; intros [|i] x; simpl; auto. f_equal. apply IH.
Qed.

Lemma upd_perm : forall (l : list nat) i x, i < length l -> Permutation (upd l i x) (x :: del l i).
Proof.
  induction l as [|h l IH]; intros [|i] x Hi; simpl in *; try lia; auto.
  rewrite IH by lia. apply perm_swap.
Qed.

(** The labels of the others are exactly [0 .. k-1]. *)
Definition compact (i : nat) (al : list nat) (k : nat) : Prop :=
  (forall j x, j <> i -> nth_error al j = Some x -> x < k) /\
  (forall c, c < k -> exists j, j <> i /\ nth_error al j = Some c).

Lemma outcomes_perm : forall n i al k, i < n -> length al = n -> compact i al k ->
  Permutation (map (fun c => canon (upd al i c)) (seq 0 (S k)))
              (filter (alike_off i al) (clusterings n)).
Proof.
  intros n i al k Hi HL [C1 C2].
  assert (NU : forall c, nth_error (upd al i c) i = Some c) by (intros; apply nth_error_upd_same; lia).
  assert (NO : forall c j, j <> i -> nth_error (upd al i c) j = nth_error al j).
  { intros. apply nth_error_upd_other; auto. }
  apply NoDup_Permutation.
  - assert (Inj : forall c c', c <= k -> c' <= k -> canon (upd al i c) = canon (upd al i c') -> c = c').
    { assert (W : forall c c', c < k -> canon (upd al i c) = canon (upd al i c') -> c = c').
      { intros c c' Hc E. apply canon_iff in E. destruct E as [_ G].
        destruct (C2 c Hc) as (j & Hj & Ej).
        symmetry. eapply (G i j c c c' c); auto; rewrite NO; auto. }
      intros c c' Hc Hc' E. destruct (Nat.lt_ge_cases c k); [auto|].
      destruct (Nat.lt_ge_cases c' k); [symmetry; auto|]. lia. }
    assert (G : forall l, NoDup l -> (forall c, In c l -> c <= k) -> NoDup (map (fun c => canon (upd al i c)) l)).
    { induction l as [|c l IH]; intros Hn Hb; simpl; [constructor|]. inversion Hn; subst.
      constructor; [|apply IH; auto; intros; apply Hb; right; auto].
      intros Hin. apply in_map_iff in Hin. destruct Hin as (c' & E & Hc').
      apply Inj in E; [subst; auto|apply Hb; right; auto|apply Hb; left; auto]. }
    apply G; [apply seq_NoDup|]. intros c Hc. apply in_seq in Hc. lia.
  - apply NoDup_filter, clusterings_nodup.
  - intros t. rewrite in_map_iff, filter_In, clusterings_in. split.
    + intros (c & <- & _). split; [split; [rewrite canon_length, upd_length; auto|apply canon_idem]|].
      unfold alike_off. apply same_true. apply del_grp; [rewrite canon_length, upd_length; auto|lia|].
      intros p q x y x' y' Np Nq Hp Hq Hp' Hq'. rewrite canon_nth, NO in Hp', Hq' by auto.
      rewrite Hp in Hp'. rewrite Hq in Hq'. simpl in *. injection Hp' as <-. injection Hq' as <-.
      split; [congruence|]. apply first_inj; eapply nth_error_In; [rewrite NO; [exact Hp|auto]|rewrite NO; [exact Hq|auto]].
    + intros [[HT HC] HA]. unfold alike_off in HA. apply same_true in HA.
      pose proof (proj1 (del_grp al t i ltac:(lia) ltac:(lia)) HA) as G. clear HA.
      destruct (nth_some t i ltac:(lia)) as [ti Hti].
      assert (D : (exists j, j <> i /\ nth_error t j = Some ti) \/ forall j, j <> i -> nth_error t j <> Some ti).
      { destruct (in_dec Nat.eq_dec ti (del t i)) as [H|H].
        - left. apply In_nth_error in H. destruct H as [j Hj]. rewrite nth_error_del in Hj.
          destruct (j <? i) eqn:E; [exists j|exists (S j)]; split; auto; [apply Nat.ltb_lt in E|apply Nat.ltb_ge in E]; lia.
        - right. intros j Hj E. apply H.
          assert (E2 : nth_error (del t i) (if j <? i then j else j - 1) = Some ti).
          { rewrite nth_error_del. destruct (j <? i) eqn:F; [rewrite F; auto|].
            apply Nat.ltb_ge in F. destruct (j - 1 <? i) eqn:F2; [apply Nat.ltb_lt in F2; lia|].
            replace (S (j - 1)) with j by lia. auto. }
          eapply nth_error_In; exact E2. }
      rewrite <- HC. destruct D as [(j & Hj & Ej)|D].
      * assert (j < length t) by (apply nth_error_Some; congruence).
        destruct (nth_some al j ltac:(lia)) as [c Hc]. exists c. split.
        2:{ apply in_seq. apply C1 in Hc; auto. lia. }
        apply canon_iff. split; [rewrite upd_length; lia|].
        intros p q x y x' y' Hp Hq Hp' Hq'.
        destruct (Nat.eq_dec p i) as [-> | Np]; destruct (Nat.eq_dec q i) as [-> | Nq].
        -- rewrite NU in Hp, Hq. rewrite Hti in Hp', Hq'. split; congruence.
        -- rewrite NU in Hp. rewrite NO in Hq by auto. rewrite Hti in Hp'.
           injection Hp as <-. injection Hp' as <-. exact (G _ _ _ _ _ _ Hj Nq Hc Hq Ej Hq').
        -- rewrite NU in Hq. rewrite NO in Hp by auto. rewrite Hti in Hq'.
           injection Hq as <-. injection Hq' as <-. exact (G _ _ _ _ _ _ Np Hj Hp Hc Hp' Ej).
        -- rewrite NO in Hp, Hq by auto. exact (G _ _ _ _ _ _ Np Nq Hp Hq Hp' Hq').
      * exists k. split; [|apply in_seq; lia].
        apply canon_iff. split; [rewrite upd_length; lia|].
        intros p q x y x' y' Hp Hq Hp' Hq'.
        destruct (Nat.eq_dec p i) as [-> | Np]; destruct (Nat.eq_dec q i) as [-> | Nq].
        -- rewrite NU in Hp, Hq. rewrite Hti in Hp', Hq'. split; congruence.
        -- rewrite NU in Hp. rewrite NO in Hq by auto. rewrite Hti in Hp'. injection Hp as <-. injection Hp' as <-.
           pose proof (C1 _ _ Nq Hq). specialize (D q Nq). split; [lia|]. intros <-. congruence.
        -- rewrite NU in Hq. rewrite NO in Hp by auto. rewrite Hti in Hq'. injection Hq as <-. injection Hq' as <-.
           pose proof (C1 _ _ Np Hp). specialize (D p Np). split; [lia|]. intros ->. congruence.
        -- rewrite NO in Hp, Hq by auto. exact (G _ _ _ _ _ _ Np Nq Hp Hq Hp' Hq').
Qed.
