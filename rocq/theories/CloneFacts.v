(** * What each object reads after any history of clones and loads. *)
From Coq Require Import String.
From Coq Require Import Bool List Arith Lia.
From Verif Require Import Base Clones.
Import ListNotations.

(** ** Specification without pointers: histories, newest operation first *)
Section Spec.
Variable I : pmodel.
Notation hist := (list (op I)).

Fixpoint count (h : hist) : nat :=
  match h with
  | [] => 1
  | OClone _ _ :: h' | ODeep _ _ :: h' => S (count h')
  | _ :: h' => count h'
  end.

(** The object an index stood for before the newest clone. *)
Definition back (h : hist) (k i : nat) : nat := if i =? count h then k else i.

(** Do two objects use the same hyperparameters? *)
Fixpoint hyp_same (h : hist) (i j : nat) : bool :=
  match h with
  | [] => true
  | OClone _ k :: h' => hyp_same h' (back h' k i) (back h' k j)
  | ODeep _ _ :: h' => if i =? count h' then j =? count h' else if j =? count h' then false else hyp_same h' i j
  | OInit _ k :: h' => (i =? j) || (negb (i =? k) && negb (j =? k) && hyp_same h' i j)
  | _ :: h' => hyp_same h' i j
  end.

(** Has the object a prior message? *)
Fixpoint has_prior (h : hist) (i : nat) : bool :=
  match h with
  | [] => false
  | OClone _ k :: h' => has_prior h' (back h' k i)
  | ODeep _ _ :: h' => (i =? count h') || has_prior h' i
  | OPrior _ k _ :: h' => (i =? k) || has_prior h' i
  | _ :: h' => has_prior h' i
  end.
(** Do two objects use the same prior message (or both none)? *)
Fixpoint pri_same (h : hist) (i j : nat) : bool :=
  match h with
  | [] => true
  | OClone _ k :: h' => pri_same h' (back h' k i) (back h' k j)
  | ODeep _ _ :: h' => if i =? count h' then j =? count h' else if j =? count h' then false else pri_same h' i j
  | OPrior _ k _ :: h' =>
      if has_prior h' k then pri_same h' i j
      else (i =? j) || (negb (i =? k) && negb (j =? k) && pri_same h' i j)
  | _ :: h' => pri_same h' i j
  end.
Fixpoint prior_of (h : hist) (i : nat) : option (Pr I) :=
  match h with
  | [] => None
  | OClone _ k :: h' => prior_of h' (back h' k i)
  | ODeep _ k :: h' => if i =? count h' then prior_of h' k else prior_of h' i
  | OPrior _ k p :: h' =>
      if (i =? k) || (has_prior h' k && pri_same h' i k) then Some p else prior_of h' i
  | _ :: h' => prior_of h' i
  end.

Definition init_val (p : option (Pr I)) : Hy I :=
  match p with None => h_new I | Some p => match h_init I p (h_new I) with Ok v => v | _ => h_new I end end.
Definition upd_val (p : option (Pr I)) (d : Dr I) (h : Hy I) : Hy I :=
  match p with None => h | Some p => match h_upd I p d h with Ok v => v | _ => h end end.

(** The hyperparameters an object reads. *)
Fixpoint hyp_of (h : hist) (i : nat) : Hy I :=
  match h with
  | [] => h_new I
  | OClone _ k :: h' => hyp_of h' (back h' k i)
  | ODeep _ k :: h' => if i =? count h' then init_val (prior_of h' k) else hyp_of h' i
  | OInit _ k :: h' => if i =? k then init_val (prior_of h' k) else hyp_of h' i
  | OLoad _ k m :: h' => if hyp_same h' i k then h_load I m (hyp_of h' k) else hyp_of h' i
  | OUpd _ k d :: h' => if hyp_same h' i k then upd_val (prior_of h' k) d (hyp_of h' k) else hyp_of h' i
  | OPrior _ _ _ :: h' => hyp_of h' i
  end.
End Spec.

(** ** Proof *)
Section Proof.
Variable I : pmodel.

Definition opt_eqb (a b : option nat) : bool :=
  match a, b with None, None => true | Some x, Some y => x =? y | _, _ => false end.

Record inv (h : list (op I)) (w : world I) : Prop := {
  inv_len : length (w_objs I w) = count I h;
  inv_hyp : forall i o, nth_error (w_objs I w) i = Some o -> nth_error (w_hyps I w) (o_hyp o) = Some (hyp_of I h i);
  inv_none : forall i o, nth_error (w_objs I w) i = Some o -> o_pri o = None -> prior_of I h i = None /\ has_prior I h i = false;
  inv_some : forall i o a, nth_error (w_objs I w) i = Some o -> o_pri o = Some a ->
    has_prior I h i = true /\ exists p, nth_error (w_pris I w) a = Some p /\ prior_of I h i = Some p;
  inv_hsame : forall i j oi oj, nth_error (w_objs I w) i = Some oi -> nth_error (w_objs I w) j = Some oj ->
    hyp_same I h i j = (o_hyp oi =? o_hyp oj);
  inv_psame : forall i j oi oj, nth_error (w_objs I w) i = Some oi -> nth_error (w_objs I w) j = Some oj ->
    pri_same I h i j = opt_eqb (o_pri oi) (o_pri oj)
}.

Lemma at_ok : forall A (l : list A) i a, at_ l i = Ok a <-> nth_error l i = Some a.
Proof. intros. unfold at_. destruct (nth_error l i); split; intros H; congruence. Qed.
Lemma rb : forall A B (m : res A) (k : A -> res B) b, rbind m k = Ok b -> exists a, m = Ok a /\ k a = Ok b.
Proof. intros A B [a| | |] k b H; try discriminate. exists a. auto. Qed.
Lemma nth_lt : forall A (l : list A) i a, nth_error l i = Some a -> i < length l.
Proof. intros A l i a H. apply nth_error_Some. rewrite H. discriminate. Qed.
Lemma nth_snoc : forall A (l : list A) x i, nth_error (l ++ [x]) i = if i =? length l then Some x else nth_error l i.
Proof.
  intros A l x i. destruct (Nat.eqb_spec i (length l)) as [->|Hn].
  - rewrite nth_error_app2, Nat.sub_diag by lia. reflexivity.
  - destruct (Nat.lt_ge_cases i (length l)); [apply nth_error_app1; assumption|].
    rewrite nth_error_app2 by lia. destruct (i - length l) eqn:E; [lia|]. simpl. 
    destruct n; simpl; symmetry; apply nth_error_None; lia.
Qed.
Lemma nth_upd : forall A (l : list A) a x i, a < length l -> nth_error (upd l a x) i = if i =? a then Some x else nth_error l i.
Proof.
  induction l as [|y l IH]; intros a x i H; [simpl in H; lia|].
  destruct a as [|a], i as [|i]; simpl; try reflexivity. apply IH. simpl in H; lia.
Qed.
Lemma set_ok : forall A (l : list A) a x l', set_at l a x = Ok l' -> a < length l /\ l' = upd l a x.
Proof.
  intros A l a x l' H. unfold set_at in H. destruct (Nat.ltb_spec a (length l)); [|discriminate]. injection H as <-. auto.
Qed.

Lemma inv_fresh : inv [] (fresh I).
Proof.
  constructor.
  - reflexivity.
  - intros [|[|i]] o H; try discriminate. injection H as <-. reflexivity.
  - intros [|[|i]] o H; try discriminate. intros _. split; reflexivity.
  - intros [|[|i]] o a H; try discriminate. injection H as <-. discriminate.
  - intros [|[|i]] [|[|j]] oi oj Hi Hj; try discriminate. injection Hi as <-. injection Hj as <-. reflexivity.
  - intros [|[|i]] [|[|j]] oi oj Hi Hj; try discriminate. injection Hi as <-. injection Hj as <-. reflexivity.
Qed.

Lemma inv_addr : forall h w i o, inv h w -> nth_error (w_objs I w) i = Some o ->
  o_hyp o < length (w_hyps I w) /\ (forall a, o_pri o = Some a -> a < length (w_pris I w)).
Proof.
  intros h w i o V H. split; [eapply nth_lt, inv_hyp; eassumption|].
  intros a Ha. destruct (inv_some _ _ V i o a H Ha) as (_ & p & Hp & _). eapply nth_lt; exact Hp.
Qed.

Lemma inv_clone : forall h w k w', inv h w -> clone I k w = Ok w' -> inv (OClone I k :: h) w'.
Proof.
  intros h w k w' V H. unfold clone in H. apply rb in H. destruct H as (o & Ho & H). injection H as <-.
  apply at_ok in Ho.
  assert (B : forall i oi, nth_error (w_objs I w ++ [o]) i = Some oi -> nth_error (w_objs I w) (back I h k i) = Some oi).
  { intros i oi Hi. rewrite nth_snoc in Hi. unfold back. rewrite <- (inv_len _ _ V). destruct (i =? length (w_objs I w)); congruence. }
  constructor; cbn [w_objs w_hyps w_pris count hyp_of prior_of has_prior hyp_same pri_same].
  - rewrite app_length, (inv_len _ _ V). simpl. lia.
  - intros i oi Hi. eapply inv_hyp; eauto.
  - intros i oi Hi. eapply inv_none; eauto.
  - intros i oi a Hi. eapply inv_some; eauto.
  - intros i j oi oj Hi Hj. eapply inv_hsame; eauto.
  - intros i j oi oj Hi Hj. eapply inv_psame; eauto.
Qed.

Lemma inv_sethyp : forall h w k o a v h',
  inv h w -> nth_error (w_objs I w) k = Some o -> a = o_hyp o ->
  count I h' = count I h -> (forall i, prior_of I h' i = prior_of I h i) -> (forall i, has_prior I h' i = has_prior I h i) ->
  (forall i j, hyp_same I h' i j = hyp_same I h i j) -> (forall i j, pri_same I h' i j = pri_same I h i j) ->
  (forall i, hyp_of I h' i = if hyp_same I h i k then v else hyp_of I h i) ->
  inv h' (mkW I (upd (w_hyps I w) a v) (w_pris I w) (w_objs I w)).
Proof.
  intros h w k o a v h' V Ho -> E1 E2 E3 E4 E5 E6. pose proof (inv_addr _ _ _ _ V Ho) as (Ha & _).
  constructor; cbn [w_objs w_hyps w_pris].
  - rewrite E1. apply inv_len, V.
  - intros i oi Hi. rewrite nth_upd by exact Ha. rewrite E6, (inv_hsame _ _ V i k oi o Hi Ho).
    destruct (o_hyp oi =? o_hyp o); [reflexivity|]. eapply inv_hyp; eauto.
  - intros i oi Hi. rewrite E2, E3. eapply inv_none; eauto.
  - intros i oi b Hi. rewrite E2, E3. eapply inv_some; eauto.
  - intros i j oi oj Hi Hj. rewrite E4. eapply inv_hsame; eauto.
  - intros i j oi oj Hi Hj. rewrite E5. eapply inv_psame; eauto.
Qed.

Lemma inv_load : forall h w k m w', inv h w -> load_hypers I k m w = Ok w' -> inv (OLoad I k m :: h) w'.
Proof.
  intros h w k m w' V H. unfold load_hypers in H. apply rb in H. destruct H as (o & Ho & H). apply at_ok in Ho.
  apply rb in H. destruct H as (v & Hv & H). apply at_ok in Hv. unfold set_hyp in H. apply rb in H.
  destruct H as (hs & Hs & H). injection H as <-. apply set_ok in Hs. destruct Hs as (_ & ->).
  eapply inv_sethyp; eauto. intros i. cbn [hyp_of].
  rewrite (inv_hyp _ _ V k o Ho) in Hv. injection Hv as <-. reflexivity.
Qed.

Lemma inv_upd : forall h w k d w', inv h w -> update_hypers I k d w = Ok w' -> inv (OUpd I k d :: h) w'.
Proof.
  intros h w k d w' V H. unfold update_hypers in H. apply rb in H. destruct H as (o & Ho & H). apply at_ok in Ho.
  destruct (o_pri o) as [a|] eqn:Ea; [|discriminate].
  apply rb in H. destruct H as (p & Hp & H). apply at_ok in Hp.
  apply rb in H. destruct H as (v & Hv & H). apply at_ok in Hv.
  apply rb in H. destruct H as (v' & Hv' & H). unfold set_hyp in H. apply rb in H.
  destruct H as (hs & Hs & H). injection H as <-. apply set_ok in Hs. destruct Hs as (_ & ->).
  eapply inv_sethyp; eauto. intros i. cbn [hyp_of].
  rewrite (inv_hyp _ _ V k o Ho) in Hv. injection Hv as <-.
  destruct (inv_some _ _ V k o a Ho Ea) as (_ & q & Hq & Eq). rewrite Hp in Hq. injection Hq as <-.
  rewrite Eq. cbn [upd_val]. rewrite Hv'. reflexivity.
Qed.

Lemma inv_init : forall h w k w', inv h w -> initialize I k w = Ok w' -> inv (OInit I k :: h) w'.
Proof.
  intros h w k w' V H. unfold initialize in H. apply rb in H. destruct H as (o & Ho & H). apply at_ok in Ho.
  apply rb in H. destruct H as ((o' & w1) & H1 & H). unfold do_init in H1.
  destruct (o_pri o) as [a|] eqn:Ea; [|discriminate].
  apply rb in H1. destruct H1 as (p & Hp & H1). apply at_ok in Hp. cbn [new_hyp] in H1.
  apply rb in H1. destruct H1 as (v & Hv & H1). unfold set_hyp in H1. cbn [w_hyps w_pris w_objs] in H1.
  apply rb in H1. destruct H1 as (w2 & H1 & H2). apply rb in H1. destruct H1 as (hs & Hs & E). injection E as <-.
  injection H2 as <- <-. apply set_ok in Hs. destruct Hs as (Hl & ->).
  unfold set_obj in H. cbn [w_hyps w_pris w_objs] in H. apply rb in H. destruct H as (os & Hos & H). injection H as <-.
  apply set_ok in Hos. destruct Hos as (Hk & ->).
  set (n := length (w_hyps I w)) in *.
  assert (B : forall i oi, nth_error (upd (w_objs I w) k (mkObj n (Some a))) i = Some oi ->
    (i = k /\ oi = mkObj n (Some a)) \/ (i <> k /\ nth_error (w_objs I w) i = Some oi)).
  { intros i oi Hi. rewrite nth_upd in Hi by exact Hk. destruct (Nat.eqb_spec i k); [left; split; [assumption|congruence]|right; auto]. }
  assert (Hn : forall i oi, nth_error (w_objs I w) i = Some oi -> o_hyp oi < n).
  { intros i oi Hi. apply (inv_addr _ _ _ _ V Hi). }
  assert (Nh : forall x, nth_error (upd (w_hyps I w ++ [h_new I]) n v) x =
    if x =? n then Some v else nth_error (w_hyps I w) x).
  { intros x. rewrite nth_upd by exact Hl. rewrite nth_snoc. fold n. destruct (x =? n); reflexivity. }
  destruct (inv_some _ _ V k o a Ho Ea) as (Hhas & q & Hq & Eq). rewrite Hp in Hq. injection Hq as <-.
  constructor; cbn [w_objs w_hyps w_pris count hyp_of prior_of has_prior hyp_same pri_same].
  - assert (L : forall A (l : list A) i x, length (upd l i x) = length l).
    { induction l as [|y l IH]; intros [|i] x; simpl; auto. }
    rewrite L. apply inv_len, V.
  - intros i oi Hi. rewrite Nh. destruct (B i oi Hi) as [(-> & ->)|(Hne & Hi')].
    + cbn [o_hyp]. rewrite !Nat.eqb_refl. rewrite Eq. cbn [init_val]. rewrite Hv. reflexivity.
    + rewrite (proj2 (Nat.eqb_neq i k) Hne). pose proof (Hn i oi Hi'). rewrite (proj2 (Nat.eqb_neq (o_hyp oi) n)) by lia.
      eapply inv_hyp; eauto.
  - intros i oi Hi Hnone. destruct (B i oi Hi) as [(-> & ->)|(Hne & Hi')]; [discriminate|]. eapply inv_none; eauto.
  - intros i oi b Hi Hb. destruct (B i oi Hi) as [(-> & ->)|(Hne & Hi')].
    + injection Hb as <-. eauto.
    + eapply inv_some; eauto.
  - intros i j oi oj Hi Hj. destruct (B i oi Hi) as [(-> & ->)|(Hne & Hi')], (B j oj Hj) as [(-> & ->)|(Hne' & Hj')].
    + cbn [o_hyp]. rewrite !Nat.eqb_refl. reflexivity.
    + cbn [o_hyp]. pose proof (Hn j oj Hj'). rewrite Nat.eqb_refl. cbn [negb andb]. 
      rewrite (proj2 (Nat.eqb_neq k j)) by congruence. rewrite (proj2 (Nat.eqb_neq n (o_hyp oj))) by lia. reflexivity.
    + cbn [o_hyp]. pose proof (Hn i oi Hi'). rewrite Nat.eqb_refl. cbn [negb andb]. rewrite andb_false_r.
      rewrite (proj2 (Nat.eqb_neq i k)) by congruence. rewrite (proj2 (Nat.eqb_neq (o_hyp oi) n)) by lia. reflexivity.
    + rewrite (proj2 (Nat.eqb_neq i k)), (proj2 (Nat.eqb_neq j k)) by assumption. cbn [negb andb].
      rewrite (inv_hsame _ _ V i j oi oj Hi' Hj'). destruct (Nat.eqb_spec i j) as [->|]; [|reflexivity].
      rewrite Hi' in Hj'. injection Hj' as ->. rewrite Nat.eqb_refl. reflexivity.
  - assert (G : forall i oi, nth_error (upd (w_objs I w) k (mkObj n (Some a))) i = Some oi ->
      exists o2, nth_error (w_objs I w) i = Some o2 /\ o_pri o2 = o_pri oi).
    { intros i oi Hi. destruct (B i oi Hi) as [(-> & ->)|(Hne & Hi')]; [exists o; auto|exists oi; auto]. }
    intros i j oi oj Hi Hj. destruct (G i oi Hi) as (o1 & H1 & <-). destruct (G j oj Hj) as (o2 & H2 & <-).
    eapply inv_psame; eauto.
Qed.

Lemma upd_last : forall A (l : list A) x y, upd (l ++ [x]) (length l) y = l ++ [y].
Proof. induction l as [|z l IH]; intros x y; simpl; [reflexivity|]. rewrite IH. reflexivity. Qed.

Lemma deep_eq : forall k w w', deep_clone I k w = Ok w' ->
  exists o a p v junk, nth_error (w_objs I w) k = Some o /\ o_pri o = Some a /\
    nth_error (w_pris I w ++ [p_new I]) a = Some p /\ h_init I p (h_new I) = Ok v /\
    w' = mkW I ((w_hyps I w ++ [junk]) ++ [v]) (w_pris I w ++ [p])
           (w_objs I w ++ [mkObj (S (length (w_hyps I w))) (Some (length (w_pris I w)))]).
Proof.
  intros k w w' H. unfold deep_clone in H. apply rb in H. destruct H as (o & Ho & H). apply at_ok in Ho.
  cbn [new_pri] in H. destruct (o_pri o) as [a|] eqn:Ea; [|discriminate].
  cbn [w_pris w_hyps w_objs] in H.
  apply rb in H. destruct H as (p & Hp & H). apply at_ok in Hp.
  apply rb in H. destruct H as (w2 & H2 & H). unfold set_pri in H2. cbn [w_pris w_hyps w_objs] in H2.
  apply rb in H2. destruct H2 as (ps & Hps & E). injection E as <-. apply set_ok in Hps. destruct Hps as (_ & ->).
  rewrite upd_last in H.
  cbn [new_hyp w_pris w_hyps w_objs] in H.
  apply rb in H. destruct H as (h1 & Hh1 & H). apply rb in H. destruct H as (h0 & Hh0 & H).
  apply rb in H. destruct H as (w4 & H4 & H). unfold set_hyp in H4. cbn [w_pris w_hyps w_objs] in H4.
  apply rb in H4. destruct H4 as (hs & Hhs & E). injection E as <-. apply set_ok in Hhs. destruct Hhs as (_ & ->).
  rewrite upd_last in H. set (junk := h_load I (h_save I h1) h0) in *.
  apply rb in H. destruct H as ((o' & w5) & H5 & H). injection H as <-.
  unfold do_init in H5. cbn [o_pri w_pris w_hyps w_objs] in H5.
  apply rb in H5. destruct H5 as (q & Hq & H5). apply at_ok in Hq. rewrite nth_snoc, Nat.eqb_refl in Hq. injection Hq as <-.
  cbn [new_hyp w_pris w_hyps w_objs] in H5.
  apply rb in H5. destruct H5 as (v & Hv & H5). unfold set_hyp in H5. cbn [w_pris w_hyps w_objs] in H5.
  apply rb in H5. destruct H5 as (w6 & H6 & E). apply rb in H6. destruct H6 as (hs & Hhs & E6). injection E6 as <-.
  injection E as <- <-. apply set_ok in Hhs. destruct Hhs as (_ & ->). rewrite upd_last.
  exists o, a, p, v, junk. cbn [w_pris w_hyps w_objs]. rewrite app_length, Nat.add_1_r. auto.
Qed.

Lemma inv_deep : forall h w k w', inv h w -> deep_clone I k w = Ok w' -> inv (ODeep I k :: h) w'.
Proof.
  intros h w k w' V H. destruct (deep_eq _ _ _ H) as (o & a & p & v & junk & Ho & Ea & Hp & Hv & ->).
  destruct (inv_some _ _ V k o a Ho Ea) as (Hhas & q & Hq & Eq).
  assert (E : nth_error (w_pris I w) a = Some p).
  { rewrite nth_error_app1 in Hp by (eapply nth_lt; exact Hq). exact Hp. }
  rewrite E in Hq. injection Hq as <-.
  set (n := length (w_hyps I w)) in *. set (m := length (w_pris I w)) in *.
  set (oo := mkObj (S n) (Some m)) in *.
  assert (B : forall i oi, nth_error (w_objs I w ++ [oo]) i = Some oi ->
    (i = count I h /\ (i =? count I h) = true /\ oi = oo) \/ ((i =? count I h) = false /\ nth_error (w_objs I w) i = Some oi)).
  { intros i oi Hi. rewrite nth_snoc, (inv_len _ _ V) in Hi. destruct (Nat.eqb_spec i (count I h)); [left|right; auto].
    split; [assumption|]. split; [reflexivity|congruence]. }
  assert (Hn : forall i oi, nth_error (w_objs I w) i = Some oi -> o_hyp oi < n /\ (forall b, o_pri oi = Some b -> b < m)).
  { intros i oi Hi. apply (inv_addr _ _ _ _ V Hi). }
  constructor; cbn [w_objs w_hyps w_pris count hyp_of prior_of has_prior hyp_same pri_same].
  - rewrite app_length, (inv_len _ _ V). simpl. lia.
  - intros i oi Hi. rewrite !nth_snoc, app_length. cbn [length]. fold n.
    destruct (B i oi Hi) as [(_ & -> & ->)|(-> & Hi')].
    + cbn [o_hyp oo]. rewrite Nat.add_1_r, Nat.eqb_refl, Eq. cbn [init_val]. rewrite Hv. reflexivity.
    + pose proof (proj1 (Hn i oi Hi')). rewrite (proj2 (Nat.eqb_neq (o_hyp oi) (n + 1))), (proj2 (Nat.eqb_neq (o_hyp oi) n)) by lia.
      eapply inv_hyp; eauto.
  - intros i oi Hi Hnone. destruct (B i oi Hi) as [(_ & _ & ->)|(-> & Hi')]; [discriminate|]. eapply inv_none; eauto.
  - intros i oi b Hi Hb. destruct (B i oi Hi) as [(_ & -> & ->)|(-> & Hi')].
    + injection Hb as <-. split; [reflexivity|]. exists p. split; [|exact Eq]. rewrite nth_snoc. fold m. rewrite Nat.eqb_refl. reflexivity.
    + destruct (inv_some _ _ V i oi b Hi' Hb) as (-> & q & Hq & ->). split; [reflexivity|]. exists q. split; [|reflexivity].
      rewrite nth_error_app1; [exact Hq|eapply nth_lt; exact Hq].
  - intros i j oi oj Hi Hj.
    destruct (B i oi Hi) as [(_ & -> & ->)|(-> & Hi')], (B j oj Hj) as [(_ & -> & ->)|(-> & Hj')].
    + rewrite Nat.eqb_refl. reflexivity.
    + pose proof (proj1 (Hn j oj Hj')). symmetry. apply Nat.eqb_neq. cbn [o_hyp oo]. lia.
    + pose proof (proj1 (Hn i oi Hi')). symmetry. apply Nat.eqb_neq. cbn [o_hyp oo]. lia.
    + eapply inv_hsame; eauto.
  - intros i j oi oj Hi Hj.
    destruct (B i oi Hi) as [(_ & -> & ->)|(-> & Hi')], (B j oj Hj) as [(_ & -> & ->)|(-> & Hj')].
    + cbn [o_pri oo opt_eqb]. rewrite Nat.eqb_refl. reflexivity.
    + pose proof (proj2 (Hn j oj Hj')) as L. cbn [o_pri oo opt_eqb]. destruct (o_pri oj) as [b|]; [|reflexivity].
      specialize (L b eq_refl). symmetry. apply Nat.eqb_neq. lia.
    + pose proof (proj2 (Hn i oi Hi')) as L. cbn [o_pri oo opt_eqb]. destruct (o_pri oi) as [b|]; [|reflexivity].
      specialize (L b eq_refl). symmetry. cbn [opt_eqb]. apply Nat.eqb_neq. lia.
    + eapply inv_psame; eauto.
Qed.

Lemma opt_eqb_refl : forall a, opt_eqb a a = true.
Proof. intros [a|]; [apply Nat.eqb_refl|reflexivity]. Qed.

Lemma inv_prior : forall h w k p w', inv h w -> set_prior_msg I k p w = Ok w' -> inv (OPrior I k p :: h) w'.
Proof.
  intros h w k p w' V H. unfold set_prior_msg in H. apply rb in H. destruct H as (o & Ho & H). apply at_ok in Ho.
  destruct (o_pri o) as [a|] eqn:Ea.
  - unfold set_pri in H. apply rb in H. destruct H as (ps & Hps & E). injection E as <-. apply set_ok in Hps.
    destruct Hps as (Hl & ->). destruct (inv_some _ _ V k o a Ho Ea) as (Hhas & q & Hq & Eq).
    constructor; cbn [w_objs w_hyps w_pris count hyp_of prior_of has_prior hyp_same pri_same]; rewrite ?Hhas.
    + apply inv_len, V.
    + apply (inv_hyp _ _ V).
    + intros i oi Hi Hnone. assert (Ne : i <> k) by (intros ->; congruence).
      rewrite (proj2 (Nat.eqb_neq i k) Ne). cbn [orb andb]. rewrite (inv_psame _ _ V i k oi o Hi Ho), Hnone, Ea. cbn [opt_eqb].
      eapply inv_none; eauto.
    + intros i oi b Hi Hb. destruct (inv_some _ _ V i oi b Hi Hb) as (Hh & q' & Hq' & Eq').
      rewrite Hh, orb_true_r. split; [reflexivity|]. rewrite nth_upd by exact Hl.
      cbn [andb]. rewrite (inv_psame _ _ V i k oi o Hi Ho), Hb, Ea. cbn [opt_eqb].
      destruct (Nat.eqb_spec i k) as [->|Ne].
      * rewrite Ho in Hi. injection Hi as <-. rewrite Ea in Hb. injection Hb as <-. rewrite Nat.eqb_refl. exists p. auto.
      * cbn [orb]. destruct (b =? a); [exists p|exists q']; auto.
    + apply (inv_hsame _ _ V).
    + apply (inv_psame _ _ V).
  - cbn [new_pri] in H. unfold set_obj, set_pri in H. cbn [w_objs w_hyps w_pris] in H.
    apply rb in H. destruct H as (w2 & H2 & H). apply rb in H2. destruct H2 as (os & Hos & E). injection E as <-.
    apply set_ok in Hos. destruct Hos as (Hk & ->). cbn [w_objs w_hyps w_pris] in H.
    apply rb in H. destruct H as (ps & Hps & E). injection E as <-. apply set_ok in Hps. destruct Hps as (_ & ->).
    rewrite upd_last. destruct (inv_none _ _ V k o Ho Ea) as (Np & Hhas).
    set (m := length (w_pris I w)) in *. set (oo := mkObj (o_hyp o) (Some m)) in *.
    assert (B : forall i oi, nth_error (upd (w_objs I w) k oo) i = Some oi ->
      (i = k /\ oi = oo) \/ (i <> k /\ nth_error (w_objs I w) i = Some oi)).
    { intros i oi Hi. rewrite nth_upd in Hi by exact Hk. destruct (Nat.eqb_spec i k); [left; split; [assumption|congruence]|right; auto]. }
    assert (G : forall i oi, nth_error (upd (w_objs I w) k oo) i = Some oi ->
      exists o2, nth_error (w_objs I w) i = Some o2 /\ o_hyp o2 = o_hyp oi).
    { intros i oi Hi. destruct (B i oi Hi) as [(-> & ->)|(Hne & Hi')]; [exists o; auto|exists oi; auto]. }
    assert (Hm : forall i oi b, nth_error (w_objs I w) i = Some oi -> o_pri oi = Some b -> b < m).
    { intros i oi b Hi. apply (inv_addr _ _ _ _ V Hi). }
    constructor; cbn [w_objs w_hyps w_pris count hyp_of prior_of has_prior hyp_same pri_same]; rewrite ?Hhas; cbn [andb].
    + rewrite upd_length. apply inv_len, V.
    + intros i oi Hi. destruct (G i oi Hi) as (o2 & H2 & <-). eapply inv_hyp; eauto.
    + intros i oi Hi Hnone. destruct (B i oi Hi) as [(-> & ->)|(Hne & Hi')]; [discriminate|].
      rewrite (proj2 (Nat.eqb_neq i k) Hne). cbn [orb]. eapply inv_none; eauto.
    + intros i oi b Hi Hb. destruct (B i oi Hi) as [(-> & ->)|(Hne & Hi')].
      * injection Hb as <-. rewrite Nat.eqb_refl. cbn [orb]. split; [reflexivity|]. exists p. split; [|reflexivity].
        rewrite nth_snoc. fold m. rewrite Nat.eqb_refl. reflexivity.
      * rewrite (proj2 (Nat.eqb_neq i k) Hne). cbn [orb]. destruct (inv_some _ _ V i oi b Hi' Hb) as (-> & q & Hq & ->).
        split; [reflexivity|]. exists q. split; [|reflexivity]. rewrite nth_error_app1; [exact Hq|eapply nth_lt; exact Hq].
    + intros i j oi oj Hi Hj. destruct (G i oi Hi) as (o1 & H1 & <-). destruct (G j oj Hj) as (o2 & H2 & <-).
      eapply inv_hsame; eauto.
    + intros i j oi oj Hi Hj. destruct (B i oi Hi) as [(-> & ->)|(Hne & Hi')], (B j oj Hj) as [(-> & ->)|(Hne' & Hj')].
      * rewrite Nat.eqb_refl, opt_eqb_refl. reflexivity.
      * rewrite Nat.eqb_refl, (proj2 (Nat.eqb_neq k j)) by congruence. cbn [negb andb orb o_pri oo opt_eqb].
        destruct (o_pri oj) as [b|] eqn:Eb; [|reflexivity]. pose proof (Hm j oj b Hj' Eb). symmetry. apply Nat.eqb_neq. lia.
      * rewrite Nat.eqb_refl, (proj2 (Nat.eqb_neq i k)) by congruence. cbn [negb andb orb o_pri oo opt_eqb].
        destruct (o_pri oi) as [b|] eqn:Eb; [|reflexivity]. pose proof (Hm i oi b Hi' Eb). cbn [opt_eqb]. symmetry. apply Nat.eqb_neq. lia.
      * rewrite (proj2 (Nat.eqb_neq i k)), (proj2 (Nat.eqb_neq j k)) by assumption. cbn [negb andb].
        rewrite (inv_psame _ _ V i j oi oj Hi' Hj'). destruct (Nat.eqb_spec i j) as [->|]; [|reflexivity].
        rewrite Hi' in Hj'. injection Hj' as ->. rewrite opt_eqb_refl. reflexivity.
Qed.

Lemma inv_step : forall h w o w', inv h w -> step I w o = Ok w' -> inv (o :: h) w'.
Proof.
  intros h w [k|k|k|k m|k d|k p] w' V H; cbn [step] in H;
    eauto using inv_clone, inv_deep, inv_init, inv_load, inv_upd, inv_prior.
Qed.

Lemma inv_run_from : forall ops h w w', inv h w -> run I ops w = Ok w' -> inv (rev ops ++ h) w'.
Proof.
  unfold run. induction ops as [|o ops IH]; intros h w w' V H; cbn [rfold] in H.
  - injection H as <-. exact V.
  - apply rb in H. destruct H as (w1 & H1 & H). cbn [rev]. rewrite <- app_assoc. apply (IH _ w1); [|exact H].
    eapply inv_step; eauto.
Qed.
Lemma inv_run : forall ops w, run I ops (fresh I) = Ok w -> inv (rev ops) w.
Proof. intros ops w H. rewrite <- (app_nil_r (rev ops)). eapply inv_run_from; [apply inv_fresh|exact H]. Qed.

(** ** What the operations read *)
Lemma inv_reads : forall h w i, inv h w -> i < count I h ->
  get_hypers I w i = Ok (hyp_of I h i) /\ get_prior I w i = Ok (prior_of I h i).
Proof.
  intros h w i V Hi. rewrite <- (inv_len _ _ V) in Hi. apply nth_error_Some in Hi.
  destruct (nth_error (w_objs I w) i) as [o|] eqn:E; [|congruence].
  unfold get_hypers, get_prior. rewrite (proj2 (at_ok _ _ _ _) E). cbn [rbind]. split.
  - apply at_ok. eapply inv_hyp; eauto.
  - destruct (o_pri o) as [a|] eqn:Ea.
    + destruct (inv_some _ _ V i o a E Ea) as (_ & p & Hp & ->). rewrite (proj2 (at_ok _ _ _ _) Hp). reflexivity.
    + destruct (inv_none _ _ V i o E Ea) as (-> & _). reflexivity.
Qed.

Lemma run_reads : forall ops w i, run I ops (fresh I) = Ok w ->
  (length (w_objs I w) = count I (rev ops)) /\
  (i < count I (rev ops) -> get_hypers I w i = Ok (hyp_of I (rev ops) i) /\ get_prior I w i = Ok (prior_of I (rev ops) i)).
Proof.
  intros ops w i H. pose proof (inv_run _ _ H) as V. split; [apply inv_len, V|]. intros Hi. apply inv_reads; assumption.
Qed.


(** The object an operation is called on. *)
Definition target (o : op I) : nat :=
  match o with OClone _ k | ODeep _ k | OInit _ k | OLoad _ k _ | OUpd _ k _ | OPrior _ k _ => k end.

(** *** Clones go on reading the same hyperparameters *)
Definition inits (o : op I) (k : nat) : bool := match o with OInit _ j => j =? k | _ => false end.

Lemma count_app : forall a b, count I b <= count I (a ++ b).
Proof. induction a as [|[k|k|k|k m|k d|k p] a IH]; intros b; cbn [app count]; try specialize (IH b); lia. Qed.
Lemma count_pos : forall h, 1 <= count I h.
Proof. induction h as [|[k|k|k|k m|k d|k p] h IH]; cbn [count]; lia. Qed.

Lemma same_kept : forall post base i j, i < count I base -> j < count I base ->
  hyp_same I base i j = true -> forallb (fun o => negb (inits o i) && negb (inits o j)) post = true ->
  hyp_same I (post ++ base) i j = true.
Proof.
  induction post as [|o post IH]; intros base i j Hi Hj H A; [exact H|]. cbn [forallb] in A.
  apply andb_true_iff in A. destruct A as (Ao & A). specialize (IH base i j Hi Hj H A).
  pose proof (count_app post base) as C.
  destruct o as [k|k|k|k m|k d|k p]; cbn [app hyp_same]; try exact IH.
  - unfold back. rewrite (proj2 (Nat.eqb_neq i (count I (post ++ base)))), (proj2 (Nat.eqb_neq j (count I (post ++ base)))) by lia. exact IH.
  - rewrite (proj2 (Nat.eqb_neq i (count I (post ++ base)))), (proj2 (Nat.eqb_neq j (count I (post ++ base)))) by lia. exact IH.
  - cbn [inits] in Ao. rewrite (Nat.eqb_sym i k), (Nat.eqb_sym j k), IH, Ao. apply orb_true_r.
Qed.

Lemma same_refl : forall h i, hyp_same I h i i = true.
Proof.
  induction h as [|[k|k|k|k m|k d|k p] h IH]; intros i; cbn [hyp_same]; auto.
  - destruct (i =? count I h); auto.
  - rewrite Nat.eqb_refl. reflexivity.
Qed.

Lemma same_reads : forall h w i j, inv h w -> i < count I h -> j < count I h -> hyp_same I h i j = true ->
  get_hypers I w i = get_hypers I w j.
Proof.
  intros h w i j V Hi Hj H. rewrite <- (inv_len _ _ V) in Hi, Hj. apply nth_error_Some in Hi, Hj.
  destruct (nth_error (w_objs I w) i) as [oi|] eqn:Ei; [|congruence].
  destruct (nth_error (w_objs I w) j) as [oj|] eqn:Ej; [|congruence].
  rewrite (inv_hsame _ _ V i j oi oj Ei Ej) in H. apply Nat.eqb_eq in H.
  unfold get_hypers. rewrite (proj2 (at_ok _ _ _ _) Ei), (proj2 (at_ok _ _ _ _) Ej). cbn [rbind]. rewrite H. reflexivity.
Qed.

Lemma run_app : forall a b w, run I (a ++ b) w = (w1 <- run I a w ;; run I b w1).
Proof. intros. apply rfold_app. Qed.

Lemma step_range : forall h w o w', inv h w -> step I w o = Ok w' -> target o < count I h.
Proof.
  intros h w o w' V H. rewrite <- (inv_len _ _ V).
  destruct o as [k|k|k|k m|k d|k p]; cbn [step target] in *;
    unfold clone, deep_clone, initialize, load_hypers, update_hypers, set_prior_msg in H;
    apply rb in H; destruct H as (o & Ho & _); apply at_ok in Ho; exact (nth_lt _ _ _ _ Ho).
Qed.

Lemma clone_shares : forall pre k post w,
  run I (pre ++ OClone I k :: post) (fresh I) = Ok w ->
  forallb (fun o => negb (inits o k) && negb (inits o (count I (rev pre)))) post = true ->
  exists h, get_hypers I w k = Ok h /\ get_hypers I w (count I (rev pre)) = Ok h.
Proof.
  intros pre k post w H A. pose proof (inv_run _ _ H) as V.
  rewrite run_app in H. apply rb in H. destruct H as (w1 & H1 & H). cbn [run rfold] in H. unfold run in H. cbn [rfold] in H.
  apply rb in H. destruct H as (w2 & H2 & H). pose proof (step_range _ _ _ _ (inv_run _ _ H1) H2) as Hk. cbn [target] in Hk.
  set (n := count I (rev pre)) in *.
  assert (E : rev (pre ++ OClone I k :: post) = rev post ++ OClone I k :: rev pre).
  { rewrite rev_app_distr. cbn [rev]. rewrite <- app_assoc. reflexivity. }
  rewrite E in V. assert (S : hyp_same I (rev post ++ OClone I k :: rev pre) k n = true).
  { apply same_kept.
    - cbn [count]. fold n. lia.
    - cbn [count]. fold n. lia.
    - cbn [hyp_same]. unfold back. fold n. rewrite Nat.eqb_refl, (proj2 (Nat.eqb_neq k n)) by lia. apply same_refl.
    - rewrite forallb_forall in *. intros x Hx. apply A, in_rev, Hx. }
  pose proof (count_app (rev post) (OClone I k :: rev pre)) as C. cbn [count] in C. fold n in C.
  destruct (inv_reads _ _ k V ltac:(lia)) as (Rk & _).
  eexists. split; [exact Rk|]. rewrite <- (same_reads _ _ k n V ltac:(lia) ltac:(lia) S). exact Rk.
Qed.

(** *** Evaluating stored states *)
Lemma eval_read : forall ms h w, inv h w ->
  exists w', run I (eval_ops I (count I h) ms) w = Ok w' /\
    length (w_objs I w') = count I h + length ms /\
    forall i, i < count I h ->
      get_hypers I w' i = if hyp_same I h i 0 then Ok (fold_left (fun x m => h_load I m x) ms (hyp_of I h 0))
                          else get_hypers I w i.
Proof.
  induction ms as [|m ms IH]; intros h w V.
  - exists w. split; [reflexivity|]. split; [rewrite (inv_len _ _ V); cbn [length]; lia|]. intros i Hi. cbn [fold_left].
    destruct (hyp_same I h i 0) eqn:E; [|reflexivity].
    pose proof (count_pos h). rewrite (same_reads _ _ i 0 V Hi ltac:(lia) E). apply inv_reads; [exact V|lia].
  - cbn [eval_ops]. pose proof (count_pos h) as P.
    assert (H1 : exists w1, step I w (OClone I 0) = Ok w1).
    { cbn [step]. unfold clone. destruct (@Base.at_ok _ (w_objs I w) 0) as (o & Eo & _); [rewrite (inv_len _ _ V); lia|]. rewrite Eo. cbn [rbind]. eauto. }
    destruct H1 as (w1 & H1). pose proof (inv_step _ _ _ _ V H1) as V1.
    assert (H2 : exists w2, step I w1 (OLoad I (count I h) m) = Ok w2).
    { cbn [step]. unfold load_hypers. destruct (@Base.at_ok _ (w_objs I w1) (count I h)) as (o & Eo & Ho).
      { rewrite (inv_len _ _ V1). cbn [count]. lia. }
      rewrite Eo. cbn [rbind]. pose proof (inv_hyp _ _ V1 _ _ Ho) as Hh. rewrite (proj2 (at_ok _ _ _ _) Hh). cbn [rbind].
      unfold set_hyp. rewrite set_at_ok by (eapply nth_lt; exact Hh). cbn [rbind]. eauto. }
    destruct H2 as (w2 & H2). pose proof (inv_step _ _ _ _ V1 H2) as V2.
    destruct (IH _ _ V2) as (w' & R & L & A). cbn [count] in R, L, A.
    exists w'. split.
    { unfold run in *. cbn [rfold]. rewrite H1. cbn [rbind]. rewrite H2. cbn [rbind]. exact R. }
    split; [rewrite L; cbn [length]; lia|].
    intros i Hi. rewrite A by lia. cbn [hyp_same hyp_of fold_left]. unfold back.
    rewrite Nat.eqb_refl, (proj2 (Nat.eqb_neq i (count I h))), (proj2 (Nat.eqb_neq 0 (count I h))) by lia.
    rewrite same_refl. destruct (hyp_same I h i 0) eqn:E; [reflexivity|].
    assert (R2 : get_hypers I w2 i = Ok (hyp_of I (OLoad I (count I h) m :: OClone I 0 :: h) i)).
    { apply inv_reads; [exact V2|]. cbn [count]. lia. }
    rewrite R2. cbn [hyp_of hyp_same]. unfold back. rewrite Nat.eqb_refl, (proj2 (Nat.eqb_neq i (count I h))) by lia.
    rewrite E. symmetry. apply inv_reads; [exact V|exact Hi].
Qed.

Lemma eval_overwrites : forall ops w ms, run I ops (fresh I) = Ok w ->
  exists w' h0, run I (eval_ops I (length (w_objs I w)) ms) w = Ok w' /\ get_hypers I w 0 = Ok h0 /\
    length (w_objs I w') = length (w_objs I w) + length ms /\
    forall i, i < length (w_objs I w) ->
      get_hypers I w' i = if hyp_same I (rev ops) i 0 then Ok (fold_left (fun x m => h_load I m x) ms h0)
                          else get_hypers I w i.
Proof.
  intros ops w ms H. pose proof (inv_run _ _ H) as V. destruct (eval_read ms _ _ V) as (w' & R & L & A).
  rewrite (inv_len _ _ V). exists w', (hyp_of I (rev ops) 0). split; [exact R|].
  split; [apply inv_reads; [exact V|pose proof (count_pos (rev ops)); lia]|]. split; assumption.
Qed.

(** All clusters of a sampler are clones of one initialised hierarchy. *)
Definition plain (o : op I) : bool := match o with ODeep _ _ | OInit _ _ => false | _ => true end.

Lemma plain_run : forall post h w w', forallb plain post = true -> inv h w -> run I post w = Ok w' ->
  (forall i j, i < count I h -> j < count I h -> hyp_same I h i j = true) ->
  forall i j, i < length (w_objs I w') -> j < length (w_objs I w') -> get_hypers I w' i = get_hypers I w' j.
Proof.
  induction post as [|o post IH]; intros h w w' P V R A i j Hi Hj.
  - injection R as <-. rewrite (inv_len _ _ V) in Hi, Hj. eapply same_reads; eauto.
  - cbn [forallb] in P. apply andb_true_iff in P. destruct P as (Po & P).
    unfold run in R. cbn [rfold] in R. apply rb in R. destruct R as (w1 & H1 & R).
    pose proof (step_range _ _ _ _ V H1) as T.
    apply (IH _ _ _ P (inv_step _ _ _ _ V H1) R); try assumption.
    intros x y Hx Hy. destruct o as [k|k|k|k m|k d|k p]; try discriminate; cbn [count hyp_same target] in *; auto.
    apply A; unfold back; destruct (_ =? _) eqn:E; try exact T; apply Nat.eqb_neq in E; lia.
Qed.

Lemma sampler_shares : forall p post w, forallb plain post = true ->
  run I (OPrior I 0 p :: OInit I 0 :: post) (fresh I) = Ok w ->
  forall i j, i < length (w_objs I w) -> j < length (w_objs I w) -> get_hypers I w i = get_hypers I w j.
Proof.
  intros p post w P R. change (OPrior I 0 p :: OInit I 0 :: post) with ([OPrior I 0 p; OInit I 0] ++ post) in R.
  rewrite run_app in R. apply rb in R. destruct R as (w1 & R1 & R).
  apply (plain_run post _ _ _ P (inv_run _ _ R1) R). intros i j Hi Hj. cbn [rev app count] in *.
  assert (i = 0) by lia. assert (j = 0) by lia. subst. reflexivity.
Qed.

(** *** Deep clones are independent *)
(** Which object of [base] an object was cloned from. *)
Fixpoint origin (base post : list (op I)) (i : nat) : nat :=
  match post with
  | [] => i
  | OClone _ k :: post' | ODeep _ k :: post' =>
      if i =? count I (post' ++ base) then origin base post' k else origin base post' i
  | _ :: post' => origin base post' i
  end.

Lemma origin_old : forall base post i, i < count I base -> origin base post i = i.
Proof.
  intros base post i Hi. induction post as [|o post IH]; [reflexivity|].
  pose proof (count_app post base). destruct o as [k|k|k|k m|k d|k p]; cbn [origin]; try exact IH;
    rewrite (proj2 (Nat.eqb_neq i (count I (post ++ base)))) by lia; exact IH.
Qed.

Lemma family : forall k pre post i j (n := count I pre) (base := ODeep I k :: pre),
  (hyp_same I (post ++ base) i j = true -> (origin base post i =? n) = (origin base post j =? n)) /\
  (pri_same I (post ++ base) i j = true -> (origin base post i =? n) = (origin base post j =? n)).
Proof.
  intros k pre post i j n base. revert i j. induction post as [|o post IH]; intros i j.
  - cbn [app hyp_same pri_same origin]. unfold base. cbn [hyp_same pri_same]. fold n. 
    destruct (i =? n), (j =? n); split; intros H; congruence.
  - destruct o as [l|l|l|l m|l d|l p]; cbn [app hyp_same pri_same origin]; try exact (IH i j).
    + assert (B : forall x, origin base post (back I (post ++ base) l x) =
        (if x =? count I (post ++ base) then origin base post l else origin base post x)).
      { intros x. unfold back. destruct (x =? count I (post ++ base)); reflexivity. }
      rewrite <- (B i), <- (B j). apply IH.
    + destruct (i =? count I (post ++ base)) eqn:Ei; [|destruct (j =? count I (post ++ base)) eqn:Ej].
      * split; intros ->; reflexivity.
      * split; discriminate.
      * apply IH.
    + split; [|apply IH]. intros H. apply orb_true_iff in H. destruct H as [H|H].
      * apply Nat.eqb_eq in H. rewrite H. reflexivity.
      * apply andb_true_iff in H. apply (proj1 (IH i j)), H.
    + split; [apply IH|]. intros H. destruct (has_prior I (post ++ base) l); [apply IH, H|].
      apply orb_true_iff in H. destruct H as [H|H].
      * apply Nat.eqb_eq in H. rewrite H. reflexivity.
      * apply andb_true_iff in H. apply (proj2 (IH i j)), H.
Qed.

Lemma deep_split : forall k pre post (n := count I pre) (base := ODeep I k :: pre) i,
  i <= n ->
  (forall a o b, post = a ++ o :: b -> (origin base b (target o) =? n) = negb (i =? n)) ->
  hyp_of I (post ++ base) i = hyp_of I base i /\ prior_of I (post ++ base) i = prior_of I base i.
Proof.
  intros k pre post n base i Hi. induction post as [|o post IH]; intros T; [split; reflexivity|].
  assert (Hb : i < count I base) by (unfold base; cbn [count]; fold n; lia).
  pose proof (count_app post base) as C.
  destruct IH as (IH1 & IH2).
  { intros a o' b E. apply (T (o :: a) o' b). rewrite E. reflexivity. }
  specialize (T [] o post eq_refl).
  assert (F : forall j, hyp_same I (post ++ base) i j = true \/ pri_same I (post ++ base) i j = true \/ i = j ->
    (i =? n) = (origin base post j =? n)).
  { intros j H. rewrite <- (origin_old base post i Hb) at 1. destruct H as [H|[H|<-]]; [| |reflexivity].
    - apply (proj1 (family k pre post i j)), H.
    - apply (proj2 (family k pre post i j)), H. }
  assert (X : forall (b : bool), b = negb b -> False) by (intros []; discriminate).
  destruct o as [l|l|l|l m|l d|l p]; cbn [app hyp_of prior_of target] in *.
  - unfold back. rewrite (proj2 (Nat.eqb_neq i (count I (post ++ base)))) by lia. auto.
  - rewrite (proj2 (Nat.eqb_neq i (count I (post ++ base)))) by lia. auto.
  - split; [|exact IH2]. destruct (Nat.eqb_spec i l) as [E|]; [|exact IH1].
    exfalso. apply (X (i =? n)). rewrite <- T. apply F. auto.
  - split; [|exact IH2]. destruct (hyp_same I (post ++ base) i l) eqn:E; [|exact IH1].
    exfalso. apply (X (i =? n)). rewrite <- T. apply F. auto.
  - split; [|exact IH2]. destruct (hyp_same I (post ++ base) i l) eqn:E; [|exact IH1].
    exfalso. apply (X (i =? n)). rewrite <- T. apply F. auto.
  - split; [exact IH1|]. destruct ((i =? l) || has_prior I (post ++ base) l && pri_same I (post ++ base) i l) eqn:E; [|exact IH2].
    exfalso. apply (X (i =? n)). rewrite <- T. apply F. apply orb_true_iff in E.
    destruct E as [E|E]; [apply Nat.eqb_eq in E; auto|apply andb_true_iff in E; tauto].
Qed.

(** Operations on a deep clone and its own clones never show in the others, and
    operations on the others never show in the deep clone. *)
Lemma deep_independent : forall pre k post w1 w (n := count I (rev pre)) (base := ODeep I k :: rev pre) i,
  run I (pre ++ [ODeep I k]) (fresh I) = Ok w1 -> run I post w1 = Ok w -> i <= n ->
  (forall a o b, post = a ++ o :: b -> (origin base (rev a) (target o) = n) <-> (i <> n)) ->
  get_hypers I w i = get_hypers I w1 i /\ get_prior I w i = get_prior I w1 i.
Proof.
  intros pre k post w1 w n base i H1 H Hi T.
  pose proof (inv_run _ _ H1) as V1. pose proof (inv_run_from _ _ _ _ V1 H) as V.
  rewrite rev_app_distr in V, V1. cbn [rev app] in V, V1. fold base in V, V1.
  assert (Hb : i < count I base) by (unfold base; cbn [count]; fold n; lia).
  pose proof (count_app (rev post) base).
  destruct (inv_reads _ _ i V ltac:(lia)) as (-> & ->). destruct (inv_reads _ _ i V1 Hb) as (-> & ->).
  cut (hyp_of I (rev post ++ base) i = hyp_of I base i /\ prior_of I (rev post ++ base) i = prior_of I base i).
  { intros (-> & ->). split; reflexivity. }
  apply (deep_split k (rev pre) (rev post) i Hi).
  intros a o b E. change (ODeep I k :: rev pre) with base. change (count I (rev pre)) with n. specialize (T (rev b) o (rev a)). rewrite rev_involutive in T.
  assert (E' : post = rev b ++ o :: rev a).
  { rewrite <- (rev_involutive post), E, rev_app_distr. cbn [rev]. rewrite <- app_assoc. reflexivity. }
  specialize (T E'). destruct (Nat.eqb_spec i n), (Nat.eqb_spec (origin base b (target o)) n); cbn [negb]; try reflexivity; tauto.
Qed.

(** *** What a deep clone holds, and when the calls fail *)
Lemma deep_value : forall ops w k w' p, run I ops (fresh I) = Ok w -> step I w (ODeep I k) = Ok w' ->
  get_prior I w k = Ok (Some p) ->
  exists v, h_init I p (h_new I) = Ok v /\
    get_hypers I w' (length (w_objs I w)) = Ok v /\ get_prior I w' (length (w_objs I w)) = Ok (Some p).
Proof.
  intros ops w k w' p H S G. pose proof (inv_run _ _ H) as V. pose proof (inv_step _ _ _ _ V S) as V'.
  pose proof (step_range _ _ _ _ V S) as T. cbn [target] in T.
  destruct (inv_reads _ _ k V T) as (_ & G'). rewrite G in G'. injection G' as G'.
  cbn [step] in S. destruct (deep_eq _ _ _ S) as (o & a & q & v & junk & Ho & Ea & Hq & Hv & _).
  destruct (inv_some _ _ V k o a Ho Ea) as (_ & p2 & Hp2 & Ep2). rewrite <- G' in Ep2. injection Ep2 as <-.
  rewrite nth_error_app1 in Hq by (eapply nth_lt; exact Hp2). rewrite Hp2 in Hq. injection Hq as <-.
  exists v. split; [exact Hv|]. rewrite (inv_len _ _ V).
  destruct (inv_reads _ _ (count I (rev ops)) V') as (-> & ->); [cbn [count]; lia|].
  cbn [hyp_of prior_of]. rewrite Nat.eqb_refl, <- G'. cbn [init_val]. rewrite Hv. split; reflexivity.
Qed.

Lemma no_prior : forall ops w k, run I ops (fresh I) = Ok w -> get_prior I w k = Ok None ->
  step I w (ODeep I k) = UB /\ step I w (OInit I k) = Throw "Hierarchy prior was not provided"%string.
Proof.
  intros ops w k _ G. unfold get_prior in G. apply rb in G. destruct G as (o & Ho & G).
  destruct (o_pri o) as [a|] eqn:Ea; [apply rb in G; destruct G as (p & _ & G); discriminate|].
  cbn [step]. unfold deep_clone, initialize, do_init. rewrite Ho. cbn [rbind new_pri]. rewrite Ea. split; reflexivity.
Qed.
End Proof.
