(** * Posterior mass of a clustering with one group cut in two. *)
From Coq Require Import Bool List Arith ZArith Reals Lra Lia Permutation.
From Verif Require Import Base PartSpec MixFacts GibbsSpec GibbsComb GibbsPost.
Import ListNotations.
Local Open Scope R_scope.
Arguments prodR l : simpl never.
Arguments sumR l : simpl never.

(** Factor of a group of [m] observations in the Ewens-Pitman formula. *)
Definition block (d : R) (m : nat) : R := rising (1 - d) (m - 1).

Lemma block_pos : forall d m, d < 1 -> 0 < block d m.
Proof. intros d m H. apply rising_pos. lra. Qed.
Lemma block_S : forall d m, (1 <= m)%nat -> block d (S m) = block d m * (INR m - d).
Proof.
  intros d m H. unfold block. replace (S m - 1)%nat with (S (m - 1)) by lia. rewrite rising_S. f_equal.
  rewrite minus_INR by exact H. simpl. lra.
Qed.
Lemma block_1 : forall d, block d 1 = 1.
Proof. intros d. unfold block, rising, prodR. reflexivity. Qed.
Lemma block_0 : forall d, block d 0 = 1.
Proof. intros d. unfold block, rising, prodR. reflexivity. Qed.

Lemma ep_split : forall t d a b rs, d < 1 -> (1 <= a)%nat -> (1 <= b)%nat ->
  ewens_pitman t d (a :: b :: rs) * block d (a + b) =
  ewens_pitman t d ((a + b) :: rs)%nat * (t + d * INR (S (length rs))) * block d a * block d b.
Proof.
  intros t d a b rs Hd Ha Hb. unfold ewens_pitman. cbn [length map].
  replace (S (S (length rs)) - 1)%nat with (S (length rs)) by lia. replace (S (length rs) - 1)%nat with (length rs) by lia.
  rewrite seq_S, map_app, prodR_app. cbn [map]. rewrite !prodR_cons. change (prodR []) with 1.
  replace (list_sum (a :: b :: rs)) with (list_sum ((a + b) :: rs)%nat) by (simpl; lia).
  fold (block d a). fold (block d b). fold (block d (a + b)).
  replace (INR (1 + length rs)) with (INR (S (length rs))) by reflexivity.
  unfold Rdiv. ring.
Qed.

(** [al2] gives the new label [K] to [ids0] and keeps the other labels. *)
Definition moved (al al2 ids0 : list nat) (K : nat) : Prop :=
  forall j, nth_error al2 j = if in_dec Nat.eq_dec j ids0 then Some K else nth_error al j.

Section Split.
  Variables (M : list nat -> R) (t d : R).
  Hypothesis Hd : 0 <= d < 1.
  Hypothesis M_perm : forall ids ids', Permutation ids ids' -> M ids = M ids'.

  Theorem posterior_split : forall al al2 c K ids0 ids1, moved al al2 ids0 K -> ~ In K al ->
    NoDup (ids1 ++ ids0) -> ids0 <> [] -> ids1 <> [] ->
    (forall j, In j (ids1 ++ ids0) <-> nth_error al j = Some c) ->
    posterior (fun l => ewens_pitman t d (sizes_of l)) M al2 * block d (length ids0 + length ids1) * M (ids1 ++ ids0) =
    posterior (fun l => ewens_pitman t d (sizes_of l)) M al * (t + d * INR (length (distinct al))) * block d (length ids0) * block d (length ids1) * M ids0 * M ids1.
  Proof.
    intros al al2 c K ids0 ids1 Mv HK ND N0 N1 HC.
    assert (Hc : In c al). { destruct ids0 as [|j l]; [congruence|]. assert (E : nth_error al j = Some c) by (apply HC, in_or_app; right; left; reflexivity). eapply nth_error_In; exact E. }
    assert (cK : c <> K) by (intros ->; tauto).
    assert (ND' : NoDup ids0 /\ NoDup ids1 /\ forall j, In j ids0 -> In j ids1 -> False).
    { clear - ND. induction ids1 as [|x l IH]; cbn [app] in *; [repeat split; auto; constructor|]. inversion ND as [|? ? A B]; subst.
      destruct (IH B) as (C1 & C2 & C3). split; [exact C1|]. split; [constructor; [intros H; apply A, in_or_app; auto|exact C2]|].
      intros j H0 [->|H1]; [apply A, in_or_app; auto|eauto]. }
    destruct ND' as (D0 & D1 & Dis).
    assert (P0 : Permutation (members K al2) ids0).
    { apply NoDup_Permutation; [apply members_nodup|exact D0|]. intros j. rewrite members_in, Mv. destruct (in_dec Nat.eq_dec j ids0) as [H|H]; [tauto|].
      split; [|tauto]. intros E. exfalso. apply HK. eapply nth_error_In; exact E. }
    assert (P1 : Permutation (members c al2) ids1).
    { apply NoDup_Permutation; [apply members_nodup|exact D1|]. intros j. rewrite members_in, Mv. destruct (in_dec Nat.eq_dec j ids0) as [H|H].
      - split; [congruence|]. intros X. exfalso. eauto.
      - rewrite <- HC. rewrite in_app_iff. tauto. }
    assert (P : Permutation (members c al) (ids1 ++ ids0)).
    { apply NoDup_Permutation; [apply members_nodup|exact ND|]. intros j. rewrite members_in. symmetry. apply HC. }
    assert (PO : forall x, x <> c -> x <> K -> Permutation (members x al2) (members x al)).
    { intros x Nc NK. apply NoDup_Permutation; try apply members_nodup. intros j. rewrite !members_in, Mv. destruct (in_dec Nat.eq_dec j ids0) as [H|H]; [|tauto].
      assert (E : nth_error al j = Some c) by (apply HC, in_or_app; auto). split; congruence. }
    assert (L2 : forall x, In x al2 <-> x = K \/ In x al).
    { intros x. split.
      - intros H. apply In_nth_error in H. destruct H as [j Hj]. rewrite Mv in Hj. destruct (in_dec Nat.eq_dec j ids0); [left; congruence|right; eapply nth_error_In; exact Hj].
      - intros [->|H].
        + destruct ids0 as [|j l] eqn:E; [congruence|]. apply nth_error_In with j. rewrite Mv. destruct (in_dec Nat.eq_dec j (j :: l)) as [_|F]; [reflexivity|]. exfalso. apply F. left. reflexivity.
        + destruct (Nat.eq_dec x c) as [->|Nx].
          * destruct ids1 as [|j l]; [congruence|]. apply nth_error_In with j. rewrite Mv.
            destruct (in_dec Nat.eq_dec j ids0) as [F|_]; [exfalso; apply (Dis j F); left; reflexivity|]. apply HC. left. reflexivity.
          * apply In_nth_error in H. destruct H as [j Hj]. apply nth_error_In with j. rewrite Mv. destruct (in_dec Nat.eq_dec j ids0) as [F|_]; [|exact Hj].
            exfalso. assert (E : nth_error al j = Some c) by (apply HC, in_or_app; auto). congruence. }
    set (rest := remove Nat.eq_dec c (distinct al)).
    assert (Dal : Permutation (distinct al) (c :: rest)).
    { apply NoDup_Permutation; [apply distinct_nodup| |].
      - constructor; [apply remove_In|]. unfold rest. clear. pose proof (distinct_nodup al) as N. induction N as [|x l H N IH]; [constructor|]. cbn [remove].
        destruct (Nat.eq_dec c x); [exact IH|]. constructor; [|exact IH]. intros F. apply H. apply in_remove in F. tauto.
      - intros x. rewrite distinct_in. cbn [In]. split.
        + intros H. destruct (Nat.eq_dec c x) as [->|Nx]; [left; reflexivity|right]. apply in_in_remove; [congruence|]. apply distinct_in. exact H.
        + intros [<-|H]; [exact Hc|]. apply in_remove in H. apply distinct_in. tauto. }
    assert (Hrest : forall x, In x rest -> x <> c /\ x <> K).
    { intros x H. apply in_remove in H. destruct H as [H Nx]. split; [exact Nx|]. intros ->. apply HK. apply distinct_in. exact H. }
    assert (Dal2 : Permutation (distinct al2) (K :: c :: rest)).
    { transitivity (K :: distinct al); [|constructor; exact Dal]. apply NoDup_Permutation; [apply distinct_nodup| |].
      - constructor; [rewrite distinct_in; exact HK|apply distinct_nodup].
      - intros x. rewrite distinct_in, L2. cbn [In]. rewrite distinct_in. split; intros [H|H]; auto. }
    set (rs := map (fun x => length (members x al)) rest).
    assert (Sal : Permutation (sizes_of al) ((length ids0 + length ids1) :: rs)%nat).
    { unfold sizes_of. rewrite (map_ext _ (fun x => length (members x al))) by (intros; apply count_members).
      rewrite (Permutation_map (fun x => length (members x al)) Dal). cbn [map]. rewrite (Permutation_length P), app_length, Nat.add_comm. reflexivity. }
    assert (Sal2 : Permutation (sizes_of al2) (length ids0 :: length ids1 :: rs)).
    { unfold sizes_of. rewrite (map_ext _ (fun x => length (members x al2))) by (intros; apply count_members).
      rewrite (Permutation_map (fun x => length (members x al2)) Dal2). cbn [map]. rewrite (Permutation_length P0), (Permutation_length P1).
      do 2 constructor. unfold rs. rewrite (map_ext_in (fun x => length (members x al2)) (fun x => length (members x al)) rest); [reflexivity|].
      intros x Hx. apply Permutation_length. apply PO; apply (Hrest x Hx). }
    unfold posterior. rewrite (ep_perm t d _ _ Sal), (ep_perm t d _ _ Sal2).
    rewrite (prodR_perm _ _ (Permutation_map (fun x => M (members x al)) Dal)), (prodR_perm _ _ (Permutation_map (fun x => M (members x al2)) Dal2)).
    cbn [map]. rewrite !prodR_cons. rewrite (M_perm _ _ P), (M_perm _ _ P0), (M_perm _ _ P1).
    rewrite (map_ext_in (fun x => M (members x al2)) (fun x => M (members x al)) rest) by (intros x Hx; apply M_perm, PO; apply (Hrest x Hx)).
    set (Q := prodR (map (fun x => M (members x al)) rest)).
    rewrite (Permutation_length Dal). cbn [length]. replace (length rest) with (length rs) by (unfold rs; apply map_length).
    pose proof (ep_split t d (length ids0) (length ids1) rs (proj2 Hd)) as E.
    assert (L0 : (1 <= length ids0)%nat) by (destruct ids0; [congruence|simpl; lia]). assert (L1 : (1 <= length ids1)%nat) by (destruct ids1; [congruence|simpl; lia]).
    specialize (E L0 L1). set (e2 := ewens_pitman t d (length ids0 :: length ids1 :: rs)) in *. set (e1 := ewens_pitman t d _) in *.
    set (b0 := block d (length ids0)) in *. set (b1 := block d (length ids1)) in *. set (bb := block d (length ids0 + length ids1)) in *.
    replace (e2 * (M ids0 * (M ids1 * Q)) * bb * M (ids1 ++ ids0)) with ((e2 * bb) * (M ids0 * (M ids1 * Q)) * M (ids1 ++ ids0)) by ring.
    rewrite E. ring.
  Qed.
End Split.
