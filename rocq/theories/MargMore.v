(** * More facts about the marginal samplers: user-visible view, cached
    posteriors, auxiliary components, degenerate cases, second runs. *)
From Coq Require Import String.
From Coq Require Import Bool List Arith ZArith Lia Sorting.Sorted Permutation.
From Verif Require Import Base Hier Algos Run Spec MargFacts NealFacts InitFacts.
Import ListNotations.
Set Implicit Arguments.

Lemma rbind_ok : forall A B (m : res A) (k : A -> res B) x,
  rbind m k = Ok x -> exists a, m = Ok a /\ k a = Ok x.
Proof. intros A B [a| | |] k x H; simpl in H; try discriminate. eauto. Qed.

Ltac rinv H x := 
  let E := fresh "E" in apply rbind_ok in H; destruct H as (x & E & H).

Section More.
Variable I : Iface.

(** What a user sees of the clusters. *)
Definition view (uv : list (hier I)) : list (list nat * Z) :=
  map (fun h => (h_ids h, h_card h)) uv.

Lemma nth_view : forall uv c ids card,
  nth_error (view uv) c = Some (ids, card) <->
  exists h, nth_error uv c = Some h /\ h_ids h = ids /\ h_card h = card.
Proof.
  intros. unfold view. rewrite nth_error_map. destruct (nth_error uv c) as [h|]; simpl; split.
  - intros E; injection E as <- <-. eauto.
  - intros (h' & E & <- & <-). congruence.
  - discriminate.
  - intros (h' & E & _). discriminate.
Qed.

Section Data.
Variable data : list (Datum I).
Variable covs : list (Cov I).
Notation cvf := (at_ covs).
Notation n := (length data).

(** Every cluster's statistics are those of its data, and no posterior marked
    as saved is missing. *)
Definition caches_ok (uv : list (hier I)) : Prop :=
  forall c h, nth_error uv c = Some h ->
    h_stats h = batch I data cvf (h_ids h) /\ (h_saved h = true -> h_ph h <> None).

Lemma GInv_iff : forall a,
  @GInv I data covs false a <->
  proper n (a_alloc a) (view (a_uv a)) /\ caches_ok (a_uv a).
Proof.
  intros a. split.
  - intros (Hl & [H1 H2] & Hne). split; [split; [split; [auto|split]|]|].
    + intros i c Hi. unfold view. rewrite map_length. apply (H1 i c Hi).
    + intros c ids card Hc. apply nth_view in Hc. destruct Hc as (h & Hh & <- & <-).
      destruct (H2 c h Hh) as (([A [B C]] & _) & P & M). auto.
    + intros c ids card Hc. apply nth_view in Hc. destruct Hc as (h & Hh & <- & <-). eauto.
    + intros c h Hh. destruct (H2 c h Hh) as (([A [B C]] & _) & P & M). auto.
  - intros [[(Hl & H1 & H2) Hne] Hc]. split; [auto|split; [split|]].
    + intros j c Hj. split; [rewrite <- Hl; eapply nth_error_lt; eauto|].
      apply H1 in Hj. unfold view in Hj. rewrite map_length in Hj. auto.
    + intros c h Hh. destruct (Hc c h Hh) as [A B].
      destruct (H2 c (h_ids h) (h_card h)) as (S1 & S2 & S3).
      { apply nth_view. eauto. }
      split; [split; [repeat split; auto|discriminate]|]. split; auto.
    + intros c h Hh. apply (Hne c (h_ids h) (h_card h)). apply nth_view. eauto.
Qed.

Lemma GInv_proper : forall trk a, @GInv I data covs trk a -> proper n (a_alloc a) (view (a_uv a)).
Proof. intros trk a H. apply GInv_iff. eapply GInv_untrack; eauto. Qed.

(** ** Erasing a cluster *)

Lemma remove_singleton_spec : forall c (a a' : alg I),
  remove_singleton c a = Ok a' ->
  c < length (a_uv a) /\ length (a_uv a') = length (a_uv a) - 1 /\
  length (a_alloc a') = length (a_alloc a) /\
  (forall j l, nth_error (a_alloc a) j = Some l -> l <> c ->
     exists l', nth_error (a_alloc a') j = Some l' /\
       nth_error (a_uv a') l' = nth_error (a_uv a) l) /\
  same_grouping (fun j => exists l, nth_error (a_alloc a) j = Some l /\ l <> c)
    (a_alloc a) (a_alloc a') /\
  ((forall l, l < length (a_uv a) -> l <> c -> exists j, nth_error (a_alloc a) j = Some l) ->
   (forall l', l' < length (a_uv a') -> exists j, nth_error (a_alloc a') j = Some l')).
Proof.
  intros c a a' H. unfold remove_singleton in H. rinv H uv. injection H as <-.
  unfold erase_at in E. destruct (c <? length (a_uv a)) eqn:Ec; [|discriminate].
  apply Nat.ltb_lt in Ec. injection E as <-. simpl.
  split; [auto|]. split; [rewrite del_length; lia|]. split; [apply relabel_down_length|].
  assert (K : forall j l, nth_error (a_alloc a) j = Some l ->
    nth_error (relabel_down c (a_alloc a)) j = Some (if c <? l then l - 1 else l)).
  { intros j l Hj. rewrite nth_relabel_down, Hj. reflexivity. }
  split; [|split].
  - intros j l Hj Hl. exists (if c <? l then l - 1 else l). split; auto.
    rewrite nth_error_del. destruct (c <? l) eqn:E1.
    + apply Nat.ltb_lt in E1. assert (E2 : l - 1 <? c = false) by (apply Nat.ltb_ge; lia).
      rewrite E2. f_equal. lia.
    + apply Nat.ltb_ge in E1. assert (E2 : l <? c = true) by (apply Nat.ltb_lt; lia).
      rewrite E2. reflexivity.
  - intros j k (l & Hj & Hl) (m & Hk & Hm). rewrite (K j l Hj), (K k m Hk), Hj, Hk.
    split; intros X; [injection X as ->; auto|]. injection X as X. f_equal.
    destruct (c <? l) eqn:E1; destruct (c <? m) eqn:E2;
      repeat match goal with H : (_ <? _) = true |- _ => apply Nat.ltb_lt in H
                        | H : (_ <? _) = false |- _ => apply Nat.ltb_ge in H end; lia.
  - intros Hsur l' Hl'. rewrite del_length in Hl' by auto.
    destruct (Nat.lt_ge_cases l' c) as [Hlt|Hge].
    + destruct (Hsur l') as (j & Hj); [lia|lia|]. exists j. rewrite (K j l' Hj).
      assert (E1 : c <? l' = false) by (apply Nat.ltb_ge; lia). rewrite E1. reflexivity.
    + destruct (Hsur (S l')) as (j & Hj); [lia|lia|]. exists j. rewrite (K j (S l') Hj).
      assert (E1 : c <? S l' = true) by (apply Nat.ltb_lt; lia). rewrite E1. f_equal. lia.
Qed.

(** ** A single observation *)

Lemma single_uv : forall (a : alg I), n = 1 -> @GInv I data covs false a ->
  exists h, a_uv a = [h] /\ a_alloc a = [0] /\ h_card h = 1%Z.
Proof.
  intros a Hn (Hl & HI & Hne).
  assert (Hle : length (a_uv a) <= 1).
  { rewrite <- (seq_length 1 0). eapply Inv_clusters_le; eauto.
    intros j c Hj. apply in_seq. apply nth_error_lt in Hj. lia. }
  destruct HI as [H1 H2].
  destruct (a_alloc a) as [|c [|]] eqn:Ea; simpl in Hl; try lia.
  destruct (H1 0 c eq_refl) as [_ Hc].
  destruct (a_uv a) as [|h [|]] eqn:Eu; simpl in *; try lia.
  assert (c = 0) by lia. subst c. exists h. split; auto. split; auto.
  destruct (H2 0 h eq_refl) as (([S1 [S2 S3]] & _) & _ & M).
  rewrite S2. assert (Hin : In 0 (h_ids h)) by (apply M; auto).
  assert (Hall : forall j, In j (h_ids h) -> j = 0).
  { intros j Hj. apply M in Hj. apply nth_error_lt in Hj. simpl in Hj. lia. }
  apply ssorted_NoDup in S1. destruct (h_ids h) as [|x [|y l]]; [contradiction|reflexivity|].
  exfalso. inversion S1; subst. assert (x = 0) by (apply Hall; simpl; auto).
  assert (y = 0) by (apply Hall; simpl; auto). subst. simpl in *. tauto.
Qed.

Lemma single_step_UB : forall uhp lp (a : alg I) r, n = 1 -> @GInv I data covs false a ->
  masses_ok I (a_mix a) 1 ->
  (forall a', a_uv a' = [] -> lp a' 0 = UB) ->
  neal_step data covs uhp lp (a, r) 0 = UB.
Proof.
  intros uhp lp a r Hn Ha Hm Hlp. destruct (single_uv Hn Ha) as (h & Eu & Ea & Ec).
  unfold neal_step, unassign. rewrite Ea, Eu. cbn [at_ nth_error rbind].
  rewrite Ec. cbn [Z.leb Z.compare Pos.compare Pos.compare_cont].
  unfold remove_singleton. rewrite Eu, Ea. cbn [erase_at length Nat.ltb Nat.leb del rbind].
  unfold neal2_prior_mass. cbn [set_uv set_alloc a_uv a_mix rmap rbind length].
  rewrite Hn. destruct (Hm 0) as [_ (w & E)]; [lia|]. simpl in E |- *. rewrite E. cbn [rbind].
  rewrite Hlp by reflexivity. reflexivity.
Qed.

(** ** Second run without resetting the hierarchy *)

Definition total_ids (uv : list (hier I)) : nat := list_sum (map (fun h => length (h_ids h)) uv).

Lemma list_sum_upd : forall l c x y, nth_error l c = Some y -> list_sum (upd l c x) + y = list_sum l + x.
Proof.
  induction l as [|z l IH]; intros c x y H; destruct c; simpl in *; try discriminate.
  - injection H as ->. lia.
  - specialize (IH c x y H). lia.
Qed.

Lemma map_upd : forall A B (f : A -> B) l c x, map f (upd l c x) = upd (map f l) c (f x).
Proof. induction l as [|z l IH]; intros [|c] x; simpl; auto. f_equal. auto. Qed.

Lemma upd_id : forall A (l : list A) c x, nth_error l c = Some x -> upd l c x = l.
Proof. induction l as [|z l IH]; intros [|c] x H; simpl in *; try discriminate; congruence || (f_equal; auto). Qed.

Lemma total_upd : forall uv c h h', nth_error uv c = Some h ->
  total_ids (upd uv c h') + length (h_ids h) = total_ids uv + length (h_ids h').
Proof.
  intros uv c h h' H. unfold total_ids. rewrite map_upd. apply list_sum_upd.
  rewrite nth_error_map, H. reflexivity.
Qed.

Lemma add_in_total : forall hy b c i d cv uv uv',
  add_in hy b c i d cv uv = Ok uv' -> total_ids uv' = S (total_ids uv).
Proof.
  intros hy b c i d cv uv uv' H. unfold add_in in H. rinv H h. rinv H h'. injection H as <-.
  apply at_inv in E. pose proof (total_upd uv c h' E) as K.
  unfold h_add in E0. rinv E0 h1. unfold like_add in E1.
  destruct (set_mem i (h_ids h)) eqn:Em; [discriminate|].
  destruct (row_ok I d cv); [|discriminate]. injection E1 as <-.
  assert (Ei : h_ids h' = set_insert i (h_ids h)).
  { destruct b; [|injection E0 as <-; reflexivity].
    unfold h_save in E0. rinv E0 p. injection E0 as <-. reflexivity. }
  rewrite Ei, length_set_insert in K by (apply set_mem_false; auto). lia.
Qed.

Lemma total_app : forall a b, total_ids (a ++ b) = total_ids a + total_ids b.
Proof. intros. unfold total_ids. rewrite map_app, list_sum_app. reflexivity. Qed.

Lemma init_clone_total : forall hy l uv r uv' r',
  rfold (@init_clone_step I hy) l (uv, r) = Ok (uv', r') -> total_ids uv' = total_ids uv.
Proof.
  induction l as [|x l IH]; intros uv r uv' r' H; simpl in H; [congruence|].
  rinv H s. destruct s as [uv1 r1]. apply IH in H. rewrite H. clear H IH.
  rinv E h0. rinv E hi. unfold h_sample_prior in E.
  destruct (prior_sample I hy r) as [st r2]. injection E as <- <-.
  apply at_inv in E1.
  pose proof (total_upd _ x (h_set_state st hi) E1) as K.
  rewrite total_app in K. simpl in K. unfold total_ids at 3 in K. simpl in K. lia.
Qed.

Lemma init_alloc_total : forall hy nc gen l al uv al' uv',
  rfold (@init_alloc_step I data covs hy nc gen) l (al, uv) = Ok (al', uv') ->
  total_ids uv' = total_ids uv + length l.
Proof.
  induction l as [|x l IH]; intros al uv al' uv' H; simpl in H; [injection H as <- <-; simpl; lia|].
  rinv H s. destruct s as [al1 uv1]. apply IH in H. rewrite H. clear H IH.
  rinv E d. rinv E cv. rinv E u. injection E as <- <-.
  apply add_in_total in E2. simpl. lia.
Qed.

Lemma init_save_total : forall hy l uv uv',
  rfold (@init_save_step I hy) l uv = Ok uv' -> total_ids uv' = total_ids uv.
Proof.
  induction l as [|x l IH]; intros uv uv' H; simpl in H; [congruence|].
  rinv H u. apply IH in H. rewrite H. clear H IH.
  unfold init_save_step in E. rinv E h. rinv E h'. injection E as <-. apply at_inv in E0.
  pose proof (total_upd _ x h' E0) as K. unfold h_save in E1. rinv E1 p. injection E1 as <-.
  simpl in K. lia.
Qed.

Lemma init_total : forall uhp hy m k gen h0 rest r a r',
  init_clusters data covs uhp hy m k gen (h0 :: rest) r = Ok (a, r') ->
  n <= total_ids (a_uv a) - total_ids rest /\ total_ids rest <= total_ids (a_uv a).
Proof.
  intros uhp hy m k gen h0 rest r a r' H. unfold init_clusters in H.
  cbn [at_ nth_error rbind upd] in H.
  rinv H s2. destruct s2 as [uv2 r2]. rinv H s3. destruct s3 as [al uv3]. rinv H uv4.
  injection H as <- <-. simpl.
  apply init_clone_total in E. apply init_alloc_total in E0.
  assert (E4 : total_ids uv4 = total_ids uv3).
  { destruct uhp; [eapply init_save_total; eauto|congruence]. }
  rewrite app_length, !seq_length in E0.
  unfold total_ids at 2 in E. simpl in E. fold (total_ids rest) in E. lia.
Qed.

Lemma NoDup_app_intro : forall (a b : list nat), NoDup a -> NoDup b ->
  (forall x, In x a -> ~ In x b) -> NoDup (a ++ b).
Proof.
  induction a as [|x a IH]; intros b Ha Hb Hd; simpl; auto.
  inversion Ha; subst. constructor.
  - rewrite in_app_iff. intros [X|X]; [auto|]. apply (Hd x); simpl; auto.
  - apply IH; auto. intros y Hy. apply Hd. simpl; auto.
Qed.

Lemma NoDup_concat : forall (l : list (list nat)),
  (forall c x, nth_error l c = Some x -> NoDup x) ->
  (forall c c' x x' e, nth_error l c = Some x -> nth_error l c' = Some x' -> In e x -> In e x' -> c = c') ->
  NoDup (concat l).
Proof.
  induction l as [|x l IH]; intros Hn Hd; simpl; [constructor|].
  apply NoDup_app_intro.
  - apply (Hn 0); auto.
  - apply IH; [intros c y Hc; apply (Hn (S c)); auto|].
    intros c c' y y' e H1 H2 H3 H4. assert (S c = S c') by (eapply (Hd (S c) (S c')); eauto). lia.
  - intros e He Hc. apply in_concat in Hc. destruct Hc as (y & Hy & Hey).
    apply In_nth_error in Hy. destruct Hy as (c & Hc).
    pose proof (Hd 0 (S c) x y e eq_refl Hc He Hey). discriminate.
Qed.

Lemma consistent_total : forall labels uv, consistent n labels (view uv) -> total_ids uv = n.
Proof.
  intros labels uv (Hl & H1 & H2).
  assert (P : Permutation (concat (map (@h_ids I) uv)) (seq 0 n)).
  { apply NoDup_Permutation.
    - apply NoDup_concat.
      + intros c x Hc. rewrite nth_error_map in Hc. destruct (nth_error uv c) as [h|] eqn:Eh; [|discriminate].
        injection Hc as <-. apply ssorted_NoDup. apply (H2 c (h_ids h) (h_card h)). apply nth_view. eauto.
      + intros c c' x x' e Hc Hc' Hx Hx'. rewrite nth_error_map in Hc, Hc'.
        destruct (nth_error uv c) as [h|] eqn:Eh; [|discriminate].
        destruct (nth_error uv c') as [h'|] eqn:Eh'; [|discriminate].
        injection Hc as <-. injection Hc' as <-.
        destruct (H2 c (h_ids h) (h_card h)) as (_ & M & _); [apply nth_view; eauto|].
        destruct (H2 c' (h_ids h') (h_card h')) as (_ & M' & _); [apply nth_view; eauto|].
        apply M in Hx. apply M' in Hx'. congruence.
    - apply seq_NoDup.
    - intros x. rewrite in_concat, in_seq. split.
      + intros (y & Hy & Hx). apply in_map_iff in Hy. destruct Hy as (h & <- & Hh).
        apply In_nth_error in Hh. destruct Hh as (c & Hc).
        destruct (H2 c (h_ids h) (h_card h)) as (_ & M & _); [apply nth_view; eauto|].
        apply M in Hx. apply nth_error_lt in Hx. lia.
      + intros Hx. destruct (at_ok labels (i := x)) as (c & _ & Ec); [lia|].
        pose proof (H1 x c Ec) as Hc. unfold view in Hc. rewrite map_length in Hc.
        destruct (at_ok uv Hc) as (h & _ & Eh). exists (h_ids h). split.
        * apply in_map. eapply nth_error_In; eauto.
        * destruct (H2 c (h_ids h) (h_card h)) as (_ & M & _); [apply nth_view; eauto|]. apply M; auto. }
  apply Permutation_length in P. rewrite seq_length in P. rewrite <- P.
  unfold total_ids. clear. induction uv as [|h uv IH]; simpl; auto. rewrite app_length. lia.
Qed.

(** Leftover clusters holding data can never be turned into a clustering. *)
Lemma second_init_bad : forall uhp hy m k gen h0 rest r,
  (exists h, In h rest /\ h_ids h <> []) ->
  forall a r', init_clusters data covs uhp hy m k gen (h0 :: rest) r = Ok (a, r') ->
    ~ consistent n (a_alloc a) (view (a_uv a)).
Proof.
  intros uhp hy m k gen h0 rest r (h & Hin & Hne) a r' H C.
  apply consistent_total in C. apply init_total in H.
  assert (0 < total_ids rest).
  { clear - Hin Hne. induction rest as [|g rest IH]; [contradiction|].
    unfold total_ids. simpl. fold (total_ids rest). destruct Hin as [->|Hin].
    - destruct (h_ids h); simpl; [congruence|lia].
    - specialize (IH Hin). lia. }
  lia.
Qed.

(** ** Cached posteriors in the algorithms that do not maintain them *)

(** A posterior marked as saved is the initial prior [hy0], and at most one
    cluster has one. *)
Definition stale_ok (hy0 : Hyp I) (uv : list (hier I)) : Prop :=
  (forall h, In h uv -> h_saved h = true -> h_ph h = Some hy0) /\
  length (filter (@h_saved I) uv) <= 1.

Lemma In_upd : forall A (l : list A) c x y, In y (upd l c x) -> y = x \/ In y l.
Proof.
  induction l as [|z l IH]; intros [|c] x y H; simpl in *; auto.
  - destruct H; auto.
  - destruct H as [H|H]; auto. apply IH in H. tauto.
Qed.

Lemma filter_upd_same : forall (uv : list (hier I)) c h h',
  nth_error uv c = Some h -> h_saved h' = h_saved h ->
  length (filter (@h_saved I) (upd uv c h')) = length (filter (@h_saved I) uv).
Proof.
  induction uv as [|z uv IH]; intros [|c] h h' Hn E; simpl in *; try discriminate.
  - injection Hn as ->. rewrite E. destruct (h_saved h); auto.
  - destruct (h_saved z); simpl; rewrite (IH c h h'); auto.
Qed.

Lemma stale_upd : forall hy0 uv c h h', nth_error uv c = Some h ->
  h_saved h' = h_saved h -> (h_saved h = true -> h_ph h' = h_ph h) ->
  stale_ok hy0 uv -> stale_ok hy0 (upd uv c h').
Proof.
  intros hy0 uv c h h' Hn E P [H1 H2]. split.
  - intros g Hg Hs. apply In_upd in Hg. destruct Hg as [->|Hg]; auto.
    rewrite E in Hs. rewrite P by auto. apply H1; auto. eapply nth_error_In; eauto.
  - erewrite filter_upd_same; eauto.
Qed.

Lemma In_del : forall A (l : list A) c y, In y (del l c) -> In y l.
Proof. induction l as [|z l IH]; intros [|c] y H; simpl in *; auto. destruct H; eauto. Qed.

Lemma stale_del : forall hy0 uv c, stale_ok hy0 uv -> stale_ok hy0 (del uv c).
Proof.
  intros hy0 uv c [H1 H2]. split.
  - intros g Hg. apply H1. eapply In_del; eauto.
  - eapply Nat.le_trans; [|exact H2]. clear. revert c.
    induction uv as [|z uv IH]; intros [|c]; simpl; auto.
    + destruct (h_saved z); simpl; lia.
    + specialize (IH c). destruct (h_saved z); simpl; lia.
Qed.

Lemma stale_push : forall hy0 uv h, h_saved h = false -> stale_ok hy0 uv -> stale_ok hy0 (uv ++ [h]).
Proof.
  intros hy0 uv h E [H1 H2]. split.
  - intros g Hg Hs. apply in_app_iff in Hg. destruct Hg as [Hg|[->|[]]]; auto. congruence.
  - rewrite filter_app, app_length. simpl. rewrite E. simpl. lia.
Qed.

Lemma h_add_flags : forall (hy : Hyp I) i d cv h h', h_add hy false i d cv h = Ok h' ->
  h_saved h' = h_saved h /\ h_ph h' = h_ph h.
Proof.
  intros hy i d cv h h' H. unfold h_add in H. rinv H h1. injection H as <-.
  unfold like_add in E. destruct (set_mem i (h_ids h)); [discriminate|].
  destruct (row_ok I d cv); [|discriminate]. injection E as <-. auto.
Qed.

Lemma h_remove_flags : forall (hy : Hyp I) i d cv h h', h_remove hy false i d cv h = Ok h' ->
  h_saved h' = h_saved h /\ h_ph h' = h_ph h.
Proof.
  intros hy i d cv h h' H. unfold h_remove in H. rinv H h1. injection H as <-.
  unfold like_remove in E. destruct (row_ok I d cv); [|discriminate].
  destruct (set_mem i (h_ids h)); [|discriminate]. injection E as <-. auto.
Qed.

Lemma stale_add_in : forall hy0 hy c i d cv uv uv',
  add_in hy false c i d cv uv = Ok uv' -> stale_ok hy0 uv -> stale_ok hy0 uv'.
Proof.
  intros hy0 hy c i d cv uv uv' H S. unfold add_in in H. rinv H h. rinv H h'. injection H as <-.
  apply h_add_flags in E0. destruct E0. eapply stale_upd; eauto. apply at_inv; auto.
Qed.

Lemma stale_remove_in : forall hy0 hy c i d cv uv uv',
  remove_in hy false c i d cv uv = Ok uv' -> stale_ok hy0 uv -> stale_ok hy0 uv'.
Proof.
  intros hy0 hy c i d cv uv uv' H S. unfold remove_in in H. rinv H h. rinv H h'. injection H as <-.
  apply h_remove_flags in E0. destruct E0. eapply stale_upd; eauto. apply at_inv; auto.
Qed.

Lemma h_draw_flags : forall (hy : Hyp I) h r h' r', h_draw hy true h r = Ok (h', r') ->
  h_saved h' = h_saved h /\ (h_saved h = true -> h_ph h' = h_ph h).
Proof.
  intros hy h r h' r' H. unfold h_draw in H. destruct (other_draw I) as [f|] eqn:Eo.
  - destruct (f hy (h_card h) (h_stats h) (h_ids h) (h_state h) r) as [s r1]. injection H as <- <-. auto.
  - destruct (Z.eqb (h_card h) 0).
    + unfold h_sample_prior in H. destruct (prior_sample I hy r) as [s r1]. injection H as <- <-. auto.
    + rinv H p. destruct p as [p h1]. destruct (prior_sample I p r) as [s r1]. injection H as <- <-.
      unfold h_get_post in E. rewrite Eo in E. destruct (h_saved h) eqn:Es.
      * destruct (h_ph h) eqn:Ep; [|discriminate]. injection E as <- <-. simpl. rewrite Es, Ep. auto.
      * unfold h_compute_post in E. rewrite Eo in E. simpl in E. injection E as <- <-. simpl.
        split; [auto|discriminate].
Qed.

Lemma stale_unassign : forall hy0 i (a a' : alg I),
  unassign data false cvf i a = Ok a' -> stale_ok hy0 (a_uv a) -> stale_ok hy0 (a_uv a').
Proof.
  intros hy0 i a a' H S. unfold unassign in H. rinv H c. rinv H h.
  destruct (Z.leb (h_card h) 1).
  - unfold remove_singleton in H. rinv H uv. injection H as <-. simpl.
    unfold erase_at in E1. destruct (c <? length (a_uv a)); [|discriminate]. injection E1 as <-.
    apply stale_del; auto.
  - rinv H d. rinv H cv. rinv H uv. injection H as <-. simpl. eapply stale_remove_in; eauto.
Qed.

Lemma stale_assign : forall hy0 i c (a a' : alg I) r r',
  assign data false cvf i c a r = Ok (a', r') -> stale_ok hy0 (a_uv a) -> stale_ok hy0 (a_uv a').
Proof.
  intros hy0 i c a a' r r' H S. unfold assign in H. rinv H d. rinv H cv.
  destruct (c =? length (a_uv a)).
  - rinv H h0. rinv H h1. rinv H p. destruct p as [h2 r2]. rinv H al. injection H as <- <-. simpl.
    apply stale_push; auto. apply h_add_flags in E2. apply h_draw_flags in E3.
    destruct E2 as [A _], E3 as [B _]. rewrite B, A. reflexivity.
  - rinv H al. rinv H uv. injection H as <- <-. simpl. eapply stale_add_in; eauto.
Qed.

Lemma stale_neal_step : forall hy0 lp i (a a' : alg I) r r',
  neal_step data covs false lp (a, r) i = Ok (a', r') -> stale_ok hy0 (a_uv a) -> stale_ok hy0 (a_uv a').
Proof.
  intros hy0 lp i a a' r r' H S. unfold neal_step in H. rinv H a1. rinv H pm. rinv H lk. rinv H p.
  destruct p as [c r1]. eapply stale_assign; eauto. eapply stale_unassign; eauto.
Qed.

Lemma stale_neal8_step : forall hy0 n_aux i (a a' : alg I) r r',
  neal8_step data covs n_aux (a, r) i = Ok (a', r') -> stale_ok hy0 (a_uv a) -> stale_ok hy0 (a_uv a').
Proof.
  intros hy0 n_aux i a a' r r' H S. unfold neal8_step in H. rinv H p. destruct p as [a1 b].
  rinv H p. destruct p as [aux r1]. rinv H pm. rinv H lk. rinv H p. destruct p as [c r2].
  rinv H a3. injection H as <- <-.
  assert (S1 : stale_ok hy0 (a_uv a1)).
  { unfold neal8_unassign in E. rinv E c0. rinv E h. destruct (Z.leb (h_card h) 1).
    - rinv E x0. rinv E a2. injection E as <- <-. unfold remove_singleton in E8. rinv E8 uv. injection E8 as <-.
      simpl in E |- *. unfold erase_at in E. destruct (c0 <? length (a_uv a)); [|discriminate]. injection E as <-.
      apply stale_del; auto.
    - rinv E d. rinv E cv. rinv E uv. injection E as <- <-. simpl. eapply stale_remove_in; eauto. }
  unfold neal8_assign in E4. rinv E4 d. rinv E4 cv. simpl in E4.
  destruct (length (a_uv a1) <=? c).
  - rinv E4 hx. rinv E4 al. rinv E4 uv'. injection E4 as <-. simpl.
    eapply stale_add_in; [exact E9|]. apply stale_push; auto.
  - rinv E4 al. rinv E4 uv'. injection E4 as <-. simpl. eapply stale_add_in; eauto.
Qed.

Lemma rfold_pres : forall A B (f : B -> A -> res B) (P : B -> Prop) l b b',
  (forall x b0 b1, f b0 x = Ok b1 -> P b0 -> P b1) -> rfold f l b = Ok b' -> P b -> P b'.
Proof.
  induction l as [|x l IH]; intros b b' Hf H Hb; simpl in H; [congruence|].
  rinv H b1. eapply IH; eauto.
Qed.

(** How each cluster's parameters are redrawn. *)
Definition redrawn (hy : Hyp I) (h h' : hier I) : Prop :=
  exists r0 r1, prior_sample I
    (if h_saved h then match h_ph h with Some p => p | None => hy end
     else post I hy (h_card h) (h_stats h) (h_state h)) r0 = (h_state h', r1).

Lemma draw_all_spec : forall hy save uv r uv' r', other_draw I = None ->
  draw_all hy save uv r = Ok (uv', r') ->
  length uv' = length uv /\
  (forall c h h', nth_error uv c = Some h -> nth_error uv' c = Some h' ->
     h_ids h' = h_ids h /\ (h_card h <> 0%Z -> redrawn hy h h')).
Proof.
  induction uv as [|h uv IH]; intros r uv' r' Hod H; simpl in H.
  - injection H as <- <-. split; auto. intros [|c]; discriminate.
  - rinv H p. destruct p as [h1 r1]. rinv H p. destruct p as [uv1 r2]. injection H as <- <-.
    destruct (IH _ _ _ Hod E0) as [Hl Hs]. split; [simpl; auto|].
    intros [|c] g g' Hg Hg'; simpl in Hg, Hg'; [|eauto].
    injection Hg as ->. injection Hg' as ->.
    unfold h_draw in E. rewrite Hod in E. destruct (Z.eqb (h_card g) 0) eqn:Ez.
    + apply Z.eqb_eq in Ez. unfold h_sample_prior in E. destruct (prior_sample I hy r).
      injection E as <- <-. split; [auto|congruence].
    + rinv E p. destruct p as [p hh]. destruct (prior_sample I p r) as [s rr] eqn:Eps.
      injection E as <- <-. unfold h_get_post in E1. rewrite Hod in E1. unfold redrawn.
      destruct (h_saved g) eqn:Es.
      * destruct (h_ph g) eqn:Ep; [|discriminate]. injection E1 as <- <-. simpl.
        split; auto. intros _. exists r, rr. auto.
      * unfold h_compute_post in E1. rewrite Hod in E1. simpl in E1.
        destruct save; injection E1 as <- <-; simpl; split; auto; intros _; exists r, rr; auto.
Qed.

Lemma stale_draw_all : forall hy0 hy uv r uv' r',
  draw_all hy true uv r = Ok (uv', r') -> 
  (map (@h_saved I) uv' = map (@h_saved I) uv) /\
  ((forall h, In h uv -> h_saved h = true -> h_ph h = Some hy0) ->
   (forall h, In h uv' -> h_saved h = true -> h_ph h = Some hy0)).
Proof.
  intros hy0 hy. induction uv as [|h uv IH]; intros r uv' r' H; simpl in H.
  - injection H as <- <-. auto.
  - rinv H p. destruct p as [h1 r1]. rinv H p. destruct p as [uv1 r2]. injection H as <- <-.
    destruct (IH _ _ _ E0) as [A B]. apply h_draw_flags in E. destruct E as [F1 F2].
    split; [simpl; congruence|]. intros K g [<-|Hg] Hs.
    + rewrite F1 in Hs. rewrite F2 by auto. apply K; simpl; auto.
    + apply B; auto. intros x Hx. apply K. simpl; auto.
Qed.

Lemma filter_map_len : forall (uv uv' : list (hier I)),
  map (@h_saved I) uv' = map (@h_saved I) uv ->
  length (filter (@h_saved I) uv') = length (filter (@h_saved I) uv).
Proof.
  induction uv as [|h uv IH]; intros [|h' uv'] H; simpl in *; try discriminate; auto.
  injection H as E H. rewrite E. destruct (h_saved h); simpl; rewrite (IH uv'); auto.
Qed.

Lemma stale_base_step : forall hy0 salloc a r a' r',
  (forall a r a' r', salloc (a, r) = Ok (a', r') -> stale_ok hy0 (a_uv a) -> stale_ok hy0 (a_uv a')) ->
  base_step salloc false (a, r) = Ok (a', r') -> stale_ok hy0 (a_uv a) -> stale_ok hy0 (a_uv a').
Proof.
  intros hy0 salloc a r a' r' Hs H S. unfold base_step in H.
  rinv H s1. destruct s1 as [a1 r1]. rinv H s2. destruct s2 as [a2 r2]. rinv H s3. destruct s3 as [a3 r3].
  unfold update_mixing in H. rinv H p. destruct p as [m r4]. injection H as <- <-. simpl.
  unfold update_hierarchy_hypers in E1. rinv E1 u.
  match type of E1 with context [hyp_update I ?x ?y ?z] => destruct (hyp_update I x y z) as [hy r5] end.
  injection E1 as <- <-. simpl.
  unfold sample_unique_values in E0. rinv E0 p. destruct p as [uv r6]. injection E0 as <- <-. simpl.
  specialize (Hs _ _ _ _ E S). destruct Hs as [S1 S2].
  destruct (@stale_draw_all hy0 _ _ _ _ _ E1) as [A B]. split.
  - apply B; auto.
  - erewrite filter_map_len; eauto.
Qed.

Lemma stale_init : forall hy0 m k gen h0 r a r', h_saved h0 = false ->
  init_clusters data covs false hy0 m k gen [h0] r = Ok (a, r') ->
  stale_ok hy0 (a_uv a) /\
  (exists h, nth_error (a_uv a) 0 = Some h /\ h_saved h = conj I /\ (conj I = true -> h_ph h = Some hy0)).
Proof.
  intros hy0 m k gen h0 r a r' H0 H. unfold init_clusters in H. cbn [at_ nth_error rbind upd] in H.
  rinv H s2. destruct s2 as [uv2 r2]. rinv H s3. destruct s3 as [al uv3]. injection H as <- <-. simpl.
  set (Q := fun uv : list (hier I) => stale_ok hy0 uv /\
     (exists h, nth_error uv 0 = Some h /\ h_saved h = conj I /\ (conj I = true -> h_ph h = Some hy0))).
  assert (Q1 : Q [h_initialize hy0 h0]).
  { split; [split|].
    - intros h [<-|[]]. simpl. destruct (conj I); auto. congruence.
    - simpl. destruct (conj I); simpl; [lia|]. rewrite H0. simpl. lia.
    - eexists. split; [reflexivity|]. simpl. destruct (conj I); split; auto; discriminate. }
  assert (Qupd : forall uv c h h', Q uv -> nth_error uv c = Some h -> h_saved h' = h_saved h ->
            h_ph h' = h_ph h -> Q (upd uv c h')).
  { intros uv c h h' [S (g & G1 & G2 & G3)] Hn A B. split.
    - eapply stale_upd; eauto.
    - destruct c.
      + exists h'. assert (h = g) by congruence. subst g.
        rewrite nth_error_upd_same by (eapply nth_error_lt; eauto). rewrite A, B. auto.
      + exists g. rewrite nth_error_upd_other by lia. auto. }
  assert (Q2 : Q uv2).
  { assert (K : Q (fst (uv2, r2))).
    { eapply rfold_pres with (P := fun s : list (hier I) * Rng I => Q (fst s)); [|exact E|exact Q1].
      intros x [uv r1] [uv' r1'] Hst HQ. cbn [fst] in *. unfold init_clone_step in Hst.
      rinv Hst g0. rinv Hst gi. unfold h_sample_prior in Hst. destruct (prior_sample I hy0 r1) as [st r3].
      injection Hst as <- <-. apply at_inv in E2.
      eapply (Qupd _ _ gi); [|exact E2|reflexivity|reflexivity]. destruct HQ as [S (g & G1 & G2 & G3)]. split.
      - apply stale_push; auto.
      - exists g. split; [|auto]. rewrite nth_error_app1; auto. eapply nth_error_lt; eauto. }
    exact K. }
  assert (K : Q (snd (al, uv3))).
  { eapply rfold_pres with (P := fun s : list nat * list (hier I) => Q (snd s)); [|exact E0|exact Q2].
    intros x [al1 uv] [al2 uv'] Hst HQ. cbn [snd] in *. unfold init_alloc_step in Hst.
    rinv Hst d. rinv Hst cv. rinv Hst u. injection Hst as <- <-. unfold add_in in E3. rinv E3 h. rinv E3 h'.
    injection E3 as <-. apply at_inv in E4. apply h_add_flags in E5. destruct E5. eapply Qupd; eauto. }
  exact K.
Qed.

Lemma stale_iter : forall hy0 step k a r a' r',
  (forall a r a' r', step (a, r) = Ok (a', r') -> stale_ok hy0 (a_uv a) -> stale_ok hy0 (a_uv a')) ->
  iter step k (a, r) = Ok (a', r') -> stale_ok hy0 (a_uv a) -> stale_ok hy0 (a_uv a').
Proof.
  induction k as [|k IH]; intros a r a' r' Hs H S; simpl in H.
  - congruence.
  - rinv H s. destruct s as [a1 r1]. eapply IH; eauto.
Qed.

(** ** Fresh caches in Neal3 *)

Lemma neal3_lpdf_value : forall (L : laws I) (a : alg I) i d cv,
  conj I = true -> other_draw I = None ->
  @Inv I data cvf true (a_hyp a) (hole i (a_alloc a)) (a_uv a) ->
  at_ data i = Ok d -> cvf i = Ok cv -> a_uv a <> [] ->
  neal3_lpdf data covs a i =
  Ok (map (fun h => marg_lpdf I (post I (a_hyp a) (Z.of_nat (length (h_ids h)))
                                  (batch I data cvf (h_ids h)) (init_state I (a_hyp a))) d cv) (a_uv a)
      ++ [marg_lpdf I (a_hyp a) d cv]).
Proof.
  intros L a i d cv Hcj Hod [_ H2] Ed Ec Hne. unfold neal3_lpdf. rewrite Ed, Ec. cbn [rbind].
  assert (K : forall uv, (forall h, In h uv -> In h (a_uv a)) ->
    rmap (fun h => h_cond_pred (a_hyp a) h d cv) uv =
    Ok (map (fun h => marg_lpdf I (post I (a_hyp a) (Z.of_nat (length (h_ids h)))
                                  (batch I data cvf (h_ids h)) (init_state I (a_hyp a))) d cv) uv)).
  { induction uv as [|h uv IH]; intros Hs; cbn [rmap map]; auto.
    assert (Hh : In h (a_uv a)) by (apply Hs; simpl; auto).
    apply In_nth_error in Hh. destruct Hh as (c & Hc).
    destruct (H2 c h Hc) as (([S1 [S2 S3]] & F) & _ & _). destruct (F eq_refl) as [F1 F2].
    assert (Eh : h_cond_pred (a_hyp a) h d cv =
       Ok (marg_lpdf I (post I (a_hyp a) (Z.of_nat (length (h_ids h)))
             (batch I data cvf (h_ids h)) (init_state I (a_hyp a))) d cv)).
    { unfold h_cond_pred, h_get_post. rewrite Hod, F1, F2. cbn [rbind]. f_equal. f_equal.
      rewrite S2, S3. apply (post_conj L Hcj). }
    rewrite Eh. cbn [rbind].
    rewrite IH by (intros; apply Hs; simpl; auto). reflexivity. }
  rewrite K by auto. cbn [rbind].
  destruct (a_uv a) as [|h uv]; [congruence|]. reflexivity.
Qed.

(** ** Parameters seen by the other observations *)

(** The parameters of observation [j]'s cluster. *)
Definition param (a : alg I) (j : nat) : option (St I) :=
  match nth_error (a_alloc a) j with
  | Some l => option_map (@h_state I) (nth_error (a_uv a) l)
  | None => None
  end.

Lemma h_add_state : forall (hy : Hyp I) b i d cv h h', h_add hy b i d cv h = Ok h' -> h_state h' = h_state h.
Proof.
  intros hy b i d cv h h' H. unfold h_add in H. rinv H h1.
  unfold like_add in E. destruct (set_mem i (h_ids h)); [discriminate|].
  destruct (row_ok I d cv); [|discriminate]. injection E as <-.
  destruct b; [|injection H as <-; auto]. unfold h_save in H. rinv H p. injection H as <-. auto.
Qed.

Lemma h_remove_state : forall (hy : Hyp I) b i d cv h h', h_remove hy b i d cv h = Ok h' -> h_state h' = h_state h.
Proof.
  intros hy b i d cv h h' H. unfold h_remove in H. rinv H h1.
  unfold like_remove in E. destruct (row_ok I d cv); [|discriminate].
  destruct (set_mem i (h_ids h)); [|discriminate]. injection E as <-.
  destruct b; [|injection H as <-; auto]. unfold h_save in H. rinv H p. injection H as <-. auto.
Qed.

Lemma state_upd : forall (uv : list (hier I)) c h h' l, nth_error uv c = Some h -> h_state h' = h_state h ->
  option_map (@h_state I) (nth_error (upd uv c h') l) = option_map (@h_state I) (nth_error uv l).
Proof.
  intros uv c h h' l Hn E. rewrite nth_error_upd.
  destruct ((l =? c) && (c <? length uv)) eqn:B; auto.
  apply andb_prop in B. destruct B as [B _]. apply Nat.eqb_eq in B. subst l. rewrite Hn. simpl. congruence.
Qed.

Lemma alone : forall trk (a : alg I) i c h, @GInv I data covs trk a ->
  nth_error (a_alloc a) i = Some c -> nth_error (a_uv a) c = Some h ->
  (Z.leb (h_card h) 1 = true <-> h_ids h = [i]) /\
  (h_ids h = [i] -> forall j, nth_error (a_alloc a) j = Some c -> j = i).
Proof.
  intros trk a i c h (Hl & [H1 H2] & Hne) Hi Hc.
  destruct (H2 c h Hc) as (([S1 [S2 S3]] & _) & _ & M).
  assert (Hin : In i (h_ids h)) by (apply M; auto).
  split.
  - rewrite Z.leb_le, S2. split.
    + intros Hle. destruct (h_ids h) as [|x [|y l]]; simpl in *; try lia; try tauto.
      destruct Hin as [->|[]]. auto.
    + intros ->. simpl. lia.
  - intros E j Hj. apply M in Hj. rewrite E in Hj. destruct Hj as [|[]]; auto.
Qed.

Lemma unassign_param : forall uhp (a a1 : alg I) i, @GInv I data covs false a ->
  unassign data uhp cvf i a = Ok a1 -> forall j, j <> i -> param a1 j = param a j.
Proof.
  intros uhp a a1 i HG H j Hj. unfold unassign in H. rinv H c. rinv H h.
  apply at_inv in E. apply at_inv in E0. destruct (@alone false a i c h HG E E0) as [Al1 Al2].
  destruct (Z.leb (h_card h) 1).
  - destruct (@remove_singleton_spec _ _ _ H) as (_ & _ & Hlen & Hp & _ & _).
    unfold param. destruct (nth_error (a_alloc a) j) as [l|] eqn:El.
    + assert (l <> c). { intros ->. apply Hj. apply Al2; auto. apply Al1; auto. }
      destruct (Hp j l El H0) as (l' & E1 & E2). rewrite E1, E2. auto.
    + apply nth_error_None in El. rewrite (proj2 (nth_error_None _ j)); auto. lia.
  - rinv H d. rinv H cv. rinv H uv. injection H as <-. unfold remove_in in E3. rinv E3 g. rinv E3 g'.
    injection E3 as <-. unfold param. simpl. destruct (nth_error (a_alloc a) j); auto.
    eapply state_upd; [apply at_inv; eauto|]. eapply h_remove_state; eauto.
Qed.

Lemma assign_param : forall uhp trk (a a2 : alg I) i c r r',
  @Inv I data cvf trk (a_hyp a) (hole i (a_alloc a)) (a_uv a) ->
  assign data uhp cvf i c a r = Ok (a2, r') -> forall j, j <> i -> param a2 j = param a j.
Proof.
  intros uhp trk a a2 i c r r' [H1 _] H j Hj. unfold assign in H. rinv H d. rinv H cv.
  assert (Hu : forall x al, set_at (a_alloc a) i x = Ok al -> nth_error al j = nth_error (a_alloc a) j).
  { intros x al Hs. unfold set_at in Hs. destruct (i <? length (a_alloc a)); [|discriminate].
    injection Hs as <-. apply nth_error_upd_other; auto. }
  destruct (c =? length (a_uv a)).
  - rinv H h0. rinv H h1. rinv H p. destruct p as [h2 r2]. rinv H al. injection H as <- <-.
    unfold param. simpl. rewrite (Hu _ _ E4). destruct (nth_error (a_alloc a) j) as [l|] eqn:El; auto.
    destruct (H1 j l) as [_ B]. { unfold hole. apply Nat.eqb_neq in Hj. rewrite Hj. auto. }
    rewrite nth_error_app1; auto.
  - rinv H al. rinv H uv. injection H as <- <-. unfold param. simpl. rewrite (Hu _ _ E1).
    destruct (nth_error (a_alloc a) j); auto. unfold add_in in E2. rinv E2 g. rinv E2 g'. injection E2 as <-.
    eapply state_upd; [apply at_inv; eauto|]. eapply h_add_state; eauto.
Qed.

Lemma neal_step_param : forall (L : laws I), rows_ok I data cvf ->
  forall uhp lp (a : alg I) r i a' r', (uhp = true -> conj I = true /\ other_draw I = None) ->
  i < n -> @GInv I data covs false a ->
  neal_step data covs uhp lp (a, r) i = Ok (a', r') ->
  forall j, j <> i -> param a' j = param a j.
Proof.
  intros L Hrows uhp lp a r i a' r' Hu Hi HG H j Hj. unfold neal_step in H.
  rinv H a1. rinv H pm. rinv H lk. rinv H p. destruct p as [c r1].
  rewrite <- (@unassign_param _ _ _ _ HG E _ Hj). 
  destruct HG as (Hl & HI & Hne).
  destruct (@unassign_ok I L data cvf Hrows uhp Hu false (@trk_false _) a i)
    as (al & uv & E' & _ & HI1 & _); auto.
  rewrite E in E'. injection E' as ->.
  eapply assign_param; eauto.
Qed.

(** ** Auxiliary components in one Neal8 reallocation *)

Definition prior_draw (hy : Hyp I) (st : St I) : Prop :=
  exists r0, st = fst (prior_sample I hy r0).

Lemma neal8_unassign_erase : forall i (a a1 : alg I) b, neal8_unassign data covs i a = Ok (a1, b) ->
  exists a1', unassign data false cvf i a = Ok a1' /\ a_alloc a1' = a_alloc a1 /\ a_uv a1' = a_uv a1.
Proof.
  intros i a a1 b H. unfold neal8_unassign in H. unfold unassign. rinv H c. rewrite E. cbn [rbind].
  rinv H h. rewrite E0. cbn [rbind]. destruct (Z.leb (h_card h) 1).
  - rinv H x0. rinv H a2. injection H as <- <-. unfold remove_singleton in *. rinv E2 uv. injection E2 as <-.
    cbn [a_uv set_aux] in E3. rewrite E3. cbn [rbind]. eexists. split; [reflexivity|]. auto.
  - rinv H d. rinv H cv. rinv H uv. injection H as <- <-. rewrite E1, E2. cbn [rbind]. rewrite E3. cbn [rbind].
    eexists. split; [reflexivity|]. auto.
Qed.

Lemma neal8_step_aux : forall (L : laws I), rows_ok I data cvf ->
  forall n_aux (a : alg I) r i a' r',
  1 <= n_aux -> i < n -> @GInv8 I data covs n_aux a ->
  neal8_step data covs n_aux (a, r) i = Ok (a', r') ->
  (forall j, j <> i -> j < n -> param a' j = param a j) /\
  exists c h l' hn,
    nth_error (a_alloc a) i = Some c /\ nth_error (a_uv a) c = Some h /\
    nth_error (a_alloc a') i = Some l' /\ nth_error (a_uv a') l' = Some hn /\
    length (a_aux a') = n_aux /\
    (h_ids h = [i] ->
       option_map (@h_state I) (nth_error (a_aux a') 0) = Some (h_state h) /\
       (forall j, 1 <= j < n_aux -> exists x, nth_error (a_aux a') j = Some x /\ prior_draw (a_hyp a) (h_state x))) /\
    (h_ids h <> [i] ->
       forall j, j < n_aux -> exists x, nth_error (a_aux a') j = Some x /\ prior_draw (a_hyp a) (h_state x)) /\
    (h_ids hn = [i] -> exists j x, nth_error (a_aux a') j = Some x /\ h_state hn = h_state x).
Proof.
  intros L Hrows n_aux a r i a' r' Hna Hi (HG & Haux) H.
  pose proof HG as (Hl & HI & Hne).
  destruct (@neal8_unassign_ok I L data covs Hrows n_aux a i) as
    (al & uv & aux & b & E & Hl1 & HI1 & Hne1 & Hg1 & [Hx1 Hx2] & (c & h & Hc & Hh & Hb & Hbf & Hbt)); auto.
  unfold neal8_step in H. rewrite E in H. cbn [rbind] in H.
  destruct (@neal8_unassign_erase _ _ _ _ E) as (a1' & Ea1 & Eal & Euv). simpl in Eal, Euv.
  set (a1 := set_uv (set_alloc (set_aux a aux) al) uv) in *.
  destruct (@refresh_aux_ok I (a_hyp a1) (seq (if b then 1 else 0) (n_aux - (if b then 1 else 0))) (a_aux a1) r)
    as (aux' & r1 & E2 & Hl2 & Hok2 & Hsame & Hdraw).
  { intros j Hj. apply in_seq in Hj. simpl in Hx1 |- *. destruct b; lia. }
  { exact Hx2. }
  rewrite E2 in H. cbn [rbind] in H.
  rinv H pm. rinv H lk. rinv H p. destruct p as [cn r2]. rinv H a3. injection H as <- <-.
  set (a2 := set_aux a1 aux') in *.
  assert (Hx3 : length (a_aux a2) = n_aux) by (simpl in *; congruence).
  assert (Hcn : cn < length uv + n_aux).
  { unfold neal8_assign in E4. rinv E4 d. rinv E4 cv. change (a_uv a2) with uv in E4.
    destruct (length uv <=? cn) eqn:Ele.
    - rinv E4 hx. apply at_inv, nth_error_lt in E7. apply Nat.leb_le in Ele. lia.
    - apply Nat.leb_gt in Ele. lia. }
  destruct (@neal8_assign_ok I L data covs Hrows n_aux a2 i cn)
    as (uv2 & E3' & HI2 & Hne2 & Hst & Hnew); auto.
  rewrite E4 in E3'. injection E3' as ->. change (a_uv a2) with uv in *. change (a_alloc a2) with al in *.
  change (a_hyp a2) with (a_hyp a) in *.
  split.
  - intros j Hj Hjn. rewrite <- (@unassign_param _ _ _ _ HG Ea1 _ Hj). unfold param. simpl.
    rewrite Eal, Euv. rewrite nth_error_upd_other by auto.
    destruct (nth_error al j) as [l|] eqn:El; auto.
    apply Hst. destruct HI1 as [H1 _]. apply (H1 j l). unfold hole.
    apply Nat.eqb_neq in Hj. rewrite Hj. auto.
  - assert (Hil : i < length al) by lia.
    destruct (@alone false a i c h HG Hc Hh) as [Al1 Al2].
    destruct HI2 as [H21 H22].
    assert (Hl' : nth_error (upd al i (min cn (length uv))) i = Some (min cn (length uv)))
      by (apply nth_error_upd_same; auto).
    destruct (H21 i _ Hl') as [_ Hlt]. destruct (at_ok uv2 Hlt) as (hn & _ & Ehn).
    exists c, h, (min cn (length uv)), hn. split; auto. split; auto. split; auto. split; auto.
    split; [auto|].
    assert (Hnd : forall s k, NoDup (seq s k)) by (intros; apply seq_NoDup).
    split; [|split].
    + intros Eone. assert (Hbt' : b = true) by (rewrite Hb; apply Al1; auto).
      destruct (Hbt Hbt') as (x0 & t & Ex & Ea). subst b. rewrite Hbt' in *. split.
      * change (option_map (@h_state I) (nth_error aux' 0) = Some (h_state h)). rewrite (Hsame 0). { simpl. rewrite Ea. reflexivity. }
        rewrite in_seq. lia.
      * intros j Hj. destruct (Hdraw (Hnd _ _) j) as (x & r0 & Ex' & Es).
        { apply in_seq. lia. }
        exists x. split; auto. exists r0. exact Es.
    + intros Eone. assert (Hbf' : b = false).
      { rewrite Hb. destruct (Z.leb (h_card h) 1); auto. exfalso. apply Eone, Al1; auto. }
      rewrite Hbf' in *. intros j Hj.
      destruct (Hdraw (Hnd _ _) j) as (x & r0 & Ex' & Es). { apply in_seq. lia. }
      exists x. split; auto. exists r0. exact Es.
    + intros Ehid.
      destruct (Nat.lt_ge_cases cn (length uv)) as [Hcl|Hcg].
      * (* joined an existing cluster: it has another member *)
        exfalso. rewrite Nat.min_l in * by lia.
        destruct (at_ok uv Hcl) as (g & _ & Eg). specialize (Hne1 cn g Eg).
        destruct HI1 as [_ H12]. destruct (H12 cn g Eg) as (_ & _ & M).
        destruct (h_ids g) as [|x lx] eqn:Egi; [congruence|].
        assert (Hx : hole i al x = Some cn) by (apply M; simpl; auto).
        unfold hole in Hx. destruct (x =? i) eqn:Exi; [discriminate|]. apply Nat.eqb_neq in Exi.
        destruct (H22 cn hn Ehn) as (_ & _ & M2). assert (Hin : In x (h_ids hn)).
        { apply M2. rewrite nth_error_upd_other; auto. }
        rewrite Ehid in Hin. destruct Hin as [|[]]; congruence.
      * destruct (Hnew Hcg) as [_ Hs]. rewrite Nat.min_r in Ehn by auto. rewrite Ehn in Hs. simpl in Hs.
        change (a_aux a2) with aux' in Hs.
        destruct (nth_error aux' (cn - length uv)) as [x|] eqn:Ex; [|discriminate].
        exists (cn - length uv), x. split; auto. simpl in Hs. congruence.
Qed.

End Data.
End More.
