(** * Semi-HDP: the structural invariant, part 2: groups moving between restaurants. *)
From Coq Require Import String.
From Coq Require Import Bool List Arith ZArith Reals Lia Permutation.
From Verif Require Import Base XReal Semi SemiWp SemiSpec SemiCount SemiInv.
Import ListNotations.
Local Open Scope nat_scope.

Lemma ok_rmap_any : forall A B (f : A -> res B) l (Q : list B -> Prop),
  (forall x, In x l -> ok (f x) (fun _ => True)) -> (forall ys, length ys = length l -> Q ys) -> ok (rmap f l) Q.
Proof.
  intros A B f l Q Hf HQ. apply ok_rmap with (Rl := fun _ _ => True); auto.
  intros ys F. apply HQ. symmetry. eapply Forall2_len. exact F.
Qed.

Section Inv2.
Variable I : SH.
Variable P : params.
Variable data : list (list (Datum I)).
Notation sst := (sst I).
Notation ng := (length data).
Notation wf := (wf I data).
Hypothesis Hcols : cols I = 1.
Hypothesis Hdata : forall d, In d data -> d <> [].
Hypothesis HG : gen_ok I.

Lemma group_nonempty : forall i, i < ng -> 0 < length (nth i data []).
Proof.
  intros i Hi. assert (X : nth i data [] <> []) by (apply Hdata; apply nth_In; auto). destruct (nth i data []); [congruence|simpl; lia].
Qed.

(** A restaurant with a group has a table. *)
Lemma occupied_nonempty : forall s r, wf s -> In r (s_ra I s) -> 0 < length (nth r (s_rest I s) []).
Proof.
  intros s r H Hr. destruct (In_nth _ _ 0 Hr) as (i & Hi & E). rewrite (wf_ral _ _ _ H) in Hi.
  destruct (wf_tab _ _ _ H i Hi) as [L F]. pose proof (group_nonempty i Hi) as G. rewrite E in F.
  destruct (nth i (s_tab I s) []) as [|t ts]; [simpl in L; lia|]. inversion F; lia.
Qed.

Lemma in_upd_other : forall A (l : list A) i x y, In y l -> y <> nth i l y -> In y (upd l i x).
Proof.
  induction l as [|a l IH]; intros i x y H N; simpl in *; [tauto|].
  destruct i; simpl in *.
  - destruct H as [->|H]; [congruence|right; auto].
  - destruct H as [->|H]; [left; auto|right; apply IH; auto].
Qed.

Lemma in_upd_inv : forall A (l : list A) i x y, In y (upd l i x) -> y = x \/ In y l.
Proof.
  induction l as [|a l IH]; intros i x y H; simpl in *; [destruct i; simpl in H; tauto|].
  destruct i; simpl in *; [destruct H as [->|H]; auto|].
  destruct H as [->|H]; auto. destruct (IH _ _ _ H); auto.
Qed.

Lemma in_upd_new : forall A (l : list A) i x, i < length l -> In x (upd l i x).
Proof.
  induction l as [|a l IH]; intros i x H; simpl in *; [lia|]. destruct i; simpl; auto. right. apply IH. lia.
Qed.

Lemma ok_mix_lpdf : forall tabs ns heap d (Q : xreal -> Prop), length tabs <= length ns ->
  Forall (fun o => o < length heap) tabs -> (forall x, Q x) -> ok (mix_lpdf I P tabs ns heap d) Q.
Proof.
  intros tabs ns heap d Q L F HQ. unfold mix_lpdf. apply ok_bind. apply ok_rmap_any; [|intros; apply HQ].
  intros h Hh. apply in_seq0 in Hh. apply ok_bind. apply ok_at with (d := 0%Z); [lia|]. apply ok_bind. apply ok_at with (d := 0); auto.
  pose proof (Forall_nth' _ _ 0 _ h F Hh) as X. cbv beta in X.
  apply ok_bind. unfold at_. destruct (nth_error heap _) eqn:E; [exact Logic.I|]. apply nth_error_None in E. lia.
Qed.

Lemma ok_row' : forall i j (Q : Datum I -> Prop), i < ng -> j < length (nth i data []) -> (forall d, Q d) -> ok (row I data i j) Q.
Proof.
  intros i j Q Hi Hj HQ. unfold row, at2. apply ok_bind. apply ok_at with (d := []); auto.
  unfold at_. destruct (nth_error (nth i data []) j) eqn:E; [apply HQ|]. apply nth_error_None in E. lia.
Qed.

Lemma ok_lpdf : forall s i r (Q : xreal -> Prop), wf s -> i < ng -> r < ng -> (forall x, Q x) -> ok (lpdf_for_group I P data s i r) Q.
Proof.
  intros s i r Q H Hi Hr HQ. unfold lpdf_for_group. apply ok_bind. apply ok_at with (d := false); [rewrite (wf_usedl _ _ _ H); auto|].
  set (us := nth r (s_used I s) false). clearbody us.
  apply ok_bind. apply ok_at with (d := []); [destruct us; rewrite ?(wf_rest _ _ _ H), ?(wf_restpl _ _ _ H); auto|].
  apply ok_bind. apply ok_at with (d := []); [destruct us; rewrite ?(wf_nl _ _ _ H), ?(wf_npl _ _ _ H); auto|].
  apply ok_bind. apply ok_nby; auto. apply ok_bind. apply ok_rmap_any; [|intros; apply HQ].
  intros j Hj. apply in_seq0 in Hj. apply ok_bind. apply ok_row'; auto. intros d. apply ok_mix_lpdf; auto.
  - destruct us; [apply (wf_n _ _ _ H); auto|]. destruct (wf_pseudo _ _ _ H r Hr). lia.
  - destruct us; [apply (ro_rt _ _ _ _ _ _ (wf_row _ _ _ H r Hr))|]. destruct (wf_pseudo _ _ _ H r Hr). auto.
Qed.

Lemma ok_mix_of : forall s r (Q : list (St I * R) -> Prop), wf s -> r < ng ->
  (forall x, length x = length (nth r (s_rest I s) []) -> Q x) -> ok (mix_of I s r) Q.
Proof.
  intros s r Q H Hr HQ. unfold mix_of. apply ok_bind. apply ok_at with (d := []); [rewrite (wf_rest _ _ _ H); auto|].
  apply ok_rmap_any; [|intros ys L; apply HQ; rewrite L, seq_length; auto].
  intros l Hl. apply in_seq0 in Hl. apply ok_bind. apply ok_at with (d := 0); auto.
  pose proof (Forall_nth' _ _ 0 _ l (ro_rt _ _ _ _ _ _ (wf_row _ _ _ H r Hr)) Hl) as X. cbv beta in X.
  apply ok_bind. unfold at_. destruct (nth_error (s_heap I s) _) eqn:E; [|apply nth_error_None in E; lia].
  apply ok_bind. apply ok_at2 with (d := 0%Z); [rewrite (wf_nl _ _ _ H); auto| |exact Logic.I].
  pose proof (wf_n _ _ _ H r Hr). lia.
Qed.

Lemma ok_mixture_distance : forall s i (Q : list R -> Prop), wf s -> i < ng -> 0 < length (nth i (s_rest I s) []) ->
  (forall x, length x = ng -> Q x) -> ok (mixture_distance I data s i) Q.
Proof.
  intros s i Q H Hi Hn HQ. unfold mixture_distance. apply ok_bind. apply ok_mix_of; auto. intros c1 L1.
  destruct c1 as [|c cs]; [simpl in L1; lia|]. apply ok_rmap_any; [|intros ys L; apply HQ; rewrite L, seq_length; reflexivity].
  intros r Hr. apply in_seq0 in Hr. apply ok_bind. apply ok_mix_of; auto. intros; exact Logic.I.
Qed.

(** [reassign_group]: the state after the restaurant of the group has changed. *)
Lemma wf_tab_only : forall s tab,
  (length tab = ng /\ forall i, i < ng -> length (nth i tab []) = length (nth i data []) /\
      Forall (fun t => t < length (nth (nth i (s_ra I s) 0) (s_rest I s) [])) (nth i tab [])) ->
  (exists tab0, wf (w_tab I tab0 s)) -> wf (w_tab I tab s).
Proof. intros s tab [L H] [tab0 H0]. destruct H0. constructor; auto. Qed.

(** Everything but the tables of group [i]. *)
Definition wf_but (i : nat) (s : sst) : Prop :=
  forall tab, length tab = ng -> (forall i', i' < ng -> i' <> i -> nth i' tab [] = nth i' (s_tab I s) []) ->
    length (nth i tab []) = length (nth i data []) ->
    Forall (fun t => t < length (nth (nth i (s_ra I s) 0) (s_rest I s) [])) (nth i tab []) -> wf (w_tab I tab s).

Lemma ok_reassign_obs_loop : forall s g i r (Q : sst * Gs I -> Prop), i < ng -> r < ng ->
  wf_but i s -> length (s_tab I s) = ng -> length (nth i (s_tab I s) []) = length (nth i data []) ->
  nth i (s_ra I s) 0 = r -> length (s_rest I s) = ng -> length (s_n I s) = ng ->
  0 < length (nth r (s_rest I s) []) -> length (nth r (s_rest I s) []) <= length (nth r (s_n I s) []) ->
  Forall (fun o => o < length (s_heap I s)) (nth r (s_rest I s) []) ->
  (forall tab g', wf (w_tab I tab s) -> Q (w_tab I tab s, g')) ->
  ok (rfold (reassign_obs I data i r) (seq 0 (length (nth i data []))) (s, g)) Q.
Proof.
  intros s g i r Q Hi Hr W L1 L2 Er L3 L4 Hn Hnn F HQ.
  apply ok_for with (Inv := fun m a => exists tab g, a = (w_tab I tab s, g) /\ length tab = ng /\
     (forall i', i' < ng -> i' <> i -> nth i' tab [] = nth i' (s_tab I s) []) /\
     length (nth i tab []) = length (nth i data []) /\
     (forall j, j < m -> nth j (nth i tab []) 0 < length (nth r (s_rest I s) []))).
  - exists (s_tab I s), g. split; [destruct s; reflexivity|]. do 3 (split; auto). intros; lia.
  - intros j a Hj (tab & g1 & -> & A1 & A2 & A3 & A4). unfold reassign_obs. apply ok_bind. apply ok_row'; auto. intros d.
    apply ok_bind. apply ok_at with (d := []); [cbn; lia|]. cbn [w_tab s_rest s_n s_heap].
    apply ok_bind. apply ok_rmap_any.
    + intros l Hl. apply in_seq0 in Hl. apply ok_bind. apply ok_at2 with (d := 0%Z); [lia|lia|].
      apply ok_bind. apply ok_at with (d := 0); auto. pose proof (Forall_nth' _ _ 0 _ l F Hl) as X. cbv beta in X.
      apply ok_bind. unfold at_. destruct (nth_error (s_heap I s) _) eqn:E; [exact Logic.I|]. apply nth_error_None in E. lia.
    + intros ps Lp. rewrite seq_length in Lp. destruct ps as [|p ps]; [simpl in Lp; lia|].
      pose proof (go_cat _ HG (p :: ps) g1 ltac:(discriminate)) as Ct. destruct (cat I (p :: ps) g1) as [t g2]. cbn [fst] in Ct.
      apply ok_bind. apply ok_set2; cbn [w_tab s_tab]; [lia|lia|]. cbn [ok].
      eexists _, g2. split; [reflexivity|]. rewrite upd_length. split; auto. split.
      { intros i' Hi' N. rewrite nth_upd_other by auto. apply A2; auto. }
      rewrite nth_upd_same by lia. rewrite upd_length. split; auto.
      intros j' Hj'. rewrite nth_upd. destruct (Nat.eqb_spec j' j) as [->|N].
      * assert (X : (j <? length (nth i tab [])) = true) by (apply Nat.ltb_lt; lia). rewrite X. cbn [andb]. rewrite <- Lp. exact Ct.
      * cbn [andb]. apply A4. lia.
  - intros a (tab & g1 & -> & A1 & A2 & A3 & A4). apply HQ. apply W; auto. rewrite Er. apply Forall_forall.
    intros t Ht. destruct (In_nth _ _ 0 Ht) as (j & Hj & <-). apply A4. lia.
Qed.

Lemma existsb_in : forall r l, existsb (Nat.eqb r) l = true <-> In r l.
Proof.
  intros r l. rewrite existsb_exists. split.
  - intros (x & Hx & E). apply Nat.eqb_eq in E. subst. auto.
  - intros H. exists r. split; auto. apply Nat.eqb_refl.
Qed.

Lemma somes_map_Some : forall A (l : list A), somes (map Some l) = l.
Proof. intros A l. induction l as [|x l IH]; simpl; auto. unfold somes in *. simpl. f_equal. exact IH. Qed.

Lemma row_ok_fresh : forall hn sn tabs, Forall (fun o => o < hn) tabs ->
  row_ok hn sn tabs tabs (repeat None (length tabs)) (map Some (seq 0 (length tabs))).
Proof.
  intros hn sn tabs F. constructor; auto.
  - apply repeat_length.
  - rewrite map_length, seq_length. reflexivity.
  - intros l Hl. rewrite (nth_indep _ None (Some 0)) by (rewrite map_length, seq_length; auto).
    rewrite (map_nth Some). rewrite nth_repeat. exact Logic.I.
  - rewrite somes_map_Some. apply Permutation_refl.
  - intros l k Hl E. rewrite (nth_indep _ None (Some 0)) in E by (rewrite map_length, seq_length; auto).
    rewrite (map_nth Some), seq_nth in E by auto. injection E as <-. reflexivity.
Qed.

Lemma ok_reassign_group : forall s g i new_r (Q : sst * Gs I -> Prop), wf s -> i < ng -> new_r < ng ->
  new_r <> nth i (s_ra I s) 0 -> (forall r, r < ng -> nth r (s_restp I s) [] <> []) ->
  (forall s' g', wf s' -> s_restp I s' = s_restp I s -> Q (s', g')) ->
  ok (reassign_group I data i new_r (nth i (s_ra I s) 0) s g) Q.
Proof.
  intros s g i new_r Q H Hi Hnr Nr Hp HQ. set (old := nth i (s_ra I s) 0) in *.
  assert (Ho : old < ng) by (apply (wf_ra _ _ _ H); auto).
  pose proof (wf_ral _ _ _ H) as Lra. pose proof (wf_usedl _ _ _ H) as Lu.
  unfold reassign_group. apply ok_bind. apply ok_set; [lia|]. apply ok_bind. apply ok_set; [lia|].
  set (ra := upd (s_ra I s) i new_r). set (us := upd (s_used I s) old (existsb (Nat.eqb old) ra)).
  assert (Lra' : length ra = ng) by (unfold ra; rewrite upd_length; auto).
  assert (Lus : length us = ng) by (unfold us; rewrite upd_length; auto).
  assert (Hra : forall i', i' < ng -> nth i' ra 0 < ng).
  { intros i' Hi'. unfold ra. rewrite nth_upd. destruct ((i' =? i) && (i <? length (s_ra I s))); auto. apply (wf_ra _ _ _ H); auto. }
  assert (Hold : nth old us false = true <-> In old ra).
  { unfold us. rewrite nth_upd_same by lia. apply existsb_in. }
  assert (Hin : forall r, r <> new_r -> r <> old -> (In r ra <-> In r (s_ra I s))).
  { intros r N1 N2. unfold ra. split; intros X.
    - destruct (in_upd_inv _ _ _ _ _ X); auto. congruence.
    - apply in_upd_other; auto. rewrite (nth_indep _ r 0) by lia. exact N2. }
  assert (Hus : forall r, r < ng -> r <> new_r -> (nth r us false = true <-> In r ra)).
  { intros r Hr N. destruct (Nat.eq_dec r old) as [->|N2]; auto. rewrite Hin by auto. unfold us. rewrite nth_upd_other by auto. apply (wf_used _ _ _ H); auto. }
  assert (Hnu : nth new_r us false = nth new_r (s_used I s) false) by (unfold us; apply nth_upd_other; auto).
  assert (Hinr : In new_r ra) by (apply in_upd_new; lia).
  apply ok_bind. apply ok_at with (d := false); [lia|].
  destruct (nth new_r us false) eqn:Eun.
  - (* the restaurant is in use *)
    apply ok_bind. cbn [ok]. apply ok_bind. apply ok_nby; auto.
    assert (Hocc : In new_r (s_ra I s)) by (apply (wf_used _ _ _ H); auto; congruence).
    destruct (wf_tab _ _ _ H i Hi) as [T1 _].
    apply ok_reassign_obs_loop; auto; cbn [w_ra s_tab s_rest s_n s_ra s_heap].
    + intros tab A1 A2 A3 A4. cbn in A2, A3, A4.
      destruct H; constructor; cbn; auto.
      * intros r Hr. destruct (Nat.eq_dec r new_r) as [->|N]; [tauto|apply Hus; auto].
      * intros i' Hi'. destruct (Nat.eq_dec i' i) as [->|N]; [auto|]. rewrite A2 by auto. unfold ra. rewrite nth_upd_other by auto. auto.
    + apply (wf_tabl _ _ _ H).
    + unfold ra. apply nth_upd_same. lia.
    + apply (wf_rest _ _ _ H).
    + apply (wf_nl _ _ _ H).
    + apply occupied_nonempty; auto.
    + apply (wf_n _ _ _ H); auto.
    + apply (ro_rt _ _ _ _ _ _ (wf_row _ _ _ H new_r Hnr)).
  - (* the restaurant is opened from the pseudo-prior *)
    destruct (wf_pseudo _ _ _ H new_r Hnr) as [P1 P2]. specialize (Hp new_r Hnr).
    assert (Hnocc : ~ In new_r (s_ra I s)).
    { intros X. apply (wf_used _ _ _ H) in X; auto. congruence. }
    pose proof (wf_rest _ _ _ H) as B1. pose proof (wf_nl _ _ _ H) as B2. pose proof (wf_privl _ _ _ H) as B3.
    pose proof (wf_tsl _ _ _ H) as B4. pose proof (wf_tpl _ _ _ H) as B5. pose proof (wf_restpl _ _ _ H) as B6. pose proof (wf_npl _ _ _ H) as B7.
    apply ok_bind. apply ok_bind. apply ok_at with (d := []); [cbn; lia|]. cbn [w_ra s_restp s_np s_rest s_n s_priv s_ts s_tp].
    apply ok_bind. apply ok_at with (d := []); [lia|]. set (tabs := nth new_r (s_restp I s) []) in *.
    apply ok_bind. apply ok_set; [lia|]. apply ok_bind. apply ok_set; [lia|]. apply ok_bind. apply ok_set; [lia|].
    apply ok_bind. apply ok_set; [lia|]. apply ok_bind. apply ok_set; [lia|]. apply ok_bind. apply ok_set; [lia|]. cbn [ok].
    apply ok_bind. apply ok_nby; auto.
    destruct (wf_tab _ _ _ H i Hi) as [T1 _].
    assert (Ht0 : 0 < length tabs) by (destruct tabs; [congruence|simpl; lia]).
    apply ok_reassign_obs_loop; auto; cbn [w_ra w_rest w_n w_priv w_ts w_tp s_tab s_rest s_n s_ra s_heap]; rewrite ?upd_length; auto.
    + intros tab A1 A2 A3 A4. cbn in A2, A3, A4.
      assert (Erow : forall A (l : list (list A)) x r, length l = ng -> r < ng -> nth r (upd l new_r x) [] = if r =? new_r then x else nth r l []).
      { intros A l x r Ll Hr. rewrite nth_upd. apply Nat.ltb_lt in Hnr. rewrite Ll, Hnr, andb_true_r. reflexivity. }
      destruct H; constructor; cbn; rewrite ?upd_length; auto.
      * intros r Hr. rewrite !Erow by auto. destruct (r =? new_r); auto. apply row_ok_fresh. exact P2.
      * intros r Hr. destruct (Nat.eq_dec r new_r) as [->|N].
        -- rewrite nth_upd_same by lia. tauto.
        -- rewrite nth_upd_other by auto. apply Hus; auto.
      * intros i' Hi'. destruct (Nat.eq_dec i' i) as [->|N]; [auto|]. rewrite A2 by auto. unfold ra. rewrite (nth_upd_other _ (s_ra I s)) by auto.
        rewrite Erow by auto. destruct (Nat.eqb_spec (nth i' (s_ra I s) 0) new_r) as [E|_]; auto.
        exfalso. apply Hnocc. rewrite <- E. apply nth_In. lia.
      * intros r Hr. rewrite !Erow by auto. destruct (r =? new_r); auto. lia.
      * apply alias_take. auto.
    + apply (wf_tabl _ _ _ H).
    + unfold ra. apply nth_upd_same. lia.
    + rewrite nth_upd_same by lia. exact Ht0.
    + rewrite !nth_upd_same by lia. lia.
    + rewrite nth_upd_same by lia. exact P2.
Qed.

Lemma ok_rest_step : forall s g i (Q : sst * Gs I -> Prop), wf s -> i < ng ->
  (forall r, r < ng -> nth r (s_restp I s) [] <> []) ->
  (forall s' g', wf s' -> s_restp I s' = s_restp I s -> Q (s', g')) ->
  ok (rest_step I P data (s, g) i) Q.
Proof.
  intros s g i Q H Hi Hp HQ. unfold rest_step. apply ok_bind. apply ok_at with (d := 0); [rewrite (wf_ral _ _ _ H); auto|].
  pose proof (wf_ra _ _ _ H i Hi) as Hc. pose proof (wf_concl _ _ _ H) as Lc.
  assert (Hng : 0 < ng) by lia.
  apply ok_bind. apply ok_mono with (Q := fun p => fst p < ng).
  2:{ intros [nr g1] Hnr. cbn [fst] in Hnr. destruct (Nat.eqb_spec nr (nth i (s_ra I s) 0)) as [E|N]; [apply HQ; auto|].
      apply ok_reassign_group; auto. }
  destruct (String.eqb (p_mode P) "full").
  - apply ok_bind. apply ok_rmap_any.
    + intros r Hr. apply in_seq0 in Hr. change (r < ng) in Hr. apply ok_bind. apply ok_lpdf; auto. intros x.
      apply ok_bind. apply ok_at with (d := 0%R); [lia|exact Logic.I].
    + intros ps Lp. rewrite seq_length in Lp. cbn [ok]. eapply Nat.lt_le_trans; [apply (go_cat _ HG)|].
      * intros ->. simpl in Lp. change (0 = ng) in Lp. lia.
      * change (length ps = ng) in Lp. lia.
  - apply ok_bind. apply ok_mono with (Q := fun p => fst p < ng).
    + destruct (String.eqb (p_mode P) "metro_base"); [cbn [ok]; apply (go_uint _ HG); exact Hng|].
      destruct (String.eqb (p_mode P) "metro_dist"); [|cbn [ok fst]; auto].
      apply ok_bind. apply ok_mixture_distance; auto.
      * apply occupied_nonempty; auto. apply nth_In. rewrite (wf_ral _ _ _ H). auto.
      * intros x Lx. cbn [ok]. eapply Nat.lt_le_trans; [apply (go_catp _ HG)|].
        -- destruct x; [simpl in Lx; lia|discriminate].
        -- rewrite !map_length. lia.
    + intros [pr g1] Hpr. cbn [fst] in Hpr. apply ok_bind. apply ok_lpdf; auto. intros x1. apply ok_bind. apply ok_at with (d := 0%R); [lia|].
      apply ok_bind. apply ok_lpdf; auto. intros x2. apply ok_bind. apply ok_at with (d := 0%R); [lia|].
      destruct (unif I g1) as [u g2]. destruct (Rlt_dec _ _); cbn [ok fst]; auto.
Qed.

Lemma ok_rest_allocs : forall s g (Q : sst * Gs I -> Prop), wf s ->
  (forall r, r < ng -> nth r (s_restp I s) [] <> []) ->
  (forall s' g', wf s' -> Q (s', g')) ->
  ok (update_rest_allocs I P data s g) Q.
Proof.
  intros s g Q H Hp HQ. unfold update_rest_allocs.
  apply ok_for with (Inv := fun _ a => wf (fst a) /\ s_restp I (fst a) = s_restp I s).
  - auto.
  - intros i [s1 g1] Hi [H1 E]. cbn [fst] in *. apply ok_rest_step; auto.
    + rewrite E. auto.
    + intros s' g' H' E'. cbn [fst]. split; congruence.
  - intros [s' g'] [H' _]. auto.
Qed.

End Inv2.
