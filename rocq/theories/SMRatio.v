(** * The acceptance ratio of the split-and-merge sampler. *)
From Coq Require Import String.
From Coq Require Import Bool List Arith ZArith Reals Lra Lia Permutation.
From Verif Require Import Base Hier Algos SplitMerge Run Spec MargFacts NealFacts InitFacts MargMore MargProps SMFacts SMProps.
From Verif Require Import PartSpec MixFacts GibbsSpec GibbsComb GibbsPost GibbsFacts SMPost.
Import ListNotations.
Local Open Scope R_scope.
Arguments prodR l : simpl never.
Arguments sumR l : simpl never.

(** Masses of the mixing when asked with two clusters, as split-merge does. *)
Definition pair_masses (I : Iface) (val : W I -> R) (m : Mix I) (n : nat) (t d : R) : Prop :=
  (forall k card, (k <= n)%nat -> (1 <= card)%Z -> exists w, mass_ex I m k 2 card = Ok w /\ val w = IZR card - d) /\
  (exists w, mass_new I m n 2 = Ok w /\ val w = t + 2 * d).

Section Ratio.
Variable I : Iface.
Variable L : laws I.
Variable data : list (Datum I).
Notation n := (length data).
Notation c0 := (cov0 I).
Notation cvf := (fun _ : nat => Ok (cov0 I)).
Hypothesis Hrows : rows_ok I data cvf.
Hypothesis Hcj : conj I = true.
Hypothesis Hod : other_draw I = None.
Variable val : W I -> R.
Hypothesis val_add : forall a b, val (wadd I a b) = val a * val b.
Hypothesis val_0 : val (w0 I) = 1.
Hypothesis val_neg : forall w, 0 < val w -> val (wneg I w) = / val w.
Variables t d : R.
Hypothesis Hd : 0 <= d < 1.
Variable hy : Hyp I.
Variable M : list nat -> R.
Hypothesis HM : marginal_likelihood I data (covs0 I data) val hy M.

Let M_pos : forall ids, ids <> [] -> 0 < M ids := proj1 HM.
Let M_perm : forall ids ids', Permutation ids ids' -> M ids = M ids' := proj1 (proj2 HM).

(** A cluster object holding exactly [ids], with an up-to-date cache if any. *)
Definition has (h : hier I) (ids : list nat) : Prop :=
  @holds I data h ids /\ NoDup ids /\ (forall j, In j ids -> (j < n)%nat) /\
  (h_saved h = true -> h_ph h = Some (post I hy (h_card h) (h_stats h) (h_state h))).

Lemma has_clone : forall h, has (h_clone h) [].
Proof. intros h. split; [apply holds_clone|]. split; [constructor|]. split; [intros j []|discriminate]. Qed.

Lemma has_perm : forall h ids, has h ids -> Permutation (h_ids h) ids.
Proof. intros h ids (((S & _) & _ & E) & N & _). apply NoDup_Permutation; [apply ssorted_NoDup; exact S|exact N|exact E]. Qed.
Lemma has_card : forall h ids, has h ids -> h_card h = Z.of_nat (length ids).
Proof. intros h ids H. pose proof (has_perm _ _ H) as P. destruct H as (((_ & C & _) & _) & _). rewrite C, (Permutation_length P). reflexivity. Qed.

Lemma has_add : forall h ids i x, has h ids -> at_ data i = Ok x -> (i < n)%nat -> ~ In i ids ->
  exists h', h_add hy true i x c0 h = Ok h' /\ has h' (i :: ids).
Proof.
  intros h ids i x (H & N & B & F) Hx Hi Hn. destruct H as (K & P & E).
  destruct (@h_add_ok_gen I L data cvf Hrows hy true i x c0 h) as (h' & Eh & K' & Ei & _ & F' & _); auto.
  { rewrite E; auto. }
  exists h'. split; auto. assert (Fr : fresh hy h') by (apply F'; auto). destruct Fr as [Fr1 Fr2].
  split; [split; auto; split|split; [|split]].
  - intros _. rewrite Fr2. discriminate.
  - intros j. rewrite Ei, In_set_insert, E. simpl. intuition.
  - constructor; auto.
  - intros j [<-|Hj]; auto.
  - intros _. exact Fr2.
Qed.

Lemma at_covs0 : forall i, (i < n)%nat -> at_ (covs0 I data) i = Ok c0.
Proof.
  intros i Hi. unfold covs0, at_. rewrite nth_error_map. destruct (nth_error data i) eqn:E; [reflexivity|]. apply nth_error_None in E. lia.
Qed.

Lemma has_pred : forall h ids i x, has h ids -> ids <> [] -> at_ data i = Ok x -> (i < n)%nat -> ~ In i ids ->
  exists w, h_cond_pred hy h x c0 = Ok w /\ val w * M ids = M (i :: ids).
Proof.
  intros h ids i x H Hne Hx Hi Hn. pose proof (has_perm _ _ H) as P. destruct H as (((S & C & St) & Ph & E) & N & B & F).
  assert (G : exists p, h_cond_pred hy h x c0 = Ok (marg_lpdf I p x c0) /\ p = post I hy (h_card h) (h_stats h) (h_state h)).
  { unfold h_cond_pred, h_get_post. rewrite Hod. destruct (h_saved h) eqn:Es.
    - rewrite (F eq_refl). cbn [rbind]. eexists. split; reflexivity.
    - unfold h_compute_post. rewrite Hod. cbn [rbind]. eexists. split; reflexivity. }
  destruct G as (p & Ep & ->). eexists. split; [exact Ep|].
  pose proof (proj2 (proj2 (proj2 HM))) as H4. rewrite (post_conj L Hcj hy (h_card h) (h_stats h) (h_state h) (init_state I hy)).
  rewrite C, St, batch_covs0. rewrite <- (M_perm _ _ P). rewrite <- (M_perm (i :: h_ids h) (i :: ids)) by (constructor; exact P).
  apply H4; auto.
  - apply at_covs0; exact Hi.
  - constructor; [rewrite E; exact Hn|apply ssorted_NoDup; exact S].
  - intros X. apply Hne. rewrite X in P. apply Permutation_nil. exact P.
  - intros j Hj. apply B, E. exact Hj.
Qed.

Notation bl := (block d).
Let bpos : forall m, 0 < bl m := fun m => @block_pos d m (proj2 Hd).

Lemma mass_card : forall m k ids h, pair_masses I val m n t d -> (k <= n)%nat -> has h ids -> ids <> [] ->
  exists w, mass_ex I m k 2 (h_card h) = Ok w /\ val w = INR (length ids) - d /\ 0 < val w.
Proof.
  intros m k ids h [Hm _] Hk H Hne. assert (1 <= length ids)%nat by (destruct ids; [congruence|simpl; lia]).
  rewrite (has_card _ _ H). destruct (Hm k (Z.of_nat (length ids)) Hk ltac:(lia)) as (w & E & V). exists w. split; auto.
  rewrite V, <- INR_IZR_INZ. assert (1 <= INR (length ids)) by (apply (le_INR 1); auto). split; [reflexivity|lra].
Qed.

Lemma loop_val : forall (a : alg I) l dv un pd pu lr D U,
  length (a_alloc a) = n -> a_hyp a = hy -> pair_masses I val (a_mix a) n t d ->
  NoDup l -> (forall j, In j l -> (j < n)%nat /\ ~ In j D /\ ~ In j U) ->
  has dv D -> has un U -> D <> [] -> U <> [] ->
  exists dv' un' pd' pu' lr',
    rfold (ratio_step data a) l (((dv, un), (pd, pu)), lr) = Ok (((dv', un'), (pd', pu')), lr') /\
    has un' (rev l ++ U) /\
    val pd' * M D = val pd * M (rev l ++ D) /\
    val pu' * M U = val pu * M (rev l ++ U) /\
    val lr' = val lr * (bl (length l + length D) / bl (length D)) * (bl (length U) / bl (length l + length U)).
Proof.
  intros a l. induction l as [|j l IH]; intros dv un pd pu lr D U Hl Hh Hm Hnd Hj HD HU ND NU.
  - simpl. do 5 eexists. split; [reflexivity|]. split; [exact HU|]. split; [reflexivity|]. split; [reflexivity|].
    pose proof (bpos (length D)). pose proof (bpos (length U)). field. lra.
  - inversion Hnd as [|x l' Hnj Hnd']. subst x l'.
    destruct (Hj j) as (Hjn & HjD & HjU); [simpl; auto|].
    destruct (rows0 Hrows Hjn) as (y & Ed). cbn [rfold].
    unfold ratio_step at 1. rewrite Ed. cbn [rbind]. rewrite Hh, Hl.
    destruct (has_pred dv D j y HD ND Ed Hjn HjD) as (p1 & Ep1 & V1). rewrite Ep1. cbn [rbind].
    destruct (mass_card _ n _ _ Hm (le_n n) HD ND) as (m1 & Em1 & W1 & Q1). rewrite Em1. cbn [rbind].
    destruct (has_add dv D j y HD Ed Hjn HjD) as (dv' & Edv & HD'). rewrite Edv. cbn [rbind].
    destruct (has_pred un U j y HU NU Ed Hjn HjU) as (p2 & Ep2 & V2). rewrite Ep2. cbn [rbind].
    destruct (mass_card _ n _ _ Hm (le_n n) HU NU) as (m2 & Em2 & W2 & Q2). rewrite Em2. cbn [rbind].
    destruct (has_add un U j y HU Ed Hjn HjU) as (un' & Eun & HU'). rewrite Eun. cbn [rbind].
    destruct (IH dv' un' (wadd I pd p1) (wadd I pu p2) (wadd I (wadd I lr m1) (wneg I m2)) (j :: D) (j :: U))
      as (dv2 & un2 & pd2 & pu2 & lr2 & E & H2 & A1 & A2 & A3); auto; try discriminate.
    { intros k Hk. destruct (Hj k) as (A & B & C); [simpl; auto|]. split; auto. simpl.
      split; intros [->|X]; auto. }
    exists dv2, un2, pd2, pu2, lr2. split; [exact E|]. simpl rev. rewrite <- !app_assoc. cbn [app]. split; [exact H2|].
    pose proof (M_pos D ND) as MD. pose proof (M_pos U NU) as MU.
    pose proof (M_pos (j :: D) ltac:(discriminate)) as MjD. pose proof (M_pos (j :: U) ltac:(discriminate)) as MjU.
    rewrite !val_add in A1, A2, A3. split; [|split].
    + apply Rmult_eq_reg_r with (M (j :: D)); [|lra]. transitivity (val pd2 * M (j :: D) * M D); [ring|]. rewrite A1. rewrite <- V1. ring.
    + apply Rmult_eq_reg_r with (M (j :: U)); [|lra]. transitivity (val pu2 * M (j :: U) * M U); [ring|]. rewrite A2. rewrite <- V2. ring.
    + rewrite A3, ?val_add, (val_neg m2 Q2), W1, W2. cbn [length].
      assert (LD : (1 <= length D)%nat) by (destruct D; [congruence|simpl; lia]). assert (LU : (1 <= length U)%nat) by (destruct U; [congruence|simpl; lia]).
      rewrite (block_S d (length D) LD), (block_S d (length U) LU), !Nat.add_succ_r. cbn [Nat.add].
      pose proof (bpos (length D)). pose proof (bpos (length U)). pose proof (bpos (S (length l + length D))). pose proof (bpos (S (length l + length U))).
      rewrite W1 in Q1. rewrite W2 in Q2. field. lra.
Qed.

(** Marginal likelihood with value 1 for no data. *)
Definition Mo (ids : list nat) : R := match ids with [] => 1 | _ => M ids end.

Lemma remove_perm : forall i ids, ssorted ids -> In i ids -> Permutation ids (i :: set_remove i ids).
Proof.
  intros i ids S Hi. apply NoDup_Permutation.
  - apply ssorted_NoDup; exact S.
  - constructor; [|apply ssorted_NoDup, ssorted_remove; exact S]. intros X. apply In_set_remove in X; auto. tauto.
  - intros j. cbn [In]. rewrite In_set_remove by exact S. destruct (Nat.eq_dec j i) as [->|N]; [tauto|]. split; [auto|]. intros [->|H]; tauto.
Qed.

Lemma clust_val : forall (a : alg I) h0 i ids un pu pd lr U,
  length (a_alloc a) = n -> a_hyp a = hy -> pair_masses I val (a_mix a) n t d ->
  ssorted ids -> In i ids -> (forall j, In j ids -> (j < n)%nat) ->
  (forall j, In j ids -> ~ In j U) -> has un U ->
  exists un' pu' pd' lr', ratio_clust data a h0 i ids ((un, pu), (pd, lr)) = Ok ((un', pu'), (pd', lr')) /\
    has un' (rev (set_remove i ids) ++ i :: U) /\
    val pd' = val pd * M ids /\
    val pu' * Mo U = val pu * M (ids ++ U) /\
    val lr' = val lr * bl (length ids) * bl (length U) / bl (length ids + length U).
Proof.
  intros a h0 i ids un pu pd lr U Hl Hh Hm Hs Hii Hids HdU HU. unfold ratio_clust.
  assert (Hi : (i < n)%nat) by auto.
  destruct (rows0 Hrows Hi) as (y & Ed). rewrite Ed. cbn [rbind]. rewrite Hh, Hl.
  destruct (has_add (h_clone h0) [] i y (has_clone h0) Ed Hi (fun x => x)) as (dv & Edv & HD). rewrite Edv. cbn [rbind].
  pose proof (remove_perm i ids Hs Hii) as PR. set (rest := set_remove i ids) in *.
  assert (LR : length ids = S (length rest)) by (rewrite (Permutation_length PR); reflexivity).
  assert (MI : val (h_prior_pred I hy y c0) = M [i]).
  { apply (proj1 (proj2 (proj2 HM))); [exact Ed|apply at_covs0; exact Hi]. }
  match goal with |- context [rbind (if _ then Ok (?A, ?B) else ?C) _] =>
    assert (K : exists pu1 lr1, (if Z.eqb (h_card un) 0 then Ok (A, B) else C) = Ok (pu1, lr1) /\
      val pu1 * Mo U = val pu * M (i :: U) /\ val lr1 * bl (S (length U)) = val lr * bl (length U)) end.
  { rewrite (has_card _ _ HU). destruct U as [|u U'].
    - cbn [length Z.of_nat Z.eqb]. do 2 eexists. split; [reflexivity|]. rewrite val_add, MI. cbn [Mo]. rewrite block_1, block_0. split; ring.
    - replace (Z.eqb (Z.of_nat (length (u :: U'))) 0) with false by (symmetry; apply Z.eqb_neq; simpl; lia).
      destruct (has_pred un (u :: U') i y HU ltac:(discriminate) Ed Hi (HdU i Hii)) as (p & Ep & V). rewrite Ep. cbn [rbind].
      destruct (mass_card _ n _ _ Hm (le_n n) HU ltac:(discriminate)) as (m & Em & W & Q). rewrite (has_card _ _ HU) in Em. rewrite Em. cbn [rbind].
      do 2 eexists. split; [reflexivity|]. rewrite !val_add, (val_neg m Q), W. cbn [Mo]. rewrite Rmult_assoc, V. split; [reflexivity|].
      rewrite block_S by (simpl; lia). rewrite W in Q. field. lra. }
  destruct K as (pu1 & lr1 & E1 & Vp & Vl). rewrite E1. cbn [rbind].
  destruct (has_add un U i y HU Ed Hi (HdU i Hii)) as (un1 & Eun & HU1). rewrite Eun. cbn [rbind].
  assert (Hrest : forall j, In j rest -> In j ids /\ j <> i) by (intros j Hj; apply In_set_remove in Hj; auto; tauto).
  destruct (loop_val a rest dv un1 (wadd I pd (h_prior_pred I hy y c0)) pu1 lr1 [i] (i :: U))
    as (dv2 & un2 & pd2 & pu2 & lr2 & E & H2 & A1 & A2 & A3); auto; try discriminate.
  { apply ssorted_NoDup, ssorted_remove; auto. }
  { intros j Hj. destruct (Hrest j Hj) as [A B].
    split; [auto|]. simpl. split; [intuition|]. intros [X|X]; [congruence|]. eapply HdU; eauto. }
  rewrite E. cbn [rbind]. do 4 eexists. split; [reflexivity|]. split; [exact H2|].
  pose proof (M_pos [i] ltac:(discriminate)) as M1. pose proof (M_pos (i :: U) ltac:(discriminate)) as M2.
  split; [|split].
  - rewrite val_add, MI in A1. assert (Pm : M (rev rest ++ [i]) = M ids).
    { apply M_perm. rewrite PR. rewrite <- Permutation_rev. apply Permutation_app_comm. }
    rewrite Pm in A1. apply Rmult_eq_reg_r with (M [i]); [|lra]. rewrite A1. ring.
  - assert (Pm : M (rev rest ++ i :: U) = M (ids ++ U)).
    { apply M_perm. rewrite PR. rewrite <- Permutation_rev. cbn [app]. symmetry. apply Permutation_middle. }
    rewrite Pm in A2. apply Rmult_eq_reg_r with (M (i :: U)); [|lra]. transitivity (val pu2 * M (i :: U) * Mo U); [ring|]. rewrite A2.
    transitivity (val pu1 * Mo U * M (ids ++ U)); [ring|]. rewrite Vp. ring.
  - rewrite A3. cbn [length]. rewrite LR, !Nat.add_succ_r, Nat.add_0_r, block_1. cbn [Nat.add].
    pose proof (bpos (length U)). pose proof (bpos (S (length U))). pose proof (bpos (S (length rest + length U))).
    apply Rmult_eq_reg_r with (bl (S (length rest + length U))); [|lra].
    transitivity (val lr1 * bl (S (length U)) * bl (S (length rest))); [field; lra|]. rewrite Vl. field. lra.
Qed.

(** Value of the two log-ratios in terms of the two groups. *)
Definition ratios_of (ids0 ids1 : list nat) (split : bool) (ll lpr : W I) : Prop :=
  let L_ := M ids0 * M ids1 / M (ids1 ++ ids0) in
  let P_ := (t + 2 * d) * bl (length ids0) * bl (length ids1) / bl (length ids0 + length ids1) in
  val ll = (if split then L_ else / L_) /\ val lpr = (if split then P_ else / P_).

Lemma ratios_val : forall (a : alg I) g f s split ids0 ids1,
  length (a_alloc a) = n -> a_uv a <> [] -> a_hyp a = hy -> pair_masses I val (a_mix a) n t d -> 0 < t + 2 * d ->
  (if split : bool then h <- at_ (g_uv g) 0 ;; Ok (h_ids h) else c <- at_ (a_alloc a) f ;; h <- at_ (a_uv a) c ;; Ok (h_ids h)) = Ok ids0 ->
  (if split : bool then h <- at_ (g_uv g) 1 ;; Ok (h_ids h) else c <- at_ (a_alloc a) s ;; h <- at_ (a_uv a) c ;; Ok (h_ids h)) = Ok ids1 ->
  ssorted ids0 -> ssorted ids1 -> In f ids0 -> In s ids1 ->
  (forall j, In j ids0 -> (j < n)%nat) -> (forall j, In j ids1 -> (j < n)%nat) ->
  (forall j, In j ids0 -> In j ids1 -> False) ->
  exists ll lpr, compute_log_ratios data a g f s split = Ok (ll, lpr) /\ ratios_of ids0 ids1 split ll lpr.
Proof.
  intros a g f s split ids0 ids1 Hl Hu Hh Hm Ht E0 E1 S0 S1 Hf Hs B0 B1 Dis. unfold compute_log_ratios.
  destruct (a_uv a) as [|h0 uv] eqn:Euv; [congruence|]. cbn [at_ nth_error rbind].
  destruct Hm as [Hm1 (mn & Emn & Vmn)]. rewrite Hl, Emn. cbn [rbind]. rewrite E0. cbn [rbind].
  assert (Hm : pair_masses I val (a_mix a) n t d) by (split; eauto).
  destruct (clust_val a h0 f ids0 (h_clone h0) (w0 I) (w0 I) mn [] Hl Hh Hm S0 Hf B0 (fun j _ x => x) (has_clone h0))
    as (un1 & pu1 & pd1 & lr1 & Er1 & Hu1 & A1 & A2 & A3).
  rewrite Er1. cbn [rbind]. rewrite E1. cbn [rbind].
  assert (PR : Permutation (rev (set_remove f ids0) ++ [f]) ids0).
  { rewrite <- Permutation_rev. rewrite Permutation_app_comm. symmetry. apply remove_perm; auto. }
  destruct (clust_val a h0 s ids1 un1 pu1 pd1 lr1 (rev (set_remove f ids0) ++ [f]) Hl Hh Hm S1 Hs B1)
    as (un2 & pu2 & pd2 & lr2 & Er2 & _ & C1 & C2 & C3); auto.
  { intros j Hj X. apply (Dis j); auto. apply (Permutation_in _ PR). exact X. }
  rewrite Er2. cbn [rbind].
  assert (N0 : ids0 <> []) by (intros ->; destruct Hf). assert (N1 : ids1 <> []) by (intros ->; destruct Hs).
  pose proof (M_pos ids0 N0) as P0. pose proof (M_pos ids1 N1) as P1.
  assert (Pj : 0 < M (ids1 ++ ids0)) by (apply M_pos; destruct ids1; [congruence|discriminate]).
  rewrite val_0 in A1, A2. rewrite app_nil_r in A2. cbn [Mo length] in A2, A3. rewrite Nat.add_0_r, block_0, Vmn in A3.
  assert (Mo1 : Mo (rev (set_remove f ids0) ++ [f]) = M ids0).
  { unfold Mo. destruct (rev (set_remove f ids0) ++ [f]) as [|x l] eqn:X; [destruct (rev (set_remove f ids0)); discriminate|]. apply M_perm. exact PR. }
  rewrite Mo1 in C2. rewrite (M_perm (ids1 ++ rev (set_remove f ids0) ++ [f]) (ids1 ++ ids0)) in C2 by (apply Permutation_app_head; exact PR).
  rewrite (Permutation_length PR) in C3.
  assert (Vd : val pd2 = M ids0 * M ids1) by (rewrite C1, A1; ring).
  assert (Vu : val pu2 = M (ids1 ++ ids0)).
  { apply Rmult_eq_reg_r with (M ids0); [|lra]. rewrite C2. rewrite Rmult_1_r, Rmult_1_l in A2. rewrite A2. ring. }
  assert (Vl : val (wadd I pd2 (wneg I pu2)) = M ids0 * M ids1 / M (ids1 ++ ids0)).
  { rewrite val_add, (val_neg pu2) by (rewrite Vu; exact Pj). rewrite Vd, Vu. reflexivity. }
  pose proof (bpos (length ids0)) as b0. pose proof (bpos (length ids1)) as b1. pose proof (bpos (length ids0 + length ids1)) as b01.
  assert (Vr : val lr2 = (t + 2 * d) * bl (length ids0) * bl (length ids1) / bl (length ids0 + length ids1)).
  { rewrite C3, A3. rewrite (Nat.add_comm (length ids1)). field. lra. }
  destruct split; do 2 eexists; (split; [reflexivity|]); split; auto.
  - rewrite (val_neg _), Vl; [reflexivity|]. rewrite Vl. apply Rdiv_lt_0_compat; [apply Rmult_lt_0_compat; auto|exact Pj].
  - rewrite (val_neg _), Vr; [reflexivity|]. rewrite Vr. apply Rdiv_lt_0_compat; auto. repeat apply Rmult_lt_0_compat; auto.
Qed.
End Ratio.
