(** * Conditional algorithms: proofs. *)
From Coq Require Import String.
From Coq Require Import Bool List Arith ZArith Lia Sorting.Sorted Permutation.
From Verif Require Import Base Hier Algos Spec MargFacts NealFacts InitFacts MargMore Stick Cond.
Import ListNotations.
Set Implicit Arguments.

Lemma nth_error_ext : forall A (l l' : list A),
  (forall j, nth_error l j = nth_error l' j) -> l = l'.
Proof.
  induction l as [|x l IH]; intros [|y l'] H; auto.
  - specialize (H 0). discriminate.
  - specialize (H 0). discriminate.
  - pose proof (H 0) as H0. simpl in H0. injection H0 as ->. f_equal. apply IH. intros j. apply (H (S j)).
Qed.

Section CF.
Variable I : Iface.
Variable L : laws I.
Variable data : list (Datum I).
Variable covs : list (Cov I).
Notation n := (length data).
Notation cvf := (at_ covs).
Hypothesis Hrows : rows_ok I data cvf.

(** Labels and clusters agree; clusters may be empty. *)
Definition CInv (a : alg I) : Prop :=
  length (a_alloc a) = n /\
  @Inv I data cvf false (a_hyp a) (nth_error (a_alloc a)) (a_uv a).

Lemma CInv_iff : forall a,
  CInv a <-> consistent n (a_alloc a) (view (a_uv a)) /\ caches_ok data covs (a_uv a).
Proof.
  intros a. split.
  - intros (Hl & [H1 H2]). split; [split; [auto|split]|].
    + intros i c Hi. unfold view. rewrite map_length. apply (H1 i c Hi).
    + intros c ids card Hc. apply nth_view in Hc. destruct Hc as (h & Hh & <- & <-).
      destruct (H2 c h Hh) as (([A [B C]] & _) & P & M). auto.
    + intros c h Hh. destruct (H2 c h Hh) as (([A [B C]] & _) & P & M). auto.
  - intros [(Hl & H1 & H2) Hc]. split; [auto|split].
    + intros j c Hj. split; [rewrite <- Hl; eapply nth_error_lt; eauto|].
      apply H1 in Hj. unfold view in Hj. rewrite map_length in Hj. auto.
    + intros c h Hh. destruct (Hc c h Hh) as [A B].
      destruct (H2 c (h_ids h) (h_card h)) as (S1 & S2 & S3).
      { apply nth_view. eauto. }
      split; [split; [repeat split; auto|discriminate]|]. split; auto.
Qed.

Lemma uhpf : false = true -> conj I = true /\ other_draw I = None.
Proof. discriminate. Qed.
Lemma trkf : false = true -> false = true.
Proof. auto. Qed.

Lemma move_datum_ok : forall (a : alg I) i c,
  CInv a -> i < n -> c < length (a_uv a) ->
  exists a', move_datum data covs i c a = Ok a' /\ CInv a' /\
    a_alloc a' = upd (a_alloc a) i c /\ length (a_uv a') = length (a_uv a) /\
    a_hyp a' = a_hyp a /\ a_mix a' = a_mix a /\ a_aux a' = a_aux a /\
    map (@h_state I) (a_uv a') = map (@h_state I) (a_uv a).
Proof.
  intros a i c [Hl HI] Hi Hc. unfold move_datum.
  assert (Hi' : i < length (a_alloc a)) by lia.
  destruct (at_ok (a_alloc a) Hi') as (c0 & E0 & En0). rewrite E0. cbn [rbind].
  destruct (c =? c0) eqn:Ec.
  { apply Nat.eqb_eq in Ec. subst c0. exists a. split; auto. split; [split; auto|].
    split; [|auto 10]. apply nth_error_ext. intros j. rewrite nth_error_upd.
    apply Nat.ltb_lt in Hi'. rewrite Hi', andb_true_r.
    destruct (j =? i) eqn:Ej; auto. apply Nat.eqb_eq in Ej. subst. auto. }
  rewrite set_at_ok by auto. cbn [rbind].
  destruct (Hrows Hi) as (d & cv & Ed & Ecv & _). rewrite Ed, Ecv. cbn [rbind].
  destruct (@remove_in_ok I L data cvf Hrows false uhpf false trkf (a_hyp a) (nth_error (a_alloc a)) (a_uv a) i c0 d cv)
    as (uv1 & E1 & L1 & I1 & O1 & S1); auto.
  rewrite E1. cbn [rbind].
  destruct (@add_in_ok I L data cvf Hrows false uhpf false trkf (a_hyp a)
    (fun j => if j =? i then None else nth_error (a_alloc a) j) uv1 i c d cv)
    as (uv2 & E2 & L2 & I2 & _ & O2 & S2); auto.
  { rewrite Nat.eqb_refl. auto. }
  { lia. }
  rewrite E2. cbn [rbind]. eexists. split; [reflexivity|]. simpl.
  split; [split|].
  - simpl. rewrite upd_length. auto.
  - simpl. eapply Inv_ext; [|exact I2]. intros j. cbv beta.
    rewrite <- (@hole_upd i (a_alloc a) c) by auto. unfold hole. destruct (j =? i); auto.
  - split; auto. split; [lia|]. do 3 (split; auto).
    assert (G : forall c h h', nth_error (a_uv a) c = Some h -> nth_error uv2 c = Some h' -> h_state h' = h_state h).
    { intros e h h' Hh Hh'. 
      assert (X : exists h1, nth_error uv1 e = Some h1 /\ h_state h1 = h_state h).
      { destruct (Nat.eq_dec e c0) as [->|Ne].
        - destruct (S1 h Hh) as (h1 & A & B & _). eauto.
        - exists h. auto. }
      destruct X as (h1 & A & B). destruct (Nat.eq_dec e c) as [->|Ne].
      - destruct (S2 h1 A) as (h2 & A2 & B2 & _). congruence.
      - rewrite (O2 e h1 A Ne) in Hh'. congruence. }
    apply nth_error_ext_map; [lia|]. exact G.
Qed.

(** ** Blocked Gibbs *)

Lemma rmap_spec : forall A B (f : A -> res B) (g : A -> B) l,
  (forall x, In x l -> f x = Ok (g x)) -> rmap f l = Ok (map g l).
Proof.
  induction l as [|x l IH]; intros H; simpl; auto.
  rewrite (H x) by (simpl; auto). cbn [rbind]. rewrite IH by (intros; apply H; simpl; auto). reflexivity.
Qed.

(** The vector handed to the categorical draw: one entry per component, its
    prior log-weight plus the log-likelihood under its current parameters. *)
Definition blocked_ws (lw : list (W I)) (uv : list (hier I)) (d : Datum I) (cv : Cov I) : list (W I) :=
  map (fun p => wadd I (fst p) (like_lpdf I (h_state (snd p)) d cv)) (combine lw uv).

Lemma blocked_logprobas_ok : forall nc i (a : alg I) d cv,
  at_ data i = Ok d -> at_ covs i = Ok cv ->
  length (a_uv a) = nc -> length (mix_logweights I (a_mix a) i) = nc ->
  blocked_logprobas data covs nc i a = Ok (blocked_ws (mix_logweights I (a_mix a) i) (a_uv a) d cv).
Proof.
  intros nc i a d cv Ed Ecv Hu Hw. unfold blocked_logprobas. rewrite Ed, Ecv. cbn [rbind].
  set (lw := mix_logweights I (a_mix a) i) in *.
  assert (X : forall k l1 l2 (u1 : list (hier I)) u2, length l1 = k -> length u1 = k -> length l2 = length u2 ->
     rmap (fun j => w <- at_ (l1 ++ l2) j ;; h <- at_ (u1 ++ u2) j ;; Ok (wadd I w (h_like h d cv))) (seq k (length u2))
     = Ok (map (fun p => wadd I (fst p) (like_lpdf I (h_state (snd p)) d cv)) (combine l2 u2))).
  { intros k l1 l2. revert k l1. induction l2 as [|w l2 IH]; intros k l1 u1 [|h u2] A B C; simpl in C; try discriminate; auto.
    simpl length. cbn [seq rmap].
    assert (Ew : at_ (l1 ++ w :: l2) k = Ok w).
    { apply at_Some. rewrite nth_error_app2 by lia. replace (k - length l1) with 0 by lia. auto. }
    assert (Eh : at_ (u1 ++ h :: u2) k = Ok h).
    { apply at_Some. rewrite nth_error_app2 by lia. replace (k - length u1) with 0 by lia. auto. }
    rewrite Ew, Eh. cbn [rbind].
    specialize (IH (S k) (l1 ++ [w]) (u1 ++ [h]) u2).
    rewrite <- !app_assoc in IH. cbn [app] in IH. rewrite IH.
    - reflexivity.
    - rewrite app_length. simpl. lia.
    - rewrite app_length. simpl. lia.
    - lia. }
  specialize (X 0 [] lw [] (a_uv a) eq_refl eq_refl). cbn [app] in X. rewrite Hu in X.
  rewrite X by congruence. cbn [rbind]. unfold blocked_ws.
  rewrite skipn_all2 by lia. rewrite app_nil_r. reflexivity.
Qed.

Definition logweights_ok (m : Mix I) (nc : nat) : Prop :=
  forall i, i < n -> length (mix_logweights I m i) = nc.

Lemma blocked_ws_length : forall lw uv d cv, length lw = length uv ->
  length (blocked_ws lw uv d cv) = length uv.
Proof. intros. unfold blocked_ws. rewrite map_length, combine_length. lia. Qed.

Lemma cat_ok : forall ws r, ws <> [] -> exists c r', cat I ws r = Ok (c, r') /\ c < length ws.
Proof.
  intros ws r H. unfold cat. destruct ws as [|w ws]; [congruence|].
  pose proof (cat_lt L r H) as X. destruct (categorical I (w :: ws) r) as [c r'] eqn:E.
  exists c, r'. auto.
Qed.

Lemma blocked_step_ok : forall nc (a : alg I) r i,
  CInv a -> 1 <= nc -> length (a_uv a) = nc -> logweights_ok (a_mix a) nc -> i < n ->
  exists a' r' c, blocked_step data covs nc (a, r) i = Ok (a', r') /\ CInv a' /\
    c < nc /\ a_alloc a' = upd (a_alloc a) i c /\
    length (a_uv a') = nc /\ a_hyp a' = a_hyp a /\ a_mix a' = a_mix a /\
    map (@h_state I) (a_uv a') = map (@h_state I) (a_uv a).
Proof.
  intros nc a r i Ha Hnc Hu Hw Hi. unfold blocked_step.
  destruct (Hrows Hi) as (d & cv & Ed & Ecv & _).
  rewrite (@blocked_logprobas_ok nc i a d cv) by auto. cbn [rbind].
  assert (Hl : length (blocked_ws (mix_logweights I (a_mix a) i) (a_uv a) d cv) = nc).
  { rewrite blocked_ws_length; auto. rewrite (Hw i Hi). auto. }
  destruct (@cat_ok (blocked_ws (mix_logweights I (a_mix a) i) (a_uv a) d cv) r) as (c & r' & Ec & Hc).
  { intros X. rewrite X in Hl. simpl in Hl. lia. }
  rewrite Ec. cbn [rbind]. rewrite Hl in Hc.
  destruct (@move_datum_ok a i c) as (a' & Em & Ha' & Eal & Elen & Eh & Emx & _ & Es); auto; [lia|].
  rewrite Em. cbn [rbind]. exists a', r', c. split; auto. split; auto. split; auto. split; auto. split; [lia|]. auto.
Qed.

Lemma blocked_sweep_ok : forall nc (a : alg I) r,
  CInv a -> 1 <= nc -> length (a_uv a) = nc -> logweights_ok (a_mix a) nc ->
  exists a' r', blocked_sample_allocations data covs nc (a, r) = Ok (a', r') /\ CInv a' /\
    length (a_uv a') = nc /\ a_hyp a' = a_hyp a /\ a_mix a' = a_mix a /\
    map (@h_state I) (a_uv a') = map (@h_state I) (a_uv a).
Proof.
  intros nc a r Ha Hnc Hu Hw. unfold blocked_sample_allocations.
  destruct (@rfold_inv_simple _ _ (blocked_step data covs nc)
    (fun s => CInv (fst s) /\ length (a_uv (fst s)) = nc /\ a_hyp (fst s) = a_hyp a /\ a_mix (fst s) = a_mix a /\
       map (@h_state I) (a_uv (fst s)) = map (@h_state I) (a_uv a))
    (seq 0 n) (a, r)) as ([a' r'] & E & H).
  - cbn [fst]. auto.
  - intros i [b rb] Hi (H1 & H2 & H3 & H4 & H5). cbn [fst] in *. apply in_seq in Hi.
    destruct (@blocked_step_ok nc b rb i) as (b' & rb' & c & E & K1 & K2 & K3 & K4 & K5 & K6 & K7); auto; [rewrite H4; auto|lia|].
    exists (b', rb'). rewrite E. cbn [fst]. split; auto. split; auto. split; auto. repeat split; try congruence.
  - exists a', r'. cbn [fst] in H. tauto.
Qed.

Lemma CInv_suv : forall (a : alg I) r, CInv a ->
  exists a' r', sample_unique_values false (a, r) = Ok (a', r') /\ CInv a' /\
    a_alloc a' = a_alloc a /\ a_hyp a' = a_hyp a /\ a_mix a' = a_mix a /\ a_aux a' = a_aux a /\
    map (@h_ids I) (a_uv a') = map (@h_ids I) (a_uv a).
Proof.
  intros a r (Hl & [H1 H2]). unfold sample_unique_values.
  destruct (@draw_all_ok I L data covs false false uhpf trkf (a_hyp a) (a_uv a) r) as (uv' & r' & E & Hlen & Hd).
  { intros c h Hc. destruct (H2 c h Hc) as (A & B & _). auto. }
  rewrite E. cbn [rbind]. exists (set_uv a uv'), r'. split; auto.
  assert (Hget : forall c h', nth_error uv' c = Some h' -> exists h, nth_error (a_uv a) c = Some h).
  { intros c h' Hc. assert (c < length (a_uv a)) by (rewrite <- Hlen; eapply nth_error_lt; eauto).
    destruct (at_ok (a_uv a) H) as (h & _ & Eh). eauto. }
  split; [split; [auto|split]|split; [|split; [|split; [|split]]]]; try reflexivity; simpl; auto.
  - intros j c Hj. rewrite Hlen. apply H1; auto.
  - intros c h' Hc. destruct (Hget c h' Hc) as (h & Hh).
    destruct (Hd c h h' Hh Hc) as (A & B & Ei & _).
    destruct (H2 c h Hh) as (_ & _ & M).
    split; [exact A|]. split; [exact B|]. intros j. rewrite Ei. apply M.
  - apply nth_error_ext_map; auto. intros c h h' Hh Hc. apply (Hd c h h' Hh Hc).
Qed.

(** A mixing whose weight vector always has [nc] entries and whose update
    succeeds, on the states satisfying [P]. *)
Definition cmixing_safe (nc : nat) (P : Mix I -> Prop) : Prop :=
  (forall m, P m -> logweights_ok m nc) /\
  (forall m cards al r, P m -> length cards = nc -> exists m' r', mix_update I m cards al r = Ok (m', r') /\ P m').

Lemma blocked_base_step_ok : forall nc P (a : alg I) r,
  cmixing_safe nc P -> CInv a -> 1 <= nc -> length (a_uv a) = nc -> P (a_mix a) ->
  exists a' r', base_step (blocked_sample_allocations data covs nc) false (a, r) = Ok (a', r') /\
    CInv a' /\ length (a_uv a') = nc /\ P (a_mix a').
Proof.
  intros nc P a r [M1 M2] Ha Hnc Hu HP. unfold base_step.
  destruct (@blocked_sweep_ok nc a r) as (a1 & r1 & E1 & C1 & L1 & Hy1 & Mx1 & _); auto.
  rewrite E1. cbn [rbind].
  destruct (@CInv_suv a1 r1) as (a2 & r2 & E2 & C2 & Al2 & Hy2 & Mx2 & _ & Ids2); auto.
  rewrite E2. cbn [rbind]. unfold update_hierarchy_hypers.
  assert (L2 : length (a_uv a2) = nc).
  { rewrite <- L1. rewrite <- (map_length (@h_ids I) (a_uv a1)), <- Ids2, map_length. auto. }
  assert (L2' : 0 < length (a_uv a2)) by lia.
  destruct (at_ok (a_uv a2) L2') as (h0 & E0 & _). rewrite E0. cbn [rbind].
  match goal with |- context [hyp_update I ?a ?b ?c] => destruct (hyp_update I a b c) as [hy r3] end.
  cbn [rbind]. unfold update_mixing. change (a_mix (set_hyp a2 hy)) with (a_mix a2).
  destruct (M2 (a_mix a2) (map (@h_card I) (a_uv (set_hyp a2 hy))) (a_alloc (set_hyp a2 hy)) r3) as (m' & r' & E3 & Pm).
  { congruence. }
  { rewrite map_length. auto. }
  rewrite E3. cbn [rbind]. eexists. exists r'. split; [reflexivity|]. split; [|auto].
  destruct C2 as [X1 [X2 X3]]. split; [auto|split; auto].
  simpl. intros c h Hc. destruct (X3 c h Hc) as ([K F] & Ph & Q). split; [split; [auto|discriminate]|auto].
Qed.

Lemma blocked_iter_ok : forall nc P k (a : alg I) r,
  cmixing_safe nc P -> CInv a -> 1 <= nc -> length (a_uv a) = nc -> P (a_mix a) ->
  exists a' r', iter (base_step (blocked_sample_allocations data covs nc) false) k (a, r) = Ok (a', r') /\
    CInv a' /\ length (a_uv a') = nc /\ P (a_mix a').
Proof.
  intros nc P. induction k as [|k IH]; intros a r HM Ha Hnc Hu HP; simpl; [eauto 8|].
  destruct (@blocked_base_step_ok nc P a r) as (a1 & r1 & E & C1 & L1 & P1); auto.
  rewrite E. cbn [rbind]. apply IH; auto.
Qed.

(** ** Only the first component can hold a saved posterior *)

Definition only0 (hy0 : Hyp I) (uv : list (hier I)) : Prop :=
  forall c h, nth_error uv c = Some h ->
    h_saved h = (conj I && (c =? 0)) /\ (h_saved h = true -> h_ph h = Some hy0).

Lemma only0_upd : forall hy0 uv c h h', only0 hy0 uv -> nth_error uv c = Some h ->
  h_saved h' = h_saved h -> (h_saved h = true -> h_ph h' = h_ph h) -> only0 hy0 (upd uv c h').
Proof.
  intros hy0 uv c h h' H Hn A B e g Hg.
  assert (Hc : c < length uv) by (eapply nth_error_lt; eauto).
  rewrite nth_error_upd in Hg. apply Nat.ltb_lt in Hc. rewrite Hc, andb_true_r in Hg.
  destruct (e =? c) eqn:Ee.
  - apply Nat.eqb_eq in Ee. subst e. injection Hg as <-. destruct (H c h Hn) as [X Y].
    rewrite A. split; auto. intros Z. rewrite B; auto.
  - apply H; auto.
Qed.

Lemma only0_push : forall hy0 uv h, only0 hy0 uv -> uv <> [] -> h_saved h = false -> only0 hy0 (uv ++ [h]).
Proof.
  intros hy0 uv h H Hne E e g Hg. destruct (Nat.lt_ge_cases e (length uv)) as [Hl|Hl].
  - rewrite nth_error_app1 in Hg by auto. apply H; auto.
  - rewrite nth_error_app2 in Hg by auto. destruct (e - length uv) as [|k] eqn:Ek; simpl in Hg.
    + injection Hg as <-. rewrite E. split; [|discriminate].
      destruct e; simpl; [|rewrite andb_false_r; auto]. destruct uv; simpl in Hl; [congruence|lia].
    + destruct k; discriminate.
Qed.

Lemma only0_firstn : forall hy0 uv k, only0 hy0 uv -> only0 hy0 (firstn k uv).
Proof.
  intros hy0 uv k H e g Hg. apply H. rewrite <- (firstn_skipn k uv).
  rewrite nth_error_app1; auto. eapply nth_error_lt; eauto.
Qed.

Lemma only0_add_in : forall hy0 hy c i d cv uv uv',
  add_in hy false c i d cv uv = Ok uv' -> only0 hy0 uv -> only0 hy0 uv'.
Proof.
  intros hy0 hy c i d cv uv uv' H S. unfold add_in in H. rinv H h. rinv H h'. injection H as <-.
  apply h_add_flags in E0. destruct E0. eapply only0_upd; eauto. apply at_inv; auto.
Qed.

Lemma only0_remove_in : forall hy0 hy c i d cv uv uv',
  remove_in hy false c i d cv uv = Ok uv' -> only0 hy0 uv -> only0 hy0 uv'.
Proof.
  intros hy0 hy c i d cv uv uv' H S. unfold remove_in in H. rinv H h. rinv H h'. injection H as <-.
  apply h_remove_flags in E0. destruct E0. eapply only0_upd; eauto. apply at_inv; auto.
Qed.

Lemma only0_move : forall hy0 i c (a a' : alg I),
  move_datum data covs i c a = Ok a' -> only0 hy0 (a_uv a) -> only0 hy0 (a_uv a').
Proof.
  intros hy0 i c a a' H S. unfold move_datum in H. rinv H c0. destruct (c =? c0); [injection H as <-; auto|].
  rinv H al. rinv H d. rinv H cv. rinv H u1. rinv H u2. injection H as <-. simpl.
  eapply only0_add_in; [exact E4|]. eapply only0_remove_in; eauto.
Qed.

Lemma only0_draw_all : forall hy0 hy uv r uv' r',
  draw_all hy true uv r = Ok (uv', r') -> only0 hy0 uv -> only0 hy0 uv'.
Proof.
  intros hy0 hy. 
  assert (X : forall (uv : list (hier I)) r uv' r', draw_all hy true uv r = Ok (uv', r') ->
    forall c h', nth_error uv' c = Some h' -> exists h, nth_error uv c = Some h /\
      h_saved h' = h_saved h /\ (h_saved h = true -> h_ph h' = h_ph h)).
  { induction uv as [|h uv IH]; intros r uv' r' H c h' Hc; simpl in H.
    - injection H as <- <-. destruct c; discriminate.
    - rinv H p. destruct p as [h1 r1]. rinv H p. destruct p as [uv1 r2]. injection H as <- <-.
      destruct c; simpl in Hc.
      + injection Hc as <-. exists h. apply h_draw_flags in E. simpl. tauto.
      + destruct (IH _ _ _ E0 c h' Hc) as (g & G). exists g. exact G. }
  intros uv r uv' r' H S c h' Hc. destruct (X _ _ _ _ H c h' Hc) as (h & Hh & A & B).
  destruct (S c h Hh) as [U V]. rewrite A. split; auto. intros Y. rewrite B; auto.
Qed.

Lemma only0_suv : forall hy0 (a a' : alg I) r r',
  sample_unique_values false (a, r) = Ok (a', r') -> only0 hy0 (a_uv a) -> only0 hy0 (a_uv a').
Proof.
  intros hy0 a a' r r' H S. unfold sample_unique_values in H. rinv H p. destruct p as [uv r1].
  injection H as <- <-. simpl. eapply only0_draw_all; eauto.
Qed.

Lemma only0_init : forall hy0 m k gen h0 r a r', h_saved h0 = false ->
  init_clusters data covs false hy0 m k gen [h0] r = Ok (a, r') -> only0 hy0 (a_uv a).
Proof.
  intros hy0 m k gen h0 r a r' H0 H. unfold init_clusters in H. cbn [at_ nth_error rbind upd] in H.
  rinv H s2. destruct s2 as [uv2 r2]. rinv H s3. destruct s3 as [al uv3]. injection H as <- <-. simpl.
  assert (Q1 : only0 hy0 [h_initialize hy0 h0] /\ [h_initialize hy0 h0] <> []).
  { split; [|discriminate]. intros [|[|c]] h Hh; simpl in Hh; try discriminate. injection Hh as <-. simpl.
    rewrite andb_true_r. destruct (conj I); auto. rewrite H0. split; auto. discriminate. }
  assert (Q2 : only0 hy0 uv2 /\ uv2 <> []).
  { change (only0 hy0 (fst (uv2, r2)) /\ fst (uv2, r2) <> []).
    eapply rfold_pres with (P := fun s : list (hier I) * Rng I => only0 hy0 (fst s) /\ fst s <> []); [|exact E|exact Q1].
    intros x [uv r1] [uv' r1'] Hst [HQ Hne]. cbn [fst] in *. unfold init_clone_step in Hst.
    rinv Hst g0. rinv Hst gi. unfold h_sample_prior in Hst. destruct (prior_sample I hy0 r1) as [st r3].
    injection Hst as <- <-. apply at_inv in E2. split.
    - eapply only0_upd; [|exact E2|reflexivity|reflexivity]. apply only0_push; auto.
    - intros X. apply (f_equal (@length _)) in X. rewrite upd_length, app_length in X. simpl in X. lia. }
  change (only0 hy0 (snd (al, uv3))).
  eapply rfold_pres with (P := fun s : list nat * list (hier I) => only0 hy0 (snd s)); [|exact E0|exact (proj1 Q2)].
  intros x [al1 uv] [al2 uv'] Hst HQ. cbn [snd] in *. unfold init_alloc_step in Hst.
  rinv Hst d. rinv Hst cv. rinv Hst u. injection Hst as <- <-. eapply only0_add_in; eauto.
Qed.

Lemma only0_blocked_base : forall hy0 nc (a a' : alg I) r r',
  base_step (blocked_sample_allocations data covs nc) false (a, r) = Ok (a', r') ->
  only0 hy0 (a_uv a) -> only0 hy0 (a_uv a').
Proof.
  intros hy0 nc a a' r r' H S. unfold base_step in H.
  rinv H s1. destruct s1 as [a1 r1]. rinv H s2. destruct s2 as [a2 r2]. rinv H s3. destruct s3 as [a3 r3].
  unfold update_mixing in H. rinv H p. destruct p as [m r4]. injection H as <- <-. simpl.
  unfold update_hierarchy_hypers in E1. rinv E1 u.
  match type of E1 with context [hyp_update I ?x ?y ?z] => destruct (hyp_update I x y z) as [hy r5] end.
  injection E1 as <- <-. simpl. eapply only0_suv; [exact E0|].
  change (only0 hy0 (a_uv (fst (a1, r1)))).
  eapply rfold_pres with (P := fun s : alg I * Rng I => only0 hy0 (a_uv (fst s))); [|exact E|exact S].
  intros x [d rd] [d' rd'] Hd. cbn [fst]. unfold blocked_step in Hd. rinv Hd ws. rinv Hd q. destruct q as [c r6].
  rinv Hd a5. injection Hd as <- <-. eapply only0_move; eauto.
Qed.

(** How the parameters of the components are redrawn in a state satisfying the
    two invariants. *)
Lemma cond_redraw_core : forall hy0 (a : alg I) r uv' r', other_draw I = None ->
  CInv a -> only0 hy0 (a_uv a) ->
  sample_unique_values false (a, r) = Ok (set_uv a uv', r') ->
  forall c h h', nth_error (a_uv a) c = Some h -> nth_error uv' c = Some h' ->
    exists r0 r1, prior_sample I
       (if length (h_ids h) =? 0 then a_hyp a
        else if conj I && (c =? 0) then hy0
        else post I (a_hyp a) (Z.of_nat (length (h_ids h))) (batch I data cvf (h_ids h)) (h_state h)) r0
       = (h_state h', r1).
Proof.
  intros hy0 a r uv' r' Hod [Hl [H1 H2]] S H c h h' Hc Hc'.
  unfold sample_unique_values in H. rinv H p. destruct p as [uv r1].
  injection H as Huv _. subst uv.
  destruct (H2 c h Hc) as (([T1 [T2 T3]] & _) & _ & _).
  destruct (S c h Hc) as [F1 F2].
  clear - Hod E Hc Hc' T2 T3 F1 F2.
  assert (G : forall (uv : list (hier I)) c r uv' r', draw_all (a_hyp a) (negb false) uv r = Ok (uv', r') ->
     nth_error uv c = Some h -> nth_error uv' c = Some h' ->
     exists q q', h_draw (a_hyp a) true h q = Ok (h', q')).
  { clear. induction uv as [|g uv IH]; intros c r uv' r' H Hc Hc'; simpl in H; [destruct c; discriminate|].
    rinv H p. destruct p as [h1 r1]. rinv H p. destruct p as [uv1 r2]. injection H as <- <-.
    destruct c; simpl in Hc, Hc'; [injection Hc as ->; injection Hc' as ->; eauto|eauto]. }
  destruct (G _ _ _ _ _ E Hc Hc') as (q & q' & D). clear G E.
  unfold h_draw in D. rewrite Hod in D. rewrite T2 in D.
  destruct (length (h_ids h) =? 0) eqn:Ez.
  - apply Nat.eqb_eq in Ez. rewrite Ez in D. simpl in D. unfold h_sample_prior in D.
    destruct (prior_sample I (a_hyp a) q) as [s rr] eqn:Ep. injection D as <- <-. exists q, rr. auto.
  - apply Nat.eqb_neq in Ez. destruct (Z.of_nat (length (h_ids h)) =? 0)%Z eqn:Ez'; [apply Z.eqb_eq in Ez'; lia|].
    rinv D p. destruct p as [p g]. destruct (prior_sample I p q) as [s rr] eqn:Ep. injection D as <- <-.
    exists q, rr. simpl. rewrite <- Ep. f_equal. unfold h_get_post in E. rewrite Hod in E. rewrite <- F1.
    destruct (h_saved h) eqn:Es.
    + rewrite F2 in E by auto. congruence.
    + unfold h_compute_post in E. rewrite Hod in E. simpl in E. injection E as <- _. rewrite T2, T3. auto.
Qed.

End CF.
