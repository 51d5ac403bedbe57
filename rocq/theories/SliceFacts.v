(** * Slice sampler: structural proofs (any number type). *)
From Coq Require Import String.
From Coq Require Import Bool List Arith ZArith Lia Sorting.Sorted Permutation.
From Verif Require Import Base Hier Algos Spec MargFacts NealFacts InitFacts MargMore Stick Cond CondFacts.
Import ListNotations.
Set Implicit Arguments.

(** The computation ends normally in a state satisfying [P], or throws; it
    neither aborts nor reads outside an array. *)
Definition safe A (P : A -> Prop) (x : res A) : Prop :=
  match x with Ok a => P a | Throw _ => True | Abort => False | UB => False end.
(** Same when the computation may also run out of fuel. *)
Definition osafe A (P : A -> Prop) (x : option (res A)) : Prop :=
  match x with None => True | Some y => safe P y end.

Lemma safe_bind : forall A B (m : res A) (k : A -> res B) (P : A -> Prop) (Q : B -> Prop),
  safe P m -> (forall a, P a -> safe Q (k a)) -> safe Q (x <- m ;; k x).
Proof. intros A B [a| | |] k P Q H K; simpl in *; auto. Qed.

Lemma safe_imp : forall A (P Q : A -> Prop) x, safe P x -> (forall a, P a -> Q a) -> safe Q x.
Proof. intros A P Q [a| | |] H K; simpl in *; auto. Qed.

Lemma osafe_imp : forall A (P Q : A -> Prop) x, osafe P x -> (forall a, P a -> Q a) -> osafe Q x.
Proof. intros A P Q [x|] H K; simpl in *; auto. eapply safe_imp; eauto. Qed.

Lemma rfold_safe : forall A B (f : B -> A -> res B) (P : list A -> B -> Prop) l d b,
  (forall x d0 b0, (exists t, d ++ l = d0 ++ x :: t) -> P d0 b0 -> safe (P (d0 ++ [x])) (f b0 x)) ->
  P d b -> safe (P (d ++ l)) (rfold f l b).
Proof.
  intros A B f P. induction l as [|x l IH]; intros d b H Hb; simpl.
  - rewrite app_nil_r. auto.
  - eapply safe_bind. { apply H; eauto. }
    intros b1 Hb1. replace (d ++ x :: l) with ((d ++ [x]) ++ l) by (rewrite <- app_assoc; auto).
    apply IH; auto. intros y d0 b0 (t & E) Hp. apply H; auto. exists t. rewrite <- E, <- app_assoc. auto.
Qed.

(** ** The mixing *)
Section SB.
Variable K : Num.
Variable Rng : Type.
Variable beta : N K -> N K -> Rng -> N K * Rng.

Definition sb_ok (m : sb K) : Prop :=
  length (sb_sticks m) = sb_nc m /\
  sb_w m = weights_go K (n1 K) (sb_sticks m) /\
  (forall l, sb_prior m = BetaPriors _ l -> sb_nc m <= length l).

Lemma weights_go_length : forall l x, length (weights_go K x l) = length l.
Proof. induction l; intros; simpl; auto. Qed.

Lemma sb_ok_w : forall (m : sb K), sb_ok m -> length (sb_w m) = sb_nc m.
Proof. intros m (A & B & _). rewrite B, weights_go_length. auto. Qed.

Lemma get_beta_params_safe : forall (m : sb K) i, (i < sb_nc m -> forall l, sb_prior m = BetaPriors _ l -> i < length l) ->
  safe (fun _ => True) (get_beta_params m i).
Proof.
  intros m i H. unfold get_beta_params. destruct (sb_prior m) as [l| |]; simpl; auto.
  destruct (Nat.leb_spec (sb_nc m) i); simpl; auto.
  destruct (at_ok l (H H0 l eq_refl)) as (x & E & _). rewrite E. simpl. auto.
Qed.

Lemma prior_shapes_safe : forall (m : sb K), sb_ok m ->
  safe (fun sh => length sh = sb_nc m) (prior_shapes m).
Proof.
  intros m (A & B & C). unfold prior_shapes.
  assert (X : forall l, (forall i, In i l -> i < sb_nc m) ->
     safe (fun sh => length sh = length l) (rmap (get_beta_params m) l)).
  { induction l as [|i l IH]; intros H; simpl; auto.
    eapply safe_bind with (P := fun _ => True).
    { apply get_beta_params_safe. intros Hi q Eq. specialize (C q Eq). lia. }
    intros p _. eapply safe_bind. { apply IH. intros; apply H; simpl; auto. }
    intros t Ht. simpl. auto. }
  specialize (X (seq 0 (sb_nc m))). rewrite seq_length in X. apply X. intros i Hi. apply in_seq in Hi. lia.
Qed.

Lemma beta_rng_safe : forall a b r, safe (fun _ => True) (beta_rng K beta a b r).
Proof. intros. unfold beta_rng. destruct (_ && _); simpl; auto. Qed.

Lemma draw_sticks_safe : forall sh cards r, length sh = length cards ->
  safe (fun p => length (fst p) = length cards) (draw_sticks K beta sh cards r).
Proof.
  induction sh as [|[a b] sh IH]; intros [|c cs] r H; simpl in H; try discriminate; simpl; auto.
  eapply safe_bind. apply beta_rng_safe. intros [v r1] _.
  eapply safe_bind. apply (IH cs r1). lia. intros [vs r2] Hl. simpl in *. auto.
Qed.

Lemma sb_update_safe : forall (m : sb K) cards r, sb_ok m -> 1 <= sb_nc m -> length cards = sb_nc m ->
  safe (fun p => sb_ok (fst p) /\ sb_nc (fst p) = sb_nc m /\ sb_prior (fst p) = sb_prior m /\ sb_inf (fst p) = sb_inf m)
    (sb_update beta m cards r).
Proof.
  intros m cards r Hm Hnc Hc. unfold sb_update. rewrite Hc, Nat.eqb_refl.
  eapply safe_bind. { apply prior_shapes_safe; auto. }
  intros sh Hsh. destruct Hm as (A & B & C). rewrite A, Nat.leb_refl.
  eapply safe_bind. { apply (@draw_sticks_safe sh cards r). congruence. }
  intros [vs r1] Hv. simpl in Hv. rewrite skipn_all2 by lia. rewrite app_nil_r.
  eapply safe_bind with (P := fun st => length st = sb_nc m).
  { destruct (sb_inf m); simpl; [congruence|]. rewrite set_at_ok by lia. simpl. rewrite upd_length. congruence. }
  intros st Hst. unfold weights_from_sticks. rewrite Hst, Nat.leb_refl. simpl.
  rewrite firstn_all2 by lia. split; [split; [|split]|]; simpl; auto.
Qed.

Lemma set_sticks_ok : forall (m : sb K) k, sb_ok m -> k <= sb_nc m ->
  sb_ok (set_sticks (firstn k (sb_sticks m)) m) /\ sb_nc (set_sticks (firstn k (sb_sticks m)) m) = k.
Proof.
  intros m k (A & B & C) Hk. unfold set_sticks. simpl. rewrite firstn_length_le by lia.
  split; auto. split; [|split]; simpl; auto. apply firstn_length_le. lia.
  intros l E. specialize (C l E). lia.
Qed.

Lemma keep_breaking1_ok : forall junk (m : sb K) r m' x, sb_ok m ->
  keep_breaking1 beta junk m r = (m', x) ->
  (exists e, x = Throw e) \/
  (exists dw r' v, x = Ok (dw, r') /\ sb_ok m' /\ sb_nc m' = S (sb_nc m) /\ sb_sticks m' = sb_sticks m ++ [v] /\
     sb_prior m' = sb_prior m /\ sb_inf m' = sb_inf m /\ dw = nsub K (nsum K (sb_w m')) (nsum K (sb_w m)) /\
     (forall l, sb_prior m <> BetaPriors _ l) /\
     exists a b r0, get_beta_params m (sb_nc m) = Ok (a, b) /\ nltb K (n0 K) a = true /\ nltb K (n0 K) b = true /\ beta a b r = (v, r0)).
Proof.
  intros junk m r m' x (A & B & C) H. unfold keep_breaking1 in H.
  rewrite firstn_all2 in H by lia.
  set (s1 := mkSb (sb_prior m) (sb_inf m) (sb_nc m) (sb_sticks m ++ [junk]) (sb_w m)) in *.
  assert (Eg : get_beta_params s1 (sb_nc m) = get_beta_params m (sb_nc m)) by reflexivity.
  rewrite Eg in H. clear Eg. destruct (get_beta_params m (sb_nc m)) as [[a b]|e| |] eqn:Eg; simpl in H.
  - unfold beta_rng in H.
    destruct (nltb K (n0 K) a) eqn:Ea, (nltb K (n0 K) b) eqn:Eb; simpl in H;
      try (injection H as <- <-; left; eauto; fail).
    destruct (beta a b r) as [v r'] eqn:Ev. injection H as <- <-. right.
    assert (Hpr : forall l, sb_prior m <> BetaPriors _ l).
    { intros l E. unfold get_beta_params in Eg. rewrite E, Nat.leb_refl in Eg. discriminate. }
    do 3 eexists. split; [reflexivity|]. simpl. split; [split; [|split]|]; simpl; auto.
    + rewrite app_length. simpl. lia.
    + intros l E. exfalso. eapply Hpr; eauto.
    + repeat (split; [reflexivity|]). split; [exact Hpr|]. exists a, b, r'. auto.
  - injection H as <- <-. left. eauto.
  - exfalso. unfold get_beta_params in Eg. destruct (sb_prior m); try discriminate. rewrite Nat.leb_refl in Eg. discriminate.
  - exfalso. unfold get_beta_params in Eg. destruct (sb_prior m); try discriminate. rewrite Nat.leb_refl in Eg. discriminate.
Qed.

End SB.

(** ** The sampler *)
Section SF.
Variable I : Iface.
Variable L : laws I.
Variable data : list (Datum I).
Variable covs : list (Cov I).
Notation n := (length data).
Notation cvf := (at_ covs).
Hypothesis Hrows : rows_ok I data cvf.
Hypothesis Hn : 1 <= n.
Variable K : Num.
Variable beta : N K -> N K -> Rng I -> N K * Rng I.
Variable unif01 : N K -> Rng I -> N K * Rng I.
Variable tiny : N K.
Variable junk : N K.

(** The sampler's state is coherent: labels and components agree, there are as
    many components as sticks and weights, and one slice per observation. *)
Definition SInv (s : slicer I K) : Prop :=
  CInv data covs (s_alg s) /\ sb_ok (s_mix s) /\
  length (a_uv (s_alg s)) = sb_nc (s_mix s) /\ length (s_u s) = n.

Lemma CInv_uv_pos : forall a, CInv data covs a -> 0 < length (a_uv a).
Proof.
  intros a [Hl [H1 _]]. assert (Hz : 0 < length (a_alloc a)) by lia.
  destruct (at_ok (a_alloc a) Hz) as (c & _ & E). destruct (H1 0 c E). lia.
Qed.

Lemma break_loop_safe : forall fuel bound sum_w (m : sb K) r, sb_ok m ->
  osafe (fun p => sb_ok (fst p) /\ sb_prior (fst p) = sb_prior m /\ sb_inf (fst p) = sb_inf m /\
           exists t, sb_sticks (fst p) = sb_sticks m ++ t)
    (break_loop beta junk fuel bound sum_w m r).
Proof.
  induction fuel as [|f IH]; intros bound sum_w m r Hm; simpl.
  - destruct (nleb K sum_w bound); simpl; auto. repeat split; try apply Hm. exists []. rewrite app_nil_r. auto.
  - destruct (nleb K sum_w bound).
    + destruct (keep_breaking1 beta junk m r) as [m' x] eqn:E.
      apply keep_breaking1_ok in E; auto. destruct E as [(e & ->)|(dw & r' & v & -> & Hm' & _ & Es & Ep & Ei & _)]; simpl; auto.
      eapply osafe_imp; [apply IH; auto|]. intros p (A & B & C & t & D). split; auto. split; [congruence|]. split; [congruence|].
      exists (v :: t). rewrite D, Es, <- app_assoc. auto.
    + simpl. repeat split; try apply Hm. exists []. rewrite app_nil_r. auto.
Qed.

Lemma fold_max_ge : forall l x, x <= fold_left Nat.max l x /\ (forall c, In c l -> c <= fold_left Nat.max l x) /\
  (fold_left Nat.max l x = x \/ In (fold_left Nat.max l x) l).
Proof.
  induction l as [|y l IH]; intros x; simpl; [repeat split; auto; intros c []|].
  destruct (IH (Nat.max x y)) as (A & B & C). split; [lia|]. split.
  - intros c [->|Hc]; [lia|auto].
  - destruct C as [C|C]; [|auto]. destruct (Nat.max_dec x y) as [E|E]; [left; congruence|].
    right. left. congruence.
Qed.

(** The number of sticks kept covers every label. *)
Lemma slice_new_sticks_safe : forall fuel (s : slicer I K) r, SInv s ->
  osafe (fun p => sb_ok (fst p) /\ sb_prior (fst p) = sb_prior (s_mix s) /\ sb_inf (fst p) = sb_inf (s_mix s) /\
           (forall i c, nth_error (a_alloc (s_alg s)) i = Some c -> c < sb_nc (fst p)))
    (slice_new_sticks beta junk fuel s r).
Proof.
  intros fuel s r (HC & Hm & Hlen & Hu). unfold slice_new_sticks.
  pose proof (CInv_uv_pos HC) as Hpos.
  pose proof (@sb_update_safe K _ beta (s_mix s) (map (@h_card I) (a_uv (s_alg s))) r Hm) as U.
  rewrite map_length in U. specialize (U ltac:(lia) Hlen).
  destruct (sb_update beta (s_mix s) (map (@h_card I) (a_uv (s_alg s))) r) as [[m1 r1]| | |]; simpl in U; try contradiction; try exact Logic.I.
  destruct U as (Hm1 & Enc & Epr & Ein).
  destruct HC as [Hl [H1 H2]].
  destruct (a_alloc (s_alg s)) as [|c0 al] eqn:Eal; [simpl in Hl; lia|].
  destruct (s_u s) as [|u0 us] eqn:Eu; [simpl in Hu; lia|].
  destruct (fold_max_ge al c0) as (M1 & M2 & M3).
  set (mx := fold_left Nat.max al c0) in *.
  assert (Hmx : mx < sb_nc m1).
  { rewrite Enc, <- Hlen. assert (X : exists i, nth_error (c0 :: al) i = Some mx).
    { destruct M3 as [->|M3]; [exists 0; auto|]. apply In_nth_error in M3. destruct M3 as (i & Hi). exists (S i). auto. }
    destruct X as (i & Hi). apply (H1 i mx Hi). }
  destruct Hm1 as (A1 & B1 & C1).
  cbv zeta. destruct (Nat.leb_spec (S mx) (length (sb_sticks m1))); [|lia].
  destruct (@set_sticks_ok K m1 (S mx)) as [Hs2 Enc2]; [split; auto|lia|].
  eapply osafe_imp; [apply break_loop_safe; exact Hs2|].
  intros [m r2] (A & B & C & t & D). cbn [fst] in *. unfold set_sticks in B, C, D. cbn [sb_prior sb_inf sb_sticks] in B, C, D. split; auto. split; [congruence|]. split; [congruence|].
  intros i c Hi. destruct A as (A & _). rewrite <- A, D, app_length, firstn_length_le by lia.
  assert (Hc : c <= mx). { destruct i; simpl in Hi; [injection Hi as <-; auto|]. apply M2. eapply nth_error_In; eauto. }
  lia.
Qed.

Lemma push_prior_ok : forall hy k uv r, uv <> [] ->
  exists t r', push_prior hy k uv r = Ok (uv ++ t, r') /\ length t = k /\
    Forall (fun h => h_ids h = [] /\ h_card h = 0%Z /\ h_stats h = stats0 I /\ h_saved h = false /\ h_ph h = None) t.
Proof.
  intros hy. induction k as [|k IH]; intros uv r Hne; simpl.
  - exists [], r. rewrite app_nil_r. auto.
  - destruct uv as [|h0 uv]; [congruence|]. cbn [at_ nth_error rbind].
    unfold h_sample_prior. destruct (prior_sample I hy r) as [st r1].
    destruct (IH ((h0 :: uv) ++ [h_set_state st (h_clone h0)]) r1) as (t & r' & E & Hl & HF).
    { destruct uv; discriminate. }
    rewrite E. exists (h_set_state st (h_clone h0) :: t), r'. rewrite <- app_assoc. split; auto. split; [simpl; lia|].
    constructor; auto 10.
Qed.

Lemma CInv_firstn : forall (a : alg I) k, CInv data covs a ->
  (forall i c, nth_error (a_alloc a) i = Some c -> c < k) ->
  CInv data covs (set_uv a (firstn k (a_uv a))).
Proof.
  intros a k [Hl [H1 H2]] Hk. split; [auto|split]; simpl.
  - intros j c Hj. destruct (H1 j c Hj). split; auto. specialize (Hk j c Hj). rewrite firstn_length. lia.
  - intros c h Hc. assert (c < length (firstn k (a_uv a))) by (eapply nth_error_lt; eauto).
    apply H2. rewrite <- (firstn_skipn k (a_uv a)), nth_error_app1; auto.
Qed.

Lemma CInv_app : forall (a : alg I) t, CInv data covs a ->
  Forall (fun h => h_ids h = [] /\ h_card h = 0%Z /\ h_stats h = stats0 I /\ h_saved h = false /\ h_ph h = None) t ->
  CInv data covs (set_uv a (a_uv a ++ t)).
Proof.
  intros a t [Hl [H1 H2]] HF. split; [auto|split]; simpl.
  - intros j c Hj. destruct (H1 j c Hj). rewrite app_length. split; lia.
  - intros c h Hc. destruct (Nat.lt_ge_cases c (length (a_uv a))) as [Hlt|Hge].
    + rewrite nth_error_app1 in Hc by auto. apply H2; auto.
    + rewrite nth_error_app2 in Hc by auto. apply nth_error_In in Hc as Hi.
      rewrite Forall_forall in HF. destruct (HF h Hi) as (A & B & C & D & E).
      split; [split; [split; [|split]|discriminate]|split].
      * rewrite A. constructor.
      * rewrite A, B. auto.
      * rewrite A, C. reflexivity.
      * intros X. congruence.
      * intros j. rewrite A. split; [intros []|]. intros Hj. destruct (H1 j c Hj). lia.
Qed.

(** Components are added at, or removed from, the end; none holding data goes. *)
Lemma slice_weights_safe : forall fuel (s : slicer I K) r, SInv s ->
  osafe (fun p => SInv (fst p) /\ a_alloc (s_alg (fst p)) = a_alloc (s_alg s) /\
           a_hyp (s_alg (fst p)) = a_hyp (s_alg s) /\ s_u (fst p) = s_u s /\
           (forall c h, nth_error (a_uv (s_alg s)) c = Some h -> h_ids h <> [] ->
              nth_error (a_uv (s_alg (fst p))) c = Some h) /\
           (forall c h, nth_error (a_uv (s_alg (fst p))) c = Some h -> 
              nth_error (a_uv (s_alg s)) c = Some h \/ (length (a_uv (s_alg s)) <= c /\ h_ids h = [] /\ h_saved h = false)))
    (slice_sample_weights beta junk fuel s r).
Proof.
  intros fuel s r HS. unfold slice_sample_weights.
  pose proof (@slice_new_sticks_safe fuel s r HS) as W. destruct HS as (HC & Hm & Hlen & Hu).
  destruct (slice_new_sticks beta junk fuel s r) as [[[m r1]| | |]|]; simpl in W; try contradiction; try exact Logic.I.
  destruct W as (Hm' & Epr & Ein & Hcov). destruct Hm as (A & B & C). pose proof Hm' as (A' & B' & C').
  rewrite A, A'. destruct (Nat.leb_spec (sb_nc (s_mix s)) (sb_nc m)).
  - destruct (@push_prior_ok (a_hyp (s_alg s)) (sb_nc m - sb_nc (s_mix s)) (a_uv (s_alg s)) r1) as (t & r' & E & Ht & HF).
    { intros X. pose proof (CInv_uv_pos HC) as Y. rewrite X in Y. simpl in Y. lia. }
    rewrite E. simpl. split; [split; [|split; [|split]]|]; simpl; auto.
    + apply CInv_app; auto.
    + rewrite app_length. lia.
    + repeat (split; [reflexivity|]). split.
      * intros c h Hc _. rewrite nth_error_app1; auto. eapply nth_error_lt; eauto.
      * intros c h Hc. destruct (Nat.lt_ge_cases c (length (a_uv (s_alg s)))) as [Hlt|Hge].
        { rewrite nth_error_app1 in Hc by auto. auto. }
        { rewrite nth_error_app2 in Hc by auto. apply nth_error_In in Hc. rewrite Forall_forall in HF.
          right. destruct (HF h Hc) as (X1 & _ & _ & X2 & _). auto. }
  - cbn [rbind safe fst]. set (k := length (a_uv (s_alg s)) - (sb_nc (s_mix s) - sb_nc m)).
    assert (Ek : k = sb_nc m) by (unfold k; lia). rewrite Ek. clear k Ek.
    split; [split; [|split; [|split]]|]; simpl; auto.
    + apply CInv_firstn; auto.
    + rewrite firstn_length. lia.
    + repeat (split; [reflexivity|]).
      assert (F : forall c h, nth_error (firstn (sb_nc m) (a_uv (s_alg s))) c = Some h -> nth_error (a_uv (s_alg s)) c = Some h).
      { intros c h Hc. assert (c < length (firstn (sb_nc m) (a_uv (s_alg s)))) by (eapply nth_error_lt; eauto).
        rewrite <- (firstn_skipn (sb_nc m) (a_uv (s_alg s))), nth_error_app1; auto. }
      split; [|auto].
      intros c h Hc Hne. destruct HC as [_ [_ H2]]. destruct (H2 c h Hc) as (_ & _ & M).
      destruct (h_ids h) as [|i t] eqn:Ei; [congruence|].
      assert (c < sb_nc m) by (apply (Hcov i); apply M; simpl; auto).
      rewrite <- (firstn_skipn (sb_nc m) (a_uv (s_alg s))) in Hc. rewrite nth_error_app1 in Hc; auto.
      rewrite firstn_length. apply nth_error_lt in Hc. rewrite app_length, firstn_length, skipn_length in Hc. lia.
Qed.

Lemma sample_slice_safe : forall (s : slicer I K) r, CInv data covs (s_alg s) -> sb_ok (s_mix s) ->
  length (a_uv (s_alg s)) = sb_nc (s_mix s) ->
  safe (fun p => s_alg (fst p) = s_alg s /\ s_mix (fst p) = s_mix s /\ SInv (fst p) /\
    forall i c, nth_error (a_alloc (s_alg s)) i = Some c -> exists w u r0 r1,
      nth_error (sb_w (s_mix s)) c = Some w /\ nltb K (n0 K) w = true /\
      unif01 w r0 = (u, r1) /\ nth_error (s_u (fst p)) i = Some (nmax K tiny u))
    (sample_slice data unif01 tiny s r).
Proof.
  intros s r HC Hm Hlen. unfold sample_slice.
  set (P := fun (d : list nat) (b : list (N K) * Rng I) => length (fst b) = length d /\
    forall i, i < length d -> exists c w u r0 r1, nth_error (a_alloc (s_alg s)) i = Some c /\ 
      nth_error (sb_w (s_mix s)) c = Some w /\ nltb K (n0 K) w = true /\
      unif01 w r0 = (u, r1) /\ nth_error (fst b) i = Some (nmax K tiny u)).
  assert (X : safe (P ([] ++ seq 0 n)) (rfold (slice_one unif01 tiny (sb_w (s_mix s)) (a_alloc (s_alg s))) (seq 0 n) ([], r))).
  { apply rfold_safe.
    - intros x d [us rr] (t & Et) [Hl Hu]. simpl in Et.
      assert (Hx : x = length d /\ x < n).
      { assert (length d < n) by (rewrite <- (seq_length n 0), Et, app_length; simpl; lia).
        assert (Y : nth_error (seq 0 n) (length d) = Some x) by (rewrite Et, nth_error_app2, Nat.sub_diag by auto; auto).
        apply nth_error_nth with (d := 0) in Y. rewrite seq_nth in Y by auto. simpl in Y. lia. }
      destruct Hx as [-> Hx]. cbn [fst] in *. unfold slice_one.
      destruct HC as [Hal [H1 H2]].
      destruct (@at_ok _ (a_alloc (s_alg s)) (length d)) as (c & Ec & Enc); [lia|]. rewrite Ec. cbn [rbind].
      destruct (H1 _ _ Enc) as [_ Hc]. 
      destruct (@at_ok _ (sb_w (s_mix s)) c) as (w & Ew & Enw). { rewrite sb_ok_w; auto. lia. }
      rewrite Ew. cbn [rbind]. destruct (nltb K (n0 K) w) eqn:Epos; simpl; auto.
      destruct (unif01 w rr) as [u r'] eqn:Eu. simpl. split.
      + cbn [fst]. rewrite !app_length. simpl. lia.
      + intros i Hi. rewrite app_length in Hi. simpl in Hi. cbn [fst].
        destruct (Nat.eq_dec i (length d)) as [->|Ne].
        * exists c, w, u, rr, r'. repeat (split; [assumption|]). rewrite nth_error_app2, Hl, Nat.sub_diag by lia. auto.
        * destruct (Hu i) as (c1 & w1 & u1 & r1 & r2 & Q1 & Q2 & Q3 & Q4 & Q5); [lia|].
          exists c1, w1, u1, r1, r2. repeat (split; [assumption|]). rewrite nth_error_app1 by lia. auto.
    - split; auto. intros i Hi. simpl in Hi. lia. }
  eapply safe_bind; [exact X|]. intros [us r'] [Hl Hu]. cbn [fst app] in *. rewrite seq_length in *.
  simpl. split; auto. split; auto. split; [split; [auto|split; [auto|split; [auto|simpl; auto]]]|].
  intros i c Hi. assert (Hin : i < n). { destruct HC as [Hal _]. rewrite <- Hal. eapply nth_error_lt; eauto. }
  destruct (Hu i Hin) as (c1 & w & u & r0 & r1 & Q1 & Q2 & Q3 & Q4 & Q5).
  assert (c1 = c) by congruence. subst c1. exists w, u, r0, r1. auto.
Qed.

Lemma slice_cands_ok : forall (m : sb K) u, sb_ok m ->
  exists l, slice_cands m u = Ok l /\
    (forall j, In j l <-> exists w, nth_error (sb_w m) j = Some w /\ nltb K u w = true).
Proof.
  intros m u Hm. unfold slice_cands. pose proof (sb_ok_w Hm) as Hw.
  assert (X : forall (w : list (N K)) k, rmap (fun j => x <- at_ w j ;; Ok (j, x)) (seq k (length w - k)) =
     Ok (combine (seq k (length w - k)) (skipn k w))).
  { intros w k. remember (length w - k) as q eqn:Eq. revert k Eq. induction q as [|q IH]; intros k Eq; simpl; auto.
    assert (Hk : k < length w) by lia. destruct (at_ok w Hk) as (x & E & En). rewrite E. cbn [rbind].
    rewrite (IH (S k)) by lia. cbn [rbind]. f_equal.
    assert (Es : skipn k w = x :: skipn (S k) w).
    { clear -En. revert k En. induction w as [|y w IHw]; intros [|k] En; simpl in *; try discriminate; auto. congruence. }
    rewrite Es. reflexivity. }
  specialize (X (sb_w m) 0). rewrite Nat.sub_0_r, Hw in X. rewrite X. cbn [rbind skipn].
  eexists. split; [reflexivity|]. intros j.
  assert (Y : forall (w : list (N K)) k j x, In (j, x) (combine (seq k (length w)) w) <-> k <= j /\ nth_error w (j - k) = Some x).
  { clear. induction w as [|y w IH]; intros k j x; simpl.
    - split; [intros []|]. intros [_ H]. destruct (j - k); discriminate.
    - rewrite IH. split.
      + intros [E|[H1 H2]].
        * injection E as <- <-. rewrite Nat.sub_diag. auto.
        * split; [lia|]. replace (j - k) with (S (j - S k)) by lia. auto.
      + intros [H1 H2]. destruct (Nat.eq_dec j k) as [->|Ne].
        * rewrite Nat.sub_diag in H2. simpl in H2. left. congruence.
        * right. split; [lia|]. replace (j - k) with (S (j - S k)) in H2 by lia. auto. }
  specialize (Y (sb_w m) 0). rewrite Hw in Y. rewrite in_map_iff. split.
  - intros ([j' w] & <- & Hf). apply filter_In in Hf. destruct Hf as [Hf Hlt]. cbn [fst snd] in *.
    apply Y in Hf. rewrite Nat.sub_0_r in Hf. exists w. tauto.
  - intros (w & Hj & Hlt). exists (j, w). split; auto. apply filter_In. split; auto. apply Y. rewrite Nat.sub_0_r. split; auto. lia.
Qed.

(** Observation [i] has a candidate component. *)
Definition has_cand (s : slicer I K) (i : nat) : Prop :=
  exists j w u, nth_error (sb_w (s_mix s)) j = Some w /\ nth_error (s_u s) i = Some u /\ nltb K u w = true.

Lemma slice_alloc_step_ok : forall (s : slicer I K) (a : alg I) r i,
  CInv data covs a -> sb_ok (s_mix s) -> length (a_uv a) = sb_nc (s_mix s) -> length (s_u s) = n -> i < n ->
  (has_cand s i /\ exists a' r' j w u, slice_alloc_step data covs (s_mix s) (s_u s) (a, r) i = Ok (a', r') /\
     CInv data covs a' /\ length (a_uv a') = length (a_uv a) /\ a_hyp a' = a_hyp a /\
     a_alloc a' = upd (a_alloc a) i j /\
     nth_error (sb_w (s_mix s)) j = Some w /\ nth_error (s_u s) i = Some u /\ nltb K u w = true) \/
  (~ has_cand s i /\ exists e, slice_alloc_step data covs (s_mix s) (s_u s) (a, r) i = Throw e).
Proof.
  intros s a r i HC Hm Hlen Hu Hi. unfold slice_alloc_step.
  destruct (@at_ok _ (s_u s) i) as (u & Eu & Enu); [lia|]. rewrite Eu. cbn [rbind].
  destruct (Hrows Hi) as (d & cv & Ed & Ecv & _). rewrite Ed, Ecv. cbn [rbind].
  destruct (@slice_cands_ok (s_mix s) u Hm) as (inds & Einds & Hinds). rewrite Einds. cbn [rbind].
  assert (Hj : forall j, In j inds -> j < length (a_uv a)).
  { intros j Hj. apply Hinds in Hj. destruct Hj as (w & Hw & _). rewrite Hlen, <- (sb_ok_w Hm). eapply nth_error_lt; eauto. }
  destruct (@rmap_ok _ _ (fun j => h <- at_ (a_uv a) j ;; Ok (h_like h d cv)) inds) as (ps & Eps & Lps).
  { intros j Hx. destruct (at_ok (a_uv a) (Hj j Hx)) as (h & E & _). rewrite E. simpl. eauto. }
  rewrite Eps. cbn [rbind]. destruct inds as [|j0 inds].
  - right. split.
    + intros (j & w & u' & Hw & Hu' & Hlt). assert (u' = u) by congruence. subst u'.
      assert (In j []) by (apply Hinds; eauto). auto.
    + destruct ps; [|discriminate]. simpl. eauto.
  - left. split.
    { assert (X : In j0 (j0 :: inds)) by (simpl; auto). apply Hinds in X. destruct X as (w & Hw & Hlt). exists j0, w, u. auto. }
    destruct (@cat_ok I L ps r) as (c & r' & Ec & Hc). { destruct ps; simpl in Lps; [discriminate|congruence]. }
    rewrite Ec. cbn [rbind]. rewrite Lps in Hc. destruct (at_ok (j0 :: inds) Hc) as (j & Ej & Enj). rewrite Ej. cbn [rbind].
    apply nth_error_In in Enj. pose proof (Hj j Enj) as Hjl.
    apply Hinds in Enj. destruct Enj as (w & Hw & Hlt).
    destruct (@move_datum_ok I L data covs Hrows a i j) as (a' & Em & Ha' & Eal & Elen & Eh & _); auto.
    rewrite Em. cbn [rbind]. exists a', r', j, w, u. auto 10.
Qed.

Lemma slice_alloc_safe : forall (s : slicer I K) r, SInv s ->
  safe (fun p => SInv (fst p) /\ s_mix (fst p) = s_mix s /\ s_u (fst p) = s_u s /\
          a_hyp (s_alg (fst p)) = a_hyp (s_alg s) /\
          (forall i c, nth_error (a_alloc (s_alg (fst p))) i = Some c -> exists w u,
             nth_error (sb_w (s_mix s)) c = Some w /\ nth_error (s_u s) i = Some u /\ nltb K u w = true))
    (slice_sample_allocations data covs s r).
Proof.
  intros s r (HC & Hm & Hlen & Hu). unfold slice_sample_allocations.
  set (P := fun (d : list nat) (b : alg I * Rng I) => CInv data covs (fst b) /\ length (a_uv (fst b)) = sb_nc (s_mix s) /\
     a_hyp (fst b) = a_hyp (s_alg s) /\
     forall i c, i < length d -> nth_error (a_alloc (fst b)) i = Some c -> exists w u,
             nth_error (sb_w (s_mix s)) c = Some w /\ nth_error (s_u s) i = Some u /\ nltb K u w = true).
  assert (X : safe (P ([] ++ seq 0 n)) (rfold (slice_alloc_step data covs (s_mix s) (s_u s)) (seq 0 n) (s_alg s, r))).
  { apply rfold_safe.
    - intros x d [a rr] (t & Et) (H1 & H2 & H3 & H4). simpl in Et. cbn [fst] in *.
      assert (Hx : x = length d /\ x < n).
      { assert (length d < n) by (rewrite <- (seq_length n 0), Et, app_length; simpl; lia).
        assert (Y : nth_error (seq 0 n) (length d) = Some x) by (rewrite Et, nth_error_app2, Nat.sub_diag by auto; auto).
        apply nth_error_nth with (d := 0) in Y. rewrite seq_nth in Y by auto. simpl in Y. lia. }
      destruct Hx as [-> Hx].
      destruct (@slice_alloc_step_ok s a rr (length d)) as [(_ & a' & r' & j & w & u & E & Q1 & Q2 & Q3 & Q4 & Q5 & Q6 & Q7)|(_ & e & E)]; auto;
        rewrite E; simpl; auto.
      split; [auto|]. cbn [fst]. split; [lia|]. split; [congruence|].
      intros i c Hi Hc. rewrite app_length in Hi. simpl in Hi. rewrite Q4, nth_error_upd in Hc.
      destruct (i =? length d) eqn:Ei.
      + apply Nat.eqb_eq in Ei. subst i. destruct (length d <? length (a_alloc a)) eqn:Elt.
        * simpl in Hc. injection Hc as <-. eauto.
        * apply Nat.ltb_ge in Elt. destruct H1 as [H1 _]. lia.
      + apply Nat.eqb_neq in Ei. simpl in Hc. apply (H4 i c); auto. lia.
    - split; [auto|]. split; [auto|]. split; [auto|]. intros i c Hi. simpl in Hi. lia. }
  eapply safe_bind; [exact X|]. intros [a r'] (H1 & H2 & H3 & H4). cbn [fst app] in *. rewrite seq_length in H4.
  simpl. split; [split; [|split; [|split]]|]; simpl; auto. repeat (split; [auto|]).
  intros i c Hi. apply (H4 i c); auto. destruct H1 as [H1 _]. rewrite <- H1. eapply nth_error_lt; eauto.
Qed.

(** It succeeds exactly when every observation has a candidate. *)
Lemma slice_alloc_ok_iff : forall (s : slicer I K) r, SInv s ->
  (exists s' r', slice_sample_allocations data covs s r = Ok (s', r')) <-> (forall i, i < n -> has_cand s i).
Proof.
  intros s r (HC & Hm & Hlen & Hu). unfold slice_sample_allocations.
  assert (X : forall l a rr, (forall i, In i l -> i < n) -> CInv data covs a -> length (a_uv a) = sb_nc (s_mix s) ->
     (exists a' r', rfold (slice_alloc_step data covs (s_mix s) (s_u s)) l (a, rr) = Ok (a', r')) <->
     (forall i, In i l -> has_cand s i)).
  { induction l as [|i l IH]; intros a rr Hl Ha Hla; cbn [rfold].
    - split; [intros _ i []|]. eauto.
    - destruct (@slice_alloc_step_ok s a rr i) as [(Hh & a' & r' & j & w & u & E & Q1 & Q2 & Q3 & _)|(Hno & e & E)]; auto.
      { apply Hl; simpl; auto. }
      + rewrite E. cbn [rbind]. rewrite IH; [|intros; apply Hl; simpl; auto|auto|lia].
        split; [intros H k [<-|Hk]; auto|]. intros H k Hk. apply H. simpl. auto.
      + rewrite E. cbn [rbind]. split; [intros (a' & r' & F); discriminate|]. intros H. exfalso. apply Hno, H. simpl. auto. }
  specialize (X (seq 0 n) (s_alg s) r). 
  assert (Y : forall i, In i (seq 0 n) <-> i < n) by (intros i; rewrite in_seq; lia).
  specialize (X (fun i Hi => proj1 (Y i) Hi) HC Hlen). split.
  - intros (s' & r' & E) i Hi. apply X; [|apply Y; auto]. apply rbind_ok in E. destruct E as ([a' r1] & E & _). eauto.
  - intros H. destruct X as [_ X]. destruct X as (a' & r' & E); [intros i Hi; apply H, Y; auto|].
    rewrite E. simpl. eauto.
Qed.

Lemma SInv_suv : forall s r, SInv s -> exists a' r', sample_unique_values false (s_alg s, r) = Ok (a', r') /\
  SInv (mkSlice a' (s_mix s) (s_u s)) /\ a_alloc a' = a_alloc (s_alg s) /\ a_hyp a' = a_hyp (s_alg s).
Proof.
  intros s r (HC & Hm & Hlen & Hu).
  destruct (@CInv_suv I L data covs (s_alg s) r HC) as (a2 & r2 & E2 & C2 & Al2 & Hy2 & Mx2 & _ & Ids2).
  exists a2, r2. split; auto. split; auto. split; [auto|split; [auto|split; [|auto]]]. simpl.
  rewrite <- (map_length (@h_ids I) (a_uv a2)), Ids2, map_length. auto.
Qed.

Lemma slice_step_safe : forall fuel (s : slicer I K) r, SInv s ->
  osafe (fun p => SInv (fst p) /\ a_hyp (s_alg (fst p)) = a_hyp (s_alg s))
    (slice_step data covs beta unif01 tiny junk fuel s r).
Proof.
  intros fuel s r HS. unfold slice_step.
  destruct (@SInv_suv s r HS) as (a1 & r1 & E1 & H1 & _ & Hy1). rewrite E1.
  pose proof (@slice_weights_safe fuel _ r1 H1) as W.
  destruct (slice_sample_weights beta junk fuel (mkSlice a1 (s_mix s) (s_u s)) r1) as [[[s2 r2]| | |]|]; simpl in W; try contradiction; try exact Logic.I.
  destruct W as (H2 & Al2 & Hy2 & _). destruct H2 as (C2 & M2 & L2 & U2).
  eapply safe_bind. { apply (@sample_slice_safe s2 r2 C2 M2 L2). }
  intros [s3 r3] (Ea & Em & H3 & _). cbn [fst] in *.
  eapply safe_imp; [apply (@slice_alloc_safe s3 r3 H3)|]. intros [s4 r4] (H4 & _ & _ & Hy4 & _). cbn [fst] in *.
  split; auto. rewrite Hy4, Ea, Hy2. simpl. auto.
Qed.

Lemma slice_iter_safe : forall fuel k s r, SInv s ->
  osafe (fun p => SInv (fst p) /\ a_hyp (s_alg (fst p)) = a_hyp (s_alg s))
    (slice_iter data covs beta unif01 tiny junk fuel k s r).
Proof.
  intros fuel. induction k as [|k IH]; intros s r HS; simpl; auto.
  pose proof (@slice_step_safe fuel s r HS) as W.
  destruct (slice_step data covs beta unif01 tiny junk fuel s r) as [[[s2 r2]| | |]|]; simpl in *; auto.
  destruct W as [H2 Hy]. eapply osafe_imp; [apply IH; auto|]. intros p [A B]. split; auto. congruence.
Qed.

(** ** Saved posteriors *)

Lemma only0_slice_step : forall hy0 fuel s r s' r', SInv s ->
  slice_step data covs beta unif01 tiny junk fuel s r = Some (Ok (s', r')) ->
  only0 hy0 (a_uv (s_alg s)) -> only0 hy0 (a_uv (s_alg s')).
Proof.
  intros hy0 fuel s r s' r' HS H S. unfold slice_step in H.
  destruct (sample_unique_values false (s_alg s, r)) as [[a1 r1]| | |] eqn:E1; try discriminate.
  destruct (@SInv_suv s r HS) as (a1' & r1' & E1' & H1 & _ & Hy1). rewrite E1 in E1'. injection E1' as <- <-.
  pose proof (@slice_weights_safe fuel _ r1 H1) as W.
  destruct (slice_sample_weights beta junk fuel (mkSlice a1 (s_mix s) (s_u s)) r1) as [[[s2 r2]| | |]|]; try discriminate.
  simpl in W. destruct W as (_ & _ & _ & _ & _ & W).
  apply (@only0_suv I) with (hy0 := hy0) in E1; auto.
  assert (S2 : only0 hy0 (a_uv (s_alg s2))).
  { intros c h Hc. destruct (W c h Hc) as [Hx|(Hge & _ & Hs)].
    - apply E1; auto.
    - rewrite Hs. split; [|discriminate]. destruct c; simpl; [|rewrite andb_false_r; auto].
      destruct H1 as (C1 & _). apply CInv_uv_pos in C1. simpl in C1. lia. }
  injection H as H. apply rbind_ok in H. destruct H as ([s3 r3] & E3 & H).
  unfold sample_slice in E3. apply rbind_ok in E3. destruct E3 as ([us r4] & _ & E3). injection E3 as <- <-.
  unfold slice_sample_allocations in H. simpl in H. apply rbind_ok in H. destruct H as ([a4 r5] & E4 & H).
  injection H as <- <-. simpl.
  change (only0 hy0 (a_uv (fst (a4, r5)))).
  eapply rfold_pres with (P := fun s : alg I * Rng I => only0 hy0 (a_uv (fst s))); [|exact E4|exact S2].
  intros x [d rd] [d' rd'] Hd. cbn [fst]. unfold slice_alloc_step in Hd.
  rinv Hd u. rinv Hd dd. rinv Hd cv. rinv Hd inds. rinv Hd ps. rinv Hd q. destruct q as [c r6]. rinv Hd cn.
  rinv Hd a5. injection Hd as <- <-. eapply only0_move; eauto.
Qed.

Lemma only0_slice_iter : forall hy0 fuel k s r s' r', SInv s ->
  slice_iter data covs beta unif01 tiny junk fuel k s r = Some (Ok (s', r')) ->
  only0 hy0 (a_uv (s_alg s)) -> only0 hy0 (a_uv (s_alg s')).
Proof.
  intros hy0 fuel. induction k as [|k IH]; intros s r s' r' HS H S; cbn [slice_iter] in H; [injection H as <- <-; auto|].
  destruct (slice_step data covs beta unif01 tiny junk fuel s r) as [[[s2 r2]| | |]|] eqn:E; try discriminate.
  eapply IH; [|exact H|].
  - pose proof (@slice_step_safe fuel s r HS) as W. rewrite E in W. simpl in W. tauto.
  - eapply only0_slice_step; eauto.
Qed.

End SF.
