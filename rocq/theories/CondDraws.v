(** * Conditional algorithms: which categorical draws a sweep makes. *)
From Coq Require Import String.
From Coq Require Import Bool List Arith ZArith Lia.
From Verif Require Import Base Hier Algos Spec MargFacts NealFacts InitFacts MargMore Stick Cond CondFacts SliceFacts CondProps.
Import ListNotations.
Set Implicit Arguments.

Lemma upd_app : forall A (l t : list A) y x, upd (l ++ y :: t) (length l) x = l ++ x :: t.
Proof. induction l as [|z l IH]; intros t y x; simpl; auto. f_equal. apply IH. Qed.

Section CD.
Variable I : Iface.
Variable L : laws I.
Variable data : list (Datum I).
Variable covs : list (Cov I).
Notation n := (length data).
Hypothesis Hrows : rows_ok I data (at_ covs).

(** The indices [cs] are drawn one after the other, the k-th from the
    log-probabilities [v k]. *)
Fixpoint draws (v : list (list (W I))) (cs : list nat) (r r' : Rng I) : Prop :=
  match v, cs with
  | [], [] => r = r'
  | w :: v', c :: cs' => w <> [] /\ exists r1, categorical I w r = (c, r1) /\ draws v' cs' r1 r'
  | _, _ => False
  end.

Lemma draws_snoc : forall v cs r r' w c r'', draws v cs r r' -> w <> [] -> categorical I w r' = (c, r'') ->
  draws (v ++ [w]) (cs ++ [c]) r r''.
Proof.
  induction v as [|x v IH]; intros [|y cs] r r' w c r'' H Hw Hc; simpl in *; try contradiction.
  - subst r'. split; auto. exists r''. auto.
  - destruct H as (Hx & r1 & E & H). split; auto. exists r1. split; auto. eapply IH; eauto.
Qed.

Lemma cat_inv : forall ws r c r', cat I ws r = Ok (c, r') -> ws <> [] /\ categorical I ws r = (c, r').
Proof. intros [|w ws] r c r' H; simpl in H; [discriminate|]. injection H as H. split; [discriminate|exact H]. Qed.

(** Prior log-weight plus log-likelihood of datum [i], for every component. *)
Definition blocked_vec (lw : nat -> list (W I)) (sts : list (St I)) (i : nat) (p : Datum I * Cov I) : list (W I) :=
  map (fun q => wadd I (fst q) (like_lpdf I (snd q) (fst p) (snd p))) (combine (lw i) sts).
Definition vecs (f : nat -> Datum I * Cov I -> list (W I)) : list (list (W I)) :=
  map (fun q => f (fst q) (snd q)) (combine (seq 0 n) (combine data covs)).

Lemma combine_nth : forall A B (l : list A) (l' : list B) i x y, nth_error l i = Some x -> nth_error l' i = Some y ->
  nth_error (combine l l') i = Some (x, y).
Proof.
  induction l as [|a l IH]; intros [|b l'] [|i] x y H1 H2; simpl in *; try discriminate; [congruence|]. apply IH; auto.
Qed.

Lemma firstn_snoc : forall A (l : list A) i x, nth_error l i = Some x -> firstn (S i) l = firstn i l ++ [x].
Proof.
  induction l as [|y l IH]; intros [|i] x H; simpl in *; try discriminate; [congruence|]. f_equal. apply IH; auto.
Qed.

Lemma vecs_nth : forall f i d cv, at_ data i = Ok d -> at_ covs i = Ok cv -> nth_error (vecs f) i = Some (f i (d, cv)).
Proof.
  intros f i d cv Hd Hc. apply at_inv in Hd, Hc. unfold vecs.
  rewrite nth_error_map. rewrite (@combine_nth _ _ (seq 0 n) _ i i (d, cv)); auto.
  - assert (i < n) by (eapply nth_error_lt; eauto). rewrite nth_error_nth' with (d := 0) by (rewrite seq_length; auto). rewrite seq_nth; auto.
  - apply combine_nth; auto.
Qed.

Lemma combine_map_r : forall A B C D (f : B -> C) (g : A * C -> D) (l : list A) (l' : list B),
  map g (combine l (map f l')) = map (fun p => g (fst p, f (snd p))) (combine l l').
Proof. induction l as [|a l IH]; intros [|b l']; simpl; auto. f_equal. apply IH. Qed.

Lemma label_split : forall A (l cs t : list A) x k, l = cs ++ t -> length cs = k -> k < length l ->
  exists t', upd l k x = (cs ++ [x]) ++ t' /\ t = skipn k l /\ t' = skipn (S k) l.
Proof.
  intros A l cs t x k -> Hk Hlt. destruct t as [|y t].
  - rewrite app_nil_r in Hlt. lia.
  - exists t. subst k. rewrite upd_app, <- app_assoc. split; [reflexivity|]. split.
    + rewrite skipn_app, skipn_all, Nat.sub_diag. reflexivity.
    + replace (cs ++ y :: t) with ((cs ++ [y]) ++ t) by (rewrite <- app_assoc; reflexivity).
      rewrite skipn_app. replace (S (length cs)) with (length (cs ++ [y])) by (rewrite app_length; simpl; lia).
      rewrite skipn_all, Nat.sub_diag. reflexivity.
Qed.

Lemma vecs_length : length covs >= n -> forall f, length (vecs f) = n.
Proof. intros H f. unfold vecs. rewrite map_length, !combine_length, seq_length. lia. Qed.

Lemma covs_length : n <= length covs.
Proof.
  destruct (length data) as [|k] eqn:E; [lia|].
  assert (Hk : k < length data) by lia. destruct (Hrows Hk) as (d & cv & _ & Ec & _). apply at_inv in Ec. apply nth_error_lt in Ec. lia.
Qed.

(** A blocked Gibbs sweep replaces the labels by one categorical draw per
    observation; weights and parameters are those before the sweep. *)
Lemma blocked_draws : forall nc (a a' : alg I) r r',
  1 <= nc -> length (a_uv a) = nc -> logweights_ok I data (a_mix a) nc ->
  consistent n (a_alloc a) (view (a_uv a)) -> caches_ok data covs (a_uv a) ->
  blocked_sample_allocations data covs nc (a, r) = Ok (a', r') ->
  draws (vecs (blocked_vec (mix_logweights I (a_mix a)) (map (@h_state I) (a_uv a)))) (a_alloc a') r r'.
Proof.
  intros nc a a' r r' Hnc Hl Hw Hc Hk H.
  assert (HC : CInv data covs a) by (apply CInv_iff; auto).
  set (V := vecs (blocked_vec (mix_logweights I (a_mix a)) (map (@h_state I) (a_uv a)))).
  assert (X : forall k, k <= n -> exists ak rk cs, rfold (blocked_step data covs nc) (seq 0 k) (a, r) = Ok (ak, rk) /\
     CInv data covs ak /\ length (a_uv ak) = nc /\ a_mix ak = a_mix a /\
     map (@h_state I) (a_uv ak) = map (@h_state I) (a_uv a) /\
     length cs = k /\ (exists t, a_alloc ak = cs ++ t) /\ draws (firstn k V) cs r rk).
  { induction k as [|k IH]; intros Hkn.
    - exists a, r, []. cbn [rfold seq]. split; auto. split; auto. split; auto. split; auto. split; auto. split; auto.
      split; [exists (a_alloc a); auto|]. simpl. auto.
    - destruct IH as (ak & rk & cs & E & Ck & Lk & Mk & Sk & Lc & (t & Et) & Dk); [lia|].
      destruct (@blocked_step_ok I L data covs Hrows nc ak rk k) as (b & rb & c & Eb & Cb & _ & Eab & Lb & _ & Mb & Sb); auto; [rewrite Mk; auto|].
      exists b, rb, (cs ++ [c]).
      rewrite seq_S, rfold_app. change (0 + k) with k. rewrite E. cbn [rbind rfold]. rewrite Eb. cbn [rbind].
      split; auto. split; auto. split; auto. split; [congruence|]. split; [congruence|].
      split; [rewrite app_length; simpl; lia|].
      assert (Hlen : k < length (a_alloc ak)) by (destruct Ck as [-> _]; lia).
      split.
      + destruct (@label_split _ (a_alloc ak) cs t c k Et Lc Hlen) as (t' & Q & _). exists t'. rewrite Eab. exact Q.
      + assert (Hkn' : k < n) by lia. destruct (Hrows Hkn') as (d & cv & Ed & Ecv & _).
        assert (Hck : consistent n (a_alloc ak) (view (a_uv ak)) /\ caches_ok data covs (a_uv ak)) by (apply CInv_iff; auto).
        destruct Hck as [Hck1 Hck2].
        assert (Hwk : logweights_ok I data (a_mix ak) nc) by (rewrite Mk; auto).
        destruct (@blocked_step_spec I L data covs Hrows nc ak b rk rb k d cv Hnc Lk Hwk Hck1 Hck2 Ed Ecv Eb) as (c' & Ecat & Eal').
        assert (c' = c). { rewrite Eab in Eal'. assert (Z : nth_error (upd (a_alloc ak) k c) k = nth_error (upd (a_alloc ak) k c') k) by congruence.
          rewrite !nth_error_upd_same in Z by auto. congruence. }
        subst c'. apply cat_inv in Ecat. destruct Ecat as [Hne Ecat].
        pose proof (@vecs_nth (blocked_vec (mix_logweights I (a_mix a)) (map (@h_state I) (a_uv a))) k d cv Ed Ecv) as HV.
        fold V in HV. rewrite (firstn_snoc _ _ HV).
        assert (EV : blocked_vec (mix_logweights I (a_mix a)) (map (@h_state I) (a_uv a)) k (d, cv) =
           map (fun p => wadd I (fst p) (like_lpdf I (h_state (snd p)) d cv)) (combine (mix_logweights I (a_mix ak) k) (a_uv ak))).
        { unfold blocked_vec. rewrite <- Sk, Mk. rewrite combine_map_r. reflexivity. }
        rewrite EV. eapply draws_snoc; eauto. }
  destruct (X n) as (ak & rk & cs & E & Ck & _ & _ & _ & Lc & (t & Et) & D); auto.
  unfold blocked_sample_allocations in H. rewrite E in H. injection H as <- <-.
  assert (t = []). { destruct Ck as [Q _]. rewrite Et, app_length, Lc in Q. destruct t; auto. simpl in Q. lia. }
  subst t. rewrite app_nil_r in Et. rewrite Et.
  rewrite firstn_all2 in D; auto. unfold V. rewrite vecs_length; auto. pose proof covs_length. lia.
Qed.

(** ** Slice sampler *)
Variable K : Num.

(** Components whose weight exceeds [u], in increasing order. *)
Definition above (w : list (N K)) (u : N K) : list nat :=
  filter (fun j => match nth_error w j with Some x => nltb K u x | None => false end) (seq 0 (length w)).

Lemma cands_above : forall (m : sb K) u, sb_ok m -> slice_cands m u = Ok (above (sb_w m) u).
Proof.
  clear. intros m u Hm. unfold slice_cands. pose proof (sb_ok_w Hm) as Hw.
  assert (X : forall (pre w : list (N K)),
     rmap (fun j => x <- at_ (pre ++ w) j ;; Ok (j, x)) (seq (length pre) (length w)) = Ok (combine (seq (length pre) (length w)) w) /\
     map fst (filter (fun p => nltb K u (snd p)) (combine (seq (length pre) (length w)) w)) =
     filter (fun j => match nth_error (pre ++ w) j with Some x => nltb K u x | None => false end) (seq (length pre) (length w))).
  { intros pre w. revert pre. induction w as [|x w IH]; intros pre; [simpl; auto|].
    specialize (IH (pre ++ [x])). rewrite app_length, <- app_assoc in IH. simpl in IH. rewrite Nat.add_1_r in IH.
    destruct IH as [I1 I2].
    assert (E : nth_error (pre ++ x :: w) (length pre) = Some x) by (rewrite nth_error_app2, Nat.sub_diag by auto; auto).
    split.
    - cbn [length seq rmap combine]. rewrite (at_Some _ _ E). cbn [rbind]. rewrite I1. reflexivity.
    - cbn [length seq combine filter]. rewrite E. cbn [snd]. destruct (nltb K u x); cbn [map fst]; rewrite I2; reflexivity. }
  destruct (X [] (sb_w m)) as [X1 X2]. simpl in X1, X2. rewrite Hw in X1, X2. rewrite X1. cbn [rbind]. rewrite X2.
  unfold above. rewrite Hw. reflexivity.
Qed.

(** Log-likelihood of the datum under every candidate. *)
Definition slice_vec (sts : list (St I)) (cand : nat -> list nat) (i : nat) (p : Datum I * Cov I) : list (W I) :=
  flat_map (fun j => match nth_error sts j with Some st => [like_lpdf I st (fst p) (snd p)] | None => [] end) (cand i).

Definition cand_of (s : slicer I K) (i : nat) : list nat :=
  match nth_error (s_u s) i with Some u => above (sb_w (s_mix s)) u | None => [] end.

Lemma slice_draws : forall (s s' : slicer I K) r r', slice_ok data covs s ->
  slice_sample_allocations data covs s r = Ok (s', r') ->
  exists cs, draws (vecs (slice_vec (map (@h_state I) (a_uv (s_alg s))) (cand_of s))) cs r r' /\ length cs = n /\
    forall i c, nth_error cs i = Some c -> exists j, nth_error (cand_of s i) c = Some j /\ nth_error (a_alloc (s_alg s')) i = Some j.
Proof.
  intros s s' r r' Hs H. pose proof Hs as Hs'. apply slice_ok_iff in Hs'. destruct Hs' as (HC & Hm & Hlen & Hu).
  unfold slice_sample_allocations in H. apply rbind_ok in H. destruct H as ([a' r1] & H & H'). injection H' as <- <-. cbn [s_alg].
  set (V := vecs (slice_vec (map (@h_state I) (a_uv (s_alg s))) (cand_of s))).
  assert (X : forall k ak rk, k <= n -> rfold (slice_alloc_step data covs (s_mix s) (s_u s)) (seq 0 k) (s_alg s, r) = Ok (ak, rk) ->
     exists cs, CInv data covs ak /\ length (a_uv ak) = sb_nc (s_mix s) /\
     map (@h_state I) (a_uv ak) = map (@h_state I) (a_uv (s_alg s)) /\ length cs = k /\
     draws (firstn k V) cs r rk /\
     forall i c, nth_error cs i = Some c -> exists j, nth_error (cand_of s i) c = Some j /\ nth_error (a_alloc ak) i = Some j).
  { induction k as [|k IH]; intros ak rk Hkn Hk.
    - cbn [seq rfold] in Hk. injection Hk as <- <-. exists []. split; auto. split; auto. split; auto. split; auto.
      split; [simpl; auto|]. intros [|i] c Hi; discriminate.
    - rewrite seq_S, rfold_app in Hk. change (0 + k) with k in Hk. apply rbind_ok in Hk. destruct Hk as ([b rb] & Hb & Hk).
      cbn [rfold] in Hk. apply rbind_ok in Hk. destruct Hk as ([ak' rk'] & Hstep & Hk). injection Hk as -> ->.
      destruct (IH b rb) as (cs & Cb & Lb & Sb & Lc & Db & Jb); [lia|auto|].
      assert (Hkn' : k < n) by lia.
      destruct (Hrows Hkn') as (d & cv & Ed & Ecv & _).
      unfold slice_alloc_step in Hstep.
      destruct (@at_ok _ (s_u s) k) as (u & Eu & Enu); [lia|]. rewrite Eu in Hstep. cbn [rbind] in Hstep.
      rewrite Ed, Ecv, (cands_above u Hm) in Hstep. cbn [rbind] in Hstep.
      assert (Ecand : cand_of s k = above (sb_w (s_mix s)) u) by (unfold cand_of; rewrite Enu; auto).
      rewrite <- Ecand in Hstep.
      assert (Hj : forall j, In j (cand_of s k) -> j < length (a_uv b)).
      { intros j Hj. rewrite Ecand in Hj. unfold above in Hj. apply filter_In in Hj. destruct Hj as [Hj _]. apply in_seq in Hj.
        rewrite (sb_ok_w Hm) in Hj. lia. }
      assert (Eps : rmap (fun j => h <- at_ (a_uv b) j ;; Ok (h_like h d cv)) (cand_of s k) =
        Ok (slice_vec (map (@h_state I) (a_uv (s_alg s))) (cand_of s) k (d, cv))).
      { rewrite <- Sb. unfold slice_vec. revert Hj. generalize (cand_of s k). induction l as [|j l IHl]; intros Hj; [reflexivity|].
        cbn [rmap flat_map]. destruct (at_ok (a_uv b) (Hj j (or_introl eq_refl))) as (h & E & En). rewrite E. cbn [rbind].
        rewrite IHl by (intros; apply Hj; simpl; auto). cbn [rbind]. rewrite nth_error_map, En. reflexivity. }
      rewrite Eps in Hstep. cbn [rbind] in Hstep.
      apply rbind_ok in Hstep. destruct Hstep as ([c r2] & Ecat & Hstep).
      apply rbind_ok in Hstep. destruct Hstep as (j & Ej & Hstep). apply at_inv in Ej.
      apply rbind_ok in Hstep. destruct Hstep as (a2 & Emv & Hstep). injection Hstep as -> ->.
      apply cat_inv in Ecat. destruct Ecat as [Hne Ecat].
      assert (Hjb : j < length (a_uv b)) by (apply Hj; eapply nth_error_In; eauto).
      destruct (@move_datum_ok I L data covs Hrows b k j Cb Hkn' Hjb) as (a3 & Em & C3 & Eal & L3 & _ & _ & _ & S3).
      rewrite Em in Emv. injection Emv as ->.
      exists (cs ++ [c]). split; auto. split; [congruence|]. split; [congruence|]. split; [rewrite app_length; simpl; lia|]. split.
      + pose proof (@vecs_nth (slice_vec (map (@h_state I) (a_uv (s_alg s))) (cand_of s)) k d cv Ed Ecv) as HV.
        fold V in HV. rewrite (firstn_snoc _ _ HV). eapply draws_snoc; eauto.
      + assert (Hal : length (a_alloc b) = n) by apply Cb.
        intros i c' Hi. destruct (Nat.lt_ge_cases i k) as [Hik|Hik].
        * rewrite nth_error_app1 in Hi by lia. destruct (Jb i c' Hi) as (j' & J1 & J2). exists j'. split; auto.
          rewrite Eal, nth_error_upd_other; auto. lia.
        * assert (i = k). { apply nth_error_lt in Hi. rewrite app_length in Hi. simpl in Hi. lia. } subst i.
          rewrite nth_error_app2, Lc, Nat.sub_diag in Hi by lia. injection Hi as <-. exists j. split; auto.
          rewrite Eal, nth_error_upd_same; auto. lia. }
  destruct (X n a' r1) as (cs & _ & _ & _ & Lc & D & J); auto.
  exists cs. rewrite firstn_all2 in D; auto. unfold V. rewrite vecs_length; auto. pose proof covs_length. lia.
Qed.

End CD.
