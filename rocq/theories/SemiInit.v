(** * Semi-HDP: initialisation. *)
From Coq Require Import String.
From Coq Require Import Bool List Arith ZArith Reals Lia Permutation.
From Verif Require Import Base XReal Semi SemiWp SemiSpec SemiCount SemiInv.
Import ListNotations.
Local Open Scope nat_scope.

Section Init.
Variable I : SH.
Variable P : params.
Variable data : list (list (Datum I)).
Notation sst := (sst I).
Notation ng := (length data).
Notation wf := (wf I data).
Notation nn i := (length (nth i data []) * cols I).
Hypothesis HG : gen_ok I.

Lemma new_objs_spec : forall k s g, exists xs g', length xs = k /\
  new_objs I k s g = (seq (length (s_heap I s)) k, w_heap I (s_heap I s ++ xs) s, g').
Proof.
  induction k as [|k IH]; intros s g.
  - exists [], g. split; auto. cbn [new_objs seq]. rewrite app_nil_r, w_heap_same. reflexivity.
  - cbn [new_objs]. destruct (samp_prior I g) as [x g1]. unfold alloc_obj.
    destruct (IH (w_heap I (s_heap I s ++ [x]) s) g1) as (xs & g' & L & E). rewrite E. exists (x :: xs), g'. split; [simpl; lia|].
    cbn [w_heap s_heap]. rewrite app_length. cbn [length seq]. rewrite Nat.add_1_r, <- app_assoc. reflexivity.
Qed.

Lemma init_draws_spec : forall k g, exists ds g', init_draws I k g = (ds, g') /\ length ds = k /\ Forall (fun t => t < 5) ds.
Proof.
  induction k as [|k IH]; intros g; [exists [], g; auto|]. cbn [init_draws].
  pose proof (go_catp _ HG (repeat (/ 5)%R INIT) g) as X. destruct (catp I (repeat (/ 5)%R INIT) g) as [t g1].
  destruct (IH g1) as (ds & g' & -> & L & F). exists (t :: ds), g'. split; [reflexivity|]. split; [simpl; lia|].
  constructor; auto. apply X. discriminate.
Qed.

Record lens (s : sst) : Prop := {
  ls_rest : length (s_rest I s) = ng; ls_priv : length (s_priv I s) = ng; ls_n : length (s_n I s) = ng;
  ls_tab : length (s_tab I s) = ng; ls_ra : length (s_ra I s) = ng; ls_used : length (s_used I s) = ng;
  ls_ts : length (s_ts I s) = ng; ls_tp : length (s_tp I s) = ng; ls_conc : length (s_conc I s) = ng;
  ls_restp : s_restp I s = repeat [] ng; ls_np : s_np I s = repeat [] ng }.

Definition iinv (m : nat) (s : sst) : Prop := lens s /\ opened I data m s.

Lemma nby_val : forall i, i < ng -> nby I data i = Ok (nn i).
Proof.
  intros i Hi. unfold nby, at_. destruct (nth_error data i) eqn:E; [|apply nth_error_None in E; lia].
  cbn [rbind]. rewrite (nth_error_nth _ _ _ E). reflexivity.
Qed.

Lemma ltb_S : forall r m, (r <? S m) = ((r =? m) || (r <? m))%bool.
Proof. intros. destruct (Nat.ltb_spec r (S m)), (Nat.eqb_spec r m), (Nat.ltb_spec r m); auto; lia. Qed.

Lemma ok_init_group : forall m s g, iinv m s -> m < ng -> 5 <= nn m -> ok (init_group I data (s, g) m) (fun a => iinv (S m) (fst a)).
Proof.
  intros m s g [[ls_rest0 ls_priv0 ls_n0 ls_tab0 ls_ra0 ls_used0 ls_ts0 ls_tp0 ls_conc0 ls_restp0 ls_np0] [op_heap0 op_shared0 op_rest0 op_priv0 op_tp0 op_ts0 op_ra0 op_tab0]] Hm Hn. unfold init_group. rewrite nby_val by auto. cbn [rbind].
  apply ok_bind. apply ok_set; [lia|]. apply ok_bind. apply ok_set; [lia|].
  replace (nn m <? INIT) with false by (symmetry; apply Nat.ltb_ge; exact Hn).
  destruct (init_draws_spec (nn m - INIT) g) as (ds & g1 & -> & Ld & Fd).
  apply ok_bind. apply ok_set; [lia|]. cbv zeta.
  match goal with |- context [new_objs I INIT ?t g1] => destruct (new_objs_spec INIT t g1) as (xs & g2 & Lx & ->) end.
  cbn [w_tab w_ra w_heap s_heap s_priv s_rest s_shared s_tp s_ts]. rewrite op_heap0.
  apply ok_bind. apply ok_at with (d := []); [lia|]. apply ok_bind. apply ok_at with (d := []); [lia|].
  rewrite op_shared0. apply ok_bind. apply ok_intro with (a := seq 0 5); [reflexivity|].
  rewrite op_priv0, op_rest0, Nat.ltb_irrefl.
  apply ok_bind. apply ok_set; [lia|]. apply ok_bind. apply ok_set; [lia|]. apply ok_bind. apply ok_set; [lia|]. apply ok_bind. apply ok_set; [lia|].
  cbn [ok fst]. split.
  - constructor; cbn [w_ts w_tp w_rest w_priv w_heap w_tab w_ra s_rest s_priv s_n s_tab s_ra s_used s_ts s_tp s_restp s_np s_conc]; rewrite ?upd_length; auto.
  - constructor; cbn [w_ts w_tp w_rest w_priv w_heap w_tab w_ra s_rest s_priv s_n s_tab s_ra s_used s_ts s_tp s_restp s_np s_heap s_shared].
    + rewrite app_length, Lx, op_heap0. unfold INIT. lia.
    + auto.
    + intros r. rewrite nth_upd, ltb_S, ls_rest0. destruct (Nat.eqb_spec r m) as [->|N]; cbn [andb orb]; auto.
      apply Nat.ltb_lt in Hm. rewrite Hm. reflexivity.
    + intros r. rewrite nth_upd, ltb_S, ls_priv0. destruct (Nat.eqb_spec r m) as [->|N]; cbn [andb orb]; auto.
      apply Nat.ltb_lt in Hm. rewrite Hm. reflexivity.
    + intros r Hr. rewrite nth_upd, ls_tp0. destruct (Nat.eqb_spec r m) as [->|N]; cbn [andb]; [|apply op_tp0; lia].
      apply Nat.ltb_lt in Hm. rewrite Hm. reflexivity.
    + intros r Hr. rewrite nth_upd, ls_ts0. destruct (Nat.eqb_spec r m) as [->|N]; cbn [andb]; [|apply op_ts0; lia].
      apply Nat.ltb_lt in Hm. rewrite Hm. reflexivity.
    + intros r Hr. rewrite !nth_upd, ls_ra0, ls_used0. destruct (Nat.eqb_spec r m) as [->|N]; cbn [andb]; [|apply op_ra0; lia].
      apply Nat.ltb_lt in Hm. rewrite Hm. auto.
    + intros i Hi. rewrite nth_upd, ls_tab0. destruct (Nat.eqb_spec i m) as [->|N]; cbn [andb]; [|apply op_tab0; lia].
      pose proof Hm as Hm'. apply Nat.ltb_lt in Hm'. rewrite Hm'. exists ds. split; [reflexivity|]. split; auto. unfold INIT in Ld. lia.
Qed.

Definition start (s : sst) : Prop := iinv 0 s.

Lemma ok_init_groups : forall m s g (Q : sst * Gs I -> Prop), iinv 0 s -> m <= ng -> (forall i, i < m -> 5 <= nn i) ->
  (forall s' g', iinv m s' -> Q (s', g')) -> ok (rfold (init_group I data) (seq 0 m) (s, g)) Q.
Proof.
  intros m s g Q H Hm Hn HQ. apply ok_for with (Inv := fun k a => iinv k (fst a)); auto.
  - intros k [s' g'] Hk Hi. apply ok_init_group; auto. lia.
  - intros [s' g'] Hi. apply HQ. exact Hi.
Qed.

Lemma rfold_app : forall A B (f : B -> A -> res B) l l' b, rfold f (l ++ l') b = (x <- rfold f l b ;; rfold f l' x).
Proof. induction l as [|a l IH]; intros l' b; [reflexivity|]. cbn [app rfold]. destruct (f b a); cbn [rbind]; auto. Qed.

(** The state [initialize] hands to the loop over groups. *)
Definition sized : sst :=
  mkS I [] (repeat [] ng) (repeat [] ng) [] (repeat [] ng) (repeat [] ng) (repeat [] ng) (repeat [] ng) (repeat 0 ng) (repeat false ng)
      (repeat (p_conc P) ng) (repeat [] ng) (repeat [] ng) [] (/ 2)%R.

Lemma sized_inv : forall xs, length xs = 5 -> iinv 0 (w_shared I (seq 0 5) (w_heap I xs sized)).
Proof.
  intros xs L. split.
  - constructor; cbn [sized w_shared w_heap s_rest s_priv s_n s_tab s_ra s_used s_ts s_tp s_restp s_np s_conc]; rewrite ?repeat_length; auto.
  - constructor; cbn [sized w_shared w_heap s_rest s_priv s_heap s_shared]; auto; try (intros; lia).
    + intros r. rewrite nth_repeat. reflexivity.
    + intros r. rewrite nth_repeat. reflexivity.
Qed.

(** After the groups, the counts. *)
Definition counted (s : sst) : Prop :=
  forall r, r < ng -> nth r (s_n I s) [] = tally 10 (nth r (s_tab I s) []).

Lemma ok_init_counts : forall s (Q : sst -> Prop), iinv ng s ->
  (forall s', iinv ng s' -> counted s' -> Q s') ->
  ok (rfold (fun s' i =>
          rt <- at_ (s_rest I s') i ;;
          n <- nby I data i ;;
          x <- rfold (fun acc j => t <- at2 (s_tab I s') i j ;; add1 acc t 1) (seq 0 n) (repeat 0%Z (length rt)) ;;
          nn <- set_at (s_n I s') i x ;; Ok (w_n I nn s')) (seq 0 ng) s) Q.
Proof.
  intros s Q H HQ.
  apply ok_for with (Inv := fun m s' => iinv ng s' /\ forall r, r < m -> nth r (s_n I s') [] = tally 10 (nth r (s_tab I s') [])).
  - split; auto. intros; lia.
  - intros m s1 Hm [[L O] C]. pose proof (ls_rest _ L). pose proof (ls_n _ L). pose proof (ls_tab _ L).
    apply ok_bind. apply ok_at with (d := []); [lia|]. rewrite nby_val by auto. cbn [rbind].
    rewrite (op_rest _ _ _ _ O), (proj2 (Nat.ltb_lt m ng) Hm). change (length (seq (5 + 5 * m) 5 ++ seq 0 5)) with 10.
    destruct (op_tab _ _ _ _ O m Hm) as (ds & Et & Ld & Fd).
    assert (Lt : length (nth m (s_tab I s1) []) = nn m) by (rewrite Et, <- Ld; reflexivity).
    assert (Ft : Forall (fun t => t < 10) (nth m (s_tab I s1) [])).
    { rewrite Et. apply Forall_app. split; [apply Forall_forall; intros x Hx; apply in_seq0 in Hx; lia|].
      eapply Forall_impl; [|exact Fd]. cbv beta. intros; lia. }
    apply ok_bind.
    apply ok_for with (Inv := fun j acc => acc = tally 10 (firstn j (nth m (s_tab I s1) []))).
    + reflexivity.
    + intros j acc Hj ->. apply ok_bind. apply ok_at2 with (d := 0); [lia|lia|].
      assert (nth j (nth m (s_tab I s1) []) 0 < 10) by (apply Forall_nth' with (1 := Ft); lia).
      apply ok_add1; [rewrite tally_length; auto|]. rewrite tally_snoc by auto. rewrite (firstn_snoc _ 0) by lia. reflexivity.
    + intros acc ->. rewrite <- Lt, firstn_all. apply ok_bind. apply ok_set; [lia|]. cbn [ok]. split.
      * split; [destruct L|destruct O]; constructor; cbn [w_n s_rest s_priv s_n s_tab s_ra s_used s_ts s_tp s_restp s_np s_conc s_heap s_shared]; rewrite ?upd_length; auto.
      * intros r Hr. cbn [w_n s_n s_tab]. rewrite nth_upd. destruct (Nat.eqb_spec r m) as [->|N]; cbn [andb].
        -- replace (m <? length (s_n I s1)) with true by (symmetry; apply Nat.ltb_lt; lia). reflexivity.
        -- apply C. lia.
  - intros s' [A C]. apply HQ; auto.
Qed.

Lemma firstn_nil' : forall A n, firstn n (@nil A) = [].
Proof. destruct n; reflexivity. Qed.

Lemma resize_nil : forall A (d : A) n, resize d n [] = repeat d n.
Proof. intros. unfold resize. rewrite firstn_nil'. cbn [length app]. rewrite Nat.sub_0_r. reflexivity. Qed.

Lemma iinv_m : forall m s x, iinv m s -> iinv m (w_m I x s).
Proof. intros m s x [[] []]. split; constructor; auto. Qed.

Lemma ok_initialize : forall g (Q : sst * Gs I -> Prop), (forall i, i < ng -> 5 <= nn i) ->
  (forall s g', iinv ng s -> counted s -> Q (s, g')) -> ok (initialize I P data (fresh I) g) Q.
Proof.
  intros g Q Hn HQ. unfold initialize. cbn [fresh s_heap s_rest s_priv s_shared s_n s_restp s_np s_tab s_ra s_used s_ts s_tp s_m s_w].
  rewrite !resize_nil. change (Semi.ng I data) with ng. fold sized.
  destruct (new_objs_spec INIT sized g) as (xs & g2 & Lx & ->). cbv zeta. apply ok_bind.
  apply ok_init_groups with (m := ng); auto; [apply sized_inv; exact Lx|].
  intros s4 g4 H4. apply ok_bind. apply ok_init_counts; [apply iinv_m; exact H4|].
  intros s6 H6 C6. cbn [ok]. apply HQ; auto.
Qed.

(** With a group of fewer than five entries the allocation vector is written
    out of range. *)
Lemma initialize_short : forall g i, i < ng -> nn i < 5 -> initialize I P data (fresh I) g = UB.
Proof.
  intros g i Hi Hs. unfold initialize. cbn [fresh s_heap s_rest s_priv s_shared s_n s_restp s_np s_tab s_ra s_used s_ts s_tp s_m s_w].
  rewrite !resize_nil. change (Semi.ng I data) with ng. fold sized.
  destruct (new_objs_spec INIT sized g) as (xs & g2 & Lx & ->). cbv zeta.
  change (w_shared I (s_shared I (w_heap I (s_heap I sized ++ xs) sized) ++ seq (length (s_heap I sized)) INIT) (w_heap I (s_heap I sized ++ xs) sized))
    with (w_shared I (seq 0 5) (w_heap I xs sized)).
  pose proof (sized_inv xs Lx) as H0. generalize dependent (w_shared I (seq 0 5) (w_heap I xs sized)). intros s3 H0.
  assert (X : exists k, k < ng /\ nn k < 5 /\ forall j, j < k -> 5 <= nn j).
  { clear - Hi Hs. revert Hi Hs. induction i as [i IH] using lt_wf_ind. intros Hi Hs.
    destruct (Exists_dec (fun j => nn j < 5) (seq 0 i)) as [E|N].
    - intros j. destruct (lt_dec (nn j) 5); auto.
    - apply Exists_exists in E. destruct E as (j & Hj & Hn). apply in_seq0 in Hj. apply (IH j Hj); auto. lia.
    - exists i. split; auto. split; auto. intros j Hj. destruct (le_lt_dec 5 (nn j)); auto. exfalso. apply N. apply Exists_exists. exists j. split; auto. apply in_seq. lia. }
  destruct X as (k & Hk & Hsk & Hall).
  assert (U : rfold (init_group I data) (seq 0 ng) (s3, g2) = UB).
  { replace ng with (k + S (ng - k - 1)) by lia. rewrite seq_app, rfold_app.
    destruct (ok_inv _ _ _ (ok_init_groups k s3 g2 (fun a => iinv k (fst a)) H0 ltac:(lia) Hall ltac:(auto))) as ((s' & g') & -> & [L O]).
    cbn [rbind seq rfold Nat.add]. unfold init_group at 1. rewrite nby_val by auto. cbn [rbind].
    cbn [fst] in L. pose proof (ls_ra _ L). pose proof (ls_used _ L).
    unfold set_at at 1. rewrite (proj2 (Nat.ltb_lt _ _)) by lia. cbn [rbind].
    unfold set_at at 1. rewrite (proj2 (Nat.ltb_lt _ _)) by lia. cbn [rbind].
    rewrite (proj2 (Nat.ltb_lt _ _)) by (unfold INIT; exact Hsk). reflexivity. }
  rewrite U. reflexivity.
Qed.

Lemma opened_row : forall s r, opened I data ng s -> r < ng ->
  nth r (s_rest I s) [] = seq (5 + 5 * r) 5 ++ seq 0 5 /\ nth r (s_priv I s) [] = seq (5 + 5 * r) 5.
Proof. intros s r O Hr. rewrite (op_rest _ _ _ _ O), (op_priv _ _ _ _ O), (proj2 (Nat.ltb_lt _ _) Hr). auto. Qed.

Lemma iinv_wf : forall s, cols I = 1 -> iinv ng s -> counted s ->
  wf s /\ shared_coherent I data s /\ forall r, r < ng -> nth r (s_n I s) [] = tally (length (nth r (s_rest I s) [])) (seated I data s r).
Proof.
  intros s Hc [[ls_rest0 ls_priv0 ls_n0 ls_tab0 ls_ra0 ls_used0 ls_ts0 ls_tp0 ls_conc0 ls_restp0 ls_np0] O] C. pose proof (op_heap _ _ _ _ O) as Hh.
  assert (Hra : forall i, i < ng -> nth i (s_ra I s) 0 = i) by (intros i Hi; apply (op_ra _ _ _ _ O i Hi)).
  assert (Htab : forall i, i < ng -> length (nth i (s_tab I s) []) = length (nth i data []) /\ Forall (fun t => t < 10) (nth i (s_tab I s) [])).
  { intros i Hi. destruct (op_tab _ _ _ _ O i Hi) as (ds & -> & Ld & Fd). rewrite Hc, Nat.mul_1_r in Ld. split; [rewrite <- Ld; reflexivity|].
    apply Forall_app. split; [apply Forall_forall; intros x Hx; apply in_seq0 in Hx; lia|]. eapply Forall_impl; [|exact Fd]. cbv beta. intros; lia. }
  assert (Hseat : forall r, r < ng -> seated I data s r = nth r (s_tab I s) []).
  { intros r Hr. unfold seated.
    assert (X : forall m, m <= ng -> flat_map (fun i => if nth i (s_ra I s) 0 =? r then nth i (s_tab I s) [] else []) (seq 0 m) = if r <? m then nth r (s_tab I s) [] else []).
    { induction m as [|m IH]; intros Hm; [reflexivity|]. rewrite flat_map_seq_S, IH, Hra, ltb_S, Nat.eqb_sym by lia.
      destruct (Nat.eqb_spec r m) as [->|N]; cbn [orb]; [rewrite Nat.ltb_irrefl; reflexivity|apply app_nil_r]. }
    rewrite X by lia. rewrite (proj2 (Nat.ltb_lt _ _) Hr). reflexivity. }
  assert (Hlen : forall r, r < ng -> length (nth r (s_rest I s) []) = 10) by (intros r Hr; rewrite (proj1 (opened_row s r O Hr)); reflexivity).
  split; [constructor; auto|split].
  - rewrite ls_restp0. apply repeat_length.
  - rewrite ls_np0. apply repeat_length.
  - rewrite (op_shared _ _ _ _ O). apply Forall_forall. intros x Hx. apply in_seq0 in Hx. lia.
  - intros r Hr. destruct (opened_row s r O Hr) as [-> ->]. rewrite (op_tp _ _ _ _ O r Hr), (op_ts _ _ _ _ O r Hr), (op_shared _ _ _ _ O). constructor.
    + reflexivity.
    + reflexivity.
    + apply Forall_app. split; apply Forall_forall; intros x Hx; apply in_seq in Hx; lia.
    + apply Forall_forall; intros x Hx; apply in_seq in Hx; lia.
    + intros l Hl. change (l < 10) in Hl. change (length (seq 0 5)) with 5. do 10 (destruct l as [|l]; [cbn; lia || exact Logic.I|]). lia.
    + apply Permutation_refl.
    + intros l k Hl E. change (l < 10) in Hl. do 10 (destruct l as [|l]; [cbn in E; first [discriminate E | injection E as <-; reflexivity]|]). lia.
  - intros i Hi. rewrite Hra; auto.
  - intros r Hr. rewrite (proj2 (op_ra _ _ _ _ O r Hr)). split; auto. intros _. rewrite <- (Hra r Hr). apply nth_In. lia.
  - intros i Hi. rewrite Hra by auto. rewrite Hlen by auto. apply Htab; auto.
  - intros r Hr. rewrite C, Hlen, tally_length by auto. lia.
  - intros r Hr. rewrite ls_restp0, ls_np0, !nth_repeat. split; auto.
  - assert (Ow : forall r o, own (s_priv I s) (s_restp I s) r o -> 5 + 5 * r <= o < 5 + 5 * r + 5).
    { intros r o [Ho|Ho].
      - rewrite (op_priv _ _ _ _ O) in Ho. destruct (r <? ng); [apply in_seq in Ho; exact Ho|destruct Ho].
      - rewrite ls_restp0, nth_repeat in Ho. destruct Ho. }
    constructor.
    + intros r. rewrite (op_priv _ _ _ _ O). destruct (r <? ng); [apply seq_NoDup|constructor].
    + intros r. rewrite ls_restp0, nth_repeat. constructor.
    + rewrite (op_shared _ _ _ _ O). apply seq_NoDup.
    + intros r r' o A B. apply Ow in A. apply Ow in B. lia.
    + intros r o A B. apply Ow in A. rewrite (op_shared _ _ _ _ O) in B. apply in_seq0 in B. lia.
  - intros r l h Hr Hl E. rewrite (proj1 (opened_row s r O Hr)), (op_ts _ _ _ _ O r Hr), (op_shared _ _ _ _ O) in *. change (l < 10) in Hl.
    do 10 (destruct l as [|l]; [cbn in E; first [discriminate E | injection E as <-; reflexivity]|]). lia.
  - intros r Hr. rewrite C, Hlen, Hseat by auto. reflexivity.
Qed.

End Init.
