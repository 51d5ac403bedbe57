(** * Initialisation and main loop: proofs. *)
From Coq Require Import String.
From Coq Require Import Bool List Arith ZArith Lia Sorting.Sorted Permutation.
From Verif Require Import Base Hier Algos Run Spec MargFacts NealFacts.
Import ListNotations.
Set Implicit Arguments.

Section Init.
Variable I : Iface.
Variable L : laws I.
Variable data : list (Datum I).
Variable covs : list (Cov I).
Notation cvf := (at_ covs).
Hypothesis Hrows : rows_ok I data cvf.
Notation n := (length data).

Lemma uhpF : false = true -> conj I = true /\ other_draw I = None.
Proof. discriminate. Qed.
Lemma trkF : false = true -> false = true.
Proof. discriminate. Qed.

(** An object without data. *)
Definition blank (h : hier I) : Prop := h_ids h = [] /\ h_card h = 0%Z /\ h_stats h = stats0 I /\ ph_ok h.

Lemma blank_clone : forall h, blank (h_clone h).
Proof. intros. repeat split. unfold ph_ok. simpl. discriminate. Qed.

Lemma init_clones_ok : forall hy m uv r, 1 <= length uv ->
  (forall c h, nth_error uv c = Some h -> blank h) ->
  forall s, s + 1 <= length uv ->
  exists uv' r', rfold (@init_clone_step I hy) (seq s m) (uv, r) = Ok (uv', r') /\
    length uv' = length uv + m /\
    (forall c h, nth_error uv' c = Some h -> blank h).
Proof.
  induction m as [|m IH]; intros uv r Hl Hb s Hs; cbn [seq rfold].
  - exists uv, r. split; [reflexivity|]. split; [lia|exact Hb].
  - unfold init_clone_step at 1.
    destruct (at_ok uv (i := 0)) as (h0 & E0 & En0); [lia|]. rewrite E0. cbn [rbind].
    destruct (at_ok (uv ++ [h_clone h0]) (i := s)) as (hi & Ei & Eni).
    { rewrite app_length. simpl. lia. }
    rewrite Ei. cbn [rbind]. unfold h_sample_prior.
    destruct (prior_sample I hy r) as [st r1]. cbn [rbind].
    set (uv1 := upd (uv ++ [h_clone h0]) s (h_set_state st hi)).
    assert (Hl1 : length uv1 = length uv + 1).
    { unfold uv1. rewrite upd_length, app_length. reflexivity. }
    assert (Hb0 : forall c h, nth_error (uv ++ [h_clone h0]) c = Some h -> blank h).
    { intros c h Hc. destruct (Nat.lt_ge_cases c (length uv)) as [Hlt|Hge].
      - rewrite nth_error_app1 in Hc by auto. eauto.
      - rewrite nth_error_app2 in Hc by auto.
        destruct (c - length uv) as [|q]; simpl in Hc; [|destruct q; discriminate].
        injection Hc as <-. apply blank_clone. }
    destruct (IH uv1 r1) with (s := S s) as (uv' & r' & E' & Hl' & Hb').
    + lia.
    + intros c h Hc. unfold uv1 in Hc. rewrite nth_error_upd in Hc.
      destruct ((c =? s) && (s <? length (uv ++ [h_clone h0]))); [|eauto].
      injection Hc as <-. destruct (Hb0 s hi Eni) as (A & B & C & D).
      repeat split; simpl; auto.
    + lia.
    + exists uv', r'. rewrite E'. split; auto. split; [lia|auto].
Qed.

Notation IV0 := (@Inv I data cvf false).

Lemma blank_Inv : forall hy uv, (forall c h, nth_error uv c = Some h -> blank h) ->
  IV0 hy (fun _ => None) uv.
Proof.
  intros hy uv Hb. split; [discriminate|]. intros c h Hc.
  destruct (Hb c h Hc) as (A & B & C & D).
  split; [split; [|discriminate]|split; [exact D|]].
  - unfold hok0. rewrite A, B, C. repeat split. constructor.
  - intros j. rewrite A. simpl. split; [tauto|discriminate].
Qed.

Lemma init_allocs_core : forall hy nc gen uv m,
  m <= n -> (forall i, gen i < nc) -> length uv = nc ->
  (forall c h, nth_error uv c = Some h -> blank h) ->
  exists al uv', rfold (@init_alloc_step I data covs hy nc gen) (seq 0 m) ([], uv) = Ok (al, uv') /\
    length al = m /\ length uv' = nc /\ IV0 hy (nth_error al) uv' /\
    (forall i, i < m -> i < nc -> nth_error al i = Some i).
Proof.
  intros hy nc gen uv m Hm Hgen Hl Hb.
  destruct (@rfold_inv _ _ (@init_alloc_step I data covs hy nc gen)
    (fun done s => length (fst s) = length done /\ length (snd s) = nc /\
       IV0 hy (nth_error (fst s)) (snd s) /\
       (forall i, i < length done -> i < nc -> nth_error (fst s) i = Some i))
    (seq 0 m) [] ([], uv)) as ([al uv'] & E & Hlen & Hl' & HI & Hid).
  - split; [|split; [|split]]; auto.
    + cbn [fst snd]. apply Inv_ext with (f := fun _ => None); [intros []; auto|].
      apply blank_Inv; auto.
    + cbn [length]. lia.
  - intros d x [al uv1] (rest & Er) (Hlen & Hl1 & HI & Hid). cbn [fst snd] in *.
    simpl in Er. apply app_seq_cut in Er. destruct Er as [Ed Hxm].
    assert (Hx : x < n) by lia.
    assert (Hdx : length d = x) by (rewrite Ed, seq_length; auto).
    unfold init_alloc_step.
    set (c := if x <? nc then x else gen x).
    assert (Hc : c < nc).
    { unfold c. destruct (x <? nc) eqn:Ex; [apply Nat.ltb_lt in Ex; auto|apply Hgen]. }
    destruct (Hrows Hx) as (dd & cv & E1 & E2 & _). rewrite E1, E2. cbn [rbind].
    assert (Hnone : nth_error al x = None) by (apply nth_error_None; lia).
    destruct (@add_in_ok I L data cvf Hrows false uhpF false trkF hy (nth_error al) uv1 x c dd cv)
      as (uv2 & E3 & Hl2 & HI2 & _); auto; [lia|].
    rewrite E3. cbn [rbind]. exists (al ++ [c], uv2). split; auto. cbn [fst snd].
    rewrite !app_length. simpl.
    split; [lia|]. split; [lia|]. split.
    + eapply Inv_ext; [|exact HI2]. intros j. cbv beta.
      destruct (j =? x) eqn:Ej.
      * apply Nat.eqb_eq in Ej. subst j. rewrite nth_error_app2 by lia.
        rewrite Hlen, Hdx, Nat.sub_diag. reflexivity.
      * apply Nat.eqb_neq in Ej. destruct (Nat.lt_ge_cases j x).
        { rewrite nth_error_app1 by lia. auto. }
        { rewrite (proj2 (nth_error_None al j)) by lia. symmetry. apply nth_error_None.
          rewrite app_length. simpl. lia. }
    + intros i Hi Hi2. destruct (Nat.eq_dec i x) as [->|Hne].
      * rewrite nth_error_app2 by lia. rewrite Hlen, Hdx, Nat.sub_diag. simpl. f_equal.
        unfold c. apply Nat.ltb_lt in Hi2. rewrite Hi2. reflexivity.
      * rewrite nth_error_app1 by lia. apply Hid; lia.
  - cbn [fst snd] in *. simpl in Hlen, Hid. rewrite seq_length in Hlen, Hid.
    exists al, uv'. auto.
Qed.

Lemma init_allocs_ok : forall hy nc gen uv,
  1 <= nc <= n -> (forall i, gen i < nc) -> length uv = nc ->
  (forall c h, nth_error uv c = Some h -> blank h) ->
  exists al uv', rfold (@init_alloc_step I data covs hy nc gen)
      (seq 0 nc ++ seq nc (n - nc)) ([], uv) = Ok (al, uv') /\
    length al = n /\ length uv' = nc /\ IV0 hy (nth_error al) uv' /\ nonempty uv' /\
    (forall i, i < nc -> nth_error al i = Some i).
Proof.
  intros hy nc gen uv Hnc Hgen Hl Hb.
  assert (Eseq : seq 0 nc ++ seq nc (n - nc) = seq 0 n).
  { replace n with (nc + (n - nc)) at 2 by lia. rewrite seq_app. reflexivity. }
  rewrite Eseq.
  destruct (@init_allocs_core hy nc gen uv n) as (al & uv' & E & Hlen & Hl' & HI & Hid); auto.
  exists al, uv'. split; auto. split; auto. split; auto. split; auto. split.
  - intros c h Hc Hcontra.
    assert (Hcl : c < nc) by (rewrite <- Hl'; eapply nth_error_lt; eauto).
    destruct HI as [_ H2]. destruct (H2 c h Hc) as (_ & _ & M).
    assert (In c (h_ids h)) by (apply M, Hid; lia).
    rewrite Hcontra in H. auto.
  - intros i Hi. apply Hid; lia.
Qed.

Lemma init_saves_ok : forall hy f uv, other_draw I = None ->
  IV0 hy f uv -> nonempty uv ->
  exists uv', rfold (@init_save_step I hy) (seq 0 (length uv)) uv = Ok uv' /\
    length uv' = length uv /\ @Inv I data cvf true hy f uv' /\ nonempty uv'.
Proof.
  intros hy f uv Hod HI Hne.
  destruct (@rfold_inv _ _ (@init_save_step I hy)
    (fun done u => length u = length uv /\ IV0 hy f u /\ nonempty u /\
       (forall c h, nth_error u c = Some h -> c < length done -> fresh hy h))
    (seq 0 (length uv)) [] uv) as (uv' & E & Hl & HI' & Hne' & Hf).
  - split; [auto|]. split; [auto|]. split; [auto|]. simpl. lia.
  - intros d x u (rest & Er) (Hl & [H1 H2] & Hn & Hf).
    simpl in Er. apply app_seq_cut in Er. destruct Er as [Ed Hx].
    assert (Hdx : length d = x) by (rewrite Ed, seq_length; auto).
    unfold init_save_step. destruct (at_ok u (i := x)) as (h & E & En); [lia|].
    rewrite E. cbn [rbind]. unfold h_save, h_compute_post. rewrite Hod. cbn [rbind].
    set (h' := mkHier I _ _ _ _ _ _).
    exists (upd u x h'). split; auto. split; [rewrite upd_length; auto|].
    destruct (H2 x h En) as (([Ks [Kc Kst]] & _) & P & M).
    assert (Hup : forall c g, nth_error (upd u x h') c = Some g ->
      (c = x /\ g = h') \/ (c <> x /\ nth_error u c = Some g)).
    { intros c g Hg. rewrite nth_error_upd in Hg.
      assert (Hxl : x <? length u = true) by (apply Nat.ltb_lt; lia).
      rewrite Hxl, andb_true_r in Hg. destruct (c =? x) eqn:Ec.
      - left. apply Nat.eqb_eq in Ec. injection Hg as <-. auto.
      - right. apply Nat.eqb_neq in Ec. auto. }
    split; [|split].
    + split.
      * intros j c. rewrite upd_length. apply H1.
      * intros c g Hg. destruct (Hup c g Hg) as [[-> ->]|[_ Hg']]; [|apply H2; auto].
        split; [split; [repeat split; simpl; auto|discriminate]|].
        split; [unfold ph_ok; simpl; discriminate|]. exact M.
    + intros c g Hg. destruct (Hup c g Hg) as [[-> ->]|[_ Hg']]; [|eapply Hn; eauto].
      simpl. eapply Hn; eauto.
    + intros c g Hg Hc. rewrite app_length in Hc. simpl in Hc.
      destruct (Hup c g Hg) as [[-> ->]|[Hcx Hg']].
      * split; reflexivity.
      * apply (Hf c g Hg'). lia.
  - exists uv'. split; auto. split; auto. split; auto.
    destruct HI' as [H1 H2]. split; auto. intros c h Hc.
    destruct (H2 c h Hc) as ((K & _) & P & M). split; [split; [exact K|]|auto].
    intros _. apply (Hf c h Hc). simpl. rewrite seq_length. rewrite <- Hl. eapply nth_error_lt; eauto.
Qed.

Lemma init_clusters_ok : forall uhp hy m k gen h0 r,
  (uhp = true -> conj I = true /\ other_draw I = None) ->
  1 <= n -> k <= n -> (forall i, gen i < num_components I data k) ->
  ph_ok h0 ->
  exists a r', init_clusters data covs uhp hy m k gen [h0] r = Ok (a, r') /\
    @GInv I data covs uhp a /\ length (a_uv a) = num_components I data k /\
    a_hyp a = hy /\ a_mix a = m /\ a_aux a = [] /\
    (forall i, i < num_components I data k -> nth_error (a_alloc a) i = Some i).
Proof.
  intros uhp hy m k gen h0 r Hu Hn Hk Hgen Hph. unfold init_clusters.
  set (nc := num_components I data k) in *.
  assert (Hnc : 1 <= nc <= n).
  { unfold nc, num_components. destruct (k =? 0) eqn:E; [lia|apply Nat.eqb_neq in E; lia]. }
  cbn [at_ nth_error rbind upd].
  destruct (@init_clones_ok hy (nc - 1) [h_initialize hy h0] r) with (s := 0)
    as (uv2 & r1 & E2 & Hl2 & Hb2); simpl; auto.
  { intros [|c] h Hc; simpl in Hc; [|destruct c; discriminate]. injection Hc as <-.
    split; [reflexivity|]. split; [reflexivity|]. split; [reflexivity|].
    unfold ph_ok, h_initialize. simpl. destruct (conj I); [discriminate|exact Hph]. }
  simpl in E2. rewrite E2. cbn [rbind].
  assert (Hl2' : length uv2 = nc) by (simpl in Hl2; lia).
  destruct (@init_allocs_ok hy nc gen uv2 Hnc Hgen Hl2' Hb2) as (al & uv3 & E3 & Hal & Hl3 & HI3 & Hne3 & Hid).
  rewrite E3. cbn [rbind].
  destruct uhp.
  - destruct (Hu eq_refl) as [Hcj Hod]. rewrite <- Hl3.
    destruct (@init_saves_ok hy (nth_error al) uv3 Hod HI3 Hne3) as (uv4 & E4 & Hl4 & HI4 & Hne4).
    rewrite E4. cbn [rbind]. eexists. exists r1. split; [reflexivity|].
    split; [|split; [|split; [|split; [|split]]]]; simpl; auto; [|rewrite Hl3; auto].
    split; [|split]; simpl; auto.
  - cbn [rbind]. eexists. exists r1. split; [reflexivity|].
    split; [|split; [|split; [|split; [|split]]]]; simpl; auto.
    split; [|split]; simpl; auto.
Qed.

(** More requested clusters than data: the first loop runs past the data. *)
Lemma init_clusters_too_many : forall uhp hy m k gen h0 r,
  ph_ok h0 -> n < k -> init_clusters data covs uhp hy m k gen [h0] r = UB.
Proof.
  intros uhp hy m k gen h0 r Hph Hk. unfold init_clusters, num_components.
  assert (Ek : k =? 0 = false) by (apply Nat.eqb_neq; lia). rewrite Ek.
  cbn [at_ nth_error rbind upd].
  destruct (@init_clones_ok hy (k - 1) [h_initialize hy h0] r) with (s := 0)
    as (uv2 & r1 & E2 & Hl2 & Hb2); simpl; auto.
  { intros [|c] h Hc; simpl in Hc; [|destruct c; discriminate]. injection Hc as <-.
    split; [reflexivity|]. split; [reflexivity|]. split; [reflexivity|].
    unfold ph_ok, h_initialize. simpl. destruct (conj I); [discriminate|exact Hph]. }
  simpl in E2. rewrite E2. cbn [rbind].
  assert (Hl2' : length uv2 = k) by (simpl in Hl2; lia).
  assert (Eseq : seq 0 k ++ seq k (n - k) = seq 0 n ++ n :: seq (S n) (k - S n)).
  { replace (n - k) with 0 by lia. rewrite app_nil_r.
    replace k with (n + S (k - S n)) at 1 by lia. rewrite seq_app. reflexivity. }
  rewrite Eseq, rfold_app.
  destruct (@init_allocs_core hy k (fun _ => 0) uv2 n) as (al & uv3 & E3 & _); auto; [lia|].
  assert (Ext : forall l s, (forall i, In i l -> i < k) ->
    rfold (@init_alloc_step I data covs hy k gen) l s = rfold (@init_alloc_step I data covs hy k (fun _ => 0)) l s).
  { induction l as [|x l IH]; intros [al' uv'] Hl; simpl; auto.
    assert (Hx : x <? k = true) by (apply Nat.ltb_lt, Hl; simpl; auto).
    rewrite Hx. destruct (at_ data x); simpl; auto. destruct (at_ covs x); simpl; auto.
    destruct (add_in hy false x x a a0 uv'); simpl; auto. apply IH. intros; apply Hl; simpl; auto. }
  rewrite Ext by (intros i Hi; apply in_seq in Hi; lia).
  rewrite E3. cbn [rbind rfold]. unfold init_alloc_step at 1.
  unfold at_ at 1. rewrite (proj2 (nth_error_None data n)) by lia. reflexivity.
Qed.

End Init.

(** ** Configuration checks *)

Definition well_formed (c : config) : Prop :=
  c_data_rows c <> 0 /\
  c_has_hier c = true /\
  (c_alg_conj c = true -> c_hier_conj c = true) /\
  (c_hier_multi c = false -> c_data_cols c <= 1) /\
  (c_hcov_rows c <> 0 -> c_hier_dep c = true /\ c_hcov_rows c = c_data_rows c) /\
  c_has_mixing c = true /\
  c_mix_cond c = c_alg_cond c /\
  (c_mcov_rows c <> 0 -> c_mix_dep c = true /\ c_mcov_rows c = c_data_rows c).

Lemma check_ok : forall b s, check b s = Ok tt <-> b = false.
Proof. intros [] s; unfold check; split; congruence. Qed.

Lemma check_cases : forall b s, (b = true /\ check b s = Throw s) \/ (b = false /\ check b s = Ok tt).
Proof. intros [] s; auto. Qed.

Lemma checks_cases : forall c,
  (well_formed c /\ checks c = Ok tt) \/ (~ well_formed c /\ exists msg, checks c = Throw msg).
Proof.
  intros c. unfold checks, well_formed.
  repeat match goal with
  | |- context [check ?b ?s] =>
      destruct (check_cases b s) as [[? ->]|[? ->]]; cbn [rbind]
  | |- context [if negb (?a =? 0) then _ else _] => destruct (a =? 0) eqn:?; cbn [negb rbind]
  end;
  repeat match goal with
  | H : (_ =? _) = true |- _ => apply Nat.eqb_eq in H
  | H : (_ =? _) = false |- _ => apply Nat.eqb_neq in H
  | H : negb _ = true |- _ => apply negb_true_iff in H
  | H : negb _ = false |- _ => apply negb_false_iff in H
  | H : _ && _ = true |- _ => apply andb_prop in H; destruct H
  | H : _ && _ = false |- _ => apply andb_false_iff in H; destruct H
  | H : Bool.eqb _ _ = true |- _ => apply Bool.eqb_prop in H
  | H : Bool.eqb _ _ = false |- _ => apply Bool.eqb_false_iff in H
  | H : (_ <? _) = true |- _ => apply Nat.ltb_lt in H
  | H : (_ <? _) = false |- _ => apply Nat.ltb_ge in H
  end;
  try (right; split; [|eexists; reflexivity]; intuition (try congruence; try lia); fail);
  left; split; auto; intuition (try congruence; try lia).
Qed.

(** ** Main loop *)

Section Loop.
Variable I : Iface.
Variable step : alg I * Rng I -> res (alg I * Rng I).

Lemma iter_snoc : forall k s, iter step (S k) s = (s' <- iter step k s ;; step s').
Proof.
  induction k as [|k IH]; intros s.
  - simpl. destruct (step s); reflexivity.
  - change (iter step (S (S k)) s) with (s' <- step s ;; iter step (S k) s').
    cbn [iter]. destruct (step s) as [s1| | |]; cbn [rbind]; auto. apply IH.
Qed.

Lemma rfold_snoc : forall A B (f : B -> A -> res B) l x b,
  rfold f (l ++ [x]) b = (b' <- rfold f l b ;; f b' x).
Proof.
  intros. rewrite rfold_app. destruct (rfold f l b) as [b'| | |]; simpl; auto.
  destruct (f b' x); reflexivity.
Qed.

Lemma run_ok_inv : forall burnin maxiter s0 s out,
  rfold (run_body step burnin) (seq 0 maxiter) (s0, []) = Ok (s, out) ->
  iter step maxiter s0 = Ok s /\ length out = maxiter - burnin /\
  (forall i, i < maxiter - burnin -> exists ar snap,
     iter step (burnin + i + 1) s0 = Ok ar /\
     get_state (burnin + i) (fst ar) = Ok snap /\ nth_error out i = Some snap).
Proof.
  intros burnin. induction maxiter as [|m IH]; intros s0 s out H.
  - simpl in H. injection H as <- <-. simpl. split; auto. split; auto. intros i Hi. lia.
  - rewrite seq_S, rfold_snoc in H. simpl plus in H.
    destruct (rfold (run_body step burnin) (seq 0 m) (s0, [])) as [[s1 out1]| | |] eqn:E; try discriminate.
    cbn [rbind] in H. destruct (IH _ _ _ E) as (E1 & Hl & Hs).
    unfold run_body in H. destruct (step s1) as [s2| | |] eqn:E2; try discriminate. cbn [rbind] in H.
    assert (E3 : iter step (S m) s0 = Ok s2) by (rewrite iter_snoc, E1; simpl; auto).
    destruct (burnin <=? m) eqn:Eb.
    + apply Nat.leb_le in Eb. destruct (get_state m (fst s2)) as [snap| | |] eqn:E4; try discriminate.
      cbn [rbind] in H. injection H as <- <-. split; auto. split.
      { rewrite app_length. cbn [length]. lia. }
      intros i Hi. destruct (Nat.eq_dec i (m - burnin)) as [->|Hn].
      * exists s2, snap. replace (burnin + (m - burnin) + 1) with (S m) by lia.
        replace (burnin + (m - burnin)) with m by lia. split; auto. split; auto.
        rewrite nth_error_app2 by lia. rewrite Hl, Nat.sub_diag. reflexivity.
      * destruct (Hs i) as (ar & sn & A & B & C); [lia|]. exists ar, sn. split; auto. split; auto.
        rewrite nth_error_app1 by lia. auto.
    + apply Nat.leb_gt in Eb. injection H as <- <-. split; auto. split; [lia|].
      intros i Hi. lia.
Qed.

Lemma run_complete : forall (Q : alg I -> Prop),
  (forall a r, Q a -> exists a' r', step (a, r) = Ok (a', r') /\ Q a') ->
  (forall a, Q a -> a_uv a <> []) ->
  forall burnin maxiter a r, Q a ->
  exists a' r' out, rfold (run_body step burnin) (seq 0 maxiter) ((a, r), []) = Ok ((a', r'), out) /\ Q a'.
Proof.
  intros Q Hs Hu burnin maxiter a r Ha.
  destruct (@rfold_inv_simple _ _ (run_body step burnin) (fun s => Q (fst (fst s))) (seq 0 maxiter) ((a, r), []))
    as ([[a' r'] out] & E & K); auto.
  - intros x [[a0 r0] out0] _ H0. cbn [fst] in H0. unfold run_body.
    destruct (Hs a0 r0 H0) as (a1 & r1 & E & H1). rewrite E. cbn [rbind].
    destruct (burnin <=? x); [|eexists; split; [reflexivity|exact H1]].
    unfold get_state. cbn [fst]. destruct (a_uv a1) as [|h uv] eqn:Eu; [exfalso; eapply Hu; eauto|].
    cbn [at_ nth_error rbind]. eexists; split; [reflexivity|exact H1].
  - exists a', r', out. auto.
Qed.

End Loop.
