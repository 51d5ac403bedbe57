(** * Semi-HDP: the structural invariant, part 4: [update_table_allocs]. *)
From Coq Require Import String.
From Coq Require Import Bool List Arith ZArith Reals Lra Lia Permutation.
From Verif Require Import Base XReal Semi SemiWp SemiSpec SemiCount SemiInv SemiInv2 SemiInv3.
Import ListNotations.
Local Open Scope nat_scope.

Lemma nth_snoc_default : forall A (l : list A) d k, nth k (l ++ [d]) d = nth k l d.
Proof.
  intros A l d k. rewrite nth_snoc. destruct (Nat.eqb_spec k (length l)) as [->|N]; auto. symmetry. apply nth_overflow. lia.
Qed.

Section Inv4.
Variable I : SH.
Variable P : params.
Variable data : list (list (Datum I)).
Notation sst := (sst I).
Notation ng := (length data).
Notation wf := (wf I data).
Hypothesis Hcols : cols I = 1.
Hypothesis Hdata : forall d, In d data -> d <> [].
Hypothesis HG : gen_ok I.
Variable z : Z.
Hypothesis Hz : cvt I = Some z.

(** The value of [int x = log(n)]. *)
Definition ilv (n : Z) : Z := if (0 <? n)%Z then Int_part (ln (IZR n)) else z.

Lemma ok_ilog : forall n (Q : Z -> Prop), Q (ilv n) -> ok (ilog I n) Q.
Proof. intros n Q H. unfold ilog, ilv in *. rewrite Hz. destruct (0 <? n)%Z; exact H. Qed.

Lemma ilv_1 : ilv 1 = 0%Z.
Proof.
  unfold ilv. cbn [Z.ltb Z.compare]. rewrite ln_1. unfold Int_part.
  replace (up 0) with 1%Z; auto. apply tech_up; simpl; lra.
Qed.

Lemma seated_occ : forall s i j y r' x, wf s -> i < ng -> j < length (nth i data []) -> r' < ng ->
  occ (seated I data (w_tab I (upd (s_tab I s) i (upd (nth i (s_tab I s) []) j y)) s) r') x =
  (occ (seated I data s r') x + (if (r' =? nth i (s_ra I s) O)%nat then hit y x - hit (nth j (nth i (s_tab I s) []) O) x else 0))%Z.
Proof.
  intros s i j y r' x H Hi Hj Hr. pose proof (wf_tabl _ _ _ H) as Lt. destruct (wf_tab _ _ _ H i Hi) as [Lr _].
  unfold seated. cbn [w_tab s_ra s_tab].
  rewrite (occ_flat _ (fun i0 => if nth i0 (s_ra I s) 0 =? r' then nth i0 (s_tab I s) [] else []) _ i x); auto.
  - cbv beta. rewrite nth_upd_same by lia. rewrite (Nat.eqb_sym r'). destruct (nth i (s_ra I s) 0 =? r').
    + rewrite occ_upd by lia. lia.
    + lia.
  - intros k Hk N. cbv beta. rewrite nth_upd_other by auto. reflexivity.
Qed.

(** Counts are exact for the tables that exist; entries beyond them are 1. *)
Definition exactp (s : sst) : Prop :=
  forall r l, r < ng -> nth l (nth r (s_n I s) []) 1%Z = if l <? length (nth r (s_rest I s) []) then occ (seated I data s r) l else 1%Z.

Definition logok (n v : Z) : Prop := v = ilv n \/ n = 1%Z /\ v = 1%Z.

Record tinv (p0 : list (list nat)) (s0 : sst) (s : sst) (logn : list (list Z)) (logm : list Z) : Prop := {
  ti_wf : wf s;
  ti_m : length (s_m I s) = length (s_shared I s);
  ti_lm : length logm = length (s_shared I s);
  ti_ln : length logn = ng;
  ti_lnr : forall r, r < ng -> length (nth r logn []) = length (nth r (s_n I s) []);
  ti_ex : exactp s;
  ti_len : forall r, r < ng -> length (nth r (s_n I s) []) + length (nth r p0 []) = length (nth r (s_rest I s) []) + length (nth r (s_priv I s) []);
  ti_log : forall r l, r < ng -> logok (nth l (nth r (s_n I s) []) 1%Z) (nth l (nth r logn []) 0%Z);
  ti_ra : s_ra I s = s_ra I s0;
  ti_w : s_w I s = s_w I s0;
  ti_conc : s_conc I s = s_conc I s0
}.

Lemma ok_table_weights : forall s r logn d (Q : list xreal -> Prop), wf s -> r < ng -> length logn = ng ->
  length (nth r (s_rest I s) []) <= length (nth r logn []) ->
  (forall ps, length ps = length (nth r (s_rest I s) []) -> Q ps) -> ok (table_weights I s r logn d) Q.
Proof.
  intros s r logn d Q H Hr L1 L2 HQ. unfold table_weights. apply ok_bind. apply ok_at with (d := []); [rewrite (wf_rest _ _ _ H); auto|].
  apply ok_rmap_any; [|intros ys L; apply HQ; rewrite L, seq_length; auto].
  intros l Hl. apply in_seq0 in Hl. apply ok_bind. apply ok_at2 with (d := 0%Z); [lia|lia|]. apply ok_bind. apply ok_at with (d := 0); auto.
  pose proof (Forall_nth' _ _ 0 _ l (ro_rt _ _ _ _ _ _ (wf_row _ _ _ H r Hr)) Hl) as X. cbv beta in X.
  apply ok_bind. unfold at_. destruct (nth_error (s_heap I s) _) eqn:E; [exact Logic.I|]. apply nth_error_None in E. lia.
Qed.

Lemma ok_hdp : forall s logm lms d (Q : list xreal -> Prop), wf s -> length logm = length (s_shared I s) ->
  (forall ps, length ps = S (length (s_shared I s)) -> Q ps) -> ok (hdp_contribs I P s logm lms d) Q.
Proof.
  intros s logm lms d Q H L HQ. unfold hdp_contribs. apply ok_bind. apply ok_rmap_any.
  - intros h Hh. apply in_seq0 in Hh. apply ok_bind. apply ok_at with (d := 0%Z); [lia|]. apply ok_bind. apply ok_at with (d := 0); auto.
    pose proof (Forall_nth' _ _ 0 _ h (wf_shared _ _ _ H) Hh) as X. cbv beta in X.
    apply ok_bind. unfold at_. destruct (nth_error (s_heap I s) _) eqn:E; [exact Logic.I|]. apply nth_error_None in E. lia.
  - intros ys Ly. rewrite seq_length in Ly. cbn [ok]. apply HQ. rewrite app_length. simpl. lia.
Qed.

Ltac rows := repeat match goal with
  | |- context [nth _ (upd ?l ?r _) _] => rewrite (nth_upd_row _ l ng r) by (rewrite ?upd_length; auto)
  end.

(** After an observation has left its table: [n] one lower, nothing else. *)
Lemma ok_leave : forall p0 s0 s logn logm i j (Q : tst I -> Prop), tinv p0 s0 s logn logm -> i < ng -> j < length (nth i data []) ->
  (forall s1 nr lr m' lm' t, t = nth j (nth i (s_tab I s) []) 0 ->
     let r := nth i (s_ra I s) 0 in
     s1 = w_m I m' (w_n I (upd (s_n I s) r nr) s) -> wf s1 ->
     length nr = length (nth r (s_n I s) []) -> length lr = length nr -> length m' = length (s_shared I s) -> length lm' = length (s_shared I s) ->
     (forall l, nth l nr 1%Z = (nth l (nth r (s_n I s) []) 1 - hit t l)%Z) ->
     (forall l, logok (nth l nr 1%Z) (nth l lr 0%Z)) ->
     Q (s1, upd logn r lr, lm')) ->
  ok (leave_table I s logn logm i j (nth i (s_ra I s) 0)) Q.
Proof.
  intros p0 s0 s logn logm i j Q T Hi Hj HQ. pose proof (ti_wf _ _ _ _ _ T) as H.
  set (r := nth i (s_ra I s) 0) in *. assert (Hr : r < ng) by (apply (wf_ra _ _ _ H); auto).
  destruct (wf_tab _ _ _ H i Hi) as [Lt Ft]. fold r in Ft. pose proof (wf_tabl _ _ _ H) as Ltl. pose proof (wf_nl _ _ _ H) as Ln.
  pose proof (wf_n _ _ _ H r Hr) as Lnr. pose proof (ti_lnr _ _ _ _ _ T r Hr) as Llr. pose proof (ti_ln _ _ _ _ _ T) as Lln.
  pose proof (wf_row _ _ _ H r Hr) as R. pose proof (ro_ts _ _ _ _ _ _ R) as Rts. pose proof (wf_tsl _ _ _ H) as Lts.
  unfold leave_table. apply ok_bind. apply ok_at2 with (d := 0); [lia|lia|]. set (t := nth j (nth i (s_tab I s) []) 0) in *.
  assert (Ht : t < length (nth r (s_rest I s) [])).
  { pose proof (Forall_nth' _ _ 0 _ j Ft ltac:(lia)) as X. exact X. }
  apply ok_bind. apply ok_add2; [lia|lia|].
  set (nr := upd (nth r (s_n I s) []) t _).
  assert (Lr : length nr = length (nth r (s_n I s) [])) by (unfold nr; apply upd_length).
  apply ok_bind. apply ok_at2 with (d := 0%Z); rewrite ?upd_length, ?nth_upd_same by lia; try lia.
  apply ok_bind. apply ok_ilog. apply ok_bind. apply ok_set2; [lia|lia|]. set (lr := upd (nth r logn []) t _).
  assert (Llr' : length lr = length nr) by (unfold lr; rewrite upd_length; lia).
  assert (Hnr : forall l, nth l nr 1%Z = (nth l (nth r (s_n I s) []) 1 - hit t l)%Z).
  { intros l. unfold nr. rewrite nth_upd. assert (X : (t <? length (nth r (s_n I s) [])) = true) by (apply Nat.ltb_lt; lia).
    rewrite X, andb_true_r. unfold hit. rewrite (Nat.eqb_sym t l). destruct (Nat.eqb_spec l t) as [->|N]; [|lia].
    rewrite (nth_indep _ 0%Z 1%Z) by lia. lia. }
  assert (Hlr : forall l, logok (nth l nr 1%Z) (nth l lr 0%Z)).
  { intros l. destruct (Nat.eq_dec l t) as [->|N].
    - unfold lr. rewrite nth_upd_same by lia. left. f_equal. apply nth_indep. lia.
    - unfold lr, nr. rewrite !nth_upd_other by auto. apply (ti_log _ _ _ _ _ T); auto. }
  assert (W : forall m', wf (w_m I m' (w_n I (upd (s_n I s) r nr) s))).
  { intros m'. apply wf_w_m. destruct H; constructor; cbn; rewrite ?upd_length; auto.
    intros r' Hr'. rows. destruct (Nat.eqb_spec r' r) as [->|N]; auto. lia. }
  apply ok_bind. apply ok_at2 with (d := None); [lia|lia|].
  destruct (nth t (nth r (s_ts I s) []) None) as [h|] eqn:Eh.
  - pose proof (row_ts_lt _ _ _ _ _ _ R) as Fts. rewrite Forall_forall in Fts.
    assert (Hh : h < length (s_shared I s)) by (apply Fts; apply somes_nth; exists t; split; [lia|auto]).
    apply ok_bind. apply ok_add1; [rewrite (ti_m _ _ _ _ _ T); auto|]. apply ok_bind. apply ok_ilog.
    apply ok_bind. apply ok_set; [rewrite (ti_lm _ _ _ _ _ T); auto|]. cbn [ok].
    apply HQ with (m' := upd (s_m I s) h (nth h (s_m I s) 0 + -1)%Z) (nr := nr) (t := t); auto.
    + rewrite upd_length. apply (ti_m _ _ _ _ _ T).
    + rewrite upd_length. apply (ti_lm _ _ _ _ _ T).
  - cbn [ok]. apply HQ with (m' := s_m I s) (nr := nr) (t := t); auto.
    + exact (W (s_m I s)).
    + apply (ti_m _ _ _ _ _ T).
    + apply (ti_lm _ _ _ _ _ T).
Qed.

Lemma ok_table_step : forall lms p0 s0 s logn logm g i j (Q : tst I * Gs I -> Prop), tinv p0 s0 s logn logm -> i < ng -> j < length (nth i data []) ->
  (forall s' logn' logm' g', tinv p0 s0 s' logn' logm' -> Q ((s', logn', logm'), g')) ->
  ok (table_step I P data lms i (nth i (s_ra I s) 0) ((s, logn, logm), g) j) Q.
Proof.
  intros lms p0 s0 s logn logm g i j Q T Hi Hj HQ. pose proof (ti_wf _ _ _ _ _ T) as H. unfold table_step.
  apply ok_bind. eapply ok_leave; [exact T|exact Hi|exact Hj|]. intros s1 nr lr m' lm' t Et r Es1 W1 E1 E2 E3 E4 Hnr Hlr.
  assert (Hr : r < ng) by (apply (wf_ra _ _ _ H); auto).
  destruct (wf_tab _ _ _ H i Hi) as [Lt Ft]. fold r in Ft. pose proof (wf_tabl _ _ _ H) as Ltl. pose proof (wf_nl _ _ _ H) as Ln.
  pose proof (wf_n _ _ _ H r Hr) as Lnr. pose proof (ti_lnr _ _ _ _ _ T r Hr) as Llr. pose proof (ti_ln _ _ _ _ _ T) as Lln.
  assert (Ht : t < length (nth r (s_rest I s) [])).
  { subst t. pose proof (Forall_nth' _ _ 0 _ j Ft ltac:(lia)) as X. exact X. }
  fold r.
  assert (Erest : s_rest I s1 = s_rest I s) by (subst s1; reflexivity).
  assert (Eshared : s_shared I s1 = s_shared I s) by (subst s1; reflexivity).
  apply ok_bind. apply ok_row'; auto. intros d.
  apply ok_bind. apply ok_table_weights; auto; [rewrite upd_length; auto|rewrite Erest, nth_upd_same by lia; lia|]. intros ps Lps.
  apply ok_bind. apply ok_hdp; auto; [rewrite Eshared; lia|]. intros hdp Lhdp. rewrite Erest in Lps. rewrite Eshared in Lhdp.
  match goal with |- context [cat I ?q g] => pose proof (go_cat _ HG q g ltac:(intros X; apply app_eq_nil in X; destruct X; discriminate)) as Ct; rewrite app_length in Ct; destruct (cat I q g) as [y g1] end.
  cbn [fst length] in Ct. rewrite Lps, Nat.add_1_r in Ct. set (K := length (nth r (s_rest I s) [])) in *.
  apply ok_bind. apply ok_set2; [rewrite (wf_tabl _ _ _ W1); auto|subst s1; cbn; lia|].
  assert (Etab : s_tab I s1 = s_tab I s) by (subst s1; reflexivity). rewrite Etab.
  set (tab := upd (s_tab I s) i _).
  assert (Ltab : length tab = ng) by (unfold tab; rewrite upd_length; auto).
  assert (Htab : forall i', nth i' tab [] = if i' =? i then upd (nth i (s_tab I s) []) j y else nth i' (s_tab I s) []).
  { intros i'. apply nth_upd_row with (n := ng); auto. }
  assert (Hseat : forall r' x, r' < ng -> occ (seated I data (w_tab I tab s) r') x = (occ (seated I data s r') x + (if (r' =? r)%nat then hit y x - hit t x else 0))%Z).
  { intros r' x Hr'. subst t. apply seated_occ; auto. }
  (* the entries of [n] after the departure *)
  assert (Hn1 : forall r' l, r' < ng -> nth l (nth r' (upd (s_n I s) r nr) []) 1%Z =
     ((if (l <? length (nth r' (s_rest I s) []))%nat then occ (seated I data s r') l else 1) - (if (r' =? r)%nat then hit t l else 0))%Z).
  { intros r' l Hr'. rows. pose proof (ti_ex _ _ _ _ _ T r' l Hr') as X. destruct (Nat.eqb_spec r' r) as [->|N].
    - rewrite Hnr, X. reflexivity.
    - rewrite X. lia. }
  assert (Hlog1 : forall r' l, r' < ng -> logok (nth l (nth r' (upd (s_n I s) r nr) []) 1%Z) (nth l (nth r' (upd logn r lr) []) 0%Z)).
  { intros r' l Hr'. rows. destruct (r' =? r); auto. apply (ti_log _ _ _ _ _ T); auto. }
  assert (Htlt : forall i' Kf, i' < ng -> (forall r', r' < ng -> length (nth r' (s_rest I s) []) <= Kf r') -> (y < Kf r) ->
     length (nth i' tab []) = length (nth i' data []) /\ Forall (fun t => t < Kf (nth i' (s_ra I s) 0)) (nth i' tab [])).
  { intros i' Kf Hi' HK Hy. rewrite Htab. destruct (Nat.eqb_spec i' i) as [->|N].
    - rewrite upd_length. split; auto. apply Forall_forall. intros u Hu. destruct (in_upd_inv _ _ _ _ _ Hu) as [->|Hu']; auto.
      rewrite Forall_forall in Ft. apply Ft in Hu'. fold r. specialize (HK r Hr). unfold K in *. lia.
    - destruct (wf_tab _ _ _ H i' Hi') as [X1 X2]. split; auto. eapply Forall_impl; [|exact X2]. cbv beta. intros u Hu.
      specialize (HK _ (wf_ra _ _ _ H i' Hi')). lia. }
  assert (Hn1r : nth r (upd (s_n I s) r nr) [] = nr) by (apply nth_upd_same; lia).
  assert (Hl1r : nth r (upd logn r lr) [] = lr) by (apply nth_upd_same; lia).
  pose proof (wf_objs_lt _ _ _ H) as Olt.
  pose proof (wf_rest _ _ _ H) as B1. pose proof (wf_privl _ _ _ H) as B3.
  pose proof (wf_tsl _ _ _ H) as B4. pose proof (wf_tpl _ _ _ H) as B5.
  assert (HK0 : occ (seated I data s r) K = 0%Z).
  { apply occ_absent. intros X. unfold seated in X. apply in_flat_map in X. destruct X as (i' & Hi' & X). apply in_seq0 in Hi'.
    destruct (Nat.eqb_spec (nth i' (s_ra I s) 0) r) as [E|_]; [|destruct X].
    destruct (wf_tab _ _ _ H i' Hi') as [_ F]. rewrite E in F. rewrite Forall_forall in F. apply F in X. unfold K in X. lia. }
  destruct (Nat.ltb_spec y (length ps)) as [Hy|Hy]; rewrite Lps in Hy.
  - (* an existing table *)
    subst s1. apply ok_bind. cbn [w_tab w_m w_n s_n]. apply ok_add2; [rewrite upd_length; lia|rewrite Hn1r; lia|]. rewrite Hn1r.
    apply ok_bind. apply ok_at2 with (d := 0%Z); rewrite ?upd_length, ?nth_upd_same by (rewrite ?upd_length; lia); rewrite ?upd_length; try lia.
    apply ok_bind. apply ok_ilog. apply ok_bind. apply ok_set2; [rewrite upd_length; lia|rewrite Hl1r; lia|]. rewrite Hl1r. cbn [ok]. apply HQ.
    constructor; cbn; rewrite ?upd_length; auto; try (apply T).
    + destruct H; constructor; cbn; rewrite ?upd_length; auto.
      * intros i' Hi'. apply (Htlt i' (fun r' => length (nth r' (s_rest I s) []))); auto.
      * intros r' Hr'. rows. destruct (Nat.eqb_spec r' r) as [->|N]; auto. rewrite upd_length. lia.
    + intros r' Hr'. rows. destruct (Nat.eqb_spec r' r) as [->|N]; [rewrite !upd_length; lia|]. apply (ti_lnr _ _ _ _ _ T); auto.
    + intros r' l Hr'. cbn -[Nat.ltb]. change (seated I data (w_n I ?a (w_tab I tab (w_m I ?b (w_n I ?c s)))) r') with (seated I data (w_tab I tab s) r').
      rewrite Hseat by auto. rows. specialize (Hn1 r' l Hr'). rewrite (nth_upd_row _ (s_n I s) ng r) in Hn1 by auto.
      destruct (Nat.eqb_spec r' r) as [->|N].
      * rewrite nth_upd. assert (X : (y <? length nr) = true) by (apply Nat.ltb_lt; lia). rewrite X, andb_true_r.
        destruct (Nat.eqb_spec l y) as [->|N].
        -- rewrite (nth_indep _ 0%Z 1%Z) by lia. rewrite Hn1. fold K. apply Nat.ltb_lt in Hy. rewrite Hy. rewrite hit_refl. lia.
        -- rewrite Hn1. fold K. rewrite (hit_ne y l) by congruence. destruct (Nat.ltb_spec l K); [lia|].
           rewrite hit_ne by lia. lia.
      * rewrite Hn1. destruct (l <? _); lia.
    + intros r' Hr'. rows. destruct (Nat.eqb_spec r' r) as [->|N]; [rewrite upd_length, E1|]; apply (ti_len _ _ _ _ _ T); auto.
    + intros r' l Hr'. rows. specialize (Hlog1 r' l Hr'). rewrite (nth_upd_row _ (s_n I s) ng r), (nth_upd_row _ logn ng r) in Hlog1 by auto.
      destruct (Nat.eqb_spec r' r) as [->|N]; auto. destruct (Nat.eq_dec l y) as [->|N].
      * rewrite !nth_upd_same by lia. left. rewrite (nth_indep _ 0%Z 1%Z) by lia. reflexivity.
      * rewrite !nth_upd_other by auto. auto.
  - (* a new table *)
    assert (y = K) as -> by lia.
    assert (Hex : forall r' l (rest' : list (list nat)), r' < ng -> (forall q, q < ng -> length (nth q rest' []) = length (nth q (s_rest I s) []) + (if q =? r then 1 else 0)) ->
       nth l (nth r' (upd (s_n I s) r nr) []) 1%Z = if l <? length (nth r' rest' []) then occ (seated I data (w_tab I tab s) r') l else 1%Z).
    { intros r' l rest' Hr' Hl. rewrite Hl, Hn1, Hseat by auto. destruct (Nat.eqb_spec r' r) as [->|N].
      - fold K. rewrite Nat.add_1_r. destruct (Nat.ltb_spec l K) as [X|X].
        + assert (Y : (l <? S K) = true) by (apply Nat.ltb_lt; lia). rewrite Y. rewrite (hit_ne K l) by lia. lia.
        + rewrite (hit_ne t l) by lia. destruct (Nat.ltb_spec l (S K)) as [Y|Y]; [|lia].
          assert (l = K) as -> by lia. rewrite HK0, hit_refl. lia.
      - rewrite Nat.add_0_r. destruct (l <? _); lia. }
    subst s1. unfold open_table. cbn [w_tab w_m w_n s_n s_w s_shared s_m s_heap s_priv s_rest s_ts s_tp].
    apply ok_bind. apply ok_push2; [rewrite upd_length; lia|]. rewrite Hn1r. apply ok_bind. apply ok_push2; [rewrite upd_length; lia|]. rewrite Hl1r.
    destruct (unif I g1) as [u g2]. destruct (Rlt_dec u (s_w I s)).
    + (* private *)
      destruct (samp_full I [d] g2) as [x0 g3]. cbn [alloc_obj w_n w_tab w_m w_heap s_n s_w s_shared s_m s_heap s_priv s_rest s_ts s_tp].
      apply ok_bind. apply ok_push2; [lia|]. apply ok_bind. apply ok_push2; [lia|]. apply ok_bind. apply ok_push2; [lia|].
      apply ok_bind. apply ok_at with (d := []); [rewrite upd_length; lia|]. rewrite nth_upd_same by lia. apply ok_bind. apply ok_push2; [lia|].
      apply ok_bind. apply ok_push2; [rewrite !upd_length; lia|]. rewrite nth_upd_same by (rewrite upd_length; lia).
      apply ok_bind. apply ok_push2; [rewrite !upd_length; lia|]. rewrite nth_upd_same by (rewrite upd_length; lia). cbn [ok]. apply HQ.
      rewrite app_length. cbn [length]. rewrite Nat.add_sub.
      constructor; cbn; rewrite ?upd_length; auto; try (apply T).
      * destruct H; constructor; cbn; rewrite ?upd_length; auto.
        -- eapply Forall_impl; [|exact wf_shared]. simpl. intros; rewrite app_length; simpl; lia.
        -- intros r' Hr'. rows. rewrite app_length, Nat.add_1_r. destruct (Nat.eqb_spec r' r) as [->|N].
           ++ apply row_ok_open_private. auto.
           ++ eapply row_ok_grow; [| |exact (wf_row r' Hr')]; lia.
        -- intros i' Hi'. pose proof (Htlt i' (fun r' => length (nth r' (upd (s_rest I s) r (nth r (s_rest I s) [] ++ [length (s_heap I s)])) [])) Hi') as X.
           apply X; clear X.
           ++ intros r' Hr'. rows. destruct (Nat.eqb_spec r' r) as [->|N]; auto. rewrite app_length. lia.
           ++ rows. rewrite Nat.eqb_refl, app_length. cbn [length]. unfold K. lia.
        -- intros r' Hr'. rows. destruct (Nat.eqb_spec r' r) as [->|N]; auto. rewrite !app_length. cbn [length]. lia.
        -- intros r' Hr'. destruct (wf_pseudo r' Hr') as [X1 X2]. split; auto. eapply Forall_impl; [|exact X2]. simpl. intros. rewrite app_length. simpl. lia.
        -- apply alias_push_priv; auto.
      * intros r' Hr'. rows. destruct (Nat.eqb_spec r' r) as [->|N]; [rewrite !app_length; cbn [length]; lia|]. apply (ti_lnr _ _ _ _ _ T); auto.
      * intros r' l Hr'. cbn -[Nat.ltb]. match goal with |- context [seated I data ?S r'] => change (seated I data S r') with (seated I data (w_tab I tab s) r') end.
        rewrite <- Hex with (rest' := upd (s_rest I s) r (nth r (s_rest I s) [] ++ [length (s_heap I s)])); auto.
        -- rows. destruct (r' =? r); auto. rewrite !nth_snoc_default. reflexivity.
        -- intros q Hq. rows. destruct (Nat.eqb_spec q r) as [->|N]; [rewrite app_length; reflexivity|lia].
      * intros r' Hr'. rows. pose proof (ti_len _ _ _ _ _ T r' Hr') as X. destruct (Nat.eqb_spec r' r) as [->|N]; auto. rewrite !app_length. cbn [length]. lia.
      * intros r' l Hr'. rows. specialize (Hlog1 r' l Hr'). rewrite (nth_upd_row _ (s_n I s) ng r), (nth_upd_row _ logn ng r) in Hlog1 by auto.
        destruct (Nat.eqb_spec r' r) as [->|N]; auto. rewrite !nth_snoc_default. rewrite nth_snoc, nth_snoc_default.
        destruct (Nat.eqb_spec l (length (lr ++ [0%Z]))) as [->|N]; auto. right. split; auto. apply nth_overflow. rewrite app_length. lia.
    + (* shared *)
      apply ok_bind. apply ok_push2; [lia|].
      match goal with |- context [cat I ?q g2] => pose proof (go_cat _ HG q g2 ltac:(intros X; subst hdp; discriminate)) as Cs; destruct (cat I q g2) as [h g3] end.
      cbn [fst] in Cs. rewrite Lhdp in Cs. apply ok_bind. apply ok_push2; [lia|].
      destruct (Nat.ltb_spec h (length (s_shared I s))) as [Hh|Hh].
      * apply ok_bind. apply ok_at with (d := 0); auto. pose proof (Forall_nth' _ _ 0 _ h (wf_shared _ _ _ H) Hh) as Ho. cbv beta in Ho.
        set (o := nth h (s_shared I s) 0) in *.
        apply ok_bind. apply ok_push2; [lia|]. apply ok_bind. apply ok_add1; [lia|]. cbn [ok]. apply HQ.
        constructor; cbn; rewrite ?upd_length; auto; try (apply T).
        -- destruct H; constructor; cbn; rewrite ?upd_length; auto.
           ++ intros r' Hr'. rows. destruct (Nat.eqb_spec r' r) as [->|N]; auto. apply row_ok_open_shared; auto.
           ++ intros i' Hi'. pose proof (Htlt i' (fun r' => length (nth r' (upd (s_rest I s) r (nth r (s_rest I s) [] ++ [o])) [])) Hi') as X.
              apply X; clear X.
              ** intros r' Hr'. rows. destruct (Nat.eqb_spec r' r) as [->|N]; auto. rewrite app_length. lia.
              ** rows. rewrite Nat.eqb_refl, app_length. cbn [length]. unfold K. lia.
           ++ intros r' Hr'. rows. destruct (Nat.eqb_spec r' r) as [->|N]; auto. rewrite !app_length. cbn [length]. lia.
        -- intros r' Hr'. rows. destruct (Nat.eqb_spec r' r) as [->|N]; [rewrite !app_length; cbn [length]; lia|]. apply (ti_lnr _ _ _ _ _ T); auto.
        -- intros r' l Hr'. cbn -[Nat.ltb]. match goal with |- context [seated I data ?S r'] => change (seated I data S r') with (seated I data (w_tab I tab s) r') end.
           rewrite <- Hex with (rest' := upd (s_rest I s) r (nth r (s_rest I s) [] ++ [o])); auto.
           ++ rows. destruct (r' =? r); auto. rewrite !nth_snoc_default. reflexivity.
           ++ intros q Hq. rows. destruct (Nat.eqb_spec q r) as [->|N]; [rewrite app_length; reflexivity|lia].
        -- intros r' Hr'. rows. pose proof (ti_len _ _ _ _ _ T r' Hr') as X. destruct (Nat.eqb_spec r' r) as [->|N]; auto. rewrite !app_length. cbn [length]. lia.
        -- intros r' l Hr'. rows. specialize (Hlog1 r' l Hr'). rewrite (nth_upd_row _ (s_n I s) ng r), (nth_upd_row _ logn ng r) in Hlog1 by auto.
           destruct (Nat.eqb_spec r' r) as [->|N]; auto. rewrite !nth_snoc_default. auto.
      * assert (h = length (s_shared I s)) as -> by lia.
        destruct (samp_full I [d] g3) as [x0 g4]. cbn [alloc_obj w_n w_tab w_m w_heap w_ts w_tp s_n s_w s_shared s_m s_heap s_priv s_rest s_ts s_tp].
        apply ok_bind. apply ok_push2; [lia|]. cbn [ok]. apply HQ.
        constructor; cbn; rewrite ?upd_length; auto; try (apply T).
        -- destruct H; constructor; cbn; rewrite ?upd_length; auto.
           ++ apply Forall_app. split; [eapply Forall_impl; [|exact wf_shared]; simpl; intros; rewrite app_length; simpl; lia|].
              constructor; auto. rewrite app_length. simpl. lia.
           ++ intros r' Hr'. rows. rewrite !app_length. cbn [length]. destruct (Nat.eqb_spec r' r) as [->|N].
              ** apply row_ok_open_shared; try lia. eapply row_ok_grow; [| |exact (wf_row r Hr)]; lia.
              ** eapply row_ok_grow; [| |exact (wf_row r' Hr')]; lia.
           ++ intros i' Hi'. pose proof (Htlt i' (fun r' => length (nth r' (upd (s_rest I s) r (nth r (s_rest I s) [] ++ [length (s_heap I s)])) [])) Hi') as X.
              apply X; clear X.
              ** intros r' Hr'. rows. destruct (Nat.eqb_spec r' r) as [->|N]; auto. rewrite app_length. lia.
              ** rows. rewrite Nat.eqb_refl, app_length. cbn [length]. unfold K. lia.
           ++ intros r' Hr'. rows. destruct (Nat.eqb_spec r' r) as [->|N]; auto. rewrite !app_length. cbn [length]. lia.
           ++ intros r' Hr'. destruct (wf_pseudo r' Hr') as [X1 X2]. split; auto. eapply Forall_impl; [|exact X2]. simpl. intros. rewrite app_length. simpl. lia.
           ++ apply alias_push_shared; auto.
        -- rewrite !app_length. cbn [length]. lia.
        -- rewrite !app_length. cbn [length]. lia.
        -- intros r' Hr'. rows. destruct (Nat.eqb_spec r' r) as [->|N]; [rewrite !app_length; cbn [length]; lia|]. apply (ti_lnr _ _ _ _ _ T); auto.
        -- intros r' l Hr'. cbn -[Nat.ltb]. match goal with |- context [seated I data ?S r'] => change (seated I data S r') with (seated I data (w_tab I tab s) r') end.
           rewrite <- Hex with (rest' := upd (s_rest I s) r (nth r (s_rest I s) [] ++ [length (s_heap I s)])); auto.
           ++ rows. destruct (r' =? r); auto. rewrite !nth_snoc_default. reflexivity.
           ++ intros q Hq. rows. destruct (Nat.eqb_spec q r) as [->|N]; [rewrite app_length; reflexivity|lia].
        -- intros r' Hr'. rows. pose proof (ti_len _ _ _ _ _ T r' Hr') as X. destruct (Nat.eqb_spec r' r) as [->|N]; auto. rewrite !app_length. cbn [length]. lia.
        -- intros r' l Hr'. rows. specialize (Hlog1 r' l Hr'). rewrite (nth_upd_row _ (s_n I s) ng r), (nth_upd_row _ logn ng r) in Hlog1 by auto.
           destruct (Nat.eqb_spec r' r) as [->|N]; auto. rewrite !nth_snoc_default. auto.
Qed.

Lemma ok_update_table_allocs : forall s g (Q : sst * Gs I -> Prop), wf s ->
  (forall s' logn logm g', tinv (s_priv I s) s s' logn logm -> Q (s', g')) ->
  ok (update_table_allocs I P data s g) Q.
Proof.
  intros s g Q H HQ. unfold update_table_allocs. apply ok_bind.
  apply ok_count_m; [exact Hcols|apply (wf_tsl _ _ _ H)|intros r Hr; eapply row_ts_lt; apply (wf_row _ _ _ H r Hr)|].
  set (s1 := w_m I _ s). assert (H1 : wf s1) by (apply wf_w_m; auto).
  apply ok_bind. apply ok_count_n; [exact Hcols|apply wf_tabs_in; auto|apply (wf_rest _ _ _ H)|apply (wf_nl _ _ _ H)|].
  set (s2 := w_n I _ s1).
  assert (Hrow : forall r, r < ng -> nth r (s_n I s2) [] = tally (length (nth r (s_rest I s) [])) (seated I data s r)).
  { intros r Hr. unfold s2. cbn [w_n s_n]. rewrite all_counts_nth by auto. reflexivity. }
  assert (Ln : length (s_n I s2) = ng) by (unfold s2; cbn [w_n s_n]; apply all_counts_length).
  assert (H2 : wf s2).
  { destruct H1; constructor; auto. intros r Hr. rewrite Hrow by auto. rewrite tally_length. auto. }
  apply ok_bind. change (Semi.ng I data) with ng. rewrite <- Ln at 1. rewrite firstn_all.
  apply ok_rmap_fun with (h := map ilv).
  { intros ns _. assert (X : ok (rmap (ilog I) ns) (fun v => v = map ilv ns)).
    { apply ok_rmap_fun with (h := ilv); auto. intros n _. unfold ilog, ilv. rewrite Hz. destruct (0 <? n)%Z; reflexivity. }
    destruct (ok_inv _ _ _ X) as (v & -> & ->). reflexivity. }
  apply ok_bind. apply ok_rmap_fun with (h := ilv).
  { intros n _. unfold ilog, ilv. rewrite Hz. destruct (0 <? n)%Z; reflexivity. }
  set (lms := ln _). clearbody lms. apply ok_bind.
  assert (Hmap : forall r, nth r (map (map ilv) (s_n I s2)) [] = map ilv (nth r (s_n I s2) [])) by (intros r; apply (map_nth (map ilv) _ [] r)).
  apply ok_for with (Inv := fun _ a => tinv (s_priv I s) s (fst (fst (fst a))) (snd (fst (fst a))) (snd (fst a))).
  - cbn [fst snd]. constructor; auto.
    + unfold s2, s1. cbn. apply tally_length.
    + rewrite map_length. unfold s2, s1. cbn. apply tally_length.
    + rewrite map_length. auto.
    + intros r Hr. rewrite Hmap, map_length. reflexivity.
    + intros r l Hr. rewrite Hrow by auto. rewrite nth_tally. reflexivity.
    + intros r Hr. rewrite Hrow by auto. rewrite tally_length. reflexivity.
    + intros r l Hr. rewrite Hmap. left. destruct (Nat.lt_ge_cases l (length (nth r (s_n I s2) []))) as [X|X].
      * rewrite (nth_indep _ 0%Z (ilv 1)) by (rewrite map_length; auto). rewrite (map_nth ilv). reflexivity.
      * rewrite !nth_overflow; rewrite ?map_length; auto. symmetry. apply ilv_1.
  - intros i [[[s3 logn] logm] g3] Hi T. change (i < ng) in Hi. cbn [fst snd] in T. unfold table_group.
    apply ok_bind. apply ok_at with (d := 0); [rewrite (wf_ral _ _ _ (ti_wf _ _ _ _ _ T)); auto|].
    apply ok_bind. apply ok_nby; auto.
    apply ok_for with (Inv := fun _ a => tinv (s_priv I s) s (fst (fst (fst a))) (snd (fst (fst a))) (snd (fst a))); auto.
    intros j [[[s4 logn4] logm4] g4] Hj T4. cbn [fst snd] in T4. rewrite (ti_ra _ _ _ _ _ T), <- (ti_ra _ _ _ _ _ T4).
    eapply ok_table_step; eauto.
  - intros [[[s3 logn] logm] g3] T. cbn [fst snd] in T. cbn [ok]. eapply HQ. exact T.
Qed.

End Inv4.
