(** * Semi-HDP: the structural invariant, part 1: parameters, weights, groups. *)
From Coq Require Import String.
From Coq Require Import Bool List Arith ZArith Reals Lia Permutation.
From Verif Require Import Base XReal Semi SemiWp SemiSpec SemiCount.
Import ListNotations.
Local Open Scope nat_scope.

Lemma row_ok_grow : forall hn sn hn' sn' rt pv ts tp, hn <= hn' -> sn <= sn' ->
  row_ok hn sn rt pv ts tp -> row_ok hn' sn' rt pv ts tp.
Proof.
  intros hn sn hn' sn' rt pv ts tp H1 H2 [A B C D E F G]. constructor; auto.
  - eapply Forall_impl; [|exact C]. simpl. intros; lia.
  - eapply Forall_impl; [|exact D]. simpl. intros; lia.
  - intros l Hl. specialize (E l Hl). destruct (nth l tp None), (nth l ts None); auto. lia.
Qed.

(** ** Ownership of objects *)

Definition objs_lt (hn : nat) (priv restp : list (list nat)) (sh : list nat) : Prop :=
  (forall r o, own priv restp r o -> o < hn) /\ (forall o, In o sh -> o < hn).

Lemma NoDup_snoc : forall A (l : list A) x, NoDup l -> ~ In x l -> NoDup (l ++ [x]).
Proof.
  intros A l x H N. apply NoDup_rev in H. rewrite <- (rev_involutive (l ++ [x])). apply NoDup_rev. rewrite rev_app_distr. simpl.
  constructor; auto. rewrite <- in_rev. exact N.
Qed.

Lemma nth_upd_cases : forall A (l : list (list A)) r x r', nth r' (upd l r x) [] = nth r' l [] \/ r' = r /\ nth r' (upd l r x) [] = x.
Proof.
  intros A l r x r'. rewrite nth_upd. destruct (Nat.eqb_spec r' r) as [->|N]; cbn [andb]; auto. destruct (r <? length l); auto.
Qed.

Lemma alias_sub : forall priv restp sh priv' sh', alias_ok priv restp sh ->
  (forall r, NoDup (nth r priv' [])) -> (forall r o, In o (nth r priv' []) -> own priv restp r o) ->
  NoDup sh' -> (forall o, In o sh' -> In o sh) -> alias_ok priv' restp sh'.
Proof.
  intros priv restp sh priv' sh' [A B C D E] H1 H2 H3 H4.
  assert (X : forall r o, own priv' restp r o -> own priv restp r o) by (intros r o [Y|Y]; [apply H2; auto|right; auto]).
  constructor; auto.
  - intros r r' o Y Z. eapply D; eauto.
  - intros r o Y Z. apply (E r o); auto.
Qed.

Lemma alias_take : forall priv restp sh r, alias_ok priv restp sh -> alias_ok (upd priv r (nth r restp [])) restp sh.
Proof.
  intros priv restp sh r H. apply (alias_sub _ _ _ _ _ H); auto; [|  |apply H].
  - intros r'. destruct (nth_upd_cases _ priv r (nth r restp []) r') as [->|[-> ->]]; apply H.
  - intros r' o X. destruct (nth_upd_cases _ priv r (nth r restp []) r') as [E|[-> E]]; rewrite E in X; [left|right]; auto.
Qed.

Lemma alias_fresh : forall hn priv restp sh r row, alias_ok priv restp sh -> objs_lt hn priv restp sh ->
  NoDup row -> (forall o, In o row -> hn <= o) -> alias_ok priv (upd restp r row) sh.
Proof.
  intros hn priv restp sh r row [A B C D E] [L1 L2] Nd F.
  assert (X : forall r' o, own priv (upd restp r row) r' o -> own priv restp r' o \/ r' = r /\ hn <= o).
  { intros r' o [Y|Y]; [left; left; auto|]. destruct (nth_upd_cases _ restp r row r') as [Z|[-> Z]]; rewrite Z in Y; [left; right; auto|right; auto]. }
  constructor; auto.
  - intros r'. destruct (nth_upd_cases _ restp r row r') as [->|[-> ->]]; auto.
  - intros r1 r2 o Y Z. apply X in Y. apply X in Z. destruct Y as [Y|[-> Y]], Z as [Z|[-> Z]]; auto.
    + eapply D; eauto.
    + apply L1 in Y. lia.
    + apply L1 in Z. lia.
  - intros r' o Y Z. apply X in Y. destruct Y as [Y|[_ Y]]; [apply (E r' o); auto|]. apply L2 in Z. lia.
Qed.

Lemma alias_push_priv : forall hn priv restp sh r, alias_ok priv restp sh -> objs_lt hn priv restp sh ->
  alias_ok (upd priv r (nth r priv [] ++ [hn])) restp sh.
Proof.
  intros hn priv restp sh r [A B C D E] [L1 L2]. set (row := nth r priv [] ++ [hn]).
  assert (X : forall r' o, own (upd priv r row) restp r' o -> own priv restp r' o \/ r' = r /\ o = hn).
  { intros r' o [Y|Y]; [|left; right; auto]. destruct (nth_upd_cases _ priv r row r') as [Z|[-> Z]]; rewrite Z in Y; [left; left; auto|].
    unfold row in Y. apply in_app_iff in Y. destruct Y as [Y|[Y|[]]]; [left; left; auto|right; auto]. }
  constructor; auto.
  - intros r'. destruct (nth_upd_cases _ priv r row r') as [->|[-> ->]]; auto. unfold row. apply NoDup_snoc; auto.
    intros Y. assert (hn < hn) by (apply (L1 r); left; auto). lia.
  - intros r1 r2 o Y Z. apply X in Y. apply X in Z. destruct Y as [Y|[-> Y]], Z as [Z|[-> Z]]; auto.
    + eapply D; eauto.
    + apply L1 in Y. lia.
    + apply L1 in Z. lia.
  - intros r' o Y Z. apply X in Y. destruct Y as [Y|[_ Y]]; [apply (E r' o); auto|]. apply L2 in Z. lia.
Qed.

Lemma alias_push_shared : forall hn priv restp sh, alias_ok priv restp sh -> objs_lt hn priv restp sh -> alias_ok priv restp (sh ++ [hn]).
Proof.
  intros hn priv restp sh [A B C D E] [L1 L2]. constructor; auto.
  - apply NoDup_snoc; auto. intros Y. apply L2 in Y. lia.
  - intros r o Y Z. apply in_app_iff in Z. destruct Z as [Z|[Z|[]]]; [apply (E r o); auto|]. subst. apply L1 in Y. lia.
Qed.

Lemma somes_in : forall A (l : list (option A)) x, In x (somes l) <-> In (Some x) l.
Proof.
  intros A l x. unfold somes. rewrite in_flat_map. split.
  - intros ([y|] & H1 & H2); simpl in H2; [destruct H2 as [->|[]]; auto|tauto].
  - intros H. exists (Some x). split; [auto|left; auto].
Qed.

Lemma somes_nth : forall A (l : list (option A)) x, In x (somes l) <-> exists k, k < length l /\ nth k l None = Some x.
Proof.
  intros A l x. rewrite somes_in. split.
  - intros H. destruct (In_nth _ _ None H) as (k & Hk & E). eauto.
  - intros (k & Hk & E). rewrite <- E. apply nth_In. auto.
Qed.

Lemma row_priv_lt : forall hn sn rt pv ts tp l k, row_ok hn sn rt pv ts tp -> l < length rt -> nth l tp None = Some k -> k < length pv.
Proof.
  intros hn sn rt pv ts tp l k H Hl E. assert (In k (somes tp)) as Hi.
  { apply somes_nth. exists l. rewrite (ro_tp _ _ _ _ _ _ H). auto. }
  apply (Permutation_in _ (ro_bij _ _ _ _ _ _ H)) in Hi. apply in_seq in Hi. lia.
Qed.

Lemma row_ts_lt : forall hn sn rt pv ts tp, row_ok hn sn rt pv ts tp -> Forall (fun h => h < sn) (somes ts).
Proof.
  intros hn sn rt pv ts tp H. apply Forall_forall. intros h Hh. apply somes_nth in Hh. destruct Hh as (l & Hl & E).
  rewrite (ro_ts _ _ _ _ _ _ H) in Hl. pose proof (ro_one _ _ _ _ _ _ H l Hl) as X. rewrite E in X. destruct (nth l tp None); tauto.
Qed.

Lemma upd_same : forall A (l : list A) i d, i < length l -> upd l i (nth i l d) = l.
Proof. induction l as [|x l IH]; intros i d H; simpl in H; [lia|]. destruct i; simpl; [reflexivity|]. rewrite IH; auto. lia. Qed.

Lemma upd_same' : forall A (l : list A) i x d, i < length l -> x = nth i l d -> upd l i x = l.
Proof. intros A l i x d H ->. apply upd_same. exact H. Qed.

Section Inv.
Variable I : SH.
Variable P : params.
Variable data : list (list (Datum I)).
Hypothesis Hcols : cols I = 1.
Hypothesis Hdata : forall d, In d data -> d <> [].
Hypothesis HG : gen_ok I.
Notation ng := (length data).
Notation sst := (sst I).
Notation wf := (wf I data).

Lemma w_heap_same : forall s : sst, w_heap I (s_heap I s) s = s.
Proof. intros []; reflexivity. Qed.
Lemma w_rest_same : forall s : sst, w_rest I (s_rest I s) s = s.
Proof. intros []; reflexivity. Qed.

Lemma wf_set_rest_heap : forall s rest h, wf s -> length (s_heap I s) <= length h -> length rest = ng ->
  (forall r, r < ng -> length (nth r rest []) = length (nth r (s_rest I s) [])) ->
  (forall r l, r < ng -> l < length (nth r rest []) -> nth l (nth r rest []) 0 < length h) ->
  (forall r l k, r < ng -> l < length (nth r rest []) -> nth l (nth r (s_tp I s) []) None = Some k ->
      nth l (nth r rest []) 0 = nth k (nth r (s_priv I s) []) 0) ->
  wf (w_rest I rest (w_heap I h s)).
Proof.
  intros s rest h H Hh Hl Hr Hlt Hp. destruct H. constructor; cbn; auto.
  - eapply Forall_impl; [|exact wf_shared]. simpl. intros; lia.
  - intros r Hr'. specialize (wf_row r Hr'). destruct wf_row. constructor; auto.
    + rewrite Hr by exact Hr'. exact ro_ts.
    + rewrite Hr by exact Hr'. exact ro_tp.
    + apply Forall_forall. intros o Ho. destruct (In_nth _ _ 0 Ho) as (l & L & <-). apply Hlt; auto.
    + eapply Forall_impl; [|exact ro_pv]. simpl. intros; lia.
    + intros l L. rewrite Hr in L by exact Hr'. exact (ro_one l L).
  - intros i Hi. destruct (wf_tab i Hi) as [A B]. split; auto. rewrite Hr by (apply wf_ra; auto). exact B.
  - intros r Hr'. rewrite Hr by auto. auto.
  - intros r Hr'. destruct (wf_pseudo r Hr') as [A B]. split; auto. eapply Forall_impl; [|exact B]. simpl. intros; lia.
Qed.

Lemma wf_heap : forall s h, wf s -> length (s_heap I s) <= length h -> wf (w_heap I h s).
Proof.
  intros s h H Hh. rewrite <- (w_rest_same (w_heap I h s)). apply wf_set_rest_heap; auto.
  - apply (wf_rest _ _ _ H).
  - intros r l Hr Hl. cbn in *. pose proof (ro_rt _ _ _ _ _ _ (wf_row _ _ _ H r Hr)) as F.
    pose proof (Forall_nth' _ _ 0 _ l F Hl) as X. cbv beta in X. lia.
  - intros r l k Hr Hl E. cbn in *. apply (ro_priv _ _ _ _ _ _ (wf_row _ _ _ H r Hr)); auto.
Qed.

(** ** Cluster parameters *)

Lemma ok_redraw : forall o d (s : sst) g (Q : sst * Gs I -> Prop), o < length (s_heap I s) ->
  (forall x g', Q (w_heap I (upd (s_heap I s) o x) s, g')) -> ok (redraw I o d s g) Q.
Proof.
  intros o d s g Q Ho HQ. unfold redraw. destruct (match d with [] => samp_prior I g | _ => samp_full I d g end) as [x g'].
  apply ok_bind. apply ok_set; auto. simpl. apply HQ.
Qed.

Lemma ok_unique_rest : forall s0 r a (Q : sst * list (list (Datum I)) * Gs I -> Prop), wf s0 -> r < ng ->
  (exists h dbs g, a = (w_heap I h s0, dbs, g) /\ length h = length (s_heap I s0) /\ length dbs = length (s_shared I s0)) ->
  (forall h dbs g, length h = length (s_heap I s0) -> length dbs = length (s_shared I s0) -> Q (w_heap I h s0, dbs, g)) ->
  ok (unique_rest I data a r) Q.
Proof.
  intros s0 r a Q H Hr (h & dbs & g & -> & Hh & Hd) HQ. unfold unique_rest. apply ok_bind.
  assert (H' : wf (w_heap I h s0)) by (apply wf_heap; auto; lia).
  apply ok_by_table; auto; [apply wf_tabs_in; auto|apply (wf_rest _ _ _ H')|].
  set (dbt := map _ _).
  assert (Ld : length dbt = length (nth r (s_rest I s0) [])) by (unfold dbt; rewrite map_length, seq_length; auto). clearbody dbt.
  apply ok_for with (Inv := fun m a => exists h dbs g, a = (w_heap I h s0, dbs, g) /\ length h = length (s_heap I s0) /\ length dbs = length (s_shared I s0)).
  - eauto 8.
  - intros l b Hld (h1 & dbs1 & g1 & -> & Hh1 & Hd1). unfold unique_table.
    assert (Hl : l < length (nth r (s_rest I s0) [])) by lia.
    pose proof (wf_row _ _ _ H r Hr) as Rk. pose proof (wf_rest _ _ _ H) as L0. pose proof (wf_tpl _ _ _ H) as L1. pose proof (wf_tsl _ _ _ H) as L2. pose proof (wf_privl _ _ _ H) as L3.
    pose proof (ro_tp _ _ _ _ _ _ Rk) as L4. pose proof (ro_ts _ _ _ _ _ _ Rk) as L5.
    apply ok_bind. apply ok_at2 with (d := None); cbn [w_heap s_tp s_ts s_priv s_rest]; try lia.
    apply ok_bind. apply ok_at with (d := []); [exact Hld|].
    pose proof (ro_one _ _ _ _ _ _ Rk l Hl) as O.
    destruct (nth l (nth r (s_tp I s0) []) None) as [k|] eqn:E.
    + pose proof (row_priv_lt _ _ _ _ _ _ _ _ Rk Hl E) as Hk.
      apply ok_bind. apply ok_at2 with (d := 0); cbn [w_heap s_priv]; try lia.
      apply ok_bind. apply ok_redraw.
      * cbn [w_heap s_heap]. pose proof (Forall_nth' _ _ 0 _ k (ro_pv _ _ _ _ _ _ Rk) Hk) as X. cbv beta in X. lia.
      * intros x g'. apply ok_bind. apply ok_set2; cbn [w_heap s_rest s_heap]; try lia.
        rewrite <- (ro_priv _ _ _ _ _ _ Rk l k Hl E). rewrite upd_same by auto. rewrite upd_same by lia.
        cbn [ok]. exists (upd h1 (nth l (nth r (s_rest I s0) []) 0) x), dbs1, g'. rewrite upd_length. auto.
    + apply ok_bind. apply ok_at2 with (d := None); cbn [w_heap s_ts]; try lia.
      destruct (nth l (nth r (s_ts I s0) []) None) as [hh|]; [|tauto].
      apply ok_bind. apply ok_at with (d := []); [lia|]. apply ok_bind. apply ok_set; [lia|].
      cbn [ok]. exists h1, (upd dbs1 hh (nth hh dbs1 [] ++ nth l dbt [])), g1. rewrite upd_length. auto.
  - intros b (h1 & dbs1 & g1 & -> & Hh1 & Hd1). auto.
Qed.

(** The object a table should hold. *)
Definition target (s : sst) (r l : nat) : nat :=
  match nth l (nth r (s_ts I s) []) None with
  | Some h => nth h (s_shared I s) 0
  | None => nth l (nth r (s_rest I s) []) 0
  end.

Lemma w_rest_rest : forall x y (s : sst), w_rest I x (w_rest I y s) = w_rest I x s.
Proof. reflexivity. Qed.

Lemma ok_reassign_shared : forall s (Q : sst -> Prop), wf s ->
  (forall rest, length rest = ng ->
     (forall r, r < ng -> length (nth r rest []) = length (nth r (s_rest I s) [])) ->
     (forall r l, r < ng -> l < length (nth r rest []) -> nth l (nth r rest []) 0 = target s r l) ->
     Q (w_rest I rest s)) ->
  ok (reassign_shared I data s) Q.
Proof.
  intros s Q H HQ. unfold reassign_shared. pose proof (wf_rest _ _ _ H) as L0. pose proof (wf_tsl _ _ _ H) as L2.
  set (good := fun (b : nat -> nat -> bool) (s' : sst) => exists rest, s' = w_rest I rest s /\ length rest = ng /\ (forall r, r < ng -> length (nth r rest []) = length (nth r (s_rest I s) [])) /\ (forall r l, r < ng -> l < length (nth r rest []) -> nth l (nth r rest []) 0 = if b r l then target s r l else nth l (nth r (s_rest I s) []) 0)).
  apply ok_for with (Inv := fun m s' => good (fun r _ => r <? m) s').
  - exists (s_rest I s). rewrite w_rest_same. repeat split; auto.
  - intros m s' Hm (rest & -> & E1 & E2 & E3). change (m < ng) in Hm. apply ok_bind. apply ok_at with (d := []); [cbn; lia|].
    cbn [w_rest s_rest]. rewrite E2 by auto.
    apply ok_for with (Inv := fun k s' => good (fun r l => (r <? m) || ((r =? m) && (l <? k))) s').
    + exists rest. repeat split; auto. intros r l Hr Hl. rewrite E3 by auto. rewrite andb_false_r, orb_false_r. reflexivity.
    + clear rest E1 E2 E3. intros l s' Hl (rest & -> & E1 & E2 & E3). pose proof (ro_ts _ _ _ _ _ _ (wf_row _ _ _ H m Hm)) as L5.
      apply ok_bind. apply ok_at2 with (d := None); cbn [w_rest s_ts]; try lia.
      destruct (nth l (nth m (s_ts I s) []) None) as [h|] eqn:E.
      * pose proof (row_ts_lt _ _ _ _ _ _ (wf_row _ _ _ H m Hm)) as F. rewrite Forall_forall in F.
        assert (Hh : h < length (s_shared I s)) by (apply F; apply somes_nth; exists l; rewrite L5; auto).
        apply ok_bind. apply ok_at with (d := 0); [exact Hh|]. apply ok_bind. apply ok_set2; cbn [w_rest s_rest s_shared]; [lia|rewrite E2; auto|].
        cbn [ok]. rewrite w_rest_rest. eexists. split; [reflexivity|]. rewrite upd_length. split; auto. split.
        -- intros r Hr. rewrite nth_upd. destruct (Nat.eqb_spec r m) as [->|N]; cbn [andb]; auto.
           destruct (m <? length rest); rewrite ?upd_length; auto.
        -- intros r k Hr Hk. rewrite nth_upd in Hk |- *. rewrite E1 in *. assert (Em : (m <? ng) = true) by (apply Nat.ltb_lt; auto). rewrite Em in *.
           destruct (Nat.eqb_spec r m) as [->|N]; cbn [andb] in *.
           ++ rewrite upd_length in Hk. rewrite nth_upd. assert (El : (l <? length (nth m rest [])) = true) by (apply Nat.ltb_lt; rewrite E2; auto). rewrite El.
              destruct (Nat.eqb_spec k l) as [->|N]; cbn [andb].
              ** rewrite Nat.ltb_irrefl. assert (Ee : (l <? S l) = true) by (apply Nat.ltb_lt; lia). rewrite Ee. cbn [orb]. unfold target. rewrite E. reflexivity.
              ** rewrite E3 by auto. rewrite Nat.eqb_refl. cbn [andb]. replace (k <? S l) with (k <? l); auto.
                 destruct (Nat.ltb_spec k l), (Nat.ltb_spec k (S l)); auto; lia.
           ++ rewrite E3 by auto. apply Nat.eqb_neq in N. rewrite N. reflexivity.
      * cbn [ok]. exists rest. repeat split; auto. intros r k Hr Hk. rewrite E3 by auto.
        destruct (Nat.eqb_spec r m) as [->|N]; auto. rewrite Nat.ltb_irrefl. cbn [andb orb].
        destruct (Nat.ltb_spec k l), (Nat.ltb_spec k (S l)); auto; try lia. assert (k = l) as -> by lia. unfold target. rewrite E. reflexivity.
    + intros s' (rest' & -> & F1 & F2 & F3). exists rest'. repeat split; auto. intros r l Hr Hl. rewrite F3 by auto.
      destruct (Nat.eqb_spec r m) as [->|N].
      * rewrite Nat.ltb_irrefl. cbn [orb andb]. assert (X : (l <? length (nth m (s_rest I s) [])) = true) by (apply Nat.ltb_lt; rewrite <- F2; auto). rewrite X.
        assert (Y : (m <? S m) = true) by (apply Nat.ltb_lt; lia). rewrite Y. reflexivity.
      * cbn [andb]. rewrite orb_false_r. replace (r <? S m) with (r <? m); auto. destruct (Nat.ltb_spec r m), (Nat.ltb_spec r (S m)); auto; lia.
  - intros s' (rest & -> & E1 & E2 & E3). apply HQ; auto. intros r l Hr Hl. rewrite E3 by auto.
    apply Nat.ltb_lt in Hr. change (Semi.ng I data) with ng. rewrite Hr. reflexivity.
Qed.

(** The tables and maps of two states agree. *)
Definition same_shape (s s' : sst) : Prop :=
  (forall r, r < ng -> length (nth r (s_rest I s') []) = length (nth r (s_rest I s) [])) /\
  s_priv I s' = s_priv I s /\ s_shared I s' = s_shared I s /\ s_n I s' = s_n I s /\ s_restp I s' = s_restp I s /\
  s_np I s' = s_np I s /\ s_tab I s' = s_tab I s /\ s_ra I s' = s_ra I s /\ s_used I s' = s_used I s /\
  s_conc I s' = s_conc I s /\ s_ts I s' = s_ts I s /\ s_tp I s' = s_tp I s /\ s_m I s' = s_m I s /\ s_w I s' = s_w I s.

Lemma ok_update_unique_vals : forall s g (Q : sst * Gs I -> Prop), wf s ->
  (forall s' g', wf s' -> shared_coherent I data s' -> same_shape s s' -> Q (s', g')) ->
  ok (update_unique_vals I data s g) Q.
Proof.
  intros s g Q H HQ. unfold update_unique_vals. apply ok_bind.
  apply ok_for with (Inv := fun _ a => exists h dbs g, a = (w_heap I h s, dbs, g) /\ length h = length (s_heap I s) /\ length dbs = length (s_shared I s)).
  - exists (s_heap I s), (repeat [] (length (s_shared I s))), g. rewrite w_heap_same, repeat_length. auto.
  - intros r a Hr Ha. apply ok_unique_rest with (s0 := s); auto. intros h dbs g' E1 E2. eauto 8.
  - intros a (h & dbs & g1 & -> & E1 & E2). apply ok_bind.
    apply ok_for with (Inv := fun _ a => exists h g, a = (w_heap I h s, g) /\ length h = length (s_heap I s)).
    + eauto.
    + cbn [w_heap s_shared]. intros m a Hm (h1 & g2 & -> & E3). apply ok_bind. apply ok_at with (d := 0); [exact Hm|].
      apply ok_bind. apply ok_at with (d := []); [lia|]. apply ok_redraw.
      * cbn. pose proof (Forall_nth' _ _ 0 _ m (wf_shared _ _ _ H) Hm) as X. cbv beta in X. lia.
      * intros x g'. exists (upd h1 (nth m (s_shared I s) 0) x), g'. rewrite upd_length. auto.
    + intros a (h1 & g2 & -> & E3). apply ok_bind.
      assert (H' : wf (w_heap I h1 s)) by (apply wf_heap; auto; lia).
      apply ok_reassign_shared; auto. intros rest F1 F2 F3. cbn [ok]. apply HQ.
      * change (w_rest I rest (w_heap I h1 s)) with (w_rest I rest (w_heap I h1 (w_heap I h1 s))).
        apply wf_set_rest_heap; auto.
        -- intros r l Hr Hl. rewrite F3 by auto. unfold target. cbn. rewrite F2 in Hl by auto. cbn in Hl.
           destruct (nth l (nth r (s_ts I s) []) None) as [hh|] eqn:E.
           ++ pose proof (row_ts_lt _ _ _ _ _ _ (wf_row _ _ _ H r Hr)) as F. rewrite Forall_forall in F.
              assert (Hh : hh < length (s_shared I s)).
              { apply F; apply somes_nth; exists l; rewrite (ro_ts _ _ _ _ _ _ (wf_row _ _ _ H r Hr)); auto. }
              pose proof (Forall_nth' _ _ 0 _ hh (wf_shared _ _ _ H) Hh) as X. cbv beta in X. lia.
           ++ pose proof (Forall_nth' _ _ 0 _ l (ro_rt _ _ _ _ _ _ (wf_row _ _ _ H r Hr)) Hl) as X. cbv beta in X. lia.
        -- intros r l k Hr Hl E. rewrite F3 by auto. rewrite F2 in Hl by auto. cbn in Hl, E. unfold target. cbn.
           pose proof (ro_one _ _ _ _ _ _ (wf_row _ _ _ H r Hr) l Hl) as O. rewrite E in O.
           destruct (nth l (nth r (s_ts I s) []) None); [tauto|]. apply (ro_priv _ _ _ _ _ _ (wf_row _ _ _ H r Hr)); auto.
      * intros r l hh Hr Hl E. cbn in *. rewrite F3 by auto. unfold target. cbn. rewrite E. reflexivity.
      * split; [exact F2|]. repeat split; reflexivity.
Qed.

(** ** Weights *)

Lemma ok_weight : forall s g (Q : sst * Gs I -> Prop), wf s -> (forall w g', Q (w_w I w s, g')) -> ok (update_semihdp_weight I P data s g) Q.
Proof.
  intros s g Q H HQ. unfold update_semihdp_weight. apply ok_bind. unfold weight_counts.
  apply ok_for with (Inv := fun _ _ => True); auto.
  - intros r b Hr _. change (r < ng) in Hr. destruct (existsb (Nat.eqb r) (s_ra I s)); [|exact Logic.I].
    apply ok_bind. apply ok_at with (d := []); [rewrite (wf_tpl _ _ _ H); auto|exact Logic.I].
  - intros [cnt tot] _. destruct (beta I _ _ g) as [w g1]. simpl. auto.
Qed.

Lemma wf_w : forall s w, wf s -> wf (w_w I w s).
Proof. intros s w H. destruct H; constructor; auto. Qed.

Lemma ok_dirichlet : forall s g (Q : sst * Gs I -> Prop), wf s -> (forall c g', length c = ng -> Q (w_conc I c s, g')) -> ok (update_dirichlet I P data s g) Q.
Proof.
  intros s g Q H HQ. unfold update_dirichlet. apply ok_bind. unfold group_counts.
  apply ok_for with (Inv := fun _ acc => length acc = ng); auto.
  - rewrite repeat_length. reflexivity.
  - intros i acc Hi Hacc. change (i < ng) in Hi. apply ok_bind. apply ok_at with (d := 0); [rewrite (wf_ral _ _ _ H); auto|].
    apply ok_add1; [rewrite Hacc; apply (wf_ra _ _ _ H); auto|]. rewrite upd_length. exact Hacc.
  - intros acc Hacc. match goal with |- context [dirich I ?l g] => pose proof (go_dirich _ HG l g) as L; destruct (dirich I l g) as [v g1] end.
    simpl. apply HQ. simpl in L. rewrite L, map_length. exact Hacc.
Qed.

Lemma wf_conc : forall s c, wf s -> length c = ng -> wf (w_conc I c s).
Proof. intros s c H L. destruct H; constructor; auto. Qed.

(** ** Pseudo-prior *)

Lemma load_objs_spec : forall l (s : sst), load_objs I l s = (seq (length (s_heap I s)) (length l), w_heap I (s_heap I s ++ l) s).
Proof.
  induction l as [|x l IH]; intros s; simpl.
  - rewrite app_nil_r, w_heap_same. reflexivity.
  - rewrite IH. cbn. rewrite app_length. cbn [length]. rewrite Nat.add_1_r, <- app_assoc. reflexivity.
Qed.

Lemma wf_objs_lt : forall s, wf s -> objs_lt (length (s_heap I s)) (s_priv I s) (s_restp I s) (s_shared I s).
Proof.
  intros s H. split.
  - intros r o X. destruct (Nat.lt_ge_cases r ng) as [Hr|Hr].
    + destruct X as [X|X].
      * pose proof (ro_pv _ _ _ _ _ _ (wf_row _ _ _ H r Hr)) as F. rewrite Forall_forall in F. auto.
      * destruct (wf_pseudo _ _ _ H r Hr) as [_ F]. rewrite Forall_forall in F. auto.
    + unfold own in X. rewrite !nth_overflow in X by (rewrite ?(wf_privl _ _ _ H), ?(wf_restpl _ _ _ H); auto). simpl in X. tauto.
  - intros o X. pose proof (wf_shared _ _ _ H) as F. rewrite Forall_forall in F. auto.
Qed.

Lemma wf_set_pseudo : forall s rp np h, alias_ok (s_priv I s) rp (s_shared I s) -> wf s -> length (s_heap I s) <= length h -> length rp = ng -> length np = ng ->
  (forall r, r < ng -> length (nth r np []) = length (nth r rp []) /\ Forall (fun o => o < length h) (nth r rp [])) ->
  wf (w_pseudo I rp np (w_heap I h s)).
Proof. intros s rp np h Al H Hh L1 L2 Hr. apply (wf_heap s h) in H; auto. destruct H; constructor; auto. Qed.

Definition pseudo_only (s s' : sst) : Prop :=
  exists rp np ext, s' = w_pseudo I rp np (w_heap I (s_heap I s ++ ext) s).

Lemma pseudo_only_refl : forall s, pseudo_only s s.
Proof.
  intros s. exists (s_restp I s), (s_np I s), []. rewrite app_nil_r. destruct s; reflexivity.
Qed.
Lemma pseudo_only_trans : forall s1 s2 s3, pseudo_only s1 s2 -> pseudo_only s2 s3 -> pseudo_only s1 s3.
Proof.
  intros s1 s2 s3 (rp & np & e & ->) (rp' & np' & e' & ->). exists rp', np', (e ++ e'). cbn. rewrite app_assoc. reflexivity.
Qed.

Lemma ok_cards : forall (ps : pstate I) (Q : list Z -> Prop), Forall (fun c => c < length (fst ps)) (snd ps) ->
  Q (tally (length (fst ps)) (snd ps)) -> ok (cards_of I ps) Q.
Proof.
  intros ps Q F HQ. unfold cards_of. apply ok_rfold with (Inv := fun m acc => acc = tally (length (fst ps)) (firstn m (snd ps))).
  - symmetry. apply tally_nil.
  - intros m acc c Hc ->. assert (Hm : m < length (snd ps)) by (apply nth_error_Some; congruence).
    rewrite (nth_error_nth' _ 0 Hm) in Hc. injection Hc as <-.
    pose proof (Forall_nth' _ _ 0 _ m F Hm) as X. cbv beta in X.
    apply ok_add1; [rewrite tally_length; auto|]. rewrite tally_snoc, (firstn_snoc _ 0) by auto. reflexivity.
  - intros b ->. rewrite firstn_all. exact HQ.
Qed.

Lemma tally_sum : forall n l, Forall (fun c => c < n) l -> fold_right Z.add 0%Z (tally n l) = Z.of_nat (length l).
Proof.
  intros n l. induction l as [|x l IH] using rev_ind; intros F.
  - rewrite tally_nil. induction n; simpl; auto.
  - apply Forall_app in F. destruct F as [F Fx]. rewrite <- tally_snoc by (inversion Fx; auto).
    rewrite app_length, Nat2Z.inj_add, <- IH by auto. cbn [length].
    assert (Hx : x < length (tally n l)) by (rewrite tally_length; inversion Fx; auto). revert Hx. generalize (tally n l). clear.
    intros t. revert x. induction t as [|a t IHt]; intros x Hx; simpl in Hx; [lia|].
    destruct x; cbn [upd nth fold_right]; [lia|]. rewrite IHt by lia. lia.
Qed.

Lemma ok_pseudo : forall pseudo s g (Q : sst * Gs I -> Prop), pseudo_ok I data pseudo -> 0 < ng -> wf s ->
  (forall s' g', wf s' -> pseudo_only s s' -> (forall r, r < ng -> nth r (s_restp I s') [] <> []) -> Q (s', g')) ->
  ok (sample_pseudo_prior I P data pseudo s g) Q.
Proof.
  intros pseudo s g Q (Lp & k & Hk & Hp) Hn H HQ. unfold sample_pseudo_prior. apply ok_bind. apply ok_at with (d := []); [lia|].
  destruct (Hp 0 Hn) as [E0 _]. rewrite E0. destruct (Nat.eqb_spec k 0) as [X|_]; [lia|].
  match goal with |- context [catp I ?l g] => assert (Hit : fst (catp I l g) < k); [|destruct (catp I l g) as [it g1]] end.
  { eapply Nat.lt_le_trans; [apply (go_catp _ HG)|rewrite repeat_length; auto]. destruct k; [lia|discriminate]. }
  cbn [fst] in Hit.
  apply ok_for with (Inv := fun m a => wf (fst a) /\ pseudo_only s (fst a) /\ forall r, r < m -> nth r (s_restp I (fst a)) [] <> []).
  - split; [exact H|]. split; [apply pseudo_only_refl|]. intros; lia.
  - intros r [s1 g2] Hr (H1 & H2 & H3). change (r < ng) in Hr. cbn [fst] in *. unfold pseudo_rest. apply ok_bind. apply ok_at with (d := []); [lia|].
    destruct (Hp r Hr) as [Er Fr]. destruct (nth_error (nth r pseudo []) it) as [ps|] eqn:Eps.
    2:{ apply nth_error_None in Eps. lia. }
    rewrite Forall_forall in Fr. destruct (Fr ps (nth_error_In _ _ Eps)) as [Ne F].
    apply ok_bind. apply ok_cards; auto. rewrite tally_sum by auto.
    destruct (Z.eqb_spec (Z.of_nat (length (snd ps))) 0) as [X|_]; [destruct (snd ps); [congruence|simpl in X; lia]|].
    apply ok_bind. apply ok_nby; auto.
    match goal with |- context [multin I ?l ?n g2] => pose proof (go_multin _ HG l n g2) as Lm; destruct (multin I l n g2) as [ns g3] end.
    cbn [fst] in Lm. rewrite map_length, tally_length in Lm.
    rewrite load_objs_spec. cbv iota beta. apply ok_bind. apply ok_set; [cbn; rewrite (wf_npl _ _ _ H1); auto|].
    apply ok_bind. apply ok_set; [cbn; rewrite (wf_restpl _ _ _ H1); auto|]. cbn [ok fst].
    set (n0 := length (s_heap I s1)).
    assert (Hps : 0 < length (fst ps)).
    { destruct (snd ps) as [|c cs]; [congruence|]. inversion F; lia. }
    split; [|split].
    + apply wf_set_pseudo; auto; cbn.
      { eapply alias_fresh; [apply H1|apply wf_objs_lt; auto|apply seq_NoDup|]. intros o Ho. apply in_seq in Ho. lia. }
      all: cbn; rewrite ?upd_length, ?app_length; try lia.
      * apply (wf_restpl _ _ _ H1).
      * apply (wf_npl _ _ _ H1).
      * intros r' Hr'. rewrite !nth_upd. rewrite (wf_npl _ _ _ H1), (wf_restpl _ _ _ H1).
        apply Nat.ltb_lt in Hr. rewrite Hr. destruct (Nat.eqb_spec r' r) as [->|N]; cbn [andb].
        -- rewrite seq_length. split; auto. apply Forall_forall. intros o Ho. apply in_seq in Ho. lia.
        -- destruct (wf_pseudo _ _ _ H1 r' Hr') as [A B]. split; auto. eapply Forall_impl; [|exact B]. simpl. intros; lia.
    + eapply pseudo_only_trans; [exact H2|]. do 3 eexists. reflexivity.
    + intros r' Hr'. cbn. rewrite nth_upd. rewrite (wf_restpl _ _ _ H1). apply Nat.ltb_lt in Hr. rewrite Hr.
      destruct (Nat.eqb_spec r' r) as [->|N]; cbn [andb]; [destruct (length (fst ps)); [lia|discriminate]|apply H3; lia].
  - intros [s' g'] (H1 & H2 & H3). apply HQ; auto.
Qed.

End Inv.
