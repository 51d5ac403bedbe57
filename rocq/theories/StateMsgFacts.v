(** * A saved state is recorded by its message, and fits *)
From Coq Require Import String.
From Coq Require Import List NArith ZArith Reals Lia Bool.
From Verif Require Import Collect Schema Wire WireSpec WireFacts WireInst Mixings Univ RealInst StateMsg StateMsgSpec.
Import ListNotations.
Local Open Scope N_scope.

Section Facts.
  Variable dbl : R -> N.
  Hypothesis dbl_64 : forall x, dbl x < 2 ^ 64.

  Lemma dbl_ok : forall x, (dbl x <? 2 ^ 64) = true.
  Proof. intro x. apply N.ltb_lt, dbl_64. Qed.

  Lemma field1 : forall t m f v, In f (fields t) -> fnum f <> 0 -> In v (entries (fnum f) m) -> shows t m [fname f] v.
  Proof.
    intros t m f v F _ I. apply shows_here; [exact F|]. unfold reads. destruct (frep f); [exact I|].
    destruct (fkind f); try exact I; (destruct (entries (fnum f) m); [destruct I|exact I]).
  Qed.

  Lemma shows_at : forall t m s n k r o v, In (mkField s n k r o) (fields t) -> In v (entries n m) -> shows t m [s] v.
  Proof.
    intros t m s n k r o v F I. apply (shows_here t m (mkField s n k r o)); [exact F|]. unfold reads. cbn [frep fkind fnum].
    destruct r; [exact I|]. destruct k; try exact I; (destruct (entries n m); [destruct I|exact I]).
  Qed.
  Lemma shows_sub : forall t m s n t' r o m' path v, In (mkField s n (KMsg t') r o) (fields t) -> In (VMsg m') (entries n m) ->
    shows t' m' path v -> shows t m (s :: path) v.
  Proof.
    intros t m s n t' r o m' path v F I H. apply (shows_in t m (mkField s n (KMsg t') r o) t' m'); [exact F|reflexivity| |exact H].
    unfold reads. cbn [frep fkind fnum]. destruct r; exact I.
  Qed.

  Lemma entries_map_other : forall A B k j (f : A -> B) l, j <> k -> entries k (map (fun a => (j, f a)) l) = [].
  Proof.
    intros A B k j f l N. rewrite <- (map_map f (pair j)). apply entries_other, N.
  Qed.
  Lemma entries_map_self : forall A B k (f : A -> B) l, entries k (map (fun a => (k, f a)) l) = map f l.
  Proof. intros A B k f l. rewrite <- (map_map f (pair k)). apply entries_self. Qed.

  Lemma state_entries : forall k,
    entries 1 (state_msg dbl k) = map (fun c => VMsg (cluster_msg dbl c)) (k_clusters k) /\
    entries 2 (state_msg dbl k) = map (fun a => VInt (Z.of_nat a)) (k_alloc k) /\
    entries 3 (state_msg dbl k) = [VMsg (mixing_msg dbl (k_mix k))] /\
    entries 4 (state_msg dbl k) = [VInt (Z.of_nat (k_iter k))] /\
    entries 5 (state_msg dbl k) = [VMsg (hypers_msg dbl (k_hyp k))].
  Proof.
    intro k. unfold state_msg. rewrite !entries_app.
    rewrite entries_map_self, entries_map_self, !entries_map_other by discriminate. cbn [app].
    repeat split; (apply app_nil_r || reflexivity).
  Qed.

  Ltac fld := vm_compute; tauto.

  Lemma message_recorded : forall k, recorded dbl k (state_msg dbl k).
  Proof.
    intro k. destruct (state_entries k) as (E1 & E2 & E3 & E4 & E5). unfold recorded.
    split; [|split; [|split; [|split]]].
    - eapply (shows_at _ _ "iteration_num" 4 KInt32 false None); [fld|]. rewrite E4. left. reflexivity.
    - exists (rep "cluster_allocs" 2 KInt32). split; [fld|]. split; [reflexivity|]. split; [reflexivity|exact E2].
    - exists (map (fun c => VMsg (cluster_msg dbl c)) (k_clusters k)). split.
      + exists (rep "cluster_states" 1 (KMsg "AlgorithmState.ClusterState")). split; [fld|]. split; [reflexivity|]. split; [reflexivity|exact E1].
      + clear E1. induction (k_clusters k) as [|c cs IH]; [constructor|]. constructor; [|exact IH]. exists (cluster_msg dbl c). split; [reflexivity|].
        split; [|split].
        * eapply (shows_sub _ _ "uni_ls_state" 1 "UniLSState" false (Some "val"%string)); [fld|left; reflexivity|].
          eapply (shows_at _ _ "mean" 1 KDouble false None); [fld|left; reflexivity].
        * eapply (shows_sub _ _ "uni_ls_state" 1 "UniLSState" false (Some "val"%string)); [fld|left; reflexivity|].
          eapply (shows_at _ _ "var" 2 KDouble false None); [fld|left; reflexivity].
        * eapply (shows_at _ _ "cardinality" 3 KInt32 false None); [fld|left; reflexivity].
    - unfold records_hypers. cbn zeta.
      assert (X : forall which n t s j v m, In (mkField which n (KMsg t) false (Some "val"%string)) (fields "AlgorithmState.HierarchyHypers") ->
        hypers_msg dbl (k_hyp k) = [(n, VMsg m)] -> In (mkField s j KDouble false None) (fields t) -> In v (entries j m) ->
        shows "AlgorithmState" (state_msg dbl k) ["hierarchy_hypers"; which; s]%string v).
      { intros which n t s j v m F H F' I. eapply (shows_sub _ _ "hierarchy_hypers" 5 "AlgorithmState.HierarchyHypers" false None); [fld|rewrite E5; left; reflexivity|].
        eapply (shows_sub _ _ which n t false _ m); [exact F|rewrite H; unfold entries; cbn [filter fst map snd]; rewrite N.eqb_refl; left; reflexivity|].
        eapply shows_at; [exact F'|exact I]. }
      destruct (k_hyp k) as [h|h].
      + repeat split.
        * eapply (X _ 2 "NIGDistribution"%string _ 1); [fld|reflexivity|fld|left; reflexivity].
        * eapply (X _ 2 "NIGDistribution"%string _ 2); [fld|reflexivity|fld|left; reflexivity].
        * eapply (X _ 2 "NIGDistribution"%string _ 3); [fld|reflexivity|fld|left; reflexivity].
        * eapply (X _ 2 "NIGDistribution"%string _ 4); [fld|reflexivity|fld|left; reflexivity].
      + repeat split.
        * eapply (X _ 5 "NxIGDistribution"%string _ 1); [fld|reflexivity|fld|left; reflexivity].
        * eapply (X _ 5 "NxIGDistribution"%string _ 2); [fld|reflexivity|fld|left; reflexivity].
        * eapply (X _ 5 "NxIGDistribution"%string _ 3); [fld|reflexivity|fld|left; reflexivity].
        * eapply (X _ 5 "NxIGDistribution"%string _ 4); [fld|reflexivity|fld|left; reflexivity].
    - unfold records_mixing. cbn zeta.
      assert (X : forall which n t s j v m, In (mkField which n (KMsg t) false (Some "state"%string)) (fields "MixingState") ->
        mixing_msg dbl (k_mix k) = [(n, VMsg m)] -> In (mkField s j KDouble false None) (fields t) -> In v (entries j m) ->
        shows "AlgorithmState" (state_msg dbl k) ["mixing_state"; which; s]%string v).
      { intros which n t s j v m F H F' I. eapply (shows_sub _ _ "mixing_state" 3 "MixingState" false None); [fld|rewrite E3; left; reflexivity|].
        eapply (shows_sub _ _ which n t false _ m); [exact F|rewrite H; unfold entries; cbn [filter fst map snd]; rewrite N.eqb_refl; left; reflexivity|].
        eapply shows_at; [exact F'|exact I]. }
      destruct (k_mix k) as [p s|p s]; [|split].
      + eapply (X _ 1 "DPState"%string _ 1); [fld|reflexivity|fld|left; reflexivity].
      + eapply (X _ 2 "PYState"%string _ 1); [fld|reflexivity|fld|left; reflexivity].
      + eapply (X _ 2 "PYState"%string _ 2); [fld|reflexivity|fld|left; reflexivity].
  Qed.

  (** ** Messages that read the same record the same *)
  Lemma same_shows : forall t m path v, shows t m path v -> forall m', same (KMsg t) (VMsg m) (VMsg m') ->
    exists v' k, shows t m' path v' /\ same k v v'.
  Proof.
    intros t m path v H. induction H as [t m f v F I|t m f t' m1 path v F K I H IH]; intros m' S.
    - inversion S as [| | |? ? ? Q]; subst. specialize (Q f F).
      assert (X : forall l l', Forall2 (same (fkind f)) l l' -> In v l -> exists v', In v' l' /\ same (fkind f) v v').
      { induction 1 as [|x y l l' A B IHl]; intros J; [destruct J|]. destruct J as [->|J]; [exists y; split; [left; reflexivity|exact A]|].
        destruct (IHl J) as (v' & P & R). exists v'. split; [right; exact P|exact R]. }
      destruct (X _ _ Q I) as (v' & P & R). exists v', (fkind f). split; [apply shows_here; assumption|exact R].
    - inversion S as [| | |? ? ? Q]; subst. specialize (Q f F).
      assert (X : forall l l', Forall2 (same (fkind f)) l l' -> In (VMsg m1) l -> exists v', In v' l' /\ same (fkind f) (VMsg m1) v').
      { induction 1 as [|x y l l' A B IHl]; intros J; [destruct J|]. destruct J as [->|J]; [exists y; split; [left; reflexivity|exact A]|].
        destruct (IHl J) as (v' & P & R). exists v'. split; [right; exact P|exact R]. }
      destruct (X _ _ Q I) as (v' & P & R). rewrite K in R. inversion R as [| | |? ? m2 Q2]; subst. destruct (IH m2 R) as (w & k & W1 & W2).
      exists w, k. split; [|exact W2]. eapply shows_in; eassumption.
  Qed.
  Lemma same_dbl_at : forall t m m' path b, same (KMsg t) (VMsg m) (VMsg m') -> shows t m path (VDbl b) -> shows t m' path (VDbl b).
  Proof. intros t m m' path b S H. destruct (same_shows t m path _ H m' S) as (v' & k & A & B). inversion B; subst. exact A. Qed.
  Lemma same_int_at : forall t m m' path z, same (KMsg t) (VMsg m) (VMsg m') -> shows t m path (VInt z) -> shows t m' path (VInt z).
  Proof. intros t m m' path b S H. destruct (same_shows t m path _ H m' S) as (v' & k & A & B). inversion B; subst. exact A. Qed.

  Lemma same_lists : forall t m m' s vs, same (KMsg t) (VMsg m) (VMsg m') -> lists t m s vs ->
    exists vs' k, lists t m' s vs' /\ Forall2 (same k) vs vs'.
  Proof.
    intros t m m' s vs S (f & F & N & R & <-). inversion S as [| | |? ? ? Q]; subst. exists (reads f m'), (fkind f).
    split; [exists f; repeat split; assumption|exact (Q f F)].
  Qed.

  Lemma same_recorded : forall k m m', same (KMsg "AlgorithmState") (VMsg m) (VMsg m') -> recorded dbl k m -> recorded dbl k m'.
  Proof.
    intros k m m' S (A & B & (vs & C & D) & H & X). unfold recorded.
    split; [exact (same_int_at _ _ _ _ _ S A)|]. split.
    { destruct (same_lists _ _ _ _ _ S B) as (vs' & k' & L & Q). replace (map (fun a => VInt (Z.of_nat a)) (k_alloc k)) with vs'; [exact L|].
      clear -Q. remember (map (fun a => VInt (Z.of_nat a)) (k_alloc k)) as l eqn:E. revert E. generalize (k_alloc k). induction Q as [|x y l l' A B IH]; intros [|a al] E; try discriminate; [reflexivity|].
      injection E as -> E. inversion A; subst. cbn [map]. f_equal. exact (IH al eq_refl) || exact (IH al E). }
    split.
    { destruct C as (f & F & N & R & <-). inversion S as [| | |? ? ? Q]; subst. specialize (Q f F). exists (reads f m'). split; [exists f; repeat split; assumption|].
      assert (K : fkind f = KMsg "AlgorithmState.ClusterState") by (cbn in F; repeat (destruct F as [<-|F]; [reflexivity || discriminate N|]); destruct F).
      rewrite K in Q. clear -D Q. revert D. generalize (k_clusters k). induction Q as [|x y l l' A B IH]; intros cs D; inversion D as [|c ? cs' ? D1 D2]; subst; constructor; [|apply IH; assumption].
      destruct D1 as (m1 & -> & P1 & P2 & P3). inversion A as [| | |? ? m2 Q2]; subst. exists m2. split; [reflexivity|].
      split; [exact (same_dbl_at _ _ _ _ _ A P1)|]. split; [exact (same_dbl_at _ _ _ _ _ A P2)|exact (same_int_at _ _ _ _ _ A P3)]. }
    split.
    { unfold records_hypers in *. cbn zeta in *. destruct (k_hyp k) as [h|h]; destruct H as (H1 & H2 & H3 & H4); repeat split; (eapply same_dbl_at; [exact S|assumption]). }
    unfold records_mixing in *. cbn zeta in *. destruct (k_mix k) as [p s|p s]; [eapply same_dbl_at; [exact S|exact X]|].
    destruct X as [X1 X2]. split; (eapply same_dbl_at; [exact S|assumption]).
  Qed.

  (** ** The message is well formed *)
  Lemma cluster_typed : forall c, (- 2 ^ 31 <= snd c < 2 ^ 31)%Z -> typed 3 (KMsg "AlgorithmState.ClusterState") (VMsg (cluster_msg dbl c)) = true.
  Proof.
    intros c H. unfold cluster_msg, uni_ls_msg.
    assert (A : ((- 2 ^ 31 <=? snd c) && (snd c <? 2 ^ 31))%Z = true) by (apply andb_true_intro; split; [apply Z.leb_le|apply Z.ltb_lt]; lia).
    cbn -[Z.leb Z.ltb Z.pow N.ltb N.pow]. rewrite A, !dbl_ok. reflexivity.
  Qed.
  Lemma hypers_typed : forall h, typed 3 (KMsg "AlgorithmState.HierarchyHypers") (VMsg (hypers_msg dbl h)) = true.
  Proof. intros [h|h]; cbn -[N.ltb N.pow]; rewrite !dbl_ok; reflexivity. Qed.
  Lemma mixing_typed : forall x, typed 3 (KMsg "MixingState") (VMsg (mixing_msg dbl x)) = true.
  Proof. intros [p s|p s]; cbn -[N.ltb N.pow]; rewrite !dbl_ok; reflexivity. Qed.

  Lemma state_typed : forall k, (Z.of_nat (k_iter k) < 2 ^ 31)%Z -> (forall a, In a (k_alloc k) -> Z.of_nat a < 2 ^ 31)%Z ->
    (forall c, In c (k_clusters k) -> - 2 ^ 31 <= snd c < 2 ^ 31)%Z -> well_typed (KMsg "AlgorithmState") (VMsg (state_msg dbl k)).
  Proof.
    intros k Hi Ha Hc. destruct (state_entries k) as (E1 & E2 & E3 & E4 & E5). constructor.
    - intros n v I. unfold state_msg in I. rewrite !in_app_iff in I. destruct I as [I|[I|I]].
      + apply in_map_iff in I as (c & E & Hin). injection E as <- <-. exists (rep "cluster_states" 1 (KMsg "AlgorithmState.ClusterState")). split; [fld|]. split; [reflexivity|].
        apply (typed_ok 3), cluster_typed, Hc, Hin.
      + apply in_map_iff in I as (a & E & Hin). injection E as <- <-. exists (rep "cluster_allocs" 2 KInt32). split; [fld|]. split; [reflexivity|]. constructor. specialize (Ha a Hin). lia.
      + destruct I as [E|[E|[E|[]]]]; injection E as <- <-.
        * exists (sing "mixing_state" 3 (KMsg "MixingState")). split; [fld|]. split; [reflexivity|]. apply (typed_ok 3), mixing_typed.
        * exists (sing "iteration_num" 4 KInt32). split; [fld|]. split; [reflexivity|]. constructor. lia.
        * exists (sing "hierarchy_hypers" 5 (KMsg "AlgorithmState.HierarchyHypers")). split; [fld|]. split; [reflexivity|]. apply (typed_ok 3), hypers_typed.
    - intros f F R. cbn in F. destruct F as [<-|[<-|[<-|[<-|[<-|[]]]]]]; cbn [frep rep sing] in R; try discriminate; cbn [fnum sing]; [rewrite E3|rewrite E4|rewrite E5]; cbn; lia.
    - intros f g o v w F _ Of. cbn in F. destruct F as [<-|[<-|[<-|[<-|[<-|[]]]]]]; discriminate.
  Qed.

  (** ** Its length *)
  Lemma enc_len : forall n x, (length (enc n x) <= n)%nat.
  Proof. induction n as [|n IH]; intro x; cbn [enc length]; [lia|]. destruct (x <? 128); cbn [length]; [lia|]. specialize (IH (x / 128)). lia. Qed.
  Lemma le_len : forall n b, length (le n b) = n.
  Proof. induction n as [|n IH]; intro b; cbn [le length]; [reflexivity|]. rewrite IH. reflexivity. Qed.

  Definition raw_size (r : raw) : nat := match r with RVar _ | RFix _ | RFix4 _ => 10 | RLen s => 5 + length s end.
  Lemma raw_len : forall r, (length (raw_bytes r) <= raw_size r)%nat.
  Proof.
    intros [n|b|s|b]; cbn [raw_bytes raw_size]; [apply enc_len|rewrite le_len; lia| |rewrite le_len; lia].
    rewrite app_length. pose proof (enc_len 5 (N.of_nat (length s))). unfold varint. lia.
  Qed.
  Lemma rec_len : forall e, (length (rec_bytes e) <= 5 + raw_size (snd e))%nat.
  Proof. intros [n r]. unfold rec_bytes. cbn [fst snd]. rewrite app_length. pose proof (raw_len r). pose proof (enc_len 5 (n * 8 + wire_type r)). unfold varint. lia. Qed.

  Definition recs_size (l : list (N * raw)) : nat := list_sum (map (fun e => 5 + raw_size (snd e))%nat l).
  Lemma recs_len : forall l, (length (flat_map rec_bytes l) <= recs_size l)%nat.
  Proof.
    induction l as [|e l IH]; [reflexivity|]. cbn [flat_map]. rewrite app_length. unfold recs_size in *. cbn [map list_sum fold_right].
    pose proof (rec_len e). unfold list_sum in *. lia.
  Qed.
  Lemma recs_app : forall a b, recs_size (a ++ b) = (recs_size a + recs_size b)%nat.
  Proof. intros a b. unfold recs_size. rewrite map_app, list_sum_app. reflexivity. Qed.

  Lemma emit_size : forall f rs, (recs_size (emit f rs) <= list_sum (map (fun r => 10 + raw_size r)%nat rs) + 10)%nat.
  Proof.
    intros f rs. unfold emit. destruct (frep f && packable (fkind f)).
    - destruct rs as [|r rs]; [cbn; lia|]. unfold recs_size. cbn [map list_sum fold_right snd raw_size].
      assert (X : forall l, (length (flat_map raw_bytes l) <= list_sum (map (fun r => 10 + raw_size r)%nat l))%nat).
      { induction l as [|x l IH]; [reflexivity|]. cbn [flat_map map list_sum fold_right]. rewrite app_length. pose proof (raw_len x). unfold list_sum in IH. lia. }
      specialize (X (r :: rs)). cbn [map list_sum fold_right] in X. unfold list_sum in X. lia.
    - assert (X : forall l, (recs_size (map (pair (fnum f)) l) <= list_sum (map (fun r => 10 + raw_size r)%nat l))%nat).
      { induction l as [|x l IH]; [reflexivity|]. unfold recs_size, list_sum in *. cbn [map fold_right snd]. lia. }
      destruct (frep f || is_msg (fkind f)); [specialize (X rs); lia|]. specialize (X (filter (fun r => negb (default r)) rs)).
      assert (Y : (list_sum (map (fun r => 10 + raw_size r)%nat (filter (fun r => negb (default r)) rs)) <= list_sum (map (fun r => 10 + raw_size r)%nat rs))%nat).
      { clear X. induction rs as [|x l IH]; [reflexivity|]. cbn [filter]. unfold list_sum in *. destruct (negb (default x)); cbn [map fold_right]; lia. }
      lia.
  Qed.

  (* two doubles and an int32 *)
  Lemma double_size : forall b, raw_size (payload KDouble (VDbl b)) = 10%nat.
  Proof. reflexivity. Qed.
  Lemma payload_msg : forall t m, raw_size (payload (KMsg t) (VMsg m)) = (5 + length (serialize t m))%nat.
  Proof. reflexivity. Qed.

  Lemma serialize_size : forall t m, (length (serialize t m) <=
    list_sum (map (fun f => list_sum (map (fun r => 10 + raw_size r) (entries (fnum f) (map (fun e => (fst e, payload (kind_of t (fst e)) (snd e))) m))) + 10) (fields t)))%nat.
  Proof.
    intros t m. unfold serialize, records, lay_out. eapply Nat.le_trans; [apply recs_len|].
    generalize (map (fun e => (fst e, payload (kind_of t (fst e)) (snd e))) m) as ps. intros ps.
    induction (fields t) as [|f fs IH]; [reflexivity|]. cbn [flat_map map]. rewrite recs_app. unfold list_sum in *. cbn [fold_right]. pose proof (emit_size f (entries (fnum f) ps)). unfold list_sum in *. lia.
  Qed.
  Lemma payload_entries : forall t m n, entries n (map (fun e => (fst e, payload (kind_of t (fst e)) (snd e))) m) = map (payload (kind_of t n)) (entries n m).
  Proof. intros t m n. exact (entries_map _ _ (fun k v => payload (kind_of t k) v) n m). Qed.

  Lemma uni_ls_len : forall s, (length (serialize "UniLSState" (uni_ls_msg dbl s)) <= 60)%nat.
  Proof. intro s. eapply Nat.le_trans; [apply serialize_size|]. apply Nat.leb_le. reflexivity. Qed.
  Lemma cluster_len : forall c, (length (serialize "AlgorithmState.ClusterState" (cluster_msg dbl c)) <= 155)%nat.
  Proof.
    intro c. eapply Nat.le_trans; [apply serialize_size|]. rewrite map_ext with (g := fun f => (list_sum (map (fun v => 10 + raw_size (payload (kind_of "AlgorithmState.ClusterState" (fnum f)) v)) (entries (fnum f) (cluster_msg dbl c))) + 10)%nat)
      by (intro f; rewrite payload_entries, map_map; reflexivity).
    change (fields "AlgorithmState.ClusterState") with [Schema.one "val" "uni_ls_state" 1 (KMsg "UniLSState"); Schema.one "val" "multi_ls_state" 2 (KMsg "MultiLSState"); sing "cardinality" 3 KInt32;
      Schema.one "val" "lin_reg_uni_ls_state" 4 (KMsg "LinRegUniLSState"); Schema.one "val" "general_state" 5 (KMsg "Vector"); Schema.one "val" "fa_state" 6 (KMsg "FAState")].
    cbn [map fnum Schema.one sing]. unfold cluster_msg, entries. cbn [filter fst snd N.eqb Pos.eqb map].
    change (kind_of "AlgorithmState.ClusterState" 1) with (KMsg "UniLSState"). rewrite payload_msg. change (raw_size (payload (kind_of "AlgorithmState.ClusterState" 3) (VInt (snd c)))) with 10%nat.
    pose proof (uni_ls_len (fst c)). unfold list_sum. cbn [fold_right]. lia.
  Qed.
  Lemma hypers_len : forall h, (length (serialize "AlgorithmState.HierarchyHypers" (hypers_msg dbl h)) <= 1000)%nat.
  Proof. intros [h|h]; (eapply Nat.le_trans; [apply serialize_size|]); unfold hypers_msg.
    - rewrite map_ext with (g := fun f => (list_sum (map (fun v => 10 + raw_size (payload (kind_of "AlgorithmState.HierarchyHypers" (fnum f)) v)) (entries (fnum f) (hypers_msg dbl (HNig h)))) + 10)%nat)
        by (intro f; rewrite payload_entries, map_map; reflexivity).
      set (m := [(1, VDbl (dbl (ng_mean h))); (2, VDbl (dbl (ng_vs h))); (3, VDbl (dbl (ng_shape h))); (4, VDbl (dbl (ng_scale h)))]).
      assert (L : (length (serialize "NIGDistribution" m) <= 200)%nat) by (eapply Nat.le_trans; [apply serialize_size|]; apply Nat.leb_le; reflexivity).
      cbn -[serialize payload raw_size Nat.add]. change (kind_of "AlgorithmState.HierarchyHypers" 2) with (KMsg "NIGDistribution"). fold m. rewrite payload_msg. cbn [Nat.add]. lia.
    - rewrite map_ext with (g := fun f => (list_sum (map (fun v => 10 + raw_size (payload (kind_of "AlgorithmState.HierarchyHypers" (fnum f)) v)) (entries (fnum f) (hypers_msg dbl (HNxig h)))) + 10)%nat)
        by (intro f; rewrite payload_entries, map_map; reflexivity).
      set (m := [(1, VDbl (dbl (nx_mean h))); (2, VDbl (dbl (nx_var h))); (3, VDbl (dbl (nx_shape h))); (4, VDbl (dbl (nx_scale h)))]).
      assert (L : (length (serialize "NxIGDistribution" m) <= 200)%nat) by (eapply Nat.le_trans; [apply serialize_size|]; apply Nat.leb_le; reflexivity).
      cbn -[serialize payload raw_size Nat.add]. change (kind_of "AlgorithmState.HierarchyHypers" 5) with (KMsg "NxIGDistribution"). fold m. rewrite payload_msg. cbn [Nat.add]. lia.
  Qed.
  Lemma mixing_len : forall x, (length (serialize "MixingState" (mixing_msg dbl x)) <= 1000)%nat.
  Proof. intros [p s|p s]; (eapply Nat.le_trans; [apply serialize_size|]); unfold mixing_msg.
    - rewrite map_ext with (g := fun f => (list_sum (map (fun v => 10 + raw_size (payload (kind_of "MixingState" (fnum f)) v)) (entries (fnum f) (mixing_msg dbl (MixDP p s)))) + 10)%nat)
        by (intro f; rewrite payload_entries, map_map; reflexivity).
      set (m := [(1, VDbl (dbl (dp_tot s)))]).
      assert (L : (length (serialize "DPState" m) <= 200)%nat) by (eapply Nat.le_trans; [apply serialize_size|]; apply Nat.leb_le; reflexivity).
      cbn -[serialize payload raw_size Nat.add]. change (kind_of "MixingState" 1) with (KMsg "DPState"). fold m. rewrite payload_msg. cbn [Nat.add]. lia.
    - rewrite map_ext with (g := fun f => (list_sum (map (fun v => 10 + raw_size (payload (kind_of "MixingState" (fnum f)) v)) (entries (fnum f) (mixing_msg dbl (MixPY p s)))) + 10)%nat)
        by (intro f; rewrite payload_entries, map_map; reflexivity).
      set (m := [(1, VDbl (dbl (py_str s))); (2, VDbl (dbl (py_dis s)))]).
      assert (L : (length (serialize "PYState" m) <= 200)%nat) by (eapply Nat.le_trans; [apply serialize_size|]; apply Nat.leb_le; reflexivity).
      cbn -[serialize payload raw_size Nat.add]. change (kind_of "MixingState" 2) with (KMsg "PYState"). fold m. rewrite payload_msg. cbn [Nat.add]. lia.
  Qed.

  Lemma state_len : forall k, (length (serialize "AlgorithmState" (state_msg dbl k)) <= 170 * length (k_clusters k) + 20 * length (k_alloc k) + 3000)%nat.
  Proof.
    intro k. destruct (state_entries k) as (E1 & E2 & E3 & E4 & E5). eapply Nat.le_trans; [apply serialize_size|].
    rewrite map_ext with (g := fun f => (list_sum (map (fun v => 10 + raw_size (payload (kind_of "AlgorithmState" (fnum f)) v)) (entries (fnum f) (state_msg dbl k))) + 10)%nat)
      by (intro f; rewrite payload_entries, map_map; reflexivity).
    change (fields "AlgorithmState") with [rep "cluster_states" 1 (KMsg "AlgorithmState.ClusterState"); rep "cluster_allocs" 2 KInt32; sing "mixing_state" 3 (KMsg "MixingState");
      sing "iteration_num" 4 KInt32; sing "hierarchy_hypers" 5 (KMsg "AlgorithmState.HierarchyHypers")].
    cbn [map fnum rep sing]. rewrite E1, E2, E3, E4, E5, !map_map. cbn [map].
    change (kind_of "AlgorithmState" 1) with (KMsg "AlgorithmState.ClusterState"). change (kind_of "AlgorithmState" 2) with KInt32. change (kind_of "AlgorithmState" 3) with (KMsg "MixingState").
    change (kind_of "AlgorithmState" 4) with KInt32. change (kind_of "AlgorithmState" 5) with (KMsg "AlgorithmState.HierarchyHypers"). rewrite !payload_msg.
    assert (A : (list_sum (map (fun c => 10 + raw_size (payload (KMsg "AlgorithmState.ClusterState") (VMsg (cluster_msg dbl c)))) (k_clusters k)) <= 170 * length (k_clusters k))%nat).
    { clear E1. induction (k_clusters k) as [|c cs IH]; [reflexivity|]. unfold list_sum in *. cbn [map fold_right length]. rewrite payload_msg. pose proof (cluster_len c). lia. }
    assert (B : (list_sum (map (fun a => 10 + raw_size (payload KInt32 (VInt (Z.of_nat a)))) (k_alloc k)) = 20 * length (k_alloc k))%nat).
    { clear E2. induction (k_alloc k) as [|c cs IH]; [reflexivity|]. unfold list_sum in *. cbn [map fold_right length]. change (raw_size (payload KInt32 (VInt (Z.of_nat c)))) with 10%nat. lia. }
    pose proof (hypers_len (k_hyp k)). pose proof (mixing_len (k_mix k)). change (raw_size (payload KInt32 (VInt (Z.of_nat (k_iter k))))) with 10%nat.
    unfold list_sum in *. cbn [fold_right]. lia.
  Qed.
End Facts.
