(** * Semi-HDP: runs that cannot complete - a sampler used twice, data with
    several columns. *)
From Coq Require Import String.
From Coq Require Import Bool List Arith ZArith Reals Lia Lra Permutation.
From Verif Require Import Base XReal Semi SemiWp SemiSpec SemiCount SemiInv SemiInv2 SemiInit SemiStep.
Import ListNotations.
Local Open Scope nat_scope.

(** Undefined, or a result satisfying [Q]. *)
Definition ubor {A} (m : res A) (Q : A -> Prop) : Prop := match m with Ok a => Q a | UB => True | _ => False end.

Lemma ubor_bind : forall A B (m : res A) (k : A -> res B) Q, ubor m (fun a => ubor (k a) Q) -> ubor (rbind m k) Q.
Proof. intros A B [a| | |] k Q; simpl; auto. Qed.
Lemma ubor_mono : forall A (m : res A) (Q Q' : A -> Prop), ubor m Q -> (forall a, Q a -> Q' a) -> ubor m Q'.
Proof. intros A [a| | |] Q Q'; simpl; auto. Qed.
Lemma ubor_at : forall A (d : A) l i (Q : A -> Prop), (i < length l -> Q (nth i l d)) -> ubor (at_ l i) Q.
Proof.
  intros A d l i Q H. unfold at_. destruct (nth_error l i) eqn:E; simpl; auto. rewrite (nth_error_nth _ _ d E) in H. apply H.
  apply nth_error_Some. congruence.
Qed.
Lemma ubor_set : forall A (l : list A) i x (Q : list A -> Prop), (i < length l -> Q (upd l i x)) -> ubor (set_at l i x) Q.
Proof. intros. unfold set_at. destruct (Nat.ltb_spec i (length l)); simpl; auto. Qed.
Lemma ubor_at2 : forall A (d : A) l i j (Q : A -> Prop), (i < length l -> j < length (nth i l []) -> Q (nth j (nth i l []) d)) -> ubor (at2 l i j) Q.
Proof. intros. unfold at2. apply ubor_bind. apply ubor_at with (d := []). intros. apply ubor_at with (d := d). auto. Qed.
Lemma ubor_rfold : forall A B (f : B -> A -> res B) l (Inv : B -> Prop) b (Q : B -> Prop),
  Inv b -> (forall b x, In x l -> Inv b -> ubor (f b x) Inv) -> (forall b, Inv b -> Q b) -> ubor (rfold f l b) Q.
Proof.
  induction l as [|a l IH]; intros Inv b Q Hb Hf HQ; [simpl; auto|]. cbn [rfold]. apply ubor_bind.
  eapply ubor_mono; [apply Hf; [left; reflexivity|exact Hb]|]. intros b' Hb'. eapply IH; eauto. intros. apply Hf; auto. right; auto.
Qed.
Lemma ubor_seq : forall B (f : B -> nat -> res B) n (Inv : nat -> B -> Prop) b k (Q : B -> Prop),
  Inv k b -> (forall m b, k <= m < k + n -> Inv m b -> ubor (f b m) (Inv (S m))) -> (forall b, Inv (k + n) b -> Q b) -> ubor (rfold f (seq k n) b) Q.
Proof.
  induction n as [|n IH]; intros Inv b k Q Hb Hf HQ; [simpl; apply HQ; rewrite Nat.add_0_r; auto|].
  cbn [seq rfold]. apply ubor_bind. eapply ubor_mono; [apply Hf; [lia|exact Hb]|]. intros b' Hb'. apply IH with (Inv := Inv); auto.
  - intros. apply Hf; auto. lia.
  - intros. apply HQ. rewrite <- Nat.add_succ_comm. auto.
Qed.
Lemma ubor_for : forall B (f : B -> nat -> res B) n (Inv : nat -> B -> Prop) b (Q : B -> Prop),
  Inv 0 b -> (forall m b, m < n -> Inv m b -> ubor (f b m) (Inv (S m))) -> (forall b, Inv n b -> Q b) -> ubor (rfold f (seq 0 n) b) Q.
Proof. intros B f n Inv b Q H0 Hs HQ. apply ubor_seq with (Inv := Inv); auto. intros. apply Hs; auto. lia. Qed.
Lemma ubor_rmap : forall A B (f : A -> res B) l (Q : list B -> Prop), (forall x, In x l -> ubor (f x) (fun _ => True)) -> (forall ys, length ys = length l -> Q ys) -> ubor (rmap f l) Q.
Proof.
  induction l as [|a l IH]; intros Q Hf HQ; [simpl; auto|]. cbn [rmap]. apply ubor_bind.
  eapply ubor_mono; [apply Hf; left; reflexivity|]. intros y _. apply ubor_bind. apply IH; [intros; apply Hf; right; auto|].
  intros ys L. simpl. apply HQ. simpl. lia.
Qed.
Lemma ubor_false : forall A (m : res A), ubor m (fun _ => False) -> m = UB.
Proof. intros A [a| | |] H; simpl in H; tauto. Qed.

Section Twice.
Variable I : SH.
Variable P : params.
Variable data : list (list (Datum I)).
Notation sst := (sst I).
Notation ng := (length data).

Lemma ubor_nby : forall i (Q : nat -> Prop), (i < ng -> Q (length (nth i data []) * cols I)) -> ubor (nby I data i) Q.
Proof. intros i Q H. unfold nby. apply ubor_bind. apply ubor_at with (d := []). intros. simpl. auto. Qed.
Lemma ubor_row : forall i j (Q : Datum I -> Prop), (forall d, Q d) -> ubor (row I data i j) Q.
Proof.
  intros i j Q H. unfold row, at2, at_. destruct (nth_error data i) as [x|]; cbn [rbind ubor]; auto. destruct (nth_error x j); cbn [ubor]; auto.
Qed.

(** Lengths of the table lists and of the private maps. *)
Definition rows (L T : nat -> nat) (s : sst) : Prop :=
  length (s_rest I s) = ng /\ length (s_tp I s) = ng /\ (forall r, r < ng -> length (nth r (s_rest I s) []) = L r) /\ forall r, r < ng -> length (nth r (s_tp I s) []) = T r.

Lemma ubor_by_table : forall s r L T (Q : list (list (Datum I)) -> Prop), rows L T s -> r < ng -> (forall b, length b = L r -> Q b) -> ubor (by_table I data s r) Q.
Proof.
  intros s r L T Q (H1 & H2 & H3 & H4) Hr HQ. unfold by_table. apply ubor_bind. apply ubor_at with (d := []). intros _.
  apply ubor_rfold with (Inv := fun b => length b = L r); auto.
  - rewrite repeat_length. auto.
  - intros b i _ Hb. apply ubor_bind. apply ubor_at with (d := 0). intros _. destruct (_ =? r); [|exact Hb].
    apply ubor_bind. apply ubor_nby. intros _. apply ubor_rfold with (Inv := fun b => length b = L r); auto.
    intros b' j _ Hb'. apply ubor_bind. apply ubor_at2 with (d := 0). intros _ _. apply ubor_bind. apply ubor_row. intros d.
    apply ubor_bind. apply ubor_at with (d := []). intros _. apply ubor_set. intros _. rewrite upd_length. exact Hb'.
Qed.

Lemma ubor_table : forall r dbt L T a l, rows L T (fst (fst a)) -> r < ng ->
  ubor (unique_table I r dbt a l) (fun a' => rows L T (fst (fst a')) /\ l < T r).
Proof.
  intros r dbt L T ((s & dbs) & g) l (H1 & H2 & H3 & H4) Hr. cbn [fst] in *. unfold unique_table.
  apply ubor_bind. apply ubor_at2 with (d := None). intros _ Hl. rewrite (H4 r Hr) in Hl. apply ubor_bind. apply ubor_at with (d := []). intros _.
  destruct (nth l (nth r (s_tp I s) []) None) as [k|].
  - apply ubor_bind. apply ubor_at2 with (d := 0). intros _ _. apply ubor_bind. unfold redraw.
    destruct (match nth l dbt [] with [] => samp_prior I g | _ => samp_full I (nth l dbt []) g end) as [x g'].
    apply ubor_bind. apply ubor_set. intros _. cbn [ubor]. apply ubor_bind. unfold set2. apply ubor_bind. apply ubor_at with (d := []). cbn [w_heap s_rest]. intros _.
    apply ubor_bind. apply ubor_set. intros _. apply ubor_set. intros Hlt. cbn [ubor fst]. split; auto.
    unfold rows. cbn [w_rest w_heap s_rest s_tp]. rewrite upd_length. do 2 (split; [assumption|]). split; [|assumption].
    intros r' Hr'. rewrite nth_upd. destruct (Nat.eqb_spec r' r) as [->|N]; cbn [andb]; auto.
    rewrite (proj2 (Nat.ltb_lt _ _) Hlt), upd_length. auto.
  - apply ubor_bind. apply ubor_at2 with (d := None). intros _ _. destruct (nth l (nth r (s_ts I s) []) None); [|exact Logic.I].
    apply ubor_bind. apply ubor_at with (d := []). intros _. apply ubor_bind. apply ubor_set. intros _. cbn [ubor fst]. repeat split; auto.
Qed.

Lemma ubor_unique_rest : forall r L T a, rows L T (fst (fst a)) -> r < ng ->
  ubor (unique_rest I data a r) (fun a' => rows L T (fst (fst a')) /\ L r <= T r).
Proof.
  intros r L T ((s & dbs) & g) H Hr. cbn [fst] in *. unfold unique_rest. apply ubor_bind. eapply ubor_by_table; eauto. intros dbt Lb. rewrite Lb.
  apply ubor_for with (Inv := fun m a => rows L T (fst (fst a)) /\ m <= T r).
  - split; auto. lia.
  - intros m b Hm [H' Hle]. eapply ubor_mono; [apply ubor_table with (L := L) (T := T); auto|]. cbv beta. intros b' [A B]. split; auto.
  - auto.
Qed.

(** More tables than the maps describe: out of range. *)
Lemma unique_vals_ub : forall s g L T r, rows L T s -> r < ng -> T r < L r -> update_unique_vals I data s g = UB.
Proof.
  intros s g L T r H Hr Hlt. unfold update_unique_vals.
  assert (X : rfold (unique_rest I data) (seq 0 (Semi.ng I data)) (s, repeat [] (length (s_shared I s)), g) = UB).
  { apply ubor_false. apply ubor_for with (Inv := fun m a => rows L T (fst (fst a)) /\ m <= r).
    - split; auto. lia.
    - intros m a Hm [Ha Hle]. change (m < ng) in Hm. eapply ubor_mono; [apply ubor_unique_rest with (L := L) (T := T); auto|]. cbv beta. intros a' [A B]. split; auto.
      destruct (Nat.eq_dec m r); [subst; lia|lia].
    - change (Semi.ng I data) with ng. intros a [_ Hle]. lia. }
  rewrite X. reflexivity.
Qed.

Lemma resize_same : forall A (d : A) l n, length l = n -> resize d n l = l.
Proof. intros A d l n <-. unfold resize. rewrite firstn_all, Nat.sub_diag. apply app_nil_r. Qed.

(** A second initialisation appends ten tables to those already there. *)
Lemma ubor_init_again : forall s g, length (s_rest I s) = ng ->
  ubor (initialize I P data s g) (fun q => rows (fun r => length (nth r (s_rest I s) []) + 10) (fun _ => 10) (fst q)).
Proof.
  intros s g Hs. unfold initialize.
  match goal with |- context [new_objs I INIT ?t g] => destruct (new_objs_spec I INIT t g) as (xs & g2 & Lx & ->) end.
  cbv zeta. apply ubor_bind. change (Semi.ng I data) with ng.
  apply ubor_for with (Inv := fun m q => length (s_rest I (fst q)) = ng /\ length (s_tp I (fst q)) = ng /\
     (forall r, r < ng -> length (nth r (s_rest I (fst q)) []) = length (nth r (s_rest I s) []) + if r <? m then 10 else 0) /\
     (forall r, r < m -> length (nth r (s_tp I (fst q)) []) = 10)).
  - cbn [fst w_shared w_heap s_rest s_tp]. rewrite !resize_length. rewrite resize_same by auto. do 2 (split; [auto|]). split; [|intros; lia]. intros. cbn. lia.
  - intros m [s1 g1] Hm (H1 & H2 & H3 & H4). cbn [fst] in *. unfold init_group. apply ubor_bind. apply ubor_nby. intros _.
    apply ubor_bind. apply ubor_set. intros _. apply ubor_bind. apply ubor_set. intros _. destruct (_ <? INIT); [exact Logic.I|].
    destruct (init_draws I _ g1) as [ds g3]. apply ubor_bind. apply ubor_set. intros _.
    match goal with |- context [new_objs I INIT ?t g3] => destruct (new_objs_spec I INIT t g3) as (ys & g4 & Ly & ->) end.
    cbn [w_tab w_ra w_heap s_heap s_priv s_rest s_shared s_tp s_ts].
    apply ubor_bind. apply ubor_at with (d := []). intros _. apply ubor_bind. apply ubor_at with (d := []). intros _.
    apply ubor_bind. apply ubor_rmap; [intros; apply ubor_at with (d := 0); auto|]. intros sh Lsh. rewrite seq_length in Lsh.
    apply ubor_bind. apply ubor_set. intros _. apply ubor_bind. apply ubor_set. intros _. apply ubor_bind. apply ubor_set. intros _. apply ubor_bind. apply ubor_set. intros _.
    cbn [ubor fst w_ts w_tp w_rest w_priv w_heap w_tab w_ra s_rest s_tp]. rewrite !upd_length. do 2 (split; auto). split.
    + intros r Hr. rewrite nth_upd, ltb_S, H1. destruct (Nat.eqb_spec r m) as [->|N]; cbn [andb orb]; auto.
      rewrite (proj2 (Nat.ltb_lt _ _) Hm), !app_length, H3, Nat.ltb_irrefl, seq_length, Lsh by auto. unfold INIT. lia.
    + intros r Hr. rewrite nth_upd, H2. destruct (Nat.eqb_spec r m) as [->|N]; cbn [andb].
      * rewrite (proj2 (Nat.ltb_lt _ _) Hm). reflexivity.
      * apply H4. lia.
  - intros [s4 g4] (H1 & H2 & H3 & H4). cbn [fst] in *. apply ubor_bind.
    assert (R4 : rows (fun r => length (nth r (s_rest I s) []) + 10) (fun _ => 10) s4).
    { split; auto. split; auto. split; auto. intros r Hr. rewrite H3 by auto. rewrite (proj2 (Nat.ltb_lt _ _) Hr). reflexivity. }
    apply ubor_rfold with (Inv := rows (fun r => length (nth r (s_rest I s) []) + 10) (fun _ => 10)).
    + exact R4.
    + intros s5 i _ R5. apply ubor_bind. apply ubor_at with (d := []). intros _. apply ubor_bind. apply ubor_nby. intros _.
      apply ubor_bind. apply ubor_rfold with (Inv := fun _ => True); auto.
      * intros b j _ _. apply ubor_bind. apply ubor_at2 with (d := 0). intros _ _. unfold add1. apply ubor_bind. apply ubor_at with (d := 0%Z). intros _. apply ubor_set. intros _. exact Logic.I.
      * intros b _. apply ubor_bind. apply ubor_set. intros _. exact R5.
    + intros s6 R6. exact R6.
Qed.

Lemma run_again_ub : forall pseudo A (wr : St I -> res A) adapt_iter burnin iter thin s g, length (s_rest I s) = ng ->
  (exists r, r < ng /\ nth r (s_rest I s) [] <> []) -> run I P data pseudo wr adapt_iter burnin iter thin s g = UB.
Proof.
  intros pseudo A wr ad bu it th s g Hs (r & Hr & Hn). unfold run. destruct pseudo as [|p0 pt]; [reflexivity|].
  pose proof (ubor_init_again s g Hs) as X. destruct (initialize I P data s g) as [(s1 & g1)| | |]; cbn [ubor rbind] in *; try contradiction; try reflexivity. cbn [fst] in X.
  erewrite unique_vals_ub; [reflexivity|exact X|exact Hr|]. cbv beta. destruct (nth r (s_rest I s) []); [congruence|simpl; lia].
Qed.

(** ** Several columns *)
Lemma by_table_cols : forall s, iinv I data ng s -> data <> [] -> nth 0 data [] <> [] -> 2 <= cols I -> by_table I data s 0 = UB.
Proof.
  intros s [L O] Hd H0 Hc. assert (Hp : 0 < ng) by (destruct data; [congruence|simpl; lia]).
  assert (Hd0 : 0 < length (nth 0 data [])) by (destruct (nth 0 data []); [congruence|simpl; lia]).
  unfold by_table. pose proof (ls_rest _ _ _ L). pose proof (ls_ra _ _ _ L). pose proof (ls_tab _ _ _ L). rewrite (at_ok _ []) by lia. cbn [rbind].
  destruct (opened_row I data s 0 O Hp) as [-> _]. change (length (seq (5 + 5 * 0) 5 ++ seq 0 5)) with 10. change (Semi.ng I data) with ng.
  replace ng with (S (ng - 1)) at 1 by lia. cbn [seq rfold]. rewrite (at_ok _ 0) by lia. cbn [rbind].
  rewrite (proj1 (op_ra _ _ _ _ O 0 Hp)), Nat.eqb_refl, nby_val by auto. cbn [rbind].
  set (n := length (nth 0 data [])) in *. destruct (op_tab _ _ _ _ O 0 Hp) as (ds & Et & Ld & Fd). fold n in Ld.
  assert (Lt : length (nth 0 (s_tab I s) []) = n * cols I) by (rewrite Et, <- Ld; reflexivity).
  assert (Hin : forall j, j < n * cols I -> nth j (nth 0 (s_tab I s) []) 0 < 10).
  { intros j Hj. assert (F : Forall (fun t => t < 10) (nth 0 (s_tab I s) [])).
    { rewrite Et. apply Forall_app. split; [apply Forall_forall; intros x Hx; apply in_seq0 in Hx; lia|]. eapply Forall_impl; [|exact Fd]. cbv beta. intros; lia. }
    apply Forall_nth' with (1 := F). lia. }
  assert (Hn : n < n * cols I) by nia.
  match goal with |- rbind (rfold ?f (seq 0 (n * cols I)) ?b) _ = _ => assert (X : rfold f (seq 0 (n * cols I)) b = UB) end.
  { apply ubor_false. apply ubor_for with (Inv := fun m _ => m <= n); [lia| |intros; lia].
    intros m b Hm Hle. apply ubor_bind. apply ubor_at2 with (d := 0). intros _ _. apply ubor_bind.
    destruct (Nat.eq_dec m n) as [->|N].
    - unfold row, at2. rewrite (at_ok _ []) by lia. cbn [rbind]. unfold at_. rewrite (proj2 (nth_error_None (nth 0 data []) n)) by (apply Nat.le_refl). exact Logic.I.
    - apply ubor_row. intros d. apply ubor_bind. apply ubor_at with (d := []). intros _. apply ubor_set. intros _. lia. }
  rewrite X. reflexivity.
Qed.

Lemma run_cols_ub : forall pseudo A (wr : St I -> res A) adapt_iter burnin iter thin g, gen_ok I -> data <> [] ->
  (forall d, In d data -> d <> []) -> 2 <= cols I -> run I P data pseudo wr adapt_iter burnin iter thin (fresh I) g = UB.
Proof.
  intros pseudo A wr ad bu it th g HG Hd Hne Hc. unfold run. destruct pseudo as [|p0 pt]; [reflexivity|].
  assert (Hp : 0 < ng) by (destruct data; [congruence|simpl; lia]).
  assert (X : initialize I P data (fresh I) g = UB \/ exists s g', initialize I P data (fresh I) g = Ok (s, g') /\ iinv I data ng s).
  { destruct (Exists_dec (fun i => length (nth i data []) * cols I < 5) (seq 0 ng)) as [E|N].
    - intros i. destruct (lt_dec (length (nth i data []) * cols I) 5); auto.
    - left. apply Exists_exists in E. destruct E as (i & Hi & Hs). apply in_seq0 in Hi. apply initialize_short with (i := i); auto.
    - right. destruct (ok_inv _ _ _ (ok_initialize I P data HG g (fun q => iinv I data ng (fst q)) ltac:(intros i Hi; destruct (le_lt_dec 5 (length (nth i data []) * cols I)); auto; exfalso; apply N; apply Exists_exists; exists i; split; [apply in_seq; lia|auto]) ltac:(intros; cbn [fst]; auto))) as ((s & g') & E & Q).
      exists s, g'. auto. }
  destruct X as [->|(s & g' & -> & Hi)]; [reflexivity|]. cbn [rbind]. unfold update_unique_vals. change (Semi.ng I data) with ng.
  replace ng with (S (ng - 1)) at 1 by lia. cbn [seq rfold]. unfold unique_rest at 1. rewrite by_table_cols; auto. apply Hne. apply nth_In. exact Hp.
Qed.

End Twice.
