(** * Semi-HDP: the structural invariant, part 3: tables moving between shared
    atoms, observations moving between tables. *)
From Coq Require Import String.
From Coq Require Import Bool List Arith ZArith Reals Lia Permutation.
From Verif Require Import Base XReal Semi SemiWp SemiSpec SemiCount SemiInv SemiInv2.
Import ListNotations.
Local Open Scope nat_scope.

(** ** Counting *)
Definition occ (l : list nat) (x : nat) : Z := Z.of_nat (count_occ Nat.eq_dec l x).
Definition hit (a x : nat) : Z := if a =? x then 1%Z else 0%Z.

Lemma hit_refl : forall x, hit x x = 1%Z.
Proof. intros x. unfold hit. rewrite Nat.eqb_refl. reflexivity. Qed.
Lemma hit_ne : forall a x, a <> x -> hit a x = 0%Z.
Proof. intros a x H. unfold hit. apply Nat.eqb_neq in H. rewrite H. reflexivity. Qed.

Lemma occ_nil : forall x, occ [] x = 0%Z.
Proof. reflexivity. Qed.
Lemma occ_cons : forall a l x, occ (a :: l) x = (hit a x + occ l x)%Z.
Proof.
  intros a l x. unfold occ, hit. cbn [count_occ]. destruct (Nat.eq_dec a x) as [->|N].
  - rewrite Nat.eqb_refl. lia.
  - apply Nat.eqb_neq in N. rewrite N. lia.
Qed.
Lemma occ_app : forall l l' x, occ (l ++ l') x = (occ l x + occ l' x)%Z.
Proof. intros l l' x. unfold occ. rewrite count_occ_app. lia. Qed.

Lemma occ_upd : forall l j y x, j < length l -> occ (upd l j y) x = (occ l x - hit (nth j l O) x + hit y x)%Z.
Proof.
  induction l as [|a l IH]; intros j y x H; simpl in H; [lia|]. destruct j; cbn [upd nth].
  - rewrite !occ_cons. lia.
  - rewrite !occ_cons, IH by lia. lia.
Qed.

Lemma occ_flat : forall n (f f' : nat -> list nat) i x, i < n -> (forall k, k < n -> k <> i -> f' k = f k) ->
  occ (flat_map f' (seq 0 n)) x = (occ (flat_map f (seq 0 n)) x - occ (f i) x + occ (f' i) x)%Z.
Proof.
  induction n as [|n IH]; intros f f' i x Hi Hf; [lia|]. rewrite !flat_map_seq_S, !occ_app.
  destruct (Nat.eq_dec i n) as [->|N].
  - assert (E : flat_map f' (seq 0 n) = flat_map f (seq 0 n)).
    { clear IH Hi. assert (X : forall k, In k (seq 0 n) -> f' k = f k) by (intros k Hk; apply in_seq0 in Hk; apply Hf; lia).
      revert X. generalize (seq 0 n). intros l. induction l as [|a l IHl]; intros X; simpl; auto.
      rewrite X by (left; auto). f_equal. apply IHl. intros; apply X; right; auto. }
    rewrite E. lia.
  - rewrite (IH f f' i x) by (try lia; intros; apply Hf; lia). rewrite (Hf n) by lia. lia.
Qed.

Lemma occ_absent : forall l x, ~ In x l -> occ l x = 0%Z.
Proof. intros l x H. unfold occ. apply count_occ_not_In with (eq_dec := Nat.eq_dec) in H. lia. Qed.

Lemma nth_tally : forall n l x d, nth x (tally n l) d = if x <? n then occ l x else d.
Proof.
  intros n l x d. unfold tally, occ. destruct (Nat.ltb_spec x n) as [H|H].
  - rewrite (nth_indep _ d (Z.of_nat (count_occ Nat.eq_dec l 0))) by (rewrite map_length, seq_length; auto).
    rewrite (map_nth (fun k => Z.of_nat (count_occ Nat.eq_dec l k))), seq_nth by auto. reflexivity.
  - apply nth_overflow. rewrite map_length, seq_length. auto.
Qed.

Lemma tally_eq : forall n l v, length v = n -> (forall x, x < n -> nth x v 0%Z = occ l x) -> v = tally n l.
Proof.
  intros n l v L H. apply (list_eq_nth _ 0%Z); [rewrite L; unfold tally; rewrite map_length, seq_length; auto|].
  intros x Hx. rewrite nth_tally. rewrite L in Hx. rewrite H by auto. apply Nat.ltb_lt in Hx. rewrite Hx. reflexivity.
Qed.

Lemma somes_app : forall A (l l' : list (option A)), somes (l ++ l') = somes l ++ somes l'.
Proof. intros. unfold somes. apply flat_map_app. Qed.

Lemma occ_somes_upd : forall l j h y x, j < length l -> nth j l None = Some h ->
  occ (somes (upd l j (Some y))) x = (occ (somes l) x - hit h x + hit y x)%Z.
Proof.
  induction l as [|a l IH]; intros j h y x H E; simpl in H; [lia|]. destruct j; cbn [upd nth] in *.
  - subst a. change (somes (Some y :: l)) with (y :: somes l). change (somes (Some h :: l)) with (h :: somes l). rewrite !occ_cons. lia.
  - destruct a as [a|]; [change (somes (Some a :: upd l j (Some y))) with (a :: somes (upd l j (Some y))); change (somes (Some a :: l)) with (a :: somes l)
      |change (somes (None :: upd l j (Some y))) with (somes (upd l j (Some y))); change (somes (None :: l)) with (somes l)];
    rewrite ?occ_cons, (IH j h) by (auto; lia); lia.
Qed.

Lemma nth_upd_row : forall A (l : list A) n r x r' d, length l = n -> r < n ->
  nth r' (upd l r x) d = if r' =? r then x else nth r' l d.
Proof. intros A l n r x r' d L H. rewrite nth_upd, L. apply Nat.ltb_lt in H. rewrite H, andb_true_r. reflexivity. Qed.

(** ** Rows *)
Lemma row_ok_reseat : forall hn sn rt pv ts tp l h, row_ok hn sn rt pv ts tp -> nth l tp None = None -> h < sn ->
  row_ok hn sn rt pv (upd ts l (Some h)) tp.
Proof.
  intros hn sn rt pv ts tp l h [A B C D E F G] Ht Hh. constructor; auto; [rewrite upd_length; auto|].
  intros k Hk. rewrite nth_upd. destruct (Nat.eqb_spec k l) as [->|N]; cbn [andb]; [|apply E; auto].
  assert (X : (l <? length ts) = true) by (apply Nat.ltb_lt; lia). rewrite X, Ht. exact Hh.
Qed.

Lemma nth_snoc : forall A (l : list A) x k d, nth k (l ++ [x]) d = if k =? length l then x else nth k l d.
Proof.
  intros A l x k d. destruct (Nat.eqb_spec k (length l)) as [->|N].
  - rewrite app_nth2, Nat.sub_diag by lia. reflexivity.
  - destruct (Nat.lt_ge_cases k (length l)) as [H|H]; [apply app_nth1; auto|].
    rewrite !nth_overflow; auto. rewrite app_length. simpl. lia.
Qed.

Lemma row_ok_open_private : forall hn sn rt pv ts tp, row_ok hn sn rt pv ts tp ->
  row_ok (S hn) sn (rt ++ [hn]) (pv ++ [hn]) (ts ++ [None]) (tp ++ [Some (length pv)]).
Proof.
  intros hn sn rt pv ts tp H. pose proof (fun l k => row_priv_lt _ _ _ _ _ _ l k H) as Hp. destruct H as [A B C D E F G]. constructor; rewrite ?app_length; cbn [length]; try lia.
  - apply Forall_app. split; [eapply Forall_impl; [|exact C]; simpl; intros; lia|constructor; auto].
  - apply Forall_app. split; [eapply Forall_impl; [|exact D]; simpl; intros; lia|constructor; auto].
  - intros l Hl. rewrite !nth_snoc, A, B. destruct (Nat.eqb_spec l (length rt)) as [->|N]; [exact Logic.I|]. apply E. lia.
  - rewrite somes_app. rewrite Nat.add_1_r, seq_S. apply Permutation_app; auto.
  - intros l k Hl. rewrite !nth_snoc, B. destruct (Nat.eqb_spec l (length rt)) as [->|N].
    + intros X. injection X as <-. rewrite Nat.eqb_refl. reflexivity.
    + intros X. assert (Hk : k < length pv) by (apply (Hp l); auto; lia).
      destruct (Nat.eqb_spec k (length pv)); [lia|]. apply G; auto. lia.
Qed.

Lemma row_ok_open_shared : forall hn sn rt pv ts tp o h, row_ok hn sn rt pv ts tp -> o < hn -> h < sn ->
  row_ok hn sn (rt ++ [o]) pv (ts ++ [Some h]) (tp ++ [None]).
Proof.
  intros hn sn rt pv ts tp o h [A B C D E F G] Ho Hh. constructor; rewrite ?app_length; cbn [length]; try lia; auto.
  - apply Forall_app. split; auto.
  - intros l Hl. rewrite !nth_snoc, A, B. destruct (Nat.eqb_spec l (length rt)) as [->|N]; [exact Hh|]. apply E. lia.
  - rewrite somes_app. simpl. rewrite app_nil_r. auto.
  - intros l k Hl. rewrite !nth_snoc, B. destruct (Nat.eqb_spec l (length rt)) as [->|N]; [discriminate|]. intros X. apply G; auto. lia.
Qed.

Section Inv3.
Variable I : SH.
Variable P : params.
Variable data : list (list (Datum I)).
Notation sst := (sst I).
Notation ng := (length data).
Notation wf := (wf I data).
Hypothesis Hcols : cols I = 1.
Hypothesis Hdata : forall d, In d data -> d <> [].
Hypothesis HG : gen_ok I.

Lemma wf_w_m : forall s m, wf s -> wf (w_m I m s).
Proof. intros s m H. destruct H; constructor; auto. Qed.

(** ** [update_to_shared] *)

Definition m_exact (s : sst) : Prop := s_m I s = tally (length (s_shared I s)) (dishes I data s).

Lemma dishes_occ : forall s r l h y x, wf s -> r < ng -> l < length (nth r (s_ts I s) []) -> nth l (nth r (s_ts I s) []) None = Some h ->
  occ (dishes I data (w_ts I (upd (s_ts I s) r (upd (nth r (s_ts I s) []) l (Some y))) s)) x = (occ (dishes I data s) x - hit h x + hit y x)%Z.
Proof.
  intros s r l h y x H Hr Hl E. pose proof (wf_tsl _ _ _ H) as Lt. unfold dishes. cbn [w_ts s_ts].
  rewrite (occ_flat _ (fun r0 => somes (nth r0 (s_ts I s) [])) _ r x); auto.
  - cbv beta. rewrite nth_upd_same by lia. rewrite (occ_somes_upd _ l h) by auto. lia.
  - intros k Hk N. cbv beta. rewrite nth_upd_other by auto. reflexivity.
Qed.

(** What [update_to_shared] leaves alone. *)
Definition same_seats (s s' : sst) : Prop :=
  s_rest I s' = s_rest I s /\ s_priv I s' = s_priv I s /\ s_n I s' = s_n I s /\ s_tab I s' = s_tab I s /\ s_ra I s' = s_ra I s /\
  s_used I s' = s_used I s /\ s_tp I s' = s_tp I s /\ s_conc I s' = s_conc I s /\ s_w I s' = s_w I s.

Lemma same_seats_trans : forall a b c, same_seats a b -> same_seats b c -> same_seats a c.
Proof. intros a b c (A1&A2&A3&A4&A5&A6&A7&A8&A9) (B1&B2&B3&B4&B5&B6&B7&B8&B9). repeat split; congruence. Qed.

Lemma ok_shared_table : forall r dbt s g l (Q : sst * Gs I -> Prop), wf s -> m_exact s -> r < ng ->
  length dbt = length (nth r (s_rest I s) []) -> l < length dbt ->
  (forall s' g', wf s' -> m_exact s' -> same_seats s s' -> Q (s', g')) ->
  ok (shared_table I P r dbt (s, g) l) Q.
Proof.
  intros r dbt s g l Q H M Hr Ld Hl HQ. unfold shared_table.
  pose proof (wf_row _ _ _ H r Hr) as R. pose proof (ro_ts _ _ _ _ _ _ R) as Rts. pose proof (wf_tsl _ _ _ H) as Lts.
  apply ok_bind. apply ok_at2 with (d := None); [lia|lia|]. apply ok_bind. apply ok_at with (d := []); auto.
  destruct (nth l (nth r (s_ts I s) []) None) as [h|] eqn:Eh; [|apply HQ; auto; repeat split].
  destruct (nth l dbt []) as [|d ds] eqn:Ed; [apply HQ; auto; repeat split|].
  pose proof (row_ts_lt _ _ _ _ _ _ R) as Fts. rewrite Forall_forall in Fts.
  assert (Hh : h < length (s_shared I s)) by (apply Fts; apply somes_nth; exists l; split; [lia|auto]).
  assert (Lm : length (s_m I s) = length (s_shared I s)) by (rewrite M; unfold tally; rewrite map_length, seq_length; auto).
  assert (Etp : nth l (nth r (s_tp I s) []) None = None).
  { pose proof (ro_one _ _ _ _ _ _ R l ltac:(lia)) as O. rewrite Eh in O. destruct (nth l (nth r (s_tp I s) []) None); tauto. }
  apply ok_bind. apply ok_add1; [lia|]. set (m := upd (s_m I s) h _).
  assert (Lm' : length m = length (s_shared I s)) by (unfold m; rewrite upd_length; auto).
  apply ok_bind. apply ok_rmap_any.
  { intros k Hk. apply in_seq0 in Hk. apply ok_bind. apply ok_at with (d := 0%Z); [lia|]. apply ok_bind. apply ok_at with (d := 0); auto.
    pose proof (Forall_nth' _ _ 0 _ k (wf_shared _ _ _ H) Hk) as X. cbv beta in X.
    apply ok_bind. unfold at_. destruct (nth_error (s_heap I s) _) eqn:E; [exact Logic.I|]. apply nth_error_None in E. lia. }
  intros ps Lp. rewrite seq_length in Lp.
  match goal with |- context [cat I ?q g] => pose proof (go_cat _ HG q g ltac:(intros X; apply app_eq_nil in X; destruct X; discriminate)) as Ct; rewrite app_length in Ct; destruct (cat I q g) as [y g1] end.
  cbn [fst length] in Ct. rewrite Lp, Nat.add_1_r in Ct.
  apply ok_bind. apply ok_set2; [lia|lia|].
  assert (Hocc : forall x, occ (dishes I data (w_ts I (upd (s_ts I s) r (upd (nth r (s_ts I s) []) l (Some y))) s)) x = (occ (dishes I data s) x - hit h x + hit y x)%Z).
  { intros x. apply dishes_occ; auto. lia. }
  set (ts := upd (s_ts I s) r _) in *.
  assert (Hts : forall r', nth r' ts [] = if r' =? r then upd (nth r (s_ts I s) []) l (Some y) else nth r' (s_ts I s) []).
  { intros r'. apply nth_upd_row with (n := ng); auto. }
  assert (Lt' : length ts = ng) by (unfold ts; rewrite upd_length; auto).
  assert (Hm0 : forall x, x < length (s_shared I s) -> nth x m 0%Z = (occ (dishes I data s) x - hit h x)%Z).
  { intros x Hx. unfold m. rewrite nth_upd. rewrite M, !nth_tally. unfold tally. rewrite map_length, seq_length.
    apply Nat.ltb_lt in Hh. rewrite Hh, andb_true_r. apply Nat.ltb_lt in Hx. rewrite Hx. unfold hit. destruct (Nat.eqb_spec x h) as [->|N].
    - rewrite Nat.eqb_refl. lia.
    - destruct (Nat.eqb_spec h x); [congruence|lia]. }
  destruct (Nat.ltb_spec y (length (s_shared I s))) as [Hy|Hy].
  - apply ok_bind. apply ok_add1; [lia|]. cbn [ok]. apply HQ.
    + destruct H; constructor; cbn; auto. intros r' Hr'. rewrite Hts. destruct (Nat.eqb_spec r' r) as [->|N]; auto.
      apply row_ok_reseat; auto.
    + unfold m_exact. cbn. apply tally_eq; [rewrite upd_length; auto|]. intros x Hx.
      change (dishes I data (w_ts I ts (w_m I _ s))) with (dishes I data (w_ts I ts s)). rewrite Hocc, nth_upd, Lm', Hm0, Hm0 by auto.
      apply Nat.ltb_lt in Hy. rewrite Hy, andb_true_r. unfold hit. destruct (Nat.eqb_spec x y) as [->|N]; [rewrite Nat.eqb_refl; lia|].
      destruct (Nat.eqb_spec y x); [congruence|lia].
    + repeat split.
  - pose proof (wf_objs_lt _ _ _ H) as Olt. destruct (samp_full I (d :: ds) g1) as [x0 g2]. cbn. apply HQ.
    + destruct H; constructor; cbn; auto.
      * apply Forall_app. split; [eapply Forall_impl; [|exact wf_shared]; simpl; intros; rewrite app_length; simpl; lia|].
        constructor; auto. rewrite app_length. simpl. lia.
      * intros r' Hr'. rewrite !app_length. cbn [length]. rewrite Hts. destruct (Nat.eqb_spec r' r) as [->|N].
        -- apply row_ok_reseat; auto; [|lia]. eapply row_ok_grow; [| |exact (wf_row r Hr)]; lia.
        -- eapply row_ok_grow; [| |exact (wf_row r' Hr')]; lia.
      * intros r' Hr'. destruct (wf_pseudo r' Hr') as [X1 X2]. split; auto. eapply Forall_impl; [|exact X2]. simpl. intros. rewrite app_length. simpl. lia.
      * apply alias_push_shared; auto.
    + assert (y = length (s_shared I s)) as -> by lia. unfold m_exact. cbn. apply tally_eq; [rewrite !app_length; simpl; lia|].
      intros x Hx. rewrite app_length in Hx. cbn [length] in Hx. unfold dishes. cbn [w_shared w_heap w_ts w_m s_ts].
      change (flat_map (fun r0 => somes (nth r0 ts [])) (seq 0 ng)) with (dishes I data (w_ts I ts s)). rewrite Hocc, nth_snoc, Lm'.
      destruct (Nat.eqb_spec x (length (s_shared I s))) as [->|N].
      * unfold hit. rewrite Nat.eqb_refl. destruct (Nat.eqb_spec h (length (s_shared I s))); [lia|].
        rewrite occ_absent; [lia|]. intros X. unfold dishes in X. apply in_flat_map in X. destruct X as (r' & Hr' & X). apply in_seq0 in Hr'.
        pose proof (row_ts_lt _ _ _ _ _ _ (wf_row _ _ _ H r' Hr')) as F. rewrite Forall_forall in F. apply F in X. lia.
      * rewrite Hm0 by lia. unfold hit at 3. destruct (Nat.eqb_spec (length (s_shared I s)) x); [congruence|lia].
    + repeat split.
Qed.

Lemma ok_update_to_shared : forall s g (Q : sst * Gs I -> Prop), wf s ->
  (forall s' g', wf s' -> m_exact s' -> same_seats s s' -> Q (s', g')) ->
  ok (update_to_shared I P data s g) Q.
Proof.
  intros s g Q H HQ. unfold update_to_shared. apply ok_bind. apply ok_count_m; [exact Hcols|apply (wf_tsl _ _ _ H)|intros r Hr; eapply row_ts_lt; apply (wf_row _ _ _ H r Hr)|].
  apply ok_for with (Inv := fun _ a => wf (fst a) /\ m_exact (fst a) /\ same_seats s (fst a)).
  - cbn [fst]. split; [apply wf_w_m; auto|]. split; [reflexivity|repeat split].
  - intros r [s1 g1] Hr (H1 & M1 & S1). change (r < ng) in Hr. cbn [fst] in *. apply ok_bind. apply ok_by_table; auto; [apply wf_tabs_in; auto|apply (wf_rest _ _ _ H1)|].
    rewrite map_length, seq_length. set (dbt := map _ _). assert (Ld : length dbt = length (nth r (s_rest I s1) [])) by (unfold dbt; rewrite map_length, seq_length; auto).
    clearbody dbt.
    apply ok_for with (Inv := fun _ a => wf (fst a) /\ m_exact (fst a) /\ same_seats s1 (fst a)).
    + cbn [fst]. split; auto. split; auto. repeat split.
    + intros l [s2 g2] Hl (H2 & M2 & S2). cbn [fst] in *. apply ok_shared_table; auto.
      * rewrite Ld. destruct S2 as (E & _). rewrite E. reflexivity.
      * lia.
      * intros s' g' H' M' S'. cbn [fst]. split; auto. split; auto. eapply same_seats_trans; eauto.
    + intros a (H2 & M2 & S2). split; auto. split; auto. eapply same_seats_trans; eauto.
  - intros [s' g'] (H1 & M1 & S1). apply HQ; auto.
Qed.

End Inv3.
