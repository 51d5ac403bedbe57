(** * Semi-HDP: counting and grouping loops. *)
From Coq Require Import String.
From Coq Require Import Bool List Arith ZArith Reals Lia Permutation.
From Verif Require Import Base XReal Semi SemiWp SemiSpec.
Import ListNotations.
Local Open Scope nat_scope.

Lemma tally_length : forall n l, length (tally n l) = n.
Proof. intros. unfold tally. rewrite map_length, seq_length. reflexivity. Qed.

Lemma tally_nth : forall n l k, k < n -> nth k (tally n l) 0%Z = Z.of_nat (count_occ Nat.eq_dec l k).
Proof.
  intros n l k H. unfold tally.
  rewrite (nth_indep _ 0%Z (Z.of_nat (count_occ Nat.eq_dec l 0))) by (rewrite map_length, seq_length; auto).
  rewrite (map_nth (fun k => Z.of_nat (count_occ Nat.eq_dec l k))). rewrite seq_nth by auto. reflexivity.
Qed.

Lemma tally_nil : forall n, tally n [] = repeat 0%Z n.
Proof.
  intros n. unfold tally. generalize 0. induction n as [|n IH]; intros k; [reflexivity|]. cbn [seq map repeat]. rewrite IH. reflexivity.
Qed.

Lemma list_eq_nth : forall A (d : A) l l', length l = length l' -> (forall k, k < length l -> nth k l d = nth k l' d) -> l = l'.
Proof. intros. apply (nth_ext l l' d d); auto. Qed.

Lemma tally_snoc : forall n l t, t < n -> upd (tally n l) t (nth t (tally n l) 0 + 1)%Z = tally n (l ++ [t]).
Proof.
  intros n l t H. apply list_eq_nth with (d := 0%Z).
  - rewrite upd_length, !tally_length. reflexivity.
  - rewrite upd_length, tally_length. intros k Hk. rewrite nth_upd, tally_length.
    rewrite (tally_nth n (l ++ [t])) by auto. rewrite count_occ_app. simpl.
    apply Nat.ltb_lt in H. rewrite H. destruct (Nat.eqb_spec k t) as [->|N]; cbn [andb].
    + apply Nat.ltb_lt in H. rewrite tally_nth by auto. destruct (Nat.eq_dec t t); [lia|congruence].
    + rewrite tally_nth by auto. destruct (Nat.eq_dec t k); [congruence|]. lia.
Qed.

Lemma firstn_snoc : forall A (d : A) (l : list A) j, j < length l -> firstn (S j) l = firstn j l ++ [nth j l d].
Proof.
  induction l as [|x l IH]; intros j H; simpl in H; [lia|]. destruct j; [reflexivity|]. cbn [firstn app nth]. rewrite <- IH by lia. reflexivity.
Qed.

Lemma flat_map_seq_S : forall A (f : nat -> list A) n, flat_map f (seq 0 (S n)) = flat_map f (seq 0 n) ++ f n.
Proof. intros. rewrite seq_S, flat_map_app. cbn [flat_map Nat.add]. rewrite app_nil_r. reflexivity. Qed.

Section Count.
Variable I : SH.
Variable data : list (list (Datum I)).
Hypothesis Hcols : cols I = 1.
Notation ng := (length data).
Notation sst := (sst I).

Lemma ok_nby : forall i (Q : nat -> Prop), i < ng -> Q (length (nth i data [])) -> ok (nby I data i) Q.
Proof.
  intros i Q Hi HQ. unfold nby. apply ok_bind. apply ok_at with (d := []); auto. simpl. rewrite Hcols, Nat.mul_1_r. exact HQ.
Qed.

Lemma ok_row : forall i j (Q : Datum I -> Prop), i < ng -> j < length (nth i data []) ->
  (forall d, nth_error (nth i data []) j = Some d -> Q d) -> ok (row I data i j) Q.
Proof.
  intros i j Q Hi Hj HQ. unfold row, at2. apply ok_bind. apply ok_at with (d := []); auto.
  unfold at_. destruct (nth_error (nth i data []) j) eqn:E; [simpl; auto|]. apply nth_error_None in E. lia.
Qed.

(** Allocations of every group are in range of its restaurant. *)
Definition tabs_in (s : sst) : Prop :=
  length (s_tab I s) = ng /\ length (s_ra I s) = ng /\
  forall i, i < ng -> length (nth i (s_tab I s) []) = length (nth i data []) /\
    Forall (fun t => t < length (nth (nth i (s_ra I s) 0) (s_rest I s) [])) (nth i (s_tab I s) []).

Lemma wf_tabs_in : forall s, wf I data s -> tabs_in s.
Proof. intros s H. split; [apply (wf_tabl _ _ _ H)|]. split; [apply (wf_ral _ _ _ H)|]. apply (wf_tab _ _ _ H). Qed.

Lemma Forall_nth' : forall A (Pr : A -> Prop) d l k, Forall Pr l -> k < length l -> Pr (nth k l d).
Proof. intros A Pr d l k H Hk. rewrite Forall_forall in H. apply H. apply nth_In. exact Hk. Qed.

Lemma ok_count_row : forall s r (Q : list Z -> Prop), tabs_in s -> length (s_rest I s) = ng -> r < ng ->
  Q (tally (length (nth r (s_rest I s) [])) (seated I data s r)) -> ok (count_n_row I data s r) Q.
Proof.
  intros s r Q (Ht & Hra & Hin) Hl Hr HQ. unfold count_n_row. apply ok_bind. apply ok_at with (d := []); [lia|].
  set (K := length (nth r (s_rest I s) [])) in *.
  apply ok_for with (Inv := fun m acc => acc = tally K (flat_map (fun i => if nth i (s_ra I s) 0 =? r then nth i (s_tab I s) [] else []) (seq 0 m))).
  - symmetry. apply tally_nil.
  - intros m acc Hm ->. apply ok_bind. apply ok_at with (d := 0); [unfold Semi.ng in Hm; lia|]. change (m < ng) in Hm.
    rewrite flat_map_seq_S. destruct (Nat.eqb_spec (nth m (s_ra I s) 0) r) as [E|E].
    + apply ok_bind. apply ok_nby; auto. destruct (Hin m Hm) as [L F]. rewrite <- L.
      set (prev := flat_map _ _). set (rowm := nth m (s_tab I s) []).
      apply ok_for with (Inv := fun j acc => acc = tally K (prev ++ firstn j rowm)).
      * simpl. rewrite app_nil_r. reflexivity.
      * intros j acc Hj ->. apply ok_bind. apply ok_at2 with (d := 0); [lia|exact Hj|]. fold rowm.
        assert (nth j rowm 0 < K).
        { unfold K. rewrite <- E. apply Forall_nth' with (1 := F). exact Hj. }
        apply ok_add1; [rewrite tally_length; auto|]. rewrite tally_snoc by auto. rewrite (firstn_snoc _ 0) by auto.
        rewrite app_assoc. reflexivity.
      * intros b ->. rewrite firstn_all. reflexivity.
    + simpl. rewrite app_nil_r. reflexivity.
  - intros b ->. exact HQ.
Qed.

Lemma upd_firstn : forall A (l l' : list A) k x, k < length l -> length l = length l' ->
  upd (firstn k l' ++ skipn k l) k x = firstn k l' ++ x :: skipn (S k) l.
Proof.
  induction l as [|a l IH]; intros l' k x H E; simpl in H; [lia|].
  destruct l' as [|a' l']; [discriminate|]. destruct k; [reflexivity|]. cbn [firstn skipn app upd]. f_equal.
  apply (IH l' k x); [lia|]. simpl in E. lia.
Qed.

Lemma skipn_all' : forall A (l : list A) n, length l <= n -> skipn n l = [].
Proof. intros. apply skipn_all2. exact H. Qed.

Definition all_counts (s : sst) : list (list Z) :=
  map (fun r => tally (length (nth r (s_rest I s) [])) (seated I data s r)) (seq 0 ng).

Lemma w_n_n : forall (s : sst) x y, w_n I x (w_n I y s) = w_n I x s.
Proof. reflexivity. Qed.
Lemma s_n_w_n : forall (s : sst) x, s_n I (w_n I x s) = x.
Proof. reflexivity. Qed.
Lemma w_n_same : forall s : sst, w_n I (s_n I s) s = s.
Proof. intros []; reflexivity. Qed.

Lemma all_counts_length : forall s, length (all_counts s) = ng.
Proof. intros. unfold all_counts. rewrite map_length, seq_length. reflexivity. Qed.
Lemma all_counts_nth : forall s r, r < ng -> nth r (all_counts s) [] = tally (length (nth r (s_rest I s) [])) (seated I data s r).
Proof.
  intros s r H. unfold all_counts. set (f := fun r => tally (length (nth r (s_rest I s) [])) (seated I data s r)).
  rewrite (nth_indep _ [] (f 0)) by (rewrite map_length, seq_length; auto). rewrite (map_nth f), seq_nth by auto. reflexivity.
Qed.

Lemma ok_count_n : forall s (Q : sst -> Prop), tabs_in s -> length (s_rest I s) = ng -> length (s_n I s) = ng ->
  Q (w_n I (all_counts s) s) -> ok (count_n I data s) Q.
Proof.
  intros s Q Ht Hl Hn HQ. unfold count_n.
  apply ok_for with (Inv := fun m s' => s' = w_n I (firstn m (all_counts s) ++ skipn m (s_n I s)) s).
  - simpl. symmetry. apply w_n_same.
  - intros m s' Hm ->. change (m < ng) in Hm. apply ok_bind. apply ok_count_row; auto.
    apply ok_bind. apply ok_set.
    + simpl. rewrite app_length, firstn_length, skipn_length, all_counts_length. lia.
    + cbn [ok]. rewrite s_n_w_n, w_n_n. rewrite upd_firstn by (rewrite ?all_counts_length; lia).
      rewrite (firstn_snoc _ [] (all_counts s)) by (rewrite all_counts_length; auto). rewrite <- app_assoc. cbn [app].
      rewrite all_counts_nth by auto. reflexivity.
  - intros s' ->. change (Semi.ng I data) with ng. rewrite firstn_all2 by (rewrite all_counts_length; auto).
    rewrite skipn_all2 by lia. rewrite app_nil_r. exact HQ.
Qed.

Lemma ok_count_m : forall s (Q : sst -> Prop), length (s_ts I s) = ng ->
  (forall r, r < ng -> Forall (fun h => h < length (s_shared I s)) (somes (nth r (s_ts I s) []))) ->
  Q (w_m I (tally (length (s_shared I s)) (dishes I data s)) s) -> ok (count_m I data s) Q.
Proof.
  intros s Q Hl Hin HQ. unfold count_m. apply ok_bind. set (K := length (s_shared I s)) in *.
  apply ok_for with (Inv := fun m acc => acc = tally K (flat_map (fun r => somes (nth r (s_ts I s) [])) (seq 0 m))).
  - symmetry. apply tally_nil.
  - intros m acc Hm ->. change (m < ng) in Hm. apply ok_bind. apply ok_at with (d := []); [lia|].
    rewrite flat_map_seq_S. specialize (Hin m Hm). set (prev := flat_map _ _). set (tr := nth m (s_ts I s) []) in *. clearbody tr prev.
    apply ok_rfold with (Inv := fun j acc => acc = tally K (prev ++ somes (firstn j tr))).
    + simpl. rewrite app_nil_r. reflexivity.
    + intros j acc t Ht ->. assert (Hj : j < length tr) by (apply nth_error_Some; congruence).
      pose proof (firstn_snoc _ None tr j Hj) as E. rewrite E. unfold somes. rewrite flat_map_app. fold (somes (firstn j tr)).
      rewrite (nth_error_nth' _ None Hj) in Ht. injection Ht as Ht. rewrite Ht. destruct t as [h|]; cbn [flat_map app].
      * assert (h < K).
        { rewrite Forall_forall in Hin. apply Hin. unfold somes. apply in_flat_map. exists (Some h). split; [rewrite <- Ht; apply nth_In; auto|left; auto]. }
        apply ok_add1; [rewrite tally_length; auto|]. rewrite tally_snoc by auto. rewrite <- app_assoc. reflexivity.
      * simpl. rewrite app_nil_r. reflexivity.
    + intros b ->. rewrite firstn_all. reflexivity.
  - intros b ->. exact HQ.
Qed.

(** ** Observations by table *)

(** The observations seated at table [l] of restaurant [r]. *)
Notation held := (SemiSpec.held I data).

Definition heldn (m : nat) (s : sst) (r l : nat) : list (Datum I) :=
  flat_map (fun i => if nth i (s_ra I s) 0 =? r then map snd (filter (fun p => fst p =? l) (combine (nth i (s_tab I s) []) (nth i data []))) else []) (seq 0 m).

Lemma combine_firstn_snoc : forall A B (a : A) (b : B) l l' j, j < length l -> nth_error l' j = Some b ->
  combine (firstn (S j) l) (firstn (S j) l') = combine (firstn j l) (firstn j l') ++ [(nth j l a, b)].
Proof.
  induction l as [|x l IH]; intros l' j H E; simpl in H; [lia|]. destruct l' as [|y l']; [destruct j; discriminate|].
  destruct j; [simpl in E; injection E as ->; reflexivity|]. cbn [firstn combine app nth nth_error] in *. f_equal. apply IH; auto. lia.
Qed.

Lemma ok_by_table : forall s r (Q : list (list (Datum I)) -> Prop), tabs_in s -> length (s_rest I s) = ng -> r < ng ->
  Q (map (held s r) (seq 0 (length (nth r (s_rest I s) [])))) -> ok (by_table I data s r) Q.
Proof.
  intros s r Q (Ht & Hra & Hin) Hl Hr HQ. unfold by_table. apply ok_bind. apply ok_at with (d := []); [lia|].
  set (K := length (nth r (s_rest I s) [])) in *.
  apply ok_for with (Inv := fun m acc => acc = map (heldn m s r) (seq 0 K)).
  - clear. unfold heldn. cbn [seq flat_map]. generalize 0. induction K as [|K0 IH]; intros k; [reflexivity|]. cbn [seq map repeat]. rewrite <- IH. reflexivity.
  - intros m acc Hm ->. apply ok_bind. apply ok_at with (d := 0); [unfold Semi.ng in Hm; lia|]. change (m < ng) in Hm.
    destruct (Nat.eqb_spec (nth m (s_ra I s) 0) r) as [E|E].
    + apply ok_bind. apply ok_nby; auto. destruct (Hin m Hm) as [L F].
      set (rowm := nth m (s_tab I s) []) in *. set (dm := nth m data []) in *.
      apply ok_for with (Inv := fun j acc => acc = map (fun l => heldn m s r l ++ map snd (filter (fun p => fst p =? l) (combine (firstn j rowm) (firstn j dm)))) (seq 0 K)).
      * cbn [firstn combine filter map]. apply map_ext. intros. rewrite app_nil_r. reflexivity.
      * intros j acc Hj ->. apply ok_bind. apply ok_at2 with (d := 0); [lia|fold rowm; lia|]. fold rowm.
        assert (nth j rowm 0 < K).
        { unfold K. rewrite <- E. apply Forall_nth' with (1 := F). lia. }
        apply ok_bind. apply ok_row; [lia|exact Hj|]. intros d Hd. fold dm in Hd.
        apply ok_bind. apply ok_at with (d := []); [rewrite map_length, seq_length; auto|].
        apply ok_set; [rewrite map_length, seq_length; auto|].
        apply list_eq_nth with (d := []); rewrite ?upd_length, !map_length, !seq_length; auto.
        intros k Hk. rewrite nth_upd, map_length, seq_length. apply Nat.ltb_lt in H. rewrite H. apply Nat.ltb_lt in H.
        set (f := fun l => heldn m s r l ++ map snd (filter (fun p => fst p =? l) (combine (firstn j rowm) (firstn j dm)))).
        set (f' := fun l => heldn m s r l ++ map snd (filter (fun p => fst p =? l) (combine (firstn (S j) rowm) (firstn (S j) dm)))).
        assert (Ef : forall k, k < K -> nth k (map f (seq 0 K)) [] = f k).
        { intros k' Hk'. rewrite (nth_indep _ [] (f 0)) by (rewrite map_length, seq_length; auto). rewrite (map_nth f), seq_nth by auto. reflexivity. }
        assert (Ef' : forall k, k < K -> nth k (map f' (seq 0 K)) [] = f' k).
        { intros k' Hk'. rewrite (nth_indep _ [] (f' 0)) by (rewrite map_length, seq_length; auto). rewrite (map_nth f'), seq_nth by auto. reflexivity. }
        rewrite Ef', !Ef by auto. unfold f, f'. rewrite (combine_firstn_snoc _ _ 0 d) by (auto; lia).
        rewrite filter_app, map_app. cbn [filter fst]. rewrite (Nat.eqb_sym (nth j rowm 0) k).
        destruct (Nat.eqb_spec k (nth j rowm 0)) as [->|N]; cbn [andb map app]; rewrite ?app_nil_r, ?app_assoc; reflexivity.
      * intros b ->. apply map_ext. intros l. unfold heldn. rewrite flat_map_seq_S, <- L, E, Nat.eqb_refl. rewrite L at 2. rewrite !firstn_all. reflexivity.
    + simpl. apply map_ext. intros l. unfold heldn. rewrite flat_map_seq_S. apply Nat.eqb_neq in E. rewrite E, app_nil_r. reflexivity.
  - intros b ->. exact HQ.
Qed.

End Count.
