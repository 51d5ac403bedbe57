(** * Posterior masses of the clusterings reachable by moving one observation. *)
From Coq Require Import Bool List Arith ZArith Reals Lra Lia Permutation.
From Verif Require Import Base PartSpec MixFacts GibbsSpec GibbsComb.
Import ListNotations.
Local Open Scope R_scope.
Arguments prodR l : simpl never.
Arguments sumR l : simpl never.

Lemma filter_seq_S : forall (f : nat -> bool) n s,
  filter f (seq (S s) n) = map S (filter (fun j => f (S j)) (seq s n)).
Proof.
  intros f. induction n as [|n IH]; intros s; [reflexivity|].
  cbn [seq filter]. rewrite IH. destruct (f (S s)); reflexivity.
Qed.

Lemma count_members : forall c l, count_occ Nat.eq_dec l c = length (members c l).
Proof.
  intros c. induction l as [|x l IH]; [reflexivity|].
  unfold members. cbn [length seq filter nth_error]. rewrite filter_seq_S. cbn [nth_error].
  fold (members c l). cbn [count_occ].
  destruct (Nat.eq_dec x c) as [E|E].
  - apply Nat.eqb_eq in E. rewrite E. cbn [length]. rewrite map_length, IH. reflexivity.
  - apply Nat.eqb_neq in E. rewrite E. rewrite map_length. apply IH.
Qed.

Lemma members_in : forall c l j, In j (members c l) <-> nth_error l j = Some c.
Proof.
  intros c l j. unfold members. rewrite filter_In, in_seq. split.
  - intros [_ H]. destruct (nth_error l j) eqn:E; [|discriminate]. apply Nat.eqb_eq in H. congruence.
  - intros H. rewrite H, Nat.eqb_refl. split; auto.
    assert (j < length l)%nat by (apply nth_error_Some; congruence). lia.
Qed.

Lemma members_nodup : forall c l, NoDup (members c l).
Proof. intros. apply NoDup_filter, seq_NoDup. Qed.

Lemma members_rename : forall f l c, (forall x y, In x l -> In y l -> f x = f y -> x = y) -> In c l ->
  members (f c) (map f l) = members c l.
Proof.
  intros f l c Hf Hc. unfold members. rewrite map_length. apply filter_ext. intros j.
  rewrite nth_error_map. destruct (nth_error l j) as [x|] eqn:E; [|reflexivity]. cbn [option_map].
  apply nth_error_In in E. destruct (Nat.eqb_spec x c) as [-> | N]; [apply Nat.eqb_refl|].
  apply Nat.eqb_neq. intros H. apply N. apply Hf; auto.
Qed.

Lemma posterior_canon : forall pi M l l', partition_prior pi -> canon l = canon l' ->
  posterior pi M l = posterior pi M l'.
Proof.
  intros pi M l l' (_ & _ & Hr) H. destruct (canon_rename _ _ H) as (f & -> & Hf).
  unfold posterior. rewrite (Hr f l Hf). f_equal. rewrite distinct_map by exact Hf. rewrite map_map.
  f_equal. apply map_ext_in. intros c Hc. apply (proj1 (distinct_in _ _)) in Hc. rewrite (members_rename f l c Hf Hc). reflexivity.
Qed.

Lemma prodR_pos : forall l, Forall (fun x => 0 < x) l -> 0 < prodR l.
Proof.
  induction l as [|x l IH]; intros H; [unfold prodR; simpl; lra|].
  inversion H; subst. rewrite prodR_cons. apply Rmult_lt_0_compat; auto.
Qed.

Lemma posterior_pos : forall pi M l, partition_prior pi -> (forall ids, ids <> [] -> 0 < M ids) -> l <> [] -> 0 < posterior pi M l.
Proof.
  intros pi M l (Hp & _) HM Hl. unfold posterior. apply Rmult_lt_0_compat; auto.
  apply prodR_pos. apply Forall_forall. intros x Hx. apply in_map_iff in Hx. destruct Hx as (c & <- & Hc).
  apply (proj1 (distinct_in _ _)) in Hc. apply HM. intros E. apply In_nth_error in Hc. destruct Hc as [j Hj].
  apply members_in in Hj. rewrite E in Hj. contradiction.
Qed.

(** ** One observation taken out *)

Definition others (i c : nat) (al : list nat) : list nat :=
  filter (fun j => negb (j =? i)%nat) (members c al).

Lemma others_in : forall i c al j, In j (others i c al) <-> j <> i /\ nth_error al j = Some c.
Proof.
  intros. unfold others. rewrite filter_In, members_in, negb_true_iff, Nat.eqb_neq. tauto.
Qed.

Lemma others_nodup : forall i c al, NoDup (others i c al).
Proof. intros. apply NoDup_filter, members_nodup. Qed.

Section One.
Variables (i k : nat) (al : list nat).
Hypothesis Hi : (i < length al)%nat.
Hypothesis HC : compact i al k.

Lemma members_same : forall c, Permutation (members c (upd al i c)) (i :: others i c al).
Proof using Hi.
  intros c. apply NoDup_Permutation.
  - apply members_nodup.
  - constructor; [|apply others_nodup]. rewrite others_in. tauto.
  - intros j. rewrite members_in. cbn [In]. rewrite others_in. destruct (Nat.eq_dec j i) as [-> | N].
    + rewrite nth_error_upd_same by auto. tauto.
    + rewrite nth_error_upd_other by auto. split; [auto|]. intros [E|[_ E]]; [congruence|auto].
Qed.

Lemma members_other : forall c c', c <> c' -> Permutation (members c' (upd al i c)) (others i c' al).
Proof using Hi.
  intros c c' N. apply NoDup_Permutation; [apply members_nodup|apply others_nodup|].
  intros j. rewrite members_in, others_in. destruct (Nat.eq_dec j i) as [-> | Nj].
  - rewrite nth_error_upd_same by auto. split; [congruence|tauto].
  - rewrite nth_error_upd_other by auto. tauto.
Qed.

Lemma count_rest : forall c, count_occ Nat.eq_dec (del al i) c = length (others i c al).
Proof using Hi.
  intros c. pose proof (count_members c (upd al i c)) as H.
  rewrite (Permutation_length (members_same c)) in H. cbn [length] in H.
  rewrite (proj1 (Permutation_count_occ Nat.eq_dec _ _) (upd_perm al i c Hi)) in H.
  rewrite count_occ_cons_eq in H by auto. lia.
Qed.

Lemma rest_in : forall c, In c (del al i) <-> (c < k)%nat.
Proof using Hi HC.
  intros c. rewrite (count_occ_In Nat.eq_dec), count_rest. destruct HC as [C1 C2]. split.
  - intros H. destruct (others i c al) as [|j t] eqn:E; [simpl in H; lia|].
    assert (Hj : In j (others i c al)) by (rewrite E; left; auto). apply others_in in Hj. destruct Hj. eauto.
  - intros H. destruct (C2 c H) as (j & Nj & Hj). assert (Ho : In j (others i c al)) by (apply others_in; auto).
    destruct (others i c al); [contradiction|simpl; lia].
Qed.

Lemma distinct_rest : Permutation (distinct (del al i)) (seq 0 k).
Proof using Hi HC.
  apply NoDup_Permutation; [apply distinct_nodup|apply seq_NoDup|].
  intros c. rewrite distinct_in, rest_in, in_seq. lia.
Qed.

Lemma distinct_upd : forall c, (c <= k)%nat ->
  Permutation (distinct (upd al i c)) (seq 0 (if (c <? k)%nat then k else S k)).
Proof using Hi HC.
  intros c Hc. apply NoDup_Permutation; [apply distinct_nodup|apply seq_NoDup|].
  intros c'. rewrite distinct_in, in_seq.
  assert (E : In c' (upd al i c) <-> c = c' \/ (c' < k)%nat).
  { rewrite <- rest_in. split; intros H.
    - apply (Permutation_in _ (upd_perm al i c Hi)) in H. exact H.
    - apply (Permutation_in _ (Permutation_sym (upd_perm al i c Hi))). exact H. }
  rewrite E. destruct (c <? k)%nat eqn:L; [apply Nat.ltb_lt in L|apply Nat.ltb_ge in L]; lia.
Qed.

Variable pi : list nat -> R.
Variable M : list nat -> R.
Hypothesis Hpi : partition_prior pi.
Hypothesis M_pos : forall ids, ids <> [] -> 0 < M ids.
Hypothesis M_perm : forall ids ids', Permutation ids ids' -> M ids = M ids'.

Definition base : R := prodR (map (fun c => M (others i c al)) (seq 0 k)).

Lemma others_ne : forall c, (c < k)%nat -> others i c al <> [].
Proof using Hi HC.
  intros c Hc E. destruct HC as [_ C2]. destruct (C2 c Hc) as (j & Nj & Hj).
  assert (Ho : In j (others i c al)) by (apply others_in; auto). rewrite E in Ho. contradiction.
Qed.

Lemma base_pos : 0 < base.
Proof using Hi HC M_pos.
  unfold base. apply prodR_pos. apply Forall_forall. intros x Hx. apply in_map_iff in Hx.
  destruct Hx as (c & <- & Hc). apply in_seq in Hc. apply M_pos, others_ne. lia.
Qed.

Lemma post_old : forall c, (c < k)%nat ->
  posterior pi M (upd al i c) = pi (c :: del al i) * (base * (M (i :: others i c al) / M (others i c al))).
Proof using Hi HC Hpi M_pos M_perm.
  intros c Hc. destruct Hpi as (_ & Hp & _). unfold posterior.
  rewrite (Hp _ _ (upd_perm al i c Hi)). f_equal.
  assert (D : Permutation (distinct (upd al i c)) (seq 0 k)).
  { pose proof (distinct_upd c ltac:(lia)) as D. rewrite (proj2 (Nat.ltb_lt _ _) Hc) in D. exact D. }
  rewrite (prodR_perm _ _ (Permutation_map (fun c' => M (members c' (upd al i c))) D)).
  pose proof (prod_change (fun c' => M (members c' (upd al i c))) (fun c' => M (others i c' al)) c (seq 0 k)) as P.
  specialize (P (seq_NoDup _ _) ltac:(apply in_seq; lia)). cbv beta in P.
  rewrite (M_perm _ _ (members_same c)) in P. pose proof (M_pos _ (others_ne c Hc)).
  apply Rmult_eq_reg_r with (M (others i c al)); [|lra].
  rewrite P; [unfold base; field; lra|].
  intros c' _ N. apply M_perm, members_other. congruence.
Qed.

Lemma post_new : posterior pi M (upd al i k) = pi (k :: del al i) * (base * M [i]).
Proof using Hi HC Hpi M_perm.
  destruct Hpi as (_ & Hp & _). unfold posterior.
  rewrite (Hp _ _ (upd_perm al i k Hi)). f_equal.
  pose proof (distinct_upd k (le_n _)) as D. rewrite Nat.ltb_irrefl in D.
  rewrite (prodR_perm _ _ (Permutation_map (fun c' => M (members c' (upd al i k))) D)).
  rewrite seq_S, map_app, prodR_app. cbn [map Nat.add]. rewrite prodR_cons. unfold prodR at 2. cbn [fold_right].
  rewrite (M_perm _ _ (members_same k)).
  assert (E : others i k al = []).
  { destruct (others i k al) as [|j t] eqn:E; auto. assert (Hj : In j (others i k al)) by (rewrite E; left; auto).
    apply others_in in Hj. destruct Hj as [Nj Hj]. destruct HC as [C1 _]. apply C1 in Hj; auto. lia. }
  rewrite E, Rmult_1_r. f_equal. unfold base. f_equal. apply map_ext_in. intros c Hc. apply in_seq in Hc.
  apply M_perm, members_other. lia.
Qed.

End One.

(** ** The law of one reallocation *)

(** Probability of reaching clustering [t] when outcome [c] has weight
    [snd] and labels [fst]. *)
Definition law (outs : list (list nat * R)) (t : list nat) : R :=
  sumR (map (fun o => if same (canon (fst o)) (canon t) then snd o else 0) outs)
  / sumR (map snd outs).

Lemma sumR_filter : forall (A : Type) (f : A -> R) (p : A -> bool) l,
  sumR (map f (filter p l)) = sumR (map (fun x => if p x then f x else 0) l).
Proof.
  induction l as [|x l IH]; [reflexivity|]. cbn [filter map]. destruct (p x); rewrite ?map_cons, ?sumR_cons, IH; lra.
Qed.

Lemma sumR_mult : forall (A : Type) (f : A -> R) c l, sumR (map (fun x => c * f x) l) = c * sumR (map f l).
Proof.
  induction l as [|x l IH]; [unfold sumR; simpl; lra|]. rewrite !map_cons, !sumR_cons, IH. lra.
Qed.

Lemma sumR_pos : forall l, Forall (fun x => 0 < x) l -> l <> [] -> 0 < sumR l.
Proof.
  intros [|x l] H N; [congruence|]. inversion H as [|? ? Hx Hl]; subst. rewrite sumR_cons.
  assert (0 <= sumR l); [|lra]. clear - Hl. induction l as [|y l IH]; [unfold sumR; simpl; lra|].
  inversion Hl; subst. rewrite sumR_cons. specialize (IH H2). lra.
Qed.

Lemma sumR_single : forall (f : list nat -> R) t l, NoDup l ->
  sumR (map (fun x => if same x t then f x else 0) l) = if in_dec (list_eq_dec Nat.eq_dec) t l then f t else 0.
Proof.
  intros f t. induction l as [|x l IH]; intros H; [reflexivity|]. inversion H; subst.
  rewrite map_cons, sumR_cons, IH by auto.
  destruct (same x t) eqn:E.
  - apply same_true in E. subst x.
    destruct (in_dec (list_eq_dec Nat.eq_dec) t l); [contradiction|].
    destruct (in_dec (list_eq_dec Nat.eq_dec) t (t :: l)) as [|N]; [lra|exfalso; apply N; left; auto].
  - assert (N : x <> t) by (intros ->; rewrite (proj2 (same_true t t) eq_refl) in E; discriminate).
    destruct (in_dec (list_eq_dec Nat.eq_dec) t l) as [I1|I1];
      destruct (in_dec (list_eq_dec Nat.eq_dec) t (x :: l)) as [I2|I2]; try lra; exfalso.
    + apply I2. right; auto.
    + destruct I2; [auto|contradiction].
Qed.

(** Weights proportional to the posterior mass of each outcome give the exact
    conditional distribution of the clustering given the grouping of the other
    observations. *)
Lemma law_exact : forall pi M n i al k C ws, partition_prior pi -> (forall ids, ids <> [] -> 0 < M ids) ->
  (i < n)%nat -> length al = n -> compact i al k -> 0 < C ->
  ws = map (fun c => C * posterior pi M (upd al i c)) (seq 0 (S k)) ->
  forall t, In t (clusterings n) ->
  law (combine (map (fun c => upd al i c) (seq 0 (S k))) ws) t =
  (if alike_off i al t then posterior pi M t else 0)
  / sumR (map (posterior pi M) (filter (alike_off i al) (clusterings n))).
Proof.
  intros pi M n i al k C ws Hpi HM Hi HL HC HCp -> t Ht.
  pose proof (outcomes_perm n i al k Hi HL HC) as P.
  set (cs := seq 0 (S k)) in *.
  assert (E1 : combine (map (fun c => upd al i c) cs) (map (fun c => C * posterior pi M (upd al i c)) cs) =
               map (fun c => (upd al i c, C * posterior pi M (upd al i c))) cs).
  { induction cs as [|c cs0 IH]; cbn [map combine]; [reflexivity|]. f_equal.
    clear. induction cs0 as [|c cs0 IH]; cbn [map combine]; [reflexivity|]. f_equal; auto. }
  unfold law. rewrite E1, !map_map. cbn [fst snd].
  assert (E2 : sumR (map (fun c => C * posterior pi M (upd al i c)) cs) =
               C * sumR (map (posterior pi M) (filter (alike_off i al) (clusterings n)))).
  { rewrite sumR_mult. f_equal. rewrite <- (sumR_perm _ _ (Permutation_map (posterior pi M) P)), map_map.
    f_equal. apply map_ext. intros c. apply posterior_canon; auto. symmetry. apply canon_idem. }
  rewrite E2.
  assert (E3 : sumR (map (fun c => if same (canon (upd al i c)) (canon t) then C * posterior pi M (upd al i c) else 0) cs) =
               C * (if alike_off i al t then posterior pi M t else 0)).
  { transitivity (C * sumR (map (fun x => if same x t then posterior pi M x else 0) (map (fun c => canon (upd al i c)) cs))).
    - rewrite <- sumR_mult, map_map. f_equal. apply map_ext. intros c.
      apply clusterings_in in Ht. destruct Ht as [_ ->].
      destruct (same (canon (upd al i c)) t); [|lra].
      f_equal. apply posterior_canon; auto. symmetry. apply canon_idem.
    - f_equal. rewrite (sumR_perm _ _ (Permutation_map _ P)).
      rewrite sumR_single by (apply NoDup_filter, clusterings_nodup).
      destruct (in_dec (list_eq_dec Nat.eq_dec) t (filter (alike_off i al) (clusterings n))) as [H|H].
      + apply filter_In in H. destruct H as [_ ->]. reflexivity.
      + destruct (alike_off i al t) eqn:A; [|reflexivity]. exfalso. apply H. apply filter_In. auto. }
  rewrite E3.
  assert (Z : 0 < sumR (map (posterior pi M) (filter (alike_off i al) (clusterings n)))).
  { apply sumR_pos.
    - apply Forall_forall. intros x Hx. apply in_map_iff in Hx. destruct Hx as (l & <- & Hl).
      apply filter_In in Hl. destruct Hl as [Hl _]. apply clusterings_in in Hl. apply posterior_pos; auto.
      intros ->. simpl in Hl. destruct Hl. lia.
    - intros E. apply map_eq_nil in E. rewrite E in P. apply Permutation_sym, Permutation_nil in P. discriminate. }
  field. split; lra.
Qed.

Lemma alike_eq : forall i l l', alike_off i l l' = true <-> canon (del l i) = canon (del l' i).
Proof. intros. unfold alike_off. apply same_true. Qed.

(** A kernel of that form leaves the posterior invariant. *)
Lemma exact_invariant : forall pi M n i (K : list nat -> list nat -> R),
  partition_prior pi -> (forall ids, ids <> [] -> 0 < M ids) -> (i < n)%nat ->
  (forall s t, In s (clusterings n) -> In t (clusterings n) ->
     K s t = (if alike_off i s t then posterior pi M t else 0)
             / sumR (map (posterior pi M) (filter (alike_off i s) (clusterings n)))) ->
  forall t, In t (clusterings n) ->
  sumR (map (fun s => posterior pi M s * K s t) (clusterings n)) = posterior pi M t.
Proof.
  intros pi M n i K Hpi HM Hi HK t Ht.
  set (Z := sumR (map (posterior pi M) (filter (alike_off i t) (clusterings n)))).
  assert (Zp : 0 < Z).
  { apply sumR_pos.
    - apply Forall_forall. intros x Hx. apply in_map_iff in Hx. destruct Hx as (l & <- & Hl).
      apply filter_In in Hl. destruct Hl as [Hl _]. apply clusterings_in in Hl. apply posterior_pos; auto.
      intros ->. simpl in Hl. destruct Hl. lia.
    - intros E. apply map_eq_nil in E. assert (In t (filter (alike_off i t) (clusterings n))).
      { apply filter_In. split; auto. apply alike_eq. reflexivity. } rewrite E in H. contradiction. }
  assert (E : map (fun s => posterior pi M s * K s t) (clusterings n) =
              map (fun s => posterior pi M t / Z * (if alike_off i t s then posterior pi M s else 0)) (clusterings n)).
  { apply map_ext_in. intros s Hs. rewrite HK by auto.
    destruct (alike_off i s t) eqn:A.
    - assert (A' := A). apply alike_eq in A'. assert (B : alike_off i t s = true) by (apply alike_eq; auto).
      rewrite B. replace (filter (alike_off i s) (clusterings n)) with (filter (alike_off i t) (clusterings n)).
      + fold Z. field. lra.
      + apply filter_ext. intros l. unfold alike_off. rewrite A'. reflexivity.
    - assert (B : alike_off i t s = false).
      { destruct (alike_off i t s) eqn:B; auto. apply alike_eq in B. symmetry in B. apply alike_eq in B. congruence. }
      rewrite B. unfold Rdiv. ring. }
  rewrite E, sumR_mult, <- sumR_filter. fold Z. field. lra.
Qed.
