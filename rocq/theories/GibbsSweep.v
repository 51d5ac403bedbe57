(** * The law of Neal3's sweeps over clusterings and its invariant
    distribution. *)
From Coq Require Import String.
From Coq Require Import Bool List Arith ZArith Reals Lra Lia Permutation.
From Verif Require Import Base Hier Algos Spec MargFacts NealFacts MargMore MargProps.
From Verif Require Import PartSpec MixFacts GibbsSpec GibbsComb GibbsPost GibbsFacts.
Import ListNotations.
Local Open Scope R_scope.
Arguments prodR l : simpl never.
Arguments sumR l : simpl never.

(** Labels and (exponentiated) weights from which one reallocation draws. *)
Definition step_weights (I : Iface) (val : W I -> R) data covs (i : nat) (a : alg I) : res (alg I * list R) :=
  a1 <- unassign data true (at_ covs) i a ;;
  pm <- neal2_prior_mass data a1 ;;
  lk <- neal3_lpdf data covs a1 i ;;
  Ok (a1, map val (wsum I pm lk)).

(** Probability that successively reallocating the observations [is] from state
    [a] ends in clustering [t], when every categorical draw picks outcome [c]
    with probability proportional to its weight; [pick] gives the generator
    states used for the other draws. *)
Fixpoint sweep_prob (I : Iface) (val : W I -> R) data covs (pick : alg I -> nat -> nat -> Rng I)
    (is : list nat) (a : alg I) (t : list nat) : R :=
  match is with
  | [] => if same (canon (a_alloc a)) t then 1 else 0
  | i :: is' =>
      match step_weights I val data covs i a with
      | Ok (a1, ws) =>
          sumR (map (fun c => nth c ws 0 / sumR ws *
                              match assign data true (at_ covs) i c a1 (pick a1 i c) with
                              | Ok (a', _) => sweep_prob I val data covs pick is' a' t
                              | _ => 0
                              end) (seq 0 (length ws)))
      | _ => 0
      end
  end.

Definition cond (pi M : list nat -> R) (n i : nat) (s u : list nat) : R :=
  (if alike_off i s u then posterior pi M u else 0)
  / sumR (map (posterior pi M) (filter (alike_off i s) (clusterings n))).

Fixpoint conds (pi M : list nat -> R) (n : nat) (is : list nat) (s t : list nat) : R :=
  match is with
  | [] => if same s t then 1 else 0
  | i :: is' => sumR (map (fun u => cond pi M n i s u * conds pi M n is' u t) (clusterings n))
  end.

Lemma del_canon : forall l i, (i < length l)%nat -> canon (del (canon l) i) = canon (del l i).
Proof.
  intros l i Hi. apply del_grp; [apply canon_length|rewrite canon_length; auto|].
  intros p q x y x' y' _ _ Hp Hq Hp' Hq'. rewrite canon_nth in Hp, Hq. rewrite Hp' in Hp. rewrite Hq' in Hq.
  simpl in *. injection Hp as <-. injection Hq as <-. apply nth_error_In in Hp', Hq'.
  split; [apply first_inj; auto|congruence].
Qed.

Lemma alike_ext : forall i l l', canon (del l i) = canon (del l' i) -> forall u, alike_off i l u = alike_off i l' u.
Proof. intros i l l' H u. unfold alike_off. rewrite H. reflexivity. Qed.

Lemma Z_pos : forall pi M n i s, partition_prior pi -> (forall ids, ids <> [] -> 0 < M ids) -> (i < n)%nat -> length s = n ->
  0 < sumR (map (posterior pi M) (filter (alike_off i s) (clusterings n))).
Proof.
  intros pi M n i s Hpi HM Hi Hs. apply sumR_pos.
  - apply Forall_forall. intros x Hx. apply in_map_iff in Hx. destruct Hx as (l & <- & Hl).
    apply filter_In in Hl. destruct Hl as [Hl _]. apply clusterings_in in Hl. apply posterior_pos; auto.
    intros ->. simpl in Hl. destruct Hl. lia.
  - intros E. apply map_eq_nil in E. assert (H : In (canon s) (filter (alike_off i s) (clusterings n))).
    { apply filter_In. split; [apply clusterings_in; rewrite canon_length, canon_idem; auto|].
      apply alike_eq. symmetry. apply del_canon. lia. }
    rewrite E in H. contradiction.
Qed.

Lemma expect_exact : forall pi M n i al k C (G : list nat -> R), partition_prior pi -> (forall ids, ids <> [] -> 0 < M ids) ->
  (i < n)%nat -> length al = n -> compact i al k -> 0 < C ->
  sumR (map (fun c => C * posterior pi M (upd al i c) /
                      sumR (map (fun c => C * posterior pi M (upd al i c)) (seq 0 (S k))) * G (canon (upd al i c)))
            (seq 0 (S k))) =
  sumR (map (fun u => cond pi M n i al u * G u) (clusterings n)).
Proof.
  intros pi M n i al k C G Hpi HM Hi HL HC HCp.
  pose proof (outcomes_perm n i al k Hi HL HC) as P. set (cs := seq 0 (S k)) in *.
  pose proof (Z_pos pi M n i al Hpi HM Hi HL) as HZ.
  set (Z := sumR (map (posterior pi M) (filter (alike_off i al) (clusterings n)))) in *.
  assert (E2 : sumR (map (fun c => C * posterior pi M (upd al i c)) cs) = C * Z).
  { rewrite sumR_mult. f_equal. unfold Z. rewrite <- (sumR_perm _ _ (Permutation_map (posterior pi M) P)), map_map.
    f_equal. apply map_ext. intros c. apply posterior_canon; auto. symmetry. apply canon_idem. }
  rewrite E2.
  transitivity (sumR (map (fun u => posterior pi M u / Z * G u) (filter (alike_off i al) (clusterings n)))).
  - rewrite <- (sumR_perm _ _ (Permutation_map (fun u => posterior pi M u / Z * G u) P)), map_map.
    f_equal. apply map_ext. intros c.
    rewrite (posterior_canon pi M (canon (upd al i c)) (upd al i c) Hpi (canon_idem _)). field. split; lra.
  - rewrite sumR_filter. f_equal. apply map_ext. intros u. unfold cond. fold Z. destruct (alike_off i al u); [reflexivity|].
    unfold Rdiv. ring.
Qed.

Lemma cond_ext : forall pi M n i s s' u, canon (del s i) = canon (del s' i) -> cond pi M n i s u = cond pi M n i s' u.
Proof.
  intros pi M n i s s' u H. unfold cond. rewrite (alike_ext i s s' H).
  f_equal. f_equal. f_equal. apply filter_ext. apply alike_ext. exact H.
Qed.

Lemma sumR_map_ext : forall A (f g : A -> R) l, (forall x, In x l -> f x = g x) -> sumR (map f l) = sumR (map g l).
Proof. intros A f g l H. f_equal. apply map_ext_in. exact H. Qed.

Lemma sumR_swap2 : forall A B (f : A -> B -> R) l m,
  sumR (map (fun x => sumR (map (fun y => f x y) m)) l) = sumR (map (fun y => sumR (map (fun x => f x y) l)) m).
Proof.
  intros A B f. induction l as [|x l IH]; intros m.
  - cbn [map]. induction m as [|y m IHm]; [reflexivity|]. rewrite map_cons, sumR_cons, <- IHm. unfold sumR; simpl; lra.
  - rewrite map_cons, sumR_cons, IH. clear IH. induction m as [|y m IHm]; [unfold sumR; simpl; lra|].
    rewrite !map_cons, !sumR_cons, <- IHm. lra.
Qed.

Lemma cond_total : forall pi M n i s, partition_prior pi -> (forall ids, ids <> [] -> 0 < M ids) -> (i < n)%nat -> length s = n ->
  sumR (map (cond pi M n i s) (clusterings n)) = 1.
Proof.
  intros pi M n i s Hpi HM Hi Hs. pose proof (Z_pos pi M n i s Hpi HM Hi Hs) as HZ.
  unfold cond. set (Z := sumR (map (posterior pi M) (filter (alike_off i s) (clusterings n)))) in *.
  rewrite (sumR_map_ext _ _ (fun u => / Z * (if alike_off i s u then posterior pi M u else 0))).
  - rewrite sumR_mult, <- sumR_filter. fold Z. field. lra.
  - intros u _. unfold Rdiv. ring.
Qed.

Lemma cond_nonneg : forall pi M n i s u, partition_prior pi -> (forall ids, ids <> [] -> 0 < M ids) -> (i < n)%nat ->
  length s = n -> In u (clusterings n) -> 0 <= cond pi M n i s u.
Proof.
  intros pi M n i s u Hpi HM Hi Hs Hu. pose proof (Z_pos pi M n i s Hpi HM Hi Hs) as HZ. unfold cond.
  destruct (alike_off i s u).
  - left. apply Rdiv_lt_0_compat; auto. apply posterior_pos; auto. apply clusterings_in in Hu. intros ->. simpl in Hu. destruct Hu. lia.
  - unfold Rdiv. rewrite Rmult_0_l. lra.
Qed.

Lemma conds_total : forall pi M n is s, partition_prior pi -> (forall ids, ids <> [] -> 0 < M ids) ->
  (forall i, In i is -> (i < n)%nat) -> In s (clusterings n) ->
  sumR (map (conds pi M n is s) (clusterings n)) = 1.
Proof.
  intros pi M n is s Hpi HM. revert s. induction is as [|i is IH]; intros s His Hs.
  - cbn [conds]. rewrite (sumR_map_ext _ _ (fun x => if same x s then (fun _ => 1) x else 0)).
    + rewrite sumR_single by apply clusterings_nodup. destruct (in_dec _ s (clusterings n)); [auto|contradiction].
    + intros u _. destruct (same s u) eqn:E1; destruct (same u s) eqn:E2; auto.
      * apply same_true in E1. subst. rewrite (proj2 (same_true u u) eq_refl) in E2. discriminate.
      * apply same_true in E2. subst. rewrite (proj2 (same_true s s) eq_refl) in E1. discriminate.
  - cbn [conds]. rewrite sumR_swap2.
    rewrite (sumR_map_ext _ _ (fun u => cond pi M n i s u)).
    + apply cond_total; auto; [apply His; left; auto|]. apply clusterings_in in Hs. tauto.
    + intros u Hu. rewrite sumR_mult, IH; auto; [ring|]. intros j Hj. apply His. right; auto.
Qed.

Lemma conds_nonneg : forall pi M n is s t, partition_prior pi -> (forall ids, ids <> [] -> 0 < M ids) ->
  (forall i, In i is -> (i < n)%nat) -> In s (clusterings n) -> 0 <= conds pi M n is s t.
Proof.
  intros pi M n is s t Hpi HM. revert s. induction is as [|i is IH]; intros s His Hs; cbn [conds].
  - destruct (same s t); lra.
  - assert (G : forall l, (forall u, In u l -> In u (clusterings n)) ->
        0 <= sumR (map (fun u => cond pi M n i s u * conds pi M n is u t) l)).
    { induction l as [|u l IHl]; intros Hl; [unfold sumR; simpl; lra|]. rewrite map_cons, sumR_cons.
      assert (0 <= cond pi M n i s u * conds pi M n is u t).
      { apply Rmult_le_pos; [apply cond_nonneg; auto; [apply His; left; auto|apply clusterings_in in Hs; tauto|apply Hl; left; auto]|].
        apply IH; [intros; apply His; right; auto|apply Hl; left; auto]. }
      assert (0 <= sumR (map (fun u => cond pi M n i s u * conds pi M n is u t) l)) by (apply IHl; intros; apply Hl; right; auto).
      lra. }
    apply G. auto.
Qed.

Lemma conds_invariant : forall pi M n is t, partition_prior pi -> (forall ids, ids <> [] -> 0 < M ids) ->
  (forall i, In i is -> (i < n)%nat) -> In t (clusterings n) ->
  sumR (map (fun s => posterior pi M s * conds pi M n is s t) (clusterings n)) = posterior pi M t.
Proof.
  intros pi M n is t Hpi HM. induction is as [|i is IH]; intros His Ht; cbn [conds].
  - rewrite (sumR_map_ext _ _ (fun s => if same s t then posterior pi M s else 0)).
    + rewrite sumR_single by apply clusterings_nodup. destruct (in_dec _ t (clusterings n)); [auto|contradiction].
    + intros s _. destruct (same s t); ring.
  - rewrite (sumR_map_ext _ _ (fun s => sumR (map (fun u => posterior pi M s * cond pi M n i s u * conds pi M n is u t) (clusterings n)))).
    + rewrite sumR_swap2.
      rewrite (sumR_map_ext _ _ (fun u => posterior pi M u * conds pi M n is u t)).
      * apply IH; auto. intros j Hj. apply His; right; auto.
      * intros u Hu. rewrite (sumR_map_ext _ _ (fun s => conds pi M n is u t * (posterior pi M s * cond pi M n i s u))) by (intros; ring).
        rewrite sumR_mult. rewrite (exact_invariant pi M n i (cond pi M n i) Hpi HM); auto; [ring|apply His; left; auto].
    + intros s _. rewrite <- sumR_mult. apply sumR_map_ext. intros; ring.
Qed.

Section Sweep.
Variable I : Iface.
Variable L : laws I.
Variable data : list (Datum I).
Variable covs : list (Cov I).
Notation cvf := (at_ covs).
Notation n := (length data).
Hypothesis Hrows : rows_ok I data cvf.
Variable val : W I -> R.
Hypothesis val_add : forall a b, val (wadd I a b) = val a * val b.
Hypothesis Hcj : conj I = true.
Hypothesis Hod : other_draw I = None.
Hypothesis Hn : (2 <= n)%nat.

Lemma sweep_closed : forall pick pi M is (a : alg I) t, partition_prior pi -> marginal_likelihood I data covs val (a_hyp a) M ->
  (forall rest, length rest = (n - 1)%nat -> mass_at I val (a_mix a) pi rest) ->
  (forall i, In i is -> (i < n)%nat) -> fresh3 I data covs a ->
  sweep_prob I val data covs pick is a t = conds pi M n is (canon (a_alloc a)) t.
Proof.
  intros pick pi M is. induction is as [|i is IH]; intros a t Hpi HML HM His HF; [reflexivity|].
  cbn [sweep_prob conds].
  assert (Hi : (i < n)%nat) by (apply His; left; auto).
  destruct (neal3_weights1 I L data covs Hrows val val_add Hcj Hod a i pi M Hn Hi HF Hpi HML HM)
    as (al & uv & pm & lk & C & Eu & HL & HS & HC & Ep & El & HCp & Ew & Ea).
  unfold step_weights. rewrite Eu. cbn [rbind]. rewrite Ep. cbn [rbind]. rewrite El. cbn [rbind]. rewrite Ew.
  rewrite map_length, seq_length.
  assert (HLa : length (a_alloc a) = n) by (apply HF).
  rewrite (sumR_map_ext _ (fun u => cond pi M n i (canon (a_alloc a)) u * _) (fun u => cond pi M n i al u * conds pi M n is u t)).
  2:{ intros u _. f_equal. apply cond_ext. rewrite del_canon by lia. exact HS. }
  assert (HMp : forall ids, ids <> [] -> 0 < M ids) by apply HML.
  rewrite <- (expect_exact pi M n i al (length uv) C (fun u => conds pi M n is u t) Hpi HMp Hi HL HC HCp).
  apply sumR_map_ext. intros c Hc. apply in_seq in Hc.
  rewrite (nth_error_nth (map (fun c => C * posterior pi M (upd al i c)) (seq 0 (S (length uv)))) c 0
             (x := C * posterior pi M (upd al i c))).
  2:{ rewrite nth_error_map, (nth_error_nth' _ 0%nat) by (rewrite seq_length; lia). rewrite seq_nth by lia. reflexivity. }
  f_equal.
  destruct (Ea c (pick (set_uv (set_alloc a al) uv) i c) ltac:(lia)) as (uv' & r' & E & HF'). rewrite E.
  rewrite IH; auto. intros j Hj. apply His; right; auto.
Qed.

End Sweep.

(** ** Statements *)

Lemma neal3_weights : forall (I : Iface) (L : laws I) data covs (val : W I -> R) t d M (a : alg I) i,
  rows_ok I data (at_ covs) -> (forall x y, val (wadd I x y) = val x * val y) ->
  conj I = true -> other_draw I = None -> (2 <= length data)%nat -> (i < length data)%nat ->
  proper (length data) (a_alloc a) (view (a_uv a)) -> caches_ok data covs (a_uv a) ->
  (forall h, In h (a_uv a) -> saved_matches data covs (a_hyp a) h) ->
  0 <= d < 1 -> - d < t -> py_masses I val (a_mix a) (length data) t d ->
  marginal_likelihood I data covs val (a_hyp a) M ->
  exists a1 pm lk C,
    unassign data true (at_ covs) i a = Ok a1 /\ neal2_prior_mass data a1 = Ok pm /\
    neal3_lpdf data covs a1 i = Ok lk /\ length (wsum I pm lk) = S (length (a_uv a1)) /\ 0 < C /\
    (forall r, neal_step data covs true (neal3_lpdf data covs) (a, r) i =
       ('(c, r1) <- cat I (wsum I pm lk) r ;; assign data true (at_ covs) i c a1 r1)) /\
    forall c w r, nth_error (wsum I pm lk) c = Some w ->
    exists a' r', assign data true (at_ covs) i c a1 r = Ok (a', r') /\
      val w = C * posterior (fun al => ewens_pitman t d (sizes_of al)) M (a_alloc a').
Proof.
  intros I L data covs val t d M a i Hrows Hv Hcj Hod Hn Hi Hp Hc Hs Hd Ht HM HML.
  destruct (neal3_weights1 I L data covs Hrows val Hv Hcj Hod a i (ep t d) M Hn Hi) as
    (al & uv & pm & lk & C & Eu & HL & HS & HC & Ep & El & HCp & Ew & Ea); auto.
  { split; [split; auto|auto]. } { apply ep_prior; auto. }
  { intros rest Hr. apply py_mass_at with (n := length data); auto. }
  assert (Lw : length (wsum I pm lk) = S (length uv)).
  { rewrite <- (map_length val), Ew, map_length, seq_length. reflexivity. }
  exists (set_uv (set_alloc a al) uv), pm, lk, C. split; auto. split; auto. split; auto. split; [exact Lw|]. split; auto.
  split.
  - intros r. unfold neal_step. rewrite Eu. cbn [rbind]. rewrite Ep. cbn [rbind]. rewrite El. cbn [rbind]. reflexivity.
  - intros c w r Hw. assert (Hcl : (c < S (length uv))%nat) by (rewrite <- Lw; apply nth_error_Some; congruence).
    destruct (Ea c r ltac:(lia)) as (uv' & r' & E & _). eexists _, r'. split; [exact E|]. cbn [a_alloc set_uv set_alloc].
    assert (E2 : nth_error (map val (wsum I pm lk)) c = Some (val w)) by (rewrite nth_error_map, Hw; reflexivity).
    rewrite Ew, nth_error_map, (nth_error_nth' _ 0%nat) in E2 by (rewrite seq_length; lia).
    rewrite seq_nth in E2 by lia. simpl in E2. injection E2 as <-. reflexivity.
Qed.

Lemma neal2_weights : forall (I : Iface) (L : laws I) data covs (val : W I -> R) t d (a : alg I) i y cv,
  rows_ok I data (at_ covs) -> (forall x y, val (wadd I x y) = val x * val y) ->
  (2 <= length data)%nat -> (i < length data)%nat ->
  proper (length data) (a_alloc a) (view (a_uv a)) -> caches_ok data covs (a_uv a) ->
  0 <= d < 1 -> - d < t -> py_masses I val (a_mix a) (length data) t d ->
  at_ data i = Ok y -> at_ covs i = Ok cv ->
  exists a1 pm lk C,
    unassign data false (at_ covs) i a = Ok a1 /\ neal2_prior_mass data a1 = Ok pm /\
    neal2_lpdf data covs a1 i = Ok lk /\ length (wsum I pm lk) = S (length (a_uv a1)) /\ 0 < C /\
    (forall r, neal_step data covs false (neal2_lpdf data covs) (a, r) i =
       ('(c, r1) <- cat I (wsum I pm lk) r ;; assign data false (at_ covs) i c a1 r1)) /\
    forall c w r, nth_error (wsum I pm lk) c = Some w ->
    exists a' r', assign data false (at_ covs) i c a1 r = Ok (a', r') /\
      exists f, val w = C * ewens_pitman t d (sizes_of (a_alloc a')) * f /\
        ((c < length (a_uv a1))%nat -> exists st, param a' i = Some st /\ f = val (like_lpdf I st y cv)) /\
        (c = length (a_uv a1) -> f = val (marg_lpdf I (a_hyp a) y cv)).
Proof.
  intros I L data covs val t d a i y cv Hrows Hv Hn Hi Hp Hc Hd Ht HM Ey Ec.
  destruct (neal2_weights0 I L data covs Hrows val Hv a i (ep t d) y cv Hn Hi) as
    (a1 & pm & lk & C & Eu & Ep & El & Lw & HC & Hw); auto.
  { split; auto. } { apply ep_prior; auto. }
  { intros rest Hr. apply py_mass_at with (n := length data); auto. }
  exists a1, pm, lk, C. split; auto. split; auto. split; auto. split; auto. split; auto. split.
  - intros r. unfold neal_step. rewrite Eu. cbn [rbind]. rewrite Ep. cbn [rbind]. rewrite El. cbn [rbind]. reflexivity.
  - intros c w r Hcw. destruct (Hw c w r Hcw) as (a' & r' & E & Hf). exists a', r'. split; auto.
Qed.

Lemma neal3_sweep_law : forall (I : Iface) (L : laws I) data covs (val : W I -> R) t d M pick is (a : alg I),
  rows_ok I data (at_ covs) -> (forall x y, val (wadd I x y) = val x * val y) ->
  conj I = true -> other_draw I = None -> (2 <= length data)%nat -> (forall i, In i is -> (i < length data)%nat) ->
  proper (length data) (a_alloc a) (view (a_uv a)) -> caches_ok data covs (a_uv a) ->
  (forall h, In h (a_uv a) -> saved_matches data covs (a_hyp a) h) ->
  0 <= d < 1 -> - d < t -> py_masses I val (a_mix a) (length data) t d ->
  marginal_likelihood I data covs val (a_hyp a) M ->
  (forall u, 0 <= sweep_prob I val data covs pick is a u) /\
  sumR (map (sweep_prob I val data covs pick is a) (clusterings (length data))) = 1 /\
  (forall i u, is = [i] -> In u (clusterings (length data)) ->
     sweep_prob I val data covs pick is a u =
     (if alike_off i (a_alloc a) u then posterior (fun al => ewens_pitman t d (sizes_of al)) M u else 0)
     / sumR (map (posterior (fun al => ewens_pitman t d (sizes_of al)) M)
                 (filter (alike_off i (a_alloc a)) (clusterings (length data))))).
Proof.
  intros I L data covs val t d M pick is a Hrows Hv Hcj Hod Hn His Hp Hc Hs Hd Ht HM HML.
  assert (HF : fresh3 I data covs a) by (split; [split; auto|auto]).
  assert (HLa : length (a_alloc a) = length data) by apply Hp.
  assert (HE : forall u, sweep_prob I val data covs pick is a u = conds (ep t d) M (length data) is (canon (a_alloc a)) u).
  { intros u. apply sweep_closed; auto; [apply ep_prior; auto|].
    intros rest Hr. apply py_mass_at with (n := length data); auto. }
  pose proof (ep_prior t d Hd Ht) as Hpi. destruct HML as (HMp & _).
  assert (Hin : In (canon (a_alloc a)) (clusterings (length data))).
  { apply clusterings_in. rewrite canon_length, canon_idem. auto. }
  split; [|split].
  - intros u. rewrite HE. apply conds_nonneg; auto.
  - rewrite (sumR_map_ext _ _ (conds (ep t d) M (length data) is (canon (a_alloc a)))) by (intros; apply HE).
    apply conds_total; auto.
  - intros i u -> Hu. rewrite HE. cbn [conds].
    rewrite (sumR_map_ext _ _ (fun x => if same x u then cond (ep t d) M (length data) i (canon (a_alloc a)) x else 0)).
    2:{ intros x _. destruct (same x u); ring. }
    rewrite sumR_single by apply clusterings_nodup. destruct (in_dec _ u (clusterings (length data))); [|contradiction].
    rewrite (cond_ext (ep t d) M (length data) i (canon (a_alloc a)) (a_alloc a)); [reflexivity|].
    apply del_canon. rewrite HLa. apply His. left; auto.
Qed.

Lemma neal3_sweep_invariant : forall (I : Iface) (L : laws I) data covs (val : W I -> R) t d M pick is
    (A : list nat -> alg I) hy m,
  rows_ok I data (at_ covs) -> (forall x y, val (wadd I x y) = val x * val y) ->
  conj I = true -> other_draw I = None -> (2 <= length data)%nat -> (forall i, In i is -> (i < length data)%nat) ->
  (forall s, In s (clusterings (length data)) ->
     proper (length data) (a_alloc (A s)) (view (a_uv (A s))) /\ caches_ok data covs (a_uv (A s)) /\
     (forall h, In h (a_uv (A s)) -> saved_matches data covs (a_hyp (A s)) h) /\
     a_hyp (A s) = hy /\ a_mix (A s) = m /\ canon (a_alloc (A s)) = s) ->
  0 <= d < 1 -> - d < t -> py_masses I val m (length data) t d ->
  marginal_likelihood I data covs val hy M ->
  forall u, In u (clusterings (length data)) ->
  sumR (map (fun s => posterior (fun al => ewens_pitman t d (sizes_of al)) M s *
                      sweep_prob I val data covs pick is (A s) u) (clusterings (length data)))
  = posterior (fun al => ewens_pitman t d (sizes_of al)) M u.
Proof.
  intros I L data covs val t d M pick is A hy m Hrows Hv Hcj Hod Hn His HA Hd Ht HM HML u Hu.
  rewrite (sumR_map_ext _ _ (fun s => posterior (ep t d) M s * conds (ep t d) M (length data) is s u)).
  - apply conds_invariant; auto; [apply ep_prior; auto|]. apply HML.
  - intros s Hs. destruct (HA s Hs) as (H1 & H2 & H3 & H4 & H5 & H6). unfold ep. f_equal.
    rewrite <- H6 at 2. fold (ep t d). apply sweep_closed; auto.
    + apply ep_prior; auto.
    + rewrite H4. exact HML.
    + rewrite H5. intros rest Hr. apply py_mass_at with (n := length data); auto.
    + split; [split; auto|auto].
Qed.
