(** * Mixtures of finite mixtures: proofs. *)
From Coq Require Import String.
From Coq Require Import Bool List Arith ZArith Lia Reals Lra Permutation.
From Coq Require Import ConstructiveEpsilon.
From Verif Require Import Base XReal Mixings PartSpec MixFacts MixMore.
Import ListNotations.
Local Open Scope R_scope.
Arguments prodR l : simpl never.
Arguments sumR l : simpl never.

(** ** Calls and the table *)

Inductive mcall : Type :=
| CallEx (n k : nat) (log propto : bool) (card : Z)
| CallNew (n k : nat) (log propto : bool).
Definition call_n (c : mcall) : nat := match c with CallEx n _ _ _ _ | CallNew n _ _ _ => n end.
Definition call_k (c : mcall) : nat := match c with CallEx _ k _ _ _ | CallNew _ k _ _ => k end.

Section Table.
Variable series : R -> R -> R -> nat -> nat -> R.

Definition do_call (s : mfm_state) (c : mcall) : res mfm_state :=
  match c with
  | CallEx n k lg pr card => '(_, s') <- mfm_mass_ex series n k lg pr card s ;; Ok s'
  | CallNew n k lg pr => '(_, s') <- mfm_mass_new series n k lg pr s ;; Ok s'
  end.

(** Both masses read the same two entries. *)
Lemma do_call_reads : forall s c, do_call s c =
  ('(_, s1) <- mfm_get_V series (call_k c) (call_n c) s ;;
   '(_, s2) <- mfm_get_V series (call_k c + 1) (call_n c) s1 ;; Ok s2).
Proof.
  intros s [n k lg pr card|n k lg pr]; simpl; unfold mfm_mass_ex, mfm_mass_new;
    destruct (mfm_get_V series k n s) as [[V1 s1]| | |]; simpl; auto;
    destruct (mfm_get_V series (k + 1) n s1) as [[V2 s2]| | |]; simpl; auto.
Qed.

Hypothesis series_nonneg : forall l g C t n, 0 <= series l g C t n.

(** State with a given table. *)
Definition with_tab (s : mfm_state) (tab : list R) : mfm_state :=
  mkMfm (mf_lam s) (mf_gam s) (Some tab) (mf_C s).

Definition fill (s : mfm_state) (t n : nat) (tab : list R) : list R :=
  match nth_error tab t with
  | Some v => if gtb 0 v then upd tab t (series (mf_lam s) (mf_gam s) (mf_C s) t (S n)) else tab
  | None => tab
  end.

Lemma get_V_tab : forall s t n tab, mf_tab s = Some tab ->
  mfm_get_V series t n s =
  match nth_error tab t with
  | None => UB
  | Some v => Ok (if gtb 0 v then series (mf_lam s) (mf_gam s) (mf_C s) t (S n) else v,
                  with_tab s (fill s t n tab))
  end.
Proof.
  intros s t n tab H. unfold mfm_get_V, fill. rewrite H, H. unfold at_.
  destruct (nth_error tab t) as [v|]; auto. simpl. destruct (gtb 0 v); auto.
  destruct s as [l g tb C]. simpl in *. subst. auto.
Qed.

Lemma fill_length : forall s t n tab, length (fill s t n tab) = length tab.
Proof.
  intros. unfold fill. destruct (nth_error tab t); auto. destruct (gtb 0 r); auto. apply upd_length.
Qed.

Lemma do_call_tab : forall s c tab, mf_tab s = Some tab ->
  do_call s c = if (call_k c + 1 <? length tab)%nat
                then Ok (with_tab s (fill s (call_k c + 1) (call_n c) (fill s (call_k c) (call_n c) tab)))
                else UB.
Proof.
  intros s c tab H. rewrite do_call_reads. rewrite (get_V_tab _ _ _ _ H).
  destruct (nth_error tab (call_k c)) as [v|] eqn:E.
  - cbn [rbind]. rewrite (get_V_tab _ _ _ (fill s (call_k c) (call_n c) tab)) by auto.
    assert (L := fill_length s (call_k c) (call_n c) tab).
    destruct (nth_error (fill s (call_k c) (call_n c) tab) (call_k c + 1)) as [v2|] eqn:E2; cbn [rbind].
    + assert (call_k c + 1 < length tab)%nat by (rewrite <- L; apply nth_error_Some; congruence).
      replace (call_k c + 1 <? length tab)%nat with true by (symmetry; apply Nat.ltb_lt; auto). auto.
    + apply nth_error_None in E2. replace (call_k c + 1 <? length tab)%nat with false; auto.
      symmetry. apply Nat.ltb_ge. lia.
  - cbn [rbind]. apply nth_error_None in E. replace (call_k c + 1 <? length tab)%nat with false; auto.
    symmetry. apply Nat.ltb_ge. lia.
Qed.

Definition touches (t : nat) (c : mcall) : bool := (call_k c =? t)%nat || (call_k c + 1 =? t)%nat.

Lemma fill_nth : forall s t n tab t', nth_error (fill s t n tab) t' =
  match nth_error tab t' with
  | Some v => if (t =? t')%nat && gtb 0 v then Some (series (mf_lam s) (mf_gam s) (mf_C s) t' (S n)) else Some v
  | None => None
  end.
Proof.
  intros s t n tab t'. unfold fill. destruct (nth_error tab t) as [v|] eqn:E.
  - destruct (Nat.eqb_spec t t') as [->|Hne].
    + rewrite E. simpl. destruct (gtb 0 v); auto. apply nth_error_upd_same. apply nth_error_Some. congruence.
    + simpl. destruct (gtb 0 v); [rewrite nth_error_upd_other by auto|]; destruct (nth_error tab t'); auto.
  - destruct (nth_error tab t') as [v|] eqn:E'; auto. destruct (Nat.eqb_spec t t'); auto. subst. congruence.
Qed.

Lemma do_call_entry : forall s c tab t v, mf_tab s = Some tab -> nth_error tab t = Some v ->
  nth_error (fill s (call_k c + 1) (call_n c) (fill s (call_k c) (call_n c) tab)) t =
  Some (if touches t c && gtb 0 v then series (mf_lam s) (mf_gam s) (mf_C s) t (S (call_n c)) else v).
Proof.
  intros s c tab t v Ht Hv. rewrite !fill_nth, Hv. unfold touches.
  destruct (call_k c =? t)%nat eqn:E1, (call_k c + 1 =? t)%nat eqn:E2; simpl; auto;
    destruct (gtb 0 v) eqn:E3; simpl; auto.
  - apply Nat.eqb_eq in E1. apply Nat.eqb_eq in E2. lia.
  - rewrite E3. auto.
Qed.

Lemma run_tab : forall cs s tab, mf_tab s = Some tab ->
  rfold do_call cs s =
  if forallb (fun c => call_k c + 1 <? length tab)%nat cs
  then Ok (with_tab s (fold_left (fun tb c => fill s (call_k c + 1) (call_n c) (fill s (call_k c) (call_n c) tb)) cs tab))
  else UB.
Proof.
  induction cs as [|c cs IH]; intros s tab H; cbn [rfold forallb fold_left].
  - f_equal. destruct s. simpl in *. subst. auto.
  - rewrite (do_call_tab _ _ _ H). destruct (call_k c + 1 <? length tab)%nat eqn:E; cbn [rbind andb]; auto.
    rewrite (IH _ (fill s (call_k c + 1) (call_n c) (fill s (call_k c) (call_n c) tab))) by auto.
    rewrite !fill_length. destruct (forallb _ cs); auto.
Qed.

Lemma fold_fill : forall cs s tab t v, mf_tab s = Some tab -> nth_error tab t = Some v ->
  nth_error (fold_left (fun tb c => fill s (call_k c + 1) (call_n c) (fill s (call_k c) (call_n c) tb)) cs tab) t =
  Some (if gtb 0 v then match find (touches t) cs with
                        | Some c => series (mf_lam s) (mf_gam s) (mf_C s) t (S (call_n c))
                        | None => v end
        else v).
Proof.
  induction cs as [|c cs IH]; intros s tab t v H Hv; cbn [fold_left find].
  - rewrite Hv. destruct (gtb 0 v); auto.
  - pose proof (IH (with_tab s (fill s (call_k c + 1) (call_n c) (fill s (call_k c) (call_n c) tab)))
       _ t _ eq_refl (do_call_entry s c tab t v H Hv)) as P.
    cbn [mf_lam mf_gam mf_C with_tab] in P.
    etransitivity; [exact P|]. f_equal.
    destruct (touches t c) eqn:T; simpl; auto. destruct (gtb 0 v) eqn:G; simpl.
    + rewrite (proj2 (gtb_false _ _)) by apply series_nonneg. auto.
    + rewrite G. auto.
Qed.

(** Bounds and contents after a sequence of calls on a fresh object. *)
Lemma mfm_calls : forall s0 c0 cs, mf_tab s0 = None ->
  (Forall (fun c => (call_k c < call_n c0)%nat) (c0 :: cs) ->
     exists s', rfold do_call (c0 :: cs) s0 = Ok s' /\
       exists tab, mf_tab s' = Some tab /\ length tab = S (call_n c0) /\
       forall t, (t <= call_n c0)%nat ->
         nth_error tab t = Some (match find (touches t) (c0 :: cs) with
                                 | Some c => series (mf_lam s0) (mf_gam s0) (mf_C s') t (S (call_n c))
                                 | None => -1 end)) /\
  (~ Forall (fun c => (call_k c < call_n c0)%nat) (c0 :: cs) -> rfold do_call (c0 :: cs) s0 = UB).
Proof.
  intros s0 c0 cs H0.
  set (s1 := mfm_init_VC (S (call_n c0)) s0).
  assert (E : rfold do_call (c0 :: cs) s0 = rfold do_call (c0 :: cs) s1).
  { cbn [rfold]. f_equal. rewrite !do_call_reads. f_equal. unfold mfm_get_V. rewrite H0. auto. }
  assert (Ht : mf_tab s1 = Some (repeat (-1) (S (call_n c0)))) by reflexivity.
  rewrite E, (run_tab _ _ _ Ht), repeat_length.
  assert (B : forallb (fun c => (call_k c + 1 <? S (call_n c0))%nat) (c0 :: cs) = true <->
              Forall (fun c => (call_k c < call_n c0)%nat) (c0 :: cs)).
  { rewrite forallb_forall, Forall_forall. split; intros H c Hc; specialize (H c Hc).
    - apply Nat.ltb_lt in H. lia.
    - apply Nat.ltb_lt. lia. }
  split.
  - intros HF. rewrite (proj2 B HF). eexists. split; [reflexivity|].
    eexists. split; [reflexivity|]. split.
    + assert (G : forall l tb, length (fold_left (fun tb c => fill s1 (call_k c + 1) (call_n c) (fill s1 (call_k c) (call_n c) tb)) l tb) = length tb).
      { induction l as [|c l IH]; intros tb; cbn [fold_left]; auto. rewrite IH, !fill_length. auto. }
      rewrite G. apply repeat_length.
    + intros t Hle.
      assert (Hn : nth_error (repeat (-1) (S (call_n c0))) t = Some (-1)).
      { rewrite nth_error_nth' with (d := -1) by (rewrite repeat_length; lia). f_equal. apply nth_repeat. }
      rewrite (fold_fill (c0 :: cs) _ _ _ _ Ht Hn). rewrite (proj2 (gtb_true 0 (-1))) by lra. reflexivity.
  - intros HF. destruct (forallb _ (c0 :: cs)) eqn:Eb; auto. exfalso. apply HF. apply B. auto.
Qed.

End Table.

(** ** Masses from given coefficients *)

Lemma get_V_cached : forall series t n s tab v, mf_tab s = Some tab -> nth_error tab t = Some v -> 0 <= v ->
  mfm_get_V series t n s = Ok (v, s).
Proof.
  intros series t n s tab v H Hv Hp. unfold mfm_get_V. rewrite H, H. unfold at_. rewrite Hv. cbn [rbind].
  rewrite (proj2 (gtb_false _ _)) by auto. auto.
Qed.

Section Masses.
Variable series : R -> R -> R -> nat -> nat -> R.
Variables (s : mfm_state) (tab : list R) (k : nat) (V1 V2 : R).
Hypothesis Htab : mf_tab s = Some tab.
Hypothesis H1 : nth_error tab k = Some V1.
Hypothesis H2 : nth_error tab (k + 1) = Some V2.
Hypothesis P1 : 0 < V1.
Hypothesis P2 : 0 < V2.

Definition mfm_den (n : nat) : R := INR n + INR k * mf_gam s + V2 / V1 * mf_gam s.

Lemma mfm_ex_val : forall n lg pr card, mfm_mass_ex series n k lg pr card s =
  Ok (if lg then (if pr then xlog (IZR card + mf_gam s) else xsublog (xlog (IZR card + mf_gam s)) (mfm_den n))
      else Fin (if pr then IZR card + mf_gam s else (IZR card + mf_gam s) / mfm_den n), s).
Proof.
  intros. unfold mfm_mass_ex. rewrite (get_V_cached _ _ _ _ _ _ Htab H1) by lra. cbn [rbind].
  rewrite (get_V_cached _ _ _ _ _ _ Htab H2) by lra. reflexivity.
Qed.

Lemma mfm_new_val : forall n lg pr, mfm_mass_new series n k lg pr s =
  Ok (if lg then (if pr then xlog (V2 / V1 * mf_gam s) else xsublog (xlog (V2 / V1 * mf_gam s)) (mfm_den n))
      else Fin (if pr then V2 / V1 * mf_gam s else (V2 / V1 * mf_gam s) / mfm_den n), s).
Proof.
  intros. unfold mfm_mass_new. rewrite (get_V_cached _ _ _ _ _ _ Htab H1) by lra. cbn [rbind].
  rewrite (get_V_cached _ _ _ _ _ _ Htab H2) by lra. reflexivity.
Qed.

Lemma mfm_den_pos : forall n, 0 < mf_gam s -> 0 < mfm_den n /\ 0 < V2 / V1 * mf_gam s.
Proof.
  intros n Hg. unfold mfm_den. pose proof (pos_INR n). pose proof (pos_INR k).
  assert (0 < V2 / V1) by (apply Rdiv_lt_0_compat; auto).
  assert (0 < V2 / V1 * mf_gam s) by (apply Rmult_lt_0_compat; auto).
  assert (0 <= INR k * mf_gam s) by (apply Rmult_le_pos; lra). lra.
Qed.

Lemma mfm_sum : forall sizes, 0 < mf_gam s -> length sizes = k ->
  exists ws,
    map (fun m => r <- mfm_mass_ex series (list_sum sizes) k false false (Z.of_nat m) s ;; Ok (fst r)) sizes
    ++ [r <- mfm_mass_new series (list_sum sizes) k false false s ;; Ok (fst r)]
    = map (fun w => Ok (Fin w)) ws /\ Forall (fun w => 0 < w) ws /\ sumR ws = 1.
Proof.
  intros sizes Hg Hk. destruct (mfm_den_pos (list_sum sizes) Hg) as [Hden Hnew].
  set (den := mfm_den (list_sum sizes)) in *.
  exists (map (fun m => (INR m - - mf_gam s) * / den) sizes ++ [(V2 / V1 * mf_gam s) * / den]).
  split; [|split].
  - rewrite map_app, map_map. f_equal.
    + apply map_ext. intros m. rewrite mfm_ex_val. cbn [rbind fst]. fold den.
      rewrite <- INR_IZR_INZ. do 2 f_equal. unfold Rdiv. f_equal. lra.
    + rewrite mfm_new_val. reflexivity.
  - apply Forall_app. split.
    + apply Forall_forall. intros w Hw. apply in_map_iff in Hw. destruct Hw as (m & <- & _).
      pose proof (pos_INR m). apply Rmult_lt_0_compat; [lra|]. apply Rinv_0_lt_compat; auto.
    + constructor; auto. apply Rmult_lt_0_compat; auto. apply Rinv_0_lt_compat; auto.
  - rewrite sumR_app. rewrite sum_masses with (c := / den) (d := - mf_gam s) by auto.
    rewrite sumR_cons. unfold sumR at 1. cbn [fold_right]. rewrite Hk.
    assert (E : INR (list_sum sizes) - - mf_gam s * INR k + V2 / V1 * mf_gam s = den) by (unfold den, mfm_den; ring).
    transitivity ((INR (list_sum sizes) - - mf_gam s * INR k + V2 / V1 * mf_gam s) * / den); [ring|].
    rewrite E. field. lra.
Qed.

Lemma mfm_scales : forall n pr, 0 < mf_gam s ->
  (forall card, (1 <= card)%Z ->
     log_of (r <- mfm_mass_ex series n k true pr card s ;; Ok (fst r)) (r <- mfm_mass_ex series n k false pr card s ;; Ok (fst r))) /\
  log_of (r <- mfm_mass_new series n k true pr s ;; Ok (fst r)) (r <- mfm_mass_new series n k false pr s ;; Ok (fst r)) /\
  exists c, 0 < c /\
  (forall card, (1 <= card)%Z ->
     scaled c (r <- mfm_mass_ex series n k false false card s ;; Ok (fst r)) (r <- mfm_mass_ex series n k false true card s ;; Ok (fst r))) /\
  scaled c (r <- mfm_mass_new series n k false false s ;; Ok (fst r)) (r <- mfm_mass_new series n k false true s ;; Ok (fst r)).
Proof.
  intros n pr Hg. destruct (mfm_den_pos n Hg) as [Hden Hnew]. split; [|split].
  - intros card Hc. pose proof (card_pos _ Hc). rewrite !mfm_ex_val. cbn [rbind fst]. rewrite xlog_pos by lra.
    destruct pr; [|rewrite xsublog_fin by lra]; eexists; (split; [|split; reflexivity]); [lra|apply Rdiv_lt_0_compat; lra].
  - rewrite !mfm_new_val. cbn [rbind fst]. rewrite xlog_pos by lra.
    destruct pr; [|rewrite xsublog_fin by lra]; eexists; (split; [|split; reflexivity]); [lra|apply Rdiv_lt_0_compat; lra].
  - exists (mfm_den n). split; auto. split; [intros card Hc; rewrite !mfm_ex_val|rewrite !mfm_new_val]; eexists; split; reflexivity.
Qed.
End Masses.

(** ** The series *)



Lemma xexp_fold : forall (f : nat -> R) js acc, (forall i, In i js -> 0 <= f i) ->
  xexp (fold_left (fun a i => xadd a (xlog (f i))) js acc) = xexp acc * prodR (map f js).
Proof.
  intros f js. induction js as [|j js IH]; intros acc H; cbn [fold_left map].
  - unfold prodR. simpl. lra.
  - rewrite IH by (intros; apply H; simpl; auto). rewrite xexp_add, xexp_log by (apply H; simpl; auto).
    rewrite prodR_cons. lra.
Qed.

Lemma prodR_zero : forall l, In 0 l -> prodR l = 0.
Proof.
  induction l as [|x l IH]; intros H; [destruct H|]. rewrite prodR_cons.
  destruct H as [-> | H]; [lra|]. rewrite IH by auto. lra.
Qed.

Lemma falling_cons : forall k t, (1 <= t)%nat ->
  falling k t = INR k * prodR (map (fun i => INR k - INR i) (seq 1 (t - 1))).
Proof.
  intros k t Ht. unfold falling. replace t with (S (t - 1)) at 1 by lia. cbn [seq map]. rewrite prodR_cons.
  simpl INR. rewrite Rminus_0_r. auto.
Qed.

Lemma u32_nonneg : forall k i, (Z.of_nat i <= 2 ^ 32)%Z -> 0 <= IZR (u32_sub k i).
Proof.
  intros k i H. apply IZR_le. unfold u32_sub. destruct (i <=? k)%nat; lia.
Qed.

Lemma log_num_exact : forall k t, (1 <= t)%nat -> (Z.of_nat t <= 2 ^ 32)%Z -> xexp (mfm_log_num k t) = falling k t.
Proof.
  intros k t Ht Hb. unfold mfm_log_num.
  rewrite (xexp_fold (fun i => IZR (u32_sub k i))).
  - rewrite xexp_log by apply pos_INR. rewrite falling_cons by auto. 
    destruct (le_lt_dec t k) as [Hle|Hlt].
    + f_equal. f_equal. apply map_ext_in. intros i Hi. apply in_seq in Hi. unfold u32_sub.
      replace (i <=? k)%nat with true by (symmetry; apply Nat.leb_le; lia).
      rewrite <- INR_IZR_INZ. apply minus_INR. lia.
    + destruct k as [|k].
      * simpl INR. lra.
      * rewrite !prodR_zero; auto.
        -- apply in_map_iff. exists (S k). split; [lra|]. apply in_seq. lia.
        -- apply in_map_iff. exists (S k). split.
           ++ unfold u32_sub. rewrite Nat.leb_refl, Nat.sub_diag. reflexivity.
           ++ apply in_seq. lia.
  - intros i Hi. apply in_seq in Hi. apply u32_nonneg. lia.
Qed.

Lemma log_den_exact : forall g k n, 0 < g -> (1 <= k)%nat -> (1 <= n)%nat ->
  exp (mfm_log_den g k n) = rising (g * INR k) n.
Proof.
  intros g k n Hg Hk Hn. unfold mfm_log_den.
  assert (Hp : 0 < g * INR k) by (apply Rmult_lt_0_compat; auto; apply lt_0_INR; lia).
  assert (G : forall js a, exp (fold_left (fun acc i => acc + ln (g * INR k + INR i)) js a) =
                           exp a * prodR (map (fun i => g * INR k + INR i) js)).
  { induction js as [|j js IH]; intros a; cbn [fold_left map]; [unfold prodR; simpl; lra|].
    rewrite IH, exp_plus, exp_ln by (pose proof (pos_INR j); lra). rewrite prodR_cons. lra. }
  rewrite G, exp_ln by auto. unfold rising. replace n with (S (n - 1)) at 2 by lia.
  cbn [seq map]. rewrite prodR_cons. simpl INR. rewrite Rplus_0_r. auto.
Qed.

Lemma poisson_exact : forall j l, 0 < l -> exp (poisson_lpmf j l) = l ^ j * exp (- l) / INR (fact j).
Proof.
  intros j l Hl. unfold poisson_lpmf. unfold Rminus. rewrite !exp_plus.
  rewrite (exp_Ropp (ln _)), exp_ln by apply INR_fact_lt_0.
  rewrite <- ln_pow by auto. rewrite exp_ln by (apply pow_lt; auto). reflexivity.
Qed.

Lemma term_exact : forall l g C t n k, 0 < l -> 0 < g -> (1 <= t)%nat -> (Z.of_nat t <= 2 ^ 32)%Z ->
  (1 <= n)%nat -> (1 <= k)%nat ->
  mfm_term l g C t n k = mh_term l g t n k * exp (- C).
Proof.
  intros l g C t n k Hl Hg Ht Hb Hn Hk. unfold mfm_term. rewrite xexp_add, log_num_exact by auto. simpl xexp.
  unfold Rminus. rewrite !exp_plus, exp_Ropp, log_den_exact, poisson_exact by auto. unfold mh_term, Rdiv. ring.
Qed.

Lemma falling_pos : forall k t, (t <= k)%nat -> 0 < falling k t.
Proof.
  intros k t H. unfold falling. assert (G : forall js, (forall i, In i js -> (i < k)%nat) -> 0 < prodR (map (fun i => INR k - INR i) js)).
  { induction js as [|j js IH]; intros Hj; cbn [map]; [unfold prodR; simpl; lra|]. rewrite prodR_cons.
    apply Rmult_lt_0_compat; [|apply IH; intros; apply Hj; simpl; auto].
    assert (INR j < INR k) by (apply lt_INR; apply Hj; simpl; auto). lra. }
  apply G. intros i Hi. apply in_seq in Hi. lia.
Qed.
Lemma falling_zero : forall k t, (k < t)%nat -> falling k t = 0.
Proof.
  intros k t H. unfold falling. apply prodR_zero. apply in_map_iff. exists k. split; [lra|]. apply in_seq. lia.
Qed.
Lemma falling_S : forall k t, falling k (S t) = falling k t * (INR k - INR t).
Proof.
  intros k t. unfold falling. rewrite seq_S, map_app, prodR_app. cbn [map]. rewrite prodR_cons.
  unfold prodR at 2. simpl. ring.
Qed.

Lemma term_pos : forall l g t n k, 0 < l -> 0 < g -> (1 <= k)%nat -> (t <= k)%nat -> 0 < mh_term l g t n k.
Proof.
  intros l g t n k Hl Hg Hk Ht. unfold mh_term.
  assert (0 < g * INR k) by (apply Rmult_lt_0_compat; auto; apply lt_0_INR; lia).
  repeat apply Rmult_lt_0_compat; try apply Rinv_0_lt_compat; auto using falling_pos, rising_pos, INR_fact_lt_0, pow_lt, exp_pos.
Qed.
Lemma term_zero : forall l g t n k, (k < t)%nat -> mh_term l g t n k = 0.
Proof. intros. unfold mh_term. rewrite falling_zero by auto. unfold Rdiv. ring. Qed.

(** The recursion of the coefficients holds term by term. *)
Lemma term_recursion : forall l g t n k, 0 < g -> (1 <= k)%nat ->
  mh_term l g t n k = (INR n + g * INR t) * mh_term l g t (S n) k + g * mh_term l g (S t) (S n) k.
Proof.
  intros l g t n k Hg Hk. unfold mh_term. rewrite falling_S, rising_S.
  assert (Hp : 0 < g * INR k) by (apply Rmult_lt_0_compat; auto; apply lt_0_INR; lia).
  pose proof (rising_pos (g * INR k) n Hp). pose proof (pos_INR n). pose proof (INR_fact_lt_0 (k - 1)).
  field. repeat split; lra.
Qed.

(** ** Termination of the loop *)

Lemma falling_ratio : forall k t, (t <= k)%nat -> falling (S k) t * (INR k + 1 - INR t) = falling k t * (INR k + 1).
Proof.
  intros k t. induction t as [|t IH]; intros Ht.
  - unfold falling. simpl. lra.
  - rewrite !falling_S. rewrite S_INR. assert (IH' := IH ltac:(lia)).
    replace (falling (S k) t * (INR k + 1 - INR t) * (INR k + 1 - INR (S t))) with
      (falling k t * (INR k + 1) * (INR k + 1 - INR (S t))) by (rewrite <- IH'; auto).
    rewrite S_INR. ring.
Qed.

Lemma rising_mono : forall x y n, 0 < x -> x <= y -> rising x n <= rising y n.
Proof.
  intros x y n Hx Hy. induction n as [|n IH]; [unfold rising; simpl; lra|].
  rewrite !rising_S. pose proof (pos_INR n). apply Rmult_le_compat; try lra. left. apply rising_pos; auto.
Qed.

Lemma term_ratio : forall l g t n k, 0 < l -> 0 < g -> (1 <= k)%nat -> (t <= k)%nat ->
  mh_term l g t n (S k) <= mh_term l g t n k * ((INR t + 1) * l / INR k).
Proof.
  intros l g t n k Hl Hg Hk Ht. unfold mh_term.
  assert (Hk' : 0 < INR k) by (apply lt_0_INR; lia).
  assert (Hp : 0 < g * INR k) by (apply Rmult_lt_0_compat; auto).
  assert (Hp' : 0 < g * INR (S k)) by (apply Rmult_lt_0_compat; auto; apply lt_0_INR; lia).
  pose proof (rising_pos _ n Hp) as R1. pose proof (rising_pos _ n Hp') as R2.
  assert (Hr : rising (g * INR k) n <= rising (g * INR (S k)) n).
  { apply rising_mono; auto. apply Rmult_le_compat_l; [lra|]. apply le_INR. lia. }
  replace (S k - 1)%nat with (S (k - 1)) by lia. rewrite fact_simpl, mult_INR. simpl pow.
  replace (S (k - 1)) with k by lia.
  pose proof (INR_fact_lt_0 (k - 1)) as Hf. pose proof (falling_pos k t Ht) as F1.
  pose proof (falling_ratio k t Ht) as Fr.
  assert (Htk : INR t <= INR k) by (apply le_INR; auto). pose proof (pos_INR t) as Ht0.
  set (X := l ^ (k - 1) * exp (- l)). assert (HX : 0 < X) by (unfold X; apply Rmult_lt_0_compat; [apply pow_lt; auto|apply exp_pos]).
  assert (F2 : falling (S k) t <= falling k t * (INR t + 1)).
  { apply Rmult_le_reg_r with (INR k + 1 - INR t); [lra|]. rewrite Fr.
    rewrite Rmult_assoc. apply Rmult_le_compat_l; [lra|].
    assert (0 <= INR t * (INR k - INR t)) by (apply Rmult_le_pos; lra). lra. }
  replace (falling (S k) t / rising (g * INR (S k)) n * (l * l ^ (k - 1) * exp (- l) / (INR k * INR (fact (k - 1)))))
    with ((falling (S k) t / rising (g * INR (S k)) n) * (X * (l / (INR k * INR (fact (k - 1)))))) by (unfold X; field; repeat split; lra).
  replace (falling k t / rising (g * INR k) n * (X / INR (fact (k - 1))) * ((INR t + 1) * l / INR k))
    with ((falling k t * (INR t + 1) / rising (g * INR k) n) * (X * (l / (INR k * INR (fact (k - 1)))))) by (unfold X; field; repeat split; lra).
  apply Rmult_le_compat_r.
  - left. apply Rmult_lt_0_compat; auto. apply Rdiv_lt_0_compat; auto. apply Rmult_lt_0_compat; auto.
  - unfold Rdiv. apply Rmult_le_compat; auto.
    + left. apply falling_pos. lia.
    + left. apply Rinv_0_lt_compat. auto.
    + apply Rinv_le_contravar; auto.
Qed.

Lemma nat_above : forall x, exists k : nat, x <= INR k.
Proof.
  intros x. exists (Z.to_nat (up (Rabs x))). destruct (archimed (Rabs x)) as [H _].
  pose proof (Rabs_pos x). pose proof (Rle_abs x). rewrite INR_IZR_INZ, Z2Nat.id; [lra|].
  apply le_IZR. lra.
Qed.

Lemma term_small : forall l g t n e, 0 < l -> 0 < g -> 0 < e -> forall m, exists k, (m <= k)%nat /\ mh_term l g t n k <= e.
Proof.
  intros l g t n e Hl Hg He m.
  destruct (nat_above (2 * ((INR t + 1) * l))) as [k0 Hk0].
  set (k1 := (m + t + k0 + 1)%nat).
  assert (G : forall j, mh_term l g t n (k1 + j) <= mh_term l g t n k1 * (1 / 2) ^ j).
  { induction j as [|j IH].
    - rewrite Nat.add_0_r. simpl. lra.
    - replace (k1 + S j)%nat with (S (k1 + j)) by lia.
      assert (P : 0 < mh_term l g t n (k1 + j)) by (apply term_pos; auto; unfold k1; lia).
      eapply Rle_trans; [apply term_ratio; auto; unfold k1; lia|].
      assert (Hk : INR k0 <= INR (k1 + j)) by (apply le_INR; unfold k1; lia).
      assert (Hp : 0 < INR (k1 + j)) by (apply lt_0_INR; unfold k1; lia).
      assert (B : (INR t + 1) * l / INR (k1 + j) <= 1 / 2).
      { apply Rmult_le_reg_r with (INR (k1 + j)); auto. unfold Rdiv at 1. rewrite Rmult_assoc, Rinv_l by lra. lra. }
      eapply Rle_trans; [apply Rmult_le_compat_l; [lra|exact B]|].
      simpl pow. assert (mh_term l g t n (k1 + j) * (1 / 2) <= mh_term l g t n k1 * (1 / 2) ^ j * (1 / 2)) by lra. lra. }
  assert (P1 : 0 < mh_term l g t n k1) by (apply term_pos; auto; unfold k1; lia).
  destruct (pow_lt_1_zero (1 / 2)) with (y := e / mh_term l g t n k1) as [N HN].
  - rewrite Rabs_pos_eq; lra.
  - apply Rdiv_lt_0_compat; auto.
  - exists (k1 + N)%nat. split; [unfold k1; lia|].
    eapply Rle_trans; [apply G|]. specialize (HN N (le_n N)).
    rewrite Rabs_pos_eq in HN by (apply pow_le; lra).
    apply Rle_trans with (mh_term l g t n k1 * (e / mh_term l g t n k1)).
    + apply Rmult_le_compat_l; lra.
    + right. field. lra.
Qed.


Lemma partial_S : forall l g t n K, partial l g t n (S K) = partial l g t n K + mh_term l g t n (S K).
Proof.
  intros. unfold partial. rewrite seq_S, map_app, sumR_app. cbn [map]. rewrite sumR_cons. unfold sumR at 2. simpl. lra.
Qed.
Lemma term_nonneg : forall l g t n k, 0 < l -> 0 < g -> (1 <= k)%nat -> 0 <= mh_term l g t n k.
Proof.
  intros l g t n k Hl Hg Hk. destruct (le_lt_dec t k); [left; apply term_pos; auto|rewrite term_zero by auto; lra].
Qed.
Lemma partial_mono : forall l g t n K j, 0 < l -> 0 < g -> partial l g t n K <= partial l g t n (K + j).
Proof.
  intros l g t n K j Hl Hg. induction j as [|j IH]; [rewrite Nat.add_0_r; lra|].
  replace (K + S j)%nat with (S (K + j)) by lia. rewrite partial_S.
  pose proof (term_nonneg l g t n (S (K + j)) Hl Hg). lra || (assert (0 <= mh_term l g t n (S (K + j))) by (apply H; lia); lra).
Qed.
Lemma partial_zero : forall l g t n K, (K < t)%nat -> partial l g t n K = 0.
Proof.
  intros l g t n K. induction K as [|K IH]; intros H; [reflexivity|]. rewrite partial_S, IH, term_zero by lia. lra.
Qed.
Lemma partial_pos : forall l g t n K, 0 < l -> 0 < g -> (1 <= K)%nat -> (t <= K)%nat -> 0 < partial l g t n K.
Proof.
  intros l g t n K Hl Hg HK Ht. destruct K as [|K]; [lia|]. rewrite partial_S.
  pose proof (term_pos l g t n (S K) Hl Hg ltac:(lia) Ht).
  assert (0 <= partial l g t n K).
  { pose proof (partial_mono l g t n 0 K Hl Hg) as M. simpl in M.
    change (partial l g t n 0) with 0 in M. auto. }
  lra.
Qed.

(** State of the loop after [K] terms. *)
Definition rate_after (l g : R) (t n K : nat) : R :=
  match K with
  | O => 1
  | S K' => if Req_EM_T (partial l g t n K') 0 then 1 else mh_term l g t n (S K') / partial l g t n K'
  end.

Lemma loop_step : forall fuel l g C t n K, 0 < l -> 0 < g -> (1 <= t)%nat -> (Z.of_nat t <= 2 ^ 32)%Z -> (1 <= n)%nat ->
  mfm_loop fuel l g C t n (S K) (partial l g t n K * exp (- C)) (rate_after l g t n K) =
  if gtb (rate_after l g t n K) tol then
    match fuel with
    | O => None
    | S f => mfm_loop f l g C t n (S (S K)) (partial l g t n (S K) * exp (- C)) (rate_after l g t n (S K))
    end
  else Some (partial l g t n K * exp (- C)).
Proof.
  intros fuel l g C t n K Hl Hg Ht Hb Hn. destruct fuel as [|fuel]; cbn [mfm_loop]; auto.
  destruct (gtb (rate_after l g t n K) tol); auto. rewrite term_exact by (auto; lia).
  rewrite partial_S, Rmult_plus_distr_r. f_equal. cbn [rate_after].
  pose proof (exp_pos (- C)) as He.
  destruct (Req_EM_T (partial l g t n K * exp (- C)) 0) as [E|E], (Req_EM_T (partial l g t n K) 0) as [E'|E']; auto.
  - exfalso. apply Rmult_integral in E. destruct E; [auto|lra].
  - exfalso. apply E. rewrite E'. lra.
  - field. split; [auto|lra].
Qed.

Lemma tol_pos : 0 < tol < 1.
Proof.
  unfold tol. assert (H : 1 < 10 ^ 8) by (simpl; lra). split.
  - apply Rinv_0_lt_compat. lra.
  - rewrite <- Rinv_1. apply Rinv_lt_contravar; lra.
Qed.

Lemma loop_ends : forall l g C t n, 0 < l -> 0 < g -> (1 <= t)%nat -> (Z.of_nat t <= 2 ^ 32)%Z -> (1 <= n)%nat ->
  exists K, (t <= K)%nat /\ 
    (forall fuel, (K <= fuel)%nat -> mfm_loop fuel l g C t n 1 0 1 = Some (partial l g t n K * exp (- C))) /\
    mh_term l g t n K <= tol * partial l g t n (K - 1).
Proof.
  intros l g C t n Hl Hg Ht Hb Hn. pose proof tol_pos as Htol.
  (* the loop stops at some K *)
  assert (Hex : exists K, (t < K)%nat /\ rate_after l g t n K <= tol).
  { pose proof (partial_pos l g t n t Hl Hg Ht (le_n t)) as P.
    destruct (term_small l g t n (tol * partial l g t n t) Hl Hg) with (m := S (S t)) as (k & Hk & Hs).
    { apply Rmult_lt_0_compat; lra. }
    exists k. split; [lia|]. destruct k as [|k]; [lia|]. cbn [rate_after].
    assert (Q : partial l g t n t <= partial l g t n k).
    { replace k with (t + (k - t))%nat by lia. apply partial_mono; auto. }
    destruct (Req_EM_T (partial l g t n k) 0); [lra|].
    apply Rmult_le_reg_r with (partial l g t n k); [lra|]. unfold Rdiv. rewrite Rmult_assoc, Rinv_l by lra.
    rewrite Rmult_1_r. eapply Rle_trans; [exact Hs|]. apply Rmult_le_compat_l; lra. }
  (* the first such K *)
  assert (Hmin : exists K, rate_after l g t n K <= tol /\ forall K', (K' < K)%nat -> tol < rate_after l g t n K').
  { destruct Hex as (K & _ & HK). revert HK.
    pattern K. apply (well_founded_induction lt_wf). clear K. intros K IH HK.
    destruct (Classical_Prop.classic (exists K', (K' < K)%nat /\ rate_after l g t n K' <= tol)) as [(K' & H1 & H2)|Hno].
    - exact (IH K' H1 H2).
    - exists K. split; auto. intros K' HK'. destruct (Rle_lt_dec (rate_after l g t n K') tol); auto.
      exfalso. apply Hno. eauto. }
  destruct Hmin as (K & HK & Hbefore).
  assert (HtK : (t < K)%nat).
  { destruct (le_lt_dec K t) as [Hle|]; auto. exfalso. destruct K as [|K]; [simpl in HK; lra|].
    cbn [rate_after] in HK. rewrite partial_zero in HK by lia. destruct (Req_EM_T 0 0); [lra|congruence]. }
  exists K. split; [lia|]. split.
  - intros fuel Hf.
    assert (G : forall j, (j <= K)%nat -> forall fuel, (K <= fuel + j)%nat ->
       mfm_loop fuel l g C t n (S j) (partial l g t n j * exp (- C)) (rate_after l g t n j) = Some (partial l g t n K * exp (- C))).
    { intros j Hj. remember (K - j)%nat as d eqn:Ed. revert j Hj Ed. induction d as [|d IH]; intros j Hj Ed fl Hfl.
      - replace j with K by lia. rewrite loop_step by auto. rewrite (proj2 (gtb_false _ _)) by auto. auto.
      - rewrite loop_step by auto. rewrite (proj2 (gtb_true _ _)) by (apply Hbefore; lia).
        destruct fl as [|fl]; [lia|]. apply IH; lia. }
    specialize (G 0%nat ltac:(lia) fuel ltac:(lia)).
    unfold partial at 1 in G. cbn [seq map rate_after] in G. unfold sumR at 1 in G. cbn [fold_right] in G.
    rewrite Rmult_0_l in G. auto.
  - destruct K as [|K]; [lia|]. cbn [rate_after] in HK. replace (S K - 1)%nat with K by lia.
    pose proof (partial_pos l g t n K Hl Hg ltac:(lia) ltac:(lia)) as P.
    destruct (Req_EM_T (partial l g t n K) 0); [lra|].
    apply Rmult_le_reg_r with (/ partial l g t n K); [apply Rinv_0_lt_compat; auto|].
    rewrite Rmult_assoc, Rinv_r, Rmult_1_r by lra. exact HK.
Qed.

(** A function computing the coefficients exists. *)
Lemma series_exists : exists series : R -> R -> R -> nat -> nat -> R,
  (forall l g C t n, 0 <= series l g C t n) /\
  (forall l g C t n, 0 < l -> 0 < g -> (1 <= t)%nat -> (Z.of_nat t <= 2 ^ 32)%Z -> (1 <= n)%nat ->
     exists fuel, mfm_loop fuel l g C t n 1 0 1 = Some (series l g C t n)).
Proof.
  assert (D : forall l g C t n, {v : R | 0 <= v /\ (0 < l -> 0 < g -> (1 <= t)%nat -> (Z.of_nat t <= 2 ^ 32)%Z -> (1 <= n)%nat ->
     exists fuel, mfm_loop fuel l g C t n 1 0 1 = Some v)}).
  { intros l g C t n.
    destruct (Rlt_dec 0 l) as [Hl|Hl]; [|exists 0; split; [lra|intros; contradiction]].
    destruct (Rlt_dec 0 g) as [Hg|Hg]; [|exists 0; split; [lra|intros; contradiction]].
    destruct (le_dec 1 t) as [Ht|Ht]; [|exists 0; split; [lra|intros; contradiction]].
    destruct (Z_le_dec (Z.of_nat t) (2 ^ 32)) as [Hb|Hb]; [|exists 0; split; [lra|intros; contradiction]].
    destruct (le_dec 1 n) as [Hn|Hn]; [|exists 0; split; [lra|intros; contradiction]].
    destruct (constructive_indefinite_ground_description_nat (fun fuel => mfm_loop fuel l g C t n 1 0 1 <> None)) as [f Hf].
    - intros f. destruct (mfm_loop f l g C t n 1 0 1); [left; discriminate|right; auto].
    - destruct (loop_ends l g C t n Hl Hg Ht Hb Hn) as (K & _ & HK & _). exists K. rewrite HK by auto. discriminate.
    - destruct (mfm_loop f l g C t n 1 0 1) as [v|] eqn:E; [|congruence]. exists v. split; [|eauto].
      destruct (loop_ends l g C t n Hl Hg Ht Hb Hn) as (K & HtK & HK & _).
      assert (M : forall f' fl k sum rate v, mfm_loop fl l g C t n k sum rate = Some v -> (fl <= f')%nat -> mfm_loop f' l g C t n k sum rate = Some v).
      { clear. induction f' as [|f' IH]; intros fl k sum rate v H Hle.
        - replace fl with 0%nat in H by lia. auto.
        - destruct fl as [|fl]; cbn [mfm_loop] in *.
          + destruct (gtb rate tol); [discriminate|auto].
          + destruct (gtb rate tol); auto. eapply IH; eauto. lia. }
      pose proof (M (f + K)%nat _ _ _ _ _ E ltac:(lia)) as E2. rewrite HK in E2 by lia. injection E2 as <-.
      apply Rmult_le_pos; [|left; apply exp_pos]. left. apply partial_pos; auto. lia. }
  exists (fun l g C t n => proj1_sig (D l g C t n)). split.
  - intros. destruct (D l g C t n) as [v [H1 H2]]. simpl. auto.
  - intros. destruct (D l g C t n) as [v [H5 H6]]. simpl. auto.
Qed.

(** ** The partition law *)


Lemma gibbs_old : forall V g x prev, In x prev -> 0 < g ->
  gibbs_type V g (sizes_of (x :: prev)) =
  V (S (length prev)) (length (distinct prev)) * prodR (map (fun m => rising g m) (sizes_of prev))
  * (INR (count_occ Nat.eq_dec prev x) + g).
Proof.
  intros V g x prev Hx Hg. pose proof (sizes_old_prod (fun m => rising g m) _ _ Hx) as P. cbv zeta beta in P.
  unfold gibbs_type. rewrite sizes_sum, sizes_length, distinct_old by auto. cbn [length].
  rewrite rising_S in P. pose proof (rising_pos g (count_occ Nat.eq_dec prev x) Hg).
  rewrite Rmult_assoc. f_equal. apply Rmult_eq_reg_r with (rising g (count_occ Nat.eq_dec prev x)); [|lra].
  rewrite P. ring.
Qed.

Lemma gibbs_new : forall V g x prev, ~ In x prev ->
  gibbs_type V g (sizes_of (x :: prev)) =
  V (S (length prev)) (S (length (distinct prev))) * prodR (map (fun m => rising g m) (sizes_of prev)) * g.
Proof.
  intros V g x prev Hx. unfold gibbs_type. rewrite sizes_sum, sizes_length, distinct_new by auto.
  rewrite sizes_new by auto. cbn [length map]. rewrite prodR_cons.
  assert (E : rising g 1 = g) by (unfold rising, prodR; simpl; ring). rewrite E. ring.
Qed.

Lemma partial_recursion : forall l g t n K, 0 < g ->
  partial l g t n K = (INR n + g * INR t) * partial l g t (S n) K + g * partial l g (S t) (S n) K.
Proof.
  intros l g t n K Hg. induction K as [|K IH].
  - unfold partial, sumR. simpl. lra.
  - rewrite !partial_S, IH, (term_recursion l g t n (S K)) by (auto; lia). ring.
Qed.

(** The object with the coefficients for [n] conditioning observations. *)
Definition mfm_with (l g C : R) (K n : nat) : mfm_state :=
  mkMfm l g (Some (map (fun t => partial l g t (S n) K * exp (- C)) (seq 0 (n + 2)))) C.

Lemma mfm_with_nth : forall l g C K n t, (t < n + 2)%nat ->
  nth_error (map (fun t => partial l g t (S n) K * exp (- C)) (seq 0 (n + 2))) t = Some (partial l g t (S n) K * exp (- C)).
Proof.
  intros l g C K n t Ht. apply map_nth_error with (f := fun t => partial l g t (S n) K * exp (- C)).
  rewrite nth_error_nth' with (d := 0%nat) by (rewrite seq_length; auto).
  rewrite seq_nth by auto. auto.
Qed.

Lemma distinct_le : forall al, (length (distinct al) <= length al)%nat.
Proof.
  intros al. rewrite <- sizes_length. pose proof (list_sum_ge _ (sizes_pos al)) as H.
  rewrite sizes_sum in H. auto.
Qed.

Lemma mfm_seating : forall series l g C K order p, 0 < l -> 0 < g -> (length order <= K)%nat ->
  seating (fun n k card => r <- mfm_mass_ex series n k false false card (mfm_with l g C K n) ;; Ok (fst r))
          (fun n k => r <- mfm_mass_new series n k false false (mfm_with l g C K n) ;; Ok (fst r)) order p ->
  p = gibbs_type (fun n k => partial l g k n K) g (sizes_of order)
      / gibbs_type (fun n k => partial l g k n K) g [1%nat].
Proof.
  intros series l g C K order p Hl Hg HK H. pose proof (exp_pos (- C)) as He.
  set (V := fun n k => partial l g k n K).
  assert (P1 : 0 < gibbs_type V g [1%nat]).
  { unfold gibbs_type. cbn [map]. rewrite prodR_cons. unfold prodR. simpl. unfold V.
    assert (E : rising g 1 = g) by (unfold rising, prodR; simpl; ring). rewrite E.
    apply Rmult_lt_0_compat; [|lra]. apply partial_pos; auto; inversion H; subst; simpl in HK; lia. }
  apply Rmult_eq_reg_r with (gibbs_type V g [1%nat]); [|lra].
  unfold Rdiv. rewrite Rmult_assoc, Rinv_l, Rmult_1_r by lra.
  assert (S1 : forall prev, prev <> [] -> (length prev < K)%nat ->
     V (length prev) (length (distinct prev)) =
     V (S (length prev)) (length (distinct prev)) *
      (INR (length prev) + INR (length (distinct prev)) * g
         + V (S (length prev)) (length (distinct prev) + 1)%nat / V (S (length prev)) (length (distinct prev)) * g) /\
     0 < V (S (length prev)) (length (distinct prev)) /\ 0 < V (S (length prev)) (length (distinct prev) + 1)%nat).
  { intros prev Hne Hlen. pose proof (distinct_nonempty _ Hne). pose proof (distinct_le prev).
    assert (A : 0 < V (S (length prev)) (length (distinct prev))) by (apply partial_pos; auto; lia).
    assert (B : 0 < V (S (length prev)) (length (distinct prev) + 1)%nat) by (apply partial_pos; auto; lia).
    split; auto. unfold V at 1. rewrite partial_recursion by auto. fold (V (S (length prev)) (length (distinct prev))).
    replace (partial l g (S (length (distinct prev))) (S (length prev)) K) with (V (S (length prev)) (length (distinct prev) + 1)%nat)
      by (unfold V; f_equal; lia).
    field. lra. }
  assert (M : forall prev V1 V2, V1 = V (S (length prev)) (length (distinct prev)) ->
     V2 = V (S (length prev)) (length (distinct prev) + 1)%nat -> 0 < V1 -> V2 * exp (- C) / (V1 * exp (- C)) = V2 / V1).
  { intros prev V1 V2 _ _ HV. field. split; lra. }
  induction H as [x|prev x p v Hs IH Hx Hv|prev x p v Hs IH Hx Hv].
  - unfold sizes_of. simpl. destruct (Nat.eq_dec x x); [|congruence]. lra.
  - assert (Hne : prev <> []) by (intros ->; auto). simpl in HK.
    destruct (S1 prev Hne ltac:(lia)) as (E & A & B). specialize (IH ltac:(lia)).
    pose proof (distinct_le prev) as Hd.
    rewrite gibbs_old by auto. fold V.
    rewrite (@mfm_ex_val series (mfm_with l g C K (length prev)) _ (length (distinct prev))
       (V (S (length prev)) (length (distinct prev)) * exp (- C)) (V (S (length prev)) (length (distinct prev) + 1)%nat * exp (- C)) eq_refl) in Hv.
    2,3: apply mfm_with_nth; lia. 2,3: apply Rmult_lt_0_compat; auto.
    cbn [rbind fst] in Hv. injection Hv as <-. unfold mfm_den. cbn [mf_gam mfm_with].
    rewrite (M prev _ _ eq_refl eq_refl A). rewrite <- INR_IZR_INZ.
    set (den := INR (length prev) + INR (length (distinct prev)) * g + V (S (length prev)) (length (distinct prev) + 1)%nat / V (S (length prev)) (length (distinct prev)) * g) in *.
    assert (Dp : 0 < den).
    { unfold den. pose proof (pos_INR (length prev)). assert (0 <= INR (length (distinct prev)) * g) by (apply Rmult_le_pos; [apply pos_INR|lra]).
      assert (0 < V (S (length prev)) (length (distinct prev) + 1)%nat / V (S (length prev)) (length (distinct prev)) * g)
        by (apply Rmult_lt_0_compat; auto; apply Rdiv_lt_0_compat; auto). lra. }
    transitivity (p * gibbs_type V g [1%nat] * ((INR (count_occ Nat.eq_dec prev x) + g) / den)); [unfold Rdiv; ring|].
    rewrite IH. unfold gibbs_type at 1. rewrite sizes_sum, sizes_length, E. field. lra.
  - assert (Hne : prev <> []) by (intros ->; inversion Hs). simpl in HK.
    destruct (S1 prev Hne ltac:(lia)) as (E & A & B). specialize (IH ltac:(lia)).
    pose proof (distinct_le prev) as Hd.
    rewrite gibbs_new by auto. fold V.
    rewrite (@mfm_new_val series (mfm_with l g C K (length prev)) _ (length (distinct prev))
       (V (S (length prev)) (length (distinct prev)) * exp (- C)) (V (S (length prev)) (length (distinct prev) + 1)%nat * exp (- C)) eq_refl) in Hv.
    2,3: apply mfm_with_nth; lia. 2,3: apply Rmult_lt_0_compat; auto.
    cbn [rbind fst] in Hv. injection Hv as <-. unfold mfm_den. cbn [mf_gam mfm_with].
    rewrite (M prev _ _ eq_refl eq_refl A).
    set (den := INR (length prev) + INR (length (distinct prev)) * g + V (S (length prev)) (length (distinct prev) + 1)%nat / V (S (length prev)) (length (distinct prev)) * g) in *.
    assert (Dp : 0 < den).
    { unfold den. pose proof (pos_INR (length prev)). assert (0 <= INR (length (distinct prev)) * g) by (apply Rmult_le_pos; [apply pos_INR|lra]).
      assert (0 < V (S (length prev)) (length (distinct prev) + 1)%nat / V (S (length prev)) (length (distinct prev)) * g)
        by (apply Rmult_lt_0_compat; auto; apply Rdiv_lt_0_compat; auto). lra. }
    transitivity (p * gibbs_type V g [1%nat] * (V (S (length prev)) (length (distinct prev) + 1)%nat / V (S (length prev)) (length (distinct prev)) * g / den)); [unfold Rdiv; ring|].
    rewrite IH. unfold gibbs_type at 1. rewrite sizes_sum, sizes_length, E.
    replace (S (length (distinct prev))) with (length (distinct prev) + 1)%nat by lia. field. split; lra.
Qed.

Lemma mfm_loop_mono : forall fuel l g C t n k sum rate v, mfm_loop fuel l g C t n k sum rate = Some v ->
  forall fuel', (fuel <= fuel')%nat -> mfm_loop fuel' l g C t n k sum rate = Some v.
Proof.
  induction fuel as [|f IH]; intros l g C t n k sum rate v H fuel' Hf.
  - cbn [mfm_loop] in H. destruct fuel'; cbn [mfm_loop]; destruct (gtb rate tol); try discriminate; auto.
  - destruct fuel' as [|f']; [lia|]. cbn [mfm_loop] in *. destruct (gtb rate tol); auto.
    cbv zeta in *. apply IH with (1 := H). lia.
Qed.

Lemma loop_positive : forall l g C t n fuel v, 0 < l -> 0 < g -> (1 <= t)%nat -> (Z.of_nat t <= 2 ^ 32)%Z -> (1 <= n)%nat ->
  mfm_loop fuel l g C t n 1 0 1 = Some v -> 0 < v.
Proof.
  intros l g C t n fuel v Hl Hg Ht Ht2 Hn H.
  destruct (loop_ends l g C t n Hl Hg Ht Ht2 Hn) as (K & HK & E & _).
  apply mfm_loop_mono with (fuel' := Nat.max K fuel) in H; [|lia].
  rewrite E in H by lia. injection H as <-.
  apply Rmult_lt_0_compat; [apply partial_pos; auto; lia|apply exp_pos].
Qed.

Lemma mfm_seating_total : forall series l g C K order, 0 < l -> 0 < g -> (length order <= K)%nat -> order <> [] ->
  exists p, seating (fun n k card => r <- mfm_mass_ex series n k false false card (mfm_with l g C K n) ;; Ok (fst r))
          (fun n k => r <- mfm_mass_new series n k false false (mfm_with l g C K n) ;; Ok (fst r)) order p.
Proof.
  intros series l g C K order Hl Hg. induction order as [|x prev IH]; intros HK Hne; [congruence|].
  destruct prev as [|y prev']; [exists 1; constructor|]. set (prev := y :: prev') in *.
  assert (Hp : prev <> []) by discriminate.
  change (S (length prev) <= K)%nat in HK. destruct IH as [p Hs]; [lia|auto|].
  pose proof (distinct_nonempty _ Hp). pose proof (distinct_le prev).
  assert (A : 0 < partial l g (length (distinct prev)) (S (length prev)) K * exp (- C)).
  { apply Rmult_lt_0_compat; [apply partial_pos; auto; lia|apply exp_pos]. }
  assert (B : 0 < partial l g (length (distinct prev) + 1) (S (length prev)) K * exp (- C)).
  { apply Rmult_lt_0_compat; [apply partial_pos; auto; lia|apply exp_pos]. }
  destruct (in_dec Nat.eq_dec x prev) as [Hx|Hx].
  - eexists. eapply seat_old; eauto.
    rewrite (@mfm_ex_val series (mfm_with l g C K (length prev)) _ (length (distinct prev)) _ _ eq_refl
        (mfm_with_nth l g C K (length prev) (length (distinct prev)) ltac:(lia))
        (mfm_with_nth l g C K (length prev) (length (distinct prev) + 1) ltac:(lia)) A B).
    reflexivity.
  - eexists. eapply seat_new; eauto.
    rewrite (@mfm_new_val series (mfm_with l g C K (length prev)) _ (length (distinct prev)) _ _ eq_refl
        (mfm_with_nth l g C K (length prev) (length (distinct prev)) ltac:(lia))
        (mfm_with_nth l g C K (length prev) (length (distinct prev) + 1) ltac:(lia)) A B).
    reflexivity.
Qed.

Lemma gibbs_perm : forall V g s s', Permutation s s' -> gibbs_type V g s = gibbs_type V g s'.
Proof.
  intros V g s s' H. unfold gibbs_type. rewrite (list_sum_perm _ _ H), (Permutation_length H).
  f_equal. apply prodR_perm. apply Permutation_map. exact H.
Qed.

Lemma mfm_exchangeable : forall series l g C K order order', 0 < l -> 0 < g -> (length order <= K)%nat -> order <> [] ->
  Permutation order order' ->
  exists p,
    seating (fun n k card => r <- mfm_mass_ex series n k false false card (mfm_with l g C K n) ;; Ok (fst r))
            (fun n k => r <- mfm_mass_new series n k false false (mfm_with l g C K n) ;; Ok (fst r)) order p /\
    seating (fun n k card => r <- mfm_mass_ex series n k false false card (mfm_with l g C K n) ;; Ok (fst r))
            (fun n k => r <- mfm_mass_new series n k false false (mfm_with l g C K n) ;; Ok (fst r)) order' p.
Proof.
  intros series l g C K order order' Hl Hg HK Hne HP. pose proof (Permutation_length HP) as HL.
  destruct (mfm_seating_total series l g C K order Hl Hg HK Hne) as [p H].
  destruct (mfm_seating_total series l g C K order' Hl Hg) as [p' H']; [lia| |].
  { intros ->. apply Permutation_sym, Permutation_nil in HP. congruence. }
  assert (HK' : (length order' <= K)%nat) by lia.
  exists p. split; [exact H|].
  replace p with p'; [exact H'|].
  rewrite (mfm_seating _ _ _ _ _ _ _ Hl Hg HK H), (mfm_seating _ _ _ _ _ _ _ Hl Hg HK' H').
  f_equal. apply gibbs_perm. apply sizes_perm. apply Permutation_sym. exact HP.
Qed.
