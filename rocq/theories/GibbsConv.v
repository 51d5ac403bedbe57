(** * Neal3's iterations converge to the posterior: proofs. *)
From Coq Require Import String.
From Coq Require Import Bool List Arith ZArith Reals Lra Lia Permutation.
From Verif Require Import Base Hier Algos Spec MargFacts NealFacts MargMore MargProps.
From Verif Require Import PartSpec MixFacts GibbsSpec GibbsComb GibbsPost GibbsFacts GibbsSweep ConvSpec Markov.
Import ListNotations.
Local Open Scope R_scope.
Arguments prodR l : simpl never.
Arguments sumR l : simpl never.

(** ** Every clustering is reached in one sweep *)

(** The first [j] observations are grouped as in [t] and apart from the others. *)
Definition sorted_out (n j : nat) (t s : list nat) : Prop :=
  forall p q, (p < j)%nat -> (q < n)%nat -> (nth p s 0%nat = nth q s 0%nat <-> (q < j)%nat /\ nth p t 0%nat = nth q t 0%nat).

Lemma nth_canon : forall l p q, (p < length l)%nat -> (q < length l)%nat ->
  (nth p (canon l) 0%nat = nth q (canon l) 0%nat <-> nth p l 0%nat = nth q l 0%nat).
Proof.
  intros l p q Hp Hq. destruct (nth_some l p Hp) as [x Ex]. destruct (nth_some l q Hq) as [y Ey].
  rewrite (nth_error_nth (canon l) p 0%nat (x := first x l)) by (rewrite canon_nth, Ex; reflexivity).
  rewrite (nth_error_nth (canon l) q 0%nat (x := first y l)) by (rewrite canon_nth, Ey; reflexivity).
  rewrite (nth_error_nth l p 0%nat Ex), (nth_error_nth l q 0%nat Ey).
  split; [|intros ->; reflexivity]. apply first_inj; eapply nth_error_In; eauto.
Qed.

Lemma nth_upd : forall (l : list nat) j x p, (j < length l)%nat -> nth p (upd l j x) 0%nat = if (p =? j)%nat then x else nth p l 0%nat.
Proof.
  induction l as [|y l IH]; intros j x p Hj; [cbn in Hj; lia|]. destruct j as [|j]; cbn [upd].
  - destruct p; reflexivity.
  - destruct p as [|p]; [reflexivity|]. cbn [nth]. rewrite IH by (cbn in Hj; lia). reflexivity.
Qed.

Lemma next_state : forall n j t s, (j < n)%nat -> length s = n -> length t = n -> sorted_out n j t s ->
  exists u, In u (clusterings n) /\ alike_off j s u = true /\ sorted_out n (S j) t u.
Proof.
  intros n j t s Hj Ls Lt H.
  assert (C : forall x, (forall p q, (p < S j)%nat -> (q < n)%nat -> (nth p (upd s j x) 0%nat = nth q (upd s j x) 0%nat <-> (q < S j)%nat /\ nth p t 0%nat = nth q t 0%nat)) ->
    exists u, In u (clusterings n) /\ alike_off j s u = true /\ sorted_out n (S j) t u).
  { intros x Hx. exists (canon (upd s j x)). assert (Lu : length (upd s j x) = n) by (rewrite upd_length; exact Ls). split; [|split].
    - apply clusterings_in. rewrite canon_length, canon_idem. auto.
    - apply alike_eq. rewrite del_canon by lia. now rewrite del_upd.
    - intros p q Hp Hq. rewrite nth_canon by lia. now apply Hx. }
  destruct (in_dec Nat.eq_dec (nth j t 0%nat) (firstn j t)) as [F|F].
  - destruct (In_nth _ _ 0%nat F) as (p0 & Hp0 & E0). rewrite firstn_length in Hp0.
    assert (E1 : nth p0 t 0%nat = nth j t 0%nat).
    { rewrite <- E0. rewrite <- (firstn_skipn j t) at 1. rewrite app_nth1 by (rewrite firstn_length; lia). reflexivity. }
    clear E0 F. assert (P0 : (p0 < j)%nat) by lia.
    apply (C (nth p0 s 0%nat)). intros p q Hp Hq. rewrite !nth_upd by lia.
    destruct (Nat.eqb_spec p j) as [->|Np]; destruct (Nat.eqb_spec q j) as [->|Nq].
    + split; [split; [lia|reflexivity]|reflexivity].
    + rewrite (H p0 q P0 Hq), E1. split; intros [A B]; (split; [lia|assumption]).
    + split; intro E.
      * split; [lia|]. symmetry in E. rewrite (H p0 p P0 ltac:(lia)) in E. rewrite <- E1. symmetry. apply E.
      * destruct E as [_ E]. symmetry. apply (H p0 p P0 ltac:(lia)). split; [lia|]. congruence.
    + rewrite (H p q ltac:(lia) Hq). split; intros [A B]; (split; [lia|assumption]).
  - assert (F' : forall p, (p < j)%nat -> nth p t 0%nat <> nth j t 0%nat).
    { intros p Hp E. apply F. rewrite <- E. rewrite <- (firstn_skipn j t) at 1. rewrite app_nth1 by (rewrite firstn_length; lia). apply nth_In. rewrite firstn_length. lia. }
    set (x := S (list_max s)).
    assert (X : forall p, (p < n)%nat -> nth p s 0%nat <> x).
    { intros p Hp E. pose proof (proj1 (list_max_le s (list_max s)) (le_n _)) as Hm. rewrite Forall_forall in Hm.
      assert (nth p s 0%nat <= list_max s)%nat by (apply Hm, nth_In; lia). unfold x in E. lia. }
    apply (C x). intros p q Hp Hq. rewrite !nth_upd by lia.
    destruct (Nat.eqb_spec p j) as [->|Np]; destruct (Nat.eqb_spec q j) as [->|Nq].
    + split; [split; [lia|reflexivity]|reflexivity].
    + split; [intro E; symmetry in E; now apply X in E|]. intros [A B]. symmetry in B. apply F' in B; [contradiction|lia].
    + split; [intro E; apply X in E; [contradiction|lia]|]. intros [A B]. apply F' in B; [contradiction|lia].
    + rewrite (H p q ltac:(lia) Hq). split; intros [A B]; (split; [lia|assumption]).
Qed.

Lemma sorted_end : forall n t s, In t (clusterings n) -> In s (clusterings n) -> sorted_out n n t s -> s = t.
Proof.
  intros n t s Ht Hs H. apply clusterings_in in Ht, Hs. destruct Ht as [Lt Ct], Hs as [Ls Cs]. rewrite <- Ct, <- Cs. apply canon_iff. split; [lia|].
  intros p q x y x' y' Hp Hq Hp' Hq'. assert (Pp : (p < n)%nat) by (rewrite <- Ls; apply nth_error_Some; congruence). assert (Qq : (q < n)%nat) by (rewrite <- Ls; apply nth_error_Some; congruence).
  pose proof (H p q Pp Qq) as E. rewrite (nth_error_nth s p 0%nat Hp), (nth_error_nth s q 0%nat Hq), (nth_error_nth t p 0%nat Hp'), (nth_error_nth t q 0%nat Hq') in E.
  rewrite E. tauto.
Qed.

Lemma conds_reach : forall pi M n t, partition_prior pi -> (forall ids, ids <> [] -> 0 < M ids) -> In t (clusterings n) ->
  forall k j s, (j + k = n)%nat -> In s (clusterings n) -> sorted_out n j t s -> 0 < conds pi M n (seq j k) s t.
Proof.
  intros pi M n t Hpi HM Ht. induction k as [|k IH]; intros j s Hj Hs H.
  - replace j with n in H by lia. pose proof (sorted_end n t s Ht Hs H) as ->. cbn. rewrite (proj2 (same_true t t) eq_refl). lra.
  - cbn [seq conds]. pose proof (proj1 (clusterings_in n s) Hs) as [Ls _]. pose proof (proj1 (clusterings_in n t) Ht) as [Lt _].
    destruct (next_state n j t s ltac:(lia) Ls Lt H) as (u & Hu & Ha & Hs').
    assert (P1 : 0 < cond pi M n j s u).
    { unfold cond. rewrite Ha. apply Rdiv_lt_0_compat; [|apply Z_pos; auto; lia]. apply posterior_pos; auto. apply clusterings_in in Hu. intros ->. cbn in Hu. lia. }
    assert (P2 : 0 < conds pi M n (seq (S j) k) u t) by (apply IH; [lia|assumption|assumption]).
    eapply Rlt_le_trans; [exact (Rmult_lt_0_compat _ _ P1 P2)|].
    apply (sumR_term _ (fun u => cond pi M n j s u * conds pi M n (seq (S j) k) u t)); [|exact Hu].
    intros v Hv. apply Rmult_le_pos; [apply cond_nonneg; auto; lia|]. apply conds_nonneg; auto. intros i Hi. apply in_seq in Hi. lia.
Qed.
Lemma conds_positive : forall pi M n s t, partition_prior pi -> (forall ids, ids <> [] -> 0 < M ids) -> In s (clusterings n) -> In t (clusterings n) ->
  0 < conds pi M n (seq 0 n) s t.
Proof. intros pi M n s t Hpi HM Hs Ht. apply conds_reach; auto. intros p q Hp. lia. Qed.

(** ** The law of the program's iterations *)
Section Program.
  Variable I : Iface.
  Variable L : laws I.
  Variable data : list (Datum I).
  Variable covs : list (Cov I).
  Notation cvf := (at_ covs).
  Notation n := (length data).
  Hypothesis Hrows : rows_ok I data cvf.
  Variable val : W I -> R.
  Hypothesis val_add : forall a b, val (wadd I a b) = val a * val b.
  Hypothesis Hcj : conj I = true.
  Hypothesis Hod : other_draw I = None.
  Hypothesis Hn : (2 <= n)%nat.
  Variable pi M : list nat -> R.
  Hypothesis Hpi : partition_prior pi.
  Variable hy : Hyp I.
  Variable m : Mix I.
  Hypothesis HML : marginal_likelihood I data covs val hy M.
  Hypothesis HM : forall rest, length rest = (n - 1)%nat -> mass_at I val m pi rest.
  Hypothesis Hhyp : forall sts r, exists r', hyp_update I hy sts r = (hy, r').
  Hypothesis Hmix : forall cards al r, exists r', mix_update I m cards al r = Ok (m, r').

  Definition ready (a : alg I) : Prop := fresh3 I data covs a /\ a_hyp a = hy /\ a_mix a = m.

  Lemma mean_closed : forall pick is (a : alg I) (F : alg I -> R) (g : list nat -> R), (forall i, In i is -> (i < n)%nat) -> ready a ->
    (forall a', ready a' -> F a' = g (canon (a_alloc a'))) ->
    sweep_mean I val data covs pick is a F = sumR (map (fun u => conds pi M n is (canon (a_alloc a)) u * g u) (clusterings n)).
  Proof.
    intros pick is. induction is as [|i is IH]; intros a F g His (HF & Eh & Em) HFg.
    - cbn [sweep_mean conds]. rewrite (HFg a (Logic.conj HF (Logic.conj Eh Em))).
      rewrite (sumR_map_ext _ _ (fun u => if same u (canon (a_alloc a)) then g u else 0)).
      + rewrite sumR_single by apply clusterings_nodup. destruct (in_dec _ (canon (a_alloc a)) (clusterings n)) as [|N]; [reflexivity|].
        exfalso. apply N. apply clusterings_in. rewrite canon_length, canon_idem. split; [apply HF|reflexivity].
      + intros u _. destruct (same (canon (a_alloc a)) u) eqn:E1; destruct (same u (canon (a_alloc a))) eqn:E2; try ring.
        * apply same_true in E1. rewrite E1, (proj2 (same_true u u) eq_refl) in E2. discriminate.
        * apply same_true in E2. rewrite <- E2, (proj2 (same_true u u) eq_refl) in E1. discriminate.
    - cbn [sweep_mean conds].
      assert (Hi : (i < n)%nat) by (apply His; left; auto).
      assert (HMLa : marginal_likelihood I data covs val (a_hyp a) M) by (rewrite Eh; exact HML).
      assert (HMa : forall rest, length rest = (n - 1)%nat -> mass_at I val (a_mix a) pi rest) by (rewrite Em; exact HM).
      destruct (neal3_weights1 I L data covs Hrows val val_add Hcj Hod a i pi M Hn Hi HF Hpi HMLa HMa)
        as (al & uv & pm & lk & C & Eu & HL & HS & HC & Ep & El & HCp & Ew & Ea).
      unfold step_weights. rewrite Eu. cbn [rbind]. rewrite Ep. cbn [rbind]. rewrite El. cbn [rbind]. rewrite Ew.
      rewrite map_length, seq_length.
      assert (HLa : length (a_alloc a) = n) by (apply HF).
      assert (HMp : forall ids, ids <> [] -> 0 < M ids) by apply HML.
      set (h := fun u => sumR (map (fun v => conds pi M n is u v * g v) (clusterings n))).
      transitivity (sumR (map (fun u => cond pi M n i al u * h u) (clusterings n))).
      2:{ unfold h. rewrite (sumR_map_ext _ _ (fun u => sumR (map (fun v => cond pi M n i al u * (conds pi M n is u v * g v)) (clusterings n)))) by (intros; symmetry; apply sumR_mult).
          rewrite sumR_swap2. apply sumR_map_ext. intros v _.
          rewrite (sumR_map_ext _ _ (fun u => g v * (cond pi M n i al u * conds pi M n is u v))) by (intros; ring). rewrite sumR_mult.
          rewrite (sumR_map_ext _ (fun u => cond pi M n i (canon (a_alloc a)) u * _) (fun u => cond pi M n i al u * conds pi M n is u v)); [ring|].
          intros u _. f_equal. apply cond_ext. rewrite del_canon by lia. exact HS. }
      rewrite <- (expect_exact pi M n i al (length uv) C h Hpi HMp Hi HL HC HCp).
      apply sumR_map_ext. intros c Hc. apply in_seq in Hc.
      rewrite (nth_error_nth (map (fun c => C * posterior pi M (upd al i c)) (seq 0 (S (length uv)))) c 0
                 (x := C * posterior pi M (upd al i c))).
      2:{ rewrite nth_error_map, (nth_error_nth' _ 0%nat) by (rewrite seq_length; lia). rewrite seq_nth by lia. reflexivity. }
      f_equal.
      destruct (Ea c (pick (set_uv (set_alloc a al) uv) i c) ltac:(lia)) as (uv' & r' & E & HF'). rewrite E.
      unfold h. rewrite (IH _ F g); [reflexivity| | |exact HFg]; [intros j Hj; apply His; right; auto|].
      split; [exact HF'|]. split; assumption.
  Qed.

  Lemma finish_ready : forall (a : alg I) r, ready a -> exists a' r', finish I (a, r) = Ok (a', r') /\ ready a' /\ a_alloc a' = a_alloc a.
  Proof.
    intros a r (HF & Eh & Em). apply (fresh3_iff I L data covs Hcj) in HF.
    destruct (@sample_unique_values_ok I L data covs true true (fun _ => Logic.conj Hcj Hod) (fun H => H) a r HF) as (a1 & r1 & E1 & G1 & Ea & Eh1 & Em1 & _).
    unfold finish. rewrite E1. cbn [rbind]. unfold update_hierarchy_hypers.
    destruct (a_uv a1) as [|h0 uv] eqn:Euv; [exfalso; eapply (@GInv_uv_pos I data covs); [|exact G1|exact Euv]; lia|].
    cbn [at_ nth_error rbind].
    match goal with |- context [hyp_update I _ ?b ?c] => destruct (Hhyp b c) as (r2 & E2) end.
    rewrite Eh1, Eh, E2. cbn [rbind]. unfold update_mixing.
    match goal with |- context [mix_update I _ ?b ?c ?d] => destruct (Hmix b c d) as (r3 & E3) end.
    change (a_mix (set_hyp a1 hy)) with (a_mix a1). rewrite Em1, Em, E3. cbn [rbind].
    eexists _, r3. split; [reflexivity|]. cbn [set_mix set_hyp a_alloc]. split; [|exact Ea].
    split; [|split; reflexivity]. apply (fresh3_iff I L data covs Hcj).
    destruct a1 as [al1 uv1 hy1 m1 ax1]. cbn in *. subst hy1 m1. rewrite Eh, Em in *. exact G1.
  Qed.

  Lemma chain_closed : forall pick rest k (a : alg I) t, ready a ->
    chain_prob I val data covs pick rest k a t = steps _ (clusterings n) (conds pi M n (seq 0 n)) same k (canon (a_alloc a)) t.
  Proof.
    intros pick rest. induction k as [|k IH]; intros a t Ha; [reflexivity|]. cbn [chain_prob steps].
    apply mean_closed; [intros i Hi; apply in_seq in Hi; lia|exact Ha|].
    intros a1 H1. destruct (finish_ready a1 (rest k a1) H1) as (a2 & r2 & E & H2 & Eal). rewrite E. rewrite IH by exact H2. now rewrite Eal.
  Qed.

  Lemma total_pos : 0 < sumR (map (posterior pi M) (clusterings n)).
  Proof.
    apply sumR_pos.
    - apply Forall_forall. intros x Hx. apply in_map_iff in Hx. destruct Hx as (l & <- & Hl). apply clusterings_in in Hl.
      apply posterior_pos; auto; [apply HML|]. intros ->. cbn in Hl. lia.
    - intro E. apply map_eq_nil in E. assert (H : In (canon (repeat 0%nat n)) (clusterings n)) by (apply clusterings_in; rewrite canon_length, canon_idem, repeat_length; auto).
      rewrite E in H. destruct H.
  Qed.
  Lemma norm_facts : (forall s, In s (clusterings n) -> 0 <= normalised n (posterior pi M) s) /\
    sumR (map (normalised n (posterior pi M)) (clusterings n)) = 1 /\
    (forall t, In t (clusterings n) -> sumR (map (fun s => normalised n (posterior pi M) s * conds pi M n (seq 0 n) s t) (clusterings n)) = normalised n (posterior pi M) t).
  Proof.
    pose proof total_pos as HZ. unfold normalised. set (Z := sumR (map (posterior pi M) (clusterings n))) in *.
    assert (HMp : forall ids, ids <> [] -> 0 < M ids) by apply HML.
    split; [|split].
    - intros s Hs. left. apply Rdiv_lt_0_compat; [|exact HZ]. apply posterior_pos; auto. apply clusterings_in in Hs. intros ->. cbn in Hs. lia.
    - rewrite (sumR_map_ext _ _ (fun s => / Z * posterior pi M s)) by (intros; unfold Rdiv; ring). rewrite sumR_mult. fold Z. field. lra.
    - intros t Ht. rewrite (sumR_map_ext _ _ (fun s => / Z * (posterior pi M s * conds pi M n (seq 0 n) s t))) by (intros; unfold Rdiv; ring).
      rewrite sumR_mult, conds_invariant; auto; [unfold Rdiv; ring|]. intros i Hi. apply in_seq in Hi. lia.
  Qed.

  Let K := conds pi M n (seq 0 n).
  Lemma kernel_pos : forall s t, In s (clusterings n) -> In t (clusterings n) -> 0 < K s t.
  Proof. intros. apply conds_positive; auto. apply HML. Qed.
  Lemma kernel_one : forall s, In s (clusterings n) -> sumR (map (K s) (clusterings n)) = 1.
  Proof. intros s Hs. apply conds_total; auto; [apply HML|]. intros i Hi. apply in_seq in Hi. lia. Qed.
  Lemma ready_in : forall a, ready a -> In (canon (a_alloc a)) (clusterings n).
  Proof. intros a (HF & _). apply clusterings_in. rewrite canon_length, canon_idem. split; [apply HF|reflexivity]. Qed.

  Lemma chain_converges : exists e, 0 < e <= 1 /\ forall pick rest k a, ready a ->
    sumR (map (fun u => Rabs (chain_prob I val data covs pick rest k a u - normalised n (posterior pi M) u)) (clusterings n)) <= 2 * (1 - e) ^ k.
  Proof.
    destruct norm_facts as (P0 & P1 & P2).
    destruct (converges _ (clusterings n) K kernel_pos kernel_one (normalised n (posterior pi M)) P0 P1 P2 same same_true (clusterings_nodup n)) as (e & He & HC).
    exists e. split; [exact He|]. intros pick rest k a Ha. pose proof (HC k _ (ready_in a Ha)) as H. unfold far in H.
    rewrite (sumR_map_ext _ _ (fun u => Rabs (steps _ (clusterings n) K same k (canon (a_alloc a)) u - normalised n (posterior pi M) u))); [exact H|].
    intros u _. now rewrite chain_closed.
  Qed.
  Lemma chain_limit : forall pick rest a u, ready a -> In u (clusterings n) ->
    Un_cv (fun k => chain_prob I val data covs pick rest k a u) (normalised n (posterior pi M) u).
  Proof.
    intros pick rest a u Ha Hu. destruct norm_facts as (P0 & P1 & P2).
    pose proof (limit _ (clusterings n) K kernel_pos kernel_one (normalised n (posterior pi M)) P0 P1 P2 same same_true (clusterings_nodup n) _ u (ready_in a Ha) Hu) as H.
    intros eps Heps. destruct (H eps Heps) as (N & HN). exists N. intros k Hk. rewrite chain_closed by exact Ha. now apply HN.
  Qed.
  Lemma chain_positive : forall pick rest k a u, ready a -> In u (clusterings n) -> (1 <= k)%nat -> 0 < chain_prob I val data covs pick rest k a u.
  Proof.
    intros pick rest k a u Ha Hu Hk. rewrite chain_closed by exact Ha. pose proof (ready_in a Ha) as Hs. revert Hs. generalize (canon (a_alloc a)) as s. fold K.
    induction k as [|[|k] IH]; [lia| |].
    - intros s Hs. cbn [steps]. rewrite (pick_one _ (clusterings n) same same_true (clusterings_nodup n)) by exact Hu. now apply kernel_pos.
    - intros s Hs. cbn [steps]. cbn [steps] in IH.
      eapply Rlt_le_trans; [exact (Rmult_lt_0_compat _ _ (kernel_pos s u Hs Hu) (IH ltac:(lia) u Hu))|].
      apply (sumR_term _ (fun v => K s v * sumR (map (fun u0 => K v u0 * steps (list nat) (clusterings n) K same k u0 u) (clusterings n)))); [|exact Hu].
      intros v Hv. apply Rmult_le_pos; left; [now apply kernel_pos|apply IH; [lia|exact Hv]].
  Qed.
  Lemma chain_total : forall pick rest k a, ready a -> sumR (map (chain_prob I val data covs pick rest k a) (clusterings n)) = 1.
  Proof.
    intros pick rest k a Ha. rewrite (sumR_map_ext _ _ (steps _ (clusterings n) K same k (canon (a_alloc a)))) by (intros; now apply chain_closed).
    apply (steps_one _ (clusterings n) K kernel_one same same_true (clusterings_nodup n)). now apply ready_in.
  Qed.
  Lemma chain_unique : forall pick rest (A : list nat -> alg I) q, (forall s, In s (clusterings n) -> ready (A s) /\ canon (a_alloc (A s)) = s) ->
    sumR (map q (clusterings n)) = 1 ->
    (forall u, In u (clusterings n) -> sumR (map (fun s => q s * chain_prob I val data covs pick rest 1 (A s) u) (clusterings n)) = q u) ->
    forall u, In u (clusterings n) -> q u = normalised n (posterior pi M) u.
  Proof.
    intros pick rest A q HA Hq Hi. destruct norm_facts as (P0 & P1 & P2).
    apply (unique _ (clusterings n) K kernel_pos kernel_one (normalised n (posterior pi M)) P0 P1 P2 q Hq).
    intros t Ht. transitivity (sumR (map (fun s => q s * chain_prob I val data covs pick rest 1 (A s) t) (clusterings n))); [|exact (Hi t Ht)]. unfold step_law. apply sumR_map_ext. intros s Hs. f_equal. destruct (HA s Hs) as [Ha Ec].
    rewrite chain_closed by exact Ha. rewrite Ec. cbn [steps]. fold K. now rewrite (pick_one _ (clusterings n) same same_true (clusterings_nodup n)).
  Qed.
End Program.
