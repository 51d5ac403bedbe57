(** * Neal's algorithm 8: the weights of one reallocation as a function of the
    configuration reached. *)
From Coq Require Import String.
From Coq Require Import Bool List Arith ZArith Reals Lra Lia Permutation.
From Verif Require Import Base Hier Algos Spec MargFacts NealFacts MargMore MargProps.
From Verif Require Import PartSpec MixFacts GibbsSpec GibbsComb GibbsPost GibbsFacts Gibbs8 GibbsSweep Aux8 Aux8Facts.
Import ListNotations.
Local Open Scope R_scope.
Arguments prodR l : simpl never.
Arguments sumR l : simpl never.

(** The other observations have other labels. *)
Definition lonely (i : nat) (l : list nat) : bool :=
  forallb (fun k => (k =? i)%nat || negb (nth k l 0%nat =? nth i l 0%nat)%nat) (seq 0 (length l)).

Section Draws.
Variable I : Iface.

(** [k] successive draws from the prior. *)
Fixpoint prior_draws (hy : Hyp I) (k : nat) (r : Rng I) : list (St I) * Rng I :=
  match k with
  | O => ([], r)
  | S k' => let '(x, r1) := prior_sample I hy r in let '(xs, r2) := prior_draws hy k' r1 in (x :: xs, r2)
  end.

Lemma prior_draws_length : forall hy k r, length (fst (prior_draws hy k r)) = k.
Proof.
  induction k as [|k IH]; intros r; cbn [prior_draws]; [reflexivity|]. destruct (prior_sample I hy r) as [x r1].
  specialize (IH r1). destruct (prior_draws hy k r1). cbn in *. congruence.
Qed.

Lemma refresh_draws : forall hy k s aux r, (s + k = length aux)%nat ->
  exists aux', refresh_aux hy (seq s k) aux r = Ok (aux', snd (prior_draws hy k r)) /\
    map (@h_state I) aux' = firstn s (map (@h_state I) aux) ++ fst (prior_draws hy k r).
Proof.
  induction k as [|k IH]; intros s aux r Hs; cbn [seq refresh_aux prior_draws].
  - exists aux. split; [reflexivity|]. cbn [fst]. rewrite app_nil_r, firstn_all2; [reflexivity|rewrite map_length; lia].
  - assert (Hj : (s < length aux)%nat) by lia. destruct (at_ok aux Hj) as (h & E & En). rewrite E. cbn [rbind].
    unfold h_sample_prior. destruct (prior_sample I hy r) as [x r1].
    destruct (IH (S s) (upd aux s (h_set_state x h)) r1) as (aux' & E2 & M); [rewrite upd_length; lia|].
    exists aux'. destruct (prior_draws hy k r1) as [xs r2] eqn:Ep. cbn [fst snd] in *. split; [exact E2|]. rewrite M.
    change (x :: xs) with ([x] ++ xs). rewrite app_assoc. f_equal. clear -En.
    apply nth_error_split in En. destruct En as (a & b & -> & <-).
    assert (U : upd (a ++ h :: b) (length a) (h_set_state x h) = a ++ h_set_state x h :: b).
    { clear. induction a as [|z a IH]; cbn [app upd length]; [reflexivity|now rewrite IH]. }
    rewrite U, !map_app. cbn [map]. rewrite (firstn_app (S (length a))), (firstn_app (length a)), !map_length.
    replace (S (length a) - length a)%nat with 1%nat by lia. rewrite Nat.sub_diag.
    rewrite (firstn_all2 (n := S (length a))) by (rewrite map_length; lia). rewrite (firstn_all2 (n := length a)) by (rewrite map_length; lia). cbn [firstn]. rewrite app_nil_r. reflexivity.
Qed.

(** What the algorithm's state says about the clustering and the parameters. *)
Definition conf (a : alg I) : config (St I) :=
  (canon (a_alloc a), map (param a) (seq 0 (length (a_alloc a)))).
End Draws.

(** ** Combinatorics of the labels *)
Lemma nth_of : forall (l : list nat) j x, nth_error l j = Some x -> nth j l 0%nat = x.
Proof. intros. apply nth_error_nth, H. Qed.

Lemma grouped : forall i (l l' : list nat) j k, length l = length l' ->
  same_grouping (fun j => j <> i /\ (j < length l)%nat) l l' -> j <> i -> (j < length l)%nat -> k <> i -> (k < length l)%nat ->
  (nth j l 0%nat = nth k l 0%nat <-> nth j l' 0%nat = nth k l' 0%nat).
Proof.
  intros i l l' j k HL HS A B C D. specialize (HS j k (Logic.conj A B) (Logic.conj C D)).
  rewrite !(nth_error_nth' l 0%nat), !(nth_error_nth' l' 0%nat) in HS by lia. split; intros E.
  - assert (X : Some (nth j l' 0%nat) = Some (nth k l' 0%nat)) by (apply HS; congruence). congruence.
  - assert (X : Some (nth j l 0%nat) = Some (nth k l 0%nat)) by (apply HS; congruence). congruence.
Qed.

Lemma reps_in : forall i l j, In j (reps i l) <->
  (j < length l)%nat /\ j <> i /\ forall k, (k < j)%nat -> k <> i -> nth k l 0%nat <> nth j l 0%nat.
Proof.
  intros i l j. unfold reps. rewrite filter_In, in_seq, andb_true_iff, negb_true_iff, Nat.eqb_neq, forallb_forall. split.
  - intros (A & B & C). split; [lia|]. split; [exact B|]. intros k Hk Hn. specialize (C k). rewrite in_seq in C. specialize (C ltac:(lia)).
    apply orb_prop in C. destruct C as [C|C]; [apply Nat.eqb_eq in C; contradiction|]. apply negb_true_iff, Nat.eqb_neq in C. exact C.
  - intros (A & B & C). split; [lia|]. split; [exact B|]. intros k Hk. apply in_seq in Hk. destruct (k =? i)%nat eqn:E; [reflexivity|].
    apply Nat.eqb_neq in E. cbn [orb]. apply negb_true_iff, Nat.eqb_neq. apply C; [lia|exact E].
Qed.

Lemma reps_nodup : forall i l, NoDup (reps i l).
Proof. intros. apply NoDup_filter, seq_NoDup. Qed.

Lemma reps_same : forall i l l', length l = length l' -> same_grouping (fun j => j <> i /\ (j < length l)%nat) l l' -> reps i l = reps i l'.
Proof.
  intros i l l' HL HS. unfold reps. rewrite <- HL. apply filter_ext_in. intros j Hj. apply in_seq in Hj.
  destruct (j =? i)%nat eqn:Ej; [reflexivity|]. apply Nat.eqb_neq in Ej. cbn [negb andb].
  assert (G : forall js, (forall k, In k js -> (k < j)%nat) ->
    forallb (fun k => (k =? i)%nat || negb (nth k l 0%nat =? nth j l 0%nat)%nat) js =
    forallb (fun k => (k =? i)%nat || negb (nth k l' 0%nat =? nth j l' 0%nat)%nat) js).
  { induction js as [|k js IH]; intros H; cbn [forallb]; [reflexivity|]. rewrite IH by (intros; apply H; now right). f_equal.
    destruct (k =? i)%nat eqn:Ek; [reflexivity|]. apply Nat.eqb_neq in Ek. cbn [orb]. f_equal.
    assert (Hk : (k < j)%nat) by (apply H; now left).
    assert (P := grouped i l l' k j HL HS Ek ltac:(lia) Ej ltac:(lia)).
    destruct (nth k l 0%nat =? nth j l 0%nat)%nat eqn:E1, (nth k l' 0%nat =? nth j l' 0%nat)%nat eqn:E2; auto;
      rewrite ?Nat.eqb_eq, ?Nat.eqb_neq in *; tauto. }
  apply G. intros k Hk. apply in_seq in Hk. lia.
Qed.

Lemma reps_labels : forall i al k, compact i al k -> Permutation (map (fun j => nth j al 0%nat) (reps i al)) (seq 0 k).
Proof.
  intros i al k [H1 H2]. apply NoDup_Permutation.
  - assert (G : forall js, NoDup js -> (forall j, In j js -> In j (reps i al)) -> NoDup (map (fun j => nth j al 0%nat) js)).
    { induction js as [|j js IH]; intros Hn Hs; cbn [map]; [constructor|]. inversion Hn; subst. constructor.
      - rewrite in_map_iff. intros (x & E & Hx). pose proof (proj1 (reps_in _ _ _) (Hs j (or_introl eq_refl))) as (A1 & A2 & A3).
        pose proof (proj1 (reps_in _ _ _) (Hs x (or_intror Hx))) as (B1 & B2 & B3).
        destruct (Nat.lt_trichotomy x j) as [Hl|[->|Hl]]; [exact (A3 x Hl B2 E)|contradiction|]. exact (B3 j Hl A2 (eq_sym E)).
      - apply IH; auto. intros; apply Hs; now right. }
    apply G; [apply reps_nodup|auto].
  - apply seq_NoDup.
  - intros c. rewrite in_map_iff, in_seq. split.
    + intros (j & <- & Hj). apply reps_in in Hj. destruct Hj as (A & B & _). split; [lia|]. apply (H1 j); [exact B|]. apply nth_error_nth'. exact A.
    + intros [_ Hc]. destruct (H2 c ltac:(lia)) as (j & Hj & Ej).
      assert (G : forall b j, (j < b)%nat -> j <> i -> nth_error al j = Some c -> exists j0, In j0 (reps i al) /\ nth j0 al 0%nat = c).
      { induction b as [|b IH]; intros q Hq Qi Qe; [lia|].
        destruct (existsb (fun k => negb (k =? i)%nat && (nth k al 0%nat =? c)%nat) (seq 0 q)) eqn:Ex.
        - apply existsb_exists in Ex. destruct Ex as (x & Hx & Ex). apply andb_prop in Ex. destruct Ex as [X1 X2].
          apply in_seq in Hx. apply negb_true_iff, Nat.eqb_neq in X1. apply Nat.eqb_eq in X2. apply (IH x); [lia|exact X1|].
          rewrite <- X2. apply nth_error_nth'. assert (q < length al)%nat by (apply nth_error_Some; congruence). lia.
        - exists q. split; [|apply nth_of; exact Qe]. apply reps_in. split; [apply nth_error_Some; congruence|]. split; [exact Qi|].
          intros x Hx Xi E. rewrite (nth_of _ _ _ Qe) in E.
          assert (K : existsb (fun k => negb (k =? i)%nat && (nth k al 0%nat =? c)%nat) (seq 0 q) = true).
          { apply existsb_exists. exists x. split; [apply in_seq; lia|]. apply andb_true_intro. split; [apply negb_true_iff, Nat.eqb_neq; exact Xi|apply Nat.eqb_eq; exact E]. }
          congruence. }
      destruct (G (S j) j ltac:(lia) Hj Ej) as (j0 & A & B). exists j0. auto.
Qed.

Lemma canon_upd : forall i l l' v v', length l = length l' -> (i < length l)%nat ->
  same_grouping (fun j => j <> i /\ (j < length l)%nat) l l' ->
  (forall j, j <> i -> (j < length l)%nat -> (nth j l 0%nat = v <-> nth j l' 0%nat = v')) ->
  canon (upd l i v) = canon (upd l' i v').
Proof.
  intros i l l' v v' HL Hi HS HV. apply canon_iff. split; [now rewrite !upd_length|].
  intros p q x y x' y' Hp Hq Hp' Hq'.
  assert (Lp : (p < length l)%nat) by (rewrite <- (upd_length l i v); apply nth_error_Some; congruence).
  assert (Lq : (q < length l)%nat) by (rewrite <- (upd_length l i v); apply nth_error_Some; congruence).
  destruct (Nat.eq_dec p i) as [->|Np]; destruct (Nat.eq_dec q i) as [->|Nq].
  - split; congruence.
  - rewrite nth_error_upd_same in Hp by lia. rewrite nth_error_upd_same in Hp' by lia. rewrite nth_error_upd_other in Hq by auto. rewrite nth_error_upd_other in Hq' by auto.
    specialize (HV q Nq Lq). rewrite (nth_of _ _ _ Hq), (nth_of _ _ _ Hq') in HV. injection Hp as <-. injection Hp' as <-. split; intros E; symmetry; apply HV; auto.
  - rewrite nth_error_upd_same in Hq by lia. rewrite nth_error_upd_same in Hq' by lia. rewrite nth_error_upd_other in Hp by auto. rewrite nth_error_upd_other in Hp' by auto.
    specialize (HV p Np Lp). rewrite (nth_of _ _ _ Hp), (nth_of _ _ _ Hp') in HV. injection Hq as <-. injection Hq' as <-. exact HV.
  - rewrite nth_error_upd_other in Hp by auto. rewrite nth_error_upd_other in Hp' by auto. rewrite nth_error_upd_other in Hq by auto. rewrite nth_error_upd_other in Hq' by auto.
    pose proof (grouped i l l' p q HL HS Np Lp Nq Lq) as G. rewrite (nth_of _ _ _ Hp), (nth_of _ _ _ Hp'), (nth_of _ _ _ Hq), (nth_of _ _ _ Hq') in G. exact G.
Qed.

Lemma prior_canon : forall pi l l', partition_prior pi -> canon l = canon l' -> pi l = pi l'.
Proof. intros pi l l' (_ & _ & Hr) E. destruct (canon_rename l l' E) as (f & -> & Hf). symmetry. apply Hr, Hf. Qed.

Lemma lonely_iff : forall i l, lonely i l = true <-> forall k, (k < length l)%nat -> k <> i -> nth k l 0%nat <> nth i l 0%nat.
Proof.
  intros i l. unfold lonely. rewrite forallb_forall. split.
  - intros H k Hk Hn. specialize (H k). rewrite in_seq in H. specialize (H ltac:(lia)). apply orb_prop in H.
    destruct H as [H|H]; [apply Nat.eqb_eq in H; contradiction|]. apply negb_true_iff, Nat.eqb_neq in H. exact H.
  - intros H k Hk. apply in_seq in Hk. destruct (k =? i)%nat eqn:E; [reflexivity|]. cbn [orb]. apply Nat.eqb_neq in E. apply negb_true_iff, Nat.eqb_neq. apply H; [lia|exact E].
Qed.

Lemma seq_map_shift : forall k m s, map (fun q => (k + q)%nat) (seq s m) = seq (s + k) m.
Proof.
  intros k m. induction m as [|m IH]; intros s; cbn [seq map]; [reflexivity|]. rewrite IH. f_equal. lia.
Qed.

Section Eight.
Variable I : Iface.
Variable L : laws I.
Variable data : list (Datum I).
Variable covs : list (Cov I).
Notation cvf := (at_ covs).
Notation n := (length data).
Hypothesis Hrows : rows_ok I data cvf.
Variable val : W I -> R.
Hypothesis val_add : forall a b, val (wadd I a b) = val a * val b.
Hypothesis val_sub : forall a k, (1 <= k)%nat -> val (wsublog I a k) = val a / INR k.

(** The parameters offered to observation [i]: its own when it is alone in its
    cluster, and draws from the prior. *)
Definition offered (n_aux : nat) (a : alg I) (i : nat) (r : Rng I) : list (St I) * Rng I :=
  if lonely i (a_alloc a) then
    let '(ys, r1) := prior_draws I (a_hyp a) (n_aux - 1) r in
    (match param a i with Some x => x :: ys | None => ys end, r1)
  else prior_draws I (a_hyp a) n_aux r.

Lemma neal8_full : forall n_aux (a : alg I) i pi d cv r,
  (2 <= n)%nat -> (i < n)%nat -> (1 <= n_aux)%nat -> good I data covs a -> partition_prior pi ->
  length (a_aux a) = n_aux -> (forall h, In h (a_aux a) -> h_ids h = [] /\ h_stats h = stats0 I) ->
  at_ data i = Ok d -> cvf i = Ok cv ->
  (forall rest, length rest = (n - 1)%nat -> canon (del (a_alloc a) i) = canon rest -> mass_at I val (a_mix a) pi rest) ->
  exists al ws outs k C xs r1,
    offered n_aux a i r = (xs, r1) /\ length xs = n_aux /\
    length al = n /\ same_grouping (fun j => j <> i /\ (j < n)%nat) (a_alloc a) al /\ compact i al k /\
    0 < C /\ length ws = (k + n_aux)%nat /\ length outs = (k + n_aux)%nat /\
    neal8_step data covs n_aux (a, r) i = ('(c, r2) <- cat I ws r1 ;; b <- at_ outs c ;; Ok (b, r2)) /\
    forall c w b, nth_error ws c = Some w -> nth_error outs c = Some b ->
    exists st, param b i = Some st /\ a_alloc b = upd al i (min c k) /\
      (forall j, j <> i -> param b j = param a j) /\
      (forall j, j <> i -> nth_error al j = Some c -> param a j = Some st) /\
      ((k <= c)%nat -> nth_error xs (c - k) = Some st) /\
      val w = C * pi (a_alloc b) * val (like_lpdf I st d cv) / (if (c <? k)%nat then 1 else INR n_aux).
Proof.
  intros n_aux a i pi d cv r Hn Hi Hna HG Hpi Hla Haux Ed Ec HM. unfold good in HG.
  apply GInv_iff in HG. pose proof HG as HG0. destruct HG as (HL & HI & Hne).
  assert (Hao : aux_ok n_aux a). { split; auto. intros j h Hj. apply Haux. eapply nth_error_In; eauto. }
  destruct (@neal8_unassign_ok I L data covs Hrows n_aux a i Hna HL Hi HI Hne Hao) as
    (al & uv & aux & b & E & Hl1 & HI1 & Hne1 & Hg1 & [Hx1 Hx2] & (c0 & h0 & Hc0 & Hh0 & Hb & Hbf & Hbt)).
  destruct (@neal8_unassign_erase I data covs i a _ _ E) as (a1' & Ea1 & Eal & Euv). cbn [a_alloc a_uv set_uv set_alloc set_aux] in Eal, Euv.
  pose proof (@unassign_param I data covs false a _ i HG0 Ea1) as Hpar.
  destruct (@alone I data covs false a i c0 h0 HG0 Hc0 Hh0) as [Al1 Al2].
  assert (Hlo : lonely i (a_alloc a) = b).
  { rewrite Hb. apply eq_true_iff_eq. rewrite Al1, lonely_iff. pose proof (nth_of _ _ _ Hc0) as Nc. split.
    - intros H. destruct HI as [I1 I2]. destruct (I2 c0 h0 Hh0) as (([S1 [S2 S3]] & _) & _ & M).
      assert (Hin : In i (h_ids h0)) by (apply M; auto).
      assert (Hall : forall j, In j (h_ids h0) -> j = i).
      { intros j Hj. apply M in Hj. destruct (Nat.eq_dec j i); auto. exfalso. apply (H j); [apply nth_error_Some; congruence|auto|].
        rewrite (nth_of _ _ _ Hj), Nc. reflexivity. }
      apply ssorted_NoDup in S1. destruct (h_ids h0) as [|x [|y t]]; [contradiction| |].
      + f_equal. apply Hall. now left.
      + exfalso. inversion S1; subst. assert (x = i) by (apply Hall; simpl; auto). assert (y = i) by (apply Hall; simpl; auto). subst. simpl in *. tauto.
    - intros H k Hk Kn Ek. apply Kn. apply (Al2 H). rewrite (nth_error_nth' _ 0%nat) by exact Hk. rewrite Ek, Nc. reflexivity. }
  set (a1 := set_uv (set_alloc (set_aux a aux) al) uv) in *.
  set (s0 := if b then 1%nat else 0%nat) in *.
  destruct (refresh_draws I (a_hyp a1) (n_aux - s0) s0 (a_aux a1) r) as (aux' & E2 & Mx).
  { simpl in Hx1 |- *. unfold s0. destruct b; lia. }
  destruct (@refresh_aux_ok I (a_hyp a1) (seq s0 (n_aux - s0)) (a_aux a1) r) as (aux'' & r1' & E2' & Hl2 & Hok2 & _).
  { intros j Hj. apply in_seq in Hj. simpl in Hx1 |- *. unfold s0 in *. destruct b; lia. }
  { exact Hx2. }
  rewrite E2 in E2'. injection E2' as <- <-.
  change (a_hyp a1) with (a_hyp a) in *. change (a_aux a1) with aux in *.
  set (r1 := snd (prior_draws I (a_hyp a) (n_aux - s0) r)) in *.
  assert (Ho : offered n_aux a i r = (map (@h_state I) aux', r1)).
  { unfold offered. rewrite Hlo, Mx. unfold r1, s0. destruct b.
    - destruct (prior_draws I (a_hyp a) (n_aux - 1) r) as [ys r2]. cbn [fst snd]. f_equal.
      destruct (Hbt eq_refl) as (x0 & t & _ & ->). unfold param. rewrite Hc0, Hh0. reflexivity.
    - rewrite Nat.sub_0_r. cbn [firstn app]. apply surjective_pairing. }
  set (a2 := set_aux a1 aux').
  assert (Hx3 : length aux' = n_aux) by (simpl in *; congruence).
  destruct (prior_mass_values I data covs val false a2 i pi Hpi Hi Hl1 HI1 Hne1) as (pm2 & kappa & Ep & Lp & Hk & Hw).
  { apply HM; [rewrite del_length by (simpl; lia); simpl; lia|]. apply alike_of_same; try (simpl; lia). rewrite HL. exact Hg1. }
  unfold neal2_prior_mass in Ep. change (a_uv a2) with uv in *. change (a_mix a2) with (a_mix a) in *. change (a_alloc a2) with al in *.
  destruct (rmap (fun h => mass_ex I (a_mix a) (n - 1) (length uv) (h_card h)) uv) as [ex| | |] eqn:Eex; try discriminate.
  cbn [rbind] in Ep.
  destruct (mass_new I (a_mix a) (n - 1) (length uv)) as [wn| | |] eqn:Enw; try discriminate.
  cbn [rbind] in Ep. injection Ep as <-.
  assert (Lex : length ex = length uv) by (rewrite app_length in Lp; simpl in Lp; lia).
  set (pm := ex ++ repeat wn n_aux).
  assert (Epm : neal8_prior_mass data n_aux a2 = Ok pm).
  { unfold neal8_prior_mass. change (a_uv a2) with uv. change (a_mix a2) with (a_mix a). rewrite Eex. cbn [rbind].
    rewrite (rmap_const _ _ wn) by (intros; exact Enw). cbn [rbind]. rewrite seq_length. reflexivity. }
  destruct (rmap_values _ _ (fun j => h <- at_ aux' j ;; Ok (wsublog I (h_like h d cv) n_aux)) (seq 0 n_aux)
     (fun j w => exists h, nth_error aux' j = Some h /\ w = wsublog I (h_like h d cv) n_aux)) as (nw & En & Ln & Hnw).
  { intros j Hj. apply in_seq in Hj. assert (Hj2 : (j < length aux')%nat) by lia. destruct (at_ok aux' Hj2) as (h & F1 & F2).
    rewrite F1. cbn [rbind]. eexists. split; [reflexivity|]. exists h. auto. }
  rewrite seq_length in Ln.
  set (lk := map (fun h => h_like h d cv) uv ++ nw).
  assert (Elk : neal8_lpdf data covs n_aux a2 i = Ok lk).
  { unfold neal8_lpdf. rewrite Ed, Ec. cbn [rbind]. change (a_aux a2) with aux'. rewrite En. reflexivity. }
  assert (Lw : length (wsum I pm lk) = (length uv + n_aux)%nat).
  { rewrite wsum_length. unfold pm, lk. rewrite !app_length, repeat_length, map_length. lia. }
  destruct (rmap_values _ _ (fun c => neal8_assign data covs i c a2) (seq 0 (length uv + n_aux))
     (fun c b => neal8_assign data covs i c a2 = Ok b)) as (outs & Eo & Lo & Hou).
  { intros c Hc. apply in_seq in Hc. destruct (@neal8_assign_ok I L data covs Hrows n_aux a2 i c Hl1 Hi HI1 Hne1 Hx3 ltac:(simpl; lia)) as (uv' & Ea & _). eauto. }
  rewrite seq_length in Lo.
  assert (Hou' : forall c b, nth_error outs c = Some b -> neal8_assign data covs i c a2 = Ok b).
  { intros c b0 Hc. apply (Hou c c b0); [|exact Hc]. assert (c < length outs)%nat by (apply nth_error_Some; congruence).
    rewrite (nth_error_nth' _ 0%nat) by (rewrite seq_length; lia). rewrite seq_nth by lia. reflexivity. }
  exists al, (wsum I pm lk), outs, (length uv), (/ kappa), (map (@h_state I) aux'), r1.
  split; [exact Ho|]. split; [now rewrite map_length|]. split; [exact Hl1|]. split; [exact Hg1|]. split; [eapply inv_compact; eauto|].
  split; [apply Rinv_0_lt_compat; auto|]. split; [exact Lw|]. split; [exact Lo|]. split.
  { unfold neal8_step. rewrite E. cbn [rbind]. fold s0. change (a_hyp a1) with (a_hyp a). change (a_aux a1) with aux. rewrite E2. cbn [rbind]. fold a2. rewrite Epm. cbn [rbind].
    rewrite Elk. cbn [rbind]. destruct (cat I (wsum I pm lk) r1) as [[c r2]| | |]; cbn [rbind]; try reflexivity.
    destruct (Nat.lt_ge_cases c (length uv + n_aux)) as [Hc|Hc].
    - destruct (at_ok outs (i := c) ltac:(lia)) as (b0 & F1 & F2). rewrite F1, (Hou' c b0 F2). reflexivity.
    - unfold at_ at 1. rewrite (proj2 (nth_error_None outs c)) by lia. cbn [rbind].
      unfold neal8_assign. rewrite Ed, Ec. cbn [rbind]. change (a_uv a2) with uv. change (a_aux a2) with aux'.
      rewrite (proj2 (Nat.leb_le (length uv) c)) by lia. unfold at_. rewrite (proj2 (nth_error_None aux' (c - length uv))) by lia. reflexivity. }
  intros c w b0 Hcw Hcb. assert (Hc : (c < length uv + n_aux)%nat) by (rewrite <- Lw; apply nth_error_Some; congruence).
  apply Hou' in Hcb.
  destruct (@neal8_assign_ok I L data covs Hrows n_aux a2 i c Hl1 Hi HI1 Hne1 Hx3 Hc) as (uv' & Ea & HI2 & Hne2 & Hst & Hnew).
  rewrite Ea in Hcb. injection Hcb as <-.
  change (a_uv a2) with uv in *. change (a_aux a2) with aux' in *. change (a_alloc a2) with al in *.
  set (a' := set_uv (set_alloc a2 (upd al i (min c (length uv)))) uv') in *.
  assert (Hp : pi (upd al i (min c (length uv))) = pi (min c (length uv) :: del al i)).
  { destruct Hpi as (_ & Hperm & _). apply Hperm, upd_perm. lia. }
  assert (Hpj : forall j, j <> i -> param a' j = param a j).
  { intros j Hj. rewrite <- (Hpar j Hj). unfold param. rewrite Eal, Euv. cbn [a_alloc a_uv a' set_uv set_alloc].
    rewrite nth_error_upd_other by auto. destruct (nth_error al j) as [x|] eqn:Ex; [|reflexivity]. apply Hst.
    apply (proj1 HI1 j x). unfold hole. rewrite (proj2 (Nat.eqb_neq _ _) Hj). exact Ex. }
  assert (Hpc : forall j, j <> i -> nth_error al j = Some c -> param a j = option_map (@h_state I) (nth_error uv c)).
  { intros j Hj Ej. rewrite <- (Hpar j Hj). unfold param. rewrite Eal, Euv, Ej. reflexivity. }
  destruct (wsum_nth I _ _ _ _ Hcw) as (x & y & Hx & Hy & ->). rewrite val_add.
  destruct (Nat.lt_ge_cases c (length uv)) as [Hcl|Hcl].
  - rewrite (proj2 (Nat.ltb_lt _ _) Hcl). rewrite Nat.min_l in * by lia.
    unfold pm in Hx. rewrite nth_error_app1 in Hx by lia.
    unfold lk in Hy. rewrite nth_error_app1 in Hy by (rewrite map_length; lia). rewrite nth_error_map in Hy.
    destruct (nth_error uv c) as [h|] eqn:Eh; [|discriminate]. simpl in Hy. injection Hy as <-.
    specialize (Hst c Hcl). rewrite Eh in Hst. simpl in Hst.
    destruct (nth_error uv' c) as [h'|] eqn:Eh'; [|discriminate]. simpl in Hst. injection Hst as Hst.
    exists (h_state h). split.
    { unfold param. cbn [a_alloc a_uv a' set_uv set_alloc]. rewrite nth_error_upd_same by lia. rewrite ?Nat.min_l by lia. rewrite Eh'. simpl. congruence. }
    split; [unfold a'; simpl; rewrite ?Nat.min_l by lia; reflexivity|]. split; [exact Hpj|]. split; [exact Hpc|]. split; [lia|].
    cbn [a_alloc a' set_uv set_alloc]. rewrite ?Nat.min_l by lia. rewrite Hp, (Hw c x) by (rewrite nth_error_app1 by lia; auto).
    unfold h_like. field. lra.
  - rewrite (proj2 (Nat.ltb_ge _ _) Hcl). rewrite Nat.min_r in * by lia.
    unfold pm in Hx. rewrite nth_error_app2 in Hx by lia.
    assert (x = wn) by (apply nth_error_In, repeat_spec in Hx; auto). subst x.
    unfold lk in Hy. rewrite nth_error_app2 in Hy by (rewrite map_length; lia). rewrite map_length in Hy.
    destruct (Hnw (c - length uv)%nat (c - length uv)%nat y) as (h & Eh & ->); auto.
    { rewrite (nth_error_nth' _ 0%nat) by (rewrite seq_length; lia). rewrite seq_nth by lia. reflexivity. }
    destruct (Hnew Hcl) as [Lu Hs]. rewrite Eh in Hs. simpl in Hs.
    destruct (nth_error uv' (length uv)) as [h'|] eqn:Eh'; [|discriminate]. simpl in Hs. injection Hs as Hs.
    exists (h_state h). split.
    { unfold param. cbn [a_alloc a_uv a' set_uv set_alloc]. rewrite nth_error_upd_same by lia. rewrite ?Nat.min_r by lia. rewrite Eh'. simpl. congruence. }
    split; [unfold a'; simpl; rewrite ?Nat.min_r by lia; reflexivity|]. split; [exact Hpj|]. split.
    { intros j Hj Ej. exfalso. apply (proj1 (Nat.le_ngt _ _) Hcl). apply (proj1 HI1 j c). unfold hole. rewrite (proj2 (Nat.eqb_neq _ _) Hj). exact Ej. }
    split; [intros _; rewrite nth_error_map, Eh; reflexivity|].
    cbn [a_alloc a' set_uv set_alloc]. rewrite ?Nat.min_r by lia. rewrite Hp, (Hw (length uv) wn) by (rewrite nth_error_app2, Lex, Nat.sub_diag by lia; auto).
    rewrite val_sub by auto. unfold h_like. assert (INR n_aux <> 0) by (apply not_0_INR; lia). field. split; lra.
Qed.

Lemma combine_seq : forall A B (g : A -> B -> R) (u : list A) (v : list B), length u = length v ->
  sumR (map (fun p => g (fst p) (snd p)) (combine u v)) =
  sumR (map (fun c => match nth_error u c, nth_error v c with Some x, Some y => g x y | _, _ => 0 end) (seq 0 (length u))).
Proof.
  intros A B g. induction u as [|x u IH]; intros [|y v] HL; try discriminate; [reflexivity|]. cbn [combine map length seq fst snd].
  unfold sumR. cbn [fold_right nth_error]. f_equal. rewrite <- seq_shift, map_map. apply IH. cbn in HL. lia.
Qed.

Lemma sumR_app : forall u v, sumR (u ++ v) = sumR u + sumR v.
Proof. intros u v. unfold sumR. induction u as [|x u IH]; cbn [app fold_right]; [lra|]. fold (sumR (u ++ v)) in *. rewrite IH. lra. Qed.

Lemma labels_lt : forall (a : alg I) j x, good I data covs a -> nth_error (a_alloc a) j = Some x -> (x < length (a_alloc a))%nat.
Proof.
  intros a j x HG Hj. apply GInv_iff in HG. destruct HG as (HL & HI & Hne).
  assert (Hle : (length (a_uv a) <= n)%nat).
  { rewrite <- (seq_length n 0). eapply Inv_clusters_le; eauto. intros q c Hq. apply in_seq. apply nth_error_lt in Hq. lia. }
  destruct (proj1 HI j x Hj) as [_ H]. lia.
Qed.

Lemma conf_of : forall (a b : alg I) i al v st, length (a_alloc a) = length al -> (i < length al)%nat -> a_alloc b = upd al i v ->
  param b i = Some st -> (forall j, j <> i -> param b j = param a j) ->
  conf I b = (canon (upd al i v), upd (snd (conf I a)) i (Some st)).
Proof.
  intros a b i al v st HL Hi Eb Es Ho. unfold conf. cbn [snd]. rewrite Eb. f_equal. rewrite upd_length, HL.
  apply nth_ext with (d := None) (d' := None); [now rewrite upd_length, !map_length, seq_length|].
  rewrite map_length, seq_length. intros j Hj. apply nth_error_nth with (d := None).
  rewrite nth_error_map, (nth_error_nth' _ 0%nat) by (rewrite seq_length; auto). rewrite seq_nth by auto. cbn [option_map Nat.add].
  f_equal. destruct (Nat.eq_dec j i) as [->|Hn].
  - symmetry. rewrite Es. apply nth_error_nth. apply nth_error_upd_same. rewrite map_length, seq_length. exact Hi.
  - rewrite (Ho j Hn). symmetry. apply nth_error_nth. rewrite nth_error_upd_other by auto. rewrite nth_error_map, (nth_error_nth' _ 0%nat) by (rewrite seq_length; auto). rewrite seq_nth by auto. reflexivity.
Qed.

Lemma conf_nth : forall (a : alg I) j, (j < length (a_alloc a))%nat -> nth j (snd (conf I a)) None = param a j.
Proof.
  intros a j Hj. unfold conf. cbn [snd]. apply nth_error_nth. rewrite nth_error_map, (nth_error_nth' _ 0%nat) by (rewrite seq_length; auto). rewrite seq_nth by auto. reflexivity.
Qed.

Lemma neal8_total : forall n_aux (a : alg I) i pi d cv r,
  (2 <= n)%nat -> (i < n)%nat -> (1 <= n_aux)%nat -> good I data covs a -> partition_prior pi ->
  length (a_aux a) = n_aux -> (forall h, In h (a_aux a) -> h_ids h = [] /\ h_stats h = stats0 I) ->
  at_ data i = Ok d -> cvf i = Ok cv ->
  (forall rest, length rest = (n - 1)%nat -> canon (del (a_alloc a) i) = canon rest -> mass_at I val (a_mix a) pi rest) ->
  exists ws outs xs r1 C,
    offered n_aux a i r = (xs, r1) /\ length xs = n_aux /\ 0 < C /\ length outs = length ws /\
    neal8_step data covs n_aux (a, r) i = ('(c, r2) <- cat I ws r1 ;; b <- at_ outs c ;; Ok (b, r2)) /\
    forall f, sumR (map (fun wb => val (fst wb) * f (conf I (snd wb))) (combine ws outs)) =
              C * total8 pi (fun x => val (like_lpdf I x d cv)) i (a_alloc a) (snd (conf I a)) xs f.
Proof.
  intros n_aux a i pi d cv r Hn Hi Hna HG Hpi Hla Haux Ed Ec HM.
  destruct (neal8_full n_aux a i pi d cv r Hn Hi Hna HG Hpi Hla Haux Ed Ec HM) as
    (al & ws & outs & k & C & xs & r1 & Ho & Lx & La & Hg & Hco & HC & Lw & Lo & Es & Hall).
  exists ws, outs, xs, r1, C. split; [exact Ho|]. split; [exact Lx|]. split; [exact HC|]. split; [lia|]. split; [exact Es|].
  intros f. assert (HL : length (a_alloc a) = n) by (apply GInv_iff in HG; apply HG).
  set (lik := fun x => val (like_lpdf I x d cv)). set (l := a_alloc a) in *. set (ps := snd (conf I a)).
  rewrite (combine_seq _ _ (fun w b => val w * f (conf I b))) by lia. rewrite Lw, seq_app, map_app, sumR_app. unfold total8. rewrite Rmult_plus_distr_l.
  assert (Hg' : same_grouping (fun j => j <> i /\ (j < length l)%nat) l al) by (rewrite HL; exact Hg).
  set (F := fun c => match nth_error ws c, nth_error outs c with Some x, Some y => val x * f (conf I y) | _, _ => 0 end). f_equal.
  - transitivity (sumR (map F (map (fun j => nth j al 0%nat) (reps i al)))).
    { apply sumR_perm, Permutation_map. symmetry. apply reps_labels. exact Hco. }
    rewrite map_map, <- sumR_mult. rewrite <- (reps_same i l al) by (auto; lia). apply sumR_map_ext. intros j Hj. apply reps_in in Hj. destruct Hj as (J1 & J2 & _).
    assert (Ej : nth_error al j = Some (nth j al 0%nat)) by (apply nth_error_nth'; lia). set (c := nth j al 0%nat) in *.
    assert (Hck : (c < k)%nat) by (apply (proj1 Hco j c J2 Ej)).
    unfold F. destruct (nth_error ws c) as [w|] eqn:Ew; [|apply nth_error_None in Ew; lia]. destruct (nth_error outs c) as [b|] eqn:Eb; [|apply nth_error_None in Eb; lia].
    destruct (Hall c w b Ew Eb) as (st & P1 & P2 & P3 & P4 & _ & P6). rewrite Nat.min_l in P2 by lia. rewrite (proj2 (Nat.ltb_lt _ _) Hck) in P6.
    assert (Ecan : canon (upd al i c) = canon (upd l i (nth j l 0%nat))).
    { symmetry. apply canon_upd; auto; try lia. intros q Hq Lq. apply (grouped i l al q j); auto; try lia. }
    assert (HLa : length (a_alloc a) = length al) by (fold l; lia). rewrite (conf_of a b i al c st HLa) by (auto; lia). rewrite P6, P2. unfold w_sit, sit. fold ps. rewrite Ecan.
    assert (Ep : nth j ps None = Some st) by (unfold ps; rewrite (conf_nth a j J1); apply P4; auto). rewrite Ep, (prior_canon pi _ _ Hpi Ecan). unfold lik. field_simplify; reflexivity.
  - rewrite <- sumR_mult.
    assert (T : map F (seq (0 + k) n_aux) = map (fun q => match nth_error xs q with Some x => C * (w_own pi lik i l x / INR (length xs) * f (own i l ps x)) | None => 0 end) (seq 0 n_aux)).
    { rewrite <- (Nat.add_comm k 0). clear -Hall Lx Lw Lo HL Hpi Hg' Hco La Hi HG.
      assert (G : forall q, (q < n_aux)%nat -> F (k + q)%nat = match nth_error xs q with Some x => C * (w_own pi lik i l x / INR (length xs) * f (own i l ps x)) | None => 0 end).
      { intros q Hq. unfold F. destruct (nth_error ws (k + q)) as [w|] eqn:Ew; [|apply nth_error_None in Ew; lia]. destruct (nth_error outs (k + q)) as [b|] eqn:Eb; [|apply nth_error_None in Eb; lia].
        destruct (Hall _ w b Ew Eb) as (st & P1 & P2 & P3 & _ & P5 & P6). specialize (P5 ltac:(lia)). replace (k + q - k)%nat with q in P5 by lia. rewrite P5.
        rewrite Nat.min_r in P2 by lia. rewrite (proj2 (Nat.ltb_ge (k + q) k)) in P6 by lia.
        assert (Ecan : canon (upd al i k) = canon (upd l i (length l))).
        { symmetry. apply canon_upd; auto; try lia. intros j Hj Lj. split; intros E; exfalso.
          - assert (X : nth_error (a_alloc a) j = Some (nth j l 0%nat)) by (apply nth_error_nth'; exact Lj). apply (labels_lt a) in X; auto. unfold l in *. lia.
          - assert (X : nth_error al j = Some (nth j al 0%nat)) by (apply nth_error_nth'; lia). apply (proj1 Hco j _ Hj) in X. lia. }
        assert (HLa : length (a_alloc a) = length al) by (fold l; lia). rewrite (conf_of a b i al k st HLa) by (auto; lia). rewrite P6, P2, Lx. unfold w_own, own. fold ps. rewrite Ecan, (prior_canon pi _ _ Hpi Ecan). unfold lik.
        assert (INR n_aux <> 0) by (apply not_0_INR; lia). field. assumption. }
      clear Hall. replace (k + 0)%nat with (0 + k)%nat by lia. rewrite <- (seq_map_shift k n_aux 0). rewrite map_map. apply map_ext_in. intros q Hq. apply in_seq in Hq. apply G. lia. }
    rewrite T. rewrite <- Lx. clear. set (g := fun x => C * (w_own pi lik i l x / INR (length xs) * f (own i l ps x))).
    change (sumR (map (fun q => match nth_error xs q with Some x => g x | None => 0 end) (seq 0 (length xs))) = sumR (map g xs)). generalize g. clear.
    intros g. induction xs as [|x xs IH]; [reflexivity|]. cbn [length seq map]. unfold sumR. cbn [fold_right nth_error]. f_equal. rewrite <- seq_shift, map_map. exact IH.
Qed.
End Eight.
