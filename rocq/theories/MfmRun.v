(** * Marginal algorithms whose mixing has no value when every other observation
    is alone: proofs. *)
From Coq Require Import Bool List Arith ZArith Lia Permutation Reals.
From Verif Require Import Base Hier Algos Run Spec MargFacts NealFacts MargMore InitFacts MargProps ValidRun.
From Verif Require Import PartSpec MixFacts MixMore MfmFacts GibbsSpec GibbsComb GibbsPost GibbsFacts CovInst UnivRun CovRun.
Import ListNotations.
Local Open Scope nat_scope.

Lemma distinct_full : forall l, NoDup l <-> length (distinct l) = length l.
Proof.
  unfold distinct. induction l as [|x l IH]; [split; [reflexivity|constructor]|]. cbn [nodup length]. split.
  - intro H. inversion H as [|? ? Hx Hl]; subst. destruct (in_dec Nat.eq_dec x l); [contradiction|]. cbn [length]. f_equal. now apply IH.
  - intro H. destruct (in_dec Nat.eq_dec x l) as [Hx|Hx].
    + pose proof (distinct_le l) as D. unfold distinct in D. lia.
    + constructor; [exact Hx|]. apply IH. cbn [length] in H. lia.
Qed.

Lemma seq_first : forall m, 1 <= m -> seq 0 m = 0 :: seq 1 (m - 1).
Proof. intros [|m] H; [lia|]. cbn [seq]. now replace (S m - 1) with m by lia. Qed.

Lemma canon_nodup : forall l l', canon l = canon l' -> NoDup l -> NoDup l'.
Proof.
  intros l l' E H. apply canon_iff in E. destruct E as [HL HG]. apply NoDup_nth_error. intros p q Hp Hq.
  destruct (nth_some l' p Hp) as (x' & Ex'). rewrite Ex' in Hq. symmetry in Hq.
  destruct (nth_some l p ltac:(lia)) as (x & Ex).
  assert (Lq : q < length l) by (rewrite HL; apply nth_error_Some; congruence). destruct (nth_some l q Lq) as (y & Ey).
  assert (x = y) by (eapply HG; eauto). subst y.
  rewrite NoDup_nth_error in H. apply H; [lia|congruence].
Qed.

Section Small.
  Variable I : Iface.
  Variable L : laws I.
  Variable data : list (Datum I).
  Variable covs : list (Cov I).
  Hypothesis Hrows : rows_ok I data (at_ covs).
  Local Notation n := (length data).
  Local Notation cvf := (at_ covs).
  Variable P : Mix I -> Prop.
  (** Masses are defined with fewer than [n - 1] clusters and undefined with [n - 1]. *)
  Hypothesis Hsmall : forall m k, P m -> k + 2 <= n -> (forall c, exists w, mass_ex I m (n - 1) k c = Ok w) /\ exists w, mass_new I m (n - 1) k = Ok w.
  Hypothesis Hfull : forall m, P m -> (forall c, mass_ex I m (n - 1) (n - 1) c = UB) /\ mass_new I m (n - 1) (n - 1) = UB.

  Section Trk.
  Variables uhp trk : bool.
  Hypothesis Huhp : uhp = true -> conj I = true /\ other_draw I = None.
  Hypothesis Htrk : trk = true -> uhp = true.
  Local Notation IV := (@Inv I data cvf trk).

  Lemma alone_iff : forall hy i al uv, i < n -> length al = n -> IV hy (hole i al) uv -> nonempty uv -> (NoDup (del al i) <-> length uv = n - 1).
  Proof.
    intros hy i al uv Hi HL HI Hne. pose proof (@inv_compact I data covs trk hy i al uv HI Hne) as HC.
    assert (Hi2 : (i < length al)%nat) by lia. assert (Ed : length (del al i) = n - 1) by (rewrite del_length by exact Hi2; lia).
    rewrite distinct_full, (Permutation_length (distinct_rest i (length uv) al Hi2 HC)), seq_length, Ed. reflexivity.
  Qed.

  Lemma hole_le : forall hy i al uv, i < n -> length al = n -> IV hy (hole i al) uv -> nonempty uv -> ~ NoDup (del al i) -> length uv + 2 <= n.
  Proof.
    intros hy i al uv Hi HL HI Hne Hd. pose proof (@hole_clusters_le I data covs trk hy i al uv Hi HL HI Hne) as K.
    rewrite (alone_iff hy i al uv Hi HL HI Hne) in Hd. lia.
  Qed.

  Lemma mass_small : forall (a : alg I), length (a_uv a) + 2 <= n -> P (a_mix a) ->
    exists ws, neal2_prior_mass data a = Ok ws /\ length ws = S (length (a_uv a)).
  Proof.
    intros a Hk Hm. unfold neal2_prior_mass. destruct (Hsmall (a_mix a) (length (a_uv a)) Hm Hk) as [Mex (wn & En)].
    destruct (@rmap_ok _ _ (fun h => mass_ex I (a_mix a) (n - 1) (length (a_uv a)) (h_card h)) (a_uv a)) as (ex & E & Elen); [intros h _; apply Mex|].
    rewrite E. cbn [rbind]. rewrite En. cbn [rbind]. exists (ex ++ [wn]). split; [reflexivity|]. rewrite app_length, Elen. cbn. lia.
  Qed.
  Lemma rmap_UB : forall A B (f : A -> res B) l, l <> [] -> (forall x, In x l -> f x = UB) -> rmap f l = UB.
  Proof. intros A B f [|x l] H K; [congruence|]. cbn [rmap]. rewrite (K x (or_introl eq_refl)). reflexivity. Qed.
  Lemma mass_full : forall (a : alg I), length (a_uv a) = n - 1 -> P (a_mix a) -> neal2_prior_mass data a = UB.
  Proof.
    intros a Hk Hm. unfold neal2_prior_mass. destruct (Hfull (a_mix a) Hm) as [Mex Mn]. rewrite Hk.
    destruct (a_uv a) as [|h t]; [cbn [rmap rbind]; rewrite Mn; reflexivity|].
    rewrite rmap_UB; [reflexivity|discriminate|intros x _; apply Mex].
  Qed.

  Lemma same_alone : forall i al al', i < n -> length al = n -> length al' = n ->
    same_grouping (fun j => j <> i /\ j < n) al al' -> (NoDup (del al i) <-> NoDup (del al' i)).
  Proof.
    intros i al al' Hi H1 H2 HS. assert (E : canon (del al i) = canon (del al' i)).
    { apply alike_of_same; [lia|lia|]. rewrite H1. exact HS. }
    split; intro H; [eapply canon_nodup; [exact E|exact H]|eapply canon_nodup; [symmetry; exact E|exact H]].
  Qed.

  Variable lp : alg I -> nat -> res (list (W I)).
  Hypothesis Hlp : forall (a : alg I) i, i < n -> length (a_alloc a) = n -> a_uv a <> [] ->
    IV (a_hyp a) (hole i (a_alloc a)) (a_uv a) ->
    exists ws, lp a i = Ok ws /\ length ws = S (length (a_uv a)).

  (** The others share a cluster: the reallocation is defined; the new label is
      the one drawn. *)
  Lemma step_small : forall (a : alg I) r i, 2 <= n -> i < n -> @GInv I data covs trk a -> P (a_mix a) -> ~ NoDup (del (a_alloc a) i) ->
    exists a' r' al ws, neal_step data covs uhp lp (a, r) i = Ok (a', r') /\
      @GInv I data covs trk a' /\ a_mix a' = a_mix a /\ a_hyp a' = a_hyp a /\ a_aux a' = a_aux a /\
      length al = n /\ same_grouping (fun j => j <> i /\ j < n) (a_alloc a) al /\
      ws <> [] /\ compact i al (length ws - 1) /\ a_alloc a' = upd al i (fst (categorical I ws r)).
  Proof.
    intros a r i Hn Hi (Hl & HI & Hne) Hm Hd. unfold neal_step.
    destruct (@unassign_ok I L data cvf Hrows uhp Huhp trk Htrk a i) as (al & uv & E & Hl1 & HI1 & Hne1 & Hg1); auto.
    rewrite E. cbn [rbind]. set (a1 := set_uv (set_alloc a al) uv) in *.
    assert (Hd1 : ~ NoDup (del al i)) by (rewrite <- (same_alone i (a_alloc a) al Hi Hl Hl1 Hg1); exact Hd).
    pose proof (hole_le (a_hyp a) i al uv Hi Hl1 HI1 Hne1 Hd1) as Hk.
    destruct (mass_small a1 Hk Hm) as (pm & Epm & Lpm). rewrite Epm. cbn [rbind].
    assert (Huv : uv <> []) by (eapply hole_uv_nonempty with (trk := trk); eauto).
    destruct (@Hlp a1 i) as (lk & Elk & Llk); auto.
    rewrite Elk. cbn [rbind].
    assert (Lw : length (wsum I pm lk) = S (length uv)) by (rewrite wsum_length, Lpm, Llk; apply Nat.min_id).
    destruct (wsum I pm lk) as [|w0 ws] eqn:Ew; [discriminate|]. cbn [cat rbind].
    pose proof (@cat_lt I L (w0 :: ws) r ltac:(discriminate)) as Hc.
    destruct (categorical I (w0 :: ws) r) as [c r1] eqn:Ec. cbn [fst] in Hc. rewrite Lw in Hc.
    destruct (@assign_ok I L data cvf Hrows uhp Huhp trk Htrk a1 i c r1) as (uv2 & r2 & E2 & HI2 & Hne2); auto.
    { cbn. lia. }
    rewrite E2. eexists _, r2, al, (w0 :: ws). split; [reflexivity|]. split.
    { split; [|split]; cbn; auto. rewrite upd_length. auto. }
    do 3 (split; [reflexivity|]). split; [exact Hl1|]. split; [exact Hg1|]. split; [discriminate|]. split.
    { rewrite Lw. replace (S (length uv) - 1) with (length uv) by lia. exact (@inv_compact I data covs trk (a_hyp a) i al uv HI1 Hne1). }
    cbn. rewrite Ec. reflexivity.
  Qed.

  (** All others are alone: the masses read past the table. *)
  Lemma step_full : forall (a : alg I) r i, i < n -> @GInv I data covs trk a -> P (a_mix a) -> NoDup (del (a_alloc a) i) ->
    neal_step data covs uhp lp (a, r) i = UB.
  Proof.
    intros a r i Hi (Hl & HI & Hne) Hm Hd. unfold neal_step.
    destruct (@unassign_ok I L data cvf Hrows uhp Huhp trk Htrk a i) as (al & uv & E & Hl1 & HI1 & Hne1 & Hg1); auto.
    rewrite E. cbn [rbind]. rewrite mass_full; [reflexivity| |exact Hm].
    cbn. apply (alone_iff (a_hyp a) i al uv Hi Hl1 HI1 Hne1). now apply (same_alone i (a_alloc a) al Hi Hl Hl1 Hg1).
  Qed.

  Definition nodup_dec (l : list nat) : {NoDup l} + {~ NoDup l} := ListDec.NoDup_dec Nat.eq_dec l.

  Lemma sweep_cases : forall is (a : alg I) r, 2 <= n -> (forall i, In i is -> i < n) -> @GInv I data covs trk a -> P (a_mix a) ->
    (exists a' r', rfold (neal_step data covs uhp lp) is (a, r) = Ok (a', r') /\ @GInv I data covs trk a' /\ a_mix a' = a_mix a /\ a_hyp a' = a_hyp a) \/
    rfold (neal_step data covs uhp lp) is (a, r) = UB.
  Proof.
    induction is as [|i is IH]; intros a r Hn Hi Ha Hm; cbn [rfold]; [left; eauto 6|].
    destruct (nodup_dec (del (a_alloc a) i)) as [D|D].
    - right. rewrite step_full; auto. apply Hi. now left.
    - destruct (step_small a r i Hn (Hi i (or_introl eq_refl)) Ha Hm D) as (a1 & r1 & al & ws & E & G & Em & Eh & _). rewrite E. cbn [rbind].
      destruct (IH a1 r1 Hn (fun j Hj => Hi j (or_intror Hj)) G ltac:(now rewrite Em)) as [(a' & r' & E' & G' & Em' & Eh')|E']; [left|right; exact E'].
      exists a', r'. split; [exact E'|]. split; [exact G'|]. split; congruence.
  Qed.

  End Trk.

  (** ** Neal8 *)
  Local Notation IV0 := (@Inv I data cvf false).
  Lemma step8_small : forall n_aux (a : alg I) r i, 1 <= n_aux -> i < n -> @GInv8 I data covs n_aux a -> P (a_mix a) -> ~ NoDup (del (a_alloc a) i) ->
    exists a' r' al ws r1, neal8_step data covs n_aux (a, r) i = Ok (a', r') /\
      @GInv8 I data covs n_aux a' /\ a_mix a' = a_mix a /\ a_hyp a' = a_hyp a /\
      length al = n /\ same_grouping (fun j => j <> i /\ j < n) (a_alloc a) al /\
      ws <> [] /\ n_aux <= length ws /\ compact i al (length ws - n_aux) /\
      a_alloc a' = upd al i (min (fst (categorical I ws r1)) (length ws - n_aux)).
  Proof.
    intros n_aux a r i Hna Hi ((Hl & HI & Hne) & Haux) Hm Hd. unfold neal8_step.
    destruct (@neal8_unassign_ok I L data covs Hrows n_aux a i) as (al & uv & aux & b & E & Hl1 & HI1 & Hne1 & Hg1 & Haux1 & _); auto.
    rewrite E. cbn [rbind]. set (a1 := set_uv (set_alloc (set_aux a aux) al) uv) in *. destruct Haux1 as [Hx1 Hx2].
    assert (Hd1 : ~ NoDup (del al i)) by (rewrite <- (same_alone i (a_alloc a) al Hi Hl Hl1 Hg1); exact Hd).
    pose proof (hole_le false (a_hyp a) i al uv Hi Hl1 HI1 Hne1 Hd1) as Hk.
    destruct (@refresh_aux_ok I (a_hyp a1) (seq (if b then 1 else 0) (n_aux - (if b then 1 else 0))) (a_aux a1) r) as (aux' & r1 & E2 & Hl2 & Hok2 & _).
    { intros j Hj. apply in_seq in Hj. cbn in Hx1 |- *. destruct b; lia. }
    { exact Hx2. }
    rewrite E2. cbn [rbind]. set (a2 := set_aux a1 aux'). assert (Hx3 : length (a_aux a2) = n_aux) by (cbn in *; congruence).
    destruct (Hsmall (a_mix a) (length uv) Hm Hk) as [Mex (wn & Mn)].
    assert (Epm8 : exists pm8, neal8_prior_mass data n_aux a2 = Ok pm8 /\ length pm8 = length uv + n_aux).
    { unfold neal8_prior_mass. change (a_uv a2) with uv in *. change (a_mix a2) with (a_mix a) in *.
      destruct (@rmap_ok _ _ (fun h => mass_ex I (a_mix a) (n - 1) (length uv) (h_card h)) uv) as (ex & Eex & Lex); [intros h _; apply Mex|].
      rewrite Eex. cbn [rbind].
      destruct (@rmap_ok _ _ (fun _ : nat => mass_new I (a_mix a) (n - 1) (length uv)) (seq 0 n_aux)) as (nw & Enw & Lnw); [intros _ _; eauto|].
      rewrite Enw. cbn [rbind]. eexists. split; [reflexivity|]. rewrite app_length, Lex, Lnw, seq_length. auto. }
    destruct Epm8 as (pm8 & Epm8 & Lpm8). rewrite Epm8. cbn [rbind].
    assert (Elk8 : exists lk, neal8_lpdf data covs n_aux a2 i = Ok lk /\ length lk = length uv + n_aux).
    { unfold neal8_lpdf. destruct (Hrows i Hi) as (d & cv & Ed & Ecv & Hr). rewrite Ed, Ecv. cbn [rbind].
      destruct (@rmap_ok _ _ (fun j => h <- at_ (a_aux a2) j ;; Ok (wsublog I (h_like h d cv) n_aux)) (seq 0 n_aux)) as (nw & Enw & Lnw).
      { intros j Hj. apply in_seq in Hj. destruct (at_ok (a_aux a2) (i := j)) as (h & Eh & _); [lia|]. rewrite Eh. cbn. eauto. }
      rewrite Enw. cbn [rbind]. eexists. split; [reflexivity|]. rewrite app_length, map_length, Lnw, seq_length. auto. }
    destruct Elk8 as (lk & Elk & Llk). rewrite Elk. cbn [rbind].
    assert (Lw : length (wsum I pm8 lk) = length uv + n_aux) by (rewrite wsum_length, Lpm8, Llk; apply Nat.min_id).
    destruct (wsum I pm8 lk) as [|w0 ws] eqn:Ew; [cbn in Lw; lia|]. cbn [cat rbind].
    pose proof (@cat_lt I L (w0 :: ws) r1 ltac:(discriminate)) as Hc.
    destruct (categorical I (w0 :: ws) r1) as [c r2] eqn:Ec. cbn [fst] in Hc. rewrite Lw in Hc.
    destruct (@neal8_assign_ok I L data covs Hrows n_aux a2 i c) as (uv2 & E3 & HI2 & Hne2 & _); auto.
    rewrite E3. cbn [rbind]. eexists _, r2, al, (w0 :: ws), r1. split; [reflexivity|]. split.
    { split; [split; [|split]|]; cbn; auto; [rewrite upd_length; auto|]. split; auto. }
    do 2 (split; [reflexivity|]). split; [exact Hl1|]. split; [exact Hg1|]. split; [discriminate|]. rewrite Lw. split; [lia|].
    replace (length uv + n_aux - n_aux) with (length uv) by lia. split; [exact (@inv_compact I data covs false (a_hyp a) i al uv HI1 Hne1)|].
    rewrite Ec. reflexivity.
  Qed.

  Lemma step8_full : forall n_aux (a : alg I) r i, 1 <= n_aux -> i < n -> @GInv8 I data covs n_aux a -> P (a_mix a) -> NoDup (del (a_alloc a) i) ->
    neal8_step data covs n_aux (a, r) i = UB.
  Proof.
    intros n_aux a r i Hna Hi ((Hl & HI & Hne) & Haux) Hm Hd. unfold neal8_step.
    destruct (@neal8_unassign_ok I L data covs Hrows n_aux a i) as (al & uv & aux & b & E & Hl1 & HI1 & Hne1 & Hg1 & Haux1 & _); auto.
    rewrite E. cbn [rbind]. set (a1 := set_uv (set_alloc (set_aux a aux) al) uv) in *. destruct Haux1 as [Hx1 Hx2].
    destruct (@refresh_aux_ok I (a_hyp a1) (seq (if b then 1 else 0) (n_aux - (if b then 1 else 0))) (a_aux a1) r) as (aux' & r1 & E2 & Hl2 & Hok2 & _).
    { intros j Hj. apply in_seq in Hj. cbn in Hx1 |- *. destruct b; lia. }
    { exact Hx2. }
    rewrite E2. cbn [rbind].
    assert (Hk : length uv = n - 1).
    { apply (alone_iff false (a_hyp a) i al uv Hi Hl1 HI1 Hne1). now apply (same_alone i (a_alloc a) al Hi Hl Hl1 Hg1). }
    unfold neal8_prior_mass. cbn [a_uv a_mix set_aux]. change (a_uv a1) with uv. change (a_mix a1) with (a_mix a). rewrite Hk.
    destruct (Hfull (a_mix a) Hm) as [Mex Mn]. destruct uv as [|h t].
    - cbn [rmap rbind]. rewrite rmap_UB; [reflexivity| |intros x _; exact Mn]. destruct n_aux; [lia|discriminate].
    - rewrite rmap_UB; [reflexivity|discriminate|intros x _; apply Mex].
  Qed.

  Lemma sweep8_cases : forall n_aux is (a : alg I) r, 1 <= n_aux -> (forall i, In i is -> i < n) -> @GInv8 I data covs n_aux a -> P (a_mix a) ->
    (exists a' r', rfold (neal8_step data covs n_aux) is (a, r) = Ok (a', r') /\ @GInv8 I data covs n_aux a' /\ a_mix a' = a_mix a /\ a_hyp a' = a_hyp a) \/
    rfold (neal8_step data covs n_aux) is (a, r) = UB.
  Proof.
    intros n_aux. induction is as [|i is IH]; intros a r Hn Hi Ha Hm; cbn [rfold]; [left; eauto 6|].
    destruct (nodup_dec (del (a_alloc a) i)) as [D|D].
    - right. rewrite step8_full; auto. apply Hi. now left.
    - destruct (step8_small n_aux a r i Hn (Hi i (or_introl eq_refl)) Ha Hm D) as (a1 & r1 & al & ws & q & E & G & Em & Eh & _). rewrite E. cbn [rbind].
      destruct (IH a1 r1 Hn (fun j Hj => Hi j (or_intror Hj)) G ltac:(now rewrite Em)) as [(a' & r' & E' & G' & Em' & Eh')|E']; [left|right; exact E'].
      exists a', r'. split; [exact E'|]. split; [exact G'|]. split; congruence.
  Qed.

  (** Lemmas shared by the two cases of a generator drawing the last weight. *)
  Definition apart (i : nat) (al : list nat) : Prop := forall j j' x, j < i -> j' <> j -> nth_error al j = Some x -> nth_error al j' <> Some x.
  Lemma apart_last : forall i al, length al = n -> i + 1 = n -> apart i al -> NoDup (del al i).
  Proof.
    intros i al Li Hi Hs. apply NoDup_nth_error. intros p q Hp' Hq. rewrite del_length in Hp' by lia.
    assert (Ed : forall p, p < i -> nth_error (del al i) p = nth_error al p).
    { clear. intros p Hp. revert i p Hp. induction al as [|x l IHl]; intros [|i] [|p] Hp; cbn; try lia; auto. apply IHl. lia. }
    rewrite (Ed p) in Hq by lia. destruct (nth_some al p ltac:(lia)) as (x & Ex). rewrite Ex in Hq. symmetry in Hq.
    assert (Lq : q < n - 1) by (replace (n - 1) with (length (del al i)) by (rewrite del_length; lia); apply nth_error_Some; congruence).
    rewrite Ed in Hq by lia. destruct (Nat.eq_dec q p) as [->|Ne]; [reflexivity|]. exfalso. exact (Hs p q x ltac:(lia) Ne Ex Hq).
  Qed.
  Lemma apart_next : forall i al0 al k, i < n -> length al0 = n -> length al = n -> apart i al0 -> same_grouping (fun j => j <> i /\ j < n) al0 al ->
    compact i al k -> apart (S i) (upd al i k).
  Proof.
    intros i al0 al k Hi La Hl Hs Hg [HC _].
    assert (New : forall j', j' <> i -> nth_error al j' <> Some k) by (intros j' Nj F; specialize (HC j' _ Nj F); lia).
    intros j j' x Hj Nj Hx Hx'. destruct (Nat.eq_dec j i) as [->|Nji].
    - rewrite nth_error_upd_same in Hx by lia. injection Hx as <-. rewrite nth_error_upd_other in Hx' by auto. exact (New j' Nj Hx').
    - rewrite nth_error_upd_other in Hx by auto. destruct (Nat.eq_dec j' i) as [->|Nji'].
      + rewrite nth_error_upd_same in Hx' by lia. injection Hx' as <-. exact (New j Nji Hx).
      + rewrite nth_error_upd_other in Hx' by auto.
        assert (Lj' : j' < n) by (rewrite <- Hl; apply nth_error_Some; congruence).
        destruct (nth_some al0 j ltac:(lia)) as (y & Ey). specialize (Hg j j' (Logic.conj Nji (ltac:(lia) : j < n)) (Logic.conj Nji' Lj')).
        apply (Hs j j' y ltac:(lia) Nj Ey). rewrite <- Ey. symmetry. apply Hg. congruence.
  Qed.

  Section Last.
  Hypothesis Hlast : forall ws r, ws <> [] -> fst (categorical I ws r) = length ws - 1.
  Lemma sweep8_last : forall n_aux, 1 <= n_aux ->
    forall m i (a : alg I) r, i + m = n -> 1 <= m -> @GInv8 I data covs n_aux a -> P (a_mix a) -> apart i (a_alloc a) ->
    rfold (neal8_step data covs n_aux) (seq i m) (a, r) = UB.
  Proof.
    intros n_aux Hx. induction m as [|m IH]; intros i a r Him Hm1 Ha Hp Hs; [lia|]. cbn [seq rfold].
    destruct (nodup_dec (del (a_alloc a) i)) as [D|D]; [rewrite step8_full; auto; lia|].
    assert (Hm : 1 <= m) by (destruct m as [|m]; [|lia]; exfalso; apply D, apart_last; auto; apply Ha).
    destruct (step8_small n_aux a r i Hx ltac:(lia) Ha Hp D) as (a1 & r1 & al & ws & q & E & G & Em & Eh & Hl & Hg & Hw & Hlen & HC & Eal). rewrite E. cbn [rbind].
    rewrite (Hlast ws q Hw), Nat.min_r in Eal by lia. apply IH; auto; [lia|now rewrite Em|]. rewrite Eal.
    apply (apart_next i (a_alloc a) al); auto; [lia|apply Ha].
  Qed.
  Lemma sweep2_last : forall uhp trk, (uhp = true -> conj I = true /\ other_draw I = None) -> (trk = true -> uhp = true) ->
    forall lp, (forall (a : alg I) i, i < n -> length (a_alloc a) = n -> a_uv a <> [] ->
      @Inv I data cvf trk (a_hyp a) (hole i (a_alloc a)) (a_uv a) -> exists ws, lp a i = Ok ws /\ length ws = S (length (a_uv a))) ->
    forall m i (a : alg I) r, 2 <= n -> i + m = n -> 1 <= m -> @GInv I data covs trk a -> P (a_mix a) -> apart i (a_alloc a) ->
    rfold (neal_step data covs uhp lp) (seq i m) (a, r) = UB.
  Proof.
    intros uhp trk Hu Ht lp Hlp. induction m as [|m IH]; intros i a r Hn Him Hm1 Ha Hp Hs; [lia|]. cbn [seq rfold].
    destruct (nodup_dec (del (a_alloc a) i)) as [D|D]; [rewrite (step_full uhp trk Hu Ht); auto; lia|].
    assert (Hm : 1 <= m) by (destruct m as [|m]; [|lia]; exfalso; apply D, apart_last; auto; apply Ha).
    destruct (step_small uhp trk Hu Ht lp Hlp a r i Hn ltac:(lia) Ha Hp D) as (a1 & r1 & al & ws & E & G & Em & Eh & _ & Hl & Hg & Hw & HC & Eal). rewrite E. cbn [rbind].
    rewrite (Hlast ws r Hw) in Eal. apply IH; auto; [lia|now rewrite Em|]. rewrite Eal.
    apply (apart_next i (a_alloc a) al); auto; [lia|apply Ha].
  Qed.
  End Last.

  (** ** Runs *)
  Hypothesis HU : forall m cards al r, P m -> mix_update I m cards al r = Ok (m, r).
  Hypothesis Ho : conj I = true -> other_draw I = None.

  (** Runs end normally or are undefined; they never throw. *)
  Definition defined_or_UB {A : Type} (x : res A) : Prop := (exists v, x = Ok v) \/ x = UB.

  Lemma tail_step : forall uhp (a : alg I) r, (uhp = true -> conj I = true /\ other_draw I = None) -> 1 <= n -> @GInv I data covs false a -> P (a_mix a) ->
    exists a' r', (s2 <- sample_unique_values uhp (a, r) ;; s3 <- update_hierarchy_hypers s2 ;; update_mixing s3) = Ok (a', r') /\
      @GInv I data covs false a' /\ P (a_mix a') /\ a_aux a' = a_aux a /\ a_alloc a' = a_alloc a.
  Proof.
    intros uhp a r Hu Hn Ha Pa.
    destruct (@sample_unique_values_ok I L data covs uhp false Hu (@trk_false _) a r Ha) as (a1 & r1 & E1 & G1 & Eal & _ & Em & Ex & Eids).
    rewrite E1. cbn [rbind]. unfold update_hierarchy_hypers.
    destruct (a_uv a1) as [|h0 uv] eqn:Euv; [exfalso; eapply GInv_uv_pos; eauto|]. cbn [at_ nth_error rbind].
    match goal with |- context [hyp_update I ?a ?b ?c] => destruct (hyp_update I a b c) as [hy r2] end. cbn [rbind]. unfold update_mixing.
    cbn [a_mix set_hyp]. rewrite HU by (rewrite Em; exact Pa). cbn [rbind]. eexists _, r2. split; [reflexivity|].
    split; [exact (@GInv_set_hyp I data covs (set_mix a1 (a_mix a1)) hy G1)|]. cbn. rewrite Em. auto.
  Qed.

  Lemma run_cases : forall (Q : alg I -> Prop) init step maxiter burnin, (forall a, Q a -> a_uv a <> []) -> (exists a r, init = Ok (a, r) /\ Q a) ->
    (forall a r, Q a -> (exists a' r', step (a, r) = Ok (a', r') /\ Q a') \/ step (a, r) = UB) ->
    defined_or_UB (run init step maxiter burnin).
  Proof.
    intros Q init step maxiter burnin Hq (a & r & Ei & Qa) Hs. unfold run. rewrite Ei. cbn [rbind]. generalize (@nil (snapshot I)) as out.
    generalize (seq 0 maxiter) as is. clear Ei. intro is. revert a r Qa. induction is as [|i is IH]; intros a r Qa out; cbn [rfold]; [left; eauto|].
    unfold run_body at 1. destruct (Hs a r Qa) as [(a' & r' & E & Q')|E]; rewrite E; cbn [rbind]; [|right; reflexivity].
    destruct (burnin <=? i); [|cbn [rbind]; apply IH; exact Q'].
    unfold get_state. cbn [fst]. destruct (a_uv a') as [|h uv] eqn:Eu; [exfalso; eapply Hq; eauto|]. cbn [at_ nth_error rbind]. apply IH. exact Q'.
  Qed.

  Lemma step2_cases : forall uhp lp, (uhp = true -> conj I = true /\ other_draw I = None) ->
    (forall (a : alg I) i, i < n -> length (a_alloc a) = n -> a_uv a <> [] ->
      @Inv I data cvf false (a_hyp a) (hole i (a_alloc a)) (a_uv a) -> exists ws, lp a i = Ok ws /\ length ws = S (length (a_uv a))) ->
    2 <= n -> forall a r, @GInv I data covs false a -> P (a_mix a) ->
    (exists a' r', base_step (rfold (neal_step data covs uhp lp) (seq 0 n)) uhp (a, r) = Ok (a', r') /\ @GInv I data covs false a' /\ P (a_mix a')) \/
    base_step (rfold (neal_step data covs uhp lp) (seq 0 n)) uhp (a, r) = UB.
  Proof.
    intros uhp lp Hu Hlp Hn a r Ha Hm. unfold base_step.
    destruct (sweep_cases uhp false Hu ltac:(discriminate) lp Hlp (seq 0 n) a r Hn) as [(a1 & r1 & E & G & Em & _)|E]; auto.
    { intros i Hi. apply in_seq in Hi. lia. }
    - rewrite E. cbn [rbind]. destruct (tail_step uhp a1 r1 Hu ltac:(lia) G ltac:(now rewrite Em)) as (a' & r' & E' & G' & M' & _ & Al). left. eauto.
    - right. rewrite E. reflexivity.
  Qed.

  Lemma lp3 : other_draw I = None -> forall (a : alg I) i, i < n -> length (a_alloc a) = n -> a_uv a <> [] ->
      @Inv I data cvf false (a_hyp a) (hole i (a_alloc a)) (a_uv a) -> exists ws, neal3_lpdf data covs a i = Ok ws /\ length ws = S (length (a_uv a)).
  Proof. intros Hod a i. exact (@neal3_lpdf_ok I data covs Hrows false a i Hod). Qed.
  Lemma lp2 : forall (a : alg I) i, i < n -> length (a_alloc a) = n -> a_uv a <> [] ->
      @Inv I data cvf false (a_hyp a) (hole i (a_alloc a)) (a_uv a) -> exists ws, neal2_lpdf data covs a i = Ok ws /\ length ws = S (length (a_uv a)).
  Proof. exact (@neal2_lpdf_ok I data covs Hrows false). Qed.

  Section Program.
  Variable hy : Hyp I.
  Variable m : Mix I.
  Variable k : nat.
  Variable pos : nat -> nat.
  Variable st : St I.
  Hypothesis Hm : P m.
  Hypothesis Hk : k <= n.
  Hypothesis Hpos : forall i, pos i < num_components I data k.
  Local Notation h0 := (mkHier I [] 0%Z (stats0 I) st false None).

  Lemma start_full : forall uhp r, (uhp = true -> conj I = true /\ other_draw I = None) -> 1 <= n ->
    exists a r', cov_start I (Ok hy) (Ok m) data covs k pos st uhp r = Ok (a, r') /\ @GInv I data covs false a /\ a_mix a = m /\
      (forall i, i < num_components I data k -> nth_error (a_alloc a) i = Some i) /\ length (a_uv a) = num_components I data k.
  Proof.
    intros uhp r Hu Hn. unfold cov_start. cbn [rbind].
    destruct (@init_clusters_ok I L data covs Hrows uhp hy m k pos h0 r Hu Hn Hk Hpos) as (a & r' & E & G & Lu & _ & Em & _ & Ea).
    { unfold ph_ok. cbn. discriminate. }
    exists a, r'. split; [exact E|]. split; [eapply GInv_untrack; eauto|auto].
  Qed.

  Lemma program_cases : forall al, usable al n (conj I) -> forall maxiter burnin r,
    defined_or_UB (marginal_run I (Ok hy) (Ok m) data covs k pos st al maxiter burnin r).
  Proof.
    intros al Hu maxiter burnin r. destruct al as [| |x]; cbn in Hu; unfold marginal_run.
    - apply (run_cases (fun a => @GInv I data covs false a /\ P (a_mix a))).
      + intros a [G _]. apply (@GInv_uv_pos I data covs false a); [lia|exact G].
      + destruct (start_full false r (uhp_false I) ltac:(lia)) as (a & r' & E & G & Em & _). exists a, r'. rewrite Em. auto.
      + intros a q [G M]. exact (step2_cases false _ (uhp_false I) lp2 Hu a q G M).
    - destruct Hu as [Hn Hc]. assert (Hu3 : true = true -> conj I = true /\ other_draw I = None) by auto.
      apply (run_cases (fun a => @GInv I data covs false a /\ P (a_mix a))).
      + intros a [G _]. apply (@GInv_uv_pos I data covs false a); [lia|exact G].
      + destruct (start_full true r Hu3 ltac:(lia)) as (a & r' & E & G & Em & _). exists a, r'. rewrite Em. auto.
      + intros a q [G M]. exact (step2_cases true _ Hu3 (lp3 (Ho Hc)) Hn a q G M).
    - destruct Hu as [Hn Hx]. apply (run_cases (fun a => @GInv8 I data covs x a /\ P (a_mix a))).
      + intros a [[G _] _]. apply (@GInv_uv_pos I data covs false a); [lia|exact G].
      + destruct (start_full false r (uhp_false I) Hn) as (a & r' & E & G & Em & _). rewrite E. cbn [rbind].
        destruct (@neal8_init_aux_ok I x a) as (aux & Ea & La & Ha). { eapply GInv_uv_pos; eauto. }
        rewrite Ea. cbn [rbind]. exists (set_aux a aux), r'. split; [reflexivity|]. split; [|cbn; now rewrite Em]. split; [exact G|apply aux_iff; auto].
      + intros a q [G M]. unfold base_step, neal8_sample_allocations.
        destruct (sweep8_cases x (seq 0 n) a q Hx) as [(a1 & r1 & E & [G1 [X1 X2]] & Em & _)|E]; auto.
        { intros i Hi. apply in_seq in Hi. lia. }
        * rewrite E. cbn [rbind]. destruct (tail_step false a1 r1 (uhp_false I) Hn G1 ltac:(now rewrite Em)) as (a' & r' & E' & G' & M' & Ex' & _).
          left. exists a', r'. split; [exact E'|]. split; [|exact M']. split; [exact G'|]. split; rewrite Ex'; auto.
        * right. rewrite E. reflexivity.
  Qed.

  Lemma run_first_UB : forall init step maxiter burnin a r, init = Ok (a, r) -> step (a, r) = UB -> 1 <= maxiter -> @run I init step maxiter burnin = UB.
  Proof. intros init step maxiter burnin a r Ei Es Hm1. unfold run. rewrite Ei. cbn [rbind]. destruct maxiter as [|x]; [lia|]. cbn [seq rfold]. unfold run_body at 1. rewrite Es. reflexivity. Qed.

  (** The first sweep is undefined when the starting clusters separate all
      observations but the first, or when the generator always draws the last
      weight. *)
  Lemma program_undefined : forall al, usable al n (conj I) ->
    (forall a : alg I, length (a_alloc a) = n -> (forall i, i < num_components I data k -> nth_error (a_alloc a) i = Some i) -> NoDup (del (a_alloc a) 0)) \/
    (forall ws r, ws <> [] -> fst (categorical I ws r) = length ws - 1) ->
    forall maxiter burnin r, 1 <= maxiter -> marginal_run I (Ok hy) (Ok m) data covs k pos st al maxiter burnin r = UB.
  Proof.
    intros al Hu Hc maxiter burnin r Hit.
    assert (S2 : forall uhp lp, (uhp = true -> conj I = true /\ other_draw I = None) ->
      (forall (a : alg I) i, i < n -> length (a_alloc a) = n -> a_uv a <> [] ->
        @Inv I data cvf false (a_hyp a) (hole i (a_alloc a)) (a_uv a) -> exists ws, lp a i = Ok ws /\ length ws = S (length (a_uv a))) ->
      2 <= n -> forall a q, @GInv I data covs false a -> a_mix a = m -> (forall i, i < num_components I data k -> nth_error (a_alloc a) i = Some i) ->
      rfold (neal_step data covs uhp lp) (seq 0 n) (a, q) = UB).
    { intros uhp lp Hh Hlp Hn a q G Em Ea. destruct Hc as [Hc|Hc].
      - rewrite seq_first by lia. cbn [rfold]. rewrite (step_full uhp false Hh ltac:(discriminate)); auto; [lia|now rewrite Em|].
        apply Hc; [apply G|exact Ea].
      - apply (sweep2_last Hc uhp false Hh ltac:(discriminate) lp Hlp); auto; [lia|now rewrite Em|]. intros j j' x Hj. lia. }
    destruct al as [| |x]; cbn in Hu; unfold marginal_run.
    - destruct (start_full false r (uhp_false I) ltac:(lia)) as (a & r' & E & G & Em & Ea & _).
      apply (run_first_UB _ _ maxiter burnin a r' E); [|exact Hit]. unfold base_step, neal2_sample_allocations. rewrite (S2 false _ (uhp_false I) lp2); auto.
    - destruct Hu as [Hn Hcj]. assert (Hu3 : true = true -> conj I = true /\ other_draw I = None) by auto.
      destruct (start_full true r Hu3 ltac:(lia)) as (a & r' & E & G & Em & Ea & _).
      apply (run_first_UB _ _ maxiter burnin a r' E); [|exact Hit]. unfold base_step, neal3_sample_allocations. rewrite (S2 true _ Hu3 (lp3 (Ho Hcj))); auto.
    - destruct Hu as [Hn Hx]. destruct (start_full false r (uhp_false I) Hn) as (a & r' & E & G & Em & Ea & _).
      destruct (@neal8_init_aux_ok I x a) as (aux & Eaux & La & Ha). { eapply GInv_uv_pos; eauto. }
      assert (G8 : @GInv8 I data covs x (set_aux a aux)) by (split; [exact G|apply aux_iff; auto]).
      apply (run_first_UB _ _ maxiter burnin (set_aux a aux) r'); [rewrite E; cbn [rbind]; rewrite Eaux; reflexivity| |exact Hit].
      unfold base_step, neal8_sample_allocations. destruct Hc as [Hc|Hc].
      + rewrite seq_first by lia. cbn [rfold]. rewrite step8_full; auto; [cbn; now rewrite Em|].
        apply Hc; [apply G|exact Ea].
      + rewrite (sweep8_last Hc x Hx); auto; [cbn; now rewrite Em|]. intros j j' y Hj. lia.
  Qed.

  (** A generator that always draws the first weight keeps one cluster. *)
  Definition together (al : list nat) : Prop := forall j, j < n -> nth_error al j = Some 0.
  Lemma together_step : forall i al0 al k0, 3 <= n -> i < n -> length al = n -> together al0 -> same_grouping (fun j => j <> i /\ j < n) al0 al ->
    compact i al k0 -> 1 <= k0 /\ together (upd al i 0).
  Proof.
    intros i al0 al k0 Hn Hi Hl Ht Hg [C1 C2].
    assert (Hj : exists j, j <> i /\ j < n) by (exists (if Nat.eq_dec i 0 then 1 else 0); destruct (Nat.eq_dec i 0); lia). destruct Hj as (j & Nj & Lj).
    destruct (nth_some al j ltac:(lia)) as (x & Ex). pose proof (C1 j x Nj Ex) as Hx. split; [lia|].
    intros j' Lj'. destruct (Nat.eq_dec j' i) as [->|Nj']; [apply nth_error_upd_same; lia|]. rewrite nth_error_upd_other by auto.
    destruct (C2 0 ltac:(lia)) as (z & Nz & Ez). assert (Lz : z < n) by (rewrite <- Hl; apply nth_error_Some; congruence).
    rewrite <- Ez. apply (Hg j' z (Logic.conj Nj' Lj') (Logic.conj Nz Lz)). rewrite !Ht; auto.
  Qed.
  Lemma together_dup : forall i al, 3 <= n -> i < n -> length al = n -> together al -> ~ NoDup (del al i).
  Proof.
    intros i al Hn Hi Hl Ht N. assert (Ed : length (del al i) = n - 1) by (rewrite del_length by lia; lia).
    assert (A : forall l : list nat, (forall x, In x l -> x = 0) -> NoDup l -> length l <= 1).
    { intros [|x [|y l]] H H2; cbn; try lia. inversion H2 as [|? ? F _]; subst. exfalso. apply F. left. rewrite (H x), (H y); cbn; auto. }
    apply A in N; [lia|]. intros x Hx. assert (In x al) by (clear - Hx; revert i Hx; induction al as [|y l IH]; intros [|i] Hx; cbn in *; auto; destruct Hx as [->|Hx]; eauto).
    apply In_nth_error in H. destruct H as (j & Ej). assert (Lj : j < n) by (rewrite <- Hl; apply nth_error_Some; congruence). rewrite (Ht j Lj) in Ej. now injection Ej.
  Qed.

  Section First.
  Hypothesis Hf : forall ws r, ws <> [] -> fst (categorical I ws r) = 0.
  Hypothesis Hn3 : 3 <= n.

  Lemma sweep2_first : forall uhp lp, (uhp = true -> conj I = true /\ other_draw I = None) ->
    (forall (a : alg I) i, i < n -> length (a_alloc a) = n -> a_uv a <> [] ->
      @Inv I data cvf false (a_hyp a) (hole i (a_alloc a)) (a_uv a) -> exists ws, lp a i = Ok ws /\ length ws = S (length (a_uv a))) ->
    forall is (a : alg I) r, (forall i, In i is -> i < n) -> @GInv I data covs false a -> P (a_mix a) -> together (a_alloc a) ->
    exists a' r', rfold (neal_step data covs uhp lp) is (a, r) = Ok (a', r') /\ @GInv I data covs false a' /\ P (a_mix a') /\ together (a_alloc a').
  Proof.
    intros uhp lp Hu Hlp. induction is as [|i is IH]; intros a r Hi Ha Hp Ht; cbn [rfold]; [eauto 6|].
    assert (Li : i < n) by (apply Hi; now left).
    destruct (step_small uhp false Hu ltac:(discriminate) lp Hlp a r i ltac:(lia) Li Ha Hp) as (a1 & r1 & al & ws & E & G & Em & _ & _ & Hl & Hg & Hw & HC & Eal).
    { apply together_dup; auto; apply Ha. }
    rewrite E. cbn [rbind]. apply IH; auto; [intros j Hj; apply Hi; now right|now rewrite Em|].
    rewrite Eal, (Hf ws r Hw). eapply together_step; eauto.
  Qed.
  Lemma sweep8_first : forall n_aux is (a : alg I) r, 1 <= n_aux -> (forall i, In i is -> i < n) -> @GInv8 I data covs n_aux a -> P (a_mix a) -> together (a_alloc a) ->
    exists a' r', rfold (neal8_step data covs n_aux) is (a, r) = Ok (a', r') /\ @GInv8 I data covs n_aux a' /\ P (a_mix a') /\ together (a_alloc a').
  Proof.
    intros n_aux. induction is as [|i is IH]; intros a r Hx Hi Ha Hp Ht; cbn [rfold]; [eauto 6|].
    assert (Li : i < n) by (apply Hi; now left).
    destruct (step8_small n_aux a r i Hx Li Ha Hp) as (a1 & r1 & al & ws & q & E & G & Em & _ & Hl & Hg & Hw & Hlen & HC & Eal).
    { apply together_dup; auto; apply Ha. }
    rewrite E. cbn [rbind]. apply IH; auto; [intros j Hj; apply Hi; now right|now rewrite Em|].
    rewrite Eal, (Hf ws q Hw). eapply together_step; eauto.
  Qed.
  Lemma start_together : forall a : alg I, @GInv I data covs false a -> length (a_uv a) = 1 -> together (a_alloc a).
  Proof.
    intros a G L1 j Lj. destruct (@GInv_proper I data covs false a G) as [(A & B & _) _]. destruct (nth_some (a_alloc a) j ltac:(lia)) as (x & Ex). rewrite Ex. f_equal.
    assert (Hx : x < length (view (a_uv a))) by eauto. unfold view in Hx. rewrite map_length in Hx. lia.
  Qed.

  Lemma program_first : k = 1 -> forall al, usable al n (conj I) -> forall maxiter burnin r,
    exists s out, marginal_run I (Ok hy) (Ok m) data covs k pos st al maxiter burnin r = Ok (s, out).
  Proof.
    intros K1 al Hu maxiter burnin r.
    assert (N1 : num_components I data k = 1) by (rewrite K1; reflexivity).
    assert (S2 : forall uhp lp, (uhp = true -> conj I = true /\ other_draw I = None) ->
      (forall (a : alg I) i, i < n -> length (a_alloc a) = n -> a_uv a <> [] ->
        @Inv I data cvf false (a_hyp a) (hole i (a_alloc a)) (a_uv a) -> exists ws, lp a i = Ok ws /\ length ws = S (length (a_uv a))) ->
      exists s out, run (cov_start I (Ok hy) (Ok m) data covs k pos st uhp r) (base_step (rfold (neal_step data covs uhp lp) (seq 0 n)) uhp) maxiter burnin = Ok (s, out)).
    { intros uhp lp Hh Hlp. apply (complete I (fun a => @GInv I data covs false a /\ P (a_mix a) /\ together (a_alloc a))).
      - intros a [G _]. apply (@GInv_uv_pos I data covs false a); [lia|exact G].
      - destruct (start_full uhp r Hh ltac:(lia)) as (a & r' & E & G & Em & _ & Lu). exists a, r'. rewrite Em. split; [exact E|]. split; [exact G|]. split; [exact Hm|]. apply start_together; auto. congruence.
      - intros a q (G & M & T). unfold base_step. destruct (sweep2_first uhp lp Hh Hlp (seq 0 n) a q) as (a1 & r1 & E & G1 & M1 & T1); auto.
        { intros i Hi. apply in_seq in Hi. lia. }
        rewrite E. cbn [rbind]. destruct (tail_step uhp a1 r1 Hh ltac:(lia) G1 M1) as (a' & r' & E' & G' & M' & _ & Al). exists a', r'. rewrite Al. auto. }
    destruct al as [| |x]; cbn in Hu; unfold marginal_run.
    - exact (S2 false _ (uhp_false I) lp2).
    - destruct Hu as [_ Hc]. assert (Hu3 : true = true -> conj I = true /\ other_draw I = None) by auto. exact (S2 true _ Hu3 (lp3 (Ho Hc))).
    - destruct Hu as [Hn Hx]. apply (complete I (fun a => @GInv8 I data covs x a /\ P (a_mix a) /\ together (a_alloc a))).
      + intros a [[G _] _]. apply (@GInv_uv_pos I data covs false a); [lia|exact G].
      + destruct (start_full false r (uhp_false I) Hn) as (a & r' & E & G & Em & _ & Lu). rewrite E. cbn [rbind].
        destruct (@neal8_init_aux_ok I x a) as (aux & Ea & La & Ha). { eapply GInv_uv_pos; eauto. }
        rewrite Ea. cbn [rbind]. exists (set_aux a aux), r'. split; [reflexivity|]. split; [split; [exact G|apply aux_iff; auto]|]. split; [cbn; now rewrite Em|].
        apply start_together; auto. cbn. congruence.
      + intros a q (G & M & T). unfold base_step, neal8_sample_allocations.
        destruct (sweep8_first x (seq 0 n) a q Hx) as (a1 & r1 & E & [G1 [X1 X2]] & M1 & T1); auto.
        { intros i Hi. apply in_seq in Hi. lia. }
        rewrite E. cbn [rbind]. destruct (tail_step false a1 r1 (uhp_false I) Hn G1 M1) as (a' & r' & E' & G' & M' & Ex' & Al).
        exists a', r'. rewrite Al. split; [exact E'|]. split; [|auto]. split; [exact G'|]. split; rewrite Ex'; auto.
  Qed.
  End First.

  (** ** Saved states *)
  Variable GH : Hyp I -> Prop.
  Variable GS : St I -> Prop.
  Hypothesis HC : closed I data covs GH GS P.
  Hypothesis Hhy : GH hy.

  Lemma program_saved : forall al, usable al n (conj I) -> forall maxiter burnin r s out,
    marginal_run I (Ok hy) (Ok m) data covs k pos st al maxiter burnin r = Ok (s, out) ->
    length out = maxiter - burnin /\ forall snap, In snap out -> saved_valid I data GH GS P snap.
  Proof.
    assert (Hp0 : forall p, h_ph h0 = Some p -> GH p) by discriminate.
    assert (Hq0 : ph_ok h0) by (unfold ph_ok; cbn; discriminate).
    intros al Hu maxiter burnin r s out R. destruct al as [| |x]; cbn in Hu; unfold marginal_run, cov_start in R; cbn [rbind] in R.
    - apply (run_saved I data covs GH GS P (fun a => va I data covs GH GS P a /\ a_alloc a <> [] /\ @GInv I data covs false a)) in R; [exact R|..].
      + intros a (V & N & G). split; [exact V|]. split; [exact N|eapply GInv_proper; exact G].
      + intros a q E. eapply (init_inv I L data covs Hrows GH GS P HC hy m k pos h0 Hhy Hm Hk Hpos Hp0 Hq0 false); [exact (uhp_false I)|lia|exact E].
      + intros a q a' q' (V & N & G) E.
        destruct (va_base_step I data covs GH GS P HC (neal2_sample_allocations data covs) false a q a' q') as [V' N']; [|exact V|exact N|exact E|].
        { intros b u b' u' Vb Eb. eapply va_sweep; eauto. }
        split; [exact V'|]. split; [exact N'|].
        destruct (step2_cases false _ (uhp_false I) lp2 Hu a q G) as [(a2 & r2 & E2 & G2 & _)|E2]; [apply V| |]; pose proof (eq_trans (eq_sym E2) E) as X; [injection X as <- <-; exact G2|discriminate X].
    - destruct Hu as [Hn Hcj]. assert (Hu3 : true = true -> conj I = true /\ other_draw I = None) by auto.
      apply (run_saved I data covs GH GS P (fun a => va I data covs GH GS P a /\ a_alloc a <> [] /\ @GInv I data covs false a)) in R; [exact R|..].
      + intros a (V & N & G). split; [exact V|]. split; [exact N|eapply GInv_proper; exact G].
      + intros a q E. eapply (init_inv I L data covs Hrows GH GS P HC hy m k pos h0 Hhy Hm Hk Hpos Hp0 Hq0 true); [exact Hu3|lia|exact E].
      + intros a q a' q' (V & N & G) E.
        destruct (va_base_step I data covs GH GS P HC (neal3_sample_allocations data covs) true a q a' q') as [V' N']; [|exact V|exact N|exact E|].
        { intros b u b' u' Vb Eb. eapply va_sweep; eauto. }
        split; [exact V'|]. split; [exact N'|].
        destruct (step2_cases true _ Hu3 (lp3 (Ho Hcj)) Hn a q G) as [(a2 & r2 & E2 & G2 & _)|E2]; [apply V| |]; pose proof (eq_trans (eq_sym E2) E) as X; [injection X as <- <-; exact G2|discriminate X].
    - destruct Hu as [Hn Hx].
      apply (run_saved I data covs GH GS P (fun a => va I data covs GH GS P a /\ a_alloc a <> [] /\ @GInv8 I data covs x a)) in R; [exact R|..].
      + intros a (V & N & [G _]). split; [exact V|]. split; [exact N|eapply GInv_proper; exact G].
      + intros a q E. apply rbind_ok in E. destruct E as ([a0 r0] & E0 & E). apply rbind_ok in E. destruct E as (a1 & E1 & E). injection E as <- <-.
        destruct (init_inv I L data covs Hrows GH GS P HC hy m k pos h0 Hhy Hm Hk Hpos Hp0 Hq0 false r a0 r0 (uhp_false I) Hn E0) as (V & N & G).
        destruct (va_aux I data covs GH GS P x a0 a1 V E1) as [V1 A1]. split; [exact V1|]. split; [rewrite A1; exact N|].
        destruct (@neal8_init_aux_ok I x a0) as (aux & Ea & La & Ha). { eapply GInv_uv_pos; eauto. }
        rewrite Ea in E1. injection E1 as <-. split; [exact G|apply aux_iff; auto].
      + intros a q a' q' (V & N & G) E.
        destruct (va_base_step I data covs GH GS P HC (neal8_sample_allocations data covs x) false a q a' q') as [V' N']; [|exact V|exact N|exact E|].
        { intros b u b' u' Vb Eb. eapply va_sweep8; eauto. }
        split; [exact V'|]. split; [exact N'|]. unfold base_step, neal8_sample_allocations in E.
        destruct (sweep8_cases x (seq 0 n) a q Hx) as [(a1 & r1 & E1 & [G1 [X1 X2]] & Em & _)|E1]; auto.
        { intros i Hi. apply in_seq in Hi. lia. }
        { apply V. }
        * rewrite E1 in E. cbn [rbind] in E. destruct (tail_step false a1 r1 (uhp_false I) Hn G1) as (a2 & r2 & E2 & G2 & _ & Ex2 & _); [rewrite Em; apply V|].
          rewrite E2 in E. injection E as <- <-. split; [exact G2|]. split; rewrite Ex2; auto.
        * rewrite E1 in E. discriminate.
  Qed.
  End Program.
End Small.
