(** * Neal8's reallocation weights. *)
From Coq Require Import String.
From Coq Require Import Bool List Arith ZArith Reals Lra Lia Permutation.
From Verif Require Import Base Hier Algos Spec MargFacts NealFacts MargMore MargProps.
From Verif Require Import PartSpec MixFacts GibbsSpec GibbsComb GibbsPost GibbsFacts.
Import ListNotations.
Local Open Scope R_scope.
Arguments prodR l : simpl never.
Arguments sumR l : simpl never.

Lemma rmap_const : forall A B (w : B) (l : list A) (f : A -> res B), (forall x, f x = Ok w) ->
  rmap f l = Ok (repeat w (length l)).
Proof. intros A B w l f H. induction l; cbn [rmap]; auto. rewrite H. cbn [rbind]. rewrite IHl. reflexivity. Qed.

Section Eight.
Variable I : Iface.
Variable L : laws I.
Variable data : list (Datum I).
Variable covs : list (Cov I).
Notation cvf := (at_ covs).
Notation n := (length data).
Hypothesis Hrows : rows_ok I data cvf.
Variable val : W I -> R.
Hypothesis val_add : forall a b, val (wadd I a b) = val a * val b.
Hypothesis val_sub : forall a k, (1 <= k)%nat -> val (wsublog I a k) = val a / INR k.

Lemma neal8_weights0 : forall n_aux (a : alg I) i pi d cv r,
  (2 <= n)%nat -> (i < n)%nat -> (1 <= n_aux)%nat -> good I data covs a -> partition_prior pi ->
  length (a_aux a) = n_aux -> (forall h, In h (a_aux a) -> h_ids h = [] /\ h_stats h = stats0 I) ->
  at_ data i = Ok d -> cvf i = Ok cv ->
  (forall rest, length rest = (n - 1)%nat -> mass_at I val (a_mix a) pi rest) ->
  exists a2 r1 pm lk C,
    neal8_prior_mass data n_aux a2 = Ok pm /\ neal8_lpdf data covs n_aux a2 i = Ok lk /\
    length (a_aux a2) = n_aux /\ length (wsum I pm lk) = (length (a_uv a2) + n_aux)%nat /\ 0 < C /\
    neal8_step data covs n_aux (a, r) i =
      ('(c, r2) <- cat I (wsum I pm lk) r1 ;; a3 <- neal8_assign data covs i c a2 ;; Ok (a3, r2)) /\
    forall c w, nth_error (wsum I pm lk) c = Some w ->
    exists a' st, neal8_assign data covs i c a2 = Ok a' /\ param a' i = Some st /\
      a_alloc a' = upd (a_alloc a2) i (min c (length (a_uv a2))) /\
      canon (del (a_alloc a') i) = canon (del (a_alloc a) i) /\
      ((length (a_uv a2) <= c)%nat -> exists x, nth_error (a_aux a2) (c - length (a_uv a2)) = Some x /\ st = h_state x) /\
      val w = C * pi (a_alloc a') * val (like_lpdf I st d cv)
              / (if (c <? length (a_uv a2))%nat then 1 else INR n_aux).
Proof.
  intros n_aux a i pi d cv r Hn Hi Hna HG Hpi Hla Haux Ed Ec HM. unfold good in HG.
  apply GInv_iff in HG. destruct HG as (HL & HI & Hne).
  assert (Hao : aux_ok n_aux a). { split; auto. intros j h Hj. apply Haux. eapply nth_error_In; eauto. }
  destruct (@neal8_unassign_ok I L data covs Hrows n_aux a i Hna HL Hi HI Hne Hao) as
    (al & uv & aux & b & E & Hl1 & HI1 & Hne1 & Hg1 & [Hx1 Hx2] & _).
  set (a1 := set_uv (set_alloc (set_aux a aux) al) uv) in *.
  destruct (@refresh_aux_ok I (a_hyp a1) (seq (if b then 1 else 0) (n_aux - (if b then 1 else 0))) (a_aux a1) r)
    as (aux' & r1 & E2 & Hl2 & Hok2 & _).
  { intros j Hj. apply in_seq in Hj. simpl in Hx1 |- *. destruct b; lia. }
  { exact Hx2. }
  set (a2 := set_aux a1 aux').
  assert (Hx3 : length aux' = n_aux) by (simpl in *; congruence).
  destruct (prior_mass_values I data covs val false a2 i pi Hpi Hi Hl1 HI1 Hne1) as (pm2 & kappa & Ep & Lp & Hk & Hw).
  { apply HM. rewrite del_length by (simpl; lia). simpl. lia. }
  unfold neal2_prior_mass in Ep. change (a_uv a2) with uv in *. change (a_mix a2) with (a_mix a) in *. change (a_alloc a2) with al in *.
  destruct (rmap (fun h => mass_ex I (a_mix a) (n - 1) (length uv) (h_card h)) uv) as [ex| | |] eqn:Eex; try discriminate.
  cbn [rbind] in Ep.
  destruct (mass_new I (a_mix a) (n - 1) (length uv)) as [wn| | |] eqn:Enw; try discriminate.
  cbn [rbind] in Ep. injection Ep as <-.
  assert (Lex : length ex = length uv) by (rewrite app_length in Lp; simpl in Lp; lia).
  set (pm := ex ++ repeat wn n_aux).
  assert (Epm : neal8_prior_mass data n_aux a2 = Ok pm).
  { unfold neal8_prior_mass. change (a_uv a2) with uv. change (a_mix a2) with (a_mix a). rewrite Eex. cbn [rbind].
    rewrite (rmap_const _ _ wn) by (intros; exact Enw). cbn [rbind]. rewrite seq_length. reflexivity. }
  destruct (rmap_values _ _ (fun j => h <- at_ aux' j ;; Ok (wsublog I (h_like h d cv) n_aux)) (seq 0 n_aux)
     (fun j w => exists h, nth_error aux' j = Some h /\ w = wsublog I (h_like h d cv) n_aux)) as (nw & En & Ln & Hnw).
  { intros j Hj. apply in_seq in Hj. assert (Hj2 : (j < length aux')%nat) by lia. destruct (at_ok aux' Hj2) as (h & F1 & F2).
    rewrite F1. cbn [rbind]. eexists. split; [reflexivity|]. exists h. auto. }
  rewrite seq_length in Ln.
  set (lk := map (fun h => h_like h d cv) uv ++ nw).
  assert (Elk : neal8_lpdf data covs n_aux a2 i = Ok lk).
  { unfold neal8_lpdf. rewrite Ed, Ec. cbn [rbind]. change (a_aux a2) with aux'. rewrite En. reflexivity. }
  assert (Lw : length (wsum I pm lk) = (length uv + n_aux)%nat).
  { rewrite wsum_length. unfold pm, lk. rewrite !app_length, repeat_length, map_length. lia. }
  exists a2, r1, pm, lk, (/ kappa). split; auto. split; auto. split; auto. split; auto.
  split; [apply Rinv_0_lt_compat; auto|]. split.
  { unfold neal8_step. rewrite E. cbn [rbind]. rewrite E2. cbn [rbind]. fold a2. rewrite Epm. cbn [rbind].
    rewrite Elk. cbn [rbind]. reflexivity. }
  intros c w Hcw. assert (Hc : (c < length uv + n_aux)%nat) by (rewrite <- Lw; apply nth_error_Some; congruence).
  destruct (@neal8_assign_ok I L data covs Hrows n_aux a2 i c Hl1 Hi HI1 Hne1 Hx3 Hc) as (uv' & Ea & HI2 & Hne2 & Hst & Hnew).
  change (a_uv a2) with uv in *. change (a_aux a2) with aux' in *. change (a_alloc a2) with al in *.
  set (a' := set_uv (set_alloc a2 (upd al i (min c (length uv)))) uv') in *.
  assert (Hp : pi (upd al i (min c (length uv))) = pi (min c (length uv) :: del al i)).
  { destruct Hpi as (_ & Hperm & _). apply Hperm, upd_perm. lia. }
  assert (Hcan : canon (del (a_alloc a') i) = canon (del (a_alloc a) i)).
  { cbn [a_alloc a' set_uv set_alloc]. rewrite del_upd. symmetry. apply alike_of_same; try lia.
    rewrite HL. exact Hg1. }
  destruct (wsum_nth I _ _ _ _ Hcw) as (x & y & Hx & Hy & ->). rewrite val_add.
  destruct (Nat.lt_ge_cases c (length uv)) as [Hcl|Hcl].
  - rewrite (proj2 (Nat.ltb_lt _ _) Hcl). rewrite Nat.min_l in * by lia.
    unfold pm in Hx. rewrite nth_error_app1 in Hx by lia.
    unfold lk in Hy. rewrite nth_error_app1 in Hy by (rewrite map_length; lia). rewrite nth_error_map in Hy.
    destruct (nth_error uv c) as [h|] eqn:Eh; [|discriminate]. simpl in Hy. injection Hy as <-.
    specialize (Hst c Hcl). rewrite Eh in Hst. simpl in Hst.
    destruct (nth_error uv' c) as [h'|] eqn:Eh'; [|discriminate]. simpl in Hst. injection Hst as Hst.
    exists a', (h_state h). split; auto. split.
    { unfold param. cbn [a_alloc a_uv a' set_uv set_alloc]. rewrite nth_error_upd_same by lia. rewrite ?Nat.min_l by lia. rewrite Eh'. simpl. congruence. }
    split; [unfold a'; simpl; rewrite ?Nat.min_l by lia; reflexivity|]. split; auto. split; [lia|].
    cbn [a_alloc a' set_uv set_alloc]. rewrite ?Nat.min_l by lia. rewrite Hp, (Hw c x) by (rewrite nth_error_app1 by lia; auto).
    unfold h_like. field. lra.
  - rewrite (proj2 (Nat.ltb_ge _ _) Hcl). rewrite Nat.min_r in * by lia.
    unfold pm in Hx. rewrite nth_error_app2 in Hx by lia.
    assert (x = wn) by (apply nth_error_In, repeat_spec in Hx; auto). subst x.
    unfold lk in Hy. rewrite nth_error_app2 in Hy by (rewrite map_length; lia). rewrite map_length in Hy.
    destruct (Hnw (c - length uv)%nat (c - length uv)%nat y) as (h & Eh & ->); auto.
    { rewrite (nth_error_nth' _ 0%nat) by (rewrite seq_length; lia). rewrite seq_nth by lia. reflexivity. }
    destruct (Hnew Hcl) as [Lu Hs]. rewrite Eh in Hs. simpl in Hs.
    destruct (nth_error uv' (length uv)) as [h'|] eqn:Eh'; [|discriminate]. simpl in Hs. injection Hs as Hs.
    exists a', (h_state h). split; auto. split.
    { unfold param. cbn [a_alloc a_uv a' set_uv set_alloc]. rewrite nth_error_upd_same by lia. rewrite ?Nat.min_r by lia. rewrite Eh'. simpl. congruence. }
    split; [unfold a'; simpl; rewrite ?Nat.min_r by lia; reflexivity|]. split; auto. split; [eauto|].
    cbn [a_alloc a' set_uv set_alloc]. rewrite ?Nat.min_r by lia. rewrite Hp, (Hw (length uv) wn) by (rewrite nth_error_app2, Lex, Nat.sub_diag by lia; auto).
    rewrite val_sub by auto. unfold h_like. assert (INR n_aux <> 0) by (apply not_0_INR; lia). field. split; lra.
Qed.
End Eight.

Lemma neal8_weights : forall (I : Iface) (L : laws I) data covs (val : W I -> R) t d n_aux (a : alg I) i y cv r,
  rows_ok I data (at_ covs) -> (forall x y, val (wadd I x y) = val x * val y) ->
  (forall x k, (1 <= k)%nat -> val (wsublog I x k) = val x / INR k) ->
  (2 <= length data)%nat -> (i < length data)%nat -> (1 <= n_aux)%nat ->
  proper (length data) (a_alloc a) (view (a_uv a)) -> caches_ok data covs (a_uv a) ->
  length (a_aux a) = n_aux -> (forall h, In h (a_aux a) -> h_ids h = [] /\ h_stats h = stats0 I) ->
  0 <= d < 1 -> - d < t -> py_masses I val (a_mix a) (length data) t d ->
  at_ data i = Ok y -> at_ covs i = Ok cv ->
  exists a2 r1 pm lk C,
    neal8_prior_mass data n_aux a2 = Ok pm /\ neal8_lpdf data covs n_aux a2 i = Ok lk /\
    length (a_aux a2) = n_aux /\ length (wsum I pm lk) = (length (a_uv a2) + n_aux)%nat /\ 0 < C /\
    neal8_step data covs n_aux (a, r) i =
      ('(c, r2) <- cat I (wsum I pm lk) r1 ;; a3 <- neal8_assign data covs i c a2 ;; Ok (a3, r2)) /\
    forall c w, nth_error (wsum I pm lk) c = Some w ->
    exists a' st, neal8_assign data covs i c a2 = Ok a' /\ param a' i = Some st /\
      a_alloc a' = upd (a_alloc a2) i (min c (length (a_uv a2))) /\
      canon (del (a_alloc a') i) = canon (del (a_alloc a) i) /\
      ((length (a_uv a2) <= c)%nat -> exists x, nth_error (a_aux a2) (c - length (a_uv a2)) = Some x /\ st = h_state x) /\
      val w = C * ewens_pitman t d (sizes_of (a_alloc a')) * val (like_lpdf I st y cv)
              / (if (c <? length (a_uv a2))%nat then 1 else INR n_aux).
Proof.
  intros. apply (neal8_weights0 I L data covs H val H0 H1 n_aux a i (ep t d)); auto.
  - split; auto.
  - apply ep_prior; auto.
  - intros rest Hr. apply py_mass_at with (n := length data); auto.
Qed.
