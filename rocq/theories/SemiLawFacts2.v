(** * Semi-HDP: tables, dishes, pseudo-prior, and a whole iteration. *)
From Coq Require Import String.
From Coq Require Import Bool List Arith ZArith Reals Lia Lra Permutation.
From Verif Require Import Base XReal Semi SemiWp SemiSpec SemiCount SemiInv SemiInv2 SemiInv3 SemiInv4 SemiRelabel SemiUnique SemiInit SemiStep SemiLaw SemiLawFacts.
Import ListNotations.
Local Open Scope nat_scope.

Lemma pw_and_ok : forall A (m : res A) (Q Q' : A -> Prop), ok m Q -> pw m Q' -> ok m (fun a => Q a /\ Q' a).
Proof. intros A [a| | |] Q Q'; cbn; auto. Qed.

Lemma rmap_rmap : forall A B (f : A -> res B) l ys, Forall2 (fun x y => rmap f x = Ok y) l ys -> Forall2 (Forall2 (fun n v => f n = Ok v)) l ys.
Proof.
  intros A B f l ys F. induction F as [|a b la lb E F IH]; constructor; auto. revert E. by_pw. apply pw_rmap. auto.
Qed.

Section Law2.
Variable I : SH.
Variable P : params.
Variable data : list (list (Datum I)).
Notation sst := (sst I).
Notation ng := (length data).
Notation wf := (wf I data).

(** ** An observation leaves its table *)
Lemma leave_law : forall (s : sst) logn logm i j r s1 logn1 logm1, leave_table I s logn logm i j r = Ok (s1, logn1, logm1) ->
  let t := nth j (nth i (s_tab I s) []) 0 in
  let n := (nth t (nth r (s_n I s) []) 0 - 1)%Z in
  exists v m, ilog I n = Ok v /\ s1 = w_m I m (w_n I (upd (s_n I s) r (upd (nth r (s_n I s) []) t n)) s) /\
    logn1 = upd logn r (upd (nth r logn []) t v) /\
    match nth t (nth r (s_ts I s) []) None with
    | None => m = s_m I s /\ logm1 = logm
    | Some h => m = upd (s_m I s) h (nth h (s_m I s) 0 - 1)%Z /\ exists lh, ilog I (Z.of_nat h) = Ok lh /\ logm1 = upd logm h lh
    end.
Proof.
  intros s logn logm i j r s1 logn1 logm1 E t n. revert E.
  apply (pw_ok _ _ (fun q => exists v m, ilog I n = Ok v /\ fst (fst q) = w_m I m (w_n I (upd (s_n I s) r (upd (nth r (s_n I s) []) t n)) s) /\
    snd (fst q) = upd logn r (upd (nth r logn []) t v) /\
    match nth t (nth r (s_ts I s) []) None with
    | None => m = s_m I s /\ snd q = logm
    | Some h => m = upd (s_m I s) h (nth h (s_m I s) 0 - 1)%Z /\ exists lh, ilog I (Z.of_nat h) = Ok lh /\ snd q = upd logm h lh
    end)).
  unfold leave_table. apply pw_bind. apply pw_at2 with (d := 0). intros _ _. fold t.
  apply pw_bind. apply pw_add2. intros H1 H2. apply pw_bind. apply pw_at2 with (d := 0%Z). intros _ _.
  rewrite !nth_upd_same by auto. change (nth t (nth r (s_n I s) []) 0 + -1)%Z with n.
  apply pw_bind. apply pw_any. intros v Ev. apply pw_bind. apply pw_set2. intros _ _. apply pw_bind. apply pw_at2 with (d := None). intros _ _.
  destruct (nth t (nth r (s_ts I s) []) None) as [h|].
  - apply pw_bind. apply pw_add1. intros _. apply pw_bind. apply pw_any. intros lh El. apply pw_bind. apply pw_set. intros _. cbn [pw fst snd].
    exists v, (upd (s_m I s) h (nth h (s_m I s) 0 - 1)%Z). split; [exact Ev|]. split; [reflexivity|]. split; [reflexivity|]. split; [reflexivity|]. exists lh. auto.
  - cbn [pw fst snd]. exists v, (s_m I s). split; [exact Ev|]. split; [destruct s; reflexivity|]. auto.
Qed.

(** ** Weights of the tables *)
Lemma pw_table_weights : forall (s : sst) r logn d, pw (table_weights I s r logn d)
  (fun ps => length ps = length (nth r (s_rest I s) []) /\
     map xexp ps = map (fun l => exp (IZR (nth l (nth r logn []) 0%Z)) * dens I (s_heap I s) (nth l (nth r (s_rest I s) []) O) d)%R (seq 0 (length (nth r (s_rest I s) [])))).
Proof.
  intros s r logn d. unfold table_weights. apply pw_bind. apply pw_at with (d := []). intros _ _. apply pw_rmap. intros ys F. split.
  { apply Forall2_len in F. rewrite seq_length in F. auto. }
  eapply rmap_map; [exact F|]. intros l y _. cbv beta. by_pw. apply pw_bind. apply pw_at2 with (d := 0%Z). intros _ _.
  apply pw_bind. apply pw_at with (d := 0). intros _ _. apply pw_bind. apply pw_nth. intros th Eth. cbn [pw]. rewrite xexp_add. unfold dens. rewrite Eth. reflexivity.
Qed.

Lemma pw_hdp : forall (s : sst) logm lms d, (0 < p_gamma P)%R -> pw (hdp_contribs I P s logm lms d)
  (fun ps => rsum (map xexp ps) = shared_base I P s logm (exp lms) d).
Proof.
  intros s logm lms d Hg. unfold hdp_contribs. apply pw_bind. apply pw_rmap. intros ys F. cbn [pw].
  rewrite map_app, rsum_app. unfold shared_base. f_equal.
  - f_equal. eapply rmap_map; [exact F|]. intros h y _. cbv beta. by_pw. apply pw_bind. apply pw_at with (d := 0%Z). intros _ _.
    apply pw_bind. apply pw_at with (d := 0). intros _ _. apply pw_bind. apply pw_nth. intros th Eth. cbn [pw]. rewrite xexp_add. unfold dens. rewrite Eth.
    f_equal. cbn [xexp]. unfold Rminus. rewrite exp_plus, exp_Ropp. reflexivity.
  - cbn [map rsum fold_right]. rewrite xexp_add. cbn [xexp]. unfold Rminus. rewrite exp_plus, exp_Ropp, exp_ln by auto. unfold Rdiv. rewrite Rplus_0_r. reflexivity.
Qed.

Lemma new_weight_spec : forall (s : sst) hdp d logm M, (0 < p_alpha P)%R -> (0 <= s_w I s <= 1)%R ->
  rsum (map xexp hdp) = shared_base I P s logm M d -> xexp (new_weight I P s hdp d) = new_table I P s logm M d.
Proof.
  intros s hdp d logm M Ha Hw E. unfold new_weight, new_table. rewrite xexp_add, xexp_xlse. cbn [map rsum fold_right].
  rewrite !xexp_add, !xexp_log, xexp_xlse by lra. unfold rsum in *. rewrite E. cbn [xexp]. rewrite exp_ln by auto. rewrite Rplus_0_r. reflexivity.
Qed.

Lemma pw_open_tab : forall (s : sst) logn logm r d hdp g, pw (open_table I s logn logm r d hdp g) (fun q => s_tab I (fst (fst (fst q))) = s_tab I s).
Proof.
  intros s logn logm r d hdp g. unfold open_table. apply pw_bind. apply pw_any. intros nn _. apply pw_bind. apply pw_any. intros ln1 _.
  destruct (unif I g) as [u g1]. destruct (Rlt_dec u (s_w I s)).
  - destruct (samp_full I [d] g1) as [x g2]. cbn -[push2 at_]. do 7 (apply pw_bind; apply pw_any; intros ? _). reflexivity.
  - apply pw_bind. apply pw_any. intros tp _. destruct (cat I hdp g1) as [tn g2]. apply pw_bind. apply pw_any. intros ts _.
    destruct (tn <? length (s_shared I s)).
    + do 3 (apply pw_bind; apply pw_any; intros ? _). reflexivity.
    + destruct (samp_full I [d] g2) as [x g3]. cbn -[push2]. apply pw_bind. apply pw_any. intros rest _. reflexivity.
Qed.

Lemma seat_law : forall lms (s : sst) logn logm g i r j d s1 logn1 logm1 s' ln' lm' g', (0 < p_alpha P)%R -> (0 < p_gamma P)%R -> (0 <= s_w I s <= 1)%R ->
  leave_table I s logn logm i j r = Ok (s1, logn1, logm1) -> nth_error (nth i data []) j = Some d ->
  table_step I P data lms i r ((s, logn, logm), g) j = Ok ((s', ln', lm'), g') ->
  exists ps, nth j (nth i (s_tab I s') []) 0 = fst (cat I ps g) /\
    map xexp ps = map (fun l => exp (IZR (nth l (nth r logn1 []) 0%Z)) * dens I (s_heap I s) (nth l (nth r (s_rest I s) []) O) d)%R
                      (seq 0 (length (nth r (s_rest I s) []))) ++ [new_table I P s logm1 (exp lms) d].
Proof.
  intros lms s logn logm g i r j d s1 logn1 logm1 s' ln' lm' g' Ha Hg Hw El Ed E. destruct (leave_law _ _ _ _ _ _ _ _ _ El) as (v & m & _ & E1 & _).
  assert (X : forall M, new_table I P s1 logm1 M d = new_table I P s logm1 M d) by (intros; subst s1; reflexivity).
  assert (Eh : s_heap I s1 = s_heap I s) by (subst s1; reflexivity). assert (Er : s_rest I s1 = s_rest I s) by (subst s1; reflexivity).
  assert (Ew : s_w I s1 = s_w I s) by (subst s1; reflexivity).
  revert E. apply (pw_ok _ _ (fun q => exists ps, nth j (nth i (s_tab I (fst (fst (fst q)))) []) 0 = fst (cat I ps g) /\
    map xexp ps = map (fun l => exp (IZR (nth l (nth r logn1 []) 0%Z)) * dens I (s_heap I s) (nth l (nth r (s_rest I s) []) O) d)%R
                      (seq 0 (length (nth r (s_rest I s) []))) ++ [new_table I P s logm1 (exp lms) d])).
  unfold table_step. rewrite El. cbn [rbind]. apply pw_bind. unfold row, at2. apply pw_bind. apply pw_at with (d := []). intros _ _.
  apply pw_nth. intros d' Ed'. rewrite Ed in Ed'. injection Ed' as <-.
  apply pw_bind. eapply pw_mono; [apply pw_table_weights|]. intros ps [Lp Eps].
  apply pw_bind. eapply pw_mono; [apply pw_hdp; auto|]. intros hdp Eh'.
  pose proof (new_weight_spec s1 hdp d logm1 (exp lms) Ha ltac:(rewrite Ew; auto) Eh') as W.
  set (qs := ps ++ [new_weight I P s1 hdp d]).
  assert (Q : map xexp qs = map (fun l => exp (IZR (nth l (nth r logn1 []) 0%Z)) * dens I (s_heap I s) (nth l (nth r (s_rest I s) []) O) d)%R
                      (seq 0 (length (nth r (s_rest I s) []))) ++ [new_table I P s logm1 (exp lms) d]).
  { unfold qs. rewrite map_app, Eps, Eh, Er. cbn [map]. rewrite W, X. reflexivity. }
  destruct (cat I qs g) as [y g1] eqn:Ec. apply pw_bind. apply pw_set2. intros H1 H2.
  set (tab := upd (s_tab I s1) i _). assert (Et : nth j (nth i tab []) 0 = y) by (unfold tab; rewrite nth_upd_same by auto; apply nth_upd_same; auto).
  clearbody tab. destruct (y <? length ps).
  - do 4 (apply pw_bind; apply pw_any; intros ? _). cbn. exists qs. rewrite Ec. auto.
  - eapply pw_mono; [apply pw_open_tab|]. intros q Eq. cbn in Eq. exists qs. rewrite Ec. split; [|exact Q]. exact (eq_trans (f_equal (fun T => nth j (nth i T []) 0) Eq) Et).
Qed.

(** ** A new table *)
Lemma open_private : forall (s : sst) logn logm r d hdp g s' ln' lm' g', (fst (unif I g) < s_w I s)%R ->
  open_table I s logn logm r d hdp g = Ok ((s', ln', lm'), g') ->
  let o := length (s_heap I s) in
  s_heap I s' = s_heap I s ++ [fst (samp_full I [d] (snd (unif I g)))] /\
  s_rest I s' = upd (s_rest I s) r (nth r (s_rest I s) [] ++ [o]) /\ s_priv I s' = upd (s_priv I s) r (nth r (s_priv I s) [] ++ [o]) /\
  s_ts I s' = upd (s_ts I s) r (nth r (s_ts I s) [] ++ [None]) /\ s_tp I s' = upd (s_tp I s) r (nth r (s_tp I s) [] ++ [Some (length (nth r (s_priv I s) []))]) /\
  s_shared I s' = s_shared I s /\ s_m I s' = s_m I s.
Proof.
  intros s logn logm r d hdp g s' ln' lm' g' Hu E o. revert E.
  apply (pw_ok _ _ (fun q => s_heap I (fst (fst (fst q))) = s_heap I s ++ [fst (samp_full I [d] (snd (unif I g)))] /\
  s_rest I (fst (fst (fst q))) = upd (s_rest I s) r (nth r (s_rest I s) [] ++ [o]) /\ s_priv I (fst (fst (fst q))) = upd (s_priv I s) r (nth r (s_priv I s) [] ++ [o]) /\
  s_ts I (fst (fst (fst q))) = upd (s_ts I s) r (nth r (s_ts I s) [] ++ [None]) /\ s_tp I (fst (fst (fst q))) = upd (s_tp I s) r (nth r (s_tp I s) [] ++ [Some (length (nth r (s_priv I s) []))]) /\
  s_shared I (fst (fst (fst q))) = s_shared I s /\ s_m I (fst (fst (fst q))) = s_m I s)).
  unfold open_table. apply pw_bind. apply pw_any. intros nn _. apply pw_bind. apply pw_any. intros ln1 _.
  destruct (unif I g) as [u g1]. cbn [fst snd] in *. destruct (Rlt_dec u (s_w I s)); [|tauto]. destruct (samp_full I [d] g1) as [x g2]. cbn [fst].
  cbn -[push2 at_]. apply pw_bind. apply pw_push2. intros Hp. apply pw_bind. apply pw_push2. intros _. apply pw_bind. apply pw_push2. intros _.
  apply pw_bind. apply pw_at with (d := []). intros _ _. rewrite nth_upd_same by auto. rewrite app_length, Nat.add_sub.
  apply pw_bind. apply pw_push2. intros _. do 2 (apply pw_bind; apply pw_any; intros ? _). cbn. repeat split.
Qed.

Lemma open_shared : forall (s : sst) logn logm r d hdp g s' ln' lm' g', ~ (fst (unif I g) < s_w I s)%R ->
  open_table I s logn logm r d hdp g = Ok ((s', ln', lm'), g') ->
  let t := fst (cat I hdp (snd (unif I g))) in
  s_priv I s' = s_priv I s /\ s_ts I s' = upd (s_ts I s) r (nth r (s_ts I s) [] ++ [Some t]) /\ s_tp I s' = upd (s_tp I s) r (nth r (s_tp I s) [] ++ [None]) /\
  (t < length (s_shared I s) -> s_heap I s' = s_heap I s /\ s_shared I s' = s_shared I s /\
     s_rest I s' = upd (s_rest I s) r (nth r (s_rest I s) [] ++ [nth t (s_shared I s) 0]) /\ s_m I s' = upd (s_m I s) t (nth t (s_m I s) 0 + 1)%Z) /\
  (length (s_shared I s) <= t -> s_heap I s' = s_heap I s ++ [fst (samp_full I [d] (snd (cat I hdp (snd (unif I g)))))] /\
     s_shared I s' = s_shared I s ++ [length (s_heap I s)] /\
     s_rest I s' = upd (s_rest I s) r (nth r (s_rest I s) [] ++ [length (s_heap I s)]) /\ s_m I s' = s_m I s ++ [1%Z]).
Proof.
  intros s logn logm r d hdp g s' ln' lm' g' Hu E t. revert E.
  apply (pw_ok _ _ (fun q => s_priv I (fst (fst (fst q))) = s_priv I s /\ s_ts I (fst (fst (fst q))) = upd (s_ts I s) r (nth r (s_ts I s) [] ++ [Some t]) /\ s_tp I (fst (fst (fst q))) = upd (s_tp I s) r (nth r (s_tp I s) [] ++ [None]) /\
  (t < length (s_shared I s) -> s_heap I (fst (fst (fst q))) = s_heap I s /\ s_shared I (fst (fst (fst q))) = s_shared I s /\
     s_rest I (fst (fst (fst q))) = upd (s_rest I s) r (nth r (s_rest I s) [] ++ [nth t (s_shared I s) 0]) /\ s_m I (fst (fst (fst q))) = upd (s_m I s) t (nth t (s_m I s) 0 + 1)%Z) /\
  (length (s_shared I s) <= t -> s_heap I (fst (fst (fst q))) = s_heap I s ++ [fst (samp_full I [d] (snd (cat I hdp (snd (unif I g)))))] /\
     s_shared I (fst (fst (fst q))) = s_shared I s ++ [length (s_heap I s)] /\
     s_rest I (fst (fst (fst q))) = upd (s_rest I s) r (nth r (s_rest I s) [] ++ [length (s_heap I s)]) /\ s_m I (fst (fst (fst q))) = s_m I s ++ [1%Z]))).
  unfold open_table. apply pw_bind. apply pw_any. intros nn _. apply pw_bind. apply pw_any. intros ln1 _. unfold t. clear t.
  destruct (unif I g) as [u g1]. cbn [fst snd] in *. destruct (Rlt_dec u (s_w I s)); [tauto|].
  apply pw_bind. apply pw_push2. intros _. destruct (cat I hdp g1) as [t g2]. cbn [fst snd]. apply pw_bind. apply pw_push2. intros _.
  destruct (Nat.ltb_spec t (length (s_shared I s))) as [L|L].
  - apply pw_bind. apply pw_at with (d := 0). intros _ _. apply pw_bind. apply pw_push2. intros _. apply pw_bind. apply pw_add1. intros _. cbn.
    repeat split; try lia.
  - destruct (samp_full I [d] g2) as [x g3]. cbn -[push2]. apply pw_bind. apply pw_push2. intros _. cbn. repeat split; try lia.
Qed.

(** ** Dishes *)
Lemma lsum_dens : forall th (d : list (Datum I)), xexp (lsum (map (like I th) d)) = rprod (map (fun y => xexp (like I th y)) d).
Proof. intros th d. rewrite xexp_lsum, map_map. reflexivity. Qed.

Lemma dish_law : forall r dbt (s : sst) g l h s' g', (0 < p_gamma P)%R -> wf s -> r < ng -> l < length (nth r (s_rest I s) []) ->
  s_m I s = tally (length (s_shared I s)) (dishes I data s) ->
  nth l (nth r (s_ts I s) []) None = Some h -> nth l dbt [] <> [] -> shared_table I P r dbt (s, g) l = Ok (s', g') ->
  exists ps, s_ts I s' = upd (s_ts I s) r (upd (nth r (s_ts I s) []) l (Some (fst (cat I ps g)))) /\
  map xexp ps = map (fun k => (IZR (Z.of_nat (count_occ Nat.eq_dec (dishes I data s) k)) - (if k =? h then 1 else 0)) *
                              rprod (map (dens I (s_heap I s) (nth k (s_shared I s) O)) (nth l dbt [])))%R (seq 0 (length (s_shared I s))) ++ [p_gamma P].
Proof.
  intros r dbt s g l h s' g' Hg H Hr Hl M Eh Nd E. revert E.
  apply (pw_ok _ _ (fun q => exists ps, s_ts I (fst q) = upd (s_ts I s) r (upd (nth r (s_ts I s) []) l (Some (fst (cat I ps g)))) /\
  map xexp ps = map (fun k => (IZR (Z.of_nat (count_occ Nat.eq_dec (dishes I data s) k)) - (if k =? h then 1 else 0)) *
                              rprod (map (dens I (s_heap I s) (nth k (s_shared I s) O)) (nth l dbt [])))%R (seq 0 (length (s_shared I s))) ++ [p_gamma P])).
  unfold shared_table. apply pw_bind. apply pw_at2 with (d := None). intros _ _. rewrite Eh. apply pw_bind. apply pw_at with (d := []). intros _ _.
  destruct (nth l dbt []) as [|d0 ds]; [congruence|]. set (dd := d0 :: ds) in *. clearbody dd.
  assert (Hin : In h (dishes I data s)).
  { unfold dishes. apply in_flat_map. exists r. split; [apply in_seq; lia|]. apply somes_nth. exists l. split; auto.
    rewrite (ro_ts _ _ _ _ _ _ (wf_row _ _ _ H r Hr)). exact Hl. }
  apply pw_bind. apply pw_add1. intros Hh. rewrite M, tally_length in Hh.
  apply pw_bind. apply pw_rmap. intros ps F.
  set (qs := ps ++ [xadd (xlog (p_gamma P)) (lsum [])]).
  assert (X : map xexp qs = map (fun k => (IZR (Z.of_nat (count_occ Nat.eq_dec (dishes I data s) k)) - (if k =? h then 1 else 0)) *
                              rprod (map (dens I (s_heap I s) (nth k (s_shared I s) O)) dd))%R (seq 0 (length (s_shared I s))) ++ [p_gamma P]).
  { unfold qs. rewrite map_app. f_equal.
    - eapply rmap_map; [exact F|]. intros k y Hk. apply in_seq0 in Hk. cbv beta. by_pw. apply pw_bind. apply pw_at with (d := 0%Z). intros _ _.
      apply pw_bind. apply pw_at with (d := 0). intros _ _. apply pw_bind. apply pw_nth. intros th Eth. cbn [pw]. rewrite xexp_add, lsum_dens.
      assert (D : map (fun y0 => xexp (like I th y0)) dd = map (dens I (s_heap I s) (nth k (s_shared I s) 0)) dd).
      { apply map_ext. intros y0. unfold dens. rewrite Eth. reflexivity. }
      rewrite D. f_equal. rewrite nth_upd, M, tally_length. apply Nat.ltb_lt in Hh. rewrite Hh, andb_true_r.
      assert (Z0 : (0 < Z.of_nat (count_occ Nat.eq_dec (dishes I data s) h))%Z) by (pose proof (proj1 (count_occ_In Nat.eq_dec (dishes I data s) h) Hin); lia).
      apply Nat.ltb_lt in Hh. destruct (Nat.eqb_spec k h) as [->|N].
      + rewrite tally_nth by auto. rewrite xexp_log; [rewrite plus_IZR; change (IZR (-1)) with (-1)%R; lra|]. apply IZR_le. lia.
      + rewrite tally_nth by auto. rewrite xexp_log; [lra|]. apply IZR_le. lia.
    - cbn [map]. rewrite xexp_add. cbn [lsum fold_right map xexp]. rewrite xexp_log, exp_0 by lra. rewrite Rmult_1_r. reflexivity. }
  destruct (cat I qs g) as [y g1] eqn:Ec. apply pw_bind. apply pw_set2. intros _ _.
  destruct (y <? length (s_shared I s)).
  - apply pw_bind. apply pw_any. intros m2 _. cbn. exists qs. rewrite Ec. auto.
  - destruct (samp_full I dd g1) as [x g2]. cbn. exists qs. rewrite Ec. auto.
Qed.

Lemma by_table_held : forall s r, cols I = 1 -> wf s -> r < ng -> by_table I data s r = Ok (map (held I data s r) (seq 0 (length (nth r (s_rest I s) [])))).
Proof.
  intros s r C H Hr. assert (X : ok (by_table I data s r) (fun b => b = map (held I data s r) (seq 0 (length (nth r (s_rest I s) []))))).
  { apply ok_by_table; auto; [apply wf_tabs_in; auto|apply (wf_rest _ _ _ H)]. }
  apply ok_inv in X. destruct X as (b & E & ->). exact E.
Qed.

(** ** Observations of a group that has moved *)
Lemma reassign_law : forall i r (s : sst) g j d s' g', nth_error (nth i data []) j = Some d -> reassign_obs I data i r (s, g) j = Ok (s', g') ->
  exists ps, s_tab I s' = upd (s_tab I s) i (upd (nth i (s_tab I s) []) j (fst (cat I ps g))) /\
  map xexp ps = map (fun l => (let n := nth l (nth r (s_n I s) []) 0%Z in if (0 <? n)%Z then IZR n else exp (/ 10 ^ 20)) *
                              dens I (s_heap I s) (nth l (nth r (s_rest I s) []) O) d)%R (seq 0 (length (nth r (s_rest I s) []))).
Proof.
  intros i r s g j d s' g' Ed E. revert E.
  apply (pw_ok _ _ (fun q => exists ps, s_tab I (fst q) = upd (s_tab I s) i (upd (nth i (s_tab I s) []) j (fst (cat I ps g))) /\
  map xexp ps = map (fun l => (let n := nth l (nth r (s_n I s) []) 0%Z in if (0 <? n)%Z then IZR n else exp (/ 10 ^ 20)) *
                              dens I (s_heap I s) (nth l (nth r (s_rest I s) []) O) d)%R (seq 0 (length (nth r (s_rest I s) []))))).
  unfold reassign_obs. apply pw_bind. unfold row, at2. apply pw_bind. apply pw_at with (d := []). intros _ _. apply pw_nth. intros d' Ed'. rewrite Ed in Ed'. injection Ed' as <-.
  apply pw_bind. apply pw_at with (d := []). intros _ _. apply pw_bind. apply pw_rmap. intros ps F.
  assert (X : map xexp ps = map (fun l => (let n := nth l (nth r (s_n I s) []) 0%Z in if (0 <? n)%Z then IZR n else exp (/ 10 ^ 20)) *
                              dens I (s_heap I s) (nth l (nth r (s_rest I s) []) O) d)%R (seq 0 (length (nth r (s_rest I s) [])))).
  { eapply rmap_map; [exact F|]. intros l y _. cbv beta. fold (at2 (s_n I s) r l). by_pw. apply pw_bind. apply pw_at2 with (d := 0%Z). intros _ _.
    apply pw_bind. apply pw_at with (d := 0). intros _ _. apply pw_bind. apply pw_nth. intros th Eth. cbn [pw]. rewrite xexp_add. unfold dens. rewrite Eth.
    f_equal. cbv zeta. unfold rlog. cbn [xexp]. destruct (Z.ltb_spec 0 (nth l (nth r (s_n I s) []) 0%Z)); [|reflexivity]. apply exp_ln. apply IZR_lt. auto. }
  destruct ps as [|p ps]; [exact Logic.I|]. destruct (cat I (p :: ps) g) as [t g1] eqn:Ec. apply pw_bind. apply pw_set2. intros _ _. cbn [pw fst].
  exists (p :: ps). rewrite Ec. auto.
Qed.

(** ** Pseudo-prior *)
Definition loaded (pseudo : list (list (pstate I))) (it r : nat) (s : sst) : Prop :=
  exists ps g0, nth_error (nth r pseudo []) it = Some ps /\
    nth r (s_np I s) [] = fst (multin I (map (pseudo_weight I P ps) (seq 0 (length (fst ps)))) (length (nth r data [])) g0) /\
    map (nth_error (s_heap I s)) (nth r (s_restp I s) []) = map Some (fst ps).

Lemma nth_error_new : forall A (h l : list A), map (nth_error (h ++ l)) (seq (length h) (length l)) = map Some l.
Proof.
  intros A h l. revert h. induction l as [|x l IH]; intros h; cbn; auto. f_equal.
  - rewrite nth_error_app2, Nat.sub_diag by lia. reflexivity.
  - rewrite <- (IH (h ++ [x])), <- app_assoc, app_length. cbn. rewrite Nat.add_1_r. reflexivity.
Qed.

Lemma nth_error_old : forall A (h e : list A) l (ys : list A), map (nth_error h) l = map Some ys -> map (nth_error (h ++ e)) l = map Some ys.
Proof.
  intros A h e l. induction l as [|o l IH]; intros [|y ys] E; cbn in *; try discriminate; auto. injection E as E1 E2. f_equal; auto.
  rewrite nth_error_app1; auto. apply nth_error_Some. congruence.
Qed.

Lemma pseudo_law : forall pseudo (s : sst) g, cols I = 1 -> gen_ok I -> pseudo_ok I data pseudo -> 0 < ng -> wf s ->
  let K := length (nth 0 pseudo []) in
  let it := fst (catp I (repeat (/ INR K)%R K) g) in
  exists s' g', sample_pseudo_prior I P data pseudo s g = Ok (s', g') /\ forall r, r < ng -> loaded pseudo it r s'.
Proof.
  intros pseudo s g C HG (Lp & k & Hk & Hp) Hn H K it.
  enough (X : ok (sample_pseudo_prior I P data pseudo s g) (fun q => forall r, r < ng -> loaded pseudo it r (fst q))).
  { apply ok_inv in X. destruct X as ([s' g'] & E & X). eauto. }
  unfold sample_pseudo_prior. apply ok_bind. apply ok_at with (d := []); [lia|]. unfold it, K. clear it K.
  destruct (Hp 0 Hn) as [E0 _]. rewrite E0. destruct (Nat.eqb_spec k 0) as [X|_]; [lia|].
  match goal with |- context [catp I ?l g] => assert (Hit : fst (catp I l g) < k); [|destruct (catp I l g) as [it g1]] end.
  { eapply Nat.lt_le_trans; [apply (go_catp _ HG)|rewrite repeat_length; auto]. destruct k; [lia|discriminate]. }
  cbn [fst] in *.
  apply ok_for with (Inv := fun m a => length (s_np I (fst a)) = ng /\ length (s_restp I (fst a)) = ng /\ forall r, r < m -> loaded pseudo it r (fst a)).
  - split; [apply (wf_npl _ _ _ H)|]. split; [apply (wf_restpl _ _ _ H)|]. intros; lia.
  - intros r [s1 g2] Hr (H1 & H2 & H3). change (r < ng) in Hr. cbn [fst] in *. unfold pseudo_rest. apply ok_bind. apply ok_at with (d := []); [lia|].
    destruct (Hp r Hr) as [Er Fr]. destruct (nth_error (nth r pseudo []) it) as [ps|] eqn:Eps.
    2:{ apply nth_error_None in Eps. lia. }
    rewrite Forall_forall in Fr. destruct (Fr ps (nth_error_In _ _ Eps)) as [Ne F].
    apply ok_bind. apply ok_cards; auto. rewrite tally_sum by auto.
    destruct (Z.eqb_spec (Z.of_nat (length (snd ps))) 0) as [X|_]; [destruct (snd ps); [congruence|simpl in X; lia]|].
    apply ok_bind. apply ok_nby; auto.
    match goal with |- context [multin I ?l ?n g2] => replace l with (map (pseudo_weight I P ps) (seq 0 (length (fst ps)))) end.
    2:{ unfold tally. rewrite map_map. apply map_ext. intros c. unfold pseudo_weight. rewrite map_length, seq_length, <- !INR_IZR_INZ, Rmult_1_r. reflexivity. }
    destruct (multin I (map (pseudo_weight I P ps) (seq 0 (length (fst ps)))) (length (nth r data [])) g2) as [ns g3] eqn:Em.
    rewrite load_objs_spec. cbv iota beta. apply ok_bind. apply ok_set; [cbn; lia|].
    apply ok_bind. apply ok_set; [cbn; lia|]. cbn [ok fst]. cbn [w_pseudo w_heap s_np s_restp s_heap]. rewrite !upd_length. do 2 (split; auto).
    intros r' Hr'. unfold loaded. cbn [w_pseudo w_heap s_np s_restp s_heap]. destruct (Nat.eq_dec r' r) as [->|N].
    + exists ps, g2. split; auto. rewrite !nth_upd_same by lia. rewrite Em. split; auto. apply nth_error_new.
    + destruct (H3 r' ltac:(lia)) as (ps' & g0 & A1 & A2 & A3). exists ps', g0. split; auto. rewrite !nth_upd_other by auto. split; auto. apply nth_error_old. exact A3.
  - intros [s' g'] (_ & _ & X). exact X.
Qed.

Lemma pseudo_weight_sum : forall (ps : pstate I), snd ps <> [] -> Forall (fun c => c < length (fst ps)) (snd ps) ->
  rsum (map (pseudo_weight I P ps) (seq 0 (length (fst ps)))) = 1%R.
Proof.
  intros ps N F. set (K := length (fst ps)) in *. set (T := length (snd ps)).
  assert (HK : 0 < K) by (destruct (snd ps) as [|c cs]; [congruence|]; inversion F; lia).
  assert (HT : 0 < T) by (unfold T; destruct (snd ps); [congruence|cbn; lia]).
  assert (A : forall (f h : nat -> R) a b l, rsum (map (fun c => a * f c + b * h c)%R l) = (a * rsum (map f l) + b * rsum (map h l))%R).
  { intros f h a b l. induction l as [|x l IH]; cbn [map rsum fold_right]; [lra|]. unfold rsum in IH. rewrite IH. lra. }
  assert (B : rsum (map (fun c => INR (count_occ Nat.eq_dec (snd ps) c)) (seq 0 K)) = INR T).
  { pose proof (tally_sum K (snd ps) F) as X. unfold tally in X. apply (f_equal IZR) in X. rewrite <- INR_IZR_INZ in X. fold T in X. rewrite <- X. clear.
    induction (seq 0 K) as [|c l IH]; cbn [map rsum fold_right]; [reflexivity|]. rewrite plus_IZR, <- INR_IZR_INZ. unfold rsum in IH. rewrite IH. reflexivity. }
  assert (D : rsum (map (fun _ : nat => 1%R) (seq 0 K)) = INR K).
  { clear. induction K as [|K IH]; [reflexivity|]. rewrite seq_S, map_app, rsum_app, IH, S_INR. cbn. lra. }
  transitivity (rsum (map (fun c => p_card P / INR T * INR (count_occ Nat.eq_dec (snd ps) c) + (1 - p_card P) / INR K * 1)%R (seq 0 K))).
  { f_equal. apply map_ext. intros c. unfold pseudo_weight. fold K T. unfold Rdiv. ring. }
  rewrite (A (fun c => INR (count_occ Nat.eq_dec (snd ps) c)) (fun _ => 1%R)), B, D. field. split; apply not_0_INR; lia.
Qed.

(** ** The counts at the start of a sweep *)
Lemma sweep_law : forall (s : sst) g s' g', cols I = 1 -> wf s -> update_table_allocs I P data s g = Ok (s', g') ->
  exists s0 logn logm ln' lm', s0 = w_n I (s_n I s0) (w_m I (s_m I s0) s) /\ counts_exact I data s0 /\
    Forall2 (Forall2 (fun n v => ilog I n = Ok v)) (s_n I s0) logn /\ Forall2 (fun n v => ilog I n = Ok v) (s_m I s0) logm /\
    rfold (table_group I P data (ln (INR (length (dishes I data s)) + / 10 ^ 20))) (seq 0 ng) ((s0, logn, logm), g) = Ok ((s', ln', lm'), g').
Proof.
  intros s g s' g' C H E. revert E. unfold update_table_allocs.
  assert (Fd : Forall (fun h => h < length (s_shared I s)) (dishes I data s)).
  { apply Forall_forall. intros h Hh. unfold dishes in Hh. apply in_flat_map in Hh. destruct Hh as (r & Hr & Hh). apply in_seq0 in Hr.
    pose proof (row_ts_lt _ _ _ _ _ _ (wf_row _ _ _ H r Hr)) as F. rewrite Forall_forall in F. auto. }
  assert (X : count_m I data s = Ok (w_m I (tally (length (s_shared I s)) (dishes I data s)) s)).
  { assert (Y : ok (count_m I data s) (fun q => q = w_m I (tally (length (s_shared I s)) (dishes I data s)) s)).
    { apply ok_count_m; [exact C|apply (wf_tsl _ _ _ H)|intros r Hr; eapply row_ts_lt; apply (wf_row _ _ _ H r Hr)|reflexivity]. }
    apply ok_inv in Y. destruct Y as (a & E & ->). exact E. }
  rewrite X. cbn [rbind]. set (s1 := w_m I _ s). assert (H1 : wf s1) by (apply wf_w_m; auto).
  assert (Y : count_n I data s1 = Ok (w_n I (all_counts I data s1) s1)).
  { assert (Z : ok (count_n I data s1) (fun q => q = w_n I (all_counts I data s1) s1)).
    { apply ok_count_n; [exact C|apply wf_tabs_in; auto|apply (wf_rest _ _ _ H)|apply (wf_nl _ _ _ H)|reflexivity]. }
    apply ok_inv in Z. destruct Z as (a & E & ->). exact E. }
  rewrite Y. cbn [rbind]. set (s2 := w_n I _ s1).
  assert (Ln : length (s_n I s2) = ng) by (unfold s2; cbn [w_n s_n]; apply all_counts_length).
  change (Semi.ng I data) with ng. rewrite <- Ln at 1. rewrite firstn_all.
  destruct (rmap (fun ns => rmap (ilog I) ns) (s_n I s2)) as [logn| | |] eqn:En; try discriminate. cbn [rbind].
  destruct (rmap (ilog I) (s_m I s2)) as [logm| | |] eqn:Em; try discriminate. cbn [rbind].
  change (fold_right Z.add 0%Z (s_m I s2)) with (fold_right Z.add 0%Z (tally (length (s_shared I s)) (dishes I data s))).
  rewrite tally_sum by auto. rewrite <- INR_IZR_INZ.
  destruct (rfold _ _ _) as [[[[s3 l3] m3] g3]| | |] eqn:Ef; try discriminate. cbn [rbind]. intros Q. injection Q as <- <-.
  exists s2, logn, logm, l3, m3. split; [reflexivity|]. split; [|split; [|split]].
  - split; [|reflexivity]. intros r Hr. unfold s2. cbn [w_n s_n]. rewrite all_counts_nth by auto. reflexivity.
  - revert En. by_pw. apply pw_rmap. intros ys F. apply rmap_rmap. exact F.
  - revert Em. by_pw. apply pw_rmap. auto.
  - exact Ef.
Qed.

(** ** One iteration *)
Lemma pw_rest_laws : forall (s : sst) g, pw (update_rest_allocs I P data s g) (fun q => same_laws I s (fst q)).
Proof.
  intros s g. unfold update_rest_allocs. apply (pw_rfold _ _ _ _ (fun q => same_laws I s (fst q))); [apply same_laws_refl|].
  intros [s1 g1] i _ H1. cbn [fst] in H1. unfold rest_step. apply pw_bind. apply pw_at with (d := 0). intros _ _. apply pw_bind. apply pw_any. intros [nr g2] _.
  eapply pw_mono; [apply pw_finish|]. intros q [_ E]. eapply same_laws_trans; eauto.
Qed.

Lemma step_law : forall pseudo z adapt (s : sst) g, cols I = 1 -> (forall d, In d data -> d <> []) -> data <> [] -> gen_ok I -> cvt I = Some z ->
  (adapt = false -> pseudo_ok I data pseudo) -> wf s ->
  exists s' g' g1 g2, step I P data pseudo adapt (s, g) = Ok (s', g') /\
    s_w I s' = fst (beta I (p_w1 P + INR (n_private I data s)) (p_w2 P + INR (n_shared I data s)) g1) /\
    s_conc I s' = fst (dirich I (map (fun r => p_conc P + INR (n_groups I s' r))%R (seq 0 ng)) g2) /\
    (adapt = true -> s_ra I s' = s_ra I s).
Proof.
  intros pseudo z adapt s g C Hd Hp HG Hz Hps H.
  enough (X : ok (step I P data pseudo adapt (s, g)) (fun q => exists g1 g2,
    s_w I (fst q) = fst (beta I (p_w1 P + INR (n_private I data s)) (p_w2 P + INR (n_shared I data s)) g1) /\
    s_conc I (fst q) = fst (dirich I (map (fun r => p_conc P + INR (n_groups I (fst q) r))%R (seq 0 ng)) g2) /\
    (adapt = true -> s_ra I (fst q) = s_ra I s))).
  { apply ok_inv in X. destruct X as ([s' g'] & E & g1 & g2 & X). cbn [fst] in X. exists s', g', g1, g2. tauto. }
  unfold step. apply ok_bind. apply ok_update_unique_vals; auto. intros s1 g1 H1 _ (_ & _ & _ & _ & _ & _ & _ & S1 & _ & _ & S2 & S3 & _).
  apply ok_bind. rewrite weight_law by auto.
  assert (N1 : n_private I data s1 = n_private I data s) by (unfold n_private, occupied; rewrite S1, S3; reflexivity).
  assert (N2 : n_shared I data s1 = n_shared I data s) by (unfold n_shared, occupied; rewrite S1, S2; reflexivity).
  rewrite N1, N2. cbn [ok]. set (b := beta I _ _ g1). assert (Eb : exists g0, b = beta I (p_w1 P + INR (n_private I data s)) (p_w2 P + INR (n_shared I data s)) g0) by (exists g1; reflexivity).
  clearbody b. destruct Eb as (gb & Eb). set (s2 := w_w I (fst b) s1). assert (H2 : wf s2) by (apply wf_w; auto).
  apply ok_bind.
  assert (K : forall s3 g3, wf s3 -> s_w I s3 = fst b -> (adapt = true -> s_ra I s3 = s_ra I s) ->
    ok ('(s4, g4) <- update_dirichlet I P data s3 g3 ;; '(s5, g5) <- update_to_shared I P data s4 g4 ;; '(s6, g6) <- update_table_allocs I P data s5 g5 ;; s7 <- relabel I data s6 ;; Ok (s7, g6))
    (fun q => exists g1 g2,
    s_w I (fst q) = fst (beta I (p_w1 P + INR (n_private I data s)) (p_w2 P + INR (n_shared I data s)) g1) /\
    s_conc I (fst q) = fst (dirich I (map (fun r => p_conc P + INR (n_groups I (fst q) r))%R (seq 0 ng)) g2) /\
    (adapt = true -> s_ra I (fst q) = s_ra I s))).
  { intros s3 g3 H3 W3 A3. apply ok_bind. rewrite dirichlet_law by auto. cbn [ok].
    pose proof (go_dirich _ HG (map (fun r => p_conc P + INR (n_groups I s3 r))%R (seq 0 ng)) g3) as Ld. rewrite map_length, seq_length in Ld.
    set (v := dirich I _ g3) in *. apply ok_bind. apply ok_update_to_shared; auto; [apply wf_conc; auto|].
    intros s5 g5 H5 _ (_ & _ & _ & _ & R5 & _ & _ & C5 & W5). cbn in R5, C5, W5. apply ok_bind.
    eapply ok_update_table_allocs; eauto. intros s6 logn logm g6 T. apply ok_bind.
    pose proof (ti_ra _ _ _ _ _ _ _ _ T) as R6. pose proof (ti_w _ _ _ _ _ _ _ _ T) as W6. pose proof (ti_conc _ _ _ _ _ _ _ _ T) as C6.
    destruct (relabel_ok I data C Hd s6 (ti_wf _ _ _ _ _ _ _ _ T)) as (s7 & ft & fs & -> & H7 & R & _ & _).
    cbn [ok fst]. exists gb, g3. rewrite (rn_w _ _ _ _ _ _ R), (rn_conc _ _ _ _ _ _ R), (rn_ra _ _ _ _ _ _ R), W6, W5, C6, C5.
    assert (R7 : s_ra I s7 = s_ra I s3) by (rewrite (rn_ra _ _ _ _ _ _ R); congruence).
    split; [rewrite W3, Eb; reflexivity|]. split; [|intros Ad; rewrite R6, R5; auto].
    unfold v. f_equal. f_equal. apply map_ext. intros r. unfold n_groups. rewrite R7. reflexivity. }
  destruct adapt; [cbn [ok]; apply K; auto|].
  apply ok_bind. apply ok_pseudo; auto; [destruct data; [congruence|cbn; lia]|]. intros s' g' H' (rp & np & e & E') N.
  eapply ok_mono; [apply (pw_and_ok _ _ (fun q => wf (fst q)) (fun q => same_laws I s' (fst q)))|].
  - apply ok_rest_allocs; auto.
  - apply pw_rest_laws.
  - intros [s3 g3] [A [B1 B2]]. cbn [fst] in *. apply K; auto; [|discriminate]. rewrite B2, E'. reflexivity.
Qed.

End Law2.
