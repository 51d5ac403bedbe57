(** * Facts about predictive densities and their evaluation on chains. *)
From Coq Require Import String.
From Coq Require Import List Arith ZArith Bool Lia Reals Lra Permutation.
From Verif Require Import Base XReal Mixings Collect Utils UtilsFacts Eval.
Import ListNotations.
Local Open Scope R_scope.

Definition total (l : list R) : R := fold_right Rplus 0 l.
(** Mixture density of the components [fs] with weights [ws]. *)
Definition mixture (ws fs : list R) : R := total (map (fun p => fst p * snd p) (combine ws fs)).

Lemma total_app : forall a b, total (a ++ b) = total a + total b.
Proof. unfold total. induction a as [|x a IH]; intros b; cbn [app fold_right]; [lra|]. rewrite IH. lra. Qed.
Lemma total_cons : forall x l, total (x :: l) = x + total l. Proof. reflexivity. Qed.
Lemma total_exp_nonneg : forall l, 0 <= total (map xexp l).
Proof. induction l as [|x l IH]; cbn [map]; [unfold total; simpl; lra|]. rewrite total_cons. pose proof (xexp_nonneg x). lra. Qed.
Lemma lse_exp : forall l, xexp (log_sum_exp l) = total (map xexp l).
Proof. intros l. unfold log_sum_exp. apply xexp_log. apply total_exp_nonneg. Qed.

Lemma xexp_sublog : forall a d, 0 < d -> xexp (xsublog a d) = xexp a / d.
Proof.
  intros a d H. unfold xsublog. rewrite xexp_add. cbn [xexp]. rewrite exp_Ropp, exp_ln by exact H. reflexivity.
Qed.

Section Density.
  Variables St Pt : Type.
  Variable like : St -> Pt -> xreal.

  (** The auxiliary component is the average density of the draws. *)
  Theorem aux_average : forall draws x, draws <> [] ->
    xexp (aux_component like draws x) = total (map (fun s => xexp (like s x)) draws) / INR (length draws).
  Proof.
    intros draws x H. unfold aux_component. rewrite xexp_sublog by (apply lt_0_INR; destruct draws; [congruence|simpl; lia]).
    rewrite lse_exp, map_map. reflexivity.
  Qed.

  Variable X : mixer.
  Section Masses.
    Variables (n k : nat) (wex : Z -> xreal) (wnew : xreal) (P : mx_obj X -> Prop).

    Lemma columns_of : forall clusters, (forall st c, In (st, c) clusters -> forall o, P o -> exists o', mx_ex X n k c o = Ok (wex c, o') /\ P o') ->
      forall grid o, P o ->
      exists o', eval_columns like X n k clusters grid o =
        Ok (map (fun p => map (fun x => xadd (like (fst p) x) (wex (snd p))) grid) clusters, o') /\ P o'.
    Proof.
      intros clusters H grid o Ho. unfold eval_columns.
      enough (G : forall cs pre o, (forall st c, In (st, c) cs -> In (st, c) clusters) -> P o ->
        exists o', rfold (fun '(cols, o) '(st, card) => '(mass, o') <- mx_ex X n k card o ;; Ok (cols ++ [map (fun x => xadd (like st x) mass) grid], o')) cs (pre, o) =
          Ok (pre ++ map (fun p => map (fun x => xadd (like (fst p) x) (wex (snd p))) grid) cs, o') /\ P o') by (apply (G clusters [] o); auto).
      induction cs as [|[st c] cs IH]; intros pre q Hc Hq.
      - exists q. cbn. rewrite app_nil_r. auto.
      - cbn [rfold]. destruct (H st c (Hc st c (or_introl eq_refl)) q Hq) as (q' & -> & Hq'). cbn [rbind].
        destruct (IH (pre ++ [map (fun x => xadd (like st x) (wex c)) grid]) q') as (q2 & E & Hq2); [intros; apply Hc; right; assumption|exact Hq'|].
        exists q2. rewrite E, <- app_assoc. auto.
    Qed.
  End Masses.

  Lemma column_rows : forall (local : list (list xreal)) n, (forall c, In c local -> length c = n) -> forall i, (i < n)%nat ->
    rmap (fun c => at_ c i) local = Ok (map (fun c => nth i c XInf) local).
  Proof.
    intros local n H i Hi. apply rmap_at. intros c Hc. apply at_Some, nth_error_nth'. rewrite (H c Hc). exact Hi.
  Qed.

  Theorem marg_value : forall uv comp (sv : saved St (mx_msg X)) grid o wex wnew (P : mx_obj X -> Prop) , uv <> [] ->
    P (mx_load X (sv_mix sv) o) ->
    (forall st c, In (st, c) (sv_clusters sv) -> forall o, P o -> exists o', mx_ex X (sv_n sv) (length (sv_clusters sv)) c o = Ok (wex c, o') /\ P o') ->
    (forall o, P o -> exists o', mx_new X (sv_n sv) (length (sv_clusters sv)) o = Ok (wnew, o') /\ P o') ->
    exists o', P o' /\ marg_eval like X uv comp sv grid o =
      Ok (map (fun x => log_sum_exp (map (fun p => xadd (like (fst p) x) (wex (snd p))) (sv_clusters sv) ++ [xadd (comp x) wnew])) grid, o').
  Proof.
    intros uv comp sv grid o wex wnew P U H0 Hex Hnew. unfold marg_eval. destruct uv as [|u uv]; [congruence|]. cbn [at_ nth_error rbind].
    destruct (columns_of (sv_n sv) (length (sv_clusters sv)) wex P (sv_clusters sv) Hex grid _ H0) as (o2 & -> & P2). cbn [rbind].
    destruct (Hnew o2 P2) as (o3 & -> & P3). cbn [rbind]. exists o3. split; [exact P3|].
    set (local := _ ++ [_]).
    assert (L : forall c, In c local -> length c = length grid).
    { intros c Hc. subst local. apply in_app_or in Hc. destruct Hc as [Hc|[<-|[]]]; [|apply map_length].
      apply in_map_iff in Hc. destruct Hc as (p & <- & _). apply map_length. }
    rewrite (rmap_at _ _ _ _ (fun i => log_sum_exp (map (fun c => nth i c XInf) local))).
    2:{ intros i Hi. apply In_seq_lt in Hi. rewrite (column_rows local (length grid) L i Hi). reflexivity. }
    cbn [rbind]. do 2 f_equal. apply list_ext; [rewrite !map_length, seq_length; reflexivity|].
    intros i Hi. rewrite map_length, seq_length in Hi.
    destruct (at_ok grid (i:=i) Hi) as (x & _ & Hx).
    rewrite (map_nth_error _ _ _ Hx). erewrite map_nth_error; [|rewrite (nth_error_nth' _ 0%nat) by (rewrite seq_length; exact Hi); rewrite seq_nth by exact Hi; reflexivity].
    do 2 f_equal. subst local. rewrite map_app. cbn [map]. cbn [Nat.add]. f_equal.
    - rewrite map_map. apply map_ext. intros p. apply nth_error_nth. exact (map_nth_error (fun x => xadd (like (fst p) x) (wex (snd p))) i grid Hx).
    - f_equal. apply nth_error_nth. exact (map_nth_error (fun x => xadd (comp x) wnew) i grid Hx).
  Qed.

  (** In the linear scale. *)
  Definition density_of (ws : list R) (wn : R) (clusters : list (St * Z)) (comp : Pt -> xreal) (x : Pt) (v : xreal) : Prop :=
    xexp v = mixture ws (map (fun p => xexp (like (fst p) x)) clusters) + wn * xexp (comp x).

  Lemma lse_density : forall (clusters : list (St * Z)) (wex : Z -> xreal) wnew comp x,
    density_of (map (fun p => xexp (wex (snd p))) clusters) (xexp wnew) clusters comp x
      (log_sum_exp (map (fun p => xadd (like (fst p) x) (wex (snd p))) clusters ++ [xadd (comp x) wnew])).
  Proof.
    intros clusters wex wnew comp x. unfold density_of. rewrite lse_exp, map_app, total_app. cbn [map]. rewrite total_cons, xexp_add. f_equal; [|unfold total; simpl; lra].
    unfold mixture. induction clusters as [|p cs IH]; [reflexivity|]. cbn [map combine]. rewrite !total_cons, IH, xexp_add. cbn [fst snd]. lra.
  Qed.
  Lemma lse_density_list : forall clusters wex wnew comp grid,
    Forall2 (density_of (map (fun p => xexp (wex (snd p))) clusters) (xexp wnew) clusters comp) grid
      (map (fun x => log_sum_exp (map (fun p => xadd (like (fst p) x) (wex (snd p))) clusters ++ [xadd (comp x) wnew])) grid).
  Proof. intros. induction grid; constructor; auto. apply lse_density. Qed.

  (** A valid saved clustering. *)
  Definition saved_ok {Msg} (sv : saved St Msg) : Prop :=
    (forall p, In p (sv_clusters sv) -> (1 <= snd p)%Z) /\ fold_right Z.add 0%Z (map snd (sv_clusters sv)) = Z.of_nat (sv_n sv).
  Lemma cards_total : forall l : list (St * Z), IZR (fold_right Z.add 0%Z (map snd l)) = total (map (fun p => IZR (snd p)) l).
  Proof. induction l as [|p l IH]; [reflexivity|]. cbn [map fold_right]. rewrite plus_IZR, IH. reflexivity. Qed.
  Lemma total_div : forall A (f : A -> R) d l, total (map (fun x => f x / d) l) = total (map f l) / d.
  Proof. induction l as [|x l IH]; cbn [map]; [unfold total; simpl; lra|]. rewrite !total_cons, IH. lra. Qed.
  Lemma total_shift : forall A (f : A -> R) d l, total (map (fun x => f x + d) l) = total (map f l) + INR (length l) * d.
  Proof. induction l as [|x l IH]; cbn [map length]; [unfold total; simpl; lra|]. rewrite !total_cons, IH, S_INR. lra. Qed.
End Density.

Section Instances.
  Variables St Pt : Type.
  Variable like : St -> Pt -> xreal.

  Theorem dp_density : forall uv comp (sv : saved St R) grid o, uv <> [] -> saved_ok St sv -> 0 < sv_mix sv ->
    let n := INR (sv_n sv) in
    let M := sv_mix sv in
    exists out, marg_eval like dp_mixer uv comp sv grid o = Ok (out, mkDp M (Some (Fin (ln M)))) /\
      Forall2 (density_of St Pt like (map (fun p => IZR (snd p) / (n + M)) (sv_clusters sv)) (M / (n + M)) (sv_clusters sv) comp) grid out /\
      total (map (fun p => IZR (snd p) / (n + M)) (sv_clusters sv)) + M / (n + M) = 1.
  Proof.
    intros uv comp sv grid o U (C & T) HM n M.
    assert (D : 0 < n + M) by (pose proof (pos_INR (sv_n sv)); subst n M; lra).
    set (o1 := mkDp M (Some (Fin (ln M)))).
    assert (E1 : mx_load dp_mixer M o = o1). { cbn. unfold dp_load, o1, xlog. destruct (Rlt_dec 0 M); [reflexivity|subst M; lra]. }
    destruct (marg_value St Pt like dp_mixer uv comp sv grid o (fun c => xsublog (xlog (IZR c)) (n + M)) (xsublog (Fin (ln M)) (n + M)) (fun q => q = o1) U) as (o' & -> & E).
    - exact E1.
    - intros st c Hc q ->. exists o1. split; reflexivity.
    - intros q ->. exists o1. split; reflexivity.
    - eexists. split; [exact E|]. split.
      + pose proof (lse_density_list St Pt like (sv_clusters sv) (fun c => xsublog (xlog (IZR c)) (n + M)) (xsublog (Fin (ln M)) (n + M)) comp grid) as F.
        rewrite xexp_sublog in F by exact D. cbn [xexp] in F. rewrite exp_ln in F by exact HM.
        rewrite (map_ext_in _ (fun p => IZR (snd p) / (n + M))) in F; [exact F|].
        intros p Hp. rewrite xexp_sublog by exact D. rewrite xexp_log; [reflexivity|]. apply IZR_le. specialize (C p Hp). lia.
      + rewrite total_div. rewrite <- (cards_total St), T, <- INR_IZR_INZ. fold n. field. lra.
  Qed.

  Theorem py_density : forall uv comp (sv : saved St py_state) grid o, uv <> [] -> saved_ok St sv ->
    let n := INR (sv_n sv) in
    let t := py_str (sv_mix sv) in
    let d := py_dis (sv_mix sv) in
    let K := INR (length (sv_clusters sv)) in
    0 <= d < 1 -> - d < t -> sv_clusters sv <> [] ->
    exists out, marg_eval like py_mixer uv comp sv grid o = Ok (out, sv_mix sv) /\
      Forall2 (density_of St Pt like (map (fun p => (IZR (snd p) - d) / (n + t)) (sv_clusters sv)) ((t + d * K) / (n + t)) (sv_clusters sv) comp) grid out /\
      total (map (fun p => (IZR (snd p) - d) / (n + t)) (sv_clusters sv)) + (t + d * K) / (n + t) = 1.
  Proof.
    intros uv comp sv grid o U (C & T) n t d K Hd Ht Hne.
    assert (N1 : 1 <= n).
    { subst n. rewrite INR_IZR_INZ. apply IZR_le. rewrite <- T. destruct (sv_clusters sv) as [|p l] eqn:E; [congruence|]. cbn [map fold_right].
      assert (Q : (0 <= fold_right Z.add 0 (map snd l))%Z).
      { assert (C' : forall p, In p l -> (1 <= snd p)%Z) by (intros; apply C; right; assumption). clear - C'.
        induction l as [|q l IH]; [reflexivity|]. cbn [map fold_right]. specialize (IH ltac:(intros; apply C'; right; assumption)).
        specialize (C' q (or_introl eq_refl)). lia. }
      specialize (C p (or_introl eq_refl)). lia. }
    assert (K1 : 1 <= K). { subst K. destruct (sv_clusters sv) as [|p l]; [congruence|]. cbn [length]. rewrite S_INR. pose proof (pos_INR (length l)). lra. }
    assert (D : 0 < n + t) by lra. assert (Tn : 0 < t + d * K) by nra.
    destruct (marg_value St Pt like py_mixer uv comp sv grid o (fun c => if Z.eqb c 0 then XInf else xsublog (xlog (IZR c - d)) (n + t)) (xsublog (xlog (t + d * K)) (n + t)) (fun q => q = sv_mix sv) U) as (o' & -> & E).
    - reflexivity.
    - intros st c Hc q ->. exists (sv_mix sv). split; reflexivity.
    - intros q ->. exists (sv_mix sv). split; reflexivity.
    - eexists. split; [exact E|]. split.
      + pose proof (lse_density_list St Pt like (sv_clusters sv) (fun c => if Z.eqb c 0 then XInf else xsublog (xlog (IZR c - d)) (n + t)) (xsublog (xlog (t + d * K)) (n + t)) comp grid) as F.
        rewrite xexp_sublog, xexp_log in F by lra.
        rewrite (map_ext_in _ (fun p => (IZR (snd p) - d) / (n + t))) in F; [exact F|].
        intros p Hp. specialize (C p Hp). destruct (Z.eqb_spec (snd p) 0); [lia|]. rewrite xexp_sublog by exact D. rewrite xexp_log; [reflexivity|].
        apply IZR_le in C. lra.
      + rewrite (total_div (St * Z) (fun p => IZR (snd p) - d)). pose proof (total_shift (St * Z) (fun p => IZR (snd p)) (- d) (sv_clusters sv)) as Sh.
        rewrite (map_ext _ (fun p => IZR (snd p) - d)) in Sh by (intros; lra). rewrite Sh. rewrite <- (cards_total St), T, <- INR_IZR_INZ. fold n K. field. lra.
  Qed.

  (** The evaluation does not depend on the mixing object it starts from. *)
  Theorem dp_py_pure : forall uv comp grid,
    (forall sv o o', marg_eval like dp_mixer uv comp sv grid o = marg_eval like dp_mixer uv comp sv grid o') /\
    (forall sv o o', marg_eval like py_mixer uv comp sv grid o = marg_eval like py_mixer uv comp sv grid o').
  Proof. intros. split; intros; reflexivity. Qed.

  Section Mfm.
    Variable series : R -> R -> R -> nat -> nat -> R.
    Lemma get_V_again : forall t n s V s', mfm_get_V series t n s = Ok (V, s') -> 0 <= V -> mfm_get_V series t n s' = Ok (V, s').
    Proof.
      intros t n s V s' E HV. unfold mfm_get_V in E.
      set (s1 := match mf_tab s with None => mfm_init_VC (S n) s | Some _ => s end) in E.
      destruct (mf_tab s1) as [tab|] eqn:T; [|discriminate]. unfold at_ in E. destruct (nth_error tab t) as [v|] eqn:Ev; cbn [rbind] in E; [|discriminate].
      destruct (gtb 0 v) eqn:G.
      - injection E as E <-. unfold mfm_get_V. cbn [mf_tab]. unfold at_. rewrite nth_error_upd_same by (apply (nth_error_lt _ _ Ev)). cbn [rbind].
        rewrite E. unfold gtb. destruct (Rlt_dec V 0); [lra|reflexivity].
      - injection E as <- <-. unfold mfm_get_V. rewrite T. unfold at_. rewrite T. rewrite Ev. cbn [rbind]. rewrite G. reflexivity.
    Qed.
    Lemma get_V_shape : forall t n s V s', mfm_get_V series t n s = Ok (V, s') ->
      mf_gam s' = mf_gam s /\ exists tab, mf_tab s' = Some tab /\ nth_error tab t = Some V.
    Proof.
      intros t n s V s' E. unfold mfm_get_V in E.
      set (s1 := match mf_tab s with None => mfm_init_VC (S n) s | Some _ => s end) in E.
      assert (G : mf_gam s1 = mf_gam s) by (subst s1; destruct (mf_tab s); reflexivity).
      destruct (mf_tab s1) as [tab|] eqn:T; [|discriminate]. unfold at_ in E. destruct (nth_error tab t) as [v|] eqn:Ev; cbn [rbind] in E; [|discriminate].
      destruct (gtb 0 v).
      - injection E as <- <-. cbn. split; [exact G|]. eexists. split; [reflexivity|]. apply nth_error_upd_same. apply (nth_error_lt _ _ Ev).
      - injection E as <- <-. split; [exact G|]. exists tab. auto.
    Qed.
    Lemma get_V_read : forall t n s tab V, mf_tab s = Some tab -> nth_error tab t = Some V -> 0 <= V -> mfm_get_V series t n s = Ok (V, s).
    Proof.
      intros t n s tab V T E H. unfold mfm_get_V. rewrite T. unfold at_. rewrite T, E. cbn [rbind]. unfold gtb. destruct (Rlt_dec V 0); [lra|reflexivity].
    Qed.
    Lemma get_V_keeps : forall t t' n s tab V W s', t <> t' -> mf_tab s = Some tab -> nth_error tab t = Some V -> mfm_get_V series t' n s = Ok (W, s') ->
      exists tab', mf_tab s' = Some tab' /\ nth_error tab' t = Some V.
    Proof.
      intros t t' n s tab V W s' Ne T E H. unfold mfm_get_V in H. rewrite T in H. rewrite T in H. unfold at_ in H. destruct (nth_error tab t') as [v|]; cbn [rbind] in H; [|discriminate].
      destruct (gtb 0 v); injection H as <- <-; cbn; [|eauto]. eexists. split; [reflexivity|]. rewrite nth_error_upd_other by exact Ne. exact E.
    Qed.

    (** The coefficients the object holds or computes at its first use. *)
    Theorem mfm_density : forall uv comp (sv : saved St (R * R)) grid o V1 V2 s1 s2, uv <> [] -> saved_ok St sv ->
      let n := INR (sv_n sv) in
      let g := snd (sv_mix sv) in
      let K := length (sv_clusters sv) in
      let den := n + INR K * g + V2 / V1 * g in
      0 < g -> mfm_get_V series K (sv_n sv) (mfm_load (fst (sv_mix sv)) g o) = Ok (V1, s1) -> mfm_get_V series (K + 1) (sv_n sv) s1 = Ok (V2, s2) ->
      0 < V1 -> 0 <= V2 -> (0 < K)%nat ->
      exists out o', marg_eval like (mfm_mixer series) uv comp sv grid o = Ok (out, o') /\
        Forall2 (density_of St Pt like (map (fun p => (IZR (snd p) + g) / den) (sv_clusters sv)) (V2 / V1 * g / den) (sv_clusters sv) comp) grid out /\
        total (map (fun p => (IZR (snd p) + g) / den) (sv_clusters sv)) + V2 / V1 * g / den = 1.
    Proof.
      intros uv comp sv grid o V1 V2 s1 s2 U (C & T) n g K den Hg E1 E2 H1 H2 HK.
      assert (Hr : 0 <= V2 / V1) by (apply Rmult_le_pos; [exact H2|left; apply Rinv_0_lt_compat; exact H1]).
      assert (Kp : 0 < INR K) by (apply lt_0_INR; exact HK).
      assert (D : 0 < den) by (pose proof (pos_INR (sv_n sv)); subst den n; nra).
      set (P := fun q : mfm_state => mf_gam q = g /\ exists q1 q2, mfm_get_V series K (sv_n sv) q = Ok (V1, q1) /\ mfm_get_V series (K + 1) (sv_n sv) q1 = Ok (V2, q2)).
      assert (PP : forall q q1 q2, mf_gam q = g -> mfm_get_V series K (sv_n sv) q = Ok (V1, q1) -> mfm_get_V series (K + 1) (sv_n sv) q1 = Ok (V2, q2) ->
                   mf_gam q2 = g /\ P q2).
      { intros q q1 q2 Gq A B. destruct (get_V_shape _ _ _ _ _ A) as (G1 & t1 & T1 & N1). destruct (get_V_shape _ _ _ _ _ B) as (G2 & t2 & T2 & N2).
        assert (Gf : mf_gam q2 = g) by congruence. split; [exact Gf|]. split; [exact Gf|]. exists q2, q2.
        destruct (get_V_keeps K (K + 1) (sv_n sv) q1 t1 V1 V2 q2 ltac:(lia) T1 N1 B) as (t2' & T2' & N2').
        split; [apply (get_V_read _ _ _ t2'); auto; lra|apply (get_V_read _ _ _ t2); auto]. }
      assert (Dn : forall q, P q -> INR (sv_n sv) + INR K * g + V2 / V1 * g = den) by (intros; reflexivity).
      destruct (marg_value St Pt like (mfm_mixer series) uv comp sv grid o (fun c => xsublog (xlog (IZR c + g)) den) (xsublog (xlog (V2 / V1 * g)) den) P U) as (o' & _ & E).
      - split; [reflexivity|]. exists s1, s2. auto.
      - intros st c Hc q (Gq & q1 & q2 & A & B). destruct (PP q q1 q2 Gq A B) as [G2 P2]. exists q2. split; [|exact P2].
        change (mfm_mass_ex series (sv_n sv) K true false c q = Ok (xsublog (xlog (IZR c + g)) den, q2)). unfold mfm_mass_ex. rewrite A. cbn [rbind]. rewrite B. cbn [rbind]. rewrite G2. reflexivity.
      - intros q (Gq & q1 & q2 & A & B). destruct (PP q q1 q2 Gq A B) as [G2 P2]. exists q2. split; [|exact P2].
        change (mfm_mass_new series (sv_n sv) K true false q = Ok (xsublog (xlog (V2 / V1 * g)) den, q2)). unfold mfm_mass_new. rewrite A. cbn [rbind]. rewrite B. cbn [rbind]. rewrite G2. reflexivity.
      - eexists. exists o'. split; [exact E|]. split.
        + pose proof (lse_density_list St Pt like (sv_clusters sv) (fun c => xsublog (xlog (IZR c + g)) den) (xsublog (xlog (V2 / V1 * g)) den) comp grid) as F.
          rewrite xexp_sublog, xexp_log in F by (exact D || nra).
          rewrite (map_ext_in _ (fun p => (IZR (snd p) + g) / den)) in F; [exact F|].
          intros p Hp. specialize (C p Hp). rewrite xexp_sublog by exact D. rewrite xexp_log; [reflexivity|]. apply IZR_le in C. lra.
        + rewrite (total_div (St * Z) (fun p => IZR (snd p) + g)), total_shift. rewrite <- (cards_total St), T, <- INR_IZR_INZ. fold n K.
          replace (n + INR K * g) with (den - V2 / V1 * g) by (subst den; lra). field. lra.
    Qed.
  End Mfm.

  (** Conditional algorithms. *)
  Theorem cond_density : forall uv lw states grid, uv <> [] -> (length states <= length lw)%nat ->
    exists out, cond_eval like uv lw states grid = Ok out /\
      Forall2 (fun x v => xexp v = mixture (map xexp lw) (map (fun s => xexp (like s x)) states)) grid out.
  Proof.
    intros uv lw states grid U L. unfold cond_eval. destruct uv as [|u uv]; [congruence|]. cbn [at_ nth_error rbind].
    exists (map (fun x => log_sum_exp (map (fun p => xadd (fst p) (like (snd p) x)) (combine lw states))) grid). split.
    - apply rmap_at. intros x _.
      assert (E : rmap (fun j => st <- at_ states j ;; w <- at_ lw j ;; Ok (xadd w (like st x))) (seq 0 (length states)) =
                  Ok (map (fun p => xadd (fst p) (like (snd p) x)) (combine lw states))); [|rewrite E; reflexivity].
      revert lw L. induction states as [|s states IH]; intros [|w lw] L; try (simpl in L; lia); try reflexivity.
      cbn [length seq rmap]. unfold at_ at 1 2. cbn [nth_error rbind]. rewrite <- seq_shift.
      assert (M : forall l, rmap (fun j => st <- at_ (s :: states) j ;; w0 <- at_ (w :: lw) j ;; Ok (xadd w0 (like st x))) (map S l) =
                  rmap (fun j => st <- at_ states j ;; w0 <- at_ lw j ;; Ok (xadd w0 (like st x))) l).
      { induction l as [|j l IHl]; [reflexivity|]. cbn [map rmap]. rewrite IHl. reflexivity. }
      rewrite M, IH by (simpl in L; lia). reflexivity.
    - induction grid as [|x grid IH]; constructor; auto. rewrite lse_exp. unfold mixture. clear - L. revert states L.
      induction lw as [|w lw IH]; intros [|s states] L; try reflexivity; try (simpl in L; lia). cbn [combine map]. rewrite !total_cons, IH by (simpl in L; lia).
      rewrite xexp_add. reflexivity.
  Qed.
  Theorem cond_short : forall uv lw states x grid, uv <> [] -> (length lw < length states)%nat -> cond_eval like uv lw states (x :: grid) = UB.
  Proof.
    intros uv lw states x grid U L. unfold cond_eval. destruct uv as [|u uv]; [congruence|]. cbn [at_ nth_error rbind rmap].
    rewrite rmap_ub; [reflexivity| |].
    - intros j Hj. apply In_seq_lt in Hj. destruct (at_ok states Hj) as (st & -> & _). cbn [rbind]. unfold at_. destruct (nth_error lw j); cbn [rbind]; [right; eauto|left; reflexivity].
    - exists (length lw). split; [apply In_seq_lt; exact L|]. destruct (at_ok states L) as (st & -> & _). cbn [rbind].
      unfold at_. rewrite (proj2 (nth_error_None lw (length lw))) by lia. reflexivity.
  Qed.
End Instances.

(** ** Chains *)
Section Slices.
  Variable T : Type.
  (** Elements at positions congruent to [i] modulo [num], in order. *)
  Definition slice (num i : nat) (x : list T) : list T :=
    map snd (filter (fun p => (fst p mod num =? i)%nat) (combine (seq 0 (length x)) x)).
  Definition interleaved (num : nat) (x : list T) : list T := concat (map (fun i => slice num i x) (seq 0 num)).

  Lemma combine_snoc : forall (x : list T) v s, combine (seq s (length (x ++ [v]))) (x ++ [v]) = combine (seq s (length x)) x ++ [((s + length x)%nat, v)].
  Proof.
    induction x as [|y x IH]; intros v s; cbn [app length seq combine]; [rewrite Nat.add_0_r; reflexivity|]. rewrite IH. cbn [app]. do 3 f_equal. f_equal. lia.
  Qed.
  Lemma slice_snoc : forall num i x v, slice num i (x ++ [v]) = slice num i x ++ (if (length x mod num =? i)%nat then [v] else []).
  Proof.
    intros num i x v. unfold slice. rewrite combine_snoc, filter_app, map_app. cbn [filter fst Nat.add]. destruct (length x mod num =? i)%nat; reflexivity.
  Qed.

  Lemma nth_error_map_seq : forall A (f : nat -> A) n k, (k < n)%nat -> nth_error (map f (seq 0 n)) k = Some (f k).
  Proof. intros. apply map_nth_error. rewrite (nth_error_nth' _ 0%nat) by (rewrite seq_length; assumption). rewrite seq_nth by assumption. reflexivity. Qed.

  Theorem slices_ok : forall (x : list T) num, (0 < num)%nat -> gen_even_slices x num = Ok (map (fun i => slice num i x) (seq 0 num)).
  Proof.
    intros x num Hn. unfold gen_even_slices. destruct num as [|m]; [lia|]. set (num := S m) in *.
    enough (G : forall todo done, rfold (fun out i => v <- at_ (done ++ todo) i ;; s <- at_ out (i mod num) ;; set_at out (i mod num) (s ++ [v]))
                (seq (length done) (length todo)) (map (fun i => slice num i done) (seq 0 num)) = Ok (map (fun i => slice num i (done ++ todo)) (seq 0 num))).
    { specialize (G x []). cbn [app length] in G. rewrite <- G. f_equal.
      subst num. generalize (S m) as k. clear. intros k. generalize 0%nat. induction k; intros s; [reflexivity|]. cbn [repeat seq map]. f_equal. apply IHk. }
    induction todo as [|v todo IH]; intros done; [rewrite app_nil_r; reflexivity|]. cbn [length seq rfold].
    unfold at_ at 1. rewrite nth_error_app2, Nat.sub_diag by lia. cbn [nth_error rbind].
    pose proof (Nat.mod_upper_bound (length done) num ltac:(lia)) as B.
    unfold at_ at 1. rewrite (nth_error_map_seq _ (fun i => slice num i done)) by exact B. cbn [rbind].
    rewrite set_at_ok by (rewrite map_length, seq_length; exact B). cbn [rbind].
    specialize (IH (done ++ [v])). rewrite <- app_assoc in IH. cbn [app] in IH. rewrite app_length in IH. cbn [length] in IH. rewrite Nat.add_1_r in IH. rewrite <- IH. f_equal.
    apply list_ext; [rewrite upd_length, !map_length; reflexivity|]. intros p Hp. rewrite upd_length, map_length, seq_length in Hp.
    rewrite nth_error_upd, map_length, seq_length, !nth_error_map_seq by exact Hp. rewrite slice_snoc.
    destruct (p =? length done mod num)%nat eqn:E.
    - apply Nat.eqb_eq in E. subst p. rewrite Nat.eqb_refl. apply Nat.ltb_lt in B. rewrite B. reflexivity.
    - rewrite Nat.eqb_sym, E, app_nil_r. reflexivity.
  Qed.

  Theorem interleaved_perm : forall (x : list T) num, (0 < num)%nat -> Permutation (interleaved num x) x.
  Proof.
    intros x num Hn. induction x as [|v x IH] using rev_ind.
    - unfold interleaved. rewrite (map_ext _ (fun _ => @nil T)) by (intros; reflexivity). clear. induction (seq 0 num); [constructor|exact IHl].
    - unfold interleaved. rewrite (map_ext _ (fun i => slice num i x ++ (if (length x mod num =? i)%nat then [v] else []))) by (intros; apply slice_snoc).
      transitivity (interleaved num x ++ [v]); [unfold interleaved|apply Permutation_app_tail; exact IH].
      pose proof (Nat.mod_upper_bound (length x) num ltac:(lia)) as B.
      assert (G : forall l k, NoDup l -> Permutation (concat (map (fun i => slice num i x ++ (if (k =? i)%nat then [v] else [])) l))
                       (concat (map (fun i => slice num i x) l) ++ (if existsb (Nat.eqb k) l then [v] else []))).
      { induction l as [|i l IHl]; intros k N; [reflexivity|]. inversion N as [|? ? N1 N2]; subst. cbn [map concat existsb]. rewrite (IHl k N2).
        destruct (Nat.eqb_spec k i) as [->|Ne]; cbn [orb].
        - replace (existsb (Nat.eqb i) l) with false; [|symmetry; apply not_true_is_false; rewrite existsb_exists; intros (y & Hy & E); apply Nat.eqb_eq in E; subst; tauto].
          rewrite app_nil_r, <- !app_assoc. apply Permutation_app_head. apply Permutation_app_comm.
        - rewrite app_nil_r, app_assoc. reflexivity. }
      rewrite G by apply seq_NoDup.
      replace (existsb (Nat.eqb (length x mod num)) (seq 0 num)) with true; [reflexivity|]. symmetry. apply existsb_exists. exists (length x mod num)%nat.
      split; [apply In_seq_lt; exact B|apply Nat.eqb_refl].
  Qed.

  Lemma slice_one : forall x, slice 1 0 x = x.
  Proof.
    intros x. induction x as [|v x IH] using rev_ind; [reflexivity|]. rewrite slice_snoc, IH. rewrite Nat.mod_1_r. reflexivity.
  Qed.
  Lemma slice_short : forall num x i, (length x <= num)%nat -> (0 < num)%nat -> slice num i x = match nth_error x i with Some v => [v] | None => [] end.
  Proof.
    intros num x i L Hn. induction x as [|v x IH] using rev_ind; [destruct i; reflexivity|]. rewrite app_length in L. cbn [length] in L.
    rewrite slice_snoc, IH by lia. rewrite Nat.mod_small by lia. destruct (Nat.eqb_spec (length x) i) as [<-|Ne].
    - rewrite (proj2 (nth_error_None x (length x))) by lia. rewrite nth_error_app2, Nat.sub_diag by lia. reflexivity.
    - rewrite app_nil_r. destruct (lt_dec i (length x)) as [Li|Li]; [rewrite nth_error_app1 by exact Li; reflexivity|].
      rewrite (proj2 (nth_error_None x i)) by lia. rewrite (proj2 (nth_error_None (x ++ [v]) i)); [reflexivity|]. rewrite app_length. cbn [length]. lia.
  Qed.
  Lemma slice_first : forall num x v w, nth_error x 0 = Some v -> (1 < num)%nat -> nth_error x num = Some w -> exists r, slice num 0 x = v :: w :: r.
  Proof.
    intros num x v w Hv Hn Hw.
    assert (E : x = firstn num x ++ w :: skipn (S num) x).
    { clear - Hw. revert x Hw. induction num as [|m IH]; intros [|y x] Hw; try discriminate; [injection Hw as ->; reflexivity|]. cbn [firstn skipn app]. f_equal. apply IH. exact Hw. }
    assert (Lx : length (firstn num x) = num) by (apply firstn_length_le; apply nth_error_lt in Hw; lia).
    assert (S1 : slice num 0 (firstn num x) = [v]).
    { rewrite slice_short by lia. destruct x as [|y x]; [discriminate|]. destruct num as [|m]; [lia|]. cbn in *. injection Hv as ->. reflexivity. }
    assert (S2 : slice num 0 (firstn num x ++ [w]) = [v; w]).
    { rewrite slice_snoc, S1, Lx, Nat.mod_same by lia. reflexivity. }
    rewrite E. replace (firstn num x ++ w :: skipn (S num) x) with ((firstn num x ++ [w]) ++ skipn (S num) x) by (rewrite <- app_assoc; reflexivity).
    set (a := firstn num x ++ [w]) in *. generalize (skipn (S num) x) as b. clear - S2. induction b as [|y b IH] using rev_ind; [rewrite app_nil_r; exists []; exact S2|].
    rewrite app_assoc, slice_snoc. destruct IH as (r & ->). eexists. reflexivity.
  Qed.

  Theorem interleaved_order : forall (x : list T) num, (0 < num)%nat -> NoDup x ->
    (interleaved num x = x <-> num = 1%nat \/ (length x <= num)%nat).
  Proof.
    intros x num Hn ND. split.
    - intros E. destruct (Nat.eq_dec num 1) as [H|H]; [left; exact H|]. right. destruct (le_lt_dec (length x) num) as [L|L]; [exact L|]. exfalso.
      destruct (at_ok x (i:=0%nat) ltac:(lia)) as (v & _ & Hv). destruct (at_ok x (i:=num) L) as (w & _ & Hw).
      destruct (slice_first num x v w Hv ltac:(lia) Hw) as (r & S0).
      assert (E1 : nth_error x 1 = Some w).
      { rewrite <- E. unfold interleaved. destruct num as [|m]; [lia|]. cbn [seq map concat]. rewrite S0. reflexivity. }
      rewrite NoDup_nth_error in ND. specialize (ND 1%nat num ltac:(lia) ltac:(congruence)). lia.
    - intros [->|L].
      + unfold interleaved. cbn [seq map concat]. rewrite slice_one, app_nil_r. reflexivity.
      + unfold interleaved. rewrite (map_ext _ (fun i => match nth_error x i with Some v => [v] | None => [] end)) by (intros; apply slice_short; auto).
        clear - L. revert num L. induction x as [|y x IH]; intros num L.
        * clear. generalize 0%nat. induction num as [|m IH]; intros s; [reflexivity|]. cbn [seq map concat]. rewrite IH. destruct s; reflexivity.
        * destruct num as [|m]; [simpl in L; lia|]. cbn [seq map concat nth_error app]. f_equal. rewrite <- seq_shift, map_map. apply IH. simpl in L. lia.
  Qed.
End Slices.

Section Chains.
  Variables Alg M V : Type.
  Variable eval : Alg -> M -> res (list V * Alg).
  Variable g : nat.
  Variable f : M -> list V.
  (** The value of a state does not depend on the algorithm object. *)
  Hypothesis pure : forall a m, exists a', eval a m = Ok (f m, a').
  Hypothesis width : forall m, length (f m) = g.

  Lemma eval_all_pure : forall ms a, eval_all eval a ms = Ok (map f ms).
  Proof.
    intros ms a. unfold eval_all.
    enough (G : forall ms pre a, exists a', rfold (fun '(rows, a) m => '(r, a') <- eval a m ;; Ok (rows ++ [r], a')) ms (pre, a) = Ok (pre ++ map f ms, a'))
      by (destruct (G ms [] a) as (a' & ->); reflexivity).
    clear ms a. induction ms as [|m ms IH]; intros pre a; [exists a; cbn; rewrite app_nil_r; reflexivity|]. cbn [rfold map].
    destruct (pure a m) as (a1 & ->). cbn [rbind]. destruct (IH (pre ++ [f m]) a1) as (a2 & ->). exists a2. rewrite <- app_assoc. reflexivity.
  Qed.
  Lemma widths : forall ms r0, In r0 (map f ms) -> forallb (fun r => (length r =? length r0)%nat) (map f ms) = true.
  Proof.
    intros ms r0 H. apply forallb_forall. intros r Hr. apply in_map_iff in H, Hr. destruct H as (m & <- & _), Hr as (m' & <- & _). rewrite !width. apply Nat.eqb_refl.
  Qed.
  Lemma stack_pure : forall ms, stack_vectors (map f ms) = if (length ms =? 0)%nat then UB else Ok (g, map Some (map f ms)).
  Proof.
    intros ms. rewrite stack_all. destruct ms as [|m ms]; [reflexivity|]. cbn [length Nat.eqb].
    pose proof (widths (m :: ms) (f m) ltac:(left; reflexivity)) as W. cbn [map] in *. rewrite W, width. reflexivity.
  Qed.

  Theorem seq_rows : forall a ms, eval_seq eval a ms = if (length ms =? 0)%nat then UB else Ok (g, map Some (map f ms)).
  Proof. intros a ms. unfold eval_seq. rewrite eval_all_pure. cbn [rbind]. apply stack_pure. Qed.

  Theorem low_rows : forall a chunks, eval_low eval a chunks = eval_seq eval a (concat chunks).
  Proof.
    intros a chunks. unfold eval_low. rewrite (rmap_at _ _ _ _ (map f)).
    - cbn [rbind]. rewrite <- concat_map. rewrite stack_pure, seq_rows. reflexivity.
    - intros c _. apply rmap_at. intros m _. destruct (pure a m) as (a' & ->). reflexivity.
  Qed.

  Theorem full_rows : forall a ms njobs, (0 < njobs)%nat ->
    eval_full eval g a ms njobs = Ok (g, map Some (map f (interleaved M njobs ms))).
  Proof.
    intros a ms njobs Hn. unfold eval_full. rewrite slices_ok by exact Hn. cbn [rbind].
    rewrite (rmap_at _ _ _ _ (fun sh => mkMat g (map f sh))).
    2:{ intros sh _. rewrite eval_all_pure. cbn [rbind]. rewrite (rmap_at _ _ _ _ (fun r => r)); [rewrite map_id; reflexivity|].
        intros r Hr. apply in_map_iff in Hr. destruct Hr as (m & <- & _). rewrite width, Nat.eqb_refl. reflexivity. }
    cbn [rbind]. rewrite vstack_all. rewrite map_map.
    destruct njobs as [|k]; [lia|]. set (l := map (fun x => mkMat g (map f (slice M (S k) x ms))) (seq 0 (S k))).
    assert (El : exists m0 t, l = m0 :: t /\ m_nc m0 = g) by (subst l; cbn [seq map]; eexists; eexists; split; reflexivity).
    destruct El as (m0 & t & El & Em). rewrite El, Em. rewrite <- El.
    assert (W : forallb (fun m => (m_nc m =? g)%nat) l = true).
    { apply forallb_forall. intros m Hm. subst l. apply in_map_iff in Hm. destruct Hm as (i & <- & _). apply Nat.eqb_refl. }
    rewrite W. do 3 f_equal. subst l. rewrite map_map. cbn [m_rows]. unfold interleaved. rewrite concat_map, map_map. reflexivity.
  Qed.

  Theorem full_zero : forall a ms, eval_full eval g a ms 0 = UB.
  Proof.
    intros a ms. unfold eval_full, gen_even_slices. destruct ms as [|m ms]; reflexivity.
  Qed.
End Chains.
