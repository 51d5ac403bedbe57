(** * Semi-HDP: whole iterations and runs. *)
From Coq Require Import String.
From Coq Require Import Bool List Arith ZArith Reals Lia Lra Permutation.
From Verif Require Import Base XReal Semi SemiWp SemiSpec SemiCount SemiInv SemiInv2 SemiInv3 SemiInv4 SemiRelabel SemiUnique SemiInit.
Import ListNotations.
Local Open Scope nat_scope.

Section Step.
Variable I : SH.
Variable P : params.
Variable data : list (list (Datum I)).
Variable pseudo : list (list (pstate I)).
Notation sst := (sst I).
Notation ng := (length data).
Notation wf := (wf I data).
Hypothesis Hcols : cols I = 1.
Hypothesis Hdata : forall d, In d data -> d <> [].
Hypothesis Hpos : data <> [].
Hypothesis HG : gen_ok I.

Lemma ng_pos : 0 < ng.
Proof. clear Hcols Hdata HG. destruct data; [congruence|]. simpl. lia. Qed.

Notation tidy := (SemiSpec.tidy I data).

Lemma ok_step : forall z adapt s g (Q : sst * Gs I -> Prop), cvt I = Some z -> (adapt = false -> pseudo_ok I data pseudo) -> wf s ->
  (forall s' g', tidy s' -> Q (s', g')) -> ok (step I P data pseudo adapt (s, g)) Q.
Proof.
  intros z adapt s g Q Hz Hps H HQ. unfold step. apply ok_bind. apply ok_update_unique_vals; auto. intros s1 g1 H1 _ _.
  apply ok_bind. apply ok_weight; auto. intros w g2. apply (wf_w _ _ _ w) in H1. set (s2 := w_w I w s1) in *. clearbody s2.
  apply ok_bind.
  assert (K : forall s3 g3, wf s3 -> ok ('(s4, g4) <- update_dirichlet I P data s3 g3 ;; '(s5, g5) <- update_to_shared I P data s4 g4 ;; '(s6, g6) <- update_table_allocs I P data s5 g5 ;; s7 <- relabel I data s6 ;; Ok (s7, g6)) Q).
  { intros s3 g3 H3. apply ok_bind. apply ok_dirichlet; auto. intros c g4 Lc. apply ok_bind.
    apply ok_update_to_shared; auto; [apply wf_conc; auto|]. intros s5 g5 H5 _ _. apply ok_bind.
    eapply ok_update_table_allocs; eauto. intros s6 logn logm g6 T. apply ok_bind.
    destruct (relabel_ok I data Hcols Hdata s6 (ti_wf _ _ _ _ _ _ _ _ T)) as (s7 & ft & fs & -> & H7 & _ & A & B).
    cbn [ok]. apply HQ. split; auto. }
  destruct adapt; [cbn [ok]; apply K; auto|].
  apply ok_bind. apply ok_pseudo; auto; [apply ng_pos|]. intros s' g' H' _ N. apply ok_rest_allocs; auto.
Qed.

Lemma ok_steps : forall z adapt k s g (Q : sst * Gs I -> Prop), cvt I = Some z -> (adapt = false -> pseudo_ok I data pseudo) -> wf s ->
  (forall s' g', wf s' -> k = 0 /\ s' = s /\ g' = g \/ tidy s' -> Q (s', g')) -> ok (steps I P data pseudo adapt k (s, g)) Q.
Proof.
  intros z adapt k. induction k as [|k IH]; intros s g Q Hz Hps H HQ; [cbn [steps ok]; apply HQ; auto|].
  cbn [steps]. apply ok_bind. eapply ok_step; eauto. intros s1 g1 T1. apply IH; auto; [apply T1|].
  intros s2 g2 H2 T2. apply HQ; auto. right. destruct T2 as [(_ & -> & _)|T2]; auto.
Qed.

Section Out.
Variable A : Type.
Variable wr : St I -> res A.
Hypothesis Hwr : forall x, exists a, wr x = Ok a.

Lemma ok_wr : forall (h : list (St I)) l (Q : list A -> Prop), Forall (fun o => o < length h) l -> (forall xs, length xs = length l -> Q xs) ->
  ok (rmap (fun k => th <- at_ h k ;; wr th) l) Q.
Proof.
  clear Hcols Hdata HG. intros h l Q F HQ. apply ok_rmap_any.
  - intros k Hk. rewrite Forall_forall in F. unfold at_. destruct (nth_error h k) as [x|] eqn:E.
    + cbn [rbind]. destruct (Hwr x) as [a ->]. exact Logic.I.
    + apply nth_error_None in E. specialize (F k Hk). lia.
  - exact HQ.
Qed.

Lemma ok_get_state : forall s (Q : out A -> Prop), wf s ->
  (forall o, o_n A o = s_n I s -> o_ts A o = s_ts I s -> o_tp A o = s_tp I s -> o_tab A o = s_tab I s -> o_c A o = s_ra I s ->
     map (@length A) (o_stars A o) = map (@length nat) (s_rest I s) -> length (o_taus A o) = ng * length (s_shared I s) -> Q o) ->
  ok (get_state I data wr s) Q.
Proof.
  clear Hcols Hdata HG. intros s Q H HQ. unfold get_state. pose proof ng_pos as Hp.
  apply ok_for with (Inv := fun m o => o_n A o = firstn m (s_n I s) /\ o_ts A o = firstn m (s_ts I s) /\ o_tp A o = firstn m (s_tp I s) /\
    o_tab A o = firstn m (s_tab I s) /\ (0 < m -> o_c A o = s_ra I s) /\ map (@length A) (o_stars A o) = firstn m (map (@length nat) (s_rest I s)) /\
    length (o_taus A o) = m * length (s_shared I s)).
  - cbn [out0 o_n o_ts o_tp o_tab o_c o_stars o_taus firstn map length]. repeat split; auto. lia.
  - intros m o Hm (E1 & E2 & E3 & E4 & E5 & E6 & E7). change (m < ng) in Hm. pose proof (wf_row _ _ _ H m Hm) as R.
    pose proof (wf_rest _ _ _ H). pose proof (wf_nl _ _ _ H). pose proof (wf_tsl _ _ _ H). pose proof (wf_tpl _ _ _ H). pose proof (wf_tabl _ _ _ H).
    apply ok_bind. apply ok_at with (d := []); [lia|]. apply ok_bind. apply ok_wr; [apply (ro_rt _ _ _ _ _ _ R)|]. intros xs Lx.
    apply ok_bind. apply ok_at with (d := []); [lia|]. apply ok_bind. apply ok_at with (d := []); [lia|].
    apply ok_bind. apply ok_at with (d := []); [lia|]. apply ok_bind. apply ok_at with (d := []); [lia|].
    apply ok_bind. apply ok_wr; [apply (wf_shared _ _ _ H)|]. intros ys Ly.
    cbn [ok o_n o_ts o_tp o_tab o_c o_stars o_taus]. rewrite E1, E2, E3, E4, !map_app, E6, app_length, E7, Ly. cbn [map]. rewrite Lx.
    repeat split; try (symmetry; apply firstn_snoc; lia).
    + rewrite (firstn_snoc _ 0) by (rewrite map_length; lia). rewrite (map_nth (@length nat) (s_rest I s) []). reflexivity.
    + lia.
  - intros o (E1 & E2 & E3 & E4 & E5 & E6 & E7). change (Semi.ng I data) with ng in *.
    apply HQ; auto.
    + rewrite E1, <- (wf_nl _ _ _ H). apply firstn_all.
    + rewrite E2, <- (wf_tsl _ _ _ H). apply firstn_all.
    + rewrite E3, <- (wf_tpl _ _ _ H). apply firstn_all.
    + rewrite E4, <- (wf_tabl _ _ _ H). apply firstn_all.
    + rewrite E6, <- (wf_rest _ _ _ H), <- (map_length (@length nat) (s_rest I s)). apply firstn_all.
Qed.

Definition collected (o : out A) : Prop := exists s, tidy s /\ get_state I data wr s = Ok o.

Lemma ok_main_loop : forall z iter thin k s g acc (Q : list (out A) * (sst * Gs I) -> Prop), cvt I = Some z -> pseudo_ok I data pseudo -> 0 < thin -> wf s ->
  Forall collected acc ->
  (forall outs s' g', wf s' -> length outs = length acc + (if iter mod thin =? 0 then k else 0) -> Forall collected outs -> Q (outs, (s', g'))) ->
  ok (main_loop I P data pseudo wr iter thin k (s, g) acc) Q.
Proof.
  intros z iter thin k. induction k as [|k IH]; intros s g acc Q Hz Hps Ht H Ha HQ.
  - cbn [main_loop ok]. apply HQ; auto. destruct (iter mod thin =? 0); lia.
  - cbn [main_loop]. apply ok_bind. eapply ok_step; eauto. intros s1 g1 T1. destruct thin as [|thin]; [lia|].
    destruct (iter mod S thin =? 0) eqn:E.
    + apply ok_bind. cbn [fst].
      assert (X : exists o, get_state I data wr s1 = Ok o).
      { destruct (ok_inv _ _ _ (ok_get_state s1 (fun _ => True) (proj1 T1) ltac:(intros; exact Logic.I))) as (o & Eo & _). eauto. }
      destruct X as [o Eo]. rewrite Eo. cbn [ok]. apply IH; auto; [apply T1| |].
      * apply Forall_app. split; auto. constructor; [|constructor]. exists s1. auto.
      * intros outs s' g' H' L F. apply HQ; auto. rewrite app_length in L. rewrite L. cbn [length]. lia.
    + apply IH; auto. apply T1.
Qed.

End Out.

Lemma ok_run : forall A (wr : St I -> res A) z adapt_iter burnin iter thin g, cvt I = Some z -> (forall x, exists a, wr x = Ok a) ->
  pseudo_ok I data pseudo -> 0 < thin -> (forall d, In d data -> 5 <= length d) ->
  exists outs s' g', run I P data pseudo wr adapt_iter burnin iter thin (fresh I) g = Ok (outs, (s', g')) /\ wf s' /\
    length outs = (if iter mod thin =? 0 then iter else 0) /\ Forall (collected A wr) outs.
Proof.
  intros A wr z ad bu it th g Hz Hwr Hps Ht H5.
  assert (X : ok (run I P data pseudo wr ad bu it th (fresh I) g) (fun q => wf (fst (snd q)) /\ length (fst q) = (if it mod th =? 0 then it else 0) /\ Forall (collected A wr) (fst q))).
  { unfold run. destruct pseudo as [|p0 pt] eqn:Ep.
    - destruct Hps as [Hl _]. pose proof ng_pos. simpl in Hl. lia.
    - rewrite <- Ep in *. clear p0 pt Ep. apply ok_bind. apply ok_initialize; auto.
      + intros i Hi. rewrite Hcols, Nat.mul_1_r. apply H5. apply nth_In. exact Hi.
      + intros s1 g1 I1 C1. destruct (iinv_wf I data s1 Hcols I1 C1) as (W1 & _ & _).
        apply ok_bind. apply ok_update_unique_vals; auto. intros s2 g2 W2 _ _.
        apply ok_bind. eapply ok_steps; eauto. intros s3 g3 W3 _.
        apply ok_bind. apply ok_pseudo; auto; [apply ng_pos|]. intros s4 g4 W4 _ _.
        apply ok_bind. eapply ok_steps; eauto. intros s5 g5 W5 _.
        eapply ok_main_loop; eauto. }
  destruct (ok_inv _ _ _ X) as ((outs & s' & g') & E & W & L & F). cbn [fst snd] in *. exists outs, s', g'. auto.
Qed.

(** ** Conversions that the language leaves undefined *)

Lemma rmap_ub : forall A B (f : A -> res B) l, (forall x, In x l -> f x = UB \/ exists y, f x = Ok y) -> (exists x, In x l /\ f x = UB) -> rmap f l = UB.
Proof.
  induction l as [|a l IH]; intros Hf (x & Hx & E); [destruct Hx|]. cbn [rmap].
  destruct (Hf a (or_introl eq_refl)) as [->|[y Ey]]; [reflexivity|]. rewrite Ey. cbn [rbind]. rewrite IH; auto.
  - intros. apply Hf. right; auto.
  - destruct Hx as [->|Hx]; [congruence|]. eauto.
Qed.

Lemma rmap_cases : forall A B (f : A -> res B) l, (forall x, In x l -> f x = UB \/ exists y, f x = Ok y) -> rmap f l = UB \/ exists ys, rmap f l = Ok ys.
Proof.
  induction l as [|a l IH]; intros Hf; [right; exists []; reflexivity|]. cbn [rmap].
  destruct (Hf a (or_introl eq_refl)) as [->|[y Ey]]; [left; reflexivity|]. rewrite Ey. cbn [rbind].
  assert (Hf' : forall x, In x l -> f x = UB \/ exists y, f x = Ok y) by (intros; apply Hf; right; auto).
  destruct (IH Hf') as [->|[ys ->]]; [left; reflexivity|right; eexists; reflexivity].
Qed.

Lemma ilog_cases : forall n, ilog I n = UB \/ exists y, ilog I n = Ok y.
Proof. intros n. unfold ilog. destruct (0 <? n)%Z; [right; eauto|]. destruct (cvt I); eauto. Qed.

Lemma table_allocs_ub : forall s g, cvt I = None -> wf s ->
  (exists r l, r < ng /\ l < length (nth r (s_rest I s) []) /\ ~ In l (seated I data s r)) \/ (exists h, h < length (s_shared I s) /\ ~ In h (dishes I data s)) ->
  update_table_allocs I P data s g = UB.
Proof.
  intros s g Hz H Hc. unfold update_table_allocs.
  assert (Hts : forall r, r < ng -> Forall (fun h => h < length (s_shared I s)) (somes (nth r (s_ts I s) []))).
  { intros r Hr. eapply row_ts_lt. apply (wf_row _ _ _ H r Hr). }
  destruct (ok_inv _ _ _ (ok_count_m I data Hcols s (fun s' => s' = w_m I (tally (length (s_shared I s)) (dishes I data s)) s) (wf_tsl _ _ _ H) Hts eq_refl)) as (s1 & -> & ->).
  cbn [rbind]. set (s1 := w_m I _ s).
  assert (H1 : tabs_in I data s1) by (apply wf_tabs_in in H; exact H).
  destruct (ok_inv _ _ _ (ok_count_n I data Hcols s1 (fun s' => s' = w_n I (all_counts I data s) s1) H1 (wf_rest _ _ _ H) (wf_nl _ _ _ H) eq_refl)) as (s2 & -> & ->).
  cbn [rbind w_n s_n s_m]. change (s_m I s1) with (tally (length (s_shared I s)) (dishes I data s)).
  rewrite firstn_all2 by (rewrite all_counts_length; apply Nat.le_refl).
  assert (Z0 : forall l x n, x < n -> ~ In x l -> In 0%Z (tally n l)).
  { intros l x n Hx Hn. apply (count_occ_not_In Nat.eq_dec) in Hn. unfold tally. apply in_map_iff. exists x. rewrite Hn. split; auto. apply in_seq. lia. }
  assert (U0 : forall l, In 0%Z l -> rmap (ilog I) l = UB).
  { intros l Hl. apply rmap_ub; [intros; apply ilog_cases|]. exists 0%Z. split; auto. unfold ilog. cbn [Z.ltb Z.compare]. rewrite Hz. reflexivity. }
  destruct Hc as [(r & l & Hr & Hl & Hn)|(h & Hh & Hn)].
  - rewrite rmap_ub; [reflexivity|intros x _; apply rmap_cases; intros; apply ilog_cases|].
    exists (nth r (all_counts I data s) []). split; [apply nth_In; rewrite all_counts_length; auto|].
    rewrite all_counts_nth by auto. apply U0. eapply Z0; eauto.
  - destruct (rmap_cases _ _ (fun ns => rmap (ilog I) ns) (all_counts I data s)) as [->|[ys ->]]; [intros; apply rmap_cases; intros; apply ilog_cases|reflexivity|].
    cbn [rbind]. rewrite U0; [reflexivity|]. eapply Z0; eauto.
Qed.

(** Right after initialisation the tables of the shared atoms are empty. *)
Lemma opened_empty : forall s, opened I data ng s -> length (s_tab I s) = ng -> length (s_ra I s) = ng -> forall r, r < ng -> ~ In 9 (seated I data s r).
Proof.
  intros s O _ _ r Hr Hin. unfold seated in Hin. apply in_flat_map in Hin. destruct Hin as (i & Hi & Hin). apply in_seq0 in Hi.
  destruct (nth i (s_ra I s) 0 =? r); [|destruct Hin]. destruct (op_tab _ _ _ _ O i Hi) as (ds & E & _ & F). rewrite E in Hin.
  apply in_app_iff in Hin. destruct Hin as [Hin|Hin]; [apply in_seq0 in Hin; lia|]. rewrite Forall_forall in F. apply F in Hin. lia.
Qed.

Lemma run_ub : forall A (wr : St I -> res A) adapt_iter burnin iter thin g, cvt I = None -> pseudo <> [] ->
  (forall d, In d data -> 5 <= length d) ->
  run I P data pseudo wr (S adapt_iter) burnin iter thin (fresh I) g = UB.
Proof.
  intros A wr ad bu it th g Hz Hps H5. unfold run. destruct pseudo as [|p0 pt] eqn:Ep; [congruence|]. rewrite <- Ep. clear p0 pt Ep Hps.
  assert (X : ok (initialize I P data (fresh I) g) (fun q => iinv I data ng (fst q) /\ counted I data (fst q))).
  { apply ok_initialize; auto. intros i Hi. rewrite Hcols, Nat.mul_1_r. apply H5. apply nth_In. exact Hi. }
  destruct (ok_inv _ _ _ X) as ((s1 & g1) & -> & I1 & C1). cbn [rbind fst] in *. clear X.
  destruct (iinv_wf I data s1 Hcols I1 C1) as (W1 & _ & _).
  assert (B1 : forall r, r < ng -> ~ In 9 (seated I data s1 r)) by (apply opened_empty; [apply I1|apply (wf_tabl _ _ _ W1)|apply (wf_ral _ _ _ W1)]).
  assert (L1 : forall r, r < ng -> length (nth r (s_rest I s1) []) = 10).
  { intros r Hr. destruct (opened_row I data s1 r (proj2 I1) Hr) as [-> _]. reflexivity. }
  set (bare := fun s : sst => wf s /\ (forall r, r < ng -> ~ In 9 (seated I data s r)) /\ forall r, r < ng -> length (nth r (s_rest I s) []) = 10).
  assert (Hb1 : bare s1) by (split; auto).
  assert (U : forall s h, bare s -> ok (update_unique_vals I data s h) (fun q => bare (fst q))).
  { intros s h (W & B & L). apply ok_update_unique_vals; auto. intros s' g' W' _ (Lr & _ & _ & _ & _ & _ & Et & Er & _). cbn [fst]. split; auto. split.
    - intros r Hr. unfold seated. rewrite Et, Er. apply B. exact Hr.
    - intros r Hr. rewrite Lr by auto. apply L. exact Hr. }
  destruct (ok_inv _ _ _ (U s1 g1 Hb1)) as ((s2 & g2) & -> & B2). cbn [rbind fst] in *.
  cbn [steps]. unfold step at 1. destruct (ok_inv _ _ _ (U s2 g2 B2)) as ((s3 & g3) & -> & B3). cbn [rbind fst] in *.
  destruct B3 as (W3 & B3 & L3).
  destruct (ok_inv _ _ _ (ok_weight I P data s3 g3 (fun q => exists w, fst q = w_w I w s3) W3 ltac:(intros; eexists; reflexivity))) as ((s4 & g4) & -> & w & E4). cbn [rbind fst] in *. subst s4.
  destruct (ok_inv _ _ _ (ok_dirichlet I P data HG (w_w I w s3) g4 (fun q => exists c, length c = ng /\ fst q = w_conc I c (w_w I w s3)) ltac:(apply wf_w; auto) ltac:(intros; eexists; split; [|reflexivity]; auto))) as ((s5 & g5) & -> & c & Lc & E5). cbn [rbind fst] in *. subst s5.
  assert (W5 : wf (w_conc I c (w_w I w s3))) by (apply wf_conc; auto; apply wf_w; auto).
  destruct (ok_inv _ _ _ (ok_update_to_shared I P data Hcols HG _ g5 (fun q => wf (fst q) /\ same_seats I (w_conc I c (w_w I w s3)) (fst q)) W5 ltac:(intros; cbn [fst]; auto))) as ((s6 & g6) & -> & W6 & S6). cbn [rbind fst] in *.
  rewrite table_allocs_ub; auto. left. exists 0, 9. pose proof ng_pos as Hp. destruct S6 as (E1 & _ & _ & E2 & E3 & _). cbn [w_conc w_w s_rest s_tab s_ra] in *.
  split; auto. split; [rewrite E1, L3 by auto; lia|]. unfold seated. rewrite E2, E3. apply B3. exact Hp.
Qed.

(** Writing atoms into a message of another type: every run that collects is
    undefined. *)
Lemma rfold_ub : forall A B (f : B -> A -> res B) l b, (forall b x, In x l -> f b x = UB \/ exists b', f b x = Ok b') ->
  (exists x, In x l /\ forall b, f b x = UB) -> rfold f l b = UB.
Proof.
  induction l as [|a l IH]; intros b Hf (x & Hx & E); [destruct Hx|]. cbn [rfold]. destruct Hx as [->|Hx]; [rewrite E; reflexivity|].
  destruct (Hf b a (or_introl eq_refl)) as [->|[b' ->]]; [reflexivity|]. cbn [rbind]. apply IH; [|exists x; auto]. intros. apply Hf. right; auto.
Qed.

Lemma at_ok : forall A (d : A) l i, i < length l -> at_ l i = Ok (nth i l d).
Proof. intros. destruct (ok_inv _ _ _ (ok_at A d l i (fun x => x = nth i l d) H eq_refl)) as (x & -> & ->). reflexivity. Qed.

Lemma get_state_ub : forall A (wr : St I -> res A) s, (forall x, wr x = UB) -> wf s -> get_state I data wr s = UB.
Proof.
  intros A wr s Hwr H. unfold get_state. pose proof ng_pos as Hp. change (Semi.ng I data) with ng.
  pose proof (wf_rest _ _ _ H). pose proof (wf_nl _ _ _ H). pose proof (wf_tsl _ _ _ H). pose proof (wf_tpl _ _ _ H). pose proof (wf_tabl _ _ _ H). pose proof (wf_ral _ _ _ H).
  assert (W : forall l, l <> [] -> Forall (fun o => o < length (s_heap I s)) l -> rmap (fun k => th <- at_ (s_heap I s) k ;; wr th) l = UB).
  { intros [|o l] Hl F; [congruence|]. inversion F; subst. cbn [rmap].
    destruct (nth_error (s_heap I s) o) as [x|] eqn:E; [|apply nth_error_None in E; lia]. unfold at_. rewrite E. cbn [rbind]. rewrite Hwr. reflexivity. }
  apply rfold_ub.
  - intros b x Hx. apply in_seq0 in Hx. pose proof (wf_row _ _ _ H x Hx) as R. rewrite (at_ok _ []) by lia. cbn [rbind].
    destruct (list_eq_dec Nat.eq_dec (nth x (s_rest I s) []) []) as [->|N].
    + cbn [rmap rbind]. rewrite !(at_ok _ []) by lia. cbn [rbind].
      destruct (list_eq_dec Nat.eq_dec (s_shared I s) []) as [->|N]; [right; eexists; reflexivity|].
      rewrite W by (auto; apply (wf_shared _ _ _ H)). left; reflexivity.
    + rewrite W by (auto; apply (ro_rt _ _ _ _ _ _ R)). left; reflexivity.
  - exists (nth 0 (s_ra I s) 0). pose proof (wf_ra _ _ _ H 0 Hp) as Hr. split; [apply in_seq; lia|]. intros b.
    assert (N : 0 < length (nth (nth 0 (s_ra I s) 0) (s_rest I s) [])) by (apply (occupied_nonempty I data Hcols Hdata s); auto; apply nth_In; lia).
    rewrite (at_ok _ []) by lia. cbn [rbind]. rewrite W; [reflexivity| |apply (ro_rt _ _ _ _ _ _ (wf_row _ _ _ H _ Hr))].
    destruct (nth (nth 0 (s_ra I s) 0) (s_rest I s) []); [simpl in N; lia|discriminate].
Qed.

Lemma main_loop_ub : forall A (wr : St I -> res A) z iter thin k s g acc, cvt I = Some z -> pseudo_ok I data pseudo -> (forall x, wr x = UB) -> wf s ->
  0 < k -> iter mod thin = 0 -> main_loop I P data pseudo wr iter thin k (s, g) acc = UB.
Proof.
  intros A wr z iter thin k s g acc Hz Hps Hwr H Hk Hm. destruct k as [|k]; [lia|]. cbn [main_loop].
  destruct (ok_inv _ _ _ (ok_step z false s g (fun q => tidy (fst q)) Hz ltac:(auto) H ltac:(auto))) as ((s1 & g1) & -> & T1). cbn [rbind fst] in *.
  destruct thin as [|thin]; [reflexivity|]. rewrite Hm. cbn [Nat.eqb]. rewrite get_state_ub; auto. apply T1.
Qed.

Lemma run_collect_ub : forall A (wr : St I -> res A) z adapt_iter burnin iter thin g, cvt I = Some z -> (forall x, wr x = UB) ->
  pseudo_ok I data pseudo -> (forall d, In d data -> 5 <= length d) -> 0 < iter -> iter mod thin = 0 ->
  run I P data pseudo wr adapt_iter burnin iter thin (fresh I) g = UB.
Proof.
  intros A wr z ad bu it th g Hz Hwr Hps H5 Hi Hm. unfold run. destruct pseudo as [|p0 pt] eqn:Ep; [reflexivity|]. rewrite <- Ep in *. clear p0 pt Ep.
  assert (X : ok (initialize I P data (fresh I) g) (fun q => wf (fst q))).
  { apply ok_initialize; auto.
    - intros i Hi'. rewrite Hcols, Nat.mul_1_r. apply H5. apply nth_In. exact Hi'.
    - intros s g' A1 A2. apply (iinv_wf I data s Hcols A1 A2). }
  destruct (ok_inv _ _ _ X) as ((s1 & g1) & -> & W1). cbn [rbind fst] in *. clear X.
  destruct (ok_inv _ _ _ (ok_update_unique_vals I data Hcols s1 g1 (fun q => wf (fst q)) W1 ltac:(auto))) as ((s2 & g2) & -> & W2). cbn [rbind fst] in *.
  destruct (ok_inv _ _ _ (ok_steps z true ad s2 g2 (fun q => wf (fst q)) Hz ltac:(discriminate) W2 ltac:(auto))) as ((s3 & g3) & -> & W3). cbn [rbind fst] in *.
  destruct (ok_inv _ _ _ (ok_pseudo I P data Hcols HG pseudo s3 g3 (fun q => wf (fst q)) Hps ng_pos W3 ltac:(auto))) as ((s4 & g4) & -> & W4). cbn [rbind fst] in *.
  destruct (ok_inv _ _ _ (ok_steps z false bu s4 g4 (fun q => wf (fst q)) Hz ltac:(auto) W4 ltac:(auto))) as ((s5 & g5) & -> & W5). cbn [rbind fst] in *.
  eapply main_loop_ub; eauto.
Qed.

(** ** Count rows while tables are opened *)

Lemma push2_len : forall B (l l' : list (list B)) i x, push2 l i x = Ok l' -> length (nth i l' []) = S (length (nth i l [])).
Proof.
  clear Hcols Hdata Hpos HG. intros B l l' i x E. unfold push2, at_, set_at in E. destruct (nth_error l i) as [y|] eqn:N; cbn [rbind] in E; [|discriminate].
  destruct (i <? length l) eqn:Hl; [|discriminate]. injection E as <-. apply Nat.ltb_lt in Hl. rewrite nth_upd_same by auto.
  rewrite (nth_error_nth _ _ _ N), app_length. simpl. lia.
Qed.

Lemma open_table_len : forall s logn logm r d hdp g s' logn' logm' g',
  open_table I s logn logm r d hdp g = Ok ((s', logn', logm'), g') ->
  length (nth r (s_rest I s') []) = S (length (nth r (s_rest I s) [])) /\
  length (nth r (s_n I s') []) = (if Rlt_dec (fst (unif I g)) (s_w I s) then 2 else 1) + length (nth r (s_n I s) []).
Proof.
  clear Hcols Hdata Hpos HG. intros s logn logm r d hdp g s' logn' logm' g' E. unfold open_table in E.
  destruct (push2 (s_n I s) r 1%Z) as [nn| | |] eqn:E1; try discriminate E. cbn [rbind] in E.
  destruct (push2 logn r 0%Z) as [ln1| | |] eqn:E2; try discriminate E. cbn [rbind] in E.
  apply push2_len in E1. destruct (unif I g) as [u g1]. cbn [fst]. destruct (Rlt_dec u (s_w I s)).
  - destruct (samp_full I [d] g1) as [x g2]. unfold alloc_obj in E. cbn [w_n w_heap s_priv s_rest s_ts s_tp] in E.
    destruct (push2 (s_priv I s) r _) as [pv| | |]; try discriminate E. cbn [rbind] in E.
    destruct (push2 (s_rest I s) r _) as [rt| | |] eqn:E3; try discriminate E. cbn [rbind] in E.
    destruct (push2 (s_ts I s) r _) as [ts| | |]; try discriminate E. cbn [rbind] in E.
    destruct (at_ pv r) as [q| | |]; try discriminate E. cbn [rbind] in E.
    destruct (push2 (s_tp I s) r _) as [tp| | |]; try discriminate E. cbn [rbind] in E.
    destruct (push2 nn r 1%Z) as [nn2| | |] eqn:E4; try discriminate E. cbn [rbind] in E.
    destruct (push2 ln1 r 1%Z) as [ln2| | |]; try discriminate E. cbn [rbind] in E. injection E as <- <- <- <-.
    cbn [w_n w_tp w_ts w_rest w_priv w_heap s_rest s_n]. apply push2_len in E3. apply push2_len in E4. lia.
  - destruct (push2 (s_tp I s) r _) as [tp| | |]; try discriminate E. cbn [rbind] in E. destruct (cat I hdp g1) as [tn g2].
    destruct (push2 (s_ts I s) r _) as [ts| | |]; try discriminate E. cbn [rbind] in E. destruct (tn <? length (s_shared I s)).
    + destruct (at_ (s_shared I s) tn) as [q| | |]; try discriminate E. cbn [rbind] in E.
      destruct (push2 (s_rest I s) r _) as [rt| | |] eqn:E3; try discriminate E. cbn [rbind] in E.
      destruct (add1 (s_m I s) tn 1) as [m| | |]; try discriminate E. cbn [rbind] in E. injection E as <- <- <- <-.
      cbn [w_n w_tp w_ts w_rest w_m s_rest s_n]. apply push2_len in E3. lia.
    + destruct (samp_full I [d] g2) as [x g3]. unfold alloc_obj in E. cbn [w_n w_tp w_ts w_heap s_rest s_m s_shared] in E.
      destruct (push2 (s_rest I s) r _) as [rt| | |] eqn:E3; try discriminate E. cbn [rbind] in E. injection E as <- <- <- <-.
      cbn [w_n w_tp w_ts w_rest w_m w_shared w_heap s_rest s_n]. apply push2_len in E3. lia.
Qed.

(** ** Modes of the reallocation of groups *)
Lemma rest_allocs_frozen : forall s g, wf s ->
  p_mode P <> "full"%string -> p_mode P <> "metro_base"%string -> p_mode P <> "metro_dist"%string ->
  exists g', update_rest_allocs I P data s g = Ok (s, g').
Proof.
  intros s g H M1 M2 M3.
  assert (X : ok (update_rest_allocs I P data s g) (fun q => fst q = s)).
  { unfold update_rest_allocs. apply ok_for with (Inv := fun _ q => fst q = s); auto. intros m [s' g'] Hm E. cbn [fst] in E. subst s'. change (m < ng) in Hm.
    unfold rest_step. apply ok_bind. apply ok_at with (d := 0); [rewrite (wf_ral _ _ _ H); auto|].
    apply String.eqb_neq in M1, M2, M3. rewrite M1, M2, M3. cbn [rbind].
    assert (Hr : nth m (s_ra I s) 0 < ng) by (apply (wf_ra _ _ _ H); auto).
    assert (Hc : nth m (s_ra I s) 0 < length (s_conc I s)) by (rewrite (wf_concl _ _ _ H); auto).
    destruct (ok_inv _ _ _ (ok_lpdf I P data Hcols s m (nth m (s_ra I s) 0) (fun _ => True) H Hm Hr ltac:(intros; exact Logic.I))) as (v & E & _). rewrite E. cbn [rbind].
    rewrite (at_ok _ 0%R) by exact Hc. cbn [rbind]. destruct (unif I g') as [u g2]. destruct (Rlt_dec _ _); cbn [rbind]; rewrite Nat.eqb_refl; reflexivity. }
  destruct (ok_inv _ _ _ X) as ((s' & g') & -> & E). cbn [fst] in E. subst s'. eauto.
Qed.

End Step.

(** ** The truncated logarithms *)
Lemma Int_part_spec : forall x : R, (IZR (Int_part x) <= x < IZR (Int_part x) + 1)%R.
Proof. intros x. destruct (base_Int_part x). lra. Qed.

Lemma ilog_bounds : forall I n k, (0 < n)%Z -> ilog I n = Ok k -> (exp (IZR k) <= IZR n < exp 1 * exp (IZR k))%R.
Proof.
  intros I n k Hn E. unfold ilog in E. rewrite (proj2 (Z.ltb_lt 0 n) Hn) in E. injection E as <-.
  pose proof (Int_part_spec (ln (IZR n))) as [A B]. assert (0 < IZR n)%R by (apply IZR_lt; exact Hn).
  rewrite <- (exp_ln (IZR n)) at 2 3 by auto. split.
  - destruct A as [A|A]; [left; apply exp_increasing; exact A|right; rewrite A; reflexivity].
  - rewrite <- exp_plus. apply exp_increasing. lra.
Qed.

Lemma ilog_2 : forall I, ilog I 2 = Ok 0%Z.
Proof.
  intros I. unfold ilog. cbn [Z.ltb Z.compare]. f_equal. pose proof (Int_part_spec (ln 2)) as [A B].
  assert (0 < ln 2)%R by (rewrite <- ln_1; apply ln_increasing; lra).
  assert (ln 2 < 1)%R. { apply exp_lt_inv. rewrite exp_ln by lra. pose proof (exp_ineq1 1 ltac:(lra)). lra. }
  assert (Int_part (ln 2) < 1)%Z by (apply lt_IZR; lra). assert (-1 < Int_part (ln 2))%Z by (apply lt_IZR; lra). lia.
Qed.
