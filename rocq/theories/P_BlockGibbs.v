(** * C124: the blocks of the blocked Gibbs algorithm on normal data. *)
From Coq Require Import String.
From Coq Require Import Bool List Arith ZArith Reals Lra Lia Permutation.
From Verif Require Import Base Hier Algos Run Spec MargFacts NealFacts MargMore InitFacts MargProps ValidRun.
From Verif Require Import XReal Stick SliceFacts StickFacts Cond CondFacts CondProps CondDraws Mixings MixFacts Univ UnivFacts UnivInit RealInst RealFacts UnivInst UnivRun CondInst CondRun CondStick GamFacts CondGibbs P_Valid P_Blocked.
From Verif Require Import UnivInt PartSpec BlockSpec BlockFacts BlockNorm BlockRun.
Import ListNotations.
Local Open Scope R_scope.

Section Run.
  Variable G : gen.
  Variable p : nig_prior.
  Variable bet : R -> R -> Gs G -> R * Gs G.
  Variable data : list R.
  Variable nc : nat.
  Local Notation I := (nnig_iface lgam G p).

  (** One iteration of the program of [C114_normal], and its state after [k] of them. *)
  Definition blocked_iteration : alg (sb_iface I (fun w => w) bet) * Gs G -> res (alg (sb_iface I (fun w => w) bet) * Gs G) :=
    base_step (@blocked_sample_allocations (sb_iface I (fun w => w) bet) data (repeat tt (length data)) nc) false.
  Definition blocked_after (hy0 : nig) (m : sb numR) (pos : nat -> nat) (st : uni_ls) (k : nat) (r : Gs G) :=
    s0 <- @init_clusters (sb_iface I (fun w => w) bet) data (repeat tt (length data)) false hy0 m nc pos [mkHier (sb_iface I (fun w => w) bet) [] 0%Z (stats0 I) st false None] r ;;
    iter blocked_iteration k s0.
End Run.
Arguments blocked_iteration {G p} bet data nc.
Arguments blocked_after {G p} bet data nc hy0 m pos st k r.

(** A program and two consecutive states of it, the first one after at least one
    iteration; [sh] are the shapes of the sticks' prior, [vs] the sticks of the
    first state but the last one. *)
Definition consecutive {G : gen} {p : nig_prior} (bet : R -> R -> Gs G -> R * Gs G) (data : list R) (nc : nat) (hy0 : nig)
    (sh : list (R * R)) (vs : list R) (a a' : alg (sb_iface (nnig_iface lgam G p) (fun w => w) bet)) (r1 r2 : Gs G) : Prop :=
  gen_ok G /\ gen_pos G /\ nig_init p = Ok hy0 /\ beta_ok bet /\ (1 <= nc <= length data)%nat /\
  exists sp m pos st k r, sb_init sp false nc = Ok m /\ proper_shapes sp /\ (forall i, (pos i < nc)%nat) /\ prior_shapes m = Ok sh /\
    blocked_after bet data nc hy0 m pos st (S k) r = Ok (a, r1) /\ sb_sticks (a_mix a) = vs ++ [1] /\
    blocked_iteration bet data nc (a, r1) = Ok (a', r2).

(** The parameters of the components. *)
Definition parameters {G : gen} {p : nig_prior} {bet : R -> R -> Gs G -> R * Gs G} (a : alg (sb_iface (nnig_iface lgam G p) (fun w => w) bet)) : list uni_ls :=
  map (fun h => h_state h) (a_uv a).

Lemma shapes_prior : forall sp inf nc (x y : sb numR), sb_start sp inf nc x -> sb_start sp inf nc y -> prior_shapes x = prior_shapes y.
Proof. intros sp inf nc x y (_ & P1 & _ & N1) (_ & P2 & _ & N2). unfold prior_shapes, get_beta_params. rewrite P1, P2, N1, N2. reflexivity. Qed.

Lemma sumR_softmax : forall ws, sum_exp ws <> 0 -> sumR (softmax ws) = 1.
Proof.
  intros ws H. unfold softmax. assert (E : sumR (map (fun w => xexp w / sum_exp ws) ws) = sumR (map xexp ws) / sum_exp ws).
  { clear H. generalize (sum_exp ws) as t. intro t. unfold sumR. induction ws as [|w ws' IH]; cbn; [unfold Rdiv; ring|]. rewrite IH. unfold Rdiv. ring. }
  rewrite E. unfold sum_exp in *. apply Rinv_r. exact H.
Qed.

Lemma seq_combine : forall B (g : R -> B) (data : list R) i, map (fun q : nat * (R * unit) => g (fst (snd q))) (combine (seq i (length data)) (combine data (repeat tt (length data)))) = map g data.
Proof. induction data as [|y data IH]; intro i; cbn; [reflexivity|]. now rewrite IH. Qed.

Section Facts.
  Variables (G : gen) (p : nig_prior) (bet : R -> R -> Gs G -> R * Gs G) (data : list R) (nc : nat) (hy0 : nig) (sh : list (R * R)) (vs : list R).
  Variables (a a' : alg (sb_iface (nnig_iface lgam G p) (fun w => w) bet)) (r1 r2 : Gs G).
  Hypothesis H : consecutive bet data nc hy0 sh vs a a' r1 r2.
  Local Notation I := (nnig_iface lgam G p).
  Local Notation J := (sb_iface I (fun w => w) bet).
  Local Notation covs := (repeat tt (length data)).

  Lemma rows_vecs : forall (lw : list xreal) (th : list uni_ls),
    @vecs J data covs (@blocked_vec J (fun _ => lw) th) = map (fun y => map (fun q => xadd (fst q) (Fin (norm_lpdf (snd q) y))) (combine lw th)) data.
  Proof. intros lw th. exact (seq_combine _ (fun y => map (fun q => xadd (fst q) (Fin (norm_lpdf (snd q) y))) (combine lw th)) data 0%nat). Qed.

  Lemma cat_of_draws : forall v cs r r', @draws J v cs r r' -> cat_draws G (map softmax v) cs r r'.
  Proof.
    induction v as [|w v IH]; intros [|c cs] r r' D; cbn in *; try contradiction; [exact D|].
    destruct D as (_ & q & E & D). exists q. split; [exact E|]. apply IH. exact D.
  Qed.

  Lemma facts :
    valid (a_hyp a) /\ valid hy0 /\ S (length vs) = nc /\ Forall (fun v => 0 < v < 1) vs /\ length sh = nc /\ length (parameters a) = nc /\ length (parameters a') = nc /\
    length (a_alloc a') = length data /\ Forall (fun c => (c < nc)%nat) (a_alloc a') /\
    (exists q, cat_draws G (map softmax (label_rows data (parameters a) vs)) (a_alloc a') r1 q) /\
    (forall c, (c < nc)%nat -> exists s ys q0 q1, nth_error (parameters a') c = Some s /\ Permutation ys (with_label data (a_alloc a') c) /\
       nig_sample G (if length ys =? 0 then a_hyp a else if c =? 0 then hy0 else nnig_post (a_hyp a) (cardZ ys) (stats_of ys)) q0 = (s, q1)) /\
    (exists ns vs' v q, ns = map (count_occ Nat.eq_dec (a_alloc a')) (seq 0 nc) /\ S (length vs') = nc /\ sb_sticks (a_mix a') = vs' ++ [1] /\
       StickFacts.drawn bet (shapes_after sh ns) (vs' ++ [v]) q r2) /\
    exists sts q, a_hyp a' = fst (nig_update_hypers G p (a_hyp a) sts q).
  Proof.
    destruct H as (HG & HP & Hhy & Hb & Hnc & sp & m & pos & st & k & r & Hm & Hsp & Hpos & Hsh & Ea & Ev & Es).
    destruct (program_state lgam G HG HP p hy0 Hhy bet Hb sp nc m Hm Hsp data Hnc pos Hpos st (S k) r a r1 Ea) as (Ha & Va & Se).
    specialize (Se ltac:(lia)). destruct (end_sticks nc data Hnc (a_mix a) Se) as (vs0 & Ev0 & Lv & Fv). rewrite Ev in Ev0. apply app_inj_tail in Ev0. destruct Ev0 as [<- _].
    destruct (iteration I (nnig_laws lgam G p HG) (fun w => w) data covs (nnig_rows lgam G p data) bet Hb eq_refl hy0 sp false nc m Hm Hsp Hnc a a' r1 r2 Ha Es)
      as (Ha' & Se' & La & Fa & _ & q1 & q2 & ns & D & En & Hd & (sh' & ws & Es' & Ls & Lw & Dr & Sw) & q & Eh).
    assert (Sm : sb_start sp false nc m). { destruct (sb_init_spec _ _ _ Hm) as (A & B & C & D' & _). split; auto. }
    assert (Ess : sh' = sh). { rewrite (shapes_prior sp false nc _ m (proj1 (proj2 (proj2 Ha))) Sm) in Es'. congruence. } subst sh'.
    assert (Hids : forall c h, nth_error (a_uv a') c = Some h -> Permutation (pick data (h_ids h)) (with_label data (a_alloc a') c)).
    { intros c h Hc. rewrite with_label_labelled by (exact La). destruct Ha' as (HC & _). apply (@CInv_iff J data covs) in HC. destruct HC as [Q _].
      apply (labelled_ids (length data) (a_alloc a') (view (a_uv a')) c (h_ids h) (h_card h) data eq_refl Q). apply nth_view. exists h. auto. }
    split; [exact Va|]. split; [exact (nig_init_valid p hy0 Hhy)|]. split; [exact Lv|]. split; [exact Fv|]. split; [exact Ls|]. split; [unfold parameters; rewrite map_length; apply Ha|].
    split; [unfold parameters; rewrite map_length; apply Ha'|]. split; [exact La|]. split; [exact Fa|]. split.
    { exists q1. apply cat_of_draws. unfold label_rows. rewrite <- rows_vecs. assert (Ew : sb_logweights (a_mix a) = logweights_from_sticks (vs ++ [1])).
      { unfold sb_logweights. destruct Se as (L & _). destruct Ha as (_ & _ & (_ & _ & _ & N) & _). rewrite <- Ev. rewrite firstn_all2; [reflexivity|]. apply Nat.eq_le_incl. exact (eq_trans L (eq_sym N)). }
      rewrite <- Ew, <- (map_id (sb_logweights (a_mix a))). exact D. }
    split.
    { intros c Hc. destruct (nth_error (a_uv a') c) as [h|] eqn:Eh'; [|apply nth_error_None in Eh'; destruct Ha' as (_ & L & _); rewrite L in Eh'; lia].
      destruct (Hd c h Eh') as (s & q0 & q3 & _ & Eq). apply (draw_form lgam G p hy0 bet sp nc data a a' c h s q0 q3 Ha' Eh') in Eq.
      exists (h_state h), (pick data (h_ids h)), q0, q3. split; [exact (map_nth_error (fun h : hier J => h_state h) c (a_uv a') Eh')|]. split; [apply Hids; exact Eh'|].
      unfold pick at 1. rewrite map_length. exact Eq. }
    split.
    { exists ns. destruct (end_sticks nc data Hnc (a_mix a') Se') as (vs' & Ev' & Lv' & _).
      destruct (@exists_last _ ws) as (vs2 & v & E2); [intro N; rewrite N in Lw; cbn in Lw; lia|]. subst ws.
      assert (E3 : vs2 = vs').
      { cbn [andb] in Sw. rewrite app_length in Lw. cbn in Lw. replace (nc - 1)%nat with (length vs2) in Sw by lia. rewrite upd_app in Sw. rewrite Ev' in Sw. apply app_inj_tail in Sw. symmetry. apply Sw. } subst vs2.
      exists vs', v, q2. split; [|auto]. rewrite En. apply nth_ext with (d := 0%nat) (d' := 0%nat); [rewrite !map_length, seq_length; apply Ha'|].
      intros c Hc. rewrite map_length in Hc. destruct (nth_error (a_uv a') c) as [h|] eqn:Eh'; [|apply nth_error_None in Eh'; lia].
      rewrite (nth_error_nth _ _ _ (map_nth_error (fun h : hier J => length (h_ids h)) c (a_uv a') Eh')).
      assert (Hlt : (c < nc)%nat) by (destruct Ha' as (_ & L & _); rewrite <- L; exact Hc).
      rewrite (nth_error_nth _ _ _ (map_nth_error (count_occ Nat.eq_dec (a_alloc a')) c (seq 0 nc) (d := c) ltac:(rewrite (nth_error_nth' _ 0%nat) by (rewrite seq_length; exact Hlt); now rewrite seq_nth))).
      rewrite <- with_label_count with (xs := data) by exact La. rewrite <- (Permutation_length (Hids c h Eh')). unfold pick. now rewrite map_length. }
    exists (map fst (map (fun h : hier J => (h_state h, h_card h)) (filter (fun h => Z.ltb 0 (h_card h)) (a_uv a')))), q. exact Eh.
  Qed.
End Facts.

Lemma in_label_vectors : forall nc n cs, In cs (label_vectors nc n) <-> length cs = n /\ Forall (fun c => (c < nc)%nat) cs.
Proof.
  intros nc n. induction n as [|n IH]; intro cs; cbn [label_vectors].
  - split; [intros [<-|[]]; auto|]. intros [L _]. left. destruct cs; [reflexivity|discriminate].
  - rewrite in_flat_map. split.
    + intros (c & Hc & Hin). apply in_map_iff in Hin. destruct Hin as (l & <- & Hl). apply IH in Hl. destruct Hl as [L F]. apply in_seq in Hc.
      split; [cbn; lia|]. constructor; [lia|exact F].
    + intros [L F]. destruct cs as [|c cs]; [discriminate|]. inversion F; subst. exists c. split; [apply in_seq; lia|]. apply in_map, IH. split; [cbn in L; lia|assumption].
Qed.

Lemma soft_law : forall (rows : list (list xreal)) cs,
  prodR (map (fun x => nth (fst x) (snd x) 0) (combine cs (map softmax rows))) = draw_law (map (map xexp) rows) cs.
Proof.
  unfold draw_law. induction rows as [|w rows IH]; intros [|c cs]; cbn [map combine fst snd]; try reflexivity.
  match goal with |- prodR (?x :: ?l) = prodR (?y :: ?k) => change (x * prodR l = y * prodR k) end. rewrite IH. f_equal.
  unfold softmax. rewrite <- (map_map xexp (fun e => e / sum_exp w)). 
  replace 0 with (0 / sum_exp w) at 1 by (unfold Rdiv; ring). rewrite (map_nth (fun e => e / sum_exp w)). reflexivity.
Qed.

(** ** The labels

    They are drawn one after the other; the law of the whole vector is the
    conditional one given sticks and parameters. *)
Theorem C124_labels : forall G p bet data nc hy0 sh vs (a a' : alg (sb_iface (nnig_iface lgam G p) (fun w => w) bet)) r1 r2,
  consecutive bet data nc hy0 sh vs a a' r1 r2 ->
  exists ps q, cat_draws G ps (a_alloc a') r1 q /\ length ps = length data /\ Forall (fun q => length q = nc /\ Forall (fun x => 0 < x) q /\ sumR q = 1) ps /\
    forall cs, length cs = length data -> Forall (fun c => (c < nc)%nat) cs ->
      prodR (map (fun x => nth (fst x) (snd x) 0) (combine cs ps)) =
      joint lgam (a_hyp a) sh data (parameters a) vs cs / sumR (map (joint lgam (a_hyp a) sh data (parameters a) vs) (label_vectors nc (length data))).
Proof.
  intros G p bet data nc hy0 sh vs a a' r1 r2 H. destruct (facts _ _ _ _ _ _ _ _ _ _ _ _ H) as (_ & _ & Lv & Fv & Ls & La & _ & _ & _ & (q & D) & _).
  set (th := parameters a) in *. set (row := fun y => map (fun j => nth j (stick_weights (vs ++ [1])) 0 * exp (norm_lpdf (nth j th (mkLS 0 1)) y)) (seq 0 nc)).
  assert (Er : map (map xexp) (label_rows data th vs) = map row data) by (unfold row; rewrite <- La; apply (rows_exp nc data (proj1 (proj2 (proj2 (proj2 (proj2 H)))))); [lia|exact Fv]).
  assert (Pr : forall y, Forall (fun x => 0 < x) (row y)).
  { intro y. apply Forall_forall. intros x Hx. apply in_map_iff in Hx. destruct Hx as (j & <- & Hj). apply in_seq in Hj. apply Rmult_lt_0_compat; [apply stick_weights_pos; [exact Fv|lia]|apply exp_pos]. }
  assert (Ps : forall y, 0 < sumR (row y)).
  { intro y. specialize (Pr y). destruct (row y) as [|x l] eqn:E; [apply (f_equal (@length R)) in E; unfold row in E; rewrite map_length, seq_length in E; cbn in E; lia|].
    inversion Pr; subst. change (0 < x + sumR l). enough (0 <= sumR l) by lra. clear -H3. unfold sumR. induction H3; cbn; lra. }
  exists (map softmax (label_rows data th vs)), q. split; [exact D|]. split; [unfold label_rows; now rewrite !map_length|]. split.
  { apply Forall_forall. intros w Hw. apply in_map_iff in Hw. destruct Hw as (x & <- & Hx).
    assert (Hy : exists y, map xexp x = row y).
    { apply (in_map (map xexp)) in Hx. rewrite Er in Hx. apply in_map_iff in Hx. destruct Hx as (y & E & _). exists y. symmetry. exact E. }
    destruct Hy as (y & Ey). assert (Es : sum_exp x = sumR (row y)) by (rewrite <- Ey; reflexivity).
    split; [unfold softmax; rewrite map_length; rewrite <- (map_length xexp), Ey; unfold row; now rewrite map_length, seq_length|]. split.
    - unfold softmax. rewrite <- (map_map xexp (fun e => e / sum_exp x)), Ey, Es. apply Forall_forall. intros z Hz. apply in_map_iff in Hz. destruct Hz as (e & <- & He).
      apply Rdiv_lt_0_compat; [|apply Ps]. specialize (Pr y). rewrite Forall_forall in Pr. auto.
    - apply sumR_softmax. rewrite Es. specialize (Ps y). lra. }
  intros cs Lc Fc. rewrite soft_law, Er.
  refine (eq_trans (labels_exact uni_ls R (fun s y => exp (norm_lpdf s y)) (fun _ => stick_weights (vs ++ [1])) (mkLS 0 1) th nc data cs Lc Fc _) _).
  { apply Forall_forall. intros y _. specialize (Ps y). unfold row in Ps. lra. }
  set (C := beta_kernels sh vs * prodR (map (fun s => exp (nig_lpdf lgam (a_hyp a) s)) th)).
  assert (PC : 0 < C) by (apply Rmult_lt_0_compat; [apply kernels_pos|rewrite prod_exp; apply exp_pos]).
  change (joint lgam (a_hyp a) sh data th vs) with (fun cs => C * complete uni_ls R (fun s y => exp (norm_lpdf s y)) (fun _ => stick_weights (vs ++ [1])) (mkLS 0 1) th data cs).
  cbv beta. rewrite sumR_scale. rewrite total.
  assert (PT : prodR (map (fun x => sumR (map (fun j => nth j (stick_weights (vs ++ [1])) 0 * exp (norm_lpdf (nth j th (mkLS 0 1)) x)) (seq 0 nc))) data) <> 0).
  { apply Rgt_not_eq. clear -Ps. induction data as [|y l IH]; [unfold prodR; cbn; lra|]. apply Rmult_lt_0_compat; [apply Ps|exact IH]. }
  field. split; lra.
Qed.
Print Assumptions C124_labels.

(** ** The parameters

    Every component but the first one, and the first one too when it has no
    observation, is drawn from its conditional density. *)
Theorem C124_parameters : forall G p bet data nc hy0 sh vs (a a' : alg (sb_iface (nnig_iface lgam G p) (fun w => w) bet)) r1 r2 c,
  consecutive bet data nc hy0 sh vs a a' r1 r2 -> (c < nc)%nat -> c <> 0%nat \/ with_label data (a_alloc a') 0 = [] ->
  exists h s q0 q1, nig_sample G h q0 = (s, q1) /\ nth_error (parameters a') c = Some s /\ valid h /\
    exists K, 0 < K /\ forall x, 0 < ls_var x -> joint lgam (a_hyp a) sh data (upd (parameters a') c x) vs (a_alloc a') = K * exp (nig_lpdf lgam h x).
Proof.
  intros G p bet data nc hy0 sh vs a a' r1 r2 c H Hc N. destruct (facts _ _ _ _ _ _ _ _ _ _ _ _ H) as (Va & _ & Lv & Fv & Ls & _ & La & Ll & Fl & _ & Hd & _).
  destruct (Hd c Hc) as (s & ys & q0 & q1 & Hs & Hp & E). exists (nnig_post (a_hyp a) (cardZ ys) (stats_of ys)), s, q0, q1.
  split.
  { rewrite <- E. f_equal. destruct ys as [|y ys]; [now rewrite post_nil|]. destruct (Nat.eqb_spec c 0) as [->|_]; [|reflexivity].
    destruct N as [N|N]; [congruence|]. rewrite N in Hp. apply Permutation_sym, Permutation_nil in Hp. discriminate. }
  split; [exact Hs|]. split; [now apply nnig_post_valid|].
  apply parameters_exact; [exact Va|rewrite La; now rewrite Lv|exact Fv|rewrite La; exact Fl|rewrite La; exact Hc|exact Hp].
Qed.
Print Assumptions C124_parameters.

(** ** The sticks

    All but the last one, which is one, are drawn from their conditional
    density. *)
Theorem C124_sticks : forall G p bet data nc hy0 sh vs (a a' : alg (sb_iface (nnig_iface lgam G p) (fun w => w) bet)) r1 r2 hy,
  consecutive bet data nc hy0 sh vs a a' r1 r2 ->
  exists shapes vs' v q, StickFacts.drawn bet shapes (vs' ++ [v]) q r2 /\ sb_sticks (a_mix a') = vs' ++ [1] /\ S (length vs') = nc /\
    exists K, 0 < K /\ forall ws, S (length ws) = nc -> Forall (fun v => 0 < v < 1) ws ->
      joint lgam hy sh data (parameters a') ws (a_alloc a') = K * beta_kernels shapes ws.
Proof.
  intros G p bet data nc hy0 sh vs a a' r1 r2 hy H. destruct (facts _ _ _ _ _ _ _ _ _ _ _ _ H) as (_ & _ & Lv & _ & Ls & _ & _ & Ll & Fl & _ & _ & (ns & vs' & v & q & En & Lv' & Ev' & D) & _).
  exists (shapes_after sh ns), vs', v, q. split; [exact D|]. split; [exact Ev'|]. split; [exact Lv'|].
  apply joint_sticks with (nc := nc); auto. lia.
Qed.
Print Assumptions C124_sticks.

(** ** The first component

    With observations, it is drawn from the prior with the initial
    hyperparameters, and that is not its conditional density. *)
Lemma norm_sum_bends : forall ys, ys <> [] -> ~ exists C, forall x, 0 < ls_var x -> sumR (map (norm_lpdf x) ys) = C.
Proof.
  intros ys N (C & E).
  assert (Q : forall t, sumR (map (norm_lpdf (mkLS t 1)) ys) = INR (length ys) * (- / 2 * ln (2 * PI)) - / 2 * sumR (map (fun y => (y - t) * (y - t)) ys)).
  { intro t. rewrite norm_sum by (cbn; lra). cbn [ls_var ls_mean]. rewrite ln_1. unfold sq. field. }
  assert (B : forall t, sumR (map (fun y => (y - t) * (y - t)) ys) = sumR (map (fun y => y * y) ys) - 2 * t * sumR ys + INR (length ys) * (t * t)).
  { intro t. clear. unfold sumR. induction ys as [|y ys IH]; [cbn; ring|]. cbn [map fold_right]. rewrite IH. cbn [length]. rewrite S_INR. ring. }
  pose proof (E (mkLS 0 1) ltac:(cbn; lra)) as E0. pose proof (E (mkLS 1 1) ltac:(cbn; lra)) as E1. pose proof (E (mkLS (-1) 1) ltac:(cbn; lra)) as E2.
  rewrite Q, B in E0, E1, E2. assert (0 < INR (length ys)) by (apply lt_0_INR; destruct ys; [congruence|cbn; lia]). lra.
Qed.

Theorem C124_first_component : forall G p bet data nc hy0 sh vs (a a' : alg (sb_iface (nnig_iface lgam G p) (fun w => w) bet)) r1 r2,
  consecutive bet data nc hy0 sh vs a a' r1 r2 -> with_label data (a_alloc a') 0 <> [] ->
  exists s q0 q1, nig_sample G hy0 q0 = (s, q1) /\ nth_error (parameters a') 0 = Some s /\
    (a_hyp a = hy0 -> ~ exists K, forall x, 0 < ls_var x -> joint lgam (a_hyp a) sh data (upd (parameters a') 0 x) vs (a_alloc a') = K * exp (nig_lpdf lgam hy0 x)).
Proof.
  intros G p bet data nc hy0 sh vs a a' r1 r2 H N. destruct (facts _ _ _ _ _ _ _ _ _ _ _ _ H) as (Va & _ & Lv & Fv & Ls & _ & La & Ll & Fl & _ & Hd & _).
  destruct (Hd 0%nat ltac:(lia)) as (s & ys & q0 & q1 & Hs & Hp & E). exists s, q0, q1.
  assert (Ny : ys <> []) by (intros ->; apply Permutation_nil in Hp; congruence).
  split; [rewrite <- E; destruct ys; [congruence|reflexivity]|]. split; [exact Hs|]. intros Eh (K & EK). apply (norm_sum_bends ys Ny).
  destruct (parameters_exact lgam (a_hyp a) sh data (parameters a') vs (a_alloc a') 0 ys) as (K1 & P1 & E1); [exact Va|rewrite La; now rewrite Lv|exact Fv|rewrite La; exact Fl|lia|exact Hp|].
  exists (log_marg lgam (a_hyp a) ys + ln K - ln K1). intros x Hx.
  pose proof (nnig_bayes lgam (a_hyp a) ys x Va Hx) as B. specialize (E1 x Hx). rewrite (EK x Hx) in E1. rewrite <- Eh in E1.
  assert (PK : 0 < K). { apply Rmult_lt_reg_r with (exp (nig_lpdf lgam (a_hyp a) x)); [apply exp_pos|]. rewrite Rmult_0_l, E1. apply Rmult_lt_0_compat; [exact P1|apply exp_pos]. }
  apply (f_equal ln) in E1. rewrite !ln_mult, !ln_exp in E1 by (auto; apply exp_pos). lra.
Qed.
Print Assumptions C124_first_component.

(** With fixed hyperparameters they stay the initial ones. *)
Lemma fixed_hyp : forall G mu v a0 b0 bet data nc sh vs (a a' : alg (sb_iface (nnig_iface lgam G (NIGFixed mu v a0 b0)) (fun w => w) bet)) hy0 r1 r2,
  consecutive bet data nc hy0 sh vs a a' r1 r2 -> a_hyp a = hy0.
Proof.
  intros G mu v a0 b0 bet data nc sh vs a a' hy0 r1 r2 (HG & HP & Hhy & Hb & Hnc & sp & m & pos & st & k & r & Hm & Hsp & Hpos & Hsh & Ea & _).
  revert Ea. generalize (S k) as n. clear k. intros n Ea.
  assert (Q : forall s0 : alg (sb_iface (nnig_iface lgam G (NIGFixed mu v a0 b0)) (fun w => w) bet) * Gs G, a_hyp (fst s0) = hy0 -> iter (blocked_iteration bet data nc) n s0 = Ok (a, r1) -> a_hyp a = hy0).
  { clear -n. induction n as [|n IH]; intros s0 E0 E; cbn [iter] in E; [injection E as ->; exact E0|].
    apply rbind_ok in E. destruct E as ([a1 q1] & E1 & E). apply (IH (a1, q1)); [|exact E]. cbn [fst]. rewrite <- E0. clear -E1. destruct s0 as [b q].
    cbn [fst]. unfold blocked_iteration, base_step in E1. apply rbind_ok in E1. destruct E1 as ([b1 p1] & B1 & E1). apply rbind_ok in E1. destruct E1 as ([b2 p2] & B2 & E1). apply rbind_ok in E1. destruct E1 as ([b3 p3] & B3 & E1).
    assert (X1 : a_hyp b1 = a_hyp b).
    { change (a_hyp (fst (b1, p1)) = a_hyp b). eapply rfold_pres with (P := fun s : alg _ * _ => a_hyp (fst s) = a_hyp b); [|exact B1|reflexivity].
      intros x [d rd] [d' rd'] Hd. cbn [fst]. intros <-. unfold blocked_step in Hd. apply rbind_ok in Hd. destruct Hd as (ws & _ & Hd). apply rbind_ok in Hd. destruct Hd as ([c w] & _ & Hd).
      apply rbind_ok in Hd. destruct Hd as (d1 & Hd1 & Hd). injection Hd as <- <-. unfold move_datum in Hd1. apply rbind_ok in Hd1. destruct Hd1 as (c0 & _ & Hd1). destruct (c =? c0); [injection Hd1 as <-; reflexivity|].
      repeat (apply rbind_ok in Hd1; destruct Hd1 as (? & _ & Hd1)). injection Hd1 as <-. reflexivity. }
    assert (X2 : a_hyp b2 = a_hyp b1).
    { unfold sample_unique_values in B2. apply rbind_ok in B2. destruct B2 as ([uv w] & _ & B2). injection B2 as <- <-. reflexivity. }
    assert (X3 : a_hyp b3 = a_hyp b2).
    { unfold update_hierarchy_hypers in B3. apply rbind_ok in B3. destruct B3 as (h0 & _ & B3). cbn in B3. injection B3 as <- <-. reflexivity. }
    unfold update_mixing in E1. apply rbind_ok in E1. destruct E1 as ([m' w] & _ & E1). injection E1 as <- <-. cbn [a_hyp set_mix]. congruence. }
  unfold blocked_after in Ea. apply rbind_ok in Ea. destruct Ea as ([s0 q0] & E0 & Ea). apply (Q (s0, q0)); [|exact Ea]. cbn [fst].
  unfold init_clusters in E0. apply rbind_ok in E0. destruct E0 as (h0 & _ & E0). apply rbind_ok in E0. destruct E0 as ([u ru] & _ & E0).
  apply rbind_ok in E0. destruct E0 as ([al u3] & _ & E0). apply rbind_ok in E0. destruct E0 as (u4 & _ & E0). injection E0 as <- <-. reflexivity.
Qed.

(** ** Examples *)
Lemma ex_states : exists vs (a a' : alg (sb_iface (nnig_iface lgam g1 (NIGFixed 0 1 2 2)) (fun w => w) half)) r1 r2,
  consecutive half [0; 1; 5] 2 (mkNIG 0 1 2 2) [(1, 1); (1, 1)] vs a a' r1 r2 /\ with_label [0; 1; 5] (a_alloc a') 0 <> [].
Proof.
  assert (E : nig_init (NIGFixed 0 1 2 2) = Ok (mkNIG 0 1 2 2)) by (cbn [nig_init]; unfold nig_check; cbn; rewrite !(proj2 (lteb_false _ _)) by lra; reflexivity).
  assert (P : forall i, (i mod 2 < 2)%nat) by (intro i; apply Nat.mod_upper_bound; discriminate).
  destruct (dp_starts false 2) as (m & Em & Hs).
  assert (Hnc : (1 <= 2 <= length [0; 1; 5])%nat) by (cbn; lia).
  destruct (C114_normal g1 (NIGFixed 0 1 2 2) _ _ _ 2 [0; 1; 5] (fun i => i mod 2)%nat (mkLS 0 0) half 2 0 0%nat (proj1 g1_ok) (proj2 g1_ok) (half_ok _) E Em Hs Hnc P) as (s & out & R & _).
  rewrite E, Em in R. unfold blocked_run in R. cbn [rbind] in R.
  destruct (sb_init_spec _ _ _ Em) as (S1 & S2 & S3 & S4 & _). rewrite S4 in R.
  destruct (@run_saves _ _ _ _ _ _ _ R) as ([a0 r0] & E0 & E2 & _). cbn [iter] in E2.
  apply rbind_ok in E2. destruct E2 as ([a r1] & E1 & E2). apply rbind_ok in E2. destruct E2 as ([a' r2] & E2 & _).
  change (num_components _ _ 2) with 2%nat in E1, E2.
  assert (Ea : @blocked_after g1 (NIGFixed 0 1 2 2) half [0; 1; 5] 2 (mkNIG 0 1 2 2) m (fun i => i mod 2)%nat (mkLS 0 0) 1 0%nat = Ok (a, r1)).
  { unfold blocked_after. eapply eq_trans; [apply (f_equal (fun z => rbind z _)); exact E0|]. cbn [rbind iter]. eapply eq_trans; [apply (f_equal (fun z => rbind z _)); exact E1|]. reflexivity. }
  destruct (program_state lgam g1 (proj1 g1_ok) (proj2 g1_ok) (NIGFixed 0 1 2 2) _ E half (half_ok _) _ 2 m Em Hs [0; 1; 5] Hnc (fun i => i mod 2)%nat P (mkLS 0 0) 1 0%nat a r1 Ea) as (_ & _ & Se).
  destruct (end_sticks 2 [0; 1; 5] Hnc _ (Se ltac:(lia))) as (vs & Ev & _).
  assert (C : consecutive half [0; 1; 5] 2 (mkNIG 0 1 2 2) [(1, 1); (1, 1)] vs a a' r1 r2).
  { split; [exact (proj1 g1_ok)|]. split; [exact (proj2 g1_ok)|]. split; [exact E|]. split; [apply half_ok|]. split; [exact Hnc|].
    exists (DpPrior numR 1), m, (fun i => i mod 2)%nat, (mkLS 0 0), 0%nat, 0%nat. split; [exact Em|]. split; [exact Hs|]. split; [exact P|]. split.
    - unfold prior_shapes, get_beta_params. rewrite S2, S4. reflexivity.
    - split; [exact Ea|]. split; [exact Ev|exact E2]. }
  exists vs, a, a', r1, r2. split; [exact C|].
  destruct (C124_labels _ _ _ _ _ _ _ _ _ _ _ _ C) as (ps & q & D & Lp & Fp & _). clear -D Lp Fp. cbn in Lp.
  destruct ps as [|p1 [|p2 ps]]; try discriminate. inversion Fp as [|? ? [L1 _] Fp']; subst. inversion Fp' as [|? ? [L2 _] _]; subst.
  assert (W : forall al, cat_draws g1 (p1 :: p2 :: ps) al r1 q -> with_label [0; 1; 5] al 0 <> []); [clear D|exact (W _ D)]. intros al D.
  destruct al as [|c1 [|c2 cs]]; cbn [cat_draws] in D; try contradiction; [destruct D as (? & _ & [])|].
  destruct D as (w & D1 & w' & D2 & _). cbn [g_cat g1] in D1, D2. rewrite L1 in D1. rewrite L2 in D2.
  pose proof (f_equal fst D1) as A1. pose proof (f_equal snd D1) as B1. pose proof (f_equal fst D2) as A2. cbn [fst snd] in A1, B1, A2. rewrite <- B1 in A2.
  unfold with_label. cbn [combine filter fst map snd]. clear D1 D2.
  destruct c1 as [|c1]; [cbn; congruence|]. destruct c2 as [|c2]; [cbn; congruence|]. exfalso.
  pose proof (Nat.div_mod_eq r1 2) as U1. pose proof (Nat.div_mod_eq (S r1) 2) as U2. rewrite A1 in U1. rewrite A2 in U2.
  pose proof (Nat.mod_upper_bound r1 2 ltac:(lia)). pose proof (Nat.mod_upper_bound (S r1) 2 ltac:(lia)). lia.
Qed.

Example C124_example : exists vs (a a' : alg (sb_iface (nnig_iface lgam g1 (NIGFixed 0 1 2 2)) (fun w => w) half)) r1 r2,
  consecutive half [0; 1; 5] 2 (mkNIG 0 1 2 2) [(1, 1); (1, 1)] vs a a' r1 r2.
Proof. destruct ex_states as (vs & a & a' & r1 & r2 & C & _). exists vs, a, a', r1, r2. exact C. Qed.

(** Not every component is drawn from its conditional density. *)
Theorem C124_every_component_refuted :
  exists G p bet data nc hy0 sh vs (a a' : alg (sb_iface (nnig_iface lgam G p) (fun w => w) bet)) r1 r2,
    consecutive bet data nc hy0 sh vs a a' r1 r2 /\
    exists s q0 q1, nig_sample G hy0 q0 = (s, q1) /\ nth_error (parameters a') 0 = Some s /\
      ~ exists K, forall x, 0 < ls_var x -> joint lgam (a_hyp a) sh data (upd (parameters a') 0 x) vs (a_alloc a') = K * exp (nig_lpdf lgam hy0 x).
Proof.
  destruct ex_states as (vs & a & a' & r1 & r2 & C & N).
  exists g1, (NIGFixed 0 1 2 2), half, [0; 1; 5], 2%nat, (mkNIG 0 1 2 2), [(1, 1); (1, 1)], vs, a, a', r1, r2. split; [exact C|].
  destruct (C124_first_component _ _ _ _ _ _ _ _ _ _ _ _ C N) as (s & q0 & q1 & A & B & D). exists s, q0, q1. split; [exact A|]. split; [exact B|]. apply D. exact (fixed_hyp _ _ _ _ _ _ _ _ _ _ _ _ _ _ _ C).
Qed.
Print Assumptions C124_every_component_refuted.
