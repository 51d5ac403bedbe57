(** * Iterations of the blocked Gibbs program on normal data. *)
From Coq Require Import String.
From Coq Require Import Bool List Arith ZArith Reals Lra Lia Permutation.
From Verif Require Import Base Hier Algos Run Spec MargFacts NealFacts MargMore InitFacts MargProps ValidRun.
From Verif Require Import XReal Stick SliceFacts StickFacts Cond CondFacts CondProps CondDraws Mixings Univ UnivFacts UnivInit RealInst RealFacts UnivInst UnivRun CondInst CondRun CondStick GamFacts CondGibbs.
From Verif Require Import PartSpec BlockSpec BlockFacts BlockNorm.
Import ListNotations.
Local Open Scope R_scope.

Section Normal.
  Variable lg : R -> R.
  Variable G : gen.
  Hypothesis HG : gen_ok G.
  Hypothesis HP : gen_pos G.
  Variable p : nig_prior.
  Variable hy0 : nig.
  Hypothesis Hhy : nig_init p = Ok hy0.
  Variable bet : R -> R -> Gs G -> R * Gs G.
  Hypothesis Hb : beta_ok bet.
  Variable sp : sbprior numR.
  Variable nc : nat.
  Variable m : sb numR.
  Hypothesis Hm : sb_init sp false nc = Ok m.
  Hypothesis Hsp : proper_shapes sp.
  Variable data : list R.
  Hypothesis Hnc : (1 <= nc <= length data)%nat.
  Variable pos : nat -> nat.
  Hypothesis Hpos : forall i, (pos i < nc)%nat.
  Variable st : uni_ls.
  Local Notation I := (nnig_iface lg G p).
  Local Notation J := (sb_iface I (fun w => w) bet).
  Local Notation covs := (repeat tt (length data)).
  Local Notation step := (base_step (@blocked_sample_allocations J data covs nc) false).
  Local Notation init r := (@init_clusters J data covs false hy0 m nc pos [mkHier J [] 0%Z (stats0 I) st false None] r).
  Local Notation good a := (@CInv J data covs a /\ length (a_uv a) = nc /\ sb_start sp false nc (a_mix a) /\ @only0 J hy0 (a_uv a)).
  Local Notation iteration := (iteration I (nnig_laws lg G p HG) (fun w => w) data covs (nnig_rows lg G p data) bet Hb eq_refl hy0 sp false nc m Hm Hsp Hnc).

  Lemma ids_range : forall (a : alg J) c h, good a -> nth_error (a_uv a) c = Some h -> forall j, In j (h_ids h) -> (j < length data)%nat.
  Proof.
    intros a c h (HC & _) Hc j Hj. apply (@CInv_iff J data covs) in HC. destruct HC as [(H1 & _ & Q) _].
    destruct (Q c (h_ids h) (h_card h)) as (_ & Q2 & _); [apply nth_view; exists h; auto|]. apply Q2 in Hj.
    apply (Nat.lt_le_trans _ (length (a_alloc a))); [apply nth_error_Some; congruence|exact (Nat.eq_le_incl _ _ H1)].
  Qed.

  Lemma post_pick : forall (a : alg J) c h hy s, good a -> nth_error (a_uv a) c = Some h ->
    post I hy (Z.of_nat (length (h_ids h))) (batch I data (at_ covs) (h_ids h)) s =
    nnig_post hy (cardZ (pick data (h_ids h))) (stats_of (pick data (h_ids h))).
  Proof.
    intros a c h hy s Ha Hc. rewrite nnig_batch by (exact (ids_range a c h Ha Hc)). unfold cardZ, pick. rewrite map_length. reflexivity.
  Qed.

  Lemma draw_form : forall (a a' : alg J) c h s q0 q1, good a' -> nth_error (a_uv a') c = Some h ->
    prior_sample I (if length (h_ids h) =? 0 then a_hyp a else if conj I && (c =? 0) then hy0
                    else post I (a_hyp a) (Z.of_nat (length (h_ids h))) (batch I data (at_ covs) (h_ids h)) s) q0 = (h_state h, q1) ->
    nig_sample G (if length (h_ids h) =? 0 then a_hyp a else if c =? 0 then hy0
                  else nnig_post (a_hyp a) (cardZ (pick data (h_ids h))) (stats_of (pick data (h_ids h)))) q0 = (h_state h, q1).
  Proof. intros a a' c h s q0 q1 Ha Hc E. rewrite <- (post_pick a' c h (a_hyp a) s Ha Hc). exact E. Qed.

  Lemma hyp_valid_step : forall (a a' : alg J) r r', good a -> valid (a_hyp a) -> step (a, r) = Ok (a', r') -> valid (a_hyp a').
  Proof.
    intros a a' r r' Ha Hv E. destruct (iteration a a' r r' Ha E) as (Ha' & _ & _ & _ & _ & r1 & r2 & ns & _ & _ & Hd & _ & q & Eq). rewrite Eq.
    apply (cl_hyp _ _ _ _ _ _ (nnig_closed lg G p data HP (nig_prior_checked p hy0 Hhy))); [exact Hv|].
    intros x Hx. apply in_map_iff in Hx. destruct Hx as (h & <- & Hh). cbn [fst]. apply filter_In in Hh. destruct Hh as [Hh _].
    apply In_nth_error in Hh. destruct Hh as (c & Hc). destruct (Hd c h Hc) as (s & q0 & q1 & _ & Es).
    apply (draw_form a a' c h s q0 q1 Ha' Hc) in Es.
    assert (Q : forall hh, nig_sample G hh q0 = (h_state h, q1) -> valid hh -> ls_valid (h_state h)).
    { intros hh Eh Vh. pose proof (nig_sample_valid G hh q0 HP Vh) as Q. rewrite Eh in Q. exact Q. }
    apply (Q _ Es).
    destruct (length (h_ids h) =? 0); [exact Hv|]. destruct (c =? 0); [exact (nig_init_valid p hy0 Hhy)|]. now apply nnig_post_valid.
  Qed.

  Lemma program_state : forall k r a r', (s0 <- init r ;; iter step k s0) = Ok (a, r') ->
    good a /\ valid (a_hyp a) /\ ((1 <= k)%nat -> sb_end false nc (a_mix a)).
  Proof.
    intros k r a r' E.
    assert (G0 : forall a0 r0, init r = Ok (a0, r0) -> good a0).
    { intros a0 r0 E0. apply (program_good I (nnig_laws lg G p HG) (fun w => w) data covs (nnig_rows lg G p data) bet Hb eq_refl hy0 sp false nc m Hm Hsp Hnc pos Hpos st 0 r a0 r0). rewrite E0. reflexivity. }
    apply rbind_ok in E. destruct E as ([a0 r0] & E0 & E). specialize (G0 a0 r0 E0).
    assert (V0 : valid (a_hyp a0)).
    { unfold init_clusters in E0. apply rbind_ok in E0. destruct E0 as (h0 & _ & E0). apply rbind_ok in E0. destruct E0 as ([u ru] & _ & E0).
      apply rbind_ok in E0. destruct E0 as ([al u3] & _ & E0). apply rbind_ok in E0. destruct E0 as (u4 & _ & E0). injection E0 as <- <-. exact (nig_init_valid p hy0 Hhy). }
    clear E0. revert a0 r0 G0 V0 E. induction k as [|k IH]; intros a0 r0 G0 V0 E; cbn [iter] in E.
    - injection E as <- <-. split; [exact G0|]. split; [exact V0|]. lia.
    - apply rbind_ok in E. destruct E as ([a1 r1] & E1 & E). destruct (iteration a0 a1 r0 r1 G0 E1) as (G1 & S1 & _).
      pose proof (hyp_valid_step a0 a1 r0 r1 G0 V0 E1) as V1. destruct (IH a1 r1 G1 V1 E) as (A & B & C). split; [exact A|]. split; [exact B|].
      intros _. destruct k as [|k]; [|apply C; lia]. cbn [iter] in E. injection E as <- <-. exact S1.
  Qed.

  (** Sticks after an iteration. *)
  Lemma end_sticks : forall x : sb numR, sb_end false nc x -> exists vs, sb_sticks x = vs ++ [1] /\ S (length vs) = nc /\ Forall (fun v => 0 < v < 1) vs.
  Proof.
    intros x (L & F & R & E). destruct (@exists_last _ (sb_sticks x)) as (vs & v & Es). { intro N. rewrite N in L. cbn in L. lia. }
    rewrite Es in *. rewrite last_last in E. subst v. rewrite removelast_last in R. exists vs. split; [reflexivity|]. split; [rewrite app_length in L; cbn in L; lia|].
    apply Forall_app in F. destruct F as [F _]. rewrite Forall_forall in *. intros v Hv. specialize (F v Hv). specialize (R v Hv). lra.
  Qed.

  (** Rows of probabilities of the labels. *)
  Definition label_rows (th : list uni_ls) (vs : list R) : list (list xreal) :=
    map (fun y => map (fun q => xadd (fst q) (Fin (norm_lpdf (snd q) y))) (combine (logweights_from_sticks (vs ++ [1])) th)) data.

  Lemma xexp_add_norm : forall w s y, xexp (xadd w (Fin (norm_lpdf s y))) = xexp w * exp (norm_lpdf s y).
  Proof. intros w s y. rewrite xexp_add. reflexivity. Qed.

  Lemma combine_nth_map : forall (ws : list R) (th : list uni_ls) y, length ws = length th ->
    map (fun q => fst q * exp (norm_lpdf (snd q) y)) (combine ws th) =
    map (fun j => nth j ws 0 * exp (norm_lpdf (nth j th (mkLS 0 1)) y)) (seq 0 (length th)).
  Proof.
    induction ws as [|w ws IH]; intros [|s th] y H; cbn [length] in *; try discriminate; [reflexivity|].
    cbn [combine map seq fst snd]. rewrite IH by lia. rewrite <- seq_shift, map_map. reflexivity.
  Qed.

  Lemma rows_exp : forall th vs, length th = S (length vs) -> Forall (fun v => 0 < v < 1) vs ->
    map (map xexp) (label_rows th vs) =
    map (fun y => map (fun j => nth j (stick_weights (vs ++ [1])) 0 * exp (norm_lpdf (nth j th (mkLS 0 1)) y)) (seq 0 (length th))) data.
  Proof.
    intros th vs Hl Hv. unfold label_rows. rewrite map_map. apply map_ext. intro y. rewrite map_map.
    rewrite <- combine_nth_map by (unfold stick_weights; rewrite map_length, seq_length, app_length; cbn; lia).
    assert (W : map xexp (logweights_from_sticks (vs ++ [1])) = weights_go numR 1 (vs ++ [1])).
    { unfold logweights_from_sticks. rewrite log_scale; [cbn [xexp]; rewrite exp_0; reflexivity|].
      apply Forall_app. split; [|repeat constructor; lra]. eapply Forall_impl; [|exact Hv]. cbn. intros; lra. }
    rewrite stick_weights_go, <- W. generalize (logweights_from_sticks (vs ++ [1])) as ws. intro ws. clear. revert th.
    induction ws as [|w ws IH]; intros [|s th]; cbn [combine map fst snd]; auto. rewrite IH, xexp_add_norm. reflexivity.
  Qed.
End Normal.
