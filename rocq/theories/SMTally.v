(** * The probability of the draws of a restricted Gibbs scan. *)
From Coq Require Import String.
From Coq Require Import Bool List Arith ZArith Reals Lra Lia.
From Verif Require Import Base Hier Algos SplitMerge XReal Mixings Univ RealInst RealFacts.
Import ListNotations.
Local Open Scope R_scope.

(** A generator that multiplies up the probabilities of its categorical draws. *)
Definition tally (G : gen) : gen := mkGen (Gs G * R)
  (fun a b s => let '(x, r) := g_norm G a b (fst s) in (x, (r, snd s)))
  (fun a b s => let '(x, r) := g_invgamma G a b (fst s) in (x, (r, snd s)))
  (fun a b s => let '(x, r) := g_gamma G a b (fst s) in (x, (r, snd s)))
  (fun a b s => let '(x, r) := g_unif G a b (fst s) in (x, (r, snd s)))
  (fun ps s => let '(c, r) := g_cat G ps (fst s) in (c, (r, snd s * nth c ps 0))).

Lemma tally_ok : forall G, gen_ok G -> gen_ok (tally G).
Proof.
  intros G H ps [r q] Hp. cbn. specialize (H ps r Hp). destruct (g_cat G ps r). exact H.
Qed.

Lemma sum_exp_ge0 : forall ws, 0 <= sum_exp ws.
Proof.
  unfold sum_exp. induction ws as [|w ws IH]; cbn; [lra|].
  assert (0 <= xexp w) by (destruct w; cbn; [lra|left; apply exp_pos]). lra.
Qed.
Lemma softmax2_ge0 : forall x y c, 0 <= nth c (softmax [x; y]) 0.
Proof.
  assert (P : forall w, 0 <= xexp w) by (destruct w; cbn; [lra|left; apply exp_pos]).
  intros x y c. unfold softmax. pose proof (sum_exp_ge0 [x; y]) as S.
  assert (Q : forall w, 0 < sum_exp [x; y] -> 0 <= xexp w / sum_exp [x; y]).
  { intros w H. apply Rmult_le_pos; [apply P|left; apply Rinv_0_lt_compat, H]. }
  destruct S as [S|S].
  - destruct c as [|[|[|c]]]; cbn; try lra; apply Q, S.
  - assert (X : xexp x = 0 /\ xexp y = 0).
    { unfold sum_exp in S. cbn in S. pose proof (P x). pose proof (P y). lra. }
    destruct X as [X Y]. destruct c as [|[|[|c]]]; cbn [map nth]; try lra; unfold Rdiv; rewrite ?X, ?Y; lra.
Qed.

Lemma bind_ok : forall A B (e : res A) (k : A -> res B) y, rbind e k = Ok y -> exists x, e = Ok x /\ k x = Ok y.
Proof. intros A B [x| | |] k y H; try discriminate. exists x. auto. Qed.

Section Tally.
  Variables (lg : R -> R) (G : gen) (p : nig_prior) (data : list R).
  Notation I := (nnig_iface lg (tally G) p).

  Lemma step_tally : forall z (a : alg I) f g lp r q k g2 lp2 r2 q2,
    rgs_step (I := I) data a f false ((g, lp), (r, q)) k = Ok ((g2, lp2), (r2, q2)) ->
    q = z * xexp lp -> q2 = z * xexp lp2.
  Proof.
    intros z a f g lp r q k g2 lp2 r2 q2 H Hq. unfold rgs_step in H.
    apply bind_ok in H; destruct H as [i [_ H]]. apply bind_ok in H; destruct H as [ck [_ H]].
    apply bind_ok in H; destruct H as [d [_ H]]. apply bind_ok in H; destruct H as [guv1 [_ H]].
    apply bind_ok in H; destruct H as [w0_ [_ H]]. apply bind_ok in H; destruct H as [w1_ [_ H]].
    apply bind_ok in H; destruct H as [[c r'] [E H]]. apply bind_ok in H; destruct H as [guv2 [_ H]].
    injection H as _ <- Hr. unfold cat in E. cbn [categorical] in E. change (categorical I [w0_; w1_] (r, q)) with (g_cat (tally G) (softmax [w0_; w1_]) (r, q)) in E.
    cbn [tally g_cat fst snd] in E. destruct (g_cat G (softmax [w0_; w1_]) r) as [c' r3]. injection E as -> <-.
    injection Hr as <- <-. change (wadd I) with xadd. rewrite xexp_add.
    change (log_softmax I [w0_; w1_] c) with (xlog (nth c (softmax [w0_; w1_]) 0)).
    rewrite xexp_log by apply softmax2_ge0. subst q. ring.
  Qed.

  Lemma fold_tally : forall z (a : alg I) f ks g lp r q g2 lp2 r2 q2,
    rfold (rgs_step (I := I) data a f false) ks ((g, lp), (r, q)) = Ok ((g2, lp2), (r2, q2)) ->
    q = z * xexp lp -> q2 = z * xexp lp2.
  Proof.
    intros z a f ks. induction ks as [|k ks IH]; intros g lp r q g2 lp2 r2 q2 H Hq; cbn [rfold] in H.
    - injection H as _ <- _ <-. exact Hq.
    - apply bind_ok in H. destruct H as [[[g1 lp1] [r1 q1]] [E H]]. eapply IH; [exact H|]. eapply step_tally; eassumption.
  Qed.
End Tally.

(** The scan that goes back to the original clusters reports what a scan that
    happens to draw them does. *)
Section Replay.
  Variables (I : Iface) (data : list (Datum I)).

  Lemma step_shape : forall (a : alg I) f o g lp r k g2 lp2 r2,
    rgs_step data a f o ((g, lp), r) k = Ok ((g2, lp2), r2) ->
    g_idx g2 = g_idx g /\ exists c, g_alloc g2 = upd (g_alloc g) k c /\ (k < length (g_alloc g))%nat.
  Proof.
    intros a f o g lp r k g2 lp2 r2 H. unfold rgs_step in H.
    apply bind_ok in H; destruct H as [i [_ H]]. apply bind_ok in H; destruct H as [ck [Ek H]].
    do 4 (apply bind_ok in H; destruct H as [? [_ H]]).
    apply bind_ok in H; destruct H as [[c r'] [E H]]. apply bind_ok in H; destruct H as [guv2 [_ H]].
    injection H as <- _ _. split; [reflexivity|]. exists c. split; [reflexivity|].
    apply at_inv in Ek. apply nth_error_Some. congruence.
  Qed.
  Lemma fold_keep : forall (a : alg I) f o ks g lp r g2 lp2 r2 j,
    rfold (rgs_step data a f o) ks ((g, lp), r) = Ok ((g2, lp2), r2) -> ~ In j ks ->
    nth_error (g_alloc g2) j = nth_error (g_alloc g) j.
  Proof.
    intros a f o ks. induction ks as [|k ks IH]; intros g lp r g2 lp2 r2 j H Hj; cbn [rfold] in H.
    - injection H as <- _ _. reflexivity.
    - apply bind_ok in H. destruct H as [[[g1 lp1] r1] [E H]]. destruct (step_shape _ _ _ _ _ _ _ _ _ _ E) as [_ [c [Ec _]]].
      rewrite (IH _ _ _ _ _ _ j H) by (intros X; apply Hj; right; exact X). rewrite Ec.
      apply nth_error_upd_other. intros ->. apply Hj. left. reflexivity.
  Qed.

  Definition code (a : alg I) (f i : nat) : option nat :=
    match nth_error (a_alloc a) i, nth_error (a_alloc a) f with
    | Some x, Some y => Some (if (x =? y)%nat then 0%nat else 1%nat)
    | _, _ => None
    end.

  Lemma step_replay : forall (a : alg I) f g lp r k g2 lp2 r2 r0,
    rgs_step data a f false ((g, lp), r) k = Ok ((g2, lp2), r2) ->
    (forall i, nth_error (g_idx g) k = Some i -> exists c, code a f i = Some c /\ nth_error (g_alloc g2) k = Some c) ->
    rgs_step data a f true ((g, lp), r0) k = Ok ((g2, lp2), r0).
  Proof.
    intros a f g lp r k g2 lp2 r2 r0 H Hc. unfold rgs_step in *.
    apply bind_ok in H; destruct H as [i [Ei H]]. rewrite Ei. cbn [rbind].
    apply bind_ok in H; destruct H as [ck [Ek H]]. rewrite Ek. cbn [rbind].
    apply bind_ok in H; destruct H as [d [Ed H]]. rewrite Ed. cbn [rbind].
    apply bind_ok in H; destruct H as [guv1 [E1 H]]. rewrite E1. cbn [rbind].
    apply bind_ok in H; destruct H as [w0_ [E2 H]]. rewrite E2. cbn [rbind].
    apply bind_ok in H; destruct H as [w1_ [E3 H]]. rewrite E3. cbn [rbind].
    apply bind_ok in H; destruct H as [[c r'] [E4 H]].
    apply bind_ok in H; destruct H as [guv2 [E5 H]].
    apply at_inv in Ei. apply at_inv in Ek. destruct (Hc i Ei) as [c' [Hcode Hn]]. injection H as <- <- _.
    cbn [g_alloc] in Hn. rewrite nth_error_upd_same in Hn by (apply nth_error_Some; congruence). injection Hn as <-.
    unfold code in Hcode. unfold at_ at 1 2. destruct (nth_error (a_alloc a) i) as [x|]; [|discriminate].
    destruct (nth_error (a_alloc a) f) as [y|]; [|discriminate]. injection Hcode as Hcode. cbn [rbind]. rewrite Hcode, E5. reflexivity.
  Qed.

  Lemma fold_replay : forall (a : alg I) f ks g lp r g2 lp2 r2 r0, NoDup ks ->
    rfold (rgs_step data a f false) ks ((g, lp), r) = Ok ((g2, lp2), r2) ->
    (forall k i, In k ks -> nth_error (g_idx g) k = Some i -> exists c, code a f i = Some c /\ nth_error (g_alloc g2) k = Some c) ->
    rfold (rgs_step data a f true) ks ((g, lp), r0) = Ok ((g2, lp2), r0).
  Proof.
    intros a f ks. induction ks as [|k ks IH]; intros g lp r g2 lp2 r2 r0 N H Hc; cbn [rfold] in *.
    - injection H as <- <- _. reflexivity.
    - apply bind_ok in H. destruct H as [[[g1 lp1] r1] [E H]]. inversion N as [|? ? Nk N']; subst.
      destruct (step_shape _ _ _ _ _ _ _ _ _ _ E) as [Eidx _].
      assert (E' : rgs_step data a f true ((g, lp), r0) k = Ok ((g1, lp1), r0)).
      { eapply step_replay; [exact E|]. intros i Hi. destruct (Hc k i (or_introl eq_refl) Hi) as [c [H1 H2]].
        exists c. split; [exact H1|]. rewrite <- (fold_keep _ _ _ _ _ _ _ _ _ _ k H Nk). exact H2. }
      rewrite E'. cbn [rbind]. eapply IH; [exact N'|exact H|]. intros j i Hj Hi. rewrite Eidx in Hi. apply Hc; [right; exact Hj|exact Hi].
  Qed.
End Replay.
