(** * Which Dirichlet process the collapsed sampler with the factory's mixing targets. *)
From Coq Require Import String.
From Coq Require Import Bool List Arith ZArith Reals Lra Lia Permutation.
From Verif Require Import Base Hier Algos Spec MargFacts NealFacts MargMore MargProps.
From Verif Require Import PartSpec XReal Mixings MixFacts GibbsSpec GibbsComb GibbsPost GibbsFacts GibbsSweep GibbsState.
From Verif Require Import Univ UnivFacts RealInst RealFacts.
Import ListNotations.
Local Open Scope R_scope.
Arguments sumR l : simpl never.

Lemma factory_strength : forall p s, dp_init p dp_make_shared = Ok s -> strength (MixDP p s) = Some (1, 0).
Proof.
  intros p s H. destruct p as [m|a b|]; simpl in H.
  - destruct (lteb m 0); [discriminate|]. injection H as <-. simpl. rewrite exp_0. reflexivity.
  - destruct (lteb a 0); [discriminate|]. destruct (lteb b 0); [discriminate|]. injection H as <-. simpl. rewrite exp_0. reflexivity.
  - discriminate.
Qed.

(** Whatever total mass is configured, the law left invariant is that of total mass 1. *)
Lemma factory_sweep_invariant : forall lg G p (data : list R) pick0 hy pr s0 is,
  gen_ok G -> valid hy -> dp_init pr dp_make_shared = Ok s0 -> (2 <= length data)%nat ->
  (forall i, In i is -> (i < length data)%nat) ->
  exists M,
    (forall ids theta, 0 < ls_var theta ->
       exp (nig_lpdf lg hy theta) * prodR (map (fun j => exp (norm_lpdf theta (nth j data 0))) ids) =
       M ids * exp (nig_lpdf lg (nnig_post hy (Z.of_nat (length ids)) (stats_of (pick data ids))) theta)) /\
    forall u, In u (clusterings (length data)) ->
    sumR (map (fun s => posterior (fun al => ewens_pitman 1 0 (sizes_of al)) M s *
                        sweep_prob (nnig_iface lg G p) xexp data (repeat tt (length data)) pick0 is
                          (rep_state (nnig_iface lg G p) data (repeat tt (length data)) hy (MixDP pr s0) s) u)
              (clusterings (length data)))
    = posterior (fun al => ewens_pitman 1 0 (sizes_of al)) M u.
Proof.
  intros lg G p data pick0 hy pr s0 is HG HV Hs Hn His.
  apply (nnig_sweep_invariant lg G p data pick0
    (rep_state (nnig_iface lg G p) data (repeat tt (length data)) hy (MixDP pr s0)) hy (MixDP pr s0)); auto; try lra.
  - apply factory_strength; auto.
  - intros s Hin. exact (rep_state_ok (nnig_iface lg G p) data (repeat tt (length data)) hy (MixDP pr s0) s Hin).
Qed.

Lemma prod_exp : forall theta (data : list R) ids,
  prodR (map (fun j => exp (norm_lpdf theta (nth j data 0))) ids) = exp (sumR (map (norm_lpdf theta) (pick data ids))).
Proof.
  intros theta data ids. unfold pick. rewrite map_map. induction ids as [|j l IH]; [unfold prodR, sumR; simpl; symmetry; apply exp_0|].
  cbn [map]. rewrite sumR_cons, exp_plus, <- IH. reflexivity.
Qed.

(** The Bayes identity determines the marginal likelihood. *)
Lemma marg_unique : forall lg hy (data : list R) M, valid hy ->
  (forall ids theta, 0 < ls_var theta ->
     exp (nig_lpdf lg hy theta) * prodR (map (fun j => exp (norm_lpdf theta (nth j data 0))) ids) =
     M ids * exp (nig_lpdf lg (nnig_post hy (Z.of_nat (length ids)) (stats_of (pick data ids))) theta)) ->
  forall ids, M ids = exp (log_marg lg hy (pick data ids)).
Proof.
  intros lg hy data M HV HM ids.
  assert (Hth : 0 < ls_var (mkLS 0 1)) by (simpl; lra).
  pose proof (HM ids _ Hth) as H. rewrite prod_exp, <- exp_plus, (nnig_bayes lg hy (pick data ids) _ HV Hth), exp_plus in H.
  replace (Z.of_nat (length ids)) with (cardZ (pick data ids)) in H by (unfold cardZ, pick; rewrite map_length; reflexivity).
  pose proof (exp_pos (nig_lpdf lg (nnig_post hy (cardZ (pick data ids)) (stats_of (pick data ids))) (mkLS 0 1))).
  apply Rmult_eq_reg_r in H; [auto|lra].
Qed.

Lemma ep2 : forall T, ewens_pitman T 0 [2]%nat = / (T + 1).
Proof.
  intros. unfold ewens_pitman, rising, prodR. cbn [length Nat.sub list_sum fold_right seq map Nat.add INR]. unfold Rdiv.
  rewrite Rplus_0_r. rewrite !Rmult_1_r, Rmult_1_l. rewrite Rminus_0_r, Rplus_0_r, Rmult_1_r. reflexivity.
Qed.
Lemma ep11 : forall T, ewens_pitman T 0 [1; 1]%nat = T / (T + 1).
Proof.
  intros. unfold ewens_pitman, rising, prodR. cbn [length Nat.sub list_sum fold_right seq map Nat.add INR]. unfold Rdiv.
  rewrite Rplus_0_r, !Rmult_1_r. rewrite Rmult_0_r, Rplus_0_r. reflexivity.
Qed.

(** Two observations: the law with the configured total mass is left invariant
    only if that mass is 1. *)
Lemma factory_two : forall lg G p x y pick0 hy T s0 M,
  gen_ok G -> valid hy -> dp_init (DPFixed T) dp_make_shared = Ok s0 ->
  (forall ids theta, 0 < ls_var theta ->
       exp (nig_lpdf lg hy theta) * prodR (map (fun j => exp (norm_lpdf theta (nth j [x; y] 0))) ids) =
       M ids * exp (nig_lpdf lg (nnig_post hy (Z.of_nat (length ids)) (stats_of (pick [x; y] ids))) theta)) ->
  ((forall u, In u (clusterings 2) ->
     sumR (map (fun s => posterior (fun al => ewens_pitman T 0 (sizes_of al)) M s *
                        sweep_prob (nnig_iface lg G p) xexp [x; y] (repeat tt 2) pick0 [0; 1]%nat
                          (rep_state (nnig_iface lg G p) [x; y] (repeat tt 2) hy (MixDP (DPFixed T) s0) s) u)
              (clusterings 2))
     = posterior (fun al => ewens_pitman T 0 (sizes_of al)) M u) <-> T = 1).
Proof.
  intros lg G p x y pick0 hy T s0 M HG HV Hs HM.
  pose proof (marg_unique lg hy [x; y] M HV HM) as EM.
  assert (HT : 0 < T).
  { simpl in Hs. destruct (lteb T 0) eqn:E; [discriminate|]. apply lteb_false in E. lra. }
  set (I := nnig_iface lg G p) in *.
  assert (HML : marginal_likelihood I [x; y] (repeat tt 2) xexp hy M).
  { destruct (nnig_marginal lg G p [x; y] hy HV) as (A1 & A2 & A3 & A4). split; [|split; [|split]].
    - intros; rewrite EM; auto.
    - intros; rewrite !EM; auto.
    - intros i d cv H1 H2. rewrite EM; apply (A3 i d cv H1 H2).
    - intros i d cv ids H1 H2 H3 H4 H5. rewrite !EM; apply (A4 i d cv ids H1 H2 H3 H4 H5). }
  assert (HS : forall s u, In s (clusterings 2) ->
    sweep_prob I xexp [x; y] (repeat tt 2) pick0 [0; 1]%nat
      (rep_state I [x; y] (repeat tt 2) hy (MixDP (DPFixed T) s0) s) u
    = conds (fun al => ewens_pitman 1 0 (sizes_of al)) M 2 [0; 1]%nat s u).
  { intros s u Hin.
    destruct (rep_state_ok I [x; y] (repeat tt 2) hy (MixDP (DPFixed T) s0) s Hin) as (H1 & H2 & H3 & H4 & H5 & H6).
    rewrite <- H6 at 2. apply sweep_closed with (n := 2%nat) || apply sweep_closed; auto.
    all: try solve [apply nnig_laws; auto | apply nnig_rows | intros; apply xexp_add | apply (ep_prior 1 0); lra].
    - intros rest Hr. apply (py_mass_at I xexp (MixDP (DPFixed T) s0) 2 1 0); try lra; auto.
      apply real_masses; try lra. apply factory_strength; auto.
    - intros i [<-|[<-|[]]]; simpl; lia.
    - split; [split; auto|auto]. }
  assert (P0 : forall pi, posterior pi M [0; 0]%nat = pi [0; 0]%nat * M [0; 1]%nat).
  { intros. unfold posterior. change (distinct [0; 0]%nat) with [0]%nat. cbn [map].
    change (members 0 [0; 0]%nat) with [0; 1]%nat. unfold prodR; cbn [fold_right]. ring. }
  assert (P1 : forall pi, posterior pi M [0; 1]%nat = pi [0; 1]%nat * (M [0]%nat * M [1]%nat)).
  { intros. unfold posterior. change (distinct [0; 1]%nat) with [0; 1]%nat. cbn [map].
    change (members 0 [0; 1]%nat) with [0]%nat. change (members 1 [0; 1]%nat) with [1]%nat.
    unfold prodR; cbn [fold_right]. ring. }
  set (m2 := M [0; 1]%nat) in *. set (m1 := M [0]%nat * M [1]%nat) in *.
  assert (Hm2 : 0 < m2) by (apply HML; discriminate).
  assert (Hm1 : 0 < m1) by (apply Rmult_lt_0_compat; apply HML; discriminate).
  assert (Q0 : forall t, posterior (fun al => ewens_pitman t 0 (sizes_of al)) M [0; 0]%nat = / (t + 1) * m2).
  { intros. rewrite P0. change (sizes_of [0; 0]%nat) with [2]%nat. rewrite ep2. reflexivity. }
  assert (Q1 : forall t, posterior (fun al => ewens_pitman t 0 (sizes_of al)) M [0; 1]%nat = t / (t + 1) * m1).
  { intros. rewrite P1. change (sizes_of [0; 1]%nat) with [1; 1]%nat. rewrite ep11. reflexivity. }
  assert (HC : forall i s u, (i < 2)%nat -> In s (clusterings 2) -> In u (clusterings 2) ->
     cond (fun al => ewens_pitman 1 0 (sizes_of al)) M 2 i s u =
     posterior (fun al => ewens_pitman 1 0 (sizes_of al)) M u / ((m2 + m1) / 2)).
  { intros i s u Hi Hin Hiu. unfold cond.
    assert (E : forall v, In v (clusterings 2) -> alike_off i s v = true).
    { intros v Hv. change (clusterings 2) with [[0; 0]; [0; 1]]%nat in Hin, Hv.
      destruct i as [|[|i]]; [| |lia]; destruct Hin as [<-|[<-|[]]]; destruct Hv as [<-|[<-|[]]]; reflexivity. }
    rewrite (E u Hiu). f_equal.
    assert (F : filter (alike_off i s) (clusterings 2) = [[0; 0]; [0; 1]]%nat).
    { change (clusterings 2) with [[0; 0]; [0; 1]]%nat in E |- *. cbn [filter].
      rewrite (E [0; 0]%nat) by (simpl; auto). rewrite (E [0; 1]%nat) by (simpl; auto). reflexivity. }
    rewrite F. cbn [map]. rewrite !sumR_cons, Q0, Q1. unfold sumR; simpl. field. }
  assert (HD : forall s u, In s (clusterings 2) -> In u (clusterings 2) ->
     conds (fun al => ewens_pitman 1 0 (sizes_of al)) M 2 [0; 1]%nat s u =
     posterior (fun al => ewens_pitman 1 0 (sizes_of al)) M u / ((m2 + m1) / 2)).
  { intros s u Hin Hiu. cbn [conds].
    rewrite (sumR_map_ext _ _ (fun x => posterior (fun al => ewens_pitman 1 0 (sizes_of al)) M x / ((m2 + m1) / 2) *
       (posterior (fun al => ewens_pitman 1 0 (sizes_of al)) M u / ((m2 + m1) / 2)))).
    - change (clusterings 2) with [[0; 0]; [0; 1]]%nat. cbn [map]. rewrite !sumR_cons, Q0, Q1. unfold sumR; simpl. field. lra.
    - intros v Hv. rewrite HC by auto. f_equal.
      rewrite (sumR_map_ext _ _ (fun x => if same x u then cond (fun al => ewens_pitman 1 0 (sizes_of al)) M 2 1 v x else 0)).
      2:{ intros z _. destruct (same z u); ring. }
      rewrite sumR_single by apply clusterings_nodup. destruct (in_dec _ u (clusterings 2)); [|contradiction].
      apply HC; auto. }
  assert (HX : forall u, In u (clusterings 2) ->
    sumR (map (fun s => posterior (fun al => ewens_pitman T 0 (sizes_of al)) M s *
                        sweep_prob I xexp [x; y] (repeat tt 2) pick0 [0; 1]%nat
                          (rep_state I [x; y] (repeat tt 2) hy (MixDP (DPFixed T) s0) s) u)
              (clusterings 2)) =
    (m2 + T * m1) / (T + 1) * (posterior (fun al => ewens_pitman 1 0 (sizes_of al)) M u / ((m2 + m1) / 2))).
  { intros u Hu.
    rewrite (sumR_map_ext _ _ (fun s => posterior (fun al => ewens_pitman T 0 (sizes_of al)) M s *
      (posterior (fun al => ewens_pitman 1 0 (sizes_of al)) M u / ((m2 + m1) / 2)))).
    - change (clusterings 2) with [[0; 0]; [0; 1]]%nat. cbn [map]. rewrite !sumR_cons, !Q0, !Q1. unfold sumR; simpl. field. lra.
    - intros s Hin. rewrite HS, HD by auto. reflexivity. }
  split.
  - intros H. specialize (H [0; 0]%nat ltac:(left; reflexivity)). rewrite HX, !Q0 in H by (left; reflexivity).
    assert (E : m2 * m1 * (T - 1) = 0).
    { replace (m2 * m1 * (T - 1)) with
        (((m2 + T * m1) / (T + 1) * (/ (1 + 1) * m2 / ((m2 + m1) / 2)) - / (T + 1) * m2) * ((T + 1) * (m2 + m1))) by (field; lra).
      rewrite H. ring. }
    assert (0 < m2 * m1) by (apply Rmult_lt_0_compat; auto). apply Rmult_integral in E. destruct E; lra.
  - intros -> u Hu. rewrite HX by auto. field. lra.
Qed.
