(** * The Student t density integrates to one. *)
From Coq Require Import Reals Lra Lia Psatz.
From Coquelicot Require Import Coquelicot.
From Verif Require Import GaussInt GammaInt.
Local Open Scope R_scope.

Lemma Gamma_ub : forall a e b, 0 < a -> 0 < e -> e <= b -> RInt (euler a) e b <= Gamma a.
Proof.
  intros a e b Ha He Hb. unfold Gamma. destruct (Rlt_dec 0 a) as [H|N]; [|contradiction].
  exact (proj2 (proj2_sig (half_ex (euler a) _ (euler_cont a) (fun t _ => Rlt_le _ _ (euler_pos a t)) (euler_bounded a H))) e b He Hb).
Qed.

Lemma Gamma_lb : forall a eps, 0 < a -> 0 < eps -> exists e0 b0, 0 < e0 < b0 /\
  forall e b, 0 < e -> e < e0 -> b0 < b -> Gamma a - eps < RInt (euler a) e b.
Proof.
  intros a eps Ha He. destruct (Gamma_int a Ha eps He) as (e0 & b0 & H0 & K). exists e0, b0. split; [exact H0|].
  intros e b H1 H2 H3. destruct (K e b H1 H2 H3) as (y & I & D). rewrite (is_RInt_unique _ _ _ _ I).
  apply Rabs_def2 in D. lra.
Qed.

Lemma euler_mono : forall a e b e' b', 0 < e' -> e' <= e -> e <= b -> b <= b' -> RInt (euler a) e b <= RInt (euler a) e' b'.
Proof.
  intros a e b e' b' H1 H2 H3 H4.
  rewrite <- (RInt_Chasles (V:=R_CompleteNormedModule) (euler a) e' e b') by (apply euler_int; lra).
  rewrite <- (RInt_Chasles (V:=R_CompleteNormedModule) (euler a) e b b') by (apply euler_int; lra).
  assert (0 <= RInt (euler a) e' e) by (apply RInt_ge_0; [lra|apply euler_int; lra|intros; apply Rlt_le, euler_pos]).
  assert (0 <= RInt (euler a) b b') by (apply RInt_ge_0; [lra|apply euler_int; lra|intros; apply Rlt_le, euler_pos]).
  change (RInt (euler a) e b <= RInt (euler a) e' e + (RInt (euler a) e b + RInt (euler a) b b')). lra.
Qed.

Lemma area_le : forall t, 0 <= t -> 0 <= area t <= sqrt PI / 2.
Proof.
  intros t Ht. pose proof (area_pos t Ht). split; [assumption|].
  pose proof (square_const t) as H1. rewrite comp_0 in H1. pose proof (comp_bounds t) as [H2 _].
  pose proof PI_RGT_0. pose proof (sqrt_pos PI). pose proof (sqrt_sqrt PI ltac:(lra)). nra.
Qed.

Lemma area_mono : forall x y, x <= y -> area x <= area y.
Proof.
  intros x y H. unfold area. rewrite <- (RInt_Chasles (V:=R_CompleteNormedModule) bell 0 x y) by apply bell_int.
  assert (0 <= RInt bell x y) by (apply RInt_ge_0; [lra|apply bell_int|intros; apply Rlt_le, exp_pos]).
  change (RInt bell 0 x <= RInt bell 0 x + RInt bell x y). lra.
Qed.

Section S.
  Variable s : R.
  Hypothesis Hs : 0 < s.

  Definition cau (z : R) : R := exp (- (s + 1 / 2) * ln (1 + z * z)).
  Definition kin (A t : R) : R := euler s t * area (A * sqrt t).
  Definition kd (A t : R) : R := euler s t * (sqrt t * bell (A * sqrt t)).

  Lemma kin_d1 : forall A t, is_derive (fun u => kin u t) A (kd A t).
  Proof.
    intros A t. unfold kin, kd.
    apply (is_derive_scal (fun u => area (u * sqrt t)) A (euler s t)).
    apply (is_derive_comp (K:=R_AbsRing) (V:=R_NormedModule) area (fun u => u * sqrt t) A (bell (A * sqrt t)) (sqrt t)).
    - apply area_derive.
    - auto_derive; [trivial|ring].
  Qed.

  Lemma area_cont : forall x, continuous area x.
  Proof. intro x. apply (ex_derive_continuous (K:=R_AbsRing) (V:=R_NormedModule)). eexists. apply area_derive. Qed.

  Lemma kin_cont : forall A t, 0 < t -> continuous (kin A) t.
  Proof.
    intros A t Ht. apply (ex_derive_continuous (K:=R_AbsRing) (V:=R_NormedModule)).
    apply (ex_derive_mult (euler s) (fun t => area (A * sqrt t))).
    - unfold euler. auto_derive. exact Ht.
    - apply (ex_derive_comp (K:=R_AbsRing) (V:=R_NormedModule) area (fun t => A * sqrt t)).
      + eexists. apply area_derive.
      + auto_derive. exact Ht.
  Qed.

  Lemma kin_int : forall A e b, 0 < e -> e <= b -> ex_RInt (kin A) e b.
  Proof. intros. apply (ex_RInt_continuous (V:=R_CompleteNormedModule)). intros z Hz. rewrite Rmin_left in Hz by lra. apply kin_cont. lra. Qed.

  Lemma kin_derive : forall e b A, 0 < e -> e <= b -> is_derive (fun A => RInt (kin A) e b) A (RInt (kd A) e b).
  Proof.
    intros e b A He Hb.
    replace (RInt (kd A) e b) with (RInt (fun t => Derive (fun u => kin u t) A) e b).
    2:{ apply RInt_ext. intros x _. apply is_derive_unique, kin_d1. }
    apply (is_derive_RInt_param kin e b A).
    - exists (mkposreal 1 Rlt_0_1). intros y _ x _. eexists. apply kin_d1.
    - intros t Ht. rewrite Rmin_left in Ht by lra.
      apply (continuity_2d_pt_ext kd). { intros u v. symmetry. apply is_derive_unique, kin_d1. }
      assert (C1 : continuity_2d_pt (fun _ v => euler s v) A t).
      { apply continuity_1d_2d_pt_comp with (f := euler s) (g := fun _ v => v); [|apply continuity_2d_pt_id2].
        apply continuity_pt_filterlim. apply euler_cont. lra. }
      assert (C2 : continuity_2d_pt (fun _ v => sqrt v) A t).
      { apply continuity_1d_2d_pt_comp with (f := sqrt) (g := fun _ v => v); [|apply continuity_2d_pt_id2].
        apply continuity_pt_sqrt. lra. }
      unfold kd. apply continuity_2d_pt_mult; [exact C1|]. apply continuity_2d_pt_mult; [exact C2|].
      apply continuity_1d_2d_pt_comp with (f := bell).
      + apply continuity_pt_filterlim. apply bell_cont.
      + apply continuity_2d_pt_mult; [apply continuity_2d_pt_id1|exact C2].
    - exists (mkposreal 1 Rlt_0_1). intros y _. now apply kin_int.
  Qed.

  Definition slice (e b A : R) : R := cau A * RInt (euler (s + 1 / 2)) ((1 + A * A) * e) ((1 + A * A) * b).

  Lemma kd_slice : forall e b A, 0 < e -> e <= b -> RInt (kd A) e b = slice e b A.
  Proof.
    intros e b A He Hb. set (r := 1 + A * A). assert (Hr : 0 < r) by (unfold r; nra).
    assert (I : is_RInt (euler (s + 1 / 2)) (r * e + 0) (r * b + 0) (RInt (euler (s + 1 / 2)) (r * e) (r * b))).
    { rewrite !Rplus_0_r. apply (RInt_correct (V:=R_CompleteNormedModule)), euler_int; nra. }
    apply (is_RInt_comp_lin (V:=R_NormedModule)) in I.
    apply (is_RInt_scal (V:=R_NormedModule) _ _ _ (cau A)) in I.
    change (slice e b A) with (scal (cau A) (RInt (euler (s + 1 / 2)) (r * e) (r * b))).
    apply (is_RInt_unique (V:=R_CompleteNormedModule)).
    refine (is_RInt_ext _ _ _ _ _ _ I). intros t Ht. rewrite Rmin_left in Ht by lra.
    change (cau A * (r * euler (s + 1 / 2) (r * t + 0)) = kd A t). rewrite Rplus_0_r.
    unfold kd, cau, euler, bell. fold r. rewrite ln_mult by lra.
    replace (A * sqrt t * (A * sqrt t)) with (A * A * t) by (rewrite <- (sqrt_sqrt t) at 1 by lra; ring).
    replace (sqrt t) with (exp (ln t / 2)).
    2:{ rewrite <- (sqrt_square (exp (ln t / 2))) by (left; apply exp_pos). rewrite <- exp_plus.
        replace (ln t / 2 + ln t / 2) with (ln t) by field. rewrite exp_ln by lra. reflexivity. }
    rewrite <- (exp_ln r Hr) at 2. rewrite <- !exp_plus. f_equal. unfold r at 4. field.
  Qed.

  Definition prim (x : R) : R := RInt (euler (s + 1 / 2)) 1 x.
  Lemma prim_derive : forall x, 0 < x -> is_derive prim x (euler (s + 1 / 2) x).
  Proof.
    intros x Hx. apply (is_derive_RInt (V:=R_CompleteNormedModule) (euler (s + 1 / 2)) prim 1).
    - exists (mkposreal (x / 2) ltac:(lra)). intros y Hy. apply (RInt_correct (V:=R_CompleteNormedModule)), euler_int; [lra|].
      change (Rabs (y - x) < x / 2) in Hy. apply Rabs_def2 in Hy. lra.
    - apply euler_cont, Hx.
  Qed.

  Lemma cau_derive : forall z, is_derive cau z (- (2 * (s + 1 / 2) * z / (1 + z * z)) * cau z).
  Proof. intro z. unfold cau. assert (0 < 1 + z * z) by nra. auto_derive; [lra|]. field. lra. Qed.
  Lemma cau_cont : forall z, continuous cau z.
  Proof. intro z. apply (ex_derive_continuous (K:=R_AbsRing) (V:=R_NormedModule)). eexists. apply cau_derive. Qed.
  Lemma cau_int : forall a b, ex_RInt cau a b.
  Proof. intros. apply (ex_RInt_continuous (V:=R_CompleteNormedModule)). intros; apply cau_cont. Qed.

  Lemma slice_prim : forall e b A, 0 < e -> e <= b -> slice e b A = cau A * (prim ((1 + A * A) * b) - prim ((1 + A * A) * e)).
  Proof.
    intros e b A He Hb. unfold slice, prim. f_equal.
    rewrite <- (RInt_Chasles (V:=R_CompleteNormedModule) (euler (s + 1 / 2)) 1 ((1 + A * A) * e) ((1 + A * A) * b)) by (apply euler_int; nra).
    assert (X : forall u v : R, u = v + u - v) by (intros; ring). apply X.
  Qed.

  Lemma slice_cont : forall e b A, 0 < e -> e <= b -> continuous (slice e b) A.
  Proof.
    intros e b A He Hb. apply (continuous_ext (fun A => cau A * (prim ((1 + A * A) * b) - prim ((1 + A * A) * e)))).
    { intro x. symmetry. now apply slice_prim. }
    assert (P : forall c, 0 < c -> ex_derive (fun A => prim ((1 + A * A) * c)) A).
    { intros c Hc. apply (ex_derive_comp (K:=R_AbsRing) (V:=R_NormedModule) prim (fun A => (1 + A * A) * c)).
      - eexists. apply prim_derive. nra.
      - auto_derive. trivial. }
    apply (ex_derive_continuous (K:=R_AbsRing) (V:=R_NormedModule)).
    apply (ex_derive_mult cau). { eexists. apply cau_derive. }
    apply (ex_derive_minus (K:=R_AbsRing) (V:=R_NormedModule)); apply P; lra.
  Qed.

  (** Exchange of the order of integration on a rectangle. *)
  Lemma swap : forall e b A, 0 < e -> e <= b -> is_RInt (slice e b) 0 A (RInt (kin A) e b).
  Proof.
    intros e b A He Hb.
    replace (RInt (kin A) e b) with (minus (RInt (kin A) e b) (RInt (kin 0) e b)).
    - apply (is_RInt_derive (V:=R_CompleteNormedModule) (fun A => RInt (kin A) e b) (slice e b)).
      + intros x _. rewrite <- kd_slice by assumption. now apply kin_derive.
      + intros x _. now apply slice_cont.
    - replace (RInt (kin 0) e b) with 0; [change (RInt (kin A) e b - 0 = RInt (kin A) e b); ring|].
      symmetry. rewrite (RInt_ext (V:=R_CompleteNormedModule) (kin 0) (fun _ => 0)).
      + rewrite (RInt_const (V:=R_CompleteNormedModule)). change ((b - e) * 0 = 0). ring.
      + intros t _. unfold kin, area. rewrite Rmult_0_l, RInt_point. change (euler s t * 0 = 0). ring.
  Qed.

  Definition tail (A : R) : R := RInt cau 0 A.
  Definition half_mass : R := sqrt PI / 2 * Gamma s / Gamma (s + 1 / 2).

  Lemma tail_upper : forall A, 0 <= A -> Gamma (s + 1 / 2) * tail A <= sqrt PI / 2 * Gamma s.
  Proof.
    intros A HA. pose proof (Gamma_pos (s + 1 / 2)) as G1. pose proof (Gamma_pos s) as G2.
    assert (T0 : 0 <= tail A) by (apply RInt_ge_0; [lra|apply cau_int|intros; apply Rlt_le, exp_pos]).
    apply Rnot_lt_le. intro N. set (gap := Gamma (s + 1 / 2) * tail A - sqrt PI / 2 * Gamma s) in *. assert (0 < gap) by (unfold gap; lra).
    set (d := gap / (2 * (tail A + 1))). assert (Hd : 0 < d) by (apply Rdiv_lt_0_compat; lra).
    destruct (Gamma_lb (s + 1 / 2) d ltac:(lra) Hd) as (e0 & b0 & [P1 P2] & K).
    assert (Hr : 0 < 1 + A * A) by nra.
    set (e := e0 / (2 * (1 + A * A))). assert (He : 0 < e) by (apply Rdiv_lt_0_compat; lra).
    assert (Ee : (1 + A * A) * e = e0 / 2) by (unfold e; field; lra).
    set (b := b0 + 1). assert (Hb : e <= b) by (unfold b; nra).
    assert (L1 : RInt (fun z => (Gamma (s + 1 / 2) - d) * cau z) 0 A <= RInt (slice e b) 0 A).
    { apply RInt_le; [exact HA| | |].
      - apply (ex_RInt_scal (V:=R_NormedModule)), cau_int.
      - eexists. now apply swap.
      - intros z Hz. unfold slice. rewrite Rmult_comm. apply Rmult_le_compat_l; [left; apply exp_pos|].
        left. eapply Rlt_le_trans; [apply (K ((1 + A * A) * e) b); rewrite ?Ee; unfold b; lra|]. apply euler_mono.
        + nra.
        + apply Rmult_le_compat_r; [lra|]. nra.
        + rewrite Ee. unfold b. lra.
        + assert (0 < b) by (unfold b; lra). nra. }
    rewrite (is_RInt_unique _ _ _ _ (swap e b A He Hb)) in L1.
    rewrite (RInt_scal (V:=R_CompleteNormedModule)) in L1 by apply cau_int.
    change ((Gamma (s + 1 / 2) - d) * tail A <= RInt (kin A) e b) in L1.
    assert (L2 : RInt (kin A) e b <= sqrt PI / 2 * RInt (euler s) e b).
    { change (sqrt PI / 2 * RInt (euler s) e b) with (scal (sqrt PI / 2) (RInt (euler s) e b)).
      rewrite <- (RInt_scal (V:=R_CompleteNormedModule)) by (apply euler_int; lra).
      apply RInt_le; [exact Hb|now apply kin_int|apply (ex_RInt_scal (V:=R_NormedModule)), euler_int; lra|].
      intros t Ht. change (kin A t <= sqrt PI / 2 * euler s t). unfold kin. rewrite Rmult_comm.
      apply Rmult_le_compat_r; [left; apply euler_pos|]. apply area_le. pose proof (sqrt_pos t). nra. }
    pose proof (Gamma_ub s e b Hs He Hb) as L3. pose proof (sqrt_pos PI).
    assert (L4 : d * tail A < gap).
    { assert (E : gap = d * (2 * (tail A + 1))) by (unfold d; field; lra). nra. }
    unfold gap in L4. nra.
  Qed.

  Lemma tail_lower : forall eps, 0 < eps -> exists A0, 0 < A0 /\ forall A, A0 < A -> sqrt PI / 2 * Gamma s - eps < Gamma (s + 1 / 2) * tail A.
  Proof.
    intros eps Heps. pose proof (Gamma_pos (s + 1 / 2)) as G1. pose proof (Gamma_pos s) as G2.
    pose proof (sqrt_lt_R0 PI PI_RGT_0) as Hp. set (S := sqrt PI / 2) in *. assert (HS : 0 < S) by (unfold S; lra).
    set (d := eps / (2 * (S + Gamma s))). assert (Hd : 0 < d) by (apply Rdiv_lt_0_compat; lra).
    assert (Ed : eps = d * (2 * (S + Gamma s))) by (unfold d; field; lra).
    destruct (Gamma_lb s d Hs Hd) as (e0 & b0 & [P1 P2] & K).
    set (e := e0 / 2). set (b := b0 + 1). assert (He : 0 < e) by (unfold e; lra). assert (Hb : e <= b) by (unfold e, b; lra).
    assert (K1 : Gamma s - d < RInt (euler s) e b) by (apply K; unfold e, b; lra).
    pose proof (Gamma_ub s e b Hs He Hb) as K2.
    pose proof area_lim as AL. apply is_lim_spec in AL. destruct (AL (mkposreal d Hd)) as (M & HM).
    pose proof (sqrt_lt_R0 e He) as Hse.
    exists (Rmax 0 M / sqrt e + 1). pose proof (Rmax_l 0 M). pose proof (Rmax_r 0 M). split.
    { assert (0 <= Rmax 0 M / sqrt e) by (apply Rmult_le_pos; [lra|left; now apply Rinv_0_lt_compat]). lra. }
    intros A HA.
    assert (HAe : M < A * sqrt e).
    { apply (Rmult_lt_compat_r (sqrt e)) in HA; [|exact Hse].
      replace ((Rmax 0 M / sqrt e + 1) * sqrt e) with (Rmax 0 M + sqrt e) in HA by (field; lra). lra. }
    assert (HA0 : 0 <= A). { assert (0 <= Rmax 0 M / sqrt e) by (apply Rmult_le_pos; [lra|left; now apply Rinv_0_lt_compat]). lra. }
    pose proof (HM _ HAe) as Ha. change (Rabs (area (A * sqrt e) - S) < d) in Ha. apply Rabs_def2 in Ha.
    pose proof (area_le (A * sqrt e) ltac:(nra)) as [Ha1 Ha2]. fold S in Ha2.
    assert (L1 : RInt (slice e b) 0 A <= RInt (fun z => Gamma (s + 1 / 2) * cau z) 0 A).
    { apply RInt_le; [exact HA0|eexists; now apply swap|apply (ex_RInt_scal (V:=R_NormedModule)), cau_int|].
      intros z Hz. unfold slice. rewrite Rmult_comm. apply Rmult_le_compat_r; [left; apply exp_pos|]. apply Gamma_ub; nra. }
    rewrite (is_RInt_unique _ _ _ _ (swap e b A He Hb)) in L1.
    rewrite (RInt_scal (V:=R_CompleteNormedModule)) in L1 by apply cau_int.
    change (RInt (kin A) e b <= Gamma (s + 1 / 2) * tail A) in L1.
    assert (L2 : area (A * sqrt e) * RInt (euler s) e b <= RInt (kin A) e b).
    { change (area (A * sqrt e) * RInt (euler s) e b) with (scal (area (A * sqrt e)) (RInt (euler s) e b)).
      rewrite <- (RInt_scal (V:=R_CompleteNormedModule)) by (apply euler_int; lra).
      apply RInt_le; [exact Hb|apply (ex_RInt_scal (V:=R_NormedModule)), euler_int; lra|now apply kin_int|].
      intros t Ht. change (area (A * sqrt e) * euler s t <= kin A t). unfold kin. rewrite Rmult_comm.
      apply Rmult_le_compat_l; [left; apply euler_pos|]. apply area_mono. apply Rmult_le_compat_l; [exact HA0|]. apply sqrt_le_1; lra. }
    set (a := area (A * sqrt e)) in *. set (g := RInt (euler s) e b) in *. set (G := Gamma s) in *.
    assert (Q1 : (S - a) * G <= d * G) by (apply Rmult_le_compat_r; lra).
    assert (Q2 : a * (G - g) <= S * d) by (apply Rmult_le_compat; lra).
    assert (Q3 : 0 < d * (S + G)) by (apply Rmult_lt_0_compat; lra).
    replace eps with (2 * (d * (S + G))) by (rewrite Ed; ring). lra.
  Qed.

  Lemma half_mass_pos : 0 < half_mass.
  Proof.
    unfold half_mass. pose proof (Gamma_pos (s + 1 / 2)). pose proof (Gamma_pos s). pose proof (sqrt_lt_R0 PI PI_RGT_0).
    apply Rdiv_lt_0_compat; nra.
  Qed.

  Lemma tail_lim : is_lim tail p_infty half_mass.
  Proof.
    apply is_lim_spec. intros eps. pose proof (Gamma_pos (s + 1 / 2)) as G1.
    destruct (tail_lower (Gamma (s + 1 / 2) * eps)) as (A0 & P & K). { pose proof (cond_pos eps). nra. }
    exists A0. intros A HA. specialize (K A HA). pose proof (tail_upper A ltac:(lra)) as U. unfold half_mass.
    set (c := sqrt PI / 2 * Gamma s) in *. set (G := Gamma (s + 1 / 2)) in *.
    assert (E : c = G * (c / G)) by (field; lra). rewrite E in K, U.
    apply Rabs_def1.
    - apply (Rmult_lt_reg_l G); [exact G1|]. pose proof (cond_pos eps). nra.
    - apply (Rmult_lt_reg_l G); [exact G1|]. nra.
  Qed.

  Lemma tail_odd : forall t, tail (- t) = - tail t.
  Proof.
    intros t. unfold tail. pose proof (RInt_comp_lin (V:=R_CompleteNormedModule) cau (-1) 0 0 t) as H.
    replace (-1 * 0 + 0) with 0 in H by ring. replace (-1 * t + 0) with (- t) in H by ring.
    rewrite <- H by apply cau_int.
    rewrite (RInt_ext (V:=R_CompleteNormedModule) _ (fun y => opp (cau y))).
    - rewrite (RInt_opp (V:=R_CompleteNormedModule)) by apply cau_int. reflexivity.
    - intros x _. unfold scal, opp; simpl; unfold mult; simpl. unfold cau.
      replace ((-1 * x + 0) * (-1 * x + 0)) with (x * x) by ring. ring.
  Qed.

  Lemma tail_lim_m : is_lim tail m_infty (- half_mass).
  Proof.
    apply (is_lim_ext (fun x => - tail (- x))).
    { intro x. rewrite tail_odd. ring. }
    change (Finite (- half_mass)) with (Rbar_opp (Finite half_mass)). apply is_lim_opp.
    apply (is_lim_comp tail (fun x => - x) m_infty half_mass p_infty); [apply tail_lim| |].
    - apply is_lim_spec. intro M. exists (- M). intros x Hx. lra.
    - exists 0. intros y _. discriminate.
  Qed.

  Lemma tail_derive : forall x, is_derive tail x (cau x).
  Proof.
    intros x. apply (is_derive_RInt (V:=R_CompleteNormedModule) cau tail 0).
    - exists (mkposreal 1 Rlt_0_1). intros y _. apply (RInt_correct (V:=R_CompleteNormedModule)), cau_int.
    - apply cau_cont.
  Qed.

  Lemma cau_mass : forall mu c, 0 < c -> is_line_int (fun y => cau ((y - mu) / c) / c) (2 * half_mass).
  Proof.
    intros mu c Hc. unfold is_line_int. replace (2 * half_mass) with (half_mass - - half_mass) by ring.
    assert (D : forall x, is_derive (fun y => tail ((y - mu) / c)) x (cau ((x - mu) / c) / c)).
    { intro x. evar_last.
      - apply (is_derive_comp (K:=R_AbsRing) (V:=R_NormedModule) tail (fun y => (y - mu) / c) x (cau ((x - mu) / c)) (/ c)); [apply tail_derive|].
        auto_derive; [trivial|field; lra].
      - unfold scal; simpl; unfold mult; simpl. field. lra. }
    apply (is_RInt_gen_ext (Derive (fun y => tail ((y - mu) / c)))).
    { apply filter_forall. intros ab x _. apply is_derive_unique, D. }
    apply is_RInt_gen_Derive.
    - apply filter_forall. intros ab x _. eexists. apply D.
    - apply filter_forall. intros ab x _. apply (continuous_ext (fun x => cau ((x - mu) / c) / c)); [intros; symmetry; apply is_derive_unique, D|].
      apply (ex_derive_continuous (K:=R_AbsRing) (V:=R_NormedModule)). unfold cau. pose proof (one_sq ((x + - mu) * / c)).
      auto_derive. lra.
    - change (is_lim (fun y => tail ((y - mu) / c)) m_infty (- half_mass)).
      apply (is_lim_comp tail (fun y => (y - mu) / c) m_infty (- half_mass) m_infty); [apply tail_lim_m| |].
      + apply is_lim_spec. intro M. exists (M * c + mu). intros x Hx. apply (Rmult_lt_reg_r c); [exact Hc|]. replace ((x - mu) / c * c) with (x - mu) by (field; lra). lra.
      + exists 0. intros y _. discriminate.
    - change (is_lim (fun y => tail ((y - mu) / c)) p_infty half_mass).
      apply (is_lim_comp tail (fun y => (y - mu) / c) p_infty half_mass p_infty); [apply tail_lim| |].
      + apply is_lim_spec. intro M. exists (M * c + mu). intros x Hx. apply (Rmult_lt_reg_r c); [exact Hc|]. replace ((x - mu) / c * c) with (x - mu) by (field; lra). lra.
      + exists 0. intros y _. discriminate.
  Qed.
End S.

From Verif Require Import Univ UnivFacts DistFacts UnivInt.

Lemma student_normalised : forall nu mu sigma, 0 < nu -> 0 < sigma ->
  is_line_int (fun y => exp (student_t_lpdf lgam y nu mu sigma)) 1.
Proof.
  intros nu mu sg Hn Hs. pose proof (sqrt_lt_R0 nu Hn) as Hq. pose proof PI_RGT_0 as HPI. pose proof (sqrt_lt_R0 PI HPI) as Hp.
  assert (Hc : 0 < sg * sqrt nu) by nra.
  pose proof (half_mass_pos (nu / 2)) as Hm.
  pose proof (line_scal _ (/ (2 * half_mass (nu / 2))) _ (cau_mass (nu / 2) ltac:(lra) mu (sg * sqrt nu) Hc)) as H.
  rewrite Rinv_l in H by lra. refine (line_ext _ _ _ _ H). intro y. cbn beta.
  unfold student_t_lpdf, cau, half_mass. replace (nu / 2 + 1 / 2) with ((nu + 1) / 2) by field.
  replace ((y - mu) / (sg * sqrt nu) * ((y - mu) / (sg * sqrt nu))) with ((y - mu) / sg * ((y - mu) / sg) / nu).
  2:{ rewrite <- (sqrt_sqrt nu) at 1 by lra. field. lra. }
  unfold Rminus. rewrite !exp_plus, !exp_Ropp, !exp_lgam, exp_ln by lra.
  assert (Hh : forall x, 0 < x -> exp (ln x / 2) = sqrt x).
  { intros x Hx. rewrite <- (sqrt_square (exp (ln x / 2))) by (left; apply exp_pos). rewrite <- exp_plus.
    replace (ln x / 2 + ln x / 2) with (ln x) by field. now rewrite exp_ln. }
  rewrite !Hh by lra. 
  set (L := ln _). replace (- ((nu + 1) / 2) * L) with (- ((nu + 1) / 2 * L)) by ring. rewrite exp_Ropp.
  pose proof (Gamma_pos ((nu + 1) / 2)). pose proof (Gamma_pos (nu / 2)). pose proof (exp_pos ((nu + 1) / 2 * L)).
  field. repeat split; lra.
Qed.
