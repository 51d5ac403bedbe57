(** * Facts about the density and the best clustering of a run *)
From Coq Require Import String.
From Coq Require Import List NArith ZArith Bool Reals Lia Lra.
From Verif Require Utils.
From Verif Require Import Base Hier Algos Run MargFacts NealFacts MargMore InitFacts MargProps ValidRun Schema Wire WireSpec WireInst P_Wire XReal Mixings MixFacts Univ UnivFacts UnivInit Settings RealInst RealFacts UnivInst UnivRun.
From Verif Require Import UtilsFacts Eval EvalFacts EvalInt GaussInt GammaInt DistFacts UnivInt P_MargInt P_Valid.
From Verif Require Import StateMsg StateMsgSpec StateMsgFacts Launch Program ProgramFacts ProgramSpec ProgramDens ProgramDensSpec.
Import ListNotations.
Local Open Scope string_scope.

(** ** Reading a kept state back *)
Lemma keep_same : forall dbl k (s : saved_state), (forall x, dbl x < 2 ^ 64)%N -> sized k -> keep (state_msg dbl k) = Ok s ->
  same (KMsg AS) (VMsg (state_msg dbl k)) (VMsg (proj1_sig s)).
Proof.
  intros dbl k s D (H1 & H2 & H3 & H4) E. pose proof (state_len dbl k) as L. unfold keep in E. fold AS in L.
  assert (B : (N.of_nat (length (serialize AS (state_msg dbl k))) < 2 ^ 31)%N) by lia.
  destruct (C132_round_trip AS (state_msg dbl k) (state_typed dbl D k H1 H2 H3) B) as (m' & E' & S & _). rewrite E' in E.
  unfold as_saved in E. destruct (bool_dec (sound m') true) as [X|X]; [|discriminate]. injection E as <-. exact S.
Qed.

Section Same.
  Variable num : N -> R.
  Lemma same_double : forall t m m' s n o b, same (KMsg t) (VMsg m) (VMsg m') -> In (mkField s n KDouble false o) (fields t) ->
    entries n m = [VDbl b] -> double_at num m' n = num b.
  Proof.
    intros t m m' s n o b S F E. inversion S as [| | |? ? ? Q]; subst. specialize (Q _ F). unfold reads in Q. cbn [frep fkind fnum] in Q. rewrite E in Q. unfold double_at.
    destruct (entries n m') as [|v l]; inversion Q as [|? ? ? ? A B]; subst; inversion A; subst; reflexivity.
  Qed.
  Lemma same_int32 : forall t m m' s n o z, same (KMsg t) (VMsg m) (VMsg m') -> In (mkField s n KInt32 false o) (fields t) ->
    entries n m = [VInt z] -> int_at m' n = z.
  Proof.
    intros t m m' s n o b S F E. inversion S as [| | |? ? ? Q]; subst. specialize (Q _ F). unfold reads in Q. cbn [frep fkind fnum] in Q. rewrite E in Q. unfold int_at.
    destruct (entries n m') as [|v l]; inversion Q as [|? ? ? ? A B]; subst; inversion A; subst; reflexivity.
  Qed.
  Lemma same_sub : forall t m m' s n o t' x, same (KMsg t) (VMsg m) (VMsg m') -> In (mkField s n (KMsg t') false o) (fields t) ->
    entries n m = [VMsg x] -> same (KMsg t') (VMsg x) (VMsg (sub_at m' n)).
  Proof.
    intros t m m' s n o t' x S F E. inversion S as [| | |? ? ? Q]; subst. specialize (Q _ F). unfold reads in Q. cbn [frep fkind fnum] in Q. rewrite E in Q. unfold sub_at.
    destruct (entries n m') as [|v l]; inversion Q as [|? ? ? ? A B]; subst. inversion A; subst. exact A.
  Qed.

  Ltac fld := vm_compute; tauto.
  Variable dbl : R -> N.
  Local Notation rnd := (fun x => num (dbl x)).

  Lemma cluster_back : forall c m, same (KMsg "AlgorithmState.ClusterState") (VMsg (cluster_msg dbl c)) (VMsg m) ->
    cluster_read num m = (mkLS (rnd (ls_mean (fst c))) (rnd (ls_var (fst c))), snd c).
  Proof.
    intros c m S. unfold cluster_read. cbn zeta.
    pose proof (same_sub _ _ _ "uni_ls_state" 1 (Some "val") "UniLSState" _ S ltac:(fld) eq_refl) as Q.
    rewrite (same_double _ _ _ "mean" 1 None _ Q ltac:(fld) eq_refl), (same_double _ _ _ "var" 2 None _ Q ltac:(fld) eq_refl).
    rewrite (same_int32 _ _ _ "cardinality" 3 None (snd c) S ltac:(fld) eq_refl). reflexivity.
  Qed.

  Lemma state_back : forall k m, same (KMsg AS) (VMsg (state_msg dbl k)) (VMsg m) ->
    clusters_read num m = k_clusters (back rnd k) /\ length (entries 2 m) = length (k_alloc k) /\
    match back_hyper rnd (k_hyp k) with HNig h => nig_read num m = h | HNxig h => nxig_read num m = h end /\
    match back_mixing rnd (k_mix k) with MixDP _ s => dp_read num m = dp_tot s | MixPY _ s => py_state_read num m = s end.
  Proof.
    intros k m S. destruct (state_entries dbl k) as (E1 & E2 & E3 & _ & E5). split; [|split; [|split]].
    - inversion S as [| | |? ? ? Q]; subst. specialize (Q (rep "cluster_states" 1 (KMsg "AlgorithmState.ClusterState")) ltac:(fld)).
      unfold reads in Q. cbn [frep fnum fkind rep] in Q. rewrite E1 in Q. unfold clusters_read. cbn [back k_clusters]. clear -Q.
      remember (map (fun c => VMsg (cluster_msg dbl c)) (k_clusters k)) as l eqn:E. revert E. generalize (k_clusters k).
      induction Q as [|x y l l' A B IH]; intros [|c cs] E; try discriminate; [reflexivity|]. injection E as -> ->. cbn [map]. rewrite (IH cs eq_refl).
      inversion A; subst. rewrite (cluster_back c m' A). reflexivity.
    - inversion S as [| | |? ? ? Q]; subst. specialize (Q (rep "cluster_allocs" 2 KInt32) ltac:(fld)). unfold reads in Q. cbn [frep fnum fkind rep] in Q. rewrite E2 in Q.
      clear -Q. remember (map (fun a => VInt (Z.of_nat a)) (k_alloc k)) as l eqn:E. apply (f_equal (@length val)) in E. rewrite map_length in E. rewrite <- E. clear E.
      induction Q as [|x y l l' A B IH]; [reflexivity|]. cbn [length]. rewrite IH. reflexivity.
    - pose proof (same_sub _ _ _ "hierarchy_hypers" 5 None "AlgorithmState.HierarchyHypers" _ S ltac:(fld) E5) as Q. destruct (k_hyp k) as [h|h]; cbn [back_hyper hypers_msg] in *.
      + pose proof (same_sub _ _ _ "nnig_state" 2 (Some "val") "NIGDistribution" _ Q ltac:(fld) eq_refl) as P. unfold nig_read. cbn zeta.
        rewrite (same_double _ _ _ "mean" 1 None _ P ltac:(fld) eq_refl), (same_double _ _ _ "var_scaling" 2 None _ P ltac:(fld) eq_refl),
          (same_double _ _ _ "shape" 3 None _ P ltac:(fld) eq_refl), (same_double _ _ _ "scale" 4 None _ P ltac:(fld) eq_refl). reflexivity.
      + pose proof (same_sub _ _ _ "nnxig_state" 5 (Some "val") "NxIGDistribution" _ Q ltac:(fld) eq_refl) as P. unfold nxig_read. cbn zeta.
        rewrite (same_double _ _ _ "mean" 1 None _ P ltac:(fld) eq_refl), (same_double _ _ _ "var" 2 None _ P ltac:(fld) eq_refl),
          (same_double _ _ _ "shape" 3 None _ P ltac:(fld) eq_refl), (same_double _ _ _ "scale" 4 None _ P ltac:(fld) eq_refl). reflexivity.
    - pose proof (same_sub _ _ _ "mixing_state" 3 None "MixingState" _ S ltac:(fld) E3) as Q. destruct (k_mix k) as [p s|p s]; cbn [back_mixing mixing_msg] in *.
      + pose proof (same_sub _ _ _ "dp_state" 1 (Some "state") "DPState" _ Q ltac:(fld) eq_refl) as P. unfold dp_read. exact (same_double _ _ _ "totalmass" 1 None _ P ltac:(fld) eq_refl).
      + pose proof (same_sub _ _ _ "py_state" 2 (Some "state") "PYState" _ Q ltac:(fld) eq_refl) as P. unfold py_state_read. cbn zeta.
        rewrite (same_double _ _ _ "strength" 1 None _ P ltac:(fld) eq_refl), (same_double _ _ _ "discount" 2 None _ P ltac:(fld) eq_refl). reflexivity.
  Qed.
End Same.

(** ** Cardinalities *)
Lemma counts_sum : forall labels s K, (forall c, In c labels -> s <= c < s + K)%nat ->
  fold_right Z.add 0%Z (map (fun c => Z.of_nat (count_occ Nat.eq_dec labels c)) (seq s K)) = Z.of_nat (length labels).
Proof.
  induction labels as [|x l IH]; intros s K H.
  - cbn [count_occ length]. generalize (seq s K). induction l as [|y l IH]; [reflexivity|]. cbn [map fold_right]. rewrite IH. reflexivity.
  - specialize (IH s K (fun c I => H c (or_intror I))). specialize (H x (or_introl eq_refl)). cbn [length]. rewrite Nat2Z.inj_succ, <- IH. clear IH. revert s H.
    induction K as [|K IHK]; intros s H; [lia|]. cbn [seq map fold_right]. destruct (Nat.eq_dec x s) as [->|N].
    + cbn [count_occ]. destruct (Nat.eq_dec s s) as [_|C]; [|congruence]. rewrite Nat2Z.inj_succ.
      assert (E : map (fun c => Z.of_nat (count_occ Nat.eq_dec (s :: l) c)) (seq (S s) K) = map (fun c => Z.of_nat (count_occ Nat.eq_dec l c)) (seq (S s) K)).
      { apply map_ext_in. intros c I. apply in_seq in I. cbn [count_occ]. destruct (Nat.eq_dec s c); [lia|reflexivity]. }
      cbn [count_occ] in E. rewrite E. lia.
    + rewrite (IHK (S s)) by lia. rewrite (count_occ_cons_neq Nat.eq_dec l (x := x) (y := s)) by congruence. lia.
Qed.

Lemma nth_map_seq : forall A B (f : nat -> B) (g : A -> B) (l : list A), (forall c p, nth_error l c = Some p -> g p = f c) -> map g l = map f (seq 0 (length l)).
Proof.
  intros A B f g l H. apply list_ext; [rewrite !map_length, seq_length; reflexivity|]. intros i Hi. rewrite map_length in Hi. destruct (at_ok l Hi) as (p & _ & E).
  rewrite (map_nth_error _ _ _ E), (nth_error_map_seq _ f) by exact Hi. rewrite (H _ _ E). reflexivity.
Qed.

Lemma clustering_saved : forall (S M : Type) n labels (clusters : list (S * Z)) (m : M), saved_clustering n labels clusters -> saved_ok S (mkSaved n clusters m).
Proof.
  intros S M n labels clusters m (L & H & C). split; cbn [sv_clusters sv_n].
  - intros p I. apply In_nth_error in I as (c & E). rewrite (C _ _ E). assert (J : In c labels) by (apply H, nth_error_Some; congruence).
    apply (count_occ_In Nat.eq_dec) in J. lia.
  - rewrite (nth_map_seq _ _ _ snd clusters C), counts_sum, L; [reflexivity|]. intros c I. apply H in I. lia.
Qed.
Lemma clustering_nonempty : forall (S : Type) n labels (clusters : list (S * Z)), (1 <= n)%nat -> saved_clustering n labels clusters -> clusters <> [].
Proof. intros S n labels clusters Hn (L & H & _) ->. destruct labels as [|x l]; [cbn in L; lia|]. specialize (proj1 (H x) (or_introl eq_refl)). cbn. lia. Qed.

(** ** The kind of mixing stays *)
Definition same_kind (q : mixing_prior) (m : mixing) : Prop :=
  match q, m with PriDP _, MixDP _ _ => True | PriPY _, MixPY _ _ => True | _, _ => False end.
Lemma start_kind : forall q m, mixing_start q = Ok m -> same_kind q m.
Proof. intros [p|p] m E; cbn [mixing_start] in E; apply rbind_ok in E as (s & _ & E); injection E as <-; exact Logic.I. Qed.
Lemma update_kind : forall G q m cards al r m' r', same_kind q m -> mixing_update G m cards al r = Ok (m', r') -> same_kind q m'.
Proof.
  intros G q m cards al r m' r' V E. destruct m as [p s|p s]; cbn [mixing_update] in E.
  - destruct p as [t|a b|].
    + apply rbind_ok in E as (s' & _ & E) || idtac. injection E as <- <-. exact V.
    + destruct (g_gamma G (dp_tot s + 1) (INR (length al)) r) as [phi r1]. destruct (g_unif G 0 1 r1) as [u r2].
      match type of E with context [g_gamma G ?x ?y r2] => destruct (g_gamma G x y r2) as [v r3] end.
      apply rbind_ok in E as (s' & _ & E). injection E as <- <-. exact V.
    + discriminate.
  - apply rbind_ok in E as (s' & _ & E). injection E as <- <-. exact V.
Qed.

Lemma closed_kind : forall (I : Iface) data covs GH GS (GM : Mix I -> Prop) (K : Mix I -> Prop),
  (forall m cards al r m' r', K m -> mix_update I m cards al r = Ok (m', r') -> K m') ->
  closed I data covs GH GS GM -> closed I data covs GH GS (fun m => GM m /\ K m).
Proof.
  intros I data covs GH GS GM K HK [A B C D E F]. constructor; try assumption. intros m cards al r m' r' [V1 V2] H1 H2 H3. split; [eapply F; eauto|eapply HK; eauto].
Qed.

Lemma sampled_kinds : forall G seeded pos ls0 a ys p q ks, gen_ok G -> gen_pos G -> (forall k i, 0 < k -> pos k i < k)%nat -> in_range a (length ys) ->
  sampled lgam G seeded pos ls0 a ys p q ks ->
  forall k, In k ks -> same_kind q (k_mix k) /\ match p with UNig _ => exists h, k_hyp k = HNig h | UNxig _ => exists h, k_hyp k = HNxig h end.
Proof.
  intros G seeded pos ls0 a ys p q ks HG HP Hpos (Hn & Hk & _ & Ha) S.
  assert (H2 : (2 <= length ys)%nat) by lia. assert (H1 : (1 <= length ys)%nat) by lia.
  assert (F : fits (N.to_nat (as_init a)) (pos (if as_init a =? 0 then length ys else N.to_nat (as_init a))%N) (length ys)).
  { split; [lia|]. intro i. replace (N.to_nat (as_init a) =? 0)%nat with (as_init a =? 0)%N by (destruct (N.eqb_spec (as_init a) 0) as [->|Z]; [reflexivity|symmetry; apply Nat.eqb_neq; lia]).
    destruct (N.eqb_spec (as_init a) 0); apply Hpos; lia. }
  destruct F as [Fk Fp].
  assert (T : forall (I : Iface) (st : St I -> uni_ls) (hyp : Hyp I -> uni_hyper) (mix : Mix I -> mixing) out ks, Forall2 (keeps st hyp mix) out ks ->
     (forall s, In s out -> same_kind q (mix (s_mix s))) -> forall k, In k ks -> same_kind q (k_mix k) /\ exists h, k_hyp k = hyp h).
  { clear. intros I st hyp mix out ks K. induction K as [|s k out ks (_ & _ & E1 & E2 & _) K IH]; intros H x []; [subst x|apply IH; [intros y J; apply H; now right|assumption]].
    split; [rewrite E2; apply H; now left|eexists; exact E1]. }
  destruct S as [p q s out ks Na R K|p q s out ks Na R K|p q s out ks Na R K|p q s out ks Na R K].
  - unfold neal2_run, start in R.
    destruct (mixing_start q) as [m| | |] eqn:Em; [|unfold run in R; cbn [rbind] in R; discriminate..]. destruct (nig_init p) as [hy| | |] eqn:Eh; [|unfold run in R; cbn [rbind] in R; discriminate..]. cbn [rbind] in R.
    destruct (@neal2_saved (nnig_iface lgam G p) (nnig_laws lgam G p HG) ys (repeat tt (length ys)) (nnig_rows lgam G p ys) valid ls_valid (fun m => mixing_valid m /\ same_kind q m)
      (closed_kind (nnig_iface lgam G p) _ _ _ _ _ _ (update_kind G q) (nnig_closed lgam G p ys HP (nig_prior_checked p hy Eh))) (fun m Hm => mixing_masses m _ (proj1 Hm)) hy m _ _
      (mkHier (nnig_iface lgam G p) [] 0%Z norm_stats0 ls0 false None) (nig_init_valid p hy Eh) (Logic.conj (mixing_start_valid q m Em) (start_kind q m Em)) Fk Fp ltac:(discriminate) ltac:(discriminate)
      _ _ _ s out H2 R) as [_ V].
    intros k J. destruct (T (nnig_iface lgam G p) (fun x => x) HNig (fun x => x) out ks K (fun x Jx => proj2 (proj1 (proj2 (proj2 (V x Jx))))) k J) as [A (h & B)]. split; [exact A|exists h; exact B].
  - unfold neal3_run, start in R.
    destruct (mixing_start q) as [m| | |] eqn:Em; [|unfold run in R; cbn [rbind] in R; discriminate..]. destruct (nig_init p) as [hy| | |] eqn:Eh; [|unfold run in R; cbn [rbind] in R; discriminate..]. cbn [rbind] in R.
    destruct (@neal3_saved (nnig_iface lgam G p) (nnig_laws lgam G p HG) ys (repeat tt (length ys)) (nnig_rows lgam G p ys) valid ls_valid (fun m => mixing_valid m /\ same_kind q m)
      (closed_kind (nnig_iface lgam G p) _ _ _ _ _ _ (update_kind G q) (nnig_closed lgam G p ys HP (nig_prior_checked p hy Eh))) (fun m Hm => mixing_masses m _ (proj1 Hm)) hy m _ _
      (mkHier (nnig_iface lgam G p) [] 0%Z norm_stats0 ls0 false None) (nig_init_valid p hy Eh) (Logic.conj (mixing_start_valid q m Em) (start_kind q m Em)) Fk Fp ltac:(discriminate) ltac:(discriminate)
      _ _ _ s out eq_refl eq_refl H2 R) as [_ V].
    intros k J. destruct (T (nnig_iface lgam G p) (fun x => x) HNig (fun x => x) out ks K (fun x Jx => proj2 (proj1 (proj2 (proj2 (V x Jx))))) k J) as [A (h & B)]. split; [exact A|exists h; exact B].
  - assert (X : (1 <= N.to_nat (as_n_aux a))%nat) by (specialize (Ha Na); lia). unfold neal8_run, start in R.
    destruct (mixing_start q) as [m| | |] eqn:Em; [|unfold run in R; cbn [rbind] in R; discriminate..]. destruct (nig_init p) as [hy| | |] eqn:Eh; [|unfold run in R; cbn [rbind] in R; discriminate..]. cbn [rbind] in R.
    destruct (@neal8_saved (nnig_iface lgam G p) (nnig_laws lgam G p HG) ys (repeat tt (length ys)) (nnig_rows lgam G p ys) valid ls_valid (fun m => mixing_valid m /\ same_kind q m)
      (closed_kind (nnig_iface lgam G p) _ _ _ _ _ _ (update_kind G q) (nnig_closed lgam G p ys HP (nig_prior_checked p hy Eh))) (fun m Hm => mixing_masses m _ (proj1 Hm)) hy m _ _
      (mkHier (nnig_iface lgam G p) [] 0%Z norm_stats0 ls0 false None) (nig_init_valid p hy Eh) (Logic.conj (mixing_start_valid q m Em) (start_kind q m Em)) Fk Fp ltac:(discriminate) ltac:(discriminate)
      _ _ _ _ s out X H1 R) as [_ V].
    intros k J. destruct (T (nnig_iface lgam G p) (fun x => x) HNig (fun x => x) out ks K (fun x Jx => proj2 (proj1 (proj2 (proj2 (V x Jx))))) k J) as [A (h & B)]. split; [exact A|exists h; exact B].
  - assert (X : (1 <= N.to_nat (as_n_aux a))%nat) by (specialize (Ha Na); lia). unfold neal8_run, start in R.
    destruct (mixing_start q) as [m| | |] eqn:Em; [|unfold run in R; cbn [rbind] in R; discriminate..]. destruct (nxig_init p) as [hy| | |] eqn:Eh; [|unfold run in R; cbn [rbind] in R; discriminate..]. cbn [rbind] in R.
    destruct (@neal8_saved (nnxig_iface G) (nnxig_laws G HG) ys (repeat tt (length ys)) (nnxig_rows G ys) nx_valid ls_valid (fun m => mixing_valid m /\ same_kind q m)
      (closed_kind (nnxig_iface G) _ _ _ _ _ _ (update_kind G q) (nnxig_closed G ys HP)) (fun m Hm => mixing_masses m _ (proj1 Hm)) hy m _ _
      (mkHier (nnxig_iface G) [] 0%Z norm_stats0 ls0 false None) (nxig_init_valid p hy Eh) (Logic.conj (mixing_start_valid q m Em) (start_kind q m Em)) Fk Fp ltac:(discriminate) ltac:(discriminate)
      _ _ _ _ s out X H1 R) as [_ V].
    intros k J. destruct (T (nnxig_iface G) (fun x => x) HNxig (fun x => x) out ks K (fun x Jx => proj2 (proj1 (proj2 (proj2 (V x Jx))))) k J) as [A (h & B)]. split; [exact A|exists h; exact B].
Qed.

(** ** One row *)
Local Open Scope R_scope.

Lemma gauss_value : forall s x, 0 < ls_var s -> exp (norm_lpdf s x) = gauss s x.
Proof.
  intros s x H. rewrite norm_lpdf_eq by exact H. unfold gauss. pose proof PI_RGT_0 as HP. set (v := ls_var s) in *.
  replace (- sq (x - ls_mean s) / (2 * v) - ln v / 2 - ln (2 * PI) / 2) with (- (/ 2 * ln (2 * PI * v)) + - ((x - ls_mean s) * (x - ls_mean s)) / (2 * v)).
  - rewrite exp_plus, exp_Ropp. f_equal. f_equal. rewrite <- (Rpower_sqrt (2 * PI * v)) by nra. reflexivity.
  - rewrite (ln_mult (2 * PI) v) by lra. unfold sq. field. lra.
Qed.
Lemma gauss_pos : forall s x, 0 < ls_var s -> 0 < gauss s x.
Proof. intros s x H. rewrite <- gauss_value by exact H. apply exp_pos. Qed.

Lemma xexp_fin : forall v d, xexp v = d -> 0 < d -> v = Fin (ln d).
Proof. intros [|y] d E P; cbn [xexp] in E; [lra|rewrite <- E, ln_exp; reflexivity]. Qed.

Lemma mixture_zip : forall (A : Type) (g h : A -> R) l, mixture (map g l) (map h l) = fold_right Rplus 0 (map (fun c => g c * h c) l).
Proof. intros A g h l. unfold mixture, total. induction l as [|c l IH]; [reflexivity|]. cbn [map combine fold_right fst snd]. rewrite IH. reflexivity. Qed.

Lemma sum_ext : forall (A : Type) (g h : A -> R) l, (forall c, In c l -> g c = h c) -> fold_right Rplus 0 (map g l) = fold_right Rplus 0 (map h l).
Proof. intros A g h l H. rewrite (map_ext_in g h l H). reflexivity. Qed.
Lemma sum_nonneg : forall (A : Type) (g : A -> R) l, (forall c, In c l -> 0 <= g c) -> 0 <= fold_right Rplus 0 (map g l).
Proof. intros A g l H. induction l as [|c l IH]; cbn [map fold_right]; [lra|]. pose proof (H c (or_introl eq_refl)). specialize (IH (fun x I => H x (or_intror I))). lra. Qed.

Definition hyper_ok (h : uni_hyper) : Prop := match h with HNig h => valid h | HNxig h => nx_valid h end.
Lemma kept_parts : forall n k, kept_ok n k -> saved_clustering n (k_alloc k) (k_clusters k) /\ hyper_ok (k_hyp k) /\ mixing_valid (k_mix k) /\
  (forall p, In p (k_clusters k) -> 0 < ls_var (fst p)).
Proof. intros n k H. unfold kept_ok in H. destruct (k_hyp k); exact H. Qed.

Lemma Forall2_map_fin : forall (d : R -> R) grid out, (forall x, 0 < d x) -> Forall2 (fun x v => xexp v = d x) grid out -> out = map (fun x => Fin (ln (d x))) grid.
Proof. intros d grid out P H. induction H as [|x v grid out E H IH]; [reflexivity|]. cbn [map]. rewrite <- IH. f_equal. apply xexp_fin; auto. Qed.

Lemma row_value : forall n k f comp, (1 <= n)%nat -> kept_ok n k -> (forall x, xexp (comp x) = f x) -> (forall x, 0 < f x) ->
  evaluated_density (fin_like norm_lpdf) comp n (k_clusters k) (k_mix k) ->
  (forall x, 0 < mixture_density k f x) /\ is_line_int (mixture_density k f) 1 /\
  match k_mix k with
  | MixDP _ s => forall grid o, exists o', marg_eval (fin_like norm_lpdf) dp_mixer [mkLS 0 0] comp (mkSaved n (k_clusters k) (dp_tot s)) grid o = Ok (map (fun x => Fin (ln (mixture_density k f x))) grid, o')
  | MixPY _ s => forall grid o, exists o', marg_eval (fin_like norm_lpdf) py_mixer [mkLS 0 0] comp (mkSaved n (k_clusters k) s) grid o = Ok (map (fun x => Fin (ln (mixture_density k f x))) grid, o')
  end.
Proof.
  intros n k f comp Hn V Ec Pf Ev. destruct (kept_parts n k V) as (C & _ & M & A). pose proof C as (Ln & _).
  pose proof (clustering_nonempty _ _ _ _ Hn C) as Ne.
  assert (Card : forall c, In c (k_clusters k) -> 1 <= IZR (snd c)) by (intros c I; apply IZR_le; exact (proj1 (clustering_saved _ unit _ _ _ tt C) c I)).
  assert (Hr : 1 <= INR n) by (change 1 with (INR 1); apply le_INR; exact Hn).
  destruct (Ev [mkLS 0 0] ltac:(discriminate)) as (dens & Ld & D). clear Ev.
  assert (Wn : 0 < weight_new k /\ forall c, In c (k_clusters k) -> 0 <= weight k (snd c)).
  { unfold weight_new, weight. rewrite Ln. destruct (k_mix k) as [p s|p s]; cbn [mixing_valid] in M.
    - destruct M as (M & _). split; [apply Rdiv_lt_0_compat; lra|]. intros c I. specialize (Card c I). apply Rlt_le, Rdiv_lt_0_compat; lra.
    - destruct M as (M1 & M2). assert (K1 : 1 <= INR (length (k_clusters k))). { destruct (k_clusters k) as [|c l]; [congruence|]. cbn [length]. rewrite S_INR. pose proof (pos_INR (length l)). lra. }
      split; [apply Rdiv_lt_0_compat; nra|]. intros c I. specialize (Card c I). apply Rlt_le, Rdiv_lt_0_compat; lra. }
  destruct Wn as [Wn We].
  assert (P : forall x, 0 < mixture_density k f x).
  { intro x. unfold mixture_density. apply Rplus_le_lt_0_compat; [|apply Rmult_lt_0_compat; auto]. apply sum_nonneg. intros c I. apply Rmult_le_pos; [auto|]. apply Rlt_le, gauss_pos. auto. }
  assert (Q : forall (w : Z -> R) x, (forall c, In c (k_clusters k) -> w (snd c) = weight k (snd c)) ->
    mixture (map (fun p => w (snd p)) (k_clusters k)) (map (fun p => xexp (fin_like norm_lpdf (fst p) x)) (k_clusters k)) =
    fold_right Rplus 0 (map (fun c => weight k (snd c) * gauss (fst c) x) (k_clusters k))).
  { intros w x Hw. rewrite (mixture_zip _ (fun p => w (snd p)) (fun p => xexp (fin_like norm_lpdf (fst p) x))). apply sum_ext. intros c I. rewrite (Hw c I). f_equal. cbn [fin_like xexp]. apply gauss_value. auto. }
  split; [exact P|].
  assert (G : match k_mix k with
    | MixDP _ s => forall grid o, exists o', marg_eval (fin_like norm_lpdf) dp_mixer [mkLS 0 0] comp (mkSaved n (k_clusters k) (dp_tot s)) grid o = Ok (map (fun x => Fin (ln (mixture_density k f x))) grid, o')
    | MixPY _ s => forall grid o, exists o', marg_eval (fin_like norm_lpdf) py_mixer [mkLS 0 0] comp (mkSaved n (k_clusters k) s) grid o = Ok (map (fun x => Fin (ln (mixture_density k f x))) grid, o')
    end).
  { destruct (k_mix k) as [p s|p s] eqn:Em; cbn [mixing_valid] in M.
    - intros grid o. destruct (dp_density _ _ (fin_like norm_lpdf) [mkLS 0 0] comp (mkSaved n (k_clusters k) (dp_tot s)) grid o ltac:(discriminate) (clustering_saved _ _ _ _ _ _ C) (proj1 M)) as (out & E & F & _).
      eexists. rewrite E. enough (Eo : out = map (fun x => Fin (ln (mixture_density k f x))) grid) by (rewrite <- Eo; reflexivity). apply (Forall2_map_fin (mixture_density k f)); [exact P|]. cbn [sv_n sv_mix sv_clusters] in F. clear E. induction F as [|x v grid out Fx F IH]; constructor; [|exact IH].
      unfold density_of in Fx. rewrite Fx, Ec. unfold mixture_density. rewrite (Q (fun z => IZR z / (INR n + dp_tot s))).
      + f_equal. unfold weight_new. rewrite Em, Ln. reflexivity.
      + intros c _. unfold weight. rewrite Em, Ln. reflexivity.
    - intros grid o. destruct (py_density _ _ (fin_like norm_lpdf) [mkLS 0 0] comp (mkSaved n (k_clusters k) s) grid o ltac:(discriminate) (clustering_saved _ _ _ _ _ _ C) (proj1 M) (proj2 M) Ne) as (out & E & F & _).
      eexists. rewrite E. enough (Eo : out = map (fun x => Fin (ln (mixture_density k f x))) grid) by (rewrite <- Eo; reflexivity). apply (Forall2_map_fin (mixture_density k f)); [exact P|]. cbn [sv_n sv_mix sv_clusters] in F. clear E. induction F as [|x v grid out Fx F IH]; constructor; [|exact IH].
      unfold density_of in Fx. rewrite Fx, Ec. unfold mixture_density. rewrite (Q (fun z => (IZR z - py_dis s) / (INR n + py_str s))).
      + f_equal. unfold weight_new. rewrite Em, Ln. reflexivity.
      + intros c _. unfold weight. rewrite Em, Ln. reflexivity. }
  split; [|exact G]. apply (line_ext dens); [|exact Ld]. intro x. destruct (k_mix k) as [p s|p s].
  - destruct (D [x] dp_make_shared) as (out & o' & E & F). destruct (G [x] dp_make_shared) as (o2 & E2). rewrite E2 in E. injection E as <- _. cbn [map xexp] in F. injection F as F. rewrite <- F. apply exp_ln, P.
  - destruct (D [x] s) as (out & o' & E & F). destruct (G [x] s) as (o2 & E2). rewrite E2 in E. injection E as <- _. cbn [map xexp] in F. injection F as F. rewrite <- F. apply exp_ln, P.
Qed.

(** ** The component of a new cluster *)
Definition algo_name (k : algo_kind) : string := match k with N2 => "Neal2" | N3 => "Neal3" | N8 => "Neal8" end.

Definition good_object (o : object) : Prop :=
  as_id (o_set o) = algo_name (o_algo o) /\ (o_algo o = N8 -> (1 <= as_n_aux (o_set o))%N) /\
  match o_hier o with UNig _ => True | UNxig _ => o_algo o = N8 end.

Lemma average_pos : forall l, l <> [] -> (forall x, In x l -> 0 < x) -> 0 < average l.
Proof.
  intros l N P. unfold average. apply Rdiv_lt_0_compat; [|apply lt_0_INR; destruct l; [congruence|cbn; lia]].
  destruct l as [|x l]; [congruence|]. cbn [fold_right]. pose proof (P x (or_introl eq_refl)).
  assert (0 <= fold_right Rplus 0 l); [|lra]. rewrite <- (map_id l). apply sum_nonneg. intros y I. apply Rlt_le, P. now right.
Qed.

Lemma aux_row : forall n k a (draws : nat -> uni_hyper -> uni_ls), (1 <= n)%nat -> kept_ok n k -> as_id a = "Neal8" -> (1 <= as_n_aux a)%N -> (forall j, 0 < ls_var (draws j (k_hyp k))) ->
  exists f, alone a draws k f /\ (forall x, xexp (aux_component (fin_like norm_lpdf) (map (fun j => draws j (k_hyp k)) (seq 0 (N.to_nat (as_n_aux a)))) x) = f x) /\ (forall x, 0 < f x) /\
    evaluated_density (fin_like norm_lpdf) (aux_component (fin_like norm_lpdf) (map (fun j => draws j (k_hyp k)) (seq 0 (N.to_nat (as_n_aux a))))) n (k_clusters k) (k_mix k).
Proof.
  intros n k a draws Hn V Na Ha Hd. destruct (kept_parts n k V) as (C & _ & M & A). set (l := map (fun j => draws j (k_hyp k)) (seq 0 (N.to_nat (as_n_aux a)))).
  assert (Nl : l <> []). { unfold l. destruct (N.to_nat (as_n_aux a)) eqn:E; [lia|discriminate]. }
  assert (Pl : forall s, In s l -> 0 < ls_var s). { intros s I. apply in_map_iff in I as (j & <- & _). apply Hd. }
  exists (fun x => average (map (fun j => gauss (draws j (k_hyp k)) x) (seq 0 (N.to_nat (as_n_aux a))))). split; [apply alone_average; [exact Na|reflexivity]|]. split; [|split].
  - intro x. rewrite aux_average by exact Nl. unfold average, l, total. rewrite !map_map, !map_length. f_equal. f_equal. apply map_ext. intro j. cbn [fin_like xexp]. apply gauss_value, Hd.
  - intro x. apply average_pos; [destruct (N.to_nat (as_n_aux a)) eqn:E; [lia|discriminate]|]. intros y I. apply in_map_iff in I as (j & <- & _). apply gauss_pos, Hd.
  - apply auxiliary_density; [now left|exact Nl|exact Pl|exact M|exact (clustering_saved _ _ _ _ _ _ C)|exact (clustering_nonempty _ _ _ _ Hn C)|exact A].
Qed.

Lemma component_row : forall num drawn o i m n k, good_object o -> (1 <= n)%nat -> kept_ok n k ->
  match o_hier o with UNig _ => exists h, k_hyp k = HNig h | UNxig _ => exists h, k_hyp k = HNxig h end ->
  match k_hyp k with HNig h => nig_read num m = h | HNxig h => nxig_read num m = h end ->
  (o_algo o = N8 -> forall j, 0 < ls_var (drawn i j (k_hyp k))) ->
  exists f, alone (o_set o) (drawn i) k f /\ (forall x, xexp (component num lgam drawn o i m x) = f x) /\ (forall x, 0 < f x) /\
    evaluated_density (fin_like norm_lpdf) (component num lgam drawn o i m) n (k_clusters k) (k_mix k).
Proof.
  intros num drawn o i m n k (Na & Ha & Hc) Hn V Kh Rh Hd. unfold component. cbn zeta. change norm_like with (fin_like norm_lpdf).
  destruct (kept_parts n k V) as (C & Hh & M & A).
  assert (Pr : forall h, k_hyp k = HNig h -> nig_read num m = h -> as_id (o_set o) = "Neal2" \/ as_id (o_set o) = "Neal3" ->
    exists f, alone (o_set o) (drawn i) k f /\ (forall x, xexp (Fin (nnig_marg_lpdf lgam (nig_read num m) x)) = f x) /\ (forall x, 0 < f x) /\
      evaluated_density (fin_like norm_lpdf) (fun y => Fin (nnig_marg_lpdf lgam (nig_read num m) y)) n (k_clusters k) (k_mix k)).
  { intros h E Er Id. rewrite Er. rewrite E in Hh. cbn [hyper_ok] in Hh. exists (fun x => exp (nnig_marg_lpdf lgam h x)). split; [|split; [|split]].
    - eapply alone_predictive; [exact Id|exact E|]. intro x. apply predictive_integral, Hh.
    - reflexivity.
    - intro x. apply exp_pos.
    - apply predictive_density; [exact Hh|exact M|exact (clustering_saved _ _ _ _ _ _ C)|exact (clustering_nonempty _ _ _ _ Hn C)|exact A]. }
  destruct (o_hier o) as [p|p].
  - destruct Kh as (h & E). rewrite E in Rh. destruct (o_algo o) eqn:Eo; cbn [algo_name] in Na.
    + apply (Pr h); auto.
    + apply (Pr h); auto.
    + rewrite Rh, <- E. apply (aux_row n k (o_set o) (drawn i)); auto.
  - destruct Kh as (h & E). rewrite E in Rh. rewrite Hc in *. cbn [algo_name] in Na. rewrite Rh, <- E. apply (aux_row n k (o_set o) (drawn i)); auto.
Qed.

(** ** The values of a state do not depend on the object *)
Lemma lpdf_total : forall num drawn o pts mx im, exists r mx', lpdf_from_state num lgam drawn o pts mx im = Ok (r, mx') /\ length r = length pts /\
  forall mx2, exists mx3, lpdf_from_state num lgam drawn o pts mx2 im = Ok (r, mx3).
Proof.
  intros num drawn o pts mx [i s]. unfold lpdf_from_state. cbn zeta. cbn [fst snd]. change norm_like with (fin_like norm_lpdf).
  set (c := component _ _ _ _ _ _). set (cl := clusters_read _ _). set (n := length (entries 2 _)). destruct (o_mix o) as [p|p].
  - set (M := dp_read num (proj1_sig s)). set (o1 := mkDp M (Some (xlog M))).
    assert (X : forall q, exists o', marg_eval (fin_like norm_lpdf) dp_mixer [mkLS 0 0] c (mkSaved n cl M) pts q =
      Ok (map (fun x => log_sum_exp (map (fun p => xadd (fin_like norm_lpdf (fst p) x) ((fun z => xsublog (xlog (IZR z)) (INR n + M)) (snd p))) cl ++ [xadd (c x) (xsublog (xlog M) (INR n + M))])) pts, o')).
    { intro q. destruct (marg_value _ _ (fin_like norm_lpdf) dp_mixer [mkLS 0 0] c (mkSaved n cl M) pts q (fun z => xsublog (xlog (IZR z)) (INR n + M)) (xsublog (xlog M) (INR n + M)) (fun x => x = o1)) as (o' & -> & E).
      - discriminate.
      - reflexivity.
      - intros st z _ x ->. exists o1. split; reflexivity.
      - intros x ->. exists o1. split; reflexivity.
      - exists o1. exact E. }
    destruct (X (fst mx)) as (o' & E). rewrite E. cbn [rbind]. eexists. eexists. split; [reflexivity|]. split; [apply map_length|]. intro mx2. destruct (X (fst mx2)) as (o2 & E2). rewrite E2. eexists. reflexivity.
  - set (M := py_state_read num (proj1_sig s)).
    assert (X : exists r, forall q, exists o', marg_eval (fin_like norm_lpdf) py_mixer [mkLS 0 0] c (mkSaved n cl M) pts q = Ok (r, o') /\ length r = length pts).
    { eexists. intro q. destruct (marg_value _ _ (fin_like norm_lpdf) py_mixer [mkLS 0 0] c (mkSaved n cl M) pts q
        (fun z => if Z.eqb z 0 then XInf else xsublog (xlog (IZR z - py_dis M)) (INR n + py_str M)) (xsublog (xlog (py_str M + py_dis M * INR (length cl))) (INR n + py_str M)) (fun x => x = M)) as (o' & -> & E).
      - discriminate.
      - reflexivity.
      - intros st z _ x ->. exists M. split; reflexivity.
      - intros x ->. exists M. split; reflexivity.
      - exists M. rewrite E. split; [reflexivity|apply map_length]. }
    destruct X as (r & X). destruct (X (snd mx)) as (o' & E & L). rewrite E. cbn [rbind]. eexists. eexists. split; [reflexivity|]. split; [exact L|]. intro mx2. destruct (X (snd mx2)) as (o2 & E2 & _). rewrite E2. eexists. reflexivity.
Qed.

Lemma state_row : forall num dbl drawn o pts mx i k (s : saved_state), good_object o -> let k' := back (fun x => num (dbl x)) k in
  (1 <= length (k_alloc k))%nat -> kept_ok (length (k_alloc k)) k' -> same (KMsg AS) (VMsg (state_msg dbl k)) (VMsg (proj1_sig s)) ->
  same_kind (o_mix o) (k_mix k) -> match o_hier o with UNig _ => exists h, k_hyp k = HNig h | UNxig _ => exists h, k_hyp k = HNxig h end ->
  (o_algo o = N8 -> forall j, 0 < ls_var (drawn i j (k_hyp k'))) ->
  exists row mx', lpdf_from_state num lgam drawn o pts mx (i, s) = Ok (map Fin row, mx') /\ row_of (o_set o) (drawn i) k' pts row.
Proof.
  intros num dbl drawn o pts mx i k s Ho k' Hn V S Kq Kh Hd. destruct (state_back num dbl k _ S) as (Rc & Rn & Rh & Rm).
  assert (Kh' : match o_hier o with UNig _ => exists h, k_hyp k' = HNig h | UNxig _ => exists h, k_hyp k' = HNxig h end).
  { unfold k'. cbn [back k_hyp]. destruct (o_hier o); destruct Kh as (h & ->); cbn [back_hyper]; eexists; reflexivity. }
  destruct (component_row num drawn o i (proj1_sig s) (length (k_alloc k)) k' Ho Hn V Kh' Rh Hd) as (f & Al & Ec & Pf & Ev).
  destruct (row_value (length (k_alloc k)) k' f _ Hn V Ec Pf Ev) as (P & L & G).
  exists (map (fun x => ln (mixture_density k' f x)) pts). unfold lpdf_from_state. cbn zeta. cbn [fst snd]. rewrite Rn, Rc. change norm_like with (fin_like norm_lpdf). rewrite map_map.
  assert (Row : row_of (o_set o) (drawn i) k' pts (map (fun x => ln (mixture_density k' f x)) pts)).
  { exists f. split; [exact Al|]. split; [exact L|]. induction pts as [|x pts IH]; constructor; [split; [apply P|reflexivity]|exact IH]. }
  change (k_mix k') with (back_mixing (fun x => num (dbl x)) (k_mix k)) in G. fold k'. destruct (o_mix o) as [p|p]; destruct (k_mix k) as [p' st|p' st]; try contradiction; cbn [back_mixing] in G, Rm; rewrite Rm.
  - destruct (G pts (fst mx)) as (o' & E). cbn [dp_tot] in *. rewrite E. cbn [rbind]. eexists. split; [reflexivity|exact Row].
  - destruct (G pts (snd mx)) as (o' & E). rewrite E. cbn [rbind]. eexists. split; [reflexivity|exact Row].
Qed.

(** ** The whole chain *)
Lemma dealt_interleaved : forall A (l : list A), dealt l = interleaved A 4 l.
Proof. intros A l. unfold dealt, interleaved, slice. cbn [seq map concat]. rewrite app_nil_r. reflexivity. Qed.

Lemma slice_map : forall A B (g : A -> B) num i l, slice B num i (map g l) = map g (slice A num i l).
Proof.
  intros A B g num i l. unfold slice. rewrite map_length, map_map. generalize (seq 0 (length l)) as is. revert l.
  assert (X : forall (l : list A) (is : list nat), combine is (map g l) = map (fun p => (fst p, g (snd p))) (combine is l)).
  { induction l as [|x l IH]; intros [|j is]; try reflexivity. cbn [map combine fst snd]. rewrite IH. reflexivity. }
  intros l is. rewrite X. generalize (combine is l) as c. induction c as [|[j x] c IH]; [reflexivity|]. cbn [map filter fst]. destruct (j mod num =? i)%nat; cbn [map snd]; rewrite IH; reflexivity.
Qed.
Lemma dealt_map : forall A B (g : A -> B) l, dealt (map g l) = map g (dealt l).
Proof. intros A B g l. rewrite !dealt_interleaved. unfold interleaved. rewrite concat_map, map_map. f_equal. apply map_ext. intro i. apply slice_map. Qed.

Lemma combine_zip : forall A B C (R : A -> B -> Prop) (is : list C) ks cs, Forall2 R ks cs ->
  exists L, combine is ks = map (fun p => (fst p, fst (snd p))) L /\ combine is cs = map (fun p => (fst p, snd (snd p))) L /\ (forall p, In p L -> R (fst (snd p)) (snd (snd p))).
Proof.
  intros A B C R is ks cs H. revert is. induction H as [|k c ks cs E H IH]; intros [|i is]; try (exists []; repeat split; cbn; tauto).
  destruct (IH is) as (L & E1 & E2 & E3). exists ((i, (k, c)) :: L). cbn [map combine fst snd]. rewrite E1, E2. split; [reflexivity|]. split; [reflexivity|]. intros p [<-|I]; [exact E|apply E3, I].
Qed.

Lemma finite_rows : forall rows, rmap finite_row (map (fun r => Some (map Fin r)) rows) = Ok rows.
Proof.
  induction rows as [|r rows IH]; [reflexivity|]. cbn [map rmap]. cbn [finite_row].
  assert (E : rmap (fun x => match x with Fin v => Ok v | XInf => UB end) (map Fin r) = Ok r). { induction r as [|x r IHr]; [reflexivity|]. cbn [map rmap rbind]. rewrite IHr. reflexivity. }
  rewrite E. cbn [rbind]. rewrite IH. reflexivity.
Qed.

Lemma density_value : forall num dbl drawn o n ks (chain : list saved_state) grid hg mg, good_object o -> (1 <= n)%nat -> Utils.m_nc grid <> 0%nat ->
  Forall2 (fun k (s : saved_state) => same (KMsg AS) (VMsg (state_msg dbl k)) (VMsg (proj1_sig s)) /\ length (k_alloc k) = n /\ kept_ok n (back (fun x => num (dbl x)) k) /\
    same_kind (o_mix o) (k_mix k) /\ match o_hier o with UNig _ => exists h, k_hyp k = HNig h | UNxig _ => exists h, k_hyp k = HNxig h end) ks chain ->
  (o_algo o = N8 -> forall i j h, hyper_ok h -> 0 < ls_var (drawn i j h)) ->
  let pts := map (fun r => nth 0 r 0) (Utils.m_rows grid) in
  exists rows, eval_density num lgam drawn o chain grid hg mg = Ok (Utils.mkMat (length pts) rows) /\
    Forall2 (fun ik row => row_of (o_set o) (drawn (fst ik)) (back (fun x => num (dbl x)) (snd ik)) pts row) (dealt (combine (seq 0 (length ks)) ks)) rows.
Proof.
  intros num dbl drawn o n ks chain grid hg mg Ho Hn Nc H Hd pts. unfold eval_density. apply Nat.eqb_neq in Nc. rewrite Nc. cbn zeta. fold pts.
  assert (Lc : length ks = length chain) by (clear -H; induction H; cbn; congruence).
  set (f := fun im : nat * saved_state => match lpdf_from_state num lgam drawn o pts (dp_make_shared, mkPy 0 0) im with Ok (r, _) => r | _ => [] end).
  assert (Pu : forall a m, exists a', lpdf_from_state num lgam drawn o pts a m = Ok (f m, a')).
  { intros a m. destruct (lpdf_total num drawn o pts (dp_make_shared, mkPy 0 0) m) as (r & mx & E & _ & X). unfold f. rewrite E. apply X. }
  assert (Wi : forall m, length (f m) = length pts).
  { intro m. destruct (lpdf_total num drawn o pts (dp_make_shared, mkPy 0 0) m) as (r & mx & E & L & _). unfold f. rewrite E. exact L. }
  rewrite (full_rows _ _ _ _ _ f Pu Wi) by (unfold njobs; lia). cbn [rbind]. unfold njobs. rewrite <- dealt_interleaved.
  destruct (combine_zip _ _ _ _ (seq 0 (length ks)) ks chain H) as (L & E1 & E2 & E3). rewrite <- Lc, E1, E2, !dealt_map.
  assert (Q : forall p, In p (dealt L) -> exists row, f (fst p, snd (snd p)) = map Fin row /\ row_of (o_set o) (drawn (fst p)) (back (fun x => num (dbl x)) (fst (snd p))) pts row).
  { intros p I. rewrite dealt_interleaved in I. apply (Permutation.Permutation_in _ (interleaved_perm _ L 4 ltac:(lia))) in I. destruct (E3 p I) as (S & Ln & V & Kq & Kh). rewrite <- Ln in V.
    destruct (state_row num dbl drawn o pts (dp_make_shared, mkPy 0 0) (fst p) (fst (snd p)) (snd (snd p)) Ho ltac:(rewrite Ln; exact Hn) V S Kq Kh (fun e j => Hd e (fst p) j _ (proj1 (proj2 (kept_parts _ _ V))))) as (row & mx & E & Row).
    exists row. split; [unfold f; rewrite E; reflexivity|exact Row]. }
  assert (Y : exists rows, map Some (map f (map (fun p => (fst p, snd (snd p))) (dealt L))) = map (fun r => Some (map Fin r)) rows /\
    Forall2 (fun ik row => row_of (o_set o) (drawn (fst ik)) (back (fun x => num (dbl x)) (snd ik)) pts row) (map (fun p => (fst p, fst (snd p))) (dealt L)) rows).
  { clear -Q. revert Q. generalize (dealt L) as l. induction l as [|p l IH]; intro Q; [exists []; split; [reflexivity|constructor]|].
    destruct (Q p (or_introl eq_refl)) as (row & E & Row). destruct (IH (fun x I => Q x (or_intror I))) as (rows & E' & F). exists (row :: rows). cbn [map]. rewrite E, E'. split; [reflexivity|]. constructor; [exact Row|exact F]. }
  destruct Y as (rows & Er & Fr). rewrite Er, finite_rows. cbn [rbind]. exists rows. split; [reflexivity|exact Fr].
Qed.
