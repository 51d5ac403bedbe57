(** * C115: programs of the slice sampler on univariate data. *)
From Coq Require Import String.
From Coq Require Import Bool List Arith ZArith Reals Lra Lia.
From Coquelicot Require Import Coquelicot.
From Verif Require Import Base Hier Algos Run Spec MargFacts NealFacts MargMore InitFacts MargProps ValidRun.
From Verif Require Import PartSpec XReal Stick SliceFacts StickFacts Cond CondFacts CondProps Mixings MixFacts Univ UnivFacts UnivInit RealInst RealFacts UnivInst UnivRun CondInst CondRun CondStick SliceInst SliceRun SliceEnds SliceStuck.
From Verif Require Import Eval EvalFacts EvalInt GaussInt GammaInt DistFacts UnivInt GamFacts P_MargInt P_Valid P_Blocked.
Import ListNotations.
Local Open Scope R_scope.

(** Uniform draws on [0, w). *)
Definition uniform_ok {T : Type} (unif01 : R -> T -> R * T) : Prop := forall w r, 0 < w -> 0 <= fst (unif01 w r) < w.

(** A saved state: as many components as weights, the hyperparameters of the
    start, weights above zero, and above [tiny] for every label. *)
Definition slice_state_ok {H : Type} (hy : H) (n : nat) (tiny : R) (labels : list nat) (clusters : list (uni_ls * Z)) (hyp : H) (weights : list R) : Prop :=
  saved_components n (length weights) labels clusters /\ hyp = hy /\ (forall p, In p clusters -> 0 < ls_var (fst p)) /\
  List.Forall (fun w => 0 < w) weights /\ (forall c, In c labels -> exists w, nth_error weights c = Some w /\ tiny < w).

Definition mass_left (inf : bool) (mass : R) : Prop := if inf then 0 < mass < 1 else 0 < mass <= 1.

Lemma slice_conclude : forall f (H : Type) (hy : H) n tiny inf labels (clusters : list (uni_ls * Z)) hyp (w : sb numR), univariate_like f -> (1 <= n)%nat ->
  saved_components n (sb_nc w) labels clusters /\ hyp = hy /\ (forall q, In q clusters -> ls_valid (fst q)) /\ (sb_ok w /\ sb_inf w = inf) /\
  List.Forall (fun x => 0 < x) (sb_w w) /\ List.Forall (fun v => 0 <= v <= 1) (sb_sticks w) /\ (inf = true -> List.Forall (fun v => v < 1) (sb_sticks w)) /\
  (forall c, In c labels -> exists x, nth_error (sb_w w) c = Some x /\ tiny < x) ->
  let ws := map xexp (sb_logweights w) in
  slice_state_ok hy n tiny labels clusters hyp ws /\ mass_left inf (fold_right Rplus 0 ws) /\
  evaluated_mass (fin_like f) clusters (sb_logweights w) (fold_right Rplus 0 ws).
Proof.
  intros f H hy n tiny inf labels clusters hyp w Hf Hn (A & B & C & ((O1 & O2 & O3) & Hi) & D & E & F & G). cbv zeta.
  assert (El : sb_logweights w = logweights_from_sticks (sb_sticks w)) by (unfold sb_logweights; rewrite firstn_all2 by (rewrite O1; apply le_n); reflexivity).
  assert (Ew : map xexp (sb_logweights w) = sb_w w).
  { rewrite El. unfold logweights_from_sticks. rewrite log_scale by exact E. cbn [xexp]. rewrite exp_0. symmetry. exact O2. }
  assert (Lw : length (sb_w w) = sb_nc w) by (apply sb_ok_w; split; auto).
  assert (Ms : fold_right Rplus 0 (sb_w w) = 1 - fold_right Rmult 1 (map (fun v => 1 - v) (sb_sticks w))).
  { rewrite <- Ew, El. apply stick_mass. exact E. }
  rewrite Ew. split; [|split].
  - split; [exact (eq_ind_r (fun k => saved_components n k labels clusters) A Lw)|]. split; [exact B|]. split; [exact C|]. split; [exact D|exact G].
  - assert (P : 0 < fold_right Rplus 0 (sb_w w)).
    { assert (N : sb_w w <> []).
      { destruct A as (A1 & _ & A3 & _). destruct labels as [|c l]; [cbn in A1; lia|]. specialize (A3 c (or_introl eq_refl)). intro Z. rewrite Z in Lw. cbn in Lw. lia. }
      clear -D N. revert D N. generalize (sb_w w) as l. induction l as [|a l IH]; intros D N; [congruence|]. cbn [fold_right].
      pose proof (List.Forall_inv D). cbn beta in *. destruct l as [|b l]; [cbn in *; lra|]. specialize (IH (List.Forall_inv_tail D) ltac:(discriminate)). cbn in *; lra. }
    assert (Q : 0 <= fold_right Rmult 1 (map (fun v => 1 - v) (sb_sticks w))).
    { clear -E. induction E as [|v l Hv E IH]; cbn; [lra|]. apply Rmult_le_pos; lra. }
    rewrite Ms in *. destruct inf; cbn; [|lra]. split; [exact P|]. specialize (F eq_refl).
    assert (Q' : 0 < fold_right Rmult 1 (map (fun v => 1 - v) (sb_sticks w))).
    { clear -F. induction F as [|v l Hv E IH]; cbn; [lra|]. apply Rmult_lt_0_compat; lra. }
    lra.
  - rewrite Ms, El. intros uv U. apply C106_stick_density; [exact Hf|exact U| |exact E|].
    + rewrite map_length. destruct A as (_ & A2 & _). exact (eq_trans A2 (eq_sym O1)).
    + intros s Hs. apply in_map_iff in Hs. destruct Hs as (q & <- & Hq). now apply C.
Qed.


Theorem C115_normal : forall G p hy sp inf m nc data pos st (bet : R -> R -> Gs G -> R * Gs G) unif01 tiny junk fuel maxiter burnin r s out,
  gen_ok G -> gen_pos G -> beta_ok bet -> uniform_ok unif01 -> 0 < tiny -> nig_init p = Ok hy -> sb_init sp inf nc = Ok m -> open_prior sp ->
  (1 <= nc <= length data)%nat -> (forall i, (pos i < nc)%nat) ->
  slice_run (nnig_iface lgam G p) (nig_init p) (sb_init sp inf nc) data pos st bet unif01 tiny junk fuel maxiter burnin r = Some (Ok (s, out)) ->
  length out = (maxiter - burnin)%nat /\ forall snap w, In (snap, w) out ->
    let ws := map xexp (sb_logweights w) in
    slice_state_ok hy (length data) tiny (s_alloc snap) (s_clusters snap) (s_hyp snap) ws /\ mass_left inf (fold_right Rplus 0 ws) /\
    evaluated_mass (fin_like norm_lpdf) (s_clusters snap) (sb_logweights w) (fold_right Rplus 0 ws).
Proof.
  intros G p hy sp inf m nc data pos st bet unif01 tiny junk fuel maxiter burnin r s out HG HP Hb Hu Ht Eh Em Hop Hnc Hpos E. rewrite Eh, Em in E.
  assert (Hn : (1 <= length data)%nat) by lia.
  destruct (slice_program (nnig_iface lgam G p) (nnig_laws lgam G p HG) data (nnig_rows lgam G p data) Hn valid ls_valid mixing_valid
    (nnig_closed lgam G p data HP (nig_prior_checked p hy Eh)) bet unif01 tiny junk Hb Hu Ht sp inf nc m hy pos st fuel maxiter burnin r s out Em Hop (nig_init_valid p hy Eh) Hnc Hpos E) as [K1 K2].
  split; [exact K1|]. intros snap w Hin. exact (slice_conclude norm_lpdf _ hy (length data) tiny inf _ _ _ w (or_introl eq_refl) Hn (K2 snap w Hin)).
Qed.
Print Assumptions C115_normal.

Theorem C115_semiconjugate : forall G p hy sp inf m nc data pos st (bet : R -> R -> Gs G -> R * Gs G) unif01 tiny junk fuel maxiter burnin r s out,
  gen_ok G -> gen_pos G -> beta_ok bet -> uniform_ok unif01 -> 0 < tiny -> nxig_init p = Ok hy -> sb_init sp inf nc = Ok m -> open_prior sp ->
  (1 <= nc <= length data)%nat -> (forall i, (pos i < nc)%nat) ->
  slice_run (nnxig_iface G) (nxig_init p) (sb_init sp inf nc) data pos st bet unif01 tiny junk fuel maxiter burnin r = Some (Ok (s, out)) ->
  length out = (maxiter - burnin)%nat /\ forall snap w, In (snap, w) out ->
    let ws := map xexp (sb_logweights w) in
    slice_state_ok hy (length data) tiny (s_alloc snap) (s_clusters snap) (s_hyp snap) ws /\ mass_left inf (fold_right Rplus 0 ws) /\
    evaluated_mass (fin_like norm_lpdf) (s_clusters snap) (sb_logweights w) (fold_right Rplus 0 ws).
Proof.
  intros G p hy sp inf m nc data pos st bet unif01 tiny junk fuel maxiter burnin r s out HG HP Hb Hu Ht Eh Em Hop Hnc Hpos E. rewrite Eh, Em in E.
  assert (Hn : (1 <= length data)%nat) by lia.
  destruct (slice_program (nnxig_iface G) (nnxig_laws G HG) data (nnxig_rows G data) Hn nx_valid ls_valid mixing_valid
    (nnxig_closed G data HP) bet unif01 tiny junk Hb Hu Ht sp inf nc m hy pos st fuel maxiter burnin r s out Em Hop (nxig_init_valid p hy Eh) Hnc Hpos E) as [K1 K2].
  split; [exact K1|]. intros snap w Hin. exact (slice_conclude norm_lpdf _ hy (length data) tiny inf _ _ _ w (or_introl eq_refl) Hn (K2 snap w Hin)).
Qed.
Print Assumptions C115_semiconjugate.

Theorem C115_laplace : forall G p hy step jk sp inf m nc data pos st (bet : R -> R -> Gs G -> R * Gs G) unif01 tiny junk fuel maxiter burnin r s out,
  gen_ok G -> gen_pos G -> beta_ok bet -> uniform_ok unif01 -> 0 < tiny -> nxig_init p = Ok hy -> sb_init sp inf nc = Ok m -> open_prior sp ->
  (1 <= nc <= length data)%nat -> (forall i, (pos i < nc)%nat) ->
  slice_run (lap_iface G step jk data) (nxig_init p) (sb_init sp inf nc) data pos st bet unif01 tiny junk fuel maxiter burnin r = Some (Ok (s, out)) ->
  length out = (maxiter - burnin)%nat /\ forall snap w, In (snap, w) out ->
    let ws := map xexp (sb_logweights w) in
    slice_state_ok hy (length data) tiny (s_alloc snap) (s_clusters snap) (s_hyp snap) ws /\ mass_left inf (fold_right Rplus 0 ws) /\
    evaluated_mass (fin_like lap_lpdf) (s_clusters snap) (sb_logweights w) (fold_right Rplus 0 ws).
Proof.
  intros G p hy step jk sp inf m nc data pos st bet unif01 tiny junk fuel maxiter burnin r s out HG HP Hb Hu Ht Eh Em Hop Hnc Hpos E. rewrite Eh, Em in E.
  assert (Hn : (1 <= length data)%nat) by lia.
  destruct (slice_program (lap_iface G step jk data) (lap_laws G step jk data HG) data (lap_rows G step jk data) Hn nx_valid ls_valid mixing_valid
    (lap_closed G step jk data HP) bet unif01 tiny junk Hb Hu Ht sp inf nc m hy pos st fuel maxiter burnin r s out Em Hop (nxig_init_valid p hy Eh) Hnc Hpos E) as [K1 K2].
  split; [exact K1|]. intros snap w Hin. exact (slice_conclude lap_lpdf _ hy (length data) tiny inf _ _ _ w (or_intror eq_refl) Hn (K2 snap w Hin)).
Qed.
Print Assumptions C115_laplace.

(** ** When the program ends *)
Theorem C115_ends : forall G p hy sp inf m nc data pos st (bet : R -> R -> Gs G -> R * Gs G) unif01 tiny junk eps maxiter burnin r,
  gen_ok G -> beta_ok bet -> uniform_ok unif01 -> 0 < tiny -> nig_init p = Ok hy -> sb_init sp inf nc = Ok m -> open_prior sp ->
  (1 <= nc <= length data)%nat -> (forall i, (pos i < nc)%nat) ->
  tiny < eps < 1 -> (forall a b q, 0 < a -> 0 < b -> eps <= fst (bet a b q)) ->
  exists fuel, forall more, exists s out,
    slice_run (nnig_iface lgam G p) (nig_init p) (sb_init sp inf nc) data pos st bet unif01 tiny junk (fuel + more) maxiter burnin r = Some (Ok (s, out)).
Proof.
  intros G p hy sp inf m nc data pos st bet unif01 tiny junk eps maxiter burnin r HG Hb Hu Ht Eh Em Hop Hnc Hpos He Hlow. rewrite Eh, Em.
  assert (Hn : (1 <= length data)%nat) by lia.
  destruct (pow_lt_1_zero (1 - eps) ltac:(rewrite Rabs_pos_eq; lra) tiny Ht) as (f & Hf). exists f. intro more.
  apply (slice_goes (nnig_iface lgam G p) (nnig_laws lgam G p HG) data (nnig_rows lgam G p data) Hn bet unif01 tiny junk Hb Hu Ht eps sp inf nc m hy); auto; [lra|].
  specialize (Hf (f + more)%nat ltac:(lia)). rewrite Rabs_pos_eq in Hf by (apply pow_le; lra). exact Hf.
Qed.
Print Assumptions C115_ends.

(** Fuel aside, nothing but a saved chain or an exception comes out. *)
Theorem C115_outcome : forall G p hy sp inf m nc data pos st (bet : R -> R -> Gs G -> R * Gs G) unif01 tiny junk eps maxiter burnin r,
  gen_ok G -> beta_ok bet -> uniform_ok unif01 -> 0 < tiny -> nig_init p = Ok hy -> sb_init sp inf nc = Ok m -> open_prior sp ->
  (1 <= nc <= length data)%nat -> (forall i, (pos i < nc)%nat) ->
  0 < eps < 1 -> (forall a b q, 0 < a -> 0 < b -> eps <= fst (bet a b q)) ->
  exists fuel, (exists x, slice_run (nnig_iface lgam G p) (nig_init p) (sb_init sp inf nc) data pos st bet unif01 tiny junk fuel maxiter burnin r = Some (Ok x)) \/
    (exists e, slice_run (nnig_iface lgam G p) (nig_init p) (sb_init sp inf nc) data pos st bet unif01 tiny junk fuel maxiter burnin r = Some (Throw e)).
Proof.
  intros G p hy sp inf m nc data pos st bet unif01 tiny junk eps maxiter burnin r HG Hb Hu Ht Eh Em Hop Hnc Hpos He Hlow. rewrite Eh, Em.
  assert (Hn : (1 <= length data)%nat) by lia.
  destruct (pow_lt_1_zero (1 - eps) ltac:(rewrite Rabs_pos_eq; lra) tiny Ht) as (f & Hf). exists f.
  apply (slice_outcome (nnig_iface lgam G p) (nnig_laws lgam G p HG) data (nnig_rows lgam G p data) Hn bet unif01 tiny junk Hb Hu Ht eps sp inf nc m hy); auto; [lra|].
  specialize (Hf f ltac:(lia)). rewrite Rabs_pos_eq in Hf by (apply pow_le; lra). exact Hf.
Qed.
Print Assumptions C115_outcome.

(** ** Programs without an answer *)
Definition unif_mid {T : Type} (w : R) (r : T) : R * T := (w / 2, r).
Lemma unif_mid_ok : forall T, uniform_ok (@unif_mid T).
Proof. intros T w r H. cbn. lra. Qed.

Lemma prior_runs : nig_init (NIGFixed 0 1 2 2) = Ok (mkNIG 0 1 2 2).
Proof. cbn [nig_init]; unfold nig_check; cbn; rewrite !(proj2 (lteb_false _ _)) by lra; reflexivity. Qed.

(** Valid stick lengths 1/4, 1/8, 1/16, ... never add up to the bound. *)
Theorem C115_loop_refuted : exists G p hy sp m nc data pos st (bet : R -> R -> Gs G -> R * Gs G) unif01 tiny junk maxiter burnin r,
  gen_ok G /\ gen_pos G /\ beta_ok bet /\ uniform_ok unif01 /\ 0 < tiny /\ nig_init p = Ok hy /\ sb_init sp true nc = Ok m /\ open_prior sp /\
  (1 <= nc <= length data)%nat /\ (forall i, (pos i < nc)%nat) /\
  forall fuel, slice_run (nnig_iface lgam G p) (nig_init p) (sb_init sp true nc) data pos st bet unif01 tiny junk fuel maxiter burnin r = None.
Proof.
  destruct (dp_starts true 2) as (m & Em & Hs).
  assert (P : forall i, (i mod 2 < 2)%nat) by (intro i; apply Nat.mod_upper_bound; discriminate).
  pose (b := fun (_ _ : R) (r : nat) => ((/ 2) ^ (2 + r), S r)).
  assert (HB : forall a a' (r : nat), exists r', b a a' r = ((/ 2) ^ (2 + r), r') /\ r' = S r) by (intros a a' r; exists (S r); split; reflexivity).
  assert (Hb : beta_ok (T:=nat) b).
  { intros a a' r _ _. unfold b. cbn [fst Nat.add pow]. pose proof (half_pow r). lra. }
  exists g1, (NIGFixed 0 1 2 2), (mkNIG 0 1 2 2), (DpPrior numR 1), m, 2%nat, [0; 1; 5], (fun i => i mod 2)%nat, (mkLS 0 0), b, unif_mid, (/ 10), 0, 1%nat, 0%nat, 0%nat.
  repeat (split; [first [exact (proj1 g1_ok)|exact (proj2 g1_ok)|exact Hb|apply unif_mid_ok|lra|exact prior_runs|exact Em|cbn; lra|cbn; lia|exact P]|]).
  intro fuel. rewrite prior_runs, Em.
  apply (slice_stuck (nnig_iface lgam g1 (NIGFixed 0 1 2 2)) (nnig_laws lgam g1 (NIGFixed 0 1 2 2) (proj1 g1_ok)) [0; 1; 5] (nnig_rows lgam g1 (NIGFixed 0 1 2 2) [0; 1; 5]) ltac:(cbn; lia) b unif_mid (/ 10) 0
    (unif_mid_ok _) ltac:(lra) (fun k : nat => k) HB 1 2 m); [lra|exact Em|cbn; lia|exact P|lia].
Qed.
Print Assumptions C115_loop_refuted.

(** No weight above the least slice: nothing to choose from. *)
Theorem C115_short_sticks : forall G p hy sp m nc data pos st (bet : R -> R -> Gs G -> R * Gs G) unif01 tiny junk eps maxiter burnin r,
  gen_ok G -> beta_ok bet -> uniform_ok unif01 -> 0 < tiny -> nig_init p = Ok hy -> sb_init sp true nc = Ok m -> open_prior sp ->
  (1 <= nc <= length data)%nat -> (forall i, (pos i < nc)%nat) -> (1 <= maxiter)%nat ->
  0 < eps < 1 -> (forall a b q, 0 < a -> 0 < b -> eps <= fst (bet a b q) <= tiny) ->
  exists fuel e, slice_run (nnig_iface lgam G p) (nig_init p) (sb_init sp true nc) data pos st bet unif01 tiny junk fuel maxiter burnin r = Some (Throw e).
Proof.
  intros G p hy sp m nc data pos st bet unif01 tiny junk eps maxiter burnin r HG Hb Hu Ht Eh Em Hop Hnc Hpos Hk He Hlow. rewrite Eh, Em.
  assert (Hn : (1 <= length data)%nat) by lia.
  destruct (pow_lt_1_zero (1 - eps) ltac:(rewrite Rabs_pos_eq; lra) tiny Ht) as (f & Hf). exists f.
  apply (slice_throws (nnig_iface lgam G p) (nnig_laws lgam G p HG) data (nnig_rows lgam G p data) Hn bet unif01 tiny junk Hb Hu Ht eps sp nc m hy); auto; [lra|].
  specialize (Hf f ltac:(lia)). rewrite Rabs_pos_eq in Hf by (apply pow_le; lra). exact Hf.
Qed.
Print Assumptions C115_short_sticks.

Theorem C115_answers_refuted : exists G p hy sp m nc data pos st (bet : R -> R -> Gs G -> R * Gs G) unif01 tiny junk maxiter burnin r fuel e,
  gen_ok G /\ gen_pos G /\ beta_ok bet /\ uniform_ok unif01 /\ 0 < tiny /\ nig_init p = Ok hy /\ sb_init sp true nc = Ok m /\ open_prior sp /\
  (1 <= nc <= length data)%nat /\ (forall i, (pos i < nc)%nat) /\
  slice_run (nnig_iface lgam G p) (nig_init p) (sb_init sp true nc) data pos st bet unif01 tiny junk fuel maxiter burnin r = Some (Throw e).
Proof.
  destruct (dp_starts true 2) as (m & Em & Hs).
  assert (P : forall i, (i mod 2 < 2)%nat) by (intro i; apply Nat.mod_upper_bound; discriminate).
  pose (b := fun (_ _ : R) (r : nat) => (/ 10, r)).
  assert (Hb : beta_ok (T:=nat) b) by (intros a a' r _ _; cbn; lra).
  destruct (C115_short_sticks g1 (NIGFixed 0 1 2 2) _ _ m 2 [0; 1; 5] (fun i => i mod 2)%nat (mkLS 0 0) b unif_mid (/ 10) 0 (/ 10) 1 0 0%nat (proj1 g1_ok) Hb (unif_mid_ok _) ltac:(lra) prior_runs Em
    ltac:(cbn; lra) ltac:(cbn; lia) P ltac:(lia) ltac:(lra) ltac:(intros; cbn; lra)) as (f & e & R).
  exists g1, (NIGFixed 0 1 2 2), (mkNIG 0 1 2 2), (DpPrior numR 1), m, 2%nat, [0; 1; 5], (fun i => i mod 2)%nat, (mkLS 0 0), b, unif_mid, (/ 10), 0, 1%nat, 0%nat, 0%nat, f, e.
  repeat (split; [first [exact (proj1 g1_ok)|exact (proj2 g1_ok)|exact Hb|apply unif_mid_ok|lra|exact prior_runs|exact Em|cbn; lra|cbn; lia|exact P]|]). exact R.
Qed.
Print Assumptions C115_answers_refuted.

(** ** Non-vacuity: halves are drawn, five iterations, three states saved; the
    evaluated function is no density. *)
Lemma halves_run : exists m fuel s out, sb_init (DpPrior numR 1) true 2 = Ok m /\
  slice_run (nnig_iface lgam g1 (NIGFixed 0 1 2 2)) (nig_init (NIGFixed 0 1 2 2)) (sb_init (DpPrior numR 1) true 2) [0; 1; 5] (fun i => i mod 2)%nat (mkLS 0 0) half unif_mid (/ 10) 0 fuel 5 2 0%nat = Some (Ok (s, out)).
Proof.
  destruct (dp_starts true 2) as (m & Em & Hs).
  assert (P : forall i, (i mod 2 < 2)%nat) by (intro i; apply Nat.mod_upper_bound; discriminate).
  destruct (C115_ends g1 (NIGFixed 0 1 2 2) _ _ true m 2 [0; 1; 5] (fun i => i mod 2)%nat (mkLS 0 0) half unif_mid (/ 10) 0 (/ 2) 5 2 0%nat (proj1 g1_ok) (half_ok _) (unif_mid_ok _) ltac:(lra) prior_runs Em
    ltac:(cbn; lra) ltac:(cbn; lia) P ltac:(lra) ltac:(intros; cbn; lra)) as (f & K). destruct (K 0%nat) as (s & out & E). exists m, (f + 0)%nat, s, out. auto.
Qed.

Example C115_example : exists m fuel s out, sb_init (DpPrior numR 1) true 2 = Ok m /\
  slice_run (nnig_iface lgam g1 (NIGFixed 0 1 2 2)) (nig_init (NIGFixed 0 1 2 2)) (sb_init (DpPrior numR 1) true 2) [0; 1; 5] (fun i => i mod 2)%nat (mkLS 0 0) half unif_mid (/ 10) 0 fuel 5 2 0%nat = Some (Ok (s, out)) /\
  length out = 3%nat /\ forall snap w, In (snap, w) out -> length (s_alloc snap) = 3%nat /\ s_hyp snap = mkNIG 0 1 2 2 /\
    0 < fold_right Rplus 0 (map xexp (sb_logweights w)) < 1.
Proof.
  destruct halves_run as (m & f & s & out & Em & E). exists m, f, s, out. split; [exact Em|]. split; [exact E|].
  assert (P : forall i, (i mod 2 < 2)%nat) by (intro i; apply Nat.mod_upper_bound; discriminate).
  destruct (C115_normal g1 (NIGFixed 0 1 2 2) _ _ true m 2 [0; 1; 5] (fun i => i mod 2)%nat (mkLS 0 0) half unif_mid (/ 10) 0 f 5 2 0%nat s out (proj1 g1_ok) (proj2 g1_ok) (half_ok _) (unif_mid_ok _) ltac:(lra) prior_runs Em
    ltac:(cbn; lra) ltac:(cbn; lia) P E) as [L K]. split; [exact L|]. intros snap w Hin. destruct (K snap w Hin) as (((A & _) & B & _) & C & _). split; [exact A|]. split; [exact B|exact C].
Qed.

Theorem C115_density_refuted : exists G p hy sp m nc data pos st (bet : R -> R -> Gs G -> R * Gs G) unif01 tiny junk fuel maxiter burnin r s out snap w,
  gen_ok G /\ gen_pos G /\ beta_ok bet /\ uniform_ok unif01 /\ 0 < tiny /\ nig_init p = Ok hy /\ sb_init sp true nc = Ok m /\ open_prior sp /\
  (1 <= nc <= length data)%nat /\ (forall i, (pos i < nc)%nat) /\
  slice_run (nnig_iface lgam G p) (nig_init p) (sb_init sp true nc) data pos st bet unif01 tiny junk fuel maxiter burnin r = Some (Ok (s, out)) /\
  In (snap, w) out /\ ~ evaluated_mass (fin_like norm_lpdf) (s_clusters snap) (sb_logweights w) 1.
Proof.
  destruct halves_run as (m & f & s & out & Em & E).
  assert (P : forall i, (i mod 2 < 2)%nat) by (intro i; apply Nat.mod_upper_bound; discriminate).
  destruct (C115_normal g1 (NIGFixed 0 1 2 2) _ _ true m 2 [0; 1; 5] (fun i => i mod 2)%nat (mkLS 0 0) half unif_mid (/ 10) 0 f 5 2 0%nat s out (proj1 g1_ok) (proj2 g1_ok) (half_ok _) (unif_mid_ok _) ltac:(lra) prior_runs Em
    ltac:(cbn; lra) ltac:(cbn; lia) P E) as [L K]. destruct out as [|[snap w] out]; [discriminate|]. destruct (K snap w (or_introl eq_refl)) as (_ & W & M).
  exists g1, (NIGFixed 0 1 2 2), (mkNIG 0 1 2 2), (DpPrior numR 1), m, 2%nat, [0; 1; 5], (fun i => i mod 2)%nat, (mkLS 0 0), half, unif_mid, (/ 10), 0, f, 5%nat, 2%nat, 0%nat, s, ((snap, w) :: out), snap, w.
  repeat (split; [first [exact (proj1 g1_ok)|exact (proj2 g1_ok)|exact (half_ok _)|apply unif_mid_ok|lra|exact prior_runs|exact Em|cbn; lra|cbn; lia|exact P|exact E|now left]|]).
  intro N. pose proof (mass_unique _ _ _ _ _ N M) as Q. cbn in W. lra.
Qed.
Print Assumptions C115_density_refuted.
