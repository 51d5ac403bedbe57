(** * Split-and-merge: concrete runs for the normal model. *)
From Coq Require Import String.
From Coq Require Import Bool List Arith ZArith Reals Lra Lia Permutation.
From Verif Require Import Base Hier Algos SplitMerge Run Spec MargFacts NealFacts InitFacts MargMore MargProps SMFacts SMProps.
From Verif Require Import PartSpec XReal Mixings MixFacts GibbsSpec GibbsComb GibbsPost GibbsFacts GibbsState SMPost SMRatio SMSim SMBalance SMReverse.
From Verif Require Import Univ UnivFacts RealInst RealFacts SMReal.
Import ListNotations.
Local Open Scope R_scope.
Arguments prodR l : simpl never.
Arguments sumR l : simpl never.

(** C46, split part. *)
Lemma nnig_split_ratio : forall lg G p (data : list R) n_restr (a : alg (nnig_iface lg G p)) f s r t d,
  let post_ := posterior (fun l => ewens_pitman t d (sizes_of l)) (fun ids => exp (log_marg lg (a_hyp a) (pick data ids))) in
  let k := length (distinct (a_alloc a)) in
  gen_ok G -> valid (a_hyp a) -> strength (a_mix a) = Some (t, d) -> 0 <= d < 1 -> - d < t ->
  sm_state (nnig_iface lg G p) data a ->
  (f < length data)%nat -> (s < length data)%nat -> f <> s -> nth_error (a_alloc a) f = nth_error (a_alloc a) s ->
  exists g r1 g2 lp r2 w a',
    launch_state (nnig_iface lg G p) data n_restr f s a r = Ok (g, r1) /\
    @restricted_gs (nnig_iface lg G p) data a f false g r1 = Ok ((g2, lp), r2) /\
    @split_or_merge (nnig_iface lg G p) data f s g a r1 =
      (let '(u, r3) := g_unif G 0 1 r2 in Ok (if xltb u w then a' else a, r3)) /\
    splits (length data) (a_alloc a) (a_alloc a') /\ 0 < xexp lp /\
    xexp w * xexp lp * (post_ (a_alloc a) * (t + d * INR k)) = post_ (a_alloc a') * (t + 2 * d) /\
    (xexp w * xexp lp * post_ (a_alloc a) = post_ (a_alloc a') <-> d = 0 \/ k = 2%nat).
Proof.
  intros lg G p data n_restr a f s r t d post_ k HG Hv Hst Hd Ht Ha Hf Hs Hfs Heq.
  destruct (nnig_split lg G p data n_restr a f s r t d HG Hv Hst Hd Ht Ha Hf Hs Hfs Heq)
    as (g & r1 & g2 & lp & r2 & w & a' & g' & g2' & w' & a'' & E1 & E2 & E3 & E4 & _ & _ & _ & _ & Pl & EA & AB & _).
  exists g, r1, g2, lp, r2, w, a'. do 5 (split; [assumption|]).
  fold post_ in EA. fold k in EA. split; [exact EA|].
  assert (Na : a_alloc a <> []) by (destruct Ha as (((HL & _) & _) & _); intros X; rewrite X in HL; change (0%nat = length data) in HL; lia).
  pose proof (tK_pos t d Hd Ht _ Na) as PK. fold k in PK. assert (T2 : 0 < t + 2 * d) by lra.
  assert (Pa : 0 < post_ (a_alloc a)).
  { apply posterior_pos; [apply (ep_prior t d Hd Ht)|intros; apply exp_pos|exact Na]. }
  assert (Pw : 0 < xexp w).
  { pose proof (xexp_nonneg w). destruct (Req_dec (xexp w) 0) as [X|X]; [|lra]. rewrite X in AB. lra. }
  assert (PX : 0 < xexp w * xexp lp * post_ (a_alloc a)) by (apply Rmult_lt_0_compat; [apply Rmult_lt_0_compat; [exact Pw|exact Pl]|exact Pa]).
  assert (Key : t + 2 * d = t + d * INR k <-> d = 0 \/ k = 2%nat).
  { split.
    - intros H. destruct (Req_dec d 0) as [X|X]; [auto|]. right. apply INR_eq. simpl. apply Rmult_eq_reg_l with d; lra.
    - intros [H|H]; rewrite H; simpl; lra. }
  rewrite <- Key. clearbody post_ k. split.
  - intros H. rewrite <- H in EA. apply Rmult_eq_reg_l with (xexp w * xexp lp * post_ (a_alloc a)); [|lra]. rewrite <- EA. ring.
  - intros H. rewrite H in EA. apply Rmult_eq_reg_r with (t + d * INR k); [|lra]. rewrite <- EA. ring.
Qed.

Definition smG : gen := mkGen unit (fun m _ r => (m, r)) (fun a b r => (b / a, r)) (fun a b r => (a / b, r))
  (fun a _ r => (a, r)) (fun ps r => (0%nat, r)).
Definition smhy : nig := mkNIG 0 1 2 2.
Definition smI : Iface := nnig_iface (fun _ => 0) smG (NIGFixed 0 1 2 2).
Definition smdata : list R := [1; 2; 4].
Definition smpost (t d : R) := posterior (fun l => ewens_pitman t d (sizes_of l)) (fun ids => exp (log_marg (fun _ => 0) smhy (pick smdata ids))).
Definition smdp : alg smI := rep_state smI smdata (covs0 smI smdata) smhy (MixDP (DPFixed 2) (mkDp 2 (Some (Fin (ln 2))))) [0; 0; 0]%nat.
Definition smpymix : Mix smI := MixPY (PYFixed (- / 4) (/ 2)) (mkPy (- / 4) (/ 2)).
Definition smpy : alg smI := rep_state smI smdata (covs0 smI smdata) smhy smpymix [0; 0; 0]%nat.
Definition smpy3 : alg smI := rep_state smI smdata (covs0 smI smdata) smhy smpymix [0; 1; 2]%nat.

Lemma smG_ok : gen_ok smG.
Proof. intros [|p ps] r H; [congruence|simpl; lia]. Qed.
Lemma smhy_valid : valid smhy.
Proof. unfold valid, smhy; simpl; lra. Qed.

Lemma dp_balance : exists g g2 lp w a' g' g2' w' a'',
  launch_state smI smdata 1 0 1 smdp tt = Ok (g, tt) /\
  @restricted_gs smI smdata smdp 0 false g tt = Ok ((g2, lp), tt) /\
  @split_or_merge smI smdata 0 1 g smdp tt = Ok (if xltb 0 w then a' else smdp, tt) /\
  splits 3 (a_alloc smdp) (a_alloc a') /\
  launch_state smI smdata 1 0 1 a' tt = Ok (g', tt) /\
  @restricted_gs smI smdata a' 0 true g' tt = Ok ((g2', lp), tt) /\
  @split_or_merge smI smdata 0 1 g' a' tt = Ok (if xltb 0 w' then a'' else a', tt) /\
  a_alloc a'' = a_alloc smdp /\ xexp w * xexp w' = 1 /\
  smpost 2 0 (a_alloc smdp) * (xexp lp * Rmin 1 (xexp w)) = smpost 2 0 (a_alloc a') * Rmin 1 (xexp w').
Proof.
  assert (Hin : In [0; 0; 0]%nat (clusterings (length smdata))) by (vm_compute; tauto).
  destruct (rep_state_ok smI smdata (covs0 smI smdata) smhy (MixDP (DPFixed 2) (mkDp 2 (Some (Fin (ln 2))))) _ Hin) as (H1 & H2 & H3 & H4 & H5 & H6).
  fold smdp in *.
  destruct (nnig_split (fun _ => 0) smG (NIGFixed 0 1 2 2) smdata 1 smdp 0 1 tt 2 0 smG_ok) as
    (g & r1 & g2 & lp & r2 & w & a' & g' & g2' & w' & a'' & E1 & E2 & E3 & E4 & E5 & E6 & E7 & E8 & _ & _ & E9 & E10); simpl; try lra; try lia; auto.
  - exact smhy_valid.
  - unfold strength; simpl. rewrite exp_ln by lra. reflexivity.
  - split; [exact H1|]. split; [exact H2|exact H3].
  - destruct r1, r2. exists g, g2, lp, w, a', g', g2', w', a''. repeat (split; [assumption|]).
    apply (proj2 E10). left. reflexivity.
Qed.

Lemma py_split_wrong : exists (data : list R) (a : alg smI) t d g g2 lp w a',
    sm_state smI data a /\ strength (a_mix a) = Some (t, d) /\ 0 < d < 1 /\ - d < t /\
    launch_state smI data 1 0 1 a tt = Ok (g, tt) /\
    @restricted_gs smI data a 0 false g tt = Ok ((g2, lp), tt) /\
    @split_or_merge smI data 0 1 g a tt = Ok (if xltb 0 w then a' else a, tt) /\
    xexp w * xexp lp * posterior (fun l => ewens_pitman t d (sizes_of l)) (fun ids => exp (log_marg (fun _ => 0) (a_hyp a) (pick data ids))) (a_alloc a)
    <> posterior (fun l => ewens_pitman t d (sizes_of l)) (fun ids => exp (log_marg (fun _ => 0) (a_hyp a) (pick data ids))) (a_alloc a').
Proof.
  assert (Hin : In [0; 0; 0]%nat (clusterings (length smdata))) by (vm_compute; tauto).
  destruct (rep_state_ok smI smdata (covs0 smI smdata) smhy smpymix _ Hin) as (H1 & H2 & H3 & H4 & H5 & H6).
  fold smpy in *.
  destruct (nnig_split_ratio (fun _ => 0) smG (NIGFixed 0 1 2 2) smdata 1 smpy 0 1 tt (- / 4) (/ 2) smG_ok) as
    (g & r1 & g2 & lp & r2 & w & a' & E1 & E2 & E3 & _ & _ & _ & E4); simpl; try lra; try lia; auto.
  - exact smhy_valid.
  - split; [exact H1|]. split; [exact H2|exact H3].
  - destruct r1, r2. exists smdata, smpy, (- / 4), (/ 2), g, g2, lp, w, a'.
    split; [split; [exact H1|split; [exact H2|exact H3]]|]. split; [reflexivity|]. split; [lra|]. split; [lra|].
    split; [exact E1|]. split; [exact E2|]. split; [exact E3|].
    intros X. apply (proj1 E4) in X. destruct X as [X|X]; [lra|]. vm_compute in X. discriminate.
Qed.

Lemma py_merge : exists g g2 lp w a',
  launch_state smI smdata 1 0 1 smpy3 tt = Ok (g, tt) /\
  @restricted_gs smI smdata smpy3 0 true g tt = Ok ((g2, lp), tt) /\
  @split_or_merge smI smdata 0 1 g smpy3 tt = Ok (if xltb 0 w then a' else smpy3, tt) /\
  splits 3 (a_alloc a') (a_alloc smpy3) /\
  xexp w * (smpost (- / 4) (/ 2) (a_alloc smpy3) * (- / 4 + 2 * / 2)) =
  xexp lp * (smpost (- / 4) (/ 2) (a_alloc a') * (- / 4 + / 2 * INR (length (distinct (a_alloc a'))))).
Proof.
  assert (Hin : In [0; 1; 2]%nat (clusterings (length smdata))) by (vm_compute; tauto).
  destruct (rep_state_ok smI smdata (covs0 smI smdata) smhy smpymix _ Hin) as (H1 & H2 & H3 & H4 & H5 & H6).
  fold smpy3 in *.
  destruct (nnig_merge (fun _ => 0) smG (NIGFixed 0 1 2 2) smdata 1 smpy3 0 1 tt (- / 4) (/ 2) smG_ok) as
    (g & r1 & g2 & lp & w & a' & E1 & E2 & E3 & E4 & _ & E5); simpl; try lra; try lia; auto.
  - exact smhy_valid.
  - split; [exact H1|]. split; [exact H2|exact H3].
  - vm_compute. discriminate.
  - destruct r1. exists g, g2, lp, w, a'. repeat (split; [assumption|]). exact E5.
Qed.
