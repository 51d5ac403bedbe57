(** * Property theorems: the settings of the program (C134) *)
From Coq Require Import String Ascii.
From Coq Require Import List NArith ZArith Bool Reals Lra Lia.
From Verif Require Import Base XReal Schema Text TextSpec TextFacts TextLex Shipped Mixings Univ Settings SettingsSpec SettingsFacts P_Text.
From Coquelicot Require Import Coquelicot.
From Verif Require Import Hier Algos Run Spec XReal PartSpec RealInst RealFacts UnivInst UnivFacts UnivRun UnivInit Eval EvalInt GaussInt GammaInt UnivInt GamFacts P_MargInt P_Esc P_Valid.
Import ListNotations.
Local Open Scope string_scope.

Lemma read_back_file : forall t m l ts, laid_out l ts -> written t m ts -> once t m -> fst (read_proto_from_file t (Some l)) = m /\ nested t m.
Proof. intros t m l ts L W O. rewrite (C133_file t m l ts L W O). split; [reflexivity|]. exists ts. split; assumption. Qed.

Ltac at_path N H := rewrite (real_given _ _ _ _ N H eq_refl).

(** ** The algorithm *)
Theorem C134_algorithm : forall l ts m id seed it bu k aux s1 s2 s3,
  laid_out l ts -> written "AlgorithmParams" m ts -> once "AlgorithmParams" m ->
  says "AlgorithmParams" m ["algo_id"] (XStr (list_ascii_of_string id)) ->
  counted "AlgorithmParams" m ["rng_seed"] seed -> counted "AlgorithmParams" m ["iterations"] it ->
  counted "AlgorithmParams" m ["burnin"] bu -> counted "AlgorithmParams" m ["init_num_clusters"] k ->
  counted "AlgorithmParams" m ["neal8_n_aux"] aux -> counted "AlgorithmParams" m ["splitmerge_n_restr_gs_updates"] s1 ->
  counted "AlgorithmParams" m ["splitmerge_n_mh_updates"] s2 -> counted "AlgorithmParams" m ["splitmerge_n_full_gs_updates"] s3 ->
  algo_settings_of (fst (read_proto_from_file "AlgorithmParams" (Some l))) = mkAS id seed it bu k aux s1 s2 s3.
Proof.
  intros l ts m id seed it bu k aux s1 s2 s3 L W O H0 H1 H2 H3 H4 H5 H6 H7 H8. destruct (read_back_file _ _ _ _ L W O) as [E N]. rewrite E. unfold algo_settings_of. cbn zeta.
  rewrite !(count_counted _ _ _ _ N H1 eq_refl), (count_counted _ _ _ _ N H2 eq_refl), (count_counted _ _ _ _ N H3 eq_refl), (count_counted _ _ _ _ N H4 eq_refl),
    (count_counted _ _ _ _ N H5 eq_refl), (count_counted _ _ _ _ N H6 eq_refl), (count_counted _ _ _ _ N H7 eq_refl), (count_counted _ _ _ _ N H8 eq_refl).
  unfold text_at. rewrite (leaf_says _ _ _ _ H0 N), string_of_list_ascii_of_string. reflexivity.
Qed.
Print Assumptions C134_algorithm.

(** ** The mixings *)
Theorem C134_dirichlet : forall l ts m p, laid_out l ts -> written "DPPrior" m ts -> once "DPPrior" m -> dp_says m p ->
  dp_prior_of (fst (read_proto_from_file "DPPrior" (Some l))) = Some p.
Proof.
  intros l ts m p L W O H. destruct (read_back_file _ _ _ _ L W O) as [E N]. rewrite E. unfold dp_prior_of. cbn zeta. destruct H as [a C H|a b C H H'|A B].
  - rewrite (case_chosen "DPPrior" m (Schema.one "totalmass" "fixed_value" 1 (KMsg "DPState")) "totalmass" N ltac:(vm_compute; tauto) eq_refl C).
    cbn [fname Schema.one]. rewrite String.eqb_refl. at_path N H. reflexivity.
  - rewrite (case_chosen "DPPrior" m (Schema.one "totalmass" "gamma_prior" 2 (KMsg "DPPrior.GammaPrior")) "totalmass" N ltac:(vm_compute; tauto) eq_refl C).
    change (fname _ =? "fixed_value") with false. cbn iota. at_path N H. at_path N H'. reflexivity.
  - rewrite case_silent; [reflexivity|]. intros f F _. cbn in F. destruct F as [<-|[<-|[]]]; split; reflexivity || assumption.
Qed.
Print Assumptions C134_dirichlet.

Theorem C134_pitman_yor : forall l ts m p, laid_out l ts -> written "PYPrior" m ts -> once "PYPrior" m -> py_says m p ->
  py_prior_of (fst (read_proto_from_file "PYPrior" (Some l))) = Some p.
Proof.
  intros l ts m p L W O H. destruct (read_back_file _ _ _ _ L W O) as [E N]. rewrite E. unfold py_prior_of. cbn zeta. destruct H as [a b C H H'|A].
  - rewrite (case_chosen "PYPrior" m (Schema.one "totalmass" "fixed_values" 1 (KMsg "PYState")) "totalmass" N ltac:(vm_compute; tauto) eq_refl C).
    at_path N H. at_path N H'. reflexivity.
  - rewrite case_silent; [reflexivity|]. intros f F _. cbn in F. destruct F as [<-|[]]; split; reflexivity || assumption.
Qed.
Print Assumptions C134_pitman_yor.

Theorem C134_finite : forall l ts m p, laid_out l ts -> written "MFMPrior" m ts -> once "MFMPrior" m -> mfm_says m p ->
  mfm_prior_of (fst (read_proto_from_file "MFMPrior" (Some l))) = Some p.
Proof.
  intros l ts m p L W O H. destruct (read_back_file _ _ _ _ L W O) as [E N]. rewrite E. unfold mfm_prior_of. cbn zeta. destruct H as [a b C H H'|A].
  - rewrite (case_chosen "MFMPrior" m (Schema.one "totalmass" "fixed_value" 1 (KMsg "MFMState")) "totalmass" N ltac:(vm_compute; tauto) eq_refl C).
    at_path N H. at_path N H'. reflexivity.
  - rewrite case_silent; [reflexivity|]. intros f F _. cbn in F. destruct F as [<-|[]]; split; reflexivity || assumption.
Qed.
Print Assumptions C134_finite.

(** ** The univariate hierarchies *)
Theorem C134_normal : forall l ts m p, laid_out l ts -> written "NNIGPrior" m ts -> once "NNIGPrior" m -> nig_says m p ->
  nig_prior_of (fst (read_proto_from_file "NNIGPrior" (Some l))) = Some p.
Proof.
  intros l ts m p L W O H. destruct (read_back_file _ _ _ _ L W O) as [E N]. rewrite E. unfold nig_prior_of. cbn zeta.
  destruct H as [a b c d C H1 H2 H3 H4|a b c d e C H1 H2 H3 H4 H5|a b c d e f g C H1 H2 H3 H4 H5 H6 H7|A B C].
  - rewrite (case_chosen "NNIGPrior" m (Schema.one "prior" "fixed_values" 1 (KMsg "NIGDistribution")) "prior" N ltac:(vm_compute; tauto) eq_refl C).
    cbn [fname Schema.one]. rewrite String.eqb_refl. at_path N H1. at_path N H2. at_path N H3. at_path N H4. reflexivity.
  - rewrite (case_chosen "NNIGPrior" m (Schema.one "prior" "normal_mean_prior" 2 (KMsg "NNIGPrior.NormalMeanPrior")) "prior" N ltac:(vm_compute; tauto) eq_refl C).
    change (fname _ =? "fixed_values") with false. change (fname _ =? "normal_mean_prior") with true. cbn iota.
    at_path N H1. at_path N H2. at_path N H3. at_path N H4. at_path N H5. reflexivity.
  - rewrite (case_chosen "NNIGPrior" m (Schema.one "prior" "ngg_prior" 3 (KMsg "NNIGPrior.NGGPrior")) "prior" N ltac:(vm_compute; tauto) eq_refl C).
    change (fname _ =? "fixed_values") with false. change (fname _ =? "normal_mean_prior") with false. cbn iota.
    at_path N H1. at_path N H2. at_path N H3. at_path N H4. at_path N H5. at_path N H6. at_path N H7. reflexivity.
  - rewrite case_silent; [reflexivity|]. intros f F _. cbn in F. destruct F as [<-|[<-|[<-|[]]]]; split; reflexivity || assumption.
Qed.
Print Assumptions C134_normal.

Theorem C134_semiconjugate : forall l ts m p, laid_out l ts -> written "NNxIGPrior" m ts -> once "NNxIGPrior" m -> nxig_says m p ->
  nxig_prior_of (fst (read_proto_from_file "NNxIGPrior" (Some l))) = Some p.
Proof.
  intros l ts m p L W O H. destruct (read_back_file _ _ _ _ L W O) as [E N]. rewrite E. unfold nxig_prior_of. cbn zeta. destruct H as [a b c d C H1 H2 H3 H4|A].
  - rewrite (case_chosen "NNxIGPrior" m (Schema.one "prior" "fixed_values" 1 (KMsg "NxIGDistribution")) "prior" N ltac:(vm_compute; tauto) eq_refl C).
    at_path N H1. at_path N H2. at_path N H3. at_path N H4. reflexivity.
  - rewrite case_silent; [reflexivity|]. intros f F _. cbn in F. destruct F as [<-|[]]; split; reflexivity || assumption.
Qed.
Print Assumptions C134_semiconjugate.

(** ** Files without the choice, in particular missing files, end the program *)
Theorem C134_missing_stops :
  (exists msg, match dp_prior_of (fst (read_proto_from_file "DPPrior" None)) with Some p => dp_init p dp_make_shared | None => UB end = Throw msg) /\
  (exists msg, match py_prior_of (fst (read_proto_from_file "PYPrior" None)) with Some p => py_init p | None => UB end = Throw msg) /\
  (exists msg, forall s, match mfm_prior_of (fst (read_proto_from_file "MFMPrior" None)) with Some p => mfm_init p s | None => UB end = Throw msg) /\
  (exists msg, match nig_prior_of (fst (read_proto_from_file "NNIGPrior" None)) with Some p => nig_init p | None => UB end = Throw msg) /\
  (exists msg, match nxig_prior_of (fst (read_proto_from_file "NNxIGPrior" None)) with Some p => nxig_init p | None => UB end = Throw msg).
Proof. repeat split; eexists; try intros; reflexivity. Qed.
Print Assumptions C134_missing_stops.

(** ** A positive parameter that is left out ends the program, too *)
Lemma zero_le : lteb 0 0 = true.
Proof. unfold lteb. destruct (Rle_dec 0 0) as [H|H]; [reflexivity|]. exfalso. apply H. right. reflexivity. Qed.

Lemma silent_zero : forall t m path x, silent t m path -> given t m path x -> x = 0%R.
Proof. intros t m path x N [(v & A & _)|[_ E]]; [destruct (N v A)|exact E]. Qed.

Theorem C134_omitted_stops : forall l ts m, laid_out l ts -> written "NNIGPrior" m ts -> once "NNIGPrior" m ->
  forall a b c d, chosen "NNIGPrior" m "fixed_values" ->
  given "NNIGPrior" m ["fixed_values"; "mean"] a -> given "NNIGPrior" m ["fixed_values"; "var_scaling"] b ->
  given "NNIGPrior" m ["fixed_values"; "shape"] c -> given "NNIGPrior" m ["fixed_values"; "scale"] d ->
  (exists s, In s ["var_scaling"; "shape"; "scale"] /\ silent "NNIGPrior" m ["fixed_values"; s]) ->
  exists p msg, nig_prior_of (fst (read_proto_from_file "NNIGPrior" (Some l))) = Some p /\ nig_init p = Throw msg.
Proof.
  intros l ts m L W O a b c d C H1 H2 H3 H4 (s & I & N). exists (NIGFixed a b c d).
  rewrite (C134_normal l ts m _ L W O (nis_fixed m a b c d C H1 H2 H3 H4)).
  unfold nig_init, nig_check. cbn [ng_vs ng_shape ng_scale].
  assert (X : b = 0%R \/ c = 0%R \/ d = 0%R).
  { destruct I as [<-|[<-|[<-|[]]]]; [left|right; left|right; right]; eapply silent_zero; eassumption. }
  destruct (lteb b 0) eqn:B; [eexists; split; reflexivity|]. destruct (lteb c 0) eqn:D; [eexists; split; reflexivity|]. destruct (lteb d 0) eqn:F; [eexists; split; reflexivity|].
  exfalso. destruct X as [->|[->| ->]]; rewrite zero_le in *; discriminate.
Qed.
Print Assumptions C134_omitted_stops.

(** ** but a misspelt mean does not: the program goes on with mean zero *)
Theorem C134_mistake_stops_refuted : exists l m msg p,
  l = txt "fixed_values { var_scaling: 0.1 shape: 2.0 scale: 2.0 maen: 5.0 }" /\
  read_proto_from_file "NNIGPrior" (Some l) = (m, msg) /\ msg <> EmptyString /\
  nig_prior_of m = Some p /\ nig_init p = Ok (mkNIG 0 (1 * / 10) 2 2).
Proof.
  eexists; eexists; eexists; eexists. split; [reflexivity|]. split; [vm_compute; reflexivity|]. split; [discriminate|]. split; [reflexivity|].
  assert (T : powerRZ 10 (-1) = (/ 10)%R) by (unfold powerRZ; cbn [Pos.to_nat Pos.iter_op]; rewrite pow_1; reflexivity).
  cbn [number nig_init nig_check ng_vs ng_shape ng_scale Z.of_N]. unfold nig_check. cbn [ng_vs ng_shape ng_scale]. rewrite !T.
  assert (X : forall x, (0 < x)%R -> lteb x 0 = false) by (intros x Hx; unfold lteb; destruct (Rle_dec x 0); [lra|reflexivity]).
  rewrite !X by lra. f_equal. f_equal; field.
Qed.
Print Assumptions C134_mistake_stops_refuted.


(** ** The tutorial: Neal2 with a Dirichlet process with gamma prior and a normal
    hierarchy with a prior on its parameters *)
Definition tutorial (i : nat) : option text := option_map snd (nth_error shipped i).

Lemma tenth : powerRZ 10 (-1) = (/ 10)%R.
Proof. unfold powerRZ. cbn [Pos.to_nat Pos.iter_op]. rewrite pow_1. reflexivity. Qed.
Lemma hundredth : powerRZ 10 (-2) = (/ 100)%R.
Proof. unfold powerRZ. cbn [Pos.to_nat Pos.iter_op Nat.add]. f_equal. simpl. lra. Qed.

Lemma tutorial_algo : algo_settings_of (fst (read_proto_from_file "AlgorithmParams" (tutorial 3))) = mkAS "Neal2" 20201124 1100 100 3 3 5 1 1.
Proof. vm_compute. reflexivity. Qed.

Lemma tutorial_hier : nig_prior_of (fst (read_proto_from_file "NNIGPrior" (tutorial 8))) =
  Some (NIGNgg (55 / 10) (225 / 100) (2 / 10) (6 / 10) 4 2 (15 / 10)).
Proof.
  assert (E : exists m, fst (read_proto_from_file "NNIGPrior" (tutorial 8)) = m /\ nig_prior_of m =
    Some (NIGNgg (55 * powerRZ 10 (-1)) (225 * powerRZ 10 (-2)) (2 * powerRZ 10 (-1)) (6 * powerRZ 10 (-1)) (40 * powerRZ 10 (-1)) (20 * powerRZ 10 (-1)) (15 * powerRZ 10 (-1)))).
  { eexists. split; [vm_compute; reflexivity|]. reflexivity. }
  destruct E as (m & -> & ->). rewrite !tenth, !hundredth. f_equal. f_equal; lra.
Qed.

Lemma tutorial_mix : dp_prior_of (fst (read_proto_from_file "DPPrior" (tutorial 6))) = Some (DPGamma 4 2).
Proof.
  assert (E : exists m, fst (read_proto_from_file "DPPrior" (tutorial 6)) = m /\ dp_prior_of m = Some (DPGamma (40 * powerRZ 10 (-1)) (20 * powerRZ 10 (-1)))).
  { eexists. split; [vm_compute; reflexivity|]. reflexivity. }
  destruct E as (m & -> & ->). rewrite !tenth. f_equal. f_equal; lra.
Qed.

Definition tutorial_run (G : gen) p mp (data : list R) (pos : nat -> nat) (st : uni_ls) (r : Gs G) :=
  let a := algo_settings_of (fst (read_proto_from_file "AlgorithmParams" (tutorial 3))) in
  neal2_run (nnig_iface lgam G p) (nig_init p) (mixing_start (PriDP mp)) data (N.to_nat (as_init a)) pos st (N.to_nat (as_maxiter a)) (N.to_nat (as_burnin a)) r.

(** On any data of at least three rows the tutorial's program ends with an exception or
    with a thousand saved states, each a clustering with parameters in their space and
    each a probability density. *)
Theorem C134_tutorial : forall G data pos st r, gen_ok G -> gen_pos G -> (3 <= length data)%nat -> (forall i, pos i < 3)%nat ->
  as_id (algo_settings_of (fst (read_proto_from_file "AlgorithmParams" (tutorial 3)))) = "Neal2" /\
  exists p mp, nig_prior_of (fst (read_proto_from_file "NNIGPrior" (tutorial 8))) = Some p /\
  dp_prior_of (fst (read_proto_from_file "DPPrior" (tutorial 6))) = Some mp /\
  nig_init p = Ok (mkNIG (55 / 10) (2 / 10 / (6 / 10)) (15 / 10) (4 / 2)) /\ dp_init mp dp_make_shared = Ok (mkDp (4 / 2) (Some (Fin 0))) /\
  ((exists msg, tutorial_run G p mp data pos st r = Throw msg) \/
   exists s out, tutorial_run G p mp data pos st r = Ok (s, out) /\ N.of_nat (length out) = 1000%N /\ forall snap, In snap out ->
     state_ok valid (length data) (s_alloc snap) (s_clusters snap) (s_hyp snap) (s_mix snap) /\
     evaluated_density (fin_like norm_lpdf) (fun y => Fin (nnig_marg_lpdf lgam (s_hyp snap) y)) (length data) (s_clusters snap) (s_mix snap)).
Proof.
  intros G data pos st r HG HP Hn Hpos. unfold tutorial_run. rewrite tutorial_algo, tutorial_hier, tutorial_mix. cbn [as_id as_seed as_init as_maxiter as_burnin]. split; [reflexivity|].
  eexists; eexists. split; [reflexivity|]. split; [reflexivity|].
  assert (X : forall x, (0 < x)%R -> lteb x 0 = false) by (intros x Hx; unfold lteb; destruct (Rle_dec x 0); [lra|reflexivity]).
  split; [cbn [nig_init]; rewrite !X by lra; reflexivity|]. split; [cbn [dp_init]; rewrite !X by lra; reflexivity|].
  assert (H2 : (2 <= length data)%nat) by lia. pose proof (Logic.conj Hn Hpos) as F.
  set (p := NIGNgg _ _ _ _ _ _ _). set (mp := PriDP _). set (k := N.to_nat 3). set (it := N.to_nat 1100). set (bu := N.to_nat 100). cbn zeta.
  destruct (C112_never_undefined G mp data k pos st it bu r HG HP H2 F) as [Q _]. destruct (Q p) as [[([s out] & R)|T] _]; [right|left; exact T].
  exists s, out. split; [exact R|]. destruct (C112_neal2_normal G p mp data k pos st it bu r s out HG HP H2 F R) as [L K]. split; [rewrite L; unfold it, bu; lia|exact K].
Qed.
Print Assumptions C134_tutorial.

(** The exception does occur: the auxiliary gamma value of the total mass is large. *)
Theorem C134_tutorial_completes_refuted : exists G data pos st r p mp msg, gen_ok G /\ gen_pos G /\ (3 <= length data)%nat /\ (forall i, pos i < 3)%nat /\
  nig_prior_of (fst (read_proto_from_file "NNIGPrior" (tutorial 8))) = Some p /\
  dp_prior_of (fst (read_proto_from_file "DPPrior" (tutorial 6))) = Some mp /\
  tutorial_run G p mp data pos st r = Throw msg.
Proof.
  assert (H1 : gen_ok g10) by (intros ps r N; cbn; apply Nat.mod_upper_bound; destruct ps; [congruence|discriminate]).
  assert (H2 : gen_pos g10) by (split; cbn; intros; lra).
  assert (F : fits (N.to_nat 3) (fun i => Nat.modulo i 3) 3) by (split; [reflexivity|]; intro i; apply (Nat.mod_upper_bound i 3); discriminate).
  assert (X : forall x, (0 < x)%R -> lteb x 0 = false) by (intros x Hx; unfold lteb; destruct (Rle_dec x 0); [lra|reflexivity]).
  assert (E : nig_init (NIGNgg (55 / 10) (225 / 100) (2 / 10) (6 / 10) 4 2 (15 / 10)) = Ok (mkNIG (55 / 10) (2 / 10 / (6 / 10)) (15 / 10) (4 / 2))) by (cbn [nig_init]; rewrite !X by lra; reflexivity).
  assert (I1 : (1 <= N.to_nat 1100)%nat) by lia.
  destruct (C112_gamma_mass_throws g10 _ _ 4 2 [0; 1; 5]%R (N.to_nat 3) (fun i => Nat.modulo i 3) (mkLS 0 0) (N.to_nat 1100) (N.to_nat 100) 0%nat H1 E ltac:(lra) ltac:(lra) ltac:(cbn; lia) F I1) as (msg & R).
  { intro q. cbn [g10 g_gamma fst]. replace 2%R with (1 + 1)%R by lra. rewrite exp_plus. pose proof exp_le_3. pose proof (exp_pos 1). nra. }
  exists g10, [0; 1; 5]%R, (fun i => Nat.modulo i 3), (mkLS 0 0), 0%nat, (NIGNgg (55 / 10) (225 / 100) (2 / 10) (6 / 10) 4 2 (15 / 10)), (DPGamma 4 2), msg.
  split; [exact H1|]. split; [exact H2|]. split; [cbn; lia|]. split; [intro i; apply (Nat.mod_upper_bound i 3); discriminate|]. split; [exact tutorial_hier|]. split; [exact tutorial_mix|].
  unfold tutorial_run. rewrite tutorial_algo. exact R.
Qed.
Print Assumptions C134_tutorial_completes_refuted.

(** ** Examples *)
Lemma silent_leaf : forall t m path, nested t m -> leaf t m path = None -> silent t m path.
Proof. intros t m path N L v S. rewrite (leaf_says t m path v S N) in L. discriminate. Qed.

(* fixed_value{totalmass:2}, without any blank *)
Definition dp_two : text := txt "fixed_value{totalmass:2}".
Definition dp_two_tokens : list token := [word_of "fixed_value"; TSym "{"; word_of "totalmass"; TSym ":"; TNum 2; TSym "}"].
Definition dp_two_message : tmessage := [(1%N, XMsg [(1%N, XDec false 2 0)])].

Lemma dp_two_inner : written "DPState" [(1%N, XDec false 2 0)] [word_of "totalmass"; TSym ":"; TNum 2] /\ once "DPState" [(1%N, XDec false 2 0)].
Proof.
  split.
  - apply (wr_field "DPState" (sing "totalmass" 1 KDouble) [XDec false 2 0] [TSym ":"; TNum 2] [] [] []); [left; reflexivity| |left; reflexivity|apply wr_end].
    apply (fw_one _ [TSym ":"] _ [TNum 2]); [left; reflexivity|]. apply vw_scalar, sw_whole.
  - split; [intros f [<-|[]] _; cbn; lia|]. intros f g o v w [<-|[]] _ H; discriminate.
Qed.
Lemma dp_two_written : written "DPPrior" dp_two_message dp_two_tokens /\ once "DPPrior" dp_two_message.
Proof.
  split.
  - apply (wr_field "DPPrior" (Schema.one "totalmass" "fixed_value" 1 (KMsg "DPState")) [XMsg [(1%N, XDec false 2 0)]]
      [TSym "{"; word_of "totalmass"; TSym ":"; TNum 2; TSym "}"] [] [] []); [left; reflexivity| |left; reflexivity|apply wr_end].
    apply (fw_one _ [] _ [TSym "{"; word_of "totalmass"; TSym ":"; TNum 2; TSym "}"]); [right; split; reflexivity|].
    exact (vw_braces "DPState" _ _ (proj1 dp_two_inner) (proj2 dp_two_inner)).
  - split; [intros f [<-|[<-|[]]] _; cbn; lia|]. intros f g o v w [<-|[<-|[]]] [<-|[<-|[]]] _ _ A B; try reflexivity; cbn in A, B; destruct A as [A|[]]; destruct B as [B|[]]; discriminate.
Qed.
Lemma dp_two_laid : laid_out dp_two dp_two_tokens.
Proof.
  assert (Sy : forall c, In c [":"; "{"; "}"; "<"; ">"; "["; "]"; ","; ";"; "-"]%char -> spells [c] (TSym c)) by (intros; constructor; assumption).
  assert (P1 : forall c : ascii, plain [c]) by (intros c x r E N; injection E as _ <-; congruence).
  lay ""%string "fixed_value"%string (word_of "fixed_value") "{totalmass:2}"%string; [apply sp_id; [reflexivity|repeat constructor]|].
  lay ""%string "{"%string (TSym "{") "totalmass:2}"%string; [apply Sy; cbn; tauto|].
  lay ""%string "totalmass"%string (word_of "totalmass") ":2}"%string; [apply sp_id; [reflexivity|repeat constructor]|].
  lay ""%string ":"%string (TSym ":") "2}"%string; [apply Sy; cbn; tauto|].
  lay ""%string "2"%string (TNum 2) "}"%string; [apply sp_num; [apply digit1; [reflexivity|reflexivity]|discriminate|apply P1]|].
  lay ""%string "}"%string (TSym "}") ""%string; [apply Sy; cbn; tauto|]. apply lo_end. constructor.
Qed.

Example C134_dirichlet_example : dp_prior_of (fst (read_proto_from_file "DPPrior" (Some dp_two))) = Some (DPFixed (2 * powerRZ 10 0)).
Proof.
  refine (C134_dirichlet dp_two dp_two_tokens dp_two_message _ dp_two_laid (proj1 dp_two_written) (proj2 dp_two_written) _).
  set (f := Schema.one "totalmass" "fixed_value" 1 (KMsg "DPState")).
  assert (F : In f (fields "DPPrior")) by (left; reflexivity). assert (I : In (fnum f, XMsg [(1%N, XDec false 2 0)]) dp_two_message) by (left; reflexivity).
  apply dps_fixed; [exists (XMsg [(1%N, XDec false 2 0)]); exact (says_here "DPPrior" _ f _ F eq_refl I)|]. left. exists (XDec false 2 0). split; [|exact (sf_pos 2 0)].
  refine (says_in "DPPrior" _ f "DPState" _ ["totalmass"] _ F eq_refl eq_refl I _).
  apply (says_here "DPState" _ (sing "totalmass" 1 KDouble)); [left; reflexivity|reflexivity|left; reflexivity].
Qed.

(* the other theorems on real files *)
Example C134_read_example :
  algo_settings_of (fst (read_proto_from_file "AlgorithmParams" (Some (txt "algo_id: 'Neal3' iterations: 10")))) = mkAS "Neal3" 0 10 0 0 0 0 0 0 /\
  py_prior_of (fst (read_proto_from_file "PYPrior" (Some (txt "fixed_values { strength: 3 discount: 1 }")))) = Some (PYFixed (3 * powerRZ 10 0) (1 * powerRZ 10 0)) /\
  nxig_prior_of (fst (read_proto_from_file "NNxIGPrior" (Some (txt "fixed_values { mean: -1 var: 2 shape: 3 scale: 4 }")))) =
    Some (NxIGFixed (- (1 * powerRZ 10 0)) (2 * powerRZ 10 0) (3 * powerRZ 10 0) (4 * powerRZ 10 0)) /\
  nig_prior_of (fst (read_proto_from_file "NNIGPrior" (Some (txt "fixed_values { mean: 1 shape: 3 scale: 4 }")))) =
    Some (NIGFixed (1 * powerRZ 10 0) 0 (3 * powerRZ 10 0) (4 * powerRZ 10 0)) /\
  mfm_prior_of (fst (read_proto_from_file "MFMPrior" (tutorial 5))) = Some (MFMFixed (10 * powerRZ 10 0) (1 * powerRZ 10 0)).
Proof.
  assert (E : forall A t f (m : tmessage) (g : tmessage -> A), fst (read_proto_from_file t f) = m -> g (fst (read_proto_from_file t f)) = g m) by (intros; congruence).
  split; [vm_compute; reflexivity|]. repeat split; (etransitivity; [eapply E; vm_compute; reflexivity|reflexivity]).
Qed.
