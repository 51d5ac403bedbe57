(** * Property theorems: the semi-hierarchical Dirichlet process sampler. *)
From Coq Require Import String.
From Coq Require Import Bool List Arith ZArith Reals Lia Lra Permutation.
From Verif Require Import Base XReal Semi SemiWp SemiSpec SemiCount SemiInv SemiInv2 SemiInv3 SemiInv4 SemiRelabel SemiUnique SemiInit SemiStep SemiTwice SemiEx.
Import ListNotations.
Local Open Scope nat_scope.

(** ** C59: relabelling *)
Theorem C59_relabel :
  forall (I : SH) (data : list (list (Datum I))), cols I = 1 -> (forall d, In d data -> d <> []) ->
  forall s, wf I data s -> exists s' ft fs, relabel I data s = Ok s' /\ wf I data s' /\
    renamed I data s s' ft fs /\ no_empty I data s' /\ counts_exact I data s'.
Proof. exact relabel_ok. Qed.
Print Assumptions C59_relabel.

(** ** C60: count rows *)
Theorem C60_open_table_rows :
  forall (I : SH) (s : sst I) logn logm r d hdp g s' logn' logm' g',
  open_table I s logn logm r d hdp g = Ok ((s', logn', logm'), g') ->
  length (nth r (s_rest I s') []) = S (length (nth r (s_rest I s) [])) /\
  length (nth r (s_n I s') []) = (if Rlt_dec (fst (unif I g)) (s_w I s) then 2 else 1) + length (nth r (s_n I s) []).
Proof. exact open_table_len. Qed.
Print Assumptions C60_open_table_rows.

(** Over a whole sweep: one superfluous entry per private table opened; the
    others are the exact counts. *)
Theorem C60_sweep_rows :
  forall (I : SH) (P : params) (data : list (list (Datum I))) z (s : sst I) g,
  cols I = 1 -> gen_ok I -> cvt I = Some z -> wf I data s ->
  exists s' g', update_table_allocs I P data s g = Ok (s', g') /\ wf I data s' /\
    (forall r, r < length data ->
       length (nth r (s_n I s') []) + length (nth r (s_priv I s) []) = length (nth r (s_rest I s') []) + length (nth r (s_priv I s') [])) /\
    (forall r l, r < length data -> l < length (nth r (s_rest I s') []) ->
       nth l (nth r (s_n I s') []) 1%Z = Z.of_nat (count_occ Nat.eq_dec (seated I data s' r) l)).
Proof. exact sweep_rows. Qed.
Print Assumptions C60_sweep_rows.

(** ** C61: initialisation *)
Theorem C61_initialise :
  forall (I : SH) (P : params) (data : list (list (Datum I))) g, cols I = 1 -> gen_ok I ->
  ((forall d, In d data -> 5 <= length d) ->
     exists s g', initialize I P data (fresh I) g = Ok (s, g') /\ opened I data (length data) s /\ wf I data s /\ shared_coherent I data s /\
       forall r, r < length data -> nth r (s_n I s) [] = tally 10 (seated I data s r)) /\
  ((exists d, In d data /\ length d < 5) -> initialize I P data (fresh I) g = UB).
Proof. exact initialise_iff. Qed.
Print Assumptions C61_initialise.

(** ** C82: no iteration leaves the well-formed states *)
Theorem C82_step :
  forall (I : SH) (P : params) (data : list (list (Datum I))) pseudo z adapt (s : sst I) g,
  cols I = 1 -> (forall d, In d data -> d <> []) -> data <> [] -> gen_ok I -> cvt I = Some z ->
  (adapt = false -> pseudo_ok I data pseudo) -> wf I data s ->
  exists s' g', step I P data pseudo adapt (s, g) = Ok (s', g') /\ wf I data s' /\ no_empty I data s' /\ counts_exact I data s'.
Proof. exact step_total. Qed.
Print Assumptions C82_step.

(** All or none of the iterations are collected. *)
Theorem C82_run :
  forall (I : SH) (P : params) (data : list (list (Datum I))) pseudo (A : Type) (wr : St I -> res A) z adapt_iter burnin iter thin g,
  cols I = 1 -> data <> [] -> gen_ok I -> cvt I = Some z -> (forall x, exists a, wr x = Ok a) ->
  pseudo_ok I data pseudo -> 0 < thin -> (forall d, In d data -> 5 <= length d) ->
  exists outs s' g', run I P data pseudo wr adapt_iter burnin iter thin (fresh I) g = Ok (outs, (s', g')) /\ wf I data s' /\
    length outs = (if iter mod thin =? 0 then iter else 0) /\
    Forall (fun o => exists s, (wf I data s /\ no_empty I data s /\ counts_exact I data s) /\ get_state I data wr s = Ok o) outs.
Proof. exact run_total. Qed.
Print Assumptions C82_run.

(** What is written: every restaurant once, the shared atoms once per group. *)
Theorem C82_get_state :
  forall (I : SH) (data : list (list (Datum I))) (A : Type) (wr : St I -> res A) s, data <> [] ->
  (forall x, exists a, wr x = Ok a) -> wf I data s ->
  exists o, get_state I data wr s = Ok o /\ o_n A o = s_n I s /\ o_ts A o = s_ts I s /\ o_tp A o = s_tp I s /\ o_tab A o = s_tab I s /\
    o_c A o = s_ra I s /\ map (@length A) (o_stars A o) = map (@length nat) (s_rest I s) /\ length (o_taus A o) = length data * length (s_shared I s).
Proof. exact get_state_total. Qed.
Print Assumptions C82_get_state.

(** ** C83: empty tables and the logarithm of zero *)
Theorem C83_empty_table_undefined :
  forall (I : SH) (P : params) (data : list (list (Datum I))), cols I = 1 -> forall s g, cvt I = None -> wf I data s ->
  (exists r l, r < length data /\ l < length (nth r (s_rest I s) []) /\ ~ In l (seated I data s r)) \/
  (exists h, h < length (s_shared I s) /\ ~ In h (dishes I data s)) ->
  update_table_allocs I P data s g = UB.
Proof. exact table_allocs_ub. Qed.
Print Assumptions C83_empty_table_undefined.

Theorem C83_run_undefined :
  forall (I : SH) (P : params) (data : list (list (Datum I))) pseudo (A : Type) (wr : St I -> res A) adapt_iter burnin iter thin g,
  cols I = 1 -> data <> [] -> gen_ok I -> cvt I = None -> (forall d, In d data -> 5 <= length d) ->
  run I P data pseudo wr (S adapt_iter) burnin iter thin (fresh I) g = UB.
Proof. exact run_undefined. Qed.
Print Assumptions C83_run_undefined.

(** ** C84: truncated logarithms of the counts *)
Theorem C84_truncated_log_weights :
  forall (I : SH) n k, (0 < n)%Z -> ilog I n = Ok k -> (exp (IZR k) <= IZR n < exp 1 * exp (IZR k))%R.
Proof. exact ilog_bounds. Qed.
Print Assumptions C84_truncated_log_weights.

Theorem C84_count_weights_refuted : exists (I : SH) (n k : Z), (0 < n)%Z /\ ilog I n = Ok k /\ exp (IZR k) <> IZR n.
Proof. exact ilog_wrong. Qed.
Print Assumptions C84_count_weights_refuted.

(** ** C85: leaving a shared table *)
Theorem C85_leave_shared :
  forall (I : SH) (s : sst I) logn logm i j r t h s1 logn1 logm1, at2 (s_tab I s) i j = Ok t -> at2 (s_ts I s) r t = Ok (Some h) ->
  leave_table I s logn logm i j r = Ok (s1, logn1, logm1) ->
  nth h (s_m I s1) 0%Z = (nth h (s_m I s) 0 - 1)%Z /\ ilog I (Z.of_nat h) = Ok (nth h logm1 0%Z) /\ s_ts I s1 = s_ts I s /\ s_tab I s1 = s_tab I s.
Proof. exact leave_shared. Qed.
Print Assumptions C85_leave_shared.

Theorem C85_shared_counts_refuted :
  exists (s s' : sst toy1) ln lm, wf toy1 data2 s /\ counts_exact toy1 data2 s /\
  leave_table toy1 s [[0%Z]] [0%Z; 0%Z] 0 0 0 = Ok (s', ln, lm) /\
  nth 0 (nth 0 (s_n toy1 s') []) 0%Z = 1%Z /\ s_ts toy1 s' = s_ts toy1 s /\
  s_m toy1 s' <> tally 2 (dishes toy1 data2 s').
Proof. exact (ex_intro _ at_shared leave_miscounts). Qed.
Print Assumptions C85_shared_counts_refuted.

(** ** C86: tables keep the object of the atom they served before *)
Theorem C86_to_shared_keeps_objects :
  forall (I : SH) (P : params) (data : list (list (Datum I))) (s : sst I) g, cols I = 1 -> gen_ok I -> wf I data s ->
  exists s' g', update_to_shared I P data s g = Ok (s', g') /\ wf I data s' /\ s_rest I s' = s_rest I s /\
    s_m I s' = tally (length (s_shared I s')) (dishes I data s').
Proof. exact to_shared_keeps. Qed.
Print Assumptions C86_to_shared_keeps_objects.

Theorem C86_shared_coherent_refuted :
  exists (s s' : sst toy1) g g', wf toy1 data2 s /\ shared_coherent toy1 data2 s /\
  update_to_shared toy1 pars data2 s g = Ok (s', g') /\ ~ shared_coherent toy1 data2 s'.
Proof. exact to_shared_breaks. Qed.
Print Assumptions C86_shared_coherent_refuted.

Theorem C86_restored :
  forall (I : SH) (data : list (list (Datum I))) (s : sst I) g, cols I = 1 -> wf I data s ->
  exists s' g', update_unique_vals I data s g = Ok (s', g') /\ wf I data s' /\ shared_coherent I data s'.
Proof. exact unique_restores. Qed.
Print Assumptions C86_restored.

(** ** C87: atoms are drawn given exactly the observations that use them *)
Theorem C87_atoms_given_their_data :
  forall (I : SH) (data : list (list (Datum I))) (s : sst I) g, cols I = 1 -> wf I data s ->
  exists s' g', update_unique_vals I data s g = Ok (s', g') /\
  (forall r l, r < length data -> l < length (nth r (s_rest I s) []) ->
     exists x, nth_error (s_heap I s') (nth l (nth r (s_rest I s') []) 0) = Some x /\
       drawn I (match nth l (nth r (s_ts I s) []) None with Some h => served I data s h | None => held I data s r l end) x) /\
  (forall h, h < length (s_shared I s) ->
     exists x, nth_error (s_heap I s') (nth h (s_shared I s') 0) = Some x /\ drawn I (served I data s h) x).
Proof. exact atoms_given_data. Qed.
Print Assumptions C87_atoms_given_their_data.

(** ** C88: a sampler object cannot be run twice *)
Theorem C88_second_run_undefined :
  forall (I : SH) (P : params) (data : list (list (Datum I))) pseudo (A : Type) (wr : St I -> res A) adapt_iter burnin iter thin (s : sst I) g,
  cols I = 1 -> data <> [] -> (forall d, In d data -> d <> []) -> wf I data s ->
  run I P data pseudo wr adapt_iter burnin iter thin s g = UB.
Proof. exact second_run. Qed.
Print Assumptions C88_second_run_undefined.

(** ** C89: several columns *)
Theorem C89_multivariate_undefined :
  forall (I : SH) (P : params) (data : list (list (Datum I))) pseudo (A : Type) (wr : St I -> res A) adapt_iter burnin iter thin g,
  gen_ok I -> data <> [] -> (forall d, In d data -> d <> []) -> 2 <= cols I ->
  run I P data pseudo wr adapt_iter burnin iter thin (fresh I) g = UB.
Proof. exact run_cols_ub. Qed.
Print Assumptions C89_multivariate_undefined.

(** ** C90: collecting writes atoms into a message of another type *)
Theorem C90_collecting_undefined :
  forall (I : SH) (P : params) (data : list (list (Datum I))) pseudo (A : Type) z adapt_iter burnin iter thin g,
  cols I = 1 -> data <> [] -> gen_ok I -> cvt I = Some z -> pseudo_ok I data pseudo -> (forall d, In d data -> 5 <= length d) ->
  0 < iter -> iter mod thin = 0 ->
  run I P data pseudo (@write_clusval I A) adapt_iter burnin iter thin (fresh I) g = UB.
Proof. exact collecting. Qed.
Print Assumptions C90_collecting_undefined.

(** ** C91: private or shared *)
Theorem C91_private_choice_refuted :
  exists (s : sst toy2) (d : nat) (hdp : list xreal) (g : list nat) s' ln lm g',
  (0 < shared_marg hdp)%R /\ (fst (unif toy2 g) < private_prob (s_w toy2 s) (xexp (marg toy2 d)) (shared_marg hdp))%R /\
  open_table toy2 s [[]] [] 0 d hdp g = Ok ((s', ln, lm), g') /\ s_tp toy2 s' = [[None]].
Proof. exact (ex_intro _ half open_ignores_data). Qed.
Print Assumptions C91_private_choice_refuted.

(** ** C92: an unknown update mode never moves a group *)
Theorem C92_unknown_mode :
  forall (I : SH) (P : params) (data : list (list (Datum I))) (s : sst I) g, cols I = 1 -> wf I data s ->
  p_mode P <> "full"%string -> p_mode P <> "metro_base"%string -> p_mode P <> "metro_dist"%string ->
  exists g', update_rest_allocs I P data s g = Ok (s, g').
Proof. exact frozen. Qed.
Print Assumptions C92_unknown_mode.

(** ** C93: an empty table outweighs a table with one observation *)
Theorem C93_empty_table_weight : forall n, (n <= 0)%Z -> (exp (rlog 1) < exp (rlog n))%R.
Proof. exact rlog_empty. Qed.
Print Assumptions C93_empty_table_weight.

(** ** Examples *)
Definition data5 : list (list nat) := [[1; 2; 3; 4; 5]; [6; 7; 8; 9; 10; 11]].
Definition pseudo5 : list (list (pstate toy1)) := [[([(false, []); (false, [3])], [0; 1; 1])]; [([(true, [4])], [0])]].

Lemma pseudo5_ok : pseudo_ok toy1 data5 pseudo5.
Proof.
  split; [cbn; lia|]. exists 1. split; [lia|]. intros r Hr. destruct r as [|[|r]]; [| |cbn in Hr; lia]; (split; [reflexivity|]); repeat constructor; cbn; try discriminate; repeat constructor.
Qed.

Lemma data5_ge : forall d, In d data5 -> 5 <= length d.
Proof. intros d [<-|[<-|[]]]; cbn; lia. Qed.
Lemma data5_ne : forall d, In d data5 -> d <> [].
Proof. intros d [<-|[<-|[]]]; discriminate. Qed.

(** One observation at table 1 of three, one at table 2; table 0 and shared
    atom 0 go. *)
Definition untidy : sst toy1 :=
  mkS toy1 [(false, [1]); (false, [2]); (false, [3]); (false, [4])] [[0; 1; 3]] [[0; 1]] [2; 3] [[0%Z; 0%Z; 0%Z]] [[]] [[]] [[1; 2]] [0] [true] [1%R]
      [[None; None; Some 1]] [[Some 0; Some 1; None]] [0%Z; 0%Z] 0%R.

Example C59_example : exists s', relabel toy1 data2 untidy = Ok s' /\ s_rest toy1 s' = [[1; 3]] /\ s_priv toy1 s' = [[1]] /\ s_shared toy1 s' = [3] /\
  s_tab toy1 s' = [[0; 1]] /\ s_ts toy1 s' = [[None; Some 0]] /\ s_tp toy1 s' = [[Some 0; None]] /\ s_n toy1 s' = [[1%Z; 1%Z]] /\ s_m toy1 s' = [1%Z].
Proof. eexists. split; [vm_compute; reflexivity|]. repeat split. Qed.

Example C59_instance : exists s' ft fs, relabel toy1 data2 at_shared = Ok s' /\ wf toy1 data2 s' /\ renamed toy1 data2 at_shared s' ft fs /\
  no_empty toy1 data2 s' /\ counts_exact toy1 data2 s'.
Proof. apply C59_relabel; [reflexivity|intros d [<-|[]]; discriminate|apply at_shared_wf]. Qed.

(** A private table opened in a restaurant of one table. *)
Definition eager : sst toy1 := w_w toy1 1%R at_shared.
Example C60_example : exists s' ln lm g', open_table toy1 eager [[0%Z]] [0%Z; 0%Z] 0 7 [] [] = Ok ((s', ln, lm), g') /\
  s_n toy1 s' = [[2%Z; 1%Z; 1%Z]] /\ s_rest toy1 s' = [[0; 2]].
Proof.
  eexists. eexists. eexists. eexists. split; [|split].
  - unfold open_table. cbn -[Rlt_dec IZR]. destruct (Rlt_dec 0 1) as [H|H]; [|exfalso; lra]. cbn. reflexivity.
  - reflexivity.
  - reflexivity.
Qed.
Example C60_sweep_example : exists s' g', update_table_allocs toy1 pars data2 at_shared [9] = Ok (s', g') /\ wf toy1 data2 s'.
Proof. destruct (C60_sweep_rows toy1 pars data2 0%Z at_shared [9] eq_refl (toy_ok _ _ _ _) eq_refl at_shared_wf) as (s' & g' & E & W & _). eauto. Qed.

Example C61_example : exists s g', initialize toy1 pars data5 (fresh toy1) [] = Ok (s, g') /\ s_tab toy1 s = [[0; 1; 2; 3; 4]; [0; 1; 2; 3; 4; 0]] /\
  s_rest toy1 s = [[5; 6; 7; 8; 9; 0; 1; 2; 3; 4]; [10; 11; 12; 13; 14; 0; 1; 2; 3; 4]].
Proof. eexists. eexists. split; [lazy -[IZR Rinv]; reflexivity|]. split; reflexivity. Qed.
Example C61_short : initialize toy1 pars data2 (fresh toy1) [] = UB.
Proof. apply (proj2 (C61_initialise toy1 pars data2 [] eq_refl (toy_ok _ _ _ _))). exists [7; 8]. cbn. split; auto. Qed.

Example C82_example : exists outs s' g', run toy1 pars data5 pseudo5 (fun x => Ok x) 2 3 4 2 (fresh toy1) [3; 1; 4; 1; 5] = Ok (outs, (s', g')) /\ length outs = 4.
Proof.
  destruct (C82_run toy1 pars data5 pseudo5 _ (fun x => Ok x) 0%Z 2 3 4 2 [3; 1; 4; 1; 5] eq_refl ltac:(discriminate) (toy_ok _ _ _ _) eq_refl ltac:(intros; eauto) pseudo5_ok ltac:(lia) data5_ge)
    as (outs & s' & g' & E & _ & L & _). eauto.
Qed.
(** Five iterations, every second one wanted: nothing is collected. *)
Example C82_thinning : exists s' g', run toy1 pars data5 pseudo5 (fun x => Ok x) 0 0 5 2 (fresh toy1) [3; 1; 4; 1; 5] = Ok ([], (s', g')).
Proof.
  destruct (C82_run toy1 pars data5 pseudo5 _ (fun x => Ok x) 0%Z 0 0 5 2 [3; 1; 4; 1; 5] eq_refl ltac:(discriminate) (toy_ok _ _ _ _) eq_refl ltac:(intros; eauto) pseudo5_ok ltac:(lia) data5_ge)
    as (outs & s' & g' & E & _ & L & _). cbn in L. destruct outs; [eauto|discriminate L].
Qed.
Example C82_step_example : exists s' g', step toy1 pars data2 [] true (at_shared, [1; 2; 3]) = Ok (s', g') /\ no_empty toy1 data2 s'.
Proof.
  destruct (C82_step toy1 pars data2 [] 0%Z true at_shared [1; 2; 3] eq_refl ltac:(intros d [<-|[]]; discriminate) ltac:(discriminate) (toy_ok _ _ _ _) eq_refl ltac:(discriminate) at_shared_wf) as (s' & g' & E & _ & N & _).
  eauto.
Qed.
Example C82_get_state_example : exists o, get_state toy1 data2 (fun x => Ok x) at_shared = Ok o /\ o_stars _ o = [[(false, [1])]] /\ o_taus _ o = [(false, [1]); (false, [2])].
Proof. eexists. split; [lazy -[IZR]; reflexivity|]. split; reflexivity. Qed.

Example C83_example : run (toy 1 None 0 0) pars data5 [[]] (fun x => Ok x) 1 0 0 1 (fresh _) [] = UB.
Proof. apply C83_run_undefined; [reflexivity|discriminate|apply toy_ok|reflexivity|apply data5_ge]. Qed.

Example C84_example : ilog toy1 2 = Ok 0%Z /\ ilog toy1 1 = Ok 0%Z.
Proof. split; [apply ilog_2|]. pose proof (ilv_1 0%Z) as X. unfold ilog. cbn [Z.ltb Z.compare]. f_equal. exact X. Qed.

Example C87_example : exists s' g', update_unique_vals toy1 data2 at_shared [1; 2; 3] = Ok (s', g') /\ s_heap toy1 s' = [(true, [7; 8]); (false, [2])].
Proof. eexists. eexists. split; [lazy -[IZR]; reflexivity|reflexivity]. Qed.

Example C88_example : run toy1 pars data2 pseudo5 (fun x => Ok x) 0 0 1 1 at_shared [] = UB.
Proof. apply C88_second_run_undefined; [reflexivity|discriminate|intros d [<-|[]]; discriminate|apply at_shared_wf]. Qed.

Example C89_example : run (toy 2 (Some 0%Z) 0 0) pars data5 [[]] (fun x => Ok x) 0 0 1 1 (fresh _) [] = UB.
Proof. apply C89_multivariate_undefined; [apply toy_ok|discriminate|apply data5_ne|auto]. Qed.

Example C90_example : run toy1 pars data5 pseudo5 (@write_clusval toy1 nat) 1 1 2 1 (fresh _) [5; 6] = UB.
Proof. apply C90_collecting_undefined with (z := 0%Z); try reflexivity; [discriminate|apply toy_ok|apply pseudo5_ok|apply data5_ge|lia]. Qed.

Example C92_example : exists g', update_rest_allocs toy1 (mkParams 1 1 1 1 1 (/ 2) "metropolis") data2 at_shared [4] = Ok (at_shared, g').
Proof. apply C92_unknown_mode; [reflexivity|apply at_shared_wf|discriminate|discriminate|discriminate]. Qed.
