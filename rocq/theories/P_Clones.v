(** * Property theorems: clones of prior models. *)
From Coq Require Import String.
From Coq Require Import Bool List Arith Reals Lra Lia.
From Verif Require Import Base Mixings Univ Clones CloneFacts CloneEx.
Import ListNotations.
Local Open Scope nat_scope.

(** ** C62 *)
(** What every object reads, after every history; [hyp_of] and [prior_of] do
    not mention pointers. *)
Theorem C62_histories :
  forall (I : pmodel) ops w i, run I ops (fresh I) = Ok w ->
  (length (w_objs I w) = count I (rev ops)) /\
  (i < count I (rev ops) -> get_hypers I w i = Ok (hyp_of I (rev ops) i) /\ get_prior I w i = Ok (prior_of I (rev ops) i)).
Proof. exact run_reads. Qed.
Print Assumptions C62_histories.

Example C62_histories_ex : forall G,
  exists w, run (nigI G) [OPrior (nigI G) 0 demo_prior; OInit (nigI G) 0; OClone (nigI G) 0; ODeep (nigI G) 1; OLoad (nigI G) 1 (mkNIG 7 1 2 3)] (fresh (nigI G)) = Ok w /\
  get_hypers (nigI G) w 0 = Ok (mkNIG 7 1 2 3) /\ get_hypers (nigI G) w 1 = Ok (mkNIG 7 1 2 3) /\
  get_hypers (nigI G) w 2 = Ok (mkNIG 0 1 2 3).
Proof.
  intros G. rewrite (start_ok (nigI G) demo_prior (mkNIG 0 1 2 3)) by exact demo_init.
  unfold run. cbn [rfold]. 
  change (step (nigI G) (mkW (nigI G) [h_new (nigI G); mkNIG 0 1 2 3] [demo_prior] [mkObj 1 (Some 0)]) (OClone (nigI G) 0))
    with (Ok (mkW (nigI G) [h_new (nigI G); mkNIG 0 1 2 3] [demo_prior] [mkObj 1 (Some 0); mkObj 1 (Some 0)])).
  cbn [rbind].
  assert (E : step (nigI G) (mkW (nigI G) [h_new (nigI G); mkNIG 0 1 2 3] [demo_prior] [mkObj 1 (Some 0); mkObj 1 (Some 0)]) (ODeep (nigI G) 1) =
    Ok (mkW (nigI G) [h_new (nigI G); mkNIG 0 1 2 3; mkNIG 0 1 2 3; mkNIG 0 1 2 3] [demo_prior; demo_prior] [mkObj 1 (Some 0); mkObj 1 (Some 0); mkObj 3 (Some 1)])).
  { change nig_init with (fun p => nig_init p). cbn -[nig_init demo_prior]. rewrite demo_init. reflexivity. }
  rewrite E. cbn [rbind]. eexists. split; [reflexivity|]. repeat split; reflexivity.
Qed.

(** A clone and its original read the same hyperparameters whatever happens,
    until one of the two is initialised again. *)
Theorem C62_clone_shares :
  forall (I : pmodel) pre k post w,
  run I (pre ++ OClone I k :: post) (fresh I) = Ok w ->
  forallb (fun o => negb (inits I o k) && negb (inits I o (count I (rev pre)))) post = true ->
  exists h, get_hypers I w k = Ok h /\ get_hypers I w (count I (rev pre)) = Ok h.
Proof. exact clone_shares. Qed.
Print Assumptions C62_clone_shares.

Example C62_clone_shares_ex : forall G (d : list uni_ls * Gs G),
  exists w h, run (nigI G) ([OPrior (nigI G) 0 demo_prior; OInit (nigI G) 0] ++ OClone (nigI G) 0 :: [OLoad (nigI G) 1 (mkNIG 7 1 2 3); OUpd (nigI G) 0 d; OClone (nigI G) 1]) (fresh (nigI G)) = Ok w /\
  get_hypers (nigI G) w 0 = Ok h /\ get_hypers (nigI G) w 1 = Ok h /\ get_hypers (nigI G) w 2 = Ok h /\ ng_mean h = 7%R.
Proof.
  intros G d. cbn [app]. rewrite (start_ok (nigI G) demo_prior (mkNIG 0 1 2 3)) by exact demo_init.
  eexists. exists (mkNIG 7 1 2 3). split; [reflexivity|]. repeat split; reflexivity.
Qed.

(** All clusters of a run are clones of one initialised hierarchy: they read the
    same hyperparameters at every time. *)
Theorem C62_sampler_shares :
  forall (I : pmodel) p post w, forallb (plain I) post = true ->
  run I (OPrior I 0 p :: OInit I 0 :: post) (fresh I) = Ok w ->
  forall i j, i < length (w_objs I w) -> j < length (w_objs I w) -> get_hypers I w i = get_hypers I w j.
Proof. exact sampler_shares. Qed.
Print Assumptions C62_sampler_shares.

(** Evaluating stored states overwrites the hyperparameters of every object that
    shares with the first cluster, and of no other. *)
Theorem C62_evaluation_overwrites :
  forall (I : pmodel) ops w ms, run I ops (fresh I) = Ok w ->
  exists w' h0, run I (eval_ops I (length (w_objs I w)) ms) w = Ok w' /\ get_hypers I w 0 = Ok h0 /\
    length (w_objs I w') = length (w_objs I w) + length ms /\
    forall i, i < length (w_objs I w) ->
      get_hypers I w' i = if hyp_same I (rev ops) i 0 then Ok (fold_left (fun x m => h_load I m x) ms h0)
                          else get_hypers I w i.
Proof. exact eval_overwrites. Qed.
Print Assumptions C62_evaluation_overwrites.

(** Three clusters; two stored states are evaluated; all clusters are left with
    the hyperparameters of the last one. *)
Example C62_evaluation_overwrites_ex : forall G,
  exists w w', run (nigI G) [OPrior (nigI G) 0 demo_prior; OInit (nigI G) 0; OClone (nigI G) 0; OClone (nigI G) 0] (fresh (nigI G)) = Ok w /\
  length (w_objs (nigI G) w) = 3 /\
  run (nigI G) (eval_ops (nigI G) 3 [mkNIG 7 1 2 3; mkNIG 8 1 2 3]) w = Ok w' /\
  forallb (plain (nigI G)) (eval_ops (nigI G) 3 [mkNIG 7 1 2 3; mkNIG 8 1 2 3]) = true /\
  (forall i, i < 3 -> get_hypers (nigI G) w i = Ok (mkNIG 0 1 2 3)) /\
  (forall i, i < 3 -> get_hypers (nigI G) w' i = Ok (mkNIG 8 1 2 3)).
Proof.
  intros G. rewrite (start_ok (nigI G) demo_prior (mkNIG 0 1 2 3)) by exact demo_init.
  eexists. eexists. split; [reflexivity|]. split; [reflexivity|]. split; [reflexivity|]. split; [reflexivity|].
  split; intros i Hi; destruct i as [|[|[|i]]]; try lia; reflexivity.
Qed.

(** Operations on a deep clone and on clones made from it never show in the
    older objects; operations on the others never show in the deep clone. *)
Theorem C62_deep_independent :
  forall (I : pmodel) pre k post w1 w i, let n := count I (rev pre) in let base := ODeep I k :: rev pre in
  run I (pre ++ [ODeep I k]) (fresh I) = Ok w1 -> run I post w1 = Ok w -> i <= n ->
  (forall a o b, post = a ++ o :: b -> (origin I base (rev a) (target I o) = n) <-> (i <> n)) ->
  get_hypers I w i = get_hypers I w1 i /\ get_prior I w i = get_prior I w1 i.
Proof. exact deep_independent. Qed.
Print Assumptions C62_deep_independent.

(** A deep clone (object 1), a clone of it (object 2) loaded: object 0 keeps its
    values; and the other way round. *)
Example C62_deep_independent_ex : forall (I : pmodel) p v m, h_init I p (h_new I) = Ok v ->
  let pre := [OPrior I 0 p; OInit I 0] in
  exists w1, run I (pre ++ [ODeep I 0]) (fresh I) = Ok w1 /\
  (exists w, run I [OClone I 1; OLoad I 2 m; OPrior I 1 p] w1 = Ok w /\
     (forall a o b, [OClone I 1; OLoad I 2 m; OPrior I 1 p] = a ++ o :: b -> (origin I (ODeep I 0 :: rev pre) (rev a) (target I o) = 1) <-> (0 <> 1))) /\
  (exists w, run I [OClone I 0; OLoad I 2 m; OPrior I 0 p] w1 = Ok w /\
     (forall a o b, [OClone I 0; OLoad I 2 m; OPrior I 0 p] = a ++ o :: b -> (origin I (ODeep I 0 :: rev pre) (rev a) (target I o) = 1) <-> (1 <> 1))).
Proof.
  intros I p v m H pre. unfold pre. cbn [app]. rewrite (start_ok I p v) by exact H.
  unfold run at 1. cbn [rfold]. rewrite (deep_ok I p v v H). cbn [rbind]. eexists. split; [reflexivity|].
  split; (eexists; split; [reflexivity|]);
    intros [|x1 [|x2 [|x3 [|x4 a]]]] o b E; try discriminate E; injection E; intros; subst; cbn; try lia; destruct a; discriminate.
Qed.

(** A deep clone holds what initialising from the prior gives; the
    hyperparameters of the original play no role. *)
Theorem C62_deep_value :
  forall (I : pmodel) ops w k w' p, run I ops (fresh I) = Ok w -> step I w (ODeep I k) = Ok w' ->
  get_prior I w k = Ok (Some p) ->
  exists v, h_init I p (h_new I) = Ok v /\
    get_hypers I w' (length (w_objs I w)) = Ok v /\ get_prior I w' (length (w_objs I w)) = Ok (Some p).
Proof. exact deep_value. Qed.
Print Assumptions C62_deep_value.

(** "A deep clone starts with the hyperparameters of its original" is false. *)
Theorem C62_deep_copies_refuted :
  forall G, exists ops w w' h h',
  run (nigI G) ops (fresh (nigI G)) = Ok w /\ step (nigI G) w (ODeep (nigI G) 0) = Ok w' /\
  get_hypers (nigI G) w' 0 = Ok h /\ get_hypers (nigI G) w' 1 = Ok h' /\ ng_mean h = 5%R /\ ng_mean h' = 0%R.
Proof. exact deep_forgets. Qed.
Print Assumptions C62_deep_copies_refuted.

(** Without a prior, initialising throws and deep cloning dereferences a null
    pointer. *)
Theorem C62_no_prior :
  forall (I : pmodel) ops w k, run I ops (fresh I) = Ok w -> get_prior I w k = Ok None ->
  step I w (ODeep I k) = UB /\ step I w (OInit I k) = Throw "Hierarchy prior was not provided"%string.
Proof. exact no_prior. Qed.
Print Assumptions C62_no_prior.

Example C62_no_prior_ex : forall I : pmodel, exists w, run I [OClone I 0] (fresh I) = Ok w /\ get_prior I w 1 = Ok None.
Proof. intros I. eexists. split; reflexivity. Qed.
