(** * The normal - inverse gamma prior model as an instance. *)
From Coq Require Import String.
From Coq Require Import Bool List Arith Reals Lra Lia.
From Verif Require Import Base Mixings Univ Clones CloneFacts.
Import ListNotations.
Local Open Scope R_scope.

(** nig_prior_model.h/.cc through the functions of Univ.v; the fields of new
    hyperparameters are not initialised, here they are zero. *)
Definition nigI (G : gen) : pmodel :=
  mkPm nig nig_prior nig (list uni_ls * Gs G) (mkNIG 0 0 0 0) NIGOther
    (fun p _ => nig_init p) (fun h => h) (fun m _ => m)
    (fun p d h => Ok (fst (nig_update_hypers G p h (fst d) (snd d)))).

Lemma nig_init_fixed : forall m v a b, 0 < v -> 0 < a -> 0 < b -> nig_init (NIGFixed m v a b) = Ok (mkNIG m v a b).
Proof.
  intros m v a b Hv Ha Hb. cbn [nig_init]. unfold nig_check. cbn [ng_vs ng_shape ng_scale].
  assert (L : forall x, 0 < x -> lteb x 0 = false).
  { intros x Hx. unfold lteb. destruct (Rle_dec x 0); [lra|reflexivity]. }
  rewrite !L by assumption. reflexivity.
Qed.

Definition demo_prior : nig_prior := NIGFixed 0 1 2 3.
Lemma demo_init : nig_init demo_prior = Ok (mkNIG 0 1 2 3).
Proof. apply nig_init_fixed; lra. Qed.


Section Start.
Variable I : pmodel.
Lemma start_ok : forall p v post, h_init I p (h_new I) = Ok v ->
  run I (OPrior I 0 p :: OInit I 0 :: post) (fresh I) = run I post (mkW I [h_new I; v] [p] [mkObj 1 (Some O)]).
Proof.
  intros p v post H. unfold run at 1. cbn [rfold].
  change (step I (fresh I) (OPrior I 0 p)) with (Ok (mkW I [h_new I] [p] [mkObj 0 (Some O)])). cbn [rbind].
  assert (E : step I (mkW I [h_new I] [p] [mkObj 0 (Some O)]) (OInit I 0) = Ok (mkW I [h_new I; v] [p] [mkObj 1 (Some O)])).
  { cbn. rewrite H. reflexivity. }
  rewrite E. reflexivity.
Qed.
Lemma deep_ok : forall p v h, h_init I p (h_new I) = Ok v ->
  step I (mkW I [h_new I; h] [p] [mkObj 1 (Some O)]) (ODeep I 0) =
  Ok (mkW I [h_new I; h; h_load I (h_save I h) (h_new I); v] [p; p] [mkObj 1 (Some O); mkObj 3 (Some 1%nat)]).
Proof. intros p v h H. cbn. rewrite H. reflexivity. Qed.
End Start.

Lemma deep_forgets : forall G, exists ops w w' h h',
  run (nigI G) ops (fresh (nigI G)) = Ok w /\ step (nigI G) w (ODeep (nigI G) 0) = Ok w' /\
  get_hypers (nigI G) w' 0 = Ok h /\ get_hypers (nigI G) w' 1 = Ok h' /\ ng_mean h = 5 /\ ng_mean h' = 0.
Proof.
  intros G.
  exists [OPrior (nigI G) 0 demo_prior; OInit (nigI G) 0; OLoad (nigI G) 0 (mkNIG 5 1 2 3)].
  rewrite (start_ok (nigI G) demo_prior (mkNIG 0 1 2 3)) by exact demo_init.
  eexists. eexists. exists (mkNIG 5 1 2 3), (mkNIG 0 1 2 3). split; [reflexivity|].
  split; [exact (deep_ok (nigI G) demo_prior (mkNIG 0 1 2 3) (mkNIG 5 1 2 3) demo_init)|].
  repeat split; reflexivity.
Qed.
