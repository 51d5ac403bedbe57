(** * Every clustering is represented by a state with fresh caches. *)
From Coq Require Import Bool List Arith ZArith Lia Sorting.Sorted.
From Verif Require Import Base Hier Algos Spec MargFacts NealFacts MargMore MargProps.
From Verif Require Import PartSpec GibbsSpec GibbsComb GibbsPost.
Import ListNotations.

Definition rep_hier (I : Iface) (data : list (Datum I)) (covs : list (Cov I)) (hy : Hyp I) (ids : list nat) : hier I :=
  let st := batch I data (at_ covs) ids in
  @mkHier I ids (Z.of_nat (length ids)) st (init_state I hy) true
         (Some (post I hy (Z.of_nat (length ids)) st (init_state I hy))).

Definition rep_state (I : Iface) (data : list (Datum I)) (covs : list (Cov I)) (hy : Hyp I) (m : Mix I) (s : list nat) : alg I :=
  @mkAlg I (map (fun x => first x (distinct s)) s)
        (map (fun c => rep_hier I data covs hy (members c s)) (distinct s)) hy m [].

Lemma filter_sorted : forall f a k, StronglySorted lt (filter f (seq a k)).
Proof.
  intros f a k. revert a. induction k as [|k IH]; intros a; simpl; [constructor|].
  destruct (f a); [|apply IH]. constructor; [apply IH|]. apply Forall_forall. intros x Hx.
  apply filter_In in Hx. destruct Hx as [Hx _]. apply in_seq in Hx. lia.
Qed.

Lemma rep_state_ok : forall (I : Iface) data covs hy (m : Mix I) s, In s (clusterings (length data)) ->
  let a := rep_state I data covs hy m s in
  proper (length data) (a_alloc a) (view (a_uv a)) /\ caches_ok data covs (a_uv a) /\
  (forall h, In h (a_uv a) -> saved_matches data covs (a_hyp a) h) /\
  a_hyp a = hy /\ a_mix a = m /\ canon (a_alloc a) = s.
Proof.
  intros I data covs hy m s Hs a.
  assert (Hcs : canon s = s /\ length s = length data).
  { unfold clusterings in Hs. apply filter_In in Hs. destruct Hs as [Hw Hc]. unfold same in Hc.
    destruct (list_eq_dec Nat.eq_dec (canon s) s) as [E|]; [|discriminate]. split; auto.
    clear -Hw. revert s Hw. generalize (length data) at 1. intros k. generalize (length data). intros n.
    induction n as [|n IH]; intros s Hw; simpl in Hw.
    - destruct Hw as [<-|[]]; reflexivity.
    - apply in_flat_map in Hw. destruct Hw as (w & Hw & Hx). apply in_map_iff in Hx. destruct Hx as (x & <- & _).
      simpl. f_equal. apply IH; auto. }
  destruct Hcs as [Hc Hl].
  assert (Hd : forall x, In x s <-> In x (distinct s)) by (intros; symmetry; apply nodup_In).
  split; [split; [split; [|split]|]|split; [|split; [|split; [|split]]]]; try reflexivity.
  - simpl. rewrite map_length. auto.
  - intros i c Hi. simpl in Hi. rewrite nth_error_map in Hi. destruct (nth_error s i) as [x|] eqn:E; [|discriminate].
    injection Hi as <-. unfold view. simpl. rewrite !map_length. apply first_lt. apply Hd. eapply nth_error_In; eauto.
  - intros c ids card Hi. unfold view in Hi. simpl in Hi. rewrite !nth_error_map in Hi.
    destruct (nth_error (distinct s) c) as [x|] eqn:E; [|discriminate]. simpl in Hi. injection Hi as <- <-.
    split; [apply filter_sorted|]. split; [|reflexivity]. intros i. rewrite members_in. simpl. rewrite nth_error_map. split.
    + intros Hx. rewrite Hx. simpl. f_equal.
      assert (Hin : In x (distinct s)) by (eapply nth_error_In; eauto).
      pose proof (first_nth x (distinct s) Hin) as H1.
      assert (ND : NoDup (distinct s)) by apply NoDup_nodup.
      apply (proj1 (NoDup_nth_error _) ND); [eapply nth_error_Some; rewrite H1; discriminate|congruence].
    + destruct (nth_error s i) as [y|] eqn:Ey; [|discriminate]. simpl. intros Hf. injection Hf as Hf.
      f_equal. assert (Hin : In y (distinct s)) by (apply Hd; eapply nth_error_In; eauto).
      pose proof (first_nth y (distinct s) Hin) as H1. rewrite Hf in H1. congruence.
  - intros c ids card Hi. unfold view in Hi. simpl in Hi. rewrite !nth_error_map in Hi.
    destruct (nth_error (distinct s) c) as [x|] eqn:E; [|discriminate]. simpl in Hi. injection Hi as <- <-.
    apply nth_error_In in E. apply Hd in E. apply In_nth_error in E. destruct E as [j Hj].
    apply members_in in Hj. destruct (members x s); [destruct Hj|discriminate].
  - intros c h Hh. simpl in Hh. rewrite nth_error_map in Hh. destruct (nth_error (distinct s) c) as [x|]; [|discriminate].
    injection Hh as <-. simpl. split; [reflexivity|discriminate].
  - intros h Hh. simpl in Hh. apply in_map_iff in Hh. destruct Hh as (x & <- & _). split; reflexivity.
  - rewrite <- Hc. simpl. apply canon_iff. split; [apply map_length|].
    intros p q x y x' y' Hp Hq Hp' Hq'. rewrite nth_error_map in Hp, Hq. rewrite Hp' in Hp. rewrite Hq' in Hq.
    injection Hp as <-. injection Hq as <-. split; [|intros ->; reflexivity].
    intros E. eapply first_inj; [| |exact E]; apply Hd; eapply nth_error_In; eauto.
Qed.
