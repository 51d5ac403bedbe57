(** * Facts about the output loop of the main program. *)
From Coq Require Import Bool List Arith NArith ZArith Lia Sorting.Sorted.
From Verif Require Import Base Hier Algos Run Spec MargFacts NealFacts InitFacts MargMore MargProps P_Marginal Collect CollectFacts CollectMore Main.
Import ListNotations.

Lemma rmap_at : forall A (l : list A) n s, s + n <= length l -> rmap (at_ l) (seq s n) = Ok (firstn n (skipn s l)).
Proof.
  intros A l n. induction n as [|n IH]; intros s H; [reflexivity|]. cbn [seq rmap].
  destruct (@at_ok _ l s) as (a & E & En); [lia|]. rewrite E. cbn [rbind]. rewrite IH by lia. cbn [rbind].
  assert (Es : skipn s l = a :: skipn (S s) l).
  { clear -En. revert s En. induction l as [|x l IH]; intros [|s] En; cbn in En; try discriminate; [injection En as ->; reflexivity|]. cbn [skipn]. apply IH. exact En. }
  rewrite Es. reflexivity.
Qed.
Lemma rmap_short : forall A (l : list A) n s, s <= length l -> length l < s + n -> rmap (at_ l) (seq s n) = UB.
Proof.
  intros A l n. induction n as [|n IH]; intros s H1 H2; [lia|]. cbn [seq rmap].
  destruct (Nat.eq_dec s (length l)) as [->|N].
  - unfold at_. rewrite (proj2 (nth_error_None l (length l)) (le_n _)). reflexivity.
  - destruct (@at_ok _ l s) as (a & E & _); [lia|]. rewrite E. cbn [rbind]. rewrite IH by lia. reflexivity.
Qed.

Section Outputs.
  Variables C M : Type.
  Variable next : C -> res (C * option M).
  Variable reset : C -> C.
  Variable allocs : M -> list nat.
  Variable nclus : M -> nat.
  Variable blank : M.
  Variable At : C -> nat -> Prop.
  Variable ms : list M.
  Hypothesis cur : is_cursor next At ms.
  Notation out_rows := (out_rows C M next allocs nclus blank).
  Notation outputs := (outputs C M next reset allocs nclus blank).

  Lemma out_rows_ok : forall k n c pos, At c pos -> pos + k <= length ms -> (forall m, In m ms -> length (allocs m) = n) ->
    exists c', out_rows k n c = Ok (c', map (fun m => (allocs m, nclus m)) (firstn k (skipn pos ms))).
  Proof.
    induction k as [|k IH]; intros n c pos Hc Hk Hl; [exists c; reflexivity|]. cbn [Main.out_rows].
    destruct (cur c pos Hc) as (_ & c' & E & Hn). rewrite E. cbn [rbind].
    destruct (nth_error ms pos) as [m|] eqn:Em; [|apply nth_error_None in Em; lia]. specialize (Hn ltac:(discriminate)).
    unfold out_row. assert (L : length (allocs m) = n) by (apply Hl; eapply nth_error_In; exact Em).
    rewrite rmap_at by (rewrite L; lia). cbn [rbind skipn]. rewrite firstn_all2 by lia.
    destruct (IH n c' (S pos) Hn ltac:(lia) Hl) as (c2 & E2). rewrite E2. cbn [rbind]. exists c2.
    pose proof (skipn_nth M ms pos) as K. rewrite Em in K. destruct K as (-> & _). reflexivity.
  Qed.

  Theorem outputs_ok : forall n c, At c 0 -> (forall m, In m ms -> length (allocs m) = n) ->
    exists c', outputs (length ms) n c = Ok (c', map (fun m => (allocs m, nclus m)) ms).
  Proof.
    intros n c Hc Hl. destruct (out_rows_ok (length ms) n c 0 Hc (le_n _) Hl) as (c' & E). unfold Main.outputs. rewrite E. cbn [rbind].
    exists (reset c'). rewrite firstn_all. reflexivity.
  Qed.

  (** More states were counted than can be read back. *)
  Theorem outputs_short : forall n extra c, At c 0 -> (forall m, In m ms -> length (allocs m) = n) -> 0 < n -> 0 < extra -> allocs blank = [] ->
    outputs (length ms + extra) n c = UB.
  Proof.
    intros n extra c Hc Hl Hn He Hb. unfold Main.outputs.
    assert (G : forall k c pos, At c pos -> pos + k = length ms -> out_rows (k + extra) n c = UB).
    { induction k as [|k IH]; intros c0 pos Hp Hk.
      - destruct extra as [|e]; [lia|]. cbn [Nat.add Main.out_rows]. destruct (cur c0 pos Hp) as (_ & c' & E & _). rewrite E. cbn [rbind].
        rewrite (proj2 (nth_error_None ms pos)) by lia. unfold out_row. rewrite Hb. rewrite rmap_short by (cbn; lia). reflexivity.
      - cbn [Nat.add Main.out_rows]. destruct (cur c0 pos Hp) as (_ & c' & E & Hx). rewrite E. cbn [rbind].
        destruct (nth_error ms pos) as [m|] eqn:Em; [|apply nth_error_None in Em; lia]. specialize (Hx ltac:(discriminate)).
        unfold out_row. rewrite rmap_at by (rewrite (Hl m) by (eapply nth_error_In; exact Em); lia). cbn [rbind].
        rewrite (IH c' (S pos) Hx) by lia. reflexivity. }
    rewrite (G (length ms) c 0 Hc eq_refl). reflexivity.
  Qed.
End Outputs.

(** ** Number of clusters *)
Lemma nodup_count : forall (l : list nat) k, (forall x, In x l <-> x < k) -> length (nodup Nat.eq_dec l) = k.
Proof.
  intros l k H. apply Nat.le_antisymm.
  - rewrite <- (seq_length k 0). apply NoDup_incl_length; [apply NoDup_nodup|]. intros x Hx. apply nodup_In, H in Hx. apply in_seq. lia.
  - rewrite <- (seq_length k 0) at 1. apply NoDup_incl_length; [apply seq_NoDup|]. intros x Hx. apply in_seq in Hx. apply nodup_In, H. lia.
Qed.

Theorem proper_count : forall n labels clusters, proper n labels clusters -> length clusters = length (nodup Nat.eq_dec labels).
Proof.
  intros n labels clusters ((_ & H1 & H2) & H3). symmetry. apply nodup_count. intros x. split.
  - intros Hx. apply In_nth_error in Hx. destruct Hx as (i & Hi). eapply H1; exact Hi.
  - intros Hx. destruct (nth_error clusters x) as [[ids card]|] eqn:E; [|apply nth_error_None in E; lia].
    destruct (H2 _ _ _ E) as (_ & K & _). specialize (H3 _ _ _ E). destruct ids as [|i ids]; [congruence|].
    eapply nth_error_In. apply (K i). left; reflexivity.
Qed.

Section Run.
  Variable I : Iface.

  Theorem run_counts : forall (init : res (alg I * Rng I)) step maxiter burnin s out n,
    run init step maxiter burnin = Ok (s, out) ->
    (forall s0 k ar, init = Ok s0 -> iter step k s0 = Ok ar -> proper n (a_alloc (fst ar)) (view (a_uv (fst ar)))) ->
    forall snap, In snap out -> length (s_alloc snap) = n /\ length (s_clusters snap) = length (nodup Nat.eq_dec (s_alloc snap)).
  Proof.
    intros init step maxiter burnin s out n R H snap Hs. destruct (@C07_run_saves I init step maxiter burnin s out R) as (s0 & E0 & _ & L & K).
    apply In_nth_error in Hs. destruct Hs as (i & Hi).
    destruct (K i) as (ar & snap' & Ei & Hi' & _ & Ea & Ec & _); [rewrite <- L; apply nth_error_Some; rewrite Hi; discriminate|].
    rewrite Hi in Hi'. injection Hi' as <-. specialize (H s0 _ ar E0 Ei). split.
    - rewrite Ea. apply H.
    - rewrite Ec, Ea, map_length, <- (proper_count _ _ _ H). unfold view. rewrite map_length. reflexivity.
  Qed.

  Theorem neal2_counts : laws I -> forall (data : list (Datum I)) (covs : list (Cov I)) (P : Mix I -> Prop) hy m k gen h0 r maxiter burnin,
    rows_ok I data (at_ covs) -> 2 <= length data -> k <= length data ->
    (forall i, gen i < if k =? 0 then length data else k) ->
    (h_saved h0 = true -> h_ph h0 <> None) ->
    @mixing_safe I data P -> P m ->
    exists s out, run (init_clusters data covs false hy m k gen [h0] r)
        (base_step (neal2_sample_allocations data covs) false) maxiter burnin = Ok (s, out) /\
      length out = maxiter - burnin /\
      forall snap, In snap out -> length (s_alloc snap) = length data /\
        length (s_clusters snap) = length (nodup Nat.eq_dec (s_alloc snap)).
  Proof.
    intros L data covs P hy m k gen h0 r maxiter burnin Hr Hn Hk Hg Hp HP Hm.
    destruct (@C07_neal2_run_completes I L data covs P hy m k gen h0 r maxiter burnin Hr Hn Hk Hg Hp HP Hm) as (s & out & R & Lo).
    exists s, out. split; [exact R|]. split; [exact Lo|]. apply (run_counts _ _ _ _ _ _ _ R).
    intros [a0 r0] j ar E0 Ej. 
    destruct (@C06_init_proper I L data covs false hy m k gen h0 r Hr ltac:(discriminate) ltac:(lia) Hk Hg Hp) as (a1 & r1 & E1 & Q1 & Q2 & _).
    destruct (@init_clusters_ok I L data covs Hr false hy m k gen h0 r) as (a2 & r2 & E2 & _ & _ & _ & Q3 & _); auto; [discriminate|lia|].
    rewrite E1 in E0, E2. injection E0 as -> ->. injection E2 as <- <-.
    destruct (@C01_neal2_iterations_proper I L data covs P j a0 r0 Hr Hn HP ltac:(congruence) Q1 Q2) as (a' & r' & E' & Q' & _).
    rewrite Ej in E'. injection E' as ->. exact Q'.
  Qed.
End Run.
