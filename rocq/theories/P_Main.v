(** * C98, C99: what the main program writes about the clusters. *)
From Coq Require Import String.
From Coq Require Import Bool List Arith NArith ZArith Lia Sorting.Sorted.
From Verif Require Import Base Hier Algos Run Spec MargFacts NealFacts InitFacts MargMore MargProps Demo Cond CondFacts P_Marginal P_Conditional
  Collect CollectFacts CollectMore P_Collect Main MainFacts.
Import ListNotations.

(** ** C98 *)
Theorem C98_outputs_memory : forall P, (forall m, parse P (ser P m) = Some m) ->
  forall (allocs : Msg P -> list nat) (nclus : Msg P -> nat) blank ms n,
  (forall m, In m ms -> length (allocs m) = n) ->
  let get o := match o with Some m => m | None => blank end in
  exists c', outputs _ _ (mc_next P) mc_reset (fun o => allocs (get o)) (fun o => nclus (get o)) (Some blank) (length ms) n
      (mkMc (map (ser P) ms) (length ms) 0) =
    Ok (c', map (fun m => (allocs m, nclus m)) ms).
Proof.
  intros P law allocs nclus blank ms n H get.
  destruct (proj2 (proj2 (C49_collectors_are_cursors P)) law ms) as (Cu & A0).
  destruct (outputs_ok _ _ (mc_next P) mc_reset (fun o => allocs (get o)) (fun o => nclus (get o)) (Some blank) _ _ Cu n _ A0) as (c' & E).
  - intros o Ho. apply in_map_iff in Ho. destruct Ho as (m & <- & Hm). apply H. exact Hm.
  - rewrite map_length, map_map in E. exists c'. exact E.
Qed.
Print Assumptions C98_outputs_memory.

Theorem C98_outputs_file : forall P, (forall m, parse P (ser P m) = Some m) ->
  forall (allocs : Msg P -> list nat) (nclus : Msg P -> nat) blank ms n chunk, 0 < chunk ->
  (forall m, In m ms -> fits P m = true /\ length (allocs m) = n) ->
  exists c', outputs _ _ (fc_next P) fc_reset allocs nclus blank (length ms) n (fc_new (fc_written P ms) chunk) =
    Ok (c', map (fun m => (allocs m, nclus m)) ms).
Proof.
  intros P law allocs nclus blank ms n chunk Hc H.
  assert (Ef : filter (fits P) ms = ms).
  { clear -H. induction ms as [|m ms IH]; [reflexivity|]. cbn [filter]. rewrite (proj1 (H m (or_introl eq_refl))). f_equal. apply IH. intros x Hx. apply H. right; exact Hx. }
  pose proof (written_yields P law ms) as Y. rewrite Ef in Y.
  apply (outputs_ok _ _ (fc_next P) fc_reset allocs nclus blank (fc_at P ms) ms (file_cursor P ms)).
  - apply fc_at_new; assumption.
  - intros m Hm. apply H. exact Hm.
Qed.
Print Assumptions C98_outputs_file.

(** A state too large to be written is counted but not stored. *)
Theorem C98_outputs_unwritten : forall P, (forall m, parse P (ser P m) = Some m) ->
  forall (allocs : Msg P -> list nat) (nclus : Msg P -> nat) blank ms n chunk, 0 < chunk -> 0 < n -> allocs blank = [] ->
  (forall m, In m ms -> length (allocs m) = n) -> (exists m, In m ms /\ fits P m = false) ->
  outputs _ _ (fc_next P) fc_reset allocs nclus blank (length ms) n (fc_new (fc_written P ms) chunk) = UB.
Proof.
  intros P law allocs nclus blank ms n chunk Hc Hn Hb Hl (m0 & Hm0 & Hf).
  assert (L : length (filter (fits P) ms) < length ms).
  { clear -Hm0 Hf. induction ms as [|m ms IH]; [destruct Hm0|]. cbn [filter length]. destruct Hm0 as [->|Hm0].
    - rewrite Hf. clear. induction ms as [|m ms IH]; cbn [filter length]; [lia|]. destruct (fits P m); cbn [length]; lia.
    - specialize (IH Hm0). destruct (fits P m); cbn [length]; lia. }
  replace (length ms) with (length (filter (fits P) ms) + (length ms - length (filter (fits P) ms))) by lia.
  apply (outputs_short _ _ (fc_next P) fc_reset allocs nclus blank (fc_at P (filter (fits P) ms)) _ (file_cursor P _)); try assumption; [|..|lia].
  - apply fc_at_new; [exact Hc|apply written_yields; exact law].
  - intros m Hm. apply filter_In in Hm. apply Hl. apply Hm.
Qed.
Print Assumptions C98_outputs_unwritten.

Example ex_C98_memory : match outputs _ _ (mc_next P2) mc_reset
    (fun o => map N.to_nat match o with Some m => m | None => [] end) (fun o => match o with Some m => length m | None => 0 end) (Some []) 2 2
    (mkMc (map (ser P2) [[4; 5]; [6; 6]]%N) 2 0) with
  | Ok (_, l) => l = [([4; 5], 2); ([6; 6], 2)] | _ => False end.
Proof. vm_compute. reflexivity. Qed.
Example ex_C98_file : exists c', outputs _ _ (fc_next P2) fc_reset (map N.to_nat) (@length N) [] 2 2 (fc_new (fc_written P2 [[4; 5]; [6; 6]]%N) 3) =
  Ok (c', [([4; 5], 2); ([6; 6], 2)]).
Proof.
  destruct (C98_outputs_file P2 P2_law (map N.to_nat) (@length N) [] [[4; 5]; [6; 6]]%N 2 3) as (c' & E); [lia| |exists c'; exact E].
  intros m [<-|[<-|[]]]; split; reflexivity.
Qed.

(** ** C99 *)
Theorem C99_neal2_counts :
  forall (I : Iface) (L : laws I) (data : list (Datum I)) (covs : list (Cov I)) (P : Mix I -> Prop) hy m k gen h0 r maxiter burnin,
  rows_ok I data (at_ covs) -> 2 <= length data -> k <= length data ->
  (forall i, gen i < if k =? 0 then length data else k) ->
  (h_saved h0 = true -> h_ph h0 <> None) ->
  @mixing_safe I data P -> P m ->
  exists s out, run (init_clusters data covs false hy m k gen [h0] r)
      (base_step (neal2_sample_allocations data covs) false) maxiter burnin = Ok (s, out) /\
    length out = maxiter - burnin /\
    forall snap, In snap out -> length (s_alloc snap) = length data /\
      length (s_clusters snap) = length (nodup Nat.eq_dec (s_alloc snap)).
Proof. exact neal2_counts. Qed.
Print Assumptions C99_neal2_counts.

(** Any sampler that keeps proper partitions. *)
Theorem C99_proper_counts : forall (I : Iface) (init : res (alg I * Rng I)) step maxiter burnin s out n,
  run init step maxiter burnin = Ok (s, out) ->
  (forall s0 k ar, init = Ok s0 -> iter step k s0 = Ok ar -> proper n (a_alloc (fst ar)) (view (a_uv (fst ar)))) ->
  forall snap, In snap out -> length (s_alloc snap) = n /\ length (s_clusters snap) = length (nodup Nat.eq_dec (s_alloc snap)).
Proof. exact run_counts. Qed.
Print Assumptions C99_proper_counts.

(** With a fixed number of components the reported number is that number. *)
Theorem C99_blocked_counts_refuted : exists s out,
  run (nc_init true 3 [2; 0; 0; 2]) (base_step (blocked_sample_allocations (I := demo_nc true 3) ex_data ex_covs 3) false) 1 0 = Ok (s, out) /\
  exists snap, In snap out /\ length (s_clusters snap) <> length (nodup Nat.eq_dec (s_alloc snap)).
Proof.
  eexists. eexists. split; [vm_compute; reflexivity|]. eexists. split; [left; reflexivity|]. vm_compute. lia.
Qed.
Print Assumptions C99_blocked_counts_refuted.

Definition ex_counts := match run (s <- ex_init true false (fun z => z) 0 ;; Ok (fst s, [1; 0; 2; 1; 0; 1; 2; 0; 1; 1; 0; 2; 1; 0; 3]))
      (base_step (neal2_sample_allocations (I := demo true (fun z => z)) ex_data ex_covs) false) 4 0 with
  | Ok (_, out) => map (fun s => (s_alloc s, length (s_clusters s))) out | _ => [] end.
Example ex_C99 : ex_counts = [([0; 0; 1; 1], 2); ([0; 1; 2; 0], 3); ([1; 1; 0; 2], 3); ([1; 0; 2; 0], 3)].
Proof. vm_compute. reflexivity. Qed.
