(** * Property theorems: the binary form of the messages (C132) *)
From Coq Require Import String.
From Coq Require Import List NArith ZArith Bool Lia.
From Verif Require Import Base Collect CollectFacts CollectMore Schema Wire WireSpec WireFacts WireRead WireBack WireInst.
Import ListNotations.
Local Open Scope N_scope.

(** A state of the algorithm with two clusters of a normal hierarchy (means 1.5 and
    minus zero, variances 1 and not-a-number), the observations in clusters 0, 1, 0,
    a Dirichlet process of total mass 1.5, iteration 7. *)
Definition one_half : N := 4609434218613702656.          (* 1.5 *)
Definition minus_zero : N := 9223372036854775808.
Definition not_a_number : N := 9221120237041090560.
Definition one_bits : N := 4607182418800017408.

Definition cluster (mean var : N) (card : Z) : val :=
  VMsg [(3, VInt card); (1, VMsg [(1, VDbl mean); (2, VDbl var)])].

Definition state : message :=
  [(4, VInt 7); (2, VInt 0); (2, VInt 1); (2, VInt 0);
   (1, cluster one_half one_bits 2); (1, cluster minus_zero not_a_number 1);
   (3, VMsg [(1, VMsg [(1, VDbl one_half)])]);
   (5, VMsg [(2, VMsg [(1, VDbl 0); (2, VDbl one_bits); (3, VDbl one_half); (4, VDbl one_half)])])].

Lemma state_typed : well_typed (KMsg "AlgorithmState") (VMsg state).
Proof. apply (typed_ok 10). vm_compute. reflexivity. Qed.
Lemma state_fits : N.of_nat (length (serialize "AlgorithmState" state)) < int_max.
Proof. vm_compute. reflexivity. Qed.

(** ** Every well-formed message of every type comes back with the same fields *)
Theorem C132_round_trip : forall t m, well_typed (KMsg t) (VMsg m) -> N.of_nat (length (serialize t m)) < 2 ^ 31 ->
  exists m', parse_message t (serialize t m) = Some m' /\ same (KMsg t) (VMsg m) (VMsg m') /\ serialize t m' = serialize t m.
Proof.
  intros t m W L. exists (canon depth_limit t m). repeat split.
  - exact (parse_serialize t m W L).
  - exact (canon_same depth_limit t m (deep_limit t) W).
  - exact (canon_bytes depth_limit t m (deep_limit t) W).
Qed.
Print Assumptions C132_round_trip.

(* the bytes, checked by hand against the format: two clusters, the packed allocations
   (the zeros are kept), the mixing, the iteration and the hyperparameters (the mean
   zero is left out, minus zero is kept) *)
Example C132_bytes : serialize "AlgorithmState" state =
  [10; 22; 10; 18; 9; 0; 0; 0; 0; 0; 0; 248; 63; 17; 0; 0; 0; 0; 0; 0; 240; 63; 24; 2;
   10; 22; 10; 18; 9; 0; 0; 0; 0; 0; 0; 0; 128; 17; 0; 0; 0; 0; 0; 0; 248; 127; 24; 1;
   18; 3; 0; 1; 0;
   26; 11; 10; 9; 9; 0; 0; 0; 0; 0; 0; 248; 63;
   32; 7;
   42; 29; 18; 27; 17; 0; 0; 0; 0; 0; 0; 240; 63; 25; 0; 0; 0; 0; 0; 0; 248; 63; 33; 0; 0; 0; 0; 0; 0; 248; 63].
Proof. vm_compute. reflexivity. Qed.

Example C132_read : parse_message "AlgorithmState" (serialize "AlgorithmState" state) = Some
  [(1, VMsg [(1, VMsg [(1, VDbl one_half); (2, VDbl one_bits)]); (3, VInt 2)]);
   (1, VMsg [(1, VMsg [(1, VDbl minus_zero); (2, VDbl not_a_number)]); (3, VInt 1)]);
   (2, VInt 0); (2, VInt 1); (2, VInt 0);
   (3, VMsg [(1, VMsg [(1, VDbl one_half)])]); (4, VInt 7);
   (5, VMsg [(2, VMsg [(2, VDbl one_bits); (3, VDbl one_half); (4, VDbl one_half)])])].
Proof. vm_compute. reflexivity. Qed.

Example C132_round_trip_example : exists m', parse_message "AlgorithmState" (serialize "AlgorithmState" state) = Some m' /\
  same (KMsg "AlgorithmState") (VMsg state) (VMsg m').
Proof. destruct (C132_round_trip _ _ state_typed state_fits) as (m' & A & B & _). exists m'. split; assumption. Qed.

(** ** What the plotting and evaluating code looks at: the allocations, the number of
    clusters, the iteration *)
Theorem C132_allocations : forall m, well_typed (KMsg "AlgorithmState") (VMsg m) ->
  N.of_nat (length (serialize "AlgorithmState" m)) < 2 ^ 31 ->
  exists m', parse_message "AlgorithmState" (serialize "AlgorithmState" m) = Some m' /\
    entries 2 m' = entries 2 m /\ length (entries 1 m') = length (entries 1 m).
Proof.
  intros m W L. destruct (C132_round_trip _ _ W L) as (m' & P & S & _). exists m'. split; [exact P|].
  inversion S as [| | |t0 a b H]; subst. split.
  - pose proof (H (rep "cluster_allocs" 2 KInt32) ltac:(vm_compute; tauto)) as Q. cbn [reads rep frep fkind fnum] in Q. symmetry.
    assert (X : forall l l', Forall2 (same KInt32) l l' -> l = l').
    { intros l l' F. induction F as [|x y l l' E F IH]; [reflexivity|]. rewrite IH. inversion E; reflexivity. }
    exact (X _ _ Q).
  - pose proof (H (rep "cluster_states" 1 (KMsg "AlgorithmState.ClusterState")) ltac:(vm_compute; tauto)) as Q.
    cbn [reads rep frep fkind fnum] in Q. clear -Q. unfold reads in Q. cbn [frep] in Q. induction Q as [|x y l l' E F IH]; [reflexivity|]. cbn [length]. f_equal. exact IH.
Qed.
Print Assumptions C132_allocations.

Example C132_allocations_example : entries 2 state = [VInt 0; VInt 1; VInt 0] /\ length (entries 1 state) = 2%nat.
Proof. split; reflexivity. Qed.

(** ** Chains of messages on file: the collector and Python read what was written *)
Theorem C132_chain : forall t ms,
  (forall m, In m ms -> well_typed (KMsg t) (VMsg m) /\ N.of_nat (length (serialize t m)) < 2 ^ 31) ->
  exists cs : list (Msg (wire t)),
    Forall2 (fun m c => same (KMsg t) (VMsg m) (VMsg (proj1_sig c))) ms cs /\
    let file := flat_map (fun m => varint (N.of_nat (length (serialize t m))) ++ serialize t m) ms in
    py_read (wire t) file = Ok cs /\
    forall n ops, (0 < n)%nat ->
      run_reads _ _ (fc_next (wire t)) fc_reset ops (fc_new file n) = Ok (wrapping cs ops 0).
Proof.
  intros t ms H. destruct (stored_chain t ms H) as [cs C]. exists cs.
  destruct (stored_fit t ms cs (fun m I => proj2 (H m I)) C) as [F E]. split.
  { clear -C. induction C as [|m c ms cs [A _] C IH]; [constructor|]. constructor; [exact A|exact IH]. }
  cbn zeta. rewrite <- E. assert (Q : filter (fits (wire t)) cs = cs) by (apply filter_all; exact F). split.
  - rewrite (python_reads (wire t) (wire_law t)). rewrite Q. reflexivity.
  - intros n ops Hn. rewrite (file_reads (wire t) (wire_law t) cs n ops Hn). rewrite Q. reflexivity.
Qed.
Print Assumptions C132_chain.

Example C132_chain_example : exists cs : list (Msg (wire "AlgorithmState")),
  Forall2 (fun m c => same (KMsg "AlgorithmState") (VMsg m) (VMsg (proj1_sig c))) [state; []; state] cs /\
  py_read (wire "AlgorithmState") (flat_map (fun m => varint (N.of_nat (length (serialize "AlgorithmState" m))) ++ serialize "AlgorithmState" m) [state; []; state]) = Ok cs.
Proof.
  destruct (C132_chain "AlgorithmState" [state; []; state]) as (cs & A & B & _).
  - intros m [<-|[<-|[<-|[]]]].
    + split; [exact state_typed|exact state_fits].
    + split; [apply (typed_ok 10); vm_compute; reflexivity|vm_compute; reflexivity].
    + split; [exact state_typed|exact state_fits].
  - exists cs. split; assumption.
Qed.

(** ** A chain file cut inside the last state: Python returns a state that was never
    written (here one without mixing state, iteration and hyperparameters) *)
Theorem C132_cut_refuted : exists m k l c,
  well_typed (KMsg "AlgorithmState") (VMsg m) /\
  (k < length (varint (N.of_nat (length (serialize "AlgorithmState" m))) ++ serialize "AlgorithmState" m))%nat /\
  py_read (wire "AlgorithmState") (firstn k (varint (N.of_nat (length (serialize "AlgorithmState" m))) ++ serialize "AlgorithmState" m)) = Ok l /\
  l = [c] /\ ~ same (KMsg "AlgorithmState") (VMsg m) (VMsg (proj1_sig c)) /\ entries 2 (proj1_sig c) = entries 2 m /\
  entries 3 m <> [] /\ entries 3 (proj1_sig c) = [].
Proof.
  set (cut := [(1, VMsg [(1, VMsg [(1, VDbl one_half); (2, VDbl one_bits)]); (3, VInt 2)]);
     (1, VMsg [(1, VMsg [(1, VDbl minus_zero); (2, VDbl not_a_number)]); (3, VInt 1)]);
     (2, VInt 0); (2, VInt 1); (2, VInt 0)] : message).
  assert (Hc : settled "AlgorithmState" cut = true) by (vm_compute; reflexivity).
  set (c := exist _ cut Hc : stored "AlgorithmState").
  exists state, 54%nat, [c], c. split; [exact state_typed|]. split; [vm_compute; lia|]. split.
  - set (buf := firstn 54 (varint (N.of_nat (length (serialize "AlgorithmState" state))) ++ serialize "AlgorithmState" state)).
    assert (E : exists x, buf = 99 :: x /\ read_varint buf = Some (99, x) /\ parse_message "AlgorithmState" (firstn 99 x) = Some cut /\ skipn 99 x = [] /\ length x = 53%nat).
    { eexists. split; [vm_compute; reflexivity|]. repeat split; vm_compute; reflexivity. }
    destruct E as (x & E1 & E2 & E3 & E4 & E5). unfold py_read. cbn [py_go]. rewrite E2, E1. change (N.to_nat 99) with 99%nat.
    cbn [wire parse]. rewrite E3, (settle_ok _ _ Hc), E4. destruct (length (99 :: x)); reflexivity.
  - split; [reflexivity|]. split; [|split; [vm_compute; reflexivity|split; [discriminate|vm_compute; reflexivity]]].
    intros S. inversion S as [| | |t0 a b H]; subst.
    pose proof (H (sing "iteration_num" 4 KInt32) ltac:(vm_compute; tauto)) as Q. cbn in Q. inversion Q as [|x y l l' A B]; subst. inversion A.
Qed.
Print Assumptions C132_cut_refuted.

(** ** A field that the reader does not know is skipped *)
Theorem C132_unknown_field : forall t m k r, well_typed (KMsg t) (VMsg m) -> N.of_nat (length (serialize t m)) < 2 ^ 31 ->
  ~ In k (map fnum (fields t)) -> 1 <= k < 1000 ->
  match r with RVar n | RFix n => n < 2 ^ 64 | RFix4 n => n < 2 ^ 32 | RLen s => N.of_nat (length s) < 2 ^ 31 end ->
  parse_message t (serialize t m ++ rec_bytes (k, r)) = parse_message t (serialize t m).
Proof.
  intros t m k r W L N K O. apply (parse_unknown 99 t m k r W L (deep_limit t)).
  - unfold field_no. destruct (find _ (fields t)) as [f|] eqn:E; [|reflexivity]. exfalso. apply N. apply find_some in E as [F E].
    apply N.eqb_eq in E. subst k. apply in_map, F.
  - split; [exact K|]. destruct r; exact O.
Qed.
Print Assumptions C132_unknown_field.

Example C132_unknown_field_example : parse_message "AlgorithmState" (serialize "AlgorithmState" state ++ [82; 3; 1; 2; 3]) =
  parse_message "AlgorithmState" (serialize "AlgorithmState" state).
Proof.
  apply (C132_unknown_field "AlgorithmState" state 10 (RLen [1; 2; 3]) state_typed state_fits); [vm_compute; intuition discriminate|lia|vm_compute; reflexivity].
Qed.
