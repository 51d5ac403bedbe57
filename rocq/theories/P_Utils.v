(** * C53-C58: matrices, messages, files, cluster estimates, covariates, factory. *)
From Coq Require Import String Ascii.
From Coq Require Import List Arith ZArith Bool Lia Reals Lra.
From Verif Require Import Base Utils UtilsFacts UtilsMore ClusterFacts.
Import ListNotations.

(** ** C53 *)
Theorem C53_vstack : forall A (mats : list (mat A)),
  vstack mats = match mats with
    | [] => UB
    | m0 :: _ => if forallb (fun m => m_nc m =? m_nc m0) mats
                 then Ok (m_nc m0, map Some (concat (map (@m_rows A) mats)))
                 else Throw "Expected all elements to have the same number of columns"
    end.
Proof. exact vstack_all. Qed.
Print Assumptions C53_vstack.
Theorem C53_append_inplace_same : forall A (a b : mat A),
  append_by_row_inplace a b = (m <- append_by_row a b ;; Ok (m_nc m, map Some (m_rows m))).
Proof. exact append_same. Qed.
Print Assumptions C53_append_inplace_same.
Theorem C53_append_rows : forall A (a b : mat A) m, append_by_row a b = Ok m ->
  m_rows m = m_rows a ++ m_rows b /\ (well_shaped a -> well_shaped b -> well_shaped m).
Proof. exact append_rows. Qed.
Print Assumptions C53_append_rows.
Theorem C53_append_fails : forall A (a b : mat A),
  (forall m, append_by_row a b <> Ok m) <-> (m_rows a <> [] /\ m_rows b <> [] /\ m_nc a <> m_nc b).
Proof. exact append_fails. Qed.
Print Assumptions C53_append_fails.
Theorem C53_stack_vectors : forall A (rows : list (list A)),
  stack_vectors rows = match rows with
    | [] => UB
    | r0 :: _ => if forallb (fun r => length r =? length r0) rows then Ok (length r0, map Some rows) else UB
    end.
Proof. exact stack_all. Qed.
Print Assumptions C53_stack_vectors.
Theorem C53_grid_out_of_range : forall A (xs ys : list A),
  grid_2d xs ys = UB <-> 1 <= length ys /\ length ys < length xs /\ 2 <= length xs.
Proof. exact grid_ub. Qed.
Print Assumptions C53_grid_out_of_range.
Theorem C53_grid_rows : forall A (xs ys : list A), 1 <= length xs -> length xs <= length ys \/ length xs <= 1 ->
  exists out, grid_2d xs ys = Ok out /\ length out = length xs * length ys /\
    forall p, p < length xs * length ys -> nth_error out p = Some (grid_row xs ys p).
Proof. exact grid_rows. Qed.
Print Assumptions C53_grid_rows.
Theorem C53_grid_complete : forall A (xs ys : list A),
  grid_2d xs ys = Ok (map Some (list_prod xs ys)) <-> (length xs = length ys \/ length xs <= 1 \/ ys = []).
Proof. exact grid_complete. Qed.
Print Assumptions C53_grid_complete.
Theorem C53_grid_lists_pairs_refuted : exists (xs ys : list nat) out,
  grid_2d xs ys = Ok out /\ (exists x y, In x xs /\ In y ys /\ ~ In (Some (x, y)) out) /\ In None out.
Proof.
  exists [0; 1], [5; 6; 7], [Some (0, 5); Some (0, 6); Some (1, 5); Some (1, 6); Some (1, 7); None].
  split; [reflexivity|]. split; [|simpl; tauto]. exists 0, 7. split; [simpl; tauto|]. split; [simpl; tauto|].
  intros H. simpl in H. repeat (destruct H as [H|H]; [discriminate|]). destruct H.
Qed.
Print Assumptions C53_grid_lists_pairs_refuted.
Example ex_C53_vstack : vstack [mkMat 2 [[1; 2]; [3; 4]]; mkMat 2 []; mkMat 2 [[5; 6]]] = Ok (2, [Some [1; 2]; Some [3; 4]; Some [5; 6]]).
Proof. reflexivity. Qed.
Example ex_C53_vstack_fails : vstack [mkMat 2 [[1; 2]]; mkMat 1 [[3]]] = Throw "Expected all elements to have the same number of columns".
Proof. reflexivity. Qed.
Example ex_C53_append : append_by_row (mkMat 2 [[1; 2]]) (mkMat 2 [[3; 4]; [5; 6]]) = Ok (mkMat 2 [[1; 2]; [3; 4]; [5; 6]]).
Proof. reflexivity. Qed.
Example ex_C53_append_fails : forall m, append_by_row (mkMat 2 [[1; 2]]) (mkMat 1 [[3]]) <> Ok m.
Proof. apply C53_append_fails. repeat split; discriminate. Qed.
Example ex_C53_grid : grid_2d [1; 2] [7; 8] = Ok (map Some [(1, 7); (1, 8); (2, 7); (2, 8)]).
Proof. apply (C53_grid_complete nat [1; 2] [7; 8]). left. reflexivity. Qed.
Example ex_C53_grid_ub : grid_2d [1; 2; 3] [7; 8] = UB.
Proof. apply C53_grid_out_of_range. simpl. lia. Qed.

(** ** C54 *)
Theorem C54_vector_roundtrip : forall A (v : list A), vec_to_eigen (vec_to_proto v) = Ok v.
Proof. exact vec_roundtrip. Qed.
Print Assumptions C54_vector_roundtrip.
Theorem C54_vector_short : forall A (p : vec_msg A), vec_to_eigen p = UB <-> length (v_data p) < v_size p.
Proof. exact vec_short. Qed.
Print Assumptions C54_vector_short.
Theorem C54_matrix_stored_by_columns : forall A (d : A) m,
  mat_to_proto d m = mkMatMsg (m_nr m) (m_nc m) false (concat (map (column d m) (seq 0 (m_nc m)))).
Proof. exact to_proto_columns. Qed.
Print Assumptions C54_matrix_stored_by_columns.
Theorem C54_matrix_roundtrip : forall A (d : A) m, well_shaped m ->
  mat_to_eigen (mat_to_proto d m) = Ok (if (m_nr m =? 0) || (m_nc m =? 0) then mkMat 0 [] else m).
Proof. exact mat_roundtrip. Qed.
Print Assumptions C54_matrix_roundtrip.
Theorem C54_row_major_read : forall A (m : mat A), well_shaped m -> 0 < m_nr m -> 0 < m_nc m ->
  mat_to_eigen (mkMatMsg (m_nr m) (m_nc m) true (row_major m)) = Ok m.
Proof. exact row_major_read. Qed.
Print Assumptions C54_row_major_read.
Theorem C54_matrix_short : forall A (p : mat_msg A), mat_to_eigen p = UB <-> length (p_data p) < p_rows p * p_cols p.
Proof. exact mat_short. Qed.
Print Assumptions C54_matrix_short.
Theorem C54_shape_kept_refuted : exists m : mat nat, well_shaped m /\ mat_to_eigen (mat_to_proto 0 m) <> Ok m.
Proof. exists (mkMat 3 []). split; [intros r []|]. discriminate. Qed.
Print Assumptions C54_shape_kept_refuted.
Definition ex_mat : mat nat := mkMat 3 [[1; 2; 3]; [4; 5; 6]].
Example ex_C54_data : p_data (mat_to_proto 0 ex_mat) = [1; 4; 2; 5; 3; 6]. Proof. reflexivity. Qed.
Example ex_C54_roundtrip : mat_to_eigen (mat_to_proto 0 ex_mat) = Ok ex_mat.
Proof. apply (C54_matrix_roundtrip nat 0 ex_mat). intros r [<-|[<-|[]]]; reflexivity. Qed.
Example ex_C54_row_major : mat_to_eigen (mkMatMsg 2 3 true [1; 2; 3; 4; 5; 6]) = Ok ex_mat.
Proof. apply (C54_row_major_read nat ex_mat); [|apply Nat.ltb_lt; reflexivity..]. intros r [<-|[<-|[]]]; reflexivity. Qed.
Example ex_C54_short : mat_to_eigen (mkMatMsg 2 2 false [1; 2; 3]) = UB.
Proof. apply C54_matrix_short. simpl. lia. Qed.
Example ex_C54_vector_short : vec_to_eigen (mkVecMsg 3 [1; 2]) = UB.
Proof. apply C54_vector_short. simpl. lia. Qed.

(** ** C55 *)
Theorem C55_table : forall A (stof : list ascii -> option A) delim table vals tail,
  delim <> newline -> table <> [] -> tail = [] \/ tail = [newline] ->
  (forall r, In r table -> r <> [] /\ forall c, In c r -> clean delim c) ->
  Forall2 (Forall2 (fun c v => stof c = Some v)) table vals ->
  let rows := length table in
  let cols := length (hd [] table) in
  ((forall r, In r table -> length r <= cols) ->
    exists m, read_matrix stof (Some (text_of delim table ++ tail)) delim = Ok (rows, cols, m) /\ length m = rows * cols /\
      forall i j vs, nth_error vals i = Some vs -> j < cols -> nth_error m (j * rows + i) = Some (nth_error vs j)) /\
  ((exists r, In r table /\ cols < length r) -> read_matrix stof (Some (text_of delim table ++ tail)) delim = UB).
Proof. exact csv_table. Qed.
Print Assumptions C55_table.
Theorem C55_unparsable : forall A (stof : list ascii -> option A) delim table tail,
  delim <> newline -> table <> [] -> tail = [] \/ tail = [newline] ->
  (forall r, In r table -> r <> [] /\ forall c, In c r -> clean delim c) ->
  (forall r, In r table -> length r <= length (hd [] table)) ->
  (exists r c, In r table /\ In c r /\ stof c = None) ->
  read_matrix stof (Some (text_of delim table ++ tail)) delim = Throw "stof".
Proof. exact csv_unparsable. Qed.
Print Assumptions C55_unparsable.
Theorem C55_roundtrip : forall A (stof : list ascii -> option A) (show : A -> list ascii) (rd : A -> A) m delim, delim <> newline ->
  well_shaped m -> 0 < m_nr m -> 0 < m_nc m ->
  (forall x, clean delim (show x)) -> (forall x, stof (show x) = Some (rd x)) ->
  exists out, read_matrix stof (Some (write_matrix show m delim)) delim = Ok (m_nr m, m_nc m, out) /\
    length out = m_nr m * m_nc m /\
    forall i j r x, nth_error (m_rows m) i = Some r -> nth_error r j = Some x -> nth_error out (j * m_nr m + i) = Some (Some (rd x)).
Proof. exact csv_roundtrip. Qed.
Print Assumptions C55_roundtrip.
(** A short row leaves cells of the result unwritten. *)
Theorem C55_all_cells_written_refuted : exists (stof : list ascii -> option nat) text rows cols m,
  read_matrix stof (Some text) ","%char = Ok (rows, cols, m) /\ In None m.
Proof.
  exists (fun c => Some (length c)), (list_ascii_of_string "1,2" ++ [newline] ++ list_ascii_of_string "3"), 2, 2, [Some 1; Some 1; Some 1; None].
  split; [vm_compute; reflexivity|simpl; tauto].
Qed.
Print Assumptions C55_all_cells_written_refuted.
Definition cells (l : list (list string)) : list (list (list ascii)) := map (map list_ascii_of_string) l.
Definition digit (c : list ascii) : option nat :=
  match c with [d] => let n := nat_of_ascii d in if (48 <=? n) && (n <=? 57) then Some (n - 48) else None | _ => None end.
Example ex_C55_table : read_matrix digit (Some (text_of "," (cells [["1"; "2"; "3"]; ["4"; "5"; "6"]]%string))) "," =
  Ok (2, 3, [Some 1; Some 4; Some 2; Some 5; Some 3; Some 6]).
Proof. vm_compute. reflexivity. Qed.
Ltac clean_cells := intros r Hr; repeat (destruct Hr as [<-|Hr]; [split; [discriminate|intros c Hc; repeat (destruct Hc as [<-|Hc]; [repeat split; [discriminate|intros H; simpl in H; intuition discriminate..]|]); destruct Hc]|]); destruct Hr.
Example ex_C55_long_row : read_matrix digit (Some (text_of "," (cells [["1"]; ["4"; "5"]]%string) ++ [newline])) "," = UB.
Proof.
  apply (C55_table nat digit ","%char (cells [["1"]; ["4"; "5"]]%string) [[1]; [4; 5]] [newline]); [discriminate|discriminate|right; reflexivity| | |].
  - clean_cells.
  - repeat (constructor; [repeat constructor|]). constructor.
  - eexists. split; [right; left; reflexivity|simpl; lia].
Qed.
Example ex_C55_unparsable : read_matrix digit (Some (text_of "," (cells [["1"; "x"]]%string) ++ [])) "," = Throw "stof".
Proof.
  apply C55_unparsable; [discriminate|discriminate|left; reflexivity| | |].
  - clean_cells.
  - intros r [<-|[]]. simpl. lia.
  - do 2 eexists. split; [left; reflexivity|]. split; [right; left; reflexivity|reflexivity].
Qed.
Definition show_digit (n : nat) : list ascii := [ascii_of_nat (48 + n mod 10)].
Example ex_C55_roundtrip : exists out, read_matrix digit (Some (write_matrix show_digit ex_mat ";")) ";" = Ok (2, 3, out) /\ length out = 6 /\
  nth_error out (2 * 2 + 1) = Some (Some 6).
Proof.
  assert (B : forall n, n mod 10 < 10) by (intros; apply Nat.mod_upper_bound; lia).
  destruct (C55_roundtrip nat digit show_digit (fun n => n mod 10) ex_mat ";"%char) as (out & E & L & H).
  - discriminate.
  - intros r [<-|[<-|[]]]; reflexivity.
  - apply Nat.ltb_lt; reflexivity.
  - apply Nat.ltb_lt; reflexivity.
  - intros x. unfold show_digit. specialize (B x). revert B. generalize (x mod 10). intros k B.
    do 10 (destruct k as [|k]; [split; [discriminate|split; intros [H|[]]; discriminate H]|]). lia.
  - intros x. unfold show_digit. specialize (B x). revert B. generalize (x mod 10). intros k B.
    do 10 (destruct k as [|k]; [reflexivity|]). lia.
  - exists out. split; [exact E|]. split; [exact L|]. exact (H 1 2 _ 6 eq_refl eq_refl).
Qed.

(** ** C56 *)
Local Open Scope R_scope.
Theorem C56_similarity_fraction : forall chain i j, (j < i)%nat ->
  similarity chain i j = INR (length (filter (fun k => together chain k i j) (seq 0 (length chain)))) / INR (length chain).
Proof. exact similarity_count. Qed.
Print Assumptions C56_similarity_fraction.
Theorem C56_similarity_range : forall chain i j, chain <> [] -> (j < i)%nat ->
  0 <= similarity chain i j <= 1 /\
  (similarity chain i j = 1 <-> forall k, (k < length chain)%nat -> al chain k i = al chain k j) /\
  (similarity chain i j = 0 <-> forall k, (k < length chain)%nat -> al chain k i <> al chain k j).
Proof. exact similarity_range. Qed.
Print Assumptions C56_similarity_range.
Theorem C56_similarity_relabel : forall a b i j, same_partitions a b -> (i < n_data a)%nat -> similarity a i j = similarity b i j.
Proof. exact relabel_similarity. Qed.
Print Assumptions C56_similarity_relabel.
Theorem C56_estimate_relabel : forall a b junk, same_partitions a b -> a <> [] ->
  exists k, (k < length a)%nat /\ cluster_estimate a junk = Ok (nth k a []) /\ cluster_estimate b junk = Ok (nth k b []).
Proof. exact relabel_estimate. Qed.
Print Assumptions C56_estimate_relabel.
Theorem C56_estimate_minimises : forall chain junk, chain <> [] -> (forall k, (k < length chain)%nat -> nth k junk 0 = 0) -> exists k, (k < length chain)%nat /\
  cluster_estimate chain junk = Ok (nth k chain []) /\
  (forall l, (l < length chain)%nat -> (total_disagreement chain k <= total_disagreement chain l)%nat) /\
  (forall l, (l < k)%nat -> (total_disagreement chain k < total_disagreement chain l)%nat).
Proof. exact estimate_binder. Qed.
Print Assumptions C56_estimate_minimises.
Theorem C56_estimate_uninitialised : forall chain k, (k < length chain)%nat -> exists junk, cluster_estimate chain junk = Ok (nth k chain []).
Proof. exact estimate_any. Qed.
Print Assumptions C56_estimate_uninitialised.
Theorem C56_estimate_empty : forall junk, cluster_estimate [] junk = UB.
Proof. exact estimate_empty. Qed.
Print Assumptions C56_estimate_empty.
Definition ex_chain : list (list Z) := [[0; 0; 1]; [0; 0; 0]; [1; 1; 0]; [0; 1; 2]]%Z.
(** The second iteration disagrees with the others on seven pairs, the first on
    three; with other initial contents it is returned. *)
Theorem C56_estimate_refuted : exists chain junk k, cluster_estimate chain junk = Ok (nth k chain []) /\
  exists l, (l < length chain)%nat /\ (total_disagreement chain l < total_disagreement chain k)%nat.
Proof.
  destruct (C56_estimate_uninitialised ex_chain 1 ltac:(simpl; lia)) as (junk & E).
  exists ex_chain, junk, 1%nat. split; [exact E|]. exists 0%nat. vm_compute. lia.
Qed.
Print Assumptions C56_estimate_refuted.
Example ex_C56_disagreements : map (total_disagreement ex_chain) (seq 0 4) = [3; 7; 3; 5]%nat.
Proof. vm_compute. reflexivity. Qed.
Example ex_C56_similarity : similarity ex_chain 1 0 = 3 / 4.
Proof. rewrite C56_similarity_fraction by lia. replace (length (filter _ _)) with 3%nat by reflexivity. simpl. lra. Qed.
Example ex_C56_estimate : cluster_estimate ex_chain [0; 0; 0; 0] = Ok [0; 0; 1]%Z.
Proof.
  destruct (C56_estimate_minimises ex_chain [0; 0; 0; 0]) as (k & Hk & E & M & F); [discriminate| |].
  { intros k Hk. do 4 (destruct k as [|k]; [reflexivity|]). simpl in Hk. lia. }
  rewrite E. destruct k as [|k]; [reflexivity|]. exfalso. specialize (F 0%nat ltac:(lia)). simpl in Hk.
  do 3 (destruct k as [|k]; [vm_compute in F; lia|]). lia.
Qed.
Definition ex_relabelled : list (list Z) := [[5; 5; 2]; [9; 9; 9]; [0; 0; 4]; [7; 6; 5]]%Z.
Example ex_C56_relabelled : same_partitions ex_chain ex_relabelled.
Proof.
  split; [reflexivity|]. split; [reflexivity|]. intros k i j Hi Hj. change (n_data ex_chain) with 3%nat in Hi, Hj.
  do 3 (destruct i as [|i]; [do 3 (destruct j as [|j]; [do 4 (destruct k as [|k]; [reflexivity|]); destruct k; reflexivity|]); lia|]). lia.
Qed.
Local Close Scope R_scope.

(** ** C57 *)
Theorem C57_covariate_lookup : forall A (covs : mat A) i,
  (m_nc covs = 0 -> covariate_row covs i = Ok []) /\
  (forall r, m_nc covs <> 0 -> m_rows covs = [r] -> covariate_row covs i = Ok r) /\
  (forall r, m_nc covs <> 0 -> m_nr covs <> 1 -> nth_error (m_rows covs) i = Some r -> covariate_row covs i = Ok r) /\
  (covariate_row covs i = UB <-> m_nc covs <> 0 /\ m_nr covs <> 1 /\ m_nr covs <= i).
Proof. exact covariates_lookup. Qed.
Print Assumptions C57_covariate_lookup.
Example ex_C57_own : covariate_row ex_mat 1 = Ok [4; 5; 6].
Proof. apply C57_covariate_lookup; [discriminate|discriminate|reflexivity]. Qed.
Example ex_C57_shared : covariate_row (mkMat 2 [[8; 9]]) 17 = Ok [8; 9].
Proof. apply (proj1 (proj2 (C57_covariate_lookup nat (mkMat 2 [[8; 9]]) 17))); [discriminate|reflexivity]. Qed.
Example ex_C57_range : covariate_row ex_mat 2 = UB.
Proof. apply C57_covariate_lookup. cbn. lia. Qed.

(** ** C58 *)
Theorem C58_first_builder : forall Obj (regs before after : list (nat * Obj)) id b,
  regs = before ++ (id, b) :: after -> (forall c, ~ In (id, c) before) ->
  create_object id (registered regs) = Ok b /\ check_existence id (registered regs) = true.
Proof. exact factory_first. Qed.
Print Assumptions C58_first_builder.
Theorem C58_unknown_identifier : forall Obj (regs : list (nat * Obj)) id, (forall b, ~ In (id, b) regs) ->
  (exists m, create_object id (registered regs) = Throw m) /\ check_existence id (registered regs) = false.
Proof. exact factory_unknown. Qed.
Print Assumptions C58_unknown_identifier.
Theorem C58_by_name : forall Obj (names : list (string * nat)) (s : storage Obj) junk name,
  (forall id, In (name, id) names -> (forall id', In (name, id') names -> id' = id) ->
     create_by_name names junk name s = match find_id id s with Some b => Ok b | None => Throw "No identifier found for name" end) /\
  ((forall id, ~ In (name, id) names) ->
     create_by_name names junk name s = match find_id junk s with Some b => Ok b | None => Throw "No identifier found for name" end).
Proof. exact factory_by_name. Qed.
Print Assumptions C58_by_name.
(** An unknown name can create an object. *)
Theorem C58_unknown_name_throws_refuted : exists (names : list (string * nat)) junk name (s : storage nat) b,
  (forall id, ~ In (name, id) names) /\ create_by_name names junk name s = Ok b.
Proof.
  exists [("DP", 1); ("PY", 2)]%string, 2, "typo"%string, (registered [(1, 10); (2, 20)]), 20. split; [|reflexivity].
  intros id [H|[H|[]]]; discriminate.
Qed.
Print Assumptions C58_unknown_name_throws_refuted.
Example ex_C58 : create_object 2 (registered [(1, "a"); (2, "b"); (2, "c"); (1, "d")]%string) = Ok "b"%string.
Proof. apply (C58_first_builder string _ [(1, "a")]%string [(2, "c"); (1, "d")]%string); [reflexivity|]. intros c [H|[]]. discriminate. Qed.
Example ex_C58_unknown : check_existence 3 (registered [(1, "a"); (2, "b")]%string) = false.
Proof. apply C58_unknown_identifier. intros b [H|[H|[]]]; discriminate. Qed.
