(** * Property theorems: fields given twice, and bytes that are no message (C132) *)
From Coq Require Import String.
From Coq Require Import List NArith ZArith Bool Lia.
From Verif Require Import Base Collect Schema Wire WireSpec WireFacts WireRead WireBack WireMore WireInst P_Wire.
Import ListNotations.
Local Open Scope N_scope.

(** ** A singular number or string that occurs twice: the last one counts, also when it
    is the default value, with which the field is not set *)
Theorem C132_last_value : forall t f v w, In f (fields t) -> is_msg (fkind f) = false -> frep f = false ->
  well_typed (fkind f) v -> well_typed (fkind f) w ->
  (forall s, v = VStr s \/ w = VStr s -> N.of_nat (length s) < 2 ^ 31) ->
  let twice := rec_bytes (fnum f, payload (fkind f) v) ++ rec_bytes (fnum f, payload (fkind f) w) in
  (w <> default_of (fkind f) -> parse_message t twice = Some [(fnum f, w)]) /\
  (w = default_of (fkind f) -> parse_message t twice = Some []).
Proof.
  intros t f v w F M R V W L twice.
  assert (E : parse_message t twice = Some (if unset w then [] else [(fnum f, w)])).
  { unfold parse_message. change depth_limit with (S 99). generalize 99%nat. intros d. unfold twice. rewrite (read_twice d t f v w F M V W L), (merged_twice d t f v w F M R). reflexivity. }
  rewrite E. split; intros H.
  - destruct (unset w) eqn:U; [|reflexivity]. exfalso. apply H. exact (unset_default _ _ W M U).
  - rewrite H. destruct (fkind f); reflexivity || discriminate M.
Qed.
Print Assumptions C132_last_value.

Example C132_last_value_example :
  parse_message "AlgorithmState" [32; 7; 32; 9] = Some [(4, VInt 9)] /\ parse_message "AlgorithmState" [32; 7; 32; 0] = Some [].
Proof.
  pose proof (fun z Z => C132_last_value "AlgorithmState" (sing "iteration_num" 4 KInt32) (VInt 7) (VInt z)
    ltac:(vm_compute; tauto) eq_refl eq_refl (wt_int32 7 ltac:(lia)) (wt_int32 z Z) ltac:(intros s [H|H]; discriminate)) as H.
  split; [apply (H 9%Z ltac:(lia)); discriminate|apply (H 0%Z ltac:(lia)); reflexivity].
Qed.

(** ** A message with a nested message that is cut is refused as a whole *)
Theorem C132_cut_nested : forall t f t' b, In f (fields t) -> fkind f = KMsg t' -> 128 <= b < 256 ->
  parse_message t (rec_bytes (fnum f, RLen [b])) = None.
Proof.
  intros t f t' b F K B. unfold parse_message. change depth_limit with (S 99). generalize 99%nat. intros d. rewrite (read_cut_nested d t f t' b F K B). reflexivity.
Qed.
Print Assumptions C132_cut_nested.

Example C132_cut_nested_example : parse_message "AlgorithmState" [26; 1; 128] = None.
Proof. exact (C132_cut_nested "AlgorithmState" (sing "mixing_state" 3 (KMsg "MixingState")) "MixingState" 128 ltac:(vm_compute; tauto) eq_refl ltac:(lia)). Qed.
