(** * Property theorems: stored chains. *)
From Coq Require Import String.
From Coq Require Import List Arith NArith Bool Lia.
From Verif Require Import Base Collect CollectFacts CollectMore.
Import ListNotations.

(** A message type for the examples: a list of numbers, each written on two
    bytes; parsing fails on an odd number of bytes. *)
Fixpoint ser2 (l : list N) : bytes := match l with [] => [] | x :: r => (x mod 256)%N :: (x / 256)%N :: ser2 r end.
Fixpoint parse2 (b : bytes) : option (list N) :=
  match b with
  | [] => Some []
  | [_] => None
  | lo :: hi :: r => match parse2 r with Some l => Some ((lo + 256 * hi)%N :: l) | None => None end
  end.
Definition P2 : proto := mkProto (list N) ser2 parse2.
Lemma P2_law : forall m, parse P2 (ser P2 m) = Some m.
Proof.
  change (forall m, parse2 (ser2 m) = Some m). induction m as [|x m IH]; [reflexivity|]. cbn [ser2 parse2]. rewrite IH.
  pose proof (N.div_mod x 256 ltac:(discriminate)) as D. f_equal. f_equal. rewrite D at 3. apply N.add_comm.
Qed.
Definition exms : list (Msg P2) := [[1; 300]; []; [7]]%N.
Lemma exms_fit : forall m, In m exms -> fits P2 m = true.
Proof. intros m [<-|[<-|[<-|[]]]]; reflexivity. Qed.

(** ** C48 *)
Theorem C48_roundtrip : forall P, (forall m, parse P (ser P m) = Some m) -> forall ms n ops, 0 < n ->
  run_reads _ _ (fc_next P) fc_reset ops (fc_new (fc_written P ms) n) = Ok (wrapping (filter (fits P) ms) ops 0).
Proof. exact file_reads. Qed.
Print Assumptions C48_roundtrip.
Theorem C48_crash_prefix : forall P, (forall m, parse P (ser P m) = Some m) ->
  forall ms n ops k, 0 < n -> (forall m, In m ms -> fits P m = true) ->
  exists j, whole_within P ms k j /\
    run_reads _ _ (fc_next P) fc_reset ops (fc_new (firstn k (fc_written P ms)) n) = Ok (wrapping (firstn j ms) ops 0).
Proof. exact file_cut. Qed.
Print Assumptions C48_crash_prefix.
Example ex_C48_bytes : fc_written P2 exms = [4; 1; 0; 44; 1; 0; 2; 7; 0]%N.
Proof. reflexivity. Qed.
Example ex_C48_roundtrip : run_reads _ _ (fc_next P2) fc_reset (repeat RNext 5) (fc_new (fc_written P2 exms) 2) =
  Ok [Some [1; 300]%N; Some []; Some [7]%N; None; Some [1; 300]%N].
Proof. rewrite (C48_roundtrip P2 P2_law) by lia. reflexivity. Qed.
(** The last message lacks its last byte. *)
Example ex_C48_crash : run_reads _ _ (fc_next P2) fc_reset (repeat RNext 3) (fc_new (firstn 8 (fc_written P2 exms)) 2) =
  Ok [Some [1; 300]%N; Some []; None].
Proof.
  destruct (C48_crash_prefix P2 P2_law exms 2 (repeat RNext 3) 8 ltac:(lia) exms_fit) as (j & (J1 & J2 & J3) & E). rewrite E.
  destruct j as [|[|[|[|j]]]]; try reflexivity; exfalso.
  - specialize (J3 ltac:(simpl; lia)). simpl in J3. lia.
  - specialize (J3 ltac:(simpl; lia)). simpl in J3. lia.
  - simpl in J2. lia.
  - simpl in J1. lia.
Qed.

(** ** C49 *)
Theorem C49_chunk_size : forall P disk a b ops, 0 < a -> 0 < b ->
  exists l, run_reads _ _ (fc_next P) fc_reset ops (fc_new disk a) = Ok l /\
            run_reads _ _ (fc_next P) fc_reset ops (fc_new disk b) = Ok l.
Proof. exact chunk_unobservable. Qed.
Print Assumptions C49_chunk_size.
Theorem C49_chunk_zero_ub : forall P disk, fc_next P (fc_new disk 0) = UB.
Proof. exact chunk_zero. Qed.
Print Assumptions C49_chunk_zero_ub.
(** Reading all at once and in chunks of any positive size, from any position. *)
Theorem C49_whole_and_chunks : forall (C M : Type) (next : C -> res (C * option M)) At ms, is_cursor next At ms ->
  forall c pos, At c pos ->
  (exists fuel0, forall fuel, fuel0 <= fuel -> exists c', get_whole C M next fuel c = Some (Ok (c', skipn pos ms))) /\
  forall size keep, 0 < size -> exists fuel0, forall fuel, fuel0 <= fuel ->
    exists c' l, get_chunks C M next fuel size keep c = Some (Ok (c', l)) /\ concat l = skipn pos ms /\
      (forall x, In x l -> length x <= size).
Proof.
  intros C M next At ms H c pos Hc. split; [|intros size keep Hs]; exists (S (length ms)); intros fuel Hf.
  - apply (whole_reads C M next At ms H); auto. lia.
  - apply (chunks_read C M next At ms H size Hs fuel keep c pos Hc). lia.
Qed.
Print Assumptions C49_whole_and_chunks.
Theorem C49_collectors_are_cursors : forall P,
  (forall ms, is_cursor (fc_next P) (fc_at P ms) ms) /\
  (forall disk, exists ms, forall n, 0 < n -> fc_at P ms (fc_new disk n) 0) /\
  ((forall m, parse P (ser P m) = Some m) -> forall ms, is_cursor (mc_next P) (mc_at P ms) (map Some ms) /\
     mc_at P ms (mkMc (map (ser P) ms) (length ms) 0) 0).
Proof.
  intros P. split; [intros; apply file_cursor|]. split.
  - intros disk. destruct (yields_total P disk) as (ms & Y & _). exists ms. intros n Hn. apply fc_at_new; auto.
  - intros law ms. split; [apply memory_cursor; auto|]. split; [reflexivity|]. split; [reflexivity|]. split; [reflexivity|]. apply Nat.le_0_l.
Qed.
Print Assumptions C49_collectors_are_cursors.
(** A chunk size of 0 makes the low-memory evaluation loop forever. *)
Theorem C49_chunk_zero_diverges : forall (C M : Type) (next : C -> res (C * option M)) fuel c,
  get_chunks C M next fuel 0 true c = None.
Proof. exact chunks_zero. Qed.
Print Assumptions C49_chunk_zero_diverges.
Example ex_C49_chunks : match get_chunks _ _ (fc_next P2) 5 2 true (fc_new (fc_written P2 exms) 3) with
  | Some (Ok (_, l)) => l = [[[1; 300]; []]; [[7]]]%N | _ => False end.
Proof. vm_compute. reflexivity. Qed.
Example ex_C49_sizes : run_reads _ _ (fc_next P2) fc_reset [RNext; RNext; RReset; RNext; RNext; RNext; RNext; RNext] (fc_new (fc_written P2 exms) 1) =
  run_reads _ _ (fc_next P2) fc_reset [RNext; RNext; RReset; RNext; RNext; RNext; RNext; RNext] (fc_new (fc_written P2 exms) 3).
Proof. vm_compute. reflexivity. Qed.

(** ** C50 *)
Theorem C50_memory_history : forall P, (forall m, parse P (ser P m) = Some m) ->
  forall ops, exists c, mc_run P ops mc_new = Ok (map (option_map Some) (sticky ops [] 0), c) /\
    m_size c = length (collected P ops) /\
    (forall i, mc_get P i c = match nth_error (collected P ops) i with Some m => Ok (Some m) | None => UB end).
Proof. exact memory_reads. Qed.
Print Assumptions C50_memory_history.
Theorem C50_write_then_load : forall P, (forall m, parse P (ser P m) = Some m) ->
  forall ops c l, mc_run P ops mc_new = Ok (l, c) -> (forall m, In m (collected P ops) -> fits P m = true) ->
  mc_load P (mc_write P c) mc_new = mkMc (map (ser P) (collected P ops)) (length (collected P ops)) 0.
Proof. exact write_load. Qed.
Print Assumptions C50_write_then_load.
(** Loading into a collector that is not empty: after the loaded states comes
    undefined behaviour instead of the end. *)
Theorem C50_load_runs_past_end : forall P, (forall m, parse P (ser P m) = Some m) ->
  forall bs ms c, yields P bs ms -> m_iter c <= m_size c ->
  run_reads _ _ (mc_next P) mc_reset (RReset :: repeat RNext (S (length ms))) (mc_load P bs c) =
    if m_size c =? 0 then Ok (map (fun m => Some (Some m)) ms ++ [None]) else UB.
Proof. exact load_over. Qed.
Print Assumptions C50_load_runs_past_end.
Theorem C50_load_refuted : exists P ops c l bs ms,
  (forall m, parse P (ser P m) = Some m) /\ mc_run P ops mc_new = Ok (l, c) /\ yields P bs ms /\
  m_size (mc_load P bs c) <> length ms /\
  run_reads _ _ (mc_next P) mc_reset (RReset :: repeat RNext (S (length ms))) (mc_load P bs c) = UB.
Proof.
  exists P2, [MCollect [5]%N], (mkMc [ser2 [5]%N] 1 0), [], (fc_written P2 exms), exms.
  split; [exact P2_law|]. split; [reflexivity|]. split; [apply (written_yields P2 P2_law exms)|]. split; [simpl; lia|].
  exact (C50_load_runs_past_end P2 P2_law _ exms (mkMc [ser2 [5]%N] 1 0) (written_yields P2 P2_law exms) ltac:(simpl; lia)).
Qed.
Print Assumptions C50_load_refuted.
Example ex_C50 : match mc_run P2 [MCollect [5]%N; MNext; MNext; MCollect [6; 7]%N; MNext; MNext; MReset; MNext] mc_new with
  | Ok (l, _) => l = [Some (Some [5]%N); None; Some (Some [6; 7]%N); None; Some (Some [5]%N)] | _ => False end.
Proof. vm_compute. reflexivity. Qed.

(** ** C51 *)
Theorem C51_python_roundtrip : forall P, (forall m, parse P (ser P m) = Some m) ->
  forall ms, py_read P (fc_written P ms) = Ok (filter (fits P) ms).
Proof. exact python_reads. Qed.
Print Assumptions C51_python_roundtrip.
Theorem C51_python_cut : forall P, (forall m, parse P (ser P m) = Some m) ->
  forall ms k j m, (forall m, In m ms -> fits P m = true) -> whole_within P ms k j -> nth_error ms j = Some m ->
  let r := k - length (fc_written P (firstn j ms)) in
  let v := length (varint (N.of_nat (length (ser P m)))) in
  py_read P (firstn k (fc_written P ms)) =
    if r =? 0 then Ok (firstn j ms)
    else if r <? v then Throw "IndexError"
    else match parse P (firstn (r - v) (ser P m)) with
         | Some m' => Ok (firstn j ms ++ [m'])
         | None => Ok (firstn j ms)
         end.
Proof. exact python_cut. Qed.
Print Assumptions C51_python_cut.
(** Cutting the file in the middle of the first message yields a message that
    was never saved. *)
Theorem C51_python_prefix_refuted : exists P ms k m l,
  (forall m, parse P (ser P m) = Some m) /\ py_read P (firstn k (fc_written P ms)) = Ok l /\ In m l /\ ~ In m ms.
Proof.
  exists P2, exms, 3, [1]%N, [[1]%N]. split; [exact P2_law|]. split; [vm_compute; reflexivity|]. split; [left; reflexivity|].
  intros [H|[H|[H|[]]]]; discriminate.
Qed.
Print Assumptions C51_python_prefix_refuted.
Example ex_C51_whole : py_read P2 (fc_written P2 exms) = Ok exms.
Proof. rewrite (C51_python_roundtrip P2 P2_law). reflexivity. Qed.
Definition long : list (Msg P2) := [[3]; repeat 9 70]%N.
Example ex_C51_cut_in_length : py_read P2 (firstn 4 (fc_written P2 long)) = Throw "IndexError".
Proof.
  rewrite (C51_python_cut P2 P2_law long 4 1 (repeat 9%N 70)); [reflexivity| |split; [simpl; lia|split; [simpl; lia|intros _; vm_compute; lia]]|reflexivity].
  intros m [<-|[<-|[]]]; reflexivity.
Qed.

(** ** C79 *)
Theorem C79_writer_closes_own : forall s fresh, ~ In fresh (fds s) -> ~ In (fd_member s) (fds s) ->
  fds (fd_finish (fd_start fresh s)) = fds s.
Proof. exact fd_own. Qed.
Print Assumptions C79_writer_closes_own.
Theorem C79_writer_closes_foreign_refuted : exists s fresh, ~ In fresh (fds s) /\ fds (fd_finish (fd_start fresh s)) <> fds s.
Proof. exists (mkFd [0; 1; 2] None 0 false), 3. split; [simpl; lia|]. discriminate. Qed.
Print Assumptions C79_writer_closes_foreign_refuted.
Example ex_C79 : fds (fd_finish (fd_start 3 (mkFd [0; 1; 2] None 77 false))) = [0; 1; 2].
Proof. apply C79_writer_closes_own; simpl; lia. Qed.
