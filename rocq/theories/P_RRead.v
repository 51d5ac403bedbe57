(** * C97: reading a chain from R. *)
From Coq Require Import String.
From Coq Require Import Bool List Arith NArith Lia.
From Verif Require Import Base Collect CollectFacts CollectMore P_Collect RRead RReadFacts.
Import ListNotations.

Theorem C97_r_roundtrip : forall P, (forall m, parse P (ser P m) = Some m) ->
  forall ms, (forall m, In m ms -> fits P m = true /\ ser P m <> []) -> r_read P (fc_written P ms) = Ok ms.
Proof. exact r_roundtrip. Qed.
Print Assumptions C97_r_roundtrip.

(** An empty message is read as two bytes: the first byte of the next record and 0.
    When no record follows it is dropped. *)
Theorem C97_r_empty_between : forall P, (forall m, parse P (ser P m) = Some m) ->
  forall ms, (forall m, In m ms -> fits P m = true) -> r_read P (fc_written P ms) = r_expect P ms.
Proof. exact r_reads. Qed.
Print Assumptions C97_r_empty_between.

Theorem C97_r_last_empty_dropped : forall P, (forall m, parse P (ser P m) = Some m) ->
  forall ms m, (forall m, In m ms -> fits P m = true /\ ser P m <> []) -> ser P m = [] ->
  r_read P (fc_written P (ms ++ [m])) = Ok ms.
Proof. exact r_last_empty. Qed.
Print Assumptions C97_r_last_empty_dropped.

Theorem C97_r_cut : forall P, (forall m, parse P (ser P m) = Some m) ->
  forall ms k j m, (forall m, In m ms -> fits P m = true /\ ser P m <> []) -> whole_within P ms k j -> nth_error ms j = Some m ->
  let r := k - length (fc_written P (firstn j ms)) in
  r_read P (firstn k (fc_written P ms)) =
    if r <=? 1 then Ok (firstn j ms)
    else let len := N.of_nat (length (ser P m)) in
         let v := length (varint len) in
         let seen := if v <=? r then firstn (r - v) (ser P m) ++ repeat 0%N (length (ser P m) - (r - v))
                     else let w := (len mod 2 ^ (7 * N.of_nat r))%N in repeat 0%N (if (w =? 0)%N then 2 else N.to_nat w) in
         match parse P seen with
         | Some x => Ok (firstn j ms ++ [x])
         | None => Throw "Something went wrong while deserialization"
         end.
Proof. exact r_cut. Qed.
Print Assumptions C97_r_cut.

(** The two readers return the same messages when none is empty. *)
Theorem C97_r_agrees_with_python : forall P, (forall m, parse P (ser P m) = Some m) ->
  forall ms, (forall m, In m ms -> fits P m = true /\ ser P m <> []) -> r_read P (fc_written P ms) = py_read P (fc_written P ms).
Proof.
  intros P law ms H. rewrite (C97_r_roundtrip P law ms H), (C51_python_roundtrip P law ms). f_equal.
  induction ms as [|m ms IH]; [reflexivity|]. cbn [filter]. rewrite (proj1 (H m (or_introl eq_refl))). f_equal. apply IH. intros x Hx. apply H. right; exact Hx.
Qed.
Print Assumptions C97_r_agrees_with_python.

Theorem C97_r_roundtrip_refuted : exists P ms, (forall m, parse P (ser P m) = Some m) /\ (forall m, In m ms -> fits P m = true) /\
  py_read P (fc_written P ms) = Ok ms /\ exists l, r_read P (fc_written P ms) = Ok l /\ length l = length ms /\ l <> ms.
Proof.
  exists P2, exms. split; [exact P2_law|]. split; [exact exms_fit|]. split; [rewrite (C51_python_roundtrip P2 P2_law); reflexivity|].
  eexists. split; [vm_compute; reflexivity|]. split; [reflexivity|discriminate].
Qed.
Print Assumptions C97_r_roundtrip_refuted.

(** A cut file yields a message that was never saved. *)
Theorem C97_r_prefix_refuted : exists P ms k m l, (forall m, parse P (ser P m) = Some m) /\
  r_read P (firstn k (fc_written P ms)) = Ok l /\ In m l /\ ~ In m ms.
Proof.
  exists P2, [[5; 300]]%N, 2, [5; 0]%N, [[5; 0]]%N. split; [exact P2_law|]. split; [vm_compute; reflexivity|].
  split; [left; reflexivity|]. intros [H|[]]; discriminate.
Qed.
Print Assumptions C97_r_prefix_refuted.

Definition full : list (Msg P2) := [[1; 300]; [7]]%N.
Lemma full_ok : forall m, In m full -> fits P2 m = true /\ ser P2 m <> [].
Proof. intros m [<-|[<-|[]]]; split; try reflexivity; discriminate. Qed.
Example ex_C97_whole : r_read P2 (fc_written P2 full) = Ok full.
Proof. exact (C97_r_roundtrip P2 P2_law full full_ok). Qed.
Example ex_C97_last : r_read P2 (fc_written P2 (full ++ [[]])) = Ok full.
Proof. apply (C97_r_last_empty_dropped P2 P2_law full []); [exact full_ok|reflexivity]. Qed.
Example ex_C97_cut : r_read P2 (firstn 7 (fc_written P2 full)) = Ok full.
Proof.
  rewrite (C97_r_cut P2 P2_law full 7 1 [7]%N full_ok); [vm_compute; reflexivity|split; [cbn; lia|split; [vm_compute; lia|intros _; vm_compute; lia]]|reflexivity].
Qed.
Example ex_C97_empty : r_expect P2 exms = Ok [[1; 300]; [2]; [7]]%N.
Proof. vm_compute. reflexivity. Qed.
(** 20000 bytes: the length takes three bytes, of which two are left; 20000 mod 2^14 zero bytes are parsed. *)
Definition huge : list (Msg P2) := [repeat 9%N (100 * 100)].
Lemma huge_ok : forall m, In m huge -> fits P2 m = true /\ ser P2 m <> [].
Proof. intros m [<-|[]]. split; [vm_compute; reflexivity|discriminate]. Qed.
Example ex_C97_cut_in_length : r_read P2 (firstn 2 (fc_written P2 huge)) = Ok [repeat 0%N (36 * 50 + 8)].
Proof.
  rewrite (C97_r_cut P2 P2_law huge 2 0 (repeat 9%N (100 * 100)) huge_ok); [vm_compute; reflexivity| |reflexivity].
  split; [cbn; lia|]. split; [cbn; lia|]. intros _. apply Nat.ltb_lt. vm_compute. reflexivity.
Qed.
