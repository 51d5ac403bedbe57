(** * A concrete, computable interface used by the examples.

    Integer data, statistics = sum, "posterior" = 100 * prior + sum, so that
    the examples can see which data a posterior was computed from; the
    generator is a tape of numbers.  Nothing here models /repo code. *)
From Coq Require Import String.
From Coq Require Import Bool List Arith ZArith Lia.
From Verif Require Import Base Hier Algos MargFacts NealFacts.
Import ListNotations.
Set Implicit Arguments.

Definition tape_pick (n : nat) (r : list nat) : nat * list nat :=
  match r with [] => (0, []) | x :: t => (x mod n, t) end.

Definition demo (cj : bool) (hup : Z -> Z) : Iface := mkIface
  (tt : unit) (* cov0 *)
  cj
  (fun (_ : Z) (_ : unit) => true)
  0%Z
  (fun (d : Z) (_ : unit) (add : bool) (s : Z) => if add then (s + d)%Z else (s - d)%Z)
  (fun (hy k s st : Z) => (hy * 100 + s)%Z)
  (fun (hy : Z) (r : list nat) => (hy, r))
  None
  (fun hy : Z => hy)
  (fun (st d : Z) (_ : unit) => (st + d)%Z)
  (fun (hy d : Z) (_ : unit) => (hy + d)%Z)
  (fun (_ : unit) (_ _ : nat) (c : Z) => Ok c)
  (fun (_ : unit) (_ _ : nat) => Ok 1%Z)
  (fun (_ : unit) (_ : nat) => [0%Z])
  (fun (_ : unit) (_ : list Z) (_ : list nat) (r : list nat) => Ok (tt, r))
  (fun (hy : Z) (_ : list (Z * Z)) (r : list nat) => (hup hy, r))
  0%Z Z.add Z.opp
  (fun (w : Z) (_ : nat) => w)
  (fun (_ : list Z) (_ : nat) => 0%Z)
  (fun (ws : list Z) (r : list nat) => tape_pick (length ws) r)
  tape_pick
  (fun (w : Z) (r : list nat) => match r with [] => (true, []) | x :: t => (Nat.even x, t) end).

Lemma tape_pick_lt : forall n r, 0 < n -> fst (tape_pick n r) < n.
Proof.
  intros n [|x r] H; simpl; auto. apply Nat.mod_upper_bound. lia.
Qed.

Lemma demo_laws : forall cj hup, laws (demo cj hup).
Proof.
  intros. constructor; simpl; intros; auto.
  - apply tape_pick_lt. destruct ws; simpl; [congruence|lia].
  - apply tape_pick_lt; auto.
  - lia.
  - lia.
Qed.

Lemma demo_rows : forall cj hup (data : list Z),
  rows_ok (demo cj hup) data (at_ (repeat tt (length data))).
Proof.
  intros cj hup data j Hj.
  destruct (at_ok data Hj) as (d & Ed & _).
  assert (Hj' : j < length (repeat tt (length data))) by (rewrite repeat_length; auto).
  destruct (at_ok (repeat tt (length data)) Hj') as (c & Ec & _).
  exists d, c. auto.
Qed.

Lemma demo_mixing_safe : forall cj hup (data : list Z),
  @mixing_safe (demo cj hup) data (fun _ => True).
Proof.
  intros. split.
  - intros m _ k _. simpl. split; eauto.
  - intros m cards al r _. simpl. eauto.
Qed.
