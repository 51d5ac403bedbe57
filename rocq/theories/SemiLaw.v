(** * Semi-HDP: the laws the draws of an iteration should follow.

    Vocabulary of the properties; nothing here is used by the model. *)
From Coq Require Import String.
From Coq Require Import Bool List Arith ZArith Reals.
From Verif Require Import Base XReal Semi SemiSpec.
Import ListNotations.
Local Open Scope nat_scope.

Definition rsum (l : list R) : R := fold_right Rplus 0%R l.
Definition rprod (l : list R) : R := fold_right Rmult 1%R l.
Definition zsum (l : list Z) : Z := fold_right Z.add 0%Z l.

(** Metropolis-Hastings kernel without the ratio of the proposals: probability
    of moving from [a] to [b] when [b] is proposed with probability [q]. *)
Definition mh (q ta tb : R) : R := (q * Rmin 1 (tb / ta))%R.

Section Law.
Variable I : SH.
Variable P : params.
Variable data : list (list (Datum I)).
Notation sst := (sst I).
Notation ng := (length data).

Definition occupied (s : sst) (r : nat) : bool := existsb (Nat.eqb r) (s_ra I s).

(** Private and shared tables of the restaurants in use. *)
Definition n_private (s : sst) : nat :=
  length (flat_map (fun r => if occupied s r then somes (nth r (s_tp I s) []) else []) (seq 0 ng)).
Definition n_shared (s : sst) : nat :=
  length (flat_map (fun r => if occupied s r then somes (nth r (s_ts I s) []) else []) (seq 0 ng)).

(** Groups eating at restaurant [r]. *)
Definition n_groups (s : sst) (r : nat) : nat := count_occ Nat.eq_dec (s_ra I s) r.

(** Density of a datum under the atom of object [o]. *)
Definition dens (h : list (St I)) (o : nat) (d : Datum I) : R :=
  match nth_error h o with Some th => xexp (like I th d) | None => 0%R end.

(** Tables and counts that stand for restaurant [r]: its own if it is in use,
    those of the pseudo-prior otherwise. *)
Definition tables (s : sst) (r : nat) : list nat := if occupied s r then nth r (s_rest I s) [] else nth r (s_restp I s) [].
Definition counts (s : sst) (r : nat) : list Z := if occupied s r then nth r (s_n I s) [] else nth r (s_np I s) [].

(** Weights and density of the finite part of the mixture of restaurant [r]. *)
Definition mix_weight (s : sst) (r l : nat) : R := (IZR (nth l (counts s r) 0%Z) / (p_alpha P + IZR (zsum (counts s r))))%R.
Definition mix_density (s : sst) (r : nat) (d : Datum I) : R :=
  rsum (map (fun l => mix_weight s r l * dens (s_heap I s) (nth l (tables s r) O) d)%R (seq 0 (length (tables s r)))).

(** Prior weight of the restaurant times the likelihood of group [i] there. *)
Definition target (s : sst) (i r : nat) : R := (nth r (s_conc I s) 0 * rprod (map (mix_density s r) (nth i data [])))%R.

(** Normalised mixture of a restaurant, read off its tables whether it is in use
    or not. *)
Definition mixture (s : sst) (r : nat) : list (St I * R) :=
  let rt := nth r (s_rest I s) [] in
  let t := rsum (map (fun l => IZR (nth l (nth r (s_n I s) []) 0%Z)) (seq 0 (length rt))) in
  flat_map (fun l => match nth_error (s_heap I s) (nth l rt 0) with
                     | Some th => [(th, (IZR (nth l (nth r (s_n I s) []) 0%Z) / t)%R)]
                     | None => [] end) (seq 0 (length rt)).

(** Proposal probabilities from restaurant [c]: restaurants with a similar
    mixture are proposed more often. *)
Definition near (s : sst) (c r : nat) : R := (1 + (1 / 10) / (1 / 10000 + mdist I (mixture s c) (mixture s r)))%R.
Definition proposal (s : sst) (c r : nat) : R := (near s c r / rsum (map (near s c) (seq 0 ng)))%R.

(** Base measure of the shared tables, with the weights [e^logm / M] of the
    atoms and [gamma / M] of a new one, at datum [d]. *)
Definition shared_base (s : sst) (logm : list Z) (M : R) (d : Datum I) : R :=
  (rsum (map (fun h => exp (IZR (nth h logm 0%Z)) / M * dens (s_heap I s) (nth h (s_shared I s) O) d) (seq 0 (length (s_shared I s)))) +
   p_gamma P / M * xexp (marg I d))%R.

(** Weight of a new table: private with weight [w], else served from the base
    measure of the shared tables. *)
Definition new_table (s : sst) (logm : list Z) (M : R) (d : Datum I) : R :=
  (p_alpha P * (s_w I s * xexp (marg I d) + (1 - s_w I s) * shared_base s logm M d))%R.

(** Multinomial weights of the pseudo-prior: proportions of the clusters mixed
    with the uniform ones. *)
Definition pseudo_weight (ps : pstate I) (c : nat) : R :=
  (p_card P * (INR (count_occ Nat.eq_dec (snd ps) c) / INR (length (snd ps))) + (1 - p_card P) / INR (length (fst ps)))%R.

End Law.
