(** * The real numbers as a mathcomp real field.

    Only a bridge: the operations are those of the standard library, so matrices
    of mathcomp can have real entries.  mathcomp asks every ring to carry a
    choice operator; the one for [R] is the epsilon of
    Coq.Logic.ClassicalEpsilon. *)
From Coq Require Import Reals Lra ClassicalEpsilon FunctionalExtensionality.
From mathcomp Require Import all_ssreflect all_algebra.
Set Implicit Arguments.
Unset Strict Implicit.
Unset Printing Implicit Defensive.
Delimit Scope R_scope with coqR.

Definition eqr (x y : R) : bool := if Req_EM_T x y is left _ then true else false.
Lemma eqrP : Equality.axiom eqr.
Proof. by move=> x y; rewrite /eqr; case: Req_EM_T => H; constructor. Qed.
Canonical R_eqType := EqType R (EqMixin eqrP).

Definition pickR (P : pred R) (n : nat) : option R :=
  let x := epsilon (inhabits 0%coqR) (fun x => P x : Prop) in if P x then Some x else None.
Lemma pickR_some : forall P n x, pickR P n = Some x -> P x.
Proof. by move=> P n x; rewrite /pickR; case E: (P _) => // -[<-]. Qed.
Lemma pickR_ex : forall P : pred R, (exists x, P x) -> exists n, pickR P n.
Proof. by move=> P HP; exists 0%N; rewrite /pickR; rewrite (epsilon_spec (inhabits 0%coqR) (fun x => P x : Prop) HP). Qed.
Lemma pickR_ext : forall P Q, P =1 Q -> pickR P =1 pickR Q.
Proof. by move=> P Q E n; have -> : P = Q by apply: functional_extensionality. Qed.
Canonical R_choiceType := ChoiceType R (Choice.Mixin pickR_some pickR_ex pickR_ext).

Lemma RplusA : associative Rplus.
Proof. by move=> x y z; rewrite Rplus_assoc. Qed.
Lemma RmultA : associative Rmult.
Proof. by move=> x y z; rewrite Rmult_assoc. Qed.
Lemma R1_neq0 : R1 != 0%coqR :> R.
Proof. by apply/eqP; exact: R1_neq_R0. Qed.
Canonical R_zmodType := ZmodType R (ZmodMixin RplusA Rplus_comm Rplus_0_l Rplus_opp_l).
Canonical R_ringType := RingType R
  (RingMixin RmultA Rmult_1_l Rmult_1_r Rmult_plus_distr_r Rmult_plus_distr_l R1_neq0).
Canonical R_comRingType := ComRingType R Rmult_comm.

Lemma RmulVf : GRing.Field.axiom Rinv.
Proof. by move=> x /eqP Hx; exact: Rinv_l. Qed.
Canonical R_unitRingType := UnitRingType R (FieldUnitMixin RmulVf Rinv_0).
Canonical R_comUnitRingType := [comUnitRingType of R].
Lemma R_fieldMixin : GRing.Field.mixin_of [unitRingType of R].
Proof. exact: (FieldMixin RmulVf Rinv_0). Qed.
Canonical R_idomainType := IdomainType R (FieldIdomainMixin R_fieldMixin).
Canonical R_fieldType := FieldType R R_fieldMixin.

Definition rleb (x y : R) : bool := if Rle_dec x y is left _ then true else false.
Definition rltb (x y : R) : bool := if Rlt_dec x y is left _ then true else false.
Lemma rlebP : forall x y, reflect (x <= y)%coqR (rleb x y).
Proof. by move=> x y; rewrite /rleb; case: Rle_dec => H; constructor. Qed.
Lemma rltbP : forall x y, reflect (x < y)%coqR (rltb x y).
Proof. by move=> x y; rewrite /rltb; case: Rlt_dec => H; constructor. Qed.

Lemma r_add : forall x y, rleb 0%coqR x -> rleb 0%coqR y -> rleb 0%coqR (x + y)%coqR.
Proof. by move=> x y /rlebP Hx /rlebP Hy; apply/rlebP; lra. Qed.
Lemma r_mul : forall x y, rleb 0%coqR x -> rleb 0%coqR y -> rleb 0%coqR (x * y)%coqR.
Proof. by move=> x y /rlebP Hx /rlebP Hy; apply/rlebP; exact: Rmult_le_pos. Qed.
Lemma r_anti : forall x, rleb 0%coqR x -> rleb x 0%coqR -> x = 0%coqR.
Proof. by move=> x /rlebP Hx /rlebP Hy; lra. Qed.
Lemma r_sub : forall x y, rleb 0%coqR (y - x)%coqR = rleb x y.
Proof. by move=> x y; apply/rlebP/rlebP => H; lra. Qed.
Lemma r_total : forall x, rleb 0%coqR x || rleb x 0%coqR.
Proof. by move=> x; case: (Rle_dec 0%coqR x) => H; apply/orP; [left|right]; apply/rlebP; lra. Qed.
Lemma r_norm : forall x, rleb 0%coqR x -> Rabs x = x.
Proof. by move=> x /rlebP H; apply: Rabs_pos_eq. Qed.
Lemma r_lt : forall x y, rltb x y = (y != x) && rleb x y.
Proof.
  move=> x y; apply/rltbP/andP => [H | [/eqP H1 /rlebP H2]]; last by lra.
  by split; [apply/eqP; lra | apply/rlebP; lra].
Qed.
Definition R_leMixin : realLeMixin R_idomainType :=
  RealLeMixin r_add r_mul r_anti r_sub r_total Rabs_Ropp r_norm r_lt.
Lemma R_le_total : total rleb.
Proof. by move=> x y; case: (Rle_dec x y) => H; apply/orP; [left|right]; apply/rlebP; lra. Qed.
Canonical R_porderType := POrderType ring_display R R_leMixin.
Canonical R_latticeType := LatticeType R R_leMixin.
Canonical R_distrLatticeType := DistrLatticeType R R_leMixin.
Canonical R_orderType := OrderType R R_le_total.
Canonical R_numDomainType := NumDomainType R R_leMixin.
Canonical R_normedZmodType := NormedZmodType R R R_leMixin.
Canonical R_numFieldType := [numFieldType of R].
Canonical R_realDomainType := [realDomainType of R].
Canonical R_realFieldType := [realFieldType of R].

(** The operations are the same. *)
Import GRing.Theory.
Local Open Scope ring_scope.
Lemma RaddE : forall x y : R, x + y = Rplus x y. Proof. by []. Qed.
Lemma RmulE : forall x y : R, x * y = Rmult x y. Proof. by []. Qed.
Lemma RoppE : forall x : R, - x = Ropp x. Proof. by []. Qed.
Lemma RsubE : forall x y : R, x - y = Rminus x y. Proof. by []. Qed.
Lemma RinvE : forall x : R, x^-1 = Rinv x. Proof. by []. Qed.
Lemma RdivE : forall x y : R, x / y = Rdiv x y. Proof. by []. Qed.
Lemma R0E : (0 : R) = 0%coqR. Proof. by []. Qed.
Lemma R1E : (1 : R) = 1%coqR. Proof. by []. Qed.
Lemma RleE : forall x y : R, (x <= y) <-> Rle x y. Proof. by move=> x y; split => /rlebP. Qed.
Lemma RltE : forall x y : R, (x < y) <-> Rlt x y. Proof. by move=> x y; split => /rltbP. Qed.
Lemma RnatE : forall n : nat, (n%:R : R) = INR n.
Proof. by elim=> [|n IH] //; rewrite S_INR -IH -addn1 natrD. Qed.

(** From here on terms of type [R] are read in [ring_scope]. *)
Bind Scope ring_scope with R.
Global Arguments ln x%ring_scope.
Global Arguments sqrt x%ring_scope.
