(** * Reals extended with minus infinity: values of log-probabilities.

    [XInf] is [-inf], the result of [std::log(0)].  NaN and [+inf] do not occur
    where this is used (side conditions of the theorems). *)
From Coq Require Import Reals Lra List.
Import ListNotations.

Inductive xreal : Type := XInf | Fin (x : R).

Definition xlog (x : R) : xreal := if Rlt_dec 0 x then Fin (ln x) else XInf.
Definition xexp (x : xreal) : R := match x with XInf => 0%R | Fin y => exp y end.
Definition xadd (a b : xreal) : xreal :=
  match a, b with Fin x, Fin y => Fin (x + y) | _, _ => XInf end.

Lemma xexp_log : forall x, (0 <= x)%R -> xexp (xlog x) = x.
Proof.
  intros x H. unfold xlog. destruct (Rlt_dec 0 x); simpl; [apply exp_ln; auto|lra].
Qed.

Lemma xexp_add : forall a b, xexp (xadd a b) = (xexp a * xexp b)%R.
Proof. intros [|a] [|b]; simpl; try lra. apply exp_plus. Qed.

Lemma xexp_nonneg : forall a, (0 <= xexp a)%R.
Proof. intros [|a]; simpl; [lra|]. left. apply exp_pos. Qed.
