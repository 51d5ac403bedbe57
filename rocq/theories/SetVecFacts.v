(** * Reading vectors and matrices *)
From Coq Require Import String NArith ZArith Reals List Lia.
From Coq Require Import Lra.
From mathcomp Require Import all_ssreflect all_algebra.
From Verif Require Import Base Mixings Univ RealField MatLib Multi Fa LogitLib LogitUp Utils UtilsFacts Schema WireFacts Text TextSpec TextFacts Settings SettingsSpec SettingsFacts
  SetVec SetLoad SetVecSpec.
From Verif Require Stick.
Set Implicit Arguments.
Unset Strict Implicit.
Unset Printing Implicit Defensive.
Import GRing.Theory.
Local Open Scope ring_scope.
Local Open Scope string_scope.

(* the type of the message at the end of a path *)
Fixpoint ends (t : string) (path : list string) : option string :=
  match path with
  | nil => None
  | cons s rest =>
      match field_named t s with
      | Some f => match fkind f with
                  | KMsg t' => match rest with nil => Some t' | _ => ends t' rest end
                  | _ => None
                  end
      | None => None
      end
  end.

Lemma says_nested : forall t m path x, says t m path x -> forall v, x = XMsg v -> nested t m -> forall t', ends t path = Some t' -> nested t' v.
Proof.
  move=> t m path x. elim=> [{}t {}m f {}x F Rf I|{}t {}m f t' m' {}path {}x F Rf K I S IH] v Ev [ts [W O]] t'' /=; rewrite (field_named_in _ _ F).
  - case K: (fkind f) => [| | | | |t1] // [<-]. subst x. exact: (proj1 nested_written t m ts W f t1 v F K I).
  - rewrite K. have N : nested t' m' by exact: (proj1 nested_written t m ts W f t' m' F K I).
    case: path S IH => [|s path] S IH; first by inversion S. exact: IH.
Qed.

Lemma number_stands : forall v x, stands_for v x -> number v = Some x.
Proof. by move=> v x []. Qed.

Lemma numbers_listed : forall k m l, listed k m l -> numbers (entries k m) = Some l.
Proof.
  move=> k m l. elim=> [|v x {}m {}l Sv _ IH|k' v {}m {}l Hk _ IH] //; rewrite /entries /=.
  - rewrite N.eqb_refl /=. rewrite (number_stands Sv) /=. move: IH; rewrite /entries => ->. by [].
  - move/N.eqb_neq: Hk => ->. exact: IH.
Qed.

Lemma message_says : forall t m path v, nested t m -> says t m path (XMsg v) -> message_at t m path = Some v.
Proof. by move=> t m path v N S; rewrite /message_at (leaf_says _ _ _ _ S N). Qed.

Lemma message_silent : forall t m path, singular t path = true -> silent t m path -> message_at t m path = Some nil.
Proof. by move=> t m path N S; rewrite /message_at (leaf_silent _ _ _ N S). Qed.

Lemma size_counted : forall t m s n, nested t m -> counted t m (cons s nil) (N.of_nat n) -> singular t (cons s nil) = true -> size_at t m s = n.
Proof. move=> t m s n N C S. by rewrite /size_at (count_counted _ _ _ _ N C S) Nnat.Nat2N.id. Qed.

Lemma flag_flagged : forall t m path b, nested t m -> flagged t m path b -> singular t path = true -> flag_at t m path = b.
Proof.
  move=> t m path [] N F S; rewrite /flag_at.
  - have C : counted t m path 1%num by left. by rewrite (count_counted _ _ _ _ N C S).
  - have C : counted t m path 0%num by case: F => F; [left|right]. by rewrite (count_counted _ _ _ _ N C S).
Qed.

Lemma vector_read : forall t m path n (x : 'cV[R]_n), nested t m -> vector_given t m path x -> singular t path = true -> ends t path = Some "Vector" ->
  exists l, vector_at t m path = Some (vec_to_proto l) /\ size l = n /\ colv n l = x.
Proof.
  move=> t m path n x N [[v [l [S [C [L [Hl Hx]]]]]]|[S E]] Sg En.
  - have Nv : nested "Vector" v by apply: (says_nested S).
    exists l. split; last first. { split=> //. apply/matrixP => i j. rewrite !mxE ord1. by rewrite Hx. }
    rewrite /vector_at (message_says N S) (size_counted Nv C) //. rewrite /values_at /=.
    rewrite (numbers_listed L) /= /vec_to_proto. by rewrite -Hl.
  - exists nil. split; last first. { split; first by rewrite E. apply/matrixP => i j. have := ltn_ord i. by rewrite {2}E. }
    by rewrite /vector_at (message_silent Sg S).
Qed.

Lemma vector_eigen : forall (l : seq R), vec_to_eigen (vec_to_proto l) = Ok l.
Proof. exact: vec_roundtrip. Qed.

Lemma at_nth : forall (l : seq R) i, (i < size l)%N -> at_ l i = Ok (nth 0 l i).
Proof.
  elim=> [|a l IH] [|i] //= H. rewrite /at_ /=. exact: (IH i H).
Qed.

Lemma rmap_nth : forall B (f : nat -> res B) (g : nat -> B) s, (forall i, i \in s -> f i = Ok (g i)) -> rmap f s = Ok (map g s).
Proof.
  move=> B f g. elim=> [|a s IH] H //=. rewrite H ?mem_head //=. rewrite IH //= => i Hi. apply: H. by rewrite inE Hi orbT.
Qed.

Lemma seq_iota : forall n a, List.seq a n = iota a n.
Proof. by elim=> [|n IH] a //=; rewrite IH. Qed.

Definition offset (b : bool) (r c i j : nat) : nat := if b then (i * c + j)%N else (j * r + i)%N.
Definition grid (b : bool) (r c : nat) (l : seq R) : seq (seq R) := [seq [seq nth 0 l (offset b r c i j) | j <- iota 0 c] | i <- iota 0 r].

Lemma offset_lt : forall b r c i j, (i < r)%N -> (j < c)%N -> (offset b r c i j < r * c)%N.
Proof.
  move=> b r c i j Hi Hj. rewrite /offset. case: b.
  - apply: (@leq_trans ((i.+1) * c)); first by rewrite mulSn addnC ltn_add2r. by rewrite leq_mul2r Hi orbT.
  - apply: (@leq_trans ((j.+1) * r)); first by rewrite mulSn addnC ltn_add2r. rewrite mulnC. by rewrite leq_mul2l Hj orbT.
Qed.

Lemma matrix_eigen : forall b r c (l : seq R), (0 < r)%N -> (0 < c)%N -> size l = (r * c)%N ->
  mat_to_eigen (mkMatMsg r c b l) = Ok (mkMat c (grid b r c l)).
Proof.
  move=> b r c l Hr Hc Hl. rewrite /mat_to_eigen /=. have -> : Nat.ltb 0 r = true by apply/Nat.ltb_lt; apply/ltP. have -> : Nat.ltb 0 c = true by apply/Nat.ltb_lt; apply/ltP. rewrite /= !seq_iota.
  rewrite (@rmap_nth _ _ (fun i => [seq nth 0 l (offset b r c i j) | j <- iota 0 c])) //= => i. rewrite mem_iota add0n => Hi.
  rewrite (@rmap_nth _ _ (fun j => nth 0 l (offset b r c i j))) //= => j. rewrite mem_iota add0n => Hj.
  have O := offset_lt b Hi Hj. rewrite /offset in O *. case: b O => O; rewrite at_nth ?Hl //.
Qed.

Lemma matrix_read : forall t m path r c (A : 'M[R]_(r, c)), nested t m -> matrix_given t m path A -> singular t path = true -> ends t path = Some "Matrix" ->
  exists b l, matrix_at t m path = Some (mkMatMsg r c b l) /\ size l = (r * c)%N /\ forall i j, A i j = nth 0 l (offset b r c i j).
Proof.
  move=> t m path r c A N [v [l [b [S [Cr [Cc [F [L [Hl HA]]]]]]]]] Sg En.
  have Nv : nested "Matrix" v by apply: (says_nested S).
  exists b, l. split=> //.
  rewrite /matrix_at (message_says N S) (size_counted Nv Cr) // (size_counted Nv Cc) // (flag_flagged Nv F) //. rewrite /values_at /=.
  by rewrite (numbers_listed L).
Qed.

Lemma grid_mx : forall b d (l : seq R) (A : 'M[R]_d), (forall i j, A i j = nth 0 l (offset b d d i j)) -> mx d (mkMat d (grid b d d l)) = A.
Proof.
  move=> b d l A H. apply/matrixP => i j. rewrite /mx /mx_of mxE /= /grid.
  rewrite (nth_map 0%N) ?size_iota // nth_iota // add0n (nth_map 0%N) ?size_iota // nth_iota // add0n. by rewrite H.
Qed.
Lemma grid_squared : forall b d (l : seq R), squared d (mkMat d (grid b d d l)) = true.
Proof. move=> b d l. rewrite /squared /m_nr /= /grid. have -> : forall T (s : seq T), length s = size s by move=> T; elim=> //= a s ->. rewrite size_map size_iota. by rewrite !eqxx. Qed.
Lemma grid_nr : forall b d (l : seq R), m_nr (mkMat d (grid b d d l)) = d.
Proof. by move=> b d l; have /andP[/eqP H _] := grid_squared b d l. Qed.
