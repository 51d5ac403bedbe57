(** * Matrices given as lists of rows: proofs. *)
From Coq Require Import ZArith Reals.
From mathcomp Require Import all_ssreflect all_algebra.
From Verif Require Import Base Mixings Univ RealField MatLib Multi MultiFacts LogitLib.
Set Implicit Arguments.
Unset Strict Implicit.
Unset Printing Implicit Defensive.
Import GRing.Theory.
Local Open Scope ring_scope.

(** A list of rows is a symmetric positive definite matrix. *)
Definition lspd (m : list (list R)) : Prop :=
  (forall row, List.In row m -> List.length row = List.length m) /\ spd (mx_of (List.length m) m).

Lemma size_list_of_cv : forall d (v : 'cV[R]_d), List.length (list_of_cv v) = d.
Proof. by move=> d v; rewrite -[List.length _]/(size _) /list_of_cv size_map size_enum_ord. Qed.
Lemma size_list_of_mx : forall d (A : 'M[R]_d), List.length (list_of_mx A) = d.
Proof. by move=> d v; rewrite -[List.length _]/(size _) /list_of_mx size_map size_enum_ord. Qed.

Lemma list_of_mx_row : forall d (A : 'M[R]_d) (row : list R), List.In row (list_of_mx A) -> List.length row = d.
Proof.
  move=> d A row /List.in_map_iff [i [<- _]]. by rewrite -[List.length _]/(size _) size_map size_enum_ord.
Qed.

Lemma mvn_list_len : forall (G : gen) (M : mgen G) mean v r, List.length (fst (mvn_list M mean v r)) = List.length mean.
Proof. by move=> G M mean v r; rewrite /mvn_list; case: g_mvn => y r1 /=; rewrite size_list_of_cv. Qed.

Lemma lnth : forall (T : Type) (x0 : T) (s : seq T) n, List.nth n s x0 = nth x0 s n.
Proof. by move=> T x0 s; elim: s => [|y s IH] [|n] //=. Qed.

(** Entries of the list of a matrix. *)
Lemma nth_list_of_mx : forall d (A : 'M[R]_d) (i k : 'I_d), List.nth k (List.nth i (list_of_mx A) nil) 0%coqR = A i k.
Proof.
  move=> d A i k.
  rewrite !lnth /list_of_mx (nth_map i) ?size_enum_ord ?ltn_ord // (nth_map k) ?size_enum_ord ?ltn_ord //.
  by rewrite !nth_ord_enum.
Qed.

Lemma allP_len : forall (d : nat) (m : list (list R)), all (fun row => size row == d) m <->
  (forall row, List.In row m -> List.length row = d).
Proof.
  move=> d; elim=> [|x m [IH1 IH2]] /=; split=> //.
  - move=> /andP [/eqP E H] row [<-|Hin]; [exact: E | exact: IH1].
  - move=> H; apply/andP; split; [by apply/eqP; apply: H; left | by apply: IH2 => row Hr; apply: H; right].
Qed.

Lemma linv_ok : forall m P, linv m = Ok P <->
  lspd m /\ P = list_of_mx (invmx (mx_of (List.length m) m)).
Proof.
  move=> m P; rewrite /linv /lspd -[List.length m]/(size m). case E: (all _ m).
  - have Hr := proj1 (allP_len _ _) E. case EQ: (inverse_spd _) => [Q|msg||] /=; split.
    + move=> [<-]; move/inverse_spd_ok: EQ => [H1 H2]; split; [by split | by rewrite H2].
    + by move=> [[_ _] ->]; move/inverse_spd_ok: EQ => [_ ->].
    + by [].
    + move=> [[_ H] _]. have: inverse_spd (mx_of (size m) m) = Ok (invmx (mx_of (size m) m)) by apply/inverse_spd_ok. by rewrite EQ.
    + by [].
    + move=> [[_ H] _]. have: inverse_spd (mx_of (size m) m) = Ok (invmx (mx_of (size m) m)) by apply/inverse_spd_ok. by rewrite EQ.
    + by [].
    + move=> [[_ H] _]. have: inverse_spd (mx_of (size m) m) = Ok (invmx (mx_of (size m) m)) by apply/inverse_spd_ok. by rewrite EQ.
  - split=> // -[[H _] _]. by rewrite (proj2 (allP_len _ _) H) in E.
Qed.

(** The inverse is a square symmetric list of rows. *)
Lemma linv_shape : forall m P, linv m = Ok P ->
  List.length P = List.length m /\
  (forall row, List.In row P -> List.length row = List.length P) /\
  (forall i k, List.nth k (List.nth i P nil) 0%coqR = List.nth i (List.nth k P nil) 0%coqR).
Proof.
  move=> m P /linv_ok [[Hr Hs] ->]. rewrite size_list_of_mx. split=> //. split; first by move=> row /list_of_mx_row.
  move=> i k. set d := List.length m. set A := invmx _.
  have Out : forall i k, (d <= k)%N -> List.nth k (List.nth i (list_of_mx A) nil) 0%coqR = 0%coqR.
  { move=> i0 k0 Hk. apply: List.nth_overflow.
    case: (PeanoNat.Nat.lt_ge_cases i0 (List.length (list_of_mx A))) => [Hi|Hi].
    - rewrite (list_of_mx_row (List.nth_In _ nil Hi)). exact/leP.
    - rewrite List.nth_overflow //=. exact: PeanoNat.Nat.le_0_l. }
  have Out' : forall i k, (d <= i)%N -> List.nth k (List.nth i (list_of_mx A) nil) 0%coqR = 0%coqR.
  { move=> i0 k0 Hi. rewrite (List.nth_overflow (list_of_mx A)); first by case: k0.
    rewrite size_list_of_mx. exact/leP. }
  case: (ltnP i d) => Hi; last by rewrite Out' // Out.
  case: (ltnP k d) => Hk; last by rewrite Out // Out'.
  have -> : i = Ordinal Hi by []. have -> : k = Ordinal Hk by [].
  rewrite !nth_list_of_mx /A. have HT : (invmx (mx_of d m))^T = invmx (mx_of d m) by rewrite trmx_inv (proj1 Hs).
  by rewrite -{1}HT mxE.
Qed.

(** It is the inverse: the product of the lists of rows is the identity. *)
Lemma linv_inverse : forall m P, linv m = Ok P ->
  mx_of (List.length m) P *m mx_of (List.length m) m = 1%:M.
Proof.
  move=> m P /linv_ok [[Hr Hs] ->]. have -> : mx_of (List.length m) (list_of_mx (invmx (mx_of (List.length m) m))) = invmx (mx_of (List.length m) m).
  { apply/matrixP => i j. rewrite mxE. rewrite -!lnth. exact: nth_list_of_mx. }
  by rewrite mulVmx // spd_unit.
Qed.

(** Four times the identity. *)
Lemma lspd_four : lspd (cons (cons 4%coqR (cons 0%coqR nil)) (cons (cons 0%coqR (cons 4%coqR nil)) nil)).
Proof.
  split; first by move=> row [<-|[<-|[]]].
  have -> : mx_of (List.length (cons (cons 4%coqR (cons 0%coqR nil)) (cons (cons 0%coqR (cons 4%coqR nil)) nil)))
       (cons (cons 4%coqR (cons 0%coqR nil)) (cons (cons 0%coqR (cons 4%coqR nil)) nil)) = 4%coqR *: 1%:M :> 'M[R]_2.
  { apply/matrixP => i j. rewrite !mxE. case: i => [[|[|i]] Hi] //; case: j => [[|[|j]] Hj] //=; rewrite ?mulr1 ?mulr0 //. }
  apply: spd_scale; last exact: spd1. apply/rltbP. change (0%coqR < 4)%coqR. Lra.lra.
Qed.

(** A generator whose normal draws show the covariance they are asked for. *)
Definition covG : gen := mkGen unit (fun m _ r => (m, r)) (fun a b r => (b, r)) (fun a b r => (a, r)) (fun a _ r => (a, r)) (fun _ r => (0%N, r)).
Definition covM : mgen covG := @mkMgen covG (fun d _ A r => (A, r)) (fun d _ A r => (A, r))
  (fun d m A r => (\col_i A i i, r)) (fun d m A r => (m, r)).
Lemma cov_shown : forall x v, mvn_list covM (cons x nil) v tt = (cons v nil, tt).
Proof.
  move=> x v. rewrite /mvn_list /= /list_of_cv. congr (_, _).
  rewrite (_ : enum 'I_1 = [:: ord0]); last by apply: (inj_map val_inj); rewrite val_enum_ord.
  by rewrite /= !mxE.
Qed.

Lemma linv_no_abort : forall m, linv m <> Abort.
Proof. move=> m; rewrite /linv /inverse_spd. case: (all _ m) => //. case: ifP => // _. by case: (pivots_pos _). Qed.
Lemma linv_no_ub : forall m, linv m <> UB.
Proof. move=> m; rewrite /linv /inverse_spd. case: (all _ m) => //. case: ifP => // _. by case: (pivots_pos _). Qed.
