(** * Facts about plot preparation. *)
From Coq Require Import String.
From Coq Require Import Bool List Arith ZArith Reals Lia Lra.
From Verif Require Import Base Plots.
Import ListNotations.

(** ** Mesh *)
Section Mesh.
Variable A : Type.
Variable eqb : A -> A -> bool.
Hypothesis eqb_eq : forall x y, eqb x y = true <-> x = y.
Variable zero : A.
Notation to_mesh := (to_mesh A eqb zero).

(** The first [k] rows share their first coordinate with row 0, row [k] does not. *)
Definition leads (grid : list (A * A)) (k : nat) : Prop :=
  exists p0 pk, nth_error grid 0 = Some p0 /\ nth_error grid k = Some pk /\ fst pk <> fst p0 /\
    forall i p, i < k -> nth_error grid i = Some p -> fst p = fst p0.

Lemma run_ny_spec : forall fuel grid x0 ny, length grid < fuel + ny ->
  (forall i p, i <= ny -> nth_error grid i = Some p -> fst p = x0) -> ny < length grid ->
  (exists k pk, run_ny A eqb fuel grid x0 ny = Ok k /\ nth_error grid (k + 1) = Some pk /\ fst pk <> x0 /\
     forall i p, i <= k -> nth_error grid i = Some p -> fst p = x0) \/
  (run_ny A eqb fuel grid x0 ny = UB /\ forall p, In p grid -> fst p = x0).
Proof.
  induction fuel as [|fuel IH]; intros grid x0 ny Hf Hp Hn; [lia|]. cbn [run_ny].
  rewrite (proj2 (Nat.ltb_lt ny (length grid)) Hn). unfold at_.
  destruct (nth_error grid (ny + 1)) as [p|] eqn:E; cbn [rbind].
  - destruct (eqb (fst p) x0) eqn:Ee.
    + apply eqb_eq in Ee. apply IH; [lia| |apply nth_error_Some; rewrite E; discriminate].
      intros i q Hi Hq. destruct (Nat.eq_dec i (ny + 1)) as [->|]; [congruence|]. apply (Hp i); [lia|exact Hq].
    + left. exists ny, p. split; [reflexivity|]. split; [exact E|]. split; [|exact Hp].
      intros Eq. apply eqb_eq in Eq. congruence.
  - right. split; [reflexivity|]. intros p Hin. apply In_nth_error in Hin. destruct Hin as (i & Hi).
    apply (Hp i); [|exact Hi]. apply nth_error_None in E. assert (i < length grid) by (apply nth_error_Some; rewrite Hi; discriminate). lia.
Qed.

Lemma run_ny_leads : forall grid p0 k, nth_error grid 0 = Some p0 -> leads grid k ->
  exists k', k = k' + 1 /\ run_ny A eqb (S (length grid)) grid (fst p0) 0 = Ok k'.
Proof.
  intros grid p0 k H0 (q0 & pk & Hq0 & Hk & Hne & Hall). rewrite H0 in Hq0. injection Hq0 as <-.
  assert (L : 0 < length grid) by (apply nth_error_Some; rewrite H0; discriminate).
  destruct (run_ny_spec (S (length grid)) grid (fst p0) 0) as [(k' & pk' & R & Hk' & Hne' & Hall')|(R & Hc)]; [lia| |exact L| |].
  { intros i p Hi. replace i with 0 by lia. rewrite H0. congruence. }
  - exists k'. split; [|exact R].
    destruct (Nat.lt_trichotomy k (k' + 1)) as [L1|[E|L1]]; [|exact E|].
    + exfalso. apply Hne. apply (Hall' k); [lia|exact Hk].
    + exfalso. apply Hne'. apply (Hall (k' + 1)); [lia|exact Hk'].
  - exfalso. apply Hne, Hc. eapply nth_error_In; exact Hk.
Qed.

(** Filling. *)
Definition cell {B} (m : list (list B)) (i j : nat) : option B := match nth_error m i with Some r => nth_error r j | None => None end.
Definition shape {B} (m : list (list B)) (a b : nat) : Prop := length m = a /\ forall r, In r m -> length r = b.

Lemma shape_repeat : forall B (z : B) a b, shape (repeat (repeat z b) a) a b.
Proof. intros. split; [apply repeat_length|]. intros r H. apply repeat_spec in H. subst. apply repeat_length. Qed.
Lemma shape_row : forall B (m : list (list B)) a b i, shape m a b -> i < a -> exists r, nth_error m i = Some r /\ length r = b.
Proof.
  intros B m a b i (H1 & H2) Hi. destruct (nth_error m i) as [r|] eqn:E.
  - exists r. split; [reflexivity|]. apply H2. eapply nth_error_In; exact E.
  - apply nth_error_None in E. lia.
Qed.

Lemma set2_ok : forall B (m : list (list B)) a b i j v, shape m a b -> i < a -> j < b ->
  exists m', set2 m i j v = Ok m' /\ shape m' a b /\
    forall i' j', cell m' i' j' = if (i' =? i) && (j' =? j) then Some v else cell m i' j'.
Proof.
  intros B m a b i j v S Hi Hj. destruct (shape_row _ _ _ _ _ S Hi) as (r & Hr & Lr). destruct S as (S1 & S2).
  unfold set2, at_. rewrite Hr. cbn [rbind]. rewrite set_at_ok by lia. cbn [rbind]. rewrite set_at_ok by lia.
  assert (Li : (i <? length m) = true) by (apply Nat.ltb_lt; lia).
  assert (Lj : (j <? length r) = true) by (apply Nat.ltb_lt; lia).
  eexists. split; [reflexivity|]. split.
  - split; [rewrite upd_length; exact S1|]. intros q Hq. apply In_nth_error in Hq. destruct Hq as (k & Hk).
    rewrite nth_error_upd, Li, andb_true_r in Hk. destruct (k =? i).
    + injection Hk as <-. rewrite upd_length. exact Lr.
    + apply S2. eapply nth_error_In; exact Hk.
  - intros i' j'. unfold cell. rewrite nth_error_upd, Li, andb_true_r.
    destruct (Nat.eqb_spec i' i) as [->|N]; cbn [andb]; [|reflexivity].
    rewrite Hr, nth_error_upd, Lj, andb_true_r. reflexivity.
Qed.

Lemma set2_bad : forall B (m : list (list B)) a b i j v, shape m a b -> a <= i \/ b <= j -> set2 m i j v = UB.
Proof.
  intros B m a b i j v (S1 & S2) H. unfold set2, at_. destruct (nth_error m i) as [r|] eqn:E; [|reflexivity]. cbn [rbind].
  assert (Lr : length r = b) by (apply S2; eapply nth_error_In; exact E).
  assert (i < length m) by (apply nth_error_Some; rewrite E; discriminate).
  unfold set_at at 1. replace (j <? length r) with false by (symmetry; apply Nat.ltb_ge; lia). reflexivity.
Qed.

(** A loop all of whose failures are out-of-range accesses, one of them certain. *)
Lemma fold_ub : forall X B (f : B -> X -> res B) (P : B -> Prop) l b,
  (forall x b0, In x l -> P b0 -> f b0 x = UB \/ exists b1, f b0 x = Ok b1 /\ P b1) ->
  (exists x, In x l /\ forall b0, P b0 -> f b0 x = UB) -> P b -> rfold f l b = UB.
Proof.
  induction l as [|y l IH]; intros b Hs (x & Hx & Hbad) Hb; [destruct Hx|]. cbn [rfold].
  destruct (Hs y b (or_introl eq_refl) Hb) as [E|(b1 & E & H1)]; [rewrite E; reflexivity|].
  rewrite E. cbn [rbind]. destruct Hx as [->|Hx]; [rewrite (Hbad b Hb) in E; discriminate|].
  apply IH; [|exists x; auto|exact H1]. intros x' b0 Hx' Hb0. apply Hs; [right; exact Hx'|exact Hb0].
Qed.
Lemma fold_ub_or : forall X B (f : B -> X -> res B) (P : B -> Prop) l b,
  (forall x b0, In x l -> P b0 -> f b0 x = UB \/ exists b1, f b0 x = Ok b1 /\ P b1) ->
  P b -> rfold f l b = UB \/ exists b', rfold f l b = Ok b' /\ P b'.
Proof.
  induction l as [|y l IH]; intros b Hs Hb; cbn [rfold]; [right; eauto|].
  destruct (Hs y b (or_introl eq_refl) Hb) as [E|(b1 & E & H1)]; rewrite E; [left; reflexivity|]. cbn [rbind].
  apply IH; [|exact H1]. intros x' b0 Hx' Hb0. apply Hs; [right; exact Hx'|exact Hb0].
Qed.
Lemma fold_seq : forall B (f : B -> nat -> res B) (Q : nat -> B -> Prop) n s b,
  (forall k b0, s <= k < s + n -> Q k b0 -> exists b1, f b0 k = Ok b1 /\ Q (S k) b1) ->
  Q s b -> exists b', rfold f (seq s n) b = Ok b' /\ Q (s + n) b'.
Proof.
  induction n as [|n IH]; intros s b Hs Hb; cbn [seq rfold]; [exists b; rewrite Nat.add_0_r; auto|].
  destruct (Hs s b) as (b1 & E & H1); [lia|exact Hb|]. rewrite E. cbn [rbind].
  replace (s + S n) with (S s + n) by lia. apply IH; [|exact H1]. intros k b0 Hk. apply Hs. lia.
Qed.

Lemma rfold_same : forall X B (f g : B -> X -> res B) l b, (forall b0 x, f b0 x = g b0 x) -> rfold f l b = rfold g l b.
Proof.
  induction l as [|x l IH]; intros b H; cbn [rfold]; [reflexivity|]. rewrite H. destruct (g b x); cbn [rbind]; auto.
Qed.

Definition mesh3 := (list (list A) * list (list A) * list (list A))%type.
Definition body (grid : list (A * A)) (vals : list A) (ny i : nat) : mesh3 -> nat -> res mesh3 :=
  fun '(xg, yg, zg) j =>
    p <- at_ grid (i * ny + j) ;;
    xg' <- set2 xg i j (fst p) ;;
    yg' <- set2 yg i j (snd p) ;;
    z <- at_ vals (i * ny + j) ;;
    zg' <- set2 zg i j z ;;
    Ok (xg', yg', zg').
Definition shapes (nx ny : nat) (m : mesh3) : Prop :=
  let '(xg, yg, zg) := m in shape xg ny nx /\ shape yg nx ny /\ shape zg ny nx.

Lemma to_mesh_leads : forall grid vals k, leads grid k ->
  0 < k /\ k < length grid /\
  to_mesh grid vals =
    if length grid mod k =? 0 then
      rfold (fun m i => rfold (body grid vals k i) (seq 0 k) m) (seq 0 (length grid / k))
        (repeat (repeat zero (length grid / k)) k, repeat (repeat zero k) (length grid / k), repeat (repeat zero (length grid / k)) k)
    else Throw "grid is not regular".
Proof.
  intros grid vals k HL. pose proof HL as (p0 & pk & H0 & Hk & Hne & _).
  destruct (run_ny_leads grid p0 k H0 HL) as (k' & -> & R).
  split; [lia|]. split; [apply nth_error_Some; rewrite Hk; discriminate|].
  unfold Plots.to_mesh. rewrite (@at_Some _ _ _ _ H0). cbn [rbind]. rewrite R. cbn [rbind].
  destruct (length grid mod (k' + 1) =? 0); [|reflexivity].
  apply rfold_same. intros [[xg yg] zg] i. reflexivity.
Qed.

Lemma body_or : forall grid vals ny nx i m j, shapes nx ny m ->
  body grid vals ny i m j = UB \/ exists m', body grid vals ny i m j = Ok m' /\ shapes nx ny m'.
Proof.
  intros grid vals ny nx i [[xg yg] zg] j (Sx & Sy & Sz). unfold body.
  unfold at_. destruct (nth_error grid (i * ny + j)) as [p|]; [|left; reflexivity]. cbn [rbind].
  destruct (le_lt_dec ny i) as [?|Hi]; [rewrite (set2_bad _ xg ny nx) by auto; left; reflexivity|].
  destruct (le_lt_dec nx j) as [?|Hj]; [rewrite (set2_bad _ xg ny nx) by auto; left; reflexivity|].
  destruct (set2_ok _ xg ny nx i j (fst p) Sx Hi Hj) as (xg' & -> & Sx' & _). cbn [rbind].
  destruct (le_lt_dec nx i) as [?|Hi']; [rewrite (set2_bad _ yg nx ny) by auto; left; reflexivity|].
  destruct (le_lt_dec ny j) as [?|Hj']; [rewrite (set2_bad _ yg nx ny) by auto; left; reflexivity|].
  destruct (set2_ok _ yg nx ny i j (snd p) Sy Hi' Hj') as (yg' & -> & Sy' & _). cbn [rbind].
  destruct (nth_error vals (i * ny + j)) as [z|]; [|left; reflexivity]. cbn [rbind].
  destruct (set2_ok _ zg ny nx i j z Sz Hi Hj) as (zg' & -> & Sz' & _). cbn [rbind].
  right. eexists. split; [reflexivity|]. exact (conj Sx' (conj Sy' Sz')).
Qed.

Lemma body_ub : forall grid vals ny nx i m j, shapes nx ny m ->
  ny <= i \/ nx <= j \/ length vals <= i * ny + j -> body grid vals ny i m j = UB.
Proof.
  intros grid vals ny nx i [[xg yg] zg] j (Sx & Sy & Sz) H. unfold body.
  unfold at_ at 1. destruct (nth_error grid (i * ny + j)) as [p|]; [|reflexivity]. cbn [rbind].
  destruct (le_lt_dec ny i) as [?|Hi]; [rewrite (set2_bad _ xg ny nx) by auto; reflexivity|].
  destruct (le_lt_dec nx j) as [?|Hj]; [rewrite (set2_bad _ xg ny nx) by auto; reflexivity|].
  destruct (set2_ok _ xg ny nx i j (fst p) Sx Hi Hj) as (xg' & -> & Sx' & _). cbn [rbind].
  destruct (le_lt_dec nx i) as [?|Hi']; [rewrite (set2_bad _ yg nx ny) by auto; reflexivity|].
  destruct (le_lt_dec ny j) as [?|Hj']; [rewrite (set2_bad _ yg nx ny) by auto; reflexivity|].
  destruct (set2_ok _ yg nx ny i j (snd p) Sy Hi' Hj') as (yg' & -> & Sy' & _). cbn [rbind].
  unfold at_. replace (nth_error vals (i * ny + j)) with (@None A); [reflexivity|].
  symmetry. apply nth_error_None. lia.
Qed.

Lemma loops_ub : forall grid vals ny nx i j m, shapes nx ny m -> i < nx -> j < ny ->
  ny <= i \/ nx <= j \/ length vals <= i * ny + j ->
  rfold (fun m i => rfold (body grid vals ny i) (seq 0 ny) m) (seq 0 nx) m = UB.
Proof.
  intros grid vals ny nx i j m S Hi Hj H.
  apply (fold_ub _ _ _ (shapes nx ny)); [|exists i; split; [apply in_seq; lia|]|exact S].
  - intros i' m' _ S'. apply fold_ub_or; [|exact S']. intros j' m'' _ S''. apply body_or; exact S''.
  - intros m' S'. apply (fold_ub _ _ _ (shapes nx ny)); [|exists j; split; [apply in_seq; lia|]|exact S'].
    + intros j' m'' _ S''. apply body_or; exact S''.
    + intros m'' S''. apply (body_ub _ _ _ nx); assumption.
Qed.

(** The cells of the rows before [i], and of row [i] before column [j], are filled. *)
Definition filled (grid : list (A * A)) (vals : list A) (k i j : nat) (m : mesh3) : Prop :=
  let '(xg, yg, zg) := m in shapes k k m /\
  forall i' j', j' < k -> i' < i \/ (i' = i /\ j' < j) -> i' < k ->
    cell xg i' j' = option_map fst (nth_error grid (i' * k + j')) /\
    cell yg i' j' = option_map snd (nth_error grid (i' * k + j')) /\
    cell zg i' j' = nth_error vals (i' * k + j').

Lemma body_fill : forall grid vals k i j m, length grid = k * k -> k * k <= length vals -> i < k -> j < k ->
  filled grid vals k i j m -> exists m', body grid vals k i m j = Ok m' /\ filled grid vals k i (S j) m'.
Proof.
  intros grid vals k i j [[xg yg] zg] Lg Lv Hi Hj ((Sx & Sy & Sz) & F). unfold body.
  assert (B : i * k + j < k * k) by nia.
  destruct (@at_ok _ grid (i * k + j)) as (p & -> & Hp); [lia|]. cbn [rbind].
  destruct (set2_ok _ xg k k i j (fst p) Sx Hi Hj) as (xg' & -> & Sx' & Cx). cbn [rbind].
  destruct (set2_ok _ yg k k i j (snd p) Sy Hi Hj) as (yg' & -> & Sy' & Cy). cbn [rbind].
  destruct (@at_ok _ vals (i * k + j)) as (z & -> & Hz); [lia|]. cbn [rbind].
  destruct (set2_ok _ zg k k i j z Sz Hi Hj) as (zg' & -> & Sz' & Cz). cbn [rbind].
  eexists. split; [reflexivity|]. split; [exact (conj Sx' (conj Sy' Sz'))|].
  intros i' j' Hj' Ho Hi'. rewrite Cx, Cy, Cz.
  destruct (Nat.eqb_spec i' i) as [->|]; cbn [andb]; [destruct (Nat.eqb_spec j' j) as [->|]|].
  - rewrite Hp, Hz. repeat split; reflexivity.
  - apply F; [exact Hj'|right; split; [reflexivity|lia]|exact Hi'].
  - apply F; [exact Hj'|left; lia|exact Hi'].
Qed.

Lemma loops_fill : forall grid vals k m, length grid = k * k -> k * k <= length vals -> shapes k k m ->
  exists m', rfold (fun m i => rfold (body grid vals k i) (seq 0 k) m) (seq 0 k) m = Ok m' /\ filled grid vals k k 0 m'.
Proof.
  intros grid vals k m Lg Lv S.
  apply (fold_seq _ _ (fun i m => filled grid vals k i 0 m) k 0).
  - intros i m' Hi F.
    destruct (fold_seq _ (body grid vals k i) (fun j m => filled grid vals k i j m) k 0 m') as (m'' & E & F').
    + intros j m0 Hj F0. apply body_fill; try assumption; lia.
    + exact F.
    + exists m''. split; [exact E|]. destruct m'' as [[xg yg] zg]. destruct F' as (S' & F'). split; [exact S'|].
      intros i' j' Hj' Ho. apply F'; [exact Hj'|]. destruct (Nat.eq_dec i' i) as [->|]; [right; split; [reflexivity|]; lia|left; lia].
  - destruct m as [[xg yg] zg]. split; [exact S|]. intros i' j' Hj' Ho. lia.
Qed.

(** *** The five cases *)
Theorem mesh_constant : forall grid vals, (forall p q, In p grid -> In q grid -> fst p = fst q) -> to_mesh grid vals = UB.
Proof.
  intros [|p0 t] vals H; [reflexivity|]. unfold Plots.to_mesh, at_. cbn [nth_error rbind].
  destruct (run_ny_spec (S (length (p0 :: t))) (p0 :: t) (fst p0) 0) as [(k & pk & R & Hk & Hne & _)|(R & _)]; [lia| |cbn; lia| |].
  - intros i p Hi. replace i with 0 by lia. cbn. congruence.
  - exfalso. apply Hne, H; [eapply nth_error_In; exact Hk|left; reflexivity].
  - rewrite R. reflexivity.
Qed.

Theorem mesh_irregular : forall grid vals k, leads grid k ->
  (to_mesh grid vals = Throw "grid is not regular" <-> length grid mod k <> 0).
Proof.
  intros grid vals k HL. destruct (to_mesh_leads grid vals k HL) as (K0 & K1 & E). rewrite E.
  destruct (Nat.eqb_spec (length grid mod k) 0) as [M|M]; [|split; [intros _; exact M|reflexivity]].
  split; [|congruence]. intros H. exfalso.
  match type of H with rfold ?f ?l ?b = _ => destruct (fold_ub_or _ _ f (shapes (length grid / k) k) l b) as [U|(b' & U & _)]; [| |rewrite U in H; discriminate|rewrite U in H; discriminate] end.
  - intros i m _ S. apply fold_ub_or; [|exact S]. intros j m' _ S'. apply body_or; exact S'.
  - split; [|split]; apply shape_repeat.
Qed.

Theorem mesh_square : forall grid vals k, leads grid k -> length grid = k * k -> length grid <= length vals ->
  exists xg yg zg, to_mesh grid vals = Ok (xg, yg, zg) /\
    shape xg k k /\ shape yg k k /\ shape zg k k /\
    forall i j, i < k -> j < k ->
      cell xg i j = option_map fst (nth_error grid (i * k + j)) /\
      cell yg i j = option_map snd (nth_error grid (i * k + j)) /\
      cell zg i j = nth_error vals (i * k + j).
Proof.
  intros grid vals k HL Lg Lv. destruct (to_mesh_leads grid vals k HL) as (K0 & K1 & ->).
  assert (M : length grid mod k = 0) by (rewrite Lg; apply Nat.mod_mul; lia).
  assert (D : length grid / k = k) by (rewrite Lg; apply Nat.div_mul; lia).
  rewrite M, D. cbn [Nat.eqb].
  destruct (loops_fill grid vals k (repeat (repeat zero k) k, repeat (repeat zero k) k, repeat (repeat zero k) k)) as ([[xg yg] zg] & E & (Sx & Sy & Sz) & F).
  { exact Lg. } { lia. } { split; [|split]; apply shape_repeat. }
  exists xg, yg, zg. split; [exact E|]. split; [exact Sx|]. split; [exact Sy|]. split; [exact Sz|].
  intros i j Hi Hj. apply F; [exact Hj|left; exact Hi|exact Hi].
Qed.

Theorem mesh_overrun : forall grid vals k, leads grid k -> length grid mod k = 0 ->
  length grid <> k * k \/ length vals < length grid -> to_mesh grid vals = UB.
Proof.
  intros grid vals k HL M H. destruct (to_mesh_leads grid vals k HL) as (K0 & K1 & ->). rewrite M. cbn [Nat.eqb].
  assert (D : length grid = k * (length grid / k)) by (apply Nat.div_exact; lia).
  set (nx := length grid / k) in *. clearbody nx.
  assert (N0 : 0 < nx) by nia.
  assert (S : shapes nx k (repeat (repeat zero nx) k, repeat (repeat zero k) nx, repeat (repeat zero nx) k)) by (split; [|split]; apply shape_repeat).
  destruct (Nat.lt_trichotomy nx k) as [L|[E|L]].
  - apply (loops_ub grid vals k nx 0 nx); auto.
  - subst nx. destruct H as [H|H]; [lia|]. apply (loops_ub grid vals k k (k - 1) (k - 1)); auto; [lia|lia|]. right. right. nia.
  - apply (loops_ub grid vals k nx k 0); auto.
Qed.
End Mesh.

(** *** Product grids *)
Lemma nth_prod : forall X Y (xs : list X) (ys : list Y) i j, j < length ys ->
  nth_error (list_prod xs ys) (i * length ys + j) =
  match nth_error xs i, nth_error ys j with Some x, Some y => Some (x, y) | _, _ => None end.
Proof.
  induction xs as [|x xs IH]; intros ys i j Hj; cbn [list_prod].
  - replace (nth_error (@nil X) i) with (@None X) by (destruct i; reflexivity). destruct (i * length ys + j); reflexivity.
  - destruct i as [|i].
    + cbn [Nat.mul Nat.add nth_error]. rewrite nth_error_app1 by (rewrite map_length; exact Hj).
      destruct (nth_error ys j) eqn:E; [erewrite map_nth_error by exact E; reflexivity|].
      apply nth_error_None in E. lia.
    + rewrite nth_error_app2 by (rewrite map_length; nia). rewrite map_length.
      replace (S i * length ys + j - length ys) with (i * length ys + j) by nia. rewrite IH by exact Hj. reflexivity.
Qed.

Lemma prod_leads : forall A (xs ys : list A), NoDup xs -> 2 <= length xs -> 1 <= length ys -> leads A (list_prod xs ys) (length ys).
Proof.
  intros A [|x [|x' xs]] [|y ys] N Hx Hy; cbn in Hx, Hy; try lia.
  exists (x, y), (x', y). split; [reflexivity|]. split; [|split].
  - pose proof (nth_prod _ _ (x :: x' :: xs) (y :: ys) 1 0) as H. rewrite Nat.mul_1_l, Nat.add_0_r in H. apply H. cbn. lia.
  - inversion N as [|? ? Hn _]; subst. cbn. intros ->. apply Hn. left; reflexivity.
  - intros i p Hi Hp. pose proof (nth_prod _ _ (x :: x' :: xs) (y :: ys) 0 i Hi) as H. cbn [Nat.mul Nat.add] in H.
    rewrite H in Hp. cbn [nth_error] in Hp. destruct (nth_error (y :: ys) i); [|discriminate]. injection Hp as <-. reflexivity.
Qed.

Section Prod.
Variable A : Type.
Variable eqb : A -> A -> bool.
Hypothesis eqb_eq : forall x y, eqb x y = true <-> x = y.
Variable zero : A.

Theorem mesh_product : forall xs ys vals, NoDup xs -> length vals = length xs * length ys ->
  (exists m, to_mesh A eqb zero (list_prod xs ys) vals = Ok m) <-> length xs = length ys /\ 2 <= length xs.
Proof.
  intros xs ys vals N Lv. split.
  - intros (m & E).
    destruct (le_lt_dec 2 (length xs)) as [Hx|Hx]; [destruct (le_lt_dec 1 (length ys)) as [Hy|Hy]|].
    + split; [|exact Hx]. destruct (Nat.eq_dec (length xs) (length ys)) as [|Ne]; [assumption|exfalso].
      rewrite (mesh_overrun A eqb eqb_eq zero _ vals (length ys)) in E; [discriminate|apply prod_leads; assumption| |].
      * rewrite prod_length. apply Nat.mod_mul. lia.
      * left. rewrite prod_length. nia.
    + exfalso. rewrite (mesh_constant A eqb eqb_eq zero) in E; [discriminate|].
      intros p q Hp. destruct ys; [|cbn in Hy; lia]. destruct p. apply in_prod_iff in Hp. destruct Hp as (_ & []).
    + exfalso. rewrite (mesh_constant A eqb eqb_eq zero) in E; [discriminate|].
      intros [a b] [c d] Hp Hq. apply in_prod_iff in Hp. apply in_prod_iff in Hq. destruct Hp as (Hp & _), Hq as (Hq & _).
      destruct xs as [|x [|? ?]]; cbn in Hx; try lia; [destruct Hp|]. destruct Hp as [<-|[]], Hq as [<-|[]]. reflexivity.
  - intros (E & Hx). destruct (mesh_square A eqb eqb_eq zero (list_prod xs ys) vals (length ys)) as (xg & yg & zg & R & _).
    + apply prod_leads; [exact N|exact Hx|lia].
    + rewrite prod_length, E. reflexivity.
    + rewrite prod_length, Lv. lia.
    + eexists; exact R.
Qed.

Theorem mesh_product_cells : forall xs ys vals xg yg zg, NoDup xs -> length vals = length xs * length ys ->
  to_mesh A eqb zero (list_prod xs ys) vals = Ok (xg, yg, zg) ->
  forall i j, i < length xs -> j < length ys ->
    cell xg i j = nth_error xs i /\ cell yg i j = nth_error ys j /\ cell zg i j = nth_error vals (i * length ys + j).
Proof.
  intros xs ys vals xg yg zg N Lv R i j Hi Hj.
  destruct (proj1 (mesh_product xs ys vals N Lv) (ex_intro _ _ R)) as (E & Hx).
  destruct (mesh_square A eqb eqb_eq zero (list_prod xs ys) vals (length ys)) as (xg' & yg' & zg' & R' & _ & _ & _ & C).
  - apply prod_leads; [exact N|exact Hx|lia].
  - rewrite prod_length, E. reflexivity.
  - rewrite prod_length, Lv. lia.
  - rewrite R in R'. injection R' as <- <- <-. destruct (C i j) as (C1 & C2 & C3); [lia|exact Hj|].
    rewrite C1, C2, C3, nth_prod by exact Hj.
    destruct (@at_ok _ xs i Hi) as (x & _ & ->). destruct (@at_ok _ ys j Hj) as (y & _ & ->). repeat split; reflexivity.
Qed.
End Prod.

(** ** Bar chart of the number of clusters *)
Lemma fold_min : forall l x, (fold_left Z.min l x <= x)%Z /\ (forall y, In y l -> fold_left Z.min l x <= y)%Z /\ In (fold_left Z.min l x) (x :: l).
Proof.
  induction l as [|a l IH]; intros x; cbn [fold_left]; [split; [lia|]; split; [intros y []|left; reflexivity]|].
  destruct (IH (Z.min x a)) as (H1 & H2 & H3). split; [lia|]. split.
  - intros y [->|Hy]; [lia|apply H2; exact Hy].
  - destruct H3 as [H3|H3]; [|right; right; exact H3]. rewrite <- H3. destruct (Z.min_dec x a) as [E|E]; rewrite E; [left|right; left]; reflexivity.
Qed.
Lemma fold_max : forall l x, (x <= fold_left Z.max l x)%Z /\ (forall y, In y l -> y <= fold_left Z.max l x)%Z /\ In (fold_left Z.max l x) (x :: l).
Proof.
  induction l as [|a l IH]; intros x; cbn [fold_left]; [split; [lia|]; split; [intros y []|left; reflexivity]|].
  destruct (IH (Z.max x a)) as (H1 & H2 & H3). split; [lia|]. split.
  - intros y [->|Hy]; [lia|apply H2; exact Hy].
  - destruct H3 as [H3|H3]; [|right; right; exact H3]. rewrite <- H3. destruct (Z.max_dec x a) as [E|E]; rewrite E; [left|right; left]; reflexivity.
Qed.

Definition tally (col : list Z) (v : Z) : nat := count_occ Z.eq_dec col v.

Definition bstep (col : list Z) (xmin : Z) (h : list R) (i : nat) : res (list R) :=
  v <- at_ col i ;;
  if (v <? xmin)%Z then UB else c <- at_ h (Z.to_nat (v - xmin)) ;; set_at h (Z.to_nat (v - xmin)) (c + 1)%R.

Lemma firstn_snoc : forall X (l : list X) i v, nth_error l i = Some v -> firstn (S i) l = firstn i l ++ [v].
Proof.
  induction l as [|a l IH]; intros [|i] v H; cbn in H; try discriminate; [injection H as <-; reflexivity|].
  cbn [firstn app]. f_equal. apply IH. exact H.
Qed.
Lemma tally_snoc : forall l v w, tally (l ++ [v]) w = tally l w + if (v =? w)%Z then 1 else 0.
Proof.
  intros l v w. unfold tally. rewrite count_occ_app. cbn [count_occ].
  destruct (Z.eq_dec v w) as [->|N]; [rewrite Z.eqb_refl; reflexivity|]. apply Z.eqb_neq in N. rewrite N. reflexivity.
Qed.

Lemma bars : forall col xmin m, (forall v, In v col -> xmin <= v < xmin + Z.of_nat m)%Z ->
  exists h, rfold (bstep col xmin) (seq 0 (length col)) (repeat 0%R m) = Ok h /\ length h = m /\
    forall k, k < m -> nth_error h k = Some (INR (tally col (xmin + Z.of_nat k))).
Proof.
  intros col xmin m Hv.
  destruct (fold_seq _ (bstep col xmin) (fun i h => length h = m /\ forall k, k < m -> nth_error h k = Some (INR (tally (firstn i col) (xmin + Z.of_nat k)))) (length col) 0 (repeat 0%R m)) as (h & E & L & H).
  - intros i h Hi (L & H). unfold bstep. destruct (@at_ok _ col i) as (v & -> & Ev); [lia|]. cbn [rbind].
    assert (B := Hv v (nth_error_In _ _ Ev)). replace (v <? xmin)%Z with false by (symmetry; apply Z.ltb_ge; lia).
    set (q := Z.to_nat (v - xmin)). assert (Hq : q < m) by (unfold q; lia).
    rewrite (@at_Some _ _ _ _ (H q Hq)). cbn [rbind]. rewrite set_at_ok by lia. eexists. split; [reflexivity|]. split; [rewrite upd_length; exact L|].
    intros k Hk. rewrite nth_error_upd, (firstn_snoc _ _ _ _ Ev), tally_snoc. replace (q <? length h) with true by (symmetry; apply Nat.ltb_lt; lia). rewrite andb_true_r.
    destruct (Nat.eqb_spec k q) as [->|Ne].
    + replace (v =? xmin + Z.of_nat q)%Z with true by (symmetry; apply Z.eqb_eq; unfold q; lia). rewrite plus_INR. reflexivity.
    + replace (v =? xmin + Z.of_nat k)%Z with false by (symmetry; apply Z.eqb_neq; unfold q in Ne; lia). rewrite Nat.add_0_r. apply H; exact Hk.
  - split; [apply repeat_length|]. intros k Hk. cbn [firstn tally count_occ INR]. apply nth_error_repeat. exact Hk.
  - exists h. split; [exact E|]. split; [exact L|]. intros k Hk. rewrite (H k Hk), Nat.add_0_l, firstn_all. reflexivity.
Qed.

Lemma sum_tally : forall col xmin m, (forall v, In v col -> xmin <= v < xmin + Z.of_nat m)%Z ->
  fold_right Nat.add 0 (map (fun k => tally col (xmin + Z.of_nat k)%Z) (seq 0 m)) = length col.
Proof.
  intros col xmin m. induction col as [|v col IH]; intros H.
  - cbn [length]. induction (seq 0 m) as [|k l IHl]; [reflexivity|]. cbn [map fold_right]. rewrite IHl. reflexivity.
  - cbn [length]. rewrite <- IH by (intros w Hw; apply H; right; exact Hw).
    assert (B : (xmin <= v < xmin + Z.of_nat m)%Z) by (apply H; left; reflexivity).
    assert (G : forall s n, fold_right Nat.add 0 (map (fun k => tally (v :: col) (xmin + Z.of_nat k)%Z) (seq s n)) =
      (if (xmin + Z.of_nat s <=? v)%Z && (v <? xmin + Z.of_nat (s + n))%Z then 1 else 0) + fold_right Nat.add 0 (map (fun k => tally col (xmin + Z.of_nat k)%Z) (seq s n))).
    { intros s n. revert s. induction n as [|n IHn]; intros s; cbn [seq map fold_right].
      - replace (s + 0) with s by lia. destruct (Z.leb_spec (xmin + Z.of_nat s) v), (Z.ltb_spec v (xmin + Z.of_nat s)); cbn [andb]; lia.
      - rewrite IHn. unfold tally at 1. cbn [count_occ]. fold (tally col (xmin + Z.of_nat s)).
        replace (S s + n) with (s + S n) by lia.
        destruct (Z.eq_dec v (xmin + Z.of_nat s)), (Z.leb_spec (xmin + Z.of_nat s) v), (Z.leb_spec (xmin + Z.of_nat (S s)) v), (Z.ltb_spec v (xmin + Z.of_nat (s + S n))); cbn [andb]; lia. }
    rewrite G. replace (xmin + Z.of_nat 0 <=? v)%Z with true by (symmetry; apply Z.leb_le; lia).
    replace (v <? xmin + Z.of_nat (0 + m))%Z with true by (symmetry; apply Z.ltb_lt; cbn [Nat.add]; lia). reflexivity.
Qed.

Lemma nth_error_ext' : forall X (l1 l2 : list X), length l1 = length l2 -> (forall k, k < length l1 -> nth_error l1 k = nth_error l2 k) -> l1 = l2.
Proof.
  induction l1 as [|a l1 IH]; intros [|b l2] L H; cbn in L; try lia; [reflexivity|].
  assert (E := H 0 ltac:(cbn; lia)). cbn in E. injection E as ->. f_equal. apply IH; [lia|]. intros k Hk. apply (H (S k)). cbn. lia.
Qed.

Lemma sum_ratio : forall (f : nat -> nat) (c : R) l,
  fold_right Rplus 0%R (map (fun x => (x / c)%R) (map (fun k => INR (f k)) l)) = (INR (fold_right Nat.add O (map f l)) / c)%R.
Proof.
  intros f c. induction l as [|k l IH]; cbn [map fold_right]; [cbn [INR]; unfold Rdiv; ring|].
  rewrite IH, plus_INR. unfold Rdiv. ring.
Qed.

Theorem bar_chart : forall col, col <> [] -> exists lo hi, In lo col /\ In hi col /\ (forall v, In v col -> lo <= v <= hi)%Z /\
  exists ticks heights, num_clus_bar 1 col = Ok (ticks, heights) /\
    ticks = map (fun k => (lo + Z.of_nat k)%Z) (seq 0 (Z.to_nat (hi - lo + 1))) /\
    heights = map (fun t => (INR (count_occ Z.eq_dec col t) / INR (length col))%R) ticks /\
    fold_right Rplus 0%R heights = 1%R.
Proof.
  intros [|x t] Hne; [congruence|]. clear Hne. set (col := x :: t).
  destruct (fold_min t x) as (m1 & m2 & m3). destruct (fold_max t x) as (M1 & M2 & M3).
  set (lo := fold_left Z.min t x) in *. set (hi := fold_left Z.max t x) in *.
  assert (B : forall v, In v col -> (lo <= v <= hi)%Z).
  { intros v [<-|Hv]; [lia|]. specialize (m2 v Hv). specialize (M2 v Hv). lia. }
  exists lo, hi. split; [exact m3|]. split; [exact M3|]. split; [exact B|].
  set (m := Z.to_nat (hi - lo + 1)). assert (Hm : forall v, In v col -> (lo <= v < lo + Z.of_nat m)%Z) by (intros v Hv; specialize (B v Hv); unfold m; lia).
  destruct (bars col lo m Hm) as (h & E & L & H).
  unfold num_clus_bar. cbn [Nat.eqb]. change (min_coeff col) with (Ok lo). change (max_coeff col) with (Ok hi). cbn [rbind].
  rewrite map_length, seq_length, Nat.mul_1_r. fold m.
  change (rfold _ (seq 0 (length col)) (repeat 0%R m)) with (rfold (bstep col lo) (seq 0 (length col)) (repeat 0%R m)). rewrite E. cbn [rbind].
  eexists. eexists. split; [reflexivity|]. split; [reflexivity|].
  assert (Eh : h = map (fun k => INR (tally col (lo + Z.of_nat k))) (seq 0 m)).
  { apply nth_error_ext'; [rewrite map_length, seq_length; exact L|]. intros k Hk. rewrite H by lia. symmetry. apply (map_nth_error (fun k => INR (tally col (lo + Z.of_nat k)))).
    rewrite (nth_error_nth' _ 0) by (rewrite seq_length; lia). rewrite seq_nth by lia. reflexivity. }
  split; [rewrite Eh, !map_map; reflexivity|].
  assert (Ln : (INR (length col) <> 0)%R) by (apply not_0_INR; cbn; lia).
  transitivity (INR (fold_right Nat.add 0%nat (map (fun k => tally col (lo + Z.of_nat k)%Z) (seq 0%nat m))) / INR (length col))%R.
  - rewrite Eh. apply sum_ratio.
  - rewrite (sum_tally _ _ _ Hm). field. exact Ln.
Qed.

Theorem bar_wide : forall nc col, 2 <= nc -> num_clus_bar nc col = UB.
Proof.
  intros [|[|nc]] col H; try lia. destruct col as [|x t]; [reflexivity|]. unfold num_clus_bar. cbn [Nat.eqb min_coeff max_coeff rbind].
  match goal with |- (h <- rfold ?f ?l ?b ;; _) = _ => rewrite (fold_ub _ _ f (fun _ => True) l b); [reflexivity| | |exact I] end.
  - intros i h _ _. unfold at_. destruct (nth_error (x :: t) i); cbn [rbind]; [|left; reflexivity].
    destruct (_ <? _)%Z; [left; reflexivity|]. destruct (nth_error h _); cbn [rbind]; [|left; reflexivity].
    unfold set_at. destruct (_ <? _); [right; eauto|left; reflexivity].
  - exists (length (x :: t)). split; [apply in_seq; cbn [length]; nia|]. intros h _. unfold at_.
    rewrite (proj2 (nth_error_None (x :: t) (length (x :: t))) (le_n _)). reflexivity.
Qed.

(** ** Density *)
Definition average (l : list R) : R := (fold_right Rplus 0 l / INR (length l))%R.

Theorem density_line : forall n dens, dens <> [] -> plot_density 1 n n dens =
  Ok (Some (map (fun j => average (map (fun r => exp (nth j r 0%R)) dens)) (seq 0 n))).
Proof.
  intros n dens _. unfold plot_density. rewrite Nat.eqb_refl. cbn [negb Nat.eqb andb]. f_equal. f_equal.
  apply map_ext. intros j. unfold col_mean, average. rewrite map_length. reflexivity.
Qed.
Lemma sum_exp_pos : forall l, l <> [] -> (0 < fold_right Rplus 0 (map exp l))%R.
Proof.
  intros [|x l] H; [congruence|]. clear H. cbn [map fold_right].
  assert (0 <= fold_right Rplus 0 (map exp l))%R by (induction l as [|y l IH]; cbn [map fold_right]; [lra|pose proof (exp_pos y); lra]).
  pose proof (exp_pos x). lra.
Qed.
(** In two dimensions the values are logarithms of the means, not means of the logarithms. *)
Theorem density_plane : forall n dens, dens <> [] -> exists zs, plot_density 2 n n dens = Ok (Some zs) /\ length zs = n /\
  forall j, j < n -> exists z, nth_error zs j = Some z /\ exp z = average (map (fun r => exp (nth j r 0%R)) dens).
Proof.
  intros n dens Hd. unfold plot_density. rewrite Nat.eqb_refl. cbn [negb Nat.eqb andb]. eexists. split; [reflexivity|].
  split; [rewrite !map_length, seq_length; reflexivity|]. intros j Hj. exists (ln (col_mean dens j)). split.
  - rewrite map_map. apply (map_nth_error (fun k => ln (col_mean dens k))).
    rewrite (nth_error_nth' _ 0) by (rewrite seq_length; lia). rewrite seq_nth by lia. reflexivity.
  - rewrite exp_ln; [unfold col_mean, average; rewrite map_length; reflexivity|]. unfold col_mean, Rdiv. apply Rmult_lt_0_compat.
    + rewrite <- (map_map (fun r => nth j r 0%R) exp). apply sum_exp_pos. destruct dens; [congruence|discriminate].
    + apply Rinv_0_lt_compat, lt_0_INR. destruct dens; [congruence|cbn; lia].
Qed.
Theorem density_throws : forall dim n c dens, (exists e, plot_density dim n c dens = Throw e) <-> n <> c.
Proof.
  intros. unfold plot_density. destruct (Nat.eqb_spec n c) as [E|E]; cbn [negb].
  - split; [|congruence]. intros (e & H). destruct (_ && _); [discriminate|]. destruct (dim =? 1); discriminate.
  - split; [intros _; exact E|intros _; eexists; reflexivity].
Qed.
Theorem density_skipped : forall dim n c dens, plot_density dim n c dens = Ok None <-> n = c /\ dim <> 1 /\ dim <> 2.
Proof.
  intros. unfold plot_density. destruct (Nat.eqb_spec n c) as [E|E]; cbn [negb]; [|split; [discriminate|intuition congruence]].
  destruct (Nat.eqb_spec dim 1), (Nat.eqb_spec dim 2); cbn [negb andb]; split; intuition (congruence || discriminate).
Qed.
