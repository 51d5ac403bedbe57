(** * Facts about stacking, grids, matrix messages, covariates and factories. *)
From Coq Require Import String Ascii.
From Coq Require Import List Arith Bool Lia.
From Verif Require Import Base Utils.
Import ListNotations.

(** ** Sequences of indexed writes *)
Definition writes {A} (ws : list (nat * A)) (out : list (option A)) : res (list (option A)) :=
  rfold (fun out '(i, x) => set_at out i (Some x)) ws out.
Definition last_write {A} (ws : list (nat * A)) (p : nat) : option A :=
  option_map snd (find (fun w => fst w =? p) (rev ws)).

Lemma find_app : forall A (f : A -> bool) l1 l2,
  find f (l1 ++ l2) = match find f l1 with Some x => Some x | None => find f l2 end.
Proof. induction l1; simpl; intros; auto. destruct (f a); auto. Qed.

Lemma writes_ok : forall A (ws : list (nat * A)) out,
  (forall w, In w ws -> fst w < length out) ->
  exists out', writes ws out = Ok out' /\ length out' = length out /\
    forall p, nth_error out' p = match last_write ws p with Some x => Some (Some x) | None => nth_error out p end.
Proof.
  intros A. induction ws as [|[i x] ws IH]; intros out H.
  - exists out. split; [reflexivity|]. split; reflexivity.
  - unfold writes. cbn [rfold]. rewrite set_at_ok by (apply (H (i, x)); left; reflexivity). cbn [rbind].
    destruct (IH (upd out i (Some x))) as (out' & E & L & N).
    { intros w Hw. rewrite upd_length. apply H. right. exact Hw. }
    exists out'. split; [exact E|]. split; [rewrite L; apply upd_length|].
    intros p. rewrite N. unfold last_write. cbn [rev]. rewrite find_app.
    destruct (find (fun w => fst w =? p) (rev ws)) as [y|] eqn:F; cbn [option_map]; [reflexivity|]. cbn [find fst snd].
    rewrite nth_error_upd, (Nat.eqb_sym i p). specialize (H (i, x) (or_introl eq_refl)). cbn [fst] in H. apply Nat.ltb_lt in H. rewrite H.
    destruct (p =? i); reflexivity.
Qed.

Lemma writes_ub : forall A (ws : list (nat * A)) out,
  (exists w, In w ws /\ length out <= fst w) -> writes ws out = UB.
Proof.
  intros A. induction ws as [|[i x] ws IH]; intros out (w & Hw & L); [destruct Hw|].
  unfold writes. cbn [rfold]. unfold set_at. destruct (i <? length out) eqn:E; [|reflexivity]. cbn [rbind].
  apply IH. exists w. rewrite upd_length. split; [|exact L]. destruct Hw as [<-|Hw]; [|exact Hw].
  apply Nat.ltb_lt in E. cbn [fst] in L. lia.
Qed.

Lemma writes_app : forall A (a b : list (nat * A)) out, writes (a ++ b) out = (o <- writes a out ;; writes b o).
Proof. intros. unfold writes. apply rfold_app. Qed.

Lemma last_write_none : forall A (ws : list (nat * A)) p, (forall w, In w ws -> fst w <> p) -> last_write ws p = None.
Proof.
  intros A ws p H. unfold last_write. destruct (find _ (rev ws)) as [y|] eqn:F; [|reflexivity].
  apply find_some in F. destruct F as [F1 F2]. apply in_rev in F1. apply Nat.eqb_eq in F2. exfalso. exact (H _ F1 F2).
Qed.
Lemma last_write_split : forall A (a b : list (nat * A)) p x, (forall w, In w b -> fst w <> p) -> last_write (a ++ (p, x) :: b) p = Some x.
Proof.
  intros A a b p x H. unfold last_write. rewrite rev_app_distr. cbn [rev]. rewrite <- app_assoc. rewrite find_app.
  pose proof (last_write_none _ b p H) as E. unfold last_write in E. destruct (find _ (rev b)); [discriminate|]. simpl.
  rewrite Nat.eqb_refl. reflexivity.
Qed.
(** A position written with one value only. *)
Lemma last_write_unique : forall A (ws : list (nat * A)) p x, In (p, x) ws -> (forall y, In (p, y) ws -> y = x) -> last_write ws p = Some x.
Proof.
  intros A ws p x H U. unfold last_write. destruct (find (fun w => fst w =? p) (rev ws)) as [[q y]|] eqn:F.
  - apply find_some in F. destruct F as [F1 F2]. apply in_rev in F1. apply Nat.eqb_eq in F2. cbn [fst] in F2. subst q.
    simpl. f_equal. apply U. exact F1.
  - exfalso. apply (find_none _ _ F (p, x)) in H || (rewrite in_rev in H; apply (find_none _ _ F) in H). cbn [fst] in H. rewrite Nat.eqb_refl in H. discriminate.
Qed.

Lemma rfold_ext : forall A B (f g : B -> A -> res B) l b, (forall x b, In x l -> f b x = g b x) -> rfold f l b = rfold g l b.
Proof.
  induction l as [|x l IH]; intros b H; [reflexivity|]. cbn [rfold]. rewrite H by (left; reflexivity).
  destruct (g b x); cbn [rbind]; auto. apply IH. intros. apply H. right. assumption.
Qed.
Lemma writes_flat : forall A B (f : B -> list (nat * A)) l out,
  rfold (fun out i => writes (f i) out) l out = writes (flat_map f l) out.
Proof.
  intros A B f. induction l as [|x l IH]; intros out; [reflexivity|]. cbn [rfold flat_map]. rewrite writes_app.
  destruct (writes (f x) out); cbn [rbind]; auto.
Qed.
Lemma writes_map : forall A B (f : B -> nat * A) l out,
  rfold (fun out i => set_at out (fst (f i)) (Some (snd (f i)))) l out = writes (map f l) out.
Proof.
  intros A B f. unfold writes. induction l as [|x l IH]; intros out; [reflexivity|]. cbn [rfold map]. destruct (f x) as [i y]. cbn [fst snd].
  destruct (set_at out i (Some y)); cbn [rbind]; auto.
Qed.

(** ** Stacking *)
Lemma write_rows_ok : forall A (rows : list (list A)) pre post begin, begin = length pre -> length post = length rows ->
  forall rest, write_rows (pre ++ post ++ rest) begin rows = Ok (pre ++ map Some rows ++ rest).
Proof.
  intros A. induction rows as [|r rows IH]; intros pre post begin -> L rest.
  - destruct post; [|discriminate]. reflexivity.
  - destruct post as [|q post]; [discriminate|]. cbn [write_rows]. unfold set_at.
    destruct (length pre <? length (pre ++ (q :: post) ++ rest)) eqn:E.
    2:{ apply Nat.ltb_ge in E. rewrite app_length in E. simpl in E. lia. }
    cbn [rbind].
    assert (U : upd (pre ++ (q :: post) ++ rest) (length pre) (Some r) = (pre ++ [Some r]) ++ post ++ rest).
    { clear. induction pre; simpl; [reflexivity|]. f_equal. exact IHpre. }
    rewrite U, (IH (pre ++ [Some r]) post).
    + rewrite <- app_assoc. reflexivity.
    + rewrite app_length. simpl. lia.
    + simpl in L. lia.
Qed.

Lemma rows_total : forall A (mats : list (mat A)) k, fold_left (fun curr m => curr + m_nr m) mats k = k + length (concat (map (@m_rows A) mats)).
Proof.
  intros A. induction mats as [|m mats IH]; intros k; [simpl; lia|]. cbn [fold_left map concat]. rewrite IH, app_length. unfold m_nr. lia.
Qed.

Lemma vstack_blocks : forall A (mats : list (mat A)) pre,
  rfold (fun '(out, begin) m => out' <- write_rows out begin (m_rows m) ;; Ok (out', begin + m_nr m)) mats
    (pre ++ repeat None (length (concat (map (@m_rows A) mats))), length pre) =
  Ok (pre ++ map Some (concat (map (@m_rows A) mats)), length pre + length (concat (map (@m_rows A) mats))).
Proof.
  intros A. induction mats as [|m mats IH]; intros pre.
  - simpl. rewrite Nat.add_0_r. reflexivity.
  - cbn [rfold map concat]. rewrite app_length, repeat_app.
    rewrite (write_rows_ok _ (m_rows m) pre (repeat None (length (m_rows m))) (length pre) eq_refl) by (rewrite repeat_length; reflexivity).
    cbn [rbind]. specialize (IH (pre ++ map Some (m_rows m))). rewrite app_length, map_length in IH.
    change (length pre + m_nr m) with (length pre + length (m_rows m)).
    rewrite app_assoc, IH, map_app, <- app_assoc. do 2 f_equal. lia.
Qed.

Theorem vstack_all : forall A (mats : list (mat A)),
  vstack mats = match mats with
    | [] => UB
    | m0 :: _ => if forallb (fun m => m_nc m =? m_nc m0) mats
                 then Ok (m_nc m0, map Some (concat (map (@m_rows A) mats)))
                 else Throw "Expected all elements to have the same number of columns"
    end.
Proof.
  intros A [|m0 ms]; [reflexivity|]. unfold vstack. cbn [at_ nth_error rbind].
  destruct (forallb _ (m0 :: ms)); [|reflexivity]. rewrite rows_total, Nat.add_0_l.
  pose proof (vstack_blocks A (m0 :: ms) []) as E. cbn [app length] in E. rewrite E. reflexivity.
Qed.

Theorem append_same : forall A (a b : mat A),
  append_by_row_inplace a b = (m <- append_by_row a b ;; Ok (m_nc m, map Some (m_rows m))).
Proof.
  intros A a b. unfold append_by_row_inplace, append_by_row. destruct (m_nr a =? 0); [reflexivity|]. destruct (m_nr b =? 0); [reflexivity|].
  destruct (m_nc a =? m_nc b); [|reflexivity]. cbn [rbind m_nc m_rows].
  pose proof (write_rows_ok _ (m_rows b) (map Some (m_rows a)) (repeat None (m_nr b)) (m_nr a)) as W.
  specialize (W ltac:(rewrite map_length; reflexivity) ltac:(rewrite repeat_length; reflexivity) []).
  rewrite !app_nil_r in W. rewrite W. cbn [rbind]. rewrite map_app. reflexivity.
Qed.

Theorem append_rows : forall A (a b : mat A) m, append_by_row a b = Ok m ->
  m_rows m = m_rows a ++ m_rows b /\ (well_shaped a -> well_shaped b -> well_shaped m).
Proof.
  intros A a b m H. unfold append_by_row in H.
  destruct (m_nr a =? 0) eqn:E1.
  - injection H as <-. apply Nat.eqb_eq in E1. unfold m_nr in E1. destruct (m_rows a) eqn:Ra; [|discriminate]. split; [reflexivity|tauto].
  - destruct (m_nr b =? 0) eqn:E2.
    + injection H as <-. apply Nat.eqb_eq in E2. unfold m_nr in E2. destruct (m_rows b) eqn:Rb; [|discriminate]. rewrite app_nil_r. split; [reflexivity|tauto].
    + destruct (m_nc a =? m_nc b) eqn:E3; [|discriminate]. injection H as <-. apply Nat.eqb_eq in E3. split; [reflexivity|].
      intros Ha Hb r Hr. cbn [m_rows m_nc] in *. apply in_app_or in Hr. destruct Hr as [Hr|Hr]; [apply Ha; exact Hr|]. rewrite E3. apply Hb. exact Hr.
Qed.
Theorem append_fails : forall A (a b : mat A),
  (forall m, append_by_row a b <> Ok m) <-> (m_rows a <> [] /\ m_rows b <> [] /\ m_nc a <> m_nc b).
Proof.
  intros A a b. unfold append_by_row. split.
  - intros H. destruct (m_nr a =? 0) eqn:E1; [exfalso; apply (H b); reflexivity|].
    destruct (m_nr b =? 0) eqn:E2; [exfalso; apply (H a); reflexivity|].
    destruct (m_nc a =? m_nc b) eqn:E3; [exfalso; eapply H; reflexivity|].
    apply Nat.eqb_neq in E1, E2, E3. unfold m_nr in *. split; [|split; [|exact E3]]; intros E; rewrite E in *; simpl in *; lia.
  - intros (H1 & H2 & H3) m. destruct (m_nr a =? 0) eqn:E1; [apply Nat.eqb_eq in E1; unfold m_nr in E1; destruct (m_rows a); simpl in E1; congruence|].
    destruct (m_nr b =? 0) eqn:E2; [apply Nat.eqb_eq in E2; unfold m_nr in E2; destruct (m_rows b); simpl in E2; congruence|].
    apply Nat.eqb_neq in H3. rewrite H3. discriminate.
Qed.

Lemma stack_loop : forall A (rows done : list (list A)) n,
  rfold (fun out i => r <- at_ (done ++ rows) i ;; if length r =? n then set_at out i (Some r) else UB)
    (seq (length done) (length rows)) (map Some done ++ repeat None (length rows)) =
  if forallb (fun r => length r =? n) rows then Ok (map Some (done ++ rows)) else UB.
Proof.
  intros A. induction rows as [|r rows IH]; intros done n.
  - simpl. rewrite !app_nil_r. reflexivity.
  - cbn [length seq rfold forallb repeat]. unfold at_ at 1. rewrite nth_error_app2, Nat.sub_diag by lia. cbn [nth_error rbind].
    destruct (length r =? n); [|reflexivity]. cbn [andb]. unfold set_at.
    destruct (length done <? _) eqn:E. 2:{ apply Nat.ltb_ge in E. rewrite app_length, map_length in E. simpl in E. lia. }
    cbn [rbind].
    assert (U : upd (map Some done ++ None :: repeat None (length rows)) (length done) (Some r) = map Some (done ++ [r]) ++ repeat None (length rows)).
    { clear. induction done; simpl; [reflexivity|]. f_equal. exact IHdone. }
    rewrite U. specialize (IH (done ++ [r]) n). rewrite <- app_assoc in IH. cbn [app] in IH. rewrite app_length in IH. cbn [length] in IH.
    replace (length done + 1) with (S (length done)) in IH by lia. exact IH.
Qed.
Theorem stack_all : forall A (rows : list (list A)),
  stack_vectors rows = match rows with
    | [] => UB
    | r0 :: _ => if forallb (fun r => length r =? length r0) rows then Ok (length r0, map Some rows) else UB
    end.
Proof.
  intros A [|r0 rs]; [reflexivity|]. unfold stack_vectors. cbn [at_ nth_error rbind].
  pose proof (stack_loop A (r0 :: rs) [] (length r0)) as E. cbn [app length map] in *. rewrite E. destruct (forallb _ _); reflexivity.
Qed.

(** ** Grids *)
Definition grid_writes {A} (xs ys : list A) (nx : nat) : list (nat * (A * A)) :=
  flat_map (fun '(i, x) => map (fun '(j, y) => (i * nx + j, (x, y))) (combine (seq 0 (length ys)) ys)) (combine (seq 0 nx) xs).

Lemma rfold_combine : forall A B (l : list A) (f : B -> nat -> A -> res B) s b pre, length pre = s ->
  rfold (fun b i => x <- at_ (pre ++ l) i ;; f b i x) (seq s (length l)) b =
  rfold (fun b '(i, x) => f b i x) (combine (seq s (length l)) l) b.
Proof.
  intros A B. induction l as [|x l IH]; intros f s b pre L; [reflexivity|]. cbn [length seq rfold combine].
  unfold at_ at 1. rewrite nth_error_app2, L, Nat.sub_diag by lia. cbn [nth_error rbind].
  destruct (f b s x) as [b'|m| |]; cbn [rbind]; try reflexivity.
  specialize (IH f (S s) b' (pre ++ [x])). rewrite <- app_assoc in IH. cbn [app] in IH. apply IH. rewrite app_length. simpl. lia.
Qed.

Lemma grid_as_writes : forall A (xs ys : list A),
  grid_2d xs ys = writes (grid_writes xs ys (length xs)) (repeat None (length xs * length ys)).
Proof.
  intros A xs ys. unfold grid_2d, grid_writes. rewrite <- writes_flat.
  transitivity (rfold (fun out i => x <- at_ xs i ;; writes (map (fun '(j, y) => (i * length xs + j, (x, y))) (combine (seq 0 (length ys)) ys)) out)
                  (seq 0 (length xs)) (repeat None (length xs * length ys))).
  - apply rfold_ext. intros i out Hi. apply In_seq_lt in Hi. destruct (at_ok xs Hi) as (x & Ex & _). rewrite Ex. cbn [rbind].
    rewrite <- writes_map.
    transitivity (rfold (fun out j => y <- at_ ys j ;; set_at out (i * length xs + j) (Some (x, y))) (seq 0 (length ys)) out).
    { apply rfold_ext. intros j o Hj. reflexivity. }
    etransitivity; [exact (rfold_combine A _ ys (fun out j y => set_at out (i * length xs + j) (Some (x, y))) 0 out [] eq_refl)|].
    apply rfold_ext. intros [j y] o _. reflexivity.
  - etransitivity; [exact (rfold_combine A _ xs (fun out i x => writes (map (fun '(j, y) => (i * length xs + j, (x, y))) (combine (seq 0 (length ys)) ys)) out) 0 _ [] eq_refl)|].
    apply rfold_ext. intros [i x] o _. reflexivity.
Qed.

Lemma in_combine_seq : forall A (l : list A) s i x, In (i, x) (combine (seq s (length l)) l) <-> s <= i /\ nth_error l (i - s) = Some x.
Proof.
  intros A. induction l as [|y l IH]; intros s i x; cbn [length seq combine In].
  - split; [tauto|]. intros [_ H]. destruct (i - s); discriminate.
  - rewrite IH. split.
    + intros [H|[H1 H2]]; [injection H as <- <-; rewrite Nat.sub_diag; split; [lia|reflexivity]|].
      split; [lia|]. replace (i - s) with (S (i - S s)) by lia. exact H2.
    + intros [H1 H2]. destruct (i - s) as [|k] eqn:E; [left; cbn in H2; injection H2 as <-; f_equal; lia|].
      right. split; [lia|]. replace (i - S s) with k by lia. exact H2.
Qed.
Lemma in_grid : forall A (xs ys : list A) p v, In (p, v) (grid_writes xs ys (length xs)) <->
  exists i j x y, p = i * length xs + j /\ v = (x, y) /\ nth_error xs i = Some x /\ nth_error ys j = Some y.
Proof.
  intros A xs ys p v. unfold grid_writes. rewrite in_flat_map. split.
  - intros ([i x] & H1 & H2). apply in_map_iff in H2. destruct H2 as ([j y] & E & H2). injection E as <- <-.
    apply in_combine_seq in H1, H2. rewrite Nat.sub_0_r in H1, H2. exists i, j, x, y. tauto.
  - intros (i & j & x & y & -> & -> & Hx & Hy). exists (i, x). split; [apply in_combine_seq; rewrite Nat.sub_0_r; split; [lia|auto]|].
    apply in_map_iff. exists (j, y). split; [reflexivity|]. apply in_combine_seq. rewrite Nat.sub_0_r. split; [lia|auto].
Qed.

Lemma grid_bound : forall nx ny i j, i < nx -> j < ny -> nx <= ny \/ nx <= 1 -> i * nx + j < nx * ny.
Proof. intros nx ny i j Hi Hj [H|H]; [|assert (i = 0) by lia; assert (nx = 1) by lia; subst; lia]. nia. Qed.

(** Every axis lengths. *)
Theorem grid_ub : forall A (xs ys : list A), grid_2d xs ys = UB <-> 1 <= length ys /\ length ys < length xs /\ 2 <= length xs.
Proof.
  intros A xs ys. rewrite grid_as_writes. split.
  - intros H. destruct (le_lt_dec (length ys) 0) as [Y|Y].
    + destruct ys; [|simpl in Y; lia]. exfalso.
      destruct (writes_ok _ (grid_writes xs [] (length xs)) (repeat None (length xs * length (@nil A)))) as (o & E & _).
      * intros [p v] Hp. apply in_grid in Hp. destruct Hp as (i & j & x & y & _ & _ & _ & Hy). destruct j; discriminate.
      * congruence.
    + destruct (le_lt_dec (length xs) (length ys)) as [L|L].
      * exfalso. destruct (writes_ok _ (grid_writes xs ys (length xs)) (repeat None (length xs * length ys))) as (o & E & _).
        -- intros [p v] Hp. apply in_grid in Hp. destruct Hp as (i & j & x & y & -> & _ & Hx & Hy). cbn [fst]. rewrite repeat_length.
           apply nth_error_lt in Hx, Hy. apply grid_bound; auto.
        -- congruence.
      * lia.
  - intros (H1 & H2 & H3). apply writes_ub. set (nx := length xs) in *. set (ny := length ys) in *.
    destruct (at_ok xs (i:=nx - 1) ltac:(subst nx; lia)) as (x & _ & Hx). destruct (at_ok ys (i:=ny - 1) ltac:(subst ny; lia)) as (y & _ & Hy).
    exists ((nx - 1) * nx + (ny - 1), (x, y)). split.
    + apply in_grid. exists (nx - 1), (ny - 1), x, y. auto.
    + cbn [fst]. rewrite repeat_length. nia.
Qed.

(** The pair in row [p]. *)
Definition grid_row {A} (xs ys : list A) (p : nat) : option (A * A) :=
  let i := Nat.min (p / length xs) (length xs - 1) in
  match nth_error xs i, nth_error ys (p - i * length xs) with
  | Some x, Some y => Some (x, y)
  | _, _ => None
  end.

Lemma combine_seq_split : forall A (l : list A) s i x, nth_error l i = Some x ->
  exists a b, combine (seq s (length l)) l = a ++ (s + i, x) :: b /\ (forall k y, In (k, y) b -> s + i < k).
Proof.
  intros A. induction l as [|y l IH]; intros s i x H; [destruct i; discriminate|].
  destruct i as [|i].
  - injection H as <-. exists [], (combine (seq (S s) (length l)) l). rewrite Nat.add_0_r. split; [reflexivity|].
    intros k z Hk. apply in_combine_seq in Hk. lia.
  - destruct (IH (S s) i x H) as (a & b & E & Hb). exists ((s, y) :: a), b. cbn [length seq combine app]. rewrite E.
    replace (S s + i) with (s + S i) in * by lia. split; [reflexivity|exact Hb].
Qed.

Lemma grid_last : forall A (xs ys : list A) p, 1 <= length xs -> length xs <= length ys \/ length xs <= 1 ->
  last_write (grid_writes xs ys (length xs)) p = grid_row xs ys p.
Proof.
  intros A xs ys p H1 H2. set (nx := length xs) in *. unfold grid_row. fold nx.
  set (i := Nat.min (p / nx) (nx - 1)).
  assert (Hi : i < nx) by (subst i; lia).
  assert (Hd : i * nx <= p).
  { pose proof (Nat.mul_div_le p nx ltac:(lia)). assert (i <= p / nx) by (subst i; lia). nia. }
  destruct (at_ok xs (i:=i) Hi) as (x & _ & Hx). rewrite Hx.
  destruct (nth_error ys (p - i * nx)) as [y|] eqn:Hy.
  - unfold grid_writes. fold nx.
    destruct (combine_seq_split _ xs 0 i x Hx) as (a & b & Ea & Hb). destruct (combine_seq_split _ ys 0 (p - i * nx) y Hy) as (a' & b' & Ea' & Hb').
    cbn [Nat.add] in *. fold nx in Ea. rewrite Ea, Ea'. rewrite flat_map_app. cbn [flat_map]. rewrite map_app. cbn [map].
    rewrite <- !app_assoc. cbn [app]. rewrite app_assoc.
    replace (i * nx + (p - i * nx), (x, y)) with (p, (x, y)) by (f_equal; lia).
    apply last_write_split. intros w Hw. apply in_app_or in Hw. destruct Hw as [Hw|Hw].
    + apply in_map_iff in Hw. destruct Hw as ([j z] & <- & Hz). cbn [fst]. specialize (Hb' _ _ Hz). lia.
    + apply in_flat_map in Hw. destruct Hw as ([k z] & Hz & Hw). specialize (Hb _ _ Hz).
      assert (Hk : k < nx).
      { assert (In (k, z) (combine (seq 0 nx) xs)) by (rewrite Ea; apply in_or_app; right; right; exact Hz).
        apply in_combine_l in H. apply In_seq_lt in H. exact H. }
      apply in_map_iff in Hw. destruct Hw as ([j u] & <- & Hj). cbn [fst]. intros E.
      assert (p / nx < S i).
      { subst i. lia. }
      assert (Hp : p < nx * S i). { apply Nat.div_lt_upper_bound in H || idtac. pose proof (Nat.mul_succ_div_gt p nx ltac:(lia)). nia. }
      nia.
  - apply last_write_none. intros [q v] Hw. cbn [fst]. intros ->. apply in_grid in Hw. destruct Hw as (k & j & u & z & E & _ & Hu & Hz). fold nx in E.
    apply nth_error_None in Hy. apply nth_error_lt in Hu, Hz. fold nx in Hu.
    destruct H2 as [H2|H2]; [|assert (k = 0) by lia; assert (i = 0) by lia; subst; lia].
    (* then i is the last row *)
    assert (i = nx - 1).
    { destruct (le_lt_dec (nx - 1) (p / nx)) as [L|L]; [subst i; lia|].
      exfalso. assert (i = p / nx) by (subst i; lia). pose proof (Nat.mod_upper_bound p nx ltac:(lia)). pose proof (Nat.div_mod p nx ltac:(lia)).
      assert (p - i * nx < nx) by nia. lia. }
    nia.
Qed.

Theorem grid_rows : forall A (xs ys : list A), 1 <= length xs -> length xs <= length ys \/ length xs <= 1 ->
  exists out, grid_2d xs ys = Ok out /\ length out = length xs * length ys /\
    forall p, p < length xs * length ys -> nth_error out p = Some (grid_row xs ys p).
Proof.
  intros A xs ys H1 H2. rewrite grid_as_writes.
  destruct (writes_ok _ (grid_writes xs ys (length xs)) (repeat None (length xs * length ys))) as (o & E & L & N).
  - intros [p v] Hp. apply in_grid in Hp. destruct Hp as (i & j & x & y & -> & _ & Hx & Hy). cbn [fst]. rewrite repeat_length.
    apply nth_error_lt in Hx, Hy. apply grid_bound; auto.
  - exists o. split; [exact E|]. rewrite repeat_length in L. split; [exact L|]. intros p Hp. rewrite N, grid_last by auto.
    destruct (grid_row xs ys p); [reflexivity|]. rewrite (nth_error_nth' _ None) by (rewrite repeat_length; exact Hp).
    f_equal. rewrite (nth_repeat None). reflexivity.
Qed.

Lemma nth_error_prod : forall A B (xs : list A) (ys : list B) i j x y, nth_error xs i = Some x -> nth_error ys j = Some y ->
  nth_error (list_prod xs ys) (i * length ys + j) = Some (x, y).
Proof.
  intros A B. induction xs as [|x xs IH]; intros ys i j x' y Hx Hy; [destruct i; discriminate|]. cbn [list_prod].
  destruct i as [|i].
  - injection Hx as <-. simpl. rewrite nth_error_app1 by (rewrite map_length; apply nth_error_lt in Hy; exact Hy).
    apply map_nth_error with (f := fun y => (x, y)). exact Hy.
  - rewrite nth_error_app2 by (rewrite map_length; simpl; lia). rewrite map_length.
    replace (S i * length ys + j - length ys) with (i * length ys + j) by (simpl; lia). apply IH; auto.
Qed.

Lemma list_ext : forall A (a b : list A), length a = length b -> (forall p, p < length a -> nth_error a p = nth_error b p) -> a = b.
Proof.
  induction a as [|x a IH]; intros [|y b] L H; try discriminate; [reflexivity|].
  pose proof (H 0 ltac:(simpl; lia)) as H0. injection H0 as ->. f_equal. apply IH; [simpl in L; lia|].
  intros p Hp. apply (H (S p)). simpl. lia.
Qed.

Theorem grid_complete : forall A (xs ys : list A),
  grid_2d xs ys = Ok (map Some (list_prod xs ys)) <-> (length xs = length ys \/ length xs <= 1 \/ ys = []).
Proof.
  intros A xs ys. split.
  - intros H.
    assert (Y : ys = [] \/ 0 < length ys) by (destruct ys; simpl; [left; reflexivity|right; lia]). destruct Y as [Y|Y]; [right; right; exact Y|].
    destruct (Nat.eq_dec (length xs) (length ys)) as [E|E]; [left; exact E|]. right. left.
    destruct (le_lt_dec (length xs) 1) as [L|L]; [exact L|]. exfalso.
    destruct (le_lt_dec (length xs) (length ys)) as [L2|L2].
    + destruct (grid_rows A xs ys ltac:(lia) (or_introl L2)) as (out & Eo & Lo & N). rewrite H in Eo. injection Eo as <-.
      specialize (N (length xs * length ys - 1) ltac:(nia)).
      destruct (nth_error (list_prod xs ys) (length xs * length ys - 1)) as [v|] eqn:V.
      2:{ apply nth_error_None in V. rewrite prod_length in V. nia. }
      rewrite (map_nth_error _ _ _ V) in N. injection N as N. unfold grid_row in N. cbv zeta in N.
      set (nx := length xs) in *. set (ny := length ys) in *.
      assert (Q : nx - 1 <= (nx * ny - 1) / nx). { apply Nat.div_le_lower_bound; nia. }
      rewrite (Nat.min_r _ _ Q) in N.
      destruct (nth_error xs (nx - 1)); [|discriminate]. destruct (nth_error ys _) eqn:F; [|discriminate].
      apply nth_error_lt in F. fold ny in F. nia.
    + assert (U : grid_2d xs ys = UB) by (apply grid_ub; lia). congruence.
  - intros H. destruct xs as [|x0 xs']; [reflexivity|]. set (xs := x0 :: xs') in *.
    destruct ys as [|y0 ys'].
    { transitivity (Ok (@nil (option (A * A)))).
      - rewrite grid_as_writes. replace (length xs * length (@nil A)) with 0 by (simpl; lia).
        unfold grid_writes. clear. generalize (combine (seq 0 (length xs)) xs). intros l. simpl.
        induction l as [|[i x] l IH]; [reflexivity|]. simpl. exact IH.
      - clear. subst xs. simpl. induction xs' as [|x l IH]; [reflexivity|]. exact IH. }
    set (ys := y0 :: ys') in *.
    destruct (grid_rows A xs ys) as (out & Eo & Lo & N); [subst xs; simpl; lia|destruct H as [H|[H|H]]; [left; lia|right; exact H|discriminate]|].
    rewrite Eo. f_equal. apply list_ext; [rewrite map_length, prod_length; exact Lo|]. intros p Hp. rewrite Lo in Hp. rewrite N by exact Hp.
    set (nx := length xs) in *. set (ny := length ys) in *.
    assert (Ny : 0 < ny) by (subst ny ys; simpl; lia). assert (Nx : 0 < nx) by (subst nx xs; simpl; lia).
    pose proof (Nat.div_mod p ny ltac:(lia)) as D. pose proof (Nat.mod_upper_bound p ny ltac:(lia)) as M.
    assert (Di : p / ny < nx) by (apply Nat.div_lt_upper_bound; nia).
    destruct (at_ok xs (i:=p / ny) Di) as (x & _ & Hx). destruct (at_ok ys (i:=p mod ny) M) as (y & _ & Hy).
    pose proof (nth_error_prod _ _ xs ys _ _ _ _ Hx Hy) as Hp'. fold ny in Hp'. replace (p / ny * ny + p mod ny) with p in Hp' by lia.
    rewrite (map_nth_error _ _ _ Hp'). f_equal. unfold grid_row. fold nx.
    assert (E : Nat.min (p / nx) (nx - 1) = p / ny /\ p - p / ny * nx = p mod ny).
    { destruct H as [H|[H|H]]; [|assert (nx = 1) by lia|discriminate].
      - rewrite H in *. split; lia.
      - assert (Q : p / ny = 0) by lia. rewrite Q in *. rewrite H0. split; lia. }
    destruct E as [E1 E2]. rewrite E1, Hx, E2, Hy. reflexivity.
Qed.

(** ** Messages *)
Lemma rmap_at : forall A B (l : list A) (f : A -> res B) g, (forall x, In x l -> f x = Ok (g x)) -> rmap f l = Ok (map g l).
Proof.
  induction l as [|x l IH]; intros f g H; [reflexivity|]. cbn [rmap map]. rewrite (H x) by (left; reflexivity). cbn [rbind].
  rewrite (IH f g) by (intros; apply H; right; assumption). reflexivity.
Qed.
Lemma rmap_ub : forall A B (l : list A) (f : A -> res B), (forall x, In x l -> f x = UB \/ exists y, f x = Ok y) -> (exists x, In x l /\ f x = UB) -> rmap f l = UB.
Proof.
  induction l as [|x l IH]; intros f H (y & Hy & E); [destruct Hy|]. cbn [rmap].
  destruct (H x (or_introl eq_refl)) as [U|(z & Z)]; [rewrite U; reflexivity|]. rewrite Z. cbn [rbind].
  destruct Hy as [->|Hy]; [congruence|]. rewrite IH; [reflexivity|intros; apply H; right; assumption|eauto].
Qed.
Lemma map_nth_seq : forall A (l : list A) d, map (fun i => nth i l d) (seq 0 (length l)) = l.
Proof.
  intros A l d. apply list_ext; [rewrite map_length, seq_length; reflexivity|]. intros p Hp. rewrite map_length, seq_length in Hp.
  rewrite (map_nth_error _ _ _ (d:=p)); [symmetry; apply nth_error_nth'; exact Hp|].
  rewrite (nth_error_nth' _ 0) by (rewrite seq_length; exact Hp). rewrite seq_nth by exact Hp. reflexivity.
Qed.

Theorem vec_roundtrip : forall A (v : list A), vec_to_eigen (vec_to_proto v) = Ok v.
Proof.
  intros A v. unfold vec_to_eigen, vec_to_proto. cbn [v_size v_data]. destruct (length v =? 0) eqn:E.
  - apply Nat.eqb_eq in E. destruct v; [reflexivity|discriminate].
  - destruct v as [|d v]; [discriminate|].
    rewrite (rmap_at _ _ _ _ (fun i => nth i (d :: v) d)); [rewrite map_nth_seq; reflexivity|].
    intros i Hi. apply In_seq_lt in Hi. apply at_Some. apply nth_error_nth'. exact Hi.
Qed.
Theorem vec_short : forall A (p : vec_msg A), vec_to_eigen p = UB <-> length (v_data p) < v_size p.
Proof.
  intros A [n l]. unfold vec_to_eigen. cbn [v_size v_data]. split.
  - intros H. destruct (n =? 0) eqn:E; [discriminate|]. destruct (le_lt_dec n (length l)) as [L|L]; [|exact L].
    destruct l as [|d l]; [apply Nat.eqb_neq in E; simpl in L; lia|].
    rewrite (rmap_at _ _ _ _ (fun i => nth i (d :: l) d)) in H; [discriminate|].
    intros i Hi. apply In_seq_lt in Hi. apply at_Some. apply nth_error_nth'. lia.
  - intros H. destruct (n =? 0) eqn:E; [apply Nat.eqb_eq in E; lia|]. apply rmap_ub.
    + intros x _. unfold at_. destruct (nth_error l x); [right; eauto|left; reflexivity].
    + exists (length l). split; [apply In_seq_lt; exact H|]. unfold at_. rewrite (proj2 (nth_error_None l (length l))) by lia. reflexivity.
Qed.

Lemma nth_error_concat : forall A (rows : list (list A)) n i j r x, (forall r, In r rows -> length r = n) ->
  nth_error rows i = Some r -> nth_error r j = Some x -> nth_error (concat rows) (i * n + j) = Some x.
Proof.
  intros A. induction rows as [|r0 rows IH]; intros n i j r x H Hr Hx; [destruct i; discriminate|]. cbn [concat].
  pose proof (H r0 (or_introl eq_refl)) as L0. destruct i as [|i].
  - injection Hr as ->. simpl. rewrite nth_error_app1; auto. apply nth_error_lt in Hx. exact Hx.
  - rewrite nth_error_app2 by (simpl; lia). replace (S i * n + j - length r0) with (i * n + j) by (simpl; lia).
    apply (IH n i j r x); auto. intros; apply H; right; assumption.
Qed.

Definition row_major {A} (m : mat A) : list A := concat (m_rows m).
(** Column [j] of a matrix, and its columns one after the other. *)
Definition column {A} (d : A) (m : mat A) (j : nat) : list A := map (fun r => nth j r d) (m_rows m).

Lemma cell_column : forall A (d : A) m j, map (fun i => cell d m i j) (seq 0 (m_nr m)) = column d m j.
Proof.
  intros A d m j. unfold column, cell, m_nr. rewrite <- (map_nth_seq _ (m_rows m) []) at 2. rewrite map_map. reflexivity.
Qed.
Theorem to_proto_columns : forall A (d : A) m, mat_to_proto d m = mkMatMsg (m_nr m) (m_nc m) false (concat (map (column d m) (seq 0 (m_nc m)))).
Proof.
  intros A d m. unfold mat_to_proto. f_equal. rewrite flat_map_concat_map. f_equal. apply map_ext. intros j. apply cell_column.
Qed.

Lemma rebuild : forall A (d : A) m, well_shaped m ->
  map (fun i => map (fun j => cell d m i j) (seq 0 (m_nc m))) (seq 0 (m_nr m)) = m_rows m.
Proof.
  intros A d m W. unfold cell, m_nr. etransitivity; [|exact (map_nth_seq _ (m_rows m) [])]. apply map_ext_in. intros i Hi. apply In_seq_lt in Hi.
  rewrite <- (W (nth i (m_rows m) [])) by (apply nth_In; exact Hi). apply map_nth_seq.
Qed.

Theorem mat_roundtrip : forall A (d : A) m, well_shaped m ->
  mat_to_eigen (mat_to_proto d m) = Ok (if (m_nr m =? 0) || (m_nc m =? 0) then mkMat 0 [] else m).
Proof.
  intros A d m W. rewrite to_proto_columns. unfold mat_to_eigen. cbn [p_rows p_cols p_rowmajor p_data].
  destruct (m_nr m =? 0) eqn:E1; [apply Nat.eqb_eq in E1; rewrite E1; reflexivity|].
  destruct (m_nc m =? 0) eqn:E2; [apply Nat.eqb_eq in E2; rewrite E2, andb_false_r; reflexivity|].
  apply Nat.eqb_neq in E1, E2. replace (0 <? m_nr m) with true by (symmetry; apply Nat.ltb_lt; lia).
  replace (0 <? m_nc m) with true by (symmetry; apply Nat.ltb_lt; lia). cbn [andb orb].
  rewrite (rmap_at _ _ _ _ (fun i => map (fun j => cell d m i j) (seq 0 (m_nc m)))).
  - cbn [rbind]. rewrite rebuild by exact W. destruct m; reflexivity.
  - intros i Hi. apply In_seq_lt in Hi. apply rmap_at. intros j Hj. apply In_seq_lt in Hj. apply at_Some.
    apply (nth_error_concat _ _ (m_nr m) j i (column d m j)).
    + intros r Hr. apply in_map_iff in Hr. destruct Hr as (k & <- & _). unfold column. rewrite map_length. reflexivity.
    + apply map_nth_error. rewrite (nth_error_nth' _ 0) by (rewrite seq_length; exact Hj). rewrite seq_nth by exact Hj. reflexivity.
    + unfold column, cell. rewrite (map_nth_error _ _ _ (d:=nth i (m_rows m) [])); [reflexivity|]. apply nth_error_nth'. exact Hi.
Qed.

Theorem row_major_read : forall A (m : mat A), well_shaped m -> 0 < m_nr m -> 0 < m_nc m ->
  mat_to_eigen (mkMatMsg (m_nr m) (m_nc m) true (row_major m)) = Ok m.
Proof.
  intros A m W H1 H2. unfold mat_to_eigen. cbn [p_rows p_cols p_rowmajor p_data].
  replace (0 <? m_nr m) with true by (symmetry; apply Nat.ltb_lt; lia).
  replace (0 <? m_nc m) with true by (symmetry; apply Nat.ltb_lt; lia). cbn [andb].
  assert (D : exists d : A, True).
  { unfold m_nr in H1. destruct (m_rows m) as [|r rs] eqn:E; [simpl in H1; lia|]. assert (length r = m_nc m) by (apply W; rewrite E; left; reflexivity).
    destruct r as [|d r]; [simpl in H; lia|exists d; exact Logic.I]. }
  destruct D as [d _].
  rewrite (rmap_at _ _ _ _ (fun i => map (fun j => cell d m i j) (seq 0 (m_nc m)))).
  - cbn [rbind]. rewrite rebuild by exact W. destruct m; reflexivity.
  - intros i Hi. apply In_seq_lt in Hi. apply rmap_at. intros j Hj. apply In_seq_lt in Hj. apply at_Some. unfold row_major.
    assert (Hr : nth_error (m_rows m) i = Some (nth i (m_rows m) [])) by (apply nth_error_nth'; exact Hi).
    apply (nth_error_concat _ _ (m_nc m) i j (nth i (m_rows m) [])); auto.
    unfold cell. apply nth_error_nth'. rewrite W; [exact Hj|]. apply nth_In. exact Hi.
Qed.

Theorem mat_short : forall A (p : mat_msg A), mat_to_eigen p = UB <-> length (p_data p) < p_rows p * p_cols p.
Proof.
  intros A [r c rm l]. unfold mat_to_eigen. cbn [p_rows p_cols p_rowmajor p_data].
  set (ix := fun i j => if rm then i * c + j else j * r + i).
  assert (B : forall i j, i < r -> j < c -> ix i j < r * c) by (intros i j Hi Hj; unfold ix; destruct rm; nia).
  split.
  - intros H. destruct ((0 <? r) && (0 <? c)) eqn:E; [|discriminate]. apply andb_prop in E. destruct E as [E1 E2]. apply Nat.ltb_lt in E1, E2.
    destruct (le_lt_dec (r * c) (length l)) as [L|L]; [|exact L]. exfalso.
    destruct l as [|d l]; [simpl in L; nia|]. set (l' := d :: l) in *.
    rewrite (rmap_at _ _ _ _ (fun i => map (fun j => nth (ix i j) l' d) (seq 0 c))) in H; [discriminate|].
    intros i Hi. apply In_seq_lt in Hi. apply rmap_at. intros j Hj. apply In_seq_lt in Hj. apply at_Some. fold (ix i j). apply nth_error_nth'.
    specialize (B i j Hi Hj). lia.
  - intros H. assert (r <> 0 /\ c <> 0) as [N1 N2] by (split; intros E; subst; lia).
    replace (0 <? r) with true by (symmetry; apply Nat.ltb_lt; lia). replace (0 <? c) with true by (symmetry; apply Nat.ltb_lt; lia). cbn [andb].
    assert (R : forall i, rmap (fun j => at_ l (ix i j)) (seq 0 c) = UB \/ exists y, rmap (fun j => at_ l (ix i j)) (seq 0 c) = Ok y).
    { intros i. generalize (seq 0 c). induction l0 as [|j q IH]; [right; eexists; reflexivity|]. cbn [rmap].
      assert (C : at_ l (ix i j) = UB \/ exists y, at_ l (ix i j) = Ok y) by (unfold at_; destruct (nth_error l (ix i j)); [right; eauto|left; reflexivity]).
      destruct C as [->|[z ->]]; cbn [rbind]; [left; reflexivity|].
      destruct IH as [->|[y ->]]; [left; reflexivity|right; eexists; reflexivity]. }
    fold ix. change (fun i => rmap (fun j => at_ l (if rm then i * c + j else j * r + i)) (seq 0 c)) with (fun i => rmap (fun j => at_ l (ix i j)) (seq 0 c)).
    rewrite rmap_ub; [reflexivity| |].
    + intros i _. apply R.
    + exists (r - 1). split; [apply In_seq_lt; lia|]. apply rmap_ub.
      * intros j _. unfold at_. destruct (nth_error l (ix (r - 1) j)); [right; eauto|left; reflexivity].
      * exists (c - 1). split; [apply In_seq_lt; lia|]. unfold at_.
        rewrite (proj2 (nth_error_None l (ix (r - 1) (c - 1)))); [reflexivity|].
        assert (ix (r - 1) (c - 1) = r * c - 1) by (unfold ix; destruct rm; nia). lia.
Qed.

(** ** Covariates *)
Theorem covariates_lookup : forall A (covs : mat A) i,
  (m_nc covs = 0 -> covariate_row covs i = Ok []) /\
  (forall r, m_nc covs <> 0 -> m_rows covs = [r] -> covariate_row covs i = Ok r) /\
  (forall r, m_nc covs <> 0 -> m_nr covs <> 1 -> nth_error (m_rows covs) i = Some r -> covariate_row covs i = Ok r) /\
  (covariate_row covs i = UB <-> m_nc covs <> 0 /\ m_nr covs <> 1 /\ m_nr covs <= i).
Proof.
  intros A covs i. unfold covariate_row. split; [|split; [|split]].
  - intros ->. reflexivity.
  - intros r H E. apply Nat.eqb_neq in H. rewrite H. unfold m_nr. rewrite E. reflexivity.
  - intros r H1 H2 E. apply Nat.eqb_neq in H1, H2. rewrite H1, H2. apply at_Some. exact E.
  - split.
    + intros H. destruct (m_nc covs =? 0) eqn:E1; [discriminate|]. destruct (m_nr covs =? 1) eqn:E2.
      * apply Nat.eqb_eq in E2. unfold m_nr in E2. destruct (m_rows covs); [discriminate|discriminate].
      * apply Nat.eqb_neq in E1, E2. unfold at_ in H. destruct (nth_error (m_rows covs) i) eqn:E; [discriminate|]. apply nth_error_None in E. auto.
    + intros (H1 & H2 & H3). apply Nat.eqb_neq in H1, H2. rewrite H1, H2. unfold at_. rewrite (proj2 (nth_error_None _ i)) by exact H3. reflexivity.
Qed.

(** ** Factory *)
Definition registered {Obj} (regs : list (nat * Obj)) : storage Obj := fold_left (fun s '(id, b) => add_builder id b s) regs [].

Lemma find_add : forall Obj (s : storage Obj) id b k,
  find_id k (add_builder id b s) = match find_id k s with Some x => Some x | None => if k =? id then Some b else None end.
Proof.
  intros Obj s id b k. unfold add_builder. destruct (find_id id s) eqn:E.
  - destruct (find_id k s) eqn:F; [reflexivity|]. destruct (k =? id) eqn:G; [|reflexivity]. apply Nat.eqb_eq in G. subst. congruence.
  - cbn [find_id]. rewrite (Nat.eqb_sym id k). destruct (k =? id) eqn:G; [apply Nat.eqb_eq in G; subst; rewrite E; reflexivity|]. destruct (find_id k s); reflexivity.
Qed.
Lemma registered_find : forall Obj (regs : list (nat * Obj)) s k,
  find_id k (fold_left (fun s '(id, b) => add_builder id b s) regs s) =
  match find_id k s with Some x => Some x | None => option_map snd (find (fun r => k =? fst r) regs) end.
Proof.
  intros Obj. induction regs as [|[id b] regs IH]; intros s k; cbn [fold_left find option_map].
  - destruct (find_id k s); reflexivity.
  - rewrite IH, find_add. cbn [fst]. destruct (find_id k s); [reflexivity|]. destruct (k =? id); reflexivity.
Qed.
Theorem factory_first : forall Obj (regs before after : list (nat * Obj)) id b,
  regs = before ++ (id, b) :: after -> (forall c, ~ In (id, c) before) ->
  create_object id (registered regs) = Ok b /\ check_existence id (registered regs) = true.
Proof.
  intros Obj regs before after id b -> H. unfold create_object, check_existence, registered. rewrite registered_find. cbn [find_id].
  assert (E : find (fun r => id =? fst r) (before ++ (id, b) :: after) = Some (id, b)).
  { induction before as [|[k c] l IH]; cbn [app find fst].
    - rewrite Nat.eqb_refl. reflexivity.
    - destruct (id =? k) eqn:E; [apply Nat.eqb_eq in E; subst; exfalso; apply (H c); left; reflexivity|]. apply IH. intros c' Hc. apply (H c'). right. exact Hc. }
  rewrite E. cbn. auto.
Qed.
Theorem factory_unknown : forall Obj (regs : list (nat * Obj)) id, (forall b, ~ In (id, b) regs) ->
  (exists m, create_object id (registered regs) = Throw m) /\ check_existence id (registered regs) = false.
Proof.
  intros Obj regs id H. unfold create_object, check_existence, registered. rewrite registered_find. cbn [find_id].
  destruct (find (fun r => id =? fst r) regs) as [[k b]|] eqn:E.
  - apply find_some in E. destruct E as [E1 E2]. apply Nat.eqb_eq in E2. cbn in E2. subst k. exfalso. exact (H b E1).
  - cbn. split; [eexists; reflexivity|reflexivity].
Qed.
(** By name: a known name is looked up by its identifier; an unknown one builds
    whatever object the indeterminate identifier happens to name. *)
Theorem factory_by_name : forall Obj (names : list (string * nat)) (s : storage Obj) junk name,
  (forall id, In (name, id) names -> (forall id', In (name, id') names -> id' = id) ->
     create_by_name names junk name s = match find_id id s with Some b => Ok b | None => Throw "No identifier found for name" end) /\
  ((forall id, ~ In (name, id) names) ->
     create_by_name names junk name s = match find_id junk s with Some b => Ok b | None => Throw "No identifier found for name" end).
Proof.
  intros Obj names s junk name. unfold create_by_name, name_to_id, create_object. split.
  - intros id Hi U. destruct (find (fun p => String.eqb (fst p) name) names) as [[n k]|] eqn:E.
    + apply find_some in E. destruct E as [E1 E2]. apply String.eqb_eq in E2. cbn in E2. subst n. rewrite (U k E1). destruct (find_id id s); reflexivity.
    + apply (find_none _ _ E) in Hi. cbn in Hi. rewrite String.eqb_refl in Hi. discriminate.
  - intros H. destruct (find (fun p => String.eqb (fst p) name) names) as [[n k]|] eqn:E.
    + apply find_some in E. destruct E as [E1 E2]. apply String.eqb_eq in E2. cbn in E2. subst n. exfalso. exact (H k E1).
    + destruct (find_id junk s); reflexivity.
Qed.
