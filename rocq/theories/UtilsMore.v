(** * Facts about text matrices and cluster estimates. *)
From Coq Require Import String Ascii.
From Coq Require Import List Arith Bool Lia Reals Lra ZArith.
From Verif Require Import Base Utils UtilsFacts.
Import ListNotations.

Lemma Forall2_length : forall A B (P : A -> B -> Prop) l1 l2, Forall2 P l1 l2 -> length l1 = length l2.
Proof. induction 1; simpl; auto. Qed.

(** ** Text matrices *)
Section Csv.
  Variable A : Type.
  Variable stof : list ascii -> option A.

  Lemma tokens_free : forall d x r, ~ In d x -> tokens d (x ++ d :: r) = x :: tokens d r.
  Proof.
    intros d. induction x as [|c x IH]; intros r H; cbn [app tokens].
    - rewrite Ascii.eqb_refl. reflexivity.
    - destruct (Ascii.eqb c d) eqn:E; [apply Ascii.eqb_eq in E; subst; exfalso; apply H; left; reflexivity|].
      rewrite IH; [reflexivity|]. intros Hx. apply H. right. exact Hx.
  Qed.
  Lemma tokens_one : forall d x, ~ In d x -> x <> [] -> tokens d x = [x].
  Proof.
    intros d. induction x as [|c x IH]; intros H N; [congruence|]. cbn [tokens].
    destruct (Ascii.eqb c d) eqn:E; [apply Ascii.eqb_eq in E; subst; exfalso; apply H; left; reflexivity|].
    destruct x as [|c' x]; [reflexivity|]. rewrite IH; [reflexivity| |discriminate]. intros Hx. apply H. right. exact Hx.
  Qed.
  (** A final separator makes no difference. *)
  Lemma tokens_join : forall d l tail, l <> [] -> (forall x, In x l -> ~ In d x /\ x <> []) -> tail = [] \/ tail = [d] ->
    tokens d (join d l ++ tail) = l.
  Proof.
    intros d [|x l] tail N H T; [congruence|]. clear N. unfold join. revert x H.
    induction l as [|y l IH]; intros x H; cbn [flat_map].
    - rewrite app_nil_r. destruct (H x (or_introl eq_refl)) as [H1 H2]. destruct T as [->| ->].
      + rewrite app_nil_r. apply tokens_one; auto.
      + rewrite tokens_free by auto. reflexivity.
    - destruct (H x (or_introl eq_refl)) as [H1 H2]. cbn [app]. rewrite <- app_assoc. cbn [app]. rewrite tokens_free by auto. f_equal.
      apply IH. intros z Hz. apply H. right. exact Hz.
  Qed.

  Definition clean (delim : ascii) (c : list ascii) : Prop := c <> [] /\ ~ In delim c /\ ~ In newline c.
  Definition text_of (delim : ascii) (table : list (list (list ascii))) : list ascii := join newline (map (join delim) table).

  Lemma join_nil : forall d x l, x <> [] -> join d (x :: l) <> [].
  Proof. intros d x l H E. unfold join in E. apply app_eq_nil in E. tauto. Qed.
  Lemma join_free : forall d e l, d <> e -> (forall x, In x l -> ~ In e x) -> ~ In e (join d l).
  Proof.
    intros d e [|x l] D H Hin; [destruct Hin|]. unfold join in Hin. apply in_app_or in Hin. destruct Hin as [Hin|Hin]; [exact (H x (or_introl eq_refl) Hin)|].
    apply in_flat_map in Hin. destruct Hin as (y & Hy & [E|Hin]); [exact (D E)|]. exact (H y (or_intror Hy) Hin).
  Qed.

  Lemma lines_cells : forall delim n tb, (forall r, In r tb -> tokens delim (join delim r) = r) -> forall (m : list (option A)) i,
    rfold (fun '(m, i) line =>
              '(m', _) <- rfold (fun '(m, j) entry =>
                    match stof entry with
                    | None => Throw "stof"
                    | Some v => m' <- set_at m (j * n + i) (Some v) ;; Ok (m', S j)
                    end) (tokens delim line) (m, 0) ;;
              Ok (m', S i)) (map (join delim) tb) (m, i) =
    rfold (fun '(m, i) r =>
          '(m', _) <- rfold (fun '(m, j) entry =>
                match stof entry with
                | None => Throw "stof"
                | Some v => m' <- set_at m (j * n + i) (Some v) ;; Ok (m', S j)
                end) r (m, 0) ;;
          Ok (m', S i)) tb (m, i).
  Proof.
    intros delim n. induction tb as [|r t IH]; intros C m i; [reflexivity|]. cbn [map rfold].
    rewrite (C r) by (left; reflexivity).
    match goal with |- rbind (rbind ?X _) _ = _ => destruct X as [[m' i']| | |] end; cbn [rbind]; auto.
    apply IH. intros; apply C; right; assumption.
  Qed.

  Section Table.
    Variable delim : ascii.
    Variable table : list (list (list ascii)).
    Variable tail : list ascii.
    Hypothesis sep : delim <> newline.
    Hypothesis cleanT : forall r, In r table -> r <> [] /\ forall c, In c r -> clean delim c.
    Hypothesis nonempty : table <> [].
    Hypothesis tailT : tail = [] \/ tail = [newline].

    Lemma lines_of : tokens newline (text_of delim table ++ tail) = map (join delim) table.
    Proof.
      apply tokens_join; auto.
      - destruct table; [congruence|discriminate].
      - intros x Hx. apply in_map_iff in Hx. destruct Hx as (r & <- & Hr). destruct (cleanT r Hr) as [Nr Cr]. split.
        + apply join_free; auto. intros c Hc. apply (Cr c Hc).
        + destruct r as [|c r]; [congruence|]. apply join_nil. apply (Cr c (or_introl eq_refl)).
    Qed.
    Lemma cells_of : forall r, In r table -> tokens delim (join delim r) = r.
    Proof.
      intros r Hr. destruct (cleanT r Hr) as [Nr Cr]. rewrite <- (app_nil_r (join delim r)). apply tokens_join; auto.
      intros c Hc. destruct (Cr c Hc) as (H1 & H2 & _). auto.
    Qed.

    Definition fill (rows : nat) (m : list (option A)) : res (list (option A)) :=
      '(m, _) <- rfold (fun '(m, i) r =>
          '(m', _) <- rfold (fun '(m, j) entry =>
                match stof entry with
                | None => Throw "stof"
                | Some v => m' <- set_at m (j * rows + i) (Some v) ;; Ok (m', S j)
                end) r (m, 0) ;;
          Ok (m', S i)) table (m, 0) ;; Ok m.

    Lemma read_fill : read_matrix stof (Some (text_of delim table ++ tail)) delim =
      (m <- fill (length table) (repeat None (length table * length (hd [] table))) ;; Ok (length table, length (hd [] table), m)).
    Proof.
      unfold read_matrix. cbv zeta. rewrite lines_of, map_length.
      assert (E : match map (join delim) table with [] => 0 | l :: _ => length (tokens delim l) end = length (hd [] table)).
      { destruct table as [|r t] eqn:T; [reflexivity|]. cbn [map hd]. rewrite <- T in *. f_equal. apply cells_of. rewrite T. left. reflexivity. }
      rewrite E. unfold fill.
      match goal with |- rbind ?X _ = _ => set (x := X) end.
      match goal with |- _ = rbind (rbind ?X _) _ => set (y := X) end.
      assert (XY : x = y).
      { subst x y. apply lines_cells. exact cells_of. }
      rewrite XY. destruct y as [[m i]| | |]; reflexivity.
    Qed.
  End Table.

  (** Writes of a parsed table. *)
  Definition row_writes (rows i j0 : nat) (vs : list A) : list (nat * A) := map (fun '(j, v) => (j * rows + i, v)) (combine (seq j0 (length vs)) vs).

  Lemma row_fill : forall rows i r vs, Forall2 (fun c v => stof c = Some v) r vs -> forall m j0,
    rfold (fun '(m, j) entry =>
                match stof entry with
                | None => Throw "stof"
                | Some v => m' <- set_at m (j * rows + i) (Some v) ;; Ok (m', S j)
                end) r (m, j0) = (m' <- writes (row_writes rows i j0 vs) m ;; Ok (m', j0 + length vs)).
  Proof.
    intros rows i r vs H. induction H as [|c v r vs E H IH]; intros m j0.
    - cbn. rewrite Nat.add_0_r. reflexivity.
    - cbn [rfold]. rewrite E. unfold row_writes. cbn [length seq combine map]. unfold writes. cbn [rfold].
      destruct (set_at m (j0 * rows + i) (Some v)) as [m'|s| |]; cbn [rbind]; auto.
      rewrite IH. unfold row_writes, writes. destruct (rfold _ _ m'); cbn [rbind]; auto. do 2 f_equal. lia.
  Qed.
  Definition table_writes (rows i0 : nat) (vals : list (list A)) : list (nat * A) :=
    flat_map (fun '(i, vs) => row_writes rows i 0 vs) (combine (seq i0 (length vals)) vals).
  Lemma table_fill : forall rows table vals, Forall2 (Forall2 (fun c v => stof c = Some v)) table vals -> forall m i0,
    rfold (fun '(m, i) r =>
          '(m', _) <- rfold (fun '(m, j) entry =>
                match stof entry with
                | None => Throw "stof"
                | Some v => m' <- set_at m (j * rows + i) (Some v) ;; Ok (m', S j)
                end) r (m, 0) ;;
          Ok (m', S i)) table (m, i0) = (m' <- writes (table_writes rows i0 vals) m ;; Ok (m', i0 + length vals)).
  Proof.
    intros rows table vals H. induction H as [|r vs table vals E H IH]; intros m i0.
    - cbn. rewrite Nat.add_0_r. reflexivity.
    - cbn [rfold]. rewrite (row_fill rows i0 r vs E). unfold table_writes. cbn [length seq combine flat_map]. rewrite writes_app.
      destruct (writes (row_writes rows i0 0 vs) m) as [m'|s| |]; cbn [rbind]; auto. rewrite IH.
      fold (table_writes rows (S i0) vals). destruct (writes (table_writes rows (S i0) vals) m'); cbn [rbind]; auto. do 2 f_equal. lia.
  Qed.

  Lemma in_table : forall rows vals p v, In (p, v) (table_writes rows 0 vals) <->
    exists i j vs, p = j * rows + i /\ nth_error vals i = Some vs /\ nth_error vs j = Some v.
  Proof.
    intros rows vals p v. unfold table_writes. rewrite in_flat_map. split.
    - intros ([i vs] & H1 & H2). unfold row_writes in H2. apply in_map_iff in H2. destruct H2 as ([j w] & E & H2). injection E as <- <-.
      apply in_combine_seq in H1, H2. rewrite Nat.sub_0_r in H1, H2. exists i, j, vs. tauto.
    - intros (i & j & vs & -> & Hi & Hj). exists (i, vs). split; [apply in_combine_seq; rewrite Nat.sub_0_r; split; [lia|auto]|].
      unfold row_writes. apply in_map_iff. exists (j, v). split; [reflexivity|]. apply in_combine_seq. rewrite Nat.sub_0_r. split; [lia|auto].
  Qed.

  Theorem csv_table : forall delim table vals tail, delim <> newline -> table <> [] -> tail = [] \/ tail = [newline] ->
    (forall r, In r table -> r <> [] /\ forall c, In c r -> clean delim c) ->
    Forall2 (Forall2 (fun c v => stof c = Some v)) table vals ->
    let rows := length table in
    let cols := length (hd [] table) in
    ((forall r, In r table -> length r <= cols) ->
      exists m, read_matrix stof (Some (text_of delim table ++ tail)) delim = Ok (rows, cols, m) /\ length m = rows * cols /\
        forall i j vs, nth_error vals i = Some vs -> j < cols -> nth_error m (j * rows + i) = Some (nth_error vs j)) /\
    ((exists r, In r table /\ cols < length r) -> read_matrix stof (Some (text_of delim table ++ tail)) delim = UB).
  Proof.
    intros delim table vals tail S N T C F rows cols.
    rewrite (read_fill delim table tail S C N T). fold rows cols. unfold fill. rewrite (table_fill rows table vals F).
    assert (LV : length vals = rows) by (symmetry; apply (Forall2_length _ _ _ _ _ F)).
    assert (FR : forall i vs, nth_error vals i = Some vs -> exists r, nth_error table i = Some r /\ length r = length vs).
    { clear - F. induction F as [|r vs t vl E F IH]; intros i us H; [destruct i; discriminate|]. destruct i as [|i].
      - injection H as <-. exists r. split; [reflexivity|]. apply (Forall2_length _ _ _ _ _ E).
      - apply IH. exact H. }
    split.
    - intros L. destruct (writes_ok _ (table_writes rows 0 vals) (repeat None (rows * cols))) as (m & E & Lm & Nm).
      + intros [p v] Hp. apply in_table in Hp. destruct Hp as (i & j & vs & -> & Hi & Hj). cbn [fst]. rewrite repeat_length.
        destruct (FR i vs Hi) as (r & Hr & Lr). apply nth_error_In in Hr. specialize (L r Hr). apply nth_error_lt in Hi, Hj. nia.
      + rewrite E. cbn [rbind]. exists m. split; [reflexivity|]. rewrite repeat_length in Lm. split; [exact Lm|].
        intros i j vs Hi Hj. pose proof (nth_error_lt _ _ Hi) as Li. rewrite LV in Li. rewrite Nm.
        assert (U : forall i' j' : nat, i' < rows -> j * rows + i = j' * rows + i' -> i' = i /\ j' = j) by (intros i' j' Hi' He; destruct (Nat.div_mod_unique rows j j' i i' Li Hi' ltac:(lia)); split; congruence).
        destruct (nth_error vs j) as [v|] eqn:Ev.
        * rewrite (last_write_unique _ _ _ v); [reflexivity| |].
          -- apply in_table. exists i, j, vs. auto.
          -- intros y Hy. apply in_table in Hy. destruct Hy as (i' & j' & vs' & Ep & Hi' & Hj'). pose proof (nth_error_lt _ _ Hi') as Li'. rewrite LV in Li'.
             destruct (U i' j' Li' Ep) as [-> ->]. congruence.
        * rewrite last_write_none.
          -- rewrite (nth_error_nth' _ None) by (rewrite repeat_length; nia). rewrite nth_repeat. reflexivity.
          -- intros [p y] Hy E'. cbn [fst] in E'. subst p. apply in_table in Hy. destruct Hy as (i' & j' & vs' & Ep & Hi' & Hj'). pose proof (nth_error_lt _ _ Hi') as Li'. rewrite LV in Li'.
             destruct (U i' j' Li' Ep) as [-> ->]. congruence.
    - intros (r & Hr & Lr). rewrite writes_ub; [reflexivity|].
      apply In_nth_error in Hr. destruct Hr as (i & Hi).
      assert (Hv : exists vs, nth_error vals i = Some vs).
      { destruct (nth_error vals i) eqn:E; [eauto|]. apply nth_error_None in E. apply nth_error_lt in Hi. fold rows in Hi. lia. }
      destruct Hv as (vs & Hv). destruct (FR i vs Hv) as (r' & Hr' & L'). rewrite Hi in Hr'. injection Hr' as <-.
      destruct (at_ok vs (i:=cols) ltac:(lia)) as (v & _ & Ev).
      exists (cols * rows + i, v). split; [apply in_table; exists i, cols, vs; auto|]. cbn [fst]. rewrite repeat_length. nia.
  Qed.

  (** Cells that do not parse. *)
  Theorem csv_unparsable : forall delim table tail, delim <> newline -> table <> [] -> tail = [] \/ tail = [newline] ->
    (forall r, In r table -> r <> [] /\ forall c, In c r -> clean delim c) ->
    (forall r, In r table -> length r <= length (hd [] table)) ->
    (exists r c, In r table /\ In c r /\ stof c = None) ->
    read_matrix stof (Some (text_of delim table ++ tail)) delim = Throw "stof".
  Proof.
    intros delim table tail S N T C L B. rewrite (read_fill delim table tail S C N T). set (rows := length table) in *. set (cols := length (hd [] table)) in *.
    unfold fill.
    assert (Inner : forall i r, i < rows -> forall m j0, length m = rows * cols -> j0 + length r <= cols ->
      let f := rfold (fun '(m, j) entry =>
                match stof entry with
                | None => Throw "stof"
                | Some v => m' <- set_at m (j * rows + i) (Some v) ;; Ok (m', Datatypes.S j)
                end) r (m, j0) in
      ((exists c, In c r /\ stof c = None) -> f = Throw "stof") /\
      ((forall c, In c r -> stof c <> None) -> exists m' j, f = Ok (m', j) /\ length m' = rows * cols)).
    { intros i r Hi. induction r as [|c r IH]; intros m j0 Lm Lr f; subst f; cbn [rfold].
      - split; [intros (c & [] & _)|]. intros _. eauto.
      - simpl in Lr. destruct (stof c) as [v|] eqn:E.
        + rewrite set_at_ok by (rewrite Lm; nia). cbn [rbind].
          destruct (IH (upd m (j0 * rows + i) (Some v)) (Datatypes.S j0)) as [I1 I2]; [rewrite upd_length; exact Lm|lia|]. split.
          * intros (c' & [<-|Hc] & E'); [congruence|]. apply I1. eauto.
          * intros H. apply I2. intros c' Hc. apply H. right. exact Hc.
        + cbn [rbind]. split; [reflexivity|]. intros H. exfalso. apply (H c); [left; reflexivity|exact E]. }
    match goal with |- context [rfold ?F table _] => set (g := F) end.
    assert (Outer : forall t m i, i + length t <= rows -> length m = rows * cols -> (forall r, In r t -> length r <= cols) ->
      (exists r c, In r t /\ In c r /\ stof c = None) -> rfold g t (m, i) = Throw "stof").
    { induction t as [|r t IH]; intros m i Hi Lm Lt (r' & c & Hr & Hc & E); [destruct Hr|]. cbn [rfold]. unfold g at 1.
      simpl in Hi. destruct (Inner i r ltac:(lia) m 0 Lm (Lt r (or_introl eq_refl))) as [I1 I2].
      assert (D : (exists c, In c r /\ stof c = None) \/ (forall c, In c r -> stof c <> None)).
      { clear. induction r as [|c r IH]; [right; intros c []|]. destruct (stof c) eqn:E; [|left; exists c; split; [left; reflexivity|exact E]].
        destruct IH as [(c' & H1 & H2)|H]; [left; exists c'; split; [right; exact H1|exact H2]|right]. intros c' [<-|H']; [congruence|auto]. }
      destruct D as [D|D].
      - rewrite (I1 D). reflexivity.
      - destruct (I2 D) as (m' & j & -> & Lm'). cbn [rbind]. apply IH; [lia|exact Lm'|intros; apply Lt; right; assumption|].
        destruct Hr as [->|Hr]; [exfalso; exact (D c Hc E)|]. eauto. }
    rewrite Outer; [reflexivity|subst rows; lia|apply repeat_length|exact L|exact B].
  Qed.
End Csv.

Theorem csv_roundtrip : forall A (stof : list ascii -> option A) (show : A -> list ascii) (rd : A -> A) m delim, delim <> newline ->
  well_shaped m -> 0 < m_nr m -> 0 < m_nc m ->
  (forall x, clean delim (show x)) -> (forall x, stof (show x) = Some (rd x)) ->
  exists out, read_matrix stof (Some (write_matrix show m delim)) delim = Ok (m_nr m, m_nc m, out) /\
    length out = m_nr m * m_nc m /\
    forall i j r x, nth_error (m_rows m) i = Some r -> nth_error r j = Some x -> nth_error out (j * m_nr m + i) = Some (Some (rd x)).
Proof.
  intros A stof show rd m delim S W H1 H2 Cl St.
  set (table := map (map show) (m_rows m)). set (vals := map (map rd) (m_rows m)).
  assert (T0 : table <> []) by (subst table; unfold m_nr in H1; destruct (m_rows m); [simpl in H1; lia|discriminate]).
  assert (TC : forall r, In r table -> r <> [] /\ forall c, In c r -> clean delim c).
  { intros r Hr. apply in_map_iff in Hr. destruct Hr as (q & <- & Hq). split.
    - specialize (W q Hq). destruct q; [simpl in W; lia|discriminate].
    - intros c Hc. apply in_map_iff in Hc. destruct Hc as (x & <- & _). apply Cl. }
  assert (TV : Forall2 (Forall2 (fun c v => stof c = Some v)) table vals).
  { subst table vals. clear - St. induction (m_rows m) as [|r t IH]; constructor; [|exact IH]. induction r; constructor; auto. }
  assert (TL : forall r, In r table -> length r = m_nc m).
  { intros r Hr. apply in_map_iff in Hr. destruct Hr as (q & <- & Hq). rewrite map_length. apply W. exact Hq. }
  assert (HC : length (hd [] table) = m_nc m) by (destruct table as [|r t]; [congruence|apply TL; left; reflexivity]).
  destruct (csv_table A stof delim table vals [] S T0 (or_introl eq_refl) TC TV) as [R _].
  destruct R as (out & E & L & N); [intros r Hr; rewrite HC, (TL r Hr); lia|].
  assert (RW : length table = m_nr m) by apply map_length.
  rewrite app_nil_r, HC, RW in *. exists out. split; [|split; [exact L|]].
  - rewrite <- E. unfold write_matrix, text_of, table. rewrite map_map. reflexivity.
  - intros i j r x Hi Hj. rewrite (N i j (map rd r)).
    + f_equal. apply map_nth_error. exact Hj.
    + apply map_nth_error. exact Hi.
    + apply nth_error_lt in Hj. apply nth_error_In in Hi. rewrite (W r Hi) in Hj. exact Hj.
Qed.
