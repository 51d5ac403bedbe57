(** * Facts about the reading loops, the memory collector and the Python reader. *)
From Coq Require Import String.
From Coq Require Import List Arith NArith Bool Lia.
From Verif Require Import Base Collect CollectFacts.
Import ListNotations.

(** ** File collector *)
Section FileC.
  Variable P : proto.

  Lemma file_reads : (forall m, parse P (ser P m) = Some m) -> forall ms n ops, 0 < n ->
    run_reads _ _ (fc_next P) fc_reset ops (fc_new (fc_written P ms) n) = Ok (wrapping (filter (fits P) ms) ops 0).
  Proof. intros law ms n ops Hn. apply fc_runs. apply fc_at_new; auto. apply written_yields; auto. Qed.

  Lemma file_cut : (forall m, parse P (ser P m) = Some m) -> forall ms n ops k, 0 < n -> (forall m, In m ms -> fits P m = true) ->
    exists j, whole_within P ms k j /\
      run_reads _ _ (fc_next P) fc_reset ops (fc_new (firstn k (fc_written P ms)) n) = Ok (wrapping (firstn j ms) ops 0).
  Proof.
    intros law ms n ops k Hn HF. destruct (cut_yields P law ms k HF) as (j & J & Y). exists j. split; auto.
    apply fc_runs. apply fc_at_new; auto.
  Qed.

  Lemma chunk_unobservable : forall disk a b ops, 0 < a -> 0 < b ->
    exists l, run_reads _ _ (fc_next P) fc_reset ops (fc_new disk a) = Ok l /\
              run_reads _ _ (fc_next P) fc_reset ops (fc_new disk b) = Ok l.
  Proof.
    intros disk a b ops Ha Hb. destruct (yields_total P disk) as (ms & Y & _). exists (wrapping ms ops 0).
    split; apply fc_runs; apply fc_at_new; auto.
  Qed.

  Lemma chunk_zero : forall disk, fc_next P (fc_new disk 0) = UB.
  Proof. reflexivity. Qed.
End FileC.

(** ** Loops over any cursor *)
Lemma skipn_plus : forall A (l : list A) a b, skipn (a + b) l = skipn b (skipn a l).
Proof. intros A l a b. revert l. induction a as [|a IH]; intros [|x l]; simpl; auto. destruct b; auto. Qed.

Definition is_cursor {C M} (next : C -> res (C * option M)) (At : C -> nat -> Prop) (ms : list M) : Prop :=
  forall c pos, At c pos -> pos <= length ms /\
    exists c', next c = Ok (c', nth_error ms pos) /\ (nth_error ms pos <> None -> At c' (S pos)).

Section Cursor.
  Variables C M : Type.
  Variable next : C -> res (C * option M).
  Variable At : C -> nat -> Prop.
  Variable ms : list M.
  Hypothesis H : is_cursor next At ms.

  Lemma skipn_nth : forall pos, match nth_error ms pos with
    | Some m => skipn pos ms = m :: skipn (S pos) ms /\ pos < length ms | None => skipn pos ms = [] /\ length ms <= pos end.
  Proof.
    clear H. induction ms as [|m l IH]; intros [|pos]; simpl; auto; try (split; auto; lia).
    specialize (IH pos). destruct (nth_error l pos); destruct IH; split; auto; lia.
  Qed.

  Lemma whole_reads : forall fuel c pos, At c pos -> length ms - pos < fuel ->
    exists c', get_whole C M next fuel c = Some (Ok (c', skipn pos ms)).
  Proof.
    induction fuel as [|f IH]; intros c pos Hc Hf; [lia|].
    destruct (H c pos Hc) as (Hp & c' & E & Hn). cbn [get_whole]. rewrite E.
    pose proof (skipn_nth pos) as K. destruct (nth_error ms pos) as [m|] eqn:En.
    - destruct K as [K1 K2]. destruct (IH c' (S pos) (Hn ltac:(discriminate)) ltac:(lia)) as (c2 & E2). rewrite E2, K1. eauto.
    - destruct K as [K1 _]. rewrite K1. eauto.
  Qed.

  Lemma chunk_reads : forall size keep c pos, At c pos ->
    exists c', get_chunk C M next size keep c =
      Ok (c', (firstn size (skipn pos ms), match size with O => keep | _ => size <=? length ms - pos end)) /\
      (size <= length ms - pos -> At c' (pos + size)).
  Proof.
    induction size as [|k IH]; intros keep c pos Hc; cbn [get_chunk].
    - exists c. split; [reflexivity|]. intros _. rewrite Nat.add_0_r. auto.
    - destruct (H c pos Hc) as (Hp & c' & E & Hn). rewrite E. cbn [rbind].
      pose proof (skipn_nth pos) as K. destruct (nth_error ms pos) as [m|] eqn:En.
      + destruct K as [K1 K2]. destruct (IH true c' (S pos) (Hn ltac:(discriminate))) as (c2 & E2 & A2). rewrite E2. cbn [rbind].
        exists c2. rewrite K1. cbn [firstn]. split.
        * repeat f_equal. destruct k as [|k].
          { symmetry. apply Nat.leb_le. lia. }
          { destruct (Nat.leb_spec (S k) (length ms - S pos)), (Nat.leb_spec (S (S k)) (length ms - pos)); auto; lia. }
        * intros L. replace (pos + S k) with (S pos + k) by lia. apply A2. lia.
      + destruct K as [K1 K2]. exists c'. rewrite K1. cbn [firstn]. split; [|intros; lia].
        destruct (Nat.leb_spec (S k) (length ms - pos)); [lia|reflexivity].
  Qed.

  Lemma chunks_read : forall size, 0 < size -> forall fuel keep c pos, At c pos -> length ms - pos < fuel ->
    exists c' l, get_chunks C M next fuel size keep c = Some (Ok (c', l)) /\ concat l = skipn pos ms /\
      (forall x, In x l -> length x <= size).
  Proof.
    intros size Hs. induction fuel as [|f IH]; intros keep c pos Hc Hf; [lia|].
    destruct (chunk_reads size keep c pos Hc) as (c' & E & A). cbn [get_chunks]. rewrite E.
    destruct size as [|k]; [lia|]. destruct (Nat.leb_spec (S k) (length ms - pos)) as [L|L].
    - destruct (IH true c' (pos + S k) (A L) ltac:(lia)) as (c2 & l & E2 & F & B). rewrite E2. do 2 eexists. split; [reflexivity|].
      split.
      + cbn [concat]. rewrite F. rewrite <- (firstn_skipn (S k) (skipn pos ms)) at 2. f_equal.
        clear. apply skipn_plus.
      + intros x [<-|Hx]; [rewrite firstn_length; lia|auto].
    - do 2 eexists. split; [reflexivity|]. split.
      + cbn [concat]. rewrite app_nil_r. apply firstn_all2. rewrite skipn_length. lia.
      + intros x [<-|[]]. rewrite firstn_length. lia.
  Qed.

  Lemma chunks_zero : forall fuel c, get_chunks C M next fuel 0 true c = None.
  Proof. clear H. induction fuel as [|f IH]; intros c; auto. cbn [get_chunks get_chunk]. rewrite IH. reflexivity. Qed.
End Cursor.

Lemma file_cursor : forall P ms, is_cursor (fc_next P) (fc_at P ms) ms.
Proof.
  intros P ms c pos Hc. split.
  - destruct Hc as (_ & _ & H0 & H1). destruct (f_open c); [destruct (H1 eq_refl); auto|]. rewrite (H0 eq_refl). lia.
  - destruct (fc_at_next P ms c pos Hc) as (c' & E & A & _). exists c'. split; auto.
    intros Hn. destruct (nth_error ms pos); [auto|congruence].
Qed.

(** ** Memory collector *)
Inductive mop (M : Type) : Type := MCollect (m : M) | MNext | MReset.
Arguments MCollect {M} m.
Arguments MNext {M}.
Arguments MReset {M}.

(** A cursor over a growing list; at the end it stays there. *)
Fixpoint sticky {M} (ops : list (mop M)) (ms : list M) (pos : nat) : list (option M) :=
  match ops with
  | [] => []
  | MCollect m :: o => sticky o (ms ++ [m]) pos
  | MReset :: o => sticky o ms 0
  | MNext :: o => match nth_error ms pos with
                  | Some m => Some m :: sticky o ms (S pos)
                  | None => None :: sticky o ms pos
                  end
  end.

Section MemC.
  Variable P : proto.

  (** The states read and the collector left behind. *)
  Fixpoint mc_run (ops : list (mop (Msg P))) (c : mcoll) : res (list (option (option (Msg P))) * mcoll) :=
    match ops with
    | [] => Ok ([], c)
    | MCollect m :: o => mc_run o (mc_collect P m c)
    | MReset :: o => mc_run o (mc_reset c)
    | MNext :: o => '(c', x) <- mc_next P c ;; '(l, c2) <- mc_run o c' ;; Ok (x :: l, c2)
    end.

  Fixpoint collected (ops : list (mop (Msg P))) : list (Msg P) :=
    match ops with [] => [] | MCollect m :: o => m :: collected o | _ :: o => collected o end.

  Definition mc_at (ms : list (Msg P)) (c : mcoll) (pos : nat) : Prop :=
    m_chain c = map (ser P) ms /\ m_size c = length ms /\ m_iter c = pos /\ pos <= length ms.

  Variable law : forall m, parse P (ser P m) = Some m.

  Lemma mc_at_next : forall ms c pos, mc_at ms c pos ->
    exists c', mc_next P c = Ok (c', option_map Some (nth_error ms pos)) /\
      mc_at ms c' (match nth_error ms pos with Some _ => S pos | None => pos end).
  Proof.
    intros ms c pos (E1 & E2 & E3 & E4). unfold mc_next. rewrite E3, E2. destruct (Nat.eqb_spec pos (length ms)) as [E|E].
    - assert (N : nth_error ms pos = None) by (apply nth_error_None; lia). rewrite N. exists c. split; auto.
      repeat split; auto.
    - unfold at_. rewrite E1, nth_error_map. destruct (nth_error ms pos) as [m|] eqn:En.
      + simpl. rewrite law. eexists. split; [reflexivity|]. repeat split; cbn; auto; lia.
      + apply nth_error_None in En. lia.
  Qed.

  Lemma mc_at_collect : forall ms c pos m, mc_at ms c pos -> mc_at (ms ++ [m]) (mc_collect P m c) pos.
  Proof.
    intros ms c pos m (E1 & E2 & E3 & E4). split; simpl; [rewrite E1, map_app; reflexivity|].
    rewrite app_length. simpl. split; [lia|]. split; [auto|lia].
  Qed.

  Lemma mc_runs : forall ops ms c pos, mc_at ms c pos ->
    exists c' pos', mc_run ops c = Ok (map (option_map Some) (sticky ops ms pos), c') /\ mc_at (ms ++ collected ops) c' pos'.
  Proof.
    induction ops as [|[m| |] ops IH]; intros ms c pos H; cbn [mc_run sticky collected].
    - rewrite app_nil_r. simpl. eauto.
    - destruct (IH _ _ _ (mc_at_collect ms c pos m H)) as (c' & pos' & E & A). exists c', pos'.
      rewrite <- app_assoc in A. auto.
    - destruct (mc_at_next _ _ _ H) as (c1 & E1 & H1). rewrite E1. cbn [rbind].
      destruct (nth_error ms pos) as [m|]; destruct (IH _ _ _ H1) as (c' & pos' & E & A); rewrite E; cbn [rbind map option_map]; eauto.
    - apply (IH ms (mc_reset c) 0). destruct H as (E1 & E2 & E3 & E4). repeat split; auto. simpl; lia.
  Qed.

  Lemma mc_new_at : mc_at [] mc_new 0.
  Proof. repeat split; auto. Qed.

  Lemma memory_reads : forall ops, exists c, mc_run ops mc_new = Ok (map (option_map Some) (sticky ops [] 0), c) /\
    m_size c = length (collected ops) /\ (forall i, mc_get P i c = match nth_error (collected ops) i with Some m => Ok (Some m) | None => UB end).
  Proof.
    intros ops. destruct (mc_runs ops [] mc_new 0 mc_new_at) as (c & pos & E & (A1 & A2 & _)). exists c. split; auto.
    simpl in *. split; auto. intros i. unfold mc_get, at_. rewrite A1, nth_error_map.
    destruct (nth_error (collected ops) i) as [m|]; simpl; [rewrite law|]; reflexivity.
  Qed.

  Lemma memory_cursor : forall ms, is_cursor (mc_next P) (mc_at ms) (map Some ms).
  Proof.
    intros ms c pos Hc. rewrite map_length. split; [destruct Hc as (_ & _ & _ & H); exact H|].
    destruct (mc_at_next ms c pos Hc) as (c' & E & A). exists c'. rewrite nth_error_map. split; auto.
    intros Hn. destruct (nth_error ms pos); [auto|simpl in Hn; congruence].
  Qed.

  (** Loading. *)
  Lemma load_go : forall bs ms, yields P bs ms -> forall fuel c, length ms < fuel ->
    mc_load_go P fuel bs c = mkMc (m_chain c ++ map (ser P) ms) (m_size c + length ms) (m_iter c).
  Proof.
    induction 1 as [bs E|bs m r ms E H IH]; intros [|f] c Hf; try (simpl in Hf; lia); cbn [mc_load_go]; rewrite E.
    - destruct c; simpl. rewrite app_nil_r, Nat.add_0_r. reflexivity.
    - rewrite IH by (simpl in Hf; lia). simpl. rewrite <- app_assoc, Nat.add_succ_r. reflexivity.
  Qed.
  Lemma load_eq : forall bs ms c, yields P bs ms -> mc_load P bs c = mkMc (map (ser P) ms) (m_size c + length ms) (m_iter c).
  Proof.
    intros bs ms c Y. unfold mc_load. destruct (yields_total P bs) as (ms' & Y' & L). rewrite (yields_fun _ _ _ Y _ Y') in *.
    rewrite (load_go _ _ Y'); [reflexivity|lia].
  Qed.

  (** A collector that already holds states believes in more states than it has. *)
  Lemma load_stale : forall bs ms c ops, yields P bs ms -> m_iter c <= m_size c ->
    run_reads _ _ (mc_next P) mc_reset (RReset :: repeat RNext (length ms) ++ ops) (mc_load P bs c) =
      (l <- run_reads _ _ (mc_next P) mc_reset ops (mkMc (map (ser P) ms) (m_size c + length ms) (length ms)) ;;
       Ok (map (fun m => Some (Some m)) ms ++ l)).
  Proof.
    intros bs ms c ops Y _. rewrite (load_eq bs ms c Y). cbn [run_reads].
    assert (ER : forall a b i, mc_reset (mkMc a b i) = mkMc a b 0) by reflexivity. rewrite ER. clear ER.
    set (sz := m_size c). clearbody sz. clear Y bs c.
    assert (K : forall post pre, ms = pre ++ post ->
      run_reads _ _ (mc_next P) mc_reset (repeat RNext (length post) ++ ops) (mkMc (map (ser P) ms) (sz + length ms) (length pre)) =
      (l <- run_reads _ _ (mc_next P) mc_reset ops (mkMc (map (ser P) ms) (sz + length ms) (length ms)) ;;
       Ok (map (fun m => Some (Some m)) post ++ l))).
    { induction post as [|m post IH]; intros pre E.
      - rewrite app_nil_r in E. subst pre. simpl. destruct (run_reads _ _ _ _ _ _); reflexivity.
      - cbn [length repeat app run_reads].
        assert (L : length pre < length ms) by (rewrite E, app_length; simpl; lia).
        assert (Nt : nth_error ms (length pre) = Some m) by (rewrite E, nth_error_app2, Nat.sub_diag by lia; reflexivity).
        assert (EN : mc_next P (mkMc (map (ser P) ms) (sz + length ms) (length pre)) =
                     Ok (mkMc (map (ser P) ms) (sz + length ms) (S (length pre)), Some (Some m))).
        { unfold mc_next. cbn [m_iter m_size m_chain]. destruct (Nat.eqb_spec (length pre) (sz + length ms)); [lia|].
          unfold at_. rewrite nth_error_map, Nt. cbn [option_map rbind]. rewrite law. reflexivity. }
        rewrite EN. cbn [rbind].
        specialize (IH (pre ++ [m])). rewrite <- app_assoc in IH. specialize (IH E).
        rewrite app_length in IH. simpl in IH. rewrite Nat.add_1_r in IH. rewrite IH.
        destruct (run_reads _ _ _ _ ops _); reflexivity. }
    apply (K ms []). reflexivity.
  Qed.

  Lemma load_over : forall bs ms c, yields P bs ms -> m_iter c <= m_size c ->
    run_reads _ _ (mc_next P) mc_reset (RReset :: repeat RNext (S (length ms))) (mc_load P bs c) =
      if m_size c =? 0 then Ok (map (fun m => Some (Some m)) ms ++ [None]) else UB.
  Proof.
    intros bs ms c Y Hc. replace (repeat RNext (S (length ms))) with (repeat RNext (length ms) ++ [RNext]).
    2:{ clear. induction (length ms) as [|n IH]; [reflexivity|]. cbn [repeat app]. rewrite IH. reflexivity. }
    rewrite (load_stale bs ms c _ Y Hc). cbn [run_reads]. unfold mc_next. cbn [m_iter m_size m_chain].
    destruct (Nat.eqb_spec (m_size c) 0) as [E|E].
    - rewrite E. simpl. rewrite Nat.eqb_refl. reflexivity.
    - destruct (Nat.eqb_spec (length ms) (m_size c + length ms)); [lia|]. unfold at_.
      replace (nth_error (map (ser P) ms) (length ms)) with (@None bytes); [reflexivity|].
      symmetry. apply nth_error_None. rewrite map_length. lia.
  Qed.

  Lemma write_load : forall ops c l, mc_run ops mc_new = Ok (l, c) -> (forall m, In m (collected ops) -> fits P m = true) ->
    mc_load P (mc_write P c) mc_new = mkMc (map (ser P) (collected ops)) (length (collected ops)) 0.
  Proof.
    intros ops c l E HF. destruct (mc_runs ops [] mc_new 0 mc_new_at) as (c' & pos & E' & (A1 & A2 & _)).
    rewrite E in E'. injection E' as _ <-. simpl in A1, A2.
    assert (W : mc_write P c = fc_written P (collected ops)).
    { unfold mc_write, fc_written. rewrite A1. clear -law. induction (collected ops) as [|m r IH]; simpl; [reflexivity|].
      rewrite law, IH. reflexivity. }
    rewrite W, (load_eq _ (filter (fits P) (collected ops))) by (apply written_yields; auto).
    replace (filter (fits P) (collected ops)) with (collected ops); [reflexivity|].
    clear -HF. induction (collected ops) as [|m r IH]; simpl; auto. rewrite (HF m (or_introl eq_refl)), <- IH; auto.
    intros; apply HF; right; auto.
  Qed.

  (** ** Python reader *)
  Lemma py_go_prefix : forall a b fuel, (forall m, In m a -> fits P m = true) -> length (fc_written P a ++ b) < fuel ->
    exists fuel', length b < fuel' /\
    py_go P fuel (fc_written P a ++ b) = (ms <- py_go P fuel' b ;; Ok (a ++ ms)).
  Proof.
    induction a as [|m a IH]; intros b fuel HF Hf.
    - simpl in *. exists fuel. split; auto. destruct (py_go P fuel b); reflexivity.
    - assert (Fm : fits P m = true) by (apply HF; left; auto).
      destruct fuel as [|f]; [lia|]. pose proof (delim_pos P m Fm) as Dp.
      cbn [fc_written flat_map] in *. rewrite <- app_assoc in *.
      assert (E : delim P m ++ fc_written P a ++ b = varint (N.of_nat (length (ser P m))) ++ ser P m ++ fc_written P a ++ b)
        by (unfold delim; rewrite Fm, <- app_assoc; reflexivity).
      change (flat_map (delim P) a) with (fc_written P a) in *.
      cbn [py_go]. destruct (delim P m ++ fc_written P a ++ b) as [|x y] eqn:Ex.
      { exfalso. apply (f_equal (@length _)) in Ex. rewrite app_length in Ex. simpl in Ex. lia. }
      rewrite E, read_varint_enc by (apply N.ltb_lt; exact Fm). rewrite Nnat.Nat2N.id.
      rewrite firstn_app, Nat.sub_diag, firstn_all, firstn_O, app_nil_r, law.
      rewrite skipn_app, Nat.sub_diag, skipn_all. cbn [app skipn].
      destruct (IH b f) as (f' & L' & E'); [intros; apply HF; right; auto| |].
      { rewrite <- Ex in Hf. rewrite app_length in Hf. lia. }
      exists f'. split; auto. rewrite E'. destruct (py_go P f' b); reflexivity.
  Qed.

  Lemma python_reads : forall ms, py_read P (fc_written P ms) = Ok (filter (fits P) ms).
  Proof.
    intros ms. rewrite written_fits. set (l := filter (fits P) ms). unfold py_read.
    destruct (py_go_prefix l [] (S (length (fc_written P l)))) as (f & L & E).
    - intros m Hm. apply filter_In in Hm. tauto.
    - rewrite app_nil_r. lia.
    - rewrite app_nil_r in E. rewrite E. destruct f; [simpl in L; lia|]. simpl. rewrite app_nil_r. reflexivity.
  Qed.

  Lemma python_cut : forall ms k j m, (forall m, In m ms -> fits P m = true) -> whole_within P ms k j -> nth_error ms j = Some m ->
    let r := k - length (fc_written P (firstn j ms)) in
    let v := length (varint (N.of_nat (length (ser P m)))) in
    py_read P (firstn k (fc_written P ms)) =
      if r =? 0 then Ok (firstn j ms)
      else if r <? v then Throw "IndexError"
      else match parse P (firstn (r - v) (ser P m)) with
           | Some m' => Ok (firstn j ms ++ [m'])
           | None => Ok (firstn j ms)
           end.
  Proof.
    intros ms k j m HF (J1 & J2 & J3) Hm r v.
    assert (Fm : fits P m = true) by (apply HF; eapply nth_error_In; eauto).
    assert (Hj : j < length ms) by (apply nth_error_Some; congruence). specialize (J3 Hj).
    assert (ES : firstn (S j) ms = firstn j ms ++ [m]).
    { clear -Hm. revert j Hm. induction ms as [|x l IH]; intros [|j] H; simpl in *; try discriminate.
      - injection H as ->. destruct l; reflexivity.
      - f_equal. apply IH; auto. }
    assert (EW : fc_written P (firstn (S j) ms) = fc_written P (firstn j ms) ++ delim P m).
    { rewrite ES. unfold fc_written. rewrite flat_map_app. simpl. rewrite app_nil_r. reflexivity. }
    assert (EM : exists t, fc_written P ms = fc_written P (firstn j ms) ++ delim P m ++ t).
    { exists (fc_written P (skipn (S j) ms)). rewrite <- (firstn_skipn (S j) ms) at 1. unfold fc_written at 1.
      rewrite flat_map_app. fold (fc_written P (firstn (S j) ms)). rewrite EW, <- app_assoc. reflexivity. }
    destruct EM as (t & EM). rewrite EW, app_length in J3. fold r.
    assert (EC : firstn k (fc_written P ms) = fc_written P (firstn j ms) ++ firstn r (delim P m)).
    { rewrite EM, firstn_app, firstn_all2 by lia. f_equal. fold r. rewrite firstn_app.
      replace (r - length (delim P m)) with 0 by lia. rewrite firstn_O, app_nil_r. reflexivity. }
    rewrite EC. unfold py_read.
    destruct (py_go_prefix (firstn j ms) (firstn r (delim P m)) (S (length (fc_written P (firstn j ms) ++ firstn r (delim P m))))) as (f & L & E).
    { intros x Hx. apply HF. rewrite <- (firstn_skipn j ms). apply in_or_app. auto. }
    { lia. }
    rewrite E. clear E EC. assert (Er : length (firstn r (delim P m)) = r) by (rewrite firstn_length; lia). rewrite Er in L.
    destruct f as [|f]; [lia|]. cbn [py_go].
    destruct (Nat.eqb_spec r 0) as [R0|R0].
    { rewrite R0. simpl. rewrite app_nil_r. reflexivity. }
    destruct (firstn r (delim P m)) as [|x y] eqn:Ex; [simpl in Er; lia|]. rewrite <- Ex. clear Er Ex x y.
    unfold delim. rewrite Fm.
    destruct (Nat.ltb_spec r v) as [Lv|Lv].
    - rewrite firstn_app. fold v. replace (r - v) with 0 by lia. rewrite firstn_O, app_nil_r.
      unfold read_varint. unfold varint at 1. rewrite dec_cut; [reflexivity|exact Lv].
    - rewrite firstn_app. fold v. rewrite firstn_all2 by (fold v; lia). rewrite read_varint_enc by (apply N.ltb_lt; exact Fm).
      rewrite Nnat.Nat2N.id.
      assert (Lb : length (firstn (r - v) (ser P m)) <= length (ser P m)) by (rewrite firstn_length; lia).
      rewrite (firstn_all2 (n := length (ser P m))) by exact Lb. rewrite (skipn_all2 (n := length (ser P m))) by exact Lb.
      destruct (parse P (firstn (r - v) (ser P m))) as [m'|]; [|simpl; rewrite app_nil_r; reflexivity].
      destruct f; simpl; reflexivity.
  Qed.
End MemC.

(** ** Descriptors *)
Lemma fd_own : forall s fresh, ~ In fresh (fds s) -> ~ In (fd_member s) (fds s) ->
  fds (fd_finish (fd_start fresh s)) = fds s.
Proof.
  intros s fresh H1 H2. unfold fd_finish, fd_start. cbn [fd_write fd_out fd_member fds].
  assert (K : forall x l, ~ In x l -> fd_close x l = l).
  { intros x l. induction l as [|y l IH]; intros H; simpl; auto. destruct (Nat.eqb_spec y x) as [E|E]; simpl.
    - exfalso. apply H. left; auto.
    - rewrite IH; auto. intros Hx. apply H. right; auto. }
  unfold fd_close at 2. cbn [filter]. rewrite Nat.eqb_refl. cbn [negb]. fold (fd_close fresh (fds s)). rewrite (K fresh), (K (fd_member s)); auto.
Qed.
