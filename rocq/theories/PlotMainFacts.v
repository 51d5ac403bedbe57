(** * The plotting program: what it reads and writes. *)
From Coq Require Import String Ascii.
From Coq Require Import List Bool Arith ZArith Reals Lia.
From Verif Require Import Base Args ArgsFacts Main Launch LaunchFacts LaunchMore Plots PlotMain.
Import ListNotations.
Local Open Scope string_scope.

(** ** The parser keeps names and defaults *)
Definition arg_sig (a : argument) := (a_names a, a_default a).

Lemma consume_shape : forall a r a' r', consume a r = Parsed (a', r') -> arg_sig a' = arg_sig a.
Proof.
  intros a r a' r'; unfold consume. destruct (a_used a); [discriminate|]. destruct (a_exits a); [discriminate|].
  destruct r as [|v r].
  - destruct (a_default a) eqn:E; intro H; [|discriminate]. injection H as <- <-. unfold arg_sig. cbn. now rewrite ?E.
  - destruct (negb (is_positional v)); intro H; [discriminate|]. injection H as <- <-. reflexivity.
Qed.
Lemma upd_shape : forall st i a a', nth_error st i = Some a -> arg_sig a' = arg_sig a -> map arg_sig (upd st i a') = map arg_sig st.
Proof.
  induction st as [|b st IH]; intros [|i] a a' H E; cbn in *; trivial.
  - injection H as ->. now rewrite E.
  - f_equal. eapply IH; eauto.
Qed.
Lemma use_shape : forall st i r st' r', use_arg st i r = Parsed (st', r') -> map arg_sig st' = map arg_sig st.
Proof.
  intros st i r st' r' H. unfold use_arg in H. destruct (nth_error st i) as [a|] eqn:E; [|discriminate].
  destruct (consume a r) as [[a' r1]| |] eqn:C; try discriminate. injection H as <- <-.
  apply (upd_shape _ _ _ _ E). exact (consume_shape _ _ _ _ C).
Qed.
Lemma compound_shape : forall cs st r st' r', compound cs st r = Parsed (st', r') -> map arg_sig st' = map arg_sig st.
Proof.
  induction cs as [|c cs IH]; cbn; intros st r st' r' H; [now injection H as <- <-|].
  destruct (find_arg _ st); [|discriminate]. destruct (use_arg st n r) as [[s1 r1]| |] eqn:U; try discriminate.
  rewrite (IH _ _ _ _ H). exact (use_shape _ _ _ _ _ U).
Qed.
Lemma parse_loop_shape : forall f st w st', parse_loop f st w = Parsed st' -> map arg_sig st' = map arg_sig st.
Proof.
  induction f as [|f IH]; intros st w st' H; destruct w as [|x w]; cbn [parse_loop] in H; try (now injection H as <-); try discriminate.
  destruct (is_positional x); [discriminate|]. destruct (find_arg x st).
  - destruct (use_arg st n w) as [[s1 r1]| |] eqn:U; try discriminate. rewrite (IH _ _ _ H). exact (use_shape _ _ _ _ _ U).
  - destruct x as [|c x]; [discriminate|]. destruct c as [[] [] [] [] [] [] [] []]; try discriminate.
    destruct x as [|c t]; [discriminate|]. destruct (c =? "-")%char; [discriminate|].
    destruct (compound (String c t) st w) as [[s1 r1]| |] eqn:U; try discriminate. rewrite (IH _ _ _ H). exact (compound_shape _ _ _ _ _ U).
Qed.
Lemma parse_shape : forall st w st', parse_args st w = Parsed st' -> map arg_sig st' = map arg_sig st.
Proof.
  intros st w st' H. unfold parse_args in H. destruct (parse_loop (length w) st w) as [s| |] eqn:E; try discriminate.
  destruct (forallb valid s); [|discriminate]. injection H as <-. exact (parse_loop_shape _ _ _ _ E).
Qed.
Lemma find_shape : forall n st st', map arg_sig st' = map arg_sig st -> find_arg n st' = find_arg n st.
Proof.
  induction st as [|a st IH]; destruct st' as [|a' st']; cbn; intro H; try discriminate; trivial.
  assert (E : a_names a' = a_names a) by (unfold arg_sig in H; now injection H). assert (H2 : map arg_sig st' = map arg_sig st) by (unfold arg_sig in H; now injection H).
  unfold has_name. rewrite E. now rewrite (IH st' H2).
Qed.
Lemma nth_shape : forall st st' i a, map arg_sig st' = map arg_sig st -> nth_error st i = Some a ->
  exists a', nth_error st' i = Some a' /\ a_default a' = a_default a.
Proof.
  intros st st' i a H E. assert (K : nth_error (map arg_sig st') i = Some (arg_sig a)) by now rewrite H, nth_error_map, E.
  rewrite nth_error_map in K. destruct (nth_error st' i) as [a'|]; [|discriminate]. exists a'. split; trivial. unfold arg_sig in K. now injection K.
Qed.

Definition plot_names : list string :=
  ["--grid-file"; "--dens-file"; "--n-cl-file"; "--dens-plot"; "--n-cl-trace-plot"; "--n-cl-bar-plot"].

Lemma plot_get : forall w st n, parse_args plot_options w = Parsed st -> In n plot_names -> exists v, get st n = Ok v.
Proof.
  intros w st n H I. apply parse_shape in H.
  assert (D : exists i a, find_arg n plot_options = Some i /\ nth_error plot_options i = Some a /\ a_default a = Some (AStr EMPTYSTR)).
  { repeat (destruct I as [<-|I]; [do 2 eexists; repeat split; reflexivity|]). contradiction. }
  destruct D as (i & a & F & E & Da). destruct (nth_shape _ _ _ _ H E) as (a' & E' & D').
  unfold get. rewrite (find_shape n _ _ H), F, E'. unfold get_string. rewrite D', Da. destruct (a_values a'); eauto.
Qed.

(** ** Pairs of options and values *)
Definition plot_pairs (kv : list (string * string)) : Prop :=
  NoDup (map fst kv) /\ incl (map fst kv) plot_names /\ Forall (fun p => plain (snd p)) kv.
(* the value of an option: what is given, or the two quotes *)
Definition given (kv : list (string * string)) (n : string) : string :=
  match find (fun p => n =? fst p) kv with Some p => snd p | None => EMPTYSTR end.

Lemma plot_pos : forall k, In k plot_names -> exists i a,
  find_arg k plot_options = Some i /\ nth_error plot_options i = Some a /\ a_names a = [k] /\
  a_exits a = false /\ a_values a = [] /\ a_used a = false /\ a_required a = false /\ a_default a = Some (AStr EMPTYSTR) /\
  is_positional k = false /\
  (forall j b, nth_error plot_options j = Some b -> has_name k b = true -> j = i).
Proof.
  intros k H.
  assert (D : forall k0, In k0 plot_names -> forall i, find_arg k0 plot_options = Some i ->
    forall j b, nth_error plot_options j = Some b -> has_name k0 b = true -> j = i).
  { intros k0 H0 i Hi j b Hj Hb.
    do 8 (destruct j as [|j]; [cbn in Hj; injection Hj as <-; cbn in Hb;
      repeat (rewrite orb_false_r in Hb);
      try (apply orb_true_iff in Hb; destruct Hb as [Hb|Hb]);
      apply String.eqb_eq in Hb; subst k0; cbn in Hi; injection Hi as <-; reflexivity |]).
    destruct j; discriminate Hj. }
  repeat (destruct H as [<- | H];
    [ eexists; eexists; do 9 (split; [reflexivity|]); apply D; [cbn; tauto | reflexivity] | ]).
  contradiction.
Qed.
Definition pgo (kv : list (string * string)) (w : list string) : parsed (list argument) :=
  parse_loop (length w) (map (fill kv) plot_options) w.
Lemma pgo_pair : forall kv k v w, In k plot_names -> fresh k kv -> is_positional v = true ->
  pgo kv (k :: v :: w) = pgo (kv ++ [(k, v)]) w.
Proof.
  intros kv k v w Hk Fr Hv.
  destruct (plot_pos _ Hk) as (i & a & Hi & Ha & En & Ex & Va & Us & _ & _ & Po & Un).
  unfold pgo. cbn [length parse_loop]. rewrite Po, find_fill, Hi.
  unfold use_arg. rewrite nth_error_map, Ha. cbn [option_map].
  rewrite (fill_fresh kv a k En Fr), consume_value by trivial.
  change (parse_loop (S (length w)) (upd (map (fill kv) plot_options) i (filled a v)) w
    = parse_loop (length w) (map (fill (kv ++ [(k, v)])) plot_options) w).
  rewrite (upd_fill k v kv plot_options i a); trivial.
  - apply parse_fuel; lia.
  - unfold has_name; rewrite En; cbn; now rewrite String.eqb_refl.
  - exact (fill_fresh kv a k En Fr).
Qed.
Lemma pgo_pairs : forall kv2 kv1 w, NoDup (map fst (kv1 ++ kv2)) -> incl (map fst kv2) plot_names ->
  Forall (fun p => is_positional (snd p) = true) kv2 ->
  pgo kv1 (flat kv2 ++ w)%list = pgo (kv1 ++ kv2) w.
Proof.
  induction kv2 as [|[k v] kv2 IH]; intros kv1 w ND In1 Fv.
  - cbn. now rewrite app_nil_r.
  - cbn [flat flat_map app fst snd]. inversion Fv; subst.
    assert (Fr : fresh k kv1).
    { intro H. rewrite map_app in ND. apply NoDup_remove_2 in ND. apply ND. apply in_or_app; now left. }
    rewrite pgo_pair; trivial; [| apply In1; now left].
    replace (kv1 ++ (k, v) :: kv2)%list with ((kv1 ++ [(k, v)]) ++ kv2)%list in * by now rewrite <- app_assoc.
    apply IH; trivial. intros x Hx; apply In1; now right.
Qed.
Lemma valid_given : forall kv a, In a plot_options -> valid (fill kv a) = true.
Proof.
  intros kv a H. unfold fill. destruct (find _ kv) as [p|].
  - repeat (destruct H as [<-|H]; [reflexivity|]). contradiction.
  - repeat (destruct H as [<-|H]; [reflexivity|]). contradiction.
Qed.
Lemma plot_parse : forall kv, plot_pairs kv -> exists st, parse_args plot_options (flat kv) = Parsed st /\
  forall n, In n plot_names -> get st n = Ok (given kv n).
Proof.
  intros kv (ND & I & F). exists (map (fill kv) plot_options). split.
  - unfold parse_args. pose proof (pgo_pairs kv [] [] ND I) as G. rewrite app_nil_r in G. unfold pgo in G.
    change (map (fill []) plot_options) with plot_options in G. rewrite G.
    + cbn [length parse_loop app]. replace (forallb valid (map (fill kv) plot_options)) with true; [reflexivity|].
      symmetry. apply forallb_forall. intros b Hb. apply in_map_iff in Hb as (a & <- & Ia). now apply valid_given.
    + eapply Forall_impl; [|exact F]. intros; now apply plain_positional.
  - intros n Hn. destruct (plot_pos _ Hn) as (i & a & Hi & Ha & En & Ex & Va & Us & Rq & De & Po & Un).
    unfold get. rewrite find_fill, Hi, nth_error_map, Ha. cbn [option_map]. unfold given.
    destruct (find (fun p => n =? fst p) kv) as [[n' v]|] eqn:Fd.
    + apply find_some in Fd as [Ip E]. cbn in E. apply String.eqb_eq in E. subst n'.
      rewrite (fill_In kv a n v ND En Ip). unfold get_string, filled; cbn. now rewrite Va.
    + rewrite (fill_fresh kv a n En).
      * unfold get_string. now rewrite Va, De.
      * intro C. apply in_map_iff in C as (p & E & Ip). pose proof (find_none _ _ Fd p Ip) as Q. cbn in Q.
        rewrite E, String.eqb_refl in Q. discriminate.
Qed.

(** ** Files *)
Section Facts.
  Variable writable : string -> bool.
  Variable read_text : string -> res rmat.
  Variable render : drawing -> string.
  Local Notation trace := (do_trace writable read_text render).
  Local Notation bars := (do_bars writable read_text render).
  Local Notation dens := (do_dens writable read_text render).
  Local Notation body := (plot_body writable read_text render).
  Local Notation main := (plot_program writable read_text render).
  Local Notation holds := (holds rmat read_text).

  (* the plots that are asked for together with their data *)
  Definition wanted (fn ft fb fg fd fp : string) : list string :=
    ((if negb (fn =? EMPTYSTR) && negb (ft =? EMPTYSTR) then [ft] else []) ++
    (if negb (fn =? EMPTYSTR) && negb (fb =? EMPTYSTR) then [fb] else []) ++
    (if negb (fg =? EMPTYSTR) && negb (fd =? EMPTYSTR) && negb (fp =? EMPTYSTR) then [fp] else []))%list.

  Lemma keeps_trace : forall g fn ft, (fn <> EMPTYSTR -> ft <> EMPTYSTR -> ft <> g) -> keeps g (trace fn ft).
  Proof.
    intros g fn ft H. unfold do_trace. destruct (fn =? EMPTYSTR) eqn:E1; [apply keeps_ret|]. destruct (ft =? EMPTYSTR) eqn:E2; [apply keeps_ret|].
    apply String.eqb_neq in E1, E2. cbn [negb andb]. apply keeps_bind; [apply keeps_check; auto|]. intros _.
    apply keeps_bind; [apply keeps_read|]. intro m. apply keeps_write; auto.
  Qed.
  Lemma keeps_bars : forall g fn ft, (fn <> EMPTYSTR -> ft <> EMPTYSTR -> ft <> g) -> keeps g (bars fn ft).
  Proof.
    intros g fn ft H. unfold do_bars. destruct (fn =? EMPTYSTR) eqn:E1; [apply keeps_ret|]. destruct (ft =? EMPTYSTR) eqn:E2; [apply keeps_ret|].
    apply String.eqb_neq in E1, E2. cbn [negb andb]. apply keeps_bind; [apply keeps_check; auto|]. intros _.
    apply keeps_bind; [apply keeps_read|]. intro m. apply keeps_bind; [apply keeps_lift|]. intro d. apply keeps_write; auto.
  Qed.
  Lemma keeps_dens : forall g fg fd fp, (fg <> EMPTYSTR -> fd <> EMPTYSTR -> fp <> EMPTYSTR -> fp <> g) -> keeps g (dens fg fd fp).
  Proof.
    intros g fg fd fp H. unfold do_dens. destruct (fg =? EMPTYSTR) eqn:E1; [apply keeps_ret|]. destruct (fd =? EMPTYSTR) eqn:E2; [apply keeps_ret|].
    destruct (fp =? EMPTYSTR) eqn:E3; [apply keeps_ret|].
    apply String.eqb_neq in E1, E2, E3. cbn [negb andb]. apply keeps_bind; [apply keeps_check; auto|]. intros _.
    apply keeps_bind; [apply keeps_read|]. intro m. apply keeps_bind; [apply keeps_read|]. intro m2. apply keeps_bind; [apply keeps_lift|].
    intros [d|]; [apply keeps_write; auto|apply keeps_ret].
  Qed.

  Lemma plot_frame : forall words fs g,
    (forall st fn ft fb fg fd fp, parse_args plot_options words = Parsed st ->
       get st "--n-cl-file" = Ok fn -> get st "--n-cl-trace-plot" = Ok ft -> get st "--n-cl-bar-plot" = Ok fb ->
       get st "--grid-file" = Ok fg -> get st "--dens-file" = Ok fd -> get st "--dens-plot" = Ok fp ->
       ~ In g (wanted fn ft fb fg fd fp)) ->
    fst (main words fs) g = fs g.
  Proof.
    intros words fs g H. unfold plot_program. destruct (parse_args plot_options words) as [st| |] eqn:E; trivial.
    assert (G : forall n, In n plot_names -> exists v, get st n = Ok v) by (intros n I; exact (plot_get _ _ n E I)).
    destruct (G "--n-cl-file") as (fn & E1); [cbn; tauto|]. destruct (G "--n-cl-trace-plot") as (ft & E2); [cbn; tauto|].
    destruct (G "--n-cl-bar-plot") as (fb & E3); [cbn; tauto|]. destruct (G "--grid-file") as (fg & E4); [cbn; tauto|].
    destruct (G "--dens-file") as (fd & E5); [cbn; tauto|]. destruct (G "--dens-plot") as (fp & E6); [cbn; tauto|].
    specialize (H st fn ft fb fg fd fp eq_refl E1 E2 E3 E4 E5 E6).
    assert (K : keeps g (body st)).
    { unfold plot_body. rewrite E1, E2, E3, E4, E5, E6. unfold wanted in H.
      assert (H1 := fun x => H (in_or_app _ _ _ (or_introl x))). assert (H23 := fun x => H (in_or_app _ _ _ (or_intror x))).
      assert (H2 := fun x => H23 (in_or_app _ _ _ (or_introl x))). assert (H3 := fun x => H23 (in_or_app _ _ _ (or_intror x))).
      clear H H23.
      do 3 (apply keeps_lift_bind; intros ? [= <-]).
      apply keeps_bind; [apply keeps_trace|intros _; apply keeps_bind; [apply keeps_bars|intros _]].
      - intros N1 N2 ->. apply String.eqb_neq in N1, N2. rewrite N1, N2 in H1. apply H1. now left.
      - intros N1 N2 ->. apply String.eqb_neq in N1, N2. rewrite N1, N2 in H2. apply H2. now left.
      - do 3 (apply keeps_lift_bind; intros ? [= <-]). apply keeps_dens.
        intros N1 N2 N3 ->. apply String.eqb_neq in N1, N2, N3. rewrite N1, N2, N3 in H3. apply H3. now left. }
    specialize (K fs). destruct (body st fs) as [fs' r]. destruct r; exact K.
  Qed.

  Lemma trace_Ok : forall fn ft fs fs' x, trace fn ft fs = (fs', Ok x) ->
    (fn = EMPTYSTR \/ ft = EMPTYSTR) /\ fs' = fs \/
    fn <> EMPTYSTR /\ ft <> EMPTYSTR /\ exists m, holds (put fs ft "") fn m /\ fs' = put (put fs ft "") ft (render (plot_trace m)).
  Proof.
    intros fn ft fs fs' x H. unfold do_trace in H.
    destruct (fn =? EMPTYSTR) eqn:E1; [apply String.eqb_eq in E1; injection H as <- _; left; tauto|].
    destruct (ft =? EMPTYSTR) eqn:E2; [apply String.eqb_eq in E2; injection H as <- _; left; tauto|].
    right. apply String.eqb_neq in E1, E2. split; [exact E1|]. split; [exact E2|]. cbn [negb andb] in H.
    apply bind_Ok in H as (f1 & u & H1 & H). unfold check_file_is_writeable in H1. destruct (writable ft) eqn:W; [|discriminate].
    injection H1 as <- _. apply bind_Ok in H as (f2 & m & H2 & H). apply read_matrix_Ok in H2 as [-> Hm].
    exists m. split; [exact Hm|]. exact (write_Ok writable _ _ _ _ _ H W).
  Qed.
  Lemma bars_Ok : forall fn ft fs fs' x, bars fn ft fs = (fs', Ok x) ->
    (fn = EMPTYSTR \/ ft = EMPTYSTR) /\ fs' = fs \/
    fn <> EMPTYSTR /\ ft <> EMPTYSTR /\ exists m d, holds (put fs ft "") fn m /\ plot_bars m = Ok d /\ fs' = put (put fs ft "") ft (render d).
  Proof.
    intros fn ft fs fs' x H. unfold do_bars in H.
    destruct (fn =? EMPTYSTR) eqn:E1; [apply String.eqb_eq in E1; injection H as <- _; left; tauto|].
    destruct (ft =? EMPTYSTR) eqn:E2; [apply String.eqb_eq in E2; injection H as <- _; left; tauto|].
    right. apply String.eqb_neq in E1, E2. split; [exact E1|]. split; [exact E2|]. cbn [negb andb] in H.
    apply bind_Ok in H as (f1 & u & H1 & H). unfold check_file_is_writeable in H1. destruct (writable ft) eqn:W; [|discriminate].
    injection H1 as <- _. apply bind_Ok in H as (f2 & m & H2 & H). apply read_matrix_Ok in H2 as [-> Hm].
    apply lift_Ok in H as (d & Hd & H). exists m, d. split; [exact Hm|]. split; [exact Hd|]. exact (write_Ok writable _ _ _ _ _ H W).
  Qed.
  Lemma dens_Ok : forall fg fd fp fs fs' x, dens fg fd fp fs = (fs', Ok x) ->
    (fg = EMPTYSTR \/ fd = EMPTYSTR \/ fp = EMPTYSTR) /\ fs' = fs \/
    fg <> EMPTYSTR /\ fd <> EMPTYSTR /\ fp <> EMPTYSTR /\ exists g d o, holds (put fs fp "") fg g /\ holds (put fs fp "") fd d /\
      plot_dens g d = Ok o /\ fs' = match o with Some d => put (put fs fp "") fp (render d) | None => put fs fp "" end.
  Proof.
    intros fg fd fp fs fs' x H. unfold do_dens in H.
    destruct (fg =? EMPTYSTR) eqn:E1; [apply String.eqb_eq in E1; injection H as <- _; left; tauto|].
    destruct (fd =? EMPTYSTR) eqn:E2; [apply String.eqb_eq in E2; injection H as <- _; left; tauto|].
    destruct (fp =? EMPTYSTR) eqn:E3; [apply String.eqb_eq in E3; injection H as <- _; left; tauto|].
    right. apply String.eqb_neq in E1, E2, E3. split; [exact E1|]. split; [exact E2|]. split; [exact E3|]. cbn [negb andb] in H.
    apply bind_Ok in H as (f1 & u & H1 & H). unfold check_file_is_writeable in H1. destruct (writable fp) eqn:W; [|discriminate].
    injection H1 as <- _. apply bind_Ok in H as (f2 & g & H2 & H). apply read_matrix_Ok in H2 as [-> Hg].
    apply bind_Ok in H as (f2 & d & H2 & H). apply read_matrix_Ok in H2 as [-> Hd].
    apply lift_Ok in H as (o & Ho & H). exists g, d, o. split; [exact Hg|]. split; [exact Hd|]. split; [exact Ho|].
    destruct o as [o|]; [exact (write_Ok writable _ _ _ _ _ H W)|now injection H as <- _].
  Qed.
End Facts.
