(** * A successful run of the main program, failures, and the wrappers end to end. *)
From Coq Require Import String Ascii.
From Coq Require Import List Bool Arith Lia.
From Verif Require Import Base Args ArgsFacts Main MainFacts Launch LaunchFacts.
Import ListNotations.
Local Open Scope string_scope.

Ltac pick := solve [repeat (first [left; reflexivity | right])].

Definition outs : list (string * string) :=
  [("memory", "--coll-name"); (EMPTYSTR, "--dens-file"); (EMPTYSTR, "--n-cl-file");
   (EMPTYSTR, "--clus-file"); (EMPTYSTR, "--best-clus-file")].

Lemma NoDup_flat : forall A B (f : A -> list B) l i j p q x y, NoDup (flat_map f l) -> i <> j ->
  nth_error l i = Some p -> nth_error l j = Some q -> In x (f p) -> In y (f q) -> x <> y.
Proof.
  intros A B f. induction l as [|a l IH]; intros i j p q x y ND N Hi Hj Hx Hy.
  - destruct i; discriminate.
  - cbn in ND. destruct i as [|i], j as [|j]; cbn in Hi, Hj.
    + congruence.
    + injection Hi as ->. intros ->. assert (In y (flat_map f l)) as Iy by (apply in_flat_map; exists q; split; [exact (nth_error_In _ _ Hj)|trivial]).
      clear -ND Hx Iy. induction (f p) as [|b r IHr]; [contradiction|]. cbn in ND. apply NoDup_cons_iff in ND as [N1 N2].
      destruct Hx as [->|Hx]; [apply N1, in_or_app; now right|auto].
    + injection Hj as ->. intros ->.
      assert (In y (flat_map f l)) as Iy by (apply in_flat_map; exists p; split; [exact (nth_error_In _ _ Hi)|trivial]).
      clear -ND Hy Iy. induction (f q) as [|b r IHr]; [contradiction|]. cbn in ND. apply NoDup_cons_iff in ND as [N1 N2].
      destruct Hy as [->|Hy]; [apply N1, in_or_app; now right|auto].
    + apply (IH i j p q); trivial; try lia. clear -ND. induction (f a) as [|b r IHr]; [trivial|]. cbn in ND.
      apply NoDup_cons_iff in ND as [_ ND]. auto.
Qed.

Section Success.
  Variable writable : string -> bool.
  Variables O M T : Type.
  Variable read_text : string -> res T.
  Variable build : option string -> string -> option string -> string -> option string -> res O.
  Variables hdep mdep : O -> bool.
  Variable n_rows : T -> nat.
  Variable sample : O -> T -> option T -> option T -> res (list M).
  Variable encode : list M -> string.
  Variable decode : string -> res (list M).
  Variable left_over : string.
  Variable eval : O -> list M -> T -> option T -> option T -> res T.
  Variable show : T -> string.
  Variable show_int : list (list nat) -> string.
  Variable allocs : M -> list nat.
  Variable nclus : M -> nat.
  Variable blank : M.
  Variable estimate : list (list nat) -> res (list nat).

  Notation main := (main_program writable O M T read_text build hdep mdep n_rows sample encode decode
    left_over eval show show_int allocs nclus blank estimate).
  Notation body := (main_body writable O M T read_text build hdep mdep n_rows sample encode decode
    left_over eval show show_int allocs nclus blank estimate).

  (* the file [f] holds a readable matrix *)
  Definition holds (fs : files) (f : string) (m : T) : Prop :=
    exists c, fs f = Some c /\ read_text c = Ok m.
  (* the covariates named by option [n], if the object depends on them *)
  Definition covariates (fs : files) (st : list argument) (b : bool) (n : string) (r : option T) : Prop :=
    if b then exists f m, get st n = Ok f /\ holds fs f m /\ r = Some m else r = None.

  Definition input_names : list string :=
    ["--algo-params-file"; "--hier-args"; "--mix-args"; "--data-file"; "--grid-file";
     "--hier-cov-file"; "--hier-grid-cov-file"; "--mix-cov-file"; "--mix-grid-cov-file"].

  (* no file is both read and written, or written twice *)
  Definition separate (st : list argument) : Prop :=
    NoDup (requested st) /\
    (forall n f, In n input_names -> get st n = Ok f -> ~ In f (requested st)).

  Lemma read_matrix_Ok : forall f fs fs' m, read_matrix T read_text f fs = (fs', Ok m) ->
    fs' = fs /\ holds fs f m.
  Proof.
    intros f fs fs' m H. unfold read_matrix in H. destruct (fs f) as [c|] eqn:E; [|discriminate].
    injection H as <- R. split; trivial. exists c; auto.
  Qed.

  Lemma read_if_Ok : forall b st n fs fs' r, read_if T read_text b st n fs = (fs', Ok r) ->
    fs' = fs /\ covariates fs st b n r.
  Proof.
    intros [] st n fs fs' r H; unfold read_if in H.
    - apply lift_Ok in H as (f & E & H). apply bind_Ok in H as (f1 & m & H1 & H2).
      apply read_matrix_Ok in H1 as [-> Hm]. injection H2 as <- <-. split; trivial. cbn; eauto.
    - injection H as <- <-. now split.
  Qed.

  Lemma collected_Ok : forall st chain fs fs' l, collected M decode st chain fs = (fs', Ok l) ->
    fs' = fs /\ exists coll, get st "--coll-name" = Ok coll /\
      ((coll = "memory" /\ l = chain) \/ (coll <> "memory" /\ exists c, fs coll = Some c /\ decode c = Ok l)).
  Proof.
    intros st chain fs fs' l H. unfold collected in H. apply lift_Ok in H as (coll & E & H).
    destruct (coll =? "memory") eqn:Ec.
    - injection H as <- <-. split; trivial. exists coll. split; trivial. left. apply String.eqb_eq in Ec. now split.
    - destruct (fs coll) as [c|] eqn:F; [|discriminate]. injection H as <- D. split; trivial.
      exists coll. split; trivial. right. apply String.eqb_neq in Ec. eauto.
  Qed.

  Lemma out_row_Ok : forall n m r, out_row M allocs nclus blank n (Some m) = Ok r ->
    n <= length (allocs m) /\ r = (firstn n (allocs m), nclus m).
  Proof.
    intros n m r H. unfold out_row in H.
    destruct (le_lt_dec n (length (allocs m))) as [L|L].
    - rewrite rmap_at in H by trivial. cbn in H. injection H as <-. now split.
    - rewrite rmap_short in H by (trivial; lia). discriminate.
  Qed.

  Lemma out_all_Ok : forall n l rows, out_all M allocs nclus blank n l = Ok rows ->
    (forall m, In m l -> n <= length (allocs m)) /\ rows = map (fun m => (firstn n (allocs m), nclus m)) l.
  Proof.
    unfold out_all. induction l as [|m l IH]; cbn [rmap]; intros rows H.
    - injection H as <-. split; [intros m []|reflexivity].
    - destruct (out_row M allocs nclus blank n (Some m)) as [r|s| |] eqn:E; try discriminate H. cbn [rbind] in H.
      destruct (rmap _ l) as [rs|s| |] eqn:E2; try discriminate H. cbn [rbind] in H. injection H as <-.
      destruct (IH rs eq_refl) as [I1 I2]. apply out_row_Ok in E as [E ->]. subst rs. split.
      + intros x [<-|Hx]; auto.
      + reflexivity.
  Qed.

  (* what a successful run computed and where it wrote it *)
  Definition wrote (st : list argument) (fs fs' : files) : Prop :=
    forall fa ht fh mt fm coll fd gr d fn fc fb,
    get st "--algo-params-file" = Ok fa -> get st "--hier-type" = Ok ht -> get st "--hier-args" = Ok fh ->
    get st "--mix-type" = Ok mt -> get st "--mix-args" = Ok fm -> get st "--coll-name" = Ok coll ->
    get st "--data-file" = Ok fd -> get st "--grid-file" = Ok gr -> get st "--dens-file" = Ok d ->
    get st "--n-cl-file" = Ok fn -> get st "--clus-file" = Ok fc -> get st "--best-clus-file" = Ok fb ->
    exists o data hc mc chain,
      build (fs fa) ht (fs fh) mt (fs fm) = Ok o /\ holds fs fd data /\
      covariates fs st (hdep o) "--hier-cov-file" hc /\ covariates fs st (mdep o) "--mix-cov-file" mc /\
      sample o data hc mc = Ok chain /\
      (coll <> "memory" -> fs' coll = Some (encode chain)) /\
      (d <> EMPTYSTR -> gr <> EMPTYSTR -> exists grid hg mg r,
         holds fs gr grid /\ covariates fs st (hdep o) "--hier-grid-cov-file" hg /\
         covariates fs st (mdep o) "--mix-grid-cov-file" mg /\
         eval o chain grid hg mg = Ok r /\ fs' d = Some (show r)) /\
      (d <> EMPTYSTR -> gr = EMPTYSTR -> fs' d = Some "") /\
      (fn <> EMPTYSTR -> fs' fn = Some (show_int (map (fun m => [nclus m]) chain))) /\
      (fc <> EMPTYSTR -> fs' fc = Some (show_int (map (fun m => firstn (n_rows data) (allocs m)) chain))) /\
      (fb <> EMPTYSTR -> exists b,
         estimate (map (fun m => firstn (n_rows data) (allocs m)) chain) = Ok b /\
         fs' fb = Some (show_int (map (fun x => [x]) b))).

  Lemma requested_In : forall st u n v, In (u, n)
      [("memory", "--coll-name"); (EMPTYSTR, "--dens-file"); (EMPTYSTR, "--n-cl-file");
       (EMPTYSTR, "--clus-file"); (EMPTYSTR, "--best-clus-file")] ->
    get st n = Ok v -> v <> u -> In v (requested st).
  Proof.
    intros st u n v Hp E N. unfold requested. apply in_flat_map. exists (u, n). split; trivial.
    cbn [fst snd]. rewrite E. apply String.eqb_neq in N. rewrite N. now left.
  Qed.

  Lemma write_Ok : forall f c fs fs' x, write_file writable f c fs = (fs', Ok x) -> writable f = true -> fs' = put fs f c.
  Proof. intros f c fs fs' x H W. unfold write_file in H. rewrite W in H. now injection H as <-. Qed.

  Lemma config_Ok : forall st fs fs' o data chain,
    configure_and_run writable O M T read_text build hdep mdep sample encode left_over st fs
      = (fs', Ok (o, data, chain)) ->
    exists fa ht fh mt fm coll fd hc mc,
      get st "--algo-params-file" = Ok fa /\ get st "--hier-type" = Ok ht /\ get st "--hier-args" = Ok fh /\
      get st "--mix-type" = Ok mt /\ get st "--mix-args" = Ok fm /\ get st "--coll-name" = Ok coll /\
      get st "--data-file" = Ok fd /\
      build (fs fa) ht (fs fh) mt (fs fm) = Ok o /\ holds fs fd data /\
      covariates fs st (hdep o) "--hier-cov-file" hc /\ covariates fs st (mdep o) "--mix-cov-file" mc /\
      sample o data hc mc = Ok chain /\
      ((coll = "memory" /\ fs' = fs) \/ (coll <> "memory" /\ (writable coll = true -> fs' = put fs coll (encode chain)))).
  Proof.
    intros st fs fs' o data chain H. unfold configure_and_run in H.
    apply lift_Ok in H as (fa & Ea & H). apply bind_Ok in H as (f1 & a & E1 & H). injection E1 as <- <-.
    apply lift_Ok in H as (ht & Eh & H). apply lift_Ok in H as (mt & Em & H).
    apply lift_Ok in H as (coll & Ec & H). apply lift_Ok in H as (fm & Efm & H).
    apply bind_Ok in H as (f2 & pm & E2 & H). injection E2 as <- <-.
    apply lift_Ok in H as (fh & Efh & H). apply bind_Ok in H as (f3 & ph & E3 & H). injection E3 as <- <-.
    apply lift_Ok in H as (o' & Eo & H). apply lift_Ok in H as (fd & Ed & H).
    apply bind_Ok in H as (f4 & data' & E4 & H). apply read_matrix_Ok in E4 as [-> Hd].
    apply bind_Ok in H as (f5 & hc & E5 & H). apply read_if_Ok in E5 as [-> Hh].
    apply bind_Ok in H as (f6 & mc & E6 & H). apply read_if_Ok in E6 as [-> Hm].
    destruct (sample o' data' hc mc) as [ch|s| |] eqn:Es.
    - apply bind_Ok in H as (f7 & u & E7 & H). injection H as <- <- <- <-.
      exists fa, ht, fh, mt, fm, coll, fd, hc, mc. repeat (split; trivial).
      destruct (coll =? "memory") eqn:Em'.
      + left. injection E7 as <- _. apply String.eqb_eq in Em'. now split.
      + right. apply String.eqb_neq in Em'. split; trivial. intro W. now apply write_Ok in E7.
    - apply bind_Ok in H as (f7 & u & E7 & H). apply lift_Ok in H as (x & Ex & _). discriminate.
    - apply bind_Ok in H as (f7 & u & E7 & H). apply lift_Ok in H as (x & Ex & _). discriminate.
    - apply bind_Ok in H as (f7 & u & E7 & H). apply lift_Ok in H as (x & Ex & _). discriminate.
  Qed.

  Lemma covariates_same : forall fs fs1 st b n r, In n input_names ->
    (forall f, get st n = Ok f -> fs1 f = fs f) -> covariates fs1 st b n r -> covariates fs st b n r.
  Proof.
    intros fs fs1 st [] n r Hn E H; cbn in *; trivial.
    destruct H as (f & m & Ef & (c & Hc & Hr) & ->). exists f, m. repeat split; trivial.
    exists c. rewrite <- (E f Ef). now split.
  Qed.

  Hypothesis decode_encode : forall l, decode (encode l) = Ok l.

  Lemma body_Ok : forall st fs fs' x, separate st -> body st fs = (fs', Ok x) -> wrote st fs fs'.
  Proof.
    intros st fs fs' x [ND Sep] H. unfold main_body in H.
    apply bind_Ok in H as (fs1 & u1 & Hc & H). apply (check_args_Ok writable) in Hc as ([Em1 Em2] & W & _).
    apply bind_Ok in H as (fs2 & [[o data] chain] & Hr & H).
    apply config_Ok in Hr as (fa & ht & fh & mt & fm & coll & fd & hc & mc & Ga & Gh & Gfh & Gm & Gfm & Gc & Gd
      & Bo & Hd & Ch & Cm & Sa & Wr).
    apply bind_Ok in H as (fs3 & u3 & Hde & Hcl).
    intros fa' ht' fh' mt' fm' coll' fd' gr d fn fc fb A1 A2 A3 A4 A5 A6 A7 A8 A9 A10 A11 A12.
    assert (fa' = fa) by congruence. assert (ht' = ht) by congruence. assert (fh' = fh) by congruence.
    assert (mt' = mt) by congruence. assert (fm' = fm) by congruence. assert (coll' = coll) by congruence.
    assert (fd' = fd) by congruence. subst fa' ht' fh' mt' fm' coll' fd'. clear A1 A2 A3 A4 A5 A6 A7.
    assert (Same : forall n f, In n input_names -> get st n = Ok f -> fs1 f = fs f).
    { intros n f Hn Hf. apply Em2. now apply (Sep n f Hn). }
    assert (Rc : coll <> "memory" -> In coll (requested st)).
    { intro N. apply (requested_In st "memory" "--coll-name"); trivial. pick. }
    assert (Rd : d <> EMPTYSTR -> In d (requested st)).
    { intro N. apply (requested_In st EMPTYSTR "--dens-file"); trivial. pick. }
    assert (Rn : fn <> EMPTYSTR -> In fn (requested st)).
    { intro N. apply (requested_In st EMPTYSTR "--n-cl-file"); trivial. pick. }
    assert (Rcl : fc <> EMPTYSTR -> In fc (requested st)).
    { intro N. apply (requested_In st EMPTYSTR "--clus-file"); trivial. pick. }
    assert (Rb : fb <> EMPTYSTR -> In fb (requested st)).
    { intro N. apply (requested_In st EMPTYSTR "--best-clus-file"); trivial. pick. }
    (* the requested names are distinct *)
    assert (Dis : (coll <> "memory" -> d <> EMPTYSTR -> coll <> d) /\ (coll <> "memory" -> fn <> EMPTYSTR -> coll <> fn) /\
      (coll <> "memory" -> fc <> EMPTYSTR -> coll <> fc) /\ (coll <> "memory" -> fb <> EMPTYSTR -> coll <> fb) /\
      (d <> EMPTYSTR -> fn <> EMPTYSTR -> d <> fn) /\ (d <> EMPTYSTR -> fc <> EMPTYSTR -> d <> fc) /\
      (d <> EMPTYSTR -> fb <> EMPTYSTR -> d <> fb) /\ (fn <> EMPTYSTR -> fc <> EMPTYSTR -> fn <> fc) /\
      (fn <> EMPTYSTR -> fb <> EMPTYSTR -> fn <> fb) /\ (fc <> EMPTYSTR -> fb <> EMPTYSTR -> fc <> fb)).
    { clear -ND Gc A9 A10 A11 A12.
      assert (K : forall i j u v a b x y, nth_error outs i = Some (u, a) -> nth_error outs j = Some (v, b) -> i <> j ->
        get st a = Ok x -> get st b = Ok y -> x <> u -> y <> v -> x <> y).
      { intros i j u v a b x y Hi Hj Nij Ga Gb Nx Ny. apply String.eqb_neq in Nx, Ny.
        refine (NoDup_flat _ _ _ outs i j _ _ x y ND Nij Hi Hj _ _); cbn [fst snd];
          [rewrite Ga, Nx|rewrite Gb, Ny]; now left. }
      repeat split; intros N1 N2.
      - exact (K 0 1 _ _ _ _ _ _ eq_refl eq_refl ltac:(discriminate) Gc A9 N1 N2).
      - exact (K 0 2 _ _ _ _ _ _ eq_refl eq_refl ltac:(discriminate) Gc A10 N1 N2).
      - exact (K 0 3 _ _ _ _ _ _ eq_refl eq_refl ltac:(discriminate) Gc A11 N1 N2).
      - exact (K 0 4 _ _ _ _ _ _ eq_refl eq_refl ltac:(discriminate) Gc A12 N1 N2).
      - exact (K 1 2 _ _ _ _ _ _ eq_refl eq_refl ltac:(discriminate) A9 A10 N1 N2).
      - exact (K 1 3 _ _ _ _ _ _ eq_refl eq_refl ltac:(discriminate) A9 A11 N1 N2).
      - exact (K 1 4 _ _ _ _ _ _ eq_refl eq_refl ltac:(discriminate) A9 A12 N1 N2).
      - exact (K 2 3 _ _ _ _ _ _ eq_refl eq_refl ltac:(discriminate) A10 A11 N1 N2).
      - exact (K 2 4 _ _ _ _ _ _ eq_refl eq_refl ltac:(discriminate) A10 A12 N1 N2).
      - exact (K 3 4 _ _ _ _ _ _ eq_refl eq_refl ltac:(discriminate) A11 A12 N1 N2). }
    destruct Dis as (Dcd & Dcn & Dcc & Dcb & Ddn & Ddc & Ddb & Dnc & Dnb & Dcb2).
    (* the chain file *)
    assert (F2 : (forall f, (coll = "memory" \/ f <> coll) -> fs2 f = fs1 f) /\ (coll <> "memory" -> fs2 coll = Some (encode chain))).
    { destruct Wr as [[Ec ->]|[Nc Wp]].
      - split; [trivial|contradiction].
      - rewrite (Wp (W _ (Rc Nc))). split.
        + intros f [C|N]; [contradiction|]. now apply put_other.
        + intros _. apply put_same. }
    destruct F2 as [F2a F2b].
    assert (In2 : forall n f, In n input_names -> get st n = Ok f -> fs2 f = fs f).
    { intros n f Hn Hf. rewrite F2a; [eauto|]. destruct (string_dec coll "memory") as [|N]; [now left|right].
      intros ->. apply (Sep n coll Hn Hf). now apply Rc. }
    (* density *)
    assert (D3 : (forall f, (d = EMPTYSTR \/ f <> d) -> fs3 f = fs2 f) /\
      (d <> EMPTYSTR -> gr = EMPTYSTR -> fs3 d = Some "") /\
      (d <> EMPTYSTR -> gr <> EMPTYSTR -> exists grid hg mg r,
         holds fs gr grid /\ covariates fs st (hdep o) "--hier-grid-cov-file" hg /\
         covariates fs st (mdep o) "--mix-grid-cov-file" mg /\
         eval o chain grid hg mg = Ok r /\ fs3 d = Some (show r))).
    { unfold density in Hde. apply lift_Ok in Hde as (gr' & Eg & Hde). assert (gr' = gr) by congruence. subst gr'.
      apply lift_Ok in Hde as (d' & Ed & Hde). assert (d' = d) by congruence. subst d'. clear Eg Ed.
      destruct (gr =? EMPTYSTR) eqn:Bg; cbn [negb andb] in Hde.
      - injection Hde as <- _. apply String.eqb_eq in Bg. split; [trivial|]. split; [|congruence].
        intros Nd _. rewrite F2a.
        + now apply Em1, Rd.
        + destruct (string_dec coll "memory") as [|N]; [now left|right]. apply not_eq_sym; auto.
      - apply String.eqb_neq in Bg. destruct (d =? EMPTYSTR) eqn:Bd; cbn [negb] in Hde.
        + injection Hde as <- _. apply String.eqb_eq in Bd. split; [trivial|]. split; congruence.
        + apply String.eqb_neq in Bd.
          apply bind_Ok in Hde as (g1 & grid & E1 & Hde). apply read_matrix_Ok in E1 as [-> Hg].
          apply bind_Ok in Hde as (g2 & hg & E2 & Hde). apply read_if_Ok in E2 as [-> Hhg].
          apply bind_Ok in Hde as (g3 & mg & E3 & Hde). apply read_if_Ok in E3 as [-> Hmg].
          apply bind_Ok in Hde as (g4 & sts & E4 & Hde).
          apply collected_Ok in E4 as (-> & coll2 & Gc2 & Cl). assert (coll2 = coll) by congruence. subst coll2.
          apply lift_Ok in Hde as (r & Er & Hde). apply write_Ok in Hde; [|auto]. subst fs3.
          assert (sts = chain).
          { destruct Cl as [[_ ->]|[Nc (c & Hc & Hdec)]]; trivial. rewrite (F2b Nc) in Hc. injection Hc as <-.
            rewrite decode_encode in Hdec. now injection Hdec. }
          subst sts. split; [|split].
          * intros f [C|N]; [contradiction|]. now apply put_other.
          * congruence.
          * intros _ _. exists grid, hg, mg, r. repeat split; trivial.
            -- destruct Hg as (c & Hc & Hrd). exists c. rewrite <- (In2 "--grid-file" gr); trivial; [now split|pick].
            -- eapply covariates_same; [| |exact Hhg]; [pick|]. intros f Hf. apply (In2 "--hier-grid-cov-file"); trivial. pick.
            -- eapply covariates_same; [| |exact Hmg]; [pick|]. intros f Hf. apply (In2 "--mix-grid-cov-file"); trivial. pick.
            -- apply put_same. }
    destruct D3 as (F3 & F3e & F3d).
    exists o, data, hc, mc, chain.
    assert (Base : build (fs fa) ht (fs fh) mt (fs fm) = Ok o /\ holds fs fd data /\
      covariates fs st (hdep o) "--hier-cov-file" hc /\ covariates fs st (mdep o) "--mix-cov-file" mc).
    { split; [|split; [|split]].
      - rewrite <- (Same "--algo-params-file" fa), <- (Same "--hier-args" fh), <- (Same "--mix-args" fm); trivial; pick.
      - destruct Hd as (c & Hc & Hrd). exists c. rewrite <- (Same "--data-file" fd); trivial; [now split|pick].
      - eapply covariates_same; [| |exact Ch]; [pick|]. intros f Hf. apply (Same "--hier-cov-file"); trivial. pick.
      - eapply covariates_same; [| |exact Cm]; [pick|]. intros f Hf. apply (Same "--mix-cov-file"); trivial. pick. }
    destruct Base as (B1 & B2 & B3 & B4). do 5 (split; [assumption|]).
    (* cluster outputs *)
    unfold clusterings in Hcl.
    apply lift_Ok in Hcl as (x1 & Ex1 & Hcl). assert (x1 = fn) by congruence. subst x1.
    apply lift_Ok in Hcl as (x2 & Ex2 & Hcl). assert (x2 = fc) by congruence. subst x2.
    apply lift_Ok in Hcl as (x3 & Ex3 & Hcl). assert (x3 = fb) by congruence. subst x3.
    clear Ex1 Ex2 Ex3.
    destruct (negb (fn =? EMPTYSTR) || negb (fc =? EMPTYSTR) || negb (fb =? EMPTYSTR)) eqn:Any.
    2:{ injection Hcl as <- _. apply orb_false_iff in Any as [Any A3]. apply orb_false_iff in Any as [A1 A2].
        apply negb_false_iff, String.eqb_eq in A1, A2, A3.
        split; [|split; [|split; [|split; [|split]]]]; try congruence.
        - intro N. rewrite F3; auto. destruct (string_dec d EMPTYSTR) as [|Nd]; [now left|right]. auto.
        - exact F3d.
        - exact F3e. }
    apply bind_Ok in Hcl as (g4 & sts & E4 & Hcl).
    apply collected_Ok in E4 as (-> & coll2 & Gc2 & Cl). assert (coll2 = coll) by congruence. subst coll2.
    assert (F3c : coll <> "memory" -> fs3 coll = Some (encode chain)).
    { intro N. rewrite F3; auto. destruct (string_dec d EMPTYSTR) as [|Nd]; [now left|right]. auto. }
    assert (sts = chain).
    { destruct Cl as [[_ ->]|[Nc (c & Hc & Hdec)]]; trivial. rewrite (F3c Nc) in Hc. injection Hc as <-.
      rewrite decode_encode in Hdec. now injection Hdec. }
    subst sts. clear Cl Gc2 Any.
    apply lift_Ok in Hcl as (rows & Er & Hcl). apply out_all_Ok in Er as [_ ->].
    rewrite !map_map in Hcl. cbn [fst snd] in Hcl.
    apply bind_Ok in Hcl as (fs4 & u4 & E4 & Hcl). apply bind_Ok in Hcl as (fs5 & u5 & E5 & E6).
    assert (S4 : (forall f, (fn = EMPTYSTR \/ f <> fn) -> fs4 f = fs3 f) /\
      (fn <> EMPTYSTR -> fs4 fn = Some (show_int (map (fun m => [nclus m]) chain)))).
    { destruct (fn =? EMPTYSTR) eqn:Bn.
      - injection E4 as <- _. apply String.eqb_eq in Bn. split; [trivial|congruence].
      - apply String.eqb_neq in Bn. apply write_Ok in E4; [|auto]. subst fs4. split.
        + intros f [C|N]; [contradiction|]. now apply put_other.
        + intros _. apply put_same. }
    destruct S4 as [S4 S4n].
    assert (S5 : (forall f, (fc = EMPTYSTR \/ f <> fc) -> fs5 f = fs4 f) /\
      (fc <> EMPTYSTR -> fs5 fc = Some (show_int (map (fun m => firstn (n_rows data) (allocs m)) chain)))).
    { destruct (fc =? EMPTYSTR) eqn:Bn.
      - injection E5 as <- _. apply String.eqb_eq in Bn. split; [trivial|congruence].
      - apply String.eqb_neq in Bn. apply write_Ok in E5; [|auto]. subst fs5. split.
        + intros f [C|N]; [contradiction|]. now apply put_other.
        + intros _. apply put_same. }
    destruct S5 as [S5 S5c].
    assert (S6 : (forall f, (fb = EMPTYSTR \/ f <> fb) -> fs' f = fs5 f) /\
      (fb <> EMPTYSTR -> exists b, estimate (map (fun m => firstn (n_rows data) (allocs m)) chain) = Ok b /\
         fs' fb = Some (show_int (map (fun x => [x]) b)))).
    { destruct (fb =? EMPTYSTR) eqn:Bn.
      - injection E6 as <- _. apply String.eqb_eq in Bn. split; [trivial|congruence].
      - apply String.eqb_neq in Bn. apply lift_Ok in E6 as (b & Eb & E6). apply write_Ok in E6; [|auto]. subst fs'. split.
        + intros f [C|N]; [contradiction|]. now apply put_other.
        + intros _. exists b. split; trivial. apply put_same. }
    destruct S6 as [S6 S6b].
    assert (Keep : forall f, (fn = EMPTYSTR \/ f <> fn) -> (fc = EMPTYSTR \/ f <> fc) -> (fb = EMPTYSTR \/ f <> fb) -> fs' f = fs3 f).
    { intros f K1 K2 K3. rewrite S6, S5, S4; trivial. }
    assert (Or : forall a b : string, (b <> EMPTYSTR -> a <> b) -> b = EMPTYSTR \/ a <> b).
    { intros a b K. destruct (string_dec b EMPTYSTR); auto. }
    split; [|split; [|split; [|split; [|split]]]].
    - intro N. rewrite Keep; auto.
    - intros N1 N2. destruct (F3d N1 N2) as (grid & hg & mg & r & K1 & K2 & K3 & K4 & K5).
      exists grid, hg, mg, r. repeat split; trivial. rewrite Keep; auto.
    - intros N1 N2. rewrite Keep; auto.
    - intro N. rewrite S6, S5; auto.
    - intro N. rewrite S6; auto.
    - exact S6b.
  Qed.

  Lemma main_success : forall words fs fs' st, parse_args run_options words = Parsed st -> separate st ->
    main words fs = (fs', Exited 0) -> wrote st fs fs'.
  Proof.
    intros words fs fs' st P Sp H. unfold main_program in H. rewrite P in H.
    destruct (body st fs) as [f [x|s| |]] eqn:B; try discriminate H. injection H as ->. exact (body_Ok _ _ _ _ Sp B).
  Qed.
End Success.

(** ** A failing run *)

Lemma body_build_fails : forall writable O M T read_text build hdep mdep n_rows sample encode decode
    left_over eval show show_int allocs nclus blank estimate st fs,
  (forall a b c d e, exists s, build a b c d e = Throw s) ->
  (forall n, In n all_names -> exists v, get st n = Ok v) ->
  (forall f, In f (requested st) -> writable f = true) ->
  exists fs' s, main_body writable O M T read_text build hdep mdep n_rows sample encode decode
    left_over eval show show_int allocs nclus blank estimate st fs = (fs', Throw s) /\
    forall f, In f (requested st) -> fs' f = Some "".
Proof.
  intros writable O M T read_text build hdep mdep n_rows sample encode decode left_over eval show show_int
    allocs nclus blank estimate st fs HB HG HW.
  assert (CO : forall u n v fs0, get st n = Ok v -> (v <> u -> writable v = true) ->
     exists fs1, check_one writable st u n fs0 = (fs1, Ok tt)).
  { intros u n v fs0 E W. unfold check_one, bind, lift. rewrite E. destruct (v =? u) eqn:Ev; [unfold ret; eauto|].
    unfold check_file_is_writeable. rewrite W by now apply String.eqb_neq. eauto. }
  assert (CA : exists fs1, check_args writable st fs = (fs1, Ok tt)).
  { destruct (HG "--coll-name") as (v1 & E1); [pick|]. destruct (HG "--dens-file") as (v2 & E2); [pick|].
    destruct (HG "--n-cl-file") as (v3 & E3); [pick|]. destruct (HG "--clus-file") as (v4 & E4); [pick|].
    destruct (HG "--best-clus-file") as (v5 & E5); [pick|].
    assert (R : forall u n v, In (u, n)
      [("memory", "--coll-name"); (EMPTYSTR, "--dens-file"); (EMPTYSTR, "--n-cl-file");
       (EMPTYSTR, "--clus-file"); (EMPTYSTR, "--best-clus-file")] -> get st n = Ok v -> v <> u -> writable v = true).
    { intros u n v Hp E N. apply HW. exact (requested_In st u n v Hp E N). }
    unfold check_args.
    destruct (CO "memory" "--coll-name" v1 fs E1) as (f1 & C1); [intro; eapply R; eauto; pick|].
    destruct (CO EMPTYSTR "--dens-file" v2 f1 E2) as (f2 & C2); [intro; eapply R; eauto; pick|].
    destruct (CO EMPTYSTR "--n-cl-file" v3 f2 E3) as (f3 & C3); [intro; eapply R; eauto; pick|].
    destruct (CO EMPTYSTR "--clus-file" v4 f3 E4) as (f4 & C4); [intro; eapply R; eauto; pick|].
    destruct (CO EMPTYSTR "--best-clus-file" v5 f4 E5) as (f5 & C5); [intro; eapply R; eauto; pick|].
    exists f5. unfold bind. now rewrite C1, C2, C3, C4. }
  destruct CA as (fs1 & CA).
  pose proof (check_args_Ok _ _ _ _ _ CA) as ([Em _] & _).
  destruct (HG "--algo-params-file") as (fa & Ea); [pick|]. destruct (HG "--hier-type") as (ht & Eh); [pick|].
  destruct (HG "--mix-type") as (mt & Em'); [pick|]. destruct (HG "--coll-name") as (co & Ec); [pick|].
  destruct (HG "--mix-args") as (fm & Efm); [pick|]. destruct (HG "--hier-args") as (fh & Efh); [pick|].
  destruct (HB (fs1 fa) ht (fs1 fh) mt (fs1 fm)) as (s & Bs).
  exists fs1, s. split; trivial. unfold main_body. unfold bind at 1. rewrite CA.
  unfold configure_and_run, bind, lift, read_proto. rewrite Ea, Eh, Em', Ec, Efm, Efh, Bs. reflexivity.
Qed.

Lemma main_build_fails : forall writable O M T read_text build hdep mdep n_rows sample encode decode
    left_over eval show show_int allocs nclus blank estimate kv fs,
  (forall a b c d e, exists s, build a b c d e = Throw s) ->
  pairs_ok kv -> incl ("--coll-name" :: required_names) (map fst kv) ->
  (forall n v, In (n, v) kv -> writable v = true) ->
  exists fs', main_program writable O M T read_text build hdep mdep n_rows sample encode decode
    left_over eval show show_int allocs nclus blank estimate (flat kv) fs = (fs', Terminated) /\
    (forall n v, In (n, v) kv -> In n ["--dens-file"; "--n-cl-file"; "--clus-file"; "--best-clus-file"] ->
       v <> EMPTYSTR -> fs' v = Some "") /\
    (forall v, In ("--coll-name", v) kv -> v <> "memory" -> fs' v = Some "").
Proof.
  intros writable O M T read_text build hdep mdep n_rows sample encode decode left_over eval show show_int
    allocs nclus blank estimate kv fs HB HP HR HW.
  destruct (parse_pairs kv HP) as (st & P & G1 & G2 & _); [intros x Hx; apply HR; now right|].
  assert (HG : forall n, In n all_names -> exists v, get st n = Ok v).
  { intros n Hn. destruct (in_dec string_dec n (map fst kv)) as [I|I].
    - apply in_map_iff in I as ([n' v] & E & I). cbn in E; subst. eauto.
    - unfold all_names in Hn. apply in_app_or in Hn as [Hn|[<-|Hn]].
      + elim I. apply HR. now right.
      + elim I. apply HR. now left.
      + exists EMPTYSTR. auto. }
  assert (RW : forall f, In f (requested st) -> writable f = true).
  { intros f Hf. unfold requested in Hf. apply in_flat_map in Hf as ([u n] & Hp & Hf). cbn [fst snd] in Hf.
    destruct (get st n) as [v|s| |] eqn:E; try contradiction. destruct (v =? u) eqn:Eu; [contradiction|].
    destruct Hf as [<-|[]]. apply String.eqb_neq in Eu.
    destruct (in_dec string_dec n (map fst kv)) as [I|I].
    - apply in_map_iff in I as ([n' v'] & En & I). cbn in En; subst n'. pose proof (G1 n v' I). replace v with v' by congruence. eauto.
    - exfalso. cbn in Hp. destruct Hp as [Hp|Hp].
      + injection Hp as <- <-. apply I, HR. now left.
      + assert (In n optional_names /\ u = EMPTYSTR) as [Hn ->].
        { repeat (destruct Hp as [Hp|Hp]; [injection Hp as <- <-; split; [pick|trivial]|]). contradiction. }
        rewrite (G2 n Hn I) in E. congruence. }
  destruct (body_build_fails writable O M T read_text build hdep mdep n_rows sample encode decode left_over eval
    show show_int allocs nclus blank estimate st fs HB HG RW) as (fs' & s & B & E).
  exists fs'. split; [|split].
  - unfold main_program. now rewrite P, B.
  - intros n v Hv Hn N. apply E. apply (requested_In st EMPTYSTR n); auto.
    cbn in Hn |- *. repeat (destruct Hn as [<-|Hn]; [tauto|]). contradiction.
  - intros v Hv N. apply E. apply (requested_In st "memory" "--coll-name"); auto. pick.
Qed.

Lemma main_unwritable : forall writable O M T read_text build hdep mdep n_rows sample encode decode
    left_over eval show show_int allocs nclus blank estimate words fs st f,
  parse_args run_options words = Parsed st -> In f (requested st) -> writable f = false ->
  snd (main_program writable O M T read_text build hdep mdep n_rows sample encode decode
    left_over eval show show_int allocs nclus blank estimate words fs) = Terminated.
Proof.
  intros writable O M T read_text build hdep mdep n_rows sample encode decode left_over eval show show_int
    allocs nclus blank estimate words fs st f P Hf W. unfold main_program. rewrite P.
  destruct (main_body _ _ _ _ _ _ _ _ _ _ _ _ _ _ _ _ _ _ _ _ st fs) as [fs' [u|s| |]] eqn:B; try reflexivity.
  exfalso. unfold main_body in B. apply bind_Ok in B as (fs1 & u1 & Hc & _).
  apply (check_args_Ok writable) in Hc as (_ & Hw & _). specialize (Hw f Hf). congruence.
Qed.
