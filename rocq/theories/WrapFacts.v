(** * The R wrapper, and both wrappers together with the main program. *)
From Coq Require Import String Ascii.
From Coq Require Import List Bool Arith Lia.
From Verif Require Import Base Args ArgsFacts Main Launch LaunchFacts LaunchMore.
Import ListNotations.
Local Open Scope string_scope.

(** ** Words read by the shell *)

(* the text [s] is read as the word [w] *)
Definition spells (s w : string) : Prop :=
  forall cur t, sh_from cur (s ++ t) = sh_from (Some (match cur with Some c => c | None => "" end ++ w)) t.

Lemma spells_word : forall w, sh_word w -> spells w w.
Proof.
  intros w [N H]. destruct w as [|c w]; [congruence|]. clear N.
  assert (K : forall w, (forall c, In c (chars w) -> sh_blank c = false /\ sh_special c = false /\ c <> "\"%char) ->
    forall cur t, sh_from (Some cur) (w ++ t) = sh_from (Some (cur ++ w)) t).
  { clear. induction w as [|c w IH]; intros H cur t; cbn [append].
    - now rewrite append_nil.
    - destruct (H c (or_introl eq_refl)) as (H1 & H2 & H3). cbn [sh_from]. rewrite H1, H2.
      apply Ascii.eqb_neq in H3. rewrite H3. rewrite IH by (intros; apply H; now right).
      now rewrite append_assoc. }
  intros cur t. destruct (H c (or_introl eq_refl)) as (H1 & H2 & H3). cbn [append sh_from]. rewrite H1, H2.
  apply Ascii.eqb_neq in H3. rewrite H3. rewrite K by (intros; apply H; now right).
  rewrite append_assoc. reflexivity.
Qed.

Lemma spells_empty : spells R_EMPTYSTR EMPTYSTR.
Proof.
  intros cur t. unfold R_EMPTYSTR. cbn [append sh_from]. unfold sh_blank.
  cbn [Ascii.eqb orb Bool.eqb]. cbn. rewrite append_assoc. reflexivity.
Qed.

Lemma sh_space : forall cur t, sh_from (Some cur) (String " " t) =
  match sh_from None t with Some l => Some (cur :: l) | None => None end.
Proof. reflexivity. Qed.

Lemma sh_command : forall ks vs ws cur, Forall (fun k => spells k k) ks -> Forall2 spells vs ws ->
  sh_from (Some cur) (command (combine (combine (map (fun _ => " ") ks) ks) vs))
  = Some (cur :: flat (combine ks ws)).
Proof.
  induction ks as [|k ks IH]; intros vs ws cur Fk F2.
  - inversion F2; subst; reflexivity.
  - inversion F2 as [|v w vs' ws' Hv F']; subst; [reflexivity|].
    cbn [map combine command flat flat_map fst snd app].
    cbn [append]. rewrite sh_space. apply Forall_cons_iff in Fk as [Hk Fk].
    rewrite Hk. cbn [append]. rewrite (sh_space k). rewrite Hv. cbn [append].
    rewrite (IH _ _ _ Fk F'). reflexivity.
Qed.

Lemma sprintf_exe : forall exe s args, percentless exe ->
  r_sprintf (exe ++ s) args = (r <- r_sprintf s args ;; Ok (exe ++ r)).
Proof.
  induction exe as [|c exe IH]; intros s args H; cbn [append].
  - now destruct (r_sprintf s args).
  - cbn [r_sprintf]. pose proof (H c (or_introl eq_refl)) as H1. apply Ascii.eqb_neq in H1. rewrite H1.
    rewrite IH by (intros x Hx; apply H; now right). now destruct (r_sprintf s args).
Qed.

Lemma sprintf_template : forall v0 v1 v2 v3 v4 v5 v6 v7 v8 v9 v10 v11,
  r_sprintf r_template [v0; v1; v2; v3; v4; v5; v6; v7; v8; v9; v10; v11]
  = Ok (command (combine (combine (map (fun _ => " ") wrapper_names) wrapper_names)
                         [v0; v1; v2; v3; v4; v5; v6; v7; v8; v9; v10; v11])).
Proof. intros. vm_compute. reflexivity. Qed.

Lemma names_spelled : Forall (fun k => spells k k) wrapper_names.
Proof.
  apply Forall_forall. intros k H. apply spells_word. split.
  - intros ->. cbn in H. repeat (destruct H as [H|H]; [discriminate H|]). contradiction.
  - intros c Hc. cbn in H.
    repeat (destruct H as [<-|H];
      [cbn in Hc; repeat (destruct Hc as [<-|Hc]; [repeat split; discriminate|]); contradiction Hc|]).
    contradiction.
Qed.

Lemma r_words : forall exe v0 v1 v2 v3 v4 v5 v6 v7 v8 v9 v10 v11 ws, sh_word exe -> percentless exe ->
  let vs := [v0; v1; v2; v3; v4; v5; v6; v7; v8; v9; v10; v11] in
  Forall2 spells vs ws ->
  exists cmd, r_sprintf (exe ++ r_template) vs = Ok cmd /\
    sh_words cmd = Some (exe :: flat (combine wrapper_names ws)).
Proof.
  intros exe v0 v1 v2 v3 v4 v5 v6 v7 v8 v9 v10 v11 ws W B vs F. unfold vs in *.
  rewrite sprintf_exe, sprintf_template by trivial. cbn [rbind].
  eexists; split; [reflexivity|]. unfold sh_words. rewrite (spells_word exe W).
  cbn [append]. apply sh_command; trivial. apply names_spelled.
Qed.

(* what the R wrapper empties first *)
Definition created (d : string) (fs : files) : files :=
  fold_left (fun s f => create s d f)
    ["data.csv"; "dens_grid.csv"; "n_clus.csv"; "clus.csv"; "best_clus.csv"; "eval_dens.csv"; "chains.recordio"] fs.

Lemma sh_word_app : forall a b, (forall c, In c (chars a) -> sh_blank c = false /\ sh_special c = false /\ c <> "\"%char) ->
  sh_word b -> sh_word (a ++ b).
Proof.
  intros a b Ha [N Hb]. split.
  - destruct a; [trivial|discriminate].
  - intros c Hc. induction a as [|x a IH]; cbn in Hc; [auto|].
    destruct Hc as [<-|Hc]; [apply Ha; now left|]. apply IH; trivial. intros; apply Ha; now right.
Qed.

Lemma rjoin_word : forall d f, (forall c, In c (chars d) -> sh_blank c = false /\ sh_special c = false /\ c <> "\"%char) ->
  In f file_names -> sh_word (rjoin d f).
Proof.
  intros d f Hd Hf. apply sh_word_app; trivial. cbn in Hf.
  repeat (destruct Hf as [<-|Hf];
    [split; [discriminate|intros c Hc; cbn in Hc; repeat (destruct Hc as [<-|Hc]; [repeat split; discriminate|]); contradiction Hc]|]).
  contradiction.
Qed.

Definition r_values (d : string) (q : request) (fs : files) : list string :=
  let fs1 := after_print rjoin d (q_hier_params q) "hier_params" fs in
  let fs2 := after_print rjoin d (q_mix_params q) "mix_params" fs1 in
  values rjoin R_EMPTYSTR d q (used_file rjoin d (q_algo_params q) "algo_params" fs2)
    (used_file rjoin d (q_hier_params q) "hier_params" fs)
    (used_file rjoin d (q_mix_params q) "mix_params" fs1).

Lemma r_values_spelled : forall d q fs,
  (forall c, In c (chars d) -> sh_blank c = false /\ sh_special c = false /\ c <> "\"%char) ->
  sh_word (q_hier q) -> sh_word (q_mix q) -> given_files sh_word q fs ->
  Forall2 spells (r_values d q fs) (words_given rjoin d q fs).
Proof.
  intros d q fs Hd Hh Hm Hg.
  assert (F : Forall (fun w => w = EMPTYSTR \/ sh_word w) (words_given rjoin d q fs)).
  { apply words_given_all.
    - intros f Hf. right. now apply rjoin_word.
    - now left.
    - right. split; [discriminate|]. intros c Hc. cbn in Hc.
      repeat (destruct Hc as [<-|Hc]; [repeat split; discriminate|]). contradiction Hc.
    - now right.
    - now right.
    - intros p Hp N. right. now apply Hg. }
  assert (J : forall f, In f file_names -> spells (rjoin d f) (rjoin d f)) by (intros; now apply spells_word, rjoin_word).
  assert (OE : forall b f, In f file_names -> spells (or_empty R_EMPTYSTR b (rjoin d f)) (or_empty EMPTYSTR b (rjoin d f))).
  { intros [] f Hf; unfold or_empty; [auto|apply spells_empty]. }
  assert (S : forall w, w = EMPTYSTR \/ sh_word w -> w <> EMPTYSTR -> spells w w).
  { intros w [->|Hw] N; [congruence|now apply spells_word]. }
  assert (U : forall p name fs0, given_files sh_word q fs0 -> In p [q_hier_params q; q_mix_params q; q_algo_params q] ->
     In (name ++ ".asciipb") file_names -> spells (used_file rjoin d p name fs0) (used_file rjoin d p name fs0)).
  { intros p name fs0 H0 Hp Hn. apply spells_word. unfold used_file. destruct (fs0 p) eqn:E; [apply H0; trivial; congruence|].
    now apply rjoin_word. }
  unfold r_values, words_given, values.
  set (fs1 := after_print rjoin d (q_hier_params q) "hier_params" fs).
  set (fs2 := after_print rjoin d (q_mix_params q) "mix_params" fs1).
  assert (G1 : given_files sh_word q fs1) by (apply after_print_given; trivial; apply rjoin_word; trivial; pick).
  assert (G2 : given_files sh_word q fs2) by (apply after_print_given; trivial; apply rjoin_word; trivial; pick).
  clearbody fs1 fs2. clear F S.
  repeat apply Forall2_cons; try apply Forall2_nil;
    try (apply OE; pick); try (apply U; trivial; pick); try (apply J; pick); try (now apply spells_word).
  destruct (q_chains q); [apply J; pick|]. apply spells_word. split; [discriminate|]. intros c Hc. cbn in Hc.
  repeat (destruct Hc as [<-|Hc]; [repeat split; discriminate|]). contradiction Hc.
Qed.

Lemma r_run_words : forall T C (load : string -> res T) (load_chain : string -> res C) proc exe d tmp q fs,
  sh_word exe -> percentless exe ->
  (forall c, In c (chars d) -> sh_blank c = false /\ sh_special c = false /\ c <> "\"%char) ->
  sh_word (q_hier q) -> sh_word (q_mix q) -> given_files sh_word q (created d fs) ->
  r_run T C load load_chain proc exe d tmp q fs =
  match proc exe (flat (combine wrapper_names (words_given rjoin d q (created d fs))))
          (prepared rjoin d q (created d fs)) with
  | Some (fs6, Exited 0) =>
      match read_back T C load load_chain rjoin d q fs6 with
      | Ok a => (if tmp then rmdir fs6 d else fs6, Ok a)
      | e => (fs6, e)
      end
  | Some (fs6, _) => (rmdir fs6 d, Throw "Something went wrong")
  | None => (rmdir (prepared rjoin d q (created d fs)) d, Throw "Something went wrong")
  end.
Proof.
  intros T C load load_chain proc exe d tmp q fs We Be Hd Wh Wm Hg.
  unfold r_run. fold (created d fs). set (fs0 := created d fs) in *. clearbody fs0.
  rewrite !maybe_print_eq.
  pose proof (r_values_spelled d q fs0 Hd Wh Wm Hg) as F.
  unfold r_values in F.
  set (vs := values rjoin R_EMPTYSTR d q _ _ _) in *.
  destruct (r_words exe (nth 0 vs "") (nth 1 vs "") (nth 2 vs "") (nth 3 vs "") (nth 4 vs "")
     (nth 5 vs "") (nth 6 vs "") (nth 7 vs "") (nth 8 vs "") (nth 9 vs "") (nth 10 vs "") (nth 11 vs "")
     _ We Be F) as (cmd & E1 & E2).
  change [nth 0 vs ""; nth 1 vs ""; nth 2 vs ""; nth 3 vs ""; nth 4 vs "";
     nth 5 vs ""; nth 6 vs ""; nth 7 vs ""; nth 8 vs ""; nth 9 vs ""; nth 10 vs ""; nth 11 vs ""] with vs in *.
  rewrite E1, E2. unfold prepared, prepared_params. reflexivity.
Qed.

(** ** End to end *)

(* what a parameter given to a wrapper stands for *)
Definition text (fs : files) (p : string) : string := match fs p with Some c => c | None => p ++ nl end.

Definition joins (jn : string -> string -> string) (d : string) : Prop :=
  (forall f g, jn d f = jn d g -> f = g) /\ (forall f, (String.length f <= String.length (jn d f))%nat).

Lemma append_inj : forall a b c, a ++ b = a ++ c -> b = c.
Proof. induction a; cbn; intros b c H; [trivial|]. injection H; auto. Qed.
Lemma append_len : forall a b, String.length (a ++ b) = (String.length a + String.length b)%nat.
Proof. induction a; cbn; intros; [trivial|]. now rewrite IHa. Qed.

Lemma joins_join : forall d, joins join d.
Proof.
  intro d. split.
  - intros f g. unfold join. destruct (last_is_slash d); intro H; apply append_inj in H; trivial. now injection H.
  - intro f. unfold join. destruct (last_is_slash d); rewrite ?append_len; cbn [String.length]; lia.
Qed.
Lemma joins_rjoin : forall d, joins rjoin d.
Proof.
  intro d. split.
  - intros f g H. unfold rjoin in H. apply append_inj in H. now injection H.
  - intro f. unfold rjoin. rewrite !append_len. cbn [String.length]; lia.
Qed.

(* the parameters are not names of files that the wrapper itself writes *)
Definition apart (jn : string -> string -> string) (d : string) (q : request) : Prop :=
  forall p f, In p [q_hier_params q; q_mix_params q; q_algo_params q] -> In f file_names -> p <> jn d f.

Lemma after_print_other : forall jn d p name fs g, g <> jn d (name ++ ".asciipb") ->
  after_print jn d p name fs g = fs g.
Proof. intros jn d p name fs g N. unfold after_print. destruct (fs p); trivial. now apply put_other. Qed.

Lemma after_print_used : forall jn d p name fs, after_print jn d p name fs (used_file jn d p name fs) = Some (text fs p).
Proof.
  intros jn d p name fs. unfold after_print, used_file, text. destruct (fs p) eqn:E; trivial. apply put_same.
Qed.

Section EndToEnd.
  Variable writable : string -> bool.
  Variables O M T : Type.
  Variable read_text : string -> res T.
  Variable build : option string -> string -> option string -> string -> option string -> res O.
  Variables hdep mdep : O -> bool.
  Variable n_rows : T -> nat.
  Variable sample : O -> T -> option T -> option T -> res (list M).
  Variable encode : list M -> string.
  Variable decode : string -> res (list M).
  Variable left_over : string.
  Variable eval : O -> list M -> T -> option T -> option T -> res T.
  Variable show : T -> string.
  Variable show_int : list (list nat) -> string.
  Variable allocs : M -> list nat.
  Variable nclus : M -> nat.
  Variable blank : M.
  Variable estimate : list (list nat) -> res (list nat).
  Variables L C : Type.
  Variable load : string -> res L.
  Variable load_chain : string -> res C.

  Notation main := (main_program writable O M T read_text build hdep mdep n_rows sample encode decode
    left_over eval show show_int allocs nclus blank estimate).

  (* an answer component that was asked for is the loaded text, otherwise it is absent *)
  Definition gives {A} (ld : string -> res A) (b : bool) (content : string) (r : option A) : Prop :=
    if b then exists x, ld content = Ok x /\ r = Some x else r = None.

  (* the answer is what the sampler computed from the request *)
  Definition delivered (fs : files) (q : request) (a : answer L C) : Prop :=
    exists o data chain,
      build (Some (text fs (q_algo_params q))) (q_hier q) (Some (text fs (q_hier_params q)))
            (q_mix q) (Some (text fs (q_mix_params q))) = Ok o /\
      hdep o = false /\ mdep o = false /\
      read_text (q_data q) = Ok data /\ sample o data None None = Ok chain /\
      match q_grid q with
      | None => r_dens _ _ a = None
      | Some g => exists grid e, read_text g = Ok grid /\ eval o chain grid None None = Ok e /\
                    gives load true (show e) (r_dens _ _ a)
      end /\
      gives load (q_ncl q) (show_int (map (fun m => [nclus m]) chain)) (r_ncl _ _ a) /\
      gives load (q_clus q) (show_int (map (fun m => firstn (n_rows data) (allocs m)) chain)) (r_clus _ _ a) /\
      (if q_best q then exists b, estimate (map (fun m => firstn (n_rows data) (allocs m)) chain) = Ok b /\
                          gives load true (show_int (map (fun x => [x]) b)) (r_best _ _ a)
       else r_best _ _ a = None) /\
      gives load_chain (q_chains q) (encode chain) (r_chain _ _ a).

  Hypothesis decode_encode : forall l, decode (encode l) = Ok l.

  Variable jn : string -> string -> string.
  Variable d : string.
  Hypothesis Hjn : joins jn d.

  Lemma jn_neq : forall f g, f <> g -> jn d f <> jn d g.
  Proof. intros f g N E. now apply (proj1 Hjn) in E. Qed.

  Lemma jn_short : forall f s, (String.length s < String.length f)%nat -> jn d f <> s.
  Proof. intros f s H <-. pose proof (proj2 Hjn f). lia. Qed.

  Lemma sep_wrapped : forall q fs st, apart jn d q ->
    (forall n v, In (n, v) (combine wrapper_names (words_given jn d q fs)) -> get st n = Ok v) ->
    (forall n, In n ["--hier-cov-file"; "--hier-grid-cov-file"; "--mix-cov-file"; "--mix-grid-cov-file"] ->
       get st n = Ok EMPTYSTR) ->
    separate st /\ (forall f, In f (requested st) ->
      In f (map (jn d) ["chains.recordio"; "eval_dens.csv"; "n_clus.csv"; "clus.csv"; "best_clus.csv"])).
  Proof.
    intros q fs st Ap G1 G2.
    assert (R : requested st = map (jn d)
       ((if q_chains q then ["chains.recordio"] else []) ++ (if wants_grid q then ["eval_dens.csv"] else []) ++
        (if q_ncl q then ["n_clus.csv"] else []) ++ (if q_clus q then ["clus.csv"] else []) ++
        (if q_best q then ["best_clus.csv"] else []))).
    { assert (V : forall (u n : string) (b : bool) (f : string), get st n = Ok (if b then jn d f else u) -> (String.length u < String.length f)%nat ->
        match get st n with Ok v => if v =? u then [] else [v] | _ => [] end = map (jn d) (if b then [f] else [])).
      { intros u n [] f E Hl; rewrite E; cbn [map].
        - pose proof (jn_short f u Hl) as N. apply String.eqb_neq in N. now rewrite N.
        - now rewrite String.eqb_refl. }
      unfold requested. cbn [flat_map fst snd]. rewrite app_nil_r. rewrite !map_app.
      repeat apply f_equal2; trivial; apply V; try (cbn; lia); apply G1; unfold words_given, values, or_empty; cbn [combine wrapper_names]; pick. }
    assert (Sub : forall f, In f (requested st) ->
      In f (map (jn d) ["chains.recordio"; "eval_dens.csv"; "n_clus.csv"; "clus.csv"; "best_clus.csv"])).
    { intros f. rewrite R. clear. intro H. apply in_map_iff in H as (g & <- & H). apply in_map.
      repeat (apply in_app_or in H as [H|H]);
        match type of H with In _ (if ?b then _ else _) => destruct b; [destruct H as [<-|[]]; pick|contradiction H] end. }
    split; [|exact Sub]. split.
    - rewrite R. apply FinFun.Injective_map_NoDup; [intros x y; apply (proj1 Hjn)|]. clear.
      destruct (q_chains q), (wants_grid q), (q_ncl q), (q_clus q), (q_best q); cbn [app];
        repeat (apply NoDup_cons; [cbn; intro H; repeat (destruct H as [H|H]; [discriminate H|]); contradiction|]);
        apply NoDup_nil.
    - intros n f Hn E Hf. apply Sub in Hf. clear R Sub.
      assert (K : In f (map (jn d) ["chains.recordio"; "eval_dens.csv"; "n_clus.csv"; "clus.csv"; "best_clus.csv"]) ->
        f = EMPTYSTR \/ (exists g, In g ["data.csv"; "dens_grid.csv"; "hier_params.asciipb"; "mix_params.asciipb"; "algo_params.asciipb"] /\ f = jn d g)
        \/ In f [q_hier_params q; q_mix_params q; q_algo_params q] -> False).
      { intros I [->|[(g & Hg & ->)|Hp]].
        - apply in_map_iff in I as (x & Ex & I). revert Ex. apply jn_short.
          repeat (destruct I as [<-|I]; [cbn; lia|]). contradiction.
        - apply in_map_iff in I as (x & Ex & I). apply (proj1 Hjn) in Ex. subst g.
          repeat (destruct I as [<-|I]; [repeat (destruct Hg as [Hg|Hg]; [discriminate Hg|]); contradiction|]). contradiction.
        - apply in_map_iff in I as (x & Ex & I). refine (Ap f x Hp _ (eq_sym Ex)).
          repeat (destruct I as [<-|I]; [pick|]). contradiction. }
      apply (K Hf). clear K Hf.
      assert (U : forall p name fs0, In p [q_hier_params q; q_mix_params q; q_algo_params q] ->
         In (name ++ ".asciipb") ["data.csv"; "dens_grid.csv"; "hier_params.asciipb"; "mix_params.asciipb"; "algo_params.asciipb"] ->
         used_file jn d p name fs0 = EMPTYSTR \/ (exists g, In g ["data.csv"; "dens_grid.csv"; "hier_params.asciipb"; "mix_params.asciipb"; "algo_params.asciipb"] /\ used_file jn d p name fs0 = jn d g)
        \/ In (used_file jn d p name fs0) [q_hier_params q; q_mix_params q; q_algo_params q]).
      { intros p name fs0 Hp Hi. unfold used_file. destruct (fs0 p); [auto|]. right; left. eauto. }
      assert (G : forall v, In (n, v) (combine wrapper_names (words_given jn d q fs)) -> f = v).
      { intros v Hv. rewrite (G1 n v Hv) in E. now injection E. }
      unfold words_given, values in G. cbn [combine wrapper_names] in G.
      unfold input_names in Hn.
      destruct Hn as [<-|[<-|[<-|[<-|[<-|Hn]]]]].
      + rewrite (G _ ltac:(pick)). apply U; pick.
      + rewrite (G _ ltac:(pick)). apply U; pick.
      + rewrite (G _ ltac:(pick)). apply U; pick.
      + rewrite (G _ ltac:(pick)). right; left. eexists; split; [|reflexivity]. pick.
      + rewrite (G _ ltac:(pick)). unfold or_empty. destruct (wants_grid q); [|now left].
        right; left. eexists; split; [|reflexivity]. pick.
      + left. rewrite (G2 n) in E; [congruence|]. destruct Hn as [<-|[<-|[<-|[<-|[]]]]]; pick.
  Qed.

  (* every parameter file that is used holds the text *)
  Lemma prepared_texts : forall q fs, apart jn d q ->
    let fs1 := after_print jn d (q_hier_params q) "hier_params" fs in
    let fs2 := after_print jn d (q_mix_params q) "mix_params" fs1 in
    prepared jn d q fs (used_file jn d (q_hier_params q) "hier_params" fs) = Some (text fs (q_hier_params q)) /\
    prepared jn d q fs (used_file jn d (q_mix_params q) "mix_params" fs1) = Some (text fs (q_mix_params q)) /\
    prepared jn d q fs (used_file jn d (q_algo_params q) "algo_params" fs2) = Some (text fs (q_algo_params q)).
  Proof.
    intros q fs Ap fs1 fs2.
    assert (T1 : text fs1 (q_mix_params q) = text fs (q_mix_params q)).
    { unfold text, fs1. rewrite after_print_other; trivial. apply Ap; pick. }
    assert (T2 : text fs2 (q_algo_params q) = text fs (q_algo_params q)).
    { unfold text, fs2, fs1. rewrite !after_print_other; trivial; apply Ap; pick. }
    assert (P : forall p name fs0, In p [q_hier_params q; q_mix_params q; q_algo_params q] ->
       In name ["hier_params"; "mix_params"; "algo_params"] ->
       prepared jn d q fs (used_file jn d p name fs0) = prepared_params jn d q fs (used_file jn d p name fs0)).
    { intros p name fs0 Hp Hn.
      assert (N : forall x, In x ["data.csv"; "dens_grid.csv"] -> used_file jn d p name fs0 <> jn d x).
      { intros x Hx. unfold used_file. destruct (fs0 p).
        - apply Ap; trivial. destruct Hx as [<-|[<-|[]]]; pick.
        - apply jn_neq. destruct Hx as [<-|[<-|[]]]; repeat (destruct Hn as [<-|Hn]; [discriminate|]); contradiction. }
      unfold prepared. destruct (q_grid q); rewrite !put_other; trivial; apply N; pick. }
    assert (U : forall p name name' fs0, In p [q_hier_params q; q_mix_params q; q_algo_params q] ->
       In (name' ++ ".asciipb") file_names -> name ++ ".asciipb" <> name' ++ ".asciipb" ->
       used_file jn d p name fs0 <> jn d (name' ++ ".asciipb")).
    { intros p name name' fs0 Hp Hn N. unfold used_file. destruct (fs0 p); [now apply Ap|]. now apply jn_neq. }
    split; [|split]; rewrite P by pick; unfold prepared_params; fold fs1; fold fs2.
    - rewrite after_print_other by (apply U; [pick|pick|discriminate]). unfold fs2.
      rewrite after_print_other by (apply U; [pick|pick|discriminate]). apply after_print_used.
    - rewrite after_print_other by (apply U; [pick|pick|discriminate]). unfold fs2. rewrite after_print_used. now rewrite T1.
    - rewrite after_print_used. now rewrite T2.
  Qed.

  Lemma prepared_data : forall q fs, prepared jn d q fs (jn d "data.csv") = Some (q_data q) /\
    (forall g, q_grid q = Some g -> prepared jn d q fs (jn d "dens_grid.csv") = Some g).
  Proof.
    intros q fs. unfold prepared. split.
    - destruct (q_grid q); [rewrite put_other by (apply jn_neq; discriminate)|]; apply put_same.
    - intros g ->. apply put_same.
  Qed.

  Lemma prepared_none : forall q fs, fs EMPTYSTR = None -> prepared jn d q fs EMPTYSTR = None.
  Proof.
    intros q fs E.
    assert (N : forall f, In f file_names -> EMPTYSTR <> jn d f).
    { intros f Hf. apply not_eq_sym, jn_short. repeat (destruct Hf as [<-|Hf]; [cbn; lia|]). contradiction. }
    unfold prepared, prepared_params.
    destruct (q_grid q); rewrite !put_other by (apply N; pick); rewrite !after_print_other by (apply N; pick); trivial.
  Qed.

  Lemma only_Ok : forall A b (r : res A) x, only b r = Ok x -> if b then exists y, r = Ok y /\ x = Some y else x = None.
  Proof.
    intros A [] r x H; unfold only in H.
    - destruct r; try discriminate H. injection H as <-. eauto.
    - now injection H.
  Qed.

  Lemma launch_end : forall q fs fs' a, apart jn d q -> fs EMPTYSTR = None ->
    (exists st, parse_args run_options (flat (combine wrapper_names (words_given jn d q fs))) = Parsed st /\
      (forall n v, In (n, v) (combine wrapper_names (words_given jn d q fs)) -> get st n = Ok v) /\
      (forall n, In n ["--hier-cov-file"; "--hier-grid-cov-file"; "--mix-cov-file"; "--mix-grid-cov-file"] ->
         get st n = Ok EMPTYSTR)) ->
    main (flat (combine wrapper_names (words_given jn d q fs))) (prepared jn d q fs) = (fs', Exited 0) ->
    read_back L C load load_chain jn d q fs' = Ok a ->
    delivered fs q a.
  Proof.
    intros q fs fs' a Ap En (st & P & G1 & G2) Hm Hr.
    destruct (sep_wrapped q fs st Ap G1 G2) as [Sp _].
    pose proof (main_success writable O M T read_text build hdep mdep n_rows sample encode decode left_over eval show
      show_int allocs nclus blank estimate decode_encode _ _ _ _ P Sp Hm) as W.
    assert (G : forall n v, In (n, v) (combine wrapper_names (words_given jn d q fs)) -> get st n = Ok v) by exact G1.
    unfold words_given, values in G. cbn [combine wrapper_names] in G.
    eassert (A0 : get st "--algo-params-file" = Ok _) by (apply G; pick).
    eassert (A1 : get st "--hier-type" = Ok _) by (apply G; pick).
    eassert (A2 : get st "--hier-args" = Ok _) by (apply G; pick).
    eassert (A3 : get st "--mix-type" = Ok _) by (apply G; pick).
    eassert (A4 : get st "--mix-args" = Ok _) by (apply G; pick).
    eassert (A5 : get st "--coll-name" = Ok _) by (apply G; pick).
    eassert (A6 : get st "--data-file" = Ok _) by (apply G; pick).
    eassert (A7 : get st "--grid-file" = Ok _) by (apply G; pick).
    eassert (A8 : get st "--dens-file" = Ok _) by (apply G; pick).
    eassert (A9 : get st "--n-cl-file" = Ok _) by (apply G; pick).
    eassert (A10 : get st "--clus-file" = Ok _) by (apply G; pick).
    eassert (A11 : get st "--best-clus-file" = Ok _) by (apply G; pick).
    destruct (W _ _ _ _ _ _ _ _ _ _ _ _ A0 A1 A2 A3 A4 A5 A6 A7 A8 A9 A10 A11)
      as (o & data & hc & mc & chain & B & Hd & Ch & Cm & Sa & Wc & Wd & _ & Wn & Wcl & Wb).
    clear W G A0 A1 A2 A3 A4 A5 A6 A7 A8 A9 A10 A11.
    destruct (prepared_texts q fs Ap) as (T1 & T2 & T3). rewrite T1, T2, T3 in B. clear T1 T2 T3.
    destruct (prepared_data q fs) as [D1 D2].
    assert (NC : forall b n r, In n ["--hier-cov-file"; "--hier-grid-cov-file"; "--mix-cov-file"; "--mix-grid-cov-file"] ->
      covariates T read_text (prepared jn d q fs) st b n r -> b = false /\ r = None).
    { intros b n r Hn Hc. destruct b; cbn in Hc; [exfalso|now split].
      destruct Hc as (f & m & Ef & (c & Hc & _) & _). rewrite (G2 n Hn) in Ef. injection Ef as <-.
      rewrite prepared_none in Hc by trivial. discriminate. }
    apply NC in Ch as [Eh ->]; [|pick]. apply NC in Cm as [Em ->]; [|pick].
    exists o, data, chain. split; [exact B|]. split; [exact Eh|]. split; [exact Em|].
    destruct Hd as (c & Hc & Hrd). rewrite D1 in Hc. injection Hc as <-. split; [exact Hrd|]. split; [exact Sa|].
    unfold read_back in Hr.
    destruct (only (wants_grid q) _) as [de|s| |] eqn:E1; try discriminate Hr. cbn [rbind] in Hr.
    destruct (only (q_ncl q) _) as [n|s| |] eqn:E2; try discriminate Hr. cbn [rbind] in Hr.
    destruct (only (q_clus q) _) as [cl|s| |] eqn:E3; try discriminate Hr. cbn [rbind] in Hr.
    destruct (only (q_best q) _) as [b|s| |] eqn:E4; try discriminate Hr. cbn [rbind] in Hr.
    destruct (only (q_chains q) _) as [ch|s| |] eqn:E5; try discriminate Hr. cbn [rbind] in Hr.
    injection Hr as <-. cbn [r_dens r_ncl r_clus r_best r_chain].
    apply only_Ok in E1, E2, E3, E4, E5. unfold load_file, load_chain_file in *.
    unfold or_empty in *.
    assert (S : forall f, In f file_names -> jn d f <> EMPTYSTR).
    { intros f Hf. apply jn_short. repeat (destruct Hf as [<-|Hf]; [cbn; lia|]). contradiction. }
    split; [|split; [|split; [|split]]].
    - unfold wants_grid in *. destruct (q_grid q) as [g|] eqn:Eg; [|exact E1].
      destruct (Wd (S "eval_dens.csv" ltac:(pick)) (S "dens_grid.csv" ltac:(pick))) as (grid & hg & mg & r & Hg & Cg & Cmg & Ev & Wr).
      destruct Hg as (c & Hc & Hrg). rewrite (D2 g eq_refl) in Hc. injection Hc as <-.
      apply NC in Cg as [_ ->]; [|pick]. apply NC in Cmg as [_ ->]; [|pick].
      exists grid, r. split; [exact Hrg|]. split; [exact Ev|]. unfold gives.
      rewrite Wr in E1. exact E1.
    - unfold gives. destruct (q_ncl q); [|exact E2]. rewrite (Wn (S "n_clus.csv" ltac:(pick))) in E2. exact E2.
    - unfold gives. destruct (q_clus q); [|exact E3]. rewrite (Wcl (S "clus.csv" ltac:(pick))) in E3. exact E3.
    - destruct (q_best q); [|exact E4]. destruct (Wb (S "best_clus.csv" ltac:(pick))) as (bb & Eb & Wbb).
      exists bb. split; [exact Eb|]. unfold gives. rewrite Wbb in E4. exact E4.
    - unfold gives. destruct (q_chains q); [|exact E5]. rewrite (Wc (jn_short "chains.recordio" "memory" ltac:(cbn; lia))) in E5. exact E5.
  Qed.
End EndToEnd.

Lemma rjoin_plain : forall d f, plain d -> d <> "" -> plain (rjoin d f).
Proof.
  intros d f H N. destruct d as [|c d]; [congruence|]. unfold rjoin.
  intros t E. apply (H d). cbn in E; injection E as -> _; reflexivity.
Qed.

Lemma r_accepted : forall d q fs, plain d -> d <> "" -> plain (q_hier q) -> plain (q_mix q) ->
  given_files plain q fs ->
  exists st, parse_args run_options (flat (combine wrapper_names (words_given rjoin d q fs))) = Parsed st /\
    (forall n v, In (n, v) (combine wrapper_names (words_given rjoin d q fs)) -> get st n = Ok v) /\
    (forall n, In n ["--hier-cov-file"; "--hier-grid-cov-file"; "--mix-cov-file"; "--mix-grid-cov-file"] ->
       get st n = Ok EMPTYSTR).
Proof.
  intros d q fs Hd N Hh Hm Hg. apply wrapper_parse; [apply words_given_length|].
  apply words_given_all; trivial; try apply empty_plain. intros; now apply rjoin_plain.
Qed.

Lemma created_other : forall d fs g, (forall f, In f file_names -> g <> rjoin d f) -> created d fs g = fs g.
Proof.
  intros d fs g H. unfold created. cbn [fold_left]. unfold create. rewrite !put_other by (apply H; pick). reflexivity.
Qed.

Lemma join_same : forall d f, last_is_slash d = false -> join d f = rjoin d f.
Proof. intros d f H. unfold join. now rewrite H. Qed.

Lemma words_same : forall d q fs, last_is_slash d = false -> words_given join d q fs = words_given rjoin d q fs.
Proof.
  intros d q fs H.
  assert (A : forall p name fs0, after_print join d p name fs0 = after_print rjoin d p name fs0).
  { intros. unfold after_print. now rewrite join_same. }
  assert (U : forall p name fs0, used_file join d p name fs0 = used_file rjoin d p name fs0).
  { intros. unfold used_file. now rewrite join_same. }
  unfold words_given, values. rewrite !U, !A, !join_same by trivial. reflexivity.
Qed.

Lemma created_created : forall d fs f, In f ["data.csv"; "dens_grid.csv"; "n_clus.csv"; "clus.csv"; "best_clus.csv"; "eval_dens.csv"; "chains.recordio"] ->
  created d fs (rjoin d f) = Some "".
Proof.
  intros d fs f H. unfold created. cbn [fold_left]. unfold create.
  pose proof (proj1 (joins_rjoin d)) as J.
  assert (K : forall x fs0, put fs0 (rjoin d x) "" (rjoin d f) = if string_dec f x then Some "" else fs0 (rjoin d f)).
  { intros x fs0. destruct (string_dec f x) as [->|N]; [apply put_same|]. apply put_other. intro E. now apply J in E. }
  rewrite !K. repeat (destruct H as [<-|H]; [reflexivity|]). contradiction.
Qed.
