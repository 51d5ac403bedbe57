(** * Facts about the main program and its wrappers. *)
From Coq Require Import String Ascii.
From Coq Require Import List Bool Arith Lia.
From Verif Require Import Base Args ArgsFacts Main Launch.
Import ListNotations.
Local Open Scope string_scope.

(** ** Specification *)

Definition chars (s : string) : list ascii := list_ascii_of_string s.

(* a word of a command line: not empty, without white space *)
Definition word (w : string) : Prop := w <> "" /\ forall c, In c (chars w) -> py_space c = false.
Definition braceless (s : string) : Prop :=
  forall c, In c (chars s) -> c <> "{"%char /\ c <> "}"%char.
Definition percentless (s : string) : Prop := forall c, In c (chars s) -> c <> "%"%char.
(* a word that the shell takes as it is *)
Definition sh_word (w : string) : Prop :=
  w <> "" /\ forall c, In c (chars w) -> sh_blank c = false /\ sh_special c = false /\ c <> "\"%char.

(* the options that both wrappers give, in their order *)
Definition wrapper_names : list string :=
  ["--algo-params-file"; "--hier-type"; "--hier-args"; "--mix-type"; "--mix-args"; "--coll-name";
   "--data-file"; "--grid-file"; "--dens-file"; "--n-cl-file"; "--clus-file"; "--best-clus-file"].

(** ** Words *)

Lemma append_nil : forall s, s ++ "" = s.
Proof. induction s; cbn; congruence. Qed.
Lemma append_assoc : forall a b c, (a ++ b) ++ c = a ++ (b ++ c).
Proof. induction a; intros; cbn; congruence. Qed.

Lemma split_word : forall bl w cur s, (forall c, In c (chars w) -> bl c = false) ->
  split_from bl cur (w ++ s) = split_from bl (cur ++ w) s.
Proof.
  induction w as [|c w IH]; intros cur s H; cbn.
  - now rewrite append_nil.
  - rewrite (H c (or_introl eq_refl)). rewrite IH by (intros; apply H; now right).
    now rewrite append_assoc.
Qed.

Lemma split_gap : forall bl g cur s, g <> "" -> (forall c, In c (chars g) -> bl c = true) ->
  split_from bl cur (g ++ s) = if cur =? "" then split_from bl "" s else cur :: split_from bl "" s.
Proof.
  induction g as [|c g IH]; intros cur s N H; [congruence|]. cbn.
  rewrite (H c (or_introl eq_refl)).
  assert (E : split_from bl "" (g ++ s) = split_from bl "" s).
  { destruct g as [|c' g']; [reflexivity|]. rewrite IH; trivial; [discriminate|].
    intros x Hx; apply H; now right. }
  now rewrite E.
Qed.

(* gap, option, value *)
Fixpoint command (l : list (string * string * string)) : string :=
  match l with
  | [] => ""
  | (g, k, v) :: l' => g ++ k ++ " " ++ v ++ command l'
  end.

Definition kv_of (l : list (string * string * string)) : list (string * string) :=
  map (fun p => (snd (fst p), snd p)) l.

Lemma split_command : forall l cur, cur <> "" ->
  Forall (fun p => (fst (fst p) <> "" /\ forall c, In c (chars (fst (fst p))) -> py_space c = true)
                   /\ word (snd (fst p)) /\ word (snd p)) l ->
  split_from py_space cur (command l) = cur :: flat (kv_of l).
Proof.
  induction l as [|[[g k] v] l IH]; intros cur N F; cbn [command kv_of map flat flat_map fst snd app].
  - cbn. destruct (cur =? "") eqn:E; trivial. apply String.eqb_eq in E; congruence.
  - inversion F as [|? ? [[G1 G2] [[K1 K2] [V1 V2]]] F']; cbn [fst snd] in *; subst.
    rewrite split_gap by trivial.
    destruct (cur =? "") eqn:E; [apply String.eqb_eq in E; congruence|]. f_equal.
    rewrite split_word by trivial. cbn [append].
    change (String " " (v ++ command l)) with (" " ++ (v ++ command l)).
    rewrite split_gap; [|discriminate|intros c [<-|[]]; reflexivity].
    destruct (k =? "") eqn:Ek; [apply String.eqb_eq in Ek; now elim K1|]. f_equal.
    rewrite split_word by trivial. cbn [append]. now apply IH.
Qed.

Lemma py_split_command : forall exe l, word exe ->
  Forall (fun p => (fst (fst p) <> "" /\ forall c, In c (chars (fst (fst p))) -> py_space c = true)
                   /\ word (snd (fst p)) /\ word (snd p)) l ->
  py_split (exe ++ command l) = exe :: flat (kv_of l).
Proof.
  intros exe l [N H] F. unfold py_split. rewrite split_word by trivial. cbn [append].
  now apply split_command.
Qed.

Lemma format_exe : forall exe s args, braceless exe ->
  py_format None (exe ++ s) args = (r <- py_format None s args ;; Ok (exe ++ r)).
Proof.
  induction exe as [|c exe IH]; intros s args H; cbn [append].
  - now destruct (py_format None s args).
  - cbn [py_format]. destruct (H c (or_introl eq_refl)) as [H1 H2].
    apply Ascii.eqb_neq in H1, H2. rewrite H1, H2.
    rewrite IH by (intros x Hx; apply H; now right). now destruct (py_format None s args).
Qed.

Definition py_gaps : list string :=
  [" "; " "; gap; " "; gap; " "; gap; " "; gap; " "; gap; " "].

Lemma format_template : forall v0 v1 v2 v3 v4 v5 v6 v7 v8 v9 v10 v11,
  py_format None py_template [v0; v1; v2; v3; v4; v5; v6; v7; v8; v9; v10; v11]
  = Ok (command (combine (combine py_gaps wrapper_names)
                         [v0; v1; v2; v3; v4; v5; v6; v7; v8; v9; v10; v11])).
Proof. intros. vm_compute. reflexivity. Qed.

Lemma word_const : forall k, In k wrapper_names -> word k.
Proof.
  intros k H. split.
  - intros ->. cbn in H. repeat (destruct H as [H|H]; [discriminate H|]). contradiction.
  - intros c Hc. cbn in H.
    repeat (destruct H as [<-|H];
      [cbn in Hc; repeat (destruct Hc as [<-|Hc]; [reflexivity|]); contradiction Hc|]).
    contradiction.
Qed.

Lemma gap_const : forall g, In g py_gaps -> g <> "" /\ forall c, In c (chars g) -> py_space c = true.
Proof.
  intros g H. cbn in H.
  repeat (destruct H as [<-|H];
    [split; [discriminate|intros c Hc; cbn in Hc; repeat (destruct Hc as [<-|Hc]; [reflexivity|]); contradiction Hc]|]).
  contradiction.
Qed.

Lemma py_words : forall exe v0 v1 v2 v3 v4 v5 v6 v7 v8 v9 v10 v11, word exe -> braceless exe ->
  let vs := [v0; v1; v2; v3; v4; v5; v6; v7; v8; v9; v10; v11] in
  Forall word vs ->
  exists cmd, py_format None (exe ++ py_template) vs = Ok cmd /\
    py_split cmd = exe :: flat (combine wrapper_names vs).
Proof.
  intros exe v0 v1 v2 v3 v4 v5 v6 v7 v8 v9 v10 v11 W B vs F. unfold vs.
  rewrite format_exe, format_template by trivial. cbn [rbind].
  eexists; split; [reflexivity|]. rewrite py_split_command; trivial.
  apply Forall_forall. intros [[g k] v] Hp. cbn [fst snd].
  pose proof (in_combine_l _ _ _ _ Hp) as H1. pose proof (in_combine_r _ _ _ _ Hp) as H2.
  pose proof (in_combine_l _ _ _ _ H1) as H3. pose proof (in_combine_r _ _ _ _ H1) as H4.
  split; [now apply gap_const|]. split; [now apply word_const|].
  rewrite Forall_forall in F. now apply F.
Qed.

Lemma word_app : forall a b, (forall c, In c (chars a) -> py_space c = false) -> word b -> word (a ++ b).
Proof.
  intros a b Ha [N Hb]. split.
  - destruct a; [trivial|discriminate].
  - intros c Hc. induction a as [|x a IH]; cbn in *; [auto|].
    destruct Hc as [<-|Hc]; [apply Ha; now left|]. apply IH; trivial. intros; apply Ha; now right.
Qed.

Definition file_names : list string :=
  ["data.csv"; "dens_grid.csv"; "eval_dens.csv"; "n_clus.csv"; "clus.csv"; "best_clus.csv";
   "chains.recordio"; "hier_params.asciipb"; "mix_params.asciipb"; "algo_params.asciipb"].

Lemma file_word : forall f, In f file_names -> word f /\ word ("/" ++ f).
Proof.
  intros f H. cbn in H.
  repeat (destruct H as [<-|H];
    [split; (split; [discriminate|intros c Hc; cbn in Hc; repeat (destruct Hc as [<-|Hc]; [reflexivity|]); contradiction Hc])|]).
  contradiction.
Qed.

Lemma join_word : forall d f, (forall c, In c (chars d) -> py_space c = false) -> In f file_names ->
  word (join d f).
Proof.
  intros d f Hd Hf. destruct (file_word f Hf). unfold join. destruct (last_is_slash d); now apply word_app.
Qed.

Lemma empty_word : word EMPTYSTR /\ word "memory".
Proof.
  split; (split; [discriminate|intros c Hc; cbn in Hc; repeat (destruct Hc as [<-|Hc]; [reflexivity|]); contradiction Hc]).
Qed.

Lemma join_plain : forall d f, plain d -> d <> "" -> plain (join d f).
Proof.
  intros d f H N. destruct d as [|c d]; [congruence|]. unfold join.
  intros t E. apply (H d). destruct (last_is_slash _); cbn in E; injection E as -> _; reflexivity.
Qed.

(** what the wrapper puts on the disk before the program starts *)
Definition used_file (jn : string -> string -> string) (d p name : string) (fs : files) : string :=
  match fs p with Some _ => p | None => jn d (name ++ ".asciipb") end.

Definition after_print (jn : string -> string -> string) (d p name : string) (fs : files) : files :=
  match fs p with Some _ => fs | None => put fs (jn d (name ++ ".asciipb")) (p ++ nl) end.

Lemma maybe_print_eq : forall jn d p name fs,
  maybe_print jn d p name fs = (after_print jn d p name fs, used_file jn d p name fs).
Proof. intros; unfold maybe_print, after_print, used_file; now destruct (fs p). Qed.

Definition prepared_params (jn : string -> string -> string) (d : string) (q : request) (fs : files) : files :=
  let fs1 := after_print jn d (q_hier_params q) "hier_params" fs in
  let fs2 := after_print jn d (q_mix_params q) "mix_params" fs1 in
  after_print jn d (q_algo_params q) "algo_params" fs2.

Definition prepared (jn : string -> string -> string) (d : string) (q : request) (fs : files) : files :=
  let fs4 := put (prepared_params jn d q fs) (jn d "data.csv") (q_data q) in
  match q_grid q with Some g => put fs4 (jn d "dens_grid.csv") g | None => fs4 end.

Definition words_given (jn : string -> string -> string) (d : string) (q : request) (fs : files) : list string :=
  let fs1 := after_print jn d (q_hier_params q) "hier_params" fs in
  let fs2 := after_print jn d (q_mix_params q) "mix_params" fs1 in
  values jn EMPTYSTR d q (used_file jn d (q_algo_params q) "algo_params" fs2)
    (used_file jn d (q_hier_params q) "hier_params" fs)
    (used_file jn d (q_mix_params q) "mix_params" fs1).

Lemma used_word : forall d p name fs, (forall c, In c (chars d) -> py_space c = false) ->
  In (name ++ ".asciipb") file_names -> (fs p <> None -> word p) -> word (used_file join d p name fs).
Proof.
  intros d p name fs Hd Hn Hp. unfold used_file. destruct (fs p) eqn:E; [apply Hp; discriminate|].
  now apply join_word.
Qed.

(** ** Python *)

Lemma put_same : forall fs f c, put fs f c f = Some c.
Proof. intros; unfold put; now rewrite String.eqb_refl. Qed.
Lemma put_other : forall fs f c g, g <> f -> put fs f c g = fs g.
Proof. intros fs f c g N; unfold put. apply String.eqb_neq in N; now rewrite N. Qed.

(* what is asked of the texts given to a wrapper: [P] holds of the names of the existing
   parameter files *)
Definition given_files (P : string -> Prop) (q : request) (fs : files) : Prop :=
  forall p, In p [q_hier_params q; q_mix_params q; q_algo_params q] -> fs p <> None -> P p.

Lemma after_print_given : forall jn P d p name q fs, given_files P q fs -> P (jn d (name ++ ".asciipb")) ->
  given_files P q (after_print jn d p name fs).
Proof.
  intros jn P d p name q fs H Hj x Hx. unfold after_print. destruct (fs p); [now apply H|].
  intro N. destruct (string_dec x (jn d (name ++ ".asciipb"))) as [->|E]; trivial.
  rewrite put_other in N by trivial. now apply H.
Qed.

Lemma words_given_all : forall jn (P : string -> Prop) d q fs,
  (forall f, In f file_names -> P (jn d f)) -> P EMPTYSTR -> P "memory" ->
  P (q_hier q) -> P (q_mix q) -> given_files P q fs ->
  Forall P (words_given jn d q fs).
Proof.
  intros jn P d q fs Hj He Hm Hh Hx Hg.
  assert (J : forall name, In (name ++ ".asciipb") file_names -> P (jn d (name ++ ".asciipb"))) by auto.
  assert (U : forall p name fs0, given_files P q fs0 -> In p [q_hier_params q; q_mix_params q; q_algo_params q] ->
     In (name ++ ".asciipb") file_names -> P (used_file jn d p name fs0)).
  { intros p name fs0 H0 Hp Hn. unfold used_file. destruct (fs0 p) eqn:E; [apply H0; trivial; congruence|auto]. }
  unfold words_given, values.
  set (fs1 := after_print jn d (q_hier_params q) "hier_params" fs).
  set (fs2 := after_print jn d (q_mix_params q) "mix_params" fs1).
  assert (G1 : given_files P q fs1) by (apply after_print_given; trivial; apply J; cbn; tauto).
  assert (G2 : given_files P q fs2) by (apply after_print_given; trivial; apply J; cbn; tauto).
  clearbody fs1 fs2. unfold or_empty.
  repeat apply Forall_cons; try apply Forall_nil; trivial;
    try (apply U; trivial; cbn; tauto);
    try (destruct (q_chains q); trivial; apply Hj; cbn; tauto);
    try (destruct (wants_grid q); trivial; apply Hj; cbn; tauto);
    try (destruct (q_ncl q); trivial; apply Hj; cbn; tauto);
    try (destruct (q_clus q); trivial; apply Hj; cbn; tauto);
    try (destruct (q_best q); trivial; apply Hj; cbn; tauto);
    try (apply Hj; cbn; tauto).
Qed.

Lemma py_run_words : forall T C (load : string -> res T) (load_chain : string -> res C) proc exe d tmp q fs,
  word exe -> braceless exe -> (forall c, In c (chars d) -> py_space c = false) ->
  word (q_hier q) -> word (q_mix q) -> given_files word q fs ->
  py_run T C load load_chain proc exe d tmp q fs =
  match proc exe (flat (combine wrapper_names (words_given join d q fs))) (prepared join d q fs) with
  | None => (if tmp then rmdir (prepared join d q fs) d else prepared join d q fs, Throw "RuntimeError")
  | Some (fs6, _) =>
      match read_back T C load load_chain join d q fs6 with
      | Ok a => (if tmp then rmdir fs6 d else fs6, Ok a)
      | e => (fs6, e)
      end
  end.
Proof.
  intros T C load load_chain proc exe d tmp q fs We Be Hd Wh Wm Hg.
  unfold py_run. rewrite !maybe_print_eq.
  pose proof (words_given_all join word d q fs) as F.
  specialize (F (fun f Hf => join_word d f Hd Hf) (proj1 empty_word) (proj2 empty_word) Wh Wm Hg).
  unfold words_given in F |- *.
  set (vs := values join EMPTYSTR d q _ _ _) in *.
  destruct (py_words exe (nth 0 vs "") (nth 1 vs "") (nth 2 vs "") (nth 3 vs "") (nth 4 vs "")
     (nth 5 vs "") (nth 6 vs "") (nth 7 vs "") (nth 8 vs "") (nth 9 vs "") (nth 10 vs "") (nth 11 vs "")
     We Be F) as (cmd & E1 & E2).
  change [nth 0 vs ""; nth 1 vs ""; nth 2 vs ""; nth 3 vs ""; nth 4 vs "";
     nth 5 vs ""; nth 6 vs ""; nth 7 vs ""; nth 8 vs ""; nth 9 vs ""; nth 10 vs ""; nth 11 vs ""] with vs in *.
  rewrite E1, E2. unfold prepared, prepared_params. reflexivity.
Qed.

Lemma combine_fst : forall (vs : list string), length vs = 12 -> map fst (combine wrapper_names vs) = wrapper_names.
Proof.
  intros vs H. do 13 (destruct vs as [|? vs]; try discriminate H); reflexivity.
Qed.

Lemma wrapper_parse : forall vs, length vs = 12 -> Forall plain vs ->
  exists st, parse_args run_options (flat (combine wrapper_names vs)) = Parsed st /\
    (forall n v, In (n, v) (combine wrapper_names vs) -> get st n = Ok v) /\
    (forall n, In n ["--hier-cov-file"; "--hier-grid-cov-file"; "--mix-cov-file"; "--mix-grid-cov-file"] ->
       get st n = Ok EMPTYSTR).
Proof.
  intros vs L F.
  assert (ND : NoDup wrapper_names).
  { repeat (apply NoDup_cons; [cbn; intro H; repeat (destruct H as [H|H]; [discriminate H|]); contradiction|]).
    apply NoDup_nil. }
  destruct (parse_pairs (combine wrapper_names vs)) as (st & E & G1 & G2 & _).
  - split; [|split].
    + now rewrite combine_fst.
    + rewrite combine_fst by trivial. intros x Hx. cbn in Hx |- *. tauto.
    + apply Forall_forall. intros [n v] Hp. apply in_combine_r in Hp. rewrite Forall_forall in F. now apply F.
  - rewrite combine_fst by trivial. intros x Hx. cbn in Hx |- *. tauto.
  - exists st. repeat split; trivial. intros n Hn. apply G2.
    + cbn in Hn |- *. tauto.
    + rewrite combine_fst by trivial. intro C. cbn in Hn.
      repeat (destruct Hn as [<-|Hn]; [cbn in C; repeat (destruct C as [C|C]; [discriminate C|]); contradiction|]).
      contradiction.
Qed.

Lemma words_given_length : forall jn d q fs, length (words_given jn d q fs) = 12.
Proof. reflexivity. Qed.

Lemma empty_plain : plain EMPTYSTR /\ plain "memory".
Proof. split; intros t E; discriminate E. Qed.

Lemma py_accepted : forall d q fs, plain d -> d <> "" -> plain (q_hier q) -> plain (q_mix q) ->
  given_files plain q fs ->
  exists st, parse_args run_options (flat (combine wrapper_names (words_given join d q fs))) = Parsed st /\
    (forall n v, In (n, v) (combine wrapper_names (words_given join d q fs)) -> get st n = Ok v) /\
    (forall n, In n ["--hier-cov-file"; "--hier-grid-cov-file"; "--mix-cov-file"; "--mix-grid-cov-file"] ->
       get st n = Ok EMPTYSTR).
Proof.
  intros d q fs Hd N Hh Hm Hg. apply wrapper_parse; [apply words_given_length|].
  apply words_given_all; trivial; try apply empty_plain. intros; now apply join_plain.
Qed.

(** ** The main program: which files change *)

Section Frame.
  Variable writable : string -> bool.
  Variable g : string.

  Definition keeps {A} (m : prog A) : Prop := forall fs, fst (m fs) g = fs g.

  Lemma keeps_ret : forall A (a : A), keeps (ret a).
  Proof. intros A a fs; reflexivity. Qed.
  Lemma keeps_lift : forall A (r : res A), keeps (lift r).
  Proof. intros A r fs; reflexivity. Qed.
  Lemma keeps_bind : forall A B (m : prog A) (k : A -> prog B), keeps m -> (forall a, keeps (k a)) -> keeps (bind m k).
  Proof.
    intros A B m k Hm Hk fs. unfold bind. specialize (Hm fs).
    destruct (m fs) as [fs' [a|s| |]]; cbn in *; trivial. now rewrite Hk.
  Qed.
  Lemma keeps_lift_bind : forall A B (r : res A) (k : A -> prog B),
    (forall a, r = Ok a -> keeps (k a)) -> keeps (bind (lift r) k).
  Proof.
    intros A B r k Hk fs. unfold bind, lift. destruct r as [a|s| |]; trivial. now apply Hk.
  Qed.
  Lemma keeps_if : forall A (b : bool) (m n : prog A), keeps m -> keeps n -> keeps (if b then m else n).
  Proof. intros A [] m n Hm Hn; trivial. Qed.
  Lemma keeps_write : forall f c, f <> g -> keeps (write_file writable f c).
  Proof.
    intros f c N fs. unfold write_file; cbn. destruct (writable f); trivial. now apply put_other, not_eq_sym.
  Qed.
  Lemma keeps_check : forall f, f <> g -> keeps (check_file_is_writeable writable f).
  Proof.
    intros f N fs. unfold check_file_is_writeable. destruct (writable f); trivial. now apply put_other, not_eq_sym.
  Qed.
End Frame.

Section Program.
  Variable writable : string -> bool.
  Variables O M T : Type.
  Variable read_text : string -> res T.
  Variable build : option string -> string -> option string -> string -> option string -> res O.
  Variables hdep mdep : O -> bool.
  Variable n_rows : T -> nat.
  Variable sample : O -> T -> option T -> option T -> res (list M).
  Variable encode : list M -> string.
  Variable decode : string -> res (list M).
  Variable left_over : string.
  Variable eval : O -> list M -> T -> option T -> option T -> res T.
  Variable show : T -> string.
  Variable show_int : list (list nat) -> string.
  Variable allocs : M -> list nat.
  Variable nclus : M -> nat.
  Variable blank : M.
  Variable estimate : list (list nat) -> res (list nat).

  Notation main := (main_program writable O M T read_text build hdep mdep n_rows sample encode decode
    left_over eval show show_int allocs nclus blank estimate).
  Notation body := (main_body writable O M T read_text build hdep mdep n_rows sample encode decode
    left_over eval show show_int allocs nclus blank estimate).

  (* the options that name output files *)
  Definition outputs_names : list string :=
    ["--coll-name"; "--dens-file"; "--n-cl-file"; "--clus-file"; "--best-clus-file"].

  Lemma keeps_read : forall g f, keeps g (read_matrix T read_text f).
  Proof. intros g f fs. unfold read_matrix. now destruct (fs f). Qed.

  Lemma keeps_read_if : forall g b st n, keeps g (read_if T read_text b st n).
  Proof.
    intros g [] st n; unfold read_if; [|apply keeps_ret].
    apply keeps_bind; [apply keeps_lift|]. intro f. apply keeps_bind; [apply keeps_read|]. intro; apply keeps_ret.
  Qed.

  Lemma keeps_check_one : forall g st u n, get st n <> Ok g -> keeps g (check_one writable st u n).
  Proof.
    intros g st u n H. unfold check_one. apply keeps_lift_bind. intros a E.
    apply keeps_if; [apply keeps_ret|]. apply keeps_check. congruence.
  Qed.

  Lemma keeps_collected : forall g st l, keeps g (collected M decode st l).
  Proof.
    intros g st l. unfold collected. apply keeps_bind; [apply keeps_lift|]. intro c.
    apply keeps_if; [apply keeps_ret|]. intro fs. now destruct (fs c).
  Qed.

  Lemma keeps_body : forall g st, (forall n, In n outputs_names -> get st n <> Ok g) -> keeps g (body st).
  Proof.
    intros g st H.
    assert (H0 : forall n f, In n outputs_names -> get st n = Ok f -> f <> g).
    { intros n f Hn E C. apply (H n Hn). now rewrite E, C. }
    unfold main_body. apply keeps_bind.
    { unfold check_args. repeat (apply keeps_bind; [|intros _]);
        apply keeps_check_one; apply H; cbn; tauto. }
    intros _. apply keeps_bind.
    { unfold configure_and_run.
      apply keeps_bind; [apply keeps_lift|]. intro fa. apply keeps_bind; [intro; reflexivity|]. intro a.
      apply keeps_bind; [apply keeps_lift|]. intro ht. apply keeps_bind; [apply keeps_lift|]. intro mt.
      apply keeps_lift_bind. intros coll Ec.
      assert (Hc : coll <> g) by (eapply H0; [|exact Ec]; cbn; tauto).
      do 4 (apply keeps_bind; [first [apply keeps_lift | intro; reflexivity]|]; intro).
      apply keeps_bind; [apply keeps_lift|]. intro o. apply keeps_bind; [apply keeps_lift|]. intro fd.
      apply keeps_bind; [apply keeps_read|]. intro data.
      apply keeps_bind; [apply keeps_read_if|]. intro hc. apply keeps_bind; [apply keeps_read_if|]. intro mc.
      destruct (sample o data hc mc); (apply keeps_bind;
        [apply keeps_if; [apply keeps_ret|now apply keeps_write]|intros _; try apply keeps_ret]);
        (apply keeps_bind; [apply keeps_lift|intros _; apply keeps_ret]). }
    intros [[o data] chain]. apply keeps_bind.
    { unfold density. apply keeps_bind; [apply keeps_lift|]. intro gr.
      apply keeps_lift_bind. intros d Ed.
      assert (Hd : d <> g) by (eapply H0; [|exact Ed]; cbn; tauto).
      apply keeps_if; [|apply keeps_ret].
      apply keeps_bind; [apply keeps_read|]. intro grid.
      apply keeps_bind; [apply keeps_read_if|]. intro hc. apply keeps_bind; [apply keeps_read_if|]. intro mc.
      apply keeps_bind; [apply keeps_collected|]. intro sts. apply keeps_bind; [apply keeps_lift|]. intro r.
      now apply keeps_write. }
    intros _. unfold clusterings.
    apply keeps_lift_bind. intros fn En. apply keeps_lift_bind. intros fc Ec. apply keeps_lift_bind. intros fb Eb.
    assert (Hn : fn <> g) by (eapply H0; [|exact En]; cbn; tauto).
    assert (Hc : fc <> g) by (eapply H0; [|exact Ec]; cbn; tauto).
    assert (Hb : fb <> g) by (eapply H0; [|exact Eb]; cbn; tauto).
    apply keeps_if; [|apply keeps_ret].
    apply keeps_bind; [apply keeps_collected|]. intro sts. apply keeps_bind; [apply keeps_lift|]. intro rows.
    apply keeps_bind; [apply keeps_if; [apply keeps_ret|now apply keeps_write]|]. intros _.
    apply keeps_bind; [apply keeps_if; [apply keeps_ret|now apply keeps_write]|]. intros _.
    apply keeps_if; [apply keeps_ret|]. apply keeps_bind; [apply keeps_lift|]. intro b. now apply keeps_write.
  Qed.

  Lemma main_frame : forall words fs g,
    (forall st n, parse_args run_options words = Parsed st -> In n outputs_names -> get st n <> Ok g) ->
    fst (main words fs) g = fs g.
  Proof.
    intros words fs g H. unfold main_program.
    destruct (parse_args run_options words) as [st| |] eqn:P; trivial.
    pose proof (keeps_body g st (fun n Hn => H st n eq_refl Hn) fs) as K.
    destruct (body st fs) as [fs' [u|s| |]]; exact K.
  Qed.

  (** no collector named *)
  Lemma main_no_coll : forall kv fs, pairs_ok kv -> incl required_names (map fst kv) ->
    ~ In "--coll-name" (map fst kv) -> main (flat kv) fs = (fs, Terminated).
  Proof.
    intros kv fs H R N. destruct (parse_pairs kv H R) as (st & P & _ & _ & G).
    unfold main_program. rewrite P. unfold main_body, check_args, check_one at 1.
    unfold bind at 1 2 3, lift. now rewrite (G N).
  Qed.

  (** ** A successful run *)
End Program.

Section Checks.
  Variable writable : string -> bool.


  Lemma bind_Ok : forall A B (m : prog A) (k : A -> prog B) fs fs' b,
    bind m k fs = (fs', Ok b) -> exists fs1 a, m fs = (fs1, Ok a) /\ k a fs1 = (fs', Ok b).
  Proof.
    intros A B m k fs fs' b H. unfold bind in H. destruct (m fs) as [fs1 [a|s| |]] eqn:E; try discriminate H. eauto.
  Qed.
  Lemma lift_Ok : forall A B (r : res A) (k : A -> prog B) fs fs' b,
    bind (lift r) k fs = (fs', Ok b) -> exists a, r = Ok a /\ k a fs = (fs', Ok b).
  Proof.
    intros A B r k fs fs' b H. apply bind_Ok in H as (fs1 & a & E & K). unfold lift in E.
    injection E as <- ->. eauto.
  Qed.

  Definition emptied (l : list string) (fs fs' : files) : Prop :=
    (forall f, In f l -> fs' f = Some "") /\ (forall f, ~ In f l -> fs' f = fs f).

  (* the names that are really opened for writing *)
  Definition requested (st : list argument) : list string :=
    flat_map (fun p => match get st (snd p) with
                       | Ok v => if v =? fst p then [] else [v]
                       | _ => [] end)
      [("memory", "--coll-name"); (EMPTYSTR, "--dens-file"); (EMPTYSTR, "--n-cl-file");
       (EMPTYSTR, "--clus-file"); (EMPTYSTR, "--best-clus-file")].

  Lemma check_one_Ok : forall st u n fs fs' x, check_one writable st u n fs = (fs', Ok x) ->
    exists v, get st n = Ok v /\ (v <> u -> writable v = true) /\
      emptied (if v =? u then [] else [v]) fs fs'.
  Proof.
    intros st u n fs fs' x H. unfold check_one in H. apply lift_Ok in H as (v & E & K).
    exists v. split; trivial. destruct (v =? u) eqn:Ev.
    - injection K as <- _. split; [intro N; apply String.eqb_eq in Ev; congruence|].
      split; [intros f []|trivial].
    - unfold check_file_is_writeable in K. destruct (writable v) eqn:W; [|discriminate].
      injection K as <- _. split; trivial. split.
      + intros f [<-|[]]. apply put_same.
      + intros f N. apply put_other. intros ->. apply N; now left.
  Qed.

  Lemma emptied_app : forall a b fs1 fs2 fs3, emptied a fs1 fs2 -> emptied b fs2 fs3 -> emptied (a ++ b) fs1 fs3.
  Proof.
    intros a b fs1 fs2 fs3 [A1 A2] [B1 B2]. split.
    - intros f H. destruct (in_dec string_dec f b) as [I|I]; [now apply B1|].
      rewrite B2 by trivial. apply A1. apply in_app_or in H. tauto.
    - intros f H. rewrite B2, A2; trivial; intro C; apply H; apply in_or_app; tauto.
  Qed.

  Lemma check_args_Ok : forall st fs fs' x, check_args writable st fs = (fs', Ok x) ->
    emptied (requested st) fs fs' /\ (forall f, In f (requested st) -> writable f = true) /\
    (forall n, In n outputs_names -> exists v, get st n = Ok v).
  Proof.
    intros st fs fs' x H. unfold check_args in H.
    apply bind_Ok in H as (f1 & u1 & H1 & H). apply bind_Ok in H as (f2 & u2 & H2 & H).
    apply bind_Ok in H as (f3 & u3 & H3 & H). apply bind_Ok in H as (f4 & u4 & H4 & H5).
    apply check_one_Ok in H1 as (v1 & E1 & W1 & M1). apply check_one_Ok in H2 as (v2 & E2 & W2 & M2).
    apply check_one_Ok in H3 as (v3 & E3 & W3 & M3). apply check_one_Ok in H4 as (v4 & E4 & W4 & M4).
    apply check_one_Ok in H5 as (v5 & E5 & W5 & M5).
    unfold requested. cbn [flat_map fst snd]. rewrite E1, E2, E3, E4, E5, app_nil_r. repeat split.
    1,2: pose proof (emptied_app _ _ _ _ _ M1 (emptied_app _ _ _ _ _ M2 (emptied_app _ _ _ _ _ M3
           (emptied_app _ _ _ _ _ M4 M5)))) as [A B]; assumption.
    - intros f Hf. repeat (apply in_app_or in Hf as [Hf|Hf]);
        match type of Hf with In _ (if ?v =? ?u then _ else _) =>
          destruct (v =? u) eqn:Ev; [destruct Hf|destruct Hf as [<-|[]]]; apply String.eqb_neq in Ev; auto end.
    - intros n Hn. cbn in Hn. repeat (destruct Hn as [<-|Hn]; [eauto|]). contradiction.
  Qed.
End Checks.
