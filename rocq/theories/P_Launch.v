(** * C100-C104: arguments, the main program and its wrappers in Python and R. *)
From Coq Require Import String Ascii.
From Coq Require Import List Bool Arith Lia.
From Verif Require Import Base Args ArgsFacts Main Launch LaunchFacts LaunchMore WrapFacts.
Import ListNotations.
Local Open Scope string_scope.

(** ** A small program for the examples: the chain has as many states as the data has
    characters, every state is one cluster with both data *)
Definition toy_writable (f : string) : bool := negb (f =? "").
Definition toy_build (a : option string) (ht : string) (h : option string) (mt : string) (m : option string) : res unit :=
  match a, h, m with Some _, Some _, Some _ => Ok tt | _, _, _ => Throw "no parameters" end.
Definition toy_sample (_ : unit) (d : string) (_ _ : option string) : res (list unit) := Ok (repeat tt (String.length d)).
Fixpoint toy_encode (l : list unit) : string := match l with [] => "" | _ :: t => String "s" (toy_encode t) end.
Definition toy_decode (s : string) : res (list unit) := Ok (repeat tt (String.length s)).
Definition toy_show (l : list (list nat)) : string :=
  string_of_list_ascii (flat_map (fun r => (map (fun n => ascii_of_nat (48 + n)) r ++ [";"%char])%list) l).
Definition toy_estimate (l : list (list nat)) : res (list nat) := match l with r :: _ => Ok r | [] => Throw "no rows" end.
Definition toy_main : list string -> files -> files * ended :=
  main_program toy_writable unit unit string Ok toy_build (fun _ => false) (fun _ => false) (fun _ => 2) toy_sample
    toy_encode toy_decode "cut" (fun _ l g _ _ => Ok (g ++ toy_encode l)) (fun s => s) toy_show (fun _ => [0; 0]) (fun _ => 1) tt
    toy_estimate.
(* a build that always fails *)
Definition bad_main : list string -> files -> files * ended :=
  main_program toy_writable unit unit string Ok (fun _ _ _ _ _ => Throw "unknown hierarchy") (fun _ => false) (fun _ => false)
    (fun _ => 2) toy_sample toy_encode toy_decode "cut" (fun _ l g _ _ => Ok (g ++ toy_encode l)) (fun s => s) toy_show
    (fun _ => [0; 0]) (fun _ => 1) tt toy_estimate.

Definition toy_kv : list (string * string) :=
  [("--algo-params-file", "a"); ("--hier-type", "NNIG"); ("--hier-args", "h"); ("--mix-type", "DP"); ("--mix-args", "m");
   ("--coll-name", "chain"); ("--data-file", "data"); ("--grid-file", "grid"); ("--dens-file", "dens");
   ("--n-cl-file", "ncl"); ("--clus-file", "clus"); ("--best-clus-file", "best")].
Definition toy_files : files := fun f =>
  match find (fun p => f =? fst p) [("a", "algo"); ("h", "hier"); ("m", "mix"); ("data", "xy"); ("grid", "g"); ("dens", "old"); ("other", "kept")] with
  | Some p => Some (snd p) | None => None end.

Lemma toy_pairs : pairs_ok toy_kv.
Proof.
  split; [|split].
  - cbn [map fst toy_kv]. repeat (apply NoDup_cons; [cbn; intro H; repeat (destruct H as [H|H]; [discriminate H|]); contradiction|]). apply NoDup_nil.
  - intros x H. cbn [map fst toy_kv] in H. repeat (destruct H as [<-|H]; [pick|]). contradiction.
  - repeat (apply Forall_cons; [intros t E; discriminate E|]). apply Forall_nil.
Qed.
Lemma toy_required : incl ("--coll-name" :: required_names) (map fst toy_kv).
Proof. intros x H. repeat (destruct H as [<-|H]; [pick|]). contradiction. Qed.

(** ** C100 *)

(** The test for numbers follows the grammar written beside it. *)
Theorem C100_literal_grammar : forall s, is_decimal_literal s = true <-> decimal_literal s.
Proof. exact literal_grammar. Qed.
Print Assumptions C100_literal_grammar.
Example ex_C100_literal : is_decimal_literal "12.5e-3" = true /\ is_decimal_literal "12.e" = false /\ decimal_literal "0.5".
Proof.
  repeat split; try reflexivity. apply (dl_int_frac "0" ".5").
  - split; [|discriminate]. constructor; [pick|constructor].
  - apply (fp "5" ""); [split; [constructor; [pick|constructor]|discriminate]|now left].
Qed.

(** What can follow an option as its value: words that do not begin with a dash, a
    lone dash, and negative numbers. *)
Definition value_like (w : string) : Prop := plain w \/ w = "-" \/ exists t, w = String "-" t /\ decimal_literal t.
Theorem C100_value_like : forall w, is_positional w = true <-> value_like w.
Proof.
  intros [|c t]; cbn [is_positional].
  - split; [|reflexivity]. intros _. left. intros t E. discriminate E.
  - destruct (c =? "-")%char eqn:E.
    + apply Ascii.eqb_eq in E. subst c. destruct t as [|c t]; [split; [intros _; right; now left|reflexivity]|].
      rewrite literal_grammar. split.
      * intro H. right. right. eexists. split; [reflexivity|exact H].
      * intros [H|[H|(u & H & L)]]; [now destruct (H (String c t))|discriminate H|]. injection H as <-. exact L.
    + apply Ascii.eqb_neq in E. split; [|reflexivity]. intros _. left. intros u F. injection F as -> _. now apply E.
Qed.
Print Assumptions C100_value_like.
Example ex_C100_value_like : value_like "-" /\ value_like "-1" /\ ~ value_like "-x" /\ ~ value_like "--seed".
Proof. rewrite <- !C100_value_like. repeat split; discriminate. Qed.

(** Options given once each, in any order, with values that do not look like options. *)
Theorem C100_parse_pairs : forall kv, pairs_ok kv -> incl required_names (map fst kv) ->
  exists st, parse_args run_options (flat kv) = Parsed st /\
    (forall n v, In (n, v) kv -> get st n = Ok v) /\
    (forall n, In n optional_names -> ~ In n (map fst kv) -> get st n = Ok EMPTYSTR).
Proof.
  intros kv H R. destruct (parse_pairs kv H R) as (st & P & G & D & _). exists st; auto.
Qed.
Print Assumptions C100_parse_pairs.
Example ex_C100_pairs : pairs_ok toy_kv /\ incl required_names (map fst toy_kv) /\ pairs_ok (rev toy_kv) /\
  (exists st, parse_args run_options (flat (rev toy_kv)) = Parsed st /\ get st "--hier-type" = Ok "NNIG" /\ get st "--mix-cov-file" = Ok EMPTYSTR).
Proof.
  split; [exact toy_pairs|]. split; [intros x Hx; apply toy_required; now right|]. split.
  - destruct toy_pairs as (A & B & C). split; [|split].
    + rewrite map_rev. now apply NoDup_rev.
    + rewrite map_rev. intros x Hx. apply B. now apply in_rev.
    + now apply Forall_rev.
  - eexists. split; [vm_compute; reflexivity|]. split; reflexivity.
Qed.

(** Everything else that one may type is refused with exit status 1. *)
Theorem C100_refused : forall kv, pairs_ok kv ->
  (forall n, In n required_names -> ~ In n (map fst kv) -> parse_args run_options (flat kv) = Invalid) /\
  (forall w rest, value_like w -> parse_args run_options (flat kv ++ w :: rest)%list = Invalid) /\
  (forall k rest, ~ In (String "-" (String "-" k)) ("--help" :: "--version" :: all_names) ->
     parse_args run_options (flat kv ++ String "-" (String "-" k) :: rest)%list = Invalid) /\
  (forall k rest, In k (map fst kv) -> parse_args run_options (flat kv ++ k :: rest)%list = Invalid) /\
  (forall k v rest, In k all_names -> ~ value_like v -> parse_args run_options (flat kv ++ k :: v :: rest)%list = Invalid) /\
  (forall k, In k ("--coll-name" :: required_names) -> ~ In k (map fst kv) -> parse_args run_options (flat kv ++ [k])%list = Invalid).
Proof.
  intros kv H. repeat split; intros.
  - now apply (parse_missing kv n).
  - apply parse_stray; [exact H|now apply C100_value_like].
  - now apply parse_unknown.
  - now apply parse_duplicate.
  - apply parse_value; auto. destruct (is_positional v) eqn:E; [|reflexivity]. apply C100_value_like in E. contradiction.
  - now apply parse_trailing_bad.
Qed.
Print Assumptions C100_refused.
Example ex_C100_refused : pairs_ok [("--hier-type", "NNIG")] /\ ~ In "--data-file" (map fst [("--hier-type", "NNIG")]) /\
  value_like "stray" /\ ~ In "--burnin" ("--help" :: "--version" :: all_names) /\ ~ value_like "-x" /\ value_like "-1.5".
Proof.
  rewrite <- !C100_value_like. repeat split; try reflexivity; try discriminate.
  - repeat constructor. intros [].
  - intros x [<-|[]]. pick.
  - repeat constructor. intros t E; discriminate E.
  - cbn. intros [H|[]]. discriminate H.
  - intro H. repeat (destruct H as [H|H]; [discriminate H|]). contradiction.
Qed.

Theorem C100_help : forall kv k rest, pairs_ok kv -> In k ["-h"; "--help"; "-v"; "--version"] ->
  parse_args run_options (flat kv ++ k :: rest)%list = ExitOk.
Proof. exact parse_help. Qed.
Print Assumptions C100_help.
Example ex_C100_help : parse_args run_options ["--hier-type"; "NNIG"; "-h"] = ExitOk.
Proof. reflexivity. Qed.

(** A last option without its value is taken for its default. *)
Theorem C100_trailing_option : forall kv k, pairs_ok kv -> incl required_names (map fst kv) ->
  In k optional_names -> ~ In k (map fst kv) ->
  exists st, parse_args run_options (flat kv ++ [k])%list = Parsed st /\ get st k = Ok EMPTYSTR /\
    (forall n v, In (n, v) kv -> get st n = Ok v).
Proof. exact parse_trailing. Qed.
Print Assumptions C100_trailing_option.
Example ex_C100_trailing : In "--mix-cov-file" optional_names /\ ~ In "--mix-cov-file" (map fst toy_kv).
Proof. split; [pick|]. intro H. repeat (destruct H as [H|H]; [discriminate H|]). contradiction. Qed.

Theorem C100_missing_value_refused_refuted : exists kv k st, pairs_ok kv /\ incl required_names (map fst kv) /\
  In k all_names /\ ~ In k (map fst kv) /\ parse_args run_options (flat kv ++ [k])%list = Parsed st.
Proof.
  exists toy_kv, "--mix-cov-file".
  destruct (parse_trailing toy_kv "--mix-cov-file") as (st & P & _).
  - exact toy_pairs.
  - intros x Hx. apply toy_required. now right.
  - apply ex_C100_trailing.
  - apply ex_C100_trailing.
  - exists st. split; [exact toy_pairs|]. split; [intros x Hx; apply toy_required; now right|]. split; [pick|].
    split; [apply ex_C100_trailing|exact P].
Qed.
Print Assumptions C100_missing_value_refused_refuted.

(** The default of --coll-name cannot be read. *)
Theorem C100_defaults_usable_refuted : exists kv st, pairs_ok kv /\ incl required_names (map fst kv) /\
  parse_args run_options (flat kv) = Parsed st /\ get st "--coll-name" = Throw "bad any_cast".
Proof.
  set (kv := [("--algo-params-file", "a"); ("--hier-type", "NNIG"); ("--hier-args", "h"); ("--mix-type", "DP"); ("--mix-args", "m"); ("--data-file", "data")]).
  assert (H : pairs_ok kv).
  { split; [|split].
    - repeat (apply NoDup_cons; [cbn; intro H; repeat (destruct H as [H|H]; [discriminate H|]); contradiction|]). apply NoDup_nil.
    - intros x Hx. repeat (destruct Hx as [<-|Hx]; [pick|]). contradiction.
    - repeat (apply Forall_cons; [intros t E; discriminate E|]). apply Forall_nil. }
  assert (R : incl required_names (map fst kv)) by (intros x Hx; repeat (destruct Hx as [<-|Hx]; [pick|]); contradiction).
  destruct (parse_pairs kv H R) as (st & P & _ & _ & G). exists kv, st. repeat (split; trivial; try apply H).
  apply G. cbn. intro C. repeat (destruct C as [C|C]; [discriminate C|]). contradiction.
Qed.
Print Assumptions C100_defaults_usable_refuted.

(** ** C101 *)
Section Program.
  Variable writable : string -> bool.
  Variables O M T : Type.
  Variable read_text : string -> res T.
  Variable build : option string -> string -> option string -> string -> option string -> res O.
  Variables hdep mdep : O -> bool.
  Variable n_rows : T -> nat.
  Variable sample : O -> T -> option T -> option T -> res (list M).
  Variable encode : list M -> string.
  Variable decode : string -> res (list M).
  Variable left_over : string.
  Variable eval : O -> list M -> T -> option T -> option T -> res T.
  Variable show : T -> string.
  Variable show_int : list (list nat) -> string.
  Variable allocs : M -> list nat.
  Variable nclus : M -> nat.
  Variable blank : M.
  Variable estimate : list (list nat) -> res (list nat).

  Notation main := (main_program writable O M T read_text build hdep mdep n_rows sample encode decode
    left_over eval show show_int allocs nclus blank estimate).

  (** A run that ends well has written what was asked for, computed from the inputs as
      they were at the start. *)
  Theorem C101_outputs : (forall l, decode (encode l) = Ok l) ->
    forall words fs fs' st, parse_args run_options words = Parsed st -> separate st -> main words fs = (fs', Exited 0) ->
    wrote O M T read_text build hdep mdep n_rows sample encode eval show show_int allocs nclus estimate st fs fs'.
  Proof. intro Hd. exact (main_success writable O M T read_text build hdep mdep n_rows sample encode decode
    left_over eval show show_int allocs nclus blank estimate Hd). Qed.

  (** No other file is touched, however the run ends. *)
  Theorem C101_other_files : forall words fs g,
    (forall st n, parse_args run_options words = Parsed st -> In n outputs_names -> get st n <> Ok g) ->
    fst (main words fs) g = fs g.
  Proof. exact (main_frame writable O M T read_text build hdep mdep n_rows sample encode decode
    left_over eval show show_int allocs nclus blank estimate). Qed.

  (** Refused arguments change nothing. *)
  Theorem C101_refused : forall words fs, parse_args run_options words = Invalid -> main words fs = (fs, Exited 1).
  Proof. intros words fs H. unfold main_program. now rewrite H. Qed.

  (** An output that cannot be written ends the program. *)
  Theorem C101_unwritable : forall words fs st f, parse_args run_options words = Parsed st -> In f (requested st) ->
    writable f = false -> snd (main words fs) = Terminated.
  Proof. exact (main_unwritable writable O M T read_text build hdep mdep n_rows sample encode decode
    left_over eval show show_int allocs nclus blank estimate). Qed.

  (** Without --coll-name the program is terminated before it does anything. *)
  Theorem C101_no_collector_name : forall kv fs, pairs_ok kv -> incl required_names (map fst kv) ->
    ~ In "--coll-name" (map fst kv) -> main (flat kv) fs = (fs, Terminated).
  Proof. exact (main_no_coll writable O M T read_text build hdep mdep n_rows sample encode decode
    left_over eval show show_int allocs nclus blank estimate). Qed.

  (** A run that cannot even be set up has emptied every output file. *)
  Theorem C101_failure_empties : forall kv fs, (forall a b c d e, exists s, build a b c d e = Throw s) ->
    pairs_ok kv -> incl ("--coll-name" :: required_names) (map fst kv) ->
    (forall n v, In (n, v) kv -> writable v = true) ->
    exists fs', main (flat kv) fs = (fs', Terminated) /\
      (forall n v, In (n, v) kv -> In n ["--dens-file"; "--n-cl-file"; "--clus-file"; "--best-clus-file"] ->
         v <> EMPTYSTR -> fs' v = Some "") /\
      (forall v, In ("--coll-name", v) kv -> v <> "memory" -> fs' v = Some "").
  Proof. exact (main_build_fails writable O M T read_text build hdep mdep n_rows sample encode decode
    left_over eval show show_int allocs nclus blank estimate). Qed.
End Program.
Print Assumptions C101_outputs.
Print Assumptions C101_other_files.
Print Assumptions C101_refused.
Print Assumptions C101_unwritable.
Print Assumptions C101_no_collector_name.
Print Assumptions C101_failure_empties.

Lemma toy_decode_encode : forall l, toy_decode (toy_encode l) = Ok l.
Proof.
  intro l. unfold toy_decode. f_equal. induction l as [|[] l IH]; cbn; [reflexivity|]. now rewrite IH.
Qed.
Example ex_C101_outputs : exists st fs', parse_args run_options (flat toy_kv) = Parsed st /\ separate st /\
  toy_main (flat toy_kv) toy_files = (fs', Exited 0) /\
  map fs' ["chain"; "dens"; "ncl"; "clus"; "best"; "other"] =
  [Some "ss"; Some "gss"; Some "1;1;"; Some "00;00;"; Some "0;0;"; Some "kept"].
Proof.
  destruct (parse_pairs toy_kv toy_pairs (fun x Hx => toy_required x (or_intror Hx))) as (st & P & G & D & _).
  eexists st, _. split; [exact P|]. split; [|split; [vm_compute; reflexivity|reflexivity]].
  assert (R : requested st = ["chain"; "dens"; "ncl"; "clus"; "best"]).
  { vm_compute in P. injection P as <-. reflexivity. }
  unfold separate. rewrite R. split.
  - repeat (apply NoDup_cons; [cbn; intro H; repeat (destruct H as [H|H]; [discriminate H|]); contradiction|]). apply NoDup_nil.
  - clear R G D. vm_compute in P. injection P as <-. intros n f Hn E.
    repeat (destruct Hn as [<-|Hn]; [vm_compute in E; injection E as <-; cbn; intro H; repeat (destruct H as [H|H]; [discriminate H|]); contradiction|]).
    contradiction.
Qed.
Example ex_C101_failure : exists fs', bad_main (flat toy_kv) toy_files = (fs', Terminated) /\ toy_files "dens" = Some "old" /\ fs' "dens" = Some "".
Proof. eexists. split; [vm_compute; reflexivity|]. split; reflexivity. Qed.
Example ex_C101_unwritable : exists st, parse_args run_options (flat (("--dens-file", "") :: filter (fun p => negb (fst p =? "--dens-file")) toy_kv)) = Parsed st /\
  In "" (requested st) /\ toy_writable "" = false.
Proof. eexists. split; [vm_compute; reflexivity|]. split; [cbn; tauto|reflexivity]. Qed.
Example ex_C101_refused : parse_args run_options ["--help-me"] = Invalid.
Proof. reflexivity. Qed.
Example ex_C101_other : forall st n, parse_args run_options (flat toy_kv) = Parsed st -> In n outputs_names -> get st n <> Ok "data".
Proof.
  intros st n P Hn. vm_compute in P. injection P as <-.
  repeat (destruct Hn as [<-|Hn]; [vm_compute; discriminate|]). contradiction.
Qed.
Example ex_C101_no_coll : exists kv, pairs_ok kv /\ incl required_names (map fst kv) /\ ~ In "--coll-name" (map fst kv).
Proof.
  exists [("--algo-params-file", "a"); ("--hier-type", "NNIG"); ("--hier-args", "h"); ("--mix-type", "DP"); ("--mix-args", "m"); ("--data-file", "data")].
  split; [split; [|split]|split].
  - repeat (apply NoDup_cons; [cbn; intro H; repeat (destruct H as [H|H]; [discriminate H|]); contradiction|]). apply NoDup_nil.
  - intros x Hx. repeat (destruct Hx as [<-|Hx]; [pick|]). contradiction.
  - repeat (apply Forall_cons; [intros t E; discriminate E|]). apply Forall_nil.
  - intros x Hx; repeat (destruct Hx as [<-|Hx]; [pick|]); contradiction.
  - cbn. intro C. repeat (destruct C as [C|C]; [discriminate C|]). contradiction.
Qed.

(** Old results do not survive a failed run. *)
Theorem C101_failure_keeps_outputs_refuted : exists kv fs fs', pairs_ok kv /\
  bad_main (flat kv) fs = (fs', Terminated) /\ fs "dens" = Some "old" /\ fs' "dens" = Some "".
Proof. exists toy_kv, toy_files. destruct ex_C101_failure as (fs' & A & B & C). exists fs'. split; [exact toy_pairs|auto]. Qed.
Print Assumptions C101_failure_keeps_outputs_refuted.

(** An output with the name of the data file destroys the data before it is read. *)
Definition alias_kv : list (string * string) :=
  [("--algo-params-file", "a"); ("--hier-type", "NNIG"); ("--hier-args", "h"); ("--mix-type", "DP"); ("--mix-args", "m");
   ("--coll-name", "memory"); ("--data-file", "data"); ("--clus-file", "data")].
Theorem C101_inputs_kept_refuted : exists fs', pairs_ok alias_kv /\ toy_main (flat alias_kv) toy_files = (fs', Exited 0) /\
  toy_files "data" = Some "xy" /\ fs' "data" = Some "" /\
  toy_sample tt "xy" None None = Ok [tt; tt].
Proof.
  eexists. split; [|split; [vm_compute; reflexivity|repeat split]].
  split; [|split].
  - repeat (apply NoDup_cons; [cbn; intro H; repeat (destruct H as [H|H]; [discriminate H|]); contradiction|]). apply NoDup_nil.
  - intros x Hx. repeat (destruct Hx as [<-|Hx]; [pick|]). contradiction.
  - repeat (apply Forall_cons; [intros t E; discriminate E|]). apply Forall_nil.
Qed.
Print Assumptions C101_inputs_kept_refuted.

(** A density file without a grid is accepted and stays empty. *)
Example ex_C101_density_without_grid : exists fs', toy_main (flat (filter (fun p => negb (fst p =? "--grid-file")) toy_kv)) toy_files = (fs', Exited 0) /\
  fs' "dens" = Some "".
Proof. eexists. split; [vm_compute; reflexivity|reflexivity]. Qed.

(** ** C102 *)
Section Python.
  Variables L C : Type.
  Variable load : string -> res L.
  Variable load_chain : string -> res C.
  Variable proc : string -> list string -> files -> option (files * ended).

  (** The program is started once, with the twelve options in order, after the data, the
      grid and the parameters are on the disk. *)
  Theorem C102_command : forall exe d tmp q fs,
    word exe -> braceless exe -> (forall c, In c (chars d) -> py_space c = false) ->
    word (q_hier q) -> word (q_mix q) -> given_files word q fs ->
    py_run L C load load_chain proc exe d tmp q fs =
    match proc exe (flat (combine wrapper_names (words_given join d q fs))) (prepared join d q fs) with
    | None => (if tmp then rmdir (prepared join d q fs) d else prepared join d q fs, Throw "RuntimeError")
    | Some (fs6, _) =>
        match read_back L C load load_chain join d q fs6 with
        | Ok a => (if tmp then rmdir fs6 d else fs6, Ok a)
        | e => (fs6, e)
        end
    end.
  Proof. exact (py_run_words L C load load_chain proc). Qed.
End Python.
Print Assumptions C102_command.

(** The program accepts the command. *)
Theorem C102_accepted : forall d q fs, plain d -> d <> "" -> plain (q_hier q) -> plain (q_mix q) ->
  given_files plain q fs ->
  exists st, parse_args run_options (flat (combine wrapper_names (words_given join d q fs))) = Parsed st /\
    (forall n v, In (n, v) (combine wrapper_names (words_given join d q fs)) -> get st n = Ok v) /\
    (forall n, In n ["--hier-cov-file"; "--hier-grid-cov-file"; "--mix-cov-file"; "--mix-grid-cov-file"] ->
       get st n = Ok EMPTYSTR).
Proof. exact py_accepted. Qed.
Print Assumptions C102_accepted.

(** What is on the disk. *)
Theorem C102_inputs_written : forall d q fs, apart join d q ->
  prepared join d q fs (join d "data.csv") = Some (q_data q) /\
  (forall g, q_grid q = Some g -> prepared join d q fs (join d "dens_grid.csv") = Some g) /\
  exists fa fh fm, In ("--algo-params-file", fa) (combine wrapper_names (words_given join d q fs)) /\
    In ("--hier-args", fh) (combine wrapper_names (words_given join d q fs)) /\
    In ("--mix-args", fm) (combine wrapper_names (words_given join d q fs)) /\
    prepared join d q fs fa = Some (text fs (q_algo_params q)) /\
    prepared join d q fs fh = Some (text fs (q_hier_params q)) /\
    prepared join d q fs fm = Some (text fs (q_mix_params q)).
Proof.
  intros d q fs Ap. destruct (prepared_data join d (joins_join d) q fs) as [A B]. split; [exact A|]. split; [exact B|].
  destruct (prepared_texts join d (joins_join d) q fs Ap) as (X & Y & Z).
  do 3 eexists. split; [|split; [|split; [|split; [exact Z|split; [exact X|exact Y]]]]]; unfold words_given, values; cbn [combine wrapper_names]; pick.
Qed.
Print Assumptions C102_inputs_written.

Definition toy_req : request := mkReq "NNIG" "DP" "fixed_values {}" "h" "algo_id: 'Neal2'" "xy" (Some "g") true true true false.
Example ex_C102 : word "build/run_mcmc" /\ braceless "build/run_mcmc" /\ (forall c, In c (chars "out/run1") -> py_space c = false) /\
  word (q_hier toy_req) /\ word (q_mix toy_req) /\ given_files word toy_req toy_files /\ given_files plain toy_req toy_files /\
  plain "out/run1" /\ apart join "out/run1" toy_req /\
  words_given join "out/run1" toy_req toy_files =
  ["out/run1/algo_params.asciipb"; "NNIG"; "out/run1/hier_params.asciipb"; "DP"; "h"; "memory"; "out/run1/data.csv";
   "out/run1/dens_grid.csv"; "out/run1/eval_dens.csv"; "out/run1/n_clus.csv"; "out/run1/clus.csv"; "out/run1/best_clus.csv"].
Proof.
  assert (W : forall s, s <> "" -> forallb (fun c => negb (py_space c)) (chars s) = true -> word s).
  { intros s N H. split; trivial. intros c Hc. rewrite forallb_forall in H. specialize (H c Hc). now apply negb_true_iff in H. }
  split; [apply W; [discriminate|reflexivity]|].
  split; [intros c Hc; cbn in Hc; repeat (destruct Hc as [<-|Hc]; [split; discriminate|]); contradiction Hc|].
  split; [apply (W "out/run1"); [discriminate|reflexivity]|].
  split; [apply W; [discriminate|reflexivity]|]. split; [apply W; [discriminate|reflexivity]|].
  split; [intros p [<-|[<-|[<-|[]]]] N; try (exfalso; apply N; reflexivity); apply W; [discriminate|reflexivity]|].
  split; [intros p [<-|[<-|[<-|[]]]] N t E; discriminate E|].
  split; [intros t E; discriminate E|].
  split; [|reflexivity].
  intros p f Hp Hf E. destruct Hp as [<-|[<-|[<-|[]]]]; repeat (destruct Hf as [<-|Hf]; [discriminate E|]); contradiction.
Qed.

(** The exit status of the program is not looked at: results of an earlier run are
    returned as if they were new.  Here the directory has a blank in its name, so the
    program refuses its arguments. *)
Definition old_results : files := fun f =>
  if f =? "my out/n_clus.csv" then Some "old counts" else None.
Definition ncl_req : request := mkReq "NNIG" "DP" "h" "m" "a" "xy" None false false true false.
Theorem C102_failures_reported_refuted : exists exe d q fs fs' a cmd words,
  py_run string string Ok Ok (fun _ w fs0 => Some (toy_main w fs0)) exe d false q fs = (fs', Ok a) /\
  fs "my out/n_clus.csv" = Some "old counts" /\ r_ncl _ _ a = Some "old counts" /\
  py_format None (exe ++ py_template) (words_given join d q fs) = Ok cmd /\ py_split cmd = exe :: words /\
  toy_main words (prepared join d q fs) = (prepared join d q fs, Exited 1).
Proof.
  exists "run", "my out", ncl_req, old_results. do 4 eexists.
  split; [vm_compute; reflexivity|]. split; [reflexivity|]. split; [reflexivity|].
  split; [vm_compute; reflexivity|]. split; vm_compute; reflexivity.
Qed.
Print Assumptions C102_failures_reported_refuted.

(** Even with a name that is taken apart correctly, the status plays no part. *)
Theorem C102_status_ignored : forall L C (load : string -> res L) (load_chain : string -> res C) proc proc' exe d tmp q fs,
  (forall x w f, option_map fst (proc x w f) = option_map fst (proc' x w f)) ->
  py_run L C load load_chain proc exe d tmp q fs = py_run L C load load_chain proc' exe d tmp q fs.
Proof.
  intros L C load load_chain proc proc' exe d tmp q fs H. unfold py_run.
  destruct (maybe_print join d (q_hier_params q) "hier_params" fs) as [fs1 fh].
  destruct (maybe_print join d (q_mix_params q) "mix_params" fs1) as [fs2 fm].
  destruct (maybe_print join d (q_algo_params q) "algo_params" fs2) as [fs3 fa].
  destruct (py_format None _ _) as [cmd|s| |]; trivial. destruct (py_split cmd) as [|x w]; trivial.
  match goal with |- context [proc x w ?f] => specialize (H x w f); destruct (proc x w f) as [[f1 e1]|], (proc' x w f) as [[f2 e2]|] end;
    cbn in H; try discriminate H; trivial. injection H as ->. reflexivity.
Qed.
Print Assumptions C102_status_ignored.
Example ex_C102_status : forall (x : string) (w : list string) (f : files),
  option_map fst (Some (f, Exited 0)) = option_map fst (Some (f, Terminated)).
Proof. reflexivity. Qed.

(** A path with a brace breaks the template. *)
Theorem C102_any_path_refuted : exists exe, word exe /\
  snd (py_run string string Ok Ok (fun _ w fs0 => Some (toy_main w fs0)) exe "out" false ncl_req toy_files) = Throw "KeyError".
Proof.
  exists "/opt/{a}/run_mcmc". split; [|vm_compute; reflexivity].
  split; [discriminate|]. intros c Hc; cbn in Hc; repeat (destruct Hc as [<-|Hc]; [reflexivity|]); contradiction Hc.
Qed.
Print Assumptions C102_any_path_refuted.

(** ** C103 *)
Definition sh_dir (d : string) : Prop :=
  forall c, In c (chars d) -> sh_blank c = false /\ sh_special c = false /\ c <> "\"%char.

Section RWrapper.
  Variables L C : Type.
  Variable load : string -> res L.
  Variable load_chain : string -> res C.
  Variable proc : string -> list string -> files -> option (files * ended).

  Theorem C103_command : forall exe d tmp q fs, sh_word exe -> percentless exe -> sh_dir d ->
    sh_word (q_hier q) -> sh_word (q_mix q) -> given_files sh_word q (created d fs) ->
    r_run L C load load_chain proc exe d tmp q fs =
    match proc exe (flat (combine wrapper_names (words_given rjoin d q (created d fs))))
            (prepared rjoin d q (created d fs)) with
    | Some (fs6, Exited 0) =>
        match read_back L C load load_chain rjoin d q fs6 with
        | Ok a => (if tmp then rmdir fs6 d else fs6, Ok a)
        | e => (fs6, e)
        end
    | Some (fs6, _) => (rmdir fs6 d, Throw "Something went wrong")
    | None => (rmdir (prepared rjoin d q (created d fs)) d, Throw "Something went wrong")
    end.
  Proof. exact (r_run_words L C load load_chain proc). Qed.

  (** Results are only returned after a run that ended well. *)
  Theorem C103_failures_reported : forall exe d tmp q fs fs' a, sh_word exe -> percentless exe -> sh_dir d ->
    sh_word (q_hier q) -> sh_word (q_mix q) -> given_files sh_word q (created d fs) ->
    r_run L C load load_chain proc exe d tmp q fs = (fs', Ok a) ->
    exists fs6, proc exe (flat (combine wrapper_names (words_given rjoin d q (created d fs))))
            (prepared rjoin d q (created d fs)) = Some (fs6, Exited 0) /\
      read_back L C load load_chain rjoin d q fs6 = Ok a.
  Proof.
    intros exe d tmp q fs fs' a We Pe Sd Wh Wm Hg H. rewrite C103_command in H by trivial.
    destruct (proc _ _ _) as [[fs6 [[|n]|]]|]; try discriminate H. exists fs6. split; trivial.
    destruct (read_back L C load load_chain rjoin d q fs6); try discriminate H. injection H as _ ->. reflexivity.
  Qed.

  (** After a failure nothing is left below the directory, even if the caller chose it. *)
  Theorem C103_failure_deletes : forall exe d tmp q fs r, sh_word exe -> percentless exe -> sh_dir d ->
    sh_word (q_hier q) -> sh_word (q_mix q) -> given_files sh_word q (created d fs) ->
    proc exe (flat (combine wrapper_names (words_given rjoin d q (created d fs))))
            (prepared rjoin d q (created d fs)) = r ->
    (forall fs6, r <> Some (fs6, Exited 0)) ->
    exists fs', r_run L C load load_chain proc exe d tmp q fs = (fs', Throw "Something went wrong") /\
      forall f, fs' (rjoin d f) = None.
  Proof.
    intros exe d tmp q fs r We Pe Sd Wh Wm Hg Hp N. rewrite C103_command by trivial. rewrite Hp.
    assert (K : forall fs0 f, rmdir fs0 d (rjoin d f) = None).
    { intros fs0 f. unfold rmdir, rjoin. rewrite <- append_assoc.
      replace (prefix (d ++ "/") ((d ++ "/") ++ f)) with true; [reflexivity|]. symmetry.
      generalize (d ++ "/"). intro a. induction a as [|c a IH]; cbn [append prefix]; [now destruct f|].
      destruct (ascii_dec c c) as [_|C0]; [exact IH|now elim C0]. }
    destruct r as [[fs6 [[|n]|]]|]; [now elim (N fs6)| | |]; eexists; split; try reflexivity; intro; apply K.
  Qed.
End RWrapper.
Print Assumptions C103_command.
Print Assumptions C103_failures_reported.
Print Assumptions C103_failure_deletes.

Theorem C103_accepted : forall d q fs, plain d -> d <> "" -> plain (q_hier q) -> plain (q_mix q) ->
  given_files plain q fs ->
  exists st, parse_args run_options (flat (combine wrapper_names (words_given rjoin d q fs))) = Parsed st /\
    (forall n v, In (n, v) (combine wrapper_names (words_given rjoin d q fs)) -> get st n = Ok v) /\
    (forall n, In n ["--hier-cov-file"; "--hier-grid-cov-file"; "--mix-cov-file"; "--mix-grid-cov-file"] ->
       get st n = Ok EMPTYSTR).
Proof. exact r_accepted. Qed.
Print Assumptions C103_accepted.

(** Both wrappers give the program the same words. *)
Theorem C103_same_as_python : forall d q fs, last_is_slash d = false ->
  words_given join d q fs = words_given rjoin d q fs.
Proof. exact words_same. Qed.
Print Assumptions C103_same_as_python.

Example ex_C103 : sh_word "build/run_mcmc" /\ percentless "build/run_mcmc" /\ sh_dir "out/run1" /\ sh_word (q_hier toy_req) /\
  sh_word (q_mix toy_req) /\ given_files sh_word toy_req (created "out/run1" toy_files) /\ last_is_slash "out/run1" = false /\
  exists fs' a, r_run string string Ok Ok (fun _ w fs0 => Some (toy_main w fs0)) "build/run_mcmc" "out/run1" false toy_req toy_files = (fs', Ok a) /\
    r_dens _ _ a = Some "gss" /\ r_ncl _ _ a = Some "1;1;" /\ r_chain _ _ a = None.
Proof.
  assert (W : forall s, s <> "" -> forallb (fun c => negb (sh_blank c) && negb (sh_special c) && negb (c =? "\")%char) (chars s) = true -> sh_word s).
  { intros s N H. split; trivial. intros c Hc. rewrite forallb_forall in H. specialize (H c Hc).
    apply andb_true_iff in H as [H H3]. apply andb_true_iff in H as [H1 H2].
    apply negb_true_iff in H1, H2, H3. apply Ascii.eqb_neq in H3. auto. }
  split; [apply W; [discriminate|reflexivity]|].
  split; [intros c Hc; cbn in Hc; repeat (destruct Hc as [<-|Hc]; [discriminate|]); contradiction Hc|].
  split; [exact (proj2 (W "out/run1" ltac:(discriminate) eq_refl))|].
  split; [apply W; [discriminate|reflexivity]|]. split; [apply W; [discriminate|reflexivity]|].
  split; [intros p [<-|[<-|[<-|[]]]] N; try (exfalso; apply N; reflexivity); apply W; [discriminate|reflexivity]|].
  split; [reflexivity|]. do 2 eexists. split; [vm_compute; reflexivity|]. repeat split.
Qed.

(** The files that the caller keeps in the directory are lost with a failed run. *)
Theorem C103_failure_keeps_files_refuted : exists exe d q fs fs',
  r_run string string Ok Ok (fun _ w fs0 => Some (bad_main w fs0)) exe d false q fs = (fs', Throw "Something went wrong") /\
  fs "out/thesis.tex" = Some "years of work" /\ fs' "out/thesis.tex" = None.
Proof.
  exists "run", "out", ncl_req, (fun f => if f =? "out/thesis.tex" then Some "years of work" else None). eexists.
  split; [vm_compute; reflexivity|]. split; reflexivity.
Qed.
Print Assumptions C103_failure_keeps_files_refuted.

(** ** C104 *)
Section EndToEnd.
  Variable writable : string -> bool.
  Variables O M T : Type.
  Variable read_text : string -> res T.
  Variable build : option string -> string -> option string -> string -> option string -> res O.
  Variables hdep mdep : O -> bool.
  Variable n_rows : T -> nat.
  Variable sample : O -> T -> option T -> option T -> res (list M).
  Variable encode : list M -> string.
  Variable decode : string -> res (list M).
  Variable left_over : string.
  Variable eval : O -> list M -> T -> option T -> option T -> res T.
  Variable show : T -> string.
  Variable show_int : list (list nat) -> string.
  Variable allocs : M -> list nat.
  Variable nclus : M -> nat.
  Variable blank : M.
  Variable estimate : list (list nat) -> res (list nat).
  Variables L C : Type.
  Variable load : string -> res L.
  Variable load_chain : string -> res C.

  Notation main := (main_program writable O M T read_text build hdep mdep n_rows sample encode decode
    left_over eval show show_int allocs nclus blank estimate).

  (** R: an answer is what the sampler, the evaluation and the estimate compute from
      the request. *)
  Theorem C104_r_end_to_end : (forall l, decode (encode l) = Ok l) ->
    forall exe d tmp q fs fs' a, sh_word exe -> percentless exe -> sh_dir d -> plain d -> d <> "" ->
    sh_word (q_hier q) -> sh_word (q_mix q) -> plain (q_hier q) -> plain (q_mix q) ->
    given_files (fun p => sh_word p /\ plain p) q fs -> apart rjoin d q -> fs EMPTYSTR = None ->
    r_run L C load load_chain (fun _ w f => Some (main w f)) exe d tmp q fs = (fs', Ok a) ->
    delivered O M T read_text build hdep mdep n_rows sample encode eval show show_int allocs nclus estimate L C load load_chain fs q a.
  Proof.
    intros De exe d tmp q fs fs' a We Pe Sd Pd Nd Wh Wm Ph Pm Hg Ap En H.
    assert (Cr : forall p, In p [q_hier_params q; q_mix_params q; q_algo_params q] -> created d fs p = fs p).
    { intros p Hp. apply created_other. intros f Hf. now apply Ap. }
    assert (G1 : given_files sh_word q (created d fs)).
    { intros p Hp N. rewrite Cr in N by trivial. now apply Hg. }
    assert (G2 : given_files plain q (created d fs)).
    { intros p Hp N. rewrite Cr in N by trivial. now apply Hg. }
    apply C103_failures_reported in H as (fs6 & Hm & Hr); trivial. injection Hm as Hm.
    assert (En' : created d fs EMPTYSTR = None).
    { rewrite created_other; trivial. intros f Hf E. symmetry in E. revert E. apply jn_short; [apply joins_rjoin|].
      repeat (destruct Hf as [<-|Hf]; [cbn; lia|]). contradiction. }
    pose proof (launch_end writable O M T read_text build hdep mdep n_rows sample encode decode left_over eval show show_int
      allocs nclus blank estimate L C load load_chain De rjoin d (joins_rjoin d) q (created d fs) fs6 a Ap En'
      (r_accepted d q (created d fs) Pd Nd Ph Pm G2) Hm Hr) as D.
    assert (Tx : forall p, In p [q_hier_params q; q_mix_params q; q_algo_params q] -> text (created d fs) p = text fs p).
    { intros p Hp. unfold text. now rewrite Cr. }
    unfold delivered in *. rewrite !Tx in D by (pick). exact D.
  Qed.

  (** Python: the same, provided that the program ended well. *)
  Theorem C104_py_end_to_end : (forall l, decode (encode l) = Ok l) ->
    forall exe d tmp q fs fs' fs6 a, word exe -> braceless exe -> (forall c, In c (chars d) -> py_space c = false) -> plain d -> d <> "" ->
    word (q_hier q) -> word (q_mix q) -> plain (q_hier q) -> plain (q_mix q) ->
    given_files (fun p => word p /\ plain p) q fs -> apart join d q -> fs EMPTYSTR = None ->
    main (flat (combine wrapper_names (words_given join d q fs))) (prepared join d q fs) = (fs6, Exited 0) ->
    py_run L C load load_chain (fun _ w f => Some (main w f)) exe d tmp q fs = (fs', Ok a) ->
    delivered O M T read_text build hdep mdep n_rows sample encode eval show show_int allocs nclus estimate L C load load_chain fs q a.
  Proof.
    intros De exe d tmp q fs fs' fs6 a We Be Sd Pd Nd Wh Wm Ph Pm Hg Ap En Hm H.
    assert (G1 : given_files word q fs) by (intros p Hp N; now apply Hg).
    assert (G2 : given_files plain q fs) by (intros p Hp N; now apply Hg).
    rewrite py_run_words, Hm in H by trivial.
    destruct (read_back L C load load_chain join d q fs6) as [a'|s| |] eqn:Hr; try discriminate H. injection H as _ ->.
    exact (launch_end writable O M T read_text build hdep mdep n_rows sample encode decode left_over eval show show_int
      allocs nclus blank estimate L C load load_chain De join d (joins_join d) q fs fs6 a Ap En
      (py_accepted d q fs Pd Nd Ph Pm G2) Hm Hr).
  Qed.
End EndToEnd.
Print Assumptions C104_r_end_to_end.
Print Assumptions C104_py_end_to_end.

Example ex_C104 : (forall l, toy_decode (toy_encode l) = Ok l) /\ apart rjoin "out/run1" toy_req /\ toy_files EMPTYSTR = None /\
  (exists fs6, toy_main (flat (combine wrapper_names (words_given join "out/run1" toy_req toy_files)))
                 (prepared join "out/run1" toy_req toy_files) = (fs6, Exited 0)) /\
  exists fs' a, py_run string string Ok Ok (fun _ w f => Some (toy_main w f)) "build/run_mcmc" "out/run1" false toy_req toy_files = (fs', Ok a) /\
    r_dens _ _ a = Some "gss" /\ r_best _ _ a = Some "0;0;".
Proof.
  split; [exact toy_decode_encode|]. split.
  - intros p f Hp Hf E. destruct Hp as [<-|[<-|[<-|[]]]]; repeat (destruct Hf as [<-|Hf]; [discriminate E|]); contradiction.
  - split; [reflexivity|]. split; [eexists; vm_compute; reflexivity|]. do 2 eexists. split; [vm_compute; reflexivity|]. split; reflexivity.
Qed.
