(** * The main program started from the shell, from Python and from R
    (executables/run_mcmc.cc, python/bayesmixpy/{run,shell_utils,io_utils}.py,
    R/bayesmixr/R/{run_mcmc,utils}.R).  Functions only.

    Files are a map from names to contents; what the sampler, the evaluation and the
    text formats do is given by parameters.  Simplifications: characters are single
    bytes; two names denote the same file iff they are the same string; a directory
    is the set of the files whose name starts with it; a name cannot be opened for
    writing iff [writable] says so; the environment variable with the path of the
    executable and the output directory are given. *)
From Coq Require Import String Ascii.
From Coq Require Import List Bool Arith.
From Verif Require Import Base Args Main.
Import ListNotations.
Local Open Scope string_scope.

Definition files := string -> option string.

Definition put (fs : files) (f c : string) : files :=
  fun g => if g =? f then Some c else fs g.

(* shutil.rmtree, unlink(recursive = TRUE) *)
Definition rmdir (fs : files) (d : string) : files :=
  fun g => if prefix (d ++ "/") g then None else fs g.

(** ** run_mcmc.cc *)

(* computations that change files and may end with an exception; the files written
   before the exception stay *)
Definition prog (A : Type) := files -> files * res A.
Definition ret {A} (a : A) : prog A := fun fs => (fs, Ok a).
Definition lift {A} (r : res A) : prog A := fun fs => (fs, r).
Definition bind {A B} (m : prog A) (k : A -> prog B) : prog B :=
  fun fs => match m fs with
            | (fs', Ok a) => k a fs'
            | (fs', Throw s) => (fs', Throw s)
            | (fs', Abort) => (fs', Abort)
            | (fs', UB) => (fs', UB)
            end.
Notation "x <~ m ;; k" := (bind m (fun x => k))
  (at level 61, m at next level, right associativity).
Notation "m ;;; k" := (bind m (fun _ => k)) (at level 61, right associativity).

Inductive ended : Type :=
| Exited (code : nat)
| Terminated.              (* an exception or a failed assertion ends the program *)

Section MainProgram.
  Variable writable : string -> bool.
  Variables O M T : Type.      (* objects, states, matrices *)
  Variable read_text : string -> res T.                    (* read_eigen_matrix *)
  Variable build : option string -> string -> option string -> string -> option string -> res O.
  Variables hdep mdep : O -> bool.                         (* is_dependent *)
  Variable n_rows : T -> nat.
  Variable sample : O -> T -> option T -> option T -> res (list M).
  Variable encode : list M -> string.                      (* the chain file *)
  Variable decode : string -> res (list M).
  Variable left_over : string.                             (* chain file of a failed run *)
  Variable eval : O -> list M -> T -> option T -> option T -> res T.
  Variable show : T -> string.                             (* write_matrix_to_file *)
  Variable show_int : list (list nat) -> string.
  Variable allocs : M -> list nat.
  Variable nclus : M -> nat.
  Variable blank : M.
  Variable estimate : list (list nat) -> res (list nat).   (* cluster_estimate *)

  (* io_utils.cc:7-16 *)
  Definition check_file_is_writeable (f : string) : prog unit :=
    fun fs => if writable f then (put fs f "", Ok tt) else (fs, Throw "Cannot write").

  (* io_utils.cc:18-60: a file that cannot be opened is an exception *)
  Definition read_matrix (f : string) : prog T :=
    fun fs => match fs f with
              | Some c => (fs, read_text c)
              | None => (fs, Throw "File does not exist")
              end.

  (* io_utils.cc:62-71: an output stream that cannot be opened takes no output *)
  Definition write_file (f c : string) : prog unit :=
    fun fs => (if writable f then put fs f c else fs, Ok tt).

  Definition check_one (st : list argument) (unless n : string) : prog unit :=
    v <~ lift (get st n) ;;
    if v =? unless then ret tt else check_file_is_writeable v.

  (* run_mcmc.cc:11-29 *)
  Definition check_args (st : list argument) : prog unit :=
    check_one st "memory" "--coll-name" ;;;
    check_one st EMPTYSTR "--dens-file" ;;;
    check_one st EMPTYSTR "--n-cl-file" ;;;
    check_one st EMPTYSTR "--clus-file" ;;;
    check_one st EMPTYSTR "--best-clus-file".

  (* proto_utils.cc:52-61: a missing file is read as an empty message *)
  Definition read_proto (f : string) : prog (option string) := fun fs => (fs, Ok (fs f)).

  Definition read_if (b : bool) (st : list argument) (n : string) : prog (option T) :=
    if b then f <~ lift (get st n) ;; m <~ read_matrix f ;; ret (Some m) else ret None.

  (* run_mcmc.cc:141-197 *)
  Definition configure_and_run (st : list argument) : prog (O * T * list M) :=
    fa <~ lift (get st "--algo-params-file") ;;
    a <~ read_proto fa ;;
    ht <~ lift (get st "--hier-type") ;;
    mt <~ lift (get st "--mix-type") ;;
    coll <~ lift (get st "--coll-name") ;;
    fm <~ lift (get st "--mix-args") ;;
    pm <~ read_proto fm ;;
    fh <~ lift (get st "--hier-args") ;;
    ph <~ read_proto fh ;;
    o <~ lift (build a ht ph mt pm) ;;
    fd <~ lift (get st "--data-file") ;;
    data <~ read_matrix fd ;;
    hc <~ read_if (hdep o) st "--hier-cov-file" ;;
    mc <~ read_if (mdep o) st "--mix-cov-file" ;;
    match sample o data hc mc with
    | Ok chain =>
        (if coll =? "memory" then ret tt else write_file coll (encode chain)) ;;;
        ret (o, data, chain)
    | e => (if coll =? "memory" then ret tt else write_file coll left_over) ;;;
           _ <~ lift e ;; ret (o, data, [])
    end.

  (* the states are read back from the collector *)
  Definition collected (st : list argument) (chain : list M) : prog (list M) :=
    coll <~ lift (get st "--coll-name") ;;
    if coll =? "memory" then ret chain
    else fun fs => match fs coll with
                   | Some c => (fs, decode c)
                   | None => (fs, Throw "no chain")
                   end.

  (* run_mcmc.cc:199-219 *)
  Definition density (st : list argument) (o : O) (chain : list M) : prog unit :=
    g <~ lift (get st "--grid-file") ;;
    d <~ lift (get st "--dens-file") ;;
    if negb (g =? EMPTYSTR) && negb (d =? EMPTYSTR) then
      grid <~ read_matrix g ;;
      hc <~ read_if (hdep o) st "--hier-grid-cov-file" ;;
      mc <~ read_if (mdep o) st "--mix-grid-cov-file" ;;
      states <~ collected st chain ;;
      r <~ lift (eval o states grid hc mc) ;;
      write_file d (show r)
    else ret tt.

  (* the rows of the loop, see Main.v *)
  Definition out_all (n : nat) (l : list M) : res (list (list nat * nat)) :=
    rmap (fun m => out_row M allocs nclus blank n (Some m)) l.

  (* run_mcmc.cc:221-256 *)
  Definition clusterings (st : list argument) (data : T) (chain : list M) : prog unit :=
    fn <~ lift (get st "--n-cl-file") ;;
    fc <~ lift (get st "--clus-file") ;;
    fb <~ lift (get st "--best-clus-file") ;;
    if negb (fn =? EMPTYSTR) || negb (fc =? EMPTYSTR) || negb (fb =? EMPTYSTR) then
      states <~ collected st chain ;;
      rows <~ lift (out_all (n_rows data) states) ;;
      (if fn =? EMPTYSTR then ret tt
       else write_file fn (show_int (map (fun r => [snd r]) rows))) ;;;
      (if fc =? EMPTYSTR then ret tt
       else write_file fc (show_int (map fst rows))) ;;;
      (if fb =? EMPTYSTR then ret tt
       else b <~ lift (estimate (map fst rows)) ;;
            write_file fb (show_int (map (fun x => [x]) b)))
    else ret tt.

  Definition main_body (st : list argument) : prog unit :=
    check_args st ;;;
    x <~ configure_and_run st ;;
    let '(o, data, chain) := x in
    density st o chain ;;;
    clusterings st data chain.

  (* run_mcmc.cc:31-261; [words] follow the name of the program.  Only the
     std::runtime_error of the parser is caught (lines 132-138). *)
  Definition main_program (words : list string) (fs : files) : files * ended :=
    match parse_args run_options words with
    | Invalid => (fs, Exited 1)
    | ExitOk => (fs, Exited 0)
    | Parsed st =>
        match main_body st fs with
        | (fs', Ok _) => (fs', Exited 0)
        | (fs', _) => (fs', Terminated)
        end
    end.
End MainProgram.

(** ** Python *)

(* str.split(): the white space among the first 256 code points *)
Definition py_space (c : ascii) : bool :=
  let n := nat_of_ascii c in
  ((9 <=? n) && (n <=? 13))%nat || ((28 <=? n) && (n <=? 32))%nat
  || (n =? 133)%nat || (n =? 160)%nat.

Fixpoint split_from (blank : ascii -> bool) (cur : string) (s : string) : list string :=
  match s with
  | EmptyString => if cur =? "" then [] else [cur]
  | String c t =>
      if blank c then
        if cur =? "" then split_from blank "" t else cur :: split_from blank "" t
      else split_from blank (cur ++ String c "") t
  end.
Definition py_split (s : string) : list string := split_from py_space "" s.

(* str.format with numbered fields; [field] is the number read so far *)
Fixpoint py_format (field : option nat) (s : string) (args : list string) : res string :=
  match s with
  | EmptyString => match field with None => Ok "" | Some _ => Throw "ValueError" end
  | String c t =>
      match field with
      | Some n =>
          if is_digit c then
            py_format (Some (10 * n + (nat_of_ascii c - 48))) t args
          else if (c =? "}")%char then
            match nth_error args n with
            | Some a => r <- py_format None t args ;; Ok (a ++ r)
            | None => Throw "IndexError"
            end
          else Throw "KeyError"
      | None =>
          if (c =? "{")%char then
            match t with
            | String d t' =>
                if (d =? "{")%char then r <- py_format None t' args ;; Ok (String c r)
                else if is_digit d then py_format (Some 0) t args
                else Throw "KeyError"
            | EmptyString => Throw "ValueError"
            end
          else if (c =? "}")%char then
            match t with
            | String d t' =>
                if (d =? "}")%char then r <- py_format None t' args ;; Ok (String c r)
                else Throw "ValueError"
            | EmptyString => Throw "ValueError"
            end
          else r <- py_format None t args ;; Ok (String c r)
      end
  end.

(* run.py:113-118; a backslash at the end of a line joins it with the next one, which
   starts with 33 blanks *)
Definition gap : string := "                                  ".
Definition py_template : string :=
  " --algo-params-file {0} --hier-type {1}" ++ gap ++
  "--hier-args {2} --mix-type {3}" ++ gap ++
  "--mix-args {4} --coll-name {5}" ++ gap ++
  "--data-file {6} --grid-file {7}" ++ gap ++
  "--dens-file {8} --n-cl-file {9}" ++ gap ++
  "--clus-file {10} --best-clus-file {11}".

(* what the caller of run_mcmc chooses *)
Record request : Type := mkReq {
  q_hier : string;
  q_mix : string;
  q_hier_params : string;
  q_mix_params : string;
  q_algo_params : string;
  q_data : string;               (* the text of the data *)
  q_grid : option string;        (* the text of the grid *)
  q_clus : bool;
  q_best : bool;
  q_ncl : bool;
  q_chains : bool
}.

Definition last_is_slash (d : string) : bool :=
  match d with
  | EmptyString => true
  | _ => match String.get (String.length d - 1) d with
         | Some c => (c =? "/")%char
         | None => false
         end
  end.

(* os.path.join, the second part being relative *)
Definition join (d f : string) : string := if last_is_slash d then d ++ f else d ++ "/" ++ f.

Definition nl : string := String (ascii_of_nat 10) "".

(* io_utils.py:6-30 and utils.R:82-93 *)
Definition maybe_print (jn : string -> string -> string) (d p name : string) (fs : files) :
  files * string :=
  match fs p with
  | Some _ => (fs, p)
  | None => let f := jn d (name ++ ".asciipb") in (put fs f (p ++ nl), f)
  end.

Record answer (T C : Type) : Type := mkAns {
  r_dens : option T;
  r_ncl : option T;
  r_clus : option T;
  r_best : option T;
  r_chain : option C
}.
Arguments mkAns {T C}.

Section Wrappers.
  Variables T C : Type.
  Variable load : string -> res T.          (* np.loadtxt, read.table *)
  Variable load_chain : string -> res C.    (* read_many_protos_from_file *)
  (* the started program: [None] if it cannot be started *)
  Variable proc : string -> list string -> files -> option (files * ended).

  Definition load_file (fs : files) (f : string) : res T :=
    match fs f with Some c => load c | None => Throw "no file" end.
  Definition load_chain_file (fs : files) (f : string) : res C :=
    match fs f with Some c => load_chain c | None => Throw "no file" end.

  Definition only {A} (b : bool) (r : res A) : res (option A) :=
    if b then x <- r ;; Ok (Some x) else Ok None.

  Definition wants_grid (q : request) : bool :=
    match q_grid q with Some _ => true | None => false end.

  Definition or_empty (e : string) (b : bool) (f : string) : string := if b then f else e.

  (* the files handed to the program, run.py:128-156 and run_mcmc.R:85-121 *)
  Definition values (jn : string -> string -> string) (e d : string) (q : request)
      (fa fh fm : string) : list string :=
    [ fa; q_hier q; fh; q_mix q; fm;
      (if q_chains q then jn d "chains.recordio" else "memory");
      jn d "data.csv";
      or_empty e (wants_grid q) (jn d "dens_grid.csv");
      or_empty e (wants_grid q) (jn d "eval_dens.csv");
      or_empty e (q_ncl q) (jn d "n_clus.csv");
      or_empty e (q_clus q) (jn d "clus.csv");
      or_empty e (q_best q) (jn d "best_clus.csv") ].

  Definition read_back (jn : string -> string -> string) (d : string) (q : request) (fs : files)
    : res (answer T C) :=
    de <- only (wants_grid q) (load_file fs (jn d "eval_dens.csv")) ;;
    n <- only (q_ncl q) (load_file fs (jn d "n_clus.csv")) ;;
    c <- only (q_clus q) (load_file fs (jn d "clus.csv")) ;;
    b <- only (q_best q) (load_file fs (jn d "best_clus.csv")) ;;
    ch <- only (q_chains q) (load_chain_file fs (jn d "chains.recordio")) ;;
    Ok (mkAns de n c b ch).

  (* run.py:23-201 after the directory [d] is fixed; [tmp]: it was created here.
     shell_utils.py:7-25 splits the command and ignores the exit status. *)
  Definition py_run (exe d : string) (tmp : bool) (q : request) (fs : files) :
    files * res (answer T C) :=
    let '(fs1, fh) := maybe_print join d (q_hier_params q) "hier_params" fs in
    let '(fs2, fm) := maybe_print join d (q_mix_params q) "mix_params" fs1 in
    let '(fs3, fa) := maybe_print join d (q_algo_params q) "algo_params" fs2 in
    let fs4 := put fs3 (join d "data.csv") (q_data q) in
    let fs5 := match q_grid q with
               | Some g => put fs4 (join d "dens_grid.csv") g
               | None => fs4
               end in
    match py_format None (exe ++ py_template) (values join EMPTYSTR d q fa fh fm) with
    | Ok cmd =>
        match py_split cmd with
        | [] => (fs5, Throw "IndexError")
        | x :: words =>
            match proc x words fs5 with
            | None => (if tmp then rmdir fs5 d else fs5, Throw "RuntimeError")
            | Some (fs6, _) =>
                match read_back join d q fs6 with
                | Ok a => (if tmp then rmdir fs6 d else fs6, Ok a)
                | e => (fs6, e)
                end
            end
        end
    | Throw s => (fs5, Throw s)
    | Abort => (fs5, Abort)
    | UB => (fs5, UB)
    end.

  (** ** R *)

  (* sprintf with %s conversions *)
  Fixpoint r_sprintf (s : string) (args : list string) : res string :=
    match s with
    | EmptyString => Ok ""
    | String c t =>
        if (c =? "%")%char then
          match t with
          | String d t' =>
              if (d =? "s")%char then
                match args with
                | a :: args' => r <- r_sprintf t' args' ;; Ok (a ++ r)
                | [] => Throw "too few arguments"
                end
              else if (d =? "%")%char then r <- r_sprintf t' args ;; Ok (String "%" r)
              else Throw "unrecognised format"
          | EmptyString => Throw "unrecognised format"
          end
        else r <- r_sprintf t args ;; Ok (String c r)
    end.

  (* run_mcmc.R:67-75 *)
  Definition r_template : string :=
    " --algo-params-file %s --hier-type %s --hier-args %s --mix-type %s" ++
    " --mix-args %s --coll-name %s --data-file %s --grid-file %s" ++
    " --dens-file %s --n-cl-file %s --clus-file %s --best-clus-file %s".

  (* run_mcmc.R:103: two escaped quotation marks *)
  Definition R_EMPTYSTR : string :=
    String "\" (String """" (String "\" (String """" ""))).

  (* the shell started by [system]: words are separated by blanks, a backslash takes
     the next character as it is; a character with another meaning to the shell is
     outside the model *)
  Definition sh_special (c : ascii) : bool :=
    existsb (Ascii.eqb c)
      [ascii_of_nat 10; "|"; "&"; ";"; "<"; ">"; "("; ")"; "$"; "`"; """"; "'"; "*"; "?";
       "["; "#"; "~"; "="; "{"; "}"; "!"]%char.
  Definition sh_blank (c : ascii) : bool := (c =? " ")%char || (c =? ascii_of_nat 9)%char.

  (* [cur]: the word being read, if any *)
  Fixpoint sh_from (cur : option string) (s : string) : option (list string) :=
    match s with
    | EmptyString => Some (match cur with Some w => [w] | None => [] end)
    | String c t =>
        let w := match cur with Some w => w | None => "" end in
        if sh_blank c then
          match sh_from None t with
          | Some l => Some (match cur with Some w => w :: l | None => l end)
          | None => None
          end
        else if (c =? "\")%char then
          match t with
          | String d t' => sh_from (Some (w ++ String d "")) t'
          | EmptyString => None
          end
        else if sh_special c then None
        else sh_from (Some (w ++ String c "")) t
    end.
  Definition sh_words (s : string) : option (list string) := sh_from None s.

  Definition rjoin (d f : string) : string := d ++ "/" ++ f.

  Definition create (fs : files) (d f : string) : files := put fs (rjoin d f) "".

  (* run_mcmc.R:36-181; [tmp] as above *)
  Definition r_run (exe d : string) (tmp : bool) (q : request) (fs : files) :
    files * res (answer T C) :=
    let fs0 := fold_left (fun s f => create s d f)
                 ["data.csv"; "dens_grid.csv"; "n_clus.csv"; "clus.csv"; "best_clus.csv";
                  "eval_dens.csv"; "chains.recordio"] fs in
    let '(fs1, fh) := maybe_print rjoin d (q_hier_params q) "hier_params" fs0 in
    let '(fs2, fm) := maybe_print rjoin d (q_mix_params q) "mix_params" fs1 in
    let '(fs3, fa) := maybe_print rjoin d (q_algo_params q) "algo_params" fs2 in
    let fs4 := put fs3 (rjoin d "data.csv") (q_data q) in
    let fs5 := match q_grid q with
               | Some g => put fs4 (rjoin d "dens_grid.csv") g
               | None => fs4
               end in
    match r_sprintf (exe ++ r_template) (values rjoin R_EMPTYSTR d q fa fh fm) with
    | Ok cmd =>
        match sh_words cmd with
        | Some (x :: words) =>
            match proc x words fs5 with
            | Some (fs6, Exited 0) =>
                match read_back rjoin d q fs6 with
                | Ok a => (if tmp then rmdir fs6 d else fs6, Ok a)
                | e => (fs6, e)
                end
            | Some (fs6, _) => (rmdir fs6 d, Throw "Something went wrong")
            | None => (rmdir fs5 d, Throw "Something went wrong")
            end
        | _ => (fs5, UB)
        end
    | Throw s => (fs5, Throw s)
    | Abort => (fs5, Abort)
    | UB => (fs5, UB)
    end.
End Wrappers.
