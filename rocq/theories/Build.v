(** * Building the program from Python and R, and finding it again.

    Model of python/bayesmixpy/build_bayesmix.py, shell_utils.py, run.py:108-111,
    R/bayesmixr/R/build_bayesmix.R, zzz.R, run_mcmc.R:54-64 and
    R/bayesmixr/configure.  Functions only.

    The files .env and bayesmixr.Renviron are their assignments in order; names
    and paths are free of characters special to these formats.  Making a directory
    succeeds.  [cmake], [make] and [2to3] end with a status, or are not found. R's
    [dirname] stays a parameter. *)
From Coq Require Import String.
From Coq Require Import List Bool Arith.
From Verif Require Import Base.
Import ListNotations.
Local Open Scope string_scope.

Definition vars := string -> option string.
Definition assignments := list (string * string).
Definition setv (e : vars) (k v : string) : vars := fun x => if x =? k then Some v else e x.
Definition unsetv (e : vars) (k : string) : vars := fun x => if x =? k then None else e x.

Inductive ran : Type :=
| NotFound
| Exit (code : nat).

(** ** Python *)

(** [dotenv.set_key]: assignments to the name are replaced, or one is added. *)
Definition set_key (f : assignments) (k v : string) : assignments :=
  if existsb (fun p => fst p =? k) f then map (fun p => if fst p =? k then (k, v) else p) f
  else app f [(k, v)].
(** [dotenv_values]: the last assignment counts. *)
Definition value (f : assignments) (k : string) : option string :=
  fold_left (fun o p => if fst p =? k then Some (snd p) else o) f None.
(** [load_dotenv] with [override=False]; a file that does not exist is no error. *)
Definition load_dotenv (f : option assignments) (e : vars) : vars :=
  fun k => match e k with
           | Some v => Some v
           | None => match f with Some l => value l k | None => None end
           end.

Record pyw : Type := mkPy { py_file : option assignments; py_env : vars }.

Inductive raised : Type := CalledProcessError | OSError.
(** shell_utils.py:7-25: [Popen] raises when the command is not found; the exit
    status is not looked at. *)
Definition run_shell (r : ran) : option raised :=
  match r with NotFound => Some OSError | Exit _ => None end.

(** build_bayesmix.py:20-25. *)
Definition set_bayesmix_env (path : string) (w : pyw) : pyw :=
  mkPy (Some (set_key (match py_file w with Some l => l | None => [] end) "BAYESMIX_EXE" path)) (py_env w).

(** build_bayesmix.py:28-71; [None] for a plain [return]; [two] is [None] when
    [find_executable] has not found 2to3 and the [join] of line 67 raises. *)
Definition py_build (home dir : string) (cmake mk : ran) (two : option ran) (w : pyw) : pyw * res (option bool) :=
  match run_shell cmake with
  | Some CalledProcessError => (w, Ok None)
  | Some OSError => (w, Throw "OSError")
  | None =>
      match run_shell mk with
      | Some CalledProcessError => (w, Ok None)
      | Some OSError => (w, Throw "OSError")
      | None =>
          let w' := set_bayesmix_env (home ++ "/" ++ dir ++ "/run_mcmc") w in
          match two with
          | None => (w', Throw "TypeError")
          | Some NotFound => (w', Throw "OSError")
          | Some (Exit O) => (w', Ok (Some true))
          | Some (Exit (S _)) => (w', Throw "SystemExit")
          end
      end
  end.

(** run.py:108-111: the program that is called. *)
Definition py_run (w : pyw) : pyw * res string :=
  let e := load_dotenv (py_file w) (py_env w) in
  let w' := mkPy (py_file w) e in
  match e "BAYESMIX_EXE" with
  | Some p => (w', Ok p)
  | None => (w', Throw "BAYESMIX_EXE environment variable not set")
  end.

(** What a user does; a new process has an environment of its own. *)
Inductive py_op : Type :=
| PBuild (dir : string) (cmake mk : ran) (two : option ran)
| PRun
| PStart (e : vars).
Definition py_do (home : string) (w : pyw) (o : py_op) : pyw :=
  match o with
  | PBuild d c m t => fst (py_build home d c m t w)
  | PRun => fst (py_run w)
  | PStart e => mkPy (py_file w) e
  end.

(** ** R *)

Record rw : Type := mkR { r_file : assignments; r_env : vars }.

(** [readRenviron] overrides. *)
Definition read_renviron (w : rw) : rw :=
  mkR (r_file w) (fold_left (fun e p => setv e (fst p) (snd p)) (r_file w) (r_env w)).
(** [Sys.getenv]. *)
Definition getenv (e : vars) (k : string) : string := match e k with Some v => v | None => "" end.
(** [system]: 127 for a command that is not found. *)
Definition system_ (r : ran) : nat := match r with NotFound => 127 | Exit c => c end.

Section R.
  Variable dirname : string -> string.

  (** build_bayesmix.R:13-69. *)
  Definition r_build (dir : string) (cmake mk : ran) (w : rw) : rw * res unit :=
    let w1 := read_renviron w in
    let home_dir := getenv (r_env w1) "BAYESMIXR_HOME" in
    if home_dir =? "" then (w1, Throw "BAYESMIXR_HOME environment variable is not set")
    else
      let bayesmix_home := dirname (dirname home_dir) in
      if negb (system_ cmake =? 0)%nat then (w1, Throw "Something went wrong during configure")
      else if negb (system_ mk =? 0)%nat then (w1, Throw "Something went wrong during build")
      else
        let f := app (r_file w1) [("BAYESMIX_EXE", bayesmix_home ++ "/" ++ dir ++ "/run_mcmc");
                                  ("TBB_PATH", bayesmix_home ++ "/lib/_deps/math-src/lib/tbb")] in
        (read_renviron (mkR f (r_env w1)), Ok tt).

  (** run_mcmc.R:54-64, 132: the program that is called and the path put in front
      of PATH. *)
  Definition r_run (w : rw) : rw * res (string * string) :=
    let w1 := read_renviron w in
    let exe := getenv (r_env w1) "BAYESMIX_EXE" in
    if exe =? "" then (w1, Throw "BAYESMIX_EXE environment variable is not set")
    else (w1, Ok (exe, getenv (r_env w1) "TBB_PATH")).

  (** zzz.R:2-11. *)
  Definition r_attach (w : rw) : rw := read_renviron w.
  Definition r_detach (w : rw) : rw :=
    mkR (r_file w) (unsetv (unsetv (unsetv (r_env w) "BAYESMIXR_HOME") "BAYESMIX_EXE") "TBB_PATH").

  Inductive r_op : Type :=
  | RBuild (dir : string) (cmake mk : ran)
  | RRun
  | RAttach
  | RDetach
  | RStart (e : vars).
  Definition r_do (w : rw) (o : r_op) : rw :=
    match o with
    | RBuild d c m => fst (r_build d c m w)
    | RRun => fst (r_run w)
    | RAttach => r_attach w
    | RDetach => r_detach w
    | RStart e => mkR (r_file w) e
    end.
End R.

(** R/bayesmixr/configure:4: the file right after the installation. *)
Definition r_installed (home : string) (e : vars) : rw := mkR [("BAYESMIXR_HOME", home)] e.
