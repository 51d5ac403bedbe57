(** * Command-line arguments (lib/argparse/argparse.h) and the options of the main
    program (executables/run_mcmc.cc:32-137).  Functions only.

    Simplifications: values have the types that occur in the library ([std::string],
    a string literal stored as [const char *], [bool]); the texts of the error
    messages are not kept; an option is found by its first registration (the names
    registered by a program are distinct); no program registers a positional
    argument or a repeatable one. *)
From Coq Require Import String Ascii.
From Coq Require Import List Bool Arith.
From Verif Require Import Base.
Import ListNotations.
Local Open Scope string_scope.

(** ** Which words look like options (argparse.h:610-788) *)

Definition is_digit (c : ascii) : bool :=
  let n := nat_of_ascii c in (48 <=? n)%nat && (n <=? 57)%nat.

(* argparse.h:672-675 *)
Fixpoint consume_digits (s : string) : string :=
  match s with
  | String c t => if is_digit c then consume_digits t else s
  | EmptyString => EmptyString
  end.

(* argparse.h:749-760: label post_e *)
Definition post_e (s : string) : bool :=
  let s' := match s with
            | String c t => if (c =? "-")%char || (c =? "+")%char then t else s
            | EmptyString => s
            end in
  match s' with
  | String c _ => is_digit c && (consume_digits s' =? "")
  | EmptyString => false
  end.

(* argparse.h:736-747: label exponent_part_opt *)
Definition exponent_part_opt (s : string) : bool :=
  match s with
  | EmptyString => true
  | String c t => if (c =? "e")%char || (c =? "E")%char then post_e t else false
  end.

(* argparse.h:728-734: label post_decimal_point *)
Definition post_decimal_point (s : string) : bool :=
  match s with
  | String c _ => if is_digit c then exponent_part_opt (consume_digits s) else false
  | EmptyString => false
  end.

(* argparse.h:710-726: label integer_part_consumed *)
Definition integer_part_consumed (s : string) : bool :=
  match s with
  | EmptyString => false
  | String c t =>
      if (c =? ".")%char then
        match t with
        | String d _ => if is_digit d then post_decimal_point t else exponent_part_opt t
        | EmptyString => exponent_part_opt t
        end
      else if (c =? "e")%char || (c =? "E")%char then post_e t
      else false
  end.

(* argparse.h:652-761 *)
Definition is_decimal_literal (s : string) : bool :=
  match s with
  | EmptyString => false
  | String c t =>
      if (c =? "0")%char then
        match t with
        | EmptyString => true
        | _ => integer_part_consumed (consume_digits t)
        end
      else if is_digit c then
        match consume_digits s with
        | EmptyString => true
        | s' => integer_part_consumed s'
        end
      else if (c =? ".")%char then post_decimal_point t
      else false
  end.

(* argparse.h:774-788 *)
Definition is_positional (s : string) : bool :=
  match s with
  | EmptyString => true
  | String c t =>
      if (c =? "-")%char then
        match t with EmptyString => true | _ => is_decimal_literal t end
      else true
  end.

(** ** Arguments (argparse.h:354-564) *)

Inductive any : Type :=
| AStr (s : string)      (* std::string *)
| AChars (s : string)    (* const char * *)
| ABool (b : bool).

Record argument : Type := mkArg {
  a_names : list string;        (* mNames *)
  a_default : option any;       (* mDefaultValue *)
  a_required : bool;            (* mIsRequired *)
  a_exits : bool;               (* mNumArgs = 0 with an action that calls std::exit(0) *)
  a_values : list string;       (* mValues *)
  a_used : bool                 (* mIsUsed *)
}.

Inductive parsed (A : Type) : Type :=
| Parsed (a : A)
| Invalid                       (* std::runtime_error *)
| ExitOk.                       (* std::exit(0) from --help or --version *)
Arguments Parsed {A} a.
Arguments Invalid {A}.
Arguments ExitOk {A}.

(* argparse.h:476-520: one value is expected; the result tells whether the next word
   was taken *)
Definition consume (a : argument) (rest : list string) : parsed (argument * list string) :=
  if a_used a then Invalid
  else if a_exits a then ExitOk
  else match rest with
       | v :: rest' =>
           if negb (is_positional v) then Invalid
           else Parsed (mkArg (a_names a) (a_default a) (a_required a) (a_exits a)
                              (a_values a ++ [v]) true, rest')
       | [] =>
           match a_default a with
           | Some _ => Parsed (mkArg (a_names a) (a_default a) (a_required a) (a_exits a)
                                     (a_values a) true, rest)
           | None => Invalid
           end
       end.

(* argparse.h:525-546, for optional arguments *)
Definition valid (a : argument) : bool :=
  let expected := if a_exits a then 0 else 1 in
  let has_default := match a_default a with Some _ => true | None => false end in
  if a_used a && negb (length (a_values a) =? expected)%nat && negb has_default then false
  else if negb (a_used a) && negb has_default && a_required a then false
  else negb (a_used a && a_required a && (length (a_values a) =? 0)%nat).

(* argparse.h:794-806, [get<std::string>] *)
Definition get_string (a : argument) : res string :=
  match a_values a with
  | v :: _ => Ok v
  | [] =>
      match a_default a with
      | Some (AStr s) => Ok s
      | Some _ => Throw "bad any_cast"
      | None => Throw "No value provided"
      end
  end.

(** ** The parser (argparse.h:1091-1145) *)

Definition has_name (n : string) (a : argument) : bool :=
  existsb (String.eqb n) (a_names a).

(* mArgumentMap.find *)
Fixpoint find_arg (n : string) (l : list argument) : option nat :=
  match l with
  | [] => None
  | a :: t => if has_name n a then Some 0
              else match find_arg n t with Some i => Some (S i) | None => None end
  end.

Definition use_arg (st : list argument) (i : nat) (rest : list string) :
  parsed (list argument * list string) :=
  match nth_error st i with
  | None => Invalid
  | Some a =>
      match consume a rest with
      | Parsed (a', rest') => Parsed (upd st i a', rest')
      | Invalid => Invalid
      | ExitOk => ExitOk
      end
  end.

(* argparse.h:1113-1127: the letters of a compound argument *)
Fixpoint compound (cs : string) (st : list argument) (rest : list string) :
  parsed (list argument * list string) :=
  match cs with
  | EmptyString => Parsed (st, rest)
  | String c cs' =>
      match find_arg (String "-" (String c "")) st with
      | None => Invalid
      | Some i =>
          match use_arg st i rest with
          | Parsed (st', rest') => compound cs' st' rest'
          | Invalid => Invalid
          | ExitOk => ExitOk
          end
      end
  end.

(* argparse.h:1091-1132; [fuel] bounds the number of words *)
Fixpoint parse_loop (fuel : nat) (st : list argument) (words : list string) :
  parsed (list argument) :=
  match words with
  | [] => Parsed st
  | w :: rest =>
      match fuel with
      | O => Invalid
      | S f =>
          if is_positional w then Invalid
          else
            match find_arg w st with
            | Some i =>
                match use_arg st i rest with
                | Parsed (st', rest') => parse_loop f st' rest'
                | Invalid => Invalid
                | ExitOk => ExitOk
                end
            | None =>
                match w with
                | String "-" (String c t) =>
                    if (c =? "-")%char then Invalid
                    else match compound (String c t) st rest with
                         | Parsed (st', rest') => parse_loop f st' rest'
                         | Invalid => Invalid
                         | ExitOk => ExitOk
                         end
                | _ => Invalid
                end
            end
      end
  end.

(* argparse.h:958-961; the words follow the name of the program *)
Definition parse_args (st : list argument) (words : list string) : parsed (list argument) :=
  match parse_loop (length words) st words with
  | Parsed st' => if forallb valid st' then Parsed st' else Invalid
  | Invalid => Invalid
  | ExitOk => ExitOk
  end.

(* argparse.h:979-985 and 1008-1029 *)
Definition get (st : list argument) (n : string) : res string :=
  match find_arg n st with
  | Some i => match nth_error st i with
              | Some a => get_string a
              | None => Throw "No such argument"
              end
  | None => Throw "No such argument"
  end.

(** ** The options of run_mcmc *)

(* run_mcmc.cc:9; two quotation marks *)
Definition EMPTYSTR : string := String """" (String """" "").

Definition flag (names : list string) : argument :=
  mkArg names (Some (ABool false)) false true [] false.
Definition needed (n : string) : argument := mkArg [n] None true false [] false.
Definition optional (n : string) : argument :=
  mkArg [n] (Some (AStr EMPTYSTR)) false false [] false.

(* argparse.h:858-884, run_mcmc.cc:34-128; the default of --coll-name is given as a
   string literal, which std::any stores as a const char pointer *)
Definition run_options : list argument :=
  [ flag ["-h"; "--help"];
    flag ["-v"; "--version"];
    needed "--algo-params-file";
    needed "--hier-type";
    needed "--hier-args";
    needed "--mix-type";
    needed "--mix-args";
    mkArg ["--coll-name"] (Some (AChars "memory")) true false [] false;
    needed "--data-file";
    optional "--grid-file";
    optional "--dens-file";
    optional "--n-cl-file";
    optional "--clus-file";
    optional "--best-clus-file";
    optional "--hier-cov-file";
    optional "--hier-grid-cov-file";
    optional "--mix-cov-file";
    optional "--mix-grid-cov-file" ].
