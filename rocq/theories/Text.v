(** * Configuration files: protobuf's text format (src/utils/proto_utils.cc:52-61;
    the files *.asciipb; what python/scripts/generate_asciipb.py prints).  Functions only.

    [read_text] is [TextFormat::Parse] on the contents of a file.  Simplifications:
    characters are single bytes; numbers in base 8 and 16, escapes in strings, extensions
    and [Any] are refused; after a character that starts no token the library reports an
    error and goes on, here reading ends; minus zero counts as zero where the library asks
    whether a number is set.  A number with decimals is kept as the decimal number
    [m * 10^e] that is written. *)
From Coq Require Import String Ascii.
From Coq Require Import List NArith ZArith Bool.
From Verif Require Import Schema.
Import ListNotations.
Local Open Scope N_scope.

(** ** Tokens (io/tokenizer.cc) *)

Definition text : Type := list ascii.

Inductive token : Type :=
| TId (s : text)
| TNum (n : N)              (* an integer *)
| TFloat (m : N) (e : Z)    (* m * 10^e *)
| TStr (s : text)
| TSym (c : ascii)
| TBad.                     (* no token starts here *)

Definition code (c : ascii) : N := N_of_ascii c.
Definition between (a b c : N) : bool := (a <=? c) && (c <=? b).
Definition is_digit (c : ascii) : bool := between 48 57 (code c).
Definition is_letter (c : ascii) : bool :=
  between 65 90 (code c) || between 97 122 (code c) || (code c =? 95).
Definition is_word (c : ascii) : bool := is_letter c || is_digit c.
(* space, \t \n \v \f \r *)
Definition is_space (c : ascii) : bool := (code c =? 32) || between 9 13 (code c).
Definition is_newline (c : ascii) : bool := code c =? 10.
Definition is_char (n : N) (c : ascii) : bool := code c =? n.

Fixpoint span (p : ascii -> bool) (l : text) : text * text :=
  match l with
  | c :: r => if p c then let (a, b) := span p r in (c :: a, b) else ([], l)
  | [] => ([], [])
  end.

Definition add_digit (n : N) (c : ascii) : N := 10 * n + (code c - 48).
Definition value (ds : text) : N := fold_left add_digit ds 0.

(* e+12, e-3 *)
Definition read_exp (l : text) : option (option (Z * text)) :=
  match l with
  | c :: r =>
      if is_char 101 c || is_char 69 c then
        let '(neg, r1) := match r with
                          | s :: r' => if is_char 45 s then (true, r') else if is_char 43 s then (false, r') else (false, r)
                          | [] => (false, r)
                          end in
        let '(ds, r2) := span is_digit r1 in
        match ds with
        | [] => Some None
        | _ => Some (Some ((if neg then - Z.of_N (value ds) else Z.of_N (value ds))%Z, r2))
        end
      else None
  | [] => None
  end.

(* 0x1F and 017 *)
Definition other_base (ds r : text) : bool :=
  match ds with
  | c :: _ :: _ => is_char 48 c
  | [c] => is_char 48 c && match r with x :: _ => is_char 120 x || is_char 88 x | [] => false end
  | [] => false
  end.

Definition ends_clear (r : text) : bool :=
  match r with c :: _ => negb (is_word c || is_char 46 c) | [] => true end.

(* a number and the rest *)
Definition read_number (l : text) : option (token * text) :=
  let '(ds, r) := span is_digit l in
  if other_base ds r then None
  else
    let '(fs, dot, r1) := match r with
                          | c :: r' => if is_char 46 c then let '(fs, r2) := span is_digit r' in (fs, true, r2) else ([], false, r)
                          | [] => ([], false, r)
                          end in
    match read_exp r1 with
    | Some None => None
    | o =>
        let '(e, float, r3) := match o with
                               | Some (Some (e, r2)) => (e, true, r2)
                               | _ => (0%Z, dot, r1)
                               end in
        let '(float', r4) := match r3 with
                             | c :: r' => if is_char 102 c || is_char 70 c then (true, r') else (float, r3)
                             | [] => (float, r3)
                             end in
        if ends_clear r4 then
          Some (if float' then TFloat (value (ds ++ fs)) (e - Z.of_nat (length fs)) else TNum (value ds), r4)
        else None
    end.

(* up to the closing quote; no escapes, no line breaks *)
Fixpoint read_string (q : ascii) (l : text) : option (text * text) :=
  match l with
  | c :: r =>
      if is_char (code q) c then Some ([], r)
      else if is_newline c || is_char 92 c then None
      else match read_string q r with Some (s, r') => Some (c :: s, r') | None => None end
  | [] => None
  end.

Definition starts_number (l : text) : bool :=
  match l with
  | c :: r => is_digit c || (is_char 46 c && match r with d :: _ => is_digit d | [] => false end)
  | [] => false
  end.

Fixpoint lex (fuel : nat) (l : text) : list token :=
  match fuel, l with
  | _, [] => []
  | O, _ => [TBad]
  | S fuel', c :: r =>
      if is_space c then lex fuel' r
      else if is_char 35 c then lex fuel' (snd (span (fun x => negb (is_newline x)) r))
      else if is_letter c then let '(s, r') := span is_word l in TId s :: lex fuel' r'
      else if starts_number l then
        match read_number l with Some (t, r') => t :: lex fuel' r' | None => [TBad] end
      else if is_char 34 c || is_char 39 c then
        match read_string c r with Some (s, r') => TStr s :: lex fuel' r' | None => [TBad] end
      else if between 33 126 (code c) then TSym c :: lex fuel' r
      else [TBad]
  end.

Definition tokens (l : text) : list token := lex (S (length l)) l.

(** ** Fields (text_format.cc) *)

Inductive tval : Type :=
| XInt (z : Z)
| XDec (neg : bool) (m : N) (e : Z)
| XInf (neg : bool)
| XNan
| XStr (s : text)
| XMsg (m : list (N * tval)).

Definition tmessage : Type := list (N * tval).

Definition sym (n : N) (t : token) : bool := match t with TSym c => is_char n c | _ => false end.

Definition lower (c : ascii) : ascii :=
  if between 65 90 (code c) then ascii_of_N (code c + 32) else c.
Definition word (s : text) (w : string) : bool := (string_of_list_ascii s =? w)%string.

Definition read_int (limit : N) (ts : list token) : option (N * list token) :=
  match ts with
  | TNum n :: r => if n <=? limit then Some (n, r) else None
  | _ => None
  end.

Definition minus (ts : list token) : bool * list token :=
  match ts with t :: r => if sym 45 t then (true, r) else (false, ts) | [] => (false, ts) end.

Fixpoint more_strings (ts : list token) : text * list token :=
  match ts with
  | TStr s :: r => let (s', r') := more_strings r in ((s ++ s')%list, r')
  | _ => ([], ts)
  end.

Definition read_scalar (k : kind) (ts : list token) : option (tval * list token) :=
  match k with
  | KInt32 =>
      let '(neg, r) := minus ts in
      match read_int (if neg then 2 ^ 31 else 2 ^ 31 - 1) r with
      | Some (n, r') => Some (XInt (if neg then - Z.of_N n else Z.of_N n)%Z, r')
      | None => None
      end
  | KUint32 =>
      match read_int (2 ^ 32 - 1) ts with Some (n, r) => Some (XInt (Z.of_N n), r) | None => None end
  | KBool =>
      match ts with
      | TNum _ :: _ => match read_int 1 ts with Some (n, r) => Some (XInt (Z.of_N n), r) | None => None end
      | TId s :: r =>
          if word s "true" || word s "True" || word s "t" then Some (XInt 1, r)
          else if word s "false" || word s "False" || word s "f" then Some (XInt 0, r)
          else None
      | _ => None
      end
  | KDouble =>
      let '(neg, r) := minus ts in
      match r with
      | TNum n :: r' => Some (XDec neg n 0, r')
      | TFloat m e :: r' => Some (XDec neg m e, r')
      | TId s :: r' =>
          let w := map lower s in
          if word w "inf" || word w "infinity" then Some (XInf neg, r')
          else if word w "nan" then Some (XNan, r')
          else None
      | _ => None
      end
  | KString =>
      match ts with
      | TStr _ :: _ => let '(s, r) := more_strings ts in Some (XStr s, r)
      | _ => None
      end
  | KMsg _ => None
  end.

Definition zero (v : tval) : bool :=
  match v with
  | XInt z => (z =? 0)%Z
  | XDec _ m _ => m =? 0
  | XStr s => match s with [] => true | _ => false end
  | _ => false
  end.

(* HasField, HasOneof *)
Definition has (f : field) (m : tmessage) : bool := existsb (fun v => negb (zero v)) (entries (fnum f) m).
Definition one_taken (t : string) (f : field) (m : tmessage) : bool :=
  match fone f with
  | None => false
  | Some o => existsb (fun g => match fone g with Some o' => (o =? o')%string && has g m | None => false end) (fields t)
  end.

Definition set (f : field) (v : tval) (m : tmessage) : tmessage :=
  if frep f then m ++ [(fnum f, v)]
  else filter (fun e => negb (fst e =? fnum f)) m ++ [(fnum f, v)].

(* the message read so far, and the rest of the tokens unless there was an error *)
Definition outcome : Type := tmessage * option (list token).

Section Values.
  Variable sub : string -> N -> list token -> outcome.      (* a nested message and its end *)

  Definition one_value (f : field) (m : tmessage) (ts : list token) : outcome :=
    match fkind f with
    | KMsg t' =>
        match ts with
        | b :: r =>
            if sym 123 b then let (m', o) := sub t' 125 r in (set f (XMsg m') m, o)
            else if sym 60 b then let (m', o) := sub t' 62 r in (set f (XMsg m') m, o)
            else (m, None)
        | [] => (m, None)
        end
    | k =>
        match read_scalar k ts with
        | Some (v, r) => (set f v m, Some r)
        | None => (m, None)
        end
    end.

  (* [1, 2, 3] after the opening bracket *)
  Fixpoint elements (n : nat) (f : field) (m : tmessage) (ts : list token) : outcome :=
    match n with
    | O => (m, None)
    | S n' =>
        match one_value f m ts with
        | (m', Some (s :: r)) =>
            if sym 93 s then (m', Some r)
            else if sym 44 s then elements n' f m' r
            else (m', None)
        | (m', _) => (m', None)
        end
    end.

  Definition values (f : field) (m : tmessage) (ts : list token) : outcome :=
    match ts with
    | b :: r =>
        if frep f && sym 91 b then
          match r with
          | e :: r' => if sym 93 e then (m, Some r') else elements (length r) f m r
          | [] => (m, None)
          end
        else one_value f m ts
    | [] => one_value f m ts
    end.
End Values.

Definition colon (k : kind) (ts : list token) : option (list token) :=
  match ts with
  | c :: r => if sym 58 c then Some r else if is_msg k then Some ts else None
  | [] => None
  end.

Definition skip_separator (ts : list token) : list token :=
  match ts with
  | s :: r => if sym 59 s || sym 44 s then r else ts
  | [] => []
  end.

(* [close] is the character that ends a nested message *)
Fixpoint read_fields (fuel : nat) (t : string) (close : option N) (m : tmessage) (ts : list token) : outcome :=
  match fuel with
  | O => (m, None)
  | S fuel' =>
      match close, ts with
      | None, [] => (m, Some [])
      | _, TId s :: r =>
          match field_named t (string_of_list_ascii s) with
          | None => (m, None)                                   (* no field of this name *)
          | Some f =>
              if negb (frep f) && has f m then (m, None)        (* set already *)
              else if one_taken t f m then (m, None)            (* another member is set *)
              else
                match colon (fkind f) r with
                | None => (m, None)
                | Some r1 =>
                    match values (fun t' c => read_fields fuel' t' (Some c) []) f m r1 with
                    | (m', None) => (m', None)
                    | (m', Some r2) => read_fields fuel' t close m' (skip_separator r2)
                    end
                end
          end
      | Some c, x :: r => if sym 62 x || sym 125 x then (m, if sym c x then Some r else None) else (m, None)
      | _, _ => (m, None)
      end
  end.

(* the message and whether reading succeeded *)
Definition read_text (t : string) (l : text) : tmessage * bool :=
  let ts := tokens l in
  match read_fields (S (length ts)) t None [] ts with
  | (m, Some _) => (m, true)
  | (m, None) => (m, false)
  end.

(* proto_utils.cc:52-61: the message and what is printed; a file that cannot be opened
   has no characters *)
Definition read_proto_from_file (t : string) (contents : option text) : tmessage * string :=
  let (m, ok) := read_text t (match contents with Some l => l | None => [] end) in
  (m, if ok then EmptyString else "Error 0 in read_proto_from_file"%string).
