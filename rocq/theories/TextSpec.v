(** * The text format of messages, as a grammar: which sequences of tokens stand for a
    message, and which texts stand for a sequence of tokens. *)
From Coq Require Import String Ascii.
From Coq Require Import List NArith ZArith Bool.
From Verif Require Import Schema Text.
Import ListNotations.
Local Open Scope N_scope.

Definition chr (n : N) : ascii := ascii_of_N n.
Definition word_of (s : string) : token := TId (list_ascii_of_string s).

(** ** Values *)

(* a word in any mixture of small and capital letters *)
Definition same_letter (c d : ascii) : Prop :=
  97 <= code d <= 122 /\ (c = d \/ code c + 32 = code d).
Definition any_case (w : string) (s : text) : Prop := Forall2 same_letter s (list_ascii_of_string w).

Inductive scalar_written : kind -> tval -> list token -> Prop :=
| sw_int : forall n, n < 2 ^ 31 -> scalar_written KInt32 (XInt (Z.of_N n)) [TNum n]
| sw_neg : forall n, n <= 2 ^ 31 -> scalar_written KInt32 (XInt (- Z.of_N n)) [TSym "-"; TNum n]
| sw_uint : forall n, n < 2 ^ 32 -> scalar_written KUint32 (XInt (Z.of_N n)) [TNum n]
| sw_bit : forall n, n < 2 -> scalar_written KBool (XInt (Z.of_N n)) [TNum n]
| sw_true : forall s, In s ["true"; "True"; "t"]%string -> scalar_written KBool (XInt 1) [word_of s]
| sw_false : forall s, In s ["false"; "False"; "f"]%string -> scalar_written KBool (XInt 0) [word_of s]
| sw_whole : forall n, scalar_written KDouble (XDec false n 0) [TNum n]
| sw_minus_whole : forall n, scalar_written KDouble (XDec true n 0) [TSym "-"; TNum n]
| sw_dec : forall m e, scalar_written KDouble (XDec false m e) [TFloat m e]
| sw_minus_dec : forall m e, scalar_written KDouble (XDec true m e) [TSym "-"; TFloat m e]
| sw_inf : forall s, any_case "inf" s \/ any_case "infinity" s -> scalar_written KDouble (XInf false) [TId s]
| sw_minus_inf : forall s, any_case "inf" s \/ any_case "infinity" s -> scalar_written KDouble (XInf true) [TSym "-"; TId s]
| sw_nan : forall s, any_case "nan" s -> scalar_written KDouble XNan [TId s]
| sw_str : forall s ss, scalar_written KString (XStr (concat (s :: ss))) (map TStr (s :: ss)).

(** A singular field is given at most once, and so is a [oneof]. *)
Definition once (t : string) (m : tmessage) : Prop :=
  (forall f, In f (fields t) -> frep f = false -> (length (entries (fnum f) m) <= 1)%nat) /\
  (forall f g o v w, In f (fields t) -> In g (fields t) -> fone f = Some o -> fone g = Some o ->
     In (fnum f, v) m -> In (fnum g, w) m -> f = g).

(* the colon may be left out before a message *)
Definition colon_written (f : field) (c : list token) : Prop :=
  c = [TSym ":"] \/ (c = [] /\ is_msg (fkind f) = true).

Definition separator (s : list token) : Prop := s = [] \/ s = [TSym ";"] \/ s = [TSym ","].

(** ** Messages: fields in any order, [name: value] or, for repeated fields,
    [name: [value, value]] *)
Inductive written : string -> tmessage -> list token -> Prop :=
| wr_end : forall t, written t [] []
| wr_field : forall t f vs fts sep m ts,
    In f (fields t) -> field_written f vs fts -> separator sep -> written t m ts ->
    written t (map (pair (fnum f)) vs ++ m) (word_of (fname f) :: fts ++ sep ++ ts)
with field_written : field -> list tval -> list token -> Prop :=
| fw_one : forall f c v ts, colon_written f c -> value_written (fkind f) v ts -> field_written f [v] (c ++ ts)
| fw_none : forall f c, frep f = true -> colon_written f c -> field_written f [] (c ++ [TSym "["; TSym "]"])
| fw_list : forall f c vs ts, frep f = true -> colon_written f c -> elements_written (fkind f) vs ts ->
    field_written f vs (c ++ TSym "[" :: ts)
with value_written : kind -> tval -> list token -> Prop :=
| vw_scalar : forall k v ts, scalar_written k v ts -> value_written k v ts
| vw_braces : forall t m ts, written t m ts -> once t m -> value_written (KMsg t) (XMsg m) (TSym "{" :: ts ++ [TSym "}"])
| vw_angles : forall t m ts, written t m ts -> once t m -> value_written (KMsg t) (XMsg m) (TSym "<" :: ts ++ [TSym ">"])
with elements_written : kind -> list tval -> list token -> Prop :=
| ew_last : forall k v ts, value_written k v ts -> elements_written k [v] (ts ++ [TSym "]"])
| ew_more : forall k v vs ts ts', value_written k v ts -> elements_written k vs ts' ->
    elements_written k (v :: vs) (ts ++ TSym "," :: ts').

Scheme written_mind := Minimality for written Sort Prop
  with field_mind := Minimality for field_written Sort Prop
  with value_mind := Minimality for value_written Sort Prop
  with elements_mind := Minimality for elements_written Sort Prop.

(** ** Characters *)

(** White space and comments up to the end of the line. *)
Inductive gap : text -> Prop :=
| gap_none : gap []
| gap_space : forall c g, is_space c = true -> gap g -> gap (c :: g)
| gap_comment : forall b c g, Forall (fun x => is_newline x = false) b -> is_newline c = true -> gap g ->
    gap ("#"%char :: b ++ c :: g).

(** The decimal number written by some digits. *)
Inductive digits : text -> N -> Prop :=
| dg_none : digits [] 0
| dg_more : forall ds n c d, digits ds n -> d < 10 -> code c = 48 + d -> digits (ds ++ [c]) (10 * n + d).

(* no zero before other digits *)
Definition plain (ds : text) : Prop := forall c r, ds = c :: r -> r <> [] -> c <> "0"%char.

Inductive exponent : text -> Z -> Prop :=
| ex_plain : forall x ds n, In x ["e"; "E"]%char -> digits ds n -> ds <> [] -> exponent (x :: ds) (Z.of_N n)
| ex_plus : forall x ds n, In x ["e"; "E"]%char -> digits ds n -> ds <> [] -> exponent (x :: "+"%char :: ds) (Z.of_N n)
| ex_minus : forall x ds n, In x ["e"; "E"]%char -> digits ds n -> ds <> [] -> exponent (x :: "-"%char :: ds) (- Z.of_N n).

Definition f_suffix (s : text) : Prop := s = [] \/ s = ["f"]%char \/ s = ["F"]%char.

Inductive spells : text -> token -> Prop :=
| sp_id : forall c s, is_letter c = true -> Forall (fun x => is_word x = true) s -> spells (c :: s) (TId (c :: s))
| sp_num : forall ds n, digits ds n -> ds <> [] -> plain ds -> spells ds (TNum n)
| sp_point : forall ds fs n sf, digits (ds ++ fs) n -> ds <> [] \/ fs <> [] -> plain ds -> f_suffix sf ->
    spells (ds ++ "."%char :: fs ++ sf) (TFloat n (- Z.of_nat (length fs)))
| sp_point_exp : forall ds fs n x e sf, digits (ds ++ fs) n -> ds <> [] \/ fs <> [] -> plain ds ->
    exponent x e -> f_suffix sf ->
    spells (ds ++ "."%char :: fs ++ x ++ sf) (TFloat n (e - Z.of_nat (length fs)))
| sp_exp : forall ds n x e sf, digits ds n -> ds <> [] -> plain ds -> exponent x e -> f_suffix sf ->
    spells (ds ++ x ++ sf) (TFloat n e)
| sp_str : forall q s, In q [chr 34; chr 39] -> Forall (fun x => x <> q /\ is_newline x = false /\ x <> chr 92) s ->
    spells (q :: s ++ [q]) (TStr s)
| sp_sym : forall c, In c [":"; "{"; "}"; "<"; ">"; "["; "]"; ","; ";"; "-"]%char -> spells [c] (TSym c).

(* words and numbers do not run into the next word, number or point *)
Definition apart (t : token) (r : text) : Prop :=
  match t with
  | TId _ | TNum _ | TFloat _ _ => match r with [] => True | c :: _ => is_word c = false /\ c <> "."%char end
  | _ => True
  end.

Inductive laid_out : text -> list token -> Prop :=
| lo_end : forall g, gap g -> laid_out g []
| lo_end_comment : forall g b, gap g -> Forall (fun x => is_newline x = false) b -> laid_out (g ++ "#"%char :: b) []
| lo_token : forall g s t r ts, gap g -> spells s t -> apart t r -> laid_out r ts -> laid_out (g ++ s ++ r) (t :: ts).
