(** * Numbers as text (src/utils/io_utils.cc): what [std::stof] makes of a cell, what
    [operator<<] writes. *)
From Coq Require Import Ascii String.
From Coq Require Import List Arith ZArith Reals Bool.
From Flocq Require Import Core.
From Verif Require Import Base Utils.
Import ListNotations.
Local Open Scope Z_scope.

(** ** Characters *)
Definition code (c : ascii) : Z := Z.of_nat (nat_of_ascii c).
Definition is_space (c : ascii) : bool := (code c =? 32) || ((9 <=? code c) && (code c <=? 13)).
Definition is_digit (c : ascii) : bool := (48 <=? code c) && (code c <=? 57).
Definition lower (c : ascii) : Z := if (65 <=? code c) && (code c <=? 90) then code c + 32 else code c.
Definition is_hex (c : ascii) : bool := is_digit c || ((97 <=? lower c) && (lower c <=? 102)).
Definition hex_of (c : ascii) : Z := if is_digit c then code c - 48 else lower c - 87.
Definition digit (d : Z) : ascii := ascii_of_nat (Z.to_nat (48 + d)).

(** Value of a string of digits. *)
Definition val_in (b : Z) (l : list ascii) : Z := fold_left (fun a c => b * a + hex_of c) l 0.

Fixpoint span (f : ascii -> bool) (l : list ascii) : list ascii * list ascii :=
  match l with
  | c :: r => if f c then let '(a, b) := span f r in (c :: a, b) else ([], l)
  | [] => ([], [])
  end.

Fixpoint starts (w : list Z) (l : list ascii) : bool :=
  match w, l with
  | [], _ => true
  | x :: w', c :: l' => (lower c =? x) && starts w' l'
  | _, [] => false
  end.

(** ** Reading: the grammar of [strtof] (C17 7.22.1.3, "C" locale), called by
    [std::stof(entry)] at io_utils.cc:52.  Characters after the number are left. *)
Inductive number : Type :=
| NotANumber
| Infinite (neg : bool)
| Decimal (neg : bool) (mant e : Z)       (* mant * 10^e *)
| Binary (neg : bool) (mant e : Z).       (* mant * 2^e *)

Definition sign (l : list ascii) : bool * list ascii :=
  match l with
  | c :: r => if code c =? 45 then (true, r) else if code c =? 43 then (false, r) else (false, l)
  | [] => (false, [])
  end.

(** The mantissa: digits, and how many of them follow the point. *)
Definition mantissa (f : ascii -> bool) (l : list ascii) : list ascii * nat * list ascii :=
  let '(a, r) := span f l in
  match r with
  | c :: r' => if code c =? 46 then let '(b, r2) := span f r' in (a ++ b, length b, r2) else (a, 0%nat, r)
  | [] => (a, 0%nat, [])
  end.

(** An exponent, introduced by the letter with (lower case) code [letter]. *)
Definition exponent (letter : Z) (l : list ascii) : Z :=
  match l with
  | c :: r =>
      if lower c =? letter then
        let '(neg, r1) := sign r in
        let d := val_in 10 (fst (span is_digit r1)) in if neg : bool then - d else d
      else 0
  | [] => 0
  end.

Definition strto (l : list ascii) : option number :=
  let l1 := snd (span is_space l) in
  let '(neg, l2) := sign l1 in
  if starts [110; 97; 110] l2 then Some NotANumber
  else if starts [105; 110; 102] l2 then Some (Infinite neg)
  else
    let '(hm, hk, hr) := if starts [48; 120] l2 then mantissa is_hex (skipn 2 l2) else ([], 0%nat, []) in
    match hm with
    | _ :: _ => Some (Binary neg (val_in 16 hm) (exponent 112 hr - 4 * Z.of_nat hk))
    | [] =>
        let '(m, k, r) := mantissa is_digit l2 in
        match m with
        | [] => None
        | _ => Some (Decimal neg (val_in 10 m) (exponent 101 r - Z.of_nat k))
        end
    end.

(** ** [float], stored in a [double] *)
Inductive cell : Type := Num (x : R) | Inf (neg : bool) | NaN.

Definition signed (neg : bool) (x : R) : R := if neg then (- x)%R else x.
Definition exact (n : number) : option R :=
  match n with
  | Decimal neg m e => Some (signed neg (IZR m * powerRZ 10 e))
  | Binary neg m e => Some (signed neg (IZR m * powerRZ 2 e))
  | _ => None
  end.

(** Nearest single-precision number, ties to even. *)
Definition single (x : R) : R := round radix2 (FLT_exp (-149) 24) ZnearestE x.

(** [std::stof] throws [out_of_range] when [strtof] reports ERANGE: the result is too
    large, or (glibc) below the normal numbers and inexact; it throws
    [invalid_argument] when there is no number. *)
Definition stof (l : list ascii) : option cell :=
  match strto l with
  | None => None
  | Some NotANumber => Some NaN
  | Some (Infinite neg) => Some (Inf neg)
  | Some n =>
      match exact n with
      | None => None
      | Some x =>
          let r := single x in
          if Rle_dec (bpow radix2 128) (Rabs r) then None
          else if Rlt_dec (Rabs r) (bpow radix2 (-126)) then if Req_EM_T r x then Some (Num r) else None
          else Some (Num r)
      end
  end.

(** ** Writing *)

(** The [k] last decimal digits of [n]. *)
Fixpoint digs (k : nat) (n : Z) : list ascii :=
  match k with
  | O => []
  | S k' => digs k' (n / 10) ++ [digit (n mod 10)]
  end.

(** How many digits a number has. *)
Fixpoint n_digits (fuel : nat) (n : Z) : nat :=
  match fuel with
  | O => 1
  | S f => if n <? 10 then 1 else S (n_digits f (n / 10))
  end.
Definition width (n : Z) : nat := n_digits (Z.to_nat (Z.log2 n)) n.

(** [operator<<(int)]. *)
Definition show_int (n : Z) : list ascii :=
  if n <? 0 then "-"%char :: digs (width (- n)) (- n) else digs (width n) n.

(** Half to even. *)
Definition round_div (p q : Z) : Z :=
  let a := p / q in
  match 2 * (p mod q) ?= q with
  | Lt => a
  | Gt => a + 1
  | Eq => if Z.even a then a else a + 1
  end.

(** Powers of ten, numerator and denominator of [10^e]. *)
Definition up10 (e : Z) : Z := 10 ^ Z.max 0 e.

(** Six significant digits of [p / q]: [m * 10^(e - 5)] with [10^5 <= m < 10^6]. *)
Definition lead (p q : Z) : Z :=
  let a := Z.of_nat (width p) - Z.of_nat (width q) in
  if up10 a * q <=? p * up10 (- a) then a else a - 1.
Definition six (p q : Z) : Z * Z :=
  let e := lead p q in
  let m := round_div (p * up10 (5 - e)) (q * up10 (e - 5)) in
  if m =? 1000000 then (100000, e + 1) else (m, e).

Fixpoint strip (l : list ascii) : list ascii :=       (* trailing zeros *)
  match l with
  | [] => []
  | c :: r => match strip r with [] => if code c =? 48 then [] else [c] | s => c :: s end
  end.

Definition point (a b : list ascii) : list ascii :=
  a ++ match strip b with [] => [] | s => "."%char :: s end.

(** [printf("%g")], the default format of [operator<<(double)] (precision 6). *)
Definition show_pos (p q : Z) : list ascii :=
  let '(m, e) := six p q in
  let d := digs 6 m in
  if (-4 <=? e) && (e <? 6) then
    if 0 <=? e then point (firstn (Z.to_nat (e + 1)) d) (skipn (Z.to_nat (e + 1)) d)
    else point [digit 0] (repeat (digit 0) (Z.to_nat (- e - 1)) ++ d)
  else
    point (firstn 1 d) (skipn 1 d) ++ ["e"%char] ++
    [if e <? 0 then "-"%char else "+"%char] ++ digs (Nat.max 2 (width (Z.abs e))) (Z.abs e).

(** A finite double [f = Fnum * 2^Fexp] (signed zeros are one zero). *)
Definition show_double (f : float radix2) : list ascii :=
  let m := Fnum f in
  let p := Z.abs m * 2 ^ Z.max 0 (Fexp f) in
  let q := 2 ^ Z.max 0 (- Fexp f) in
  if m =? 0 then [digit 0]
  else if m <? 0 then "-"%char :: show_pos p q else show_pos p q.

(** ** Files of numbers *)

(** io_utils.cc:18-60 on the text of a file; [other] stands for what is in a cell that
    has not been written, or holds an infinity or a NaN. *)
Definition read_reals (other : R) (text : string) : res (mat R) :=
  '(rows, cols, m) <- read_matrix stof (Some (list_ascii_of_string text)) ","%char ;;
  Ok (mkMat cols (map (fun i => map (fun j =>
        match nth (j * rows + i)%nat m None with Some (Num x) => x | _ => other end) (seq 0 cols)) (seq 0 rows))).

(** io_utils.cc:62-71 for matrices of [int] and of [double]. *)
Definition show_ints (rows : list (list nat)) : string :=
  string_of_list_ascii (write_matrix show_int (mkMat (length (hd [] rows)) (map (map Z.of_nat) rows)) ","%char).
Definition show_doubles (m : mat (float radix2)) : string :=
  string_of_list_ascii (write_matrix show_double m ","%char).
