(** * The binary form of the messages (protobuf's wire format, as used by
    src/collectors/*.cc, python/bayesmixpy/io_utils.py:32-50 and R's RProtoBuf through
    [SerializeToString] and [ParseFromString]).  Functions only.

    Simplifications: groups (wire types 3 and 4) are taken to fail; unknown fields are
    dropped (the library keeps them aside); a member of a [oneof] is a message; strings
    are not checked to be UTF-8. *)
From Coq Require Import String.
From Coq Require Import List NArith ZArith Bool.
From Verif Require Import Collect Schema.
Import ListNotations.
Local Open Scope N_scope.

(** ** Records: field number and payload *)

Inductive raw : Type :=
| RVar (n : N)          (* wire type 0 *)
| RFix (b : N)          (* wire type 1: eight bytes, least significant first *)
| RLen (s : bytes)      (* wire type 2 *)
| RFix4 (b : N).        (* wire type 5 *)

Fixpoint le (n : nat) (b : N) : bytes :=
  match n with O => [] | S n' => (b mod 256) :: le n' (b / 256) end.

Fixpoint un_le (s : bytes) : N :=
  match s with [] => 0 | b :: r => b + 256 * un_le r end.

Definition wire_type (r : raw) : N :=
  match r with RVar _ => 0 | RFix _ => 1 | RLen _ => 2 | RFix4 _ => 5 end.

Definition raw_bytes (r : raw) : bytes :=
  match r with
  | RVar n => enc 10 n
  | RFix b => le 8 b
  | RLen s => varint (N.of_nat (length s)) ++ s
  | RFix4 b => le 4 b
  end.

Definition rec_bytes (e : N * raw) : bytes :=
  varint (fst e * 8 + wire_type (snd e)) ++ raw_bytes (snd e).

Definition take (n : nat) (bs : bytes) : option (bytes * bytes) :=
  if (n <=? length bs)%nat then Some (firstn n bs, skipn n bs) else None.

Definition read_var (bs : bytes) : option (N * bytes) :=
  match dec 10 bs with Some (v, r) => Some (v mod 2 ^ 64, r) | None => None end.

Definition read_raw (w : N) (bs : bytes) : option (raw * bytes) :=
  if w =? 0 then match read_var bs with Some (v, r) => Some (RVar v, r) | None => None end
  else if w =? 1 then match take 8 bs with Some (s, r) => Some (RFix (un_le s), r) | None => None end
  else if w =? 2 then
    match read_varint bs with
    | Some (v, r) =>
        if v <? int_max then
          match take (N.to_nat v) r with Some (s, r') => Some (RLen s, r') | None => None end
        else None
    | None => None
    end
  else if w =? 5 then match take 4 bs with Some (s, r) => Some (RFix4 (un_le s), r) | None => None end
  else None.

(* every record takes at least one byte *)
Fixpoint read_recs (fuel : nat) (bs : bytes) : option (list (N * raw)) :=
  match bs, fuel with
  | [], _ => Some []
  | _, O => None
  | _, S fuel' =>
      match read_varint bs with
      | None => None
      | Some (tag, r) =>
          if tag <? 8 then None                                  (* field number 0 *)
          else match read_raw (tag mod 8) r with
               | None => None
               | Some (p, r') =>
                   match read_recs fuel' r' with
                   | Some l => Some ((tag / 8, p) :: l)
                   | None => None
                   end
               end
      end
  end.

(** ** Writing a message *)

Definition default (r : raw) : bool :=
  match r with
  | RVar n => n =? 0
  | RFix b => b =? 0
  | RLen s => match s with [] => true | _ => false end
  | RFix4 b => b =? 0
  end.

Definition packable (k : kind) : bool :=
  match k with KInt32 | KUint32 | KBool | KDouble => true | _ => false end.

(* repeated numbers are packed; singular numbers and strings with the default value are
   left out *)
Definition emit (f : field) (rs : list raw) : list (N * raw) :=
  if frep f && packable (fkind f) then
    match rs with [] => [] | _ => [(fnum f, RLen (flat_map raw_bytes rs))] end
  else if frep f || is_msg (fkind f) then map (pair (fnum f)) rs
  else map (pair (fnum f)) (filter (fun r => negb (default r)) rs).

Definition lay_out (t : string) (ps : list (N * raw)) : list (N * raw) :=
  flat_map (fun f => emit f (entries (fnum f) ps)) (fields t).

(* negative int32 numbers are extended to 64 bits *)
Fixpoint payload (k : kind) (v : val) : raw :=
  match k, v with
  | KMsg t, VMsg m =>
      RLen (flat_map rec_bytes
              (lay_out t (map (fun e => (fst e, payload (kind_of t (fst e)) (snd e))) m)))
  | _, VInt z => RVar (Z.to_N (z mod 2 ^ 64))
  | _, VDbl b => RFix b
  | _, VStr s => RLen s
  | _, VMsg _ => RLen []
  end.

Definition records (t : string) (m : message) : list (N * raw) :=
  lay_out t (map (fun e => (fst e, payload (kind_of t (fst e)) (snd e))) m).

Definition serialize (t : string) (m : message) : bytes := flat_map rec_bytes (records t m).

(** ** Reading a message *)

Definition num_of (k : kind) (n : N) : Z :=
  match k with
  | KInt32 => let u := Z.of_N (n mod 2 ^ 32) in if (u <? 2 ^ 31)%Z then u else (u - 2 ^ 32)%Z
  | KUint32 => Z.of_N (n mod 2 ^ 32)
  | _ => if n =? 0 then 0%Z else 1%Z
  end.

Fixpoint unpack_var (fuel : nat) (k : kind) (bs : bytes) : option (list val) :=
  match bs, fuel with
  | [], _ => Some []
  | _, O => None
  | _, S fuel' =>
      match read_var bs with
      | None => None
      | Some (v, r) =>
          match unpack_var fuel' k r with Some l => Some (VInt (num_of k v) :: l) | None => None end
      end
  end.

Fixpoint unpack_fix (fuel : nat) (bs : bytes) : option (list val) :=
  match bs, fuel with
  | [], _ => Some []
  | _, O => None
  | _, S fuel' =>
      match take 8 bs with
      | None => None
      | Some (s, r) =>
          match unpack_fix fuel' r with Some l => Some (VDbl (un_le s) :: l) | None => None end
      end
  end.

Fixpoint all_some {A : Type} (l : list (option A)) : option (list A) :=
  match l with
  | [] => Some []
  | None :: _ => None
  | Some a :: r => match all_some r with Some s => Some (a :: s) | None => None end
  end.

Section Typed.
  Variable sub : string -> bytes -> option message.      (* a nested message *)

  (* a record whose wire type does not suit the field is an unknown field *)
  Definition read_values (f : field) (r : raw) : option (list val) :=
    match fkind f, r with
    | KMsg t, RLen s => match sub t s with Some m => Some [VMsg m] | None => None end
    | KString, RLen s => Some [VStr s]
    | KDouble, RFix b => Some [VDbl b]
    | KDouble, RLen s => if frep f then unpack_fix (S (length s)) s else Some []
    | KMsg _, _ | KString, _ | KDouble, _ => Some []
    | k, RVar n => Some [VInt (num_of k n)]
    | k, RLen s => if frep f then unpack_var (S (length s)) k s else Some []
    | _, _ => Some []
    end.

  Definition read_record (t : string) (e : N * raw) : option message :=
    match field_no t (fst e) with
    | None => Some []
    | Some f =>
        match read_values f (snd e) with
        | Some vs => Some (map (pair (fst e)) vs)
        | None => None
        end
    end.
End Typed.

(** Fields that occur several times: a member of a [oneof] clears the other members, a
    singular number or string is the last one, singular messages are merged. *)
Definition same_group (f g : field) : bool :=
  match fone f, fone g with Some a, Some b => (a =? b)%string | _, _ => false end.

Definition clears (t : string) (k j : N) : bool :=
  match field_no t k, field_no t j with
  | Some f, Some g => negb (k =? j) && same_group f g
  | _, _ => false
  end.

Definition clear_step (t : string) (acc : message) (e : N * val) : message :=
  filter (fun a => negb (clears t (fst e) (fst a))) acc ++ [e].

Definition clear (t : string) (m : message) : message := fold_left (clear_step t) m [].

Definition unset (v : val) : bool :=
  match v with
  | VInt z => (z =? 0)%Z
  | VDbl b => b =? 0
  | VStr s => match s with [] => true | _ => false end
  | VMsg _ => false
  end.

Definition last_set (vs : list val) : list val :=
  match rev vs with [] => [] | v :: _ => if unset v then [] else [v] end.

Definition parts_of (v : val) : message := match v with VMsg m => m | _ => [] end.

Fixpoint merged (d : nat) (t : string) (m : message) : message :=
  match d with
  | O => m
  | S d' =>
      flat_map (fun f =>
        let vs := entries (fnum f) (clear t m) in
        map (pair (fnum f))
          match fkind f with
          | KMsg t' =>
              if frep f then map (fun v => VMsg (merged d' t' (parts_of v))) vs
              else match vs with
                   | [] => []
                   | _ => [VMsg (merged d' t' (flat_map parts_of vs))]
                   end
          | _ => if frep f then vs else last_set vs
          end) (fields t)
  end.

Fixpoint read_message (d : nat) (t : string) (bs : bytes) : option message :=
  match d with
  | O => None
  | S d' =>
      match read_recs (S (length bs)) bs with
      | None => None
      | Some rs =>
          match all_some (map (read_record (read_message d') t) rs) with
          | None => None
          | Some ms => Some (concat ms)
          end
      end
  end.

(* messages nested deeper than 100 are refused (CodedInputStream's default) *)
Definition depth_limit : nat := 100.

Definition parse_message (t : string) (bs : bytes) : option message :=
  match read_message depth_limit t bs with
  | Some m => Some (merged depth_limit t m)
  | None => None
  end.
