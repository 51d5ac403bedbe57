(** * Reading a chain from R (R/bayesmixr/R/decoder.R:10-39, utils.R:37-73).

    Positions are 0-based here (R's [n] is [pos + 1]).  Indexing a raw vector past
    its end yields the byte 00.  [bitShiftL] is taken to drop the bits above 32;
    lengths written by the library never reach them.  Functions only. *)
From Coq Require Import String.
From Coq Require Import Bool List Arith NArith.
From Verif Require Import Base Collect.
Import ListNotations.

Definition raw_at (buf : bytes) (pos : nat) : N := nth pos buf 0%N.

(** decoder.R:13-30; ten bytes before [stop]. *)
Fixpoint r_dec (fuel : nat) (buf : bytes) (pos : nat) : option (N * nat) :=
  match fuel with
  | O => None
  | S f =>
      let b := raw_at buf pos in
      if (b <? 128)%N then Some (b, pos + 1)
      else match r_dec f buf (pos + 1) with
           | Some (v, pos') => Some ((b - 128) + 128 * v, pos')%N
           | None => None
           end
  end.

(** utils.R:60: [buffer[n:(n + len - 1)]]; for [len = 0] the range counts down
    from [n] to [n - 1]. *)
Definition r_slice (buf : bytes) (pos len : nat) : bytes :=
  match len with
  | 0 => [raw_at buf pos; raw_at buf (pos - 1)]
  | _ => map (raw_at buf) (seq pos len)
  end.

Section R.
  Variable P : proto.
  (** utils.R:53-72. *)
  Fixpoint r_go (fuel : nat) (buf : bytes) (pos : nat) : res (list (Msg P)) :=
    match fuel with
    | O => Ok []
    | S f =>
        if pos + 1 <? length buf then
          match r_dec 10 buf pos with
          | None => Throw "Too many bytes when decoding varint."
          | Some (v, pos') =>
              let v := (v mod 2 ^ 32)%N in
              if (v <? int_max)%N then
                match parse P (r_slice buf pos' (N.to_nat v)) with
                | Some m => ms <- r_go f buf (pos' + N.to_nat v) ;; Ok (m :: ms)
                | None => Throw "Something went wrong while deserialization"
                end
              else Throw "NA/NaN argument"
          end
        else Ok []
    end.
  Definition r_read (buf : bytes) : res (list (Msg P)) := r_go (S (length buf)) buf 0.
End R.
