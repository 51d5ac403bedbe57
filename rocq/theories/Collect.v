(** * Chains on file and in memory (src/collectors, python/bayesmixpy/io_utils.py). *)
From Coq Require Import String.
From Coq Require Import List Arith NArith Bool.
From Verif Require Import Base.
Import ListNotations.

(** A byte is a number below 256. *)
Definition bytes : Type := list N.

(** ** Length-delimited messages (protobuf's delimited_message_util)

    [WriteVarint32]: seven bits at a time, least significant first; the high
    bit says that more bytes follow.  Five bytes hold 32 bits. *)
Fixpoint enc (fuel : nat) (n : N) : bytes :=
  match fuel with
  | O => []
  | S f => if (n <? 128)%N then [n] else (n mod 128 + 128)%N :: enc f (n / 128)
  end.
Definition varint (n : N) : bytes := enc 5 n.

(** [ReadVarint32]: up to ten bytes. *)
Fixpoint dec (fuel : nat) (bs : bytes) : option (N * bytes) :=
  match fuel, bs with
  | S f, b :: r =>
      if (b <? 128)%N then Some (b, r)
      else match dec f r with
           | Some (v, r') => Some ((b - 128) + 128 * v, r')%N
           | None => None
           end
  | _, _ => None
  end.
Definition read_varint (bs : bytes) : option (N * bytes) :=
  match dec 10 bs with Some (v, r) => Some (v mod 2 ^ 32, r)%N | None => None end.

(** A message type: [SerializeToString] and [ParseFromString]. *)
Record proto : Type := mkProto {
  Msg : Type;
  ser : Msg -> bytes;
  parse : bytes -> option Msg
}.

Section Delimited.
  Variable P : proto.

  Definition int_max : N := 2 ^ 31.
  Definition fits (m : Msg P) : bool := (N.of_nat (length (ser P m)) <? int_max)%N.

  (** [SerializeDelimitedToZeroCopyStream]: nothing is written for a message of
      2^31 bytes or more. *)
  Definition delim (m : Msg P) : bytes :=
    if fits m then varint (N.of_nat (length (ser P m))) ++ ser P m else [].

  (** [ParseDelimitedFromZeroCopyStream]: the message and the rest of the
      stream.  Lengths that do not fit an [int] are taken to fail. *)
  Definition read_delim (bs : bytes) : option (Msg P * bytes) :=
    match read_varint bs with
    | None => None
    | Some (v, r) =>
        if (v <? int_max)%N then
          let n := N.to_nat v in
          if n <=? length r then
            match parse P (firstn n r) with Some m => Some (m, skipn n r) | None => None end
          else None
        else None
    end.
End Delimited.

(** ** File collector *)

(** file_collector.h:50-102 and base_collector.h:105-109.  [f_disk] is the
    content of the file, [f_in] what [fin] has not delivered yet, [f_buf] tells
    for each deferred future whether it can still be asked for its value. *)
Record fcoll : Type := mkFc {
  f_disk : bytes;
  f_chunk : nat;
  f_open : bool;
  f_in : bytes;
  f_pos : nat;
  f_buf : list bool;
  f_iter : nat
}.

(** A collector that was just built for an existing file. *)
Definition fc_new (disk : bytes) (chunk : nat) : fcoll := mkFc disk chunk false [] 0 [] 0.

Section File.
  Variable P : proto.

  (** file_collector.cc:37-44. *)
  Definition fc_open (c : fcoll) : fcoll :=
    mkFc (f_disk c) (f_chunk c) true (f_disk c) (f_pos c) (f_buf c) (f_iter c).
  (** file_collector.cc:46-52. *)
  Definition fc_close (c : fcoll) : fcoll :=
    mkFc (f_disk c) (f_chunk c) false (f_in c) (f_pos c) (f_buf c) (f_iter c).
  (** file_collector.cc:83-94: the futures are deferred, nothing is read. *)
  Definition fc_populate (c : fcoll) : fcoll :=
    mkFc (f_disk c) (f_chunk c) (f_open c) (f_in c) 0 (repeat true (f_chunk c)) (f_iter c).

  (** file_collector.cc:54-81; the deferred read happens in [get], and a future
      answers once (std::future_error afterwards).  [None]: end of the chain. *)
  Definition fc_next (c : fcoll) : res (fcoll * option (Msg P)) :=
    let c0 := if f_open c then c else fc_populate (fc_open c) in
    let c1 := mkFc (f_disk c0) (f_chunk c0) (f_open c0) (f_in c0) (S (f_pos c0)) (f_buf c0) (S (f_iter c0)) in
    let c2 := if f_pos c1 =? f_chunk c1 then fc_populate c1 else c1 in
    valid <- at_ (f_buf c2) (f_pos c2) ;;
    if valid then
      let buf := upd (f_buf c2) (f_pos c2) false in
      match read_delim P (f_in c2) with
      | Some (m, rest) => Ok (mkFc (f_disk c2) (f_chunk c2) (f_open c2) rest (f_pos c2) buf (f_iter c2), Some m)
      | None => Ok (fc_close (mkFc (f_disk c2) (f_chunk c2) (f_open c2) (f_in c2) 0 buf 0), None)
      end
    else Throw "std::future_error: No associated state".

  (** file_collector.cc:32-35. *)
  Definition fc_reset (c : fcoll) : fcoll :=
    fc_close (mkFc (f_disk c) (f_chunk c) (f_open c) (f_in c) (f_pos c) (f_buf c) 0).

  (** file_collector.cc:7-12, 22-30 and 14-20: what a run from
      [start_collecting] to [finish_collecting] leaves on disk. *)
  Definition fc_written (ms : list (Msg P)) : bytes := flat_map (delim P) ms.
End File.

(** ** Memory collector *)

(** memory_collector.h:83-84 and base_collector.h:105-109. *)
Record mcoll : Type := mkMc { m_chain : list bytes; m_size : nat; m_iter : nat }.
Definition mc_new : mcoll := mkMc [] 0 0.

Section Memory.
  Variable P : proto.

  (** memory_collector.cc:3-8. *)
  Definition mc_collect (m : Msg P) (c : mcoll) : mcoll :=
    mkMc (m_chain c ++ [ser P m]) (S (m_size c)) (m_iter c).
  (** memory_collector.cc:15. *)
  Definition mc_reset (c : mcoll) : mcoll := mkMc (m_chain c) (m_size c) 0.
  (** memory_collector.cc:17-24; [ParseFromString] clears and fills [out], its
      result is ignored ([None]: a partially parsed message). *)
  Definition mc_next (c : mcoll) : res (mcoll * option (option (Msg P))) :=
    if m_iter c =? m_size c then Ok (c, None)
    else s <- at_ (m_chain c) (m_iter c) ;;
         Ok (mkMc (m_chain c) (m_size c) (S (m_iter c)), Some (parse P s)).
  (** memory_collector.cc:10-13. *)
  Definition mc_get (i : nat) (c : mcoll) : res (option (Msg P)) :=
    s <- at_ (m_chain c) i ;; Ok (parse P s).

  (** The loop of memory_collector.h:67-74. *)
  Fixpoint mc_load_go (fuel : nat) (bs : bytes) (c : mcoll) : mcoll :=
    match fuel with
    | O => c
    | S f => match read_delim P bs with
             | Some (m, rest) => mc_load_go f rest (mc_collect m c)
             | None => c
             end
    end.
  (** memory_collector.h:56-77; each message takes at least one byte. *)
  Definition mc_load (bs : bytes) (c : mcoll) : mcoll :=
    mc_load_go (S (length bs)) bs (mkMc [] (m_size c) (m_iter c)).
  (** memory_collector.h:31-54; an unparsable string is written as the partial
      message, here as nothing. *)
  Definition mc_write (c : mcoll) : bytes :=
    flat_map (fun s => match parse P s with Some m => delim P m | None => [] end) (m_chain c).
End Memory.

(** ** Reading loops (base_collector.h:63-90)

    Over any collector with a [next] operation.  [None]: out of fuel. *)
Section Loops.
  Variables C M : Type.
  Variable next : C -> res (C * option M).

  Fixpoint get_whole (fuel : nat) (c : C) : option (res (C * list M)) :=
    match fuel with
    | O => None
    | S f =>
        match next c with
        | Ok (c', None) => Some (Ok (c', []))
        | Ok (c', Some m) =>
            match get_whole f c' with
            | Some (Ok (c2, ms)) => Some (Ok (c2, m :: ms))
            | o => o
            end
        | Throw e => Some (Throw e)
        | Abort => Some Abort
        | UB => Some UB
        end
    end.

  (** The flag is [keep]; with size 0 it stays as it was. *)
  Fixpoint get_chunk (size : nat) (keep : bool) (c : C) : res (C * (list M * bool)) :=
    match size with
    | O => Ok (c, ([], keep))
    | S k =>
        '(c', o) <- next c ;;
        match o with
        | None => Ok (c', ([], false))
        | Some m => '(c2, (ms, kp)) <- get_chunk k true c' ;; Ok (c2, (m :: ms, kp))
        end
    end.

  (** The do-while loop of eval_like.cc:25-38: all chunks, one after the other. *)
  Fixpoint get_chunks (fuel size : nat) (keep : bool) (c : C) : option (res (C * list (list M))) :=
    match fuel with
    | O => None
    | S f =>
        match get_chunk size keep c with
        | Ok (c', (ms, false)) => Some (Ok (c', [ms]))
        | Ok (c', (ms, true)) =>
            match get_chunks f size true c' with
            | Some (Ok (c2, l)) => Some (Ok (c2, ms :: l))
            | o => o
            end
        | Throw e => Some (Throw e)
        | Abort => Some Abort
        | UB => Some UB
        end
    end.
End Loops.

(** ** Python reader (python/bayesmixpy/io_utils.py:32-50)

    [_DecodeVarint32] raises when the buffer ends inside the length; the call is
    outside the [try].  Slicing a buffer past its end is allowed. *)
Section Python.
  Variable P : proto.
  Fixpoint py_go (fuel : nat) (buf : bytes) : res (list (Msg P)) :=
    match fuel with
    | O => Ok []
    | S f =>
        match buf with
        | [] => Ok []
        | _ =>
            match read_varint buf with
            | None => Throw "IndexError"
            | Some (v, r) =>
                let n := N.to_nat v in
                match parse P (firstn n r) with
                | Some m => ms <- py_go f (skipn n r) ;; Ok (m :: ms)
                | None => Ok []
                end
            end
        end
    end.
  Definition py_read (buf : bytes) : res (list (Msg P)) := py_go (S (length buf)) buf.
End Python.

(** ** Descriptors of the file collector's writer

    file_collector.cc:7-20: the local [outfd] of [start_collecting] shadows the
    member, which keeps whatever it held; [FileOutputStream::Close] closes the
    stream's own descriptor.  [fds] are the open descriptors of the process. *)
Record fdst : Type := mkFd { fds : list nat; fd_out : option nat; fd_member : nat; fd_write : bool }.
Definition fd_start (fresh : nat) (s : fdst) : fdst := mkFd (fresh :: fds s) (Some fresh) (fd_member s) true.
Definition fd_close (fd : nat) (l : list nat) : list nat := filter (fun x => negb (x =? fd)) l.
Definition fd_finish (s : fdst) : fdst :=
  if fd_write s then
    let l := match fd_out s with Some fd => fd_close fd (fds s) | None => fds s end in
    mkFd (fd_close (fd_member s) l) (fd_out s) (fd_member s) false
  else s.
