(** * What it means that a message is well formed, and that two messages read the same. *)
From Coq Require Import String.
From Coq Require Import List NArith ZArith.
From Verif Require Import Collect Schema.
Import ListNotations.
Local Open Scope N_scope.

(** The values a field can hold: the ranges of the C++ types; a singular field holds at
    most one value, and at most one member of a [oneof] is set. *)
Inductive well_typed : kind -> val -> Prop :=
| wt_int32 : forall z, (- 2 ^ 31 <= z < 2 ^ 31)%Z -> well_typed KInt32 (VInt z)
| wt_uint32 : forall z, (0 <= z < 2 ^ 32)%Z -> well_typed KUint32 (VInt z)
| wt_bool : forall z, (z = 0 \/ z = 1)%Z -> well_typed KBool (VInt z)
| wt_double : forall b, b < 2 ^ 64 -> well_typed KDouble (VDbl b)
| wt_string : forall s, Forall (fun b => b < 128) s -> well_typed KString (VStr s)
| wt_msg : forall t m,
    (forall k v, In (k, v) m -> exists f, In f (fields t) /\ fnum f = k /\ well_typed (fkind f) v) ->
    (forall f, In f (fields t) -> frep f = false -> (length (entries (fnum f) m) <= 1)%nat) ->
    (forall f g o v w, In f (fields t) -> In g (fields t) -> fone f = Some o -> fone g = Some o ->
       In (fnum f, v) m -> In (fnum g, w) m -> f = g) ->
    well_typed (KMsg t) (VMsg m).

(** What the accessors of a field return: all the elements of a repeated field; the
    message, if it is set; the number or string, or the default value. *)
Definition default_of (k : kind) : val :=
  match k with KDouble => VDbl 0 | KString => VStr [] | _ => VInt 0 end.

Definition reads (f : field) (m : message) : list val :=
  if frep f then entries (fnum f) m
  else match fkind f with
       | KMsg _ => entries (fnum f) m
       | k => match entries (fnum f) m with [] => [default_of k] | vs => vs end
       end.

Inductive same : kind -> val -> val -> Prop :=
| same_int : forall k z, same k (VInt z) (VInt z)
| same_dbl : forall k b, same k (VDbl b) (VDbl b)
| same_str : forall k s, same k (VStr s) (VStr s)
| same_msg : forall t m m',
    (forall f, In f (fields t) -> Forall2 (same (fkind f)) (reads f m) (reads f m')) ->
    same (KMsg t) (VMsg m) (VMsg m').
