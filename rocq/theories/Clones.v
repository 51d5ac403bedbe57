(** * Prior models, their clones and the objects they share.

    Model of src/hierarchies/priors/base_prior_model.h (clone 139-143, deep_clone
    145-165, get_mutable_prior 167-174, initialize 185-190) with the hierarchy
    level clone / deep_clone of src/hierarchies/base_hierarchy.h:95-115, which
    only add a fresh likelihood and a fresh updater.  Functions only.

    A prior model object is a pair of shared pointers, to the hyperparameters and
    to the prior message; copying the object copies the pointers.  The heap is one
    list per type and an address is an index; nothing is ever freed.  The derived
    classes' [initialize_hypers], [set_hypers_from_proto], [get_hypers_proto] and
    [update_hypers] are parameters. *)
From Coq Require Import String.
From Coq Require Import Bool List Arith.
From Verif Require Import Base.
Import ListNotations.

Record pmodel : Type := mkPm {
  Hy : Type;                          (* HyperParams *)
  Pr : Type;                          (* prior message *)
  Ms : Type;                          (* HierarchyHypers message *)
  Dr : Type;                          (* what update_hypers draws *)
  h_new : Hy;                         (* new HyperParams *)
  p_new : Pr;                         (* new Prior *)
  h_init : Pr -> Hy -> res Hy;        (* initialize_hypers *)
  h_save : Hy -> Ms;                  (* get_hypers_proto *)
  h_load : Ms -> Hy -> Hy;            (* set_hypers_from_proto *)
  h_upd : Pr -> Dr -> Hy -> res Hy    (* update_hypers *)
}.

Section Heap.
Variable I : pmodel.

Record obj : Type := mkObj { o_hyp : nat; o_pri : option nat }.
Record world : Type := mkW { w_hyps : list (Hy I); w_pris : list (Pr I); w_objs : list obj }.

(** base_prior_model.h:130,133: a freshly constructed object. *)
Definition fresh : world := mkW [h_new I] [] [mkObj 0 None].

(** [create_empty_hypers] (106) for an object that is being built. *)
Definition new_hyp (w : world) : nat * world :=
  (length (w_hyps w), mkW (w_hyps w ++ [h_new I]) (w_pris w) (w_objs w)).
Definition new_pri (w : world) : nat * world :=
  (length (w_pris w), mkW (w_hyps w) (w_pris w ++ [p_new I]) (w_objs w)).
Definition set_hyp (w : world) (a : nat) (h : Hy I) : res world :=
  hs <- set_at (w_hyps w) a h ;; Ok (mkW hs (w_pris w) (w_objs w)).
Definition set_pri (w : world) (a : nat) (p : Pr I) : res world :=
  ps <- set_at (w_pris w) a p ;; Ok (mkW (w_hyps w) ps (w_objs w)).
Definition set_obj (w : world) (i : nat) (o : obj) : res world :=
  os <- set_at (w_objs w) i o ;; Ok (mkW (w_hyps w) (w_pris w) os).

(** 185-190, 192-197 on an object held in [o]: the object afterwards. *)
Definition do_init (w : world) (o : obj) : res (obj * world) :=
  match o_pri o with
  | None => Throw "Hierarchy prior was not provided"
  | Some a =>
      p <- at_ (w_pris w) a ;;
      let '(k, w1) := new_hyp w in
      h <- h_init I p (h_new I) ;;
      w2 <- set_hyp w1 k h ;;
      Ok (mkObj k (Some a), w2)
  end.

(** 139-143 *)
Definition clone (i : nat) (w : world) : res world :=
  o <- at_ (w_objs w) i ;; Ok (mkW (w_hyps w) (w_pris w) (w_objs w ++ [o])).

(** 145-165; [prior->New()] reads through the prior pointer. *)
Definition deep_clone (i : nat) (w : world) : res world :=
  o <- at_ (w_objs w) i ;;
  let '(k, w1) := new_pri w in
  match o_pri o with
  | None => UB
  | Some a =>
      p <- at_ (w_pris w1) a ;;
      w2 <- set_pri w1 k p ;;
      let '(l, w3) := new_hyp w2 in
      h <- at_ (w_hyps w3) (o_hyp o) ;;
      h0 <- at_ (w_hyps w3) l ;;
      w4 <- set_hyp w3 l (h_load I (h_save I h) h0) ;;
      '(o', w5) <- do_init w4 (mkObj l (Some k)) ;;
      Ok (mkW (w_hyps w5) (w_pris w5) (w_objs w5 ++ [o']))
  end.

Definition initialize (i : nat) (w : world) : res world :=
  o <- at_ (w_objs w) i ;;
  '(o', w1) <- do_init w o ;;
  set_obj w1 i o'.

Definition load_hypers (i : nat) (m : Ms I) (w : world) : res world :=
  o <- at_ (w_objs w) i ;;
  h <- at_ (w_hyps w) (o_hyp o) ;;
  set_hyp w (o_hyp o) (h_load I m h).

Definition update_hypers (i : nat) (d : Dr I) (w : world) : res world :=
  o <- at_ (w_objs w) i ;;
  match o_pri o with
  | None => UB
  | Some a =>
      p <- at_ (w_pris w) a ;;
      h <- at_ (w_hyps w) (o_hyp o) ;;
      h' <- h_upd I p d h ;;
      set_hyp w (o_hyp o) h'
  end.

(** [get_mutable_prior()->CopyFrom(p)] (167-174). *)
Definition set_prior_msg (i : nat) (p : Pr I) (w : world) : res world :=
  o <- at_ (w_objs w) i ;;
  match o_pri o with
  | None =>
      let '(k, w1) := new_pri w in
      w2 <- set_obj w1 i (mkObj (o_hyp o) (Some k)) ;;
      set_pri w2 k p
  | Some a => set_pri w a p
  end.

Definition get_hypers (w : world) (i : nat) : res (Hy I) :=
  o <- at_ (w_objs w) i ;; at_ (w_hyps w) (o_hyp o).
Definition get_prior (w : world) (i : nat) : res (option (Pr I)) :=
  o <- at_ (w_objs w) i ;;
  match o_pri o with None => Ok None | Some a => p <- at_ (w_pris w) a ;; Ok (Some p) end.

Inductive op : Type :=
| OClone (i : nat)
| ODeep (i : nat)
| OInit (i : nat)
| OLoad (i : nat) (m : Ms I)
| OUpd (i : nat) (d : Dr I)
| OPrior (i : nat) (p : Pr I).

Definition step (w : world) (o : op) : res world :=
  match o with
  | OClone i => clone i w
  | ODeep i => deep_clone i w
  | OInit i => initialize i w
  | OLoad i m => load_hypers i m w
  | OUpd i d => update_hypers i d w
  | OPrior i p => set_prior_msg i p w
  end.
Definition run (ops : list op) (w : world) : res world := rfold step ops w.

End Heap.

(** marginal_algorithm.cc:32-33, conditional_algorithm.cc:20-21: evaluating one
    state clones the first cluster and loads the stored hyperparameters into the
    clone; [n] is the number of objects before. *)
Fixpoint eval_ops (I : pmodel) (n : nat) (ms : list (Ms I)) : list (op I) :=
  match ms with
  | [] => []
  | m :: ms' => OClone I 0 :: OLoad I n m :: eval_ops I (S n) ms'
  end.
