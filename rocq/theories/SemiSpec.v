(** * Semi-HDP: well-formed sampler states and what they mean.

    Vocabulary of the properties; nothing here is used by the model. *)
From Coq Require Import String.
From Coq Require Import Bool List Arith ZArith Reals Permutation.
From Verif Require Import Base XReal Semi.
Import ListNotations.
Local Open Scope nat_scope.

Definition somes {A} (l : list (option A)) : list A :=
  flat_map (fun o => match o with Some x => [x] | None => [] end) l.

(** How many times each of [0 .. n-1] occurs. *)
Definition tally (n : nat) (l : list nat) : list Z :=
  map (fun k => Z.of_nat (count_occ Nat.eq_dec l k)) (seq 0 n).

(** One restaurant: tables, private atoms, the two maps.  [hn] objects exist,
    [sn] shared atoms. *)
Record row_ok (hn sn : nat) (rt pv : list nat) (ts tp : list (option nat)) : Prop := {
  ro_ts : length ts = length rt;
  ro_tp : length tp = length rt;
  ro_rt : Forall (fun o => o < hn) rt;
  ro_pv : Forall (fun o => o < hn) pv;
  (** every table is either private or shared *)
  ro_one : forall l, l < length rt ->
    match nth l tp None, nth l ts None with
    | Some _, None => True
    | None, Some h => h < sn
    | _, _ => False
    end;
  (** the private map is a bijection onto the private atoms *)
  ro_bij : Permutation (somes tp) (seq 0 (length pv));
  (** a private table holds its private atom *)
  ro_priv : forall l k, l < length rt -> nth l tp None = Some k -> nth l rt 0 = nth k pv 0
}.

(** Who holds which object: the private atoms of a restaurant may be those of
    its pseudo-prior, otherwise no two atoms are the same object. *)
Definition own (priv restp : list (list nat)) (r o : nat) : Prop := In o (nth r priv []) \/ In o (nth r restp []).

Record alias_ok (priv restp : list (list nat)) (shared : list nat) : Prop := {
  al_priv : forall r, NoDup (nth r priv []);
  al_restp : forall r, NoDup (nth r restp []);
  al_shared : NoDup shared;
  al_dis : forall r r' o, own priv restp r o -> own priv restp r' o -> r = r';
  al_shd : forall r o, own priv restp r o -> ~ In o shared
}.

Section Spec.
Variable I : SH.
Variable data : list (list (Datum I)).
Notation sst := (sst I).
Notation ng := (length data).

(** Tables of the observations of restaurant [r], group by group. *)
Definition seated (s : sst) (r : nat) : list nat :=
  flat_map (fun i => if nth i (s_ra I s) 0 =? r then nth i (s_tab I s) [] else []) (seq 0 ng).

(** The observations at table [l] of restaurant [r]. *)
Definition held (s : sst) (r l : nat) : list (Datum I) :=
  flat_map (fun i => if nth i (s_ra I s) 0 =? r
    then map snd (filter (fun p => fst p =? l) (combine (nth i (s_tab I s) []) (nth i data []))) else []) (seq 0 ng).

(** The observations at the tables that serve shared atom [h]. *)
Definition served (s : sst) (h : nat) : list (Datum I) :=
  flat_map (fun r => flat_map (fun l =>
    match nth l (nth r (s_ts I s) []) None with
    | Some k => if k =? h then held s r l else []
    | None => []
    end) (seq 0 (length (nth r (s_rest I s) [])))) (seq 0 ng).

(** [x] is a draw given the data [d], from the prior when there are none. *)
Definition drawn (d : list (Datum I)) (x : St I) : Prop :=
  exists g, x = fst (match d with [] => samp_prior I g | _ :: _ => samp_full I d g end).

(** Shared atoms served, table by table. *)
Definition dishes (s : sst) : list nat :=
  flat_map (fun r => somes (nth r (s_ts I s) [])) (seq 0 ng).

Record wf (s : sst) : Prop := {
  wf_rest : length (s_rest I s) = ng;
  wf_privl : length (s_priv I s) = ng;
  wf_nl : length (s_n I s) = ng;
  wf_restpl : length (s_restp I s) = ng;
  wf_npl : length (s_np I s) = ng;
  wf_tabl : length (s_tab I s) = ng;
  wf_ral : length (s_ra I s) = ng;
  wf_usedl : length (s_used I s) = ng;
  wf_concl : length (s_conc I s) = ng;
  wf_tsl : length (s_ts I s) = ng;
  wf_tpl : length (s_tp I s) = ng;
  wf_shared : Forall (fun o => o < length (s_heap I s)) (s_shared I s);
  wf_row : forall r, r < ng ->
    row_ok (length (s_heap I s)) (length (s_shared I s)) (nth r (s_rest I s) []) (nth r (s_priv I s) [])
           (nth r (s_ts I s) []) (nth r (s_tp I s) []);
  wf_ra : forall i, i < ng -> nth i (s_ra I s) 0 < ng;
  wf_used : forall r, r < ng -> (nth r (s_used I s) false = true <-> In r (s_ra I s));
  (** every observation sits at an existing table of its group's restaurant *)
  wf_tab : forall i, i < ng ->
    length (nth i (s_tab I s) []) = length (nth i data []) /\
    Forall (fun t => t < length (nth (nth i (s_ra I s) 0) (s_rest I s) [])) (nth i (s_tab I s) []);
  wf_n : forall r, r < ng -> length (nth r (s_rest I s) []) <= length (nth r (s_n I s) []);
  wf_pseudo : forall r, r < ng ->
    length (nth r (s_np I s) []) = length (nth r (s_restp I s) []) /\
    Forall (fun o => o < length (s_heap I s)) (nth r (s_restp I s) []);
  wf_own : alias_ok (s_priv I s) (s_restp I s) (s_shared I s)
}.

(** The first [m] groups each have their own restaurant with ten tables: five
    private atoms, then the five shared ones.  The first five observations sit
    at the five private tables, the others at any of these. *)
Record opened (m : nat) (s : sst) : Prop := {
  op_heap : length (s_heap I s) = 5 + 5 * m;
  op_shared : s_shared I s = seq 0 5;
  op_rest : forall r, nth r (s_rest I s) [] = if r <? m then seq (5 + 5 * r) 5 ++ seq 0 5 else [];
  op_priv : forall r, nth r (s_priv I s) [] = if r <? m then seq (5 + 5 * r) 5 else [];
  op_tp : forall r, r < m -> nth r (s_tp I s) [] = map Some (seq 0 5) ++ repeat None 5;
  op_ts : forall r, r < m -> nth r (s_ts I s) [] = repeat None 5 ++ map Some (seq 0 5);
  op_ra : forall r, r < m -> nth r (s_ra I s) 0 = r /\ nth r (s_used I s) false = true;
  op_tab : forall i, i < m -> exists ds, nth i (s_tab I s) [] = seq 0 5 ++ ds /\
    5 + length ds = length (nth i data []) * cols I /\ Forall (fun t => t < 5) ds
}.

(** Shared tables hold the atom the map points to. *)
Definition shared_coherent (s : sst) : Prop :=
  forall r l h, r < ng -> l < length (nth r (s_rest I s) []) -> nth l (nth r (s_ts I s) []) None = Some h ->
    nth l (nth r (s_rest I s) []) 0 = nth h (s_shared I s) 0.

(** The counts are those of the allocations. *)
Definition counts_exact (s : sst) : Prop :=
  (forall r, r < ng -> nth r (s_n I s) [] = tally (length (nth r (s_rest I s) [])) (seated s r)) /\
  s_m I s = tally (length (s_shared I s)) (dishes s).

(** No table without observations, no shared atom without tables. *)
Definition no_empty (s : sst) : Prop :=
  (forall r l, r < ng -> l < length (nth r (s_rest I s) []) -> In l (seated s r)) /\
  (forall h, h < length (s_shared I s) -> In h (dishes s)).

(** State after an iteration. *)
Definition tidy (s : sst) : Prop := wf s /\ no_empty s /\ counts_exact s.

(** [s'] is [s] renamed: [ft r] renames the tables of restaurant [r], [fs] the
    shared atoms. *)
Record renamed (s s' : sst) (ft : nat -> nat -> nat) (fs : nat -> nat) : Prop := {
  rn_heap : s_heap I s' = s_heap I s;
  rn_ra : s_ra I s' = s_ra I s;
  rn_used : s_used I s' = s_used I s;
  rn_conc : s_conc I s' = s_conc I s;
  rn_w : s_w I s' = s_w I s;
  rn_tab : forall i, i < ng -> nth i (s_tab I s') [] = map (ft (nth i (s_ra I s) 0)) (nth i (s_tab I s) []);
  (** a table that is kept holds the same object, serves the same shared atom
      or stays private *)
  rn_rest : forall r t, r < ng -> In t (seated s r) ->
    ft r t < length (nth r (s_rest I s') []) /\
    nth (ft r t) (nth r (s_rest I s') []) 0 = nth t (nth r (s_rest I s) []) 0 /\
    nth (ft r t) (nth r (s_ts I s') []) None = option_map fs (nth t (nth r (s_ts I s) []) None) /\
    (nth (ft r t) (nth r (s_tp I s') []) None = None <-> nth t (nth r (s_tp I s) []) None = None);
  rn_shared : forall r t h, r < ng -> In t (seated s r) -> nth t (nth r (s_ts I s) []) None = Some h ->
    fs h < length (s_shared I s') /\ nth (fs h) (s_shared I s') 0 = nth h (s_shared I s) 0;
  (** the order is kept *)
  rn_mono : forall r t u, r < ng -> In t (seated s r) -> In u (seated s r) -> t < u -> ft r t < ft r u
}.

(** Object [o] holds a draw given [d]. *)
Definition draw_at (h : list (St I)) (o : nat) (d : list (Datum I)) : Prop := exists x, nth_error h o = Some x /\ drawn d x.

(** What a completed update satisfies. *)
Definition refreshed (s s' : sst) : Prop :=
  (forall r l, r < ng -> l < length (nth r (s_rest I s) []) ->
     draw_at (s_heap I s') (nth l (nth r (s_rest I s') []) 0)
       (match nth l (nth r (s_ts I s) []) None with Some h => served s h | None => held s r l end)) /\
  (forall h, h < length (s_shared I s) -> draw_at (s_heap I s') (nth h (s_shared I s') 0) (served s h)).

(** Random-number generators return values in range. *)
Record gen_ok : Prop := {
  go_cat : forall l g, l <> [] -> fst (cat I l g) < length l;
  go_catp : forall l g, l <> [] -> fst (catp I l g) < length l;
  go_uint : forall n g, 0 < n -> fst (uint I n g) < n;
  go_dirich : forall l g, length (fst (dirich I l g)) = length l;
  go_multin : forall l n g, length (fst (multin I l n g)) = length l
}.

(** One chain of pseudo-prior states per group, all of the same positive
    length, every state with at least one observation and allocations in range. *)
Definition pseudo_ok (pseudo : list (list (pstate I))) : Prop :=
  ng <= length pseudo /\
  exists k, 0 < k /\ forall r, r < ng ->
    length (nth r pseudo []) = k /\
    Forall (fun ps => snd ps <> [] /\ Forall (fun c => c < length (fst ps)) (snd ps)) (nth r pseudo []).

End Spec.
