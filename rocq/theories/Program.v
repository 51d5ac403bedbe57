(** * The main program on univariate data, from its files to its files
    (executables/run_mcmc.cc): the parameters of Launch.v filled for the algorithms
    Neal2, Neal3 and Neal8, the hierarchies NNIG and NNxIG and the mixings DP and PY.
    Functions only.

    Other registered names (load_algorithms.h, load_hierarchies.h, load_mixings.h) are
    outside this file: undefined.  So are settings that are infinite or not a number,
    and states whose message has 2^31 bytes or more.  [seeded] is the generator after
    [rng.seed] (base_algorithm.cc:52-53), [pos] the engine that places the observations
    at the start (base_algorithm.cc:130-131), [ls0] the state of the first cluster before
    its initialisation. *)
From Coq Require Import String Ascii.
From Coq Require Import List NArith ZArith Bool Reals.
From Verif Require NumText Utils.
From Verif Require Import Base Hier Algos Run Collect Schema Wire WireInst Text Mixings Univ Settings RealInst UnivInst StateMsg Main Launch.
Import ListNotations.
Local Open Scope string_scope.

(** ** Chain files *)
Definition AS : string := "AlgorithmState".

Definition sound (m : message) : bool :=
  settled AS m && (N.of_nat (length (serialize AS m)) <? int_max)%N
  && forallb (fun b => (b <? 256)%N) (serialize AS m).

(* a state as it is read back *)
Definition saved_state : Type := { m : message | sound m = true }.

Definition as_saved (m : message) : option saved_state :=
  match bool_dec (sound m) true with left H => Some (exist _ m H) | right _ => None end.

Definition chain_proto : proto := mkProto saved_state
  (fun m => serialize AS (proj1_sig m))
  (fun bs => match parse_message AS bs with Some m => as_saved m | None => None end).

Definition chars_of (bs : bytes) : string := string_of_list_ascii (map ascii_of_N bs).
Definition bytes_of (s : string) : bytes := map N_of_ascii (list_ascii_of_string s).

(* file_collector.cc: [collect], [next_state]; reading to the end of the file (C48, C49) *)
Definition encode (l : list saved_state) : string := chars_of (fc_written chain_proto l).
Definition decode (s : string) : res (list saved_state) := py_read chain_proto (bytes_of s).

(* run_mcmc.cc:232-237 *)
Definition allocs_of (m : saved_state) : list nat :=
  map (fun v => match v with VInt z => Z.to_nat z | _ => 0%nat end) (entries 2 (proj1_sig m)).
Definition nclus_of (m : saved_state) : nat := length (entries 1 (proj1_sig m)).

(** ** Objects *)
Inductive algo_kind : Type := N2 | N3 | N8.
Inductive uni_prior : Type := UNig (p : nig_prior) | UNxig (p : nxig_prior).
Record object : Type := mkObj {
  o_algo : algo_kind;
  o_set : algo_settings;
  o_hier : uni_prior;
  o_mix : mixing_prior
}.

Definition registered_algos : list string := ["Neal2"; "Neal3"; "Neal8"; "BlockedGibbs"; "SplitMerge"; "Slice"].
Definition registered_hiers : list string := ["NNIG"; "NNxIG"; "NNW"; "LinRegUni"; "FA"; "LapNIG"].
Definition registered_mixings : list string := ["DP"; "LogSB"; "MFM"; "PY"; "TruncSB"].
Definition others {A} (known : list string) (s : string) : res A :=
  if existsb (String.eqb s) known then UB else Throw "No identifier found for name".

Definition create_algo (s : string) : res algo_kind :=
  if s =? "Neal2" then Ok N2 else if s =? "Neal3" then Ok N3 else if s =? "Neal8" then Ok N8
  else others registered_algos s.

Definition contents (t : string) (f : option string) : tmessage :=
  fst (read_proto_from_file t (option_map list_ascii_of_string f)).

Definition finite {A} (x : option A) : res A := match x with Some a => Ok a | None => UB end.

(* run_mcmc.cc:141-174; the prior of the hierarchy is checked by [hier->initialize()] *)
Definition build_object (a : option string) (ht : string) (ph : option string) (mt : string) (pm : option string)
  : res object :=
  let set := algo_settings_of (contents "AlgorithmParams" a) in
  al <- create_algo (as_id set) ;;
  h <- (if ht =? "NNIG" then Ok true else if ht =? "NNxIG" then Ok false else others registered_hiers ht) ;;
  d <- (if mt =? "DP" then Ok true else if mt =? "PY" then Ok false else others registered_mixings mt) ;;
  mx <- (if d : bool then p <- finite (dp_prior_of (contents "DPPrior" pm)) ;; Ok (PriDP p)
         else p <- finite (py_prior_of (contents "PYPrior" pm)) ;; Ok (PriPY p)) ;;
  hi <- (if h : bool then p <- finite (nig_prior_of (contents "NNIGPrior" ph)) ;; _ <- nig_init p ;; Ok (UNig p)
         else p <- finite (nxig_prior_of (contents "NNxIGPrior" ph)) ;; _ <- nxig_init p ;; Ok (UNxig p)) ;;
  Ok (mkObj al set hi mx).

Section Sampling.
  Variable lg : R -> R.               (* std::lgamma *)
  Variable G : gen.
  Variable dbl : R -> N.
  Variable seeded : N -> Gs G.
  Variable pos : nat -> nat -> nat.      (* number of clusters, observation *)
  Variable ls0 : uni_ls.

  (* what [initialize] inspects *)
  Definition config_of (o : object) (d : Utils.mat R) : config :=
    mkConfig (length (Utils.m_rows d)) (Utils.m_nc d) true
      (match o_hier o with UNig _ => true | UNxig _ => false end) false false 0
      true false false 0 false
      (match o_algo o with N8 => false | _ => true end).

  Definition keep (m : message) : res saved_state :=
    match parse_message AS (serialize AS m) with
    | Some m' => match as_saved m' with Some s => Ok s | None => UB end
    | None => UB
    end.

  Definition kept_of {I : Iface} (hyp : Hyp I -> uni_hyper) (mix : Mix I -> mixing) (st : St I -> uni_ls)
    (s : snapshot I) : kept :=
    mkKept (s_iter s) (s_alloc s) (map (fun c => (st (fst c), snd c)) (s_clusters s)) (hyp (s_hyp s)) (mix (s_mix s)).

  (* the states that are saved, as they are in memory *)
  Definition states_of (o : object) (ys : list R) : res (list kept) :=
    let a := o_set o in
    let k := N.to_nat (as_init a) in
    let it := N.to_nat (as_maxiter a) in
    let bu := N.to_nat (as_burnin a) in
    let r := seeded (as_seed a) in
    let ps := pos (if (k =? 0)%nat then length ys else k) in
    match o_hier o with
    | UNig p =>
        let I := nnig_iface lg G p in
        '(_, out) <- match o_algo o with
                     | N2 => neal2_run I (nig_init p) (mixing_start (o_mix o)) ys k ps ls0 it bu r
                     | N3 => neal3_run I (nig_init p) (mixing_start (o_mix o)) ys k ps ls0 it bu r
                     | N8 => neal8_run I (nig_init p) (mixing_start (o_mix o)) ys k ps ls0 (N.to_nat (as_n_aux a)) it bu r
                     end ;;
        Ok (map (@kept_of I HNig (fun m => m) (fun s => s)) out)
    | UNxig p =>
        let I := nnxig_iface G in
        '(_, out) <- match o_algo o with
                     | N8 => neal8_run I (nxig_init p) (mixing_start (o_mix o)) ys k ps ls0 (N.to_nat (as_n_aux a)) it bu r
                     | _ => UB                (* refused by the checks *)
                     end ;;
        Ok (map (@kept_of I HNxig (fun m => m) (fun s => s)) out)
    end.

  (* base_algorithm.h:49-78; the data are a column *)
  Definition sample_states (o : object) (d : Utils.mat R) (_ _ : option (Utils.mat R)) : res (list saved_state) :=
    _ <- checks (config_of o d) ;;
    if (Utils.m_nc d =? 0)%nat then UB
    else out <- states_of o (map (fun r => nth 0 r 0%R) (Utils.m_rows d)) ;;
         rmap (fun k => keep (state_msg dbl k)) out.

  (** ** The program; density evaluation and cluster estimate are parameters *)
  Variable writable : string -> bool.
  Variable other : R.                    (* the value of a cell that is not a number *)
  Variable left_over : string.
  Variable eval : object -> list saved_state -> Utils.mat R -> option (Utils.mat R) -> option (Utils.mat R) -> res (Utils.mat R).
  Variable show : Utils.mat R -> string.
  Variable blank : saved_state.
  Variable estimate : list (list nat) -> res (list nat).

  Definition run_mcmc : list string -> files -> files * ended :=
    main_program writable object saved_state (Utils.mat R) (NumText.read_reals other) build_object (fun _ => false) (fun _ => false)
      (fun d => length (Utils.m_rows d)) sample_states encode decode left_over eval show NumText.show_ints allocs_of nclus_of blank estimate.
End Sampling.
