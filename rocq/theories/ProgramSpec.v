(** * What a run of the main program on univariate data has to leave behind *)
From Coq Require Import String Ascii.
From Coq Require Import List NArith ZArith Reals.
From Verif Require Import Base Hier Algos Run Schema Text Mixings Univ UnivFacts UnivInit Settings RealInst RealFacts UnivInst UnivRun StateMsg StateMsgSpec Launch Program P_Valid.
Import ListNotations.
Local Open Scope string_scope.

(** The message in a configuration file, and the settings in it (C133, C134). *)
Definition message_in (t : string) (fs : files) (f : string) : tmessage :=
  fst (read_proto_from_file t (option_map list_ascii_of_string (fs f))).

Inductive hier_set (fs : files) (f : string) : string -> uni_prior -> Prop :=
| hset_nig : forall p, nig_prior_of (message_in "NNIGPrior" fs f) = Some p -> hier_set fs f "NNIG" (UNig p)
| hset_nxig : forall p, nxig_prior_of (message_in "NNxIGPrior" fs f) = Some p -> hier_set fs f "NNxIG" (UNxig p).
Inductive mix_set (fs : files) (f : string) : string -> mixing_prior -> Prop :=
| mset_dp : forall p, dp_prior_of (message_in "DPPrior" fs f) = Some p -> mix_set fs f "DP" (PriDP p)
| mset_py : forall p, py_prior_of (message_in "PYPrior" fs f) = Some p -> mix_set fs f "PY" (PriPY p).

(** A state as it is kept: everything of the state in memory. *)
Definition keeps {I : Iface} (st : St I -> uni_ls) (hyp : Hyp I -> uni_hyper) (mix : Mix I -> mixing) (s : snapshot I) (k : kept) : Prop :=
  k_iter k = s_iter s /\ k_alloc k = s_alloc s /\ k_hyp k = hyp (s_hyp s) /\ k_mix k = mix (s_mix s) /\
  Forall2 (fun c c' => fst c' = st (fst c) /\ snd c' = snd c) (s_clusters s) (k_clusters k).

Section Sampled.
  Variable lg : R -> R.
  Variable G : gen.
  Variable seeded : N -> Gs G.
  Variable pos : nat -> nat -> nat.
  Variable ls0 : uni_ls.

  (** The run that the settings ask for, on the numbers [ys]. *)
  Inductive sampled (a : algo_settings) (ys : list R) : uni_prior -> mixing_prior -> list kept -> Prop :=
  | sam_neal2 : forall p q s out ks, as_id a = "Neal2" ->
      neal2_run (nnig_iface lg G p) (nig_init p) (mixing_start q) ys (N.to_nat (as_init a))
        (pos (if as_init a =? 0 then length ys else N.to_nat (as_init a))%N) ls0
        (N.to_nat (as_maxiter a)) (N.to_nat (as_burnin a)) (seeded (as_seed a)) = Ok (s, out) ->
      Forall2 (keeps (I := nnig_iface lg G p) (fun x => x) HNig (fun x => x)) out ks -> sampled a ys (UNig p) q ks
  | sam_neal3 : forall p q s out ks, as_id a = "Neal3" ->
      neal3_run (nnig_iface lg G p) (nig_init p) (mixing_start q) ys (N.to_nat (as_init a))
        (pos (if as_init a =? 0 then length ys else N.to_nat (as_init a))%N) ls0
        (N.to_nat (as_maxiter a)) (N.to_nat (as_burnin a)) (seeded (as_seed a)) = Ok (s, out) ->
      Forall2 (keeps (I := nnig_iface lg G p) (fun x => x) HNig (fun x => x)) out ks -> sampled a ys (UNig p) q ks
  | sam_neal8 : forall p q s out ks, as_id a = "Neal8" ->
      neal8_run (nnig_iface lg G p) (nig_init p) (mixing_start q) ys (N.to_nat (as_init a))
        (pos (if as_init a =? 0 then length ys else N.to_nat (as_init a))%N) ls0 (N.to_nat (as_n_aux a))
        (N.to_nat (as_maxiter a)) (N.to_nat (as_burnin a)) (seeded (as_seed a)) = Ok (s, out) ->
      Forall2 (keeps (I := nnig_iface lg G p) (fun x => x) HNig (fun x => x)) out ks -> sampled a ys (UNig p) q ks
  | sam_neal8_semi : forall p q s out ks, as_id a = "Neal8" ->
      neal8_run (nnxig_iface G) (nxig_init p) (mixing_start q) ys (N.to_nat (as_init a))
        (pos (if as_init a =? 0 then length ys else N.to_nat (as_init a))%N) ls0 (N.to_nat (as_n_aux a))
        (N.to_nat (as_maxiter a)) (N.to_nat (as_burnin a)) (seeded (as_seed a)) = Ok (s, out) ->
      Forall2 (keeps (I := nnxig_iface G) (fun x => x) HNxig (fun x => x)) out ks -> sampled a ys (UNxig p) q ks.
End Sampled.

(** A kept state in its space (C112). *)
Definition kept_ok (n : nat) (k : kept) : Prop :=
  match k_hyp k with
  | HNig h => state_ok valid n (k_alloc k) (k_clusters k) h (k_mix k)
  | HNxig h => state_ok nx_valid n (k_alloc k) (k_clusters k) h (k_mix k)
  end.

(** Sizes for which nothing overflows: the bytes of a state are fewer than 2^31. *)
Definition in_range (a : algo_settings) (n : nat) : Prop :=
  (2 <= N.of_nat n <= 2 ^ 23)%N /\ (as_init a <= N.of_nat n)%N /\ (as_maxiter a <= 2 ^ 31)%N /\ (as_id a = "Neal8" -> 1 <= as_n_aux a)%N.
