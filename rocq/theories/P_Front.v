(** * Property theorems: the answers of the Python and R functions (C138) *)
From Coq Require Import String Ascii.
From Coq Require Import List NArith ZArith Bool Reals Lia Lra.
From Verif Require NumText Utils P_NumText PartSpec UtilsFacts P_Utils.
From Verif Require Import Base Args ArgsFacts Main Launch LaunchFacts LaunchMore WrapFacts P_Launch Collect Schema Text Wire WireSpec StickFacts.
From Verif Require Import Hier Algos Run InitFacts MargProps ValidRun Mixings Univ UnivFacts UnivInit Settings RealInst RealFacts UnivInst UnivRun GaussInt UnivInt Eval EvalFacts P_Valid.
From Verif Require Import ClusterFacts.
From Verif Require Import StateMsg StateMsgSpec StateMsgFacts Program ProgramFacts ProgramSpec P_Program ProgramDens ProgramDensSpec ProgramDensFacts P_ProgramDens.
Import ListNotations.
Local Open Scope string_scope.

(** The three parameters of a request, which are texts or names of files, under three
    names. *)
Definition parameters (fs : files) (q : request) : files := fun f =>
  let read p := Some (match fs p with Some c => c | None => p ++ nl end) in
  if f =? "algo" then read (q_algo_params q) else if f =? "hier" then read (q_hier_params q) else if f =? "mix" then read (q_mix_params q) else None.

(** A component of an answer: what the reader makes of a text, if it was asked for. *)
Definition loaded {A : Type} (ld : string -> res A) (asked : bool) (t : string) (r : option A) : Prop :=
  match asked with true => exists x, ld t = Ok x /\ r = Some x | false => r = None end.

Section Answer.
  Variable G : gen.
  Variable num : N -> R.
  Variable dbl : R -> N.
  Variable drawn : nat -> nat -> uni_hyper -> uni_ls.
  Variable seeded : N -> Gs G.
  Variable pos : nat -> nat -> nat.
  Variable ls0 : uni_ls.
  Variable other : R.
  Variable show : Utils.mat R -> string.
  Variable L : Type.
  Variable load : string -> res L.

  (** The answer to a request. *)
  Definition reported (fs : files) (q : request) (ans : answer L (list saved_state)) : Prop :=
    let given := parameters fs q in
    exists a p m data, a = algo_settings_of (message_in "AlgorithmParams" given "algo") /\ hier_set given "hier" (q_hier q) p /\ mix_set given "mix" (q_mix q) m /\
      NumText.read_reals other (q_data q) = Ok data /\
      let ys := map (fun r => nth 0 r 0%R) (Utils.m_rows data) in
      let written := back (fun x => num (dbl x)) in
      exists ks, sampled lgam G seeded pos ls0 a ys p m ks /\
        (in_range a (length ys) ->
          map k_iter ks = seq (N.to_nat (as_burnin a)) (N.to_nat (as_maxiter a) - N.to_nat (as_burnin a)) /\
          (forall k, In k ks -> kept_ok (length ys) k) /\
          (if q_chains q then exists cs, r_chain _ _ ans = Some cs /\ Forall2 (fun k (c : saved_state) => recorded dbl k (proj1_sig c)) ks cs else r_chain _ _ ans = None) /\
          loaded load (q_ncl q) (NumText.show_ints (map (fun k => [length (k_clusters k)]) ks)) (r_ncl _ _ ans) /\
          loaded load (q_clus q) (NumText.show_ints (map k_alloc ks)) (r_clus _ _ ans) /\
          (if q_best q then (as_burnin a < as_maxiter a)%N -> exists i k, nth_error ks i = Some k /\
             loaded load true (NumText.show_ints (map (fun x => [x]) (k_alloc k))) (r_best _ _ ans) /\
             (forall j, j < length ks -> total_disagreement (map (fun k => map Z.of_nat (k_alloc k)) ks) i <= total_disagreement (map (fun k => map Z.of_nat (k_alloc k)) ks) j)%nat
           else r_best _ _ ans = None) /\
          match q_grid q with
          | Some g => exists grid, NumText.read_reals other g = Ok grid /\
              let pts := map (fun r => nth 0 r 0%R) (Utils.m_rows grid) in
              ((forall k, In k ks -> kept_ok (length ys) (written k)) -> exists rows, loaded load true (show (Utils.mkMat (length pts) rows)) (r_dens _ _ ans) /\
                Forall2 (fun ik row => row_of a (drawn (fst ik)) (written (snd ik)) pts row) (dealt (combine (seq 0 (length ks)) ks)) rows)
          | None => r_dens _ _ ans = None
          end).

  Variable junk : list R.
  Hypothesis HG : gen_ok G.
  Hypothesis HP : gen_pos G.
  Hypothesis D : forall x, (dbl x < 2 ^ 64)%N.
  Hypothesis Hpos : forall k i, 0 < k -> pos k i < k.
  Hypothesis Hdr : drawn_from G drawn.
  Hypothesis Hj : forall i, nth i junk 0%R = 0%R.

  Lemma report : forall fs q ans,
    delivered object saved_state (Utils.mat R) (NumText.read_reals other) build_object (fun _ => false) (fun _ => false) (fun d => length (Utils.m_rows d))
      (sample_states lgam G dbl seeded pos ls0) encode (eval_density num lgam drawn) show NumText.show_ints allocs_of nclus_of (best junk) L (list saved_state) load decode fs q ans ->
    reported fs q ans.
  Proof.
    intros fs q ans (o & data & chain & B & _ & _ & T2 & S & Wd & Wn & Wc & Wb & Wch).
    destruct (built (parameters fs q) "algo" (q_hier q) "hier" (q_mix q) "mix" o B) as (Ea & Na & Hh & Hm).
    unfold sample_states in S. destruct (checks (config_of o data)) as [u| | |] eqn:Ck; try discriminate. cbn [rbind] in S.
    destruct (Utils.m_nc data =? 0)%nat eqn:Z; [discriminate|]. apply Nat.eqb_neq in Z.
    destruct (states_of lgam G seeded pos ls0 o (map (fun r => nth 0 r 0%R) (Utils.m_rows data))) as [ks| | |] eqn:E; try discriminate. cbn [rbind] in S.
    unfold reported. cbn zeta. exists (o_set o), (o_hier o), (o_mix o), data. split; [exact Ea|]. split; [exact Hh|]. split; [exact Hm|]. split; [exact T2|].
    exists ks. pose proof (states_sampled _ _ _ _ _ _ _ _ Na E) as Q. split; [exact Q|]. intros Rg.
    set (ys := map (fun r => nth 0 r 0%R) (Utils.m_rows data)) in *. assert (Ly : length ys = length (Utils.m_rows data)) by apply map_length.
    destruct (sampled_ok G seeded pos ls0 _ _ _ _ _ HG HP Hpos Rg Q) as (Lk & I & V). split; [exact I|]. split; [exact V|].
    assert (It : forall k, In k ks -> (N.of_nat (k_iter k) < as_maxiter (o_set o))%N).
    { intros k J. apply (in_map k_iter) in J. rewrite I in J. apply in_seq in J. lia. }
    pose proof (kept_chain dbl _ (as_maxiter (o_set o)) ks chain D (proj2 (proj1 Rg)) V It (proj1 (proj2 (proj2 Rg))) S) as C.
    pose proof (kept_same dbl _ (as_maxiter (o_set o)) ks chain D (proj2 (proj1 Rg)) V It (proj1 (proj2 (proj2 Rg))) S) as C'.
    destruct (chain_outputs dbl ks chain C) as [A1 A2].
    assert (A3 : map (fun m => firstn (length (Utils.m_rows data)) (allocs_of m)) chain = map k_alloc ks).
    { rewrite <- A1. apply map_ext_in. intros m J. apply firstn_all2.
      assert (X : In (allocs_of m) (map k_alloc ks)) by (rewrite <- A1; apply in_map, J). apply in_map_iff in X as (k & <- & J').
      destruct (clustering_of _ k (V k J')) as (Lx & _). rewrite Lx, Ly. lia. }
    rewrite A3 in Wc, Wb. rewrite <- (map_map nclus_of (fun x => [x])), A2, map_map in Wn.
    split; [|split; [exact Wn|split; [exact Wc|split]]].
    - unfold gives in Wch. destruct (q_chains q); [|exact Wch]. destruct Wch as (cs & E1 & E2). rewrite decode_encode in E1. injection E1 as <-. exists chain. split; [exact E2|exact C].
    - destruct (q_best q); [|exact Wb]. intro Hb. destruct Wb as (b & Eb & Fb).
      unfold best in Eb. rewrite map_map in Eb. set (rows := map (fun k => map Z.of_nat (k_alloc k)) ks) in *.
      assert (Lr : length rows = length ks) by apply map_length.
      assert (Nk : rows <> []). { intro Y. apply (f_equal (@length _)) in I. rewrite map_length, seq_length in I. rewrite Y in Lr. cbn in Lr. lia. }
      destruct (P_Utils.C56_estimate_minimises rows junk Nk (fun k _ => Hj k)) as (i & Hi & Ei & Mi & _). rewrite Ei in Eb. cbn [rbind] in Eb. injection Eb as <-.
      rewrite Lr in Hi. destruct (nth_error ks i) as [k|] eqn:Ek; [|apply nth_error_None in Ek; lia]. exists i, k. split; [exact Ek|].
      assert (Er : nth i rows [] = map Z.of_nat (k_alloc k)) by (apply nth_error_nth; exact (map_nth_error _ _ _ Ek)).
      rewrite Er, !map_map in Fb. split; [|rewrite Lr in Mi; exact Mi].
      rewrite (map_ext (fun x => [Z.to_nat (Z.of_nat x)]) (fun x => [x])) in Fb by (intro x; rewrite Nat2Z.id; reflexivity). exact Fb.
    - destruct (q_grid q) as [g|]; [|exact Wd]. destruct Wd as (grid & e & Rgr & Ev & Ld). exists grid. split; [exact Rgr|]. intro Vb.
      assert (Ng0 : Utils.m_nc grid <> 0%nat). { intro Zg. unfold eval_density in Ev. rewrite Zg in Ev. discriminate. }
      pose proof (sampled_kinds G seeded pos ls0 _ _ _ _ _ HG HP Hpos Rg Q) as Kd.
      destruct (density_value num dbl drawn o (length ys) ks chain grid None None (object_good _ _ _ _ _ _ _ _ _ Na Rg E) ltac:(destruct Rg as ((? & _) & _); lia) Ng0) as (rows & Er & Fr).
      + clear -C' Vb V Kd. assert (X : forall k, In k ks -> length (k_alloc k) = length ys) by (intros k J; exact (proj1 (clustering_of _ k (V k J)))).
        induction C' as [|k c l l' (S & J) C IH]; constructor; [|exact IH]. destruct (Kd k J) as [K1 K2]. split; [exact S|]. split; [exact (X k J)|]. split; [exact (Vb k J)|]. split; [exact K1|exact K2].
      + intros _. exact (draws_positive G drawn HP Hdr).
      + rewrite Ev in Er. injection Er as ->. exists rows. split; [exact Ld|exact Fr].
  Qed.
End Answer.

(** R: every answer is the answer to the request. *)
Theorem C138_r : forall G num dbl drawn seeded pos ls0 writable other left_over show blank junk L (load : string -> res L),
  gen_ok G -> gen_pos G -> (forall x, dbl x < 2 ^ 64)%N -> (forall k i, 0 < k -> pos k i < k)%nat -> drawn_from G drawn -> (forall i, nth i junk 0%R = 0%R) ->
  forall exe d tmp q fs fs' ans, sh_word exe -> percentless exe -> sh_dir d -> plain d -> d <> "" ->
  sh_word (q_hier q) -> sh_word (q_mix q) -> plain (q_hier q) -> plain (q_mix q) ->
  given_files (fun p => sh_word p /\ plain p) q fs -> apart rjoin d q -> fs EMPTYSTR = None ->
  r_run L (list saved_state) load decode
    (fun _ w f => Some (run_mcmc lgam G dbl seeded pos ls0 writable other left_over (eval_density num lgam drawn) show blank (best junk) w f)) exe d tmp q fs = (fs', Ok ans) ->
  reported G num dbl drawn seeded pos ls0 other show L load fs q ans.
Proof.
  intros G num dbl drawn seeded pos ls0 writable other left_over show blank junk L load HG HP D Hpos Hdr Hj exe d tmp q fs fs' ans W1 W2 W3 W4 W5 W6 W7 W8 W9 W10 W11 W12 H.
  refine (report G num dbl drawn seeded pos ls0 other show L load junk HG HP D Hpos Hdr Hj fs q ans _).
  exact (C104_r_end_to_end writable object saved_state (Utils.mat R) (NumText.read_reals other) build_object (fun _ => false) (fun _ => false) (fun d => length (Utils.m_rows d))
    (sample_states lgam G dbl seeded pos ls0) encode decode left_over (eval_density num lgam drawn) show NumText.show_ints allocs_of nclus_of blank (best junk) L (list saved_state) load decode
    decode_encode exe d tmp q fs fs' ans W1 W2 W3 W4 W5 W6 W7 W8 W9 W10 W11 W12 H).
Qed.
Print Assumptions C138_r.

(** Python: the same if the program ended well, which the function does not look at
    ([C102_failures_reported_refuted]). *)
Theorem C138_python : forall G num dbl drawn seeded pos ls0 writable other left_over show blank junk L (load : string -> res L),
  gen_ok G -> gen_pos G -> (forall x, dbl x < 2 ^ 64)%N -> (forall k i, 0 < k -> pos k i < k)%nat -> drawn_from G drawn -> (forall i, nth i junk 0%R = 0%R) ->
  let program := run_mcmc lgam G dbl seeded pos ls0 writable other left_over (eval_density num lgam drawn) show blank (best junk) in
  forall exe d tmp q fs fs' fs6 ans, LaunchFacts.word exe -> braceless exe -> (forall c, In c (chars d) -> py_space c = false) -> plain d -> d <> "" ->
  LaunchFacts.word (q_hier q) -> LaunchFacts.word (q_mix q) -> plain (q_hier q) -> plain (q_mix q) ->
  given_files (fun p => LaunchFacts.word p /\ plain p) q fs -> apart join d q -> fs EMPTYSTR = None ->
  program (flat (combine wrapper_names (words_given join d q fs))) (prepared join d q fs) = (fs6, Exited 0) ->
  py_run L (list saved_state) load decode (fun _ w f => Some (program w f)) exe d tmp q fs = (fs', Ok ans) ->
  reported G num dbl drawn seeded pos ls0 other show L load fs q ans.
Proof.
  intros G num dbl drawn seeded pos ls0 writable other left_over show blank junk L load HG HP D Hpos Hdr Hj program exe d tmp q fs fs' fs6 ans W1 W2 W3 W4 W5 W6 W7 W8 W9 W10 W11 W12 Hm H.
  refine (report G num dbl drawn seeded pos ls0 other show L load junk HG HP D Hpos Hdr Hj fs q ans _).
  exact (C104_py_end_to_end writable object saved_state (Utils.mat R) (NumText.read_reals other) build_object (fun _ => false) (fun _ => false) (fun d => length (Utils.m_rows d))
    (sample_states lgam G dbl seeded pos ls0) encode decode left_over (eval_density num lgam drawn) show NumText.show_ints allocs_of nclus_of blank (best junk) L (list saved_state) load decode
    decode_encode exe d tmp q fs fs' fs6 ans W1 W2 W3 W4 W5 W6 W7 W8 W9 W10 W11 W12 Hm H).
Qed.
Print Assumptions C138_python.

(** ** Example: the files of C137 given as texts to the Python function *)
Definition ex_request (data grid : string) : request := mkReq "NNIG" "DP" "fixed_values { mean: 0 var_scaling: 1 shape: 2 scale: 2 }" "fixed_value { totalmass: 2 }"
  "algo_id: 'Neal8' rng_seed: 5 iterations: 7 burnin: 1 init_num_clusters: 2 neal8_n_aux: 3"
  data (Some grid) true true true true.
Definition ex_data : string := NumText.show_ints [[1]; [20]; [3]]%nat.
Definition ex_grid : string := NumText.show_ints [[2]; [9]]%nat.
Definition ex_req : request := ex_request ex_data ex_grid.
Definition ex_fs : files := fun _ => None.
Definition ex_prep : files := prepared join "out" ex_req ex_fs.
Definition ex_words : list string := flat (combine wrapper_names (words_given join "out" ex_req ex_fs)).
Lemma ex_algo3 : algo_settings_of (message_in "AlgorithmParams" ex_prep "out/algo_params.asciipb") = mkAS "Neal8" 5 7 1 2 3 0 0 0.
Proof. unfold ex_prep, ex_req. generalize ex_data ex_grid. intros dt gt. vm_compute. reflexivity. Qed.
Lemma ex_hier3 : hier_set ex_prep "out/hier_params.asciipb" "NNIG" (UNig ex_prior).
Proof.
  assert (E : forall A t f g (m : tmessage) (h : tmessage -> A), message_in t f g = m -> h (message_in t f g) = h m) by (intros; congruence).
  unfold ex_prep, ex_req. generalize ex_data ex_grid. intros dt gt. constructor. etransitivity; [eapply E; vm_compute; reflexivity|reflexivity].
Qed.
Lemma ex_mix3 : mix_set ex_prep "out/mix_params.asciipb" "DP" (PriDP (DPFixed (2 * powerRZ 10 0))).
Proof.
  assert (E : forall A t f g (m : tmessage) (h : tmessage -> A), message_in t f g = m -> h (message_in t f g) = h m) by (intros; congruence).
  unfold ex_prep, ex_req. generalize ex_data ex_grid. intros dt gt. constructor. etransitivity; [eapply E; vm_compute; reflexivity|reflexivity].
Qed.

Lemma ex_parsed : exists st, parse_args run_options ex_words = Parsed st /\
    get st "--algo-params-file" = Ok "out/algo_params.asciipb" /\ get st "--hier-type" = Ok "NNIG" /\ get st "--hier-args" = Ok "out/hier_params.asciipb" /\
    get st "--mix-type" = Ok "DP" /\ get st "--mix-args" = Ok "out/mix_params.asciipb" /\ get st "--coll-name" = Ok "out/chains.recordio" /\
    get st "--data-file" = Ok "out/data.csv" /\ get st "--grid-file" = Ok "out/dens_grid.csv" /\ get st "--dens-file" = Ok "out/eval_dens.csv" /\
    get st "--n-cl-file" = Ok "out/n_clus.csv" /\ get st "--clus-file" = Ok "out/clus.csv" /\ get st "--best-clus-file" = Ok "out/best_clus.csv" /\ separate st.
Proof.
  unfold ex_words, ex_req. generalize ex_data ex_grid. intros dt gt. eexists. split; [vm_compute; reflexivity|]. repeat (split; [vm_compute; reflexivity|]). split.
    - match goal with |- NoDup ?l => let x := eval vm_compute in l in change (NoDup x) end.
      repeat (apply NoDup_cons; [cbn; intro H; repeat (destruct H as [H|H]; [discriminate H|]); contradiction|]). apply NoDup_nil.
    - intros n f Hn E. repeat (destruct Hn as [<-|Hn]; [vm_compute in E; injection E as <-; cbn; intro H; repeat (destruct H as [H|H]; [discriminate H|]); contradiction|]). contradiction.
Qed.

Example C138_example : forall blank show,
  let program := run_mcmc lgam g1 ex_dbl N.to_nat (fun k i => i mod k) (mkLS 0 0) (fun _ => true) 7%R "" (eval_density ex_num lgam ex_drawn) show blank (best []) in
  LaunchFacts.word "run_mcmc" /\ braceless "run_mcmc" /\ plain "out" /\ LaunchFacts.word (q_hier ex_req) /\ LaunchFacts.word (q_mix ex_req) /\
  given_files (fun p => LaunchFacts.word p /\ plain p) ex_req ex_fs /\ apart join "out" ex_req /\ apart rjoin "out" ex_req /\
  exists fs6 fs' ans, program ex_words ex_prep = (fs6, Exited 0) /\
    py_run string (list saved_state) Ok decode (fun _ w f => Some (program w f)) "run_mcmc" "out" true ex_req ex_fs = (fs', Ok ans) /\
    reported g1 ex_num ex_dbl ex_drawn N.to_nat (fun k i => i mod k) (mkLS 0 0) 7%R show string Ok ex_fs ex_req ans /\
    (exists rows, r_clus _ _ ans = Some (NumText.show_ints rows) /\ length rows = 6%nat) /\ fs' "out/clus.csv" = None.
Proof.
  intros blank show program. assert (Hpos : forall k i, 0 < k -> i mod k < k) by (intros k i H; apply Nat.mod_upper_bound; lia).
  assert (Wd : forall s, s <> "" -> forallb (fun c => negb (py_space c)) (chars s) = true -> LaunchFacts.word s).
  { intros s N H. split; trivial. intros c Hc. rewrite forallb_forall in H. specialize (H c Hc). now apply negb_true_iff in H. }
  assert (W1 : LaunchFacts.word "run_mcmc") by (apply Wd; [discriminate|reflexivity]).
  assert (W2 : braceless "run_mcmc") by (intros c Hc; cbn in Hc; repeat (destruct Hc as [<-|Hc]; [split; discriminate|]); contradiction Hc).
  assert (W3 : forall c, In c (chars "out") -> py_space c = false) by (apply (Wd "out"); [discriminate|reflexivity]).
  assert (W4 : plain "out") by (intros t E; discriminate E).
  assert (W5 : LaunchFacts.word (q_hier ex_req)) by (apply Wd; [discriminate|reflexivity]). assert (W6 : LaunchFacts.word (q_mix ex_req)) by (apply Wd; [discriminate|reflexivity]).
  assert (W7 : plain (q_hier ex_req)) by (intros t E; discriminate E). assert (W8 : plain (q_mix ex_req)) by (intros t E; discriminate E).
  assert (W9 : given_files (fun p => LaunchFacts.word p /\ plain p) ex_req ex_fs) by (intros p _ N; contradiction N; reflexivity).
  assert (W10 : apart join "out" ex_req) by (intros p f Hp Hf E; destruct Hp as [<-|[<-|[<-|[]]]]; repeat (destruct Hf as [<-|Hf]; [discriminate E|]); contradiction).
  assert (W11 : apart rjoin "out" ex_req) by (intros p f Hp Hf E; destruct Hp as [<-|[<-|[<-|[]]]]; repeat (destruct Hf as [<-|Hf]; [discriminate E|]); contradiction).
  split; [exact W1|]. split; [exact W2|]. split; [exact W4|]. split; [exact W5|]. split; [exact W6|]. split; [exact W9|]. split; [exact W10|]. split; [exact W11|].
  assert (D : forall x, (ex_dbl x < 2 ^ 64)%N) by (intro x; unfold ex_dbl; destruct (Rlt_dec 0 x); lia).
  assert (Hdr : drawn_from g1 ex_drawn) by (intros i j h; exists (i + j)%nat; destruct h; reflexivity).
  assert (Hj : forall i, nth i (@nil R) 0%R = 0%R) by (intros []; reflexivity).
  pose proof ex_parsed as Ps.
  destruct Ps as (st & Ps & E1 & E2 & E3 & E4 & E5 & E6 & E7 & E8 & E9 & E10 & E11 & E12 & Sep).
  assert (Rd : NumText.read_reals 7 ex_data = Ok (Utils.mkMat 1 (map (map INR) [[1]; [20]; [3]]%nat))).
  { apply (P_NumText.C128_integer_files [[1]; [20]; [3]]%nat 1 7%R ltac:(discriminate) ltac:(lia)); [intros r [<-|[<-|[<-|[]]]]; reflexivity|]. repeat constructor; lia. }
  assert (Rg2 : NumText.read_reals 7 ex_grid = Ok (Utils.mkMat 1 (map (map INR) [[2]; [9]]%nat))).
  { apply (P_NumText.C128_integer_files [[2]; [9]]%nat 1 7%R ltac:(discriminate) ltac:(lia)); [intros r [<-|[<-|[]]]; reflexivity|]. repeat constructor; lia. }
  set (data := Utils.mkMat 1 (map (map INR) [[1]; [20]; [3]]%nat)) in *. set (grid := Utils.mkMat 1 (map (map INR) [[2]; [9]]%nat)) in *. set (a := mkAS "Neal8" 5 7 1 2 3 0 0 0).
  assert (Rg : in_range a 3) by (unfold in_range, a; cbn [as_init as_maxiter as_id as_n_aux]; repeat split; try lia).
  destruct (C102_inputs_written "out" ex_req ex_fs W10) as (T0 & T0g & _). specialize (T0g _ eq_refl). change (ex_prep "out/data.csv" = Some ex_data) in T0. change (ex_prep "out/dens_grid.csv" = Some ex_grid) in T0g.
  assert (X : forall x, (0 < x)%R -> lteb x 0 = false) by (intros x Hx; unfold lteb; destruct (Rle_dec x 0); [lra|reflexivity]).
  set (ys := map (fun r => nth 0 r 0%R) (Utils.m_rows data)).
  destruct (C135_sampler_ends g1 N.to_nat (fun k i => i mod k) (mkLS 0 0) a ys (UNig ex_prior) (PriDP (DPFixed (2 * powerRZ 10 0))) (proj1 g1_ok) Hpos Rg) as (ks0 & S).
  { split; [right; right; left; reflexivity|]. eexists. unfold ex_prior. cbn [nig_init]. unfold nig_check. cbn [ng_vs ng_shape ng_scale powerRZ]. rewrite !X by lra. reflexivity. }
  { cbn [prior_fixed powerRZ]. lra. }
  assert (Vb : forall p m ks k, sampled lgam g1 N.to_nat (fun k i => i mod k) (mkLS 0 0) a ys p (PriDP m) ks -> In k ks -> kept_ok (length ys) (back (fun x => ex_num (ex_dbl x)) k)).
  { intros p m ks k Q J. destruct (sampled_kinds g1 N.to_nat _ (mkLS 0 0) a ys _ _ ks (proj1 g1_ok) (proj2 g1_ok) Hpos Rg Q k J) as [K _].
    destruct (k_mix k) as [m' s|m' s] eqn:Ek; [|contradiction]. apply (ex_back _ k m' s Ek).
    exact (proj2 (proj2 (sampled_ok g1 N.to_nat _ (mkLS 0 0) a ys _ _ ks (proj1 g1_ok) (proj2 g1_ok) Hpos Rg Q)) k J). }
  destruct (C137_exits g1 ex_num ex_dbl ex_drawn N.to_nat (fun k i => i mod k) (mkLS 0 0) (fun _ => true) 7%R "" show blank [] (proj1 g1_ok) (proj2 g1_ok) D Hpos Hdr Hj
    ex_words ex_prep st _ _ _ _ _ _ _ _ _ _ _ _ a _ _ _ data _ grid ks0 Ps Sep (fun _ _ => eq_refl) E1 E2 E3 E4 E5 E6 E7 E8 E9 E10 E11 E12
    (eq_sym ex_algo3) ex_hier3 ex_mix3 T0 Rd eq_refl Rg T0g Rg2 ltac:(discriminate) eq_refl S (Vb _ _)) as (fs6 & Rn).
  exists fs6.
  destruct (C135_run g1 ex_dbl N.to_nat (fun k i => i mod k) (mkLS 0 0) (fun _ => true) 7%R "" (eval_density ex_num lgam ex_drawn) show blank (best []) (proj1 g1_ok) (proj2 g1_ok) D Hpos
    ex_words ex_prep fs6 st _ _ _ _ _ _ _ _ _ _ _ _ Ps Sep Rn E1 E2 E3 E4 E5 E6 E7 E8 E9 E10 E11 E12) as (a' & p & q & data' & text & Ea & _ & Hq & T & Rd2 & _ & ks & Q & H).
  rewrite ex_algo3 in Ea. subst a'. rewrite T0 in T. injection T as <-. rewrite Rd in Rd2. injection Rd2 as <-. fold a ys in Q, H. destruct (H Rg) as (I & _ & Fch & Fn & Fc & Fb).
  destruct (Fch ltac:(discriminate)) as (bytes & cs & _ & _ & _). specialize (Fn ltac:(discriminate)). specialize (Fc ltac:(discriminate)). destruct (Fb ltac:(discriminate)) as (b & _ & F3).
  destruct (C137_density g1 ex_num ex_dbl ex_drawn N.to_nat (fun k i => i mod k) (mkLS 0 0) (fun _ => true) 7%R "" show blank (best []) (proj1 g1_ok) (proj2 g1_ok) D Hpos Hdr
    ex_words ex_prep fs6 st _ _ _ _ _ _ _ _ _ _ _ _ Ps Sep Rn E1 E2 E3 E4 E5 E6 E7 E8 E9 E10 E11 E12 ltac:(discriminate) ltac:(discriminate))
    as (a' & p2 & q2 & data' & text2 & grid' & tg & Ea & _ & Hq2 & T2 & Rd3 & Tg & Rdg & ks2 & Q2 & H2).
  rewrite ex_algo3 in Ea. subst a'. rewrite T0 in T2. injection T2 as <-. rewrite Rd in Rd3. injection Rd3 as <-. rewrite T0g in Tg. injection Tg as <-. rewrite Rg2 in Rdg. injection Rdg as <-. fold a ys in Q2, H2.
  assert (Hq' : exists m, q2 = PriDP m) by (inversion Hq2; eexists; reflexivity). destruct Hq' as (m & ->).
  destruct (H2 Rg (fun k J => Vb p2 m ks2 k Q2 J)) as (rows & Fd & _).
  pose proof (main_success (fun _ => true) object saved_state (Utils.mat R) (NumText.read_reals 7) build_object (fun _ => false) (fun _ => false)
    (fun d => length (Utils.m_rows d)) (sample_states lgam g1 ex_dbl N.to_nat (fun k i => i mod k) (mkLS 0 0)) encode decode "" (eval_density ex_num lgam ex_drawn) show NumText.show_ints allocs_of nclus_of blank (best [])
    decode_encode ex_words ex_prep fs6 st Ps Sep Rn) as W.
  destruct (W _ _ _ _ _ _ _ _ _ _ _ _ E1 E2 E3 E4 E5 E6 E7 E8 E9 E10 E11 E12) as (o & dt & hc & mc & chain & _ & _ & _ & _ & _ & F4 & _). specialize (F4 ltac:(discriminate)). clear W.
  assert (Rb : exists ans, read_back string (list saved_state) Ok decode join "out" ex_req fs6 = Ok ans /\ r_clus _ _ ans = Some (NumText.show_ints (map k_alloc ks))).
  { unfold read_back, only, wants_grid, ex_req, load_file, load_chain_file. cbn [q_grid q_ncl q_clus q_best q_chains ex_request].
    change (join "out" "eval_dens.csv") with "out/eval_dens.csv". change (join "out" "n_clus.csv") with "out/n_clus.csv". change (join "out" "clus.csv") with "out/clus.csv".
    change (join "out" "best_clus.csv") with "out/best_clus.csv". change (join "out" "chains.recordio") with "out/chains.recordio".
    rewrite Fd, Fn, Fc, F3, F4. cbn [rbind]. rewrite decode_encode. eexists. split; reflexivity. }
  destruct Rb as (ans & Rb & Rc). exists (rmdir fs6 "out"), ans. split; [exact Rn|].
  assert (Py : py_run string (list saved_state) Ok decode (fun _ w f => Some (program w f)) "run_mcmc" "out" true ex_req ex_fs = (rmdir fs6 "out", Ok ans)).
  { rewrite (C102_command _ _ _ _ _ _ _ _ _ _ W1 W2 W3 W5 W6) by (intros p' Hp N; now apply W9). fold ex_words ex_prep. unfold program. rewrite Rn, Rb. reflexivity. }
  split; [exact Py|]. split; [|split].
  - exact (C138_python g1 ex_num ex_dbl ex_drawn N.to_nat (fun k i => i mod k) (mkLS 0 0) (fun _ => true) 7%R "" show blank [] string Ok (proj1 g1_ok) (proj2 g1_ok) D Hpos Hdr Hj
      "run_mcmc" "out" true ex_req ex_fs (rmdir fs6 "out") fs6 ans W1 W2 W3 W4 ltac:(discriminate) W5 W6 W7 W8 W9 W10 eq_refl Rn Py).
  - exists (map k_alloc ks). split; [exact Rc|]. apply (f_equal (@length _)) in I. rewrite map_length in I. rewrite map_length. exact I.
  - reflexivity.
Qed.
