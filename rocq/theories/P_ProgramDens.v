(** * Property theorems: the density file and the best clustering of a run (C137) *)
From Coq Require Import String Ascii.
From Coq Require Import List NArith ZArith Bool Reals Lia Lra.
From Verif Require NumText Utils P_NumText PartSpec UtilsFacts P_Utils.
From Verif Require Import Base Args ArgsFacts Main Launch LaunchFacts LaunchMore P_Launch Collect Schema Text Wire WireSpec StickFacts.
From Verif Require Import Hier Algos Run InitFacts MargProps ValidRun Mixings Univ UnivFacts UnivInit Settings RealInst RealFacts UnivInst UnivRun GaussInt UnivInt Eval EvalFacts P_Valid.
From Verif Require Import ClusterFacts.
From Verif Require Import StateMsg StateMsgSpec StateMsgFacts Program ProgramFacts ProgramSpec P_Program ProgramDens ProgramDensSpec ProgramDensFacts.
Import ListNotations.
Local Open Scope string_scope.

Lemma draws_positive : forall G drawn, gen_pos G -> drawn_from G drawn -> forall i j h, hyper_ok h -> (0 < ls_var (drawn i j h))%R.
Proof.
  intros G drawn HP Hd i j h V. destruct (Hd i j h) as (r & ->). destruct h as [h|h]; cbn [hyper_ok] in V; [exact (nig_sample_valid G h r HP V)|exact (nxig_sample_valid G h r HP V)].
Qed.

(** The states of the chain as messages. *)
Lemma kept_same : forall dbl n it ks chain, (forall x, dbl x < 2 ^ 64)%N -> (N.of_nat n <= 2 ^ 23)%N -> (forall k, In k ks -> kept_ok n k) ->
  (forall k, In k ks -> N.of_nat (k_iter k) < it)%N -> (it <= 2 ^ 31)%N -> rmap (fun k => keep (state_msg dbl k)) ks = Ok chain ->
  Forall2 (fun k (c : saved_state) => same (KMsg AS) (VMsg (state_msg dbl k)) (VMsg (proj1_sig c)) /\ In k ks) ks chain.
Proof.
  intros dbl n it ks chain D Hn V J Hi R. apply rmap_inv in R.
  assert (X : forall ks0, (forall k, In k ks -> In k ks0) -> Forall2 (fun k (c : saved_state) => same (KMsg AS) (VMsg (state_msg dbl k)) (VMsg (proj1_sig c)) /\ In k ks0) ks chain).
  { intro ks0. induction R as [|k c ks chain E R IH]; intro In0; [constructor|]. constructor.
    - split; [|apply In0; now left]. assert (Z : sized k) by (apply (kept_sized n); [exact Hn|apply V; now left|]; specialize (J k (or_introl eq_refl)); lia).
      exact (keep_same dbl k c D Z E).
    - apply IH; [intros x X; apply V; now right|intros x X; apply J; now right|intros x X; apply In0; now right]. }
  apply X. trivial.
Qed.

Lemma object_good : forall lg G seeded pos ls0 o n ys ks, as_id (o_set o) = algo_named (o_algo o) -> in_range (o_set o) n ->
  states_of lg G seeded pos ls0 o ys = Ok ks -> good_object o.
Proof.
  intros lg G seeded pos ls0 o n ys ks Na (_ & _ & _ & Ha) S. split; [exact Na|]. split; [intro E; rewrite E in Na; apply Ha, Na|].
  destruct o as [al a h q]. cbn [o_hier o_algo] in *. unfold states_of in S. cbn [o_set o_algo o_hier o_mix] in S. cbn zeta in S. destruct h as [p|p]; [exact Logic.I|]. destruct al; try discriminate S. reflexivity.
Qed.

(** The density file has a row for every kept state and a column for every point of the
    grid: the logarithms of the density of the state (with its numbers as they are written),
    which is a probability density.  The rows are dealt into four blocks. *)
Theorem C137_density : forall G num dbl drawn seeded pos ls0 writable other left_over show blank estimate,
  gen_ok G -> gen_pos G -> (forall x, dbl x < 2 ^ 64)%N -> (forall k i, 0 < k -> pos k i < k)%nat -> drawn_from G drawn ->
  forall words fs fs' st fa ht fh mt fm coll fd gr d fn fc fb,
  parse_args run_options words = Parsed st -> separate st ->
  run_mcmc lgam G dbl seeded pos ls0 writable other left_over (eval_density num lgam drawn) show blank estimate words fs = (fs', Exited 0) ->
  get st "--algo-params-file" = Ok fa -> get st "--hier-type" = Ok ht -> get st "--hier-args" = Ok fh ->
  get st "--mix-type" = Ok mt -> get st "--mix-args" = Ok fm -> get st "--coll-name" = Ok coll ->
  get st "--data-file" = Ok fd -> get st "--grid-file" = Ok gr -> get st "--dens-file" = Ok d ->
  get st "--n-cl-file" = Ok fn -> get st "--clus-file" = Ok fc -> get st "--best-clus-file" = Ok fb ->
  d <> EMPTYSTR -> gr <> EMPTYSTR ->
  exists a p q data text grid tgrid, a = algo_settings_of (message_in "AlgorithmParams" fs fa) /\ hier_set fs fh ht p /\ mix_set fs fm mt q /\
    fs fd = Some text /\ NumText.read_reals other text = Ok data /\ fs gr = Some tgrid /\ NumText.read_reals other tgrid = Ok grid /\
    let ys := map (fun r => nth 0 r 0%R) (Utils.m_rows data) in
    let pts := map (fun r => nth 0 r 0%R) (Utils.m_rows grid) in
    let written := back (fun x => num (dbl x)) in
    exists ks, sampled lgam G seeded pos ls0 a ys p q ks /\
      (in_range a (length ys) -> (forall k, In k ks -> kept_ok (length ys) (written k)) ->
        exists rows, fs' d = Some (show (Utils.mkMat (length pts) rows)) /\
          Forall2 (fun ik row => row_of a (drawn (fst ik)) (written (snd ik)) pts row) (dealt (combine (seq 0 (length ks)) ks)) rows).
Proof.
  intros G num dbl drawn seeded pos ls0 writable other left_over show blank estimate HG HP D Hpos Hdr words fs fs' st fa ht fh mt fm coll fd gr d fn fc fb
    Ps Sep Rn G1 G2 G3 G4 G5 G6 G7 G8 G9 G10 G11 G12 Nd Ng.
  pose proof (main_success writable object saved_state (Utils.mat R) (NumText.read_reals other) build_object (fun _ => false) (fun _ => false)
    (fun d => length (Utils.m_rows d)) (sample_states lgam G dbl seeded pos ls0) encode decode left_over (eval_density num lgam drawn) show NumText.show_ints allocs_of nclus_of blank estimate
    decode_encode words fs fs' st Ps Sep Rn) as W.
  destruct (W fa ht fh mt fm coll fd gr d fn fc fb G1 G2 G3 G4 G5 G6 G7 G8 G9 G10 G11 G12) as
    (o & data & hc & mc & chain & B & (text & T1 & T2) & _ & _ & S & _ & W1 & _).
  destruct (W1 Nd Ng) as (grid & hg & mg & r & (tg & Tg1 & Tg2) & _ & _ & Ev & Fd).
  destruct (built fs fa ht fh mt fm o B) as (Ea & Na & Hh & Hm).
  unfold sample_states in S. destruct (checks (config_of o data)) as [u| | |] eqn:Ck; try discriminate. cbn [rbind] in S.
  destruct (Utils.m_nc data =? 0)%nat eqn:Z; [discriminate|]. apply Nat.eqb_neq in Z.
  destruct (states_of lgam G seeded pos ls0 o (map (fun r => nth 0 r 0%R) (Utils.m_rows data))) as [ks| | |] eqn:E; try discriminate. cbn [rbind] in S.
  exists (o_set o), (o_hier o), (o_mix o), data, text, grid, tg. split; [exact Ea|]. split; [exact Hh|]. split; [exact Hm|]. split; [exact T1|]. split; [exact T2|]. split; [exact Tg1|]. split; [exact Tg2|].
  cbn zeta. exists ks. pose proof (states_sampled _ _ _ _ _ _ _ _ Na E) as Q. split; [exact Q|]. intros Rg Vb.
  destruct (sampled_ok G seeded pos ls0 _ _ _ _ _ HG HP Hpos Rg Q) as (L & I & V).
  assert (C : Forall2 (fun k (c : saved_state) => same (KMsg AS) (VMsg (state_msg dbl k)) (VMsg (proj1_sig c)) /\ In k ks) ks chain).
  { refine (kept_same dbl _ (as_maxiter (o_set o)) ks chain D (proj2 (proj1 Rg)) V _ (proj1 (proj2 (proj2 Rg))) S).
    intros k J. apply (in_map k_iter) in J. rewrite I in J. apply in_seq in J. lia. }
  assert (Ng0 : Utils.m_nc grid <> 0%nat). { intro Zg. unfold eval_density in Ev. rewrite Zg in Ev. discriminate. }
  pose proof (sampled_kinds G seeded pos ls0 _ _ _ _ _ HG HP Hpos Rg Q) as Kd. set (ys := map (fun r => nth 0 r 0%R) (Utils.m_rows data)) in *.
  destruct (density_value num dbl drawn o (length ys) ks chain grid hg mg (object_good _ _ _ _ _ _ _ _ _ Na Rg E) ltac:(destruct Rg as ((? & _) & _); lia) Ng0) as (rows & Er & Fr).
  - clear -C Vb V Kd. assert (X : forall k, In k ks -> length (k_alloc k) = length ys) by (intros k J; exact (proj1 (clustering_of _ k (V k J)))).
    induction C as [|k c l l' (S & J) C IH]; constructor; [|exact IH]. destruct (Kd k J) as [K1 K2]. split; [exact S|]. split; [exact (X k J)|]. split; [exact (Vb k J)|]. split; [exact K1|exact K2].
  - intros _. exact (draws_positive G drawn HP Hdr).
  - rewrite Ev in Er. injection Er as ->. exists rows. split; [exact Fd|exact Fr].
Qed.
Print Assumptions C137_density.

(** The rows are in the order of the iterations exactly for at most four kept states. *)
Theorem C137_order : forall A (l : list A), NoDup l -> (dealt l = l <-> (length l <= 4)%nat).
Proof. intros A l N. rewrite dealt_interleaved, (interleaved_order A l 4 ltac:(lia) N). lia. Qed.
Print Assumptions C137_order.

(** The clusterings file is in the order of the iterations; the density file is not. *)
Theorem C137_order_refuted : exists its : list nat, NoDup its /\ dealt its = [1; 5; 2; 3; 4]%nat /\ its = [1; 2; 3; 4; 5]%nat.
Proof. exists [1; 2; 3; 4; 5]%nat. split; [repeat constructor; cbn; intuition discriminate|]. split; reflexivity. Qed.
Print Assumptions C137_order_refuted.

(** The best clustering is the first of the kept clusterings with the least number of
    disagreements with all of them, if the vector of errors starts at zero. *)
Theorem C137_best : forall G dbl seeded pos ls0 writable other left_over eval show blank junk,
  gen_ok G -> gen_pos G -> (forall x, dbl x < 2 ^ 64)%N -> (forall k i, 0 < k -> pos k i < k)%nat -> (forall i, nth i junk 0%R = 0%R) ->
  forall words fs fs' st fa ht fh mt fm coll fd gr d fn fc fb,
  parse_args run_options words = Parsed st -> separate st ->
  run_mcmc lgam G dbl seeded pos ls0 writable other left_over eval show blank (best junk) words fs = (fs', Exited 0) ->
  get st "--algo-params-file" = Ok fa -> get st "--hier-type" = Ok ht -> get st "--hier-args" = Ok fh ->
  get st "--mix-type" = Ok mt -> get st "--mix-args" = Ok fm -> get st "--coll-name" = Ok coll ->
  get st "--data-file" = Ok fd -> get st "--grid-file" = Ok gr -> get st "--dens-file" = Ok d ->
  get st "--n-cl-file" = Ok fn -> get st "--clus-file" = Ok fc -> get st "--best-clus-file" = Ok fb ->
  fb <> EMPTYSTR ->
  exists a p q data text, a = algo_settings_of (message_in "AlgorithmParams" fs fa) /\ hier_set fs fh ht p /\ mix_set fs fm mt q /\
    fs fd = Some text /\ NumText.read_reals other text = Ok data /\
    let ys := map (fun r => nth 0 r 0%R) (Utils.m_rows data) in
    exists ks, sampled lgam G seeded pos ls0 a ys p q ks /\
      (in_range a (length ys) -> (as_burnin a < as_maxiter a)%N ->
        exists i k, nth_error ks i = Some k /\ fs' fb = Some (NumText.show_ints (map (fun x => [x]) (k_alloc k))) /\
          let far := total_disagreement (map (fun k => map Z.of_nat (k_alloc k)) ks) in
          (forall j, j < length ks -> far i <= far j)%nat /\ (forall j, j < i -> far i < far j)%nat).
Proof.
  intros G dbl seeded pos ls0 writable other left_over eval show blank junk HG HP D Hpos Hj words fs fs' st fa ht fh mt fm coll fd gr d fn fc fb
    Ps Sep Rn G1 G2 G3 G4 G5 G6 G7 G8 G9 G10 G11 G12 Nb.
  destruct (C135_run G dbl seeded pos ls0 writable other left_over eval show blank (best junk) HG HP D Hpos words fs fs' st fa ht fh mt fm coll fd gr d fn fc fb
    Ps Sep Rn G1 G2 G3 G4 G5 G6 G7 G8 G9 G10 G11 G12) as (a & p & q & data & text & Ea & Hh & Hm & T1 & T2 & _ & ks & S & H).
  exists a, p, q, data, text. split; [exact Ea|]. split; [exact Hh|]. split; [exact Hm|]. split; [exact T1|]. split; [exact T2|]. cbn zeta. exists ks. split; [exact S|].
  intros Rg Hb. destruct (H Rg) as (I & _ & _ & _ & _ & F). destruct (F Nb) as (b & Eb & Fb). clear H F.
  unfold best in Eb. rewrite map_map in Eb. set (rows := map (fun k => map Z.of_nat (k_alloc k)) ks) in *.
  assert (Lr : length rows = length ks) by apply map_length.
  assert (Nk : rows <> []). { intro Y. apply (f_equal (@length _)) in I. rewrite map_length, seq_length in I. rewrite Y in Lr. cbn in Lr. lia. }
  destruct (P_Utils.C56_estimate_minimises rows junk Nk (fun k _ => Hj k)) as (i & Hi & Ei & Mi & Fi). rewrite Ei in Eb. cbn [rbind] in Eb. injection Eb as <-.
  rewrite Lr in Hi. destruct (nth_error ks i) as [k|] eqn:Ek; [|apply nth_error_None in Ek; lia]. exists i, k. split; [exact Ek|].
  assert (Er : nth i rows [] = map Z.of_nat (k_alloc k)) by (apply nth_error_nth; exact (map_nth_error _ _ _ Ek)).
  rewrite Er, !map_map in Fb. split.
  - rewrite Fb. do 2 f_equal. apply map_ext. intro x. rewrite Nat2Z.id. reflexivity.
  - split; [|exact Fi]. rewrite Lr in Mi. exact Mi.
Qed.
Print Assumptions C137_best.

(** A run that also asks for a density and a best clustering ends well as soon as the grid
    can be read and the states as written are as they should be. *)
Theorem C137_exits : forall G num dbl drawn seeded pos ls0 writable other left_over show blank junk,
  gen_ok G -> gen_pos G -> (forall x, dbl x < 2 ^ 64)%N -> (forall k i, 0 < k -> pos k i < k)%nat -> drawn_from G drawn -> (forall i, nth i junk 0%R = 0%R) ->
  forall words fs st fa ht fh mt fm coll fd gr d fn fc fb a p q text data tgrid grid ks,
  parse_args run_options words = Parsed st -> separate st -> (forall f, In f (requested st) -> writable f = true) ->
  get st "--algo-params-file" = Ok fa -> get st "--hier-type" = Ok ht -> get st "--hier-args" = Ok fh ->
  get st "--mix-type" = Ok mt -> get st "--mix-args" = Ok fm -> get st "--coll-name" = Ok coll ->
  get st "--data-file" = Ok fd -> get st "--grid-file" = Ok gr -> get st "--dens-file" = Ok d ->
  get st "--n-cl-file" = Ok fn -> get st "--clus-file" = Ok fc -> get st "--best-clus-file" = Ok fb ->
  a = algo_settings_of (message_in "AlgorithmParams" fs fa) -> hier_set fs fh ht p -> mix_set fs fm mt q ->
  fs fd = Some text -> NumText.read_reals other text = Ok data -> Utils.m_nc data = 1%nat -> in_range a (length (Utils.m_rows data)) ->
  fs gr = Some tgrid -> NumText.read_reals other tgrid = Ok grid -> Utils.m_nc grid <> 0%nat -> (as_burnin a < as_maxiter a)%N ->
  let ys := map (fun r => nth 0 r 0%R) (Utils.m_rows data) in
  sampled lgam G seeded pos ls0 a ys p q ks ->
  (forall ks k, sampled lgam G seeded pos ls0 a ys p q ks -> In k ks -> kept_ok (length ys) (back (fun x => num (dbl x)) k)) ->
  exists fs', run_mcmc lgam G dbl seeded pos ls0 writable other left_over (eval_density num lgam drawn) show blank (best junk) words fs = (fs', Exited 0).
Proof.
  intros G num dbl drawn seeded pos ls0 writable other left_over show blank junk HG HP D Hpos Hdr Hj words fs st fa ht fh mt fm coll fd gr d fn fc fb a p q text data tgrid grid ks
    Ps Sep HW E1 E2 E3 E4 E5 E6 E7 E8 E9 E10 E11 E12 Ea Hh Hm Hd Rd Nc Rg Hg Rdg Ng Hb ys S Vb.
  refine (run_ends G dbl seeded pos ls0 writable other left_over _ show blank _ HG HP D Hpos words fs st fa ht fh mt fm coll fd gr d fn fc fb a p q text data ks
    Ps Sep HW E1 E2 E3 E4 E5 E6 E7 E8 E9 E10 E11 E12 Ea Hh Hm Hd Rd Nc Rg S _).
  fold ys. intros o ks' chain Eo Eh Eq Na St Ec. assert (Ly : length ys = length (Utils.m_rows data)) by apply map_length. rewrite <- Ly in Rg.
  subst p q. rewrite <- Eo in Na. pose proof (states_sampled _ _ _ _ _ _ _ _ Na St) as Q. rewrite Eo in Q.
  destruct (sampled_ok G seeded pos ls0 _ _ _ _ _ HG HP Hpos Rg Q) as (L & I & V). split; right.
  - exists tgrid, grid.
    assert (C : Forall2 (fun k (c : saved_state) => same (KMsg AS) (VMsg (state_msg dbl k)) (VMsg (proj1_sig c)) /\ In k ks') ks' chain).
    { refine (kept_same dbl _ (as_maxiter a) ks' chain D (proj2 (proj1 Rg)) V _ (proj1 (proj2 (proj2 Rg))) Ec).
      intros k J. apply (in_map k_iter) in J. rewrite I in J. apply in_seq in J. lia. }
    pose proof (sampled_kinds G seeded pos ls0 _ _ _ _ _ HG HP Hpos Rg Q) as Kd.
    assert (Rg' : in_range (o_set o) (length ys)) by (rewrite Eo; exact Rg).
    destruct (density_value num dbl drawn o (length ys) ks' chain grid None None (object_good _ _ _ _ _ _ _ _ _ Na Rg' St) ltac:(destruct Rg as ((? & _) & _); lia) Ng) as (rows & Er & _).
    + specialize (Vb ks'). clear -C Vb V Kd Q. assert (X : forall k, In k ks' -> length (k_alloc k) = length ys) by (intros k J; exact (proj1 (clustering_of _ k (V k J)))).
      assert (Vb' : forall k, In k ks' -> kept_ok (length ys) (back (fun x => num (dbl x)) k)) by (intros k J; exact (Vb k Q J)). clear Q Vb.
      induction C as [|k c l l' (S & J) C IH]; constructor; [|exact IH]. destruct (Kd k J) as [K1 K2]. split; [exact S|]. split; [exact (X k J)|]. split; [exact (Vb' k J)|]. split; [exact K1|exact K2].
    + intros _. exact (draws_positive G drawn HP Hdr).
    + eexists. split; [exact Hg|]. split; [exact Rdg|exact Er].
  - unfold best. rewrite map_map. set (rows := map (fun k => map Z.of_nat (k_alloc k)) ks').
    assert (Nk : rows <> []). { intro Y. apply (f_equal (@length _)) in I, Y. unfold rows in Y. rewrite map_length in Y. rewrite map_length, seq_length in I. cbn in Y. lia. }
    destruct (P_Utils.C56_estimate_minimises rows junk Nk (fun k _ => Hj k)) as (i & _ & Ei & _). rewrite Ei. eexists. reflexivity.
Qed.
Print Assumptions C137_exits.

(** ** Example: the run of C135 with Neal8, a density on two points and a best clustering;
    six states are kept and every number is written as its sign *)
Definition ex_kv2 : list (string * string) :=
  ex_kv ++ [("--grid-file", "grid"); ("--dens-file", "dens"); ("--best-clus-file", "best")].
Definition ex_files2 : files := fun f =>
  if f =? "algo" then Some "algo_id: 'Neal8' rng_seed: 5 iterations: 7 burnin: 1 init_num_clusters: 2 neal8_n_aux: 3"
  else if f =? "grid" then Some (NumText.show_ints [[2]; [9]]%nat) else ex_files f.
Lemma ex_algo2 : algo_settings_of (message_in "AlgorithmParams" ex_files2 "algo") = mkAS "Neal8" 5 7 1 2 3 0 0 0.
Proof. vm_compute. reflexivity. Qed.
Lemma ex_hier2 : hier_set ex_files2 "hier" "NNIG" (UNig ex_prior).
Proof.
  assert (E : forall A t f g (m : tmessage) (h : tmessage -> A), message_in t f g = m -> h (message_in t f g) = h m) by (intros; congruence).
  constructor. etransitivity; [eapply E; vm_compute; reflexivity|reflexivity].
Qed.
Lemma ex_mix2 : mix_set ex_files2 "mix" "DP" (PriDP (DPFixed (2 * powerRZ 10 0))).
Proof.
  assert (E : forall A t f g (m : tmessage) (h : tmessage -> A), message_in t f g = m -> h (message_in t f g) = h m) by (intros; congruence).
  constructor. etransitivity; [eapply E; vm_compute; reflexivity|reflexivity].
Qed.
Definition ex_dbl (x : R) : N := if Rlt_dec 0 x then 1 else 0.
Definition ex_num (b : N) : R := if (b =? 1)%N then 1%R else 0%R.
Definition ex_drawn (i j : nat) (h : uni_hyper) : uni_ls :=
  match h with HNig h => fst (nig_sample g1 h (i + j)%nat) | HNxig h => fst (nxig_sample g1 h (i + j)%nat) end.
Lemma ex_sign : forall x, (0 < x)%R -> ex_num (ex_dbl x) = 1%R.
Proof. intros x H. unfold ex_dbl. destruct (Rlt_dec 0 x); [reflexivity|contradiction]. Qed.
Lemma ex_back : forall n k m s, k_mix k = MixDP m s -> kept_ok n k -> kept_ok n (back (fun x => ex_num (ex_dbl x)) k).
Proof.
  intros n [i al cl h mx] m s E V. cbn in E. subst mx. unfold kept_ok, back in *. cbn [k_hyp k_alloc k_clusters k_mix back_hyper back_mixing] in *.
  assert (C : forall (c : list (uni_ls * Z)), saved_clustering n al c -> saved_clustering n al (map (fun c => (mkLS (ex_num (ex_dbl (ls_mean (fst c)))) (ex_num (ex_dbl (ls_var (fst c)))), snd c)) c)).
  { intros c (C1 & C2 & C3). split; [exact C1|]. rewrite map_length. split; [exact C2|]. intros j x X. rewrite nth_error_map in X. destruct (nth_error c j) as [y|] eqn:Y; [|discriminate]. injection X as <-. exact (C3 j y Y). }
  destruct h as [h|h]; destruct V as (V1 & (V2 & V3 & V4) & (V5 & V6 & V7) & V8);
    (split; [exact (C _ V1)|]; split; [unfold valid, nx_valid; cbn; rewrite !ex_sign by assumption; lra|]; split;
     [cbn; rewrite ex_sign by assumption; split; [lra|]; split; assumption|];
     intros x X; apply in_map_iff in X as (y & <- & Y); cbn; rewrite ex_sign by (apply V8, Y); lra).
Qed.

Example C137_example : forall blank show, exists fs' ks row0 row1 row2 row3 row4 row5 f ks' i k,
  run_mcmc lgam g1 ex_dbl N.to_nat (fun k i => i mod k) (mkLS 0 0) (fun _ => true) 7%R "" (eval_density ex_num lgam ex_drawn) show blank (best []) (flat ex_kv2) ex_files2 = (fs', Exited 0) /\
  map k_iter ks = [1; 2; 3; 4; 5; 6]%nat /\ fs' "dens" = Some (show (Utils.mkMat 2 [row0; row4; row1; row5; row2; row3])) /\
  (exists k4, nth_error ks 4 = Some k4 /\ alone (mkAS "Neal8" 5 7 1 2 3 0 0 0) (ex_drawn 4) (back (fun x => ex_num (ex_dbl x)) k4) f /\
     row4 = [ln (mixture_density (back (fun x => ex_num (ex_dbl x)) k4) f (INR 2)); ln (mixture_density (back (fun x => ex_num (ex_dbl x)) k4) f (INR 9))]) /\
  map k_iter ks' = [1; 2; 3; 4; 5; 6]%nat /\ nth_error ks' i = Some k /\ fs' "best" = Some (NumText.show_ints (map (fun x => [x]) (k_alloc k))).
Proof.
  intros blank show. assert (Hpos : forall k i, 0 < k -> i mod k < k) by (intros k i H; apply Nat.mod_upper_bound; lia).
  assert (D : forall x, (ex_dbl x < 2 ^ 64)%N) by (intro x; unfold ex_dbl; destruct (Rlt_dec 0 x); lia).
  assert (Hdr : drawn_from g1 ex_drawn) by (intros i j h; exists (i + j)%nat; destruct h; reflexivity).
  assert (Hj : forall i, nth i (@nil R) 0%R = 0%R) by (intros []; reflexivity).
  assert (Ps : exists st, parse_args run_options (flat ex_kv2) = Parsed st /\
    get st "--algo-params-file" = Ok "algo" /\ get st "--hier-type" = Ok "NNIG" /\ get st "--hier-args" = Ok "hier" /\
    get st "--mix-type" = Ok "DP" /\ get st "--mix-args" = Ok "mix" /\ get st "--coll-name" = Ok "chain" /\
    get st "--data-file" = Ok "data" /\ get st "--grid-file" = Ok "grid" /\ get st "--dens-file" = Ok "dens" /\
    get st "--n-cl-file" = Ok "ncl" /\ get st "--clus-file" = Ok "clus" /\ get st "--best-clus-file" = Ok "best" /\ separate st).
  { eexists. split; [vm_compute; reflexivity|]. repeat (split; [vm_compute; reflexivity|]). split.
    - match goal with |- NoDup ?l => let x := eval vm_compute in l in change (NoDup x) end.
      repeat (apply NoDup_cons; [cbn; intro H; repeat (destruct H as [H|H]; [discriminate H|]); contradiction|]). apply NoDup_nil.
    - intros n f Hn E. repeat (destruct Hn as [<-|Hn]; [vm_compute in E; injection E as <-; cbn; intro H; repeat (destruct H as [H|H]; [discriminate H|]); contradiction|]). contradiction. }
  destruct Ps as (st & Ps & E1 & E2 & E3 & E4 & E5 & E6 & E7 & E8 & E9 & E10 & E11 & E12 & Sep).
  assert (Rd : NumText.read_reals 7 (NumText.show_ints [[1]; [20]; [3]]%nat) = Ok (Utils.mkMat 1 (map (map INR) [[1]; [20]; [3]]%nat))).
  { apply (P_NumText.C128_integer_files [[1]; [20]; [3]]%nat 1 7%R ltac:(discriminate) ltac:(lia)); [intros r [<-|[<-|[<-|[]]]]; reflexivity|]. repeat constructor; lia. }
  assert (Rg2 : NumText.read_reals 7 (NumText.show_ints [[2]; [9]]%nat) = Ok (Utils.mkMat 1 (map (map INR) [[2]; [9]]%nat))).
  { apply (P_NumText.C128_integer_files [[2]; [9]]%nat 1 7%R ltac:(discriminate) ltac:(lia)); [intros r [<-|[<-|[]]]; reflexivity|]. repeat constructor; lia. }
  set (data := Utils.mkMat 1 (map (map INR) [[1]; [20]; [3]]%nat)) in *. set (grid := Utils.mkMat 1 (map (map INR) [[2]; [9]]%nat)) in *. set (a := mkAS "Neal8" 5 7 1 2 3 0 0 0).
  assert (Rg : in_range a 3) by (unfold in_range, a; cbn [as_init as_maxiter as_id as_n_aux]; repeat split; try lia).
  assert (X : forall x, (0 < x)%R -> lteb x 0 = false) by (intros x Hx; unfold lteb; destruct (Rle_dec x 0); [lra|reflexivity]).
  set (ys := map (fun r => nth 0 r 0%R) (Utils.m_rows data)).
  destruct (C135_sampler_ends g1 N.to_nat (fun k i => i mod k) (mkLS 0 0) a ys (UNig ex_prior) (PriDP (DPFixed (2 * powerRZ 10 0))) (proj1 g1_ok) Hpos Rg) as (ks0 & S).
  { split; [right; right; left; reflexivity|]. eexists. unfold ex_prior. cbn [nig_init]. unfold nig_check. cbn [ng_vs ng_shape ng_scale powerRZ]. rewrite !X by lra. reflexivity. }
  { cbn [prior_fixed powerRZ]. lra. }
  assert (Vb : forall p m ks k, sampled lgam g1 N.to_nat (fun k i => i mod k) (mkLS 0 0) a ys p (PriDP m) ks -> In k ks -> kept_ok (length ys) (back (fun x => ex_num (ex_dbl x)) k)).
  { intros p m ks k Q J. destruct (sampled_kinds g1 N.to_nat _ (mkLS 0 0) a ys _ _ ks (proj1 g1_ok) (proj2 g1_ok) Hpos Rg Q k J) as [K _].
    destruct (k_mix k) as [m' s|m' s] eqn:Ek; [|contradiction]. apply (ex_back _ k m' s Ek).
    exact (proj2 (proj2 (sampled_ok g1 N.to_nat _ (mkLS 0 0) a ys _ _ ks (proj1 g1_ok) (proj2 g1_ok) Hpos Rg Q)) k J). }
  assert (Hh : hier_set ex_files2 "hier" "NNIG" (UNig ex_prior)) by exact ex_hier2.
  assert (Hm : mix_set ex_files2 "mix" "DP" (PriDP (DPFixed (2 * powerRZ 10 0)))) by exact ex_mix2.
  destruct (C137_exits g1 ex_num ex_dbl ex_drawn N.to_nat (fun k i => i mod k) (mkLS 0 0) (fun _ => true) 7%R "" show blank [] (proj1 g1_ok) (proj2 g1_ok) D Hpos Hdr Hj
    (flat ex_kv2) ex_files2 st _ _ _ _ _ _ _ _ _ _ _ _ a _ _ _ data _ grid ks0 Ps Sep (fun _ _ => eq_refl) E1 E2 E3 E4 E5 E6 E7 E8 E9 E10 E11 E12
    (eq_sym ex_algo2) Hh Hm eq_refl Rd eq_refl Rg eq_refl Rg2 ltac:(discriminate) eq_refl S (Vb _ _)) as (fs' & Rn).
  exists fs'.
  destruct (C137_density g1 ex_num ex_dbl ex_drawn N.to_nat (fun k i => i mod k) (mkLS 0 0) (fun _ => true) 7%R "" show blank (best []) (proj1 g1_ok) (proj2 g1_ok) D Hpos Hdr
    (flat ex_kv2) ex_files2 fs' st _ _ _ _ _ _ _ _ _ _ _ _ Ps Sep Rn E1 E2 E3 E4 E5 E6 E7 E8 E9 E10 E11 E12 ltac:(discriminate) ltac:(discriminate))
    as (a' & p & q & data' & text & grid' & tg & Ea & _ & Hq & T & Rd2 & Tg & Rdg & ks & Q & H).
  injection T as <-. rewrite Rd in Rd2. injection Rd2 as <-. injection Tg as <-. rewrite Rg2 in Rdg. injection Rdg as <-. rewrite ex_algo2 in Ea. subst a'. fold a ys in Q, H.
  assert (Hq' : exists m, q = PriDP m) by (inversion Hq; eexists; reflexivity). destruct Hq' as (m & ->).
  destruct (H Rg (fun k J => Vb p m ks k Q J)) as (rows & Fd & Fr).
  destruct (sampled_ok g1 N.to_nat _ (mkLS 0 0) a ys _ _ ks (proj1 g1_ok) (proj2 g1_ok) Hpos Rg Q) as (_ & I & _). change (map k_iter ks = [1; 2; 3; 4; 5; 6]%nat) in I.
  exists ks. destruct ks as [|k0 [|k1 [|k2 [|k3 [|k4 [|k5 [|k6 ks]]]]]]]; try discriminate I.
  change (dealt _) with [(0%nat, k0); (4%nat, k4); (1%nat, k1); (5%nat, k5); (2%nat, k2); (3%nat, k3)] in Fr.
  inversion Fr as [|? row0 ? rows0 _ Fr0]; subst rows; clear Fr. inversion Fr0 as [|? row4 ? rows4 Hr Fr4]; subst rows0; clear Fr0. inversion Fr4 as [|? row1 ? rows1 _ Fr1]; subst rows4; clear Fr4.
  inversion Fr1 as [|? row5 ? rows5 _ Fr5]; subst rows1; clear Fr1. inversion Fr5 as [|? row2 ? rows2 _ Fr2]; subst rows5; clear Fr5. inversion Fr2 as [|? row3 ? rows3 _ Fr3]; subst rows2; clear Fr2. inversion Fr3; subst rows3.
  cbn [fst snd] in Hr. destruct Hr as (f & Al & _ & Fv). change (map (fun r => nth 0 r 0%R) (Utils.m_rows grid)) with [INR 2; INR 9] in Fv.
  inversion Fv as [|? v0 ? vs0 (_ & E0) Fv0]; subst row4; clear Fv. inversion Fv0 as [|? v1 ? vs1 (_ & E1') Fv1]; subst vs0; clear Fv0. inversion Fv1; subst vs1 v0 v1.
  destruct (C137_best g1 ex_dbl N.to_nat (fun k i => i mod k) (mkLS 0 0) (fun _ => true) 7%R "" (eval_density ex_num lgam ex_drawn) show blank [] (proj1 g1_ok) (proj2 g1_ok) D Hpos Hj
    (flat ex_kv2) ex_files2 fs' st _ _ _ _ _ _ _ _ _ _ _ _ Ps Sep Rn E1 E2 E3 E4 E5 E6 E7 E8 E9 E10 E11 E12 ltac:(discriminate))
    as (a' & p' & q' & data' & text & Ea & _ & _ & T & Rd2 & ks' & Q' & H').
  injection T as <-. rewrite Rd in Rd2. injection Rd2 as <-. rewrite ex_algo2 in Ea. subst a'. fold a ys in Q', H'. destruct (H' Rg eq_refl) as (i & k & Ek & Fb & _).
  destruct (sampled_ok g1 N.to_nat _ (mkLS 0 0) a ys _ _ ks' (proj1 g1_ok) (proj2 g1_ok) Hpos Rg Q') as (_ & I' & _).
  exists row0, row1, row2, row3. eexists. exists row5, f, ks', i, k. split; [exact Rn|]. split; [exact I|]. split; [exact Fd|]. split; [|split; [exact I'|split; [exact Ek|exact Fb]]].
  exists k4. split; [reflexivity|]. split; [exact Al|reflexivity].
Qed.
