(** * Property theorems: from configuration files to the chain file (C135) *)
From Coq Require Import String Ascii.
From Coq Require Import List NArith ZArith Bool Reals Lia Lra.
From Verif Require NumText Utils P_NumText.
From Verif Require Import Base Args ArgsFacts Main Launch LaunchFacts LaunchMore P_Launch Collect Schema Text Wire StickFacts.
From Verif Require Import Hier Algos Run InitFacts MargProps ValidRun Mixings Univ UnivFacts UnivInit Settings RealInst RealFacts UnivInst UnivRun UnivInt P_Valid.
From Verif Require Import StateMsg StateMsgSpec StateMsgFacts Program ProgramFacts ProgramSpec.
Import ListNotations.
Local Open Scope string_scope.

(** ** The object *)
Definition algo_named (k : algo_kind) : string := match k with N2 => "Neal2" | N3 => "Neal3" | N8 => "Neal8" end.

Lemma others_not : forall A known s (x : A), others known s <> Ok x.
Proof. intros A known s x H. unfold others in H. destruct (existsb _ known); discriminate. Qed.

Lemma finite_ok : forall A (x : option A) a, finite x = Ok a -> x = Some a.
Proof. intros A [b|] a H; [injection H as <-; reflexivity|discriminate]. Qed.

Lemma built : forall fs fa ht fh mt fm o, build_object (fs fa) ht (fs fh) mt (fs fm) = Ok o ->
  o_set o = algo_settings_of (message_in "AlgorithmParams" fs fa) /\ as_id (o_set o) = algo_named (o_algo o) /\
  hier_set fs fh ht (o_hier o) /\ mix_set fs fm mt (o_mix o).
Proof.
  intros fs fa ht fh mt fm o H. unfold build_object in H. cbn zeta in H. fold (message_in "AlgorithmParams" fs fa) in *.
  change (contents "AlgorithmParams" (fs fa)) with (message_in "AlgorithmParams" fs fa) in H. set (a := algo_settings_of _) in *.
  destruct (create_algo (as_id a)) as [al| | |] eqn:Ea; try discriminate. cbn [rbind] in H.
  assert (Na : as_id a = algo_named al).
  { unfold create_algo in Ea. destruct (as_id a =? "Neal2") eqn:E2; [apply String.eqb_eq in E2; injection Ea as <-; exact E2|].
    destruct (as_id a =? "Neal3") eqn:E3; [apply String.eqb_eq in E3; injection Ea as <-; exact E3|].
    destruct (as_id a =? "Neal8") eqn:E8; [apply String.eqb_eq in E8; injection Ea as <-; exact E8|]. destruct (others_not _ _ _ _ Ea). }
  assert (Hh : exists h : bool, (if ht =? "NNIG" then Ok true else if ht =? "NNxIG" then Ok false else others registered_hiers ht) = Ok h /\ ht = (if h then "NNIG" else "NNxIG")).
  { destruct (ht =? "NNIG") eqn:E1; [exists true; split; [reflexivity|apply String.eqb_eq, E1]|].
    destruct (ht =? "NNxIG") eqn:E2; [exists false; split; [reflexivity|apply String.eqb_eq, E2]|].
    destruct (others registered_hiers ht) as [x| | |] eqn:E3; try discriminate. destruct (others_not _ _ _ _ E3). }
  destruct Hh as (h & Eh & ->). rewrite Eh in H. cbn [rbind] in H.
  assert (Hm : exists d : bool, (if mt =? "DP" then Ok true else if mt =? "PY" then Ok false else others registered_mixings mt) = Ok d /\ mt = (if d then "DP" else "PY")).
  { destruct (mt =? "DP") eqn:E1; [exists true; split; [reflexivity|apply String.eqb_eq, E1]|].
    destruct (mt =? "PY") eqn:E2; [exists false; split; [reflexivity|apply String.eqb_eq, E2]|].
    destruct (others registered_mixings mt) as [x| | |] eqn:E3; try discriminate. destruct (others_not _ _ _ _ E3). }
  destruct Hm as (d & Em & ->). rewrite Em in H. cbn [rbind] in H.
  assert (Mx : exists q, mix_set fs fm (if d then "DP" else "PY") q /\
    (if d then p <- finite (dp_prior_of (contents "DPPrior" (fs fm))) ;; Ok (PriDP p) else p <- finite (py_prior_of (contents "PYPrior" (fs fm))) ;; Ok (PriPY p)) = Ok q).
  { destruct d; [destruct (finite (dp_prior_of _)) as [p| | |] eqn:E in H |- *|destruct (finite (py_prior_of _)) as [p| | |] eqn:E in H |- *]; try discriminate;
      apply finite_ok in E; eexists; (split; [|reflexivity]); constructor; exact E. }
  destruct Mx as (q & Mq & Eq). rewrite Eq in H. cbn [rbind] in H.
  assert (Hx : exists p, hier_set fs fh (if h then "NNIG" else "NNxIG") p /\ o = mkObj al a p q).
  { destruct h.
    - destruct (finite (nig_prior_of _)) as [p| | |] eqn:E in H; try discriminate. cbn [rbind] in H. destruct (nig_init p) as [x| | |]; try discriminate. cbn [rbind] in H.
      injection H as <-. exists (UNig p). split; [constructor; apply finite_ok, E|reflexivity].
    - destruct (finite (nxig_prior_of _)) as [p| | |] eqn:E in H; try discriminate. cbn [rbind] in H. destruct (nxig_init p) as [x| | |]; try discriminate. cbn [rbind] in H.
      injection H as <-. exists (UNxig p). split; [constructor; apply finite_ok, E|reflexivity]. }
  destruct Hx as (p & Hp & ->). cbn [o_set o_algo o_hier o_mix]. repeat split; assumption.
Qed.

(** ** The states *)
Lemma keeps_self : forall (I : Iface) (st : St I -> uni_ls) hyp mix out, Forall2 (@keeps I st hyp mix) out (map (@kept_of I hyp mix st) out).
Proof.
  intros I st hyp mix out. induction out as [|s out IH]; [constructor|]. cbn [map]. constructor; [|exact IH]. unfold keeps, kept_of. cbn [k_iter k_alloc k_hyp k_mix k_clusters].
  repeat split. induction (s_clusters s) as [|c l IH']; [constructor|]. constructor; [split; reflexivity|exact IH'].
Qed.

Lemma zero_eqb : forall n, (N.to_nat n =? 0)%nat = (n =? 0)%N.
Proof. intro n. destruct (N.eqb_spec n 0) as [->|H]; [reflexivity|]. apply Nat.eqb_neq. lia. Qed.

Lemma states_sampled : forall lg G seeded pos ls0 o ys ks, as_id (o_set o) = algo_named (o_algo o) ->
  states_of lg G seeded pos ls0 o ys = Ok ks -> sampled lg G seeded pos ls0 (o_set o) ys (o_hier o) (o_mix o) ks.
Proof.
  intros lg G seeded pos ls0 [al a h q] ys ks N H. cbn [o_set o_algo o_hier o_mix] in *. unfold states_of in H. cbn [o_set o_algo o_hier o_mix] in H. cbn zeta in H. rewrite zero_eqb in H.
  destruct h as [p|p].
  - destruct al; cbn [algo_named] in N.
    + destruct (neal2_run _ _ _ _ _ _ _ _ _ _) as [[s out]| | |] eqn:E; try discriminate. cbn [rbind] in H. injection H as <-. eapply sam_neal2; [exact N|exact E|apply keeps_self].
    + destruct (neal3_run _ _ _ _ _ _ _ _ _ _) as [[s out]| | |] eqn:E; try discriminate. cbn [rbind] in H. injection H as <-. eapply sam_neal3; [exact N|exact E|apply keeps_self].
    + destruct (neal8_run _ _ _ _ _ _ _ _ _ _ _) as [[s out]| | |] eqn:E; try discriminate. cbn [rbind] in H. injection H as <-. eapply sam_neal8; [exact N|exact E|apply keeps_self].
  - destruct al; cbn [algo_named] in N; try discriminate.
    destruct (neal8_run _ _ _ _ _ _ _ _ _ _ _) as [[s out]| | |] eqn:E; try discriminate. cbn [rbind] in H. injection H as <-. eapply sam_neal8_semi; [exact N|exact E|apply keeps_self].
Qed.

Lemma kept_iters : forall (I : Iface) (init : res (alg I * Rng I)) step maxiter burnin s out st hyp mix ks, run init step maxiter burnin = Ok (s, out) ->
  Forall2 (@keeps I st hyp mix) out ks -> map k_iter ks = seq burnin (maxiter - burnin).
Proof.
  intros I init step maxiter burnin s out st hyp mix ks R K. destruct (MargProps.run_saves _ _ _ _ R) as (s0 & _ & _ & L & H).
  assert (E : map k_iter ks = map (@s_iter I) out). { clear -K. induction K as [|x y l m (E & _) K IH]; [reflexivity|]. cbn. rewrite E, IH. reflexivity. }
  rewrite E. clear E K. apply nth_ext with (d := 0%nat) (d' := 0%nat); [rewrite map_length, seq_length; exact L|]. intros i Hi. rewrite map_length, L in Hi.
  destruct (H i Hi) as (ar & snap & _ & N & J & _). rewrite seq_nth by exact Hi. rewrite <- J.
  change 0%nat with ((fun _ : snapshot I => 0%nat) snap). erewrite nth_error_nth; [reflexivity|]. rewrite nth_error_map, N. reflexivity.
Qed.

Lemma kept_each : forall (I : Iface) (P : snapshot I -> Prop) (Q : kept -> Prop) st hyp mix out ks, Forall2 (@keeps I st hyp mix) out ks ->
  (forall s, In s out -> P s) -> (forall s k, keeps st hyp mix s k -> P s -> Q k) -> forall k, In k ks -> Q k.
Proof.
  intros I P Q st hyp mix out ks K H T. induction K as [|x y l m E K IH]; intros k [].
  - subst k. exact (T x y E (H x (or_introl eq_refl))).
  - apply IH; [|assumption]. intros s J. apply H. right. exact J.
Qed.

Lemma same_pairs : forall l l' : list (uni_ls * Z), Forall2 (fun c c' => fst c' = fst c /\ snd c' = snd c) l l' -> l' = l.
Proof. intros l l' H. induction H as [|[a b] [a' b'] l l' [E F] H IH]; [reflexivity|]. cbn in E, F. subst. reflexivity. Qed.

Lemma keeps_length : forall (I : Iface) st hyp mix out ks, Forall2 (@keeps I st hyp mix) out ks -> length ks = length out.
Proof. intros I st hyp mix out ks K. induction K as [|x y l m _ _ IH]; [reflexivity|]. cbn. f_equal. exact IH. Qed.

Lemma sampled_ok : forall G seeded pos ls0 a ys p q ks, gen_ok G -> gen_pos G -> (forall k i, 0 < k -> pos k i < k)%nat -> in_range a (length ys) ->
  sampled lgam G seeded pos ls0 a ys p q ks ->
  length ks = (N.to_nat (as_maxiter a) - N.to_nat (as_burnin a))%nat /\
  map k_iter ks = seq (N.to_nat (as_burnin a)) (N.to_nat (as_maxiter a) - N.to_nat (as_burnin a)) /\ forall k, In k ks -> kept_ok (length ys) k.
Proof.
  intros G seeded pos ls0 a ys p q ks HG HP Hpos (Hn & Hk & _ & Ha) S.
  assert (H2 : (2 <= length ys)%nat) by lia. assert (H1 : (1 <= length ys)%nat) by lia.
  assert (F : fits (N.to_nat (as_init a)) (pos (if as_init a =? 0 then length ys else N.to_nat (as_init a))%N) (length ys)).
  { split; [lia|]. intro i. rewrite zero_eqb. destruct (N.eqb_spec (as_init a) 0); apply Hpos; lia. }
  destruct S as [p q s out ks Na R K|p q s out ks Na R K|p q s out ks Na R K|p q s out ks Na R K].
  - destruct (C112_neal2_normal G p q ys _ _ _ _ _ _ _ _ HG HP H2 F R) as [L V]. split; [rewrite (keeps_length _ _ _ _ _ _ K); exact L|]. split; [exact (kept_iters _ _ _ _ _ _ _ _ _ _ _ R K)|].
    apply (kept_each _ _ (kept_ok (length ys)) _ _ _ _ _ K (fun x J => proj1 (V x J))). intros x k (_ & E1 & E2 & E3 & E4) W. unfold kept_ok. rewrite E2, E1, E3.
    rewrite (same_pairs _ _ E4). exact W.
  - destruct (C112_neal3_normal G p q ys _ _ _ _ _ _ _ _ HG HP H2 F R) as [L V]. split; [rewrite (keeps_length _ _ _ _ _ _ K); exact L|]. split; [exact (kept_iters _ _ _ _ _ _ _ _ _ _ _ R K)|].
    apply (kept_each _ _ (kept_ok (length ys)) _ _ _ _ _ K (fun x J => proj1 (V x J))). intros x k (_ & E1 & E2 & E3 & E4) W. unfold kept_ok. rewrite E2, E1, E3.
    rewrite (same_pairs _ _ E4). exact W.
  - assert (X : (1 <= N.to_nat (as_n_aux a))%nat) by (specialize (Ha Na); lia).
    destruct (C112_neal8_normal G p q ys _ _ _ _ _ _ _ _ _ HG HP H1 F X R) as [L V]. split; [rewrite (keeps_length _ _ _ _ _ _ K); exact L|]. split; [exact (kept_iters _ _ _ _ _ _ _ _ _ _ _ R K)|].
    apply (kept_each _ _ (kept_ok (length ys)) _ _ _ _ _ K (fun x J => proj1 (V x J))). intros x k (_ & E1 & E2 & E3 & E4) W. unfold kept_ok. rewrite E2, E1, E3.
    rewrite (same_pairs _ _ E4). exact W.
  - assert (X : (1 <= N.to_nat (as_n_aux a))%nat) by (specialize (Ha Na); lia).
    destruct (C112_neal8_semiconjugate G p q ys _ _ _ _ _ _ _ _ _ HG HP H1 F X R) as [L V]. split; [rewrite (keeps_length _ _ _ _ _ _ K); exact L|]. split; [exact (kept_iters _ _ _ _ _ _ _ _ _ _ _ R K)|].
    apply (kept_each _ _ (kept_ok (length ys)) _ _ _ _ _ K (fun x J => proj1 (V x J))). intros x k (_ & E1 & E2 & E3 & E4) W. unfold kept_ok. rewrite E2, E1, E3.
    rewrite (same_pairs _ _ E4). exact W.
Qed.

Lemma clusters_bound : forall (S : Type) n labels (clusters : list (S * Z)), saved_clustering n labels clusters -> (length clusters <= n)%nat.
Proof.
  intros S n labels clusters (L & H & _). rewrite <- L, <- (seq_length (length clusters) 0). apply NoDup_incl_length; [apply seq_NoDup|].
  intros c J. apply H. apply in_seq in J. lia.
Qed.

Lemma clustering_of : forall n k, kept_ok n k -> saved_clustering n (k_alloc k) (k_clusters k).
Proof. intros n k H. unfold kept_ok in H. destruct (k_hyp k); exact (proj1 H). Qed.

Lemma kept_sized : forall n k, (N.of_nat n <= 2 ^ 23)%N -> kept_ok n k -> (N.of_nat (k_iter k) < 2 ^ 31)%N -> sized k.
Proof.
  intros n k Hn V Hi. pose proof (clustering_of n k V) as C. pose proof (clusters_bound _ _ _ _ C) as B. destruct C as (L & H & S). unfold sized. repeat split.
  - lia.
  - intros a J. apply H in J. lia.
  - apply In_nth_error in H0 as (i & E). rewrite (S _ _ E). lia.
  - apply In_nth_error in H0 as (i & E). rewrite (S _ _ E). pose proof (count_occ_bound Nat.eq_dec i (k_alloc k)). lia.
  - lia.
Qed.

(** ** The chain *)
Lemma kept_chain : forall dbl n it ks chain, (forall x, dbl x < 2 ^ 64)%N -> (N.of_nat n <= 2 ^ 23)%N -> (forall k, In k ks -> kept_ok n k) ->
  (forall k, In k ks -> N.of_nat (k_iter k) < it)%N -> (it <= 2 ^ 31)%N -> rmap (fun k => keep (state_msg dbl k)) ks = Ok chain ->
  Forall2 (fun k (c : saved_state) => recorded dbl k (proj1_sig c)) ks chain.
Proof.
  intros dbl n it ks chain D Hn V J Hi R. apply rmap_inv in R. induction R as [|k c ks chain E R IH]; [constructor|]. constructor.
  - assert (Z : sized k) by (apply (kept_sized n); [exact Hn|apply V; now left|]; specialize (J k (or_introl eq_refl)); lia).
    destruct (keep_ok dbl D k Z) as (s & E' & Q). rewrite E' in E. injection E as <-. exact Q.
  - apply IH; [intros x X; apply V; now right|intros x X; apply J; now right].
Qed.

Lemma chain_outputs : forall dbl ks chain, Forall2 (fun k (c : saved_state) => recorded dbl k (proj1_sig c)) ks chain ->
  map allocs_of chain = map k_alloc ks /\ map nclus_of chain = map (fun k => length (k_clusters k)) ks.
Proof. intros dbl ks chain H. induction H as [|k c ks chain E H (IH1 & IH2)]; [split; reflexivity|]. destruct (recorded_allocs dbl k c E) as [A B]. cbn. rewrite A, B, IH1, IH2. split; reflexivity. Qed.

Theorem C135_run : forall G dbl seeded pos ls0 writable other left_over eval show blank estimate,
  gen_ok G -> gen_pos G -> (forall x, dbl x < 2 ^ 64)%N -> (forall k i, 0 < k -> pos k i < k)%nat ->
  forall words fs fs' st fa ht fh mt fm coll fd gr d fn fc fb,
  parse_args run_options words = Parsed st -> separate st ->
  run_mcmc lgam G dbl seeded pos ls0 writable other left_over eval show blank estimate words fs = (fs', Exited 0) ->
  get st "--algo-params-file" = Ok fa -> get st "--hier-type" = Ok ht -> get st "--hier-args" = Ok fh ->
  get st "--mix-type" = Ok mt -> get st "--mix-args" = Ok fm -> get st "--coll-name" = Ok coll ->
  get st "--data-file" = Ok fd -> get st "--grid-file" = Ok gr -> get st "--dens-file" = Ok d ->
  get st "--n-cl-file" = Ok fn -> get st "--clus-file" = Ok fc -> get st "--best-clus-file" = Ok fb ->
  exists a p q data text, a = algo_settings_of (message_in "AlgorithmParams" fs fa) /\ hier_set fs fh ht p /\ mix_set fs fm mt q /\
    fs fd = Some text /\ NumText.read_reals other text = Ok data /\ Utils.m_nc data = 1%nat /\
    let ys := map (fun r => nth 0 r 0%R) (Utils.m_rows data) in
    exists ks, sampled lgam G seeded pos ls0 a ys p q ks /\
      (in_range a (length ys) ->
        map k_iter ks = seq (N.to_nat (as_burnin a)) (N.to_nat (as_maxiter a) - N.to_nat (as_burnin a)) /\
        (forall k, In k ks -> kept_ok (length ys) k) /\
        (coll <> "memory" -> exists bytes cs, fs' coll = Some (string_of_list_ascii (map ascii_of_N bytes)) /\
           py_read chain_proto bytes = Ok cs /\ Forall2 (fun k (c : saved_state) => recorded dbl k (proj1_sig c)) ks cs) /\
        (fn <> EMPTYSTR -> fs' fn = Some (NumText.show_ints (map (fun k => [length (k_clusters k)]) ks))) /\
        (fc <> EMPTYSTR -> fs' fc = Some (NumText.show_ints (map k_alloc ks))) /\
        (fb <> EMPTYSTR -> exists b, estimate (map k_alloc ks) = Ok b /\ fs' fb = Some (NumText.show_ints (map (fun x => [x]) b)))).
Proof.
  intros G dbl seeded pos ls0 writable other left_over eval show blank estimate HG HP D Hpos words fs fs' st fa ht fh mt fm coll fd gr d fn fc fb
    Ps Sep Rn G1 G2 G3 G4 G5 G6 G7 G8 G9 G10 G11 G12.
  pose proof (main_success writable object saved_state (Utils.mat R) (NumText.read_reals other) build_object (fun _ => false) (fun _ => false)
    (fun d => length (Utils.m_rows d)) (sample_states lgam G dbl seeded pos ls0) encode decode left_over eval show NumText.show_ints allocs_of nclus_of blank estimate
    decode_encode words fs fs' st Ps Sep Rn) as W.
  destruct (W fa ht fh mt fm coll fd gr d fn fc fb G1 G2 G3 G4 G5 G6 G7 G8 G9 G10 G11 G12) as
    (o & data & hc & mc & chain & B & (text & T1 & T2) & _ & _ & S & W1 & _ & _ & W2 & W3 & W4).
  destruct (built fs fa ht fh mt fm o B) as (Ea & Na & Hh & Hm).
  unfold sample_states in S. destruct (checks (config_of o data)) as [u| | |] eqn:Ck; try discriminate. cbn [rbind] in S.
  destruct (Utils.m_nc data =? 0)%nat eqn:Z; [discriminate|]. apply Nat.eqb_neq in Z.
  destruct (states_of lgam G seeded pos ls0 o (map (fun r => nth 0 r 0%R) (Utils.m_rows data))) as [ks| | |] eqn:E; try discriminate. cbn [rbind] in S.
  exists (o_set o), (o_hier o), (o_mix o), data, text. split; [exact Ea|]. split; [exact Hh|]. split; [exact Hm|]. split; [exact T1|]. split; [exact T2|]. split.
  { destruct u. apply (proj1 (checks_iff (config_of o data))) in Ck. destruct Ck as (_ & _ & _ & Ck & _). specialize (Ck eq_refl). cbn [config_of c_data_cols] in Ck. lia. }
  cbn zeta. exists ks. pose proof (states_sampled _ _ _ _ _ _ _ _ Na E) as Q. split; [exact Q|]. intro Rg.
  destruct (sampled_ok G seeded pos ls0 _ _ _ _ _ HG HP Hpos Rg Q) as (L & I & V). split; [exact I|]. split; [exact V|].
  assert (C : Forall2 (fun k (c : saved_state) => recorded dbl k (proj1_sig c)) ks chain).
  { refine (kept_chain dbl _ (as_maxiter (o_set o)) ks chain D (proj2 (proj1 Rg)) V _ (proj1 (proj2 (proj2 Rg))) S).
    intros k J. apply (in_map k_iter) in J. rewrite I in J. apply in_seq in J. lia. }
  destruct (chain_outputs dbl ks chain C) as [A1 A2].
  assert (A3 : map (fun m => firstn (length (Utils.m_rows data)) (allocs_of m)) chain = map k_alloc ks).
  { rewrite <- A1. apply map_ext_in. intros m J. apply firstn_all2.
    assert (X : In (allocs_of m) (map k_alloc ks)) by (rewrite <- A1; apply in_map, J). apply in_map_iff in X as (k & <- & J').
    destruct (clustering_of _ k (V k J')) as (Lk & _). rewrite Lk, map_length. lia. }
  split; [|split; [|split]].
  - intro Nm. exists (fc_written chain_proto chain), chain. split; [exact (W1 Nm)|]. split; [|exact C].
    pose proof (decode_encode chain) as X. unfold decode, encode in X. rewrite bytes_chars in X by apply written_small. exact X.
  - intro Nn. rewrite (W2 Nn). rewrite <- (map_map nclus_of (fun x => [x])), A2, map_map. reflexivity.
  - intro Nc. rewrite (W3 Nc), A3. reflexivity.
  - intro Nb. destruct (W4 Nb) as (b & B1 & B2). rewrite A3 in B1. exists b. split; assumption.
Qed.
Print Assumptions C135_run.

(** ** A run with good files ends well *)
Lemma main_ends : forall writable O M T read_text build n_rows sample encode decode left_over eval show show_int allocs nclus blank estimate
    words fs st fa ht fh mt fm coll fd gr d fn fc fb o text data chain,
  (forall l, decode (encode l) = Ok l) ->
  parse_args run_options words = Parsed st -> separate st -> (forall f, In f (requested st) -> writable f = true) ->
  get st "--algo-params-file" = Ok fa -> get st "--hier-type" = Ok ht -> get st "--hier-args" = Ok fh ->
  get st "--mix-type" = Ok mt -> get st "--mix-args" = Ok fm -> get st "--coll-name" = Ok coll ->
  get st "--data-file" = Ok fd -> get st "--grid-file" = Ok gr -> get st "--dens-file" = Ok d ->
  get st "--n-cl-file" = Ok fn -> get st "--clus-file" = Ok fc -> get st "--best-clus-file" = Ok fb ->
  build (fs fa) ht (fs fh) mt (fs fm) = Ok o -> fs fd = Some text -> read_text text = Ok data -> sample o data None None = Ok chain ->
  (forall m, In m chain -> n_rows data <= length (allocs m))%nat ->
  (gr = EMPTYSTR \/ d = EMPTYSTR) \/ (exists tg grid r, fs gr = Some tg /\ read_text tg = Ok grid /\ eval o chain grid None None = Ok r) ->
  (fb = EMPTYSTR \/ exists b, estimate (map (fun m => firstn (n_rows data) (allocs m)) chain) = Ok b) ->
  exists fs', main_program writable O M T read_text build (fun _ => false) (fun _ => false) n_rows sample encode decode
    left_over eval show show_int allocs nclus blank estimate words fs = (fs', Exited 0).
Proof.
  intros writable O M T read_text build n_rows sample encode decode left_over eval show show_int allocs nclus blank estimate
    words fs st fa ht fh mt fm coll fd gr d fn fc fb o text data chain De P [Nd Sep] HW E1 E2 E3 E4 E5 E6 E7 E8 E9 E10 E11 E12 B Hd Rd Sa Ha Hg Hb.
  unfold main_program. rewrite P.
  assert (CO : forall u n v fs0, get st n = Ok v -> (v <> u -> writable v = true) -> exists fs1, check_one writable st u n fs0 = (fs1, Ok tt)).
  { intros u n v fs0 E W. unfold check_one, bind, lift. rewrite E. destruct (v =? u) eqn:Ev; [unfold ret; eauto|].
    unfold check_file_is_writeable. rewrite W by now apply String.eqb_neq. eauto. }
  assert (R : forall u n v, In (u, n) outs -> get st n = Ok v -> v <> u -> writable v = true).
  { intros u n v Hp E N. apply HW. exact (requested_In st u n v Hp E N). }
  assert (CA : exists fs1, check_args writable st fs = (fs1, Ok tt)).
  { unfold check_args.
    destruct (CO "memory" "--coll-name" coll fs E6) as (f1 & C1); [intro; eapply R; eauto; pick|].
    destruct (CO EMPTYSTR "--dens-file" d f1 E9) as (f2 & C2); [intro; eapply R; eauto; pick|].
    destruct (CO EMPTYSTR "--n-cl-file" fn f2 E10) as (f3 & C3); [intro; eapply R; eauto; pick|].
    destruct (CO EMPTYSTR "--clus-file" fc f3 E11) as (f4 & C4); [intro; eapply R; eauto; pick|].
    destruct (CO EMPTYSTR "--best-clus-file" fb f4 E12) as (f5 & C5); [intro; eapply R; eauto; pick|].
    exists f5. unfold bind. now rewrite C1, C2, C3, C4. }
  destruct CA as (fs1 & CA). pose proof (check_args_Ok _ _ _ _ _ CA) as ([_ Em] & _).
  assert (Same : forall n f, In n input_names -> get st n = Ok f -> fs1 f = fs f) by (intros n f Hn Hf; apply Em, (Sep n f Hn Hf)).
  unfold main_body. unfold bind at 1. rewrite CA.
  assert (RC : exists fs2, configure_and_run writable O M T read_text build (fun _ => false) (fun _ => false) sample encode left_over st fs1 = (fs2, Ok (o, data, chain)) /\
    (coll <> "memory" -> fs2 coll = Some (encode chain)) /\ fs2 gr = fs gr).
  { unfold configure_and_run, bind, lift, read_proto, read_matrix, read_if, ret. rewrite E1, E2, E4, E6, E5, E3.
    rewrite (Same "--algo-params-file" fa), (Same "--mix-args" fm), (Same "--hier-args" fh) by (trivial; pick). rewrite B, E7.
    rewrite (Same "--data-file" fd) by (trivial; pick). rewrite Hd, Rd, Sa.
    assert (Eg : fs1 gr = fs gr) by (apply (Same "--grid-file"); [pick|exact E8]).
    destruct (coll =? "memory") eqn:Ec; [exists fs1; split; [reflexivity|]; split; [apply String.eqb_eq in Ec; congruence|exact Eg]|].
    apply String.eqb_neq in Ec. unfold write_file. rewrite (R "memory" "--coll-name" coll) by (trivial; pick). eexists. split; [reflexivity|]. split; [intros _; unfold put; rewrite String.eqb_refl; reflexivity|].
    rewrite put_other; [exact Eg|]. intros ->. apply (Sep "--grid-file" coll ltac:(pick) E8). apply (requested_In st "memory" "--coll-name" coll); [pick|exact E6|exact Ec]. }
  destruct RC as (fs2 & RC & Fc0 & Fg). unfold bind at 1. rewrite RC.
  assert (Co : forall fs0, (coll <> "memory" -> fs0 coll = Some (encode chain)) -> collected M decode st chain fs0 = (fs0, Ok chain)).
  { intros fs0 F. unfold collected, bind, lift. rewrite E6. destruct (coll =? "memory") eqn:Ec; [reflexivity|]. apply String.eqb_neq in Ec. rewrite (F Ec), De. reflexivity. }
  assert (DE : exists fs2', density writable O M T read_text (fun _ => false) (fun _ => false) decode eval show st o chain fs2 = (fs2', Ok tt) /\
    (coll <> "memory" -> fs2' coll = Some (encode chain))).
  { unfold density, bind, lift. rewrite E8, E9. destruct (negb (gr =? EMPTYSTR) && negb (d =? EMPTYSTR)) eqn:X; [|exists fs2; split; [reflexivity|exact Fc0]].
    apply andb_prop in X as [X1 X2]. apply negb_true_iff, String.eqb_neq in X1. apply negb_true_iff, String.eqb_neq in X2.
    destruct Hg as [[Hg|Hg]|(tg & grid & r & Hg1 & Hg2 & Hg3)]; [contradiction|contradiction|].
    unfold read_matrix, read_if, ret. rewrite Fg, Hg1, Hg2, (Co fs2 Fc0), Hg3. unfold write_file. rewrite (R EMPTYSTR "--dens-file" d) by (trivial; pick).
    eexists. split; [reflexivity|]. intro Nm. rewrite put_other; [exact (Fc0 Nm)|].
    refine (NoDup_flat _ _ _ outs 0 1 _ _ coll d Nd ltac:(discriminate) eq_refl eq_refl _ _); cbn [fst snd].
    - rewrite E6. apply String.eqb_neq in Nm. rewrite Nm. now left.
    - rewrite E9. apply String.eqb_neq in X2. rewrite X2. now left. }
  destruct DE as (fs2' & DE & Fc). unfold bind at 1. rewrite DE. clear DE Fc0 Fg RC fs2. rename fs2' into fs2.
  assert (CL : exists fs3, clusterings writable M T n_rows decode show_int allocs nclus blank estimate st data chain fs2 = (fs3, Ok tt)).
  { unfold clusterings, bind, lift. rewrite E10, E11, E12. destruct (negb (fn =? EMPTYSTR) || negb (fc =? EMPTYSTR) || negb (fb =? EMPTYSTR)); [|exists fs2; reflexivity].
    rewrite (Co fs2 Fc).
    assert (Ro : out_all M allocs nclus blank (n_rows data) chain = Ok (map (fun m => (firstn (n_rows data) (allocs m), nclus m)) chain)).
    { unfold out_all. clear -Ha. induction chain as [|m l IH]; [reflexivity|]. cbn [rmap map]. unfold out_row at 1. rewrite MainFacts.rmap_at by (apply Ha; now left). cbn [rbind skipn].
      rewrite IH by (intros x J; apply Ha; now right). reflexivity. }
    rewrite Ro. set (rows := map _ chain).
    destruct (fn =? EMPTYSTR), (fc =? EMPTYSTR), (fb =? EMPTYSTR) eqn:Eb; cbn [ret write_file];
      try (eexists; reflexivity);
      (apply String.eqb_neq in Eb; destruct Hb as [Hb|(b & Hb)]; [contradiction|]; unfold rows; rewrite map_map; cbn [fst]; rewrite Hb; eexists; reflexivity). }
  destruct CL as (fs3 & CL). rewrite CL. exists fs3. reflexivity.
Qed.

Lemma rmap_total : forall A B (f : A -> res B) l, (forall x, In x l -> exists y, f x = Ok y) -> exists ys, rmap f l = Ok ys.
Proof.
  intros A B f l H. induction l as [|x l IH]; [exists []; reflexivity|]. destruct (H x (or_introl eq_refl)) as (y & E). destruct (IH (fun z J => H z (or_intror J))) as (ys & E').
  exists (y :: ys). cbn [rmap]. rewrite E. cbn [rbind]. rewrite E'. reflexivity.
Qed.

Lemma run_ends : forall G dbl seeded pos ls0 writable other left_over eval show blank estimate,
  gen_ok G -> gen_pos G -> (forall x, dbl x < 2 ^ 64)%N -> (forall k i, 0 < k -> pos k i < k)%nat ->
  forall words fs st fa ht fh mt fm coll fd gr d fn fc fb a p q text data ks,
  parse_args run_options words = Parsed st -> separate st -> (forall f, In f (requested st) -> writable f = true) ->
  get st "--algo-params-file" = Ok fa -> get st "--hier-type" = Ok ht -> get st "--hier-args" = Ok fh ->
  get st "--mix-type" = Ok mt -> get st "--mix-args" = Ok fm -> get st "--coll-name" = Ok coll ->
  get st "--data-file" = Ok fd -> get st "--grid-file" = Ok gr -> get st "--dens-file" = Ok d ->
  get st "--n-cl-file" = Ok fn -> get st "--clus-file" = Ok fc -> get st "--best-clus-file" = Ok fb ->
  a = algo_settings_of (message_in "AlgorithmParams" fs fa) -> hier_set fs fh ht p -> mix_set fs fm mt q ->
  fs fd = Some text -> NumText.read_reals other text = Ok data -> Utils.m_nc data = 1%nat -> in_range a (length (Utils.m_rows data)) ->
  sampled lgam G seeded pos ls0 a (map (fun r => nth 0 r 0%R) (Utils.m_rows data)) p q ks ->
  (forall o ks' chain, o_set o = a -> o_hier o = p -> o_mix o = q -> as_id a = algo_named (o_algo o) ->
     states_of lgam G seeded pos ls0 o (map (fun r => nth 0 r 0%R) (Utils.m_rows data)) = Ok ks' -> rmap (fun k => keep (state_msg dbl k)) ks' = Ok chain ->
     ((gr = EMPTYSTR \/ d = EMPTYSTR) \/ (exists tg grid r, fs gr = Some tg /\ NumText.read_reals other tg = Ok grid /\ eval o chain grid None None = Ok r)) /\
     (fb = EMPTYSTR \/ exists b, estimate (map k_alloc ks') = Ok b)) ->
  exists fs', run_mcmc lgam G dbl seeded pos ls0 writable other left_over eval show blank estimate words fs = (fs', Exited 0).
Proof.
  intros G dbl seeded pos ls0 writable other left_over eval show blank estimate HG HP D Hpos words fs st fa ht fh mt fm coll fd gr d fn fc fb a p q text data ks
    Ps Sep HW E1 E2 E3 E4 E5 E6 E7 E8 E9 E10 E11 E12 Ea Hh Hm Hd Rd Nc Rg S Hx.
  set (ys := map (fun r => nth 0 r 0%R) (Utils.m_rows data)) in *. assert (Ly : length ys = length (Utils.m_rows data)) by apply map_length.
  rewrite <- Ly in Rg. destruct (sampled_ok G seeded pos ls0 a ys p q ks HG HP Hpos Rg S) as (L & I & V).
  (* the object *)
  assert (X : exists o ks', build_object (fs fa) ht (fs fh) mt (fs fm) = Ok o /\ o_set o = a /\ o_hier o = p /\ o_mix o = q /\ as_id a = algo_named (o_algo o) /\
     checks (config_of o data) = Ok tt /\ states_of lgam G seeded pos ls0 o ys = Ok ks').
  { assert (Rows : Utils.m_rows data <> []) by (intro Y; rewrite Y in Ly; destruct Rg as ((Y' & _) & _); rewrite Ly in Y'; cbn in Y'; lia).
    assert (Cf : forall al h, (match h with UNig _ => true | UNxig _ => false end = true \/ al = N8) -> checks (config_of (mkObj al a h q) data) = Ok tt).
    { intros al h Y. apply (proj1 (checks_iff _)). unfold well_formed, config_of. cbn [c_data_rows c_data_cols c_has_hier c_hier_conj c_hier_multi c_hier_dep c_hcov_rows c_has_mixing c_mix_cond c_mix_dep c_mcov_rows c_alg_cond c_alg_conj o_hier o_algo].
      split; [destruct (Utils.m_rows data); [congruence|discriminate]|]. split; [reflexivity|]. split; [destruct Y as [Y| ->]; [intros _; exact Y|discriminate]|].
      split; [intros _; lia|]. split; [congruence|]. split; [reflexivity|]. split; [reflexivity|congruence]. }
    assert (Mq : (d <- (if mt =? "DP" then Ok true else if mt =? "PY" then Ok false else others registered_mixings mt) ;;
       (if d : bool then p <- finite (dp_prior_of (contents "DPPrior" (fs fm))) ;; Ok (PriDP p) else p <- finite (py_prior_of (contents "PYPrior" (fs fm))) ;; Ok (PriPY p))) = Ok q).
    { destruct Hm as [x E|x E]; cbn [String.eqb Ascii.eqb Bool.eqb rbind]; change (contents ?t (fs fm)) with (message_in t fs fm); rewrite E; reflexivity. }
    assert (Bo : forall al, create_algo (as_id a) = Ok al -> (match p with UNig x => exists h, nig_init x = Ok h | UNxig x => exists h, nxig_init x = Ok h end) ->
      build_object (fs fa) ht (fs fh) mt (fs fm) = Ok (mkObj al a p q)).
    { intros al Al Pi. unfold build_object. cbn zeta. change (contents "AlgorithmParams" (fs fa)) with (message_in "AlgorithmParams" fs fa). rewrite <- Ea, Al. cbn [rbind].
      destruct (if mt =? "DP" then Ok true else if mt =? "PY" then Ok false else others registered_mixings mt) as [dd| | |]; try discriminate. cbn [rbind] in Mq.
      destruct Hh as [x E|x E]; destruct Pi as (h & Pi); cbn [String.eqb Ascii.eqb Bool.eqb rbind]; rewrite Mq; cbn [rbind]; change (contents ?t (fs fh)) with (message_in t fs fh); rewrite E; cbn [finite rbind]; rewrite Pi; reflexivity. }
    destruct S as [x q s out ks Na Q K|x q s out ks Na Q K|x q s out ks Na Q K|x q s out ks Na Q K].
    - exists (mkObj N2 a (UNig x) q). eexists. split; [apply Bo; [rewrite Na; reflexivity|]|repeat split; try exact Na; try (apply Cf; left; reflexivity)].
      + unfold neal2_run, start in Q. destruct (mixing_start q); try discriminate Q. destruct (nig_init x) as [hy| | |]; try discriminate Q. exists hy. reflexivity.
      + unfold states_of. cbn [o_set o_algo o_hier o_mix]. cbn zeta. rewrite zero_eqb. rewrite Q. reflexivity.
    - exists (mkObj N3 a (UNig x) q). eexists. split; [apply Bo; [rewrite Na; reflexivity|]|repeat split; try exact Na; try (apply Cf; left; reflexivity)].
      + unfold neal3_run, start in Q. destruct (mixing_start q); try discriminate Q. destruct (nig_init x) as [hy| | |]; try discriminate Q. exists hy. reflexivity.
      + unfold states_of. cbn [o_set o_algo o_hier o_mix]. cbn zeta. rewrite zero_eqb. rewrite Q. reflexivity.
    - exists (mkObj N8 a (UNig x) q). eexists. split; [apply Bo; [rewrite Na; reflexivity|]|repeat split; try exact Na; try (apply Cf; left; reflexivity)].
      + unfold neal8_run, start in Q. destruct (mixing_start q); try discriminate Q. destruct (nig_init x) as [hy| | |]; try discriminate Q. exists hy. reflexivity.
      + unfold states_of. cbn [o_set o_algo o_hier o_mix]. cbn zeta. rewrite zero_eqb. rewrite Q. reflexivity.
    - exists (mkObj N8 a (UNxig x) q). eexists. split; [apply Bo; [rewrite Na; reflexivity|]|repeat split; try exact Na; try (apply Cf; right; reflexivity)].
      + unfold neal8_run, start in Q. destruct (mixing_start q); try discriminate Q. destruct (nxig_init x) as [hy| | |]; try discriminate Q. exists hy. reflexivity.
      + unfold states_of. cbn [o_set o_algo o_hier o_mix]. cbn zeta. rewrite zero_eqb. rewrite Q. reflexivity. }
  destruct X as (o & ks' & B & Eo & Eh & Eq & Na & Ck & St).
  assert (S' : sampled lgam G seeded pos ls0 a ys p q ks') by (rewrite <- Eo, <- Eh, <- Eq; apply states_sampled; [rewrite Eo; exact Na|exact St]).
  destruct (sampled_ok G seeded pos ls0 a ys p q ks' HG HP Hpos Rg S') as (L' & I' & V').
  assert (It : forall k, In k ks' -> (N.of_nat (k_iter k) < as_maxiter a)%N).
  { intros k J. apply (in_map k_iter) in J. rewrite I' in J. apply in_seq in J. lia. }
  destruct (rmap_total _ _ (fun k => keep (state_msg dbl k)) ks') as (chain & Ec).
  { intros k J. destruct (keep_ok dbl D k) as (s & E & _); [|exists s; exact E]. apply (kept_sized (length ys)); [exact (proj2 (proj1 Rg))|exact (V' k J)|].
    specialize (It k J). destruct Rg as (_ & _ & Hi & _). lia. }
  pose proof (kept_chain dbl (length ys) (as_maxiter a) ks' chain D (proj2 (proj1 Rg)) V' It (proj1 (proj2 (proj2 Rg))) Ec) as C.
  apply (main_ends writable object saved_state (Utils.mat R) (NumText.read_reals other) build_object (fun d => length (Utils.m_rows d)) (sample_states lgam G dbl seeded pos ls0)
    encode decode left_over eval show NumText.show_ints allocs_of nclus_of blank estimate words fs st fa ht fh mt fm coll fd gr d fn fc fb o text data chain); try assumption.
  - exact decode_encode.
  - unfold sample_states. rewrite Ck. cbn [rbind]. rewrite Nc. cbn [Nat.eqb]. fold ys. rewrite St. cbn [rbind]. exact Ec.
  - intros m J. destruct (chain_outputs dbl ks' chain C) as [A1 _]. assert (Y : In (allocs_of m) (map k_alloc ks')) by (rewrite <- A1; apply in_map, J).
    apply in_map_iff in Y as (k & <- & J'). destruct (clustering_of _ k (V' k J')) as (Lk & _). rewrite Lk, Ly. lia.
  - exact (proj1 (Hx o ks' chain Eo Eh Eq Na St Ec)).
  - destruct (proj2 (Hx o ks' chain Eo Eh Eq Na St Ec)) as [Hb|(b & Hb)]; [left; exact Hb|right; exists b]. rewrite <- Hb. f_equal.
    destruct (chain_outputs dbl ks' chain C) as [A1 _]. rewrite <- A1. apply map_ext_in. intros m J. apply firstn_all2.
    assert (Y : In (allocs_of m) (map k_alloc ks')) by (rewrite <- A1; apply in_map, J).
    apply in_map_iff in Y as (k & <- & J'). destruct (clustering_of _ k (V' k J')) as (Lk & _). rewrite Lk, Ly. lia.
Qed.

(** The program ends well whenever its files name a sampler, accepted priors and a column of
    numbers, the outputs can be written, and the sampler ends well. *)
Theorem C135_exits : forall G dbl seeded pos ls0 writable other left_over eval show blank estimate,
  gen_ok G -> gen_pos G -> (forall x, dbl x < 2 ^ 64)%N -> (forall k i, 0 < k -> pos k i < k)%nat ->
  forall words fs st fa ht fh mt fm coll fd gr d fn fc a p q text data ks,
  parse_args run_options words = Parsed st -> separate st -> (forall f, In f (requested st) -> writable f = true) ->
  get st "--algo-params-file" = Ok fa -> get st "--hier-type" = Ok ht -> get st "--hier-args" = Ok fh ->
  get st "--mix-type" = Ok mt -> get st "--mix-args" = Ok fm -> get st "--coll-name" = Ok coll ->
  get st "--data-file" = Ok fd -> get st "--grid-file" = Ok gr -> get st "--dens-file" = Ok d ->
  get st "--n-cl-file" = Ok fn -> get st "--clus-file" = Ok fc -> get st "--best-clus-file" = Ok EMPTYSTR ->
  gr = EMPTYSTR \/ d = EMPTYSTR ->
  a = algo_settings_of (message_in "AlgorithmParams" fs fa) -> hier_set fs fh ht p -> mix_set fs fm mt q ->
  fs fd = Some text -> NumText.read_reals other text = Ok data -> Utils.m_nc data = 1%nat -> in_range a (length (Utils.m_rows data)) ->
  sampled lgam G seeded pos ls0 a (map (fun r => nth 0 r 0%R) (Utils.m_rows data)) p q ks ->
  exists fs', run_mcmc lgam G dbl seeded pos ls0 writable other left_over eval show blank estimate words fs = (fs', Exited 0).
Proof.
  intros G dbl seeded pos ls0 writable other left_over eval show blank estimate HG HP D Hpos words fs st fa ht fh mt fm coll fd gr d fn fc a p q text data ks
    Ps Sep HW E1 E2 E3 E4 E5 E6 E7 E8 E9 E10 E11 E12 Hg Ea Hh Hm Hd Rd Nc Rg S.
  refine (run_ends G dbl seeded pos ls0 writable other left_over eval show blank estimate HG HP D Hpos words fs st fa ht fh mt fm coll fd gr d fn fc EMPTYSTR a p q text data ks
    Ps Sep HW E1 E2 E3 E4 E5 E6 E7 E8 E9 E10 E11 E12 Ea Hh Hm Hd Rd Nc Rg S _).
  intros. split; left; [exact Hg|reflexivity].
Qed.
Print Assumptions C135_exits.

(** With fixed parameters of the mixing and accepted hyperparameters the sampler ends well. *)
Definition accepted (a : algo_settings) (p : uni_prior) : Prop :=
  match p with
  | UNig x => In (as_id a) ["Neal2"; "Neal3"; "Neal8"] /\ exists h, nig_init x = Ok h
  | UNxig x => as_id a = "Neal8" /\ exists h, nxig_init x = Ok h
  end.

Theorem C135_sampler_ends : forall G seeded pos ls0 a ys p q, gen_ok G -> (forall k i, 0 < k -> pos k i < k)%nat ->
  in_range a (length ys) -> accepted a p -> prior_fixed q -> exists ks, sampled lgam G seeded pos ls0 a ys p q ks.
Proof.
  intros G seeded pos ls0 a ys p q HG Hpos (Hn & Hk & _ & Ha) Ac Hq.
  assert (H2 : (2 <= length ys)%nat) by lia.
  assert (F : fits (N.to_nat (as_init a)) (pos (if as_init a =? 0 then length ys else N.to_nat (as_init a))%N) (length ys)).
  { split; [lia|]. intro i. rewrite zero_eqb. destruct (N.eqb_spec (as_init a) 0); apply Hpos; lia. }
  destruct (C112_programs_end G q ys _ _ ls0 (N.to_nat (as_maxiter a)) (N.to_nat (as_burnin a)) (seeded (as_seed a)) HG Hq H2 F) as [Q1 Q2].
  destruct p as [x|x]; cbn [accepted] in Ac; destruct Ac as (Na & h & Eh).
  - destruct (Q1 x h Eh) as ((s2 & o2 & R2) & (s3 & o3 & R3) & R8). rewrite <- Eh in R2, R3.
    destruct Na as [Na|[Na|[Na|[]]]].
    + eexists. eapply sam_neal2; [symmetry; exact Na|exact R2|apply keeps_self].
    + eexists. eapply sam_neal3; [symmetry; exact Na|exact R3|apply keeps_self].
    + assert (X : (1 <= N.to_nat (as_n_aux a))%nat) by (specialize (Ha (eq_sym Na)); lia). destruct (R8 _ X) as (s8 & o8 & E8).
      eexists. eapply sam_neal8; [symmetry; exact Na|rewrite Eh; exact E8|apply keeps_self].
  - assert (X : (1 <= N.to_nat (as_n_aux a))%nat) by (specialize (Ha Na); lia). destruct (Q2 h _ X) as ((s8 & o8 & E8) & _).
    eexists. eapply sam_neal8_semi; [exact Na|rewrite Eh; exact E8|apply keeps_self].
Qed.
Print Assumptions C135_sampler_ends.

(** ** Example: three numbers, all files as text *)
Definition ex_kv : list (string * string) :=
  [("--algo-params-file", "algo"); ("--hier-type", "NNIG"); ("--hier-args", "hier"); ("--mix-type", "DP"); ("--mix-args", "mix");
   ("--coll-name", "chain"); ("--data-file", "data"); ("--n-cl-file", "ncl"); ("--clus-file", "clus")].
Definition ex_files : files := fun f =>
  if f =? "algo" then Some "algo_id: 'Neal2' rng_seed: 5 iterations: 3 burnin: 1 init_num_clusters: 2"
  else if f =? "hier" then Some "fixed_values { mean: 0 var_scaling: 1 shape: 2 scale: 2 }"
  else if f =? "mix" then Some "fixed_value { totalmass: 2 }"
  else if f =? "data" then Some (NumText.show_ints [[1]; [20]; [3]]%nat)
  else None.
Definition ex_prior : nig_prior := NIGFixed (0 * powerRZ 10 0) (1 * powerRZ 10 0) (2 * powerRZ 10 0) (2 * powerRZ 10 0).

Lemma ex_algo : algo_settings_of (message_in "AlgorithmParams" ex_files "algo") = mkAS "Neal2" 5 3 1 2 0 0 0 0.
Proof. vm_compute. reflexivity. Qed.
Lemma ex_hier : hier_set ex_files "hier" "NNIG" (UNig ex_prior).
Proof.
  assert (E : forall A t f g (m : tmessage) (h : tmessage -> A), message_in t f g = m -> h (message_in t f g) = h m) by (intros; congruence).
  constructor. etransitivity; [eapply E; vm_compute; reflexivity|reflexivity].
Qed.
Lemma ex_mix : mix_set ex_files "mix" "DP" (PriDP (DPFixed (2 * powerRZ 10 0))).
Proof.
  assert (E : forall A t f g (m : tmessage) (h : tmessage -> A), message_in t f g = m -> h (message_in t f g) = h m) by (intros; congruence).
  constructor. etransitivity; [eapply E; vm_compute; reflexivity|reflexivity].
Qed.

Example C135_example : forall dbl blank, (forall x, dbl x < 2 ^ 64)%N -> exists fs' ks bytes cs,
  run_mcmc lgam g1 dbl N.to_nat (fun k i => i mod k) (mkLS 0 0) (fun _ => true) 7%R "" (fun _ _ g _ _ => Ok g) (fun _ => "") blank (fun _ => Ok []) (flat ex_kv) ex_files = (fs', Exited 0) /\
  map k_iter ks = [1; 2]%nat /\ (forall k, In k ks -> kept_ok 3 k) /\
  fs' "chain" = Some (string_of_list_ascii (map ascii_of_N bytes)) /\ py_read chain_proto bytes = Ok cs /\
  Forall2 (fun k (c : saved_state) => recorded dbl k (proj1_sig c)) ks cs /\
  fs' "ncl" = Some (NumText.show_ints (map (fun k => [length (k_clusters k)]) ks)) /\ fs' "clus" = Some (NumText.show_ints (map k_alloc ks)).
Proof.
  intros dbl blank D. assert (Hpos : forall k i, 0 < k -> i mod k < k) by (intros k i H; apply Nat.mod_upper_bound; lia).
  assert (Ps : exists st, parse_args run_options (flat ex_kv) = Parsed st /\ requested st = ["chain"; "ncl"; "clus"] /\
    get st "--algo-params-file" = Ok "algo" /\ get st "--hier-type" = Ok "NNIG" /\ get st "--hier-args" = Ok "hier" /\
    get st "--mix-type" = Ok "DP" /\ get st "--mix-args" = Ok "mix" /\ get st "--coll-name" = Ok "chain" /\
    get st "--data-file" = Ok "data" /\ get st "--grid-file" = Ok EMPTYSTR /\ get st "--dens-file" = Ok EMPTYSTR /\
    get st "--n-cl-file" = Ok "ncl" /\ get st "--clus-file" = Ok "clus" /\ get st "--best-clus-file" = Ok EMPTYSTR /\ separate st).
  { eexists. split; [vm_compute; reflexivity|]. repeat (split; [vm_compute; reflexivity|]). split.
    - match goal with |- NoDup ?l => let x := eval vm_compute in l in change (NoDup x) end.
      repeat (apply NoDup_cons; [cbn; intro H; repeat (destruct H as [H|H]; [discriminate H|]); contradiction|]). apply NoDup_nil.
    - intros n f Hn E. repeat (destruct Hn as [<-|Hn]; [vm_compute in E; injection E as <-; cbn; intro H; repeat (destruct H as [H|H]; [discriminate H|]); contradiction|]). contradiction. }
  destruct Ps as (st & Ps & Rq & E1 & E2 & E3 & E4 & E5 & E6 & E7 & E8 & E9 & E10 & E11 & E12 & Sep).
  pose proof (P_NumText.C128_integer_files [[1]; [20]; [3]]%nat 1 7%R ltac:(discriminate) ltac:(lia)) as Rd.
  assert (Rd' : NumText.read_reals 7 (NumText.show_ints [[1]; [20]; [3]]%nat) = Ok (Utils.mkMat 1 (map (map INR) [[1]; [20]; [3]]%nat))).
  { apply Rd; [intros r [<-|[<-|[<-|[]]]]; reflexivity|]. repeat constructor; lia. }
  clear Rd. set (data := Utils.mkMat 1 (map (map INR) [[1]; [20]; [3]]%nat)) in *. set (a := mkAS "Neal2" 5 3 1 2 0 0 0 0).
  assert (Rg : in_range a 3) by (unfold in_range, a; cbn [as_init as_maxiter as_id as_n_aux]; repeat split; try lia; discriminate).
  assert (X : forall x, (0 < x)%R -> lteb x 0 = false) by (intros x Hx; unfold lteb; destruct (Rle_dec x 0); [lra|reflexivity]).
  destruct (C135_sampler_ends g1 N.to_nat (fun k i => i mod k) (mkLS 0 0) a (map (fun r => nth 0 r 0%R) (Utils.m_rows data)) (UNig ex_prior) (PriDP (DPFixed (2 * powerRZ 10 0))) (proj1 g1_ok) Hpos Rg) as (ks0 & S).
  { split; [left; reflexivity|]. eexists. unfold ex_prior. cbn [nig_init]. unfold nig_check. cbn [ng_vs ng_shape ng_scale powerRZ]. rewrite !X by lra. reflexivity. }
  { cbn [prior_fixed powerRZ]. lra. }
  destruct (C135_exits g1 dbl N.to_nat (fun k i => i mod k) (mkLS 0 0) (fun _ => true) 7%R "" (fun _ _ g _ _ => Ok g) (fun _ => "") blank (fun _ => Ok []) (proj1 g1_ok) (proj2 g1_ok) D Hpos
    (flat ex_kv) ex_files st _ _ _ _ _ _ _ _ _ _ _ a _ _ _ data ks0 Ps Sep (fun _ _ => eq_refl) E1 E2 E3 E4 E5 E6 E7 E8 E9 E10 E11 E12 (or_introl eq_refl) (eq_sym ex_algo) ex_hier ex_mix eq_refl Rd' eq_refl Rg S) as (fs' & Rn).
  exists fs'.
  destruct (C135_run g1 dbl N.to_nat (fun k i => i mod k) (mkLS 0 0) (fun _ => true) 7%R "" (fun _ _ g _ _ => Ok g) (fun _ => "") blank (fun _ => Ok []) (proj1 g1_ok) (proj2 g1_ok) D Hpos
    (flat ex_kv) ex_files fs' st _ _ _ _ _ _ _ _ _ _ _ _ Ps Sep Rn E1 E2 E3 E4 E5 E6 E7 E8 E9 E10 E11 E12) as (a' & p & q & data' & text & Ea & _ & _ & T & Rd2 & _ & ks & _ & H).
  injection T as <-. rewrite Rd' in Rd2. injection Rd2 as <-. rewrite ex_algo in Ea. subst a'. destruct (H Rg) as (I & V & C & Fn & Fc & _).
  destruct (C ltac:(discriminate)) as (bytes & cs & C1 & C2 & C3). exists ks, bytes, cs. split; [exact Rn|]. split; [exact I|]. split; [exact V|]. split; [exact C1|]. split; [exact C2|]. split; [exact C3|].
  split; [apply Fn; discriminate|apply Fc; discriminate].
Qed.
