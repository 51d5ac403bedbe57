(** * Property theorems: what an iteration of the semi-HDP sampler draws. *)
From Coq Require Import String.
From Coq Require Import Bool List Arith ZArith Reals Lia Lra Permutation.
From Verif Require Import Base XReal Semi SemiWp SemiSpec SemiCount SemiInv SemiInv2 SemiInv3 SemiInv4 SemiRelabel SemiUnique SemiInit SemiStep SemiTwice SemiEx SemiLaw SemiLawFacts SemiLawFacts2.
Import ListNotations.
Local Open Scope nat_scope.

(** ** C127: weight, concentration, restaurants, tables, dishes, pseudo-prior *)

(** The weight of the private part is drawn given the numbers of private and
    shared tables of the restaurants in use. *)
Theorem C127_weight : forall (I : SH) (P : params) (data : list (list (Datum I))) (s : sst I) g, wf I data s ->
  let q := beta I (p_w1 P + INR (n_private I data s)) (p_w2 P + INR (n_shared I data s)) g in
  update_semihdp_weight I P data s g = Ok (w_w I (fst q) s, snd q).
Proof. exact weight_law. Qed.
Print Assumptions C127_weight.

(** These are the parameters of the conditional law: prior times likelihood of
    the types of the tables. *)
Theorem C127_weight_conjugate : forall (I : SH) (P : params) (data : list (list (Datum I))) (s : sst I) w, (0 < w < 1)%R ->
  (Rpower w (p_w1 P - 1) * Rpower (1 - w) (p_w2 P - 1) * (w ^ n_private I data s * (1 - w) ^ n_shared I data s) =
   Rpower w (p_w1 P + INR (n_private I data s) - 1) * Rpower (1 - w) (p_w2 P + INR (n_shared I data s) - 1))%R.
Proof.
  intros I P data s w H. rewrite <- !Rpower_pow by lra.
  transitivity ((Rpower w (p_w1 P - 1) * Rpower w (INR (n_private I data s))) * (Rpower (1 - w) (p_w2 P - 1) * Rpower (1 - w) (INR (n_shared I data s))))%R; [ring|].
  rewrite <- !Rpower_plus. f_equal; f_equal; ring.
Qed.
Print Assumptions C127_weight_conjugate.

(** The weights of the restaurants: Dirichlet, prior concentration plus number of
    groups. *)
Theorem C127_restaurant_weights : forall (I : SH) (P : params) (data : list (list (Datum I))) (s : sst I) g, wf I data s ->
  let q := dirich I (map (fun r => p_conc P + INR (n_groups I s r))%R (seq 0 (length data))) g in
  update_dirichlet I P data s g = Ok (w_conc I (fst q) s, snd q).
Proof. exact dirichlet_law. Qed.
Print Assumptions C127_restaurant_weights.

(** An iteration leaves the weight drawn for the tables it started from and the
    concentrations drawn for the allocations it ends with. *)
Theorem C127_step : forall (I : SH) (P : params) (data : list (list (Datum I))) pseudo z adapt (s : sst I) g,
  cols I = 1 -> (forall d, In d data -> d <> []) -> data <> [] -> gen_ok I -> cvt I = Some z ->
  (adapt = false -> pseudo_ok I data pseudo) -> wf I data s ->
  exists s' g' g1 g2, step I P data pseudo adapt (s, g) = Ok (s', g') /\
    s_w I s' = fst (beta I (p_w1 P + INR (n_private I data s)) (p_w2 P + INR (n_shared I data s)) g1) /\
    s_conc I s' = fst (dirich I (map (fun r => p_conc P + INR (n_groups I s' r))%R (seq 0 (length data))) g2) /\
    (adapt = true -> s_ra I s' = s_ra I s).
Proof. exact step_law. Qed.
Print Assumptions C127_step.

(** States in which a group may be moved: counts and concentrations are not
    negative, the pseudo-prior has been drawn. *)
Definition movable (I : SH) (data : list (list (Datum I))) (s : sst I) : Prop :=
  good I data s /\ forall r, r < length data -> nth r (s_restp I s) [] <> [].

Lemma rest_step_ok : forall (I : SH) (P : params) (data : list (list (Datum I))) (s : sst I) g i, cols I = 1 -> (forall d, In d data -> d <> []) -> gen_ok I ->
  movable I data s -> i < length data -> exists s' g', rest_step I P data (s, g) i = Ok (s', g') /\ wf I data s'.
Proof.
  intros I P data s g i C D HG [(H & _) N] Hi.
  assert (X : ok (rest_step I P data (s, g) i) (fun q => wf I data (fst q))) by (apply ok_rest_step; auto).
  apply ok_inv in X. destruct X as ([s' g'] & E & W). eauto.
Qed.

(** Mode "full": restaurant [r] with weight concentration times likelihood. *)
Theorem C127_full : forall (I : SH) (P : params) (data : list (list (Datum I))) (s : sst I) g i,
  cols I = 1 -> (forall d, In d data -> d <> []) -> gen_ok I -> movable I data s -> (0 < p_alpha P)%R -> p_mode P = "full"%string -> i < length data ->
  exists s' g' ps, rest_step I P data (s, g) i = Ok (s', g') /\
    map xexp ps = map (target I P data s i) (seq 0 (length data)) /\ s_ra I s' = upd (s_ra I s) i (fst (cat I ps g)).
Proof.
  intros I P data s g i C D HG M Ha Em Hi. destruct (rest_step_ok I P data s g i C D HG M Hi) as (s' & g' & E & _).
  destruct (full_law I P data s g i s' g' C (proj1 M) Ha Em E) as (ps & A & B). eauto 8.
Qed.
Print Assumptions C127_full.

(** Mode "metro_base": a restaurant proposed uniformly, accepted when the
    uniform is below the ratio of the targets. *)
Theorem C127_metro_base : forall (I : SH) (P : params) (data : list (list (Datum I))) (s : sst I) g i,
  cols I = 1 -> (forall d, In d data -> d <> []) -> gen_ok I -> movable I data s -> (0 < p_alpha P)%R -> p_mode P = "metro_base"%string -> i < length data ->
  let prop := uint I (length data) g in
  let cur := nth i (s_ra I s) 0 in
  exists s' g', rest_step I P data (s, g) i = Ok (s', g') /\
    s_ra I s' = upd (s_ra I s) i (if Rlt_dec (fst (unif I (snd prop)) * target I P data s i cur) (target I P data s i (fst prop)) then fst prop else cur).
Proof.
  intros I P data s g i C D HG M Ha Em Hi prop cur. destruct (rest_step_ok I P data s g i C D HG M Hi) as (s' & g' & E & _).
  pose proof (base_law I P data s g i s' g' C HG (proj1 M) Ha Em Hi E) as X. exists s', g'. split; auto.
Qed.
Print Assumptions C127_metro_base.

(** That kernel is reversible. *)
Theorem C127_metro_base_reversible : forall (n : nat) (ta tb : R), (0 < ta)%R -> (0 < tb)%R ->
  (ta * mh (/ INR n) ta tb = tb * mh (/ INR n) tb ta)%R.
Proof.
  intros n ta tb Ha Hb. unfold mh, Rmin.
  assert (Hab : (ta * (tb / ta) = tb)%R) by (field; lra). assert (Hba : (tb * (ta / tb) = ta)%R) by (field; lra).
  destruct (Rle_dec 1 (tb / ta)) as [A|A], (Rle_dec 1 (ta / tb)) as [B|B].
  - assert (ta <= tb)%R by (rewrite <- Hab; apply Rle_trans with (ta * 1)%R; [lra|apply Rmult_le_compat_l; lra]).
    assert (tb <= ta)%R by (rewrite <- Hba; apply Rle_trans with (tb * 1)%R; [lra|apply Rmult_le_compat_l; lra]). replace tb with ta by lra. reflexivity.
  - transitivity (/ INR n * (tb * (ta / tb)))%R; [rewrite Hba; ring|ring].
  - transitivity (/ INR n * (ta * (tb / ta)))%R; [ring|rewrite Hab; ring].
  - exfalso. apply Rnot_le_lt in A. apply Rnot_le_lt in B.
    assert (tb < ta)%R by (rewrite <- Hab; apply Rlt_le_trans with (ta * 1)%R; [apply Rmult_lt_compat_l; lra|lra]).
    assert (ta < tb)%R by (rewrite <- Hba; apply Rlt_le_trans with (tb * 1)%R; [apply Rmult_lt_compat_l; lra|lra]). lra.
Qed.
Print Assumptions C127_metro_base_reversible.

(** Mode "metro_dist": as before, restaurants with similar mixtures being
    proposed more often. *)
Theorem C127_metro_dist : forall (I : SH) (P : params) (data : list (list (Datum I))) (s : sst I) g i,
  cols I = 1 -> (forall d, In d data -> d <> []) -> gen_ok I -> movable I data s -> (0 < p_alpha P)%R -> p_mode P = "metro_dist"%string -> i < length data ->
  let cur := nth i (s_ra I s) 0 in
  let prop := catp I (map (proposal I data s cur) (seq 0 (length data))) g in
  exists s' g', rest_step I P data (s, g) i = Ok (s', g') /\
    s_ra I s' = upd (s_ra I s) i (if Rlt_dec (fst (unif I (snd prop)) * target I P data s i cur) (target I P data s i (fst prop)) then fst prop else cur).
Proof.
  intros I P data s g i C D HG M Ha Em Hi cur prop. destruct (rest_step_ok I P data s g i C D HG M Hi) as (s' & g' & E & _).
  pose proof (dist_law I P data s g i s' g' C HG (proj1 M) Ha Em Hi E) as X. exists s', g'. split; auto.
Qed.
Print Assumptions C127_metro_dist.

(** An observation leaves its table: the count and its logarithm follow. *)
Theorem C127_leave : forall (I : SH) (s : sst I) logn logm i j r s1 logn1 logm1, leave_table I s logn logm i j r = Ok (s1, logn1, logm1) ->
  let t := nth j (nth i (s_tab I s) []) 0 in
  let n := (nth t (nth r (s_n I s) []) 0 - 1)%Z in
  exists v m, ilog I n = Ok v /\ s1 = w_m I m (w_n I (upd (s_n I s) r (upd (nth r (s_n I s) []) t n)) s) /\
    logn1 = upd logn r (upd (nth r logn []) t v) /\
    match nth t (nth r (s_ts I s) []) None with
    | None => m = s_m I s /\ logm1 = logm
    | Some h => m = upd (s_m I s) h (nth h (s_m I s) 0 - 1)%Z /\ exists lh, ilog I (Z.of_nat h) = Ok lh /\ logm1 = upd logm h lh
    end.
Proof. exact leave_law. Qed.
Print Assumptions C127_leave.

(** Its new table: existing tables by (truncated) count times density, a new one
    by the total mass times the predictive density. *)
Theorem C127_seat : forall (I : SH) (P : params) (data : list (list (Datum I))) lms (s : sst I) logn logm g i r j d s1 logn1 logm1 s' ln' lm' g',
  (0 < p_alpha P)%R -> (0 < p_gamma P)%R -> (0 <= s_w I s <= 1)%R ->
  leave_table I s logn logm i j r = Ok (s1, logn1, logm1) -> nth_error (nth i data []) j = Some d ->
  table_step I P data lms i r ((s, logn, logm), g) j = Ok ((s', ln', lm'), g') ->
  exists ps, nth j (nth i (s_tab I s') []) 0 = fst (cat I ps g) /\
    map xexp ps = map (fun l => exp (IZR (nth l (nth r logn1 []) 0%Z)) * dens I (s_heap I s) (nth l (nth r (s_rest I s) []) O) d)%R
                      (seq 0 (length (nth r (s_rest I s) []))) ++ [new_table I P s logm1 (exp lms) d].
Proof. exact seat_law. Qed.
Print Assumptions C127_seat.

(** A sweep starts from exact counts, their truncated logarithms, and divides
    the weights of the shared atoms by the number of tables that serve them. *)
Theorem C127_sweep : forall (I : SH) (P : params) (data : list (list (Datum I))) (s : sst I) g s' g',
  cols I = 1 -> wf I data s -> update_table_allocs I P data s g = Ok (s', g') ->
  exists s0 logn logm ln' lm', s0 = w_n I (s_n I s0) (w_m I (s_m I s0) s) /\ counts_exact I data s0 /\
    Forall2 (Forall2 (fun n v => ilog I n = Ok v)) (s_n I s0) logn /\ Forall2 (fun n v => ilog I n = Ok v) (s_m I s0) logm /\
    rfold (table_group I P data (ln (INR (length (dishes I data s)) + / 10 ^ 20))) (seq 0 (length data)) ((s0, logn, logm), g) = Ok ((s', ln', lm'), g').
Proof. exact sweep_law. Qed.
Print Assumptions C127_sweep.

(** A new table is private with probability [w] and then has an atom of its
    own, drawn given the observation ... *)
Theorem C127_open_private : forall (I : SH) (s : sst I) logn logm r d hdp g s' ln' lm' g', (fst (unif I g) < s_w I s)%R ->
  open_table I s logn logm r d hdp g = Ok ((s', ln', lm'), g') ->
  let o := length (s_heap I s) in
  s_heap I s' = s_heap I s ++ [fst (samp_full I [d] (snd (unif I g)))] /\
  s_rest I s' = upd (s_rest I s) r (nth r (s_rest I s) [] ++ [o]) /\ s_priv I s' = upd (s_priv I s) r (nth r (s_priv I s) [] ++ [o]) /\
  s_ts I s' = upd (s_ts I s) r (nth r (s_ts I s) [] ++ [None]) /\ s_tp I s' = upd (s_tp I s) r (nth r (s_tp I s) [] ++ [Some (length (nth r (s_priv I s) []))]) /\
  s_shared I s' = s_shared I s /\ s_m I s' = s_m I s.
Proof. exact open_private. Qed.
Print Assumptions C127_open_private.

(** ... or serves a shared atom: an existing one, or one drawn given the
    observation. *)
Theorem C127_open_shared : forall (I : SH) (s : sst I) logn logm r d hdp g s' ln' lm' g', ~ (fst (unif I g) < s_w I s)%R ->
  open_table I s logn logm r d hdp g = Ok ((s', ln', lm'), g') ->
  let t := fst (cat I hdp (snd (unif I g))) in
  s_priv I s' = s_priv I s /\ s_ts I s' = upd (s_ts I s) r (nth r (s_ts I s) [] ++ [Some t]) /\ s_tp I s' = upd (s_tp I s) r (nth r (s_tp I s) [] ++ [None]) /\
  (t < length (s_shared I s) -> s_heap I s' = s_heap I s /\ s_shared I s' = s_shared I s /\
     s_rest I s' = upd (s_rest I s) r (nth r (s_rest I s) [] ++ [nth t (s_shared I s) 0]) /\ s_m I s' = upd (s_m I s) t (nth t (s_m I s) 0 + 1)%Z) /\
  (length (s_shared I s) <= t -> s_heap I s' = s_heap I s ++ [fst (samp_full I [d] (snd (cat I hdp (snd (unif I g)))))] /\
     s_shared I s' = s_shared I s ++ [length (s_heap I s)] /\
     s_rest I s' = upd (s_rest I s) r (nth r (s_rest I s) [] ++ [length (s_heap I s)]) /\ s_m I s' = s_m I s ++ [1%Z]).
Proof. exact open_shared. Qed.
Print Assumptions C127_open_shared.

(** The shared atom of a table, given all its observations: the other tables
    that serve it times the likelihood; a new one by the total mass alone. *)
Theorem C127_dish : forall (I : SH) (P : params) (data : list (list (Datum I))) r dbt (s : sst I) g l h s' g',
  (0 < p_gamma P)%R -> wf I data s -> r < length data -> l < length (nth r (s_rest I s) []) ->
  s_m I s = tally (length (s_shared I s)) (dishes I data s) ->
  nth l (nth r (s_ts I s) []) None = Some h -> nth l dbt [] <> [] -> shared_table I P r dbt (s, g) l = Ok (s', g') ->
  exists ps, s_ts I s' = upd (s_ts I s) r (upd (nth r (s_ts I s) []) l (Some (fst (cat I ps g)))) /\
  map xexp ps = map (fun k => (IZR (Z.of_nat (count_occ Nat.eq_dec (dishes I data s) k)) - (if k =? h then 1 else 0)) *
                              rprod (map (dens I (s_heap I s) (nth k (s_shared I s) O)) (nth l dbt [])))%R (seq 0 (length (s_shared I s))) ++ [p_gamma P].
Proof. exact dish_law. Qed.
Print Assumptions C127_dish.

Theorem C127_table_data : forall (I : SH) (data : list (list (Datum I))) (s : sst I) r, cols I = 1 -> wf I data s -> r < length data ->
  by_table I data s r = Ok (map (held I data s r) (seq 0 (length (nth r (s_rest I s) [])))).
Proof. exact by_table_held. Qed.
Print Assumptions C127_table_data.

(** The observations of a group that has moved: existing tables only. *)
Theorem C127_moved_observations : forall (I : SH) (data : list (list (Datum I))) i r (s : sst I) g j d s' g',
  nth_error (nth i data []) j = Some d -> reassign_obs I data i r (s, g) j = Ok (s', g') ->
  exists ps, s_tab I s' = upd (s_tab I s) i (upd (nth i (s_tab I s) []) j (fst (cat I ps g))) /\
  map xexp ps = map (fun l => (let n := nth l (nth r (s_n I s) []) 0%Z in if (0 <? n)%Z then IZR n else exp (/ 10 ^ 20)) *
                              dens I (s_heap I s) (nth l (nth r (s_rest I s) []) O) d)%R (seq 0 (length (nth r (s_rest I s) []))).
Proof. exact reassign_law. Qed.
Print Assumptions C127_moved_observations.

(** The pseudo-prior: one stored iteration, the same for all groups, its atoms
    and as many multinomial counts as the group has observations. *)
Theorem C127_pseudo_prior : forall (I : SH) (P : params) (data : list (list (Datum I))) pseudo (s : sst I) g,
  cols I = 1 -> gen_ok I -> pseudo_ok I data pseudo -> 0 < length data -> wf I data s ->
  let K := length (nth 0 pseudo []) in
  let it := fst (catp I (repeat (/ INR K)%R K) g) in
  exists s' g', sample_pseudo_prior I P data pseudo s g = Ok (s', g') /\ forall r, r < length data ->
    exists ps g0, nth_error (nth r pseudo []) it = Some ps /\
      nth r (s_np I s') [] = fst (multin I (map (pseudo_weight I P ps) (seq 0 (length (fst ps)))) (length (nth r data [])) g0) /\
      map (nth_error (s_heap I s')) (nth r (s_restp I s') []) = map Some (fst ps).
Proof. intros I P data pseudo s g. exact (pseudo_law I P data pseudo s g). Qed.
Print Assumptions C127_pseudo_prior.

Theorem C127_pseudo_weights : forall (I : SH) (P : params) (ps : pstate I), snd ps <> [] -> Forall (fun c => c < length (fst ps)) (snd ps) ->
  rsum (map (pseudo_weight I P ps) (seq 0 (length (fst ps)))) = 1%R.
Proof. exact pseudo_weight_sum. Qed.
Print Assumptions C127_pseudo_weights.

(** ** Refutations *)

(** Three groups of one observation, each at a private table of its own
    restaurant.  Mixtures are compared by their first atoms: a distance. *)
Definition first_atom (l : list ((bool * list nat) * R)) : R := match l with ((_, x :: _), _) :: _ => INR x | _ => 0%R end.
Definition toyd : SH :=
  mkSH nat (bool * list nat) (list nat) 1
    (fun g => ((false, [hd 0 g]), tl g)) (fun d g => ((true, d), tl g))
    (fun _ _ => Fin 0) (fun _ => Fin 0) (fun a b => Rabs (first_atom a - first_atom b))
    (fun l g => (Nat.min (hd 0 g) (length l - 1), tl g)) (fun l g => (Nat.min (hd 0 g) (length l - 1), tl g))
    (fun g => (/ 2, tl g)%R) (fun _ _ g => (/ 2, g))%R (fun l g => (l, g)) (fun l _ g => (map (fun _ => 1%Z) l, g))
    (fun n g => (Nat.min (hd 0 g) (n - 1), tl g)) (Some 0%Z).

Lemma toyd_ok : gen_ok toyd.
Proof.
  constructor; cbn [toyd cat catp uint dirich multin fst].
  - intros l g H. destruct l; [congruence|]. cbn [length]. lia.
  - intros l g H. destruct l; [congruence|]. cbn [length]. lia.
  - intros. lia.
  - reflexivity.
  - intros. apply map_length.
Qed.

Definition data3 : list (list nat) := [[7]; [8]; [9]].
Definition trio : sst toyd :=
  mkS toyd [(false, [0]); (false, [1]); (false, [2]); (false, [5]); (false, [6]); (false, [7])] [[0]; [1]; [2]] [[0]; [1]; [2]] []
    [[1%Z]; [1%Z]; [1%Z]] [[3]; [4]; [5]] [[1%Z]; [1%Z]; [1%Z]] [[0]; [0]; [0]] [0; 1; 2] [true; true; true] [1%R; 1%R; 1%R]
    [[None]; [None]; [None]] [[Some 0]; [Some 0]; [Some 0]] [] (/ 2)%R.

Ltac three r := destruct r as [|[|[|r]]]; [| | |exfalso; cbn in *; lia].

Lemma trio_wf : wf toyd data3 trio.
Proof.
  constructor; try reflexivity.
  - constructor.
  - intros r Hr. three r; (constructor; try reflexivity; try (repeat constructor; cbn; lia)).
    all: try (intros l Hl; assert (l = 0) as -> by (cbn in Hl; lia); exact Logic.I).
    all: intros l k Hl E; assert (l = 0) as -> by (cbn in Hl; lia); injection E as <-; reflexivity.
  - intros i Hi. three i; cbn; lia.
  - intros r Hr. three r; cbn; tauto.
  - intros i Hi. three i; (split; [reflexivity|repeat constructor]).
  - intros r Hr. three r; cbn; lia.
  - intros r Hr. three r; (split; [reflexivity|repeat constructor]).
  - constructor.
    + intros r. destruct r as [|[|[|[|r]]]]; repeat constructor; auto.
    + intros r. destruct r as [|[|[|[|r]]]]; repeat constructor; auto.
    + constructor.
    + unfold own. intros r r' o A B. destruct r as [|[|[|[|r]]]], r' as [|[|[|[|r']]]]; cbn in A, B; try lia.
    + intros r o _ [].
Qed.

Lemma trio_movable : movable toyd data3 trio.
Proof.
  split; [split; [apply trio_wf|split]|].
  - intros r Hr. three r; split; repeat constructor; lia.
  - repeat constructor; lra.
  - intros r Hr. three r; discriminate.
Qed.

Lemma data3_ne : forall d, In d data3 -> d <> [].
Proof. intros d [<-|[<-|[<-|[]]]]; discriminate. Qed.

Lemma trio_target : forall i r, i < 3 -> r < 3 -> target toyd pars data3 trio i r = (/ 2)%R.
Proof.
  intros i r Hi Hr. unfold target, mix_density, mix_weight, counts, tables, dens, occupied.
  assert (E : (IZR 1 / (p_alpha pars + IZR (zsum [1%Z])) = / 2)%R) by (unfold zsum; cbn [p_alpha pars fold_right]; change (1 + 0)%Z with 1%Z; field).
  three i; three r; cbn -[IZR Rdiv Rmult Rplus exp p_alpha zsum]; rewrite E; cbn [xexp]; rewrite exp_0; lra.
Qed.

Lemma trio_mixture : forall r, r < 3 -> first_atom (mixture toyd trio r) = INR r.
Proof. intros r Hr. three r; reflexivity. Qed.

Lemma trio_near : forall a b, a < 3 -> b < 3 -> near toyd trio a b = (1 + 1 / 10 / (1 / 10000 + Rabs (INR a - INR b)))%R.
Proof. intros a b Ha Hb. unfold near. cbn [toyd mdist]. rewrite !trio_mixture by auto. reflexivity. Qed.

(** The ratio of the proposal probabilities is left out: with a symmetric
    distance the chain is still not reversible. *)
Theorem C127_metro_dist_reversible_refuted :
  exists (I : SH) (P : params) (data : list (list (Datum I))) (s : sst I) (i a b : nat),
  (forall x y, mdist I x y = mdist I y x /\ mdist I x x = 0%R /\ (0 <= mdist I x y)%R) /\ movable I data s /\ i < length data /\ a < length data /\ b < length data /\
  (0 < target I P data s i a)%R /\ (0 < target I P data s i b)%R /\
  (target I P data s i a * mh (proposal I data s a b) (target I P data s i a) (target I P data s i b) <>
   target I P data s i b * mh (proposal I data s b a) (target I P data s i b) (target I P data s i a))%R.
Proof.
  exists toyd, pars, data3, trio, 0, 0, 1. split; [|split; [apply trio_movable|]].
  { intros x y. cbn [toyd mdist]. split; [apply Rabs_minus_sym|]. split; [rewrite Rminus_eq_0; apply Rabs_R0|apply Rabs_pos]. }
  rewrite !trio_target by lia. do 3 (split; [cbn; lia|]). do 2 (split; [lra|]).
  unfold mh. replace (/ 2 / / 2)%R with 1%R by field. unfold Rmin. destruct (Rle_dec 1 1) as [_|X]; [|lra].
  unfold proposal. cbn [length data3 seq map]. rewrite !trio_near by lia. cbn [INR].
  replace (0 - 0)%R with 0%R by lra. replace (1 - 1)%R with 0%R by lra. replace (0 - 1)%R with (-1)%R by lra. replace (0 - (1 + 1))%R with (-2)%R by lra.
  replace (1 - 0)%R with 1%R by lra. replace (1 - (1 + 1))%R with (-1)%R by lra.
  rewrite Rabs_R0, Rabs_R1, (Rabs_left (-1)), (Rabs_left (-2)) by lra. unfold rsum. cbn [fold_right].
  intros E. 
  set (a := (1 + 1 / 10 / (1 / 10000 + 0))%R) in E. set (b := (1 + 1 / 10 / (1 / 10000 + - -1))%R) in E.
  set (c := (1 + 1 / 10 / (1 / 10000 + - -2))%R) in E. set (b' := (1 + 1 / 10 / (1 / 10000 + 1))%R) in E.
  assert (Eb : b' = b) by (unfold b, b'; do 3 f_equal; lra). rewrite Eb in E.
  assert (Va : (a = 1001)%R) by (unfold a; field). assert (Vb : (b = 11001 / 10001)%R) by (unfold b; field). assert (Vc : (c = 21001 / 20001)%R) by (unfold c; field).
  rewrite Va, Vb, Vc in E. apply Rmult_eq_reg_l in E; [|lra]. apply Rmult_eq_reg_r in E; [|lra]. unfold Rdiv at 1 5 in E. 
  apply Rmult_eq_reg_l in E; [|lra]. apply (f_equal Rinv) in E. rewrite !Rinv_inv in E. lra.
Qed.
Print Assumptions C127_metro_dist_reversible_refuted.

(** The mixture a group is compared with has total mass [n / (alpha + n)]. *)
Theorem C127_mixture_mass : forall (I : SH) (P : params) (s : sst I) r, length (counts I s r) = length (tables I s r) ->
  rsum (map (mix_weight I P s r) (seq 0 (length (tables I s r)))) = (IZR (zsum (counts I s r)) / (p_alpha P + IZR (zsum (counts I s r))))%R.
Proof.
  intros I P s r L. unfold mix_weight. rewrite <- L. generalize (p_alpha P + IZR (zsum (counts I s r)))%R as t. generalize (counts I s r) as l. clear. intros l t.
  transitivity (rsum (map (fun n => IZR n / t)%R l)); [f_equal; symmetry; apply (seq_data _ _ 0%Z)|].
  unfold rsum, zsum. induction l as [|n l IH]; cbn [map fold_right]; [unfold Rdiv; ring|]. rewrite IH, plus_IZR. unfold Rdiv. ring.
Qed.
Print Assumptions C127_mixture_mass.

Theorem C127_mixture_is_density_refuted :
  exists (I : SH) (P : params) (data : list (list (Datum I))) (s : sst I) (r : nat), movable I data s /\ r < length data /\ (0 < p_alpha P)%R /\
  rsum (map (mix_weight I P s r) (seq 0 (length (tables I s r)))) <> 1%R.
Proof.
  exists toyd, pars, data3, trio, 0. split; [apply trio_movable|]. split; [cbn; lia|]. split; [cbn; lra|]. rewrite C127_mixture_mass by reflexivity.
  change (zsum (counts toyd trio 0)) with 1%Z. cbn [pars p_alpha]. lra.
Qed.
Print Assumptions C127_mixture_is_density_refuted.

(** Two tables serving one shared atom. *)
Definition one_dish : sst toyd :=
  mkS toyd [(false, [1])] [[0; 0]] [[]] [0] [[1%Z; 1%Z]] [[]] [[]] [[0; 1]] [0] [true] [1%R] [[Some 0; Some 0]] [[None; None]] [2%Z] 0%R.

Lemma one_dish_wf : wf toyd [[7; 8]] one_dish.
Proof.
  constructor; try reflexivity.
  - repeat constructor.
  - intros r Hr. assert (r = 0) as -> by (cbn in Hr; lia). constructor; try reflexivity; try (repeat constructor; cbn; lia).
    + intros l Hl. destruct l as [|[|l]]; [| |cbn in Hl; lia]; cbn; lia.
    + intros l k Hl E. destruct l as [|[|l]]; [discriminate E|discriminate E|cbn in Hl; lia].
  - intros i Hi. assert (i = 0) as -> by (cbn in Hi; lia). cbn. lia.
  - intros r Hr. assert (r = 0) as -> by (cbn in Hr; lia). cbn. tauto.
  - intros i Hi. assert (i = 0) as -> by (cbn in Hi; lia). split; [reflexivity|]. repeat constructor.
  - intros r Hr. assert (r = 0) as -> by (cbn in Hr; lia). cbn. lia.
  - intros r Hr. assert (r = 0) as -> by (cbn in Hr; lia). cbn. split; auto.
  - constructor.
    + intros [|[|r]]; constructor.
    + intros [|[|r]]; constructor.
    + repeat constructor; cbn; intuition lia.
    + intros r r' o [H|H]; destruct r as [|[|r]]; destruct H.
    + intros r o [H|H]; destruct r as [|[|r]]; destruct H.
Qed.

(** The base measure of the shared tables has total mass [1 + gamma / m], not
    one: it does not average densities that are all one to one. *)
Theorem C127_base_measure_refuted :
  exists (I : SH) (P : params) (data : list (list (Datum I))) (s : sst I) (logm : list Z) (d : Datum I),
  wf I data s /\ counts_exact I data s /\ no_empty I data s /\ Forall2 (fun n v => ilog I n = Ok v) (s_m I s) logm /\
  (forall o, o < length (s_heap I s) -> dens I (s_heap I s) o d = 1%R) /\ xexp (marg I d) = 1%R /\
  shared_base I P s logm (exp (ln (INR (length (dishes I data s)) + / 10 ^ 20))) d <> 1%R.
Proof.
  exists toyd, (mkParams 1 2 1 1 1 (/ 2) "full"), [[7; 8]], one_dish, [0%Z], 7. split; [apply one_dish_wf|]. split; [|split; [|split; [|split; [|split]]]].
  - split; [|reflexivity]. intros r Hr. assert (r = 0) as -> by (cbn in Hr; lia). reflexivity.
  - split.
    + intros r l Hr Hl. assert (r = 0) as -> by (cbn in Hr; lia). destruct l as [|[|l]]; [left; reflexivity|right; left; reflexivity|cbn in Hl; lia].
    + intros h Hh. assert (h = 0) as -> by (cbn in Hh; lia). left. reflexivity.
  - constructor; [apply ilog_2|constructor].
  - intros o Ho. assert (o = 0) as -> by (cbn in Ho; lia). apply exp_0.
  - apply exp_0.
  - assert (Hp : (0 < / 10 ^ 20)%R) by (apply Rinv_0_lt_compat; apply pow_lt; lra).
    assert (Hq : (/ 10 ^ 20 < 1)%R) by (rewrite <- Rinv_1; apply Rinv_lt_contravar; [rewrite Rmult_1_l; apply pow_lt; lra|apply Rlt_pow_R1; [lra|lia]]).
    change (length (dishes toyd [[7; 8]] one_dish)) with 2. rewrite exp_ln by (cbn [INR]; lra).
    unfold shared_base. change (length (s_shared toyd one_dish)) with 1. cbn [seq map rsum fold_right nth]. change (dens toyd (s_heap toyd one_dish) (nth 0 (s_shared toyd one_dish) 0) 7) with (exp 0).
    change (xexp (marg toyd 7)) with (exp 0). rewrite exp_0. cbn [p_gamma INR]. intros E.
    set (e := (/ 10 ^ 20)%R) in *. clearbody e. apply (f_equal (Rmult (1 + 1 + e))) in E. field_simplify in E; lra.
Qed.
Print Assumptions C127_base_measure_refuted.

(** Choose the last category when it has more than half the mass. *)
Definition toyh : SH :=
  mkSH nat (bool * list nat) (list nat) 1
    (fun g => ((false, [hd 0 g]), tl g)) (fun d g => ((true, d), tl g))
    (fun _ _ => Fin 0) (fun _ => Fin (ln 3)) (fun _ _ => 0%R)
    (fun l g => (if Rlt_dec (/ 2 * rsum (map xexp l)) (xexp (last l XInf)) then length l - 1 else 0, g)) (fun l g => (0, g))
    (fun g => (/ 2, g)%R) (fun _ _ g => (/ 2, g))%R (fun l g => (l, g)) (fun l _ g => (map (fun _ => 1%Z) l, g))
    (fun n g => (0, g)) (Some 0%Z).

Definition three_tables : sst toyh :=
  mkS toyh [(false, [1])] [[0; 0; 0]] [[]] [0] [[1%Z; 1%Z; 1%Z]] [[]] [[]] [[0; 1; 2]] [0] [true] [1%R] [[Some 0; Some 0; Some 0]] [[None; None; None]] [3%Z] 0%R.

Lemma three_tables_wf : wf toyh [[7; 8; 9]] three_tables.
Proof.
  constructor; try reflexivity.
  - repeat constructor.
  - intros r Hr. assert (r = 0) as -> by (cbn in Hr; lia). constructor; try reflexivity; try (repeat constructor; cbn; lia).
    + intros l Hl. three l; cbn; lia.
    + intros l k Hl E. three l; discriminate E.
  - intros i Hi. assert (i = 0) as -> by (cbn in Hi; lia). cbn. lia.
  - intros r Hr. assert (r = 0) as -> by (cbn in Hr; lia). cbn. tauto.
  - intros i Hi. assert (i = 0) as -> by (cbn in Hi; lia). split; [reflexivity|]. repeat constructor.
  - intros r Hr. assert (r = 0) as -> by (cbn in Hr; lia). cbn. lia.
  - intros r Hr. assert (r = 0) as -> by (cbn in Hr; lia). cbn. split; auto.
  - constructor.
    + intros [|[|r]]; constructor.
    + intros [|[|r]]; constructor.
    + repeat constructor; cbn; intuition lia.
    + intros r r' o [H|H]; destruct r as [|[|r]]; destruct H.
    + intros r o [H|H]; destruct r as [|[|r]]; destruct H.
Qed.

(** The marginal density of the table's observation is left out: a new shared
    atom has probability 3/5 given the observation, and is not chosen by a
    generator that takes what has more than half of the mass. *)
Theorem C127_new_dish_refuted :
  exists (P : params) (data : list (list nat)) (s s' : sst toyh) (d : nat) (g g' : list nat),
  wf toyh data s /\ s_m toyh s = tally (length (s_shared toyh s)) (dishes toyh data s) /\ held toyh data s 0 0 = [d] /\
  let others := rsum (map (fun k => (IZR (nth k (s_m toyh s) 0%Z) - (if k =? 0 then 1 else 0)) * dens toyh (s_heap toyh s) (nth k (s_shared toyh s) O) d)%R (seq 0 (length (s_shared toyh s)))) in
  (/ 2 < p_gamma P * xexp (marg toyh d) / (others + p_gamma P * xexp (marg toyh d)))%R /\
  shared_table toyh P 0 (map (held toyh data s 0) (seq 0 3)) (s, g) 0 = Ok (s', g') /\
  nth 0 (nth 0 (s_ts toyh s') []) None = Some 0.
Proof.
  exists pars, [[7; 8; 9]], three_tables. eexists. exists 7, [], []. split; [apply three_tables_wf|]. split; [reflexivity|]. split; [reflexivity|]. cbv zeta. split; [|split].
  - cbn [three_tables s_shared length seq map s_m nth Nat.eqb rsum fold_right s_heap toyh marg xexp pars p_gamma]. unfold dens. cbn [nth_error toyh like xexp]. rewrite exp_0, exp_ln by lra. lra.
  - unfold shared_table. cbn -[xlog Rlt_dec Rmult IZR Rplus]. 
    destruct (Rlt_dec _ _) as [X|X].
    + exfalso. rewrite !xexp_add in X. cbn [xexp] in X. rewrite !xexp_log, exp_0 in X by (try lra; apply IZR_le; lia). change (3 + -1)%Z with 2%Z in X. rewrite exp_plus, exp_0 in X. lra.
    + cbn. reflexivity.
  - reflexivity.
Qed.
Print Assumptions C127_new_dish_refuted.

(** ** Examples *)

Definition with_mode (m : string) : params := mkParams 1 2 3 1 1 (/ 2) m.

Example C127_weight_example : n_private toyd data3 trio = 3 /\ n_shared toyd data3 trio = 0 /\ n_private toyd [[7; 8]] one_dish = 0 /\ n_shared toyd [[7; 8]] one_dish = 2.
Proof. repeat split. Qed.

Example C127_weight_instance : update_semihdp_weight toyd pars data3 trio [4] = Ok (w_w toyd (/ 2)%R trio, [4]).
Proof. exact (C127_weight toyd pars data3 trio [4] trio_wf). Qed.

Example C127_conjugate_instance : (Rpower (/ 3) (1 - 1) * Rpower (1 - / 3) (1 - 1) * ((/ 3) ^ 3 * (1 - / 3) ^ 0) = Rpower (/ 3) (1 + INR 3 - 1) * Rpower (1 - / 3) (1 + INR 0 - 1))%R.
Proof. exact (C127_weight_conjugate toyd pars data3 trio (/ 3)%R ltac:(lra)). Qed.

Example C127_restaurant_weights_instance : update_dirichlet toyd (with_mode "full") data3 trio [] = Ok (w_conc toyd [3 + 1; 3 + 1; 3 + 1]%R trio, []).
Proof. exact (C127_restaurant_weights toyd (with_mode "full") data3 trio [] trio_wf). Qed.

Example C127_step_instance : exists s' g', step toy1 pars data2 [] true (at_shared, [1; 2; 3]) = Ok (s', g') /\ s_conc toy1 s' = [(1 + 1)%R].
Proof.
  destruct (C127_step toy1 pars data2 [] 0%Z true at_shared [1; 2; 3] eq_refl ltac:(intros d [<-|[]]; discriminate) ltac:(discriminate) (toy_ok _ _ _ _) eq_refl ltac:(discriminate) at_shared_wf)
    as (s' & g' & g1 & g2 & E & _ & X & R). exists s', g'. split; [exact E|]. rewrite X. specialize (R eq_refl). unfold n_groups. rewrite R. reflexivity.
Qed.

Example C127_full_instance : exists s' g' ps, rest_step toyd pars data3 (trio, [2]) 0 = Ok (s', g') /\ map xexp ps = [/ 2; / 2; / 2]%R /\ hd 7 (s_ra toyd s') < 3.
Proof.
  destruct (C127_full toyd pars data3 trio [2] 0 eq_refl data3_ne toyd_ok trio_movable ltac:(cbn; lra) eq_refl ltac:(cbn; lia)) as (s' & g' & ps & E & X & Y).
  exists s', g', ps. split; [exact E|]. split.
  - rewrite X. cbn [data3 length seq map]. rewrite !trio_target by lia. reflexivity.
  - rewrite Y. cbn [trio s_ra upd hd toyd cat fst]. assert (L : length ps = 3) by (rewrite <- (map_length xexp), X; reflexivity). rewrite L. cbn. lia.
Qed.

Lemma trio_target' : forall i r, i < 3 -> r < 3 -> forall m, target toyd (with_mode m) data3 trio i r = (/ 2)%R.
Proof. intros i r Hi Hr m. exact (trio_target i r Hi Hr). Qed.

Example C127_metro_base_instance : exists s' g', rest_step toyd (with_mode "metro_base") data3 (trio, [2]) 0 = Ok (s', g') /\ s_ra toyd s' = [2; 1; 2].
Proof.
  destruct (C127_metro_base toyd (with_mode "metro_base") data3 trio [2] 0 eq_refl data3_ne toyd_ok trio_movable ltac:(cbn; lra) eq_refl ltac:(cbn; lia)) as (s' & g' & E & Y).
  exists s', g'. split; [exact E|]. rewrite Y. cbn [uint toyd fst snd unif]. cbn [trio s_ra nth hd data3 length Nat.min Nat.sub]. rewrite !trio_target' by lia.
  destruct (Rlt_dec (/ 2 * / 2) (/ 2)) as [X|X]; [reflexivity|lra].
Qed.

Example C127_metro_base_reversible_example : (/ 3 * mh (/ INR 4) (/ 3) 2 = 2 * mh (/ INR 4) 2 (/ 3))%R.
Proof. apply C127_metro_base_reversible; lra. Qed.

Example C127_metro_dist_instance : exists s' g', rest_step toyd (with_mode "metro_dist") data3 (trio, [1]) 0 = Ok (s', g') /\ s_ra toyd s' = [1; 1; 2].
Proof.
  destruct (C127_metro_dist toyd (with_mode "metro_dist") data3 trio [1] 0 eq_refl data3_ne toyd_ok trio_movable ltac:(cbn; lra) eq_refl ltac:(cbn; lia)) as (s' & g' & E & Y).
  exists s', g'. split; [exact E|]. rewrite Y. cbn [catp toyd fst snd unif]. rewrite map_length, seq_length. cbn [trio s_ra nth hd data3 length Nat.min Nat.sub]. rewrite !trio_target' by lia.
  destruct (Rlt_dec (/ 2 * / 2) (/ 2)) as [X|X]; [reflexivity|lra].
Qed.

Example C127_leave_example : exists s1 ln lm, leave_table toyd one_dish [[0%Z; 0%Z]] [0%Z] 0 0 0 = Ok (s1, ln, lm) /\ s_n toyd s1 = [[0%Z; 1%Z]] /\ s_m toyd s1 = [1%Z].
Proof. do 3 eexists. split; [unfold leave_table; cbn -[Int_part ln]; unfold ilog; cbn [Z.ltb Z.compare Z.add Z.opp Z.pos_sub]; cbn -[Int_part ln]; reflexivity|]. split; reflexivity. Qed.

Example C127_seat_example : exists s1 ln1 lm1 s' ln' lm' g',
  leave_table toyd one_dish [[0%Z; 0%Z]] [0%Z] 0 0 0 = Ok (s1, ln1, lm1) /\ nth_error (nth 0 [[7; 8]] []) 0 = Some 7 /\
  table_step toyd pars [[7; 8]] (ln 2) 0 0 ((one_dish, [[0%Z; 0%Z]], [0%Z]), [1]) 0 = Ok ((s', ln', lm'), g') /\ s_tab toyd s' = [[1; 1]].
Proof.
  do 7 eexists. split; [unfold leave_table; cbn -[Int_part ln]; unfold ilog; cbn [Z.ltb Z.compare Z.add Z.opp Z.pos_sub]; cbn -[Int_part ln]; reflexivity|]. split; [reflexivity|]. split.
  - unfold table_step, leave_table. cbn -[Int_part ln xlse xlog new_weight]. reflexivity.
  - reflexivity.
Qed.

Example C127_sweep_instance : exists s' g' s0, update_table_allocs toyd pars [[7; 8]] one_dish [9] = Ok (s', g') /\ counts_exact toyd [[7; 8]] s0 /\ s_tab toyd s0 = [[0; 1]].
Proof.
  assert (X : exists s' g', update_table_allocs toyd pars [[7; 8]] one_dish [9] = Ok (s', g')).
  { destruct (ok_inv _ _ _ (ok_update_table_allocs toyd pars [[7; 8]] eq_refl toyd_ok 0%Z eq_refl one_dish [9] (fun _ => True) one_dish_wf ltac:(intros; exact Logic.I))) as ([s' g'] & E & _). eauto. }
  destruct X as (s' & g' & E). destruct (C127_sweep toyd pars [[7; 8]] one_dish [9] s' g' eq_refl one_dish_wf E) as (s0 & logn & logm & ln' & lm' & A & B & _).
  exists s', g', s0. split; [exact E|]. split; [exact B|]. rewrite A. reflexivity.
Qed.

Example C127_open_private_example : exists s' ln' lm' g', open_table toyd (w_w toyd 1%R one_dish) [[0%Z; 0%Z]] [0%Z] 0 7 [] [] = Ok ((s', ln', lm'), g') /\ s_rest toyd s' = [[0; 0; 1]].
Proof.
  do 4 eexists. split.
  - unfold open_table. cbn -[Rlt_dec]. destruct (Rlt_dec _ _) as [X|X]; [|lra]. cbn. reflexivity.
  - reflexivity.
Qed.

Example C127_open_shared_example : exists s' ln' lm' g', open_table toyd one_dish [[0%Z; 0%Z]] [0%Z] 0 7 [Fin 0; Fin 0] [5; 0] = Ok ((s', ln', lm'), g') /\ s_rest toyd s' = [[0; 0; 0]] /\ s_m toyd s' = [3%Z].
Proof.
  do 4 eexists. split.
  - unfold open_table. cbn -[Rlt_dec]. destruct (Rlt_dec _ _) as [X|X]; [lra|]. cbn. reflexivity.
  - split; reflexivity.
Qed.

Example C127_dish_example : exists s' g', shared_table toyd pars 0 [[7]; [8]] (one_dish, [1]) 0 = Ok (s', g') /\ s_ts toyd s' = [[Some 1; Some 0]].
Proof.
  do 2 eexists. split; [unfold shared_table; cbn -[xlog]; reflexivity|reflexivity].
Qed.

Example C127_table_data_instance : by_table toyd [[7; 8]] one_dish 0 = Ok [[7]; [8]].
Proof. exact (C127_table_data toyd [[7; 8]] one_dish 0 eq_refl one_dish_wf ltac:(cbn; lia)). Qed.

Example C127_moved_observations_example : exists s' g', reassign_obs toyd [[7; 8]] 0 0 (one_dish, [1]) 0 = Ok (s', g') /\ s_tab toyd s' = [[1; 1]].
Proof. do 2 eexists. split; [unfold reassign_obs; cbn -[rlog]; reflexivity|reflexivity]. Qed.

Definition pseudo3 : list (list (pstate toyd)) :=
  [[([(false, [4]); (true, [5])], [0; 1])]; [([(false, [6])], [0; 0])]; [([(false, [8]); (false, [9])], [1; 1; 0])]].

Example C127_pseudo_prior_instance : exists s' g', sample_pseudo_prior toyd pars data3 pseudo3 trio [] = Ok (s', g') /\
  map (nth_error (s_heap toyd s')) (nth 2 (s_restp toyd s') []) = [Some (false, [8]); Some (false, [9])].
Proof.
  assert (PO : pseudo_ok toyd data3 pseudo3).
  { split; [cbn; lia|]. exists 1. split; [lia|]. intros r Hr. three r; (split; [reflexivity|]); (repeat constructor); try discriminate; cbn; lia. }
  destruct (C127_pseudo_prior toyd pars data3 pseudo3 trio [] eq_refl toyd_ok PO ltac:(cbn; lia) trio_wf) as (s' & g' & E & X). exists s', g'. split; [exact E|].
  destruct (X 2 ltac:(cbn; lia)) as (ps & g0 & A & _ & C). rewrite C. cbn in A. injection A as <-. reflexivity.
Qed.

Example C127_pseudo_weights_instance : rsum (map (pseudo_weight toyd pars ([(false, [8]); (false, [9])], [1; 1; 0])) [0; 1]) = 1%R.
Proof. apply (C127_pseudo_weights toyd pars ([(false, [8]); (false, [9])], [1; 1; 0])); [discriminate|repeat constructor]. Qed.

Example C127_mixture_mass_instance : rsum (map (mix_weight toyd pars trio 1) [0]) = (IZR 1 / (1 + IZR 1))%R.
Proof. exact (C127_mixture_mass toyd pars trio 1 eq_refl). Qed.
